(** * P_Unamb: the format is unambiguous *)

From Verif Require Import Base Wire SpecWire SpecFormat SpecWrite Types SpecDe SpecDoc P_Base P_Wire P_Types.

Lemma app_prefix {A} (a : list A) : forall b x y, a ++ x = b ++ y -> (exists z, b = a ++ z) \/ (exists z, a = b ++ z).
Proof.
  induction a as [|h a IH]; intros b x y H; [left; exists b; reflexivity|].
  destruct b as [|h' b]; [right; exists (h :: a); reflexivity|].
  injection H as <- H. destruct (IH _ _ _ H) as [(z & ->)|(z & ->)]; [left|right]; exists z; reflexivity.
Qed.
Lemma varint_unamb a b x y m n : legal_varint a m -> legal_varint b n -> a ++ x = b ++ y -> m = n /\ a = b /\ x = y.
Proof.
  intros Ha Hb H.
  assert (Hab : a = b).
  { destruct (app_prefix _ _ _ _ H) as [(z & ->)|(z & ->)].
    - rewrite (varint_prefix_free a (a ++ z) z); [now rewrite app_nil_r|apply Ha|apply Hb|reflexivity].
    - rewrite (varint_prefix_free b (b ++ z) z); [now rewrite app_nil_r|apply Hb|apply Ha|reflexivity]. }
  subst b. apply app_inv_head in H. destruct Ha as (_ & _ & Hm & _). destruct Hb as (_ & _ & Hn & _). repeat split; congruence.
Qed.
Ltac tags := unfold tag_ok in *; try lia.
Lemma hdr_unamb h1 h2 a b x y : hdr_enc h1 a -> hdr_enc h2 b -> a ++ x = b ++ y -> h1 = h2 /\ a = b /\ x = y.
Proof.
  intros Ha Hb H.
  assert (Hhd : hd 0 (a ++ x) = hd 0 (b ++ y)) by now rewrite H.
  assert (Htl : tl (a ++ x) = tl (b ++ y)) by now rewrite H.
  destruct Ha, Hb; cbn [app hd tl] in Hhd, Htl; tags; try (subst; auto; fail);
    repeat match goal with Hd : ?c + ?t = ?c + ?t0 |- _ => assert (t = t0) by lia; subst; clear Hd end; auto;
    match goal with H1 : legal_varint ?v ?d, H2 : legal_varint ?w ?g, H : ?v ++ _ = ?w ++ _ |- _ =>
      destruct (varint_unamb _ _ _ _ _ _ H1 H2 H) as (-> & -> & ->) end; auto.
Qed.
Lemma hdr_of_inj d e : hdr_of d = hdr_of e -> payload d = payload e -> d = e.
Proof. destruct d as [t []| | | |], e as [t' []| | | |]; cbn; intros H1 H2; try discriminate; congruence. Qed.
Lemma payload_len d e : hdr_of d = hdr_of e -> lenN (payload d) = lenN (payload e).
Proof. destruct d as [t []| | | |], e as [t' []| | | |]; cbn; intros H1; try discriminate; congruence. Qed.
Lemma app_same_len {A} (a : list A) : forall b x y, a ++ x = b ++ y -> lenN a = lenN b -> a = b /\ x = y.
Proof.
  induction a as [|h a IH]; intros [|h' b] x y H Hl; auto; rewrite ?lenN_cons in Hl; change (lenN (@nil A)) with 0 in Hl; try lia.
  injection H as <- H. destruct (IH b x y H) as [-> ->]; [lia|auto].
Qed.
Lemma elem_unamb d e a b x y : elem_enc d a -> elem_enc e b -> a ++ x = b ++ y -> d = e /\ a = b /\ x = y.
Proof.
  intros (h & Hh & _ & ->) (g & Hg & _ & ->) H. rewrite <- !app_assoc in H.
  destruct (hdr_unamb _ _ _ _ _ _ Hh Hg H) as (E & -> & H').
  destruct (app_same_len _ _ _ _ H' (payload_len _ _ E)) as [Ep ->].
  rewrite Ep. split; [now apply hdr_of_inj|auto].
Qed.

(** Two readings of the same bytes: one continues the other. *)
Lemma elems_unamb ds : forall es a b x y, elems_enc ds a -> elems_enc es b -> a ++ x = b ++ y ->
  (exists r z, ds = es ++ r /\ a = b ++ z /\ elems_enc r z) \/ (exists r z, es = ds ++ r /\ b = a ++ z /\ elems_enc r z).
Proof.
  induction ds as [|d ds IH]; intros es a b x y Ha Hb H.
  - right. exists es, b. inversion Ha; subst. auto.
  - destruct es as [|e es].
    + left. exists (d :: ds), a. inversion Hb; subst. auto.
    + inversion Ha as [|? ? a1 a2 Ha1 Ha2]; subst. inversion Hb as [|? ? b1 b2 Hb1 Hb2]; subst.
      rewrite <- !app_assoc in H. destruct (elem_unamb _ _ _ _ _ _ Ha1 Hb1 H) as (-> & -> & H').
      destruct (IH _ _ _ _ _ Ha2 Hb2 H') as [(r & z & -> & -> & Hr)|(r & z & -> & -> & Hr)]; [left|right]; exists r, z; rewrite app_assoc; auto.
Qed.

(** Documents. *)
Lemma flat_cons t n ks : flat ((t, n) :: ks) = flat_node t n ++ flat ks.
Proof. reflexivity. Qed.
Lemma node_unamb n : forall t t' n' X Y, flat_node t n ++ X = flat_node t' n' ++ Y -> t = t' /\ n = n' /\ X = Y.
Proof.
  assert (Hfs : forall fs, Forall (fun p => forall t t' n' X Y, flat_node t (snd p) ++ X = flat_node t' n' ++ Y -> t = t' /\ (snd p) = n' /\ X = Y) fs ->
    forall gs X Y, flat fs ++ DEnd :: X = flat gs ++ DEnd :: Y -> fs = gs /\ X = Y).
  { clear n. induction 1 as [|[t n] fs Hn Hfs IH]; intros gs X Y H.
    - destruct gs as [|[t' n'] gs].
      + injection H as <-. auto.
      + rewrite flat_cons in H. destruct n'; discriminate H.
    - destruct gs as [|[t' n'] gs].
      + rewrite flat_cons in H. destruct n; discriminate H.
      + rewrite !flat_cons, <- !app_assoc in H. cbn [snd] in Hn. apply Hn in H. destruct H as (-> & -> & H).
        destruct (IH _ _ _ H) as [-> ->]. auto. }
  induction n as [x|b|fs IH|d fs IH] using node_ind'; intros t t' n' X Y H; destruct n' as [x'|b'|fs'|d' fs'];
    cbn [flat_node app] in H; try discriminate H.
  - injection H as <- <- H. auto.
  - injection H as <- <- H. auto.
  - injection H as <- H. rewrite <- !app_assoc in H. cbn [app] in H. destruct (Hfs fs IH fs' X Y H) as [-> ->]. auto.
  - injection H as <- <- H. rewrite <- !app_assoc in H. cbn [app] in H. destruct (Hfs fs IH fs' X Y H) as [-> ->]. auto.
Qed.
Lemma flat_unamb fs : forall gs X Y, flat fs ++ DEnd :: X = flat gs ++ DEnd :: Y -> fs = gs /\ X = Y.
Proof.
  induction fs as [|[t n] fs IH]; intros [|[t' n'] gs] X Y H.
  - injection H as <-. auto.
  - rewrite flat_cons in H. destruct n'; discriminate H.
  - rewrite flat_cons in H. destruct n; discriminate H.
  - rewrite !flat_cons, <- !app_assoc in H. apply node_unamb in H. destruct H as (-> & -> & H).
    destruct (IH _ _ _ H) as [-> ->]. auto.
Qed.

Lemma doc_list ks b : encodes_doc ks b -> exists es, elems_enc (es ++ [DEnd]) b /\ filter not_pad es = flat ks.
Proof.
  intros (b0 & (es & He & Hf) & ->). exists es. split; [|exact Hf]. clear Hf.
  induction He as [|e es b1 bs1 H1 H2 IH]; cbn [app].
  - apply (EncCons DEnd [] [0] []); [|constructor]. exists [0]. repeat split; constructor.
  - rewrite <- app_assoc. now constructor.
Qed.
Lemma filter_app_np a b : filter not_pad (a ++ b) = filter not_pad a ++ filter not_pad b.
Proof. apply filter_app. Qed.
Lemma doc_case ks1 ks2 es1 es2 r b1 b2 z : filter not_pad es1 = flat ks1 -> filter not_pad es2 = flat ks2 ->
  es1 ++ [DEnd] = (es2 ++ [DEnd]) ++ r -> b1 = b2 ++ z -> elems_enc r z -> ks1 = ks2 /\ b1 = b2.
Proof.
  intros E1 E2 E Hb Hr.
  assert (Hf : flat ks1 ++ [DEnd] = flat ks2 ++ DEnd :: filter not_pad r).
  { rewrite <- E1, <- E2. change [DEnd] with (filter not_pad [DEnd]). rewrite <- filter_app_np, E, <- app_assoc, !filter_app_np. reflexivity. }
  apply flat_unamb in Hf. destruct Hf as [-> Hf]. split; [reflexivity|].
  destruct r as [|r0 r].
  - inversion Hr; subst. now rewrite app_nil_r.
  - exfalso. destruct (exists_last (l := r0 :: r)) as (r' & l & El); [discriminate|]. rewrite El in E, Hf.
    rewrite !app_assoc in E. apply app_inj_tail in E. destruct E as [_ <-].
    rewrite filter_app_np in Hf. destruct (filter not_pad r'); discriminate Hf.
Qed.
Theorem documents_unamb ks1 ks2 b1 b2 x y : encodes_doc ks1 b1 -> encodes_doc ks2 b2 -> b1 ++ x = b2 ++ y ->
  ks1 = ks2 /\ b1 = b2 /\ x = y.
Proof.
  intros H1 H2 H. destruct (doc_list _ _ H1) as (es1 & L1 & F1). destruct (doc_list _ _ H2) as (es2 & L2 & F2).
  assert (Hk : ks1 = ks2 /\ b1 = b2).
  { destruct (elems_unamb _ _ _ _ _ _ L1 L2 H) as [(r & z & E & Eb & Hr)|(r & z & E & Eb & Hr)].
    - apply (doc_case ks1 ks2 es1 es2 r b1 b2 z); auto.
    - destruct (doc_case ks2 ks1 es2 es1 r b2 b1 z) as [-> ->]; auto. }
  destruct Hk as [-> ->]. apply app_inv_head in H. auto.
Qed.
