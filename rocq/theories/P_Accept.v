(** * P_Accept: whatever is accepted is a document *)

From Verif Require Import Base Wire Dev Stream SpecWire SpecFormat SpecStream Types Ser Prog De SpecDe SpecDoc SpecSerDe SpecRead SpecAccept Tree
  P_Base P_Wire P_Sched P_Read P_Write P_Blob P_Stream P_Canon P_Prog P_Wp P_Types P_Dict P_DictAll P_DeStream P_DeExt P_DeSched P_DeProps P_DeTrail P_El P_Tree P_TreeRun P_Same P_Parse P_Meaning.
Strategy 1000 [s_decode_u64 decode_u64 decode_loop write_all read_exact encode_u64 enc_loop encode_fixed_u64 mloop miter].

(** ** Exceptions, and what follows an end of document, are never accepted *)
Fixpoint norm (es : list delem) : list delem :=
  match es with
  | [] => []
  | DExc _ :: r => norm r
  | DEof :: _ => [DEof]
  | x :: r => x :: norm r
  end.
Definition anyf (f1 f2 : field) : Prop := f_tag f1 = f_tag f2 /\ f_depth f1 = f_depth f2 /\ f_val f1 = f_val f2.
Definition anyc (c1 c2 : option field) : Prop :=
  match c1, c2 with Some f1, Some f2 => anyf f1 f2 | None, None => True | _, _ => False end.
Definition RF (q1 : els) (c1 : option field) (q2 : els) (c2 : option field) : Prop :=
  anyc c1 c2 /\ q_dbg q1 = q_dbg q2 /\ q_blob q1 = q_blob q2 /\ q_eof q1 = q_eof q2 /\ q_end q1 = false /\ q_end q2 = false /\
  q_depth q1 = q_depth q2 /\
  (if q_eof q1 then q_depth q1 = 0 else q_es q2 = map (pair 0) (norm (map snd (q_es q1)))).

Lemma rf_next q1 c1 q2 c2 : RF q1 c1 q2 c2 ->
  srel true (fun a t1 b t2 => RF t1 a t2 b) (fun _ _ => False) (el_next q1) (el_next q2).
Proof.
  intros (Hcc & Hdb & Hbl & He & Hen1 & Hen2 & Hd & Hc). unfold el_next, srel. rewrite <- He.
  destruct (q_eof q1) eqn:Eo.
  - cbn. right. repeat split; auto; try congruence. rewrite Eo. exact Hc.
  - destruct (q_es q1) as [|[o e] r]; [unfold el_stop; rewrite Hen1; exact Logic.I|].
    cbn [map snd] in Hc. destruct e as [t v| | |m|]; cbn [norm map] in Hc; rewrite ?Hc; cbn [hdr_of]; cbn [fst snd]; auto.
    + destruct v; cbn [fst snd]; right; unfold RF, anyc, anyf; cbn; rewrite <- Hd; auto 12.
    + right. unfold RF, anyc. cbn. rewrite <- Hd. auto 12.
    + right. unfold RF, anyc. cbn. auto 12.
Qed.
Lemma drop_here D d eof l : (d <=? D) = true -> drop_to D d eof l = Some (d, eof, l).
Proof. intros E. destruct l as [|[]]; cbn [drop_to]; rewrite E; reflexivity. Qed.
Lemma norm_drop D : forall es d d' eof' es', drop_to D d false es = Some (d', eof', es') ->
  exists es2, drop_to D d false (map (pair 0) (norm (map snd es))) = Some (d', eof', es2) /\
    if eof' then d' = 0 else es2 = map (pair 0) (norm (map snd es')).
Proof.
  induction es as [|[o e] r IH]; intros d d' eof' es' H; cbn [drop_to] in H.
  - destruct (d <=? D) eqn:E; [|discriminate]. injection H as <- <- <-. exists []. cbn [norm map drop_to]. rewrite E. auto.
  - destruct (d <=? D) eqn:E.
    + injection H as <- <- <-. eexists. split; [apply drop_here; exact E|reflexivity].
    + cbn [map snd]. destruct e as [t v| | |m|].
      * cbn [norm map drop_to]. rewrite E. apply IH. exact H.
      * cbn [norm map drop_to]. rewrite E. apply IH. exact H.
      * cbn [norm map drop_to]. rewrite E. change (depth_after (hdr_of DEof) d) with 0 in *.
        assert (H' : d' = 0 /\ eof' = true) by (destruct r as [|[]]; cbn in H; destruct D; cbn in H; injection H as <- <- <-; auto).
        destruct H' as [-> ->]. exists []. split; [|reflexivity]. cbn. destruct D; reflexivity.
      * cbn [norm]. apply IH. exact H.
      * cbn [norm map drop_to]. rewrite E. apply IH. exact H.
Qed.
Lemma rf_skip q1 f1 q2 f2 : RF q1 (Some f1) q2 (Some f2) ->
  srel true (fun _ t1 _ t2 => RF t1 (Some f1) t2 (Some f2)) (fun _ _ => False) (el_skip f1 q1) (el_skip f2 q2).
Proof.
  intros HR. pose proof HR as (Hf & Hdb & Hbl & He & Hen1 & Hen2 & Hd & Hc). unfold el_skip, srel.
  pose proof Hf as (Ht & Hfd & Hv). rewrite <- Hv, <- Hfd.
  destruct (f_val f1); cbn [fst snd]; try (right; exact HR).
  all: destruct (drop_to (f_depth f1) (q_depth q1) (q_eof q1) (q_es q1)) as [[[d1 o1] s1]|] eqn:E1;
    [|unfold el_stop; rewrite Hen1; exact Logic.I]; cbn [fst snd]; right;
    rewrite <- Hd, <- He; destruct (q_eof q1) eqn:Eo;
    [rewrite Hc in *; assert (E2 : forall es, drop_to (f_depth f1) 0 true es = Some (0, true, es)) by (intros [|[]]; cbn; destruct (f_depth f1); reflexivity);
     rewrite E2 in *; injection E1 as <- <- <-; cbn [fst snd]; unfold RF; cbn; auto 12
    |destruct (norm_drop _ _ _ _ _ _ E1) as (es2 & E2 & Hx); rewrite Hc, E2; cbn [fst snd]; unfold RF; cbn; auto 12].
Qed.
Lemma rf_blob q1 c1 q2 c2 b : RF q1 c1 q2 c2 -> RF (q_set_blob b q1) c1 (q_set_blob b q2) c2.
Proof. intros (Hcc & Hdb & Hbl & He & Hen1 & Hen2 & Hd & Hc). unfold RF. cbn. auto 12. Qed.
Theorem el_norm cf {A} (p : prog A) st1 st2 : sim_rst RF st1 st2 ->
  orel (sim_rst RF) (err_rel (fun _ _ => True)) true (dm_rst (fun _ _ => False)) (run el_source cf p st1) (run el_source cf p st2).
Proof.
  apply src_sim.
  - intros q1 c1 q2 c2 H. apply H.
  - intros q1 c1 q2 c2 (H & _). destruct c1, c2; try exact H; cbn in *. destruct H as (H1 & H2 & H3). split; [exact H1|]. split; [exact H3|exact Logic.I].
  - apply rf_next.
  - apply rf_skip.
  - intros q1 c1 q2 c2 HR Hb1 Hb2. pose proof HR as (_ & _ & Hb & _). unfold srel. cbn. rewrite Hb. right. auto.
  - intros q1 c1 q2 c2 HR Hb1 Hb2. pose proof HR as (_ & _ & Hb & _). unfold srel. cbn. unfold el_read_fully. rewrite Hb.
    destruct (cf_blob cf <? lenN (q_blob q2)); cbn; auto. right. split; [reflexivity|]. now apply rf_blob.
  - intros n q1 c1 q2 c2 HR Hb1 Hb2. pose proof HR as (_ & _ & Hb & _). unfold srel. cbn. unfold el_read_exact. rewrite Hb.
    destruct (lenN (q_blob q2) <? n); cbn; auto. right. split; [reflexivity|]. now apply rf_blob.
  - intros q1 c1 q2 c2 HR Hb1 Hb2. pose proof HR as (_ & _ & Hb & _). unfold srel. cbn. rewrite Hb. right. auto.
  - contradiction.
  - contradiction.
  - intros f s H. contradiction.
  - intros c _. repeat split; intros; intros s H; contradiction.
Qed.
Lemma norm_cut : forall es A B, norm es = A ++ B -> exists es1 es2, es = es1 ++ es2 /\ filter not_exc es1 = A.
Proof.
  induction es as [|e r IH]; intros A B H.
  - destruct A; [|discriminate]. exists [], []. auto.
  - destruct A as [|a A]; [exists [], (e :: r); auto|]. destruct e as [t v| | |m|]; cbn [norm app] in H.
    + injection H as <- H. destruct (IH A B H) as (e1 & e2 & -> & E). exists (DField t v :: e1), e2. cbn. now rewrite E.
    + injection H as <- H. destruct (IH A B H) as (e1 & e2 & -> & E). exists (DEnd :: e1), e2. cbn. now rewrite E.
    + injection H as <- H. destruct A; [|discriminate]. exists [DEof], r. auto.
    + destruct (IH (a :: A) B H) as (e1 & e2 & -> & E). exists (DExc m :: e1), e2. auto.
    + injection H as <- H. destruct (IH A B H) as (e1 & e2 & -> & E). exists (DPad :: e1), e2. cbn. now rewrite E.
Qed.
Lemma norm_plain es x : In x (norm es) -> In x es /\ not_exc x = true.
Proof.
  induction es as [|e r IH]; [contradiction|].
  assert (Hc : In x (e :: norm r) -> not_exc e = true -> In x (e :: r) /\ not_exc x = true).
  { intros [<-|H] He; [split; [now left|exact He]|]. destruct (IH H). split; [now right|assumption]. }
  destruct e; cbn [norm]; intros H; try (apply Hc; [exact H|reflexivity]).
  - destruct H as [<-|[]]. split; [now left|reflexivity].
  - destruct (IH H). split; [now right|assumption].
Qed.
Lemma norm_nil_eof es A B : norm es = A ++ DEof :: B -> B = [].
Proof.
  revert A. induction es as [|e r IH]; intros A H; [destruct A; discriminate|].
  destruct e as [t v| | |m|]; cbn [norm] in H; try (destruct A as [|a A]; [discriminate|injection H as <- H; exact (IH A H)]).
  - destruct A as [|a A]; [now injection H|]. injection H as <- H. destruct A; discriminate.
  - exact (IH A H).
Qed.

(** ** Every list of elements starts with a document, finished or not *)
Definition open (X : list delem) : Prop := exists ks k, document ks = X ++ ends (S k).
Lemma doc_cons t n ks : document ((t, n) :: ks) = flat_node t n ++ document ks.
Proof. unfold document. change (flat ((t, n) :: ks)) with (flat_node t n ++ flat ks). now rewrite app_assoc. Qed.
Lemma as_document : forall n es, (List.length es <= n)%nat -> Forall (fun e => e <> DPad /\ not_exc e = true) es ->
  (exists ks R, es = document ks ++ R) \/ (exists X R, open X /\ (es = X ++ DEof :: R \/ es = X)).
Proof.
  induction n as [|n IH]; intros es Hn Hok.
  - destruct es; [|cbn in Hn; lia]. right. exists [], []. split; [exists [], O; reflexivity|]. now right.
  - destruct es as [|x r].
    { right. exists [], []. split; [exists [], O; reflexivity|]. now right. }
    inversion Hok as [|? ? (Hp & Hx) Hr]; subst. cbn in Hn. assert (Hn' : (List.length r <= n)%nat) by lia.
    destruct x as [t v| | |m|]; try discriminate Hx; try congruence.
    + assert (Hleaf : forall nd, flat_node t nd = [DField t v] ->
        (exists ks R, DField t v :: r = document ks ++ R) \/ (exists X R, open X /\ (DField t v :: r = X ++ DEof :: R \/ DField t v :: r = X))).
      { intros nd En. destruct (IH r Hn' Hr) as [(ks & R & ->)|(X & R & (ks & k & Hd) & HX)].
        - left. exists ((t, nd) :: ks), R. rewrite doc_cons, En. reflexivity.
        - right. exists (DField t v :: X), R. split.
          + exists ((t, nd) :: ks), k. rewrite doc_cons, En, Hd. reflexivity.
          + destruct HX as [->| ->]; auto. }
      assert (Htree : forall nd, (forall ks, flat_node t (nd ks) = DField t v :: document ks) ->
        (exists ks R, DField t v :: r = document ks ++ R) \/ (exists X R, open X /\ (DField t v :: r = X ++ DEof :: R \/ DField t v :: r = X))).
      { intros nd En. destruct (IH r Hn' Hr) as [(ks & R & ->)|(X & R & (ks & k & Hd) & HX)].
        - assert (HlR : (List.length R <= n)%nat) by (rewrite app_length in Hn'; lia).
          apply Forall_app in Hr. destruct (IH R HlR (proj2 Hr)) as [(ks2 & R2 & ->)|(X & R2 & (ks2 & k & Hd) & HX)].
          + left. exists ((t, nd ks) :: ks2), R2. rewrite doc_cons, En. cbn [app]. now rewrite <- !app_assoc.
          + right. exists (DField t v :: document ks ++ X), R2. split.
            * exists ((t, nd ks) :: ks2), k. rewrite doc_cons, En, Hd. cbn [app]. now rewrite <- !app_assoc.
            * destruct HX as [->| ->]; [left|right]; cbn [app]; now rewrite <- ?app_assoc.
        - right. exists (DField t v :: X), R. split.
          + exists [(t, nd ks)], (S k). rewrite doc_cons, En, Hd, (ends_snoc (S k)). cbn [app]. now rewrite <- app_assoc.
          + destruct HX as [->| ->]; auto. }
      destruct v as [m|c| |d].
      * apply (Hleaf (NInt m)). reflexivity.
      * apply (Hleaf (NBlob c)). reflexivity.
      * apply (Htree NStruct). intros ks. reflexivity.
      * apply (Htree (NEnum d)). intros ks. reflexivity.
    + left. exists [], r. reflexivity.
    + right. exists [], r. split; [exists [], O; reflexivity|]. now left.
Qed.

(** ** More elements make no difference *)
Definition RX (W : list (N * delem)) (q1 : els) (c1 : option field) (q2 : els) (c2 : option field) : Prop :=
  c1 = c2 /\ q_end q1 = false /\ q2 = mkEls (q_es q1 ++ W) false (q_eof q1) (q_depth q1) (q_blob q1) (q_dbg q1).
Lemma drop_more D W : forall es d eof d' eof' es', drop_to D d eof es = Some (d', eof', es') -> drop_to D d eof (es ++ W) = Some (d', eof', es' ++ W).
Proof.
  induction es as [|[o e] r IH]; intros d eof d' eof' es' H; cbn [drop_to app] in *.
  - destruct (d <=? D) eqn:E; [|discriminate]. injection H as <- <- <-. destruct W as [|[]]; cbn [drop_to]; rewrite E; reflexivity.
  - destruct (d <=? D); [injection H as <- <- <-; reflexivity|]. now apply IH.
Qed.
Theorem el_more W cf {A} (p : prog A) st1 st2 : sim_rst (RX W) st1 st2 ->
  orel (sim_rst (RX W)) (err_rel eq) false (dm_rst (fun _ _ => False)) (run el_source cf p st1) (run el_source cf p st2).
Proof.
  apply src_sim.
  - intros q1 c1 q2 c2 (_ & _ & ->). reflexivity.
  - intros q1 c1 q2 c2 (-> & _). destruct c2; cbn; repeat split.
  - intros q1 c1 q2 c2 (-> & He & ->). cbn [i_next el_source]. unfold el_next, srel. cbn [q_eof q_es q_depth q_end q_dbg].
    destruct (q_eof q1) eqn:Eo; cbn [fst snd].
    + right. unfold RX. rewrite Eo. auto.
    + destruct (q_es q1) as [|[o e] r]; [unfold el_stop; rewrite He; exact Logic.I|]. cbn [app].
      destruct (hdr_of e); cbn [fst snd]; auto; right; unfold RX; cbn; rewrite He; auto.
  - intros q1 f1 q2 f2 (Hf & He & ->). injection Hf as <-. cbn [i_skip el_source]. unfold el_skip, srel. cbn [q_eof q_es q_depth q_end q_dbg q_blob].
    assert (Hg : match drop_to (f_depth f1) (q_depth q1) (q_eof q1) (q_es q1) with
      | Some (d, eof, es) => drop_to (f_depth f1) (q_depth q1) (q_eof q1) (q_es q1 ++ W) = Some (d, eof, es ++ W) | None => True end).
    { destruct (drop_to _ _ _ (q_es q1)) as [[[d eof] es]|] eqn:E; [|exact Logic.I]. now apply drop_more. }
    destruct (f_val f1); cbn [fst snd]; try (right; unfold RX; auto; fail);
      (destruct (drop_to _ _ _ (q_es q1)) as [[[d eof] es]|]; [|unfold el_stop; rewrite He; exact Logic.I]); rewrite Hg; cbn [fst snd]; right; unfold RX; cbn; auto.
  - intros q1 c1 q2 c2 HR Hb1 Hb2. pose proof HR as (_ & He & ->). unfold srel. cbn. auto.
  - intros q1 c1 q2 c2 HR Hb1 Hb2. pose proof HR as (-> & He & ->). unfold srel. cbn. unfold el_read_fully. cbn [q_blob].
    destruct (cf_blob cf <? lenN (q_blob q1)); cbn; right; auto. split; [reflexivity|]. unfold RX, q_set_blob. cbn. auto.
  - intros n q1 c1 q2 c2 HR Hb1 Hb2. pose proof HR as (-> & He & ->). unfold srel. cbn. unfold el_read_exact. cbn [q_blob].
    destruct (lenN (q_blob q1) <? n); cbn; right; auto. split; [reflexivity|]. unfold RX, q_set_blob. cbn. auto.
  - intros q1 c1 q2 c2 HR Hb1 Hb2. pose proof HR as (_ & He & ->). unfold srel. cbn. auto.
  - contradiction.
  - contradiction.
  - intros f s H. contradiction.
  - intros c _. repeat split; intros; intros s H; contradiction.
Qed.

(** ** What is accepted *)
Lemma depth_len X : forall d, depth_through X d <= N.max d 1 + lenN X.
Proof.
  induction X as [|x X IH]; intros d.
  - cbn. unfold lenN. cbn. lia.
  - rewrite lenN_cons. cbn [depth_through]. etransitivity; [apply IH|].
    assert (depth_after (hdr_of x) d <= N.max d 1 + 1); [|lia].
    destruct x as [t []| | | |]; cbn; unfold field_depth; lia.
Qed.
Section Acc.
  Variables (cf : cfg) (e : env) (zc : bool) (t : ty) (dbg : bool).
  Hypothesis Hu : usable e zc cf t.
  Notation runs es := (run el_source cf (d_body (full_dict e (S (N.to_nat (cf_rec cf))) zc t)) (top_rst (mkEls (map (pair 0) es) false false 0 [] dbg))).

  Lemma run_document ks R : Forall el_ok (document ks) -> lenN (document ks ++ R) <= U64_MAX ->
    match read_tree cf e zc t ks with
    | (ROk v, _) => exists st, runs (document ks ++ R) = (ROk v, st) /\ q_es (x_s st) = map (pair 0) R
    | (RErr _, _) => exists x st, runs (document ks ++ R) = (RErr x, st)
    | _ => False
    end.
  Proof.
    intros Hok Hlen. destruct Hu as (He & Ht & Hc & Hb).
    assert (Hl1 : lenN (document ks) <= U64_MAX) by (rewrite lenN_app in Hlen; lia).
    pose proof (read_tree_total cf e zc t ks He Ht Hc Hb Hok Hl1) as Htot.
    set (q := mkEls (map (pair 0) (document ks ++ R)) false false 0 [] dbg).
    pose proof (full_agrees cf Hc Hb false dbg e (S (N.to_nat (cf_rec cf))) zc t) as Ha.
    pose proof (ag_body _ _ _ _ _ Ha ks (map (pair 0) R) 1 (top_rst q)) as Hd. cbn [x_s x_cur top_rst x_over] in Hd.
    assert (Hat : at_body false dbg ks (map (pair 0) R) 1 q None).
    { exists (map (pair 0) (flat ks)), 0, 0, []. split; [unfold q, document; rewrite !map_app, <- app_assoc; reflexivity|].
      split; [rewrite map_map; apply map_id|]. split; [reflexivity|].
      unfold document in Hlen. rewrite <- app_assoc in Hlen. unfold lenN in *. rewrite app_length in *. cbn [List.length app] in *. rewrite !map_length. exact Hlen. }
    specialize (Hd Hat eq_refl). change (abs (top_rst q)) with (mkC 0 0 0 []) in Hd.
    assert (Hci : cinv cf (mkC 0 0 0 [])) by (split; cbn; lia). specialize (Hd Hci). unfold read_tree in *.
    destruct (t_body _ ks (mkC 0 0 0 [])) as [[v|k| |] c']; try contradiction.
    - destruct Hd as (st' & E & (bl & Hp) & _). exists st'. split; [exact E|]. now rewrite Hp.
    - destruct Hd as (x & st' & E & _). eauto.
  Qed.

  Lemma runs_ok es v st : Forall (fun x => delem_ok x /\ lenN (payload x) <= U64_MAX) es -> Forall (fun x => x <> DPad /\ not_exc x = true) es -> 2 * lenN es + 3 < U64_MAX ->
    (forall A B, es = A ++ DEof :: B -> B = []) -> runs es = (ROk v, st) ->
    exists ks A B c, es = A ++ B /\ closes A ks /\ read_tree cf e zc t ks = (ROk v, c) /\
      (B = [] \/ (A = document ks /\ q_es (x_s st) = map (pair 0) B)).
  Proof.
    intros Hok Hpl Hlen Heof Hr.
    destruct (as_document (List.length es) es (le_n _) Hpl) as [(ks & R & ->)|(X & R & (ks & k & Hd) & HX)].
    - exists ks, (document ks), R. pose proof (run_document ks R) as H. rewrite lenN_app in *.
      apply Forall_app in Hok. apply Forall_app in Hpl.
      assert (Hel : Forall el_ok (document ks)).
      { destruct Hok as [Hok _], Hpl as [Hpl _]. rewrite Forall_forall in *. intros x Hx. destruct (Hok x Hx), (Hpl x Hx). repeat split; auto. }
      specialize (H Hel ltac:(lia)). destruct (read_tree cf e zc t ks) as [[w|x| |] c]; try contradiction.
      + destruct H as (st' & E & Hq). exists c. split; [reflexivity|]. split; [now left|]. rewrite E in Hr. injection Hr as -> ->. split; [reflexivity|]. right. auto.
      + destruct H as (x' & st' & E). congruence.
    - destruct (doc_cut ks X k Hd) as [Hdep Hne].
      assert (HXok : Forall el_ok X /\ lenN X <= lenN es).
      { assert (Hsub : exists R', es = X ++ R') by (destruct HX as [->| ->]; [eauto|exists []; now rewrite app_nil_r]). destruct Hsub as (R' & ->).
        apply Forall_app in Hok. apply Forall_app in Hpl. rewrite lenN_app. split; [|lia].
        destruct Hok as [Hok _], Hpl as [Hpl _]. rewrite Forall_forall in *. intros x Hx. destruct (Hok x Hx), (Hpl x Hx). repeat split; auto. }
      destruct HXok as [HXok HXl].
      assert (Hdoc : Forall el_ok (document ks)).
      { rewrite Hd. apply Forall_app. split; [exact HXok|]. unfold ends. apply Forall_forall. intros x Hx. apply repeat_spec in Hx. subst.
        split; [exact Logic.I|]. split; [discriminate|]. vm_compute. discriminate. }
      assert (Hdl : lenN (document ks) <= U64_MAX).
      { rewrite Hd, lenN_app. pose proof (depth_len X 0). assert (lenN (ends (S k)) = N.of_nat (S k)) by (unfold lenN, ends; now rewrite repeat_length). lia. }
      destruct HX as [-> | ->].
      + assert (HR : R = []) by exact (Heof X R eq_refl). subst R.
        pose proof (run_document ks []) as H. rewrite app_nil_r in H. specialize (H Hdoc Hdl).
        assert (Hsim : sim_rst RE (top_rst (mkEls (map (pair 0) (document ks)) false false 0 [] dbg))
                   (top_rst (mkEls (map (pair 0) (X ++ [DEof])) false false 0 [] dbg))).
        { unfold sim_rst. cbn. split; [|auto]. unfold RE. cbn. split; [reflexivity|]. split; [reflexivity|]. split; [reflexivity|].
          split; [reflexivity|]. split; [reflexivity|]. left. exists X, (S k). rewrite Hd. auto 10. }
        pose proof (el_eof cf (d_body (full_dict e (S (N.to_nat (cf_rec cf))) zc t)) _ _ Hsim) as Hx. rewrite Hr in Hx.
        exists ks, (X ++ [DEof]), []. destruct (read_tree cf e zc t ks) as [[w|x| |] c]; try contradiction.
        * destruct H as (st' & E & _). rewrite E in Hx. destruct Hx as [Hx|[Hx|Hx]]; try contradiction. cbn [fst snd] in Hx. destruct Hx as [-> _].
          exists c. split; [now rewrite app_nil_r|]. split; [right; exists X, k; auto|]. auto.
        * destruct H as (x' & st' & E). rewrite E in Hx. destruct Hx as [Hx|[Hx|Hx]]; try contradiction. discriminate Hx.
      + exfalso. pose proof (run_document ks []) as H. rewrite app_nil_r in H. specialize (H Hdoc Hdl).
        assert (Hsim : sim_rst (RX (map (pair 0) (ends (S k)))) (top_rst (mkEls (map (pair 0) X) false false 0 [] dbg))
                   (top_rst (mkEls (map (pair 0) (document ks)) false false 0 [] dbg))).
        { unfold sim_rst. cbn. split; [|auto]. unfold RX. cbn. split; [reflexivity|]. split; [reflexivity|]. now rewrite Hd, map_app. }
        pose proof (el_more _ cf (d_body (full_dict e (S (N.to_nat (cf_rec cf))) zc t)) _ _ Hsim) as Hx. rewrite Hr in Hx.
        destruct Hx as [Hx|[Hx|Hx]]; try contradiction. cbn [fst snd] in Hx.
        destruct (read_tree cf e zc t ks) as [[w|x| |] c]; try contradiction.
        * destruct H as (st' & E & Hq). rewrite E in Hx. cbn [fst snd] in Hx. destruct Hx as [-> ((_ & _ & Hx) & _)].
          rewrite Hx in Hq. cbn [q_es map] in Hq. apply app_eq_nil in Hq. destruct Hq as [_ Hq]. discriminate Hq.
        * destruct H as (x' & st' & E). rewrite E in Hx. exact Hx.
  Qed.
End Acc.

(** ** On bytes *)
Lemma at_split tr tp : forall p es bs, enc_at tr tp p es bs ->
  forall es1 es2, es = es1 ++ es2 -> exists b1 b2, bs = b1 ++ b2 /\ encodes (map snd es1) b1.
Proof.
  induction 1 as [p|p es bs Hw H IH|p o e es b bs Ho Hp He H IH]; intros es1 es2 E.
  - symmetry in E. apply app_eq_nil in E. destruct E as [-> _]. exists [], []. split; [reflexivity|]. exists []. split; [constructor|reflexivity].
  - destruct (IH es1 es2 E) as (b1 & b2 & -> & (es' & H1 & H2)). exists (0xC0 :: b1), b2. split; [reflexivity|].
    exists (DPad :: es'). split; [|exact H2]. apply (EncCons DPad es' [0xC0] b1); [|exact H1]. exists [0xC0]. split; [constructor|]. split; [constructor|reflexivity].
  - destruct es1 as [|[o1 e1] es1].
    + exists [], (b ++ bs). split; [reflexivity|]. exists []. split; [constructor|reflexivity].
    + injection E as <- <- E. destruct (IH es1 es2 E) as (b1 & b2 & -> & (es' & H1 & H2)). exists (b ++ b1), b2. split; [apply app_assoc|].
      exists (e :: es'). split; [now constructor|]. cbn [filter map snd]. destruct e; cbn [not_pad]; try (now rewrite H2); congruence.
Qed.
Lemma at_ok tr tp p es bs : enc_at tr tp p es bs -> Forall (fun x => delem_ok (snd x) /\ snd x <> DPad /\ lenN (payload (snd x)) <= lenN bs) es /\ lenN es <= lenN bs.
Proof.
  induction 1 as [p|p es bs Hw H (IH1 & IH2)|p o e es b bs Ho Hp He H (IH1 & IH2)].
  - split; [constructor|apply N.le_refl].
  - rewrite lenN_cons. split; [|lia]. eapply Forall_impl; [|exact IH1]. cbn. intros x (A & B & C). repeat split; auto. lia.
  - rewrite lenN_app, lenN_cons. pose proof He as (h & Hh & Hok & ->). rewrite lenN_app.
    pose proof (hdr_enc_len _ _ Hh) as Hhl. pose proof (hdr_enc_ok _ _ Hh) as Hho.
    split; [|lia]. constructor.
    + cbn [snd]. split; [destruct e as [t v| | |m|]; try destruct v; cbn in *; tauto|]. split; [exact Hp|lia].
    + eapply Forall_impl; [|exact IH1]. cbn. intros x (A & B & C). split; [exact A|]. split; [exact B|]. lia.
Qed.

Theorem accepted_fresh e zc cf t dbg sk bs v : usable e zc cf t -> bytes_ok bs -> 2 * lenN bs + 3 < U64_MAX ->
  fst (from_stream e zc cf t (new_stream dbg sk (mkDev bs 0 []))) = ROk v ->
  exists ks x, begins_with ks bs /\ denotes e (cf_ignore cf) zc t ks v x /\ fits cf x.
Proof.
  intros Hus Hok Hl HH. pose proof Hus as (He & Ht & Hc & Hb).
  destruct (parse (List.length bs) bs (le_n _) Hok ltac:(lia) 0) as (es & b0 & tl & Hbs & Hen & Hst).
  set (q := mkEls es false false 0 [] dbg). set (s := new_stream dbg sk (mkDev bs 0 [])) in *.
  assert (Hu : unread s = bs) by (unfold unread, d_rest; apply dropN_0).
  assert (Hq : seqinv s) by exact (fresh_seqinv dbg sk false bs Hok ltac:(lia)).
  assert (Hrd : ready true false q s tl).
  { exists b0. constructor; try reflexivity; auto.
    - rewrite Hu. cbn [s new_stream s_pos]. lia.
    - rewrite Hu. change (pend s) with 0. lia.
    - cbn. lia.
    - rewrite Hu. change (pend s) with 0. now rewrite dropN_0.
    - cbn. discriminate. }
  assert (HR : RSA true false tl q None s None) by (split; [exact Hrd|split; [exact Logic.I|reflexivity]]).
  set (p := d_body (full_dict e (S (N.to_nat (cf_rec cf))) zc t)).
  pose proof (dual_run tl Hst cf p (top_rst s) (top_rst q)) as H2. specialize (H2 ltac:(split; [exact HR|cbn; auto])).
  unfold from_stream in HH. fold p in HH. pose proof (run_ends_none e zc cf t He Ht Hc Hb s) as Hnone. fold p in Hnone.
  destruct (run stream_source cf p (top_rst s)) as [r2 t2] eqn:E2. cbn [fst] in HH. subst r2.
  destruct (run el_source cf p (top_rst q)) as [r1 t1] eqn:E1.
  assert (Hr1 : r1 = ROk v).
  { destruct H2 as [H2|[H2|H2]]; [contradiction| |].
    + cbn [fst snd] in H2. unfold dm_rst in H2. rewrite (Hnone v t2 Hq eq_refl) in H2. destruct H2 as (_ & _ & _ & _ & H2). contradiction.
    + cbn [fst snd] in H2. destruct r1; try contradiction. destruct H2 as [-> _]. reflexivity. }
  subst r1. clear H2. destruct (at_ok _ _ _ _ _ Hen) as [Hel Hlen].
  assert (Hb0 : lenN b0 <= lenN bs) by (rewrite Hbs, lenN_app; lia).
  set (ns := norm (map snd es)). set (q2 := mkEls (map (pair 0) ns) false false 0 [] dbg).
  assert (Hsim : sim_rst RF (top_rst q) (top_rst q2)).
  { unfold sim_rst. cbn. split; [|auto]. unfold RF. cbn. auto 12. }
  pose proof (el_norm cf p _ _ Hsim) as Hn. rewrite E1 in Hn. destruct Hn as [Hn|[Hn|Hn]]; try contradiction. cbn [fst snd] in Hn.
  destruct (run el_source cf p (top_rst q2)) as [r3 t3] eqn:E3. cbn [fst snd] in Hn. destruct r3 as [w| | |]; try contradiction. destruct Hn as [<- _].
  assert (Hnl : lenN ns <= lenN es).
  { unfold ns. generalize es. intros l. induction l as [|[o x] l IH]; [apply N.le_refl|]. rewrite lenN_cons. cbn [map snd].
    destruct x; cbn [norm]; rewrite ?lenN_cons; try lia. unfold lenN. cbn. lia. }
  destruct (runs_ok cf e zc t dbg Hus ns v t3) as (ks & A & B & c & HA & Hcl & Hrt & _).
  { apply Forall_forall. intros x Hx. apply norm_plain in Hx. destruct Hx as [Hx _]. apply in_map_iff in Hx. destruct Hx as (y & <- & Hy).
    rewrite Forall_forall in Hel. destruct (Hel y Hy) as (X1 & X2 & X3). split; [exact X1|]. lia. }
  { apply Forall_forall. intros x Hx. apply norm_plain in Hx. destruct Hx as [Hx Hx2]. split; [|exact Hx2]. apply in_map_iff in Hx. destruct Hx as (y & <- & Hy).
    rewrite Forall_forall in Hel. now destruct (Hel y Hy) as (X1 & X2 & X3). }
  { lia. }
  { intros A B. apply norm_nil_eof. }
  { exact E3. }
  destruct (tree_ok e zc cf t ks v c Hrt) as (x & Hd & Hf). exists ks, x. split; [|auto].
  destruct (norm_cut (map snd es) A B HA) as (es1 & es2 & Hes & HfA).
  assert (Hsp : exists l1 l2, es = l1 ++ l2 /\ map snd l1 = es1).
  { exists (firstn (List.length es1) es), (skipn (List.length es1) es). split; [symmetry; apply firstn_skipn|].
    rewrite <- firstn_map, Hes, firstn_app, Nat.sub_diag, firstn_all, firstn_O. apply app_nil_r. }
  destruct Hsp as (l1 & l2 & -> & Hl1). destruct (at_split _ _ _ _ _ Hen l1 l2 eq_refl) as (b1 & b2 & -> & Henc).
  exists b1, (b2 ++ tl), es1. split; [rewrite Hbs; symmetry; apply app_assoc|]. split; [now rewrite <- Hl1|]. now rewrite HfA.
Qed.
Theorem accepted e zc cf t dbg sk bs sched v s' : usable e zc cf t -> bytes_ok bs -> 2 * lenN bs + 3 < U64_MAX ->
  from_stream e zc cf t (new_stream dbg sk (mkDev bs 0 sched)) = (ROk v, s') ->
  exists ks x, begins_with ks bs /\ denotes e (cf_ignore cf) zc t ks v x /\ fits cf x.
Proof.
  intros Hu Hok Hl H. pose proof (sched_clean e zc cf t dbg sk false bs sched v s' H) as H2.
  eapply accepted_fresh; eauto. exact (f_equal fst H2).
Qed.

(** ** What is a document is accepted *)
Lemma pads_of : forall es b, elems_enc es b -> filter not_pad es = [] -> exists np, b = repeat 0xC0 np.
Proof.
  induction 1 as [|e es' b bs He Hes IH]; intros E.
  - exists O. reflexivity.
  - destruct e; cbn in E; try discriminate. destruct (IH E) as (np & ->). exists (S np).
    destruct He as (h & Hh & _ & ->). inversion Hh; subst. reflexivity.
Qed.
Lemma encodes_snoc x : forall A b, encodes (A ++ [x]) b -> exists b1 bx np, b = b1 ++ bx ++ repeat 0xC0 np /\ encodes A b1 /\ elem_enc x bx.
Proof.
  intros A b (es' & H & E). revert A E. induction H as [|e es' b bs He Hes IH]; intros A E; [destruct A; discriminate|].
  assert (Hcut : forall A', filter not_pad es' = A' ++ [x] -> A = e :: A' -> not_pad e = true -> exists b1 bx np, b ++ bs = b1 ++ bx ++ repeat 0xC0 np /\ encodes A b1 /\ elem_enc x bx).
  { intros A' E' -> Hn. destruct (IH A' E') as (b1 & bx & np & -> & (l & H1 & H2) & H3). exists (b ++ b1), bx, np. split; [now rewrite <- app_assoc|].
    split; [|exact H3]. exists (e :: l). split; [now constructor|]. cbn [filter]. now rewrite Hn, H2. }
  cbn [filter] in E. destruct (not_pad e) eqn:Hn.
  - destruct A as [|a A].
    + injection E as <- E. destruct (pads_of _ _ Hes E) as (np & ->). exists [], b, np. split; [reflexivity|]. split; [|exact He].
      exists []. split; [constructor|reflexivity].
    + injection E as <- E. exact (Hcut A E eq_refl eq_refl).
  - destruct e; try discriminate. destruct (IH A E) as (b1 & bx & np & -> & (l & H1 & H2) & H3). exists (b ++ b1), bx, np. split; [now rewrite <- app_assoc|].
    split; [|exact H3]. exists (DPad :: l). split; [now constructor|exact H2].
Qed.
Lemma encodes_app A B a b : encodes A a -> encodes B b -> encodes (A ++ B) (a ++ b).
Proof.
  intros (la & Ha & <-) (lb & Hb & <-). exists (la ++ lb). split; [|apply filter_app].
  induction Ha as [|e es' x bs He Hes IH]; [exact Hb|]. rewrite <- app_assoc. cbn [app]. now constructor.
Qed.
Lemma encodes_ends k : encodes (ends k) (repeat 0 k).
Proof.
  induction k as [|k (l & H1 & H2)]; [exists []; split; [constructor|reflexivity]|].
  exists (DEnd :: l). split; [|cbn; now rewrite H2]. apply (EncCons DEnd l [0] (repeat 0 k)); [|exact H1].
  exists [0]. split; [constructor|]. split; [constructor|reflexivity].
Qed.
Lemma end_byte b : elem_enc DEnd b -> b = [0].
Proof. intros (h & Hh & _ & ->). inversion Hh; subst. reflexivity. Qed.
Lemma eof_byte b : elem_enc DEof b -> b = [0x40].
Proof. intros (h & Hh & _ & ->). inversion Hh; subst. reflexivity. Qed.

Theorem document_accepted e zc cf t dbg sk bs sched ks v x : usable e zc cf t -> bytes_ok bs -> 2 * lenN bs + 3 < U64_MAX ->
  Forall (fun y => y <> EvFail) sched -> begins_with_plain ks bs -> denotes e (cf_ignore cf) zc t ks v x -> fits cf x ->
  fst (from_stream e zc cf t (new_stream dbg sk (mkDev bs 0 sched))) = ROk v.
Proof.
  intros Hus Hok Hl Hsch (b0 & tl & es & -> & Henc & Hcl) Hd Hf. pose proof Hus as (He & Ht & Hc & Hb). destruct Hcl as [->|(X & k & HX & ->)].
  - unfold document in Henc. destruct (encodes_snoc _ _ _ Henc) as (b1 & bx & np & -> & H1 & H2). apply end_byte in H2. subst bx.
    rewrite <- !app_assoc in *. rewrite (app_assoc b1) in *. apply (meaning_ok e zc cf t ks); [exact Hus| |eauto].
    apply DocStream; auto; [|lia]. exists b1. auto.
  - destruct (encodes_snoc _ _ _ Henc) as (b1 & bx & np & -> & H1 & H2). apply eof_byte in H2. subst bx. rewrite <- !app_assoc in *.
    pose proof (encodes_len _ _ H1) as Hxl. destruct (doc_cut ks X k HX) as [Hdep _]. pose proof (depth_len X 0) as Hdl.
    assert (Hz : lenN (repeat 0 (S k)) = N.of_nat (S k)) by (unfold lenN; now rewrite repeat_length).
    assert (Hed : encodes_doc ks (b1 ++ repeat 0 (S k))).
    { exists (b1 ++ repeat 0 k). split; [|rewrite <- app_assoc; f_equal; apply repeat_cons].
      replace (flat ks) with (X ++ ends k); [apply encodes_app; [exact H1|apply encodes_ends]|].
      unfold document in HX. change (repeat DEnd (S k)) with (ends (S k)) in HX. rewrite ends_snoc, app_assoc in HX. apply app_inj_tail in HX. symmetry. apply HX. }
    assert (Hokd : bytes_ok ((b1 ++ repeat 0 (S k)) ++ [])).
    { rewrite app_nil_r. apply bytes_ok_app in Hok. apply bytes_ok_app. split; [apply Hok|]. apply Forall_forall. intros y Hy. apply repeat_spec in Hy. subst. reflexivity. }
    assert (Hld : lenN ((b1 ++ repeat 0 (S k)) ++ []) + 3 < U64_MAX) by (rewrite !lenN_app in *; change (lenN (@nil N)) with 0; change (lenN [0x40]) with 1 in Hl; lia).
    pose proof (eof_fresh e zc cf t ks X k _ _ [] (repeat 0xC0 np ++ tl) dbg sk sk He Ht Hc Hb HX Hed H1 Hokd Hok Hld ltac:(lia)) as Hs.
    assert (Hdoc : fst (from_stream e zc cf t (new_stream dbg sk (mkDev ((b1 ++ repeat 0 (S k)) ++ []) 0 []))) = ROk v).
    { apply (meaning_ok e zc cf t ks); [exact Hus| |eauto]. apply DocStream; auto. }
    rewrite Hdoc in Hs. destruct (from_stream e zc cf t (new_stream dbg sk (mkDev (b1 ++ [0x40] ++ repeat 0xC0 np ++ tl) 0 []))) as [r s1] eqn:Er.
    cbn [fst] in Hs. destruct r as [w| | |]; try contradiction. cbn in Hs. subst w.
    destruct (sched_any e zc cf t dbg sk false _ sched _ _ Hsch Er) as (s2 & E2 & _). exact (f_equal fst E2).
Qed.
Lemma no_filter es : (forall m, ~ In (DExc m) es) -> filter not_exc es = es.
Proof.
  induction es as [|x es IH]; intros H; [reflexivity|]. cbn [filter]. destruct x; cbn [not_exc]; try (rewrite IH; [reflexivity|intros m' Hm; apply (H m'); now right]).
  exfalso. eapply H. left. reflexivity.
Qed.
Theorem accepted_exactly e zc cf t dbg sk bs sched v : usable e zc cf t -> bytes_ok bs -> 2 * lenN bs + 3 < U64_MAX ->
  Forall (fun y => y <> EvFail) sched -> exception_free bs ->
  fst (from_stream e zc cf t (new_stream dbg sk (mkDev bs 0 sched))) = ROk v <->
  exists ks x, begins_with_plain ks bs /\ denotes e (cf_ignore cf) zc t ks v x /\ fits cf x.
Proof.
  intros Hus Hok Hl Hsch Hex. split.
  - intros H. destruct (from_stream e zc cf t (new_stream dbg sk (mkDev bs 0 sched))) as [r s'] eqn:E. cbn in H. subst r.
    destruct (accepted e zc cf t dbg sk bs sched v s' Hus Hok Hl E) as (ks & x & (b0 & tl & es & Hbs & Henc & Hcl) & Hd & Hf).
    exists ks, x. split; [|auto]. exists b0, tl, es. split; [exact Hbs|]. split; [exact Henc|].
    rewrite no_filter in Hcl; [exact Hcl|]. intros m. exact (Hex b0 tl es m Hbs Henc).
  - intros (ks & x & Hp & Hd & Hf). eapply document_accepted; eauto.
Qed.
