(** * P_Show: printed errors identify the place (C74) *)

From Coq Require Import DecimalString DecimalN DecimalPos.
From Verif Require Import Base Wire Dev Stream Types Prog SpecShow Show P_Base.
Local Open Scope string_scope.

(** ** Strings *)
Fixpoint has (c : ascii) (s : string) : Prop := match s with EmptyString => False | String d r => c = d \/ has c r end.
Lemma has_app c a b : has c (a ++ b) <-> has c a \/ has c b.
Proof. induction a as [|d a IH]; cbn; [tauto|]. rewrite IH. tauto. Qed.
Lemma app_assoc_s (a b c : string) : (a ++ b) ++ c = a ++ (b ++ c).
Proof. induction a as [|d a IH]; cbn; congruence. Qed.
Lemma app_inj_s (a x y : string) : a ++ x = a ++ y -> x = y.
Proof. induction a as [|d a IH]; cbn; [auto|]. intros E. apply IH. congruence. Qed.
Lemma app_nil_s (a : string) : a ++ "" = a.
Proof. induction a as [|d a IH]; cbn; congruence. Qed.
(** The first occurrence of a character. *)
Lemma split_first c a b x y : ~ has c a -> ~ has c b -> a ++ String c x = b ++ String c y -> a = b /\ x = y.
Proof.
  revert b. induction a as [|d a IH]; intros [|d' b] Ha Hb E; cbn in *.
  - split; congruence.
  - exfalso. apply Hb. left. congruence.
  - exfalso. apply Ha. left. congruence.
  - destruct (IH b) as [-> ->]; [tauto|tauto|congruence|]. split; congruence.
Qed.
(** The last one. *)
Lemma split_last c a b x y : ~ has c x -> ~ has c y -> a ++ String c x = b ++ String c y -> a = b /\ x = y.
Proof.
  intros Hx Hy. revert b. induction a as [|d a IH]; intros [|d' b] E; cbn in *.
  - split; congruence.
  - exfalso. apply Hx. injection E as _ ->. apply has_app. right. left. reflexivity.
  - exfalso. apply Hy. injection E as _ <-. apply has_app. right. left. reflexivity.
  - destruct (IH b) as [-> ->]; [congruence|]. split; congruence.
Qed.

(** ** Numbers *)
Definition is_digit (c : ascii) : Prop := (48 <= N_of_ascii c <= 57)%N.
Fixpoint digits (s : string) : Prop := match s with EmptyString => True | String c r => is_digit c /\ digits r end.
Lemma digits_uint u : digits (NilEmpty.string_of_uint u).
Proof. induction u; cbn; try exact Logic.I; (split; [unfold is_digit; vm_compute; split; discriminate|assumption]). Qed.
Lemma digits_num n : digits (show_num n).
Proof. unfold show_num, NilZero.string_of_uint. destruct (N.to_uint n) eqn:E; rewrite <- ?E; try apply digits_uint. cbn. split; [|exact Logic.I]. vm_compute; split; discriminate. Qed.
Lemma digits_no c s : digits s -> has c s -> is_digit c.
Proof. induction s as [|d r IH]; cbn; [tauto|]. intros [H1 H2] [->|H]; auto. Qed.
Lemma show_num_inj n m : show_num n = show_num m -> n = m.
Proof.
  intros E. unfold show_num in E.
  assert (H : forall k, NilZero.uint_of_string (NilZero.string_of_uint (N.to_uint k)) = Some (N.to_uint k)).
  { intros k. apply NilZero.usu. destruct k as [|q]; [discriminate|apply DecimalPos.Unsigned.to_uint_nonnil]. }
  pose proof (H n) as H1. rewrite E, (H m) in H1. injection H1 as H1.
  rewrite <- (DecimalN.Unsigned.of_to n), <- (DecimalN.Unsigned.of_to m). now rewrite H1.
Qed.
Lemma num_no n c : ~ is_digit c -> ~ has c (show_num n).
Proof. intros H X. exact (H (digits_no _ _ (digits_num n) X)). Qed.
Ltac nd := let X := fresh in intros X; unfold is_digit in X; vm_compute in X; destruct X as [X1 X2]; first [now apply X1 | now apply X2].

(** ** Locations *)
Definition plain (s : string) : Prop := word_chars s = true.
Lemma plain_no s c : plain s -> word_char c = false -> ~ has c s.
Proof. unfold plain. induction s as [|d r IH]; cbn; [tauto|]. intros H Hc [->|X]; apply andb_prop in H as [H1 H2]; [congruence|exact (IH H2 Hc X)]. Qed.
Definition seg (f : string * N) : string := "." ++ fst f ++ "{" ++ show_num (snd f) ++ "}".
Fixpoint segs (l : list (string * N)) : string := match l with [] => "" | f :: r => seg f ++ segs r end.
Lemma segs_app a b : segs (a ++ b)%list = segs a ++ segs b.
Proof. induction a as [|f a IH]; cbn [segs List.app]; [reflexivity|]. now rewrite IH, app_assoc_s. Qed.
Lemma location_segs p : show_location p = "{0}" ++ segs (rev p).
Proof.
  induction p as [|[nm n] r IH]; cbn [show_location rev]; [reflexivity|]. rewrite IH, segs_app, app_assoc_s. cbn [segs]. now rewrite app_nil_s.
Qed.
Lemma seg_inj f g x y : plain (fst f) -> plain (fst g) -> seg f ++ x = seg g ++ y -> f = g /\ x = y.
Proof.
  intros Hf Hg E. unfold seg in E. destruct f as [a n], g as [b m]. cbn [fst snd] in *. rewrite !app_assoc_s in E. apply (app_inj_s ".") in E. cbn [append] in E.
  apply split_first in E as [-> E]; [|now apply plain_no|now apply plain_no].
  apply split_first in E as [E ->]; [|apply num_no; nd|apply num_no; nd]. split; [|reflexivity]. f_equal. now apply show_num_inj.
Qed.
Lemma segs_inj l : forall m, Forall (fun f => plain (fst f)) l -> Forall (fun f => plain (fst f)) m -> segs l = segs m -> l = m.
Proof.
  induction l as [|f l IH]; intros [|g m] Hl Hm E; [reflexivity|discriminate|discriminate|].
  apply Forall_inv in Hl as Hf. apply Forall_inv_tail in Hl. apply Forall_inv in Hm as Hg. apply Forall_inv_tail in Hm.
  cbn [segs] in E. apply seg_inj in E as [-> E]; auto. f_equal. now apply IH.
Qed.
Lemma location_inj p q : Forall (fun f => plain (fst f)) p -> Forall (fun f => plain (fst f)) q -> show_location p = show_location q -> p = q.
Proof.
  intros Hp Hq E. rewrite !location_segs in E. apply app_inj_s in E. apply segs_inj in E; [|now apply Forall_rev|now apply Forall_rev].
  rewrite <- (rev_involutive p), <- (rev_involutive q). now rewrite E.
Qed.
Lemma no_space p : Forall (fun f => plain (fst f)) p -> ~ has " "%char (show_location p).
Proof.
  intros H. induction H as [|[nm n] r Hn _ IH]; cbn [show_location].
  - vm_compute. intuition discriminate.
  - rewrite !has_app. cbn [fst] in Hn. pose proof (plain_no nm " "%char Hn eq_refl). pose proof (num_no n " "%char ltac:(nd)). cbn [has]. intuition discriminate.
Qed.

(** ** Whole errors *)
Definition place (x : derr) : list (string * N) := match e_kind x with KUnknownField _ pos => ("", pos) :: e_path x | _ => e_path x end.
Lemma show_place tx x : show_error tx x = (show_kind tx (e_kind x) ++ " at") ++ String " " (show_location (place x)).
Proof. unfold show_error, place. rewrite app_assoc_s. cbn [append]. destruct (e_kind x); reflexivity. Qed.
Definition path_ok (p : list (string * N)) : Prop := Forall (fun f => identifier (fst f)) p.
Lemma place_ok x : path_ok (e_path x) -> Forall (fun f => plain (fst f)) (place x).
Proof.
  intros H. assert (X : Forall (fun f => plain (fst f)) (e_path x)) by (eapply Forall_impl; [|exact H]; intros f [_ Hf]; exact Hf).
  unfold place. destruct (e_kind x); try exact X. constructor; [reflexivity|exact X].
Qed.
Lemma show_split tx tx' x y : path_ok (e_path x) -> path_ok (e_path y) -> show_error tx x = show_error tx' y ->
  show_kind tx (e_kind x) = show_kind tx' (e_kind y) /\ place x = place y.
Proof.
  intros Hx Hy E. rewrite !show_place in E. apply split_last in E as [E1 E2]; [|now apply no_space, place_ok|now apply no_space, place_ok].
  apply location_inj in E2; [|now apply place_ok|now apply place_ok]. split; [|exact E2].
  assert (X : forall a b c : string, a ++ c = b ++ c -> a = b).
  { clear. intros a b c E. assert (L : String.length a = String.length b).
    { apply (f_equal String.length) in E. revert E.
      assert (Hl : forall a b : string, String.length (a ++ b) = (String.length a + String.length b)%nat) by (induction a0; cbn; congruence).
      rewrite !Hl. lia. }
    revert b L E. induction a as [|d a IH]; intros [|d' b] L E; cbn in *; try discriminate; [reflexivity|]. f_equal; [congruence|apply IH; congruence]. }
  exact (X _ _ _ E1).
Qed.
Lemma place_path x y : path_ok (e_path x) -> path_ok (e_path y) -> place x = place y ->
  e_path x = e_path y /\ (forall tag pos tag' pos', e_kind x = KUnknownField tag pos -> e_kind y = KUnknownField tag' pos' -> pos = pos').
Proof.
  intros Hx Hy E. assert (Z : forall n r p, path_ok p -> (("", n) :: r)%list = p -> False).
  { intros n r p Hp X. subst p. apply Forall_inv in Hp. destruct Hp as [Hp _]. now apply Hp. }
  unfold place in E. destruct (e_kind x) eqn:Kx, (e_kind y) eqn:Ky; try (split; [exact E|intros; congruence]);
    try (exfalso; symmetry in E; eapply Z; [|exact E]; assumption); try (exfalso; eapply Z; [|exact E]; assumption).
  injection E as -> ->. split; [reflexivity|]. intros. congruence.
Qed.

(** The crate's own descriptions are all different. *)
Lemma show_fty_inj a b : show_fty a = show_fty b -> a = b.
Proof. destruct a, b; cbn; congruence. Qed.
Ltac peel E := repeat match type of E with String _ _ = String _ _ => injection E as E end.
Lemma own_inj tx tx' k k' : own_words k -> own_words k' -> (forall tag pos tag' pos', k = KUnknownField tag pos -> k' = KUnknownField tag' pos' -> pos = pos') ->
  show_kind tx k = show_kind tx' k' -> k = k'.
Proof.
  intros H H' Hp E.
  destruct k as [[]| | | | | | | | | |], k' as [[]| | | | | | | | | |]; try contradiction; cbn [show_kind show_serr append] in E;
    try reflexivity; try (exfalso; congruence); try (peel E; exfalso; congruence).
  all: peel E.
  all: try (apply split_first in E as [E _]; [apply show_num_inj in E; now subst|apply num_no; nd|apply num_no; nd]).
  - apply split_first in E as [E E1]; [|apply num_no; nd|apply num_no; nd]. apply show_num_inj in E. subst.
    peel E1. apply split_first in E1 as [E _]; [|apply num_no; nd|apply num_no; nd]. apply show_num_inj in E. now subst.
  - destruct expected, expected0; cbn [show_fty append] in E; try (exfalso; congruence); peel E; apply show_fty_inj in E; now subst.
  - apply split_first in E as [E _]; [|apply num_no; nd|apply num_no; nd]. apply show_num_inj in E. subst. now rewrite (Hp _ _ _ _ eq_refl eq_refl).
Qed.
Theorem shown tx tx' x y : path_ok (e_path x) -> path_ok (e_path y) -> show_error tx x = show_error tx' y ->
  e_path x = e_path y /\ (own_words (e_kind x) -> own_words (e_kind y) -> e_kind x = e_kind y).
Proof.
  intros Hx Hy E. destruct (show_split _ _ _ _ Hx Hy E) as [E1 E2]. destruct (place_path _ _ Hx Hy E2) as [E3 E4].
  split; [exact E3|]. intros Ox Oy. exact (own_inj _ _ _ _ Ox Oy E4 E1).
Qed.

(** ** Names made up by the crate *)
Lemma below_all (P : N -> bool) n : forallb (fun i => P (N.of_nat i)) (seq 0 n) = true -> forall i, (i < N.of_nat n)%N -> P i = true.
Proof.
  intros H i Hi. rewrite forallb_forall in H. specialize (H (N.to_nat i)). rewrite N2Nat.id in H. apply H, in_seq. lia.
Qed.
Lemma tag_names tag : (tag <= 99)%N -> tag_name tag = if (tag <? 10)%N then "0" ++ show_num tag else show_num tag.
Proof.
  intros H. apply String.eqb_eq. apply (below_all (fun t => String.eqb (tag_name t) (if (t <? 10)%N then "0" ++ show_num t else show_num t)) 100); [vm_compute; reflexivity|lia].
Qed.
Lemma tuple_names i : (i < 100)%N -> tuple_name i = "field_" ++ show_num i.
Proof. intros H. apply String.eqb_eq. apply (below_all (fun t => String.eqb (tuple_name t) ("field_" ++ show_num t)) 100); [vm_compute; reflexivity|lia]. Qed.
Theorem names_made_up n : (n <= 63)%N ->
  tag_name n = append (if (n <? 10)%N then "0" else "") (show_num n) /\ ((n < 16)%N -> tuple_name n = append "field_" (show_num n)).
Proof.
  intros H. split; [|intros H1; apply tuple_names; lia]. rewrite tag_names by lia. now destruct (n <? 10)%N.
Qed.
