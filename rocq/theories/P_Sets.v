(** * P_Sets: what [as_set] and [put] of SpecRead make of a list *)

From Coq Require Import Sorting.Sorted Sorting.Permutation.
From Verif Require Import Base Types SpecDe De SpecRead P_Base P_Types P_Ord.

Lemma place_insert v l : place v l = set_insert v l.
Proof. induction l as [|x l IH]; cbn; [reflexivity|]. now rewrite IH. Qed.
Lemma as_set_fold vs : as_set vs = VList (fold_right set_insert [] vs).
Proof. unfold as_set. f_equal. induction vs as [|v vs IH]; cbn [fold_right]; [reflexivity|]. now rewrite place_insert, IH. Qed.
Lemma as_set_left vs : as_set vs = VList (fold_left (fun l v => set_insert v l) vs []).
Proof. now rewrite as_set_fold, fold_sets. Qed.
Lemma as_set_id vs : ascending vs -> as_set vs = VList vs.
Proof. intros H. now rewrite as_set_fold, fold_id. Qed.
Lemma as_set_same vs ws : (forall x, In x vs <-> In x ws) -> as_set vs = as_set ws.
Proof. intros H. now rewrite !as_set_fold, (fold_same vs ws). Qed.
Lemma as_set_perm vs ws : Permutation vs ws -> as_set vs = as_set ws.
Proof. intros H. apply as_set_same. intros x. split; apply Permutation_in; auto using Permutation_sym. Qed.

Lemma put_insert k v l : map_insert k v l = put k v l.
Proof. induction l as [|[a b] l IH]; cbn; [reflexivity|]. destruct (cmp_spec k a) as [->|H|H]; [reflexivity|reflexivity|]. now rewrite IH. Qed.
Lemma put_new k v l : (forall x, In x (map fst l) -> value_cmp x k = Lt) -> put k v l = l ++ [(k, v)].
Proof. rewrite <- put_insert. apply minsert_last. Qed.
Lemma put_keys k v l : map fst (put k v l) = set_insert k (map fst l).
Proof. rewrite <- put_insert. apply minsert_keys. Qed.

Notation as_map l := (fold_left (fun l p => put (fst p) (snd p) l) l []).
Lemma as_map_id (kvs : list (value * value)) : ascending (map fst kvs) -> as_map kvs = kvs.
Proof.
  intros H. cut (forall l, ascending (map fst (l ++ kvs)) -> fold_left (fun l p => put (fst p) (snd p) l) kvs l = l ++ kvs).
  - intros G. exact (G [] H).
  - clear H. induction kvs as [|[k v] kvs IH]; intros l H; cbn [fold_left fst snd]; [now rewrite app_nil_r|].
    rewrite put_new.
    + rewrite IH; rewrite <- app_assoc; [reflexivity|exact H].
    + rewrite map_app in H. apply asc_app in H. destruct H as (_ & _ & H). intros x Hx. apply H; [exact Hx|now left].
Qed.
Lemma puts_asc kvs : forall l, ascending (map fst l) -> ascending (map fst (fold_left (fun l p => put (fst p) (snd p) l) kvs l)).
Proof. induction kvs as [|[k v] kvs IH]; intros l H; cbn [fold_left]; [exact H|]. apply IH. rewrite put_keys. now apply insert_asc. Qed.
Lemma put_in k v l p : ascending (map fst l) -> In p (put k v l) <-> p = (k, v) \/ (fst p <> k /\ In p l).
Proof. rewrite <- put_insert. apply minsert_mem. Qed.
Lemma puts_in kvs : forall l p, ascending (map fst l) -> NoDup (map fst kvs) ->
  In p (fold_left (fun l p => put (fst p) (snd p) l) kvs l) <-> In p kvs \/ (~ In (fst p) (map fst kvs) /\ In p l).
Proof.
  induction kvs as [|[k v] kvs IH]; intros l p Ha Hnd; cbn [fold_left map fst snd In]; [tauto|]. inversion Hnd as [|? ? Hni Hnd2]; subst.
  rewrite IH; [|rewrite put_keys; now apply insert_asc|exact Hnd2]. rewrite put_in by exact Ha.
  split.
  - intros [Hi|[Hn [->|[Hne Hi]]]]; [auto|auto|]. right. split; [intros [E|E]; [now apply Hne|auto]|exact Hi].
  - intros [[<-|Hi]|[Hn Hi]]; [right; split; [exact Hni|auto]|auto|]. right. split; [tauto|]. right. split; [intros E; apply Hn; auto|exact Hi].
Qed.
Lemma as_map_in kvs p : NoDup (map fst kvs) -> In p (as_map kvs) <-> In p kvs.
Proof. intros H. rewrite puts_in; [cbn; tauto|constructor|exact H]. Qed.
Lemma as_map_asc kvs : ascending (map fst (as_map kvs)).
Proof. apply puts_asc. constructor. Qed.
Lemma as_map_perm (a b : list (value * value)) : NoDup (map fst a) -> Permutation a b -> as_map a = as_map b.
Proof.
  intros Hnd H. assert (Hnb : NoDup (map fst b)) by (eapply Permutation_NoDup; [apply Permutation_map; exact H|exact Hnd]).
  apply pairs_same; try apply as_map_asc. intros p. rewrite !as_map_in by assumption. split; apply Permutation_in; auto using Permutation_sym.
Qed.
Lemma as_map_permutes kvs : NoDup (map fst kvs) -> Permutation (as_map kvs) kvs.
Proof.
  intros H. apply NoDup_Permutation; [|exact (NoDup_map_inv _ _ H)|intros p; now apply as_map_in]. apply (NoDup_map_inv fst), asc_nodup, as_map_asc.
Qed.
