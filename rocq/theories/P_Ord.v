(** * P_Ord: the order of values is total; sorted insertion *)

From Coq Require Import Sorting.Sorted Sorting.Permutation.
From Verif Require Import Base Types SpecDe SpecListing De P_Base P_Types.

Section OtreeInd.
  Variable P : otree -> Prop.
  Hypothesis H : forall z l, Forall P l -> P (OT z l).
  Fixpoint otree_ind' (t : otree) : P t :=
    match t with
    | OT z l => H z l ((fix go (l : list otree) : Forall P l :=
        match l with [] => Forall_nil _ | x :: r => Forall_cons x (otree_ind' x) (go r) end) l)
    end.
End OtreeInd.

Lemma lex_eq {A} (cmp : A -> A -> comparison) l : Forall (fun x => forall y, cmp x y = Eq <-> x = y) l ->
  forall m, lex cmp l m = Eq <-> l = m.
Proof.
  induction 1 as [|x l Hx Hl IH]; intros [|y m]; cbn; try (split; congruence); try tauto.
  destruct (cmp x y) eqn:E.
  - apply Hx in E. subst. rewrite IH. split; congruence.
  - split; [discriminate|]. intros [= -> ->]. assert (cmp y y = Eq) by now apply Hx. congruence.
  - split; [discriminate|]. intros [= -> ->]. assert (cmp y y = Eq) by now apply Hx. congruence.
Qed.
Lemma lex_anti {A} (cmp : A -> A -> comparison) l : Forall (fun x => forall y, cmp y x = CompOpp (cmp x y)) l ->
  forall m, lex cmp m l = CompOpp (lex cmp l m).
Proof.
  induction 1 as [|x l Hx Hl IH]; intros [|y m]; cbn; try reflexivity. rewrite Hx, IH. now destruct (cmp x y).
Qed.
Lemma lex_trans {A} (cmp : A -> A -> comparison) l : Forall (fun x => forall y, cmp x y = Eq <-> x = y) l ->
  Forall (fun x => forall y z, cmp x y = Lt -> cmp y z = Lt -> cmp x z = Lt) l ->
  forall m n, (forall y z, In y m -> cmp y z = Eq <-> y = z) -> lex cmp l m = Lt -> lex cmp m n = Lt -> lex cmp l n = Lt.
Proof.
  induction 1 as [|x l Hx Hl IH]; intros HT [|y m] [|z n] He; cbn; try congruence. inversion HT as [|? ? Hxt Hlt]; subst.
  destruct (cmp x y) eqn:E1; try discriminate.
  - apply Hx in E1. subst y. intros L1. destruct (cmp x z) eqn:E2; try discriminate; [|reflexivity]. intros L2. apply (IH Hlt m n); auto. intros; apply He; now right.
  - intros _. destruct (cmp y z) eqn:E2; try discriminate; intros _.
    + apply He in E2; [|now left]. subst z. now rewrite E1.
    + now rewrite (Hxt y z E1 E2).
Qed.

Lemma otree_eq a : forall b, otree_cmp a b = Eq <-> a = b.
Proof.
  induction a as [i l IH] using otree_ind'. intros [j m]. cbn. destruct (Z.compare_spec i j) as [->|H|H].
  - rewrite (lex_eq _ _ IH). split; congruence.
  - split; [discriminate|]. intros [= -> ->]. lia.
  - split; [discriminate|]. intros [= -> ->]. lia.
Qed.
Lemma otree_anti a : forall b, otree_cmp b a = CompOpp (otree_cmp a b).
Proof.
  induction a as [i l IH] using otree_ind'. intros [j m]. cbn. rewrite (Z.compare_antisym i j), (lex_anti _ _ IH). now destruct (i ?= j)%Z.
Qed.
Lemma otree_trans a : forall b c, otree_cmp a b = Lt -> otree_cmp b c = Lt -> otree_cmp a c = Lt.
Proof.
  induction a as [i l IH] using otree_ind'. intros [j m] [k n]. cbn.
  assert (He : Forall (fun x => forall y, otree_cmp x y = Eq <-> x = y) l) by (apply Forall_forall; intros; apply otree_eq).
  destruct (Z.compare_spec i j) as [->|H|H]; try discriminate; destruct (Z.compare_spec j k) as [->|H'|H']; try discriminate; intros L1 L2;
    try (rewrite Z.compare_refl); try (replace (i ?= k)%Z with Lt by (symmetry; apply Z.compare_lt_iff; lia)); try (replace (j ?= k)%Z with Lt by (symmetry; apply Z.compare_lt_iff; lia)); try reflexivity.
  - apply (lex_trans otree_cmp l He IH m n); auto. intros; apply otree_eq.
Qed.

(** ** Distinct values have distinct trees *)
Lemma map_inj {A B} (f : A -> B) l : Forall (fun x => forall y, f x = f y -> x = y) l -> forall m, map f l = map f m -> l = m.
Proof. induction 1 as [|x l Hx Hl IH]; intros [|y m]; cbn; try discriminate; [reflexivity|]. intros [= H1 H2]. f_equal; auto. Qed.
Lemma obytes_inj a b : obytes a = obytes b -> a = b.
Proof. apply map_inj. apply Forall_forall. intros x _ y [= H]. lia. Qed.
Lemma onodes_inj fs : Forall (fun f => forall m, onode (snd f) = onode m -> snd f = m) fs -> forall gs,
  map (fun f => OT (Z.of_N (fst f)) [onode (snd f)]) fs = map (fun f => OT (Z.of_N (fst f)) [onode (snd f)]) gs -> fs = gs.
Proof.
  intros H. apply map_inj. eapply Forall_impl; [|exact H]. intros [a x] Hx [b y] [= H1 H2]. cbn in *. f_equal; [lia|auto].
Qed.
Lemma onode_inj a : forall b, onode a = onode b -> a = b.
Proof.
  induction a as [n|b|fs IH|d fs IH] using node_ind'; intros c; destruct c; cbn; intros H; try discriminate.
  - injection H as H. f_equal. lia.
  - injection H as H. f_equal. now apply obytes_inj.
  - injection H as H. f_equal. now apply onodes_inj.
  - injection H as H0 H. f_equal; [lia|]. now apply onodes_inj.
Qed.
Lemma ovalue_inj a : forall b, ovalue a = ovalue b -> a = b.
Proof.
  revert a. apply (value_ind' (fun a => forall b, ovalue a = ovalue b -> a = b)); [intros a|intros vs IH|intros vs IH|intros kvs IH|intros v IH|intros vs IH|intros i v IH|intros d v IH].
  - assert (Hu : forall fs gs, map (fun f : N * node => OT (Z.of_N (fst f)) [onode (snd f)]) fs = map (fun f => OT (Z.of_N (fst f)) [onode (snd f)]) gs -> fs = gs).
    { intros fs. apply onodes_inj. apply Forall_forall. intros f _ m. apply onode_inj. }
    destruct a; try exact Logic.I; try (destruct o; [exact Logic.I|]); intros q; destruct q; try destruct o; cbn; intros H; try discriminate; try reflexivity;
      injection H as H; f_equal; auto using obytes_inj, onode_inj; try lia.
    destruct b, b0; cbn in H; congruence.
  - intros c; destruct c; try destruct o; cbn; intros H; try discriminate. injection H as H. f_equal. now apply (map_inj ovalue).
  - intros c; destruct c; try destruct o; cbn; intros H; try discriminate. injection H as H. f_equal. now apply (map_inj ovalue).
  - intros c; destruct c; try destruct o; cbn; intros H; try discriminate. injection H as H. f_equal. revert H. apply map_inj.
    eapply Forall_impl; [|exact IH]. intros [k x] [H1 H2] [k' x'] [= E1 E2]. cbn in *. f_equal; auto.
  - intros c; destruct c; try destruct o; cbn; intros H; try discriminate. injection H as H. do 2 f_equal. auto.
  - intros c; destruct c; try destruct o; cbn; intros H; try discriminate. injection H as H. f_equal. now apply (map_inj ovalue).
  - intros c; destruct c; try destruct o; cbn; intros H; try discriminate. injection H as H0 H. f_equal; [lia|auto].
  - intros c; destruct c; try destruct o; cbn; intros H; try discriminate. injection H as H0 H. f_equal; [lia|auto].
Qed.

(** ** A total order *)
Lemma cmp_eq a b : value_cmp a b = Eq <-> a = b.
Proof. unfold value_cmp. rewrite otree_eq. split; [apply ovalue_inj|congruence]. Qed.
Lemma cmp_refl a : value_cmp a a = Eq.
Proof. now apply cmp_eq. Qed.
Lemma cmp_anti a b : value_cmp b a = CompOpp (value_cmp a b).
Proof. apply otree_anti. Qed.
Lemma cmp_trans a b c : value_cmp a b = Lt -> value_cmp b c = Lt -> value_cmp a c = Lt.
Proof. apply otree_trans. Qed.
Lemma cmp_irrefl a : value_cmp a a <> Lt.
Proof. rewrite cmp_refl. discriminate. Qed.
Lemma cmp_gt a b : value_cmp a b = Gt -> value_cmp b a = Lt.
Proof. intros H. now rewrite cmp_anti, H. Qed.
Lemma cmp_spec a b : CompareSpec (a = b) (value_cmp a b = Lt) (value_cmp b a = Lt) (value_cmp a b).
Proof. destruct (value_cmp a b) eqn:E; constructor; [now apply cmp_eq|reflexivity|now apply cmp_gt]. Qed.

Notation before a b := (value_cmp a b = Lt) (only parsing).

Lemma asc_nil : ascending [].
Proof. constructor. Qed.
Lemma asc_one v : ascending [v].
Proof. constructor; constructor. Qed.
Lemma asc_nodup l : ascending l -> NoDup l.
Proof.
  induction 1 as [|x l Hl IH Hx]; constructor; auto. intros Hi. rewrite Forall_forall in Hx. exact (cmp_irrefl _ (Hx _ Hi)).
Qed.
Lemma asc_app a b : ascending (a ++ b) <-> ascending a /\ ascending b /\ forall x y, In x a -> In y b -> before x y.
Proof.
  unfold ascending. induction a as [|x a IH]; cbn; [split; [intros H; repeat split; auto; [constructor|intros ? ? []]|tauto]|]. split.
  - intros H. inversion H as [|? ? H1 H2]; subst. apply IH in H1. destruct H1 as (A1 & A2 & A3). rewrite Forall_app in H2. destruct H2 as [F1 F2]. rewrite Forall_forall in F2.
    split; [now constructor|]. split; [auto|]. intros u w [<-|Hu] Hw; auto.
  - intros (A1 & A2 & A3). inversion A1 as [|? ? H1 H2]; subst. constructor; [apply IH; auto|]. apply Forall_app. split; [auto|]. apply Forall_forall. auto.
Qed.
Lemma asc_same a b : ascending a -> ascending b -> (forall x, In x a <-> In x b) -> a = b.
Proof.
  intros Ha. revert b. induction Ha as [|x a Ha IH Hx]; intros b Hb H.
  - destruct b as [|y b]; [reflexivity|]. destruct (proj2 (H y) (or_introl eq_refl)).
  - destruct Hb as [|y b Hb Hy]; [destruct (proj1 (H x) (or_introl eq_refl))|]. rewrite Forall_forall in Hx, Hy.
    assert (x = y).
    { destruct (proj1 (H x) (or_introl eq_refl)) as [E|E]; [auto|]. destruct (proj2 (H y) (or_introl eq_refl)) as [E'|E']; [auto|].
      exfalso. apply (cmp_irrefl x). exact (cmp_trans _ _ _ (Hx _ E') (Hy _ E)). }
    subst y. f_equal. apply IH; [exact Hb|]. intros z. split; intros Hz.
    + destruct (proj1 (H z) (or_intror Hz)) as [<-|]; [|auto]. exfalso. exact (cmp_irrefl _ (Hx _ Hz)).
    + destruct (proj2 (H z) (or_intror Hz)) as [<-|]; [|auto]. exfalso. exact (cmp_irrefl _ (Hy _ Hz)).
Qed.

(** ** Insertion *)
Lemma insert_in v l x : In x (set_insert v l) <-> x = v \/ In x l.
Proof.
  induction l as [|y l IH]; cbn; [intuition congruence|]. destruct (cmp_spec v y) as [->|H|H]; cbn; [intuition congruence|intuition congruence|]. rewrite IH. tauto.
Qed.
Lemma insert_asc v l : ascending l -> ascending (set_insert v l).
Proof.
  induction 1 as [|y l Hl IH Hy]; [apply asc_one|]. cbn [set_insert]. destruct (cmp_spec v y) as [->|H|H].
  - now constructor.
  - constructor; [now constructor|]. constructor; [exact H|]. eapply Forall_impl; [|exact Hy]. intros z. now apply cmp_trans.
  - constructor; [exact IH|]. apply Forall_forall. intros z Hz. apply insert_in in Hz. rewrite Forall_forall in Hy. destruct Hz as [->|Hz]; auto.
Qed.
Lemma insert_perm v l : ascending l -> (In v l /\ set_insert v l = l) \/ (~ In v l /\ Permutation (v :: l) (set_insert v l)).
Proof.
  induction 1 as [|y l Hl IH Hy]; [right; split; [auto|]; apply Permutation_refl|]. cbn [set_insert In]. rewrite Forall_forall in Hy. destruct (cmp_spec v y) as [->|H|H].
  - left. auto.
  - right. split; [|apply Permutation_refl]. intros [->|Hi]; [exact (cmp_irrefl _ H)|]. apply (cmp_irrefl v). exact (cmp_trans _ _ _ H (Hy _ Hi)).
  - destruct IH as [[I1 I2]|[I1 I2]]; [left; split; [auto|now rewrite I2]|right]. split; [intros [->|Hi]; [exact (cmp_irrefl _ H)|auto]|].
    eapply Permutation_trans; [apply perm_swap|]. now apply perm_skip.
Qed.
Lemma insert_last v l : (forall x, In x l -> before x v) -> set_insert v l = l ++ [v].
Proof.
  induction l as [|y l IH]; intros H; [reflexivity|]. cbn [set_insert app]. rewrite cmp_anti, (H y (or_introl eq_refl)). cbn [CompOpp]. rewrite IH; [reflexivity|]. intros; apply H; now right.
Qed.
Lemma insert_present v l : ascending l -> In v l -> set_insert v l = l.
Proof. intros Ha Hi. destruct (insert_perm v l Ha) as [[_ H]|[H _]]; tauto. Qed.

(** Maps *)
Lemma minsert_keys k v l : map fst (map_insert k v l) = set_insert k (map fst l).
Proof. induction l as [|[a b] l IH]; cbn; [reflexivity|]. destruct (cmp_spec k a) as [->|H|H]; cbn; [reflexivity|reflexivity|]. now rewrite IH. Qed.
Lemma minsert_in k v l p : In p (map_insert k v l) -> p = (k, v) \/ In p l.
Proof.
  induction l as [|[a b] l IH]; cbn; [intuition auto|]. destruct (cmp_spec k a) as [->|H|H]; cbn; intuition auto.
Qed.
Lemma minsert_last k v l : (forall x, In x (map fst l) -> before x k) -> map_insert k v l = l ++ [(k, v)].
Proof.
  induction l as [|[a b] l IH]; intros H; [reflexivity|]. cbn [map_insert app]. rewrite cmp_anti, (H a (or_introl eq_refl)). cbn [CompOpp]. rewrite IH; [reflexivity|]. intros; apply H; now right.
Qed.

(** ** All elements of a list *)
Lemma fold_in l : forall x, In x (fold_right set_insert [] l) <-> In x l.
Proof. induction l as [|v l IH]; intros x; cbn [fold_right In]; [tauto|]. rewrite insert_in, IH. intuition congruence. Qed.
Lemma fold_asc l : ascending (fold_right set_insert [] l).
Proof. induction l as [|v l IH]; cbn [fold_right]; [apply asc_nil|now apply insert_asc]. Qed.
Lemma foldl_in l : forall acc x, In x (fold_left (fun s v => set_insert v s) l acc) <-> In x l \/ In x acc.
Proof. induction l as [|v l IH]; intros acc x; cbn [fold_left In]; [tauto|]. rewrite IH, insert_in. intuition congruence. Qed.
Lemma foldl_asc l : forall acc, ascending acc -> ascending (fold_left (fun s v => set_insert v s) l acc).
Proof. induction l as [|v l IH]; intros acc H; cbn [fold_left]; auto using insert_asc. Qed.
Lemma fold_sets l : fold_left (fun s v => set_insert v s) l [] = fold_right set_insert [] l.
Proof.
  apply asc_same; [apply foldl_asc, asc_nil|apply fold_asc|]. intros x. rewrite foldl_in, fold_in. cbn. tauto.
Qed.
Lemma fold_id l : ascending l -> fold_right set_insert [] l = l.
Proof. intros H. apply asc_same; [apply fold_asc|exact H|apply fold_in]. Qed.
Lemma fold_same l m : (forall x, In x l <-> In x m) -> fold_right set_insert [] l = fold_right set_insert [] m.
Proof. intros H. apply asc_same; [apply fold_asc|apply fold_asc|]. intros x. rewrite !fold_in. apply H. Qed.
Lemma fold_perm l : NoDup l -> Permutation (fold_right set_insert [] l) l.
Proof. intros H. apply NoDup_Permutation; [apply asc_nodup, fold_asc|exact H|apply fold_in]. Qed.

(** Maps built from lists of pairs: later pairs win. *)
Lemma minsert_mem k v l p : ascending (map fst l) -> In p (map_insert k v l) <-> p = (k, v) \/ (fst p <> k /\ In p l).
Proof.
  intros Ha. induction l as [|[a b] l IH]; cbn [map_insert]; [cbn; intuition congruence|]. inversion Ha as [|? ? Ha2 Hf]; subst. specialize (IH Ha2). rewrite Forall_forall in Hf.
  assert (Hni : forall x, In x l -> value_cmp a (fst x) = Lt) by (intros x Hx; apply Hf, in_map, Hx).
  destruct (cmp_spec k a) as [->|H|H]; cbn [In].
  - split; [intros [<-|Hi]; [auto|right; split; auto]|intros [->|[Hne [<-|Hi]]]; [auto|cbn in Hne; congruence|auto]].
    intros E. apply (cmp_irrefl a). rewrite <- E at 2. auto.
  - split; [intros [<-|[<-|Hi]]; [auto|right; split; [cbn; intros ->; exact (cmp_irrefl _ H)|auto]|right; split; [|auto]]|intros [->|[Hne [<-|Hi]]]; auto].
    intros E. specialize (Hni p Hi). rewrite E in Hni. apply (cmp_irrefl k). exact (cmp_trans _ _ _ H Hni).
  - rewrite IH. split; [intros [<-|[->|[Hne Hi]]]; [right; split; [cbn; intros ->; exact (cmp_irrefl _ H)|auto]|auto|auto]|intros [->|[Hne [<-|Hi]]]; auto].
Qed.
Lemma pairs_same (a b : list (value * value)) : ascending (map fst a) -> ascending (map fst b) -> (forall p, In p a <-> In p b) -> a = b.
Proof.
  revert b. induction a as [|p a IH]; intros b Ha Hb H.
  - destruct b as [|q b]; [reflexivity|]. destruct (proj2 (H q) (or_introl eq_refl)).
  - destruct b as [|q b]; [destruct (proj1 (H p) (or_introl eq_refl))|]. cbn [map] in Ha, Hb. inversion Ha as [|? ? Ha2 Hp]; subst. inversion Hb as [|? ? Hb2 Hq]; subst. rewrite Forall_forall in Hp, Hq.
    assert (Hp' : forall x, In x a -> value_cmp (fst p) (fst x) = Lt) by (intros x Hx; apply Hp, in_map, Hx).
    assert (Hq' : forall x, In x b -> value_cmp (fst q) (fst x) = Lt) by (intros x Hx; apply Hq, in_map, Hx).
    assert (p = q).
    { destruct (proj1 (H p) (or_introl eq_refl)) as [E|E]; [auto|]. destruct (proj2 (H q) (or_introl eq_refl)) as [E'|E']; [auto|].
      exfalso. apply (cmp_irrefl (fst p)). exact (cmp_trans _ _ _ (Hp' _ E') (Hq' _ E)). }
    subst q. f_equal. apply IH; [exact Ha2|exact Hb2|]. intros z. split; intros Hz.
    + destruct (proj1 (H z) (or_intror Hz)) as [<-|]; [|auto]. exfalso. exact (cmp_irrefl _ (Hp' _ Hz)).
    + destruct (proj2 (H z) (or_intror Hz)) as [<-|]; [|auto]. exfalso. exact (cmp_irrefl _ (Hq' _ Hz)).
Qed.
Lemma finally_last k v k' v' l : finally k v (l ++ [(k', v')]) <-> (k, v) = (k', v') \/ (k <> k' /\ finally k v l).
Proof.
  split.
  - intros (a & b & E & Hn). destruct b as [|q b _] using rev_ind.
    + apply app_inj_tail in E. destruct E as [_ E]. left. congruence.
    + rewrite app_comm_cons, app_assoc in E. apply app_inj_tail in E. destruct E as [-> <-]. right.
      rewrite map_app, in_app_iff in Hn. cbn in Hn. split; [intros ->; tauto|]. exists a, b. tauto.
  - intros [[= -> ->]|[Hne (a & b & -> & Hn)]].
    + exists l, []. cbn. tauto.
    + exists a, (b ++ [(k', v')]). rewrite <- app_assoc. split; [reflexivity|]. rewrite map_app, in_app_iff. cbn. intuition congruence.
Qed.
Lemma minserts_asc l : ascending (map fst (fold_left (fun m p => map_insert (fst p) (snd p) m) l [])).
Proof.
  induction l as [|p l IH] using rev_ind; [apply asc_nil|]. rewrite fold_left_app. cbn [fold_left]. rewrite minsert_keys. now apply insert_asc.
Qed.
Lemma minserts_in l : forall k v, In (k, v) (fold_left (fun m p => map_insert (fst p) (snd p) m) l []) <-> finally k v l.
Proof.
  induction l as [|[k' v'] l IH] using rev_ind; intros k v.
  - cbn. split; [intros []|]. intros (a & b & E & _). now destruct a.
  - rewrite fold_left_app. cbn [fold_left fst snd]. rewrite minsert_mem by apply minserts_asc. cbn [fst]. now rewrite IH, finally_last.
Qed.
Lemma finally_nodup l : NoDup (map fst l) -> forall k v, finally k v l <-> In (k, v) l.
Proof.
  intros Hnd k v. split.
  - intros (a & b & -> & _). apply in_elt.
  - intros Hi. apply in_split in Hi. destruct Hi as (a & b & ->). exists a, b. split; [reflexivity|].
    rewrite map_app in Hnd. cbn [map fst] in Hnd. apply NoDup_remove_2 in Hnd. intros H. apply Hnd, in_or_app. now right.
Qed.
Lemma minserts_are l kvs : ascending (map fst kvs) -> NoDup (map fst l) -> (forall p, In p kvs <-> In p l) ->
  fold_left (fun m p => map_insert (fst p) (snd p) m) l [] = kvs.
Proof.
  intros Ha Hn H. apply pairs_same; [apply minserts_asc|exact Ha|]. intros [k v]. now rewrite minserts_in, H, finally_nodup.
Qed.
Lemma inserts_are l vs : ascending vs -> (forall x, In x vs <-> In x l) -> fold_left (fun s v => set_insert v s) l [] = vs.
Proof.
  intros Ha H. rewrite fold_sets. apply asc_same; [apply fold_asc|exact Ha|]. intros x. now rewrite fold_in, H.
Qed.
