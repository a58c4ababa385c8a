(** * P_Base: lemmas about the basic vocabulary *)

From Verif Require Import Base.

Ltac Zify.zify_post_hook ::= Z.div_mod_to_equations.

(** ** Lists *)

Lemma takeN_firstn {A} (l : list A) : forall n, takeN n l = firstn (N.to_nat n) l.
Proof.
  induction l as [|x r IH]; intros n; cbn [takeN].
  - now rewrite firstn_nil.
  - destruct (N.eqb_spec n 0) as [->|Hn]; [reflexivity|].
    rewrite IH. replace (N.to_nat n) with (S (N.to_nat (n - 1))) by lia.
    reflexivity.
Qed.

Lemma dropN_skipn {A} (l : list A) : forall n, dropN n l = skipn (N.to_nat n) l.
Proof.
  induction l as [|x r IH]; intros n; cbn [dropN].
  - now rewrite skipn_nil.
  - destruct (N.eqb_spec n 0) as [->|Hn]; [reflexivity|].
    rewrite IH. replace (N.to_nat n) with (S (N.to_nat (n - 1))) by lia.
    reflexivity.
Qed.

Lemma lenN_nil {A} : lenN (@nil A) = 0. Proof. reflexivity. Qed.
Lemma lenN_cons {A} (x : A) l : lenN (x :: l) = lenN l + 1.
Proof. unfold lenN; cbn [length]; lia. Qed.
Lemma lenN_app {A} (l r : list A) : lenN (l ++ r) = lenN l + lenN r.
Proof. unfold lenN; rewrite app_length; lia. Qed.
Lemma lenN_takeN {A} n (l : list A) : lenN (takeN n l) = N.min n (lenN l).
Proof. rewrite takeN_firstn; unfold lenN; rewrite firstn_length; lia. Qed.
Lemma lenN_dropN {A} n (l : list A) : lenN (dropN n l) = lenN l - n.
Proof. rewrite dropN_skipn; unfold lenN; rewrite skipn_length; lia. Qed.
Lemma lenN_0 {A} (l : list A) : lenN l = 0 -> l = [].
Proof. destruct l; [easy|]. rewrite lenN_cons; lia. Qed.
Lemma lenN_repeat {A} (x : A) n : lenN (repeat x n) = N.of_nat n.
Proof. unfold lenN; now rewrite repeat_length. Qed.
Lemma takeN_dropN {A} n (l : list A) : takeN n l ++ dropN n l = l.
Proof. rewrite takeN_firstn, dropN_skipn; apply firstn_skipn. Qed.
Lemma takeN_0 {A} (l : list A) : takeN 0 l = [].
Proof. destruct l; reflexivity. Qed.
Lemma dropN_0 {A} (l : list A) : dropN 0 l = l.
Proof. destruct l; reflexivity. Qed.
Lemma takeN_nil {A} n : takeN n (@nil A) = []. Proof. reflexivity. Qed.
Lemma dropN_nil {A} n : dropN n (@nil A) = []. Proof. reflexivity. Qed.
Lemma takeN_all {A} n (l : list A) : lenN l <= n -> takeN n l = l.
Proof. intros H; rewrite takeN_firstn; apply firstn_all2; unfold lenN in H; lia. Qed.
Lemma dropN_all {A} n (l : list A) : lenN l <= n -> dropN n l = [].
Proof. intros H; rewrite dropN_skipn; apply skipn_all2; unfold lenN in H; lia. Qed.
Lemma dropN_dropN {A} a b (l : list A) : dropN a (dropN b l) = dropN (b + a) l.
Proof.
  rewrite !dropN_skipn. rewrite N2Nat.inj_add.
  generalize (N.to_nat a) (N.to_nat b); intros m n; clear a b.
  revert l; induction n as [|n IH]; intros l; [reflexivity|].
  destruct l; cbn [skipn Nat.add]; [now rewrite skipn_nil|apply IH].
Qed.
Lemma takeN_takeN {A} a b (l : list A) : takeN a (takeN b l) = takeN (N.min a b) l.
Proof.
  rewrite !takeN_firstn, firstn_firstn. f_equal; lia.
Qed.
Lemma takeN_app {A} n (l r : list A) :
  takeN n (l ++ r) = takeN n l ++ takeN (n - lenN l) r.
Proof.
  rewrite !takeN_firstn, firstn_app. do 2 f_equal. unfold lenN; lia.
Qed.
Lemma dropN_app {A} n (l r : list A) :
  dropN n (l ++ r) = dropN n l ++ dropN (n - lenN l) r.
Proof.
  rewrite !dropN_skipn, skipn_app. do 2 f_equal. unfold lenN; lia.
Qed.
Lemma takeN_app_l {A} n (l r : list A) : n <= lenN l -> takeN n (l ++ r) = takeN n l.
Proof.
  intros H. rewrite takeN_app. replace (n - lenN l) with 0 by lia.
  now rewrite takeN_0, app_nil_r.
Qed.
Lemma dropN_app_l {A} n (l r : list A) : n <= lenN l -> dropN n (l ++ r) = dropN n l ++ r.
Proof.
  intros H. rewrite dropN_app. replace (n - lenN l) with 0 by lia.
  now rewrite dropN_0.
Qed.
Lemma takeN_app_exact {A} (l r : list A) : takeN (lenN l) (l ++ r) = l.
Proof. rewrite takeN_app_l by lia. now apply takeN_all. Qed.
Lemma dropN_app_exact {A} (l r : list A) : dropN (lenN l) (l ++ r) = r.
Proof. rewrite dropN_app_l by lia. now rewrite dropN_all by lia. Qed.
Lemma takeN_S_cons {A} n (x : A) l : 0 < n -> takeN n (x :: l) = x :: takeN (n - 1) l.
Proof. intros H; cbn [takeN]. destruct (N.eqb_spec n 0); [lia|reflexivity]. Qed.
Lemma dropN_S_cons {A} n (x : A) l : 0 < n -> dropN n (x :: l) = dropN (n - 1) l.
Proof. intros H; cbn [dropN]. destruct (N.eqb_spec n 0); [lia|reflexivity]. Qed.
Lemma takeN_add {A} a b (l : list A) :
  takeN (a + b) l = takeN a l ++ takeN b (dropN a l).
Proof.
  revert a; induction l as [|x r IH]; intros a; [reflexivity|].
  destruct (N.eqb_spec a 0) as [->|Ha].
  - now rewrite takeN_0, dropN_0.
  - rewrite !takeN_S_cons, dropN_S_cons by lia.
    replace (a + b - 1) with ((a - 1) + b) by lia. rewrite IH. reflexivity.
Qed.
Lemma dropN_takeN_comm {A} a b (l : list A) :
  dropN a (takeN b l) = takeN (b - a) (dropN a l).
Proof.
  revert a b; induction l as [|x r IH]; intros a b; [reflexivity|].
  destruct (N.eqb_spec a 0) as [->|Ha].
  - rewrite !dropN_0. f_equal; lia.
  - destruct (N.eqb_spec b 0) as [->|Hb].
    + rewrite takeN_0. replace (0 - a) with 0 by lia. now rewrite takeN_0.
    + rewrite takeN_S_cons, !dropN_S_cons by lia. rewrite IH. f_equal; lia.
Qed.

(** ** The monad *)

Lemma mbind_ok {S E A B} (m : M S E A) (k : A -> M S E B) s a s' :
  m s = (ROk a, s') -> mbind m k s = k a s'.
Proof. intros H; unfold mbind; now rewrite H. Qed.
Lemma mbind_err {S E A B} (m : M S E A) (k : A -> M S E B) s e s' :
  m s = (RErr e, s') -> mbind m k s = (RErr e, s').
Proof. intros H; unfold mbind; now rewrite H. Qed.

Lemma mbind_inv_ok {S E A B} (m : M S E A) (k : A -> M S E B) s b s' :
  mbind m k s = (ROk b, s') -> exists a s1, m s = (ROk a, s1) /\ k a s1 = (ROk b, s').
Proof.
  unfold mbind; destruct (m s) as [[a|e| |] s1]; intros H; try discriminate.
  now exists a, s1.
Qed.

Lemma mbind_assoc {S E A B C} (m : M S E A) (k : A -> M S E B) (h : B -> M S E C) s :
  mbind (mbind m k) h s = mbind m (fun a => mbind (k a) h) s.
Proof. unfold mbind; destruct (m s) as [[a|e| |] s1]; reflexivity. Qed.

(** Unary iteration; [miter] computes the same. *)
Fixpoint miter_nat {S E A B} (n : nat) (step : A -> M S E (A + B)) (a : A)
  : M S E (A + B) :=
  match n with
  | O => mret (inl a)
  | Datatypes.S n' =>
      mbind (step a) (fun r => match r with
                               | inl a' => miter_nat n' step a'
                               | inr b => mret (inr b)
                               end)
  end.

Lemma miter_nat_add {S E A B} (step : A -> M S E (A + B)) m : forall n a s,
  miter_nat (m + n) step a s =
  mbind (miter_nat m step a) (fun r => match r with
                                       | inl a' => miter_nat n step a'
                                       | inr b => mret (inr b)
                                       end) s.
Proof.
  induction m as [|m IH]; intros n a s; cbn [Nat.add miter_nat].
  - reflexivity.
  - rewrite mbind_assoc. unfold mbind at 1 2.
    destruct (step a s) as [[[a'|b]|e| |] s1]; try reflexivity.
    apply IH.
Qed.

Lemma miter_nat_1 {S E A B} (step : A -> M S E (A + B)) a s :
  miter_nat 1 step a s = step a s.
Proof.
  cbn [miter_nat]. unfold mbind, mret.
  destruct (step a s) as [[[a'|b]|e| |] s1]; reflexivity.
Qed.

Lemma miter_spec {S E A B} (step : A -> M S E (A + B)) p : forall a s,
  miter p step a s = miter_nat (Pos.to_nat p) step a s.
Proof.
  induction p as [q IH|q IH|]; intros a s; cbn [miter].
  - rewrite Pos2Nat.inj_xI.
    replace (Datatypes.S (2 * Pos.to_nat q)) with (1 + (Pos.to_nat q + Pos.to_nat q))%nat by lia.
    rewrite miter_nat_add. unfold mbind at 1 3. rewrite miter_nat_1.
    destruct (step a s) as [[[a'|b]|e| |] s1]; try reflexivity.
    rewrite miter_nat_add. unfold mbind. rewrite IH.
    destruct (miter_nat (Pos.to_nat q) step a' s1) as [[[a''|b]|e| |] s2]; try reflexivity.
    apply IH.
  - rewrite Pos2Nat.inj_xO.
    replace (2 * Pos.to_nat q)%nat with (Pos.to_nat q + Pos.to_nat q)%nat by lia.
    rewrite miter_nat_add. unfold mbind. rewrite IH.
    destruct (miter_nat (Pos.to_nat q) step a s) as [[[a''|b]|e| |] s2]; try reflexivity.
    apply IH.
  - cbn [Pos.to_nat Pos.iter_op]. now rewrite miter_nat_1.
Qed.

Lemma loop_bound_nat : Pos.to_nat loop_bound = Datatypes.S (N.to_nat U64_MOD).
Proof. unfold loop_bound, U64_MOD. lia. Qed.

(** The loop as unary iteration. *)
Definition mloop_nat {S E A B} (n : nat) (step : A -> M S E (A + B)) (a : A) : M S E B :=
  mbind (miter_nat n step a) (fun r => match r with
                                       | inl _ => fun s => (RFuel, s)
                                       | inr b => mret b
                                       end).

Lemma mloop_eq {S E A B} (step : A -> M S E (A + B)) a s :
  mloop step a s = mloop_nat (Pos.to_nat loop_bound) step a s.
Proof. unfold mloop, mloop_nat, mbind. now rewrite miter_spec. Qed.

Lemma mloop_nat_S {S E A B} n (step : A -> M S E (A + B)) a s :
  mloop_nat (Datatypes.S n) step a s =
  mbind (step a) (fun r => match r with
                           | inl a' => mloop_nat n step a'
                           | inr b => mret b
                           end) s.
Proof.
  unfold mloop_nat. cbn [miter_nat]. rewrite mbind_assoc. unfold mbind at 1 3.
  destruct (step a s) as [[[a'|b]|e| |] s1]; reflexivity.
Qed.

(** More fuel does not change a result obtained without exhausting it. *)
Lemma mloop_nat_more {S E A B} (step : A -> M S E (A + B)) n : forall m a s r s',
  (n <= m)%nat -> mloop_nat n step a s = (r, s') -> r <> RFuel ->
  mloop_nat m step a s = (r, s').
Proof.
  induction n as [|n IH]; intros m a s r s' Hm H Hr.
  - unfold mloop_nat, mbind in H; cbn in H. inversion H; congruence.
  - destruct m as [|m]; [lia|]. rewrite mloop_nat_S in *. unfold mbind in *.
    destruct (step a s) as [[[a'|b]|e| |] s1]; try exact H.
    apply IH; [lia|exact H|exact Hr].
Qed.

Lemma mloop_of_nat {S E A B} (step : A -> M S E (A + B)) n a s r s' :
  (n <= Datatypes.S (N.to_nat U64_MOD))%nat ->
  mloop_nat n step a s = (r, s') -> r <> RFuel -> mloop step a s = (r, s').
Proof.
  intros Hn H Hr. rewrite mloop_eq, loop_bound_nat.
  now apply (mloop_nat_more step n).
Qed.

(** Hoare-style rule for loops with a decreasing measure. *)
Lemma mloop_nat_inv {S E A B} (step : A -> M S E (A + B))
      (I : A -> S -> Prop) (meas : S -> N) (Q : res E B -> S -> Prop) :
  (forall a s, I a s ->
     match step a s with
     | (ROk (inl a'), s') => I a' s' /\ meas s' < meas s
     | (ROk (inr b), s') => Q (ROk b) s'
     | (RErr e, s') => Q (RErr e) s'
     | (RPanic, s') => Q RPanic s'
     | (RFuel, s') => Q RFuel s'
     end) ->
  forall n a s, I a s -> (N.to_nat (meas s) < n)%nat ->
  let '(r, s') := mloop_nat n step a s in Q r s'.
Proof.
  intros Hstep n; induction n as [|n IH]; intros a s HI Hn; [lia|].
  rewrite mloop_nat_S. unfold mbind. specialize (Hstep a s HI).
  destruct (step a s) as [[[a'|b]|e| |] s1]; try exact Hstep.
  destruct Hstep as [HI' Hm]. apply IH; [exact HI'|lia].
Qed.

Lemma mloop_inv {S E A B} (step : A -> M S E (A + B))
      (I : A -> S -> Prop) (meas : S -> N) (Q : res E B -> S -> Prop) :
  (forall a s, I a s ->
     match step a s with
     | (ROk (inl a'), s') => I a' s' /\ meas s' < meas s
     | (ROk (inr b), s') => Q (ROk b) s'
     | (RErr e, s') => Q (RErr e) s'
     | (RPanic, s') => Q RPanic s'
     | (RFuel, s') => Q RFuel s'
     end) ->
  forall a s, I a s -> meas s <= U64_MOD ->
  let '(r, s') := mloop step a s in Q r s'.
Proof.
  intros Hstep a s HI Hm. rewrite mloop_eq, loop_bound_nat.
  eapply mloop_nat_inv; eauto. lia.
Qed.

(** ** u64 arithmetic *)

Lemma u64_sub_ok {E} dbg a b : b <= a -> @u64_sub E dbg a b = ROk (a - b).
Proof. intros H; unfold u64_sub. destruct (N.leb_spec b a); [reflexivity|lia]. Qed.
Lemma u64_add_ok {E} dbg a b : a + b < U64_MOD -> @u64_add E dbg a b = ROk (a + b).
Proof. intros H; unfold u64_add. destruct (N.ltb_spec (a + b) U64_MOD); [reflexivity|lia]. Qed.
