(** * P_Dbg: a build with checks and one without agree until the first panic (C63) *)

From Verif Require Import Base Wire Dev Stream Types Prog Ser De SpecWire SpecFormat SpecStream SpecBlob SpecHist SpecDe SpecDoc SpecSerDe SpecDbg
  P_Base P_Sched P_Read P_Pos P_DeProps P_SerDe.

Strategy 1000 [decode_u64 decode_loop encode_u64 enc_loop encode_fixed_u64 mloop miter].

(** [m1] in the checked build against [m2] in the other. *)
Definition agr {E A} (m1 m2 : M stream E A) : Prop :=
  forall s r s', s_dbg s = true -> m1 s = (r, s') ->
    r = RPanic \/ (s_dbg s' = true /\ m2 (release s) = (r, release s')).
(** The same of a pure computation. *)
Definition ragr {E A} (r1 r2 : res E A) : Prop := r1 = RPanic \/ r2 = r1.

Lemma ragr_refl {E A} (r : res E A) : ragr r r.
Proof. now right. Qed.
Lemma ragr_add {E} a b : ragr (E := E) (u64_add true a b) (u64_add false a b).
Proof. unfold ragr, u64_add. destruct (_ <? _); auto. Qed.
Lemma ragr_sub {E} a b : ragr (E := E) (u64_sub true a b) (u64_sub false a b).
Proof. unfold ragr, u64_sub. destruct (_ <=? _); auto. Qed.
Lemma ragr_neg {E} z : ragr (E := E) (i64_neg true z) (i64_neg false z).
Proof. unfold ragr, i64_neg. destruct (_ =? _)%Z; auto. Qed.
Lemma ragr_desc {E} d : ragr (E := E) (desc_byte true d) (desc_byte false d).
Proof.
  unfold ragr, desc_byte. destruct d; auto. cbn [andb]. destruct (negb _); auto.
Qed.

Lemma ag_ret {E A} (x : A) : agr (E := E) (mret x) (mret x).
Proof. intros s r s' Hs H; injection H as <- <-; auto. Qed.
Lemma ag_fail {E A} (e : E) : agr (A := A) (mfail e) (mfail e).
Proof. intros s r s' Hs H; injection H as <- <-; auto. Qed.
Lemma ag_panic {E A} (m : M stream E A) : agr mpanic m.
Proof. intros s r s' Hs H; injection H as <- <-; auto. Qed.
Lemma ag_res {E A} (x y : res E A) : ragr x y -> agr (mres x) (mres y).
Proof. intros Hx s r s' Hs H; injection H as <- <-. destruct Hx as [Hx|Hx]; [now left|right]. unfold mres. now rewrite Hx. Qed.
Lemma ag_fuel {E A} : agr (fun s : stream => (@RFuel E A, s)) (fun s => (RFuel, s)).
Proof. intros s r s' Hs H; injection H as <- <-; auto. Qed.
Lemma ag_mod {E} (f g : stream -> stream) :
  (forall s, s_dbg s = true -> s_dbg (f s) = true /\ g (release s) = release (f s)) -> agr (E := E) (mmod f) (mmod g).
Proof. intros Hf s r s' Hs H; injection H as <- <-. right. destruct (Hf s Hs) as [H1 H2]. split; auto. unfold mmod. now rewrite H2. Qed.
Lemma ag_bind {E A B} (m m' : M stream E A) (k k' : A -> M stream E B) :
  agr m m' -> (forall a, agr (k a) (k' a)) -> agr (mbind m k) (mbind m' k').
Proof.
  intros Hm Hk s r s' Hs H. unfold mbind in H |- *. destruct (m s) as [r1 s1] eqn:E1.
  destruct (Hm _ _ _ Hs E1) as [->|[H1 H2]]; [injection H as <- <-; now left|].
  rewrite H2. destruct r1 as [x|e| |]; try (injection H as <- <-; now right).
  exact (Hk x _ _ _ H1 H).
Qed.
Lemma ag_get {E A} (k k' : stream -> M stream E A) :
  (forall s, s_dbg s = true -> agr (k s) (k' (release s))) -> agr (mbind mget k) (mbind mget k').
Proof. intros Hk s r s' Hs H. unfold mbind, mget in H |- *. exact (Hk s Hs s r s' Hs H). Qed.
Lemma ag_fun {E A} (f g : stream -> M stream E A) :
  (forall s, s_dbg s = true -> agr (f s) (g (release s))) -> agr (fun s => f s s) (fun s => g s s).
Proof. intros Hk s r s' Hs H. exact (Hk s Hs s r s' Hs H). Qed.
Lemma ag_pure {E A} (f g : stream -> res E A) :
  (forall s, s_dbg s = true -> ragr (f s) (g (release s))) -> agr (fun s => (f s, s)) (fun s => (g s, s)).
Proof. intros Hk s r s' Hs H. injection H as <- <-. destruct (Hk s Hs) as [->| ->]; auto. Qed.
Lemma ag_if {E A} (b : bool) (m1 m2 n1 n2 : M stream E A) :
  agr m1 n1 -> agr m2 n2 -> agr (if b then m1 else m2) (if b then n1 else n2).
Proof. destruct b; auto. Qed.
Lemma ag_lift {A} (m n : IM A) : agr m n -> agr (lift_io m) (lift_io n).
Proof.
  intros Hm s r s' Hs H. unfold lift_io in H |- *. destruct (m s) as [r1 s1] eqn:E1.
  destruct (Hm _ _ _ Hs E1) as [->|[H1 H2]]; [injection H as <- <-; now left|].
  rewrite H2. destruct r1; injection H as <- <-; auto.
Qed.
Lemma ag_miter {E A B} (f g : A -> M stream E (A + B)) p :
  (forall a, agr (f a) (g a)) -> forall a, agr (miter p f a) (miter p g a).
Proof.
  intros Hs. induction p as [q IH|q IH|]; intros a; cbn [miter].
  - apply ag_bind; [apply Hs|]. intros [a'|b]; [|apply ag_ret].
    apply ag_bind; [apply IH|]. intros [a''|b]; [apply IH|apply ag_ret].
  - apply ag_bind; [apply IH|]. intros [a'|b]; [apply IH|apply ag_ret].
  - apply Hs.
Qed.
Lemma ag_mloop {E A B} (f g : A -> M stream E (A + B)) :
  (forall a, agr (f a) (g a)) -> forall a, agr (mloop f a) (mloop g a).
Proof.
  intros Hs a. apply ag_bind; [now apply ag_miter|]. intros [a'|b]; [apply ag_fuel|apply ag_ret].
Qed.
Lemma ag_check n : agr (check_advance_pos n) (check_advance_pos n).
Proof. intros s r s' Hs H. unfold check_advance_pos in *. scbn. cbn [s_pos release]. destruct (_ <? _); injection H as <- <-; auto. Qed.
Lemma ag_dev {A} (m : M dev iokind A) : agr (on_dev m) (on_dev m).
Proof.
  intros s r s' Hs H. unfold on_dev in *. change (s_dev (release s)) with (s_dev s). destruct (m (s_dev s)) as [r1 d].
  injection H as <- <-. right. split; [exact Hs|reflexivity].
Qed.

Lemma ag_read_exact rd rd' n : (forall n, agr (rd n) (rd' n)) -> agr (read_exact sch rd n) (read_exact sch rd' n).
Proof.
  intros Hr s r s' Hs H. unfold read_exact in *. change (sch (release s)) with (sch s). revert H. generalize (2 + List.length (sch s))%nat as fuel.
  generalize (@nil N) as acc. intros acc fuel. revert acc n s Hs.
  induction fuel as [|f IH]; intros acc n s Hs H; cbn [read_exact_loop] in *; [injection H as <- <-; auto|].
  destruct (n =? 0); [injection H as <- <-; auto|].
  destruct (rd n s) as [r1 s1] eqn:E1. destruct (Hr n _ _ _ Hs E1) as [->|[H1 H2]]; [injection H as <- <-; auto|].
  rewrite H2. destruct r1 as [[|x l]|[]| |]; try (injection H as <- <-; now right); eapply IH; eauto.
Qed.
Lemma ag_read_upto rd rd' n : (forall n, agr (rd n) (rd' n)) -> agr (read_upto sch rd n) (read_upto sch rd' n).
Proof.
  intros Hr s r s' Hs H. unfold read_upto in *. change (sch (release s)) with (sch s). revert H. generalize (2 + List.length (sch s))%nat as fuel.
  generalize (@nil N) as acc. intros acc fuel. revert acc n s Hs.
  induction fuel as [|f IH]; intros acc n s Hs H; cbn [read_upto_loop] in *; [injection H as <- <-; auto|].
  destruct (n =? 0); [injection H as <- <-; auto|].
  destruct (rd n s) as [r1 s1] eqn:E1. destruct (Hr n _ _ _ Hs E1) as [->|[H1 H2]]; [injection H as <- <-; auto|].
  rewrite H2. destruct r1 as [[|x l]|[]| |]; try (injection H as <- <-; now right); eapply IH; eauto.
Qed.
Lemma ag_write_all w w' bs : (forall bs, agr (w bs) (w' bs)) -> agr (write_all sch w bs) (write_all sch w' bs).
Proof.
  intros Hr s r s' Hs H. unfold write_all in *. change (sch (release s)) with (sch s). revert H. generalize (2 + List.length (sch s))%nat as fuel.
  intros fuel. revert bs s Hs.
  induction fuel as [|f IH]; intros bs s Hs H; cbn [write_all_loop] in *; [injection H as <- <-; auto|].
  destruct bs as [|x l]; [injection H as <- <-; auto|].
  destruct (w (x :: l) s) as [r1 s1] eqn:E1. destruct (Hr _ _ _ _ Hs E1) as [->|[H1 H2]]; [injection H as <- <-; auto|].
  rewrite H2. destruct r1 as [n|[]| |]; try (injection H as <- <-; now right); [|eapply IH; eauto].
  destruct (n =? 0); [injection H as <- <-; now right|]. eapply IH; eauto.
Qed.
Lemma ag_decode rb rb' : agr rb rb' -> agr (decode_u64 rb) (decode_u64 rb').
Proof.
  intros Hb. unfold decode_u64. generalize 258%nat as fuel; intros fuel.
  generalize 0 at 1 3 as acc. generalize 0 as sh. revert fuel.
  induction fuel as [|fuel IH]; intros sh acc; cbn [decode_loop]; [apply ag_fuel|].
  apply ag_bind; [exact Hb|]. intros b. apply ag_if; [apply ag_fail|].
  cbv zeta. apply ag_if; [apply ag_ret|]. apply ag_if; [apply ag_fail|apply IH].
Qed.

Ltac agat := match goal with
  | Hs : s_dbg ?s = true |- ?m ?s = _ -> _ \/ (_ /\ ?m' (release ?s) = _) =>
      let X := fresh in enough (X : agr m m') by (let H := fresh in intros H; exact (X _ _ _ Hs H))
  end.
Ltac agin := intros s r s' Hs; cbn beta; cbn [release s_pos s_blob_end s_dyn_start s_depth s_dbg s_commit s_eof]; rewrite ?Hs.

(** ** Every operation of a stream *)
Ltac agmod := apply ag_mod; let s0 := fresh in let H0 := fresh in intros s0 H0; split; [exact H0|reflexivity].
Ltac ag1 := first [apply ag_ret | apply ag_fail | apply ag_panic | apply ag_fuel | apply ag_check | apply ag_dev | agmod].

Lemma ag_t_read g n : agr (t_read g n) (t_read g n).
Proof.
  unfold t_read. apply ag_if; [ag1|]. apply ag_bind; [ag1|intros u1]. apply ag_bind; [ag1|intros bs].
  apply ag_bind; [agmod|intros u2]. destruct bs; [apply ag_if|]; ag1.
Qed.
Lemma ag_t_write bs : agr (t_write bs) (t_write bs).
Proof.
  unfold t_write. destruct bs; [ag1|]. apply ag_bind; [ag1|intros u1]. apply ag_bind; [ag1|intros n'].
  apply ag_bind; [agmod|intros u2]. ag1.
Qed.
Lemma ag_read_byte g : agr (s_read_byte g) (s_read_byte g).
Proof.
  apply ag_lift. apply ag_bind; [apply ag_read_exact; intros; apply ag_t_read|]. intros [|b l]; ag1.
Qed.
Lemma ag_sdecode : agr s_decode_u64 s_decode_u64.
Proof. apply ag_decode, ag_read_byte. Qed.
Lemma ag_discard n : agr (skip_by_discard n) (skip_by_discard n).
Proof. apply ag_lift. apply ag_bind; [apply ag_read_upto; intros; apply ag_t_read|]. intros; ag1. Qed.
Lemma ag_seek_direct n : agr (skip_by_seek_direct n) (skip_by_seek_direct n).
Proof.
  apply ag_bind; [apply ag_lift, ag_check|]. intros _ s r s' Hs H.
  destruct (on_dev (dev_seek (SkCur (Z.of_N n))) s) as [r1 s1] eqn:E1.
  destruct (ag_dev _ _ _ _ Hs E1) as [->|[H1 H2]]; [injection H as <- <-; now left|].
  rewrite H2. destruct r1; try (injection H as <- <-; now right); now apply ag_discard.
Qed.
Lemma ag_seek_rec f : forall n, agr (skip_by_seek_rec f n) (skip_by_seek_rec f n).
Proof.
  induction f as [|f IH]; intros n; cbn [skip_by_seek_rec]; [ag1|]. apply ag_if; [|apply ag_seek_direct].
  apply ag_bind; [apply IH|intros a]. apply ag_if; [ag1|]. apply ag_bind; [apply IH|intros b]. ag1.
Qed.
Lemma ag_skip_blob : agr skip_blob skip_blob.
Proof.
  intros s r s' Hs H. unfold skip_blob in *. cbn [release s_pos s_blob_end s_seek].
  destruct (s_pos s <? s_blob_end s); [|injection H as <- <-; now right].
  cbv zeta in *. revert H. generalize (s_blob_end s - s_pos s) as n. intros n H.
  revert H. agat. apply ag_bind.
  - apply ag_if; [apply ag_seek_rec|apply ag_discard].
  - intros a. apply ag_if; ag1.
Qed.
Lemma ag_check_end : agr check_at_end_of_blob check_at_end_of_blob.
Proof.
  intros s r s' Hs H. unfold check_at_end_of_blob in *. cbn [release s_pos s_blob_end s_dbg]. rewrite Hs in H.
  destruct (_ =? _); [injection H as <- <-; now right|].
  destruct (ragr_sub (E := serr) (s_blob_end s) (s_pos s)) as [E1|E1]; [rewrite E1 in H; injection H as <- <-; now left|].
  rewrite E1. destruct (u64_sub _ _ _); injection H as <- <-; auto.
Qed.

Lemma ag_finish : agr finish_dynamic_blob finish_dynamic_blob.
Proof.
  unfold finish_dynamic_blob. agin. destruct (_ <? _); [intros [= <- <-]; now right|]. agat.
  apply ag_bind; [apply ag_res, ragr_sub|intros a1]. apply ag_bind; [apply ag_res, ragr_sub|intros a2].
  apply ag_if; [ag1|]. apply ag_bind; [apply ag_lift, ag_dev|intros a3]. apply ag_bind; [agmod|intros a4].
  apply ag_bind; [apply ag_lift, ag_write_all, ag_t_write|intros a5].
  apply ag_bind; [apply ag_lift, ag_dev|intros a6]. agmod.
Qed.
Lemma ag_commit : agr commit commit.
Proof.
  unfold commit. agin. destruct (s_commit s) as [f|]; [|intros [= <- <-]; now right]. agat.
  apply ag_bind; [destruct f; [apply ag_skip_blob|apply ag_check_end|apply ag_finish]|intros a1]. agmod.
Qed.
Lemma ag_reset p : agr (reset_pos p) (reset_pos p).
Proof.
  apply ag_bind; [apply ag_commit|intros a1]. apply ag_bind; [agmod|intros a2]. apply ag_bind; [agmod|intros a3]. agmod.
Qed.
Lemma ag_st_seek w : agr (st_seek w) (st_seek w).
Proof.
  apply ag_bind; [apply ag_commit|intros a1]. apply ag_bind; [apply ag_lift, ag_dev|intros a2].
  apply ag_bind; [apply ag_reset|intros a3]. apply ag_bind; [agmod|intros a4]. ag1.
Qed.
Lemma ag_next_blob : agr next_blob next_blob.
Proof.
  apply ag_bind; [apply ag_sdecode|intros len]. apply ag_bind; [apply ag_lift, ag_check|intros a1].
  apply ag_bind; [agmod|intros a2]. apply ag_bind; [agmod|intros a3]. ag1.
Qed.
Lemma ag_incr : agr incr_depth incr_depth.
Proof.
  unfold incr_depth. agin.
  destruct (ragr_add (E := serr) (s_depth s) 1) as [E1|E1]; rewrite E1; [intros [= <- <-]; now left|].
  destruct (u64_add true (s_depth s) 1); intros [= <- <-]; auto.
Qed.
Lemma ag_next_value t : agr (next_value t) (next_value t).
Proof.
  destruct t; cbn [next_value]; apply ag_bind;
    try first [apply ag_sdecode | apply ag_next_blob | apply ag_incr]; intros n; try ag1.
  apply ag_bind; [apply ag_incr|intros a]. ag1.
Qed.
Lemma ag_step b u : agr (next_element_step b u) (next_element_step b u).
Proof.
  unfold next_element_step. apply ag_get. intros s0 Hs0. cbn [release s_pos s_graceful].
  apply ag_bind; [apply ag_read_byte|intros x]. destruct (parse_desc x) as [[ty tag|[]]|].
  - apply ag_bind; [apply ag_mod; intros s1 H1; cbn [release s_depth]; destruct (_ =? _); (split; [exact H1|reflexivity])|intros a1].
    apply ag_get. intros s1 Hs1. cbn [release s_depth]. apply ag_bind; [apply ag_next_value|intros v]. ag1.
  - apply ag_bind; [apply ag_mod; intros s1 H1; cbn [release s_depth]; destruct (_ <? _); (split; [exact H1|reflexivity])|intros a1]. ag1.
  - apply ag_bind; [agmod|intros a1]. apply ag_bind; [agmod|intros a2]. ag1.
  - apply ag_bind; [apply ag_next_blob|intros a1]. ag1.
  - apply ag_if; ag1.
  - ag1.
Qed.
Lemma ag_impl b : agr (next_element_impl b) (next_element_impl b).
Proof.
  unfold next_element_impl. agin. destruct (s_eof s); [intros [= <- <-]; now right|]. agat.
  apply ag_bind; [apply ag_commit|intros a1]. apply ag_mloop, ag_step.
Qed.
Lemma ag_remaining {E} : agr (E := E) b_remaining b_remaining.
Proof. apply ag_pure. intros s Hs. cbn [release s_dbg s_blob_end s_pos]. rewrite Hs. apply ragr_sub. Qed.
Lemma ag_start_pos {E} len : agr (E := E) (b_start_pos len) (b_start_pos len).
Proof. apply ag_pure. intros s Hs. cbn [release s_dbg s_blob_end s_pos]. rewrite Hs. apply ragr_sub. Qed.
Lemma ag_inner_pos {E} len : agr (E := E) (b_inner_pos len) (b_inner_pos len).
Proof.
  apply ag_bind; [apply ag_remaining|intros a]. apply ag_pure. intros s Hs. cbn [release s_dbg s_blob_end s_pos]. rewrite Hs. apply ragr_sub.
Qed.
Lemma ag_b_read n : agr (b_read n) (b_read n).
Proof. apply ag_bind; [apply ag_remaining|intros a]. apply ag_if; [ag1|apply ag_t_read]. Qed.
Lemma ag_b_read_exact n : agr (b_read_exact n) (b_read_exact n).
Proof. apply ag_read_exact, ag_b_read. Qed.
Lemma ag_read_fully n : agr (b_read_fully n) (b_read_fully n).
Proof. apply ag_bind; [apply ag_remaining|intros a]. apply ag_if; [ag1|]. apply ag_lift, ag_read_upto, ag_b_read. Qed.
Lemma ag_read_trunc n : agr (b_read_or_trunc n) (b_read_or_trunc n).
Proof. apply ag_lift, ag_read_upto, ag_b_read. Qed.
Lemma ag_as_slice {E} : agr (E := E) as_slice as_slice.
Proof. unfold as_slice. agin. change (s_dev (release s)) with (s_dev s). destruct (_ <? _); intros [= <- <-]; auto. Qed.
Lemma ag_b_slice : agr b_slice b_slice.
Proof. apply ag_bind; [apply ag_remaining|intros a]. apply ag_bind; [apply ag_as_slice|intros b]. apply ag_if; ag1. Qed.
Lemma ag_slice_mut new : agr (b_slice_mut_set new) (b_slice_mut_set new).
Proof. apply ag_bind; [apply ag_b_slice|intros a]. apply ag_if; ag1. Qed.
Lemma ag_ext : agr b_ext_slice b_ext_slice.
Proof. apply ag_bind; [apply ag_as_slice|intros a]. apply ag_bind; [apply ag_remaining|intros b]. apply ag_if; ag1. Qed.
Lemma ag_fill : agr b_fill_buf b_fill_buf.
Proof. apply ag_bind; [apply ag_remaining|intros a]. apply ag_bind; [ag1|intros b]. apply ag_bind; [ag1|intros c]. ag1. Qed.
Lemma ag_consume n : agr (b_consume n) (b_consume n).
Proof.
  apply ag_bind; [apply ag_remaining|intros a]. agin. cbn [andb]. destruct (a <? n); [intros [= <- <-]; now left|].
  cbv zeta. change (s_dev (release s)) with (s_dev s).
  destruct (ragr_add (E := iokind) (s_pos s) n) as [E1|E1]; rewrite E1; [intros [= <- <-]; now left|].
  destruct (u64_add true _ _); intros [= <- <-]; auto.
Qed.
Lemma ag_b_write bs : agr (b_write bs) (b_write bs).
Proof. apply ag_bind; [apply ag_remaining|intros a]. apply ag_t_write. Qed.
Lemma ag_b_write_all bs : agr (b_write_all bs) (b_write_all bs).
Proof. apply ag_write_all, ag_b_write. Qed.
Lemma ag_target len w : agr (b_seek_target len w) (b_seek_target len w).
Proof.
  unfold b_seek_target. agin. agat. destruct w as [p|z|z].
  - apply ag_if; [|ag1]. apply ag_bind; [apply ag_start_pos|intros a]. apply ag_pure. intros s1 H1. cbn [release s_dbg s_pos]. rewrite H1. apply ragr_add.
  - apply ag_if; [|ag1]. apply ag_bind; [apply ag_res, ragr_neg|intros o]. apply ag_if; [|ag1].
    apply ag_bind; [apply ag_start_pos|intros a]. apply ag_pure. intros s1 H1. cbn [release s_dbg s_pos]. rewrite H1. apply ragr_add.
  - apply ag_if.
    + apply ag_bind; [apply ag_res, ragr_neg|intros o]. apply ag_bind; [apply ag_inner_pos|intros ip]. apply ag_if; [|ag1].
      apply ag_pure. intros s1 H1. cbn [release s_dbg s_pos]. rewrite H1. apply ragr_sub.
    + cbv zeta. apply ag_bind; [apply ag_remaining|intros ip]. apply ag_if; [|ag1].
      apply ag_pure. intros s1 H1. cbn [release s_dbg s_pos]. rewrite H1. apply ragr_add.
Qed.
Lemma ag_b_seek len w : agr (b_seek len w) (b_seek len w).
Proof.
  apply ag_bind; [apply ag_target|intros p]. apply ag_bind; [|intros _; apply ag_inner_pos].
  agin. destruct (p <? s_pos s).
  - cbv zeta. destruct (_ <? _); [intros [= <- <-]; now right|]. agat. apply ag_bind; [ag1|intros a]. agmod.
  - cbv zeta. destruct (_ <? _); [intros [= <- <-]; now right|]. agat. apply ag_bind; [ag1|intros a]. agmod.
Qed.
Lemma ag_next_field : agr next_field next_field.
Proof.
  apply ag_bind; [apply ag_impl|intros [f| | |len|]]; try ag1. apply ag_bind; [apply ag_read_trunc|intros m]. ag1.
Qed.
Lemma ag_skip_up d : agr (skip_up d) (skip_up d).
Proof.
  unfold skip_up. apply ag_mloop. intros _. apply ag_get. intros s Hs. cbn [release s_depth]. apply ag_if; [|ag1].
  apply ag_bind; [apply ag_impl|intros a]. ag1.
Qed.
Lemma ag_field_skip f : agr (field_skip f) (field_skip f).
Proof. unfold field_skip. destruct (f_val f); try ag1; apply ag_skip_up. Qed.

Lemma ag_desc d : agr (write_desc d) (write_desc d).
Proof.
  apply ag_bind; [apply ag_commit|intros a]. agin. agat. apply ag_bind; [apply ag_res, ragr_desc|intros b].
  apply ag_lift, ag_write_all, ag_t_write.
Qed.
Lemma ag_encode n : agr (s_encode_u64 n) (s_encode_u64 n).
Proof. unfold s_encode_u64. destruct (encode_u64 n); [|ag1]. apply ag_lift, ag_write_all, ag_t_write. Qed.
Lemma ag_write_u64 t n : agr (write_u64 t n) (write_u64 t n).
Proof. apply ag_bind; [apply ag_desc|intros a]. apply ag_encode. Qed.
Lemma ag_write_enum t n : agr (write_enum t n) (write_enum t n).
Proof. apply ag_bind; [apply ag_desc|intros a]. apply ag_encode. Qed.
Lemma ag_set_end len :
  agr (fun s => match u64_add (E := serr) (s_dbg s) (s_pos s) len with ROk e => (ROk tt, set_blob_end e s) | _ => (@RPanic serr unit, s) end)
      (fun s => match u64_add (E := serr) (s_dbg s) (s_pos s) len with ROk e => (ROk tt, set_blob_end e s) | _ => (RPanic, s) end).
Proof.
  agin. destruct (ragr_add (E := serr) (s_pos s) len) as [E1|E1]; rewrite E1; [intros [= <- <-]; now left|].
  destruct (u64_add true _ _); intros [= <- <-]; auto.
Qed.
Lemma ag_alloc d len : agr (write_desc_with_blob_alloc d len) (write_desc_with_blob_alloc d len).
Proof.
  apply ag_bind; [apply ag_commit|intros a]. apply ag_if; [ag1|]. apply ag_bind; [apply ag_lift, ag_check|intros a1].
  apply ag_bind; [apply ag_desc|intros a2]. apply ag_bind; [apply ag_encode|intros a3].
  apply ag_bind; [apply ag_set_end|intros a4]. apply ag_bind; [agmod|intros a5]. ag1.
Qed.
Lemma ag_blob_data t bs : agr (write_blob_data t bs) (write_blob_data t bs).
Proof. apply ag_bind; [apply ag_alloc|intros a]. apply ag_bind; [apply ag_lift, ag_b_write_all|intros a1]. ag1. Qed.
Lemma ag_exc_data bs : agr (write_exception_data bs) (write_exception_data bs).
Proof. apply ag_bind; [apply ag_alloc|intros a]. apply ag_bind; [apply ag_lift, ag_b_write_all|intros a1]. ag1. Qed.
Lemma ag_dynamic d : agr (write_desc_with_blob_dynamic d) (write_desc_with_blob_dynamic d).
Proof.
  apply ag_bind; [apply ag_desc|intros a]. agin. agat. apply ag_bind; [apply ag_res, ragr_sub|intros a1].
  apply ag_bind; [apply ag_res, ragr_sub|intros a2]. apply ag_bind; [apply ag_lift, ag_write_all, ag_t_write|intros a3].
  apply ag_bind; [agmod|intros a4]. apply ag_bind; [apply ag_set_end|intros a5]. apply ag_bind; [agmod|intros a6]. ag1.
Qed.
Lemma ag_pad a : agr (pad_to_align a) (pad_to_align a).
Proof.
  unfold pad_to_align. agin. cbn [andb]. agat. apply ag_bind; [apply ag_res, ragr_sub|intros m].
  apply ag_bind; [destruct (N.land a m =? 0); cbn [negb]; ag1|intros a1]. apply ag_bind; [apply ag_commit|intros a2].
  apply ag_mloop. intros _. apply ag_get. intros s1 H1. cbn [release s_pos]. apply ag_if; [ag1|].
  apply ag_bind; [apply ag_desc|intros a3]. ag1.
Qed.

Lemma ag_bop len o : agr (bop_run len o) (bop_run len o).
Proof.
  destruct o; cbn [bop_run].
  - apply ag_bind; [apply ag_lift, ag_b_read|intros a]. ag1.
  - apply ag_bind; [apply ag_lift, ag_b_read_exact|intros a]. ag1.
  - apply ag_bind; [apply ag_read_fully|intros a]. ag1.
  - apply ag_bind; [apply ag_read_trunc|intros a]. ag1.
  - apply ag_bind; [apply ag_lift, ag_fill|intros a]. apply ag_bind; [apply ag_lift, ag_consume|intros a1]. ag1.
  - apply ag_bind; [apply ag_b_slice|intros a]. ag1.
  - apply ag_bind; [apply ag_lift, ag_b_write|intros a]. ag1.
  - apply ag_bind; [apply ag_lift, ag_b_write_all|intros a]. ag1.
  - apply ag_bind; [apply ag_slice_mut|intros a]. ag1.
  - apply ag_bind; [apply ag_lift, ag_b_seek|intros a]. ag1.
  - apply ag_bind; [apply ag_remaining|intros a]. apply ag_bind; [apply ag_start_pos|intros b].
    apply ag_bind; [apply ag_inner_pos|intros c]. apply ag_get. intros s Hs. ag1.
Qed.
Ltac agu := unfold ret_unit; apply ag_bind; [|intros u0; ag1].
Lemma ag_call op c : agr (call_run op c) (call_run op c).
Proof.
  destruct c; cbn [call_run];
    try (agu; first [apply ag_skip_up | apply ag_commit | apply ag_reset | apply ag_write_u64 | apply ag_write_enum | apply ag_desc | apply ag_pad | agmod]; fail).
  - apply ag_bind; [apply ag_impl|intros e]. ag1.
  - apply ag_bind; [apply ag_next_field|intros e]. ag1.
  - destruct op; try ag1. agu. apply ag_field_skip.
  - apply ag_bind; [apply ag_st_seek|intros e]. ag1.
  - apply ag_bind; [apply ag_blob_data|intros e]. ag1.
  - apply ag_bind; [apply ag_alloc|intros e]. ag1.
  - apply ag_bind; [apply ag_dynamic|intros e]. ag1.
  - apply ag_bind; [apply ag_exc_data|intros e]. ag1.
  - apply ag_bind; [apply ag_alloc|intros e]. ag1.
  - apply ag_bind; [apply ag_dynamic|intros e]. ag1.
  - destruct op; try ag1. apply ag_bind; [apply ag_bop|intros v]. ag1.
Qed.

(** ** Histories *)
Theorem histories_agree cs : forall op s xs op' s', s_dbg s = true ->
  run_calls cs op s = (xs, (op', s')) -> no_panic xs ->
  s_dbg s' = true /\ run_calls cs op (release s) = (xs, (op', release s')).
Proof.
  induction cs as [|c r IH]; intros op s xs op' s' Hs H Hn; cbn [run_calls] in *; [injection H as <- <- <-; auto|].
  destruct (call_run op c s) as [x s1] eqn:E1. destruct (run_calls r (opens op c x) s1) as [ys [o2 s2]] eqn:E2.
  injection H as <- <- <-. inversion Hn as [|? ? Hx Hn']; subst.
  destruct (ag_call _ _ _ _ _ Hs E1) as [->|[H1 H2]]; [congruence|]. rewrite H2.
  destruct (IH _ _ _ _ _ H1 E2 Hn') as [H3 H4]. rewrite H4. auto.
Qed.
(** ** Serialisation *)
Lemma ag_exec_op w : agr (exec_op w) (exec_op w).
Proof.
  destruct w; cbn [exec_op]; try first [apply ag_write_u64 | apply ag_desc | apply ag_write_enum | apply ag_panic].
  apply ag_bind; [apply ag_blob_data|intros a]. ag1.
Qed.
Lemma ag_exec ws : agr (exec ws) (exec ws).
Proof. induction ws as [|w r IH]; cbn [exec]; [ag1|]. apply ag_bind; [apply ag_exec_op|intros a]. exact IH. Qed.
Lemma ag_to_stream e t v : agr (to_stream e t v) (to_stream e t v).
Proof. apply ag_bind; [apply ag_exec|intros a]. apply ag_commit. Qed.
Theorem to_stream_agrees e t v s r s' : s_dbg s = true -> to_stream e t v s = (r, s') -> r <> RPanic ->
  s_dbg s' = true /\ to_stream e t v (release s) = (r, release s').
Proof. intros Hs H Hr. destruct (ag_to_stream e t v s r s' Hs H) as [Hx|Hx]; [congruence|exact Hx]. Qed.
Theorem to_writer_agrees e d t v : to_writer e true d t v <> RPanic -> to_writer e false d t v = to_writer e true d t v.
Proof.
  unfold to_writer. intros Hn. destruct (to_stream e t v (new_stream true false d)) as [r s'] eqn:E1.
  change (new_stream false false d) with (release (new_stream true false d)).
  destruct (ag_to_stream e t v (new_stream true false d) _ _ eq_refl E1) as [->|[H1 H2]]; [congruence|]. rewrite H2. now destruct r.
Qed.
Theorem to_vec_agrees e t v : to_vec e true t v <> RPanic -> to_vec e false t v = to_vec e true t v.
Proof.
  unfold to_vec. intros Hn. rewrite to_writer_agrees; [reflexivity|]. intros E1. rewrite E1 in Hn. congruence.
Qed.

(** ** Copying *)
Definition agr2 {E A} (m : M (stream * stream) E A) : Prop :=
  forall a b r a' b', s_dbg a = true -> s_dbg b = true -> m (a, b) = (r, (a', b')) ->
    r = RPanic \/ (s_dbg a' = true /\ s_dbg b' = true /\ m (release a, release b) = (r, (release a', release b'))).
Lemma ag2_src {E A} (m : M stream E A) : agr m m -> agr2 (on_src m).
Proof.
  intros Hm a b r a' b' Ha Hb H. unfold on_src in *. destruct (m a) as [r1 a1] eqn:E1.
  injection H as <- <- <-. destruct (Hm _ _ _ Ha E1) as [->|[H1 H2]]; [now left|right]. rewrite H2. auto.
Qed.
Lemma ag2_dst {E A} (m : M stream E A) : agr m m -> agr2 (on_dst m).
Proof.
  intros Hm a b r a' b' Ha Hb H. unfold on_dst in *. destruct (m b) as [r1 a1] eqn:E1.
  injection H as <- <- <-. destruct (Hm _ _ _ Hb E1) as [->|[H1 H2]]; [now left|right]. rewrite H2. auto.
Qed.
Lemma ag2_bind {E A B} (m : M (stream * stream) E A) (k : A -> M (stream * stream) E B) :
  agr2 m -> (forall a, agr2 (k a)) -> agr2 (mbind m k).
Proof.
  intros Hm Hk a b r a' b' Ha Hb H. unfold mbind in *. destruct (m (a, b)) as [r1 [a1 b1]] eqn:E1.
  destruct (Hm _ _ _ _ _ Ha Hb E1) as [->|(H1 & H2 & H3)]; [injection H as <- <- <-; now left|].
  rewrite H3. destruct r1; try (injection H as <- <- <-; auto; fail). exact (Hk _ _ _ _ _ _ H1 H2 H).
Qed.
Lemma ag2_loop f : agr2 (copy_loop f).
Proof.
  induction f as [|f IH]; intros a b r a' b' Ha Hb H; cbn [copy_loop] in *; [injection H as <- <- <-; auto|].
  destruct (on_src (b_read U64_MAX) (a, b)) as [r1 [a1 b1]] eqn:E1.
  destruct (ag2_src _ (ag_b_read U64_MAX) _ _ _ _ _ Ha Hb E1) as [->|(H1 & H2 & H3)]; [injection H as <- <- <-; now left|].
  rewrite H3. destruct r1 as [[|x l]|[]| |]; try (injection H as <- <- <-; auto; fail).
  - refine (ag2_bind (on_dst (b_write_all (x :: l))) _ (ag2_dst _ (ag_b_write_all _)) (fun _ => IH) _ _ _ _ _ H1 H2 H).
  - exact (IH _ _ _ _ _ H1 H2 H).
Qed.
Lemma ag2_copy : agr2 copy_blob.
Proof.
  intros a b r a' b' Ha Hb H. unfold copy_blob in *. cbn [fst] in *. change (sch (release a)) with (sch a).
  destruct (copy_loop _ (a, b)) as [r1 [a1 b1]] eqn:E1.
  destruct (ag2_loop _ _ _ _ _ _ Ha Hb E1) as [->|(H1 & H2 & H3)]; [injection H as <- <- <-; now left|].
  rewrite H3. destruct r1; injection H as <- <- <-; auto.
Qed.
Lemma ag2_element el : agr2 (write_element el).
Proof.
  destruct el as [f| | |len|]; cbn [write_element]; try (apply ag2_dst, ag_desc).
  - unfold write_field. destruct (f_val f); try (apply ag2_dst; first [apply ag_write_u64 | apply ag_desc | apply ag_write_enum]; fail).
    apply ag2_bind; [apply ag2_dst, ag_alloc|intros x]. apply ag2_copy.
  - apply ag2_bind; [apply ag2_dst, ag_alloc|intros x]. apply ag2_copy.
Qed.
Theorem copies_agree el a b r a' b' : s_dbg a = true -> s_dbg b = true -> write_element el (a, b) = (r, (a', b')) ->
  r <> RPanic -> s_dbg a' = true /\ s_dbg b' = true /\ write_element el (release a, release b) = (r, (release a', release b')).
Proof. intros Ha Hb H Hr. destruct (ag2_element el a b r a' b' Ha Hb H) as [Hx|Hx]; [congruence|exact Hx]. Qed.

(** ** Deserialisation *)
Definition xrel (st : rst stream) : rst stream := x_set_s (release (x_s st)) st.
Definition xagr {A} (m : XM stream A) : Prop :=
  forall st r st', s_dbg (x_s st) = true -> m st = (r, st') ->
    r = RPanic \/ (s_dbg (x_s st') = true /\ m (xrel st) = (r, xrel st')).
Lemma xag_src {A} (m : SM A) : agr m m -> xagr (on_src_of m).
Proof.
  intros Hm st r st' Hs H. unfold on_src_of in *. change (x_s (xrel st)) with (release (x_s st)).
  destruct (m (x_s st)) as [r1 s1] eqn:E1. destruct (Hm _ _ _ Hs E1) as [->|[H1 H2]]; [injection H as <- <-; now left|].
  rewrite H2. cbv zeta in *. destruct r1; unfold xfail in *; injection H as <- <-; auto.
Qed.
Lemma xag_blob {A} (m : SM A) : agr m m -> xagr (on_blob m).
Proof.
  intros Hm st r st' Hs H. unfold on_blob in *. change (x_cur (xrel st)) with (x_cur st).
  destruct (x_cur st) as [[tg ps dp []]|]; try (injection H as <- <-; now left). exact (xag_src m Hm _ _ _ Hs H).
Qed.
Lemma xag_bind {A B} (m : XM stream A) (k : A -> XM stream B) :
  xagr m -> (forall a, xagr (k a)) -> xagr (mbind m k).
Proof.
  intros Hm Hk s r s' Hs H. unfold mbind in H |- *. destruct (m s) as [r1 s1] eqn:E1.
  destruct (Hm _ _ _ Hs E1) as [->|[H1 H2]]; [injection H as <- <-; now left|].
  rewrite H2. destruct r1 as [x|e| |]; try (injection H as <- <-; now right).
  exact (Hk x _ _ _ H1 H).
Qed.
Lemma xag_fail {A} k : xagr (A := A) (xfail k).
Proof. intros s r s' Hs H. unfold xfail in *. injection H as <- <-. right. auto. Qed.
Lemma ragr_collect a b n : ragr (ctx_collect true a b n) (ctx_collect false a b n).
Proof.
  unfold ctx_collect. destruct (ragr_sub (E := ekind) a b) as [E1|E1]; rewrite E1; [now left|].
  destruct (u64_sub true a b); try now left. destruct (_ <? _); [now right|apply ragr_add].
Qed.
Lemma ragr_blob a b n : ragr (ctx_blob true a b n) (ctx_blob false a b n).
Proof.
  unfold ctx_blob. destruct (ragr_sub (E := ekind) a b) as [E1|E1]; rewrite E1; [now left|].
  destruct (u64_sub true a b); try now left. destruct (_ <? _); [now right|apply ragr_add].
Qed.
Lemma xag_op cf {X : Set} (o : op X) : xagr (run_op stream_source cf o).
Proof.
  destruct o; cbn [run_op stream_source i_next i_skip i_pos i_dbg i_remaining i_read_fully i_read_exact i_ext].
  - apply xag_bind; [apply xag_src, ag_next_field|intros f]. apply xag_bind.
    + intros s r s' Hs H. injection H as <- <-. right. auto.
    + intros _ s r s' Hs H. injection H as <- <-. right. auto.
  - intros s r s' Hs H. change (x_cur (xrel s)) with (x_cur s). destruct (x_cur s); [|injection H as <- <-; now left].
    exact (xag_src _ (ag_field_skip _) _ _ _ Hs H).
  - intros s r s' Hs H. change (x_cur (xrel s)) with (x_cur s). destruct (cf_ignore cf); [injection H as <- <-; auto|].
    destruct (x_cur s); [|injection H as <- <-; now left]. exact (xag_fail _ _ _ _ Hs H).
  - intros s r s' Hs H. change (x_cur (xrel s)) with (x_cur s). change (x_path (xrel s)) with (x_path s).
    destruct (_ <=? _); [exact (xag_fail _ _ _ _ Hs H)|].
    destruct at_field; [|injection H as <- <-; auto]. destruct (x_cur s); injection H as <- <-; auto.
  - intros s r s' Hs H. injection H as <- <-. right. auto.
  - intros s r s' Hs H. change (x_coll (xrel s)) with (x_coll s). change (s_dbg (x_s (xrel s))) with false. rewrite Hs in H.
    destruct (ragr_collect (cf_collect cf) (x_coll s) 1) as [E1|E1]; [rewrite E1 in H; injection H as <- <-; now left|].
    rewrite E1. destruct (ctx_collect true _ _ _); injection H as <- <-; auto.
  - intros s r s' Hs H. change (x_blob (xrel s)) with (x_blob s). change (s_dbg (x_s (xrel s))) with false. rewrite Hs in H.
    destruct (ragr_blob (cf_blob cf) (x_blob s) n) as [E1|E1]; [rewrite E1 in H; injection H as <- <-; now left|].
    rewrite E1. destruct (ctx_blob true _ _ _); injection H as <- <-; auto.
  - intros s r s' Hs H. injection H as <- <-. right. auto.
  - apply xag_blob, ag_remaining.
  - apply xag_blob, ag_read_fully.
  - apply xag_blob, ag_lift, ag_b_read_exact.
  - apply xag_blob, ag_ext.
Qed.
Lemma xag_run cf {A} (p : prog A) : xagr (run stream_source cf p).
Proof.
  induction p as [a|x|X o k IH]; cbn [run].
  - intros s r s' Hs H. injection H as <- <-. right. auto.
  - destruct x; [apply xag_fail| |]; intros s r s' Hs H; injection H as <- <-; auto.
  - apply xag_bind; [apply xag_op|exact IH].
Qed.
Theorem from_stream_agrees e zc cf t s r s' : s_dbg s = true -> from_stream e zc cf t s = (r, s') -> r <> RPanic ->
  s_dbg s' = true /\ from_stream e zc cf t (release s) = (r, release s').
Proof.
  intros Hs H Hr. unfold from_stream in *.
  destruct (run stream_source cf _ (top_rst s)) as [r1 st1] eqn:E1. injection H as <- <-.
  destruct (xag_run _ _ _ _ _ (Hs : s_dbg (x_s (top_rst s)) = true) E1) as [Hx|[H1 H2]]; [congruence|].
  change (top_rst (release s)) with (xrel (top_rst s)). rewrite H2. auto.
Qed.

Section Total.
  Variables (e : env) (zc : bool) (cf : cfg) (bs : bytes).
  Hypothesis He : env_ok e.
  Hypothesis Hc : cf_collect cf <= U64_MAX.
  Hypothesis Hb : cf_blob cf <= U64_MAX.
  Hypothesis Ho : bytes_ok bs.
  Hypothesis Hl : lenN bs + 3 < U64_MAX.
  Lemma slice_agrees zc' t : deserialisable e zc' t ->
    fst (from_stream e zc' cf t (from_slice false bs)) = fst (from_stream e zc' cf t (from_slice true bs)).
  Proof.
    intros Ht. pose proof (slice_total e zc' true cf t bs He Ht Hc Hb Ho Hl) as H.
    destruct (from_stream e zc' cf t (from_slice true bs)) as [r s'] eqn:E1. cbn [fst] in *.
    destruct (from_stream_agrees e zc' cf t (from_slice true bs) r s' eq_refl E1) as [_ H2]; [intros ->; exact H|].
    change (release (from_slice true bs)) with (from_slice false bs) in H2. now rewrite H2.
  Qed.
  Theorem slice_copy_agrees t : deserialisable e false t -> from_slice_copy e false cf t bs = from_slice_copy e true cf t bs.
  Proof. exact (slice_agrees false t). Qed.
  Theorem slice_borrow_agrees t : deserialisable e true t -> from_slice_borrow e false cf t bs = from_slice_borrow e true cf t bs.
  Proof. exact (slice_agrees true t). Qed.
  Theorem reader_agrees t sched : deserialisable e false t ->
    from_reader e false cf t (mkDev bs 0 sched) = from_reader e true cf t (mkDev bs 0 sched).
  Proof.
    intros Ht. pose proof (reader_total e true cf t bs sched He Ht Hc Hb Ho Hl) as H. unfold from_reader in *.
    destruct (from_stream e false cf t (new_stream true false (mkDev bs 0 sched))) as [r s'] eqn:E1. cbn [fst] in *.
    destruct (from_stream_agrees e false cf t (new_stream true false (mkDev bs 0 sched)) r s' eq_refl E1) as [_ H2]; [intros ->; exact H|].
    change (release (new_stream true false (mkDev bs 0 sched))) with (new_stream false false (mkDev bs 0 sched)) in H2. now rewrite H2.
  Qed.
End Total.
Theorem to_vec_same e t v : env_wf e -> has_type e v t -> shape_wf t -> size_of e t v <= U64_MAX ->
  to_vec e false t v = to_vec e true t v.
Proof.
  intros He Ht Hsh Hs. apply to_vec_agrees. rewrite (to_vec_ok e He t v true (conj Ht Hsh) Hs). discriminate.
Qed.
