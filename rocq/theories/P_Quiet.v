(** * P_Quiet: handling the end of the input gracefully changes nothing before it *)

From Verif Require Import Base Wire Dev Stream Types Prog Ser De SpecWire SpecFormat SpecStream SpecBlob SpecHist SpecDe SpecDoc SpecSerDe
  P_Base P_Sched P_Read P_Pos P_DeProps P_SerDe.

Strategy 1000 [decode_u64 decode_loop encode_u64 enc_loop encode_fixed_u64 mloop miter].

Notation grace := (set_graceful_ true).
(** [m1] without it against [m2] with it, until the end of the input is run into. *)
Class ended (E : Type) := is_end : E -> Prop.
#[local] Instance io_end : ended iokind := fun e => e = IoUnexpectedEof.
#[local] Instance s_end : ended serr := fun e => e = SIo IoUnexpectedEof.
Definition esc {E A} {X : ended E} (r : res E A) : Prop := match r with RErr e => is_end e | _ => False end.
Definition agr {E A} {X : ended E} (m1 m2 : M stream E A) : Prop :=
  forall s r s', s_graceful s = false -> m1 s = (r, s') ->
    esc r \/ (s_graceful s' = false /\ m2 (grace s) = (r, grace s')).

Lemma ag_ret {E A} {XE : ended E} (x : A) : agr (E := E) (mret x) (mret x).
Proof. intros s r s' Hs H; injection H as <- <-; auto. Qed.
Lemma ag_fail {E A} {XE : ended E} (e : E) : agr (A := A) (mfail e) (mfail e).
Proof. intros s r s' Hs H; injection H as <- <-; auto. Qed.
Lemma ag_panic {E A} {XE : ended E} : agr (A := A) mpanic mpanic.
Proof. intros s r s' Hs H; injection H as <- <-; auto. Qed.
Lemma ag_res {E A} {XE : ended E} (x : res E A) : agr (mres x) (mres x).
Proof. intros s r s' Hs H; injection H as <- <-; auto. Qed.
Lemma ag_fuel {E A} {XE : ended E} : agr (fun s : stream => (@RFuel E A, s)) (fun s => (RFuel, s)).
Proof. intros s r s' Hs H; injection H as <- <-; auto. Qed.
Lemma ag_mod {E} {XE : ended E} (f g : stream -> stream) :
  (forall s, s_graceful s = false -> s_graceful (f s) = false /\ g (grace s) = grace (f s)) -> agr (E := E) (mmod f) (mmod g).
Proof. intros Hf s r s' Hs H; injection H as <- <-. right. destruct (Hf s Hs) as [H1 H2]. split; auto. unfold mmod. now rewrite H2. Qed.
Lemma ag_bind {E A B} {XE : ended E} (m m' : M stream E A) (k k' : A -> M stream E B) :
  agr m m' -> (forall a, agr (k a) (k' a)) -> agr (mbind m k) (mbind m' k').
Proof.
  intros Hm Hk s r s' Hs H. unfold mbind in H |- *. destruct (m s) as [r1 s1] eqn:E1.
  destruct (Hm _ _ _ Hs E1) as [Hx|[H1 H2]]; [destruct r1; try contradiction Hx; injection H as <- <-; left; exact Hx|].
  rewrite H2. destruct r1 as [x|e| |]; try (injection H as <- <-; now right).
  exact (Hk x _ _ _ H1 H).
Qed.
Lemma ag_get {E A} {XE : ended E} (k k' : stream -> M stream E A) :
  (forall s, s_graceful s = false -> agr (k s) (k' (grace s))) -> agr (mbind mget k) (mbind mget k').
Proof. intros Hk s r s' Hs H. unfold mbind, mget in H |- *. exact (Hk s Hs s r s' Hs H). Qed.
Lemma ag_fun {E A} {XE : ended E} (f g : stream -> M stream E A) :
  (forall s, s_graceful s = false -> agr (f s) (g (grace s))) -> agr (fun s => f s s) (fun s => g s s).
Proof. intros Hk s r s' Hs H. exact (Hk s Hs s r s' Hs H). Qed.
Lemma ag_pure {E A} {XE : ended E} (f g : stream -> res E A) :
  (forall s, s_graceful s = false -> f s = g (grace s)) -> agr (fun s => (f s, s)) (fun s => (g s, s)).
Proof. intros Hk s r s' Hs H. injection H as <- <-. rewrite (Hk s Hs). auto. Qed.
Lemma ag_if {E A} {XE : ended E} (b : bool) (m1 m2 n1 n2 : M stream E A) :
  agr m1 n1 -> agr m2 n2 -> agr (if b then m1 else m2) (if b then n1 else n2).
Proof. destruct b; auto. Qed.
Lemma ag_lift {A} (m n : IM A) : agr m n -> agr (lift_io m) (lift_io n).
Proof.
  intros Hm s r s' Hs H. unfold lift_io in H |- *. destruct (m s) as [r1 s1] eqn:E1.
  destruct (Hm _ _ _ Hs E1) as [Hx|[H1 H2]]; [destruct r1; try contradiction Hx; injection H as <- <-; left; exact (f_equal SIo Hx)|].
  rewrite H2. destruct r1; injection H as <- <-; auto.
Qed.
Lemma ag_miter {E A B} {XE : ended E} (f g : A -> M stream E (A + B)) p :
  (forall a, agr (f a) (g a)) -> forall a, agr (miter p f a) (miter p g a).
Proof.
  intros Hs. induction p as [q IH|q IH|]; intros a; cbn [miter].
  - apply ag_bind; [apply Hs|]. intros [a'|b]; [|apply ag_ret].
    apply ag_bind; [apply IH|]. intros [a''|b]; [apply IH|apply ag_ret].
  - apply ag_bind; [apply IH|]. intros [a'|b]; [apply IH|apply ag_ret].
  - apply Hs.
Qed.
Lemma ag_mloop {E A B} {XE : ended E} (f g : A -> M stream E (A + B)) :
  (forall a, agr (f a) (g a)) -> forall a, agr (mloop f a) (mloop g a).
Proof.
  intros Hs a. apply ag_bind; [now apply ag_miter|]. intros [a'|b]; [apply ag_fuel|apply ag_ret].
Qed.
Lemma ag_check n : agr (check_advance_pos n) (check_advance_pos n).
Proof. intros s r s' Hs H. unfold check_advance_pos in *. scbn. cbn [s_pos grace]. destruct (_ <? _); injection H as <- <-; auto. Qed.
Lemma ag_dev {A} (m : M dev iokind A) : agr (on_dev m) (on_dev m).
Proof.
  intros s r s' Hs H. unfold on_dev in *. change (s_dev (grace s)) with (s_dev s). destruct (m (s_dev s)) as [r1 d].
  injection H as <- <-. right. split; [exact Hs|reflexivity].
Qed.

Lemma ag_read_exact rd rd' n : (forall n, agr (rd n) (rd' n)) -> agr (read_exact sch rd n) (read_exact sch rd' n).
Proof.
  intros Hr s r s' Hs H. unfold read_exact in *. change (sch (grace s)) with (sch s). revert H. generalize (2 + List.length (sch s))%nat as fuel.
  generalize (@nil N) as acc. intros acc fuel. revert acc n s Hs.
  induction fuel as [|f IH]; intros acc n s Hs H; cbn [read_exact_loop] in *; [injection H as <- <-; auto|].
  destruct (n =? 0); [injection H as <- <-; auto|].
  destruct (rd n s) as [r1 s1] eqn:E1. destruct (Hr n _ _ _ Hs E1) as [Hx|[H1 H2]]; [destruct r1 as [|[]| |]; try contradiction Hx; try discriminate Hx; injection H as <- <-; left; exact Hx|].
  rewrite H2. destruct r1 as [[|x l]|[]| |]; try (injection H as <- <-; now right); eapply IH; eauto.
Qed.
Lemma ag_read_upto rd rd' n : (forall n, agr (rd n) (rd' n)) -> agr (read_upto sch rd n) (read_upto sch rd' n).
Proof.
  intros Hr s r s' Hs H. unfold read_upto in *. change (sch (grace s)) with (sch s). revert H. generalize (2 + List.length (sch s))%nat as fuel.
  generalize (@nil N) as acc. intros acc fuel. revert acc n s Hs.
  induction fuel as [|f IH]; intros acc n s Hs H; cbn [read_upto_loop] in *; [injection H as <- <-; auto|].
  destruct (n =? 0); [injection H as <- <-; auto|].
  destruct (rd n s) as [r1 s1] eqn:E1. destruct (Hr n _ _ _ Hs E1) as [Hx|[H1 H2]]; [destruct r1 as [|[]| |]; try contradiction Hx; try discriminate Hx; injection H as <- <-; left; exact Hx|].
  rewrite H2. destruct r1 as [[|x l]|[]| |]; try (injection H as <- <-; now right); eapply IH; eauto.
Qed.
Lemma ag_write_all w w' bs : (forall bs, agr (w bs) (w' bs)) -> agr (write_all sch w bs) (write_all sch w' bs).
Proof.
  intros Hr s r s' Hs H. unfold write_all in *. change (sch (grace s)) with (sch s). revert H. generalize (2 + List.length (sch s))%nat as fuel.
  intros fuel. revert bs s Hs.
  induction fuel as [|f IH]; intros bs s Hs H; cbn [write_all_loop] in *; [injection H as <- <-; auto|].
  destruct bs as [|x l]; [injection H as <- <-; auto|].
  destruct (w (x :: l) s) as [r1 s1] eqn:E1. destruct (Hr _ _ _ _ Hs E1) as [Hx|[H1 H2]]; [destruct r1 as [|[]| |]; try contradiction Hx; try discriminate Hx; injection H as <- <-; left; exact Hx|].
  rewrite H2. destruct r1 as [n|[]| |]; try (injection H as <- <-; now right); [|eapply IH; eauto].
  destruct (n =? 0); [injection H as <- <-; now right|]. eapply IH; eauto.
Qed.
Lemma ag_decode rb rb' : agr rb rb' -> agr (decode_u64 rb) (decode_u64 rb').
Proof.
  intros Hb. unfold decode_u64. generalize 258%nat as fuel; intros fuel.
  generalize 0 at 1 3 as acc. generalize 0 as sh. revert fuel.
  induction fuel as [|fuel IH]; intros sh acc; cbn [decode_loop]; [apply ag_fuel|].
  apply ag_bind; [exact Hb|]. intros b. apply ag_if; [apply ag_fail|].
  cbv zeta. apply ag_if; [apply ag_ret|]. apply ag_if; [apply ag_fail|apply IH].
Qed.

Ltac agat := match goal with
  | Hs : s_graceful ?s = false |- ?m ?s = _ -> _ \/ (_ /\ ?m' (grace ?s) = _) =>
      let X := fresh in enough (X : agr m m') by (let H := fresh in intros H; exact (X _ _ _ Hs H))
  end.
Ltac agin := intros s r s' Hs; cbn beta; cbn [set_graceful_ s_pos s_blob_end s_dyn_start s_depth s_dbg s_commit s_eof]; cbn beta.

(** ** Every operation of a stream *)
Ltac agmod := apply ag_mod; let s0 := fresh in let H0 := fresh in intros s0 H0; split; [exact H0|reflexivity].
Ltac ag1 := first [apply ag_ret | apply ag_fail | apply ag_panic | apply ag_fuel | apply ag_check | apply ag_dev | agmod].

Lemma ag_t_read g n : agr (t_read g n) (t_read g n).
Proof.
  unfold t_read. apply ag_if; [ag1|]. apply ag_bind; [ag1|intros u1]. apply ag_bind; [ag1|intros bs].
  apply ag_bind; [agmod|intros u2]. destruct bs; [apply ag_if|]; ag1.
Qed.
Lemma ag_t_write bs : agr (t_write bs) (t_write bs).
Proof.
  unfold t_write. destruct bs; [ag1|]. apply ag_bind; [ag1|intros u1]. apply ag_bind; [ag1|intros n'].
  apply ag_bind; [agmod|intros u2]. ag1.
Qed.
Lemma ag_read_byte : agr (s_read_byte false) (s_read_byte false).
Proof.
  apply ag_lift. apply ag_bind; [apply ag_read_exact; intros; apply ag_t_read|]. intros [|b l]; ag1.
Qed.
(** The one place where it matters. *)
Lemma ag_byte : agr (s_read_byte false) (s_read_byte true).
Proof.
  apply ag_lift. apply ag_bind.
  - intros s r s' Hs H. unfold read_exact in *. change (sch (grace s)) with (sch s). revert H. generalize (2 + List.length (sch s))%nat as fuel.
    generalize (@nil N) as acc. generalize 1 as n. intros n acc fuel. revert acc n s Hs.
    induction fuel as [|f IH]; intros acc n s Hs H; cbn [read_exact_loop] in *; [injection H as <- <-; auto|].
    destruct (n =? 0); [injection H as <- <-; auto|].
    destruct (t_read false n s) as [r1 s1] eqn:E1. destruct (ag_t_read false n _ _ _ Hs E1) as [Hx|[H1 H2]].
    { destruct r1 as [|[]| |]; try contradiction Hx; try discriminate Hx; injection H as <- <-; left; exact Hx. }
    assert (Hd : (r1 = ROk [] /\ n <> 0) \/ t_read true n (grace s) = (r1, grace s1)).
    { destruct (N.eqb_spec n 0) as [->|Hn]; [right; exact H2|].
      unfold t_read in E1, H2 |- *. rewrite (proj2 (N.eqb_neq _ _) Hn) in *.
      destruct (check_advance_pos n (grace s)) as [[u|x| |] s2] eqn:Ec; unfold mbind in H2 |- *; rewrite Ec in H2 |- *; try (right; exact H2).
      destruct (on_dev (dev_read n) s2) as [[bs|x| |] s3] eqn:Ed; try (right; exact H2).
      cbn [mmod] in *. destruct bs; [left|right; exact H2]. split; [|exact Hn]. symmetry. exact (f_equal fst H2). }
    destruct Hd as [[-> _]|Hd]; [injection H as <- <-; left; reflexivity|]. rewrite Hd.
    destruct r1 as [[|x l]|[]| |]; try (injection H as <- <-; now right); eapply IH; eauto.
  - intros [|b l]; ag1.
Qed.
Lemma ag_sdecode : agr s_decode_u64 s_decode_u64.
Proof. apply ag_decode, ag_read_byte. Qed.
Lemma ag_discard n : agr (skip_by_discard n) (skip_by_discard n).
Proof. apply ag_lift. apply ag_bind; [apply ag_read_upto; intros; apply ag_t_read|]. intros; ag1. Qed.
Lemma ag_seek_direct n : agr (skip_by_seek_direct n) (skip_by_seek_direct n).
Proof.
  apply ag_bind; [apply ag_lift, ag_check|]. intros _ s r s' Hs H.
  destruct (on_dev (dev_seek (SkCur (Z.of_N n))) s) as [r1 s1] eqn:E1.
  assert (H2 : on_dev (dev_seek (SkCur (Z.of_N n))) (grace s) = (r1, grace s1) /\ s_graceful s1 = false).
  { unfold on_dev in *. change (s_dev (grace s)) with (s_dev s). destruct (dev_seek _ (s_dev s)) as [r0 d]. injection E1 as <- <-. auto. }
  destruct H2 as [H2 H1]. rewrite H2. destruct r1; try (injection H as <- <-; now right); now apply ag_discard.
Qed.
Lemma ag_seek_rec f : forall n, agr (skip_by_seek_rec f n) (skip_by_seek_rec f n).
Proof.
  induction f as [|f IH]; intros n; cbn [skip_by_seek_rec]; [ag1|]. apply ag_if; [|apply ag_seek_direct].
  apply ag_bind; [apply IH|intros a]. apply ag_if; [ag1|]. apply ag_bind; [apply IH|intros b]. ag1.
Qed.
Lemma ag_skip_blob : agr skip_blob skip_blob.
Proof.
  intros s r s' Hs H. unfold skip_blob in *. cbn [set_graceful_ s_pos s_blob_end s_seek].
  destruct (s_pos s <? s_blob_end s); [|injection H as <- <-; now right].
  cbv zeta in *. revert H. generalize (s_blob_end s - s_pos s) as n. intros n H.
  revert H. agat. apply ag_bind.
  - apply ag_if; [apply ag_seek_rec|apply ag_discard].
  - intros a. apply ag_if; ag1.
Qed.
Lemma ag_check_end : agr check_at_end_of_blob check_at_end_of_blob.
Proof.
  intros s r s' Hs H. unfold check_at_end_of_blob in *. cbn [set_graceful_ s_pos s_blob_end s_dbg].
  destruct (_ =? _); [injection H as <- <-; now right|].
  destruct (u64_sub _ _ _); injection H as <- <-; auto.
Qed.

Lemma ag_finish : agr finish_dynamic_blob finish_dynamic_blob.
Proof.
  unfold finish_dynamic_blob. agin. destruct (_ <? _); [intros [= <- <-]; now right|]. agat.
  apply ag_bind; [apply ag_res|intros a1]. apply ag_bind; [apply ag_res|intros a2].
  apply ag_if; [ag1|]. apply ag_bind; [apply ag_lift, ag_dev|intros a3]. apply ag_bind; [agmod|intros a4].
  apply ag_bind; [apply ag_lift, ag_write_all, ag_t_write|intros a5].
  apply ag_bind; [apply ag_lift, ag_dev|intros a6]. agmod.
Qed.
Lemma ag_commit : agr commit commit.
Proof.
  unfold commit. agin. destruct (s_commit s) as [f|]; [|intros [= <- <-]; now right]. agat.
  apply ag_bind; [destruct f; [apply ag_skip_blob|apply ag_check_end|apply ag_finish]|intros a1]. agmod.
Qed.
Lemma ag_reset p : agr (reset_pos p) (reset_pos p).
Proof.
  apply ag_bind; [apply ag_commit|intros a1]. apply ag_bind; [agmod|intros a2]. apply ag_bind; [agmod|intros a3]. agmod.
Qed.
Lemma ag_st_seek w : agr (st_seek w) (st_seek w).
Proof.
  apply ag_bind; [apply ag_commit|intros a1]. apply ag_bind; [apply ag_lift, ag_dev|intros a2].
  apply ag_bind; [apply ag_reset|intros a3]. apply ag_bind; [agmod|intros a4]. ag1.
Qed.
Lemma ag_next_blob : agr next_blob next_blob.
Proof.
  apply ag_bind; [apply ag_sdecode|intros len]. apply ag_bind; [apply ag_lift, ag_check|intros a1].
  apply ag_bind; [agmod|intros a2]. apply ag_bind; [agmod|intros a3]. ag1.
Qed.
Lemma ag_incr : agr incr_depth incr_depth.
Proof.
  unfold incr_depth. agin.
  destruct (u64_add _ (s_depth s) 1); intros [= <- <-]; auto.
Qed.
Lemma ag_next_value t : agr (next_value t) (next_value t).
Proof.
  destruct t; cbn [next_value]; apply ag_bind;
    try first [apply ag_sdecode | apply ag_next_blob | apply ag_incr]; intros n; try ag1.
  apply ag_bind; [apply ag_incr|intros a]. ag1.
Qed.
Lemma ag_step b u : agr (next_element_step b u) (next_element_step b u).
Proof.
  unfold next_element_step. apply ag_get. intros s0 Hs0. cbn [set_graceful_ s_pos s_graceful]. rewrite Hs0.
  apply ag_bind; [apply ag_byte|intros x]. destruct (parse_desc x) as [[ty tag|[]]|].
  - apply ag_bind; [apply ag_mod; intros s1 H1; cbn [set_graceful_ s_depth]; destruct (_ =? _); (split; [exact H1|reflexivity])|intros a1].
    apply ag_get. intros s1 Hs1. cbn [set_graceful_ s_depth]. apply ag_bind; [apply ag_next_value|intros v]. ag1.
  - apply ag_bind; [apply ag_mod; intros s1 H1; cbn [set_graceful_ s_depth]; destruct (_ <? _); (split; [exact H1|reflexivity])|intros a1]. ag1.
  - apply ag_bind; [agmod|intros a1]. apply ag_bind; [agmod|intros a2]. ag1.
  - apply ag_bind; [apply ag_next_blob|intros a1]. ag1.
  - apply ag_if; ag1.
  - ag1.
Qed.
Lemma ag_impl b : agr (next_element_impl b) (next_element_impl b).
Proof.
  unfold next_element_impl. agin. destruct (s_eof s); [intros [= <- <-]; now right|]. agat.
  apply ag_bind; [apply ag_commit|intros a1]. apply ag_mloop, ag_step.
Qed.
Lemma ag_remaining {E} {XE : ended E} : agr (E := E) b_remaining b_remaining.
Proof. apply ag_pure. intros s Hs. reflexivity. Qed.
Lemma ag_start_pos {E} {XE : ended E} len : agr (E := E) (b_start_pos len) (b_start_pos len).
Proof. apply ag_pure. intros s Hs. reflexivity. Qed.
Lemma ag_inner_pos {E} {XE : ended E} len : agr (E := E) (b_inner_pos len) (b_inner_pos len).
Proof.
  apply ag_bind; [apply ag_remaining|intros a]. apply ag_pure. intros s Hs. reflexivity.
Qed.
Lemma ag_b_read n : agr (b_read n) (b_read n).
Proof. apply ag_bind; [apply ag_remaining|intros a]. apply ag_if; [ag1|apply ag_t_read]. Qed.
Lemma ag_b_read_exact n : agr (b_read_exact n) (b_read_exact n).
Proof. apply ag_read_exact, ag_b_read. Qed.
Lemma ag_read_fully n : agr (b_read_fully n) (b_read_fully n).
Proof. apply ag_bind; [apply ag_remaining|intros a]. apply ag_if; [ag1|]. apply ag_lift, ag_read_upto, ag_b_read. Qed.
Lemma ag_read_trunc n : agr (b_read_or_trunc n) (b_read_or_trunc n).
Proof. apply ag_lift, ag_read_upto, ag_b_read. Qed.
Lemma ag_as_slice {E} {XE : ended E} : agr (E := E) as_slice as_slice.
Proof. unfold as_slice. agin. change (s_dev (grace s)) with (s_dev s). destruct (_ <? _); intros [= <- <-]; auto. Qed.
Lemma ag_b_slice : agr b_slice b_slice.
Proof. apply ag_bind; [apply ag_remaining|intros a]. apply ag_bind; [apply ag_as_slice|intros b]. apply ag_if; ag1. Qed.
Lemma ag_slice_mut new : agr (b_slice_mut_set new) (b_slice_mut_set new).
Proof. apply ag_bind; [apply ag_b_slice|intros a]. apply ag_if; ag1. Qed.
Lemma ag_ext : agr b_ext_slice b_ext_slice.
Proof. apply ag_bind; [apply ag_as_slice|intros a]. apply ag_bind; [apply ag_remaining|intros b]. apply ag_if; ag1. Qed.
Lemma ag_fill : agr b_fill_buf b_fill_buf.
Proof. apply ag_bind; [apply ag_remaining|intros a]. apply ag_bind; [ag1|intros b]. apply ag_bind; [ag1|intros c]. ag1. Qed.
Lemma ag_consume n : agr (b_consume n) (b_consume n).
Proof.
  apply ag_bind; [apply ag_remaining|intros a]. agin. cbv zeta. change (s_dev (grace s)) with (s_dev s).
  destruct (s_dbg s && (a <? n)); [intros [= <- <-]; auto|].
  destruct (u64_add _ _ _); intros [= <- <-]; auto.
Qed.
Lemma ag_b_write bs : agr (b_write bs) (b_write bs).
Proof. apply ag_bind; [apply ag_remaining|intros a]. apply ag_t_write. Qed.
Lemma ag_b_write_all bs : agr (b_write_all bs) (b_write_all bs).
Proof. apply ag_write_all, ag_b_write. Qed.
Lemma ag_target len w : agr (b_seek_target len w) (b_seek_target len w).
Proof.
  unfold b_seek_target. agin. agat. destruct w as [p|z|z].
  - apply ag_if; [|ag1]. apply ag_bind; [apply ag_start_pos|intros a]. apply ag_pure. intros s1 H1. reflexivity.
  - apply ag_if; [|ag1]. apply ag_bind; [apply ag_res|intros o]. apply ag_if; [|ag1].
    apply ag_bind; [apply ag_start_pos|intros a]. apply ag_pure. intros s1 H1. reflexivity.
  - apply ag_if.
    + apply ag_bind; [apply ag_res|intros o]. apply ag_bind; [apply ag_inner_pos|intros ip]. apply ag_if; [|ag1].
      apply ag_pure. intros s1 H1. reflexivity.
    + cbv zeta. apply ag_bind; [apply ag_remaining|intros ip]. apply ag_if; [|ag1].
      apply ag_pure. intros s1 H1. reflexivity.
Qed.
Lemma ag_b_seek len w : agr (b_seek len w) (b_seek len w).
Proof.
  apply ag_bind; [apply ag_target|intros p]. apply ag_bind; [|intros _; apply ag_inner_pos].
  agin. destruct (p <? s_pos s).
  - cbv zeta. destruct (_ <? _); [intros [= <- <-]; now right|]. agat. apply ag_bind; [ag1|intros a]. agmod.
  - cbv zeta. destruct (_ <? _); [intros [= <- <-]; now right|]. agat. apply ag_bind; [ag1|intros a]. agmod.
Qed.
Lemma ag_next_field : agr next_field next_field.
Proof.
  apply ag_bind; [apply ag_impl|intros [f| | |len|]]; try ag1. apply ag_bind; [apply ag_read_trunc|intros m]. ag1.
Qed.
Lemma ag_skip_up d : agr (skip_up d) (skip_up d).
Proof.
  unfold skip_up. apply ag_mloop. intros _. apply ag_get. intros s Hs. cbn [set_graceful_ s_depth]. apply ag_if; [|ag1].
  apply ag_bind; [apply ag_impl|intros a]. ag1.
Qed.
Lemma ag_field_skip f : agr (field_skip f) (field_skip f).
Proof. unfold field_skip. destruct (f_val f); try ag1; apply ag_skip_up. Qed.

Lemma ag_desc d : agr (write_desc d) (write_desc d).
Proof.
  apply ag_bind; [apply ag_commit|intros a]. agin. agat. apply ag_bind; [apply ag_res|intros b].
  apply ag_lift, ag_write_all, ag_t_write.
Qed.
Lemma ag_encode n : agr (s_encode_u64 n) (s_encode_u64 n).
Proof. unfold s_encode_u64. destruct (encode_u64 n); [|ag1]. apply ag_lift, ag_write_all, ag_t_write. Qed.
Lemma ag_write_u64 t n : agr (write_u64 t n) (write_u64 t n).
Proof. apply ag_bind; [apply ag_desc|intros a]. apply ag_encode. Qed.
Lemma ag_write_enum t n : agr (write_enum t n) (write_enum t n).
Proof. apply ag_bind; [apply ag_desc|intros a]. apply ag_encode. Qed.
Lemma ag_set_end len :
  agr (fun s => match u64_add (E := serr) (s_dbg s) (s_pos s) len with ROk e => (ROk tt, set_blob_end e s) | _ => (@RPanic serr unit, s) end)
      (fun s => match u64_add (E := serr) (s_dbg s) (s_pos s) len with ROk e => (ROk tt, set_blob_end e s) | _ => (RPanic, s) end).
Proof.
  agin. destruct (u64_add _ _ _); intros [= <- <-]; auto.
Qed.
Lemma ag_alloc d len : agr (write_desc_with_blob_alloc d len) (write_desc_with_blob_alloc d len).
Proof.
  apply ag_bind; [apply ag_commit|intros a]. apply ag_if; [ag1|]. apply ag_bind; [apply ag_lift, ag_check|intros a1].
  apply ag_bind; [apply ag_desc|intros a2]. apply ag_bind; [apply ag_encode|intros a3].
  apply ag_bind; [apply ag_set_end|intros a4]. apply ag_bind; [agmod|intros a5]. ag1.
Qed.
Lemma ag_blob_data t bs : agr (write_blob_data t bs) (write_blob_data t bs).
Proof. apply ag_bind; [apply ag_alloc|intros a]. apply ag_bind; [apply ag_lift, ag_b_write_all|intros a1]. ag1. Qed.
Lemma ag_exc_data bs : agr (write_exception_data bs) (write_exception_data bs).
Proof. apply ag_bind; [apply ag_alloc|intros a]. apply ag_bind; [apply ag_lift, ag_b_write_all|intros a1]. ag1. Qed.
Lemma ag_dynamic d : agr (write_desc_with_blob_dynamic d) (write_desc_with_blob_dynamic d).
Proof.
  apply ag_bind; [apply ag_desc|intros a]. agin. agat. apply ag_bind; [apply ag_res|intros a1].
  apply ag_bind; [apply ag_res|intros a2]. apply ag_bind; [apply ag_lift, ag_write_all, ag_t_write|intros a3].
  apply ag_bind; [agmod|intros a4]. apply ag_bind; [apply ag_set_end|intros a5]. apply ag_bind; [agmod|intros a6]. ag1.
Qed.
Lemma ag_pad a : agr (pad_to_align a) (pad_to_align a).
Proof.
  unfold pad_to_align. agin. agat. apply ag_bind; [apply ag_res|intros m].
  apply ag_bind; [destruct (_ && _); ag1|intros a1]. apply ag_bind; [apply ag_commit|intros a2].
  apply ag_mloop. intros _. apply ag_get. intros s1 H1. cbn [set_graceful_ s_pos]. apply ag_if; [ag1|].
  apply ag_bind; [apply ag_desc|intros a3]. ag1.
Qed.

Lemma ag_bop len o : agr (bop_run len o) (bop_run len o).
Proof.
  destruct o; cbn [bop_run].
  - apply ag_bind; [apply ag_lift, ag_b_read|intros a]. ag1.
  - apply ag_bind; [apply ag_lift, ag_b_read_exact|intros a]. ag1.
  - apply ag_bind; [apply ag_read_fully|intros a]. ag1.
  - apply ag_bind; [apply ag_read_trunc|intros a]. ag1.
  - apply ag_bind; [apply ag_lift, ag_fill|intros a]. apply ag_bind; [apply ag_lift, ag_consume|intros a1]. ag1.
  - apply ag_bind; [apply ag_b_slice|intros a]. ag1.
  - apply ag_bind; [apply ag_lift, ag_b_write|intros a]. ag1.
  - apply ag_bind; [apply ag_lift, ag_b_write_all|intros a]. ag1.
  - apply ag_bind; [apply ag_slice_mut|intros a]. ag1.
  - apply ag_bind; [apply ag_lift, ag_b_seek|intros a]. ag1.
  - apply ag_bind; [apply ag_remaining|intros a]. apply ag_bind; [apply ag_start_pos|intros b].
    apply ag_bind; [apply ag_inner_pos|intros c]. apply ag_get. intros s Hs. ag1.
Qed.
Ltac agu := unfold ret_unit; apply ag_bind; [|intros u0; ag1].
Lemma ag_call op c : (forall b, c <> CGraceful b) -> agr (call_run op c) (call_run op c).
Proof.
  intros Hc. destruct c; cbn [call_run];
    try (agu; first [apply ag_skip_up | apply ag_commit | apply ag_reset | apply ag_write_u64 | apply ag_write_enum | apply ag_desc | apply ag_pad | agmod]; fail).
  - apply ag_bind; [apply ag_impl|intros e]. ag1.
  - apply ag_bind; [apply ag_next_field|intros e]. ag1.
  - destruct op; try ag1. agu. apply ag_field_skip.
  - apply ag_bind; [apply ag_st_seek|intros e]. ag1.
  - exfalso. now apply (Hc b).
  - apply ag_bind; [apply ag_blob_data|intros e]. ag1.
  - apply ag_bind; [apply ag_alloc|intros e]. ag1.
  - apply ag_bind; [apply ag_dynamic|intros e]. ag1.
  - apply ag_bind; [apply ag_exc_data|intros e]. ag1.
  - apply ag_bind; [apply ag_alloc|intros e]. ag1.
  - apply ag_bind; [apply ag_dynamic|intros e]. ag1.
  - destruct op; try ag1. apply ag_bind; [apply ag_bop|intros v]. ag1.
Qed.

(** ** Histories *)
Definition not_ended (r : res serr cval) : Prop := r <> RErr (SIo IoUnexpectedEof).
Theorem histories_agree cs : Forall (fun c => forall b, c <> CGraceful b) cs -> forall op s xs op' s', s_graceful s = false ->
  run_calls cs op s = (xs, (op', s')) -> Forall not_ended xs ->
  s_graceful s' = false /\ run_calls cs op (grace s) = (xs, (op', grace s')).
Proof.
  induction 1 as [|c r Hc Hr IH]; intros op s xs op' s' Hs H Hn; cbn [run_calls] in *; [injection H as <- <- <-; auto|].
  destruct (call_run op c s) as [x s1] eqn:E1. destruct (run_calls r (opens op c x) s1) as [ys [o2 s2]] eqn:E2.
  injection H as <- <- <-. inversion Hn as [|? ? Hx Hn']; subst.
  destruct (ag_call _ _ Hc _ _ _ Hs E1) as [Hy|[H1 H2]].
  { exfalso. destruct x as [|e0| |]; try contradiction Hy. apply Hx. f_equal. exact Hy. }
  rewrite H2. destruct (IH _ _ _ _ _ H1 E2 Hn') as [H3 H4]. rewrite H4. auto.
Qed.
Theorem histories_graceful cs : Forall (fun c => forall b, c <> CGraceful b) cs -> forall op s xs op' s', s_graceful s = false ->
  run_calls cs ONone s = (xs, (op', s')) -> Forall not_ended xs ->
  s_graceful s' = false /\ run_calls (CGraceful true :: cs) op s = (ROk VUnit_ :: xs, (op', snd (set_graceful_eof true s'))).
Proof.
  intros Hc op s xs op' s' Hs H Hn. destruct (histories_agree cs Hc ONone s xs op' s' Hs H Hn) as [H1 H2]. split; [exact H1|].
  cbn [run_calls call_run]. change (ret_unit (set_graceful_eof true) s) with (@ROk serr cval VUnit_, grace s). cbv zeta iota beta.
  change (opens op (CGraceful true) (ROk VUnit_)) with ONone. rewrite H2. reflexivity.
Qed.
(** ** Deserialisation *)
Definition xrel (st : rst stream) : rst stream := x_set_s (grace (x_s st)) st.
Definition xagr {A} (m : XM stream A) : Prop :=
  forall st r st', s_graceful (x_s st) = false -> m st = (r, st') ->
    (exists x, r = RErr x) \/ (s_graceful (x_s st') = false /\ m (xrel st) = (r, xrel st')).
Lemma xag_src {A} (m : SM A) : agr m m -> xagr (on_src_of m).
Proof.
  intros Hm st r st' Hs H. unfold on_src_of in *. change (x_s (xrel st)) with (grace (x_s st)).
  destruct (m (x_s st)) as [r1 s1] eqn:E1. destruct (Hm _ _ _ Hs E1) as [Hx|[H1 H2]]; [destruct r1; try contradiction Hx; unfold xfail in H; injection H as <- <-; left; eexists; reflexivity|].
  rewrite H2. cbv zeta in *. destruct r1; unfold xfail in *; injection H as <- <-; auto.
Qed.
Lemma xag_blob {A} (m : SM A) : agr m m -> xagr (on_blob m).
Proof.
  intros Hm st r st' Hs H. unfold on_blob in *. change (x_cur (xrel st)) with (x_cur st).
  destruct (x_cur st) as [[tg ps dp []]|]; try (injection H as <- <-; now right). exact (xag_src m Hm _ _ _ Hs H).
Qed.
Lemma xag_bind {A B} (m : XM stream A) (k : A -> XM stream B) :
  xagr m -> (forall a, xagr (k a)) -> xagr (mbind m k).
Proof.
  intros Hm Hk s r s' Hs H. unfold mbind in H |- *. destruct (m s) as [r1 s1] eqn:E1.
  destruct (Hm _ _ _ Hs E1) as [(x & ->)|[H1 H2]]; [injection H as <- <-; left; eexists; reflexivity|].
  rewrite H2. destruct r1 as [x|e| |]; try (injection H as <- <-; now right).
  exact (Hk x _ _ _ H1 H).
Qed.
Lemma xag_fail {A} k : xagr (A := A) (xfail k).
Proof. intros s r s' Hs H. unfold xfail in *. injection H as <- <-. right. auto. Qed.
Lemma xag_op cf {X : Set} (o : op X) : xagr (run_op stream_source cf o).
Proof.
  destruct o; cbn [run_op stream_source i_next i_skip i_pos i_dbg i_remaining i_read_fully i_read_exact i_ext].
  - apply xag_bind; [apply xag_src, ag_next_field|intros f]. apply xag_bind.
    + intros s r s' Hs H. injection H as <- <-. right. auto.
    + intros _ s r s' Hs H. injection H as <- <-. right. auto.
  - intros s r s' Hs H. change (x_cur (xrel s)) with (x_cur s). destruct (x_cur s); [|injection H as <- <-; now right].
    exact (xag_src _ (ag_field_skip _) _ _ _ Hs H).
  - intros s r s' Hs H. change (x_cur (xrel s)) with (x_cur s). destruct (cf_ignore cf); [injection H as <- <-; auto|].
    destruct (x_cur s); [|injection H as <- <-; now right]. exact (xag_fail _ _ _ _ Hs H).
  - intros s r s' Hs H. change (x_cur (xrel s)) with (x_cur s). change (x_path (xrel s)) with (x_path s).
    destruct (_ <=? _); [exact (xag_fail _ _ _ _ Hs H)|].
    destruct at_field; [|injection H as <- <-; auto]. destruct (x_cur s); injection H as <- <-; auto.
  - intros s r s' Hs H. injection H as <- <-. right. auto.
  - intros s r s' Hs H. change (x_coll (xrel s)) with (x_coll s). change (s_dbg (x_s (xrel s))) with (s_dbg (x_s s)).
    destruct (ctx_collect _ _ _ _); injection H as <- <-; auto.
  - intros s r s' Hs H. change (x_blob (xrel s)) with (x_blob s). change (s_dbg (x_s (xrel s))) with (s_dbg (x_s s)).
    destruct (ctx_blob _ _ _ _); injection H as <- <-; auto.
  - intros s r s' Hs H. injection H as <- <-. right. auto.
  - apply xag_blob, ag_remaining.
  - apply xag_blob, ag_read_fully.
  - apply xag_blob, ag_lift, ag_b_read_exact.
  - apply xag_blob, ag_ext.
Qed.
Lemma xag_run cf {A} (p : prog A) : xagr (run stream_source cf p).
Proof.
  induction p as [a|x|X o k IH]; cbn [run].
  - intros s r s' Hs H. injection H as <- <-. right. auto.
  - destruct x; [apply xag_fail| |]; intros s r s' Hs H; injection H as <- <-; auto.
  - apply xag_bind; [apply xag_op|exact IH].
Qed.
Theorem from_stream_quiet e zc cf t s v s' : s_graceful s = false -> from_stream e zc cf t s = (ROk v, s') ->
  from_stream e zc cf t (grace s) = (ROk v, grace s').
Proof.
  intros Hs H. unfold from_stream in *.
  destruct (run stream_source cf _ (top_rst s)) as [r1 st1] eqn:E1. injection H as -> <-.
  destruct (xag_run _ _ _ _ _ (Hs : s_graceful (x_s (top_rst s)) = false) E1) as [[x Hx]|[H1 H2]]; [discriminate Hx|].
  change (top_rst (grace s)) with (xrel (top_rst s)). rewrite H2. reflexivity.
Qed.
