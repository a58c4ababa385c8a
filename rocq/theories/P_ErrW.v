(** * P_ErrW: which errors each call can report (C77) *)

From Verif Require Import Base Wire Dev Stream SpecFormat SpecStream SpecHist SpecBlob SpecErr SpecErrW P_Base P_Sched P_Stream P_Hist P_Pos.
From Verif Require P_Errs.
Local Open Scope N_scope.
Strategy 1000 [s_decode_u64 decode_u64 decode_loop write_all read_exact encode_u64 enc_loop encode_fixed_u64 mloop miter].

Definition eo {E A} (ok : E -> Prop) (m : M stream E A) : Prop := forall s x s', m s = (RErr x, s') -> ok x.
Section Eo.
  Context {E : Type} (ok : E -> Prop).
  Lemma eo_ret {A} (a : A) : eo ok (mret a).
  Proof. intros s x s' H. discriminate. Qed.
  Lemma eo_fail {A} x : ok x -> eo (A := A) ok (mfail x).
  Proof. intros Hx s y s' H. injection H as <- <-. exact Hx. Qed.
  Lemma eo_panic {A} : eo (A := A) ok mpanic.
  Proof. intros s x s' H. discriminate. Qed.
  Lemma eo_get : eo ok mget.
  Proof. intros s x s' H. discriminate. Qed.
  Lemma eo_mod f : eo ok (mmod f).
  Proof. intros s x s' H. discriminate. Qed.
  Lemma eo_bind {A B} (m : M stream E A) (f : A -> M stream E B) : eo ok m -> (forall a, eo ok (f a)) -> eo ok (mbind m f).
  Proof.
    intros Hm Hf s x s' H. unfold mbind in H. destruct (m s) as [[a|y| |] s1] eqn:E1; try discriminate.
    - exact (Hf a _ _ _ H).
    - injection H as <- <-. exact (Hm _ _ _ E1).
  Qed.
  Lemma eo_if {A} (c : bool) (m n : M stream E A) : eo ok m -> eo ok n -> eo ok (if c then m else n).
  Proof. destruct c; auto. Qed.
  Lemma eo_iter {A B} (step : A -> M stream E (A + B)) : (forall a, eo ok (step a)) -> forall p a, eo ok (miter p step a).
  Proof.
    intros H p. induction p as [q IH|q IH|]; intros a; cbn [miter].
    - apply eo_bind; [apply H|]. intros [x|x]; [|apply eo_ret]. apply eo_bind; [apply IH|]. intros [y|y]; [apply IH|apply eo_ret].
    - apply eo_bind; [apply IH|]. intros [y|y]; [apply IH|apply eo_ret].
    - apply H.
  Qed.
  Lemma eo_loop {A B} (step : A -> M stream E (A + B)) a : (forall a, eo ok (step a)) -> eo ok (mloop step a).
  Proof. intros H. unfold mloop. apply eo_bind; [now apply eo_iter|]. intros [x|x]; [|apply eo_ret]. intros s y s' X. discriminate. Qed.
  Lemma eo_still {A} (f : stream -> res E A) : (forall s x, f s <> RErr x) -> eo ok (fun s => (f s, s)).
  Proof. intros Hf s x s' H. injection H as H _. now apply Hf in H. Qed.
  Lemma eo_res {A} (r : res E A) : (forall x, r <> RErr x) -> eo ok (mres r).
  Proof. intros Hf s x s' H. injection H as H _. now apply Hf in H. Qed.
  Lemma eo_weak {A} (ok' : E -> Prop) (m : M stream E A) : (forall x, ok' x -> ok x) -> eo ok' m -> eo ok m.
  Proof. intros Hi Hm s x s' H. apply Hi. exact (Hm _ _ _ H). Qed.
  Lemma eo_fun {A} (f : stream -> M stream E A) : (forall s0, eo ok (f s0)) -> eo ok (fun s => f s s).
  Proof. intros Hf s x s' H. exact (Hf s _ _ _ H). Qed.
End Eo.
Definition only (ks : list iokind) (k : iokind) : Prop := In k ks.
Lemma eo_lift {A} (ok : iokind -> Prop) (ok' : serr -> Prop) (m : IM A) : (forall k, ok k -> ok' (SIo k)) -> eo ok m -> eo ok' (lift_io m).
Proof. intros Hi Hm s x s' H. unfold lift_io in H. destruct (m s) as [[a|y| |] s1] eqn:E1; try discriminate. injection H as <- <-. apply Hi. exact (Hm _ _ _ E1). Qed.
Lemma eo_io {A} ks (m : IM A) : eo (only ks) m -> eo (io_error ks) (lift_io m).
Proof. apply eo_lift. intros k Hk. exists k. auto. Qed.

Lemma sub_err {E} dbg a b x : u64_sub (E := E) dbg a b <> RErr x.
Proof. intros H. exact (P_Errs.u64_sub_err _ _ _ _ H). Qed.
Lemma add_err {E} dbg a b x : u64_add (E := E) dbg a b <> RErr x.
Proof. intros H. exact (P_Errs.u64_add_err _ _ _ _ H). Qed.
Lemma eo_check n : eo (only [IoOther]) (check_advance_pos n).
Proof. intros s x s' H. unfold check_advance_pos in H. destruct (_ <? _); [|discriminate]. injection H as <- <-. left. reflexivity. Qed.
Lemma eo_checks {A} ks n (k : unit -> IM A) : In IoOther ks -> (forall u, eo (only ks) (k u)) -> eo (only ks) (mbind (check_advance_pos n) k).
Proof. intros Hi Hk. apply eo_bind; [|exact Hk]. apply (eo_weak _ (only [IoOther])); [|apply eo_check]. intros x [<-|[]]. exact Hi. Qed.
Lemma eo_tread g n : eo (only [IoOther; IoInterrupted]) (t_read g n).
Proof.
  unfold t_read. apply eo_if; [apply eo_ret|]. apply eo_checks; [left; reflexivity|intros _u]. apply eo_bind.
  - intros s x s' H. unfold on_dev, dev_read, sched_next in H. destruct (d_sched (s_dev s)) as [|[c| |] sc]; try discriminate; injection H as <- <-; [right; left|left]; reflexivity.
  - intros bs. apply eo_bind; [apply eo_mod|intros _v]. destruct bs; [|apply eo_ret]. apply eo_if; apply eo_ret.
Qed.
Lemma eo_twrite bs : eo (only [IoOther; IoInterrupted]) (t_write bs).
Proof.
  unfold t_write. destruct bs as [|b bs]; [apply eo_ret|]. apply eo_checks; [left; reflexivity|intros _u]. apply eo_bind.
  - intros s x s' H. unfold on_dev, dev_write, sched_next in H. destruct (d_sched (s_dev s)) as [|[c| |] sc]; try discriminate; injection H as <- <-; [right; left|left]; reflexivity.
  - intros n. apply eo_bind; [apply eo_mod|intros _v]. apply eo_ret.
Qed.
Lemma eo_rem {E} (ok : E -> Prop) : eo ok b_remaining.
Proof. apply eo_still. intros. apply sub_err. Qed.
Lemma eo_bread n : eo (only [IoOther; IoInterrupted]) (b_read n).
Proof. unfold b_read. apply eo_bind; [apply eo_rem|intros rem]. apply eo_if; [apply eo_ret|apply eo_tread]. Qed.
Lemma eo_bwrite bs : eo (only [IoOther; IoInterrupted]) (b_write bs).
Proof. unfold b_write. apply eo_bind; [apply eo_rem|intros rem]. apply eo_twrite. Qed.
Lemma eo_exact rdf n : (forall n, eo (only [IoOther; IoInterrupted]) (rdf n)) -> eo (only [IoOther; IoUnexpectedEof]) (read_exact sch rdf n).
Proof.
  intros Hr s x s' H. unfold read_exact in H. revert H. generalize (2 + List.length (sch s))%nat as fuel. intros fuel. revert s n. generalize (@nil N) as acc.
  induction fuel as [|f IH]; intros acc s n H; cbn [read_exact_loop] in H; [discriminate|]. destruct (n =? 0); [discriminate|].
  destruct (rdf n s) as [[bs|y| |] s1] eqn:E1; try discriminate.
  - destruct bs as [|b bs]; [injection H as <- <-; right; left; reflexivity|]. exact (IH _ _ _ H).
  - destruct (Hr n _ _ _ E1) as [<-|[<-|[]]]; [injection H as <- <-; left; reflexivity|exact (IH _ _ _ H)].
Qed.
Lemma eo_upto rdf n : (forall n, eo (only [IoOther; IoInterrupted]) (rdf n)) -> eo (only [IoOther]) (read_upto sch rdf n).
Proof.
  intros Hr s x s' H. unfold read_upto in H. revert H. generalize (2 + List.length (sch s))%nat as fuel. intros fuel. revert s n. generalize (@nil N) as acc.
  induction fuel as [|f IH]; intros acc s n H; cbn [read_upto_loop] in H; [discriminate|]. destruct (n =? 0); [discriminate|].
  destruct (rdf n s) as [[bs|y| |] s1] eqn:E1; try discriminate.
  - destruct bs as [|b bs]; [discriminate|]. exact (IH _ _ _ H).
  - destruct (Hr n _ _ _ E1) as [<-|[<-|[]]]; [injection H as <- <-; left; reflexivity|exact (IH _ _ _ H)].
Qed.
Lemma eo_wall wr bs : (forall bs, eo (only [IoOther; IoInterrupted]) (wr bs)) -> eo (only [IoOther; IoWriteZero]) (write_all sch wr bs).
Proof.
  intros Hr s x s' H. unfold write_all in H. revert H. generalize (2 + List.length (sch s))%nat as fuel. intros fuel. revert s bs.
  induction fuel as [|f IH]; intros s bs H; cbn [write_all_loop] in H; [discriminate|]. destruct bs as [|b bs]; [discriminate|].
  destruct (wr (b :: bs) s) as [[n|y| |] s1] eqn:E1; try discriminate.
  - destruct (n =? 0); [injection H as <- <-; right; left; reflexivity|]. exact (IH _ _ H).
  - destruct (Hr _ _ _ _ E1) as [<-|[<-|[]]]; [injection H as <- <-; left; reflexivity|exact (IH _ _ H)].
Qed.
(** A device takes at least one byte. *)
Lemma twrite_some b bs s n s' : t_write (b :: bs) s = (ROk n, s') ->
  1 <= n /\ s_pos s' = s_pos s + n /\ n <= lenN (b :: bs) /\ s_blob_end s' = s_blob_end s.
Proof.
  assert (Hl : 1 <= lenN (b :: bs)) by (rewrite lenN_cons; lia).
  unfold t_write. set (l := b :: bs) in *. clearbody l. unfold mbind, check_advance_pos. destruct (_ <? _); [discriminate|]. unfold on_dev, dev_write, sched_next.
  destruct (d_sched (s_dev s)) as [|[c| |] sc]; try discriminate; unfold mmod, mret; intros H; injection H as <- <-;
    (split; [|split; [reflexivity|split; [|reflexivity]]]); rewrite lenN_takeN; lia.
Qed.
Lemma eo_wall_t bs : eo (only [IoOther]) (write_all sch t_write bs).
Proof.
  intros s x s' H. unfold write_all in H. revert H. generalize (2 + List.length (sch s))%nat as fuel. intros fuel. revert s bs.
  induction fuel as [|f IH]; intros s bs H; cbn [write_all_loop] in H; [discriminate|]. destruct bs as [|b bs]; [discriminate|].
  destruct (t_write (b :: bs) s) as [[n|y| |] s1] eqn:E1; try discriminate.
  - destruct (N.eqb_spec n 0) as [->|]; [apply twrite_some in E1; lia|]. exact (IH _ _ H).
  - destruct (eo_twrite _ _ _ _ E1) as [<-|[<-|[]]]; [injection H as <- <-; left; reflexivity|exact (IH _ _ H)].
Qed.
(** Inside a blob with enough room as well. *)
Lemma eo_wall_room bs s x s' : s_pos s + lenN bs <= s_blob_end s -> s_blob_end s <= U64_MAX ->
  b_write_all bs s = (RErr x, s') -> x = IoOther.
Proof.
  intros Hr He H. unfold b_write_all, write_all in H. revert H Hr He. generalize (2 + List.length (sch s))%nat as fuel. intros fuel. revert s bs.
  induction fuel as [|f IH]; intros s bs H Hr He; cbn [write_all_loop] in H; [discriminate|]. destruct bs as [|b bs]; [discriminate|].
  destruct (b_write (b :: bs) s) as [[n|y| |] s1] eqn:E1; try discriminate.
  - unfold b_write, mbind, b_remaining in E1. rewrite u64_sub_ok in E1 by lia. rewrite takeN_all in E1 by lia.
    destruct (twrite_some _ _ _ _ _ E1) as (Hn & H1 & H2 & H3). destruct (N.eqb_spec n 0) as [->|]; [lia|]. apply (IH _ _ H); [rewrite lenN_dropN, H1, H3; lia|rewrite H3; exact He].
  - assert (Hs : s_pos s1 = s_pos s /\ s_blob_end s1 = s_blob_end s).
    { unfold b_write, mbind, b_remaining in E1. rewrite u64_sub_ok in E1 by lia. revert E1. destruct (takeN _ _) as [|c cs]; [discriminate|].
      unfold t_write, mbind, check_advance_pos. destruct (_ <? _); [intros E1; injection E1 as _ <-; auto|]. unfold on_dev, dev_write, sched_next.
      destruct (d_sched (s_dev s)) as [|[c'| |] sc]; try discriminate; intros E1; injection E1 as _ <-; auto. }
    destruct Hs as [H1 H2].
    destruct (eo_bwrite _ _ _ _ E1) as [<-|[<-|[]]]; [injection H as <- <-; reflexivity|]. apply (IH _ _ H); [rewrite H1, H2; lia|lia].
Qed.

(** ** Reading an element *)
Definition elem_error (x : serr) : Prop := io_error [IoOther; IoUnexpectedEof] x \/ x = SIntegerOverflow \/ x = SOverwideInteger.
Lemma eo_rb g : eo elem_error (s_read_byte g).
Proof.
  apply (eo_weak _ (io_error [IoOther; IoUnexpectedEof])); [left; assumption|]. apply eo_io.
  apply eo_bind; [apply eo_exact; intros; apply eo_tread|]. intros [|b r]; [apply eo_panic|apply eo_ret].
Qed.
Lemma eo_decode : eo elem_error s_decode_u64.
Proof.
  unfold s_decode_u64, decode_u64. generalize 258%nat as f. intros f. generalize 0 at 1 as acc. generalize 0 as sh. induction f as [|f IH]; intros sh acc; cbn [decode_loop].
  - intros s x s' H. discriminate.
  - apply eo_bind; [apply eo_rb|intros b]. apply eo_if; [apply eo_fail; right; auto|]. apply eo_if; [apply eo_ret|]. apply eo_if; [apply eo_fail; right; auto|]. apply IH.
Qed.
Lemma eo_check_s n : eo elem_error (lift_io (check_advance_pos n)).
Proof. apply (eo_lift (only [IoOther])); [|apply eo_check]. intros k [<-|[]]. left. exists IoOther. split; [left|]; reflexivity. Qed.
Lemma eo_next_blob : eo elem_error next_blob.
Proof.
  unfold next_blob. apply eo_bind; [apply eo_decode|intros len]. apply eo_bind; [apply eo_check_s|intros _u].
  apply eo_bind; [apply eo_mod|intros _v]. apply eo_bind; [apply eo_mod|intros _w]. apply eo_ret.
Qed.
Lemma eo_incr : eo elem_error incr_depth.
Proof. intros s x s' H. unfold incr_depth in H. destruct (u64_add _ _ _); discriminate. Qed.
Lemma eo_value ty : eo elem_error (next_value ty).
Proof.
  destruct ty; cbn [next_value].
  - apply eo_bind; [apply eo_decode|intros d]. apply eo_bind; [apply eo_incr|intros; apply eo_ret].
  - apply eo_bind; [apply eo_decode|intros; apply eo_ret].
  - apply eo_bind; [apply eo_next_blob|intros; apply eo_ret].
  - apply eo_bind; [apply eo_incr|intros; apply eo_ret].
Qed.
Lemma eo_step sp u : eo elem_error (next_element_step sp u).
Proof.
  unfold next_element_step. apply eo_bind; [apply eo_get|intros s0]. cbv zeta. apply eo_bind; [apply eo_rb|intros b].
  destruct (parse_desc b) as [[ty tag|[]]|]; [| | | | |apply eo_panic].
  - apply eo_bind; [apply eo_mod|intros _u]. apply eo_bind; [apply eo_get|intros s1]. apply eo_bind; [apply eo_value|intros; apply eo_ret].
  - apply eo_bind; [apply eo_mod|intros; apply eo_ret].
  - apply eo_bind; [apply eo_mod|intros _u]. apply eo_bind; [apply eo_mod|intros; apply eo_ret].
  - apply eo_bind; [apply eo_next_blob|intros; apply eo_ret].
  - apply eo_if; apply eo_ret.
Qed.

(** ** Ending a blob *)
Definition plain_error (x : serr) : Prop :=
  match x with SIo k => k = IoOther | STruncatedBlob m => 0 < m | SIncompleteBlob m => 0 < m | _ => False end.
Lemma plain_closing x : plain_error x -> closing_error x.
Proof. destruct x; cbn; auto; contradiction. Qed.
Lemma io_plain {A} (m : IM A) : eo (only [IoOther]) m -> eo plain_error (lift_io m).
Proof. apply eo_lift. intros k [<-|[]]. reflexivity. Qed.
Lemma io_other {A} (m : IM A) : eo (only [IoOther]) m -> eo closing_error (lift_io m).
Proof. intros Hm. apply (eo_weak _ plain_error); [exact plain_closing|now apply io_plain]. Qed.
Lemma eo_discard n : eo plain_error (skip_by_discard n).
Proof. apply io_plain. apply eo_bind; [apply eo_upto; intros; apply eo_tread|intros; apply eo_ret]. Qed.
Lemma eo_direct n : eo plain_error (skip_by_seek_direct n).
Proof.
  unfold skip_by_seek_direct. apply eo_bind; [apply io_plain, eo_check|intros _u]. intros s x s' H.
  destruct (on_dev (dev_seek (SkCur (Z.of_N n))) s) as [[a|y| |] s1]; try discriminate. exact (eo_discard n _ _ _ H).
Qed.
Lemma eo_seek n : eo plain_error (skip_by_seek n).
Proof.
  unfold skip_by_seek. generalize 4%nat as f. intros f. revert n. induction f as [|f IH]; intros n; cbn [skip_by_seek_rec].
  - intros s x s' H. discriminate.
  - apply eo_if; [|apply eo_direct]. apply eo_bind; [apply IH|intros a]. apply eo_if; [apply eo_ret|]. apply eo_bind; [apply IH|intros; apply eo_ret].
Qed.
Lemma eo_skip_blob : eo plain_error skip_blob.
Proof.
  intros s x s' H. unfold skip_blob in H. destruct (s_pos s <? s_blob_end s); [|discriminate].
  revert H. apply eo_bind; [apply eo_if; [apply eo_seek|apply eo_discard]|]. intros k. destruct (k <? _) eqn:E; [|apply eo_ret]. apply eo_fail. cbn. apply N.ltb_lt in E. lia.
Qed.
Lemma sub_pos dbg a b n : a <= U64_MAX -> b <= U64_MAX -> a <> b -> u64_sub (E := serr) dbg a b = ROk n -> 0 < n.
Proof.
  intros Ha Hb Hd H. unfold u64_sub in H. destruct (N.leb_spec b a); [injection H as <-; lia|]. destruct dbg; [discriminate|]. injection H as <-.
  unfold U64_MOD, U64_MAX in *. rewrite N.mod_small; lia.
Qed.

(** ** What low-level operations leave alone *)
Definition fix3 (c : option commit_fn) (d e : N) (s : stream) : Prop := s_commit s = c /\ s_dyn_start s = d /\ s_blob_end s = e.
Definition keeps {E A} (m : M stream E A) : Prop := forall c d e, preserves (fix3 c d e) m.
Lemma k_dev {A} (m : M dev iokind A) : keeps (on_dev m).
Proof. intros c d e s r s' Hs H. unfold on_dev in H. destruct (m (s_dev s)) as [x y]. injection H as <- <-. exact Hs. Qed.
Lemma k_tread g n : keeps (t_read g n).
Proof.
  intros c d e. unfold t_read. apply pr_if; [apply pr_ret|]. apply pr_bind; [apply pr_check|intros _u]. apply pr_bind; [apply k_dev|intros bs].
  apply pr_bind; [apply pr_mod; intros s Hs; exact Hs|intros _v]. destruct bs; [|apply pr_ret]. apply pr_if; apply pr_ret.
Qed.
Lemma k_twrite bs : keeps (t_write bs).
Proof.
  intros c d e. unfold t_write. destruct bs as [|b bs]; [apply pr_ret|]. apply pr_bind; [apply pr_check|intros _u]. apply pr_bind; [apply k_dev|intros n].
  apply pr_bind; [apply pr_mod; intros s Hs; exact Hs|intros _v]. apply pr_ret.
Qed.
Lemma k_rem {E} : keeps (@b_remaining E).
Proof. intros c d e. apply pr_pure. Qed.
Lemma k_bread n : keeps (b_read n).
Proof. intros c d e. unfold b_read. apply pr_bind; [apply k_rem|intros rem]. apply pr_if; [apply pr_ret|apply k_tread]. Qed.
Lemma k_bwrite bs : keeps (b_write bs).
Proof. intros c d e. unfold b_write. apply pr_bind; [apply k_rem|intros rem]. apply k_twrite. Qed.
Lemma k_start {E} len : keeps (@b_start_pos E len).
Proof. intros c d e. apply pr_pure. Qed.
Lemma k_inner {E} len : keeps (@b_inner_pos E len).
Proof. intros c d e. apply pr_bind; [apply k_rem|intros r]. apply pr_pure. Qed.
Lemma k_slice {E} : keeps (@as_slice E).
Proof. intros c d e s r s' Hs H. unfold as_slice in H. destruct (_ <? _); injection H as <- <-; exact Hs. Qed.
Lemma k_target len w : keeps (b_seek_target len w).
Proof.
  intros c d e. unfold b_seek_target. apply (pr_fun _ (fun s0 => match w with SkStart p => _ | SkEnd off => _ | SkCur off => _ end)). intros s0. destruct w as [p|z|z].
  - apply pr_if; [|apply pr_fail]. apply pr_bind; [apply k_start|intros st]. apply pr_pure.
  - apply pr_if; [|apply pr_fail]. apply pr_bind; [apply pr_res|intros o]. apply pr_if; [|apply pr_fail]. apply pr_bind; [apply k_start|intros st]. apply pr_pure.
  - apply pr_if.
    + apply pr_bind; [apply pr_res|intros o]. apply pr_bind; [apply k_inner|intros ip]. apply pr_if; [apply pr_pure|apply pr_fail].
    + cbv zeta. apply pr_bind; [apply k_rem|intros rem]. apply pr_if; [apply pr_pure|apply pr_fail].
Qed.
Lemma k_bop len o : keeps (bop_run len o).
Proof.
  intros c d e. destruct o; cbn [bop_run].
  - apply pr_bind; [apply pr_lift, k_bread|intros; apply pr_ret].
  - apply pr_bind; [apply pr_lift, pr_read_exact; intros; apply k_bread|intros; apply pr_ret].
  - apply pr_bind; [|intros; apply pr_ret]. unfold b_read_fully. apply pr_bind; [apply k_rem|intros rem]. apply pr_if; [apply pr_fail|]. apply pr_lift, pr_read_upto. intros; apply k_bread.
  - apply pr_bind; [apply pr_lift, pr_read_upto; intros; apply k_bread|intros; apply pr_ret].
  - apply pr_bind; [apply pr_lift|intros b; apply pr_bind; [apply pr_lift|intros; apply pr_ret]].
    + unfold b_fill_buf. apply pr_bind; [apply k_rem|intros rem]. apply pr_bind; [apply k_dev|intros buf]. apply pr_bind; [apply pr_check|intros; apply pr_ret].
    + unfold b_consume. apply pr_bind; [apply k_rem|intros rem]. intros s r s' Hs H. destruct (_ && _); [injection H as <- <-; exact Hs|]. cbv zeta in H.
      destruct (u64_add _ _ _); injection H as <- <-; exact Hs.
  - apply pr_bind; [|intros; apply pr_ret]. unfold b_slice. apply pr_bind; [apply k_rem|intros rem]. apply pr_bind; [apply k_slice|intros i]. apply pr_if; [apply pr_ret|apply pr_fail].
  - apply pr_bind; [apply pr_lift, k_bwrite|intros; apply pr_ret].
  - apply pr_bind; [apply pr_lift, pr_write_all; intros; apply k_bwrite|intros; apply pr_ret].
  - apply pr_bind; [|intros; apply pr_ret]. unfold b_slice_mut_set. apply pr_bind.
    + unfold b_slice. apply pr_bind; [apply k_rem|intros rem]. apply pr_bind; [apply k_slice|intros i]. apply pr_if; [apply pr_ret|apply pr_fail].
    + intros cur. apply pr_if; [apply pr_mod; intros s Hs; exact Hs|apply pr_ret].
  - apply pr_bind; [apply pr_lift|intros; apply pr_ret]. unfold b_seek. apply pr_bind; [apply k_target|intros p]. apply pr_bind; [|intros; apply k_inner].
    intros s r s' Hs H. destruct (p <? s_pos s); cbv zeta in H; (destruct (_ <? _) in H; [injection H as <- <-; exact Hs|]); revert Hs H; apply pr_bind; try apply k_dev;
      intros _u; apply pr_mod; intros s1 H1; exact H1.
  - apply pr_bind; [apply k_rem|intros r]. apply pr_bind; [apply k_start|intros st]. apply pr_bind; [apply k_inner|intros ip]. apply pr_bind; [apply pr_get|intros; apply pr_ret].
Qed.

Definition bend (s : stream) : Prop := s_blob_end s <= U64_MAX.
Lemma keeps_bend {E A} (m : M stream E A) : keeps m -> preserves bend m.
Proof. intros Hk s r s' Hs H. destruct (Hk _ _ _ _ _ _ (conj eq_refl (conj eq_refl eq_refl)) H) as (_ & _ & E1). unfold bend. rewrite E1. exact Hs. Qed.
Lemma k_wall bs : keeps (write_all sch t_write bs).
Proof. intros c d e. apply pr_write_all. intros; apply k_twrite. Qed.
Lemma k_rb g : keeps (s_read_byte g).
Proof. intros c d e. apply pr_lift. apply pr_bind; [apply pr_read_exact; intros; apply k_tread|]. intros [|b r]; [apply pr_panic|apply pr_ret]. Qed.
Lemma k_decode : keeps s_decode_u64.
Proof. intros c d e. apply pr_decode, k_rb. Qed.
Lemma k_discard n : keeps (skip_by_discard n).
Proof. intros c d e. apply pr_lift. apply pr_bind; [apply pr_read_upto; intros; apply k_tread|intros; apply pr_ret]. Qed.
Lemma k_direct n : keeps (skip_by_seek_direct n).
Proof.
  intros c d e. unfold skip_by_seek_direct. apply pr_bind; [apply pr_lift, pr_check|intros _u]. intros s r s' Hs H.
  destruct (on_dev (dev_seek (SkCur (Z.of_N n))) s) as [[a|x| |] s1] eqn:E1; pose proof (k_dev _ c d e _ _ _ Hs E1) as H1.
  - injection H as <- <-. exact H1.
  - exact (k_discard n _ _ _ _ _ _ H1 H).
  - injection H as <- <-. exact H1.
  - injection H as <- <-. exact H1.
Qed.
Lemma k_skip_seek fuel : forall n, keeps (skip_by_seek_rec fuel n).
Proof.
  induction fuel as [|f IH]; intros n c d e; cbn [skip_by_seek_rec]; [apply pr_fuel|]. apply pr_if; [|apply k_direct].
  apply pr_bind; [apply IH|intros a]. apply pr_if; [apply pr_ret|]. apply pr_bind; [apply IH|intros; apply pr_ret].
Qed.
Lemma k_skip_blob : keeps skip_blob.
Proof.
  intros c d e s r s' Hs H. unfold skip_blob in H. destruct (s_pos s <? s_blob_end s); [|injection H as <- <-; exact Hs]. revert Hs H.
  apply pr_bind; [apply pr_if; [apply k_skip_seek|apply k_discard]|intros k]. apply pr_if; [apply pr_fail|apply pr_ret].
Qed.
Lemma k_check_end : keeps check_at_end_of_blob.
Proof.
  intros c d e s r s' Hs H. unfold check_at_end_of_blob in H. destruct (_ =? _); [injection H as <- <-; exact Hs|].
  destruct (u64_sub _ _ _); injection H as <- <-; exact Hs.
Qed.
Lemma k_finish : keeps finish_dynamic_blob.
Proof.
  intros c d e s r s' Hs H. unfold finish_dynamic_blob in H. cbv zeta in H. destruct (_ <? _); [injection H as <- <-; exact Hs|]. revert Hs H.
  apply pr_bind; [apply pr_res|intros h]. apply pr_bind; [apply pr_res|intros dp]. apply pr_if; [apply pr_fail|].
  apply pr_bind; [apply pr_lift, k_dev|intros _1]. apply pr_bind; [apply pr_mod; intros x Hx; exact Hx|intros _2].
  apply pr_bind; [apply pr_lift, k_wall|intros _3]. apply pr_bind; [apply pr_lift, k_dev|intros _4]. apply pr_mod. intros x Hx; exact Hx.
Qed.
Definition run_pending (f : commit_fn) : SM unit := match f with CSkipBlob => skip_blob | CCheckEnd => check_at_end_of_blob | CFinishDyn => finish_dynamic_blob end.
Lemma k_pending f : keeps (run_pending f).
Proof. destruct f; [apply k_skip_blob|apply k_check_end|apply k_finish]. Qed.
(** [commit] keeps the blob's bounds, and the pending operation if it fails. *)
Lemma commit_keeps s r s' : commit s = (r, s') ->
  s_dyn_start s' = s_dyn_start s /\ s_blob_end s' = s_blob_end s /\
  match r with ROk _ => s_commit s' = None | _ => s_commit s' = s_commit s end.
Proof.
  intros H. unfold commit in H. destruct (s_commit s) as [f|] eqn:Ec; [|injection H as <- <-; auto].
  change ((run_pending f ;; mmod (set_commit None)) s = (r, s')) in H. unfold mbind in H. destruct (run_pending f s) as [r1 s1] eqn:E1.
  destruct (k_pending f _ _ _ _ _ _ (conj eq_refl (conj eq_refl eq_refl)) E1) as (H1 & H2 & H3).
  destruct r1 as [u|x| |]; unfold mmod in H; injection H as <- <-; cbn; rewrite ?H1, ?H2, ?H3; auto.
Qed.
Lemma b_commit : preserves bend commit.
Proof. intros s r s' Hs H. destruct (commit_keeps _ _ _ H) as (_ & E1 & _). unfold bend. rewrite E1. exact Hs. Qed.
Lemma add_max {E} dbg a b c : u64_add (E := E) dbg a b = ROk c -> c <= U64_MAX.
Proof.
  unfold u64_add. destruct (N.ltb_spec (a + b) U64_MOD) as [Hl|Hl]; [intros H'; injection H' as <-; unfold U64_MOD, U64_MAX in *; lia|].
  destruct dbg; [discriminate|]. intros H'. injection H' as <-.
  pose proof (N.mod_lt (a + b) U64_MOD). unfold U64_MOD, U64_MAX in *. lia.
Qed.

(** ** The invariant of histories *)
Definition sane (s : stream) : Prop := pinv 0 0 s /\ bend s.
Lemma s_both {E A} (m : M stream E A) : preserves (pinv 0 0) m -> preserves bend m -> preserves sane m.
Proof. intros H1 H2 s r s' [Ha Hb] H. split; [exact (H1 _ _ _ Ha H)|exact (H2 _ _ _ Hb H)]. Qed.
Lemma s_keep {E A} (m : M stream E A) : preserves (pinv 0 0) m -> keeps m -> preserves sane m.
Proof. intros H1 H2. apply s_both; [exact H1|now apply keeps_bend]. Qed.
Lemma s_commit_p : preserves sane commit.
Proof. apply s_both; [apply p_commit|apply b_commit]. Qed.
Lemma s_decode : preserves sane s_decode_u64.
Proof. apply s_keep; [apply p_decode|apply k_decode]. Qed.
Lemma s_next_blob : preserves sane next_blob.
Proof.
  intros s r s' Hs H. split; [exact (p_next_blob 0 0 _ _ _ (proj1 Hs) H)|]. unfold next_blob in H. unfold mbind at 1 in H. destruct (s_decode_u64 s) as [r1 s1] eqn:E1.
  destruct (s_decode _ _ _ Hs E1) as [H1 H2]. destruct r1 as [len|x| |]; try (injection H as <- <-; exact H2).
  unfold mbind, lift_io, check_advance_pos in H. destruct (N.ltb_spec (U64_MAX - s_pos s1) len) as [Hl|Hl]; [injection H as <- <-; exact H2|].
  unfold mmod, mret in H. injection H as <- <-. unfold bend. scbn. destruct H1 as [H1 _]. lia.
Qed.
Lemma s_mod {E} f : (forall s, pinv 0 0 s -> pinv 0 0 (f s)) -> (forall s, s_blob_end (f s) = s_blob_end s) -> preserves (E := E) sane (mmod f).
Proof. intros H1 H2. apply pr_mod. intros s [Ha Hb]. split; [now apply H1|]. unfold bend. rewrite H2. exact Hb. Qed.
Lemma s_incr : preserves sane incr_depth.
Proof. intros s r s' Hs H. unfold incr_depth in H. destruct (u64_add _ _ _); injection H as <- <-; exact Hs. Qed.
Lemma s_value ty : preserves sane (next_value ty).
Proof.
  destruct ty; cbn [next_value].
  - apply pr_bind; [apply s_decode|intros d]. apply pr_bind; [apply s_incr|intros; apply pr_ret].
  - apply pr_bind; [apply s_decode|intros; apply pr_ret].
  - apply pr_bind; [apply s_next_blob|intros; apply pr_ret].
  - apply pr_bind; [apply s_incr|intros; apply pr_ret].
Qed.
Lemma s_step sp u : preserves sane (next_element_step sp u).
Proof.
  unfold next_element_step. apply pr_bind; [apply pr_get|intros s0]. cbv zeta. apply pr_bind; [apply s_keep; [apply p_rb|apply k_rb]|intros b].
  destruct (parse_desc b) as [[ty tag|[]]|]; [| | | | |apply pr_panic].
  - apply pr_bind; [apply pr_mod; intros s Hs; destruct (s_depth s =? 0); exact Hs|intros _u]. apply pr_bind; [apply pr_get|intros s1]. apply pr_bind; [apply s_value|intros; apply pr_ret].
  - apply pr_bind; [apply pr_mod; intros s Hs; destruct (0 <? s_depth s); exact Hs|intros; apply pr_ret].
  - apply pr_bind; [apply pr_mod; intros s Hs; exact Hs|intros _u]. apply pr_bind; [apply pr_mod; intros s Hs; exact Hs|intros; apply pr_ret].
  - apply pr_bind; [apply s_next_blob|intros; apply pr_ret].
  - apply pr_if; apply pr_ret.
Qed.
Lemma s_impl sp : preserves sane (next_element_impl sp).
Proof.
  intros s r s' Hs H. unfold next_element_impl in H. destruct (s_eof s); [injection H as <- <-; exact Hs|]. revert Hs H.
  apply pr_bind; [apply s_commit_p|intros _u]. apply pr_mloop. intros a. apply s_step.
Qed.
Lemma s_wall bs : preserves sane (write_all sch t_write bs).
Proof. apply s_keep; [apply p_wall|apply k_wall]. Qed.
Lemma s_desc d : preserves sane (write_desc d).
Proof.
  unfold write_desc. apply pr_bind; [apply s_commit_p|intros _u]. apply (pr_fun _ (fun s0 => let* b := mres (desc_byte (s_dbg s0) d) in lift_io (write_all sch t_write [b]))).
  intros s0. apply pr_bind; [apply pr_res|intros b]. apply pr_lift, s_wall.
Qed.
Lemma s_encode n : preserves sane (s_encode_u64 n).
Proof. unfold s_encode_u64. destruct (encode_u64 n); [apply pr_lift, s_wall|apply pr_panic]. Qed.

(** ** The errors of [commit] *)
Lemma seek_cur s z r s' : (0 <= Z.of_N (d_pos (s_dev s)) + z <= Z.of_N U64_MAX)%Z -> on_dev (dev_seek (SkCur z)) s = (r, s') ->
  r = RErr IoOther \/ (r = ROk (Z.to_N (Z.of_N (d_pos (s_dev s)) + z)) /\ d_pos (s_dev s') = Z.to_N (Z.of_N (d_pos (s_dev s)) + z) /\ s_pos s' = s_pos s).
Proof.
  intros Hz H. unfold on_dev, dev_seek in H. cbv zeta in H.
  replace ((Z.of_N (d_pos (s_dev s)) + z <? 0)%Z) with false in H by (symmetry; apply Z.ltb_ge; lia).
  replace ((Z.of_N U64_MAX <? Z.of_N (d_pos (s_dev s)) + z)%Z) with false in H by (symmetry; apply Z.ltb_ge; lia).
  destruct (d_sched (s_dev s)) as [|[c| |] sc]; cbn [orb] in H; injection H as <- <-; auto.
Qed.
Lemma finish_err s x s' : pinv 0 0 s -> s_commit s = Some CFinishDyn -> finish_dynamic_blob s = (RErr x, s') ->
  x = SPosBeforeDynBlob /\ s_pos s < s_dyn_start s \/ x = SOverlongDynBlob /\ s' = s \/ x = SIo IoOther.
Proof.
  intros HP Hc H. unfold finish_dynamic_blob in H. pose proof HP as (P1 & P2 & P3). pose proof (P3 Hc) as Hdy. rewrite !N.add_0_r in P2.
  destruct (N.ltb_spec (s_pos s) (s_dyn_start s)) as [Hl|Hl]; [injection H as <- <-; left; auto|].
  unfold mbind at 1, mres at 1 in H. rewrite u64_sub_ok in H by lia.
  unfold mbind at 1, mres at 1 in H. rewrite u64_sub_ok in H by lia.
  set (disp := s_pos s - (s_dyn_start s - 10)) in *. assert (Hdp : disp <= s_pos s) by (unfold disp; lia).
  destruct (I64_MAX <? disp); [injection H as <- <-; auto|]. right. right.
  unfold mbind at 1, lift_io at 1 in H.
  destruct (on_dev (dev_seek (SkCur (- Z.of_N disp))) s) as [r1 s1] eqn:E1.
  assert (Hz : (0 <= Z.of_N (d_pos (s_dev s)) + - Z.of_N disp <= Z.of_N U64_MAX)%Z) by lia.
  destruct (seek_cur _ _ _ _ Hz E1) as [->|(-> & H1 & H2)]; [injection H as <- <-; reflexivity|].
  unfold mbind at 1, mmod at 1 in H. set (s2 := set_pos_ (s_pos s1 - disp) s1) in *.
  destruct (seek_pos _ _ _ _ E1) as (Hp1 & Hsr1 & Hr1).
  assert (Hs2 : pinv 0 0 s2).
  { unfold s2. split; [scbn; lia|]. split; [scbn; lia|]. eapply (dynok_same s); [|exact P3]. unfold same_rest in *; scbn; tauto. }
  assert (Hp2 : s_pos s2 = s_dyn_start s - 10) by (unfold s2; scbn; unfold disp; lia).
  unfold mbind at 1, lift_io at 1 in H.
  destruct (write_all sch t_write _ s2) as [r3 s3] eqn:E3.
  pose proof (p_wall _ _ _ _ _ _ Hs2 E3) as HP3.
  destruct r3 as [[]|e| |]; try discriminate.
  2: { injection H as <- <-. destruct (eo_wall_t _ _ _ _ E3) as [<-|[]]. reflexivity. }
  apply wall_ok_pos in E3; [|apply Hs2]. change (lenN (encode_fixed_u64 _)) with 10 in E3.
  unfold mbind at 1, lift_io at 1 in H.
  destruct (on_dev (dev_seek _) s3) as [r4 s4] eqn:E4. destruct HP3 as (Q1 & Q2 & Q3).
  assert (Hz4 : (0 <= Z.of_N (d_pos (s_dev s3)) + Z.of_N (s_pos s - s_dyn_start s) <= Z.of_N U64_MAX)%Z) by lia.
  destruct (seek_cur _ _ _ _ Hz4 E4) as [->|(-> & _)]; [injection H as <- <-; reflexivity|discriminate].
Qed.
Definition ec {A} (ok : serr -> Prop) (m : SM A) : Prop := forall s x s', sane s -> m s = (RErr x, s') -> ok x.
Lemma ec_bind {A B} ok (m : SM A) (f : A -> SM B) : ec ok m -> preserves sane m -> (forall a, ec ok (f a)) -> ec ok (mbind m f).
Proof.
  intros Hm Hp Hf s x s' Hs H. unfold mbind in H. destruct (m s) as [[a|y| |] s1] eqn:E1; try discriminate.
  - exact (Hf a _ _ _ (Hp _ _ _ Hs E1) H).
  - injection H as <- <-. exact (Hm _ _ _ Hs E1).
Qed.
Lemma ec_eo {A} (ok ok' : serr -> Prop) (m : SM A) : eo ok' m -> (forall x, ok' x -> ok x) -> ec ok m.
Proof. intros Hm Hi s x s' _ H. apply Hi. exact (Hm _ _ _ H). Qed.
Lemma ec_weak {A} (ok ok' : serr -> Prop) (m : SM A) : ec ok' m -> (forall x, ok' x -> ok x) -> ec ok m.
Proof. intros Hm Hi s x s' Hs H. apply Hi. exact (Hm _ _ _ Hs H). Qed.
Lemma ec_commit : ec closing_error commit.
Proof.
  intros s x s' [HP HB] H. unfold commit in H. destruct (s_commit s) as [f|] eqn:Ec; [|discriminate].
  assert (X : run_pending f s = (RErr x, s')).
  { change ((run_pending f ;; mmod (set_commit None)) s = (RErr x, s')) in H. unfold mbind in H. destruct (run_pending f s) as [[u|y| |] s1]; try discriminate. exact H. }
  destruct f; cbn [run_pending] in X.
  - exact (plain_closing _ (eo_skip_blob _ _ _ X)).
  - unfold check_at_end_of_blob in X. destruct (N.eqb_spec (s_pos s) (s_blob_end s)) as [|Hn]; [discriminate|].
    destruct (u64_sub (E := serr) (s_dbg s) (s_blob_end s) (s_pos s)) as [n|y| |] eqn:E1; try discriminate. injection X as <- <-. cbn.
    apply (sub_pos _ _ _ _ HB (proj1 HP) (fun h => Hn (eq_sym h)) E1).
  - destruct (finish_err _ _ _ HP Ec X) as [[-> _]|[[-> _]| ->]]; [exact Logic.I|exact Logic.I|reflexivity].
Qed.

(** ** The calls *)
Definition el_err (x : serr) : Prop := closing_error x \/ io_error [IoUnexpectedEof] x \/ x = SIntegerOverflow \/ x = SOverwideInteger.
Lemma elem_el x : elem_error x -> el_err x.
Proof.
  intros [(k & [<-|[<-|[]]] & ->)|[->| ->]]; [left; reflexivity| |right; right; left; reflexivity|right; right; right; reflexivity].
  right. left. exists IoUnexpectedEof. split; [left|]; reflexivity.
Qed.
Lemma ec_impl sp : ec el_err (next_element_impl sp).
Proof.
  intros s x s' Hs H. unfold next_element_impl in H. destruct (s_eof s); [discriminate|]. revert Hs H. revert s x s'.
  apply ec_bind; [exact (ec_weak _ _ _ ec_commit (fun x h => or_introl h))|apply s_commit_p|]. intros _u.
  apply (ec_eo _ elem_error); [apply eo_loop; intros; apply eo_step|apply elem_el].
Qed.
Lemma ec_loop {A B} ok (step : A -> SM (A + B)) a : (forall a, ec ok (step a)) -> (forall a, preserves sane (step a)) -> ec ok (mloop step a).
Proof.
  intros He Hp. assert (Hi : forall p a, ec ok (miter p step a)).
  { intros p. induction p as [q IH|q IH|]; intros x; cbn [miter]; [| |apply He].
    - apply ec_bind; [apply He|apply Hp|]. intros [y|y]; [|intros s z s' _ H; discriminate].
      apply ec_bind; [apply IH|apply pr_miter; exact Hp|]. intros [z|z]; [apply IH|intros s z' s' _ H; discriminate].
    - apply ec_bind; [apply IH|apply pr_miter; exact Hp|]. intros [z|z]; [apply IH|intros s z' s' _ H; discriminate]. }
  unfold mloop. apply ec_bind; [apply Hi|apply pr_miter; exact Hp|]. intros [z|z] s y s' _ H; discriminate.
Qed.
Lemma ec_ret {A} ok (a : A) : ec ok (mret a).
Proof. intros s x s' _ H. discriminate. Qed.
Lemma s_skip_up d : preserves sane (skip_up d).
Proof.
  unfold skip_up. apply pr_mloop. intros u. apply pr_bind; [apply pr_get|intros s0]. apply pr_if; [|apply pr_ret]. apply pr_bind; [apply s_impl|intros; apply pr_ret].
Qed.
Lemma ec_skip_up d : ec el_err (skip_up d).
Proof.
  unfold skip_up. apply ec_loop.
  - intros u. apply ec_bind; [intros s x s' _ H; discriminate|apply pr_get|intros s0]. destruct (d <? s_depth s0); [|apply ec_ret].
    apply ec_bind; [apply ec_impl|apply s_impl|intros; apply ec_ret].
  - intros u. apply pr_bind; [apply pr_get|intros s0]. apply pr_if; [|apply pr_ret]. apply pr_bind; [apply s_impl|intros; apply pr_ret].
Qed.
Lemma ec_desc d : ec closing_error (write_desc d).
Proof.
  unfold write_desc. apply ec_bind; [apply ec_commit|apply s_commit_p|intros _u]. intros s x s' _ H. revert H.
  apply eo_bind; [apply eo_res; intros y; unfold desc_byte; destruct d as [ty tag|sp]; repeat destruct (_ : bool); discriminate|]. intros b. apply io_other, eo_wall_t.
Qed.
Lemma eo_encode n : eo plain_error (s_encode_u64 n).
Proof. unfold s_encode_u64. destruct (encode_u64 n); [apply io_plain, eo_wall_t|apply eo_panic]. Qed.
Lemma ec_encode n : ec closing_error (s_encode_u64 n).
Proof. exact (ec_eo _ _ _ (eo_encode n) plain_closing). Qed.
Lemma ec_u64 t n : ec closing_error (write_u64 t n).
Proof. unfold write_u64. apply ec_bind; [apply ec_desc|apply s_desc|intros; apply ec_encode]. Qed.
Lemma s_u64 t n : preserves sane (write_u64 t n).
Proof. unfold write_u64. apply pr_bind; [apply s_desc|intros; apply s_encode]. Qed.
Lemma ec_enum t n : ec closing_error (write_enum t n).
Proof. unfold write_enum. apply ec_bind; [apply ec_desc|apply s_desc|intros; apply ec_encode]. Qed.
Lemma s_enum t n : preserves sane (write_enum t n).
Proof. unfold write_enum. apply pr_bind; [apply s_desc|intros; apply s_encode]. Qed.
Definition al_err (len : N) (x : serr) : Prop := closing_error x \/ overlong_error len x.
Lemma ec_alloc d len : ec (al_err len) (write_desc_with_blob_alloc d len).
Proof.
  unfold write_desc_with_blob_alloc.
  assert (W : forall A (m : SM A), ec closing_error m -> ec (al_err len) m) by (intros A m Hm; apply (ec_weak _ _ _ Hm); intros; left; assumption).
  apply ec_bind; [apply W, ec_commit|apply s_commit_p|intros _u]. destruct (N.ltb_spec (U64_MAX - 11) len) as [Hl|Hl].
  { intros s x s' _ H. injection H as <- <-. right. split; [reflexivity|exact Hl]. }
  apply ec_bind; [exact (ec_eo _ _ _ (io_other _ (eo_check _)) (fun x h => or_introl h))|apply pr_lift, pr_check|intros _v].
  apply ec_bind; [apply W, ec_desc|apply s_desc|intros _w]. apply ec_bind; [apply W, ec_encode|apply s_encode|intros _x].
  intros s x s' _ H. unfold mbind in H. destruct (u64_add _ _ _); unfold mmod, mret in H; discriminate.
Qed.
Lemma alloc_end d len s n s' : write_desc_with_blob_alloc d len s = (ROk n, s') -> n = len /\ u64_add (E := serr) (s_dbg s') (s_pos s') len = ROk (s_blob_end s') /\ s_commit s' = Some CCheckEnd.
Proof.
  unfold write_desc_with_blob_alloc. intros H. apply mbind_inv_ok in H as (u1 & s1 & _ & H). destruct (_ <? _); [discriminate|].
  apply mbind_inv_ok in H as (u2 & s2 & _ & H). apply mbind_inv_ok in H as (u3 & s3 & _ & H). apply mbind_inv_ok in H as (u4 & s4 & _ & H).
  unfold mbind in H. destruct (u64_add (s_dbg s4) (s_pos s4) len) as [e|x| |] eqn:Ea; try discriminate. unfold mmod, mret in H. injection H as <- <-. scbn. auto.
Qed.
Lemma b_alloc d len : preserves bend (write_desc_with_blob_alloc d len).
Proof.
  unfold write_desc_with_blob_alloc.
  assert (Bd : preserves bend (write_desc d)).
  { unfold write_desc. apply pr_bind; [apply b_commit|intros _u]. apply (pr_fun _ (fun s0 => let* b := mres (desc_byte (s_dbg s0) d) in lift_io (write_all sch t_write [b]))).
    intros s0. apply pr_bind; [apply pr_res|intros b]. apply pr_lift, keeps_bend, k_wall. }
  apply pr_bind; [apply b_commit|intros _u]. apply pr_if; [apply pr_fail|]. apply pr_bind; [apply pr_lift, pr_check|intros _v].
  apply pr_bind; [exact Bd|intros _w]. apply pr_bind; [unfold s_encode_u64; destruct (encode_u64 len); [apply pr_lift, keeps_bend, k_wall|apply pr_panic]|intros _x].
  apply pr_bind; [|intros _y; apply pr_bind; [apply pr_mod; intros s Hs; exact Hs|intros; apply pr_ret]].
  intros s r s' Hs H. destruct (u64_add (E := serr) (s_dbg s) (s_pos s) len) as [e|x| |] eqn:Ea; injection H as <- <-; try exact Hs. exact (add_max _ _ _ _ Ea).
Qed.
Lemma s_alloc d len : preserves sane (write_desc_with_blob_alloc d len).
Proof. apply s_both; [apply p_alloc|apply b_alloc]. Qed.
Definition data_of (al : SM N) (data : bytes) : SM N := let* len := al in lift_io (b_write_all data) ;; mret len.
Lemma ec_data d data : ec (al_err (lenN data)) (data_of (write_desc_with_blob_alloc d (lenN data)) data).
Proof.
  intros s x s' Hs H. unfold data_of in H. unfold mbind at 1 in H. destruct (write_desc_with_blob_alloc d (lenN data) s) as [r1 s1] eqn:E1.
  destruct r1 as [n|y| |]; try discriminate; [|injection H as <- <-; exact (ec_alloc d _ _ _ _ Hs E1)].
  destruct (alloc_end _ _ _ _ _ E1) as (-> & Ha & _). destruct (s_alloc d _ _ _ _ Hs E1) as [HP1 HB1]. pose proof (y_alloc 0 0 d _ _ _ _ (proj1 Hs) E1) as Hin.
  assert (He : s_pos s1 + lenN data <= s_blob_end s1).
  { unfold u64_add in Ha. destruct (_ <? _); [injection Ha as <-; lia|]. destruct (s_dbg s1); [discriminate|]. injection Ha as Ha. unfold inblob in Hin. rewrite <- Ha in *.
    destruct HP1 as [Hp1 _]. assert (lenN data <= U64_MAX) by (destruct Hin as (? & ? & ?); lia).
    destruct (N.lt_ge_cases (s_pos s1 + lenN data) U64_MOD) as [Hlt|Hge]; [rewrite N.mod_small by exact Hlt; lia|]. exfalso.
    assert (Hm : (s_pos s1 + lenN data) mod U64_MOD = s_pos s1 + lenN data - U64_MOD).
    { symmetry. apply (N.mod_unique _ _ 1); unfold U64_MOD, U64_MAX in *; lia. }
    rewrite Hm in Hin. unfold U64_MOD, U64_MAX in *. lia. }
  unfold mbind, lift_io in H. destruct (b_write_all data s1) as [[u|k| |] s2] eqn:E2; try discriminate. injection H as <- <-.
  left. cbn. exact (eo_wall_room _ _ _ _ He HB1 E2).
Qed.
Lemma s_data d data : preserves sane (data_of (write_desc_with_blob_alloc d (lenN data)) data).
Proof.
  apply s_both.
  - apply (yp_data 0 0); [apply p_alloc|apply y_alloc].
  - unfold data_of. apply pr_bind; [apply b_alloc|intros n]. apply pr_bind; [|intros; apply pr_ret]. apply pr_lift, keeps_bend. intros c d' e. apply pr_write_all. intros; apply k_bwrite.
Qed.
Lemma ec_dyn d : ec closing_error (write_desc_with_blob_dynamic d).
Proof.
  unfold write_desc_with_blob_dynamic. apply ec_bind; [apply ec_desc|apply s_desc|intros _u]. intros s x s' _. 
  apply eo_bind; [apply eo_res; intros; apply sub_err|intros a]. apply eo_bind; [apply eo_res; intros; apply sub_err|intros len].
  apply eo_bind; [apply io_other, eo_wall_t|intros _v]. apply eo_bind; [apply eo_mod|intros _w].
  apply eo_bind; [|intros _x; apply eo_bind; [apply eo_mod|intros; apply eo_ret]].
  intros s1 y s2 H. destruct (u64_add _ _ _); discriminate.
Qed.
Lemma b_dyn d : preserves bend (write_desc_with_blob_dynamic d).
Proof.
  assert (Bd : preserves bend (write_desc d)).
  { unfold write_desc. apply pr_bind; [apply b_commit|intros _u]. apply (pr_fun _ (fun s0 => let* b := mres (desc_byte (s_dbg s0) d) in lift_io (write_all sch t_write [b]))).
    intros s0. apply pr_bind; [apply pr_res|intros b]. apply pr_lift, keeps_bend, k_wall. }
  unfold write_desc_with_blob_dynamic. apply pr_bind; [exact Bd|intros _u]. intros s r s' Hs H. revert Hs H.
  apply pr_bind; [apply pr_res|intros a]. apply pr_bind; [apply pr_res|intros len].
  apply pr_bind; [apply pr_lift, keeps_bend, k_wall|intros _v]. apply pr_bind; [apply pr_mod; intros x Hx; exact Hx|intros _w].
  apply pr_bind; [|intros _x; apply pr_bind; [apply pr_mod; intros x Hx; exact Hx|intros; apply pr_ret]].
  intros s1 r1 s2 Hs H. destruct (u64_add (E := serr) (s_dbg s1) (s_pos s1) len) as [e|y| |] eqn:Ea; injection H as <- <-; try exact Hs. exact (add_max _ _ _ _ Ea).
Qed.
Lemma s_dyn d : preserves sane (write_desc_with_blob_dynamic d).
Proof. apply s_both; [apply p_dyn|apply b_dyn]. Qed.
Lemma ec_fun {A} ok (f : stream -> SM A) : (forall s0, ec ok (f s0)) -> ec ok (fun s => f s s).
Proof. intros Hf s x s' Hs H. exact (Hf s _ _ _ Hs H). Qed.
Lemma ec_pad al : ec closing_error (pad_to_align al).
Proof.
  unfold pad_to_align. apply (ec_fun _ (fun s0 => _)). intros s0. apply ec_bind; [|apply pr_res|intros m].
  { intros s x s' _ H. injection H as H _. now apply sub_err in H. }
  apply ec_bind; [destruct (_ && _)%bool; intros s x s' _ H; discriminate|apply pr_if; [apply pr_panic|apply pr_ret]|intros _u]. apply ec_bind; [apply ec_commit|apply s_commit_p|intros _v].
  apply ec_loop.
  - intros u. apply ec_bind; [intros s x s' _ H; discriminate|apply pr_get|intros s]. destruct (_ =? 0); [apply ec_ret|].
    apply ec_bind; [apply ec_desc|apply s_desc|intros; apply ec_ret].
  - intros u. apply pr_bind; [apply pr_get|intros s]. apply pr_if; [apply pr_ret|]. apply pr_bind; [apply s_desc|intros; apply pr_ret].
Qed.
Lemma s_pad al : preserves sane (pad_to_align al).
Proof.
  unfold pad_to_align. apply (pr_fun _ (fun s0 => _)). intros s0. apply pr_bind; [apply pr_res|intros m].
  apply pr_bind; [apply pr_if; [apply pr_panic|apply pr_ret]|intros _u]. apply pr_bind; [apply s_commit_p|intros _v].
  apply pr_mloop. intros u. apply pr_bind; [apply pr_get|intros s]. apply pr_if; [apply pr_ret|]. apply pr_bind; [apply s_desc|intros; apply pr_ret].
Qed.
Lemma eo_start {E} (ok : E -> Prop) len : eo ok (b_start_pos len).
Proof. apply eo_still. intros. apply sub_err. Qed.
Lemma eo_inner {E} (ok : E -> Prop) len : eo ok (b_inner_pos len).
Proof. apply eo_bind; [apply eo_rem|intros r]. apply eo_still. intros. apply sub_err. Qed.
Lemma eo_devseek w : eo (only [IoOther; IoInvalidInput]) (on_dev (dev_seek w)).
Proof.
  intros s x s' H. unfold on_dev, dev_seek in H.
  destruct (d_sched (s_dev s)) as [|[c| |] sc]; try (destruct (_ || _)%bool); try discriminate; injection H as <- <-; first [left; reflexivity|right; left; reflexivity].
Qed.
Lemma eo_neg {E} (ok : E -> Prop) dbg z : eo (A := N) ok (mres (i64_neg dbg z)).
Proof. apply eo_res. intros x H. unfold i64_neg in H. destruct (z =? _)%Z; [destruct dbg|]; discriminate. Qed.
Lemma eo_target len w : eo (only [IoOther; IoInvalidInput]) (b_seek_target len w).
Proof.
  set (ok := only [IoOther; IoInvalidInput]).
  assert (Ha : forall p q : stream -> N, eo ok (fun s => (u64_add (s_dbg s) (p s) (q s), s))) by (intros p q; apply eo_still; intros; apply add_err).
  assert (Hsb : forall p q : stream -> N, eo ok (fun s => (u64_sub (s_dbg s) (p s) (q s), s))) by (intros p q; apply eo_still; intros; apply sub_err).
  assert (Hf : eo (A := N) ok (mfail IoInvalidInput)) by (apply eo_fail; right; left; reflexivity).
  intros s r s'. unfold b_seek_target. destruct w as [p|off|off].
  - apply eo_if; [|exact Hf]. apply eo_bind; [apply eo_start|intros st]. apply (Ha (fun _ => st) (fun _ => p)).
  - apply eo_if; [|exact Hf]. apply eo_bind; [apply eo_neg|intros o]. apply eo_if; [|exact Hf]. apply eo_bind; [apply eo_start|intros st].
    apply (Ha (fun _ => st) (fun _ => len - o)).
  - apply eo_if.
    + apply eo_bind; [apply eo_neg|intros o]. apply eo_bind; [apply eo_inner|intros ip]. apply eo_if; [|exact Hf]. apply (Hsb s_pos (fun _ => o)).
    + cbv zeta. apply eo_bind; [apply eo_rem|intros rem]. apply eo_if; [|exact Hf]. apply (Ha s_pos (fun _ => Z.to_N off)).
Qed.
Lemma eo_bseek len w : eo (only [IoOther; IoInvalidInput]) (b_seek len w).
Proof.
  unfold b_seek. apply eo_bind; [apply eo_target|intros pos]. apply eo_bind; [|intros _u; apply eo_inner].
  intros s r s'. cbv zeta. destruct (pos <? s_pos s); (destruct (_ <? _); [intros H; injection H as <- <-; left; reflexivity|]);
    (apply eo_bind; [apply eo_devseek|intros _u; apply eo_mod]).
Qed.
Lemma eo_bslice : eo (fun x => exists missing, x = STruncatedBlob missing /\ 0 < missing) b_slice.
Proof.
  unfold b_slice. apply eo_bind; [apply eo_rem|intros rem]. apply eo_bind.
  - intros s r s' H. unfold as_slice in H. destruct (_ <? _); discriminate.
  - intros buf. destruct (N.leb_spec rem (lenN buf)) as [|E]; [apply eo_ret|]. apply eo_fail. eexists; split; [reflexivity|lia].
Qed.
Lemma eo_bop len o : eo (blob_error o) (bop_run len o).
Proof.
  assert (V : forall A (m : SM A) (f : A -> bval) ok, eo ok m -> eo ok (mbind m (fun a => mret (f a)))).
  { intros A m f ok Hm. apply eo_bind; [exact Hm|]. intros a. apply eo_ret. }
  destruct o; cbn [bop_run blob_error].
  - apply (V bytes), eo_io, eo_bread.
  - apply (V bytes), eo_io, eo_exact, eo_bread.
  - apply (V bytes). unfold b_read_fully. apply eo_bind; [apply eo_rem|intros rem]. destruct (N.ltb_spec max rem) as [Hl|Hl].
    + apply eo_fail. right. eauto.
    + apply (eo_weak _ (io_error [IoOther])); [left; assumption|]. apply eo_io, eo_upto, eo_bread.
  - apply (V bytes), eo_io, eo_upto, eo_bread.
  - apply eo_bind; [apply eo_io|intros b; apply eo_bind; [apply eo_io|intros; apply eo_ret]].
    + unfold b_fill_buf. apply eo_bind; [apply eo_rem|intros rem]. apply eo_bind.
      * intros s x s' H. unfold on_dev, dev_fill_buf, sched_next in H. destruct (d_sched (s_dev s)) as [|[c| |] sc]; try discriminate; injection H as <- <-; [right; left|left]; reflexivity.
      * intros buf. apply eo_checks; [left; reflexivity|intros; apply eo_ret].
    + unfold b_consume. apply eo_bind; [apply eo_rem|intros rem]. intros s x s' H. cbv zeta in H. destruct (_ && _)%bool; [discriminate|]. destruct (u64_add _ _ _); discriminate.
  - apply (V bytes), eo_bslice.
  - apply (V N), eo_io, eo_bwrite.
  - apply (V unit _ (fun _ => BUnit)), eo_io, eo_wall, eo_bwrite.
  - apply (V unit _ (fun _ => BUnit)). unfold b_slice_mut_set. apply eo_bind; [apply eo_bslice|intros cur]. apply eo_if; [apply eo_mod|apply eo_ret].
  - apply (V N), eo_io, eo_bseek.
  - apply eo_bind; [apply eo_rem|intros r]. apply eo_bind; [apply eo_start|intros st]. apply eo_bind; [apply eo_inner|intros ip]. apply eo_bind; [apply eo_get|intros; apply eo_ret].
Qed.
Lemma ec_next : ec (proper_error CNextField) next_field.
Proof.
  unfold next_field. apply ec_bind; [|apply s_impl|].
  { apply (ec_weak _ el_err); [apply ec_impl|]. intros x [H|[H|[H|H]]]; cbn [proper_error]; tauto. }
  intros [f| | |len|]; try apply ec_ret; [|intros s x s' _ H; discriminate].
  intros s x s' _ H. unfold mbind in H. destruct (b_read_or_trunc 256 s) as [[m|y| |] s1] eqn:E1; try discriminate.
  - injection H as <- <-. cbn [proper_error]. right. right. right. right. exists m. split; [reflexivity|]. unfold b_read_or_trunc, lift_io in E1.
    destruct (read_upto sch b_read 256 s) as [[m'|x| |] s2] eqn:E2; try discriminate. injection E1 as -> _. exact (P_Errs.upto_short _ _ _ _ _ P_Errs.bread_short E2).
  - injection H as <- <-. left. exact (io_other _ (eo_upto b_read 256 eo_bread) _ _ _ E1).
Qed.
Lemma ec_reset p : ec closing_error (reset_pos p).
Proof.
  unfold reset_pos. apply ec_bind; [apply ec_commit|apply s_commit_p|intros _u]. intros s x s' _ H. discriminate.
Qed.
Lemma reset_none p s : s_commit s = None -> reset_pos p s = (ROk tt, set_pos_ p (set_dyn_start 0 (set_blob_end 0 s))).
Proof. intros H. unfold reset_pos, mbind, commit. rewrite H. reflexivity. Qed.
Lemma seek_sane w s r s' : sane s -> st_seek w s = (r, s') -> sane s' /\ forall x, r = RErr x -> proper_error (CSeek w) x.
Proof.
  intros Hs H. unfold st_seek in H. unfold mbind at 1 in H. destruct (commit s) as [r1 s1] eqn:E1. pose proof (s_commit_p _ _ _ Hs E1) as Hs1.
  destruct r1 as [[]|y| |]; try (injection H as <- <-; (split; [exact Hs1|]); intros x Hx; try discriminate; injection Hx as <-; left; exact (ec_commit _ _ _ Hs E1)).
  apply commit_none in E1. unfold mbind at 1, lift_io in H. destruct (on_dev (dev_seek w) s1) as [r2 s2] eqn:E2.
  destruct (seek_pos _ _ _ _ E2) as (Hp2 & Hsr2 & Hr2). assert (Hc2 : s_commit s2 = None) by (destruct Hsr2 as (_ & _ & _ & _ & _ & _ & -> & _); exact E1).
  destruct Hs1 as [(P1 & P2 & P3) HB]. rewrite !N.add_0_r in P2.
  destruct r2 as [off|k| |].
  - unfold mbind in H. rewrite (reset_none _ _ Hc2) in H. unfold mmod, mret in H. injection H as <- <-. split; [|discriminate].
    destruct Hr2 as (H1 & H2 & H3). split; [split; [scbn; exact H3|split; [scbn; lia|unfold dynok; scbn; rewrite Hc2; discriminate]]|unfold bend; scbn; lia].
  - injection H as <- <-. split.
    + split; [split; [lia|split; [lia|unfold dynok; rewrite Hc2; discriminate]]|]. unfold bend. destruct Hsr2 as (_ & -> & _). exact HB.
    + intros x Hx. injection Hx as <-. destruct (eo_devseek _ _ _ _ E2) as [<-|[<-|[]]]; [left; reflexivity|right; exists IoInvalidInput; split; [left|]; reflexivity].
  - injection H as <- <-. split; [|discriminate]. split; [split; [lia|split; [lia|unfold dynok; rewrite Hc2; discriminate]]|]. unfold bend. destruct Hsr2 as (_ & -> & _). exact HB.
  - injection H as <- <-. split; [|discriminate]. split; [split; [lia|split; [lia|unfold dynok; rewrite Hc2; discriminate]]|]. unfold bend. destruct Hsr2 as (_ & -> & _). exact HB.
Qed.
Lemma sane_next : preserves sane next_field.
Proof.
  intros s r s' Hs H. split; [exact (p_next_field 0 0 _ _ _ (proj1 Hs) H)|]. unfold next_field in H. unfold mbind at 1 in H.
  destruct (next_element_impl true s) as [r1 s1] eqn:E1. destruct (s_impl true _ _ _ Hs E1) as [_ HB].
  destruct r1 as [[f| | |len|]|x| |]; try (injection H as <- <-; exact HB).
  revert HB H. apply pr_bind; [|intros; apply pr_fail]. apply pr_lift, keeps_bend. intros c d e. apply pr_read_upto. intros; apply k_bread.
Qed.
Lemma call_bend op c s r s' : no_reset c -> sane s -> call_run op c s = (r, s') -> bend s'.
Proof.
  intros Hn Hs H.
  assert (U : forall A (m : SM A) (f : A -> cval), preserves sane m -> (let* a := m in mret (f a)) s = (r, s') -> bend s').
  { intros A m f Hm Hx. unfold mbind in Hx. destruct (m s) as [r1 s1] eqn:E1. pose proof (proj2 (Hm _ _ _ Hs E1)) as HB. destruct r1; injection Hx as <- <-; exact HB. }
  destruct c; cbn [call_run] in H; unfold ret_unit in H; try contradiction.
  - exact (U _ _ VElem (s_impl false) H).
  - exact (U _ _ VField sane_next H).
  - exact (U _ _ (fun _ => VUnit_) (s_skip_up depth) H).
  - destruct op as [|len|f]; try (injection H as <- <-; exact (proj2 Hs)). refine (U _ _ (fun _ => VUnit_) _ H).
    unfold field_skip. destruct (f_val f); try apply pr_ret; apply s_skip_up.
  - exact (U _ _ (fun _ => VUnit_) s_commit_p H).
  - exact (U _ _ VNum (fun a b c h1 h2 => proj1 (seek_sane w a b c h1 h2)) H).
  - refine (U _ _ (fun _ => VUnit_) _ H). apply pr_mod. intros x Hx; exact Hx.
  - refine (U _ _ (fun _ => VUnit_) _ H). apply pr_mod. intros x Hx; exact Hx.
  - refine (U _ _ (fun _ => VUnit_) _ H). apply pr_mod. intros x Hx; exact Hx.
  - exact (U _ _ (fun _ => VUnit_) (s_u64 _ _) H).
  - exact (U _ _ (fun _ => VUnit_) (s_u64 _ _) H).
  - exact (U _ _ VBlobLen (s_data _ _) H).
  - exact (U _ _ VBlobLen (s_alloc _ _) H).
  - exact (U _ _ VBlobLen (s_dyn _) H).
  - exact (U _ _ VBlobLen (s_data _ _) H).
  - exact (U _ _ VBlobLen (s_alloc _ _) H).
  - exact (U _ _ VBlobLen (s_dyn _) H).
  - exact (U _ _ (fun _ => VUnit_) (s_desc _) H).
  - exact (U _ _ (fun _ => VUnit_) (s_enum _ _) H).
  - exact (U _ _ (fun _ => VUnit_) (s_desc _) H).
  - exact (U _ _ (fun _ => VUnit_) (s_desc _) H).
  - exact (U _ _ (fun _ => VUnit_) (s_desc _) H).
  - exact (U _ _ (fun _ => VUnit_) (s_pad _) H).
  - destruct op as [|len|f]; try (injection H as <- <-; exact (proj2 Hs)). revert H. unfold mbind. destruct (bop_run len o s) as [r1 s1] eqn:E1.
    pose proof (keeps_bend _ (k_bop len o) _ _ _ (proj2 Hs) E1) as HB. destruct r1; intros H; injection H as <- <-; exact HB.
Qed.
Lemma call_sane op c s r s' : no_reset c -> sane s -> open_ok op s -> call_run op c s = (r, s') -> sane s' /\ open_ok (opens op c r) s'.
Proof.
  intros Hn Hs Ho H. pose proof (call_bend op c s r s' Hn Hs H) as HB.
  assert (D : (exists w, c = CSeek w) \/ ~ repositions c) by (destruct c; cbn in *; auto; left; eauto).
  destruct D as [(w & ->)|D].
  - cbn [call_run] in H. unfold mbind in H. destruct (st_seek w s) as [r1 s1] eqn:E1. destruct (seek_sane w _ _ _ Hs E1) as [HP _].
    destruct r1; injection H as <- <-; (split; [exact HP|exact Logic.I]).
  - destruct (call_pos 0 0 op c s r s' D (proj1 Hs) Ho H) as [HP Ho']. split; [split; [exact HP|exact HB]|exact Ho'].
Qed.
Lemma call_proper op c s x s' : no_reset c -> sane s -> call_run op c s = (RErr x, s') -> proper_error c x.
Proof.
  intros Hn Hs H.
  assert (U : forall A (m : SM A) (f : A -> cval) (ok : serr -> Prop), ec ok m -> (let* a := m in mret (f a)) s = (RErr x, s') -> ok x).
  { intros A m f ok Hm Hx. unfold mbind in Hx. destruct (m s) as [[a|y| |] s1] eqn:E1; try discriminate. injection Hx as <- <-. exact (Hm _ _ _ Hs E1). }
  destruct c; cbn [call_run] in H; unfold ret_unit in H; cbn [proper_error]; try contradiction.
  - exact (U _ _ VElem _ (ec_impl false) H).
  - exact (U _ _ VField _ ec_next H).
  - exact (U _ _ (fun _ => VUnit_) _ (ec_skip_up depth) H).
  - destruct op as [|len|f]; try discriminate. refine (U _ _ (fun _ => VUnit_) el_err _ H).
    unfold field_skip. destruct (f_val f); try apply ec_ret; apply ec_skip_up.
  - exact (U _ _ (fun _ => VUnit_) _ ec_commit H).
  - exact (U _ _ VNum _ (fun a y c h1 h2 => proj2 (seek_sane w a _ c h1 h2) y eq_refl) H).
  - discriminate.
  - discriminate.
  - discriminate.
  - exact (U _ _ (fun _ => VUnit_) _ (ec_u64 _ _) H).
  - exact (U _ _ (fun _ => VUnit_) _ (ec_u64 _ _) H).
  - exact (U _ _ VBlobLen _ (ec_data _ _) H).
  - exact (U _ _ VBlobLen _ (ec_alloc _ _) H).
  - exact (U _ _ VBlobLen _ (ec_dyn _) H).
  - exact (U _ _ VBlobLen _ (ec_data _ _) H).
  - exact (U _ _ VBlobLen _ (ec_alloc _ _) H).
  - exact (U _ _ VBlobLen _ (ec_dyn _) H).
  - exact (U _ _ (fun _ => VUnit_) _ (ec_desc _) H).
  - exact (U _ _ (fun _ => VUnit_) _ (ec_enum _ _) H).
  - exact (U _ _ (fun _ => VUnit_) _ (ec_desc _) H).
  - exact (U _ _ (fun _ => VUnit_) _ (ec_desc _) H).
  - exact (U _ _ (fun _ => VUnit_) _ (ec_desc _) H).
  - exact (U _ _ (fun _ => VUnit_) _ (ec_pad _) H).
  - destruct op as [|len|f]; try discriminate. refine (U _ _ VBop _ (ec_eo _ _ _ (eo_bop len o) (fun y h => h)) H).
Qed.
Lemma calls_proper cs : Forall no_reset cs -> forall op s, sane s -> open_ok op s -> proper_results cs (fst (run_calls cs op s)).
Proof.
  induction 1 as [|c cs Hc Hcs IH]; intros op s Hs Ho; cbn [run_calls]; [constructor|].
  destruct (call_run op c s) as [x s1] eqn:E. destruct (call_sane op c _ _ _ Hc Hs Ho E) as [H1 H2].
  specialize (IH (opens op c x) s1 H1 H2). destruct (run_calls cs (opens op c x) s1) as [xs st]. constructor; [|exact IH].
  intros y ->. exact (call_proper op c _ _ _ Hc Hs E).
Qed.
Lemma fresh_sane dbg sk bs sched : sane (new_stream dbg sk (mkDev bs 0 sched)).
Proof. split; [split; [cbn; unfold U64_MAX; lia|split; [reflexivity|unfold dynok; discriminate]]|unfold bend; cbn; unfold U64_MAX; lia]. Qed.
Theorem errors_proper cs dbg sk bs sched : Forall no_reset cs -> proper_results cs (fst (run_calls cs ONone (new_stream dbg sk (mkDev bs 0 sched)))).
Proof. intros Hc. apply calls_proper; [exact Hc|apply fresh_sane|exact Logic.I]. Qed.
