(** * P_ReadOnly: reading leaves the input alone (C61) *)

From Verif Require Import Base Wire Dev Stream Types Prog De SpecWire SpecFormat SpecStream SpecBlob SpecHist SpecDe SpecCrash
  P_Base P_Wire P_Sched P_Read P_Write P_Pos.

Strategy 1000 [s_decode_u64 decode_u64 decode_loop write_all read_exact encode_u64 enc_loop encode_fixed_u64 mloop miter].

(** The device holds [D], its cursor is at [lo] or later, and nothing that
    was written is waiting to be finished. *)
Definition ro (D : bytes) (lo : N) (s : stream) : Prop :=
  d_data (s_dev s) = D /\ lo <= d_pos (s_dev s) /\ (s_commit s = None \/ s_commit s = Some CSkipBlob).

Lemma seek_data w s r s' : on_dev (dev_seek w) s = (r, s') -> d_data (s_dev s') = d_data (s_dev s).
Proof.
  intros H. unfold on_dev, dev_seek in H.
  destruct (d_sched (s_dev s)) as [|[c| |] sc]; cbn [tl] in H;
    lazymatch type of H with
    | context [_ || _] => destruct (_ || _); injection H as _ <-; reflexivity
    | _ => injection H as _ <-; reflexivity
    end.
Qed.

Section RO.
  Variables (D : bytes) (lo : N).
  Notation P := (ro D lo).

  Lemma ro_tread g n : preserves P (t_read g n).
  Proof.
    intros s r s' (H1 & H2 & H3) H. unfold t_read in H.
    destruct (n =? 0); [injection H as <- <-; repeat split; auto|].
    unfold mbind at 1, check_advance_pos in H. destruct (_ <? _); [injection H as <- <-; repeat split; auto|].
    unfold mbind at 1, on_dev, dev_read, sched_next in H.
    destruct (d_sched (s_dev s)) as [|[c| |] sc];
      try (injection H as <- <-; repeat split; auto; fail);
      unfold mbind, mmod, mret in H;
      match type of H with context [takeN ?k ?l] => destruct (takeN k l) as [|x l'] end;
      [destruct g| |destruct g|]; injection H as <- <-; repeat split; scbn; cbn [d_pos d_data]; auto; try lia.
  Qed.
  Lemma ro_rb g : preserves P (s_read_byte g).
  Proof.
    unfold s_read_byte. apply pr_lift, pr_bind; [apply pr_read_exact, ro_tread|].
    intros [|x l]; [apply pr_panic|apply pr_ret].
  Qed.
  Lemma ro_decode : preserves P s_decode_u64.
  Proof. apply pr_decode, ro_rb. Qed.
  Lemma ro_discard n : preserves P (skip_by_discard n).
  Proof. unfold skip_by_discard. apply pr_lift, pr_bind; [apply pr_read_upto, ro_tread|intros; apply pr_ret]. Qed.
  Lemma ro_skip_direct n : preserves P (skip_by_seek_direct n).
  Proof.
    intros s r s' HP H. unfold skip_by_seek_direct in H. unfold mbind at 1, lift_io, check_advance_pos in H.
    destruct (N.ltb_spec (U64_MAX - s_pos s) n); [injection H as <- <-; exact HP|].
    destruct (on_dev (dev_seek (SkCur (Z.of_N n))) s) as [r1 s1] eqn:E.
    destruct (seek_pos _ _ _ _ E) as (Hp & Hsr & Hr). pose proof (seek_data _ _ _ _ E) as Hd. destruct HP as (P1 & P2 & P3).
    assert (HP1 : P s1).
    { split; [congruence|]. split.
      - destruct r1 as [x|e| |]; try lia.
      - destruct Hsr as (_ & _ & _ & _ & _ & _ & Hc & _). congruence. }
    destruct r1 as [x|e| |]; try (injection H as <- <-; exact HP1). eapply ro_discard; eauto.
  Qed.
  Lemma ro_skip_seek fuel : forall n, preserves P (skip_by_seek_rec fuel n).
  Proof.
    induction fuel as [|f IH]; intros n; cbn [skip_by_seek_rec]; [apply pr_fuel|].
    apply pr_if; [|apply ro_skip_direct]. apply pr_bind; [apply IH|intros x].
    apply pr_if; [apply pr_ret|]. apply pr_bind; [apply IH|intros; apply pr_ret].
  Qed.
  Lemma ro_skip_blob : preserves P skip_blob.
  Proof.
    intros s r s' HP H. unfold skip_blob in H. cbv zeta in H.
    destruct (s_pos s <? s_blob_end s); [|injection H as <- <-; exact HP].
    revert s r s' HP H.
    intros s. generalize (s_seek s), (s_blob_end s - s_pos s). intros sk n r s' HP H. revert H. revert HP. revert s r s'.
    apply pr_bind.
    - apply pr_if; [apply ro_skip_seek|apply ro_discard].
    - intros k. apply pr_if; [apply pr_fail|apply pr_ret].
  Qed.
  Lemma ro_commit : preserves P commit.
  Proof.
    intros s r s' HP H. unfold commit in H. pose proof HP as (_ & _ & [Hc|Hc]); rewrite Hc in H; [injection H as <- <-; exact HP|].
    revert HP H. apply pr_bind; [apply ro_skip_blob|]. intros _. apply pr_mod. intros s1 (H1 & H2 & _). repeat split; auto.
  Qed.
  Lemma ro_commit_none s x s' : P s -> commit s = (ROk x, s') -> s_commit s' = None.
  Proof.
    intros (_ & _ & [Hc|Hc]) H; unfold commit in H; rewrite Hc in H; [injection H as _ <-; exact Hc|].
    apply mbind_inv_ok in H. destruct H as (u & s1 & _ & H). unfold mmod in H. injection H as _ <-. reflexivity.
  Qed.
  Lemma ro_next_blob : preserves P next_blob.
  Proof.
    unfold next_blob. apply pr_bind; [apply ro_decode|intros len]. apply pr_bind; [apply pr_lift, pr_check|intros _].
    apply pr_bind; [apply pr_mod|intros _; apply pr_bind; [apply pr_mod|intros _; apply pr_ret]].
    - intros s H. exact H.
    - intros s (H1 & H2 & H3). repeat split; auto.
  Qed.
  Lemma ro_incr : preserves P incr_depth.
  Proof. intros s r s' HP H. unfold incr_depth in H. destruct (u64_add _ _ _); injection H as <- <-; exact HP. Qed.
  Lemma ro_next_value t : preserves P (next_value t).
  Proof.
    destruct t; cbn [next_value].
    - apply pr_bind; [apply ro_decode|intros d]. apply pr_bind; [apply ro_incr|intros; apply pr_ret].
    - apply pr_bind; [apply ro_decode|intros; apply pr_ret].
    - apply pr_bind; [apply ro_next_blob|intros; apply pr_ret].
    - apply pr_bind; [apply ro_incr|intros; apply pr_ret].
  Qed.
  Lemma ro_step sp u : preserves P (next_element_step sp u).
  Proof.
    unfold next_element_step. apply pr_bind; [apply pr_get|intros s0]. apply pr_bind; [apply ro_rb|intros c].
    destruct (parse_desc c) as [[ty tag|[]]|]; try apply pr_panic.
    - apply pr_bind; [apply pr_mod|intros _].
      { intros s HP. destruct (s_depth s =? 0); exact HP. }
      apply pr_bind; [apply pr_get|intros s1]. apply pr_bind; [apply ro_next_value|intros; apply pr_ret].
    - apply pr_bind; [apply pr_mod|intros; apply pr_ret]. intros s HP. destruct (0 <? s_depth s); exact HP.
    - apply pr_bind; [apply pr_mod; auto|intros _]. apply pr_bind; [apply pr_mod; auto|intros; apply pr_ret].
    - apply pr_bind; [apply ro_next_blob|intros; apply pr_ret].
    - apply pr_if; apply pr_ret.
  Qed.
  Lemma ro_impl sp : preserves P (next_element_impl sp).
  Proof.
    intros s r s' HP H. unfold next_element_impl in H. destruct (s_eof s); [injection H as <- <-; exact HP|].
    revert HP H. apply pr_bind; [apply ro_commit|intros _]. apply pr_mloop. apply ro_step.
  Qed.
  Lemma ro_skip_up d : preserves P (skip_up d).
  Proof.
    unfold skip_up. apply pr_mloop. intros u. apply pr_bind; [apply pr_get|intros s]. apply pr_if; [|apply pr_ret].
    apply pr_bind; [apply ro_impl|intros; apply pr_ret].
  Qed.
  Lemma ro_rem {E} : preserves P (@b_remaining E).
  Proof. apply pr_pure. Qed.
  Lemma ro_bread n : preserves P (b_read n).
  Proof. unfold b_read. apply pr_bind; [apply ro_rem|intros rem]. apply pr_if; [apply pr_ret|]. apply ro_tread. Qed.
  Lemma ro_bexact n : preserves P (b_read_exact n).
  Proof. apply pr_read_exact, ro_bread. Qed.
  Lemma ro_fully n : preserves P (b_read_fully n).
  Proof. unfold b_read_fully. apply pr_bind; [apply ro_rem|intros rem]. apply pr_if; [apply pr_fail|apply pr_lift, pr_read_upto, ro_bread]. Qed.
  Lemma ro_slice {E} : preserves P (@as_slice E).
  Proof. intros s r s' HP H. unfold as_slice in H. destruct (_ <? _); injection H as <- <-; exact HP. Qed.
  Lemma ro_next_field : preserves P next_field.
  Proof.
    unfold next_field. apply pr_bind; [apply ro_impl|intros [f| | |len|]]; try apply pr_ret; try apply pr_panic.
    apply pr_bind; [apply pr_lift, pr_read_upto, ro_bread|intros m; apply pr_fail].
  Qed.
  Lemma ro_field_skip f : preserves P (field_skip f).
  Proof. unfold field_skip. destruct (f_val f); try apply pr_ret; apply ro_skip_up. Qed.
  Lemma ro_ext : preserves P b_ext_slice.
  Proof.
    unfold b_ext_slice. apply pr_bind; [apply ro_slice|intros inner]. apply pr_bind; [apply ro_rem|intros rem].
    apply pr_if; [apply pr_fail|apply pr_ret].
  Qed.

  Lemma ro_fill : preserves P b_fill_buf.
  Proof.
    unfold b_fill_buf. apply pr_bind; [apply ro_rem|intros rem]. apply pr_bind.
    - intros s r s' (H1 & H2 & H3) H. unfold on_dev, dev_fill_buf, sched_next in H.
      destruct (d_sched (s_dev s)) as [|[c| |] sc]; injection H as <- <-; repeat split; auto.
    - intros buf. apply pr_bind; [apply pr_check|intros; apply pr_ret].
  Qed.
  Lemma ro_consume n : preserves P (b_consume n).
  Proof.
    unfold b_consume. apply pr_bind; [apply ro_rem|intros rem]. intros s r s' (H1 & H2 & H3) H. cbv zeta in H.
    destruct (_ && _); [injection H as <- <-; repeat split; auto|].
    destruct (u64_add _ _ _); injection H as <- <-; repeat split; scbn; cbn [d_pos]; auto; lia.
  Qed.
  Lemma ro_bslice : preserves P b_slice.
  Proof.
    unfold b_slice. apply pr_bind; [apply ro_rem|intros rem]. apply pr_bind; [apply ro_slice|intros inner].
    apply pr_if; [apply pr_ret|apply pr_fail].
  Qed.

  (** *** Deserialisation *)
  Lemma ro_on_src {A} (m : SM A) st r st' : preserves P m -> P (x_s st) -> on_src_of m st = (r, st') -> P (x_s st').
  Proof.
    intros Hm HP H. unfold on_src_of in H. destruct (m (x_s st)) as [r1 s1] eqn:E. pose proof (Hm _ _ _ HP E) as H1.
    destruct r1; unfold xfail in H; injection H as <- <-; exact H1.
  Qed.
  Lemma ro_op cf {X : Set} (o : op X) st r st' : P (x_s st) -> run_op stream_source cf o st = (r, st') -> P (x_s st').
  Proof.
    intros HP H. destruct o; cbn [run_op] in H.
    - unfold mbind in H. destruct (on_src_of (i_next stream_source) st) as [r1 st1] eqn:E.
      pose proof (ro_on_src _ _ _ _ ro_next_field HP E) as H1. destruct r1; unfold mmod, mret in H; injection H as <- <-; exact H1.
    - destruct (x_cur st); [|injection H as <- <-; exact HP]. exact (ro_on_src _ _ _ _ (ro_field_skip f) HP H).
    - destruct (cf_ignore cf); [injection H as <- <-; exact HP|]. destruct (x_cur st); unfold xfail in H; injection H as <- <-; exact HP.
    - destruct (_ <=? _); [unfold xfail in H; injection H as <- <-; exact HP|].
      destruct at_field; [|injection H as <- <-; exact HP]. destruct (x_cur st); injection H as <- <-; exact HP.
    - unfold mmod in H. injection H as <- <-. exact HP.
    - destruct (ctx_collect _ _ _ _); unfold xfail in H; injection H as <- <-; exact HP.
    - destruct (ctx_blob _ _ _ _); unfold xfail in H; injection H as <- <-; exact HP.
    - unfold mmod in H. injection H as <- <-. exact HP.
    - unfold on_blob in H. destruct (x_cur st) as [[? ? ? []]|]; try (injection H as <- <-; exact HP). exact (ro_on_src _ _ _ _ ro_rem HP H).
    - unfold on_blob in H. destruct (x_cur st) as [[? ? ? []]|]; try (injection H as <- <-; exact HP). exact (ro_on_src _ _ _ _ (ro_fully _) HP H).
    - unfold on_blob in H. destruct (x_cur st) as [[? ? ? []]|]; try (injection H as <- <-; exact HP).
      exact (ro_on_src _ _ _ _ (pr_lift _ _ (ro_bexact n)) HP H).
    - unfold on_blob in H. destruct (x_cur st) as [[? ? ? []]|]; try (injection H as <- <-; exact HP). exact (ro_on_src _ _ _ _ ro_ext HP H).
  Qed.
  Lemma ro_run cf {A} (p : prog A) : forall st r st', P (x_s st) -> run stream_source cf p st = (r, st') -> P (x_s st').
  Proof.
    induction p as [a|x|X o k IH]; intros st r st' HP H; cbn [run] in H.
    - injection H as <- <-. exact HP.
    - destruct x; unfold xfail, mpanic in H; injection H as <- <-; exact HP.
    - unfold mbind in H. destruct (run_op stream_source cf o st) as [r1 st1] eqn:E. pose proof (ro_op cf o _ _ _ HP E) as H1.
      destruct r1; try (injection H as <- <-; exact H1). exact (IH _ _ _ _ H1 H).
  Qed.
  Lemma ro_from e zc cf t : preserves P (from_stream e zc cf t).
  Proof.
    intros s r s' HP H. unfold from_stream in H.
    destruct (run stream_source cf _ (top_rst s)) as [r1 st1] eqn:E. injection H as <- <-. exact (ro_run cf _ (top_rst s) _ _ HP E).
  Qed.
End RO.

(** ** Histories *)
Section Hist.
  Variables (D : bytes) (lo : N).
  Notation P := (ro D lo).

  Lemma ro_reset p : preserves P (reset_pos p).
  Proof.
    unfold reset_pos. apply pr_bind; [apply ro_commit|intros _].
    apply pr_bind; [apply pr_mod; auto|intros _]. apply pr_bind; [apply pr_mod; auto|intros _]. apply pr_mod; auto.
  Qed.
  Lemma ro_bop len o : match o with BWrite _ | BWriteAll _ | BSliceMut _ | BSeek _ => False | _ => True end ->
    preserves P (bop_run len o).
  Proof.
    intros Ho. destruct o; cbn [bop_run]; try contradiction.
    - apply pr_bind; [apply pr_lift, ro_bread|intros; apply pr_ret].
    - apply pr_bind; [apply pr_lift, ro_bexact|intros; apply pr_ret].
    - apply pr_bind; [apply ro_fully|intros; apply pr_ret].
    - apply pr_bind; [apply pr_lift, pr_read_upto, ro_bread|intros; apply pr_ret].
    - apply pr_bind; [apply pr_lift, ro_fill|intros b]. apply pr_bind; [apply pr_lift, ro_consume|intros; apply pr_ret].
    - apply pr_bind; [apply ro_bslice|intros; apply pr_ret].
    - apply pr_bind; [apply ro_rem|intros rem]. apply pr_bind; [apply pr_pure|intros x].
      apply pr_bind; [|intros y; apply pr_bind; [apply pr_get|intros; apply pr_ret]].
      unfold b_inner_pos. apply pr_bind; [apply ro_rem|intros; apply pr_pure].
  Qed.
  Lemma ro_call op c : reads c -> ~ seeks c -> preserves P (call_run op c).
  Proof.
    intros Hr Hs.
    assert (Hu : forall m : SM unit, preserves P m -> preserves P (ret_unit m)).
    { intros m Hm. unfold ret_unit. apply pr_bind; [exact Hm|intros; apply pr_ret]. }
    destruct c; cbn [call_run]; try (now elim Hr); try (now elim Hs); try (apply Hu).
    - apply pr_bind; [apply ro_impl|intros; apply pr_ret].
    - apply pr_bind; [apply ro_next_field|intros; apply pr_ret].
    - apply ro_skip_up.
    - destruct op; try apply pr_ret. apply Hu, ro_field_skip.
    - apply ro_commit.
    - apply ro_reset.
    - apply pr_mod; auto.
    - apply pr_mod; auto.
    - apply pr_mod; auto.
    - destruct op; try apply pr_ret. apply pr_bind; [|intros; apply pr_ret]. apply ro_bop. destruct o; auto.
  Qed.
End Hist.

Lemma ro_any D lo s s' : ro D lo s -> ro D (d_pos (s_dev s')) s' -> ro D 0 s'.
Proof. intros _ (H1 & H2 & H3). repeat split; auto. lia. Qed.

Lemma ro_on_seek D w : preserves (ro D 0) (on_dev (dev_seek w)).
Proof.
  intros s r s' (H1 & _ & H3) H. pose proof (seek_data _ _ _ _ H) as Hd.
  destruct (seek_pos _ _ _ _ H) as (_ & (_ & _ & _ & _ & _ & _ & Hc & _) & _).
  split; [congruence|]. split; [lia|]. now rewrite Hc.
Qed.
Lemma ro_st_seek D w : preserves (ro D 0) (st_seek w).
Proof.
  unfold st_seek. apply pr_bind; [apply ro_commit|intros _]. apply pr_bind; [apply pr_lift, ro_on_seek|intros off].
  apply pr_bind; [apply ro_reset|intros _]. apply pr_bind; [apply pr_mod; auto|intros; apply pr_ret].
Qed.
Lemma ro_bseek D len w : preserves (ro D 0) (b_seek len w).
Proof.
  assert (Hip : forall E, preserves (ro D 0) (@b_inner_pos E len)).
  { intros E. unfold b_inner_pos. apply pr_bind; [apply ro_rem|intros; apply pr_pure]. }
  assert (Ht : preserves (ro D 0) (b_seek_target len w)).
  { unfold b_seek_target. apply (pr_fun _ (fun s0 => match w with SkStart p => _ | SkEnd z => _ | SkCur z => _ end)). intros s0.
    destruct w as [p|z|z].
    - apply pr_if; [|apply pr_fail]. apply pr_bind; [apply pr_pure|intros; apply pr_pure].
    - apply pr_if; [|apply pr_fail]. apply pr_bind; [apply pr_res|intros o]. apply pr_if; [|apply pr_fail].
      apply pr_bind; [apply pr_pure|intros; apply pr_pure].
    - apply pr_if.
      + apply pr_bind; [apply pr_res|intros o]. apply pr_bind; [apply Hip|intros ip]. apply pr_if; [apply pr_pure|apply pr_fail].
      + cbv zeta. apply pr_bind; [apply ro_rem|intros rem]. apply pr_if; [apply pr_pure|apply pr_fail]. }
  assert (Hmv : forall z f, (forall s, ro D 0 s -> ro D 0 (f s)) -> preserves (ro D 0) (on_dev (dev_seek (SkCur z)) ;; mmod f)).
  { intros z f Hf. apply pr_bind; [apply ro_on_seek|intros _]. now apply pr_mod. }
  unfold b_seek. apply pr_bind; [exact Ht|intros t]. apply pr_bind; [|intros _; apply Hip].
  intros s r s' HP H. cbv zeta in H.
  destruct (t <? s_pos s); (destruct (I64_MAX <? _); [injection H as <- <-; exact HP|]); (eapply Hmv; [|exact HP|exact H]); auto.
Qed.
Lemma ro_call_any D op c : reads c -> preserves (ro D 0) (call_run op c).
Proof.
  intros Hr. destruct c; try (apply ro_call; [exact Hr|exact (fun x => x)]).
  - cbn [call_run]. apply pr_bind; [apply ro_st_seek|intros; apply pr_ret].
  - destruct o; try (apply ro_call; [exact Hr|exact (fun x => x)]).
    cbn [call_run bop_run]. destruct op; try apply pr_ret. apply pr_bind; [|intros; apply pr_ret].
    apply pr_bind; [apply pr_lift, ro_bseek|intros; apply pr_ret].
Qed.
Lemma run_ro (P : stream -> Prop) cs : (forall op c, In c cs -> preserves P (call_run op c)) ->
  forall op s rs op' s', P s -> run_calls cs op s = (rs, (op', s')) -> P s'.
Proof.
  induction cs as [|c cs IH]; intros Hp op s rs op' s' HP H; cbn [run_calls] in H; [injection H as <- <- <-; exact HP|].
  destruct (call_run op c s) as [x s1] eqn:E1. pose proof (Hp op c (or_introl eq_refl) _ _ _ HP E1) as HP1.
  destruct (run_calls cs (opens op c x) s1) as [xs [op2 s2]] eqn:E2. injection H as <- <- <-.
  eapply (IH (fun op c Hc => Hp op c (or_intror Hc))); eauto.
Qed.

Lemma hist_input cs s rs op s' : s_commit s = None -> (forall c, In c cs -> reads c) ->
  run_calls cs ONone s = (rs, (op, s')) -> d_data (s_dev s') = d_data (s_dev s).
Proof.
  intros Hc Hr H. apply (run_ro (ro (d_data (s_dev s)) 0) cs) with (op := ONone) (s := s) (rs := rs) (op' := op).
  - intros o c Hin. apply ro_call_any, Hr, Hin.
  - split; [reflexivity|]. split; [lia|now left].
  - exact H.
Qed.
Lemma hist_forward cs s rs op s' : s_commit s = None -> (forall c, In c cs -> reads c /\ ~ seeks c) ->
  run_calls cs ONone s = (rs, (op, s')) -> d_pos (s_dev s) <= d_pos (s_dev s').
Proof.
  intros Hc Hr H.
  assert (G : ro (d_data (s_dev s)) (d_pos (s_dev s)) s'); [|apply G].
  apply (run_ro (ro (d_data (s_dev s)) (d_pos (s_dev s))) cs) with (op := ONone) (s := s) (rs := rs) (op' := op).
  - intros o c Hin. apply ro_call; apply Hr, Hin.
  - split; [reflexivity|]. split; [lia|now left].
  - exact H.
Qed.
Lemma from_input e zc cf t s r s' : s_commit s = None \/ s_commit s = Some CSkipBlob -> from_stream e zc cf t s = (r, s') ->
  d_data (s_dev s') = d_data (s_dev s) /\ d_pos (s_dev s) <= d_pos (s_dev s') /\ (s_commit s' = None \/ s_commit s' = Some CSkipBlob).
Proof.
  intros Hc H. apply (ro_from (d_data (s_dev s)) (d_pos (s_dev s)) e zc cf t s r s'); [|exact H].
  split; [reflexivity|]. split; [lia|exact Hc].
Qed.
