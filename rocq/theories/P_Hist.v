(** * P_Hist: histories do not depend on the schedule (C20, C25, C51) *)

From Verif Require Import Base Wire Dev Stream SpecWire SpecFormat SpecStream SpecBlob SpecHist
  P_Base P_Wire P_Sched.

Lemma bop_sim len o : full_call (CBlob o) -> sim (bop_run len o).
Proof.
  destruct o; cbn [full_call bop_run]; intros Hf; try contradiction.
  - sims2.
  - apply gsim_bind; [apply b_read_fully_sim|intros; apply gsim_ret].
  - apply gsim_bind; [apply b_read_or_trunc_sim|intros; apply gsim_ret].
  - apply gsim_bind; [apply b_slice_sim|intros; apply gsim_ret].
  - sims2.
  - apply gsim_bind; [apply b_slice_mut_sim|intros; apply gsim_ret].
  - apply gsim_bind; [apply sim_lift, b_seek_simio|intros; apply gsim_ret].
  - apply gsim_bind; [apply b_remaining_sim|intros r].
    apply gsim_bind; [apply b_start_sim|intros st].
    apply gsim_bind; [apply b_inner_sim|intros ip].
    apply gsim_get; [intros; apply gsim_ret|reflexivity].
Qed.

Lemma call_sim op c : full_call c -> sim (call_run op c).
Proof.
  assert (Hu : forall m, sim m -> sim (ret_unit m)).
  { intros m Hm. unfold ret_unit. apply gsim_bind; [exact Hm|intros; apply gsim_ret]. }
  assert (Hb : forall A (m : SM A) (f : A -> cval), sim m -> sim (let* x := m in mret (f x))).
  { intros A m f Hm. apply gsim_bind; [exact Hm|intros; apply gsim_ret]. }
  destruct c; cbn [call_run]; intros Hf.
  - apply Hb, next_element_sim.
  - apply Hb, next_field_sim.
  - apply Hu, skip_up_sim.
  - destruct op; try apply gsim_ret. apply Hu, field_skip_sim.
  - apply Hu, commit_sim.
  - apply Hu, reset_pos_sim.
  - apply Hb, st_seek_sim.
  - apply Hu. unfold clear_eof. sims2.
  - apply Hu. unfold set_graceful_eof. sims2.
  - apply Hu. unfold set_struct_depth. sims2.
  - apply Hu, write_u64_sim.
  - apply Hu, write_u64_sim.
  - apply Hb, write_blob_data_sim.
  - apply Hb, write_alloc_sim.
  - apply Hb, write_dynamic_sim.
  - apply Hb, write_exception_data_sim.
  - apply Hb, write_alloc_sim.
  - apply Hb, write_dynamic_sim.
  - apply Hu, write_desc_sim.
  - apply Hu, write_enum_sim.
  - apply Hu, write_desc_sim.
  - apply Hu, write_desc_sim.
  - apply Hu, write_desc_sim.
  - apply Hu, pad_to_align_sim.
  - destruct op; try apply gsim_ret. apply Hb, bop_sim, Hf.
Qed.

Lemma unscheduled_strip s : unscheduled s = strip s.
Proof. reflexivity. Qed.

Lemma run_calls_benign cs : forall op s, Forall full_call cs -> no_failure s ->
  let '(xs, (op', s')) := run_calls cs op s in
  run_calls cs op (unscheduled s) = (xs, (op', unscheduled s')) /\ no_failure s'.
Proof.
  induction cs as [|c cs IH]; intros op s Hf Hn; cbn [run_calls].
  - split; [reflexivity|exact Hn].
  - inversion Hf; subst. destruct (call_run op c s) as [x s1] eqn:E.
    destruct (call_sim op c ltac:(assumption) s x s1 E) as [[Heq Hb]|(Hnb & _)]; [|contradiction].
    specialize (IH (opens op c x) s1 ltac:(assumption) (Hb Hn)).
    destruct (run_calls cs (opens op c x) s1) as [xs [op' s']]. destruct IH as [IH1 IH2].
    rewrite unscheduled_strip, Heq. rewrite <- unscheduled_strip, IH1. split; [reflexivity|exact IH2].
Qed.

(** With failures: results agree up to the first call that returns an error
    the device caused. *)
Lemma run_calls_fail cs : forall op s, Forall full_call cs ->
  let xs := fst (run_calls cs op s) in
  let ys := fst (run_calls cs op (unscheduled s)) in
  xs = ys \/
  exists pre e, (exists r1 r2 y, xs = pre ++ RErr e :: r1 /\ ys = pre ++ y :: r2) /\
    (e = SIo IoOther \/ exists n, e = STruncatedBlob n).
Proof.
  induction cs as [|c cs IH]; intros op s Hf; cbn [run_calls].
  - now left.
  - inversion Hf; subst. destruct (call_run op c s) as [x s1] eqn:E.
    destruct (call_sim op c ltac:(assumption) s x s1 E) as [[Heq Hb]|(Hnb & e & -> & He)].
    + rewrite unscheduled_strip, Heq. specialize (IH (opens op c x) s1 ltac:(assumption)).
      cbv zeta in IH. rewrite unscheduled_strip in IH.
      destruct (run_calls cs (opens op c x) s1) as [xs st]. destruct (run_calls cs (opens op c x) (strip s1)) as [ys st2].
      cbn [fst] in *. destruct IH as [->|(pre & e & (r1 & r2 & y & -> & ->) & He)]; [now left|right].
      exists (x :: pre), e. split; [|exact He]. exists r1, r2, y. split; reflexivity.
    + right. exists [], e. split; [|exact He].
      destruct (run_calls cs (opens op c (RErr e)) s1) as [xs st].
      destruct (call_run op c (unscheduled s)) as [y s2]. destruct (run_calls cs (opens op c y) s2) as [ys st2].
      exists xs, ys, y. split; reflexivity.
Qed.
Lemma hist_benign cs op s : Forall full_call cs -> no_failure s ->
  let '(xs, (op', s')) := run_calls cs op s in
  run_calls cs op (unscheduled s) = (xs, (op', unscheduled s')).
Proof.
  intros Hf Hn. pose proof (run_calls_benign cs op s Hf Hn) as H.
  destruct (run_calls cs op s) as [xs [op' s']]. tauto.
Qed.
Lemma hist_writes cs op s rs op' s' : Forall full_call cs -> no_failure s ->
  run_calls cs op s = (rs, (op', s')) ->
  exists s2, run_calls cs op (unscheduled s) = (rs, (op', s2)) /\
    d_data (s_dev s2) = d_data (s_dev s') /\ d_pos (s_dev s2) = d_pos (s_dev s') /\ s_pos s2 = s_pos s'.
Proof.
  intros Hf Hn H. pose proof (run_calls_benign cs op s Hf Hn) as Hb. rewrite H in Hb. destruct Hb as [Hb _].
  exists (unscheduled s'). split; [exact Hb|]. repeat split.
Qed.
