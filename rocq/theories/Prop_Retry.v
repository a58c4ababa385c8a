(** * Prop_Retry: a commit that failed can be repeated *)

From Verif Require Import Base Wire Dev Stream SpecStream SpecBlob SpecHist SpecRetry P_Retry.

(** ** C76.  If [commit] fails, be it for the device, a truncated blob or an
    incomplete one, and succeeds when called again, the stream is as if
    nothing had happened: behind the blob, with the contents untouched and
    nothing pending.  Proved unless a dynamic blob is to be closed. *)
Theorem C76_retry_partial n s s' : s_commit s <> Some CFinishDyn -> attempts n s = (ROk tt, s') ->
  unscheduled s' = behind s.
Proof. exact (attempts_behind n s s'). Qed.
Print Assumptions C76_retry_partial.
Theorem C76_retried_right_partial s : s_commit s <> Some CFinishDyn -> retried_right s.
Proof. exact (attempts_right s). Qed.
Print Assumptions C76_retried_right_partial.

(** Of a dynamic blob it is false: if the device fails when the length has
    been written and the end of the blob is to be found again, the second
    [commit] succeeds, but declares the blob empty; what is written next
    overwrites it. *)
Theorem C76_retry_refuted : exists cs sched, let s := snd (snd (run_calls cs ONone (new_stream false true (mkDev [] 0 sched)))) in
  s_commit s = Some CFinishDyn /\ ~ retried_right s /\
  exists s', attempts 1 s = (ROk tt, s') /\
    d_data (s_dev s') = [0x81; 0x80; 0x80; 0x80; 0x80; 0x80; 0x80; 0x80; 0x80; 0x80; 0; 104; 105] /\
    d_data (s_dev (snd (commit (unscheduled s)))) = [0x81; 0x82; 0x80; 0x80; 0x80; 0x80; 0x80; 0x80; 0x80; 0x80; 0; 104; 105] /\
    s_pos s' = 11 /\ s_pos (snd (commit (unscheduled s))) = 13.
Proof.
  exists [CWriteBlobDyn 1; CBlob (BWriteAll [104; 105])], [EvShort 9; EvShort 99; EvShort 9; EvShort 9; EvShort 99; EvFail]. cbv zeta.
  split; [vm_compute; reflexivity|]. split; [|eexists; vm_compute; repeat split; reflexivity].
  intros H. specialize (H 1%nat). vm_compute in H. specialize (H _ _ eq_refl eq_refl). discriminate.
Qed.
Print Assumptions C76_retry_refuted.

(** A blob of three bytes, one of them read, skipped by reading from a device
    that fails after one more byte, and by seeking where the first seek fails
    and so does the reading that replaces it. *)
Example C76_instance :
  let s sk sched := snd (snd (run_calls [CNextField; CBlob (BReadExact 1)] ONone (new_stream true sk (mkDev [0x81; 3; 104; 105; 33; 0] 0 sched)))) in
  let a := s false [EvShort 9; EvShort 9; EvShort 9; EvShort 1; EvFail] in
  let b := s true [EvShort 9; EvShort 9; EvShort 9; EvFail; EvIntr; EvShort 1; EvFail] in
  s_commit a <> Some CFinishDyn /\ fst (attempts 0 a) = RErr (SIo IoOther) /\ fst (attempts 1 a) = ROk tt /\ s_pos (behind a) = 5 /\
  s_commit b <> Some CFinishDyn /\ fst (attempts 0 b) = RErr (SIo IoOther) /\ fst (attempts 1 b) = ROk tt /\ s_pos (behind b) = 5 /\
  s_pos a = 3 /\ s_pos b = 3.
Proof. cbv zeta. vm_compute. repeat split; discriminate. Qed.
