(** * Prop_Disp: nothing depends on where the stream thinks it is (C70) *)

From Verif Require Import Base Wire Dev Stream Types Prog Ser De SpecStream SpecBlob SpecHist SpecDe SpecSerDe SpecDisp P_Disp P_Ex.

(** ** C70.  A stream told with [set_pos] that it starts [k] bytes further on:
    any history of calls (reading and writing, over any device, with any
    schedule, going on after errors) that does not speak of absolute offsets
    and does not run out of offsets gives the results it gives without
    [set_pos], with every reported offset larger by [k], and leaves the same
    data in the device. *)
Theorem C70_histories_displaced k cs s xs' op' t' : Forall (relative k) cs -> s_commit s = None -> st_pos s + k <= U64_MAX ->
  run_calls cs ONone (snd (set_pos (st_pos s + k) s)) = (xs', (op', t')) -> Forall (fun r => r <> RErr (SIo IoOther)) xs' ->
  exists xs op s', run_calls cs ONone s = (xs, (op, s')) /\ xs' = map (disp_res k) xs /\
    s_dev t' = s_dev s' /\ st_pos t' = st_pos s' + k /\ s_depth t' = s_depth s' /\ s_eof t' = s_eof s'.
Proof. exact (displaced k cs s xs' op' t'). Qed.
Print Assumptions C70_histories_displaced.
(** The same after [reset_pos]. *)
Theorem C70_after_reset_pos k cs s xs' op' t' : Forall (relative k) cs -> s_commit s = None -> st_pos s + k <= U64_MAX ->
  run_calls cs ONone (snd (reset_pos (st_pos s + k) s)) = (xs', (op', t')) -> Forall (fun r => r <> RErr (SIo IoOther)) xs' ->
  exists xs op s', run_calls cs ONone s = (xs, (op, s')) /\ xs' = map (disp_res k) xs /\
    s_dev t' = s_dev s' /\ st_pos t' = st_pos s' + k /\ s_depth t' = s_depth s' /\ s_eof t' = s_eof s'.
Proof. exact (displaced_reset k cs s xs' op' t'). Qed.
Print Assumptions C70_after_reset_pos.
(** A value deserialised from a displaced stream is the value deserialised
    from it in place, and as much of the device is consumed. *)
Theorem C70_deserialising_displaced k e zc cf ty s v t' : s_commit s = None ->
  from_stream e zc cf ty (snd (set_pos (st_pos s + k) s)) = (ROk v, t') ->
  exists s', from_stream e zc cf ty s = (ROk v, s') /\ s_dev t' = s_dev s' /\ st_pos t' = st_pos s' + k.
Proof. exact (displaced_de k e zc cf ty s v t'). Qed.
Print Assumptions C70_deserialising_displaced.

Example C70_instance :
  let s := new_stream true true (mkDev [0xC1; 0x82; 2; 7; 8; 0x00] 0 [EvShort 1; EvIntr]) in
  let cs := [CNextField; CNextField; CBlob (BReadExact 1); CBlob BPos; CBlob (BSeek (SkStart 0)); CNextField;
             CWriteBlobAlloc 3 2; CBlob (BWriteAll [5; 6]); CPadAlign 4] in
  let k := 1000 in
  Forall (relative k) cs /\ s_commit s = None /\ st_pos s + k <= U64_MAX /\
  exists xs' op' t', run_calls cs ONone (snd (set_pos (st_pos s + k) s)) = (xs', (op', t')) /\
    Forall (fun r => r <> RErr (SIo IoOther)) xs' /\
    nth 1 xs' RPanic = ROk (VField (Some (mkField 2 1001 2 (HBlob 2)))) /\
    nth 3 xs' RPanic = ROk (VBop (BPoss 1 1003 1005 1 1004)) /\
    d_data (s_dev t') = [0xC1; 0x82; 2; 7; 8; 0x00; 0x83; 2; 5; 6; 0xC0; 0xC0].
Proof.
  cbv zeta. split.
  - repeat (apply Forall_cons; [exact Logic.I|]). apply Forall_cons; [|apply Forall_nil]. exists 2. split; reflexivity.
  - split; [reflexivity|]. split; [vm_compute; discriminate|]. eexists _, _, _. split; [vm_compute; reflexivity|].
    split; [repeat (apply Forall_cons; [discriminate|]); apply Forall_nil|]. vm_compute. repeat split.
Qed.
