(** * Properties C17, C20, C25, C51: histories of calls *)

From Verif Require Import Base Wire Dev Stream SpecStream SpecBlob SpecHist P_Hist P_Pos.

(** ** C17.  Whatever calls are made, in whatever order, over whatever device
    and schedule, also after errors, and whatever the input contains, [pos()]
    stays a [u64] (the model computes positions in unbounded integers). *)
Theorem C17_positions_never_wrap cs s rs op s' :
  s_pos s <= U64_MAX -> s_commit s = None ->
  (forall p, In (CResetPos p) cs -> p <= U64_MAX) ->
  run_calls cs ONone s = (rs, (op, s')) -> s_pos s' <= U64_MAX.
Proof. exact (hist_pos cs s rs op s'). Qed.
Print Assumptions C17_positions_never_wrap.

(** [pos()] moves exactly as the underlying reader or writer does, except in
    [reset_pos] and [seek]. *)
Theorem C17_position_follows_device cs s rs op s' :
  s_pos s <= U64_MAX -> s_commit s = None ->
  (forall c, In c cs -> ~ repositions c) ->
  run_calls cs ONone s = (rs, (op, s')) ->
  s_pos s' + d_pos (s_dev s) = s_pos s + d_pos (s_dev s').
Proof. exact (hist_follows cs s rs op s'). Qed.
Print Assumptions C17_position_follows_device.

(** Every blob that a history leaves open lies within the [u64] range around
    the current position. *)
Theorem C17_open_blob_fits cs s rs len s' :
  s_pos s <= U64_MAX -> s_commit s = None ->
  (forall p, In (CResetPos p) cs -> p <= U64_MAX) ->
  run_calls cs ONone s = (rs, (OBlob len, s')) ->
  exists start, start + len = b_end_pos s' /\ start <= s_pos s' <= b_end_pos s' /\ b_end_pos s' <= U64_MAX.
Proof. exact (hist_blob cs s rs len s'). Qed.
Print Assumptions C17_open_blob_fits.

(** 16 bytes before the end of the range: a blob of 10 bytes is refused at
    once, one of 5 is accepted and can be filled; an integer that does not fit
    any more is refused, smaller ones are written. *)
Definition c17_start : stream :=
  snd (reset_pos (U64_MAX - 16) (new_stream true true (mkDev [] 0 [EvShort 1; EvIntr]))).
Example C17_instance :
  s_pos c17_start <= U64_MAX /\ s_commit c17_start = None /\
  fst (run_calls [CWriteBlobAlloc 1 10; CWriteBlobAlloc 1 5; CBlob (BWriteAll [1; 2; 3; 4; 5]);
                  CWriteU64 1 (2 ^ 63); CWriteU64 1 0; CWriteU64 1 0; CWriteU64 1 0; CWriteU64 1 0; CCommit] ONone c17_start) =
    [RErr (SIo IoOther); ROk (VBlobLen 5); ROk (VBop BUnit);
     RErr (SIo IoOther); ROk VUnit_; ROk VUnit_; ROk VUnit_; ROk VUnit_; ROk VUnit_].
Proof. vm_compute. repeat split. discriminate. Qed.

(** ** C20.  For a device that splits transfers and interrupts calls in any
    way (but does not fail), every history gives the same results and leaves
    the stream and the data in the same state as for a device that does
    neither.  ([Read::read], [Write::write] and [fill_buf] themselves, whose
    contract is to return what one transfer gave, are excluded by
    [full_call].) *)
Theorem C20_reads_do_not_depend_on_chunking cs op s : Forall full_call cs -> no_failure s ->
  let '(xs, (op', s')) := run_calls cs op s in
  run_calls cs op (unscheduled s) = (xs, (op', unscheduled s')).
Proof. exact (hist_benign cs op s). Qed.
Print Assumptions C20_reads_do_not_depend_on_chunking.

Definition c20_data : bytes := [0x81; 0x83; 0x00; 5; 6; 7; 0x42; 0x80; 0x01; 0x00].
Definition c20_cs : list call :=
  [CNextField; CBlob (BReadExact 2); CNextElement; CNextField].
Definition c20_sched : list ev := [EvIntr; EvShort 1; EvIntr; EvShort 1; EvShort 1; EvIntr; EvIntr; EvShort 1].
Example C20_instance :
  Forall full_call c20_cs /\ no_failure (new_stream true false (mkDev c20_data 0 c20_sched)) /\
  fst (run_calls c20_cs ONone (new_stream true false (mkDev c20_data 0 c20_sched))) =
    [ROk (VField (Some (mkField 1 0 1 (HBlob 3)))); ROk (VBop (BBytes [5; 6]));
     ROk (VElem (ElField (mkField 2 6 1 (HInt 128)))); ROk (VField None)].
Proof.
  split; [repeat constructor|]. split; [repeat constructor; discriminate|]. vm_compute. reflexivity.
Qed.

(** ** C25.  The bytes written do not depend on how the writer splits
    writes. *)
Theorem C25_writes_do_not_depend_on_chunking cs op s rs op' s' : Forall full_call cs -> no_failure s ->
  run_calls cs op s = (rs, (op', s')) ->
  exists s2, run_calls cs op (unscheduled s) = (rs, (op', s2)) /\
    d_data (s_dev s2) = d_data (s_dev s') /\ d_pos (s_dev s2) = d_pos (s_dev s') /\ s_pos s2 = s_pos s'.
Proof. exact (hist_writes cs op s rs op' s'). Qed.
Print Assumptions C25_writes_do_not_depend_on_chunking.

Definition c25_cs : list call :=
  [CWriteU64 1 300; CWriteBlobDyn 2; CBlob (BWriteAll [7; 8; 9]); CWriteStruct 3; CWriteEnd; CPadAlign 8].
Example C25_instance :
  Forall full_call c25_cs /\ no_failure (new_stream true true (mkDev [] 0 c20_sched)) /\
  d_data (s_dev (snd (snd (run_calls c25_cs ONone (new_stream true true (mkDev [] 0 c20_sched)))))) =
    [0x41; 0xAC; 0x02; 0x82; 0x83; 0x80; 0x80; 0x80; 0x80; 0x80; 0x80; 0x80; 0x80; 0x00; 7; 8; 9;
     0xC3; 0x00; 0xC0; 0xC0; 0xC0; 0xC0; 0xC0].
Proof.
  split; [repeat constructor|]. split; [repeat constructor; discriminate|]. vm_compute. reflexivity.
Qed.

(** ** C51.  With failures anywhere in the schedule: either all results are
    as without, or they agree up to a call that returns an I/O error or
    [TruncatedBlob] where the other run may have gone on. *)
Theorem C51_failures_surface cs op s : Forall full_call cs ->
  let xs := fst (run_calls cs op s) in
  let ys := fst (run_calls cs op (unscheduled s)) in
  xs = ys \/
  exists pre e, (exists r1 r2 y, xs = pre ++ RErr e :: r1 /\ ys = pre ++ y :: r2) /\
    (e = SIo IoOther \/ exists n, e = STruncatedBlob n).
Proof. exact (run_calls_fail cs op s). Qed.
Print Assumptions C51_failures_surface.

Example C51_instance :
  fst (run_calls c20_cs ONone (new_stream true false (mkDev c20_data 0 [EvIntr; EvShort 1; EvShort 1; EvShort 1; EvFail]))) =
    [ROk (VField (Some (mkField 1 0 1 (HBlob 3)))); RErr (SIo IoOther);
     ROk (VElem (ElField (mkField 2 6 1 (HInt 128)))); ROk (VField None)].
Proof. vm_compute. reflexivity. Qed.
