(** * Prop_ErrW: every call reports only errors that concern it *)

From Verif Require Import Base Wire Dev Stream Types Ser SpecBlob SpecHist SpecErr SpecErrW SpecErrC P_ErrW P_ErrD P_ErrV P_ErrC.

(** ** C77.  Whatever was called before, reading, writing and seeking mixed,
    and whatever the device does, the error of each call is one of those
    listed for it in [SpecErrW].  Only [reset_pos], which lets the caller
    declare any position, is excluded. *)
Theorem C77_errors_proper cs dbg sk bs sched : Forall no_reset cs ->
  proper_results cs (fst (run_calls cs ONone (new_stream dbg sk (mkDev bs 0 sched)))).
Proof. exact (errors_proper cs dbg sk bs sched). Qed.
Print Assumptions C77_errors_proper.

(** [PositionBeforeStartOfDynamicBlob] is never reported unless the device
    has failed. *)
Theorem C77_never_before_dynamic cs dbg sk bs sched : Forall no_reset cs -> Forall (fun e => e <> EvFail) sched ->
  Forall (fun r => r <> RErr SPosBeforeDynBlob) (fst (run_calls cs ONone (new_stream dbg sk (mkDev bs 0 sched)))).
Proof. exact (never_before cs dbg sk bs sched). Qed.
Print Assumptions C77_never_before_dynamic.

(** Writing a value, of any type and to any device, fails only because the
    device does (or has no room below 2^64) or a blob is overlong: never for
    an unfinished blob and never with [WriteZero] or [Interrupted]. *)
Theorem C77_writing_errors e t v dbg d x : to_writer e dbg d t v = RErr x -> x = SIo IoOther \/ x = SOverlongBlob.
Proof. exact (writing_errors e t v dbg d x). Qed.
Print Assumptions C77_writing_errors.

(** An error about an unfinished blob is about a blob begun by a call before:
    [TruncatedBlob] about one read, [IncompleteBlob] about one allocated with
    a length, the errors about dynamic blobs about one begun without. *)
Theorem C77_causes cs dbg sk d : all_due [] cs (fst (run_calls cs ONone (new_stream dbg sk d))).
Proof. exact (errors_due cs dbg sk d). Qed.
Print Assumptions C77_causes.

(** Each of the three, and what it is due to. *)
Example C77_causes_instance :
  let rs cs bs := fst (run_calls cs ONone (new_stream true false (mkDev bs 0 []))) in
  rs [CNextField; CCommit] [129; 5; 1] = [ROk (VField (Some (mkField 1 0 1 (HBlob 5)))); RErr (STruncatedBlob 4)] /\
  all_due [] [CNextField; CCommit] [ROk (VField (Some (mkField 1 0 1 (HBlob 5)))); RErr (STruncatedBlob 4)] /\
  ~ all_due [] [CNextField; CCommit] [ROk (VField (Some (mkField 1 0 1 (HBlob 5)))); RErr (SIncompleteBlob 4)] /\
  rs [CWriteBlobAlloc 1 5; CWritePad] [] = [ROk (VBlobLen 5); RErr (SIncompleteBlob 5)] /\
  ~ all_due [] [CWriteBlobAlloc 1 5; CWritePad] [ROk (VBlobLen 5); RErr (STruncatedBlob 5)].
Proof.
  cbv zeta. split; [vm_compute; reflexivity|]. split; [|split; [|split; [vm_compute; reflexivity|]]].
  - cbn [all_due]. split; [discriminate|]. split; [|exact Logic.I]. intros x H. injection H as <-. cbn [due]. right. left. exact Logic.I.
  - cbn [all_due]. intros (_ & H & _). specialize (H _ eq_refl). cbn [due] in H. inversion H as [? ? X|? ? X]; [exact X|inversion X].
  - cbn [all_due]. intros (_ & H & _). specialize (H _ eq_refl). cbn [due] in H. inversion H as [? ? X|? ? X]; [exact X|]. inversion X as [? ? Y|? ? Y]; [exact Y|inversion Y].
Qed.

(** A history with seven errors: a blob not filled (the commit and the next
    write), too much written into it, a position outside the blob sought, the rest of
    a blob larger than allowed, and the end of input where a field should be. *)
Example C77_instance :
  let cs := [CWriteBlobAlloc 1 2; CCommit; CWritePad; CBlob (BWriteAll [1; 2; 3]); CCommit] in
  let cs' := [CWriteBlobAlloc 1 2; CBlob (BWriteAll [1; 2; 3]); CWriteBlobAlloc 2 2; CBlob (BSeek (SkStart 9)); CBlob (BWrite [7; 8]);
              CWriteBlobDyn 3; CBlob (BWriteAll [7]); CSeek (SkStart 0); CNextField; CBlob (BReadFully 1); CNextElement;
              CSeek (SkEnd 0%Z); CNextElement] in
  Forall no_reset cs /\ Forall no_reset cs' /\
  fst (run_calls cs ONone (new_stream true true (mkDev [] 0 []))) =
    [ROk (VBlobLen 2); RErr (SIncompleteBlob 2); RErr (SIncompleteBlob 2); ROk VNothing; RErr (SIncompleteBlob 2)] /\
  fst (run_calls cs' ONone (new_stream true true (mkDev [] 0 [EvIntr; EvShort 1]))) =
    [ROk (VBlobLen 2); RErr (SIo IoWriteZero); ROk (VBlobLen 2); RErr (SIo IoInvalidInput); ROk (VBop (BNum 2));
     ROk (VBlobLen 18446744073709551596); ROk (VBop BUnit); ROk (VNum 0); ROk (VField (Some (mkField 1 0 1 (HBlob 2)))); RErr (SLargeBlob 1 2);
     ROk (VElem (ElField (mkField 2 4 1 (HBlob 2)))); ROk (VNum 20); RErr (SIo IoUnexpectedEof)].
Proof.
  cbv zeta. split; [|split; [|split; vm_compute; reflexivity]]; repeat (apply Forall_cons; [exact Logic.I|]); apply Forall_nil.
Qed.

(** With a failing device the position can indeed be before the start: the
    device fails when the end of the blob is to be found again, and what
    remains pending is called once more. *)
Example C77_failure_instance :
  let cs := [CWriteBlobDyn 1; CBlob (BWriteAll [104]); CCommit; CCommit; CCommit] in
  Forall no_reset cs /\
  fst (run_calls cs ONone (new_stream true true (mkDev [] 0 [EvShort 9; EvShort 99; EvShort 9; EvShort 9; EvFail]))) =
    [ROk (VBlobLen 18446744073709551604); ROk (VBop BUnit); RErr (SIo IoOther); RErr SPosBeforeDynBlob; RErr SPosBeforeDynBlob].
Proof. cbv zeta. split; [repeat (apply Forall_cons; [exact Logic.I|]); apply Forall_nil|vm_compute; reflexivity]. Qed.
