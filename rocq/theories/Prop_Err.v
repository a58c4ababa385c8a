(** * Prop_Err: reading reports reading errors, with sensible details *)

From Verif Require Import Base Wire Dev Stream Types Ser Prog De SpecFormat SpecBlob SpecHist SpecDe SpecSerDe SpecCrash SpecRead SpecErr P_Errs P_Ex Prop_Meaning.

(** ** C75.  Whatever the input and whatever the device does, the error that
    deserialising values one after the other ends with is one about reading:
    never one of the errors about writing, about an interruption, nor
    [LargeBlob]; an exception carries at most 256 bytes of its message, a
    truncated blob lacks at least one byte, an unexpected type differs from
    the expected one, an unknown field is reported only if unknown fields are
    refused and with a tag that exists, and "too few" is never "fewer than
    none". *)
Theorem C75_deserialisation_errors e zc cf ts dbg sk gr bs sched err :
  env_ok e -> Forall (deserialisable e zc) ts -> cf_collect cf <= U64_MAX -> cf_blob cf <= U64_MAX ->
  bytes_ok bs -> lenN bs + 3 < U64_MAX ->
  fst (read_values e zc cf ts (snd (set_graceful_eof gr (new_stream dbg sk (mkDev bs 0 sched))))) = RErr err ->
  possible_error cf (e_kind err).
Proof. exact (errors_possible e zc cf ts dbg sk gr bs sched err). Qed.
Print Assumptions C75_deserialisation_errors.

(** The same of any history of calls on a stream that only read: besides the
    errors above there are only [LargeBlob] where [read_fully] was given that
    limit and the blob exceeds it, [Interrupted] from a single [read], and
    [InvalidInput] from seeking. *)
Theorem C75_call_errors cs dbg sk dev : Forall reads cs -> errors_ok cs (fst (run_calls cs ONone (new_stream dbg sk dev))).
Proof. exact (call_errors cs dbg sk dev). Qed.
Print Assumptions C75_call_errors.

(** The hypotheses hold of the example item; and one input for each of several
    errors: a truncated blob, a cut integer, an overlong blob, an exception, a
    wrong type, an unknown field, an array with too few elements, a failing
    device. *)
Example C75_instance :
  let run cf zc t bs sched := match fst (read_values ex_env zc cf [TUInt 8; t] (new_stream true true (mkDev ([0x41; 7; 0] ++ bs) 0 sched))) with
                        | RErr x => Some (e_kind x) | _ => None end in
  let cf := mkCfg 9 true 50 40 in
  usable ex_env false cf (TItem 0) /\
  run cf true (TTuple [TStrRef]) [0x81; 5; 104] [] = Some (KStream (STruncatedBlob 4)) /\
  run cf false (TTuple [TUInt 8]) [0x41; 0x80] [] = Some (KStream (SIo IoUnexpectedEof)) /\
  run cf false (TTuple [TString]) [0x81; 0xFF; 0xFF; 0xFF; 0xFF; 0xFF; 0xFF; 0xFF; 0xFF; 0xFF; 1] [] = Some (KStream (SIo IoOther)) /\
  run cf false (TTuple [TUInt 8]) [0x80; 2; 104; 105] [] = Some (KStream (SException [104; 105])) /\
  run cf false (TTuple [TUInt 8]) [0x81; 0] [] = Some (KStream (SUnexpectedType FInteger FBlob)) /\
  run (mkCfg 9 false 50 40) false (TTuple [TUInt 8]) [0x7F; 0] [] = Some (KUnknownField 63 3) /\
  run cf false (TArray 2 TBool) [0x41; 0; 0] [] = Some (KTooFew 2) /\
  run cf false (TTuple [TUInt 8]) [0x41; 7; 0] [EvShort 1; EvIntr; EvShort 9; EvIntr; EvShort 9; EvFail] = Some (KStream (SIo IoOther)).
Proof.
  cbv zeta. split; [|vm_compute; repeat split; reflexivity].
  destruct (ex_usable false) as (H1 & H2 & _). split; [exact H1|]. split; [exact H2|]. split; vm_compute; discriminate.
Qed.
Example C75_calls_instance :
  let cs := [CNextField; CBlob (BReadFully 2); CBlob (BSeek (SkStart 9)); CBlob (BRead 1); CBlob (BReadExact 3); CBlob BSlice; CNextElement; CSeek (SkCur (-99)%Z)] in
  Forall reads cs /\
  fst (run_calls cs ONone (new_stream true true (mkDev [0x81; 4; 104; 105] 0 [EvShort 1; EvShort 1; EvIntr]))) =
    [ROk (VField (Some (mkField 1 0 1 (HBlob 4)))); RErr (SLargeBlob 2 4); RErr (SIo IoInvalidInput); RErr (SIo IoInterrupted);
     RErr (SIo IoUnexpectedEof); RErr (STruncatedBlob 2); RErr (SIo IoUnexpectedEof); RErr (SIo IoInvalidInput)].
Proof.
  cbv zeta. split; [repeat constructor|]. vm_compute. reflexivity.
Qed.
