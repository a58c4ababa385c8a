(** * Prop_Dbg: builds with and without checks behave alike (C63) *)

From Verif Require Import Base Wire Dev Stream Types Prog Ser De SpecFormat SpecStream SpecBlob SpecHist SpecDe SpecDoc SpecSerDe SpecDbg
  P_Dbg P_Ex P_DeProps.

(** ** C63.  Any history of calls that does not panic in a build with
    overflow checks and debug assertions gives the same outcomes, and leaves
    the same device and stream, in a build without them. *)
Theorem C63_histories cs op s xs op' s' : s_dbg s = true ->
  run_calls cs op s = (xs, (op', s')) -> no_panic xs ->
  s_dbg s' = true /\ run_calls cs op (release s) = (xs, (op', release s')).
Proof. exact (histories_agree cs op s xs op' s'). Qed.
Print Assumptions C63_histories.

(** Copying an element between two streams. *)
Theorem C63_copying el a b r a' b' : s_dbg a = true -> s_dbg b = true -> write_element el (a, b) = (r, (a', b')) ->
  r <> RPanic -> s_dbg a' = true /\ s_dbg b' = true /\ write_element el (release a, release b) = (r, (release a', release b')).
Proof. exact (copies_agree el a b r a' b'). Qed.
Print Assumptions C63_copying.

(** Serialisation and deserialisation on a stream in any state. *)
Theorem C63_to_stream e t v s r s' : s_dbg s = true -> to_stream e t v s = (r, s') -> r <> RPanic ->
  s_dbg s' = true /\ to_stream e t v (release s) = (r, release s').
Proof. exact (to_stream_agrees e t v s r s'). Qed.
Print Assumptions C63_to_stream.
Theorem C63_from_stream e zc cf t s r s' : s_dbg s = true -> from_stream e zc cf t s = (r, s') -> r <> RPanic ->
  s_dbg s' = true /\ from_stream e zc cf t (release s) = (r, release s').
Proof. exact (from_stream_agrees e zc cf t s r s'). Qed.
Print Assumptions C63_from_stream.

(** Whatever the input, both builds deserialise it alike, and values are
    serialised to the same bytes. *)
Theorem C63_from_slice_copy e cf t bs : env_ok e -> deserialisable e false t -> cf_collect cf <= U64_MAX -> cf_blob cf <= U64_MAX ->
  bytes_ok bs -> lenN bs + 3 < U64_MAX ->
  from_slice_copy e false cf t bs = from_slice_copy e true cf t bs.
Proof. intros He Ht Hc Hb Ho Hl. exact (slice_copy_agrees e cf bs He Hc Hb Ho Hl t Ht). Qed.
Print Assumptions C63_from_slice_copy.
Theorem C63_from_slice_borrow e cf t bs : env_ok e -> deserialisable e true t -> cf_collect cf <= U64_MAX -> cf_blob cf <= U64_MAX ->
  bytes_ok bs -> lenN bs + 3 < U64_MAX ->
  from_slice_borrow e false cf t bs = from_slice_borrow e true cf t bs.
Proof. intros He Ht Hc Hb Ho Hl. exact (slice_borrow_agrees e cf bs He Hc Hb Ho Hl t Ht). Qed.
Print Assumptions C63_from_slice_borrow.
Theorem C63_from_reader e cf t bs sched : env_ok e -> deserialisable e false t -> cf_collect cf <= U64_MAX -> cf_blob cf <= U64_MAX ->
  bytes_ok bs -> lenN bs + 3 < U64_MAX ->
  from_reader e false cf t (mkDev bs 0 sched) = from_reader e true cf t (mkDev bs 0 sched).
Proof. intros He Ht Hc Hb Ho Hl. exact (reader_agrees e cf bs He Hc Hb Ho Hl t sched Ht). Qed.
Print Assumptions C63_from_reader.
Theorem C63_to_vec e t v : env_wf e -> has_type e v t -> shape_wf t -> size_of e t v <= U64_MAX ->
  to_vec e false t v = to_vec e true t v.
Proof. exact (to_vec_same e t v). Qed.
Print Assumptions C63_to_vec.

(** A history mixing writing, a dynamic blob, seeking and reading. *)
Definition ex_calls : list call :=
  [CWriteU64 1 7; CWriteBlobDyn 2; CBlob (BWriteAll [1; 2; 3]); CBlob (BSeek (SkStart 1)); CBlob (BSeek (SkEnd (-100)%Z)); CBlob (BWrite [9]); CCommit;
   CPadAlign 4; CWriteEnd; CSeek (SkStart 0); CNextField; CNextElement; CBlob (BReadFully 10); CNextField; CNextField].
Example C63_instance :
  no_panic (fst (run_calls ex_calls ONone (new_stream true true (mkDev [] 0 [EvShort 1; EvIntr])))) /\
  fst (run_calls ex_calls ONone (new_stream false true (mkDev [] 0 [EvShort 1; EvIntr])))
    = fst (run_calls ex_calls ONone (new_stream true true (mkDev [] 0 [EvShort 1; EvIntr]))) /\
  nth 12 (fst (run_calls ex_calls ONone (new_stream true true (mkDev [] 0 [EvShort 1; EvIntr])))) RFuel = ROk (VBop (BBytes [1; 9])).
Proof.
  split; [vm_compute; repeat (constructor; [discriminate|]); constructor|]. split; vm_compute; reflexivity.
Qed.
(** Misuse that a checked build reports by a panic: tag 64, an alignment that
    is not a power of two, and seeking in a blob by [i64::MIN]. *)
Example C63_panics :
  (fst (write_u64 64 1 (new_stream true true (mkDev [] 0 []))) = RPanic /\
   fst (write_u64 64 1 (new_stream false true (mkDev [] 0 []))) = ROk tt) /\
  (fst (pad_to_align 3 (new_stream true true (mkDev [] 0 []))) = RPanic /\
   fst (pad_to_align 3 (new_stream false true (mkDev [] 0 []))) = ROk tt) /\
  (fst (run_calls [CWriteBlobAlloc 1 3; CBlob (BSeek (SkCur (- 2 ^ 63)%Z))] ONone (new_stream true true (mkDev [] 0 [])))
     = [ROk (VBlobLen 3); RPanic] /\
   fst (run_calls [CWriteBlobAlloc 1 3; CBlob (BSeek (SkCur (- 2 ^ 63)%Z))] ONone (new_stream false true (mkDev [] 0 [])))
     = [ROk (VBlobLen 3); RErr (SIo IoInvalidInput)]).
Proof. vm_compute. repeat split; reflexivity. Qed.
