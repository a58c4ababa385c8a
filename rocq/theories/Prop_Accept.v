(** * Prop_Accept: which inputs are accepted *)

From Verif Require Import Base Wire Dev Stream Types Ser Prog De SpecWire SpecFormat SpecStream SpecDe SpecDoc SpecSerDe SpecRead SpecAccept P_Accept P_Exact P_Amp P_Unk P_Ex Prop_Meaning.

(** ** C59.  Whatever input is accepted, from a slice or any reader, begins
    with a whole well-formed document, exceptions in skipped places aside,
    and the value returned is what that document means. *)
Theorem C59_accepted e zc cf t dbg sk bs sched v s' : usable e zc cf t -> bytes_ok bs -> 2 * lenN bs + 3 < U64_MAX ->
  from_stream e zc cf t (new_stream dbg sk (mkDev bs 0 sched)) = (ROk v, s') ->
  exists ks x, begins_with ks bs /\ denotes e (cf_ignore cf) zc t ks v x /\ fits cf x.
Proof. exact (accepted e zc cf t dbg sk bs sched v s'). Qed.
Print Assumptions C59_accepted.

(** If there are no exceptions, these are exactly the inputs accepted. *)
Theorem C59_accepted_exactly e zc cf t dbg sk bs sched v : usable e zc cf t -> bytes_ok bs -> 2 * lenN bs + 3 < U64_MAX ->
  Forall (fun y => y <> EvFail) sched -> exception_free bs ->
  fst (from_stream e zc cf t (new_stream dbg sk (mkDev bs 0 sched))) = ROk v <->
  exists ks x, begins_with_plain ks bs /\ denotes e (cf_ignore cf) zc t ks v x /\ fits cf x.
Proof. exact (accepted_exactly e zc cf t dbg sk bs sched v). Qed.
Print Assumptions C59_accepted_exactly.

(** A whole document is accepted whatever follows it, exceptions included. *)
Theorem C59_documents_accepted e zc cf t dbg sk bs sched ks v x : usable e zc cf t -> bytes_ok bs -> 2 * lenN bs + 3 < U64_MAX ->
  Forall (fun y => y <> EvFail) sched -> begins_with_plain ks bs -> denotes e (cf_ignore cf) zc t ks v x -> fits cf x ->
  fst (from_stream e zc cf t (new_stream dbg sk (mkDev bs 0 sched))) = ROk v.
Proof. exact (document_accepted e zc cf t dbg sk bs sched ks v x). Qed.
Print Assumptions C59_documents_accepted.

(** Nothing more than that document is consumed: the stream is left right
    behind its last byte. *)
Theorem C59_consumed_exactly e zc cf t dbg sk bs sched v s' : usable e zc cf t -> bytes_ok bs -> 2 * lenN bs + 3 < U64_MAX ->
  from_stream e zc cf t (new_stream dbg sk (mkDev bs 0 sched)) = (ROk v, s') ->
  exists b0 tl es ks x, bs = b0 ++ tl /\ encodes es b0 /\ closes (filter not_exc es) ks /\
    denotes e (cf_ignore cf) zc t ks v x /\ fits cf x /\ s_pos s' = lenN b0 /\ unread s' = tl.
Proof. exact (consumed_exactly e zc cf t dbg sk bs sched v s'). Qed.
Print Assumptions C59_consumed_exactly.

(** The document of the other examples, and the same with an end-of-document
    marker and other bytes after it; the second with an exception inside an
    unknown struct, which is accepted too; the third without its end. *)
Definition ex_unfinished : bytes := removelast ex_bytes.
Example C59_instance :
  usable ex_env false default_cfg (TItem 0) /\
  begins_with_plain ex_fields ex_bytes /\ exception_free ex_bytes /\
  begins_with_plain ex_fields (ex_unfinished ++ [0x40; 0x80; 1]) /\
  denotes ex_env true false (TItem 0) ex_fields ex_value (mkX 2 4 5) /\ fits default_cfg (mkX 2 4 5) /\
  from_slice_copy ex_env true default_cfg (TItem 0) (ex_unfinished ++ [0x40; 0x80; 1]) = ROk ex_value /\
  exists err, from_slice_copy ex_env true default_cfg (TItem 0) ex_unfinished = RErr err.
Proof.
  assert (H0 : encodes (flat ex_fields) ex_unfinished) by (apply encodes_by; reflexivity).
  split; [apply ex_usable|]. split.
  { exists ex_bytes, [], (document ex_fields). split; [reflexivity|]. split; [apply encodes_by; reflexivity|]. now left. }
  split; [apply no_80_free; cbn; intuition discriminate|]. split.
  { exists (ex_unfinished ++ [0x40]), [0x80; 1], (flat ex_fields ++ [DEof]). split; [reflexivity|]. split; [apply encodes_by; reflexivity|].
    right. exists (flat ex_fields), O. split; reflexivity. }
  split; [exists 3%nat; vm_compute; reflexivity|]. split; [vm_compute; repeat split; discriminate|].
  split; [vm_compute; reflexivity|]. vm_compute. eexists. reflexivity.
Qed.
(** An exception where nobody looks. *)
Definition ex_skipped : bytes := [0x41; 5; 0xC9; 0x80; 1; 33; 0x00; 0x00].
Example C59_exception_instance :
  begins_with [(1, NInt 5); (9, NStruct [])] ex_skipped /\
  from_slice_copy ex_env true default_cfg (TTuple [TUInt 8]) ex_skipped = ROk (VRec [VU 5]).
Proof.
  split; [|vm_compute; reflexivity].
  exists ex_skipped, [], [DField 1 (DInt 5); DField 9 DStructV; DExc [33]; DEnd; DEnd]. split; [reflexivity|].
  split; [apply encodes_by; reflexivity|]. left. reflexivity.
Qed.

(** An end of document with other bytes behind it, which stay unread. *)
Example C59_consumed_instance :
  exists s', from_stream ex_env false default_cfg (TItem 0) (new_stream true false (mkDev (ex_unfinished ++ [0x40; 0x80; 1]) 0 [EvShort 1; EvIntr])) = (ROk ex_value, s') /\
  s_pos s' = lenN ex_unfinished + 1 /\ unread s' = [0x80; 1].
Proof. vm_compute. eexists. repeat split; reflexivity. Qed.
