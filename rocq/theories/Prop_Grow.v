(** * Prop_Grow: reading and writing back does not make data grow *)

From Verif Require Import Base Wire Dev Stream Types Ser Prog De SpecFormat SpecStream SpecDe SpecDoc SpecSerDe SpecRead SpecEdit SpecCompat SpecGrow P_Meaning P_Order P_Ex P_GrowB P_GrowC.
Local Open Scope N_scope.

(** ** C81.  What is written back after reading is no longer than the document
    that was read: for any byte string [b] that encodes the document, however
    densely, the output is no longer than [b].  The types must not have [()]
    as a delegated body nor [[u8; 0]] anywhere (both are written although they
    may be absent, see below).  That the value can be written at all is part
    of the claim. *)
Theorem C81_document e zc cf t ks s v b dw : env_wf e -> shape_wf t -> no_unit_body e t -> ~ empty_bytes e t ->
  deserialisable e zc t -> cf_collect cf <= U64_MAX -> cf_blob cf <= U64_MAX ->
  doc_stream ks s -> fst (from_stream e zc cf t s) = ROk v -> encodes_doc ks b -> 22 * lenN b <= U64_MAX ->
  exists out, to_vec e dw t v = ROk out /\ lenN out <= lenN b.
Proof. exact (fun Hwf Hsh Hu Hn => grown_doc e t Hwf Hsh Hu Hn zc cf ks s v b dw). Qed.
Print Assumptions C81_document.

(** For any input at all (exceptions, padding, a document cut short by an
    end-of-document marker): the output is shorter than twice what has been
    consumed, and reading it gives the value again. *)
Theorem C81_any_input e zc cf t dbg sk bs sched v s' dw dr : env_wf e -> shape_wf t -> no_unit_body e t -> ~ empty_bytes e t ->
  deserialisable e zc t -> cf_collect cf <= U64_MAX -> cf_blob cf <= U64_MAX ->
  bytes_ok bs -> 22 * lenN bs + 6 < U64_MAX ->
  from_stream e zc cf t (new_stream dbg sk (mkDev bs 0 sched)) = (ROk v, s') ->
  exists out, to_vec e dw t v = ROk out /\ fst (from_stream e zc cf t (from_slice dr out)) = ROk v /\ lenN out + 1 <= 2 * s_pos s'.
Proof. exact (grown_any_input e zc cf t dbg sk bs sched v s' dw dr). Qed.
Print Assumptions C81_any_input.

(** An old program that passes on the data of a newer one (C32) does not make
    it longer either, and can always write it. *)
Theorem C81_passed_through eo en (zc ign : bool) J v t t' dw dw' : env_wf eo -> env_wf en -> all_older eo en J -> older J t' t ->
  no_unit_body en t -> no_unit_body eo t' -> ~ empty_bytes eo t' ->
  deserialisable eo zc t' -> deserialisable en zc t -> has_type en v t -> shape_wf t -> size_of en t v <= U64_MAX ->
  exists w bs bs', has_type eo w t' /\ to_vec en dw t v = ROk bs /\ read_as eo zc ign t' bs w /\
    to_vec eo dw' t' w = ROk bs' /\ read_as en zc ign t bs' v /\ lenN bs' <= lenN bs.
Proof. exact (passed_through_sized eo en zc ign J v t t' dw dw'). Qed.
Print Assumptions C81_passed_through.

(** The types of the example of C54 have no [[u8; 0]]. *)
Example C81_instance : ~ empty_bytes ex_env (TItem 0) /\ no_unit_body ex_env (TItem 0) /\ shape_wf (TItem 0) /\
  doc_stream grow_fields (from_slice false ex_bytes) /\ encodes_doc grow_fields ex_bytes /\
  fst (from_stream ex_env false default_cfg (TItem 0) (from_slice false ex_bytes)) = ROk ex_value /\
  to_vec ex_env true (TItem 0) ex_value = ROk ex_bytes.
Proof. exact grow_instance. Qed.

(** The factor of two: four bytes of input, seven bytes of output. *)
Example C81_twice :
  let v := VUnk [(1, NStruct [(1, NStruct [(1, NStruct [])])])] in
  from_slice_copy ex_env true default_cfg TUnknown [0xC1; 0xC1; 0xC1; 0x40] = ROk v /\
  to_vec ex_env true TUnknown v = ROk [0xC1; 0xC1; 0xC1; 0; 0; 0; 0].
Proof. split; vm_compute; reflexivity. Qed.

(** What the two premises exclude: an empty document is read and written back
    as three bytes. *)
Example C81_unit_grows :
  from_slice_copy ex_env true default_cfg (TTuple []) [0] = ROk (VRec []) /\
  to_vec ex_env true (TTuple []) (VRec []) = ROk [0xC1; 0; 0].
Proof. split; vm_compute; reflexivity. Qed.
Example C81_empty_array_grows :
  let t := TTuple [TArray 0 (TUInt 8)] in
  from_slice_copy ex_env true default_cfg t [0] = ROk (VRec [VArrB []]) /\
  to_vec ex_env true t (VRec [VArrB []]) = ROk [0x81; 0; 0].
Proof. split; vm_compute; reflexivity. Qed.
