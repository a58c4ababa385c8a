(** * Prop_GiveUp: a writer that gives up with an exception is understood *)

From Verif Require Import Base Wire Dev Stream Types Ser Prog De SpecFormat SpecStream SpecDoc SpecDe SpecRead SpecSerDe
  P_GiveUp P_Ex Prop_Meaning Prop_SerDe.

(** ** C78.  The input starts with the encodings of the first elements [es] of a
    document [ks] that would have been accepted, unknown fields refused, and
    instead of the rest there is an exception.  Whatever follows it, however
    the reader delivers it and whether or not unknown fields are ignored:
    deserialisation reports the exception with (the first 256 bytes of) its
    message. *)
Theorem C78_gives_up e zc cf t dbg sk sched ks v x es es2 b m bx tl : usable e zc cf t ->
  denotes e false zc t ks v x -> fits cf x -> lenN (document ks) <= U64_MAX -> document ks = es ++ es2 -> es2 <> [] ->
  encodes es b -> elem_enc (DExc m) bx -> bytes_ok (b ++ bx ++ tl) -> lenN (b ++ bx ++ tl) + 3 < U64_MAX -> Forall (fun y => y <> EvFail) sched ->
  exists err, fst (from_stream e zc cf t (new_stream dbg sk (mkDev (b ++ bx ++ tl) 0 sched))) = RErr err /\
    e_kind err = KStream (SException (takeN 256 m)).
Proof. exact (gives_up e zc cf t dbg sk sched ks v x es es2 b m bx tl). Qed.
Print Assumptions C78_gives_up.

(** The same for what the serialiser writes for a value: cut it anywhere
    between two elements before its end, and put an exception there. *)
Theorem C78_value_gives_up e zc cf t v dw dbg sk sched bs b c es m bx tl : env_wf e -> cf_collect cf <= U64_MAX -> cf_blob cf <= U64_MAX ->
  no_unit_body e t -> has_type e v t -> shape_wf t -> deserialisable e zc t -> admits cf e zc v t -> size_of e t v + 3 < U64_MAX ->
  to_vec e dw t v = ROk bs -> bs = b ++ c -> c <> [] -> encodes es b ->
  elem_enc (DExc m) bx -> bytes_ok (b ++ bx ++ tl) -> lenN (b ++ bx ++ tl) + 3 < U64_MAX -> Forall (fun y => y <> EvFail) sched ->
  exists err, fst (from_stream e zc cf t (new_stream dbg sk (mkDev (b ++ bx ++ tl) 0 sched))) = RErr err /\
    e_kind err = KStream (SException (takeN 256 m)).
Proof. exact (value_gives_up e zc cf t v dw dbg sk sched bs b c es m bx tl). Qed.
Print Assumptions C78_value_gives_up.

(** Without an exception, if the input just ends there, the error is
    [UnexpectedEof]. *)
Theorem C78_cut_short e zc cf t dbg sk sched ks v x es es2 b : usable e zc cf t ->
  denotes e false zc t ks v x -> fits cf x -> lenN (document ks) <= U64_MAX -> document ks = es ++ es2 -> es2 <> [] ->
  encodes es b -> bytes_ok b -> lenN b + 3 < U64_MAX -> Forall (fun y => y <> EvFail) sched ->
  exists err, fst (from_stream e zc cf t (new_stream dbg sk (mkDev b 0 sched))) = RErr err /\
    e_kind err = KStream (SIo IoUnexpectedEof).
Proof. exact (cut_short e zc cf t dbg sk sched ks v x es es2 b). Qed.
Print Assumptions C78_cut_short.

(** The example value given up in the middle of the nested enum: the
    exception is reported, with the place.  The last line is why the document
    is to be one without unknown fields: inside a struct that is skipped the
    exception is not noticed. *)
Definition ex_begun : bytes := [0x41; 0xAC; 0x02; 0x82; 2; 104; 105; 0xC3; 0x41; 7; 0x82; 0; 0x00; 0x04; 2; 0x41; 5].
Definition ex_begun_elems : list delem :=
  [DField 1 (DInt 300); DField 2 (DBlobV [104; 105]); DField 3 DStructV; DField 1 (DInt 7); DField 2 (DBlobV []); DEnd; DField 4 (DEnumV 2); DField 1 (DInt 5)].
Example C78_instance :
  ex_bytes = ex_begun ++ dropN 17 ex_bytes /\ dropN 17 ex_bytes <> [] /\ encodes ex_begun_elems ex_begun /\
  usable ex_env false default_cfg (TItem 0) /\ denotes ex_env false false (TItem 0) ex_fields ex_value (mkX 2 4 5) /\ fits default_cfg (mkX 2 4 5) /\
  lenN (document ex_fields) <= U64_MAX /\ no_unit_body ex_env (TItem 0) /\
  elem_enc (DExc [100; 105; 115; 107]) [0x80; 4; 100; 105; 115; 107] /\
  fst (from_stream ex_env false default_cfg (TItem 0) (new_stream true true (mkDev (ex_begun ++ [0x80; 4; 100; 105; 115; 107] ++ [1; 2; 3]) 0 [EvIntr; EvShort 1]))) =
    RErr (mkErr [("shape"%string, 13)] (KStream (SException [100; 105; 115; 107]))) /\
  fst (from_stream ex_env false default_cfg (TItem 0) (new_stream true true (mkDev ex_begun 0 []))) =
    RErr (mkErr [("shape"%string, 13)] (KStream (SIo IoUnexpectedEof))) /\
  fst (from_stream ex_env false default_cfg (TTuple []) (new_stream true true (mkDev ([0xC1] ++ [0x80; 4; 100; 105; 115; 107] ++ [0; 0]) 0 []))) = ROk (VRec []).
Proof.
  split; [reflexivity|]. split; [discriminate|]. split; [apply encodes_by; reflexivity|]. split; [apply ex_usable|].
  split; [exists 3%nat; vm_compute; reflexivity|]. split; [vm_compute; repeat split; discriminate|]. split; [vm_compute; discriminate|].
  split; [exact (proj1 C55_instance)|]. split.
  { exists [0x80; 4]. split; [|split; [|reflexivity]].
    - apply EncExc; [|repeat constructor]. split; [exists [], 4; repeat split; constructor|repeat split; vm_compute; reflexivity || discriminate].
    - repeat constructor. }
  split; [vm_compute; reflexivity|]. split; vm_compute; reflexivity.
Qed.
