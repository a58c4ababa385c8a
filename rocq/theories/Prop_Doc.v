(** * Prop_Doc: only the logical document matters *)

From Verif Require Import Base Wire Dev Stream Types Ser Prog De SpecWire SpecFormat SpecStream SpecDe SpecDoc SpecSerDe P_Same P_Ex.

(** ** C46.  Two byte strings that encode the same elements (integers,
    lengths and padding encoded in different ways) deserialise to the same
    value or to the same kind of error in the same place.  [es] need not be
    a well-formed document: it may be cut short, or hold exceptions or an
    end of document anywhere. *)
Theorem C46_only_the_document_matters e zc cf t es bs1 bs2 dbg k1 k2 :
  env_ok e -> deserialisable e zc t -> cf_collect cf <= U64_MAX -> cf_blob cf <= U64_MAX ->
  encodes es bs1 -> encodes es bs2 -> bytes_ok bs1 -> bytes_ok bs2 -> lenN bs1 + 3 < U64_MAX -> lenN bs2 + 3 < U64_MAX ->
  same_result (fst (from_stream e zc cf t (new_stream dbg k1 (mkDev bs1 0 []))))
              (fst (from_stream e zc cf t (new_stream dbg k2 (mkDev bs2 0 [])))).
Proof. exact (same_fresh e zc cf t es bs1 bs2 dbg k1 k2). Qed.
Print Assumptions C46_only_the_document_matters.

(** 300 in two encodings, with and without padding: the same value as
    [(u16,)], the same error as [(u8,)]. *)
Example C46_instance :
  let b1 := [0x41; 0xAC; 0x02; 0x00] in
  let b2 := [0xC0; 0x41; 0xAC; 0x82; 0x00; 0xC0; 0x00; 0xC0] in
  encodes [DField 1 (DInt 300); DEnd] b1 /\ encodes [DField 1 (DInt 300); DEnd] b2 /\
  from_slice_copy ex_env true default_cfg (TTuple [TUInt 16]) b1 = ROk (VRec [VU 300]) /\
  from_slice_copy ex_env true default_cfg (TTuple [TUInt 16]) b2 = ROk (VRec [VU 300]) /\
  from_slice_copy ex_env true default_cfg (TTuple [TUInt 8]) b1 = RErr (mkErr [("field_0"%string, 0)] (KStream SOutOfRange)) /\
  from_slice_copy ex_env true default_cfg (TTuple [TUInt 8]) b2 = RErr (mkErr [("field_0"%string, 1)] (KStream SOutOfRange)).
Proof.
  split; [apply encodes_by; reflexivity|]. split; [apply encodes_by; reflexivity|]. vm_compute. repeat split; reflexivity.
Qed.

(** ** C47.  An end of document in place of the last ends of structs. *)
Theorem C47_end_of_document e zc cf t ks X k bs1 b2 tl1 tl2 dbg k1 k2 :
  env_ok e -> deserialisable e zc t -> cf_collect cf <= U64_MAX -> cf_blob cf <= U64_MAX ->
  document ks = X ++ repeat DEnd (S k) -> encodes_doc ks bs1 -> encodes X b2 ->
  bytes_ok (bs1 ++ tl1) -> bytes_ok (b2 ++ [0x40] ++ tl2) -> lenN (bs1 ++ tl1) + 3 < U64_MAX -> lenN (b2 ++ [0x40] ++ tl2) + 3 < U64_MAX ->
  same_result (fst (from_stream e zc cf t (new_stream dbg k1 (mkDev (bs1 ++ tl1) 0 []))))
              (fst (from_stream e zc cf t (new_stream dbg k2 (mkDev (b2 ++ [0x40] ++ tl2) 0 [])))).
Proof. exact (eof_fresh e zc cf t ks X k bs1 b2 tl1 tl2 dbg k1 k2). Qed.
Print Assumptions C47_end_of_document.

(** [(Option<(u8, String)>,)] with three structs left open. *)
Example C47_instance :
  let ks := [(1, NStruct [(1, NInt 5); (2, NBlob [104; 105])])] in
  let X := [DField 1 DStructV; DField 1 (DInt 5); DField 2 (DBlobV [104; 105])] in
  let b1 := [0xC1; 0x41; 5; 0x82; 2; 104; 105; 0x00; 0x00] in
  let b2 := [0xC1; 0x41; 5; 0x82; 2; 104; 105] in
  let t := TTuple [TOption (TTuple [TUInt 8; TString])] in
  document ks = X ++ repeat DEnd 2 /\ encodes_doc ks b1 /\ encodes X b2 /\
  from_slice_copy ex_env true default_cfg t b1 = ROk (VRec [VOpt (Some (VRec [VU 5; VStr [104; 105]]))]) /\
  from_slice_copy ex_env true default_cfg t (b2 ++ [0x40]) = ROk (VRec [VOpt (Some (VRec [VU 5; VStr [104; 105]]))]) /\
  (exists x, from_slice_copy ex_env true default_cfg t b2 = RErr x).
Proof.
  split; [reflexivity|]. split.
  { exists [0xC1; 0x41; 5; 0x82; 2; 104; 105; 0x00]. split; [apply encodes_by; reflexivity|reflexivity]. }
  split; [apply encodes_by; reflexivity|]. split; [vm_compute; reflexivity|]. split; [vm_compute; reflexivity|].
  eexists. vm_compute. reflexivity.
Qed.
