(** * Prop_Grace: handling the end of the input gracefully (C69) *)

From Verif Require Import Base Wire Dev Stream Types Prog Ser De SpecFormat SpecStream SpecBlob SpecHist SpecDe SpecDoc SpecSerDe
  P_Grace P_Quiet P_Ex.

(** ** C69.  [ks] is a document, [X] its elements up to some place where only
    ends of structs remain.  If the input ends there, a stream set to handle
    that gracefully deserialises what it does from a complete encoding of the
    document: the same value, or the same error. *)
Theorem C69_end_of_input_closes e zc cf t ks X k bs1 b2 tl1 dbg k1 k2 :
  env_ok e -> deserialisable e zc t -> cf_collect cf <= U64_MAX -> cf_blob cf <= U64_MAX ->
  document ks = X ++ repeat DEnd (S k) -> encodes_doc ks bs1 -> encodes X b2 ->
  bytes_ok (bs1 ++ tl1) -> bytes_ok b2 -> lenN (bs1 ++ tl1) + 3 < U64_MAX -> lenN b2 + 3 < U64_MAX ->
  same_result (fst (from_stream e zc cf t (new_stream dbg k1 (mkDev (bs1 ++ tl1) 0 []))))
              (fst (from_stream e zc cf t (snd (set_graceful_eof true (new_stream dbg k2 (mkDev b2 0 [])))))).
Proof. exact (grace_fresh e zc cf t ks X k bs1 b2 tl1 dbg k1 k2). Qed.
Print Assumptions C69_end_of_input_closes.

(** It changes nothing else.  A history of calls, reading or writing, in any
    state of the stream and with any behaviour of the device, that does not
    run into the end of the input has the same outcomes and effects with it. *)
Theorem C69_histories_unchanged cs op s xs op' s' :
  Forall (fun c => forall b, c <> CGraceful b) cs -> s_graceful s = false ->
  run_calls cs ONone s = (xs, (op', s')) -> Forall (fun r => r <> RErr (SIo IoUnexpectedEof)) xs ->
  s_graceful s' = false /\ run_calls (CGraceful true :: cs) op s = (ROk VUnit_ :: xs, (op', snd (set_graceful_eof true s'))).
Proof. intros Hc. exact (histories_graceful cs Hc op s xs op' s'). Qed.
Print Assumptions C69_histories_unchanged.
Theorem C69_deserialising_unchanged e zc cf t s v s' : s_graceful s = false ->
  from_stream e zc cf t s = (ROk v, s') ->
  from_stream e zc cf t (snd (set_graceful_eof true s)) = (ROk v, snd (set_graceful_eof true s')).
Proof. exact (from_stream_quiet e zc cf t s v s'). Qed.
Print Assumptions C69_deserialising_unchanged.

(** [(Option<(u8, String)>,)] cut off with two structs open. *)
Example C69_instance :
  let ks := [(1, NStruct [(1, NInt 5); (2, NBlob [104; 105])])] in
  let X := [DField 1 DStructV; DField 1 (DInt 5); DField 2 (DBlobV [104; 105])] in
  let b1 := [0xC1; 0x41; 5; 0x82; 2; 104; 105; 0x00; 0x00] in
  let b2 := [0xC1; 0xC0; 0x41; 5; 0x82; 2; 104; 105; 0xC0] in
  let t := TTuple [TOption (TTuple [TUInt 8; TString])] in
  let v := VRec [VOpt (Some (VRec [VU 5; VStr [104; 105]]))] in
  document ks = X ++ repeat DEnd 2 /\ encodes_doc ks b1 /\ encodes X b2 /\
  fst (from_stream ex_env false default_cfg t (new_stream true false (mkDev b1 0 []))) = ROk v /\
  fst (from_stream ex_env false default_cfg t (snd (set_graceful_eof true (new_stream true false (mkDev b2 0 []))))) = ROk v /\
  fst (from_stream ex_env false default_cfg t (new_stream true false (mkDev b2 0 [])))
    = RErr (mkErr [("field_0"%string, 0)] (KStream (SIo IoUnexpectedEof))).
Proof.
  split; [reflexivity|]. split.
  { exists [0xC1; 0x41; 5; 0x82; 2; 104; 105; 0x00]. split; [apply encodes_by; reflexivity|reflexivity]. }
  split; [apply encodes_by; reflexivity|]. repeat split; vm_compute; reflexivity.
Qed.
(** A history that ends before the input does; one more call and the two
    differ. *)
Example C69_instance_history :
  let s := new_stream true true (mkDev [0x41; 7; 0x82; 2; 104; 105] 0 [EvShort 1; EvIntr; EvIntr]) in
  let cs := [CNextField; CNextElement; CBlob (BReadExact 1); CWriteU64 3 1] in
  Forall (fun c => forall b, c <> CGraceful b) cs /\
  Forall (fun r => r <> RErr (SIo IoUnexpectedEof)) (fst (run_calls cs ONone s)) /\
  fst (run_calls (CGraceful true :: cs) ONone s) = ROk VUnit_ :: fst (run_calls cs ONone s) /\
  fst (run_calls (CGraceful true :: cs ++ [CNextField]) ONone s) <> ROk VUnit_ :: fst (run_calls (cs ++ [CNextField]) ONone s).
Proof.
  split; [repeat constructor; discriminate|].
  split; [vm_compute; repeat (constructor; [discriminate|]); constructor|].
  split; [vm_compute; reflexivity|vm_compute; discriminate].
Qed.
