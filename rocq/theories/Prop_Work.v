(** * Prop_Work: deserialising looks at no more elements than there are bytes (C83) *)

From Verif Require Import Base Wire Dev Stream Types Ser Prog De SpecStream SpecSerDe SpecWork P_Work.
Local Open Scope N_scope.

(** ** C83.  However reading ends, the elements asked of the stream
    ([Stream::next_field]) number at most the bytes consumed, plus the
    recursion limit, plus one.  Bytes that are claimed to be there and are only
    skipped by a seek do not count: [inside] is how far into the input the
    reader is.  ([s_commit s] is what the stream still has to do for the
    caller's last field: nothing, or to skip the rest of its blob.) *)
Theorem C83_next_calls e zc cf t s r s' n :
  s_pos s <= U64_MAX -> s_commit s = None \/ s_commit s = Some CSkipBlob ->
  from_stream_counted e zc cf t s = (r, s', n) ->
  let inside x := N.min (d_pos (s_dev x)) (lenN (d_data (s_dev s))) in
  inside s + n <= inside s' + cf_rec cf + 1.
Proof. exact (work e zc cf t s r s' n). Qed.
Print Assumptions C83_next_calls.

(** In terms of the stream's positions, and of the input that was left. *)
Theorem C83_consumed e zc cf t s r s' n :
  s_pos s <= U64_MAX -> s_commit s = None \/ s_commit s = Some CSkipBlob ->
  from_stream_counted e zc cf t s = (r, s', n) ->
  s_pos s + n <= s_pos s' + cf_rec cf + 1 /\ n <= lenN (unread s) + cf_rec cf + 1.
Proof. exact (fun Hp Hc H => conj (work_consumed e zc cf t s r s' n Hp Hc H) (work_left e zc cf t s r s' n Hp Hc H)). Qed.
Print Assumptions C83_consumed.

(** What is counted is the real run: the same result, the same stream after it. *)
Theorem C83_counting_changes_nothing e zc cf t s :
  fst (from_stream_counted e zc cf t s) = from_stream e zc cf t s.
Proof. exact (counted_same e zc cf t s). Qed.
Print Assumptions C83_counting_changes_nothing.

(** The example document has 30 bytes and 15 elements and ends of structs.
    Three nested structs cut off on a stream that takes the end of input for
    the end of everything reach the bound: 7 calls for 3 bytes at limit 3.  A blob said to have 100
    bytes, skipped by a seek beyond the end of an input of 2: the position is
    102, the calls are 2. *)
Example C83_instance :
  (let '(r, s', n) := from_stream_counted ex_env false default_cfg (TItem 0) (from_slice true ex_bytes) in
   r = ROk ex_value /\ s_pos s' = 30 /\ n = 15) /\
  (let '(r, s', n) := from_stream_counted ex_env false (mkCfg 3 false 65536 65536) TUnknown (set_graceful_ true (from_slice true [0xC1; 0xC1; 0xC1])) in
   r = ROk (VUnk [(1, NStruct [(1, NStruct [(1, NStruct [])])])]) /\ s_pos s' = 3 /\ n = 7) /\
  (let '(r, s', n) := from_stream_counted ex_env false (mkCfg 3 true 65536 65536) (TTuple []) (set_graceful_ true (new_stream true true (mkDev [0x81; 100] 0 []))) in
   r = ROk (VRec []) /\ s_pos s' = 102 /\ d_pos (s_dev s') = 102 /\ n = 2).
Proof. vm_compute. repeat split. Qed.
