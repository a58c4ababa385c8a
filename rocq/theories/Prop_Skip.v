(** * Properties C16 and C53: skipping *)

From Verif Require Import Base Wire Dev Stream SpecWire SpecFormat SpecStream P_Stream P_Skip.

(** ** C16.  Reading a struct or enum field and calling [Field::skip] on it
    places the stream right after the end of that field, whatever complete
    items are inside and however deep. *)
Theorem C16_skip_struct_field s t v h body bs tl :
  v = HvStruct \/ (exists d, v = HvEnum d) ->
  hdr_enc (HdField t v) h -> wf_items body -> elems_enc (body ++ [DEnd]) bs ->
  positioned s (h ++ bs ++ tl) ->
  s_pos s + pend s + lenN h + lenN bs <= U64_MAX ->
  s_depth s + 2 * lenN bs + 3 < U64_MAX ->
  exists f s1 s2, next_element s = (ROk (ElField f), s1) /\ f_tag f = t /\ f_val f = vhdr_of v /\
    field_skip f s1 = (ROk tt, s2) /\ positioned s2 tl /\ s_depth s2 = field_depth (s_depth s) /\
    s_pos s2 + pend s2 = s_pos s + pend s + lenN h + lenN bs.
Proof. exact (read_skip_ok s t v h body bs tl). Qed.
Print Assumptions C16_skip_struct_field.

(** For integers and blobs [Field::skip] has nothing to do (a blob is passed
    over by the next operation, C11). *)
Theorem C16_skip_leaf_field s f : (exists n, f_val f = HInt n) \/ (exists n, f_val f = HBlob n) ->
  field_skip f s = (ROk tt, s).
Proof. exact (field_skip_leaf s f). Qed.
Print Assumptions C16_skip_leaf_field.

(** [skip_up(D)] consumes elements exactly up to the one that brings the
    depth down to [D] (or ends the document). *)
Theorem C16_skip_up D es bs s tl : es <> [] ->
  elems_enc es bs -> positioned s (bs ++ tl) -> s_pos s + pend s + lenN bs <= U64_MAX ->
  s_depth s + 2 * N.of_nat (length es) + 1 < U64_MAX ->
  stays_below D (s_depth s) es -> depth_through es (s_depth s) <= D ->
  exists s', skip_up D s = (ROk tt, s') /\
    positioned (set_eof_ false s') tl /\
    s_eof s' = (match last es DPad with DEof => true | _ => false end) /\
    s_depth s' = depth_through es (s_depth s) /\
    s_pos s' + pend s' = s_pos s + pend s + lenN bs.
Proof. exact (skip_up_ok D es bs s tl). Qed.
Print Assumptions C16_skip_up.

(** On any input at all, after any number of elements were read, [skip_up]
    returns (with success or an error). *)
Theorem C16_skip_up_terminates dbg sk gr data n es s D :
  bytes_ok data -> lenN data + 3 < U64_MAX ->
  next_elements n (set_graceful_ gr (new_stream dbg sk (mkDev data 0 []))) = (ROk es, s) ->
  match fst (skip_up D s) with RPanic | RFuel => False | _ => True end.
Proof. exact (fresh_skip_up_terminates dbg sk gr data n es s D). Qed.
Print Assumptions C16_skip_up_terminates.

(** A struct containing an enum, padding and a blob, followed by a field. *)
Definition c16_body : list delem :=
  [DField 3 (DEnumV 5); DField 1 (DInt 1); DPad; DEnd; DField 2 (DBlobV [0; 0])].
Definition c16_bytes : bytes := [0x03; 5; 0x41; 1; 0xC0; 0x00; 0x82; 2; 0; 0; 0x00].
Example C16_instance :
  wf_items c16_body /\ elems_enc (c16_body ++ [DEnd]) c16_bytes /\ hdr_enc (HdField 7 HvStruct) [0xC7] /\
  positioned (from_slice true ([0xC7] ++ c16_bytes ++ [0x44; 9])) ([0xC7] ++ c16_bytes ++ [0x44; 9]) /\
  stays_below 1 2 (c16_body ++ [DEnd]) /\ depth_through (c16_body ++ [DEnd]) 2 = 1 /\
  fst ((let* e := next_element in
        match e with ElField f => field_skip f | _ => mpanic end ;; next_element)
         (from_slice true ([0xC7] ++ c16_bytes ++ [0x44; 9]))) = ROk (ElField (mkField 4 12 1 (HInt 9))).
Proof.
  assert (L : forall n, n < 128 -> legal_varint [n] n).
  { intros n Hn. split.
    - exists [], n. repeat split; try constructor. exact Hn.
    - repeat split; cbn; try lia; vm_compute; discriminate. }
  split.
  { change c16_body with (DField 3 (DEnumV 5) :: [DField 1 (DInt 1); DPad] ++ DEnd :: [DField 2 (DBlobV [0; 0])]).
    repeat constructor. }
  split.
  { assert (A : elem_enc (DField 3 (DEnumV 5)) [0x03; 5]).
    { exists [0x03; 5]. split; [|split; [constructor|reflexivity]].
      apply (EncEnum 3 5 [5]); [unfold tag_ok; lia|apply L; lia|repeat constructor]. }
    assert (B : elem_enc (DField 1 (DInt 1)) [0x41; 1]).
    { exists [0x41; 1]. split; [|split; [constructor|reflexivity]].
      apply (EncInt 1 1 [1]); [unfold tag_ok; lia|apply L; lia|repeat constructor]. }
    assert (C : elem_enc DPad [0xC0]) by (exists [0xC0]; repeat split; constructor).
    assert (D : elem_enc DEnd [0x00]) by (exists [0x00]; repeat split; constructor).
    assert (F : elem_enc (DField 2 (DBlobV [0; 0])) [0x82; 2; 0; 0]).
    { exists [0x82; 2]. split; [|split; [repeat constructor|reflexivity]].
      apply (EncBlob 2 2 [2]); [unfold tag_ok; lia|apply L; lia|repeat constructor]. }
    apply (EncCons _ _ _ [0x41; 1; 0xC0; 0x00; 0x82; 2; 0; 0; 0x00] A).
    apply (EncCons _ _ _ [0xC0; 0x00; 0x82; 2; 0; 0; 0x00] B).
    apply (EncCons _ _ _ [0x00; 0x82; 2; 0; 0; 0x00] C). apply (EncCons _ _ _ [0x82; 2; 0; 0; 0x00] D).
    apply (EncCons _ _ _ [0x00] F). apply (EncCons _ _ _ [] D). constructor. }
  split; [apply (EncStruct 7); unfold tag_ok; lia|].
  split.
  { split; [constructor; try (left; reflexivity); [reflexivity|repeat constructor|vm_compute; discriminate]|].
    split; [reflexivity|]. split; [vm_compute; discriminate|reflexivity]. }
  split; [cbn; unfold field_depth; lia|]. split; vm_compute; reflexivity.
Qed.

(** ** C53.  [skip_up] always returns.  Not so after [set_struct_depth] at
    the end of a document: the loop then makes no progress. *)
Theorem C53_skip_up_always_returns_refuted :
  exists data s, snd (next_element (from_slice true data)) = s /\ s_eof s = true /\
    forall d D, D < d -> skip_up D (snd (set_struct_depth d s)) = (RFuel, snd (set_struct_depth d s)).
Proof. exact skip_up_refuted. Qed.
Print Assumptions C53_skip_up_always_returns_refuted.

(** It does return whenever the depth is one that reading produced. *)
Theorem C53_skip_up_returns_partial dbg sk gr data n es s D :
  bytes_ok data -> lenN data + 3 < U64_MAX ->
  next_elements n (set_graceful_ gr (new_stream dbg sk (mkDev data 0 []))) = (ROk es, s) ->
  match fst (skip_up D s) with RPanic | RFuel => False | _ => True end.
Proof. exact (fresh_skip_up_terminates dbg sk gr data n es s D). Qed.
Print Assumptions C53_skip_up_returns_partial.

Example C53_instance :
  bytes_ok [0xC1; 0xC1; 0x40] /\ lenN [0xC1; 0xC1; 0x40] + 3 < U64_MAX /\
  fst (next_elements 2 (new_stream true false (mkDev [0xC1; 0xC1; 0x40] 0 []))) =
    ROk [ElField (mkField 1 0 1 HStruct); ElField (mkField 1 1 2 HStruct)] /\
  fst (skip_up 0 (snd (next_elements 2 (new_stream true false (mkDev [0xC1; 0xC1; 0x40] 0 []))))) = ROk tt.
Proof. split; [repeat constructor|]. repeat split; vm_compute; reflexivity. Qed.
