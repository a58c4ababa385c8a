(** * Properties C07, C08, C09, C13, C14: the element layer of streams *)

From Verif Require Import Base Wire Dev Stream SpecWire SpecFormat SpecStream P_Stream.

(** ** C07.  Whatever is written with the [write_*] methods on a fresh stream
    is read back, and [offs], the values of [pos()] before each write, are
    the offsets the reader reports. *)
Theorem C07_write_read_roundtrip dw kw dr kr gr es tail :
  Forall delem_ok es -> bytes_ok tail -> size_bound es + lenN tail + 2 <= U64_MAX ->
  exists offs sw sr,
    write_elems es (new_stream dw kw (mkDev [] 0 [])) = (ROk offs, sw) /\
    read_elems (length es) (set_graceful_ gr (new_stream dr kr (mkDev (d_data (s_dev sw) ++ tail) 0 [])))
      = (ROk (reported es offs 0), sr) /\
    unread sr = tail /\ s_pos sr = lenN (d_data (s_dev sw)).
Proof. exact (write_read_roundtrip dw kw dr kr gr es tail). Qed.
Print Assumptions C07_write_read_roundtrip.

(** A document with every kind of element. *)
Definition c07_example : list delem :=
  [DField 1 (DInt 300); DPad; DField 2 (DBlobV [7; 8; 9]); DField 3 DStructV;
   DField 63 (DEnumV 5); DEnd; DEnd; DExc [1]; DEof; DField 4 (DInt 0)].
Example C07_instance : Forall delem_ok c07_example /\ bytes_ok [1; 2] /\ size_bound c07_example + lenN [1; 2] + 2 <= U64_MAX.
Proof.
  repeat split; unfold c07_example; repeat constructor; unfold byte_ok, tag_ok; try lia; vm_compute; reflexivity || discriminate.
Qed.
Example C07_run :
  match write_elems c07_example (new_stream true false (mkDev [] 0 [])) with
  | (ROk offs, sw) =>
      offs = [0; 3; 4; 9; 10; 12; 13; 14; 17; 18] /\
      fst (read_elems 10 (new_stream true false (mkDev (d_data (s_dev sw) ++ [1; 2]) 0 [])))
        = ROk (reported c07_example offs 0)
  | _ => False
  end.
Proof. vm_compute. split; reflexivity. Qed.

(** ** C08.  [pend s] is what the caller left unread of the last blob. *)
Theorem C08_accepts_every_legal_encoding s hd h tl :
  rinv s -> s_eof s = false -> pend s <= lenN (unread s) ->
  dropN (pend s) (unread s) = h ++ tl -> hdr_enc hd h ->
  s_pos s + pend s + lenN h + hdr_payload hd <= U64_MAX ->
  s_depth s + 1 < U64_MAX ->
  exists s', next_element s = (ROk (elem_of hd (s_pos s + pend s) (s_depth s)), s') /\
    unread s' = tl /\ s_pos s' = s_pos s + pend s + lenN h /\
    s_depth s' = depth_after hd (s_depth s) /\ pend s' = hdr_payload hd /\
    s_eof s' = (match hd with HdEof => true | _ => false end) /\ rinv s'.
Proof. exact (elem_complete s hd h tl). Qed.
Print Assumptions C08_accepts_every_legal_encoding.

Theorem C08_consumes_exactly_one_legal_encoding s e s' :
  rinv s -> s_eof s = false -> s_depth s + 1 < U64_MAX ->
  next_element s = (ROk e, s') ->
  (exists blob hd h, unread s = blob ++ h ++ unread s' /\ lenN blob = pend s /\ hdr_enc hd h /\
     s_pos s + pend s + lenN h + hdr_payload hd <= U64_MAX /\
     e = elem_of hd (s_pos s + pend s) (s_depth s) /\
     s_pos s' = s_pos s + pend s + lenN h /\
     d_pos (s_dev s') = d_pos (s_dev s) + pend s + lenN h) \/
  (s_graceful s = true /\ e = ElEndOfDoc /\ unread s' = [] /\ lenN (unread s) <= pend s /\
   s_pos s' = s_pos s + pend s /\ d_pos (s_dev s') = d_pos (s_dev s) + pend s).
Proof. exact (elem_sound s e s'). Qed.
Print Assumptions C08_consumes_exactly_one_legal_encoding.

Theorem C08_never_panics s : rinv s -> s_depth s + 1 < U64_MAX ->
  match fst (next_element s) with RPanic | RFuel => False | _ => True end.
Proof. exact (elem_no_panic s). Qed.
Print Assumptions C08_never_panics.

(** A blob field whose length is written in a denormalised form, with a
    struct after it. *)
Definition c08_stream : stream := new_stream true false (mkDev [0x85; 0x82; 0x80; 0x00; 11; 12; 0xC1] 0 []).
Example C08_instance : rinv c08_stream /\ s_eof c08_stream = false /\ pend c08_stream = 0 /\
  s_depth c08_stream + 1 < U64_MAX /\
  hdr_enc (HdField 5 (HvBlob 2)) [0x85; 0x82; 0x80; 0x00].
Proof.
  split.
  { constructor; [reflexivity| |vm_compute; discriminate|now left].
    repeat constructor. }
  repeat split; try reflexivity.
  apply (EncBlob 5 2 [0x82; 0x80; 0]); [unfold tag_ok; lia| |repeat constructor].
  split; [|repeat split; vm_compute; (reflexivity || discriminate)].
  exists [0x82; 0x80], 0. repeat split; repeat constructor; unfold cont_byte, final_byte; lia.
Qed.
Example C08_run : fst (next_elements 2 c08_stream) =
  ROk [ElField (mkField 5 0 1 (HBlob 2)); ElField (mkField 1 6 1 HStruct)].
Proof. vm_compute. reflexivity. Qed.

(** ** C09 *)
Theorem C09_depth_is_nesting dbg sk gr data n es s' :
  bytes_ok data -> lenN data + 3 < U64_MAX ->
  next_elements n (set_graceful_ gr (new_stream dbg sk (mkDev data 0 []))) = (ROk es, s') ->
  s_depth s' = depth_of es 0 /\
  (forall i f, nth_error es i = Some (ElField f) -> f_depth f = field_depth (depth_of (firstn i es) 0)).
Proof. exact (depth_counter dbg sk gr data n es s'). Qed.
Print Assumptions C09_depth_is_nesting.

Example C09_instance :
  let data := [0xC1; 0x02; 0x05; 0x41; 0x00; 0x00; 0x00; 0x00; 0x00; 0xC1] in
  bytes_ok data /\ lenN data + 3 < U64_MAX /\
  exists es s', next_elements 8 (new_stream true false (mkDev data 0 [])) = (ROk es, s') /\
    map (fun e => match e with ElField f => Some (f_depth f) | _ => None end) es =
      [Some 1; Some 2; Some 3; None; None; None; None; Some 1] /\ s_depth s' = 2.
Proof.
  split; [repeat constructor|]. split; [reflexivity|]. eexists _, _. split; [vm_compute; reflexivity|].
  split; reflexivity.
Qed.

(** ** C13.  [poll l] calls [next_element] ([true]) or [next_field] ([false])
    in the given order. *)
Theorem C13_end_of_document_is_sticky l s : s_eof s = true ->
  poll l s = (ROk (map (fun b : bool => if b then Some ElEndOfDoc else None) l), s).
Proof. exact (sticky_poll l s). Qed.
Print Assumptions C13_end_of_document_is_sticky.

Theorem C13_end_of_document_sets_eof_and_resumes_after_it s s' :
  rinv s -> s_eof s = false -> s_depth s + 1 < U64_MAX ->
  next_element s = (ROk ElEndOfDoc, s') ->
  s_eof s' = true /\ s_depth s' = 0 /\ s_commit s' = None /\
  snd (clear_eof s') = set_eof_ false s' /\
  ((exists blob, unread s = blob ++ 0x40 :: unread s' /\ lenN blob = pend s) \/
   (s_graceful s = true /\ unread s' = [])).
Proof. exact (eof_set_resume s s'). Qed.
Print Assumptions C13_end_of_document_sets_eof_and_resumes_after_it.

Definition c13_stream : stream := new_stream true true (mkDev [0x40; 0x41; 5] 0 []).
Example C13_instance : rinv c13_stream /\ fst (next_element c13_stream) = ROk ElEndOfDoc /\
  fst ((poll [true; false; true] ;; mret tt) (snd (next_element c13_stream))) = ROk tt /\
  fst ((next_element ;; poll [true; false] ;; clear_eof ;; next_element) c13_stream)
    = ROk (ElField (mkField 1 1 1 (HInt 5))).
Proof.
  split; [constructor; [reflexivity|repeat constructor|vm_compute; discriminate|now left]|].
  repeat split; vm_compute; reflexivity.
Qed.

(** ** C14 *)
Theorem C14_end_of_input_at_descriptor s :
  rinv s -> s_eof s = false -> pend s = 0 -> unread s = [] -> s_pos s < U64_MAX ->
  next_element s =
    if s_graceful s then (ROk ElEndOfDoc, set_depth_ 0 (set_eof_ true (set_commit None s)))
    else (RErr (SIo IoUnexpectedEof), set_commit None s).
Proof. exact (eof_at_descriptor s). Qed.
Print Assumptions C14_end_of_input_at_descriptor.

(** [sp] is whether padding is skipped: [true] for [next_field], [false] for
    [next_element].  [b] is a descriptor that is followed by an integer, [l]
    an unfinished integer. *)
Theorem C14_end_of_input_in_integer sp s b l :
  rinv s -> s_eof s = false -> pend s = 0 ->
  unread s = b :: l -> (0x00 < b < 0x40 \/ 0x40 < b < 0x80 \/ 0x80 <= b < 0xC0) ->
  Forall cont_byte l -> lenN l <= 256 -> varint_value l < 2 ^ 64 ->
  s_pos s + 1 + lenN l < U64_MAX ->
  exists s', next_element_impl sp s = (RErr (SIo IoUnexpectedEof), s').
Proof. exact (eof_in_header sp s b l). Qed.
Print Assumptions C14_end_of_input_in_integer.

Example C14_instance :
  let s := set_graceful_ true (new_stream true false (mkDev [0x41; 0x80; 0xFF] 0 [])) in
  rinv s /\ pend s = 0 /\ unread s = 0x41 :: [0x80; 0xFF] /\ Forall cont_byte [0x80; 0xFF] /\
  varint_value [0x80; 0xFF] < 2 ^ 64 /\ fst (next_field s) = RErr (SIo IoUnexpectedEof) /\
  fst (next_element (set_graceful_ true (new_stream true false (mkDev [] 0 [])))) = ROk ElEndOfDoc /\
  fst (next_element (new_stream true false (mkDev [] 0 []))) = RErr (SIo IoUnexpectedEof).
Proof.
  split; [constructor; [reflexivity|repeat constructor|vm_compute; discriminate|now left]|].
  split; [reflexivity|]. split; [reflexivity|]. split; [repeat constructor; lia|].
  repeat split; vm_compute; reflexivity.
Qed.
