(** * Properties C10 and C15: padding and exceptions in [next_field] *)

From Verif Require Import Base Wire Dev Stream SpecWire SpecFormat SpecStream P_Field.

(** ** C10.  Two encodings of the same elements that differ in padding (and
    in the width of integers): [next_field] gives the same fields, depths,
    blob contents, ends and exceptions, namely those of the elements.  The
    two inputs may also be followed by different bytes. *)
Theorem C10_padding_invisible es1 es2 bs1 bs2 s1 s2 tl1 tl2 :
  filter (fun e => negb (is_pad e)) es1 = filter (fun e => negb (is_pad e)) es2 ->
  elems_enc es1 bs1 -> elems_enc es2 bs2 -> positioned s1 (bs1 ++ tl1) -> positioned s2 (bs2 ++ tl2) ->
  s_depth s1 = s_depth s2 ->
  s_pos s1 + pend s1 + lenN bs1 <= U64_MAX -> s_pos s2 + pend s2 + lenN bs2 <= U64_MAX ->
  s_depth s1 + 2 * N.of_nat (length es1) + 1 < U64_MAX -> s_depth s2 + 2 * N.of_nat (length es2) + 1 < U64_MAX ->
  let n := length (fields_of es1 (s_depth s1)) in
  fst (read_fields n s1) = fst (read_fields n s2) /\ fst (read_fields n s1) = fields_of es1 (s_depth s1).
Proof. exact (padding_invisible es1 es2 bs1 bs2 s1 s2 tl1 tl2). Qed.
Print Assumptions C10_padding_invisible.

Definition c10_plain : bytes := [0x41; 7; 0x82; 2; 9; 9; 0x00].
Definition c10_padded : bytes := [0xC0; 0xC0; 0x41; 7; 0xC0; 0x82; 2; 9; 9; 0xC0; 0xC0; 0x00].
Definition c10_items : list delem := [DField 1 (DInt 7); DField 2 (DBlobV [9; 9]); DEnd].
Example C10_instance :
  elems_enc c10_items c10_plain /\
  elems_enc [DPad; DPad; DField 1 (DInt 7); DPad; DField 2 (DBlobV [9; 9]); DPad; DPad; DEnd] c10_padded /\
  positioned (from_slice true (c10_plain ++ [])) (c10_plain ++ []) /\
  positioned (from_slice true (c10_padded ++ [1])) (c10_padded ++ [1]) /\
  fst (read_fields 3 (from_slice true (c10_padded ++ [1]))) =
    [(ROk (Some (1, 1, HInt 7)), []); (ROk (Some (2, 1, HBlob 2)), [9; 9]); (ROk None, [])].
Proof.
  assert (L : forall n, n < 128 -> legal_varint [n] n).
  { intros n Hn. split.
    - exists [], n. repeat split; try constructor. exact Hn.
    - repeat split; cbn; try lia; vm_compute; discriminate. }
  assert (P : elem_enc DPad [0xC0]) by (exists [0xC0]; repeat split; constructor).
  assert (A : elem_enc (DField 1 (DInt 7)) [0x41; 7]).
  { exists [0x41; 7]. split; [|split; [constructor|reflexivity]].
    apply (EncInt 1 7 [7]); [unfold tag_ok; lia|apply L; lia|repeat constructor]. }
  assert (B : elem_enc (DField 2 (DBlobV [9; 9])) [0x82; 2; 9; 9]).
  { exists [0x82; 2]. split; [|split; [repeat constructor|reflexivity]].
    apply (EncBlob 2 2 [2]); [unfold tag_ok; lia|apply L; lia|repeat constructor]. }
  assert (C : elem_enc DEnd [0x00]) by (exists [0x00]; repeat split; constructor).
  assert (R : forall l, bytes_ok l -> lenN l <= 100 -> positioned (from_slice true l) l).
  { intros l Hl Hn. split; [constructor; try (left; reflexivity); auto; cbn; unfold U64_MAX; lia|].
    split; [reflexivity|]. split; [cbn; lia|]. destruct l; reflexivity. }
  split.
  { apply (EncCons _ _ _ [0x82; 2; 9; 9; 0x00] A). apply (EncCons _ _ _ [0x00] B). apply (EncCons _ _ _ [] C). constructor. }
  split.
  { apply (EncCons _ _ _ [0xC0; 0x41; 7; 0xC0; 0x82; 2; 9; 9; 0xC0; 0xC0; 0x00] P).
    apply (EncCons _ _ _ [0x41; 7; 0xC0; 0x82; 2; 9; 9; 0xC0; 0xC0; 0x00] P).
    apply (EncCons _ _ _ [0xC0; 0x82; 2; 9; 9; 0xC0; 0xC0; 0x00] A).
    apply (EncCons _ _ _ [0x82; 2; 9; 9; 0xC0; 0xC0; 0x00] P). apply (EncCons _ _ _ [0xC0; 0xC0; 0x00] B).
    apply (EncCons _ _ _ [0xC0; 0x00] P). apply (EncCons _ _ _ [0x00] P). apply (EncCons _ _ _ [] C). constructor. }
  split; [apply R; [repeat constructor|vm_compute; discriminate]|].
  split; [apply R; [repeat constructor|vm_compute; discriminate]|]. vm_compute. reflexivity.
Qed.

(** ** C15.  An exception element (after any amount of padding) makes
    [next_field] fail with the first 256 bytes of the message; the stream is
    then placed at the byte after the whole message. *)
Theorem C15_exception_is_an_error s m h np tl :
  positioned s (repeat 0xC0 np ++ h ++ m ++ tl) -> hdr_enc (HdExc (lenN m)) h ->
  s_pos s + pend s + N.of_nat np + lenN h + lenN m <= U64_MAX -> s_depth s + 1 < U64_MAX ->
  exists s', next_field s = (RErr (SException (takeN 256 m)), s') /\ positioned s' tl /\
    s_depth s' = s_depth s.
Proof. exact (exception_field s m h np tl). Qed.
Print Assumptions C15_exception_is_an_error.

(** [next_element] exposes it as a blob instead, which reads back as the
    message. *)
Theorem C15_next_element_exposes_exception s m h tl :
  positioned s (h ++ m ++ tl) -> hdr_enc (HdExc (lenN m)) h -> bytes_ok m ->
  s_pos s + pend s + lenN h + lenN m <= U64_MAX -> s_depth s + 1 < U64_MAX ->
  exists s1 s2, next_element s = (ROk (ElException (lenN m)), s1) /\
    b_read_fully U64_MAX s1 = (ROk m, s2) /\ positioned s2 tl.
Proof. exact (exception_element s m h tl). Qed.
Print Assumptions C15_next_element_exposes_exception.

(** A message of 300 bytes, followed by an integer field. *)
Definition c15_msg : bytes := repeat 65 300.
Definition c15_doc : bytes := [0xC0; 0x80; 0xAC; 0x02] ++ c15_msg ++ [0x41; 7].
Example C15_instance :
  positioned (from_slice true c15_doc) (repeat 0xC0 1 ++ [0x80; 0xAC; 0x02] ++ c15_msg ++ [0x41; 7]) /\
  hdr_enc (HdExc (lenN c15_msg)) [0x80; 0xAC; 0x02] /\ bytes_ok c15_msg /\
  fst (read_fields 2 (from_slice true c15_doc)) =
    [(RErr (SException (repeat 65 256)), []); (ROk (Some (1, 1, HInt 7)), [])].
Proof.
  assert (Hok : bytes_ok c15_doc).
  { unfold bytes_ok. apply Forall_forall. intros x Hx. unfold byte_ok.
    assert (Hb : forallb (fun x => x <? 256) c15_doc = true) by (vm_compute; reflexivity).
    rewrite forallb_forall in Hb. apply Hb in Hx. lia. }
  split.
  { split; [constructor; try (left; reflexivity); auto; vm_compute; discriminate|].
    split; [reflexivity|]. split; [vm_compute; discriminate|]. vm_compute. reflexivity. }
  split.
  { change (lenN c15_msg) with 300. apply (EncExc 300 [0xAC; 0x02]); [|repeat constructor].
    split.
    - exists [0xAC], 0x02. split; [reflexivity|]. split; [constructor; [unfold cont_byte; lia|constructor]|unfold final_byte; lia].
    - repeat split; vm_compute; (reflexivity || discriminate). }
  split; [apply Forall_forall; intros x Hx; apply repeat_spec in Hx; subst; reflexivity|].
  vm_compute. reflexivity.
Qed.
