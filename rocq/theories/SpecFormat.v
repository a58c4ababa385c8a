(** * SpecFormat: the "Physical Format" section of src/lib.rs

    Elements and their encodings, written down independently of the model of
    the stream.  A descriptor byte is [type base + tag]; tag 0 marks the
    special elements. *)

From Verif Require Import Base SpecWire.

(** What one element says, without the contents of a blob. *)
Inductive hval := HvInt (n : N) | HvBlob (len : N) | HvStruct | HvEnum (d : N).
Inductive hdr :=
| HdField (tag : N) (v : hval)
| HdEnd            (* end of struct *)
| HdEof            (* end of document *)
| HdExc (len : N)  (* exception, followed by [len] bytes *)
| HdPad.           (* padding *)

Definition tag_ok (t : N) : Prop := 1 <= t <= 63.

(** [hdr_enc h bs]: the bytes [bs] encode [h].  Integers and lengths may use
    any legal variable-width form. *)
Inductive hdr_enc : hdr -> bytes -> Prop :=
| EncEnum t d v : tag_ok t -> legal_varint v d -> bytes_ok v ->
    hdr_enc (HdField t (HvEnum d)) (0x00 + t :: v)
| EncInt t n v : tag_ok t -> legal_varint v n -> bytes_ok v ->
    hdr_enc (HdField t (HvInt n)) (0x40 + t :: v)
| EncBlob t len v : tag_ok t -> legal_varint v len -> bytes_ok v ->
    hdr_enc (HdField t (HvBlob len)) (0x80 + t :: v)
| EncStruct t : tag_ok t -> hdr_enc (HdField t HvStruct) [0xC0 + t]
| EncEnd : hdr_enc HdEnd [0x00]
| EncEof : hdr_enc HdEof [0x40]
| EncExc len v : legal_varint v len -> bytes_ok v -> hdr_enc (HdExc len) (0x80 :: v)
| EncPad : hdr_enc HdPad [0xC0].

(** Number of bytes following the header that belong to the element. *)
Definition hdr_payload (h : hdr) : N :=
  match h with
  | HdField _ (HvBlob len) => len
  | HdExc len => len
  | _ => 0
  end.

(** ** Nesting depth

    Outside any struct the depth is 0; a field found there implies an
    enclosing top-level struct of depth 1. *)
Definition field_depth (d : N) : N := N.max d 1.
Definition depth_after (h : hdr) (d : N) : N :=
  match h with
  | HdField _ HvStruct | HdField _ (HvEnum _) => field_depth d + 1
  | HdField _ _ => field_depth d
  | HdEnd => d - 1
  | HdEof => 0
  | HdExc _ | HdPad => d
  end.

(** ** Elements with their contents *)
Inductive dval := DInt (n : N) | DBlobV (content : bytes) | DStructV | DEnumV (d : N).
Inductive delem :=
| DField (tag : N) (v : dval)
| DEnd | DEof | DExc (msg : bytes) | DPad.

Definition hdr_of (e : delem) : hdr :=
  match e with
  | DField t (DInt n) => HdField t (HvInt n)
  | DField t (DBlobV c) => HdField t (HvBlob (lenN c))
  | DField t DStructV => HdField t HvStruct
  | DField t (DEnumV d) => HdField t (HvEnum d)
  | DEnd => HdEnd
  | DEof => HdEof
  | DExc m => HdExc (lenN m)
  | DPad => HdPad
  end.
Definition payload (e : delem) : bytes :=
  match e with DField _ (DBlobV c) => c | DExc m => m | _ => [] end.

(** [elem_enc e bs]: [bs] is a legal encoding of [e]. *)
Definition elem_enc (e : delem) (bs : bytes) : Prop :=
  exists h, hdr_enc (hdr_of e) h /\ bytes_ok (payload e) /\ bs = h ++ payload e.

(** A sequence of elements. *)
Inductive elems_enc : list delem -> bytes -> Prop :=
| EncNil : elems_enc [] []
| EncCons e es b bs : elem_enc e b -> elems_enc es bs -> elems_enc (e :: es) (b ++ bs).

(** ** Nesting

    [wf_items es]: [es] is a sequence of complete fields (with padding and
    exceptions in between); every struct and enum is closed by its own end
    of struct. *)
Inductive wf_items : list delem -> Prop :=
| WfNil : wf_items []
| WfInt t n r : wf_items r -> wf_items (DField t (DInt n) :: r)
| WfBlob t c r : wf_items r -> wf_items (DField t (DBlobV c) :: r)
| WfPad r : wf_items r -> wf_items (DPad :: r)
| WfExc m r : wf_items r -> wf_items (DExc m :: r)
| WfStruct t body r : wf_items body -> wf_items r ->
    wf_items (DField t DStructV :: body ++ DEnd :: r)
| WfEnum t d body r : wf_items body -> wf_items r ->
    wf_items (DField t (DEnumV d) :: body ++ DEnd :: r).

(** Depth after a sequence of elements. *)
Definition depth_through (es : list delem) (d : N) : N :=
  fold_left (fun d e => depth_after (hdr_of e) d) es d.
(** Every element of [es], read from depth [d] on, starts deeper than [D]. *)
Fixpoint stays_below (D d : N) (es : list delem) : Prop :=
  match es with
  | [] => True
  | e :: r => D < d /\ stays_below D (depth_after (hdr_of e) d) r
  end.

(** The canonical encoding of a sequence of elements is the shortest one. *)
Definition shortest (es : list delem) (bs : bytes) : Prop :=
  elems_enc es bs /\ forall bs', elems_enc es bs' -> lenN bs <= lenN bs'.
