(** * SpecStream: vocabulary for stating properties of streams

    How elements of the format (SpecFormat.v) are reported by the reading
    API, and small programs of API calls (client code) that the properties
    quantify over. *)

From Verif Require Import Base Wire Dev Stream SpecFormat.

(** What the underlying reader has not delivered yet. *)
Definition unread (s : stream) : bytes := d_rest (s_dev s).

(** How [next_element] reports an element whose descriptor is at offset [p],
    found at nesting depth [d]. *)
Definition vhdr_of (v : hval) : vhdr :=
  match v with HvInt n => HInt n | HvBlob l => HBlob l | HvStruct => HStruct | HvEnum d => HEnum d end.
Definition elem_of (hd : hdr) (p d : N) : element :=
  match hd with
  | HdField t v => ElField (mkField t p (field_depth d) (vhdr_of v))
  | HdEnd => ElEndOfStruct
  | HdEof => ElEndOfDoc
  | HdExc len => ElException len
  | HdPad => ElPadding
  end.
(** ... and the other way round. *)
Definition hval_of (v : vhdr) : hval :=
  match v with HInt n => HvInt n | HBlob l => HvBlob l | HStruct => HvStruct | HEnum d => HvEnum d end.
Definition hdr_of_element (e : element) : hdr :=
  match e with
  | ElField f => HdField (f_tag f) (hval_of (f_val f))
  | ElEndOfStruct => HdEnd
  | ElEndOfDoc => HdEof
  | ElException len => HdExc len
  | ElPadding => HdPad
  end.

(** A [Stream] on which only the reading functions are used: the device is
    well-formed and transfers whatever is asked for, and if a blob is
    pending then it is one that was read. *)
Record rinv (s : stream) : Prop := {
  ri_sch : sch s = [];
  ri_ok : bytes_ok (d_data (s_dev s));
  ri_len : lenN (d_data (s_dev s)) <= U64_MAX;
  ri_com : s_commit s = None \/ (s_commit s = Some CSkipBlob /\ s_blob_end s <= U64_MAX)
}.
(** Bytes of a pending blob the caller has not consumed. *)
Definition pend (s : stream) : N :=
  match s_commit s with Some CSkipBlob => s_blob_end s - s_pos s | _ => 0 end.

(** ** Writing and reading back a sequence of elements *)

(** The [write_*] call for an element. *)
Definition write_delem (e : delem) : SM unit :=
  match e with
  | DField t (DInt n) => write_u64 t n
  | DField t (DBlobV c) => write_blob_data t c ;; mret tt
  | DField t DStructV => write_struct t
  | DField t (DEnumV d) => write_enum t d
  | DEnd => write_end_struct
  | DEof => write_end_doc
  | DExc m => write_exception_data m ;; mret tt
  | DPad => write_padding
  end.
(** Write them all; returns [pos()] before each. *)
Fixpoint write_elems (es : list delem) : SM (list N) :=
  match es with
  | [] => mret []
  | e :: r => let* s := mget in
              write_delem e ;;
              let* l := write_elems r in
              mret (s_pos s :: l)
  end.

Definition delem_ok (e : delem) : Prop :=
  match e with
  | DField t v => tag_ok t /\
      match v with
      | DInt n | DEnumV n => n < 2 ^ 64
      | DBlobV c => bytes_ok c
      | DStructV => True
      end
  | DExc m => bytes_ok m
  | _ => True
  end.
(** An upper bound of the encoded size. *)
Definition size_bound (es : list delem) : N :=
  fold_right (fun e n => lenN (payload e) + 11 + n) 0 es.

(** Read [n] elements with [next_element], with the contents of blobs and
    exceptions, going on after an end of document. *)
Fixpoint read_elems (n : nat) : SM (list (element * bytes)) :=
  match n with
  | O => mret []
  | S n' =>
      let* e := next_element in
      let* c := match e with
                | ElField (mkField _ _ _ (HBlob _)) | ElException _ => b_read_fully U64_MAX
                | _ => mret []
                end in
      match e with ElEndOfDoc => clear_eof | _ => mret tt end ;;
      let* l := read_elems n' in
      mret ((e, c) :: l)
  end.
(** What that should return. *)
Fixpoint reported (es : list delem) (offs : list N) (d : N) : list (element * bytes) :=
  match es, offs with
  | e :: es', p :: offs' =>
      (elem_of (hdr_of e) p d, payload e) :: reported es' offs' (depth_after (hdr_of e) d)
  | _, _ => []
  end.

(** Read [n] elements with [next_element] and nothing else. *)
Fixpoint next_elements (n : nat) : SM (list element) :=
  match n with
  | O => mret []
  | S n' => let* e := next_element in
            let* l := next_elements n' in
            mret (e :: l)
  end.
Definition depth_of (es : list element) (d : N) : N :=
  fold_left (fun d e => depth_after (hdr_of_element e) d) es d.

(** Call [next_element] ([true]) or [next_field] ([false]) in a given order. *)
Fixpoint poll (l : list bool) : SM (list (option element)) :=
  match l with
  | [] => mret []
  | b :: r =>
      let* x := (if b then let* e := next_element in mret (Some e)
                 else let* f := next_field in mret (option_map ElField f)) in
      let* xs := poll r in mret (x :: xs)
  end.

(** Read with [next_field] [n] times, with the contents of blobs, going on
    after an end of document and after an error.  Fields are reported
    without their offset. *)
Definition field_view (f : field) : N * N * vhdr := (f_tag f, f_depth f, f_val f).
Definition read_field1 (s : stream) : (res serr (option (N * N * vhdr)) * bytes) * stream :=
  match next_field s with
  | (ROk (Some f), s1) =>
      match f_val f with
      | HBlob _ => match b_read_fully U64_MAX s1 with
                   | (ROk c, s2) => ((ROk (Some (field_view f)), c), s2)
                   | (_, s2) => ((RPanic, []), s2)
                   end
      | _ => ((ROk (Some (field_view f)), []), s1)
      end
  | (ROk None, s1) => ((ROk None, []), snd (clear_eof s1))
  | (RErr e, s1) => ((RErr e, []), s1)
  | (RPanic, s1) => ((RPanic, []), s1)
  | (RFuel, s1) => ((RFuel, []), s1)
  end.
Fixpoint read_fields (n : nat) (s : stream) : list (res serr (option (N * N * vhdr)) * bytes) * stream :=
  match n with
  | O => ([], s)
  | S n' => let '(x, s1) := read_field1 s in
            let '(xs, s2) := read_fields n' s1 in (x :: xs, s2)
  end.
(** What that should give for a sequence of elements at depth [d]: padding is
    left out, an exception is an error with the start of its message. *)
Fixpoint fields_of (es : list delem) (d : N) : list (res serr (option (N * N * vhdr)) * bytes) :=
  match es with
  | [] => []
  | e :: r =>
      (match e with
       | DPad => []
       | DField t v => [(ROk (Some (t, field_depth d, vhdr_of (match hdr_of e with HdField _ hv => hv | _ => HvStruct end))), payload e)]
       | DEnd | DEof => [(ROk None, [])]
       | DExc m => [(RErr (SException (takeN 256 m)), [])]
       end) ++ fields_of r (depth_after (hdr_of e) d)
  end.

(** The stream is at the start of an element (or in a blob just before it)
    and [bs] is what follows. *)
Definition positioned (s : stream) (bs : bytes) : Prop :=
  rinv s /\ s_eof s = false /\ pend s <= lenN (unread s) /\ dropN (pend s) (unread s) = bs.
