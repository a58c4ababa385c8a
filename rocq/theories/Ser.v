(** * Ser: model of src/ser.rs, and of the [Serialize] impls in
    src/unknown.rs, src/adapt.rs and those generated by src/sugar.rs *)

From Verif Require Import Base Wire Dev Stream Types.

(** A [Serialize] impl does nothing but call writing methods of the stream,
    one after the other, returning at the first error ([?]).  So a
    serialisation is the list of those calls.
    Calls of the methods src/stream.rs 758-973. *)
Inductive wop :=
| WUInt (tag n : N)          (* write_u8 .. write_u64, write_usize *)
| WSInt (tag : N) (z : Z)    (* write_i8 .. write_i64, write_isize *)
| WBool (tag : N) (b : bool)
| WNull (tag : N)
| WBlob (tag : N) (data : bytes)   (* write_blob_data *)
| WStruct (tag : N)
| WEnum (tag d : N)
| WEnd                       (* write_end_struct *)
| WPanic.                    (* panic! *)

(** src/stream.rs 763-817, 945-973. *)
Definition exec_op (w : wop) : SM unit :=
  match w with
  | WUInt t n => write_u64 t n
  | WSInt t z => write_sint t z
  | WBool t b => write_bool t b
  | WNull t => write_null t
  | WBlob t bs => write_blob_data t bs ;; mret tt
  | WStruct t => write_struct t
  | WEnum t d => write_enum t d
  | WEnd => write_end_struct
  | WPanic => mpanic
  end.
(** One call after the other, [?] after each, as in src/ser.rs 129-462. *)
Fixpoint exec (ws : list wop) : SM unit :=
  match ws with
  | [] => mret tt
  | w :: r => exec_op w ;; exec r
  end.

(** The three methods of [Serialize] (src/ser.rs 54-101) for one value. *)
Record sres := mkSer {
  z_body : list wop;
  z_field : N -> list wop;
  z_elem : N -> list wop
}.

(** The default methods: body = the value as field 1 and an end of struct
    (src/ser.rs 64-68), field = element (76-79). *)
Definition ser_default (elem : N -> list wop) : sres :=
  mkSer (elem 1 ++ [WEnd]) elem elem.
(** Collections: [[T]], [ser_iter_mut!], [ser_iter!] (src/ser.rs 354-431): a field is
    one element per item, an element is a struct holding field 1. *)
Definition ser_coll (field : N -> list wop) : sres :=
  mkSer (field 1 ++ [WEnd]) field (fun tag => WStruct tag :: field 1 ++ [WEnd]).
(** Things with a body of their own: tuples (src/ser.rs 307-352), structs
    (src/sugar.rs 573-596). *)
Definition ser_struct (body : list wop) : sres :=
  mkSer body (fun tag => WStruct tag :: body) (fun tag => WStruct tag :: body).
(** A value of another type: no counterpart in the code (src/ser.rs is typed). *)
Definition ser_bad : sres := mkSer [WPanic] (fun _ => [WPanic]) (fun _ => [WPanic]).

(** [UnknownField::serialize_element] and [UnknownFields::serialize_body],
    src/unknown.rs 63-69, 126-143. *)
Fixpoint ser_node (tag : N) (n : node) : list wop :=
  match n with
  | NInt n => [WUInt tag n]
  | NBlob b => [WBlob tag b]
  | NStruct fs => WStruct tag :: flat_map (fun f => ser_node (fst f) (snd f)) fs ++ [WEnd]
  | NEnum d fs => WEnum tag d :: flat_map (fun f => ser_node (fst f) (snd f)) fs ++ [WEnd]
  end.
(** src/unknown.rs 63-69 without the end of struct. *)
Definition ser_nodes (fs : list (N * node)) : list wop :=
  flat_map (fun f => ser_node (fst f) (snd f)) fs.

(** [@_STRUCT_BODY_SER], src/sugar.rs 390-412: the tagged fields, then the
    body of the special field or an end of struct. *)
Definition ser_vbody (b : vbody) (fields : list sres) (sp : option sres) : list wop :=
  flat_map (fun p => z_field (snd p) (fd_tag (fst p))) (combine (vb_fields b) fields) ++
  match vb_special b, sp with
  | SpNone, _ => [WEnd]
  | _, Some z => z_body z
  | _, None => [WPanic]
  end.
(** Type of the special field, src/sugar.rs 390-412. *)
Definition special_ty (b : vbody) : list ty :=
  match vb_special b with SpNone => [] | SpDeleg _ t | SpUnknown _ t => [t] end.
(** Types of the values in a record of [b].
    src/sugar.rs 390-412. *)
Definition vb_types (b : vbody) : list ty := map fd_ty (vb_fields b) ++ special_ty b.
(** src/sugar.rs 390-412. *)
Definition split_special (b : vbody) (zs : list sres) : list sres * option sres :=
  let n := List.length (vb_fields b) in (firstn n zs, nth_error zs n).

(** A variant of an enum: the discriminant and the body.
    src/sugar.rs 648-669. *)
Definition variant (e : item) (v : value) : option (N * vbody) :=
  match e, v with
  | IEnum vars _, VVar ix _ => nth_error vars ix
  | IEnum _ (Some b), VCatch d _ => Some (d, b)
  | _, _ => None
  end.

Section Ser.
  Variable e : env.

  (** [ser v t]: the methods of the impl for [t] on [v].  The value [v] must
      be one of the type [t]; [ser_bad] is returned otherwise (cannot happen
      in Rust).
      src/ser.rs 129-462; lines at each case. *)
  Fixpoint ser (v : value) : ty -> sres :=
    fix ser_t (t : ty) : sres :=
      match t with
      | TUInt _ => (* ser_direct! and u8, src/ser.rs 181-218 *)
          match v with VU n => ser_default (fun tag => [WUInt tag n]) | _ => ser_bad end
      | TSInt _ =>
          match v with VS z => ser_default (fun tag => [WSInt tag z]) | _ => ser_bad end
      | TBool => match v with VB b => ser_default (fun tag => [WBool tag b]) | _ => ser_bad end
      | TChar => (* src/ser.rs 219-224 *)
          match v with VChar c => ser_default (fun tag => [WUInt tag c]) | _ => ser_bad end
      | TPhantom => (* src/ser.rs 137-142 *)
          match v with VPhantom => ser_default (fun tag => [WNull tag]) | _ => ser_bad end
      | TString | TStrRef | TCowStr => (* ser_bytes! src/ser.rs 226-242 *)
          match v with VStr bs => ser_default (fun tag => [WBlob tag bs]) | _ => ser_bad end
      | TBytesRef | TCowBytes => (* [u8] through serialize_slice, src/ser.rs 189-194, 354-377 *)
          match v with VBytes bs => ser_default (fun tag => [WBlob tag bs]) | _ => ser_bad end
      | TVec t' => (* [T], src/ser.rs 354-377 *)
          if is_u8 t' then
            match v with VBytes bs => ser_default (fun tag => [WBlob tag bs]) | _ => ser_bad end
          else
            match v with
            | VList vs => ser_coll (fun tag => flat_map (fun x => z_elem (ser x t') tag) vs)
            | _ => ser_bad
            end
      | TArray _ t' => (* ser_array! src/ser.rs 244-305: as [T] *)
          if is_u8 t' then
            match v with VArrB bs => ser_default (fun tag => [WBlob tag bs]) | _ => ser_bad end
          else
            match v with
            | VArr vs => ser_coll (fun tag => flat_map (fun x => z_elem (ser x t') tag) vs)
            | _ => ser_bad
            end
      | TSeq t' | TSet t' => (* ser_iter_mut! src/ser.rs 379-402, ser_iter! 404-431 *)
          match v with
          | VList vs => ser_coll (fun tag => flat_map (fun x => z_elem (ser x t') tag) vs)
          | _ => ser_bad
          end
      | TOption t' =>
          match v with
          | VOpt o => ser_coll (fun tag => match o with
                                           | Some x => z_elem (ser x t') tag
                                           | None => []
                                           end)
          | _ => ser_bad
          end
      | TMap tk tv => (* ser_map! src/ser.rs 433-462 *)
          match v with
          | VMap kvs =>
              ser_coll (fun tag => flat_map (fun p =>
                WStruct tag :: z_field (ser (fst p) tk) 1 ++ z_field (ser (snd p) tv) 2
                ++ [WEnd]) kvs)
          | _ => ser_bad
          end
      | TTuple [] => (* impl Serialize for (), src/ser.rs 129-135: the default body *)
          match v with
          | VRec [] => ser_default (fun tag => [WStruct tag; WEnd])
          | _ => ser_bad
          end
      | TTuple ts => (* ser_tuple! src/ser.rs 307-352 *)
          match v with
          | VRec vs =>
              ser_struct
                ((fix go (i : N) (vs : list value) (ts : list ty) : list wop :=
                    match vs, ts with
                    | x :: vs', t' :: ts' => z_field (ser x t') i ++ go (i + 1) vs' ts'
                    | [], [] => [WEnd]
                    | _, _ => [WPanic]
                    end) 1 vs ts)
          | _ => ser_bad
          end
      | TBox t' | TCopied t' => ser_t t'     (* SerializeAs, src/ser.rs 105-127, 144-179; src/adapt.rs 24-27 *)
      | TUnknown => (* src/unknown.rs 62-82: no serialize_field *)
          match v with
          | VUnk fs =>
              let body := ser_nodes fs ++ [WEnd] in
              mkSer body (fun _ => [WPanic]) (fun tag => WStruct tag :: body)
          | _ => ser_bad
          end
      | TUnkField =>
          match v with VNode n => ser_default (fun tag => ser_node tag n) | _ => ser_bad end
      | TItem i =>
          match e i with
          | IStruct b => (* src/sugar.rs 562-596 *)
              match v with
              | VRec vs =>
                  let zs := (fix go (vs : list value) (ts : list ty) : list sres :=
                               match vs, ts with
                               | x :: vs', t' :: ts' => ser x t' :: go vs' ts'
                               | _, _ => []
                               end) vs (vb_types b) in
                  let '(fs, sp) := split_special b zs in
                  let body := ser_vbody b fs sp in
                  match vb_special b, sp with
                  | SpDeleg _ _, Some z =>    (* @_STRUCT_ELEMENT_SER, src/sugar.rs 414-426 *)
                      mkSer body (z_elem z) (z_elem z)
                  | _, _ => ser_struct body
                  end
              | _ => ser_bad
              end
          | IEnum _ _ => (* src/sugar.rs 628-669: only serialize_element is generated *)
              match v, variant (e i) v with
              | VVar _ (VRec vs), Some (d, b) | VCatch _ (VRec vs), Some (d, b) =>
                  let zs := (fix go (vs : list value) (ts : list ty) : list sres :=
                               match vs, ts with
                               | x :: vs', t' :: ts' => ser x t' :: go vs' ts'
                               | _, _ => []
                               end) vs (vb_types b) in
                  let '(fs, sp) := split_special b zs in
                  ser_default (fun tag => WEnum tag d :: ser_vbody b fs sp)
              | _, _ => ser_bad
              end
          end
      end.

  (** [to_stream] (src/ser.rs 45-51); [to_writer] (32-38) and [to_vec]
      (17-22) are the same on a fresh stream. *)
  Definition to_stream (t : ty) (v : value) : SM unit :=
    exec (z_body (ser v t)) ;; commit.
  (** src/ser.rs 32-38. *)
  Definition to_writer (dbg : bool) (d : dev) (t : ty) (v : value) : res serr dev :=
    match to_stream t v (new_stream dbg false d) with
    | (ROk _, s) => ROk (s_dev s)
    | (RErr x, _) => RErr x
    | (RPanic, _) => RPanic
    | (RFuel, _) => RFuel
    end.
  (** src/ser.rs 17-22. *)
  Definition to_vec (dbg : bool) (t : ty) (v : value) : res serr bytes :=
    match to_writer dbg (mkDev [] 0 []) t v with
    | ROk d => ROk (d_data d)
    | RErr x => RErr x
    | RPanic => RPanic
    | RFuel => RFuel
    end.
End Ser.
