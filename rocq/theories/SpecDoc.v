(** * SpecDoc: documents as trees, and the document a value stands for

    The "Logical Format" of src/lib.rs: a document is a sequence of tagged
    fields, each an integer, a blob, a struct or an enum.  [doc] writes down,
    from the documentation of [Serialize] (src/ser.rs 52-98, src/lib.rs), which
    document stands for a value of a type: as a whole document ([x_body]), as
    a field of a struct ([x_field], collections are flattened) and as an
    element of a collection ([x_elem], collections are wrapped).  Nothing here
    refers to the models of the code. *)

From Verif Require Import Base Wire SpecWire SpecFormat SpecWrite Types SpecDe.

(** ** Trees and their elements *)
Section Flat.
  Fixpoint flat_node (tag : N) (n : node) : list delem :=
    match n with
    | NInt x => [DField tag (DInt x)]
    | NBlob b => [DField tag (DBlobV b)]
    | NStruct fs => DField tag DStructV :: flat_map (fun f => flat_node (fst f) (snd f)) fs ++ [DEnd]
    | NEnum d fs => DField tag (DEnumV d) :: flat_map (fun f => flat_node (fst f) (snd f)) fs ++ [DEnd]
    end.
End Flat.
Definition flat (fs : list (N * node)) : list delem := flat_map (fun f => flat_node (fst f) (snd f)) fs.

(** A whole document: the fields and the end of the implied top-level
    struct. *)
Definition document (fs : list (N * node)) : list delem := flat fs ++ [DEnd].

(** Bytes that encode a document, with any choice of integer encodings and
    any padding. *)
Definition not_pad (e : delem) : bool := match e with DPad => false | _ => true end.
Definition encodes (es : list delem) (bs : bytes) : Prop :=
  exists es', elems_enc es' bs /\ filter not_pad es' = es.

(** The bytes of a whole document end with the end of the top-level struct. *)
Definition encodes_doc (fs : list (N * node)) (bs : bytes) : Prop :=
  exists b, encodes (flat fs) b /\ bs = b ++ [0x00].

(** ** The document of a value *)
Record docs := mkDoc {
  x_body : list (N * node);
  x_field : N -> list (N * node);
  x_elem : node
}.
Definition doc_single (n : node) : docs := mkDoc [(1, n)] (fun t => [(t, n)]) n.
Definition doc_coll (ns : list node) : docs :=
  mkDoc (map (fun n => (1, n)) ns) (fun t => map (fun n => (t, n)) ns) (NStruct (map (fun n => (1, n)) ns)).
Definition doc_struct (fs : list (N * node)) : docs := mkDoc fs (fun t => [(t, NStruct fs)]) (NStruct fs).
Definition doc_int (n : N) : docs := doc_single (NInt n).

(** The fields of a record: the tagged fields in order of declaration, then
    the fields of the special value. *)
Fixpoint doc_fields (fs : list fdecl) (ds : list docs) : list (N * node) :=
  match fs, ds with
  | f :: fs', d :: ds' => x_field d (fd_tag f) ++ doc_fields fs' ds'
  | _, _ => []
  end.
Definition doc_record (b : vbody) (ds : list docs) : list (N * node) :=
  doc_fields (vb_fields b) ds ++ flat_map x_body (skipn (List.length (vb_fields b)) ds).
Fixpoint doc_tuple (i : N) (ds : list docs) : list (N * node) :=
  match ds with
  | [] => []
  | d :: r => x_field d i ++ doc_tuple (i + 1) r
  end.

Section Doc.
  Variable e : env.
  Fixpoint doc (v : value) : ty -> docs :=
    fix go (t : ty) {struct t} : docs :=
      match t with
      | TUInt _ | TChar => match v with VU n | VChar n => doc_int n | _ => doc_int 0 end
      | TSInt _ => match v with VS z => doc_int (zz z) | _ => doc_int 0 end
      | TBool => match v with VB b => doc_int (if b then 1 else 0) | _ => doc_int 0 end
      | TPhantom => doc_int 0
      | TString | TStrRef | TCowStr | TBytesRef | TCowBytes =>
          match v with VStr bs | VBytes bs => doc_single (NBlob bs) | _ => doc_int 0 end
      | TVec t' | TSeq t' | TSet t' | TArray _ t' =>
          match v with
          | VBytes bs | VArrB bs => doc_single (NBlob bs)
          | VList vs | VArr vs => doc_coll (map (fun x => x_elem (doc x t')) vs)
          | _ => doc_int 0
          end
      | TOption t' =>
          match v with
          | VOpt (Some x) => doc_coll [x_elem (doc x t')]
          | _ => doc_coll []
          end
      | TMap tk tv =>
          match v with
          | VMap kvs => doc_coll (map (fun p => NStruct (x_field (doc (fst p) tk) 1 ++ x_field (doc (snd p) tv) 2)) kvs)
          | _ => doc_int 0
          end
      | TTuple ts =>
          match v with
          | VRec [] => doc_single (NStruct [])      (* the unit has the body of a scalar *)
          | VRec vs => doc_struct (doc_tuple 1 (zipw (fun x t' => doc x t') vs ts))
          | _ => doc_int 0
          end
      | TBox t' | TCopied t' => go t'
      | TUnknown => match v with VUnk fs => mkDoc fs (fun _ => fs) (NStruct fs) | _ => doc_int 0 end
      | TUnkField => match v with VNode n => doc_single n | _ => doc_int 0 end
      | TItem i =>
          match e i, v with
          | IStruct b, VRec vs =>
              let ds := zipw (fun x t' => doc x t') vs (body_types b) in
              match vb_special b, ds with
              | SpDeleg _ _, [d] => mkDoc (x_body d) (fun t => [(t, x_elem d)]) (x_elem d)
              | _, _ => doc_struct (doc_record b ds)
              end
          | IEnum vars _, VVar ix (VRec vs) =>
              match nth_error vars ix with
              | Some (d, b) => doc_single (NEnum d (doc_record b (zipw (fun x t' => doc x t') vs (body_types b))))
              | None => doc_int 0
              end
          | IEnum _ (Some b), VCatch d (VRec vs) =>
              doc_single (NEnum d (doc_record b (zipw (fun x t' => doc x t') vs (body_types b))))
          | _, _ => doc_int 0
          end
      end.
End Doc.

(** ** Types whose values can be written and read back

    What Rust's type checker and [fourleaf_retrofit!] expect of definitions
    but do not all check: distinct tags in 1..63, distinct discriminants,
    delegation without further fields, [(?)] fields of type [UnknownFields];
    at most 16 tuple components; and [UnknownFields] is not written as an
    ordinary field (src/unknown.rs 74-85 panics). *)
Definition vbody_wf (b : vbody) : Prop :=
  NoDup (map fd_tag (vb_fields b)) /\ Forall (fun f => tag_ok (fd_tag f)) (vb_fields b) /\
  match vb_special b with
  | SpNone => True
  | SpDeleg _ _ => vb_fields b = []
  | SpUnknown _ t => unknown_like t = true
  end.
Definition item_wf (it : item) : Prop :=
  match it with
  | IStruct b => vbody_wf b
  | IEnum vars catch =>
      NoDup (map fst vars) /\ Forall (fun p => fst p < 2 ^ 64 /\ vbody_wf (snd p)) vars /\
      match catch with Some b => vbody_wf b | None => True end
  end.
Definition width_ok (w : N) : Prop := w = 8 \/ w = 16 \/ w = 32 \/ w = 64.
Fixpoint shape_wf (t : ty) : Prop :=
  match t with
  | TUInt w | TSInt w => width_ok w
  | TVec t' | TSeq t' | TSet t' | TOption t' | TArray _ t' | TBox t' | TCopied t' => shape_wf t'
  | TMap k v => (shape_wf k /\ unknown_like k = false) /\ (shape_wf v /\ unknown_like v = false)
  | TTuple ts => lenN ts <= 16 /\ fold_right (fun t P => (shape_wf t /\ unknown_like t = false) /\ P) True ts
  | _ => True
  end.
Definition fields_wf (b : vbody) : Prop :=
  Forall (fun f => shape_wf (fd_ty f) /\ unknown_like (fd_ty f) = false) (vb_fields b) /\
  match vb_special b with SpNone => True | SpDeleg _ t | SpUnknown _ t => shape_wf t end.
Definition env_wf (e : env) : Prop :=
  forall i, item_wf (e i) /\
    match e i with
    | IStruct b => fields_wf b
    | IEnum vars catch => Forall (fun p => fields_wf (snd p)) vars /\ match catch with Some b => fields_wf b | None => True end
    end.

(** The unit type, whose whole document holds a field it does not declare. *)
Fixpoint unit_like (t : ty) : bool :=
  match t with TTuple [] => true | TBox t' | TCopied t' => unit_like t' | _ => false end.
Definition no_unit_body (e : env) (t : ty) : Prop :=
  unit_like t = false /\
  forall i b nm t', match e i with
                    | IStruct b0 => b = b0
                    | IEnum vars catch => In b (map snd vars) \/ catch = Some b
                    end -> vb_special b = SpDeleg nm t' -> unit_like t' = false.
