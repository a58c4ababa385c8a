(** * SpecCompat: reading data of an older type as a newer type

    "Maintaining Compatibility" of src/lib.rs (430-540): what a value written
    as one type becomes when it is read as another.  [becomes eo v t t' w]:
    the value [v], written as a [t] of the old program (definitions [eo]), is
    [w] to the new program (definitions [en]), which reads a [t'].  The rules
    follow the list of compatible changes in the documentation: values are
    compared by tag, a field is the sequence of its occurrences whatever the
    collection, and nothing here mentions streams, bytes or limits. *)

From Verif Require Import Base Wire Dev Stream Types Prog SpecWire SpecFormat SpecWrite SpecDe SpecDoc SpecRead.

(** ** What the old program writes *)

(** A field of the old program: its tag and its value and type. *)
Definition ofield := (N * (value * ty))%type.
(** The elements of a collection; [None] if the value is none. *)
Fixpoint many (v : value) (t : ty) {struct t} : option (list (value * ty)) :=
  match t, v with
  | TBox t', _ | TCopied t', _ => many v t'
  | (TVec t' | TSeq t' | TSet t' | TArray _ t'), (VList vs | VArr vs) => Some (map (fun x => (x, t')) vs)
  | TOption t', VOpt (Some x) => Some [(x, t')]
  | TOption t', _ => Some []
  | TMap k w, VMap kvs => Some (map (fun p => (VRec [fst p; snd p], TTuple [k; w])) kvs)
  | _, _ => None
  end.
(** The occurrences a field has: one for each element of a collection, one
    for anything else. *)
Definition items (v : value) (t : ty) : list (value * ty) :=
  match many v t with Some l => l | None => [(v, t)] end.
Definition occs (tag : N) (l : list ofield) : list (value * ty) :=
  flat_map (fun f => if fst f =? tag then items (fst (snd f)) (snd (snd f)) else []) l.
(** The same fields, as they appear in the document. *)
Definition nodes (eo : env) (l : list ofield) : list (N * node) :=
  flat_map (fun f => map (fun p => (fst f, x_elem (doc eo (fst p) (snd p)))) (items (fst (snd f)) (snd (snd f)))) l.

Definition named (fs : list fdecl) (vs : list value) : list ofield :=
  combine (map fd_tag fs) (combine vs (map fd_ty fs)).
Fixpoint numbered (i : N) (vs : list value) (ts : list ty) : list ofield :=
  match vs, ts with v :: vs', t :: ts' => (i, (v, t)) :: numbered (i + 1) vs' ts' | _, _ => [] end.
(** Unknown fields which the old program kept. *)
Definition kept (us : list (N * node)) : list ofield := map (fun f => (fst f, (VNode (snd f), TUnkField))) us.

Section Old.
  Variable eo : env.
  (** The fields of the body of a struct or variant, of a whole document, of a
      struct inside of a collection or field, and of an enum value. *)
  Inductive pieces : vbody -> list value -> list ofield -> Prop :=
  | PaFields b vs : vb_special b = SpNone -> List.length vs = List.length (vb_fields b) ->
      Forall (fun f => unknown_like (fd_ty f) = false) (vb_fields b) -> pieces b vs (named (vb_fields b) vs)
  | PaKept b nm t vs us : vb_special b = SpUnknown nm t -> unknown_like t = true -> List.length vs = List.length (vb_fields b) ->
      Forall (fun f => unknown_like (fd_ty f) = false) (vb_fields b) ->
      pieces b (vs ++ [VUnk us]) (named (vb_fields b) vs ++ kept us)
  | PaDeleg b nm t v l : vb_special b = SpDeleg nm t -> vb_fields b = [] -> whole v t l -> pieces b [v] l
  with whole : value -> ty -> list ofield -> Prop :=
  | WhOne v t : plain eo t = true -> whole v t [(1, (v, t))]
  | WhUnit : whole (VRec []) (TTuple []) [(1, (VRec [], TTuple []))]
  | WhTuple vs ts : vs <> [] -> List.length vs = List.length ts -> Forall (fun t => unknown_like t = false) ts ->
      whole (VRec vs) (TTuple ts) (numbered 1 vs ts)
  | WhStruct i b vs l : eo i = IStruct b -> pieces b vs l -> whole (VRec vs) (TItem i) l
  | WhBox v t l : whole v t l -> whole v (TBox t) l
  | WhCopied v t l : whole v t l -> whole v (TCopied t) l
  | WhUnk us : whole (VUnk us) TUnknown (kept us).
  Inductive inner : value -> ty -> list ofield -> Prop :=
  | InMany v t : many v t <> None -> inner v t [(1, (v, t))]
  | InTuple vs ts : List.length vs = List.length ts -> Forall (fun t => unknown_like t = false) ts ->
      inner (VRec vs) (TTuple ts) (numbered 1 vs ts)
  | InStruct i b vs l : eo i = IStruct b -> delegates b = false -> pieces b vs l -> inner (VRec vs) (TItem i) l
  | InUnk us : inner (VUnk us) TUnknown (kept us).
  Inductive variant_of : value -> ty -> N -> list ofield -> Prop :=
  | VoVar i vars catch ix d b vs l : eo i = IEnum vars catch -> nth_error vars ix = Some (d, b) -> pieces b vs l ->
      variant_of (VVar ix (VRec vs)) (TItem i) d l
  | VoCatch i vars b d vs l : eo i = IEnum vars (Some b) -> pieces b vs l -> variant_of (VCatch d (VRec vs)) (TItem i) d l.
  (** Strings and byte arrays. *)
  Inductive blob_of : value -> ty -> bytes -> Prop :=
  | BoStr t bs : is_str t -> blob_of (VStr bs) t bs
  | BoBytes t bs : is_bytes t -> blob_of (VBytes bs) t bs
  | BoArr n t bs : is_u8 t = true -> blob_of (VArrB bs) (TArray n t) bs.
End Old.

(** ** What the new program makes of it *)

(** The value of a field from the values of its occurrences. *)
Inductive gather : ty -> list value -> value -> Prop :=
| GaVec t ws : is_u8 t = false -> gather (TVec t) ws (VList ws)
| GaSeq t ws : gather (TSeq t) ws (VList ws)
| GaSet t ws : gather (TSet t) ws (as_set ws)
| GaNone t : gather (TOption t) [] (VOpt None)
| GaSome t w : gather (TOption t) [w] (VOpt (Some w))
| GaArray n t ws : is_u8 t = false -> lenN ws = n -> gather (TArray n t) ws (VArr ws)
| GaMap k v kvs : gather (TMap k v) (map (fun p => VRec [fst p; snd p]) kvs)
    (VMap (fold_left (fun l p => put (fst p) (snd p) l) kvs []))
| GaBox t ws w : gather t ws w -> gather (TBox t) ws w
| GaCopied t ws w : gather t ws w -> gather (TCopied t) ws w
| GaOne t w : each t = t -> t <> TUnknown -> gather t [w] w
| GaBytes0 t : is_u8 t = true -> gather (TArray 0 t) [] (VArrB []).
Inductive blob_as : bytes -> ty -> value -> Prop :=
| BaStr t bs : is_str t -> utf8_ok bs = true -> blob_as bs t (VStr bs)
| BaBytes t bs : is_bytes t -> blob_as bs t (VBytes bs)
| BaArr n t bs : is_u8 t = true -> lenN bs = n -> blob_as bs (TArray n t) (VArrB bs).
Definition declared (fs : list fdecl) : list (N * ty) := map (fun f => (fd_tag f, fd_ty f)) fs.
Fixpoint count_from (i : N) (ts : list ty) : list (N * ty) :=
  match ts with [] => [] | t :: r => (i, t) :: count_from (i + 1) r end.

Section New.
  Variable en : env.
  Variable ign : bool.     (* the new program ignores unknown fields *)

  (** Types whose elements are written as structs. *)
  Definition as_struct (t : ty) : Prop :=
    match t with
    | TTuple _ | TUnknown => True
    | TItem i => match en i with IStruct b => delegates b = false | IEnum _ _ => False end
    | _ => collection t = true
    end.
  (** No field is left over, or that does not matter. *)
  Definition nothing_lost (eo : env) (l : list ofield) (ds : list (N * ty)) : Prop :=
    ign = true \/ undeclared (map fst ds) (nodes eo l) = [].

  (** [elem eo v t t' w]: one occurrence.  [record eo l ds ws]: the fields [l]
      give the declared fields [ds] the values [ws].  [into eo l t' w]: the
      fields [l] are the value [w] of type [t']. *)
  Inductive elem : env -> value -> ty -> ty -> value -> Prop :=
  | ElUInt eo w w' n : n <= umax w' -> elem eo (VU n) (TUInt w) (TUInt w') (VU n)
  | ElSInt eo w w' z : width_ok w' -> (smin w' <= z <= smax w')%Z -> elem eo (VS z) (TSInt w) (TSInt w') (VS z)
  | ElBool eo b : elem eo (VB b) TBool TBool (VB b)
  | ElChar eo c : char_ok c = true -> elem eo (VChar c) TChar TChar (VChar c)
  | ElPhantom eo : elem eo VPhantom TPhantom TPhantom VPhantom
  | ElBlob eo v t bs t' w : blob_of v t bs -> blob_as bs t' w -> elem eo v t t' w
  | ElStruct eo v t l t' w : inner eo v t l -> as_struct t' -> into eo l t' w -> elem eo v t t' w
  | ElVariant eo v t d l i vars catch ix b ws : variant_of eo v t d l ->
      en i = IEnum vars catch -> variant d vars = Some (ix, b) -> into_body eo l b ws ->
      elem eo v t (TItem i) (VVar ix (VRec ws))
  | ElCatch eo v t d l i vars b ws : variant_of eo v t d l ->
      en i = IEnum vars (Some b) -> variant d vars = None -> into_body eo l b ws ->
      elem eo v t (TItem i) (VCatch d (VRec ws))
  | ElDelegOld eo i b nm v t t' w : eo i = IStruct b -> vb_special b = SpDeleg nm t -> vb_fields b = [] ->
      elem eo v t t' w -> elem eo (VRec [v]) (TItem i) t' w
  | ElDelegNew eo i b nm v t t' w : en i = IStruct b -> vb_special b = SpDeleg nm t' -> vb_fields b = [] ->
      elem eo v t t' w -> vb_check b [w] = true -> elem eo v t (TItem i) (VRec [w])
  | ElBoxOld eo v t t' w : elem eo v t t' w -> elem eo v (TBox t) t' w
  | ElBoxNew eo v t t' w : elem eo v t t' w -> elem eo v t (TBox t') w
  | ElCopiedOld eo v t t' w : elem eo v t t' w -> elem eo v (TCopied t) t' w
  | ElCopiedNew eo v t t' w : elem eo v t t' w -> elem eo v t (TCopied t') w
  | ElKeep eo v t : elem eo v t TUnkField (VNode (x_elem (doc eo v t)))
  (* an unknown field kept by the old program, written by a third one *)
  | ElKept eo e3 v t t' w : elem e3 v t t' w -> elem eo (VNode (x_elem (doc e3 v t))) TUnkField t' w
  with elems : env -> list (value * ty) -> ty -> list value -> Prop :=
  | EsNil eo t' : elems eo [] t' []
  | EsCons eo v t r t' w ws : elem eo v t t' w -> elems eo r t' ws -> elems eo ((v, t) :: r) t' (w :: ws)
  with record : env -> list ofield -> list (N * ty) -> list value -> Prop :=
  | ReNil eo l : record eo l [] []
  | ReCons eo l tag t' ds us w ws : elems eo (occs tag l) (each t') us -> gather t' us w -> record eo l ds ws ->
      record eo l ((tag, t') :: ds) (w :: ws)
  with into : env -> list ofield -> ty -> value -> Prop :=
  | ToPlain eo l t' w : plain en t' = true -> record eo l [(1, t')] [w] -> nothing_lost eo l [(1, t')] -> into eo l t' w
  | ToTuple eo l ts ws : record eo l (count_from 1 ts) ws -> nothing_lost eo l (count_from 1 ts) -> into eo l (TTuple ts) (VRec ws)
  | ToStruct eo l i b ws : en i = IStruct b -> into_body eo l b ws -> into eo l (TItem i) (VRec ws)
  | ToBox eo l t' w : into eo l t' w -> into eo l (TBox t') w
  | ToCopied eo l t' w : into eo l t' w -> into eo l (TCopied t') w
  | ToUnknown eo l : into eo l TUnknown (VUnk (nodes eo l))
  with into_body : env -> list ofield -> vbody -> list value -> Prop :=
  | IbFields eo l b ws : vb_special b = SpNone -> record eo l (declared (vb_fields b)) ws ->
      nothing_lost eo l (declared (vb_fields b)) -> vb_check b ws = true -> into_body eo l b ws
  | IbKeep eo l b nm t ws : vb_special b = SpUnknown nm t -> unknown_like t = true ->
      record eo l (declared (vb_fields b)) ws ->
      vb_check b (ws ++ [VUnk (undeclared (map fd_tag (vb_fields b)) (nodes eo l))]) = true ->
      into_body eo l b (ws ++ [VUnk (undeclared (map fd_tag (vb_fields b)) (nodes eo l))])
  | IbDeleg eo l b nm t w : vb_special b = SpDeleg nm t -> vb_fields b = [] -> into eo l t w -> vb_check b [w] = true ->
      into_body eo l b [w].

  (** The whole document. *)
  Inductive becomes (eo : env) (v : value) (t t' : ty) (w : value) : Prop :=
  | Becomes l : whole eo v t l -> into eo l t' w -> becomes eo v t t' w.
End New.

Scheme elem_ind2 := Induction for elem Sort Prop
  with elems_ind2 := Induction for elems Sort Prop
  with record_ind2 := Induction for record Sort Prop
  with into_ind2 := Induction for into Sort Prop
  with into_body_ind2 := Induction for into_body Sort Prop.
Combined Scheme elem_mutind from elem_ind2, elems_ind2, record_ind2, into_ind2, into_body_ind2.
Scheme pieces_ind2 := Induction for pieces Sort Prop with whole_ind2 := Induction for whole Sort Prop.
Combined Scheme pieces_mutind from pieces_ind2, whole_ind2.

(** ** Compatible changes of types

    The changes which the documentation calls backward-compatible, closed
    under all the ways to build types.  [J i j]: the definition [i] of the old
    program has become [j]. *)

(** How often a field of a type may occur: at least, at most. *)
Fixpoint card_of (t : ty) : N * option N :=
  match t with
  | TVec t' => if is_u8 t' then (1, Some 1) else (0, None)
  | TSeq _ | TSet _ | TMap _ _ => (0, None)
  | TOption _ => (0, Some 1)
  | TArray n t' => if is_u8 t' then ((if n =? 0 then 0 else 1), Some 1) else (n, Some n)
  | TBox t' | TCopied t' => card_of t'
  | _ => (1, Some 1)
  end.
Definition within (c c' : N * option N) : Prop :=
  fst c' <= fst c /\ match snd c, snd c' with _, None => True | None, Some _ => False | Some n, Some m => n <= m end.

Section Changes.
  Variables (eo en : env) (ign : bool) (J : nat -> nat -> Prop).
  (** The constructor expression does not reject anything. *)
  Definition accepts (b : vbody) : Prop := forall vs, vb_check b vs = true.

  (** [ext t t']: as an element of a collection, [t] may become [t'].
      [fext t t']: as a field.  [fields_ext ds ds']: declared fields. *)
  Inductive ext : ty -> ty -> Prop :=
  | XtUInt w w' : w <= w' -> ext (TUInt w) (TUInt w')                      (* integers are widened *)
  | XtSInt w w' : width_ok w' -> width_ok w -> w <= w' -> ext (TSInt w) (TSInt w')
  | XtBool : ext TBool TBool
  | XtChar : ext TChar TChar
  | XtPhantom : ext TPhantom TPhantom
  | XtStr t t' : is_str t -> is_str t' \/ is_bytes t' -> ext t t'
  | XtBytes t t' : is_bytes t -> is_bytes t' -> ext t t'
  | XtArr n t t' : is_u8 t = true -> is_bytes t' \/ (exists u, t' = TArray n u /\ is_u8 u = true) -> ext (TArray n t) t'
  | XtColl t t' : collection t = true -> collection t' = true -> fext t t' -> ext t t'
  | XtTuple ts ts' : fields_ext (count_from 1 ts) (count_from 1 ts') -> ign = true \/ (List.length ts <= List.length ts')%nat ->
      ext (TTuple ts) (TTuple ts')
  | XtItem i j : J i j -> ext (TItem i) (TItem j)
  | XtBoxOld t t' : ext t t' -> ext (TBox t) t'
  | XtBoxNew t t' : ext t t' -> ext t (TBox t')
  | XtCopiedOld t t' : ext t t' -> ext (TCopied t) t'
  | XtCopiedNew t t' : ext t t' -> ext t (TCopied t')
  | XtUnknown : ext TUnknown TUnknown
  | XtAny t : ext t TUnkField
  with fext : ty -> ty -> Prop :=
  (* a plain field may become a collection, and cardinalities may widen *)
  | Fext t t' : unknown_like t = false -> unknown_like t' = false -> within (card_of t) (card_of t') -> ext (each t) (each t') -> fext t t'
  with fields_ext : list (N * ty) -> list (N * ty) -> Prop :=
  | FeNil ds : fields_ext ds []
  | FeThere ds tag t t' ds' : In (tag, t) ds -> fext t t' -> fields_ext ds ds' -> fields_ext ds ((tag, t') :: ds')
  (* fields which need not occur may be added *)
  | FeAdded ds tag t' ds' : ~ In tag (map fst ds) -> fst (card_of t') = 0 -> unknown_like t' = false -> fields_ext ds ds' -> fields_ext ds ((tag, t') :: ds').

  (** Whole documents. *)
  Inductive top : ty -> ty -> Prop :=
  | TpPlain t t' : plain eo t = true -> plain en t' = true -> fext t t' -> top t t'
  | TpTuple ts ts' : ts <> [] -> ext (TTuple ts) (TTuple ts') -> top (TTuple ts) (TTuple ts')
  | TpUnit ts' : ign = true -> fields_ext [(1, TTuple [])] (count_from 1 ts') -> top (TTuple []) (TTuple ts')
  | TpStruct i j b b' : J i j -> eo i = IStruct b -> en j = IStruct b' -> top (TItem i) (TItem j)
  | TpBoxOld t t' : top t t' -> top (TBox t) t'
  | TpBoxNew t t' : top t t' -> top t (TBox t')
  | TpCopiedOld t t' : top t t' -> top (TCopied t) t'
  | TpCopiedNew t t' : top t t' -> top t (TCopied t')
  | TpUnknown : top TUnknown TUnknown.

  Definition tags_of (b : vbody) : list N := map fd_tag (vb_fields b).
  Inductive body_ext (b b' : vbody) : Prop :=
  (* fields may be deleted if unknown fields are ignored or kept *)
  | BxFields : vb_special b = SpNone -> delegates b' = false -> accepts b' ->
      fields_ext (declared (vb_fields b)) (declared (vb_fields b')) ->
      ign = true \/ collects b' = true \/ incl (tags_of b) (tags_of b') -> body_ext b b'
  | BxKept : collects b = true -> delegates b' = false -> accepts b' ->
      fields_ext (declared (vb_fields b)) (declared (vb_fields b')) -> incl (tags_of b') (tags_of b) ->
      ign = true \/ collects b' = true -> body_ext b b'
  | BxDeleg nm t nm' t' : vb_special b = SpDeleg nm t -> vb_special b' = SpDeleg nm' t' -> accepts b' -> top t t' -> body_ext b b'.
  Inductive item_ext : item -> item -> Prop :=
  | IxStruct b b' : delegates b = false -> body_ext b b' -> item_ext (IStruct b) (IStruct b')
  | IxDeleg b b' nm t nm' t' : vb_special b = SpDeleg nm t -> vb_special b' = SpDeleg nm' t' -> accepts b' -> ext t t' -> top t t' ->
      item_ext (IStruct b) (IStruct b')
  (* variants may be added; they may be deleted if there is a [(?)] variant *)
  | IxEnum vars catch vars' catch' :
      (forall d b, In (d, b) vars -> (exists ix b', variant d vars' = Some (ix, b') /\ body_ext b b') \/
                                     (variant d vars' = None /\ exists b', catch' = Some b' /\ body_ext b b')) ->
      match catch with
      | None => True
      | Some b => incl (map fst vars') (map fst vars) /\ exists b', catch' = Some b' /\ body_ext b b'
      end -> item_ext (IEnum vars catch) (IEnum vars' catch').
  Definition compatible : Prop := forall i j, J i j -> item_ext (eo i) (en j).
End Changes.
Scheme ext_ind2 := Induction for ext Sort Prop with fext_ind2 := Induction for fext Sort Prop with fields_ext_ind2 := Induction for fields_ext Sort Prop.
