(** * SpecFault: what is wrong with a document

    What it means for a document (a tree, SpecFormat.v) to be faulty as a
    value of a type, and where: the location is the list of the names of the
    fields on the way to the fault, outermost first; the name of a field that
    was caught by a [(?)] field is its tag.  From the documentation of [Error]
    and [Context] (src/de.rs 110-269) and of [fourleaf_retrofit!]; there are
    no streams, no accumulators and no reading here.

    Reaching a limit counts as a fault at every place where the limit applies;
    whether it was exceeded is settled by C34, C35 and C36. *)

From Verif Require Import Base Wire Dev Stream Types Prog SpecFormat SpecDe SpecDoc SpecRead SpecText.

(** The kind of a value in the document. *)
Definition kind_of (n : node) : fty :=
  match n with NInt _ => FInteger | NBlob _ => FBlob | NStruct _ => FStruct | NEnum _ _ => FEnum end.
Definition wrong_kind (want : fty) (n : node) : ekind := KStream (SUnexpectedType want (kind_of n)).
Definition out_of_range : ekind := KStream SOutOfRange.

(** A limit of the configuration, not a fault of the document. *)
Definition a_limit (k : ekind) : Prop := k = KRecLimit \/ k = KMaxCollect \/ k = KMaxBlob.

(** ** Kinds of types *)

(** Held by an integer. *)
Definition numeric (t : ty) : Prop := match t with TUInt _ | TSInt _ | TBool | TChar | TPhantom => True | _ => False end.
(** Integers that are no such value. *)
Definition no_number (t : ty) (x : N) : Prop :=
  match t with
  | TUInt w => 2 ^ w - 1 < x
  | TSInt w => ~ (smin w <= unzigzag x <= smax w)%Z
  | TBool => 1 < x
  | TPhantom => 0 < x
  | TChar => 2 ^ 32 - 1 < x
  | _ => False
  end.
(** Held by a blob; which of them is text; which of them copies the bytes. *)
Definition stringy (t : ty) : Prop := match t with TString | TStrRef | TCowStr => True | _ => False end.
Definition bytesy (t : ty) : Prop :=
  match t with TBytesRef | TCowBytes => True | TVec t' | TArray _ t' => is_u8 t' = true | _ => False end.
Definition copies (zc : bool) (t : ty) : Prop :=
  match t with TString => True | TVec t' => is_u8 t' = true | TCowStr | TCowBytes => zc = false | _ => False end.
(** The elements of a collection. *)
Inductive collection_of : ty -> ty -> Prop :=
| CoVec t : is_u8 t = false -> collection_of (TVec t) t
| CoSeq t : collection_of (TSeq t) t
| CoSet t : collection_of (TSet t) t
| CoMap k v : collection_of (TMap k v) (TTuple [k; v]).
(** Of these there must be one. *)
Definition required (t : ty) : Prop :=
  numeric t \/ stringy t \/ match t with TBytesRef | TCowBytes | TTuple _ | TUnkField | TItem _ => True | TVec t' => is_u8 t' = true | _ => False end.
(** The error for a second one (for the user's types it is the wrong one, see
    DESIGN.md). *)
Definition one_too_many (t : ty) : ekind := match t with TItem _ => KTooFew 1 | _ => KTooMany 1 end.
(** The types whose body holds one field, with tag 1. *)
Definition in_top (e : env) (t : ty) : Prop :=
  match t with
  | TTuple _ | TUnknown | TBox _ | TCopied _ => False
  | TItem i => match e i with IEnum _ _ => True | IStruct _ => False end
  | _ => True
  end.
(** The types an element of which is a struct holding the body. *)
Definition in_struct (e : env) (t : ty) : Prop :=
  match t with
  | TSeq _ | TSet _ | TMap _ _ | TOption _ | TTuple _ | TUnknown => True
  | TVec t' | TArray _ t' => is_u8 t' = false
  | TItem i => match e i with IStruct b => match vb_special b with SpDeleg _ _ => False | _ => True end | IEnum _ _ => False end
  | _ => False
  end.

(** ** Fields *)

(** A declared field: name, tag, type. *)
Definition decl := (string * N * ty)%type.
Definition decl_tag (d : decl) : N := snd (fst d).
Definition decls (fs : list fdecl) : list decl := map (fun f => (fd_name f, fd_tag f, fd_ty f)) fs.
Fixpoint numbered (i : N) (ts : list ty) : list decl :=
  match ts with [] => [] | t :: r => (tuple_name i, i + 1, t) :: numbered (i + 1) r end.
(** The occurrences of a field.  (If two fields are declared with one tag, the
    first gets them all.) *)
Definition occurrences (earlier : list decl) (tag : N) (ks : list (N * node)) : list (N * node) :=
  if existsb (fun d => decl_tag d =? tag) earlier then [] else with_tag tag ks.
(** The fields that are not declared. *)
Definition others (ds : list decl) (ks : list (N * node)) : list (N * node) :=
  filter (fun f => negb (existsb (fun d => decl_tag d =? fst f) ds)) ks.
(** The record is read as [vs]. *)
Definition reads_as (e : env) (ign zc : bool) (b : vbody) (ks : list (N * node)) (vs : list value) : Prop :=
  exists fuel x, m_vbody ign (means ign e fuel zc) (mkB (vb_fields b) (vb_special b) (fun _ => true)) ks = Some (VRec vs, x).

Section Fault.
  Variables (e : env) (ign : bool).

  (** ** Values that no type was declared for *)
  Inductive unk_fault (zc : bool) : node -> list string -> ekind -> Prop :=
  | UfBlob b : zc = false -> b <> [] -> unk_fault zc (NBlob b) [] KMaxBlob
  | UfStruct fs p k : unks_fault zc fs p k -> unk_fault zc (NStruct fs) p k
  | UfEnum d fs p k : unks_fault zc fs p k -> unk_fault zc (NEnum d fs) p k
  with unks_fault (zc : bool) : list (N * node) -> list string -> ekind -> Prop :=
  | UfDeep tag n fs : In (tag, n) fs -> unks_fault zc fs [] KRecLimit
  | UfMany tag n fs : In (tag, n) fs -> unks_fault zc fs [tag_name tag] KMaxCollect
  | UfIn tag n fs p k : In (tag, n) fs -> unk_fault zc n p k -> unks_fault zc fs (tag_name tag :: p) k.

  (** ** A body with these fields, declared and caught *)
  Inductive fields_fault : bool -> list decl -> special -> list (N * node) -> list string -> ekind -> Prop :=
  | FfField zc pre nm tag t post sp ks w p k :
      field_fault zc t (occurrences pre tag ks) w p k ->
      fields_fault zc (pre ++ (nm, tag, t) :: post) sp ks (nm :: p) k
  | FfUnknown zc ds ks tag n pos :
      ign = false -> In (tag, n) (others ds ks) -> fields_fault zc ds SpNone ks [] (KUnknownField tag pos)
  | FfCaught zc ds nm t ks tag p k :
      field_fault zc t (others ds ks) (Some tag) p k -> fields_fault zc ds (SpUnknown nm t) ks (tag_name tag :: p) k
  | FfCatch zc ds nm t ks p k :
      field_fault zc t (others ds ks) None p k -> fields_fault zc ds (SpUnknown nm t) ks (nm :: p) k
  | FfDeep zc ds sp ks : ds <> [] \/ (exists nm t, sp = SpUnknown nm t) -> fields_fault zc ds sp ks [] KRecLimit

  (** ** A struct or the contents of a variant *)
  with record_fault : bool -> vbody -> list (N * node) -> list string -> ekind -> Prop :=
  | RfFields zc b ks p k : (forall nm t, vb_special b <> SpDeleg nm t) ->
      fields_fault zc (decls (vb_fields b)) (vb_special b) ks p k -> record_fault zc b ks p k
  | RfDeep zc b ks nm t : vb_special b = SpDeleg nm t -> record_fault zc b ks [] KRecLimit
  | RfDeleg zc b ks nm t p k : vb_special b = SpDeleg nm t -> body_fault zc t ks p k -> record_fault zc b ks (nm :: p) k
  | RfBeside zc b ks nm t p k : vb_special b = SpDeleg nm t ->
      fields_fault zc (decls (vb_fields b)) SpNone [] p k -> record_fault zc b ks p k
  | RfRefused zc b ks vs : reads_as e ign zc b ks vs -> vb_check b vs = false -> record_fault zc b ks [] KInvalidMsg

  (** ** The body of a value of a type *)
  with body_fault : bool -> ty -> list (N * node) -> list string -> ekind -> Prop :=
  | BfTop zc t ks p k : in_top e t -> fields_fault zc [("top"%string, 1, t)] SpNone ks p k -> body_fault zc t ks p k
  | BfTuple zc ts ks p k : fields_fault zc (numbered 0 ts) SpNone ks p k -> body_fault zc (TTuple ts) ks p k
  | BfStruct zc i b ks p k : e i = IStruct b -> record_fault zc b ks p k -> body_fault zc (TItem i) ks p k
  | BfUnknown zc ks p k : unks_fault zc ks p k -> body_fault zc TUnknown ks p k
  | BfBox zc t ks p k : body_fault zc t ks p k -> body_fault zc (TBox t) ks p k
  | BfCopied zc t ks p k : body_fault false t ks p k -> body_fault zc (TCopied t) ks p k

  (** ** All the occurrences of a field.  The fault is at the occurrence with
      the tag given, or ([None]) in there being no more. *)
  with field_fault : bool -> ty -> list (N * node) -> option N -> list string -> ekind -> Prop :=
  | OfMissing zc t : required t -> field_fault zc t [] None [] KMissing
  | OfFirst zc t tag n r p k : required t \/ (exists t', t = TOption t') \/ (exists m t', t = TArray m t' /\ is_u8 t' = true) ->
      elem_fault zc (match t with TOption t' => t' | _ => t end) n p k -> field_fault zc t ((tag, n) :: r) (Some tag) p k
  | OfSecond zc t f tag n r : required t \/ (exists t', t = TOption t') \/ (exists m t', t = TArray m t' /\ is_u8 t' = true) ->
      field_fault zc t (f :: (tag, n) :: r) (Some tag) [] (one_too_many t)
  | OfBytesMissing zc m t : is_u8 t = true -> 0 < m -> field_fault zc (TArray m t) [] None [] KMissing
  | OfBytesSecond zc m t f tag n r p k : is_u8 t = true -> 32 < m -> elem_fault zc (TArray m t) n p k ->
      field_fault zc (TArray m t) (f :: (tag, n) :: r) (Some tag) p k
  | OfElem zc t t' occ tag n p k : collection_of t t' -> In (tag, n) occ -> elem_fault zc t' n p k ->
      field_fault zc t occ (Some tag) p k
  | OfMany zc t t' occ tag n : collection_of t t' -> In (tag, n) occ -> field_fault zc t occ (Some tag) [] KMaxCollect
  | OfArrayElem zc m t pre tag n post p k : is_u8 t = false -> lenN pre < m -> elem_fault zc t n p k ->
      field_fault zc (TArray m t) (pre ++ (tag, n) :: post) (Some tag) p k
  | OfArrayMore zc m t pre tag n post : is_u8 t = false -> lenN pre = m ->
      field_fault zc (TArray m t) (pre ++ (tag, n) :: post) (Some tag) [] (KTooMany m)
  | OfArrayNone zc m t : is_u8 t = false -> 0 < m -> field_fault zc (TArray m t) [] None [] KMissing
  | OfArrayFew zc m t occ : is_u8 t = false -> occ <> [] -> lenN occ < m -> field_fault zc (TArray m t) occ None [] (KTooFew m)
  | OfUnkMany zc occ tag n : In (tag, n) occ -> field_fault zc TUnknown occ (Some tag) [] KMaxCollect
  | OfUnk zc occ tag n p k : In (tag, n) occ -> unk_fault zc n p k -> field_fault zc TUnknown occ (Some tag) p k
  | OfBox zc t occ w p k : field_fault zc t occ w p k -> field_fault zc (TBox t) occ w p k
  | OfCopied zc t occ w p k : field_fault false t occ w p k -> field_fault zc (TCopied t) occ w p k

  (** ** One value: of a simple field, or an element of a collection *)
  with elem_fault : bool -> ty -> node -> list string -> ekind -> Prop :=
  | EfNumber zc t n : numeric t -> kind_of n <> FInteger -> elem_fault zc t n [] (wrong_kind FInteger n)
  | EfRange zc t x : no_number t x -> elem_fault zc t (NInt x) [] out_of_range
  | EfChar zc x : ~ scalar x -> elem_fault zc TChar (NInt x) [] KInvalidMsg
  | EfBlob zc t n : stringy t \/ bytesy t -> kind_of n <> FBlob -> elem_fault zc t n [] (wrong_kind FBlob n)
  | EfText zc t b : stringy t -> ~ text b -> elem_fault zc t (NBlob b) [] KInvalid
  | EfLength zc m t b : is_u8 t = true -> lenN b <> m -> elem_fault zc (TArray m t) (NBlob b) [] KInvalidMsg
  | EfCopy zc t b : copies zc t -> b <> [] -> elem_fault zc t (NBlob b) [] KMaxBlob
  | EfStruct zc t n : in_struct e t -> kind_of n <> FStruct -> elem_fault zc t n [] (wrong_kind FStruct n)
  | EfBody zc t ks p k : in_struct e t -> body_fault zc t ks p k -> elem_fault zc t (NStruct ks) p k
  | EfDeep zc i b nm t n : e i = IStruct b -> vb_special b = SpDeleg nm t -> elem_fault zc (TItem i) n [] KRecLimit
  | EfDeleg zc i b nm t n p k : e i = IStruct b -> vb_special b = SpDeleg nm t -> elem_fault zc t n p k ->
      elem_fault zc (TItem i) n (nm :: p) k
  | EfRefused zc i b nm t n v x fuel : e i = IStruct b -> vb_special b = SpDeleg nm t ->
      m_elem (means ign e fuel zc t) n = Some (v, x) -> vb_check b [v] = false -> elem_fault zc (TItem i) n [] KInvalidMsg
  | EfEnum zc i vars catch n : e i = IEnum vars catch -> kind_of n <> FEnum -> elem_fault zc (TItem i) n [] (wrong_kind FEnum n)
  | EfVariant zc i vars d fs : e i = IEnum vars None -> ~ In d (map fst vars) ->
      elem_fault zc (TItem i) (NEnum d fs) [] (KUnknownVariant d)
  | EfIn zc i vars catch d ix b fs p k : e i = IEnum vars catch -> variant d vars = Some (ix, b) -> record_fault zc b fs p k ->
      elem_fault zc (TItem i) (NEnum d fs) p k
  | EfOther zc i vars b d fs p k : e i = IEnum vars (Some b) -> ~ In d (map fst vars) -> record_fault zc b fs p k ->
      elem_fault zc (TItem i) (NEnum d fs) p k
  | EfUnk zc n p k : unk_fault zc n p k -> elem_fault zc TUnkField n p k
  | EfBox zc t n p k : elem_fault zc t n p k -> elem_fault zc (TBox t) n p k
  | EfCopied zc t n p k : elem_fault false t n p k -> elem_fault zc (TCopied t) n p k.
End Fault.
