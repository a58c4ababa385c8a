(** * SpecHand: what documents read and written field by field mean *)

From Verif Require Import Base Wire Dev Stream Types Prog De Ser SpecFormat SpecDe SpecDoc SpecRead SpecSerDe SpecStream SpecElems Hand.
Local Open Scope N_scope.

(** The fields a program asks for. *)
Definition wanted (pick : N -> option ty) (ks : list (N * node)) : list (N * node) :=
  filter (fun f => match pick (fst f) with Some _ => true | None => false end) ks.
(** The fields asked for stand for the values [vs], each as an element of
    the type asked for; reading them costs [x] altogether. *)
Definition picks_denote (e : env) (ign zc : bool) (pick : N -> option ty) (ks : list (N * node)) (vs : list (N * value)) (x : cost) : Prop :=
  exists fuel, rmap (fun f : N * node =>
    match pick (fst f) with
    | Some t => let! v := m_elem (means ign e fuel zc t) (snd f) in rret (fst f, v)
    | None => None
    end) (wanted pick ks) = Some (vs, x).
(** The program can be compiled, and its limits are machine numbers. *)
Definition pickable (e : env) (zc : bool) (cf : cfg) (pick : N -> option ty) : Prop :=
  env_ok e /\ (forall tag t, pick tag = Some t -> deserialisable e zc t) /\ cf_collect cf <= U64_MAX /\ cf_blob cf <= U64_MAX.

(** The bytes copied for a value read. *)
Definition copied_at (e : env) (zc : bool) (pick : N -> option ty) (p : N * value) : N :=
  match pick (fst p) with Some t => copied e (snd p) zc t | None => 0 end.

(** ** Writing *)
(** The fields written. *)
Definition written_fields (e : env) (its : list item_) : list (N * node) :=
  map (fun it => (it_tag it, x_elem (doc e (it_val it) (it_ty it)))) its.
(** A value of its type, not nested too deeply. *)
Record item_ok (cf : cfg) (e : env) (zc : bool) (it : item_) : Prop := mkItemOk {
  io_tag : 1 <= it_tag it <= 63;
  io_type : has_type e (it_val it) (it_ty it);
  io_shape : shape_wf (it_ty it);
  io_impl : deserialisable e zc (it_ty it);
  io_unit : cf_ignore cf = true \/ no_unit_body e (TOption (it_ty it));
  io_need : n_elem (need e (it_val it) (it_ty it)) <= cf_rec cf
}.
(** ... all within the limits together. *)
Definition items_ok (cf : cfg) (e : env) (zc : bool) (its : list item_) : Prop :=
  Forall (item_ok cf e zc) its /\
  sumN (map (fun it => coll_count (it_val it)) its) <= cf_collect cf /\
  sumN (map (fun it => copied e (it_val it) zc (it_ty it)) its) <= cf_blob cf.
Definition items_size (e : env) (its : list item_) : N := size_bound (document (written_fields e its)).
(** The program reads back some of the tags, with the types written. *)
Definition reads_back (pick : N -> option ty) (its : list item_) : Prop :=
  Forall (fun it => pick (it_tag it) = None \/ pick (it_tag it) = Some (it_ty it)) its.
Definition picked (pick : N -> option ty) (its : list item_) : list (N * value) :=
  map (fun it => (it_tag it, it_val it)) (filter (fun it => match pick (it_tag it) with Some _ => true | None => false end) its).
(** A field of this type holds one value; not a collection. *)
Fixpoint one_value (t : ty) : bool :=
  match t with
  | TVec t' | TArray _ t' => is_u8 t'
  | TSeq _ | TSet _ | TOption _ | TMap _ _ | TUnknown => false
  | TBox t' | TCopied t' => one_value t'
  | _ => true
  end.
(** What a program without the struct's type writes for its fields: a field
    of one value as it is, a collection one element after the other. *)
Inductive as_items : list fdecl -> list value -> list item_ -> Prop :=
| AiNil : as_items [] [] []
| AiOne f v fs vs its : one_value (fd_ty f) = true -> as_items fs vs its -> as_items (f :: fs) (v :: vs) (mkItem (fd_tag f) (fd_ty f) v :: its)
| AiSeq f t l fs vs its : sequence_of t (fd_ty f) \/ fd_ty f = TSet t -> as_items fs vs its -> as_items (f :: fs) (VList l :: vs) (map (mkItem (fd_tag f) t) l ++ its)
| AiNone f t fs vs its : fd_ty f = TOption t -> as_items fs vs its -> as_items (f :: fs) (VOpt None :: vs) its
| AiSome f t v fs vs its : fd_ty f = TOption t -> as_items fs vs its -> as_items (f :: fs) (VOpt (Some v) :: vs) (mkItem (fd_tag f) t v :: its).
(** ... with the fields of a struct with a catch-all for unknown fields after
    the declared ones. *)
Inductive record_items (b : vbody) : list value -> list item_ -> Prop :=
| RiPlain vs its : vb_special b = SpNone -> as_items (vb_fields b) vs its -> record_items b vs its
| RiUnknown n vs its fs : vb_special b = SpUnknown n TUnknown -> as_items (vb_fields b) vs its ->
    record_items b (vs ++ [VUnk fs]) (its ++ map (fun f => mkItem (fst f) TUnkField (VNode (snd f))) fs).
