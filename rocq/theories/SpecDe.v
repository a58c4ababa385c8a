(** * SpecDe: vocabulary for stating properties of (de)serialisation

    Which values a type has, and how much of each configured limit a value
    needs.  Nothing here refers to the models of src/ser.rs and src/de.rs. *)

From Coq Require Import Sorting.Sorted.
From Verif Require Import Base Wire Stream Types SpecFormat.

Definition sumN (l : list N) : N := fold_right N.add 0 l.
Definition maxN (l : list N) : N := fold_right N.max 0 l.

Section Zip.
  Context {A B C : Type} (f : A -> B -> C).
  Fixpoint zipw (l : list A) (m : list B) : list C :=
    match l, m with
    | x :: l', y :: m' => f x y :: zipw l' m'
    | _, _ => []
    end.
End Zip.

(** ** Values of a type *)

(** Contents of unknown fields: tags, integers and discriminants are in
    range. *)
Fixpoint node_ok (n : node) : Prop :=
  match n with
  | NInt n => n < 2 ^ 64
  | NBlob b => bytes_ok b
  | NStruct fs => fold_right (fun f P => (tag_ok (fst f) /\ node_ok (snd f)) /\ P) True fs
  | NEnum d fs => d < 2 ^ 64 /\ fold_right (fun f P => (tag_ok (fst f) /\ node_ok (snd f)) /\ P) True fs
  end.
Definition nodes_ok (fs : list (N * node)) : Prop :=
  Forall (fun f => tag_ok (fst f) /\ node_ok (snd f)) fs.

Definition is_str (t : ty) : Prop := t = TString \/ t = TStrRef \/ t = TCowStr.
Definition is_bytes (t : ty) : Prop :=
  t = TBytesRef \/ t = TCowBytes \/ (exists t', t = TVec t' /\ is_u8 t' = true).

(** The values a record of [b] holds, in order: tagged fields, special field. *)
Definition sp_types (sp : special) : list ty :=
  match sp with SpNone => [] | SpDeleg _ t | SpUnknown _ t => [t] end.
Definition body_types (b : vbody) : list ty := map fd_ty (vb_fields b) ++ sp_types (vb_special b).
(** A [(?)] field holds only tags that are not declared. *)
Fixpoint unknown_like (t : ty) : bool :=
  match t with TUnknown => true | TBox t' | TCopied t' => unknown_like t' | _ => false end.
Definition unknown_ok (b : vbody) (vs : list value) : Prop :=
  match vb_special b with
  | SpUnknown _ t => unknown_like t = true ->
      forall fs, last vs VPhantom = VUnk fs ->
      Forall (fun f => ~ In (fst f) (map fd_tag (vb_fields b))) fs
  | _ => True
  end.

(** ** Which types there are

    [&str] and [&[u8]] have an impl for the zero-copy style only, and so
    has every type that contains one outside [Copied]. *)
Definition item_types (it : item) : list ty :=
  match it with
  | IStruct b => body_types b
  | IEnum vars catch =>
      flat_map (fun p => body_types (snd p)) vars ++
      match catch with Some b => body_types b | None => [] end
  end.
Section Impl.
  Variable e : env.
  Inductive no_impl : bool -> ty -> Prop :=
  | NiStr : no_impl false TStrRef
  | NiBytes : no_impl false TBytesRef
  | NiVec zc t : no_impl zc t -> no_impl zc (TVec t)
  | NiSeq zc t : no_impl zc t -> no_impl zc (TSeq t)
  | NiSet zc t : no_impl zc t -> no_impl zc (TSet t)
  | NiOption zc t : no_impl zc t -> no_impl zc (TOption t)
  | NiArray zc n t : no_impl zc t -> no_impl zc (TArray n t)
  | NiKey zc k v : no_impl zc k -> no_impl zc (TMap k v)
  | NiVal zc k v : no_impl zc v -> no_impl zc (TMap k v)
  | NiTuple zc t ts : In t ts -> no_impl zc t -> no_impl zc (TTuple ts)
  | NiBox zc t : no_impl zc t -> no_impl zc (TBox t)
  | NiCopied zc t : no_impl false t -> no_impl zc (TCopied t)
  | NiItem zc i t : In t (item_types (e i)) -> no_impl zc t -> no_impl zc (TItem i).
  Definition deserialisable (zc : bool) (t : ty) : Prop := ~ no_impl zc t.

  (** The code generated for a struct with a delegate refers to no other
      field (src/sugar.rs 521-526), so it compiles only if there is none. *)
  Definition env_ok : Prop :=
    forall i b, e i = IStruct b -> forall nm t, vb_special b = SpDeleg nm t -> vb_fields b = [].
End Impl.

(** The elements of a set and the keys of a map are listed in ascending order,
    each once. *)
Definition ascending : list value -> Prop := StronglySorted (fun a b => value_cmp a b = Lt).

(** ** Typing.  [ordered] is what is asked of the order in which the elements
    of a set or the keys of a map are listed. *)
Section HasType.
  Variable ordered : list value -> Prop.
  Variable e : env.

  Inductive typed_by : value -> ty -> Prop :=
  | TyUInt w n : n <= umax w -> typed_by (VU n) (TUInt w)
  | TySInt w z : (smin w <= z <= smax w)%Z -> typed_by (VS z) (TSInt w)
  | TyBool b : typed_by (VB b) TBool
  | TyChar c : char_ok c = true -> typed_by (VChar c) TChar
  | TyPhantom : typed_by VPhantom TPhantom
  | TyStr t bs : is_str t -> bytes_ok bs -> utf8_ok bs = true -> typed_by (VStr bs) t
  | TyBytes t bs : is_bytes t -> bytes_ok bs -> typed_by (VBytes bs) t
  | TyArrB n t bs : is_u8 t = true -> bytes_ok bs -> lenN bs = n -> typed_by (VArrB bs) (TArray n t)
  | TyArr n t vs : is_u8 t = false -> lenN vs = n -> Forall (fun v => typed_by v t) vs ->
      typed_by (VArr vs) (TArray n t)
  | TyVec t vs : is_u8 t = false -> Forall (fun v => typed_by v t) vs -> typed_by (VList vs) (TVec t)
  | TySeq t vs : Forall (fun v => typed_by v t) vs -> typed_by (VList vs) (TSeq t)
  | TySet t vs : Forall (fun v => typed_by v t) vs -> ordered vs -> typed_by (VList vs) (TSet t)
  | TyNone t : typed_by (VOpt None) (TOption t)
  | TySome t v : typed_by v t -> typed_by (VOpt (Some v)) (TOption t)
  | TyMap tk tv kvs : Forall (fun p => typed_by (fst p) tk) kvs ->
      Forall (fun p => typed_by (snd p) tv) kvs -> ordered (map fst kvs) ->
      typed_by (VMap kvs) (TMap tk tv)
  | TyTuple ts vs : Forall2 typed_by vs ts -> typed_by (VRec vs) (TTuple ts)
  | TyBox t v : typed_by v t -> typed_by v (TBox t)
  | TyCopied t v : typed_by v t -> typed_by v (TCopied t)
  | TyUnk fs : nodes_ok fs -> typed_by (VUnk fs) TUnknown
  | TyNode n : node_ok n -> typed_by (VNode n) TUnkField
  | TyStruct i b vs : e i = IStruct b -> Forall2 typed_by vs (body_types b) ->
      vb_check b vs = true -> unknown_ok b vs -> typed_by (VRec vs) (TItem i)
  | TyVar i vars catch ix d b vs : e i = IEnum vars catch -> nth_error vars ix = Some (d, b) ->
      Forall2 typed_by vs (body_types b) -> vb_check b vs = true -> unknown_ok b vs ->
      typed_by (VVar ix (VRec vs)) (TItem i)
  | TyCatch i vars d b vs : e i = IEnum vars (Some b) -> d < 2 ^ 64 -> ~ In d (map fst vars) ->
      Forall2 typed_by vs (body_types b) -> vb_check b vs = true -> unknown_ok b vs ->
      typed_by (VCatch d (VRec vs)) (TItem i).
End HasType.
Arguments TyUInt {ordered}.
Arguments TySInt {ordered}.
Arguments TyBool {ordered}.
Arguments TyChar {ordered}.
Arguments TyPhantom {ordered}.
Arguments TyStr {ordered}.
Arguments TyBytes {ordered}.
Arguments TyArrB {ordered}.
Arguments TyArr {ordered}.
Arguments TyVec {ordered}.
Arguments TySeq {ordered}.
Arguments TySet {ordered}.
Arguments TyNone {ordered}.
Arguments TySome {ordered}.
Arguments TyMap {ordered}.
Arguments TyTuple {ordered}.
Arguments TyBox {ordered}.
Arguments TyCopied {ordered}.
Arguments TyUnk {ordered}.
Arguments TyNode {ordered}.
Arguments TyStruct {ordered}.
Arguments TyVar {ordered}.
Arguments TyCatch {ordered}.
Notation has_type := (typed_by ascending).

(** ** Number of elements in variable-size collections (max_collect) *)
Fixpoint node_count (n : node) : N :=
  match n with
  | NStruct fs | NEnum _ fs => sumN (map (fun f => 1 + node_count (snd f)) fs)
  | _ => 0
  end.
Definition nodes_count (fs : list (N * node)) : N := sumN (map (fun f => 1 + node_count (snd f)) fs).
Fixpoint coll_count (v : value) : N :=
  match v with
  | VList vs => sumN (map (fun x => 1 + coll_count x) vs)
  | VMap kvs => sumN (map (fun p => 1 + (coll_count (fst p) + coll_count (snd p))) kvs)
  | VArr vs | VRec vs => sumN (map coll_count vs)
  | VOpt (Some x) | VVar _ x | VCatch _ x => coll_count x
  | VUnk fs => nodes_count fs
  | VNode n => node_count n
  | _ => 0
  end.

(** ** Bytes held in owned buffers (max_blob)

    [zc]: zero-copy deserialisation, in which [&str], [&[u8]], [Cow] and
    unknown fields borrow. *)
Fixpoint node_bytes (n : node) : N :=
  match n with
  | NBlob b => lenN b
  | NStruct fs | NEnum _ fs => sumN (map (fun f => node_bytes (snd f)) fs)
  | _ => 0
  end.
Definition nodes_bytes (fs : list (N * node)) : N := sumN (map (fun f => node_bytes (snd f)) fs).

Section Copied.
  Variable e : env.
  Fixpoint copied (v : value) : bool -> ty -> N :=
    fix go (zc : bool) (t : ty) {struct t} : N :=
      match t with
      | TBox t' => go zc t'
      | TCopied t' => go false t'
      | TString => match v with VStr bs => lenN bs | _ => 0 end
      | TCowStr => match v with VStr bs => if zc then 0 else lenN bs | _ => 0 end
      | TCowBytes => match v with VBytes bs => if zc then 0 else lenN bs | _ => 0 end
      | TVec t' =>
          match v with
          | VBytes bs => lenN bs
          | VList vs => sumN (map (fun x => copied x zc t') vs)
          | _ => 0
          end
      | TSeq t' | TSet t' =>
          match v with VList vs => sumN (map (fun x => copied x zc t') vs) | _ => 0 end
      | TArray _ t' => match v with VArr vs => sumN (map (fun x => copied x zc t') vs) | _ => 0 end
      | TOption t' => match v with VOpt (Some x) => copied x zc t' | _ => 0 end
      | TMap tk tv =>
          match v with
          | VMap kvs => sumN (map (fun p => copied (fst p) zc tk + copied (snd p) zc tv) kvs)
          | _ => 0
          end
      | TTuple ts => match v with VRec vs => sumN (zipw (fun x t' => copied x zc t') vs ts) | _ => 0 end
      | TUnknown => match v with VUnk fs => if zc then 0 else nodes_bytes fs | _ => 0 end
      | TUnkField => match v with VNode n => if zc then 0 else node_bytes n | _ => 0 end
      | TItem i =>
          match e i, v with
          | IStruct b, VRec vs => sumN (zipw (fun x t' => copied x zc t') vs (body_types b))
          | IEnum vars _, VVar ix (VRec vs) =>
              match nth_error vars ix with
              | Some (_, b) => sumN (zipw (fun x t' => copied x zc t') vs (body_types b))
              | None => 0
              end
          | IEnum _ (Some b), VCatch _ (VRec vs) =>
              sumN (zipw (fun x t' => copied x zc t') vs (body_types b))
          | _, _ => 0
          end
      | _ => 0
      end.
End Copied.

(** ** Nesting of contexts (recursion_limit)

    A context is entered for every field of a body and for a delegated
    value.  [n_body] counts the contexts nested when the value is read as a
    whole body, [n_field] as a field, [n_elem] as a single element (an item
    of a collection). *)
Record needs := mkNeeds { n_body : N; n_field : N; n_elem : N }.

(** A body with fields of the given needs. *)
Definition up (l : list N) : N := match l with [] => 0 | _ => 1 + maxN l end.

Fixpoint node_need (n : node) : N :=
  match n with
  | NStruct fs | NEnum _ fs => up (map (fun f => node_need (snd f)) fs)
  | _ => 0
  end.
Definition need_leaf : needs := mkNeeds 1 0 0.
Definition need_single (n : N) : needs := mkNeeds (1 + n) n n.
Definition need_coll (items : list N) : needs :=
  mkNeeds (1 + maxN items) (maxN items) (1 + maxN items).
Definition need_struct (n : N) : needs := mkNeeds n n n.
(** Tagged fields and special field of a record. *)
Definition need_vbody (b : vbody) (ns : list needs) : N :=
  let n := List.length (vb_fields b) in
  match vb_special b with
  | SpNone | SpUnknown _ _ => up (map n_field ns)
  | SpDeleg _ _ => up (map n_field (firstn n ns) ++ map n_body (skipn n ns))
  end.

Section Need.
  Variable e : env.
  Fixpoint need (v : value) : ty -> needs :=
    fix go (t : ty) {struct t} : needs :=
      match t with
      | TBox t' | TCopied t' => go t'
      | TVec t' =>
          match v with
          | VList vs => need_coll (map (fun x => n_elem (need x t')) vs)
          | _ => need_leaf
          end
      | TSeq t' | TSet t' =>
          match v with VList vs => need_coll (map (fun x => n_elem (need x t')) vs) | _ => need_leaf end
      | TArray _ t' =>
          match v with
          | VArr vs => need_coll (map (fun x => n_elem (need x t')) vs)
          | _ => need_leaf
          end
      | TOption t' =>
          match v with
          | VOpt (Some x) => need_coll [n_elem (need x t')]
          | _ => need_coll []
          end
      | TMap tk tv =>
          match v with
          | VMap kvs => need_coll (map (fun p => up [n_field (need (fst p) tk); n_field (need (snd p) tv)]) kvs)
          | _ => need_leaf
          end
      | TTuple ts =>
          match v with
          | VRec vs => need_struct (up (zipw (fun x t' => n_field (need x t')) vs ts))
          | _ => need_leaf
          end
      | TUnknown =>
          match v with
          | VUnk fs => let l := map (fun f => node_need (snd f)) fs in mkNeeds (up l) (maxN l) (up l)
          | _ => need_leaf
          end
      | TUnkField => match v with VNode n => need_single (node_need n) | _ => need_leaf end
      | TItem i =>
          match e i, v with
          | IStruct b, VRec vs =>
              let ns := zipw (fun x t' => need x t') vs (body_types b) in
              let body := need_vbody b ns in
              match vb_special b with
              | SpDeleg _ _ => let n := 1 + maxN (map n_elem ns) in mkNeeds body n n
              | _ => need_struct body
              end
          | IEnum vars _, VVar ix (VRec vs) =>
              match nth_error vars ix with
              | Some (_, b) => need_single (need_vbody b (zipw (fun x t' => need x t') vs (body_types b)))
              | None => need_leaf
              end
          | IEnum _ (Some b), VCatch _ (VRec vs) =>
              need_single (need_vbody b (zipw (fun x t' => need x t') vs (body_types b)))
          | _, _ => need_leaf
          end
      | _ => need_leaf
      end.
End Need.
