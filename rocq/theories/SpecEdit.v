(** * SpecEdit: an older program changes data of a newer one

    "Edit-compatibility", src/lib.rs (534-640).  The old program has the type
    definitions [eo], the new one [en]. *)

From Verif Require Import Base Wire Dev Stream Types Prog De SpecWire SpecFormat SpecStream SpecWrite SpecDe SpecDoc SpecRead SpecCompat.

(** The bytes, wherever they come from and whatever follows, are read as [v]
    if that is within the limits, and else the error is that a limit is
    exceeded. *)
Definition read_as (e : env) (zc ign : bool) (t : ty) (bs : bytes) (v : value) : Prop :=
  exists x, forall cf tl dbg sk sched, cf_ignore cf = ign -> cf_collect cf <= U64_MAX -> cf_blob cf <= U64_MAX ->
    bytes_ok tl -> lenN (bs ++ tl) + 3 < U64_MAX -> Forall (fun y => y <> EvFail) sched ->
    (fits cf x -> fst (from_stream e zc cf t (new_stream dbg sk (mkDev (bs ++ tl) 0 sched))) = ROk v) /\
    (~ fits cf x -> exists err, fst (from_stream e zc cf t (new_stream dbg sk (mkDev (bs ++ tl) 0 sched))) = RErr err /\ exceeds cf x (e_kind err)).

(** A field with the value [x] of type [t] (of a program with the definitions
    [e]) is read as the value [y] of type [t'] (by one with [e']). *)
Definition field_becomes (e' : env) (ign : bool) (e : env) (x : value) (t t' : ty) (y : value) : Prop :=
  exists us, elems e' ign e (items x t) (each t') us /\ gather t' us y.

Section Edit.
  Variables (e' : env) (ign : bool) (e : env).
  (** The fields [fs] have the values [ws] when they are read from the fields
      [l]. *)
  Inductive seen (l : list ofield) : list fdecl -> list value -> Prop :=
  | SeNil : seen l [] []
  | SeField f x t w fs ws : In (fd_tag f, (x, t)) l -> field_becomes e' ign e x t (fd_ty f) w -> seen l fs ws -> seen l (f :: fs) (w :: ws).
  (** The fields [fs] with the values [vs] have the values [ws] after the
      fields [ours] were written: those are read, the others are as they
      were. *)
  Inductive edited (ours : list ofield) : list fdecl -> list value -> list value -> Prop :=
  | EdNil : edited ours [] [] []
  | EdOurs f v x t w fs vs ws : In (fd_tag f, (x, t)) ours -> field_becomes e' ign e x t (fd_ty f) w ->
      edited ours fs vs ws -> edited ours (f :: fs) (v :: vs) (w :: ws)
  | EdTheirs f v fs vs ws : ~ In (fd_tag f) (map fst ours) -> edited ours fs vs ws -> edited ours (f :: fs) (v :: vs) (v :: ws).
End Edit.

(** The same if the types of the common fields are the same. *)
Inductive shown (l : list ofield) : list fdecl -> list value -> Prop :=
| ShNil : shown l [] []
| ShField f w fs ws : In (fd_tag f, (w, fd_ty f)) l -> shown l fs ws -> shown l (f :: fs) (w :: ws).
Inductive merged (ours : list ofield) : list fdecl -> list value -> list value -> Prop :=
| MgNil : merged ours [] [] []
| MgOurs f v w fs vs ws : In (fd_tag f, (w, fd_ty f)) ours -> merged ours fs vs ws -> merged ours (f :: fs) (v :: vs) (w :: ws)
| MgTheirs f v fs vs ws : ~ In (fd_tag f) (map fst ours) -> merged ours fs vs ws -> merged ours (f :: fs) (v :: vs) (v :: ws).

(** ** Older types

    [older t' t]: the type [t'] of the old program is [t] of the new one, up
    to fields and variants which have been added since; the old program keeps
    unknown fields where the new one has more fields, and unknown variants.
    [J i j]: the definition [i] of the old program is [j] of the new one. *)
Section Older.
  Variables (eo en : env) (J : nat -> nat -> Prop).
  Definition basic (t : ty) : bool :=
    match t with
    | TUInt _ | TSInt _ | TBool | TChar | TPhantom | TString | TStrRef | TBytesRef | TCowStr | TCowBytes | TUnknown | TUnkField => true
    | _ => false
    end.
  Inductive older : ty -> ty -> Prop :=
  | OlBasic t : basic t = true -> older t t
  | OlVec t' t : older t' t -> older (TVec t') (TVec t)
  | OlSeq t' t : older t' t -> older (TSeq t') (TSeq t)
  | OlSet t' t : older t' t -> older (TSet t') (TSet t)
  | OlOption t' t : older t' t -> older (TOption t') (TOption t)
  | OlArray n t' t : older t' t -> older (TArray n t') (TArray n t)
  | OlMap k' k v' v : older k' k -> older v' v -> older (TMap k' v') (TMap k v)
  | OlTuple ts' ts : olders ts' ts -> older (TTuple ts') (TTuple ts)
  | OlBox t' t : older t' t -> older (TBox t') (TBox t)
  | OlCopied t' t : older t' t -> older (TCopied t') (TCopied t)
  | OlItem i j : J i j -> older (TItem i) (TItem j)
  with olders : list ty -> list ty -> Prop :=
  | OsNil : olders [] []
  | OsCons t' t ts' ts : older t' t -> olders ts' ts -> olders (t' :: ts') (t :: ts).
  Definition fields_older (fs' fs : list fdecl) : Prop :=
    forall tag t', In (tag, t') (declared fs') -> exists t, In (tag, t) (declared fs) /\ older t' t.
  Inductive body_older (bo bn : vbody) : Prop :=
  | BoKeeps : collects bo = true -> delegates bn = false -> accepts bo -> fields_older (vb_fields bo) (vb_fields bn) -> body_older bo bn
  | BoSame : vb_special bo = SpNone -> vb_special bn = SpNone -> accepts bo -> fields_older (vb_fields bo) (vb_fields bn) ->
      incl (tags_of bn) (tags_of bo) -> body_older bo bn
  | BoDeleg nm' t' nm t : vb_special bo = SpDeleg nm' t' -> vb_special bn = SpDeleg nm t -> accepts bo -> older t' t -> body_older bo bn.
  Inductive item_older : item -> item -> Prop :=
  | IoStruct bo bn : body_older bo bn -> item_older (IStruct bo) (IStruct bn)
  | IoEnum vo co vn cn :
      (* a variant of the new program is known to the old one, or the latter
         has a [(?)] variant *)
      (forall d bn, In (d, bn) vn -> (exists bo, In (d, bo) vo /\ body_older bo bn) \/
                                     (~ In d (map fst vo) /\ exists bo, co = Some bo /\ body_older bo bn)) ->
      match cn with
      | None => True
      | Some bn => incl (map fst vo) (map fst vn) /\ exists bo, co = Some bo /\ body_older bo bn
      end -> item_older (IEnum vo co) (IEnum vn cn).
  Definition all_older : Prop := forall i j, J i j -> item_older (eo i) (en j).
End Older.
