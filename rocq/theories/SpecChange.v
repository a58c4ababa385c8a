(** * SpecChange: single changes to a field of a struct, and what they do

    The list of "Backwards-compatibility" in src/lib.rs (436-490). *)

From Verif Require Import Base Wire Dev Stream Types Prog SpecWire SpecFormat SpecWrite SpecDe SpecDoc SpecRead SpecCompat.

(** Not a collection, an option, or [UnknownFields]. *)
Definition single (t : ty) : bool :=
  match t with
  | TVec _ | TSeq _ | TSet _ | TOption _ | TMap _ _ | TArray _ _ | TBox _ | TCopied _ | TUnknown | TUnkField => false
  | _ => true
  end.
Definition opt_list (o : option value) : list value := match o with Some v => [v] | None => [] end.

(** [change t t' v w]: a field which held [v] as a [t] holds [w] as a [t']. *)
Inductive change : ty -> ty -> value -> value -> Prop :=
| ChUInt w w' n : w <= w' -> change (TUInt w) (TUInt w') (VU n) (VU n)
| ChSInt w w' z : width_ok w -> width_ok w' -> w <= w' -> change (TSInt w) (TSInt w') (VS z) (VS z)
| ChOption t v : single t = true -> change t (TOption t) v (VOpt (Some v))
| ChVec t v : single t = true -> is_u8 t = false -> change t (TVec t) v (VList [v])
| ChSeq t v : single t = true -> change t (TSeq t) v (VList [v])
| ChSet t v : single t = true -> change t (TSet t) v (VList [v])
| ChOptVec t o : is_u8 t = false -> change (TOption t) (TVec t) (VOpt o) (VList (opt_list o))
| ChOptSeq t o : change (TOption t) (TSeq t) (VOpt o) (VList (opt_list o))
| ChOptSet t o : change (TOption t) (TSet t) (VOpt o) (VList (opt_list o))
| ChArrVec n t vs : is_u8 t = false -> change (TArray n t) (TVec t) (VArr vs) (VList vs)
| ChArrSeq n t vs : is_u8 t = false -> change (TArray n t) (TSeq t) (VArr vs) (VList vs)
| ChArrBytes n u t' bs : is_u8 u = true -> is_bytes t' -> change (TArray n u) t' (VArrB bs) (VBytes bs)
| ChVecSeq t vs : is_u8 t = false -> change (TVec t) (TSeq t) (VList vs) (VList vs)
| ChSeqVec t vs : is_u8 t = false -> change (TSeq t) (TVec t) (VList vs) (VList vs)
| ChSeqSet t vs : change (TSeq t) (TSet t) (VList vs) (as_set vs)          (* repeated elements are merged *)
| ChSetSeq t vs : change (TSet t) (TSeq t) (VList vs) (VList vs)
| ChMapSeq k v kvs : change (TMap k v) (TSeq (TTuple [k; v])) (VMap kvs) (VList (map (fun p => VRec [fst p; snd p]) kvs))
| ChSeqMap k v kvs : change (TSeq (TTuple [k; v])) (TMap k v) (VList (map (fun p => VRec [fst p; snd p]) kvs))
    (VMap (fold_left (fun l p => put (fst p) (snd p) l) kvs []))
| ChStrBytes t t' bs : is_str t -> is_bytes t' -> change t t' (VStr bs) (VBytes bs)
| ChStr t t' bs : is_str t -> is_str t' -> change t t' (VStr bs) (VStr bs)
| ChBytes t t' bs : is_bytes t -> is_bytes t' -> change t t' (VBytes bs) (VBytes bs)
| ChBox t v : change t (TBox t) v v
| ChUnbox t v : change (TBox t) t v v
| ChSame t v : change t t v v.

(** The value of a field which does not occur. *)
Inductive absent : ty -> value -> Prop :=
| AbVec t : is_u8 t = false -> absent (TVec t) (VList [])
| AbSeq t : absent (TSeq t) (VList [])
| AbSet t : absent (TSet t) (VList [])
| AbOption t : absent (TOption t) (VOpt None)
| AbMap k v : absent (TMap k v) (VMap []).

(** The new fields [fs'] and values [ws] of a struct which had the fields [l]:
    changed, or added.  Fields of [l] not mentioned are deleted; the order is
    free. *)
Inductive updated (l : list ofield) : list fdecl -> list value -> Prop :=
| UpNil : updated l [] []
| UpField f v t w fs' ws : In (fd_tag f, (v, t)) l -> change t (fd_ty f) v w -> updated l fs' ws -> updated l (f :: fs') (w :: ws)
| UpAdded f w fs' ws : ~ In (fd_tag f) (map fst l) -> absent (fd_ty f) w -> updated l fs' ws -> updated l (f :: fs') (w :: ws).
