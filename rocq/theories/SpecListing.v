(** * SpecListing: listings of a value

    A [HashSet] or a [HashMap] hands out its elements in an order that is not
    part of the value.  A value of the model keeps sets and
    maps in ascending order; a listing of it is what an iteration over it may
    hand to the serialiser: at every set, whatever its depth, the elements in
    any order, and perhaps more than once; at every map the pairs in any
    order. *)

From Verif Require Import Base Types SpecDe.

(** A value without components. *)
Definition leaf (v : value) : bool :=
  match v with
  | VList _ | VArr _ | VMap _ | VOpt _ | VRec _ | VVar _ _ | VCatch _ _ => false
  | _ => true
  end.

(** [lists v' v t]: [v'] is a listing of the value [v] of type [t].  [ps] and
    [kps] pair each listed component with the component it is a listing of. *)
Section Lists.
  Variable e : env.
  Inductive lists : value -> value -> ty -> Prop :=
  | LiLeaf v t : leaf v = true -> lists v v t
  | LiArr n t ps : Forall (fun p => lists (fst p) (snd p) t) ps -> lists (VArr (map fst ps)) (VArr (map snd ps)) (TArray n t)
  | LiVec t ps : Forall (fun p => lists (fst p) (snd p) t) ps -> lists (VList (map fst ps)) (VList (map snd ps)) (TVec t)
  | LiSeq t ps : Forall (fun p => lists (fst p) (snd p) t) ps -> lists (VList (map fst ps)) (VList (map snd ps)) (TSeq t)
  | LiSet t ps vs : Forall (fun p => lists (fst p) (snd p) t) ps ->
      ascending vs -> (forall x, In x vs <-> In x (map snd ps)) -> lists (VList (map fst ps)) (VList vs) (TSet t)
  | LiNone t : lists (VOpt None) (VOpt None) (TOption t)
  | LiSome t v' v : lists v' v t -> lists (VOpt (Some v')) (VOpt (Some v)) (TOption t)
  | LiMap tk tv (kps : list ((value * value) * (value * value))) kvs :
      Forall (fun p => lists (fst (fst p)) (fst (snd p)) tk /\ lists (snd (fst p)) (snd (snd p)) tv) kps ->
      ascending (map fst kvs) -> NoDup (map fst (map snd kps)) -> (forall p, In p kvs <-> In p (map snd kps)) ->
      lists (VMap (map fst kps)) (VMap kvs) (TMap tk tv)
  | LiTuple ts ps : Forall2 (fun p t => lists (fst p) (snd p) t) ps ts -> lists (VRec (map fst ps)) (VRec (map snd ps)) (TTuple ts)
  | LiBox t v' v : lists v' v t -> lists v' v (TBox t)
  | LiCopied t v' v : lists v' v t -> lists v' v (TCopied t)
  | LiStruct i b ps : e i = IStruct b -> Forall2 (fun p t => lists (fst p) (snd p) t) ps (body_types b) ->
      lists (VRec (map fst ps)) (VRec (map snd ps)) (TItem i)
  | LiVar i vars catch ix d b ps : e i = IEnum vars catch -> nth_error vars ix = Some (d, b) ->
      Forall2 (fun p t => lists (fst p) (snd p) t) ps (body_types b) ->
      lists (VVar ix (VRec (map fst ps))) (VVar ix (VRec (map snd ps))) (TItem i)
  | LiCatch i vars d b ps : e i = IEnum vars (Some b) -> Forall2 (fun p t => lists (fst p) (snd p) t) ps (body_types b) ->
      lists (VCatch d (VRec (map fst ps))) (VCatch d (VRec (map snd ps))) (TItem i).
End Lists.

(** A well-typed listing: as for values, without the order of sets and maps. *)
Notation listing_type := (typed_by (fun _ => True)).

(** The value a list of pairs gives to a key when later pairs win. *)
Definition finally (k v : value) (l : list (value * value)) : Prop :=
  exists a b, l = a ++ (k, v) :: b /\ ~ In k (map fst b).
(** A pair as a tuple. *)
Definition pair_of (p : value * value) : value := VRec [fst p; snd p].
