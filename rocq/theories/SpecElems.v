(** * SpecElems: what the fields of a document mean, each as an element *)

From Verif Require Import Base Wire Dev Stream Types Prog SpecFormat SpecDe SpecDoc SpecRead.
Local Open Scope N_scope.

(** The fields [ks], whatever their tags, stand for the elements [vs] of type
    [t], one each, and reading them costs [x] altogether. *)
Definition elems_denote (e : env) (ign zc : bool) (t : ty) (ks : list (N * node)) (vs : list value) (x : cost) : Prop :=
  exists fuel, rmap (fun f => m_elem (means ign e fuel zc t) (snd f)) ks = Some (vs, x).

(** The types of collections that keep all elements in order: [LinkedList],
    [VecDeque], ... of anything, [Vec] of anything but [u8]. *)
Definition sequence_of (t t' : ty) : Prop := t' = TSeq t \/ (t' = TVec t /\ is_u8 t = false).

(** All fields have the tag of the elements of a collection. *)
Definition all_elems (ks : list (N * node)) : Prop := Forall (fun f => fst f = 1) ks.

(** Limits that allow one context and [n] elements more. *)
Definition roomier (n : N) (cf : cfg) : cfg := mkCfg (cf_rec cf + 1) (cf_ignore cf) (cf_blob cf) (cf_collect cf + n).
