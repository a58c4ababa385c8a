(** * SpecGrow: types that may be absent but are written *)

From Verif Require Import Base Types SpecDe.
Local Open Scope N_scope.

(** Types with a [[u8; 0]] somewhere: a field of that type may be absent, but
    is written as an empty blob. *)
Section Empty.
  Variable e : env.
  Inductive empty_bytes : ty -> Prop :=
  | EbHere t : is_u8 t = true -> empty_bytes (TArray 0 t)
  | EbVec t : empty_bytes t -> empty_bytes (TVec t)
  | EbSeq t : empty_bytes t -> empty_bytes (TSeq t)
  | EbSet t : empty_bytes t -> empty_bytes (TSet t)
  | EbOption t : empty_bytes t -> empty_bytes (TOption t)
  | EbArray n t : empty_bytes t -> empty_bytes (TArray n t)
  | EbKey k v : empty_bytes k -> empty_bytes (TMap k v)
  | EbVal k v : empty_bytes v -> empty_bytes (TMap k v)
  | EbTuple t ts : In t ts -> empty_bytes t -> empty_bytes (TTuple ts)
  | EbBox t : empty_bytes t -> empty_bytes (TBox t)
  | EbCopied t : empty_bytes t -> empty_bytes (TCopied t)
  | EbItem i t : In t (item_types (e i)) -> empty_bytes t -> empty_bytes (TItem i).
End Empty.
