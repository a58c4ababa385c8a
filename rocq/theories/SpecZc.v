(** * SpecZc: which types copy

    [copies e zc t]: deserialising a [t] in the style [zc] (true for
    zero-copy) may copy bytes of blobs out of the input, so that
    [Config::max_blob] concerns it.  [[u8; n]] does not count: src/de.rs
    charges nothing for it. *)

From Verif Require Import Base Wire Stream Types SpecFormat Prog SpecDe.

Section Copies.
  Variable e : env.
  Inductive copies : bool -> ty -> Prop :=
  | CpString zc : copies zc TString
  | CpVecU8 zc t : is_u8 t = true -> copies zc (TVec t)
  | CpCowStr : copies false TCowStr
  | CpCowBytes : copies false TCowBytes
  | CpUnknown : copies false TUnknown
  | CpUnkField : copies false TUnkField
  | CpVec zc t : copies zc t -> copies zc (TVec t)
  | CpSeq zc t : copies zc t -> copies zc (TSeq t)
  | CpSet zc t : copies zc t -> copies zc (TSet t)
  | CpOption zc t : copies zc t -> copies zc (TOption t)
  | CpArray zc n t : copies zc t -> copies zc (TArray n t)
  | CpKey zc k v : copies zc k -> copies zc (TMap k v)
  | CpVal zc k v : copies zc v -> copies zc (TMap k v)
  | CpTuple zc t ts : In t ts -> copies zc t -> copies zc (TTuple ts)
  | CpBox zc t : copies zc t -> copies zc (TBox t)
  | CpCopied zc t : copies false t -> copies zc (TCopied t)
  | CpItem zc i t : In t (item_types (e i)) -> copies zc t -> copies zc (TItem i).
End Copies.

(** The same configuration with another limit on copied bytes. *)
Definition with_blob (m : N) (cf : cfg) : cfg := mkCfg (cf_rec cf) (cf_ignore cf) m (cf_collect cf).
