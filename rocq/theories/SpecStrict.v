(** * SpecStrict: the errors by which a stricter configuration refuses *)

From Verif Require Import Base Wire Dev Stream Types Prog.

(** [k], reported under [cf], names a setting in which [cf] is stricter than
    [cf']. *)
Definition refuses (cf cf' : cfg) (k : ekind) : Prop :=
  match k with
  | KRecLimit => cf_rec cf < cf_rec cf'
  | KMaxCollect => cf_collect cf < cf_collect cf'
  | KMaxBlob => cf_blob cf < cf_blob cf'
  | KUnknownField _ _ => cf_ignore cf = false /\ cf_ignore cf' = true
  | _ => False
  end.
