(** * Prop_Places: the positions in error locations (C66) *)

From Verif Require Import Base Wire Dev Stream Types Prog De SpecSerDe P_Places.
From Coq Require Import Sorting.Sorted.
Local Open Scope N_scope.

(** ** C66.  The positions in the location of a deserialisation error are
    ordered: the outermost is not before the position at which deserialising
    began, no inner one is before an outer one, and the innermost is not after
    the position at which the stream was left.  There are no more of them than
    the recursion limit.  This holds for whatever bytes and on any stream that
    is not in the middle of writing a blob ([s_commit]). *)
Theorem C66_ordered e zc cf t s x s' : s_pos s <= U64_MAX -> s_commit s = None \/ s_commit s = Some CSkipBlob ->
  from_stream e zc cf t s = (RErr x, s') ->
  Sorted N.le ([s_pos s] ++ rev (map snd (e_path x)) ++ [s_pos s']) /\ lenN (e_path x) <= cf_rec cf.
Proof. exact (places_ordered e zc cf t s x s'). Qed.
Print Assumptions C66_ordered.

(** An unknown-field error carries the position of the field: it lies behind
    the positions of its location, and there stands a byte with the field's
    tag. *)
Theorem C66_unknown_field e zc cf t s x s' tag pos : s_pos s <= U64_MAX -> s_commit s = None \/ s_commit s = Some CSkipBlob ->
  from_stream e zc cf t s = (RErr x, s') -> e_kind x = KUnknownField tag pos ->
  Sorted N.le ([s_pos s] ++ rev (map snd (e_path x)) ++ [pos; s_pos s']) /\
  exists byte, nth_error (d_data (s_dev s)) (N.to_nat (d_pos (s_dev s) + (pos - s_pos s))) = Some byte /\ byte mod 64 = tag.
Proof. exact (places_unknown e zc cf t s x s' tag pos). Qed.
Print Assumptions C66_unknown_field.

(** In particular for a byte slice: the position is the offset of the field. *)
Theorem C66_slice e zc dbg cf t bs x tag pos : fst (from_stream e zc cf t (from_slice dbg bs)) = RErr x -> e_kind x = KUnknownField tag pos ->
  Sorted N.le (rev (map snd (e_path x)) ++ [pos]) /\ exists byte, nth_error bs (N.to_nat pos) = Some byte /\ byte mod 64 = tag.
Proof. exact (places_slice e zc dbg cf t bs x tag pos). Qed.
Print Assumptions C66_slice.

(** A shape with an undeclared field in the child of a tree, unknown fields
    not being ignored; and a missing name found at the end of the child. *)
Example C66_instance :
  let cf := mkCfg 32 false 65536 256 in
  let run bs := match from_stream ex_env false cf (TItem 0) (from_slice true bs) with
                | (RErr x, s') => Some (s_pos (from_slice true bs), rev (e_path x), e_kind x, s_pos s') | _ => None end in
  run [0x41; 1; 0x82; 0; 0xC3; 0x41; 7; 0x82; 0; 0x04; 2; 0x41; 5; 0x49; 9; 0; 0; 0] =
    Some (0, [("kids", 4); ("shape", 9)]%string, KUnknownField 9 13, 15) /\
  run [0x41; 1; 0x82; 0; 0xC3; 0x41; 7; 0; 0] = Some (0, [("kids", 4); ("name", 8)]%string, KMissing, 8) /\
  0x49 mod 64 = 9.
Proof. vm_compute. auto. Qed.
