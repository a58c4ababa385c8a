(** * Prop_Relax: a laxer configuration changes no result (C68) *)

From Verif Require Import Base Wire Dev Stream Types Prog De SpecSerDe P_Relax.
Local Open Scope N_scope.

(** ** C68.  What deserialises under some configuration deserialises as the
    same value, leaving the stream in the same state, if any of the limits is
    raised or unknown fields are no longer refused.  No assumption is made on
    the stream, the type or the input. *)
Theorem C68_relaxed e zc cf cf' t s v s' :
  cf_rec cf <= cf_rec cf' -> cf_blob cf <= cf_blob cf' -> cf_collect cf <= cf_collect cf' -> (cf_ignore cf = true -> cf_ignore cf' = true) ->
  cf_collect cf <= U64_MAX -> cf_blob cf <= U64_MAX ->
  from_stream e zc cf t s = (ROk v, s') -> from_stream e zc cf' t s = (ROk v, s').
Proof. exact (fun H1 H2 H3 H4 => relaxed e zc cf cf' t s v s' (conj H1 (conj H2 (conj H3 H4)))). Qed.
Print Assumptions C68_relaxed.

(** Two configurations never disagree on the value, only on whether there is
    one. *)
Theorem C68_never_different e zc cf1 cf2 t s v1 v2 s1 s2 :
  cf_collect cf1 <= U64_MAX -> cf_blob cf1 <= U64_MAX -> cf_collect cf2 <= U64_MAX -> cf_blob cf2 <= U64_MAX ->
  from_stream e zc cf1 t s = (ROk v1, s1) -> from_stream e zc cf2 t s = (ROk v2, s2) -> v1 = v2 /\ s1 = s2.
Proof. exact (never_different e zc cf1 cf2 t s v1 v2 s1 s2). Qed.
Print Assumptions C68_never_different.

(** The example value under limits that just suffice, strictly, and under the
    default ones; with a smaller limit it is refused. *)
Example C68_instance :
  let tight := mkCfg 2 false 5 4 in
  let run cf := fst (from_stream ex_env false cf (TItem 0) (from_slice true ex_bytes)) in
  cf_rec tight <= cf_rec default_cfg /\ cf_blob tight <= cf_blob default_cfg /\ cf_collect tight <= cf_collect default_cfg /\
  run tight = ROk ex_value /\ run default_cfg = ROk ex_value /\ run (mkCfg 2 false 5 3) <> ROk ex_value.
Proof. vm_compute. repeat split; discriminate. Qed.
