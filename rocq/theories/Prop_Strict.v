(** * Prop_Strict: a stricter configuration only refuses, and says why *)

From Verif Require Import Base Wire Dev Stream Types Ser Prog De SpecDe SpecSerDe SpecRead SpecStrict P_Strict P_Ex Prop_Meaning.

(** ** C73.  Lowering limits or refusing unknown fields leaves the result of
    a successful deserialisation as it is, or turns it into an error that
    names a setting which was tightened: never into another value, another
    error or a panic. *)
Theorem C73_stricter e zc cf cf' t dbg sk gr bs sched v s' : usable e zc cf t ->
  cf_rec cf <= cf_rec cf' -> cf_blob cf <= cf_blob cf' -> cf_collect cf <= cf_collect cf' -> (cf_ignore cf = true -> cf_ignore cf' = true) ->
  bytes_ok bs -> lenN bs + 3 < U64_MAX ->
  let s := snd (set_graceful_eof gr (new_stream dbg sk (mkDev bs 0 sched))) in
  from_stream e zc cf' t s = (ROk v, s') ->
  from_stream e zc cf t s = (ROk v, s') \/ exists err, fst (from_stream e zc cf t s) = RErr err /\ refuses cf cf' (e_kind err).
Proof. exact (stricter e zc cf cf' t dbg sk gr bs sched v s'). Qed.
Print Assumptions C73_stricter.

(** The example value, which just fits the second configuration; one of the
    settings lowered each time, with the error it gives; and an undeclared
    field, accepted or not. *)
Example C73_instance :
  let run cf t bs := fst (from_stream ex_env false cf t (new_stream true false (mkDev bs 0 [EvShort 1; EvIntr]))) in
  let kind (r : res derr value) := match r with RErr x => Some (e_kind x) | _ => None end in
  usable ex_env false (mkCfg 2 true 5 4) (TItem 0) /\
  run (mkCfg 2 true 5 4) (TItem 0) ex_bytes = ROk ex_value /\
  kind (run (mkCfg 1 true 5 4) (TItem 0) ex_bytes) = Some KRecLimit /\
  kind (run (mkCfg 2 true 4 4) (TItem 0) ex_bytes) = Some KMaxBlob /\
  kind (run (mkCfg 2 true 5 3) (TItem 0) ex_bytes) = Some KMaxCollect /\
  run (mkCfg 2 true 5 4) (TTuple [TUInt 8]) [0x41; 7; 0x42; 8; 0] = ROk (VRec [VU 7]) /\
  kind (run (mkCfg 2 false 5 4) (TTuple [TUInt 8]) [0x41; 7; 0x42; 8; 0]) = Some (KUnknownField 2 2).
Proof.
  cbv zeta. split; [|vm_compute; repeat split; reflexivity].
  destruct (ex_usable false) as (H1 & H2 & _). split; [exact H1|]. split; [exact H2|]. split; vm_compute; discriminate.
Qed.
