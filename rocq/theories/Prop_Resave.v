(** * Prop_Resave: reading, writing and reading again (C67) *)

From Verif Require Import Base Wire Dev Stream Types Prog Ser De SpecFormat SpecDe SpecDoc SpecSerDe P_Ex P_Resave.
Local Open Scope N_scope.

(** ** C67.  Whatever was read can be written again, and what was written
    reads as the same value under the same configuration: reading in canonical
    form loses nothing.  The input is any byte string, delivered in any way. *)
Theorem C67_resave e zc cf t dbg sk gr bs sched v s' dw dr : env_wf e -> cf_collect cf <= U64_MAX -> cf_blob cf <= U64_MAX ->
  shape_wf t -> deserialisable e zc t -> cf_ignore cf = true \/ no_unit_body e t ->
  bytes_ok bs -> lenN bs + 3 < U64_MAX ->
  from_stream e zc cf t (set_graceful_ gr (new_stream dbg sk (mkDev bs 0 sched))) = (ROk v, s') -> size_of e t v + 3 < U64_MAX ->
  exists out, to_vec e dw t v = ROk out /\ fst (from_stream e zc cf t (from_slice dr out)) = ROk v.
Proof. exact (resave e zc cf t dbg sk gr bs sched v s' dw dr). Qed.
Print Assumptions C67_resave.

(** What is written is a normal form: two inputs are written back as the same
    bytes exactly if they hold the same value. *)
Theorem C67_normal_form e zc cf t dbg1 sk1 gr1 bs1 sched1 v1 s1 dbg2 sk2 gr2 bs2 sched2 v2 s2 dw :
  env_wf e -> cf_collect cf <= U64_MAX -> cf_blob cf <= U64_MAX ->
  shape_wf t -> deserialisable e zc t -> deserialisable e true t ->
  bytes_ok bs1 -> lenN bs1 + 3 < U64_MAX -> bytes_ok bs2 -> lenN bs2 + 3 < U64_MAX ->
  from_stream e zc cf t (set_graceful_ gr1 (new_stream dbg1 sk1 (mkDev bs1 0 sched1))) = (ROk v1, s1) ->
  from_stream e zc cf t (set_graceful_ gr2 (new_stream dbg2 sk2 (mkDev bs2 0 sched2))) = (ROk v2, s2) ->
  size_of e t v1 <= U64_MAX -> size_of e t v2 <= U64_MAX ->
  to_vec e dw t v1 = to_vec e dw t v2 <-> v1 = v2.
Proof. exact (resave_same e zc cf t dbg1 sk1 gr1 bs1 sched1 v1 s1 dbg2 sk2 gr2 bs2 sched2 v2 s2 dw). Qed.
Print Assumptions C67_normal_form.

(** A padded, denormal, reordered encoding with a repeated set element is
    accepted and written back in canonical form. *)
Example C67_instance :
  let t := TTuple [TUInt 16; TSet (TUInt 8)] in
  let bs := [0xC0; 0x42; 9; 0xC0; 0x41; 0x85; 0x80; 0; 0x42; 3; 0x42; 9; 0; 77] in
  let v := VRec [VU 5; VList [VU 3; VU 9]] in
  bytes_ok bs /\ deserialisable ex_env false t /\ deserialisable ex_env true t /\ shape_wf t /\
  from_slice_copy ex_env true default_cfg t bs = ROk v /\ size_of ex_env t v + 3 < U64_MAX /\
  to_vec ex_env true t v = ROk [0x41; 5; 0x42; 3; 0x42; 9; 0] /\
  from_slice_copy ex_env true default_cfg t [0x41; 5; 0x42; 3; 0x42; 9; 0] = ROk v.
Proof.
  cbv zeta. split; [repeat constructor|].
  assert (Hd : forall zc, deserialisable ex_env zc (TTuple [TUInt 16; TSet (TUInt 8)])).
  { intros zc H. inversion H as [| | | | | | | | |z t ts Hin Hn| | |]; subst. destruct Hin as [<-|[<-|[]]]; inversion Hn; subst.
    match goal with X : no_impl _ _ _ |- _ => inversion X end. }
  split; [exact (Hd false)|]. split; [exact (Hd true)|]. split; [cbn [shape_wf]; split; [vm_compute; discriminate|]; cbn; unfold width_ok; repeat split; auto 10|].
  split; [vm_compute; reflexivity|]. split; [vm_compute; reflexivity|]. split; vm_compute; reflexivity.
Qed.
