(** * P_Resave: reading, writing and reading again (C67) *)

From Verif Require Import Base Wire Dev Stream Types Prog Ser De SpecFormat SpecDe SpecDoc SpecSerDe P_DeProps P_SerDe.
Local Open Scope N_scope.
Strategy 1000 [s_decode_u64 decode_u64 decode_loop write_all read_exact encode_u64 enc_loop encode_fixed_u64 mloop miter].

Lemma read_storable e zc cf t dbg sk gr bs sched v s' : env_wf e -> cf_collect cf <= U64_MAX -> cf_blob cf <= U64_MAX ->
  shape_wf t -> deserialisable e zc t -> cf_ignore cf = true \/ no_unit_body e t ->
  bytes_ok bs -> lenN bs + 3 < U64_MAX ->
  from_stream e zc cf t (set_graceful_ gr (new_stream dbg sk (mkDev bs 0 sched))) = (ROk v, s') -> storable cf e zc t v.
Proof.
  intros Hwf Hc Hb Hsh Hd Hu Ho Hl H. pose proof (env_wf_ok e Hwf) as He. constructor; auto.
  - eapply stream_valid; eauto.
  - split; [eapply stream_nesting; eauto|]. split; [eapply stream_collected; eauto|eapply stream_copied; eauto].
Qed.
Theorem resave e zc cf t dbg sk gr bs sched v s' dw dr : env_wf e -> cf_collect cf <= U64_MAX -> cf_blob cf <= U64_MAX ->
  shape_wf t -> deserialisable e zc t -> cf_ignore cf = true \/ no_unit_body e t ->
  bytes_ok bs -> lenN bs + 3 < U64_MAX ->
  from_stream e zc cf t (set_graceful_ gr (new_stream dbg sk (mkDev bs 0 sched))) = (ROk v, s') -> size_of e t v + 3 < U64_MAX ->
  exists out, to_vec e dw t v = ROk out /\ fst (from_stream e zc cf t (from_slice dr out)) = ROk v.
Proof. intros Hwf Hc Hb Hsh Hd Hu Ho Hl H Hs. apply round_trip; auto. eapply read_storable; eauto. Qed.
Theorem resave_same e zc cf t dbg1 sk1 gr1 bs1 sched1 v1 s1 dbg2 sk2 gr2 bs2 sched2 v2 s2 dw : env_wf e -> cf_collect cf <= U64_MAX -> cf_blob cf <= U64_MAX ->
  shape_wf t -> deserialisable e zc t -> deserialisable e true t ->
  bytes_ok bs1 -> lenN bs1 + 3 < U64_MAX -> bytes_ok bs2 -> lenN bs2 + 3 < U64_MAX ->
  from_stream e zc cf t (set_graceful_ gr1 (new_stream dbg1 sk1 (mkDev bs1 0 sched1))) = (ROk v1, s1) ->
  from_stream e zc cf t (set_graceful_ gr2 (new_stream dbg2 sk2 (mkDev bs2 0 sched2))) = (ROk v2, s2) ->
  size_of e t v1 <= U64_MAX -> size_of e t v2 <= U64_MAX ->
  to_vec e dw t v1 = to_vec e dw t v2 <-> v1 = v2.
Proof.
  intros Hwf Hc Hb Hsh Hd Hd' Ho1 Hl1 Ho2 Hl2 H1 H2 Z1 Z2. split; [|now intros ->]. intros E. pose proof (env_wf_ok e Hwf) as He.
  pose proof (stream_valid e zc cf t _ _ _ _ _ _ _ He Hd Hc Hb Ho1 Hl1 H1) as T1. pose proof (stream_valid e zc cf t _ _ _ _ _ _ _ He Hd Hc Hb Ho2 Hl2 H2) as T2.
  assert (E1 : to_vec e dw t v1 = ROk (bytes_of e t v1)) by (apply to_vec_ok; auto; split; auto). rewrite E1 in E. symmetry in E.
  destruct (encoding_injective e Hwf t v1 v2 dw dw _ _ [] Hsh Hd' T1 T2 Z1 Z2 E1 E) as [Hv _]; [now rewrite app_nil_r|exact Hv].
Qed.
