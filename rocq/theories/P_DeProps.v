(** * P_DeProps: proofs of the properties of Prop_De.v *)

From Verif Require Import Base Wire Dev Stream Types Ser Prog De SpecFormat SpecStream SpecHist SpecDe SpecSerDe
  P_Base P_Sched P_Read P_Stream P_Dict P_DeStream P_DeSched.

Section S.
  Variables (e : env) (zc : bool) (cf : cfg).
  Hypothesis He : env_ok e.
  Hypothesis Hc : cf_collect cf <= U64_MAX.
  Hypothesis Hb : cf_blob cf <= U64_MAX.

  Lemma sched_ok t s : deserialisable e zc t -> seqinv (strip s) ->
    match from_stream e zc cf t s with
    | (ROk v, s') => seqinv (strip s') /\ vok cf e zc t n_body 0 v (cf_collect cf) (cf_blob cf)
    | (RErr _, _) => True
    | _ => False
    end.
  Proof.
    intros Ht Hq. destruct (from_stream e zc cf t s) as [r s'] eqn:E.
    destruct (from_stream_dsim _ _ _ _ _ _ _ E) as [[Heq _]|(_ & x & ->)]; [|exact I].
    pose proof (from_stream_ok cf (conj Hc Hb) e zc t _ He Ht Hq) as H. rewrite Heq in H. exact H.
  Qed.
  Lemma fresh_sched dbg sk gr bs sched : bytes_ok bs -> lenN bs + 3 < U64_MAX ->
    seqinv (strip (set_graceful_ gr (new_stream dbg sk (mkDev bs 0 sched)))).
  Proof. intros H1 H2. exact (fresh_seqinv dbg sk gr bs H1 H2). Qed.

  Lemma values_ok ts : Forall (deserialisable e zc) ts -> forall s, seqinv (strip s) ->
    match fst (read_values e zc cf ts s) with ROk _ | RErr _ => True | _ => False end.
  Proof.
    induction 1 as [|t ts Ht Hts IH]; intros s Hq; cbn [read_values]; [exact I|].
    unfold mbind. pose proof (sched_ok t s Ht Hq) as H.
    destruct (from_stream e zc cf t s) as [[v|x| |] s1]; try exact H; try exact I.
    destruct H as [Hq1 _]. specialize (IH s1 Hq1). destruct (read_values e zc cf ts s1) as [[vs|x| |] s2]; exact IH.
  Qed.
End S.

Lemma slice_total e zc dbg cf t bs :
  env_ok e -> deserialisable e zc t -> cf_collect cf <= U64_MAX -> cf_blob cf <= U64_MAX ->
  bytes_ok bs -> lenN bs + 3 < U64_MAX ->
  match fst (from_stream e zc cf t (from_slice dbg bs)) with ROk _ | RErr _ => True | _ => False end.
Proof.
  intros He Ht Hc Hb Ho Hl. pose proof (sched_ok e zc cf He Hc Hb t (from_slice dbg bs) Ht (fresh_sched dbg true false bs [] Ho Hl)) as H.
  destruct (from_stream e zc cf t (from_slice dbg bs)) as [[v|x| |] s1]; exact H || exact I.
Qed.
Lemma slice_copy_total e dbg cf t bs :
  env_ok e -> deserialisable e false t -> cf_collect cf <= U64_MAX -> cf_blob cf <= U64_MAX ->
  bytes_ok bs -> lenN bs + 3 < U64_MAX ->
  match from_slice_copy e dbg cf t bs with ROk _ | RErr _ => True | RPanic | RFuel => False end.
Proof. intros. now apply slice_total. Qed.
Lemma slice_borrow_total e dbg cf t bs :
  env_ok e -> deserialisable e true t -> cf_collect cf <= U64_MAX -> cf_blob cf <= U64_MAX ->
  bytes_ok bs -> lenN bs + 3 < U64_MAX ->
  match from_slice_borrow e dbg cf t bs with ROk _ | RErr _ => True | RPanic | RFuel => False end.
Proof. intros. now apply slice_total. Qed.
Lemma reader_total e dbg cf t bs sched :
  env_ok e -> deserialisable e false t -> cf_collect cf <= U64_MAX -> cf_blob cf <= U64_MAX ->
  bytes_ok bs -> lenN bs + 3 < U64_MAX ->
  match fst (from_reader e dbg cf t (mkDev bs 0 sched)) with ROk _ | RErr _ => True | RPanic | RFuel => False end.
Proof.
  intros He Ht Hc Hb Ho Hl. unfold from_reader.
  pose proof (sched_ok e false cf He Hc Hb t (new_stream dbg false (mkDev bs 0 sched)) Ht (fresh_sched dbg false false bs sched Ho Hl)) as H.
  destruct (from_stream e false cf t _) as [[v|x| |] s1]; exact H || exact I.
Qed.
Lemma read_values_total e zc cf ts dbg sk gr bs sched :
  env_ok e -> Forall (deserialisable e zc) ts -> cf_collect cf <= U64_MAX -> cf_blob cf <= U64_MAX ->
  bytes_ok bs -> lenN bs + 3 < U64_MAX ->
  match fst (read_values e zc cf ts (set_graceful_ gr (new_stream dbg sk (mkDev bs 0 sched)))) with
  | ROk _ | RErr _ => True | RPanic | RFuel => False end.
Proof.
  intros He Ht Hc Hb Ho Hl. apply values_ok; auto. now apply fresh_sched.
Qed.

Section V.
  Variables (e : env) (zc : bool) (cf : cfg) (t : ty) (dbg sk gr : bool) (bs : bytes) (sched : list ev) (v : value) (s' : stream).
  Hypothesis He : env_ok e.
  Hypothesis Ht : deserialisable e zc t.
  Hypothesis Hc : cf_collect cf <= U64_MAX.
  Hypothesis Hb : cf_blob cf <= U64_MAX.
  Hypothesis Ho : bytes_ok bs.
  Hypothesis Hl : lenN bs + 3 < U64_MAX.
  Hypothesis Hr : from_stream e zc cf t (set_graceful_ gr (new_stream dbg sk (mkDev bs 0 sched))) = (ROk v, s').

  Lemma stream_vok : vok cf e zc t n_body 0 v (cf_collect cf) (cf_blob cf).
  Proof.
    pose proof (sched_ok e zc cf He Hc Hb t _ Ht (fresh_sched dbg sk gr bs sched Ho Hl)) as H. rewrite Hr in H. apply H.
  Qed.
  Lemma stream_valid : has_type e v t.
  Proof. apply stream_vok. Qed.
  Lemma stream_nesting : n_body (need e v t) <= cf_rec cf.
  Proof. destruct stream_vok as (_ & H & _). lia. Qed.
  Lemma stream_copied : copied e v zc t <= cf_blob cf.
  Proof. apply stream_vok. Qed.
  Lemma stream_collected : coll_count v <= cf_collect cf.
  Proof. apply stream_vok. Qed.
End V.
