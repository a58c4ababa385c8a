(** * P_DeTrail: proofs for C37 and C38 *)

From Verif Require Import Base Wire Dev Stream Types Ser Prog De SpecFormat SpecStream SpecHist SpecDe SpecSerDe
  P_Base P_Sched P_Read P_Stream P_Dict P_DeStream P_DeSched P_DeProps P_DeExt.

Section S.
  Variables (e : env) (zc : bool) (cf : cfg) (t : ty).
  Hypothesis He : env_ok e.
  Hypothesis Ht : deserialisable e zc t.
  Hypothesis Hc : cf_collect cf <= U64_MAX.
  Hypothesis Hb : cf_blob cf <= U64_MAX.

  Lemma sched_clean dbg sk gr bs sched v s1 :
    from_stream e zc cf t (set_graceful_ gr (new_stream dbg sk (mkDev bs 0 sched))) = (ROk v, s1) ->
    from_stream e zc cf t (set_graceful_ gr (new_stream dbg sk (mkDev bs 0 []))) = (ROk v, strip s1).
  Proof.
    intros H. destruct (from_stream_dsim _ _ _ _ _ _ _ H) as [[Heq _]|(_ & x & Hx)]; [exact Heq|discriminate].
  Qed.
  Lemma sched_any dbg sk gr bs sched r s1 : Forall (fun x => x <> EvFail) sched ->
    from_stream e zc cf t (set_graceful_ gr (new_stream dbg sk (mkDev bs 0 []))) = (r, s1) ->
    exists s2, from_stream e zc cf t (set_graceful_ gr (new_stream dbg sk (mkDev bs 0 sched))) = (r, s2) /\ strip s2 = s1.
  Proof.
    intros Hs H. destruct (from_stream e zc cf t (set_graceful_ gr (new_stream dbg sk (mkDev bs 0 sched)))) as [r2 s2] eqn:E.
    destruct (from_stream_dsim _ _ _ _ _ _ _ E) as [[Heq _]|(Hn & _)]; [|contradiction].
    change (strip (set_graceful_ gr (new_stream dbg sk (mkDev bs 0 sched)))) with
      (set_graceful_ gr (new_stream dbg sk (mkDev bs 0 []))) in Heq.
    rewrite H in Heq. assert (E1 : r = r2) by congruence. assert (E2 : s1 = strip s2) by congruence.
    exists s2. rewrite E1, E2. split; reflexivity.
  Qed.

  Lemma trailing_sched dbg sk bs suf sched sched2 v s1 : bytes_ok (bs ++ suf) -> lenN (bs ++ suf) + 3 < U64_MAX ->
    Forall (fun x => x <> EvFail) sched2 ->
    from_stream e zc cf t (new_stream dbg sk (mkDev bs 0 sched)) = (ROk v, s1) ->
    exists s2, from_stream e zc cf t (new_stream dbg sk (mkDev (bs ++ suf) 0 sched2)) = (ROk v, s2) /\
      s_pos s2 = s_pos s1 /\ unread s2 = unread s1 ++ suf.
  Proof.
    intros Ho Hl Hs H. rewrite lenN_app in Hl. apply Forall_app in Ho. destruct Ho as [Ho1 Ho2].
    apply (sched_clean dbg sk false) in H.
    destruct (trailing e zc cf t He Ht Hc Hb dbg sk bs suf v _ Ho1 Ho2 Hl H) as (s2 & H2 & Hp & Hu).
    destruct (sched_any dbg sk false _ sched2 _ _ Hs H2) as (s3 & H3 & Hst). exists s3.
    split; [exact H3|]. rewrite <- Hst in Hp, Hu. split; [exact Hp|]. exact Hu.
  Qed.

  Lemma truncated dbg sk bs cut sched sched2 v s1 w s2 : bytes_ok (bs ++ cut) -> lenN (bs ++ cut) + 3 < U64_MAX ->
    from_stream e zc cf t (new_stream dbg sk (mkDev (bs ++ cut) 0 sched)) = (ROk v, s1) ->
    lenN (unread s1) < lenN cut ->
    from_stream e zc cf t (new_stream dbg sk (mkDev bs 0 sched2)) <> (ROk w, s2).
  Proof.
    intros Ho Hl H1 Hu H2.
    destruct (trailing_sched dbg sk bs cut sched2 [] w s2 Ho Hl (Forall_nil _) H2) as (s3 & H3 & _ & Hu3).
    pose proof (sched_clean dbg sk false _ _ _ _ H1) as H4.
    change (set_graceful_ false (new_stream dbg sk (mkDev (bs ++ cut) 0 []))) with (new_stream dbg sk (mkDev (bs ++ cut) 0 [])) in H4.
    rewrite H3 in H4. injection H4 as _ ->. change (unread (strip s1)) with (unread s1) in Hu3.
    rewrite Hu3, lenN_app in Hu. lia.
  Qed.
End S.

Lemma truncated_slice e dbg cf t bs cut v s1 :
  env_ok e -> deserialisable e false t -> cf_collect cf <= U64_MAX -> cf_blob cf <= U64_MAX ->
  bytes_ok (bs ++ cut) -> lenN (bs ++ cut) + 3 < U64_MAX ->
  from_stream e false cf t (from_slice dbg (bs ++ cut)) = (ROk v, s1) ->
  lenN (unread s1) < lenN cut ->
  exists x, from_slice_copy e dbg cf t bs = RErr x.
Proof.
  intros He Ht Hc Hb Ho Hl H Hu.
  assert (Ho1 : bytes_ok bs) by (apply Forall_app in Ho; apply Ho).
  pose proof (slice_copy_total e dbg cf t bs He Ht Hc Hb Ho1) as Hr. rewrite lenN_app in Hl. specialize (Hr ltac:(lia)).
  unfold from_slice_copy in *. destruct (from_stream e false cf t (from_slice dbg bs)) as [[w|x| |] s2] eqn:E; try contradiction.
  - exfalso. eapply (truncated e false cf t He Ht Hc Hb dbg true bs cut [] []); eauto. rewrite lenN_app. lia.
  - exists x. reflexivity.
Qed.
