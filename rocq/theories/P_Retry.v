(** * P_Retry: a commit that failed can be repeated (C76) *)

From Verif Require Import Base Wire Dev Stream SpecHist SpecRetry P_Base P_Sched P_Errs.
Local Open Scope N_scope.
Strategy 1000 [s_decode_u64 decode_u64 decode_loop write_all read_exact encode_u64 enc_loop encode_fixed_u64 mloop miter].

(** Moved forward by [k]. *)
Definition mvs (k : N) (s s' : stream) : Prop := strip s' = adv k (strip s).
Lemma mvs_0 s : mvs 0 s s.
Proof. unfold mvs. now rewrite adv_0. Qed.
Lemma mvs_trans a b s t u : mvs a s t -> mvs b t u -> mvs (a + b) s u.
Proof. unfold mvs. intros H1 H2. rewrite H2, H1. apply adv_adv. Qed.
Lemma tread_mv n s r s' : t_read false n s = (r, s') -> exists k, mvs k s s' /\ (forall bs, r = ROk bs -> k = lenN bs) /\ (forall x, r = RErr x -> k = 0) /\ k <= n.
Proof.
  intros H. pose proof H as H0. unfold t_read in H. destruct (n =? 0); [injection H as <- <-; exists 0; split; [apply mvs_0|split; [|split; [discriminate|lia]]]; intros bs E; injection E as <-; reflexivity|].
  unfold mbind, check_advance_pos in H. destruct (_ <? _); [injection H as <- <-; exists 0; split; [apply mvs_0|split; [discriminate|split; [reflexivity|lia]]]|].
  unfold on_dev, dev_read in H. destruct (sched_next n (s_dev s)) as [[k|x| |] sc] eqn:Es.
  - unfold mmod in H. exists (lenN (takeN k (d_rest (s_dev s)))). remember (takeN k (d_rest (s_dev s))) as b eqn:Eb.
    assert (Hs : s' = set_pos_ (s_pos s + lenN b) (set_dev (mkDev (d_data (s_dev s)) (d_pos (s_dev s) + lenN b) sc) s) /\ r = ROk b).
    { destruct b; injection H as <- <-; auto. }
    destruct Hs as [-> ->]. split; [reflexivity|]. split; [|split; [discriminate|exact (tread_short _ _ _ _ H0)]]. intros bs E. now injection E as <-.
  - injection H as <- <-. exists 0. split; [|split; [discriminate|split; [reflexivity|lia]]]. unfold mvs. rewrite adv_0. reflexivity.
  - injection H as <- <-. exists 0. split; [|split; [discriminate|split; [discriminate|lia]]]. unfold mvs. rewrite adv_0. destruct s as [[] ? ? ? ? ? ? ? ? ?]; reflexivity.
  - injection H as <- <-. exists 0. split; [|split; [discriminate|split; [discriminate|lia]]]. unfold mvs. rewrite adv_0. destruct s as [[] ? ? ? ? ? ? ? ? ?]; reflexivity.
Qed.
Lemma upto_mv f : forall acc n s r s', read_upto_loop (t_read false) f acc n s = (r, s') -> exists k, mvs k s s' /\ (forall bs, r = ROk bs -> lenN acc + k = lenN bs) /\ k <= n.
Proof.
  induction f as [|f IH]; intros acc n s r s' H; cbn [read_upto_loop] in H; [injection H as <- <-; exists 0; split; [apply mvs_0|split; [discriminate|lia]]|].
  destruct (n =? 0); [injection H as <- <-; exists 0; split; [apply mvs_0|split; [|lia]]; intros bs E; injection E as <-; lia|].
  destruct (t_read false n s) as [[bs|x| |] s1] eqn:E1; destruct (tread_mv _ _ _ _ E1) as (k & Hk & Hl & Hz & Hn).
  - specialize (Hl bs eq_refl). destruct bs as [|b bs]; [injection H as <- <-; exists k; split; [exact Hk|split; [|exact Hn]]; intros bs E; injection E as <-; change (lenN (@nil N)) with 0 in Hl; lia|].
    destruct (IH _ _ _ _ _ H) as (j & Hj & Hl2 & Hn2). exists (k + j). split; [exact (mvs_trans _ _ _ _ _ Hk Hj)|split; [|lia]]. intros b0 E. specialize (Hl2 b0 E). rewrite lenN_app in Hl2. lia.
  - destruct x; try (injection H as <- <-; exists k; split; [exact Hk|split; [discriminate|exact Hn]]).
    destruct (IH _ _ _ _ _ H) as (j & Hj & Hl2 & Hn2). exists (k + j). split; [exact (mvs_trans _ _ _ _ _ Hk Hj)|split; [|rewrite (Hz _ eq_refl); lia]]. intros b0 E. specialize (Hl2 b0 E).
    rewrite (Hz _ eq_refl). lia.
  - injection H as <- <-. exists k. split; [exact Hk|split; [discriminate|exact Hn]].
  - injection H as <- <-. exists k. split; [exact Hk|split; [discriminate|exact Hn]].
Qed.
Definition moves (n : N) (m : SM N) : Prop := forall s r s', m s = (r, s') -> exists k, mvs k s s' /\ (forall a, r = ROk a -> k = a) /\ k <= n.
Lemma discard_mv n : moves n (skip_by_discard n).
Proof.
  intros s r s' H. unfold skip_by_discard, lift_io, mbind in H. destruct (read_upto sch (t_read false) n s) as [[bs|x| |] s1] eqn:E;
    pose proof E as E0; unfold read_upto in E0; destruct (upto_mv _ _ _ _ _ _ E0) as (k & Hk & Hl & Hn); injection H as <- <-; exists k; (split; [exact Hk|split; [|exact Hn]]); try discriminate.
  intros a Ha. injection Ha as <-. specialize (Hl bs eq_refl). change (lenN (@nil N)) with 0 in Hl. lia.
Qed.
Lemma direct_mv n : moves n (skip_by_seek_direct n).
Proof.
  intros s r s' H. unfold skip_by_seek_direct, mbind, lift_io, check_advance_pos in H. destruct (_ <? _); [injection H as <- <-; exists 0; split; [apply mvs_0|split; [discriminate|lia]]|].
  unfold on_dev, dev_seek in H.
  assert (Hok : forall sc, exists k, mvs k s (set_pos_ (s_pos s + n) (set_dev (mkDev (d_data (s_dev s)) (Z.to_N (Z.of_N (d_pos (s_dev s)) + Z.of_N n)) sc) s)) /\ (forall a, @ROk serr N n = ROk a -> k = a) /\ k <= n).
  { intros sc. exists n. split; [|split; [intros a E; now injection E as <-|lia]]. unfold mvs. rewrite <- N2Z.inj_add, N2Z.id. reflexivity. }
  assert (Hd : forall sc, skip_by_discard n (set_dev (mkDev (d_data (s_dev s)) (d_pos (s_dev s)) sc) s) = (r, s') -> exists k, mvs k s s' /\ (forall a, r = ROk a -> k = a) /\ k <= n).
  { intros sc E. destruct (discard_mv n _ _ _ E) as (k & Hk & Hl & Hkn). exists k. split; [exact Hk|split; [exact Hl|exact Hkn]]. }
  destruct (d_sched (s_dev s)) as [|[c| |] sc]; cbn [tl] in H; try (destruct (_ || _)%bool; [exact (Hd _ H)|injection H as <- <-; apply Hok]); exact (Hd _ H).
Qed.
Lemma seek_mv f : forall n, moves n (skip_by_seek_rec f n).
Proof.
  induction f as [|f IH]; intros n s r s' H; cbn [skip_by_seek_rec] in H; [injection H as <- <-; exists 0; split; [apply mvs_0|split; [discriminate|lia]]|].
  destruct (N.ltb_spec I64_MAX n) as [Hn|Hn]; [|exact (direct_mv n s r s' H)].
  unfold mbind in H. destruct (skip_by_seek_rec f I64_MAX s) as [[a|x| |] s1] eqn:E1; destruct (IH _ _ _ _ E1) as (k & Hk & Hl & Hkn);
    try (injection H as <- <-; exists k; split; [exact Hk|split; [discriminate|lia]]).
  pose proof (Hl a eq_refl) as Hka; subst k. destruct (a <? I64_MAX).
  - injection H as <- <-. exists a. split; [exact Hk|split; [|lia]]. intros b E. now injection E as <-.
  - destruct (skip_by_seek_rec f (n - a) s1) as [[b|x| |] s2] eqn:E2; destruct (IH _ _ _ _ E2) as (j & Hj & Hm & Hjn);
      try (injection H as <- <-; exists (a + j); split; [exact (mvs_trans _ _ _ _ _ Hk Hj)|split; [discriminate|lia]]).
    pose proof (Hm b eq_refl) as Hjb; subst j. injection H as <- <-. exists (a + b). split; [exact (mvs_trans _ _ _ _ _ Hk Hj)|split; [|lia]]. intros c E. now injection E as <-.
Qed.
Lemma then_mv n (m : SM N) s r s' : moves n m -> (let* skipped := m in if skipped <? n then mfail (STruncatedBlob (n - skipped)) else mret tt) s = (r, s') ->
  exists k, mvs k s s' /\ (r = ROk tt -> k = n) /\ k <= n.
Proof.
  intros Hm H. unfold mbind in H. destruct (m s) as [[a|x| |] s1] eqn:E; destruct (Hm _ _ _ E) as (k & Hk & Hl & Hn).
  - pose proof (Hl a eq_refl) as Hka. subst k. destruct (N.ltb_spec a n) as [Ha|Ha]; injection H as <- <-; exists a; (split; [exact Hk|]); (split; [|exact Hn]); [discriminate|]. intros _. lia.
  - injection H as <- <-. exists k. split; [exact Hk|split; [discriminate|exact Hn]].
  - injection H as <- <-. exists k. split; [exact Hk|split; [discriminate|exact Hn]].
  - injection H as <- <-. exists k. split; [exact Hk|split; [discriminate|exact Hn]].
Qed.
Lemma skip_mv s r s' : skip_blob s = (r, s') -> exists k, mvs k s s' /\ (r = ROk tt -> k = s_blob_end s - s_pos s) /\ k <= s_blob_end s - s_pos s.
Proof.
  unfold skip_blob. destruct (N.ltb_spec (s_pos s) (s_blob_end s)) as [Hlt|Hge].
  2: { intros H. injection H as <- <-. exists 0. split; [apply mvs_0|]. split; [intros _|]; lia. }
  cbv zeta. apply then_mv. destruct (s_seek s); [apply seek_mv|apply discard_mv].
Qed.

(** One attempt, other than at closing a dynamic blob. *)
Lemma commit_mv s r s' : s_commit s <> Some CFinishDyn -> commit s = (r, s') ->
  (r = ROk tt -> unscheduled s' = behind s) /\ (forall x, r = RErr x -> exists k, mvs k s s' /\ k <= s_blob_end s - s_pos s).
Proof.
  intros Hd H. unfold commit in H. destruct (s_commit s) as [[]|] eqn:Ec; [| |now contradiction Hd|].
  - unfold mbind in H. destruct (skip_blob s) as [[[]|x| |] s1] eqn:E; destruct (skip_mv _ _ _ E) as (k & Hk & Hl & Hn).
    + unfold mmod in H. injection H as <- <-. split; [|discriminate]. intros _. rewrite (Hl eq_refl) in Hk. unfold mvs in Hk.
      change (unscheduled (set_commit None s1)) with (set_commit None (strip s1)). rewrite Hk. unfold behind. rewrite Ec. reflexivity.
    + injection H as <- <-. split; [discriminate|]. intros y _. eauto.
    + injection H as <- <-. split; discriminate.
    + injection H as <- <-. split; discriminate.
  - unfold mbind, check_at_end_of_blob in H. destruct (N.eqb_spec (s_pos s) (s_blob_end s)) as [He|He].
    + unfold mmod in H. injection H as <- <-. split; [|discriminate]. intros _. unfold behind, unscheduled. rewrite Ec, !N.add_0_r.
      destruct s as [[] ? ? ? ? ? ? ? ? ?]; reflexivity.
    + destruct (u64_sub _ _ _); injection H as <- <-; (split; [discriminate|]); try discriminate. intros y _. exists 0. split; [apply mvs_0|lia].
  - injection H as <- <-. split; [|discriminate]. intros _. unfold behind, unscheduled. rewrite Ec, !N.add_0_r. destruct s as [[] ? ? ? ? ? ? ? ? ?]; cbn in Ec; subst; reflexivity.
Qed.
Lemma attempts_behind n : forall s s', s_commit s <> Some CFinishDyn -> attempts n s = (ROk tt, s') -> unscheduled s' = behind s.
Proof.
  induction n as [|n IH]; intros s s' Hd H; cbn [attempts] in H; destruct (commit s) as [r s1] eqn:E; destruct (commit_mv s r s1 Hd E) as [H1 H2];
    destruct r as [[]|x| |]; try discriminate; try (injection H as <-; now apply H1).
  destruct (H2 x eq_refl) as (k & Hk & Hn). unfold mvs in Hk.
  assert (Hc : s_commit s1 = s_commit s) by exact (f_equal s_commit Hk).
  rewrite (IH s1 s'); [|now rewrite Hc|exact H]. unfold behind. rewrite Hc.
  assert (A1 : d_data (s_dev s1) = d_data (s_dev s)) by exact (f_equal (fun u => d_data (s_dev u)) Hk).
  assert (A2 : d_pos (s_dev s1) = d_pos (s_dev s) + k) by exact (f_equal (fun u => d_pos (s_dev u)) Hk).
  assert (A3 : s_pos s1 = s_pos s + k) by exact (f_equal s_pos Hk).
  assert (A4 : s_eof s1 = s_eof s) by exact (f_equal s_eof Hk).
  assert (A5 : s_blob_end s1 = s_blob_end s) by exact (f_equal s_blob_end Hk).
  assert (A6 : s_dyn_start s1 = s_dyn_start s) by exact (f_equal s_dyn_start Hk).
  assert (A7 : s_depth s1 = s_depth s) by exact (f_equal s_depth Hk).
  assert (A8 : s_graceful s1 = s_graceful s) by exact (f_equal s_graceful Hk).
  assert (A9 : s_seek s1 = s_seek s) by exact (f_equal s_seek Hk).
  assert (A10 : s_dbg s1 = s_dbg s) by exact (f_equal s_dbg Hk).
  rewrite A1, A2, A3, A4, A5, A6, A7, A8, A9, A10.
  destruct (s_commit s) as [[]|] eqn:Ec; cbn [not] in Hd.
  - replace (d_pos (s_dev s) + k + (s_blob_end s - (s_pos s + k))) with (d_pos (s_dev s) + (s_blob_end s - s_pos s)) by lia.
    replace (s_pos s + k + (s_blob_end s - (s_pos s + k))) with (s_pos s + (s_blob_end s - s_pos s)) by lia. reflexivity.
  - assert (k = 0); [|subst k; now rewrite !N.add_0_r].
    unfold commit in E. rewrite Ec in E. unfold mbind, check_at_end_of_blob in E. destruct (_ =? _); [discriminate|].
    destruct (u64_sub _ _ _); try discriminate; injection E as _ <-; lia.
  - now contradiction Hd.
  - exfalso. unfold commit in E. rewrite Ec in E. discriminate.
Qed.
Lemma attempts_right s : s_commit s <> Some CFinishDyn -> retried_right s.
Proof.
  intros Hd n s' s2 H H2. rewrite (attempts_behind n s s' Hd H).
  assert (X : attempts 0 (unscheduled s) = (ROk tt, s2)) by (cbn [attempts]; now rewrite H2).
  pose proof (attempts_behind 0 (unscheduled s) s2 Hd X) as Y. change (behind (unscheduled s)) with (behind s) in Y. rewrite <- Y.
  destruct (commit_sim (unscheduled s) _ _ H2) as [[Z _]|(Hb & _)]; [|exfalso; apply Hb; constructor].
  change (strip (unscheduled s)) with (unscheduled s) in Z. rewrite H2 in Z. injection Z as Z. symmetry. exact Z.
Qed.
