(** * P_ErrV: which errors writing a value can report (C77) *)

From Verif Require Import Base Wire Dev Stream Types Ser SpecFormat SpecStream SpecHist SpecBlob SpecErr SpecErrW P_Base P_Sched P_Stream P_Hist P_Write P_Pos P_ErrW.
Local Open Scope N_scope.
Strategy 1000 [s_decode_u64 decode_u64 decode_loop write_all read_exact encode_u64 enc_loop encode_fixed_u64 mloop miter].

Definition zs (s : stream) : Prop := (exists a b, pinv a b s) /\ settled_w s.
Definition value_err (x : serr) : Prop := x = SIo IoOther \/ x = SOverlongBlob.
Definition swx {A} (m : SM A) : Prop := forall s r s', zs s -> m s = (r, s') -> (forall a, r = ROk a -> zs s') /\ (forall x, r = RErr x -> value_err x).
Lemma swx_bind {A B} (m : SM A) (f : A -> SM B) : swx m -> (forall a, swx (f a)) -> swx (mbind m f).
Proof.
  intros Hm Hf s r s' Hs H. unfold mbind in H. destruct (m s) as [[a|y| |] s1] eqn:E1; destruct (Hm _ _ _ Hs E1) as [H1 H2].
  - exact (Hf a _ _ _ (H1 _ eq_refl) H).
  - injection H as <- <-. split; [discriminate|]. intros x Hx. injection Hx as <-. now apply H2.
  - injection H as <- <-. split; discriminate.
  - injection H as <- <-. split; discriminate.
Qed.
Lemma swx_ret {A} (a : A) : swx (mret a).
Proof. intros s r s' Hs H. injection H as <- <-. split; [auto|discriminate]. Qed.
Definition idle (s : stream) : Prop := (exists a b, pinv a b s) /\ s_commit s = None.
Lemma idle_zs s : idle s -> zs s.
Proof. intros [H1 H2]. split; [exact H1|left; exact H2]. Qed.
Lemma commit_idle s r s' : zs s -> commit s = (r, s') -> r = ROk tt /\ idle s'.
Proof.
  intros [(a & b & HP) Hs] H. pose proof (p_commit a b _ _ _ HP H) as HP'. rewrite (commit_settled s Hs) in H. injection H as <- <-. split; [reflexivity|]. split; [eauto|reflexivity].
Qed.
Lemma wall_io bs s r s' : idle s -> lift_io (write_all sch t_write bs) s = (r, s') -> (forall a, r = ROk a -> idle s') /\ (forall x, r = RErr x -> x = SIo IoOther).
Proof.
  intros [(a & b & HP) Hc] H. unfold lift_io in H. destruct (write_all sch t_write bs s) as [r1 s1] eqn:E1. pose proof (p_wall a b _ _ _ _ HP E1) as HP1.
  destruct (k_wall _ _ _ _ _ _ _ (conj eq_refl (conj eq_refl eq_refl)) E1) as (K & _ & _).
  destruct r1 as [u|k| |]; injection H as <- <-; (split; [try discriminate|try discriminate]).
  - intros _a _. split; [eauto|now rewrite K].
  - intros x Hx. injection Hx as <-. destruct (eo_wall_t _ _ _ _ E1) as [<-|[]]. reflexivity.
Qed.
Lemma desc_idle d s r s' : zs s -> write_desc d s = (r, s') -> (forall a, r = ROk a -> idle s') /\ (forall x, r = RErr x -> x = SIo IoOther).
Proof.
  intros Hs H. unfold write_desc in H. unfold mbind at 1 in H. destruct (commit s) as [r1 s1] eqn:E1. destruct (commit_idle _ _ _ Hs E1) as [-> H1].
  unfold mbind, mres in H. destruct (desc_byte (s_dbg s1) d) as [b|x| |] eqn:Ed.
  - exact (wall_io _ _ _ _ H1 H).
  - exfalso. revert Ed. unfold desc_byte. destruct d as [ty tag|sp]; repeat destruct (_ : bool); discriminate.
  - injection H as <- <-. split; discriminate.
  - injection H as <- <-. split; discriminate.
Qed.
Lemma encode_idle n s r s' : idle s -> s_encode_u64 n s = (r, s') -> (forall a, r = ROk a -> idle s') /\ (forall x, r = RErr x -> x = SIo IoOther).
Proof. intros Hs H. unfold s_encode_u64 in H. destruct (encode_u64 n); [exact (wall_io _ _ _ _ Hs H)|]. injection H as <- <-. split; discriminate. Qed.
Lemma swx_desc d : swx (write_desc d).
Proof. intros s r s' Hs H. destruct (desc_idle d _ _ _ Hs H) as [H1 H2]. split; [intros a Ha; exact (idle_zs _ (H1 a Ha))|intros x Hx; left; now apply H2]. Qed.
Lemma swx_two d n : swx (write_desc d ;; s_encode_u64 n).
Proof.
  intros s r s' Hs H. unfold mbind in H. destruct (write_desc d s) as [r1 s1] eqn:E1. destruct (desc_idle d _ _ _ Hs E1) as [H1 H2].
  destruct r1 as [u|y| |]; try (injection H as <- <-; (split; [discriminate|]); intros x Hx; try discriminate; injection Hx as <-; left; now apply H2).
  destruct (encode_idle _ _ _ _ (H1 _ eq_refl) H) as [H3 H4]. split; [intros a Ha; exact (idle_zs _ (H3 a Ha))|intros x Hx; left; now apply H4].
Qed.
Lemma bwall_ok bs s s' : s_pos s + lenN bs <= s_blob_end s -> s_blob_end s <= U64_MAX -> b_write_all bs s = (ROk tt, s') -> s_pos s' = s_pos s + lenN bs.
Proof.
  intros Hr He H. unfold b_write_all, write_all in H. revert H Hr He. generalize (2 + List.length (sch s))%nat as fuel. intros fuel. revert s bs.
  induction fuel as [|f IH]; intros s bs H Hr He; cbn [write_all_loop] in H; [discriminate|]. destruct bs as [|b bs]; [injection H as <-; change (lenN (@nil N)) with 0; lia|].
  destruct (b_write (b :: bs) s) as [[n|y| |] s1] eqn:E1; try discriminate.
  - unfold b_write, mbind, b_remaining in E1. rewrite u64_sub_ok in E1 by lia. rewrite takeN_all in E1 by lia.
    destruct (twrite_some _ _ _ _ _ E1) as (Hn & H1 & H2 & H3). destruct (N.eqb_spec n 0) as [->|]; [lia|].
    apply IH in H; [|rewrite lenN_dropN, H1, H3; lia|rewrite H3; exact He]. rewrite H, H1, lenN_dropN. lia.
  - assert (Hs : s_pos s1 = s_pos s /\ s_blob_end s1 = s_blob_end s).
    { unfold b_write, mbind, b_remaining in E1. rewrite u64_sub_ok in E1 by lia. revert E1. destruct (takeN _ _) as [|c cs]; [discriminate|].
      unfold t_write, mbind, check_advance_pos. destruct (_ <? _); [intros E1; injection E1 as _ <-; auto|]. unfold on_dev, dev_write, sched_next.
      destruct (d_sched (s_dev s)) as [|[c'| |] sc]; try discriminate; intros E1; injection E1 as _ <-; auto. }
    destruct Hs as [H1 H2]. destruct y; try discriminate. apply IH in H; [rewrite H, H1; reflexivity|rewrite H1, H2; lia|lia].
Qed.
Lemma swx_alloc d len s r s' : zs s -> write_desc_with_blob_alloc d len s = (r, s') -> forall x, r = RErr x -> value_err x.
Proof.
  intros Hs H x ->. unfold write_desc_with_blob_alloc in H. unfold mbind at 1 in H. destruct (commit s) as [r1 s1] eqn:E1. destruct (commit_idle _ _ _ Hs E1) as [-> H1].
  destruct (_ <? _); [injection H as <- <-; right; reflexivity|]. unfold mbind at 1 in H.
  destruct (lift_io (check_advance_pos (len + 11)) s1) as [[u|y| |] s2] eqn:E2; try discriminate.
  2: { injection H as <- <-. left. unfold lift_io, check_advance_pos in E2. destruct (_ <? _); [now injection E2 as <- <-|discriminate]. }
  assert (s2 = s1) as ->. { unfold lift_io, check_advance_pos in E2. destruct (_ <? _); [discriminate|now injection E2 as _ <-]. }
  unfold mbind at 1 in H. destruct (write_desc d s1) as [r3 s3] eqn:E3. destruct (desc_idle d _ _ _ (idle_zs _ H1) E3) as [H3 H4].
  destruct r3 as [u3|y| |]; try discriminate; [|injection H as <- <-; left; now apply H4].
  unfold mbind at 1 in H. destruct (s_encode_u64 len s3) as [r4 s4] eqn:E4. destruct (encode_idle _ _ _ _ (H3 _ eq_refl) E4) as [H5 H6].
  destruct r4 as [u4|y| |]; try discriminate; [|injection H as <- <-; left; now apply H6].
  unfold mbind in H. destruct (u64_add _ _ _); unfold mmod, mret in H; discriminate.
Qed.
Lemma swx_blob t data : swx (write_blob_data t data ;; mret tt).
Proof.
  apply swx_bind; [|intros; apply swx_ret]. intros s r s' Hs H. change (data_of (write_desc_with_blob_alloc (PPair DBlob t) (lenN data)) data s = (r, s')) in H.
  unfold data_of in H. unfold mbind at 1 in H. destruct (write_desc_with_blob_alloc (PPair DBlob t) (lenN data) s) as [r1 s1] eqn:E1.
  pose proof (swx_alloc _ _ _ _ _ Hs E1) as Hx. destruct r1 as [n|y| |]; try (injection H as <- <-; (split; [discriminate|]); intros x Hr; try discriminate; injection Hr as <-; now apply Hx).
  destruct (alloc_end _ _ _ _ _ E1) as (-> & Ha & Hc). destruct Hs as [(a & b & HP) Hse]. pose proof (p_alloc a b _ _ _ _ _ HP E1) as HP1. pose proof (y_alloc a b _ _ _ _ _ HP E1) as Hin.
  assert (He : s_pos s1 + lenN data = s_blob_end s1 /\ s_blob_end s1 <= U64_MAX).
  { split; [|apply Hin]. unfold u64_add in Ha. destruct (_ <? _); [now injection Ha as <-|]. destruct (s_dbg s1); [discriminate|]. injection Ha as Ha. unfold inblob in Hin. rewrite <- Ha in *.
    destruct HP1 as [Hp1 _]. assert (lenN data <= U64_MAX) by (destruct Hin as (? & ? & ?); lia).
    destruct (N.lt_ge_cases (s_pos s1 + lenN data) U64_MOD) as [Hlt|Hge]; [now rewrite N.mod_small by exact Hlt|]. exfalso.
    assert (Hm : (s_pos s1 + lenN data) mod U64_MOD = s_pos s1 + lenN data - U64_MOD).
    { symmetry. apply (N.mod_unique _ _ 1); unfold U64_MOD, U64_MAX in *; lia. }
    rewrite Hm in Hin. unfold U64_MOD, U64_MAX in *. lia. }
  destruct He as [He HB]. unfold mbind, lift_io in H. destruct (b_write_all data s1) as [r2 s2] eqn:E2.
  assert (K : keeps (b_write_all data)) by (intros c d e; apply pr_write_all; intros; apply k_bwrite).
  destruct (K _ _ _ _ _ _ (conj eq_refl (conj eq_refl eq_refl)) E2) as (K1 & _ & K3).
  assert (HP2 : pinv a b s2).
  { pose proof (inblob_pblob a b _ _ HP1 Hin) as Hpb. assert (Hle : lenN data <= s_blob_end s1) by lia.
    assert (X : preserves (pblob a b (s_blob_end s1 - lenN data) (s_blob_end s1)) (b_write_all data)) by (apply pr_write_all; intros; apply pb_write).
    exact (proj1 (X _ _ _ Hpb E2)). }
  destruct r2 as [[]|k| |]; injection H as <- <-; (split; [try discriminate|try discriminate]).
  - intros _a _. split; [eauto|]. right. split; [now rewrite K1|]. rewrite K3, (bwall_ok _ _ _ (N.eq_le_incl _ _ He) HB E2). exact He.
  - intros x Hr. injection Hr as <-. left. f_equal. exact (eo_wall_room _ _ _ _ (N.eq_le_incl _ _ He) HB E2).
Qed.
Lemma swx_exec ws : swx (exec ws).
Proof.
  induction ws as [|w ws IH]; cbn [exec]; [apply swx_ret|]. apply swx_bind; [|intros; exact IH].
  destruct w; cbn [exec_op]; try apply swx_two; try apply swx_desc; [apply swx_blob|]. intros s r s' Hs H. injection H as <- <-. split; discriminate.
Qed.
Lemma to_stream_err e t v s x s' : zs s -> to_stream e t v s = (RErr x, s') -> value_err x.
Proof.
  intros Hs H. refine (proj2 (swx_bind _ _ (swx_exec _) _ s (RErr x) s' Hs H) x eq_refl).
  intros u s0 r0 s0' H0 X. destruct (commit_idle _ _ _ H0 X) as [-> H1]. split; [intros; now apply idle_zs|discriminate].
Qed.
Theorem writing_errors e t v dbg d x : to_writer e dbg d t v = RErr x -> value_err x.
Proof.
  unfold to_writer. destruct (to_stream e t v (new_stream dbg false d)) as [[u|y| |] s'] eqn:E1; try discriminate. intros H. injection H as <-.
  refine (to_stream_err e t v _ _ _ _ E1). split; [|left; reflexivity]. exists (d_pos d), 0. split; [cbn; unfold U64_MAX; lia|]. split; [cbn; lia|unfold dynok; discriminate].
Qed.
