(** * P_CopySched: copying does not depend on how transfers are cut up (C20, C24) *)

From Verif Require Import Base Wire Dev Stream SpecWire SpecFormat SpecStream SpecBlob SpecHist SpecWrite
  P_Base P_Wire P_Sched P_Read P_Write P_Blob P_Pos P_Hist P_Copy.
Strategy 1000 [s_decode_u64 decode_u64 decode_loop write_all read_exact encode_u64 enc_loop encode_fixed_u64 mloop miter].

Definition wr0 (bs : bytes) (s : stream) : stream := match bs with [] => s | _ => wr bs s end.
Lemma wr0_wr0 a b s : wr0 b (wr0 a s) = wr0 (a ++ b) s.
Proof. destruct a as [|x a]; [reflexivity|]. destruct b as [|y b]; [now rewrite app_nil_r|]. cbn [wr0 app]. now rewrite wr_wr. Qed.

(** Writing what fits into the blob. *)
Lemma write_fits bs s : benign s -> s_pos s + lenN bs <= s_blob_end s -> s_blob_end s <= U64_MAX ->
  exists s', b_write_all bs s = (ROk tt, s') /\ benign s' /\ strip s' = wr0 bs (strip s) /\ (sch s = [] -> sch s' = []).
Proof.
  intros Hb H1 H2. destruct (b_write_all bs s) as [r s'] eqn:E.
  assert (Hc : b_write_all bs (strip s) = (ROk tt, wr0 bs (strip s))).
  { unfold b_write_all. rewrite (write_all_clean cap_blob b_write bs (strip s) cap_blob_good_w b_write_wr eq_refl).
    unfold wspec. destruct bs as [|x l]; [reflexivity|]. unfold cap_blob.
    change (s_dbg (strip s)) with (s_dbg s). change (s_blob_end (strip s)) with (s_blob_end s). change (s_pos (strip s)) with (s_pos s).
    rewrite u64_sub_ok by lia. cbn [cap_take].
    rewrite takeN_all by lia. destruct (N.ltb_spec (U64_MAX - s_pos s) (lenN (x :: l))); [lia|].
    now rewrite N.eqb_refl. }
  destruct (b_write_all_simio bs s r s' E) as [[Heq Hb']|(Hnb & _)]; [|contradiction].
  rewrite Hc in Heq. injection Heq as <- He. exists s'. split; [reflexivity|]. split; [auto|]. split; [auto|].
  intros Hs. rewrite (strip_of_clean s Hs) in Hc, He. rewrite E in Hc. injection Hc as Hc. rewrite Hc.
  destruct bs; [exact Hs|exact Hs].
Qed.

(** [io::copy] from one blob into another that has room. *)
Lemma copy_loop_gives : forall fuel src dst, (2 + length (sch src) <= fuel)%nat -> benign src -> benign dst ->
  s_pos src <= s_blob_end src -> s_blob_end src <= U64_MAX ->
  s_pos dst + (s_blob_end src - s_pos src) <= s_blob_end dst -> s_blob_end dst <= U64_MAX ->
  let n := N.min (s_blob_end src - s_pos src) (lenN (rest src)) in
  exists src' dst', copy_loop fuel (src, dst) = (ROk tt, (src', dst')) /\ benign src' /\ benign dst' /\
    strip src' = adv n (strip src) /\ strip dst' = wr0 (takeN n (rest src)) (strip dst) /\
    (sch src = [] -> sch src' = []) /\ (sch dst = [] -> sch dst' = []).
Proof.
  induction fuel as [|fuel IH]; intros src dst Hf Hbs Hbd H1 H2 H3 H4 n; [lia|]. cbn [copy_loop].
  destruct (b_read U64_MAX src) as [r s1] eqn:E1. rewrite (on_src_ok _ _ dst _ _ E1). rewrite b_read_rd in E1.
  assert (Hcap : cap_blob src = Cap (s_blob_end src - s_pos src)) by (unfold cap_blob; now rewrite u64_sub_ok by lia).
  apply rd_of_cases in E1; [|discriminate]. rewrite Hcap in E1.
  destruct E1 as [(X & _)|[(X & -> & ->)|(_ & X & E1)]]; [discriminate| |].
  { injection X as X. exists src, dst. unfold n. rewrite X, N.min_0_l, takeN_0, adv_0. auto 10. }
  assert (Hr0 : 0 < s_blob_end src - s_pos src) by (destruct (N.eq_dec (s_blob_end src - s_pos src) 0); [congruence|lia]).
  cbn [cap_min] in E1. rewrite N.min_l in E1 by lia.
  destruct E1 as [(Y & _)|(_ & [(sc & Es & -> & ->)|[(sc & Es & -> & ->)|(k & sc & Hk & Hs & -> & ->)]])]; [lia| | |].
  - assert (Hb1 : benign (set_sched sc src)) by (unfold benign in *; rewrite Es in Hbs; now inversion Hbs).
    rewrite Es in Hf. cbn [length] in Hf.
    destruct (IH (set_sched sc src) dst ltac:(cbn; lia) Hb1 Hbd H1 H2 H3 H4) as (a & b & E & Q1 & Q2 & Q3 & Q4 & Q5 & Q6).
    exists a, b. split; [exact E|]. split; [auto|]. split; [auto|]. split; [exact Q3|]. split; [exact Q4|]. split; [|auto].
    rewrite Es. discriminate.
  - exfalso. unfold benign in Hbs. rewrite Es in Hbs. inversion Hbs; congruence.
  - assert (Hb1 : benign (set_sched sc src)).
    { unfold benign in *. destruct Hs as [(A & -> & _)|[c A]]; [constructor|]. rewrite A in Hbs. now inversion Hbs. }
    remember (takeN k (rest src)) as bs eqn:Ebs. assert (Hl : lenN bs = N.min k (lenN (rest src))) by (rewrite Ebs; now rewrite lenN_takeN).
    assert (Hsch : sch src = [] -> sc = []) by (destruct Hs as [(A & -> & _)|[c A]]; [auto|rewrite A; discriminate]).
    destruct bs as [|x l].
    { exists (adv 0 (set_sched sc src)), dst. change (lenN (@nil N)) with 0 in *.
      assert (n = 0) by (unfold n; lia). unfold benign in *.
      rewrite H, takeN_0. split; [reflexivity|]. auto 10. }
    destruct (write_fits (x :: l) dst Hbd ltac:(lia) H4) as (d1 & W1 & W2 & W3 & W4).
    rewrite (mbind_ok _ _ _ _ _ (on_dst_ok _ (adv (lenN (x :: l)) (set_sched sc src)) _ _ _ W1)).
    assert (Hfu : fuel = 1%nat /\ k = s_blob_end src - s_pos src /\ sch src = [] \/ (2 + length sc <= fuel)%nat).
    { destruct Hs as [(A & -> & B)|[c A]]; [|right; rewrite A in Hf; cbn [length] in Hf; lia].
      rewrite A in Hf. cbn [length] in *. destruct fuel as [|[|f]]; [lia|left; auto|right; lia]. }
    assert (Hd1 : s_pos d1 = s_pos dst + lenN (x :: l) /\ s_blob_end d1 = s_blob_end dst).
    { change (s_pos d1) with (s_pos (strip d1)). change (s_blob_end d1) with (s_blob_end (strip d1)). rewrite W3. split; reflexivity. }
    destruct Hd1 as [Hd1 Hd2].
    assert (Hmain : exists src' dst', copy_loop fuel (adv (lenN (x :: l)) (set_sched sc src), d1) = (ROk tt, (src', dst')) /\
        benign src' /\ benign dst' /\
        strip src' = adv (n - lenN (x :: l)) (strip (adv (lenN (x :: l)) (set_sched sc src))) /\
        strip dst' = wr0 (takeN (n - lenN (x :: l)) (rest (adv (lenN (x :: l)) (set_sched sc src)))) (strip d1) /\
        (sch src = [] -> sch src' = []) /\ (sch d1 = [] -> sch dst' = [])).
    { destruct Hfu as [(-> & Hke & Hs0)|Hfu].
      - (* the whole of it was read at once *)
        assert (Hnn : n - lenN (x :: l) = 0) by (unfold n; lia). rewrite Hnn, takeN_0, adv_0.
        exists (adv (lenN (x :: l)) (set_sched sc src)), d1. 
        destruct (b_read U64_MAX (adv (lenN (x :: l)) (set_sched sc src))) as [r2 s2] eqn:E2.
        cbn [copy_loop]. rewrite (on_src_ok _ _ d1 _ _ E2). rewrite b_read_rd in E2.
        assert (Hc2 : cap_blob (adv (lenN (x :: l)) (set_sched sc src)) = Cap (s_blob_end src - (s_pos src + lenN (x :: l)))).
        { unfold cap_blob. change (s_blob_end (adv (lenN (x :: l)) (set_sched sc src))) with (s_blob_end src).
          change (s_pos (adv (lenN (x :: l)) (set_sched sc src))) with (s_pos src + lenN (x :: l)). now rewrite u64_sub_ok by lia. }
        assert (Hsc : sc = []) by auto. subst sc.
        apply rd_of_cases in E2; [|discriminate]. rewrite Hc2 in E2.
        destruct E2 as [(Z & _)|[(Z & -> & ->)|(_ & Z & E2)]]; [discriminate| |].
        + auto 10.
        + cbn [cap_min] in E2. change (sch (adv (lenN (x :: l)) (set_sched [] src))) with (@nil ev) in E2.
          change (s_pos (adv (lenN (x :: l)) (set_sched [] src))) with (s_pos src + lenN (x :: l)) in E2.
          destruct E2 as [(Y & _)|(_ & [(? & A & _)|[(? & A & _)|(k2 & sc2 & Hk2 & Hs2 & -> & ->)]])]; [lia|discriminate|discriminate|].
          destruct Hs2 as [(_ & -> & _)|[? A]]; [|discriminate].
          rewrite rest_adv. change (rest (set_sched [] src)) with (rest src).
          assert (Hall : dropN (lenN (x :: l)) (rest src) = []) by (apply dropN_all; lia).
          rewrite Hall. rewrite takeN_nil. change (lenN (@nil N)) with 0. rewrite adv_0.
          split; [reflexivity|]. unfold benign in *. auto 10.
      - destruct (IH (adv (lenN (x :: l)) (set_sched sc src)) d1) as (a & b & E & Q1 & Q2 & Q3 & Q4 & Q5 & Q6).
        + exact Hfu.
        + exact Hb1.
        + exact W2.
        + change (s_pos src + lenN (x :: l) <= s_blob_end src). lia.
        + exact H2.
        + change (s_pos d1 + (s_blob_end src - (s_pos src + lenN (x :: l))) <= s_blob_end d1). lia.
        + lia.
        + assert (Hnn : N.min (s_blob_end (adv (lenN (x :: l)) (set_sched sc src)) - s_pos (adv (lenN (x :: l)) (set_sched sc src)))
               (lenN (rest (adv (lenN (x :: l)) (set_sched sc src)))) = n - lenN (x :: l)).
          { rewrite rest_adv. change (rest (set_sched sc src)) with (rest src). rewrite lenN_dropN.
            change (s_blob_end (adv (lenN (x :: l)) (set_sched sc src))) with (s_blob_end src).
            change (s_pos (adv (lenN (x :: l)) (set_sched sc src))) with (s_pos src + lenN (x :: l)). unfold n. lia. }
          rewrite Hnn in Q3, Q4. exists a, b. split; [exact E|]. split; [exact Q1|]. split; [exact Q2|]. split; [exact Q3|].
          split; [exact Q4|]. split; [|exact Q6]. intros Hs0. apply Q5. change (sc = []). auto. }
    destruct Hmain as (a & b & E & Q1 & Q2 & Q3 & Q4 & Q5 & Q6). exists a, b. split; [exact E|].
    split; [exact Q1|]. split; [exact Q2|]. split; [|split; [|split; [exact Q5|auto]]].
    + rewrite Q3, strip_adv, strip_set_sched, adv_adv. f_equal. unfold n. lia.
    + rewrite Q4, W3, wr0_wr0, rest_adv. change (rest (set_sched sc src)) with (rest src). f_equal.
      assert (Hxl : x :: l = takeN (lenN (x :: l)) (rest src)).
      { rewrite Hl at 1. rewrite Ebs.
        destruct (N.le_gt_cases k (lenN (rest src))); [now rewrite N.min_l by lia|].
        rewrite N.min_r by lia. rewrite !takeN_all by lia. reflexivity. }
      rewrite Hxl at 1. rewrite <- takeN_add. f_equal. unfold n. lia.
Qed.

(** ** Two streams at once *)
Definition wellp (s : stream) : Prop := benign s /\ s_pos s <= U64_MAX /\ dynok s.
Lemma wellp_of {E A} (m : M stream E A) s r s' : gsim strip benign (fun _ => True) m -> (forall a b, preserves (pinv a b) m) ->
  wellp s -> m s = (r, s') -> m (strip s) = (r, strip s') /\ wellp s'.
Proof.
  intros Hm Hp (W1 & W2 & W3) H. destruct (Hm s r s' H) as [[He Hb]|(Hnb & _)]; [|contradiction].
  split; [exact He|]. destruct (Hp (d_pos (s_dev s)) (s_pos s) s r s') as (P1 & P2 & P3); [|exact H|].
  - split; [exact W2|]. split; [lia|exact W3].
  - split; [auto|]. split; auto.
Qed.
Lemma sim_any {E A} (su : E -> Prop) (m : M stream E A) : gsim strip benign su m -> gsim strip benign (fun _ => True) m.
Proof. intros H s r s' E1. destruct (H s r s' E1) as [?|(? & e & ? & ?)]; [now left|right]. split; [assumption|]. eauto. Qed.

Definition both (P : stream -> stream -> Prop) {E A} (Q : A -> stream -> stream -> Prop) (m : M (stream * stream) E A) : Prop :=
  forall a b r a' b', wellp a -> wellp b -> P a b -> m (a, b) = (r, (a', b')) ->
    m (strip a, strip b) = (r, (strip a', strip b')) /\ (forall x, r = ROk x -> wellp a' /\ wellp b' /\ Q x a' b').

Lemma bo_bind {E A B} P Q R (m : M (stream * stream) E A) (k : A -> M (stream * stream) E B) :
  both P Q m -> (forall x, both (Q x) R (k x)) -> both P R (mbind m k).
Proof.
  intros Hm Hk a b r a' b' Wa Wb HP H. unfold mbind in *. destruct (m (a, b)) as [r1 [a1 b1]] eqn:E1.
  destruct (Hm _ _ _ _ _ Wa Wb HP E1) as [H1 H2]. rewrite H1.
  destruct r1 as [x|e| |]; try (injection H as <- <- <-; split; [reflexivity|discriminate]).
  destruct (H2 x eq_refl) as (Wa1 & Wb1 & HQ). exact (Hk x _ _ _ _ _ Wa1 Wb1 HQ H).
Qed.
Lemma bo_ret {E A} (x : A) P : both (E := E) P (fun _ _ _ => True) (mret x).
Proof. intros a b r a' b' Wa Wb _ H. injection H as <- <- <-. split; [reflexivity|]. auto. Qed.
Lemma bo_src {E A} (P : stream -> stream -> Prop) (Q : A -> stream -> stream -> Prop) (m : M stream E A) : gsim strip benign (fun _ => True) m ->
  (forall a b, preserves (pinv a b) m) ->
  (forall a b x a', wellp a -> wellp b -> P a b -> m a = (ROk x, a') -> Q x a' b) -> both P Q (on_src m).
Proof.
  intros Hs Hp Hq a b r a' b' Wa Wb HP H. unfold on_src in *. destruct (m a) as [r1 a1] eqn:E1. injection H as <- <- <-.
  destruct (wellp_of m a r1 a1 Hs Hp Wa E1) as [H1 H2]. rewrite H1. split; [reflexivity|].
  intros x ->. split; [exact H2|]. split; [exact Wb|]. eauto.
Qed.
Lemma bo_dst {E A} (P : stream -> stream -> Prop) (Q : A -> stream -> stream -> Prop) (m : M stream E A) : gsim strip benign (fun _ => True) m ->
  (forall a b, preserves (pinv a b) m) ->
  (forall a b x b', wellp a -> wellp b -> P a b -> m b = (ROk x, b') -> Q x a b') -> both P Q (on_dst m).
Proof.
  intros Hs Hp Hq a b r a' b' Wa Wb HP H. unfold on_dst in *. destruct (m b) as [r1 b1] eqn:E1. injection H as <- <- <-.
  destruct (wellp_of m b r1 b1 Hs Hp Wb E1) as [H1 H2]. rewrite H1. split; [reflexivity|].
  intros x ->. split; [exact Wa|]. split; [exact H2|]. eauto.
Qed.
Lemma bo_pre {E A} (P P' : stream -> stream -> Prop) Q (m : M (stream * stream) E A) : (forall a b, P' a b -> P a b) -> both P Q m -> both P' Q m.
Proof. intros Hi H a b r a' b' Wa Wb HP. apply H; auto. Qed.

Lemma alloc_room d len s x s' : wellp s -> write_desc_with_blob_alloc d len s = (ROk x, s') ->
  s_pos s' + len = s_blob_end s' /\ s_blob_end s' <= U64_MAX.
Proof.
  intros (_ & W2 & W3) H.
  assert (HP : pinv (d_pos (s_dev s)) (s_pos s) s) by (split; [exact W2|]; split; [lia|exact W3]).
  pose proof (y_alloc _ _ d len s x s' HP H) as Hy.
  pose proof (p_alloc _ _ d len s _ s' HP H) as (Hp & _).
  unfold write_desc_with_blob_alloc in H. apply mbind_inv_ok in H as (u1 & s1 & _ & H).
  destruct (U64_MAX - 11 <? len) eqn:El; [discriminate|].
  apply mbind_inv_ok in H as (u2 & s2 & _ & H). apply mbind_inv_ok in H as (u3 & s3 & _ & H).
  apply mbind_inv_ok in H as (u4 & s4 & _ & H). apply mbind_inv_ok in H as (u5 & s5 & H5 & H).
  unfold mbind, mmod, mret in H. injection H as <- <-. unfold inblob in Hy.
  destruct (u64_add (s_dbg s4) (s_pos s4) len) as [e|e| |] eqn:Ea; try discriminate. injection H5 as <- <-.
  revert Hy Hp. scbn. intros Hy Hp. unfold u64_add in Ea. unfold U64_MAX in *.
  destruct (s_pos s4 + len <? U64_MOD) eqn:Ed.
  - injection Ea as <-. lia.
  - destruct (s_dbg s4); [discriminate|]. injection Ea as <-. exfalso. apply N.ltb_ge in Ed, El.
    unfold U64_MOD in *.
    assert ((s_pos s4 + len) mod 18446744073709551616 = s_pos s4 + len - 18446744073709551616).
    { symmetry. apply (N.mod_unique _ _ 1); lia. }
    lia.
Qed.

Definition room (a b : stream) : Prop := s_pos a <= s_blob_end a /\ s_blob_end a <= U64_MAX /\
  s_pos b + (s_blob_end a - s_pos a) <= s_blob_end b /\ s_blob_end b <= U64_MAX.

Lemma well_strip s s' : wellp s -> benign s' -> s_pos (strip s') <= U64_MAX -> s_commit (strip s') = s_commit s -> s_dyn_start (strip s') = s_dyn_start s -> wellp s'.
Proof.
  intros (_ & _ & H3) Hb Hp Hc Hd. split; [exact Hb|]. split; [exact Hp|]. unfold dynok in *.
  change (s_commit s') with (s_commit (strip s')). change (s_dyn_start s') with (s_dyn_start (strip s')). now rewrite Hc, Hd.
Qed.

Lemma bo_copy : both room (fun _ _ _ => True) copy_blob.
Proof.
  intros a b r a' b' Wa Wb (R1 & R2 & R3 & R4) H. unfold copy_blob in *. cbn [fst] in *.
  destruct (copy_loop_gives _ a b (le_n _) (proj1 Wa) (proj1 Wb) R1 R2 R3 R4) as (a1 & b1 & E & B1 & B2 & S1 & S2 & _).
  rewrite E in H. injection H as <- <- <-.
  assert (Ba : benign (strip a)) by constructor. assert (Bb : benign (strip b)) by constructor.
  destruct (copy_loop_gives _ (strip a) (strip b) (le_n _) Ba Bb R1 R2 R3 R4) as (a2 & b2 & E2 & _ & _ & T1 & T2 & T3 & T4).
  rewrite E2. rewrite (strip_of_clean a2 (T3 eq_refl)) in T1. rewrite (strip_of_clean b2 (T4 eq_refl)) in T2.
  rewrite strip_strip in T1, T2. change (s_blob_end (strip a)) with (s_blob_end a) in *. change (s_pos (strip a)) with (s_pos a) in *.
  rewrite rest_strip in *. rewrite <- S1 in T1. rewrite <- S2 in T2. subst a2 b2.
  split; [reflexivity|]. intros x _. split; [|split; [|exact I]].
  - apply (well_strip a); auto; rewrite S1; try reflexivity. change (s_pos a + N.min (s_blob_end a - s_pos a) (lenN (rest a)) <= U64_MAX). lia.
  - apply (well_strip b); auto; rewrite S2; destruct (takeN (N.min (s_blob_end a - s_pos a) (lenN (rest a))) (rest a)) as [|z zs] eqn:Ez; try reflexivity.
    + apply Wb.
    + change (s_pos b + lenN (z :: zs) <= U64_MAX). rewrite <- Ez, lenN_takeN. lia.
Qed.

Lemma bo_alloc d len : both (fun a _ => inblob len a) (fun _ => room) (on_dst (write_desc_with_blob_alloc d len)).
Proof.
  apply bo_dst; [exact (sim_any _ _ (write_alloc_sim d len))|intros; apply p_alloc|].
  intros a b x b' Wa Wb Hi H. destruct (alloc_room d len b x b' Wb H) as [A1 A2]. unfold inblob in Hi. unfold room. lia.
Qed.

Definition in_el (e : element) (a b : stream) : Prop := el_ok e a.
Lemma bo_dst0 P (m : SM unit) : sim m -> (forall a b, preserves (pinv a b) m) -> both P (fun _ _ _ => True) (on_dst m).
Proof. intros Hs Hp. apply bo_dst; [exact (sim_any _ _ Hs)|exact Hp|auto]. Qed.

Lemma bo_elem e : both (in_el e) (fun _ _ _ => True) (write_element e).
Proof.
  destruct e as [[t po dp [n|len| |d]]| | |len|]; cbn [write_element write_field f_val f_tag].
  - apply bo_dst0; [apply write_u64_sim|intros; apply p_write_u64].
  - apply (bo_bind _ _ _ _ _ (bo_alloc (PPair DBlob t) len)). intros _. apply bo_copy.
  - apply bo_dst0; [apply write_desc_sim|intros; apply p_write_desc].
  - apply bo_dst0; [apply write_enum_sim|intros]. unfold write_enum. apply pr_bind; [apply p_write_desc|intros _; apply p_encode].
  - apply bo_dst0; [apply write_desc_sim|intros; apply p_write_desc].
  - apply bo_dst0; [apply write_desc_sim|intros; apply p_write_desc].
  - apply (bo_bind _ _ _ _ _ (bo_alloc (PSpecial SpException) len)). intros _. apply bo_copy.
  - apply bo_dst0; [apply write_desc_sim|intros; apply p_write_desc].
Qed.

Lemma bo_elems n : both (fun _ _ => True) (fun _ _ _ => True) (copy_elems n).
Proof.
  induction n as [|n IH]; cbn [copy_elems]; [apply bo_ret|].
  apply (bo_bind _ in_el).
  - apply bo_src; [exact (sim_any _ _ next_element_sim)|intros; apply p_impl|].
    intros a b x a' (_ & W2 & W3) _ _ H. apply (y_impl (d_pos (s_dev a)) (s_pos a) false a x a'); [|exact H].
    split; [exact W2|]. split; [lia|exact W3].
  - intros e. apply (bo_bind _ _ _ _ _ (bo_elem e)). intros u.
    apply (bo_bind _ (fun _ _ _ => True)); [|intros _; exact IH].
    assert (Hmod : both (fun _ _ => True) (fun (_ : unit) _ _ => True) (on_src clear_eof)).
    { apply bo_src; [|intros; apply pr_mod; auto|auto]. apply (sim_any surf_s), gsim_mod; auto. }
    destruct e; try apply bo_ret. exact Hmod.
Qed.

Lemma copy_benign n src dst r src' dst' : no_failure src -> no_failure dst ->
  s_pos src <= U64_MAX -> s_pos dst <= U64_MAX -> s_commit src = None -> s_commit dst = None ->
  copy_elems n (src, dst) = (r, (src', dst')) ->
  copy_elems n (unscheduled src, unscheduled dst) = (r, (unscheduled src', unscheduled dst')).
Proof.
  intros F1 F2 P1 P2 C1 C2 H. apply (bo_elems n src dst r src' dst'); auto.
  - split; [exact F1|]. split; [exact P1|]. unfold dynok. rewrite C1. discriminate.
  - split; [exact F2|]. split; [exact P2|]. unfold dynok. rewrite C2. discriminate.
Qed.
