(** * P_Parse: whatever is accepted was a sequence of complete elements

    The converse of P_El: what deserialising any bytes at all succeeds with
    is what deserialising the elements they start with succeeds with. *)

From Verif Require Import Base Wire Dev Stream SpecWire SpecFormat SpecStream Types Prog De SpecDe
  P_Base P_Wire P_Sched P_Read P_Write P_Blob P_Stream P_Field P_Skip P_Prog P_Wp P_Types P_Dict P_DictAll P_DeStream P_DeExt P_El.
Strategy 1000 [s_decode_u64 decode_u64 decode_loop write_all read_exact encode_u64 enc_loop encode_fixed_u64 mloop miter].

(** No element, preceded by padding, starts here. *)
Definition stuck (u : bytes) : Prop := forall np e b r, u = repeat 0xC0 np ++ b ++ r -> elem_enc e b -> e <> DPad -> False.

Lemma stuck_pads np u : stuck (repeat 0xC0 np ++ u) -> stuck u.
Proof. intros H np' e b r -> He Hn. apply (H (np + np')%nat e b r); auto. now rewrite repeat_app, <- app_assoc. Qed.
Lemma hdr_elem hd h u : hdr_enc hd h -> bytes_ok u -> hdr_payload hd <= lenN u ->
  exists e, hdr_of e = hd /\ payload e = takeN (hdr_payload hd) u /\ elem_enc e (h ++ takeN (hdr_payload hd) u).
Proof.
  intros Hh Hok Hl.
  assert (Hg : forall e, hdr_of e = hd -> payload e = takeN (hdr_payload hd) u -> elem_enc e (h ++ takeN (hdr_payload hd) u)).
  { intros e H1 H2. exists h. rewrite H1, H2. split; [exact Hh|]. split; [|reflexivity]. now apply bytes_ok_takeN. }
  assert (Hlen : forall n, n <= lenN u -> lenN (takeN n u) = n) by (intros n Hn; rewrite lenN_takeN; lia).
  destruct hd as [t [n|n| |d]| | |n|]; cbn [hdr_payload] in *.
  - exists (DField t (DInt n)). split; [reflexivity|]. split; [symmetry; apply takeN_0|]. apply Hg; [reflexivity|symmetry; apply takeN_0].
  - exists (DField t (DBlobV (takeN n u))). cbn. rewrite (Hlen n Hl). split; [reflexivity|]. split; [reflexivity|]. apply Hg; cbn; now rewrite ?(Hlen n Hl).
  - exists (DField t DStructV). split; [reflexivity|]. split; [symmetry; apply takeN_0|]. apply Hg; [reflexivity|symmetry; apply takeN_0].
  - exists (DField t (DEnumV d)). split; [reflexivity|]. split; [symmetry; apply takeN_0|]. apply Hg; [reflexivity|symmetry; apply takeN_0].
  - exists DEnd. split; [reflexivity|]. split; [symmetry; apply takeN_0|]. apply Hg; [reflexivity|symmetry; apply takeN_0].
  - exists DEof. split; [reflexivity|]. split; [symmetry; apply takeN_0|]. apply Hg; [reflexivity|symmetry; apply takeN_0].
  - exists (DExc (takeN n u)). cbn. rewrite (Hlen n Hl). split; [reflexivity|]. split; [reflexivity|]. apply Hg; cbn; now rewrite ?(Hlen n Hl).
  - exists DPad. split; [reflexivity|]. split; [symmetry; apply takeN_0|]. apply Hg; [reflexivity|symmetry; apply takeN_0].
Qed.

(** Reading at such a place: padding, or a blob that is cut off. *)
Lemma impl_stuck sp s e s' : seqinv s -> s_graceful s = false -> s_eof s = false -> pend s <= lenN (unread s) ->
  stuck (dropN (pend s) (unread s)) -> next_element_impl sp s = (ROk e, s') ->
  (sp = false /\ e = ElPadding /\ s_eof s' = false /\ s_depth s' = s_depth s /\ pend s' = 0 /\ stuck (unread s')) \/
  (exists hd h s1 p, e = elem_of hd p (s_depth s) /\ is_blobby hd = true /\ s' = after hd h s1 /\ s_commit s1 = None /\ rinv s1 /\
     s_eof s' = false /\ s_depth s1 = s_depth s /\ s_pos s1 + lenN h + hdr_payload hd <= U64_MAX /\ lenN (unread s') < pend s').
Proof.
  intros Hq Hg He Hp Hst H. pose proof Hq as [Hi Hl Hd Heo].
  apply impl_outcome in H; auto; [|lia].
  destruct H as [[_ [(np & hd & h & tl & Hr & Henc & Hnp & Hpad & Hpz & -> & ->)|(np & Hg' & _)]]|(Hp' & Hsk & Hg' & _)].
  2: { change (s_graceful (settled s)) with (s_graceful s) in Hg'. congruence. }
  2: congruence.
  assert (Hrs : rest (settled s) = dropN (pend s) (unread s)) by (apply rest_adv).
  rewrite Hrs in Hr. rewrite Hr in Hst. set (s1 := adv (N.of_nat np) (settled s)) in *.
  assert (Hu : unread (after hd h s1) = tl).
  { rewrite after_unread. unfold s1. rewrite rest_adv, Hrs, Hr.
    rewrite <- (lenN_repeat 192 np), dropN_app_exact. apply dropN_app_exact. }
  assert (Hpe : pend (after hd h s1) = hdr_payload hd) by (apply after_pend; reflexivity).
  assert (Hok : bytes_ok tl).
  { pose proof (rinv_rest_ok s Hi) as Ho. change (rest s) with (unread s) in Ho. apply (bytes_ok_dropN (pend s)) in Ho. rewrite Hr in Ho.
    apply bytes_ok_app in Ho. destruct Ho as [_ Ho]. apply bytes_ok_app in Ho. apply Ho. }
  destruct (N.leb_spec (hdr_payload hd) (lenN tl)) as [Hfit|Hcut].
  - destruct (hdr_elem hd h tl Henc Hok Hfit) as (e & E1 & E2 & E3).
    assert (Hnp0 : e = DPad).
    { destruct e; try reflexivity; exfalso; (eapply (Hst np _ (h ++ takeN (hdr_payload hd) tl) (dropN (hdr_payload hd) tl)); [|exact E3|discriminate]);
      rewrite <- app_assoc, takeN_dropN; reflexivity. }
    subst e. cbn in E1. subst hd. left. destruct sp; [now destruct (Hpad eq_refl)|].
    split; [reflexivity|]. split; [reflexivity|]. split; [rewrite after_eof; exact He|]. split; [rewrite after_depth; reflexivity|].
    split; [rewrite Hpe; reflexivity|]. rewrite Hu. inversion Henc; subst h. apply (stuck_pads 1). cbn [repeat app]. rewrite (Hnp eq_refl) in Hst. exact Hst.
  - right. exists hd, h, s1, (s_pos (settled s) + N.of_nat np). change (s_depth (settled s)) with (s_depth s).
    split; [reflexivity|]. split; [destruct hd as [t []| | | |]; cbn [hdr_payload] in Hcut; try reflexivity; lia|].
    split; [reflexivity|]. split; [reflexivity|]. split; [apply rinv_adv, rinv_settled, Hi|].
    split; [rewrite after_eof; destruct hd as [t []| | | |]; cbn [hdr_payload] in Hcut; try exact He; lia|].
    split; [reflexivity|]. split; [exact Hpz|]. rewrite Hu, Hpe. exact Hcut.
Qed.

(** Every input starts with some elements, and then such a place. *)
Lemma parse : forall n bs, (List.length bs <= n)%nat -> bytes_ok bs -> lenN bs + 3 < U64_MAX ->
  forall p, exists es b0 tl, bs = b0 ++ tl /\ enc_at true false p es b0 /\ stuck tl.
Proof.
  induction n as [n IH] using (well_founded_induction lt_wf). intros bs Hn Hok Hl p.
  set (s := new_stream true false (mkDev bs 0 [])).
  assert (Hq : seqinv s) by exact (fresh_seqinv true false false bs Hok Hl).
  assert (Hu : unread s = bs) by (unfold unread, d_rest; apply dropN_0).
  assert (Hpd : pend s = 0) by reflexivity.
  assert (Hdec : (exists np e b r, bs = repeat 0xC0 np ++ b ++ r /\ elem_enc e b /\ e <> DPad) \/ stuck bs).
  { assert (Hcomp : forall np e b r, bs = repeat 0xC0 np ++ b ++ r -> elem_enc e b -> e <> DPad ->
      exists s', next_element_impl true s = (ROk (elem_of (hdr_of e) (N.of_nat np) 0), s') /\ pend s' <= lenN (unread s')).
    { intros np e b r Hb (h & Hh & Hoe & ->) Hne. exists (after (hdr_of e) h (adv (N.of_nat np) (settled s))).
      assert (Hlen : lenN bs = N.of_nat np + lenN h + lenN (payload e) + lenN r) by (rewrite Hb, !lenN_app, lenN_repeat; lia).
      pose proof (payload_hdr e) as Hph. split.
      - rewrite (impl_complete true s (hdr_of e) h (payload e ++ r) np); auto.
        + apply Hq.
        + rewrite Hpd. lia.
        + change (rest s) with (unread s). rewrite Hpd, Hu, dropN_0, Hb, <- app_assoc. reflexivity.
        + discriminate.
        + intros _. destruct e as [t []| | | |]; cbn; try discriminate. congruence.
        + rewrite Hpd, Hph. change (s_pos s) with 0. lia.
        + unfold depth_fits, field_depth. change (s_depth s) with 0. destruct (hdr_of e) as [t []| | | |]; try exact I; vm_compute; reflexivity.
      - rewrite after_pend by reflexivity. rewrite Hph, after_unread, rest_adv.
        change (rest (settled s)) with (dropN 0 bs). rewrite dropN_0, Hb, <- (lenN_repeat 192 np), dropN_app_exact, <- app_assoc, dropN_app_exact, lenN_app. lia. }
    destruct (next_element_impl true s) as [[x|x| |] s'] eqn:E.
    2-4: right; intros np e b r Hb Hb2 Hne; destruct (Hcomp np e b r Hb Hb2 Hne) as (s2 & H2 & _); congruence.
    destruct (N.leb_spec (pend s') (lenN (unread s'))) as [Hfit|Hcut].
    2: { right. intros np e b r Hb Hb2 Hne. destruct (Hcomp np e b r Hb Hb2 Hne) as (s2 & H2 & H3).
         assert (s' = s2) by congruence. subst s2. lia. }
    left. apply impl_outcome in E; [|apply Hq|reflexivity|reflexivity].
    destruct E as [[_ [(np & hd & h & tl & Hr & Henc & Hnp & Hpad & Hpz & -> & ->)|(np & Hg' & _)]]|(Hp' & Hsk & Hg' & _)]; try discriminate.
    assert (Hrs : rest (settled s) = bs) by (change (rest (settled s)) with (dropN 0 bs); apply dropN_0).
    rewrite Hrs in Hr.
    assert (Hok2 : bytes_ok tl). { rewrite Hr in Hok. apply bytes_ok_app in Hok. destruct Hok as [_ Hok]. apply bytes_ok_app in Hok. apply Hok. }
    assert (Hu2 : unread (after hd h (adv (N.of_nat np) (settled s))) = tl).
    { rewrite after_unread, rest_adv, Hrs, Hr. rewrite <- (lenN_repeat 192 np), dropN_app_exact. apply dropN_app_exact. }
    rewrite Hu2, after_pend in Hfit by reflexivity.
    destruct (hdr_elem hd h tl Henc Hok2 Hfit) as (e & E1 & E2 & E3).
    exists np, e, (h ++ takeN (hdr_payload hd) tl), (dropN (hdr_payload hd) tl).
    split; [now rewrite <- app_assoc, takeN_dropN|]. split; [exact E3|]. intros ->. now destruct (Hpad eq_refl). }
  destruct Hdec as [(np & e & b & r & Hb & He & Hne)|Hst].
  - destruct He as (h & Hh & Hoe & ->). pose proof (hdr_enc_len _ _ Hh) as Hhl.
    assert (Hlr : (List.length r < List.length bs)%nat) by (rewrite Hb, !app_length; unfold lenN in Hhl; lia).
    assert (Hok2 : bytes_ok r). { rewrite Hb in Hok. apply bytes_ok_app in Hok. destruct Hok as [_ Hok]. apply bytes_ok_app in Hok. apply Hok. }
    destruct (IH (List.length r) ltac:(lia) r (le_n _) Hok2 ltac:(unfold lenN in *; lia) (p + N.of_nat np + lenN (h ++ payload e))) as (es & b0 & tl & Hr & Hat & Hs).
    exists ((p + N.of_nat np, e) :: es), (repeat 0xC0 np ++ (h ++ payload e) ++ b0), tl.
    split; [rewrite Hb, Hr, <- !app_assoc; reflexivity|]. split; [|exact Hs].
    clear -Hh Hoe Hne Hat. revert p Hat. induction np as [|np IH]; intros p Hat; cbn [repeat app].
    + change (N.of_nat 0) with 0 in *. rewrite N.add_0_r in *. apply EaCons; auto. exists h. auto.
    + apply EaPad; [right; discriminate|]. replace (p + N.of_nat (S np)) with (p + 1 + N.of_nat np) in * by lia. now apply IH.
  - exists [], [], bs. split; [reflexivity|]. split; [constructor|exact Hst].
Qed.

Lemma mloop_never {S E A B} (step : A -> M S E (A + B)) (J : A -> S -> Prop) :
  (forall a s, J a s -> match step a s with (ROk (inl a'), s') => J a' s' | (ROk (inr _), _) => False | _ => True end) ->
  forall a s b s', J a s -> mloop step a s <> (ROk b, s').
Proof.
  intros Hs a s b s' HJ Hx.
  pose proof (mloop_rel step step (fun a s1 s2 => s1 = s2 /\ J a s1) (fun _ _ _ => False)) as H.
  specialize (H) with (a := a) (s1 := s) (s2 := s). rewrite Hx in H. destruct H as (t & _ & []); auto.
  intros a0 s1 s2 [-> Hj]. specialize (Hs a0 s2 Hj). destruct (step a0 s2) as [[[a1|b1]|x| |] t]; try exact I.
  - exists t. auto.
  - contradiction.
Qed.

Section Dual.
  Variable tl : bytes.
  Hypothesis Hstuck : stuck tl.
  Notation rdy q s bs := (readyb true false q s bs tl).

  Lemma ready_base q s bs : rdy q s bs -> base [] s.
  Proof.
    intros [Hq Hg Hdb Heo Hdp Hps Hpd Hdv Henc Hu Hend Hep]. constructor; auto.
    pose proof (sq_len _ Hq). change (lenN (@nil N)) with 0. lia.
  Qed.
  Lemma next_at_end q s bs a t : rdy q s bs -> q_es q = [] -> q_eof q = false -> next_field s = (ROk a, t) -> doomed [] t a.
  Proof.
    intros Hrd Hes Heq H. pose proof (ready_base q s bs Hrd) as Hb0. pose proof Hrd as [Hq Hg Hdb Heo Hdp Hps Hpd Hdv Henc Hu Hend Hep].
    rewrite Hes in Henc. apply enc_at_nil in Henc. destruct Henc as (np & -> & Hnp). rewrite (Hnp eq_refl) in Hu. cbn [repeat app] in Hu.
    rewrite Heq in Heo. symmetry in Heo. unfold next_field in H. apply mbind_inv_ok in H. destruct H as (e & s1 & H1 & H).
    rewrite <- Hu in Hstuck.
    destruct (impl_ext [] (Forall_nil _) true s e s1 Hb0 H1) as (Hb1 & _ & _).
    destruct (impl_stuck true s e s1 Hq Hg Heo Hpd Hstuck H1) as [(? & _)|(hd & h & s2 & p & -> & Hbl & Es & Hc & Hi & He1 & Hd1 & Hpz & Hcut)]; [discriminate|].
    assert (Hib : in_blob s1) by (rewrite Es; apply after_in_blob; auto; apply Hi).
    destruct hd as [t0 []| | |len|]; try discriminate; cbn [elem_of] in H.
    - injection H as <- <-. split; [exact Hb1|]. split; [exact He1|]. split; [exact Hcut|]. split; [exact Hib|exact I].
    - exfalso. apply mbind_inv_ok in H. destruct H as (m & s3 & _ & H). discriminate.
  Qed.

  Lemma skip_never D q s bs x t : rdy q s bs -> drop_to D (q_depth q) (q_eof q) (q_es q) = None -> skip_up D s <> (ROk x, t).
  Proof.
    intros Hrd Hdt. unfold skip_up.
    refine (mloop_never _ (fun _ s =>
      (exists q bs, rdy q s bs /\ drop_to D (q_depth q) (q_eof q) (q_es q) = None) \/
      (base [] s /\ s_eof s = false /\ D < s_depth s /\ pend s <= lenN (unread s) /\ stuck (dropN (pend s) (unread s))) \/
      (base [] s /\ s_eof s = false /\ lenN (rest s) < pend s /\ D < s_depth s)) _ tt s x t _).
    2: { left. eauto. }
    clear q s bs x t Hrd Hdt. intros _ s HJ. unfold mbind, mget.
    assert (Hdeep : D < s_depth s).
    { destruct HJ as [(q & bs & Hrd & Hdt)|[(_ & _ & H & _)|(_ & _ & _ & H)]]; auto.
      rewrite <- (rd_depth _ _ _ _ _ _ Hrd). destruct (q_es q) as [|[]]; cbn [drop_to] in Hdt; destruct (N.leb_spec (q_depth q) D); congruence || lia. }
    destruct (N.ltb_spec D (s_depth s)) as [_|]; [|lia].
    destruct (next_element s) as [[e|e| |] s1] eqn:En; try exact I. cbn [mret].
    assert (Hgarb : base [] s /\ s_eof s = false /\ D < s_depth s /\ pend s <= lenN (unread s) /\ stuck (dropN (pend s) (unread s)) ->
      (base [] s1 /\ s_eof s1 = false /\ D < s_depth s1 /\ pend s1 <= lenN (unread s1) /\ stuck (dropN (pend s1) (unread s1))) \/
      (base [] s1 /\ s_eof s1 = false /\ lenN (rest s1) < pend s1 /\ D < s_depth s1)).
    { intros (G1 & G2 & G3 & G4 & G5). destruct (impl_ext [] (Forall_nil _) false s e s1 G1 En) as (Hb1 & _ & _).
      destruct (impl_stuck false s e s1 (bs_q _ _ G1) (bs_g _ _ G1) G2 G4 G5 En)
        as [(_ & -> & E1 & E2 & E3 & E4)|(hd & h & s2 & p & -> & Hbl & Es & Hc & Hi & He1 & Hd1 & Hpz & Hcut)].
      - left. rewrite E3, dropN_0, E2. split; [exact Hb1|]. split; [exact E1|]. split; [exact G3|]. split; [lia|exact E4].
      - right. split; [exact Hb1|]. split; [exact He1|]. split; [exact Hcut|]. rewrite Es, after_depth, Hd1.
        destruct hd as [t0 []| | |len|]; try discriminate; cbn [depth_after]; unfold field_depth; lia. }
    destruct HJ as [(q & bs & Hrd & Hdt)|[HJ|(H1 & H2 & H3 & H4)]].
    - pose proof Hrd as [Hq Hg Hdb Heo Hdp Hps Hpd Hdv Henc Hu Hend Hep].
      assert (He : s_eof s = false).
      { destruct (s_eof s) eqn:E; [|reflexivity]. pose proof (sq_eof s Hq E). lia. }
      inversion Henc as [p E0 E1 E2|p es bs1 Hw Hr E0 E1 E2|p o e0 es b bs1 Ho Hne (h & Hh & Hok & ->) Hr E0 E1 E2]; subst.
      + right. apply Hgarb. split; [exact (ready_base _ _ _ Hrd)|]. cbn [app] in Hu. rewrite Hu. auto.
      + destruct (pad_step true false tl q s bs1 Hrd He Hr) as (s2 & Hx & Hrd1). assert (s2 = s1) by congruence. subst s2.
        left. exists q, bs1. auto.
      + rewrite lenN_app, N.add_assoc in Hr. rewrite <- app_assoc in Hrd.
        destruct (el_step true false tl false q s 0 h e0 es bs1) as (s2 & Hx & Hrd1 & _); auto.
        { change (N.of_nat 0) with 0. now rewrite N.add_0_r. }
        assert (s2 = s1) by (unfold next_element in En; congruence). subst s2. left. exists (el_past e0 es q), bs1. split; [exact Hrd1|].
        rewrite <- E1 in Hdt. cbn [drop_to] in Hdt. destruct (q_depth q <=? D); [discriminate|]. rewrite Heo, He in Hdt. exact Hdt.
    - right. auto.
    - exfalso. destruct (impl_ext [] (Forall_nil _) false s e s1 H1 En) as (_ & _ & [(E1 & _)|(_ & E1 & _)]); [congruence|].
      unfold whole in E1. lia.
  Qed.

  Definition dsr (s : stream) (c : option field) (q : els) (c2 : option field) : Prop := RSA true false tl q c2 s c.

  Lemma doomed_next s c : doomed [] s c -> match next_field s with (ROk a, t) => doomed [] t a | _ => True end.
  Proof.
    intros Hd. destruct (next_field s) as [[a|x| |] t] eqn:E; try exact I.
    unfold next_field in E. apply mbind_inv_ok in E. destruct E as (e & s' & E & _). now destruct (doomed_impl [] (Forall_nil _) true s c Hd e s').
  Qed.
  Lemma doomed_skip f : dm_keeps (doomed []) (Some f) (field_skip f).
  Proof.
    intros s Hd. destruct f as [t0 p0 d0 v0]. pose proof Hd as (_ & _ & _ & _ & Hv).
    destruct v0; try contradiction. exact Hd.
  Qed.
  Lemma doomed_blob cf c : blob_cur c -> dm_keeps (doomed []) c (i_remaining stream_source) /\
    dm_keeps (doomed []) c (i_read_fully stream_source (cf_blob cf)) /\ (forall n, dm_keeps (doomed []) c (i_read_exact stream_source n)) /\
    dm_keeps (doomed []) c (i_ext stream_source).
  Proof.
    intros Hc1. destruct c as [[t0 p0 d0 v0]|]; [|contradiction]. destruct v0; try contradiction.
      assert (Hadv : forall s n, doomed [] s (Some (mkField t0 p0 d0 (HBlob len))) -> n <= lenN (rest s) ->
         doomed [] (adv n s) (Some (mkField t0 p0 d0 (HBlob len)))).
      { intros s n Hd Hn. pose proof (doomed_commit [] s _ Hd) as Hc. destruct Hd as (D1 & D2 & D3 & D4 & D5).
        destruct (blob_adv_ok s n Hc D4 ltac:(lia)) as (B1 & B2 & B3).
        split; [now apply base_adv|]. split; [exact D2|]. split; [|split; [exact B1|exact D5]].
        rewrite B2, rest_adv, lenN_dropN. lia. }
      split; [|split; [|split]].
      + intros s Hd. cbn [i_remaining stream_source]. rewrite b_remaining_ok by apply Hd. exact Hd.
      + intros s Hd. cbn [i_read_fully stream_source]. rewrite b_read_fully_ok by apply Hd.
        destruct (_ <? _); [exact I|]. apply Hadv; [exact Hd|lia].
      + intros n s Hd. cbn [i_read_exact stream_source]. unfold lift_io. rewrite b_read_exact_ok by apply Hd.
        destruct (N.ltb_spec (N.min n (N.min (s_blob_end s - s_pos s) (lenN (rest s)))) n); [exact I|].
        apply Hadv; [exact Hd|lia].
      + intros s Hd. cbn [i_ext stream_source]. unfold b_ext_slice, as_slice, mbind.
        destruct (lenN (d_data (s_dev s)) <? d_pos (s_dev s)); [exact I|]. rewrite b_remaining_ok by apply Hd.
        destruct (lenN (d_rest (s_dev s)) <? s_blob_end s - s_pos s); [exact I|]. exact Hd.
  Qed.

  Theorem dual_run cf {A} (p : prog A) st1 st2 : sim_rst dsr st1 st2 ->
    orel (sim_rst dsr) (err_rel (fun a b => PRt true b a)) true (dm_rst (doomed []))
      (run stream_source cf p st1) (run el_source cf p st2).
  Proof.
    apply src_sim.
    - intros s c q c2 ((bs & H) & _). symmetry. apply H.
    - intros s c q c2 (_ & H & _). destruct c, c2; try contradiction; [|exact I]. destruct H as ((H1 & H2 & H3) & _).
      split; [auto|]. split; [auto|]. exact H3.
    - intros s c q c2 HR. pose proof (el_next_sim true false tl q c2 s c HR) as H. unfold srel in *. cbn [i_next stream_source el_source] in *.
      destruct (next_field s) as [[a|x| |] t] eqn:E; cbn [fst snd] in *; try exact I; [|now left].
      destruct (el_next q) as [[b|x| |] q'] eqn:Eq; cbn [fst snd] in *.
      + right. destruct H as [[]|H]. exact H.
      + destruct H as [H|H]; [discriminate|contradiction].
      + left. destruct HR as ((bs & Hrd) & _ & _). unfold el_next in Eq.
        destruct (q_eof q) eqn:Ef; [discriminate|]. destruct (q_es q) as [|[o e] r] eqn:Ee; [now apply (next_at_end q s bs)|].
        destruct (hdr_of e) eqn:Eh; try discriminate. exfalso.
        pose proof (rd_enc _ _ _ _ _ _ Hrd) as Hen. rewrite Ee in Hen. apply enc_at_cons in Hen. destruct Hen as (np & h & bs' & _ & _ & Hne & _).
        destruct e as [t0 []| | | |]; try discriminate. congruence.
      + exfalso. unfold el_next in Eq. destruct (q_eof q); [discriminate|]. destruct (q_es q) as [|[o e] r]; [unfold el_stop in Eq; destruct (q_end q); discriminate|].
        destruct (hdr_of e); discriminate.
    - intros s f1 q f2 HR. pose proof (el_skip_sim true false tl q f2 s f1 HR) as H. unfold srel in *. cbn [i_skip stream_source el_source] in *.
      destruct (field_skip f1 s) as [[a|x| |] t] eqn:E; cbn [fst snd] in *; try exact I; [|now left].
      destruct (el_skip f2 q) as [[b|x| |] q'] eqn:Eq; cbn [fst snd] in *.
      + right. destruct H as [[]|H]. exact H.
      + destruct H as [H|H]; [discriminate|contradiction].
      + exfalso. destruct HR as ((bs & Hrd) & ((_ & Hv & _) & Hd) & _). unfold el_skip in Eq. unfold field_skip in E. rewrite Hv, Hd in Eq.
        destruct (drop_to (f_depth f1) (q_depth q) (q_eof q) (q_es q)) as [[[d0 e0] es0]|] eqn:Edt; [destruct (f_val f1); discriminate|].
        destruct (f_val f1); try discriminate; exact (skip_never (f_depth f1) q s bs a t Hrd Edt E).
      + exfalso. unfold el_skip in Eq. destruct (drop_to (f_depth f2) (q_depth q) (q_eof q) (q_es q)) as [[[d0 e0] es0]|]; destruct (f_val f2); try discriminate;
          unfold el_stop in Eq; destruct (q_end q); discriminate.
    - intros s c1 q c2 HR Hb _. destruct (rsa_blob true false tl q c2 s c1 HR Hb) as (Hc & Hib & Hr & Htk & Hle).
      unfold srel. cbn [i_remaining stream_source el_source el_remaining fst snd]. rewrite b_remaining_ok by apply Hib.
      cbn [fst snd]. rewrite Hr. auto.
    - intros s c1 q c2 HR Hb _. destruct (rsa_blob true false tl q c2 s c1 HR Hb) as (Hc & Hib & Hr & Htk & Hle).
      unfold srel. cbn [i_read_fully stream_source el_source]. unfold el_read_fully. rewrite b_read_fully_ok by exact Hib. cbv zeta.
      rewrite Hr. destruct (cf_blob cf <? lenN (q_blob q)); cbn [fst snd]; right; [reflexivity|].
      change (rest s) with (unread s). rewrite Htk. split; [reflexivity|]. rewrite N.min_l by exact Hle.
      pose proof (blob_adv_rsa true false tl q c2 s c1 (lenN (q_blob q)) HR Hb (N.le_refl _)) as H. rewrite dropN_all in H by lia. exact H.
    - intros n s c1 q c2 HR Hb _. destruct (rsa_blob true false tl q c2 s c1 HR Hb) as (Hc & Hib & Hr & Htk & Hle).
      unfold srel. cbn [i_read_exact stream_source el_source]. unfold el_read_exact, lift_io. rewrite b_read_exact_ok by exact Hib. cbv zeta.
      rewrite Hr. change (rest s) with (unread s).
      destruct (N.ltb_spec (N.min n (N.min (lenN (q_blob q)) (lenN (unread s)))) n) as [Hlt|Hge]; cbn [fst snd]; [now left|]. right.
      destruct (N.ltb_spec (lenN (q_blob q)) n) as [Hlt2|Hge2]; [lia|]. cbn [fst snd].
      split; [|now apply (blob_adv_rsa true false tl q c2 s c1)]. rewrite <- Htk. rewrite takeN_takeN. f_equal. lia.
    - intros s c1 q c2 HR Hb _. destruct (rsa_blob true false tl q c2 s c1 HR Hb) as (Hc & Hib & Hr & Htk & Hle).
      unfold srel. cbn [i_ext stream_source el_source el_ext fst snd]. unfold b_ext_slice, as_slice, mbind.
      destruct (lenN (d_data (s_dev s)) <? d_pos (s_dev s)); cbn [fst snd]; [exact I|]. rewrite b_remaining_ok by apply Hib.
      destruct (lenN (d_rest (s_dev s)) <? s_blob_end s - s_pos s); [now left|]. right. cbn [fst snd].
      split; [|exact HR]. change (d_rest (s_dev s)) with (unread s). rewrite Hr. exact Htk.
    - intros s c Hd. reflexivity.
    - exact doomed_next.
    - exact doomed_skip.
    - exact (doomed_blob cf).
  Qed.
End Dual.
