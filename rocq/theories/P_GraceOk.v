(** * P_GraceOk: what is accepted with graceful_eof (C69) *)

From Verif Require Import Base Wire Dev Stream SpecWire SpecFormat SpecStream Types Prog De SpecDe
  P_Base P_Wire P_Sched P_Read P_Write P_Blob P_Stream P_Skip P_Prog P_Wp P_Types P_Dict P_DictAll P_DeStream P_DeExt.
From Verif Require P_Places.
Strategy 1000 [s_decode_u64 decode_u64 decode_loop write_all read_exact encode_u64 enc_loop encode_fixed_u64 mloop miter].

Definition mark : bytes := [0x40].
(** The same stream, with an end of document after its last byte and without
    [graceful_eof]. *)
Definition gx (s : stream) : stream := set_graceful_ false (ext mark s).

Record gbase (s : stream) : Prop := mkGb {
  gb_q : seqinv s;
  gb_g : s_graceful s = true;
  gb_len : lenN (d_data (s_dev s)) + 4 < U64_MAX;
  gb_pos : d_pos (s_dev s) <= lenN (d_data (s_dev s));
  gb_commit : s_eof s = true -> s_commit s = None
}.
Lemma gx_rest s : gbase s -> rest (gx s) = rest s ++ mark.
Proof. intros H. unfold rest, d_rest. cbn [s_dev gx set_graceful_ ext set_dev d_data d_pos]. apply dropN_app_l. apply H. Qed.
Lemma gx_rinv s : gbase s -> rinv (gx s).
Proof.
  intros [[[H1 H2 H3 H4] Hl Hd He] Hg Hb Hp _]. constructor; auto.
  - unfold gx, ext. scbn. cbn [s_dev set_graceful_ set_dev d_data]. apply bytes_ok_app. split; [exact H2|repeat constructor].
  - unfold gx, ext. cbn [s_dev set_graceful_ set_dev d_data]. rewrite lenN_app. change (lenN mark) with 1. lia.
Qed.
Lemma gx_adv n s : gx (adv n s) = adv n (gx s).
Proof. apply stream_eq; reflexivity. Qed.
Lemma gx_settled s : gx (settled s) = settled (gx s).
Proof. apply stream_eq; reflexivity. Qed.
Lemma gx_after hd h s : gx (after hd h s) = after hd h (gx s).
Proof. destruct hd as [t []| | | |]; apply stream_eq; reflexivity. Qed.

Definition gdone (s : stream) : stream := adv 1 (gx s).

(** ** From the graceful stream to the marked one *)
Section Fwd.
  Definition fb (s : stream) : Prop := gbase s /\ s_seek s = false.

  Lemma impl_gx sp s e s' : fb s -> s_eof s = false -> next_element_impl sp s = (ROk e, s') ->
    fb s' /\ whole s /\
    ((exists hd h s1 p, next_element_impl sp (gx s) = (ROk e, gx s') /\ e = elem_of hd p (s_depth s) /\ s' = after hd h s1 /\
       s_commit s1 = None /\ rinv s1 /\ s_depth s1 = s_depth s /\ s_pos s1 + lenN h + hdr_payload hd <= U64_MAX) \/
     (e = ElEndOfDoc /\ s_eof s' = true /\ rest s' = [] /\ next_element_impl sp (gx s) = (ROk e, gdone s'))).
  Proof.
    intros [Hb Hsk] Eeof H.
    pose proof (impl_seq sp s e s' (gb_q _ Hb) H) as (Hq' & _).
    pose proof Hb as [[Hi Hl Hd He] Hg Hlen Hpos Hcm].
    apply impl_outcome in H; auto; [|lia].
    destruct H as [[Hp H]|(_ & Hx & _)]; [|congruence].
    assert (Hrs : rest (settled s) = dropN (pend s) (rest s)) by (apply rest_adv).
    assert (Hgp : pend (gx s) <= lenN (rest (gx s))) by (rewrite gx_rest by exact Hb; rewrite lenN_app; change (pend (gx s)) with (pend s); lia).
    destruct H as [(np & hd & h & tl & Hr & Henc & Hnp & Hpad & Hpz & He' & Hs')|(np & Hg' & Hr & Hnp & Hpz & He' & Hs')]; subst e s'.
    - set (s1 := adv (N.of_nat np) (settled s)) in *.
      change (s_depth (settled s)) with (s_depth s) in *. change (s_pos (settled s)) with (s_pos s + pend s) in *.
      assert (Hdp : d_pos (s_dev s1) + lenN h <= lenN (d_data (s_dev s1))).
      { assert (Hrep : lenN (repeat 192 np) = N.of_nat np) by (unfold lenN; now rewrite repeat_length).
        assert (Hl1 : lenN (rest (settled s)) = N.of_nat np + lenN h + lenN tl) by (rewrite Hr, !lenN_app, Hrep; lia).
        pose proof (hdr_enc_len _ _ Henc). rewrite rest_len in Hl1.
        change (d_pos (s_dev s1)) with (d_pos (s_dev s) + pend s + N.of_nat np).
        change (d_data (s_dev s1)) with (d_data (s_dev s)).
        change (d_pos (s_dev (settled s))) with (d_pos (s_dev s) + pend s) in Hl1.
        change (d_data (s_dev (settled s))) with (d_data (s_dev s)) in Hl1. lia. }
      split; [|split; [exact Hp|]].
      + split; [constructor; [exact Hq'|now rewrite after_graceful| | |]|].
        * rewrite after_data. exact Hlen.
        * rewrite after_data. replace (d_pos (s_dev (after hd h s1))) with (d_pos (s_dev s1) + lenN h)
            by (destruct hd as [t []| | | |]; reflexivity). exact Hdp.
        * intros Hx. destruct hd as [t []| | | |]; cbn [after] in Hx |- *; try reflexivity; exfalso;
            (change (s_eof (after _ h s1)) with (s_eof s) in Hx || idtac); cbn in Hx; congruence.
        * destruct hd as [t []| | | |]; exact Hsk.
      + left. exists hd, h, s1. eexists. split; [|split; [reflexivity|split; [reflexivity|]]].
        * rewrite gx_after. unfold s1. rewrite gx_adv, gx_settled.
          rewrite (impl_complete sp (gx s) hd h (tl ++ mark) np); auto.
          -- now apply gx_rinv.
          -- rewrite gx_rest by exact Hb. change (pend (gx s)) with (pend s).
             rewrite dropN_app_l by exact Hp. rewrite <- Hrs, Hr, <- !app_assoc. reflexivity.
          -- change (s_depth (gx s)) with (s_depth s). unfold depth_fits, field_depth.
             destruct hd as [t []| | | |]; try exact I; lia.
        * split; [reflexivity|]. split; [apply rinv_adv, rinv_settled, Hi|]. split; [reflexivity|exact Hpz].
    - change (s_pos (settled s)) with (s_pos s + pend s) in *.
      assert (Hrep : lenN (repeat 192 np) = N.of_nat np) by (unfold lenN; now rewrite repeat_length).
      split; [|split; [exact Hp|]].
      + split; [constructor; [exact Hq'|exact Hg|exact Hlen| |reflexivity]|exact Hsk].
        change (d_pos (s_dev s) + pend s + N.of_nat np <= lenN (d_data (s_dev s))).
        assert (Hl1 : lenN (rest (settled s)) = N.of_nat np) by (rewrite Hr; exact Hrep). rewrite Hrs, lenN_dropN in Hl1.
        pose proof (rest_len s). lia.
      + right. split; [reflexivity|]. split; [reflexivity|].
        split; [change (rest (adv (N.of_nat np) (settled s)) = []); rewrite rest_adv, Hr; apply dropN_all; rewrite Hrep; lia|].
        rewrite (impl_complete sp (gx s) HdEof mark [] np); auto.
        * now apply gx_rinv.
        * rewrite gx_rest by exact Hb. change (pend (gx s)) with (pend s). rewrite dropN_app_l by exact Hp. rewrite <- Hrs, Hr. reflexivity.
        * constructor.
        * discriminate.
        * change (s_pos (gx s)) with (s_pos s). change (pend (gx s)) with (pend s). change (lenN mark) with 1. cbn [hdr_payload]. lia.
        * exact I.
  Qed.

  Definition gdoomed (s : stream) (c : option field) : Prop :=
    fb s /\ s_eof s = false /\ lenN (rest s) < pend s /\ in_blob s /\ blob_cur c.
  Definition RSg (s1 : stream) (c1 : option field) (s2 : stream) (c2 : option field) : Prop :=
    c1 = c2 /\ fb s1 /\ whole s1 /\
    ((s_eof s1 = true /\ ~ blob_cur c1 /\ (s2 = gx s1 \/ (s2 = gdone s1 /\ rest s1 = []))) \/
     (s_eof s1 = false /\ s2 = gx s1 /\ hand_ok s1 c1)).

  Lemma gdoomed_impl sp s c : gdoomed s c -> forall e s', next_element_impl sp s <> (ROk e, s').
  Proof.
    intros (Hb & He & Hp & _) e s' H. destruct (impl_gx sp s e s' Hb He H) as (_ & H1 & _). unfold whole in H1. lia.
  Qed.
  Lemma eof_whole s : gbase s -> s_eof s = true -> whole s.
  Proof. intros Hb He. unfold whole, pend. rewrite (gb_commit _ Hb He). lia. Qed.
  Lemma impl_eof sp s : s_eof s = true -> next_element_impl sp s = (ROk ElEndOfDoc, s).
  Proof. intros H. unfold next_element_impl. now rewrite H. Qed.

  Lemma next_gx s c s2 c2 a t : RSg s c s2 c2 -> next_field s = (ROk a, t) ->
    gdoomed t a \/ exists t2, next_field s2 = (ROk a, t2) /\ RSg t a t2 a.
  Proof.
    intros (-> & Hb & Hw & [(He & Hnb & Hs2)|(He & -> & Hh)]) H; unfold next_field in *.
    - rewrite (mbind_ok _ _ _ _ _ (impl_eof true s He)) in H. injection H as <- <-. right. exists s2. split.
      + assert (He2 : s_eof s2 = true) by (destruct Hs2 as [-> | [-> _]]; exact He). now rewrite (mbind_ok _ _ _ _ _ (impl_eof true s2 He2)).
      + split; [reflexivity|]. split; [exact Hb|]. split; [exact Hw|]. left. split; [exact He|]. split; [exact (fun x => x)|exact Hs2].
    - apply mbind_inv_ok in H. destruct H as (e & s1 & H1 & H).
      destruct (impl_gx true s e s1 Hb He H1) as (Hb1 & _ & [(hd & h & s0 & p & H2 & -> & Es1 & Hc & Hi0 & Hd0 & Hpz)|(-> & He1 & Hn1 & H2)]).
      2: { injection H as <- <-. right. exists (gdone s1). rewrite (mbind_ok _ _ _ _ _ H2). split; [reflexivity|]. split; [reflexivity|]. split; [exact Hb1|].
           split; [now apply eof_whole; [apply Hb1|]|]. left. split; [exact He1|]. split; [exact (fun x => x)|right; auto]. }
      rewrite (mbind_ok _ _ _ _ _ H2).
      pose proof (after_pend hd h s0 Hc) as Hpe. rewrite <- Es1 in Hpe.
      assert (Hwh : hdr_payload hd = 0 -> whole s1) by (unfold whole; rewrite Hpe; intros ->; lia).
      assert (Hdone : forall c', ~ blob_cur c' -> hdr_payload hd = 0 -> RSg s1 c' (gx s1) c').
      { intros c' Hc' Hz. split; [reflexivity|]. split; [exact Hb1|]. split; [now apply Hwh|]. destruct (s_eof s1) eqn:E; [left; auto|right].
        split; [reflexivity|]. split; [reflexivity|]. destruct c' as [[? ? ? []]|]; try exact I. now elim Hc'. }
      destruct hd as [t0 v| | |len|]; cbn [elem_of] in H |- *.
      + injection H as <- <-. destruct v as [n|l| |d]; try (right; eexists; split; [reflexivity|]; apply Hdone; [exact (fun x => x)|reflexivity]).
        assert (Hib : in_blob s1) by (rewrite Es1; apply after_in_blob; auto; apply Hi0).
        assert (Hne : s_eof s1 = false).
        { destruct (s_eof s1) eqn:Ee; [|reflexivity].
          pose proof (sq_eof _ (gb_q _ (proj1 Hb1)) Ee) as Hz. rewrite Es1, after_depth in Hz. cbn in Hz. unfold field_depth in Hz. lia. }
        destruct (N.ltb_spec (lenN (rest s1)) l) as [Hlt|Hge].
        * left. split; [exact Hb1|]. split; [exact Hne|]. split; [now rewrite Hpe|]. split; [exact Hib|exact I].
        * right. eexists. split; [reflexivity|]. split; [reflexivity|]. split; [exact Hb1|].
          split; [unfold whole; rewrite Hpe; exact Hge|]. right. split; [exact Hne|]. split; [reflexivity|]. cbn. split; [rewrite Es1; reflexivity|exact Hib].
      + injection H as <- <-. right. eexists. split; [reflexivity|]. apply Hdone; [exact (fun x => x)|reflexivity].
      + injection H as <- <-. right. eexists. split; [reflexivity|]. apply Hdone; [exact (fun x => x)|reflexivity].
      + exfalso. apply mbind_inv_ok in H. destruct H as (m & s2 & _ & H). discriminate.
      + discriminate.
  Qed.

  Lemma skip_up_gx D s c s2 x t : ~ blob_cur c -> RSg s c s2 c -> skip_up D s = (ROk x, t) ->
    exists t2, skip_up D s2 = (ROk x, t2) /\ RSg t c t2 c.
  Proof.
    intros Hnb HR H.
    pose proof (mloop_rel (E := serr) (fun _ : unit =>
           let* s := mget in if D <? s_depth s then next_element ;; mret (inl tt) else mret (inr tt))
       (fun _ : unit =>
           let* s := mget in if D <? s_depth s then next_element ;; mret (inl tt) else mret (inr tt))
       (fun _ s1 s2 => RSg s1 c s2 c \/ (fb s1 /\ s_eof s1 = false /\ s2 = gx s1 /\ D < s_depth s1))
       (fun (_ : unit) s1 s2 => RSg s1 c s2 c)) as HL.
    specialize (HL) with (a := tt) (s1 := s) (s2 := s2).
    change (mloop _ tt s) with (skip_up D s) in HL. change (mloop _ tt s2) with (skip_up D s2) in HL. rewrite H in HL.
    destruct HL as (t2 & H2 & HR2).
    - intros u1 s1 s3 HR1. unfold mbind, mget.
      assert (Hds : s_depth s3 = s_depth s1).
      { destruct HR1 as [(_ & _ & _ & [(_ & _ & [-> | [-> _]])|(_ & -> & _)])|(_ & _ & -> & _)]; reflexivity. }
      rewrite Hds. destruct (N.ltb_spec D (s_depth s1)) as [Hlt|Hge].
      + destruct (next_element s1) as [[e|e| |] s4] eqn:En; try exact I.
        assert (Hcase : (s_eof s1 = true /\ RSg s1 c s3 c) \/ (fb s1 /\ s_eof s1 = false /\ s3 = gx s1)).
        { destruct HR1 as [HR1|(B1 & B2 & B3 & _)]; [|right; auto]. pose proof HR1 as (_ & B & _ & [(B1 & _)|(B1 & B2 & _)]); [left; auto|right; auto]. }
        destruct Hcase as [(He & HRe)|(Hb1 & He & ->)].
        * unfold next_element in En. rewrite (impl_eof false s1 He) in En. injection En as <- <-. exists s3. split; [|left; exact HRe].
          unfold next_element. rewrite (impl_eof false s3); [reflexivity|]. destruct HRe as (_ & _ & _ & [(_ & _ & [-> | [-> _]])|(Hx & _)]); try exact He. congruence.
        * destruct (impl_gx false s1 e s4 Hb1 He En) as (Hb4 & _ & [(hd & h & s0 & p & H2 & -> & -> & Hc & Hi0 & Hd0 & _)|(-> & He4 & Hn4 & H2)]).
          -- unfold next_element in H2 |- *. rewrite H2. eexists. split; [reflexivity|].
             pose proof (after_pend hd h s0 Hc) as Hpe. set (s5 := after hd h s0) in *.
             destruct (s_eof s5) eqn:E5.
             ++ left. split; [reflexivity|]. split; [exact Hb4|]. split; [apply eof_whole; [apply Hb4|exact E5]|]. left. auto.
             ++ destruct (N.ltb_spec (lenN (rest s5)) (pend s5)) as [Hw|Hw].
                ** right. split; [exact Hb4|]. split; [first [exact E5|reflexivity]|]. split; [reflexivity|].
                   unfold s5 in *. rewrite after_depth, Hd0. rewrite Hpe in Hw.
                   destruct hd as [t0 [n|l| |d0]| | |len|]; cbn [hdr_payload] in Hw; try lia; cbn [depth_after]; unfold field_depth; lia.
                ** left. split; [reflexivity|]. split; [exact Hb4|]. split; [exact Hw|]. right. split; [first [exact E5|reflexivity]|]. split; [reflexivity|].
                   destruct c as [[? ? ? []]|]; try exact I. now elim Hnb.
          -- unfold next_element in H2 |- *. rewrite H2. eexists. split; [reflexivity|]. left. split; [reflexivity|]. split; [exact Hb4|].
             split; [apply eof_whole; [apply Hb4|exact He4]|]. left. auto.
      + eexists. split; [reflexivity|]. destruct HR1 as [HR1|(_ & _ & _ & Hx)]; [exact HR1|lia].
    - left. exact HR.
    - exists t2. auto.
  Qed.

  Lemma fb_adv s n : fb s -> s_eof s = false -> n <= lenN (rest s) -> fb (adv n s).
  Proof.
    intros [[[Hi Hl Hd He] Hg Hlen Hpos Hcm] Hsk] Hne Hn.
    assert (Hu : lenN (unread (adv n s)) = lenN (unread s) - n).
    { change (lenN (rest (adv n s)) = lenN (unread s) - n). rewrite rest_adv, lenN_dropN. reflexivity. }
    rewrite rest_len in Hn.
    split; [constructor; [|exact Hg|exact Hlen| |intros Hx; change (s_eof s = true) in Hx; congruence]|exact Hsk].
    - constructor; [now apply rinv_adv|exact Hl| |exact He]. rewrite Hu.
      change (s_depth (adv n s)) with (s_depth s). change (d_data (s_dev (adv n s))) with (d_data (s_dev s)). lia.
    - change (d_pos (s_dev (adv n s))) with (d_pos (s_dev s) + n).
      change (d_data (s_dev (adv n s))) with (d_data (s_dev s)). lia.
  Qed.

  Lemma gx_run cf {A} (p : prog A) s1 : fb s1 -> whole s1 -> s_eof s1 = false ->
    orel (sim_rst RSg) (err_rel eq) true (dm_rst gdoomed)
      (run stream_source cf p (top_rst s1)) (run stream_source cf p (top_rst (gx s1))).
  Proof.
    intros Hb0 Hw0 He0. apply src_sim.
    - intros a ca b cb (_ & _ & _ & [(_ & _ & [-> | [-> _]])|(_ & -> & _)]); reflexivity.
    - intros a ca b cb (-> & _). destruct cb; cbn; [|exact I]. repeat split.
    - intros s c s2 c2 HR. unfold srel. cbn [i_next stream_source].
      destruct (next_field s) as [[a|x| |] t] eqn:E; cbn [fst snd]; try exact I; [|now left].
      destruct (next_gx s c s2 c2 a t HR E) as [H|(t2 & H1 & H2)]; [now left|]. right. rewrite H1. exact H2.
    - intros s f s2 f2 HR. pose proof HR as (Hf & _). injection Hf as <-. unfold srel. cbn [i_skip stream_source]. unfold field_skip.
      destruct f as [t0 p0 d0 v0]. cbn [f_val f_depth] in *.
      assert (Hup : (forall l, v0 <> HBlob l) -> srel true (fun (a : unit) t1 b t2 => RSg t1 (Some (mkField t0 p0 d0 v0)) t2 (Some (mkField t0 p0 d0 v0)))
          (fun _ t1 => gdoomed t1 (Some (mkField t0 p0 d0 v0))) (skip_up d0 s) (skip_up d0 s2)).
      { intros Hnb. unfold srel. destruct (skip_up d0 s) as [[a|x| |] t] eqn:E; cbn [fst snd]; try exact I; [|now left].
        assert (Hnc : ~ blob_cur (Some (mkField t0 p0 d0 v0))) by (destruct v0; cbn; auto; now destruct (Hnb len)).
        destruct (skip_up_gx d0 s _ s2 a t Hnc HR E) as (t2 & H1 & H2). right. rewrite H1. exact H2. }
      destruct v0; [right; exact HR|right; exact HR|apply Hup; discriminate|apply Hup; discriminate].
    - (* remaining *)
      intros s c s2 c2 HR Hc1 _. pose proof HR as (<- & Hb & Hw & [(_ & Hn & _)|(He & -> & Hh)]); [contradiction|].
      destruct c as [[t0 p0 d0 v0]|]; [|contradiction].
      destruct v0; try contradiction. destruct Hh as [Hc Hib]. unfold srel. cbn [i_remaining stream_source].
      rewrite !b_remaining_ok by apply Hib. cbn [fst snd]. right. split; [reflexivity|]. exact HR.
    - intros s c s2 c2 HR Hc1 _. pose proof HR as (<- & Hb & Hw & [(_ & Hn & _)|(He & -> & Hh)]); [contradiction|].
      destruct c as [[t0 p0 d0 v0]|]; [|contradiction].
      destruct v0; try contradiction. destruct Hh as [Hc Hib]. unfold srel. cbn [i_read_fully stream_source].
      rewrite !b_read_fully_ok by exact Hib.
      change (s_blob_end (gx s)) with (s_blob_end s). change (s_pos (gx s)) with (s_pos s).
      assert (Hpe : pend s = s_blob_end s - s_pos s) by (unfold pend; now rewrite Hc). rewrite <- Hpe.
      destruct (cf_blob cf <? pend s); cbn [fst snd]; [now left|]. right. unfold whole in Hw.
      rewrite gx_rest by apply Hb. rewrite takeN_app_l by exact Hw. rewrite lenN_app. rewrite !N.min_l by lia.
      split; [reflexivity|]. split; [reflexivity|].
      destruct (blob_adv_ok s (pend s) Hc Hib ltac:(lia)) as (B1 & B2 & B3).
      split; [apply fb_adv; auto|]. split; [unfold whole; rewrite B2; lia|]. right. split; [exact He|]. split; [apply eq_sym, gx_adv|]. split; [exact B3|exact B1].
    - intros n s c s2 c2 HR Hc1 _. pose proof HR as (<- & Hb & Hw & [(_ & Hn & _)|(He & -> & Hh)]); [contradiction|].
      destruct c as [[t0 p0 d0 v0]|]; [|contradiction].
      destruct v0; try contradiction. destruct Hh as [Hc Hib]. unfold srel. cbn [i_read_exact stream_source]. unfold lift_io.
      rewrite !b_read_exact_ok by exact Hib.
      change (s_blob_end (gx s)) with (s_blob_end s). change (s_pos (gx s)) with (s_pos s).
      assert (Hpe : pend s = s_blob_end s - s_pos s) by (unfold pend; now rewrite Hc). rewrite <- Hpe.
      unfold whole in Hw. rewrite gx_rest by apply Hb. rewrite lenN_app.
      destruct (N.ltb_spec (N.min n (N.min (pend s) (lenN (rest s)))) n) as [Hlt|Hge]; cbn [fst snd]; [now left|]. right.
      destruct (N.ltb_spec (N.min n (N.min (pend s) (lenN (rest s) + lenN mark))) n) as [Hlt2|Hge2]; [lia|]. cbn [fst snd].
      rewrite takeN_app_l by lia. split; [reflexivity|]. split; [reflexivity|].
      destruct (blob_adv_ok s n Hc Hib ltac:(lia)) as (B1 & B2 & B3).
      split; [apply fb_adv; auto; lia|]. split; [unfold whole; rewrite B2, rest_adv, lenN_dropN; lia|].
      right. split; [exact He|]. split; [apply eq_sym, gx_adv|]. split; [exact B3|exact B1].
    - intros s c s2 c2 HR Hc1 _. pose proof HR as (<- & Hb & Hw & [(_ & Hn & _)|(He & -> & Hh)]); [contradiction|].
      destruct c as [[t0 p0 d0 v0]|]; [|contradiction].
      destruct v0; try contradiction. pose proof Hh as [Hc Hib]. unfold srel. cbn [i_ext stream_source].
      assert (Hpe : pend s = s_blob_end s - s_pos s) by (unfold pend; now rewrite Hc). unfold whole in Hw.
      assert (Hex : forall s0, in_blob s0 -> d_pos (s_dev s0) <= lenN (d_data (s_dev s0)) ->
         s_blob_end s0 - s_pos s0 <= lenN (rest s0) ->
         b_ext_slice s0 = (ROk (takeN (s_blob_end s0 - s_pos s0) (rest s0)), s0)).
      { intros s0 Hib0 Hd0 Hr0. unfold b_ext_slice, as_slice. unfold mbind at 1.
        destruct (N.ltb_spec (lenN (d_data (s_dev s0))) (d_pos (s_dev s0))); [lia|].
        unfold mbind. rewrite b_remaining_ok by apply Hib0. change (d_rest (s_dev s0)) with (rest s0).
        destruct (N.ltb_spec (lenN (rest s0)) (s_blob_end s0 - s_pos s0)); [lia|]. reflexivity. }
      rewrite Hex; [|exact Hib|apply Hb|lia].
      rewrite Hex; [|exact Hib| |].
      + cbn [fst snd]. right. rewrite gx_rest by apply Hb.
        change (s_blob_end (gx s)) with (s_blob_end s). change (s_pos (gx s)) with (s_pos s).
        rewrite takeN_app_l by lia. split; [reflexivity|]. exact HR.
      + cbn [gx set_graceful_ ext set_dev s_dev d_pos d_data]. rewrite lenN_app. pose proof (gb_pos _ (proj1 Hb)). lia.
      + rewrite gx_rest by apply Hb. rewrite lenN_app.
        change (s_blob_end (gx s)) with (s_blob_end s). change (s_pos (gx s)) with (s_pos s). lia.
    - reflexivity.
    - intros s c Hd. cbn [i_next stream_source]. destruct (next_field s) as [[a|x| |] t] eqn:E; try exact I.
      unfold next_field in E. apply mbind_inv_ok in E. destruct E as (e & s' & E & _). now destruct (gdoomed_impl true s c Hd e s').
    - intros f s Hd. cbn [i_skip stream_source]. destruct f as [t0 p0 d0 v0]. pose proof Hd as (_ & _ & _ & _ & Hv).
      destruct v0; try contradiction. exact Hd.
    - intros c Hc1. destruct c as [[t0 p0 d0 v0]|]; [|contradiction]. destruct v0; try contradiction.
      assert (Hadv : forall s n, gdoomed s (Some (mkField t0 p0 d0 (HBlob len))) -> n <= lenN (rest s) ->
         gdoomed (adv n s) (Some (mkField t0 p0 d0 (HBlob len)))).
      { intros s n (D1 & D2 & D3 & D4 & D5) Hn.
        assert (Hc : s_commit s = Some CSkipBlob) by (unfold pend in D3; destruct (s_commit s) as [[]|]; try reflexivity; lia).
        destruct (blob_adv_ok s n Hc D4 ltac:(lia)) as (B1 & B2 & B3).
        split; [now apply fb_adv|]. split; [exact D2|]. split; [|split; [exact B1|exact D5]].
        rewrite B2, rest_adv, lenN_dropN. lia. }
      split; [|split; [|split]].
      + intros s Hd. cbn [i_remaining stream_source]. rewrite b_remaining_ok by apply Hd. exact Hd.
      + intros s Hd. cbn [i_read_fully stream_source]. rewrite b_read_fully_ok by apply Hd.
        destruct (_ <? _); [exact I|]. apply Hadv; [exact Hd|lia].
      + intros n s Hd. cbn [i_read_exact stream_source]. unfold lift_io. rewrite b_read_exact_ok by apply Hd.
        destruct (N.ltb_spec (N.min n (N.min (s_blob_end s - s_pos s) (lenN (rest s)))) n); [exact I|].
        apply Hadv; [exact Hd|lia].
      + intros s Hd. cbn [i_ext stream_source]. unfold b_ext_slice, as_slice, mbind.
        destruct (lenN (d_data (s_dev s)) <? d_pos (s_dev s)); [exact I|]. rewrite b_remaining_ok by apply Hd.
        destruct (lenN (d_rest (s_dev s)) <? s_blob_end s - s_pos s); [exact I|]. exact Hd.
    - unfold sim_rst. cbn. split; [|auto]. split; [reflexivity|]. split; [exact Hb0|]. split; [exact Hw0|]. right. repeat split. exact He0.
  Qed.
End Fwd.

Theorem graceful_implied e zc cf t dbg bs v s1 : env_ok e -> deserialisable e zc t -> cf_collect cf <= U64_MAX -> cf_blob cf <= U64_MAX ->
  bytes_ok bs -> lenN bs + 4 < U64_MAX ->
  from_stream e zc cf t (set_graceful_ true (new_stream dbg false (mkDev bs 0 []))) = (ROk v, s1) ->
  exists s2, from_stream e zc cf t (new_stream dbg false (mkDev (bs ++ [0x40]) 0 [])) = (ROk v, s2) /\
    (s_pos s2 = s_pos s1 \/ (s_pos s2 = s_pos s1 + 1 /\ s_pos s1 = lenN bs)).
Proof.
  intros He Ht Hc Hb Hbs Hl H. set (s := set_graceful_ true (new_stream dbg false (mkDev bs 0 []))) in *.
  assert (Hq : seqinv s) by (apply (fresh_seqinv dbg false true bs Hbs); lia).
  assert (Hbase : fb s) by (split; [constructor; [exact Hq|reflexivity|exact Hl|cbn; lia|discriminate]|reflexivity]).
  assert (Hwh : whole s) by (unfold whole, pend; cbn; lia).
  change (new_stream dbg false (mkDev (bs ++ [64]) 0 [])) with (gx s).
  unfold from_stream in *. set (p := d_body _) in *.
  destruct (run stream_source cf p (top_rst s)) as [r st] eqn:E. injection H as -> <-.
  pose proof (gx_run cf p s Hbase Hwh eq_refl) as HR. rewrite E in HR.
  pose proof (run_ends_none e zc cf t He Ht Hc Hb s v st Hq E) as Hn.
  destruct HR as [HR|[HR|HR]].
  - contradiction.
  - cbn [fst snd] in HR. unfold dm_rst in HR. rewrite Hn in HR. destruct HR as (_ & _ & _ & _ & HR). contradiction.
  - cbn [fst snd] in HR. destruct (run stream_source cf p (top_rst (gx s))) as [[w|x| |] st2]; try contradiction.
    destruct HR as [<- ((_ & Hb1 & _ & HR) & _)]. cbn [fst snd] in *. exists (x_s st2). split; [reflexivity|].
    destruct HR as [(_ & _ & [-> | [-> Hr]])|(_ & -> & _)]; [now left| |now left]. right. split; [reflexivity|].
    assert (HF : from_stream e zc cf t s = (ROk v, x_s st)) by (unfold from_stream; fold p; rewrite E; reflexivity).
    destruct (P_Places.from_follows e zc cf t s _ _ (N.le_0_l _) (or_introl eq_refl) HF) as (_ & _ & Hd & Hp). cbn in Hd, Hp.
    apply (f_equal lenN) in Hr. rewrite rest_len in Hr. rewrite Hd in Hr. change (lenN (@nil N)) with 0 in Hr.
    pose proof (gb_pos _ (proj1 Hb1)) as Hle. rewrite Hd in Hle. lia.
Qed.
