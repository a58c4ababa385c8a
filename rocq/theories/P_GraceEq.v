(** * P_GraceEq: graceful_eof is an implied end of document (C69), the other
    direction *)

From Verif Require Import Base Wire Dev Stream SpecWire SpecFormat SpecStream Types Prog De SpecDe
  P_Base P_Wire P_Sched P_Read P_Write P_Blob P_Stream P_Skip P_Prog P_Wp P_Types P_Dict P_DictAll P_DeStream P_DeExt P_GraceOk.
From Verif Require P_Grace P_DeTrail.
Strategy 1000 [s_decode_u64 decode_u64 decode_loop write_all read_exact encode_u64 enc_loop encode_fixed_u64 mloop miter].

(** The mark is, or will be, taken for part of something else: reading ends
    in an error. *)
Definition bdoomed (t : stream) (c : option field) : Prop :=
  seqinv t /\ s_graceful t = false /\ s_eof t = false /\ lenN (rest t) <= pend t /\ d_pos (s_dev t) <= lenN (d_data (s_dev t)) /\
  match c with
  | Some (mkField _ _ d v) => match v with HBlob _ => in_blob t | HInt _ => True | _ => d < s_depth t end
  | None => False
  end.
Lemma spent_impl sp t : seqinv t -> s_graceful t = false -> s_eof t = false -> lenN (rest t) <= pend t ->
  forall e t', next_element_impl sp t <> (ROk e, t').
Proof.
  intros Hq Hg He Hp e t' H. pose proof Hq as [Hi Hl Hd _]. apply impl_outcome in H; auto; [|lia].
  assert (Hrs : rest (settled t) = dropN (pend t) (rest t)) by (apply rest_adv). rewrite dropN_all in Hrs by exact Hp.
  destruct H as [[_ [(np & hd & h & tl & Hr & Henc & _)|(np & Hg' & _)]]|(_ & _ & Hg' & _)].
  - pose proof (hdr_enc_len _ _ Henc) as Hh. apply (f_equal lenN) in Hr. rewrite Hrs, !lenN_app in Hr. change (lenN (@nil N)) with 0 in Hr. lia.
  - change (s_graceful (settled t)) with (s_graceful t) in Hg'. congruence.
  - congruence.
Qed.
Lemma gx_seq s : gbase s -> seqinv (gx s).
Proof.
  intros Hb. pose proof Hb as [[Hi Hl Hd He] Hg Hlen Hpos Hcm]. constructor.
  - now apply gx_rinv.
  - unfold gx, ext. cbn [s_dev set_graceful_ set_dev d_data]. rewrite lenN_app. change (lenN mark) with 1. lia.
  - change (unread (gx s)) with (rest (gx s)). rewrite gx_rest by exact Hb. unfold gx, ext. cbn [s_dev s_depth set_graceful_ set_dev d_data]. rewrite !lenN_app.
    change (lenN mark) with 1. change (rest s) with (unread s). lia.
  - exact He.
Qed.
Lemma snoc_cut {A} (l m : list A) x y : l ++ [x] = m ++ y -> y = [] \/ exists y', y = y' ++ [x] /\ l = m ++ y'.
Proof.
  destruct y as [|z y] using rev_ind; [now left|]. intros H. right. rewrite app_assoc in H. apply app_inj_tail in H. destruct H as [-> ->]. exists y. auto.
Qed.

(** What the marked stream reads, the graceful one reads too, or it is
    doomed. *)
Lemma impl_back sp s e t : gbase s -> whole s -> s_eof s = false -> next_element_impl sp (gx s) = (ROk e, t) ->
  (exists s' hd h s1 p, next_element_impl sp s = (ROk e, s') /\ t = gx s' /\ gbase s' /\ e = elem_of hd p (s_depth s) /\ s' = after hd h s1 /\
     s_commit s1 = None /\ rinv s1 /\ s_depth s1 = s_depth s /\ s_pos s1 + lenN h + hdr_payload hd <= U64_MAX) \/
  (exists s', e = ElEndOfDoc /\ next_element_impl sp s = (ROk e, s') /\ s_eof s' = true /\ gbase s' /\ t = gdone s') \/
  (exists hd p, seqinv t /\ s_graceful t = false /\ s_eof t = false /\ rest t = [] /\ d_pos (s_dev t) <= lenN (d_data (s_dev t)) /\
     e = elem_of hd p (s_depth s) /\ s_depth t = depth_after hd (s_depth s) /\
     match hd with
     | HdField _ v => match v with HvBlob l => pend t = l /\ in_blob t | _ => True end
     | HdExc _ => True
     | _ => False
     end).
Proof.
  intros Hb Hw He H. pose proof (gx_seq s Hb) as Hqg.
  pose proof (impl_seq sp (gx s) e t Hqg H) as (Hqt & _).
  pose proof Hb as [[Hi Hl Hd Hed] Hg Hlen Hpos Hcm].
  apply impl_outcome in H; auto; [|apply Hqg|change (s_depth (gx s)) with (s_depth s); lia].
  assert (Hrs : rest (settled (gx s)) = dropN (pend s) (rest s) ++ mark).
  { change (rest (settled (gx s))) with (rest (adv (pend s) (gx s))). rewrite rest_adv, gx_rest by exact Hb. apply dropN_app_l. exact Hw. }
  assert (Hrs0 : rest (settled s) = dropN (pend s) (rest s)) by (apply rest_adv).
  destruct H as [[_ [(np & hd & h & tl & Hr & Henc & Hnp & Hpad & Hpz & He' & Ht)|(np & Hg' & _)]]|(_ & _ & Hg' & _)];
    [|change (s_graceful (settled (gx s))) with false in Hg'; discriminate|discriminate Hg'].
  change (s_depth (settled (gx s))) with (s_depth s) in *. change (s_pos (settled (gx s))) with (s_pos s + pend s) in *.
  assert (Hrep : lenN (repeat 192 np) = N.of_nat np) by (unfold lenN; now rewrite repeat_length).
  rewrite Hrs in Hr. rewrite app_assoc in Hr. unfold mark in Hr.
  destruct (snoc_cut _ _ _ _ Hr) as [Htl|(tl' & Htl & Hr')].
  - (* the header takes in the mark *)
    subst tl. rewrite app_nil_r in Hr. destruct (snoc_cut _ _ _ _ Hr) as [Hh|(h' & Hh & Hr')].
    { subst h. inversion Henc. }
    destruct (N.eqb_spec (lenN h') 0) as [Hz|Hz].
    + (* the mark itself *)
      assert (h' = []) by (destruct h'; [reflexivity|rewrite lenN_cons in Hz; lia]). subst h'. cbn in Hh. subst h. rewrite app_nil_r in Hr'.
      assert (hd = HdEof).
      { inversion Henc as [t0 d v Ht0 Hv|t0 n v Ht0 Hv|t0 l v Ht0 Hv|t0 Ht0| | |l v Hv|]; subst; try reflexivity; try (unfold tag_ok in *; lia); try discriminate; exfalso;
          try (destruct v; [destruct Hv as (Hv & _); inversion Hv|discriminate]). }
      subst hd. right. left. cbn [elem_of] in He'.
      change (lenN [64]) with 1 in Hpz. cbn [hdr_payload] in Hpz.
      assert (Hx : next_element_impl sp s = (ROk ElEndOfDoc, P_Grace.closed (N.of_nat np) s)).
      { apply P_Grace.impl_grace; auto; lia. }
      exists (P_Grace.closed (N.of_nat np) s). split; [exact He'|]. split; [now rewrite He'|]. split; [reflexivity|].
      split; [|rewrite Ht; apply stream_eq; reflexivity].
      pose proof (impl_seq _ _ _ _ (gb_q _ Hb) Hx) as (Hq' & _).
      constructor; [exact Hq'|exact Hg|exact Hlen| |reflexivity].
      change (d_pos (s_dev s) + pend s + N.of_nat np <= lenN (d_data (s_dev s))).
      apply (f_equal lenN) in Hr'. rewrite lenN_dropN, Hrep in Hr'. pose proof (rest_len s). unfold whole in Hw. lia.
    + (* part of an integer *)
      right. right. exists hd. eexists. split; [exact Hqt|]. split; [rewrite Ht; now rewrite after_graceful|].
      assert (Hhd : match hd with HdField _ HvStruct => False | HdField _ _ | HdExc _ => True | _ => False end).
      { inversion Henc as [t0 d v Ht0 Hv|t0 n v Ht0 Hv|t0 l v Ht0 Hv|t0 Ht0 E1 E2|E1 E2|E1 E2|l v Hv|E1 E2]; subst hd; try exact I; exfalso; rewrite Hh in E2;
          destruct h' as [|? [|]]; try discriminate; cbn in Hz; now apply Hz. }
      assert (Hlh : lenN (repeat 192 np) + lenN h = lenN (dropN (pend s) (rest s)) + 1).
      { apply (f_equal lenN) in Hr. rewrite !lenN_app in Hr. change (lenN [64]) with 1 in Hr. lia. }
      rewrite lenN_dropN, Hrep in Hlh. pose proof (rest_len s) as Hrl. unfold whole in Hw.
      assert (Hdt : d_pos (s_dev t) = d_pos (s_dev s) + pend s + N.of_nat np + lenN h /\ d_data (s_dev t) = d_data (s_dev s) ++ mark).
      { rewrite Ht. destruct hd as [t0 []| | | |]; split; reflexivity. }
      destruct Hdt as [Hdt1 Hdt2].
      split; [rewrite Ht; destruct hd as [t0 []| | | |]; try contradiction; exact He|].
      split. { unfold rest, d_rest. rewrite Hdt1, Hdt2. apply dropN_all. rewrite lenN_app. change (lenN mark) with 1. lia. }
      split; [rewrite Hdt1, Hdt2, lenN_app; change (lenN mark) with 1; lia|].
      split; [exact He'|]. split; [rewrite Ht, after_depth; reflexivity|].
      destruct hd as [t0 [n|l| |d]| | | |]; try exact I; try contradiction. rewrite Ht. split; [apply (after_pend (HdField t0 (HvBlob l))); reflexivity|].
      apply after_in_blob; [apply gx_seq, Hb| |]; auto.
  - (* before the mark *)
    left. rewrite <- app_assoc in Hr'. rewrite <- Hrs0 in Hr'. set (s1 := adv (N.of_nat np) (settled s)).
    assert (Hx : next_element_impl sp s = (ROk (elem_of hd (s_pos s + pend s + N.of_nat np) (s_depth s)), after hd h s1)).
    { apply (impl_complete sp s hd h tl' np); auto.
      - now rewrite <- Hrs0.
      - unfold depth_fits, field_depth. destruct hd as [t0 []| | | |]; try exact I; lia. }
    rewrite <- He' in Hx. exists (after hd h s1), hd, h, s1. eexists. split; [exact Hx|].
    split; [rewrite gx_after; unfold s1; now rewrite gx_adv, gx_settled|].
    pose proof (impl_seq _ _ _ _ (gb_q _ Hb) Hx) as (Hq' & _).
    split; [|split; [exact He'|split; [reflexivity|split; [reflexivity|split; [apply rinv_adv, rinv_settled, Hi|split; [reflexivity|exact Hpz]]]]]].
    constructor; [exact Hq'|now rewrite after_graceful| | |].
    + rewrite after_data. exact Hlen.
    + rewrite after_data. replace (d_pos (s_dev (after hd h s1))) with (d_pos (s_dev s1) + lenN h) by (destruct hd as [t0 []| | | |]; reflexivity).
      apply (f_equal lenN) in Hr'. rewrite !lenN_app, Hrep, Hrs0, lenN_dropN in Hr'. pose proof (rest_len s). unfold whole in Hw.
      change (d_pos (s_dev s1)) with (d_pos (s_dev s) + pend s + N.of_nat np). change (d_data (s_dev s1)) with (d_data (s_dev s)).
      pose proof (hdr_enc_len _ _ Henc). lia.
    + intros Hx2. destruct hd as [t0 []| | | |]; try reflexivity; exfalso; change (s_eof s = true) in Hx2; congruence.
Qed.

(** Loops of two related executions, the first of which may be doomed. *)
Section LoopDm.
  Context {S1 S2 E A B : Type} (step1 : A -> M S1 E (A + B)) (step2 : A -> M S2 E (A + B)).
  Variables (R : A -> S1 -> S2 -> Prop) (Rf : B -> S1 -> S2 -> Prop) (Dm : A -> S1 -> Prop).
  Definition loop_dm (x1 : res E (A + B) * S1) (x2 : res E (A + B) * S2) : Prop :=
    match x1 with
    | (ROk (inl a), t1) => Dm a t1 \/ exists t2, x2 = (ROk (inl a), t2) /\ R a t1 t2
    | (ROk (inr b), t1) => exists t2, x2 = (ROk (inr b), t2) /\ Rf b t1 t2
    | _ => True
    end.
  Definition stops (x1 : res E (A + B) * S1) : Prop := match fst x1 with ROk _ => False | _ => True end.
  Hypothesis Hstep : forall a s1 s2, R a s1 s2 -> loop_dm (step1 a s1) (step2 a s2).
  Hypothesis Hdm : forall a s1, Dm a s1 -> stops (step1 a s1).
  Lemma miter_stops p : forall a s1, Dm a s1 -> stops (miter p step1 a s1).
  Proof.
    induction p as [q IH|q IH|]; intros a s1 HD; cbn [miter].
    - unfold mbind at 1. specialize (Hdm a s1 HD). destruct (step1 a s1) as [[|x| |] t1]; cbn in Hdm; try contradiction; exact I.
    - unfold mbind at 1. specialize (IH a s1 HD). destruct (miter q step1 a s1) as [[|x| |] t1]; cbn in IH; try contradiction; exact I.
    - apply Hdm, HD.
  Qed.
  Lemma miter_dm p : forall a s1 s2, R a s1 s2 -> loop_dm (miter p step1 a s1) (miter p step2 a s2).
  Proof.
    assert (Hno : forall q a s1 x2, Dm a s1 -> loop_dm (miter q step1 a s1) x2).
    { intros q a s1 x2 HD. pose proof (miter_stops q a s1 HD) as H. destruct (miter q step1 a s1) as [[|x| |] t1]; cbn in H; try contradiction; exact I. }
    induction p as [q IH|q IH|]; intros a s1 s2 HR; cbn [miter].
    - unfold mbind at 1 3. specialize (Hstep a s1 s2 HR).
      destruct (step1 a s1) as [[[a1|b1]|x| |] t1]; cbn [loop_dm] in Hstep; try exact I.
      2: { destruct Hstep as (t2 & -> & H). exists t2. auto. }
      destruct Hstep as [HD|(t2 & -> & H1)].
      { unfold mbind. pose proof (miter_stops q a1 t1 HD) as H. destruct (miter q step1 a1 t1) as [[|x| |] u1]; cbn in H; try contradiction; exact I. }
      unfold mbind. specialize (IH a1 t1 t2 H1) as H2.
      destruct (miter q step1 a1 t1) as [[[a2|b2]|x| |] u1]; cbn [loop_dm] in H2; try exact I.
      2: { destruct H2 as (u2 & -> & H). exists u2. auto. }
      destruct H2 as [HD|(u2 & -> & H3)]; [apply Hno, HD|apply IH, H3].
    - unfold mbind. specialize (IH a s1 s2 HR) as H2.
      destruct (miter q step1 a s1) as [[[a2|b2]|x| |] u1]; cbn [loop_dm] in H2; try exact I.
      2: { destruct H2 as (u2 & -> & H). exists u2. auto. }
      destruct H2 as [HD|(u2 & -> & H3)]; [apply Hno, HD|apply IH, H3].
    - apply Hstep, HR.
  Qed.
  Lemma mloop_dm a s1 s2 : R a s1 s2 ->
    match mloop step1 a s1 with
    | (ROk b, t1) => exists t2, mloop step2 a s2 = (ROk b, t2) /\ Rf b t1 t2
    | _ => True
    end.
  Proof.
    intros HR. unfold mloop, mbind. pose proof (miter_dm loop_bound a s1 s2 HR) as H.
    destruct (miter loop_bound step1 a s1) as [[[a1|b1]|x| |] t1]; try exact I.
    destruct H as (t2 & -> & H). exists t2. auto.
  Qed.
  Lemma mloop_stops a s1 : Dm a s1 -> match mloop step1 a s1 with (ROk _, _) => False | _ => True end.
  Proof.
    intros HD. unfold mloop, mbind. pose proof (miter_stops loop_bound a s1 HD) as H.
    destruct (miter loop_bound step1 a s1) as [[|x| |] t1]; cbn in H; try contradiction; exact I.
  Qed.
End LoopDm.

Definition RSb (s1 : stream) (c1 : option field) (s2 : stream) (c2 : option field) : Prop :=
  c1 = c2 /\ gbase s2 /\ whole s2 /\
  ((s_eof s2 = true /\ ~ blob_cur c2 /\ (s1 = gx s2 \/ s1 = gdone s2)) \/
   (s_eof s2 = false /\ s1 = gx s2 /\ hand_ok s2 c2)).
Definition spent (t : stream) : Prop := seqinv t /\ s_graceful t = false /\ s_eof t = false /\ lenN (rest t) <= pend t.

Lemma not_whole s : gbase s -> s_eof s = false -> lenN (rest s) < pend s ->
  spent (gx s) /\ d_pos (s_dev (gx s)) <= lenN (d_data (s_dev (gx s))).
Proof.
  intros Hb He Hp. split.
  - split; [now apply gx_seq|]. split; [reflexivity|]. split; [exact He|]. rewrite gx_rest by exact Hb. rewrite lenN_app. change (lenN mark) with 1. change (pend (gx s)) with (pend s). lia.
  - unfold gx, ext. cbn [s_dev set_graceful_ set_dev d_data d_pos]. rewrite lenN_app. pose proof (gb_pos _ Hb). lia.
Qed.

Lemma next_back s1 c s2 c2 a t : RSb s1 c s2 c2 -> next_field s1 = (ROk a, t) ->
  bdoomed t a \/ exists t2, next_field s2 = (ROk a, t2) /\ RSb t a t2 a.
Proof.
  intros (-> & Hb & Hw & [(He & Hnb & Hs2)|(He & -> & Hh)]) H; unfold next_field in *.
  - assert (He1 : s_eof s1 = true) by (destruct Hs2 as [-> | ->]; exact He).
    rewrite (mbind_ok _ _ _ _ _ (impl_eof true s1 He1)) in H. injection H as <- <-. right. exists s2. split.
    + now rewrite (mbind_ok _ _ _ _ _ (impl_eof true s2 He)).
    + split; [reflexivity|]. split; [exact Hb|]. split; [exact Hw|]. left. split; [exact He|]. split; [exact (fun x => x)|exact Hs2].
  - apply mbind_inv_ok in H. destruct H as (e & t1 & H1 & H).
    destruct (impl_back true s2 e t1 Hb Hw He H1) as [(s' & hd & h & s0 & p & H2 & -> & Hb' & -> & Es' & Hc & Hi0 & Hd0 & Hpz)|[(s' & -> & H2 & He' & Hb' & ->)|
      (hd & p & D1 & D2 & D3 & D4 & D5 & -> & D6 & D7)]].
    + rewrite (mbind_ok _ _ _ _ _ H2).
      pose proof (after_pend hd h s0 Hc) as Hpe. rewrite <- Es' in Hpe.
      assert (Hwh : hdr_payload hd = 0 -> whole s') by (unfold whole; rewrite Hpe; intros ->; lia).
      assert (Hdone : forall c', ~ blob_cur c' -> hdr_payload hd = 0 -> RSb (gx s') c' s' c').
      { intros c' Hc' Hz. split; [reflexivity|]. split; [exact Hb'|]. split; [now apply Hwh|]. destruct (s_eof s') eqn:E; [left; auto|right].
        split; [reflexivity|]. split; [reflexivity|]. destruct c' as [[? ? ? []]|]; try exact I. now elim Hc'. }
      destruct hd as [t0 v| | |len|]; cbn [elem_of] in H |- *.
      * injection H as <- <-. destruct v as [n|l| |d]; try (right; eexists; split; [reflexivity|]; apply Hdone; [exact (fun x => x)|reflexivity]).
        assert (Hib : in_blob s') by (rewrite Es'; apply after_in_blob; auto; apply Hi0).
        assert (Hne : s_eof s' = false).
        { destruct (s_eof s') eqn:Ee; [|reflexivity].
          pose proof (sq_eof _ (gb_q _ Hb') Ee) as Hz. rewrite Es', after_depth in Hz. cbn in Hz. unfold field_depth in Hz. lia. }
        destruct (N.ltb_spec (lenN (rest s')) l) as [Hlt|Hge].
        -- left. destruct (not_whole s' Hb' Hne ltac:(rewrite Hpe; exact Hlt)) as ((N1 & N2 & N3 & N4) & N5). repeat (split; [assumption|]). exact Hib.
        -- right. eexists. split; [reflexivity|]. split; [reflexivity|]. split; [exact Hb'|].
           split; [unfold whole; rewrite Hpe; exact Hge|]. right. split; [exact Hne|]. split; [reflexivity|]. cbn. split; [rewrite Es'; reflexivity|exact Hib].
      * injection H as <- <-. right. eexists. split; [reflexivity|]. apply Hdone; [exact (fun x => x)|reflexivity].
      * injection H as <- <-. right. eexists. split; [reflexivity|]. apply Hdone; [exact (fun x => x)|reflexivity].
      * exfalso. apply mbind_inv_ok in H. destruct H as (m & s3 & _ & H). discriminate.
      * discriminate.
    + rewrite (mbind_ok _ _ _ _ _ H2). injection H as <- <-. right. eexists. split; [reflexivity|]. split; [reflexivity|]. split; [exact Hb'|].
      split; [now apply eof_whole|]. left. split; [exact He'|]. split; [exact (fun x => x)|now right].
    + destruct hd as [t0 v| | |len|]; try contradiction; cbn [elem_of] in H.
      * injection H as <- <-. left. repeat (split; [assumption|]). split; [rewrite D4; change (lenN (@nil N)) with 0; lia|]. split; [assumption|].
        destruct v as [n|l| |d]; cbn [vhdr_of]; [exact I|apply D7| |]; cbn [depth_after] in D6; rewrite D6; lia.
      * exfalso. apply mbind_inv_ok in H. destruct H as (m & s3 & _ & H). discriminate.
Qed.

Lemma skip_up_back D s1 c s2 x t : ~ blob_cur c -> RSb s1 c s2 c -> skip_up D s1 = (ROk x, t) ->
  exists t2, skip_up D s2 = (ROk x, t2) /\ RSb t c t2 c.
Proof.
  intros Hnb HR H.
  pose proof (mloop_dm (E := serr) (fun _ : unit =>
         let* s := mget in if D <? s_depth s then next_element ;; mret (inl tt) else mret (inr tt))
     (fun _ : unit =>
         let* s := mget in if D <? s_depth s then next_element ;; mret (inl tt) else mret (inr tt))
     (fun _ s1 s2 => RSb s1 c s2 c)
     (fun (_ : unit) s1 s2 => RSb s1 c s2 c) (fun _ s1 => spent s1 /\ D < s_depth s1)) as HL.
  specialize (HL) with (a := tt) (s1 := s1) (s2 := s2).
  change (mloop _ tt s1) with (skip_up D s1) in HL. change (mloop _ tt s2) with (skip_up D s2) in HL. rewrite H in HL.
  destruct HL as (t2 & H2 & HR2).
  - intros u1 a1 a2 HR1; unfold mbind, mget.
    pose proof HR1 as (_ & Hb & Hw & HC).
    assert (Hds : s_depth a2 = s_depth a1) by (destruct HC as [(_ & _ & [-> | ->])|(_ & -> & _)]; reflexivity).
    rewrite Hds. destruct (N.ltb_spec D (s_depth a1)) as [Hlt|Hge]; [|eexists; split; [reflexivity|exact HR1]].
    destruct (next_element a1) as [[e|e| |] s4] eqn:En; try exact I.
    destruct HC as [(He & _ & HC)|(He & -> & Hh)].
    + assert (He1 : s_eof a1 = true) by (destruct HC as [-> | ->]; exact He).
      unfold next_element in En. rewrite (impl_eof false a1 He1) in En. injection En as <- <-. right. exists a2. split; [|exact HR1].
      unfold next_element. now rewrite (impl_eof false a2 He).
    + change (s_depth (gx a2)) with (s_depth a2) in Hlt.
      destruct (impl_back false a2 e s4 Hb Hw He En) as [(s' & hd & h & s0 & p & H2 & -> & Hb' & -> & Es' & Hc & Hi0 & Hd0 & Hpz)|[(s' & -> & H2 & He' & Hb' & ->)|
        (hd & p & D1 & D2 & D3 & D4 & D5 & -> & D6 & D7)]].
      * unfold next_element. rewrite H2.
        pose proof (after_pend hd h s0 Hc) as Hpe. rewrite <- Es' in Hpe.
        assert (E5 : s_eof s' = true \/ s_eof s' = false) by (destruct (s_eof s'); auto). destruct E5 as [E5|E5].
        -- right. eexists. split; [reflexivity|]. split; [reflexivity|]. split; [exact Hb'|]. split; [now apply eof_whole|]. left. auto.
        -- destruct (N.ltb_spec (lenN (rest s')) (pend s')) as [Hw'|Hw'].
           ++ left. split; [apply not_whole; auto|]. change (s_depth (gx s')) with (s_depth s').
              rewrite Es', after_depth, Hd0. rewrite Hpe in Hw'.
              destruct hd as [t0 [n|l| |d0]| | |len|]; cbn [hdr_payload] in Hw'; try lia; cbn [depth_after]; unfold field_depth; lia.
           ++ right. eexists. split; [reflexivity|]. split; [reflexivity|]. split; [exact Hb'|]. split; [exact Hw'|]. right. split; [exact E5|]. split; [reflexivity|].
              destruct c as [[? ? ? []]|]; try exact I. now elim Hnb.
      * unfold next_element. rewrite H2. right. eexists. split; [reflexivity|]. split; [reflexivity|]. split; [exact Hb'|].
        split; [now apply eof_whole|]. left. auto.
      * left. split; [repeat (split; [assumption|]); rewrite D4; change (lenN (@nil N)) with 0; lia|].
        rewrite D6. destruct hd as [t0 [n|l| |d0]| | |len|]; try contradiction; cbn [depth_after]; unfold field_depth; lia.
  - intros u1 a1 [(P1 & P2 & P3 & P4) P5]. unfold stops, mbind, mget. destruct (N.ltb_spec D (s_depth a1)); [|lia].
    destruct (next_element a1) as [[e|e| |] s4] eqn:En; try exact I. elim (spent_impl false a1 P1 P2 P3 P4 e s4 En).
  - exact HR.
  - exists t2. auto.
Qed.

Lemma spent_skip D s u t : spent s -> D < s_depth s -> skip_up D s <> (ROk u, t).
Proof.
  intros Hs P5 H.
  pose proof (mloop_stops (E := serr) (fun _ : unit =>
     let* s := mget in if D <? s_depth s then next_element ;; mret (inl tt) else mret (inr tt))
     (fun _ s1 => spent s1 /\ D < s_depth s1)) as HS.
  specialize HS with (a := tt) (s1 := s). change (mloop _ tt s) with (skip_up D s) in HS. rewrite H in HS.
  apply HS; [|exact (conj Hs P5)].
  intros a s1 [(Q1 & Q2 & Q3 & Q4) Q5]. unfold stops, mbind, mget. destruct (N.ltb_spec D (s_depth s1)); [|lia].
  destruct (next_element s1) as [[e|e| |] s4] eqn:En; try exact I. elim (spent_impl false s1 Q1 Q2 Q3 Q4 e s4 En).
Qed.
Lemma gbase_adv s n : gbase s -> s_eof s = false -> n <= lenN (rest s) -> gbase (adv n s).
Proof.
  intros [[Hi Hl Hd He] Hg Hlen Hpos Hcm] Hne Hn.
  assert (Hu : lenN (unread (adv n s)) = lenN (unread s) - n).
  { change (lenN (rest (adv n s)) = lenN (unread s) - n). rewrite rest_adv, lenN_dropN. reflexivity. }
  rewrite rest_len in Hn.
  constructor; [|exact Hg|exact Hlen| |intros Hx; change (s_eof s = true) in Hx; congruence].
  - constructor; [now apply rinv_adv|exact Hl| |exact He]. rewrite Hu.
    change (s_depth (adv n s)) with (s_depth s). change (d_data (s_dev (adv n s))) with (d_data (s_dev s)). lia.
  - change (d_pos (s_dev (adv n s))) with (d_pos (s_dev s) + n).
    change (d_data (s_dev (adv n s))) with (d_data (s_dev s)). lia.
Qed.
Lemma seqinv_adv s n : seqinv s -> n <= lenN (rest s) -> seqinv (adv n s).
Proof.
  intros [Hi Hl Hd He] Hn.
  assert (Hu : lenN (unread (adv n s)) = lenN (unread s) - n).
  { change (lenN (rest (adv n s)) = lenN (unread s) - n). rewrite rest_adv, lenN_dropN. reflexivity. }
  rewrite rest_len in Hn. constructor; [now apply rinv_adv|exact Hl| |exact He]. rewrite Hu.
  change (s_depth (adv n s)) with (s_depth s). change (d_data (s_dev (adv n s))) with (d_data (s_dev s)). lia.
Qed.

Lemma back_run cf {A} (p : prog A) s2 : gbase s2 -> whole s2 -> s_eof s2 = false ->
  orel (sim_rst RSb) (err_rel eq) true (dm_rst bdoomed)
    (run stream_source cf p (top_rst (gx s2))) (run stream_source cf p (top_rst s2)).
Proof.
  intros Hb0 Hw0 He0. apply src_sim.
  - intros a ca b cb (_ & _ & _ & [(_ & _ & [-> | ->])|(_ & -> & _)]); reflexivity.
  - intros a ca b cb (-> & _). destruct cb; cbn; [|exact I]. repeat split.
  - intros s1 c s c2 HR. unfold srel. cbn [i_next stream_source].
    destruct (next_field s1) as [[a|x| |] t] eqn:E; cbn [fst snd]; try exact I; [|now left].
    destruct (next_back s1 c s c2 a t HR E) as [H|(t2 & H1 & H2)]; [now left|]. right. rewrite H1. exact H2.
  - intros s1 f s f2 HR. pose proof HR as (Hf & _). injection Hf as <-. unfold srel. cbn [i_skip stream_source]. unfold field_skip.
    destruct f as [t0 p0 d0 v0]. cbn [f_val f_depth] in *.
    assert (Hup : (forall l, v0 <> HBlob l) -> srel true (fun (a : unit) t1 b t2 => RSb t1 (Some (mkField t0 p0 d0 v0)) t2 (Some (mkField t0 p0 d0 v0)))
        (fun _ t1 => bdoomed t1 (Some (mkField t0 p0 d0 v0))) (skip_up d0 s1) (skip_up d0 s)).
    { intros Hnb. unfold srel. destruct (skip_up d0 s1) as [[a|x| |] t] eqn:E; cbn [fst snd]; try exact I; [|now left].
      assert (Hnc : ~ blob_cur (Some (mkField t0 p0 d0 v0))) by (destruct v0; cbn; auto; now destruct (Hnb len)).
      destruct (skip_up_back d0 s1 _ s a t Hnc HR E) as (t2 & H1 & H2). right. rewrite H1. exact H2. }
    destruct v0; [right; exact HR|right; exact HR|apply Hup; discriminate|apply Hup; discriminate].
  - (* remaining *)
    intros s1 c s c2 HR Hc1 _. pose proof HR as (<- & Hb & Hw & [(_ & Hn & _)|(He & -> & Hh)]); [contradiction|].
    destruct c as [[t0 p0 d0 v0]|]; [|contradiction].
    destruct v0; try contradiction. destruct Hh as [Hc Hib]. unfold srel. cbn [i_remaining stream_source].
    rewrite !b_remaining_ok by apply Hib. cbn [fst snd]. right. split; [reflexivity|]. exact HR.
  - intros s1 c s c2 HR Hc1 _. pose proof HR as (<- & Hb & Hw & [(_ & Hn & _)|(He & -> & Hh)]); [contradiction|].
    destruct c as [[t0 p0 d0 v0]|]; [|contradiction].
    destruct v0; try contradiction. destruct Hh as [Hc Hib]. unfold srel. cbn [i_read_fully stream_source].
    rewrite !b_read_fully_ok by exact Hib.
    change (s_blob_end (gx s)) with (s_blob_end s). change (s_pos (gx s)) with (s_pos s).
    assert (Hpe : pend s = s_blob_end s - s_pos s) by (unfold pend; now rewrite Hc). rewrite <- Hpe.
    destruct (cf_blob cf <? pend s); cbn [fst snd]; [now left|]. right. unfold whole in Hw.
    rewrite gx_rest by apply Hb. rewrite takeN_app_l by exact Hw. rewrite lenN_app. rewrite !N.min_l by lia.
    split; [reflexivity|]. split; [reflexivity|].
    destruct (blob_adv_ok s (pend s) Hc Hib ltac:(lia)) as (B1 & B2 & B3).
    split; [apply gbase_adv; auto|]. split; [unfold whole; rewrite B2; lia|]. right. split; [exact He|]. split; [apply eq_sym, gx_adv|]. split; [exact B3|exact B1].
  - intros n s1 c s c2 HR Hc1 _. pose proof HR as (<- & Hb & Hw & [(_ & Hn & _)|(He & -> & Hh)]); [contradiction|].
    destruct c as [[t0 p0 d0 v0]|]; [|contradiction].
    destruct v0; try contradiction. destruct Hh as [Hc Hib]. unfold srel. cbn [i_read_exact stream_source]. unfold lift_io.
    rewrite !b_read_exact_ok by exact Hib.
    change (s_blob_end (gx s)) with (s_blob_end s). change (s_pos (gx s)) with (s_pos s).
    assert (Hpe : pend s = s_blob_end s - s_pos s) by (unfold pend; now rewrite Hc). rewrite <- Hpe.
    unfold whole in Hw. rewrite gx_rest by apply Hb. rewrite lenN_app.
    destruct (N.ltb_spec (N.min n (N.min (pend s) (lenN (rest s) + lenN mark))) n) as [Hlt2|Hge2]; cbn [fst snd]; [now left|]. right.
    destruct (N.ltb_spec (N.min n (N.min (pend s) (lenN (rest s)))) n) as [Hlt|Hge]; [lia|]. cbn [fst snd].
    rewrite takeN_app_l by lia. split; [reflexivity|]. split; [reflexivity|].
    destruct (blob_adv_ok s n Hc Hib ltac:(lia)) as (B1 & B2 & B3).
    split; [apply gbase_adv; auto; lia|]. split; [unfold whole; rewrite B2, rest_adv, lenN_dropN; lia|].
    right. split; [exact He|]. split; [apply eq_sym, gx_adv|]. split; [exact B3|exact B1].
  - intros s1 c s c2 HR Hc1 _. pose proof HR as (<- & Hb & Hw & [(_ & Hn & _)|(He & -> & Hh)]); [contradiction|].
    destruct c as [[t0 p0 d0 v0]|]; [|contradiction].
    destruct v0; try contradiction. pose proof Hh as [Hc Hib]. unfold srel. cbn [i_ext stream_source].
    assert (Hpe : pend s = s_blob_end s - s_pos s) by (unfold pend; now rewrite Hc). unfold whole in Hw.
    assert (Hex : forall s0, in_blob s0 -> d_pos (s_dev s0) <= lenN (d_data (s_dev s0)) ->
       s_blob_end s0 - s_pos s0 <= lenN (rest s0) ->
       b_ext_slice s0 = (ROk (takeN (s_blob_end s0 - s_pos s0) (rest s0)), s0)).
    { intros s0 Hib0 Hd0 Hr0. unfold b_ext_slice, as_slice. unfold mbind at 1.
      destruct (N.ltb_spec (lenN (d_data (s_dev s0))) (d_pos (s_dev s0))); [lia|].
      unfold mbind. rewrite b_remaining_ok by apply Hib0. change (d_rest (s_dev s0)) with (rest s0).
      destruct (N.ltb_spec (lenN (rest s0)) (s_blob_end s0 - s_pos s0)); [lia|]. reflexivity. }
    rewrite Hex; [|exact Hib| |].
    + rewrite Hex; [|exact Hib|apply Hb|lia].
      cbn [fst snd]. right. rewrite gx_rest by apply Hb.
      change (s_blob_end (gx s)) with (s_blob_end s). change (s_pos (gx s)) with (s_pos s).
      rewrite takeN_app_l by lia. split; [reflexivity|]. exact HR.
    + cbn [gx set_graceful_ ext set_dev s_dev d_pos d_data]. rewrite lenN_app. pose proof (gb_pos _ Hb). lia.
    + rewrite gx_rest by apply Hb. rewrite lenN_app.
      change (s_blob_end (gx s)) with (s_blob_end s). change (s_pos (gx s)) with (s_pos s). lia.
  - reflexivity.
  - intros s c (D1 & D2 & D3 & D4 & D5 & D6). cbn [i_next stream_source]. destruct (next_field s) as [[a|x| |] t] eqn:E; try exact I.
    unfold next_field in E. apply mbind_inv_ok in E. destruct E as (e & s' & E & _). now elim (spent_impl true s D1 D2 D3 D4 e s').
  - intros f s Hd. cbn [i_skip stream_source]. destruct f as [t0 p0 d0 v0]. unfold field_skip. cbn [f_val f_depth].
    assert (Hno : d0 < s_depth s -> match skip_up d0 s with (ROk _, t) => bdoomed t (Some (mkField t0 p0 d0 v0)) | _ => True end).
    { intros Hlt. destruct (skip_up d0 s) as [[u|x| |] t] eqn:E; try exact I. exfalso. destruct Hd as (D1 & D2 & D3 & D4 & D5 & D6).
      exact (spent_skip d0 s u t (conj D1 (conj D2 (conj D3 D4))) Hlt E). }
    pose proof Hd as (_ & _ & _ & _ & _ & Hv). destruct v0; try exact Hd; apply Hno, Hv.
  - intros c Hc1. destruct c as [[t0 p0 d0 v0]|]; [|contradiction]. destruct v0; try contradiction.
    assert (Hadv : forall s n, bdoomed s (Some (mkField t0 p0 d0 (HBlob len))) -> n <= lenN (rest s) -> n <= s_blob_end s - s_pos s ->
       bdoomed (adv n s) (Some (mkField t0 p0 d0 (HBlob len)))).
    { intros s n (D1 & D2 & D3 & D4 & D5 & D6) Hn Hn2.
      assert (Hpos : d_pos (s_dev s) + n <= lenN (d_data (s_dev s))) by (rewrite rest_len in Hn; lia).
      split; [now apply seqinv_adv|]. split; [exact D2|]. split; [exact D3|].
      assert (Hcase : s_commit s = Some CSkipBlob \/ (pend s = 0 /\ s_commit s <> Some CSkipBlob)).
      { unfold pend. destruct (s_commit s) as [[]|]; auto; right; split; auto; discriminate. }
      destruct Hcase as [Hc|[Hz Hnc]].
      - assert (Hpe : pend s = s_blob_end s - s_pos s) by (unfold pend; now rewrite Hc).
        destruct (blob_adv_ok s n Hc D6 ltac:(lia)) as (B1 & B2 & B3).
        split; [rewrite B2, rest_adv, lenN_dropN; lia|]. split; [exact Hpos|exact B1].
      - assert (n = 0) by lia. subst n. rewrite adv_0. auto. }
    split; [|split; [|split]].
    + intros s Hd. cbn [i_remaining stream_source]. rewrite b_remaining_ok by apply Hd. exact Hd.
    + intros s Hd. cbn [i_read_fully stream_source]. rewrite b_read_fully_ok by apply Hd.
      destruct (_ <? _); [exact I|]. apply Hadv; [exact Hd|lia|lia].
    + intros n s Hd. cbn [i_read_exact stream_source]. unfold lift_io. rewrite b_read_exact_ok by apply Hd.
      destruct (N.ltb_spec (N.min n (N.min (s_blob_end s - s_pos s) (lenN (rest s)))) n); [exact I|].
      apply Hadv; [exact Hd|lia|lia].
    + intros s Hd. cbn [i_ext stream_source]. unfold b_ext_slice, as_slice, mbind.
      destruct (lenN (d_data (s_dev s)) <? d_pos (s_dev s)); [exact I|]. rewrite b_remaining_ok by apply Hd.
      destruct (lenN (d_rest (s_dev s)) <? s_blob_end s - s_pos s); [exact I|]. exact Hd.
  - unfold sim_rst. cbn. split; [|auto]. split; [reflexivity|]. split; [exact Hb0|]. split; [exact Hw0|]. right. repeat split. exact He0.
Qed.

Theorem implied_graceful e zc cf t dbg sk bs v s2 : env_ok e -> deserialisable e zc t -> cf_collect cf <= U64_MAX -> cf_blob cf <= U64_MAX ->
  bytes_ok bs -> lenN bs + 4 < U64_MAX ->
  from_stream e zc cf t (new_stream dbg sk (mkDev (bs ++ [0x40]) 0 [])) = (ROk v, s2) ->
  exists s1, from_stream e zc cf t (set_graceful_ true (new_stream dbg sk (mkDev bs 0 []))) = (ROk v, s1).
Proof.
  intros He Ht Hc Hb Hbs Hl H. set (s := set_graceful_ true (new_stream dbg sk (mkDev bs 0 []))) in *.
  assert (Hq : seqinv s) by (apply (fresh_seqinv dbg sk true bs Hbs); lia).
  assert (Hbase : gbase s) by (constructor; [exact Hq|reflexivity|exact Hl|cbn; lia|discriminate]).
  assert (Hwh : whole s) by (unfold whole, pend; cbn; lia).
  change (new_stream dbg sk (mkDev (bs ++ [64]) 0 [])) with (gx s) in H.
  unfold from_stream in *. set (p := d_body _) in *.
  destruct (run stream_source cf p (top_rst (gx s))) as [r st] eqn:E. injection H as -> <-.
  pose proof (back_run cf p s Hbase Hwh eq_refl) as HR. rewrite E in HR.
  pose proof (run_ends_none e zc cf t He Ht Hc Hb (gx s) v st (gx_seq s Hbase) E) as Hn.
  destruct HR as [HR|[HR|HR]].
  - contradiction.
  - cbn [fst snd] in HR. unfold dm_rst in HR. rewrite Hn in HR. destruct HR as (_ & _ & _ & _ & _ & HR). contradiction.
  - cbn [fst snd] in HR. destruct (run stream_source cf p (top_rst s)) as [[w|x| |] st2]; try contradiction.
    destruct HR as [<- _]. exists (x_s st2). reflexivity.
Qed.

Lemma graceful_eof_is dbg sk d : snd (set_graceful_eof true (new_stream dbg sk d)) = set_graceful_ true (new_stream dbg sk d).
Proof. reflexivity. Qed.
Theorem graceful_accepts e zc cf t dbg bs sched v s1 : env_ok e -> deserialisable e zc t -> cf_collect cf <= U64_MAX -> cf_blob cf <= U64_MAX ->
  bytes_ok bs -> lenN bs + 4 < U64_MAX ->
  from_stream e zc cf t (snd (set_graceful_eof true (new_stream dbg false (mkDev bs 0 sched)))) = (ROk v, s1) ->
  fst (from_stream e zc cf t (new_stream dbg false (mkDev (bs ++ [0x40]) 0 []))) = ROk v.
Proof.
  intros He Ht Hc Hb Hbs Hl H. rewrite graceful_eof_is in H.
  pose proof (P_DeTrail.sched_clean e zc cf t dbg false true bs sched v s1 H) as H2.
  destruct (graceful_implied e zc cf t dbg bs v _ He Ht Hc Hb Hbs Hl H2) as (s2 & E & _). now rewrite E.
Qed.
Theorem implied_accepts e zc cf t dbg sk bs sched sched' v s1 : env_ok e -> deserialisable e zc t -> cf_collect cf <= U64_MAX -> cf_blob cf <= U64_MAX ->
  bytes_ok bs -> lenN bs + 4 < U64_MAX -> Forall (fun x => x <> EvFail) sched' ->
  from_stream e zc cf t (new_stream dbg sk (mkDev (bs ++ [0x40]) 0 sched)) = (ROk v, s1) ->
  fst (from_stream e zc cf t (snd (set_graceful_eof true (new_stream dbg sk (mkDev bs 0 sched'))))) = ROk v.
Proof.
  intros He Ht Hc Hb Hbs Hl Hs H. rewrite graceful_eof_is.
  pose proof (P_DeTrail.sched_clean e zc cf t dbg sk false (bs ++ [0x40]) sched v s1 H) as H2.
  destruct (implied_graceful e zc cf t dbg sk bs v _ He Ht Hc Hb Hbs Hl H2) as (s2 & E).
  destruct (P_DeTrail.sched_any e zc cf t dbg sk true bs sched' _ _ Hs E) as (s3 & E3 & _). now rewrite E3.
Qed.
Theorem graceful_is_implied e zc cf t dbg bs sched sched' v : env_ok e -> deserialisable e zc t -> cf_collect cf <= U64_MAX -> cf_blob cf <= U64_MAX ->
  bytes_ok bs -> lenN bs + 4 < U64_MAX -> Forall (fun x => x <> EvFail) sched -> Forall (fun x => x <> EvFail) sched' ->
  fst (from_stream e zc cf t (snd (set_graceful_eof true (new_stream dbg false (mkDev bs 0 sched))))) = ROk v <->
  fst (from_stream e zc cf t (new_stream dbg false (mkDev (bs ++ [0x40]) 0 sched'))) = ROk v.
Proof.
  intros He Ht Hc Hb Hbs Hl Hs Hs'. split; intros H.
  - destruct (from_stream e zc cf t (snd (set_graceful_eof true (new_stream dbg false (mkDev bs 0 sched))))) as [r s1] eqn:E. cbn [fst] in H. subst r.
    pose proof (graceful_accepts e zc cf t dbg bs sched v s1 He Ht Hc Hb Hbs Hl E) as H2.
    destruct (from_stream e zc cf t (new_stream dbg false (mkDev (bs ++ [0x40]) 0 []))) as [r s2] eqn:E2. cbn [fst] in H2. subst r.
    destruct (P_DeTrail.sched_any e zc cf t dbg false false (bs ++ [0x40]) sched' _ _ Hs' E2) as (s3 & E3 & _).
    change (set_graceful_ false (new_stream dbg false (mkDev (bs ++ [64]) 0 sched'))) with (new_stream dbg false (mkDev (bs ++ [64]) 0 sched')) in E3. now rewrite E3.
  - destruct (from_stream e zc cf t (new_stream dbg false (mkDev (bs ++ [0x40]) 0 sched'))) as [r s1] eqn:E. cbn [fst] in H. subst r.
    exact (implied_accepts e zc cf t dbg false bs sched' sched v s1 He Ht Hc Hb Hbs Hl Hs E).
Qed.
