(** * P_DeExt: bytes after the end of what was read do not matter *)

From Verif Require Import Base Wire Dev Stream SpecWire SpecFormat SpecStream Types Prog De SpecDe
  P_Base P_Wire P_Sched P_Read P_Write P_Blob P_Stream P_Skip P_Prog P_Wp P_Types P_Dict P_DictAll P_DeStream.
Strategy 1000 [s_decode_u64 decode_u64 decode_loop write_all read_exact encode_u64 enc_loop encode_fixed_u64 mloop miter].

(** Loops of two related executions. *)
Section LoopRel.
  Context {S1 S2 E A B : Type} (step1 : A -> M S1 E (A + B)) (step2 : A -> M S2 E (A + B)).
  Variables (R : A -> S1 -> S2 -> Prop) (Rf : B -> S1 -> S2 -> Prop).
  Definition loop_rel (x1 : res E (A + B) * S1) (x2 : res E (A + B) * S2) : Prop :=
    match x1 with
    | (ROk (inl a), t1) => exists t2, x2 = (ROk (inl a), t2) /\ R a t1 t2
    | (ROk (inr b), t1) => exists t2, x2 = (ROk (inr b), t2) /\ Rf b t1 t2
    | _ => True
    end.
  Hypothesis Hstep : forall a s1 s2, R a s1 s2 -> loop_rel (step1 a s1) (step2 a s2).
  Lemma miter_rel p : forall a s1 s2, R a s1 s2 -> loop_rel (miter p step1 a s1) (miter p step2 a s2).
  Proof.
    induction p as [q IH|q IH|]; intros a s1 s2 HR; cbn [miter].
    - unfold mbind at 1 3. specialize (Hstep a s1 s2 HR).
      destruct (step1 a s1) as [[[a1|b1]|x| |] t1]; cbn [loop_rel] in Hstep; try exact I.
      2: { destruct Hstep as (t2 & -> & H). exists t2. auto. }
      destruct Hstep as (t2 & -> & H1). unfold mbind. specialize (IH a1 t1 t2 H1) as H2.
      destruct (miter q step1 a1 t1) as [[[a2|b2]|x| |] u1]; cbn [loop_rel] in H2; try exact I.
      2: { destruct H2 as (u2 & -> & H). exists u2. auto. }
      destruct H2 as (u2 & -> & H3). apply IH, H3.
    - unfold mbind. specialize (IH a s1 s2 HR) as H2.
      destruct (miter q step1 a s1) as [[[a2|b2]|x| |] u1]; cbn [loop_rel] in H2; try exact I.
      2: { destruct H2 as (u2 & -> & H). exists u2. auto. }
      destruct H2 as (u2 & -> & H3). apply IH, H3.
    - apply Hstep, HR.
  Qed.
  Lemma mloop_rel a s1 s2 : R a s1 s2 ->
    match mloop step1 a s1 with
    | (ROk b, t1) => exists t2, mloop step2 a s2 = (ROk b, t2) /\ Rf b t1 t2
    | _ => True
    end.
  Proof.
    intros HR. unfold mloop, mbind. pose proof (miter_rel loop_bound a s1 s2 HR) as H.
    destruct (miter loop_bound step1 a s1) as [[[a1|b1]|x| |] t1]; try exact I.
    destruct H as (t2 & -> & H). exists t2. auto.
  Qed.
End LoopRel.

Section Ext.
  Variable suf : bytes.
  Hypothesis Hsuf : bytes_ok suf.

  Definition ext (s : stream) : stream :=
    set_dev (mkDev (d_data (s_dev s) ++ suf) (d_pos (s_dev s)) (sch s)) s.

  Record base (s : stream) : Prop := mkBase {
    bs_q : seqinv s;
    bs_g : s_graceful s = false;
    bs_len : lenN (d_data (s_dev s)) + lenN suf + 3 < U64_MAX;
    bs_pos : d_pos (s_dev s) <= lenN (d_data (s_dev s))
  }.
  Definition whole (s : stream) : Prop := pend s <= lenN (rest s).

  Lemma ext_rest s : base s -> rest (ext s) = rest s ++ suf.
  Proof.
    intros H. unfold rest, d_rest. cbn [s_dev ext set_dev d_data d_pos]. apply dropN_app_l. apply H.
  Qed.
  Lemma ext_rinv s : base s -> rinv (ext s).
  Proof.
    intros [[[H1 H2 H3 H4] Hl Hd He] Hg Hb Hp]. constructor; auto.
    - unfold ext. scbn. cbn [s_dev set_dev d_data]. now apply bytes_ok_app.
    - unfold ext. cbn [s_dev set_dev d_data]. rewrite lenN_app. lia.
  Qed.
  Lemma ext_adv n s : ext (adv n s) = adv n (ext s).
  Proof. apply stream_eq; reflexivity. Qed.
  Lemma ext_settled s : ext (settled s) = settled (ext s).
  Proof. apply stream_eq; reflexivity. Qed.
  Lemma ext_after hd h s : ext (after hd h s) = after hd h (ext s).
  Proof. destruct hd as [t []| | | |]; apply stream_eq; reflexivity. Qed.

  Lemma impl_ext sp s e s' : base s -> next_element_impl sp s = (ROk e, s') ->
    base s' /\ next_element_impl sp (ext s) = (ROk e, ext s') /\
    ((s_eof s = true /\ e = ElEndOfDoc /\ s' = s) \/
     (s_eof s = false /\ whole s /\ exists hd h s1 p, e = elem_of hd p (s_depth s) /\ s' = after hd h s1 /\
       s_commit s1 = None /\ rinv s1 /\ s_depth s1 = s_depth s /\ s_pos s1 + lenN h + hdr_payload hd <= U64_MAX)).
  Proof.
    intros Hb H. destruct (s_eof s) eqn:Eeof.
    { unfold next_element_impl in *. change (s_eof (ext s)) with (s_eof s). rewrite Eeof in *. injection H as <- <-.
      split; [exact Hb|]. split; [reflexivity|]. left. auto. }
    pose proof (impl_seq sp s e s' (bs_q _ Hb) H) as (Hq' & _).
    pose proof Hb as [[Hi Hl Hd He] Hg Hlen Hpos].
    apply impl_outcome in H; auto; [|lia].
    destruct H as [[Hp [(np & hd & h & tl & Hr & Henc & Hnp & Hpad & Hpz & -> & ->)|
                        (np & Hg' & _)]]|(Hp & Hsk & Hg' & _)].
    2: { change (s_graceful (settled s)) with (s_graceful s) in Hg'. congruence. }
    2: congruence.
    set (s1 := adv (N.of_nat np) (settled s)) in *.
    assert (Hrs : rest (settled s) = dropN (pend s) (rest s)) by (apply rest_adv).
    change (s_depth (settled s)) with (s_depth s) in *. change (s_pos (settled s)) with (s_pos s + pend s) in *.
    assert (Hdp : d_pos (s_dev s1) + lenN h <= lenN (d_data (s_dev s1))).
    { assert (Hrep : lenN (repeat 192 np) = N.of_nat np) by (unfold lenN; now rewrite repeat_length).
      assert (Hl1 : lenN (rest (settled s)) = N.of_nat np + lenN h + lenN tl) by (rewrite Hr, !lenN_app, Hrep; lia).
      pose proof (hdr_enc_len _ _ Henc). rewrite rest_len in Hl1.
      change (d_pos (s_dev s1)) with (d_pos (s_dev s) + pend s + N.of_nat np).
      change (d_data (s_dev s1)) with (d_data (s_dev s)).
      change (d_pos (s_dev (settled s))) with (d_pos (s_dev s) + pend s) in Hl1.
      change (d_data (s_dev (settled s))) with (d_data (s_dev s)) in Hl1. lia. }
    split; [|split].
    - constructor; [exact Hq'|now rewrite after_graceful| |].
      + rewrite after_data. exact Hlen.
      + rewrite after_data. replace (d_pos (s_dev (after hd h s1))) with (d_pos (s_dev s1) + lenN h)
          by (destruct hd as [t []| | | |]; reflexivity). exact Hdp.
    - rewrite ext_after. unfold s1. rewrite ext_adv, ext_settled.
      rewrite (impl_complete sp (ext s) hd h (tl ++ suf) np); auto.
      + now apply ext_rinv.
      + rewrite ext_rest by exact Hb. rewrite lenN_app. change (pend (ext s)) with (pend s). lia.
      + rewrite ext_rest by exact Hb. change (pend (ext s)) with (pend s).
        rewrite dropN_app_l by exact Hp. rewrite <- Hrs, Hr, <- !app_assoc. reflexivity.
      + change (s_depth (ext s)) with (s_depth s). unfold depth_fits, field_depth.
        destruct hd as [t []| | | |]; try exact I; lia.
    - right. split; [reflexivity|]. split; [exact Hp|]. eexists hd, h, s1, _.
      split; [reflexivity|]. split; [reflexivity|]. split; [reflexivity|].
      split; [apply rinv_adv, rinv_settled, Hi|]. split; [reflexivity|]. exact Hpz.
  Qed.

  (** A truncated blob in hand. *)
  Definition doomed (s : stream) (c : option field) : Prop :=
    base s /\ s_eof s = false /\ lenN (rest s) < pend s /\ in_blob s /\
    match c with Some (mkField _ _ _ (HBlob _)) => True | _ => False end.
  Definition hand_ok (s : stream) (c : option field) : Prop :=
    match c with Some (mkField _ _ _ (HBlob _)) => s_commit s = Some CSkipBlob /\ in_blob s | _ => True end.
  Definition RSx (s1 : stream) (c1 : option field) (s2 : stream) (c2 : option field) : Prop :=
    s2 = ext s1 /\ c1 = c2 /\ base s1 /\ whole s1 /\ hand_ok s1 c1.

  Ltac rsx := split; [reflexivity|]; split; [reflexivity|]; split; [auto; fail|]; split; [auto; fail|]; auto.
  Lemma doomed_impl sp s c : doomed s c -> forall e s', next_element_impl sp s <> (ROk e, s').
  Proof.
    intros (Hb & He & Hp & _) e s' H. destruct (impl_ext sp s e s' Hb H) as (_ & _ & [(H1 & _)|(_ & H1 & _)]); [congruence|].
    unfold whole in H1. lia.
  Qed.

  Lemma next_ext s a t : base s -> whole s -> next_field s = (ROk a, t) ->
    doomed t a \/ (next_field (ext s) = (ROk a, ext t) /\ RSx t a (ext t) a).
  Proof.
    intros Hb Hw H. unfold next_field in *.
    apply mbind_inv_ok in H. destruct H as (e & s1 & H1 & H).
    destruct (impl_ext true s e s1 Hb H1) as (Hb1 & H2 & H3).
    rewrite (mbind_ok _ _ _ _ _ H2).
    destruct H3 as [(He & -> & ->)|(He & _ & hd & h & s0 & p & -> & Es1 & Hc & Hi0 & Hd0 & Hpz)].
    { injection H as <- <-. right. split; [reflexivity|]. rsx; exact I. }
    pose proof (after_pend hd h s0 Hc) as Hpe. rewrite <- Es1 in Hpe.
    assert (Hwh : hdr_payload hd = 0 -> whole s1) by (unfold whole; rewrite Hpe; intros ->; lia).
    destruct hd as [t0 v| | |len|]; cbn [elem_of] in H |- *.
    - injection H as <- <-. destruct v as [n|l| |d]; try (right; split; [reflexivity|]; rsx; exact I).
      assert (Hib : in_blob s1) by (rewrite Es1; apply after_in_blob; auto; apply Hi0).
      destruct (N.ltb_spec (lenN (rest s1)) l) as [Hlt|Hge].
      + left. split; [exact Hb1|]. split; [|split; [now rewrite Hpe|split; [exact Hib|exact I]]].
        destruct (s_eof s1) eqn:Ee; [|reflexivity].
        pose proof (sq_eof _ (bs_q _ Hb1) Ee) as Hz. rewrite Es1, after_depth in Hz. cbn in Hz. unfold field_depth in Hz. lia.
      + right. split; [reflexivity|]. split; [reflexivity|]. split; [reflexivity|]. split; [exact Hb1|].
        split; [unfold whole; rewrite Hpe; exact Hge|]. cbn. split; [rewrite Es1; reflexivity|exact Hib].
    - injection H as <- <-. right. split; [reflexivity|]. rsx; exact I.
    - injection H as <- <-. right. split; [reflexivity|]. rsx; exact I.
    - exfalso. apply mbind_inv_ok in H. destruct H as (m & s2 & _ & H). discriminate.
    - discriminate.
  Qed.

  Lemma skip_up_ext D s x t : base s -> whole s -> skip_up D s = (ROk x, t) ->
    skip_up D (ext s) = (ROk x, ext t) /\ base t /\ whole t.
  Proof.
    intros Hb Hw H.
    pose proof (mloop_rel (E := serr) (fun _ : unit =>
           let* s := mget in if D <? s_depth s then next_element ;; mret (inl tt) else mret (inr tt))
       (fun _ : unit =>
           let* s := mget in if D <? s_depth s then next_element ;; mret (inl tt) else mret (inr tt))
       (fun _ s1 s2 => s2 = ext s1 /\ base s1 /\ (whole s1 \/ D < s_depth s1))
       (fun (_ : unit) s1 s2 => s2 = ext s1 /\ base s1 /\ whole s1)) as HL.
    specialize (HL) with (a := tt) (s1 := s) (s2 := ext s).
    change (mloop _ tt s) with (skip_up D s) in HL. rewrite H in HL.
    destruct HL as (t2 & H2 & -> & Hb2 & Hw2).
    - intros _ s1 s2 (-> & Hb1 & Hw1). unfold mbind, mget. change (s_depth (ext s1)) with (s_depth s1).
      destruct (N.ltb_spec D (s_depth s1)) as [Hlt|Hge].
      + destruct (next_element s1) as [[e|e| |] s2] eqn:En; try exact I.
        destruct (impl_ext false s1 e s2 Hb1 En) as (Hb2 & H2 & H3).
        unfold next_element in H2 |- *. rewrite H2. eexists. split; [reflexivity|]. split; [reflexivity|]. split; [exact Hb2|].
        destruct H3 as [(_ & -> & ->)|(_ & _ & hd & h & s0 & p & -> & -> & Hc & Hi0 & Hd0 & _)]; [exact Hw1|].
        pose proof (after_pend hd h s0 Hc) as Hpe. rewrite after_depth, Hd0.
        destruct hd as [t0 v| | |len|]; try (left; unfold whole; rewrite Hpe; cbn; lia).
        * right. cbn [depth_after]. unfold field_depth. destruct v; lia.
        * right. cbn [depth_after]. lia.
      + eexists. split; [reflexivity|]. split; [reflexivity|]. split; [exact Hb1|]. destruct Hw1 as [Hw1|Hw1]; [exact Hw1|lia].
    - auto.
    - split; [exact H2|auto].
  Qed.

  Lemma base_adv s n : base s -> n <= lenN (rest s) -> base (adv n s).
  Proof.
    intros [[Hi Hl Hd He] Hg Hlen Hpos] Hn.
    assert (Hu : lenN (unread (adv n s)) = lenN (unread s) - n).
    { change (lenN (rest (adv n s)) = lenN (unread s) - n). rewrite rest_adv, lenN_dropN. reflexivity. }
    rewrite rest_len in Hn.
    constructor; [|exact Hg|exact Hlen|].
    - constructor; [now apply rinv_adv|exact Hl| |exact He]. rewrite Hu.
      change (s_depth (adv n s)) with (s_depth s). change (d_data (s_dev (adv n s))) with (d_data (s_dev s)). lia.
    - change (d_pos (s_dev (adv n s))) with (d_pos (s_dev s) + n).
      change (d_data (s_dev (adv n s))) with (d_data (s_dev s)). lia.
  Qed.
  Lemma blob_adv_ok s n : s_commit s = Some CSkipBlob -> in_blob s -> n <= pend s ->
    in_blob (adv n s) /\ pend (adv n s) = pend s - n /\ s_commit (adv n s) = Some CSkipBlob.
  Proof.
    intros Hc (H1 & H2 & H3) Hn. unfold pend in *. change (s_commit (adv n s)) with (s_commit s). rewrite Hc in *.
    change (s_blob_end (adv n s)) with (s_blob_end s). change (s_pos (adv n s)) with (s_pos s + n).
    split; [|split; [lia|reflexivity]]. split; [exact H1|]. change (s_blob_end (adv n s)) with (s_blob_end s).
    change (s_pos (adv n s)) with (s_pos s + n). lia.
  Qed.
  Lemma ext_in_blob s : in_blob s -> in_blob (ext s).
  Proof. auto. Qed.

  Lemma doomed_commit s c : doomed s c -> s_commit s = Some CSkipBlob.
  Proof.
    intros (_ & _ & Hp & _). unfold pend in Hp. destruct (s_commit s) as [[]|]; try reflexivity; lia.
  Qed.

  Lemma ext_run cf {A} (p : prog A) s1 : base s1 -> whole s1 ->
    orel (sim_rst RSx) (err_rel eq) true (dm_rst doomed)
      (run stream_source cf p (top_rst s1)) (run stream_source cf p (top_rst (ext s1))).
  Proof.
    intros Hb0 Hw0. apply src_sim.
    - intros a ca b cb (-> & _). reflexivity.
    - intros a ca b cb (_ & -> & _). destruct cb; cbn; [|exact I]. repeat split.
    - intros s c s2 c2 (-> & <- & Hb & Hw & Hh). unfold srel. cbn [i_next stream_source].
      destruct (next_field s) as [[a|x| |] t] eqn:E; cbn [fst snd]; try exact I; [|now left].
      destruct (next_ext s a t Hb Hw E) as [H|[H1 H2]]; [now left|]. right. rewrite H1. exact H2.
    - intros s f s2 f2 (-> & Hf & Hb & Hw & Hh). injection Hf as <-. unfold srel. cbn [i_skip stream_source]. unfold field_skip.
      destruct f as [t0 p0 d0 v0]. cbn [f_val f_depth] in *.
      assert (Hleaf : srel true (fun (a : unit) t1 b t2 => RSx t1 (Some (mkField t0 p0 d0 v0)) t2 (Some (mkField t0 p0 d0 v0)))
          (fun _ t1 => doomed t1 (Some (mkField t0 p0 d0 v0))) (mret tt s) (mret tt (ext s))).
      { right. cbn [fst snd mret]. rsx. }
      assert (Hup : (forall l, v0 <> HBlob l) -> srel true (fun (a : unit) t1 b t2 => RSx t1 (Some (mkField t0 p0 d0 v0)) t2 (Some (mkField t0 p0 d0 v0)))
          (fun _ t1 => doomed t1 (Some (mkField t0 p0 d0 v0))) (skip_up d0 s) (skip_up d0 (ext s))).
      { intros Hnb. unfold srel. destruct (skip_up d0 s) as [[a|x| |] t] eqn:E; cbn [fst snd]; try exact I; [|now left].
        destruct (skip_up_ext d0 s a t Hb Hw E) as (H1 & H2 & H3). right. rewrite H1. cbn [fst snd].
        split; [reflexivity|]. split; [reflexivity|]. split; [exact H2|]. split; [exact H3|].
        destruct v0; try exact I. now destruct (Hnb len). }
      destruct v0; [exact Hleaf|exact Hleaf|apply Hup; discriminate|apply Hup; discriminate].
    - (* remaining *)
      intros s c s2 c2 (-> & <- & Hb & Hw & Hh) Hc1 _. destruct c as [[t0 p0 d0 v0]|]; [|contradiction].
      destruct v0; try contradiction. destruct Hh as [Hc Hib]. unfold srel. cbn [i_remaining stream_source].
      rewrite !b_remaining_ok by apply Hib. cbn [fst snd]. right. split; [reflexivity|]. rsx. split; assumption.
    - intros s c s2 c2 (-> & <- & Hb & Hw & Hh) Hc1 _. destruct c as [[t0 p0 d0 v0]|]; [|contradiction].
      destruct v0; try contradiction. destruct Hh as [Hc Hib]. unfold srel. cbn [i_read_fully stream_source].
      rewrite !b_read_fully_ok by (try apply ext_in_blob; exact Hib).
      change (s_blob_end (ext s)) with (s_blob_end s). change (s_pos (ext s)) with (s_pos s).
      assert (Hpe : pend s = s_blob_end s - s_pos s) by (unfold pend; now rewrite Hc). rewrite <- Hpe.
      destruct (cf_blob cf <? pend s); cbn [fst snd]; [now left|]. right. unfold whole in Hw.
      rewrite ext_rest by exact Hb. rewrite takeN_app_l by exact Hw. rewrite lenN_app. rewrite !N.min_l by lia.
      split; [reflexivity|]. split; [apply eq_sym, ext_adv|]. split; [reflexivity|].
      destruct (blob_adv_ok s (pend s) Hc Hib ltac:(lia)) as (B1 & B2 & B3).
      split; [apply base_adv; auto|]. split; [unfold whole; rewrite B2; lia|]. split; [exact B3|exact B1].
    - intros n s c s2 c2 (-> & <- & Hb & Hw & Hh) Hc1 _. destruct c as [[t0 p0 d0 v0]|]; [|contradiction].
      destruct v0; try contradiction. destruct Hh as [Hc Hib]. unfold srel. cbn [i_read_exact stream_source]. unfold lift_io.
      rewrite !b_read_exact_ok by (try apply ext_in_blob; exact Hib).
      change (s_blob_end (ext s)) with (s_blob_end s). change (s_pos (ext s)) with (s_pos s).
      assert (Hpe : pend s = s_blob_end s - s_pos s) by (unfold pend; now rewrite Hc). rewrite <- Hpe.
      unfold whole in Hw. rewrite ext_rest by exact Hb. rewrite lenN_app.
      destruct (N.ltb_spec (N.min n (N.min (pend s) (lenN (rest s)))) n) as [Hlt|Hge]; cbn [fst snd]; [now left|]. right.
      destruct (N.ltb_spec (N.min n (N.min (pend s) (lenN (rest s) + lenN suf))) n) as [Hlt2|Hge2]; [lia|]. cbn [fst snd].
      rewrite takeN_app_l by lia. split; [reflexivity|]. split; [apply eq_sym, ext_adv|]. split; [reflexivity|].
      destruct (blob_adv_ok s n Hc Hib ltac:(lia)) as (B1 & B2 & B3).
      split; [apply base_adv; auto; lia|]. split; [|split; [exact B3|exact B1]].
      unfold whole. rewrite B2. change (rest (adv n s)) with (rest (adv n s)). rewrite rest_adv, lenN_dropN. lia.
    - intros s c s2 c2 (-> & <- & Hb & Hw & Hh) Hc1 _. destruct c as [[t0 p0 d0 v0]|]; [|contradiction].
      destruct v0; try contradiction. pose proof Hh as [Hc Hib]. unfold srel. cbn [i_ext stream_source].
      assert (Hpe : pend s = s_blob_end s - s_pos s) by (unfold pend; now rewrite Hc). unfold whole in Hw.
      assert (Hex : forall s0, in_blob s0 -> d_pos (s_dev s0) <= lenN (d_data (s_dev s0)) ->
         s_blob_end s0 - s_pos s0 <= lenN (rest s0) ->
         b_ext_slice s0 = (ROk (takeN (s_blob_end s0 - s_pos s0) (rest s0)), s0)).
      { intros s0 Hib0 Hd0 Hr0. unfold b_ext_slice, as_slice. unfold mbind at 1.
        destruct (N.ltb_spec (lenN (d_data (s_dev s0))) (d_pos (s_dev s0))); [lia|].
        unfold mbind. rewrite b_remaining_ok by apply Hib0. change (d_rest (s_dev s0)) with (rest s0).
        destruct (N.ltb_spec (lenN (rest s0)) (s_blob_end s0 - s_pos s0)); [lia|]. reflexivity. }
      rewrite Hex; [|exact Hib|apply Hb|lia].
      rewrite Hex; [|exact Hib| |].
      + cbn [fst snd]. right. rewrite ext_rest by exact Hb.
        change (s_blob_end (ext s)) with (s_blob_end s). change (s_pos (ext s)) with (s_pos s).
        rewrite takeN_app_l by lia. split; [reflexivity|]. rsx.
      + cbn [ext set_dev s_dev d_pos d_data]. rewrite lenN_app. pose proof (bs_pos _ Hb). lia.
      + rewrite ext_rest by exact Hb. rewrite lenN_app.
        change (s_blob_end (ext s)) with (s_blob_end s). change (s_pos (ext s)) with (s_pos s). lia.
    - reflexivity.
    - intros s c Hd. cbn [i_next stream_source]. destruct (next_field s) as [[a|x| |] t] eqn:E; try exact I.
      unfold next_field in E. apply mbind_inv_ok in E. destruct E as (e & s' & E & _). now destruct (doomed_impl true s c Hd e s').
    - intros f s Hd. cbn [i_skip stream_source]. destruct f as [t0 p0 d0 v0]. pose proof Hd as (_ & _ & _ & _ & Hv).
      destruct v0; try contradiction. exact Hd.
    - intros c Hc1. destruct c as [[t0 p0 d0 v0]|]; [|contradiction]. destruct v0; try contradiction.
      assert (Hadv : forall s n, doomed s (Some (mkField t0 p0 d0 (HBlob len))) -> n <= lenN (rest s) ->
         doomed (adv n s) (Some (mkField t0 p0 d0 (HBlob len)))).
      { intros s n Hd Hn. pose proof (doomed_commit s _ Hd) as Hc. destruct Hd as (D1 & D2 & D3 & D4 & D5).
        destruct (blob_adv_ok s n Hc D4 ltac:(lia)) as (B1 & B2 & B3).
        split; [now apply base_adv|]. split; [exact D2|]. split; [|split; [exact B1|exact D5]].
        rewrite B2, rest_adv, lenN_dropN. lia. }
      split; [|split; [|split]].
      + intros s Hd. cbn [i_remaining stream_source]. rewrite b_remaining_ok by apply Hd. exact Hd.
      + intros s Hd. cbn [i_read_fully stream_source]. rewrite b_read_fully_ok by apply Hd.
        destruct (_ <? _); [exact I|]. apply Hadv; [exact Hd|lia].
      + intros n s Hd. cbn [i_read_exact stream_source]. unfold lift_io. rewrite b_read_exact_ok by apply Hd.
        destruct (N.ltb_spec (N.min n (N.min (s_blob_end s - s_pos s) (lenN (rest s)))) n); [exact I|].
        apply Hadv; [exact Hd|lia].
      + intros s Hd. cbn [i_ext stream_source]. unfold b_ext_slice, as_slice, mbind.
        destruct (lenN (d_data (s_dev s)) <? d_pos (s_dev s)); [exact I|]. rewrite b_remaining_ok by apply Hd.
        destruct (lenN (d_rest (s_dev s)) <? s_blob_end s - s_pos s); [exact I|]. exact Hd.
    - unfold sim_rst. cbn. split; [rsx; exact I|auto].
  Qed.
End Ext.

Section Trail.
  Variables (e : env) (zc : bool) (cf : cfg) (t : ty).
  Hypothesis He : env_ok e.
  Hypothesis Ht : deserialisable e zc t.
  Hypothesis Hc : cf_collect cf <= U64_MAX.
  Hypothesis Hb : cf_blob cf <= U64_MAX.

  Lemma run_ends_none s v st : seqinv s ->
    run stream_source cf (d_body (full_dict e (S (N.to_nat (cf_rec cf))) zc t)) (top_rst s) = (ROk v, st) ->
    x_cur st = None.
  Proof.
    intros Hq Hr.
    destruct (full_dict_good cf e zc t He Ht) as (_ & _ & Hbd).
    set (a := mkA 1 None 0 (lenN (unread s)) 0 0 0).
    assert (Hpre : pre cf 0 a).
    { unfold pre. cbn. pose proof (sq_len s Hq). pose proof (rest_len s). change (rest s) with (unread s) in *. lia. }
    pose proof (Hbd a 0%nat Hpre eq_refl) as Hw.
    pose proof (stream_sound cf (conj Hc Hb) _ _ a (top_rst s) Hw) as H.
    assert (Har : arel cf SO a (top_rst s)).
    { unfold arel, SO. cbn. split; [auto using N.le_refl|]. repeat split; lia. }
    specialize (H Har). rewrite Hr in H. destruct H as (a' & ((_ & _ & Hcu) & _) & _ & Hn & _).
    rewrite Hn in Hcu. destruct (x_cur st); [contradiction|reflexivity].
  Qed.

  Lemma trailing dbg sk bs suf v s1 : bytes_ok bs -> bytes_ok suf -> lenN bs + lenN suf + 3 < U64_MAX ->
    from_stream e zc cf t (new_stream dbg sk (mkDev bs 0 [])) = (ROk v, s1) ->
    exists s2, from_stream e zc cf t (new_stream dbg sk (mkDev (bs ++ suf) 0 [])) = (ROk v, s2) /\
      s_pos s2 = s_pos s1 /\ unread s2 = unread s1 ++ suf.
  Proof.
    intros Hbs Hsuf Hl H. set (s := new_stream dbg sk (mkDev bs 0 [])) in *.
    assert (Hq : seqinv s) by (apply (fresh_seqinv dbg sk false bs Hbs); lia).
    assert (Hbase : base suf s) by (constructor; [exact Hq|reflexivity|exact Hl|cbn; lia]).
    assert (Hwh : whole s) by (unfold whole, pend; cbn; lia).
    change (new_stream dbg sk (mkDev (bs ++ suf) 0 [])) with (ext suf s).
    unfold from_stream in *. set (p := d_body _) in *.
    destruct (run stream_source cf p (top_rst s)) as [r st] eqn:E. injection H as -> <-.
    pose proof (ext_run suf Hsuf cf p s Hbase Hwh) as HR. rewrite E in HR.
    pose proof (run_ends_none s v st Hq E) as Hn.
    destruct HR as [HR|[HR|HR]].
    - contradiction.
    - cbn [fst snd] in HR. unfold dm_rst in HR. rewrite Hn in HR. destruct HR as (_ & _ & _ & _ & HR). contradiction.
    - cbn [fst snd] in HR. destruct (run stream_source cf p (top_rst (ext suf s))) as [[w|x| |] st2]; try contradiction.
      destruct HR as [<- ((Hx & _ & Hb1 & _) & _)]. cbn [fst snd] in *. exists (x_s st2). split; [reflexivity|]. rewrite Hx.
      split; [reflexivity|]. exact (ext_rest suf _ Hb1).
  Qed.
End Trail.
