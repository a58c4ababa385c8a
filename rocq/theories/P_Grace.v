(** * P_Grace: a graceful end of the input stands for an end of document *)

From Verif Require Import Base Wire Dev Stream SpecWire SpecFormat SpecStream Types Ser Prog De SpecDe SpecDoc SpecSerDe Tree
  P_Base P_Wire P_Sched P_Read P_Write P_Blob P_Stream P_Canon P_Field P_Skip P_Prog P_Wp P_Types P_Dict P_DictAll P_DeStream P_DeExt P_El P_Tree P_TreeRun P_Same.
Strategy 1000 [s_decode_u64 decode_u64 decode_loop write_all read_exact encode_u64 enc_loop encode_fixed_u64 mloop miter].

(** ** The end of the input, gracefully *)
Definition closed (n : N) (s : stream) : stream := set_depth_ 0 (set_eof_ true (adv n (settled s))).
Lemma impl_grace sp s np : rinv s -> s_eof s = false -> s_graceful s = true -> pend s <= lenN (rest s) ->
  dropN (pend s) (rest s) = repeat 0xC0 np -> (sp = false -> np = 0%nat) -> s_pos s + pend s + N.of_nat np < U64_MAX ->
  next_element_impl sp s = (ROk ElEndOfDoc, closed (N.of_nat np) s).
Proof.
  intros Hi He Hg Hpend Hr Hsp Hp. unfold next_element_impl. rewrite He.
  rewrite (mbind_ok _ _ _ _ _ (commit_complete s Hi Hpend)).
  assert (Hgen : forall np s1, sch s1 = [] -> s_graceful s1 = true -> rest s1 = repeat 0xC0 np ->
     (sp = false -> np = 0%nat) -> s_pos s1 + N.of_nat np < U64_MAX ->
     mloop_nat (S np) (next_element_step sp) tt s1 = (ROk ElEndOfDoc, set_depth_ 0 (set_eof_ true (adv (N.of_nat np) s1)))).
  { clear. induction np as [|np IH]; intros s1 Hs Hg Hr Hsp Hp.
    - rewrite mloop_nat_S.
      assert (E : next_element_step sp tt s1 = (ROk (inr ElEndOfDoc), set_depth_ 0 (set_eof_ true s1))).
      { unfold next_element_step. unfold mbind at 1, mget.
        unfold mbind at 1. rewrite s_read_byte_eq by exact Hs. unfold rb_spec. rewrite Hr. cbn [repeat].
        destruct (N.ltb_spec (U64_MAX - s_pos s1) 1); [lia|]. rewrite Hg. reflexivity. }
      rewrite (mbind_ok _ _ _ _ _ E). cbv beta iota. change (N.of_nat 0) with 0. now rewrite adv_0.
    - destruct sp; [|discriminate (Hsp eq_refl)]. rewrite mloop_nat_S. cbn [repeat] in Hr. change (192 :: repeat 192 np) with ([192] ++ repeat 192 np) in Hr.
      rewrite (mbind_ok _ _ _ _ _ (step_complete true tt s1 HdPad [192] _ Hs Hr EncPad
                 ltac:(cbn [hdr_payload]; change (lenN [192]) with 1; lia) Logic.I)).
      assert (Ha : after HdPad [192] s1 = adv 1 s1).
      { unfold after, depth_after. change (lenN [192]) with 1.
        change (s_depth s1) with (s_depth (adv 1 s1)). apply set_depth_same. }
      rewrite Ha. cbv beta iota. rewrite IH.
      + rewrite adv_adv. repeat f_equal. lia.
      + exact Hs.
      + exact Hg.
      + rewrite rest_adv, Hr. cbn [app]. now rewrite dropN_S_cons, dropN_0 by lia.
      + discriminate.
      + change (s_pos (adv 1 s1)) with (s_pos s1 + 1). lia. }
  eapply mloop_of_nat with (n := S np); [unfold U64_MAX, U64_MOD in *; lia| |discriminate].
  unfold closed. apply Hgen; auto.
  - apply Hi.
  - unfold settled. change (rest (set_commit None (adv (pend s) s))) with (rest (adv (pend s) s)). now rewrite rest_adv.
Qed.

(** ** Streams that end gracefully do what the elements they hold, followed
    by an end of document, do *)
Definition any_pos (a b : N) : Prop := false = true -> a = b.
Definition DE : N * delem := (0, DEof).
Record readyg (q : els) (s : stream) (es : list (N * delem)) (bs : bytes) : Prop := mkReadyG {
  rg_seq : seqinv s;
  rg_g : s_graceful s = true;
  rg_dbg : q_dbg q = s_dbg s;
  rg_eof : q_eof q = s_eof s;
  rg_depth : q_depth q = s_depth s;
  rg_pos : s_pos s + lenN (unread s) < U64_MAX;
  rg_pend : pend s <= lenN (unread s);
  rg_dev : d_pos (s_dev s) <= lenN (d_data (s_dev s));
  rg_es : s_eof s = false -> q_es q = es ++ [DE];
  rg_enc : enc_at false true (s_pos s + pend s) es bs;
  rg_unread : dropN (pend s) (unread s) = bs;
  rg_eofp : s_eof s = true -> pend s = 0
}.
Definition RG (q : els) (c1 : option field) (s : stream) (c2 : option field) : Prop :=
  (exists es bs, readyg q s es bs) /\ same_cur false c1 c2 /\ blob_hand q c2 s.

Lemma readyg_len q s es bs : readyg q s es bs -> lenN (unread s) = pend s + lenN bs.
Proof.
  intros H. rewrite <- (takeN_dropN (pend s) (unread s)), lenN_app, (rg_unread _ _ _ _ H), lenN_takeN.
  pose proof (rg_pend _ _ _ _ H). lia.
Qed.
Lemma readyg_depth q s es bs : readyg q s es bs -> s_depth s + 1 < U64_MAX.
Proof.
  intros H. pose proof (sq_len _ (rg_seq _ _ _ _ H)). pose proof (sq_depth _ (rg_seq _ _ _ _ H)). lia.
Qed.

(** One element. *)
Lemma g_step sp q s np h e r bs' : readyg q s ((0, e) :: r) (repeat 0xC0 np ++ h ++ payload e ++ bs') -> s_eof s = false ->
  hdr_enc (hdr_of e) h -> e <> DPad -> (sp = false -> np = 0%nat) ->
  enc_at false true (s_pos s + pend s + N.of_nat np + lenN h + lenN (payload e)) r bs' ->
  exists s', next_element_impl sp s = (ROk (elem_of (hdr_of e) (s_pos s + pend s + N.of_nat np) (s_depth s)), s') /\
    readyg (el_past e (r ++ [DE]) q) s' r bs' /\
    takeN (pend s') (unread s') = payload e /\
    (is_blobby (hdr_of e) = true -> s_commit s' = Some CSkipBlob /\ in_blob s').
Proof.
  intros Hrd He Hh Hne Hsp Hr. pose proof (readyg_len _ _ _ _ Hrd) as Hlen. pose proof (readyg_depth _ _ _ _ Hrd) as Hd1.
  destruct Hrd as [Hq Hg Hdb Heo Hdp Hps Hpd Hdv _ _ Hu Hep].
  set (hd := hdr_of e) in *. set (s' := after hd h (adv (N.of_nat np) (settled s))).
  rewrite !lenN_app, lenN_repeat in Hlen.
  assert (Hpl : hdr_payload hd = lenN (payload e)) by apply payload_hdr.
  assert (Hn : next_element_impl sp s = (ROk (elem_of hd (s_pos s + pend s + N.of_nat np) (s_depth s)), s')).
  { apply impl_complete with (tl := payload e ++ bs'); auto.
    - apply Hq.
    - intros _. unfold hd. destruct e as [t []| | | |]; cbn; try discriminate. congruence.
    - lia.
    - unfold depth_fits, field_depth. destruct hd as [t []| | | |]; try exact Logic.I; lia. }
  exists s'. split; [exact Hn|].
  destruct (positioned_after s np hd h (payload e) bs') as (_ & _ & Hp1 & Hu1 & Hp2 & Hi'); auto.
  { split; [apply Hq|]. split; [exact He|]. split; [exact Hpd|exact Hu]. }
  { lia. }
  fold s' in Hp1, Hu1, Hp2, Hi'.
  destruct (impl_seq sp s _ s' Hq Hn) as (Hq' & _).
  split; [|split].
  - unfold el_past. constructor; cbn [q_es q_end q_eof q_depth q_blob q_dbg].
    + exact Hq'.
    + unfold s'. now rewrite after_graceful.
    + unfold s'. now rewrite after_dbg.
    + unfold s'. rewrite after_eof. change (s_eof (adv (N.of_nat np) (settled s))) with (s_eof s). rewrite He.
      unfold hd. destruct e as [t []| | | |]; reflexivity.
    + unfold s'. rewrite after_depth. change (s_depth (adv (N.of_nat np) (settled s))) with (s_depth s). now rewrite Hdp.
    + rewrite Hu1, lenN_app. lia.
    + rewrite Hp2, Hu1, lenN_app. lia.
    + unfold s'. rewrite after_data.
      replace (d_pos (s_dev (after hd h (adv (N.of_nat np) (settled s))))) with (d_pos (s_dev s) + pend s + N.of_nat np + lenN h)
        by (destruct hd as [t []| | | |]; reflexivity).
      change (d_data (s_dev (adv (N.of_nat np) (settled s)))) with (d_data (s_dev s)).
      pose proof (rest_len s) as Hrl. change (rest s) with (unread s) in Hrl. lia.
    + intros _. reflexivity.
    + rewrite Hp1. exact Hr.
    + rewrite Hp2, Hu1. apply dropN_app_exact.
    + intros He'. unfold s' in He'. rewrite after_eof in He'. change (s_eof (adv (N.of_nat np) (settled s))) with (s_eof s) in He'. rewrite He in He'.
      rewrite Hp2. unfold hd in He'. destruct e as [t []| | | |]; try discriminate He'. reflexivity.
  - rewrite Hp2, Hu1. apply takeN_app_exact.
  - intros Hb. split.
    + unfold s'. unfold hd in *. destruct e as [t []| | | |]; try discriminate; reflexivity.
    + unfold s'. apply after_in_blob; [apply Hq|exact Hb|]. change (s_pos (adv (N.of_nat np) (settled s))) with (s_pos s + pend s + N.of_nat np). lia.
Qed.
(** The end. *)
Lemma g_end sp q s np : readyg q s [] (repeat 0xC0 np) -> s_eof s = false -> (sp = false -> np = 0%nat) ->
  exists s', next_element_impl sp s = (ROk ElEndOfDoc, s') /\ readyg (el_past DEof [] q) s' [] [] /\ pend s' = 0.
Proof.
  intros Hrd He Hsp. pose proof (readyg_len _ _ _ _ Hrd) as Hlen.
  destruct Hrd as [Hq Hg Hdb Heo Hdp Hps Hpd Hdv _ _ Hu Hep]. rewrite lenN_repeat in Hlen.
  assert (Hn : next_element_impl sp s = (ROk ElEndOfDoc, closed (N.of_nat np) s)) by (apply impl_grace; auto; [apply Hq|lia]).
  exists (closed (N.of_nat np) s). split; [exact Hn|].
  destruct (impl_seq sp s _ _ Hq Hn) as (Hq' & _).
  assert (Hu1 : unread (closed (N.of_nat np) s) = []).
  { change (unread (closed (N.of_nat np) s)) with (rest (adv (N.of_nat np) (adv (pend s) s))). rewrite !rest_adv. change (rest s) with (unread s). rewrite Hu.
    apply dropN_all. rewrite lenN_repeat. lia. }
  assert (Hp : pend (closed (N.of_nat np) s) = 0) by reflexivity.
  split; [|exact Hp]. unfold el_past. constructor; cbn [q_es q_end q_eof q_depth q_blob q_dbg]; auto.
  - rewrite Hu1. change (s_pos (closed (N.of_nat np) s)) with (s_pos s + pend s + N.of_nat np). change (lenN (@nil N)) with 0. lia.
  - rewrite Hp. lia.
  - change (d_pos (s_dev (closed (N.of_nat np) s))) with (d_pos (s_dev s) + pend s + N.of_nat np).
    change (d_data (s_dev (closed (N.of_nat np) s))) with (d_data (s_dev s)).
    pose proof (rest_len s) as Hrl. change (rest s) with (unread s) in Hrl. lia.
  - discriminate.
  - constructor.
  - rewrite Hp, Hu1. reflexivity.
Qed.
Lemma g_pad q s es bs : readyg q s es (0xC0 :: bs) -> s_eof s = false ->
  enc_at false true (s_pos s + pend s + 1) es bs ->
  exists s', next_element s = (ROk ElPadding, s') /\ readyg q s' es bs.
Proof.
  intros Hrd He Hr. pose proof (readyg_len _ _ _ _ Hrd) as Hlen. destruct Hrd as [Hq Hg Hdb Heo Hdp Hps Hpd Hdv Hes _ Hu Hep].
  set (s' := after HdPad [0xC0] (settled s)).
  rewrite lenN_cons in Hlen.
  assert (Hn : next_element s = (ROk ElPadding, s')).
  { unfold s'. rewrite (next_element_complete s HdPad [0xC0] bs); auto.
    - apply Hq.
    - constructor.
    - cbn [hdr_payload]. change (lenN [192]) with 1. lia.
    - exact Logic.I. }
  exists s'. split; [exact Hn|].
  destruct (impl_seq false s _ s' Hq Hn) as (Hq' & _).
  assert (Hu1 : unread s' = bs).
  { unfold s'. rewrite after_unread. change (rest (settled s)) with (rest (adv (pend s) s)). rewrite rest_adv.
    change (rest s) with (unread s). rewrite Hu. change (lenN [192]) with 1. now rewrite dropN_S_cons, dropN_0 by lia. }
  assert (Hp2 : pend s' = 0) by (unfold s'; rewrite after_pend; reflexivity).
  assert (Hp1 : s_pos s' = s_pos s + pend s + 1) by (unfold s'; rewrite after_pos; reflexivity).
  constructor; auto.
  - rewrite Hp1, Hu1. lia.
  - rewrite Hp2. lia.
  - change (d_pos (s_dev s')) with (d_pos (s_dev s) + pend s + 1). change (d_data (s_dev s')) with (d_data (s_dev s)).
    pose proof (rest_len s) as Hrl. change (rest s) with (unread s) in Hrl. lia.
  - rewrite Hp1, Hp2, N.add_0_r. exact Hr.
  - now rewrite Hp2, Hu1, dropN_0.
Qed.
Lemma off0 es bs p : forall o e, enc_at false true p ((o, e) :: es) bs -> enc_at false true p ((0, e) :: es) bs.
Proof.
  intros o e H. remember ((o, e) :: es) as l eqn:E. revert E. induction H as [p|p l bs Hw H IH|p o' e' es' b bs Ho Hp Hx H IH]; intros E.
  - discriminate.
  - apply EaPad; [now left|auto].
  - injection E as -> -> ->. now apply EaCons.
Qed.

Lemma g_next q c1 s c2 : RG q c1 s c2 ->
  srel false (fun a t1 b t2 => RG t1 a t2 b) (fun _ _ => False) (el_next q) (next_field s).
Proof.
  intros ((es & bs & Hrd) & _ & _). pose proof Hrd as [Hq Hg Hdb Heo Hdp Hps Hpd Hdv Hes Henc Hu Hep].
  unfold el_next, srel. rewrite Heo. destruct (s_eof s) eqn:He.
  { unfold next_field, mbind, next_element_impl. rewrite He. cbn [fst snd mret]. right. split; [exists es, bs; exact Hrd|]. split; [exact Logic.I|exact (Hep eq_refl)]. }
  rewrite (Hes eq_refl). destruct es as [|[o e] r].
  - cbn [app DE]. apply enc_at_nil in Henc. destruct Henc as (np & -> & _).
    destruct (g_end true q s np Hrd He ltac:(discriminate)) as (s' & Hn & Hrd' & Hp).
    unfold next_field. rewrite (mbind_ok _ _ _ _ _ Hn). cbv beta. cbn [hdr_of fst snd mret]. right.
    split; [exists [], []; exact Hrd'|]. split; [exact Logic.I|exact Hp].
  - cbn [app]. apply off0 in Henc.
    assert (Hrd0 : readyg (mkEls (((0, e) :: r) ++ [DE]) (q_end q) (q_eof q) (q_depth q) (q_blob q) (q_dbg q)) s ((0, e) :: r) bs)
      by (constructor; auto; cbn [q_eof]; congruence).
    apply enc_at_cons in Henc. destruct Henc as (np & h & bs' & -> & Hh & Hne & _ & Hr).
    destruct (g_step true _ s np h e r bs' Hrd0 He) as (s' & Hn & Hrd' & Htk & Hbl); auto; [discriminate|].
    unfold next_field. rewrite (mbind_ok _ _ _ _ _ Hn). cbv beta.
    unfold el_past in Hrd'. cbn [q_end q_depth q_dbg] in Hrd'.
    set (q' := mkEls (r ++ [DE]) (q_end q) _ _ _ _) in *.
    assert (Hrdy : exists es bs, readyg q' s' es bs) by (exists r, bs'; exact Hrd').
    destruct e as [t v| | |m|]; try congruence.
    + assert (Hf : same_field false (mkField t o (field_depth (q_depth q)) (vhdr_of (match hdr_of (DField t v) with HdField _ hv => hv | _ => HvStruct end)))
             (mkField t (s_pos s + pend s + N.of_nat np) (field_depth (s_depth s)) (vhdr_of (match hdr_of (DField t v) with HdField _ hv => hv | _ => HvStruct end)))).
      { split; [|cbn; now rewrite Hdp]. repeat split. intros X. discriminate X. }
      destruct v; cbn [hdr_of elem_of fst snd mret] in *; right; (split; [exact Hrdy|]); (split; [exact Hf|]); cbn; try exact Logic.I.
      destruct (Hbl eq_refl). auto.
    + cbn [hdr_of elem_of fst snd mret]. right. split; [exact Hrdy|]. split; [exact Logic.I|]. exact (take_nil _ _ (rg_pend _ _ _ _ Hrd') Htk).
    + cbn [hdr_of elem_of fst snd mret]. right. split; [exact Hrdy|]. split; [exact Logic.I|]. exact (take_nil _ _ (rg_pend _ _ _ _ Hrd') Htk).
    + cbn [hdr_of elem_of fst snd]. right. destruct (Hbl eq_refl) as [Hc Hib].
      rewrite (mbind_ok _ _ _ _ _ (b_read_or_trunc_ok _ 256 Hib)). cbn [fst mfail]. f_equal.
      assert (Hpe : pend s' = s_blob_end s' - s_pos s') by (unfold pend; now rewrite Hc).
      rewrite <- Hpe. pose proof (rg_pend _ _ _ _ Hrd') as Hpd'. change (rest s') with (unread s').
      rewrite (N.min_l (pend s')) by exact Hpd'. rewrite <- takeN_takeN, Htk. reflexivity.
Qed.

Notation sk_step D := (fun _ : unit =>
         let* s := mget in if D <? s_depth s then next_element ;; mret (inl tt) else mret (inr tt)).
Lemma g_skip_nat D : forall n q s es bs, (List.length bs <= n)%nat -> readyg q s es bs ->
  exists d eof es' s', drop_to D (q_depth q) (q_eof q) (q_es q) = Some (d, eof, es') /\
    mloop_nat (S (S n)) (sk_step D) tt s = (ROk tt, s') /\
    forall b, exists es bs, readyg (mkEls es' (q_end q) eof d b (q_dbg q)) s' es bs.
Proof.
  induction n as [n IH] using (well_founded_induction lt_wf). intros q s es bs Hn Hrd.
  pose proof Hrd as [Hq Hg Hdb Heo Hdp Hps Hpd Hdv Hes Henc Hu Hep].
  assert (Hstop : forall n q s es bs, readyg q s es bs -> q_depth q <= D ->
    exists d eof es' s', drop_to D (q_depth q) (q_eof q) (q_es q) = Some (d, eof, es') /\
    mloop_nat (S n) (sk_step D) tt s = (ROk tt, s') /\
    forall b, exists es bs, readyg (mkEls es' (q_end q) eof d b (q_dbg q)) s' es bs).
  { clear. intros n q s es bs Hrd Hle. pose proof Hrd as [Hq Hg Hdb Heo Hdp Hps Hpd Hdv Hes Henc Hu Hep].
    exists (q_depth q), (q_eof q), (q_es q), s. split; [|split].
    - destruct (q_es q) as [|[]]; cbn [drop_to]; now rewrite (proj2 (N.leb_le _ _) Hle).
    - rewrite mloop_nat_S. unfold mbind, mget. rewrite <- Hdp. destruct (N.ltb_spec D (q_depth q)); [lia|]. reflexivity.
    - intros b. exists es, bs. constructor; auto. }
  destruct (N.leb_spec (q_depth q) D) as [Hle|Hgt]; [now apply (Hstop (S n) q s es bs)|].
  assert (He : s_eof s = false).
  { destruct (s_eof s) eqn:E; [|reflexivity]. pose proof (sq_eof s Hq E). lia. }
  assert (Hunr : forall m x s1, next_element s = (ROk x, s1) -> mloop_nat (S m) (sk_step D) tt s = mloop_nat m (sk_step D) tt s1).
  { intros m x s1 Hx. rewrite mloop_nat_S. unfold mbind, mget. rewrite <- Hdp. destruct (N.ltb_spec D (q_depth q)); [|lia].
    rewrite Hx. reflexivity. }
  inversion Henc as [p E0 E1 E2|p es1 bs1 Hw Hr E0 E1 E2|p o e es1 b bs1 Ho Hne (h & Hh & Hok & ->) Hr E0 E1 E2].
  - (* end *)
    subst es. destruct (g_end false q s 0) as (s' & Hx & Hrd' & Hp); auto; [rewrite <- E2 in Hrd; exact Hrd|].
    rewrite (Hes He). cbn [app DE drop_to]. rewrite (proj2 (N.leb_gt _ _) Hgt).
    assert (Hx' : next_element s = (ROk ElEndOfDoc, s')) by exact Hx. rewrite (Hunr (S n) _ _ Hx').
    exact (Hstop n _ s' _ _ Hrd' (N.le_0_l D)).
  - (* padding *)
    subst. destruct (g_pad q s es bs1) as (s1 & Hx & Hrd1); auto; [now rewrite <- E2 in Hrd|].
    rewrite <- E2 in Hn. destruct n as [|n]; [cbn in Hn; lia|]. rewrite (Hunr (S (S n)) _ _ Hx).
    apply (IH n ltac:(lia) q s1 es bs1); auto. cbn in Hn. lia.
  - (* an element *)
    pose proof (hdr_enc_len _ _ Hh) as Hhl. rewrite <- E2 in Hn.
    assert (Hn1 : (1 + List.length bs1 <= n)%nat).
    { rewrite !app_length in Hn. unfold lenN in Hhl. lia. }
    destruct n as [|n]; [lia|].
    rewrite lenN_app, N.add_assoc in Hr.
    set (q0 := mkEls (((0, e) :: es1) ++ [DE]) (q_end q) (q_eof q) (q_depth q) (q_blob q) (q_dbg q)).
    assert (Hrd0 : readyg q0 s ((0, e) :: es1) (repeat 0xC0 0 ++ h ++ payload e ++ bs1)).
    { rewrite <- E1, <- E2, <- app_assoc in *. constructor; auto. apply (off0 _ _ _ o). exact Henc. }
    destruct (g_step false q0 s 0 h e es1 bs1 Hrd0) as (s1 & Hx & Hrd1 & Htk & Hbl); auto.
    { change (N.of_nat 0) with 0. now rewrite N.add_0_r. }
    assert (Hx' : next_element s = (ROk (elem_of (hdr_of e) (s_pos s + pend s + N.of_nat 0) (s_depth s)), s1)) by exact Hx.
    rewrite (Hunr (S (S n)) _ _ Hx'). rewrite (Hes He), <- E1. cbn [app drop_to]. rewrite (proj2 (N.leb_gt _ _) Hgt).
    rewrite Heo, He.
    replace (match e with DEof => true | _ => false end) with (q_eof (el_past e (es1 ++ [DE]) q0)) by reflexivity.
    exact (IH n ltac:(lia) (el_past e (es1 ++ [DE]) q0) s1 es1 bs1 ltac:(lia) Hrd1).
Qed.
Lemma g_skip q f1 s f2 : RG q (Some f1) s (Some f2) ->
  srel false (fun _ t1 _ t2 => RG t1 (Some f1) t2 (Some f2)) (fun _ _ => False) (el_skip f1 q) (field_skip f2 s).
Proof.
  intros HR. pose proof HR as ((es & bs & Hrd) & ((Ht & Hv & Hp) & Hd) & Hh). unfold el_skip, field_skip, srel. rewrite Hv.
  destruct (g_skip_nat (f_depth f2) (List.length bs) q s es bs (le_n _) Hrd) as (d & eof & es' & s' & H1 & H2 & H3).
  assert (Hbound : N.of_nat (S (S (List.length bs))) <= U64_MOD).
  { pose proof (readyg_len _ _ _ _ Hrd). pose proof (rg_pos _ _ _ _ Hrd). unfold lenN in *. unfold U64_MAX, U64_MOD in *. lia. }
  assert (H4 : skip_up (f_depth f2) s = (ROk tt, s')) by (unfold skip_up; apply mloop_of_nat with (n := S (S (List.length bs))); [lia|exact H2|discriminate]).
  destruct (f_val f2) eqn:Ev; cbn [fst snd mret]; try (right; exact HR);
    rewrite Hd, H1, H4; cbn [fst snd]; right; (split; [apply H3|]); (split; [apply HR|]);
    unfold blob_hand; destruct f2 as [t2 p2 d2 v2]; cbn in Ev; subst v2; exact Logic.I.
Qed.

Lemma g_adv q c1 s c2 n : RG q c1 s c2 -> blob_cur c2 -> n <= lenN (q_blob q) ->
  RG (q_set_blob (dropN n (q_blob q)) q) c1 (adv n s) c2.
Proof.
  intros ((es & bs & Hrd) & Hc & Hh) Hb Hn. destruct c2 as [[t0 p0 d0 v0]|]; [|contradiction]. destruct v0; try contradiction.
  destruct Hh as (Hco & Hib & Htk).
  assert (Hlb : lenN (q_blob q) = pend s).
  { rewrite <- Htk, lenN_takeN. pose proof (rg_pend _ _ _ _ Hrd). lia. }
  destruct (blob_adv_ok s n Hco Hib ltac:(lia)) as (B1 & B2 & B3).
  pose proof Hrd as [Hq Hg Hdb Heo Hdp Hps Hpd Hdv Hes Henc Hu Hep].
  assert (Hu' : unread (adv n s) = dropN n (unread s)) by apply rest_adv.
  split; [|split; [exact Hc|]].
  - exists es, bs. constructor; auto; cbn [q_es q_set_blob q_dbg q_eof q_depth q_end].
    + constructor.
      * destruct (sq_r _ Hq) as [R1 R2 R3 R4]. constructor; assumption.
      * exact (sq_len _ Hq).
      * pose proof (sq_depth _ Hq). rewrite Hu', lenN_dropN. change (s_depth (adv n s)) with (s_depth s).
        change (d_data (s_dev (adv n s))) with (d_data (s_dev s)). lia.
      * exact (sq_eof _ Hq).
    + change (s_pos (adv n s)) with (s_pos s + n). rewrite Hu', lenN_dropN. lia.
    + rewrite B2, Hu', lenN_dropN. lia.
    + pose proof (rest_len s) as Hrl. change (rest s) with (unread s) in Hrl.
      change (d_pos (s_dev (adv n s))) with (d_pos (s_dev s) + n). change (d_data (s_dev (adv n s))) with (d_data (s_dev s)). lia.
    + rewrite B2. change (s_pos (adv n s)) with (s_pos s + n). replace (s_pos s + n + (pend s - n)) with (s_pos s + pend s) by lia. exact Henc.
    + rewrite B2, Hu', dropN_dropN. replace (n + (pend s - n)) with (pend s) by lia. exact Hu.
    + intros He. change (s_eof (adv n s)) with (s_eof s) in He. specialize (Hep He). rewrite B2. lia.
  - unfold blob_hand. change (q_blob (q_set_blob (dropN n (q_blob q)) q)) with (dropN n (q_blob q)). split; [exact B3|]. split; [exact B1|]. rewrite B2, Hu'.
    rewrite <- Htk. rewrite <- (takeN_dropN (pend s) (unread s)) at 1.
    rewrite dropN_app_l by (rewrite lenN_takeN; lia). rewrite takeN_app_l by (rewrite lenN_dropN, lenN_takeN; lia).
    apply takeN_all. rewrite lenN_dropN, lenN_takeN. lia.
Qed.
Lemma g_blob q c1 s c2 : RG q c1 s c2 -> blob_cur c2 -> s_commit s = Some CSkipBlob /\ in_blob s /\
  s_blob_end s - s_pos s = lenN (q_blob q) /\ takeN (lenN (q_blob q)) (unread s) = q_blob q /\ lenN (q_blob q) <= lenN (unread s).
Proof.
  intros ((es & bs & Hrd) & Hc & Hh) Hb. destruct c2 as [[t0 p0 d0 v0]|]; [|contradiction]. destruct v0; try contradiction.
  destruct Hh as (Hco & Hib & Htk). pose proof (rg_pend _ _ _ _ Hrd).
  assert (Hlb : lenN (q_blob q) = pend s) by (rewrite <- Htk, lenN_takeN; lia).
  assert (Hpe : pend s = s_blob_end s - s_pos s) by (unfold pend; now rewrite Hco).
  rewrite <- Hpe, Hlb. auto.
Qed.

Theorem el_grace cf {A} (p : prog A) st1 st2 : sim_rst RG st1 st2 ->
  orel (sim_rst RG) (err_rel any_pos) false (dm_rst (fun _ _ => False))
    (run el_source cf p st1) (run stream_source cf p st2).
Proof.
  apply src_sim.
  - intros q c1 s c2 ((es & bs & H) & _). apply H.
  - intros q c1 s c2 (_ & H & _). destruct c1, c2; try exact H. apply H.
  - apply g_next.
  - apply g_skip.
  - intros q c1 s c2 HR _ Hb. destruct (g_blob _ _ _ _ HR Hb) as (Hc & Hib & Hr & Htk & Hle).
    unfold srel. cbn [i_remaining stream_source el_source el_remaining fst snd]. right. rewrite b_remaining_ok by apply Hib.
    cbn [fst snd]. rewrite Hr. auto.
  - intros q c1 s c2 HR _ Hb. destruct (g_blob _ _ _ _ HR Hb) as (Hc & Hib & Hr & Htk & Hle).
    unfold srel. cbn [i_read_fully stream_source el_source]. unfold el_read_fully. rewrite b_read_fully_ok by exact Hib. cbv zeta.
    rewrite Hr. destruct (cf_blob cf <? lenN (q_blob q)); cbn [fst snd]; right; [reflexivity|].
    change (rest s) with (unread s). rewrite Htk. split; [reflexivity|]. rewrite N.min_l by exact Hle.
    pose proof (g_adv q c1 s c2 (lenN (q_blob q)) HR Hb (N.le_refl _)) as H. rewrite dropN_all in H by lia. exact H.
  - intros n q c1 s c2 HR _ Hb. destruct (g_blob _ _ _ _ HR Hb) as (Hc & Hib & Hr & Htk & Hle).
    unfold srel. cbn [i_read_exact stream_source el_source]. unfold el_read_exact, lift_io. rewrite b_read_exact_ok by exact Hib. cbv zeta.
    rewrite Hr. change (rest s) with (unread s).
    destruct (N.ltb_spec (lenN (q_blob q)) n) as [Hlt|Hge]; cbn [fst snd]; right.
    + destruct (N.ltb_spec (N.min n (N.min (lenN (q_blob q)) (lenN (unread s)))) n); [reflexivity|lia].
    + destruct (N.ltb_spec (N.min n (N.min (lenN (q_blob q)) (lenN (unread s)))) n); [lia|]. cbn [fst snd].
      split; [|now apply g_adv]. rewrite <- Htk at 1. rewrite takeN_takeN. f_equal. lia.
  - intros q c1 s c2 HR _ Hb. destruct (g_blob _ _ _ _ HR Hb) as (Hc & Hib & Hr & Htk & Hle).
    unfold srel. cbn [i_ext stream_source el_source el_ext fst snd]. right.
    pose proof HR as ((es & bs & Hrd) & _). pose proof (rg_dev _ _ _ _ Hrd) as Hdv.
    assert (Hex : b_ext_slice s = (ROk (q_blob q), s)).
    { unfold b_ext_slice, as_slice. unfold mbind at 1.
      destruct (N.ltb_spec (lenN (d_data (s_dev s))) (d_pos (s_dev s))); [lia|].
      unfold mbind. rewrite b_remaining_ok by apply Hib. change (d_rest (s_dev s)) with (unread s). rewrite Hr.
      destruct (N.ltb_spec (lenN (unread s)) (lenN (q_blob q))); [lia|]. now rewrite Htk. }
    rewrite Hex. split; [reflexivity|exact HR].
  - contradiction.
  - contradiction.
  - intros f s H. contradiction.
  - intros c _. repeat split; intros; intros s H; contradiction.
Qed.

(** ** For the statement *)
Lemma grace_run cf e zc t X b s : encodes X b -> seqinv s -> s_graceful s = true -> s_eof s = false -> s_depth s = 0 ->
  s_pos s + lenN (unread s) < U64_MAX -> d_pos (s_dev s) <= lenN (d_data (s_dev s)) -> unread s = b -> pend s = 0 ->
  match fst (run el_source cf (d_body (full_dict e (S (N.to_nat (cf_rec cf))) zc t)) (top_rst (mkEls (map (pair 0) (X ++ [DEof])) false false 0 [] (s_dbg s)))),
        fst (from_stream e zc cf t s) with
  | ROk v, ROk w => v = w
  | RErr x, RErr y => err_rel (fun _ _ => True) x y
  | ROk _, _ | RErr _, _ => False
  | _, _ => True
  end.
Proof.
  intros Henc Hq Hg He Hd Hp Hdv Hu Hpe. set (q := mkEls _ false false 0 [] (s_dbg s)).
  assert (Hsim : sim_rst RG (top_rst q) (top_rst s)).
  { unfold sim_rst. cbn. split; [|auto]. split; [|split; [exact Logic.I|exact Hpe]]. exists (map (pair 0) X), b.
    constructor; auto.
    - rewrite Hpe. apply N.le_0_l.
    - intros _. cbn [q q_es]. now rewrite map_app.
    - apply encodes_at. exact Henc.
    - rewrite Hpe. now rewrite dropN_0. }
  pose proof (el_grace cf (d_body (full_dict e (S (N.to_nat (cf_rec cf))) zc t)) _ _ Hsim) as H.
  unfold from_stream.
  destruct (run el_source cf _ (top_rst q)) as [[v|x| |] st1]; destruct (run stream_source cf _ (top_rst s)) as [r st2]; cbn [fst]; try exact Logic.I.
  - destruct H as [H|[H|H]]; [contradiction|contradiction|]. cbn [fst snd] in *. destruct r; try contradiction. apply H.
  - destruct H as [H|[H|H]]; [discriminate H|contradiction|]. cbn [fst snd] in *. destruct r; try contradiction.
    destruct H as [H2 H3]. split; [exact H2|]. inversion H3; subst; constructor; exact Logic.I.
Qed.
Theorem grace_same e zc cf t ks X k s1 bs1 b2 tl1 dbg k2 : env_ok e -> deserialisable e zc t -> cf_collect cf <= U64_MAX -> cf_blob cf <= U64_MAX ->
  document ks = X ++ repeat DEnd (S k) -> encodes_doc ks bs1 -> encodes X b2 ->
  starts s1 bs1 tl1 -> s_dbg s1 = dbg -> bytes_ok b2 -> lenN b2 + 3 < U64_MAX ->
  same_result (fst (from_stream e zc cf t s1)) (fst (from_stream e zc cf t (set_graceful_ true (new_stream dbg k2 (mkDev b2 0 []))))).
Proof.
  intros He Ht Hc Hb HX E1 E2 S1 Hd B2 L2.
  assert (Hbl : lenN bs1 <= lenN (unread s1)).
  { pose proof (f_equal lenN (st_unread _ _ _ S1)) as H. rewrite lenN_dropN, lenN_app in H. lia. }
  assert (Hul : lenN (unread s1) < U64_MAX) by (pose proof (st_pos _ _ _ S1); lia).
  pose proof (encodes_ok _ _ (doc_encodes _ _ E1)) as Hok. pose proof (encodes_len _ _ (doc_encodes _ _ E1)) as Hlen.
  assert (H1 : Forall el_ok (document ks)).
  { eapply Forall_impl; [|exact Hok]. intros a (A1 & A2 & A3). repeat split; auto. lia. }
  pose proof (doc_run cf e zc t ks (s_dbg s1) He Ht Hc Hb H1 ltac:(lia)) as Htot.
  pose proof (run_to_stream cf e zc t (document ks) bs1 tl1 s1 _ (doc_at _ _ E1) S1 eq_refl) as R1.
  set (s2 := set_graceful_ true (new_stream dbg k2 (mkDev b2 0 []))).
  assert (Hu : unread s2 = b2) by (unfold s2, unread, d_rest; apply dropN_0).
  pose proof (grace_run cf e zc t X b2 s2 E2 (fresh_seqinv dbg k2 true b2 B2 L2) eq_refl eq_refl eq_refl
                ltac:(rewrite Hu; change (s_pos s2) with 0; lia) ltac:(apply N.le_0_l) Hu eq_refl) as R2.
  change (s_dbg s2) with dbg in R2. rewrite <- Hd in R2.
  destruct (doc_cut ks X k HX) as [Hdep Hne].
  assert (Hsim : sim_rst RE (top_rst (mkEls (map (pair 0) (document ks)) false false 0 [] (s_dbg s1)))
                   (top_rst (mkEls (map (pair 0) (X ++ [DEof])) false false 0 [] (s_dbg s1)))).
  { unfold sim_rst. cbn. split; [|auto]. unfold RE. cbn. split; [reflexivity|]. split; [reflexivity|]. split; [reflexivity|].
    split; [reflexivity|]. split; [reflexivity|]. left. exists X, (S k). rewrite HX. auto 10. }
  pose proof (el_eof cf (d_body (full_dict e (S (N.to_nat (cf_rec cf))) zc t)) _ _ Hsim) as H.
  destruct (run el_source cf _ (top_rst (mkEls (map (pair 0) (document ks)) _ _ _ _ _))) as [[v|x| |] st1]; try contradiction Htot;
  destruct (run el_source cf _ (top_rst (mkEls (map (pair 0) (X ++ [DEof])) _ _ _ _ _))) as [r2 st2];
    (destruct H as [H|[H|H]]; [try contradiction H; discriminate H|contradiction H|]); cbn [fst snd] in *;
    destruct r2 as [v2|x2| |]; try contradiction;
    destruct (fst (from_stream e zc cf t s1)) as [w1|y1| |]; try contradiction;
    destruct (fst (from_stream e zc cf t s2)) as [w2|y2| |]; try contradiction; cbn [same_result].
  - destruct H as [H _]. congruence.
  - pose proof (err_same _ _ _ H R2) as [P2 K2]. destruct R1 as [P1 K1]. split; [congruence|]. exact (same_kind_of _ _ _ K1 K2).
Qed.
Theorem grace_fresh e zc cf t ks X k bs1 b2 tl1 dbg k1 k2 : env_ok e -> deserialisable e zc t -> cf_collect cf <= U64_MAX -> cf_blob cf <= U64_MAX ->
  document ks = X ++ repeat DEnd (S k) -> encodes_doc ks bs1 -> encodes X b2 ->
  bytes_ok (bs1 ++ tl1) -> bytes_ok b2 -> lenN (bs1 ++ tl1) + 3 < U64_MAX -> lenN b2 + 3 < U64_MAX ->
  same_result (fst (from_stream e zc cf t (new_stream dbg k1 (mkDev (bs1 ++ tl1) 0 []))))
              (fst (from_stream e zc cf t (set_graceful_ true (new_stream dbg k2 (mkDev b2 0 []))))).
Proof.
  intros He Ht Hc Hb HX E1 E2 B1 B2 L1 L2. apply (grace_same e zc cf t ks X k _ bs1 b2 tl1); auto. now apply fresh_starts.
Qed.
