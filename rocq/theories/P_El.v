(** * P_El: deserialising from a list of logical elements

    A source of fields that knows nothing of bytes.  Deserialising from a
    stream does what deserialising from the elements its bytes encode does
    ([el_stream]); everything about the meaning of documents is then proved
    about lists of elements. *)

From Verif Require Import Base Wire Dev Stream SpecWire SpecFormat SpecStream Types Prog De SpecDe
  P_Base P_Wire P_Sched P_Read P_Write P_Blob P_Stream P_Field P_Skip P_Prog P_Wp P_Types P_Dict P_DictAll P_DeStream P_DeExt.
Strategy 1000 [s_decode_u64 decode_u64 decode_loop write_all read_exact encode_u64 enc_loop encode_fixed_u64 mloop miter].

Record els := mkEls {
  q_es : list (N * delem);   (* the elements to come, with their offsets; no padding *)
  q_end : bool;              (* nothing follows them *)
  q_eof : bool;
  q_depth : N;
  q_blob : bytes;            (* rest of the blob in hand *)
  q_dbg : bool
}.

Definition el_stop {A} : M els serr A := fun q =>
  if q_end q then (RErr (SIo IoUnexpectedEof), q) else (RPanic, q).
Definition el_next : M els serr (option field) := fun q =>
  if q_eof q then (ROk None, q)
  else match q_es q with
  | [] => el_stop q
  | (o, e) :: r =>
      let q' := mkEls r (q_end q) (match e with DEof => true | _ => false end)
                  (depth_after (hdr_of e) (q_depth q)) (payload e) (q_dbg q) in
      match hdr_of e with
      | HdField t v => (ROk (Some (mkField t o (field_depth (q_depth q)) (vhdr_of v))), q')
      | HdEnd | HdEof => (ROk None, q')
      | HdExc _ => (RErr (SException (takeN 256 (payload e))), q')
      | HdPad => (RPanic, q)
      end
  end.
Fixpoint drop_to (D d : N) (eof : bool) (es : list (N * delem)) : option (N * bool * list (N * delem)) :=
  if d <=? D then Some (d, eof, es)
  else match es with
       | [] => None
       | (_, e) :: r => drop_to D (depth_after (hdr_of e) d) (match e with DEof => true | _ => eof end) r
       end.
Definition el_skip (f : field) : M els serr unit := fun q =>
  match f_val f with
  | HInt _ | HBlob _ => (ROk tt, q)
  | _ => match drop_to (f_depth f) (q_depth q) (q_eof q) (q_es q) with
         | Some (d, eof, es) => (ROk tt, mkEls es (q_end q) eof d (q_blob q) (q_dbg q))
         | None => el_stop q
         end
  end.
Definition q_set_blob (b : bytes) (q : els) : els := mkEls (q_es q) (q_end q) (q_eof q) (q_depth q) b (q_dbg q).
Definition el_remaining : M els serr N := fun q => (ROk (lenN (q_blob q)), q).
Definition el_read_fully (max : N) : M els serr bytes := fun q =>
  if max <? lenN (q_blob q) then (RErr (SLargeBlob max (lenN (q_blob q))), q)
  else (ROk (q_blob q), q_set_blob [] q).
Definition el_read_exact (n : N) : M els serr bytes := fun q =>
  if lenN (q_blob q) <? n then (RErr (SIo IoUnexpectedEof), q)
  else (ROk (takeN n (q_blob q)), q_set_blob (dropN n (q_blob q)) q).
Definition el_ext : M els serr bytes := fun q => (ROk (q_blob q), q).
Definition el_source : source els :=
  mkSource el_next el_skip (fun _ => 0) q_dbg el_remaining el_read_fully el_read_exact el_ext.

(** The bytes [bs], starting at offset [p], encode the elements, with any
    padding; the offsets are right if [tr]; padding may follow the last one
    if [tp]. *)
Inductive enc_at (tr tp : bool) : N -> list (N * delem) -> bytes -> Prop :=
| EaNil p : enc_at tr tp p [] []
| EaPad p es bs : (tp = true \/ es <> []) -> enc_at tr tp (p + 1) es bs -> enc_at tr tp p es (0xC0 :: bs)
| EaCons p o e es b bs : (tr = true -> o = p) -> e <> DPad -> elem_enc e b -> enc_at tr tp (p + lenN b) es bs ->
    enc_at tr tp p ((o, e) :: es) (b ++ bs).

Lemma enc_at_nil tr tp p bs : enc_at tr tp p [] bs -> exists np, bs = repeat 0xC0 np /\ (tp = false -> np = O).
Proof.
  remember [] as es eqn:E. induction 1 as [p|p es bs Hw H IH|]; try discriminate.
  - exists O. split; reflexivity.
  - destruct (IH E) as (np & -> & _). exists (S np). split; [reflexivity|]. intros ->. destruct Hw; congruence.
Qed.
Lemma enc_at_cons tr tp p o e es bs : enc_at tr tp p ((o, e) :: es) bs ->
  exists np h bs', bs = repeat 0xC0 np ++ h ++ payload e ++ bs' /\ hdr_enc (hdr_of e) h /\ e <> DPad /\
    (tr = true -> o = p + N.of_nat np) /\ enc_at tr tp (p + N.of_nat np + lenN h + lenN (payload e)) es bs'.
Proof.
  remember ((o, e) :: es) as l eqn:E. induction 1 as [p|p l bs Hw H IH|p o' e' es' b bs Ho Hp (h & Hh & Hok & ->) H IH].
  - discriminate.
  - destruct (IH E) as (np & h & bs' & -> & Hh & Hne & Ho & Hr). exists (S np), h, bs'.
    split; [reflexivity|]. split; [exact Hh|]. split; [exact Hne|]. split; [intros Ht; rewrite (Ho Ht); lia|].
    replace (p + N.of_nat (S np)) with (p + 1 + N.of_nat np) by lia. exact Hr.
  - injection E as -> -> ->. exists O, h, bs. rewrite <- app_assoc. split; [reflexivity|]. split; [exact Hh|].
    split; [exact Hp|]. change (N.of_nat 0) with 0. rewrite N.add_0_r. split; [exact Ho|].
    rewrite lenN_app in H. rewrite <- N.add_assoc. exact H.
Qed.

(** ** The end of the input *)
Lemma impl_end s np : rinv s -> s_eof s = false -> s_graceful s = false -> pend s <= lenN (rest s) ->
  dropN (pend s) (rest s) = repeat 0xC0 np -> s_pos s + pend s + N.of_nat np < U64_MAX ->
  exists s', next_element_impl true s = (RErr (SIo IoUnexpectedEof), s').
Proof.
  intros Hi He Hg Hpend Hr Hp. unfold next_element_impl. rewrite He.
  rewrite (mbind_ok _ _ _ _ _ (commit_complete s Hi Hpend)).
  assert (Hgen : forall np s1, sch s1 = [] -> s_graceful s1 = false -> rest s1 = repeat 0xC0 np ->
     s_pos s1 + N.of_nat np < U64_MAX ->
     exists s', mloop_nat (S np) (next_element_step true) tt s1 = (RErr (SIo IoUnexpectedEof), s')).
  { clear. induction np as [|np IH]; intros s1 Hs Hg Hr Hp.
    - exists s1. rewrite mloop_nat_S. apply mbind_err. unfold next_element_step. unfold mbind at 1, mget.
      unfold mbind at 1. rewrite s_read_byte_eq by exact Hs. unfold rb_spec. rewrite Hr. cbn [repeat].
      destruct (N.ltb_spec (U64_MAX - s_pos s1) 1); [lia|]. rewrite Hg. reflexivity.
    - rewrite mloop_nat_S. cbn [repeat] in Hr. change (192 :: repeat 192 np) with ([192] ++ repeat 192 np) in Hr.
      rewrite (mbind_ok _ _ _ _ _ (step_complete true tt s1 HdPad [192] _ Hs Hr EncPad
                 ltac:(cbn [hdr_payload]; change (lenN [192]) with 1; lia) I)).
      assert (Ha : after HdPad [192] s1 = adv 1 s1).
      { unfold after, depth_after. change (lenN [192]) with 1.
        change (s_depth s1) with (s_depth (adv 1 s1)). apply set_depth_same. }
      rewrite Ha. apply IH; auto.
      + rewrite rest_adv, Hr. cbn [app]. now rewrite dropN_S_cons, dropN_0 by lia.
      + change (s_pos (adv 1 s1)) with (s_pos s1 + 1). lia. }
  destruct (Hgen np (settled s)) as (s' & H); auto.
  - apply Hi.
  - unfold settled. change (rest (set_commit None (adv (pend s) s))) with (rest (adv (pend s) s)). now rewrite rest_adv.
  - exists s'. eapply mloop_of_nat with (n := S np); [|exact H|discriminate]. unfold U64_MAX, U64_MOD in *. lia.
Qed.

(** ** Streams do what lists of elements do *)
Section SimA.
  Variables tr tp : bool.
  Definition PRt (a b : N) : Prop := tr = true -> a = b.

  Definition same_field (f1 f2 : field) : Prop := field_rel PRt f1 f2 /\ f_depth f1 = f_depth f2.
  Definition same_cur (c1 c2 : option field) : Prop :=
    match c1, c2 with Some f1, Some f2 => same_field f1 f2 | None, None => True | _, _ => False end.
  Record readyb (q : els) (s : stream) (bs tl : bytes) : Prop := mkReady {
    rd_seq : seqinv s;
    rd_g : s_graceful s = false;
    rd_dbg : q_dbg q = s_dbg s;
    rd_eof : q_eof q = s_eof s;
    rd_depth : q_depth q = s_depth s;
    rd_pos : s_pos s + lenN (unread s) < U64_MAX;
    rd_pend : pend s <= lenN (unread s);
    rd_dev : d_pos (s_dev s) <= lenN (d_data (s_dev s));
    rd_enc : enc_at tr tp (s_pos s + pend s) (q_es q) bs;
    rd_unread : dropN (pend s) (unread s) = bs ++ tl;
    rd_end : q_end q = true -> tl = [];
    rd_eofp : s_eof s = true -> pend s = 0
  }.
  Definition ready (q : els) (s : stream) (tl : bytes) : Prop := exists bs, readyb q s bs tl.
  Definition blob_hand (q : els) (c : option field) (s : stream) : Prop :=
    match c with
    | Some (mkField _ _ _ (HBlob _)) =>
        s_commit s = Some CSkipBlob /\ in_blob s /\ takeN (pend s) (unread s) = q_blob q
    | None => pend s = 0
    | _ => True
    end.
  Variable tl : bytes.
  Definition RSA (q : els) (c1 : option field) (s : stream) (c2 : option field) : Prop :=
    ready q s tl /\ same_cur c1 c2 /\ blob_hand q c2 s.

  Lemma readyb_len q s bs : readyb q s bs tl -> lenN (unread s) = pend s + lenN bs + lenN tl.
  Proof.
    intros H. rewrite <- (takeN_dropN (pend s) (unread s)), lenN_app, (rd_unread _ _ _ _ H), lenN_app, lenN_takeN.
    pose proof (rd_pend _ _ _ _ H). lia.
  Qed.
  Lemma readyb_depth q s bs : readyb q s bs tl -> s_depth s + 1 < U64_MAX.
  Proof.
    intros H. pose proof (sq_len _ (rd_seq _ _ _ _ H)). pose proof (sq_depth _ (rd_seq _ _ _ _ H)). lia.
  Qed.

  (** One element. *)
  Definition el_past (e : delem) (r : list (N * delem)) (q : els) : els :=
    mkEls r (q_end q) (match e with DEof => true | _ => false end)
                  (depth_after (hdr_of e) (q_depth q)) (payload e) (q_dbg q).
  Lemma el_step sp q s np h e r bs' : readyb q s (repeat 0xC0 np ++ h ++ payload e ++ bs') tl -> s_eof s = false ->
    hdr_enc (hdr_of e) h -> e <> DPad -> (sp = false -> np = 0%nat) ->
    enc_at tr tp (s_pos s + pend s + N.of_nat np + lenN h + lenN (payload e)) r bs' ->
    exists s', next_element_impl sp s = (ROk (elem_of (hdr_of e) (s_pos s + pend s + N.of_nat np) (s_depth s)), s') /\
      readyb (el_past e r q) s' bs' tl /\
      takeN (pend s') (unread s') = payload e /\
      (is_blobby (hdr_of e) = true -> s_commit s' = Some CSkipBlob /\ in_blob s').
  Proof.
    intros Hrd He Hh Hne Hsp Hr. pose proof (readyb_len _ _ _ Hrd) as Hlen. pose proof (readyb_depth _ _ _ Hrd) as Hd1.
    destruct Hrd as [Hq Hg Hdb Heo Hdp Hps Hpd Hdv _ Hu Hend Hep].
    set (hd := hdr_of e) in *. set (s' := after hd h (adv (N.of_nat np) (settled s))).
    rewrite <- !app_assoc in Hu. rewrite !lenN_app, lenN_repeat in Hlen.
    assert (Hpl : hdr_payload hd = lenN (payload e)) by apply payload_hdr.
    assert (Hn : next_element_impl sp s = (ROk (elem_of hd (s_pos s + pend s + N.of_nat np) (s_depth s)), s')).
    { apply impl_complete with (tl := payload e ++ bs' ++ tl); auto.
      - apply Hq.
      - intros _. unfold hd. destruct e as [t []| | | |]; cbn; try discriminate. congruence.
      - lia.
      - unfold depth_fits, field_depth. destruct hd as [t []| | | |]; try exact I; lia. }
    exists s'. split; [exact Hn|].
    destruct (positioned_after s np hd h (payload e) (bs' ++ tl)) as (_ & _ & Hp1 & Hu1 & Hp2 & Hi'); auto.
    { split; [apply Hq|]. split; [exact He|]. split; [exact Hpd|exact Hu]. }
    { lia. }
    fold s' in Hp1, Hu1, Hp2, Hi'.
    destruct (impl_seq sp s _ s' Hq Hn) as (Hq' & _).
    split; [|split].
    - unfold el_past. constructor; cbn [q_es q_end q_eof q_depth q_blob q_dbg].
      + exact Hq'.
      + unfold s'. now rewrite after_graceful.
      + unfold s'. now rewrite after_dbg.
      + unfold s'. rewrite after_eof. change (s_eof (adv (N.of_nat np) (settled s))) with (s_eof s). rewrite He.
        unfold hd. destruct e as [t []| | | |]; reflexivity.
      + unfold s'. rewrite after_depth. change (s_depth (adv (N.of_nat np) (settled s))) with (s_depth s). now rewrite Hdp.
      + rewrite Hu1, lenN_app, lenN_app. lia.
      + rewrite Hp2, Hu1, lenN_app. lia.
      + unfold s'. rewrite after_data.
        replace (d_pos (s_dev (after hd h (adv (N.of_nat np) (settled s))))) with (d_pos (s_dev s) + pend s + N.of_nat np + lenN h)
          by (destruct hd as [t []| | | |]; reflexivity).
        change (d_data (s_dev (adv (N.of_nat np) (settled s)))) with (d_data (s_dev s)).
        pose proof (rest_len s) as Hrl. change (rest s) with (unread s) in Hrl. lia.
      + rewrite Hp1. exact Hr.
      + rewrite Hp2, Hu1. apply dropN_app_exact.
      + exact Hend.
      + intros He'. unfold s' in He'. rewrite after_eof in He'. change (s_eof (adv (N.of_nat np) (settled s))) with (s_eof s) in He'. rewrite He in He'.
        rewrite Hp2. unfold hd in He'. destruct e as [t []| | | |]; try discriminate He'. reflexivity.
    - rewrite Hp2, Hu1. apply takeN_app_exact.
    - intros Hb. split.
      + unfold s'. unfold hd in *. destruct e as [t []| | | |]; try discriminate; reflexivity.
      + unfold s'. apply after_in_blob; [apply Hq|exact Hb|]. change (s_pos (adv (N.of_nat np) (settled s))) with (s_pos s + pend s + N.of_nat np). lia.
  Qed.

  Lemma take_nil n (l : bytes) : n <= lenN l -> takeN n l = [] -> n = 0.
  Proof. intros H E. apply (f_equal lenN) in E. rewrite lenN_takeN in E. change (lenN (@nil N)) with 0 in E. lia. Qed.
  Lemma el_next_sim q c1 s c2 : RSA q c1 s c2 ->
    srel false (fun a t1 b t2 => RSA t1 a t2 b) (fun _ _ => False) (el_next q) (next_field s).
  Proof.
    intros ((bs & Hrd) & _ & _). pose proof Hrd as [Hq Hg Hdb Heo Hdp Hps Hpd Hdv Henc Hu Hend Hep].
    unfold el_next, srel. rewrite Heo. destruct (s_eof s) eqn:He.
    { unfold next_field, mbind, next_element_impl. rewrite He. cbn [fst snd mret]. right. split; [exists bs; exact Hrd|]. split; [exact I|exact (Hep eq_refl)]. }
    destruct (q_es q) as [|[o e] r] eqn:Eq.
    - unfold el_stop. destruct (q_end q); cbn [fst snd]; [|exact I]. right.
      rewrite (Hend eq_refl), app_nil_r in Hu. apply enc_at_nil in Henc. destruct Henc as (np & -> & _).
      pose proof (readyb_len _ _ _ Hrd) as Hlen. rewrite lenN_repeat in Hlen.
      destruct (impl_end s np) as (s' & H); auto; [apply Hq|lia|].
      unfold next_field. now rewrite (mbind_err _ _ _ _ _ H).
    - apply enc_at_cons in Henc. destruct Henc as (np & h & bs' & -> & Hh & Hne & Ho & Hr).
      destruct (el_step true q s np h e r bs' Hrd He) as (s' & Hn & Hrd' & Htk & Hbl); auto; [discriminate|].
      unfold next_field. rewrite (mbind_ok _ _ _ _ _ Hn). cbv beta. fold (el_past e r q).
      assert (Hrdy : ready (el_past e r q) s' tl) by (exists bs'; exact Hrd').
      destruct e as [t v| | |m|]; try congruence.
      + assert (Hf : same_field (mkField t o (field_depth (q_depth q)) (vhdr_of (match hdr_of (DField t v) with HdField _ hv => hv | _ => HvStruct end)))
               (mkField t (s_pos s + pend s + N.of_nat np) (field_depth (s_depth s)) (vhdr_of (match hdr_of (DField t v) with HdField _ hv => hv | _ => HvStruct end)))).
        { split; [|cbn; now rewrite Hdp]. repeat split. exact Ho. }
        destruct v; cbn [hdr_of elem_of fst snd mret] in *; right; (split; [exact Hrdy|]); (split; [exact Hf|]); cbn; try exact I.
        destruct (Hbl eq_refl). auto.
      + cbn [hdr_of elem_of fst snd mret]. right. split; [exact Hrdy|]. split; [exact I|]. exact (take_nil _ _ (rd_pend _ _ _ _ Hrd') Htk).
      + cbn [hdr_of elem_of fst snd mret]. right. split; [exact Hrdy|]. split; [exact I|]. exact (take_nil _ _ (rd_pend _ _ _ _ Hrd') Htk).
      + cbn [hdr_of elem_of fst snd]. right. destruct (Hbl eq_refl) as [Hc Hib].
        rewrite (mbind_ok _ _ _ _ _ (b_read_or_trunc_ok _ 256 Hib)). cbn [fst mfail]. f_equal.
        assert (Hpe : pend s' = s_blob_end s' - s_pos s') by (unfold pend; now rewrite Hc).
        rewrite <- Hpe. pose proof (rd_pend _ _ _ _ Hrd') as Hpd'. change (rest s') with (unread s').
        rewrite (N.min_l (pend s')) by exact Hpd'. rewrite <- takeN_takeN, Htk. reflexivity.
  Qed.

  Lemma pad_step q s bs : readyb q s (0xC0 :: bs) tl -> s_eof s = false ->
    enc_at tr tp (s_pos s + pend s + 1) (q_es q) bs ->
    exists s', next_element s = (ROk ElPadding, s') /\ readyb q s' bs tl.
  Proof.
    intros Hrd He Hr. pose proof (readyb_len _ _ _ Hrd) as Hlen. destruct Hrd as [Hq Hg Hdb Heo Hdp Hps Hpd Hdv _ Hu Hend Hep].
    set (s' := after HdPad [0xC0] (settled s)).
    cbn [app] in Hu. rewrite lenN_cons in Hlen.
    assert (Hn : next_element s = (ROk ElPadding, s')).
    { unfold s'. rewrite (next_element_complete s HdPad [0xC0] (bs ++ tl)); auto.
      - apply Hq.
      - constructor.
      - cbn [hdr_payload]. change (lenN [192]) with 1. lia.
      - exact I. }
    exists s'. split; [exact Hn|].
    destruct (impl_seq false s _ s' Hq Hn) as (Hq' & _).
    assert (Hu1 : unread s' = bs ++ tl).
    { unfold s'. rewrite after_unread. change (rest (settled s)) with (rest (adv (pend s) s)). rewrite rest_adv.
      change (rest s) with (unread s). rewrite Hu. change (lenN [192]) with 1. now rewrite dropN_S_cons, dropN_0 by lia. }
    assert (Hp2 : pend s' = 0) by (unfold s'; rewrite after_pend; reflexivity).
    assert (Hp1 : s_pos s' = s_pos s + pend s + 1) by (unfold s'; rewrite after_pos; reflexivity).
    constructor; auto.
    - rewrite Hp1, Hu1, lenN_app. lia.
    - rewrite Hp2. lia.
    - change (d_pos (s_dev s')) with (d_pos (s_dev s) + pend s + 1). change (d_data (s_dev s')) with (d_data (s_dev s)).
      pose proof (rest_len s) as Hrl. change (rest s) with (unread s) in Hrl. lia.
    - rewrite Hp1, Hp2, N.add_0_r. exact Hr.
    - now rewrite Hp2, Hu1, dropN_0.
  Qed.

  Notation sk_step D := (fun _ : unit =>
           let* s := mget in if D <? s_depth s then next_element ;; mret (inl tt) else mret (inr tt)).
  Lemma el_skip_nat D : forall n q s bs, (List.length bs <= n)%nat -> readyb q s bs tl ->
    match drop_to D (q_depth q) (q_eof q) (q_es q) with
    | Some (d, eof, es) => exists s', mloop_nat (S n) (sk_step D) tt s = (ROk tt, s') /\
        forall b, ready (mkEls es (q_end q) eof d b (q_dbg q)) s' tl
    | None => q_end q = true -> exists s', mloop_nat (S n) (sk_step D) tt s = (RErr (SIo IoUnexpectedEof), s')
    end.
  Proof.
    induction n as [n IH] using (well_founded_induction lt_wf). intros q s bs Hn Hrd.
    pose proof Hrd as [Hq Hg Hdb Heo Hdp Hps Hpd Hdv Henc Hu Hend Hep].
    destruct (N.leb_spec (q_depth q) D) as [Hle|Hgt].
    { assert (Hdt : drop_to D (q_depth q) (q_eof q) (q_es q) = Some (q_depth q, q_eof q, q_es q)).
      { destruct (q_es q) as [|[]]; cbn [drop_to]; now rewrite (proj2 (N.leb_le _ _) Hle). }
      rewrite Hdt. exists s. split.
      - rewrite mloop_nat_S. unfold mbind, mget. rewrite <- Hdp. destruct (N.ltb_spec D (q_depth q)); [lia|]. reflexivity.
      - intros b. exists bs. constructor; auto. }
    assert (He : s_eof s = false).
    { destruct (s_eof s) eqn:E; [|reflexivity]. pose proof (sq_eof s Hq E). lia. }
    assert (Hunr : forall m x s1, next_element s = (ROk x, s1) -> mloop_nat (S m) (sk_step D) tt s = mloop_nat m (sk_step D) tt s1).
    { intros m x s1 Hx. rewrite mloop_nat_S. unfold mbind, mget. rewrite <- Hdp. destruct (N.ltb_spec D (q_depth q)); [|lia].
      rewrite Hx. reflexivity. }
    pose proof (readyb_len _ _ _ Hrd) as Hlen.
    inversion Henc as [p E0 E1 E2|p es bs1 Hw Hr E0 E1 E2|p o e es b bs1 Ho Hne (h & Hh & Hok & ->) Hr E0 E1 E2]; subst.
    - (* end *)
      cbn [drop_to]. rewrite (proj2 (N.leb_gt _ _) Hgt). intros Hqe. specialize (Hend Hqe). subst tl. cbn [app] in Hu.
      change (lenN (@nil N)) with 0 in Hlen.
      assert (Hx : exists s', next_element s = (RErr (SIo IoUnexpectedEof), s')).
      { exists (settled s). unfold next_element, next_element_impl. rewrite He.
        rewrite (mbind_ok _ _ _ _ _ (commit_complete s (sq_r _ Hq) Hpd)). 
        apply mloop_of_nat with (n := 1%nat); [unfold U64_MOD; lia| |discriminate].
        rewrite mloop_nat_S. apply mbind_err. unfold next_element_step. unfold mbind at 1, mget.
        unfold mbind at 1. rewrite s_read_byte_eq by apply Hq. unfold rb_spec.
        change (rest (settled s)) with (rest (adv (pend s) s)). rewrite rest_adv. change (rest s) with (unread s). rewrite Hu.
        change (s_pos (settled s)) with (s_pos s + pend s). destruct (N.ltb_spec (U64_MAX - (s_pos s + pend s)) 1); [lia|].
        change (s_graceful (settled s)) with (s_graceful s). rewrite Hg. reflexivity. }
      destruct Hx as (s' & Hx). exists s'. rewrite mloop_nat_S. unfold mbind, mget. rewrite <- Hdp.
      destruct (N.ltb_spec D (q_depth q)); [|lia]. rewrite Hx. reflexivity.
    - (* padding *)
      destruct (pad_step q s bs1 Hrd He Hr) as (s1 & Hx & Hrd1).
      destruct n as [|n]; [cbn in Hn; lia|]. rewrite (Hunr (S n) _ _ Hx).
      apply (IH n ltac:(lia) q s1 bs1); auto. cbn in Hn. lia.
    - (* an element *)
      pose proof (hdr_enc_len _ _ Hh) as Hhl.
      assert (Hn1 : (1 + List.length bs1 <= n)%nat).
      { rewrite !app_length in Hn. unfold lenN in Hhl. lia. }
      destruct n as [|n]; [lia|].
      rewrite lenN_app, N.add_assoc in Hr. rewrite <- app_assoc in Hrd.
      destruct (el_step false q s 0 h e es bs1) as (s1 & Hx & Hrd1 & Htk & Hbl); auto.
      { change (N.of_nat 0) with 0. now rewrite N.add_0_r. }
      rewrite (Hunr (S n) _ _ Hx). cbn [drop_to]. rewrite (proj2 (N.leb_gt _ _) Hgt).
      rewrite Heo, He.
      replace (match e with DEof => true | _ => false end) with (q_eof (el_past e es q)) by reflexivity.
      exact (IH n ltac:(lia) (el_past e es q) s1 bs1 ltac:(lia) Hrd1).
  Qed.

  Lemma el_skip_sim q f1 s f2 : RSA q (Some f1) s (Some f2) ->
    srel false (fun _ t1 _ t2 => RSA t1 (Some f1) t2 (Some f2)) (fun _ _ => False) (el_skip f1 q) (field_skip f2 s).
  Proof.
    intros HR. pose proof HR as ((bs & Hrd) & ((Ht & Hv & Hp) & Hd) & Hh). unfold el_skip, field_skip, srel. rewrite Hv.
    assert (Hup : (forall l, f_val f2 <> HBlob l) ->
      match fst (match drop_to (f_depth f1) (q_depth q) (q_eof q) (q_es q) with
         | Some (d, eof, es) => (ROk tt, mkEls es (q_end q) eof d (q_blob q) (q_dbg q))
         | None => el_stop q
         end) with
      | ROk _ => False \/ match fst (skip_up (f_depth f2) s) with ROk _ => RSA (snd (match drop_to (f_depth f1) (q_depth q) (q_eof q) (q_es q) with
         | Some (d, eof, es) => (ROk tt, mkEls es (q_end q) eof d (q_blob q) (q_dbg q))
         | None => el_stop (A := unit) q
         end)) (Some f1) (snd (skip_up (f_depth f2) s)) (Some f2) | _ => False end
      | RErr e => false = true \/ match fst (skip_up (f_depth f2) s) with RErr e2 => e = e2 | _ => False end
      | _ => True
      end).
    { intros Hnb. rewrite Hd. pose proof (el_skip_nat (f_depth f2) (List.length bs) q s bs (le_n _) Hrd) as H.
      assert (Hbound : N.of_nat (S (List.length bs)) <= U64_MOD).
      { pose proof (readyb_len _ _ _ Hrd). pose proof (rd_pos _ _ _ _ Hrd). unfold lenN in *. unfold U64_MAX, U64_MOD in *. lia. }
      destruct (drop_to (f_depth f2) (q_depth q) (q_eof q) (q_es q)) as [[[d eof] es]|]; cbn [fst snd].
      - destruct H as (s' & H1 & H2). right.
        assert (H3 : skip_up (f_depth f2) s = (ROk tt, s')) by (unfold skip_up; apply mloop_of_nat with (n := S (List.length bs)); [lia|exact H1|discriminate]).
        rewrite H3. cbn [fst snd]. split; [apply H2|]. split; [apply HR|].
        unfold blob_hand. destruct f2 as [t2 p2 d2 v2]. cbn in Hnb. destruct v2; try exact I. now destruct (Hnb len).
      - unfold el_stop. destruct (q_end q) eqn:Eq; cbn [fst snd]; [|exact I]. right.
        destruct (H eq_refl) as (s' & H1).
        assert (H3 : skip_up (f_depth f2) s = (RErr (SIo IoUnexpectedEof), s')) by (unfold skip_up; apply mloop_of_nat with (n := S (List.length bs)); [lia|exact H1|discriminate]).
        rewrite H3. reflexivity. }
    destruct (f_val f2) eqn:Ev; cbn [fst snd mret].
    - right. exact HR.
    - right. exact HR.
    - apply Hup. discriminate.
    - apply Hup. discriminate.
  Qed.

  Lemma blob_adv_rsa q c1 s c2 n : RSA q c1 s c2 -> blob_cur c2 -> n <= lenN (q_blob q) ->
    RSA (q_set_blob (dropN n (q_blob q)) q) c1 (adv n s) c2.
  Proof.
    intros ((bs & Hrd) & Hc & Hh) Hb Hn. destruct c2 as [[t0 p0 d0 v0]|]; [|contradiction]. destruct v0; try contradiction.
    destruct Hh as (Hco & Hib & Htk).
    assert (Hlb : lenN (q_blob q) = pend s).
    { rewrite <- Htk, lenN_takeN. pose proof (rd_pend _ _ _ _ Hrd). lia. }
    destruct (blob_adv_ok s n Hco Hib ltac:(lia)) as (B1 & B2 & B3).
    pose proof Hrd as [Hq Hg Hdb Heo Hdp Hps Hpd Hdv Henc Hu Hend Hep].
    assert (Hu' : unread (adv n s) = dropN n (unread s)) by apply rest_adv.
    split; [|split; [exact Hc|]].
    - exists bs. constructor; auto; cbn [q_es q_set_blob q_dbg q_eof q_depth q_end].
      + assert (Hba : base [] s). { constructor; auto. pose proof (sq_len _ Hq). change (lenN (@nil N)) with 0. lia. }
        apply (base_adv [] s n Hba). change (rest s) with (unread s). lia.
      + change (s_pos (adv n s)) with (s_pos s + n). rewrite Hu', lenN_dropN. lia.
      + rewrite B2, Hu', lenN_dropN. lia.
      + pose proof (rest_len s) as Hrl. change (rest s) with (unread s) in Hrl.
        change (d_pos (s_dev (adv n s))) with (d_pos (s_dev s) + n). change (d_data (s_dev (adv n s))) with (d_data (s_dev s)). lia.
      + rewrite B2. change (s_pos (adv n s)) with (s_pos s + n). replace (s_pos s + n + (pend s - n)) with (s_pos s + pend s) by lia. exact Henc.
      + rewrite B2, Hu', dropN_dropN. replace (n + (pend s - n)) with (pend s) by lia. exact Hu.
      + intros He. change (s_eof (adv n s)) with (s_eof s) in He. specialize (Hep He). rewrite B2. lia.
    - unfold blob_hand. change (q_blob (q_set_blob (dropN n (q_blob q)) q)) with (dropN n (q_blob q)). split; [exact B3|]. split; [exact B1|]. rewrite B2, Hu'.
      rewrite <- Htk. rewrite <- (takeN_dropN (pend s) (unread s)) at 1.
      rewrite dropN_app_l by (rewrite lenN_takeN; lia). rewrite takeN_app_l by (rewrite lenN_dropN, lenN_takeN; lia).
      apply takeN_all. rewrite lenN_dropN, lenN_takeN. lia.
  Qed.

  Lemma rsa_blob q c1 s c2 : RSA q c1 s c2 -> blob_cur c2 -> s_commit s = Some CSkipBlob /\ in_blob s /\
    s_blob_end s - s_pos s = lenN (q_blob q) /\ takeN (lenN (q_blob q)) (unread s) = q_blob q /\ lenN (q_blob q) <= lenN (unread s).
  Proof.
    intros ((bs & Hrd) & Hc & Hh) Hb. destruct c2 as [[t0 p0 d0 v0]|]; [|contradiction]. destruct v0; try contradiction.
    destruct Hh as (Hco & Hib & Htk). pose proof (rd_pend _ _ _ _ Hrd).
    assert (Hlb : lenN (q_blob q) = pend s) by (rewrite <- Htk, lenN_takeN; lia).
    assert (Hpe : pend s = s_blob_end s - s_pos s) by (unfold pend; now rewrite Hco).
    rewrite <- Hpe, Hlb. auto.
  Qed.

  Theorem el_stream cf {A} (p : prog A) st1 st2 : sim_rst RSA st1 st2 ->
    orel (sim_rst RSA) (err_rel PRt) false (dm_rst (fun _ _ => False))
      (run el_source cf p st1) (run stream_source cf p st2).
  Proof.
    apply src_sim.
    - intros q c1 s c2 ((bs & H) & _). apply H.
    - intros q c1 s c2 (_ & H & _). destruct c1, c2; try exact H. apply H.
    - apply el_next_sim.
    - apply el_skip_sim.
    - intros q c1 s c2 HR _ Hb. destruct (rsa_blob _ _ _ _ HR Hb) as (Hc & Hib & Hr & Htk & Hle).
      unfold srel. cbn [i_remaining stream_source el_source el_remaining fst snd]. right. rewrite b_remaining_ok by apply Hib.
      cbn [fst snd]. rewrite Hr. auto.
    - intros q c1 s c2 HR _ Hb. destruct (rsa_blob _ _ _ _ HR Hb) as (Hc & Hib & Hr & Htk & Hle).
      unfold srel. cbn [i_read_fully stream_source el_source]. unfold el_read_fully. rewrite b_read_fully_ok by exact Hib. cbv zeta.
      rewrite Hr. destruct (cf_blob cf <? lenN (q_blob q)); cbn [fst snd]; right; [reflexivity|].
      change (rest s) with (unread s). rewrite Htk. split; [reflexivity|]. rewrite N.min_l by exact Hle.
      pose proof (blob_adv_rsa q c1 s c2 (lenN (q_blob q)) HR Hb (N.le_refl _)) as H. rewrite dropN_all in H by lia. exact H.
    - intros n q c1 s c2 HR _ Hb. destruct (rsa_blob _ _ _ _ HR Hb) as (Hc & Hib & Hr & Htk & Hle).
      unfold srel. cbn [i_read_exact stream_source el_source]. unfold el_read_exact, lift_io. rewrite b_read_exact_ok by exact Hib. cbv zeta.
      rewrite Hr. change (rest s) with (unread s).
      destruct (N.ltb_spec (lenN (q_blob q)) n) as [Hlt|Hge]; cbn [fst snd]; right.
      + destruct (N.ltb_spec (N.min n (N.min (lenN (q_blob q)) (lenN (unread s)))) n); [reflexivity|lia].
      + destruct (N.ltb_spec (N.min n (N.min (lenN (q_blob q)) (lenN (unread s)))) n); [lia|]. cbn [fst snd].
        split; [|now apply blob_adv_rsa]. rewrite <- Htk at 1. rewrite takeN_takeN. f_equal. lia.
    - intros q c1 s c2 HR _ Hb. destruct (rsa_blob _ _ _ _ HR Hb) as (Hc & Hib & Hr & Htk & Hle).
      unfold srel. cbn [i_ext stream_source el_source el_ext fst snd]. right.
      pose proof HR as ((bs & Hrd) & _). pose proof (rd_dev _ _ _ _ Hrd) as Hdv.
      assert (Hex : b_ext_slice s = (ROk (q_blob q), s)).
      { unfold b_ext_slice, as_slice. unfold mbind at 1.
        destruct (N.ltb_spec (lenN (d_data (s_dev s))) (d_pos (s_dev s))); [lia|].
        unfold mbind. rewrite b_remaining_ok by apply Hib. change (d_rest (s_dev s)) with (unread s). rewrite Hr.
        destruct (N.ltb_spec (lenN (unread s)) (lenN (q_blob q))); [lia|]. now rewrite Htk. }
      rewrite Hex. split; [reflexivity|exact HR].
    - contradiction.
    - contradiction.
    - intros f s H. contradiction.
    - intros c _. repeat split; intros; intros s H; contradiction.
  Qed.
End SimA.
