(** * P_DeStream: deserialisation from an arbitrary stream is safe *)

From Verif Require Import Base Wire Dev Stream SpecWire SpecFormat SpecStream Types Prog De SpecDe
  P_Base P_Wire P_Sched P_Read P_Write P_Blob P_Stream P_Skip P_Prog P_Wp P_Types P_Dict P_DictAll.
Strategy 1000 [s_decode_u64 decode_u64 decode_loop write_all read_exact encode_u64 enc_loop encode_fixed_u64 mloop miter].

(** One call of [next_element_impl] on arbitrary input. *)
Lemma impl_seq sp s e s' : seqinv s -> next_element_impl sp s = (ROk e, s') ->
  seqinv s' /\ lenN (unread s') <= lenN (unread s) /\
  (e = ElEndOfDoc \/ exists hd h s1 p d, hdr_enc hd h /\ (sp = true -> hd <> HdPad) /\ e = elem_of hd p d /\
     s' = after hd h s1 /\ s_commit s1 = None /\ rinv s1 /\ s_pos s1 + lenN h + hdr_payload hd <= U64_MAX /\
     lenN h <= lenN (rest s1) /\ lenN (unread s') < lenN (unread s)).
Proof.
  intros [Hi Hl Hd He] H. destruct (s_eof s) eqn:Eeof.
  { unfold next_element_impl in H. rewrite Eeof in H. injection H as <- <-.
    split; [constructor; auto|]. split; [lia|]. now left. }
  assert (Hd2 : s_depth s + 1 < U64_MAX) by lia.
  apply impl_outcome in H; auto.
  assert (Hrs : rest (settled s) = dropN (pend s) (unread s)) by (apply rest_adv).
  assert (Hgen : forall s2, rinv s2 -> s_eof s2 = true -> s_depth s2 = 0 -> d_data (s_dev s2) = d_data (s_dev s) ->
            seqinv s2).
  { intros s2 Hi2 He2 Hz Hdd. constructor; auto; rewrite Hdd; [lia|]. rewrite Hz.
    change (unread s2) with (rest s2). rewrite rest_len, Hdd. lia. }
  assert (Hmono : forall n, lenN (rest (adv n (settled s))) <= lenN (unread s)).
  { intros n. rewrite rest_adv, Hrs, !lenN_dropN. lia. }
  destruct H as [[Hp [(np & hd & h & tl & Hr & Henc & Hnp & Hpad & Hpos & -> & ->)|
                      (np & Hg & Hr & Hnp & Hpos & -> & ->)]]|(Hp & Hsk & Hg & -> & Hpos & ->)].
  - change (s_depth (settled s)) with (s_depth s) in *.
    set (s1 := adv (N.of_nat np) (settled s)) in *.
    assert (Hi1 : rinv s1) by (apply rinv_adv, rinv_settled, Hi).
    assert (Hrep : lenN (repeat 192 np) = N.of_nat np) by (unfold lenN; now rewrite repeat_length).
    assert (Hr1 : rest s1 = h ++ tl).
    { unfold s1. rewrite rest_adv, Hr, <- Hrep, dropN_app_exact. reflexivity. }
    pose proof (hdr_enc_len _ _ Henc) as Hhl.
    assert (Hlen : lenN (unread s) = pend s + N.of_nat np + lenN h + lenN tl).
    { rewrite <- (takeN_dropN (pend s) (unread s)), lenN_app, <- Hrs, Hr, !lenN_app, lenN_takeN, Hrep.
      change (rest s) with (unread s) in Hp. lia. }
    assert (Hul : lenN (unread s) <= lenN (d_data (s_dev s))).
    { change (unread s) with (rest s). rewrite rest_len. lia. }
    assert (Hu' : lenN (unread (after hd h s1)) = lenN tl) by (rewrite after_unread, Hr1, dropN_app_exact; reflexivity).
    split; [|split; [lia|right]].
    + constructor.
      * apply after_rinv; [exact Hi1|reflexivity|exact Hpos].
      * rewrite after_data. exact Hl.
      * rewrite after_depth, after_data, Hu'.
        change (s_depth s1) with (s_depth s). change (d_data (s_dev s1)) with (d_data (s_dev s)).
        unfold depth_after, field_depth. destruct hd as [t []| | | |]; lia.
      * rewrite after_eof, after_depth. change (s_eof s1) with (s_eof s). rewrite Eeof.
        destruct hd; try discriminate. intros _. reflexivity.
    + eexists hd, h, s1, _, _. repeat (split; [eassumption || reflexivity|]).
      split; [rewrite Hr1, lenN_app; lia|lia].
  - split; [|split; [apply (Hmono (N.of_nat np))|now left]].
    assert (Hr0 : rinv (set_depth_ 0 (set_eof_ true (adv (N.of_nat np) (settled s))))).
    { destruct (rinv_adv (N.of_nat np) _ (rinv_settled s Hi)); constructor; auto. }
    apply Hgen; auto.
  - assert (Hr0 : rinv (set_depth_ 0 (set_eof_ true (settled s)))).
    { destruct (rinv_settled s Hi); constructor; auto. }
    split; [apply Hgen; auto|]. split; [|now left].
    change (lenN (rest (settled s)) <= lenN (unread s)). rewrite Hrs, lenN_dropN. lia.
Qed.
Lemma impl_no_panic sp s : seqinv s -> match fst (next_element_impl sp s) with RPanic | RFuel => False | _ => True end.
Proof.
  intros [Hi Hl Hd He]. destruct (s_eof s) eqn:Eeof.
  { unfold next_element_impl. rewrite Eeof. exact I. }
  destruct (next_element_impl sp s) as [r s'] eqn:E. apply impl_outcome in E; auto; [|lia].
  destruct r; try exact I; exact E.
Qed.

(** A blob in hand. *)
Definition blob_state (s : stream) (r : N) : Prop :=
  s_commit s = Some CSkipBlob /\ in_blob s /\ r = s_blob_end s - s_pos s /\
  d_pos (s_dev s) <= lenN (d_data (s_dev s)).

Lemma next_field_seq s : seqinv s ->
  match next_field s with
  | (ROk None, s') => seqinv s' /\ lenN (unread s') <= lenN (unread s)
  | (ROk (Some f), s') => seqinv s' /\ hdr_ok (f_tag f) (f_val f) /\ lenN (unread s') < lenN (unread s) /\
      (forall l, f_val f = HBlob l -> blob_state s' l)
  | (RErr _, _) => True
  | _ => False
  end.
Proof.
  intros Hq. unfold next_field. pose proof (impl_no_panic true s Hq) as Hn.
  destruct (next_element_impl true s) as [[e|e| |] s1] eqn:E; try contradiction.
  2: { rewrite (mbind_err _ _ _ _ _ E). exact I. }
  rewrite (mbind_ok _ _ _ _ _ E). cbv beta. apply impl_seq in E; [|exact Hq].
  destruct E as (Hq1 & Hm & [->|(hd & h & s0 & p & d & Henc & Hpad & -> & -> & Hc & Hi0 & Hpos & Hlh & Hlt)]).
  { cbv iota. split; [exact Hq1|exact Hm]. }
  assert (Hbl : forall l, hdr_payload hd = l -> is_blobby hd = true -> blob_state (after hd h s0) l).
  { intros l Hl Hb. pose proof (after_in_blob hd h s0 (ri_sch _ Hi0) Hb Hpos) as Hib.
    split; [|split; [exact Hib|split]].
    - destruct hd as [t []| | | |]; try discriminate; reflexivity.
    - pose proof (after_pend hd h s0 Hc) as Hpe. unfold pend in Hpe.
      rewrite <- Hl, <- Hpe. destruct hd as [t []| | | |]; try discriminate; reflexivity.
    - rewrite after_data. assert (Hdp : d_pos (s_dev (after hd h s0)) = d_pos (s_dev s0) + lenN h)
        by (destruct hd as [t []| | | |]; reflexivity).
      rewrite Hdp. rewrite rest_len in Hlh. pose proof (hdr_enc_len _ _ Henc). lia. }
  destruct hd as [t v| | |len|]; cbn [elem_of].
  - cbn. split; [exact Hq1|]. split; [|split; [exact Hlt|]].
    + inversion Henc as [? ? ? Ht Hv| ? ? ? Ht Hv| ? ? ? Ht Hv| ? Ht| | | |]; subst; cbn; split; auto; try apply Hv.
      destruct Hv as (_ & _ & _ & Hv). unfold U64_MAX, U64_MOD. lia.
    + intros l Hl. destruct v; try discriminate. injection Hl as ->. now apply Hbl.
  - cbn. auto.
  - cbn. auto.
  - cbv iota. destruct (Hbl len eq_refl eq_refl) as (_ & Hib & _).
    rewrite (mbind_ok _ _ _ _ _ (b_read_or_trunc_ok _ 256 Hib)). exact I.
  - exfalso. now apply Hpad.
Qed.

(** ** Skipping *)
Lemma element_seq s e s' : seqinv s -> next_element s = (ROk e, s') ->
  seqinv s' /\ lenN (unread s') <= lenN (unread s).
Proof. intros Hq H. destruct (impl_seq false s e s' Hq H) as (H1 & H2 & _). auto. Qed.

Lemma skip_up_seq D s : seqinv s ->
  match skip_up D s with
  | (ROk _, s') => seqinv s' /\ lenN (unread s') <= lenN (unread s)
  | (RErr _, _) => True
  | _ => False
  end.
Proof.
  intros Hq. pose proof (skip_up_terminates D s Hq) as Ht.
  pose proof (mloop_inv (fun _ : unit =>
           let* s := mget in
           if D <? s_depth s then next_element ;; mret (inl tt)
           else mret (inr tt))
    (fun _ s' => seqinv s' /\ lenN (unread s') <= lenN (unread s))
    (fun s' => if s_eof s' then 0 else 1 + lenN (unread s'))
    (fun (r : res serr unit) s' => match r with ROk _ => seqinv s' /\ lenN (unread s') <= lenN (unread s) | _ => True end)) as H.
  specialize (H) with (a := tt) (s := s).
  unfold skip_up in *. destruct (mloop _ tt s) as [r s'] eqn:E. cbn [fst] in Ht.
  assert (Hr : match r with ROk _ => seqinv s' /\ lenN (unread s') <= lenN (unread s) | _ => True end).
  { apply H; clear H E Ht.
    - intros _ s1 [Hq1 Hm1]. unfold mbind, mget.
      destruct (N.ltb_spec D (s_depth s1)) as [Hlt|Hlt]; [|cbn; auto].
      destruct (next_element s1) as [[e|e| |] s2] eqn:En; cbv iota; try exact I.
      destruct (element_seq _ _ _ Hq1 En) as [Hq2 Hm2].
      destruct (seqinv_step s1 e s2 Hq1 En) as (_ & _ & _ & Heof). split; [split; [exact Hq2|lia]|].
      destruct (s_eof s1) eqn:E1; [pose proof (sq_eof s1 Hq1 E1); lia|].
      destruct (s_eof s2) eqn:E2; [lia|].
      apply impl_seq in En; [|exact Hq1]. destruct En as (_ & _ & [->|(hd & h & s0 & p & d & En)]).
      + specialize (Heof eq_refl). discriminate.
      + destruct En as (_ & _ & _ & _ & _ & _ & _ & _ & En). lia.
    - split; [exact Hq|lia].
    - pose proof (sq_len s Hq). pose proof (rest_len s). change (rest s) with (unread s) in *.
      unfold U64_MOD, U64_MAX in *. destruct (s_eof s); lia. }
  destruct r; try contradiction; auto.
Qed.

(** ** The abstract states of streams *)
Definition SO (s : stream) (c : option field) (o : nat) (ac : option (vhdr * nat)) (r m : N) : Prop :=
  seqinv s /\ lenN (unread s) <= m /\
  match c, ac with
  | None, None => True
  | Some f, Some (v, _) => f_val f = v /\ (forall l, v = HBlob l -> blob_state s r)
  | _, _ => False
  end.

Lemma blob_adv s r n : seqinv s -> blob_state s r -> n <= r -> n <= lenN (rest s) ->
  seqinv (adv n s) /\ lenN (unread (adv n s)) <= lenN (unread s) /\ blob_state (adv n s) (r - n).
Proof.
  intros [Hi Hl Hd He] (Hc & (Hs & Hp & Hb) & -> & Hdp) Hn Hr.
  assert (Hu : lenN (unread (adv n s)) = lenN (unread s) - n).
  { change (lenN (rest (adv n s)) = lenN (unread s) - n). rewrite rest_adv, lenN_dropN. reflexivity. }
  split; [|split; [lia|]].
  - constructor; [now apply rinv_adv|exact Hl| |exact He]. rewrite Hu.
    change (s_depth (adv n s)) with (s_depth s). change (d_data (s_dev (adv n s))) with (d_data (s_dev s)). lia.
  - rewrite rest_len in Hr. split; [exact Hc|]. split; [split; [exact Hs|]|].
    + change (s_pos (adv n s)) with (s_pos s + n). change (s_blob_end (adv n s)) with (s_blob_end s). lia.
    + change (s_pos (adv n s)) with (s_pos s + n). change (s_blob_end (adv n s)) with (s_blob_end s).
      change (d_pos (s_dev (adv n s))) with (d_pos (s_dev s) + n).
      change (d_data (s_dev (adv n s))) with (d_data (s_dev s)). lia.
Qed.

Lemma so_blob A (m : M stream serr A) (P : A -> N -> N -> Prop) :
  (forall s r, seqinv s -> blob_state s r ->
     match m s with
     | (ROk a, s') => exists r', P a r r' /\ seqinv s' /\ lenN (unread s') <= lenN (unread s) /\ blob_state s' r'
     | (RErr _, _) => True
     | _ => False
     end) -> blobm SO m P.
Proof.
  intros H s f o v lv r ms (Hq & Hm & Hv & Hb) (l & ->). specialize (H s r Hq (Hb l eq_refl)).
  destruct (m s) as [[a|e| |] s']; try exact H.
  destruct H as (r' & Hp & Hq' & Hm' & Hb'). exists r'. split; [exact Hp|]. split; [exact Hq'|]. split; [lia|].
  split; [exact Hv|]. auto.
Qed.

Section Sound.
  Variable cf : cfg.
  Hypothesis Hcf : cf_collect cf <= U64_MAX /\ cf_blob cf <= U64_MAX.

  Lemma stream_sound {A} (p : prog A) Q a st : wpp cf p Q a -> arel cf SO a st ->
    match run stream_source cf p st with
    | (ROk x, st') => exists a', arel cf SO a' st' /\ Q x a'
    | (RErr _, _) => True
    | _ => False
    end.
  Proof.
    apply wpp_sound; auto.
    - intros s [f|] o [[v lv]|] r m (_ & _ & H); try contradiction; auto. apply H.
    - intros s c o ac r m (Hq & Hm & _) Ho. cbn [i_next stream_source]. pose proof (next_field_seq s Hq) as H.
      destruct (next_field s) as [[[f|]|e| |] s']; try exact H.
      + destruct H as (Hq' & Hok & Hlt & Hb). split; [exact Hok|]. exists (lenN (unread s')). split; [lia|].
        split; [exact Hq'|]. split; [lia|]. split; [reflexivity|]. intros l Hl. rewrite Hl. now apply Hb.
      + destruct H as (Hq' & Hle). exists (lenN (unread s')). split; [lia|]. split; [exact Hq'|]. split; [lia|exact I].
    - intros s f o v lv r m (Hq & Hm & Hv & Hb). cbn [i_skip stream_source]. unfold field_skip. rewrite Hv.
      assert (Hskip : (forall l, v <> HBlob l) ->
        match skip_up (f_depth f) s with
        | (ROk _, s') => exists m', m' <= m /\ SO s' (Some f) (Nat.min o lv) (Some (v, lv)) r m'
        | (RErr _, _) => True | _ => False end).
      { intros Hnb. pose proof (skip_up_seq (f_depth f) s Hq) as H. destruct (skip_up (f_depth f) s) as [[x|e| |] s']; try exact H.
        destruct H as [Hq' Hle]. exists (lenN (unread s')). split; [lia|]. split; [exact Hq'|]. split; [lia|].
        split; [exact Hv|]. intros l Hl. now apply Hnb in Hl. }
      destruct v.
      + exists m. split; [lia|]. split; [exact Hq|]. auto.
      + exists m. split; [lia|]. split; [exact Hq|]. auto.
      + apply Hskip. discriminate.
      + apply Hskip. discriminate.
    - apply so_blob. intros s r Hq Hb. cbn [i_remaining stream_source]. pose proof Hb as (_ & (_ & Hp & _) & -> & _).
      rewrite b_remaining_ok by exact Hp. eexists. split; [split; reflexivity|]. split; [exact Hq|]. split; [lia|exact Hb].
    - intros n. apply blobm_when, so_blob. intros s r Hq Hb. cbn [i_read_fully stream_source].
      pose proof Hb as (_ & Hib & Hr & _). rewrite b_read_fully_ok by exact Hib. rewrite <- Hr.
      destruct (n <? r); [exact I|]. destruct (blob_adv s r (N.min r (lenN (rest s))) Hq Hb) as (H1 & H2 & H3); [lia|lia|].
      eexists. split; [|split; [exact H1|split; [exact H2|exact H3]]]. rewrite lenN_takeN.
      split; [apply bytes_ok_takeN, rinv_rest_ok, Hq|]. split; lia.
    - intros n. apply so_blob. intros s r Hq Hb. cbn [i_read_exact stream_source]. unfold lift_io.
      pose proof Hb as (_ & Hib & Hr & _). rewrite b_read_exact_ok by exact Hib. rewrite <- Hr.
      destruct (N.ltb_spec (N.min n (N.min r (lenN (rest s)))) n) as [Hlt|Hge]; [exact I|].
      destruct (blob_adv s r n Hq Hb) as (H1 & H2 & H3); [lia|lia|].
      eexists. split; [|split; [exact H1|split; [exact H2|exact H3]]]. rewrite lenN_takeN.
      split; [apply bytes_ok_takeN, rinv_rest_ok, Hq|]. split; [lia|split; [lia|reflexivity]].
    - apply so_blob. intros s r Hq Hb. cbn [i_ext stream_source]. pose proof Hb as (_ & Hib & Hr & Hd).
      unfold b_ext_slice, as_slice. unfold mbind at 1. destruct (N.ltb_spec (lenN (d_data (s_dev s))) (d_pos (s_dev s))); [lia|].
      cbv beta iota. unfold mbind. rewrite b_remaining_ok by apply Hib. rewrite <- Hr.
      change (d_rest (s_dev s)) with (rest s).
      destruct (N.ltb_spec (lenN (rest s)) r); [exact I|]. exists r. rewrite lenN_takeN.
      split; [split; [apply bytes_ok_takeN, rinv_rest_ok, Hq|split; lia]|]. split; [exact Hq|]. split; [lia|exact Hb].
  Qed.

  Lemma from_stream_ok e zc t s : env_ok e -> deserialisable e zc t -> seqinv s ->
    match from_stream e zc cf t s with
    | (ROk v, s') => seqinv s' /\ vok cf e zc t n_body 0 v (cf_collect cf) (cf_blob cf)
    | (RErr _, _) => True
    | _ => False
    end.
  Proof.
    intros He Ht Hq. unfold from_stream.
    destruct (full_dict_good cf e zc t He Ht) as (_ & _ & Hb).
    set (a := mkA 1 None 0 (lenN (unread s)) 0 0 0).
    assert (Hpre : pre cf 0 a).
    { unfold pre. cbn. pose proof (sq_len s Hq). pose proof (rest_len s). change (rest s) with (unread s) in *. lia. }
    pose proof (Hb a 0%nat Hpre eq_refl) as Hw.
    pose proof (stream_sound _ _ a (top_rst s) Hw) as H.
    assert (Har : arel cf SO a (top_rst s)).
    { unfold arel, SO. cbn. split; [auto using N.le_refl|]. repeat split; lia. }
    specialize (H Har). destruct (run _ _ _ _) as [[v|x| |] st]; try exact H.
    destruct H as (a' & (HS & _ & _ & _ & L1 & L2 & _) & _ & _ & V1 & V2 & V3 & V4). split; [apply HS|].
    cbn in V2, V3, V4. repeat split; auto; lia.
  Qed.
End Sound.
