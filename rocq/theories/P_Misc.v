(** * P_Misc: integer conversions (C18), tags (C26), repositioning (C50) *)

From Verif Require Import Base Wire Dev Stream SpecWire SpecFormat SpecStream SpecBlob SpecHist SpecWrite
  P_Base P_Wire P_Sched P_Read P_Write P_Blob P_Stream P_Field P_Skip P_Canon P_WriteBlobs.

(** ** C18 *)
Lemma to_uint_iff w v n : to_uint (umax w) v = ROk n <-> v = HInt n /\ n < 2 ^ w.
Proof.
  pose proof (pow2_pos w). unfold to_uint, umax. destruct v as [k| | |]; try (split; [discriminate|intros [? _]; discriminate]).
  destruct (N.ltb_spec (2 ^ w - 1) k).
  - split; [discriminate|]. intros [[= ->] ?]. lia.
  - split; [intros [= ->]; split; [reflexivity|lia]|]. intros [[= ->] _]. reflexivity.
Qed.
Lemma zz_zigzag z : i64_ok z -> zigzag z = zz z.
Proof.
  intros H. unfold zz. destruct (Z.leb_spec 0 z).
  - apply zigzag_nonneg. unfold i64_ok in H. lia.
  - apply zigzag_neg. unfold i64_ok in H. lia.
Qed.
Lemma to_sint_iff w v z : 1 <= w <= 64 -> (match v with HInt n => n < 2 ^ 64 | _ => True end) ->
  to_sint (smin w) (smax w) v = ROk z <->
  v = HInt (zz z) /\ (- 2 ^ (Z.of_N w - 1) <= z < 2 ^ (Z.of_N w - 1))%Z.
Proof.
  intros Hw Hv. unfold to_sint, smin, smax.
  assert (Hle : (2 ^ (Z.of_N w - 1) <= 2 ^ 63)%Z) by (apply Z.pow_le_mono_r; lia).
  destruct v as [k| | |]; try (split; [discriminate|intros [? _]; discriminate]).
  pose proof (unzigzag_range k Hv) as Hr. pose proof (zigzag_unzigzag k Hv) as Hz.
  destruct (Z.ltb_spec (unzigzag k) (- 2 ^ (Z.of_N w - 1))) as [H1|H1];
    [|destruct (Z.ltb_spec (2 ^ (Z.of_N w - 1) - 1) (unzigzag k)) as [H2|H2]].
  - split; [discriminate|]. intros [[= E] Hz2]. exfalso.
    rewrite E, <- zz_zigzag, unzigzag_zigzag in H1 by (unfold i64_ok; lia). lia.
  - split; [discriminate|]. intros [[= E] Hz2]. exfalso.
    rewrite E, <- zz_zigzag, unzigzag_zigzag in H2 by (unfold i64_ok; lia). lia.
  - split.
    + intros [= <-]. rewrite <- zz_zigzag by exact Hr. rewrite Hz. split; [reflexivity|lia].
    + intros [[= ->] Hz2]. f_equal. rewrite <- zz_zigzag by (unfold i64_ok; lia). apply unzigzag_zigzag. unfold i64_ok; lia.
Qed.
Lemma conv_errors w v :
  (forall e, to_uint (umax w) v = RErr e -> e = match v with HInt _ => SOutOfRange | _ => SUnexpectedType FInteger (hdr_fty v) end) /\
  (forall e, to_sint (smin w) (smax w) v = RErr e -> e = match v with HInt _ => SOutOfRange | _ => SUnexpectedType FInteger (hdr_fty v) end) /\
  (forall e, to_bool v = RErr e -> e = match v with HInt _ => SOutOfRange | _ => SUnexpectedType FInteger (hdr_fty v) end) /\
  (forall e, to_null v = RErr e -> e = match v with HInt _ => SOutOfRange | _ => SUnexpectedType FInteger (hdr_fty v) end) /\
  (to_uint (umax w) v <> RPanic /\ to_sint (smin w) (smax w) v <> RPanic /\ to_bool v <> RPanic /\ to_null v <> RPanic) /\
  (to_uint (umax w) v <> RFuel /\ to_sint (smin w) (smax w) v <> RFuel /\ to_bool v <> RFuel /\ to_null v <> RFuel).
Proof.
  unfold to_uint, to_sint, to_bool, to_null. destruct v as [k| | |]; cbv beta iota zeta;
    repeat match goal with |- context[if ?c then _ else _] => destruct c end; repeat split; try discriminate;
    try (intros e [= <-]; reflexivity); unfold to_uint; cbn [hdr_fty];
    repeat match goal with |- context[if ?c then _ else _] => destruct c end; try discriminate;
    try (intros e [= <-]; reflexivity).
Qed.
Lemma to_bool_iff v b : (match v with HInt n => n < 2 ^ 64 | _ => True end) ->
  to_bool v = ROk b <-> v = HInt (if b then 1 else 0).
Proof.
  intros Hv. unfold to_bool, to_uint, umax. destruct v as [k| | |]; try (split; [discriminate|destruct b; discriminate]).
  destruct (N.ltb_spec (2 ^ 64 - 1) k); [lia|].
  destruct (N.eqb_spec k 0) as [->|]; [destruct b; split; congruence|].
  destruct (N.eqb_spec k 1) as [->|]; [destruct b; split; congruence|].
  destruct b; split; try discriminate; intros [= ->]; congruence.
Qed.
Lemma to_null_iff v : to_null v = ROk tt <-> v = HInt 0.
Proof.
  unfold to_null. destruct v as [k| | |]; try (split; discriminate).
  destruct (N.eqb_spec k 0) as [->|]; split; congruence.
Qed.

(** Writing an integer and reading the field back. *)
Lemma int_write_read s out t k (P : vhdr -> Prop) :
  appending s out -> no_open_blob s -> tag_ok t -> k < 2 ^ 64 -> s_pos s + 11 <= U64_MAX -> P (HInt k) ->
  written_field s out t (write_u64 t k) P.
Proof.
  intros Ha Hno Ht Hk Hp HP. pose proof (app_winv _ _ Ha) as Hwi.
  pose proof (enc_len k Hk) as Hel.
  pose proof (write_u64_ok t k s Hwi Hno Ht Hk ltac:(lia)) as Hwu.
  exists (0x40 + t :: enc k), (wr (0x40 + t :: enc k) (set_commit None s)). split; [exact Hwu|]. split.
  - apply (wr_app (set_commit None s) out). exact Ha.
  - intros r (Hi & He & Hpd & Hu) Hpr Hdr.
    destruct (enc_spec k Hk) as (_ & Hleg & Hbo & _).
    pose proof (impl_complete true r (HdField t (HvInt k)) (0x40 + t :: enc k) [] 0%nat Hi He Hpd) as Hn.
    rewrite app_nil_r in Hn. cbn [repeat app] in Hn. specialize (Hn Hu (EncInt t k (enc k) Ht Hleg Hbo)).
    unfold next_field. eexists _, _. split.
    { unfold mbind. rewrite Hn; [reflexivity|discriminate|discriminate|cbn [hdr_payload]; change (N.of_nat 0) with 0; lia|exact I]. }
    split; [reflexivity|exact HP].
Qed.
Lemma write_convert s out t w n z b :
  appending s out -> no_open_blob s -> tag_ok t -> s_pos s + 11 <= U64_MAX -> 1 <= w <= 64 -> n < 2 ^ w ->
  (- 2 ^ (Z.of_N w - 1) <= z < 2 ^ (Z.of_N w - 1))%Z ->
  written_field s out t (write_u64 t n) (fun v => to_uint (umax w) v = ROk n) /\
  written_field s out t (write_sint t z) (fun v => to_sint (smin w) (smax w) v = ROk z) /\
  written_field s out t (write_bool t b) (fun v => to_bool v = ROk b) /\
  written_field s out t (write_null t) (fun v => to_null v = ROk tt).
Proof.
  intros Ha Hno Ht Hp Hw Hn Hz.
  assert (H64 : 2 ^ w <= 2 ^ 64) by (apply N.pow_le_mono_r; lia).
  assert (Hz64 : (2 ^ (Z.of_N w - 1) <= 2 ^ 63)%Z) by (apply Z.pow_le_mono_r; lia).
  assert (Hi : i64_ok z) by (unfold i64_ok; lia).
  pose proof (zigzag_range z Hi) as Hr. rewrite zz_zigzag in Hr by exact Hi.
  split; [|split; [|split]].
  - apply int_write_read; auto; [lia|]. apply to_uint_iff. auto.
  - unfold write_sint. rewrite zz_zigzag by exact Hi. apply int_write_read; auto.
    apply to_sint_iff; auto.
  - unfold write_bool. apply int_write_read; auto; [destruct b; reflexivity|]. destruct b; reflexivity.
  - unfold write_null. apply int_write_read; auto; reflexivity.
Qed.

(** ** C26 *)
Lemma bad_desc ty t s : s_dbg s = true -> ~ tag_ok t -> no_open_blob s ->
  write_desc (PPair ty t) s = (RPanic, set_commit None s).
Proof.
  intros Hd Ht Hno. unfold write_desc. rewrite (mbind_ok _ _ _ _ _ (commit_settled s Hno)).
  change (s_dbg (set_commit None s)) with (s_dbg s). rewrite Hd. unfold mbind, mres, desc_byte.
  replace (true && negb ((1 <=? t) && (t <=? 63))) with true; [reflexivity|].
  unfold tag_ok in Ht. destruct (N.leb_spec 1 t); destruct (N.leb_spec t 63); cbn; try reflexivity. lia.
Qed.
Lemma bad_tag_panics s t op c : s_dbg s = true -> ~ tag_ok t -> no_open_blob s -> s_pos s <= U64_MAX ->
  tagged_write t c ->
  exists r s', call_run op c s = (r, s') /\ s_dev s' = s_dev s /\ s_pos s' = s_pos s /\
    (r = RPanic \/ (r = RErr (SIo IoOther) /\ exists len, U64_MAX < s_pos s + len + 11 /\ (c = CWriteBlobAlloc t len \/ exists bs, len = lenN bs /\ c = CWriteBlobData t bs))).
Proof.
  intros Hd Ht Hno Hp Hc.
  assert (Hw : forall ty, write_desc (PPair ty t) s = (RPanic, set_commit None s)) by (intros; now apply bad_desc).
  assert (Hsimple : forall r : res serr cval * stream, r = (RPanic, set_commit None s) ->
     exists r' s', r = (r', s') /\ s_dev s' = s_dev s /\ s_pos s' = s_pos s /\
    (r' = RPanic \/ (r' = RErr (SIo IoOther) /\ exists len, U64_MAX < s_pos s + len + 11 /\ (c = CWriteBlobAlloc t len \/ exists bs, len = lenN bs /\ c = CWriteBlobData t bs)))).
  { intros r ->. eexists _, _. split; [reflexivity|]. split; [reflexivity|]. split; [reflexivity|]. now left. }
  assert (Hal : forall len, len <= U64_MAX - 11 -> 
     (write_desc_with_blob_alloc (PPair DBlob t) len s = (RPanic, set_commit None s)) \/
     (U64_MAX < s_pos s + len + 11 /\ write_desc_with_blob_alloc (PPair DBlob t) len s = (RErr (SIo IoOther), set_commit None s))).
  { intros len Hl. unfold write_desc_with_blob_alloc. rewrite (mbind_ok _ _ _ _ _ (commit_settled s Hno)).
    destruct (N.ltb_spec (U64_MAX - 11) len); [lia|].
    assert (Hck : lift_io (check_advance_pos (len + 11)) (set_commit None s) =
      if U64_MAX - s_pos s <? len + 11 then (RErr (SIo IoOther), set_commit None s) else (ROk tt, set_commit None s)).
    { unfold lift_io, check_advance_pos. change (s_pos (set_commit None s)) with (s_pos s).
      now destruct (U64_MAX - s_pos s <? len + 11). }
    destruct (N.ltb_spec (U64_MAX - s_pos s) (len + 11)).
    - right. split; [lia|]. apply mbind_err. exact Hck.
    - left. rewrite (mbind_ok _ _ _ _ _ Hck). unfold mbind at 1. rewrite bad_desc; [reflexivity|exact Hd|exact Ht|now left]. }
  destruct Hc; cbn [call_run]; unfold ret_unit.
  - apply Hsimple. unfold write_u64, mbind. now rewrite Hw.
  - apply Hsimple. unfold write_sint, write_u64, mbind. now rewrite Hw.
  - destruct (Hal _ H) as [E|[Hb E]].
    + apply Hsimple. unfold write_blob_data, write_blob_alloc, mbind. now rewrite E.
    + eexists _, (set_commit None s). split; [unfold write_blob_data, write_blob_alloc, mbind; rewrite E; reflexivity|].
      split; [reflexivity|]. split; [reflexivity|]. right. split; [reflexivity|]. eauto 6.
  - destruct (Hal _ H) as [E|[Hb E]].
    + apply Hsimple. unfold write_blob_alloc, mbind. now rewrite E.
    + eexists _, (set_commit None s). split; [unfold write_blob_alloc, mbind; rewrite E; reflexivity|].
      split; [reflexivity|]. split; [reflexivity|]. right. split; [reflexivity|]. eauto 6.
  - apply Hsimple. unfold write_blob_dynamic, write_desc_with_blob_dynamic, mbind. now rewrite Hw.
  - apply Hsimple. unfold write_struct, mbind. now rewrite Hw.
  - apply Hsimple. unfold write_enum, mbind. now rewrite Hw.
Qed.

Lemma release_tags : exists s, s_dbg s = false /\ no_open_blob s /\ ~ tag_ok 0 /\
  (exists s', write_struct 0 s = (ROk tt, s') /\ d_data (s_dev s') = d_data (s_dev s) ++ [0xC0]) /\
  exists s', write_u64 64 5 s = (ROk tt, s') /\ d_data (s_dev s') = d_data (s_dev s) ++ [0x40; 5].
Proof.
  exists (new_stream false false (mkDev [1] 1 [])). split; [reflexivity|]. split; [now left|].
  split; [unfold tag_ok; lia|]. split; eexists; (split; [vm_compute; reflexivity|reflexivity]).
Qed.

(** ** C50 *)
Lemma reset_pos_ok s p : rinv s -> pend s <= lenN (unread s) ->
  exists s', reset_pos p s = (ROk tt, s') /\ s_pos s' = p /\ unread s' = dropN (pend s) (unread s) /\
    s_depth s' = s_depth s /\ s_eof s' = s_eof s /\ s_graceful s' = s_graceful s /\ pend s' = 0 /\ rinv s'.
Proof.
  intros Hi Hp. unfold reset_pos. rewrite (mbind_ok _ _ _ _ _ (commit_complete s Hi Hp)).
  eexists. split; [reflexivity|]. scbn. split; [reflexivity|]. split.
  { change (unread s) with (rest s). rewrite <- rest_adv. reflexivity. }
  do 4 (split; [reflexivity|]). destruct Hi. constructor; auto.
Qed.

Lemma st_seek_ok s w : rinv s -> pend s <= lenN (unread s) ->
  let t := seek_target s w in
  if ((0 <=? t) && (t <=? Z.of_N U64_MAX))%Z then
    exists s', st_seek w s = (ROk (Z.to_N t), s') /\ s_pos s' = Z.to_N t /\ d_pos (s_dev s') = Z.to_N t /\
      d_data (s_dev s') = d_data (s_dev s) /\ s_depth s' = 0 /\ s_eof s' = s_eof s /\
      s_graceful s' = s_graceful s /\ pend s' = 0 /\ rinv s'
  else exists s', st_seek w s = (RErr (SIo IoInvalidInput), s').
Proof.
  intros Hi Hp. cbv zeta. unfold st_seek. rewrite (mbind_ok _ _ _ _ _ (commit_complete s Hi Hp)).
  set (s1 := settled s).
  assert (Hsk : on_dev (dev_seek w) s1 =
     if ((0 <=? seek_target s w) && (seek_target s w <=? Z.of_N U64_MAX))%Z
     then (ROk (Z.to_N (seek_target s w)), set_dev (mkDev (d_data (s_dev s)) (Z.to_N (seek_target s w)) []) s1)
     else (RErr IoInvalidInput, set_dev (mkDev (d_data (s_dev s)) (d_pos (s_dev s1)) []) s1)).
  { unfold on_dev, dev_seek. assert (Hs : d_sched (s_dev s1) = []) by apply Hi. rewrite Hs. cbn [tl].
    change (d_data (s_dev s1)) with (d_data (s_dev s)). change (d_pos (s_dev s1)) with (d_pos (s_dev s) + pend s).
    fold (seek_target s w).
    destruct (Z.ltb_spec (seek_target s w) 0); destruct (Z.leb_spec 0 (seek_target s w)); try lia; cbn [orb andb];
    [reflexivity|].
    destruct (Z.ltb_spec (Z.of_N U64_MAX) (seek_target s w)); destruct (Z.leb_spec (seek_target s w) (Z.of_N U64_MAX)); try lia; reflexivity. }
  assert (Hlf : lift_io (on_dev (dev_seek w)) s1 = match on_dev (dev_seek w) s1 with
     | (ROk a, s') => (ROk a, s') | (RErr k, s') => (RErr (SIo k), s') | (RPanic, s') => (RPanic, s') | (RFuel, s') => (RFuel, s') end)
    by reflexivity.
  rewrite Hsk in Hlf.
  destruct ((0 <=? seek_target s w) && (seek_target s w <=? Z.of_N U64_MAX))%Z eqn:Eb.
  - rewrite (mbind_ok _ _ _ _ _ Hlf).
    eexists. split; [reflexivity|]. scbn. do 7 (split; [reflexivity|]).
    destruct Hi as [I1 I2 I3 I4]. constructor; auto.
  - eexists. apply mbind_err. exact Hlf.
Qed.

(** States that differ in what only blobs use. *)
Definition alike (s s' : stream) : Prop :=
  exists b y, s' = set_dyn_start y (match s_commit s with None => set_blob_end b s | _ => s end).
Lemma next_alike s s' e s1 : rinv s -> alike s s' -> s_eof s = false -> s_depth s + 1 < U64_MAX ->
  next_element s = (ROk e, s1) -> s_eof s1 = false ->
  rinv s1 /\ s_depth s1 <= s_depth s + 2 /\ exists s1', next_element s' = (ROk e, s1') /\ alike s1 s1'.
Proof.
  intros Hi (b & y & ->) He Hd Hn He1.
  destruct (elem_sound s e s1 Hi He Hd Hn) as [(blob & hd & h & Hu & Hbl & Henc & Hp & Hel & _)|(G & -> & _)].
  2:{ exfalso. destruct (eof_set_resume s s1 Hi He Hd Hn) as [H _]. congruence. }
  assert (Hpd : pend s <= lenN (unread s)) by (rewrite Hu, lenN_app; lia).
  assert (Hdr : dropN (pend s) (unread s) = h ++ unread s1) by (rewrite Hu, <- Hbl; apply dropN_app_exact).
  assert (Hdf : depth_fits hd (s_depth s)) by (unfold depth_fits, field_depth; destruct hd as [t []| | | |]; auto; lia).
  pose proof (next_element_complete s hd h (unread s1) Hi He Hpd Hdr Henc Hp Hdf) as H1.
  rewrite Hn in H1. injection H1 as -> Hs1.
  destruct (elem_complete s hd h (unread s1) Hi He Hpd Hdr Henc Hp Hd) as (s2 & H2 & _ & _ & Hd2 & _ & _ & Hi2).
  rewrite Hn in H2. injection H2 as <-. 
  split; [exact Hi2|]. split; [rewrite Hd2; apply depth_after_le|].
  set (s' := set_dyn_start y (match s_commit s with None => set_blob_end b s | _ => s end)).
  assert (Hpend : pend s' = pend s) by (unfold s', pend; destruct (s_commit s) as [[]|] eqn:E; scbn; rewrite ?E; reflexivity).
  assert (Hun : unread s' = unread s) by (unfold s', unread; destruct (s_commit s); reflexivity).
  assert (Hps : s_pos s' = s_pos s) by (unfold s'; destruct (s_commit s); reflexivity).
  assert (Hds : s_depth s' = s_depth s) by (unfold s'; destruct (s_commit s); reflexivity).
  assert (Hes : s_eof s' = s_eof s) by (unfold s'; destruct (s_commit s); reflexivity).
  assert (Hi' : rinv s').
  { destruct Hi as [I1 I2 I3 I4]. unfold s'. destruct (s_commit s) as [c|] eqn:E.
    - constructor; try assumption. scbn. rewrite E. exact I4.
    - constructor; try assumption. scbn. now left. }
  pose proof (next_element_complete s' hd h (unread s1) Hi') as H1'.
  change (rest s') with (unread s') in H1'. rewrite Hes, Hpend, Hun, Hps, Hds in H1'.
  specialize (H1' He Hpd Hdr Henc Hp Hdf). exists (after hd h (settled s')). split; [exact H1'|].
  rewrite Hs1. unfold alike, settled. rewrite Hpend.
  unfold s'. destruct (s_commit s) as [c|] eqn:E.
  - exists (s_blob_end (after hd h (set_commit None (adv (pend s) s)))), y.
    destruct hd as [t []| | | |]; unfold after; scbn; reflexivity.
  - exists (if is_blobby hd then 0 else b), y.
    destruct hd as [t []| | | |]; unfold after; scbn; reflexivity.
Qed.
Lemma eof_sticks n : forall s es s', s_eof s = true -> next_elements n s = (ROk es, s') -> s_eof s' = true.
Proof.
  induction n as [|n IH]; intros s es s' He H; cbn [next_elements] in H.
  - injection H as _ <-. exact He.
  - unfold mbind at 1 in H. rewrite (sticky_next_element s He) in H. 
    unfold mbind in H. destruct (next_elements n s) as [[l| | |] s2] eqn:E; try discriminate.
    injection H as _ <-. eapply IH; eauto.
Qed.
Lemma next_elements_alike n : forall s s' es s1, rinv s -> alike s s' -> s_eof s = false ->
  s_depth s + 2 * N.of_nat n + 1 < U64_MAX ->
  next_elements n s = (ROk es, s1) -> s_eof s1 = false ->
  rinv s1 /\ exists s1', next_elements n s' = (ROk es, s1').
Proof.
  induction n as [|n IH]; intros s s' es s1 Hi Ha He Hd H He1; cbn [next_elements] in *.
  - injection H as <- <-. split; [exact Hi|]. eexists; reflexivity.
  - unfold mbind at 1 in H. destruct (next_element s) as [[e| | |] s2] eqn:E1; try discriminate.
    unfold mbind at 1 in H. destruct (next_elements n s2) as [[l| | |] s3] eqn:E2; try discriminate.
    injection H as <- <-.
    assert (He2 : s_eof s2 = false).
    { destruct (s_eof s2) eqn:Eq; [|reflexivity]. now rewrite (eof_sticks n s2 l s3 Eq E2) in He1. }
    destruct (next_alike s s' e s2 Hi Ha He ltac:(lia) E1 He2) as (Hi2 & Hd2 & s2' & E1' & Ha2).
    destruct (IH s2 s2' l s3 Hi2 Ha2 He2 ltac:(lia) E2 He1) as (Hi3 & s3' & E2').
    split; [exact Hi3|]. exists s3'. rewrite (mbind_ok _ _ _ _ _ E1'), (mbind_ok _ _ _ _ _ E2'). reflexivity.
Qed.
Lemma next_elements_same n : forall s es s1, rinv s -> s_eof s = false -> s_depth s + 2 * N.of_nat n + 1 < U64_MAX ->
  next_elements n s = (ROk es, s1) -> s_eof s1 = false ->
  d_data (s_dev s1) = d_data (s_dev s) /\ s_graceful s1 = s_graceful s /\ s_seek s1 = s_seek s /\ s_dbg s1 = s_dbg s.
Proof.
  induction n as [|n IH]; intros s es s1 Hi He Hd H He1; cbn [next_elements] in *.
  - injection H as <- <-. auto.
  - unfold mbind at 1 in H. destruct (next_element s) as [[e| | |] s2] eqn:E1; try discriminate.
    unfold mbind at 1 in H. destruct (next_elements n s2) as [[l| | |] s3] eqn:E2; try discriminate.
    injection H as <- <-.
    assert (He2 : s_eof s2 = false).
    { destruct (s_eof s2) eqn:Eq; [|reflexivity]. now rewrite (eof_sticks n s2 l s3 Eq E2) in He1. }
    assert (Hal : alike s s).
    { exists (s_blob_end s), (s_dyn_start s). destruct (s_commit s); destruct s; reflexivity. }
    destruct (next_alike s s e s2 Hi Hal He ltac:(lia) E1 He2) as (Hi2 & Hd2 & _).
    destruct (IH s2 l s3 Hi2 He2 ltac:(lia) E2 He1) as (A & B & C & D).
    destruct (elem_sound s e s2 Hi He ltac:(lia) E1) as [(blob & hd & h & Hu & Hbl & Henc & Hp & Hel & _)|(G & -> & _)].
    2:{ exfalso. destruct (eof_set_resume s s2 Hi He ltac:(lia) E1) as [H _]. congruence. }
    assert (Hpd : pend s <= lenN (unread s)) by (rewrite Hu, lenN_app; lia).
    assert (Hdr : dropN (pend s) (unread s) = h ++ unread s2) by (rewrite Hu, <- Hbl; apply dropN_app_exact).
    assert (Hdf : depth_fits hd (s_depth s)) by (unfold depth_fits, field_depth; destruct hd as [t []| | | |]; auto; lia).
    pose proof (next_element_complete s hd h (unread s2) Hi He Hpd Hdr Henc Hp Hdf) as H1.
    rewrite E1 in H1. injection H1 as _ Hs2. subst s2.
    rewrite A, B, C, D, after_data, after_graceful, after_seek, after_dbg. auto.
Qed.

Lemma reread s0 n es s1 :
  rinv s0 -> s_commit s0 = None -> s_eof s0 = false -> s_pos s0 = d_pos (s_dev s0) -> s_pos s0 <= U64_MAX ->
  s_depth s0 + 2 * N.of_nat n + 1 < U64_MAX ->
  next_elements n s0 = (ROk es, s1) -> s_eof s1 = false -> pend s1 <= lenN (unread s1) ->
  exists s2, (st_seek (SkStart (s_pos s0)) ;; set_struct_depth (s_depth s0) ;; next_elements n) s1 = (ROk es, s2).
Proof.
  intros Hi Hc He Hpos Hp Hd H He1 Hpe.
  assert (Hal : alike s0 s0) by (exists (s_blob_end s0), (s_dyn_start s0); rewrite Hc; destruct s0; reflexivity).
  destruct (next_elements_alike n s0 s0 es s1 Hi Hal He Hd H He1) as (Hi1 & _).
  destruct (next_elements_same n s0 es s1 Hi He Hd H He1) as (A & B & C & D).
  set (s2 := set_depth_ (s_depth s0) (set_depth_ 0 (set_pos_ (s_pos s0) (set_dyn_start 0 (set_blob_end 0
               (set_dev (mkDev (d_data (s_dev s1)) (s_pos s0) []) (settled s1))))))).
  assert (Hsk : (st_seek (SkStart (s_pos s0)) ;; set_struct_depth (s_depth s0)) s1 = (ROk tt, s2)).
  { unfold st_seek. unfold mbind at 1. rewrite (mbind_ok _ _ _ _ _ (commit_complete s1 Hi1 Hpe)).
    unfold mbind at 1, lift_io, on_dev, dev_seek.
    assert (Hs : d_sched (s_dev (settled s1)) = []) by apply Hi1. rewrite Hs. cbn [tl].
    destruct (Z.ltb_spec (Z.of_N (s_pos s0)) 0); [lia|]. cbn [orb].
    destruct (Z.ltb_spec (Z.of_N U64_MAX) (Z.of_N (s_pos s0))); [lia|]. rewrite N2Z.id.
    reflexivity. }
  assert (Ha2 : alike s0 s2).
  { exists 0, 0. rewrite Hc. unfold s2, settled. apply stream_eq; scbn; auto; try congruence.
    - rewrite A, Hpos. destruct Hi as [Hs _ _ _]. unfold sch in Hs. destruct (s_dev s0) as [dd pp ss]. cbn in *. now subst.
    - change (s_eof s1 = s_eof s0). congruence. }
  destruct (next_elements_alike n s0 s2 es s1 Hi Ha2 He Hd H He1) as (_ & s3 & E3).
  exists s3. unfold mbind in Hsk |- *. destruct (st_seek (SkStart (s_pos s0)) s1) as [[x| | |] sx]; try discriminate.
  destruct (set_struct_depth (s_depth s0) sx) as [[u| | |] sy]; try discriminate.
  injection Hsk as _ ->. exact E3.
Qed.
