(** * P_Copy: [write_element] / [write_field] (C24) *)

From Verif Require Import Base Wire Dev Stream SpecWire SpecFormat SpecStream SpecBlob SpecHist SpecWrite
  P_Base P_Wire P_Sched P_Read P_Write P_Blob P_Stream P_Field P_Skip P_Canon P_WriteBlobs.

Lemma on_src_ok {E A} (m : M stream E A) a b r a' : m a = (r, a') -> on_src m (a, b) = (r, (a', b)).
Proof. intros H. unfold on_src. now rewrite H. Qed.
Lemma on_dst_ok {E A} (m : M stream E A) a b r b' : m b = (r, b') -> on_dst m (a, b) = (r, (a, b')).
Proof. intros H. unfold on_dst. now rewrite H. Qed.

(** Copying what is left of the source's blob into a blob with room for it. *)
Lemma copy_blob_ok src dst p tl :
  in_blob src -> s_commit src = Some CSkipBlob -> rest src = p ++ tl -> s_blob_end src - s_pos src = lenN p ->
  winv dst -> s_pos dst + lenN p <= s_blob_end dst -> s_blob_end dst <= U64_MAX ->
  copy_blob (src, dst) = (ROk tt, (adv (lenN p) src, wr p dst)).
Proof.
  intros Hb Hc Hr Hl Hw Hd1 Hd2. unfold copy_blob. cbn [fst].
  destruct Hb as (Hs & Hb1 & Hb2). rewrite Hs. cbn [length Nat.add].
  assert (Hend : forall dst, copy_loop 1 (adv (lenN p) src, dst) = (ROk tt, (adv (lenN p) src, dst))).
  { intros d. cbn [copy_loop].
    assert (Hb' : in_blob (adv (lenN p) src)).
    { split; [exact Hs|]. change (s_pos (adv (lenN p) src)) with (s_pos src + lenN p).
      change (s_blob_end (adv (lenN p) src)) with (s_blob_end src). lia. }
    rewrite (on_src_ok _ _ _ _ _ (b_read_ok _ U64_MAX Hb')).
    change (s_pos (adv (lenN p) src)) with (s_pos src + lenN p).
    change (s_blob_end (adv (lenN p) src)) with (s_blob_end src).
    replace (s_blob_end src - (s_pos src + lenN p)) with 0 by lia.
    rewrite N.min_0_l, N.min_0_r, takeN_0, adv_0. reflexivity. }
  pose proof (b_read_ok src U64_MAX ltac:(split; auto)) as Hrd. cbv zeta in Hrd.
  rewrite Hl, Hr, lenN_app in Hrd.
  replace (N.min U64_MAX (N.min (lenN p) (lenN p + lenN tl))) with (lenN p) in Hrd by lia.
  rewrite takeN_app_exact in Hrd.
  remember 1%nat as one. cbn [copy_loop]. rewrite (on_src_ok _ _ _ _ _ Hrd).
  destruct p as [|x p].
  - change (lenN (@nil N)) with 0. rewrite wr_nil by exact Hw. reflexivity.
  - assert (Hwr : on_dst (b_write_all (x :: p)) (adv (lenN (x :: p)) src, dst) = (ROk tt, (adv (lenN (x :: p)) src, wr (x :: p) dst))).
    { apply on_dst_ok. now apply b_write_all_ok. }
    unfold mbind. rewrite Hwr. subst one. rewrite Hend. reflexivity.
Qed.

(** One element: read it from a source positioned at [h ++ payload], write it. *)
Lemma copy_one src dst e h tl out :
  positioned src (h ++ payload e ++ tl) -> elem_enc e (h ++ payload e) -> hdr_enc (hdr_of e) h ->
  s_pos src + pend src + lenN h + lenN (payload e) <= U64_MAX -> s_depth src + 1 < U64_MAX ->
  appending dst out -> no_open_blob dst -> s_pos dst + lenN (payload e) + 11 <= U64_MAX ->
  exists src1 dst1,
    (let* e := on_src next_element in
      write_element e ;;
      match e with ElEndOfDoc => on_src clear_eof | _ => mret tt end) (src, dst) = (ROk tt, (src1, dst1)) /\
    positioned src1 tl /\ s_depth src1 = depth_after (hdr_of e) (s_depth src) /\
    s_pos src1 + pend src1 = s_pos src + pend src + lenN h + lenN (payload e) /\
    appending dst1 (out ++ canon e) /\ no_open_blob dst1 /\ s_pos dst1 = s_pos dst + lenN (canon e).
Proof.
  intros Hpos Henc Hh Hp Hd Ha Hno Hpd. pose proof (app_winv _ _ Ha) as Hw.
  destruct (positioned_after src 0 (hdr_of e) h (payload e) tl Hpos Hh (payload_hdr e)) as (Hpa & Hpb & Hpp & Hu & Hpe & Hri).
  { change (N.of_nat 0) with 0. lia. }
  change (N.of_nat 0) with 0 in *. rewrite adv_0, N.add_0_r in *.
  set (s1 := after (hdr_of e) h (settled src)) in *.
  assert (Hn : next_element src = (ROk (elem_of (hdr_of e) (s_pos src + pend src) (s_depth src)), s1)).
  { destruct Hpos as (Hi & He & Hpd0 & Hu0).
    apply (next_element_complete src (hdr_of e) h (payload e ++ tl)); auto.
    - rewrite payload_hdr. lia.
    - unfold depth_fits, field_depth. destruct (hdr_of e) as [t []| | | |]; try exact I; lia. }
  rewrite (mbind_ok _ _ _ _ _ (on_src_ok _ _ dst _ _ Hn)).
  assert (Hok : delem_ok e).
  { pose proof (elems_enc_ok [e] ((h ++ payload e) ++ []) ltac:(constructor; [exact Henc|constructor])) as Hf.
    now inversion Hf. }
  assert (Hd1 : s_depth s1 = depth_after (hdr_of e) (s_depth src)) by (unfold s1; rewrite after_depth; reflexivity).
  assert (Hplain : forall (m : SM unit), is_blobby (hdr_of e) = false -> write_delem e dst = m dst ->
    forall k : M (stream * stream) serr unit,
    (hdr_of e <> HdEof -> k = mret tt) -> (hdr_of e = HdEof -> k = on_src clear_eof) ->
    exists src1 dst1, (on_dst m ;; k) (s1, dst) = (ROk tt, (src1, dst1)) /\
      positioned src1 tl /\ s_depth src1 = depth_after (hdr_of e) (s_depth src) /\
      s_pos src1 + pend src1 = s_pos src + pend src + lenN h + lenN (payload e) /\
      appending dst1 (out ++ canon e) /\ no_open_blob dst1 /\ s_pos dst1 = s_pos dst + lenN (canon e)).
  { intros m Hnb Hm k Hk1 Hk2.
    destruct (write_delem_ok e dst Hw Hno Hok Hpd) as (d1 & W1 & W2 & W3 & W4 & W5).
    rewrite Hm in W1. 
    assert (Ha1 : appending d1 (out ++ canon e)).
    { unfold appending. rewrite W4. apply (wr_app dst out (canon e) Ha). }
    rewrite (mbind_ok _ _ _ _ _ (on_dst_ok _ s1 _ _ _ W1)).
    destruct (hdr_of e) eqn:Ehd.
    1,2,4,5: rewrite Hk1 by discriminate; exists s1, d1; split; [reflexivity|]; split; [apply Hpa; discriminate|]; auto.
    rewrite Hk2 by reflexivity. exists (set_eof_ false s1), d1.
    split; [reflexivity|]. split; [exact Hpb|]. split; [exact Hd1|]. split; [exact Hpp|]. auto. }
  assert (Hblob : forall d, is_blobby (hdr_of e) = true -> hdr_of e <> HdEof -> pdesc_ok d ->
    canon e = (desc_code d :: enc (lenN (payload e))) ++ payload e ->
    exists src1 dst1, ((on_dst (write_desc_with_blob_alloc d (lenN (payload e))) ;; copy_blob) ;; mret tt) (s1, dst) = (ROk tt, (src1, dst1)) /\
      positioned src1 tl /\ s_depth src1 = depth_after (hdr_of e) (s_depth src) /\
      s_pos src1 + pend src1 = s_pos src + pend src + lenN h + lenN (payload e) /\
      appending dst1 (out ++ canon e) /\ no_open_blob dst1 /\ s_pos dst1 = s_pos dst + lenN (canon e)).
  { intros d Hbb Hne Hpd1 Hcan. 
    assert (H64 : lenN (payload e) < 2 ^ 64) by (unfold U64_MAX in *; change (2^64) with 18446744073709551616; lia).
    pose proof (enc_len _ H64) as Hel.
    pose proof (write_alloc_ok d (lenN (payload e)) dst Hw Hno Hpd1 ltac:(lia) ltac:(lia)) as Hal.
    set (hh := desc_code d :: enc (lenN (payload e))) in *.
    set (d1 := set_commit (Some CCheckEnd) (set_blob_end (s_pos dst + 1 + lenN (enc (lenN (payload e))) + lenN (payload e)) (wr hh dst))) in *.
    assert (Hlh : lenN hh = 1 + lenN (enc (lenN (payload e)))) by (unfold hh; rewrite lenN_cons; lia).
    assert (Hp1 : s_pos d1 = s_pos dst + lenN hh) by reflexivity.
    assert (Hb1 : s_blob_end d1 = s_pos dst + lenN hh + lenN (payload e)) by (unfold d1; scbn; lia).
    assert (Hib : in_blob s1).
    { apply after_in_blob; [apply Hpos|exact Hbb|]. change (s_pos (settled src)) with (s_pos src + pend src).
      rewrite payload_hdr. lia. }
    assert (Hcm : s_commit s1 = Some CSkipBlob) by (unfold s1; destruct (hdr_of e) as [t []| | | |]; try discriminate; reflexivity).
    assert (Hrem : s_blob_end s1 - s_pos s1 = lenN (payload e)) by (unfold pend in Hpe; now rewrite Hcm in Hpe).
    pose proof (copy_blob_ok s1 d1 (payload e) tl Hib Hcm Hu Hrem) as Hcp.
    rewrite (mbind_ok (on_dst (write_desc_with_blob_alloc d (lenN (payload e))) ;; copy_blob) _ (s1, dst) tt (adv (lenN (payload e)) s1, wr (payload e) d1)).
    2:{ rewrite (mbind_ok _ _ _ _ _ (on_dst_ok _ s1 _ _ _ Hal)). apply Hcp; [apply (wr_winv hh dst Hw)|lia|lia]. }
    assert (He1 : s_eof s1 = false).
    { unfold s1. rewrite after_eof. destruct (hdr_of e); try congruence; apply Hpos. }
    assert (Hfin : exists s2, b_read_fully U64_MAX s1 = (ROk (payload e), s2) /\ positioned s2 tl /\ s_pos s2 + pend s2 = s_pos s1 + pend s1 /\ s_depth s2 = s_depth s1).
    { apply fully_positioned; auto. lia. }
    destruct Hfin as (s2 & F1 & F2 & F3 & F4).
    assert (Hs2 : s2 = adv (lenN (payload e)) s1).
    { pose proof (b_read_fully_ok s1 U64_MAX Hib) as Hbf. cbv zeta in Hbf. rewrite F1, Hrem in Hbf.
      destruct (N.ltb_spec U64_MAX (lenN (payload e))); [lia|]. injection Hbf as _ ->.
      change (rest s1) with (unread s1). rewrite Hu, lenN_app, N.min_l by lia. reflexivity. }
    rewrite Hs2 in *.
    eexists _, _. split; [reflexivity|]. split; [exact F2|]. split; [now rewrite F4|]. split; [rewrite F3; exact Hpp|].
    assert (Ha2 : appending (wr (payload e) d1) (out ++ canon e)).
    { rewrite Hcan, app_assoc. apply wr_app. unfold appending, d1. scbn. apply (wr_app dst out hh Ha). }
    split; [exact Ha2|]. split.
    - right. split; [reflexivity|]. rewrite wr_pos. change (s_blob_end (wr (payload e) d1)) with (s_blob_end d1). lia.
    - rewrite wr_pos, Hcan, lenN_app. lia. }
  destruct e as [t [n|c| |d]| | |m|]; cbn [hdr_of elem_of vhdr_of write_element write_field f_val f_tag payload] in *.
  - apply Hplain; auto; discriminate.
  - apply (Hblob (PPair DBlob t)); auto; try discriminate. apply Hok.
  - apply Hplain; auto; discriminate.
  - apply Hplain; auto; discriminate.
  - apply Hplain; auto; discriminate.
  - apply Hplain; auto; congruence.
  - apply (Hblob (PSpecial SpException)); auto; try discriminate; exact I.
  - apply Hplain; auto; discriminate.
Qed.

Lemma copy_all es : forall bs src dst tl out,
  elems_enc es bs -> positioned src (bs ++ tl) ->
  s_pos src + pend src + lenN bs <= U64_MAX -> s_depth src + 2 * N.of_nat (length es) + 1 < U64_MAX ->
  appending dst out -> no_open_blob dst -> s_pos dst + size_bound es <= U64_MAX ->
  exists src1 dst1, copy_elems (length es) (src, dst) = (ROk tt, (src1, dst1)) /\
    positioned src1 tl /\ appending dst1 (out ++ canons es) /\ no_open_blob dst1 /\
    s_pos dst1 = s_pos dst + lenN (canons es).
Proof.
  induction es as [|e es IH]; intros bs src dst tl out Henc Hpos Hp Hd Ha Hno Hpd.
  - inversion Henc; subst. exists src, dst. unfold canons; cbn [map concat]. rewrite app_nil_r.
    change (lenN (@nil N)) with 0. rewrite N.add_0_r. cbn. auto.
  - inversion Henc as [|? ? b bs2 He Hes]; subst. pose proof He as (h & Hh & Hpo & ->).
    rewrite size_bound_cons in Hpd. rewrite !lenN_app in Hp. cbn [length] in *.
    rewrite <- !app_assoc in Hpos.
    destruct (copy_one src dst e h (bs2 ++ tl) out) as (s1 & d1 & E1 & P1 & D1 & Q1 & A1 & N1 & R1); auto; try lia.
    assert (Hcl : lenN (canon e) <= lenN (payload e) + 11).
    { apply canon_len; [|unfold U64_MAX in *; change (2^64) with 18446744073709551616; lia].
      pose proof (elems_enc_ok _ _ Henc) as Hf. now inversion Hf. }
    destruct (IH bs2 s1 d1 tl (out ++ canon e)) as (s2 & d2 & E2 & P2 & A2 & N2 & R2); auto; try lia.
    { pose proof (depth_after_le (hdr_of e) (s_depth src)). lia. }
    exists s2, d2. split.
    + cbn [copy_elems]. 
      unfold mbind in E1 |- *. destruct (on_src next_element (src, dst)) as [[x| | |] [a1 b1]]; try discriminate.
      destruct (write_element x (a1, b1)) as [[u| | |] [a2 b2]]; try discriminate.
      destruct ((match x with ElEndOfDoc => on_src clear_eof | _ => mret tt end) (a2, b2)) as [[w| | |] st]; try discriminate.
      injection E1 as _ ->. exact E2.
    + rewrite canons_cons, app_assoc, lenN_app. split; [exact P2|]. split; [exact A2|]. split; [exact N2|]. lia.
Qed.

Lemma copying es bs src dst tl out :
  elems_enc es bs -> positioned src (bs ++ tl) ->
  s_pos src + pend src + lenN bs <= U64_MAX -> s_depth src + 2 * N.of_nat (length es) + 1 < U64_MAX ->
  appending dst out -> no_open_blob dst -> s_pos dst + size_bound es <= U64_MAX ->
  exists src1 dst1 w, copy_elems (length es) (src, dst) = (ROk tt, (src1, dst1)) /\
    positioned src1 tl /\ appending dst1 (out ++ w) /\ no_open_blob dst1 /\
    shortest es w /\ (shortest es bs -> w = bs).
Proof.
  intros Henc Hpos Hp Hd Ha Hno Hpd.
  destruct (copy_all es bs src dst tl out) as (s1 & d1 & E1 & P1 & A1 & N1 & R1); auto.
  exists s1, d1, (canons es). split; [exact E1|]. split; [exact P1|]. split; [exact A1|]. split; [exact N1|].
  split; [eapply canons_shortest; eauto|]. intros. symmetry. now apply shortest_unique.
Qed.

(** A blob of which [k] bytes were consumed before it is copied. *)
Lemma copy_partial src dst p tl out t len k po dp :
  in_blob src -> s_commit src = Some CSkipBlob -> rest src = p ++ tl -> s_blob_end src - s_pos src = lenN p ->
  len = k + lenN p -> 0 < k -> tag_ok t ->
  appending dst out -> no_open_blob dst -> s_pos dst + len + 11 <= U64_MAX ->
  exists src1 dst1 h, write_field (mkField t po dp (HBlob len)) (src, dst) = (ROk tt, (src1, dst1)) /\
    hdr_enc (HdField t (HvBlob len)) h /\ appending dst1 (out ++ h ++ p) /\
    forall op c, finishes_blob dst1 c -> call_run op c dst1 = (RErr (SIncompleteBlob k), dst1).
Proof.
  intros Hib Hcm Hr Hrem Hlen Hk Ht Ha Hno Hpd. pose proof (app_winv _ _ Ha) as Hw.
  assert (H64 : len < 2 ^ 64) by (unfold U64_MAX in *; change (2^64) with 18446744073709551616; lia).
  pose proof (enc_len _ H64) as Hel.
  pose proof (write_alloc_ok (PPair DBlob t) len dst Hw Hno Ht ltac:(lia) ltac:(lia)) as Hal.
  set (hh := desc_code (PPair DBlob t) :: enc len) in *.
  set (d1 := set_commit (Some CCheckEnd) (set_blob_end (s_pos dst + 1 + lenN (enc len) + len) (wr hh dst))) in *.
  assert (Hlh : lenN hh = 1 + lenN (enc len)) by (unfold hh; rewrite lenN_cons; lia).
  assert (Hp1 : s_pos d1 = s_pos dst + lenN hh) by reflexivity.
  assert (Hb1 : s_blob_end d1 = s_pos dst + lenN hh + len) by (unfold d1; scbn; lia).
  pose proof (copy_blob_ok src d1 p tl Hib Hcm Hr Hrem (wr_winv hh dst Hw) ltac:(lia) ltac:(lia)) as Hcp.
  exists (adv (lenN p) src), (wr p d1), hh. split; [|split; [|split]].
  - unfold write_field; cbn [f_val f_tag]. rewrite (mbind_ok _ _ _ _ _ (on_dst_ok _ src _ _ _ Hal)). exact Hcp.
  - apply (canon_hdr_enc (HdField t (HvBlob len))). split; assumption.
  - rewrite app_assoc. apply wr_app. unfold appending, d1. scbn. apply (wr_app dst out hh Ha).
  - intros op c Hf. apply commit_first_err; [exact Hf|]. unfold commit. change (s_commit (wr p d1)) with (Some CCheckEnd).
    unfold mbind, check_at_end_of_blob. rewrite wr_pos. change (s_blob_end (wr p d1)) with (s_blob_end d1).
    destruct (N.eqb_spec (s_pos d1 + lenN p) (s_blob_end d1)); [lia|].
    rewrite u64_sub_ok by lia. do 3 f_equal. lia.
Qed.

Lemma copy_partial' src dst p tl out t len k po dp :
  sch src = [] -> s_pos src <= s_blob_end src <= U64_MAX -> s_commit src = Some CSkipBlob ->
  unread src = p ++ tl -> s_blob_end src - s_pos src = lenN p ->
  len = k + lenN p -> 0 < k -> tag_ok t ->
  appending dst out -> no_open_blob dst -> s_pos dst + len + 11 <= U64_MAX ->
  exists src1 dst1 h, write_field (mkField t po dp (HBlob len)) (src, dst) = (ROk tt, (src1, dst1)) /\
    hdr_enc (HdField t (HvBlob len)) h /\ appending dst1 (out ++ h ++ p) /\
    forall op c, finishes_blob dst1 c -> call_run op c dst1 = (RErr (SIncompleteBlob k), dst1).
Proof. intros Hs [H1 H2]. apply (copy_partial src dst p tl out t len k po dp). split; auto. Qed.
