(** * P_Stream: proofs of the properties of reading and writing elements *)

From Verif Require Import Base Wire Dev Stream SpecWire SpecFormat SpecStream.
From Verif Require Import P_Base P_Wire P_Sched P_Read P_Write P_Blob.

(** ** Effects of reading one element *)
Lemma rinv_settled s : rinv s -> rinv (settled s).
Proof. intros [H1 H2 H3 H4]. constructor; auto. Qed.
Lemma rinv_adv n s : rinv s -> rinv (adv n s).
Proof. intros [H1 H2 H3 H4]. constructor; auto. Qed.
Lemma after_pos hd h s : s_pos (after hd h s) = s_pos s + lenN h.
Proof. destruct hd as [t []| | | |]; reflexivity. Qed.
Lemma after_depth hd h s : s_depth (after hd h s) = depth_after hd (s_depth s).
Proof. destruct hd as [t []| | | |]; reflexivity. Qed.
Lemma after_eof hd h s : s_eof (after hd h s) = (match hd with HdEof => true | _ => s_eof s end).
Proof. destruct hd as [t []| | | |]; reflexivity. Qed.
Lemma after_unread hd h s : unread (after hd h s) = dropN (lenN h) (rest s).
Proof. rewrite <- rest_adv. destruct hd as [t []| | | |]; reflexivity. Qed.
Lemma after_graceful hd h s : s_graceful (after hd h s) = s_graceful s.
Proof. destruct hd as [t []| | | |]; reflexivity. Qed.
Lemma after_seek hd h s : s_seek (after hd h s) = s_seek s.
Proof. destruct hd as [t []| | | |]; reflexivity. Qed.
Lemma after_dbg hd h s : s_dbg (after hd h s) = s_dbg s.
Proof. destruct hd as [t []| | | |]; reflexivity. Qed.
Lemma after_data hd h s : d_data (s_dev (after hd h s)) = d_data (s_dev s).
Proof. destruct hd as [t []| | | |]; reflexivity. Qed.
Lemma after_rinv hd h s : rinv s -> s_commit s = None ->
  s_pos s + lenN h + hdr_payload hd <= U64_MAX -> rinv (after hd h s).
Proof.
  intros [H1 H2 H3 H4] Hc Hp. 
  destruct hd as [t []| | |len|]; cbn [hdr_payload] in Hp; constructor; auto;
    right; (split; [reflexivity|]); unfold after; scbn; lia.
Qed.
Lemma after_pend hd h s : s_commit s = None -> pend (after hd h s) = hdr_payload hd.
Proof.
  intros Hc. destruct hd as [t []| | |len|]; unfold pend, after, adv; scbn; rewrite ?Hc;
    cbn [hdr_payload]; try reflexivity; lia.
Qed.
Lemma after_in_blob hd h s : sch s = [] -> is_blobby hd = true ->
  s_pos s + lenN h + hdr_payload hd <= U64_MAX -> in_blob (after hd h s).
Proof.
  intros Hs Hb Hp. destruct hd as [t []| | |len|]; try discriminate; cbn [hdr_payload] in *;
  (split; [exact Hs|]); unfold after, adv; scbn; lia.
Qed.

Lemma elem_complete s hd h tl :
  rinv s -> s_eof s = false -> pend s <= lenN (unread s) ->
  dropN (pend s) (unread s) = h ++ tl -> hdr_enc hd h ->
  s_pos s + pend s + lenN h + hdr_payload hd <= U64_MAX ->
  s_depth s + 1 < U64_MAX ->
  exists s', next_element s = (ROk (elem_of hd (s_pos s + pend s) (s_depth s)), s') /\
    unread s' = tl /\ s_pos s' = s_pos s + pend s + lenN h /\
    s_depth s' = depth_after hd (s_depth s) /\ pend s' = hdr_payload hd /\
    s_eof s' = (match hd with HdEof => true | _ => false end) /\ rinv s'.
Proof.
  intros Hi He Hpl Hr Henc Hp Hd. exists (after hd h (settled s)).
  split.
  { apply (next_element_complete s hd h tl); auto. unfold depth_fits, field_depth.
    destruct hd as [t []| | | |]; auto; lia. }
  rewrite after_unread, after_pos, after_depth, after_pend, after_eof by reflexivity.
  assert (Hrs : rest (settled s) = dropN (pend s) (unread s)) by (apply rest_adv).
  rewrite Hrs, Hr, dropN_app_exact.
  change (s_pos (settled s)) with (s_pos s + pend s). change (s_eof (settled s)) with (s_eof s).
  rewrite He. repeat split; auto; try (destruct hd; reflexivity).
  all: apply after_rinv; [apply rinv_settled; exact Hi|reflexivity|].
  all: change (s_pos (settled s)) with (s_pos s + pend s); exact Hp.
Qed.

(** Whatever next_element returns without error is an element of the input. *)
Lemma impl_outcome sp s r s' :
  rinv s -> s_eof s = false -> s_depth s + 1 < U64_MAX ->
  next_element_impl sp s = (r, s') ->
  match r with
  | ROk e =>
      (pend s <= lenN (rest s) /\ impl_ok sp (settled s) s' e) \/
      (lenN (rest s) < pend s /\ s_seek s = true /\ s_graceful s = true /\ e = ElEndOfDoc /\
       s_pos s + pend s < U64_MAX /\ s' = set_depth_ 0 (set_eof_ true (settled s)))
  | RErr e =>
      (exists k, lenN (rest s) <= k < pend s /\ e = STruncatedBlob (pend s - k) /\ s' = adv k s /\
         (s_seek s = false -> k = lenN (rest s))) \/
      (((pend s <= lenN (rest s)) \/ s_seek s = true) /\ read_err e (settled s) s')
  | _ => False
  end.
Proof.
  intros Hi He Hd H. unfold next_element_impl in H. rewrite He in H.
  assert (Hd' : field_depth (s_depth (settled s)) < U64_MAX).
  { change (s_depth (settled s)) with (s_depth s). unfold field_depth. unfold U64_MAX in *. lia. }
  destruct (commit_outcome s Hi) as [[Hp Hc]|(Hp & [(Hsk & Hd2 & Hc)|(k & Hk & Hk2 & Hc)])].
  - rewrite (mbind_ok _ _ _ _ _ Hc) in H. fold (settled s) in H.
    apply loop_outcome in H; [|apply Hi|apply rinv_rest_ok, rinv_settled, Hi|exact Hd'].
    destruct r as [e|e| |]; try contradiction; auto.
  - rewrite (mbind_ok _ _ _ _ _ Hc) in H. fold (settled s) in H.
    apply loop_outcome in H; [|apply Hi|apply rinv_rest_ok, rinv_settled, Hi|exact Hd'].
    assert (Hnil : rest (settled s) = []).
    { change (rest (settled s)) with (rest (adv (pend s) s)). rewrite rest_adv. apply dropN_all. lia. }
    destruct r as [e|e| |]; try contradiction; auto.
    right. split; [exact Hp|]. split; [exact Hsk|].
    destruct H as [(np & hd & h & tl & Hr & Henc & _)|(np & Hg & Hr & _ & Hpp & -> & ->)].
    + exfalso. rewrite Hnil in Hr. pose proof (hdr_enc_len _ _ Henc) as Hl.
      assert (Hz : lenN (@nil N) = lenN (repeat 192 np ++ h ++ tl)) by (rewrite <- Hr; reflexivity).
      rewrite !lenN_app in Hz. change (lenN (@nil N)) with 0 in Hz. lia.
    + rewrite Hnil in Hr. destruct np; [|discriminate].
      change (N.of_nat 0) with 0 in *. rewrite adv_0. rewrite N.add_0_r in Hpp. repeat split; auto.
  - rewrite (mbind_err _ _ _ _ _ Hc) in H. injection H as <- <-. left. exists k. auto.
Qed.

Lemma elem_sound s e s' :
  rinv s -> s_eof s = false -> s_depth s + 1 < U64_MAX ->
  next_element s = (ROk e, s') ->
  (exists blob hd h, unread s = blob ++ h ++ unread s' /\ lenN blob = pend s /\ hdr_enc hd h /\
     s_pos s + pend s + lenN h + hdr_payload hd <= U64_MAX /\
     e = elem_of hd (s_pos s + pend s) (s_depth s) /\
     s_pos s' = s_pos s + pend s + lenN h /\
     d_pos (s_dev s') = d_pos (s_dev s) + pend s + lenN h) \/
  (s_graceful s = true /\ e = ElEndOfDoc /\ unread s' = [] /\ lenN (unread s) <= pend s /\
   s_pos s' = s_pos s + pend s /\ d_pos (s_dev s') = d_pos (s_dev s) + pend s).
Proof.
  intros Hi He Hd H. unfold next_element in H. apply impl_outcome in H; auto.
  assert (Hrs : rest (settled s) = dropN (pend s) (unread s)) by (apply rest_adv).
  destruct H as [[Hp [(np & hd & h & tl & Hr & Henc & Hnp & _ & Hpos & -> & ->)|
                      (np & Hg & Hr & Hnp & Hpos & -> & ->)]]|(Hp & Hsk & Hg & -> & Hpos & ->)].
  - rewrite (Hnp eq_refl) in *. change (N.of_nat 0) with 0 in *. rewrite adv_0, N.add_0_r in *.
    change (s_pos (settled s)) with (s_pos s + pend s) in *.
    left. exists (takeN (pend s) (unread s)), hd, h. cbn [repeat app] in Hr.
    rewrite after_unread, Hr, dropN_app_exact, after_pos.
    split; [rewrite <- Hr, Hrs, takeN_dropN; reflexivity|].
    split; [rewrite lenN_takeN; change (rest s) with (unread s) in Hp; lia|].
    repeat split; auto.
    destruct hd as [t []| | | |]; reflexivity.
  - rewrite (Hnp eq_refl) in *. change (N.of_nat 0) with 0 in *. rewrite adv_0 in *.
    right. cbn [repeat] in Hr.
    split; [exact Hg|]. split; [reflexivity|].
    split; [exact Hr|]. split; [|split; reflexivity].
    rewrite Hrs in Hr.
    assert (Hz : lenN (dropN (pend s) (unread s)) = 0) by (rewrite Hr; reflexivity).
    rewrite lenN_dropN in Hz. lia.
  - right. split; [exact Hg|]. split; [reflexivity|].
    split; [change (rest (settled s) = []); rewrite Hrs; apply dropN_all; change (rest s) with (unread s) in Hp; lia|].
    split; [change (rest s) with (unread s) in Hp; lia|split; reflexivity].
Qed.

(** Errors of next_element never move past the input and leave the device in
    step with the position. *)
Lemma elem_no_panic s : rinv s -> s_depth s + 1 < U64_MAX ->
  match fst (next_element s) with RPanic | RFuel => False | _ => True end.
Proof.
  intros Hi Hd. destruct (s_eof s) eqn:He.
  - unfold next_element, next_element_impl. rewrite He. exact I.
  - destruct (next_element s) as [r s'] eqn:E. unfold next_element in E.
    apply impl_outcome in E; auto. destruct r; try exact I; exact E.
Qed.

(** ** C07: round trip of a sequence *)

(** Canonical bytes. *)
Definition canon_hdr (h : hdr) : bytes :=
  match h with
  | HdField t (HvInt n) => 0x40 + t :: enc n
  | HdField t (HvBlob n) => 0x80 + t :: enc n
  | HdField t HvStruct => [0xC0 + t]
  | HdField t (HvEnum n) => 0x00 + t :: enc n
  | HdEnd => [0x00]
  | HdEof => [0x40]
  | HdExc n => 0x80 :: enc n
  | HdPad => [0xC0]
  end.
Definition canon (e : delem) : bytes := canon_hdr (hdr_of e) ++ payload e.
Definition hdr_ok (h : hdr) : Prop :=
  match h with
  | HdField t v => tag_ok t /\ match v with HvInt n | HvBlob n | HvEnum n => n < 2 ^ 64 | HvStruct => True end
  | HdExc n => n < 2 ^ 64
  | _ => True
  end.
Lemma canon_hdr_enc h : hdr_ok h -> hdr_enc h (canon_hdr h).
Proof.
  assert (He : forall n, n < 2 ^ 64 -> legal_varint (enc n) n /\ bytes_ok (enc n)).
  { intros n Hn. destruct (enc_spec n Hn) as (_ & H1 & H2 & _). auto. }
  destruct h as [t [n|n| |n]| | |n|]; cbn [hdr_ok canon_hdr]; intros H.
  1,2,4: destruct H as [Ht Hn]; destruct (He n Hn); constructor; auto.
  - constructor. apply H.
  - constructor.
  - constructor.
  - destruct (He n H); constructor; auto.
  - constructor.
Qed.
Lemma canon_hdr_len h : hdr_ok h -> 1 <= lenN (canon_hdr h) <= 11.
Proof.
  assert (He : forall (b : N) n, n < 2 ^ 64 -> 1 <= lenN (b :: enc n) <= 11).
  { intros b n Hn. pose proof (enc_len n Hn). rewrite lenN_cons. lia. }
  destruct h as [t [n|n| |n]| | |n|]; cbn [hdr_ok canon_hdr]; intros H; try (apply He; apply H);
    try (destruct H); try (apply He; assumption); (vm_compute; split; discriminate) || (change (lenN [192 + t]) with 1; lia).
Qed.
Lemma delem_hdr_ok e : delem_ok e -> lenN (payload e) < 2 ^ 64 -> hdr_ok (hdr_of e).
Proof. destruct e as [t []| | | |]; cbn; intros; try tauto. Qed.

Lemma payload_hdr e : hdr_payload (hdr_of e) = lenN (payload e).
Proof. destruct e as [t []| | | |]; reflexivity. Qed.

Lemma write_delem_ok e s : winv s -> settled_w s -> delem_ok e ->
  s_pos s + lenN (payload e) + 11 <= U64_MAX ->
  exists s', write_delem e s = (ROk tt, s') /\ settled_w s' /\ winv s' /\
    s_dev s' = s_dev (wr (canon e) s) /\ s_pos s' = s_pos s + lenN (canon e).
Proof.
  intros Hw Hs He Hp.
  assert (H64 : lenN (payload e) < 2 ^ 64) by (unfold U64_MAX in Hp; change (2^64) with 18446744073709551616; lia).
  assert (Hl : forall n, n < 2 ^ 64 -> lenN (enc n) <= 10) by (intros n Hn; pose proof (enc_len n Hn); lia).
  assert (Hsimple : forall (m : SM unit) bs, m s = (ROk tt, wr bs (set_commit None s)) ->
     exists s', m s = (ROk tt, s') /\ settled_w s' /\ winv s' /\
       s_dev s' = s_dev (wr bs s) /\ s_pos s' = s_pos s + lenN bs).
  { intros m bs Hm. exists (wr bs (set_commit None s)). split; [exact Hm|].
    split; [now left|]. split; [apply wr_winv; exact Hw|]. split; reflexivity. }
  assert (Hblob : forall (m : SM N) d data, pdesc_ok d -> lenN data = lenN (payload e) ->
     (forall s, m s = ((let* len := write_desc_with_blob_alloc d (lenN data) in
         lift_io (b_write_all data) ;; mret len) s)) ->
     exists s', (m ;; mret tt) s = (ROk tt, s') /\ settled_w s' /\ winv s' /\
       s_dev s' = s_dev (wr ((desc_code d :: enc (lenN data)) ++ data) s) /\ 
       s_pos s' = s_pos s + lenN ((desc_code d :: enc (lenN data)) ++ data)).
  { intros m d data Hd Hld Hm.
    pose proof (write_blob_gen_ok d data s Hw Hs Hd ltac:(lia) ltac:(lia)) as Hb. cbv zeta in Hb.
    rewrite <- Hm in Hb. rewrite (mbind_ok _ _ _ _ _ Hb). 
    eexists. split; [reflexivity|]. split.
    - right. split; [reflexivity|]. scbn. rewrite wr_pos. reflexivity.
    - split; [apply (wr_winv _ s Hw)|]. split; reflexivity. }
  destruct e as [t [n|c| |d]| | |m|]; cbn [write_delem payload] in *; unfold canon; cbn [hdr_of canon_hdr payload]; rewrite ?app_nil_r.
  - apply Hsimple. destruct He. apply write_u64_ok; auto. specialize (Hl n ltac:(assumption)).
    change (lenN (@nil N)) with 0 in Hp. lia.
  - apply (Hblob _ (PPair DBlob t) c); [apply He|reflexivity|reflexivity].
  - apply Hsimple. apply write_desc_ok; auto; [apply He|]. lia.
  - apply Hsimple. destruct He. apply write_enum_ok; auto. specialize (Hl d ltac:(assumption)).
    change (lenN (@nil N)) with 0 in Hp. lia.
  - apply Hsimple. apply (write_desc_ok (PSpecial SpEndOfStruct)); auto; try exact I; lia.
  - apply Hsimple. apply (write_desc_ok (PSpecial SpEndOfDoc)); auto; try exact I; lia.
  - apply (Hblob _ (PSpecial SpException) m); [exact I|reflexivity|reflexivity].
  - apply Hsimple. apply (write_desc_ok (PSpecial SpPadding)); auto; try exact I; lia.
Qed.

Definition canons (es : list delem) : bytes := concat (map canon es).
(** Offsets of the elements when the first is at [p]. *)
Fixpoint offsets (p : N) (es : list delem) : list N :=
  match es with [] => [] | e :: r => p :: offsets (p + lenN (canon e)) r end.

Lemma canon_len e : delem_ok e -> lenN (payload e) < 2 ^ 64 -> 
  1 <= lenN (canon e) <= lenN (payload e) + 11.
Proof.
  intros H1 H2. unfold canon. rewrite lenN_app.
  pose proof (canon_hdr_len _ (delem_hdr_ok e H1 H2)). lia.
Qed.

Lemma size_bound_cons e es : size_bound (e :: es) = lenN (payload e) + 11 + size_bound es.
Proof. reflexivity. Qed.

Lemma write_elems_ok es : forall s, winv s -> settled_w s -> Forall delem_ok es ->
  s_pos s + size_bound es <= U64_MAX ->
  exists s', write_elems es s = (ROk (offsets (s_pos s) es), s') /\ settled_w s' /\ winv s' /\
    s_dev s' = s_dev (wr (canons es) s) /\ s_pos s' = s_pos s + lenN (canons es).
Proof.
  induction es as [|e es IH]; intros s Hw Hs Hok Hp.
  - exists s. split; [reflexivity|]. split; [exact Hs|]. split; [exact Hw|].
    unfold canons; cbn [map concat]. rewrite wr_nil by exact Hw. split; [reflexivity|].
    change (lenN (@nil N)) with 0. lia.
  - inversion Hok as [|? ? He Hes]; subst. rewrite size_bound_cons in Hp.
    destruct (write_delem_ok e s Hw Hs He ltac:(lia)) as (s1 & H1 & Hs1 & Hw1 & Hd1 & Hp1).
    assert (H64 : lenN (payload e) < 2 ^ 64) by (unfold U64_MAX in Hp; change (2^64) with 18446744073709551616; lia).
    pose proof (canon_len e He H64) as Hcl.
    destruct (IH s1 Hw1 Hs1 Hes ltac:(lia)) as (s2 & H2 & Hs2 & Hw2 & Hd2 & Hp2).
    exists s2. split.
    + cbn [write_elems offsets]. unfold mbind at 1, mget. rewrite (mbind_ok _ _ _ _ _ H1).
      rewrite (mbind_ok _ _ _ _ _ H2). unfold mret. now rewrite Hp1.
    + split; [exact Hs2|]. split; [exact Hw2|].
      unfold canons in *. cbn [map concat]. split.
      * rewrite Hd2. rewrite <- wr_wr. unfold wr. scbn. rewrite Hd1. unfold sch. rewrite Hd1. reflexivity.
      * rewrite Hp2, Hp1, lenN_app. lia.
Qed.

Lemma read_elems_ok es : forall s tl,
  rinv s -> s_eof s = false -> pend s = 0 -> Forall delem_ok es ->
  unread s = canons es ++ tl ->
  s_pos s + lenN (canons es) <= U64_MAX -> s_depth s + 2 * N.of_nat (length es) + 1 < U64_MAX ->
  exists s', read_elems (length es) s = (ROk (reported es (offsets (s_pos s) es) (s_depth s)), s') /\
    unread s' = tl /\ s_pos s' = s_pos s + lenN (canons es) /\ s_eof s' = false /\
    pend s' = 0 /\ rinv s' /\
    s_depth s' = fold_left (fun d e => depth_after (hdr_of e) d) es (s_depth s).
Proof.
  induction es as [|e es IH]; intros s tl Hi He Hpend Hok Hr Hp Hd.
  - exists s. unfold canons in *; cbn [map concat app] in *.
    change (lenN (@nil N)) with 0. rewrite N.add_0_r. repeat split; auto; apply Hi.
  - inversion Hok as [|? ? Heok Hes]; subst.
    unfold canons in *. cbn [map concat length] in *. fold (canons es) in *.
    rewrite lenN_app in Hp. unfold canon in Hr at 1. rewrite <- !app_assoc in Hr.
    assert (Hcl : lenN (canon e) = lenN (canon_hdr (hdr_of e)) + lenN (payload e)) by (unfold canon; apply lenN_app).
    assert (H64 : lenN (payload e) < 2 ^ 64) by (unfold U64_MAX in Hp; change (2^64) with 18446744073709551616; lia).
    pose proof (delem_hdr_ok e Heok H64) as Hhok.
    destruct (elem_complete s (hdr_of e) (canon_hdr (hdr_of e)) (payload e ++ canons es ++ tl))
      as (s1 & H1 & Hu1 & Hp1 & Hd1 & Hpe1 & He1 & Hi1); auto.
    { rewrite Hpend. lia. }
    { rewrite Hpend, dropN_0. exact Hr. }
    { now apply canon_hdr_enc. }
    { rewrite payload_hdr. lia. }
    { lia. }
    rewrite Hpend, N.add_0_r in *. rewrite payload_hdr in Hpe1.
    (* after reading the contents *)
    set (h := hdr_of e) in *.
    assert (Hcont : exists s2,
      (match elem_of h (s_pos s) (s_depth s) with
       | ElField (mkField _ _ _ (HBlob _)) | ElException _ => b_read_fully U64_MAX
       | _ => mret []
       end) s1 = (ROk (payload e), s2) /\ unread s2 = canons es ++ tl /\
      s_pos s2 = s_pos s + lenN (canon e) /\ s_depth s2 = s_depth s1 /\ pend s2 = 0 /\
      s_eof s2 = s_eof s1 /\ rinv s2).
    { assert (Hnb : payload e = [] -> exists s2, @mret stream serr bytes [] s1 = (ROk (payload e), s2) /\
         unread s2 = canons es ++ tl /\
         s_pos s2 = s_pos s + lenN (canon e) /\ s_depth s2 = s_depth s1 /\ pend s2 = 0 /\
         s_eof s2 = s_eof s1 /\ rinv s2).
      { intros Hnil. exists s1. rewrite Hnil in *. cbn [app] in Hu1.
        split; [reflexivity|]. split; [exact Hu1|].
        split; [rewrite Hp1, Hcl; change (lenN (@nil N)) with 0; lia|]. auto. }
      assert (Hb : is_blobby h = true -> exists s2, b_read_fully U64_MAX s1 = (ROk (payload e), s2) /\
         unread s2 = canons es ++ tl /\
         s_pos s2 = s_pos s + lenN (canon e) /\ s_depth s2 = s_depth s1 /\ pend s2 = 0 /\
         s_eof s2 = s_eof s1 /\ rinv s2).
      { intros Hbb.
        assert (Hcom : s_commit s1 = Some CSkipBlob /\ s_pos s1 <= s_blob_end s1 /\ s_blob_end s1 <= U64_MAX /\
                       s_blob_end s1 - s_pos s1 = lenN (payload e)).
        { clear Hnb.
          { assert (Hs1 : s1 = after h (canon_hdr h) (settled s)).
            { pose proof (next_element_complete s h (canon_hdr h) (payload e ++ canons es ++ tl)) as Hn.
              rewrite H1 in Hn. 
              match type of Hn with ?A -> ?B -> ?C -> ?D -> ?F -> ?G -> ?K -> _ =>
                assert (HA : A) by exact Hi; assert (HB : B) by exact He;
                assert (HC : C) by (rewrite Hpend; lia); assert (HD : D) by (rewrite Hpend, dropN_0; exact Hr);
                assert (HF : F) by (now apply canon_hdr_enc);
                assert (HG : G) by (rewrite Hpend; unfold h; rewrite payload_hdr; fold h; lia);
                assert (HK : K) by (unfold depth_fits, field_depth; destruct h as [t []| | | |]; auto; lia)
              end.
              specialize (Hn HA HB HC HD HF HG HK). congruence. }
            rewrite Hs1.
            assert (Hib : in_blob (after h (canon_hdr h) (settled s))).
            { apply after_in_blob; [apply Hi|exact Hbb|].
              change (s_pos (settled s)) with (s_pos s + pend s). rewrite Hpend. unfold h. rewrite payload_hdr. fold h. lia. }
            destruct Hib as (_ & Hib1 & Hib2).
            assert (Hcm : s_commit (after h (canon_hdr h) (settled s)) = Some CSkipBlob).
            { destruct h as [t []| | | |]; try discriminate; reflexivity. }
            split; [exact Hcm|]. split; [exact Hib1|]. split; [exact Hib2|].
            pose proof (after_pend h (canon_hdr h) (settled s) eq_refl) as Hap.
            unfold pend in Hap. rewrite Hcm in Hap. rewrite Hap. unfold h. apply payload_hdr. } }
        destruct Hcom as (Hcm & Hc1 & Hc2 & Hc3).
        pose proof (b_read_fully_ok s1 U64_MAX) as Hbf. cbv zeta in Hbf. rewrite Hbf.
        2:{ split; [apply Hi1|]. auto. }
        destruct (N.ltb_spec U64_MAX (s_blob_end s1 - s_pos s1)); [lia|].
        rewrite Hc3. change (rest s1) with (unread s1). rewrite Hu1, takeN_app_exact.
        rewrite N.min_l by (rewrite lenN_app; lia).
        eexists. split; [reflexivity|].
        split; [change (rest (adv (lenN (payload e)) s1) = canons es ++ tl); rewrite rest_adv; change (rest s1) with (unread s1); rewrite Hu1; apply dropN_app_exact|].
        split; [unfold adv; scbn; rewrite Hp1, Hcl; lia|].
        split; [reflexivity|]. split; [|split; [reflexivity|apply rinv_adv; exact Hi1]].
        unfold pend, adv; scbn. rewrite Hcm. lia. }
      unfold h in *. destruct e as [t [n|c| |d]| | |m|]; cbn [hdr_of elem_of vhdr_of is_blobby] in *; auto. }
    destruct Hcont as (s2 & H2 & Hu2 & Hp2 & Hd2 & Hpe2 & He2 & Hi2).
    set (s3 := match h with HdEof => set_eof_ false s2 | _ => s2 end).
    assert (H3 : (match elem_of h (s_pos s) (s_depth s) with ElEndOfDoc => clear_eof | _ => mret tt end) s2 = (ROk tt, s3)).
    { unfold s3. destruct h as [t []| | | |]; reflexivity. }
    assert (Hs3 : unread s3 = unread s2 /\ s_pos s3 = s_pos s2 /\ s_depth s3 = s_depth s2 /\ pend s3 = pend s2 /\
                  s_eof s3 = false /\ rinv s3).
    { unfold s3. destruct h as [t []| | | |]; repeat split; auto; try (rewrite He2, He1; reflexivity); apply Hi2. }
    destruct Hs3 as (Hu3 & Hp3 & Hd3 & Hpe3 & He3 & Hi3).
    destruct (IH s3 tl) as (s4 & H4 & Hu4 & Hp4 & He4 & Hpe4 & Hi4 & Hd4); auto.
    { congruence. } { congruence. } { lia. }
    { rewrite Hd3, Hd2, Hd1. unfold depth_after, field_depth. 
      destruct h as [t []| | | |]; lia. }
    exists s4. split.
    { cbn [read_elems]. rewrite (mbind_ok _ _ _ _ _ H1). rewrite (mbind_ok _ _ _ _ _ H2).
      rewrite (mbind_ok _ _ _ _ _ H3). rewrite (mbind_ok _ _ _ _ _ H4). unfold mret.
      cbn [reported offsets]. fold h. rewrite Hp3, Hp2. rewrite Hd3, Hd2, Hd1. reflexivity. }
    split; [exact Hu4|]. split; [rewrite Hp4, Hp3, Hp2, lenN_app; lia|].
    split; [exact He4|]. split; [exact Hpe4|]. split; [exact Hi4|].
    cbn [fold_left]. rewrite Hd4, Hd3, Hd2, Hd1. reflexivity.
Qed.

(** ** C09, C13, C14 *)

(** Invariant of a stream that only ever reads with [next_element]. *)
Record seqinv (s : stream) : Prop := {
  sq_r : rinv s;
  sq_len : lenN (d_data (s_dev s)) + 3 < U64_MAX;
  sq_depth : s_depth s + lenN (unread s) <= lenN (d_data (s_dev s)) + 1;
  sq_eof : s_eof s = true -> s_depth s = 0
}.

Lemma hdr_of_elem_of hd p d : hdr_of_element (elem_of hd p d) = hd.
Proof. destruct hd as [t []| | | |]; reflexivity. Qed.

Lemma seqinv_step s e s' : seqinv s -> next_element s = (ROk e, s') ->
  seqinv s' /\ s_depth s' = depth_after (hdr_of_element e) (s_depth s) /\
  (forall f, e = ElField f -> f_depth f = field_depth (s_depth s)) /\
  (e = ElEndOfDoc -> s_eof s' = true).
Proof.
  intros [Hi Hl Hd He] H. destruct (s_eof s) eqn:Eeof.
  { unfold next_element, next_element_impl in H. rewrite Eeof in H. injection H as <- <-.
    split; [constructor; auto|]. split; [now apply He|]. split; [discriminate|auto]. }
  assert (Hd2 : s_depth s + 1 < U64_MAX) by lia.
  pose proof H as H0. unfold next_element in H. apply impl_outcome in H; auto.
  assert (Hrs : rest (settled s) = dropN (pend s) (unread s)) by (apply rest_adv).
  assert (Hgen : forall s2, rinv s2 -> s_eof s2 = true -> s_depth s2 = 0 -> d_data (s_dev s2) = d_data (s_dev s) ->
            seqinv s2).
  { intros s2 Hi2 He2 Hz Hdd. constructor; auto; rewrite Hdd; [lia|]. rewrite Hz.
    change (unread s2) with (rest s2). rewrite rest_len, Hdd. lia. }
  assert (Hr0 : rinv (set_depth_ 0 (set_eof_ true (settled s)))).
  { destruct (rinv_settled s Hi); constructor; auto. }
  destruct H as [[Hp [(np & hd & h & tl & Hr & Henc & Hnp & _ & Hpos & -> & ->)|
                      (np & Hg & Hr & Hnp & Hpos & -> & ->)]]|(Hp & Hsk & Hg & -> & Hpos & ->)].
  - rewrite (Hnp eq_refl) in *. change (N.of_nat 0) with 0 in *. rewrite adv_0, N.add_0_r in *.
    rewrite hdr_of_elem_of. cbn [repeat app] in Hr.
    change (s_depth (settled s)) with (s_depth s) in *.
    split; [|split; [rewrite after_depth; reflexivity|split]].
    + constructor.
      * apply after_rinv; [apply rinv_settled, Hi|reflexivity|exact Hpos].
      * rewrite after_data. exact Hl.
      * rewrite after_depth, after_data, after_unread, Hr, dropN_app_exact.
        change (s_depth (settled s)) with (s_depth s). change (d_data (s_dev (settled s))) with (d_data (s_dev s)).
        pose proof (hdr_enc_len _ _ Henc) as Hhl.
        assert (Hlen : lenN (unread s) = pend s + lenN h + lenN tl).
        { rewrite <- (takeN_dropN (pend s) (unread s)), lenN_app, <- Hrs, Hr, lenN_app, lenN_takeN.
          change (rest s) with (unread s) in Hp. lia. }
        assert (Hul : lenN (unread s) <= lenN (d_data (s_dev s))).
        { change (unread s) with (rest s). rewrite rest_len. lia. }
        unfold depth_after, field_depth. destruct hd as [t []| | | |]; lia.
      * rewrite after_eof, after_depth. change (s_eof (settled s)) with (s_eof s). rewrite Eeof.
        destruct hd; try discriminate. intros _. reflexivity.
    + intros f Hf. destruct hd; try discriminate. injection Hf as <-. reflexivity.
    + intros Hx. destruct hd; try discriminate. apply after_eof.
  - rewrite (Hnp eq_refl) in *. change (N.of_nat 0) with 0 in *. rewrite adv_0 in *.
    split; [apply Hgen; auto|]. repeat split; auto. discriminate.
  - split; [apply Hgen; auto|]. repeat split; auto. discriminate.
Qed.

Lemma next_elements_depth n : forall s es s', seqinv s -> next_elements n s = (ROk es, s') ->
  s_depth s' = depth_of es (s_depth s) /\
  (forall i f, nth_error es i = Some (ElField f) ->
     f_depth f = field_depth (depth_of (firstn i es) (s_depth s))) /\
  (length es = n) /\ seqinv s'.
Proof.
  induction n as [|n IH]; intros s es s' Hq H; cbn [next_elements] in H.
  - injection H as <- <-. repeat split; auto; try apply Hq. intros [|i] f Hf; discriminate.
  - apply mbind_inv_ok in H. destruct H as (e & s1 & H1 & H).
    apply mbind_inv_ok in H. destruct H as (l & s2 & H2 & H). injection H as <- <-.
    destruct (seqinv_step s e s1 Hq H1) as (Hq1 & Hd1 & Hf1 & _).
    destruct (IH s1 l s2 Hq1 H2) as (Hd2 & Hf2 & Hl2 & Hq2).
    split; [unfold depth_of in *; cbn [fold_left]; rewrite Hd2, Hd1; reflexivity|].
    split; [|split; [cbn; now rewrite Hl2|exact Hq2]].
    intros [|i] f Hf; cbn [nth_error firstn] in *.
    + injection Hf as ->. apply Hf1. reflexivity.
    + rewrite (Hf2 i f Hf), Hd1. reflexivity.
Qed.

Lemma fresh_seqinv dbg sk gr data : bytes_ok data -> lenN data + 3 < U64_MAX ->
  seqinv (set_graceful_ gr (new_stream dbg sk (mkDev data 0 []))).
Proof.
  intros Hok Hl. constructor.
  - constructor; [exact eq_refl|exact Hok|cbn [s_dev set_graceful_ new_stream d_data d_pos]; lia|now left].
  - exact Hl.
  - cbn [s_depth set_graceful_ new_stream]. unfold unread, d_rest. scbn. cbn [s_dev new_stream set_graceful_ d_data d_pos]. rewrite dropN_0. lia.
  - discriminate.
Qed.

Lemma depth_counter dbg sk gr data n es s' : bytes_ok data -> lenN data + 3 < U64_MAX ->
  next_elements n (set_graceful_ gr (new_stream dbg sk (mkDev data 0 []))) = (ROk es, s') ->
  s_depth s' = depth_of es 0 /\
  (forall i f, nth_error es i = Some (ElField f) -> f_depth f = field_depth (depth_of (firstn i es) 0)).
Proof.
  intros Hok Hl H. apply next_elements_depth in H; [|now apply fresh_seqinv]. tauto.
Qed.

(** Sticky end of document. *)
Lemma sticky_next_element s : s_eof s = true -> next_element s = (ROk ElEndOfDoc, s).
Proof. intros H. unfold next_element, next_element_impl. now rewrite H. Qed.
Lemma sticky_next_field s : s_eof s = true -> next_field s = (ROk None, s).
Proof. intros H. unfold next_field, next_element_impl, mbind. now rewrite H. Qed.

Lemma sticky_poll l s : s_eof s = true ->
  poll l s = (ROk (map (fun b : bool => if b then Some ElEndOfDoc else None) l), s).
Proof.
  intros He. induction l as [|b l IH]; [reflexivity|]. cbn [poll map].
  destruct b; unfold mbind at 1; unfold mbind at 1; rewrite ?sticky_next_element, ?sticky_next_field by exact He;
    unfold mret at 1; cbn [option_map]; rewrite (mbind_ok _ _ _ _ _ IH); reflexivity.
Qed.

Lemma eof_set_resume s s' : rinv s -> s_eof s = false -> s_depth s + 1 < U64_MAX ->
  next_element s = (ROk ElEndOfDoc, s') ->
  s_eof s' = true /\ s_depth s' = 0 /\ s_commit s' = None /\
  snd (clear_eof s') = set_eof_ false s' /\
  ((exists blob, unread s = blob ++ 0x40 :: unread s' /\ lenN blob = pend s) \/
   (s_graceful s = true /\ unread s' = [])).
Proof.
  intros Hi He Hd H. pose proof H as H0. apply elem_sound in H0; auto.
  unfold next_element in H. apply impl_outcome in H; auto.
  assert (Hx : s_eof s' = true /\ s_depth s' = 0 /\ s_commit s' = None).
  { destruct H as [[Hp [(np & hd & h & tl & Hr & Henc & Hnp & _ & Hpos & Hel & ->)|
                      (np & Hg & Hr & Hnp & Hpos & _ & ->)]]|(Hp & Hsk & Hg & _ & Hpos & ->)].
    - destruct hd; try discriminate. repeat split.
    - repeat split.
    - repeat split. }
  destruct Hx as (H1 & H2 & H3). repeat split; auto.
  destruct H0 as [(blob & hd & h & Hu & Hb & Henc & _ & Hel & _)|(Hg & _ & Hu & _)].
  - left. exists blob. destruct hd; try discriminate. inversion Henc; subst. auto.
  - right. auto.
Qed.

(** Graceful end of input. *)
Lemma eof_at_descriptor s : rinv s -> s_eof s = false -> pend s = 0 -> unread s = [] ->
  s_pos s < U64_MAX ->
  next_element s =
    if s_graceful s then (ROk ElEndOfDoc, set_depth_ 0 (set_eof_ true (set_commit None s)))
    else (RErr (SIo IoUnexpectedEof), set_commit None s).
Proof.
  intros Hi He Hpe Hu Hp. unfold next_element, next_element_impl. rewrite He.
  rewrite (mbind_ok _ _ _ _ _ (commit_complete s Hi ltac:(rewrite Hpe; lia))).
  unfold settled. rewrite Hpe, adv_0. set (s1 := set_commit None s).
  assert (Hst : next_element_step false tt s1 =
    if s_graceful s then (ROk (inr ElEndOfDoc), set_depth_ 0 (set_eof_ true s1))
    else (RErr (SIo IoUnexpectedEof), s1)).
  { unfold next_element_step. unfold mbind at 1, mget.
    unfold mbind at 1. rewrite s_read_byte_eq by apply Hi. unfold rb_spec.
    change (rest s1) with (unread s). rewrite Hu. change (s_pos s1) with (s_pos s).
    destruct (N.ltb_spec (U64_MAX - s_pos s) 1); [lia|]. change (s_graceful s1) with (s_graceful s).
    destruct (s_graceful s); reflexivity. }
  destruct (s_graceful s); (apply mloop_of_nat with (n := 1%nat); [unfold U64_MOD; lia| |discriminate]);
    rewrite mloop_nat_S; unfold mbind at 1; rewrite Hst; reflexivity.
Qed.

(** End of input inside an element's header. *)
Lemma eof_in_header sp s b l : rinv s -> s_eof s = false -> pend s = 0 ->
  unread s = b :: l -> (0x00 < b < 0x40 \/ 0x40 < b < 0x80 \/ 0x80 <= b < 0xC0) ->
  Forall cont_byte l -> lenN l <= 256 -> varint_value l < 2 ^ 64 ->
  s_pos s + 1 + lenN l < U64_MAX ->
  exists s', next_element_impl sp s = (RErr (SIo IoUnexpectedEof), s').
Proof.
  intros Hi He Hpe Hu Hb Hl Hlen Hv Hp.
  assert (Hdec : forall fuel s1, fuel = 258%nat -> sch s1 = [] -> rest s1 = l -> s_pos s1 + lenN l < U64_MAX ->
     decode_loop (s_read_byte false) fuel 0 0 s1 = (RErr (SIo IoUnexpectedEof), adv (lenN l) s1)).
  { intros fuel s1 Hf Hs1 Hr1 Hp1.
    pose proof (decode_loop_view fuel 0 0 s1 Hs1) as Hvw.
    assert (Hview : view s1 = l). { unfold view. rewrite Hr1. apply takeN_all. lia. }
    rewrite Hview in Hvw. pose proof (decode_loop_sound' fuel l) as Hsd.
    destruct (decode_loop rd_list fuel 0 0 l) as [r tl].
    assert (Hokl : bytes_ok l). { eapply Forall_impl; [|exact Hl]. unfold cont_byte, byte_ok. intros; lia. }
    specialize (Hsd _ _ Hf Hokl eq_refl).
    cbv zeta in Hvw. destruct Hvw as (Hle & Htl & r' & Hd & Hc & Heof).
    assert (Hno : r = RErr (SIo IoUnexpectedEof) /\ tl = []).
    { destruct r as [v|e| |]; cbn in Hsd; try contradiction.
      - destruct Hsd as (bs & Hbs & (p & c & Hpc & _ & Hfin) & _). exfalso.
        rewrite Hpc in Hbs. rewrite Hbs in Hl. apply Forall_app in Hl. destruct Hl as [Hl _].
        apply Forall_app in Hl. destruct Hl as [_ Hl]. inversion Hl; subst.
        unfold cont_byte, final_byte in *. lia.
      - destruct e as [[]| | | | | | | | | | |]; try contradiction.
        + split; [reflexivity|]. tauto.
        + exfalso. destruct Hsd as (p & c & Hbs & _ & _ & _ & Hbig).
          assert (varint_value (p ++ [c]) <= varint_value l).
          { rewrite Hbs. replace (p ++ c :: tl) with ((p ++ [c]) ++ tl) by (now rewrite <- app_assoc).
            rewrite (varint_value_app (p ++ [c]) tl). lia. }
          rewrite N.mul_0_r, N.pow_0_r in Hbig. lia.
        + exfalso. destruct Hsd as (p & Hbs & _ & Hlp & _).
          rewrite Hbs, lenN_app in Hlen. lia. }
    destruct Hno as [-> ->]. change (lenN (@nil N)) with 0 in *. rewrite N.sub_0_r in *.
    rewrite Hd. destruct Hc as [->|(_ & _ & Hbig)]; [reflexivity|lia]. }
  unfold next_element_impl. rewrite He.
  rewrite (mbind_ok _ _ _ _ _ (commit_complete s Hi ltac:(rewrite Hpe; lia))).
  unfold settled. rewrite Hpe, adv_0. set (s1 := set_commit None s).
  assert (Hb256 : b < 256) by lia.
  assert (Hfirst : s_read_byte (s_graceful s1) s1 = (ROk b, adv 1 s1)).
  { eapply s_read_byte_cons; [apply Hi|exact Hu|]. change (s_pos s1) with (s_pos s). lia. }
  assert (Hr2 : rest (adv 1 s1) = l) by (eapply rest_cons_adv; exact Hu).
  assert (Hsd : forall d, s_decode_u64 (set_depth_ d (adv 1 s1)) = (RErr (SIo IoUnexpectedEof), adv (lenN l) (set_depth_ d (adv 1 s1)))).
  { intros d. apply (Hdec 258%nat); try exact (ri_sch s Hi); try exact Hr2; try reflexivity. unfold s1, adv; scbn. lia. }
  assert (Hstep : exists s', next_element_step sp tt s1 = (RErr (SIo IoUnexpectedEof), s')).
  { unfold next_element_step. unfold mbind at 1, mget. rewrite (mbind_ok _ _ _ _ _ Hfirst).
    destruct (parse_desc_total b Hb256) as (pd & Hpd). rewrite Hpd.
    assert (Hcase : forall ty, ty = DEnum \/ ty = DInteger \/ ty = DBlob -> forall d, 
       exists s', next_value ty (set_depth_ d (adv 1 s1)) = (RErr (SIo IoUnexpectedEof), s')).
    { intros ty Hty d. destruct Hty as [->|[->| ->]]; cbn [next_value]; unfold next_blob.
      - rewrite (mbind_err _ _ _ _ _ (Hsd d)). eauto.
      - rewrite (mbind_err _ _ _ _ _ (Hsd d)). eauto.
      - rewrite mbind_assoc. rewrite (mbind_err _ _ _ _ _ (Hsd d)). eauto. }
    destruct pd as [ty tag|sp'].
    - destruct (parse_pair_inv b ty tag Hb256 Hpd) as [-> Htag]. unfold tag_ok in Htag.
      unfold mbind at 1, mmod. 
      assert (Hdd : exists d, (if s_depth (adv 1 s1) =? 0 then set_depth_ 1 (adv 1 s1) else adv 1 s1) = set_depth_ d (adv 1 s1)).
      { destruct (_ =? 0); [now exists 1|]. exists (s_depth (adv 1 s1)). now rewrite set_depth_same. }
      destruct Hdd as (d & ->). unfold mbind at 1, mget.
      destruct ty; cbn [dtype_code] in Hb; try lia;
        (match goal with |- context [next_value ?ty] => destruct (Hcase ty ltac:(auto) d) as (s' & Hs') end;
         rewrite (mbind_err _ _ _ _ _ Hs'); eauto).
    - pose proof (parse_special_inv b sp' Hb256 Hpd). subst b.
      destruct sp'; cbn [stype_code] in Hb; try lia.
      unfold next_blob. rewrite mbind_assoc.
      pose proof (Hsd (s_depth (adv 1 s1))) as Hx. rewrite set_depth_same in Hx.
      rewrite (mbind_err _ _ _ _ _ Hx). eauto. }
  destruct Hstep as (s' & Hs'). exists s'.
  apply mloop_of_nat with (n := 1%nat); [unfold U64_MOD; lia| |discriminate].
  rewrite mloop_nat_S. now rewrite (mbind_err _ _ _ _ _ Hs').
Qed.

(** Write with one stream, read with another. *)
Lemma size_bound_len es : 11 * N.of_nat (length es) <= size_bound es.
Proof.
  induction es as [|e es IH]; [cbn; lia|]. rewrite size_bound_cons. cbn [length]. lia.
Qed.
Lemma canons_cons e es : canons (e :: es) = canon e ++ canons es.
Proof. reflexivity. Qed.
Lemma canons_len es : Forall delem_ok es -> size_bound es <= U64_MAX -> lenN (canons es) <= size_bound es.
Proof.
  induction 1 as [|e es He Hes IH]; intros Hs; [apply N.le_0_l|]. rewrite size_bound_cons in *.
  rewrite canons_cons, lenN_app.
  pose proof (canon_len e He ltac:(unfold U64_MAX in Hs; change (2^64) with 18446744073709551616; lia)). 
  specialize (IH ltac:(lia)). lia.
Qed.
Lemma canon_hdr_bytes h : hdr_ok h -> bytes_ok (canon_hdr h).
Proof.
  intros H. pose proof (canon_hdr_enc h H) as E. unfold bytes_ok. 
  inversion E; subst; repeat constructor; unfold byte_ok, tag_ok in *; try lia; auto.
Qed.
Lemma canons_bytes es : Forall delem_ok es -> size_bound es <= U64_MAX -> bytes_ok (canons es).
Proof.
  induction 1 as [|e es He Hes IH]; intros Hs; [constructor|]. rewrite size_bound_cons in *.
  rewrite canons_cons. apply Forall_app. split; [|apply IH; lia].
  unfold canon. apply Forall_app. split.
  - apply canon_hdr_bytes, delem_hdr_ok; auto. unfold U64_MAX in Hs; change (2^64) with 18446744073709551616; lia.
  - destruct e as [t []| | | |]; cbn [payload] in *; try constructor; apply He.
Qed.

Lemma write_read_roundtrip dw kw dr kr gr es tail :
  Forall delem_ok es -> bytes_ok tail -> size_bound es + lenN tail + 2 <= U64_MAX ->
  exists offs sw sr,
    write_elems es (new_stream dw kw (mkDev [] 0 [])) = (ROk offs, sw) /\
    read_elems (length es) (set_graceful_ gr (new_stream dr kr (mkDev (d_data (s_dev sw) ++ tail) 0 [])))
      = (ROk (reported es offs 0), sr) /\
    unread sr = tail /\ s_pos sr = lenN (d_data (s_dev sw)).
Proof.
  intros Hok Ht Hs. pose proof (size_bound_len es) as Hsl. pose proof (canons_len es Hok ltac:(lia)) as Hcl.
  set (s0 := new_stream dw kw (mkDev [] 0 [])).
  destruct (write_elems_ok es s0) as (sw & Hw & _ & _ & Hdev & _).
  { split; [reflexivity|]. cbn. lia. }
  { now left. }
  { exact Hok. }
  { change (s_pos s0) with 0. lia. }
  assert (Hdd : d_data (s_dev sw) = canons es).
  { rewrite Hdev. unfold wr. scbn. cbn [s0 new_stream s_dev d_data d_pos]. 
    unfold put_at. change (lenN (@nil N)) with 0. rewrite takeN_0. rewrite dropN_all by (change (lenN (@nil N)) with 0; lia).
    rewrite app_nil_r. reflexivity. }
  set (s1 := set_graceful_ gr (new_stream dr kr (mkDev (d_data (s_dev sw) ++ tail) 0 []))).
  destruct (read_elems_ok es s1 tail) as (sr & Hr & Hu & Hp & _).
  { constructor; [reflexivity| |cbn [s1 set_graceful_ new_stream s_dev d_data]; rewrite Hdd, lenN_app; lia|now left].
    cbn [s1 set_graceful_ new_stream s_dev d_data]. rewrite Hdd. apply Forall_app; split; auto. apply canons_bytes; auto; lia. }
  { reflexivity. }
  { reflexivity. }
  { exact Hok. }
  { unfold unread, d_rest. cbn [s1 set_graceful_ new_stream s_dev d_data d_pos]. now rewrite dropN_0, Hdd. }
  { change (s_pos s1) with 0. lia. }
  { change (s_depth s1) with 0. lia. }
  exists (offsets (s_pos s0) es), sw, sr. split; [exact Hw|]. split; [exact Hr|]. split; [exact Hu|].
  rewrite Hp, Hdd. reflexivity.
Qed.
