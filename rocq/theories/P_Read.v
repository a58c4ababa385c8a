(** * P_Read: reading elements from a device that transfers everything asked

    By P_Sched the schedule does not influence results, so the facts here are
    about streams whose schedule is empty ([sch s = []]). *)

From Verif Require Import Base Wire Dev Stream SpecWire SpecFormat SpecStream P_Base P_Wire P_Sched.

Strategy 1000 [s_decode_u64 decode_u64 decode_loop].
(** ** Bytes *)
Definition rb_spec (g : bool) (s : stream) : res serr N * stream :=
  if U64_MAX - s_pos s <? 1 then (RErr (SIo IoOther), s)
  else match rest s with
       | b :: _ => (ROk b, adv 1 s)
       | [] => if g then (ROk 0x40, s) else (RErr (SIo IoUnexpectedEof), s)
       end.

Lemma s_read_byte_eq g s : sch s = [] -> s_read_byte g s = rb_spec g s.
Proof.
  intros Hs. unfold s_read_byte, lift_io, mbind. rewrite read1_clean by exact Hs.
  unfold byte_spec, rb_spec. destruct (U64_MAX - s_pos s <? 1); [reflexivity|].
  destruct (rest s); [|reflexivity]. destruct g; reflexivity.
Qed.

Lemma s_read_byte_cons g s b l : sch s = [] -> rest s = b :: l -> s_pos s < U64_MAX ->
  s_read_byte g s = (ROk b, adv 1 s).
Proof.
  intros Hs Hr Hp. rewrite s_read_byte_eq by exact Hs. unfold rb_spec. rewrite Hr.
  destruct (N.ltb_spec (U64_MAX - s_pos s) 1); [lia|reflexivity].
Qed.

Lemma rest_adv_app s (h tl : bytes) : rest s = h ++ tl -> rest (adv (lenN h) s) = tl.
Proof. intros H. now rewrite rest_adv, H, dropN_app_exact. Qed.

Lemma sch_adv n s : sch (adv n s) = sch s.
Proof. reflexivity. Qed.

Lemma delivers_stream bs : forall s tl,
  sch s = [] -> rest s = bs ++ tl -> s_pos s + lenN bs <= U64_MAX ->
  delivers (s_read_byte false) bs s (adv (lenN bs) s).
Proof.
  induction bs as [|b bs IH]; intros s tl Hs Hr Hp.
  - change (lenN (@nil N)) with 0. rewrite adv_0. exists (fun _ => s). repeat split.
    intros [|i] c Hc; discriminate.
  - rewrite lenN_cons in *. eapply delivers_cons.
    + eapply s_read_byte_cons; [exact Hs|exact Hr|lia].
    + replace (lenN bs + 1) with (1 + lenN bs) by lia. rewrite <- adv_adv. apply (IH _ tl).
      * exact Hs.
      * rewrite rest_adv, Hr. cbn [app]. now rewrite dropN_S_cons, dropN_0 by lia.
      * cbn. lia.
Qed.

Lemma s_decode_complete s v n tl :
  sch s = [] -> rest s = v ++ tl -> legal_varint v n -> s_pos s + lenN v <= U64_MAX ->
  s_decode_u64 s = (ROk n, adv (lenN v) s).
Proof.
  intros Hs Hr Hv Hp. unfold s_decode_u64.
  eapply decode_complete; [exact Hv|]. eapply delivers_stream; eauto.
Qed.

(** What decoding does in general. *)
Definition view (s : stream) : bytes := takeN (U64_MAX - s_pos s) (rest s).

Lemma view_cons s b l : view s = b :: l ->
  exists tl, rest s = b :: tl /\ s_pos s < U64_MAX /\ view (adv 1 s) = l.
Proof.
  unfold view. rewrite rest_adv. destruct (rest s) as [|c tl]; [discriminate|].
  destruct (N.eqb_spec (U64_MAX - s_pos s) 0) as [H0|H0].
  - rewrite H0, takeN_0. discriminate.
  - rewrite takeN_S_cons by lia. intros H. injection H as -> <-. exists tl.
    split; [reflexivity|]. split; [lia|].
    rewrite dropN_S_cons, dropN_0 by lia. cbn. f_equal. lia.
Qed.

Lemma view_nil s : view s = [] -> sch s = [] ->
  (s_read_byte false s = (RErr (SIo IoUnexpectedEof), s) /\ rest s = []) \/
  (s_read_byte false s = (RErr (SIo IoOther), s) /\ U64_MAX <= s_pos s).
Proof.
  intros Hv Hs. rewrite s_read_byte_eq by exact Hs. unfold rb_spec, view in *.
  destruct (N.ltb_spec (U64_MAX - s_pos s) 1) as [H|H].
  - right. split; [reflexivity|lia].
  - destruct (rest s) as [|b l] eqn:Er; [left; auto|].
    rewrite takeN_S_cons in Hv by lia. discriminate.
Qed.

Lemma decode_loop_view fuel : forall a sh s, sch s = [] ->
  let '(r, tl) := decode_loop rd_list fuel a sh (view s) in
  let k := lenN (view s) - lenN tl in
  lenN tl <= lenN (view s) /\ tl = dropN k (view s) /\
  exists r', decode_loop (s_read_byte false) fuel a sh s = (r', adv k s) /\
  (r' = r \/ (r = RErr (SIo IoUnexpectedEof) /\ r' = RErr (SIo IoOther) /\
              U64_MAX <= s_pos s + k)) /\
  (r' = RErr (SIo IoUnexpectedEof) -> rest (adv k s) = []).
Proof.
  induction fuel as [|fuel IH]; intros a sh s Hs.
  - cbn [decode_loop]. rewrite N.sub_diag, adv_0, dropN_0. split; [lia|]. split; [reflexivity|].
    eexists. split; [reflexivity|]. split; [now left|discriminate].
  - cbn [decode_loop]. unfold mbind at 1. unfold rd_list at 1.
    destruct (view s) as [|b l] eqn:Ev.
    + cbv beta iota zeta. change (lenN (@nil N) - lenN (@nil N)) with 0. rewrite adv_0. split; [lia|]. split; [reflexivity|].
      destruct (view_nil s Ev Hs) as [[H Hr]|[H Hp]]; rewrite (mbind_err _ _ _ _ _ H);
        eexists; (split; [reflexivity|]).
      * split; [now left|]. intros _. exact Hr.
      * split; [|discriminate]. right. repeat split. lia.
    + destruct (view_cons _ _ _ Ev) as (tl & Hr & Hp & Hv).
      rewrite (mbind_ok _ _ _ _ _ (s_read_byte_cons false s b tl Hs Hr Hp)).
      assert (H1 : lenN (b :: l) - lenN l = 1) by (rewrite lenN_cons; lia).
      assert (Hd1 : dropN 1 (b :: l) = l) by (rewrite dropN_S_cons, dropN_0 by lia; reflexivity).
      destruct (_ && _).
      { cbn [mfail]. unfold mfail. rewrite H1, Hd1. split; [rewrite lenN_cons; lia|]. split; [reflexivity|].
        eexists. split; [reflexivity|]. split; [now left|discriminate]. }
      destruct (N.land b 128 =? 0).
      { unfold mret. rewrite H1, Hd1. split; [rewrite lenN_cons; lia|]. split; [reflexivity|].
        eexists. split; [reflexivity|]. split; [now left|discriminate]. }
      destruct (256 * 7 <? sh + 7).
      { unfold mfail. rewrite H1, Hd1. split; [rewrite lenN_cons; lia|]. split; [reflexivity|].
        eexists. split; [reflexivity|]. split; [now left|discriminate]. }
      set (a' := if _ =? 0 then a else _). clearbody a'.
      specialize (IH a' (sh + 7) (adv 1 s) Hs). rewrite Hv in IH.
      destruct (decode_loop rd_list fuel a' (sh + 7) l) as [r tl'].
      cbv zeta in *. destruct IH as (Hle & Htl & r' & Hd & Hcases & Heof).
      rewrite adv_adv in Hd, Heof. rewrite lenN_cons.
      replace (lenN l + 1 - lenN tl') with (1 + (lenN l - lenN tl')) by lia.
      split; [lia|]. split.
      { rewrite dropN_S_cons by lia. rewrite Htl at 1. f_equal. lia. }
      exists r'. split; [exact Hd|]. split; [|exact Heof].
      destruct Hcases as [->|(-> & -> & Hpp)]; [now left|right]. repeat split. cbn in Hpp. lia.
Qed.

Lemma view_split s (h tl : bytes) : view s = h ++ tl ->
  exists tl', rest s = h ++ tl' /\ (h = [] \/ s_pos s + lenN h <= U64_MAX) .
Proof.
  intros H. exists (tl ++ dropN (U64_MAX - s_pos s) (rest s)). split.
  - rewrite app_assoc, <- H. unfold view. now rewrite takeN_dropN.
  - destruct h as [|b h]; [now left|right].
    assert (Hl : lenN (view s) = lenN (b :: h) + lenN tl) by (rewrite H; apply lenN_app).
    unfold view in Hl. rewrite lenN_takeN in Hl. rewrite lenN_cons in *. lia.
Qed.

Lemma bytes_ok_takeN n l : bytes_ok l -> bytes_ok (takeN n l).
Proof. intros H. rewrite takeN_firstn. unfold bytes_ok in *. rewrite <- (firstn_skipn (N.to_nat n) l) in H.
  apply Forall_app in H. tauto. Qed.
Lemma bytes_ok_dropN n l : bytes_ok l -> bytes_ok (dropN n l).
Proof. intros H. rewrite dropN_skipn. unfold bytes_ok in *. rewrite <- (firstn_skipn (N.to_nat n) l) in H.
  apply Forall_app in H. tauto. Qed.
Lemma bytes_ok_app a b : bytes_ok (a ++ b) <-> bytes_ok a /\ bytes_ok b.
Proof. apply Forall_app. Qed.

(** The errors an integer can end in. *)
Definition int_err (e : serr) : Prop :=
  e = SIntegerOverflow \/ e = SOverwideInteger \/ e = SIo IoUnexpectedEof \/ e = SIo IoOther.

Lemma s_decode_outcome' fuel s r s' : fuel = 258%nat ->
  sch s = [] -> bytes_ok (rest s) -> decode_loop (s_read_byte false) fuel 0 0 s = (r, s') ->
  match r with
  | ROk n => exists v tl, rest s = v ++ tl /\ legal_varint v n /\ bytes_ok v /\
                          s_pos s + lenN v <= U64_MAX /\ s' = adv (lenN v) s
  | RErr e => int_err e /\ exists k, k <= lenN (rest s) /\ (k = 0 \/ s_pos s + k <= U64_MAX) /\
                s' = adv k s /\ (e = SIo IoUnexpectedEof -> rest s' = [])
  | _ => False
  end.
Proof.
  intros Hf Hs Hok H.
  pose proof (decode_loop_view fuel 0 0 s Hs) as Hv.
  pose proof (decode_loop_sound' fuel (view s)) as Hsound.
  destruct (decode_loop rd_list fuel 0 0 (view s)) as [r0 tl].
  specialize (Hsound _ _ Hf (bytes_ok_takeN _ _ Hok) eq_refl).
  cbv zeta in Hv. destruct Hv as (Hle & Htl & r' & Hd & Hcases & Heof).
  rewrite Hd in H. injection H as <- <-.
  set (k := lenN (view s) - lenN tl) in *.
  assert (Hkv : k <= lenN (view s)) by (unfold k; lia).
  assert (Hk : k <= lenN (rest s)).
  { unfold view in Hkv. rewrite lenN_takeN in Hkv. lia. }
  assert (Hkp : k = 0 \/ s_pos s + k <= U64_MAX).
  { unfold view in Hkv. rewrite lenN_takeN in Hkv. lia. }
  assert (Herr : forall e, int_err e -> r' = RErr e ->
            int_err e /\ exists k0, k0 <= lenN (rest s) /\ (k0 = 0 \/ s_pos s + k0 <= U64_MAX) /\
                adv k s = adv k0 s /\ (e = SIo IoUnexpectedEof -> rest (adv k s) = [])).
  { intros e He Hr'. split; [exact He|]. exists k. repeat split; auto. intros ->. now apply Heof. }
  destruct Hcases as [->|(-> & -> & Hpp)].
  - destruct r0 as [v|e| |]; cbn in Hsound; try contradiction.
    + destruct Hsound as (bs & Hvs & Hvar & Hlen & Hval & Hlt).
      destruct (view_split _ _ _ Hvs) as (tl' & Hr & Hp).
      assert (Hne : bs <> []). { intros ->. destruct Hvar as (p & c & Hp' & _). now destruct p. }
      exists bs, tl'. split; [exact Hr|]. split.
      { rewrite N.mul_0_r, N.pow_0_r in Hval. repeat split; auto; lia. }
      split; [rewrite Hr in Hok; apply bytes_ok_app in Hok; tauto|].
      split; [destruct Hp; [congruence|assumption]|].
      f_equal. unfold k. rewrite Hvs, lenN_app. lia.
    + assert (He : int_err e).
      { unfold int_err. destruct e as [[]| | | | | | | | | | |]; try contradiction; auto. }
      apply Herr; auto.
  - apply Herr; [unfold int_err; auto|reflexivity].
Qed.

Lemma s_decode_outcome s r s' :
  sch s = [] -> bytes_ok (rest s) -> s_decode_u64 s = (r, s') ->
  match r with
  | ROk n => exists v tl, rest s = v ++ tl /\ legal_varint v n /\ bytes_ok v /\
                          s_pos s + lenN v <= U64_MAX /\ s' = adv (lenN v) s
  | RErr e => int_err e /\ exists k, k <= lenN (rest s) /\ (k = 0 \/ s_pos s + k <= U64_MAX) /\
                s' = adv k s /\ (e = SIo IoUnexpectedEof -> rest s' = [])
  | _ => False
  end.
Proof. exact (s_decode_outcome' 258 s r s' eq_refl). Qed.

(** ** Descriptor bytes *)
Lemma parse_pair t tag : tag_ok tag -> parse_desc (dtype_code t + tag) = Some (PPair t tag).
Proof.
  intros Ht.
  pose (P := fun tag => match parse_desc (dtype_code t + tag) with
                          | Some (PPair t' tag') => dtype_eqb t t' && (tag' =? tag)
                          | _ => false end).
  assert (H : P tag = true).
  { apply tag_sweep; [unfold P; destruct t; vm_compute; reflexivity|exact Ht]. }
  unfold P in H. destruct (parse_desc _) as [[t' tag'|]|]; try discriminate.
  apply andb_prop in H. destruct H as [H1 H2]. apply N.eqb_eq in H2. subst.
  destruct t, t'; try discriminate; reflexivity.
Qed.
Lemma parse_pair_inv b t tag : b < 256 -> parse_desc b = Some (PPair t tag) ->
  b = dtype_code t + tag /\ tag_ok tag.
Proof.
  intros Hb H.
  pose (P := fun b => match parse_desc b with
                | Some (PPair t tag) => (b =? dtype_code t + tag) && (1 <=? tag) && (tag <=? 63)
                | _ => true end).
  assert (Hc : P b = true).
  { apply byte_sweep; [vm_compute; reflexivity|exact Hb]. }
  unfold P in Hc. rewrite H in Hc. unfold tag_ok. lia.
Qed.
Lemma parse_special_inv b t : b < 256 -> parse_desc b = Some (PSpecial t) -> b = stype_code t.
Proof.
  intros Hb H.
  pose (P := fun b => match parse_desc b with
                | Some (PSpecial t) => (b =? stype_code t)
                | _ => true end).
  assert (Hc : P b = true).
  { apply byte_sweep; [vm_compute; reflexivity|exact Hb]. }
  unfold P in Hc. rewrite H in Hc. lia.
Qed.
Lemma parse_special t : parse_desc (stype_code t) = Some (PSpecial t).
Proof. destruct t; reflexivity. Qed.

(** ** One element *)
Definition is_blobby (hd : hdr) : bool :=
  match hd with HdField _ (HvBlob _) | HdExc _ => true | _ => false end.
(** State after reading the header bytes [h] of [hd]. *)
Definition after (hd : hdr) (h : bytes) (s : stream) : stream :=
  let s1 := set_depth_ (depth_after hd (s_depth s)) (adv (lenN h) s) in
  match hd with
  | HdField _ (HvBlob len) | HdExc len =>
      set_commit (Some CSkipBlob) (set_blob_end (s_pos s + lenN h + len) s1)
  | HdEof => set_eof_ true s1
  | _ => s1
  end.
Definition depth_fits (hd : hdr) (d : N) : Prop :=
  match hd with HdField _ HvStruct | HdField _ (HvEnum _) => field_depth d < U64_MAX | _ => True end.

Lemma hdr_enc_len hd h : hdr_enc hd h -> 1 <= lenN h.
Proof. destruct 1; rewrite ?lenN_cons; lia. Qed.

Lemma set_depth_same s : set_depth_ (s_depth s) s = s.
Proof. destruct s; reflexivity. Qed.

Lemma next_blob_complete s v n tl :
  sch s = [] -> rest s = v ++ tl -> legal_varint v n -> s_pos s + lenN v + n <= U64_MAX ->
  next_blob s = (ROk n, set_commit (Some CSkipBlob) (set_blob_end (s_pos s + lenN v + n) (adv (lenN v) s))).
Proof.
  intros Hs Hr Hv Hp. unfold next_blob.
  rewrite (mbind_ok _ _ _ _ _ (s_decode_complete s v n tl Hs Hr Hv ltac:(lia))).
  unfold mbind, lift_io, check_advance_pos, mmod, mret.
  change (s_pos (adv (lenN v) s)) with (s_pos s + lenN v).
  destruct (N.ltb_spec (U64_MAX - (s_pos s + lenN v)) n); [lia|]. reflexivity.
Qed.

Lemma incr_depth_ok s : s_depth s < U64_MAX -> incr_depth s = (ROk tt, set_depth_ (s_depth s + 1) s).
Proof.
  intros H. unfold incr_depth. rewrite u64_add_ok by (unfold U64_MOD, U64_MAX in *; lia). reflexivity.
Qed.

Lemma rest_cons_adv s b l : rest s = b :: l -> rest (adv 1 s) = l.
Proof. intros H. rewrite rest_adv, H, dropN_S_cons, dropN_0 by lia. reflexivity. Qed.

Lemma step_complete sp u s hd h tl :
  sch s = [] -> rest s = h ++ tl -> hdr_enc hd h ->
  s_pos s + lenN h + hdr_payload hd <= U64_MAX -> depth_fits hd (s_depth s) ->
  next_element_step sp u s =
  (ROk (match hd with
        | HdPad => if sp then inl tt else inr ElPadding
        | _ => inr (elem_of hd (s_pos s) (s_depth s))
        end), after hd h s).
Proof.
  intros Hs Hr Henc Hp Hd. unfold next_element_step.
  unfold mbind at 1, mget.
  assert (Hfirst : forall b l, rest s = b :: l ->
     s_read_byte (s_graceful s) s = (ROk b, adv 1 s)).
  { intros b l Hbl. eapply s_read_byte_cons; eauto. pose proof (hdr_enc_len _ _ Henc). lia. }
  set (s1 := adv 1 s) in *.
  assert (Hs1 : sch s1 = []) by exact Hs.
  assert (Hdep : forall s, (if s_depth s =? 0 then set_depth_ 1 s else s)
                   = set_depth_ (field_depth (s_depth s)) s).
  { intros s0. unfold field_depth. destruct (N.eqb_spec (s_depth s0) 0) as [->|H0]; [reflexivity|].
    rewrite N.max_l by lia. now rewrite set_depth_same. }
  assert (Hadv : forall v : bytes, adv (lenN v) s1 = adv (lenN v + 1) s).
  { intros v. unfold s1. rewrite adv_adv. f_equal. lia. }
  inversion Henc; subst hd h; clear Henc; cbn [app hdr_payload depth_fits] in *;
    rewrite (mbind_ok _ _ _ _ _ (Hfirst _ _ Hr));
    (try (pose proof (rest_cons_adv _ _ _ Hr) as Hr1; fold s1 in Hr1; rewrite lenN_cons in Hp)).
  - (* enum *)
    change (0 + t) with (dtype_code DEnum + t). rewrite parse_pair by assumption.
    unfold mbind at 1, mmod. rewrite Hdep. unfold mbind at 1, mget. cbn [next_value].
    set (s2 := set_depth_ (field_depth (s_depth s1)) s1).
    rewrite mbind_assoc. rewrite (mbind_ok _ _ _ _ _ (s_decode_complete s2 v d tl Hs1 Hr1 ltac:(assumption) ltac:(cbn; lia))).
    rewrite mbind_assoc. rewrite (mbind_ok _ _ _ _ _ (incr_depth_ok (adv (lenN v) s2) ltac:(exact Hd))).
    unfold mbind, mret. cbn [elem_of]. unfold after, depth_after.
    f_equal. apply stream_eq; try reflexivity; unfold s2, s1, adv; scbn; rewrite ?lenN_cons; try lia.
    f_equal; lia.
  - (* int *)
    change (64 + t) with (dtype_code DInteger + t). rewrite parse_pair by assumption.
    unfold mbind at 1, mmod. rewrite Hdep. unfold mbind at 1, mget. cbn [next_value].
    set (s2 := set_depth_ (field_depth (s_depth s1)) s1).
    rewrite mbind_assoc. rewrite (mbind_ok _ _ _ _ _ (s_decode_complete s2 v n tl Hs1 Hr1 ltac:(assumption) ltac:(cbn; lia))).
    unfold mbind, mret. cbn [elem_of]. unfold after, depth_after.
    f_equal. apply stream_eq; try reflexivity; unfold s2, s1, adv; scbn; rewrite ?lenN_cons; try lia.
    f_equal; lia.
  - (* blob *)
    change (128 + t) with (dtype_code DBlob + t). rewrite parse_pair by assumption.
    unfold mbind at 1, mmod. rewrite Hdep. unfold mbind at 1, mget. cbn [next_value].
    set (s2 := set_depth_ (field_depth (s_depth s1)) s1).
    rewrite mbind_assoc. rewrite (mbind_ok _ _ _ _ _ (next_blob_complete s2 v len tl Hs1 Hr1 ltac:(assumption) ltac:(cbn; lia))).
    unfold mbind, mret. cbn [elem_of]. unfold after, depth_after.
    f_equal. apply stream_eq; try reflexivity; unfold s2, s1, adv; scbn; rewrite ?lenN_cons; try lia.
    f_equal; lia.
  - (* struct *)
    change (192 + t) with (dtype_code DStruct + t). rewrite parse_pair by assumption.
    unfold mbind at 1, mmod. rewrite Hdep. unfold mbind at 1, mget. cbn [next_value].
    set (s2 := set_depth_ (field_depth (s_depth s1)) s1).
    rewrite mbind_assoc. rewrite (mbind_ok _ _ _ _ _ (incr_depth_ok s2 ltac:(exact Hd))).
    unfold mbind, mret. cbn [elem_of]. reflexivity.
  - change 0 with (stype_code SpEndOfStruct). rewrite parse_special.
    unfold mbind, mmod, mret. cbn [elem_of]. f_equal. unfold after, depth_after.
    change (stype_code SpEndOfStruct) with 0.
    change (s_depth s1) with (s_depth s).
    destruct (N.ltb_spec 0 (s_depth s)) as [H0|H0]; [reflexivity|].
    replace (s_depth s - 1) with (s_depth (adv (lenN [0]) s)); [now rewrite set_depth_same|].
    cbn. lia.
  - change 64 with (stype_code SpEndOfDoc). rewrite parse_special. reflexivity.
  - change 128 with (stype_code SpException). rewrite parse_special.
    rewrite (mbind_ok _ _ _ _ _ (next_blob_complete s1 v len tl Hs1 Hr1 ltac:(assumption) ltac:(cbn; lia))).
    unfold mret. cbn [elem_of]. f_equal. unfold after, depth_after.
    apply stream_eq; try reflexivity; unfold s1, adv; scbn; rewrite ?lenN_cons; try lia.
    f_equal; lia.
  - change 192 with (stype_code SpPadding). rewrite parse_special.
    assert (Ha : after HdPad [stype_code SpPadding] s = s1).
    { unfold after, depth_after. change (lenN [stype_code SpPadding]) with 1. fold s1.
      change (s_depth s) with (s_depth s1). apply set_depth_same. }
    rewrite Ha. destruct sp; reflexivity.
Qed.

Definition step_result (sp : bool) (hd : hdr) (p d : N) : unit + element :=
  match hd with
  | HdPad => if sp then inl tt else inr ElPadding
  | _ => inr (elem_of hd p d)
  end.

Definition read_err (e : serr) (s s' : stream) : Prop :=
  int_err e /\ exists k d, s' = set_depth_ d (adv k s) /\ k <= lenN (rest s) /\
    (k = 0 \/ s_pos s + k <= U64_MAX) /\ d <= field_depth (s_depth s) /\
    (e = SIo IoUnexpectedEof -> rest s' = []).

Lemma next_blob_outcome s r s' :
  sch s = [] -> bytes_ok (rest s) -> next_blob s = (r, s') ->
  match r with
  | ROk n => exists v tl, rest s = v ++ tl /\ legal_varint v n /\ bytes_ok v /\
                          s_pos s + lenN v + n <= U64_MAX /\
      s' = set_commit (Some CSkipBlob) (set_blob_end (s_pos s + lenN v + n) (adv (lenN v) s))
  | RErr e => int_err e /\ exists k, k <= lenN (rest s) /\ (k = 0 \/ s_pos s + k <= U64_MAX) /\
                s' = adv k s /\ (e = SIo IoUnexpectedEof -> rest s' = [])
  | _ => False
  end.
Proof.
  intros Hs Hok H. unfold next_blob in H. unfold mbind at 1 in H.
  destruct (s_decode_u64 s) as [r0 s0] eqn:Ed.
  apply s_decode_outcome in Ed; [|exact Hs|exact Hok].
  destruct r0 as [n|e| |]; try contradiction.
  - destruct Ed as (v & tl & Hr & Hleg & Hvok & Hp & ->).
    unfold mbind, lift_io, check_advance_pos, mmod, mret in H.
    change (s_pos (adv (lenN v) s)) with (s_pos s + lenN v) in H.
    destruct (N.ltb_spec (U64_MAX - (s_pos s + lenN v)) n); injection H as <- <-.
    + split; [unfold int_err; auto|]. exists (lenN v). rewrite Hr, lenN_app.
      repeat split; auto; try lia. discriminate.
    + exists v, tl. repeat split; auto; try apply Hleg. lia.
  - injection H as <- <-. exact Ed.
Qed.

Lemma step_outcome sp u s r s' :
  sch s = [] -> bytes_ok (rest s) -> field_depth (s_depth s) < U64_MAX ->
  next_element_step sp u s = (r, s') ->
  match r with
  | ROk e =>
      (exists hd h tl, rest s = h ++ tl /\ hdr_enc hd h /\
         s_pos s + lenN h + hdr_payload hd <= U64_MAX /\
         e = step_result sp hd (s_pos s) (s_depth s) /\ s' = after hd h s) \/
      (s_graceful s = true /\ rest s = [] /\ s_pos s < U64_MAX /\
       e = inr ElEndOfDoc /\ s' = set_depth_ 0 (set_eof_ true s))
  | RErr e => read_err e s s'
  | _ => False
  end.
Proof.
  intros Hs Hok Hd H. destruct (rest s) as [|b l] eqn:Er.
  - (* end of input *)
    unfold next_element_step in H. unfold mbind at 1, mget in H. unfold mbind at 1 in H.
    rewrite s_read_byte_eq in H by exact Hs. unfold rb_spec in H. rewrite Er in H.
    assert (Herr : forall e, int_err e -> r = RErr e -> s' = s -> read_err e s s').
    { intros e He _ ->. split; [exact He|]. exists 0, (s_depth s).
      rewrite adv_0, set_depth_same. unfold field_depth. repeat split; auto; try lia. }
    destruct (N.ltb_spec (U64_MAX - s_pos s) 1).
    { injection H as <- <-. apply Herr; unfold int_err; auto. }
    destruct (s_graceful s) eqn:Eg.
    + change (parse_desc 64) with (Some (PSpecial SpEndOfDoc)) in H. cbn in H.
      injection H as <- <-. right. repeat split; auto. lia.
    + injection H as <- <-. apply Herr; unfold int_err; auto.
  - assert (Hb : b < 256) by (inversion Hok; assumption).
    assert (Hlok : bytes_ok l) by (inversion Hok; assumption).
    destruct (N.ltb_spec (s_pos s) U64_MAX) as [Hp|Hp].
    2:{ unfold next_element_step in H. unfold mbind at 1, mget in H. unfold mbind at 1 in H.
        rewrite s_read_byte_eq in H by exact Hs. unfold rb_spec in H.
        destruct (N.ltb_spec (U64_MAX - s_pos s) 1); [|lia]. injection H as <- <-.
        split; [unfold int_err; auto|]. exists 0, (s_depth s).
        rewrite adv_0, set_depth_same. unfold field_depth. repeat split; auto; try lia; discriminate. }
    destruct (parse_desc_total b Hb) as (pd & Hpd).
    assert (Hstep := H).
    unfold next_element_step in H. unfold mbind at 1, mget in H.
    rewrite (mbind_ok _ _ _ _ _ (s_read_byte_cons _ s b l Hs Er Hp)) in H. rewrite Hpd in H.
    pose proof (rest_cons_adv _ _ _ Er) as Hr1. set (s1 := adv 1 s) in *.
    assert (Hcomp : forall hd h tl, rest s = h ++ tl -> hdr_enc hd h ->
      s_pos s + lenN h + hdr_payload hd <= U64_MAX ->
      match r with
      | ROk e => exists hd h tl, b :: l = h ++ tl /\ hdr_enc hd h /\
         s_pos s + lenN h + hdr_payload hd <= U64_MAX /\
         e = step_result sp hd (s_pos s) (s_depth s) /\ s' = after hd h s
      | _ => False end).
    { intros hd h tl Hh Henc Hpp. rewrite (step_complete sp u s hd h tl) in Hstep; auto.
      - injection Hstep as <- <-. exists hd, h, tl. rewrite <- Er. auto.
      - unfold depth_fits. destruct hd as [t [| | |]| | | |]; auto. }
    assert (Hgo : forall hd h tl, rest s = h ++ tl -> hdr_enc hd h ->
      s_pos s + lenN h + hdr_payload hd <= U64_MAX ->
      match r with
      | ROk e => (exists hd h tl, b :: l = h ++ tl /\ hdr_enc hd h /\
         s_pos s + lenN h + hdr_payload hd <= U64_MAX /\
         e = step_result sp hd (s_pos s) (s_depth s) /\ s' = after hd h s) \/ 
      (s_graceful s = true /\ b :: l = [] /\ s_pos s < U64_MAX /\
       e = inr ElEndOfDoc /\ s' = set_depth_ 0 (set_eof_ true s))
      | RErr e => read_err e s s'
      | _ => False end).
    { intros hd h tl Hh Henc Hpp. specialize (Hcomp hd h tl Hh Henc Hpp).
      destruct r; try contradiction. now left. }
    clear Hcomp.
    assert (Hdep : forall s, (if s_depth s =? 0 then set_depth_ 1 s else s)
                   = set_depth_ (field_depth (s_depth s)) s).
    { intros s0. unfold field_depth. destruct (N.eqb_spec (s_depth s0) 0) as [->|H0]; [reflexivity|].
      rewrite N.max_l by lia. now rewrite set_depth_same. }
    assert (Herr : forall e d k s2, int_err e -> r = RErr e -> d <= field_depth (s_depth s) ->
       s2 = set_depth_ d s1 -> s' = adv k s2 -> k <= lenN (rest s2) ->
       (k = 0 \/ s_pos s2 + k <= U64_MAX) ->
       (e = SIo IoUnexpectedEof -> rest s' = []) -> read_err e s s').
    { intros e d k s2 He _ Hd' -> -> Hk Hkp Heof. split; [exact He|].
      exists (1 + k), d. split; [|split; [|split; [|split]]]; auto.
      - rewrite <- adv_adv. reflexivity.
      - change (rest (set_depth_ d s1)) with (rest s1) in Hk. rewrite Hr1 in Hk.
        rewrite Er, lenN_cons. lia.
      - right. change (s_pos (set_depth_ d s1)) with (s_pos s + 1) in Hkp. lia. }
    destruct pd as [ty tag|sp'].
    + destruct (parse_pair_inv b ty tag Hb Hpd) as [-> Htag].
      unfold mbind at 1, mmod in H. rewrite Hdep in H. unfold mbind at 1, mget in H.
      set (s2 := set_depth_ (field_depth (s_depth s1)) s1) in *.
      assert (Hs2 : sch s2 = []) by exact Hs.
      assert (Hok2 : bytes_ok (rest s2)) by (change (rest s2) with (rest s1); now rewrite Hr1).
      assert (Hp2 : s_pos s2 = s_pos s + 1) by reflexivity.
      destruct ty; cbn [next_value] in H.
      * (* enum *)
        rewrite mbind_assoc in H. unfold mbind at 1 in H.
        destruct (s_decode_u64 s2) as [r0 s0] eqn:Ed.
        apply s_decode_outcome in Ed; [|exact Hs2|exact Hok2].
        destruct r0 as [n|e| |]; try contradiction.
        -- destruct Ed as (v & tl & Hr & Hleg & Hvok & Hpv & ->).
           apply (Hgo (HdField tag (HvEnum n)) (dtype_code DEnum + tag :: v) tl).
           ++ rewrite Er. change (rest s2) with (rest s1) in Hr. rewrite Hr1 in Hr. now rewrite Hr.
           ++ now constructor.
           ++ cbn [hdr_payload]. rewrite lenN_cons. lia.
        -- injection H as <- <-. destruct Ed as (He & k & Hk & Hkp & -> & Heof).
           eapply (Herr e (field_depth (s_depth s)) k s2); auto; reflexivity.
      * rewrite mbind_assoc in H. unfold mbind at 1 in H.
        destruct (s_decode_u64 s2) as [r0 s0] eqn:Ed.
        apply s_decode_outcome in Ed; [|exact Hs2|exact Hok2].
        destruct r0 as [n|e| |]; try contradiction.
        -- destruct Ed as (v & tl & Hr & Hleg & Hvok & Hpv & ->).
           apply (Hgo (HdField tag (HvInt n)) (dtype_code DInteger + tag :: v) tl).
           ++ rewrite Er. change (rest s2) with (rest s1) in Hr. rewrite Hr1 in Hr. now rewrite Hr.
           ++ now constructor.
           ++ cbn [hdr_payload]. rewrite lenN_cons. lia.
        -- injection H as <- <-. destruct Ed as (He & k & Hk & Hkp & -> & Heof).
           eapply (Herr e (field_depth (s_depth s)) k s2); auto; reflexivity.
      * rewrite mbind_assoc in H. unfold mbind at 1 in H.
        destruct (next_blob s2) as [r0 s0] eqn:Ed.
        apply next_blob_outcome in Ed; [|exact Hs2|exact Hok2].
        destruct r0 as [n|e| |]; try contradiction.
        -- destruct Ed as (v & tl & Hr & Hleg & Hvok & Hpv & ->).
           apply (Hgo (HdField tag (HvBlob n)) (dtype_code DBlob + tag :: v) tl).
           ++ rewrite Er. change (rest s2) with (rest s1) in Hr. rewrite Hr1 in Hr. now rewrite Hr.
           ++ now constructor.
           ++ cbn [hdr_payload]. rewrite lenN_cons. lia.
        -- injection H as <- <-. destruct Ed as (He & k & Hk & Hkp & -> & Heof).
           eapply (Herr e (field_depth (s_depth s)) k s2); auto; reflexivity.
      * apply (Hgo (HdField tag HvStruct) [dtype_code DStruct + tag] l).
        -- rewrite Er. reflexivity.
        -- now constructor.
        -- cbn [hdr_payload]. change (lenN [dtype_code DStruct + tag]) with 1. lia.
    + pose proof (parse_special_inv b sp' Hb Hpd). subst b.
      destruct sp'.
      * apply (Hgo HdEnd [0] l); [exact Er|constructor|cbn [hdr_payload]; change (lenN [0]) with 1; lia].
      * apply (Hgo HdEof [64] l); [exact Er|constructor|cbn [hdr_payload]; change (lenN [64]) with 1; lia].
      * unfold mbind at 1 in H.
        destruct (next_blob s1) as [r0 s0] eqn:Ed.
        apply next_blob_outcome in Ed; [|exact Hs|now rewrite Hr1].
        destruct r0 as [n|e| |]; try contradiction.
        -- destruct Ed as (v & tl & Hr & Hleg & Hvok & Hpv & ->).
           apply (Hgo (HdExc n) (128 :: v) tl).
           ++ rewrite Er. rewrite Hr1 in Hr. now rewrite Hr.
           ++ now constructor.
           ++ cbn [hdr_payload]. rewrite lenN_cons. change (s_pos s1) with (s_pos s + 1) in Hpv. lia.
        -- injection H as <- <-. destruct Ed as (He & k & Hk & Hkp & -> & Heof).
           assert (Hdd : s_depth s <= field_depth (s_depth s)) by (unfold field_depth; lia).
           assert (Hss : s1 = set_depth_ (s_depth s) s1) by (change (s_depth s) with (s_depth s1); now rewrite set_depth_same).
           apply (Herr e (s_depth s) k s1); auto.
      * apply (Hgo HdPad [192] l); [exact Er|constructor|cbn [hdr_payload]; change (lenN [192]) with 1; lia].
Qed.

(** ** Skipping what is left of a blob *)
Lemma rinv_rest_ok s : rinv s -> bytes_ok (rest s).
Proof. intros H. apply bytes_ok_dropN, H. Qed.

Lemma rest_len s : lenN (rest s) = lenN (d_data (s_dev s)) - d_pos (s_dev s).
Proof. unfold rest, d_rest. apply lenN_dropN. Qed.

Lemma seek_cur_ok s n : sch s = [] -> n <= I64_MAX -> d_pos (s_dev s) + n <= U64_MAX ->
  on_dev (dev_seek (SkCur (Z.of_N n))) s =
  (ROk (d_pos (s_dev s) + n), set_dev (mkDev (d_data (s_dev s)) (d_pos (s_dev s) + n) []) s).
Proof.
  intros Hs Hn Hp. unfold on_dev, dev_seek. unfold sch in Hs. rewrite Hs. cbn [tl].
  destruct (Z.ltb_spec (Z.of_N (d_pos (s_dev s)) + Z.of_N n) 0); [lia|].
  destruct (Z.ltb_spec (Z.of_N U64_MAX) (Z.of_N (d_pos (s_dev s)) + Z.of_N n)); [lia|].
  cbn [orb]. rewrite <- N2Z.inj_add, N2Z.id. reflexivity.
Qed.
Lemma seek_cur_fail s n : sch s = [] -> U64_MAX < d_pos (s_dev s) + n ->
  on_dev (dev_seek (SkCur (Z.of_N n))) s = (RErr IoInvalidInput, s).
Proof.
  intros Hs Hp. unfold on_dev, dev_seek. unfold sch in Hs. rewrite Hs. cbn [tl].
  destruct (Z.ltb_spec (Z.of_N U64_MAX) (Z.of_N (d_pos (s_dev s)) + Z.of_N n)); [|lia].
  rewrite orb_true_r. f_equal. destruct s as [[d p sc] ? ? ? ? ? ? ? ? ?]. cbn in *. now subst.
Qed.

Lemma adv_eq s n : sch s = [] ->
  set_pos_ (s_pos s + n) (set_dev (mkDev (d_data (s_dev s)) (d_pos (s_dev s) + n) []) s) = adv n s.
Proof. intros Hs. unfold adv. now rewrite Hs. Qed.

Lemma skip_direct_ok s n : sch s = [] -> n <= I64_MAX -> s_pos s + n <= U64_MAX ->
  d_pos (s_dev s) + n <= U64_MAX -> skip_by_seek_direct n s = (ROk n, adv n s).
Proof.
  intros Hs Hn Hp Hd. unfold skip_by_seek_direct, mbind, lift_io, check_advance_pos.
  destruct (N.ltb_spec (U64_MAX - s_pos s) n); [lia|].
  rewrite seek_cur_ok by auto. f_equal. now rewrite <- adv_eq.
Qed.
Lemma skip_direct_over s n : 0 < n -> sch s = [] -> s_pos s + n <= U64_MAX ->
  lenN (d_data (s_dev s)) <= U64_MAX ->
  U64_MAX < d_pos (s_dev s) + n ->
  exists k, skip_by_seek_direct n s = (ROk k, adv k s) /\ k < n /\ lenN (rest s) <= k.
Proof.
  intros Hn0 Hs Hp Hl Hd. unfold skip_by_seek_direct, mbind, lift_io, check_advance_pos.
  destruct (N.ltb_spec (U64_MAX - s_pos s) n); [lia|].
  rewrite seek_cur_fail by auto. rewrite discard_full by auto. exists (N.min n (lenN (rest s))).
  split; [reflexivity|]. rewrite rest_len. lia.
Qed.

Lemma skip_seek_ok fuel : forall s n, sch s = [] -> n <= N.of_nat fuel * I64_MAX -> (1 <= fuel)%nat ->
  s_pos s + n <= U64_MAX -> d_pos (s_dev s) + n <= U64_MAX ->
  skip_by_seek_rec fuel n s = (ROk n, adv n s).
Proof.
  induction fuel as [|fuel IH]; intros s n Hs Hn Hf Hp Hd; [lia|].
  cbn [skip_by_seek_rec]. destruct (N.ltb_spec I64_MAX n) as [Hbig|Hsm].
  - destruct (N.ltb_spec 0 (N.of_nat fuel)) as [Hf0|Hf0]; [|exfalso; replace (N.of_nat (S fuel)) with 1 in Hn by lia; lia].
    assert (Hnm : n <= N.of_nat fuel * I64_MAX + I64_MAX) by lia. 
    rewrite (mbind_ok _ _ _ _ _ (IH s I64_MAX Hs ltac:(nia) ltac:(lia) ltac:(lia) ltac:(lia))).
    rewrite N.ltb_irrefl.
    rewrite (mbind_ok _ _ _ _ _ (IH (adv I64_MAX s) (n - I64_MAX) Hs ltac:(lia) ltac:(lia) ltac:(cbn; lia) ltac:(cbn; lia))).
    unfold mret. rewrite adv_adv. replace (I64_MAX + (n - I64_MAX)) with n by lia. reflexivity.
  - now apply skip_direct_ok.
Qed.
Lemma skip_seek_over fuel : forall s n, 0 < n -> sch s = [] -> n <= N.of_nat fuel * I64_MAX -> (1 <= fuel)%nat ->
  s_pos s + n <= U64_MAX -> lenN (d_data (s_dev s)) <= U64_MAX -> U64_MAX < d_pos (s_dev s) + n ->
  exists k, skip_by_seek_rec fuel n s = (ROk k, adv k s) /\ k < n /\ lenN (rest s) <= k.
Proof.
  induction fuel as [|fuel IH]; intros s n Hn0 Hs Hn Hf Hp Hl Hd; [lia|].
  cbn [skip_by_seek_rec]. destruct (N.ltb_spec I64_MAX n) as [Hbig|Hsm].
  - destruct (N.ltb_spec 0 (N.of_nat fuel)) as [Hf0|Hf0]; [|exfalso; replace (N.of_nat (S fuel)) with 1 in Hn by lia; lia].
    destruct (N.leb_spec (d_pos (s_dev s) + I64_MAX) U64_MAX) as [Hfit|Hfit].
    + rewrite (mbind_ok _ _ _ _ _ (skip_seek_ok fuel s I64_MAX Hs ltac:(nia) ltac:(lia) ltac:(lia) ltac:(lia))).
      rewrite N.ltb_irrefl.
      destruct (IH (adv I64_MAX s) (n - I64_MAX)) as (k & Hk & Hkn & Hkr); auto; try (cbn; lia).
      rewrite (mbind_ok _ _ _ _ _ Hk). unfold mret. rewrite adv_adv.
      exists (I64_MAX + k). split; [reflexivity|]. split; [lia|].
      rewrite rest_adv, lenN_dropN in Hkr. lia.
    + destruct (IH s I64_MAX) as (k & Hk & Hkn & Hkr); auto; try lia; [nia|].
      rewrite (mbind_ok _ _ _ _ _ Hk).
      destruct (N.ltb_spec k I64_MAX); [|lia]. unfold mret. exists k. split; [reflexivity|]. lia.
  - now apply skip_direct_over.
Qed.

Lemma skip_blob_outcome s n :
  sch s = [] -> lenN (d_data (s_dev s)) <= U64_MAX -> s_blob_end s <= U64_MAX ->
  n = s_blob_end s - s_pos s ->
  (n <= lenN (rest s) /\ skip_blob s = (ROk tt, adv n s)) \/
  (lenN (rest s) < n /\
   ((s_seek s = true /\ d_pos (s_dev s) + n <= U64_MAX /\ skip_blob s = (ROk tt, adv n s)) \/
    (exists k, lenN (rest s) <= k < n /\ (s_seek s = false -> k = lenN (rest s)) /\
       skip_blob s = (RErr (STruncatedBlob (n - k)), adv k s)))).
Proof.
  intros Hs Hl Hb En. unfold skip_blob. rewrite <- En.
  destruct (N.ltb_spec (s_pos s) (s_blob_end s)) as [Hlt|Hge].
  2:{ left. replace n with 0 by lia. split; [lia|]. now rewrite adv_0. }
  assert (Hn : s_pos s + n <= U64_MAX) by lia.
  assert (H4 : n <= N.of_nat 4 * I64_MAX) by (unfold U64_MAX, I64_MAX in *; lia).
  assert (Hfin : forall k, (if s_seek s then skip_by_seek n else skip_by_discard n) s = (ROk k, adv k s) ->
     (let* skipped := if s_seek s then skip_by_seek n else skip_by_discard n in
       if skipped <? n then mfail (STruncatedBlob (n - skipped)) else mret tt) s =
     if k <? n then (RErr (STruncatedBlob (n - k)), adv k s) else (ROk tt, adv k s)).
  { intros k Hk. rewrite (mbind_ok _ _ _ _ _ Hk). destruct (k <? n); reflexivity. }
  destruct (s_seek s).
  - unfold skip_by_seek in *.
    destruct (N.leb_spec (d_pos (s_dev s) + n) U64_MAX) as [Hfit|Hfit].
    + rewrite (Hfin n (skip_seek_ok 4 s n Hs H4 ltac:(lia) Hn Hfit)).
      rewrite N.ltb_irrefl.
      destruct (N.leb_spec n (lenN (rest s))); [left; auto|right]. split; [assumption|]. left. auto.
    + destruct (skip_seek_over 4 s n) as (k & Hk & Hkn & Hkr); auto; try lia.
      rewrite (Hfin k Hk). destruct (N.ltb_spec k n); [|lia].
      right. split; [lia|]. right. exists k. split; [lia|]. split; [discriminate|reflexivity].
  - rewrite (Hfin (N.min n (lenN (rest s))) (discard_full n s Hs Hn)).
    destruct (N.leb_spec n (lenN (rest s))).
    + left. split; [assumption|]. rewrite N.min_l by lia. now rewrite N.ltb_irrefl.
    + right. split; [assumption|]. right. exists (lenN (rest s)). rewrite N.min_r by lia.
      split; [lia|]. split; [auto|]. destruct (N.ltb_spec (lenN (rest s)) n); [reflexivity|lia].
Qed.

(** Finishing a pending blob: complete, or reported as truncated, or -- when
    skipping by seeking -- passed over although it is truncated. *)
Lemma commit_outcome s : rinv s ->
  (pend s <= lenN (rest s) /\ commit s = (ROk tt, set_commit None (adv (pend s) s))) \/
  (lenN (rest s) < pend s /\
   ((s_seek s = true /\ d_pos (s_dev s) + pend s <= U64_MAX /\ commit s = (ROk tt, set_commit None (adv (pend s) s))) \/
    (exists k, lenN (rest s) <= k < pend s /\ (s_seek s = false -> k = lenN (rest s)) /\
       commit s = (RErr (STruncatedBlob (pend s - k)), adv k s)))).
Proof.
  intros [Hs Hok Hl Hc]. unfold commit, pend. destruct Hc as [Hc|[Hc Hb]]; rewrite Hc.
  { left. split; [lia|]. rewrite adv_0. f_equal. destruct s; cbn in *; now subst. }
  destruct (skip_blob_outcome s _ Hs Hl Hb eq_refl) as
    [[H1 H2]|(H1 & [(H2 & H3 & H4)|(k & H2 & H3 & H4)])].
  - left. split; [exact H1|]. now rewrite (mbind_ok _ _ _ _ _ H2).
  - right. split; [exact H1|]. left. rewrite (mbind_ok _ _ _ _ _ H4). auto.
  - right. split; [exact H1|]. right. exists k. rewrite (mbind_err _ _ _ _ _ H4). auto.
Qed.

(** State after finishing the pending blob. *)
Definition settled (s : stream) : stream := set_commit None (adv (pend s) s).

Lemma commit_complete s : rinv s -> pend s <= lenN (rest s) -> commit s = (ROk tt, settled s).
Proof. intros Hi Hp. destruct (commit_outcome s Hi) as [[_ H]|[H _]]; [exact H|lia]. Qed.

(** ** next_element / next_field *)

(** Header [hd] (never padding when [sp]) with encoding [h], preceded by
    [np] padding bytes when padding is skipped. *)
Lemma settled_sch s : sch (settled s) = sch s. Proof. reflexivity. Qed.

Lemma impl_complete sp s hd h tl np :
  rinv s -> s_eof s = false -> pend s <= lenN (rest s) ->
  dropN (pend s) (rest s) = repeat 0xC0 np ++ h ++ tl ->
  hdr_enc hd h -> (sp = false -> np = 0%nat) -> (sp = true -> hd <> HdPad) ->
  s_pos s + pend s + N.of_nat np + lenN h + hdr_payload hd <= U64_MAX ->
  depth_fits hd (s_depth s) ->
  next_element_impl sp s =
    (ROk (elem_of hd (s_pos s + pend s + N.of_nat np) (s_depth s)),
     after hd h (adv (N.of_nat np) (settled s))).
Proof.
  intros Hi He Hpend Hr Henc Hsp0 Hsp1 Hp Hd. unfold next_element_impl. rewrite He.
  rewrite (mbind_ok _ _ _ _ _ (commit_complete s Hi Hpend)).
  assert (Hgen : forall np s1, sch s1 = [] -> rest s1 = repeat 0xC0 np ++ h ++ tl ->
     s_pos s1 + N.of_nat np + lenN h + hdr_payload hd <= U64_MAX ->
     depth_fits hd (s_depth s1) -> (sp = false -> np = 0%nat) ->
     mloop_nat (S np) (next_element_step sp) tt s1 =
     (ROk (elem_of hd (s_pos s1 + N.of_nat np) (s_depth s1)), after hd h (adv (N.of_nat np) s1))).
  { clear - Henc Hsp1. induction np as [|np IH]; intros s1 Hs Hr Hp Hd Hsp0.
    - rewrite mloop_nat_S. cbn [repeat app] in Hr.
      rewrite (mbind_ok _ _ _ _ _ (step_complete sp tt s1 hd h tl Hs Hr Henc ltac:(lia) Hd)).
      change (N.of_nat 0) with 0. rewrite N.add_0_r, adv_0.
      destruct hd; try reflexivity. destruct sp; [now destruct Hsp1|reflexivity].
    - assert (sp = true) by (destruct sp; [reflexivity|now specialize (Hsp0 eq_refl)]). subst sp.
      rewrite mloop_nat_S.
      cbn [repeat app] in Hr. change (192 :: repeat 192 np ++ h ++ tl) with ([192] ++ repeat 192 np ++ h ++ tl) in Hr.
      pose proof (hdr_enc_len _ _ Henc).
      rewrite (mbind_ok _ _ _ _ _ (step_complete true tt s1 HdPad [192] _ Hs Hr EncPad
                 ltac:(cbn [hdr_payload]; change (lenN [192]) with 1; lia) I)).
      assert (Ha : after HdPad [192] s1 = adv 1 s1).
      { unfold after, depth_after. change (lenN [192]) with 1.
        change (s_depth s1) with (s_depth (adv 1 s1)). apply set_depth_same. }
      rewrite Ha. rewrite IH; auto.
      + rewrite adv_adv. replace (1 + N.of_nat np) with (N.of_nat (S np)) by lia.
        change (s_depth (adv 1 s1)) with (s_depth s1).
        change (s_pos (adv 1 s1)) with (s_pos s1 + 1).
        replace (s_pos s1 + 1 + N.of_nat np) with (s_pos s1 + N.of_nat (S np)) by lia. reflexivity.
      + rewrite rest_adv, Hr. cbn [app]. now rewrite dropN_S_cons, dropN_0 by lia.
      + change (s_pos (adv 1 s1)) with (s_pos s1 + 1). lia.
      + discriminate. }
  eapply mloop_of_nat with (n := S np).
  - pose proof (hdr_enc_len _ _ Henc). unfold U64_MAX, U64_MOD in *. lia.
  - rewrite Hgen; auto.
    + apply Hi.
    + unfold settled. change (rest (set_commit None (adv (pend s) s))) with (rest (adv (pend s) s)).
      now rewrite rest_adv.
  - discriminate.
Qed.

Lemma next_element_complete s hd h tl :
  rinv s -> s_eof s = false -> pend s <= lenN (rest s) ->
  dropN (pend s) (rest s) = h ++ tl -> hdr_enc hd h ->
  s_pos s + pend s + lenN h + hdr_payload hd <= U64_MAX ->
  depth_fits hd (s_depth s) ->
  next_element s = (ROk (elem_of hd (s_pos s + pend s) (s_depth s)), after hd h (settled s)).
Proof.
  intros. unfold next_element.
  rewrite (impl_complete false s hd h tl 0); auto; try discriminate; try (change (N.of_nat 0) with 0; lia).
  change (N.of_nat 0) with 0. now rewrite adv_0, N.add_0_r.
Qed.

Lemma read_err_adv e n s s' : read_err e (adv n s) s' -> n <= lenN (rest s) ->
  (n = 0 \/ s_pos s + n <= U64_MAX) -> read_err e s s'.
Proof.
  intros (He & k & d & -> & Hk & Hkp & Hd & Heof) Hn Hnp. split; [exact He|].
  exists (n + k), d. rewrite <- adv_adv. rewrite rest_adv, lenN_dropN in Hk.
  split; [reflexivity|]. split; [lia|]. split.
  { change (s_pos (adv n s)) with (s_pos s + n) in Hkp. lia. }
  split; [exact Hd|exact Heof].
Qed.

Definition impl_ok (sp : bool) (s1 s' : stream) (e : element) : Prop :=
  (exists np hd h tl, rest s1 = repeat 0xC0 np ++ h ++ tl /\ hdr_enc hd h /\
     (sp = false -> np = 0%nat) /\ (sp = true -> hd <> HdPad) /\
     s_pos s1 + N.of_nat np + lenN h + hdr_payload hd <= U64_MAX /\
     e = elem_of hd (s_pos s1 + N.of_nat np) (s_depth s1) /\
     s' = after hd h (adv (N.of_nat np) s1)) \/
  (exists np, s_graceful s1 = true /\ rest s1 = repeat 0xC0 np /\ (sp = false -> np = 0%nat) /\
     s_pos s1 + N.of_nat np < U64_MAX /\ e = ElEndOfDoc /\
     s' = set_depth_ 0 (set_eof_ true (adv (N.of_nat np) s1))).

Lemma loop_outcome sp s1 r s' :
  sch s1 = [] -> bytes_ok (rest s1) -> field_depth (s_depth s1) < U64_MAX ->
  mloop (next_element_step sp) tt s1 = (r, s') ->
  match r with
  | ROk e => impl_ok sp s1 s' e
  | RErr e => read_err e s1 s'
  | _ => False
  end.
Proof.
  intros Hs Hok Hd H.
  pose proof (mloop_inv (next_element_step sp)
    (fun _ s => exists np, s = adv (N.of_nat np) s1 /\ rest s1 = repeat 0xC0 np ++ rest s /\
                           (sp = false -> np = 0%nat) /\ (np = 0%nat \/ s_pos s <= U64_MAX))
    (fun s => U64_MAX - s_pos s)
    (fun r s' => match r with
                 | ROk e => impl_ok sp s1 s' e
                 | RErr e => read_err e s1 s'
                 | _ => False
                 end)) as Hinv.
  match type of Hinv with ?A -> _ => assert (Ha : A) end.
  { intros [] s (np & -> & Hr & Hsp0 & Hnp).
    destruct (next_element_step sp tt (adv (N.of_nat np) s1)) as [r0 s0] eqn:Est.
    assert (Hoks : bytes_ok (rest (adv (N.of_nat np) s1))).
    { rewrite Hr in Hok. apply bytes_ok_app in Hok. tauto. }
    apply step_outcome in Est; auto.
    assert (Hnl : N.of_nat np <= lenN (rest s1)).
    { rewrite Hr, lenN_app, lenN_repeat. lia. }
    destruct r0 as [e|e| |]; try contradiction.
    - destruct Est as [(hd & h & tl & Hrh & Henc & Hp & -> & ->)|(Hg & Hre & Hp & -> & ->)].
      + cbn [s_depth adv set_pos_ set_dev] in *.
        change (s_pos (adv (N.of_nat np) s1)) with (s_pos s1 + N.of_nat np) in *.
        change (s_depth (adv (N.of_nat np) s1)) with (s_depth s1) in *.
        assert (Hnotpad : hd <> HdPad \/ sp = false ->
             impl_ok sp s1 (after hd h (adv (N.of_nat np) s1)) (elem_of hd (s_pos s1 + N.of_nat np) (s_depth s1))).
        { intros Hnp'. left. exists np, hd, h, tl. rewrite Hr, Hrh. repeat split; auto.
          intros ->. destruct Hnp'; [assumption|discriminate]. }
        destruct hd as [t v| | |len|]; cbn [step_result];
          try (apply Hnotpad; left; discriminate).
        destruct sp eqn:Esp.
        * (* padding skipped *)
          inversion Henc; subst.
          assert (Ha : after HdPad [192] (adv (N.of_nat np) s1) = adv (N.of_nat (S np)) s1).
          { unfold after, depth_after. change (lenN [192]) with 1.
            change (s_depth (adv (N.of_nat np) s1)) with (s_depth (adv 1 (adv (N.of_nat np) s1))).
            rewrite set_depth_same, adv_adv. f_equal. lia. }
          rewrite Ha. change (lenN [192]) with 1 in Hp. cbn [hdr_payload] in Hp.
          split.
          -- exists (S np). split; [reflexivity|]. split; [|split; [discriminate|]].
             ++ rewrite Hr, Hrh. replace (rest (adv (N.of_nat (S np)) s1)) with tl.
                { replace (repeat 192 (S np)) with (repeat 192 np ++ [192]).
                  - now rewrite <- app_assoc.
                  - change [192] with (repeat 192 1). rewrite <- repeat_app. f_equal. lia. }
                replace (N.of_nat (S np)) with (N.of_nat np + 1) by lia.
                rewrite <- adv_adv. rewrite rest_adv, Hrh. cbn [app].
                now rewrite dropN_S_cons, dropN_0 by lia.
             ++ right. change (s_pos (adv (N.of_nat (S np)) s1)) with (s_pos s1 + N.of_nat (S np)). lia.
          -- change (s_pos (adv (N.of_nat (S np)) s1)) with (s_pos s1 + N.of_nat (S np)).
             change (s_pos (adv (N.of_nat np) s1)) with (s_pos s1 + N.of_nat np). lia.
        * apply Hnotpad. now right.
      + right. exists np. rewrite Hr, Hre, app_nil_r. repeat split; auto.
    - eapply read_err_adv; eauto. destruct Hnp as [->|Hnp]; [left; reflexivity|right].
      change (s_pos (adv (N.of_nat np) s1)) with (s_pos s1 + N.of_nat np) in Hnp. lia. }
  specialize (Hinv Ha tt s1). rewrite H in Hinv. apply Hinv; [|unfold U64_MAX, U64_MOD; lia].
  exists 0%nat. rewrite adv_0. auto.
Qed.
