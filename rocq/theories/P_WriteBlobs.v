(** * P_WriteBlobs: pre-sized and dynamic blobs, alignment, tags (C21-C23, C26) *)

From Verif Require Import Base Wire Dev Stream SpecWire SpecFormat SpecStream SpecBlob SpecHist SpecWrite
  P_Base P_Wire P_Sched P_Read P_Write P_Blob P_Stream.

Lemma app_winv s out : appending s out -> winv s.
Proof. intros H. split; [unfold sch|]; rewrite H; cbn; [reflexivity|lia]. Qed.
Lemma put_at_end (out bs : bytes) : put_at out (lenN out) bs = out ++ bs.
Proof.
  unfold put_at. rewrite takeN_all, N.sub_diag by lia. change (repeat 0 (N.to_nat 0)) with (@nil N).
  rewrite dropN_all by lia. now rewrite app_nil_r.
Qed.
Lemma wr_app s out bs : appending s out -> appending (wr bs s) (out ++ bs).
Proof.
  unfold appending, wr. intros H. scbn. unfold sch. rewrite H. cbn [d_data d_pos d_sched].
  rewrite put_at_end, lenN_app. reflexivity.
Qed.
Lemma put_at_mid (A B C D : bytes) : lenN B = lenN D -> put_at (A ++ B ++ C) (lenN A) D = A ++ D ++ C.
Proof.
  intros H. unfold put_at. rewrite takeN_app_exact, !lenN_app.
  replace (lenN A - (lenN A + (lenN B + lenN C))) with 0 by lia. change (repeat 0 (N.to_nat 0)) with (@nil N).
  cbn [app]. do 2 f_equal. rewrite app_assoc. rewrite <- H.
  replace (lenN A + lenN B) with (lenN (A ++ B)) by now rewrite lenN_app. apply dropN_app_exact.
Qed.

Lemma pow2_pos k : 1 <= 2 ^ k.
Proof. pose proof (N.pow_nonzero 2 k ltac:(lia)). lia. Qed.

Lemma land_pow2 p k : N.land p (2 ^ k - 1) = p mod 2 ^ k.
Proof. replace (2 ^ k - 1) with (N.ones k) by now rewrite N.ones_equiv, N.pred_sub. apply N.land_ones. Qed.
Lemma pad_pow2 k s : pad_to_align (2 ^ k) s =
  (commit ;; mloop (fun _ : unit => let* s := mget in
            if N.land (s_pos s) (2 ^ k - 1) =? 0 then mret (inr tt)
            else write_padding ;; mret (inl tt)) tt) s.
Proof.
  unfold pad_to_align. unfold mbind at 1, mres. rewrite u64_sub_ok by apply pow2_pos.
  rewrite land_pow2, N.mod_same by (apply N.pow_nonzero; lia).
  change (negb (0 =? 0)) with false. rewrite andb_false_r. reflexivity.
Qed.

(** ** Operations that commit first *)
Lemma commit_first_err op c s e s' : finishes_blob s c -> commit s = (RErr e, s') ->
  call_run op c s = (RErr e, s').
Proof.
  intros Hf Hc.
  assert (Hwd : forall d, write_desc d s = (RErr e, s')) by (intros d; unfold write_desc, mbind; now rewrite Hc).
  assert (Hal : forall d len, write_desc_with_blob_alloc d len s = (RErr e, s'))
    by (intros d len; unfold write_desc_with_blob_alloc, mbind; now rewrite Hc).
  assert (Hdy : forall d, write_desc_with_blob_dynamic d s = (RErr e, s'))
    by (intros d; unfold write_desc_with_blob_dynamic, mbind; now rewrite Hwd).
  assert (Hu : forall (m : SM unit), m s = (RErr e, s') -> ret_unit m s = (RErr e, s'))
    by (intros m Hm; unfold ret_unit, mbind; now rewrite Hm).
  assert (Hi : s_eof s = false -> forall sp, next_element_impl sp s = (RErr e, s')).
  { intros He sp. unfold next_element_impl. rewrite He. unfold mbind. now rewrite Hc. }
  assert (Hwu : forall t n, write_u64 t n s = (RErr e, s')) by (intros; unfold write_u64, mbind; now rewrite Hwd).
  destruct c; cbn [finishes_blob] in Hf; try contradiction; cbn [call_run].
  - unfold next_element, mbind. now rewrite Hi.
  - unfold next_field, mbind. now rewrite Hi.
  - apply Hu. exact Hc.
  - apply Hu. unfold reset_pos, mbind. now rewrite Hc.
  - unfold st_seek, mbind. now rewrite Hc.
  - apply Hu, Hwu.
  - apply Hu. unfold write_sint. apply Hwu.
  - unfold write_blob_data, write_blob_alloc, mbind. now rewrite Hal.
  - unfold write_blob_alloc, mbind. now rewrite Hal.
  - unfold write_blob_dynamic, mbind. now rewrite Hdy.
  - unfold write_exception_data, write_exception_alloc, mbind. now rewrite Hal.
  - unfold write_exception_alloc, mbind. now rewrite Hal.
  - unfold write_exception_dynamic, mbind. now rewrite Hdy.
  - apply Hu, Hwd.
  - apply Hu. unfold write_enum, mbind. now rewrite Hwd.
  - apply Hu, Hwd.
  - apply Hu, Hwd.
  - apply Hu, Hwd.
  - apply Hu. destruct Hf as (k & Hk & ->). rewrite pad_pow2. unfold mbind. now rewrite Hc.
Qed.

Lemma commit_idem s : s_commit s = None -> commit s = (ROk tt, s).
Proof. intros H. unfold commit. now rewrite H. Qed.

Lemma commit_first_ok op c s s1 : finishes_blob s c -> commit s = (ROk tt, s1) ->
  s_commit s1 = None -> s_eof s1 = s_eof s -> s_dbg s1 = s_dbg s ->
  call_run op c s = call_run op c s1.
Proof.
  intros Hf Hc Hn He Hb. pose proof (commit_idem s1 Hn) as Hc1.
  assert (Hk : forall A (k : SM A), (commit ;; k) s = (commit ;; k) s1).
  { intros A k. unfold mbind. now rewrite Hc, Hc1. }
  assert (Hbind : forall A B (m : SM A) (k : A -> SM B), m s = m s1 -> mbind m k s = mbind m k s1).
  { intros A B m k Hm. unfold mbind. now rewrite Hm. }
  assert (Hwd : forall d, write_desc d s = write_desc d s1) by (intros d; unfold write_desc; apply Hk).
  assert (Hal : forall d len, write_desc_with_blob_alloc d len s = write_desc_with_blob_alloc d len s1)
    by (intros; apply Hk).
  assert (Hdy : forall d, write_desc_with_blob_dynamic d s = write_desc_with_blob_dynamic d s1)
    by (intros; apply Hbind, Hwd).
  assert (Hi : s_eof s = false -> forall sp, next_element_impl sp s = next_element_impl sp s1).
  { intros He0 sp. unfold next_element_impl. rewrite He, He0. apply Hk. }
  destruct c; cbn [finishes_blob] in Hf; try contradiction; cbn [call_run]; unfold ret_unit; try (apply Hbind).
  - now apply Hi.
  - unfold next_field. apply Hbind. now apply Hi.
  - now rewrite Hc, Hc1.
  - apply Hk.
  - apply Hk.
  - unfold write_u64. apply Hbind, Hwd.
  - unfold write_sint, write_u64. apply Hbind, Hwd.
  - unfold write_blob_data. apply Hbind, Hal.
  - apply Hal.
  - apply Hdy.
  - unfold write_exception_data. apply Hbind, Hal.
  - apply Hal.
  - apply Hdy.
  - apply Hwd.
  - unfold write_enum. apply Hbind, Hwd.
  - apply Hwd.
  - apply Hwd.
  - apply Hwd.
  - destruct Hf as (k & Hkk & ->). rewrite !pad_pow2. apply Hk.
Qed.

(** ** Writing pieces through a blob *)
Lemma b_write_all_snd w s : winv s -> s_pos s <= s_blob_end s -> s_blob_end s <= U64_MAX ->
  snd (b_write_all w s) = wr (takeN (s_blob_end s - s_pos s) w) s.
Proof.
  intros Hw Hp He. rewrite bw_clean by apply Hw. unfold wspec.
  destruct w as [|b l]; [rewrite takeN_nil, wr_nil by exact Hw; reflexivity|].
  rewrite cap_blob_ok by exact Hp. cbn [cap_take]. cbv zeta.
  assert (Hl : lenN (takeN (s_blob_end s - s_pos s) (b :: l)) <= s_blob_end s - s_pos s) by (rewrite lenN_takeN; lia).
  destruct (takeN (s_blob_end s - s_pos s) (b :: l)) as [|x y] eqn:Et; [rewrite wr_nil by exact Hw; reflexivity|].
  destruct (N.ltb_spec (U64_MAX - s_pos s) (lenN (x :: y))); [lia|].
  destruct (_ =? _); reflexivity.
Qed.
Lemma write_pieces_ok ws : forall s, winv s -> s_pos s <= s_blob_end s -> s_blob_end s <= U64_MAX ->
  write_pieces ws s = wr (takeN (s_blob_end s - s_pos s) (concat ws)) s.
Proof.
  induction ws as [|w ws IH]; intros s Hw Hp He; cbn [write_pieces concat].
  - rewrite takeN_nil, wr_nil by exact Hw. reflexivity.
  - rewrite b_write_all_snd by assumption. set (k := s_blob_end s - s_pos s).
    rewrite IH.
    + rewrite wr_wr. f_equal. rewrite takeN_app. f_equal.
      change (s_blob_end (wr (takeN k w) s)) with (s_blob_end s). rewrite wr_pos, lenN_takeN.
      destruct (N.leb_spec k (lenN w)).
      * replace (s_blob_end s - (s_pos s + N.min k (lenN w))) with 0 by lia.
        replace (k - lenN w) with 0 by lia. reflexivity.
      * f_equal. lia.
    + now apply wr_winv.
    + rewrite wr_pos, lenN_takeN. change (s_blob_end (wr (takeN k w) s)) with (s_blob_end s). lia.
    + exact He.
Qed.

(** ** C21 *)
Lemma presized s out d len ws :
  appending s out -> no_open_blob s -> pdesc_ok d -> s_pos s + len + 11 <= U64_MAX ->
  exists h s1, write_desc_with_blob_alloc d len s = (ROk len, s1) /\
    h = desc_code d :: enc len /\ lenN h <= 11 /\
    let s2 := write_pieces ws s1 in
    let content := takeN len (concat ws) in
    appending s2 (out ++ h ++ content) /\ s_pos s2 = s_pos s + lenN h + lenN content /\
    (forall op c, finishes_blob s2 c -> lenN content < len ->
       call_run op c s2 = (RErr (SIncompleteBlob (len - lenN content)), s2)) /\
    (lenN content = len -> commit s2 = (ROk tt, set_commit None s2) /\
       forall op c, finishes_blob s2 c -> call_run op c s2 = call_run op c (set_commit None s2)).
Proof.
  intros Ha Hs Hd Hp. pose proof (app_winv _ _ Ha) as Hw.
  assert (Hlen : len <= U64_MAX - 11) by lia.
  assert (H64 : len < 2 ^ 64) by (unfold U64_MAX in *; change (2^64) with 18446744073709551616; lia).
  pose proof (enc_len len H64) as Hel.
  pose proof (write_alloc_ok d len s Hw Hs Hd Hlen Hp) as H1.
  set (h := desc_code d :: enc len) in *.
  assert (Hlh : lenN h = 1 + lenN (enc len)) by (unfold h; rewrite lenN_cons; lia).
  set (s1 := set_commit (Some CCheckEnd) (set_blob_end (s_pos s + 1 + lenN (enc len) + len) (wr h s))) in *.
  exists h, s1. split; [exact H1|]. split; [reflexivity|]. split; [lia|].
  assert (Hw1 : winv s1) by (apply (wr_winv h s Hw)).
  assert (Ha1 : appending s1 (out ++ h)) by (unfold appending, s1; scbn; apply (wr_app s out h Ha)).
  assert (Hp1 : s_pos s1 = s_pos s + lenN h) by reflexivity.
  assert (Hb1 : s_blob_end s1 = s_pos s + lenN h + len) by (unfold s1; scbn; lia).
  cbv zeta. rewrite write_pieces_ok by (try assumption; lia).
  replace (s_blob_end s1 - s_pos s1) with len by lia. set (c := takeN len (concat ws)).
  assert (Hlc : lenN c <= len) by (unfold c; rewrite lenN_takeN; lia).
  split; [rewrite app_assoc; apply wr_app; exact Ha1|].
  assert (Hp2 : s_pos (wr c s1) = s_pos s + lenN h + lenN c) by (rewrite wr_pos; lia).
  split; [exact Hp2|].
  assert (Hb2 : s_blob_end (wr c s1) = s_pos s + lenN h + len) by exact Hb1.
  split.
  - intros op cc Hf Hlt. apply commit_first_err; [exact Hf|].
    change (s_commit (wr c s1)) with (Some CCheckEnd). unfold commit. change (s_commit (wr c s1)) with (Some CCheckEnd).
    unfold mbind, check_at_end_of_blob. destruct (N.eqb_spec (s_pos (wr c s1)) (s_blob_end (wr c s1))); [lia|].
    rewrite u64_sub_ok by lia. do 3 f_equal. lia.
  - intros Heq.
    assert (Hc : commit (wr c s1) = (ROk tt, set_commit None (wr c s1))).
    { apply commit_settled. right. split; [reflexivity|]. rewrite Hp2, Hb2. lia. }
    split; [exact Hc|]. intros op cc Hf. now apply commit_first_ok.
Qed.

(** ** C22 *)
Lemma dynamic s out d ws :
  appending s out -> no_open_blob s -> pdesc_ok d ->
  s_pos s + 11 + lenN (concat ws) <= U64_MAX -> lenN out + 11 + lenN (concat ws) <= U64_MAX ->
  exists s1, (write_desc_with_blob_dynamic d s = (ROk (U64_MAX - s_pos s - 11), s1)) /\
    let s2 := write_pieces ws s1 in
    appending s2 (out ++ [desc_code d] ++ encode_fixed_u64 (U64_MAX - s_pos s - 11) ++ concat ws) /\
    (lenN (concat ws) + 10 <= I64_MAX ->
      exists s3, commit s2 = (ROk tt, s3) /\
       appending s3 (out ++ [desc_code d] ++ encode_fixed_u64 (lenN (concat ws)) ++ concat ws) /\
       s_pos s3 = s_pos s + 11 + lenN (concat ws) /\ s_commit s3 = None /\
       forall op c, finishes_blob s2 c -> call_run op c s2 = call_run op c s3) /\
    (I64_MAX < lenN (concat ws) + 10 ->
      forall op c, finishes_blob s2 c -> call_run op c s2 = (RErr SOverlongDynBlob, s2)).
Proof.
  intros Ha Hs Hd Hp Hout. pose proof (app_winv _ _ Ha) as Hw.
  assert (H10 : forall n, lenN (encode_fixed_u64 n) = 10) by reflexivity.
  set (d1 := desc_code d). set (len := U64_MAX - s_pos s - 11).
  set (sd := wr [d1] (set_commit None s)).
  assert (Hpd : s_pos sd = s_pos s + 1) by reflexivity.
  assert (Had : appending sd (out ++ [d1])) by (apply wr_app; exact Ha).
  set (sf := wr (encode_fixed_u64 len) sd).
  assert (Hpf : s_pos sf = s_pos s + 11) by (unfold sf; rewrite wr_pos, H10, Hpd; lia).
  assert (Haf : appending sf ((out ++ [d1]) ++ encode_fixed_u64 len)) by (apply wr_app; exact Had).
  set (s1 := set_commit (Some CFinishDyn) (set_blob_end (s_pos sf + len) (set_dyn_start (s_pos sf) sf))).
  exists s1. split.
  { unfold write_desc_with_blob_dynamic.
    rewrite (mbind_ok _ _ _ _ _ (write_desc_ok d s Hw Hs Hd ltac:(lia))). fold d1. fold sd.
    unfold mbind at 1, mres. rewrite u64_sub_ok by lia.
    unfold mbind at 1, mres. rewrite u64_sub_ok by lia.
    replace (U64_MAX - s_pos sd - 10) with len by (unfold len; lia).
    assert (Hf : s_encode_fixed_u64 len sd = (ROk tt, sf)).
    { unfold s_encode_fixed_u64, lift_io. rewrite tw_ok; [reflexivity|apply (wr_winv [d1] (set_commit None s)); exact Hw|].
      rewrite H10. lia. }
    rewrite (mbind_ok _ _ _ _ _ Hf). unfold mbind, mmod, mret.
    rewrite u64_add_ok; [reflexivity|]. scbn. rewrite Hpf. unfold len, U64_MAX, U64_MOD in *. lia. }
  cbv zeta. set (c := concat ws) in *.
  assert (Hb1 : s_blob_end s1 = U64_MAX) by (unfold s1; scbn; rewrite Hpf; unfold len; lia).
  assert (Hp1 : s_pos s1 = s_pos s + 11) by exact Hpf.
  assert (Ha1 : appending s1 ((out ++ [d1]) ++ encode_fixed_u64 len)) by exact Haf.
  assert (Hw1 : winv s1) by (eapply app_winv; exact Ha1).
  rewrite write_pieces_ok by (try assumption; lia). fold c.
  rewrite (takeN_all (s_blob_end s1 - s_pos s1) c) by lia.
  set (s2 := wr c s1).
  assert (Ha2 : appending s2 (out ++ [d1] ++ encode_fixed_u64 len ++ c)).
  { rewrite !app_assoc. apply wr_app. exact Ha1. }
  assert (Hp2 : s_pos s2 = s_pos s + 11 + lenN c) by (unfold s2; rewrite wr_pos; lia).
  assert (Hds : s_dyn_start s2 = s_pos s + 11) by exact Hpf.
  split; [exact Ha2|].
  assert (Hfin : finish_dynamic_blob s2 =
     if I64_MAX <? lenN c + 10 then (RErr SOverlongDynBlob, s2) else
     (lift_io (on_dev (dev_seek (SkCur (- Z.of_N (lenN c + 10))))) ;;
       mmod (fun s => set_pos_ (s_pos s - (lenN c + 10)) s) ;;
       lift_io (write_all sch t_write (encode_fixed_u64 (lenN c))) ;;
       lift_io (on_dev (dev_seek (SkCur (Z.of_N (lenN c))))) ;;
       mmod (set_pos_ (s_pos s2))) s2).
  { unfold finish_dynamic_blob. rewrite Hds, Hp2.
    destruct (N.ltb_spec (s_pos s + 11 + lenN c) (s_pos s + 11)); [lia|].
    unfold mbind at 1, mres. rewrite u64_sub_ok by lia.
    unfold mbind at 1, mres. rewrite u64_sub_ok by lia.
    replace (s_pos s + 11 + lenN c - (s_pos s + 11 - 10)) with (lenN c + 10) by lia.
    replace (s_pos s + 11 + lenN c - (s_pos s + 11)) with (lenN c) by lia.
    now destruct (I64_MAX <? lenN c + 10). }
  assert (Hcm : s_commit s2 = Some CFinishDyn) by reflexivity.
  split.
  - intros HI. destruct (N.ltb_spec I64_MAX (lenN c + 10)); [lia|]. 
    set (L := lenN (out ++ [d1] ++ encode_fixed_u64 len ++ c)).
    assert (HL : L = lenN out + 11 + lenN c) by (unfold L; rewrite !lenN_app, H10; change (lenN [d1]) with 1; lia).
    set (dat := out ++ [d1] ++ encode_fixed_u64 len ++ c) in *.
    set (s2a := set_pos_ (s_pos s + 1) (set_dev (mkDev dat (lenN (out ++ [d1])) []) s2)).
    assert (Hsk : on_dev (dev_seek (SkCur (- Z.of_N (lenN c + 10)))) s2 =
       (ROk (lenN (out ++ [d1])), set_dev (mkDev dat (lenN (out ++ [d1])) []) s2)).
    { unfold on_dev, dev_seek. unfold appending in Ha2. rewrite Ha2. cbn [d_sched tl d_pos d_data]. fold L.
      assert (Hz : (Z.of_N L + - Z.of_N (lenN c + 10))%Z = Z.of_N (lenN (out ++ [d1]))).
      { rewrite HL, lenN_app. change (lenN [d1]) with 1. lia. }
      rewrite Hz. destruct (Z.ltb_spec (Z.of_N (lenN (out ++ [d1]))) 0); [lia|]. cbn [orb].
      destruct (Z.ltb_spec (Z.of_N U64_MAX) (Z.of_N (lenN (out ++ [d1])))).
      - rewrite lenN_app in *. change (lenN [d1]) with 1 in *. lia.
      - now rewrite N2Z.id. }
    set (s2b := wr (encode_fixed_u64 (lenN c)) s2a).
    assert (Hdat : put_at dat (lenN (out ++ [d1])) (encode_fixed_u64 (lenN c)) = out ++ [d1] ++ encode_fixed_u64 (lenN c) ++ c).
    { unfold dat. rewrite (app_assoc out), (app_assoc out). apply put_at_mid. now rewrite !H10. }
    set (dat2 := out ++ [d1] ++ encode_fixed_u64 (lenN c) ++ c) in *.
    assert (HL2 : lenN dat2 = L) by (unfold dat2; rewrite !lenN_app, H10; change (lenN [d1]) with 1; lia).
    assert (Hdb : s_dev s2b = mkDev dat2 (lenN out + 11) []).
    { unfold s2b, wr, s2a. scbn. cbn [d_data d_pos]. rewrite Hdat, H10, lenN_app. change (lenN [d1]) with 1.
      unfold sch. scbn. cbn [d_sched]. f_equal. lia. }
    set (s3 := set_commit None (set_pos_ (s_pos s2) (set_dev (mkDev dat2 L []) s2b))).
    exists s3.
    assert (Hc : commit s2 = (ROk tt, s3)).
    { unfold commit. rewrite Hcm. unfold mbind at 1. rewrite Hfin.
      destruct (N.ltb_spec I64_MAX (lenN c + 10)); [lia|].
      unfold mbind at 1, lift_io at 1. rewrite Hsk.
      unfold mbind at 1, mmod at 1.
      replace (set_pos_ (s_pos (set_dev (mkDev dat (lenN (out ++ [d1])) []) s2) - (lenN c + 10))
                 (set_dev (mkDev dat (lenN (out ++ [d1])) []) s2)) with s2a.
      2:{ unfold s2a. f_equal. scbn. rewrite Hp2. lia. }
      unfold mbind at 1, lift_io at 1.
      rewrite tw_ok.
      2:{ split; [reflexivity|]. unfold s2a. scbn. cbn [d_data d_pos]. fold L. rewrite lenN_app. change (lenN [d1]) with 1. lia. }
      2:{ rewrite H10. unfold s2a. scbn. lia. }
      fold s2b. unfold mbind at 1, lift_io at 1, on_dev, dev_seek. rewrite Hdb. cbn [d_sched tl d_pos d_data].
      destruct (Z.ltb_spec (Z.of_N (lenN out + 11) + Z.of_N (lenN c)) 0); [lia|]. cbn [orb].
      destruct (Z.ltb_spec (Z.of_N U64_MAX) (Z.of_N (lenN out + 11) + Z.of_N (lenN c))); [lia|].
      replace (Z.to_N (Z.of_N (lenN out + 11) + Z.of_N (lenN c))) with L by lia.
      unfold mmod. reflexivity. }
    split; [exact Hc|]. split; [unfold appending, s3; scbn; now rewrite HL2|].
    split; [unfold s3; scbn; exact Hp2|]. split; [reflexivity|].
    intros op cc Hf. apply commit_first_ok; auto.
  - intros HI op cc Hf. apply commit_first_err; [exact Hf|]. unfold commit. rewrite Hcm.
    unfold mbind at 1. rewrite Hfin. destruct (N.ltb_spec I64_MAX (lenN c + 10)); [reflexivity|lia].
Qed.

(** ** C23 *)

Definition pad_count (p a : N) : N := (a - p mod a) mod a.

Lemma pad_step s out : appending s out -> s_commit s = None -> s_pos s + 1 <= U64_MAX ->
  write_padding s = (ROk tt, wr [0xC0] s).
Proof.
  intros Ha Hc Hp. unfold write_padding. rewrite write_desc_ok; [|eapply app_winv; eauto|now left|exact I|exact Hp].
  do 2 f_equal. destruct s; cbn in *; now subst.
Qed.

Lemma pad_count_least p a : a <> 0 -> (p + pad_count p a) mod a = 0 /\ pad_count p a < a /\
  forall n, n < pad_count p a -> (p + n) mod a <> 0.
Proof.
  intros Ha. unfold pad_count. pose proof (N.mod_upper_bound p a Ha) as Hm.
  pose proof (N.div_mod p a Ha) as Hdm. set (q := p / a) in *. set (r := p mod a) in *.
  destruct (N.eq_dec r 0) as [Hr|Hr].
  - rewrite Hr in *. rewrite N.sub_0_r, N.mod_same by exact Ha. rewrite N.add_0_r. fold r. rewrite Hr.
    split; [reflexivity|]. split; [lia|]. intros n Hn. lia.
  - rewrite (N.mod_small (a - r)) by lia. split; [|split; [lia|]].
    + replace (p + (a - r)) with ((q + 1) * a) by lia. now apply N.mod_mul.
    + intros n Hn Hz. replace (p + n) with (r + n + q * a) in Hz by lia.
      rewrite N.mod_add in Hz by exact Ha. rewrite N.mod_small in Hz by lia. lia.
Qed.

Lemma pad_align s out k : appending s out -> no_open_blob s -> k < 64 ->
  s_pos s + pad_count (s_pos s) (2 ^ k) <= U64_MAX ->
  exists s', pad_to_align (2 ^ k) s = (ROk tt, s') /\
    appending s' (out ++ repeat 0xC0 (N.to_nat (pad_count (s_pos s) (2 ^ k)))) /\
    s_pos s' = s_pos s + pad_count (s_pos s) (2 ^ k) /\ s_commit s' = None.
Proof.
  intros Ha Hs Hk Hp. set (a := 2 ^ k) in *.
  assert (Ha0 : a <> 0) by (apply N.pow_nonzero; lia).
  unfold a at 1. rewrite pad_pow2. fold a.
  rewrite (mbind_ok _ _ _ _ _ (commit_settled s Hs)).
  set (s0 := set_commit None s).
  destruct (pad_count_least (s_pos s) a Ha0) as (L1 & L2 & L3).
  set (n := pad_count (s_pos s) a) in *.
  set (step := fun _ : unit => let* s := mget in
            if N.land (s_pos s) (a - 1) =? 0 then mret (inr tt)
            else write_padding ;; mret (inl tt)).
  assert (Hst : forall s1, step tt s1 = if s_pos s1 mod a =? 0 then (ROk (inr tt), s1) else (write_padding ;; mret (inl tt)) s1).
  { intros s1. rewrite <- (land_pow2 (s_pos s1) k : N.land (s_pos s1) (a - 1) = s_pos s1 mod a).
    unfold step, mget, mbind at 1. now destruct (N.land (s_pos s1) (a - 1) =? 0). }
  assert (Hgen : forall j s1 out1, appending s1 out1 -> s_commit s1 = None ->
     s_pos s1 + N.of_nat j = s_pos s + n -> N.of_nat j <= n ->
     exists s', mloop_nat (S j) step tt s1 = (ROk tt, s') /\
     appending s' (out1 ++ repeat 0xC0 j) /\ s_pos s' = s_pos s + n /\ s_commit s' = None).
  { induction j as [|j IH]; intros s1 out1 Ha1 Hc1 Hp1 Hj.
    - exists s1. rewrite mloop_nat_S. unfold mbind at 1. rewrite Hst.
      replace (s_pos s1) with (s_pos s + n) by lia. rewrite L1, N.eqb_refl.
      split; [reflexivity|]. cbn [repeat]. rewrite app_nil_r. auto.
    - destruct (IH (wr [0xC0] s1) (out1 ++ [0xC0])) as (s' & E1 & E2 & E3 & E4).
      + now apply wr_app.
      + exact Hc1.
      + rewrite wr_pos. change (lenN [0xC0]) with 1. lia.
      + lia.
      + exists s'. split; [|split; [|auto]].
        * rewrite mloop_nat_S. unfold mbind at 1. rewrite Hst.
          destruct (N.eqb_spec (s_pos s1 mod a) 0) as [Hz|Hz].
          -- exfalso. apply (L3 (n - N.of_nat (S j))); [lia|].
             replace (s_pos s + (n - N.of_nat (S j))) with (s_pos s1) by lia. exact Hz.
          -- unfold mbind at 1. rewrite (pad_step s1 out1 Ha1 Hc1) by lia. cbn [mret]. exact E1.
        * cbn [repeat]. rewrite <- app_assoc in E2. exact E2. }
  destruct (Hgen (N.to_nat n) s0 out) as (s' & E1 & E2 & E3 & E4); [exact Ha|reflexivity| |lia|].
  { change (s_pos s0) with (s_pos s). lia. }
  exists s'. split; [|auto]. refine (mloop_of_nat step (S (N.to_nat n)) tt s0 (ROk tt) s' _ E1 ltac:(discriminate)).
  assert (a <= 2 ^ 63) by (apply N.pow_le_mono_r; lia). change (2^63) with 9223372036854775808 in *. 
  unfold U64_MOD. lia.
Qed.

Lemma pad_align_to s out k q : appending s out -> no_open_blob s -> k < 64 ->
  s_pos s <= q * 2 ^ k <= U64_MAX ->
  exists n s', pad_to_align (2 ^ k) s = (ROk tt, s') /\
    (s_pos s + n) mod 2 ^ k = 0 /\ (forall m, m < n -> (s_pos s + m) mod 2 ^ k <> 0) /\
    appending s' (out ++ repeat 0xC0 (N.to_nat n)) /\ s_pos s' = s_pos s + n /\ no_open_blob s'.
Proof.
  intros Ha Hno Hk Hq. assert (Hz : 2 ^ k <> 0) by (apply N.pow_nonzero; lia).
  destruct (pad_count_least (s_pos s) (2 ^ k) Hz) as (L1 & L2 & L3).
  assert (Hle : s_pos s + pad_count (s_pos s) (2 ^ k) <= q * 2 ^ k).
  { destruct (N.le_gt_cases (s_pos s + pad_count (s_pos s) (2 ^ k)) (q * 2 ^ k)) as [|Hgt]; [assumption|exfalso].
    apply (L3 (q * 2 ^ k - s_pos s)); [lia|]. replace (s_pos s + (q * 2 ^ k - s_pos s)) with (q * 2 ^ k) by lia.
    now apply N.mod_mul. }
  destruct (pad_align s out k Ha Hno Hk ltac:(lia)) as (s' & E & A & P & C).
  exists (pad_count (s_pos s) (2 ^ k)), s'. repeat split; auto. now left.
Qed.

(** ** Statements in terms of the format *)
Definition blob_desc (t : option N) : pdesc := match t with Some t => PPair DBlob t | None => PSpecial SpException end.
Lemma blob_hd_enc t len v : otag_ok t -> legal_varint v len -> bytes_ok v ->
  hdr_enc (blob_hd t len) (desc_code (blob_desc t) :: v).
Proof. destruct t; cbn [blob_hd blob_desc desc_code otag_ok]; intros; [apply EncBlob; auto|apply EncExc; auto]. Qed.
Lemma blob_elem_enc t c h : hdr_enc (blob_hd t (lenN c)) h -> bytes_ok c -> elem_enc (blob_elem t c) (h ++ c).
Proof. destruct t; cbn [blob_hd blob_elem]; intros H Hc; exists h; auto. Qed.
Lemma blob_pdesc t : otag_ok t -> pdesc_ok (blob_desc t).
Proof. destruct t; cbn; auto. Qed.

Lemma presized_gen s out t len ws :
  appending s out -> no_open_blob s -> otag_ok t -> bytes_ok (concat ws) -> s_pos s + len + 11 <= U64_MAX ->
  exists h s1, write_desc_with_blob_alloc (blob_desc t) len s = (ROk len, s1) /\ hdr_enc (blob_hd t len) h /\
    let s2 := write_pieces ws s1 in
    let content := takeN len (concat ws) in
    appending s2 (out ++ h ++ content) /\ s_pos s2 = s_pos s + lenN h + lenN content /\
    (lenN (concat ws) < len -> forall op c, finishes_blob s2 c ->
       call_run op c s2 = (RErr (SIncompleteBlob (len - lenN (concat ws))), s2)) /\
    (len <= lenN (concat ws) -> elem_enc (blob_elem t content) (h ++ content) /\ no_open_blob s2 /\
       forall op c, finishes_blob s2 c -> call_run op c s2 = call_run op c (set_commit None s2)).
Proof.
  intros Ha Hno Ht Hb Hp.
  destruct (presized s out (blob_desc t) len ws Ha Hno (blob_pdesc t Ht) Hp) as (h & s1 & E & Hh & Hl & R).
  cbv zeta in R. destruct R as (R1 & R2 & R3 & R4).
  assert (H64 : len < 2 ^ 64) by (unfold U64_MAX in *; change (2^64) with 18446744073709551616; lia).
  destruct (enc_spec len H64) as (_ & Hleg & Hbo & _).
  assert (Henc : hdr_enc (blob_hd t len) h) by (rewrite Hh; now apply blob_hd_enc).
  exists h, s1. split; [exact E|]. split; [exact Henc|]. cbv zeta. split; [exact R1|]. split; [exact R2|].
  split.
  - intros Hlt op c Hf. specialize (R3 op c Hf). rewrite lenN_takeN, N.min_r in R3 by lia. apply R3. lia.
  - intros Hle. assert (Hlc : lenN (takeN len (concat ws)) = len) by (rewrite lenN_takeN; lia).
    destruct (R4 Hlc) as [C1 C2].
    split; [apply blob_elem_enc; [rewrite Hlc; exact Henc|now apply bytes_ok_takeN]|].
    split; [|exact C2].
    unfold commit in C1. set (s2 := write_pieces ws s1) in *. 
    assert (Hw1 : s_commit s2 = Some CCheckEnd /\ s_blob_end s2 = s_pos s + lenN h + len).
    { pose proof (write_alloc_ok (blob_desc t) len s (app_winv _ _ Ha) Hno (blob_pdesc t Ht) ltac:(lia) Hp) as E2.
      rewrite E in E2. injection E2 as ->. unfold s2. rewrite write_pieces_ok.
      - split; [reflexivity|]. unfold wr. scbn. rewrite Hh, lenN_cons. lia.
      - apply (wr_winv _ s (app_winv _ _ Ha)).
      - scbn. rewrite wr_pos, lenN_cons. lia.
      - scbn. pose proof (enc_len len H64). lia. }
    right. destruct Hw1 as [W1 W2]. split; [exact W1|]. rewrite W2, R2, Hlc. reflexivity.
Qed.

Lemma dynamic_gen s out t ws :
  appending s out -> no_open_blob s -> otag_ok t -> bytes_ok (concat ws) ->
  s_pos s + 11 + lenN (concat ws) <= U64_MAX -> lenN out + 11 + lenN (concat ws) <= U64_MAX ->
  lenN (concat ws) + 10 <= I64_MAX ->
  exists len s1 h s3, write_desc_with_blob_dynamic (blob_desc t) s = (ROk len, s1) /\ lenN (concat ws) <= len /\
    let s2 := write_pieces ws s1 in
    commit s2 = (ROk tt, s3) /\ hdr_enc (blob_hd t (lenN (concat ws))) h /\ lenN h = 11 /\
    elem_enc (blob_elem t (concat ws)) (h ++ concat ws) /\
    appending s3 (out ++ h ++ concat ws) /\ s_pos s3 = s_pos s + 11 + lenN (concat ws) /\ no_open_blob s3 /\
    forall op c, finishes_blob s2 c -> call_run op c s2 = call_run op c s3.
Proof.
  intros Ha Hno Ht Hb Hp Ho Hi.
  destruct (dynamic s out (blob_desc t) ws Ha Hno (blob_pdesc t Ht) Hp Ho) as (s1 & E & R). cbv zeta in R.
  destruct R as (R1 & R2 & _). destruct (R2 Hi) as (s3 & C1 & C2 & C3 & C4 & C5).
  assert (H64 : lenN (concat ws) < 2 ^ 64) by (unfold U64_MAX in *; change (2^64) with 18446744073709551616; lia).
  destruct (encode_fixed_spec _ H64) as (F1 & F2 & F3).
  exists (U64_MAX - s_pos s - 11), s1, (desc_code (blob_desc t) :: encode_fixed_u64 (lenN (concat ws))), s3.
  split; [exact E|]. split; [lia|]. cbv zeta. split; [exact C1|].
  assert (Henc : hdr_enc (blob_hd t (lenN (concat ws))) (desc_code (blob_desc t) :: encode_fixed_u64 (lenN (concat ws))))
    by (now apply blob_hd_enc).
  split; [exact Henc|]. split; [reflexivity|]. split; [now apply blob_elem_enc|].
  split; [exact C2|]. split; [exact C3|]. split; [now left|exact C5].
Qed.

Lemma presized_both s out t len ws :
  appending s out -> no_open_blob s -> otag_ok t -> bytes_ok (concat ws) -> s_pos s + len + 11 <= U64_MAX ->
  exists h s1,
    (match t with Some t => write_blob_alloc t len | None => write_exception_alloc len end) s = (ROk len, s1) /\
    hdr_enc (blob_hd t len) h /\
    let s2 := write_pieces ws s1 in
    let content := takeN len (concat ws) in
    appending s2 (out ++ h ++ content) /\ s_pos s2 = s_pos s + lenN h + lenN content /\
    (lenN (concat ws) < len -> forall op c, finishes_blob s2 c ->
       call_run op c s2 = (RErr (SIncompleteBlob (len - lenN (concat ws))), s2)) /\
    (len <= lenN (concat ws) -> elem_enc (blob_elem t content) (h ++ content) /\ no_open_blob s2 /\
       forall op c, finishes_blob s2 c -> call_run op c s2 = call_run op c (set_commit None s2)).
Proof. destruct t as [t|]; [exact (presized_gen s out (Some t) len ws)|exact (presized_gen s out None len ws)]. Qed.
Lemma dynamic_both s out t ws :
  appending s out -> no_open_blob s -> otag_ok t -> bytes_ok (concat ws) ->
  s_pos s + 11 + lenN (concat ws) <= U64_MAX -> lenN out + 11 + lenN (concat ws) <= U64_MAX ->
  lenN (concat ws) + 10 <= I64_MAX ->
  exists len s1 h s3,
    (match t with Some t => write_blob_dynamic t | None => write_exception_dynamic end) s = (ROk len, s1) /\
    lenN (concat ws) <= len /\
    let s2 := write_pieces ws s1 in
    commit s2 = (ROk tt, s3) /\ hdr_enc (blob_hd t (lenN (concat ws))) h /\ lenN h = 11 /\
    elem_enc (blob_elem t (concat ws)) (h ++ concat ws) /\
    appending s3 (out ++ h ++ concat ws) /\ s_pos s3 = s_pos s + 11 + lenN (concat ws) /\ no_open_blob s3 /\
    forall op c, finishes_blob s2 c -> call_run op c s2 = call_run op c s3.
Proof. destruct t as [t|]; [exact (dynamic_gen s out (Some t) ws)|exact (dynamic_gen s out None ws)]. Qed.
