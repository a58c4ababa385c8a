(** * P_BlobOps: blob operations refine a window with a cursor (C11, C12) *)

From Verif Require Import Base Wire Dev Stream SpecWire SpecFormat SpecStream SpecBlob
  P_Base P_Wire P_Sched P_Read P_Write P_Blob P_Stream.

Definition bst (b : stream) (pre c post : bytes) (p0 k : N) : stream :=
  set_pos_ (p0 + k) (set_blob_end (p0 + lenN c)
    (set_dev (mkDev (pre ++ c ++ post) (lenN pre + k) []) b)).

Lemma blob_at_bst s pre c post p0 k : blob_at s pre c post p0 k -> s = bst s pre c post p0 k.
Proof.
  intros [H1 H2 H3 H4 H5 _ _ _ _]. apply stream_eq; unfold bst; scbn; auto.
  unfold sch in H1. destruct (s_dev s) as [x1 x2 x3]. cbn [d_sched d_data d_pos] in *. now subst.
Qed.

Section One.
  Context (b : stream) (pre c post : bytes) (p0 k : N).
  Hypothesis (Hk : k <= lenN c) (Hl : lenN c <= I64_MAX)
    (Hd : lenN (pre ++ c ++ post) <= U64_MAX) (Hp : p0 + lenN c + lenN post <= U64_MAX).
  Let s := bst b pre c post p0 k.

  Lemma bst_in_blob : in_blob s.
  Proof. unfold in_blob, s, bst, sch. scbn. cbn [d_sched]. repeat split; lia. Qed.
  Lemma bst_rest : rest s = dropN k c ++ post.
  Proof.
    unfold rest, s, bst, d_rest. scbn. cbn [d_data d_pos].
    rewrite dropN_app, dropN_all by lia. cbn [app].
    replace (lenN pre + k - lenN pre) with k by lia. now rewrite dropN_app_l.
  Qed.
  Lemma bst_rem : s_blob_end s - s_pos s = lenN c - k.
  Proof. unfold s, bst. scbn. lia. Qed.
  Lemma bst_adv n : adv n s = bst b pre c post p0 (k + n).
  Proof. unfold s, bst, adv. scbn. cbn [d_data d_pos]. now rewrite !N.add_assoc. Qed.
  Lemma bst_dev : d_data (s_dev s) = pre ++ c ++ post /\ d_pos (s_dev s) = lenN pre + k.
  Proof. split; reflexivity. Qed.

  Lemma bst_len_rest : lenN (rest s) = lenN c - k + lenN post.
  Proof. rewrite bst_rest, lenN_app, lenN_dropN. reflexivity. Qed.

  Lemma bst_wr w : lenN w <= lenN c - k -> wr w s = bst b pre (patch c k w) post p0 (k + lenN w).
  Proof.
    intros Hw.
    assert (Hpl : patch c k w = takeN k c ++ w ++ dropN (k + lenN w) c).
    { unfold patch. apply takeN_all. rewrite !lenN_app, lenN_takeN, lenN_dropN. lia. }
    assert (Hll : lenN (patch c k w) = lenN c).
    { rewrite Hpl, !lenN_app, lenN_takeN, lenN_dropN. lia. }
    unfold wr, bst. rewrite Hll. unfold s, bst. scbn. cbn [d_data d_pos].
    unfold sch; scbn. cbn [d_sched].
    assert (Hpt : put_at (pre ++ c ++ post) (lenN pre + k) w = pre ++ patch c k w ++ post).
    { rewrite Hpl. unfold put_at. rewrite takeN_app. rewrite takeN_all by lia.
      replace (lenN pre + k - lenN pre) with k by lia. rewrite takeN_app_l by exact Hk.
      rewrite !lenN_app. replace (lenN pre + k - (lenN pre + (lenN c + lenN post))) with 0 by lia.
      change (repeat 0 (N.to_nat 0)) with (@nil N). cbn [app].
      rewrite dropN_app, dropN_all by lia. replace (lenN pre + k + lenN w - lenN pre) with (k + lenN w) by lia.
      rewrite dropN_app_l by lia. cbn [app]. now rewrite <- !app_assoc. }
    rewrite Hpt. now rewrite !N.add_assoc.
  Qed.

  Lemma take_rest n : n <= lenN c - k -> takeN n (rest s) = takeN n (dropN k c).
  Proof. intros Hn. rewrite bst_rest. apply takeN_app_l. rewrite lenN_dropN. lia. Qed.

  Lemma take_min n : takeN (N.min n (lenN c - k)) (dropN k c) = takeN n (dropN k c).
  Proof.
    destruct (N.leb_spec n (lenN c - k)); [now rewrite N.min_l|].
    rewrite N.min_r by lia. rewrite !takeN_all; rewrite ?lenN_dropN; try reflexivity; lia.
  Qed.
  Lemma min3 n : N.min n (N.min (s_blob_end s - s_pos s) (lenN (rest s))) = N.min n (lenN c - k).
  Proof. rewrite bst_rem, bst_len_rest. lia. Qed.

  Lemma br_read n : bop_run (lenN c) (BRead n) s =
    (ROk (BBytes (takeN n (dropN k c))), bst b pre c post p0 (k + N.min n (lenN c - k))).
  Proof.
    cbn [bop_run]. unfold lift_io, mbind. rewrite b_read_ok by apply bst_in_blob.
    rewrite min3, take_rest by lia. rewrite take_min, bst_adv. reflexivity.
  Qed.
  Lemma br_trunc n : bop_run (lenN c) (BReadTrunc n) s =
    (ROk (BBytes (takeN n (dropN k c))), bst b pre c post p0 (k + N.min n (lenN c - k))).
  Proof.
    cbn [bop_run]. unfold mbind. rewrite b_read_or_trunc_ok by apply bst_in_blob.
    rewrite min3, take_rest by lia. rewrite take_min, bst_adv. reflexivity.
  Qed.
  Lemma br_exact n : bop_run (lenN c) (BReadExact n) s =
    (if n <=? lenN c - k then
       (ROk (BBytes (takeN n (dropN k c))), bst b pre c post p0 (k + N.min n (lenN c - k)))
     else (RErr (SIo IoUnexpectedEof), bst b pre c post p0 (lenN c))).
  Proof.
    cbn [bop_run]. unfold lift_io, mbind. rewrite b_read_exact_ok by apply bst_in_blob.
    rewrite min3. destruct (N.leb_spec n (lenN c - k)).
    - rewrite N.min_l by lia. rewrite N.ltb_irrefl. rewrite take_rest by lia. rewrite bst_adv. reflexivity.
    - rewrite N.min_r by lia. destruct (N.ltb_spec (lenN c - k) n); [|lia]. rewrite bst_adv.
      do 2 f_equal. lia.
  Qed.
  Lemma br_fully max : bop_run (lenN c) (BReadFully max) s =
    (if lenN c - k <=? max then (ROk (BBytes (dropN k c)), bst b pre c post p0 (lenN c))
     else (RErr (SLargeBlob max (lenN c - k)), s)).
  Proof.
    cbn [bop_run]. unfold mbind. rewrite b_read_fully_ok by apply bst_in_blob.
    rewrite bst_rem. destruct (N.leb_spec (lenN c - k) max); destruct (N.ltb_spec max (lenN c - k)); try lia; [|reflexivity].
    rewrite take_rest by lia. rewrite takeN_all by (rewrite lenN_dropN; lia).
    rewrite N.min_l by (rewrite bst_len_rest; lia). rewrite bst_adv. unfold mret. do 2 f_equal. lia.
  Qed.
  Lemma rem_ok {E} : @b_remaining E s = (ROk (lenN c - k), s).
  Proof. rewrite b_remaining_ok; [now rewrite bst_rem|]. apply bst_in_blob. Qed.
  Lemma slice_ok : b_slice s = (ROk (dropN k c), s).
  Proof.
    unfold b_slice. rewrite (mbind_ok _ _ _ _ _ rem_ok).
    assert (Ha : @as_slice serr s = (ROk (rest s), s)).
    { unfold as_slice. destruct bst_dev as [-> ->]. 
      destruct (N.ltb_spec (lenN (pre ++ c ++ post)) (lenN pre + k)) as [H|H]; [|reflexivity].
      rewrite !lenN_app in H. lia. }
    rewrite (mbind_ok _ _ _ _ _ Ha). rewrite bst_len_rest.
    destruct (N.leb_spec (lenN c - k) (lenN c - k + lenN post)); [|lia].
    rewrite take_rest by lia. rewrite takeN_all by (rewrite lenN_dropN; lia). reflexivity.
  Qed.
  Lemma br_slice : bop_run (lenN c) BSlice s = (ROk (BBytes (dropN k c)), s).
  Proof. cbn [bop_run]. now rewrite (mbind_ok _ _ _ _ _ slice_ok). Qed.
  Lemma br_slice_mut new : bop_run (lenN c) (BSliceMut new) s =
    (ROk BUnit, bst b pre (if lenN new =? lenN c - k then patch c k new else c) post p0 k).
  Proof.
    cbn [bop_run]. unfold b_slice_mut_set. rewrite mbind_assoc. rewrite (mbind_ok _ _ _ _ _ slice_ok).
    rewrite lenN_dropN. destruct (N.eqb_spec (lenN new) (lenN c - k)) as [He|He].
    - unfold mbind, mmod, mret. f_equal.
      pose proof (bst_wr new ltac:(lia)) as Hw.
      change (set_dev (mkDev (d_data (s_dev (wr new s))) (d_pos (s_dev s)) (d_sched (s_dev s))) s =
              bst b pre (patch c k new) post p0 k).
      rewrite Hw. unfold bst, s, bst. scbn. cbn [d_data d_pos d_sched].
      assert (Hll : lenN (patch c k new) = lenN c).
      { unfold patch. rewrite lenN_takeN, !lenN_app, lenN_takeN, lenN_dropN. lia. }
      now rewrite Hll.
    - reflexivity.
  Qed.
  Lemma br_fill n : bop_run (lenN c) (BFillConsume n) s =
    (ROk (BBytes (dropN k c)), bst b pre c post p0 (k + N.min n (lenN c - k))).
  Proof.
    cbn [bop_run]. unfold b_fill_buf.
    assert (Hf : on_dev dev_fill_buf s = (ROk (rest s), s)).
    { unfold on_dev, dev_fill_buf, sched_next. unfold s at 1, bst. scbn. cbn [d_sched].
      change (d_rest _) with (rest s). rewrite (takeN_all _ (rest s)) by lia. reflexivity. }
    unfold mbind at 1, lift_io at 1. rewrite (mbind_ok _ _ _ _ _ rem_ok). rewrite (mbind_ok _ _ _ _ _ Hf).
    unfold mbind at 1. unfold check_advance_pos. rewrite bst_len_rest.
    change (s_pos s) with (p0 + k).
    destruct (N.ltb_spec (U64_MAX - (p0 + k)) (lenN c - k + lenN post)); [lia|].
    unfold mret at 1. rewrite take_rest by lia. rewrite takeN_all by (rewrite lenN_dropN; lia).
    unfold mbind, lift_io, b_consume, mbind. rewrite rem_ok. rewrite lenN_dropN.
    destruct (N.ltb_spec (lenN c - k) (N.min n (lenN c - k))); [lia|]. rewrite andb_false_r.
    change (s_pos s) with (p0 + k).
    rewrite u64_add_ok by (unfold U64_MOD, U64_MAX in *; lia). unfold mret. f_equal.
    unfold s, bst. scbn. cbn [d_data d_pos]. now rewrite !N.add_assoc.
  Qed.
  Lemma patch_take w : patch c k (takeN (lenN c - k) w) = patch c k w.
  Proof.
    destruct (N.leb_spec (lenN w) (lenN c - k)); [now rewrite takeN_all|].
    unfold patch. rewrite lenN_takeN.
    rewrite (dropN_all (k + N.min (lenN c - k) (lenN w)) c) by lia.
    rewrite (dropN_all (k + lenN w) c) by lia. rewrite !app_nil_r.
    rewrite !takeN_app. rewrite lenN_takeN. rewrite !(takeN_all (lenN c) (takeN k c)) by (rewrite lenN_takeN; lia).
    f_equal. replace (lenN c - N.min k (lenN c)) with (lenN c - k) by lia.
    rewrite takeN_takeN. f_equal. lia.
  Qed.
  Lemma br_write w : bop_run (lenN c) (BWrite w) s =
    (ROk (BNum (N.min (lenN w) (lenN c - k))), bst b pre (patch c k w) post p0 (k + N.min (lenN w) (lenN c - k))).
  Proof.
    cbn [bop_run]. unfold b_write. unfold mbind at 1, lift_io. rewrite (mbind_ok _ _ _ _ _ rem_ok).
    assert (Hlw : lenN (takeN (lenN c - k) w) = N.min (lenN w) (lenN c - k)) by (rewrite lenN_takeN; lia).
    rewrite <- (patch_take w).
    rewrite <- Hlw. set (w' := takeN (lenN c - k) w) in *.
    destruct w' as [|x w''] eqn:Ew.
    - unfold t_write, mret. change (lenN (@nil N)) with 0. f_equal. unfold s. 
      replace (patch c k []) with c; [now rewrite N.add_0_r|].
      unfold patch. change (lenN (@nil N)) with 0. rewrite N.add_0_r. cbn [app]. rewrite takeN_dropN, takeN_all; [reflexivity|lia].
    - rewrite t_write_eq by discriminate. change (s_pos s) with (p0 + k).
      destruct (N.ltb_spec (U64_MAX - (p0 + k)) (lenN (x :: w''))); [lia|].
      change (sch s) with (@nil ev). cbv iota. unfold mret. rewrite bst_wr by lia. reflexivity.
  Qed.
  Lemma br_write_all w : bop_run (lenN c) (BWriteAll w) s =
    ((if lenN w <=? lenN c - k then ROk BUnit else RErr (SIo IoWriteZero)),
     bst b pre (patch c k w) post p0 (k + N.min (lenN w) (lenN c - k))).
  Proof.
    cbn [bop_run]. unfold mbind, lift_io. rewrite bw_clean by reflexivity. unfold wspec.
    destruct w as [|x w'] eqn:Ew.
    { change (lenN (@nil N)) with 0. rewrite N.min_0_l, N.add_0_r.
      replace (patch c k []) with c; [now destruct (N.leb_spec 0 (lenN c - k)); [|lia]|].
      unfold patch. change (lenN (@nil N)) with 0. rewrite N.add_0_r. cbn [app].
      rewrite takeN_dropN, takeN_all; [reflexivity|lia]. }
    rewrite <- Ew. rewrite cap_blob_ok by apply bst_in_blob. rewrite bst_rem.
    assert (Hw0 : lenN w <> 0) by (rewrite Ew, lenN_cons; lia). clear Ew x w'.
    cbn [cap_take].
    assert (Hlw : lenN (takeN (lenN c - k) w) = N.min (lenN w) (lenN c - k)) by (rewrite lenN_takeN; lia).
    rewrite <- (patch_take w). rewrite <- Hlw. set (w' := takeN (lenN c - k) w) in *. clearbody w'.
    destruct w' as [|x w''].
    - change (lenN (@nil N)) with 0 in *. destruct (N.leb_spec (lenN w) (lenN c - k)); [lia|].
      f_equal. unfold s.
      replace (patch c k []) with c; [now rewrite N.add_0_r|].
      unfold patch. change (lenN (@nil N)) with 0. rewrite N.add_0_r. cbn [app]. rewrite takeN_dropN, takeN_all; [reflexivity|lia].
    - change (s_pos s) with (p0 + k).
      destruct (N.ltb_spec (U64_MAX - (p0 + k)) (lenN (x :: w''))); [lia|].
      rewrite bst_wr by lia. 
      destruct (N.leb_spec (lenN w) (lenN c - k)); destruct (N.eqb_spec (lenN (x :: w'')) (lenN w)); try lia; reflexivity.
  Qed.
  Lemma start_ok {E} : @b_start_pos E (lenN c) s = (ROk p0, s).
  Proof.
    unfold b_start_pos. change (s_blob_end s) with (p0 + lenN c). rewrite u64_sub_ok by lia.
    do 2 f_equal. lia.
  Qed.
  Lemma inner_ok {E} : @b_inner_pos E (lenN c) s = (ROk k, s).
  Proof.
    unfold b_inner_pos. rewrite (mbind_ok _ _ _ _ _ rem_ok). rewrite u64_sub_ok by lia. do 2 f_equal. lia.
  Qed.
  Lemma br_pos : bop_run (lenN c) BPos s = (ROk (BPoss (lenN c - k) p0 (p0 + lenN c) k (p0 + k)), s).
  Proof.
    cbn [bop_run]. rewrite (mbind_ok _ _ _ _ _ rem_ok), (mbind_ok _ _ _ _ _ start_ok), (mbind_ok _ _ _ _ _ inner_ok).
    reflexivity.
  Qed.

  Lemma target_ok w : seek_ok w ->
    b_seek_target (lenN c) w s =
    let t := seek_to (lenN c) k w in
    if ((0 <=? t) && (t <=? Z.of_N (lenN c)))%Z then (ROk (p0 + Z.to_N t), s) else (RErr IoInvalidInput, s).
  Proof.
    intros Hw. cbv zeta.
    assert (Hadd : forall a e, a + e <= U64_MAX -> @u64_add iokind (s_dbg s) a e = ROk (a + e)).
    { intros a e Ha. apply u64_add_ok. unfold U64_MOD, U64_MAX in *. lia. }
    assert (Hneg : forall z, (- Z.of_N I64_MAX <= z <= 0)%Z -> @i64_neg iokind (s_dbg s) z = ROk (Z.to_N (- z))).
    { intros z Hz. unfold i64_neg. destruct (Z.eqb_spec z (- 2 ^ 63)); [|reflexivity].
      subst z. unfold I64_MAX in Hz. lia. }
    unfold b_seek_target. destruct w as [p|z|z]; cbn [seek_to seek_ok] in *.
    - destruct (N.leb_spec p (lenN c)).
      + rewrite (mbind_ok _ _ _ _ _ start_ok). rewrite Hadd by lia.
        destruct (Z.leb_spec 0 (Z.of_N p)); [|lia]. destruct (Z.leb_spec (Z.of_N p) (Z.of_N (lenN c))); [|lia].
        cbn [andb]. now rewrite N2Z.id.
      + destruct (Z.leb_spec (Z.of_N p) (Z.of_N (lenN c))); [lia|]. now rewrite andb_false_r.
    - destruct (Z.leb_spec z 0).
      + unfold mres at 1, mbind at 1. rewrite Hneg by lia.
        destruct (N.leb_spec (Z.to_N (- z)) (lenN c)).
        * rewrite (mbind_ok _ _ _ _ _ start_ok). rewrite Hadd by lia.
          destruct (Z.leb_spec 0 (Z.of_N (lenN c) + z)); [|lia].
          destruct (Z.leb_spec (Z.of_N (lenN c) + z) (Z.of_N (lenN c))); [|lia]. cbn [andb].
          f_equal; f_equal; lia.
        * destruct (Z.leb_spec 0 (Z.of_N (lenN c) + z)); [lia|]. reflexivity.
      + destruct (Z.leb_spec (Z.of_N (lenN c) + z) (Z.of_N (lenN c))); [lia|]. now rewrite andb_false_r.
    - destruct (Z.ltb_spec z 0).
      + unfold mres at 1, mbind at 1. rewrite Hneg by lia.
        rewrite (mbind_ok _ _ _ _ _ inner_ok).
        destruct (N.leb_spec (Z.to_N (- z)) k).
        * change (s_pos s) with (p0 + k). rewrite u64_sub_ok by lia.
          destruct (Z.leb_spec 0 (Z.of_N k + z)); [|lia].
          destruct (Z.leb_spec (Z.of_N k + z) (Z.of_N (lenN c))); [|lia]. cbn [andb].
          f_equal; f_equal; lia.
        * destruct (Z.leb_spec 0 (Z.of_N k + z)); [lia|]. reflexivity.
      + rewrite (mbind_ok _ _ _ _ _ rem_ok).
        destruct (N.leb_spec (Z.to_N z) (lenN c - k)).
        * change (s_pos s) with (p0 + k). rewrite Hadd by lia.
          destruct (Z.leb_spec 0 (Z.of_N k + z)); [|lia].
          destruct (Z.leb_spec (Z.of_N k + z) (Z.of_N (lenN c))); [|lia]. cbn [andb].
          f_equal; f_equal; lia.
        * destruct (Z.leb_spec (Z.of_N k + z) (Z.of_N (lenN c))); [lia|]. now rewrite andb_false_r.
  Qed.
End One.

Lemma br_seek b pre c post p0 k w : k <= lenN c -> lenN c <= I64_MAX ->
  lenN (pre ++ c ++ post) <= U64_MAX -> p0 + lenN c + lenN post <= U64_MAX -> seek_ok w ->
  bop_run (lenN c) (BSeek w) (bst b pre c post p0 k) =
  let t := seek_to (lenN c) k w in
  if ((0 <=? t) && (t <=? Z.of_N (lenN c)))%Z
  then (ROk (BNum (Z.to_N t)), bst b pre c post p0 (Z.to_N t))
  else (RErr (SIo IoInvalidInput), bst b pre c post p0 k).
Proof.
  intros Hk Hl Hd Hp Hw. cbv zeta. cbn [bop_run]. unfold b_seek. unfold mbind at 1, lift_io.
  unfold mbind at 1. rewrite target_ok by auto. cbv zeta.
  set (t := seek_to (lenN c) k w).
  destruct (Z.leb_spec 0 t); cbn [andb]; [|reflexivity].
  destruct (Z.leb_spec t (Z.of_N (lenN c))); [|reflexivity].
  unfold mbind at 1. set (s := bst b pre c post p0 k). change (s_pos s) with (p0 + k).
  assert (Hpre : lenN pre + lenN c <= U64_MAX) by (rewrite !lenN_app in Hd; lia).
  assert (Hseek : forall z k', (z = Z.of_N k' - Z.of_N k)%Z -> k' <= lenN c ->
     on_dev (dev_seek (SkCur z)) s =
     (ROk (lenN pre + k'), set_dev (mkDev (pre ++ c ++ post) (lenN pre + k') []) s)).
  { intros z k' -> Hk'. unfold on_dev, dev_seek, s, bst. scbn. cbn [d_sched d_data d_pos tl].
    destruct (Z.ltb_spec (Z.of_N (lenN pre + k) + (Z.of_N k' - Z.of_N k)) 0); [lia|].
    destruct (Z.ltb_spec (Z.of_N U64_MAX) (Z.of_N (lenN pre + k) + (Z.of_N k' - Z.of_N k))); [lia|]. cbn [orb].
    replace (Z.to_N (Z.of_N (lenN pre + k) + (Z.of_N k' - Z.of_N k))) with (lenN pre + k') by lia. reflexivity. }
  destruct (N.ltb_spec (p0 + Z.to_N t) (p0 + k)).
  - destruct (N.ltb_spec I64_MAX (p0 + k - (p0 + Z.to_N t))); [unfold I64_MAX in *; lia|].
    unfold mbind at 1. rewrite (Hseek _ (Z.to_N t)) by lia. unfold mmod.
    match goal with |- context [b_inner_pos (lenN c) ?x] => assert (Hx : x = bst b pre c post p0 (Z.to_N t)) end.
    { apply stream_eq; unfold s, bst; scbn; try reflexivity; lia. }
    rewrite Hx, inner_ok by lia. reflexivity.
  - destruct (N.ltb_spec I64_MAX (p0 + Z.to_N t - (p0 + k))); [unfold I64_MAX in *; lia|].
    unfold mbind at 1. rewrite (Hseek _ (Z.to_N t)) by lia. unfold mmod.
    match goal with |- context [b_inner_pos (lenN c) ?x] => assert (Hx : x = bst b pre c post p0 (Z.to_N t)) end.
    { apply stream_eq; unfold s, bst; scbn; try reflexivity; lia. }
    rewrite Hx, inner_ok by lia. reflexivity.
Qed.

Lemma lenN_patch c k w : k <= lenN c -> lenN (patch c k w) = lenN c.
Proof.
  intros Hk. unfold patch. rewrite lenN_takeN, !lenN_app, lenN_takeN, lenN_dropN. lia.
Qed.

Lemma bop_refines b pre c post p0 k o : k <= lenN c -> lenN c <= I64_MAX ->
  lenN (pre ++ c ++ post) <= U64_MAX -> p0 + lenN c + lenN post <= U64_MAX -> bop_ok o ->
  let '(x, (c', k')) := bop_spec p0 o c k in
  bop_run (lenN c) o (bst b pre c post p0 k) = (x, bst b pre c' post p0 k') /\
  k' <= lenN c' /\ lenN c' = lenN c /\ (read_only o -> c' = c).
Proof.
  intros Hk Hl Hd Hp Ho.
  assert (Hpl : forall w, lenN (patch c k w) = lenN c) by (intros; now apply lenN_patch).
  destruct o; cbn [bop_spec].
  - rewrite br_read by auto. repeat split; lia.
  - rewrite br_exact by auto. destruct (N.leb_spec n (lenN c - k)); repeat split; lia.
  - rewrite br_fully by auto. destruct (N.leb_spec (lenN c - k) max); repeat split; lia.
  - rewrite br_trunc by auto. repeat split; lia.
  - rewrite br_fill by auto. repeat split; lia.
  - rewrite br_slice by auto. repeat split; lia.
  - rewrite br_write by auto. rewrite Hpl. repeat split; try lia. intros [].
  - rewrite br_write_all by auto. rewrite Hpl. repeat split; try lia. intros [].
  - rewrite br_slice_mut by auto. destruct (_ =? _); rewrite ?Hpl; repeat split; try lia; intros [].
  - rewrite br_seek by auto. cbv zeta. destruct (Z.leb_spec 0 (seek_to (lenN c) k w)); cbn [andb]; [|repeat split; lia].
    destruct (Z.leb_spec (seek_to (lenN c) k w) (Z.of_N (lenN c))); repeat split; lia.
  - rewrite br_pos by auto. repeat split; lia.
Qed.

Lemma bops_refine os : forall b pre c post p0 k, k <= lenN c -> lenN c <= I64_MAX ->
  lenN (pre ++ c ++ post) <= U64_MAX -> p0 + lenN c + lenN post <= U64_MAX -> Forall bop_ok os ->
  let '(xs, (c', k')) := bops_spec p0 os c k in
  bops_run (lenN c) os (bst b pre c post p0 k) = (xs, bst b pre c' post p0 k') /\
  k' <= lenN c' /\ lenN c' = lenN c /\ (Forall read_only os -> c' = c).
Proof.
  induction os as [|o os IH]; intros b pre c post p0 k Hk Hl Hd Hp Hos; cbn [bops_spec bops_run].
  - repeat split; auto.
  - inversion Hos; subst.
    pose proof (bop_refines b pre c post p0 k o Hk Hl Hd Hp ltac:(assumption)) as H.
    destruct (bop_spec p0 o c k) as [x [c1 k1]]. destruct H as (H & Hk1 & Hl1 & Hr1). rewrite H.
    specialize (IH b pre c1 post p0 k1 Hk1 ltac:(lia)).
    assert (Hd1 : lenN (pre ++ c1 ++ post) <= U64_MAX) by (rewrite !lenN_app in *; lia).
    specialize (IH Hd1 ltac:(lia) ltac:(assumption)). rewrite Hl1 in IH.
    destruct (bops_spec p0 os c1 k1) as [xs [c2 k2]]. destruct IH as (IH & Hk2 & Hl2 & Hr2). rewrite IH.
    repeat split; auto; try lia. intros Hro. inversion Hro; subst. rewrite Hr2, Hr1; auto.
Qed.

Lemma bst_blob_at b pre c post p0 k : k <= lenN c -> lenN c <= I64_MAX ->
  lenN (pre ++ c ++ post) <= U64_MAX -> p0 + lenN c + lenN post <= U64_MAX ->
  blob_at (bst b pre c post p0 k) pre c post p0 k.
Proof. intros. constructor; auto. Qed.

Lemma blob_confined s pre c post p0 k os :
  blob_at s pre c post p0 k -> Forall bop_ok os ->
  let '(xs, (c', k')) := bops_spec p0 os c k in
  exists s', bops_run (lenN c) os s = (xs, s') /\ blob_at s' pre c' post p0 k' /\
    lenN c' = lenN c /\ same_rest s s'.
Proof.
  intros H Hos. pose proof (blob_at_bst _ _ _ _ _ _ H) as Hs. destruct H as [ba_sched0 ba_data0 ba_dpos0 ba_pos0 ba_end0 ba_k0 ba_len0 ba_dlen0 ba_plen0].
  pose proof (bops_refine os s pre c post p0 k ba_k0 ba_len0 ba_dlen0 ba_plen0 Hos) as Hr.
  destruct (bops_spec p0 os c k) as [xs [c' k']]. destruct Hr as (Hr & Hk' & Hl' & _).
  rewrite <- Hs in Hr. eexists. split; [exact Hr|]. split; [|split; [exact Hl'|]].
  - apply bst_blob_at; auto; [lia| |lia]. rewrite !lenN_app in *. lia.
  - unfold same_rest, bst. scbn. repeat split; auto. rewrite Hl'. auto.
Qed.

(** C11 *)
Lemma settled_bst b pre c post p0 k : k <= lenN c -> s_commit b = Some CSkipBlob ->
  settled (bst b pre c post p0 k) = settled (bst b pre c post p0 0).
Proof.
  intros Hk Hc. unfold settled, pend, bst, adv. scbn. rewrite Hc. cbn [d_data d_pos d_sched].
  unfold set_commit, set_pos_, set_dev, set_blob_end. scbn. f_equal; [f_equal|]; lia.
Qed.

Lemma blob_then_next s pre c post p0 k os sp :
  blob_at s pre c post p0 k -> bytes_ok (pre ++ c ++ post) -> s_commit s = Some CSkipBlob ->
  s_eof s = false -> Forall bop_ok os -> Forall read_only os ->
  next_element_impl sp (snd (bops_run (lenN c) os s)) = next_element_impl sp s.
Proof.
  intros H Hby Hc He Hos Hro. pose proof (blob_at_bst _ _ _ _ _ _ H) as Hs. destruct H as [ba_sched0 ba_data0 ba_dpos0 ba_pos0 ba_end0 ba_k0 ba_len0 ba_dlen0 ba_plen0].
  pose proof (bops_refine os s pre c post p0 k ba_k0 ba_len0 ba_dlen0 ba_plen0 Hos) as Hr.
  destruct (bops_spec p0 os c k) as [xs [c' k']]. destruct Hr as (Hr & Hk' & Hl' & Hr').
  specialize (Hr' Hro). subst c'. rewrite <- Hs in Hr. rewrite Hr. cbn [snd].
  unfold next_element_impl. change (s_eof (bst s pre c post p0 k')) with (s_eof s). rewrite He.
  assert (Hcc : forall j, j <= lenN c -> commit (bst s pre c post p0 j) = (ROk tt, settled (bst s pre c post p0 0))).
  { intros j Hj. rewrite commit_complete.
    - now rewrite settled_bst.
    - constructor; [reflexivity|exact Hby|exact ba_dlen0|right]. split; [exact Hc|].
      unfold bst; scbn. lia.
    - change (rest (bst s pre c post p0 j)) with (unread (bst s pre c post p0 j)).
      assert (pend (bst s pre c post p0 j) = lenN c - j) as ->.
      { unfold pend, bst; scbn. rewrite Hc. lia. }
      change (unread (bst s pre c post p0 j)) with (rest (bst s pre c post p0 j)).
      rewrite bst_len_rest by auto. lia. }
  rewrite (mbind_ok _ _ _ _ _ (Hcc k' Hk')). rewrite Hs at 2.
  rewrite (mbind_ok _ _ _ _ _ (Hcc k ba_k0)). reflexivity.
Qed.

(** What follows a blob that was just returned. *)
Lemma blob_then_element s (c post : bytes) hd h tl os :
  rinv s -> s_eof s = false -> s_commit s = Some CSkipBlob -> s_blob_end s = s_pos s + lenN c ->
  unread s = c ++ post -> lenN c <= I64_MAX -> s_pos s + lenN c + lenN post <= U64_MAX ->
  s_depth s + 1 < U64_MAX ->
  post = h ++ tl -> hdr_enc hd h -> s_pos s + lenN c + lenN h + hdr_payload hd <= U64_MAX ->
  Forall bop_ok os -> Forall read_only os ->
  exists s', next_element (snd (bops_run (lenN c) os s)) =
      (ROk (elem_of hd (s_pos s + lenN c) (s_depth s)), s') /\ unread s' = tl /\ s_pos s' = s_pos s + lenN c + lenN h /\ rinv s'.
Proof.
  intros Hi He Hc Hbe Hu Hl Hp Hd Hpo Henc Hfit Hos Hro.
  assert (Hpd : pend s = lenN c) by (unfold pend; rewrite Hc, Hbe; lia).
  destruct (elem_complete s hd h tl) as (s' & H1 & H2 & H3 & _ & _ & _ & H4); auto; rewrite ?Hpd; auto.
  { rewrite Hu, lenN_app. lia. }
  { rewrite Hu, dropN_app_exact. exact Hpo. }
  rewrite Hpd in *. exists s'. split; [|auto]. unfold next_element in *. rewrite <- H1.
  assert (Hdp : d_pos (s_dev s) <= lenN (d_data (s_dev s)) \/ (c = [] /\ post = [])).
  { destruct (N.leb_spec (d_pos (s_dev s)) (lenN (d_data (s_dev s)))); [now left|right].
    unfold unread, d_rest in Hu. rewrite dropN_all in Hu by lia.
    symmetry in Hu. apply app_eq_nil in Hu. exact Hu. }
  destruct Hdp as [Hdp|[-> ->]].
  - apply (blob_then_next s (takeN (d_pos (s_dev s)) (d_data (s_dev s))) c post (s_pos s) 0); auto.
    + assert (Hdd : d_data (s_dev s) = takeN (d_pos (s_dev s)) (d_data (s_dev s)) ++ c ++ post).
      { rewrite <- Hu. unfold unread, d_rest. now rewrite takeN_dropN. }
      constructor; auto; try lia; try apply Hi.
      * rewrite lenN_takeN. lia.
      * rewrite <- Hdd. apply Hi.
    + assert (Hdd : d_data (s_dev s) = takeN (d_pos (s_dev s)) (d_data (s_dev s)) ++ c ++ post).
      { rewrite <- Hu. unfold unread, d_rest. now rewrite takeN_dropN. }
      rewrite <- Hdd. apply Hi.
  - destruct h; [|discriminate Hpo]. inversion Henc.
Qed.

(** C19 *)
Lemma truncated_skip_discard sp s : rinv s -> s_eof s = false -> s_depth s + 1 < U64_MAX ->
  lenN (unread s) < pend s -> s_seek s = false ->
  exists s', next_element_impl sp s = (RErr (STruncatedBlob (pend s - lenN (unread s))), s').
Proof.
  intros Hi He Hd Hp Hk. destruct (next_element_impl sp s) as [r s'] eqn:E.
  apply impl_outcome in E; auto. change (rest s) with (unread s) in E. exists s'.
  destruct r as [e|e| |]; try contradiction.
  - destruct E as [[H _]|(_ & H & _)]; [lia|congruence].
  - destruct E as [(k & H1 & -> & _ & H2)|[[H|H] _]]; [|lia|congruence].
    now rewrite (H2 Hk).
Qed.
Lemma truncated_skip_seek sp s : rinv s -> s_eof s = false -> s_depth s + 1 < U64_MAX ->
  lenN (unread s) < pend s -> s_graceful s = false ->
  exists e s', next_element_impl sp s = (RErr e, s').
Proof.
  intros Hi He Hd Hp Hk. destruct (next_element_impl sp s) as [r s'] eqn:E.
  apply impl_outcome in E; auto. change (rest s) with (unread s) in E.
  destruct r as [e|e| |]; try contradiction; [|eauto].
  destruct E as [[H _]|(_ & _ & H & _)]; [lia|congruence].
Qed.
Lemma truncated_read_exact s n : in_blob s -> lenN (unread s) < n ->
  exists s', b_read_exact n s = (RErr IoUnexpectedEof, s').
Proof.
  intros Hi Hn. rewrite b_read_exact_ok by auto. change (rest s) with (unread s).
  match goal with |- context [if ?k <? n then _ else _] => destruct (N.ltb_spec k n) end; [eauto|lia].
Qed.
Lemma truncated_slice s : in_blob s -> lenN (unread s) < s_blob_end s - s_pos s ->
  d_pos (s_dev s) <= lenN (d_data (s_dev s)) ->
  b_slice s = (RErr (STruncatedBlob (s_blob_end s - s_pos s - lenN (unread s))), s) /\ b_ext_slice s = (RErr (STruncatedBlob (s_blob_end s - s_pos s - lenN (unread s))), s).
Proof.
  intros (Hs & Hp & Hb) Hl Hd.
  assert (Ha : @as_slice serr s = (ROk (unread s), s)).
  { unfold as_slice. destruct (N.ltb_spec (lenN (d_data (s_dev s))) (d_pos (s_dev s))); [lia|reflexivity]. }
  unfold b_slice, b_ext_slice. rewrite (mbind_ok _ _ _ _ _ (b_remaining_ok s Hp)), !(mbind_ok _ _ _ _ _ Ha).
  rewrite (mbind_ok _ _ _ _ _ (b_remaining_ok s Hp)).
  destruct (N.leb_spec (s_blob_end s - s_pos s) (lenN (unread s))); [lia|].
  destruct (N.ltb_spec (lenN (unread s)) (s_blob_end s - s_pos s)); [|lia]. split; reflexivity.
Qed.
(** C49: on a complete blob. *)
Lemma complete_slice s : in_blob s -> s_blob_end s - s_pos s <= lenN (unread s) ->
  d_pos (s_dev s) <= lenN (d_data (s_dev s)) ->
  b_slice s = (ROk (takeN (s_blob_end s - s_pos s) (unread s)), s) /\ b_ext_slice s = (ROk (takeN (s_blob_end s - s_pos s) (unread s)), s).
Proof.
  intros (Hs & Hp & Hb) Hl Hd.
  assert (Ha : @as_slice serr s = (ROk (unread s), s)).
  { unfold as_slice. destruct (N.ltb_spec (lenN (d_data (s_dev s))) (d_pos (s_dev s))); [lia|reflexivity]. }
  unfold b_slice, b_ext_slice. rewrite (mbind_ok _ _ _ _ _ (b_remaining_ok s Hp)), !(mbind_ok _ _ _ _ _ Ha).
  rewrite (mbind_ok _ _ _ _ _ (b_remaining_ok s Hp)).
  destruct (N.leb_spec (s_blob_end s - s_pos s) (lenN (unread s))); [|lia].
  destruct (N.ltb_spec (lenN (unread s)) (s_blob_end s - s_pos s)); [lia|]. split; reflexivity.
Qed.

Lemma slice_both s :
  in_blob s -> d_pos (s_dev s) <= lenN (d_data (s_dev s)) ->
  b_slice s =
    if s_blob_end s - s_pos s <=? lenN (unread s)
    then (ROk (takeN (s_blob_end s - s_pos s) (unread s)), s)
    else (RErr (STruncatedBlob (s_blob_end s - s_pos s - lenN (unread s))), s).
Proof.
  intros Hi Hd. destruct (N.leb_spec (s_blob_end s - s_pos s) (lenN (unread s))).
  - now apply complete_slice.
  - now apply truncated_slice.
Qed.

Lemma seek_total s pre c post p0 k w :
  blob_at s pre c post p0 k -> seek_ok w ->
  let t := seek_to (lenN c) k w in
  exists s', bop_run (lenN c) (BSeek w) s =
    (if ((0 <=? t) && (t <=? Z.of_N (lenN c)))%Z then ROk (BNum (Z.to_N t)) else RErr (SIo IoInvalidInput), s').
Proof.
  intros H Hw. cbv zeta. pose proof (blob_at_bst _ _ _ _ _ _ H) as Hs. rewrite Hs.
  destruct H as [ba_sched0 ba_data0 ba_dpos0 ba_pos0 ba_end0 ba_k0 ba_len0 ba_dlen0 ba_plen0].
  rewrite br_seek by auto. cbv zeta. destruct ((0 <=? _) && _)%Z; eauto.
Qed.
