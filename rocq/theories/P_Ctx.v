(** * P_Ctx: the counters of a [Context] *)

From Verif Require Import Base Prog SpecCtx P_Base.

Lemma collect_one dbg max c n : c <= max -> max <= U64_MAX -> (n = 0 -> c < max) ->
  ctx_collect dbg max c n = if c + n <=? max then ROk (c + 1) else RErr KMaxCollect.
Proof.
  intros Hc Hm Hn. unfold ctx_collect. rewrite u64_sub_ok by auto. cbv beta iota.
  destruct (N.ltb_spec (max - c) n), (N.leb_spec (c + n) max); try lia; [reflexivity|].
  apply u64_add_ok. unfold U64_MAX, U64_MOD in *. destruct (N.eq_dec n 0); [specialize (Hn e)|]; lia.
Qed.
Lemma blob_one dbg max c n : c <= max -> max <= U64_MAX ->
  ctx_blob dbg max c n = if c + n <=? max then ROk (c + n) else RErr KMaxBlob.
Proof.
  intros Hc Hm. unfold ctx_blob. rewrite u64_sub_ok by auto. cbv beta iota.
  destruct (N.ltb_spec (max - c) n), (N.leb_spec (c + n) max); try lia; [reflexivity|].
  apply u64_add_ok. unfold U64_MAX, U64_MOD in *. lia.
Qed.
Lemma calls_count (call : N -> N -> res ekind N) err max :
  (forall c n, c <= max -> call c n = if c + n <=? max then ROk (c + n) else RErr err) ->
  forall ns c, c <= max -> calls call c ns = if c + total ns <=? max then ROk (c + total ns) else RErr err.
Proof.
  intros Hcall ns; induction ns as [|n ns IH]; intros c Hc; cbn [calls total fold_right].
  - rewrite N.add_0_r. destruct (N.leb_spec c max); [reflexivity|lia].
  - rewrite Hcall by auto. destruct (N.leb_spec (c + n) max).
    + rewrite IH by auto. unfold total. now rewrite <- N.add_assoc.
    + fold (total ns). destruct (N.leb_spec (c + (n + total ns)) max); [lia|reflexivity].
Qed.
Lemma blob_calls dbg max c ns : c <= max -> max <= U64_MAX ->
  calls (ctx_blob dbg max) c ns = if c + total ns <=? max then ROk (c + total ns) else RErr KMaxBlob.
Proof. intros Hc Hm. apply calls_count; auto. intros. now apply blob_one. Qed.
Lemma collect_calls dbg max c k : c <= max -> max <= U64_MAX ->
  calls (ctx_collect dbg max) c (repeat 1 k) = if c + N.of_nat k <=? max then ROk (c + N.of_nat k) else RErr KMaxCollect.
Proof.
  intros Hc Hm. revert c Hc. induction k as [|k IH]; intros c Hc; cbn [repeat calls].
  - change (N.of_nat 0) with 0. rewrite N.add_0_r. destruct (N.leb_spec c max); [reflexivity|lia].
  - rewrite collect_one by (auto; discriminate). destruct (N.leb_spec (c + 1) max).
    + rewrite IH by auto. replace (c + 1 + N.of_nat k) with (c + N.of_nat (S k)) by lia. reflexivity.
    + destruct (N.leb_spec (c + N.of_nat (S k)) max); [lia|reflexivity].
Qed.
Lemma collect_refuted : ~ (forall dbg max c n, c <= max -> max <= U64_MAX ->
  ctx_collect dbg max c n = if c + n <=? max then ROk (c + n) else RErr KMaxCollect).
Proof. intros H. specialize (H true 10 0 10). cbv in H. specialize (H ltac:(discriminate) ltac:(discriminate)). discriminate. Qed.
Lemma collect_zero max : max < U64_MAX ->
  ctx_collect true max max 0 = ROk (max + 1) /\ (forall n, ctx_collect true max (max + 1) n = RPanic) /\
  (forall n, n < U64_MOD -> ctx_collect false max (max + 1) n = ROk (max + 2) \/ max + 2 = U64_MOD).
Proof.
  intros Hm. repeat split.
  - unfold ctx_collect. rewrite u64_sub_ok by lia. rewrite N.sub_diag. apply u64_add_ok. unfold U64_MAX, U64_MOD in *. lia.
  - intros n. unfold ctx_collect, u64_sub. destruct (N.leb_spec (max + 1) max); [lia|reflexivity].
  - intros n Hn. destruct (N.eq_dec (max + 2) U64_MOD) as [|Hne]; [now right|left].
    unfold ctx_collect, u64_sub. destruct (N.leb_spec (max + 1) max); [lia|]. cbv beta iota.
    match goal with |- context [?r <? n] => assert (Hr : r = U64_MOD - 1) end.
    { unfold U64_MAX, U64_MOD in *. lia. }
    rewrite Hr. destruct (N.ltb_spec (U64_MOD - 1) n); [lia|].
    replace (max + 2) with (max + 1 + 1) by lia. apply u64_add_ok. unfold U64_MAX, U64_MOD in *. lia.
Qed.
