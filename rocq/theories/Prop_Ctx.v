(** * Prop_Ctx: the counters of a [Context] *)

From Verif Require Import Base Prog SpecCtx P_Ctx.

(** ** C48.  [ctx_collect dbg max c n] is [Context::collect(n)] with the
    running count [c] and the limit [max]: the new count or an error.  As
    documented, "if the running count plus n is at most max_collect, update
    the running count and return Ok", it should be
    [if c + n <=? max then ROk (c + n) else RErr KMaxCollect].  Whether it
    succeeds is right, but 1 is added, whatever [n] is. *)
Theorem C48_collect_partial dbg max c n : c <= max -> max <= U64_MAX -> (n = 0 -> c < max) ->
  ctx_collect dbg max c n = if c + n <=? max then ROk (c + 1) else RErr KMaxCollect.
Proof. exact (collect_one dbg max c n). Qed.
Print Assumptions C48_collect_partial.

Theorem C48_collect_refuted : ~ (forall dbg max c n, c <= max -> max <= U64_MAX ->
  ctx_collect dbg max c n = if c + n <=? max then ROk (c + n) else RErr KMaxCollect).
Proof. exact collect_refuted. Qed.
Print Assumptions C48_collect_refuted.

(** Histories of [collect(1)], the only call the library itself makes, count
    right from any count on. *)
Theorem C48_collect_ones dbg max c k : c <= max -> max <= U64_MAX ->
  calls (ctx_collect dbg max) c (repeat 1 k) = if c + N.of_nat k <=? max then ROk (c + N.of_nat k) else RErr KMaxCollect.
Proof. exact (collect_calls dbg max c k). Qed.
Print Assumptions C48_collect_ones.

(** [collect(0)] at the limit exceeds it, and the next call panics with
    overflow checks and otherwise lets everything pass. *)
Theorem C48_collect_zero max : max < U64_MAX ->
  ctx_collect true max max 0 = ROk (max + 1) /\ (forall n, ctx_collect true max (max + 1) n = RPanic) /\
  (forall n, n < U64_MOD -> ctx_collect false max (max + 1) n = ROk (max + 2) \/ max + 2 = U64_MOD).
Proof. exact (collect_zero max). Qed.
Print Assumptions C48_collect_zero.

(** [Context::blob(n)] does what its documentation says, in every history. *)
Theorem C48_blob dbg max c ns : c <= max -> max <= U64_MAX ->
  calls (ctx_blob dbg max) c ns = if c + total ns <=? max then ROk (c + total ns) else RErr KMaxBlob.
Proof. exact (blob_calls dbg max c ns). Qed.
Print Assumptions C48_blob.

(** A limit of 10: 4, 0 and 6 bytes, then one more; four elements, and one
    more than ten. *)
Example C48_instance :
  calls (ctx_blob true 10) 0 [4; 0; 6] = ROk 10 /\ calls (ctx_blob true 10) 0 [4; 0; 6; 1] = RErr KMaxBlob /\
  calls (ctx_collect true 10) 0 (repeat 1 4) = ROk 4 /\ calls (ctx_collect true 10) 0 (repeat 1 11) = RErr KMaxCollect.
Proof.
  split; [exact (C48_blob true 10 0 [4; 0; 6] ltac:(discriminate) ltac:(discriminate))|].
  split; [exact (C48_blob true 10 0 [4; 0; 6; 1] ltac:(discriminate) ltac:(discriminate))|].
  split; [exact (C48_collect_ones true 10 0 4 ltac:(discriminate) ltac:(discriminate))|].
  exact (C48_collect_ones true 10 0 11 ltac:(discriminate) ltac:(discriminate)).
Qed.
