(** * P_Blob: closed forms of the blob operations *)

From Verif Require Import Base Wire Dev Stream SpecWire SpecFormat SpecStream P_Base P_Wire P_Sched P_Read P_Write.

(** The position is inside the blob. *)
Definition in_blob (s : stream) : Prop :=
  sch s = [] /\ s_pos s <= s_blob_end s /\ s_blob_end s <= U64_MAX.

Lemma b_remaining_ok {E} s : s_pos s <= s_blob_end s ->
  @b_remaining E s = (ROk (s_blob_end s - s_pos s), s).
Proof. intros H. unfold b_remaining. now rewrite u64_sub_ok. Qed.

Lemma cap_blob_ok s : s_pos s <= s_blob_end s -> cap_blob s = Cap (s_blob_end s - s_pos s).
Proof. intros H. unfold cap_blob. now rewrite u64_sub_ok. Qed.

Lemma upto_clean s n : sch s = [] -> read_upto sch b_read n s = rspec eof_ok cap_blob [] n s.
Proof.
  intros Hs. unfold read_upto. rewrite read_upto_rloop.
  apply (rloop_clean eof_ok cap_blob); auto using cap_blob_good, b_read_rd. lia.
Qed.
Lemma exact_clean s n : sch s = [] -> b_read_exact n s = rspec eof_err cap_blob [] n s.
Proof.
  intros Hs. unfold b_read_exact, read_exact. rewrite read_exact_rloop.
  apply (rloop_clean eof_err cap_blob); auto using cap_blob_good, b_read_rd. lia.
Qed.

Lemma b_upto_ok s n : in_blob s ->
  let k := N.min n (N.min (s_blob_end s - s_pos s) (lenN (rest s))) in
  read_upto sch b_read n s = (ROk (takeN k (rest s)), adv k s).
Proof.
  intros (Hs & Hp & Hb). cbv zeta. rewrite upto_clean by exact Hs. unfold rspec.
  destruct (N.eqb_spec n 0) as [->|Hn].
  { rewrite N.min_0_l, takeN_0, adv_0. reflexivity. }
  rewrite cap_blob_ok by exact Hp. set (rem := s_blob_end s - s_pos s).
  assert (Hrem : rem = s_blob_end s - s_pos s) by reflexivity. clearbody rem.
  destruct rem as [|p].
  { rewrite N.min_0_l, N.min_0_r, takeN_0, adv_0. reflexivity. }
  cbn [cap_min]. destruct (N.ltb_spec (U64_MAX - s_pos s) (N.min (N.pos p) n)); [lia|].
  unfold avail, eof_ok. cbn [cap_min app].
  destruct (N.leb_spec n (N.min (N.pos p) (lenN (rest s)))).
  - rewrite (N.min_l n) by lia. reflexivity.
  - rewrite (N.min_r n) by lia. reflexivity.
Qed.

Lemma b_read_fully_ok s max : in_blob s ->
  let rem := s_blob_end s - s_pos s in
  b_read_fully max s =
  if max <? rem then (RErr (SLargeBlob max rem), s)
  else (ROk (takeN rem (rest s)), adv (N.min rem (lenN (rest s))) s).
Proof.
  intros Hi. cbv zeta. destruct Hi as (Hs & Hp & Hb). unfold b_read_fully.
  rewrite (mbind_ok _ _ _ _ _ (b_remaining_ok s Hp)).
  destruct (max <? s_blob_end s - s_pos s); [reflexivity|].
  unfold lift_io. rewrite b_upto_ok by (split; auto).
  set (rem := s_blob_end s - s_pos s).
  rewrite (N.min_r U64_MAX) by (unfold rem; lia). f_equal. f_equal.
  destruct (N.leb_spec rem (lenN (rest s))).
  - now rewrite N.min_l.
  - rewrite N.min_r by lia. rewrite !takeN_all by lia. reflexivity.
Qed.

Lemma b_read_or_trunc_ok s max : in_blob s ->
  let k := N.min max (N.min (s_blob_end s - s_pos s) (lenN (rest s))) in
  b_read_or_trunc max s = (ROk (takeN k (rest s)), adv k s).
Proof. intros Hi. cbv zeta. unfold b_read_or_trunc, lift_io. now rewrite b_upto_ok. Qed.

Lemma b_read_exact_ok s n : in_blob s ->
  let k := N.min n (N.min (s_blob_end s - s_pos s) (lenN (rest s))) in
  b_read_exact n s =
  if k <? n then (RErr IoUnexpectedEof, adv k s) else (ROk (takeN n (rest s)), adv n s).
Proof.
  intros (Hs & Hp & Hb). cbv zeta. rewrite exact_clean by exact Hs. unfold rspec.
  destruct (N.eqb_spec n 0) as [->|Hn].
  { rewrite N.min_0_l, takeN_0, adv_0. reflexivity. }
  rewrite cap_blob_ok by exact Hp. set (rem := s_blob_end s - s_pos s).
  assert (Hrem : rem = s_blob_end s - s_pos s) by reflexivity. clearbody rem.
  destruct rem as [|p].
  { rewrite N.min_0_l, N.min_0_r, adv_0. destruct (N.ltb_spec 0 n); [reflexivity|lia]. }
  cbn [cap_min]. destruct (N.ltb_spec (U64_MAX - s_pos s) (N.min (N.pos p) n)); [lia|].
  unfold avail, eof_err. cbn [cap_min app].
  destruct (N.leb_spec n (N.min (N.pos p) (lenN (rest s)))).
  - rewrite (N.min_l n) by lia. now rewrite N.ltb_irrefl.
  - rewrite (N.min_r n) by lia. destruct (N.ltb_spec (N.min (N.pos p) (lenN (rest s))) n); [reflexivity|lia].
Qed.

(** [Read::read] itself. *)
Lemma b_read_ok s n : in_blob s ->
  let k := N.min n (N.min (s_blob_end s - s_pos s) (lenN (rest s))) in
  b_read n s = (ROk (takeN k (rest s)), adv k s).
Proof.
  intros (Hs & Hp & Hb). cbv zeta. rewrite b_read_rd. unfold rd_of. rewrite cap_blob_ok by exact Hp.
  destruct (N.eqb_spec (s_blob_end s - s_pos s) 0) as [H0|H0].
  { rewrite H0, N.min_0_l, N.min_0_r, takeN_0, adv_0. reflexivity. }
  destruct (N.eqb_spec n 0) as [->|Hn].
  { rewrite N.min_0_r, N.min_0_l. unfold t_read. change (0 =? 0) with true. cbv iota.
    rewrite takeN_0, adv_0. reflexivity. }
  rewrite t_read_eq by lia. cbv beta zeta.
  destruct (N.ltb_spec (U64_MAX - s_pos s) (N.min (s_blob_end s - s_pos s) n)); [lia|].
  rewrite Hs.
  set (m := N.min (s_blob_end s - s_pos s) n).
  replace (N.min n (N.min (s_blob_end s - s_pos s) (lenN (rest s)))) with (N.min m (lenN (rest s))) by lia.
  assert (Ht : takeN (N.min m (lenN (rest s))) (rest s) = takeN m (rest s)).
  { destruct (N.leb_spec m (lenN (rest s))).
    - now rewrite N.min_l.
    - rewrite N.min_r by lia. rewrite !takeN_all by lia. reflexivity. }
  rewrite Ht. destruct (takeN m (rest s)) as [|b l] eqn:Et.
  - replace (N.min m (lenN (rest s))) with 0; [reflexivity|].
    assert (Hl : lenN (takeN m (rest s)) = 0) by (rewrite Et; reflexivity).
    rewrite lenN_takeN in Hl. lia.
  - rewrite <- Et, lenN_takeN. reflexivity.
Qed.
