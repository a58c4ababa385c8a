(** * Properties C11, C12, C19, C49, C52: blobs *)

From Verif Require Import Base Wire Dev Stream SpecWire SpecFormat SpecStream SpecBlob P_Blob P_BlobOps.

(** ** C11.  Any sequence of reads and seeks on a blob of a complete input:
    the next element is the one after the blob. *)
Theorem C11_next_element_follows_blob s (c post : bytes) hd h tl os :
  rinv s -> s_eof s = false -> s_commit s = Some CSkipBlob -> s_blob_end s = s_pos s + lenN c ->
  unread s = c ++ post -> lenN c <= I64_MAX -> s_pos s + lenN c + lenN post <= U64_MAX ->
  s_depth s + 1 < U64_MAX ->
  post = h ++ tl -> hdr_enc hd h -> s_pos s + lenN c + lenN h + hdr_payload hd <= U64_MAX ->
  Forall bop_ok os -> Forall read_only os ->
  exists s', next_element (snd (bops_run (lenN c) os s)) =
      (ROk (elem_of hd (s_pos s + lenN c) (s_depth s)), s') /\
    unread s' = tl /\ s_pos s' = s_pos s + lenN c + lenN h /\ rinv s'.
Proof. exact (blob_then_element s c post hd h tl os). Qed.
Print Assumptions C11_next_element_follows_blob.

(** ... and the result, whatever it is, and the whole state afterwards are
    the same as if the blob had not been touched ([sp] is [true] for
    [next_field]). *)
Theorem C11_blob_use_is_invisible_afterwards s pre c post p0 k os sp :
  blob_at s pre c post p0 k -> bytes_ok (pre ++ c ++ post) -> s_commit s = Some CSkipBlob ->
  s_eof s = false -> Forall bop_ok os -> Forall read_only os ->
  next_element_impl sp (snd (bops_run (lenN c) os s)) = next_element_impl sp s.
Proof. exact (blob_then_next s pre c post p0 k os sp). Qed.
Print Assumptions C11_blob_use_is_invisible_afterwards.

(** A blob of 3 bytes followed by an integer field. *)
Definition c11_stream : stream :=
  snd (next_element (new_stream true false (mkDev [0x82; 3; 10; 11; 12; 0x41; 7] 0 []))).
Definition c11_ops : list bop :=
  [BRead 1; BSeek (SkStart 3); BSeek (SkCur (-2)); BReadExact 1; BReadExact 9; BSeek (SkEnd (-4)); BSeek (SkEnd (-3));
   BReadTrunc 2; BPos].
Example C11_instance :
  rinv c11_stream /\ s_eof c11_stream = false /\ s_commit c11_stream = Some CSkipBlob /\
  s_blob_end c11_stream = s_pos c11_stream + lenN [10; 11; 12] /\
  unread c11_stream = [10; 11; 12] ++ [0x41; 7] /\ hdr_enc (HdField 1 (HvInt 7)) [0x41; 7] /\
  Forall bop_ok c11_ops /\ Forall read_only c11_ops /\
  fst (bops_run 3 c11_ops c11_stream) =
    [ROk (BBytes [10]); ROk (BNum 3); ROk (BNum 1); ROk (BBytes [11]); RErr (SIo IoUnexpectedEof);
     RErr (SIo IoInvalidInput); ROk (BNum 0); ROk (BBytes [10; 11]); ROk (BPoss 1 2 5 2 4)] /\
  fst (next_element (snd (bops_run 3 c11_ops c11_stream))) = ROk (ElField (mkField 1 5 1 (HInt 7))).
Proof.
  split.
  { constructor; [reflexivity|repeat constructor|vm_compute; discriminate|right; vm_compute; split; [reflexivity|discriminate]]. }
  split; [reflexivity|]. split; [reflexivity|]. split; [reflexivity|]. split; [reflexivity|].
  split.
  { apply (EncInt 1 7 [7]); [unfold tag_ok; lia| |repeat constructor].
    split; [|repeat split; vm_compute; (reflexivity || discriminate)].
    exists [], 7. repeat split; try constructor. }
  split; [repeat constructor; vm_compute; discriminate|]. split; [repeat constructor|].
  split; vm_compute; reflexivity.
Qed.

(** ** C12.  Every sequence of operations behaves as on an array [c] of
    fixed size with a cursor; what is before and after the blob and the
    rest of the stream's state stay as they are. *)
Theorem C12_blob_operations_confined s pre c post p0 k os :
  blob_at s pre c post p0 k -> Forall bop_ok os ->
  let '(xs, (c', k')) := bops_spec p0 os c k in
  exists s', bops_run (lenN c) os s = (xs, s') /\ blob_at s' pre c' post p0 k' /\
    lenN c' = lenN c /\ same_rest s s'.
Proof. exact (blob_confined s pre c post p0 k os). Qed.
Print Assumptions C12_blob_operations_confined.

Example C12_instance : exists s, blob_at s [0x82; 3] [10; 11; 12] [0x41; 7] 2 0 /\
  let os := [BWrite [1; 2]; BSeek (SkCur 5); BWriteAll [3; 4]; BSeek (SkStart 1); BSlice; BSliceMut [8; 9]] in
  Forall bop_ok os /\
  bops_spec 2 os [10; 11; 12] 0 =
    ([ROk (BNum 2); RErr (SIo IoInvalidInput); RErr (SIo IoWriteZero); ROk (BNum 1); ROk (BBytes [2; 3]); ROk BUnit],
     ([1; 8; 9], 1)) /\
  d_data (s_dev (snd (bops_run 3 os s))) = [0x82; 3; 1; 8; 9; 0x41; 7].
Proof.
  exists c11_stream. split; [constructor; vm_compute; (reflexivity || discriminate)|].
  split; [repeat constructor; vm_compute; discriminate|]. split; vm_compute; reflexivity.
Qed.

(** ** C19 *)
(** Skipping: without seeking the truncation is reported with the exact
    number of missing bytes ... *)
Theorem C19_skipping_by_reading_reports_truncation_partial sp s :
  rinv s -> s_eof s = false -> s_depth s + 1 < U64_MAX ->
  lenN (unread s) < pend s -> s_seek s = false ->
  exists s', next_element_impl sp s = (RErr (STruncatedBlob (pend s - lenN (unread s))), s').
Proof. exact (truncated_skip_discard sp s). Qed.
Print Assumptions C19_skipping_by_reading_reports_truncation_partial.
(** ... with seeking it is some error, unless EOF is graceful. *)
Theorem C19_skipping_by_seeking_reports_an_error_partial sp s :
  rinv s -> s_eof s = false -> s_depth s + 1 < U64_MAX ->
  lenN (unread s) < pend s -> s_graceful s = false ->
  exists e s', next_element_impl sp s = (RErr e, s').
Proof. exact (truncated_skip_seek sp s). Qed.
Print Assumptions C19_skipping_by_seeking_reports_an_error_partial.
Theorem C19_read_exact_reports_truncation_partial s n :
  in_blob s -> lenN (unread s) < n -> exists s', b_read_exact n s = (RErr IoUnexpectedEof, s').
Proof. exact (truncated_read_exact s n). Qed.
Print Assumptions C19_read_exact_reports_truncation_partial.
Theorem C19_slicing_reports_truncation_partial s :
  in_blob s -> lenN (unread s) < s_blob_end s - s_pos s ->
  d_pos (s_dev s) <= lenN (d_data (s_dev s)) ->
  b_slice s = (RErr (STruncatedBlob (s_blob_end s - s_pos s - lenN (unread s))), s) /\
  b_ext_slice s = (RErr (STruncatedBlob (s_blob_end s - s_pos s - lenN (unread s))), s).
Proof. exact (truncated_slice s). Qed.
Print Assumptions C19_slicing_reports_truncation_partial.

(** The input [82 05 0A 0B]: a blob of 5 bytes of which 2 are there. *)
Definition c19_stream (seek graceful : bool) : stream :=
  snd (next_element (set_graceful_ graceful (new_stream true seek (mkDev [0x82; 5; 10; 11] 0 [])))).
Example C19_instance : forall sk gr, rinv (c19_stream sk gr) /\ s_eof (c19_stream sk gr) = false /\
  in_blob (c19_stream sk gr) /\ lenN (unread (c19_stream sk gr)) < pend (c19_stream sk gr).
Proof.
  intros [] []; (split; [constructor; [reflexivity|repeat constructor|vm_compute; discriminate|
    right; split; [reflexivity|vm_compute; discriminate]]|]);
  (split; [reflexivity|]); (split; [split; [reflexivity|split; vm_compute; discriminate]|vm_compute; reflexivity]).
Qed.

(** The rest of C19 is false: [read_fully] returns the short data ... *)
Theorem C19_read_fully_refuted :
  ~ (forall s max, rinv s -> in_blob s -> lenN (unread s) < pend s -> pend s <= max ->
       exists e s', b_read_fully max s = (RErr e, s')).
Proof.
  intros H. destruct (C19_instance false false) as (H1 & _ & H2 & H3).
  destruct (H (c19_stream false false) 100 H1 H2 H3 ltac:(vm_compute; discriminate)) as (e & s' & Hx).
  vm_compute in Hx. discriminate.
Qed.
Print Assumptions C19_read_fully_refuted.
(** ... and skipping by seeking with graceful EOF reports a regular end of
    document. *)
Theorem C19_skipping_by_seeking_refuted :
  ~ (forall sp s, rinv s -> s_eof s = false -> s_depth s + 1 < U64_MAX -> lenN (unread s) < pend s ->
       exists e s', next_element_impl sp s = (RErr e, s')).
Proof.
  intros H. destruct (C19_instance true true) as (H1 & H2 & _ & H3).
  destruct (H true (c19_stream true true) H1 H2 ltac:(reflexivity) H3) as (e & s' & Hx).
  vm_compute in Hx. discriminate.
Qed.
Print Assumptions C19_skipping_by_seeking_refuted.

(** ** C49 *)
Theorem C49_slice_partial s :
  in_blob s -> d_pos (s_dev s) <= lenN (d_data (s_dev s)) ->
  b_slice s =
    if s_blob_end s - s_pos s <=? lenN (unread s)
    then (ROk (takeN (s_blob_end s - s_pos s) (unread s)), s)
    else (RErr (STruncatedBlob (s_blob_end s - s_pos s - lenN (unread s))), s).
Proof. exact (slice_both s). Qed.
Print Assumptions C49_slice_partial.

(** [ext_slice] does not consume: reading again returns the same bytes. *)
Theorem C49_ext_slice_consumes_refuted :
  ~ (forall s, in_blob s -> s_blob_end s - s_pos s <= lenN (unread s) ->
       d_pos (s_dev s) <= lenN (d_data (s_dev s)) ->
       s_pos (snd (b_ext_slice s)) = s_blob_end s).
Proof.
  intros H. specialize (H c11_stream).
  assert (Hi : in_blob c11_stream) by (split; [reflexivity|split; vm_compute; discriminate]).
  specialize (H Hi ltac:(vm_compute; discriminate) ltac:(vm_compute; discriminate)). vm_compute in H. discriminate.
Qed.
Print Assumptions C49_ext_slice_consumes_refuted.

(** [slice] panics after seeking inside a truncated blob beyond the end of
    the underlying slice. *)
Theorem C49_slice_never_panics_refuted :
  ~ (forall bs w, bytes_ok bs -> bop_ok (BSeek w) ->
       let s1 := snd (next_element (from_slice true bs)) in
       fst (b_slice (snd (bop_run (s_blob_end s1 - s_pos s1) (BSeek w) s1))) <> RPanic).
Proof.
  intros H. specialize (H [0x82; 5; 10; 11] (SkStart 4) ltac:(repeat constructor) ltac:(vm_compute; discriminate)).
  apply H. vm_compute. reflexivity.
Qed.
Print Assumptions C49_slice_never_panics_refuted.

(** ** C52.  Seeking never panics, except for [i64::MIN] in builds with
    overflow checks. *)
Theorem C52_blob_seek_total_partial s pre c post p0 k w :
  blob_at s pre c post p0 k -> seek_ok w ->
  let t := seek_to (lenN c) k w in
  exists s', bop_run (lenN c) (BSeek w) s =
    (if ((0 <=? t) && (t <=? Z.of_N (lenN c)))%Z then ROk (BNum (Z.to_N t)) else RErr (SIo IoInvalidInput), s').
Proof. exact (seek_total s pre c post p0 k w). Qed.
Print Assumptions C52_blob_seek_total_partial.
Theorem C52_blob_seek_total_refuted :
  ~ (forall s pre c post p0 k z, blob_at s pre c post p0 k -> (- 2 ^ 63 <= z < 2 ^ 63)%Z ->
       fst (bop_run (lenN c) (BSeek (SkCur z)) s) <> RPanic).
Proof.
  intros H. destruct C12_instance as (s & Hs & _).
  specialize (H c11_stream [0x82; 3] [10; 11; 12] [0x41; 7] 2 0 (- 2 ^ 63)%Z).
  apply H; [constructor; vm_compute; (reflexivity || discriminate)|lia|]. vm_compute. reflexivity.
Qed.
Print Assumptions C52_blob_seek_total_refuted.
