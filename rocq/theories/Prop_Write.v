(** * Properties C18, C21-C24, C26, C50: conversions, writing, copying, repositioning *)

From Verif Require Import Base Wire Dev Stream SpecWire SpecFormat SpecStream SpecBlob SpecHist SpecWrite
  P_WriteBlobs P_Copy P_Misc.

(** ** C18.  [w] is the width of the target type; [to_uint (umax w)] is
    [to_u8], .., [to_u64]/[to_usize], [to_sint (smin w) (smax w)] is [to_i8],
    .., [to_isize]. *)
Theorem C18_unsigned_conversion w v n :
  to_uint (umax w) v = ROk n <-> v = HInt n /\ n < 2 ^ w.
Proof. exact (to_uint_iff w v n). Qed.
Print Assumptions C18_unsigned_conversion.

Theorem C18_signed_conversion w v z : 1 <= w <= 64 -> (match v with HInt n => n < 2 ^ 64 | _ => True end) ->
  to_sint (smin w) (smax w) v = ROk z <->
  v = HInt (zz z) /\ (- 2 ^ (Z.of_N w - 1) <= z < 2 ^ (Z.of_N w - 1))%Z.
Proof. exact (to_sint_iff w v z). Qed.
Print Assumptions C18_signed_conversion.

Theorem C18_bool_conversion v b : (match v with HInt n => n < 2 ^ 64 | _ => True end) ->
  to_bool v = ROk b <-> v = HInt (if b then 1 else 0).
Proof. exact (to_bool_iff v b). Qed.
Print Assumptions C18_bool_conversion.

Theorem C18_null_conversion v : to_null v = ROk tt <-> v = HInt 0.
Proof. exact (to_null_iff v). Qed.
Print Assumptions C18_null_conversion.

Theorem C18_errors_are_range_or_type w v :
  (forall e, to_uint (umax w) v = RErr e -> e = match v with HInt _ => SOutOfRange | _ => SUnexpectedType FInteger (hdr_fty v) end) /\
  (forall e, to_sint (smin w) (smax w) v = RErr e -> e = match v with HInt _ => SOutOfRange | _ => SUnexpectedType FInteger (hdr_fty v) end) /\
  (forall e, to_bool v = RErr e -> e = match v with HInt _ => SOutOfRange | _ => SUnexpectedType FInteger (hdr_fty v) end) /\
  (forall e, to_null v = RErr e -> e = match v with HInt _ => SOutOfRange | _ => SUnexpectedType FInteger (hdr_fty v) end) /\
  (to_uint (umax w) v <> RPanic /\ to_sint (smin w) (smax w) v <> RPanic /\ to_bool v <> RPanic /\ to_null v <> RPanic) /\
  (to_uint (umax w) v <> RFuel /\ to_sint (smin w) (smax w) v <> RFuel /\ to_bool v <> RFuel /\ to_null v <> RFuel).
Proof. exact (conv_errors w v). Qed.
Print Assumptions C18_errors_are_range_or_type.

(** Writing an unsigned ([write_u8] .. [write_u64]), signed ([write_i8] ..
    [write_i64]), boolean or null field and converting what is read back. *)
Theorem C18_write_convert_back s out t w n z b :
  appending s out -> no_open_blob s -> tag_ok t -> s_pos s + 11 <= U64_MAX -> 1 <= w <= 64 -> n < 2 ^ w ->
  (- 2 ^ (Z.of_N w - 1) <= z < 2 ^ (Z.of_N w - 1))%Z ->
  written_field s out t (write_u64 t n) (fun v => to_uint (umax w) v = ROk n) /\
  written_field s out t (write_sint t z) (fun v => to_sint (smin w) (smax w) v = ROk z) /\
  written_field s out t (write_bool t b) (fun v => to_bool v = ROk b) /\
  written_field s out t (write_null t) (fun v => to_null v = ROk tt).
Proof. exact (write_convert s out t w n z b). Qed.
Print Assumptions C18_write_convert_back.

Example C18_instance :
  to_uint (umax 8) (HInt 255) = ROk 255 /\ to_uint (umax 8) (HInt 256) = RErr SOutOfRange /\
  to_sint (smin 8) (smax 8) (HInt 255) = ROk (-128)%Z /\ to_sint (smin 8) (smax 8) (HInt 256) = RErr SOutOfRange /\
  to_sint (smin 64) (smax 64) (HInt 18446744073709551615) = ROk (-9223372036854775808)%Z /\
  to_bool (HInt 2) = RErr SOutOfRange /\ to_uint (umax 64) HStruct = RErr (SUnexpectedType FInteger FStruct) /\
  appending (new_stream true false (mkDev [] 0 [])) [] /\ no_open_blob (new_stream true false (mkDev [] 0 [])).
Proof. repeat split; try reflexivity. now left. Qed.

(** ** C21.  A blob field ([Some t]) or an exception ([None]) of announced
    length [len], filled by writing the pieces [ws]. *)
Theorem C21_presized_blob s out t len ws :
  appending s out -> no_open_blob s -> otag_ok t -> bytes_ok (concat ws) -> s_pos s + len + 11 <= U64_MAX ->
  exists h s1,
    (match t with Some t => write_blob_alloc t len | None => write_exception_alloc len end) s = (ROk len, s1) /\
    hdr_enc (blob_hd t len) h /\
    let s2 := write_pieces ws s1 in
    let content := takeN len (concat ws) in
    appending s2 (out ++ h ++ content) /\ s_pos s2 = s_pos s + lenN h + lenN content /\
    (lenN (concat ws) < len -> forall op c, finishes_blob s2 c ->
       call_run op c s2 = (RErr (SIncompleteBlob (len - lenN (concat ws))), s2)) /\
    (len <= lenN (concat ws) -> elem_enc (blob_elem t content) (h ++ content) /\ no_open_blob s2 /\
       forall op c, finishes_blob s2 c -> call_run op c s2 = call_run op c (set_commit None s2)).
Proof. exact (presized_both s out t len ws). Qed.
Print Assumptions C21_presized_blob.

Example C21_instance :
  let s := new_stream true false (mkDev [0x41; 5] 2 []) in
  appending s [0x41; 5] /\ no_open_blob s /\
  (let '(_, s1) := write_blob_alloc 2 3 s in
   let s2 := write_pieces [[1]; [2]] s1 in
   let s3 := write_pieces [[1]; [2]; [3; 4]] s1 in
   finishes_blob s2 (CWriteU64 1 7) /\
   fst (call_run ONone (CWriteU64 1 7) s2) = RErr (SIncompleteBlob 1) /\
   d_data (s_dev s2) = [0x41; 5; 0x82; 3; 1; 2] /\
   d_data (s_dev (snd (call_run ONone (CWriteU64 1 7) s3))) = [0x41; 5; 0x82; 3; 1; 2; 3; 0x41; 7]).
Proof. vm_compute. repeat split; auto. Qed.

(** ** C22.  The blob returned has room for [len] bytes; [s2] is the state
    after the writes and [s3] after a commit. *)
Theorem C22_dynamic_blob s out t ws :
  appending s out -> no_open_blob s -> otag_ok t -> bytes_ok (concat ws) ->
  s_pos s + 11 + lenN (concat ws) <= U64_MAX -> lenN out + 11 + lenN (concat ws) <= U64_MAX ->
  lenN (concat ws) + 10 <= I64_MAX ->
  exists len s1 h s3,
    (match t with Some t => write_blob_dynamic t | None => write_exception_dynamic end) s = (ROk len, s1) /\
    lenN (concat ws) <= len /\
    let s2 := write_pieces ws s1 in
    commit s2 = (ROk tt, s3) /\ hdr_enc (blob_hd t (lenN (concat ws))) h /\ lenN h = 11 /\
    elem_enc (blob_elem t (concat ws)) (h ++ concat ws) /\
    appending s3 (out ++ h ++ concat ws) /\ s_pos s3 = s_pos s + 11 + lenN (concat ws) /\ no_open_blob s3 /\
    forall op c, finishes_blob s2 c -> call_run op c s2 = call_run op c s3.
Proof. exact (dynamic_both s out t ws). Qed.
Print Assumptions C22_dynamic_blob.

Example C22_instance :
  let s := new_stream true false (mkDev [0x41; 5] 2 []) in
  appending s [0x41; 5] /\ no_open_blob s /\
  (let '(_, s1) := write_blob_dynamic 2 s in
   let '(_, s3) := write_struct 1 (write_pieces [[1]; [2; 3]] s1) in
   d_data (s_dev s3) = [0x41; 5; 0x82; 0x83; 128; 128; 128; 128; 128; 128; 128; 128; 0; 1; 2; 3; 0xC1]).
Proof. vm_compute. repeat split; auto. Qed.

(** ** C23.  [q] witnesses that a multiple of the alignment is representable. *)
Theorem C23_pad_to_align s out k q : appending s out -> no_open_blob s -> k < 64 ->
  s_pos s <= q * 2 ^ k <= U64_MAX ->
  exists n s', pad_to_align (2 ^ k) s = (ROk tt, s') /\
    (s_pos s + n) mod 2 ^ k = 0 /\ (forall m, m < n -> (s_pos s + m) mod 2 ^ k <> 0) /\
    appending s' (out ++ repeat 0xC0 (N.to_nat n)) /\ s_pos s' = s_pos s + n /\ no_open_blob s'.
Proof. exact (pad_align_to s out k q). Qed.
Print Assumptions C23_pad_to_align.

Example C23_instance :
  let s := set_pos_ 13 (new_stream true false (mkDev [1; 2] 2 [])) in
  appending s [1; 2] /\ no_open_blob s /\ s_pos s <= 2 * 2 ^ 3 <= U64_MAX /\
  d_data (s_dev (snd (pad_to_align (2 ^ 3) s))) = [1; 2; 0xC0; 0xC0; 0xC0].
Proof. vm_compute. repeat split; auto; discriminate. Qed.

(** ** C24 *)
Theorem C24_copying_elements es bs src dst tl out :
  elems_enc es bs -> positioned src (bs ++ tl) ->
  s_pos src + pend src + lenN bs <= U64_MAX -> s_depth src + 2 * N.of_nat (length es) + 1 < U64_MAX ->
  appending dst out -> no_open_blob dst -> s_pos dst + size_bound es <= U64_MAX ->
  exists src1 dst1 w, copy_elems (length es) (src, dst) = (ROk tt, (src1, dst1)) /\
    positioned src1 tl /\ appending dst1 (out ++ w) /\ no_open_blob dst1 /\
    shortest es w /\ (shortest es bs -> w = bs).
Proof. exact (copying es bs src dst tl out). Qed.
Print Assumptions C24_copying_elements.

(** A blob of which the caller consumed [k] bytes: [p] is the rest. *)
Theorem C24_partially_consumed_blob src dst p tl out t len k po dp :
  sch src = [] -> s_pos src <= s_blob_end src <= U64_MAX -> s_commit src = Some CSkipBlob ->
  unread src = p ++ tl -> s_blob_end src - s_pos src = lenN p ->
  len = k + lenN p -> 0 < k -> tag_ok t ->
  appending dst out -> no_open_blob dst -> s_pos dst + len + 11 <= U64_MAX ->
  exists src1 dst1 h, write_field (mkField t po dp (HBlob len)) (src, dst) = (ROk tt, (src1, dst1)) /\
    hdr_enc (HdField t (HvBlob len)) h /\ appending dst1 (out ++ h ++ p) /\
    forall op c, finishes_blob dst1 c -> call_run op c dst1 = (RErr (SIncompleteBlob k), dst1).
Proof. exact (copy_partial' src dst p tl out t len k po dp). Qed.
Print Assumptions C24_partially_consumed_blob.

(** A struct holding a blob with a denormalised length, padding, an
    exception and an end of document, copied and normalised. *)
Example C24_instance :
  let bs := [0xC1; 0x85; 0x82; 0x00; 11; 12; 0xC0; 0x00; 0x80; 1; 9; 0x40] in
  let src := new_stream true false (mkDev (bs ++ [0x41]) 0 []) in
  let dst := new_stream true false (mkDev [0x7F] 1 []) in
  elems_enc [DField 1 DStructV; DField 5 (DBlobV [11; 12]); DPad; DEnd; DExc [9]; DEof] bs /\
  positioned src (bs ++ [0x41]) /\ appending dst [0x7F] /\ no_open_blob dst /\
  match copy_elems 6 (src, dst) with
  | (ROk tt, (_, d)) => d_data (s_dev d) = [0x7F; 0xC1; 0x85; 0x02; 11; 12; 0xC0; 0x00; 0x80; 1; 9; 0x40]
  | _ => False
  end.
Proof.
  cbv zeta. split.
  { apply (EncCons _ _ [0xC1]). { exists [0xC1]. split; [apply (EncStruct 1); unfold tag_ok; lia|split; [constructor|reflexivity]]. }
    apply (EncCons _ _ [0x85; 0x82; 0x00; 11; 12]).
    { exists [0x85; 0x82; 0x00]. split; [|split; [repeat constructor|reflexivity]].
      apply (EncBlob 5 2 [0x82; 0x00]); [unfold tag_ok; lia| |repeat constructor].
      split; [exists [0x82], 0; repeat split; repeat constructor; unfold cont_byte, final_byte; lia|repeat split; vm_compute; congruence]. }
    apply (EncCons _ _ [0xC0]). { exists [0xC0]. split; [constructor|split; [constructor|reflexivity]]. }
    apply (EncCons _ _ [0x00]). { exists [0x00]. split; [constructor|split; [constructor|reflexivity]]. }
    apply (EncCons _ _ [0x80; 1; 9]).
    { exists [0x80; 1]. split; [|split; [repeat constructor|reflexivity]]. apply (EncExc 1 [1]); [|repeat constructor].
      split; [exists [], 1; repeat split; repeat constructor; unfold cont_byte, final_byte; lia|repeat split; vm_compute; congruence]. }
    apply (EncCons _ _ [0x40]). { exists [0x40]. split; [constructor|split; [constructor|reflexivity]]. }
    constructor. }
  split.
  { split; [constructor; [reflexivity|repeat constructor|vm_compute; discriminate|now left]|].
    repeat split; vm_compute; congruence. }
  split; [reflexivity|]. split; [now left|]. vm_compute. reflexivity.
Qed.

(** ** C26.  With debug assertions every [write_*] method with an invalid
    tag panics and writes nothing (a pre-sized blob that does not fit the
    64-bit position space is refused with an error before that). *)
Theorem C26_invalid_tags_partial s t op c :
  s_dbg s = true -> ~ tag_ok t -> no_open_blob s -> s_pos s <= U64_MAX -> tagged_write t c ->
  exists r s', call_run op c s = (r, s') /\ s_dev s' = s_dev s /\ s_pos s' = s_pos s /\
    (r = RPanic \/ (r = RErr (SIo IoOther) /\ exists len, U64_MAX < s_pos s + len + 11 /\
       (c = CWriteBlobAlloc t len \/ exists bs, len = lenN bs /\ c = CWriteBlobData t bs))).
Proof. exact (bad_tag_panics s t op c). Qed.
Print Assumptions C26_invalid_tags_partial.

(** Without them the claim is false: an invalid tag writes a different
    element, here an end of document instead of a field. *)
Theorem C26_release_build_refuted : exists s, s_dbg s = false /\ no_open_blob s /\ ~ tag_ok 0 /\
  (exists s', write_struct 0 s = (ROk tt, s') /\ d_data (s_dev s') = d_data (s_dev s) ++ [0xC0]) /\
  exists s', write_u64 64 5 s = (ROk tt, s') /\ d_data (s_dev s') = d_data (s_dev s) ++ [0x40; 5].
Proof. exact release_tags. Qed.
Print Assumptions C26_release_build_refuted.

Example C26_instance :
  let s := new_stream true false (mkDev [] 0 []) in
  s_dbg s = true /\ ~ tag_ok 64 /\ no_open_blob s /\ tagged_write 64 (CWriteU64 64 5) /\
  fst (call_run ONone (CWriteU64 64 5) s) = RPanic.
Proof. repeat split; try reflexivity; [unfold tag_ok; lia|now left|constructor]. Qed.

(** ** C50 *)
Theorem C50_reset_pos s p : rinv s -> pend s <= lenN (unread s) ->
  exists s', reset_pos p s = (ROk tt, s') /\ s_pos s' = p /\ unread s' = dropN (pend s) (unread s) /\
    s_depth s' = s_depth s /\ s_eof s' = s_eof s /\ s_graceful s' = s_graceful s /\ pend s' = 0 /\ rinv s'.
Proof. exact (reset_pos_ok s p). Qed.
Print Assumptions C50_reset_pos.

Theorem C50_seek s w : rinv s -> pend s <= lenN (unread s) ->
  let t := seek_target s w in
  if ((0 <=? t) && (t <=? Z.of_N U64_MAX))%Z then
    exists s', st_seek w s = (ROk (Z.to_N t), s') /\ s_pos s' = Z.to_N t /\ d_pos (s_dev s') = Z.to_N t /\
      d_data (s_dev s') = d_data (s_dev s) /\ s_depth s' = 0 /\ s_eof s' = s_eof s /\
      s_graceful s' = s_graceful s /\ pend s' = 0 /\ rinv s'
  else exists s', st_seek w s = (RErr (SIo IoInvalidInput), s').
Proof. exact (st_seek_ok s w). Qed.
Print Assumptions C50_seek.

(** Remember the position and depth, read on, go back, read again. *)
Theorem C50_reading_again s0 n es s1 :
  rinv s0 -> s_commit s0 = None -> s_eof s0 = false -> s_pos s0 = d_pos (s_dev s0) -> s_pos s0 <= U64_MAX ->
  s_depth s0 + 2 * N.of_nat n + 1 < U64_MAX ->
  next_elements n s0 = (ROk es, s1) -> s_eof s1 = false -> pend s1 <= lenN (unread s1) ->
  exists s2, (st_seek (SkStart (s_pos s0)) ;; set_struct_depth (s_depth s0) ;; next_elements n) s1 = (ROk es, s2).
Proof. exact (reread s0 n es s1). Qed.
Print Assumptions C50_reading_again.

Definition c50_stream : stream := new_stream true true (mkDev [0xC1; 0x82; 2; 7; 7; 0x43; 9; 0x00] 0 []).
Example C50_instance :
  let s0 := snd (next_element c50_stream) in
  rinv s0 /\ s_commit s0 = None /\ s_eof s0 = false /\ s_pos s0 = 1 /\ d_pos (s_dev s0) = 1 /\ s_depth s0 = 2 /\
  exists s1, next_elements 3 s0 =
    (ROk [ElField (mkField 2 1 2 (HBlob 2)); ElField (mkField 3 5 2 (HInt 9)); ElEndOfStruct], s1) /\
    s_eof s1 = false /\ pend s1 <= lenN (unread s1) /\
    fst ((st_seek (SkStart 1) ;; set_struct_depth 2 ;; next_elements 2) s1) =
      ROk [ElField (mkField 2 1 2 (HBlob 2)); ElField (mkField 3 5 2 (HInt 9))].
Proof.
  cbv zeta. split; [constructor; [reflexivity|repeat constructor|vm_compute; discriminate|now left]|].
  do 5 (split; [vm_compute; reflexivity|]). eexists. split; [vm_compute; reflexivity|].
  split; [reflexivity|]. split; [vm_compute; discriminate|]. vm_compute. reflexivity.
Qed.
