(** * SpecBlob: a blob is a window of fixed size with a cursor

    [bop] lists the operations of a [Blob]; [bop_run] is the model's program
    for each, [bop_spec] what it should do to an array of bytes [c] with a
    cursor [k], nothing else being visible. *)

From Verif Require Import Base Wire Dev Stream.

Inductive bop :=
| BRead (n : N)              (* Read::read *)
| BReadExact (n : N)         (* Read::read_exact *)
| BReadFully (max : N)       (* read_fully *)
| BReadTrunc (max : N)       (* read_or_trunc *)
| BFillConsume (n : N)       (* BufRead: fill_buf, then consume up to [n] of it *)
| BSlice                     (* slice *)
| BWrite (bs : bytes)        (* Write::write *)
| BWriteAll (bs : bytes)     (* Write::write_all *)
| BSliceMut (new : bytes)    (* slice_mut, overwritten by [new] *)
| BSeek (w : seek_from)      (* Seek::seek *)
| BPos.                      (* remaining, start_pos, end_pos, inner_pos, stream_pos *)

Inductive bval :=
| BBytes (bs : bytes) | BNum (n : N) | BUnit
| BPoss (remaining start_pos end_pos inner_pos stream_pos : N).

(** The calls, on a blob of length [len]. *)
Definition bop_run (len : N) (o : bop) : SM bval :=
  match o with
  | BRead n => let* b := lift_io (b_read n) in mret (BBytes b)
  | BReadExact n => let* b := lift_io (b_read_exact n) in mret (BBytes b)
  | BReadFully n => let* b := b_read_fully n in mret (BBytes b)
  | BReadTrunc n => let* b := b_read_or_trunc n in mret (BBytes b)
  | BFillConsume n =>
      let* b := lift_io b_fill_buf in
      lift_io (b_consume (N.min n (lenN b))) ;; mret (BBytes b)
  | BSlice => let* b := b_slice in mret (BBytes b)
  | BWrite bs => let* n := lift_io (b_write bs) in mret (BNum n)
  | BWriteAll bs => lift_io (b_write_all bs) ;; mret BUnit
  | BSliceMut new => b_slice_mut_set new ;; mret BUnit
  | BSeek w => let* n := lift_io (b_seek len w) in mret (BNum n)
  | BPos =>
      let* r := b_remaining in
      let* st := b_start_pos len in
      let* ip := b_inner_pos len in
      let* s := mget in
      mret (BPoss r st (b_end_pos s) ip (b_stream_pos s))
  end.

(** Overwrite part of an array, cutting off what does not fit. *)
Definition patch (c : bytes) (k : N) (w : bytes) : bytes :=
  takeN (lenN c) (takeN k c ++ w ++ dropN (k + lenN w) c).

(** Where a seek would go. *)
Definition seek_to (len k : N) (w : seek_from) : Z :=
  match w with
  | SkStart p => Z.of_N p
  | SkEnd z => Z.of_N len + z
  | SkCur z => Z.of_N k + z
  end.

(** [p0] is the stream offset of the blob's first byte. *)
Definition bop_spec (p0 : N) (o : bop) (c : bytes) (k : N) : res serr bval * (bytes * N) :=
  let rem := lenN c - k in
  let upto n := (ROk (BBytes (takeN n (dropN k c))), (c, k + N.min n rem)) in
  match o with
  | BRead n => upto n
  | BReadTrunc n => upto n
  | BReadExact n => if n <=? rem then upto n else (RErr (SIo IoUnexpectedEof), (c, lenN c))
  | BReadFully max => if rem <=? max then (ROk (BBytes (dropN k c)), (c, lenN c))
                      else (RErr (SLargeBlob max rem), (c, k))
  | BFillConsume n => (ROk (BBytes (dropN k c)), (c, k + N.min n rem))
  | BSlice => (ROk (BBytes (dropN k c)), (c, k))
  | BWrite bs => (ROk (BNum (N.min (lenN bs) rem)), (patch c k bs, k + N.min (lenN bs) rem))
  | BWriteAll bs => (if lenN bs <=? rem then ROk BUnit else RErr (SIo IoWriteZero),
                     (patch c k bs, k + N.min (lenN bs) rem))
  | BSliceMut new => (ROk BUnit, (if lenN new =? rem then patch c k new else c, k))
  | BSeek w =>
      let t := seek_to (lenN c) k w in
      if ((0 <=? t) && (t <=? Z.of_N (lenN c)))%Z
      then (ROk (BNum (Z.to_N t)), (c, Z.to_N t))
      else (RErr (SIo IoInvalidInput), (c, k))
  | BPos => (ROk (BPoss rem p0 (p0 + lenN c) k (p0 + k)), (c, k))
  end.

(** Run operations in sequence, continuing after errors, and collect the
    outcomes. *)
Fixpoint bops_run (len : N) (os : list bop) (s : stream) : list (res serr bval) * stream :=
  match os with
  | [] => ([], s)
  | o :: r => let '(x, s1) := bop_run len o s in
              let '(xs, s2) := bops_run len r s1 in (x :: xs, s2)
  end.
Fixpoint bops_spec (p0 : N) (os : list bop) (c : bytes) (k : N) : list (res serr bval) * (bytes * N) :=
  match os with
  | [] => ([], (c, k))
  | o :: r => let '(x, (c1, k1)) := bop_spec p0 o c k in
              let '(xs, ck) := bops_spec p0 r c1 k1 in (x :: xs, ck)
  end.

(** Arguments are representable: [u64], [i64] other than [i64::MIN]. *)
Definition seek_ok (w : seek_from) : Prop :=
  match w with
  | SkStart n => n <= U64_MAX
  | SkEnd z | SkCur z => (- Z.of_N I64_MAX <= z <= Z.of_N I64_MAX)%Z
  end.
Definition bop_ok (o : bop) : Prop :=
  match o with
  | BSeek w => seek_ok w
  | _ => True
  end.
Definition read_only (o : bop) : Prop :=
  match o with BWrite _ | BWriteAll _ | BSliceMut _ => False | _ => True end.

(** The stream [s] has a blob with content [c] open, starting at stream
    offset [p0] and cursor [k] in it; the device holds [pre] before and
    [post] after it. *)
Record blob_at (s : stream) (pre c post : bytes) (p0 k : N) : Prop := {
  ba_sched : sch s = [];
  ba_data : d_data (s_dev s) = pre ++ c ++ post;
  ba_dpos : d_pos (s_dev s) = lenN pre + k;
  ba_pos : s_pos s = p0 + k;
  ba_end : s_blob_end s = p0 + lenN c;
  ba_k : k <= lenN c;
  ba_len : lenN c <= I64_MAX;
  ba_dlen : lenN (pre ++ c ++ post) <= U64_MAX;
  ba_plen : p0 + lenN c + lenN post <= U64_MAX
}.
(** Everything except the device and the position is the same. *)
Definition same_rest (s s' : stream) : Prop :=
  s_eof s' = s_eof s /\ s_blob_end s' = s_blob_end s /\ s_dyn_start s' = s_dyn_start s /\
  s_depth s' = s_depth s /\ s_graceful s' = s_graceful s /\ s_seek s' = s_seek s /\
  s_commit s' = s_commit s /\ s_dbg s' = s_dbg s.
