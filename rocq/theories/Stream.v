(** * Stream: model of src/stream.rs (and of the cursor slicing of src/io.rs) *)

From Verif Require Import Base Wire Dev.

(** The functions stored in [Stream::commit] (src/stream.rs 161-163). *)
Inductive commit_fn := CSkipBlob | CCheckEnd | CFinishDyn.

(** [Stream<R>], src/stream.rs 139-164.  [s_seek] is whether a seek function
    is stored ([new_seek]/[from_slice] versus [new]).  [s_dbg] is not a field
    of the Rust struct: it records whether the crate is compiled with
    overflow checks and debug assertions. *)
Record stream := mkS {
  s_dev : dev;
  s_pos : N;
  s_eof : bool;
  s_blob_end : N;
  s_dyn_start : N;
  s_depth : N;
  s_graceful : bool;
  s_seek : bool;
  s_commit : option commit_fn;
  s_dbg : bool
}.

(** Record update of a field of [Stream], src/stream.rs 139-164 (an assignment in Rust). *)
Definition set_dev d s := mkS d (s_pos s) (s_eof s) (s_blob_end s) (s_dyn_start s)
  (s_depth s) (s_graceful s) (s_seek s) (s_commit s) (s_dbg s).
(** Record update of a field of [Stream], src/stream.rs 139-164 (an assignment in Rust). *)
Definition set_pos_ p s := mkS (s_dev s) p (s_eof s) (s_blob_end s) (s_dyn_start s)
  (s_depth s) (s_graceful s) (s_seek s) (s_commit s) (s_dbg s).
(** Record update of a field of [Stream], src/stream.rs 139-164 (an assignment in Rust). *)
Definition set_eof_ b s := mkS (s_dev s) (s_pos s) b (s_blob_end s) (s_dyn_start s)
  (s_depth s) (s_graceful s) (s_seek s) (s_commit s) (s_dbg s).
(** Record update of a field of [Stream], src/stream.rs 139-164 (an assignment in Rust). *)
Definition set_blob_end b s := mkS (s_dev s) (s_pos s) (s_eof s) b (s_dyn_start s)
  (s_depth s) (s_graceful s) (s_seek s) (s_commit s) (s_dbg s).
(** Record update of a field of [Stream], src/stream.rs 139-164 (an assignment in Rust). *)
Definition set_dyn_start b s := mkS (s_dev s) (s_pos s) (s_eof s) (s_blob_end s) b
  (s_depth s) (s_graceful s) (s_seek s) (s_commit s) (s_dbg s).
(** Record update of a field of [Stream], src/stream.rs 139-164 (an assignment in Rust). *)
Definition set_depth_ d s := mkS (s_dev s) (s_pos s) (s_eof s) (s_blob_end s)
  (s_dyn_start s) d (s_graceful s) (s_seek s) (s_commit s) (s_dbg s).
(** Record update of a field of [Stream], src/stream.rs 139-164 (an assignment in Rust). *)
Definition set_graceful_ b s := mkS (s_dev s) (s_pos s) (s_eof s) (s_blob_end s)
  (s_dyn_start s) (s_depth s) b (s_seek s) (s_commit s) (s_dbg s).
(** Record update of a field of [Stream], src/stream.rs 139-164 (an assignment in Rust). *)
Definition set_commit c s := mkS (s_dev s) (s_pos s) (s_eof s) (s_blob_end s)
  (s_dyn_start s) (s_depth s) (s_graceful s) (s_seek s) c (s_dbg s).

(** [Stream::new] / [Stream::new_seek], src/stream.rs 330-362. *)
Definition new_stream (dbg seek : bool) (d : dev) : stream :=
  mkS d 0 false 0 0 0 false seek None dbg.

(** [Stream::from_slice], src/stream.rs 306-308. *)
Definition from_slice (dbg : bool) (bs : bytes) : stream :=
  new_stream dbg true (mkDev bs 0 []).

(** [stream::Result] in a method with [&mut self], src/stream.rs 118-121. *)
Definition SM A := M stream serr A.      (* functions returning stream::Result *)
(** [io::Result] in a method with [&mut self]. *)
Definition IM A := M stream iokind A.    (* functions returning io::Result *)

(** [From<io::Error> for Error] at the [?] operator, src/stream.rs 34-38. *)
Definition lift_io {A} (m : IM A) : SM A := fun s =>
  match m s with
  | (ROk a, s') => (ROk a, s')
  | (RErr k, s') => (RErr (SIo k), s')
  | (RPanic, s') => (RPanic, s')
  | (RFuel, s') => (RFuel, s')
  end.

(** Run a device operation on the stream's device.
    [self.inner], src/stream.rs 140. *)
Definition on_dev {A} (m : M dev iokind A) : IM A := fun s =>
  let '(r, d) := m (s_dev s) in (r, set_dev d s).

(** [check_advance_pos], src/stream.rs 249-257, 584-586. *)
Definition check_advance_pos (n : N) : IM unit := fun s =>
  if U64_MAX - s_pos s <? n then (RErr IoOther, s) else (ROk tt, s).

(** ** StreamTracker, src/stream.rs 259-300

    The additions [self.0.pos += n] cannot overflow because of the check
    directly above them ([n] is at most the buffer length checked). *)

(** [StreamTracker::read]; [g] is the second field of the tracker
    ([track(graceful)] already conjoined with [self.graceful_eof]).
    src/stream.rs 262-275. *)
Definition t_read (g : bool) (n : N) : IM bytes :=
  if n =? 0 then mret []
  else
    check_advance_pos n ;;
    let* bs := on_dev (dev_read n) in
    mmod (fun s => set_pos_ (s_pos s + lenN bs) s) ;;
    match bs with
    | [] => if g then mret [stype_code SpEndOfDoc] else mret []
    | _ => mret bs
    end.

(** [StreamTracker::write].
    src/stream.rs 288-295. *)
Definition t_write (bs : bytes) : IM N :=
  match bs with
  | [] => mret 0
  | _ =>
      check_advance_pos (lenN bs) ;;
      let* n := on_dev (dev_write bs) in
      mmod (fun s => set_pos_ (s_pos s + n) s) ;;
      mret n
  end.

(** The schedule of the device under [self.inner], src/stream.rs 140. *)
Definition sch (s : stream) : list ev := d_sched (s_dev s).

(** [wire::read_byte] through [self.track(g)]: [read_exact] of one byte,
    src/wire.rs 19-23. *)
Definition s_read_byte (g : bool) : SM N :=
  lift_io (let* bs := read_exact sch (t_read g) 1 in
           match bs with
           | b :: _ => mret b
           | [] => mpanic
           end).

(** [wire::decode_u64(&mut self.track(false))]. *)
Definition s_decode_u64 : SM N := decode_u64 (s_read_byte false).

(** ** Skipping, src/stream.rs 364-396 *)

(** src/stream.rs 364-367. *)
Definition skip_by_discard (n : N) : SM N :=
  lift_io (let* bs := read_upto sch (t_read false) n in mret (lenN bs)).

(** The direct branch of [skip_by_seek], src/stream.rs 385-394. *)
Definition skip_by_seek_direct (n : N) : SM N :=
  lift_io (check_advance_pos n) ;;
  fun s =>
    match on_dev (dev_seek (SkCur (Z.of_N n))) s with
    | (ROk _, s') => (ROk n, set_pos_ (s_pos s' + n) s')
    | (RErr _, s') => skip_by_discard n s'
    | (RPanic, s') => (RPanic, s')
    | (RFuel, s') => (RFuel, s')
    end.

(** [skip_by_seek], src/stream.rs 369-396; a [u64] needs at most three
    pieces, so four levels of recursion suffice. *)
Fixpoint skip_by_seek_rec (fuel : nat) (n : N) : SM N :=
  match fuel with
  | O => fun s => (RFuel, s)
  | S f =>
      if I64_MAX <? n then
        let* first := skip_by_seek_rec f I64_MAX in
        if first <? I64_MAX then mret first
        else
          let* second := skip_by_seek_rec f (n - first) in
          mret (first + second)
      else skip_by_seek_direct n
  end.
(** src/stream.rs 369-396. *)
Definition skip_by_seek (n : N) : SM N := skip_by_seek_rec 4 n.

(** [skip_blob], src/stream.rs 742-756. *)
Definition skip_blob : SM unit := fun s =>
  if s_pos s <? s_blob_end s then
    let n := s_blob_end s - s_pos s in
    (let* skipped := (if s_seek s then skip_by_seek n else skip_by_discard n) in
     if skipped <? n then mfail (STruncatedBlob (n - skipped)) else mret tt) s
  else (ROk tt, s).

(** [check_at_end_of_blob], src/stream.rs 859-865. *)
Definition check_at_end_of_blob : SM unit := fun s =>
  if s_pos s =? s_blob_end s then (ROk tt, s)
  else match u64_sub (E := serr) (s_dbg s) (s_blob_end s) (s_pos s) with
       | ROk n => (RErr (SIncompleteBlob n), s)
       | _ => (RPanic, s)
       end.

(** [finish_dynamic_blob], src/stream.rs 914-934. *)
Definition finish_dynamic_blob : SM unit := fun s =>
  let blob_start := s_dyn_start s in
  let blob_end := s_pos s in
  if s_pos s <? blob_start then (RErr SPosBeforeDynBlob, s)
  else
    (let* header := mres (u64_sub (s_dbg s) blob_start 10) in
     let* displacement := mres (u64_sub (s_dbg s) blob_end header) in
     if I64_MAX <? displacement then mfail SOverlongDynBlob
     else
       lift_io (on_dev (dev_seek (SkCur (- Z.of_N displacement)))) ;;
       (* guarded: displacement <= pos *)
       mmod (fun s => set_pos_ (s_pos s - displacement) s) ;;
       lift_io (write_all sch t_write (encode_fixed_u64 (blob_end - blob_start))) ;;
       lift_io (on_dev (dev_seek (SkCur (Z.of_N (blob_end - blob_start))))) ;;
       mmod (set_pos_ blob_end)) s.

(** [commit], src/stream.rs 406-412: on failure the pending operation
    stays. *)
Definition commit : SM unit := fun s =>
  match s_commit s with
  | None => (ROk tt, s)
  | Some f =>
      (match f with
       | CSkipBlob => skip_blob
       | CCheckEnd => check_at_end_of_blob
       | CFinishDyn => finish_dynamic_blob
       end ;; mmod (set_commit None)) s
  end.

(** ** Position handling, src/stream.rs 448-577 *)

Definition st_pos (s : stream) : N := s_pos s.
(** src/stream.rs 463-465. *)
Definition set_pos (p : N) : SM unit := mmod (set_pos_ p).

(** [reset_pos], src/stream.rs 472-478. *)
Definition reset_pos (p : N) : SM unit :=
  commit ;;
  mmod (set_blob_end 0) ;; mmod (set_dyn_start 0) ;; mmod (set_pos_ p).

(** [seek], src/stream.rs 499-506. *)
Definition st_seek (w : seek_from) : SM N :=
  commit ;;
  let* off := lift_io (on_dev (dev_seek w)) in
  reset_pos off ;;
  mmod (set_depth_ 0) ;;
  mret off.

(** src/stream.rs 517-519. *)
Definition clear_eof : SM unit := mmod (set_eof_ false).
(** src/stream.rs 542-544. *)
Definition set_graceful_eof (b : bool) : SM unit := mmod (set_graceful_ b).
(** src/stream.rs 575-577. *)
Definition set_struct_depth (d : N) : SM unit := mmod (set_depth_ d).

(** ** Elements, src/stream.rs 166-242

    The blob and stream references inside [Element]/[Field]/[Value] are not
    values of the model: they are the stream itself, which the blob
    functions below take as state; only the data part is kept. *)
Inductive vhdr :=
| HInt (n : N)
| HBlob (len : N)
| HStruct
| HEnum (disc : N).
(** src/stream.rs 186-202. *)
Record field := mkField { f_tag : N; f_pos : N; f_depth : N; f_val : vhdr }.
(** src/stream.rs 168-182. *)
Inductive element :=
| ElField (f : field)
| ElEndOfStruct
| ElEndOfDoc
| ElException (len : N)
| ElPadding.

(** [next_blob], src/stream.rs 729-740; [self.pos + len] is guarded by the
    check above it. *)
Definition next_blob : SM N :=
  let* len := s_decode_u64 in
  lift_io (check_advance_pos len) ;;
  mmod (fun s => set_blob_end (s_pos s + len) s) ;;
  mmod (set_commit (Some CSkipBlob)) ;;
  mret len.

(** [self.struct_depth += 1]. *)
Definition incr_depth : SM unit := fun s =>
  match u64_add (E := serr) (s_dbg s) (s_depth s) 1 with
  | ROk d => (ROk tt, set_depth_ d s)
  | _ => (RPanic, s)
  end.

(** [next_value], src/stream.rs 710-727. *)
Definition next_value (t : dtype) : SM vhdr :=
  match t with
  | DInteger => let* n := s_decode_u64 in mret (HInt n)
  | DBlob => let* len := next_blob in mret (HBlob len)
  | DStruct => incr_depth ;; mret HStruct
  | DEnum => let* d := s_decode_u64 in incr_depth ;; mret (HEnum d)
  end.

(** One iteration of the loop of [next_element_impl], src/stream.rs
    668-707.  [inl tt] is [continue]. *)
Definition next_element_step (skip_padding : bool) (_ : unit)
  : SM (unit + element) :=
  let* s0 := mget in
  let offset := s_pos s0 in
  let* b := s_read_byte (s_graceful s0) in
  match parse_desc b with
  | None => mpanic     (* unreachable!() in DescriptorType/SpecialType::from_u8 *)
  | Some (PPair ty tag) =>
      mmod (fun s => if s_depth s =? 0 then set_depth_ 1 s else s) ;;
      let* s1 := mget in
      let depth := s_depth s1 in
      let* v := next_value ty in
      mret (inr (ElField (mkField tag offset depth v)))
  | Some (PSpecial SpEndOfStruct) =>
      mmod (fun s => if 0 <? s_depth s then set_depth_ (s_depth s - 1) s else s) ;;
      mret (inr ElEndOfStruct)
  | Some (PSpecial SpEndOfDoc) =>
      mmod (set_eof_ true) ;; mmod (set_depth_ 0) ;; mret (inr ElEndOfDoc)
  | Some (PSpecial SpException) =>
      let* len := next_blob in mret (inr (ElException len))
  | Some (PSpecial SpPadding) =>
      if skip_padding then mret (inl tt) else mret (inr ElPadding)
  end.

(** [next_element_impl], src/stream.rs 659-708. *)
Definition next_element_impl (skip_padding : bool) : SM element := fun s =>
  if s_eof s then (ROk ElEndOfDoc, s)
  else (commit ;; mloop (next_element_step skip_padding) tt) s.

(** [next_element], src/stream.rs 648-651. *)
Definition next_element : SM element := next_element_impl false.

(** ** Blobs, src/stream.rs 1104-1364.  A blob is its length [len] together
    with the stream it borrows. *)

(** [remaining], 1111-1113. *)
Definition b_remaining {E} : M stream E N := fun s =>
  (u64_sub (s_dbg s) (s_blob_end s) (s_pos s), s).
(** [start_pos], [end_pos], [inner_pos], [stream_pos], 1116-1145. *)
Definition b_start_pos {E} (len : N) : M stream E N := fun s =>
  (u64_sub (s_dbg s) (s_blob_end s) len, s).
(** src/stream.rs 1137-1139. *)
Definition b_end_pos (s : stream) : N := s_blob_end s.
(** src/stream.rs 1116-1118. *)
Definition b_stream_pos (s : stream) : N := s_pos s.
(** src/stream.rs 1143-1145. *)
Definition b_inner_pos {E} (len : N) : M stream E N :=
  let* r := b_remaining in
  fun s => (u64_sub (s_dbg s) len r, s).

(** [Read for Blob], 1262-1279: request at most [remaining] bytes. *)
Definition b_read (n : N) : IM bytes :=
  let* rem := b_remaining in
  if rem =? 0 then mret []
  else t_read false (if rem <? n then rem else n).

(** [Read::read_exact] (default method) on a blob.
    std over src/stream.rs 1263-1278. *)
Definition b_read_exact (n : N) : IM bytes := read_exact sch b_read n.

(** [read_fully], 1159-1168.  [read_to_end] has no bound of its own; the
    request [U64_MAX] is never smaller than what remains. *)
Definition b_read_fully (max : N) : SM bytes :=
  let* rem := b_remaining in
  if max <? rem then mfail (SLargeBlob max rem)
  else lift_io (read_upto sch b_read U64_MAX).

(** [read_or_trunc], 1177-1182. *)
Definition b_read_or_trunc (max : N) : SM bytes :=
  lift_io (read_upto sch b_read max).

(** [TransparentCursor::as_ref] / [as_mut] / [as_ext_bytes], src/io.rs
    56-95: slicing beyond the end panics. *)
Definition as_slice {E} : M stream E bytes := fun s =>
  if lenN (d_data (s_dev s)) <? d_pos (s_dev s) then (RPanic, s)
  else (ROk (d_rest (s_dev s)), s).

(** [slice], 1190-1199 ([slice_mut] 1230-1239 returns the same range). *)
Definition b_slice : SM bytes :=
  let* rem := b_remaining in
  let* inner := as_slice in
  if rem <=? lenN inner then mret (takeN rem inner)
  else mfail (STruncatedBlob (rem - lenN inner)).

(** Using [slice_mut] to overwrite the unconsumed part of the blob by [new]
    (of the same length; the borrowed slice cannot change its length).
    src/stream.rs 1230-1239, src/io.rs 64-70. *)
Definition b_slice_mut_set (new : bytes) : SM unit :=
  let* cur := b_slice in
  if lenN new =? lenN cur then
    mmod (fun s => let d := s_dev s in
                   set_dev (mkDev (put_at (d_data d) (d_pos d) new) (d_pos d)
                                  (d_sched d)) s)
  else mret tt.

(** [ext_slice], 1209-1218.  Note that nothing is consumed. *)
Definition b_ext_slice : SM bytes :=
  let* buf := as_slice in
  let* rem := b_remaining in
  if lenN buf <? rem then mfail (STruncatedBlob (rem - lenN buf))
  else mret (takeN rem buf).

(** [BufRead for Blob], 1281-1291 with [fill_buf_nb] 1094-1102 and
    [StreamTracker::consume] 282-285.  [consume] takes at most what
    [fill_buf] returned (contract of [BufRead]); the model's device panics
    otherwise, as [Cursor] would misbehave. *)
Definition b_fill_buf : IM bytes :=
  let* rem := b_remaining in
  let* buf := on_dev dev_fill_buf in
  check_advance_pos (lenN buf) ;;
  mret (takeN rem buf).
(** src/stream.rs 1287-1290. *)
Definition b_consume (amt : N) : IM unit :=
  let* rem := b_remaining in
  fun s =>
    if s_dbg s && (rem <? amt) then (RPanic, s)
    else
      let d := s_dev s in
      let s' := set_dev (mkDev (d_data d) (d_pos d + amt) (d_sched d)) s in
      match u64_add (E := iokind) (s_dbg s) (s_pos s) amt with
      | ROk p => (ROk tt, set_pos_ p s')
      | _ => (RPanic, s')
      end.

(** [Write for Blob], 1293-1304. *)
Definition b_write (bs : bytes) : IM N :=
  let* rem := b_remaining in
  t_write (takeN rem bs).
(** std over src/stream.rs 1294-1299. *)
Definition b_write_all (bs : bytes) : IM unit := write_all sch b_write bs.

(** [Seek for Blob], 1306-1364. *)
Definition i64_neg {E} (dbg : bool) (z : Z) : res E N :=
  (* [(-off) as u64] for [off <= 0] *)
  if (z =? - 2 ^ 63)%Z then (if dbg then RPanic else ROk (2 ^ 63))
  else ROk (Z.to_N (- z)).

(** src/stream.rs 1308-1352. *)
Definition b_seek_target (len : N) (w : seek_from) : IM N := fun s =>
  (match w with
   | SkStart p =>
       if p <=? len then
         let* st := b_start_pos len in fun s => (u64_add (s_dbg s) st p, s)
       else mfail IoInvalidInput
   | SkEnd off =>
       if (off <=? 0)%Z then
         let* o := mres (i64_neg (s_dbg s) off) in
         if o <=? len then
           let* st := b_start_pos len in
           fun s => (u64_add (s_dbg s) st (len - o), s)
         else mfail IoInvalidInput
       else mfail IoInvalidInput
   | SkCur off =>
       if (off <? 0)%Z then
         let* o := mres (i64_neg (s_dbg s) off) in
         let* ip := b_inner_pos len in
         if o <=? ip then fun s => (u64_sub (s_dbg s) (s_pos s) o, s)
         else mfail IoInvalidInput
       else
         let o := Z.to_N off in
         let* rem := b_remaining in
         if o <=? rem then fun s => (u64_add (s_dbg s) (s_pos s) o, s)
         else mfail IoInvalidInput
   end) s.

(** src/stream.rs 1307-1363. *)
Definition b_seek (len : N) (w : seek_from) : IM N :=
  let* pos := b_seek_target len w in
  (fun s =>
    if pos <? s_pos s then
      let displacement := s_pos s - pos in
      if I64_MAX <? displacement then (RErr IoOther, s)
      else (on_dev (dev_seek (SkCur (- Z.of_N displacement))) ;;
            mmod (fun s => set_pos_ (s_pos s - displacement) s)) s
    else
      let displacement := pos - s_pos s in
      if I64_MAX <? displacement then (RErr IoOther, s)
      else (on_dev (dev_seek (SkCur (Z.of_N displacement))) ;;
            mmod (fun s => set_pos_ (s_pos s + displacement) s)) s) ;;
  b_inner_pos len.

(** ** Reading fields and skipping *)

(** [next_field], src/stream.rs 623-635.  [Padding] is [unreachable!()]. *)
Definition next_field : SM (option field) :=
  let* e := next_element_impl true in
  match e with
  | ElPadding => mpanic
  | ElEndOfStruct | ElEndOfDoc => mret None
  | ElField f => mret (Some f)
  | ElException _ =>
      let* msg := b_read_or_trunc 256 in
      mfail (SException msg)
  end.

(** [skip_up], src/stream.rs 595-601. *)
Definition skip_up (depth : N) : SM unit :=
  mloop (fun _ : unit =>
           let* s := mget in
           if depth <? s_depth s then next_element ;; mret (inl tt)
           else mret (inr tt)) tt.

(** [Field::skip], src/stream.rs 1411-1417. *)
Definition field_skip (f : field) : SM unit :=
  match f_val f with
  | HStruct | HEnum _ => skip_up (f_depth f)
  | HInt _ | HBlob _ => mret tt
  end.

(** ** Integer conversions, src/stream.rs 1366-1503 *)

Definition hdr_fty (v : vhdr) : fty :=
  match v with
  | HInt _ => FInteger | HBlob _ => FBlob | HStruct => FStruct | HEnum _ => FEnum
  end.

(** [to_u8] .. [to_usize] with [$zz = id]; [max] is [$t::MAX]. *)
Definition to_uint (max : N) (v : vhdr) : res serr N :=
  match v with
  | HInt n => if max <? n then RErr SOutOfRange else ROk n
  | _ => RErr (SUnexpectedType FInteger (hdr_fty v))
  end.
(** [to_i8] .. [to_isize] with [$zz = unzigzag]. *)
Definition to_sint (min max : Z) (v : vhdr) : res serr Z :=
  match v with
  | HInt n =>
      let z := unzigzag n in
      if (z <? min)%Z then RErr SOutOfRange
      else if (max <? z)%Z then RErr SOutOfRange
      else ROk z
  | _ => RErr (SUnexpectedType FInteger (hdr_fty v))
  end.
(** [$t::MAX] / [$t::MIN] of the integer type of [w] bits.
    src/stream.rs 1373-1399, upper bound of the unsigned types. *)
Definition umax (w : N) : N := 2 ^ w - 1.
(** src/stream.rs 1373-1399, lower bound of the signed types. *)
Definition smin (w : N) : Z := (- 2 ^ (Z.of_N w - 1))%Z.
(** src/stream.rs 1373-1399, upper bound of the signed types. *)
Definition smax (w : N) : Z := (2 ^ (Z.of_N w - 1) - 1)%Z.

(** [to_null], 1423-1436; [to_bool], 1481-1488. *)
Definition to_null (v : vhdr) : res serr unit :=
  match v with
  | HInt n => if n =? 0 then ROk tt else RErr SOutOfRange
  | _ => RErr (SUnexpectedType FInteger (hdr_fty v))
  end.
(** src/stream.rs 1481-1488. *)
Definition to_bool (v : vhdr) : res serr bool :=
  match to_uint (umax 64) v with
  | ROk n => if n =? 0 then ROk false else if n =? 1 then ROk true
             else RErr SOutOfRange
  | RErr e => RErr e
  | RPanic => RPanic
  | RFuel => RFuel
  end.
(** [to_struct], [to_enum], [to_blob], 1440-1464, 1493-1503. *)
Definition to_struct (v : vhdr) : res serr unit :=
  match v with
  | HStruct => ROk tt | _ => RErr (SUnexpectedType FStruct (hdr_fty v))
  end.
(** src/stream.rs 1454-1464. *)
Definition to_enum (v : vhdr) : res serr N :=
  match v with
  | HEnum d => ROk d | _ => RErr (SUnexpectedType FEnum (hdr_fty v))
  end.
(** src/stream.rs 1493-1503. *)
Definition to_blob (v : vhdr) : res serr N :=
  match v with
  | HBlob len => ROk len | _ => RErr (SUnexpectedType FBlob (hdr_fty v))
  end.

(** ** Writing, src/stream.rs 758-1091 *)

(** [write_desc], 1046-1051. *)
Definition write_desc (d : pdesc) : SM unit :=
  commit ;;
  fun s =>
    (let* b := mres (desc_byte (s_dbg s) d) in
     lift_io (write_all sch t_write [b])) s.

(** [wire::encode_u64(&mut self.track(false), n)]. *)
Definition s_encode_u64 (n : N) : SM unit :=
  match encode_u64 n with
  | Some bs => lift_io (write_all sch t_write bs)
  | None => mpanic
  end.
(** src/wire.rs 179-191 on the stream. *)
Definition s_encode_fixed_u64 (n : N) : SM unit :=
  lift_io (write_all sch t_write (encode_fixed_u64 n)).

(** [write_u64] 773-779, [write_null] 763-766, [write_bool] 796-799 and the
    [write_int!] family 311-326, 781-789 ([write_sint] is the zigzag case). *)
Definition write_u64 (tag n : N) : SM unit :=
  write_desc (PPair DInteger tag) ;; s_encode_u64 n.
(** src/stream.rs 763-766. *)
Definition write_null (tag : N) : SM unit := write_u64 tag 0.
(** src/stream.rs 796-799. *)
Definition write_bool (tag : N) (b : bool) : SM unit :=
  write_u64 tag (if b then 1 else 0).
(** src/stream.rs 311-326, 781-789. *)
Definition write_sint (tag : N) (z : Z) : SM unit := write_u64 tag (zigzag z).

(** [write_desc_with_blob_alloc], 835-857. *)
Definition write_desc_with_blob_alloc (d : pdesc) (len : N) : SM N :=
  commit ;;
  if U64_MAX - 11 <? len then mfail SOverlongBlob
  else
    lift_io (check_advance_pos (len + 11)) ;;
    write_desc d ;;
    s_encode_u64 len ;;
    (fun s => match u64_add (E := serr) (s_dbg s) (s_pos s) len with
              | ROk e => (ROk tt, set_blob_end e s)
              | _ => (RPanic, s)
              end) ;;
    mmod (set_commit (Some CCheckEnd)) ;;
    mret len.
(** [write_blob_alloc] 828-833, [write_exception_alloc] 1000-1005. *)
Definition write_blob_alloc (tag len : N) : SM N :=
  write_desc_with_blob_alloc (PPair DBlob tag) len.
(** src/stream.rs 1000-1005. *)
Definition write_exception_alloc (len : N) : SM N :=
  write_desc_with_blob_alloc (PSpecial SpException) len.
(** [write_blob_data] 810-817, [write_exception_data] 986-993. *)
Definition write_blob_data (tag : N) (data : bytes) : SM N :=
  let* len := write_blob_alloc tag (lenN data) in
  lift_io (b_write_all data) ;; mret len.
(** src/stream.rs 986-993. *)
Definition write_exception_data (data : bytes) : SM N :=
  let* len := write_exception_alloc (lenN data) in
  lift_io (b_write_all data) ;; mret len.

(** [write_desc_with_blob_dynamic], 898-912. *)
Definition write_desc_with_blob_dynamic (d : pdesc) : SM N :=
  write_desc d ;;
  fun s =>
    (let* a := mres (u64_sub (s_dbg s) U64_MAX (s_pos s)) in
     let* len := mres (u64_sub (s_dbg s) a 10) in
     s_encode_fixed_u64 len ;;
     mmod (fun s => set_dyn_start (s_pos s) s) ;;
     (fun s => match u64_add (E := serr) (s_dbg s) (s_pos s) len with
               | ROk e => (ROk tt, set_blob_end e s)
               | _ => (RPanic, s)
               end) ;;
     mmod (set_commit (Some CFinishDyn)) ;;
     mret len) s.
(** [write_blob_dynamic] 892-896, [write_exception_dynamic] 1012-1016. *)
Definition write_blob_dynamic (tag : N) : SM N :=
  write_desc_with_blob_dynamic (PPair DBlob tag).
(** src/stream.rs 1012-1016. *)
Definition write_exception_dynamic : SM N :=
  write_desc_with_blob_dynamic (PSpecial SpException).

(** [write_struct] 945-949, [write_enum] 960-966, [write_end_struct]
    969-973, [write_end_doc] 976-980, [write_padding] 1019-1023. *)
Definition write_struct (tag : N) : SM unit := write_desc (PPair DStruct tag).
(** src/stream.rs 960-966. *)
Definition write_enum (tag d : N) : SM unit :=
  write_desc (PPair DEnum tag) ;; s_encode_u64 d.
(** src/stream.rs 969-973. *)
Definition write_end_struct : SM unit := write_desc (PSpecial SpEndOfStruct).
(** src/stream.rs 976-980. *)
Definition write_end_doc : SM unit := write_desc (PSpecial SpEndOfDoc).
(** src/stream.rs 1019-1023. *)
Definition write_padding : SM unit := write_desc (PSpecial SpPadding).

(** [pad_to_align], 1032-1044.  [align - 1] is a [u64] subtraction. *)
Definition pad_to_align (align : N) : SM unit := fun s =>
  (let* m := mres (u64_sub (s_dbg s) align 1) in
   (if s_dbg s && negb (N.land align m =? 0) then mpanic else mret tt) ;;
   commit ;;
   mloop (fun _ : unit =>
            let* s := mget in
            if N.land (s_pos s) m =? 0 then mret (inr tt)
            else write_padding ;; mret (inl tt)) tt) s.

(** ** Copying between streams, [write_element]/[write_field], 1058-1091

    The state is the pair (source, destination). *)
Definition on_src {E A} (m : M stream E A) : M (stream * stream) E A := fun '(a, b) =>
  let '(r, a') := m a in (r, (a', b)).
(** The state is (source, destination): src/stream.rs 1058-1091 use two streams. *)
Definition on_dst {E A} (m : M stream E A) : M (stream * stream) E A := fun '(a, b) =>
  let '(r, b') := m b in (r, (a, b')).

(** [io::copy(src, &mut dst)]: read, then [write_all] what was read, until
    a read returns nothing; [Interrupted] reads are retried. *)
Fixpoint copy_loop (fuel : nat) : M (stream * stream) iokind unit := fun st =>
  match fuel with
  | O => (RFuel, st)
  | S f =>
      match on_src (b_read U64_MAX) st with
      | (ROk [], st') => (ROk tt, st')
      | (ROk bs, st') => (on_dst (b_write_all bs) ;; copy_loop f) st'
      | (RErr IoInterrupted, st') => copy_loop f st'
      | (RErr e, st') => (RErr e, st')
      | (RPanic, st') => (RPanic, st')
      | (RFuel, st') => (RFuel, st')
      end
  end.
(** [io::copy] at src/stream.rs 1058-1091. *)
Definition copy_blob : M (stream * stream) serr unit := fun st =>
  match copy_loop (2 + length (sch (fst st))) st with
  | (ROk a, st') => (ROk a, st')
  | (RErr k, st') => (RErr (SIo k), st')
  | (RPanic, st') => (RPanic, st')
  | (RFuel, st') => (RFuel, st')
  end.

(** src/stream.rs 1078-1091. *)
Definition write_field (f : field) : M (stream * stream) serr unit :=
  match f_val f with
  | HInt n => on_dst (write_u64 (f_tag f) n)
  | HStruct => on_dst (write_struct (f_tag f))
  | HEnum d => on_dst (write_enum (f_tag f) d)
  | HBlob len => on_dst (write_blob_alloc (f_tag f) len) ;; copy_blob
  end.
(** src/stream.rs 1058-1071. *)
Definition write_element (e : element) : M (stream * stream) serr unit :=
  match e with
  | ElField f => write_field f
  | ElEndOfStruct => on_dst write_end_struct
  | ElEndOfDoc => on_dst write_end_doc
  | ElPadding => on_dst write_padding
  | ElException len => on_dst (write_exception_alloc len) ;; copy_blob
  end.
