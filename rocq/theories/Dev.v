(** * Dev: the underlying reader / writer

    The type parameter [R] of [Stream<R>] (src/stream.rs 139-164) is any
    [Read]/[Write]/[Seek] implementation.  The model uses one device that
    behaves like [io::Cursor<Vec<u8>>] / [TransparentCursor] (src/io.rs
    17-95): a byte array and a cursor.  On top of that an adversarial
    *schedule* decides how each single call behaves: a short read or write,
    [ErrorKind::Interrupted], or failure.  An exhausted schedule means calls
    do as much as possible.  Non-seekable readers and plain slices are the
    same device on which only the read functions are called. *)

From Verif Require Import Base Wire.

(** Entries of the schedule: no counterpart in the code; they stand for what the
    [Read]/[Write]/[Seek] impl under src/stream.rs 139-164 may do. *)
Inductive ev :=
| EvShort (c : N)   (* transfer at most [max 1 c] bytes *)
| EvIntr            (* fail with ErrorKind::Interrupted *)
| EvFail.           (* fail with another error *)

(** [io::Cursor<Vec<u8>>], wrapped at src/io.rs 20. *)
Record dev := mkDev { d_data : bytes; d_pos : N; d_sched : list ev }.

(** [io::SeekFrom], as used at src/stream.rs 369-396, 499-506, 1306-1364. *)
Inductive seek_from := SkStart (n : N) | SkEnd (z : Z) | SkCur (z : Z).

(** What the schedule says about the next call wanting [n] bytes.
    Environment; called by the device operations below (src/io.rs 21-54). *)
Definition sched_next (n : N) (d : dev) : res iokind N * list ev :=
  match d_sched d with
  | [] => (ROk n, [])
  | EvShort c :: r => (ROk (N.min n (N.max 1 c)), r)
  | EvIntr :: r => (RErr IoInterrupted, r)
  | EvFail :: r => (RErr IoOther, r)
  end.

(** Bytes of the device from the cursor on.
    As src/io.rs 56-62 without the panic. *)
Definition d_rest (d : dev) : bytes := dropN (d_pos d) (d_data d).

(** [Read::read] into a buffer of [n > 0] bytes ([Cursor::read]).
    src/io.rs 21-26. *)
Definition dev_read (n : N) : M dev iokind bytes := fun d =>
  match sched_next n d with
  | (ROk k, sc) =>
      let bs := takeN k (d_rest d) in
      (ROk bs, mkDev (d_data d) (d_pos d + lenN bs) sc)
  | (RErr e, sc) => (RErr e, mkDev (d_data d) (d_pos d) sc)
  | (RPanic, sc) => (RPanic, d)
  | (RFuel, sc) => (RFuel, d)
  end.

(** Overwrite [data] at [pos] with [bs], filling a gap with zeroes
    ([Cursor<Vec<u8>>::write]; appending to a [Vec] is [pos = len]). *)
Definition put_at (data : bytes) (pos : N) (bs : bytes) : bytes :=
  takeN pos data ++ repeat 0 (N.to_nat (pos - lenN data)) ++ bs
    ++ dropN (pos + lenN bs) data.

(** [Write::write] of a non-empty buffer; returns the number of bytes.
    src/io.rs 39-48. *)
Definition dev_write (bs : bytes) : M dev iokind N := fun d =>
  match sched_next (lenN bs) d with
  | (ROk k, sc) =>
      let w := takeN k bs in
      (ROk (lenN w), mkDev (put_at (d_data d) (d_pos d) w) (d_pos d + lenN w) sc)
  | (RErr e, sc) => (RErr e, mkDev (d_data d) (d_pos d) sc)
  | (RPanic, sc) => (RPanic, d)
  | (RFuel, sc) => (RFuel, d)
  end.

(** [Seek::seek] ([Cursor::seek]): seeking past the end is allowed, seeking
    before the start or beyond [u64::MAX] is [InvalidInput].  A seek uses up
    one schedule entry and fails only if that entry is [EvFail].
    src/io.rs 50-54. *)
Definition dev_seek (w : seek_from) : M dev iokind N := fun d =>
  let sc := tl (d_sched d) in
  match d_sched d with
  | EvFail :: _ => (RErr IoOther, mkDev (d_data d) (d_pos d) sc)
  | _ =>
      let target := match w with
                    | SkStart n => Z.of_N n
                    | SkEnd z => (Z.of_N (lenN (d_data d)) + z)%Z
                    | SkCur z => (Z.of_N (d_pos d) + z)%Z
                    end in
      if (target <? 0)%Z || (Z.of_N U64_MAX <? target)%Z
      then (RErr IoInvalidInput, mkDev (d_data d) (d_pos d) sc)
      else (ROk (Z.to_N target), mkDev (d_data d) (Z.to_N target) sc)
  end.

(** [BufRead::fill_buf]: a non-empty prefix of the rest, unless at EOF;
    does not move the cursor.
    src/io.rs 28-37. *)
Definition dev_fill_buf : M dev iokind bytes := fun d =>
  match sched_next (lenN (d_rest d)) d with
  | (ROk k, sc) => (ROk (takeN k (d_rest d)), mkDev (d_data d) (d_pos d) sc)
  | (RErr e, sc) => (RErr e, mkDev (d_data d) (d_pos d) sc)
  | (RPanic, sc) => (RPanic, d)
  | (RFuel, sc) => (RFuel, d)
  end.

(** ** The standard library's loops

    Default implementations of [Read::read_exact], [Read::read_to_end],
    [Write::write_all] and the loop of [io::copy], over any [read]/[write]
    function of the model.  The buffer sizes std uses in [read_to_end] and
    [io::copy] are not modelled: a request is as large as possible, and all
    ways of splitting it are covered by [EvShort] entries.  Each iteration
    uses up a schedule entry or is one of the last two, which gives the
    fuel. *)
Section Loops.
  Context {S : Type}.
  Variable sched_of : S -> list ev.

  (** std: the default [Read::read_exact]; used at src/wire.rs 19-23. *)
  Fixpoint read_exact_loop (rd : N -> M S iokind bytes) (fuel : nat)
           (acc : bytes) (n : N) : M S iokind bytes := fun s =>
    match fuel with
    | O => (RFuel, s)
    | Datatypes.S f =>
        if n =? 0 then (ROk acc, s)
        else match rd n s with
             | (ROk [], s') => (RErr IoUnexpectedEof, s')
             | (ROk bs, s') => read_exact_loop rd f (acc ++ bs) (n - lenN bs) s'
             | (RErr IoInterrupted, s') => read_exact_loop rd f acc n s'
             | (RErr e, s') => (RErr e, s')
             | (RPanic, s') => (RPanic, s')
             | (RFuel, s') => (RFuel, s')
             end
    end.
  (** std: [Read::read_exact]. *)
  Definition read_exact (rd : N -> M S iokind bytes) (n : N) : M S iokind bytes :=
    fun s => read_exact_loop rd (2 + length (sched_of s)) [] n s.

  (** [read_to_end] through a [Take] of [n] bytes: reads until [n] bytes
      were read or the reader returns 0 bytes. *)
  Fixpoint read_upto_loop (rd : N -> M S iokind bytes) (fuel : nat)
           (acc : bytes) (n : N) : M S iokind bytes := fun s =>
    match fuel with
    | O => (RFuel, s)
    | Datatypes.S f =>
        if n =? 0 then (ROk acc, s)
        else match rd n s with
             | (ROk [], s') => (ROk acc, s')
             | (ROk bs, s') => read_upto_loop rd f (acc ++ bs) (n - lenN bs) s'
             | (RErr IoInterrupted, s') => read_upto_loop rd f acc n s'
             | (RErr e, s') => (RErr e, s')
             | (RPanic, s') => (RPanic, s')
             | (RFuel, s') => (RFuel, s')
             end
    end.
  (** std: [Take::read_to_end]; used at src/stream.rs 364-367, 1159-1182. *)
  Definition read_upto (rd : N -> M S iokind bytes) (n : N) : M S iokind bytes :=
    fun s => read_upto_loop rd (2 + length (sched_of s)) [] n s.

  (** std: the default [Write::write_all]; used at src/wire.rs 154-191, src/stream.rs 810-857. *)
  Fixpoint write_all_loop (wr : bytes -> M S iokind N) (fuel : nat)
           (bs : bytes) : M S iokind unit := fun s =>
    match fuel with
    | O => (RFuel, s)
    | Datatypes.S f =>
        match bs with
        | [] => (ROk tt, s)
        | _ => match wr bs s with
               | (ROk n, s') =>
                   if n =? 0 then (RErr IoWriteZero, s')
                   else write_all_loop wr f (dropN n bs) s'
               | (RErr IoInterrupted, s') => write_all_loop wr f bs s'
               | (RErr e, s') => (RErr e, s')
               | (RPanic, s') => (RPanic, s')
               | (RFuel, s') => (RFuel, s')
               end
        end
    end.
  (** std: [Write::write_all]. *)
  Definition write_all (wr : bytes -> M S iokind N) (bs : bytes) : M S iokind unit :=
    fun s => write_all_loop wr (2 + length (sched_of s)) bs s.
End Loops.
