(** * SpecErrW: the errors each call may report *)

From Verif Require Import Base Wire Dev Stream SpecBlob SpecHist SpecErr.

(** The errors of ending a blob, which is what most calls do first: the device
    fails or there is no room, the blob being read is cut off, the blob being
    written is not filled, or is dynamic and the position is before it or it
    is longer than [i64::MAX]; with those of writing a few bytes. *)
Definition closing_error (x : serr) : Prop :=
  match x with
  | SIo k => k = IoOther
  | STruncatedBlob missing => 0 < missing
  | SIncompleteBlob missing => 0 < missing
  | SPosBeforeDynBlob | SOverlongDynBlob => True
  | _ => False
  end.

(** An I/O error of one of the kinds given (`Error::Io`, src/stream.rs 45-100). *)
Definition io_error (ks : list iokind) (x : serr) : Prop := exists k, In k ks /\ x = SIo k.

(** The errors of the operations on a `Blob` (src/stream.rs 1104-1332). *)
Definition blob_error (o : bop) (x : serr) : Prop :=
  match o with
  | BRead _ | BFillConsume _ | BWrite _ => io_error [IoOther; IoInterrupted] x
  | BReadExact _ => io_error [IoOther; IoUnexpectedEof] x
  | BReadTrunc _ => io_error [IoOther] x
  | BReadFully max => io_error [IoOther] x \/ exists rem, x = SLargeBlob max rem /\ max < rem
  | BSlice | BSliceMut _ => exists missing, x = STruncatedBlob missing /\ 0 < missing
  | BWriteAll _ => io_error [IoOther; IoWriteZero] x
  | BSeek _ => io_error [IoOther; IoInvalidInput] x
  | BPos => False
  end.

(** `Error::OverlongBlob`, only for a blob whose length leaves no room for its
    descriptor below 2^64 (src/stream.rs 45-100). *)
Definition overlong_error (len : N) (x : serr) : Prop := x = SOverlongBlob /\ U64_MAX - 11 < len.

(** The errors each call of the API may report. *)
Definition proper_error (c : call) (x : serr) : Prop :=
  match c with
  | CNextElement | CSkipUp _ | CSkipField =>
      closing_error x \/ io_error [IoUnexpectedEof] x \/ x = SIntegerOverflow \/ x = SOverwideInteger
  | CNextField =>
      closing_error x \/ io_error [IoUnexpectedEof] x \/ x = SIntegerOverflow \/ x = SOverwideInteger \/
      exists msg, x = SException msg /\ lenN msg <= 256
  | CSeek _ => closing_error x \/ io_error [IoInvalidInput] x
  | CClearEof | CGraceful _ | CStructDepth _ => False
  | CWriteBlobData _ bs | CWriteExcData bs => closing_error x \/ overlong_error (lenN bs) x
  | CWriteBlobAlloc _ len | CWriteExcAlloc len => closing_error x \/ overlong_error len x
  | CCommit | CResetPos _ | CWriteU64 _ _ | CWriteSint _ _ | CWriteBlobDyn _ | CWriteExcDyn | CWriteStruct _
  | CWriteEnum _ _ | CWriteEnd | CWriteEndDoc | CWritePad | CPadAlign _ => closing_error x
  | CBlob o => blob_error o x
  end.

(** [reset_pos] lets the caller declare any position; the claims are about
    histories without it. *)
Definition no_reset (c : call) : Prop := match c with CResetPos _ => False | _ => True end.

(** Every error in the results of a history is proper for its call. *)
Definition proper_results (cs : list call) (rs : list (res serr cval)) : Prop :=
  Forall2 (fun c r => forall x, r = RErr x -> proper_error c x) cs rs.
