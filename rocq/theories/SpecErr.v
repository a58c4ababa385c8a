(** * SpecErr: errors that deserialisation may report *)

From Verif Require Import Base Wire Dev Stream Types Prog SpecFormat SpecBlob SpecHist.

(** Of the errors of a stream ([stream::Error], src/stream.rs 32-116), those
    that reading gives rise to.  Excluded are those about writing, [LargeBlob]
    (the limit is reported as [MaxBlobExceeded]) and, of the I/O errors, those
    that are retried ([Interrupted]) or are about writing or seeking. *)
Definition reading_error (x : serr) : Prop :=
  match x with
  | SIo k => k = IoUnexpectedEof \/ k = IoOther
  | SIntegerOverflow | SOverwideInteger | SOutOfRange => True
  | SException msg => lenN msg <= 256
  | STruncatedBlob missing => 0 < missing
  | SUnexpectedType expected actual => expected <> actual
  | SOverlongBlob | SIncompleteBlob _ | SPosBeforeDynBlob | SOverlongDynBlob | SLargeBlob _ _ => False
  end.

Definition possible_error (cf : cfg) (k : ekind) : Prop :=
  match k with
  | KStream x => reading_error x
  | KUnknownField tag _ => cf_ignore cf = false /\ tag_ok tag
  | KTooFew min => 0 < min
  | _ => True
  end.

(** The errors a call that only reads may report: besides those above, those
    about the limit or the position the caller has asked for, and, from a
    single [read] of the underlying device, [Interrupted]. *)
Definition call_error (c : call) (x : serr) : Prop :=
  reading_error x \/
  match c, x with
  | CBlob (BReadFully max), SLargeBlob max' rem => max' = max /\ max < rem
  | (CBlob (BRead _) | CBlob (BFillConsume _)), SIo IoInterrupted => True
  | (CBlob (BSeek _) | CSeek _), SIo IoInvalidInput => True
  | _, _ => False
  end.

(** Every error in the results of the calls is one of these. *)
Definition errors_ok (cs : list call) (rs : list (res serr cval)) : Prop :=
  Forall2 (fun c r => forall x, r = RErr x -> call_error c x) cs rs.
