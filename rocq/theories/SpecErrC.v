(** * SpecErrC: what an error about an unfinished blob is due to *)

From Verif Require Import Base Wire Dev Stream SpecBlob SpecHist.

(** Calls that read, that write a blob of a given length, and that write one
    of a length yet unknown (src/stream.rs 579-660, 805-912, 981-1017). *)
Definition reads_ (c : call) : Prop := match c with CNextElement | CNextField | CSkipUp _ | CSkipField => True | _ => False end.
Definition sizes (c : call) : Prop :=
  match c with CWriteBlobData _ _ | CWriteBlobAlloc _ _ | CWriteExcData _ | CWriteExcAlloc _ => True | _ => False end.
Definition grows_ (c : call) : Prop := match c with CWriteBlobDyn _ | CWriteExcDyn => True | _ => False end.

(** The error of call [c] after the calls [before]: a truncated blob was being
    read, an incomplete one was allocated before, a dynamic one begun before. *)
Definition due (before : list call) (c : call) (x : serr) : Prop :=
  match x with
  | STruncatedBlob _ => Exists reads_ (c :: before)
  | SIncompleteBlob _ => Exists sizes before
  | SPosBeforeDynBlob | SOverlongDynBlob => Exists grows_ before
  | _ => True
  end.
(** All errors of a history but those of operations on blobs themselves are
    due to something before. *)
Fixpoint all_due (before cs : list call) (rs : list (res serr cval)) : Prop :=
  match cs, rs with
  | c :: cs', r :: rs' =>
      (match c with CBlob _ => True | _ => forall x, r = RErr x -> due before c x end) /\ all_due (c :: before) cs' rs'
  | _, _ => True
  end.
