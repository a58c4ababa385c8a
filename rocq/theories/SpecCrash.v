(** * SpecCrash: values written one after the other, read back after a crash *)

From Verif Require Import Base Wire Dev Stream Types Ser Prog De SpecFormat SpecStream SpecBlob SpecHist SpecDe SpecDoc SpecSerDe.

(** Read values of the given types one after the other until one cannot be
    read: the values, how it ended, and the stream. *)
Fixpoint read_log (e : env) (zc : bool) (cf : cfg) (ts : list ty) (s : stream) : list value * res derr unit * stream :=
  match ts with
  | [] => ([], ROk tt, s)
  | t :: r =>
      match from_stream e zc cf t s with
      | (ROk v, s1) => let '(vs, x, s2) := read_log e zc cf r s1 in (v :: vs, x, s2)
      | (RErr x, s1) => ([], RErr x, s1)
      | (RPanic, s1) => ([], RPanic, s1)
      | (RFuel, s1) => ([], RFuel, s1)
      end
  end.

(** How many of the byte strings lie wholly within the first [n] bytes of
    their concatenation. *)
Fixpoint complete (n : N) (bss : list bytes) : nat :=
  match bss with
  | [] => 0
  | b :: r => if lenN b <=? n then S (complete (n - lenN b) r) else 0
  end.

(** ** Calls that only read *)
Definition reads (c : call) : Prop :=
  match c with
  | CNextElement | CNextField | CSkipUp _ | CSkipField | CCommit | CResetPos _ | CSeek _
  | CClearEof | CGraceful _ | CStructDepth _ => True
  | CBlob (BWrite _) | CBlob (BWriteAll _) | CBlob (BSliceMut _) => False
  | CBlob _ => True
  | _ => False
  end.
(** ... and do not seek on the caller's behalf. *)
Definition seeks (c : call) : Prop :=
  match c with CSeek _ | CBlob (BSeek _) => True | _ => False end.
