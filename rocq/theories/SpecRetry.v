(** * SpecRetry: repeating a call that failed *)

From Verif Require Import Base Wire Dev Stream SpecHist.

(** Call [commit] until it succeeds, at most [n + 1] times. *)
Fixpoint attempts (n : nat) (s : stream) : res serr unit * stream :=
  match commit s with
  | (RErr x, s') => match n with O => (RErr x, s') | S m => attempts m s' end
  | r => r
  end.

(** The stream with nothing pending: if the rest of a blob remained to be
    skipped, stream and device stand behind it; all else is as in [s]. *)
Definition behind (s : stream) : stream :=
  let n := match s_commit s with Some CSkipBlob => s_blob_end s - s_pos s | _ => 0 end in
  mkS (mkDev (d_data (s_dev s)) (d_pos (s_dev s) + n) []) (s_pos s + n) (s_eof s) (s_blob_end s) (s_dyn_start s)
      (s_depth s) (s_graceful s) (s_seek s) None (s_dbg s).

(** Whatever goes wrong before it, a [commit] that succeeds at last leaves the
    stream as one that nothing goes wrong with. *)
Definition retried_right (s : stream) : Prop :=
  forall n s' s2, attempts n s = (ROk tt, s') -> commit (unscheduled s) = (ROk tt, s2) -> unscheduled s' = s2.
