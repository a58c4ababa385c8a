(** * SpecDbg: the same program compiled without checks

    The state of a stream carries the build profile of the crate ([s_dbg]:
    overflow checks and debug assertions on); it is not otherwise visible.
    [release s] is the same stream in a build without them. *)

From Verif Require Import Base Wire Dev Stream SpecStream SpecBlob SpecHist.

Definition release (s : stream) : stream :=
  mkS (s_dev s) (s_pos s) (s_eof s) (s_blob_end s) (s_dyn_start s) (s_depth s)
      (s_graceful s) (s_seek s) (s_commit s) false.

(** None of the outcomes is a panic. *)
Definition no_panic {E A} (rs : list (res E A)) : Prop := Forall (fun r => r <> RPanic) rs.
