(** * SpecCtx: histories of calls on the counters of a [Context] *)

From Verif Require Import Base Prog.

(** A history of calls on one counter, from the count [c]; it ends at the
    first call that does not return [Ok]. *)
Fixpoint calls (call : N -> N -> res ekind N) (c : N) (ns : list N) : res ekind N :=
  match ns with
  | [] => ROk c
  | n :: r => match call c n with ROk c' => calls call c' r | x => x end
  end.
Definition total (ns : list N) : N := fold_right N.add 0 ns.
