(** * Base: results, state monad, byte lists, machine arithmetic

    Nothing in this file models fourleaf code by itself; it fixes the
    vocabulary the models are written in. *)

From Coq Require Export NArith ZArith List Bool Lia.
From Coq Require Export ZifyBool ZifyNat ZifyN.
Export ListNotations.

Global Open Scope N_scope.

Arguments N.add : simpl never.
Arguments N.sub : simpl never.
Arguments N.mul : simpl never.
Arguments N.pow : simpl never.
Arguments N.div : simpl never.
Arguments N.modulo : simpl never.
Arguments N.leb : simpl never.
Arguments N.ltb : simpl never.
Arguments N.eqb : simpl never.
Arguments N.land : simpl never.
Arguments N.lor : simpl never.
Arguments N.shiftl : simpl never.
Arguments N.shiftr : simpl never.
Arguments N.min : simpl never.
Arguments N.max : simpl never.
Arguments N.of_nat : simpl never.
Arguments N.to_nat : simpl never.

(** A byte string.  Bytes are natural numbers; [byte_ok] says it is a [u8]. *)
Notation bytes := (list N).
Definition byte_ok (b : N) : Prop := b < 256.
Definition bytes_ok (bs : bytes) : Prop := Forall byte_ok bs.

(** Result of a Rust function that returns [Result<A, E>]:
    [ROk] / [RErr] are the two variants, [RPanic] means the call panicked
    and [RFuel] means the model's loop bound was exhausted (it stands for
    divergence; the theorems show where it cannot occur). *)
Inductive res (E A : Type) : Type :=
| ROk (a : A)
| RErr (e : E)
| RPanic
| RFuel.
Arguments ROk {E A} a.
Arguments RErr {E A} e.
Arguments RPanic {E A}.
Arguments RFuel {E A}.

(** Functions mutating a state ([&mut self]) become [M S E A]. *)
Definition M (S E A : Type) : Type := S -> res E A * S.

Definition mret {S E A} (a : A) : M S E A := fun s => (ROk a, s).
Definition mfail {S E A} (e : E) : M S E A := fun s => (RErr e, s).
Definition mpanic {S E A} : M S E A := fun s => (RPanic, s).
Definition mget {S E} : M S E S := fun s => (ROk s, s).
Definition mmod {S E} (f : S -> S) : M S E unit := fun s => (ROk tt, f s).

(** The [?] operator: continue on [Ok], return early otherwise. *)
Definition mbind {S E A B} (m : M S E A) (k : A -> M S E B) : M S E B :=
  fun s => match m s with
           | (ROk a, s') => k a s'
           | (RErr e, s') => (RErr e, s')
           | (RPanic, s') => (RPanic, s')
           | (RFuel, s') => (RFuel, s')
           end.

Notation "'let*' x ':=' m 'in' k" := (mbind m (fun x => k))
  (at level 200, x pattern, m at level 100, k at level 200, right associativity).
Notation "m ';;' k" := (mbind m (fun _ => k))
  (at level 100, k at level 200, right associativity).

(** Lift a pure result. *)
Definition mres {S E A} (r : res E A) : M S E A := fun s => (r, s).

(** Iterate [step] at most [p] times, in binary so that a bound of 2^64 can
    be written down.  [inl] continues, [inr] leaves the loop. *)
Fixpoint miter {S E A B} (p : positive) (step : A -> M S E (A + B)) (a : A)
  : M S E (A + B) :=
  match p with
  | xH => step a
  | xO q => let* r := miter q step a in
            match r with
            | inl a' => miter q step a'
            | inr b => mret (inr b)
            end
  | xI q => let* r := step a in
            match r with
            | inl a' =>
                let* r' := miter q step a' in
                match r' with
                | inl a'' => miter q step a''
                | inr b => mret (inr b)
                end
            | inr b => mret (inr b)
            end
  end.

(** The loop bound: 2^64 + 1 iterations.  Every iteration of the loops below
    advances the 64-bit stream position, so the bound is never reached in
    states satisfying the stream invariant (proved, not assumed). *)
Definition loop_bound : positive := 18446744073709551617%positive.

Definition mloop {S E A B} (step : A -> M S E (A + B)) (a : A) : M S E B :=
  let* r := miter loop_bound step a in
  match r with
  | inl _ => fun s => (RFuel, s)
  | inr b => mret b
  end.

(** ** Machine integers *)

Definition U64_MOD : N := 18446744073709551616.   (* 2^64 *)
Definition U64_MAX : N := 18446744073709551615.
Definition I64_MAX : N := 9223372036854775807.
Definition USIZE_MAX : N := U64_MAX.               (* 64-bit target *)

(** [a + b] / [a - b] on [u64]: panics on overflow when overflow checks are
    on (debug profile), wraps otherwise. *)
Definition u64_add {E} (dbg : bool) (a b : N) : res E N :=
  if a + b <? U64_MOD then ROk (a + b)
  else if dbg then RPanic else ROk ((a + b) mod U64_MOD).
Definition u64_sub {E} (dbg : bool) (a b : N) : res E N :=
  if b <=? a then ROk (a - b)
  else if dbg then RPanic else ROk ((U64_MOD + a - b) mod U64_MOD).

(** ** [N]-indexed lists *)

Definition lenN {A} (l : list A) : N := N.of_nat (length l).

Fixpoint takeN {A} (n : N) (l : list A) : list A :=
  match l with
  | [] => []
  | x :: r => if n =? 0 then [] else x :: takeN (n - 1) r
  end.

Fixpoint dropN {A} (n : N) (l : list A) : list A :=
  match l with
  | [] => []
  | x :: r => if n =? 0 then l else dropN (n - 1) r
  end.
