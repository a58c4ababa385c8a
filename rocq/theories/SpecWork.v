(** * SpecWork: counting the elements looked at (C83) *)

From Verif Require Import Base Wire Dev Stream Types Prog De.
Local Open Scope N_scope.

(** Whatever [m] does, leaving a counter alone. *)
Definition uncounted {S A} (m : M S serr A) : M (S * N) serr A := fun s =>
  let '(r, s') := m (fst s) in (r, (s', snd s)).
(** The stream, with a count of the calls of [Stream::next_field]. *)
Definition tally : source (stream * N) :=
  mkSource
    (fun s => let '(r, s') := next_field (fst s) in (r, (s', snd s + 1)))
    (fun f => uncounted (field_skip f))
    (fun s => s_pos (fst s)) (fun s => s_dbg (fst s))
    (uncounted b_remaining)
    (fun n => uncounted (b_read_fully n))
    (fun n => uncounted (lift_io (b_read_exact n)))
    (uncounted b_ext_slice).

(** [from_stream] on the counting stream: the result, the stream afterwards
    and the number of calls. *)
Definition from_stream_counted (e : env) (zc : bool) (cf : cfg) (t : ty) (s : stream) : res derr value * stream * N :=
  let '(r, st) := run tally cf (d_body (full_dict e (S (N.to_nat (cf_rec cf))) zc t)) (top_rst (s, 0)) in
  (r, fst (x_s st), snd (x_s st)).
