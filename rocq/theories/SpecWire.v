(** * SpecWire: what the documentation says about integers

    Independent of the model: the little-endian base-128 format of the
    "Physical Format" section of src/lib.rs. *)

From Verif Require Import Base.

(** A continuation byte has its top bit set, a final byte does not. *)
Definition cont_byte (b : N) : Prop := 128 <= b < 256.
Definition final_byte (b : N) : Prop := b < 128.

(** A variable-width integer: continuation bytes followed by a final byte. *)
Definition is_varint (bs : bytes) : Prop :=
  exists p b, bs = p ++ [b] /\ Forall cont_byte p /\ final_byte b.

(** Its value: 7 bits per byte, least significant first. *)
Fixpoint varint_value (bs : bytes) : N :=
  match bs with
  | [] => 0
  | b :: r => b mod 128 + 128 * varint_value r
  end.

(** The integers the format allows: at most 257 bytes, fitting 64 bits. *)
Definition legal_varint (bs : bytes) (v : N) : Prop :=
  is_varint bs /\ lenN bs <= 257 /\ varint_value bs = v /\ v < 2 ^ 64.
