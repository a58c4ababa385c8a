(** * SpecText: Unicode text, as in the Unicode standard (table 3-6)

    [scalar]: Unicode scalar values, the values of Rust's [char].
    [utf8_char]: the UTF-8 encoding of one.  [text]: a byte string that is
    the encoding of some sequence of them, which is what Rust's [str] is. *)

From Verif Require Import Base Wire Dev Stream Types.

Definition scalar (c : N) : Prop := c < 0xD800 \/ 0xE000 <= c < 0x110000.

Definition utf8_char (c : N) : bytes :=
  if c <? 0x80 then [c]
  else if c <? 0x800 then [0xC0 + c / 64; 0x80 + c mod 64]
  else if c <? 0x10000 then [0xE0 + c / 4096; 0x80 + c / 64 mod 64; 0x80 + c mod 64]
  else [0xF0 + c / 262144; 0x80 + c / 4096 mod 64; 0x80 + c / 64 mod 64; 0x80 + c mod 64].

Definition text (bs : bytes) : Prop := exists cs, Forall scalar cs /\ bs = flat_map utf8_char cs.

(** [part x v]: [x] is [v] or something held by [v] at any depth. *)
Inductive part (x : value) : value -> Prop :=
| PaSelf : part x x
| PaList y vs : In y vs -> part x y -> part x (VList vs)
| PaArr y vs : In y vs -> part x y -> part x (VArr vs)
| PaRec y vs : In y vs -> part x y -> part x (VRec vs)
| PaSome y : part x y -> part x (VOpt (Some y))
| PaKey k v kvs : In (k, v) kvs -> part x k -> part x (VMap kvs)
| PaVal k v kvs : In (k, v) kvs -> part x v -> part x (VMap kvs)
| PaVar ix y : part x y -> part x (VVar ix y)
| PaCatch d y : part x y -> part x (VCatch d y).
