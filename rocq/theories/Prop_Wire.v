(** * Properties C01-C06: integers and descriptors (src/wire.rs)

    [rd_list] reads bytes from a plain byte slice; [decode_u64 rd_list l =
    (r, rest)] says what decode_u64 returns on the slice [l] and what is left
    of the slice.  [legal_varint], [varint_value], ... are in SpecWire.v. *)

From Verif Require Import Base Wire SpecWire P_Base P_Wire.

(** ** C01 *)
Theorem C01_decode_encode : forall i rest, i < 2 ^ 64 ->
  exists bs, encode_u64 i = Some bs /\ decode_u64 rd_list (bs ++ rest) = (ROk i, rest).
Proof. exact roundtrip_any. Qed.
Print Assumptions C01_decode_encode.

Example C01_instance :
  encode_u64 18446744073709551615 = Some [255;255;255;255;255;255;255;255;255;1] /\
  decode_u64 rd_list [255;255;255;255;255;255;255;255;255;1;7] = (ROk 18446744073709551615, [7]).
Proof. split; vm_compute; reflexivity. Qed.

(** ** C02: which inputs are accepted, and what the other ones yield *)
Theorem C02_accepts_iff : forall l v rest, bytes_ok l ->
  (decode_u64 rd_list l = (ROk v, rest) <-> exists bs, l = bs ++ rest /\ legal_varint bs v).
Proof. exact decode_u64_iff. Qed.
Print Assumptions C02_accepts_iff.

Theorem C02_outcome : forall l, bytes_ok l ->
  match decode_u64 rd_list l with
  | (ROk v, rest) => exists bs, l = bs ++ rest /\ legal_varint bs v
  | (RErr SIntegerOverflow, rest) =>
      (* the first byte whose group pushes the value past 64 bits *)
      exists p b, l = p ++ b :: rest /\ Forall cont_byte p /\ lenN p <= 256 /\
                  varint_value p < 2 ^ 64 /\ 2 ^ 64 <= varint_value (p ++ [b])
  | (RErr SOverwideInteger, rest) =>
      exists p, l = p ++ rest /\ Forall cont_byte p /\ lenN p = 257 /\ varint_value p < 2 ^ 64
  | (RErr (SIo IoUnexpectedEof), rest) =>
      rest = [] /\ Forall cont_byte l /\ lenN l <= 256 /\ varint_value l < 2 ^ 64
  | _ => False          (* no other error, no panic, no divergence *)
  end.
Proof. exact decode_outcome_full. Qed.
Print Assumptions C02_outcome.

(** A denormalised 257-byte zero is legal, a 258-byte one is not. *)
Example C02_instance_denormal :
  decode_u64 rd_list (repeat 128 256 ++ [0; 9]) = (ROk 0, [9]).
Proof. vm_compute. reflexivity. Qed.
Example C02_instance_overwide :
  decode_u64 rd_list (repeat 128 257 ++ [0; 9]) = (RErr SOverwideInteger, [0; 9]).
Proof. vm_compute. reflexivity. Qed.
Example C02_instance_overflow :
  decode_u64 rd_list [255;255;255;255;255;255;255;255;255;2;9] = (RErr SIntegerOverflow, [9]).
Proof. vm_compute. reflexivity. Qed.
Example C02_instance_eof :
  decode_u64 rd_list [255;255] = (RErr (SIo IoUnexpectedEof), []).
Proof. vm_compute. reflexivity. Qed.

(** ** C03 *)
Theorem C03_canonical_minimal : forall i, i < 2 ^ 64 ->
  exists bs, encode_u64 i = Some bs /\ is_varint bs /\ 1 <= lenN bs <= 10 /\
  (forall l rest bs', bytes_ok l -> l = bs' ++ rest ->
     decode_u64 rd_list l = (ROk i, rest) -> lenN bs <= lenN bs').
Proof. exact canonical_shape. Qed.
Print Assumptions C03_canonical_minimal.

Theorem C03_injective_prefix_free : forall i j bs bs' x,
  i < 2 ^ 64 -> j < 2 ^ 64 -> encode_u64 i = Some bs -> encode_u64 j = Some bs' ->
  bs' = bs ++ x -> i = j /\ x = [].
Proof. exact encode_prefix_free. Qed.
Print Assumptions C03_injective_prefix_free.

Example C03_instance : encode_u64 300 = Some [172; 2] /\
  decode_u64 rd_list [172; 130; 0; 5] = (ROk 300, [5]).
Proof. split; vm_compute; reflexivity. Qed.

(** ** C04 *)
Theorem C04_fixed_width : forall i rest, i < 2 ^ 64 ->
  lenN (encode_fixed_u64 i) = 10 /\ bytes_ok (encode_fixed_u64 i) /\
  decode_u64 rd_list (encode_fixed_u64 i ++ rest) = (ROk i, rest).
Proof. exact fixed_roundtrip. Qed.
Print Assumptions C04_fixed_width.

Example C04_instance : encode_fixed_u64 300 = [172;130;128;128;128;128;128;128;128;0].
Proof. vm_compute. reflexivity. Qed.

(** ** C05 *)
Theorem C05_zigzag_bijection :
  (forall z, (- 2 ^ 63 <= z < 2 ^ 63)%Z -> zigzag z < 2 ^ 64 /\ unzigzag (zigzag z) = z) /\
  (forall n, n < 2 ^ 64 -> (- 2 ^ 63 <= unzigzag n < 2 ^ 63)%Z /\ zigzag (unzigzag n) = n).
Proof.
  exact (conj (fun z H => conj (zigzag_range z H) (unzigzag_zigzag z H))
              (fun n H => conj (unzigzag_range n H) (zigzag_unzigzag n H))).
Qed.
Print Assumptions C05_zigzag_bijection.

Theorem C05_zigzag_magnitude : forall z,
  ((0 <= z < 2 ^ 63)%Z -> zigzag z = Z.to_N (2 * z)) /\
  ((- 2 ^ 63 <= z < 0)%Z -> zigzag z = Z.to_N (- 2 * z - 1)).
Proof. exact (fun z => conj (zigzag_nonneg z) (zigzag_neg z)). Qed.
Print Assumptions C05_zigzag_magnitude.

(** Signed integers on the wire. *)
Theorem C05_signed_round_trip : forall z rest, (- 2 ^ 63 <= z < 2 ^ 63)%Z ->
  exists bs, encode_i64 z = Some bs /\ decode_i64 rd_list (bs ++ rest) = (ROk z, rest).
Proof. exact signed_roundtrip. Qed.
Print Assumptions C05_signed_round_trip.
Theorem C05_signed_accepts_iff : forall l z rest, bytes_ok l ->
  (decode_i64 rd_list l = (ROk z, rest) <->
   (- 2 ^ 63 <= z < 2 ^ 63)%Z /\
   exists bs, l = bs ++ rest /\ legal_varint bs (Z.to_N (if (z <? 0)%Z then - 2 * z - 1 else 2 * z))).
Proof. exact signed_accepts. Qed.
Print Assumptions C05_signed_accepts_iff.
Example C05_signed_instance :
  encode_i64 (-65) = Some [0x81; 1] /\ decode_i64 rd_list [0x81; 1; 9] = (ROk (-65)%Z, [9]) /\
  decode_i64 rd_list [0x81; 0x81; 0; 9] = (ROk (-65)%Z, [9]).
Proof. repeat split; vm_compute; reflexivity. Qed.

Example C05_instance : zigzag (-3) = 5 /\ unzigzag 5 = (-3)%Z /\
  zigzag (-9223372036854775808) = 18446744073709551615.
Proof. repeat split; vm_compute; reflexivity. Qed.

(** ** C06 *)
Theorem C06_every_byte_parses : forall b, b < 256 ->
  exists d, parse_desc b = Some d /\
            (match d with PPair _ tag => 1 <= tag <= 63 | PSpecial _ => True end) /\
            forall dbg, @desc_byte serr dbg d = ROk b.
Proof.
  intros b Hb. destruct (parse_desc_total b Hb) as [d Hd].
  destruct (parse_desc_back b d Hb Hd) as [Hok Hback].
  exists d. exact (conj Hd (conj Hok (Hback serr))).
Qed.
Print Assumptions C06_every_byte_parses.

Theorem C06_every_descriptor_has_one_byte : forall d dbg,
  (match d with PPair _ tag => 1 <= tag <= 63 | PSpecial _ => True end) ->
  exists b, @desc_byte serr dbg d = ROk b /\ b < 256 /\ parse_desc b = Some d /\
            forall b', b' < 256 -> parse_desc b' = Some d -> b' = b.
Proof.
  intros d dbg Hd. destruct (desc_byte_parse serr dbg d Hd) as (b & Hb & H256 & Hp).
  exists b. repeat split; auto. intros b' Hb' Hp'.
  destruct (parse_desc_back b' d Hb' Hp') as [_ Hback].
  specialize (Hback serr dbg). rewrite Hb in Hback. now injection Hback.
Qed.
Print Assumptions C06_every_descriptor_has_one_byte.

Example C06_instance : parse_desc 0x85 = Some (PPair DBlob 5) /\
  parse_desc 0x40 = Some (PSpecial SpEndOfDoc).
Proof. split; vm_compute; reflexivity. Qed.
