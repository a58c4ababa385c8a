(** * Wire: model of src/wire.rs *)

From Verif Require Import Base.

(** Kinds of [std::io::Error] the model distinguishes. *)
Inductive iokind :=
| IoUnexpectedEof
| IoInterrupted
| IoWriteZero
| IoInvalidInput
| IoOther.

(** [stream::Error], src/stream.rs 29-119.  [UnexpectedType] keeps the two
    type names as tags; [IntegerOutOfRange] drops the static message; an
    [Exception] carries the raw message bytes instead of their lossy UTF-8
    decoding. *)
Inductive fty := FInteger | FBlob | FStruct | FEnum.
(** src/stream.rs 32-116. *)
Inductive serr :=
| SIo (k : iokind)
| SIntegerOverflow
| SOverwideInteger
| SException (msg : bytes)
| STruncatedBlob (missing : N)
| SOverlongBlob
| SIncompleteBlob (missing : N)
| SPosBeforeDynBlob
| SOverlongDynBlob
| SLargeBlob (max remaining : N)
| SUnexpectedType (expected actual : fty)
| SOutOfRange.

(** ** Descriptors, src/wire.rs 24-116 *)

(** [DescriptorType] and [SpecialType], src/wire.rs 34-39, 60-65. *)
Inductive dtype := DEnum | DInteger | DBlob | DStruct.
(** src/wire.rs 60-65. *)
Inductive stype := SpEndOfStruct | SpEndOfDoc | SpException | SpPadding.

(** The discriminants given at src/wire.rs 35-38. *)
Definition dtype_code (t : dtype) : N :=
  match t with DEnum => 0x00 | DInteger => 0x40 | DBlob => 0x80 | DStruct => 0xC0 end.
(** The discriminants given at src/wire.rs 61-64. *)
Definition stype_code (t : stype) : N :=
  match t with
  | SpEndOfStruct => 0x00 | SpEndOfDoc => 0x40
  | SpException => 0x80 | SpPadding => 0xC0
  end.

(** [from_u8], src/wire.rs 43-53 and 69-79; [None] is [unreachable!()]. *)
Definition dtype_of (c : N) : option dtype :=
  if c =? 0x00 then Some DEnum else if c =? 0x40 then Some DInteger
  else if c =? 0x80 then Some DBlob else if c =? 0xC0 then Some DStruct else None.
(** src/wire.rs 69-79. *)
Definition stype_of (c : N) : option stype :=
  if c =? 0x00 then Some SpEndOfStruct else if c =? 0x40 then Some SpEndOfDoc
  else if c =? 0x80 then Some SpException else if c =? 0xC0 then Some SpPadding
  else None.

(** [ParsedDescriptor], src/wire.rs 84-90. *)
Inductive pdesc := PPair (t : dtype) (tag : N) | PSpecial (t : stype).

(** [Descriptor::parse], src/wire.rs 94-103; [None] is [unreachable!()]. *)
Definition parse_desc (b : N) : option pdesc :=
  let ty := N.land b 0xC0 in
  let tag := N.land b 0x3F in
  if tag =? 0 then option_map PSpecial (stype_of ty)
  else option_map (fun t => PPair t tag) (dtype_of ty).

(** [From<ParsedDescriptor> for Descriptor], src/wire.rs 106-116.  The range
    check is a [debug_assert!], so it only exists when [dbg]. *)
Definition desc_byte {E} (dbg : bool) (d : pdesc) : res E N :=
  match d with
  | PPair t tag =>
      if dbg && negb ((1 <=? tag) && (tag <=? 63)) then RPanic
      else ROk (N.lor tag (dtype_code t))
  | PSpecial t => ROk (stype_code t)
  end.

(** ** Integers, src/wire.rs 118-227 *)

Section Decode.
  Context {S : Type}.
  (** [read_byte], src/wire.rs 19-23: one byte by [Read::read_exact]. *)
  Variable read_byte : M S serr N.

  (** Body of the loop of [decode_u64], src/wire.rs 124-148.  [shift]
      starts at 0 and grows by 7 per byte; the loop leaves after at most 257
      bytes, so 258 units of fuel are never exhausted (proved). *)
  Fixpoint decode_loop (fuel : nat) (accum shift : N) : M S serr N :=
    match fuel with
    | O => fun s => (RFuel, s)
    | Datatypes.S fuel' =>
        let* b := read_byte in
        let v := N.land b 0x7F in
        let shl := N.shiftl v shift mod U64_MOD in
        if negb (v =? 0) &&
           ((64 <=? shift) || negb (N.shiftr shl shift =? v))
        then mfail SIntegerOverflow
        else
          let accum := if v =? 0 then accum else N.lor accum shl in
          let shift := shift + 7 in
          if N.land b 0x80 =? 0 then mret accum
          else if 256 * 7 <? shift then mfail SOverwideInteger
          else decode_loop fuel' accum shift
    end.

  (** [decode_u64], src/wire.rs 121-151. *)
  Definition decode_u64 : M S serr N := decode_loop 258 0 0.
End Decode.

(** Bytes produced by [encode_u64], src/wire.rs 154-172 (the loop over the
    10-byte buffer; 10 iterations suffice for a [u64], proved).  [None] on
    exhausted fuel stands for the out-of-bounds panic on [bytes[10]]. *)
Fixpoint enc_loop (fuel : nat) (i : N) : option bytes :=
  match fuel with
  | O => None
  | Datatypes.S fuel' =>
      let lo := N.land i 0x7F in
      let i' := N.shiftr i 7 in
      if i' =? 0 then Some [lo]
      else option_map (cons (N.lor lo 0x80)) (enc_loop fuel' i')
  end.
(** src/wire.rs 154-172. *)
Definition encode_u64 (i : N) : option bytes := enc_loop 10 i.

(** Bytes produced by [encode_fixed_u64], src/wire.rs 179-191. *)
Fixpoint enc_fixed_loop (k : nat) (i : N) : bytes :=
  match k with
  | O => []
  | Datatypes.S O => [N.land i 0x7F]
  | Datatypes.S k' => N.lor (N.land i 0x7F) 0x80 :: enc_fixed_loop k' (N.shiftr i 7)
  end.
(** src/wire.rs 179-191. *)
Definition encode_fixed_u64 (i : N) : bytes := enc_fixed_loop 10 i.

(** ** ZigZag, src/wire.rs 193-214.  [i64] values are [Z] in
    [-2^63, 2^63); [u64] values are [N] below 2^64. *)

(** Two's complement reading of a [u64] as [i64] ([as i64]) and back. *)
Definition to_i64 (n : N) : Z :=
  if n <? 2 ^ 63 then Z.of_N n else (Z.of_N n - 2 ^ 64)%Z.
(** The Rust cast [i64 as u64] (src/wire.rs 207). *)
Definition of_i64 (z : Z) : N := Z.to_N (z mod 2 ^ 64)%Z.

(** [unzigzag], src/wire.rs 194-197. *)
Definition unzigzag (i : N) : Z :=
  let sign := if N.land i 1 =? 0 then 0 else U64_MAX in
  to_i64 (N.lxor (N.shiftr i 1) sign).

(** [zigzag], src/wire.rs 206-208: [((i << 1) ^ (i >> 63)) as u64]; the left
    shift discards the top bit, the right shift is arithmetic. *)
Definition zigzag (i : Z) : N :=
  of_i64 (Z.lxor (to_i64 (of_i64 (Z.shiftl i 1))) (Z.shiftr i 63)).

(** [decode_i64] / [encode_i64], src/wire.rs 200-203, 212-214. *)
Definition decode_i64 {S} (read_byte : M S serr N) : M S serr Z :=
  let* i := decode_u64 read_byte in mret (unzigzag i).
(** src/wire.rs 212-214. *)
Definition encode_i64 (i : Z) : option bytes := encode_u64 (zigzag i).
