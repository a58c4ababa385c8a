(** * SpecStd: what is expected of the impls for types of std *)

From Verif Require Import Base Types Retrofit.

(** The values that exist: octets are u8, segments and ports u16, flow
    information and scope u32, seconds u64 and nanoseconds below 10^9. *)
Definition ip4_ok (o : list N) : Prop := List.length o = 4%nat /\ Forall (fun x => x < 256) o.
Definition ip6_ok (s : list N) : Prop := List.length s = 8%nat /\ Forall (fun x => x < 65536) s.
Definition std_ok (x : std) : Prop :=
  match x with
  | SIp4 o | SIpV4 o => ip4_ok o
  | SIp6 s | SIpV6 s => ip6_ok s
  | SDuration s n => s < 2 ^ 64 /\ n < 1000000000
  | SSock4 o p | SSockV4 o p => ip4_ok o /\ p < 65536
  | SSock6 s p f c | SSockV6 s p f c => ip6_ok s /\ p < 65536 /\ f < 2 ^ 32 /\ c < 2 ^ 32
  end.

(** The documents: addresses are blobs in network byte order, variants are
    numbered 4 and 6. *)
Definition be6 (s : list N) : bytes := flat_map (fun x => [x / 256; x mod 256]) s.
Definition std_doc (x : std) : list (N * node) :=
  match x with
  | SIp4 o => [(1, NBlob o)]
  | SIp6 s => [(1, NBlob (be6 s))]
  | SIpV4 o => [(1, NEnum 4 [(1, NBlob o)])]
  | SIpV6 s => [(1, NEnum 6 [(1, NBlob (be6 s))])]
  | SDuration s n => [(1, NInt s); (2, NInt n)]
  | SSock4 o p => [(1, NBlob o); (2, NInt p)]
  | SSock6 s p f c => [(1, NBlob (be6 s)); (2, NInt p); (3, NInt f); (4, NInt c)]
  | SSockV4 o p => [(1, NEnum 4 [(1, NBlob o); (2, NInt p)])]
  | SSockV6 s p f c => [(1, NEnum 6 [(1, NBlob (be6 s)); (2, NInt p); (3, NInt f); (4, NInt c)])]
  end.
