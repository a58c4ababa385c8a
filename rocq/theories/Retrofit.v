(** * Retrofit: the types of std given impls in src/retrofit.rs

    Each is a use of [fourleaf_retrofit!]; besides its declarations it has an
    accessor expression per field ([std_value] below) and a constructor
    expression ([std_of]). *)

From Verif Require Import Base Types SpecSerDe.

(** Declarations.  The numbers of the items are arbitrary. *)
(** src/retrofit.rs 20-24. *)
Definition i_ip4 : nat := 0.
(** src/retrofit.rs 27-39. *)
Definition i_ip6 : nat := 1.
(** src/retrofit.rs 41-51. *)
Definition i_ip : nat := 2.
(** src/retrofit.rs 53-63. *)
Definition i_duration : nat := 3.
(** src/retrofit.rs 65-70. *)
Definition i_sock4 : nat := 4.
(** src/retrofit.rs 72-79. *)
Definition i_sock6 : nat := 5.
(** src/retrofit.rs 81-91. *)
Definition i_sock : nat := 6.
(** src/retrofit.rs 93-110. *)
Definition i_result : nat := 7.

(** [_, this| (x) octets: [u8;4]], src/retrofit.rs 20-24. *)
Definition item_ip4 : item := IStruct (mkB [] (SpDeleg "octets" (TArray 4 (TUInt 8))) ok_all).
(** src/retrofit.rs 27-39. *)
Definition item_ip6 : item := IStruct (mkB [] (SpDeleg "octets" (TArray 16 (TUInt 8))) ok_all).
(** src/retrofit.rs 41-51. *)
Definition item_ip : item :=
  IEnum [(4, mkB [] (SpDeleg "ip" (TItem i_ip4)) ok_all); (6, mkB [] (SpDeleg "ip" (TItem i_ip6)) ok_all)] None.
(** The constructor of Duration fails unless [nsecs < 1_000_000_000],
    src/retrofit.rs 57-62. *)
Definition nsecs_ok (vs : list value) : bool :=
  match vs with [_; VU n] => n <? 1000000000 | _ => false end.
(** src/retrofit.rs 53-63. *)
Definition item_duration : item :=
  IStruct (mkB [mkF "secs" 1 (TUInt 64); mkF "nsecs" 2 (TUInt 32)] SpNone nsecs_ok).
(** src/retrofit.rs 65-70. *)
Definition item_sock4 : item :=
  IStruct (mkB [mkF "ip" 1 (TItem i_ip4); mkF "port" 2 (TUInt 16)] SpNone ok_all).
(** src/retrofit.rs 72-79. *)
Definition item_sock6 : item :=
  IStruct (mkB [mkF "ip" 1 (TItem i_ip6); mkF "port" 2 (TUInt 16); mkF "flowinfo" 3 (TUInt 32);
                mkF "scope_id" 4 (TUInt 32)] SpNone ok_all).
(** src/retrofit.rs 81-91. *)
Definition item_sock : item :=
  IEnum [(4, mkB [] (SpDeleg "v4" (TItem i_sock4)) ok_all); (6, mkB [] (SpDeleg "v6" (TItem i_sock6)) ok_all)] None.
(** [Result<T, E>], src/retrofit.rs 93-110. *)
Definition item_result (T E : ty) : item :=
  IEnum [(1, mkB [] (SpDeleg "t" T) ok_all); (2, mkB [] (SpDeleg "e" E) ok_all)] None.

(** A program that uses these types, [Result<T, E>] for one [T] and [E]
    (simplification: only one instance of [Result] per environment), and its
    own definitions.  src/retrofit.rs 20-110. *)
Definition std_env (T E : ty) (user : env) : env := fun i =>
  match i with
  | 0 => item_ip4 | 1 => item_ip6 | 2 => item_ip | 3 => item_duration
  | 4 => item_sock4 | 5 => item_sock6 | 6 => item_sock | 7 => item_result T E
  | _ => user i
  end%nat.

(** Values of these types, as std's documentation describes them: an IPv4
    address is four octets, an IPv6 address eight 16-bit segments. *)
Inductive std :=
| SIp4 (octets : list N)
| SIp6 (segments : list N)
| SIpV4 (octets : list N)                      (* IpAddr::V4 *)
| SIpV6 (segments : list N)                    (* IpAddr::V6 *)
| SDuration (secs nanos : N)
| SSock4 (octets : list N) (port : N)          (* SocketAddrV4 *)
| SSock6 (segments : list N) (port flowinfo scope_id : N)
| SSockV4 (octets : list N) (port : N)         (* SocketAddr::V4 *)
| SSockV6 (segments : list N) (port flowinfo scope_id : N).

(** [Ipv6Addr::octets] of std: network byte order. *)
Definition octets6 (segs : list N) : bytes := flat_map (fun s => [s / 256; s mod 256]) segs.
(** [seg!], src/retrofit.rs 31-35, applied at 0, 2, ..., 14. *)
Definition seg (octets : bytes) (n : nat) : N :=
  N.lor (N.shiftl (nth n octets 0) 8) (nth (S n) octets 0).
(** src/retrofit.rs 36-38. *)
Definition segments6 (octets : bytes) : list N :=
  map (seg octets) [0; 2; 4; 6; 8; 10; 12; 14]%nat.

(** The accessor expressions, src/retrofit.rs 22, 29, 44, 48, 55-56, 67-68,
    74-77, 84, 88. *)
Definition v_ip4 (o : list N) : value := VRec [VArrB o].
(** src/retrofit.rs 29. *)
Definition v_ip6 (s : list N) : value := VRec [VArrB (octets6 s)].
(** src/retrofit.rs 67-68. *)
Definition v_sock4 (o : list N) (p : N) : value := VRec [v_ip4 o; VU p].
(** src/retrofit.rs 74-77. *)
Definition v_sock6 (s : list N) (p f c : N) : value := VRec [v_ip6 s; VU p; VU f; VU c].
(** src/retrofit.rs 20-91, all accessors. *)
Definition std_value (x : std) : value :=
  match x with
  | SIp4 o => v_ip4 o
  | SIp6 s => v_ip6 s
  | SIpV4 o => VVar 0 (VRec [v_ip4 o])
  | SIpV6 s => VVar 1 (VRec [v_ip6 s])
  | SDuration s n => VRec [VU s; VU n]
  | SSock4 o p => v_sock4 o p
  | SSock6 s p f c => v_sock6 s p f c
  | SSockV4 o p => VVar 0 (VRec [v_sock4 o p])
  | SSockV6 s p f c => VVar 1 (VRec [v_sock6 s p f c])
  end.
(** Its type, src/retrofit.rs 20-91. *)
Definition std_ty (x : std) : nat :=
  match x with
  | SIp4 _ => i_ip4 | SIp6 _ => i_ip6 | SIpV4 _ | SIpV6 _ => i_ip | SDuration _ _ => i_duration
  | SSock4 _ _ => i_sock4 | SSock6 _ _ _ _ => i_sock6 | SSockV4 _ _ | SSockV6 _ _ _ _ => i_sock
  end.

(** The constructor expressions, src/retrofit.rs 23, 30-38, 45, 49, 57-58,
    69, 78, 85, 89, applied to the fields read.  [None]: not a value the
    deserialiser of the type can produce. *)
Definition u_ip4 (v : value) : option (list N) :=
  match v with VRec [VArrB o] => Some [nth 0 o 0; nth 1 o 0; nth 2 o 0; nth 3 o 0] | _ => None end.
(** src/retrofit.rs 30-38. *)
Definition u_ip6 (v : value) : option (list N) :=
  match v with VRec [VArrB o] => Some (segments6 o) | _ => None end.
(** src/retrofit.rs 69. *)
Definition u_sock4 (v : value) : option (list N * N) :=
  match v with
  | VRec [a; VU p] => match u_ip4 a with Some o => Some (o, p) | None => None end
  | _ => None
  end.
(** src/retrofit.rs 78. *)
Definition u_sock6 (v : value) : option (list N * N * N * N) :=
  match v with
  | VRec [a; VU p; VU f; VU c] => match u_ip6 a with Some s => Some (s, p, f, c) | None => None end
  | _ => None
  end.
(** src/retrofit.rs 20-91, all constructors. *)
Definition std_of (i : nat) (v : value) : option std :=
  match i, v with
  | 0, _ => option_map SIp4 (u_ip4 v)
  | 1, _ => option_map SIp6 (u_ip6 v)
  | 2, VVar 0 (VRec [a]) => option_map SIpV4 (u_ip4 a)
  | 2, VVar 1 (VRec [a]) => option_map SIpV6 (u_ip6 a)
  | 3, VRec [VU s; VU n] => Some (SDuration s n)
  | 4, _ => option_map (fun '(o, p) => SSock4 o p) (u_sock4 v)
  | 5, _ => option_map (fun '(s, p, f, c) => SSock6 s p f c) (u_sock6 v)
  | 6, VVar 0 (VRec [a]) => option_map (fun '(o, p) => SSockV4 o p) (u_sock4 a)
  | 6, VVar 1 (VRec [a]) => option_map (fun '(s, p, f, c) => SSockV6 s p f c) (u_sock6 a)
  | _, _ => None
  end%nat.
