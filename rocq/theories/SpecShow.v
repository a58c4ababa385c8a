(** * SpecShow: names, and errors that are described in the crate's own words *)

From Verif Require Import Base Wire Dev Stream Types Prog SpecDe.
Local Open Scope N_scope.

(** Rust identifiers (and the numbers that stand for undeclared fields):
    letters, digits and underscores. *)
Definition word_char (c : ascii) : bool :=
  let n := N_of_ascii c in ((48 <=? n) && (n <=? 57)) || ((65 <=? n) && (n <=? 90)) || ((97 <=? n) && (n <=? 122)) || (n =? 95).
Fixpoint word_chars (s : string) : bool := match s with EmptyString => true | String c r => word_char c && word_chars r end.
Definition identifier (s : string) : Prop := s <> EmptyString /\ word_chars s = true.

(** Rust's tuples have [Deserialize] impls for up to 16 components only. *)
Fixpoint tuples_ok (t : ty) : Prop :=
  match t with
  | TVec t | TSeq t | TSet t | TOption t | TArray _ t | TBox t | TCopied t => tuples_ok t
  | TMap k v => tuples_ok k /\ tuples_ok v
  | TTuple ts => lenN ts <= 16 /\ (fix all l := match l with [] => True | t :: r => tuples_ok t /\ all r end) ts
  | _ => True
  end.

(** The user's types are written in Rust. *)
Definition body_in_rust (b : vbody) : Prop :=
  Forall (fun f => identifier (fd_name f) /\ tuples_ok (fd_ty f)) (vb_fields b) /\
  match vb_special b with SpNone => True | SpDeleg nm t | SpUnknown nm t => identifier nm /\ tuples_ok t end.
Definition in_rust (e : env) : Prop := forall i,
  match e i with
  | IStruct b => body_in_rust b
  | IEnum vars catch => Forall (fun v => body_in_rust (snd v)) vars /\ match catch with Some b => body_in_rust b | None => True end
  end.

(** Errors whose description is the crate's own text. *)
Definition own_words (k : ekind) : Prop :=
  match k with
  | KInvalid | KInvalidMsg | KStream (SIo _) | KStream SOutOfRange | KStream (SException _) => False
  | _ => True
  end.
