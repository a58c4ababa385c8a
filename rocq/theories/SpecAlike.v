(** * SpecAlike: types that stand for one another (C82)

    README and src/de.rs, src/ser.rs document that the smart pointers and
    borrowed forms are read and written as what they point to. *)

From Verif Require Import Base Types Prog.

(** [alike zc t t']: a [t] may be replaced by a [t'] where values are read in
    the style [zc] ([true]: zero-copy).  [Box], [Rc] and [Arc] are what they
    point to; [Cow] is the owned or the borrowed type; [Copied] does nothing
    when copying anyway; a [Vec] is any other sequence.  [u8] is special
    inside of [Vec] and arrays only if spelt [u8]. *)
Inductive alike : bool -> ty -> ty -> Prop :=
| LkSame zc t : alike zc t t
| LkSym zc t t' : alike zc t t' -> alike zc t' t
| LkTrans zc t t' t'' : alike zc t t' -> alike zc t' t'' -> alike zc t t''
| LkBox zc t : alike zc (TBox t) t
| LkCopied t : alike false (TCopied t) t
| LkCowStr : alike false TCowStr TString
| LkCowStrRef : alike true TCowStr TStrRef
| LkCowBytes : alike false TCowBytes (TVec (TUInt 8))
| LkCowBytesRef : alike true TCowBytes TBytesRef
| LkSeq zc t : t <> TUInt 8 -> alike zc (TVec t) (TSeq t)
(* and inside of other types *)
| LkInVec zc t t' : t <> TUInt 8 -> t' <> TUInt 8 -> alike zc t t' -> alike zc (TVec t) (TVec t')
| LkInSeq zc t t' : alike zc t t' -> alike zc (TSeq t) (TSeq t')
| LkInSet zc t t' : alike zc t t' -> alike zc (TSet t) (TSet t')
| LkInOption zc t t' : alike zc t t' -> alike zc (TOption t) (TOption t')
| LkInArray zc n t t' : t <> TUInt 8 -> t' <> TUInt 8 -> alike zc t t' -> alike zc (TArray n t) (TArray n t')
| LkInMap zc k k' v v' : alike zc k k' -> alike zc v v' -> alike zc (TMap k v) (TMap k' v')
| LkInTuple zc ts ts' : alikes zc ts ts' -> alike zc (TTuple ts) (TTuple ts')
| LkInCopied zc t t' : alike false t t' -> alike zc (TCopied t) (TCopied t')
with alikes : bool -> list ty -> list ty -> Prop :=
| LkNil zc : alikes zc [] []
| LkCons zc t t' ts ts' : alike zc t t' -> alikes zc ts ts' -> alikes zc (t :: ts) (t' :: ts').

(** Names of fields: the same, or free to differ. *)
Definition same_name (free : bool) (a b : string) : Prop := free = true \/ a = b.

(** Definitions that differ in types that are alike (and in names, if [free]). *)
Definition field_alike (free zc : bool) (f f' : fdecl) : Prop :=
  same_name free (fd_name f) (fd_name f') /\ fd_tag f = fd_tag f' /\ alike zc (fd_ty f) (fd_ty f').
Definition special_alike (free zc : bool) (x x' : special) : Prop :=
  match x, x' with
  | SpNone, SpNone => True
  | SpDeleg n t, SpDeleg n' t' | SpUnknown n t, SpUnknown n' t' => same_name free n n' /\ alike zc t t'
  | _, _ => False
  end.
Definition body_alike (free zc : bool) (b b' : vbody) : Prop :=
  Forall2 (field_alike free zc) (vb_fields b) (vb_fields b') /\
  special_alike free zc (vb_special b) (vb_special b') /\
  forall vs, vb_check b vs = vb_check b' vs.
Definition item_alike (free zc : bool) (x x' : item) : Prop :=
  match x, x' with
  | IStruct b, IStruct b' => body_alike free zc b b'
  | IEnum vars c, IEnum vars' c' =>
      Forall2 (fun p p' => fst p = fst p' /\ body_alike free zc (snd p) (snd p')) vars vars' /\
      match c, c' with None, None => True | Some b, Some b' => body_alike free zc b b' | _, _ => False end
  | _, _ => False
  end.
(** All definitions, in the style of reading and in the copying style, which
    is used inside of [Copied]. *)
Definition env_alike (free zc : bool) (e e' : env) : Prop :=
  forall i, item_alike free zc (e i) (e' i) /\ item_alike free false (e i) (e' i).

(** The same result, except for the names in the location of an error. *)
Definition same_outcome (free : bool) (r r' : res derr value) : Prop :=
  match r, r' with
  | ROk v, ROk v' => v = v'
  | RErr x, RErr x' =>
      e_kind x = e_kind x' /\
      Forall2 (fun a b => snd a = snd b /\ same_name free (fst a) (fst b)) (e_path x) (e_path x')
  | RPanic, RPanic | RFuel, RFuel => True
  | _, _ => False
  end.
