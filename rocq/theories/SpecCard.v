(** * SpecCard: how often fields occur *)

From Verif Require Import Base Wire Dev Stream Types Prog SpecFormat SpecDe SpecDoc SpecRead.

(** ** Cardinality of fields

    [n], as one element of type [t], stands for [u]. *)
Definition stands (e : env) (ign zc : bool) (t : ty) (n : node) (u : value) : Prop :=
  exists fuel x, m_elem (means ign e fuel zc t) n = Some (u, x).

(** The occurrences of a field of type [t] stand for [w]: one for most types,
    at most one for [Option], [k] for arrays of length [k], any number for
    collections, all of which are kept in order. *)
Fixpoint occurs (e : env) (ign zc : bool) (t : ty) (occ : list (N * node)) (w : value) : Prop :=
  let all t us := Forall2 (fun f u => stands e ign zc t (snd f) u) occ us in
  let one := exists tag n, occ = [(tag, n)] /\ stands e ign zc t n w in
  match t with
  | TOption t' => (occ = [] /\ w = VOpt None) \/ (exists tag n u, occ = [(tag, n)] /\ w = VOpt (Some u) /\ stands e ign zc t' n u)
  | TVec t' => if is_u8 t' then one else exists us, all t' us /\ w = VList us
  | TSeq t' => exists us, all t' us /\ w = VList us
  | TSet t' => exists us, all t' us /\ w = as_set us
  | TArray k t' =>
      if is_u8 t' then one \/ (k = 0 /\ occ = [] /\ w = VArrB [])
      else lenN occ = k /\ exists us, all t' us /\ w = VArr us
  | TMap tk tv => exists kvs, all (TTuple [tk; tv]) (map (fun kv => VRec [fst kv; snd kv]) kvs) /\
                              w = VMap (fold_left (fun l kv => put (fst kv) (snd kv) l) kvs [])
  | TUnknown => w = VUnk occ
  | TBox t' => occurs e ign zc t' occ w
  | TCopied t' => occurs e ign false t' occ w
  | _ => one
  end.

(** How often a field of type [t] may occur, and the error for [n] as a
    further occurrence.  Large byte arrays look at the value first. *)
Inductive at_most : ty -> node -> N -> ekind -> Prop :=
| AmOption t n : at_most (TOption t) n 1 (KTooMany 1)
| AmArray k t n : is_u8 t = false -> at_most (TArray k t) n k (KTooMany k)
| AmBytes k t n : is_u8 t = true -> k <= 32 \/ (exists b, n = NBlob b /\ lenN b = k) -> at_most (TArray k t) n 1 (KTooMany 1)
| AmVec t n : is_u8 t = true -> at_most (TVec t) n 1 (KTooMany 1)
| AmTuple ts n : at_most (TTuple ts) n 1 (KTooMany 1)
| AmSimple t n : In t [TBool; TChar; TPhantom; TString; TStrRef; TBytesRef; TCowStr; TCowBytes; TUnkField] -> at_most t n 1 (KTooMany 1)
| AmUInt w n : at_most (TUInt w) n 1 (KTooMany 1)
| AmSInt w n : at_most (TSInt w) n 1 (KTooMany 1)
| AmBox t n k x : at_most t n k x -> at_most (TBox t) n k x
| AmCopied t n k x : at_most t n k x -> at_most (TCopied t) n k x.

(** How often it must occur. *)
Inductive at_least (e : env) : ty -> N -> Prop :=
| AlArray k t : is_u8 t = false -> at_least e (TArray k t) k
| AlBytes k t : is_u8 t = true -> k <> 0 -> at_least e (TArray k t) 1
| AlVec t : is_u8 t = true -> at_least e (TVec t) 1
| AlTuple ts : at_least e (TTuple ts) 1
| AlItem i : at_least e (TItem i) 1
| AlSimple t : In t [TBool; TChar; TPhantom; TString; TStrRef; TBytesRef; TCowStr; TCowBytes; TUnkField] -> at_least e t 1
| AlUInt w : at_least e (TUInt w) 1
| AlSInt w : at_least e (TSInt w) 1
| AlBox t k : at_least e t k -> at_least e (TBox t) k
| AlCopied t k : at_least e t k -> at_least e (TCopied t) k.

(** The body of a [t] declares a field with this tag and type; elements of
    [TCopied] are not borrowed from the input. *)
Inductive top_field (e : env) : bool -> ty -> N -> bool -> ty -> Prop :=
| TfPlain zc t : plain e t = true -> top_field e zc t 1 zc t
| TfTuple zc ts tag t : nth_type ts tag = Some t -> top_field e zc (TTuple ts) tag zc t
| TfStruct zc i b tag t : e i = IStruct b -> delegates b = false -> tag_type tag (vb_fields b) = Some t -> top_field e zc (TItem i) tag zc t
| TfDeleg zc i b nm t tag zc' t' : e i = IStruct b -> vb_special b = SpDeleg nm t -> top_field e zc t tag zc' t' -> top_field e zc (TItem i) tag zc' t'
| TfBox zc t tag zc' t' : top_field e zc t tag zc' t' -> top_field e zc (TBox t) tag zc' t'
| TfCopied zc t tag zc' t' : top_field e false t tag zc' t' -> top_field e zc (TCopied t) tag zc' t'.

(** [w] is the part of the [t] value [v] that is stored in this field. *)
Inductive part (e : env) : ty -> value -> N -> value -> Prop :=
| PtPlain t v : plain e t = true -> part e t v 1 v
| PtTuple ts vs n w : nth_error vs n = Some w -> part e (TTuple ts) (VRec vs) (N.of_nat n + 1) w
| PtStruct i b vs n f w : e i = IStruct b -> delegates b = false -> NoDup (map fd_tag (vb_fields b)) ->
    nth_error (vb_fields b) n = Some f -> nth_error vs n = Some w -> part e (TItem i) (VRec vs) (fd_tag f) w
| PtDeleg i b nm t vs v tag w : e i = IStruct b -> vb_special b = SpDeleg nm t -> part e t v tag w -> part e (TItem i) (VRec (vs ++ [v])) tag w
| PtBox t v tag w : part e t v tag w -> part e (TBox t) v tag w
| PtCopied t v tag w : part e t v tag w -> part e (TCopied t) v tag w.
