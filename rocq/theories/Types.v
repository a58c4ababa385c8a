(** * Types: the types and values the high-level API works on

    Rust's type-directed dispatch ([impl Serialize for ...], [impl
    Deserialize<R, STYLE> for ...]) becomes recursion over the codes of
    types below; every [impl] of src/ser.rs, src/de.rs, src/unknown.rs,
    src/adapt.rs and everything [fourleaf_retrofit!] (src/sugar.rs) can
    define has a code.  Nothing here is behaviour yet. *)

From Coq Require Export String Ascii.
From Verif Require Import Base.
Open Scope list_scope.

(** [UnknownField], src/unknown.rs 47-60; [UnknownFields] (38-41) is a list of
    tagged nodes. *)
Inductive node :=
| NInt (n : N)
| NBlob (b : bytes)
| NStruct (fs : list (N * node))
| NEnum (d : N) (fs : list (N * node)).

(** Codes of types.
    One constructor per [impl] of src/ser.rs 129-462, src/de.rs 765-1579, src/unknown.rs 62-170,
    src/adapt.rs 24-56 and per item of [fourleaf_retrofit!] (src/sugar.rs 389-707). *)
Inductive ty :=
| TUInt (w : N)                (* u8, u16, u32, u64, usize: w = 8, 16, 32, 64, 64 *)
| TSInt (w : N)                (* i8 .. i64, isize *)
| TBool | TChar
| TPhantom                     (* PhantomData<_> *)
| TString
| TStrRef | TBytesRef          (* &'a str, &'a [u8] *)
| TCowStr | TCowBytes          (* Cow<'a, str>, Cow<'a, [u8]> *)
| TVec (t : ty)
| TSeq (t : ty)                (* LinkedList, VecDeque, BinaryHeap *)
| TSet (t : ty)                (* BTreeSet, HashSet *)
| TOption (t : ty)
| TArray (n : N) (t : ty)      (* [t; n] *)
| TMap (k v : ty)              (* BTreeMap, HashMap *)
| TTuple (ts : list ty)        (* (), (A,), ..., 16 components *)
| TBox (t : ty)                (* Box, Rc, Arc; also &T when serialising *)
| TCopied (t : ty)             (* adapt::Copied *)
| TUnknown                     (* unknown::UnknownFields *)
| TUnkField                    (* unknown::UnknownField *)
| TItem (i : nat).             (* a type defined with fourleaf_retrofit! *)

(** What [fourleaf_retrofit!] is given, src/sugar.rs 562-706: the tagged
    fields of a struct or of an enum variant, at most one special field
    ([( * )] delegation or [(?)] unknown fields), and the constructor
    expression, of which only whether it returns [Ok] matters. *)
Record fdecl := mkF { fd_name : string; fd_tag : N; fd_ty : ty }.
(** src/sugar.rs 389-412: the [( * )] and [(?)] fields. *)
Inductive special :=
| SpNone
| SpDeleg (name : string) (t : ty)
| SpUnknown (name : string) (t : ty).
(** Values.  [Box]/[Rc]/[Arc]/[Cow]/[Copied] are transparent.  Sets and maps
    are lists in ascending order (below), which is the order in which a
    [BTreeSet] or [BTreeMap] is iterated over; for [HashSet] and [HashMap],
    whose order is unspecified, it is a representative (C62 says that the
    order does not matter); a struct's or variant's record
    lists the tagged fields in declaration order, then the special field.
    Values of the types of src/ser.rs 129-462 and src/de.rs 765-1579. *)
Inductive value :=
| VU (n : N) | VS (z : Z) | VB (b : bool) | VChar (c : N) | VPhantom
| VStr (bs : bytes)                  (* String, &str, Cow<str>: the UTF-8 bytes *)
| VBytes (bs : bytes)                (* Vec<u8>, &[u8], Cow<[u8]> *)
| VArrB (bs : bytes)                 (* [u8; n] *)
| VArr (vs : list value)             (* other arrays *)
| VList (vs : list value)            (* other collections *)
| VMap (kvs : list (value * value))
| VOpt (o : option value)
| VRec (vs : list value)             (* tuples, structs, bodies of variants *)
| VVar (ix : nat) (v : value)        (* the [ix]-th declared variant of an enum *)
| VCatch (d : N) (v : value)         (* the [(?)] variant with discriminant [d] *)
| VUnk (fs : list (N * node))
| VNode (n : node).

(** The braces of an item or variant, src/sugar.rs 562-572, 628-647. *)
Record vbody := mkB {
  vb_fields : list fdecl;
  vb_special : special;
  vb_check : list value -> bool
}.
(** The two forms, src/sugar.rs 562-626, 628-706. *)
Inductive item :=
| IStruct (b : vbody)
| IEnum (vars : list (N * vbody)) (catch : option vbody).
(** Definitions of the user's types; they may refer to each other and to
    themselves.
    Invocations of [fourleaf_retrofit!], src/sugar.rs 389-707. *)
Definition env := nat -> item.

(** [T::serialized_as_slice()]: only [u8] itself (src/de.rs 934-1020,
    src/ser.rs 181-195). *)
Definition is_u8 (t : ty) : bool := match t with TUInt w => w =? 8 | _ => false end.

(** ** [Ord]

    The order of [BTreeSet] elements and [BTreeMap] keys is taken to be the
    one [#[derive(Ord)]] gives: integers by value, sequences lexicographically
    ([[T]], [str], tuples and structs in declaration order), [None] before
    [Some], enums by variant; it is computed on trees labelled with integers,
    compared label first, then children lexicographically.  (For types whose
    [Ord] is written by hand this is a simplification.)  src/de.rs 1498-1512,
    1572-1580, src/ser.rs 425-463: the impls for ordered collections. *)
Inductive otree := OT (label : Z) (children : list otree).

(** Lexicographic order of sequences (std). *)
Section Lex.
  Context {A : Type} (cmp : A -> A -> comparison).
  Fixpoint lex (a b : list A) : comparison :=
    match a, b with
    | [], [] => Eq
    | [], _ :: _ => Lt
    | _ :: _, [] => Gt
    | x :: a', y :: b' => match cmp x y with Eq => lex a' b' | c => c end
    end.
End Lex.
(** [Ord] as derived (std). *)
Fixpoint otree_cmp (a b : otree) {struct a} : comparison :=
  match a, b with
  | OT i x, OT j y => match (i ?= j)%Z with Eq => lex otree_cmp x y | c => c end
  end.
(** Leaves: integers (std). *)
Definition oleaf (z : Z) : otree := OT z [].
(** Strings and byte slices: lexicographic (std). *)
Definition obytes (bs : bytes) : list otree := map (fun b => oleaf (Z.of_N b)) bs.
(** The variants of [UnknownField] in the order of src/unknown.rs 47-60. *)
Fixpoint onode (n : node) : otree :=
  match n with
  | NInt n => OT 0 [oleaf (Z.of_N n)]
  | NBlob b => OT 1 (obytes b)
  | NStruct fs => OT 2 (map (fun f => OT (Z.of_N (fst f)) [onode (snd f)]) fs)
  | NEnum d fs => OT 3 (oleaf (Z.of_N d) :: map (fun f => OT (Z.of_N (fst f)) [onode (snd f)]) fs)
  end.
(** What the order of values looks at; values of one type differ in the root
    label only if they are of different variants.
    [Ord] of the keys and elements of src/de.rs 1497-1512, 1574-1579. *)
Fixpoint ovalue (v : value) : otree :=
  match v with
  | VU n => OT 0 [oleaf (Z.of_N n)]
  | VS z => OT 1 [oleaf z]
  | VB b => OT 2 [oleaf (if b then 1 else 0)]
  | VChar c => OT 3 [oleaf (Z.of_N c)]
  | VPhantom => OT 4 []
  | VStr bs => OT 5 (obytes bs)
  | VBytes bs => OT 6 (obytes bs)
  | VArrB bs => OT 7 (obytes bs)
  | VArr vs => OT 8 (map ovalue vs)
  | VList vs => OT 9 (map ovalue vs)
  | VMap kvs => OT 10 (map (fun p => OT 0 [ovalue (fst p); ovalue (snd p)]) kvs)
  | VOpt None => OT 11 []
  | VOpt (Some x) => OT 11 [ovalue x]
  | VRec vs => OT 12 (map ovalue vs)
  | VVar i x => OT 13 [oleaf (Z.of_nat i); ovalue x]
  | VCatch d x => OT 14 [oleaf (Z.of_N d); ovalue x]
  | VUnk fs => OT 15 (map (fun f => OT (Z.of_N (fst f)) [onode (snd f)]) fs)
  | VNode n => OT 16 [onode n]
  end.
(** [Ord::cmp], as used by [insert] at src/de.rs 1497-1512, 1574-1579. *)
Definition value_cmp (a b : value) : comparison := otree_cmp (ovalue a) (ovalue b).

(** [char::from_u32]: Unicode scalar values. *)
Definition char_ok (n : N) : bool :=
  (n <? 0xD800) || ((0xDFFF <? n) && (n <=? 0x10FFFF)).

(** [str::from_utf8]: well-formed UTF-8 (Unicode 3.9, table 3-7). *)
Definition between (lo hi b : N) : bool := (lo <=? b) && (b <=? hi).
(** std: [str::from_utf8], [String::from_utf8]; used at src/de.rs 779-800. *)
Fixpoint utf8_ok (bs : bytes) : bool :=
  match bs with
  | [] => true
  | b :: r =>
      if b <? 0x80 then utf8_ok r
      else if between 0xC2 0xDF b then
        match r with
        | c :: r' => between 0x80 0xBF c && utf8_ok r'
        | _ => false
        end
      else if between 0xE0 0xEF b then
        match r with
        | c :: d :: r' =>
            between (if b =? 0xE0 then 0xA0 else 0x80) (if b =? 0xED then 0x9F else 0xBF) c
            && between 0x80 0xBF d && utf8_ok r'
        | _ => false
        end
      else if between 0xF0 0xF4 b then
        match r with
        | c :: d :: e :: r' =>
            between (if b =? 0xF0 then 0x90 else 0x80) (if b =? 0xF4 then 0x8F else 0xBF) c
            && between 0x80 0xBF d && between 0x80 0xBF e && utf8_ok r'
        | _ => false
        end
      else false
  end.

(** Names used in error locations: ["field_0"], ... (src/de.rs 1371-1423) and
    the two decimal digits of [push_tag] (src/de.rs 305-310). *)
Definition digit (n : N) : ascii := ascii_of_N (48 + n).
(** src/de.rs 305-310. *)
Definition tag_name (t : N) : string := String (digit (t / 10)) (String (digit (t mod 10)) EmptyString).
(** src/de.rs 1371-1378. *)
Definition tuple_name (i : N) : string :=
  append "field_" (if i <? 10 then String (digit i) EmptyString else tag_name i).
