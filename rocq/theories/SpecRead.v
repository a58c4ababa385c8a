(** * SpecRead: what a document means as a value of a type

    A declarative account of deserialisation, from the documentation of
    [Deserialize] (src/de.rs 60-175, src/lib.rs) and [fourleaf_retrofit!]
    (src/sugar.rs): which value a document stands for as a value of a type,
    if any, and what reading it costs.  Fields are looked up by tag, without
    regard to their order; there are no streams, no accumulators and no
    limits here.  P_Means.v proves that this is what deserialisation does. *)

From Verif Require Import Base Wire Dev Stream Types Prog SpecFormat SpecDe SpecDoc.

(** ** Costs: nesting of contexts, elements collected, bytes copied *)
Record cost := mkX { k_lev : N; k_coll : N; k_blob : N }.
Definition czero : cost := mkX 0 0 0.
Definition cadd (x y : cost) : cost :=
  mkX (N.max (k_lev x) (k_lev y)) (k_coll x + k_coll y) (k_blob x + k_blob y).
(** One context further in. *)
Definition cdeep (x : cost) : cost := mkX (1 + k_lev x) (k_coll x) (k_blob x).
Definition cone : cost := mkX 0 1 0.
Definition cbytes (n : N) : cost := mkX 0 0 n.

(** [None]: the document has no meaning as such a value. *)
Definition R A := option (A * cost).
Definition rret {A} (a : A) : R A := Some (a, czero).
Definition rnone {A} : R A := None.
Definition rbind {A B} (m : R A) (f : A -> R B) : R B :=
  match m with
  | Some (a, x) => match f a with Some (b, y) => Some (b, cadd x y) | None => None end
  | None => None
  end.
Definition rcost {A} (x : cost) (m : R A) : R A :=
  match m with Some (a, y) => Some (a, cadd x y) | None => None end.
Definition rdeep {A} (m : R A) : R A := match m with Some (a, x) => Some (a, cdeep x) | None => None end.
Notation "'let!' x := m 'in' k" := (rbind m (fun x => k)) (at level 200, x pattern, m at level 100, k at level 200).
Fixpoint rmap {A B} (f : A -> R B) (l : list A) : R (list B) :=
  match l with
  | [] => rret []
  | a :: r => let! b := f a in let! bs := rmap f r in rret (b :: bs)
  end.

(** The fields with a tag, and the others. *)
Definition with_tag (tag : N) (ks : list (N * node)) : list (N * node) := filter (fun f => fst f =? tag) ks.
Definition without_tag (tag : N) (ks : list (N * node)) : list (N * node) := filter (fun f => negb (fst f =? tag)) ks.

(** A type says what all occurrences of a field of that type mean together,
    what one element of a collection means, and what a whole body means. *)
Record meaning := mkMn {
  m_occ : list (N * node) -> R value;
  m_elem : node -> R value;
  m_body : list (N * node) -> R value
}.

Section Meaning.
  Variable ign : bool.     (* ignore unknown fields *)

  (** ** Bodies *)

  (** The values of the declared fields, each from all its occurrences, and
      what is left. *)
  Fixpoint m_fields (fs : list (N * meaning)) (ks : list (N * node)) : R (list value * list (N * node)) :=
    match fs with
    | [] => rret ([], ks)
    | (tag, m) :: fs' =>
        let! v := rdeep (m_occ m (with_tag tag ks)) in
        let! r := m_fields fs' (without_tag tag ks) in
        rret (v :: fst r, snd r)
    end.
  Definition m_record (fs : list (N * meaning)) (catch : option meaning) (ks : list (N * node)) : R (list value) :=
    let! r := m_fields fs ks in
    match catch with
    | Some m => let! v := rdeep (m_occ m (snd r)) in rret (fst r ++ [v])
    | None =>
        match snd r with
        | [] => rret (fst r)
        | _ => if ign then rret (fst r) else rnone
        end
    end.
  (** A body that holds one thing, under tag 1. *)
  Definition m_top (occ : list (N * node) -> R value) (ks : list (N * node)) : R value :=
    let! vs := m_record [(1, mkMn occ (fun _ => rnone) (fun _ => rnone))] None ks in
    match vs with [v] => rret v | _ => rnone end.
  Definition m_in_struct (body : list (N * node) -> R value) (n : node) : R value :=
    match n with NStruct fs => body fs | _ => rnone end.

  (** ** Simple types: exactly one occurrence *)
  Definition m_once (conv : node -> R value) (occ : list (N * node)) : R value :=
    match occ with [(_, n)] => conv n | _ => rnone end.
  Definition m_simple (conv : node -> R value) : meaning :=
    mkMn (m_once conv) conv (m_top (m_once conv)).
  Definition m_uint (w : N) (n : node) : R value :=
    match n with NInt x => if x <=? umax w then rret (VU x) else rnone | _ => rnone end.
  Definition m_sint (w : N) (n : node) : R value :=
    match n with
    | NInt x => let z := unzigzag x in if (smin w <=? z)%Z && (z <=? smax w)%Z then rret (VS z) else rnone
    | _ => rnone
    end.
  Definition m_bool (n : node) : R value :=
    match n with
    | NInt x => if x =? 0 then rret (VB false) else if x =? 1 then rret (VB true) else rnone
    | _ => rnone
    end.
  Definition m_phantom (n : node) : R value :=
    match n with NInt x => if x =? 0 then rret VPhantom else rnone | _ => rnone end.
  Definition m_char (n : node) : R value :=
    match n with NInt x => if (x <=? umax 32) && char_ok x then rret (VChar x) else rnone | _ => rnone end.
  (** [own]: the bytes are copied. *)
  Definition m_str (own : bool) (n : node) : R value :=
    match n with
    | NBlob b => if utf8_ok b then Some (VStr b, cbytes (if own then lenN b else 0)) else rnone
    | _ => rnone
    end.
  Definition m_bytes (own : bool) (n : node) : R value :=
    match n with NBlob b => Some (VBytes b, cbytes (if own then lenN b else 0)) | _ => rnone end.
  (** [[u8; n]]: one blob of that length; [[u8; 0]] may be absent. *)
  Definition m_arrb (len : N) (n : node) : R value :=
    match n with NBlob b => if lenN b =? len then rret (VArrB b) else rnone | _ => rnone end.
  Definition m_arrb_occ (len : N) (occ : list (N * node)) : R value :=
    match occ with
    | [] => if len =? 0 then rret (VArrB []) else rnone
    | _ => m_once (m_arrb len) occ
    end.

  (** ** Collections: every occurrence is an element *)
  Definition m_coll (occ : list (N * node) -> R value) : meaning :=
    mkMn occ (m_in_struct (m_top occ)) (m_top occ).
  Definition m_list (fin : list value -> value) (m : meaning) : meaning :=
    m_coll (fun occ => let! vs := rmap (fun f => rcost cone (m_elem m (snd f))) occ in rret (fin vs)).
  (** A set holds each element once, in ascending order. *)
  Fixpoint place (v : value) (l : list value) : list value :=
    match l with
    | [] => [v]
    | x :: r => match value_cmp v x with Lt => v :: l | Eq => l | Gt => x :: place v r end
    end.
  Definition as_set (vs : list value) : value := VList (fold_right place [] vs).
  Definition m_array (len : N) (m : meaning) : meaning :=
    m_coll (fun occ => if lenN occ =? len then let! vs := rmap (fun f => m_elem m (snd f)) occ in rret (VArr vs) else rnone).
  Definition m_option (m : meaning) : meaning :=
    m_coll (fun occ =>
      match occ with
      | [] => rret (VOpt None)
      | [(_, n)] => let! v := m_elem m n in rret (VOpt (Some v))
      | _ => rnone
      end).

  (** ** Structs *)
  Definition m_struct (body : list (N * node) -> R value) (elem : node -> R value) : meaning :=
    mkMn (m_once elem) elem body.
  Fixpoint m_number (i : N) (ms : list meaning) : list (N * meaning) :=
    match ms with [] => [] | m :: r => (i, m) :: m_number (i + 1) r end.
  Definition m_tuple_body (ms : list meaning) (ks : list (N * node)) : R value :=
    let! vs := m_record (m_number 1 ms) None ks in rret (VRec vs).
  Definition m_tuple (ms : list meaning) : meaning :=
    m_struct (m_tuple_body ms) (m_in_struct (m_tuple_body ms)).

  (** Maps are collections of pairs, in ascending order of the keys; of several
      entries with equal keys the last value counts. *)
  Fixpoint put (k v : value) (l : list (value * value)) : list (value * value) :=
    match l with
    | [] => [(k, v)]
    | (k', v') :: r => match value_cmp k k' with Lt => (k, v) :: l | Eq => (k, v) :: r | Gt => (k', v') :: put k v r end
    end.
  Definition m_entry (mk mv : meaning) (n : node) : R (value * value) :=
    let! kv := m_in_struct (m_tuple_body [mk; mv]) n in
    match kv with VRec [k; v] => rret (k, v) | _ => rnone end.
  Definition m_map (mk mv : meaning) : meaning :=
    m_coll (fun occ =>
      let! kvs := rmap (fun f => rcost cone (m_entry mk mv (snd f))) occ in
      rret (VMap (fold_left (fun l kv => put (fst kv) (snd kv) l) kvs []))).

  (** ** UnknownFields: whatever there is *)
  Fixpoint unk_cost (own : bool) (n : node) : cost :=
    match n with
    | NInt _ => czero
    | NBlob b => cbytes (if own then lenN b else 0)
    | NStruct fs | NEnum _ fs =>
        fold_right (fun f x => cadd (cdeep (cadd cone (unk_cost own (snd f)))) x) czero fs
    end.
  Definition m_unknown (own : bool) : meaning :=
    let each f := Some (f, cadd cone (unk_cost own (snd f))) in
    let body fs := let! r := rmap (fun f => rdeep (each f)) fs in rret (VUnk r) in
    mkMn (fun occ => let! r := rmap each occ in rret (VUnk r)) (m_in_struct body) body.
  Definition m_unkfield (own : bool) : meaning := m_simple (fun n => Some (VNode n, unk_cost own n)).

  (** ** fourleaf_retrofit! *)
  Definition m_construct (b : vbody) (vs : list value) : R value :=
    if vb_check b vs then rret (VRec vs) else rnone.
  Definition m_decls (mk : ty -> meaning) (fs : list fdecl) : list (N * meaning) :=
    map (fun f => (fd_tag f, mk (fd_ty f))) fs.
  Definition m_vbody (mk : ty -> meaning) (b : vbody) (ks : list (N * node)) : R value :=
    let fs := m_decls mk (vb_fields b) in
    match vb_special b with
    | SpNone => let! vs := m_record fs None ks in m_construct b vs
    | SpUnknown _ t => let! vs := m_record fs (Some (mk t)) ks in m_construct b vs
    | SpDeleg _ t =>
        let! dv := rdeep (m_body (mk t) ks) in
        let! r := m_fields fs [] in
        m_construct b (fst r ++ [dv])
    end.
  Definition m_struct_elem (mk : ty -> meaning) (b : vbody) (n : node) : R value :=
    match vb_special b with
    | SpDeleg _ t => let! dv := rdeep (m_elem (mk t) n) in m_construct b [dv]
    | _ => m_in_struct (m_vbody mk b) n
    end.
  (** The first variant with the discriminant, and its number. *)
  Fixpoint variant (d : N) (vars : list (N * vbody)) : option (nat * vbody) :=
    match vars with
    | [] => None
    | (d', b) :: r =>
        if d =? d' then Some (O, b) else match variant d r with Some (i, b') => Some (S i, b') | None => None end
    end.
  Definition m_enum_elem (mk : ty -> meaning) (vars : list (N * vbody)) (catch : option vbody) (n : node) : R value :=
    match n with
    | NEnum d fs =>
        match variant d vars with
        | Some (ix, b) => let! v := m_vbody mk b fs in rret (VVar ix v)
        | None =>
            match catch with
            | Some b => let! v := m_vbody mk b fs in rret (VCatch d v)
            | None => rnone
            end
        end
    | _ => rnone
    end.

  (** ** All types.  [zc]: zero-copy style.  Recursive types are unfolded
      [fuel] times. *)
  Definition m_nothing : meaning := mkMn (fun _ => rnone) (fun _ => rnone) (fun _ => rnone).
  Section Of.
    Variable item_m : bool -> nat -> meaning.
    Fixpoint meaning_of (zc : bool) (t : ty) {struct t} : meaning :=
      match t with
      | TUInt w => m_simple (m_uint w)
      | TSInt w => m_simple (m_sint w)
      | TBool => m_simple m_bool
      | TChar => m_simple m_char
      | TPhantom => m_simple m_phantom
      | TString => m_simple (m_str true)
      | TStrRef => if zc then m_simple (m_str false) else m_nothing
      | TBytesRef => if zc then m_simple (m_bytes false) else m_nothing
      | TCowStr => m_simple (m_str (negb zc))
      | TCowBytes => m_simple (m_bytes (negb zc))
      | TVec t' => if is_u8 t' then m_simple (m_bytes true) else m_list VList (meaning_of zc t')
      | TSeq t' => m_list VList (meaning_of zc t')
      | TSet t' => m_list as_set (meaning_of zc t')
      | TOption t' => m_option (meaning_of zc t')
      | TArray n t' => if is_u8 t' then mkMn (m_arrb_occ n) (m_arrb n) (m_top (m_arrb_occ n)) else m_array n (meaning_of zc t')
      | TMap k v => m_map (meaning_of zc k) (meaning_of zc v)
      | TTuple ts => m_tuple (map (meaning_of zc) ts)
      | TBox t' => meaning_of zc t'
      | TCopied t' => meaning_of false t'
      | TUnknown => m_unknown (negb zc)
      | TUnkField => m_unkfield (negb zc)
      | TItem i => item_m zc i
      end.
  End Of.
  Variable e : env.
  Fixpoint item_meaning (fuel : nat) (zc : bool) (i : nat) : meaning :=
    match fuel with
    | O => m_nothing
    | S f =>
        let mk := meaning_of (item_meaning f) zc in
        match e i with
        | IStruct b => m_struct (m_vbody mk b) (m_struct_elem mk b)
        | IEnum vars catch => m_simple (m_enum_elem mk vars catch)
        end
    end.
  Definition means (fuel : nat) (zc : bool) (t : ty) : meaning := meaning_of (item_meaning fuel) zc t.
End Meaning.

(** The document [ks] stands for the value [v] of type [t], and reading it
    costs [x]: that is what unfolding recursive types often enough gives. *)
Definition denotes (e : env) (ign zc : bool) (t : ty) (ks : list (N * node)) (v : value) (x : cost) : Prop :=
  exists fuel, m_body (means ign e fuel zc t) ks = Some (v, x).

(** The configured limits allow the cost; an error says that a limit was
    exceeded, and it was. *)
Definition fits (cf : cfg) (x : cost) : Prop :=
  k_lev x <= cf_rec cf /\ k_coll x <= cf_collect cf /\ k_blob x <= cf_blob cf.
Definition exceeds (cf : cfg) (x : cost) (k : ekind) : Prop :=
  match k with
  | KRecLimit => cf_rec cf < k_lev x
  | KMaxCollect => cf_collect cf < k_coll x
  | KMaxBlob => cf_blob cf < k_blob x
  | _ => False
  end.

(** A fresh stream, seekable or not, over some encoding of the document
    [ks], whatever comes after it and however the reader delivers it. *)
Inductive doc_stream (ks : list (N * node)) : stream -> Prop :=
| DocStream bs tl dbg sk sched :
    encodes_doc ks bs -> bytes_ok (bs ++ tl) -> lenN (bs ++ tl) + 3 < U64_MAX -> Forall (fun x => x <> EvFail) sched ->
    doc_stream ks (new_stream dbg sk (mkDev (bs ++ tl) 0 sched)).

(** The standing assumptions on types and configurations. *)
Definition usable (e : env) (zc : bool) (cf : cfg) (t : ty) : Prop :=
  env_ok e /\ deserialisable e zc t /\ cf_collect cf <= U64_MAX /\ cf_blob cf <= U64_MAX.

(** ** Changes of order

    One step: two neighbouring fields with different tags swap places, in a
    struct or enum at any depth. *)
Inductive swap : list (N * node) -> list (N * node) -> Prop :=
| SwHere l a b r : fst a <> fst b -> swap (l ++ a :: b :: r) (l ++ b :: a :: r)
| SwIn l tag n n' r : swap_node n n' -> swap (l ++ (tag, n) :: r) (l ++ (tag, n') :: r)
with swap_node : node -> node -> Prop :=
| SwStruct fs fs' : swap fs fs' -> swap_node (NStruct fs) (NStruct fs')
| SwEnum d fs fs' : swap fs fs' -> swap_node (NEnum d fs) (NEnum d fs').
Inductive reordered : list (N * node) -> list (N * node) -> Prop :=
| RoSame ks : reordered ks ks
| RoStep ks1 ks2 ks3 : swap ks1 ks2 -> reordered ks2 ks3 -> reordered ks1 ks3.

(** Types that keep undeclared fields somewhere, in the order in which they
    occurred. *)
Section Keeps.
  Variable e : env.
  Definition body_catches (b : vbody) : Prop := match vb_special b with SpUnknown _ _ => True | _ => False end.
  Inductive keeps_unknown : ty -> Prop :=
  | KuFields : keeps_unknown TUnknown
  | KuField : keeps_unknown TUnkField
  | KuVec t : keeps_unknown t -> keeps_unknown (TVec t)
  | KuSeq t : keeps_unknown t -> keeps_unknown (TSeq t)
  | KuSet t : keeps_unknown t -> keeps_unknown (TSet t)
  | KuOption t : keeps_unknown t -> keeps_unknown (TOption t)
  | KuArray n t : keeps_unknown t -> keeps_unknown (TArray n t)
  | KuKey k v : keeps_unknown k -> keeps_unknown (TMap k v)
  | KuVal k v : keeps_unknown v -> keeps_unknown (TMap k v)
  | KuTuple t ts : In t ts -> keeps_unknown t -> keeps_unknown (TTuple ts)
  | KuBox t : keeps_unknown t -> keeps_unknown (TBox t)
  | KuCopied t : keeps_unknown t -> keeps_unknown (TCopied t)
  | KuItem i t : In t (item_types (e i)) -> keeps_unknown t -> keeps_unknown (TItem i)
  | KuStruct i b : e i = IStruct b -> body_catches b -> keeps_unknown (TItem i)
  | KuVariant i vars catch b : e i = IEnum vars catch -> In b (map snd vars) \/ catch = Some b -> body_catches b ->
      keeps_unknown (TItem i).
End Keeps.

(** Two bodies look the same to a struct: each declared tag has the same
    occurrences, and the other fields are the same. *)
Definition undeclared (tags : list N) (ks : list (N * node)) : list (N * node) :=
  filter (fun f => negb (existsb (N.eqb (fst f)) tags)) ks.
Definition same_fields (tags : list N) (ks ks' : list (N * node)) : Prop :=
  (forall tag, In tag tags -> with_tag tag ks = with_tag tag ks') /\ undeclared tags ks = undeclared tags ks'.

(** ** Added fields

    [each t]: the type of which every occurrence of a field of type [t] is an
    element; the fields of collections are flattened (src/lib.rs). *)
Fixpoint each (t : ty) : ty :=
  match t with
  | TVec t' | TArray _ t' => if is_u8 t' then t else t'
  | TSeq t' | TSet t' | TOption t' => t'
  | TMap k v => TTuple [k; v]
  | TBox t' | TCopied t' => each t'
  | _ => t
  end.
Fixpoint tag_type (tag : N) (fs : list fdecl) : option ty :=
  match fs with
  | [] => None
  | f :: r => if fd_tag f =? tag then Some (fd_ty f) else tag_type tag r
  end.
(** Components of tuples have the tags 1, 2, ... *)
Definition nth_type (ts : list ty) (tag : N) : option ty :=
  if tag =? 0 then None else nth_error ts (N.to_nat (tag - 1)).
Definition only_1 (t : ty) (tag : N) : option ty := if tag =? 1 then Some t else None.
Definition collects (b : vbody) : bool := match vb_special b with SpUnknown _ _ => true | _ => false end.
Definition delegates (b : vbody) : bool := match vb_special b with SpDeleg _ _ => true | _ => false end.
(** Types whose bodies hold one thing, under tag 1. *)
Definition plain (e : env) (t : ty) : bool :=
  match t with
  | TTuple _ | TBox _ | TCopied _ | TUnknown => false
  | TItem i => match e i with IEnum _ _ => true | IStruct _ => false end
  | _ => true
  end.
Definition collection (t : ty) : bool :=
  match t with
  | TVec t' | TArray _ t' => negb (is_u8 t')
  | TSeq _ | TSet _ | TOption _ | TMap _ _ => true
  | _ => false
  end.

(** [adds t ks ks']: [ks'] is the body [ks] of a [t] with fields added that
    are not declared where they are (nor kept by a [(?)] field), at any
    depth.  [adds_elem]: the same for elements of type [t]. *)
Section Adds.
  Variable e : env.
  Inductive adds : ty -> list (N * node) -> list (N * node) -> Prop :=
  | AdPlain t ks ks' : plain e t = true -> grows (only_1 t) false ks ks' -> adds t ks ks'
  | AdTuple ts ks ks' : grows (nth_type ts) false ks ks' -> adds (TTuple ts) ks ks'
  | AdStruct i b ks ks' : e i = IStruct b -> adds_body b ks ks' -> adds (TItem i) ks ks'
  | AdBox t ks ks' : adds t ks ks' -> adds (TBox t) ks ks'
  | AdCopied t ks ks' : adds t ks ks' -> adds (TCopied t) ks ks'
  with adds_body : vbody -> list (N * node) -> list (N * node) -> Prop :=
  | AbFields b ks ks' : delegates b = false -> grows (fun tag => tag_type tag (vb_fields b)) (collects b) ks ks' -> adds_body b ks ks'
  | AbDeleg b nm t ks ks' : vb_special b = SpDeleg nm t -> adds t ks ks' -> adds_body b ks ks'
  with adds_elem : ty -> node -> node -> Prop :=
  | AeSame t n : adds_elem t n n
  | AeColl t fs fs' : collection t = true -> grows (only_1 t) false fs fs' -> adds_elem t (NStruct fs) (NStruct fs')
  | AeTuple ts fs fs' : grows (nth_type ts) false fs fs' -> adds_elem (TTuple ts) (NStruct fs) (NStruct fs')
  | AeStruct i b fs fs' : e i = IStruct b -> delegates b = false -> adds_body b fs fs' -> adds_elem (TItem i) (NStruct fs) (NStruct fs')
  | AeDeleg i b nm t n n' : e i = IStruct b -> vb_special b = SpDeleg nm t -> adds_elem t n n' -> adds_elem (TItem i) n n'
  | AeVariant i vars catch d ix b fs fs' : e i = IEnum vars catch -> variant d vars = Some (ix, b) -> adds_body b fs fs' ->
      adds_elem (TItem i) (NEnum d fs) (NEnum d fs')
  | AeCatch i vars d b fs fs' : e i = IEnum vars (Some b) -> variant d vars = None -> adds_body b fs fs' ->
      adds_elem (TItem i) (NEnum d fs) (NEnum d fs')
  | AeBox t n n' : adds_elem t n n' -> adds_elem (TBox t) n n'
  | AeCopied t n n' : adds_elem t n n' -> adds_elem (TCopied t) n n'
  (** The fields of one body; [decl] gives the types of the declared tags;
      [keep]: undeclared fields are not to be added. *)
  with grows : (N -> option ty) -> bool -> list (N * node) -> list (N * node) -> Prop :=
  | GrNil decl keep : grows decl keep [] []
  | GrField decl keep tag t n n' ks ks' : decl tag = Some t -> adds_elem (each t) n n' -> grows decl keep ks ks' ->
      grows decl keep ((tag, n) :: ks) ((tag, n') :: ks')
  | GrOther decl keep tag n ks ks' : decl tag = None -> grows decl keep ks ks' -> grows decl keep ((tag, n) :: ks) ((tag, n) :: ks')
  | GrAdd decl tag n ks ks' : decl tag = None -> grows decl false ks ks' -> grows decl false ks ((tag, n) :: ks').
End Adds.

(** What the body of a [t] declares, if undeclared fields are not kept. *)
Inductive top_decl (e : env) : ty -> (N -> option ty) -> Prop :=
| TdPlain t : plain e t = true -> top_decl e t (only_1 t)
| TdTuple ts : top_decl e (TTuple ts) (nth_type ts)
| TdStruct i b : e i = IStruct b -> vb_special b = SpNone -> top_decl e (TItem i) (fun tag => tag_type tag (vb_fields b))
| TdDeleg i b nm t decl : e i = IStruct b -> vb_special b = SpDeleg nm t -> top_decl e t decl -> top_decl e (TItem i) decl
| TdBox t decl : top_decl e t decl -> top_decl e (TBox t) decl
| TdCopied t decl : top_decl e t decl -> top_decl e (TCopied t) decl.
