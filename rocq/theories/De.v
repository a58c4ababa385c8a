(** * De: model of src/de.rs, and of the [Deserialize] impls in
    src/unknown.rs, src/adapt.rs and those generated by src/sugar.rs *)

From Verif Require Import Base Wire Dev Stream Types Ser Prog.

(** [Deserialize::Accum].  [Option<Self>] and the accumulators of byte
    vectors and byte arrays (whose flag is set together with the value) are
    [AOpt]; those of the other collections and arrays list the items so far.
    src/de.rs 412-426. *)
Inductive acc :=
| AOpt (o : option value)
| AList (vs : list value)
| AMap (kvs : list (value * value))
| AUnk (fs : list (N * node)).

(** The methods of one [Deserialize<R, STYLE>] impl, src/de.rs 412-738.  A
    [Field] is given by its tag and value. *)
Record dict := mkD {
  d_init : acc;                             (* Accum::default() *)
  d_field : acc -> N -> vhdr -> prog acc;   (* deserialize_field *)
  d_elem : N -> vhdr -> prog value;         (* deserialize_element *)
  d_fin : acc -> prog value;                (* finish *)
  d_body : prog value                       (* deserialize_body *)
}.

(** An accumulator of the wrong kind (excluded by Rust's types).
    No counterpart (the accumulator type is fixed at src/de.rs 412-426). *)
Definition ill {A} : prog A := PStop StPanic.

(** ** Bodies *)

(** The [match field.tag] of src/de.rs 367-382 and src/sugar.rs 455-486. *)
Fixpoint find_tag {A} (tag : N) (l : list (string * N * A)) : option (nat * string * A) :=
  match l with
  | [] => None
  | (nm, t, a) :: r =>
      if t =? tag then Some (O, nm, a)
      else match find_tag tag r with
           | Some (i, nm', a') => Some (S i, nm', a')
           | None => None
           end
  end.
(** Assignment to the accumulator of one field, src/de.rs 367-382. *)
Fixpoint upd {A} (i : nat) (x : A) (l : list A) : list A :=
  match l, i with
  | [], _ => []
  | _ :: r, O => x :: r
  | y :: r, S i' => y :: upd i' x r
  end.

(** Name, tag and impl of a declared field, src/de.rs 359-366. *)
Definition fdict := (string * N * dict)%type.
(** The impl of a declared field, src/de.rs 359-366. *)
Definition fdict_d (f : fdict) : dict := snd f.

(** One round of [while let Some(mut field) = stream.next_field()...]:
    [des_struct_body!] src/de.rs 359-392 and [@_STRUCT_BODY_DESER]
    src/sugar.rs 428-504.  [unk] is the [(?)] field. *)
Definition body_step (fs : list fdict) (unk : option (string * dict))
    (st : list acc * acc) : prog ((list acc * acc) + (list acc * acc)) :=
  let '(accs, ua) := st in
  r <- pdo ONext ;
  match r with
  | None => PRet (inr st)
  | Some (tag, vh) =>
      match find_tag tag fs with
      | Some (i, nm, d) =>
          pdo (OPush true nm) ;>
          a <- d_field d (nth i accs (AOpt None)) tag vh ;
          pdo OPop ;>
          PRet (inl (upd i a accs, ua))
      | None =>
          match unk with
          | Some (_, d) =>
              pdo (OPush true (tag_name tag)) ;>
              a <- d_field d ua tag vh ;
              pdo OPop ;>
              PRet (inl (accs, a))
          | None =>
              pdo OUnknown ;>
              pdo OSkip ;>
              PRet (inl st)
          end
      end
  end.

(** [let subcontext = context.push(name, stream.pos())?; finish(...)].
    src/de.rs 384-388, src/sugar.rs 488-501. *)
Definition finish_one (nm : string) (d : dict) (a : acc) : prog value :=
  pdo (OPush false nm) ;>
  v <- d_fin d a ;
  pdo OPop ;>
  PRet v.
(** src/de.rs 384-388, src/sugar.rs 488-501. *)
Fixpoint finish_all (fs : list fdict) (accs : list acc) : prog (list value) :=
  match fs, accs with
  | (nm, _, d) :: fs', a :: accs' =>
      v <- finish_one nm d a ;
      vs <- finish_all fs' accs' ;
      PRet (v :: vs)
  | [], [] => PRet []
  | _, _ => ill
  end.

(** src/de.rs 359-366. *)
Definition inits (fs : list fdict) : list acc := map (fun f => d_init (fdict_d f)) fs.

(** The whole body: the values of the tagged fields, then of the [(?)]
    field.
    src/de.rs 359-392, src/sugar.rs 428-504. *)
Definition des_body (fs : list fdict) (unk : option (string * dict)) : prog (list value) :=
  st <- ploop (body_step fs unk)
          (inits fs, match unk with Some (_, d) => d_init d | None => AOpt None end) ;
  let '(accs, ua) := st in
  vs <- finish_all fs accs ;
  match unk with
  | None => PRet vs
  | Some (nm, d) => v <- finish_one nm d ua ; PRet (vs ++ [v])
  end.

(** The default [deserialize_body], src/de.rs 427-435. *)
Definition body_default (d : dict) : prog value :=
  vs <- des_body [("top"%string, 1, d)] None ;
  match vs with [v] => PRet v | _ => ill end.

(** ** Building impls *)

(** Default [deserialize_element], src/de.rs 451-457. *)
Definition elem_default (init : acc) (field : acc -> N -> vhdr -> prog acc)
    (fin : acc -> prog value) (tag : N) (vh : vhdr) : prog value :=
  a <- field init tag vh ; fin a.

(** Complete an impl by the default body.
    src/de.rs 427-435. *)
Definition with_default_body (d : dict) : dict :=
  mkD (d_init d) (d_field d) (d_elem d) (d_fin d) (body_default d).

(** The accumulator [Option<Self>]: [des_unary!] src/de.rs 740-763, [u8]
    937-952, [des_struct!] 1341-1367.  [too_many] is the error for a second
    occurrence. *)
Definition opt_field (too_many : ekind) (conv : N -> vhdr -> prog value)
    (a : acc) (tag : N) (vh : vhdr) : prog acc :=
  match a with
  | AOpt (Some _) => pfail too_many
  | AOpt None => v <- conv tag vh ; PRet (AOpt (Some v))
  | _ => ill
  end.
(** src/de.rs 740-763 ([finish]). *)
Definition opt_fin (a : acc) : prog value :=
  match a with
  | AOpt (Some v) => PRet v
  | AOpt None => pfail KMissing
  | _ => ill
  end.
(** [des_unary!], src/de.rs 740-763. *)
Definition unary (conv : N -> vhdr -> prog value) : dict :=
  with_default_body
    (mkD (AOpt None) (opt_field (KTooMany 1) conv)
         (elem_default (AOpt None) (opt_field (KTooMany 1) conv) opt_fin)
         opt_fin ill).

(** Scalars, src/de.rs 765-770, 934-952, 1022-1046. *)
Definition conv_uint (w : N) (_ : N) (vh : vhdr) : prog value :=
  n <- plift (to_uint (umax w) vh) ; PRet (VU n).
(** src/de.rs 1022-1039. *)
Definition conv_sint (w : N) (_ : N) (vh : vhdr) : prog value :=
  z <- plift (to_sint (smin w) (smax w) vh) ; PRet (VS z).
(** src/de.rs 1022-1039. *)
Definition conv_bool (_ : N) (vh : vhdr) : prog value :=
  b <- plift (to_bool vh) ; PRet (VB b).
(** src/de.rs 765-770. *)
Definition conv_phantom (_ : N) (vh : vhdr) : prog value :=
  plift (to_null vh) ;> PRet VPhantom.
(** src/de.rs 1040-1046. *)
Definition conv_char (_ : N) (vh : vhdr) : prog value :=
  n <- plift (to_uint (umax 32) vh) ;
  if char_ok n then PRet (VChar n) else pfail KInvalidMsg.

(** Blobs.  [dv], src/de.rs 956-966, is shared with [String], 790-800. *)
Definition read_owned (vh : vhdr) : prog bytes :=
  len <- plift (to_blob vh) ;
  pdo (OQuota len) ;>
  pdo OReadFully.
(** src/de.rs 790-800. *)
Definition conv_string (_ : N) (vh : vhdr) : prog value :=
  bs <- read_owned vh ;
  if utf8_ok bs then PRet (VStr bs) else pfail KInvalid.
(** [&'a [u8]] and [&'a str], src/de.rs 772-788. *)
Definition read_borrowed (vh : vhdr) : prog bytes :=
  plift (to_blob vh) ;> pdo OExt.
(** src/de.rs 772-777. *)
Definition conv_bytes_ref (_ : N) (vh : vhdr) : prog value :=
  bs <- read_borrowed vh ; PRet (VBytes bs).
(** src/de.rs 779-788. *)
Definition conv_str_ref (_ : N) (vh : vhdr) : prog value :=
  bs <- read_borrowed vh ;
  if utf8_ok bs then PRet (VStr bs) else pfail KInvalid.

(** [Vec<u8>]: [deserialize_vec] is consulted first, src/de.rs 1425-1467.  On
    a second occurrence the blob is read (or not), then the error is
    [FieldOccursTooManyTimes] either way. *)
Definition vecu8_field (a : acc) (_ : N) (vh : vhdr) : prog acc :=
  match a with
  | AOpt (Some _) => pdo (OOver (KTooMany 1)) ;> read_owned vh ;> pfail (KTooMany 1)
  | AOpt None => bs <- read_owned vh ; PRet (AOpt (Some (VBytes bs)))
  | _ => ill
  end.
(** src/de.rs 956-966, 1425-1467. *)
Definition dict_vecu8 : dict :=
  with_default_body
    (mkD (AOpt None) vecu8_field
         (fun _ vh => bs <- read_owned vh ; PRet (VBytes bs))
         opt_fin ill).

(** [[u8; n]]: [deser_bytes_as_array!] src/de.rs 906-932 and
    [deserialize_slice] 968-985. *)
Definition read_array (n : N) (vh : vhdr) : prog value :=
  plift (to_blob vh) ;>
  rem <- pdo ORemaining ;
  if rem =? n then bs <- pdo (OReadExact n) ; PRet (VArrB bs)
  else pfail KInvalidMsg.
(** [des_small_array!] (n <= 32) src/de.rs 1089-1120: the result of reading
    is discarded if the accumulator is full; [des_large_array!] 1258-1284
    reports the error of reading first. *)
Definition arru8_field (n : N) (a : acc) (_ : N) (vh : vhdr) : prog acc :=
  match a with
  | AOpt (Some _) =>
      (if n <=? 32 then pdo (OOver (KTooMany 1)) else PRet tt) ;>
      read_array n vh ;> pfail (KTooMany 1)
  | AOpt None => v <- read_array n vh ; PRet (AOpt (Some v))
  | _ => ill
  end.
(** [finish]: with [n = 0] no occurrence is needed.
    src/de.rs 1123-1143, 1286-1301. *)
Definition arru8_fin (n : N) (a : acc) : prog value :=
  match a with
  | AOpt (Some v) => PRet v
  | AOpt None => if n =? 0 then PRet (VArrB []) else pfail KMissing
  | _ => ill
  end.
(** src/de.rs 906-932, 968-985, 1070-1146, 1231-1304. *)
Definition dict_arru8 (n : N) : dict :=
  with_default_body
    (mkD (AOpt None) (arru8_field n) (fun _ vh => read_array n vh) (arru8_fin n) ill).

(** Collection elements that are structs holding field 1:
    [Self::deserialize_body(context, field.value.to_struct()...)].
    E.g. src/de.rs 1429-1438. *)
Definition wrapped (d : dict) : dict :=
  let body := body_default d in
  mkD (d_init d) (d_field d) (fun _ vh => plift (to_struct vh) ;> body) (d_fin d) body.

(** Other arrays, src/de.rs 1070-1146, 1231-1304. *)
Definition arr_field (n : N) (d : dict) (a : acc) (tag : N) (vh : vhdr) : prog acc :=
  match a with
  | AList vs =>
      if n <=? lenN vs then pfail (KTooMany n)
      else v <- d_elem d tag vh ; PRet (AList (vs ++ [v]))
  | _ => ill
  end.
(** src/de.rs 1123-1143, 1286-1301. *)
Definition arr_fin (n : N) (a : acc) : prog value :=
  match a with
  | AList vs =>
      if lenN vs <? n then
        match vs with
        | [] => pfail KMissing
        | _ => pfail (KTooFew n)
        end
      else PRet (VArr vs)
  | _ => ill
  end.
(** src/de.rs 1070-1146, 1231-1304. *)
Definition dict_arr (n : N) (d : dict) : dict :=
  wrapped (mkD (AList []) (arr_field n d) (fun _ _ => ill) (arr_fin n) ill).

(** [Vec<T>] (src/de.rs 1425-1467) and [des_push_seq!] (1469-1512): [ins] is [push],
    [push_back] or [insert]. *)
Definition coll_field (ins : value -> list value -> list value) (d : dict)
    (a : acc) (tag : N) (vh : vhdr) : prog acc :=
  match a with
  | AList vs =>
      pdo OCollect ;>
      v <- d_elem d tag vh ;
      PRet (AList (ins v vs))
  | _ => ill
  end.
(** src/de.rs 1460-1466, 1469-1495. *)
Definition coll_fin (a : acc) : prog value :=
  match a with AList vs => PRet (VList vs) | _ => ill end.
(** src/de.rs 1425-1512. *)
Definition dict_coll (ins : value -> list value -> list value) (d : dict) : dict :=
  wrapped (mkD (AList []) (coll_field ins d) (fun _ _ => ill) coll_fin ill).
(** src/de.rs 1425-1467, 1497-1505. *)
Definition push_back (v : value) (vs : list value) : list value := vs ++ [v].
(** [insert] of the sets, src/de.rs 1497-1512: an element already there is kept. *)
Fixpoint set_insert (v : value) (vs : list value) : list value :=
  match vs with
  | [] => [v]
  | x :: r =>
      match value_cmp v x with
      | Lt => v :: x :: r
      | Eq => x :: r
      | Gt => x :: set_insert v r
      end
  end.

(** [Option<T>], src/de.rs 1514-1541. *)
Definition dict_option (d : dict) : dict :=
  wrapped (mkD (AOpt None) (opt_field (KTooMany 1) (d_elem d)) (fun _ _ => ill)
    (fun a => match a with AOpt o => PRet (VOpt o) | _ => ill end) ill).

(** [des_struct!] for tuples, src/de.rs 1326-1423. *)
Fixpoint tuple_fields (i : N) (ds : list dict) : list fdict :=
  match ds with
  | [] => []
  | d :: r => (tuple_name i, i + 1, d) :: tuple_fields (i + 1) r
  end.
(** [des_struct!], src/de.rs 1326-1369. *)
Definition dict_struct (too_many : ekind) (body : prog value)
    (elem : N -> vhdr -> prog value) : dict :=
  mkD (AOpt None) (opt_field too_many elem) elem opt_fin body.
(** src/de.rs 1332-1339, 1371-1378. *)
Definition tuple_body (ds : list dict) : prog value :=
  vs <- des_body (tuple_fields 0 ds) None ; PRet (VRec vs).
(** src/de.rs 1371-1423. *)
Definition dict_tuple (ds : list dict) : dict :=
  let body := tuple_body ds in
  dict_struct (KTooMany 1) body (fun _ vh => plift (to_struct vh) ;> body).

(** [des_map!], src/de.rs 1543-1579: an entry is read as the tuple (K, V).
    [insert] of the maps, src/de.rs 1543-1572: keeps the old key, replaces the value. *)
Fixpoint map_insert (k v : value) (l : list (value * value)) : list (value * value) :=
  match l with
  | [] => [(k, v)]
  | (k', v') :: r =>
      match value_cmp k k' with
      | Lt => (k, v) :: (k', v') :: r
      | Eq => (k', v) :: r
      | Gt => (k', v') :: map_insert k v r
      end
  end.
(** src/de.rs 1543-1572. *)
Definition map_field (dk dv : dict) (a : acc) (tag : N) (vh : vhdr) : prog acc :=
  match a with
  | AMap kvs =>
      pdo OCollect ;>
      kv <- d_elem (dict_tuple [dk; dv]) tag vh ;
      match kv with
      | VRec [k; v] => PRet (AMap (map_insert k v kvs))
      | _ => ill
      end
  | _ => ill
  end.
(** src/de.rs 1543-1579. *)
Definition dict_map (dk dv : dict) : dict :=
  wrapped (mkD (AMap []) (map_field dk dv) (fun _ _ => ill)
    (fun a => match a with AMap kvs => PRet (VMap kvs) | _ => ill end) ill).

(** ** UnknownFields, src/unknown.rs 84-124, 145-170

    The blobs are [Cow<[u8]>].  [fuel] bounds the nesting (each level pushes
    a context, so the recursion limit is reached first). *)
Definition cow_bytes (zc : bool) (vh : vhdr) : prog bytes :=
  if zc then read_borrowed vh else read_owned vh.
(** src/unknown.rs 88-103, with 149-165 for each field. *)
Fixpoint unk_body (zc : bool) (fuel : nat) : prog (list (N * node)) :=
  match fuel with
  | O => PStop StFuel
  | S f =>
      ploop (fun fs : list (N * node) =>
        r <- pdo ONext ;
        match r with
        | None => PRet (inr fs)
        | Some (tag, vh) =>
            pdo (OPush true (tag_name tag)) ;>
            pdo OCollect ;>
            n <- (match vh with
                  | HInt n => PRet (NInt n)
                  | HBlob _ => b <- cow_bytes zc vh ; PRet (NBlob b)
                  | HStruct => fs <- unk_body zc f ; PRet (NStruct fs)
                  | HEnum d => fs <- unk_body zc f ; PRet (NEnum d fs)
                  end) ;
            pdo OPop ;>
            PRet (inl (fs ++ [(tag, n)]))
        end) []
  end.
(** [UnknownField::deserialize_field] with an empty accumulator.
    src/unknown.rs 149-165. *)
Definition unk_elem (zc : bool) (fuel : nat) (vh : vhdr) : prog node :=
  match vh with
  | HInt n => PRet (NInt n)
  | HBlob _ => b <- cow_bytes zc vh ; PRet (NBlob b)
  | HStruct => fs <- unk_body zc fuel ; PRet (NStruct fs)
  | HEnum d => fs <- unk_body zc fuel ; PRet (NEnum d fs)
  end.
(** src/unknown.rs 105-113. *)
Definition unk_field (zc : bool) (fuel : nat) (a : acc) (tag : N) (vh : vhdr) : prog acc :=
  match a with
  | AUnk fs =>
      pdo OCollect ;>
      n <- unk_elem zc fuel vh ;
      PRet (AUnk (fs ++ [(tag, n)]))
  | _ => ill
  end.
(** src/unknown.rs 84-124. *)
Definition dict_unknown (zc : bool) (fuel : nat) : dict :=
  let body := fs <- unk_body zc fuel ; PRet (VUnk fs) in
  mkD (AUnk []) (unk_field zc fuel) (fun _ vh => plift (to_struct vh) ;> body)
      (fun a => match a with AUnk fs => PRet (VUnk fs) | _ => ill end) body.
(** src/unknown.rs 145-170. *)
Definition dict_unkfield (zc : bool) (fuel : nat) : dict :=
  unary (fun _ vh => n <- unk_elem zc fuel vh ; PRet (VNode n)).

(** ** Types defined with fourleaf_retrofit! *)

(** The constructor expression.
    src/sugar.rs 488-504. *)
Definition construct (b : vbody) (vs : list value) : prog value :=
  if vb_check b vs then PRet (VRec vs) else pfail KInvalidMsg.

(** src/sugar.rs 428-454. *)
Definition fdicts (mk : ty -> dict) (fs : list fdecl) : list fdict :=
  map (fun f => (fd_name f, fd_tag f, mk (fd_ty f))) fs.

(** [@_STRUCT_BODY_DESER], src/sugar.rs 428-504.  With a delegate the loop is
    not entered and the tagged fields are finished from their defaults. *)
Definition vbody_body (mk : ty -> dict) (b : vbody) : prog value :=
  let fs := fdicts mk (vb_fields b) in
  match vb_special b with
  | SpNone => vs <- des_body fs None ; construct b vs
  | SpUnknown nm t => vs <- des_body fs (Some (nm, mk t)) ; construct b vs
  | SpDeleg nm t =>
      pdo (OPush false nm) ;>
      dv <- d_body (mk t) ;
      pdo OPop ;>
      vs <- finish_all fs (inits fs) ;
      construct b (vs ++ [dv])
  end.
(** [@_STRUCT_ELEMENT_DESER], src/sugar.rs 506-524, and [deserialize_element]
    of a struct, 613-624. *)
Definition struct_elem (mk : ty -> dict) (b : vbody) (tag : N) (vh : vhdr) : prog value :=
  match vb_special b with
  | SpDeleg nm t =>
      pdo (OPush true nm) ;>
      dv <- d_elem (mk t) tag vh ;
      pdo OPop ;>
      construct b [dv]
  | _ => plift (to_struct vh) ;> vbody_body mk b
  end.
(** [@_DESER_BOILERPLATE], src/sugar.rs 526-550: note the error reported for
    a second occurrence. *)
Definition dict_item_struct (mk : ty -> dict) (b : vbody) : dict :=
  dict_struct (KTooFew 1) (vbody_body mk b) (struct_elem mk b).

(** [deserialize_element] of an enum, src/sugar.rs 676-704. *)
Fixpoint find_variant (d : N) (vars : list (N * vbody)) : option (nat * vbody) :=
  match vars with
  | [] => None
  | (d', b) :: r =>
      if d =? d' then Some (O, b)
      else match find_variant d r with Some (i, b') => Some (S i, b') | None => None end
  end.
(** src/sugar.rs 676-704. *)
Definition enum_elem (mk : ty -> dict) (vars : list (N * vbody)) (catch : option vbody)
    (_ : N) (vh : vhdr) : prog value :=
  d <- plift (to_enum vh) ;
  match find_variant d vars with
  | Some (ix, b) => v <- vbody_body mk b ; PRet (VVar ix v)
  | None =>
      match catch with
      | Some b => v <- vbody_body mk b ; PRet (VCatch d v)
      | None => pfail (KUnknownVariant d)
      end
  end.
(** src/sugar.rs 526-550, 628-706. *)
Definition dict_item_enum (mk : ty -> dict) (vars : list (N * vbody)) (catch : option vbody) : dict :=
  with_default_body (dict_struct (KTooFew 1) ill (enum_elem mk vars catch)).

(** ** All types

    [zc] is the style ([style::ZeroCopy] or [style::Copying]).  [&str] and
    [&[u8]] have no impl for [Copying] ([deserialisable] in SpecDe.v). *)
(** No counterpart: an impl that does not exist or is not reached. *)
Definition dict_stop (x : stop) : dict :=
  mkD (AOpt None) (fun _ _ _ => PStop x) (fun _ _ => PStop x) (fun _ => PStop x) (PStop x).

Section Dict.
  Variable ufuel : nat.
  Variable item_d : bool -> nat -> dict.

  (** The choice of impl; src/de.rs 765-1579; lines are at the definitions above. *)
  Fixpoint dict_of (zc : bool) (t : ty) {struct t} : dict :=
    match t with
    | TUInt w => unary (conv_uint w)
    | TSInt w => unary (conv_sint w)
    | TBool => unary conv_bool
    | TChar => unary conv_char
    | TPhantom => unary conv_phantom
    | TString => unary conv_string
    | TStrRef => if zc then unary conv_str_ref else dict_stop StPanic
    | TBytesRef => if zc then unary conv_bytes_ref else dict_stop StPanic
    | TCowStr => (* src/de.rs 838-904 *)
        if zc then unary conv_str_ref else unary conv_string
    | TCowBytes => if zc then unary conv_bytes_ref else dict_vecu8
    | TVec t' => if is_u8 t' then dict_vecu8 else dict_coll push_back (dict_of zc t')
    | TSeq t' => dict_coll push_back (dict_of zc t')
    | TSet t' => dict_coll set_insert (dict_of zc t')
    | TOption t' => dict_option (dict_of zc t')
    | TArray n t' => if is_u8 t' then dict_arru8 n else dict_arr n (dict_of zc t')
    | TMap k v => dict_map (dict_of zc k) (dict_of zc v)
    | TTuple ts => dict_tuple (map (dict_of zc) ts)
    | TBox t' => dict_of zc t'        (* des_boxed!, 802-836 *)
    | TCopied t' => dict_of false t'  (* src/adapt.rs 29-56 *)
    | TUnknown => dict_unknown zc ufuel
    | TUnkField => dict_unkfield zc ufuel
    | TItem i => item_d zc i
    end.
End Dict.

Section Api.
  Variable e : env.

  (** Unfolding the user's (recursive) types.  Between two unfoldings a
      context is pushed, so the recursion limit is reached before [fuel] runs
      out (proved).
      src/sugar.rs 562-706. *)
  Fixpoint item_dict (ufuel fuel : nat) (zc : bool) (i : nat) : dict :=
    match fuel with
    | O => dict_stop StFuel
    | S f =>
        let mk := dict_of ufuel (item_dict ufuel f) zc in
        match e i with
        | IStruct b => dict_item_struct mk b
        | IEnum vars catch => dict_item_enum mk vars catch
        end
    end.
  (** The impl of a type, as the compiler resolves it; src/sugar.rs 562-706 for items. *)
  Definition full_dict (fuel : nat) (zc : bool) (t : ty) : dict :=
    dict_of fuel (item_dict fuel fuel) zc t.

  (** [from_stream_copy] / [from_stream_borrow], src/de.rs 35-39, 52-56. *)
  Definition from_stream (zc : bool) (cf : cfg) (t : ty) : M stream derr value := fun s =>
    let '(r, st) := run stream_source cf (d_body (full_dict (S (N.to_nat (cf_rec cf))) zc t)) (top_rst s) in
    (r, x_s st).
  (** [from_reader], src/de.rs 69-74. *)
  Definition from_reader (dbg : bool) (cf : cfg) (t : ty) (d : dev) : res derr value * dev :=
    let '(r, s) := from_stream false cf t (new_stream dbg false d) in (r, s_dev s).
  (** src/de.rs 85-91. *)
  Definition from_slice_copy (dbg : bool) (cf : cfg) (t : ty) (bs : bytes) : res derr value :=
    fst (from_stream false cf t (from_slice dbg bs)).
  (** src/de.rs 102-108. *)
  Definition from_slice_borrow (dbg : bool) (cf : cfg) (t : ty) (bs : bytes) : res derr value :=
    fst (from_stream true cf t (from_slice dbg bs)).
End Api.
