(** * Tree: deserialising trees

    What src/de.rs computes, as functions of the document's tree instead of
    the stream: the same text as De.v with [next_field] replaced by going
    through the list of fields.  P_Tree.v proves that it is what [from_stream]
    computes. *)

From Verif Require Import Base Wire Stream Types Ser Prog De SpecFormat.

(** Nesting of contexts, elements collected, bytes copied, and the names of the contexts, innermost first. *)
Record cs := mkC { c_lev : N; c_coll : N; c_blob : N; c_path : list string }.
Definition T A := M cs ekind A.

Definition hdr_node (n : node) : vhdr :=
  match n with
  | NInt x => HInt x
  | NBlob b => HBlob (lenN b)
  | NStruct _ => HStruct
  | NEnum d _ => HEnum d
  end.
Definition kids (n : node) : list (N * node) := match n with NStruct fs | NEnum _ fs => fs | _ => [] end.
Definition blob_of (n : node) : bytes := match n with NBlob b => b | _ => [] end.

Record tdict := mkT {
  t_init : acc;
  t_field : acc -> N -> node -> T acc;
  t_elem : N -> node -> T value;
  t_fin : acc -> T value;
  t_body : list (N * node) -> T value
}.

Definition t_lift {A} (r : res serr A) : T A :=
  match r with
  | ROk a => mret a
  | RErr x => mfail (KStream x)
  | RPanic => mpanic
  | RFuel => mres RFuel
  end.
Definition t_ill {A} : T A := mpanic.

Definition t_pop : T unit := mmod (fun c => mkC (c_lev c - 1) (c_coll c) (c_blob c) (tl (c_path c))).

Section Tree.
  Variable cf : cfg.

  Definition t_push (nm : string) : T unit := fun c =>
    if cf_rec cf <=? c_lev c then (RErr KRecLimit, c) else (ROk tt, mkC (c_lev c + 1) (c_coll c) (c_blob c) (nm :: c_path c)).
  Definition t_collect : T unit := fun c =>
    if cf_collect cf <? c_coll c + 1 then (RErr KMaxCollect, c) else (ROk tt, mkC (c_lev c) (c_coll c + 1) (c_blob c) (c_path c)).
  Definition t_quota (n : N) : T unit := fun c =>
    if cf_blob cf <? c_blob c + n then (RErr KMaxBlob, c) else (ROk tt, mkC (c_lev c) (c_coll c) (c_blob c + n) (c_path c)).
  Definition t_unknown (tag : N) : T unit :=
    if cf_ignore cf then mret tt else mfail (KUnknownField tag 0).

  (** ** Bodies *)
  Definition tfdict := (string * N * tdict)%type.
  Definition t_step (fs : list tfdict) (unk : option (string * tdict)) (st : list acc * acc) (tag : N) (n : node)
    : T (list acc * acc) :=
    let '(accs, ua) := st in
    match find_tag tag fs with
    | Some (i, nm, d) =>
        t_push nm ;;
        let* a := t_field d (nth i accs (AOpt None)) tag n in
        t_pop ;;
        mret (upd i a accs, ua)
    | None =>
        match unk with
        | Some (_, d) =>
            t_push (tag_name tag) ;;
            let* a := t_field d ua tag n in
            t_pop ;;
            mret (accs, a)
        | None => t_unknown tag ;; mret st
        end
    end.
  Fixpoint t_loop {A} (step : A -> N -> node -> T A) (st : A) (fs : list (N * node)) : T A :=
    match fs with
    | [] => mret st
    | (tag, n) :: r => let* st' := step st tag n in t_loop step st' r
    end.
  Definition t_finish_one (nm : string) (d : tdict) (a : acc) : T value :=
    t_push nm ;;
    let* v := t_fin d a in
    t_pop ;;
    mret v.
  Fixpoint t_finish_all (fs : list tfdict) (accs : list acc) : T (list value) :=
    match fs, accs with
    | (nm, _, d) :: fs', a :: accs' =>
        let* v := t_finish_one nm d a in
        let* vs := t_finish_all fs' accs' in
        mret (v :: vs)
    | [], [] => mret []
    | _, _ => t_ill
    end.
  Definition t_inits (fs : list tfdict) : list acc := map (fun f => t_init (snd f)) fs.
  Definition t_des_body (fs : list tfdict) (unk : option (string * tdict)) (ks : list (N * node)) : T (list value) :=
    let* st := t_loop (t_step fs unk)
                 (t_inits fs, match unk with Some (_, d) => t_init d | None => AOpt None end) ks in
    let* vs := t_finish_all fs (fst st) in
    match unk with
    | None => mret vs
    | Some (nm, d) => let* v := t_finish_one nm d (snd st) in mret (vs ++ [v])
    end.
  Definition t_body_default (d : tdict) (ks : list (N * node)) : T value :=
    let* vs := t_des_body [("top"%string, 1, d)] None ks in
    match vs with [v] => mret v | _ => t_ill end.

  (** ** Impls *)
  Definition t_with_default_body (d : tdict) : tdict :=
    mkT (t_init d) (t_field d) (t_elem d) (t_fin d) (t_body_default d).
  Definition t_opt_field (too_many : ekind) (conv : N -> node -> T value) (a : acc) (tag : N) (n : node) : T acc :=
    match a with
    | AOpt (Some _) => mfail too_many
    | AOpt None => let* v := conv tag n in mret (AOpt (Some v))
    | _ => t_ill
    end.
  Definition t_opt_fin (a : acc) : T value :=
    match a with
    | AOpt (Some v) => mret v
    | AOpt None => mfail KMissing
    | _ => t_ill
    end.
  Definition t_unary (conv : N -> node -> T value) : tdict :=
    t_with_default_body
      (mkT (AOpt None) (t_opt_field (KTooMany 1) conv)
           (fun tag n => let* a := t_opt_field (KTooMany 1) conv (AOpt None) tag n in t_opt_fin a)
           t_opt_fin (fun _ => t_ill)).

  Definition t_conv_uint (w : N) (_ : N) (n : node) : T value :=
    let* x := t_lift (to_uint (umax w) (hdr_node n)) in mret (VU x).
  Definition t_conv_sint (w : N) (_ : N) (n : node) : T value :=
    let* z := t_lift (to_sint (smin w) (smax w) (hdr_node n)) in mret (VS z).
  Definition t_conv_bool (_ : N) (n : node) : T value :=
    let* b := t_lift (to_bool (hdr_node n)) in mret (VB b).
  Definition t_conv_phantom (_ : N) (n : node) : T value :=
    t_lift (to_null (hdr_node n)) ;; mret VPhantom.
  Definition t_conv_char (_ : N) (n : node) : T value :=
    let* x := t_lift (to_uint (umax 32) (hdr_node n)) in
    if char_ok x then mret (VChar x) else mfail KInvalidMsg.

  Definition t_read_owned (n : node) : T bytes :=
    let* len := t_lift (to_blob (hdr_node n)) in
    t_quota len ;;
    mret (blob_of n).
  Definition t_conv_string (_ : N) (n : node) : T value :=
    let* bs := t_read_owned n in
    if utf8_ok bs then mret (VStr bs) else mfail KInvalid.
  Definition t_read_borrowed (n : node) : T bytes :=
    t_lift (to_blob (hdr_node n)) ;; mret (blob_of n).
  Definition t_conv_bytes_ref (_ : N) (n : node) : T value :=
    let* bs := t_read_borrowed n in mret (VBytes bs).
  Definition t_conv_str_ref (_ : N) (n : node) : T value :=
    let* bs := t_read_borrowed n in
    if utf8_ok bs then mret (VStr bs) else mfail KInvalid.

  Definition t_vecu8_field (a : acc) (_ : N) (n : node) : T acc :=
    match a with
    | AOpt (Some _) => mfail (KTooMany 1)
    | AOpt None => let* bs := t_read_owned n in mret (AOpt (Some (VBytes bs)))
    | _ => t_ill
    end.
  Definition t_vecu8 : tdict :=
    t_with_default_body
      (mkT (AOpt None) t_vecu8_field
           (fun _ n => let* bs := t_read_owned n in mret (VBytes bs))
           t_opt_fin (fun _ => t_ill)).

  Definition t_read_array (n : N) (nd : node) : T value :=
    t_lift (to_blob (hdr_node nd)) ;;
    if lenN (blob_of nd) =? n then mret (VArrB (blob_of nd)) else mfail KInvalidMsg.
  Definition t_arru8_field (n : N) (a : acc) (_ : N) (nd : node) : T acc :=
    match a with
    | AOpt (Some _) => if n <=? 32 then mfail (KTooMany 1) else t_read_array n nd ;; mfail (KTooMany 1)
    | AOpt None => let* v := t_read_array n nd in mret (AOpt (Some v))
    | _ => t_ill
    end.
  Definition t_arru8_fin (n : N) (a : acc) : T value :=
    match a with
    | AOpt (Some v) => mret v
    | AOpt None => if n =? 0 then mret (VArrB []) else mfail KMissing
    | _ => t_ill
    end.
  Definition t_arru8 (n : N) : tdict :=
    t_with_default_body
      (mkT (AOpt None) (t_arru8_field n) (fun _ nd => t_read_array n nd) (t_arru8_fin n) (fun _ => t_ill)).

  Definition t_wrapped (d : tdict) : tdict :=
    mkT (t_init d) (t_field d) (fun _ n => t_lift (to_struct (hdr_node n)) ;; t_body_default d (kids n))
        (t_fin d) (t_body_default d).

  Definition t_arr_field (n : N) (d : tdict) (a : acc) (tag : N) (nd : node) : T acc :=
    match a with
    | AList vs =>
        if n <=? lenN vs then mfail (KTooMany n)
        else let* v := t_elem d tag nd in mret (AList (vs ++ [v]))
    | _ => t_ill
    end.
  Definition t_arr_fin (n : N) (a : acc) : T value :=
    match a with
    | AList vs =>
        if lenN vs <? n then
          match vs with
          | [] => mfail KMissing
          | _ => mfail (KTooFew n)
          end
        else mret (VArr vs)
    | _ => t_ill
    end.
  Definition t_arr (n : N) (d : tdict) : tdict :=
    t_wrapped (mkT (AList []) (t_arr_field n d) (fun _ _ => t_ill) (t_arr_fin n) (fun _ => t_ill)).

  Definition t_coll_field (ins : value -> list value -> list value) (d : tdict) (a : acc) (tag : N) (n : node) : T acc :=
    match a with
    | AList vs =>
        t_collect ;;
        let* v := t_elem d tag n in
        mret (AList (ins v vs))
    | _ => t_ill
    end.
  Definition t_coll_fin (a : acc) : T value :=
    match a with AList vs => mret (VList vs) | _ => t_ill end.
  Definition t_coll (ins : value -> list value -> list value) (d : tdict) : tdict :=
    t_wrapped (mkT (AList []) (t_coll_field ins d) (fun _ _ => t_ill) t_coll_fin (fun _ => t_ill)).

  Definition t_option_fin (a : acc) : T value := match a with AOpt o => mret (VOpt o) | _ => t_ill end.
  Definition t_option (d : tdict) : tdict :=
    t_wrapped (mkT (AOpt None) (t_opt_field (KTooMany 1) (t_elem d)) (fun _ _ => t_ill) t_option_fin (fun _ => t_ill)).

  Fixpoint t_tuple_fields (i : N) (ds : list tdict) : list tfdict :=
    match ds with
    | [] => []
    | d :: r => (tuple_name i, i + 1, d) :: t_tuple_fields (i + 1) r
    end.
  Definition t_struct (too_many : ekind) (body : list (N * node) -> T value) (elem : N -> node -> T value) : tdict :=
    mkT (AOpt None) (t_opt_field too_many elem) elem t_opt_fin body.
  Definition t_tuple_body (ds : list tdict) (ks : list (N * node)) : T value :=
    let* vs := t_des_body (t_tuple_fields 0 ds) None ks in mret (VRec vs).
  Definition t_tuple (ds : list tdict) : tdict :=
    t_struct (KTooMany 1) (t_tuple_body ds) (fun _ n => t_lift (to_struct (hdr_node n)) ;; t_tuple_body ds (kids n)).

  Definition t_map_field (dk dv : tdict) (a : acc) (tag : N) (n : node) : T acc :=
    match a with
    | AMap kvs =>
        t_collect ;;
        let* kv := t_elem (t_tuple [dk; dv]) tag n in
        match kv with
        | VRec [k; v] => mret (AMap (map_insert k v kvs))
        | _ => t_ill
        end
    | _ => t_ill
    end.
  Definition t_map_fin (a : acc) : T value := match a with AMap kvs => mret (VMap kvs) | _ => t_ill end.
  Definition t_map (dk dv : tdict) : tdict :=
    t_wrapped (mkT (AMap []) (t_map_field dk dv) (fun _ _ => t_ill) t_map_fin (fun _ => t_ill)).

  (** ** UnknownFields *)
  Definition t_cow_bytes (zc : bool) (n : node) : T bytes := if zc then t_read_borrowed n else t_read_owned n.
  Definition t_unk_node (zc : bool) (body : list (N * node) -> T (list (N * node))) (n : node) : T node :=
    match n with
    | NInt x => mret (NInt x)
    | NBlob _ => let* b := t_cow_bytes zc n in mret (NBlob b)
    | NStruct fs => let* r := body fs in mret (NStruct r)
    | NEnum d fs => let* r := body fs in mret (NEnum d r)
    end.
  Fixpoint t_unk_body (zc : bool) (fuel : nat) (ks : list (N * node)) : T (list (N * node)) :=
    match fuel with
    | O => mres RFuel
    | S f =>
        t_loop (fun fs tag n =>
          t_push (tag_name tag) ;;
          t_collect ;;
          let* n' := t_unk_node zc (t_unk_body zc f) n in
          t_pop ;;
          mret (fs ++ [(tag, n')])) [] ks
    end.
  Definition t_unk_elem (zc : bool) (fuel : nat) (n : node) : T node := t_unk_node zc (t_unk_body zc fuel) n.
  Definition t_unk_field (zc : bool) (fuel : nat) (a : acc) (tag : N) (n : node) : T acc :=
    match a with
    | AUnk fs =>
        t_collect ;;
        let* n' := t_unk_elem zc fuel n in
        mret (AUnk (fs ++ [(tag, n')]))
    | _ => t_ill
    end.
  Definition t_unk_fin (a : acc) : T value := match a with AUnk fs => mret (VUnk fs) | _ => t_ill end.
  Definition t_unk_val (zc : bool) (fuel : nat) (ks : list (N * node)) : T value :=
    let* fs := t_unk_body zc fuel ks in mret (VUnk fs).
  Definition t_unknown_d (zc : bool) (fuel : nat) : tdict :=
    mkT (AUnk []) (t_unk_field zc fuel) (fun _ n => t_lift (to_struct (hdr_node n)) ;; t_unk_val zc fuel (kids n))
        t_unk_fin (t_unk_val zc fuel).
  Definition t_unkfield (zc : bool) (fuel : nat) : tdict :=
    t_unary (fun _ n => let* n' := t_unk_elem zc fuel n in mret (VNode n')).

  (** ** fourleaf_retrofit! *)
  Definition t_construct (b : vbody) (vs : list value) : T value :=
    if vb_check b vs then mret (VRec vs) else mfail KInvalidMsg.
  Definition t_fdicts (mk : ty -> tdict) (fs : list fdecl) : list tfdict :=
    map (fun f => (fd_name f, fd_tag f, mk (fd_ty f))) fs.
  Definition t_vbody (mk : ty -> tdict) (b : vbody) (ks : list (N * node)) : T value :=
    let fs := t_fdicts mk (vb_fields b) in
    match vb_special b with
    | SpNone => let* vs := t_des_body fs None ks in t_construct b vs
    | SpUnknown nm t => let* vs := t_des_body fs (Some (nm, mk t)) ks in t_construct b vs
    | SpDeleg nm t =>
        t_push nm ;;
        let* dv := t_body (mk t) ks in
        t_pop ;;
        let* vs := t_finish_all fs (t_inits fs) in
        t_construct b (vs ++ [dv])
    end.
  Definition t_struct_elem (mk : ty -> tdict) (b : vbody) (tag : N) (n : node) : T value :=
    match vb_special b with
    | SpDeleg nm t =>
        t_push nm ;;
        let* dv := t_elem (mk t) tag n in
        t_pop ;;
        t_construct b [dv]
    | _ => t_lift (to_struct (hdr_node n)) ;; t_vbody mk b (kids n)
    end.
  Definition t_item_struct (mk : ty -> tdict) (b : vbody) : tdict :=
    t_struct (KTooFew 1) (t_vbody mk b) (t_struct_elem mk b).
  Definition t_enum_elem (mk : ty -> tdict) (vars : list (N * vbody)) (catch : option vbody) (_ : N) (n : node) : T value :=
    let* d := t_lift (to_enum (hdr_node n)) in
    match find_variant d vars with
    | Some (ix, b) => let* v := t_vbody mk b (kids n) in mret (VVar ix v)
    | None =>
        match catch with
        | Some b => let* v := t_vbody mk b (kids n) in mret (VCatch d v)
        | None => mfail (KUnknownVariant d)
        end
    end.
  Definition t_item_enum (mk : ty -> tdict) (vars : list (N * vbody)) (catch : option vbody) : tdict :=
    t_with_default_body (t_struct (KTooFew 1) (fun _ => t_ill) (t_enum_elem mk vars catch)).

  (** ** All types *)
  Definition t_stop {A} (x : stop) : T A :=
    match x with StFail k => mfail k | StPanic => mpanic | StFuel => mres RFuel end.
  Definition t_dict_stop (x : stop) : tdict :=
    mkT (AOpt None) (fun _ _ _ => t_stop x) (fun _ _ => t_stop x) (fun _ => t_stop x) (fun _ => t_stop x).

  Section Of.
    Variable ufuel : nat.
    Variable item_d : bool -> nat -> tdict.
    Fixpoint t_dict_of (zc : bool) (t : ty) {struct t} : tdict :=
      match t with
      | TUInt w => t_unary (t_conv_uint w)
      | TSInt w => t_unary (t_conv_sint w)
      | TBool => t_unary t_conv_bool
      | TChar => t_unary t_conv_char
      | TPhantom => t_unary t_conv_phantom
      | TString => t_unary t_conv_string
      | TStrRef => if zc then t_unary t_conv_str_ref else t_dict_stop StPanic
      | TBytesRef => if zc then t_unary t_conv_bytes_ref else t_dict_stop StPanic
      | TCowStr => if zc then t_unary t_conv_str_ref else t_unary t_conv_string
      | TCowBytes => if zc then t_unary t_conv_bytes_ref else t_vecu8
      | TVec t' => if is_u8 t' then t_vecu8 else t_coll push_back (t_dict_of zc t')
      | TSeq t' => t_coll push_back (t_dict_of zc t')
      | TSet t' => t_coll set_insert (t_dict_of zc t')
      | TOption t' => t_option (t_dict_of zc t')
      | TArray n t' => if is_u8 t' then t_arru8 n else t_arr n (t_dict_of zc t')
      | TMap k v => t_map (t_dict_of zc k) (t_dict_of zc v)
      | TTuple ts => t_tuple (map (t_dict_of zc) ts)
      | TBox t' => t_dict_of zc t'
      | TCopied t' => t_dict_of false t'
      | TUnknown => t_unknown_d zc ufuel
      | TUnkField => t_unkfield zc ufuel
      | TItem i => item_d zc i
      end.
  End Of.

  Section Item.
    Variable e : env.
    Fixpoint t_item_dict (ufuel fuel : nat) (zc : bool) (i : nat) : tdict :=
      match fuel with
      | O => t_dict_stop StFuel
      | S f =>
          let mk := t_dict_of ufuel (t_item_dict ufuel f) zc in
          match e i with
          | IStruct b => t_item_struct mk b
          | IEnum vars catch => t_item_enum mk vars catch
          end
      end.
    Definition t_full (fuel : nat) (zc : bool) (t : ty) : tdict := t_dict_of fuel (t_item_dict fuel fuel) zc t.
    (** The result of deserialising a whole document. *)
    Definition read_tree (zc : bool) (t : ty) (ks : list (N * node)) : res ekind value * cs :=
      t_body (t_full (S (N.to_nat (cf_rec cf))) zc t) ks (mkC 0 0 0 []).
  End Item.
End Tree.
