(** * SpecSerDe: client programs and example types for the high-level API *)

From Verif Require Import Base Wire Dev Stream Types Ser Prog De SpecFormat SpecStream SpecDe SpecDoc.

(** Read several values from one stream, one after the other. *)
Fixpoint read_values (e : env) (zc : bool) (cf : cfg) (ts : list ty) : M stream derr (list value) :=
  match ts with
  | [] => mret []
  | t :: r => let* v := from_stream e zc cf t in
              let* vs := read_values e zc cf r in
              mret (v :: vs)
  end.

(** The configured limits admit the value: nesting, elements, copied bytes
    ([zc]: zero-copy style). *)
Definition admits (cf : cfg) (e : env) (zc : bool) (v : value) (t : ty) : Prop :=
  n_body (need e v t) <= cf_rec cf /\ coll_count v <= cf_collect cf /\ copied e v zc t <= cf_blob cf.

(** A value that can be written and read back: [zc] is the style of
    reading. *)
Record storable (cf : cfg) (e : env) (zc : bool) (t : ty) (v : value) : Prop := mkStorable {
  so_type : has_type e v t;
  so_shape : shape_wf t;
  so_impl : deserialisable e zc t;
  so_unit : cf_ignore cf = true \/ no_unit_body e t;
  so_fits : admits cf e zc v t
}.
(** A bound on the size of its encoding: the contents of its strings, and 11
    bytes per element of the document. *)
Definition size_of (e : env) (t : ty) (v : value) : N := size_bound (document (x_body (doc e v t))).

(** Several values on one stream, or each through [to_writer]/[from_reader]
    on the same writer/reader, one after the other. *)
Fixpoint write_values (e : env) (tvs : list (ty * value)) : SM unit :=
  match tvs with
  | [] => mret tt
  | (t, v) :: r => to_stream e t v ;; write_values e r
  end.
Fixpoint to_writers (e : env) (dbg : bool) (d : dev) (tvs : list (ty * value)) : res serr dev :=
  match tvs with
  | [] => ROk d
  | (t, v) :: r => match to_writer e dbg d t v with ROk d' => to_writers e dbg d' r | x => x end
  end.
Fixpoint from_readers (e : env) (dbg : bool) (cf : cfg) (ts : list ty) (d : dev) : res derr (list value) * dev :=
  match ts with
  | [] => (ROk [], d)
  | t :: r => match from_reader e dbg cf t d with
              | (ROk v, d') => match from_readers e dbg cf r d' with
                               | (ROk vs, d2) => (ROk (v :: vs), d2)
                               | (x, d2) => (x, d2)
                               end
              | (RErr x, d') => (RErr x, d')
              | (RPanic, d') => (RPanic, d')
              | (RFuel, d') => (RFuel, d')
              end
  end.

(** ** The same outcome, up to offsets

    Errors that name the same field and have the same kind; offsets of fields
    may differ. *)
Inductive same_kind : ekind -> ekind -> Prop :=
| SkSame k : same_kind k k
| SkUnknown t p1 p2 : same_kind (KUnknownField t p1) (KUnknownField t p2).
Definition same_error (x y : derr) : Prop :=
  map fst (e_path x) = map fst (e_path y) /\ same_kind (e_kind x) (e_kind y).
Definition same_result (x y : res derr value) : Prop :=
  match x, y with
  | ROk v, ROk w => v = w
  | RErr a, RErr b => same_error a b
  | _, _ => False
  end.

(** ** An example

    struct Tree { [1] id: u16, [2] name: String, [3] kids: Vec<Tree>,
                  [4] shape: Option<Shape>, (?) rest: UnknownFields }
    enum Shape { [1] Dot {}, [2] Box { [1] w: i32, [2] h: i32 },
                 (?) Other { (?) body: UnknownFields } } *)
Definition ok_all (_ : list value) : bool := true.
Definition ex_tree : vbody :=
  mkB [mkF "id" 1 (TUInt 16); mkF "name" 2 TString; mkF "kids" 3 (TVec (TItem 0));
       mkF "shape" 4 (TOption (TItem 1))] (SpUnknown "rest" TUnknown) ok_all.
Definition ex_shape : item :=
  IEnum [(1, mkB [] SpNone ok_all);
         (2, mkB [mkF "w" 1 (TSInt 32); mkF "h" 2 (TSInt 32)] SpNone ok_all)]
        (Some (mkB [] (SpUnknown "body" TUnknown) ok_all)).
Definition ex_env : env := fun i => match i with O => IStruct ex_tree | _ => ex_shape end.

Lemma ex_env_ok : env_ok ex_env.
Proof. intros [|i] b; cbn; [|discriminate]. intros H. injection H as <-. discriminate. Qed.

Definition ex_closure : list ty :=
  [TItem 0; TItem 1; TUInt 16; TString; TVec (TItem 0); TOption (TItem 1); TUnknown; TSInt 32].
Lemma ex_deserialisable zc t : In t ex_closure -> deserialisable ex_env zc t.
Proof.
  intros Hin H. revert Hin. induction H; intros Hin; unfold ex_closure in Hin; cbn [In] in Hin;
    repeat (destruct Hin as [Hin|Hin]); try discriminate; try contradiction;
    injection Hin as <-; apply IHno_impl; unfold ex_closure; cbn in *; intuition.
Qed.

(** A tree with a child, a box and an unknown field, and its encoding. *)
Definition ex_value : value :=
  VRec [VU 300; VStr [104; 105];
        VList [VRec [VU 7; VStr []; VList []; VOpt None; VUnk []]];
        VOpt (Some (VVar 1 (VRec [VS (-3); VS 5])));
        VUnk [(9, NStruct [(1, NInt 5); (2, NBlob [1; 2; 3])])]].
Definition ex_bytes : bytes :=
  [0x41; 0xAC; 0x02;
   0x82; 2; 104; 105;
   0xC3; 0x41; 7; 0x82; 0; 0x00;
   0x04; 2; 0x41; 5; 0x42; 10; 0x00;
   0xC9; 0x41; 5; 0x82; 3; 1; 2; 3; 0x00;
   0x00].
