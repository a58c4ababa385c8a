(** * Prop_Meaning: which value a document stands for *)

From Verif Require Import Base Wire Dev Stream Types Ser Prog De SpecWire SpecFormat SpecStream SpecDe SpecDoc SpecSerDe SpecRead P_Meaning P_Order P_Adds P_Unk P_Ex.

(** ** C57.  Deserialisation succeeds exactly on the documents that mean
    something as a value of the type, within the limits, and gives that
    value; the errors for exceeded limits are right. *)
Theorem C57_meaning e zc cf t ks s v : usable e zc cf t -> doc_stream ks s ->
  fst (from_stream e zc cf t s) = ROk v <-> exists x, denotes e (cf_ignore cf) zc t ks v x /\ fits cf x.
Proof. exact (meaning_ok e zc cf t ks s v). Qed.
Print Assumptions C57_meaning.

Theorem C57_over_the_limits e zc cf t ks s v x : usable e zc cf t -> doc_stream ks s ->
  denotes e (cf_ignore cf) zc t ks v x -> ~ fits cf x ->
  exists err, fst (from_stream e zc cf t s) = RErr err /\ exceeds cf x (e_kind err).
Proof. exact (meaning_limit e zc cf t ks s v x). Qed.
Print Assumptions C57_over_the_limits.

Theorem C57_meaningless e zc cf t ks s : usable e zc cf t -> doc_stream ks s ->
  (forall v x, ~ denotes e (cf_ignore cf) zc t ks v x) ->
  exists err, fst (from_stream e zc cf t s) = RErr err.
Proof. exact (meaning_none e zc cf t ks s). Qed.
Print Assumptions C57_meaningless.

(** A document has one meaning at most. *)
Theorem C57_one_meaning e ign zc t ks v w x y :
  denotes e ign zc t ks v x -> denotes e ign zc t ks w y -> v = w /\ x = y.
Proof. exact (denotes_fun e ign zc t ks v x w y). Qed.
Print Assumptions C57_one_meaning.

Definition ex_fields : list (N * node) :=
  [(1, NInt 300); (2, NBlob [104; 105]);
   (3, NStruct [(1, NInt 7); (2, NBlob [])]); (4, NEnum 2 [(1, NInt 5); (2, NInt 10)]);
   (9, NStruct [(1, NInt 5); (2, NBlob [1; 2; 3])])].
Example ex_usable zc : usable ex_env zc default_cfg (TItem 0).
Proof. split; [exact ex_env_ok|]. split; [apply ex_deserialisable; cbn; auto|]. split; vm_compute; discriminate. Qed.
(** Two levels of contexts for the tree, its child and the shape, three for
    the unknown struct's contents; one child and three unknown fields; two
    bytes of name and three of the unknown blob. *)
Example C57_instance :
  usable ex_env false default_cfg (TItem 0) /\ doc_stream ex_fields (new_stream true false (mkDev ex_bytes 0 [])) /\
  denotes ex_env true false (TItem 0) ex_fields ex_value (mkX 2 4 5) /\ fits default_cfg (mkX 2 4 5) /\
  ~ fits (mkCfg 64 true 4 100) (mkX 2 4 5) /\
  from_slice_copy ex_env true (mkCfg 64 true 4 100) (TItem 0) ex_bytes = RErr (mkErr [("02"%string, 23); ("09"%string, 20)] KMaxBlob).
Proof.
  split; [apply ex_usable|]. split.
  { apply (doc_by ex_fields (removelast ex_bytes) [] true false); reflexivity. }
  split; [exists 3%nat; vm_compute; reflexivity|]. split; [vm_compute; repeat split; discriminate|].
  split; [intros (_ & _ & H); vm_compute in H; now apply H|]. vm_compute. reflexivity.
Qed.

(** ** C34, C35, C36, second parts.  Each limit has a threshold that depends
    on the document only: from there on it makes no difference, below it is
    the error. *)
Theorem C34_threshold e zc cf t ks s v : usable e zc cf t -> doc_stream ks s -> fst (from_stream e zc cf t s) = ROk v ->
  exists lev, lev <= cf_rec cf /\ forall lim,
    let r := fst (from_stream e zc (mkCfg lim (cf_ignore cf) (cf_blob cf) (cf_collect cf)) t s) in
    if lev <=? lim then r = ROk v else exists err, r = RErr err /\ e_kind err = KRecLimit.
Proof. exact (threshold_rec e zc cf t ks s v). Qed.
Print Assumptions C34_threshold.
(** The threshold is the nesting of contexts that the document calls for. *)
Theorem C34_too_deep e zc cf t ks s v x : usable e zc cf t -> doc_stream ks s ->
  denotes e (cf_ignore cf) zc t ks v x -> cf_rec cf < k_lev x -> k_coll x <= cf_collect cf -> k_blob x <= cf_blob cf ->
  exists err, fst (from_stream e zc cf t s) = RErr err /\ e_kind err = KRecLimit.
Proof. exact (too_deep e zc cf t ks s v x). Qed.
Print Assumptions C34_too_deep.

Theorem C35_threshold e zc cf t ks s v : usable e zc cf t -> doc_stream ks s -> fst (from_stream e zc cf t s) = ROk v ->
  exists n, n <= cf_blob cf /\ forall lim, lim <= U64_MAX ->
    let r := fst (from_stream e zc (mkCfg (cf_rec cf) (cf_ignore cf) lim (cf_collect cf)) t s) in
    if n <=? lim then r = ROk v else exists err, r = RErr err /\ e_kind err = KMaxBlob.
Proof. exact (threshold_blob e zc cf t ks s v). Qed.
Print Assumptions C35_threshold.
Theorem C35_too_many_bytes e zc cf t ks s v x : usable e zc cf t -> doc_stream ks s ->
  denotes e (cf_ignore cf) zc t ks v x -> k_lev x <= cf_rec cf -> k_coll x <= cf_collect cf -> cf_blob cf < k_blob x ->
  exists err, fst (from_stream e zc cf t s) = RErr err /\ e_kind err = KMaxBlob.
Proof. exact (too_many_bytes e zc cf t ks s v x). Qed.
Print Assumptions C35_too_many_bytes.

Theorem C36_threshold e zc cf t ks s v : usable e zc cf t -> doc_stream ks s -> fst (from_stream e zc cf t s) = ROk v ->
  exists n, n <= cf_collect cf /\ forall lim, lim <= U64_MAX ->
    let r := fst (from_stream e zc (mkCfg (cf_rec cf) (cf_ignore cf) (cf_blob cf) lim) t s) in
    if n <=? lim then r = ROk v else exists err, r = RErr err /\ e_kind err = KMaxCollect.
Proof. exact (threshold_collect e zc cf t ks s v). Qed.
Print Assumptions C36_threshold.
Theorem C36_too_many e zc cf t ks s v x : usable e zc cf t -> doc_stream ks s ->
  denotes e (cf_ignore cf) zc t ks v x -> k_lev x <= cf_rec cf -> cf_collect cf < k_coll x -> k_blob x <= cf_blob cf ->
  exists err, fst (from_stream e zc cf t s) = RErr err /\ e_kind err = KMaxCollect.
Proof. exact (too_many e zc cf t ks s v x). Qed.
Print Assumptions C36_too_many.

Example C34_C35_C36_instance :
  let at_limits r b c := from_slice_copy ex_env true (mkCfg r true b c) (TItem 0) ex_bytes in
  at_limits 2 5 4 = ROk ex_value /\
  (exists x, at_limits 1 5 4 = RErr x /\ e_kind x = KRecLimit) /\
  (exists x, at_limits 2 4 4 = RErr x /\ e_kind x = KMaxBlob) /\
  (exists x, at_limits 2 5 3 = RErr x /\ e_kind x = KMaxCollect).
Proof. cbv zeta. split; [vm_compute; reflexivity|]. repeat split; eexists; (split; [vm_compute; reflexivity|reflexivity]). Qed.

(** ** C29.  The order of fields with different tags does not matter: not at
    any depth, for types that do not keep unknown fields; and for any struct
    as far as its declared tags are concerned. *)
Theorem C29_any_depth e zc cf t ks ks' s s' v : usable e zc cf t -> ~ keeps_unknown e t -> reordered ks ks' ->
  doc_stream ks s -> doc_stream ks' s' ->
  fst (from_stream e zc cf t s) = ROk v <-> fst (from_stream e zc cf t s') = ROk v.
Proof. exact (reordered_same e zc cf t ks ks' s s' v). Qed.
Print Assumptions C29_any_depth.

Theorem C29_struct e zc cf i b ks ks' s s' v : usable e zc cf (TItem i) -> e i = IStruct b -> delegates b = false ->
  same_fields (map fd_tag (vb_fields b)) ks ks' -> doc_stream ks s -> doc_stream ks' s' ->
  fst (from_stream e zc cf (TItem i) s) = ROk v <-> fst (from_stream e zc cf (TItem i) s') = ROk v.
Proof. exact (same_fields_struct e zc cf i b ks ks' s s' v). Qed.
Print Assumptions C29_struct.

Definition ex_flat : ty := TTuple [TUInt 8; TVec (TTuple [TString; TBool])].
Example C29_instance :
  let ks := [(1, NInt 5); (2, NStruct [(1, NBlob [97]); (2, NInt 1)]); (2, NStruct [(1, NBlob [98]); (2, NInt 0)])] in
  let ks' := [(2, NStruct [(2, NInt 1); (1, NBlob [97])]); (1, NInt 5); (2, NStruct [(1, NBlob [98]); (2, NInt 0)])] in
  let b := [0x41; 5; 0xC2; 0x81; 1; 97; 0x42; 1; 0; 0xC2; 0x81; 1; 98; 0x42; 0; 0] in
  let b' := [0xC2; 0x42; 1; 0x81; 1; 97; 0; 0x41; 5; 0xC2; 0x81; 1; 98; 0x42; 0; 0] in
  ~ keeps_unknown ex_env ex_flat /\ reordered ks ks' /\
  doc_stream ks (new_stream true false (mkDev (b ++ [0] ++ [99]) 0 [])) /\ doc_stream ks' (new_stream true false (mkDev (b' ++ [0] ++ []) 0 [])) /\
  fst (from_stream ex_env false default_cfg ex_flat (new_stream true false (mkDev (b ++ [0] ++ [99]) 0 [])))
    = ROk (VRec [VU 5; VList [VRec [VStr [97]; VB true]; VRec [VStr [98]; VB false]]]) /\
  fst (from_stream ex_env false default_cfg ex_flat (new_stream true false (mkDev (b' ++ [0] ++ []) 0 [])))
    = ROk (VRec [VU 5; VList [VRec [VStr [97]; VB true]; VRec [VStr [98]; VB false]]]) /\
  same_fields [1; 2; 3; 4] ex_fields (rev ex_fields).
Proof.
  cbv zeta. split.
  { assert (Hs : ~ keeps_unknown ex_env TString /\ ~ keeps_unknown ex_env TBool /\ ~ keeps_unknown ex_env (TUInt 8)) by (repeat split; intros H; inversion H).
    destruct Hs as (H1 & H2 & H3).
    assert (H4 : ~ keeps_unknown ex_env (TTuple [TString; TBool])).
    { intros H. inversion H as [| | | | | | | | |t ts Hin Hk| | | | |]; subst. destruct Hin as [<- |[<- |[]]]; contradiction. }
    intros H. inversion H as [| | | | | | | | |t ts Hin Hk| | | | |]; subst. destruct Hin as [<- |[<- |[]]]; [contradiction|].
    inversion Hk; subst. contradiction. }
  split.
  { eapply RoStep; [apply (SwHere [] (1, NInt 5) _ _); discriminate|]. eapply RoStep; [|apply RoSame].
    apply (SwIn [] 2 _ _ _). constructor. apply (SwHere [] (1, NBlob [97]) (2, NInt 1) []). discriminate. }
  split; [apply doc_by; reflexivity|]. split; [apply doc_by; reflexivity|].
  split; [vm_compute; reflexivity|]. split; [vm_compute; reflexivity|].
  split; [|reflexivity]. intros tag Hin. cbn in Hin. repeat destruct Hin as [<-|Hin]; try reflexivity. contradiction.
Qed.

(** ** C30.  Fields added where their tags are not declared, at any depth:
    no difference if unknown fields are ignored, an error if they are not. *)
Theorem C30_ignored e zc cf t ks ks' s s' : usable e zc cf t -> cf_ignore cf = true -> adds e t ks ks' ->
  doc_stream ks s -> doc_stream ks' s' ->
  match fst (from_stream e zc cf t s), fst (from_stream e zc cf t s') with
  | ROk v, ROk v' => v' = v
  | RErr x, RErr x' => same_kind (e_kind x) (e_kind x')
  | _, _ => False
  end.
Proof. exact (added_ignored e zc cf t ks ks' s s'). Qed.
Print Assumptions C30_ignored.

Theorem C30_rejected e zc cf t ks ks' s' : usable e zc cf t -> cf_ignore cf = false -> adds e t ks ks' -> ks' <> ks ->
  doc_stream ks' s' -> exists x, fst (from_stream e zc cf t s') = RErr x.
Proof. exact (added_rejected e zc cf t ks ks' s'). Qed.
Print Assumptions C30_rejected.

(** The error: fields [A] that some document of the type starts with, then a
    field with an undeclared tag.  The error gives its tag and its offset;
    nothing after the field matters. *)
Theorem C30_unknown_field e zc cf t decl tag v A C w s0 ba b tl dbg sk sched :
  usable e zc cf t -> cf_ignore cf = false -> top_decl e t decl -> decl tag = None ->
  doc_stream (A ++ C) s0 -> fst (from_stream e zc cf t s0) = ROk w ->
  encodes (flat A) ba -> elem_enc (DField tag v) b ->
  bytes_ok (ba ++ b ++ tl) -> lenN (ba ++ b ++ tl) + 3 < U64_MAX -> Forall (fun x => x <> EvFail) sched ->
  exists x, fst (from_stream e zc cf t (new_stream dbg sk (mkDev (ba ++ b ++ tl) 0 sched))) = RErr x /\
    e_kind x = KUnknownField tag (lenN ba).
Proof. exact (unknown_error e zc cf t decl tag v A C w s0 ba b tl dbg sk sched). Qed.
Print Assumptions C30_unknown_field.

Example C30_instance :
  let ks := [(1, NInt 5); (2, NStruct [(1, NBlob [97]); (2, NInt 1)])] in
  let ks' := [(1, NInt 5); (9, NStruct [(1, NEnum 4 [])]); (2, NStruct [(7, NInt 8); (1, NBlob [97]); (2, NInt 1)])] in
  let ks2 := [(1, NInt 5); (2, NStruct [(1, NBlob [97]); (2, NInt 1)]); (9, NInt 1)] in
  let b := [0x41; 5; 0xC2; 0x81; 1; 97; 0x42; 1; 0] in
  let b' := [0x41; 5; 0xC9; 0x01; 4; 0; 0; 0xC2; 0x47; 8; 0x81; 1; 97; 0x42; 1; 0] in
  let strict := mkCfg 64 false 65536 65536 in
  adds ex_env ex_flat ks ks' /\ ks' <> ks /\
  doc_stream ks (new_stream true false (mkDev (b ++ [0] ++ []) 0 [])) /\ doc_stream ks' (new_stream true false (mkDev (b' ++ [0] ++ []) 0 [])) /\
  from_slice_copy ex_env true default_cfg ex_flat (b ++ [0]) = ROk (VRec [VU 5; VList [VRec [VStr [97]; VB true]]]) /\
  from_slice_copy ex_env true default_cfg ex_flat (b' ++ [0]) = ROk (VRec [VU 5; VList [VRec [VStr [97]; VB true]]]) /\
  from_slice_copy ex_env true strict ex_flat (b' ++ [0]) = RErr (mkErr [] (KUnknownField 9 2)) /\
  top_decl ex_env ex_flat (nth_type [TUInt 8; TVec (TTuple [TString; TBool])]) /\
  nth_type [TUInt 8; TVec (TTuple [TString; TBool])] 9 = None /\
  fst (from_stream ex_env false strict ex_flat (new_stream true false (mkDev (b ++ [0] ++ []) 0 []))) = ROk (VRec [VU 5; VList [VRec [VStr [97]; VB true]]]) /\
  from_slice_copy ex_env true strict ex_flat (b ++ [0x49; 0x81]) = RErr (mkErr [] (KStream (SIo IoUnexpectedEof))) /\
  from_slice_copy ex_env true strict ex_flat (b ++ [0x49; 1; 255; 255; 255]) = RErr (mkErr [] (KUnknownField 9 9)).
Proof.
  cbv zeta. split.
  { apply AdTuple. apply GrField with (t := TUInt 8); [reflexivity|apply AeSame|]. apply GrAdd; [reflexivity|].
    apply GrField with (t := TVec (TTuple [TString; TBool])); [reflexivity| |apply GrNil]. apply AeTuple. apply GrAdd; [reflexivity|].
    apply GrField with (t := TString); [reflexivity|apply AeSame|]. apply GrField with (t := TBool); [reflexivity|apply AeSame|apply GrNil]. }
  split; [discriminate|]. split; [apply doc_by; reflexivity|]. split; [apply doc_by; reflexivity|].
  do 3 (split; [vm_compute; reflexivity|]). split; [apply TdTuple|]. repeat split; vm_compute; reflexivity.
Qed.
