(** * Prop_SerDe: serialising values and reading them back *)

From Verif Require Import Base Wire Dev Stream Types Ser Prog De SpecFormat SpecStream SpecWrite SpecDe SpecDoc SpecSerDe P_SerDe P_Unamb P_Ex.

(** ** C44.  The bytes written are the shortest encoding of the document of
    the value. *)
Theorem C44_to_vec_shape e dbg t v : env_wf e -> has_type e v t -> shape_wf t -> size_of e t v <= U64_MAX ->
  exists bs, to_vec e dbg t v = ROk bs /\ shortest (document (x_body (doc e v t))) bs.
Proof. exact (fun H => vec_shape e H dbg t v). Qed.
Print Assumptions C44_to_vec_shape.

(** [serialize_element] appends one field with the requested tag. *)
Theorem C44_serialize_element_shape e t v tag s : env_wf e -> has_type e v t -> shape_wf t -> tag_ok tag ->
  no_open_blob s -> d_pos (s_dev s) = lenN (d_data (s_dev s)) -> d_sched (s_dev s) = [] ->
  s_pos s + size_bound (flat_node tag (x_elem (doc e v t))) <= U64_MAX ->
  exists bs s', exec (z_elem (ser e v t) tag) s = (ROk tt, s') /\ shortest (flat_node tag (x_elem (doc e v t))) bs /\
    d_data (s_dev s') = d_data (s_dev s) ++ bs /\ no_open_blob s'.
Proof. exact (fun H => element_shape e H t v tag s). Qed.
Print Assumptions C44_serialize_element_shape.

(** [serialize_field] appends the fields of a record's component, all with
    the requested tag. *)
Theorem C44_serialize_field_shape e t v tag s : env_wf e -> has_type e v t -> shape_wf t -> unknown_like t = false -> tag_ok tag ->
  no_open_blob s -> d_pos (s_dev s) = lenN (d_data (s_dev s)) -> d_sched (s_dev s) = [] ->
  s_pos s + size_bound (flat (x_field (doc e v t) tag)) <= U64_MAX ->
  exists bs s', exec (z_field (ser e v t) tag) s = (ROk tt, s') /\ shortest (flat (x_field (doc e v t) tag)) bs /\
    d_data (s_dev s') = d_data (s_dev s) ++ bs /\ no_open_blob s' /\
    Forall (fun p => fst p = tag) (x_field (doc e v t) tag).
Proof. exact (fun H => field_shape e H t v tag s). Qed.
Print Assumptions C44_serialize_field_shape.

Example C44_instance :
  env_wf ex_env /\ has_type ex_env ex_value (TItem 0) /\ shape_wf (TItem 0) /\ size_of ex_env (TItem 0) ex_value <= U64_MAX /\
  to_vec ex_env true (TItem 0) ex_value = ROk ex_bytes /\
  x_body (doc ex_env ex_value (TItem 0)) =
    [(1, NInt 300); (2, NBlob [104; 105]); (3, NStruct [(1, NInt 7); (2, NBlob [])]);
     (4, NEnum 2 [(1, NInt 5); (2, NInt 10)]); (9, NStruct [(1, NInt 5); (2, NBlob [1; 2; 3])])] /\
  (* a collection is flattened as a field, wrapped as an element *)
  (let v := VList [VU 5; VU 6] in let t := TVec (TUInt 32) in
   doc ex_env v t = mkDoc [(1, NInt 5); (1, NInt 6)] (x_field (doc ex_env v t)) (NStruct [(1, NInt 5); (1, NInt 6)]) /\
   x_field (doc ex_env v t) 9 = [(9, NInt 5); (9, NInt 6)] /\
   to_vec ex_env true (TVec t) (VList [v; v]) = ROk [0xC1; 0x41; 5; 0x41; 6; 0; 0xC1; 0x41; 5; 0x41; 6; 0; 0]).
Proof.
  split; [exact ex_wf|]. split; [exact ex_typed|]. split; [exact Logic.I|]. split; [vm_compute; discriminate|].
  repeat split; vm_compute; reflexivity.
Qed.

(** ** C27.  Every value that the limits admit is read back. *)
Theorem C27_roundtrip e cf t v dw dr : env_wf e -> cf_collect cf <= U64_MAX -> cf_blob cf <= U64_MAX ->
  cf_ignore cf = true ->
  has_type e v t -> shape_wf t -> deserialisable e false t -> admits cf e false v t -> size_of e t v + 3 < U64_MAX ->
  exists bs, to_vec e dw t v = ROk bs /\ from_slice_copy e dr cf t bs = ROk v.
Proof.
  exact (fun H1 H2 H3 Hi Hty Hsh Hd Ha Hs => round_trip e H1 cf H2 H3 false t v dw dr (mkStorable cf e false t v Hty Hsh Hd (or_introl Hi) Ha) Hs).
Qed.
Print Assumptions C27_roundtrip.

Theorem C27_roundtrip_borrow e cf t v dw dr : env_wf e -> cf_collect cf <= U64_MAX -> cf_blob cf <= U64_MAX ->
  cf_ignore cf = true ->
  has_type e v t -> shape_wf t -> deserialisable e true t -> admits cf e true v t -> size_of e t v + 3 < U64_MAX ->
  exists bs, to_vec e dw t v = ROk bs /\ from_slice_borrow e dr cf t bs = ROk v.
Proof.
  exact (fun H1 H2 H3 Hi Hty Hsh Hd Ha Hs => round_trip e H1 cf H2 H3 true t v dw dr (mkStorable cf e true t v Hty Hsh Hd (or_introl Hi) Ha) Hs).
Qed.
Print Assumptions C27_roundtrip_borrow.

Example C27_instance :
  env_wf ex_env /\ storable default_cfg ex_env false (TItem 0) ex_value /\ storable default_cfg ex_env true (TItem 0) ex_value /\
  cf_ignore default_cfg = true /\ size_of ex_env (TItem 0) ex_value + 3 < U64_MAX /\
  to_vec ex_env true (TItem 0) ex_value = ROk ex_bytes /\
  from_slice_copy ex_env true default_cfg (TItem 0) ex_bytes = ROk ex_value.
Proof.
  split; [exact ex_wf|]. split; [apply ex_storable|]. split; [apply ex_storable|]. repeat split; vm_compute; reflexivity.
Qed.

(** ** C55.  The same with [ignore_unknown_fields] off, except for the unit
    type where it is read as a body: [()] writes a field it does not
    declare. *)
Theorem C55_strict_roundtrip_partial e cf t v dw dr : env_wf e -> cf_collect cf <= U64_MAX -> cf_blob cf <= U64_MAX ->
  no_unit_body e t ->
  has_type e v t -> shape_wf t -> deserialisable e false t -> admits cf e false v t -> size_of e t v + 3 < U64_MAX ->
  exists bs, to_vec e dw t v = ROk bs /\ from_slice_copy e dr cf t bs = ROk v.
Proof.
  exact (fun H1 H2 H3 Hi Hty Hsh Hd Ha Hs => round_trip e H1 cf H2 H3 false t v dw dr (mkStorable cf e false t v Hty Hsh Hd (or_intror Hi) Ha) Hs).
Qed.
Print Assumptions C55_strict_roundtrip_partial.

Definition strict_cfg : cfg := mkCfg 64 false 65536 65536.
Theorem C55_unit_strict_refuted :
  ~ (forall e cf t v dw dr, env_wf e -> cf_collect cf <= U64_MAX -> cf_blob cf <= U64_MAX ->
       has_type e v t -> shape_wf t -> deserialisable e false t -> admits cf e false v t -> size_of e t v + 3 < U64_MAX ->
       exists bs, to_vec e dw t v = ROk bs /\ from_slice_copy e dr cf t bs = ROk v).
Proof.
  intros H. destruct (H ex_env strict_cfg (TTuple []) (VRec []) true true ex_wf) as (bs & E1 & E2).
  - vm_compute; discriminate.
  - vm_compute; discriminate.
  - constructor. constructor.
  - split; [vm_compute; discriminate|exact Logic.I].
  - intros Hn. inversion Hn; subst. contradiction.
  - repeat split; vm_compute; discriminate.
  - vm_compute; reflexivity.
  - vm_compute in E1. injection E1 as <-. vm_compute in E2. discriminate E2.
Qed.
Print Assumptions C55_unit_strict_refuted.

Example C55_instance : no_unit_body ex_env (TItem 0) /\
  from_slice_copy ex_env true strict_cfg (TItem 0) ex_bytes = ROk ex_value /\
  to_vec ex_env true (TTuple []) (VRec []) = ROk [0xC1; 0; 0] /\
  from_slice_copy ex_env true strict_cfg (TTuple []) [0xC1; 0; 0] = RErr (mkErr [] (KUnknownField 1 0)).
Proof.
  split.
  - split; [reflexivity|]. intros [|i] b nm t'; cbn.
    + intros -> . discriminate.
    + intros [[<- |[<- |[]]]|H]; try discriminate. injection H as <-. discriminate.
  - repeat split; vm_compute; reflexivity.
Qed.

(** ** C28.  Consecutive values. *)
Theorem C28_leaves_the_rest e cf zc t v dw dr sk rest : env_wf e -> cf_collect cf <= U64_MAX -> cf_blob cf <= U64_MAX ->
  storable cf e zc t v -> bytes_ok rest -> size_of e t v + lenN rest + 3 < U64_MAX ->
  exists bs, to_vec e dw t v = ROk bs /\
    exists s', from_stream e zc cf t (new_stream dr sk (mkDev (bs ++ rest) 0 [])) = (ROk v, s') /\ unread s' = rest.
Proof. exact (fun H1 H2 H3 => leaves_rest e H1 cf H2 H3 zc t v dw dr sk rest). Qed.
Print Assumptions C28_leaves_the_rest.

Theorem C28_one_stream e cf zc tvs dw kw dr kr : env_wf e -> cf_collect cf <= U64_MAX -> cf_blob cf <= U64_MAX ->
  Forall (fun p => storable cf e zc (fst p) (snd p)) tvs ->
  sumN (map (fun p => size_of e (fst p) (snd p)) tvs) + 3 < U64_MAX ->
  exists s1, write_values e tvs (new_stream dw kw (mkDev [] 0 [])) = (ROk tt, s1) /\
  exists s2, read_values e zc cf (map fst tvs) (new_stream dr kr (mkDev (d_data (s_dev s1)) 0 [])) = (ROk (map snd tvs), s2) /\
    unread s2 = [].
Proof. exact (fun H1 H2 H3 => consecutive e H1 cf H2 H3 zc tvs dw kw dr kr). Qed.
Print Assumptions C28_one_stream.

Theorem C28_one_reader e cf tvs dw dr : env_wf e -> cf_collect cf <= U64_MAX -> cf_blob cf <= U64_MAX ->
  Forall (fun p => storable cf e false (fst p) (snd p)) tvs ->
  sumN (map (fun p => size_of e (fst p) (snd p)) tvs) + 3 < U64_MAX ->
  exists d1, to_writers e dw (mkDev [] 0 []) tvs = ROk d1 /\
  exists d2, from_readers e dr cf (map fst tvs) (mkDev (d_data d1) 0 []) = (ROk (map snd tvs), d2) /\ d_rest d2 = [].
Proof. exact (fun H1 H2 H3 => consecutive_readers e H1 cf H2 H3 tvs dw dr). Qed.
Print Assumptions C28_one_reader.

Example C28_instance :
  let tvs := [(TItem 0, ex_value); (TUInt 16, VU 3); (TItem 0, ex_value)] in
  Forall (fun p => storable default_cfg ex_env false (fst p) (snd p)) tvs /\
  sumN (map (fun p => size_of ex_env (fst p) (snd p)) tvs) + 3 < U64_MAX /\
  fst (from_readers ex_env true default_cfg (map fst tvs) (mkDev (ex_bytes ++ [0x41; 3; 0] ++ ex_bytes) 0 [])) = ROk (map snd tvs).
Proof.
  split; [|split; [vm_compute; reflexivity|vm_compute; reflexivity]].
  assert (H3 : storable default_cfg ex_env false (TUInt 16) (VU 3)).
  { split; [constructor; vm_compute; discriminate|right; left; reflexivity|apply ex_deserialisable; cbn; auto|now left|vm_compute; repeat split; discriminate]. }
  repeat apply Forall_cons; try apply Forall_nil; cbn [fst snd]; auto using ex_storable.
Qed.

(** ** C45.  Different values have different encodings, none a prefix of
    another. *)
Theorem C45_injective_prefix_free e t v1 v2 d1 d2 b1 b2 x : env_wf e -> shape_wf t -> deserialisable e true t ->
  has_type e v1 t -> has_type e v2 t -> size_of e t v1 <= U64_MAX -> size_of e t v2 <= U64_MAX ->
  to_vec e d1 t v1 = ROk b1 -> to_vec e d2 t v2 = ROk b2 -> b2 = b1 ++ x -> v1 = v2 /\ x = [].
Proof. exact (fun H => encoding_injective e H t v1 v2 d1 d2 b1 b2 x). Qed.
Print Assumptions C45_injective_prefix_free.

(** ** C56.  Bytes have at most one reading as a document, whatever the
    choice of integer encodings and padding. *)
Theorem C56_unambiguous ks1 ks2 b1 b2 x y : encodes_doc ks1 b1 -> encodes_doc ks2 b2 -> b1 ++ x = b2 ++ y ->
  ks1 = ks2 /\ b1 = b2 /\ x = y.
Proof. exact (documents_unamb ks1 ks2 b1 b2 x y). Qed.
Print Assumptions C56_unambiguous.

Example C45_C56_instance :
  to_vec ex_env true (TItem 0) ex_value = ROk ex_bytes /\ shape_wf (TItem 0) /\ deserialisable ex_env true (TItem 0) /\
  (* a struct with an integer in a denormalised encoding and padding *)
  encodes_doc [(3, NStruct [(1, NInt 5)])] [0xC3; 0xC0; 0x41; 0x85; 0x00; 0x00; 0xC0; 0x00].
Proof.
  split; [reflexivity|]. split; [exact Logic.I|]. split; [apply ex_deserialisable; cbn; auto|].
  exists [0xC3; 0xC0; 0x41; 0x85; 0x00; 0x00; 0xC0]. split; [|reflexivity].
  exists [DField 3 DStructV; DPad; DField 1 (DInt 5); DEnd; DPad]. split; [|reflexivity].
  assert (Ht : forall n, 1 <= n <= 63 -> tag_ok n) by (intros; split; lia).
  apply (EncCons _ _ [0xC3] [0xC0; 0x41; 0x85; 0x00; 0x00; 0xC0]).
  { exists [0xC3]. split; [apply (EncStruct 3), Ht; lia|split; [constructor|reflexivity]]. }
  apply (EncCons _ _ [0xC0] [0x41; 0x85; 0x00; 0x00; 0xC0]).
  { exists [0xC0]. split; [constructor|split; [constructor|reflexivity]]. }
  apply (EncCons _ _ [0x41; 0x85; 0x00] [0x00; 0xC0]).
  { exists [0x41; 0x85; 0x00]. split; [|split; [constructor|reflexivity]]. apply (EncInt 1 5 [0x85; 0x00]); [apply Ht; lia| |repeat constructor].
    repeat split; try (vm_compute; reflexivity); try (vm_compute; discriminate).
    exists [0x85], 0x00. repeat split; try reflexivity; repeat constructor; vm_compute; discriminate. }
  apply (EncCons _ _ [0x00] [0xC0]).
  { exists [0x00]. split; [constructor|split; [constructor|reflexivity]]. }
  apply (EncCons _ _ [0xC0] []); [|constructor].
  exists [0xC0]. split; [constructor|split; [constructor|reflexivity]].
Qed.
