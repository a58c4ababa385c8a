(** * Prop_Std: the impls for types of std (src/retrofit.rs) *)

From Verif Require Import Base Wire Dev Stream Types Ser Prog De SpecFormat SpecStream SpecWrite SpecDe SpecDoc SpecSerDe SpecRead Retrofit SpecStd P_Std P_Ex.

(** ** C58.  Every address and every duration is written as the documented
    shape and read back unchanged, in both styles. *)
Theorem C58_std_roundtrip T E user (zc : bool) cf dw dr x :
  shape_wf T -> shape_wf E -> env_wf user ->
  cf_collect cf <= U64_MAX -> cf_blob cf <= U64_MAX -> cf_ignore cf = true -> 8 <= cf_rec cf -> std_ok x ->
  exists bs, to_vec (std_env T E user) dw (TItem (std_ty x)) (std_value x) = ROk bs /\
    shortest (document (std_doc x)) bs /\
    exists v, (if zc then from_slice_borrow else from_slice_copy) (std_env T E user) dr cf (TItem (std_ty x)) bs = ROk v /\
      std_of (std_ty x) v = Some x.
Proof. exact (fun HT HE Hu => std_round T E user HT HE Hu zc cf dw dr x). Qed.
Print Assumptions C58_std_roundtrip.

(** Whatever the input, what is accepted is an address or duration that
    exists: the constructors are never given anything else. *)
Theorem C58_only_valid_values T E user zc cf i dbg sk gr bs sched v s' :
  shape_wf T -> shape_wf E -> env_wf user ->
  (i <= 6)%nat -> cf_collect cf <= U64_MAX -> cf_blob cf <= U64_MAX -> bytes_ok bs -> lenN bs + 3 < U64_MAX ->
  from_stream (std_env T E user) zc cf (TItem i) (set_graceful_ gr (new_stream dbg sk (mkDev bs 0 sched))) = (ROk v, s') ->
  exists x, std_ok x /\ std_ty x = i /\ std_of i v = Some x.
Proof. exact (fun HT HE Hu => std_valid T E user HT HE Hu zc cf i dbg sk gr bs sched v s'). Qed.
Print Assumptions C58_only_valid_values.

(** A second's worth of nanoseconds, or more, is not a duration. *)
Theorem C58_duration_out_of_range T E user zc cf secs nanos s : usable (std_env T E user) zc cf (TItem i_duration) ->
  doc_stream [(1, NInt secs); (2, NInt nanos)] s -> 1000000000 <= nanos ->
  exists err, fst (from_stream (std_env T E user) zc cf (TItem i_duration) s) = RErr err.
Proof. exact (duration_range T E user zc cf secs nanos s). Qed.
Print Assumptions C58_duration_out_of_range.

(** [Ok(v)] and [Err(v)] are variants 1 and 2, with the document of [v] for a
    body. *)
Theorem C58_result T E user (ok : bool) (zc : bool) cf dw dr v :
  shape_wf T -> shape_wf E -> env_wf user ->
  cf_collect cf <= U64_MAX -> cf_blob cf <= U64_MAX -> cf_ignore cf = true ->
  let e := std_env T E user in
  let t := if ok then T else E in
  let r := VVar (if ok then 0 else 1)%nat (VRec [v]) in
  has_type e v t -> deserialisable e zc T -> deserialisable e zc E ->
  admits cf e zc r (TItem i_result) -> size_of e (TItem i_result) r + 3 < U64_MAX ->
  exists bs, to_vec e dw (TItem i_result) r = ROk bs /\
    shortest (document [(1, NEnum (if ok then 1 else 2) (x_body (doc e v t)))]) bs /\
    (if zc then from_slice_borrow else from_slice_copy) e dr cf (TItem i_result) bs = ROk r.
Proof. exact (fun HT HE Hu => result_round T E user HT HE Hu ok zc cf dw dr v). Qed.
Print Assumptions C58_result.

(** The same in strict mode is false of [Result<(), E>] (see C55): [Ok(())]
    is written with a field the reader does not know. *)
Definition unit_env : env := std_env (TTuple []) (TUInt 32) ex_env.
Theorem C55_result_unit_strict_refuted :
  ~ (forall cf bs, cf_ignore cf = false -> 8 <= cf_rec cf ->
       to_vec unit_env true (TItem i_result) (VVar 0 (VRec [VRec []])) = ROk bs ->
       from_slice_copy unit_env true cf (TItem i_result) bs = ROk (VVar 0 (VRec [VRec []]))).
Proof.
  intros H. specialize (H (mkCfg 64 false 65536 65536) [1; 1; 0xC1; 0; 0; 0] eq_refl).
  assert (H1 : 8 <= 64) by discriminate. specialize (H H1).
  assert (H2 : to_vec unit_env true (TItem i_result) (VVar 0 (VRec [VRec []])) = ROk [1; 1; 0xC1; 0; 0; 0]) by (vm_compute; reflexivity).
  specialize (H H2). vm_compute in H. discriminate H.
Qed.
Print Assumptions C55_result_unit_strict_refuted.

Example C58_instance :
  let e := std_env (TUInt 32) TString ex_env in
  shape_wf (TUInt 32) /\ shape_wf TString /\ env_wf ex_env /\
  let x := SSockV6 [0x2001; 0xDB8; 0; 0; 0; 0; 0; 1] 443 0 3 in
  let bs := [0x01; 6; 0x81; 16; 0x20; 0x01; 0x0D; 0xB8; 0; 0; 0; 0; 0; 0; 0; 0; 0; 0; 0; 1;
             0x42; 0xBB; 0x03; 0x43; 0; 0x44; 3; 0; 0] in
  std_ok x /\ 8 <= cf_rec default_cfg /\
  to_vec e true (TItem (std_ty x)) (std_value x) = ROk bs /\
  (exists v, from_slice_copy e true default_cfg (TItem (std_ty x)) bs = ROk v /\ std_of (std_ty x) v = Some x) /\
  usable e false default_cfg (TItem i_duration) /\
  from_slice_copy e true default_cfg (TItem i_duration) [0x41; 1; 0x42; 0x80; 0x94; 0xEB; 0xDC; 0x03; 0] = RErr (mkErr [] KInvalidMsg) /\
  from_slice_copy e true default_cfg (TItem i_duration) [0x41; 1; 0x42; 0xFF; 0x93; 0xEB; 0xDC; 0x03; 0] = ROk (VRec [VU 1; VU 999999999]) /\
  to_vec e true (TItem i_result) (VVar 0 (VRec [VU 7])) = ROk [1; 1; 0x41; 7; 0; 0].
Proof.
  intros e. split; [unfold width_ok; cbn; unfold width_ok; auto|]. split; [exact Logic.I|]. split; [exact ex_wf|].
  intros x bs. split.
  { unfold x. split; [split; [reflexivity|repeat apply Forall_cons; try apply Forall_nil; reflexivity]|repeat split; reflexivity]. }
  split; [discriminate|]. split; [vm_compute; reflexivity|].
  split; [exists (std_value x); split; vm_compute; reflexivity|].
  split; [|repeat split; vm_compute; reflexivity].
  split; [|split; [apply std_deserialisable; cbn; tauto|split; vm_compute; discriminate]].
  apply std_env_ok; [cbn; unfold width_ok; auto|exact Logic.I|exact ex_wf].
Qed.
