(** * Prop_Compat: compatible changes of types *)

From Verif Require Import Base Wire Dev Stream Types Ser Prog De SpecWire SpecFormat SpecStream SpecDe SpecDoc SpecSerDe SpecRead SpecCompat SpecChange
  P_SerDe P_CompatTy P_Changes P_CompatApi P_CompatEx P_Ex.

(** ** C40.  What the old program wrote, the new one reads as the rules of
    [becomes] say (SpecCompat.v), whatever the limits, if the value is within
    them; nothing else can go wrong.  The reader may deliver the bytes in any
    portions and there may be other data behind. *)
Theorem C40_old_data_is_read eo en (zc ign : bool) v t t' w dw : env_wf eo -> env_wf en -> deserialisable en zc t' ->
  has_type eo v t -> shape_wf t -> size_of eo t v <= U64_MAX -> becomes en ign eo v t t' w ->
  exists bs x, to_vec eo dw t v = ROk bs /\
    forall cf tl dbg sk sched, cf_ignore cf = ign -> cf_collect cf <= U64_MAX -> cf_blob cf <= U64_MAX ->
      bytes_ok tl -> lenN (bs ++ tl) + 3 < U64_MAX -> Forall (fun y => y <> EvFail) sched ->
      (fits cf x -> fst (from_stream en zc cf t' (new_stream dbg sk (mkDev (bs ++ tl) 0 sched))) = ROk w) /\
      (~ fits cf x -> exists err, fst (from_stream en zc cf t' (new_stream dbg sk (mkDev (bs ++ tl) 0 sched))) = RErr err /\ exceeds cf x (e_kind err)).
Proof. exact (old_data eo en zc ign v t t' w dw). Qed.
Print Assumptions C40_old_data_is_read.

(** There is at most one such value; it is the same one if nothing changed; *)
Theorem C40_one_reading eo en ign v t t' w w' : env_wf en -> deserialisable en false t' ->
  becomes en ign eo v t t' w -> becomes en ign eo v t t' w' -> w = w'.
Proof. exact (one_reading eo en ign v t t' w w'). Qed.
Print Assumptions C40_one_reading.
Theorem C40_unchanged e ign v t : env_wf e -> ign = true \/ no_unit_body e t -> has_type e v t -> shape_wf t -> becomes e ign e v t t v.
Proof. exact (unchanged e ign v t). Qed.
Print Assumptions C40_unchanged.

(** and there is one for every value of the old type if all types changed in
    the documented ways only ([compatible], [top]). *)
Theorem C40_compatible_types eo en (zc ign : bool) J v t t' dw : env_wf eo -> env_wf en -> compatible eo en ign J -> top eo en ign J t t' ->
  deserialisable en zc t' -> has_type eo v t -> shape_wf t -> size_of eo t v <= U64_MAX ->
  exists w bs x, becomes en ign eo v t t' w /\ to_vec eo dw t v = ROk bs /\
    forall cf tl dbg sk sched, cf_ignore cf = ign -> cf_collect cf <= U64_MAX -> cf_blob cf <= U64_MAX ->
      bytes_ok tl -> lenN (bs ++ tl) + 3 < U64_MAX -> Forall (fun y => y <> EvFail) sched ->
      (fits cf x -> fst (from_stream en zc cf t' (new_stream dbg sk (mkDev (bs ++ tl) 0 sched))) = ROk w) /\
      (~ fits cf x -> exists err, fst (from_stream en zc cf t' (new_stream dbg sk (mkDev (bs ++ tl) 0 sched))) = RErr err /\ exceeds cf x (e_kind err)).
Proof. exact (compatible_data eo en zc ign J v t t' dw). Qed.
Print Assumptions C40_compatible_types.

(** Integers widened, plain values optional or in collections, an array any
    number, variants and optional fields added, a field removed; in all
    records of a tree. *)
Example C40_instance :
  env_wf v1 /\ env_wf v2 /\ compatible v1 v2 true eq /\ top v1 v2 true eq (TItem 0) (TItem 0) /\ deserialisable v2 true (TItem 0) /\
  has_type v1 v1_value (TItem 0) /\ shape_wf (TItem 0) /\ size_of v1 (TItem 0) v1_value <= U64_MAX /\
  exists bs, to_vec v1 true (TItem 0) v1_value = ROk bs /\ from_slice_borrow v2 true default_cfg (TItem 0) bs = ROk v2_value /\
    (* and two limits it exceeds *)
    from_slice_borrow v2 true (mkCfg 2 true 65536 65536) (TItem 0) bs = ROk v2_value /\
    (exists er, from_slice_borrow v2 true (mkCfg 1 true 65536 65536) (TItem 0) bs = RErr er /\ e_kind er = KRecLimit) /\
    (exists er, from_slice_borrow v2 true (mkCfg 2 true 65536 3) (TItem 0) bs = RErr er /\ e_kind er = KMaxCollect).
Proof.
  split; [exact v1_wf|]. split; [exact v2_wf|]. split; [exact v_compatible|]. split; [exact v_top|]. split; [exact v2_deserialisable|].
  split; [exact v1_typed|]. split; [exact Logic.I|]. split; [vm_compute; discriminate|].
  eexists. split; [vm_compute; reflexivity|]. split; [vm_compute; reflexivity|]. split; [vm_compute; reflexivity|].
  split; eexists; split; [vm_compute; reflexivity|reflexivity|vm_compute; reflexivity|reflexivity].
Qed.

(** The documented changes to the fields of a struct, in any number and
    combination: the new value, field by field ([change], [absent] in
    SpecChange.v). *)
Theorem C40_struct_changes e ign i j b b' vs ws : env_wf e -> ign = true \/ no_unit_body e (TItem j) ->
  e i = IStruct b -> e j = IStruct b' -> vb_special b = SpNone -> vb_special b' = SpNone ->
  has_type e (VRec vs) (TItem i) -> updated (named (vb_fields b) vs) (vb_fields b') ws -> vb_check b' ws = true ->
  ign = true \/ incl (tags_of b) (tags_of b') -> becomes e ign e (VRec vs) (TItem i) (TItem j) (VRec ws).
Proof. exact (fun Hw Hu => struct_updated e ign Hw (units_of e ign _ Hu) i j b b' vs ws). Qed.
Print Assumptions C40_struct_changes.

(** A struct with a [(?)] field keeps the deleted fields. *)
Theorem C40_deleted_fields_kept e ign i j b b' nm t vs ws : env_wf e -> ign = true \/ no_unit_body e (TItem j) ->
  e i = IStruct b -> e j = IStruct b' -> vb_special b = SpNone -> vb_special b' = SpUnknown nm t ->
  has_type e (VRec vs) (TItem i) -> updated (named (vb_fields b) vs) (vb_fields b') ws ->
  let us := undeclared (tags_of b') (x_body (doc e (VRec vs) (TItem i))) in vb_check b' (ws ++ [VUnk us]) = true ->
  becomes e ign e (VRec vs) (TItem i) (TItem j) (VRec (ws ++ [VUnk us])).
Proof. exact (fun Hw Hu => struct_updated_kept e ign Hw (units_of e ign _ Hu) i j b b' nm t vs ws). Qed.
Print Assumptions C40_deleted_fields_kept.

(** Variants may be added, in any place. *)
Theorem C40_variants_added e ign i j vars catch vars' catch' ix d b ix' vs : env_wf e -> ign = true \/ no_unit_body e (TItem j) ->
  e i = IEnum vars catch -> e j = IEnum vars' catch' ->
  nth_error vars ix = Some (d, b) -> nth_error vars' ix' = Some (d, b) -> has_type e (VVar ix (VRec vs)) (TItem i) ->
  becomes e ign e (VVar ix (VRec vs)) (TItem i) (TItem j) (VVar ix' (VRec vs)).
Proof. exact (fun Hw Hu => variant_updated e ign Hw (units_of e ign _ Hu) i j vars catch vars' catch' ix d b ix' vs). Qed.
Print Assumptions C40_variants_added.

Definition ex40_old : vbody := mkB [mkF "a" 1 (TUInt 16); mkF "b" 2 TString; mkF "c" 3 (TOption (TUInt 32)); mkF "d" 4 TBool] SpNone ok_all.
Definition ex40_new : vbody := mkB [mkF "c" 3 (TVec (TUInt 32)); mkF "e" 7 (TMap (TUInt 32) TBool); mkF "a" 1 (TOption (TUInt 16)); mkF "b" 2 TString] SpNone ok_all.
Definition ex40_kept : vbody := mkB [mkF "c" 3 (TVec (TUInt 32)); mkF "e" 7 (TMap (TUInt 32) TBool); mkF "a" 1 (TOption (TUInt 16))] (SpUnknown "u" TUnknown) ok_all.
Definition ex40_env : env := fun i => match i with
  | 0%nat => IStruct ex40_old | 1%nat => IStruct ex40_new | 2%nat => IStruct ex40_kept
  | 3%nat => IEnum [(1, ex40_old)] None | _ => IEnum [(2, ex40_new); (1, ex40_old)] None end.
Example C40_struct_instance :
  let v := [VU 5; VStr [104]; VOpt (Some (VU 9)); VB true] in
  let w := [VList [VU 9]; VMap []; VOpt (Some (VU 5)); VStr [104]] in
  let k := [VList [VU 9]; VMap []; VOpt (Some (VU 5))] in
  let us := undeclared (tags_of ex40_kept) (x_body (doc ex40_env (VRec v) (TItem 0))) in
  env_wf ex40_env /\ has_type ex40_env (VRec v) (TItem 0) /\ has_type ex40_env (VVar 0 (VRec v)) (TItem 3) /\
  updated (named (vb_fields ex40_old) v) (vb_fields ex40_new) w /\ updated (named (vb_fields ex40_old) v) (vb_fields ex40_kept) k /\
  us = [(2, NBlob [104]); (4, NInt 1)] /\
  exists bs, to_vec ex40_env true (TItem 0) (VRec v) = ROk bs /\ from_slice_copy ex40_env true default_cfg (TItem 1) bs = ROk (VRec w) /\
    from_slice_copy ex40_env true default_cfg (TItem 2) bs = ROk (VRec (k ++ [VUnk us])) /\
  exists bs', to_vec ex40_env true (TItem 3) (VVar 0 (VRec v)) = ROk bs' /\ from_slice_copy ex40_env true default_cfg (TItem 4) bs' = ROk (VVar 1 (VRec v)).
Proof.
  cbv zeta.
  assert (HF : Forall2 (has_type ex40_env) [VU 5; VStr [104]; VOpt (Some (VU 9)); VB true] (body_types ex40_old)).
  { repeat apply Forall2_cons; try apply Forall2_nil; [constructor; vm_compute; discriminate|constructor; [now left|now apply okb_ok|reflexivity]|constructor; constructor; vm_compute; discriminate|constructor]. }
  split; [intros [|[|[|[|i]]]]; wf_item|]. split; [now apply (TyStruct _ 0 ex40_old)|]. split; [now apply (TyVar _ 3 [(1, ex40_old)] None 0 1 ex40_old)|].
  split; [|split; [|split; [vm_compute; reflexivity|]]].
  - apply (UpField _ _ (VOpt (Some (VU 9))) (TOption (TUInt 32))); [cbn; tauto|exact (ChOptVec (TUInt 32) (Some (VU 9)) eq_refl)|].
    apply UpAdded; [cbn; intuition discriminate|constructor|].
    apply (UpField _ _ (VU 5) (TUInt 16)); [cbn; tauto|now apply ChOption|].
    apply (UpField _ _ (VStr [104]) TString); [cbn; tauto|apply ChSame|constructor].
  - apply (UpField _ _ (VOpt (Some (VU 9))) (TOption (TUInt 32))); [cbn; tauto|exact (ChOptVec (TUInt 32) (Some (VU 9)) eq_refl)|].
    apply UpAdded; [cbn; intuition discriminate|constructor|].
    apply (UpField _ _ (VU 5) (TUInt 16)); [cbn; tauto|now apply ChOption|constructor].
  - eexists. split; [vm_compute; reflexivity|]. split; [vm_compute; reflexivity|]. split; [vm_compute; reflexivity|].
    eexists. split; [vm_compute; reflexivity|]. vm_compute. reflexivity.
Qed.

(** The exceptions: a [Vec<u8>] is a string of bytes, not a collection.  The
    documentation's rules do not apply to it. *)
Definition ex40_bytes : env := fun i => match i with
  | 0%nat => IStruct (mkB [mkF "a" 1 (TUInt 8)] SpNone ok_all)
  | 1%nat => IStruct (mkB [mkF "a" 1 (TVec (TUInt 8))] SpNone ok_all)
  | 2%nat => IStruct (mkB [mkF "a" 1 (TVec (TUInt 32))] SpNone ok_all)
  | _ => IStruct (mkB [] SpNone ok_all) end.
Lemma ex40_bytes_wf : env_wf ex40_bytes.
Proof. intros [|[|[|i]]]; wf_item. Qed.
Theorem C40_u8_to_vec_refuted :
  ~ (forall e i j nm tag t v, env_wf e -> e i = IStruct (mkB [mkF nm tag t] SpNone ok_all) -> e j = IStruct (mkB [mkF nm tag (TVec t)] SpNone ok_all) ->
       single t = true -> has_type e (VRec [v]) (TItem i) ->
       exists bs w, to_vec e true (TItem i) (VRec [v]) = ROk bs /\ from_slice_copy e true default_cfg (TItem j) bs = ROk w).
Proof.
  intros H. destruct (H ex40_bytes 0%nat 1%nat "a"%string 1 (TUInt 8) (VU 5)) as (bs & w & H1 & H2); try reflexivity; [exact ex40_bytes_wf| |].
  - apply (TyStruct _ 0 (mkB [mkF "a" 1 (TUInt 8)] SpNone ok_all)); try reflexivity. repeat constructor. vm_compute. discriminate.
  - vm_compute in H1. injection H1 as <-. vm_compute in H2. discriminate H2.
Qed.
Print Assumptions C40_u8_to_vec_refuted.
Theorem C40_vec_u8_widened_refuted :
  ~ (forall e i j nm tag k k' v, env_wf e -> e i = IStruct (mkB [mkF nm tag (TVec (TUInt k))] SpNone ok_all) ->
       e j = IStruct (mkB [mkF nm tag (TVec (TUInt k'))] SpNone ok_all) -> k <= k' -> has_type e (VRec [v]) (TItem i) ->
       exists bs w, to_vec e true (TItem i) (VRec [v]) = ROk bs /\ from_slice_copy e true default_cfg (TItem j) bs = ROk w).
Proof.
  intros H. destruct (H ex40_bytes 1%nat 2%nat "a"%string 1 8 32 (VBytes [5])) as (bs & w & H1 & H2); try reflexivity; [exact ex40_bytes_wf|vm_compute; discriminate| |].
  - apply (TyStruct _ 1 (mkB [mkF "a" 1 (TVec (TUInt 8))] SpNone ok_all)); try reflexivity. apply Forall2_cons; [|constructor]. constructor; [right; right; now exists (TUInt 8)|now apply okb_ok].
  - vm_compute in H1. injection H1 as <-. vm_compute in H2. discriminate H2.
Qed.
Print Assumptions C40_vec_u8_widened_refuted.
Theorem C40_vec_u8_added_refuted :
  ~ (forall e i j nm tag t, env_wf e -> e i = IStruct (mkB [] SpNone ok_all) -> e j = IStruct (mkB [mkF nm tag (TVec t)] SpNone ok_all) ->
       exists bs w, to_vec e true (TItem i) (VRec []) = ROk bs /\ from_slice_copy e true default_cfg (TItem j) bs = ROk w).
Proof.
  intros H. destruct (H ex40_bytes 3%nat 1%nat "a"%string 1 (TUInt 8)) as (bs & w & H1 & H2); try reflexivity; [exact ex40_bytes_wf|].
  vm_compute in H1. injection H1 as <-. vm_compute in H2. discriminate H2.
Qed.
Print Assumptions C40_vec_u8_added_refuted.
