(** * Prop_Edit: an old program changes data of a newer one *)

From Verif Require Import Base Wire Dev Stream Types Ser Prog De SpecWire SpecFormat SpecStream SpecWrite SpecDe SpecDoc SpecSerDe SpecRead SpecCompat SpecEdit
  P_Ex P_Edit P_Pass P_EditEx.

(** ** C32.  A struct of the old program (definitions [eo]) with a [(?)] field
    reads the value [vs ++ rest] which the new program (definitions [en])
    wrote ([rest] is what the new struct's own [(?)] field holds, if it has
    one): its own fields are [vo], and everything else is kept in [us].  It
    changes its own fields to any [vo'] and writes that; the new program reads
    its struct with those fields changed, and all the others, and [rest], as
    they were. *)
Theorem C32_edit_struct eo en (zc ign : bool) i j bo bn nm t vs rest vo vo' ws dw dw' :
  env_wf eo -> env_wf en -> ign = true \/ no_unit_body en (TItem j) -> deserialisable eo zc (TItem i) -> deserialisable en zc (TItem j) ->
  eo i = IStruct bo -> vb_special bo = SpUnknown nm t -> en j = IStruct bn -> delegates bn = false -> incl (tags_of bo) (tags_of bn) ->
  has_type en (VRec (vs ++ rest)) (TItem j) -> List.length vs = List.length (vb_fields bn) ->
  let us := undeclared (tags_of bo) (x_body (doc en (VRec (vs ++ rest)) (TItem j))) in
  seen eo ign en (named (vb_fields bn) vs) (vb_fields bo) vo -> vb_check bo (vo ++ [VUnk us]) = true ->
  Forall2 (has_type eo) vo' (map fd_ty (vb_fields bo)) -> vb_check bo (vo' ++ [VUnk us]) = true ->
  edited en ign eo (named (vb_fields bo) vo') (vb_fields bn) vs ws -> vb_check bn (ws ++ rest) = true ->
  size_of en (TItem j) (VRec (vs ++ rest)) <= U64_MAX -> size_of eo (TItem i) (VRec (vo' ++ [VUnk us])) <= U64_MAX ->
  exists bs bs', to_vec en dw (TItem j) (VRec (vs ++ rest)) = ROk bs /\ read_as eo zc ign (TItem i) bs (VRec (vo ++ [VUnk us])) /\
    to_vec eo dw' (TItem i) (VRec (vo' ++ [VUnk us])) = ROk bs' /\ read_as en zc ign (TItem j) bs' (VRec (ws ++ rest)).
Proof. exact (edit_struct eo en zc ign i j bo bn nm t vs rest vo vo' ws dw dw'). Qed.
Print Assumptions C32_edit_struct.

(** If the common fields have the same types, the old program sees the new
    program's values, and the result has its values. *)
Theorem C32_same_types e (zc ign : bool) i j bo bn nm t vs rest vo vo' ws dw dw' :
  env_wf e -> ign = true \/ no_unit_body e (TItem j) -> deserialisable e zc (TItem i) -> deserialisable e zc (TItem j) ->
  e i = IStruct bo -> vb_special bo = SpUnknown nm t -> e j = IStruct bn -> delegates bn = false -> incl (tags_of bo) (tags_of bn) ->
  has_type e (VRec (vs ++ rest)) (TItem j) -> List.length vs = List.length (vb_fields bn) ->
  let us := undeclared (tags_of bo) (x_body (doc e (VRec (vs ++ rest)) (TItem j))) in
  shown (named (vb_fields bn) vs) (vb_fields bo) vo -> vb_check bo (vo ++ [VUnk us]) = true ->
  Forall2 (has_type e) vo' (map fd_ty (vb_fields bo)) -> vb_check bo (vo' ++ [VUnk us]) = true ->
  merged (named (vb_fields bo) vo') (vb_fields bn) vs ws -> vb_check bn (ws ++ rest) = true ->
  size_of e (TItem j) (VRec (vs ++ rest)) <= U64_MAX -> size_of e (TItem i) (VRec (vo' ++ [VUnk us])) <= U64_MAX ->
  exists bs bs', to_vec e dw (TItem j) (VRec (vs ++ rest)) = ROk bs /\ read_as e zc ign (TItem i) bs (VRec (vo ++ [VUnk us])) /\
    to_vec e dw' (TItem i) (VRec (vo' ++ [VUnk us])) = ROk bs' /\ read_as e zc ign (TItem j) bs' (VRec (ws ++ rest)).
Proof. exact (edit_same e zc ign i j bo bn nm t vs rest vo vo' ws dw dw'). Qed.
Print Assumptions C32_same_types.

(** The same for a variant of an enum which the old program does not know: it
    is read as the [(?)] variant, with its discriminant. *)
Theorem C32_unknown_variant eo en (zc ign : bool) i j vars bo vars' catch' ix d bn nm t vs rest fs vo vo' ws dw dw' :
  env_wf eo -> env_wf en -> ign = true \/ no_unit_body en (TItem j) -> deserialisable eo zc (TItem i) -> deserialisable en zc (TItem j) ->
  eo i = IEnum vars (Some bo) -> vb_special bo = SpUnknown nm t -> ~ In d (map fst vars) ->
  en j = IEnum vars' catch' -> nth_error vars' ix = Some (d, bn) -> delegates bn = false -> incl (tags_of bo) (tags_of bn) ->
  let v := VVar ix (VRec (vs ++ rest)) in
  has_type en v (TItem j) -> List.length vs = List.length (vb_fields bn) -> x_elem (doc en v (TItem j)) = NEnum d fs ->
  let us := undeclared (tags_of bo) fs in
  seen eo ign en (named (vb_fields bn) vs) (vb_fields bo) vo -> vb_check bo (vo ++ [VUnk us]) = true ->
  Forall2 (has_type eo) vo' (map fd_ty (vb_fields bo)) -> vb_check bo (vo' ++ [VUnk us]) = true ->
  edited en ign eo (named (vb_fields bo) vo') (vb_fields bn) vs ws -> vb_check bn (ws ++ rest) = true ->
  size_of en (TItem j) v <= U64_MAX -> size_of eo (TItem i) (VCatch d (VRec (vo' ++ [VUnk us]))) <= U64_MAX ->
  exists bs bs', to_vec en dw (TItem j) v = ROk bs /\ read_as eo zc ign (TItem i) bs (VCatch d (VRec (vo ++ [VUnk us]))) /\
    to_vec eo dw' (TItem i) (VCatch d (VRec (vo' ++ [VUnk us]))) = ROk bs' /\ read_as en zc ign (TItem j) bs' (VVar ix (VRec (ws ++ rest))).
Proof. exact (edit_variant eo en zc ign i j vars bo vars' catch' ix d bn nm t vs rest fs vo vo' ws dw dw'). Qed.
Print Assumptions C32_unknown_variant.

(** At any depth: if all the types of the old program are older versions of
    the new ones ([all_older], SpecEdit.v: fields have been added to structs
    with [(?)], variants to enums with [(?)]), then the old program reads every
    value of the new one, and when it writes what it has read, the new program
    reads the very same value. *)
Theorem C32_passed_through eo en (zc ign : bool) J v t t' dw dw' : env_wf eo -> env_wf en -> all_older eo en J -> older J t' t ->
  ign = true \/ no_unit_body en t -> deserialisable eo zc t' -> deserialisable en zc t -> has_type en v t -> shape_wf t -> size_of en t v <= U64_MAX ->
  exists w bs, has_type eo w t' /\ to_vec en dw t v = ROk bs /\ read_as eo zc ign t' bs w /\
    (size_of eo t' w <= U64_MAX -> exists bs', to_vec eo dw' t' w = ROk bs' /\ read_as en zc ign t bs' v).
Proof. exact (passed_through eo en zc ign J v t t' dw dw'). Qed.
Print Assumptions C32_passed_through.

(** P_EditEx.v: a node with a remark, more shapes and children, all unknown to
    the old program; its main shape is a circle, also unknown. *)
Example C32_instance :
  env_wf o_env /\ env_wf n_env /\ deserialisable o_env true (TItem 0) /\ deserialisable n_env true (TItem 0) /\
  has_type n_env (VRec (n_values ++ [])) (TItem 0) /\ incl (tags_of o_node) (tags_of n_node) /\
  seen o_env true n_env (named (vb_fields n_node) n_values) (vb_fields o_node) [VU 65; VStr [97]; o_circle] /\
  Forall2 (has_type o_env) o_new (map fd_ty (vb_fields o_node)) /\
  edited n_env true o_env (named (vb_fields o_node) o_new) (vb_fields n_node) n_values n_new /\
  size_of n_env (TItem 0) (VRec (n_values ++ [])) <= U64_MAX /\ size_of o_env (TItem 0) (VRec (o_new ++ [VUnk o_rest])) <= U64_MAX /\
  List.length o_rest = 4%nat /\ n_new <> n_values /\
  exists bs, to_vec n_env true (TItem 0) (VRec n_values) = ROk bs /\
    from_slice_copy o_env true default_cfg (TItem 0) bs = ROk (VRec ([VU 65; VStr [97]; o_circle] ++ [VUnk o_rest])) /\
  exists bs', to_vec o_env true (TItem 0) (VRec (o_new ++ [VUnk o_rest])) = ROk bs' /\ from_slice_copy n_env true default_cfg (TItem 0) bs' = ROk (VRec n_new).
Proof.
  split; [exact o_wf|]. split; [exact n_wf|]. split; [exact (proj1 (o_deserialisable true))|]. split; [exact (proj1 (n_deserialisable true))|].
  split; [exact n_typed|]. split; [intros tag [<-|[<-|[<-|[]]]]; cbn; tauto|]. split; [exact (n_seen true)|]. split; [exact o_new_typed|]. split; [exact (n_edited true)|].
  split; [vm_compute; discriminate|]. split; [vm_compute; discriminate|]. split; [reflexivity|]. split; [discriminate|].
  eexists. split; [vm_compute; reflexivity|]. split; [vm_compute; reflexivity|]. eexists. split; [vm_compute; reflexivity|]. vm_compute. reflexivity.
Qed.
Example C32_unknown_variant_instance :
  let us := [(1, NInt 7); (2, NInt 5)] in
  deserialisable o_env true (TItem 1) /\ deserialisable n_env true (TItem 1) /\ ~ In 2 (map fst [(1, mkB [] SpNone ok_all)]) /\
  has_type n_env (VVar 0 (VRec ([VU 7; VS (-3)] ++ []))) (TItem 1) /\
  x_elem (doc n_env (VVar 0 (VRec ([VU 7; VS (-3)] ++ []))) (TItem 1)) = NEnum 2 us /\ undeclared (tags_of o_other) us = us /\
  edited n_env true o_env (named (vb_fields o_other) []) (vb_fields n_circle) [VU 7; VS (-3)] [VU 7; VS (-3)] /\
  exists bs, to_vec n_env true (TItem 1) n_circle_value = ROk bs /\ from_slice_copy o_env true default_cfg (TItem 1) bs = ROk (VCatch 2 (VRec [VUnk us])) /\
    to_vec o_env true (TItem 1) (VCatch 2 (VRec [VUnk us])) = ROk bs.
Proof.
  cbv zeta. split; [exact (proj2 (o_deserialisable true))|]. split; [exact (proj2 (n_deserialisable true))|]. split; [cbn; intuition discriminate|].
  split; [exact n_circle_typed|]. split; [reflexivity|]. split; [reflexivity|]. split; [repeat (apply EdTheirs; [intros []|]); constructor|].
  eexists. split; [vm_compute; reflexivity|]. split; vm_compute; reflexivity.
Qed.
(** The same with one program: items 0 (old) and 1 (new). *)
Definition ex32_old : vbody := mkB [mkF "b" 2 TString; mkF "a" 1 (TVec (TUInt 16))] (SpUnknown "rest" TUnknown) ok_all.
Definition ex32_new : vbody := mkB [mkF "a" 1 (TVec (TUInt 16)); mkF "x" 7 (TOption TBool); mkF "b" 2 TString; mkF "y" 8 (TUInt 64)] (SpUnknown "rest" TUnknown) ok_all.
Definition ex32_env : env := fun i => match i with 0%nat => IStruct ex32_old | 1%nat => IStruct ex32_new | _ => IStruct (mkB [] SpNone ok_all) end.
Example C32_same_types_instance :
  let vs := [VList [VU 1; VU 2]; VOpt (Some (VB true)); VStr [104]; VU 5] in let rest := [VUnk [(9, NBlob [3])]] in
  let us := [(7, NInt 1); (8, NInt 5); (9, NBlob [3])] in
  let ws := [VList [VU 3]; VOpt (Some (VB true)); VStr []; VU 5] in
  env_wf ex32_env /\ has_type ex32_env (VRec (vs ++ rest)) (TItem 1) /\
  undeclared (tags_of ex32_old) (x_body (doc ex32_env (VRec (vs ++ rest)) (TItem 1))) = us /\
  shown (named (vb_fields ex32_new) vs) (vb_fields ex32_old) [VStr [104]; VList [VU 1; VU 2]] /\
  Forall2 (has_type ex32_env) [VStr []; VList [VU 3]] (map fd_ty (vb_fields ex32_old)) /\
  merged (named (vb_fields ex32_old) [VStr []; VList [VU 3]]) (vb_fields ex32_new) vs ws /\
  exists bs, to_vec ex32_env true (TItem 1) (VRec (vs ++ rest)) = ROk bs /\
    from_slice_copy ex32_env true default_cfg (TItem 0) bs = ROk (VRec [VStr [104]; VList [VU 1; VU 2]; VUnk us]) /\
  exists bs', to_vec ex32_env true (TItem 0) (VRec [VStr []; VList [VU 3]; VUnk us]) = ROk bs' /\
    from_slice_copy ex32_env true default_cfg (TItem 1) bs' = ROk (VRec (ws ++ rest)).
Proof.
  cbv zeta. split; [intros [|[|i]]; wf_item|]. split.
  { apply (TyStruct _ 1 ex32_new); try reflexivity; [|intros _ fs E; injection E as <-; repeat constructor; cbn; intuition discriminate].
    cbn [app body_types ex32_new vb_fields vb_special map fd_ty sp_types].
    apply Forall2_cons; [constructor; [reflexivity|]; repeat (apply Forall_cons; [constructor; vm_compute; discriminate|]); constructor|].
    apply Forall2_cons; [constructor; constructor|]. apply Forall2_cons; [constructor; [now left|now apply okb_ok|reflexivity]|].
    apply Forall2_cons; [constructor; vm_compute; discriminate|]. apply Forall2_cons; [|constructor].
    constructor. apply Forall_cons; [|constructor]. cbn [fst snd node_ok]. split; [unfold tag_ok; lia|]. try split; first [now apply okb_ok|vm_compute; discriminate]. }
  split; [reflexivity|]. split; [apply ShField; [cbn; tauto|]; apply ShField; [cbn; tauto|constructor]|].
  split.
  { apply Forall2_cons; [constructor; [now left|constructor|reflexivity]|]. apply Forall2_cons; [|constructor].
    constructor; [reflexivity|]. apply Forall_cons; [constructor; vm_compute; discriminate|constructor]. }
  split; [apply MgOurs; [cbn; tauto|]; apply MgTheirs; [cbn; intuition discriminate|]; apply MgOurs; [cbn; tauto|]; apply MgTheirs; [cbn; intuition discriminate|constructor]|].
  eexists. split; [vm_compute; reflexivity|]. split; [vm_compute; reflexivity|]. eexists. split; [vm_compute; reflexivity|]. vm_compute. reflexivity.
Qed.
Example C32_passed_through_instance :
  all_older o_env n_env eq /\ older eq (TItem 0) (TItem 0) /\ has_type n_env (VRec n_values) (TItem 0) /\
  exists bs w bs', to_vec n_env true (TItem 0) (VRec n_values) = ROk bs /\ from_slice_copy o_env true default_cfg (TItem 0) bs = ROk w /\
    to_vec o_env true (TItem 0) w = ROk bs' /\ bs' <> bs /\ from_slice_copy n_env true default_cfg (TItem 0) bs' = ROk (VRec n_values).
Proof.
  split; [exact o_older|]. split; [now apply OlItem|]. split; [exact n_typed|].
  eexists _, _, _. split; [vm_compute; reflexivity|]. split; [vm_compute; reflexivity|]. split; [vm_compute; reflexivity|]. split; [discriminate|vm_compute; reflexivity].
Qed.
