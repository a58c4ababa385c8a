(** * Prop_Keep: unknown fields and variants are kept *)

From Verif Require Import Base Wire Dev Stream Types Ser Prog De SpecWire SpecFormat SpecStream SpecDe SpecDoc SpecSerDe SpecRead P_Keep P_Unk P_Ex P_SerDe.
(** [variant d vars]: the first variant with the discriminant (SpecRead.v). *)

(** ** C31.  Any document, in whatever encoding, is read as [UnknownFields]
    within the limits, and written again it is in its canonical (shortest)
    encoding. *)
Theorem C31_unknown_fields e (zc : bool) cf (ks : list (N * node)) bs tl dbg sk sched dw : cf_collect cf <= U64_MAX -> cf_blob cf <= U64_MAX ->
  up (map (fun f => node_need (snd f)) ks) <= cf_rec cf -> nodes_count ks <= cf_collect cf -> (if zc then 0 else nodes_bytes ks) <= cf_blob cf ->
  encodes_doc ks bs -> bytes_ok (bs ++ tl) -> lenN (bs ++ tl) + 3 < U64_MAX -> Forall (fun x => x <> EvFail) sched ->
  size_bound (document ks) <= U64_MAX ->
  fst (from_stream e zc cf TUnknown (new_stream dbg sk (mkDev (bs ++ tl) 0 sched))) = ROk (VUnk ks) /\
  exists out, to_vec e dw TUnknown (VUnk ks) = ROk out /\ shortest (document ks) out /\ (shortest (document ks) bs -> out = bs).
Proof. exact (unknown_kept e zc cf ks bs tl dbg sk sched dw). Qed.
Print Assumptions C31_unknown_fields.

(** A padded document with an overlong integer. *)
Example C31_instance :
  let ks := [(5, NInt 3); (2, NStruct [(1, NBlob [7; 8]); (1, NEnum 9 [])]); (5, NInt 4)] in
  let b := [0x45; 0x83; 0x00; 0xC0; 0xC2; 0x81; 2; 7; 8; 0x01; 9; 0; 0; 0x45; 4] in
  let canonical := [0x45; 3; 0xC2; 0x81; 2; 7; 8; 0x01; 9; 0; 0; 0x45; 4; 0] in
  encodes_doc ks (b ++ [0]) /\ bytes_ok ((b ++ [0]) ++ [17]) /\ size_bound (document ks) <= U64_MAX /\
  up (map (fun f => node_need (snd f)) ks) <= cf_rec default_cfg /\ nodes_count ks <= cf_collect default_cfg /\ nodes_bytes ks <= cf_blob default_cfg /\
  from_slice_copy ex_env true default_cfg TUnknown (b ++ [0]) = ROk (VUnk ks) /\
  to_vec ex_env true TUnknown (VUnk ks) = ROk canonical /\ canonical <> b ++ [0].
Proof.
  cbv zeta. split; [eexists; split; [|reflexivity]; apply encodes_by; reflexivity|]. split; [now apply okb_ok|].
  do 4 (split; [vm_compute; discriminate|]). split; [vm_compute; reflexivity|]. split; [vm_compute; reflexivity|discriminate].
Qed.

(** ** C41.  The declared variant with the discriminant reads the contents of
    the enum as a struct with the variant's fields would, one context further
    in. *)
Theorem C41_declared e zc cf i j vars catch b d fs s s' ix v :
  usable e zc cf (TItem i) -> doc_stream [(1, NEnum d fs)] s -> e i = IEnum vars catch -> 1 <= cf_rec cf ->
  e j = IStruct b -> usable e zc cf (TItem j) -> doc_stream fs s' -> variant d vars = Some (ix, b) ->
  fst (from_stream e zc cf (TItem i) s) = ROk v <->
  exists w, v = VVar ix w /\ fst (from_stream e zc (mkCfg (cf_rec cf - 1) (cf_ignore cf) (cf_blob cf) (cf_collect cf)) (TItem j) s') = ROk w.
Proof. exact (fun H1 H2 H3 H4 => declared_variant e zc cf i j vars catch b d fs s s' H1 H2 H3 H4 ix v). Qed.
Print Assumptions C41_declared.

(** No such variant: an error with the discriminant, *)
Theorem C41_undeclared e zc cf i vars d fs ks s :
  usable e zc cf (TItem i) -> doc_stream ((1, NEnum d fs) :: ks) s -> 1 <= cf_rec cf ->
  e i = IEnum vars None -> variant d vars = None ->
  exists x, fst (from_stream e zc cf (TItem i) s) = RErr x /\ e_kind x = KUnknownVariant d.
Proof. exact (no_variant e zc cf i vars d fs ks s). Qed.
Print Assumptions C41_undeclared.

(** or the [(?)] variant with the discriminant and its fields. *)
Theorem C41_caught e zc cf i j vars b d fs s s' v :
  usable e zc cf (TItem i) -> doc_stream [(1, NEnum d fs)] s -> e i = IEnum vars (Some b) -> 1 <= cf_rec cf ->
  e j = IStruct b -> usable e zc cf (TItem j) -> doc_stream fs s' -> variant d vars = None ->
  fst (from_stream e zc cf (TItem i) s) = ROk v <->
  exists w, v = VCatch d w /\ fst (from_stream e zc (mkCfg (cf_rec cf - 1) (cf_ignore cf) (cf_blob cf) (cf_collect cf)) (TItem j) s') = ROk w.
Proof. exact (fun H1 H2 H3 H4 => caught_variant e zc cf i j vars (Some b) b d fs s s' H1 H2 H3 H4 v eq_refl). Qed.
Print Assumptions C41_caught.

(** If that holds nothing but unknown fields, all of them are there, and
    writing it gives the same document. *)
Theorem C41_caught_kept e zc cf i vars b nm t d fs s dw : env_wf e -> usable e zc cf (TItem i) ->
  cf_ignore cf = true \/ no_unit_body e (TItem i) ->
  e i = IEnum vars (Some b) -> variant d vars = None -> vb_fields b = [] -> vb_special b = SpUnknown nm t -> vb_check b [VUnk fs] = true ->
  admits cf e zc (VCatch d (VRec [VUnk fs])) (TItem i) ->
  doc_stream [(1, NEnum d fs)] s -> size_bound (document [(1, NEnum d fs)]) <= U64_MAX ->
  fst (from_stream e zc cf (TItem i) s) = ROk (VCatch d (VRec [VUnk fs])) /\
  exists out, to_vec e dw (TItem i) (VCatch d (VRec [VUnk fs])) = ROk out /\ shortest (document [(1, NEnum d fs)]) out.
Proof. exact (fun H1 H2 H3 H4 H5 H6 H7 H8 H9 => caught_kept e zc cf i vars b nm t d fs H1 H2 H3 H4 H5 H6 H7 H8 H9 s dw). Qed.
Print Assumptions C41_caught_kept.

(** Items: 0 the struct of a box, 1 the enum, 2 the enum without [(?)], 3 the
    contents of the [(?)] variant. *)
Definition ex41_box : vbody := mkB [mkF "w" 1 (TSInt 32); mkF "h" 2 (TSInt 32)] SpNone ok_all.
Definition ex41_other : vbody := mkB [] (SpUnknown "body" TUnknown) ok_all.
Definition ex41_env : env := fun i => match i with
  | 0%nat => IStruct ex41_box
  | 1%nat => IEnum [(1, mkB [] SpNone ok_all); (2, ex41_box)] (Some ex41_other)
  | 2%nat => IEnum [(1, mkB [] SpNone ok_all); (2, ex41_box)] None
  | _ => IStruct ex41_other
  end.
Lemma ex41_wf : env_wf ex41_env.
Proof.
  intros [|[|[|i]]]; wf_item.
Qed.
Lemma ex41_deserialisable zc i : deserialisable ex41_env zc (TItem i).
Proof.
  assert (H : forall t, In t [TItem i; TSInt 32; TUnknown] -> deserialisable ex41_env zc t); [|apply H; now left].
  intros t Hin H. revert Hin. induction H; intros Hin; cbn [In] in Hin; repeat (destruct Hin as [Hin|Hin]); try discriminate; try contradiction.
  injection Hin as <-. apply IHno_impl. destruct i as [|[|[|i]]]; cbn in *; intuition.
Qed.
Lemma ex41_usable zc i : usable ex41_env zc default_cfg (TItem i).
Proof. split; [apply env_wf_ok, ex41_wf|]. split; [apply ex41_deserialisable|]. split; vm_compute; discriminate. Qed.
Example C41_instance :
  let fs := [(1, NInt 5); (2, NInt 10)] in
  let stream_of b := new_stream true false (mkDev (b ++ [0] ++ [99]) 0 []) in
  env_wf ex41_env /\ (forall zc i, usable ex41_env zc default_cfg (TItem i)) /\
  doc_stream [(1, NEnum 2 fs)] (stream_of [0x01; 2; 0x41; 5; 0x42; 10; 0]) /\ doc_stream fs (stream_of [0x41; 5; 0x42; 10]) /\
  doc_stream [(1, NEnum 7 fs)] (stream_of [0x01; 7; 0x41; 5; 0x42; 10; 0]) /\
  fst (from_stream ex41_env false default_cfg (TItem 1) (stream_of [0x01; 2; 0x41; 5; 0x42; 10; 0])) = ROk (VVar 1 (VRec [VS (-3); VS 5])) /\
  fst (from_stream ex41_env false default_cfg (TItem 1) (stream_of [0x01; 7; 0x41; 5; 0x42; 10; 0])) = ROk (VCatch 7 (VRec [VUnk fs])) /\
  fst (from_stream ex41_env false default_cfg (TItem 2) (stream_of [0x01; 7; 0x41; 5; 0x42; 10; 0])) = RErr (mkErr [("top"%string, 0)] (KUnknownVariant 7)) /\
  to_vec ex41_env true (TItem 1) (VCatch 7 (VRec [VUnk fs])) = ROk [0x01; 7; 0x41; 5; 0x42; 10; 0; 0] /\
  admits default_cfg ex41_env false (VCatch 7 (VRec [VUnk fs])) (TItem 1).
Proof.
  cbv zeta. split; [exact ex41_wf|]. split; [exact ex41_usable|]. do 3 (split; [apply doc_by; reflexivity|]).
  do 4 (split; [vm_compute; reflexivity|]). repeat split; vm_compute; discriminate.
Qed.
