(** * P_Edit: edit-compatibility (SpecEdit.v) *)

From Verif Require Import Base Wire Dev Stream Types Ser Prog De SpecWire SpecFormat SpecStream SpecWrite SpecDe SpecDoc SpecSerDe SpecRead SpecCompat SpecEdit
  P_Base P_Read P_Types P_RT P_SerDe P_DocOk P_Means P_Meaning P_Order P_Card P_Compat P_Keep P_CompatTy P_Changes P_CompatApi.

Lemma occs_kept tag us : occs tag (kept us) = map (fun p => (VNode (snd p), TUnkField)) (with_tag tag us).
Proof.
  induction us as [|[tg n] us IH]; [reflexivity|]. unfold kept. cbn [map]. fold (kept us). unfold occs. cbn [flat_map fst snd]. fold (occs tag (kept us)). rewrite IH.
  unfold with_tag. cbn [filter fst]. destruct (tg =? tag); reflexivity.
Qed.
Lemma with_undeclared tag tags ks : ~ In tag tags -> with_tag tag (undeclared tags ks) = with_tag tag ks.
Proof.
  intros H. unfold with_tag, undeclared. induction ks as [|[tg n] ks IH]; [reflexivity|]. cbn [filter fst].
  destruct (existsb (N.eqb tg) tags) eqn:E; cbn [negb filter fst].
  - destruct (N.eqb_spec tg tag) as [->|]; [|exact IH]. exfalso. apply H. apply existsb_exists in E. destruct E as (t & Ht & E). apply N.eqb_eq in E. now subst t.
  - destruct (tg =? tag); [f_equal|]; exact IH.
Qed.
Lemma in_undeclared tag n tags ks : In (tag, n) (undeclared tags ks) -> In (tag, n) ks /\ ~ In tag tags.
Proof.
  intros H. apply filter_In in H. destruct H as [H1 H2]. split; [exact H1|]. intros Hi. cbn [fst] in H2.
  assert (E : existsb (N.eqb tag) tags = true) by (apply existsb_exists; exists tag; split; [exact Hi|apply N.eqb_refl]). rewrite E in H2. discriminate H2.
Qed.
(** Elements kept by a program are what they were. *)
Lemma kept_elems en ign e3 eo l t ws : elems en ign e3 l t ws -> elems en ign eo (map (fun p => (VNode (x_elem (doc e3 (fst p) (snd p))), TUnkField)) l) t ws.
Proof. induction 1; cbn [map fst snd]; constructor; [now apply ElKept|assumption]. Qed.

Section Bodies.
  Variables (eo en : env) (ign : bool).
  Hypothesis Hwn : env_wf en.
  Hypothesis Hun : ign = true \/ forall i b nm t', match en i with
                                                   | IStruct b0 => b = b0
                                                   | IEnum vars catch => In b (map snd vars) \/ catch = Some b
                                                   end -> vb_special b = SpDeleg nm t' -> unit_like t' = false.

  (** The fields of the new program's struct. *)
  Record parts_of (bn : vbody) (vn vs : list value) (un : list (N * node)) (rest : list value) : Prop := {
    po_eq : vn = vs ++ rest;
    po_len : List.length vs = List.length (vb_fields bn);
    po_typed : Forall2 (has_type en) vs (map fd_ty (vb_fields bn));
    po_pieces : pieces en bn vn (named (vb_fields bn) vs ++ kept un);
    po_un : forall tag n, In (tag, n) un -> ~ In tag (tags_of bn);
    po_rest : (vb_special bn = SpNone /\ rest = [] /\ un = []) \/
              (exists nm t, vb_special bn = SpUnknown nm t /\ unknown_like t = true /\ rest = [VUnk un])
  }.
  Lemma parts_exist bn vn : vbody_wf bn -> fields_wf bn -> delegates bn = false -> Forall2 (has_type en) vn (body_types bn) -> unknown_ok bn vn ->
    exists vs un rest, parts_of bn vn vs un rest.
  Proof.
    intros (Hnd & _ & Hsp) [Hff Hfs] Hd HT Hu. unfold body_types in HT. unfold unknown_ok in Hu. unfold delegates in Hd.
    assert (Hul : Forall (fun f => unknown_like (fd_ty f) = false) (vb_fields bn)) by (refine (Forall_impl _ _ Hff); intros f [_ H]; exact H).
    destruct (vb_special bn) as [|nm t|nm t] eqn:Es; try discriminate Hd; cbn [sp_types] in HT.
    - rewrite app_nil_r in HT. pose proof (Forall2_len _ _ _ HT) as Hl. rewrite map_length in Hl. exists vn, [], []. apply Build_parts_of; auto; [now rewrite app_nil_r|]. cbn [kept map]. rewrite app_nil_r. now constructor.
    - apply Forall2_app_inv_r in HT. destruct HT as (vs1 & vs2 & HT1 & HT2 & ->). inversion HT2 as [|dv ? ? ? Hdv HT3]; subst. inversion HT3; subst.
      pose proof (Forall2_len _ _ _ HT1) as Hl. rewrite map_length in Hl.
      assert (Hus : exists us, dv = VUnk us). { clear -Hsp Hdv. revert dv Hdv. induction t; intros dv H; try discriminate Hsp; inversion H; subst; eauto; not_str. }
      destruct Hus as (us & ->). specialize (Hu Hsp us (last_last _ _ _)). exists vs1, us, [VUnk us]. apply Build_parts_of; auto.
      + now apply (PaKept en bn nm t).
      + intros tag n Hi. exact (proj1 (Forall_forall _ _) Hu _ Hi).
      + right. now exists nm, t.
  Qed.

  Lemma named_len fs vs : List.length vs = List.length fs -> forall f v, In (f, v) (combine fs vs) -> In (fd_tag f, (v, fd_ty f)) (named fs vs).
  Proof.
    revert vs. induction fs as [|g fs IH]; intros [|w vs] Hl f v Hi; try discriminate Hl; [destruct Hi|]. unfold named. cbn [map combine] in *. fold (named fs vs).
    destruct Hi as [Hi|Hi]; [injection Hi as <- <-; now left|right]. apply IH; auto.
  Qed.

  (** The old program has read all of it, and writes [ours] and the rest. *)
  Lemma edit_record bn vn vs un rest tags ours us : vbody_wf bn -> fields_wf bn -> parts_of bn vn vs un rest ->
    us = undeclared tags (nodes en (named (vb_fields bn) vs ++ kept un)) -> tags = map fst ours -> NoDup tags ->
    forall fs vs1 ws, incl (combine fs vs1) (combine (vb_fields bn) vs) -> edited en ign eo ours fs vs1 ws ->
    record en ign eo (ours ++ kept us) (declared fs) ws.
  Proof.
    intros (Hnd & _) [Hff _] [_ Hl HT _ Hun' _] -> -> Ht fs vs1 ws Hi He. induction He as [|f v x t w fs vs1 ws Hin (us & H1 & H2) He IH|f v fs vs1 ws Hni He IH]; cbn [declared map].
    - constructor.
    - apply (ReCons en ign eo _ (fd_tag f) (fd_ty f) _ us w ws); [|exact H2|apply IH; intros y Hy; apply Hi; now right].
      rewrite occs_app, (occs_one ours (fd_tag f) x t), occs_none, app_nil_r; auto.
      rewrite kept_tags. intros Hk. apply in_map_iff in Hk. destruct Hk as ([tag n] & E & Hk). cbn [fst] in E. subst tag.
      apply in_undeclared in Hk. destruct Hk as [_ Hk]. apply Hk. apply (in_map fst) in Hin. exact Hin.
    - assert (Hfv : In (f, v) (combine (vb_fields bn) vs)) by (apply Hi; now left).
      assert (Hnm : In (fd_tag f, (v, fd_ty f)) (named (vb_fields bn) vs)) by now apply named_len.
      assert (Hty : has_type en v (fd_ty f)) by exact (proj1 (named_typed en _ _ HT _ _ _ Hnm)).
      assert (Hf : In f (vb_fields bn)) by (apply in_combine_l in Hfv; exact Hfv).
      destruct (proj1 (Forall_forall _ _) Hff f Hf) as [Hs Hul].
      destruct (unk_none en ign Hwn Hun (fd_ty f) v Hul Hty Hs) as (us & H1 & H2).
      apply (ReCons en ign eo _ (fd_tag f) (fd_ty f) _ us v ws); [|exact H2|apply IH; intros y Hy; apply Hi; now right].
      rewrite occs_app, occs_none, occs_kept, (with_undeclared _ _ _ Hni), with_tag_nodes, occs_app by exact Hni. cbn [app].
      rewrite (occs_one _ _ v (fd_ty f)), occs_none, app_nil_r; auto.
      + rewrite map_map. cbn [snd]. exact (kept_elems en ign en eo _ _ _ H1).
      + rewrite kept_tags. intros Hk. apply in_map_iff in Hk. destruct Hk as ([tag n] & E & Hk). cbn [fst] in E. subst tag. apply (Hun' _ _ Hk). now apply (in_map fd_tag).
      + now rewrite named_tags.
  Qed.
  Lemma edit_into bn vn vs un rest ours us ws : vbody_wf bn -> fields_wf bn -> parts_of bn vn vs un rest ->
    us = undeclared (map fst ours) (nodes en (named (vb_fields bn) vs ++ kept un)) -> NoDup (map fst ours) -> incl (map fst ours) (tags_of bn) ->
    edited en ign eo ours (vb_fields bn) vs ws -> vb_check bn (ws ++ rest) = true -> into_body en ign eo (ours ++ kept us) bn (ws ++ rest).
  Proof.
    intros Hbw Hbf Hp Hus Hnd Hincl He Hck.
    assert (Hr : record en ign eo (ours ++ kept us) (declared (vb_fields bn)) ws).
    { apply (edit_record bn vn vs un rest (map fst ours) ours us Hbw Hbf Hp Hus eq_refl Hnd _ vs); [intros y Hy; exact Hy|exact He]. }
    destruct Hp as [_ Hl HT _ Hun' [(Es & -> & ->)|(nm & t & Es & Hu & ->)]].
    - rewrite app_nil_r in *. apply IbFields; auto. right. apply undeclared_all. intros tag n Hi. apply nodes_tags in Hi. rewrite declared_tags.
      rewrite map_app in Hi. apply in_app_or in Hi. destruct Hi as [Hi|Hi]; [now apply Hincl|]. rewrite kept_tags in Hi. apply in_map_iff in Hi. destruct Hi as ([tg m] & E & Hi). cbn [fst] in E. subst tg us.
      apply in_undeclared in Hi. destruct Hi as [Hi _]. apply nodes_tags in Hi. now rewrite named_tags in Hi.
    - assert (E : undeclared (map fd_tag (vb_fields bn)) (nodes eo (ours ++ kept us)) = un).
      { rewrite nodes_app, nodes_kept, undeclared_app, (undeclared_all _ (nodes eo ours)); cbn [app].
        - subst us. rewrite nodes_app, nodes_kept, !undeclared_app, (undeclared_all _ (undeclared (map fst ours) (nodes en _))); cbn [app].
          + rewrite (undeclared_none (map fst ours)); [rewrite undeclared_none; [reflexivity|exact Hun']|]. intros tag n Hi Ht. exact (Hun' _ _ Hi (Hincl _ Ht)).
          + intros tag n Hi. apply in_undeclared in Hi. destruct Hi as [Hi _]. apply nodes_tags in Hi. now rewrite named_tags in Hi.
        - intros tag n Hi. apply nodes_tags in Hi. now apply Hincl. }
      rewrite <- E. apply (IbKeep en ign eo _ bn nm t); auto. now rewrite E.
  Qed.

End Bodies.

Section Structs.
  Variables (eo en : env) (ign : bool) (i j : nat) (bo bn : vbody) (nm : string) (t : ty) (vs rest : list value).
  Hypothesis Hwo : env_wf eo.
  Hypothesis Hwn : env_wf en.
  Hypothesis Hun : ign = true \/ no_unit_body en (TItem j).
  Hypothesis Ei : eo i = IStruct bo.
  Hypothesis Es : vb_special bo = SpUnknown nm t.
  Hypothesis Ej : en j = IStruct bn.
  Hypothesis Hd : delegates bn = false.
  Hypothesis Hty : has_type en (VRec (vs ++ rest)) (TItem j).
  Hypothesis Hl : List.length vs = List.length (vb_fields bn).
  Notation us := (undeclared (tags_of bo) (x_body (doc en (VRec (vs ++ rest)) (TItem j)))).

  Lemma struct_parts : exists un, parts_of en bn (vs ++ rest) vs un rest.
  Proof.
    destruct (Hwn j) as [Hiw Hfw]. rewrite Ej in Hiw, Hfw.
    assert (HF : Forall2 (has_type en) (vs ++ rest) (body_types bn) /\ unknown_ok bn (vs ++ rest)).
    { inversion Hty; subst; not_str. rewrite Ej in *. match goal with H : IStruct _ = IStruct _ |- _ => injection H as <- end. auto. }
    destruct HF as [HF Hu]. destruct (parts_exist en bn (vs ++ rest) Hiw Hfw Hd HF Hu) as (vs2 & un & rest2 & Hp). exists un.
    assert (E : vs ++ rest = vs2 ++ rest2) by exact (po_eq _ _ _ _ _ _ Hp). assert (Hl2 := po_len _ _ _ _ _ _ Hp).
    assert (E2 : vs = vs2 /\ rest = rest2).
    { clear -E Hl Hl2. rewrite <- Hl2 in Hl. clear Hl2. revert vs2 E Hl. induction vs as [|v l IH]; intros [|v2 l2] E Hl; try discriminate Hl; [auto|].
      cbn in E. injection E as -> E. destruct (IH l2 E ltac:(now injection Hl)) as [-> ->]. auto. }
    destruct E2 as [<- <-]. exact Hp.
  Qed.
  Lemma struct_nodes un : parts_of en bn (vs ++ rest) vs un rest -> x_body (doc en (VRec (vs ++ rest)) (TItem j)) = nodes en (named (vb_fields bn) vs ++ kept un).
  Proof. intros Hp. apply whole_doc. apply (WhStruct en j bn); [exact Ej|]. exact (po_pieces _ _ _ _ _ _ Hp). Qed.

  Lemma seen_record un fs vo : parts_of en bn (vs ++ rest) vs un rest -> seen eo ign en (named (vb_fields bn) vs) fs vo ->
    record eo ign en (named (vb_fields bn) vs ++ kept un) (declared fs) vo.
  Proof.
    intros Hp Hs. destruct (Hwn j) as [Hiw _]. rewrite Ej in Hiw. destruct Hiw as (Hnd & _). induction Hs as [|f x tx w fs ws Hin (us & H1 & H2) Hs IH]; cbn [declared map]; [constructor|].
    apply (ReCons eo ign en _ (fd_tag f) (fd_ty f) _ us w ws); [|exact H2|exact IH].
    rewrite occs_app, (occs_one _ _ x tx), occs_none, app_nil_r; auto.
    - rewrite kept_tags. intros Hk. apply in_map_iff in Hk. destruct Hk as ([tag n] & E & Hk). cbn [fst] in E. subst tag. apply (po_un _ _ _ _ _ _ Hp _ _ Hk).
      apply (in_map fst) in Hin. rewrite named_tags in Hin by exact Hl. exact Hin.
    - now rewrite named_tags.
  Qed.
  Lemma old_reads vo : seen eo ign en (named (vb_fields bn) vs) (vb_fields bo) vo -> vb_check bo (vo ++ [VUnk us]) = true ->
    becomes eo ign en (VRec (vs ++ rest)) (TItem j) (TItem i) (VRec (vo ++ [VUnk us])).
  Proof.
    intros Hs Hck. destruct struct_parts as (un & Hp). rewrite (struct_nodes un Hp) in *.
    apply (Becomes eo ign en _ _ _ _ (named (vb_fields bn) vs ++ kept un)); [apply (WhStruct en j bn); [exact Ej|exact (po_pieces _ _ _ _ _ _ Hp)]|].
    apply (ToStruct eo ign en _ i bo); [exact Ei|]. destruct (Hwo i) as [Hiw _]. rewrite Ei in Hiw. destruct Hiw as (_ & _ & Hsp). rewrite Es in Hsp.
    apply (IbKeep eo ign en _ bo nm t); auto. now apply (seen_record un).
  Qed.
  Lemma kept_ok : nodes_ok us.
  Proof.
    destruct (doc_ok en Hwn _ _ Hty Logic.I) as (Hok & _ & _). apply Forall_forall. intros [tag n] Hi. apply in_undeclared in Hi. destruct Hi as [Hi _].
    exact (proj1 (Forall_forall _ _) Hok _ Hi).
  Qed.
  Lemma old_typed vo : Forall2 (has_type eo) vo (map fd_ty (vb_fields bo)) -> vb_check bo (vo ++ [VUnk us]) = true ->
    has_type eo (VRec (vo ++ [VUnk us])) (TItem i).
  Proof.
    intros HF Hck. destruct (Hwo i) as [Hiw _]. rewrite Ei in Hiw. destruct Hiw as (_ & _ & Hsp). rewrite Es in Hsp.
    apply (TyStruct eo i bo); auto.
    - unfold body_types. rewrite Es. cbn [sp_types]. apply Forall2_app; [exact HF|]. constructor; [|constructor]. apply (unk_typed eo); [exact Hsp|exact kept_ok].
    - unfold unknown_ok. rewrite Es. intros _ fs E. rewrite last_last in E. injection E as <-. apply Forall_forall. intros [tag n] Hi. apply in_undeclared in Hi. cbn [fst]. tauto.
  Qed.
  Lemma new_reads vo' ws : List.length vo' = List.length (vb_fields bo) -> incl (tags_of bo) (tags_of bn) ->
    edited en ign eo (named (vb_fields bo) vo') (vb_fields bn) vs ws -> vb_check bn (ws ++ rest) = true ->
    becomes en ign eo (VRec (vo' ++ [VUnk us])) (TItem i) (TItem j) (VRec (ws ++ rest)).
  Proof.
    intros Hlo Hincl He Hck. destruct struct_parts as (un & Hp). rewrite (struct_nodes un Hp) in *.
    destruct (Hwo i) as [Hiw Hfw]. rewrite Ei in Hiw, Hfw. destruct Hiw as (Hnd & _ & Hsp). rewrite Es in Hsp. destruct Hfw as [Hff _].
    destruct (Hwn j) as [Hjw Hjf]. rewrite Ej in Hjw, Hjf.
    assert (Hul : Forall (fun f => unknown_like (fd_ty f) = false) (vb_fields bo)) by (refine (Forall_impl _ _ Hff); intros f [_ H]; exact H).
    eapply (Becomes en ign eo).
    - apply (WhStruct eo i bo); [exact Ei|]. now apply (PaKept eo bo nm t).
    - apply (ToStruct en ign eo _ j bn); [exact Ej|]. apply (edit_into eo en ign Hwn (units_of en ign _ Hun) bn (vs ++ rest) vs un rest); auto; rewrite ?named_tags; auto.
  Qed.
End Structs.

Theorem read_back eo en (zc ign : bool) v t t' w dw : env_wf eo -> env_wf en -> deserialisable en zc t' ->
  has_type eo v t -> shape_wf t -> size_of eo t v <= U64_MAX -> becomes en ign eo v t t' w ->
  exists bs, to_vec eo dw t v = ROk bs /\ read_as en zc ign t' bs w.
Proof.
  intros Hwo Hwn Hd Hty Hs Hsz Hb. destruct (old_data eo en zc ign v t t' w dw Hwo Hwn Hd Hty Hs Hsz Hb) as (bs & x & H1 & H2).
  exists bs. split; [exact H1|]. exists x. exact H2.
Qed.
Theorem edit_struct eo en (zc ign : bool) i j bo bn nm t vs rest vo vo' ws dw dw' :
  env_wf eo -> env_wf en -> ign = true \/ no_unit_body en (TItem j) -> deserialisable eo zc (TItem i) -> deserialisable en zc (TItem j) ->
  eo i = IStruct bo -> vb_special bo = SpUnknown nm t -> en j = IStruct bn -> delegates bn = false -> incl (tags_of bo) (tags_of bn) ->
  has_type en (VRec (vs ++ rest)) (TItem j) -> List.length vs = List.length (vb_fields bn) ->
  let us := undeclared (tags_of bo) (x_body (doc en (VRec (vs ++ rest)) (TItem j))) in
  seen eo ign en (named (vb_fields bn) vs) (vb_fields bo) vo -> vb_check bo (vo ++ [VUnk us]) = true ->
  Forall2 (has_type eo) vo' (map fd_ty (vb_fields bo)) -> vb_check bo (vo' ++ [VUnk us]) = true ->
  edited en ign eo (named (vb_fields bo) vo') (vb_fields bn) vs ws -> vb_check bn (ws ++ rest) = true ->
  size_of en (TItem j) (VRec (vs ++ rest)) <= U64_MAX -> size_of eo (TItem i) (VRec (vo' ++ [VUnk us])) <= U64_MAX ->
  exists bs bs', to_vec en dw (TItem j) (VRec (vs ++ rest)) = ROk bs /\ read_as eo zc ign (TItem i) bs (VRec (vo ++ [VUnk us])) /\
    to_vec eo dw' (TItem i) (VRec (vo' ++ [VUnk us])) = ROk bs' /\ read_as en zc ign (TItem j) bs' (VRec (ws ++ rest)).
Proof.
  intros Hwo Hwn Hun Hdo Hdn Ei Es Ej Hd Hincl Hty Hl us Hse Hck HF Hck' Hed Hckn Hs1 Hs2.
  destruct (read_back en eo zc ign _ _ _ _ dw Hwn Hwo Hdo Hty Logic.I Hs1 (old_reads eo en ign i j bo bn nm t vs rest Hwo Hwn Ei Es Ej Hd Hty Hl vo Hse Hck)) as (bs & B1 & B2).
  assert (Hto : has_type eo (VRec (vo' ++ [VUnk us])) (TItem i)) by (eapply old_typed; eauto).
  assert (Hlo : List.length vo' = List.length (vb_fields bo)) by (rewrite <- (map_length fd_ty); exact (Forall2_len _ _ _ HF)).
  destruct (read_back eo en zc ign _ _ _ _ dw' Hwo Hwn Hdn Hto Logic.I Hs2
    (new_reads eo en ign i j bo bn nm t vs rest Hwo Hwn Hun Ei Es Ej Hd Hty Hl vo' ws Hlo Hincl Hed Hckn)) as (bs' & B3 & B4).
  exists bs, bs'. auto.
Qed.

(** The same types for the common fields. *)
Section Same.
  Variables (e : env) (ign : bool).
  Hypothesis Hwf : env_wf e.
  Hypothesis Hun : ign = true \/ forall i b nm t', match e i with
                                                   | IStruct b0 => b = b0
                                                   | IEnum vars catch => In b (map snd vars) \/ catch = Some b
                                                   end -> vb_special b = SpDeleg nm t' -> unit_like t' = false.
  Lemma shown_seen l : (forall tag w t, In (tag, (w, t)) l -> has_type e w t /\ shape_wf t /\ unknown_like t = false) ->
    forall fs ws, shown l fs ws -> seen e ign e l fs ws.
  Proof.
    intros Hl fs ws H. induction H as [|f w fs ws Hi H IH]; [constructor|]. destruct (Hl _ _ _ Hi) as (H1 & H2 & H3).
    apply (SeField e ign e l f w (fd_ty f)); [exact Hi| |exact IH]. exact (unk_none e ign Hwf Hun (fd_ty f) w H3 H1 H2).
  Qed.
  Lemma merged_edited l : (forall tag w t, In (tag, (w, t)) l -> has_type e w t /\ shape_wf t /\ unknown_like t = false) ->
    forall fs vs ws, merged l fs vs ws -> edited e ign e l fs vs ws.
  Proof.
    intros Hl fs vs ws H. induction H as [|f v w fs vs ws Hi H IH|f v fs vs ws Hi H IH]; [constructor| |now apply EdTheirs]. destruct (Hl _ _ _ Hi) as (H1 & H2 & H3).
    apply (EdOurs e ign e l f v w (fd_ty f)); [exact Hi| |exact IH]. exact (unk_none e ign Hwf Hun (fd_ty f) w H3 H1 H2).
  Qed.
  Lemma named_ok fs vs : Forall2 (has_type e) vs (map fd_ty fs) -> Forall (fun f => shape_wf (fd_ty f) /\ unknown_like (fd_ty f) = false) fs ->
    forall tag w t, In (tag, (w, t)) (named fs vs) -> has_type e w t /\ shape_wf t /\ unknown_like t = false.
  Proof.
    intros HF Hff tag w t Hi. destruct (named_typed e fs vs HF tag w t Hi) as (H1 & f & Hf & <-). split; [exact H1|]. exact (proj1 (Forall_forall _ _) Hff f Hf).
  Qed.
End Same.
Theorem edit_same e (zc ign : bool) i j bo bn nm t vs rest vo vo' ws dw dw' :
  env_wf e -> ign = true \/ no_unit_body e (TItem j) -> deserialisable e zc (TItem i) -> deserialisable e zc (TItem j) ->
  e i = IStruct bo -> vb_special bo = SpUnknown nm t -> e j = IStruct bn -> delegates bn = false -> incl (tags_of bo) (tags_of bn) ->
  has_type e (VRec (vs ++ rest)) (TItem j) -> List.length vs = List.length (vb_fields bn) ->
  let us := undeclared (tags_of bo) (x_body (doc e (VRec (vs ++ rest)) (TItem j))) in
  shown (named (vb_fields bn) vs) (vb_fields bo) vo -> vb_check bo (vo ++ [VUnk us]) = true ->
  Forall2 (has_type e) vo' (map fd_ty (vb_fields bo)) -> vb_check bo (vo' ++ [VUnk us]) = true ->
  merged (named (vb_fields bo) vo') (vb_fields bn) vs ws -> vb_check bn (ws ++ rest) = true ->
  size_of e (TItem j) (VRec (vs ++ rest)) <= U64_MAX -> size_of e (TItem i) (VRec (vo' ++ [VUnk us])) <= U64_MAX ->
  exists bs bs', to_vec e dw (TItem j) (VRec (vs ++ rest)) = ROk bs /\ read_as e zc ign (TItem i) bs (VRec (vo ++ [VUnk us])) /\
    to_vec e dw' (TItem i) (VRec (vo' ++ [VUnk us])) = ROk bs' /\ read_as e zc ign (TItem j) bs' (VRec (ws ++ rest)).
Proof.
  intros Hw Hun Hdo Hdn Ei Es Ej Hd Hincl Hty Hl us Hse Hck HF Hck' Hed Hckn Hs1 Hs2.
  destruct (struct_parts e j bn vs rest Hw Ej Hd Hty Hl) as (un & Hp).
  destruct (Hw j) as [_ Hjf]. rewrite Ej in Hjf. destruct Hjf as [Hjf _]. destruct (Hw i) as [_ Hif]. rewrite Ei in Hif. destruct Hif as [Hif _].
  apply (edit_struct e e zc ign i j bo bn nm t vs rest vo vo' ws dw dw'); auto.
  - apply (shown_seen e ign Hw (units_of e ign _ Hun)); [|exact Hse]. apply named_ok; [exact (po_typed _ _ _ _ _ _ Hp)|exact Hjf].
  - apply (merged_edited e ign Hw (units_of e ign _ Hun)); [|exact Hed]. now apply named_ok.
Qed.

(** ** Variants *)
Section Variants.
  Variables (eo en : env) (ign : bool) (i j : nat) (vars : list (N * vbody)) (bo : vbody) (vars' : list (N * vbody)) (catch' : option vbody)
    (ix : nat) (d : N) (bn : vbody) (nm : string) (t : ty) (vs rest : list value).
  Hypothesis Hwo : env_wf eo.
  Hypothesis Hwn : env_wf en.
  Hypothesis Hun : ign = true \/ no_unit_body en (TItem j).
  Hypothesis Ei : eo i = IEnum vars (Some bo).
  Hypothesis Es : vb_special bo = SpUnknown nm t.
  Hypothesis Hni : ~ In d (map fst vars).
  Hypothesis Ej : en j = IEnum vars' catch'.
  Hypothesis Hn : nth_error vars' ix = Some (d, bn).
  Hypothesis Hd : delegates bn = false.
  Notation vn := (vs ++ rest).
  Hypothesis Hty : has_type en (VVar ix (VRec vn)) (TItem j).
  Hypothesis Hl : List.length vs = List.length (vb_fields bn).
  Variable fs : list (N * node).
  Hypothesis Efs : x_elem (doc en (VVar ix (VRec vn)) (TItem j)) = NEnum d fs.
  Notation us := (undeclared (tags_of bo) fs).

  Lemma variant_wf : vbody_wf bn /\ fields_wf bn /\ vbody_wf bo /\ fields_wf bo.
  Proof.
    destruct (Hwn j) as [Hiw Hfw]. rewrite Ej in Hiw, Hfw. destruct Hiw as (_ & Hvw & _). destruct Hfw as [Hfw _]. pose proof (nth_error_In _ _ Hn) as Hi.
    destruct (Hwo i) as [Hiw' Hfw']. rewrite Ei in Hiw', Hfw'. destruct Hiw' as (_ & _ & Hbw). destruct Hfw' as [_ Hbf].
    split; [exact (proj2 (proj1 (Forall_forall _ _) Hvw _ Hi))|]. split; [exact (proj1 (Forall_forall _ _) Hfw _ Hi)|auto].
  Qed.
  Lemma variant_parts : exists un, parts_of en bn vn vs un rest.
  Proof.
    destruct variant_wf as (Hiw & Hfw & _).
    assert (HF : Forall2 (has_type en) vn (body_types bn) /\ unknown_ok bn vn).
    { inversion Hty; subst; not_str. rewrite Ej in *. match goal with H : IEnum _ _ = IEnum _ _ |- _ => injection H as <- <- end. rewrite Hn in *. match goal with H : Some _ = Some _ |- _ => injection H as <- <- end. auto. }
    destruct HF as [HF Hu]. destruct (parts_exist en bn vn Hiw Hfw Hd HF Hu) as (vs2 & un & rest2 & Hp). exists un.
    assert (E : vs ++ rest = vs2 ++ rest2) by exact (po_eq _ _ _ _ _ _ Hp). assert (Hl2 := po_len _ _ _ _ _ _ Hp).
    assert (E2 : vs = vs2 /\ rest = rest2).
    { clear -E Hl Hl2. rewrite <- Hl2 in Hl. clear Hl2. revert vs2 E Hl. induction vs as [|v l IH]; intros [|v2 l2] E Hl; try discriminate Hl; [auto|].
      cbn in E. injection E as -> E. destruct (IH l2 E ltac:(now injection Hl)) as [-> ->]. auto. }
    destruct E2 as [<- <-]. exact Hp.
  Qed.
  Lemma variant_is un : parts_of en bn vn vs un rest -> variant_of en (VVar ix (VRec vn)) (TItem j) d (named (vb_fields bn) vs ++ kept un).
  Proof. intros Hp. apply (VoVar en j vars' catch' ix d bn); auto. exact (po_pieces _ _ _ _ _ _ Hp). Qed.
  Lemma variant_nodes un : parts_of en bn vn vs un rest -> fs = nodes en (named (vb_fields bn) vs ++ kept un).
  Proof. intros Hp. pose proof (variant_doc en _ _ _ _ (variant_is un Hp)) as H. rewrite Efs in H. now injection H. Qed.
  Lemma variant_seen vo : seen eo ign en (named (vb_fields bn) vs) (vb_fields bo) vo -> vb_check bo (vo ++ [VUnk us]) = true ->
    elem eo ign en (VVar ix (VRec vn)) (TItem j) (TItem i) (VCatch d (VRec (vo ++ [VUnk us]))).
  Proof.
    intros Hs Hck. destruct variant_parts as (un & Hp). destruct variant_wf as ((Hnd & _) & _ & (_ & _ & Hsp) & _). rewrite Es in Hsp. pose proof (variant_nodes un Hp) as Ef. rewrite Ef in *.
    apply (ElCatch eo ign en _ _ d (named (vb_fields bn) vs ++ kept un) i vars bo); [exact (variant_is un Hp)|exact Ei|now apply variant_out|].
    apply (IbKeep eo ign en _ bo nm t); auto. clear Hck. induction Hs as [|f x tx w fl ws Hin (uu & H1 & H2) Hs IH]; cbn [declared map]; [constructor|].
    apply (ReCons eo ign en _ (fd_tag f) (fd_ty f) _ uu w ws); [|exact H2|exact IH].
    rewrite occs_app, (occs_one _ _ x tx), occs_none, app_nil_r; auto.
    - rewrite kept_tags. intros Hk. apply in_map_iff in Hk. destruct Hk as ([tag n] & E & Hk). cbn [fst] in E. subst tag. apply (po_un _ _ _ _ _ _ Hp _ _ Hk).
      apply (in_map fst) in Hin. rewrite named_tags in Hin by exact Hl. exact Hin.
    - now rewrite named_tags.
  Qed.
  Lemma variant_old_typed vo : Forall2 (has_type eo) vo (map fd_ty (vb_fields bo)) -> vb_check bo (vo ++ [VUnk us]) = true ->
    has_type eo (VCatch d (VRec (vo ++ [VUnk us]))) (TItem i).
  Proof.
    intros HF Hck. destruct variant_wf as (_ & _ & (_ & _ & Hsp) & _). rewrite Es in Hsp.
    destruct (doc_ok en Hwn _ _ Hty Logic.I) as (_ & _ & Hok). rewrite Efs in Hok. cbn [node_ok] in Hok. destruct Hok as [Hdd Hok]. apply nodes_ok_fold in Hok.
    apply (TyCatch eo i vars d bo); auto.
    - unfold body_types. rewrite Es. cbn [sp_types]. apply Forall2_app; [exact HF|]. constructor; [|constructor]. apply (unk_typed eo); [exact Hsp|].
      apply Forall_forall. intros [tag n] Hi. apply in_undeclared in Hi. destruct Hi as [Hi _]. exact (proj1 (Forall_forall _ _) Hok _ Hi).
    - unfold unknown_ok. rewrite Es. intros _ fl E. rewrite last_last in E. injection E as <-. apply Forall_forall. intros [tag n] Hi. apply in_undeclared in Hi. cbn [fst]. tauto.
  Qed.
  Lemma variant_back vo' ws : List.length vo' = List.length (vb_fields bo) -> incl (tags_of bo) (tags_of bn) ->
    edited en ign eo (named (vb_fields bo) vo') (vb_fields bn) vs ws -> vb_check bn (ws ++ rest) = true ->
    elem en ign eo (VCatch d (VRec (vo' ++ [VUnk us]))) (TItem i) (TItem j) (VVar ix (VRec (ws ++ rest))).
  Proof.
    intros Hlo Hincl He Hck. destruct variant_parts as (un & Hp). destruct variant_wf as (Hjw & Hjf & (Hnd & _ & Hsp) & [Hff _]). rewrite Es in Hsp. pose proof (variant_nodes un Hp) as Ef. rewrite Ef in *.
    assert (Hul : Forall (fun f => unknown_like (fd_ty f) = false) (vb_fields bo)) by (refine (Forall_impl _ _ Hff); intros f [_ H]; exact H).
    destruct (Hwn j) as [Hiw _]. rewrite Ej in Hiw. destruct Hiw as (Hndv & _ & _).
    eapply (ElVariant en ign eo _ _ d _ j vars' catch' ix bn).
    - apply (VoCatch eo i vars bo); [exact Ei|]. now apply (PaKept eo bo nm t).
    - exact Ej.
    - now apply variant_nth.
    - apply (edit_into eo en ign Hwn (units_of en ign _ Hun) bn vn vs un rest); auto; rewrite ?named_tags; auto.
  Qed.
End Variants.

Lemma enum_becomes e e' ign v i j w vars catch vars' catch' : e i = IEnum vars catch -> e' j = IEnum vars' catch' -> many v (TItem i) = None ->
  elem e' ign e v (TItem i) (TItem j) w -> becomes e' ign e v (TItem i) (TItem j) w.
Proof.
  intros Ei Ej Hm He. apply (Becomes e' ign e _ _ _ _ [(1, (v, TItem i))]); [apply WhOne; cbn; now rewrite Ei|].
  apply ToPlain; [cbn; now rewrite Ej| |].
  - apply (ReCons e' ign e _ 1 (TItem j) [] [w] _ []); [|now constructor|constructor]. unfold occs. cbn [flat_map fst snd each]. rewrite N.eqb_refl, app_nil_r. unfold items. rewrite Hm.
    apply EsCons; [exact He|constructor].
  - right. apply undeclared_all. intros tag n Hi. apply nodes_tags in Hi. exact Hi.
Qed.
Theorem edit_variant eo en (zc ign : bool) i j vars bo vars' catch' ix d bn nm t vs rest fs vo vo' ws dw dw' :
  env_wf eo -> env_wf en -> ign = true \/ no_unit_body en (TItem j) -> deserialisable eo zc (TItem i) -> deserialisable en zc (TItem j) ->
  eo i = IEnum vars (Some bo) -> vb_special bo = SpUnknown nm t -> ~ In d (map fst vars) ->
  en j = IEnum vars' catch' -> nth_error vars' ix = Some (d, bn) -> delegates bn = false -> incl (tags_of bo) (tags_of bn) ->
  let v := VVar ix (VRec (vs ++ rest)) in
  has_type en v (TItem j) -> List.length vs = List.length (vb_fields bn) -> x_elem (doc en v (TItem j)) = NEnum d fs ->
  let us := undeclared (tags_of bo) fs in
  seen eo ign en (named (vb_fields bn) vs) (vb_fields bo) vo -> vb_check bo (vo ++ [VUnk us]) = true ->
  Forall2 (has_type eo) vo' (map fd_ty (vb_fields bo)) -> vb_check bo (vo' ++ [VUnk us]) = true ->
  edited en ign eo (named (vb_fields bo) vo') (vb_fields bn) vs ws -> vb_check bn (ws ++ rest) = true ->
  size_of en (TItem j) v <= U64_MAX -> size_of eo (TItem i) (VCatch d (VRec (vo' ++ [VUnk us]))) <= U64_MAX ->
  exists bs bs', to_vec en dw (TItem j) v = ROk bs /\ read_as eo zc ign (TItem i) bs (VCatch d (VRec (vo ++ [VUnk us]))) /\
    to_vec eo dw' (TItem i) (VCatch d (VRec (vo' ++ [VUnk us]))) = ROk bs' /\ read_as en zc ign (TItem j) bs' (VVar ix (VRec (ws ++ rest))).
Proof.
  intros Hwo Hwn Hun Hdo Hdn Ei Es Hni Ej Hn Hd Hincl v Hty Hl Efs us Hse Hck HF Hck' Hed Hckn Hs1 Hs2.
  assert (Hlo : List.length vo' = List.length (vb_fields bo)) by (rewrite <- (map_length fd_ty); exact (Forall2_len _ _ _ HF)).
  assert (E1 : becomes eo ign en v (TItem j) (TItem i) (VCatch d (VRec (vo ++ [VUnk us])))) by (eapply enum_becomes; [exact Ej|exact Ei|reflexivity|eapply variant_seen; eauto]).
  assert (E2 : has_type eo (VCatch d (VRec (vo' ++ [VUnk us]))) (TItem i)) by (eapply variant_old_typed; eauto).
  assert (E3 : becomes en ign eo (VCatch d (VRec (vo' ++ [VUnk us]))) (TItem i) (TItem j) (VVar ix (VRec (ws ++ rest)))) by (eapply enum_becomes; [exact Ei|exact Ej|reflexivity|eapply variant_back; eauto]).
  destruct (read_back en eo zc ign _ _ _ _ dw Hwn Hwo Hdo Hty Logic.I Hs1 E1) as (bs & B1 & B2).
  destruct (read_back eo en zc ign _ _ _ _ dw' Hwo Hwn Hdn E2 Logic.I Hs2 E3) as (bs' & B3 & B4).
  exists bs, bs'. auto.
Qed.
