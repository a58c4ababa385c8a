(** * P_Pass: an old program passes data of a newer one through (SpecEdit.v) *)

From Coq Require Import Sorting.Sorted Sorting.Permutation.
From Verif Require Import P_Ord P_Sets Base Wire Dev Stream Types Ser Prog De SpecWire SpecFormat SpecStream SpecWrite SpecDe SpecDoc SpecSerDe SpecRead SpecCompat SpecEdit
  P_Base P_Read P_Types P_RT P_SerDe P_DocOk P_Means P_Meaning P_Order P_Card P_Compat P_Keep P_CompatTy P_Changes P_CompatApi P_Edit.

(** One reading of an element. *)
Lemma elem_one en ign eo v t t' w w' : env_wf en -> (exists zc, deserialisable en zc t') -> elem en ign eo v t t' w -> elem en ign eo v t t' w' -> w = w'.
Proof.
  intros Hw (zc & Hd) H1 H2. destruct (compat_meaning ign en Hw) as (H & _).
  destruct (H _ _ _ _ _ H1 zc Hd) as (f1 & x1 & E1). destruct (H _ _ _ _ _ H2 zc Hd) as (f2 & x2 & E2).
  apply (more_elem ign en f1 (Nat.max f1 f2)) in E1; [|lia]. apply (more_elem ign en f2 (Nat.max f1 f2)) in E2; [|lia]. congruence.
Qed.
Lemma one_record en ign eo t v t' w : field_becomes en ign eo v t t' w -> unknown_like t = false ->
  elem en ign eo (VRec [v]) (TTuple [t]) (TTuple [t']) (VRec [w]).
Proof.
  intros (us & H1 & H2) Hu. apply (ElStruct en ign eo _ _ (numbered 1 [v] [t])); [constructor; [reflexivity|repeat constructor; exact Hu]|exact Logic.I|].
  apply ToTuple.
  - apply (ReCons en ign eo _ 1 t' [] us w []); [|exact H2|constructor]. cbn [numbered]. unfold occs. cbn [flat_map fst snd]. rewrite N.eqb_refl, app_nil_r. exact H1.
  - right. apply undeclared_all. intros tag n H. apply nodes_tags in H. exact H.
Qed.
Lemma field_one en ign eo v t t' w w' : env_wf en -> (exists zc, deserialisable en zc t') -> unknown_like t = false ->
  field_becomes en ign eo v t t' w -> field_becomes en ign eo v t t' w' -> w = w'.
Proof.
  intros Hw (zc & Hd) Hu H1 H2.
  assert (E : VRec [w] = VRec [w']) by (apply (elem_one en ign eo (VRec [v]) (TTuple [t]) (TTuple [t'])); auto using one_record;
    exists zc; intros Hn; inversion Hn as [| | | | | | | | |? ? ? Hi Hn2| | |]; subst; destruct Hi as [<-|[]]; exact (Hd Hn2)).
  now injection E.
Qed.

Lemma older_u8 J t' t : older J t' t -> is_u8 t' = is_u8 t.
Proof. destruct 1; reflexivity. Qed.
Lemma older_u8_eq J t' t : older J t' t -> is_u8 t = true -> t' = t.
Proof. destruct 1; intros E; try discriminate E; reflexivity. Qed.
Lemma older_unknown J t' t : older J t' t -> unknown_like t' = unknown_like t.
Proof. induction 1; cbn [unknown_like]; auto. Qed.
Lemma older_unit J t' t : older J t' t -> unit_like t' = unit_like t.
Proof. induction 1 as [t H| | | | | | |? ? H| | | ]; cbn [unit_like]; auto. destruct H; reflexivity. Qed.

Section Pass.
  Variables (eo en : env) (ign : bool) (J : nat -> nat -> Prop).
  Hypothesis Hwo : env_wf eo.
  Hypothesis Hwn : env_wf en.
  Hypothesis HJ : all_older eo en J.
  Hypothesis Hun : ign = true \/ forall i b nm t', match en i with
                                                   | IStruct b0 => b = b0
                                                   | IEnum vars catch => In b (map snd vars) \/ catch = Some b
                                                   end -> vb_special b = SpDeleg nm t' -> unit_like t' = false.
  Notation Older := (older J).
  Lemma older_plain t' t : Older t' t -> plain eo t' = plain en t.
  Proof.
    destruct 1 as [t H| | | | | | | | | |i j Hij]; try reflexivity; [now destruct t|]. cbn [plain]. pose proof (HJ i j Hij) as H.
    destruct (eo i), (en j); try reflexivity; inversion H.
  Qed.

  Definition P_elem (v : value) (t t' : ty) : Prop := exists w, has_type eo w t' /\ elem eo ign en v t t' w /\ elem en ign eo w t' t v.
  Definition P_field (v : value) (t t' : ty) : Prop := exists w, has_type eo w t' /\ field_becomes eo ign en v t t' w /\ field_becomes en ign eo w t' t v.
  Definition P_whole (v : value) (t t' : ty) : Prop :=
    exists w l l', has_type eo w t' /\ whole en v t l /\ into eo ign en l t' w /\ whole eo w t' l' /\ into en ign eo l' t v.
  Definition P_all (v : value) (t t' : ty) : Prop :=
    P_elem v t t' /\ (unknown_like t = false -> P_field v t t') /\ (ign = true \/ unit_like t = false -> P_whole v t t').
  Definition pass (v : value) (t : ty) : Prop := shape_wf t -> (exists zc, deserialisable en zc t) -> forall t', Older t' t -> P_all v t t'.

  Lemma plain_into e e' v t t' w : plain e' t' = true -> field_becomes e' ign e v t t' w -> into e' ign e [(1, (v, t))] t' w.
  Proof.
    intros Hp (us & H1 & H2). apply ToPlain; [exact Hp| |].
    - apply (ReCons e' ign e _ 1 t' [] us w []); [|exact H2|constructor]. unfold occs. cbn [flat_map fst snd]. rewrite N.eqb_refl, app_nil_r. exact H1.
    - right. apply undeclared_all. intros tag n H. apply nodes_tags in H. exact H.
  Qed.
  Lemma plain_pass v t t' : Older t' t -> plain en t = true -> P_field v t t' -> P_whole v t t'.
  Proof.
    intros Ho Hp (w & Hty & H1 & H2). pose proof (older_plain t' t Ho) as Hp'. rewrite Hp in Hp'. exists w, [(1, (v, t))], [(1, (w, t'))].
    repeat match goal with |- _ /\ _ => split end; auto using plain_into; now constructor.
  Qed.
  Lemma single_becomes e e' v t t' w : elem e' ign e v t t' w -> many v t = None -> each t' = t' -> t' <> TUnknown -> field_becomes e' ign e v t t' w.
  Proof. intros He Hm Hc Hn. exists [w]. unfold items. rewrite Hm, Hc. split; [repeat constructor; exact He|now constructor]. Qed.
  Lemma single_pass v t t' w : Older t' t -> has_type eo w t' -> elem eo ign en v t t' w -> elem en ign eo w t' t v -> many v t = None -> many w t' = None ->
    each t = t -> each t' = t' -> t <> TUnknown -> t' <> TUnknown -> plain en t = true -> P_all v t t'.
  Proof.
    intros Ho Hty H1 H2 M1 M2 E1 E2 N1 N2 Hp. assert (Hf : P_field v t t') by (exists w; auto using single_becomes).
    split; [exists w; auto|]. split; auto using plain_pass.
  Qed.
  Lemma many_elem e e' v t t' w : many v t <> None -> collection t' = true -> field_becomes e' ign e v t t' w -> elem e' ign e v t t' w.
  Proof.
    intros Hm Hc Hf. apply (ElStruct e' ign e v t [(1, (v, t))] t' w).
    - now constructor.
    - unfold as_struct. destruct t'; try discriminate Hc; exact Hc.
    - apply plain_into; [destruct t'; try discriminate Hc; reflexivity|exact Hf].
  Qed.
  Lemma many_pass v t t' w : Older t' t -> has_type eo w t' -> collection t = true -> collection t' = true -> many v t <> None -> many w t' <> None ->
    field_becomes eo ign en v t t' w -> field_becomes en ign eo w t' t v -> P_all v t t'.
  Proof.
    intros Ho Hty C1 C2 M1 M2 F1 F2. assert (Hf : P_field v t t') by (exists w; auto).
    split; [exists w; split; auto using many_elem|]. split; auto. intros _. apply plain_pass; auto. destruct t; try discriminate C1; reflexivity.
  Qed.
  Lemma list_pass vs t t' : Forall (fun v => P_elem v t t') vs -> exists ws, Forall (fun w => has_type eo w t') ws /\
    elems eo ign en (map (fun x => (x, t)) vs) t' ws /\ elems en ign eo (map (fun x => (x, t')) ws) t vs.
  Proof.
    induction 1 as [|v vs (w & H1 & H2 & H3) HF (ws & I1 & I2 & I3)]; [exists []; repeat split; constructor|].
    exists (w :: ws). repeat split; constructor; auto.
  Qed.
  Lemma list_nodup t t' (ws vs : list value) : (exists zc, deserialisable en zc t) -> elems en ign eo (map (fun x => (x, t')) ws) t vs -> NoDup vs -> NoDup ws.
  Proof.
    intros Hd. revert vs. induction ws as [|w ws IH]; intros vs He Hnd; [constructor|]. inversion He as [|? ? ? ? ? v vs' H1 H2]; subst. inversion Hnd as [|? ? Hni Hnd2]; subst.
    constructor; [|now apply (IH vs')]. intros Hi. apply Hni. clear IH Hni Hnd Hnd2 He. revert vs' H2. induction ws as [|x ws IH]; intros vs' H2; [destruct Hi|].
    inversion H2 as [|? ? ? ? ? u us K1 K2]; subst. destruct Hi as [->|Hi]; [left; exact (elem_one en ign eo w t' t _ _ Hwn Hd K1 H1)|right; auto].
  Qed.

  (** Records: tuples and the fields of structs. *)
  Lemma pair_record e e' l (ds : list (N * ty)) vs : NoDup (map fst l) ->
    Forall2 (fun d w => exists v t, In (fst d, (v, t)) l /\ field_becomes e' ign e v t (snd d) w) ds vs ->
    forall l2, (forall tag, In tag (map fst ds) -> ~ In tag (map fst l2)) -> record e' ign e (l ++ l2) ds vs.
  Proof.
    intros Hnd HF. induction HF as [|[tag t'] w ds ws (v & t & Hi & us & H1 & H2) HF IH]; intros l2 Hl; [constructor|]. cbn [fst snd] in *.
    apply (ReCons e' ign e _ tag t' ds us w ws); [|exact H2|apply IH; intros g Hg; apply Hl; now right].
    rewrite occs_app, (occs_one l tag v t Hnd Hi), (occs_none tag l2), app_nil_r; [exact H1|]. apply Hl. now left.
  Qed.
  Lemma tuple_pass ts : forall ts' vs, olders J ts' ts -> Forall2 (fun v t => forall t', Older t' t -> P_field v t t') vs ts -> exists ws,
    Forall2 (has_type eo) ws ts' /\
    forall i, Forall2 (fun d w => exists v t, In (fst d, (v, t)) (numbered i vs ts) /\ field_becomes eo ign en v t (snd d) w) (count_from i ts') ws /\
              Forall2 (fun d v => exists w t', In (fst d, (w, t')) (numbered i ws ts') /\ field_becomes en ign eo w t' (snd d) v) (count_from i ts) vs.
  Proof.
    induction ts as [|t ts IH]; intros ts' vs Ho HF; inversion Ho as [|t' ? ts'' ? Ho1 Ho2]; subst; inversion HF as [|v ? vs' ? Hv HF2]; subst.
    - exists []. split; [constructor|]. intros i. split; constructor.
    - destruct (Hv t' Ho1) as (w & H1 & H2 & H3). destruct (IH ts'' vs' Ho2 HF2) as (ws & K1 & K2). exists (w :: ws). split; [now constructor|]. intros i. destruct (K2 (i + 1)) as [K3 K4].
      cbn [count_from numbered]. split; constructor; cbn [fst snd].
      + exists v, t. split; [now left|exact H2].
      + refine (Forall2_imp _ _ _ _ _ K3). intros d x (v0 & t0 & Hi & Hf). exists v0, t0. split; [now right|exact Hf].
      + exists w, t'. split; [now left|exact H3].
      + refine (Forall2_imp _ _ _ _ _ K4). intros d x (v0 & t0 & Hi & Hf). exists v0, t0. split; [now right|exact Hf].
  Qed.
  Lemma tuple_into e e' vs ts ts' ws : List.length vs = List.length ts -> List.length ts = List.length ts' ->
    Forall2 (fun d w => exists v t, In (fst d, (v, t)) (numbered 1 vs ts) /\ field_becomes e' ign e v t (snd d) w) (count_from 1 ts') ws ->
    into e' ign e (numbered 1 vs ts) (TTuple ts') (VRec ws).
  Proof.
    intros Hl Hl' HF. apply ToTuple.
    - rewrite <- (app_nil_r (numbered 1 vs ts)). apply pair_record; [rewrite numbered_tags by exact Hl; apply count_tags|exact HF|intros tag _ []].
    - right. apply undeclared_all. intros tag n H. apply nodes_tags in H. rewrite numbered_tags in H by exact Hl. revert H. apply count_incl. lia.
  Qed.
  Lemma olders_len ts' ts : olders J ts' ts -> List.length ts' = List.length ts.
  Proof. induction 1; cbn; auto. Qed.
  Lemma olders_unknown ts' ts : olders J ts' ts -> Forall (fun t => unknown_like t = false) ts -> Forall (fun t => unknown_like t = false) ts'.
  Proof. induction 1 as [|? ? ? ? H]; intros HF; inversion HF; subst; constructor; auto. now rewrite (older_unknown J _ _ H). Qed.

  (** *** Bodies of structs and variants *)
  Definition fieldwise (bn : vbody) (vs : list value) : Prop := Forall2 (fun v t => forall t', Older t' t -> P_field v t t') vs (map fd_ty (vb_fields bn)).
  Lemma named_pass fs : forall vs, Forall2 (fun v t => forall t', Older t' t -> P_field v t t') vs (map fd_ty fs) ->
    forall tag t, In (tag, t) (declared fs) -> exists v, In (tag, (v, t)) (named fs vs) /\ forall t', Older t' t -> P_field v t t'.
  Proof.
    induction fs as [|f fs IH]; intros vs HF tag t Hi; [destruct Hi|]. inversion HF as [|v ? vs' ? Hr HF2]; subst. destruct Hi as [Hi|Hi].
    - injection Hi as <- <-. exists v. split; [now left|exact Hr].
    - destruct (IH vs' HF2 tag t Hi) as (w & Hw & Hr2). exists w. split; [now right|exact Hr2].
  Qed.
  (** What the old program sees of the fields. *)
  Lemma fields_pass bn vs fs' : fields_older J fs' (vb_fields bn) -> fieldwise bn vs -> exists vo, Forall2 (has_type eo) vo (map fd_ty fs') /\
    Forall2 (fun d w => exists v t, In (fst d, (v, t)) (named (vb_fields bn) vs) /\ field_becomes eo ign en v t (snd d) w) (declared fs') vo /\
    (forall tag w t', In (tag, (w, t')) (named fs' vo) -> exists v t, In (tag, (v, t)) (named (vb_fields bn) vs) /\ field_becomes en ign eo w t' t v).
  Proof.
    intros Ho Hf. induction fs' as [|f fs' IH].
    - exists []. split; [constructor|]. split; [constructor|]. intros tag w t' [].
    - destruct IH as (vo & I1 & I2 & I3); [intros tag t' Hi; apply Ho; now right|]. destruct (Ho (fd_tag f) (fd_ty f) ltac:(now left)) as (t & Ht & Hot).
      destruct (named_pass _ _ Hf _ _ Ht) as (v & Hv & Hp). destruct (Hp _ Hot) as (w & K1 & K2 & K3). exists (w :: vo). split; [now constructor|]. split.
      + constructor; [|exact I2]. cbn [fst snd]. exists v, t. auto.
      + intros tag x t' Hi. unfold named in Hi. cbn [map combine] in Hi. fold (named fs' vo) in Hi. destruct Hi as [Hi|Hi]; [injection Hi as <- <- <-; exists v, t; auto|now apply I3].
  Qed.
  Lemma named_fun fs vs tag v t v' t' : NoDup (map fst (named fs vs)) -> In (tag, (v, t)) (named fs vs) -> In (tag, (v', t')) (named fs vs) -> v = v' /\ t = t'.
  Proof.
    generalize (named fs vs). induction l as [|[g p] l IH]; intros Hnd H1 H2; [destruct H1|]. cbn [map fst] in Hnd. inversion Hnd as [|? ? Hni Hnd2]; subst.
    destruct H1 as [H1|H1], H2 as [H2|H2].
    - rewrite H1 in H2. injection H2 as <- <-. auto.
    - injection H1 as -> ->. exfalso. apply Hni. apply (in_map fst) in H2. exact H2.
    - injection H2 as -> ->. exfalso. apply Hni. apply (in_map fst) in H1. exact H1.
    - now apply IH.
  Qed.
  Lemma all_edited ours l : NoDup (map fst l) -> (forall tag w t', In (tag, (w, t')) ours -> exists v t, In (tag, (v, t)) l /\ field_becomes en ign eo w t' t v) ->
    (forall tag v t v' t', In (tag, (v, t)) l -> In (tag, (v', t')) l -> v = v' /\ t = t') ->
    forall fs vs, List.length vs = List.length fs -> incl (named fs vs) l -> edited en ign eo ours fs vs vs.
  Proof.
    intros Hnd Ho Hfun. induction fs as [|f fs IH]; intros [|v vs] Hl Hi; try discriminate Hl; [constructor|].
    unfold named in Hi. cbn [map combine] in Hi. fold (named fs vs) in Hi.
    assert (IH' : edited en ign eo ours fs vs vs) by (apply IH; [now injection Hl|intros y Hy; apply Hi; now right]).
    destruct (in_dec N.eq_dec (fd_tag f) (map fst ours)) as [Hin|Hni]; [|now apply EdTheirs].
    apply in_map_iff in Hin. destruct Hin as ([tag [w t']] & E & Hin). cbn [fst] in E. subst tag. destruct (Ho _ _ _ Hin) as (v' & t & Hv & Hf).
    destruct (Hfun _ _ _ _ _ Hv (Hi (fd_tag f, (v, fd_ty f)) ltac:(now left))) as [-> ->].
    now apply (EdOurs en ign eo ours f v w t').
  Qed.
  Lemma body_pass bo bn vn : body_older J bo bn -> vbody_wf bo -> fields_wf bo -> vbody_wf bn -> fields_wf bn ->
    Forall2 pass vn (body_types bn) -> Forall2 (has_type en) vn (body_types bn) -> vb_check bn vn = true -> unknown_ok bn vn ->
    (forall t, In t (body_types bn) -> exists zc, deserialisable en zc t) ->
    (forall nm t, vb_special bn = SpDeleg nm t -> ign = true \/ unit_like t = false) ->
    (forall l, pieces en bn vn l -> nodes_ok (nodes en l)) ->
    exists l wo l', pieces en bn vn l /\ into_body eo ign en l bo wo /\ Forall2 (has_type eo) wo (body_types bo) /\ vb_check bo wo = true /\ unknown_ok bo wo /\
      pieces eo bo wo l' /\ into_body en ign eo l' bn vn.
  Proof.
    intros Hbo Hbwo Hbfo Hbwn Hbfn HP HT Hck Hu Hds Hdu Hok.
    pose proof Hbwn as (Hndn & _ & Hspn). pose proof Hbwo as (Hndo & _ & Hspo). pose proof Hbfn as [Hffn Hfsn]. pose proof Hbfo as [Hffo Hfso].
    assert (Hulo : Forall (fun f => unknown_like (fd_ty f) = false) (vb_fields bo)) by (refine (Forall_impl _ _ Hffo); intros f [_ H]; exact H).
    assert (Hfw : forall vs rest, vn = vs ++ rest -> List.length vs = List.length (vb_fields bn) -> fieldwise bn vs).
    { intros vs rest -> Hl. unfold fieldwise, body_types in *. clear Hok HT Hck Hu. revert Hl HP Hds. clear -Hffn. revert vs. induction Hffn as [|f fs [Hs Hul] Hff IH]; intros [|v vs] Hl HP Hds; try discriminate Hl; [constructor|].
      cbn [map app] in *. inversion HP as [|? ? ? ? H1 H2]; subst. constructor; [|apply IH; auto; intros t Ht; apply Hds; now right].
      intros t' Ho. exact (proj1 (proj2 (H1 Hs (Hds _ ltac:(now left)) t' Ho)) Hul). }
    destruct Hbo as [Hco Hdn Hac Hfo|Eso Esn Hac Hfo Hincl|nm' t' nm t Eso Esn Hac Ho].
    - destruct (parts_exist en bn vn Hbwn Hbfn Hdn HT Hu) as (vs & un & rest & Hp). pose proof (po_len _ _ _ _ _ _ Hp) as Hl. pose proof (po_eq _ _ _ _ _ _ Hp) as Evn.
      destruct (fields_pass bn vs (vb_fields bo) Hfo (Hfw vs rest Evn Hl)) as (vo & V1 & V2 & V3).
      pose proof (po_pieces _ _ _ _ _ _ Hp) as Hpi. pose proof (Hok _ Hpi) as Hno.
      set (l := named (vb_fields bn) vs ++ kept un) in *. set (us := undeclared (tags_of bo) (nodes en l)).
      assert (Hlo : List.length vo = List.length (vb_fields bo)) by (rewrite <- (map_length fd_ty); exact (Forall2_len _ _ _ V1)).
      unfold collects in Hco. destruct (vb_special bo) as [|nm t|nm t] eqn:Eso; try discriminate Hco.
      exists l, (vo ++ [VUnk us]), (named (vb_fields bo) vo ++ kept us).
      assert (Hincl : incl (tags_of bo) (tags_of bn)).
      { intros tag Hi. apply in_map_iff in Hi. destruct Hi as (f & <- & Hi). destruct (Hfo (fd_tag f) (fd_ty f)) as (tt & Hi2 & _); [unfold declared; apply in_map_iff; now exists f|].
        unfold declared in Hi2. apply in_map_iff in Hi2. destruct Hi2 as (g & E & Hg). injection E as <- _. now apply in_map. }
      split; [exact Hpi|]. split.
      { apply (IbKeep eo ign en _ bo nm t); auto. apply pair_record; [rewrite named_tags; auto|exact V2|].
        intros tag Ht Hk. rewrite kept_tags in Hk. rewrite declared_tags in Ht. apply in_map_iff in Hk. destruct Hk as ([tg n] & E & Hk). cbn [fst] in E. subst tg.
        exact (po_un _ _ _ _ _ _ Hp _ _ Hk (Hincl _ Ht)). }
      split.
      { unfold body_types. rewrite Eso. cbn [sp_types]. apply Forall2_app; [exact V1|]. constructor; [|constructor]. apply (unk_typed eo); [exact Hspo|].
        apply Forall_forall. intros [tag n] Hi. apply in_undeclared in Hi. destruct Hi as [Hi _]. exact (proj1 (Forall_forall _ _) Hno _ Hi). }
      split; [apply Hac|]. split.
      { unfold unknown_ok. rewrite Eso. intros _ fl E. rewrite last_last in E. injection E as <-. apply Forall_forall. intros [tag n] Hi. apply in_undeclared in Hi. cbn [fst]. tauto. }
      split; [now apply (PaKept eo bo nm t)|]. rewrite Evn.
      apply (edit_into eo en ign Hwn Hun bn vn vs un rest); auto; rewrite ?named_tags; auto.
      + apply (all_edited _ (named (vb_fields bn) vs)); [rewrite named_tags; auto|exact V3| |exact Hl|intros y Hy; exact Hy].
        intros. apply (named_fun (vb_fields bn) vs tag); auto. rewrite named_tags; auto.
      + now rewrite <- Evn.
    - assert (Hdn : delegates bn = false) by (unfold delegates; now rewrite Esn).
      destruct (parts_exist en bn vn Hbwn Hbfn Hdn HT Hu) as (vs & un & rest & Hp). pose proof (po_len _ _ _ _ _ _ Hp) as Hl. pose proof (po_eq _ _ _ _ _ _ Hp) as Evn.
      pose proof (po_rest _ _ _ _ _ _ Hp) as Hrest. destruct Hrest as [(_ & -> & ->)|(nm & t & E & _)]; [|congruence]. rewrite app_nil_r in Evn. subst vs.
      destruct (fields_pass bn vn (vb_fields bo) Hfo (Hfw vn [] ltac:(now rewrite app_nil_r) Hl)) as (vo & V1 & V2 & V3).
      pose proof (po_pieces _ _ _ _ _ _ Hp) as Hpi. cbn [kept map] in Hpi. rewrite app_nil_r in Hpi.
      assert (Hlo : List.length vo = List.length (vb_fields bo)) by (rewrite <- (map_length fd_ty); exact (Forall2_len _ _ _ V1)).
      exists (named (vb_fields bn) vn), vo, (named (vb_fields bo) vo). split; [exact Hpi|]. split.
      { apply IbFields; auto.
        - rewrite <- (app_nil_r (named (vb_fields bn) vn)). apply pair_record; [rewrite named_tags; auto|exact V2|intros tag _ []].
        - right. apply undeclared_all. intros tag n Hi. apply nodes_tags in Hi. rewrite named_tags in Hi by exact Hl. rewrite declared_tags. now apply Hincl. }
      split; [unfold body_types; rewrite Eso; cbn [sp_types]; now rewrite app_nil_r|]. split; [apply Hac|]. split; [unfold unknown_ok; now rewrite Eso|].
      split; [now constructor|].
      assert (Hincl2 : incl (tags_of bo) (tags_of bn)).
      { intros tag Hi. apply in_map_iff in Hi. destruct Hi as (f & <- & Hi). destruct (Hfo (fd_tag f) (fd_ty f)) as (tt & Hi2 & _); [unfold declared; apply in_map_iff; now exists f|].
        unfold declared in Hi2. apply in_map_iff in Hi2. destruct Hi2 as (g & E & Hg). injection E as <- _. now apply in_map. }
      assert (Ei : into_body en ign eo (named (vb_fields bo) vo ++ kept []) bn (vn ++ [])).
      { apply (edit_into eo en ign Hwn Hun bn vn vn [] []); auto; rewrite ?named_tags; auto.
        - cbn [kept map]. rewrite app_nil_r. symmetry. apply undeclared_all. intros tag n Hi. apply nodes_tags in Hi. rewrite named_tags in Hi by exact Hl. now apply Hincl.
        - apply (all_edited _ (named (vb_fields bn) vn)); [rewrite named_tags; auto|exact V3| |exact Hl|intros y Hy; exact Hy].
          intros. apply (named_fun (vb_fields bn) vn tag); auto. rewrite named_tags; auto.
        - now rewrite app_nil_r. }
      cbn [kept map] in Ei. now rewrite !app_nil_r in Ei.
    - rewrite Eso in Hspo, Hfso. rewrite Esn in Hspn, Hfsn. unfold body_types in HP, HT, Hds. rewrite Hspn, Esn in HP, HT, Hds. cbn [map app sp_types] in HP, HT, Hds.
      inversion HP as [|dv ? ? ? Hdv HP3]; subst. inversion HP3; subst.
      destruct (Hdv Hfsn (Hds t ltac:(now left)) t' Ho) as (_ & _ & Hw). destruct (Hw (Hdu nm t Esn)) as (w & l & l' & W1 & W2 & W3 & W4 & W5).
      exists l, [w], l'. split; [now apply (PaDeleg en bn nm t)|]. split; [now apply (IbDeleg eo ign en l bo nm' t')|].
      split; [unfold body_types; rewrite Hspo, Eso; cbn [map app sp_types]; now repeat constructor|]. split; [apply Hac|]. split; [unfold unknown_ok; now rewrite Eso|].
      split; [now apply (PaDeleg eo bo nm' t')|now apply (IbDeleg en ign eo l' bn nm t)].
  Qed.

  Lemma deser_sub zc t (P : ty) : deserialisable en zc P -> (no_impl en zc t -> no_impl en zc P) -> exists zc', deserialisable en zc' t.
  Proof. intros H G. exists zc. intros Hn. exact (H (G Hn)). Qed.
  Lemma deser_item i t : (exists zc, deserialisable en zc (TItem i)) -> In t (item_types (en i)) -> exists zc, deserialisable en zc t.
  Proof. intros (zc & Hd) Hi. exists zc. intros Hn. apply Hd. now apply (NiItem en zc i t). Qed.
  Lemma deleg_unit' i b : match en i with IStruct b0 => b = b0 | IEnum vars catch => In b (map snd vars) \/ catch = Some b end ->
    forall nm t, vb_special b = SpDeleg nm t -> ign = true \/ unit_like t = false.
  Proof. intros Hi nm t Es. destruct Hun as [H|H]; [now left|right]. exact (H i b nm t Hi Es). Qed.
  Ltac basic_only Ho := inversion Ho; subst; match goal with H : basic _ = true |- _ => try discriminate H end.

  Lemma elems_perm e e' l l' t ws : Permutation l l' -> elems e' ign e l t ws -> exists ws', Permutation ws ws' /\ elems e' ign e l' t ws'.
  Proof.
    intros Hp. revert ws. induction Hp as [|x l l' Hp IH|x y l|l l' l'' H1 IH1 H2 IH2]; intros ws He.
    - exists ws. auto.
    - inversion He as [|? ? ? ? ? w ws1 K1 K2]; subst. destruct (IH _ K2) as (ws' & P' & E'). exists (w :: ws'). split; [now apply perm_skip|now constructor].
    - inversion He as [|? ? ? ? ? w ws1 K1 K2]; subst. inversion K2 as [|? ? ? ? ? w2 ws2 K3 K4]; subst. exists (w2 :: w :: ws2). split; [apply perm_swap|repeat (constructor; auto)].
    - destruct (IH1 _ He) as (w1 & P1 & E1). destruct (IH2 _ E1) as (w2 & P2 & E2). exists w2. split; [now apply (Permutation_trans P1)|exact E2].
  Qed.
  Lemma coll_pass vs t t' (F G : ty -> ty) (mk : list value -> value) : Forall (fun v => pass v t) vs -> shape_wf t -> (exists zc, deserialisable en zc t) -> Older t' t ->
    Older (F t') (G t) -> collection (G t) = true -> collection (F t') = true ->
    (forall xs, many (mk xs) (G t) = Some (map (fun x => (x, t)) xs)) -> (forall xs, many (mk xs) (F t') = Some (map (fun x => (x, t')) xs)) ->
    each (G t) = t -> each (F t') = t' ->
    (forall ws, Forall (fun w => has_type eo w t') ws -> elems eo ign en (map (fun x => (x, t)) vs) t' ws -> elems en ign eo (map (fun x => (x, t')) ws) t vs ->
       has_type eo (mk ws) (F t') /\ gather (F t') ws (mk ws)) ->
    gather (G t) vs (mk vs) -> P_all (mk vs) (G t) (F t').
  Proof.
    intros HF Hs Hd Ho HO C1 C2 M1 M2 E1 E2 Hty Hg.
    destruct (list_pass vs t t') as (ws & W1 & W2 & W3); [refine (Forall_impl _ _ HF); intros v Hv; exact (proj1 (Hv Hs Hd t' Ho))|].
    destruct (Hty ws W1 W2 W3) as [T1 T2]. apply (many_pass _ _ _ (mk ws)); auto.
    - now rewrite M1.
    - now rewrite M2.
    - exists ws. unfold items. rewrite M1, E2. auto.
    - exists vs. unfold items. rewrite M2, E1. auto.
  Qed.

  Lemma all_pass v t : has_type en v t -> pass v t.
  Proof.
    intros Hty. revert v t Hty. apply (has_type_ind2 ascending en pass); unfold pass.
    - intros w n H _ _ t' Ho. basic_only Ho. apply (single_pass _ _ _ (VU n)); try reflexivity; try discriminate; auto; constructor; auto.
    - intros w z H Hs _ t' Ho. basic_only Ho. apply (single_pass _ _ _ (VS z)); try reflexivity; try discriminate; auto; constructor; auto.
    - intros b _ _ t' Ho. basic_only Ho. apply (single_pass _ _ _ (VB b)); try reflexivity; try discriminate; auto; constructor; auto.
    - intros c H _ _ t' Ho. basic_only Ho. apply (single_pass _ _ _ (VChar c)); try reflexivity; try discriminate; auto; constructor; auto.
    - intros _ _ t' Ho. basic_only Ho. apply (single_pass _ _ _ VPhantom); try reflexivity; try discriminate; auto; constructor; auto.
    - intros t bs Ht Hb Hu _ _ t' Ho. assert (t' = t) as -> by (destruct Ht as [->|[->| ->]]; basic_only Ho; reflexivity).
      apply (single_pass _ _ _ (VStr bs)); auto; try (destruct Ht as [->|[->| ->]]; first [reflexivity|discriminate]);
        [now constructor|apply (ElBlob eo ign en _ _ bs); now constructor|apply (ElBlob en ign eo _ _ bs); now constructor].
    - intros t bs Ht Hb _ _ t' Ho. assert (t' = t) as ->.
      { destruct Ht as [->|[->|(u & -> & Hu)]]; inversion Ho; subst; try reflexivity. f_equal. eapply older_u8_eq; eauto. }
      apply (single_pass _ _ _ (VBytes bs)); auto; try (destruct Ht as [->|[->|(u & -> & Hu)]]; cbn [each]; rewrite ?Hu; first [reflexivity|discriminate]);
        [now constructor|apply (ElBlob eo ign en _ _ bs); now constructor|apply (ElBlob en ign eo _ _ bs); now constructor].
    - intros n t bs Hu Hb Hl _ _ t' Ho. assert (t' = TArray n t) as ->.
      { inversion Ho; subst; try reflexivity. f_equal. eapply older_u8_eq; eauto. }
      apply (single_pass _ _ _ (VArrB bs)); auto; try (cbn [each]; rewrite ?Hu; first [reflexivity|discriminate]);
        [now constructor|apply (ElBlob eo ign en _ _ bs); now constructor|apply (ElBlob en ign eo _ _ bs); now constructor].
    - intros n t vs Hu Hl HT HF Hs (zc & Hd) t' Ho. inversion Ho as [? Hb| | | | |? u ? Hou| | | | |]; subst; [discriminate Hb|]. pose proof (older_u8 _ _ _ Hou) as Hu'. rewrite Hu in Hu'.
      apply (coll_pass vs t u (TArray (lenN vs)) (TArray (lenN vs)) VArr); auto; try (cbn [collection each]; rewrite ?Hu, ?Hu'; reflexivity).
      + apply (deser_sub zc t _ Hd). apply NiArray.
      + intros ws W1 W2 W3. assert (El : lenN ws = lenN vs). { rewrite (elems_len _ _ _ _ _ _ W2). unfold lenN. now rewrite map_length. } split; now constructor.
      + now constructor.
    - intros t vs Hu HT HF Hs (zc & Hd) t' Ho. inversion Ho as [? Hb|u ? Hou| | | | | | | | |]; subst; [discriminate Hb|]. pose proof (older_u8 _ _ _ Hou) as Hu'. rewrite Hu in Hu'.
      apply (coll_pass vs t u TVec TVec VList); auto; try (cbn [collection each]; rewrite ?Hu, ?Hu'; reflexivity).
      + apply (deser_sub zc t _ Hd). apply NiVec.
      + intros ws W1 W2 W3. split; now constructor.
      + now constructor.
    - intros t vs HT HF Hs (zc & Hd) t' Ho. inversion Ho as [? Hb| |u ? Hou| | | | | | | |]; subst; [discriminate Hb|].
      apply (coll_pass vs t u TSeq TSeq VList); auto.
      + apply (deser_sub zc t _ Hd). apply NiSeq.
      + intros ws W1 W2 W3. split; now constructor.
      + now constructor.
    - intros t vs HT HF Hnd Hs (zc & Hd) t' Ho. inversion Ho as [? Hb| | |u ? Hou| | | | | | |]; subst; [discriminate Hb|].
      assert (Hd' : exists z, deserialisable en z t) by (apply (deser_sub zc t _ Hd); apply NiSet).
      destruct (list_pass vs t u) as (ws & W1 & W2 & W3); [refine (Forall_impl _ _ HF); intros v Hv; exact (proj1 (Hv Hs Hd' u Hou))|].
      pose proof (list_nodup t u ws vs Hd' W3 (asc_nodup _ Hnd)) as Hndw. pose proof (fold_perm ws Hndw) as Hpw.
      destruct (elems_perm eo en _ (map (fun x => (x, u)) (fold_right set_insert [] ws)) t vs (Permutation_map _ (Permutation_sym Hpw)) W3) as (vs' & Hpv & W3').
      apply (many_pass _ _ _ (VList (fold_right set_insert [] ws))); auto; try discriminate.
      + constructor; [|apply fold_asc]. exact (Permutation_Forall (Permutation_sym Hpw) W1).
      + exists ws. split; [exact W2|]. rewrite <- as_set_fold. constructor.
      + exists vs'. split; [exact W3'|]. rewrite <- (as_set_id vs Hnd), (as_set_perm _ _ Hpv). constructor.
    - intros t Hs _ t' Ho. inversion Ho as [? Hb| | | |u ? Hou| | | | | |]; subst; [discriminate Hb|].
      apply (many_pass _ _ _ (VOpt None)); auto; try discriminate; [constructor|exists []; split; constructor|exists []; split; constructor].
    - intros t v HT IH Hs (zc & Hd) t' Ho. inversion Ho as [? Hb| | | |u ? Hou| | | | | |]; subst; [discriminate Hb|].
      destruct (IH Hs (deser_sub zc t _ Hd (NiOption en zc t)) u Hou) as ((w & W1 & W2 & W3) & _).
      apply (many_pass _ _ _ (VOpt (Some w))); auto; try discriminate; [now constructor|exists [w]|exists [v]]; (split; [cbn [each]; repeat constructor; assumption|constructor]).
    - intros tk tv kvs HTk HTv IHk IHv Hnd [[Hsk Huk] [Hsv Huv]] (zc & Hd) t' Ho. inversion Ho as [? Hb| | | | | |k' ? v' ? Hok Hov| | | |]; subst; [discriminate Hb|].
      assert (Hdk : exists z, deserialisable en z tk) by (apply (deser_sub zc tk _ Hd); apply NiKey).
      assert (Hdv : exists z, deserialisable en z tv) by (apply (deser_sub zc tv _ Hd); apply NiVal).
      assert (Hkv : exists kws : list (value * value), Forall (fun p => has_type eo (fst p) k') kws /\ Forall (fun p => has_type eo (snd p) v') kws /\
        Forall2 (fun p q => field_becomes en ign eo (fst q) k' tk (fst p)) kvs kws /\
        elems eo ign en (map (fun p => (VRec [fst p; snd p], TTuple [tk; tv])) kvs) (TTuple [k'; v']) (map (fun p => VRec [fst p; snd p]) kws) /\
        elems en ign eo (map (fun p => (VRec [fst p; snd p], TTuple [k'; v'])) kws) (TTuple [tk; tv]) (map (fun p => VRec [fst p; snd p]) kvs)).
      { clear Hnd HTk HTv Ho Hd. induction kvs as [|[k x] kvs IH]; [exists []; repeat split; constructor|]. inversion IHk as [|? ? Hk IHk2]; subst. inversion IHv as [|? ? Hx IHv2]; subst. cbn [fst snd] in *.
        destruct (IH IHk2 IHv2) as (kws & A1 & A2 & A3 & A4 & A5). destruct (Hk Hsk Hdk k' Hok) as (_ & Pk & _). destruct (Hx Hsv Hdv v' Hov) as (_ & Px & _).
        specialize (Pk Huk). specialize (Px Huv). destruct Pk as (wk & K1 & K2 & K3). destruct Px as (wx & X1 & X2 & X3). exists ((wk, wx) :: kws). cbn [map fst snd].
        split; [now constructor|]. split; [now constructor|]. split; [now constructor|].
        assert (Ek : unknown_like k' = false) by (now rewrite (older_unknown _ _ _ Hok)). assert (Ev : unknown_like v' = false) by (now rewrite (older_unknown _ _ _ Hov)).
        split; constructor; auto.
        - apply (ElStruct eo ign en _ _ (numbered 1 [k; x] [tk; tv])); [constructor; [reflexivity|repeat constructor; auto]|exact Logic.I|]. apply tuple_into; try reflexivity. cbn [count_from numbered].
          constructor; [exists k, tk; split; [now left|exact K2]|]. constructor; [exists x, tv; split; [right; now left|exact X2]|constructor].
        - apply (ElStruct en ign eo _ _ (numbered 1 [wk; wx] [k'; v'])); [constructor; [reflexivity|repeat constructor; auto]|exact Logic.I|]. apply tuple_into; try reflexivity. cbn [count_from numbered].
          constructor; [exists wk, k'; split; [now left|exact K3]|]. constructor; [exists wx, v'; split; [right; now left|exact X3]|constructor]. }
      destruct Hkv as (kws & A1 & A2 & A3 & A4 & A5).
      assert (Hndw : NoDup (map fst kws)).
      { assert (Ek : unknown_like k' = false) by (now rewrite (older_unknown _ _ _ Hok)). apply asc_nodup in Hnd. clear -Hnd A3 Hwn Hdk Ek. induction A3 as [|p q kvs kws Hpq A3 IH]; [constructor|]. cbn [map] in *. inversion Hnd as [|? ? Hni Hnd2]; subst.
        constructor; [|auto]. intros Hi. apply Hni. clear IH Hnd Hnd2 Hni. induction A3 as [|p2 q2 kvs kws Hpq2 A3 IH]; [destruct Hi|]. cbn [map] in *.
        destruct Hi as [E|Hi]; [left|right; auto]. rewrite E in Hpq2. exact (field_one en ign eo (fst q) k' tk _ _ Hwn Hdk Ek Hpq2 Hpq). }
      pose proof (as_map_permutes kws Hndw) as Hpw. set (kx := fold_left _ kws []) in Hpw.
      destruct (elems_perm eo en _ (map (fun p => (VRec [fst p; snd p], TTuple [k'; v'])) kx) (TTuple [tk; tv]) _ (Permutation_map _ (Permutation_sym Hpw)) A5) as (us & Hpv & A5').
      destruct (Permutation_map_inv _ _ (Permutation_sym Hpv)) as (kvs' & -> & Hp').
      apply (many_pass _ _ _ (VMap kx)); auto; try discriminate.
      + constructor; [exact (Permutation_Forall (Permutation_sym Hpw) A1)|exact (Permutation_Forall (Permutation_sym Hpw) A2)|apply as_map_asc].
      + exists (map (fun p => VRec [fst p; snd p]) kws). split; [exact A4|]. unfold kx. constructor.
      + exists (map (fun p => VRec [fst p; snd p]) kvs'). split; [exact A5'|].
        rewrite <- (as_map_id kvs Hnd), (as_map_perm kvs kvs'); [constructor|now apply asc_nodup|exact Hp'].
    - intros ts vs HT HF Hs (zc & Hd) t' Ho. cbn [shape_wf] in Hs. destruct Hs as [_ Hs]. inversion Ho as [? Hb| | | | | | |ts' ? Hos| | |]; subst; [discriminate Hb|].
      assert (Hfs : Forall2 (fun v t => forall t', Older t' t -> P_field v t t') vs ts /\ Forall (fun t => unknown_like t = false) ts).
      { clear HT Ho Hos. assert (Hd' : forall t, In t ts -> exists z, deserialisable en z t). { intros t Hi. apply (deser_sub zc t _ Hd). now apply NiTuple. } clear Hd.
        induction HF as [|v t vs ts Hv HF IH]; [repeat constructor|]. destruct Hs as [[Hs1 Hu1] Hs2]. destruct (IH Hs2) as [H1 H2]; [intros x Hx; apply Hd'; now right|]. split; constructor; auto.
        intros t0 H0. exact (proj1 (proj2 (Hv Hs1 (Hd' t ltac:(now left)) t0 H0)) Hu1). }
      destruct Hfs as [Hfs Hul]. pose proof (Forall2_len _ _ _ HT) as Hl. pose proof (olders_len _ _ Hos) as Hlo. destruct (tuple_pass ts ts' vs Hos Hfs) as (ws & W1 & W2). destruct (W2 1) as [W3 W4]. clear W2.
      pose proof (Forall2_len _ _ _ W1) as Hlw. pose proof (olders_unknown _ _ Hos Hul) as Hul'.
      assert (I1 : into eo ign en (numbered 1 vs ts) (TTuple ts') (VRec ws)) by (apply tuple_into; auto).
      assert (I2 : into en ign eo (numbered 1 ws ts') (TTuple ts) (VRec vs)) by (apply tuple_into; auto).
      assert (Hw : has_type eo (VRec ws) (TTuple ts')) by now constructor.
      assert (E1 : elem eo ign en (VRec vs) (TTuple ts) (TTuple ts') (VRec ws)) by (apply (ElStruct eo ign en _ _ (numbered 1 vs ts)); [now constructor|exact Logic.I|exact I1]).
      assert (E2 : elem en ign eo (VRec ws) (TTuple ts') (TTuple ts) (VRec vs)) by (apply (ElStruct en ign eo _ _ (numbered 1 ws ts')); [now constructor|exact Logic.I|exact I2]).
      split; [exists (VRec ws); auto|]. split; [intros _; exists (VRec ws); repeat split; auto; apply single_becomes; auto; discriminate|].
      intros Hign. exists (VRec ws). destruct vs as [|v vs].
      + inversion HT; subst. inversion Hos; subst. destruct ws; [|discriminate Hlw]. destruct Hign as [Hign|Hign]; [|discriminate Hign].
        exists [(1, (VRec [], TTuple []))], [(1, (VRec [], TTuple []))]. split; [exact Hw|]. split; [apply WhUnit|]. split; [apply ToTuple; [constructor|now left]|]. split; [apply WhUnit|apply ToTuple; [constructor|now left]].
      + exists (numbered 1 (v :: vs) ts), (numbered 1 ws ts'). split; [exact Hw|]. split; [apply WhTuple; auto; discriminate|]. split; [exact I1|]. split; [|exact I2]. apply WhTuple; auto.
        intros ->. destruct ts'; [|discriminate Hlw]. destruct ts; [discriminate Hl|discriminate Hlo].
    - intros t v HT IH Hs (zc & Hd) t' Ho. inversion Ho as [? Hb| | | | | | | |u ? Hou| |]; subst; [discriminate Hb|].
      destruct (IH Hs (deser_sub zc t _ Hd (NiBox en zc t)) u Hou) as ((w & W1 & W2 & W3) & Hf & Hw). split; [exists w; split; [now constructor|split; apply ElBoxOld; now apply ElBoxNew]|]. split.
      + intros Hu. destruct (Hf Hu) as (x & X1 & (us & X2 & X3) & (us' & X4 & X5)). exists x. split; [now constructor|].
        split; [exists us|exists us']; (split; [|now constructor]); cbn [each]; unfold items in *; cbn [many].
        * destruct (many v t); [exact X2|]. inversion X2 as [|? ? ? ? ? ? ? K1 K2]; subst. constructor; [now apply ElBoxOld|exact K2].
        * destruct (many x u); [exact X4|]. inversion X4 as [|? ? ? ? ? ? ? K1 K2]; subst. constructor; [now apply ElBoxOld|exact K2].
      + intros Hign. destruct (Hw Hign) as (x & l & l' & X1 & X2 & X3 & X4 & X5). exists x, l, l'. split; [now constructor|]. split; [now apply WhBox|]. split; [now apply ToBox|]. split; [now apply WhBox|now apply ToBox].
    - intros t v HT IH Hs (zc & Hd) t' Ho. inversion Ho as [? Hb| | | | | | | | |u ? Hou|]; subst; [discriminate Hb|].
      assert (Hd' : exists z, deserialisable en z t) by (exists false; intros Hn; apply Hd; now apply NiCopied).
      destruct (IH Hs Hd' u Hou) as ((w & W1 & W2 & W3) & Hf & Hw). split; [exists w; split; [now constructor|split; apply ElCopiedOld; now apply ElCopiedNew]|]. split.
      + intros Hu. destruct (Hf Hu) as (x & X1 & (us & X2 & X3) & (us' & X4 & X5)). exists x. split; [now constructor|].
        split; [exists us|exists us']; (split; [|now constructor]); cbn [each]; unfold items in *; cbn [many].
        * destruct (many v t); [exact X2|]. inversion X2 as [|? ? ? ? ? ? ? K1 K2]; subst. constructor; [now apply ElCopiedOld|exact K2].
        * destruct (many x u); [exact X4|]. inversion X4 as [|? ? ? ? ? ? ? K1 K2]; subst. constructor; [now apply ElCopiedOld|exact K2].
      + intros Hign. destruct (Hw Hign) as (x & l & l' & X1 & X2 & X3 & X4 & X5). exists x, l, l'. split; [now constructor|]. split; [now apply WhCopied|]. split; [now apply ToCopied|]. split; [now apply WhCopied|now apply ToCopied].
    - intros fs Hn _ _ t' Ho. basic_only Ho.
      assert (I1 : into eo ign en (kept fs) TUnknown (VUnk fs)) by (rewrite <- (nodes_kept en fs) at 2; apply ToUnknown).
      assert (I2 : into en ign eo (kept fs) TUnknown (VUnk fs)) by (rewrite <- (nodes_kept eo fs) at 2; apply ToUnknown).
      split; [|split; [discriminate|]].
      + exists (VUnk fs). split; [now constructor|]. split; [apply (ElStruct eo ign en _ _ (kept fs))|apply (ElStruct en ign eo _ _ (kept fs))]; auto; try apply InUnk; exact Logic.I.
      + intros _. exists (VUnk fs), (kept fs), (kept fs). split; [now constructor|]. split; [apply WhUnk|]. split; [exact I1|]. split; [apply WhUnk|exact I2].
    - intros n Hn _ _ t' Ho. basic_only Ho. apply (single_pass _ _ _ (VNode n)); try reflexivity; try discriminate; auto; [now constructor|apply (ElKeep eo ign en (VNode n) TUnkField)|apply (ElKeep en ign eo (VNode n) TUnkField)].
    - intros j bn vs Ej HT HF Hck Hu _ Hd t' Ho. inversion Ho as [? Hb| | | | | | | | | |i ? Hij]; subst; [discriminate Hb|]. pose proof (HJ i j Hij) as Hix.
      pose proof (Hwn j) as [Hjw Hjf]. pose proof (Hwo i) as [Hiw Hif]. assert (Hdt : forall t, In t (body_types bn) -> exists zc, deserialisable en zc t).
      { intros t Hi. apply (deser_item j t Hd). now rewrite Ej. }
      assert (Hdu := deleg_unit' j bn). rewrite Ej in Hdu, Hix, Hjw, Hjf. specialize (Hdu eq_refl). destruct (eo i) as [bo|] eqn:Ei; [|inversion Hix]. inversion Hix as [? ? Hbo|]; subst. cbn [item_wf] in *.
      assert (Hok : forall l, pieces en bn vs l -> nodes_ok (nodes en l)).
      { intros l Hl. rewrite <- (whole_doc en (VRec vs) (TItem j) l); [|now apply (WhStruct en j bn)]. refine (proj1 (doc_ok (ordered := ascending) en Hwn _ _ _ _)); [now apply (TyStruct en j bn)|exact Logic.I]. }
      destruct (body_pass bo bn vs Hbo Hiw Hif Hjw Hjf HF HT Hck Hu Hdt Hdu Hok) as (l & wo & l' & B1 & B2 & B3 & B4 & B5 & B6 & B7).
      assert (Hto : has_type eo (VRec wo) (TItem i)) by now apply (TyStruct eo i bo).
      assert (I1 : into eo ign en l (TItem i) (VRec wo)) by now apply (ToStruct eo ign en l i bo).
      assert (I2 : into en ign eo l' (TItem j) (VRec vs)) by now apply (ToStruct en ign eo l' j bn).
      assert (He : P_elem (VRec vs) (TItem j) (TItem i)).
      { destruct (delegates bn) eqn:Edn.
        - inversion Hbo as [_ H|? Esn|nm' t' nm t Eso Esn Hac Hot]; subst; [congruence|unfold delegates in Edn; rewrite Esn in *; discriminate|].
          pose proof Hjw as (_ & _ & Hspn). rewrite Esn in Hspn. pose proof Hiw as (_ & _ & Hspo). rewrite Eso in Hspo.
          unfold body_types in HF, Hdt. rewrite Hspn, Esn in HF, Hdt. cbn [map app sp_types] in HF, Hdt. inversion HF as [|dv ? ? ? Hdv HF3]; subst. inversion HF3; subst.
          destruct Hjf as [_ Hfs]. rewrite Esn in Hfs. destruct (Hdv Hfs (Hdt t ltac:(now left)) t' Hot) as ((x & X1 & X2 & X3) & _).
          exists (VRec [x]). split; [|split].
          + apply (TyStruct eo i bo); auto; [unfold body_types; rewrite Hspo, Eso; cbn [map app sp_types]; now repeat constructor|unfold unknown_ok; now rewrite Eso].
          + apply (ElDelegOld eo ign en j bn nm dv t); auto. now apply (ElDelegNew eo ign en i bo nm' dv t t').
          + apply (ElDelegOld en ign eo i bo nm' x t'); auto. now apply (ElDelegNew en ign eo j bn nm x t' t).
        - assert (Edo : delegates bo = false).
          { inversion Hbo as [H|H|? ? ? ? _ H]; unfold delegates, collects in *; [now destruct (vb_special bo)|now rewrite H|rewrite H in Edn; discriminate Edn]. }
          exists (VRec wo). split; [exact Hto|]. split; [apply (ElStruct eo ign en _ _ l)|apply (ElStruct en ign eo _ _ l')]; auto; try (now apply (InStruct en j bn)); try (now apply (InStruct eo i bo)); unfold as_struct; rewrite ?Ei, ?Ej; auto. }
      split; [exact He|]. split; [intros _; destruct He as (x & X1 & X2 & X3); exists x; split; [exact X1|split; apply single_becomes; auto; discriminate]|].
      intros _. exists (VRec wo), l, l'. split; [exact Hto|]. split; [now apply (WhStruct en j bn)|]. split; [exact I1|]. split; [now apply (WhStruct eo i bo)|exact I2].
    - intros j vn cn ix d bn vs Ej Hn HT HF Hck Hu _ Hd t' Ho. inversion Ho as [? Hb| | | | | | | | | |i ? Hij]; subst; [discriminate Hb|]. pose proof (HJ i j Hij) as Hix.
      pose proof (Hwn j) as [Hjw Hjf]. pose proof (Hwo i) as [Hiw Hif]. pose proof (nth_error_In _ _ Hn) as Hin.
      assert (Hdt : forall t, In t (body_types bn) -> exists zc, deserialisable en zc t).
      { intros t Hi. apply (deser_item j t Hd). rewrite Ej. cbn [item_types]. apply in_or_app. left. apply in_flat_map. exists (d, bn). auto. }
      assert (Hdu := deleg_unit' j bn). rewrite Ej in Hdu, Hix, Hjw, Hjf. specialize (Hdu (or_introl (in_map snd _ _ Hin))). destruct (eo i) as [|vo co] eqn:Ei; [inversion Hix|]. inversion Hix as [|? ? ? ? Hv _]; subst.
      destruct Hjw as (Hndn & Hvwn & _). destruct Hjf as [Hfwn _]. destruct (proj1 (Forall_forall _ _) Hvwn _ Hin) as [Hd64 Hbwn]. pose proof (proj1 (Forall_forall _ _) Hfwn _ Hin) as Hbfn. cbn [fst snd] in *.
      destruct Hiw as (Hndo & Hvwo & Hcwo). destruct Hif as [Hfwo Hfco].
      assert (Hok : forall l, pieces en bn vs l -> nodes_ok (nodes en l)).
      { intros l Hl. assert (Hvo : variant_of en (VVar ix (VRec vs)) (TItem j) d l) by now apply (VoVar en j vn cn ix d bn). pose proof (variant_doc en _ _ _ _ Hvo) as E.
        destruct (doc_ok (ordered := ascending) en Hwn (VVar ix (VRec vs)) (TItem j)) as (_ & _ & Hk); [now apply (TyVar en j vn cn ix d bn)|exact Logic.I|]. rewrite E in Hk. cbn [node_ok] in Hk. destruct Hk as [_ Hk]. now apply nodes_ok_fold in Hk. }
      destruct (Hv d bn Hin) as [(bo & Hino & Hbo)|(Hni & bo & -> & Hbo)].
      + pose proof (proj2 (proj1 (Forall_forall _ _) Hvwo _ Hino)) as Hbwo. pose proof (proj1 (Forall_forall _ _) Hfwo _ Hino) as Hbfo. cbn [snd] in *.
        destruct (body_pass bo bn vs Hbo Hbwo Hbfo Hbwn Hbfn HF HT Hck Hu Hdt Hdu Hok) as (l & wo & l' & B1 & B2 & B3 & B4 & B5 & B6 & B7).
        destruct (In_nth_error _ _ Hino) as (ix' & Hn').
        apply (single_pass _ _ _ (VVar ix' (VRec wo))); try reflexivity; try discriminate; auto.
        * now apply (TyVar eo i vo co ix' d bo).
        * apply (ElVariant eo ign en _ _ d l i vo co ix' bo wo); auto; [now apply (VoVar en j vn cn ix d bn)|now apply variant_nth].
        * apply (ElVariant en ign eo _ _ d l' j vn cn ix bn vs); auto; [now apply (VoVar eo i vo co ix' d bo)|now apply variant_nth].
        * cbn [plain]. now rewrite Ej.
      + destruct (body_pass bo bn vs Hbo Hcwo Hfco Hbwn Hbfn HF HT Hck Hu Hdt Hdu Hok) as (l & wo & l' & B1 & B2 & B3 & B4 & B5 & B6 & B7).
        apply (single_pass _ _ _ (VCatch d (VRec wo))); try reflexivity; try discriminate; auto.
        * now apply (TyCatch eo i vo d bo).
        * apply (ElCatch eo ign en _ _ d l i vo bo wo); auto; [now apply (VoVar en j vn cn ix d bn)|now apply variant_out].
        * apply (ElVariant en ign eo _ _ d l' j vn cn ix bn vs); auto; [now apply (VoCatch eo i vo bo)|now apply variant_nth].
        * cbn [plain]. now rewrite Ej.
    - intros j vn d bn vs Ej Hd64 Hnin HT HF Hck Hu _ Hd t' Ho. inversion Ho as [? Hb| | | | | | | | | |i ? Hij]; subst; [discriminate Hb|]. pose proof (HJ i j Hij) as Hix.
      pose proof (Hwn j) as [Hjw Hjf]. pose proof (Hwo i) as [Hiw Hif].
      assert (Hdt : forall t, In t (body_types bn) -> exists zc, deserialisable en zc t).
      { intros t Hi. apply (deser_item j t Hd). rewrite Ej. cbn [item_types]. apply in_or_app. now right. }
      assert (Hdu := deleg_unit' j bn). rewrite Ej in Hdu, Hix, Hjw, Hjf. specialize (Hdu (or_intror eq_refl)). destruct (eo i) as [|vo co] eqn:Ei; [inversion Hix|]. inversion Hix as [|? ? ? ? _ Hv]; subst.
      destruct Hjw as (Hndn & _ & Hbwn). destruct Hjf as [_ Hbfn]. destruct Hiw as (Hndo & Hvwo & Hcwo). destruct Hif as [Hfwo Hfco]. destruct Hv as (Hincl & bo & -> & Hbo).
      assert (Hok : forall l, pieces en bn vs l -> nodes_ok (nodes en l)).
      { intros l Hl. assert (Hvo : variant_of en (VCatch d (VRec vs)) (TItem j) d l) by now apply (VoCatch en j vn bn). pose proof (variant_doc en _ _ _ _ Hvo) as E.
        destruct (doc_ok (ordered := ascending) en Hwn (VCatch d (VRec vs)) (TItem j)) as (_ & _ & Hk); [now apply (TyCatch en j vn d bn)|exact Logic.I|]. rewrite E in Hk. cbn [node_ok] in Hk. destruct Hk as [_ Hk]. now apply nodes_ok_fold in Hk. }
      destruct (body_pass bo bn vs Hbo Hcwo Hfco Hbwn Hbfn HF HT Hck Hu Hdt Hdu Hok) as (l & wo & l' & B1 & B2 & B3 & B4 & B5 & B6 & B7).
      apply (single_pass _ _ _ (VCatch d (VRec wo))); try reflexivity; try discriminate; auto.
      + apply (TyCatch eo i vo d bo); auto.
      + apply (ElCatch eo ign en _ _ d l i vo bo wo); auto; [now apply (VoCatch en j vn bn)|apply variant_out; auto].
      + apply (ElCatch en ign eo _ _ d l' j vn bn vs); auto; [now apply (VoCatch eo i vo bo)|now apply variant_out].
      + cbn [plain]. now rewrite Ej.
  Qed.
End Pass.


Scheme older_ind2 := Induction for older Sort Prop with olders_ind2 := Induction for olders Sort Prop.
Lemma older_shape J : forall t' t, older J t' t -> shape_wf t -> shape_wf t'.
Proof.
  apply (older_ind2 J (fun t' t _ => shape_wf t -> shape_wf t') (fun ts' ts _ => lenN ts' = lenN ts /\
    (fold_right (fun t P => (shape_wf t /\ unknown_like t = false) /\ P) True ts -> fold_right (fun t P => (shape_wf t /\ unknown_like t = false) /\ P) True ts'))); cbn [shape_wf]; auto.
  - intros k' k v' v Hk IHk Hv IHv [[A1 A2] [A3 A4]]. rewrite (older_unknown _ _ _ Hk), (older_unknown _ _ _ Hv). auto.
  - intros ts' ts H [E IH] [Hl Hs]. rewrite E. auto.
  - intros t' t ts' ts H IH1 Hs [E IH2]. split; [rewrite !lenN_cons; lia|]. cbn [fold_right]. rewrite (older_unknown _ _ _ H). intros [[A1 A2] A3]. auto.
Qed.

(** The old program reads the data of the new one, writes it, and nothing has
    happened. *)
Theorem passed_through eo en (zc ign : bool) J v t t' dw dw' : env_wf eo -> env_wf en -> all_older eo en J -> older J t' t ->
  ign = true \/ no_unit_body en t -> deserialisable eo zc t' -> deserialisable en zc t -> has_type en v t -> shape_wf t -> size_of en t v <= U64_MAX ->
  exists w bs, has_type eo w t' /\ to_vec en dw t v = ROk bs /\ read_as eo zc ign t' bs w /\
    (size_of eo t' w <= U64_MAX -> exists bs', to_vec eo dw' t' w = ROk bs' /\ read_as en zc ign t bs' v).
Proof.
  intros Hwo Hwn HJ Ho Hun Hdo Hdn Hty Hs Hsz.
  destruct (all_pass eo en ign J Hwo Hwn HJ (units_of en ign _ Hun) v t Hty Hs (ex_intro _ zc Hdn) t' Ho) as (_ & _ & Hw).
  destruct Hw as (w & l & l' & W1 & W2 & W3 & W4 & W5); [destruct Hun as [H|[H _]]; auto|].
  destruct (read_back en eo zc ign v t t' w dw Hwn Hwo Hdo Hty Hs Hsz (Becomes eo ign en v t t' w l W2 W3)) as (bs & B1 & B2).
  exists w, bs. split; [exact W1|]. split; [exact B1|]. split; [exact B2|]. intros Hsz'.
  exact (read_back eo en zc ign w t' t v dw' Hwo Hwn Hdn W1 (older_shape J _ _ Ho Hs) Hsz' (Becomes en ign eo w t' t v l' W4 W5)).
Qed.
