(** * P_CompatTy: unchanged types, and compatible changes of types *)

From Verif Require Import P_Ord P_Sets Base Wire Dev Stream Types Prog SpecWire SpecFormat SpecWrite SpecDe SpecDoc SpecRead SpecCompat
  P_Base P_Types P_RT P_Means P_Meaning P_Order P_Card P_Compat.

(** ** Generalities *)
Lemma occs_app tag l l' : occs tag (l ++ l') = occs tag l ++ occs tag l'.
Proof. apply flat_map_app. Qed.
Lemma occs_none tag l : ~ In tag (map fst l) -> occs tag l = [].
Proof.
  induction l as [|f l IH]; intros H; [reflexivity|]. cbn [occs flat_map map] in *. destruct (N.eqb_spec (fst f) tag) as [E|E]; [exfalso; apply H; now left|].
  apply IH. intros Hi. apply H. now right.
Qed.
Lemma occs_one l tag v t : NoDup (map fst l) -> In (tag, (v, t)) l -> occs tag l = items v t.
Proof.
  induction l as [|f l IH]; intros Hnd Hi; [destruct Hi|]. cbn [map] in Hnd. inversion Hnd as [|? ? Hni Hnd2]; subst.
  change (occs tag (f :: l)) with ((if fst f =? tag then items (fst (snd f)) (snd (snd f)) else []) ++ occs tag l).
  destruct Hi as [->|Hi]; cbn [fst snd].
  - rewrite N.eqb_refl, occs_none, app_nil_r; auto.
  - destruct (N.eqb_spec (fst f) tag) as [E|E]; [|now apply IH]. exfalso. apply Hni. rewrite E. now apply (in_map fst) in Hi.
Qed.
Lemma named_tags fs : forall vs, List.length vs = List.length fs -> map fst (named fs vs) = map fd_tag fs.
Proof. induction fs as [|f fs IH]; intros [|v vs] H; try discriminate H; [reflexivity|]. unfold named. cbn. f_equal. apply IH. now injection H. Qed.
Lemma numbered_tags ts : forall i vs, List.length vs = List.length ts -> map fst (numbered i vs ts) = map fst (count_from i ts).
Proof. induction ts as [|t ts IH]; intros i [|v vs] H; try discriminate H; [reflexivity|]. cbn. f_equal. apply IH. now injection H. Qed.
Lemma kept_tags us : map fst (kept us) = map fst us.
Proof. unfold kept. now rewrite map_map. Qed.
Lemma nodes_tags eo l tag n : In (tag, n) (nodes eo l) -> In tag (map fst l).
Proof. intros H. apply in_flat_map in H. destruct H as (f & Hf & H). apply in_map_iff in H. destruct H as (p & E & _). injection E as <- _. now apply in_map. Qed.
Lemma undeclared_all tags ks : (forall tag n, In (tag, n) ks -> In tag tags) -> undeclared tags ks = [].
Proof.
  induction ks as [|[tag n] ks IH]; intros H; [reflexivity|]. unfold undeclared. cbn [filter fst].
  assert (E : existsb (N.eqb tag) tags = true). { apply existsb_exists. exists tag. split; [apply (H tag n); now left|apply N.eqb_refl]. }
  rewrite E. cbn. apply IH. intros t m Hi. apply (H t m). now right.
Qed.
Lemma undeclared_none tags ks : (forall tag n, In (tag, n) ks -> ~ In tag tags) -> undeclared tags ks = ks.
Proof.
  induction ks as [|[tag n] ks IH]; intros H; [reflexivity|]. unfold undeclared. cbn [filter fst].
  assert (E : existsb (N.eqb tag) tags = false). { apply Bool.not_true_is_false. intros E. apply existsb_exists in E. destruct E as (t & Ht & E). apply N.eqb_eq in E. subst t. apply (H tag n); [now left|exact Ht]. }
  rewrite E. cbn. f_equal. apply IH. intros t m Hi. apply (H t m). now right.
Qed.
Lemma undeclared_app tags a b : undeclared tags (a ++ b) = undeclared tags a ++ undeclared tags b.
Proof. apply filter_app. Qed.
Lemma variant_nth d b vars : NoDup (map fst vars) -> forall ix, nth_error vars ix = Some (d, b) -> variant d vars = Some (ix, b).
Proof.
  induction vars as [|[d' b'] vars IH]; intros Hnd ix Hn; [destruct ix; discriminate|]. cbn [map fst] in Hnd. inversion Hnd as [|? ? Hni Hnd2]; subst. cbn [variant].
  destruct ix as [|ix]; cbn [nth_error] in Hn.
  - injection Hn as -> ->. now rewrite N.eqb_refl.
  - destruct (N.eqb_spec d d') as [->|E]; [exfalso; apply Hni; apply nth_error_In in Hn; now apply (in_map fst) in Hn|]. now rewrite (IH Hnd2 ix Hn).
Qed.
Lemma variant_out d (vars : list (N * vbody)) : ~ In d (map fst vars) -> variant d vars = None.
Proof.
  induction vars as [|[d' b'] vars IH]; intros H; [reflexivity|]. cbn [variant map fst] in *. destruct (N.eqb_spec d d') as [->|E]; [exfalso; apply H; now left|].
  rewrite IH; [reflexivity|]. intros Hi. apply H. now right.
Qed.

Section Refl.
  Variables (e : env) (ign : bool).
  Hypothesis Hwf : env_wf e.
  Hypothesis Hun : ign = true \/ forall i b nm t', match e i with
                                                   | IStruct b0 => b = b0
                                                   | IEnum vars catch => In b (map snd vars) \/ catch = Some b
                                                   end -> vb_special b = SpDeleg nm t' -> unit_like t' = false.
  Notation elem' := (elem e ign e).

  Definition whole_same (v : value) (t : ty) : Prop := ign = true \/ unit_like t = false -> exists l, whole e v t l /\ into e ign e l t v.
  Definition field_same (v : value) (t : ty) : Prop := exists us, elems e ign e (items v t) (each t) us /\ (unknown_like t = false -> gather t us v).
  Definition same (v : value) (t : ty) : Prop := shape_wf t -> elem' v t t v /\ field_same v t /\ whole_same v t.

  Lemma one_field v t : elem' v t t v -> many v t = None -> each t = t -> t <> TUnknown -> field_same v t.
  Proof.
    intros He Hm Ht Hu. unfold field_same, items. rewrite Hm, Ht. exists [v]. split; [repeat constructor; exact He|]. intros _. now constructor.
  Qed.
  Lemma plain_whole v t : plain e t = true -> field_same v t -> whole_same v t.
  Proof.
    intros Hp (us & Hus & Hg) _. exists [(1, (v, t))]. split; [now constructor|]. apply ToPlain; [exact Hp| |].
    - apply (ReCons e ign e _ 1 t [] us v []); [|apply Hg; destruct t; try discriminate Hp; reflexivity|constructor].
      unfold occs. cbn [flat_map fst snd]. rewrite N.eqb_refl, app_nil_r. exact Hus.
    - right. apply undeclared_all. intros tag n H. apply nodes_tags in H. exact H.
  Qed.
  Lemma simple_same v t : elem' v t t v -> many v t = None -> each t = t -> plain e t = true -> elem' v t t v /\ field_same v t /\ whole_same v t.
  Proof.
    intros He Hm Ht Hp. assert (Hf : field_same v t). { apply one_field; auto. intros ->. discriminate Hp. }
    split; [exact He|]. split; [exact Hf|now apply plain_whole].
  Qed.
  Lemma many_same v t l us : many v t = Some l -> collection t = true -> elems e ign e l (each t) us -> gather t us v ->
    elem' v t t v /\ field_same v t /\ whole_same v t.
  Proof.
    intros Hm Hc He Hg. assert (Hp : plain e t = true) by (destruct t; try discriminate Hc; reflexivity).
    assert (Hf : field_same v t). { exists us. unfold items. rewrite Hm. auto. }
    assert (Hw : ign = true \/ unit_like t = false -> exists l0, whole e v t l0 /\ into e ign e l0 t v) by now apply plain_whole.
    split; [|split; auto]. apply (ElStruct e ign e v t [(1, (v, t))] t v).
    - constructor. now rewrite Hm.
    - unfold as_struct. destruct t; try discriminate Hc; exact Hc.
    - apply ToPlain; [exact Hp| |].
      + apply (ReCons e ign e _ 1 t [] us v []); [|exact Hg|constructor]. unfold occs. cbn [flat_map fst snd]. rewrite N.eqb_refl, app_nil_r. unfold items. now rewrite Hm.
      + right. apply undeclared_all. intros tag n H. apply nodes_tags in H. exact H.
  Qed.
  Lemma elems_same vs t : Forall (fun v => elem' v t t v) vs -> elems e ign e (map (fun x => (x, t)) vs) t vs.
  Proof. induction 1; constructor; auto. Qed.

  Lemma record_same l ds vs : Forall2 (fun d v => In (fst d, (v, snd d)) l /\ field_same v (snd d) /\ unknown_like (snd d) = false) ds vs ->
    NoDup (map fst l) -> forall l2, (forall tag, In tag (map fst ds) -> ~ In tag (map fst l2)) -> record e ign e (l ++ l2) ds vs.
  Proof.
    induction 1 as [|[tag t] v ds vs (Hi & (us & Hus & Hg) & Hu) HF IH]; intros Hnd l2 H2; [constructor|]. cbn [fst snd] in *.
    apply (ReCons e ign e _ tag t ds us v vs).
    - rewrite occs_app, (occs_one l tag v t Hnd Hi), (occs_none tag l2), app_nil_r; [exact Hus|]. apply H2. now left.
    - now apply Hg.
    - apply IH; auto. intros tg Ht. apply H2. now right.
  Qed.
  Lemma numbered_in ts : forall i vs, List.length vs = List.length ts -> Forall (fun t => unknown_like t = false) ts -> Forall2 field_same vs ts ->
    Forall2 (fun d v => In (fst d, (v, snd d)) (numbered i vs ts) /\ field_same v (snd d) /\ unknown_like (snd d) = false) (count_from i ts) vs.
  Proof.
    induction ts as [|t ts IH]; intros i [|v vs] Hl Hu HF; try discriminate Hl; [constructor|]. inversion Hu as [|? ? Hu1 Hu2]; subst. inversion HF as [|? ? ? ? Hf1 Hf2]; subst.
    cbn [count_from numbered]. constructor; cbn [fst snd]; [repeat split; auto; now left|].
    refine (Forall2_imp _ _ _ _ _ (IH (i + 1) vs ltac:(now injection Hl) Hu2 Hf2)). intros d w (H1 & H2). split; [now right|exact H2].
  Qed.
  Lemma named_in fs : forall vs, List.length vs = List.length fs -> Forall (fun f => unknown_like (fd_ty f) = false) fs -> Forall2 field_same vs (map fd_ty fs) ->
    Forall2 (fun d v => In (fst d, (v, snd d)) (named fs vs) /\ field_same v (snd d) /\ unknown_like (snd d) = false) (declared fs) vs.
  Proof.
    induction fs as [|f fs IH]; intros [|v vs] Hl Hu HF; try discriminate Hl; [constructor|]. inversion Hu as [|? ? Hu1 Hu2]; subst. inversion HF as [|? ? ? ? Hf1 Hf2]; subst.
    unfold named. cbn [declared map combine]. fold (declared fs) (named fs vs). constructor; cbn [fst snd]; [repeat split; auto; now left|].
    refine (Forall2_imp _ _ _ _ _ (IH vs ltac:(now injection Hl) Hu2 Hf2)). intros d w (H1 & H2). split; [now right|exact H2].
  Qed.

  Lemma body_same b vs : vbody_wf b -> fields_wf b -> Forall2 same vs (body_types b) -> Forall2 (has_type e) vs (body_types b) ->
    vb_check b vs = true -> unknown_ok b vs -> (forall nm t, vb_special b = SpDeleg nm t -> ign = true \/ unit_like t = false) ->
    exists l, pieces e b vs l /\ into_body e ign e l b vs.
  Proof.
    intros (Hnd & Htags & Hsp) [Hff Hfs] HF HT Hc Hu Hd. unfold body_types in HF, HT. unfold unknown_ok in Hu.
    assert (Hul : Forall (fun f => unknown_like (fd_ty f) = false) (vb_fields b)) by (refine (Forall_impl _ _ Hff); intros f [_ H]; exact H).
    assert (Hfields : forall vs', Forall2 same vs' (map fd_ty (vb_fields b)) -> Forall2 field_same vs' (map fd_ty (vb_fields b))).
    { intros vs' H. clear -H Hff. revert vs' H. induction Hff as [|f fs [Hs _] Hff IH]; intros vs' H; inversion H as [|? ? ? ? H1 H2]; subst; constructor; auto. now apply H1. }
    destruct (vb_special b) as [|nm t|nm t] eqn:Es; cbn [sp_types] in HF, HT.
    - rewrite app_nil_r in HF, HT. pose proof (Forall2_len _ _ _ HF) as Hl. rewrite map_length in Hl.
      exists (named (vb_fields b) vs). split; [now constructor|]. apply IbFields; auto.
      + rewrite <- (app_nil_r (named (vb_fields b) vs)). apply record_same; [apply named_in; auto|rewrite named_tags; auto|intros tag _ []].
      + right. apply undeclared_all. intros tag n H. apply nodes_tags in H. rewrite named_tags in H by auto. now rewrite declared_tags.
    - apply Forall2_app_inv_r in HF. destruct HF as (vs1 & vs2 & HF1 & HF2 & ->). rewrite Hsp in HF1. inversion HF1; subst. inversion HF2 as [|dv ? ? ? Hdv HF3]; subst. inversion HF3; subst. cbn [app] in *.
      destruct (Hdv Hfs) as (_ & _ & Hw). destruct (Hw (Hd nm t eq_refl)) as (l & Hl1 & Hl2). exists l. split; [now apply (PaDeleg e b nm t)|now apply (IbDeleg e ign e l b nm t)].
    - apply Forall2_app_inv_r in HF. destruct HF as (vs1 & vs2 & HF1 & HF2 & ->). inversion HF2 as [|dv ? ? ? Hdv HF3]; subst. inversion HF3; subst.
      pose proof (Forall2_len _ _ _ HF1) as Hl. rewrite map_length in Hl.
      apply Forall2_app_inv_r in HT. destruct HT as (ws1 & ws2 & HT1 & HT2 & E). inversion HT2 as [|dv' ? ? ? Hdv' HT3]; subst. inversion HT3; subst.
      apply app_inj_tail in E. destruct E as [_ <-].
      assert (Hus : exists us, dv = VUnk us). { clear -Hsp Hdv'. revert dv Hdv'. induction t; intros dv H; try discriminate Hsp; inversion H; subst; eauto;
        try match goal with X : is_str _ |- _ => destruct X as [X|[X|X]]; discriminate X end; match goal with X : is_bytes _ |- _ => destruct X as [X|[X|(? & X & _)]]; discriminate X end. }
      destruct Hus as (us & ->). specialize (Hu Hsp us (last_last _ _ _)).
      assert (Hund : undeclared (map fd_tag (vb_fields b)) (nodes e (named (vb_fields b) vs1 ++ kept us)) = us).
      { rewrite nodes_app, nodes_kept, undeclared_app, undeclared_all, undeclared_none; [reflexivity| |].
        - intros tag n Hi. exact (proj1 (Forall_forall _ _) Hu _ Hi).
        - intros tag n H. apply nodes_tags in H. now rewrite named_tags in H by auto. }
      exists (named (vb_fields b) vs1 ++ kept us). split; [now apply (PaKept e b nm t)|].
      rewrite <- Hund at 2. apply (IbKeep e ign e _ b nm t); auto; [|now rewrite Hund].
      apply record_same; [apply named_in; auto|rewrite named_tags; auto|]. intros tag Ht Hi. rewrite kept_tags in Hi. rewrite declared_tags in Ht.
      apply in_map_iff in Hi. destruct Hi as (f & <- & Hi). exact (proj1 (Forall_forall _ _) Hu _ Hi Ht).
  Qed.
  Lemma deleg_unit i b : match e i with IStruct b0 => b = b0 | IEnum vars catch => In b (map snd vars) \/ catch = Some b end ->
    forall nm t, vb_special b = SpDeleg nm t -> ign = true \/ unit_like t = false.
  Proof. intros Hi nm t Es. destruct Hun as [H|H]; [now left|right]. exact (H i b nm t Hi Es). Qed.

  Lemma all_same v t : has_type e v t -> same v t.
  Proof.
    intros Hty. revert v t Hty. apply (has_type_ind2 ascending e same); unfold same.
    - intros w n H _. apply simple_same; try reflexivity. now constructor.
    - intros w z H Hs. apply simple_same; try reflexivity. now constructor.
    - intros b _. apply simple_same; try reflexivity. constructor.
    - intros c H _. apply simple_same; try reflexivity. now constructor.
    - intros _. apply simple_same; try reflexivity. constructor.
    - intros t bs Ht _ Hu _. apply simple_same; try (destruct Ht as [->|[->| ->]]; reflexivity).
      apply (ElBlob e ign e _ _ bs); now constructor.
    - intros t bs Ht _ _. apply simple_same; try (destruct Ht as [->|[->|(u & -> & Hu)]]; cbn [each]; rewrite ?Hu; reflexivity).
      apply (ElBlob e ign e _ _ bs); now constructor.
    - intros n t bs Hu _ Hl _. apply simple_same; try (cbn [each]; rewrite ?Hu; reflexivity). apply (ElBlob e ign e _ _ bs); now constructor.
    - intros n t vs Hu Hl _ HF Hs. apply (many_same _ _ (map (fun x => (x, t)) vs) vs); [reflexivity|cbn; now rewrite Hu| |now constructor].
      cbn [each]. rewrite Hu. apply elems_same. refine (Forall_impl _ _ HF). intros v H. now apply H.
    - intros t vs Hu _ HF Hs. apply (many_same _ _ (map (fun x => (x, t)) vs) vs); [reflexivity|cbn; now rewrite Hu| |now constructor].
      cbn [each]. rewrite Hu. apply elems_same. refine (Forall_impl _ _ HF). intros v H. now apply H.
    - intros t vs _ HF Hs. apply (many_same _ _ (map (fun x => (x, t)) vs) vs); [reflexivity|reflexivity| |now constructor].
      cbn [each]. apply elems_same. refine (Forall_impl _ _ HF). intros v H. now apply H.
    - intros t vs _ HF Hnd Hs. apply (many_same _ _ (map (fun x => (x, t)) vs) vs); [reflexivity|reflexivity| |rewrite <- (as_set_id vs Hnd); constructor].
      cbn [each]. apply elems_same. refine (Forall_impl _ _ HF). intros v H. now apply H.
    - intros t Hs. apply (many_same _ _ [] []); [reflexivity|reflexivity|constructor|constructor].
    - intros t v _ IH Hs. apply (many_same _ _ [(v, t)] [v]); [reflexivity|reflexivity| |constructor]. cbn [each]. repeat constructor. now apply IH.
    - intros tk tv kvs _ _ IHk IHv Hnd [[Hsk Huk] [Hsv Huv]].
      apply (many_same _ _ (map (fun p => (VRec [fst p; snd p], TTuple [tk; tv])) kvs) (map (fun p => VRec [fst p; snd p]) kvs)); [reflexivity|reflexivity| |].
      + cbn [each]. clear Hnd. induction kvs as [|[k w] kvs IH]; [constructor|]. inversion IHk as [|? ? Hk IHk2]; subst. inversion IHv as [|? ? Hw IHv2]; subst. cbn [map fst snd] in *.
        constructor; [|now apply IH]. destruct (Hk Hsk) as (_ & Hfk & _). destruct (Hw Hsv) as (_ & Hfw & _).
        apply (ElStruct e ign e _ _ (numbered 1 [k; w] [tk; tv])); [constructor; [reflexivity|repeat constructor; auto]|exact I|].
        apply ToTuple.
        * rewrite <- (app_nil_r (numbered 1 [k; w] [tk; tv])). apply record_same; [apply numbered_in; [reflexivity| |]; repeat constructor; auto| |intros tag _ []].
          rewrite numbered_tags by reflexivity. apply count_tags.
        * right. apply undeclared_all. intros tag n H. apply nodes_tags in H. now rewrite numbered_tags in H by reflexivity.
      + rewrite <- (as_map_id kvs Hnd) at 2. constructor.
    - intros ts vs HT HF Hs. cbn [shape_wf] in Hs. destruct Hs as [_ Hs].
      assert (Hfs : Forall2 field_same vs ts /\ Forall (fun t => unknown_like t = false) ts).
      { clear HT. induction HF as [|v t vs ts Hv HF IH]; [repeat constructor|]. destruct Hs as [[Hs1 Hu1] Hs2]. destruct (IH Hs2) as [H1 H2]. split; constructor; auto. now apply Hv. }
      destruct Hfs as [Hfs Hul]. pose proof (Forall2_len _ _ _ HT) as Hl.
      assert (Hin : into e ign e (numbered 1 vs ts) (TTuple ts) (VRec vs)).
      { apply ToTuple.
        - rewrite <- (app_nil_r (numbered 1 vs ts)). apply record_same; [now apply numbered_in| |intros tag _ []]. rewrite numbered_tags by exact Hl. apply count_tags.
        - right. apply undeclared_all. intros tag n H. apply nodes_tags in H. now rewrite numbered_tags in H by exact Hl. }
      assert (He : elem e ign e (VRec vs) (TTuple ts) (TTuple ts) (VRec vs)). { apply (ElStruct e ign e _ _ (numbered 1 vs ts)); [now constructor|exact I|exact Hin]. }
      split; [exact He|]. split; [apply one_field; auto; discriminate|].
      intros Hign. destruct vs as [|v vs].
      + inversion HT; subst. destruct Hign as [Hign|Hign]; [|discriminate Hign]. exists [(1, (VRec [], TTuple []))]. split; [apply WhUnit|]. apply ToTuple; [constructor|]. now left.
      + exists (numbered 1 (v :: vs) ts). split; [apply WhTuple; auto; discriminate|exact Hin].
    - intros t v _ IH Hs. destruct (IH Hs) as (He & (us & Hus & Hg) & Hw). split; [now apply ElBoxOld, ElBoxNew|]. split.
      + exists us. cbn [each unknown_like]. split; [|intros Hu; constructor; now apply Hg]. unfold items in *. cbn [many]. destruct (many v t); [exact Hus|].
        inversion Hus as [|? ? ? ? ? ? ? H1 H2]; subst. constructor; [now apply ElBoxOld|exact H2].
      + intros Hign. destruct (Hw Hign) as (l & H1 & H2). exists l. split; [now apply WhBox|now apply ToBox].
    - intros t v _ IH Hs. destruct (IH Hs) as (He & (us & Hus & Hg) & Hw). split; [now apply ElCopiedOld, ElCopiedNew|]. split.
      + exists us. cbn [each unknown_like]. split; [|intros Hu; constructor; now apply Hg]. unfold items in *. cbn [many]. destruct (many v t); [exact Hus|].
        inversion Hus as [|? ? ? ? ? ? ? H1 H2]; subst. constructor; [now apply ElCopiedOld|exact H2].
      + intros Hign. destruct (Hw Hign) as (l & H1 & H2). exists l. split; [now apply WhCopied|now apply ToCopied].
    - intros fs _ _.
      assert (Hin : into e ign e (kept fs) TUnknown (VUnk fs)) by (rewrite <- (nodes_kept e fs) at 2; apply ToUnknown).
      assert (He : elem e ign e (VUnk fs) TUnknown TUnknown (VUnk fs)) by (apply (ElStruct e ign e _ _ (kept fs)); [apply InUnk|exact I|exact Hin]).
      split; [exact He|]. split; [|intros _; exists (kept fs); split; [apply WhUnk|exact Hin]]. exists [VUnk fs]. split; [repeat constructor; exact He|discriminate].
    - intros n _ _. apply simple_same; try reflexivity. apply (ElKeep e ign e (VNode n) TUnkField).
    - intros i b vs Ei HT HF Hc Hu _. pose proof (Hwf i) as [Hiw Hfw]. rewrite Ei in Hiw, Hfw. cbn [item_wf] in Hiw.
      assert (Hdu := deleg_unit i b). rewrite Ei in Hdu. specialize (Hdu eq_refl).
      destruct (body_same b vs Hiw Hfw HF HT Hc Hu Hdu) as (l & Hl1 & Hl2).
      assert (Hin : into e ign e l (TItem i) (VRec vs)) by now apply (ToStruct e ign e l i b).
      assert (He : elem e ign e (VRec vs) (TItem i) (TItem i) (VRec vs)).
      { destruct (delegates b) eqn:Ed.
        - unfold delegates in Ed. destruct (vb_special b) as [|nm t|nm t] eqn:Es; try discriminate Ed. destruct Hiw as (_ & _ & Hsp). rewrite Es in Hsp.
          unfold body_types in HF. rewrite Hsp, Es in HF. cbn [map app sp_types] in HF. inversion HF as [|dv ? ? ? Hdv HF3]; subst. inversion HF3; subst.
          destruct Hfw as [_ Hfs]. rewrite Es in Hfs. apply (ElDelegOld e ign e i b nm dv t); auto. apply (ElDelegNew e ign e i b nm dv t t); auto. now apply Hdv.
        - apply (ElStruct e ign e _ _ l); [now apply (InStruct e i b)| |exact Hin]. unfold as_struct. now rewrite Ei. }
      split; [exact He|]. split; [apply one_field; auto; discriminate|]. intros _. exists l. split; [now apply (WhStruct e i b)|exact Hin].
    - intros i vars catch ix d b vs Ei Hn HT HF Hc Hu _. pose proof (Hwf i) as [Hiw Hfw]. rewrite Ei in Hiw, Hfw. destruct Hiw as (Hnd & Hvw & _). destruct Hfw as [Hfw _].
      pose proof (nth_error_In _ _ Hn) as Hi. pose proof (proj2 (proj1 (Forall_forall _ _) Hvw _ Hi)) as Hbw. pose proof (proj1 (Forall_forall _ _) Hfw _ Hi) as Hbf. cbn [snd] in *.
      assert (Hdu := deleg_unit i b). rewrite Ei in Hdu. specialize (Hdu (or_introl (in_map snd _ _ Hi))).
      destruct (body_same b vs Hbw Hbf HF HT Hc Hu Hdu) as (l & Hl1 & Hl2).
      apply simple_same; try reflexivity; [|cbn [plain]; now rewrite Ei].
      apply (ElVariant e ign e _ _ d l i vars catch ix b vs); auto; [now apply (VoVar e i vars catch ix d b)|now apply variant_nth].
    - intros i vars d b vs Ei _ Hni HT HF Hc Hu _. pose proof (Hwf i) as [Hiw Hfw]. rewrite Ei in Hiw, Hfw. destruct Hiw as (Hnd & _ & Hbw). destruct Hfw as [_ Hbf].
      assert (Hdu := deleg_unit i b). rewrite Ei in Hdu. specialize (Hdu (or_intror eq_refl)).
      destruct (body_same b vs Hbw Hbf HF HT Hc Hu Hdu) as (l & Hl1 & Hl2).
      apply simple_same; try reflexivity; [|cbn [plain]; now rewrite Ei].
      apply (ElCatch e ign e _ _ d l i vars b vs); auto; [now apply (VoCatch e i vars b)|now apply variant_out].
  Qed.
End Refl.

Theorem unchanged e ign v t : env_wf e -> ign = true \/ no_unit_body e t -> has_type e v t -> shape_wf t -> becomes e ign e v t t v.
Proof.
  intros Hwf Hu Hty Hs.
  assert (Hun : ign = true \/ forall i b nm t', match e i with IStruct b0 => b = b0 | IEnum vars catch => In b (map snd vars) \/ catch = Some b end ->
    vb_special b = SpDeleg nm t' -> unit_like t' = false) by (destruct Hu as [H|[_ H]]; [now left|right; exact H]).
  destruct (all_same e ign Hwf Hun v t Hty Hs) as (_ & _ & Hw). destruct Hw as (l & H1 & H2); [|now apply (Becomes e ign e v t t v l)].
  destruct Hu as [H|[H _]]; auto.
Qed.
