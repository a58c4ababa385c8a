(** * P_DocOk: the document of a value is well formed *)

From Verif Require Import Base Wire Stream Dev SpecWire SpecFormat SpecStream SpecWrite Types Ser SpecDe SpecDoc P_Base P_Wire P_Types P_Misc P_DictAll P_RT.

Section D.
  Variable e : env.
  Hypothesis Hwf : env_wf e.

  Definition docs_ok (d : docs) : Prop :=
    nodes_ok (x_body d) /\ (forall tag, tag_ok tag -> nodes_ok (x_field d tag)) /\ node_ok (x_elem d).
  Definition okd (v : value) (t : ty) : Prop := shape_wf t -> docs_ok (doc e v t).

  Lemma tag_small n : 1 <= n <= 63 -> tag_ok n.
  Proof. unfold tag_ok. lia. Qed.
  Lemma tag_one : tag_ok 1.
  Proof. apply tag_small. lia. Qed.
  Lemma ok_single n : node_ok n -> docs_ok (doc_single n).
  Proof.
    intros H. split; [constructor; [split; [apply tag_one|exact H]|constructor]|]. split; [|exact H].
    intros tag Ht. constructor; [split; [exact Ht|exact H]|constructor].
  Qed.
  Lemma ok_tags ns tag : tag_ok tag -> Forall node_ok ns -> nodes_ok (map (fun n => (tag, n)) ns).
  Proof. intros Ht H. unfold nodes_ok. apply Forall_forall. intros x Hx. apply in_map_iff in Hx. destruct Hx as (n & <- & Hn). split; [exact Ht|]. rewrite Forall_forall in H. now apply H. Qed.
  Lemma ok_coll ns : Forall node_ok ns -> docs_ok (doc_coll ns).
  Proof.
    intros H. split; [apply ok_tags; auto using tag_one|]. split; [intros tag Ht; apply ok_tags; auto|].
    cbn [doc_coll x_elem node_ok]. apply nodes_ok_fold, ok_tags; auto using tag_one.
  Qed.
  Lemma ok_struct fs : nodes_ok fs -> docs_ok (doc_struct fs).
  Proof.
    intros H. assert (Hn : node_ok (NStruct fs)) by (cbn; now apply nodes_ok_fold).
    split; [exact H|]. split; [|exact Hn]. intros tag Ht. constructor; [split; [exact Ht|assumption]|constructor].
  Qed.
  Lemma ok_items t vs : shape_wf t -> Forall (fun v => okd v t) vs -> Forall node_ok (map (fun x => x_elem (doc e x t)) vs).
  Proof. intros Hs H. induction H as [|v vs Hv Hvs IH]; cbn [map]; constructor; auto. apply (Hv Hs). Qed.

  Lemma ok_tuple vs ts : Forall2 okd vs ts -> Forall (fun t => shape_wf t /\ unknown_like t = false) ts -> forall i,
    1 <= i -> i + lenN ts <= 64 -> nodes_ok (doc_tuple i (zipw (fun x t => doc e x t) vs ts)).
  Proof.
    intros H. induction H as [|v t vs ts Hv Hvs IH]; intros Hs i Hi Hl; [constructor|].
    inversion Hs as [|? ? [Hs1 _] Hs2]; subst. rewrite lenN_cons in Hl. cbn [zipw doc_tuple]. apply Forall_app. split.
    - apply (Hv Hs1). apply tag_small. lia.
    - apply IH; auto; lia.
  Qed.
  Lemma ok_record b vs : vbody_wf b -> fields_wf b -> Forall2 okd vs (body_types b) ->
    nodes_ok (doc_record b (zipw (fun x t => doc e x t) vs (body_types b))).
  Proof.
    intros (_ & Ht & _) (Hf & Hsp) H. unfold doc_record, body_types in *.
    assert (H12 : Forall (fun p => tag_ok (fd_tag p)) (vb_fields b)) by exact Ht.
    apply Forall_app. revert vs H. induction (vb_fields b) as [|f fs IH]; intros vs H; cbn [map app List.length skipn] in *.
    - split; [destruct (zipw _ _ _); constructor|].
      destruct (vb_special b) as [|nm t|nm t]; cbn [sp_types] in H.
      + inversion H; subst. constructor.
      + inversion H as [|v ? ? ? Hv Hvs]; subst. inversion Hvs; subst. cbn. rewrite app_nil_r. apply (Hv Hsp).
      + inversion H as [|v ? ? ? Hv Hvs]; subst. inversion Hvs; subst. cbn. rewrite app_nil_r. apply (Hv Hsp).
    - inversion H as [|v ? ? ? Hv Hvs]; subst. inversion Ht; subst. inversion Hf as [|? ? [Hf1 _] Hf2]; subst.
      specialize (IH ltac:(assumption) Hf2 ltac:(assumption) _ Hvs). destruct IH as [I1 I2]. split; [|exact I2].
      cbn [zipw doc_fields]. apply Forall_app. split; [apply (Hv Hf1); assumption|exact I1].
  Qed.

  Theorem doc_ok {ordered} : forall v t, typed_by ordered e v t -> okd v t.
  Proof.
    apply (has_type_ind2 ordered e okd).
    - intros w n Hn Hs. apply ok_single. cbn. cbn in Hs. unfold umax, width_ok in *. destruct Hs as [-> |[-> |[-> | ->]]]; cbn in Hn; lia.
    - intros w z Hz Hs. apply ok_single. cbn [node_ok]. cbn in Hs. 
      assert (Hz64 : i64_ok z) by (unfold i64_ok, smin, smax, width_ok in *; destruct Hs as [-> |[-> |[-> | ->]]]; cbn in Hz; lia).
      rewrite <- zz_zigzag by exact Hz64. now apply zigzag_range.
    - intros b Hs. apply ok_single. cbn. destruct b; reflexivity.
    - intros c Hc Hs. apply ok_single. cbn. unfold char_ok in Hc. lia.
    - intros Hs. apply ok_single. reflexivity.
    - intros t bs [-> |[-> | ->]] Hb Hu Hs; apply ok_single; exact Hb.
    - intros t bs [-> |[-> |(t' & -> & Hu)]] Hb Hs; apply ok_single; exact Hb.
    - intros n t bs Hu Hb Hl Hs. apply ok_single; exact Hb.
    - intros n t vs Hu Hl Hty H Hs. apply ok_coll, ok_items; auto.
    - intros t vs Hu Hty H Hs. apply ok_coll, ok_items; auto.
    - intros t vs Hty H Hs. apply ok_coll, ok_items; auto.
    - intros t vs Hty H Hnd Hs. apply ok_coll, ok_items; auto.
    - intros t Hs. apply (ok_coll []). constructor.
    - intros t v Hty H Hs. apply (ok_coll [_]). constructor; [apply (H Hs)|constructor].
    - intros tk tv kvs Hty1 Hty2 H1 H2 Hnd [[Hsk _] [Hsv _]]. apply ok_coll. clear Hnd Hty1 Hty2.
      induction kvs as [|[k v] kvs IH]; [constructor|]. inversion H1; subst. inversion H2; subst. constructor; [|now apply IH].
      cbn [node_ok fst snd]. apply nodes_ok_fold. apply Forall_app. split.
      + destruct (H3 Hsk) as (_ & Hk & _). apply Hk, tag_one.
      + destruct (H5 Hsv) as (_ & Hv & _). apply Hv, tag_small. lia.
    - intros ts vs Hty H [Hl Hs]. apply shape_tuple in Hs. destruct vs as [|v vs].
      + apply ok_single. exact Logic.I.
      + apply ok_struct, ok_tuple; auto; lia.
    - intros t v Hty H Hs. unfold okd in *. rewrite doc_box. apply H, Hs.
    - intros t v Hty H Hs. unfold okd in *. rewrite doc_copied. apply H, Hs.
    - intros fs Hok Hs. cbn [doc]. split; [exact Hok|]. split; [auto|]. cbn. now apply nodes_ok_fold.
    - intros n Hok Hs. apply ok_single. exact Hok.
    - intros i b vs Ei Hty H Hck Hunk Hs. pose proof (Hwf i) as [Hiw Hfw]. rewrite Ei in Hiw, Hfw.
      pose proof (ok_record b vs Hiw Hfw H) as Hr. cbn [doc]. rewrite Ei.
      destruct (vb_special b) as [|nm t'|nm t'] eqn:Eb; try (now apply ok_struct).
      destruct Hiw as (_ & _ & Hfs). rewrite Eb in Hfs. destruct Hfw as [_ Hspw]. rewrite Eb in Hspw.
      assert (Hbt : body_types b = [t']) by (unfold body_types; rewrite Eb, Hfs; reflexivity).
      rewrite Hbt in *. inversion H as [|v ? ? ? Hv Hvs]; subst. inversion Hvs; subst. clear Hvs. cbn [zipw].
      destruct (Hv Hspw) as (Hb & Hf & He). split; [exact Hb|]. split; [|exact He]. intros tag Ht. constructor; [split; [exact Ht|assumption]|constructor].
    - intros i vars catch ix d b vs Ei Hix Hty H Hck Hunk Hs. pose proof (Hwf i) as [Hiw Hfw]. rewrite Ei in Hiw, Hfw.
      destruct Hiw as (_ & Hvw & _). destruct Hfw as [Hvf _]. rewrite Forall_forall in Hvw, Hvf. pose proof (nth_error_In _ _ Hix) as Hin.
      pose proof (ok_record b vs (proj2 (Hvw _ Hin)) (Hvf _ Hin) H) as Hr.
      assert (Hdc : doc e (VVar ix (VRec vs)) (TItem i) = doc_single (NEnum d (doc_record b (zipw (fun x t => doc e x t) vs (body_types b))))) by (cbn [doc]; rewrite Ei, Hix; destruct catch; reflexivity).
      rewrite Hdc. apply ok_single. cbn. split; [apply (Hvw _ Hin)|now apply nodes_ok_fold].
    - intros i vars d b vs Ei Hd64 Hout Hty H Hck Hunk Hs. pose proof (Hwf i) as [Hiw Hfw]. rewrite Ei in Hiw, Hfw.
      destruct Hiw as (_ & _ & Hcw). destruct Hfw as [_ Hcf].
      pose proof (ok_record b vs Hcw Hcf H) as Hr.
      assert (Hdc : doc e (VCatch d (VRec vs)) (TItem i) = doc_single (NEnum d (doc_record b (zipw (fun x t => doc e x t) vs (body_types b))))) by (cbn [doc]; rewrite Ei; reflexivity).
      rewrite Hdc. apply ok_single. cbn. split; [exact Hd64|now apply nodes_ok_fold].
  Qed.
End D.
