(** * P_CompatApi: compatible changes at the API, one change at a time *)

From Verif Require Import Base Wire Dev Stream Types Ser Prog De SpecWire SpecFormat SpecStream SpecWrite SpecDe SpecDoc SpecSerDe SpecRead SpecCompat
  P_Base P_Read P_Types P_RT P_SerDe P_Means P_Meaning P_Order P_Card P_Compat P_CompatTy P_Changes SpecChange.

Theorem old_data eo en (zc ign : bool) v t t' w dw : env_wf eo -> env_wf en -> deserialisable en zc t' ->
  has_type eo v t -> shape_wf t -> size_of eo t v <= U64_MAX -> becomes en ign eo v t t' w ->
  exists bs x, to_vec eo dw t v = ROk bs /\
    forall cf tl dbg sk sched, cf_ignore cf = ign -> cf_collect cf <= U64_MAX -> cf_blob cf <= U64_MAX ->
      bytes_ok tl -> lenN (bs ++ tl) + 3 < U64_MAX -> Forall (fun y => y <> EvFail) sched ->
      (fits cf x -> fst (from_stream en zc cf t' (new_stream dbg sk (mkDev (bs ++ tl) 0 sched))) = ROk w) /\
      (~ fits cf x -> exists err, fst (from_stream en zc cf t' (new_stream dbg sk (mkDev (bs ++ tl) 0 sched))) = RErr err /\ exceeds cf x (e_kind err)).
Proof.
  intros Hwo Hwn Hd Hty Hs Hsz Hb. destruct (becomes_denotes en ign eo v t t' w zc Hwn Hd Hb) as (x & Hx).
  destruct (bytes_of_ok eo Hwo t v Hty Hs Hsz) as (Henc & Hok & _).
  exists (bytes_of eo t v), x. split; [apply to_vec_ok; auto; now split|].
  intros cf tl dbg sk sched Hi Hc Hbl Htl Hlen Hsch. subst ign.
  assert (Hu : usable en zc cf t') by (split; [now apply env_wf_ok|auto]).
  assert (Hst : doc_stream (x_body (doc eo v t)) (new_stream dbg sk (mkDev (bytes_of eo t v ++ tl) 0 sched))).
  { constructor; auto. apply bytes_ok_app. now split. }
  split; intros Hf.
  - apply (meaning_ok en zc cf t' _ _ w Hu Hst). now exists x.
  - exact (meaning_limit en zc cf t' _ _ w x Hu Hst Hx Hf).
Qed.

(** ** One change *)
Section One.
  Variables (e : env) (ign : bool).
  Hypothesis Hwf : env_wf e.
  Hypothesis Hun : ign = true \/ forall i b nm t', match e i with
                                                   | IStruct b0 => b = b0
                                                   | IEnum vars catch => In b (map snd vars) \/ catch = Some b
                                                   end -> vb_special b = SpDeleg nm t' -> unit_like t' = false.
  Definition field_to (v : value) (t t' : ty) (w : value) : Prop := exists us, elems e ign e (items v t) (each t') us /\ gather t' us w.

  Lemma unk_none t v : unknown_like t = false -> has_type e v t -> shape_wf t -> field_to v t t v.
  Proof. intros Hu Hty Hs. destruct (all_same e ign Hwf Hun v t Hty Hs) as (_ & (us & H1 & H2) & _). exists us. auto. Qed.
  Lemma same_elem v t : has_type e v t -> shape_wf t -> elem e ign e v t t v.
  Proof. intros Hty Hs. now destruct (all_same e ign Hwf Hun v t Hty Hs) as (H & _ & _). Qed.
  Lemma same_elems t vs : Forall (fun v => has_type e v t) vs -> shape_wf t -> elems e ign e (map (fun x => (x, t)) vs) t vs.
  Proof. intros HF Hs. apply elems_same. refine (Forall_impl _ _ HF). intros v H. now apply same_elem. Qed.
  Lemma single_one t v : single t = true -> items v t = [(v, t)].
  Proof. destruct t; intros H; try discriminate H; destruct v; reflexivity. Qed.
  Lemma single_elems t v : single t = true -> has_type e v t -> shape_wf t -> elems e ign e (items v t) t [v].
  Proof. intros H Hty Hs. rewrite (single_one t v H). repeat constructor. now apply same_elem. Qed.
  Lemma blob_items t v bs : blob_of v t bs -> items v t = [(v, t)].
  Proof.
    intros H. unfold items. inversion H as [? ? Ht|? ? Ht|]; subst.
    - destruct Ht as [->|[->| ->]]; reflexivity.
    - destruct Ht as [->|[->|(u & -> & _)]]; reflexivity.
    - reflexivity.
  Qed.
  Lemma blob_field t v bs t' w : blob_of v t bs -> blob_as bs t' w -> is_str t' \/ is_bytes t' -> field_to v t t' w.
  Proof.
    intros H1 H2 H3. exists [w]. rewrite (blob_items t v bs H1).
    assert (E : each t' = t' /\ t' <> TUnknown).
    { destruct H3 as [[->|[->| ->]]|[->|[->|(u & -> & Hu)]]]; cbn [each]; rewrite ?Hu; split; congruence. }
    destruct E as [E1 E2]. rewrite E1. split; [repeat constructor; now apply (ElBlob e ign e v t bs)|now constructor].
  Qed.

  Lemma change_field t t' v w : change t t' v w -> has_type e v t -> shape_wf t -> unknown_like t = false -> field_to v t t' w.
  Proof.
    intros Hch Hty Hs Hu. destruct Hch.
    - exists [VU n]. split; [|now constructor]. cbn [items many each]. repeat constructor. inversion Hty as [? ? Hn| | | | |? ? X|? ? X| | | | | | | | | | | | | | | |]; subst; not_str.
      unfold umax in *. pose proof (N.pow_le_mono_r 2 w w' ltac:(lia) H). lia.
    - exists [VS z]. split; [|now constructor]. cbn [items many each]. apply EsCons; [|constructor]. apply ElSInt; [assumption|]. inversion Hty as [|? ? Hn| | | |? ? X|? ? X| | | | | | | | | | | | | | | |]; subst; not_str.
      unfold smin, smax in *. assert (Hp : (2 ^ (Z.of_N w - 1) <= 2 ^ (Z.of_N w' - 1))%Z) by (apply Z.pow_le_mono_r; lia). lia.
    - exists [v]. split; [now apply single_elems|constructor].
    - exists [v]. split; [cbn [each]; rewrite H0; now apply single_elems|now constructor].
    - exists [v]. split; [now apply single_elems|now constructor].
    - exists [v]. split; [now apply single_elems|]. change (VList [v]) with (as_set [v]). constructor.
    - exists (opt_list o). split; [|now constructor]. cbn [each]. rewrite H. inversion Hty; subst; not_str; [constructor|]. repeat constructor. now apply same_elem.
    - exists (opt_list o). split; [|now constructor]. cbn [each]. inversion Hty; subst; not_str; [constructor|]. repeat constructor. now apply same_elem.
    - exists (opt_list o). split; [|]. { cbn [each]. inversion Hty; subst; not_str; [constructor|]. repeat constructor. now apply same_elem. }
      destruct o; [change (VList (opt_list (Some v))) with (as_set [v])|change (VList (opt_list None)) with (as_set [])]; constructor.
    - exists vs. split; [|now constructor]. cbn [each]. rewrite H. inversion Hty; subst; not_str. now apply same_elems.
    - exists vs. split; [|now constructor]. cbn [each]. inversion Hty; subst; not_str. now apply same_elems.
    - apply (blob_field _ _ bs); [now constructor|now constructor|auto].
    - exists vs. split; [|now constructor]. cbn [each]. inversion Hty; subst; not_str. now apply same_elems.
    - exists vs. split; [|now constructor]. cbn [each]. rewrite H. inversion Hty; subst; not_str. now apply same_elems.
    - exists vs. split; [|now constructor]. cbn [each]. inversion Hty; subst; not_str. now apply same_elems.
    - exists vs. split; [|now constructor]. cbn [each]. inversion Hty; subst; not_str. now apply same_elems.
    - exists (map (fun p => VRec [fst p; snd p]) kvs). split; [|now constructor]. cbn [each items many].
      inversion Hty as [| | | | |? ? X|? ? X| | | | | | | |? ? ? Hk Hv _| | | | | | | |]; subst; not_str.
      rewrite <- (map_map (fun p => VRec [fst p; snd p]) (fun x => (x, TTuple [k; v]))). apply same_elems.
      + apply Lists.List.Forall_map. apply Forall_forall. intros p Hp. constructor. repeat constructor; [exact (proj1 (Forall_forall _ _) Hk p Hp)|exact (proj1 (Forall_forall _ _) Hv p Hp)].
      + destruct Hs as [[A1 A2] [A3 A4]]. repeat split; auto. vm_compute. discriminate.
    - exists (map (fun p => VRec [fst p; snd p]) kvs). split; [|now constructor]. cbn [each items many]. inversion Hty; subst; not_str. now apply same_elems.
    - apply (blob_field _ _ bs); [now constructor|now constructor|auto].
    - apply (blob_field _ _ bs); [now constructor|constructor; auto|auto]. inversion Hty; subst; auto; not_str.
    - apply (blob_field _ _ bs); [now constructor|now constructor|auto].
    - destruct (unk_none t v Hu Hty Hs) as (us & H1 & H2). exists us. split; [exact H1|now constructor].
    - cbn [unknown_like shape_wf] in *. inversion Hty; subst; not_str. destruct (unk_none t v Hu ltac:(assumption) Hs) as (us & P1 & P2). exists us. split; [|exact P2].
      unfold items in *. cbn [many]. destruct (many v t); [exact P1|]. inversion P1 as [|? ? ? ? ? ? ? K1 K2]; subst. constructor; [now apply ElBoxOld|exact K2].
    - now apply unk_none.
  Qed.

  Lemma absent_field t w : absent t w -> gather t [] w.
  Proof. intros H. destruct H; [now apply GaVec|apply GaSeq|exact (GaSet t [])|apply GaNone|exact (GaMap k v [])]. Qed.
  Lemma named_typed fs : forall vs, Forall2 (has_type e) vs (map fd_ty fs) -> forall tag v t, In (tag, (v, t)) (named fs vs) ->
    has_type e v t /\ exists f, In f fs /\ fd_ty f = t.
  Proof.
    induction fs as [|f fs IH]; intros vs HF tag v t Hi; [destruct Hi|]. inversion HF as [|v0 ? vs0 ? H1 H2]; subst. destruct Hi as [Hi|Hi].
    - injection Hi as _ <- <-. split; [exact H1|]. exists f. split; [now left|reflexivity].
    - destruct (IH vs0 H2 tag v t Hi) as (K1 & g & K2 & K3). split; [exact K1|]. exists g. split; [now right|exact K3].
  Qed.
  Lemma updated_record fs vs fs' ws : updated (named fs vs) fs' ws -> Forall2 (has_type e) vs (map fd_ty fs) -> NoDup (map fd_tag fs) ->
    Forall (fun f => shape_wf (fd_ty f) /\ unknown_like (fd_ty f) = false) fs -> record e ign e (named fs vs) (declared fs') ws.
  Proof.
    intros Hu HF Hnd Hwfs. pose proof (Forall2_len _ _ _ HF) as Hl. rewrite map_length in Hl. induction Hu as [|f v t w fs0 ws0 Hi Hch Hu IH|f w fs0 ws0 Hni Hab Hu IH]; cbn [declared map].
    - constructor.
    - destruct (named_typed fs vs HF _ _ _ Hi) as (Hty & g & Hg & <-). destruct (proj1 (Forall_forall _ _) Hwfs g Hg) as [Hs Hul].
      destruct (change_field _ _ _ _ Hch Hty Hs Hul) as (us & H1 & H2). apply (ReCons e ign e _ (fd_tag f) (fd_ty f) _ us w ws0); auto.
      rewrite (occs_one _ _ v (fd_ty g)); auto. now rewrite named_tags.
    - apply (ReCons e ign e _ (fd_tag f) (fd_ty f) _ [] w ws0); auto; [rewrite occs_none by exact Hni; constructor|now apply absent_field].
  Qed.

  Lemma struct_typed i b vs : e i = IStruct b -> has_type e (VRec vs) (TItem i) -> Forall2 (has_type e) vs (body_types b).
  Proof. intros Ei H. inversion H; subst; not_str. congruence. Qed.
  Lemma struct_updated i j b b' vs ws : e i = IStruct b -> e j = IStruct b' -> vb_special b = SpNone -> vb_special b' = SpNone ->
    has_type e (VRec vs) (TItem i) -> updated (named (vb_fields b) vs) (vb_fields b') ws -> vb_check b' ws = true ->
    ign = true \/ incl (tags_of b) (tags_of b') -> becomes e ign e (VRec vs) (TItem i) (TItem j) (VRec ws).
  Proof.
    intros Ei Ej Es Es' Hty Hu Hck Hl. pose proof (Hwf i) as [Hiw Hfw]. rewrite Ei in Hiw, Hfw. destruct Hiw as (Hnd & _). destruct Hfw as [Hff _].
    pose proof (struct_typed i b vs Ei Hty) as HF. unfold body_types in HF. rewrite Es in HF. cbn [sp_types] in HF. rewrite app_nil_r in HF.
    pose proof (Forall2_len _ _ _ HF) as Hlen. rewrite map_length in Hlen.
    apply (Becomes e ign e _ _ _ _ (named (vb_fields b) vs)).
    - apply (WhStruct e i b); [exact Ei|]. constructor; auto. refine (Forall_impl _ _ Hff). intros f [_ H]. exact H.
    - apply (ToStruct e ign e _ j b'); [exact Ej|]. apply IbFields; auto; [now apply updated_record|].
      destruct Hl as [Hl|Hl]; [now left|right]. apply undeclared_all. intros tag n Hi. apply nodes_tags in Hi. rewrite named_tags in Hi by auto. rewrite declared_tags. now apply Hl.
  Qed.
  (** Deleted fields are kept by a [(?)] field. *)
  Lemma struct_updated_kept i j b b' nm t vs ws : e i = IStruct b -> e j = IStruct b' -> vb_special b = SpNone -> vb_special b' = SpUnknown nm t ->
    has_type e (VRec vs) (TItem i) -> updated (named (vb_fields b) vs) (vb_fields b') ws ->
    let us := undeclared (tags_of b') (x_body (doc e (VRec vs) (TItem i))) in vb_check b' (ws ++ [VUnk us]) = true ->
    becomes e ign e (VRec vs) (TItem i) (TItem j) (VRec (ws ++ [VUnk us])).
  Proof.
    intros Ei Ej Es Es' Hty Hu us Hck. pose proof (Hwf i) as [Hiw Hfw]. rewrite Ei in Hiw, Hfw. destruct Hiw as (Hnd & _). destruct Hfw as [Hff _].
    pose proof (Hwf j) as [Hjw _]. rewrite Ej in Hjw. destruct Hjw as (_ & _ & Hjw). rewrite Es' in Hjw.
    pose proof (struct_typed i b vs Ei Hty) as HF. unfold body_types in HF. rewrite Es in HF. cbn [sp_types] in HF. rewrite app_nil_r in HF.
    pose proof (Forall2_len _ _ _ HF) as Hlen. rewrite map_length in Hlen.
    assert (Hpc : pieces e b vs (named (vb_fields b) vs)). { constructor; auto. refine (Forall_impl _ _ Hff). intros f [_ H]. exact H. }
    assert (Hwh : whole e (VRec vs) (TItem i) (named (vb_fields b) vs)) by now apply (WhStruct e i b).
    assert (Hus : us = undeclared (tags_of b') (nodes e (named (vb_fields b) vs))) by (unfold us; now rewrite (whole_doc e _ _ _ Hwh)).
    apply (Becomes e ign e _ _ _ _ (named (vb_fields b) vs)); [exact Hwh|]. clearbody us. subst us.
    apply (ToStruct e ign e _ j b'); [exact Ej|]. apply (IbKeep e ign e _ b' nm t); auto. now apply updated_record.
  Qed.
  (** A variant that is still there. *)
  Lemma variant_updated i j vars catch vars' catch' ix d b ix' vs : e i = IEnum vars catch -> e j = IEnum vars' catch' ->
    nth_error vars ix = Some (d, b) -> nth_error vars' ix' = Some (d, b) -> has_type e (VVar ix (VRec vs)) (TItem i) ->
    becomes e ign e (VVar ix (VRec vs)) (TItem i) (TItem j) (VVar ix' (VRec vs)).
  Proof.
    intros Ei Ej Hn Hn' Hty. pose proof (Hwf j) as [Hjw _]. rewrite Ej in Hjw. destruct Hjw as (Hnd' & _ & _).
    destruct (all_same e ign Hwf Hun _ _ Hty Logic.I) as (He & _ & _).
    inversion He as [| | | | |? ? ? ? ? ? Hb|? ? ? ? ? ? Hb|? ? ? d0 l i0 vars0 catch0 ix0 b0 ws0 Hvo Ei0 Hv0 Hib| |? ? ? ? ? ? ? ? Ei0|? ? ? ? ? ? ? ? Ei0| | | | | |]; subst.
    - inversion Hb; subst; not_str.
    - inversion Hb as [? ? Hm| | |]; subst. now cbn in Hm.
    - inversion Hvo as [? vars1 catch1 ? d1 b1 ? l1 Ei1 Hn1 Hp1|]; subst. rewrite Ei in Ei1, Ei0. injection Ei1 as <- <-. injection Ei0 as <- <-. rewrite Hn in Hn1. injection Hn1 as <- <-.
      pose proof (Hwf i) as [Hiw _]. rewrite Ei in Hiw. destruct Hiw as (Hnd & _ & _). rewrite (variant_nth d b vars Hnd ix Hn) in Hv0. injection Hv0 as <-.
      apply (Becomes e ign e _ _ _ _ [(1, (VVar ix (VRec vs), TItem i))]); [apply WhOne; cbn; now rewrite Ei|].
      apply ToPlain; [cbn; now rewrite Ej| |].
      + apply (ReCons e ign e _ 1 (TItem j) [] [VVar ix' (VRec vs)] _ []); [|now constructor|constructor].
        cbn [each]. change (occs 1 [(1, (VVar ix (VRec vs), TItem i))]) with [(VVar ix (VRec vs), TItem i)]. apply EsCons; [|constructor].
        apply (ElVariant e ign e _ _ d l j vars' catch' ix' b vs); auto. now apply variant_nth.
      + right. apply undeclared_all. intros tag n Hi. apply nodes_tags in Hi. exact Hi.
  Qed.
End One.

Theorem one_reading eo en ign v t t' w w' : env_wf en -> deserialisable en false t' -> becomes en ign eo v t t' w -> becomes en ign eo v t t' w' -> w = w'.
Proof.
  intros Hwn Hd H1 H2. destruct (becomes_denotes en ign eo v t t' w false Hwn Hd H1) as (x & Hx). destruct (becomes_denotes en ign eo v t t' w' false Hwn Hd H2) as (y & Hy).
  exact (proj1 (denotes_fun _ _ _ _ _ _ _ _ _ Hx Hy)).
Qed.
Theorem compatible_data eo en (zc ign : bool) J v t t' dw : env_wf eo -> env_wf en -> compatible eo en ign J -> top eo en ign J t t' ->
  deserialisable en zc t' -> has_type eo v t -> shape_wf t -> size_of eo t v <= U64_MAX ->
  exists w bs x, becomes en ign eo v t t' w /\ to_vec eo dw t v = ROk bs /\
    forall cf tl dbg sk sched, cf_ignore cf = ign -> cf_collect cf <= U64_MAX -> cf_blob cf <= U64_MAX ->
      bytes_ok tl -> lenN (bs ++ tl) + 3 < U64_MAX -> Forall (fun y => y <> EvFail) sched ->
      (fits cf x -> fst (from_stream en zc cf t' (new_stream dbg sk (mkDev (bs ++ tl) 0 sched))) = ROk w) /\
      (~ fits cf x -> exists err, fst (from_stream en zc cf t' (new_stream dbg sk (mkDev (bs ++ tl) 0 sched))) = RErr err /\ exceeds cf x (e_kind err)).
Proof.
  intros Hwo Hwn Hc Ht Hd Hty Hs Hsz. destruct (compatible_reads eo en ign J v t t' Hwo Hwn Hc Ht Hty Hs) as (w & Hw).
  destruct (old_data eo en zc ign v t t' w dw Hwo Hwn Hd Hty Hs Hsz Hw) as (bs & x & H1 & H2). exists w, bs, x. auto.
Qed.
Lemma units_of e ign t : ign = true \/ no_unit_body e t -> ign = true \/ forall i b nm t', match e i with
    | IStruct b0 => b = b0 | IEnum vars catch => In b (map snd vars) \/ catch = Some b end -> vb_special b = SpDeleg nm t' -> unit_like t' = false.
Proof. intros [H|[_ H]]; [now left|right; exact H]. Qed.
