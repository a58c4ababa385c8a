(** * P_Keep: what is kept of documents and variants that a type does not
    know (C31, C41) *)

From Verif Require Import Base Wire Dev Stream SpecWire SpecFormat SpecStream SpecWrite Types Ser SpecDe SpecDoc SpecSerDe SpecRead
  P_Base P_Types P_Prog De Prog Tree P_Tree P_TreeRun P_Canon P_SerDe P_Meaning.
Strategy 1000 [s_decode_u64 decode_u64 decode_loop write_all read_exact encode_u64 enc_loop encode_fixed_u64 mloop miter].

(** ** Whatever can be encoded is well-formed *)
Lemma flat_node_ok n : forall tag, Forall delem_ok (flat_node tag n) -> tag_ok tag /\ node_ok n.
Proof.
  induction n as [x|b|fs IH|d fs IH] using node_ind'; intros tag H; cbn [flat_node node_ok] in *; inversion H as [|? ? H1 H2]; subst; cbn in H1.
  - exact H1.
  - exact H1.
  - split; [tauto|]. apply Forall_app in H2. destruct H2 as [H2 _]. clear H H1. induction IH as [|[t m] fs Hm HF IHf]; cbn [flat_map fold_right fst snd] in *; [exact Logic.I|].
    apply Forall_app in H2. destruct H2 as [H2 H3]. split; [exact (Hm _ H2)|exact (IHf H3)].
  - split; [tauto|]. split; [tauto|]. apply Forall_app in H2. destruct H2 as [H2 _]. clear H H1. induction IH as [|[t m] fs Hm HF IHf]; cbn [flat_map fold_right fst snd] in *; [exact Logic.I|].
    apply Forall_app in H2. destruct H2 as [H2 H3]. split; [exact (Hm _ H2)|exact (IHf H3)].
Qed.
Lemma encodes_nodes ks bs : encodes_doc ks bs -> nodes_ok ks.
Proof.
  intros (b & H & _). pose proof (encodes_ok _ _ H) as Hf. clear H. unfold flat in Hf. induction ks as [|[t n] ks IH]; [constructor|].
  cbn [flat_map fst snd] in Hf. apply Forall_app in Hf. destruct Hf as [H1 H2]. constructor; [|exact (IH H2)]. cbn [fst snd].
  apply flat_node_ok. eapply Forall_impl; [|exact H1]. intros a [Ha _]. exact Ha.
Qed.

(** [UnknownFields] refers to no other definitions. *)
Definition no_env : env := fun _ => IEnum [] None.
Lemma no_env_wf : env_wf no_env.
Proof. intros i. repeat split; constructor. Qed.

Lemma no_env_from e zc cf s : from_stream e zc cf TUnknown s = from_stream no_env zc cf TUnknown s.
Proof. unfold from_stream. replace (full_dict e (S (N.to_nat (cf_rec cf))) zc TUnknown) with (full_dict no_env (S (N.to_nat (cf_rec cf))) zc TUnknown); reflexivity. Qed.
Lemma no_env_to e dw v : to_vec e dw TUnknown v = to_vec no_env dw TUnknown v.
Proof. unfold to_vec, to_writer, to_stream. replace (ser e v TUnknown) with (ser no_env v TUnknown); [reflexivity|]. destruct v; reflexivity. Qed.

Section Unknown.
  Variables (e : env) (zc : bool) (cf : cfg) (ks : list (N * node)).
  Theorem unknown_kept bs tl dbg sk sched dw : cf_collect cf <= U64_MAX -> cf_blob cf <= U64_MAX ->
    up (map (fun f => node_need (snd f)) ks) <= cf_rec cf -> nodes_count ks <= cf_collect cf -> (if zc then 0 else nodes_bytes ks) <= cf_blob cf ->
    encodes_doc ks bs -> bytes_ok (bs ++ tl) -> lenN (bs ++ tl) + 3 < U64_MAX -> Forall (fun x => x <> EvFail) sched ->
    size_bound (document ks) <= U64_MAX ->
    fst (from_stream e zc cf TUnknown (new_stream dbg sk (mkDev (bs ++ tl) 0 sched))) = ROk (VUnk ks) /\
    exists out, to_vec e dw TUnknown (VUnk ks) = ROk out /\ shortest (document ks) out /\ (shortest (document ks) bs -> out = bs).
  Proof.
    intros Hc Hb H1 H2 H3 Henc Hok Hlen Hs Hsz. pose proof (encodes_nodes _ _ Henc) as Hn. pose proof no_env_wf as Hwf. rewrite no_env_from.
    assert (Hty : has_type no_env (VUnk ks) TUnknown) by now constructor.
    assert (Hd : deserialisable no_env zc TUnknown) by (intros Hx; inversion Hx).
    split.
    - assert (Hst : doc_stream ks (new_stream dbg sk (mkDev (bs ++ tl) 0 sched))) by now constructor.
      assert (Hu : usable no_env zc cf TUnknown) by (split; [now apply env_wf_ok|]; auto).
      pose proof (stream_tree no_env zc cf TUnknown ks _ Hu Hst) as H.
      assert (Hr : read_tree cf no_env zc TUnknown (x_body (doc no_env (VUnk ks) TUnknown)) = (ROk (VUnk ks), mkC 0 (coll_count (VUnk ks)) (copied no_env (VUnk ks) zc TUnknown) [])).
      { apply read_tree_doc; auto; [exact Logic.I| |].
        - right. split; [reflexivity|]. intros i b nm t' [[]|Hx]; discriminate Hx.
        - split; [exact H1|]. split; [exact H2|exact H3]. }
      cbn [x_body doc] in Hr. rewrite Hr in H. exact H.
    - destruct (vec_shape no_env Hwf dw TUnknown (VUnk ks) Hty Logic.I Hsz) as (out & E & Hsh). exists out. rewrite no_env_to. split; [exact E|]. split; [exact Hsh|].
      intros Hbs. cbn [doc x_body] in Hsh. rewrite (shortest_unique _ _ Hbs). now apply shortest_unique.
  Qed.
End Unknown.

(** ** Enum variants *)
From Verif Require Import P_Means.
Lemma top_one ign conv n : m_top ign (m_once conv) [(1, n)] = rdeep (conv n).
Proof.
  unfold m_top, m_record. cbn [m_fields with_tag without_tag filter fst]. change (1 =? 1) with true. cbn [negb m_occ m_once].
  destruct (conv n) as [[v x]|]; [|reflexivity]. cbn. now rewrite !cadd_0_r.
Qed.
(** The document [fs] as the body of a struct declared like [b]. *)
Section Variants.
  Variables (e : env) (ign zc : bool) (i j : nat).
  Lemma denotes_struct b fs w y : e j = IStruct b ->
    denotes e ign zc (TItem j) fs w y <-> exists fuel, m_vbody ign (meaning_of ign (item_meaning ign e fuel) zc) b fs = Some (w, y).
  Proof.
    intros Ej. split.
    - intros ([|f] & H); [discriminate|]. unfold means in H. cbn [meaning_of item_meaning] in H. rewrite Ej in H. exists f. exact H.
    - intros (f & H). exists (S f). unfold means. cbn [meaning_of item_meaning]. rewrite Ej. exact H.
  Qed.
  Lemma denotes_enum vars catch d fs v x : e i = IEnum vars catch ->
    denotes e ign zc (TItem i) [(1, NEnum d fs)] v x <->
    exists fuel, rdeep (m_enum_elem ign (meaning_of ign (item_meaning ign e fuel) zc) vars catch (NEnum d fs)) = Some (v, x).
  Proof.
    intros Ei. split.
    - intros ([|f] & H); [discriminate|]. unfold means in H. cbn [meaning_of item_meaning] in H. rewrite Ei in H. cbn [m_simple m_body] in H.
      rewrite top_one in H. exists f. exact H.
    - intros (f & H). exists (S f). unfold means. cbn [meaning_of item_meaning]. rewrite Ei. cbn [m_simple m_body]. now rewrite top_one.
  Qed.
  Definition one_less (cf : cfg) : cfg := mkCfg (cf_rec cf - 1) (cf_ignore cf) (cf_blob cf) (cf_collect cf).
  Lemma fits_deep cf x : 1 <= cf_rec cf -> fits cf (cdeep x) <-> fits (one_less cf) x.
  Proof. intros H. unfold fits, one_less, cdeep. cbn. lia. Qed.
End Variants.

Section Enums.
  Variables (e : env) (zc : bool) (cf : cfg) (i j : nat) (vars : list (N * vbody)) (catch : option vbody) (b : vbody) (d : N) (fs : list (N * node)) (s s' : stream).
  Hypothesis Hu : usable e zc cf (TItem i).
  Hypothesis Hs : doc_stream [(1, NEnum d fs)] s.
  Hypothesis Ei : e i = IEnum vars catch.
  Hypothesis Hrec : 1 <= cf_rec cf.

  Lemma usable_struct : usable e zc cf (TItem j) -> usable e zc (one_less cf) (TItem j).
  Proof. intros (A & B & C & D). repeat split; auto. Qed.
  Theorem declared_variant ix v : e j = IStruct b -> usable e zc cf (TItem j) -> doc_stream fs s' ->
    variant d vars = Some (ix, b) ->
    fst (from_stream e zc cf (TItem i) s) = ROk v <->
    exists w, v = VVar ix w /\ fst (from_stream e zc (one_less cf) (TItem j) s') = ROk w.
  Proof.
    intros Ej Huj Hs' Hv. rewrite (meaning_ok e zc cf (TItem i) _ s v Hu Hs). split.
    - intros (x & Hd & Hf). apply (denotes_enum _ _ _ _ _ _ _ _ _ _ Ei) in Hd. destruct Hd as (f & H). cbn [m_enum_elem] in H. rewrite Hv in H.
      destruct (m_vbody _ _ b fs) as [[w y]|] eqn:E; [|discriminate]. cbn in H. rewrite cadd_0_r in H. injection H as <- <-. exists w. split; [reflexivity|].
      apply (meaning_ok e zc (one_less cf) (TItem j) fs s' w (usable_struct Huj) Hs'). exists y.
      split; [apply (denotes_struct e _ zc j b fs w y Ej); exists f; exact E|now apply fits_deep].
    - intros (w & -> & H). apply (meaning_ok e zc (one_less cf) (TItem j) fs s' w (usable_struct Huj) Hs') in H. destruct H as (y & Hd & Hf).
      apply (denotes_struct e _ zc j b fs w y Ej) in Hd. destruct Hd as (f & H). exists (cdeep y). split; [|now apply fits_deep].
      apply (denotes_enum _ _ _ _ _ _ _ _ _ _ Ei). exists f. cbn [m_enum_elem]. rewrite Hv. cbn [cf_ignore one_less] in H. rewrite H. cbn. now rewrite cadd_0_r.
  Qed.
  Theorem caught_variant v : catch = Some b -> e j = IStruct b -> usable e zc cf (TItem j) -> doc_stream fs s' ->
    variant d vars = None ->
    fst (from_stream e zc cf (TItem i) s) = ROk v <->
    exists w, v = VCatch d w /\ fst (from_stream e zc (one_less cf) (TItem j) s') = ROk w.
  Proof.
    intros -> Ej Huj Hs' Hv. rewrite (meaning_ok e zc cf (TItem i) _ s v Hu Hs). split.
    - intros (x & Hd & Hf). apply (denotes_enum _ _ _ _ _ _ _ _ _ _ Ei) in Hd. destruct Hd as (f & H). cbn [m_enum_elem] in H. rewrite Hv in H.
      destruct (m_vbody _ _ b fs) as [[w y]|] eqn:E; [|discriminate]. cbn in H. rewrite cadd_0_r in H. injection H as <- <-. exists w. split; [reflexivity|].
      apply (meaning_ok e zc (one_less cf) (TItem j) fs s' w (usable_struct Huj) Hs'). exists y.
      split; [apply (denotes_struct e _ zc j b fs w y Ej); exists f; exact E|now apply fits_deep].
    - intros (w & -> & H). apply (meaning_ok e zc (one_less cf) (TItem j) fs s' w (usable_struct Huj) Hs') in H. destruct H as (y & Hd & Hf).
      apply (denotes_struct e _ zc j b fs w y Ej) in Hd. destruct Hd as (f & H). exists (cdeep y). split; [|now apply fits_deep].
      apply (denotes_enum _ _ _ _ _ _ _ _ _ _ Ei). exists f. cbn [m_enum_elem]. rewrite Hv. cbn [cf_ignore one_less] in H. rewrite H. cbn. now rewrite cadd_0_r.
  Qed.
End Enums.

Section NoVariant.
  Variables (e : env) (zc : bool) (cf : cfg) (i : nat) (vars : list (N * vbody)) (d : N) (fs ks : list (N * node)) (s : stream).
  Theorem no_variant : usable e zc cf (TItem i) -> doc_stream ((1, NEnum d fs) :: ks) s -> 1 <= cf_rec cf ->
    e i = IEnum vars None -> variant d vars = None ->
    exists x, fst (from_stream e zc cf (TItem i) s) = RErr x /\ e_kind x = KUnknownVariant d.
  Proof.
    intros Hu Hs Hrec Ei Hv. pose proof (stream_tree e zc cf (TItem i) _ s Hu Hs) as H.
    assert (E : fst (read_tree cf e zc (TItem i) ((1, NEnum d fs) :: ks)) = RErr (KUnknownVariant d)).
    { unfold read_tree, t_full. cbn [t_dict_of t_item_dict]. rewrite Ei. cbn [t_item_enum t_with_default_body t_body].
      unfold t_body_default, t_des_body. cbn [t_loop]. unfold t_step, mbind at 1 2 3. cbn [find_tag]. change (1 =? 1) with true. cbv iota beta.
      unfold t_push, mbind at 1. cbn [c_lev]. destruct (N.leb_spec (cf_rec cf) 0); [lia|].
      cbn [t_inits map snd t_init t_struct t_with_default_body nth t_field t_opt_field]. unfold t_enum_elem, mbind. cbn [hdr_node to_enum t_lift mret].
      rewrite variant_eq, Hv. reflexivity. }
    rewrite E in H. destruct H as (x & Hx & Hk). exists x. split; [exact Hx|]. inversion Hk; reflexivity.
  Qed.
End NoVariant.

Lemma unk_typed e fs t : unknown_like t = true -> nodes_ok fs -> has_type e (VUnk fs) t.
Proof. induction t; cbn; try discriminate; intros H Hn; constructor; auto. Qed.
Lemma unk_doc e fs t : unknown_like t = true -> x_body (doc e (VUnk fs) t) = fs.
Proof. induction t; cbn [unknown_like]; try discriminate; intros H; [now apply IHt|now apply IHt|reflexivity]. Qed.
Lemma variant_in d vars : variant d vars = None <-> ~ In d (map fst vars).
Proof.
  induction vars as [|[d' b] vars IH]; cbn [variant map In fst]; [split; auto|]. destruct (N.eqb_spec d d') as [->|Hne].
  - split; [discriminate|]. intros H. exfalso. apply H. now left.
  - destruct (variant d vars) as [[? ?]|]; [split; [discriminate|intros H; exfalso; destruct IH as [_ IH]; discriminate IH; tauto]|].
    split; [|reflexivity]. intros _ [H|H]; [congruence|]. now apply IH.
Qed.

Section Caught.
  Variables (e : env) (zc : bool) (cf : cfg) (i : nat) (vars : list (N * vbody)) (b : vbody) (nm : string) (t : ty) (d : N) (fs : list (N * node)).
  Let v := VCatch d (VRec [VUnk fs]).
  Hypothesis Hwf : env_wf e.
  Hypothesis Hu : usable e zc cf (TItem i).
  Hypothesis Hun : cf_ignore cf = true \/ no_unit_body e (TItem i).
  Hypothesis Ei : e i = IEnum vars (Some b).
  Hypothesis Hv : variant d vars = None.
  Hypothesis Hb1 : vb_fields b = [].
  Hypothesis Hb2 : vb_special b = SpUnknown nm t.
  Hypothesis Hck : vb_check b [VUnk fs] = true.
  Hypothesis Had : admits cf e zc v (TItem i).
  Theorem caught_kept s dw : doc_stream [(1, NEnum d fs)] s -> size_bound (document [(1, NEnum d fs)]) <= U64_MAX ->
    fst (from_stream e zc cf (TItem i) s) = ROk v /\
    exists out, to_vec e dw (TItem i) v = ROk out /\ shortest (document [(1, NEnum d fs)]) out.
  Proof.
    intros Hs Hsz.
    assert (Hn : nodes_ok [(1, NEnum d fs)]) by (destruct Hs as [bs tl dbg sk sched Henc _ _ _]; exact (encodes_nodes _ _ Henc)).
    inversion Hn as [|? ? [_ Hn1] _]; subst. cbn [snd node_ok] in Hn1. destruct Hn1 as [Hd Hn1]. apply nodes_ok_fold in Hn1.
    assert (Ht : unknown_like t = true).
    { destruct (Hwf i) as [Hw _]. rewrite Ei in Hw. destruct Hw as (_ & _ & Hw). destruct Hw as (_ & _ & Hw). now rewrite Hb2 in Hw. }
    assert (Hty : has_type e v (TItem i)).
    { apply (TyCatch e i vars d b [VUnk fs] Ei); auto.
      - now apply variant_in.
      - unfold body_types. rewrite Hb1, Hb2. cbn. constructor; [now apply unk_typed|constructor].
      - unfold unknown_ok. rewrite Hb2. intros _ fs' _. rewrite Hb1. apply Forall_forall. intros x _ []. }
    assert (Hdoc : x_body (doc e v (TItem i)) = [(1, NEnum d fs)]).
    { unfold v. cbn [doc]. rewrite Ei. cbn [doc_single x_body]. unfold body_types, doc_record. rewrite Hb1, Hb2.
      cbn [map app sp_types zipw doc_fields List.length skipn flat_map]. now rewrite (unk_doc _ _ _ Ht), app_nil_r. }
    split.
    - pose proof (stream_tree e zc cf (TItem i) _ s Hu Hs) as H. rewrite <- Hdoc in H.
      rewrite (read_tree_doc cf e zc v (TItem i) Hwf Hty Logic.I (proj1 (proj2 Hu)) Hun Had) in H. exact H.
    - rewrite <- Hdoc. apply (vec_shape e Hwf dw (TItem i) v Hty Logic.I). unfold size_of. now rewrite Hdoc.
  Qed.
End Caught.
