(** * P_Compat: reading data of an older type as a newer type (SpecCompat.v) *)

From Verif Require Import Base Wire Dev Stream Types Prog SpecWire SpecFormat SpecWrite SpecDe SpecDoc SpecRead SpecCompat
  P_Base P_Wire P_Misc P_Types P_RT P_Means P_Meaning P_Order P_Card.

(** ** The old side: documents are the nodes of their fields *)
Lemma many_doc eo t : forall v l, many v t = Some l -> doc eo v t = doc_coll (map (fun p => x_elem (doc eo (fst p) (snd p))) l).
Proof.
  induction t; intros v l H; cbn [many] in H; try discriminate H.
  1, 2, 3, 5: destruct v; try discriminate H; injection H as <-; cbn [doc]; now rewrite map_map.
  - destruct v; try (injection H as <-; reflexivity). destruct o; injection H as <-; reflexivity.
  - destruct v; try discriminate H; injection H as <-. cbn [doc]. rewrite map_map. f_equal.
    apply map_ext. intros [a b]. cbn [fst snd].
    change (x_elem (doc eo (VRec [a; b]) (TTuple [t1; t2]))) with (NStruct (x_field (doc eo a t1) 1 ++ x_field (doc eo b t2) (1 + 1) ++ [])).
    now rewrite app_nil_r.
  - specialize (IHt v l H). destruct v; exact IHt.
  - specialize (IHt v l H). destruct v; exact IHt.
Qed.

Definition node_of (eo : env) (p : value * ty) : node := x_elem (doc eo (fst p) (snd p)).

Lemma single_doc eo t : forall v tag, many v t = None -> unknown_like t = false -> x_field (doc eo v t) tag = [(tag, x_elem (doc eo v t))].
Proof.
  induction t; intros v tag H Hu; try discriminate Hu; cbn [many] in H.
  all: try (destruct v; try discriminate H; reflexivity).
  - destruct v; try discriminate H. destruct o; discriminate H.
  - destruct v; try reflexivity. destruct vs; reflexivity.
  - specialize (IHt v tag H Hu). destruct v; exact IHt.
  - specialize (IHt v tag H Hu). destruct v; exact IHt.
  - destruct (eo i) as [bb|vars catch] eqn:E.
    + destruct v as [| | | | | | | | | | | |vs|ix v|d v| |]; try (destruct v); cbn [doc]; rewrite E; try reflexivity. destruct (vb_special bb); try reflexivity.
      destruct (zipw _ vs (body_types bb)) as [|d [|]]; reflexivity.
    + destruct v as [| | | | | | | | | | | | |ix v|d v| |]; try (destruct v); cbn [doc]; rewrite E; destruct catch; try reflexivity;
        destruct (nth_error vars ix) as [[dd bb]|]; reflexivity.
Qed.
Lemma field_nodes eo v t tag : unknown_like t = false -> x_field (doc eo v t) tag = map (fun p => (tag, node_of eo p)) (items v t).
Proof.
  intros Hu. unfold items. destruct (many v t) as [l|] eqn:E.
  - rewrite (many_doc eo t v l E). cbn [doc_coll x_field]. now rewrite map_map.
  - now apply single_doc.
Qed.
Lemma nodes_cons eo f l : nodes eo (f :: l) = map (fun p => (fst f, node_of eo p)) (items (fst (snd f)) (snd (snd f))) ++ nodes eo l.
Proof. reflexivity. Qed.
Lemma nodes_app eo l l' : nodes eo (l ++ l') = nodes eo l ++ nodes eo l'.
Proof. apply flat_map_app. Qed.
Lemma nodes_kept eo us : nodes eo (kept us) = us.
Proof. induction us as [|[tag n] us IH]; [reflexivity|]. change (kept ((tag, n) :: us)) with ((tag, (VNode n, TUnkField)) :: kept us). rewrite nodes_cons, IH. reflexivity. Qed.
Lemma nodes_named eo fs : forall vs, List.length vs = List.length fs -> Forall (fun f => unknown_like (fd_ty f) = false) fs ->
  nodes eo (named fs vs) = doc_fields fs (zipw (fun x t' => doc eo x t') vs (map fd_ty fs)).
Proof.
  induction fs as [|f fs IH]; intros [|v vs] Hl Hu; try discriminate Hl; [reflexivity|]. inversion Hu as [|? ? Hf Hu2]; subst.
  unfold named. cbn [map combine zipw doc_fields]. rewrite nodes_cons. fold (named fs vs). rewrite (IH vs ltac:(now injection Hl) Hu2).
  cbn [fst snd]. now rewrite <- field_nodes.
Qed.
Lemma nodes_numbered eo ts : forall vs i, List.length vs = List.length ts -> Forall (fun t => unknown_like t = false) ts ->
  nodes eo (numbered i vs ts) = doc_tuple i (zipw (fun x t' => doc eo x t') vs ts).
Proof.
  induction ts as [|t ts IH]; intros [|v vs] i Hl Hu; try discriminate Hl; [reflexivity|]. inversion Hu as [|? ? Hf Hu2]; subst.
  cbn [numbered zipw doc_tuple]. rewrite nodes_cons. rewrite (IH vs (i + 1) ltac:(now injection Hl) Hu2). cbn [fst snd]. now rewrite <- field_nodes.
Qed.
Lemma with_tag_nodes eo tag l : with_tag tag (nodes eo l) = map (fun p => (tag, node_of eo p)) (occs tag l).
Proof.
  induction l as [|f l IH]; [reflexivity|]. rewrite nodes_cons. unfold with_tag in *. rewrite filter_app, IH. unfold occs. cbn [flat_map]. rewrite map_app. f_equal.
  destruct (N.eqb_spec (fst f) tag) as [E|E].
  - rewrite E. induction (items (fst (snd f)) (snd (snd f))) as [|p r IHr]; [reflexivity|]. cbn [map filter fst]. rewrite N.eqb_refl. now rewrite IHr.
  - induction (items (fst (snd f)) (snd (snd f))) as [|p r IHr]; [reflexivity|]. cbn [map filter fst]. destruct (N.eqb_spec (fst f) tag); [contradiction|exact IHr].
Qed.

Lemma doc_unk eo us t : unknown_like t = true -> doc eo (VUnk us) t = mkDoc us (fun _ => us) (NStruct us).
Proof. induction t; intros H; try discriminate H; [exact (IHt H)|exact (IHt H)|reflexivity]. Qed.
Lemma zipw_snoc {A B C} (f : A -> B -> C) l l' a b : List.length l = List.length l' -> zipw f (l ++ [a]) (l' ++ [b]) = zipw f l l' ++ [f a b].
Proof. revert l'. induction l as [|x l IH]; intros [|y l'] H; try discriminate H; [reflexivity|]. cbn. f_equal. apply IH. now injection H. Qed.
Lemma doc_record_app b ds x : List.length ds = List.length (vb_fields b) -> doc_record b (ds ++ [x]) = doc_fields (vb_fields b) ds ++ x_body x.
Proof.
  intros H. unfold doc_record. rewrite skipn_app, H, Nat.sub_diag, skipn_all2 by lia. cbn [skipn app flat_map]. rewrite app_nil_r. f_equal.
  revert ds H. induction (vb_fields b) as [|f fs IH]; intros [|d ds] H; try discriminate H; [reflexivity|]. cbn. f_equal. apply IH. now injection H.
Qed.

Lemma pieces_whole_doc eo :
  (forall b vs l, pieces eo b vs l -> doc_record b (zipw (fun x t' => doc eo x t') vs (body_types b)) = nodes eo l /\ List.length vs = List.length (body_types b)) /\
  (forall v t l, whole eo v t l -> x_body (doc eo v t) = nodes eo l).
Proof.
  apply (pieces_mutind eo (fun b vs l _ => doc_record b (zipw (fun x t' => doc eo x t') vs (body_types b)) = nodes eo l /\ List.length vs = List.length (body_types b))
    (fun v t l _ => x_body (doc eo v t) = nodes eo l)).
  - intros b vs Es Hl Hu. unfold body_types. rewrite Es. cbn [sp_types]. rewrite app_nil_r, map_length. split; [|exact Hl].
    unfold doc_record. rewrite (nodes_named eo _ _ Hl Hu). rewrite skipn_all2; [apply app_nil_r|]. rewrite zipw_len by (rewrite map_length; exact Hl). lia.
  - intros b nm t vs us Es Ht Hl Hu. unfold body_types. rewrite Es. cbn [sp_types]. rewrite !app_length, map_length, Hl. split; [|reflexivity].
    rewrite zipw_snoc by (rewrite map_length; exact Hl). rewrite doc_record_app by (rewrite zipw_len by (rewrite map_length; exact Hl); exact Hl).
    rewrite (doc_unk eo us t Ht), nodes_app, nodes_kept, (nodes_named eo _ _ Hl Hu). reflexivity.
  - intros b nm t v l Es Ef Hw IH. unfold body_types. rewrite Es, Ef. cbn [map sp_types app zipw]. split; [|reflexivity].
    unfold doc_record. rewrite Ef. cbn. now rewrite app_nil_r.
  - intros v t Hp. rewrite nodes_cons. cbn [fst snd nodes flat_map]. rewrite app_nil_r. rewrite <- field_nodes by (destruct t; try discriminate Hp; reflexivity).
    destruct t; try discriminate Hp; try (destruct v; reflexivity).
    + destruct v; try reflexivity. destruct o; reflexivity.
    + cbn [plain] in Hp. destruct (eo i) as [bb|vars catch] eqn:E; [discriminate|].
      destruct v as [| | | | | | | | | | | | |ix v|d v| |]; try (destruct v); cbn [doc]; rewrite E; destruct catch; try reflexivity;
        destruct (nth_error vars ix) as [[dd bb]|]; reflexivity.
  - reflexivity.
  - intros vs ts Hne Hl Hu. rewrite (nodes_numbered eo _ _ _ Hl Hu). destruct vs; [now destruct Hne|]. reflexivity.
  - intros i b vs l Ei Hp [IH Hl]. cbn [doc]. rewrite Ei. destruct (vb_special b) as [|nm t|nm t] eqn:Es; try (cbn [doc_struct x_body]; exact IH).
    inversion Hp as [? ? Es'|? ? ? ? ? Es'|? ? ? v0 ? Es' Ef]; subst; try congruence. rewrite <- IH. unfold body_types, doc_record. rewrite Ef, Es. cbn. now rewrite app_nil_r.
  - intros v t l Hw IH. destruct v; exact IH.
  - intros v t l Hw IH. destruct v; exact IH.
  - intros us. now rewrite nodes_kept.
Qed.
Lemma pieces_doc eo b vs l : pieces eo b vs l -> doc_record b (zipw (fun x t' => doc eo x t') vs (body_types b)) = nodes eo l.
Proof. intros H. now apply (proj1 (pieces_whole_doc eo)). Qed.
Lemma whole_doc eo v t l : whole eo v t l -> x_body (doc eo v t) = nodes eo l.
Proof. apply (proj2 (pieces_whole_doc eo)). Qed.
Lemma inner_doc eo v t l : inner eo v t l -> x_elem (doc eo v t) = NStruct (nodes eo l).
Proof.
  intros [v' t' Hm|vs ts Hl Hu|i b vs l' Ei Hd Hp|us].
  - rewrite nodes_cons. cbn [fst snd nodes flat_map]. rewrite app_nil_r. unfold items. destruct (many v' t') as [its|] eqn:E; [|now destruct Hm].
    rewrite (many_doc eo _ _ _ E). cbn [doc_coll x_elem]. now rewrite map_map.
  - rewrite (nodes_numbered eo _ _ _ Hl Hu). destruct vs; reflexivity.
  - cbn [doc]. rewrite Ei. unfold delegates in Hd. rewrite <- (pieces_doc eo b vs l' Hp). destruct (vb_special b); try discriminate Hd; reflexivity.
  - now rewrite nodes_kept.
Qed.
Lemma variant_doc eo v t d l : variant_of eo v t d l -> x_elem (doc eo v t) = NEnum d (nodes eo l).
Proof.
  intros [i vars catch ix d' b vs l' Ei Hn Hp|i vars b d' vs l' Ei Hp]; cbn [doc]; rewrite Ei.
  - rewrite <- (pieces_doc eo b vs l' Hp). destruct catch; now rewrite Hn.
  - cbn [doc_single x_elem]. now rewrite (pieces_doc eo b vs l' Hp).
Qed.
Lemma blob_doc eo v t bs : blob_of v t bs -> x_elem (doc eo v t) = NBlob bs.
Proof.
  intros [t' b Ht|t' b Ht|n t' b Ht]; [destruct Ht as [->|[->| ->]]|destruct Ht as [->|[->|(u & -> & _)]]|]; reflexivity.
Qed.

(** ** The new side *)
Lemma unzigzag_zz z : i64_ok z -> unzigzag (zz z) = z.
Proof. intros H. rewrite <- (zz_zigzag z H). now apply unzigzag_zigzag. Qed.
Lemma signed_i64 w z : width_ok w -> (smin w <= z <= smax w)%Z -> i64_ok z.
Proof. intros [->|[->|[->| ->]]]; unfold smin, smax, i64_ok; cbn; lia. Qed.

Section New.
  Variables (ign : bool) (en : env).
  Hypothesis Hwf : env_wf en.
  Notation M f zc t := (means ign en f zc t).

  Fixpoint style (zc : bool) (t : ty) : bool :=
    match t with TBox t' => style zc t' | TCopied t' => style false t' | _ => zc end.
  Lemma style_deser t : forall zc, deserialisable en zc t -> deserialisable en (style zc t) (each t).
  Proof.
    induction t; intros zc H; cbn [style each]; try exact H.
    - destruct (is_u8 t); [exact H|]. intros Hn. apply H. now constructor.
    - intros Hn. apply H. now constructor.
    - intros Hn. apply H. now constructor.
    - intros Hn. apply H. now constructor.
    - destruct (is_u8 t); [exact H|]. intros Hn. apply H. now constructor.
    - intros Hn. inversion Hn as [| | | | | | | | |? t' ? Hi Hn'| | |]; subst. apply H. destruct Hi as [<-|[<-|[]]]; [now apply NiKey|now apply NiVal].
    - apply IHt. intros Hn. apply H. now constructor.
    - apply IHt. intros Hn. apply H. now constructor.
  Qed.

  Lemma rmap_tag {B} (g : node -> R B) tag ns ws : Forall2 (fun n w => exists x, g n = Some (w, x)) ns ws ->
    exists x, rmap (fun f : N * node => g (snd f)) (map (fun n => (tag, n)) ns) = Some (ws, x).
  Proof. intros H. apply rmap_total. induction H; constructor; auto. Qed.
  Lemma rmap_cost {B} (g : node -> R B) tag ns ws : Forall2 (fun n w => exists x, g n = Some (w, x)) ns ws ->
    exists x, rmap (fun f : N * node => rcost cone (g (snd f))) (map (fun n => (tag, n)) ns) = Some (ws, x).
  Proof. intros H. apply (rmap_tag (fun n => rcost cone (g n))). refine (Forall2_imp _ _ _ _ _ H). intros n w (x & E). rewrite E. eexists. reflexivity. Qed.

  Fixpoint tsz (t : ty) : nat :=
    match t with TVec t' | TSeq t' | TSet t' | TOption t' | TArray _ t' | TBox t' | TCopied t' => S (tsz t') | _ => O end.
  Lemma each_sz t : (tsz (each t) <= tsz t)%nat.
  Proof. induction t; cbn [each tsz]; try lia; destruct (is_u8 t); cbn [tsz]; lia. Qed.
  Lemma one_occ t f zc : each t = t -> t <> TUnknown -> forall tag n w x, m_elem (M f zc t) n = Some (w, x) -> m_occ (M f zc t) [(tag, n)] = Some (w, x).
  Proof.
    intros He Hu tag n w x H. pose proof (f_equal tsz He) as Hs. unfold means in *. destruct t; cbn [meaning_of each tsz] in *; try exact H.
    - destruct zc; exact H.
    - destruct zc; exact H.
    - destruct (is_u8 t) eqn:Eu; [exact H|cbn [tsz] in Hs; lia].
    - lia. - lia. - lia.
    - destruct (is_u8 t) eqn:Eu; [exact H|cbn [tsz] in Hs; lia].
    - discriminate He.
    - pose proof (each_sz t). lia.
    - pose proof (each_sz t). lia.
    - now destruct Hu.
    - destruct f; [exact H|]. cbn [item_meaning] in *. destruct (en i); exact H.
  Qed.
  Lemma gather_occ f t ws w : gather t ws w -> forall zc tag ns,
    Forall2 (fun n w => exists x, m_elem (M f (style zc t) (each t)) n = Some (w, x)) ns ws ->
    exists x, m_occ (M f zc t) (map (fun n => (tag, n)) ns) = Some (w, x).
  Proof.
    induction 1 as [t ws Hu|t ws|t ws|t|t w|n t ws Hu Hl|k v kvs|t ws w Hg IH|t ws w Hg IH|t w He Hu|t Hu]; intros zc tag ns HF; cbn [style each] in HF.
    - rewrite Hu in HF. destruct (rmap_cost _ tag _ _ HF) as (x & E). unfold means. cbn [meaning_of]. rewrite Hu. cbn [m_list m_coll m_occ].
      fold (means ign en f zc t). rewrite E. eexists. reflexivity.
    - destruct (rmap_cost _ tag _ _ HF) as (x & E). unfold means. cbn [meaning_of m_list m_coll m_occ].
      fold (means ign en f zc t). rewrite E. eexists. reflexivity.
    - destruct (rmap_cost _ tag _ _ HF) as (x & E). unfold means. cbn [meaning_of m_list m_coll m_occ].
      fold (means ign en f zc t). rewrite E. eexists. reflexivity.
    - inversion HF; subst. eexists. reflexivity.
    - inversion HF as [|n ? l ? (x & E) HF2]; subst. inversion HF2; subst. unfold means. cbn [meaning_of m_option m_coll m_occ map].
      fold (means ign en f zc t). rewrite E. eexists. reflexivity.
    - rewrite Hu in HF. destruct (rmap_tag _ tag _ _ HF) as (x & E). unfold means. cbn [meaning_of]. rewrite Hu. cbn [m_array m_coll m_occ].
      fold (means ign en f zc t). rewrite E. unfold lenN in *. rewrite map_length, (Forall2_len _ _ _ HF), <- Hl, N.eqb_refl. eexists. reflexivity.
    - assert (HF2 : Forall2 (fun n p => exists x, m_entry ign (M f zc k) (M f zc v) n = Some (p, x)) ns kvs).
      { clear -HF. revert ns HF. induction kvs as [|[a b] kvs IH]; intros ns HF; inversion HF as [|n ? l ? (x & E) HF2]; subst; constructor; auto.
        unfold means in E. cbn [meaning_of m_tuple m_struct m_elem map fst snd] in E. unfold m_entry. fold (means ign en f zc k) (means ign en f zc v) in E.
        rewrite E. eexists. reflexivity. }
      destruct (rmap_cost _ tag _ _ HF2) as (x & E). unfold means. cbn [meaning_of m_map m_coll m_occ].
      fold (means ign en f zc k) (means ign en f zc v). rewrite E. eexists. reflexivity.
    - exact (IH zc tag ns HF).
    - exact (IH false tag ns HF).
    - inversion HF as [|n ? l ? (x & E) HF2]; subst. inversion HF2; subst. cbn [map]. exists x. apply one_occ; auto. rewrite He in E.
      assert (Hst : style zc t = zc). { destruct t; try reflexivity; cbn [each] in He; pose proof (f_equal tsz He) as Hs; cbn [tsz] in Hs; pose proof (each_sz t); lia. }
      now rewrite Hst in E.
    - inversion HF; subst. unfold means. cbn [meaning_of]. rewrite Hu. eexists. reflexivity.
  Qed.

  Lemma fields_run ms : forall vs ks, NoDup (map fst ms) ->
    Forall2 (fun (d : N * meaning) w => exists x, m_occ (snd d) (with_tag (fst d) ks) = Some (w, x)) ms vs ->
    exists x, m_fields ms ks = Some ((vs, undeclared (map fst ms) ks), x).
  Proof.
    induction ms as [|[tag m] ms IH]; intros vs ks Hnd HF; inversion HF as [|? w ? vs' (x & E) HF2]; subst; cbn [m_fields map fst].
    - rewrite undeclared_nil. eexists. reflexivity.
    - cbn [map fst snd] in *. inversion Hnd as [|? ? Hni Hnd2]; subst. rewrite E. cbn [rdeep rbind].
      destruct (IH vs' (without_tag tag ks) Hnd2) as (y & Ey).
      + clear -HF2 Hni. induction HF2 as [|[tag' m'] w ms vs (x & E) HF IH]; constructor.
        * exists x. cbn [fst snd] in *. rewrite <- E. f_equal. unfold with_tag, without_tag. rewrite filter_filter. apply filter_ext. intros [k n]. cbn [fst].
          destruct (N.eqb_spec k tag'); [|apply Bool.andb_false_r]. destruct (N.eqb_spec k tag) as [E2|]; [|reflexivity]. exfalso. apply Hni. left. cbn. congruence.
        * apply IH. intros Hi. apply Hni. now right.
      + rewrite Ey. rewrite undeclared_cons. eexists. reflexivity.
  Qed.
  Lemma record_run ms vs ks : NoDup (map fst ms) -> Forall2 (fun (d : N * meaning) w => exists x, m_occ (snd d) (with_tag (fst d) ks) = Some (w, x)) ms vs ->
    ign = true \/ undeclared (map fst ms) ks = [] -> exists x, m_record ign ms None ks = Some (vs, x).
  Proof.
    intros Hnd HF Hl. destruct (fields_run ms vs ks Hnd HF) as (x & E). unfold m_record. rewrite E. cbn [rbind fst snd].
    destruct (undeclared (map fst ms) ks) as [|k r]; [eexists; reflexivity|]. destruct Hl as [->|Hl]; [eexists; reflexivity|discriminate Hl].
  Qed.
  Lemma record_keep ms vs ks m us y : NoDup (map fst ms) -> Forall2 (fun (d : N * meaning) w => exists x, m_occ (snd d) (with_tag (fst d) ks) = Some (w, x)) ms vs ->
    m_occ m (undeclared (map fst ms) ks) = Some (us, y) -> exists x, m_record ign ms (Some m) ks = Some (vs ++ [us], x).
  Proof.
    intros Hnd HF Hl. destruct (fields_run ms vs ks Hnd HF) as (x & E). unfold m_record. rewrite E. cbn [rbind fst snd]. rewrite Hl. eexists. reflexivity.
  Qed.
  Lemma unknown_occ t : unknown_like t = true -> forall f zc ks, exists x, m_occ (M f zc t) ks = Some (VUnk ks, x).
  Proof.
    induction t; intros H f zc ks; try discriminate H; try (now apply IHt). unfold means. cbn [meaning_of m_unknown m_occ].
    destruct (rmap_total (fun g : N * node => Some (g, cadd cone (unk_cost (negb zc) (snd g)))) ks ks) as (x & E); [|rewrite E; eexists; reflexivity].
    induction ks; constructor; eauto.
  Qed.

  Definition G_elem (eo : env) (v : value) (t t' : ty) (w : value) : Prop := forall zc, deserialisable en zc t' ->
    exists f x, m_elem (M f zc t') (x_elem (doc eo v t)) = Some (w, x).
  Definition G_elems (eo : env) (r : list (value * ty)) (t' : ty) (ws : list value) : Prop := forall zc, deserialisable en zc t' ->
    exists f, Forall2 (fun n w => exists x, m_elem (M f zc t') n = Some (w, x)) (map (node_of eo) r) ws.
  Definition G_record (eo : env) (l : list ofield) (ds : list (N * ty)) (ws : list value) : Prop := forall zc,
    (forall tag t, In (tag, t) ds -> deserialisable en zc t) ->
    exists f, Forall2 (fun d w => exists x, m_occ (M f zc (snd d)) (with_tag (fst d) (nodes eo l)) = Some (w, x)) ds ws.
  Definition G_into (eo : env) (l : list ofield) (t' : ty) (w : value) : Prop := forall zc, deserialisable en zc t' ->
    exists f x, m_body (M f zc t') (nodes eo l) = Some (w, x).
  Definition G_body (eo : env) (l : list ofield) (b : vbody) (ws : list value) : Prop := forall zc,
    (forall t, In t (body_types b) -> deserialisable en zc t) -> vbody_wf b ->
    exists f x, m_vbody ign (meaning_of ign (item_meaning ign en f) zc) b (nodes eo l) = Some (VRec ws, x).

  Lemma more_elem f f' zc t n r : (f <= f')%nat -> m_elem (M f zc t) n = Some r -> m_elem (M f' zc t) n = Some r.
  Proof. intros H. apply (ml_elem _ _ (means_mle ign en f f' zc t H)). Qed.
  Lemma more_occ f f' zc t n r : (f <= f')%nat -> m_occ (M f zc t) n = Some r -> m_occ (M f' zc t) n = Some r.
  Proof. intros H. apply (ml_occ _ _ (means_mle ign en f f' zc t H)). Qed.

  Lemma struct_elem t' ks f zc : as_struct en t' -> m_elem (M f zc t') (NStruct ks) = m_body (M f zc t') ks.
  Proof.
    intros H. unfold means. destruct t'; cbn [as_struct collection] in H; try discriminate H; cbn [meaning_of]; try reflexivity.
    - destruct (is_u8 t'); [discriminate H|reflexivity].
    - destruct (is_u8 t'); [discriminate H|reflexivity].
    - destruct f; [reflexivity|]. cbn [item_meaning]. destruct (en i); [|contradiction]. cbn [m_struct m_elem m_body]. unfold m_struct_elem, delegates in *.
      destruct (vb_special b); try reflexivity. discriminate H.
  Qed.
  Lemma item_deser i zc : deserialisable en zc (TItem i) -> forall t, In t (item_types (en i)) -> deserialisable en zc t.
  Proof. intros H t Hi Hn. apply H. now apply (NiItem en zc i t). Qed.
  Lemma struct_deser i b zc : en i = IStruct b -> deserialisable en zc (TItem i) -> forall t, In t (body_types b) -> deserialisable en zc t.
  Proof. intros E H t Hi. apply (item_deser i zc H). now rewrite E. Qed.
  Lemma struct_wf i b : en i = IStruct b -> vbody_wf b.
  Proof. intros E. destruct (Hwf i) as [H _]. now rewrite E in H. Qed.
  Lemma count_means f zc ts : forall i, m_number i (map (meaning_of ign (item_meaning ign en f) zc) ts) = map (fun d => (fst d, M f zc (snd d))) (count_from i ts).
  Proof. induction ts as [|t ts IH]; intros i; [reflexivity|]. cbn [map m_number count_from fst snd]. now rewrite IH. Qed.
  Lemma count_in ts : forall i tag t, In (tag, t) (count_from i ts) -> In t ts.
  Proof. induction ts as [|u ts IH]; intros i tag t H; [destruct H|]. destruct H as [H|H]; [injection H as _ <-; now left|right; eauto]. Qed.
  Lemma count_tags ts : forall i, NoDup (map fst (count_from i ts)).
  Proof. intros i. pose proof (number_nodup (map (fun _ => m_nothing) ts) i) as H. replace (map fst (count_from i ts)) with (map fst (m_number i (map (fun _ => m_nothing) ts))); [exact H|].
    clear. revert i. induction ts as [|t ts IH]; intros i; [reflexivity|]. cbn. now rewrite IH. Qed.
  Lemma with_means f zc (ds : list (N * ty)) ws ks : Forall2 (fun d w => exists x, m_occ (M f zc (snd d)) (with_tag (fst d) ks) = Some (w, x)) ds ws ->
    Forall2 (fun (d : N * meaning) w => exists x, m_occ (snd d) (with_tag (fst d) ks) = Some (w, x)) (map (fun d => (fst d, M f zc (snd d))) ds) ws.
  Proof. induction 1; constructor; auto. Qed.
  Lemma declared_tags fs : map fst (declared fs) = map fd_tag fs.
  Proof. unfold declared. now rewrite map_map. Qed.
  Lemma declared_means f zc fs : m_decls (meaning_of ign (item_meaning ign en f) zc) fs = map (fun d => (fst d, M f zc (snd d))) (declared fs).
  Proof. unfold declared, m_decls. now rewrite map_map. Qed.
  Lemma map_fst_means f zc (ds : list (N * ty)) : map fst (map (fun d => (fst d, M f zc (snd d))) ds) = map fst ds.
  Proof. now rewrite map_map. Qed.

  Lemma plain_top t f zc : plain en t = true -> deserialisable en zc t -> forall ks, m_body (M (S f) zc t) ks = m_top ign (m_occ (M (S f) zc t)) ks.
  Proof.
    intros Hp Hd ks. unfold means. destruct t; try discriminate; cbn [meaning_of]; try reflexivity.
    - destruct zc; [reflexivity|exfalso; apply Hd; constructor].
    - destruct zc; [reflexivity|exfalso; apply Hd; constructor].
    - destruct (is_u8 t); reflexivity.
    - destruct (is_u8 t); reflexivity.
    - cbn [item_meaning plain] in *. destruct (en i); [discriminate|reflexivity].
  Qed.

  Theorem compat_meaning :
    (forall eo v t t' w, elem en ign eo v t t' w -> G_elem eo v t t' w) /\ (forall eo r t' ws, elems en ign eo r t' ws -> G_elems eo r t' ws) /\
    (forall eo l ds ws, record en ign eo l ds ws -> G_record eo l ds ws) /\ (forall eo l t' w, into en ign eo l t' w -> G_into eo l t' w) /\
    (forall eo l b ws, into_body en ign eo l b ws -> G_body eo l b ws).
  Proof.
    apply (elem_mutind en ign (fun eo v t t' w _ => G_elem eo v t t' w) (fun eo r t' ws _ => G_elems eo r t' ws)
      (fun eo l ds ws _ => G_record eo l ds ws) (fun eo l t' w _ => G_into eo l t' w) (fun eo l b ws _ => G_body eo l b ws)).
    - intros eo w w' n H zc _. exists O. unfold means. cbn [meaning_of m_simple m_elem doc doc_int doc_single x_elem m_uint]. apply N.leb_le in H. rewrite H. eexists. reflexivity.
    - intros eo w w' z Hw H zc _. exists O. unfold means. cbn [meaning_of m_simple m_elem doc doc_int doc_single x_elem m_sint].
      rewrite (unzigzag_zz z (signed_i64 w' z Hw H)). destruct H as [H1 H2]. apply Z.leb_le in H1, H2. rewrite H1, H2. eexists. reflexivity.
    - intros eo b zc _. exists O. destruct b; eexists; reflexivity.
    - intros eo c H zc _. exists O. unfold means. cbn [meaning_of m_simple m_elem doc doc_int doc_single x_elem m_char]. rewrite H.
      assert (Hc : c <= umax 32). { unfold char_ok in H. change (umax 32) with 4294967295. destruct (N.ltb_spec c 0xD800); [lia|]. cbn in H. apply Bool.andb_true_iff in H. destruct H as [_ H]. apply N.leb_le in H. lia. }
      apply N.leb_le in Hc. rewrite Hc. eexists. reflexivity.
    - intros eo zc _. exists O. eexists. reflexivity.
    - intros eo v t bs t' w Ho Ha zc Hd. exists O. rewrite (blob_doc eo v t bs Ho). unfold means.
      destruct Ha as [t' b Ht Hu|t' b Ht|n t' b Ht Hl].
      + destruct Ht as [->|[->| ->]]; cbn [meaning_of].
        * cbn [m_simple m_elem m_str]. rewrite Hu. eexists. reflexivity.
        * destruct zc; [|exfalso; apply Hd; constructor]. cbn [m_simple m_elem m_str]. rewrite Hu. eexists. reflexivity.
        * cbn [m_simple m_elem m_str]. rewrite Hu. eexists. reflexivity.
      + destruct Ht as [->|[->|(u & -> & Hu)]]; cbn [meaning_of].
        * destruct zc; [|exfalso; apply Hd; constructor]. eexists. reflexivity.
        * eexists. reflexivity.
        * rewrite Hu. eexists. reflexivity.
      + cbn [meaning_of]. rewrite Ht. cbn [m_elem m_arrb]. rewrite Hl, N.eqb_refl. eexists. reflexivity.
    - intros eo v t l t' w Hi Hs Ht IH zc Hd. destruct (IH zc Hd) as (f & x & E). exists f, x. rewrite (inner_doc eo v t l Hi), struct_elem by exact Hs. exact E.
    - intros eo v t d l i vars catch ix b ws Hv Ei Hvar Hb IH zc Hd.
      assert (Hin : In b (map snd vars)). { clear -Hvar. revert ix Hvar. induction vars as [|[d' b'] vars IH]; intros ix H; [discriminate|]. cbn [variant] in H.
        destruct (d =? d'); [injection H as _ ->; now left|]. destruct (variant d vars) as [[ix' b2]|]; [|discriminate]. injection H as _ ->. right. now apply (IH ix'). }
      destruct (IH zc) as (f & x & E).
      + intros t0 Ht0. apply (item_deser i zc Hd). rewrite Ei. cbn [item_types]. apply in_or_app. left. apply in_flat_map. apply in_map_iff in Hin. destruct Hin as (p & <- & Hp). eauto.
      + destruct (Hwf i) as [H _]. rewrite Ei in H. destruct H as (_ & H & _). apply in_map_iff in Hin. destruct Hin as (p & <- & Hp). now apply (proj1 (Forall_forall _ _) H).
      + exists (S f). unfold means. cbn [meaning_of item_meaning]. rewrite Ei. cbn [m_simple m_elem]. rewrite (variant_doc eo v t d l Hv). cbn [m_enum_elem]. rewrite Hvar.
        rewrite E. eexists. reflexivity.
    - intros eo v t d l i vars b ws Hv Ei Hvar Hb IH zc Hd.
      destruct (IH zc) as (f & x & E).
      + intros t0 Ht0. apply (item_deser i zc Hd). rewrite Ei. cbn [item_types]. apply in_or_app. now right.
      + destruct (Hwf i) as [H _]. rewrite Ei in H. now destruct H as (_ & _ & H).
      + exists (S f). unfold means. cbn [meaning_of item_meaning]. rewrite Ei. cbn [m_simple m_elem]. rewrite (variant_doc eo v t d l Hv). cbn [m_enum_elem]. rewrite Hvar.
        rewrite E. eexists. reflexivity.
    - intros eo i b nm v t t' w Ei Es Ef He IH zc Hd. destruct (IH zc Hd) as (f & x & E). exists f, x. rewrite <- E. f_equal. cbn [doc]. rewrite Ei, Es.
      unfold body_types. rewrite Ef, Es. reflexivity.
    - intros eo i b nm v t t' w Ei Es Ef He IH Hc zc Hd. destruct (IH zc) as (f & x & E).
      { apply (struct_deser i b zc Ei Hd). unfold body_types. rewrite Es. apply in_or_app. right. now left. }
      exists (S f). unfold means. cbn [meaning_of item_meaning]. rewrite Ei. cbn [m_struct m_elem]. unfold m_struct_elem. rewrite Es. unfold means in E. rewrite E.
      cbn [rdeep rbind]. unfold m_construct. rewrite Hc. eexists. reflexivity.
    - intros eo v t t' w He IH zc Hd. destruct (IH zc Hd) as (f & x & E). exists f, x. rewrite <- E. destruct v; reflexivity.
    - intros eo v t t' w He IH zc Hd. apply (IH zc). intros Hn. apply Hd. now constructor.
    - intros eo v t t' w He IH zc Hd. destruct (IH zc Hd) as (f & x & E). exists f, x. rewrite <- E. destruct v; reflexivity.
    - intros eo v t t' w He IH zc Hd. apply (IH false). intros Hn. apply Hd. now constructor.
    - intros eo v t zc Hd. exists O. eexists. reflexivity.
    - intros eo e3 v t t' w He IH zc Hd. exact (IH zc Hd).
    - intros eo t' zc Hd. exists O. constructor.
    - intros eo v t r t' w ws He IH1 Hr IH2 zc Hd. destruct (IH1 zc Hd) as (f1 & x & E). destruct (IH2 zc Hd) as (f2 & HF). exists (Nat.max f1 f2). cbn [map]. constructor.
      + exists x. refine (more_elem f1 _ _ _ _ _ _ E). lia.
      + refine (Forall2_imp _ _ _ _ _ HF). intros n u (y & Ey). exists y. refine (more_elem f2 _ _ _ _ _ _ Ey). lia.
    - intros eo l zc Hd. exists O. constructor.
    - intros eo l tag t' ds us w ws He IH1 Hg Hr IH2 zc Hd. destruct (IH1 (style zc t')) as (f1 & HF1); [apply style_deser, (Hd tag); now left|].
      destruct (IH2 zc) as (f2 & HF2); [intros tag' t0 Hi; apply (Hd tag'); now right|]. exists (Nat.max f1 f2). constructor; cbn [fst snd].
      + rewrite with_tag_nodes. destruct (gather_occ f1 t' us w Hg zc tag _ HF1) as (x & E). exists x. rewrite <- (map_map (node_of eo) (fun n => (tag, n))).
        refine (more_occ f1 _ _ _ _ _ _ E). lia.
      + refine (Forall2_imp _ _ _ _ _ HF2). intros d u (y & Ey). exists y. refine (more_occ f2 _ _ _ _ _ _ Ey). lia.
    - intros eo l t' w Hp Hr IH Hn zc Hd. destruct (IH zc) as (f & HF); [intros tag t0 [H|[]]; injection H as _ <-; exact Hd|].
      exists (S f). rewrite (plain_top t' f zc Hp Hd). unfold m_top.
      destruct (record_run [(1, mkMn (m_occ (M (S f) zc t')) (fun _ => rnone) (fun _ => rnone))] [w] (nodes eo l)) as (x & E).
      * constructor; [intros []|constructor].
      * inversion HF as [|? ? ? ? (x & E) HF2]; subst. constructor; [|constructor]. exists x. cbn [fst snd m_occ] in *. refine (more_occ f _ _ _ _ _ _ E). lia.
      * exact Hn.
      * rewrite E. eexists. reflexivity.
    - intros eo l ts ws Hr IH Hn zc Hd. destruct (IH zc) as (f & HF).
      { intros tag t0 Hi Hn0. apply Hd. apply (NiTuple en zc t0 ts); [exact (count_in _ _ _ _ Hi)|exact Hn0]. }
      exists f. unfold means. cbn [meaning_of m_tuple m_struct m_body]. unfold m_tuple_body. rewrite count_means.
      destruct (record_run (map (fun d => (fst d, M f zc (snd d))) (count_from 1 ts)) ws (nodes eo l)) as (x & E).
      * rewrite map_fst_means. apply count_tags.
      * now apply with_means.
      * rewrite map_fst_means. exact Hn.
      * rewrite E. eexists. reflexivity.
    - intros eo l i b ws Ei Hb IH zc Hd. destruct (IH zc (struct_deser i b zc Ei Hd) (struct_wf i b Ei)) as (f & x & E). exists (S f), x.
      unfold means. cbn [meaning_of item_meaning]. rewrite Ei. exact E.
    - intros eo l t' w Hi IH zc Hd. apply (IH zc). intros Hn. apply Hd. now constructor.
    - intros eo l t' w Hi IH zc Hd. apply (IH false). intros Hn. apply Hd. now constructor.
    - intros eo l zc Hd. exists O. unfold means. cbn [meaning_of m_unknown m_body].
      destruct (rmap_total (fun g : N * node => rdeep (Some (g, cadd cone (unk_cost (negb zc) (snd g))))) (nodes eo l) (nodes eo l)) as (x & E).
      * induction (nodes eo l); constructor; cbn; eauto.
      * rewrite E. eexists. reflexivity.
    - intros eo l b ws Es Hr IH Hn Hc zc Hd Hb. destruct (IH zc) as (f & HF).
      { intros tag t0 Hi. apply Hd. unfold body_types. apply in_or_app. left. unfold declared in Hi. apply in_map_iff in Hi. destruct Hi as (fd & E & Hi). injection E as _ <-. now apply in_map. }
      exists f. unfold m_vbody. rewrite Es. cbv zeta. rewrite declared_means.
      destruct (record_run (map (fun d => (fst d, M f zc (snd d))) (declared (vb_fields b))) ws (nodes eo l)) as (x & E).
      * rewrite map_fst_means, declared_tags. apply Hb.
      * now apply with_means.
      * rewrite map_fst_means. exact Hn.
      * rewrite E. cbn [rbind]. unfold m_construct. rewrite Hc. eexists. reflexivity.
    - intros eo l b nm t ws Es Hu Hr IH Hc zc Hd Hb. destruct (IH zc) as (f & HF).
      { intros tag t0 Hi. apply Hd. unfold body_types. apply in_or_app. left. unfold declared in Hi. apply in_map_iff in Hi. destruct Hi as (fd & E & Hi). injection E as _ <-. now apply in_map. }
      exists f. unfold m_vbody. rewrite Es. cbv zeta. rewrite declared_means.
      destruct (unknown_occ t Hu f zc (undeclared (map fd_tag (vb_fields b)) (nodes eo l))) as (y & Ey).
      destruct (record_keep (map (fun d => (fst d, M f zc (snd d))) (declared (vb_fields b))) ws (nodes eo l) (M f zc t) (VUnk (undeclared (map fd_tag (vb_fields b)) (nodes eo l))) y) as (x & E).
      * rewrite map_fst_means, declared_tags. apply Hb.
      * now apply with_means.
      * rewrite map_fst_means, declared_tags. exact Ey.
      * fold (means ign en f zc t). rewrite E. cbn [rbind]. unfold m_construct. rewrite Hc. eexists. reflexivity.
    - intros eo l b nm t w Es Ef Hi IH Hc zc Hd Hb. destruct (IH zc) as (f & x & E).
      { apply Hd. unfold body_types. rewrite Es. apply in_or_app. right. now left. }
      exists f. unfold m_vbody. rewrite Es, Ef. cbv zeta. cbn [m_decls map m_fields]. fold (means ign en f zc t). rewrite E. cbn. unfold m_construct. rewrite Hc. eexists. reflexivity.
  Qed.
End New.

Theorem becomes_denotes en ign eo v t t' w zc : env_wf en -> deserialisable en zc t' -> becomes en ign eo v t t' w ->
  exists x, denotes en ign zc t' (x_body (doc eo v t)) w x.
Proof.
  intros Hwf Hd [l Hw Hi]. destruct (compat_meaning ign en Hwf) as (_ & _ & _ & H & _). destruct (H eo l t' w Hi zc Hd) as (f & x & E).
  exists x, f. now rewrite (whole_doc eo v t l Hw).
Qed.
