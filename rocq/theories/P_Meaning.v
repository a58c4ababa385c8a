(** * P_Meaning: the meaning of documents and deserialising streams *)

From Verif Require Import Base Wire Dev Stream Types Ser Prog De SpecFormat SpecStream SpecDe SpecDoc SpecRead Tree
  P_Base P_Prog P_Tree P_TreeRun P_DeProps P_DeTrail P_Means.

(** ** Unfolding further changes nothing *)
Definition rle {A} (m m' : R A) : Prop := forall r, m = Some r -> m' = Some r.
Lemma rle_refl {A} (m : R A) : rle m m.
Proof. intros r H. exact H. Qed.
Lemma rle_none {A} (m : R A) : rle rnone m.
Proof. intros r H. discriminate H. Qed.
Lemma rle_bind {A B} (m m' : R A) (f f' : A -> R B) : rle m m' -> (forall a, rle (f a) (f' a)) -> rle (rbind m f) (rbind m' f').
Proof.
  intros H1 H2 r. unfold rbind. destruct m as [[a x]|]; [|discriminate]. rewrite (H1 _ eq_refl).
  destruct (f a) as [[b y]|] eqn:E; [|discriminate]. now rewrite (H2 a _ E).
Qed.
Lemma rle_cost {A} x (m m' : R A) : rle m m' -> rle (rcost x m) (rcost x m').
Proof. intros H r. destruct m as [[a y]|]; [|discriminate]. now rewrite (H _ eq_refl). Qed.
Lemma rle_deep {A} (m m' : R A) : rle m m' -> rle (rdeep m) (rdeep m').
Proof. intros H r. destruct m as [[a y]|]; [|discriminate]. now rewrite (H _ eq_refl). Qed.
Lemma rle_map {A B} (f f' : A -> R B) l : (forall a, rle (f a) (f' a)) -> rle (rmap f l) (rmap f' l).
Proof.
  intros H. induction l as [|a l IH]; [apply rle_refl|]. cbn [rmap]. apply rle_bind; [apply H|]. intros b.
  apply rle_bind; [exact IH|]. intros bs. apply rle_refl.
Qed.
Record mle (m m' : meaning) : Prop := mkMle {
  ml_occ : forall o, rle (m_occ m o) (m_occ m' o);
  ml_elem : forall n, rle (m_elem m n) (m_elem m' n);
  ml_body : forall ks, rle (m_body m ks) (m_body m' ks)
}.
Lemma mle_refl m : mle m m.
Proof. split; intros; apply rle_refl. Qed.
Lemma mle_nothing m : mle m_nothing m.
Proof. split; intros; apply rle_none. Qed.
Definition fle (f f' : N * meaning) : Prop := fst f = fst f' /\ mle (snd f) (snd f').

Section Mono.
  Variable ign : bool.
  Lemma fields_mle fs fs' : Forall2 fle fs fs' -> forall ks, rle (m_fields fs ks) (m_fields fs' ks).
  Proof.
    induction 1 as [|[t m] [t' m'] fs fs' [E H] HF IH]; intros ks; [apply rle_refl|]. cbn in E, H. subst t'. cbn [m_fields].
    apply rle_bind; [apply rle_deep, H|]. intros v. apply rle_bind; [apply IH|]. intros r. apply rle_refl.
  Qed.
  Definition ole (o o' : option meaning) : Prop := match o, o' with Some m, Some m' => mle m m' | None, None => True | _, _ => False end.
  Lemma record_mle fs fs' u u' ks : Forall2 fle fs fs' -> ole u u' -> rle (m_record ign fs u ks) (m_record ign fs' u' ks).
  Proof.
    intros HF HU. apply rle_bind; [now apply fields_mle|]. intros r. destruct u as [m|], u' as [m'|]; try contradiction; [|apply rle_refl].
    apply rle_bind; [apply rle_deep, HU|]. intros v. apply rle_refl.
  Qed.
  Lemma top_mle occ occ' ks : (forall o, rle (occ o) (occ' o)) -> rle (m_top ign occ ks) (m_top ign occ' ks).
  Proof.
    intros H. apply rle_bind; [|intros vs; apply rle_refl]. apply record_mle; [|exact I]. apply Forall2_cons; [|apply Forall2_nil].
    split; [reflexivity|]. split; [exact H|intros; apply rle_none|intros; apply rle_none].
  Qed.
  Lemma in_struct_mle b b' n : (forall ks, rle (b ks) (b' ks)) -> rle (m_in_struct b n) (m_in_struct b' n).
  Proof. intros H. destruct n; try apply rle_none. apply H. Qed.
  Lemma once_mle c c' o : (forall n, rle (c n) (c' n)) -> rle (m_once c o) (m_once c' o).
  Proof. intros H. destruct o as [|[t n] [|p o]]; try apply rle_none. apply H. Qed.
  Lemma coll_mle occ occ' : (forall o, rle (occ o) (occ' o)) -> mle (m_coll ign occ) (m_coll ign occ').
  Proof.
    intros H. split; [exact H| |].
    - intros n. apply in_struct_mle. intros ks. now apply top_mle.
    - intros ks. now apply top_mle.
  Qed.
  Lemma list_mle fin m m' : mle m m' -> mle (m_list ign fin m) (m_list ign fin m').
  Proof.
    intros H. apply coll_mle. intros o. apply rle_bind; [|intros; apply rle_refl]. apply rle_map. intros f. apply rle_cost, H.
  Qed.
  Lemma array_mle n m m' : mle m m' -> mle (m_array ign n m) (m_array ign n m').
  Proof.
    intros H. apply coll_mle. intros o. destruct (lenN o =? n); [|apply rle_none].
    apply rle_bind; [|intros; apply rle_refl]. apply rle_map. intros f. apply H.
  Qed.
  Lemma option_mle m m' : mle m m' -> mle (m_option ign m) (m_option ign m').
  Proof.
    intros H. apply coll_mle. intros o. destruct o as [|[t n] [|p o]]; try apply rle_refl.
    apply rle_bind; [apply H|intros; apply rle_refl].
  Qed.
  Lemma struct_mle b b' c c' : (forall ks, rle (b ks) (b' ks)) -> (forall n, rle (c n) (c' n)) -> mle (m_struct b c) (m_struct b' c').
  Proof. intros H1 H2. split; [|exact H2|exact H1]. intros o. now apply once_mle. Qed.
  Lemma simple_mle c c' : (forall n, rle (c n) (c' n)) -> mle (m_simple ign c) (m_simple ign c').
  Proof. intros H. split; [intros; now apply once_mle|exact H|]. intros ks. apply top_mle. intros o. now apply once_mle. Qed.
  Lemma number_mle ms ms' : Forall2 mle ms ms' -> forall i, Forall2 fle (m_number i ms) (m_number i ms').
  Proof. induction 1 as [|m m' ms ms' H HF IH]; intros i; cbn [m_number]; [apply Forall2_nil|apply Forall2_cons; [split; auto|auto]]. Qed.
  Lemma tuple_body_mle ms ms' ks : Forall2 mle ms ms' -> rle (m_tuple_body ign ms ks) (m_tuple_body ign ms' ks).
  Proof. intros H. apply rle_bind; [|intros; apply rle_refl]. apply record_mle; [now apply number_mle|exact I]. Qed.
  Lemma tuple_mle ms ms' : Forall2 mle ms ms' -> mle (m_tuple ign ms) (m_tuple ign ms').
  Proof. intros H. apply struct_mle; intros; [|apply in_struct_mle; intros]; now apply tuple_body_mle. Qed.
  Lemma map_mle k k' v v' : mle k k' -> mle v v' -> mle (m_map ign k v) (m_map ign k' v').
  Proof.
    intros H1 H2. apply coll_mle. intros o. apply rle_bind; [|intros; apply rle_refl]. apply rle_map. intros f. apply rle_cost.
    apply rle_bind; [|intros; apply rle_refl]. apply in_struct_mle. intros ks. apply tuple_body_mle.
    apply Forall2_cons; [exact H1|]. apply Forall2_cons; [exact H2|apply Forall2_nil].
  Qed.
  Section Items.
    Variables mk mk' : ty -> meaning.
    Hypothesis Hmk : forall t, mle (mk t) (mk' t).
    Lemma decls_mle fs : Forall2 fle (m_decls mk fs) (m_decls mk' fs).
    Proof. induction fs as [|f fs IH]; cbn; [apply Forall2_nil|apply Forall2_cons; [split; [reflexivity|apply Hmk]|exact IH]]. Qed.
    Lemma vbody_mle b ks : rle (m_vbody ign mk b ks) (m_vbody ign mk' b ks).
    Proof.
      unfold m_vbody. cbv zeta. destruct (vb_special b) as [|nm t|nm t].
      - apply rle_bind; [apply record_mle; [apply decls_mle|exact I]|intros; apply rle_refl].
      - apply rle_bind; [apply rle_deep, Hmk|]. intros dv. apply rle_bind; [apply fields_mle, decls_mle|intros; apply rle_refl].
      - apply rle_bind; [apply record_mle; [apply decls_mle|apply Hmk]|intros; apply rle_refl].
    Qed.
    Lemma struct_elem_mle b n : rle (m_struct_elem ign mk b n) (m_struct_elem ign mk' b n).
    Proof.
      unfold m_struct_elem. destruct (vb_special b) as [|nm t|nm t].
      - apply in_struct_mle. intros; apply vbody_mle.
      - apply rle_bind; [apply rle_deep, Hmk|]. intros; apply rle_refl.
      - apply in_struct_mle. intros; apply vbody_mle.
    Qed.
    Lemma enum_elem_mle vars catch n : rle (m_enum_elem ign mk vars catch n) (m_enum_elem ign mk' vars catch n).
    Proof.
      unfold m_enum_elem. destruct n as [| | |d fs]; try apply rle_none. destruct (variant d vars) as [[ix b]|].
      - apply rle_bind; [apply vbody_mle|intros; apply rle_refl].
      - destruct catch as [b|]; [|apply rle_none]. apply rle_bind; [apply vbody_mle|intros; apply rle_refl].
    Qed.
  End Items.
  Lemma types_mle im im' : (forall zc i, mle (im zc i) (im' zc i)) -> forall t zc, mle (meaning_of ign im zc t) (meaning_of ign im' zc t).
  Proof.
    intros Hi. apply (ty_ind2 (fun t => forall zc, mle (meaning_of ign im zc t) (meaning_of ign im' zc t))).
    - intros t. destruct t; try exact I; intros zc; cbn [meaning_of]; try apply mle_refl. apply Hi.
    - intros t IH zc. cbn [meaning_of]. destruct (is_u8 t); [apply mle_refl|apply list_mle, IH].
    - intros t IH zc. apply list_mle, IH.
    - intros t IH zc. apply list_mle, IH.
    - intros t IH zc. apply option_mle, IH.
    - intros n t IH zc. cbn [meaning_of]. destruct (is_u8 t); [apply mle_refl|apply array_mle, IH].
    - intros k v IHk IHv zc. apply map_mle; auto.
    - intros ts IH zc. cbn [meaning_of]. apply tuple_mle. induction IH as [|t ts H HF IH2]; cbn [map]; [apply Forall2_nil|apply Forall2_cons; auto].
    - intros t IH zc. apply IH.
    - intros t IH zc. apply IH.
  Qed.
  Lemma items_mle e f : forall f' zc i, (f <= f')%nat -> mle (item_meaning ign e f zc i) (item_meaning ign e f' zc i).
  Proof.
    induction f as [|f IH]; intros f' zc i Hle; [apply mle_nothing|]. destruct f' as [|f']; [lia|]. cbn [item_meaning].
    assert (Hmk : forall t, mle (meaning_of ign (item_meaning ign e f) zc t) (meaning_of ign (item_meaning ign e f') zc t)).
    { intros t. apply types_mle. intros zc' i'. apply IH. lia. }
    destruct (e i) as [b|vars catch].
    - apply struct_mle; intros; [now apply vbody_mle|now apply struct_elem_mle].
    - apply simple_mle. intros. now apply enum_elem_mle.
  Qed.
  Lemma means_mle e f f' zc t : (f <= f')%nat -> mle (means ign e f zc t) (means ign e f' zc t).
  Proof. intros H. apply types_mle. intros. now apply items_mle. Qed.
End Mono.

Lemma denotes_more e ign zc t ks v x f : m_body (means ign e f zc t) ks = Some (v, x) -> forall f', (f <= f')%nat -> m_body (means ign e f' zc t) ks = Some (v, x).
Proof. intros H f' Hle. exact (ml_body _ _ (means_mle ign e f f' zc t Hle) ks _ H). Qed.
Lemma denotes_fun e ign zc t ks v x w y : denotes e ign zc t ks v x -> denotes e ign zc t ks w y -> v = w /\ x = y.
Proof.
  intros (n & H1) (m & H2). pose proof (denotes_more _ _ _ _ _ _ _ _ H1 (Nat.max n m) (Nat.le_max_l _ _)) as H3.
  pose proof (denotes_more _ _ _ _ _ _ _ _ H2 (Nat.max n m) (Nat.le_max_r _ _)) as H4. rewrite H3 in H4. injection H4 as -> ->. auto.
Qed.

(** What the tree semantics does is what the stream does. *)
Lemma stream_tree e zc cf t ks s : usable e zc cf t -> doc_stream ks s ->
  match fst (read_tree cf e zc t ks) with
  | ROk v => fst (from_stream e zc cf t s) = ROk v
  | RErr k => exists x, fst (from_stream e zc cf t s) = RErr x /\ anyk k (e_kind x)
  | _ => False
  end.
Proof.
  intros (He & Ht & Hc & Hb) [bs tl dbg sk sched Henc Hok Hlen Hs].
  pose proof (tree_stream e zc cf t ks _ bs tl He Ht Hc Hb Henc (fresh_starts dbg sk bs tl Hok Hlen)) as H.
  assert (Heq : fst (from_stream e zc cf t (new_stream dbg sk (mkDev (bs ++ tl) 0 sched))) = fst (from_stream e zc cf t (new_stream dbg sk (mkDev (bs ++ tl) 0 [])))).
  { destruct (from_stream e zc cf t (new_stream dbg sk (mkDev (bs ++ tl) 0 []))) as [r s1] eqn:E.
    destruct (sched_any e zc cf t dbg sk false (bs ++ tl) sched r s1 Hs E) as (s2 & E2 & _).
    change (set_graceful_ false (new_stream dbg sk (mkDev (bs ++ tl) 0 sched))) with (new_stream dbg sk (mkDev (bs ++ tl) 0 sched)) in E2. now rewrite E2. }
  rewrite Heq. destruct (read_tree cf e zc t ks) as [[v|k| |] c]; cbn [fst]; try contradiction.
  - destruct H as (s' & E & _). now rewrite E.
  - destruct H as (x & s' & E & Hk). exists x. now rewrite E.
Qed.

Lemma anyk_limit cf x k k' : anyk k k' -> exceeds cf x k -> exceeds cf x k'.
Proof. intros [?|? ? ? ?]; auto. Qed.

(** ** Results by meaning *)
Section Results.
  Variables (e : env) (zc : bool) (cf : cfg) (t : ty) (ks : list (N * node)).
  Lemma tree_ok v c : read_tree cf e zc t ks = (ROk v, c) -> exists x, denotes e (cf_ignore cf) zc t ks v x /\ fits cf x.
  Proof.
    intros E. pose proof (read_tree_means cf e _ zc t ks (Nat.le_refl _)) as H. rewrite E in H.
    destruct (m_body _ ks) as [[w x]|] eqn:Em; [|contradiction]. destruct H as [-> Hf]. exists x. split; [|exact Hf]. eexists. exact Em.
  Qed.
  Lemma tree_denotes v x : denotes e (cf_ignore cf) zc t ks v x ->
    match fst (read_tree cf e zc t ks) with ROk w => w = v /\ fits cf x | RErr k => exceeds cf x k | _ => False end.
  Proof.
    intros (n & H). pose proof (read_tree_means cf e (Nat.max n (S (N.to_nat (cf_rec cf)))) zc t ks (Nat.le_max_r _ _)) as Hr.
    rewrite (denotes_more _ _ _ _ _ _ _ _ H (Nat.max n (S (N.to_nat (cf_rec cf)))) (Nat.le_max_l _ _)) in Hr.
    destruct (read_tree cf e zc t ks) as [[w|k| |] c]; exact Hr.
  Qed.
  Lemma exceeds_not_fits x k : exceeds cf x k -> ~ fits cf x.
  Proof. intros H (F1 & F2 & F3). destruct k; cbn in H; try contradiction; lia. Qed.

  Theorem meaning_ok s v : usable e zc cf t -> doc_stream ks s ->
    fst (from_stream e zc cf t s) = ROk v <-> exists x, denotes e (cf_ignore cf) zc t ks v x /\ fits cf x.
  Proof.
    intros Hu Hs. pose proof (stream_tree e zc cf t ks s Hu Hs) as H. split.
    - intros E. destruct (read_tree cf e zc t ks) as [[w|k| |] c] eqn:Er; cbn [fst] in H; try contradiction.
      + rewrite H in E. injection E as ->. exact (tree_ok v c Er).
      + destruct H as (x & Hx & _). congruence.
    - intros (x & Hd & Hf). pose proof (tree_denotes v x Hd) as Hr. destruct (fst (read_tree cf e zc t ks)) as [w|k| |]; try contradiction.
      + destruct Hr as [-> _]. exact H.
      + exfalso. exact (exceeds_not_fits x k Hr Hf).
  Qed.
  Theorem meaning_limit s v x : usable e zc cf t -> doc_stream ks s -> denotes e (cf_ignore cf) zc t ks v x -> ~ fits cf x ->
    exists err, fst (from_stream e zc cf t s) = RErr err /\ exceeds cf x (e_kind err).
  Proof.
    intros Hu Hs Hd Hf. pose proof (stream_tree e zc cf t ks s Hu Hs) as H. pose proof (tree_denotes v x Hd) as Hr.
    destruct (fst (read_tree cf e zc t ks)) as [w|k| |]; try contradiction; [destruct Hr; contradiction|].
    destruct H as (er & E & Hk). exists er. split; [exact E|]. exact (anyk_limit cf x k _ Hk Hr).
  Qed.
  Theorem meaning_none s : usable e zc cf t -> doc_stream ks s -> (forall v x, ~ denotes e (cf_ignore cf) zc t ks v x) ->
    exists err, fst (from_stream e zc cf t s) = RErr err.
  Proof.
    intros Hu Hs Hn. pose proof (stream_tree e zc cf t ks s Hu Hs) as H.
    destruct (read_tree cf e zc t ks) as [[w|k| |] c] eqn:Er; cbn [fst] in H; try contradiction.
    - destruct (tree_ok w c Er) as (x & Hd & _). exfalso. exact (Hn _ _ Hd).
    - destruct H as (er & E & _). eauto.
  Qed.
End Results.

(** ** Each limit has a threshold *)
Section Threshold.
  Variables (e : env) (zc : bool) (cf : cfg) (t : ty) (ks : list (N * node)) (s : stream) (v : value).
  Hypothesis Hu : usable e zc cf t.
  Hypothesis Hs : doc_stream ks s.
  Hypothesis Hok : fst (from_stream e zc cf t s) = ROk v.
  Lemma any_limits : exists x, fits cf x /\ forall cf' s', cf_ignore cf' = cf_ignore cf -> cf_collect cf' <= U64_MAX -> cf_blob cf' <= U64_MAX ->
    doc_stream ks s' ->
    (fits cf' x -> fst (from_stream e zc cf' t s') = ROk v) /\
    (~ fits cf' x -> exists err, fst (from_stream e zc cf' t s') = RErr err /\ exceeds cf' x (e_kind err)).
  Proof.
    apply (meaning_ok e zc cf t ks s v Hu Hs) in Hok. destruct Hok as (x & Hd & Hf). exists x. split; [exact Hf|].
    intros cf' s' Hi Hc Hb Hs'. assert (Hu' : usable e zc cf' t) by (destruct Hu as (U1 & U2 & _); repeat split; auto).
    rewrite <- Hi in Hd. split.
    - intros Hf'. apply (meaning_ok e zc cf' t ks s' v Hu' Hs'). exists x. auto.
    - intros Hf'. now apply (meaning_limit e zc cf' t ks s' v x).
  Qed.
  Lemma threshold_rec : exists lev, lev <= cf_rec cf /\ forall lim,
    let r := fst (from_stream e zc (mkCfg lim (cf_ignore cf) (cf_blob cf) (cf_collect cf)) t s) in
    if lev <=? lim then r = ROk v else exists err, r = RErr err /\ e_kind err = KRecLimit.
  Proof.
    destruct any_limits as (x & (F1 & F2 & F3) & H). exists (k_lev x). split; [exact F1|]. intros lim. cbv zeta.
    destruct Hu as (_ & _ & U3 & U4). specialize (H (mkCfg lim (cf_ignore cf) (cf_blob cf) (cf_collect cf)) s eq_refl U3 U4 Hs).
    destruct (N.leb_spec (k_lev x) lim) as [Hl|Hl].
    - apply H. unfold fits. cbn. auto.
    - destruct H as [_ H]. destruct H as (err & E & Hk); [intros (G1 & _); cbn in G1; lia|]. exists err. split; [exact E|].
      destruct (e_kind err); cbn in Hk; try contradiction; try reflexivity; lia.
  Qed.
  Lemma threshold_blob : exists n, n <= cf_blob cf /\ forall lim, lim <= U64_MAX ->
    let r := fst (from_stream e zc (mkCfg (cf_rec cf) (cf_ignore cf) lim (cf_collect cf)) t s) in
    if n <=? lim then r = ROk v else exists err, r = RErr err /\ e_kind err = KMaxBlob.
  Proof.
    destruct any_limits as (x & (F1 & F2 & F3) & H). exists (k_blob x). split; [exact F3|]. intros lim Hlim. cbv zeta.
    destruct Hu as (_ & _ & U3 & U4). specialize (H (mkCfg (cf_rec cf) (cf_ignore cf) lim (cf_collect cf)) s eq_refl U3 Hlim Hs).
    destruct (N.leb_spec (k_blob x) lim) as [Hl|Hl].
    - apply H. unfold fits. cbn. auto.
    - destruct H as [_ H]. destruct H as (err & E & Hk); [intros (G1 & G2 & G3); cbn in G3; lia|]. exists err. split; [exact E|].
      destruct (e_kind err); cbn in Hk; try contradiction; try reflexivity; lia.
  Qed.
  Lemma threshold_collect : exists n, n <= cf_collect cf /\ forall lim, lim <= U64_MAX ->
    let r := fst (from_stream e zc (mkCfg (cf_rec cf) (cf_ignore cf) (cf_blob cf) lim) t s) in
    if n <=? lim then r = ROk v else exists err, r = RErr err /\ e_kind err = KMaxCollect.
  Proof.
    destruct any_limits as (x & (F1 & F2 & F3) & H). exists (k_coll x). split; [exact F2|]. intros lim Hlim. cbv zeta.
    destruct Hu as (_ & _ & U3 & U4). specialize (H (mkCfg (cf_rec cf) (cf_ignore cf) (cf_blob cf) lim) s eq_refl Hlim U4 Hs).
    destruct (N.leb_spec (k_coll x) lim) as [Hl|Hl].
    - apply H. unfold fits. cbn. auto.
    - destruct H as [_ H]. destruct H as (err & E & Hk); [intros (G1 & G2 & G3); cbn in G2; lia|]. exists err. split; [exact E|].
      destruct (e_kind err); cbn in Hk; try contradiction; try reflexivity; lia.
  Qed.
End Threshold.

(** ** One limit exceeded *)
Section One.
  Variables (e : env) (zc : bool) (cf : cfg) (t : ty) (ks : list (N * node)) (s : stream) (v : value) (x : cost).
  Hypothesis Hu : usable e zc cf t.
  Hypothesis Hs : doc_stream ks s.
  Hypothesis Hd : denotes e (cf_ignore cf) zc t ks v x.
  Lemma too_deep : cf_rec cf < k_lev x -> k_coll x <= cf_collect cf -> k_blob x <= cf_blob cf ->
    exists err, fst (from_stream e zc cf t s) = RErr err /\ e_kind err = KRecLimit.
  Proof.
    intros H1 H2 H3. destruct (meaning_limit e zc cf t ks s v x Hu Hs Hd) as (err & E & Hk); [intros (G & _); lia|].
    exists err. split; [exact E|]. destruct (e_kind err); cbn in Hk; try contradiction; try reflexivity; lia.
  Qed.
  Lemma too_many : k_lev x <= cf_rec cf -> cf_collect cf < k_coll x -> k_blob x <= cf_blob cf ->
    exists err, fst (from_stream e zc cf t s) = RErr err /\ e_kind err = KMaxCollect.
  Proof.
    intros H1 H2 H3. destruct (meaning_limit e zc cf t ks s v x Hu Hs Hd) as (err & E & Hk); [intros (_ & G & _); lia|].
    exists err. split; [exact E|]. destruct (e_kind err); cbn in Hk; try contradiction; try reflexivity; lia.
  Qed.
  Lemma too_many_bytes : k_lev x <= cf_rec cf -> k_coll x <= cf_collect cf -> cf_blob cf < k_blob x ->
    exists err, fst (from_stream e zc cf t s) = RErr err /\ e_kind err = KMaxBlob.
  Proof.
    intros H1 H2 H3. destruct (meaning_limit e zc cf t ks s v x Hu Hs Hd) as (err & E & Hk); [intros (_ & _ & G); lia|].
    exists err. split; [exact E|]. destruct (e_kind err); cbn in Hk; try contradiction; try reflexivity; lia.
  Qed.
End One.
