(** * P_GrowB: ... in bytes (C81) *)

From Verif Require Import Base Wire Dev Stream Types Prog Ser De Tree SpecWire SpecFormat SpecStream SpecDe SpecDoc SpecSerDe SpecRead SpecAccept SpecWrite SpecGrow
  P_Base P_Wire P_Read P_Stream P_Types P_DictAll P_Means P_Meaning P_DocOk P_DeProps P_Accept P_Exact P_Canon P_Grow P_Resave P_SerDe P_Amp P_Unamb.
Local Open Scope N_scope.
Strategy 1000 [s_decode_u64 decode_u64 decode_loop write_all read_exact encode_u64 enc_loop encode_fixed_u64 mloop miter].

Definition small_int (x : delem) : Prop := match x with DField _ (DInt n) => n < 2 ^ 64 | _ => True end.
Section Sum.
  Variable w : delem -> N.
  Definition wsum (es : list delem) : N := fold_right (fun x n => w x + n) 0 es.
  Lemma wsum_cons x es : wsum (x :: es) = w x + wsum es. Proof. reflexivity. Qed.
  Lemma wsum_app a b : wsum (a ++ b) = wsum a + wsum b.
  Proof. induction a as [|x a IH]; [reflexivity|]. cbn [app]. rewrite !wsum_cons, IH. lia. Qed.
  Variables (ci : N -> N) (cb : bytes -> N) (cs : N) (ce : N -> N).
  Hypothesis Hi : forall t x, x < 2 ^ 64 -> w (DField t (DInt x)) = ci x.
  Hypothesis Hb : forall t b, w (DField t (DBlobV b)) = cb b.
  Hypothesis Hs : forall t, w (DField t DStructV) + w DEnd = cs.
  Hypothesis He : forall t d, w (DField t (DEnumV d)) + w DEnd = ce d.
  Lemma flat_ms : forall n t, Forall small_int (flat_node t n) -> wsum (flat_node t n) = ms ci cb cs ce n.
  Proof.
    assert (G : forall fs, Forall (fun f : N * node => forall t, Forall small_int (flat_node t (snd f)) -> wsum (flat_node t (snd f)) = ms ci cb cs ce (snd f)) fs ->
      Forall small_int (flat_map (fun f => flat_node (fst f) (snd f)) fs) -> wsum (flat_map (fun f => flat_node (fst f) (snd f)) fs) = msf ci cb cs ce fs).
    { induction 1 as [|[t n] fs Hf _ IH]; [reflexivity|]. cbn [flat_map fst snd]. intros H. apply Forall_app in H. destruct H as [H1 H2].
      rewrite wsum_app, msf_cons, IH by exact H2. cbn [snd] in Hf. now rewrite Hf by exact H1. }
    refine (node_ind' _ _ _ _ _).
    - intros x t H. inversion H; subst. cbn [flat_node] in *. unfold wsum. cbn [fold_right ms]. rewrite Hi by assumption. lia.
    - intros b t _. unfold wsum. cbn [flat_node fold_right ms]. rewrite Hb. lia.
    - intros fs IH t H. cbn [flat_node] in *. inversion H as [|? ? _ H2]; subst. apply Forall_app in H2. destruct H2 as [H2 _].
      rewrite wsum_cons, wsum_app, ms_struct, G by assumption. rewrite <- (Hs t). unfold wsum. cbn [fold_right]. lia.
    - intros d fs IH t H. cbn [flat_node] in *. inversion H as [|? ? _ H2]; subst. apply Forall_app in H2. destruct H2 as [H2 _].
      rewrite wsum_cons, wsum_app, ms_enum, G by assumption. rewrite <- (He t d). unfold wsum. cbn [fold_right]. lia.
  Qed.
  Lemma flats_ms ks : Forall small_int (flat ks) -> wsum (flat ks) = msf ci cb cs ce ks.
  Proof.
    induction ks as [|[t n] ks IH]; [reflexivity|]. unfold flat in *. cbn [flat_map fst snd]. intros H. apply Forall_app in H. destruct H as [H1 H2].
    now rewrite wsum_app, msf_cons, IH, flat_ms.
  Qed.
  Hypothesis Hci : forall x, ci (zz (unzigzag x)) <= ci x.
  Lemma sum_smaller e ign zc t ks v x : env_wf e -> no_unit_body e t -> ~ empty_bytes e t -> denotes e ign zc t ks v x ->
    Forall small_int (flat ks) -> Forall small_int (flat (x_body (doc e v t))) -> wsum (document (x_body (doc e v t))) <= wsum (document ks).
  Proof.
    intros Hwf Hu Hn Hd H1 H2. unfold document. rewrite !wsum_app, !flats_ms by assumption.
    pose proof (not_larger ci cb cs ce Hci e ign zc t ks v x Hwf Hu Hn Hd). lia.
  Qed.
End Sum.

Lemma zz_unzigzag x : x < 2 ^ 64 -> zz (unzigzag x) = x.
Proof.
  intros Hx. assert (H : x mod 2 = 0 \/ x mod 2 = 1) by lia. unfold zz. destruct H as [H|H].
  - rewrite (unzigzag_even x Hx H). destruct (Z.leb_spec 0 (Z.of_N (x / 2))); lia.
  - rewrite (unzigzag_odd x Hx H). destruct (Z.leb_spec 0 (- Z.of_N (x / 2) - 1)); lia.
Qed.
Definition wc (x : delem) : N := lenN (canon x).
Lemma wc_canons es : wsum wc es = lenN (canons es).
Proof. induction es as [|x es IH]; [reflexivity|]. rewrite wsum_cons, canons_cons, lenN_app, IH. reflexivity. Qed.
Definition wz (x : delem) : N := lenN (payload x) + 11.
Lemma wz_size es : wsum wz es = size_bound es.
Proof. induction es as [|x es IH]; [reflexivity|]. rewrite wsum_cons, size_bound_cons, IH. reflexivity. Qed.


Lemma el_small es : Forall delem_ok es -> Forall small_int es.
Proof. apply Forall_impl. intros x H. destruct x as [t d| | | |]; try exact Logic.I. destruct d; try exact Logic.I. exact (proj2 H). Qed.
Lemma doc_small ks : Forall small_int (document ks) -> Forall small_int (flat ks).
Proof. unfold document. intros H. now apply Forall_app in H. Qed.
Lemma enc_short x : x < 2 ^ 64 -> lenN (enc x) <= 11.
Proof. intros Hx. pose proof (canon_hdr_len (HdExc x) Hx) as H. cbn [canon_hdr] in H. rewrite lenN_cons in H. lia. Qed.
Lemma canons_smaller e ign zc t ks v x : env_wf e -> no_unit_body e t -> ~ empty_bytes e t -> denotes e ign zc t ks v x ->
  Forall small_int (flat ks) -> Forall small_int (flat (x_body (doc e v t))) -> lenN (canons (document (x_body (doc e v t)))) <= lenN (canons (document ks)).
Proof.
  intros Hwf Hu Hn Hd H1 H2. rewrite <- !wc_canons.
  refine (sum_smaller wc (fun x => if x <? 2 ^ 64 then 1 + lenN (enc x) else 12) (fun b => 1 + lenN (enc (lenN b)) + lenN b) 2 (fun d => 2 + lenN (enc d)) _ _ _ _ _
    e ign zc t ks v x Hwf Hu Hn Hd H1 H2).
  - intros t0 y Hy. apply N.ltb_lt in Hy. rewrite Hy. unfold wc, canon. cbn [hdr_of canon_hdr payload]. rewrite app_nil_r, lenN_cons. lia.
  - intros t0 b. unfold wc, canon. cbn [hdr_of canon_hdr payload]. rewrite lenN_app, lenN_cons. lia.
  - intros t0. reflexivity.
  - intros t0 d. unfold wc, canon. cbn [hdr_of canon_hdr payload]. rewrite app_nil_r, lenN_cons. change (lenN ([0] ++ [])) with 1. lia.
  - intros y. cbv beta. destruct (N.ltb_spec y (2 ^ 64)) as [Hy|Hy].
    + rewrite zz_unzigzag by exact Hy. apply N.ltb_lt in Hy. rewrite Hy. apply N.le_refl.
    + destruct (N.ltb_spec (zz (unzigzag y)) (2 ^ 64)) as [Hz|Hz]; [pose proof (enc_short _ Hz); lia|lia].
Qed.
Lemma size_smaller e ign zc t ks v x : env_wf e -> no_unit_body e t -> ~ empty_bytes e t -> denotes e ign zc t ks v x ->
  Forall small_int (flat ks) -> Forall small_int (flat (x_body (doc e v t))) -> size_bound (document (x_body (doc e v t))) <= size_bound (document ks).
Proof.
  intros Hwf Hu Hn Hd H1 H2. rewrite <- !wz_size.
  refine (sum_smaller wz (fun _ => 11) (fun b => lenN b + 11) 22 (fun _ => 22) _ _ _ _ _ e ign zc t ks v x Hwf Hu Hn Hd H1 H2); intros; reflexivity.
Qed.

(** ** What was consumed *)

Definition ws (x : delem) : N := match x with DField _ DStructV | DField _ (DEnumV _) => 1 | _ => 0 end.
Definition we1 (x : delem) : N := match x with DEnd => 1 | _ => 0 end.
Lemma starts_ends ks : Forall small_int (flat ks) -> wsum ws (flat ks) = wsum we1 (flat ks).
Proof.
  intros H. rewrite (flats_ms ws (fun _ => 0) (fun _ => 0) 1 (fun _ => 1)); try reflexivity; [|exact H].
  rewrite (flats_ms we1 (fun _ => 0) (fun _ => 0) 1 (fun _ => 1)); try reflexivity. exact H.
Qed.
Lemma wsum_le f g es : (forall x, f x <= g x) -> wsum f es <= wsum g es.
Proof. intros H. induction es as [|x es IH]; [apply N.le_refl|]. rewrite !wsum_cons. specialize (H x). lia. Qed.
Lemma wsum_end f k : wsum f (repeat DEnd k) = N.of_nat k * f DEnd.
Proof. induction k as [|k IH]; [reflexivity|]. cbn [repeat]. rewrite wsum_cons, IH. lia. Qed.
Lemma hdr_pos x : 1 <= lenN (canon_hdr (hdr_of x)).
Proof. destruct x as [t []| | | |]; cbn [hdr_of canon_hdr]; rewrite ?lenN_cons; try apply N.le_add_l; change (lenN (@nil N)) with 0; lia. Qed.
Lemma wc_pos x : 1 <= wc x.
Proof. unfold wc, canon. rewrite lenN_app. pose proof (hdr_pos x). lia. Qed.
Lemma ws_wc x : ws x <= wc x.
Proof. pose proof (wc_pos x). destruct x as [t []| | | |]; cbn [ws]; lia. Qed.
Lemma wz_wc x : wz x <= 11 * wc x.
Proof. pose proof (hdr_pos x) as H. unfold wz, wc, canon. rewrite lenN_app. lia. Qed.

(** The document is at most twice as long as the input it was read from, in its
    shortest form. *)
Lemma closes_len es ks : closes es ks -> Forall delem_ok es -> Forall small_int (flat ks) ->
  lenN (canons (document ks)) + 1 <= 2 * lenN (canons es) /\ size_bound (document ks) <= 22 * lenN (canons es).
Proof.
  intros Hc He Hs. rewrite <- !wc_canons, <- wz_size.
  destruct Hc as [->|(X & k & HX & ->)].
  - unfold document. rewrite !wsum_app. change (wsum wc [DEnd]) with 1. change (wsum wz [DEnd]) with 11.
    assert (H : wsum wz (flat ks) <= wsum (fun x => 11 * wc x) (flat ks)) by (apply wsum_le, wz_wc).
    assert (H11 : forall l, wsum (fun x => 11 * wc x) l = 11 * wsum wc l) by (induction l as [|y l IH]; [reflexivity|rewrite !wsum_cons, IH; lia]).
    rewrite H11 in H. lia.
  - pose proof (starts_ends ks Hs) as Hse.
    assert (Hd : wsum we1 (document ks) = wsum ws (document ks) + 1) by (unfold document; rewrite !wsum_app, Hse; change (wsum we1 [DEnd]) with 1; change (wsum ws [DEnd]) with 0; lia).
    rewrite HX in *. rewrite !wsum_app, !wsum_end in *. change (we1 DEnd) with 1 in Hd. change (ws DEnd) with 0 in Hd. change (wc DEnd) with 1. change (wz DEnd) with 11.
    change (wsum wc [DEof]) with 1.
    assert (H1 : wsum ws X <= wsum wc X) by apply wsum_le, ws_wc.
    assert (H : wsum wz X <= wsum (fun x => 11 * wc x) X) by (apply wsum_le, wz_wc).
    assert (H11 : forall l, wsum (fun x => 11 * wc x) l = 11 * wsum wc l) by (induction l as [|y l IH]; [reflexivity|rewrite !wsum_cons, IH; lia]).
    rewrite H11 in H. lia.
Qed.
Lemma filter_len p es : wsum wc (filter p es) <= wsum wc es.
Proof. induction es as [|x es IH]; [apply N.le_refl|]. cbn [filter]. destruct (p x); rewrite !wsum_cons; lia. Qed.
Lemma encodes_len es b : encodes es b -> Forall delem_ok es /\ wsum wc es <= lenN b.
Proof.
  intros (es' & Hen & <-). split.
  - apply elems_enc_ok in Hen. rewrite Forall_forall in *. intros x Hx. apply filter_In in Hx. now apply Hen.
  - destruct (elems_shortest _ _ Hen) as [H _]. rewrite <- wc_canons in H. pose proof (filter_len not_pad es'). lia.
Qed.
Lemma closes_ok es ks : closes es ks -> Forall delem_ok es -> Forall small_int (flat ks).
Proof.
  intros Hc H. apply doc_small, el_small. destruct Hc as [->|(X & k & HX & ->)]; [exact H|]. rewrite HX. apply Forall_app in H. destruct H as [H _].
  apply Forall_app. split; [exact H|]. apply Forall_forall. intros y Hy. apply repeat_spec in Hy. subst y. exact Logic.I.
Qed.

Section Back.
  Variables (e : env) (zc : bool) (cf : cfg) (t : ty).
  Hypothesis Hwf : env_wf e.
  Hypothesis Hsh : shape_wf t.
  Hypothesis Hd : deserialisable e zc t.
  Hypothesis Hc : cf_collect cf <= U64_MAX.
  Hypothesis Hb : cf_blob cf <= U64_MAX.
  Hypothesis Hu : no_unit_body e t.
  Hypothesis Hn : ~ empty_bytes e t.
  Lemma grown_any dbg sk bs sched v s' dw : bytes_ok bs -> 22 * lenN bs + 3 < U64_MAX ->
    from_stream e zc cf t (new_stream dbg sk (mkDev bs 0 sched)) = (ROk v, s') ->
    size_of e t v <= 22 * s_pos s' /\ s_pos s' <= lenN bs /\ exists out, to_vec e dw t v = ROk out /\ lenN out + 1 <= 2 * s_pos s'.
  Proof.
    intros Ho Hl H. pose proof (env_wf_ok e Hwf) as He.
    destruct (consumed_exactly e zc cf t dbg sk bs sched v s' ltac:(repeat split; assumption) Ho ltac:(lia) H) as (b0 & tl & es & ks & x & -> & Hen & Hcl & Hde & Hf & Hp & _).
    destruct (encodes_len _ _ Hen) as [Hel Hlen].
    assert (Hel' : Forall delem_ok (filter not_exc es)) by (rewrite Forall_forall in *; intros y Hy; apply filter_In in Hy; now apply Hel).
    pose proof (closes_ok _ _ Hcl Hel') as Hks. destruct (closes_len _ _ Hcl Hel' Hks) as [L1 L2]. rewrite <- wc_canons in L1, L2.
    assert (HT : has_type e v t) by (refine (stream_valid e zc cf t _ _ _ _ _ _ _ He Hd Hc Hb Ho _ H); lia).
    destruct (doc_ok e Hwf v t HT Hsh) as (Hok & _ & _).
    pose proof (doc_small _ (el_small _ (doc_el_ok _ Hok))) as Hvs.
    pose proof (canons_smaller e (cf_ignore cf) zc t ks v x Hwf Hu Hn Hde Hks Hvs) as C1.
    pose proof (size_smaller e (cf_ignore cf) zc t ks v x Hwf Hu Hn Hde Hks Hvs) as C2.
    pose proof (filter_len not_exc es) as Hfl. rewrite <- wc_canons in L1. rewrite lenN_app in Hl. rewrite Hp. rewrite <- !wc_canons in *.
    assert (Hsz : size_of e t v <= 22 * lenN b0) by (unfold size_of, body_of; lia). split; [exact Hsz|]. split; [rewrite lenN_app; lia|].
    exists (bytes_of e t v). split; [apply to_vec_ok; auto; [split; assumption|lia]|]. unfold bytes_of. rewrite <- wc_canons. unfold body_of. lia.
  Qed.
End Back.

Section Doc.
  Variables (e : env) (t : ty).
  Hypothesis Hwf : env_wf e.
  Hypothesis Hsh : shape_wf t.
  Hypothesis Hu : no_unit_body e t.
  Hypothesis Hn : ~ empty_bytes e t.
  Lemma grown_denotes ign zc ks v x : denotes e ign zc t ks v x -> has_type e v t -> nodes_ok ks ->
    size_of e t v <= size_bound (document ks) /\ lenN (bytes_of e t v) <= lenN (canons (document ks)).
  Proof.
    intros Hde HT Hks. destruct (doc_ok e Hwf v t HT Hsh) as (Hok & _ & _).
    pose proof (doc_small _ (el_small _ (doc_el_ok _ Hok))) as Hvs. pose proof (doc_small _ (el_small _ (doc_el_ok _ Hks))) as Hk.
    split; [exact (size_smaller e ign zc t ks v x Hwf Hu Hn Hde Hk Hvs)|exact (canons_smaller e ign zc t ks v x Hwf Hu Hn Hde Hk Hvs)].
  Qed.
  Lemma grown_doc zc cf ks s v b dw : deserialisable e zc t -> cf_collect cf <= U64_MAX -> cf_blob cf <= U64_MAX ->
    doc_stream ks s -> fst (from_stream e zc cf t s) = ROk v -> encodes_doc ks b -> 22 * lenN b <= U64_MAX ->
    exists out, to_vec e dw t v = ROk out /\ lenN out <= lenN b.
  Proof.
    intros Hd Hc Hb Hs H Hen Hl. pose proof (env_wf_ok e Hwf) as He.
    apply (meaning_ok e zc cf t ks s v) in H; [|repeat split; assumption|exact Hs]. destruct H as (x & Hde & Hf).
    assert (HT : has_type e v t).
    { inversion Hs as [bs tl dbg sk sched H1 H2 H3 H4]. subst s. 
      destruct (from_stream e zc cf t (new_stream dbg sk (mkDev (bs ++ tl) 0 sched))) as [r s'] eqn:E.
      assert (Er : r = ROk v) by (change r with (fst (r, s')); rewrite <- E; apply (meaning_ok e zc cf t ks _ v); [repeat split; assumption|exact Hs|now exists x]).
      subst r. exact (stream_valid e zc cf t _ _ _ _ _ _ _ He Hd Hc Hb H2 H3 E). }
    destruct (doc_list _ _ Hen) as (es & L1 & F1). 
    assert (Hel : encodes (document ks) b) by (exists (es ++ [DEnd]); split; [exact L1|now rewrite filter_app, F1]).
    destruct (encodes_len _ _ Hel) as [Hel1 Hlen].
    pose proof (doc_small _ (el_small _ Hel1)) as Hk. destruct (closes_len _ _ (or_introl eq_refl) Hel1 Hk) as [_ L2]. rewrite <- wc_canons in L2.
    destruct (doc_ok e Hwf v t HT Hsh) as (Hok & _ & _). pose proof (doc_small _ (el_small _ (doc_el_ok _ Hok))) as Hvs.
    pose proof (size_smaller e _ zc t ks v x Hwf Hu Hn Hde Hk Hvs) as C2. pose proof (canons_smaller e _ zc t ks v x Hwf Hu Hn Hde Hk Hvs) as C1.
    rewrite <- !wc_canons in C1. exists (bytes_of e t v). split; [apply to_vec_ok; auto; [split; assumption|unfold size_of; lia]|].
    unfold bytes_of, body_of. rewrite <- wc_canons. lia.
  Qed.
End Doc.
