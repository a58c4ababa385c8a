(** * P_Elems: reading elements one at a time (C79) *)

From Verif Require Import Base Wire Dev Stream Types Prog De Tree SpecFormat SpecDoc SpecDe SpecRead Elems SpecElems
  P_Base P_Prog P_Types P_DictAll P_El P_Tree P_TreeRun P_Same P_Means P_Meaning P_DeSched P_DeTrail SpecStream SpecSerDe P_Wp P_Dict P_DeStream P_DeProps P_Sched P_Stream P_Read P_SerDe P_GiveUp Ser.
Local Open Scope N_scope.
Strategy 1000 [s_decode_u64 decode_u64 decode_loop write_all read_exact encode_u64 enc_loop encode_fixed_u64 mloop miter].

(** ** On trees *)
Definition t_each (d : tdict) : list value -> list (N * node) -> T (list value) :=
  t_loop (fun vs tag n => let* v := t_elem d tag n in mret (vs ++ [v])).

Lemma rmap_each (conv : node -> R value) (ks : list (N * node)) : forall vs : list value,
  (let! ws := rmap (fun f => conv (snd f)) ks in rret (vs ++ ws)) =
  match ks with
  | [] => rret vs
  | f :: r => let! v := conv (snd f) in let! ws := rmap (fun f => conv (snd f)) r in rret ((vs ++ [v]) ++ ws)
  end.
Proof.
  intros vs. destruct ks as [|f r]; cbn [rmap]; [rewrite rbind_ret, app_nil_r; reflexivity|].
  rewrite rbind_assoc. apply rbind_ext. intros v. rewrite rbind_assoc. apply rbind_ext. intros ws.
  rewrite rbind_ret, <- app_assoc. reflexivity.
Qed.
Lemma each_means cf F td mn : dag cf F td mn -> forall ks vs,
  agree cf F (t_each td vs ks) (let! ws := rmap (fun f => m_elem mn (snd f)) ks in rret (vs ++ ws)).
Proof.
  intros Hd. induction ks as [|[tag n] ks IH]; intros vs; rewrite rmap_each; unfold t_each; cbn [t_loop].
  - apply agree_ret.
  - cbn [snd]. apply (agree_eq cf F (let* v := t_elem td tag n in t_each td (vs ++ [v]) ks)).
    { intros c. unfold t_each. unfold mbind. destruct (t_elem td tag n c) as [[v|k| |] c1]; reflexivity. }
    apply agree_bind; [apply Hd|]. intros v. apply IH.
Qed.

Section On.
  Variables (cf : cfg) (Hcc : cf_collect cf <= U64_MAX) (Hcb : cf_blob cf <= U64_MAX) (en dbg : bool).
  Lemma each_does d s : agrees cf en dbg d s -> forall ks R D,
    does cf (at_body en dbg ks R D) (each_elem d) (t_each s [] ks) (past en dbg R (D - 1)).
  Proof.
    intros H ks R D. unfold each_elem, t_each.
    eapply does_loop with (h := (fun vs tag vh => v <- d_elem d tag vh ; PRet (inl (vs ++ [v])))); [exact Hcc|exact Hcb|reflexivity|].
    intros vs tag n R0.
    apply (does_ext cf (at_node en dbg tag n R0 D) _ (let* v := t_elem s tag n in mret (inl (vs ++ [v])))).
    { intros c. unfold mbind. destruct (t_elem s tag n c) as [[v|k| |] c1]; reflexivity. }
    apply does_bind with (Mid := past en dbg R0 D); [apply (ag_elem _ _ _ _ _ H)|]. intros v. now apply does_ret.
  Qed.

  (** Fields with something after them. *)
  Definition at_list (ks : list (N * node)) (R : list (N * delem)) (D : N) : spred := fun q _ =>
    exists X d bl, q = mkEls (X ++ R) en false d bl dbg /\ map snd X = flat ks /\ field_depth d = D /\ lenN (X ++ R) <= U64_MAX.
  Lemma list_kid tag n ks R D : forall st, at_list ((tag, n) :: ks) R D (x_s st) (x_cur st) ->
    exists X2 st', map snd X2 = flat ks /\ run_op el_source cf ONext st = (ROk (Some (tag, hdr_node n)), st') /\
       at_node en dbg tag n (X2 ++ R) D (x_s st') (x_cur st') /\
       x_over st' = x_over st /\ abs st' = abs st /\
       (forall q c, past en dbg (X2 ++ R) D q c -> at_list ks R D q c).
  Proof.
    intros st (X & d & bl & E & HX & Hd & Hl). rewrite flat_cons in HX.
    destruct X as [|[o1 e1] X]; [discriminate|]. cbn [map snd] in HX. injection HX as -> HX.
    apply map_eq_app in HX. destruct HX as (X1 & X2 & -> & H1 & H2).
    assert (HD : 1 <= D) by (unfold field_depth in Hd; lia).
    assert (Hl2 : lenN (X1 ++ X2 ++ R) <= U64_MAX).
    { cbn [app] in Hl. rewrite lenN_cons in Hl. rewrite <- app_assoc in Hl. lia. }
    exists X2.
    cbn [run_op]. unfold mbind, on_src_of. rewrite E. cbn [el_source i_next]. unfold el_next. cbn [q_eof q_es app].
    assert (Hh : hdr_of (DField tag (dv_of n)) = HdField tag (match n with NInt x => HvInt x | NBlob b => HvBlob (lenN b) | NStruct _ => HvStruct | NEnum d _ => HvEnum d end)) by (destruct n; reflexivity).
    rewrite Hh. eexists. split; [exact H2|]. split.
    { cbn. replace (vhdr_of match n with NInt x => HvInt x | NBlob b => HvBlob (lenN b) | NStruct _ => HvStruct | NEnum d0 _ => HvEnum d0 end) with (hdr_node n) by (destruct n; reflexivity). reflexivity. }
    split; [|split; [reflexivity|split; [reflexivity|]]].
    - cbn [x_s x_set_s x_set_cur x_cur]. exists X1, o1, (payload (DField tag (dv_of n))).
      cbn [q_end q_depth q_dbg]. rewrite <- app_assoc. split.
      { f_equal. unfold depth_after. rewrite <- Hd. destruct n; reflexivity. }
      split; [exact H1|]. split; [rewrite <- Hd; reflexivity|].
      split; [intros Hn; destruct n; try discriminate; reflexivity|]. split; [exact HD|exact Hl2].
    - intros q c (bl' & ->). exists X2, D, bl'. split; [reflexivity|]. split; [exact H2|]. split; [unfold field_depth; lia|].
      rewrite lenN_app in Hl2. lia.
  Qed.
  Lemma upto_does d s : agrees cf en dbg d s -> forall ks R D vs,
    does cf (at_list ks R D) (upto_elems d (List.length ks) vs) (t_each s vs ks) (at_list [] R D).
  Proof.
    intros H. induction ks as [|[tag n] ks IH]; intros R D vs.
    - cbn [List.length upto_elems]. unfold t_each. cbn [t_loop]. now apply does_ret.
    - intros st Hp Ho Hc. cbn [List.length upto_elems].
      destruct (list_kid tag n ks R D st Hp) as (X2 & st1 & HX2 & E & Hp1 & Ho1 & Ha1 & Hback).
      rewrite (run_do_ok _ _ _ _ _ _ _ E). rewrite <- Ho1 in Ho. rewrite <- Ha1 in Hc |- *.
      assert (Hd : does cf (at_node en dbg tag n (X2 ++ R) D) (v <- d_elem d tag (hdr_node n) ; upto_elems d (List.length ks) (vs ++ [v]))
                 (let* v := t_elem s tag n in t_each s (vs ++ [v]) ks) (at_list [] R D)).
      { apply does_bind with (Mid := at_list ks R D); [|intros v; apply IH].
        eapply does_imp; [apply (ag_elem _ _ _ _ _ H)|intros q c HH; exact HH|exact Hback]. }
      specialize (Hd st1 Hp1 Ho Hc).
      assert (Heq : t_each s vs ((tag, n) :: ks) (abs st1) = (let* v := t_elem s tag n in t_each s (vs ++ [v]) ks) (abs st1)).
      { unfold t_each. cbn [t_loop]. unfold mbind. destruct (t_elem s tag n (abs st1)) as [[v|k| |] c1]; reflexivity. }
      rewrite Heq. exact Hd.
  Qed.
End On.

(** ** Streams *)
Lemma prog_to_stream cf {A} (p : prog A) es bs tl s : (forall o, enc_at false false o (map (pair 0) es) bs) -> starts s bs tl ->
  match fst (run el_source cf p (top_rst (mkEls (map (pair 0) es) false false 0 [] (s_dbg s)))), fst (run stream_source cf p (top_rst s)) with
  | ROk v, ROk w => v = w
  | RErr x, RErr y => err_rel (fun _ _ => True) x y
  | ROk _, _ | RErr _, _ => False
  | _, _ => True
  end.
Proof.
  intros Henc Hst. set (q := mkEls (map (pair 0) es) false false 0 [] (s_dbg s)).
  assert (Hsim : sim_rst (RSA false false tl) (top_rst q) (top_rst s)).
  { unfold sim_rst. cbn. split; [|auto]. split; [|split; [exact Logic.I|exact (st_none _ _ _ Hst)]]. exists bs.
    destruct Hst as [S1 S2 S3 S4 S5 S6 S7 S8 S9]. constructor; cbn; auto; try congruence. }
  pose proof (el_stream false false tl cf p _ _ Hsim) as H.
  destruct (run el_source cf _ (top_rst q)) as [[v|x| |] st1]; destruct (run stream_source cf _ (top_rst s)) as [r st2]; cbn [fst]; try exact Logic.I.
  - destruct H as [H|[H|H]]; [contradiction|contradiction|]. cbn [fst snd] in *. destruct r; try contradiction. apply H.
  - destruct H as [H|[H|H]]; [discriminate H|contradiction|]. cbn [fst snd] in *. destruct r; try contradiction.
    destruct H as [H2 H3]. split; [exact H2|]. inversion H3; subst; constructor; exact Logic.I.
Qed.
Lemma prog_sched cf {A} (p : prog A) dbg sk bs sched : Forall (fun x => x <> EvFail) sched ->
  fst (run stream_source cf p (top_rst (new_stream dbg sk (mkDev bs 0 sched)))) = fst (run stream_source cf p (top_rst (new_stream dbg sk (mkDev bs 0 [])))).
Proof.
  intros Hs. destruct (run stream_source cf p (top_rst (new_stream dbg sk (mkDev bs 0 sched)))) as [r1 st1] eqn:E.
  destruct (run_dsim cf p _ _ _ E) as [[Heq Hb]|(Hnb & x & -> & _)]; [|contradiction].
  change (rstrip (top_rst (new_stream dbg sk (mkDev bs 0 sched)))) with (top_rst (new_stream dbg sk (mkDev bs 0 []))) in Heq. now rewrite Heq.
Qed.
Lemma list_at es b : encodes es b -> exists b' np, b = b' ++ repeat 0xC0 np /\ forall p, enc_at false false p (map (pair 0) es) b'.
Proof.
  intros (es' & H & E). rewrite <- E. clear E.
  induction H as [|e es' b1 bs1 He Hes (b' & np & -> & IH)].
  - exists [], 0%nat. split; [reflexivity|]. intros p. apply EaNil.
  - destruct e as [t v| | |m|]; cbn [filter not_pad map];
      try (exists (b1 ++ b'), np; rewrite <- app_assoc; split; [reflexivity|]; intros p; apply EaCons; [discriminate|discriminate|exact He|apply IH]).
    destruct He as (h & Hh & _ & ->). inversion Hh; subst. cbn [payload app].
    destruct (filter not_pad es') as [|x es2].
    + destruct b' as [|c b'].
      * exists [], (S np). split; [reflexivity|]. intros p. apply EaNil.
      * exfalso. specialize (IH 0). cbn in IH. destruct (enc_at_nil _ _ _ _ IH) as (k & E & Hk). rewrite (Hk eq_refl) in E. discriminate E.
    + exists (0xC0 :: b'), np. split; [reflexivity|]. intros p. apply EaPad; [right; discriminate|apply IH].
Qed.

(** ** Results *)
Definition read_elems cf e zc t ks : res ekind (list value) * cs := t_each (t_full cf e (S (N.to_nat (cf_rec cf))) zc t) [] ks (mkC 0 0 0 []).
Lemma elems_means cf e F2 zc t (ks : list (N * node)) : (S (N.to_nat (cf_rec cf)) <= F2)%nat ->
  match rmap (fun f => m_elem (means (cf_ignore cf) e F2 zc t) (snd f)) ks with
  | Some (vs, x) =>
      match read_elems cf e zc t ks with
      | (ROk w, _) => w = vs /\ fits cf x
      | (RErr k, _) => exceeds cf x k
      | _ => False
      end
  | None => match read_elems cf e zc t ks with (ROk _, _) => False | _ => True end
  end.
Proof.
  intros Hle. pose proof (each_means cf _ _ _ (dag_full cf e (S (N.to_nat (cf_rec cf))) F2 zc t Hle) ks [] (mkC 0 0 0 [])) as H.
  assert (Hi : inv cf (S (N.to_nat (cf_rec cf))) (mkC 0 0 0 [])) by (unfold inv; cbn [c_lev c_coll c_blob]; lia).
  specialize (H Hi). unfold read_elems. destruct (rmap _ ks) as [[v x]|]; cbn [rbind rret app] in H.
  - destruct (t_each _ [] ks _) as [[w|k| |] c']; try contradiction.
    + destruct H as (E & _ & R1 & R2 & R3). cbn in R1, R2, R3. split; [exact E|]. unfold fits. lia.
    + destruct k; cbn in H |- *; try contradiction; lia.
  - exact H.
Qed.
Lemma rle_rmap {A B} (f g : A -> R B) l : (forall a, rle (f a) (g a)) -> rle (rmap f l) (rmap g l).
Proof. intros H. now apply rle_map. Qed.
Lemma elems_more e ign zc t (ks : list (N * node)) vs x f : rmap (fun g => m_elem (means ign e f zc t) (snd g)) ks = Some (vs, x) ->
  forall f', (f <= f')%nat -> rmap (fun g => m_elem (means ign e f' zc t) (snd g)) ks = Some (vs, x).
Proof. intros H f' Hle. refine (rle_rmap _ _ ks _ _ H). intros a. apply (ml_elem _ _ (means_mle ign e f f' zc t Hle)). Qed.
Lemma elems_tree cf e zc t ks vs x : elems_denote e (cf_ignore cf) zc t ks vs x ->
  match fst (read_elems cf e zc t ks) with ROk w => w = vs /\ fits cf x | RErr k => exceeds cf x k | _ => False end.
Proof.
  intros (n & H). pose proof (elems_means cf e (Nat.max n (S (N.to_nat (cf_rec cf)))) zc t ks (Nat.le_max_r _ _)) as Hr.
  rewrite (elems_more _ _ _ _ _ _ _ _ H (Nat.max n (S (N.to_nat (cf_rec cf)))) (Nat.le_max_l _ _)) in Hr.
  destruct (read_elems cf e zc t ks) as [[w|k| |] c]; exact Hr.
Qed.

Lemma doc_prog cf {A} (p : prog A) (m : T A) ks s : cf_collect cf <= U64_MAX -> cf_blob cf <= U64_MAX -> doc_stream ks s ->
  (forall dbg, does cf (at_body false dbg ks [] 1) p m (past false dbg [] 0)) ->
  match fst (m (mkC 0 0 0 [])) with
  | ROk vs => fst (run stream_source cf p (top_rst s)) = ROk vs
  | RErr k => exists x, fst (run stream_source cf p (top_rst s)) = RErr x /\ anyk k (e_kind x)
  | _ => True
  end.
Proof.
  intros Hc Hb [bs tl dbg sk sched Henc Hok Hlen Hs] Hdo. rewrite prog_sched by exact Hs.
  pose proof (fresh_starts dbg sk bs tl Hok Hlen) as Hst.
  pose proof (prog_to_stream cf p (document ks) bs tl _ (doc_at _ _ Henc) Hst) as Hx.
  change (s_dbg (new_stream dbg sk (mkDev (bs ++ tl) 0 []))) with dbg in Hx.
  set (q := mkEls (map (pair 0) (document ks)) false false 0 [] dbg) in *.
  pose proof (Hdo dbg (top_rst q)) as Hd.
  cbn [x_s x_cur top_rst x_over] in Hd.
  assert (Hml : lenN (map (pair 0) (document ks)) = lenN (document ks)) by (unfold lenN; now rewrite map_length).
  pose proof (encodes_len _ _ (doc_encodes _ _ Henc)) as Hlen2.
  assert (Hat : at_body false dbg ks [] 1 q None).
  { exists (map (pair 0) (flat ks)), 0, 0, []. split; [unfold q, document; rewrite map_app; reflexivity|].
    split; [rewrite map_map; apply map_id|]. split; [reflexivity|].
    unfold document in Hml, Hlen2. rewrite map_app in Hml. cbn [map] in Hml. rewrite Hml. rewrite lenN_app in Hlen. lia. }
  specialize (Hd Hat eq_refl). change (abs (top_rst q)) with (mkC 0 0 0 []) in Hd.
  assert (Hci : cinv cf (mkC 0 0 0 [])) by (split; cbn; lia). specialize (Hd Hci).
  destruct (m (mkC 0 0 0 [])) as [[vs|k| |] c']; cbn [fst]; try exact Logic.I.
  - destruct Hd as (st1 & E1 & _). rewrite E1 in Hx. cbn [fst] in Hx. destruct (fst (run stream_source cf p _)); try contradiction. now subst.
  - destruct Hd as (x & st1 & E1 & Hk & _). rewrite E1 in Hx. cbn [fst] in Hx. destruct (fst (run stream_source cf p _)) as [|y| |]; try contradiction.
    exists y. split; [reflexivity|]. destruct Hx as [_ Hx]. exact (anyk_kind _ _ _ _ Hk Hx).
Qed.
Lemma elems_stream e zc cf t ks s : cf_collect cf <= U64_MAX -> cf_blob cf <= U64_MAX -> doc_stream ks s ->
  match fst (read_elems cf e zc t ks) with
  | ROk vs => stream_elements e zc cf t s = ROk vs
  | RErr k => exists x, stream_elements e zc cf t s = RErr x /\ anyk k (e_kind x)
  | _ => True
  end.
Proof.
  intros Hc Hb Hs. refine (doc_prog cf _ _ ks s Hc Hb Hs _). intros dbg.
  exact (each_does cf Hc Hb false dbg _ _ (full_agrees cf Hc Hb false dbg e (S (N.to_nat (cf_rec cf))) zc t) ks [] 1).
Qed.
Lemma list_prog cf {A} (p : prog A) (m : T A) ks b tl dbg sk sched a c : cf_collect cf <= U64_MAX -> cf_blob cf <= U64_MAX ->
  encodes (flat ks) b -> bytes_ok (b ++ tl) -> lenN (b ++ tl) + 3 < U64_MAX -> Forall (fun y => y <> EvFail) sched ->
  does cf (at_list false dbg ks [] 1) p m (at_list false dbg [] [] 1) -> m (mkC 0 0 0 []) = (ROk a, c) ->
  fst (run stream_source cf p (top_rst (new_stream dbg sk (mkDev (b ++ tl) 0 sched)))) = ROk a.
Proof.
  intros Hc Hb Henc Hok Hlen Hs Hdo Hm. rewrite prog_sched by exact Hs.
  pose proof (encodes_len _ _ Henc) as Hlen2.
  destruct (list_at _ _ Henc) as (b' & np & -> & Hat'). rewrite <- app_assoc in *.
  pose proof (fresh_starts dbg sk b' _ Hok Hlen) as Hst.
  pose proof (prog_to_stream cf p (flat ks) b' _ _ Hat' Hst) as Hx.
  change (s_dbg (new_stream dbg sk (mkDev (b' ++ repeat 0xC0 np ++ tl) 0 []))) with dbg in Hx.
  set (q := mkEls (map (pair 0) (flat ks)) false false 0 [] dbg) in *.
  pose proof (Hdo (top_rst q)) as Hd. cbn [x_s x_cur top_rst x_over] in Hd.
  assert (Hml : lenN (map (pair 0) (flat ks)) = lenN (flat ks)) by (unfold lenN; now rewrite map_length).
  assert (Hat : at_list false dbg ks [] 1 q None).
  { exists (map (pair 0) (flat ks)), 0, []. rewrite app_nil_r. split; [reflexivity|].
    split; [rewrite map_map; apply map_id|]. split; [reflexivity|]. rewrite Hml. rewrite !lenN_app in *. lia. }
  specialize (Hd Hat eq_refl). change (abs (top_rst q)) with (mkC 0 0 0 []) in Hd.
  assert (Hci : cinv cf (mkC 0 0 0 [])) by (split; cbn; lia). specialize (Hd Hci). rewrite Hm in Hd.
  destruct Hd as (st1 & E1 & _). rewrite E1 in Hx. cbn [fst] in Hx. destruct (fst (run stream_source cf p _)); try contradiction. now subst.
Qed.
Theorem first_stream e zc cf t ks vs x b tl dbg sk sched : cf_collect cf <= U64_MAX -> cf_blob cf <= U64_MAX ->
  elems_denote e (cf_ignore cf) zc t ks vs x -> fits cf x -> encodes (flat ks) b ->
  bytes_ok (b ++ tl) -> lenN (b ++ tl) + 3 < U64_MAX -> Forall (fun y => y <> EvFail) sched ->
  first_elements e (List.length ks) zc cf t (new_stream dbg sk (mkDev (b ++ tl) 0 sched)) = ROk vs.
Proof.
  intros Hc Hb Hden Hfit Henc Hok Hlen Hs.
  pose proof (elems_tree cf e zc t ks vs x Hden) as Ht. unfold read_elems in Ht.
  destruct (t_each _ [] ks (mkC 0 0 0 [])) as [[ws|k| |] c'] eqn:Em; cbn [fst] in Ht; try contradiction.
  - destruct Ht as [-> _]. refine (list_prog cf _ _ ks b tl dbg sk sched vs c' Hc Hb Henc Hok Hlen Hs _ Em).
    exact (upto_does cf Hc Hb false dbg _ _ (full_agrees cf Hc Hb false dbg e (S (N.to_nat (cf_rec cf))) zc t) ks [] 1 []).
  - exfalso. exact (exceeds_not_fits cf x k Ht Hfit).
Qed.

(** ** Arbitrary streams *)
Lemma sumN_app a b : sumN (a ++ b) = sumN a + sumN b.
Proof. induction a as [|x a IH]; [reflexivity|]. cbn [sumN app fold_right] in *. fold (sumN (a ++ b)) in *. fold (sumN a). lia. Qed.
Section Wp.
  Variables (cf : cfg) (e : env) (zc : bool) (t : ty) (d : dict).
  Hypothesis Hel : elem_ok cf e 0 zc t d.
  Definition elems_valid (vs : list value) (c b : N) : Prop :=
    Forall (fun v => has_type e v t) vs /\ sumN (map coll_count vs) <= c /\ sumN (map (fun v => copied e v zc t) vs) <= b.
  Lemma each_wp s : a_open s = 1%nat -> a_path s = 0 -> a_meas s <= U64_MAX -> a_coll s = 0 -> a_blob s = 0 ->
    wpp cf (each_elem d) (fun vs s' => elems_valid vs (a_coll s') (a_blob s')) s.
  Proof.
    intros O P M C B. unfold each_elem. eapply wpp_ploop with (Inv := fun (vs : list value) s' =>
      a_open s' = 1%nat /\ a_path s' = 0 /\ a_meas s' <= U64_MAX /\ elems_valid vs (a_coll s') (a_blob s')); [|repeat (split; [assumption|])|exact M].
    - intros vs s1 (I1 & I2 & I3 & V1 & V2 & V3).
      apply wpp_do. cbn [op_wp]. split; [lia|]. split.
      + intros ms Hms. cbn [wpp]. cbn. split; [exact V1|]. split; [exact V2|exact V3].
      + intros tag v ms Hok Hms. apply wpp_bind.
        eapply wpp_mono; [|apply (Hel _ tag v (a_open s1))].
        * intros x s2 ((D1 & D2 & D3 & D4 & D5) & W1 & _ & W3 & W4). acbn. cbn [wpp]. split; [|lia].
          split; [lia|]. split; [lia|]. split; [lia|]. split; [apply Forall_app; split; [exact V1|apply Forall_cons; [exact W1|apply Forall_nil]]|].
          rewrite !map_app, !sumN_app. cbn [map sumN fold_right]. lia.
        * unfold pre. cbn. lia.
        * unfold at_field. acbn. split; [exact Hok|]. split; [reflexivity|]. split; [reflexivity|reflexivity].
    - split; [apply Forall_nil|]. cbn. lia.
  Qed.
End Wp.
Theorem elems_safe e zc cf t s : env_ok e -> deserialisable e zc t -> cf_collect cf <= U64_MAX -> cf_blob cf <= U64_MAX -> seqinv (strip s) ->
  match stream_elements e zc cf t s with
  | ROk vs => Forall (fun v => has_type e v t) vs /\ sumN (map coll_count vs) <= cf_collect cf /\ sumN (map (fun v => copied e v zc t) vs) <= cf_blob cf
  | RErr _ => True
  | _ => False
  end.
Proof.
  intros He Ht Hc Hb Hq. unfold stream_elements.
  destruct (run stream_source cf _ (top_rst s)) as [r st] eqn:E.
  destruct (run_dsim cf _ _ _ _ E) as [[Heq _]|(_ & x & -> & _)]; [|exact Logic.I].
  destruct (full_dict_good cf e zc t He Ht) as (_ & Hel & _).
  set (a := mkA 1 None 0 (lenN (unread (strip s))) 0 0 0).
  pose proof (each_wp cf e zc t _ Hel a eq_refl eq_refl) as Hw.
  assert (Hm : a_meas a <= U64_MAX).
  { cbn [a_meas a]. unfold a, a_meas. pose proof (sq_len (strip s) Hq). pose proof (rest_len (strip s)). change (rest (strip s)) with (unread (strip s)) in *. lia. }
  specialize (Hw Hm eq_refl eq_refl).
  pose proof (stream_sound cf (conj Hc Hb) _ _ a (rstrip (top_rst s)) Hw) as H.
  assert (Har : arel cf SO a (rstrip (top_rst s))).
  { unfold arel, SO. cbn. split; [auto using N.le_refl|]. repeat split; lia. }
  specialize (H Har). rewrite Heq in H. cbn [fst]. destruct r as [vs|x| |]; try exact H.
  destruct H as (a' & (_ & _ & _ & _ & L1 & L2 & _) & V1 & V2 & V3). split; [exact V1|]. lia.
Qed.

Lemma doc_seqinv ks s : doc_stream ks s -> seqinv (strip s).
Proof. intros [bs tl dbg sk sched Henc Hok Hlen Hs]. exact (fresh_sched dbg sk false (bs ++ tl) sched Hok Hlen). Qed.
Lemma read_elems_total cf e zc t ks : env_ok e -> deserialisable e zc t -> cf_collect cf <= U64_MAX -> cf_blob cf <= U64_MAX ->
  Forall el_ok (document ks) -> lenN (document ks) <= U64_MAX ->
  match fst (read_elems cf e zc t ks) with ROk _ | RErr _ => True | _ => False end.
Proof.
  intros He Ht Hc Hb Hok Hlen.
  set (q := mkEls (map (pair 0) (document ks)) true false 0 [] true).
  assert (Hml : lenN (map (pair 0) (document ks)) = lenN (document ks)) by (unfold lenN; now rewrite map_length).
  pose proof (each_does cf Hc Hb true true _ _ (full_agrees cf Hc Hb true true e (S (N.to_nat (cf_rec cf))) zc t) ks [] 1 (top_rst q)) as Hd.
  cbn [x_s x_cur top_rst x_over] in Hd.
  assert (Hat : at_body true true ks [] 1 q None).
  { exists (map (pair 0) (flat ks)), 0, 0, []. split; [unfold q, document; rewrite map_app; reflexivity|].
    split; [rewrite map_map; apply map_id|]. split; [reflexivity|].
    unfold document in Hml, Hlen. rewrite map_app in Hml. cbn [map] in Hml. rewrite Hml. exact Hlen. }
  specialize (Hd Hat eq_refl). change (abs (top_rst q)) with (mkC 0 0 0 []) in Hd.
  assert (Hci : cinv cf (mkC 0 0 0 [])) by (split; cbn; lia). specialize (Hd Hci).
  destruct (full_dict_good cf e zc t He Ht) as (_ & Hel & _).
  set (a := mkA 1 None 0 (lenN (document ks)) 0 0 0).
  pose proof (each_wp cf e zc t _ Hel a eq_refl eq_refl Hlen eq_refl eq_refl) as Hw.
  pose proof (el_sound cf (conj Hc Hb) _ _ a (top_rst q) Hw) as H.
  assert (Har : arel cf SOe a (top_rst q)).
  { unfold arel, SOe. cbn. split; [|repeat split; lia]. split; [reflexivity|]. split.
    - apply Forall_forall. intros [o x] Hin. apply in_map_iff in Hin. destruct Hin as (y & [= <- <-] & Hin).
      cbn. rewrite Forall_forall in Hok. now apply Hok.
    - split; [rewrite Hml; apply N.le_refl|exact Logic.I]. }
  specialize (H Har). unfold read_elems.
  destruct (t_each _ [] ks (mkC 0 0 0 [])) as [[v|k| |] c']; cbn [fst]; try exact Logic.I.
  - destruct Hd as (st' & E). rewrite E in H. exact H.
  - destruct Hd as (st' & E). rewrite E in H. exact H.
Qed.
Lemma elems_stream_total e zc cf t ks s : usable e zc cf t -> doc_stream ks s ->
  match fst (read_elems cf e zc t ks) with ROk _ | RErr _ => True | _ => False end.
Proof.
  intros (He & Ht & Hc & Hb) [bs tl dbg sk sched Henc Hok Hlen Hs].
  pose proof (encodes_ok _ _ (doc_encodes _ _ Henc)) as Hok2. pose proof (encodes_len _ _ (doc_encodes _ _ Henc)) as Hlen2.
  rewrite lenN_app in Hlen. apply read_elems_total; auto; [|lia].
  eapply Forall_impl; [|exact Hok2]. intros a (A1 & A2 & A3). repeat split; auto. lia.
Qed.
Theorem elems_iff e zc cf t ks s vs : usable e zc cf t -> doc_stream ks s ->
  stream_elements e zc cf t s = ROk vs <-> exists x, elems_denote e (cf_ignore cf) zc t ks vs x /\ fits cf x.
Proof.
  intros Hu Hs. pose proof Hu as (He & Ht & Hc & Hb). pose proof (elems_stream e zc cf t ks s Hc Hb Hs) as H.
  pose proof (elems_stream_total e zc cf t ks s Hu Hs) as Htot. split.
  - intros E. pose proof (elems_means cf e _ zc t ks (Nat.le_refl _)) as Hm.
    destruct (read_elems cf e zc t ks) as [[ws|k| |] c] eqn:Er; cbn [fst] in H; try contradiction.
    + rewrite H in E. injection E as ->. destruct (rmap _ ks) as [[w x]|] eqn:Em; [|contradiction].
      destruct Hm as [-> Hf]. exists x. split; [|exact Hf]. eexists. exact Em.
    + destruct H as (y & Hy & _). congruence.
  - intros (x & Hd & Hf). pose proof (elems_tree cf e zc t ks vs x Hd) as Hr. destruct (fst (read_elems cf e zc t ks)) as [w|k| |]; try contradiction.
    + destruct Hr as [-> _]. exact H.
    + exfalso. exact (exceeds_not_fits cf x k Hr Hf).
Qed.
Theorem elems_limit e zc cf t ks s vs x : usable e zc cf t -> doc_stream ks s -> elems_denote e (cf_ignore cf) zc t ks vs x -> ~ fits cf x ->
  exists err, stream_elements e zc cf t s = RErr err /\ exceeds cf x (e_kind err).
Proof.
  intros (He & Ht & Hc & Hb) Hs Hd Hf. pose proof (elems_stream e zc cf t ks s Hc Hb Hs) as H. pose proof (elems_tree cf e zc t ks vs x Hd) as Hr.
  destruct (fst (read_elems cf e zc t ks)) as [w|k| |]; try contradiction; [destruct Hr; contradiction|].
  destruct H as (er & E & Hk). exists er. split; [exact E|]. exact (anyk_limit cf x k _ Hk Hr).
Qed.

(** ** Collections *)
Lemma rmap_cost {A B} (f : A -> R B) l : match rmap f l with
  | Some (vs, x) => rmap (fun a => rcost cone (f a)) l = Some (vs, mkX (k_lev x) (k_coll x + lenN vs) (k_blob x))
  | None => rmap (fun a => rcost cone (f a)) l = None
  end.
Proof.
  induction l as [|a l IH]; [reflexivity|]. cbn [rmap]. unfold rcost at 1 3, rbind at 1 3 4 6.
  destruct (f a) as [[v y]|]; [|reflexivity].
  destruct (rmap f l) as [[vs x]|]; rewrite IH; [|reflexivity]. cbn [rbind rret]. rewrite lenN_cons.
  f_equal. f_equal. apply cost_eq; cbn; lia.
Qed.
Lemma ones_with ks : all_elems ks -> with_tag 1 ks = ks /\ without_tag 1 ks = [].
Proof.
  unfold all_elems, with_tag, without_tag. induction 1 as [|[tag n] ks Ht H [IH1 IH2]]; [auto|]. cbn in Ht. subst tag. cbn [filter fst].
  change (1 =? 1) with true. cbn [negb]. now rewrite IH1, IH2.
Qed.
Lemma top_ones ign occ ks : all_elems ks -> m_top ign occ ks = rdeep (occ ks).
Proof.
  intros H. destruct (ones_with ks H) as [E1 E2]. unfold m_top, m_record. cbn [m_fields m_occ]. rewrite E1, E2.
  unfold rdeep, rbind, rret. destruct (occ ks) as [[v x]|]; [|reflexivity]. cbn. f_equal. f_equal. apply cost_eq; cbn; lia.
Qed.
Lemma seq_denotes e ign zc t t' ks vs y : sequence_of t t' -> all_elems ks ->
  denotes e ign zc t' ks (VList vs) y <->
  exists x, elems_denote e ign zc t ks vs x /\ y = mkX (1 + k_lev x) (k_coll x + lenN vs) (k_blob x).
Proof.
  intros Hq Ha. unfold denotes, elems_denote.
  assert (E : forall fuel, m_body (means ign e fuel zc t') ks =
            rdeep (let! ws := rmap (fun f => rcost cone (m_elem (means ign e fuel zc t) (snd f))) ks in rret (VList ws))).
  { intros fuel. destruct Hq as [->|[-> Hu]]; unfold means; cbn [meaning_of]; [|rewrite Hu];
      unfold m_list, m_coll; cbn [m_body]; now apply top_ones. }
  split.
  - intros (f & H). rewrite E in H. pose proof (rmap_cost (fun g => m_elem (means ign e f zc t) (snd g)) ks) as Hr.
    destruct (rmap (fun g => m_elem (means ign e f zc t) (snd g)) ks) as [[ws x]|] eqn:Em; rewrite Hr in H; [|discriminate].
    cbn [rbind rret rdeep] in H. injection H as -> <-. exists x. split; [exists f; exact Em|]. apply cost_eq; cbn; lia.
  - intros (x & (f & H) & ->). exists f. rewrite E. pose proof (rmap_cost (fun g => m_elem (means ign e f zc t) (snd g)) ks) as Hr.
    rewrite H in Hr. rewrite Hr. cbn [rbind rret rdeep]. f_equal. f_equal. apply cost_eq; cbn; lia.
Qed.
Theorem like_collecting e zc cf t t' ks s vs : sequence_of t t' -> usable e zc cf t -> usable e zc cf t' -> doc_stream ks s -> all_elems ks ->
  fst (from_stream e zc cf t' s) = ROk (VList vs) -> stream_elements e zc cf t s = ROk vs.
Proof.
  intros Hq Hu Hu' Hs Ha H. apply (meaning_ok e zc cf t' ks s _ Hu' Hs) in H. destruct H as (y & Hd & Hf).
  apply (seq_denotes _ _ _ _ _ _ _ _ Hq Ha) in Hd. destruct Hd as (x & Hx & ->).
  apply (elems_iff e zc cf t ks s vs Hu Hs). exists x. split; [exact Hx|]. unfold fits in *. cbn in Hf. lia.
Qed.
Theorem collected e zc cf t t' ks s vs : sequence_of t t' -> usable e zc cf t -> usable e zc (roomier (lenN vs) cf) t' -> doc_stream ks s -> all_elems ks ->
  stream_elements e zc cf t s = ROk vs -> fst (from_stream e zc (roomier (lenN vs) cf) t' s) = ROk (VList vs).
Proof.
  intros Hq Hu Hu' Hs Ha H. apply (elems_iff e zc cf t ks s vs Hu Hs) in H. destruct H as (x & Hx & Hf).
  apply (meaning_ok e zc (roomier (lenN vs) cf) t' ks s _ Hu' Hs).
  exists (mkX (1 + k_lev x) (k_coll x + lenN vs) (k_blob x)). split.
  - apply (seq_denotes _ _ _ _ _ _ _ _ Hq Ha). exists x. split; [exact Hx|reflexivity].
  - unfold fits, roomier in *. cbn. lia.
Qed.

(** ** Written values *)
Lemma doc_seq e t t' vs : sequence_of t t' -> x_body (doc e (VList vs) t') = map (fun v => (1, x_elem (doc e v t))) vs.
Proof. intros [->|[-> Hu]]; cbn [doc]; [|rewrite ?Hu]; cbn [doc_coll x_body]; rewrite map_map; reflexivity. Qed.
Theorem written_elems e zc cf t t' vs dw dbg sk sched tl : sequence_of t t' -> env_wf e -> cf_collect cf <= U64_MAX -> cf_blob cf <= U64_MAX ->
  deserialisable e zc t -> storable cf e zc t' (VList vs) ->
  bytes_ok tl -> size_of e t' (VList vs) + lenN tl + 3 < U64_MAX -> Forall (fun y => y <> EvFail) sched ->
  exists b, to_vec e dw t' (VList vs) = ROk (b ++ [0x00]) /\
    stream_elements e zc cf t (new_stream dbg sk (mkDev ((b ++ [0x00]) ++ tl) 0 sched)) = ROk vs /\
    first_elements e (List.length vs) zc cf t (new_stream dbg sk (mkDev (b ++ tl) 0 sched)) = ROk vs.
Proof.
  intros Hq Hwf Hc Hb Hde Hst Htl Hs Hsc. pose proof Hst as [S1 S2 S3 S4 S5].
  assert (Hs' : size_of e t' (VList vs) <= U64_MAX) by lia.
  destruct (bytes_of_ok e Hwf t' (VList vs) S1 S2 Hs') as (Hdoc & Hok & Hl).
  pose proof (to_vec_ok e Hwf t' (VList vs) dw (conj S1 S2) Hs') as Hv.
  destruct (round_trip e Hwf cf Hc Hb zc t' (VList vs) dw true Hst ltac:(lia)) as (bs' & Hv' & Hr). rewrite Hv in Hv'. injection Hv' as <-.
  pose proof Hdoc as (b & Hbe & Eb). rewrite Eb in *. exists b. split; [exact Hv|].
  set (ks := x_body (doc e (VList vs) t')) in *.
  assert (Ha : all_elems ks) by (unfold ks; rewrite (doc_seq e t t' vs Hq); apply Lists.List.Forall_map, Forall_forall; reflexivity).
  assert (Hn : List.length ks = List.length vs) by (unfold ks; rewrite (doc_seq e t t' vs Hq); apply map_length).
  pose proof (env_wf_ok e Hwf) as He.
  assert (Hu : usable e zc cf t) by (split; [exact He|split; [exact Hde|split; assumption]]).
  assert (Hu' : usable e zc cf t') by (split; [exact He|split; [exact S3|split; assumption]]).
  assert (Hds : doc_stream ks (new_stream true true (mkDev ((b ++ [0x00]) ++ []) 0 []))) by (apply DocStream; rewrite ?app_nil_r; auto; lia).
  rewrite app_nil_r in Hds. unfold from_slice in Hr.
  apply (meaning_ok e zc cf t' ks _ _ Hu' Hds) in Hr. destruct Hr as (y & Hd & Hf).
  apply (seq_denotes _ _ _ _ _ _ _ _ Hq Ha) in Hd. destruct Hd as (x & Hx & ->).
  assert (Hfx : fits cf x) by (unfold fits in *; cbn in Hf; lia).
  split.
  - apply (elems_iff e zc cf t ks _ vs Hu).
    + apply DocStream; auto; [apply bytes_ok_app; split; assumption|rewrite lenN_app; lia].
    + exists x. split; [exact Hx|exact Hfx].
  - rewrite <- Hn. apply bytes_ok_app in Hok. destruct Hok as [Hok _].
    apply (first_stream e zc cf t ks vs x); auto; [apply bytes_ok_app; split; assumption|rewrite !lenN_app in *; lia].
Qed.
Theorem elems_any e zc cf t dbg sk gr bs sched : env_ok e -> deserialisable e zc t -> cf_collect cf <= U64_MAX -> cf_blob cf <= U64_MAX ->
  bytes_ok bs -> lenN bs + 3 < U64_MAX ->
  match stream_elements e zc cf t (set_graceful_ gr (new_stream dbg sk (mkDev bs 0 sched))) with
  | ROk vs => Forall (fun v => has_type e v t) vs /\ sumN (map coll_count vs) <= cf_collect cf /\ sumN (map (fun v => copied e v zc t) vs) <= cf_blob cf
  | RErr _ => True
  | RPanic | RFuel => False
  end.
Proof. intros He Ht Hc Hb Ho Hl. exact (elems_safe e zc cf t _ He Ht Hc Hb (fresh_sched dbg sk gr bs sched Ho Hl)). Qed.
