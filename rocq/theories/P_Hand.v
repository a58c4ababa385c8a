(** * P_Hand: reading and writing field by field (C80) *)

From Verif Require Import Base Wire Dev Stream Types Prog De Tree SpecFormat SpecDoc SpecDe SpecRead Elems SpecElems Hand SpecHand
  P_Base P_Prog P_Types P_DictAll P_El P_Tree P_TreeRun P_Same P_Means P_Meaning P_DeSched P_DeTrail SpecStream SpecSerDe P_Wp P_Dict P_DeStream P_DeProps P_Sched P_Stream P_Read P_DocOk P_Write P_Ser P_SerDe P_GiveUp P_Elems Ser.
Local Open Scope N_scope.
Strategy 1000 [s_decode_u64 decode_u64 decode_loop write_all read_exact encode_u64 enc_loop encode_fixed_u64 mloop miter].

(** ** On trees *)
Definition t_picks (td : N -> option tdict) : list (N * value) -> list (N * node) -> T (list (N * value)) :=
  t_loop (fun vs tag n => match td tag with Some d => let* v := t_elem d tag n in mret (vs ++ [(tag, v)]) | None => mret vs end).
Lemma t_picks_cons td vs tag n ks c : t_picks td vs ((tag, n) :: ks) c =
  match td tag with
  | Some d => (let* v := t_elem d tag n in t_picks td (vs ++ [(tag, v)]) ks) c
  | None => t_picks td vs ks c
  end.
Proof.
  unfold t_picks. cbn [t_loop]. destruct (td tag) as [d|]; [|reflexivity].
  unfold mbind. destruct (t_elem d tag n c) as [[v|k| |] c1]; reflexivity.
Qed.
(** The meaning, over any meanings. *)
Definition pm (mm : N -> option meaning) (ks : list (N * node)) : R (list (N * value)) :=
  rmap (fun f : N * node => match mm (fst f) with Some m => let! v := m_elem m (snd f) in rret (fst f, v) | None => None end)
    (filter (fun f => match mm (fst f) with Some _ => true | None => false end) ks).
Lemma pm_cons mm tag n ks (vs : list (N * value)) :
  (let! ws := pm mm ((tag, n) :: ks) in rret (vs ++ ws)) =
  match mm tag with
  | Some m => let! v := m_elem m n in let! ws := pm mm ks in rret ((vs ++ [(tag, v)]) ++ ws)
  | None => let! ws := pm mm ks in rret (vs ++ ws)
  end.
Proof.
  unfold pm. cbn [filter fst]. destruct (mm tag) as [m|] eqn:E; [|reflexivity]. cbn [rmap fst snd]. rewrite E.
  rewrite !rbind_assoc. apply rbind_ext. intros v. rewrite rbind_ret, rbind_assoc. apply rbind_ext. intros ws.
  rewrite rbind_ret, <- app_assoc. reflexivity.
Qed.
Lemma picks_means cf F td mm :
  (forall tag, match td tag, mm tag with Some d, Some m => dag cf F d m | None, None => True | _, _ => False end) -> forall ks vs,
  agree cf F (t_picks td vs ks) (let! ws := pm mm ks in rret (vs ++ ws)).
Proof.
  intros Hd. induction ks as [|[tag n] ks IH]; intros vs.
  - unfold pm. cbn [filter rmap]. rewrite rbind_ret, app_nil_r. apply agree_ret.
  - rewrite pm_cons. specialize (Hd tag).
    apply (agree_eq cf F (match td tag with Some d => let* v := t_elem d tag n in t_picks td (vs ++ [(tag, v)]) ks | None => t_picks td vs ks end)).
    { intros c. rewrite t_picks_cons. destruct (td tag); reflexivity. }
    destruct (td tag) as [d|], (mm tag) as [m|]; try contradiction; [|apply IH].
    apply agree_bind; [apply Hd|]. intros v. apply IH.
Qed.

Section On.
  Variables (cf : cfg) (Hcc : cf_collect cf <= U64_MAX) (Hcb : cf_blob cf <= U64_MAX) (en dbg : bool).
  Lemma picks_does dd td : (forall tag, match dd tag, td tag with Some d, Some s => agrees cf en dbg d s | None, None => True | _, _ => False end) ->
    forall ks R D, does cf (at_body en dbg ks R D) (each_pick dd) (t_picks td [] ks) (past en dbg R (D - 1)).
  Proof.
    intros H ks R D. unfold each_pick, t_picks.
    eapply does_loop with (h := (fun vs tag vh => match dd tag with
        | Some d => v <- d_elem d tag vh ; PRet (inl (vs ++ [(tag, v)]))
        | None => pdo OSkip ;> PRet (inl vs) end)); [exact Hcc|exact Hcb|reflexivity|].
    intros vs tag n R0. specialize (H tag).
    destruct (dd tag) as [d|], (td tag) as [s|]; try contradiction.
    - apply (does_ext cf (at_node en dbg tag n R0 D) _ (let* v := t_elem s tag n in mret (inl (vs ++ [(tag, v)])))).
      { intros c. unfold mbind. destruct (t_elem s tag n c) as [[v|k| |] c1]; reflexivity. }
      apply does_bind with (Mid := past en dbg R0 D); [apply (ag_elem _ _ _ _ _ H)|]. intros v. now apply does_ret.
    - apply (does_ext cf (at_node en dbg tag n R0 D) _ (let* u := mret tt in mret (inl vs))).
      { intros c. reflexivity. }
      apply does_bind with (Mid := past en dbg R0 D); [apply does_skip; assumption|]. intros v. now apply does_ret.
  Qed.
End On.

(** ** Results *)
Definition tds cf e zc (pick : N -> option ty) (tag : N) : option tdict := option_map (t_full cf e (S (N.to_nat (cf_rec cf))) zc) (pick tag).
Definition mms ign e fuel zc (pick : N -> option ty) (tag : N) : option meaning := option_map (means ign e fuel zc) (pick tag).
Definition read_picks cf e zc pick ks : res ekind (list (N * value)) * cs := t_picks (tds cf e zc pick) [] ks (mkC 0 0 0 []).
Lemma rmap_ext_in {A B} (f g : A -> R B) l : (forall a, f a = g a) -> rmap f l = rmap g l.
Proof. intros H. induction l as [|a l IH]; [reflexivity|]. cbn [rmap]. now rewrite H, IH. Qed.
Lemma pm_denote ign e fuel zc pick ks : pm (mms ign e fuel zc pick) ks =
  rmap (fun f : N * node =>
    match pick (fst f) with
    | Some t => let! v := m_elem (means ign e fuel zc t) (snd f) in rret (fst f, v)
    | None => None
    end) (wanted pick ks).
Proof.
  unfold pm, wanted, mms. assert (E : filter (fun f : N * node => match option_map (means ign e fuel zc) (pick (fst f)) with Some _ => true | None => false end) ks =
    filter (fun f => match pick (fst f) with Some _ => true | None => false end) ks).
  { apply filter_ext. intros [tag n]. cbn [fst]. destruct (pick tag); reflexivity. }
  rewrite E. apply rmap_ext_in. intros [tag n]. cbn [fst snd]. destruct (pick tag); reflexivity.
Qed.
Lemma picks_result cf e F2 zc pick (ks : list (N * node)) : (S (N.to_nat (cf_rec cf)) <= F2)%nat ->
  match pm (mms (cf_ignore cf) e F2 zc pick) ks with
  | Some (vs, x) =>
      match read_picks cf e zc pick ks with
      | (ROk w, _) => w = vs /\ fits cf x
      | (RErr k, _) => exceeds cf x k
      | _ => False
      end
  | None => match read_picks cf e zc pick ks with (ROk _, _) => False | _ => True end
  end.
Proof.
  intros Hle. pose proof (picks_means cf (S (N.to_nat (cf_rec cf))) (tds cf e zc pick) (mms (cf_ignore cf) e F2 zc pick)) as H.
  assert (Hd : forall tag, match tds cf e zc pick tag, mms (cf_ignore cf) e F2 zc pick tag with Some d, Some m => dag cf (S (N.to_nat (cf_rec cf))) d m | None, None => True | _, _ => False end).
  { intros tag. unfold tds, mms. destruct (pick tag) as [t|]; [|exact Logic.I]. exact (dag_full cf e (S (N.to_nat (cf_rec cf))) F2 zc t Hle). }
  specialize (H Hd ks [] (mkC 0 0 0 [])).
  assert (Hi : inv cf (S (N.to_nat (cf_rec cf))) (mkC 0 0 0 [])) by (unfold inv; cbn [c_lev c_coll c_blob]; lia).
  specialize (H Hi). unfold read_picks. destruct (pm _ ks) as [[v x]|]; cbn [rbind rret app] in H.
  - destruct (t_picks _ [] ks _) as [[w|k| |] c']; try contradiction.
    + destruct H as (E & _ & R1 & R2 & R3). cbn in R1, R2, R3. split; [exact E|]. unfold fits. lia.
    + destruct k; cbn in H |- *; try contradiction; lia.
  - exact H.
Qed.
Lemma picks_more e ign zc pick (ks : list (N * node)) vs x f : pm (mms ign e f zc pick) ks = Some (vs, x) ->
  forall f', (f <= f')%nat -> pm (mms ign e f' zc pick) ks = Some (vs, x).
Proof.
  intros H f' Hle. rewrite pm_denote in *. refine (rle_rmap _ _ (wanted pick ks) _ _ H). intros [tag n] r Hr. cbn [fst snd] in *. destruct (pick tag) as [t|]; [|discriminate].
  pose proof (ml_elem _ _ (means_mle ign e f f' zc t Hle) n) as Hm. unfold rle in Hm. unfold rbind in *. destruct (m_elem (means ign e f zc t) n) as [p|]; [|discriminate].
  now rewrite (Hm _ eq_refl).
Qed.
Lemma picks_tree cf e zc pick ks vs x : picks_denote e (cf_ignore cf) zc pick ks vs x ->
  match fst (read_picks cf e zc pick ks) with ROk w => w = vs /\ fits cf x | RErr k => exceeds cf x k | _ => False end.
Proof.
  intros (n & H). rewrite <- pm_denote in H. pose proof (picks_result cf e (Nat.max n (S (N.to_nat (cf_rec cf)))) zc pick ks (Nat.le_max_r _ _)) as Hr.
  rewrite (picks_more _ _ _ _ _ _ _ _ H (Nat.max n (S (N.to_nat (cf_rec cf)))) (Nat.le_max_l _ _)) in Hr.
  destruct (read_picks cf e zc pick ks) as [[w|k| |] c]; exact Hr.
Qed.
Lemma both cf e zc pick en dbg : cf_collect cf <= U64_MAX -> cf_blob cf <= U64_MAX -> forall tag,
  match dict_at e zc cf pick tag, tds cf e zc pick tag with Some d, Some s => agrees cf en dbg d s | None, None => True | _, _ => False end.
Proof.
  intros Hc Hb tag. unfold dict_at, tds. destruct (pick tag) as [t|]; [|exact Logic.I].
  exact (full_agrees cf Hc Hb en dbg e (S (N.to_nat (cf_rec cf))) zc t).
Qed.
Lemma picks_stream e zc cf pick ks s : cf_collect cf <= U64_MAX -> cf_blob cf <= U64_MAX -> doc_stream ks s ->
  match fst (read_picks cf e zc pick ks) with
  | ROk vs => stream_picks e zc cf pick s = ROk vs
  | RErr k => exists x, stream_picks e zc cf pick s = RErr x /\ anyk k (e_kind x)
  | _ => True
  end.
Proof.
  intros Hc Hb Hs. refine (doc_prog cf _ _ ks s Hc Hb Hs _). intros dbg.
  exact (picks_does cf Hc Hb false dbg _ _ (both cf e zc pick false dbg Hc Hb) ks [] 1).
Qed.

(** ** Arbitrary streams *)
Section Wp.
  Variables (cf : cfg) (e : env) (zc : bool) (pick : N -> option ty) (dd : N -> option dict).
  Hypothesis Hel : forall tag, match pick tag, dd tag with Some t, Some d => elem_ok cf e 0 zc t d | None, None => True | _, _ => False end.
  Definition picks_valid (vs : list (N * value)) (c b : N) : Prop :=
    Forall (fun p => exists t, pick (fst p) = Some t /\ has_type e (snd p) t) vs /\ sumN (map (fun p => coll_count (snd p)) vs) <= c /\ sumN (map (copied_at e zc pick) vs) <= b.
  Lemma picks_wp s : a_open s = 1%nat -> a_path s = 0 -> a_meas s <= U64_MAX -> a_coll s = 0 -> a_blob s = 0 ->
    wpp cf (each_pick dd) (fun vs s' => picks_valid vs (a_coll s') (a_blob s')) s.
  Proof.
    intros O P M C B. unfold each_pick. eapply wpp_ploop with (Inv := fun (vs : list (N * value)) s' =>
      a_open s' = 1%nat /\ a_path s' = 0 /\ a_meas s' <= U64_MAX /\ picks_valid vs (a_coll s') (a_blob s')); [|repeat (split; [assumption|])|exact M].
    - intros vs s1 (I1 & I2 & I3 & V1 & V2 & V3).
      apply wpp_do. cbn [op_wp]. split; [lia|]. split.
      + intros ms Hms. cbn [wpp]. cbn. split; [exact V1|]. split; [exact V2|exact V3].
      + intros tag v ms Hok Hms. specialize (Hel tag). destruct (pick tag) as [t|] eqn:Ep; destruct (dd tag) as [d|]; try contradiction.
        * apply wpp_bind.
          eapply wpp_mono; [|apply (Hel _ tag v (a_open s1))].
          -- intros x s2 ((D1 & D2 & D3 & D4 & D5) & W1 & _ & W3 & W4). acbn. cbn [wpp]. split; [|lia].
             split; [lia|]. split; [lia|]. split; [lia|]. split.
             { apply Forall_app; split; [exact V1|apply Forall_cons; [|apply Forall_nil]]. exists t. split; [exact Ep|exact W1]. }
             assert (Ec : copied_at e zc pick (tag, x) = copied e x zc t) by (unfold copied_at; cbn [fst snd]; now rewrite Ep).
             rewrite !map_app, !sumN_app. cbn [map sumN fold_right snd]. rewrite Ec. lia.
          -- unfold pre. cbn. lia.
          -- unfold at_field. acbn. split; [exact Hok|]. split; [reflexivity|]. split; [reflexivity|reflexivity].
        * apply wpp_do. cbn [op_wp]. intros m Hm. cbn [wpp]. cbn in Hm |- *. split; [|lia].
          split; [|split; [exact I2|split; [lia|split; [exact V1|split; [exact V2|exact V3]]]]]. lia.
    - split; [apply Forall_nil|]. cbn. lia.
  Qed.
End Wp.
Lemma dicts_ok cf e zc pick : env_ok e -> (forall tag t, pick tag = Some t -> deserialisable e zc t) -> forall tag,
  match pick tag, dict_at e zc cf pick tag with Some t, Some d => elem_ok cf e 0 zc t d | None, None => True | _, _ => False end.
Proof.
  intros He Hd tag. unfold dict_at. destruct (pick tag) as [t|] eqn:Ep; [|exact Logic.I]. cbn [option_map].
  destruct (full_dict_good cf e zc t He (Hd _ _ Ep)) as (_ & Hel & _). exact Hel.
Qed.
Theorem picks_safe e zc cf pick s : pickable e zc cf pick -> seqinv (strip s) ->
  match stream_picks e zc cf pick s with
  | ROk vs => Forall (fun p => exists t, pick (fst p) = Some t /\ has_type e (snd p) t) vs /\
              sumN (map (fun p => coll_count (snd p)) vs) <= cf_collect cf /\ sumN (map (copied_at e zc pick) vs) <= cf_blob cf
  | RErr _ => True
  | _ => False
  end.
Proof.
  intros (He & Ht & Hc & Hb) Hq. unfold stream_picks.
  destruct (run stream_source cf _ (top_rst s)) as [r st] eqn:E.
  destruct (run_dsim cf _ _ _ _ E) as [[Heq _]|(_ & x & -> & _)]; [|exact Logic.I].
  set (a := mkA 1 None 0 (lenN (unread (strip s))) 0 0 0).
  pose proof (picks_wp cf e zc pick _ (dicts_ok cf e zc pick He Ht) a eq_refl eq_refl) as Hw.
  assert (Hm : a_meas a <= U64_MAX).
  { cbn [a_meas a]. unfold a, a_meas. pose proof (sq_len (strip s) Hq). pose proof (rest_len (strip s)). change (rest (strip s)) with (unread (strip s)) in *. lia. }
  specialize (Hw Hm eq_refl eq_refl).
  pose proof (stream_sound cf (conj Hc Hb) _ _ a (rstrip (top_rst s)) Hw) as H.
  assert (Har : arel cf SO a (rstrip (top_rst s))).
  { unfold arel, SO. cbn. split; [auto using N.le_refl|]. repeat split; lia. }
  specialize (H Har). rewrite Heq in H. cbn [fst]. destruct r as [vs|x| |]; try exact H.
  destruct H as (a' & (_ & _ & _ & _ & L1 & L2 & _) & V1 & V2 & V3). split; [exact V1|]. lia.
Qed.
Lemma read_picks_total cf e zc pick ks : pickable e zc cf pick ->
  Forall el_ok (document ks) -> lenN (document ks) <= U64_MAX ->
  match fst (read_picks cf e zc pick ks) with ROk _ | RErr _ => True | _ => False end.
Proof.
  intros (He & Ht & Hc & Hb) Hok Hlen.
  set (q := mkEls (map (pair 0) (document ks)) true false 0 [] true).
  assert (Hml : lenN (map (pair 0) (document ks)) = lenN (document ks)) by (unfold lenN; now rewrite map_length).
  pose proof (picks_does cf Hc Hb true true _ _ (both cf e zc pick true true Hc Hb) ks [] 1 (top_rst q)) as Hd.
  cbn [x_s x_cur top_rst x_over] in Hd.
  assert (Hat : at_body true true ks [] 1 q None).
  { exists (map (pair 0) (flat ks)), 0, 0, []. split; [unfold q, document; rewrite map_app; reflexivity|].
    split; [rewrite map_map; apply map_id|]. split; [reflexivity|].
    unfold document in Hml, Hlen. rewrite map_app in Hml. cbn [map] in Hml. rewrite Hml. exact Hlen. }
  specialize (Hd Hat eq_refl). change (abs (top_rst q)) with (mkC 0 0 0 []) in Hd.
  assert (Hci : cinv cf (mkC 0 0 0 [])) by (split; cbn; lia). specialize (Hd Hci).
  set (a := mkA 1 None 0 (lenN (document ks)) 0 0 0).
  pose proof (picks_wp cf e zc pick _ (dicts_ok cf e zc pick He Ht) a eq_refl eq_refl Hlen eq_refl eq_refl) as Hw.
  pose proof (el_sound cf (conj Hc Hb) _ _ a (top_rst q) Hw) as H.
  assert (Har : arel cf SOe a (top_rst q)).
  { unfold arel, SOe. cbn. split; [|repeat split; lia]. split; [reflexivity|]. split.
    - apply Forall_forall. intros [o x] Hin. apply in_map_iff in Hin. destruct Hin as (y & [= <- <-] & Hin).
      cbn. rewrite Forall_forall in Hok. now apply Hok.
    - split; [rewrite Hml; apply N.le_refl|exact Logic.I]. }
  specialize (H Har). unfold read_picks.
  destruct (t_picks _ [] ks (mkC 0 0 0 [])) as [[v|k| |] c']; cbn [fst]; try exact Logic.I.
  - destruct Hd as (st' & E). rewrite E in H. exact H.
  - destruct Hd as (st' & E). rewrite E in H. exact H.
Qed.
Lemma picks_total e zc cf pick ks s : pickable e zc cf pick -> doc_stream ks s ->
  match fst (read_picks cf e zc pick ks) with ROk _ | RErr _ => True | _ => False end.
Proof.
  intros Hp [bs tl dbg sk sched Henc Hok Hlen Hs].
  pose proof (encodes_ok _ _ (doc_encodes _ _ Henc)) as Hok2. pose proof (encodes_len _ _ (doc_encodes _ _ Henc)) as Hlen2.
  rewrite lenN_app in Hlen. apply read_picks_total; auto; [|lia].
  eapply Forall_impl; [|exact Hok2]. intros a (A1 & A2 & A3). repeat split; auto. lia.
Qed.
Theorem picks_iff e zc cf pick ks s vs : pickable e zc cf pick -> doc_stream ks s ->
  stream_picks e zc cf pick s = ROk vs <-> exists x, picks_denote e (cf_ignore cf) zc pick ks vs x /\ fits cf x.
Proof.
  intros Hu Hs. pose proof Hu as (He & Ht & Hc & Hb). pose proof (picks_stream e zc cf pick ks s Hc Hb Hs) as H.
  pose proof (picks_total e zc cf pick ks s Hu Hs) as Htot. split.
  - intros E. pose proof (picks_result cf e _ zc pick ks (Nat.le_refl _)) as Hm.
    destruct (read_picks cf e zc pick ks) as [[ws|k| |] c] eqn:Er; cbn [fst] in H; try contradiction.
    + rewrite H in E. injection E as ->. rewrite pm_denote in Hm. destruct (rmap _ (wanted pick ks)) as [[w x]|] eqn:Em; [|contradiction].
      destruct Hm as [-> Hf]. exists x. split; [|exact Hf]. eexists. exact Em.
    + destruct H as (y & Hy & _). congruence.
  - intros (x & Hd & Hf). pose proof (picks_tree cf e zc pick ks vs x Hd) as Hr. destruct (fst (read_picks cf e zc pick ks)) as [w|k| |]; try contradiction.
    + destruct Hr as [-> _]. exact H.
    + exfalso. exact (exceeds_not_fits cf x k Hr Hf).
Qed.
Theorem picks_limit e zc cf pick ks s vs x : pickable e zc cf pick -> doc_stream ks s -> picks_denote e (cf_ignore cf) zc pick ks vs x -> ~ fits cf x ->
  exists err, stream_picks e zc cf pick s = RErr err /\ exceeds cf x (e_kind err).
Proof.
  intros (He & Ht & Hc & Hb) Hs Hd Hf. pose proof (picks_stream e zc cf pick ks s Hc Hb Hs) as H. pose proof (picks_tree cf e zc pick ks vs x Hd) as Hr.
  destruct (fst (read_picks cf e zc pick ks)) as [w|k| |]; try contradiction; [destruct Hr; contradiction|].
  destruct H as (er & E & Hk). exists er. split; [exact E|]. exact (anyk_limit cf x k _ Hk Hr).
Qed.
(** What is not asked for does not matter. *)
Lemma wanted_all pick ks ks' : wanted pick ks = wanted pick ks' -> forall e ign zc vs x, picks_denote e ign zc pick ks vs x -> picks_denote e ign zc pick ks' vs x.
Proof. intros E e ign zc vs x (f & H). exists f. now rewrite <- E. Qed.
Theorem picks_others e zc cf pick ks ks' s s' vs : pickable e zc cf pick -> doc_stream ks s -> doc_stream ks' s' -> wanted pick ks = wanted pick ks' ->
  stream_picks e zc cf pick s = ROk vs <-> stream_picks e zc cf pick s' = ROk vs.
Proof.
  intros Hu Hs Hs' E. rewrite (picks_iff e zc cf pick ks s vs Hu Hs), (picks_iff e zc cf pick ks' s' vs Hu Hs').
  split; intros (x & Hd & Hf); exists x; (split; [|exact Hf]); [exact (wanted_all _ _ _ E _ _ _ _ _ Hd)|exact (wanted_all _ _ _ (eq_sym E) _ _ _ _ _ Hd)].
Qed.

(** ** Writing *)
Lemma exec_app a b s : exec (a ++ b) s = (exec a ;; exec b) s.
Proof.
  revert s. induction a as [|w a IH]; intros s; [reflexivity|]. cbn [app exec]. unfold mbind.
  destruct (exec_op w s) as [[u|x| |] s1]; try reflexivity. rewrite IH. reflexivity.
Qed.
Definition item_ops e (its : list item_) : list wop := flat_map (fun it => z_elem (ser e (it_val it) (it_ty it)) (it_tag it)) its.
Lemma items_exec e its s : write_items e its s = exec (item_ops e its) s.
Proof.
  revert s. induction its as [|it its IH]; intros s; [reflexivity|]. unfold item_ops. cbn [write_items flat_map]. rewrite exec_app. unfold mbind.
  destruct (exec _ s) as [[u|x| |] s1]; try reflexivity. apply IH.
Qed.
Lemma record_exec e its s : write_record e its s = (exec (item_ops e its ++ [WEnd]) ;; commit) s.
Proof.
  unfold write_record, mbind. rewrite items_exec, exec_app. unfold mbind. destruct (exec (item_ops e its) s) as [[u|x| |] s1]; try reflexivity.
  cbn [exec exec_op]. unfold mbind, mret. destruct (write_end_struct s1) as [[u2|x| |] s2]; reflexivity.
Qed.
Theorem record_seq e t t' vs s : sequence_of t t' -> write_record e (map (mkItem 1 t) vs) s = to_stream e t' (VList vs) s.
Proof.
  intros Hq. rewrite record_exec. unfold to_stream.
  assert (E : item_ops e (map (mkItem 1 t) vs) ++ [WEnd] = z_body (ser e (VList vs) t')).
  { unfold item_ops. rewrite flat_map_concat_map, map_map. cbn [it_val it_ty it_tag]. rewrite <- flat_map_concat_map.
    destruct Hq as [->|[-> Hu]]; cbn [ser]; [|rewrite ?Hu]; reflexivity. }
  now rewrite E.
Qed.
Lemma op_sim w : sim (exec_op w).
Proof.
  destruct w; cbn [exec_op]; try apply write_u64_sim; try apply write_desc_sim; try apply write_enum_sim.
  - apply gsim_bind; [apply write_blob_data_sim|intros; apply gsim_ret].
  - apply gsim_panic.
Qed.
Lemma exec_sim ws : sim (exec ws).
Proof. induction ws as [|w ws IH]; cbn [exec]; [apply gsim_ret|]. apply gsim_bind; [apply op_sim|intros; exact IH]. Qed.
Section Written.
  Variables (e : env) (Hwf : env_wf e).
  Lemma items_rels its : Forall (fun it => has_type e (it_val it) (it_ty it) /\ shape_wf (it_ty it)) its -> wrels (item_ops e its) (flat (written_fields e its)).
  Proof.
    induction 1 as [|it its [Hty Hsh] _ IH]; [constructor|]. unfold item_ops, written_fields, flat. cbn [flat_map map fst snd].
    apply wrels_app; [|exact IH]. destruct (ser_doc e Hwf _ _ Hty Hsh) as (_ & H & _). apply H.
  Qed.
  Lemma fields_ok its : Forall (fun it => tag_ok (it_tag it)) its -> Forall (fun it => has_type e (it_val it) (it_ty it) /\ shape_wf (it_ty it)) its -> nodes_ok (written_fields e its).
  Proof.
    intros H1 H2. induction H2 as [|it its [Hty Hsh] _ IH]; [constructor|]. inversion H1; subst. constructor; [|now apply IH]. cbn [fst snd].
    split; [assumption|]. destruct (doc_ok e Hwf _ _ Hty Hsh) as (_ & _ & H). exact H.
  Qed.
  Lemma record_ok its dbg sched : Forall (fun it => tag_ok (it_tag it)) its -> Forall (fun it => has_type e (it_val it) (it_ty it) /\ shape_wf (it_ty it)) its ->
    items_size e its <= U64_MAX -> Forall (fun y => y <> EvFail) sched ->
    exists s', write_record e its (new_stream dbg false (mkDev [] 0 sched)) = (ROk tt, s') /\ d_data (s_dev s') = canons (document (written_fields e its)).
  Proof.
    intros Ht Hit Hs Hsc.
    assert (Hr : wrels (item_ops e its ++ [WEnd]) (document (written_fields e its))).
    { apply wrels_app; [now apply items_rels|]. constructor; [apply WrEnd|constructor]. }
    set (s0 := new_stream dbg false (mkDev [] 0 [])).
    assert (W : winv s0) by (unfold s0, winv, sch; cbn; split; [reflexivity|lia]).
    assert (S : settled_w s0) by (left; reflexivity).
    destruct (exec_ok _ _ s0 Hr W S (doc_el_ok _ (fields_ok its Ht Hit)) Hs) as (s1 & E1 & S1 & W1 & D1 & P1).
    destruct (write_record e its (new_stream dbg false (mkDev [] 0 sched))) as [r s'] eqn:E.
    rewrite record_exec in E.
    destruct (gsim_bind _ _ _ _ _ (exec_sim (item_ops e its ++ [WEnd])) (fun _ => commit_sim) _ _ _ E) as [[Heq _]|(Hn & _)]; [|contradiction].
    change (strip (new_stream dbg false (mkDev [] 0 sched))) with s0 in Heq. rewrite (mbind_ok _ _ _ _ _ E1), (commit_settled _ S1) in Heq. apply pair_equal_spec in Heq. destruct Heq as [<- Heq].
    exists s'. split; [reflexivity|]. change (d_data (s_dev s')) with (d_data (s_dev (strip s'))). assert (X : s_dev (strip s') = s_dev s1) by (rewrite <- Heq; reflexivity). rewrite X, D1, wr_end by reflexivity. reflexivity.
  Qed.
End Written.

(** ** Reading what was written *)
Lemma size_app a b : size_bound (a ++ b) = size_bound a + size_bound b.
Proof. induction a as [|x a IH]; [reflexivity|]. cbn [app]. rewrite !size_bound_cons. lia. Qed.
Lemma size_tag t1 t2 n : size_bound (flat_node t1 n) = size_bound (flat_node t2 n).
Proof. destruct n; cbn [flat_node]; rewrite !size_bound_cons; reflexivity. Qed.
Lemma size_item e its it : In it its -> size_of e (TOption (it_ty it)) (VOpt (Some (it_val it))) <= items_size e its.
Proof.
  intros Hin. unfold size_of, items_size, document. cbn [doc doc_coll x_body map]. rewrite !size_app. apply N.add_le_mono_r.
  unfold flat at 1. cbn [flat_map fst snd]. rewrite app_nil_r.
  induction its as [|it' its IH]; [contradiction|]. unfold written_fields. cbn [map].
  change (flat ((?a, ?b) :: ?r)) with (flat_node a b ++ flat r). rewrite size_app.
  fold (written_fields e its). destruct Hin as [->|Hin].
  - rewrite (size_tag 1 (it_tag it)). lia.
  - specialize (IH Hin). lia.
Qed.
Lemma option_means e ign zc t n v y : denotes e ign zc (TOption t) [(1, n)] (VOpt (Some v)) y ->
  exists fuel x, m_elem (means ign e fuel zc t) n = Some (v, x) /\ y = mkX (1 + k_lev x) (k_coll x) (k_blob x).
Proof.
  intros (f & H). exists f. unfold means in H. cbn [meaning_of] in H. fold (means ign e f) in H. unfold m_option, m_coll in H. cbn [m_body] in H.
  rewrite top_ones in H by (constructor; [reflexivity|constructor]).
  unfold rdeep, rbind, rret in H. destruct (m_elem _ n) as [[w x]|]; [|discriminate]. injection H as <- <-. exists x. split; [reflexivity|]. apply cost_eq; cbn; lia.
Qed.
Lemma item_means cf e zc it : env_wf e -> item_ok cf e zc it -> coll_count (it_val it) <= U64_MAX -> copied e (it_val it) zc (it_ty it) <= U64_MAX ->
  size_of e (TOption (it_ty it)) (VOpt (Some (it_val it))) + 3 < U64_MAX ->
  exists fuel x, m_elem (means (cf_ignore cf) e fuel zc (it_ty it)) (x_elem (doc e (it_val it) (it_ty it))) = Some (it_val it, x) /\
    k_lev x <= cf_rec cf /\ k_coll x <= coll_count (it_val it) /\ k_blob x <= copied e (it_val it) zc (it_ty it).
Proof.
  intros Hwf [I1 I2 I3 I4 I5 I6] Hc Hb Hs. destruct it as [tag t v]. cbn [it_tag it_ty it_val] in *.
  set (cf0 := mkCfg (cf_rec cf + 1) (cf_ignore cf) (copied e v zc t) (coll_count v)).
  assert (Hde : deserialisable e zc (TOption t)) by (intros X; inversion X; contradiction).
  assert (Hty : has_type e (VOpt (Some v)) (TOption t)) by (apply TySome; exact I2).
  assert (Hst : storable cf0 e zc (TOption t) (VOpt (Some v))).
  { constructor; auto. unfold admits, cf0. cbn [cf_rec cf_collect cf_blob need coll_count copied need_coll n_body maxN fold_right]. split; [lia|]. split; lia. }
  destruct (round_trip e Hwf cf0 Hc Hb zc (TOption t) (VOpt (Some v)) true true Hst Hs) as (bs & Hv & Hr).
  assert (Hs' : size_of e (TOption t) (VOpt (Some v)) <= U64_MAX) by lia.
  rewrite (to_vec_ok e Hwf (TOption t) (VOpt (Some v)) true (conj Hty I3) Hs') in Hv. injection Hv as <-.
  destruct (bytes_of_ok e Hwf (TOption t) (VOpt (Some v)) Hty I3 Hs') as (Hdoc & Hok & Hl).
  change (x_body (doc e (VOpt (Some v)) (TOption t))) with [(1, x_elem (doc e v t))] in *.
  assert (Hds : doc_stream [(1, x_elem (doc e v t))] (new_stream true true (mkDev (bytes_of e (TOption t) (VOpt (Some v)) ++ []) 0 []))) by (apply DocStream; rewrite ?app_nil_r; auto; lia).
  rewrite app_nil_r in Hds. unfold from_slice in Hr.
  destruct (proj1 (meaning_ok e zc cf0 (TOption t) _ _ _ (conj (env_wf_ok e Hwf) (conj Hde (conj Hc Hb))) Hds) Hr) as (y & Hd & Hf).
  destruct (option_means _ _ _ _ _ _ _ Hd) as (fuel & x & Hm & ->). exists fuel, x. split; [exact Hm|].
  unfold fits, cf0 in Hf. cbn in Hf. lia.
Qed.
Lemma sumN_cons a l : sumN (a :: l) = a + sumN l. Proof. reflexivity. Qed.
Lemma items_mean cf e zc pick its : env_wf e -> Forall (item_ok cf e zc) its -> reads_back pick its -> items_size e its + 3 < U64_MAX ->
  Forall (fun it => coll_count (it_val it) <= U64_MAX /\ copied e (it_val it) zc (it_ty it) <= U64_MAX) its ->
  exists x, picks_denote e (cf_ignore cf) zc pick (written_fields e its) (picked pick its) x /\ k_lev x <= cf_rec cf /\
    k_coll x <= sumN (map (fun it => coll_count (it_val it)) its) /\ k_blob x <= sumN (map (fun it => copied e (it_val it) zc (it_ty it)) its).
Proof.
  intros Hwf Hok Hrb Hs Hl.
  assert (Hsz : Forall (fun it => size_of e (TOption (it_ty it)) (VOpt (Some (it_val it))) + 3 < U64_MAX) its).
  { apply Forall_forall. intros it Hin. pose proof (size_item e its it Hin). lia. }
  clear Hs. induction its as [|it its IH].
  { exists (mkX 0 0 0). split; [exists O; reflexivity|]. cbn. lia. }
  inversion Hok as [|? ? O1 O2]; subst. inversion Hrb as [|? ? R1 R2]; subst. inversion Hl as [|? ? L1 L2]; subst. inversion Hsz as [|? ? Z1 Z2]; subst.
  destruct (IH O2 R2 L2 Z2) as (x & (f & Hx) & X1 & X2 & X3). cbn [map]. rewrite !sumN_cons.
  unfold picks_denote. unfold written_fields, wanted, picked. cbn [map filter fst snd]. fold (written_fields e its).
  destruct R1 as [R1|R1]; rewrite R1.
  - exists x. split; [exists f; exact Hx|]. lia.
  - destruct (item_means cf e zc it Hwf O1 (proj1 L1) (proj2 L1) Z1) as (f2 & y & Hy & Y1 & Y2 & Y3).
    exists (cadd y x). split; [|cbn; lia].
    exists (Nat.max f f2). cbn [rmap fst snd]. rewrite R1.
    pose proof (ml_elem _ _ (means_mle (cf_ignore cf) e f2 (Nat.max f f2) zc (it_ty it) (Nat.le_max_r _ _)) (x_elem (doc e (it_val it) (it_ty it))) _ Hy) as Hy'.
    rewrite <- pm_denote in Hx. pose proof (picks_more _ _ _ _ _ _ _ _ Hx (Nat.max f f2) (Nat.le_max_l _ _)) as Hx'. rewrite pm_denote in Hx'.
    unfold wanted in Hx'. rewrite Hx'. rewrite Hy'. cbn [rbind rret]. unfold picked. cbn [map]. f_equal. f_equal. apply cost_eq; cbn; lia.
Qed.
Theorem written_picks e zc cf pick its dw sw dbg sk sched tl : env_wf e -> pickable e zc cf pick -> items_ok cf e zc its -> reads_back pick its ->
  bytes_ok tl -> items_size e its + lenN tl + 3 < U64_MAX -> Forall (fun y => y <> EvFail) sw -> Forall (fun y => y <> EvFail) sched ->
  exists s', write_record e its (new_stream dw false (mkDev [] 0 sw)) = (ROk tt, s') /\
    stream_picks e zc cf pick (new_stream dbg sk (mkDev (d_data (s_dev s') ++ tl) 0 sched)) = ROk (picked pick its).
Proof.
  intros Hwf Hp (Hi & Hc & Hb) Hrb Htl Hs Hsw Hsc. pose proof Hp as (_ & _ & Hcc & Hcb).
  assert (H1 : Forall (fun it => tag_ok (it_tag it)) its) by (eapply Forall_impl; [|exact Hi]; intros it [I1 _ _ _ _ _]; exact I1).
  assert (H2 : Forall (fun it => has_type e (it_val it) (it_ty it) /\ shape_wf (it_ty it)) its) by (eapply Forall_impl; [|exact Hi]; intros it [_ I2 I3 _ _ _]; split; assumption).
  destruct (record_ok e Hwf its dw sw H1 H2 ltac:(lia) Hsw) as (s' & E & Ed). exists s'. split; [exact E|]. rewrite Ed.
  pose proof (fields_ok e Hwf its H1 H2) as Hn. assert (Hsb : size_bound (document (written_fields e its)) <= U64_MAX) by (unfold items_size in Hs; lia).
  pose proof (canons_doc _ Hn Hsb) as Hdoc. pose proof (doc_el_ok _ Hn) as Hel. pose proof (canons_bytes _ Hel Hsb) as Hby. pose proof (canons_len _ Hel Hsb) as Hle. fold (items_size e its) in Hle.
  assert (Hl : Forall (fun it => coll_count (it_val it) <= U64_MAX /\ copied e (it_val it) zc (it_ty it) <= U64_MAX) its).
  { apply Forall_forall. intros it Hin. clear -Hin Hc Hb Hcc Hcb. assert (G : forall f : item_ -> N, f it <= sumN (map f its)).
    { intros f. clear -Hin. induction its as [|a l IH]; [contradiction|]. cbn [map]. rewrite sumN_cons. destruct Hin as [->|Hin]; [lia|]. specialize (IH Hin). lia. }
    pose proof (G (fun it => coll_count (it_val it))). pose proof (G (fun it => copied e (it_val it) zc (it_ty it))). cbv beta in *. lia. }
  destruct (items_mean cf e zc pick its Hwf Hi Hrb ltac:(lia) Hl) as (x & Hx & X1 & X2 & X3).
  apply (picks_iff e zc cf pick (written_fields e its) _ _ Hp).
  - apply DocStream; auto; [apply bytes_ok_app; split; assumption|rewrite lenN_app; lia].
  - exists x. split; [exact Hx|]. unfold fits. lia.
Qed.
Theorem picks_any e zc cf pick dbg sk gr bs sched : pickable e zc cf pick -> bytes_ok bs -> lenN bs + 3 < U64_MAX ->
  match stream_picks e zc cf pick (set_graceful_ gr (new_stream dbg sk (mkDev bs 0 sched))) with
  | ROk vs => Forall (fun p => exists t, pick (fst p) = Some t /\ has_type e (snd p) t) vs /\
              sumN (map (fun p => coll_count (snd p)) vs) <= cf_collect cf /\ sumN (map (copied_at e zc pick) vs) <= cf_blob cf
  | RErr _ => True
  | RPanic | RFuel => False
  end.
Proof. intros Hp Ho Hl. pose proof (picks_safe e zc cf pick _ Hp (fresh_sched dbg sk gr bs sched Ho Hl)) as H. destruct (stream_picks _ _ _ _ _); exact H. Qed.
(** ** A struct written by hand *)
Lemma one_field e t : one_value t = true -> forall v tag, z_field (ser e v t) tag = z_elem (ser e v t) tag.
Proof.
  induction t; intros H v tag; cbn [one_value] in H; try discriminate; try (destruct v; reflexivity).
  - destruct v; cbn [ser]; rewrite ?H; reflexivity.
  - destruct v; cbn [ser]; rewrite ?H; reflexivity.
  - destruct ts as [|t1 ts]; destruct v as [| | | | | | | | | | |vs| | | | |]; try reflexivity; destruct vs; reflexivity.
  - specialize (IHt H v tag). destruct v; exact IHt.
  - specialize (IHt H v tag). destruct v; exact IHt.
  - destruct v; cbn [ser]; destruct (e i) as [bd|vars ct]; try reflexivity.
    all: try (destruct (split_special bd _) as [fs0 sp]; destruct (vb_special bd), sp; reflexivity).
    all: match goal with |- z_field (match ?x with _ => _ end) _ = _ => destruct x as [[d1 b1]|] || destruct x end; try reflexivity.
    all: try match goal with |- z_field (match ?x with _ => _ end) _ = _ => destruct x as [[d1 b1]|] || destruct x end; try reflexivity.
    all: destruct (split_special b1 _) as [fs1 sp]; reflexivity.
Qed.
Lemma as_items_ops e fs vs its : as_items fs vs its ->
  item_ops e its = flat_map (fun p => z_field (snd p) (fd_tag (fst p))) (combine fs (map (fun p => ser e (snd p) (fd_ty (fst p))) (combine fs vs))).
Proof.
  induction 1 as [|f v fs vs its Ho _ IH|f t l fs vs its Ht _ IH|f t fs vs its Ht _ IH|f t v fs vs its Ht _ IH]; [reflexivity| | | |];
    cbn [combine map flat_map fst snd]; rewrite <- IH; unfold item_ops; rewrite ?flat_map_app; cbn [flat_map it_tag it_ty it_val]; f_equal.
  - symmetry. now apply one_field.
  - rewrite flat_map_concat_map, map_map, <- flat_map_concat_map. cbn [it_tag it_ty it_val].
    destruct Ht as [[->|[-> Hu]]| ->]; cbn [ser]; rewrite ?Hu; reflexivity.
  - rewrite Ht. reflexivity.
  - rewrite Ht. reflexivity.
Qed.
Lemma as_items_len fs vs its : as_items fs vs its -> List.length vs = List.length fs.
Proof. induction 1; cbn; congruence. Qed.
Lemma go_map e : forall (fs : list fdecl) vs, (fix go (vs : list value) (ts : list ty) : list sres :=
    match vs, ts with x :: vs', t' :: ts' => ser e x t' :: go vs' ts' | _, _ => [] end) vs (map fd_ty fs) =
  map (fun p => ser e (snd p) (fd_ty (fst p))) (combine fs vs).
Proof.
  intros fs. induction fs as [|f fs IH]; intros [|v vs]; try reflexivity. cbn [map combine fst snd]. f_equal. apply IH.
Qed.
Lemma go_app e x t : forall (fs : list fdecl) vs, List.length vs = List.length fs -> (fix go (vs : list value) (ts : list ty) : list sres :=
    match vs, ts with x :: vs', t' :: ts' => ser e x t' :: go vs' ts' | _, _ => [] end) (vs ++ [x]) (map fd_ty fs ++ [t]) =
  (fix go (vs : list value) (ts : list ty) : list sres :=
    match vs, ts with x :: vs', t' :: ts' => ser e x t' :: go vs' ts' | _, _ => [] end) vs (map fd_ty fs) ++ [ser e x t].
Proof.
  intros fs. induction fs as [|f fs IH]; intros [|v vs] H; try discriminate; [reflexivity|]. cbn [map app]. f_equal. apply IH. now injection H.
Qed.
Lemma node_items e (fs : list (N * node)) : item_ops e (map (fun f => mkItem (fst f) TUnkField (VNode (snd f))) fs) = ser_nodes fs.
Proof. unfold item_ops. rewrite flat_map_concat_map, map_map, <- flat_map_concat_map. reflexivity. Qed.
Theorem record_struct e i b vs its s : e i = IStruct b -> record_items b vs its ->
  write_record e its s = to_stream e (TItem i) (VRec vs) s.
Proof.
  intros Ei Hr. rewrite record_exec. unfold to_stream.
  assert (E : item_ops e its ++ [WEnd] = z_body (ser e (VRec vs) (TItem i))).
  { cbn [ser]. rewrite Ei. destruct Hr as [vs its Hs Ha|n vs its fs Hs Ha].
    - unfold vb_types, special_ty. rewrite Hs, app_nil_r, go_map. unfold split_special.
      assert (Hl : List.length (map (fun p => ser e (snd p) (fd_ty (fst p))) (combine (vb_fields b) vs)) = List.length (vb_fields b)).
      { rewrite map_length, combine_length, (as_items_len _ _ _ Ha). apply Nat.min_id. }
      rewrite <- Hl, firstn_all. unfold ser_vbody, ser_struct. rewrite Hs. cbn [z_body]. now rewrite (as_items_ops e _ _ _ Ha).
    - unfold vb_types, special_ty. rewrite Hs. unfold split_special. rewrite (go_app e _ _ _ _ (as_items_len _ _ _ Ha)), go_map.
      assert (Hl : List.length (map (fun p => ser e (snd p) (fd_ty (fst p))) (combine (vb_fields b) vs)) = List.length (vb_fields b)).
      { rewrite map_length, combine_length, (as_items_len _ _ _ Ha). apply Nat.min_id. }
      rewrite <- Hl, firstn_app, firstn_all, Nat.sub_diag, firstn_O, app_nil_r, nth_error_app2, Nat.sub_diag by apply le_n.
      unfold ser_vbody, ser_struct. rewrite Hs. cbn [z_body nth_error ser]. rewrite <- (as_items_ops e _ _ _ Ha).
      unfold item_ops at 1. rewrite flat_map_app. fold (item_ops e its). fold (item_ops e (map (fun f => mkItem (fst f) TUnkField (VNode (snd f))) fs)).
      rewrite node_items, <- app_assoc. reflexivity. }
  now rewrite E.
Qed.
Lemma to_stream_sched e (Hwf : env_wf e) t v dbg sw : has_type e v t -> shape_wf t -> size_of e t v <= U64_MAX -> Forall (fun y => y <> EvFail) sw ->
  exists s', to_stream e t v (new_stream dbg false (mkDev [] 0 sw)) = (ROk tt, s') /\ d_data (s_dev s') = bytes_of e t v.
Proof.
  intros Hty Hsh Hs Hsc. set (s0 := new_stream dbg false (mkDev [] 0 [])).
  assert (W : winv s0) by (unfold s0, winv, sch; cbn; split; [reflexivity|lia]).
  assert (S : settled_w s0) by (left; reflexivity).
  destruct (to_stream_ok e Hwf v t s0 Hty Hsh W S Hs) as (s1 & E1 & _ & _ & D1 & _).
  destruct (to_stream e t v (new_stream dbg false (mkDev [] 0 sw))) as [r s'] eqn:E.
  destruct (gsim_bind _ _ _ _ _ (exec_sim (z_body (ser e v t))) (fun _ => commit_sim) _ _ _ E) as [[Heq _]|(Hn & _)]; [|contradiction].
  change (strip (new_stream dbg false (mkDev [] 0 sw))) with s0 in Heq. fold (to_stream e t v) in Heq. rewrite E1 in Heq. apply pair_equal_spec in Heq. destruct Heq as [<- Heq].
  exists s'. split; [reflexivity|]. change (d_data (s_dev s')) with (d_data (s_dev (strip s'))).
  assert (X : s_dev (strip s') = s_dev s1) by (rewrite <- Heq; reflexivity). rewrite X, D1, wr_end by reflexivity. reflexivity.
Qed.
Theorem struct_reads e zc cf i b vs its dw sw dbg sk sched tl : env_wf e -> cf_collect cf <= U64_MAX -> cf_blob cf <= U64_MAX ->
  e i = IStruct b -> record_items b vs its -> storable cf e zc (TItem i) (VRec vs) ->
  bytes_ok tl -> size_of e (TItem i) (VRec vs) + lenN tl + 3 < U64_MAX -> Forall (fun y => y <> EvFail) sw -> Forall (fun y => y <> EvFail) sched ->
  exists s', write_record e its (new_stream dw false (mkDev [] 0 sw)) = (ROk tt, s') /\
    fst (from_stream e zc cf (TItem i) (new_stream dbg sk (mkDev (d_data (s_dev s') ++ tl) 0 sched))) = ROk (VRec vs).
Proof.
  intros Hwf Hc Hb Ei Ha Hst Htl Hs Hsw Hsc. pose proof Hst as [S1 S2 S3 S4 S5].
  assert (Hs' : size_of e (TItem i) (VRec vs) <= U64_MAX) by lia.
  destruct (to_stream_sched e Hwf (TItem i) (VRec vs) dw sw S1 S2 Hs' Hsw) as (s' & E & Ed). rewrite <- (record_struct e i b vs its _ Ei Ha) in E.
  exists s'. split; [exact E|]. rewrite Ed.
  destruct (bytes_of_ok e Hwf _ _ S1 S2 Hs') as (Hdoc & Hok & Hl).
  pose proof (to_vec_ok e Hwf _ _ dw (conj S1 S2) Hs') as Hv.
  destruct (round_trip e Hwf cf Hc Hb zc _ _ dw true Hst ltac:(lia)) as (bs' & Hv' & Hr). rewrite Hv in Hv'. injection Hv' as <-.
  assert (Hu : usable e zc cf (TItem i)) by (split; [exact (env_wf_ok e Hwf)|split; [exact S3|split; assumption]]).
  assert (Hds : doc_stream (x_body (doc e (VRec vs) (TItem i))) (new_stream true true (mkDev (bytes_of e (TItem i) (VRec vs) ++ []) 0 []))) by (apply DocStream; rewrite ?app_nil_r; auto; lia).
  rewrite app_nil_r in Hds. unfold from_slice in Hr. apply (meaning_ok e zc cf _ _ _ _ Hu Hds) in Hr.
  refine (proj2 (meaning_ok e zc cf _ (x_body (doc e (VRec vs) (TItem i))) _ _ Hu _) Hr).
  apply DocStream; auto; [apply bytes_ok_app; split; assumption|rewrite lenN_app; lia].
Qed.
