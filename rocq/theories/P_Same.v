(** * P_Same: the result depends on the elements only *)

From Verif Require Import Base Wire Dev Stream SpecWire SpecFormat SpecStream Types Ser Prog De SpecDe SpecDoc SpecSerDe Tree
  P_Base P_Sched P_Read P_Blob P_Stream P_Canon P_Field P_Prog P_Wp P_Types P_Dict P_DictAll P_DeStream P_El P_Tree P_DeExt P_TreeRun.
Strategy 1000 [s_decode_u64 decode_u64 decode_loop write_all read_exact encode_u64 enc_loop encode_fixed_u64 mloop miter].

(** A list of elements, as a source with nothing after it, never panics. *)
Lemma el_total cf e zc t es dbg : env_ok e -> deserialisable e zc t -> cf_collect cf <= U64_MAX -> cf_blob cf <= U64_MAX ->
  Forall el_ok es -> lenN es <= U64_MAX ->
  match fst (run el_source cf (d_body (full_dict e (S (N.to_nat (cf_rec cf))) zc t)) (top_rst (mkEls (map (pair 0) es) true false 0 [] dbg))) with
  | ROk _ | RErr _ => True
  | _ => False
  end.
Proof.
  intros He Ht Hc Hb Hok Hlen.
  set (q := mkEls (map (pair 0) es) true false 0 [] dbg).
  assert (Hml : lenN (map (pair 0) es) = lenN es) by (unfold lenN; now rewrite map_length).
  destruct (full_dict_good cf e zc t He Ht) as (_ & _ & Hg).
  set (a := mkA 1 None 0 (lenN es) 0 0 0).
  assert (Hpre : pre cf 0 a) by (unfold pre; cbn; lia).
  pose proof (Hg a 0%nat Hpre eq_refl) as Hw.
  pose proof (el_sound cf (conj Hc Hb) _ _ a (top_rst q) Hw) as H.
  assert (Har : arel cf SOe a (top_rst q)).
  { unfold arel, SOe. cbn. split; [|repeat split; lia]. split; [reflexivity|]. split.
    - apply Forall_forall. intros [o x] Hin. apply in_map_iff in Hin. destruct Hin as (y & [= <- <-] & Hin).
      cbn. rewrite Forall_forall in Hok. now apply Hok.
    - split; [rewrite Hml; apply N.le_refl|exact Logic.I]. }
  specialize (H Har). destruct (run el_source cf _ (top_rst q)) as [[v|x| |] st']; cbn [fst]; auto.
Qed.

(** Any stream that starts with an encoding of the elements does the same. *)
Lemma same_run e zc cf t es s bs : env_ok e -> deserialisable e zc t -> cf_collect cf <= U64_MAX -> cf_blob cf <= U64_MAX ->
  encodes es bs -> starts s bs [] ->
  match run el_source cf (d_body (full_dict e (S (N.to_nat (cf_rec cf))) zc t)) (top_rst (mkEls (map (pair 0) es) true false 0 [] (s_dbg s))),
        fst (from_stream e zc cf t s) with
  | (ROk v, _), ROk w => v = w
  | (RErr x, _), RErr y => err_rel (fun _ _ => True) x y
  | _, _ => False
  end.
Proof.
  intros He Ht Hc Hb Henc Hst.
  assert (Hbl : lenN bs <= lenN (unread s)).
  { pose proof (f_equal lenN (st_unread _ _ _ Hst)) as H. rewrite lenN_dropN, lenN_app in H. lia. }
  assert (Hul : lenN (unread s) < U64_MAX) by (pose proof (st_pos _ _ _ Hst); lia).
  pose proof (encodes_ok _ _ Henc) as Hok. pose proof (encodes_len _ _ Henc) as Hlen.
  pose proof (el_total cf e zc t es (s_dbg s) He Ht Hc Hb) as Htot.
  assert (H1 : Forall el_ok es).
  { eapply Forall_impl; [|exact Hok]. intros a (A1 & A2 & A3). repeat split; auto. lia. }
  specialize (Htot H1 ltac:(lia)).
  set (q := mkEls (map (pair 0) es) true false 0 [] (s_dbg s)) in *.
  assert (Hsim : sim_rst (RSA false true []) (top_rst q) (top_rst s)).
  { unfold sim_rst. cbn. split; [|auto]. split; [|split; [exact Logic.I|exact (st_none _ _ _ Hst)]]. exists bs.
    destruct Hst as [S1 S2 S3 S4 S5 S6 S7 S8 S9]. constructor; cbn; auto; try congruence.
    - now apply encodes_at. }
  pose proof (el_stream false true [] cf (d_body (full_dict e (S (N.to_nat (cf_rec cf))) zc t)) _ _ Hsim) as H.
  unfold from_stream.
  destruct (run el_source cf _ (top_rst q)) as [[v|x| |] st1]; try contradiction Htot;
    destruct (run stream_source cf _ (top_rst s)) as [r st2].
  - destruct H as [H|[H|H]]; [contradiction|contradiction|]. cbn [fst snd] in *. destruct r; try contradiction. apply H.
  - destruct H as [H|[H|H]]; [discriminate H|contradiction|]. cbn [fst snd] in *. destruct r; try contradiction.
    destruct H as [H2 H3]. split; [exact H2|]. inversion H3; subst; constructor; exact Logic.I.
Qed.

Lemma same_kind_of k1 k2 k : kind_rel (fun _ _ => True) k k1 -> kind_rel (fun _ _ => True) k k2 -> same_kind k1 k2.
Proof. intros H1 H2. inversion H1; subst; inversion H2; subst; constructor. Qed.

Theorem same_encodings e zc cf t es s1 s2 bs1 bs2 : env_ok e -> deserialisable e zc t -> cf_collect cf <= U64_MAX -> cf_blob cf <= U64_MAX ->
  encodes es bs1 -> encodes es bs2 -> starts s1 bs1 [] -> starts s2 bs2 [] -> s_dbg s1 = s_dbg s2 ->
  same_result (fst (from_stream e zc cf t s1)) (fst (from_stream e zc cf t s2)).
Proof.
  intros He Ht Hc Hb E1 E2 S1 S2 Hd.
  pose proof (same_run e zc cf t es s1 bs1 He Ht Hc Hb E1 S1) as H1.
  pose proof (same_run e zc cf t es s2 bs2 He Ht Hc Hb E2 S2) as H2. rewrite Hd in H1.
  destruct (run el_source cf _ _) as [[v|x| |] st1];
    destruct (fst (from_stream e zc cf t s1)) as [v1|x1| |]; try contradiction;
    destruct (fst (from_stream e zc cf t s2)) as [v2|x2| |]; try contradiction; cbn.
  - congruence.
  - destruct H1 as [P1 K1], H2 as [P2 K2]. split; [congruence|]. exact (same_kind_of _ _ _ K1 K2).
Qed.

(** ** One end of document instead of the last ends of structs *)
Definition ends (k : nat) : list delem := repeat DEnd k.
Definition RE (q1 : els) (c1 : option field) (q2 : els) (c2 : option field) : Prop :=
  c1 = c2 /\ q_dbg q1 = q_dbg q2 /\ (blob_cur c1 -> q_blob q1 = q_blob q2) /\ q_eof q1 = false /\ q_end q1 = false /\
  ((exists Y k, q_es q1 = map (pair 0) (Y ++ ends k) /\ q_es q2 = map (pair 0) (Y ++ [DEof]) /\ q_eof q2 = false /\
      q_depth q1 = q_depth q2 /\ N.max (depth_through Y (q_depth q2)) 1 = N.of_nat k /\ Forall (fun x => x <> DEof) Y) \/
   (exists j, q_es q1 = map (pair 0) (ends j) /\ q_depth q1 = N.of_nat j /\ q_eof q2 = true /\ q_depth q2 = 0)).

Lemma re_next q1 c1 q2 c2 : RE q1 c1 q2 c2 ->
  srel false (fun a t1 b t2 => RE t1 a t2 b) (fun _ _ => False) (el_next q1) (el_next q2).
Proof.
  intros (-> & Hdb & Hbl & He & Hen & [(Y & k & E1 & E2 & Heo & Hd & Hk & Hne)|(j & E1 & Hd & Heo & Hd2)]); unfold el_next, srel; rewrite He, Heo.
  - rewrite E1, E2. destruct Y as [|x Y].
    + destruct k as [|k]; [cbn in Hk; lia|]. cbn. right. unfold RE. cbn.
      split; [reflexivity|]. split; [exact Hdb|]. split; [reflexivity|]. split; [reflexivity|]. split; [exact Hen|].
      right. exists k. split; [reflexivity|]. cbn in Hk. split; [lia|]. split; reflexivity.
    + inversion Hne as [|? ? Hx HY]; subst. cbn [app map].
      assert (HR : forall c, RE (mkEls (map (pair 0) (Y ++ ends k)) (q_end q1) (match x with DEof => true | _ => false end) (depth_after (hdr_of x) (q_depth q1)) (payload x) (q_dbg q1)) c
                 (mkEls (map (pair 0) (Y ++ [DEof])) (q_end q2) (match x with DEof => true | _ => false end) (depth_after (hdr_of x) (q_depth q2)) (payload x) (q_dbg q2)) c).
      { intros c. unfold RE. cbn [q_dbg q_blob q_eof q_end q_es q_depth].
        assert (Hxe : match x with DEof => true | _ => false end = false) by (destruct x; congruence). rewrite Hxe.
        split; [reflexivity|]. split; [exact Hdb|]. split; [reflexivity|]. split; [reflexivity|]. split; [exact Hen|].
        left. exists Y, k. split; [reflexivity|]. split; [reflexivity|]. split; [reflexivity|]. split; [now rewrite Hd|]. split; [exact Hk|exact HY]. }
      rewrite <- Hd in *. destruct (hdr_of x) as [t v| | | |] eqn:Eh; cbn [fst snd]; auto; right; apply HR.
  - rewrite E1. destruct j as [|j]; cbn [ends repeat map].
    + unfold el_stop. rewrite Hen. exact Logic.I.
    + cbn. right. unfold RE. cbn. split; [reflexivity|]. split; [exact Hdb|]. split; [contradiction|]. split; [reflexivity|]. split; [exact Hen|].
      right. exists j. split; [reflexivity|]. split; [lia|]. split; assumption.
Qed.

Lemma drop_ends D : forall j, drop_to D (N.of_nat j) false (map (pair 0) (ends j)) =
  Some (N.of_nat (Nat.min j (N.to_nat D)), false, map (pair 0) (ends (Nat.min j (N.to_nat D)))).
Proof.
  induction j as [|j IH]; cbn [ends repeat map drop_to].
  - destruct (N.leb_spec (N.of_nat 0) D); [reflexivity|lia].
  - destruct (N.leb_spec (N.of_nat (S j)) D).
    + replace (Nat.min (S j) (N.to_nat D)) with (S j) by lia. reflexivity.
    + change (depth_after (hdr_of DEnd) (N.of_nat (S j))) with (N.of_nat (S j) - 1). replace (N.of_nat (S j) - 1) with (N.of_nat j) by lia.
      unfold ends in IH. rewrite IH. replace (Nat.min (S j) (N.to_nat D)) with (Nat.min j (N.to_nat D)) by lia. reflexivity.
Qed.
Lemma drop_both D k : forall Y d, Forall (fun x => x <> DEof) Y -> N.max (depth_through Y d) 1 = N.of_nat k ->
  (exists Y' d', drop_to D d false (map (pair 0) (Y ++ ends k)) = Some (d', false, map (pair 0) (Y' ++ ends k)) /\
     drop_to D d false (map (pair 0) (Y ++ [DEof])) = Some (d', false, map (pair 0) (Y' ++ [DEof])) /\
     N.max (depth_through Y' d') 1 = N.of_nat k /\ Forall (fun x => x <> DEof) Y') \/
  (exists j, drop_to D d false (map (pair 0) (Y ++ ends k)) = Some (N.of_nat j, false, map (pair 0) (ends j)) /\
     drop_to D d false (map (pair 0) (Y ++ [DEof])) = Some (0, true, [])).
Proof.
  induction Y as [|x Y IH]; intros d Hne Hk; cbn [app map drop_to].
  - destruct (N.leb_spec d D) as [Hle|Hgt].
    + left. exists [], d. split; [|split; [reflexivity|split; [exact Hk|constructor]]].
      destruct k; [cbn in Hk; lia|]. cbn [ends repeat map drop_to app]. now rewrite (proj2 (N.leb_le _ _) Hle).
    + right. cbn in Hk. exists (Nat.min k (N.to_nat D)). replace d with (N.of_nat k) by lia. split; [apply drop_ends|].
      cbn. destruct D; reflexivity.
  - inversion Hne as [|? ? Hx HY]; subst. destruct (N.leb_spec d D) as [Hle|Hgt].
    + left. exists (x :: Y), d. auto.
    + replace (match x with DEof => true | _ => false end) with false by (destruct x; congruence). apply IH; assumption.
Qed.
Lemma re_skip q1 f1 q2 f2 : RE q1 (Some f1) q2 (Some f2) ->
  srel false (fun _ t1 _ t2 => RE t1 (Some f1) t2 (Some f2)) (fun _ _ => False) (el_skip f1 q1) (el_skip f2 q2).
Proof.
  intros HR. pose proof HR as ([= <-] & Hdb & Hbl & He & Hen & Hc). unfold el_skip, srel.
  assert (Hgen : (~ blob_cur (Some f1)) -> match drop_to (f_depth f1) (q_depth q1) (q_eof q1) (q_es q1), drop_to (f_depth f1) (q_depth q2) (q_eof q2) (q_es q2) with
     | Some (d1, eof1, es1), Some (d2, eof2, es2) =>
         RE (mkEls es1 (q_end q1) eof1 d1 (q_blob q1) (q_dbg q1)) (Some f1) (mkEls es2 (q_end q2) eof2 d2 (q_blob q2) (q_dbg q2)) (Some f1)
     | _, _ => False
     end).
  { intros Hnb. destruct Hc as [(Y & k & E1 & E2 & Heo & Hd & Hk & Hne)|(j & E1 & Hd & Heo & Hd2)].
    - rewrite He, Heo, E1, E2, Hd. destruct (drop_both (f_depth f1) k Y (q_depth q2) Hne Hk) as [(Y' & d' & R1 & R2 & R3 & R4)|(j & R1 & R2)]; rewrite R1, R2.
      + unfold RE. cbn. split; [reflexivity|]. split; [exact Hdb|]. split; [exact Hbl|]. split; [reflexivity|]. split; [exact Hen|].
        left. exists Y', k. auto 10.
      + unfold RE. cbn. split; [reflexivity|]. split; [exact Hdb|]. split; [exact Hbl|]. split; [reflexivity|]. split; [exact Hen|].
        right. exists j. auto 10.
    - rewrite He, Heo, E1, Hd, Hd2, drop_ends.
      replace (drop_to (f_depth f1) 0 true (q_es q2)) with (Some (0, true, q_es q2)) by (destruct (q_es q2) as [|[]]; cbn; destruct (f_depth f1); reflexivity).
      unfold RE. cbn. split; [reflexivity|]. split; [exact Hdb|]. split; [exact Hbl|]. split; [reflexivity|]. split; [exact Hen|].
      right. eexists. split; [reflexivity|]. split; [reflexivity|]. auto. }
  destruct f1 as [tg p D v]. cbn [f_val f_depth blob_cur] in *. destruct v; cbn [fst snd]; try (right; exact HR);
    specialize (Hgen (fun x => x)); destruct (drop_to D (q_depth q1) (q_eof q1) (q_es q1)) as [[[d1 o1] s1]|]; try contradiction;
    destruct (drop_to D (q_depth q2) (q_eof q2) (q_es q2)) as [[[d2 o2] s2]|]; try contradiction; cbn [fst snd]; right; exact Hgen.
Qed.

Lemma re_blob q1 c1 q2 c2 b : RE q1 c1 q2 c2 -> RE (q_set_blob b q1) c1 (q_set_blob b q2) c2.
Proof.
  intros (-> & Hdb & _ & He & Hen & Hc). unfold RE. cbn. split; [reflexivity|]. split; [exact Hdb|]. split; [reflexivity|].
  split; [exact He|]. split; [exact Hen|exact Hc].
Qed.
Theorem el_eof cf {A} (p : prog A) st1 st2 : sim_rst RE st1 st2 ->
  orel (sim_rst RE) (err_rel eq) false (dm_rst (fun _ _ => False)) (run el_source cf p st1) (run el_source cf p st2).
Proof.
  apply src_sim.
  - intros q1 c1 q2 c2 H. apply H.
  - intros q1 c1 q2 c2 (-> & _). destruct c2; cbn; repeat split.
  - apply re_next.
  - apply re_skip.
  - intros q1 c1 q2 c2 HR Hb1 Hb2. pose proof HR as (_ & _ & Hb & _). specialize (Hb Hb1). unfold srel. cbn. rewrite Hb. right. auto.
  - intros q1 c1 q2 c2 HR Hb1 Hb2. pose proof HR as (_ & _ & Hb & _). specialize (Hb Hb1). unfold srel. cbn. unfold el_read_fully. rewrite Hb.
    destruct (cf_blob cf <? lenN (q_blob q2)); cbn; right; auto. split; [reflexivity|]. now apply re_blob.
  - intros n q1 c1 q2 c2 HR Hb1 Hb2. pose proof HR as (_ & _ & Hb & _). specialize (Hb Hb1). unfold srel. cbn. unfold el_read_exact. rewrite Hb.
    destruct (lenN (q_blob q2) <? n); cbn; right; auto. split; [reflexivity|]. now apply re_blob.
  - intros q1 c1 q2 c2 HR Hb1 Hb2. pose proof HR as (_ & _ & Hb & _). specialize (Hb Hb1). unfold srel. cbn. rewrite Hb. right. auto.
  - contradiction.
  - contradiction.
  - intros f s H. contradiction.
  - intros c _. repeat split; intros; intros s H; contradiction.
Qed.

(** Depths in a document. *)
Lemma depth_through_app a b d : depth_through (a ++ b) d = depth_through b (depth_through a d).
Proof. apply fold_left_app. Qed.
Lemma depth_node n : forall tag d, depth_through (flat_node tag n) d = field_depth d.
Proof.
  assert (Hgen : forall (fs : list (N * node)) d, Forall (fun f => forall tag d, depth_through (flat_node tag (snd f)) d = field_depth d) fs -> 1 <= d ->
     depth_through (flat_map (fun f => flat_node (fst f) (snd f)) fs) d = d).
  { intros fs d H Hd. induction H as [|[t m] fs Hm HF IH]; [reflexivity|]. cbn [flat_map fst snd]. rewrite depth_through_app. cbn [snd] in Hm. rewrite Hm.
    unfold field_depth. rewrite N.max_l by lia. exact IH. }
  induction n as [x|b|fs IH|dd fs IH] using node_ind'; intros tag d; try reflexivity; cbn [flat_node].
  - cbn [depth_through fold_left hdr_of]. fold (depth_through (flat_map (fun f => flat_node (fst f) (snd f)) fs ++ [DEnd]) (depth_after (HdField tag HvStruct) d)).
    rewrite depth_through_app. cbn [depth_after]. rewrite Hgen; [|exact IH|unfold field_depth; lia]. cbn. unfold field_depth. lia.
  - cbn [depth_through fold_left hdr_of]. fold (depth_through (flat_map (fun f => flat_node (fst f) (snd f)) fs ++ [DEnd]) (depth_after (HdField tag (HvEnum dd)) d)).
    rewrite depth_through_app. cbn [depth_after]. rewrite Hgen; [|exact IH|unfold field_depth; lia]. cbn. unfold field_depth. lia.
Qed.
Lemma depth_flat ks : forall d, 1 <= d -> depth_through (flat ks) d = d.
Proof.
  induction ks as [|[t n] ks IH]; intros d Hd; [reflexivity|]. unfold flat in *. cbn [flat_map fst snd].
  rewrite depth_through_app, depth_node. unfold field_depth. rewrite N.max_l by lia. now apply IH.
Qed.
Lemma depth_doc ks : ks <> [] -> depth_through (flat ks) 0 = 1.
Proof.
  destruct ks as [|[t n] ks]; [congruence|]. intros _. unfold flat. cbn [flat_map fst snd]. rewrite depth_through_app, depth_node.
  apply depth_flat. cbn. lia.
Qed.
Lemma depth_ends k : forall d, depth_through (ends k) d = d - N.of_nat k.
Proof.
  induction k as [|k IH]; intros d; [cbn; lia|]. cbn [ends repeat depth_through fold_left]. fold (depth_through (ends k) (depth_after (hdr_of DEnd) d)).
  rewrite IH. cbn [hdr_of depth_after]. lia.
Qed.
Lemma flat_no_eof ks : Forall (fun x => x <> DEof) (flat ks).
Proof.
  assert (Hn : forall n tag, Forall (fun x => x <> DEof) (flat_node tag n)).
  { intros n. induction n as [x|b|fs IH|dd fs IH] using node_ind'; intros tag; cbn [flat_node].
    - repeat constructor; discriminate.
    - repeat constructor; discriminate.
    - constructor; [discriminate|]. apply Forall_app. split; [|repeat constructor; discriminate].
      induction IH as [|[t m] fs Hm HF IHf]; [constructor|]. cbn [flat_map]. apply Forall_app. split; [apply Hm|exact IHf].
    - constructor; [discriminate|]. apply Forall_app. split; [|repeat constructor; discriminate].
      induction IH as [|[t m] fs Hm HF IHf]; [constructor|]. cbn [flat_map]. apply Forall_app. split; [apply Hm|exact IHf]. }
  induction ks as [|[t n] ks IH]; [constructor|]. unfold flat. cbn [flat_map]. apply Forall_app. split; [apply Hn|exact IH].
Qed.
Lemma ends_snoc k : ends (S k) = ends k ++ [DEnd].
Proof. apply repeat_cons. Qed.
Lemma doc_cut ks X k : document ks = X ++ ends (S k) ->
  N.max (depth_through X 0) 1 = N.of_nat (S k) /\ Forall (fun x => x <> DEof) X.
Proof.
  intros H. rewrite ends_snoc, app_assoc in H. unfold document in H. apply app_inj_tail in H. destruct H as [H _].
  pose proof (flat_no_eof ks) as Hne. rewrite H in Hne. apply Forall_app in Hne. split; [|apply Hne].
  destruct ks as [|p ks].
  - cbn in H. symmetry in H. apply app_eq_nil in H. destruct H as [-> H]. destruct k; [reflexivity|discriminate].
  - pose proof (depth_doc (p :: ks) ltac:(discriminate)) as Hd. rewrite H, depth_through_app, depth_ends in Hd. lia.
Qed.

(** ** Both as streams *)
Lemma doc_run cf e zc t ks dbg : env_ok e -> deserialisable e zc t -> cf_collect cf <= U64_MAX -> cf_blob cf <= U64_MAX ->
  Forall el_ok (document ks) -> lenN (document ks) <= U64_MAX ->
  match fst (run el_source cf (d_body (full_dict e (S (N.to_nat (cf_rec cf))) zc t)) (top_rst (mkEls (map (pair 0) (document ks)) false false 0 [] dbg))) with
  | ROk _ | RErr _ => True
  | _ => False
  end.
Proof.
  intros He Ht Hc Hb Hok Hlen. pose proof (read_tree_total cf e zc t ks He Ht Hc Hb Hok Hlen) as Htot.
  set (q := mkEls (map (pair 0) (document ks)) false false 0 [] dbg).
  pose proof (full_agrees cf Hc Hb false dbg e (S (N.to_nat (cf_rec cf))) zc t) as Ha.
  pose proof (ag_body _ _ _ _ _ Ha ks [] 1 (top_rst q)) as Hd. cbn [x_s x_cur top_rst x_over] in Hd.
  assert (Hml : lenN (map (pair 0) (document ks)) = lenN (document ks)) by (unfold lenN; now rewrite map_length).
  assert (Hat : at_body false dbg ks [] 1 q None).
  { exists (map (pair 0) (flat ks)), 0, 0, []. split; [unfold q, document; rewrite map_app; reflexivity|].
    split; [rewrite map_map; apply map_id|]. split; [reflexivity|].
    unfold document in Hml, Hlen. rewrite map_app in Hml. cbn [map] in Hml. rewrite Hml. exact Hlen. }
  specialize (Hd Hat eq_refl). change (abs (top_rst q)) with (mkC 0 0 0 []) in Hd.
  assert (Hci : cinv cf (mkC 0 0 0 [])) by (split; cbn; lia). specialize (Hd Hci). unfold read_tree in *.
  destruct (t_body _ ks (mkC 0 0 0 [])) as [[v|k| |] c']; try contradiction.
  - destruct Hd as (st' & E & _). rewrite E. exact Logic.I.
  - destruct Hd as (x & st' & E & _). rewrite E. exact Logic.I.
Qed.
Lemma run_to_stream cf e zc t es bs tl s q : (forall p, enc_at false false p (map (pair 0) es) bs) -> starts s bs tl ->
  q = mkEls (map (pair 0) es) false false 0 [] (s_dbg s) ->
  match fst (run el_source cf (d_body (full_dict e (S (N.to_nat (cf_rec cf))) zc t)) (top_rst q)), fst (from_stream e zc cf t s) with
  | ROk v, ROk w => v = w
  | RErr x, RErr y => err_rel (fun _ _ => True) x y
  | ROk _, _ | RErr _, _ => False
  | _, _ => True
  end.
Proof.
  intros Henc Hst ->. set (q := mkEls (map (pair 0) es) false false 0 [] (s_dbg s)).
  assert (Hsim : sim_rst (RSA false false tl) (top_rst q) (top_rst s)).
  { unfold sim_rst. cbn. split; [|auto]. split; [|split; [exact Logic.I|exact (st_none _ _ _ Hst)]]. exists bs.
    destruct Hst as [S1 S2 S3 S4 S5 S6 S7 S8 S9]. constructor; cbn; auto; try congruence.
    }
  pose proof (el_stream false false tl cf (d_body (full_dict e (S (N.to_nat (cf_rec cf))) zc t)) _ _ Hsim) as H.
  unfold from_stream.
  destruct (run el_source cf _ (top_rst q)) as [[v|x| |] st1]; destruct (run stream_source cf _ (top_rst s)) as [r st2]; cbn [fst]; try exact Logic.I.
  - destruct H as [H|[H|H]]; [contradiction|contradiction|]. cbn [fst snd] in *. destruct r; try contradiction. apply H.
  - destruct H as [H|[H|H]]; [discriminate H|contradiction|]. cbn [fst snd] in *. destruct r; try contradiction.
    destruct H as [H2 H3]. split; [exact H2|]. inversion H3; subst; constructor; exact Logic.I.
Qed.

Lemma eof_at X b : encodes X b -> forall p, enc_at false false p (map (pair 0) (X ++ [DEof])) (b ++ [0x40]).
Proof.
  intros (es' & H & E). rewrite <- E. clear E.
  induction H as [|e es' b1 bs1 He Hes IH]; intros p.
  - cbn [filter map app]. apply (EaCons false false p 0 DEof [] [0x40] []); [discriminate|discriminate| |constructor].
    exists [0x40]. repeat split; constructor.
  - rewrite <- app_assoc. destruct e as [t v| | |m|]; cbn [filter not_pad map app]; try (constructor; [discriminate|discriminate|exact He|apply IH]).
    destruct He as (h & Hh & _ & ->). inversion Hh; subst. cbn [payload app]. constructor; [|apply IH].
    right. destruct (filter not_pad es'); discriminate.
Qed.
Lemma err_same k1 k2 k3 : err_rel eq k1 k2 -> err_rel (fun _ _ => True) k2 k3 -> err_rel (fun _ _ => True) k1 k3.
Proof. intros [P1 K1] [P2 K2]. split; [congruence|]. destruct K1 as [k|t p1 p2 ->]; exact K2. Qed.

Theorem eof_same e zc cf t ks X k s1 s2 bs1 b2 tl1 tl2 : env_ok e -> deserialisable e zc t -> cf_collect cf <= U64_MAX -> cf_blob cf <= U64_MAX ->
  document ks = X ++ repeat DEnd (S k) -> encodes_doc ks bs1 -> encodes X b2 ->
  starts s1 bs1 tl1 -> starts s2 (b2 ++ [0x40]) tl2 -> s_dbg s1 = s_dbg s2 ->
  same_result (fst (from_stream e zc cf t s1)) (fst (from_stream e zc cf t s2)).
Proof.
  intros He Ht Hc Hb HX E1 E2 S1 S2 Hd.
  assert (Hbl : lenN bs1 <= lenN (unread s1)).
  { pose proof (f_equal lenN (st_unread _ _ _ S1)) as H. rewrite lenN_dropN, lenN_app in H. lia. }
  assert (Hul : lenN (unread s1) < U64_MAX) by (pose proof (st_pos _ _ _ S1); lia).
  pose proof (encodes_ok _ _ (doc_encodes _ _ E1)) as Hok. pose proof (encodes_len _ _ (doc_encodes _ _ E1)) as Hlen.
  assert (H1 : Forall el_ok (document ks)).
  { eapply Forall_impl; [|exact Hok]. intros a (A1 & A2 & A3). repeat split; auto. lia. }
  pose proof (doc_run cf e zc t ks (s_dbg s1) He Ht Hc Hb H1 ltac:(lia)) as Htot.
  pose proof (run_to_stream cf e zc t (document ks) bs1 tl1 s1 _ (doc_at _ _ E1) S1 eq_refl) as R1.
  pose proof (run_to_stream cf e zc t (X ++ [DEof]) (b2 ++ [0x40]) tl2 s2 _ (eof_at _ _ E2) S2 eq_refl) as R2.
  rewrite <- Hd in R2.
  destruct (doc_cut ks X k HX) as [Hdep Hne].
  assert (Hsim : sim_rst RE (top_rst (mkEls (map (pair 0) (document ks)) false false 0 [] (s_dbg s1)))
                   (top_rst (mkEls (map (pair 0) (X ++ [DEof])) false false 0 [] (s_dbg s1)))).
  { unfold sim_rst. cbn. split; [|auto]. unfold RE. cbn. split; [reflexivity|]. split; [reflexivity|]. split; [reflexivity|].
    split; [reflexivity|]. split; [reflexivity|]. left. exists X, (S k). rewrite HX. auto 10. }
  pose proof (el_eof cf (d_body (full_dict e (S (N.to_nat (cf_rec cf))) zc t)) _ _ Hsim) as H.
  destruct (run el_source cf _ (top_rst (mkEls (map (pair 0) (document ks)) _ _ _ _ _))) as [[v|x| |] st1]; try contradiction Htot;
  destruct (run el_source cf _ (top_rst (mkEls (map (pair 0) (X ++ [DEof])) _ _ _ _ _))) as [r2 st2];
    (destruct H as [H|[H|H]]; [try contradiction H; discriminate H|contradiction H|]); cbn [fst snd] in *;
    destruct r2 as [v2|x2| |]; try contradiction;
    destruct (fst (from_stream e zc cf t s1)) as [w1|y1| |]; try contradiction;
    destruct (fst (from_stream e zc cf t s2)) as [w2|y2| |]; try contradiction; cbn [same_result].
  - destruct H as [H _]. congruence.
  - pose proof (err_same _ _ _ H R2) as [P2 K2]. destruct R1 as [P1 K1]. split; [congruence|]. exact (same_kind_of _ _ _ K1 K2).
Qed.

(** For the statements. *)
Theorem same_fresh e zc cf t es bs1 bs2 dbg k1 k2 : env_ok e -> deserialisable e zc t -> cf_collect cf <= U64_MAX -> cf_blob cf <= U64_MAX ->
  encodes es bs1 -> encodes es bs2 -> bytes_ok bs1 -> bytes_ok bs2 -> lenN bs1 + 3 < U64_MAX -> lenN bs2 + 3 < U64_MAX ->
  same_result (fst (from_stream e zc cf t (new_stream dbg k1 (mkDev bs1 0 []))))
              (fst (from_stream e zc cf t (new_stream dbg k2 (mkDev bs2 0 [])))).
Proof.
  intros He Ht Hc Hb E1 E2 B1 B2 L1 L2. apply (same_encodings e zc cf t es _ _ bs1 bs2); auto.
  - rewrite <- (app_nil_r bs1) at 1. apply fresh_starts; now rewrite app_nil_r.
  - rewrite <- (app_nil_r bs2) at 1. apply fresh_starts; now rewrite app_nil_r.
Qed.
Theorem eof_fresh e zc cf t ks X k bs1 b2 tl1 tl2 dbg k1 k2 : env_ok e -> deserialisable e zc t -> cf_collect cf <= U64_MAX -> cf_blob cf <= U64_MAX ->
  document ks = X ++ repeat DEnd (S k) -> encodes_doc ks bs1 -> encodes X b2 ->
  bytes_ok (bs1 ++ tl1) -> bytes_ok (b2 ++ [0x40] ++ tl2) -> lenN (bs1 ++ tl1) + 3 < U64_MAX -> lenN (b2 ++ [0x40] ++ tl2) + 3 < U64_MAX ->
  same_result (fst (from_stream e zc cf t (new_stream dbg k1 (mkDev (bs1 ++ tl1) 0 []))))
              (fst (from_stream e zc cf t (new_stream dbg k2 (mkDev (b2 ++ [0x40] ++ tl2) 0 [])))).
Proof.
  intros He Ht Hc Hb HX E1 E2 B1 B2 L1 L2. apply (eof_same e zc cf t ks X k _ _ bs1 b2 tl1 tl2); auto.
  - now apply fresh_starts.
  - rewrite app_assoc in *. now apply fresh_starts.
Qed.
