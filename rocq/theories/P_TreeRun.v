(** * P_TreeRun: deserialising a stream that holds a document is [read_tree] *)

From Verif Require Import Base Wire Dev Stream SpecWire SpecFormat SpecStream Types Ser Prog De SpecDe SpecDoc Tree
  P_Base P_Sched P_Read P_Blob P_Stream P_Canon P_Field P_Prog P_Wp P_Types P_Dict P_DictAll P_DeStream P_El P_Tree P_DeExt.
Strategy 1000 [s_decode_u64 decode_u64 decode_loop write_all read_exact encode_u64 enc_loop encode_fixed_u64 mloop miter].

(** ** A list of elements with nothing after it never makes deserialisation
    panic *)
Definition el_ok (e : delem) : Prop := delem_ok e /\ e <> DPad /\ lenN (payload e) <= U64_MAX.
Definition SOe (q : els) (c : option field) (o : nat) (ac : option (vhdr * nat)) (r m : N) : Prop :=
  q_end q = true /\ Forall (fun p => el_ok (snd p)) (q_es q) /\ lenN (q_es q) <= m /\
  match c, ac with
  | None, None => True
  | Some f, Some (v, _) => f_val f = v /\ (forall l, v = HBlob l -> r = lenN (q_blob q) /\ bytes_ok (q_blob q))
  | _, _ => False
  end.

Lemma drop_to_suffix D : forall es d eof d' eof' es', drop_to D d eof es = Some (d', eof', es') -> exists X, es = X ++ es'.
Proof.
  induction es as [|[o e] es IH]; intros d eof d' eof' es'; cbn [drop_to]; destruct (d <=? D); try discriminate.
  - intros [= _ _ <-]. exists []. reflexivity.
  - intros [= _ _ <-]. exists []. reflexivity.
  - intros H. destruct (IH _ _ _ _ _ H) as (X & ->). exists ((o, e) :: X). reflexivity.
Qed.

Lemma soe_blob A (m : M els serr A) (P : A -> N -> N -> Prop) :
  (forall q r, r = lenN (q_blob q) -> bytes_ok (q_blob q) ->
     match m q with
     | (ROk a, q') => exists bl, q' = q_set_blob bl q /\ bytes_ok bl /\ P a r (lenN bl)
     | (RErr _, _) => True
     | _ => False
     end) -> blobm SOe m P.
Proof.
  intros H q f o v lv r ms (Hq & Hf & Hm & Hv & Hb) (l & ->). destruct (Hb l eq_refl) as [Hr Hok]. specialize (H q r Hr Hok).
  destruct (m q) as [[a|e| |] q']; try exact H.
  destruct H as (bl & -> & Hbl & Hp). exists (lenN bl). split; [exact Hp|]. split; [exact Hq|]. split; [exact Hf|]. split; [exact Hm|].
  split; [exact Hv|]. intros l' _. auto.
Qed.

Section Sound.
  Variable cf : cfg.
  Hypothesis Hcf : cf_collect cf <= U64_MAX /\ cf_blob cf <= U64_MAX.

  Lemma el_sound {A} (p : prog A) Q a st : wpp cf p Q a -> arel cf SOe a st ->
    match run el_source cf p st with
    | (ROk x, st') => exists a', arel cf SOe a' st' /\ Q x a'
    | (RErr _, _) => True
    | _ => False
    end.
  Proof.
    apply wpp_sound; auto.
    - intros s [f|] o [[v lv]|] r m (_ & _ & _ & H); try contradiction; auto. apply H.
    - intros q c o ac r m (Hq & Hf & Hm & _) Ho. cbn [i_next el_source]. unfold el_next.
      destruct (q_eof q); [exists m; split; [lia|]; split; auto|].
      unfold el_stop. destruct (q_es q) as [|[off e] es]; [rewrite Hq; exact Logic.I|].
      inversion Hf as [|? ? [Hok [Hne Hlen]] Hf']; subst. rewrite lenN_cons in Hm. cbn [snd] in *.
      destruct e as [t v| | |mm|]; cbn [hdr_of].
      + destruct Hok as [Ht Hv].
        destruct v; cbn [f_tag f_val vhdr_of blob_len nest] in *; (split; [split; auto|]); exists (lenN es); (split; [lia|]);
          (split; [exact Hq|]); (split; [exact Hf'|]); (split; [apply N.le_refl|]); (split; [reflexivity|]); intros l [= <-]; auto.
      + exists (lenN es). split; [lia|]. split; [exact Hq|]. split; [exact Hf'|]. split; [apply N.le_refl|exact Logic.I].
      + exists (lenN es). split; [lia|]. split; [exact Hq|]. split; [exact Hf'|]. split; [apply N.le_refl|exact Logic.I].
      + exact Logic.I.
      + congruence.
    - intros q f o v lv r m (Hq & Hf & Hm & Hv & Hb). cbn [i_skip el_source]. unfold el_skip. rewrite Hv.
      destruct (drop_to (f_depth f) (q_depth q) (q_eof q) (q_es q)) as [[[d eof] es]|] eqn:E.
      + destruct (drop_to_suffix _ _ _ _ _ _ _ E) as (X & EX). rewrite EX in Hf, Hm. apply Forall_app in Hf. rewrite lenN_app in Hm.
        destruct v; (exists m; split; [lia|]; split; [exact Hq|]); cbn [q_es q_blob];
          try (rewrite EX; split; [apply Forall_app; exact Hf|]; split; [rewrite lenN_app; lia|]; split; [exact Hv|]; exact Hb).
        * split; [apply Hf|]. split; [lia|]. split; [exact Hv|exact Hb].
        * split; [apply Hf|]. split; [lia|]. split; [exact Hv|exact Hb].
      + unfold el_stop. rewrite Hq. destruct v; try exact Logic.I; (exists m; split; [lia|]; split; [exact Hq|]; auto).
    - apply soe_blob. intros q r -> Hok. cbn. exists (q_blob q). split; [destruct q; reflexivity|]. auto.
    - intros n. apply blobm_when, soe_blob. intros q r -> Hok. cbn [i_read_fully el_source]. unfold el_read_fully.
      destruct (n <? lenN (q_blob q)); [exact Logic.I|]. exists []. split; [reflexivity|]. split; [constructor|].
      change (lenN (@nil N)) with 0. split; [exact Hok|]. split; lia.
    - intros n. apply soe_blob. intros q r -> Hok. cbn [i_read_exact el_source]. unfold el_read_exact.
      destruct (N.ltb_spec (lenN (q_blob q)) n); [exact Logic.I|]. eexists. split; [reflexivity|].
      assert (H2 : bytes_ok (takeN n (q_blob q)) /\ bytes_ok (dropN n (q_blob q))).
      { rewrite <- (takeN_dropN n (q_blob q)) in Hok. now apply Forall_app in Hok. }
      split; [apply H2|]. rewrite lenN_dropN, lenN_takeN. split; [apply H2|]. split; [lia|]. split; lia.
    - apply soe_blob. intros q r -> Hok. cbn. exists (q_blob q). split; [destruct q; reflexivity|]. auto.
  Qed.
End Sound.

Lemma flat_el_ok fs : nodes_ok fs -> Forall (fun e => e <> DPad /\ delem_ok e) (flat fs).
Proof.
  assert (Hn : forall n tag, tag_ok tag -> node_ok n -> Forall (fun e => e <> DPad /\ delem_ok e) (flat_node tag n)).
  { intros n. induction n as [x|b|fs0 IH|d fs0 IH] using node_ind'; intros tag Ht Hok; cbn [flat_node node_ok] in *.
    - constructor; [|constructor]. split; [discriminate|]. repeat split; auto; apply Ht.
    - constructor; [|constructor]. split; [discriminate|]. repeat split; auto; apply Ht.
    - constructor; [split; [discriminate|]; cbn; auto|]. apply Forall_app. split; [|constructor; [split; [discriminate|exact Logic.I]|constructor]].
      revert Hok. induction IH as [|[t m] fs' Hm HF IHf]; intros Hok; cbn [flat_map fold_right fst snd] in *; [constructor|].
      apply Forall_app. split; [apply Hm; apply Hok|apply IHf; apply Hok].
    - constructor; [split; [discriminate|]; cbn; split; [exact Ht|apply Hok]|]. apply Forall_app. split; [|constructor; [split; [discriminate|exact Logic.I]|constructor]].
      destruct Hok as [_ Hok].
      revert Hok. induction IH as [|[t m] fs' Hm HF IHf]; intros Hok; cbn [flat_map fold_right fst snd] in *; [constructor|].
      apply Forall_app. split; [apply Hm; apply Hok|apply IHf; apply Hok]. }
  induction 1 as [|[t n] fs [Ht Hok] HF IH]; [constructor|]. unfold flat in *. cbn [flat_map]. apply Forall_app. split; auto.
Qed.

(** [read_tree] returns. *)
Lemma read_tree_total cf e zc t ks : env_ok e -> deserialisable e zc t -> cf_collect cf <= U64_MAX -> cf_blob cf <= U64_MAX ->
  Forall el_ok (document ks) -> lenN (document ks) <= U64_MAX ->
  match read_tree cf e zc t ks with
  | (ROk v, _) => has_type e v t /\ n_body (need e v t) <= cf_rec cf /\ coll_count v <= cf_collect cf /\ copied e v zc t <= cf_blob cf
  | (RErr _, _) => True
  | _ => False
  end.
Proof.
  intros He Ht Hc Hb Hok Hlen.
  set (q := mkEls (map (pair 0) (document ks)) true false 0 [] true).
  assert (Hms : map snd (map (pair 0) (document ks)) = document ks) by (rewrite map_map; apply map_id).
  assert (Hml : lenN (map (pair 0) (document ks)) = lenN (document ks)) by (unfold lenN; now rewrite map_length).
  pose proof (full_agrees cf Hc Hb true true e (S (N.to_nat (cf_rec cf))) zc t) as Ha.
  pose proof (ag_body _ _ _ _ _ Ha ks [] 1 (top_rst q)) as Hd. cbn [x_s x_cur top_rst x_over] in Hd.
  assert (Hat : at_body true true ks [] 1 q None).
  { exists (map (pair 0) (flat ks)), 0, 0, []. split; [unfold q, document; rewrite map_app; reflexivity|].
    split; [rewrite map_map; apply map_id|]. split; [reflexivity|].
    unfold document in Hml, Hlen. rewrite map_app in Hml. cbn [map] in Hml. rewrite Hml. exact Hlen. }
  specialize (Hd Hat eq_refl). change (abs (top_rst q)) with (mkC 0 0 0 []) in Hd.
  assert (Hci : cinv cf (mkC 0 0 0 [])) by (split; cbn; lia). specialize (Hd Hci).
  destruct (full_dict_good cf e zc t He Ht) as (_ & _ & Hg).
  set (a := mkA 1 None 0 (lenN (document ks)) 0 0 0).
  assert (Hpre : pre cf 0 a) by (unfold pre; cbn; lia).
  pose proof (Hg a 0%nat Hpre eq_refl) as Hw.
  pose proof (el_sound cf (conj Hc Hb) _ _ a (top_rst q) Hw) as H.
  assert (Har : arel cf SOe a (top_rst q)).
  { unfold arel, SOe. cbn. split; [|repeat split; lia]. split; [reflexivity|]. split.
    - apply Forall_forall. intros [o x] Hin. apply in_map_iff in Hin. destruct Hin as (y & [= <- <-] & Hin).
      cbn. rewrite Forall_forall in Hok. now apply Hok.
    - split; [rewrite Hml; apply N.le_refl|exact Logic.I]. }
  specialize (H Har). unfold read_tree in *.
  destruct (t_body _ ks (mkC 0 0 0 [])) as [[v|k| |] c'].
  - destruct Hd as (st' & E & _). rewrite E in H. destruct H as (a' & (HS & _ & _ & _ & L1 & L2 & _) & _ & _ & V1 & V2 & V3 & V4).
    cbn in V2, V3, V4. repeat split; auto; lia.
  - exact Logic.I.
  - destruct Hd as (st' & E). rewrite E in H. exact H.
  - destruct Hd as (st' & E). rewrite E in H. exact H.
Qed.

(** ** Streams *)

(** [s] is at the start of [bs ++ tl]. *)
Record starts (s : stream) (bs tl : bytes) : Prop := mkStarts {
  st_seq : seqinv s;
  st_g : s_graceful s = false;
  st_eof : s_eof s = false;
  st_depth : s_depth s = 0;
  st_pos : s_pos s + lenN (unread s) < U64_MAX;
  st_pend : pend s <= lenN (unread s);
  st_dev : d_pos (s_dev s) <= lenN (d_data (s_dev s));
  st_unread : dropN (pend s) (unread s) = bs ++ tl;
  st_none : pend s = 0
}.
Lemma fresh_starts dbg sk bs tl : bytes_ok (bs ++ tl) -> lenN (bs ++ tl) + 3 < U64_MAX ->
  starts (new_stream dbg sk (mkDev (bs ++ tl) 0 [])) bs tl.
Proof.
  intros H1 H2.
  assert (Hu : unread (new_stream dbg sk (mkDev (bs ++ tl) 0 [])) = bs ++ tl) by (unfold unread, d_rest; apply dropN_0).
  assert (Hpd : pend (new_stream dbg sk (mkDev (bs ++ tl) 0 [])) = 0) by reflexivity.
  constructor; rewrite ?Hpd, ?Hu; try reflexivity; cbn; try lia.
  exact (fresh_seqinv dbg sk false (bs ++ tl) H1 H2). apply dropN_0.
Qed.

Lemma encodes_at es bs : encodes es bs -> forall p, enc_at false true p (map (pair 0) es) bs.
Proof.
  intros (es' & H & <-). induction H as [|e es' b bs He Hes IH]; intros p; [constructor|].
  destruct e as [t v| | |m|]; cbn [filter not_pad map]; try (constructor; [discriminate|discriminate|exact He|apply IH]).
  destruct He as (h & Hh & _ & ->). inversion Hh; subst. cbn [payload app]. constructor; [now left|]. apply IH.
Qed.
Lemma encodes_ok es bs : encodes es bs -> Forall (fun e => delem_ok e /\ e <> DPad /\ lenN (payload e) <= lenN bs) es.
Proof.
  intros (es' & H & <-). induction H as [|e es' b bs He Hes IH]; [constructor|].
  assert (IH' : Forall (fun e0 => delem_ok e0 /\ e0 <> DPad /\ lenN (payload e0) <= lenN (b ++ bs)) (filter not_pad es')).
  { eapply Forall_impl; [|exact IH]. intros a (H1 & H2 & H3). repeat split; auto. rewrite lenN_app. lia. }
  pose proof He as (h & Hh & Hp & ->). apply hdr_enc_ok in Hh.
  destruct e as [t v| | |m|]; cbn [filter not_pad]; try exact IH'; (constructor; [|exact IH']);
    (split; [destruct v || idtac; cbn in *; tauto|]); (split; [discriminate|]); rewrite !lenN_app; lia.
Qed.
Lemma encodes_len es bs : encodes es bs -> lenN es <= lenN bs.
Proof.
  intros (es' & H & <-). induction H as [|e es' b bs He Hes IH]; [apply N.le_refl|].
  pose proof He as (h & Hh & _ & ->). apply hdr_enc_len in Hh. rewrite !lenN_app.
  destruct (not_pad e) eqn:E; cbn [filter]; rewrite E, ?lenN_cons; lia.
Qed.

Lemma anyk_kind P a b c : anyk a b -> kind_rel P b c -> anyk a c.
Proof. intros Hk H. unfold anyk in *. inversion Hk; subst; inversion H; subst; constructor; exact Logic.I. Qed.
Lemma doc_encodes ks bs : encodes_doc ks bs -> encodes (document ks) bs.
Proof.
  intros (b & (es' & H & E) & ->). exists (es' ++ [DEnd]). split.
  - clear E. induction H as [|e es' b1 bs1 He Hes IH]; cbn [app].
    + apply (EncCons DEnd [] [0] []); [|constructor]. exists [0]. repeat split; constructor.
    + rewrite <- app_assoc. constructor; auto.
  - rewrite filter_app, E. reflexivity.
Qed.
Lemma doc_at ks bs : encodes_doc ks bs -> forall p, enc_at false false p (map (pair 0) (document ks)) bs.
Proof.
  intros (b & (es' & H & E) & ->). unfold document. rewrite <- E. clear E.
  induction H as [|e es' b1 bs1 He Hes IH]; intros p.
  - cbn [filter map app]. apply (EaCons false false p 0 DEnd [] [0] []); [discriminate|discriminate| |constructor].
    exists [0]. repeat split; constructor.
  - rewrite <- app_assoc. destruct e as [t v| | |m|]; cbn [filter not_pad map app]; try (constructor; [discriminate|discriminate|exact He|apply IH]).
    destruct He as (h & Hh & _ & ->). inversion Hh; subst. cbn [payload app]. constructor; [|apply IH].
    right. destruct (filter not_pad es'); discriminate.
Qed.

Theorem tree_stream_path e zc cf t ks s bs tl : env_ok e -> deserialisable e zc t -> cf_collect cf <= U64_MAX -> cf_blob cf <= U64_MAX ->
  encodes_doc ks bs -> starts s bs tl ->
  match read_tree cf e zc t ks with
  | (ROk v, _) => exists s', from_stream e zc cf t s = (ROk v, s') /\ starts s' [] tl
  | (RErr k, c') => exists x s', from_stream e zc cf t s = (RErr x, s') /\ anyk k (e_kind x) /\ map fst (e_path x) = c_path c'
  | _ => False
  end.
Proof.
  intros He Ht Hc Hb Henc Hst.
  assert (Hbl : lenN bs <= lenN (unread s)).
  { pose proof (f_equal lenN (st_unread _ _ _ Hst)) as H. rewrite lenN_dropN, lenN_app in H. lia. }
  assert (Hul : lenN (unread s) < U64_MAX) by (pose proof (st_pos _ _ _ Hst); lia).
  pose proof (encodes_ok _ _ (doc_encodes _ _ Henc)) as Hok. pose proof (encodes_len _ _ (doc_encodes _ _ Henc)) as Hlen.
  assert (Htot : match read_tree cf e zc t ks with (ROk v, _) => True | (RErr _, _) => True | _ => False end).
  { pose proof (read_tree_total cf e zc t ks He Ht Hc Hb) as H.
    assert (H1 : Forall el_ok (document ks)).
    { eapply Forall_impl; [|exact Hok]. intros a (A1 & A2 & A3). repeat split; auto. lia. }
    specialize (H H1 ltac:(lia)). destruct (read_tree cf e zc t ks) as [[v|k| |] c']; auto. }
  set (en := false).
  set (q := mkEls (map (pair 0) (document ks)) en false 0 [] (s_dbg s)).
  pose proof (full_agrees cf Hc Hb en (s_dbg s) e (S (N.to_nat (cf_rec cf))) zc t) as Ha.
  pose proof (ag_body _ _ _ _ _ Ha ks [] 1 (top_rst q)) as Hd. cbn [x_s x_cur top_rst x_over] in Hd.
  assert (Hml : lenN (map (pair 0) (document ks)) = lenN (document ks)) by (unfold lenN; now rewrite map_length).
  assert (Hat : at_body en (s_dbg s) ks [] 1 q None).
  { exists (map (pair 0) (flat ks)), 0, 0, []. split; [unfold q, document; rewrite map_app; reflexivity|].
    split; [rewrite map_map; apply map_id|]. split; [reflexivity|].
    unfold document in Hml, Hlen. rewrite map_app in Hml. cbn [map] in Hml. rewrite Hml. lia. }
  specialize (Hd Hat eq_refl). change (abs (top_rst q)) with (mkC 0 0 0 []) in Hd.
  assert (Hci : cinv cf (mkC 0 0 0 [])) by (split; cbn; lia). specialize (Hd Hci).
  assert (Hsim : sim_rst (RSA false false tl) (top_rst q) (top_rst s)).
  { unfold sim_rst. cbn. split; [|auto]. split; [|split; [exact Logic.I|exact (st_none _ _ _ Hst)]]. exists bs.
    destruct Hst as [S1 S2 S3 S4 S5 S6 S7 S8 S9]. constructor; cbn; auto; try congruence.
    - now apply doc_at.
    - discriminate. }
  pose proof (el_stream false false tl cf (d_body (full_dict e (S (N.to_nat (cf_rec cf))) zc t)) _ _ Hsim) as H.
  unfold read_tree in *. unfold from_stream.
  destruct (t_body _ ks (mkC 0 0 0 [])) as [[v|k| |] c']; try contradiction.
  - destruct Hd as (st1 & E1 & (bl & Ep) & _). rewrite E1 in H.
    destruct (run stream_source cf _ (top_rst s)) as [r st2] eqn:Er.
    destruct H as [H|[H|H]]; [contradiction|contradiction|]. cbn [fst snd] in H. destruct r as [v2|x| |]; try contradiction.
    destruct H as [<- H]. pose proof (run_ends_none e zc cf t He Ht Hc Hb s v st2 (st_seq _ _ _ Hst) Er) as Hnone. exists (x_s st2). split; [reflexivity|].
    destruct H as (((bs2 & Hrd) & _ & Hbh) & _). rewrite Ep in Hrd. rewrite Hnone in Hbh.
    destruct Hrd as [R1 R2 R3 R4 R5 R6 R7 R8 R9 R10 R11 R12]. cbn [q_dbg q_eof q_depth q_es] in *.
    apply enc_at_nil in R9. destruct R9 as (np & -> & Hnp). rewrite (Hnp eq_refl) in R10. constructor; auto.
  - destruct Hd as (x & st1 & E1 & Hk & Hp). rewrite E1 in H.
    destruct (run stream_source cf _ (top_rst s)) as [r st2].
    destruct H as [H|[H|H]]; [discriminate H|contradiction|]. cbn [fst snd] in H. destruct r as [v2|x2| |]; try contradiction.
    exists x2, (x_s st2). split; [reflexivity|]. destruct H as [Hq H].
    split; [exact (anyk_kind _ _ _ _ Hk H)|congruence].
Qed.
Theorem tree_stream e zc cf t ks s bs tl : env_ok e -> deserialisable e zc t -> cf_collect cf <= U64_MAX -> cf_blob cf <= U64_MAX ->
  encodes_doc ks bs -> starts s bs tl ->
  match read_tree cf e zc t ks with
  | (ROk v, _) => exists s', from_stream e zc cf t s = (ROk v, s') /\ starts s' [] tl
  | (RErr k, _) => exists x s', from_stream e zc cf t s = (RErr x, s') /\ anyk k (e_kind x)
  | _ => False
  end.
Proof.
  intros He Ht Hc Hb Henc Hst. pose proof (tree_stream_path e zc cf t ks s bs tl He Ht Hc Hb Henc Hst) as H.
  destruct (read_tree cf e zc t ks) as [[v|k| |] c']; auto. destruct H as (x & s' & E & Hk & _). eauto.
Qed.
