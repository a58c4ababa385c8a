(** * P_Exact: what is accepted is consumed exactly (C59) *)

From Verif Require Import Base Wire Dev Stream Types Prog Ser De Tree SpecWire SpecFormat SpecStream SpecDe SpecDoc SpecSerDe SpecRead SpecAccept
  P_Base P_Wire P_Sched P_Read P_Canon P_Blob P_Stream P_Prog P_Types P_El P_Tree P_TreeRun P_DocOk P_Same P_DeProps P_DeExt P_DeTrail P_Parse P_Unamb P_Meaning P_Accept.
From Verif Require P_Places.
Strategy 1000 [s_decode_u64 decode_u64 decode_loop write_all read_exact encode_u64 enc_loop encode_fixed_u64 mloop miter].

(** The elements consumed so far: at most one end of document, and then it
    is the last. *)
Definition noeof (l : list (N * delem)) : Prop := Forall (fun x => snd x <> DEof) l.
Definition taken (eof : bool) (l : list (N * delem)) : Prop :=
  if eof then exists l' o, l = l' ++ [(o, DEof)] /\ noeof l' else noeof l.
Lemma taken_snoc l o e : noeof l -> taken (match e with DEof => true | _ => false end) (l ++ [(o, e)]).
Proof.
  intros Hl. destruct e as [t v| | |m|]; cbn; try (apply Forall_app; split; [exact Hl|]; constructor; [discriminate|constructor]). eauto.
Qed.
Lemma drop_taken D : forall es l d eof d' eof' es', drop_to D d eof es = Some (d', eof', es') -> taken eof l -> (eof = true -> d = 0) ->
  exists l', es = l' ++ es' /\ taken eof' (l ++ l') /\ (eof' = true -> d' = 0).
Proof.
  induction es as [|[o e] r IH]; intros l d eof d' eof' es' H Hl Hd; cbn [drop_to] in H; destruct (d <=? D) eqn:Ed; try discriminate.
  - injection H as <- <- <-. exists []. split; [reflexivity|]. rewrite app_nil_r. auto.
  - injection H as <- <- <-. exists []. split; [reflexivity|]. rewrite app_nil_r. auto.
  - assert (Heof : eof = false) by (destruct eof; [apply N.leb_gt in Ed; specialize (Hd eq_refl); lia|reflexivity]). subst eof.
    destruct (IH (l ++ [(o, e)]) _ _ _ _ _ H) as (l' & -> & H1 & H2).
    + pose proof (taken_snoc l o e Hl) as Ht. destruct e; exact Ht.
    + destruct e; intros X; try discriminate X. reflexivity.
    + exists ((o, e) :: l'). split; [reflexivity|]. rewrite <- app_assoc in H1. auto.
Qed.

Definition RK (es0 : list (N * delem)) (q1 : els) (c1 : option field) (q2 : els) (c2 : option field) : Prop :=
  q1 = q2 /\ c1 = c2 /\ exists l, es0 = l ++ q_es q1 /\ taken (q_eof q1) l /\ (q_eof q1 = true -> q_depth q1 = 0).
Theorem el_keep es0 cf {A} (p : prog A) st1 st2 : sim_rst (RK es0) st1 st2 ->
  orel (sim_rst (RK es0)) (err_rel eq) true (dm_rst (fun _ _ => False)) (run el_source cf p st1) (run el_source cf p st2).
Proof.
  apply src_sim.
  - intros q1 c1 q2 c2 (-> & _). reflexivity.
  - intros q1 c1 q2 c2 (_ & -> & _). destruct c2; cbn; repeat split.
  - intros q1 c1 q2 c2 (<- & <- & l & Hl & Hx & Hz). cbn [i_next el_source]. unfold el_next, srel.
    destruct (q_eof q1) eqn:Eo; cbn [fst snd].
    + right. split; [reflexivity|]. split; [reflexivity|]. exists l. rewrite Eo. auto.
    + destruct (q_es q1) as [|[o e] r] eqn:Eq; [unfold el_stop; destruct (q_end q1); cbn; auto|].
      destruct (hdr_of e) eqn:Eh; cbn [fst snd]; auto; right; (split; [reflexivity|]; split; [reflexivity|]); exists (l ++ [(o, e)]); cbn [q_es q_eof q_depth];
        (split; [rewrite <- app_assoc; exact Hl|]; split; [now apply taken_snoc|]; destruct e; try discriminate; intros _; destruct (hdr_of _); try discriminate Eh; reflexivity).
  - intros q1 f1 q2 f2 (<- & Hf & l & Hl & Hx & Hz). injection Hf as <-. cbn [i_skip el_source]. unfold el_skip, srel.
    assert (Hk : forall q, q = q1 -> RK es0 q (Some f1) q (Some f1)) by (intros q ->; split; [reflexivity|]; split; [reflexivity|]; eauto).
    destruct (f_val f1); cbn [fst snd]; try (right; now apply Hk);
      (destruct (drop_to _ _ _ (q_es q1)) as [[[d eof] es]|] eqn:Ed; [|unfold el_stop; destruct (q_end q1); cbn; auto]);
      cbn [fst snd]; right; (split; [reflexivity|]; split; [reflexivity|]); destruct (drop_taken _ _ l _ _ _ _ _ Ed Hx Hz) as (l2 & E2 & Hl2 & Hz2);
      exists (l ++ l2); cbn [q_es q_eof q_depth]; (split; [rewrite <- app_assoc, <- E2; exact Hl|auto]).
  - intros q1 c1 q2 c2 HR Hb1 Hb2. pose proof HR as (<- & <- & _). unfold srel. cbn. auto.
  - intros q1 c1 q2 c2 HR Hb1 Hb2. pose proof HR as (<- & <- & Hl). unfold srel. cbn. unfold el_read_fully.
    destruct (cf_blob cf <? lenN (q_blob q1)); cbn; [auto|right]. split; [reflexivity|]. split; [reflexivity|]. split; [reflexivity|exact Hl].
  - intros n q1 c1 q2 c2 HR Hb1 Hb2. pose proof HR as (<- & <- & Hl). unfold srel. cbn. unfold el_read_exact.
    destruct (lenN (q_blob q1) <? n); cbn; [auto|right]. split; [reflexivity|]. split; [reflexivity|]. split; [reflexivity|exact Hl].
  - intros q1 c1 q2 c2 HR Hb1 Hb2. pose proof HR as (<- & <- & _). unfold srel. cbn. auto.
  - contradiction.
  - contradiction.
  - intros f s H. contradiction.
  - intros c _. repeat split; intros; intros s H; contradiction.
Qed.

(** Without what was not consumed. *)
Definition RL (W : list (N * delem)) (q1 : els) (c1 : option field) (q2 : els) (c2 : option field) : Prop :=
  c1 = c2 /\ q1 = mkEls (q_es q2 ++ W) (q_end q2) (q_eof q2) (q_depth q2) (q_blob q2) (q_dbg q2).
Definition DL (W : list (N * delem)) (q : els) (c : option field) : Prop := (List.length (q_es q) < List.length W)%nat.
Lemma drop_size D : forall es d eof d' eof' es', drop_to D d eof es = Some (d', eof', es') -> (List.length es' <= List.length es)%nat.
Proof.
  induction es as [|[o e] r IH]; intros d eof d' eof' es' H; cbn [drop_to] in H; destruct (d <=? D); try discriminate;
    try (injection H as <- <- <-; cbn; lia). apply IH in H. cbn. lia.
Qed.
Lemma drop_less D W : forall es d eof d' eof' es', drop_to D d eof (es ++ W) = Some (d', eof', es') ->
  (exists r, es' = r ++ W /\ drop_to D d eof es = Some (d', eof', r)) \/ (List.length es' < List.length W)%nat.
Proof.
  induction es as [|[o e] r IH]; intros d eof d' eof' es' H.
  - cbn [app] in H. destruct (d <=? D) eqn:Ed.
    + left. exists []. assert (Hh : drop_to D d eof W = Some (d, eof, W)) by (destruct W as [|[]]; cbn [drop_to]; now rewrite Ed).
      rewrite Hh in H. injection H as <- <- <-. cbn [drop_to app]. rewrite Ed. auto.
    + destruct W as [|[o e] W]; cbn [drop_to] in H; rewrite Ed in H; [discriminate|]. right.
      apply drop_size in H. cbn. lia.
  - cbn [app drop_to] in *. destruct (d <=? D) eqn:Ed.
    + injection H as <- <- <-. left. exists ((o, e) :: r). auto.
    + now apply IH.
Qed.
Theorem el_less W cf {A} (p : prog A) st1 st2 : sim_rst (RL W) st1 st2 ->
  orel (sim_rst (RL W)) (err_rel eq) true (dm_rst (DL W)) (run el_source cf p st1) (run el_source cf p st2).
Proof.
  apply src_sim.
  - intros q1 c1 q2 c2 (_ & ->). reflexivity.
  - intros q1 c1 q2 c2 (-> & _). destruct c2; cbn; repeat split.
  - intros q1 c1 q2 c2 (-> & ->). cbn [i_next el_source]. unfold el_next, srel. cbn [q_eof q_es q_depth q_end q_dbg].
    destruct (q_eof q2) eqn:Eo; cbn [fst snd].
    + right. unfold RL. rewrite Eo. auto.
    + destruct (q_es q2) as [|[o e] r]; cbn [app].
      * destruct W as [|[o e] W]; [unfold el_stop; cbn; destruct (q_end q2); cbn; auto|].
        assert (Hd : forall c q, q_es q = W -> DL ((o, e) :: W) q c) by (intros c q Hq; unfold DL; rewrite Hq; cbn; lia).
        destruct (hdr_of e); cbn [fst snd]; auto.
      * destruct (hdr_of e); cbn [fst snd]; auto; right; unfold RL; cbn; auto.
  - intros q1 f1 q2 f2 (Hf & ->). injection Hf as <-. cbn [i_skip el_source]. unfold el_skip, srel. cbn [q_eof q_es q_depth q_end q_dbg q_blob].
    destruct (f_val f1); cbn [fst snd]; try (right; unfold RL; auto; fail);
      (destruct (drop_to (f_depth f1) (q_depth q2) (q_eof q2) (q_es q2 ++ W)) as [[[d eof] es]|] eqn:Ed; [|unfold el_stop; cbn; destruct (q_end q2); cbn; auto]);
      cbn [fst snd]; (destruct (drop_less _ _ _ _ _ _ _ _ Ed) as [(r & -> & ->)|Hd]; [right; unfold RL; cbn; auto|left; exact Hd]).
  - intros q1 c1 q2 c2 HR Hb1 Hb2. pose proof HR as (_ & ->). unfold srel. cbn. auto.
  - intros q1 c1 q2 c2 HR Hb1 Hb2. pose proof HR as (-> & ->). unfold srel. cbn. unfold el_read_fully. cbn [q_blob].
    destruct (cf_blob cf <? lenN (q_blob q2)); cbn; auto. right. split; [reflexivity|]. unfold RL, q_set_blob. cbn. auto.
  - intros n q1 c1 q2 c2 HR Hb1 Hb2. pose proof HR as (-> & ->). unfold srel. cbn. unfold el_read_exact. cbn [q_blob].
    destruct (lenN (q_blob q2) <? n); cbn; auto. right. split; [reflexivity|]. unfold RL, q_set_blob. cbn. auto.
  - intros q1 c1 q2 c2 HR Hb1 Hb2. pose proof HR as (_ & ->). unfold srel. cbn. auto.
  - reflexivity.
  - intros q c Hd. cbn [i_next el_source]. unfold el_next. destruct (q_eof q); [exact Hd|]. unfold DL in *.
    destruct (q_es q) as [|[o e] r] eqn:Eq; [unfold el_stop; destruct (q_end q); exact Logic.I|]. cbn in Hd.
    destruct (hdr_of e); cbn [q_es]; auto; lia.
  - intros f q Hd. cbn [i_skip el_source]. unfold el_skip. unfold DL in *.
    destruct (f_val f); try exact Hd;
      (destruct (drop_to (f_depth f) (q_depth q) (q_eof q) (q_es q)) as [[[d eof] es]|] eqn:Ed; [|unfold el_stop; destruct (q_end q); exact Logic.I]);
      cbn [q_es]; apply drop_size in Ed; lia.
  - intros c _. split; [|split; [|split]].
    + intros q Hd. exact Hd.
    + intros q Hd. cbn. unfold el_read_fully. destruct (_ <? _); [exact Logic.I|exact Hd].
    + intros n q Hd. cbn. unfold el_read_exact. destruct (_ <? _); [exact Logic.I|exact Hd].
    + intros q Hd. exact Hd.
Qed.

(** ** On bytes *)
Lemma at_cut tr tp : forall p es bs, enc_at tr tp p es bs ->
  forall es1 es2, es = es1 ++ es2 -> exists b1 b2, bs = b1 ++ b2 /\ enc_at tr tp p es1 b1.
Proof.
  induction 1 as [p|p es bs Hw H IH|p o e es b bs Ho Hp He H IH]; intros es1 es2 E.
  - symmetry in E. apply app_eq_nil in E. destruct E as [-> _]. exists [], []. split; [reflexivity|apply EaNil].
  - destruct es1 as [|x es1]; [exists [], (0xC0 :: bs); split; [reflexivity|apply EaNil]|].
    destruct (IH (x :: es1) es2 E) as (b1 & b2 & -> & H1). exists (0xC0 :: b1), b2. split; [reflexivity|].
    apply EaPad; [right; discriminate|exact H1].
  - destruct es1 as [|[o1 e1] es1].
    + exists [], (b ++ bs). split; [reflexivity|apply EaNil].
    + injection E as <- <- E. destruct (IH es1 es2 E) as (b1 & b2 & -> & H1). exists (b ++ b1), b2. split; [apply app_assoc|].
      now apply EaCons.
Qed.
Lemma at_encodes tr tp p es bs : enc_at tr tp p es bs -> encodes (map snd es) bs.
Proof.
  induction 1 as [p|p es bs Hw H (es' & H1 & H2)|p o e es b bs Ho Hp He H (es' & H1 & H2)].
  - exists []. split; [constructor|reflexivity].
  - exists (DPad :: es'). split; [|exact H2]. apply (EncCons DPad es' [0xC0] bs); [|exact H1]. exists [0xC0]. split; [constructor|]. split; [constructor|reflexivity].
  - exists (e :: es'). split; [now constructor|]. cbn [filter map snd]. destruct e; cbn [not_pad]; try (now rewrite H2); congruence.
Qed.
Lemma norm_filter l : forall eof, taken eof l -> norm (map snd l) = filter not_exc (map snd l).
Proof.
  assert (Hg : forall l r, noeof l -> norm (map snd l ++ r) = filter not_exc (map snd l) ++ norm r).
  { induction l0 as [|[o e] l0 IH]; intros r H; [reflexivity|]. inversion H; subst. cbn [map snd app].
    destruct e as [t v| | |m|]; cbn [norm filter not_exc snd app] in *; try (now rewrite IH); congruence. }
  intros [] H; cbn in H.
  - destruct H as (l' & o & -> & Hl). rewrite map_app, filter_app. cbn [map snd]. now rewrite Hg.
  - rewrite <- (app_nil_r (map snd l)) at 1. rewrite Hg by exact H. cbn. apply app_nil_r.
Qed.
Lemma doc_noeof ks : ~ In DEof (document ks).
Proof.
  intros H. unfold document in H. apply in_app_or in H. destruct H as [H|H]; [|cbn in H; destruct H as [H|[]]; discriminate].
  revert H. assert (Hn : forall n t, ~ In DEof (flat_node t n)).
  { refine (node_ind' _ _ _ _ _).
    - intros x t [H|[]]. discriminate.
    - intros x t [H|[]]. discriminate.
    - intros fs IH t [H|H]; [discriminate|]. apply in_app_or in H. destruct H as [H|[H|[]]]; [|discriminate].
      apply in_flat_map in H. destruct H as (f & Hi & H2). rewrite Forall_forall in IH. exact (IH _ Hi _ H2).
    - intros d fs IH t [H|H]; [discriminate|]. apply in_app_or in H. destruct H as [H|[H|[]]]; [|discriminate].
      apply in_flat_map in H. destruct H as (f & Hi & H2). rewrite Forall_forall in IH. exact (IH _ Hi _ H2). }
  unfold flat. intros H. apply in_flat_map in H. destruct H as (f & _ & H2). exact (Hn _ _ H2).
Qed.

Lemma fresh_ready dbg sk bs es tl b0 : bytes_ok bs -> 2 * lenN bs + 3 < U64_MAX -> bs = b0 ++ tl -> enc_at true false 0 es b0 ->
  ready true false (mkEls es false false 0 [] dbg) (new_stream dbg sk (mkDev bs 0 [])) tl.
Proof.
  intros Hok Hl Hbs Hen. set (s := new_stream dbg sk (mkDev bs 0 [])).
  assert (Hu : unread s = bs) by (unfold unread, d_rest; apply dropN_0).
  assert (Hq : seqinv s) by exact (fresh_seqinv dbg sk false bs Hok ltac:(lia)).
  exists b0. constructor; try reflexivity; auto.
  - rewrite Hu. cbn [s new_stream s_pos]. lia.
  - rewrite Hu. change (pend s) with 0. lia.
  - cbn. lia.
  - rewrite Hu. change (pend s) with 0. now rewrite dropN_0.
  - cbn. discriminate.
Qed.

Theorem exact_fresh e zc cf t dbg sk bs v s' : usable e zc cf t -> bytes_ok bs -> 2 * lenN bs + 3 < U64_MAX ->
  from_stream e zc cf t (new_stream dbg sk (mkDev bs 0 [])) = (ROk v, s') ->
  exists b0 tl es ks x, bs = b0 ++ tl /\ encodes es b0 /\ closes (filter not_exc es) ks /\
    denotes e (cf_ignore cf) zc t ks v x /\ fits cf x /\ s_pos s' = lenN b0 /\ unread s' = tl.
Proof.
  intros Hus Hok Hl HH. pose proof Hus as (He & Ht & Hc & Hb).
  destruct (parse (List.length bs) bs (le_n _) Hok ltac:(lia) 0) as (es & b0 & tl & Hbs & Hen & Hst).
  set (q := mkEls es false false 0 [] dbg). set (s := new_stream dbg sk (mkDev bs 0 [])) in *.
  assert (Hq : seqinv s) by exact (fresh_seqinv dbg sk false bs Hok ltac:(lia)).
  assert (HR : RSA true false tl q None s None) by (split; [exact (fresh_ready dbg sk bs es tl b0 Hok Hl Hbs Hen)|split; [exact Logic.I|reflexivity]]).
  set (p := d_body (full_dict e (S (N.to_nat (cf_rec cf))) zc t)).
  pose proof (dual_run tl Hst cf p (top_rst s) (top_rst q)) as H2. specialize (H2 ltac:(split; [exact HR|cbn; auto])).
  pose proof HH as HH0. unfold from_stream in HH. fold p in HH. pose proof (run_ends_none e zc cf t He Ht Hc Hb s) as Hnone. fold p in Hnone.
  destruct (run stream_source cf p (top_rst s)) as [r2 t2] eqn:E2. injection HH as -> _.
  destruct (run el_source cf p (top_rst q)) as [r1 t1] eqn:E1.
  assert (Hr1 : r1 = ROk v).
  { destruct H2 as [H2|[H2|H2]]; [contradiction| |].
    + cbn [fst snd] in H2. unfold dm_rst in H2. rewrite (Hnone v t2 Hq eq_refl) in H2. destruct H2 as (_ & _ & _ & _ & H2). contradiction.
    + cbn [fst snd] in H2. destruct r1; try contradiction. destruct H2 as [-> _]. reflexivity. }
  subst r1. clear H2. destruct (at_ok _ _ _ _ _ Hen) as [Hel Hlen].
  assert (Hb0 : lenN b0 <= lenN bs) by (rewrite Hbs, lenN_app; lia).
  (* what was consumed *)
  assert (Hk : sim_rst (RK es) (top_rst q) (top_rst q)).
  { unfold sim_rst. cbn. split; [|auto]. split; [reflexivity|]. split; [reflexivity|]. exists []. split; [reflexivity|]. split; [constructor|discriminate]. }
  pose proof (el_keep es cf p _ _ Hk) as Hkk. rewrite E1 in Hkk. destruct Hkk as [Hkk|[Hkk|Hkk]]; try contradiction.
  cbn [fst snd] in Hkk. destruct Hkk as [_ ((_ & _ & l & Hles & Htk & _) & _)].
  set (q2 := mkEls l false false 0 [] dbg).
  assert (Hlx : sim_rst (RL (q_es (x_s t1))) (top_rst q) (top_rst q2)).
  { unfold sim_rst. cbn. split; [|auto]. split; [reflexivity|]. cbn. unfold q. now rewrite Hles at 1. }
  pose proof (el_less _ cf p _ _ Hlx) as Hl2. rewrite E1 in Hl2. destruct (run el_source cf p (top_rst q2)) as [r3 t3] eqn:E3.
  assert (H3 : r3 = ROk v /\ q_es (x_s t3) = [] /\ q_eof (x_s t3) = q_eof (x_s t1)).
  { destruct Hl2 as [H|[H|H]]; [contradiction|unfold DL in H; cbn [fst snd] in H; unfold dm_rst in H; lia|].
    cbn [fst snd] in H. destruct r3 as [w| | |]; try contradiction. destruct H as [<- ((_ & H) & _)]. split; [reflexivity|].
    rewrite H. cbn [q_eof]. split; [|reflexivity]. apply (f_equal (fun z => List.length (q_es z))) in H. cbn [q_es] in H. rewrite app_length in H.
    destruct (q_es (x_s t3)); [reflexivity|cbn in H; lia]. }
  destruct H3 as (-> & H3e & H3f). clear Hl2 Hlx Hk.
  destruct (at_cut _ _ _ _ _ Hen l (q_es (x_s t1)) Hles) as (b1 & b2 & Hb12 & Hen1).
  (* the document *)
  set (ns := norm (map snd l)). set (q3 := mkEls (map (pair 0) ns) false false 0 [] dbg).
  assert (Hsim : sim_rst RF (top_rst q2) (top_rst q3)).
  { unfold sim_rst. cbn. split; [|auto]. unfold RF. cbn. auto 12. }
  pose proof (el_norm cf p _ _ Hsim) as Hn. rewrite E3 in Hn. destruct Hn as [Hn|[Hn|Hn]]; try contradiction. cbn [fst snd] in Hn.
  destruct (run el_source cf p (top_rst q3)) as [r4 t4] eqn:E4. cbn [fst snd] in Hn. destruct r4 as [w| | |]; try contradiction. destruct Hn as [<- (Hrf & _)].
  assert (Hin : forall y, In y l -> In y es) by (intros y Hy; rewrite Hles; apply in_or_app; now left).
  assert (Hnl : lenN ns <= lenN es).
  { transitivity (lenN l); [|rewrite Hles, lenN_app; lia]. unfold ns. generalize l. intros l0. induction l0 as [|[o x] l0 IH]; [apply N.le_refl|]. rewrite lenN_cons. cbn [map snd].
    destruct x; cbn [norm]; rewrite ?lenN_cons; try lia. unfold lenN. cbn. lia. }
  destruct (runs_ok cf e zc t dbg Hus ns v t4) as (ks & A & B & c & HA & Hcl & Hrt & HB).
  { apply Forall_forall. intros x Hx. apply norm_plain in Hx. destruct Hx as [Hx _]. apply in_map_iff in Hx. destruct Hx as (y & <- & Hy).
    rewrite Forall_forall in Hel. destruct (Hel y (Hin y Hy)) as (X1 & X2 & X3). split; [exact X1|]. lia. }
  { apply Forall_forall. intros x Hx. apply norm_plain in Hx. destruct Hx as [Hx Hx2]. split; [|exact Hx2]. apply in_map_iff in Hx. destruct Hx as (y & <- & Hy).
    rewrite Forall_forall in Hel. now destruct (Hel y (Hin y Hy)) as (X1 & X2 & X3). }
  { lia. }
  { intros A B. apply norm_nil_eof. }
  { exact E4. }
  assert (HB0 : B = []).
  { destruct HB as [HB|(HA' & HB)]; [exact HB|]. destruct Hrf as (_ & _ & _ & Heq & _ & _ & _ & Hrf).
    destruct (q_eof (x_s t3)) eqn:Eo.
    - (* an end of document was consumed: not by this run *)
      exfalso. assert (Hk : sim_rst (RK (map (pair 0) ns)) (top_rst q3) (top_rst q3)).
      { unfold sim_rst. cbn. split; [|auto]. split; [reflexivity|]. split; [reflexivity|]. exists []. split; [reflexivity|]. split; [constructor|discriminate]. }
      pose proof (el_keep _ cf p _ _ Hk) as Hkk. rewrite E4 in Hkk. destruct Hkk as [Hkk|[Hkk|Hkk]]; try contradiction.
      cbn [fst snd] in Hkk. destruct Hkk as [_ ((_ & _ & l' & Hl' & Htk' & _) & _)]. rewrite <- Heq in Htk'. cbn in Htk'.
      destruct Htk' as (l0 & o & -> & _). rewrite HB, HA, map_app in Hl'. apply app_inv_tail in Hl'.
      assert (Hi : In (o, DEof) (map (pair 0) A)) by (rewrite Hl'; apply in_or_app; right; now left).
      apply in_map_iff in Hi. destruct Hi as (y & Hy & Hi). injection Hy as _ ->. rewrite HA' in Hi. exact (doc_noeof ks Hi).
    - rewrite H3e in Hrf. cbn in Hrf. rewrite Hrf in HB. destruct B; [reflexivity|discriminate]. }
  subst B. rewrite app_nil_r in HA. unfold ns in HA. rewrite (norm_filter l _ Htk) in HA.
  destruct (tree_ok e zc cf t ks v c Hrt) as (x & Hd & Hf).
  exists b1, (b2 ++ tl), (map snd l), ks, x. split; [rewrite Hbs, Hb12; symmetry; apply app_assoc|].
  split; [exact (at_encodes _ _ _ _ _ Hen1)|]. split; [now rewrite HA|]. split; [exact Hd|]. split; [exact Hf|].
  (* the run on exactly these bytes *)
  assert (Hok1 : bytes_ok b1 /\ bytes_ok (b2 ++ tl)).
  { apply Forall_app. rewrite app_assoc, <- Hb12, <- Hbs. exact Hok. }
  assert (Hlb : lenN bs = lenN b1 + lenN (b2 ++ tl)) by (rewrite Hbs, Hb12, !lenN_app; lia).
  set (s1 := new_stream dbg sk (mkDev b1 0 [])).
  assert (HR1 : RSA true false [] q2 None s1 None).
  { split; [|split; [exact Logic.I|reflexivity]]. apply (fresh_ready dbg sk b1 l [] b1); [apply Hok1|lia|now rewrite app_nil_r|exact Hen1]. }
  pose proof (el_stream true false [] cf p (top_rst q2) (top_rst s1)) as H5. specialize (H5 ltac:(split; [exact HR1|cbn; auto])). rewrite E3 in H5.
  destruct (run stream_source cf p (top_rst s1)) as [r5 t5] eqn:E5. destruct H5 as [H5|[H5|H5]]; try contradiction. cbn [fst snd] in H5.
  destruct r5 as [w| | |]; try contradiction. destruct H5 as [<- (H5 & _)]. destruct H5 as ((b5 & H5) & _ & H6).
  assert (Hq1 : seqinv s1) by (apply (fresh_seqinv dbg sk false b1); [apply Hok1|lia]).
  rewrite (run_ends_none e zc cf t He Ht Hc Hb s1 v t5 Hq1 E5) in H6. cbn in H6.
  pose proof (rd_enc _ _ _ _ _ _ H5) as Hen5. rewrite H3e in Hen5. destruct (enc_at_nil _ _ _ _ Hen5) as (np & -> & Hnp). rewrite (Hnp eq_refl) in H5.
  pose proof (rd_unread _ _ _ _ _ _ H5) as Hu5. rewrite H6, dropN_0 in Hu5. cbn in Hu5.
  assert (HF : from_stream e zc cf t s1 = (ROk v, x_s t5)) by (unfold from_stream; fold p; rewrite E5; reflexivity).
  destruct (trailing e zc cf t He Ht Hc Hb dbg sk b1 (b2 ++ tl) v (x_s t5) (proj1 Hok1) (proj2 Hok1) ltac:(lia) HF) as (s2 & HF2 & Hp2 & Hun2).
  assert (Hbb : b1 ++ b2 ++ tl = bs) by (rewrite Hbs, Hb12; apply app_assoc). rewrite Hbb in HF2. fold s in HF2. rewrite HF2 in HH0. injection HH0 as <-.
  rewrite Hu5 in Hun2. split; [|exact Hun2]. rewrite Hp2.
  (* consumed to the end *)
  destruct (P_Places.from_follows e zc cf t s1 _ _ (N.le_0_l _) (or_introl eq_refl) HF) as (_ & _ & Hd1 & Hp1).
  cbn in Hd1, Hp1. unfold unread, d_rest in Hu5. rewrite Hd1 in Hu5. pose proof (rd_dev _ _ _ _ _ _ H5) as Hle. rewrite Hd1 in Hle.
  assert (Hl5 : lenN (dropN (d_pos (s_dev (x_s t5))) b1) = 0) by now rewrite Hu5. rewrite lenN_dropN in Hl5. lia.
Qed.

Theorem consumed_exactly e zc cf t dbg sk bs sched v s' : usable e zc cf t -> bytes_ok bs -> 2 * lenN bs + 3 < U64_MAX ->
  from_stream e zc cf t (new_stream dbg sk (mkDev bs 0 sched)) = (ROk v, s') ->
  exists b0 tl es ks x, bs = b0 ++ tl /\ encodes es b0 /\ closes (filter not_exc es) ks /\
    denotes e (cf_ignore cf) zc t ks v x /\ fits cf x /\ s_pos s' = lenN b0 /\ unread s' = tl.
Proof.
  intros Hu Hok Hl H. pose proof (sched_clean e zc cf t dbg sk false bs sched v s' H) as H2.
  destruct (exact_fresh e zc cf t dbg sk bs v (strip s') Hu Hok Hl H2) as (b0 & tl & es & ks & x & H3). exists b0, tl, es, ks, x. exact H3.
Qed.
