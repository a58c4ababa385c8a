(** * P_Tree: deserialising the elements of a tree is [read_tree] *)

From Verif Require Import Base Wire Dev Stream SpecWire SpecFormat SpecStream Types Ser Prog De SpecDe SpecDoc Tree
  P_Base P_Prog P_Wp P_Types P_Dict P_DictAll P_El.
Strategy 1000 [mloop miter].

Definition inner (n : node) : list delem :=
  match n with NStruct fs | NEnum _ fs => flat fs ++ [DEnd] | _ => [] end.
Definition dv_of (n : node) : dval :=
  match n with NInt x => DInt x | NBlob b => DBlobV b | NStruct _ => DStructV | NEnum d _ => DEnumV d end.
Lemma flat_node_eq tag n : flat_node tag n = DField tag (dv_of n) :: inner n.
Proof. destruct n; reflexivity. Qed.
Lemma flat_cons tag n r : flat ((tag, n) :: r) = DField tag (dv_of n) :: inner n ++ flat r.
Proof. unfold flat. cbn [flat_map fst snd]. rewrite flat_node_eq. reflexivity. Qed.
Definition is_tree (n : node) : bool := match n with NStruct _ | NEnum _ _ => true | _ => false end.

Section TyInd.
  Variable P : ty -> Prop.
  Hypothesis H0 : forall t, match t with
    | TVec _ | TSeq _ | TSet _ | TOption _ | TArray _ _ | TMap _ _ | TTuple _ | TBox _ | TCopied _ => True | _ => P t end.
  Hypothesis Hvec : forall t, P t -> P (TVec t).
  Hypothesis Hseq : forall t, P t -> P (TSeq t).
  Hypothesis Hset : forall t, P t -> P (TSet t).
  Hypothesis Hopt : forall t, P t -> P (TOption t).
  Hypothesis Harr : forall n t, P t -> P (TArray n t).
  Hypothesis Hmap : forall k v, P k -> P v -> P (TMap k v).
  Hypothesis Htup : forall ts, Forall P ts -> P (TTuple ts).
  Hypothesis Hbox : forall t, P t -> P (TBox t).
  Hypothesis Hcop : forall t, P t -> P (TCopied t).
  Fixpoint ty_ind2 (t : ty) : P t :=
    match t with
    | TVec t' => Hvec t' (ty_ind2 t')
    | TSeq t' => Hseq t' (ty_ind2 t')
    | TSet t' => Hset t' (ty_ind2 t')
    | TOption t' => Hopt t' (ty_ind2 t')
    | TBox t' => Hbox t' (ty_ind2 t')
    | TCopied t' => Hcop t' (ty_ind2 t')
    | TArray n t' => Harr n t' (ty_ind2 t')
    | TMap k v => Hmap k v (ty_ind2 k) (ty_ind2 v)
    | TTuple ts => Htup ts ((fix go ts := match ts return Forall P ts with
                           | [] => Forall_nil _ | x :: r => Forall_cons x (ty_ind2 x) (go r) end) ts)
    | TUInt w => H0 (TUInt w) | TSInt w => H0 (TSInt w) | TBool => H0 TBool | TChar => H0 TChar
    | TPhantom => H0 TPhantom | TString => H0 TString | TStrRef => H0 TStrRef | TBytesRef => H0 TBytesRef
    | TCowStr => H0 TCowStr | TCowBytes => H0 TCowBytes | TUnknown => H0 TUnknown | TUnkField => H0 TUnkField
    | TItem i => H0 (TItem i)
    end.
End TyInd.

Section Agree.
  Variable cf : cfg.
  Hypothesis Hcc : cf_collect cf <= U64_MAX.
  Hypothesis Hcb : cf_blob cf <= U64_MAX.
  Variables en dbg : bool.

  Definition abs (st : rst els) : cs := mkC (lenN (x_path st)) (x_coll st) (x_blob st) (map fst (x_path st)).
  Definition cinv (c : cs) : Prop := c_coll c <= cf_collect cf /\ c_blob c <= cf_blob cf.
  Definition spred := els -> option field -> Prop.
  Definition anyk : ekind -> ekind -> Prop := kind_rel (fun _ _ => True).

  Definition does {A} (Pre : spred) (p : prog A) (m : T A) (Post : spred) : Prop := forall st,
    Pre (x_s st) (x_cur st) -> x_over st = None -> cinv (abs st) ->
    match m (abs st) with
    | (ROk a, c') => exists st', run el_source cf p st = (ROk a, st') /\ Post (x_s st') (x_cur st') /\
                       x_over st' = None /\ abs st' = c' /\ cinv c'
    | (RErr k, c') => exists e st', run el_source cf p st = (RErr e, st') /\ anyk k (e_kind e) /\ map fst (e_path e) = c_path c'
    | (RPanic, _) => exists st', run el_source cf p st = (RPanic, st')
    | (RFuel, _) => exists st', run el_source cf p st = (RFuel, st')
    end.

  Lemma does_bind {A B} Pre (p : prog A) m Mid (k : A -> prog B) mk Post :
    does Pre p m Mid -> (forall a, does Mid (k a) (mk a) Post) -> does Pre (pbind p k) (mbind m mk) Post.
  Proof.
    intros H1 H2 st Hp Ho Hc. specialize (H1 st Hp Ho Hc). unfold mbind at 1.
    destruct (m (abs st)) as [[a|x| |] c'].
    - destruct H1 as (st' & E & Hm & Ho' & Ha & Hc'). specialize (H2 a st' Hm Ho').
      rewrite Ha in H2. specialize (H2 Hc'). rewrite (run_bind_ok _ _ _ _ _ _ _ E). exact H2.
    - destruct H1 as (e & st' & E & Hk). exists e, st'. now rewrite (run_bind_err _ _ _ _ _ _ _ E).
    - destruct H1 as (st' & E). exists st'. rewrite run_pbind. unfold mbind. now rewrite E.
    - destruct H1 as (st' & E). exists st'. rewrite run_pbind. unfold mbind. now rewrite E.
  Qed.
  Lemma does_ret {A} (Pre Post : spred) (a : A) : (forall q c, Pre q c -> Post q c) -> does Pre (PRet a) (mret a) Post.
  Proof. intros H st Hp Ho Hc. exists st. cbn [run mret]. auto 6. Qed.
  Lemma does_fail {A} Pre k Post : @does A Pre (pfail k) (mfail k) Post.
  Proof.
    intros st Hp Ho Hc. eexists _, _. split; [reflexivity|]. cbn [e_kind]. rewrite Ho. split; [apply KR_eq|reflexivity].
  Qed.
  Lemma does_stop {A} Pre x Post : @does A Pre (PStop x) (t_stop x) Post.
  Proof.
    destruct x; [apply does_fail| |]; intros st Hp Ho Hc; eexists; reflexivity.
  Qed.
  Lemma does_ill {A} Pre Post : @does A Pre ill t_ill Post.
  Proof. exact (does_stop Pre StPanic Post). Qed.
  Lemma does_lift {A} (Pre Post : spred) (r : res serr A) :
    (forall a q c, r = ROk a -> Pre q c -> Post q c) -> does Pre (plift r) (t_lift r) Post.
  Proof.
    intros H. destruct r; cbn [plift t_lift].
    - apply does_ret. eauto.
    - apply does_fail.
    - exact (does_stop Pre StPanic Post).
    - exact (does_stop Pre StFuel Post).
  Qed.
  Lemma does_imp {A} (Pre Pre' Post Post' : spred) (p : prog A) m : does Pre' p m Post' ->
    (forall q c, Pre q c -> Pre' q c) -> (forall q c, Post' q c -> Post q c) -> does Pre p m Post.
  Proof.
    intros H H1 H2 st Hp Ho Hc. specialize (H st (H1 _ _ Hp) Ho Hc).
    destruct (m (abs st)) as [[a|x| |] c']; auto. destruct H as (st' & E & Hq & R). exists st'. eauto.
  Qed.
  Lemma does_pre {A} (Pre Post : spred) (p : prog A) m : (forall q c, Pre q c -> does (fun q' c' => q' = q /\ c' = c) p m Post) ->
    does Pre p m Post.
  Proof. intros H st Hp Ho Hc. exact (H _ _ Hp st (conj eq_refl eq_refl) Ho Hc). Qed.

  (** Operations that do not touch the source. *)
  Lemma does_push_stream Pre nm : does Pre (pdo (OPush false nm)) (t_push cf nm) Pre.
  Proof.
    intros st Hp Ho Hc. rewrite run_pdo. cbn [run_op]. unfold t_push. cbn [abs c_lev].
    destruct (cf_rec cf <=? lenN (x_path st)).
    - eexists _, _. split; [reflexivity|]. cbn [e_kind]. rewrite Ho. split; [apply KR_eq|reflexivity].
    - eexists. split; [reflexivity|]. split; [exact Hp|]. split; [exact Ho|]. split; [|exact Hc].
      unfold abs. cbn [x_path x_set_path x_coll x_blob c_coll c_blob]. cbn [map fst c_path]. now rewrite lenN_cons, N.add_comm.
  Qed.
  Lemma does_push_field (Pre : spred) nm : (forall q c, Pre q c -> exists f, c = Some f) ->
    does Pre (pdo (OPush true nm)) (t_push cf nm) Pre.
  Proof.
    intros HP st Hp Ho Hc. rewrite run_pdo. cbn [run_op]. unfold t_push. cbn [abs c_lev].
    destruct (cf_rec cf <=? lenN (x_path st)).
    - eexists _, _. split; [reflexivity|]. cbn [e_kind]. rewrite Ho. split; [apply KR_eq|reflexivity].
    - destruct (HP _ _ Hp) as (f & Ef). rewrite Ef. eexists. split; [reflexivity|]. split; [exact Hp|]. split; [exact Ho|]. split; [|exact Hc].
      unfold abs. cbn [x_path x_set_path x_coll x_blob c_coll c_blob]. cbn [map fst c_path]. now rewrite lenN_cons, N.add_comm.
  Qed.
  Lemma does_pop Pre : does Pre (pdo OPop) t_pop Pre.
  Proof.
    intros st Hp Ho Hc. rewrite run_pdo. cbn [run_op t_pop mmod]. eexists. split; [reflexivity|].
    split; [exact Hp|]. split; [exact Ho|]. split; [|exact Hc].
    unfold abs. cbn [x_path x_set_path x_coll x_blob c_lev c_coll c_blob c_path]. f_equal;
    (destruct (x_path st); cbn [tl]; [reflexivity|]); [|reflexivity]. rewrite lenN_cons. lia.
  Qed.
  Lemma does_collect Pre : does Pre (pdo OCollect) (t_collect cf) Pre.
  Proof.
    intros st Hp Ho Hc. rewrite run_pdo. cbn [run_op]. unfold t_collect. cbn [abs c_coll]. destruct Hc as [Hc1 Hc2].
    cbn [abs c_coll c_blob] in Hc1, Hc2. unfold ctx_collect. rewrite u64_sub_ok by exact Hc1.
    destruct (N.ltb_spec (cf_collect cf) (x_coll st + 1)) as [Hlt|Hge].
    - rewrite (proj2 (N.ltb_lt _ _)) by lia. eexists _, _. split; [reflexivity|]. cbn [e_kind]. rewrite Ho. split; [apply KR_eq|reflexivity].
    - rewrite (proj2 (N.ltb_ge _ _)) by lia. rewrite u64_add_ok by (unfold U64_MAX, U64_MOD in *; lia).
      eexists. split; [reflexivity|]. split; [exact Hp|]. split; [exact Ho|]. split; [reflexivity|].
      unfold cinv. cbn. lia.
  Qed.
  Lemma does_quota Pre n : does Pre (pdo (OQuota n)) (t_quota cf n) (fun q c => Pre q c /\ n <= cf_blob cf).
  Proof.
    intros st Hp Ho Hc. rewrite run_pdo. cbn [run_op]. unfold t_quota. cbn [abs c_blob]. destruct Hc as [Hc1 Hc2].
    cbn [abs c_coll c_blob] in Hc1, Hc2. unfold ctx_blob. rewrite u64_sub_ok by exact Hc2.
    destruct (N.ltb_spec (cf_blob cf) (x_blob st + n)) as [Hlt|Hge].
    - rewrite (proj2 (N.ltb_lt _ _)) by lia. eexists _, _. split; [reflexivity|]. cbn [e_kind]. rewrite Ho. split; [apply KR_eq|reflexivity].
    - rewrite (proj2 (N.ltb_ge _ _)) by lia. rewrite u64_add_ok by (unfold U64_MAX, U64_MOD in *; lia).
      eexists. split; [reflexivity|]. split; [split; [exact Hp|lia]|]. split; [exact Ho|]. split; [reflexivity|].
      unfold cinv. cbn. lia.
  Qed.

  (** ** Positions *)
  Definition past (R : list (N * delem)) (d : N) : spred := fun q _ =>
    exists bl, q = mkEls R en false d bl dbg.
  Definition at_node (tag : N) (n : node) (R : list (N * delem)) (D : N) : spred := fun q c =>
    exists X o bl, q = mkEls (X ++ R) en false (if is_tree n then D + 1 else D) bl dbg /\ map snd X = inner n /\
      c = Some (mkField tag o D (hdr_node n)) /\ (is_tree n = false -> bl = blob_of n) /\ 1 <= D /\ lenN (X ++ R) <= U64_MAX.
  Definition at_body (ks : list (N * node)) (R : list (N * delem)) (D : N) : spred := fun q _ =>
    exists X o d bl, q = mkEls (X ++ (o, DEnd) :: R) en false d bl dbg /\ map snd X = flat ks /\ field_depth d = D /\
      lenN (X ++ (o, DEnd) :: R) <= U64_MAX.

  Lemma leaf_past tag n R D q c : at_node tag n R D q c -> is_tree n = false -> past R D q c.
  Proof.
    intros (X & o & bl & -> & HX & -> & Hb & HD & Hl) Hn. rewrite Hn. destruct n; try discriminate;
    (destruct X; [|discriminate]); exists bl; reflexivity.
  Qed.
  Lemma node_body tag n R D q c : at_node tag n R D q c -> is_tree n = true -> at_body (kids n) R (D + 1) q c.
  Proof.
    intros (X & o & bl & -> & HX & -> & Hb & HD & Hl) Hn. rewrite Hn.
    assert (HX' : map snd X = flat (kids n) ++ [DEnd]) by (destruct n; try discriminate; exact HX).
    destruct X as [|x X0 _] using rev_ind.
    { destruct (flat (kids n)); discriminate. }
    rewrite map_app in HX'. apply app_inj_tail in HX'. destruct HX' as [H1 H2]. destruct x as [o' e']. cbn in H2. subst e'.
    exists X0, o', (D + 1), bl. rewrite <- app_assoc in *. cbn [app] in *. repeat split; auto. unfold field_depth. lia.
  Qed.
  Lemma at_node_cur tag n R D q c : at_node tag n R D q c -> exists f, c = Some f.
  Proof. intros (X & o & bl & _ & _ & -> & _). eauto. Qed.

  (** The next field of a body. *)
  Lemma step_end R D : forall st, at_body [] R D (x_s st) (x_cur st) ->
    exists st', run_op el_source cf ONext st = (ROk None, st') /\ past R (D - 1) (x_s st') (x_cur st') /\
       x_over st' = x_over st /\ abs st' = abs st.
  Proof.
    intros st (X & o & d & bl & E & HX & Hd & Hl). destruct X; [|discriminate]. cbn [app] in E.
    cbn [run_op]. unfold mbind, on_src_of. rewrite E. cbn [el_source i_next]. unfold el_next. cbn [q_eof q_es].
    cbn. eexists. split; [reflexivity|]. cbn. split; [|auto]. exists []. f_equal. unfold field_depth in Hd. lia.
  Qed.
  Lemma step_kid tag n ks R D : forall st, at_body ((tag, n) :: ks) R D (x_s st) (x_cur st) ->
    exists X2 o2 st', map snd X2 = flat ks /\ run_op el_source cf ONext st = (ROk (Some (tag, hdr_node n)), st') /\
       at_node tag n (X2 ++ (o2, DEnd) :: R) D (x_s st') (x_cur st') /\
       x_over st' = x_over st /\ abs st' = abs st /\
       (forall q c, past (X2 ++ (o2, DEnd) :: R) D q c -> at_body ks R D q c).
  Proof.
    intros st (X & o & d & bl & E & HX & Hd & Hl). rewrite flat_cons in HX.
    destruct X as [|[o1 e1] X]; [discriminate|]. cbn [map snd] in HX. injection HX as -> HX.
    apply map_eq_app in HX. destruct HX as (X1 & X2 & -> & H1 & H2).
    assert (HD : 1 <= D) by (unfold field_depth in Hd; lia).
    assert (Hl2 : lenN (X1 ++ X2 ++ (o, DEnd) :: R) <= U64_MAX).
    { cbn [app] in Hl. rewrite lenN_cons in Hl. rewrite <- app_assoc in Hl. lia. }
    exists X2, o.
    cbn [run_op]. unfold mbind, on_src_of. rewrite E. cbn [el_source i_next]. unfold el_next. cbn [q_eof q_es app].
    assert (Hh : hdr_of (DField tag (dv_of n)) = HdField tag (match n with NInt x => HvInt x | NBlob b => HvBlob (lenN b) | NStruct _ => HvStruct | NEnum d _ => HvEnum d end)) by (destruct n; reflexivity).
    rewrite Hh. eexists. split; [exact H2|]. split.
    { cbn. replace (vhdr_of match n with NInt x => HvInt x | NBlob b => HvBlob (lenN b) | NStruct _ => HvStruct | NEnum d0 _ => HvEnum d0 end) with (hdr_node n) by (destruct n; reflexivity). reflexivity. }
    split; [|split; [reflexivity|split; [reflexivity|]]].
    - cbn [x_s x_set_s x_set_cur x_cur]. exists X1, o1, (payload (DField tag (dv_of n))).
      cbn [q_end q_depth q_dbg]. rewrite <- app_assoc. split.
      { f_equal. unfold depth_after. rewrite <- Hd. destruct n; reflexivity. }
      split; [exact H1|]. split; [rewrite <- Hd; reflexivity|].
      split; [intros Hn; destruct n; try discriminate; reflexivity|]. split; [exact HD|exact Hl2].
    - intros q c (bl' & ->). exists X2, o, D, bl'. repeat split; auto; [unfold field_depth; lia|].
      rewrite lenN_app in Hl2. lia.
  Qed.

  (** A loop over the fields of a body. *)
  Lemma does_loop {A} (step : A -> prog (A + A)) (h : A -> N -> vhdr -> prog (A + A)) (tstep : A -> N -> node -> T A) R D :
    (forall a, step a = (r <- pdo ONext ; match r with None => PRet (inr a) | Some (tag, vh) => h a tag vh end)) ->
    (forall a tag n R, does (at_node tag n R D) (h a tag (hdr_node n)) (let* a' := tstep a tag n in mret (inl a')) (past R D)) ->
    forall ks a, does (at_body ks R D) (ploop step a) (t_loop tstep a ks) (past R (D - 1)).
  Proof.
    intros Hstep Hh ks a st Hp Ho Hc.
    assert (Hlen : (S (List.length ks) <= Pos.to_nat loop_bound)%nat).
    { destruct Hp as (X & o & d & bl & _ & HX & _ & Hl).
      assert (H : forall ks (X : list (N * delem)), map snd X = flat ks -> (List.length ks <= List.length X)%nat).
      { clear. induction ks as [|[t n] ks IH]; intros X H; [cbn; lia|]. rewrite flat_cons in H.
        destruct X as [|x X]; [discriminate|]. cbn [map] in H. injection H as _ H. apply map_eq_app in H.
        destruct H as (X1 & X2 & -> & _ & H). specialize (IH _ H). cbn. rewrite app_length. lia. }
      specialize (H _ _ HX). rewrite lenN_app in Hl. rewrite loop_bound_nat. unfold lenN, U64_MAX in Hl. unfold U64_MOD. lia. }
    assert (Hgo : forall ks m a st, (S (List.length ks) <= m)%nat -> at_body ks R D (x_s st) (x_cur st) -> x_over st = None -> cinv (abs st) ->
       match t_loop tstep a ks (abs st) with
       | (ROk b, c') => exists st', mloop_nat m (fun a => run el_source cf (step a)) a st = (ROk b, st') /\ past R (D - 1) (x_s st') (x_cur st') /\
                       x_over st' = None /\ abs st' = c' /\ cinv c' | (RErr k, c') => exists e st', mloop_nat m (fun a => run el_source cf (step a)) a st = (RErr e, st') /\ anyk k (e_kind e) /\ map fst (e_path e) = c_path c'
       | (RPanic, _) => exists st', mloop_nat m (fun a => run el_source cf (step a)) a st = (RPanic, st')
       | (RFuel, _) => exists st', mloop_nat m (fun a => run el_source cf (step a)) a st = (RFuel, st')
       end).
    2:{ revert Hlen. rewrite run_ploop, mloop_eq. generalize (Pos.to_nat loop_bound). intros bound Hlen. specialize (Hgo ks bound a st Hlen Hp Ho Hc).
        destruct (t_loop tstep a ks (abs st)) as [[a'|x| |] c']; exact Hgo. }
    clear ks a st Hp Ho Hc Hlen. induction ks as [|[tag n] ks IH]; intros m a st Hm Hp Ho Hc;
      (destruct m as [|m]; [lia|]); cbn [t_loop].
    - destruct (step_end R D st Hp) as (st1 & E & Hp1 & Ho1 & Ha1). cbn [mret].
      exists st1. split; [|rewrite Ho1; auto].
      rewrite mloop_nat_S. rewrite Hstep. unfold mbind. rewrite (run_do_ok _ _ _ _ _ _ _ E). reflexivity.
    - destruct (step_kid tag n ks R D st Hp) as (X2 & o2 & st1 & HX2 & E & Hp1 & Ho1 & Ha1 & Hback).
      assert (Hr : run el_source cf (step a) st = run el_source cf (h a tag (hdr_node n)) st1).
      { rewrite Hstep. now rewrite (run_do_ok _ _ _ _ _ _ _ E). }
      rewrite <- Ho1 in Ho. rewrite <- Ha1 in Hc.
      pose proof (Hh a tag n _ st1 Hp1 Ho Hc) as H. rewrite Ha1 in H.
      unfold mbind in H |- *.
      destruct (tstep a tag n (abs st)) as [[a'|x| |] c'] eqn:Et.
      + cbn [mret] in H. destruct H as (st2 & E2 & Hp2 & Ho2 & Ha2 & Hc2).
        rewrite mloop_nat_S. unfold mbind. rewrite Hr, E2. rewrite <- Ha2.
        apply (IH m a' st2); auto; [cbn in Hm; lia|congruence].
      + destruct H as (e & st2 & E2 & Hk). exists e, st2. split; [|exact Hk].
        rewrite mloop_nat_S. unfold mbind. now rewrite Hr, E2.
      + destruct H as (st2 & E2). exists st2. rewrite mloop_nat_S. unfold mbind. now rewrite Hr, E2.
      + destruct H as (st2 & E2). exists st2. rewrite mloop_nat_S. unfold mbind. now rewrite Hr, E2.
  Qed.

  (** ** Impls *)
  Record pagrees (d : dict) (s : tdict) : Prop := mkPAgrees {
    ag_init : d_init d = t_init s;
    ag_field : forall a tag n R D, does (at_node tag n R D) (d_field d a tag (hdr_node n)) (t_field s a tag n) (past R D);
    ag_fin : forall a P, does P (d_fin d a) (t_fin s a) P
  }.
  Record agrees (d : dict) (s : tdict) : Prop := mkAgrees {
    ag_p : pagrees d s;
    ag_elem : forall tag n R D, does (at_node tag n R D) (d_elem d tag (hdr_node n)) (t_elem s tag n) (past R D);
    ag_body : forall ks R D, does (at_body ks R D) (d_body d) (t_body s ks) (past R (D - 1))
  }.
  Definition fagrees (f : fdict) (g : tfdict) : Prop := fst f = fst g /\ pagrees (snd f) (snd g).
  Definition uagrees (u : option (string * dict)) (v : option (string * tdict)) : Prop :=
    match u, v with None, None => True | Some (a, d), Some (b, s) => a = b /\ pagrees d s | _, _ => False end.

  Lemma does_ext {A} Pre (p : prog A) m m' Post : (forall c, m c = m' c) -> does Pre p m Post -> does Pre p m' Post.
  Proof. intros H H1 st Hp Ho Hc. rewrite <- H. exact (H1 st Hp Ho Hc). Qed.

  Lemma find_tag_agrees fs gs tag : Forall2 fagrees fs gs ->
    match find_tag tag fs, find_tag tag gs with
    | Some (i, nm, d), Some (j, nm', s) => i = j /\ nm = nm' /\ pagrees d s
    | None, None => True
    | _, _ => False
    end.
  Proof.
    induction 1 as [|[[nm t] d] [[nm' t'] s] fs gs [H1 H2] HF IH]; cbn [find_tag]; [exact I|].
    cbn in H1. injection H1 as -> ->. destruct (t' =? tag); [cbn in *; auto|].
    destruct (find_tag tag fs) as [[[i n1] d1]|], (find_tag tag gs) as [[[j n2] d2]|]; try contradiction; auto.
    destruct IH as (-> & -> & IH). auto.
  Qed.
  Lemma inits_agrees fs gs : Forall2 fagrees fs gs -> inits fs = t_inits gs.
  Proof.
    induction 1 as [|f g fs gs [H1 H2] HF IH]; [reflexivity|]. unfold inits, t_inits in *. cbn [map].
    f_equal; [|exact IH]. exact (ag_init _ _ H2).
  Qed.

  Lemma does_push_node tag n R D nm : does (at_node tag n R D) (pdo (OPush true nm)) (t_push cf nm) (at_node tag n R D).
  Proof. apply does_push_field. intros q c. apply at_node_cur. Qed.

  (** Skipping a field. *)
  Lemma drop_flat D : 1 <= D -> forall fs,
    Forall (fun f => forall tag (Y R : list (N * delem)) d, map snd Y = flat_node tag (snd f) -> D < d ->
      drop_to D d false (Y ++ R) = drop_to D d false R) fs ->
    forall (Y R : list (N * delem)) d, map snd Y = flat_map (fun f => flat_node (fst f) (snd f)) fs -> D < d ->
    drop_to D d false (Y ++ R) = drop_to D d false R.
  Proof.
    intros HD fs HF. induction HF as [|[t m] fs Hn HF IH]; intros Y R d HY Hd; cbn [flat_map fst snd] in *.
    - destruct Y; [reflexivity|discriminate].
    - apply map_eq_app in HY. destruct HY as (Y1 & Y2 & -> & H1 & H2). rewrite <- app_assoc.
      rewrite (Hn t Y1 _ d H1 Hd). now apply IH.
  Qed.
  Lemma drop_cons D o x r d : D < d -> drop_to D d false ((o, x) :: r) =
    drop_to D (depth_after (hdr_of x) d) (match x with DEof => true | _ => false end) r.
  Proof. intros H. cbn [drop_to]. now rewrite (proj2 (N.leb_gt _ _) H). Qed.
  Lemma drop_one D : 1 <= D -> forall n tag (Y R : list (N * delem)) d, map snd Y = flat_node tag n -> D < d ->
    drop_to D d false (Y ++ R) = drop_to D d false R.
  Proof.
    intros HD n. induction n as [x|b|fs IH|dd fs IH] using node_ind'; intros tag Y R d HY Hd; cbn [flat_node] in HY.
    - destruct Y as [|[o x0] [|]]; try discriminate. injection HY as ->. cbn [app]. rewrite drop_cons by exact Hd.
      cbn [hdr_of depth_after]. replace (field_depth d) with d by (unfold field_depth; lia). reflexivity.
    - destruct Y as [|[o x0] [|]]; try discriminate. injection HY as ->. cbn [app]. rewrite drop_cons by exact Hd.
      cbn [hdr_of depth_after]. replace (field_depth d) with d by (unfold field_depth; lia). reflexivity.
    - destruct Y as [|[o x0] Y]; try discriminate. cbn [map snd] in HY. injection HY as -> HY.
      apply map_eq_app in HY. destruct HY as (Y1 & Y2 & -> & H1 & H2).
      destruct Y2 as [|[o2 x2] [|]]; try discriminate. cbn [map snd] in H2. injection H2 as ->.
      cbn [app]. rewrite drop_cons by exact Hd. cbn [hdr_of depth_after].
      replace (field_depth d + 1) with (d + 1) by (unfold field_depth; lia).
      rewrite <- app_assoc. rewrite (drop_flat D HD fs IH Y1 _ _ H1) by lia. cbn [app].
      rewrite drop_cons by lia. cbn [hdr_of depth_after]. now replace (d + 1 - 1) with d by lia.
    - destruct Y as [|[o x0] Y]; try discriminate. cbn [map snd] in HY. injection HY as -> HY.
      apply map_eq_app in HY. destruct HY as (Y1 & Y2 & -> & H1 & H2).
      destruct Y2 as [|[o2 x2] [|]]; try discriminate. cbn [map snd] in H2. injection H2 as ->.
      cbn [app]. rewrite drop_cons by exact Hd. cbn [hdr_of depth_after].
      replace (field_depth d + 1) with (d + 1) by (unfold field_depth; lia).
      rewrite <- app_assoc. rewrite (drop_flat D HD fs IH Y1 _ _ H1) by lia. cbn [app].
      rewrite drop_cons by lia. cbn [hdr_of depth_after]. now replace (d + 1 - 1) with d by lia.
  Qed.
  Lemma drop_node D n (X R : list (N * delem)) : 1 <= D -> map snd X = inner n -> is_tree n = true ->
    drop_to D (D + 1) false (X ++ R) = Some (D, false, R).
  Proof.
    intros HD HX Hn.
    assert (HX' : map snd X = flat (kids n) ++ [DEnd]) by (destruct n; try discriminate; exact HX).
    apply map_eq_app in HX'. destruct HX' as (Y1 & Y2 & -> & H1 & H2).
    destruct Y2 as [|[o2 x2] [|]]; try discriminate. cbn [map snd] in H2. injection H2 as ->.
    rewrite <- app_assoc. rewrite (drop_flat D HD (kids n)) with (Y := Y1); auto; [|now apply Forall_forall; intros f _ tag; apply drop_one|lia].
    cbn [app]. rewrite drop_cons by lia. cbn [hdr_of depth_after]. replace (D + 1 - 1) with D by lia.
    destruct R as [|[]]; cbn [drop_to]; now rewrite (proj2 (N.leb_le _ _) (N.le_refl D)).
  Qed.
  Lemma does_skip tag n R D : does (at_node tag n R D) (pdo OSkip) (mret tt) (past R D).
  Proof.
    intros st Hp Ho Hc. pose proof Hp as (X & o & bl & E & HX & Ec & Hb & HD & Hl). cbn [mret].
    rewrite run_pdo. cbn [run_op]. rewrite Ec. unfold on_src_of. rewrite E. cbn [el_source i_skip]. unfold el_skip.
    cbn [f_val f_depth q_depth q_eof q_es q_end q_blob q_dbg].
    destruct (is_tree n) eqn:En.
    - rewrite (drop_node D n X R HD HX En).
      assert (Hh : forall A (a b : A), match hdr_node n with HInt _ | HBlob _ => a | _ => b end = b) by (destruct n; try discriminate; reflexivity).
      rewrite Hh. eexists. split; [reflexivity|]. split; [eexists; reflexivity|]. auto.
    - destruct n; try discriminate; cbn [hdr_node]; (eexists; split; [reflexivity|]; split; [|auto]);
      (destruct X; [|discriminate]); cbn; eexists; reflexivity.
  Qed.
  Lemma does_unknown tag n R D : does (at_node tag n R D) (pdo OUnknown) (t_unknown cf tag) (at_node tag n R D).
  Proof.
    intros st Hp Ho Hc. rewrite run_pdo. cbn [run_op]. unfold t_unknown. destruct (cf_ignore cf).
    - exists st. auto.
    - pose proof Hp as (X & o & bl & E & HX & Ec & _). rewrite Ec. cbn [mfail]. eexists _, _. split; [reflexivity|].
      cbn [e_kind]. rewrite Ho. split; [now apply KR_unk|reflexivity].
  Qed.

  Lemma body_step_agrees fs gs u w : Forall2 fagrees fs gs -> uagrees u w -> forall ks st R D,
    does (at_body ks R D) (ploop (body_step fs u) st) (t_loop (t_step cf gs w) st ks) (past R (D - 1)).
  Proof.
    intros HF HU ks st R D.
    apply does_loop with (h := fun (st : list acc * acc) tag vh =>
      match find_tag tag fs with
      | Some (i, nm, d) =>
          pdo (OPush true nm) ;>
          a <- d_field d (nth i (fst st) (AOpt None)) tag vh ;
          pdo OPop ;>
          PRet (inl (upd i a (fst st), snd st))
      | None =>
          match u with
          | Some (_, d) =>
              pdo (OPush true (tag_name tag)) ;>
              a <- d_field d (snd st) tag vh ;
              pdo OPop ;>
              PRet (inl (fst st, a))
          | None =>
              pdo OUnknown ;>
              pdo OSkip ;>
              PRet (inl st)
          end
      end).
    { intros [accs ua]. reflexivity. }
    clear R ks st. intros [accs ua] tag n R. cbn [fst snd]. unfold t_step.
    pose proof (find_tag_agrees fs gs tag HF) as Hf.
    destruct (find_tag tag fs) as [[[i nm] d]|], (find_tag tag gs) as [[[j nm'] s]|]; try contradiction.
    - destruct Hf as (-> & -> & Hd).
      apply does_ext with (m := t_push cf nm' ;; let* a := t_field s (nth j accs (AOpt None)) tag n in t_pop ;; mret (inl (upd j a accs, ua))).
      { intros c. rewrite !mbind_assoc. unfold mbind. destruct (t_push cf nm' c) as [[[]|x| |] c1]; try reflexivity.
        destruct (t_field s (nth j accs (AOpt None)) tag n c1) as [[a|x| |] c2]; reflexivity. }
      apply does_bind with (Mid := at_node tag n R D); [apply does_push_node|]. intros _.
      apply does_bind with (Mid := past R D); [apply Hd|]. intros a.
      apply does_bind with (Mid := past R D); [apply does_pop|]. intros _. now apply does_ret.
    - destruct u as [[un d]|], w as [[wn s]|]; try contradiction.
      + destruct HU as (-> & Hd).
        apply does_ext with (m := t_push cf (tag_name tag) ;; let* a := t_field s ua tag n in t_pop ;; mret (inl (accs, a))).
        { intros c. rewrite !mbind_assoc. unfold mbind. destruct (t_push cf (tag_name tag) c) as [[[]|x| |] c1]; try reflexivity.
          destruct (t_field s ua tag n c1) as [[a|x| |] c2]; reflexivity. }
        apply does_bind with (Mid := at_node tag n R D); [apply does_push_node|]. intros _.
        apply does_bind with (Mid := past R D); [apply Hd|]. intros a.
        apply does_bind with (Mid := past R D); [apply does_pop|]. intros _. now apply does_ret.
      + apply does_ext with (m := t_unknown cf tag ;; (mret tt ;; mret (inl (accs, ua)))).
        { intros c. rewrite !mbind_assoc. unfold mbind. destruct (t_unknown cf tag c) as [[[]|x| |] c1]; reflexivity. }
        apply does_bind with (Mid := at_node tag n R D); [apply does_unknown|]. intros _.
        apply does_bind with (Mid := past R D); [apply does_skip|]. intros _. now apply does_ret.
  Qed.

  Lemma finish_one_agrees nm d s a P : pagrees d s -> does P (finish_one nm d a) (t_finish_one cf nm s a) P.
  Proof.
    intros H. unfold finish_one, t_finish_one.
    apply does_bind with (Mid := P); [apply does_push_stream|]. intros _.
    apply does_bind with (Mid := P); [apply H|]. intros v.
    apply does_bind with (Mid := P); [apply does_pop|]. intros _. now apply does_ret.
  Qed.
  Lemma finish_all_agrees fs gs P : Forall2 fagrees fs gs -> forall accs, does P (finish_all fs accs) (t_finish_all cf gs accs) P.
  Proof.
    induction 1 as [|[[nm t] d] [[nm' t'] s] fs gs [H1 H2] HF IH]; intros [|a accs]; cbn [finish_all t_finish_all].
    - now apply does_ret.
    - apply does_ill.
    - apply does_ill.
    - cbn [fst snd] in H1, H2. injection H1 as -> ->. apply does_bind with (Mid := P); [apply finish_one_agrees; exact H2|]. intros v.
      apply does_bind with (Mid := P); [apply IH|]. intros vs. now apply does_ret.
  Qed.
  Lemma des_body_agrees fs gs u w : Forall2 fagrees fs gs -> uagrees u w -> forall ks R D,
    does (at_body ks R D) (des_body fs u) (t_des_body cf gs w ks) (past R (D - 1)).
  Proof.
    intros HF HU ks R D. unfold des_body, t_des_body.
    replace (t_inits gs, match w with Some (_, d) => t_init d | None => AOpt None end)
      with (inits fs, match u with Some (_, d) => d_init d | None => AOpt None end).
    2:{ f_equal; [now apply inits_agrees|]. destruct u as [[a d]|], w as [[b s]|]; try contradiction; [|reflexivity]. apply HU. }
    apply does_bind with (Mid := past R (D - 1)); [now apply body_step_agrees|]. intros [accs ua]. cbn [fst snd].
    apply does_bind with (Mid := past R (D - 1)); [now apply finish_all_agrees|]. intros vs.
    destruct u as [[a d]|], w as [[b s]|]; try contradiction.
    - destruct HU as (-> & Hd). apply does_bind with (Mid := past R (D - 1)); [apply finish_one_agrees; apply Hd|]. intros v. now apply does_ret.
    - now apply does_ret.
  Qed.

  Lemma body_default_agrees d s : pagrees d s -> forall ks R D,
    does (at_body ks R D) (body_default d) (t_body_default cf s ks) (past R (D - 1)).
  Proof.
    intros H ks R D. unfold body_default, t_body_default.
    apply does_bind with (Mid := past R (D - 1)).
    - apply des_body_agrees; [|exact I]. repeat constructor; apply H.
    - intros [|v [|]]; [apply does_ill|now apply does_ret|apply does_ill].
  Qed.
  Lemma with_default_agrees d s : pagrees d s ->
    (forall tag n R D, does (at_node tag n R D) (d_elem d tag (hdr_node n)) (t_elem s tag n) (past R D)) ->
    agrees (with_default_body d) (t_with_default_body cf s).
  Proof.
    intros H He. constructor; [|exact He|].
    - constructor; apply H.
    - intros ks R D. now apply body_default_agrees.
  Qed.
  Lemma opt_field_agrees k conv tconv : 
    (forall tag n R D, does (at_node tag n R D) (conv tag (hdr_node n)) (tconv tag n) (past R D)) ->
    forall a tag n R D, does (at_node tag n R D) (opt_field k conv a tag (hdr_node n)) (t_opt_field k tconv a tag n) (past R D).
  Proof.
    intros H a tag n R D. destruct a as [[v|]| | |]; cbn [opt_field t_opt_field]; try apply does_ill.
    - apply does_fail.
    - apply does_bind with (Mid := past R D); [apply H|]. intros v. now apply does_ret.
  Qed.
  Lemma opt_fin_agrees a P : does P (opt_fin a) (t_opt_fin a) P.
  Proof. destruct a as [[v|]| | |]; cbn [opt_fin t_opt_fin]; try apply does_ill; [now apply does_ret|apply does_fail]. Qed.
  Lemma unary_agrees conv tconv : 
    (forall tag n R D, does (at_node tag n R D) (conv tag (hdr_node n)) (tconv tag n) (past R D)) ->
    agrees (unary conv) (t_unary cf tconv).
  Proof.
    intros H. apply with_default_agrees.
    - constructor; [reflexivity| |apply opt_fin_agrees]. now apply opt_field_agrees.
    - intros tag n R D. apply does_bind with (Mid := past R D); [now apply opt_field_agrees|]. intros a. apply opt_fin_agrees.
  Qed.

  (** Scalars. *)
  Lemma does_lift_node {A} (r : res serr A) tag n R D :
    (forall a, r = ROk a -> is_tree n = false) -> does (at_node tag n R D) (plift r) (t_lift r) (past R D).
  Proof. intros H. apply does_lift. intros a q c E Hq. eapply leaf_past; eauto. Qed.
  Lemma conv_uint_agrees w tag n R D : does (at_node tag n R D) (conv_uint w tag (hdr_node n)) (t_conv_uint w tag n) (past R D).
  Proof.
    apply does_bind with (Mid := past R D); [|intros x; now apply does_ret]. apply does_lift_node.
    intros a. destruct n; cbn; reflexivity || discriminate.
  Qed.
  Lemma conv_sint_agrees w tag n R D : does (at_node tag n R D) (conv_sint w tag (hdr_node n)) (t_conv_sint w tag n) (past R D).
  Proof.
    apply does_bind with (Mid := past R D); [|intros x; now apply does_ret]. apply does_lift_node.
    intros a. destruct n; cbn; reflexivity || discriminate.
  Qed.
  Lemma conv_bool_agrees tag n R D : does (at_node tag n R D) (conv_bool tag (hdr_node n)) (t_conv_bool tag n) (past R D).
  Proof.
    apply does_bind with (Mid := past R D); [|intros x; now apply does_ret]. apply does_lift_node.
    intros a. destruct n; cbn; reflexivity || discriminate.
  Qed.
  Lemma conv_phantom_agrees tag n R D : does (at_node tag n R D) (conv_phantom tag (hdr_node n)) (t_conv_phantom tag n) (past R D).
  Proof.
    apply does_bind with (Mid := past R D); [|intros x; now apply does_ret]. apply does_lift_node.
    intros a. destruct n; cbn; reflexivity || discriminate.
  Qed.
  Lemma conv_char_agrees tag n R D : does (at_node tag n R D) (conv_char tag (hdr_node n)) (t_conv_char tag n) (past R D).
  Proof.
    apply does_bind with (Mid := past R D).
    - apply does_lift_node. intros a. destruct n; cbn; reflexivity || discriminate.
    - intros x. destruct (char_ok x); [now apply does_ret|apply does_fail].
  Qed.

  (** Blobs. *)
  Lemma to_blob_node n : to_blob (hdr_node n) = match n with NBlob b => ROk (lenN b) | _ => to_blob (hdr_node n) end /\
    (forall a, to_blob (hdr_node n) = ROk a -> exists b, n = NBlob b).
  Proof. destruct n; split; try reflexivity; intros a; cbn; try discriminate. eauto. Qed.
  Lemma at_blob tag b R D q c : at_node tag (NBlob b) R D q c ->
    q = mkEls R en false D b dbg /\ exists o, c = Some (mkField tag o D (HBlob (lenN b))).
  Proof.
    intros (X & o & bl & -> & HX & -> & Hb & _). destruct X; [|discriminate]. rewrite (Hb eq_refl). cbn. eauto.
  Qed.
  Lemma does_fail_bind {A A' B} Pre k (f : A -> prog B) (g : A' -> T B) Post : does Pre (pbind (pfail k) f) (mbind (mfail k) g) Post.
  Proof. exact (does_fail Pre k Post). Qed.
  Lemma read_owned_agrees tag n R D : does (at_node tag n R D) (read_owned (hdr_node n)) (t_read_owned cf n) (past R D).
  Proof.
    unfold read_owned, t_read_owned. destruct n as [x|b|fs|d fs]; cbn [hdr_node to_blob plift t_lift blob_of]; try apply does_fail_bind.
    apply does_ext with (m := t_quota cf (lenN b) ;; mret b); [reflexivity|]. cbn [pbind].
    eapply does_bind; [apply does_quota|]. intros _ st [Hp Hq] Ho Hc.
    destruct (at_blob _ _ _ _ _ _ Hp) as (E & o & Ec). rewrite run_pdo. cbn [run_op]. unfold on_blob. rewrite Ec.
    unfold on_src_of. rewrite E. cbn [el_source i_read_fully]. unfold el_read_fully. cbn [q_blob].
    destruct (N.ltb_spec (cf_blob cf) (lenN b)); [lia|]. cbn [mret]. eexists. split; [reflexivity|].
    split; [eexists; reflexivity|]. auto.
  Qed.
  Lemma read_borrowed_agrees tag n R D : does (at_node tag n R D) (read_borrowed (hdr_node n)) (t_read_borrowed n) (past R D).
  Proof.
    unfold read_borrowed, t_read_borrowed. destruct n as [x|b|fs|d fs]; cbn [hdr_node to_blob plift t_lift blob_of]; try apply does_fail_bind.
    apply does_bind with (Mid := at_node tag (NBlob b) R D); [now apply does_ret|]. intros _ st Hp Ho Hc.
    destruct (at_blob _ _ _ _ _ _ Hp) as (E & o & Ec). rewrite run_pdo. cbn [run_op]. unfold on_blob. rewrite Ec.
    unfold on_src_of. rewrite E. cbn. eexists. split; [reflexivity|].
    split; [eexists; reflexivity|]. auto.
  Qed.
  Lemma read_array_agrees m tag n R D : does (at_node tag n R D) (read_array m (hdr_node n)) (t_read_array m n) (past R D).
  Proof.
    unfold read_array, t_read_array. destruct n as [x|b|fs|d fs]; cbn [hdr_node to_blob plift t_lift blob_of]; try apply does_fail_bind.
    apply does_bind with (Mid := at_node tag (NBlob b) R D); [now apply does_ret|]. intros _.
    intros st Hp Ho Hc. destruct (at_blob _ _ _ _ _ _ Hp) as (E & o & Ec).
    assert (E1 : run el_source cf (pdo ORemaining) st = (ROk (lenN b), st)).
    { rewrite run_pdo. cbn [run_op]. unfold on_blob. rewrite Ec. unfold on_src_of. cbn [el_source i_remaining]. unfold el_remaining.
      rewrite E. cbn [q_blob]. rewrite <- E. destruct st; reflexivity. }
    rewrite (run_bind_ok _ _ _ _ _ _ _ E1).
    destruct (N.eqb_spec (lenN b) m) as [<-|Hne]; [|now apply (does_fail (at_node tag (NBlob b) R D) _ (past R D))].
    cbn [mret]. unfold pbind at 1. cbn [pdo]. cbn [run run_op]. unfold mbind, on_blob. rewrite Ec.
    unfold on_src_of. rewrite E. cbn [el_source i_read_exact]. unfold el_read_exact. cbn [q_blob].
    rewrite (proj2 (N.ltb_ge _ _)) by lia. rewrite takeN_all by lia. cbn [run mret].
    eexists. split; [reflexivity|]. split; [eexists; reflexivity|]. auto.
  Qed.
  Lemma conv_string_agrees tag n R D : does (at_node tag n R D) (conv_string tag (hdr_node n)) (t_conv_string cf tag n) (past R D).
  Proof.
    apply does_bind with (Mid := past R D); [apply read_owned_agrees|]. intros bs. destruct (utf8_ok bs); [now apply does_ret|apply does_fail].
  Qed.
  Lemma conv_bytes_ref_agrees tag n R D : does (at_node tag n R D) (conv_bytes_ref tag (hdr_node n)) (t_conv_bytes_ref tag n) (past R D).
  Proof. apply does_bind with (Mid := past R D); [apply read_borrowed_agrees|]. intros bs. now apply does_ret. Qed.
  Lemma conv_str_ref_agrees tag n R D : does (at_node tag n R D) (conv_str_ref tag (hdr_node n)) (t_conv_str_ref tag n) (past R D).
  Proof.
    apply does_bind with (Mid := past R D); [apply read_borrowed_agrees|]. intros bs. destruct (utf8_ok bs); [now apply does_ret|apply does_fail].
  Qed.

  (** A second occurrence: whatever happens, the error is the same. *)
  Lemma vecu8_again tag n R D :
    does (at_node tag n R D) (pdo (OOver (KTooMany 1)) ;> read_owned (hdr_node n) ;> pfail (KTooMany 1)) (mfail (KTooMany 1)) (past R D) (A := acc).
  Proof.
    intros st Hp Ho Hc. cbn [mfail].
    destruct n as [x|b|fs|d fs]; try (eexists _, _; split; [reflexivity|split; [apply KR_eq|reflexivity]]).
    destruct (at_blob _ _ _ _ _ _ Hp) as (E & o & Ec). destruct Hc as [Hc1 Hc2]. cbn [abs c_blob] in Hc2.
    rewrite (run_bind_ok el_source cf (pdo (OOver (KTooMany 1))) _ st tt (x_set_over (Some (KTooMany 1)) st)) by reflexivity.
    set (st1 := x_set_over (Some (KTooMany 1)) st). unfold read_owned. cbn [hdr_node to_blob plift pbind pdo run run_op]. unfold mbind.
    change (x_blob st1) with (x_blob st). unfold ctx_blob. rewrite u64_sub_ok by exact Hc2.
    destruct (N.ltb_spec (cf_blob cf - x_blob st) (lenN b)).
    { eexists _, _. split; [reflexivity|]. split; [apply KR_eq|reflexivity]. }
    rewrite u64_add_ok by (unfold U64_MAX, U64_MOD in *; lia). unfold on_blob.
    change (x_cur (x_set_blob (x_blob st + lenN b) st1)) with (x_cur st). rewrite Ec. unfold on_src_of.
    change (x_s (x_set_blob (x_blob st + lenN b) st1)) with (x_s st). rewrite E. cbn [el_source i_read_fully]. unfold el_read_fully. cbn [q_blob].
    destruct (N.ltb_spec (cf_blob cf) (lenN b)); [lia|]. eexists _, _. split; [reflexivity|]. split; [apply KR_eq|reflexivity].
  Qed.
  Lemma arru8_again m tag n R D :
    does (at_node tag n R D) (pdo (OOver (KTooMany 1)) ;> read_array m (hdr_node n) ;> pfail (KTooMany 1)) (mfail (KTooMany 1)) (past R D) (A := acc).
  Proof.
    intros st Hp Ho Hc. cbn [mfail].
    destruct n as [x|b|fs|d fs]; try (eexists _, _; split; [reflexivity|split; [apply KR_eq|reflexivity]]).
    destruct (at_blob _ _ _ _ _ _ Hp) as (E & o & Ec).
    rewrite (run_bind_ok el_source cf (pdo (OOver (KTooMany 1))) _ st tt (x_set_over (Some (KTooMany 1)) st)) by reflexivity.
    set (st1 := x_set_over (Some (KTooMany 1)) st). unfold read_array. cbn [hdr_node to_blob plift pbind pdo run run_op]. unfold mbind.
    unfold on_blob. change (x_cur st1) with (x_cur st). rewrite Ec. unfold on_src_of.
    change (x_s st1) with (x_s st). rewrite E. cbn [el_source i_remaining]. unfold el_remaining. cbn [q_blob].
    destruct (N.eqb_spec (lenN b) m) as [<-|Hne]; [|eexists _, _; split; [reflexivity|split; [apply KR_eq|reflexivity]]].
    cbn [pbind run run_op]. unfold mbind, on_blob. cbn [x_cur x_set_s]. change (x_cur st1) with (x_cur st). rewrite Ec.
    unfold on_src_of. cbn [x_s x_set_s]. cbn [el_source i_read_exact]. unfold el_read_exact. cbn [q_blob].
    rewrite (proj2 (N.ltb_ge _ _)) by lia. eexists _, _. split; [reflexivity|]. split; [apply KR_eq|reflexivity].
  Qed.

  Lemma vecu8_agrees : agrees dict_vecu8 (t_vecu8 cf).
  Proof.
    apply with_default_agrees.
    - constructor; [reflexivity| |apply opt_fin_agrees]. intros a tag n R D. cbn [d_field t_field].
      destruct a as [[v|]| | |]; cbn [vecu8_field t_vecu8_field]; try apply does_ill.
      + apply vecu8_again.
      + apply does_bind with (Mid := past R D); [apply read_owned_agrees|]. intros bs. now apply does_ret.
    - intros tag n R D. apply does_bind with (Mid := past R D); [apply read_owned_agrees|]. intros bs. now apply does_ret.
  Qed.
  Lemma arru8_agrees m : agrees (dict_arru8 m) (t_arru8 cf m).
  Proof.
    apply with_default_agrees.
    - constructor; [reflexivity| |].
      + intros a tag n R D. cbn [d_field t_field].
        destruct a as [[v|]| | |]; cbn [arru8_field t_arru8_field]; try apply does_ill.
        * destruct (m <=? 32); [apply arru8_again|]. cbn [pbind].
          apply does_bind with (Mid := past R D); [apply read_array_agrees|]. intros _. apply does_fail.
        * apply does_bind with (Mid := past R D); [apply read_array_agrees|]. intros v. now apply does_ret.
      + intros a P. cbn [d_fin t_fin]. destruct a as [[v|]| | |]; cbn [arru8_fin t_arru8_fin]; try apply does_ill.
        * now apply does_ret.
        * destruct (m =? 0); [now apply does_ret|apply does_fail].
    - intros tag n R D. apply read_array_agrees.
  Qed.

  (** Bodies of nodes. *)
  Lemma does_struct_body {A} (p : prog A) (m : list (N * node) -> T A) tag n R D :
    (forall ks R D, does (at_body ks R D) p (m ks) (past R (D - 1))) ->
    does (at_node tag n R D) (plift (to_struct (hdr_node n)) ;> p) (t_lift (to_struct (hdr_node n)) ;; m (kids n)) (past R D).
  Proof.
    intros H. destruct n as [x|b|fs|d fs]; cbn [hdr_node to_struct plift t_lift]; try apply does_fail_bind.
    apply does_ext with (m := m fs); [reflexivity|]. cbn [pbind].
    eapply does_imp; [apply (H fs R (D + 1))| |].
    - intros q c Hq. exact (node_body _ _ _ _ _ _ Hq eq_refl).
    - intros q c. now replace (D + 1 - 1) with D by lia.
  Qed.
  Lemma does_tree_body {A} (p : prog A) (m : list (N * node) -> T A) tag n R D : is_tree n = true ->
    (forall ks R D, does (at_body ks R D) p (m ks) (past R (D - 1))) ->
    does (at_node tag n R D) p (m (kids n)) (past R D).
  Proof.
    intros Hn H. eapply does_imp; [apply (H (kids n) R (D + 1))| |].
    - intros q c Hq. exact (node_body _ _ _ _ _ _ Hq Hn).
    - intros q c. now replace (D + 1 - 1) with D by lia.
  Qed.
  Lemma wrapped_agrees d s : pagrees d s -> agrees (wrapped d) (t_wrapped cf s).
  Proof.
    intros H. constructor.
    - constructor; apply H.
    - intros tag n R D. cbn [wrapped t_wrapped d_elem t_elem]. apply does_struct_body with (m := t_body_default cf s).
      now apply body_default_agrees.
    - now apply body_default_agrees.
  Qed.
  Lemma arr_agrees m d s : agrees d s -> agrees (dict_arr m d) (t_arr cf m s).
  Proof.
    intros H. apply wrapped_agrees. constructor; [reflexivity| |].
    - intros a tag n R D. cbn [d_field t_field]. destruct a as [|vs| |]; cbn [arr_field t_arr_field]; try apply does_ill.
      destruct (m <=? lenN vs); [apply does_fail|].
      apply does_bind with (Mid := past R D); [apply H|]. intros v. now apply does_ret.
    - intros a P. cbn [d_fin t_fin]. destruct a as [|vs| |]; cbn [arr_fin t_arr_fin]; try apply does_ill.
      destruct (lenN vs <? m); [destruct vs; apply does_fail|now apply does_ret].
  Qed.
  Lemma coll_agrees ins d s : agrees d s -> agrees (dict_coll ins d) (t_coll cf ins s).
  Proof.
    intros H. apply wrapped_agrees. constructor; [reflexivity| |].
    - intros a tag n R D. cbn [d_field t_field]. destruct a as [|vs| |]; cbn [coll_field t_coll_field]; try apply does_ill.
      apply does_bind with (Mid := at_node tag n R D); [apply does_collect|]. intros _.
      apply does_bind with (Mid := past R D); [apply H|]. intros v. now apply does_ret.
    - intros a P. cbn [d_fin t_fin]. destruct a as [|vs| |]; cbn [coll_fin t_coll_fin]; try apply does_ill. now apply does_ret.
  Qed.
  Lemma option_agrees d s : agrees d s -> agrees (dict_option d) (t_option cf s).
  Proof.
    intros H. apply wrapped_agrees. constructor; [reflexivity| |].
    - intros a tag n R D. cbn [d_field t_field]. apply opt_field_agrees. intros. apply H.
    - intros a P. cbn [d_fin t_fin]. destruct a as [o| | |]; cbn [t_option_fin]; try apply does_ill. now apply does_ret.
  Qed.
  Lemma struct_agrees k body tbody elem telem :
    (forall ks R D, does (at_body ks R D) body (tbody ks) (past R (D - 1))) ->
    (forall tag n R D, does (at_node tag n R D) (elem tag (hdr_node n)) (telem tag n) (past R D)) ->
    agrees (dict_struct k body elem) (t_struct k tbody telem).
  Proof.
    intros Hb He. constructor; [|exact He|exact Hb]. constructor; [reflexivity| |apply opt_fin_agrees].
    now apply opt_field_agrees.
  Qed.
  Lemma tuple_fields_agrees ds ss : Forall2 agrees ds ss -> forall i, Forall2 fagrees (tuple_fields i ds) (t_tuple_fields i ss).
  Proof.
    induction 1 as [|d s ds ss H HF IH]; intros i; cbn [tuple_fields t_tuple_fields]; constructor; auto.
    split; [reflexivity|]. apply H.
  Qed.
  Lemma tuple_body_agrees ds ss : Forall2 agrees ds ss -> forall ks R D,
    does (at_body ks R D) (tuple_body ds) (t_tuple_body cf ss ks) (past R (D - 1)).
  Proof.
    intros H ks R D. apply does_bind with (Mid := past R (D - 1)).
    - apply des_body_agrees; [|exact I]. now apply tuple_fields_agrees.
    - intros vs. now apply does_ret.
  Qed.
  Lemma tuple_agrees ds ss : Forall2 agrees ds ss -> agrees (dict_tuple ds) (t_tuple cf ss).
  Proof.
    intros H. apply struct_agrees.
    - now apply tuple_body_agrees.
    - intros tag n R D. apply does_struct_body with (m := t_tuple_body cf ss). now apply tuple_body_agrees.
  Qed.
  Lemma map_agrees dk dv sk sv : agrees dk sk -> agrees dv sv -> agrees (dict_map dk dv) (t_map cf sk sv).
  Proof.
    intros Hk Hv. apply wrapped_agrees. constructor; [reflexivity| |].
    - intros a tag n R D. cbn [d_field t_field]. destruct a as [| |kvs|]; cbn [map_field t_map_field]; try apply does_ill.
      apply does_bind with (Mid := at_node tag n R D); [apply does_collect|]. intros _.
      apply does_bind with (Mid := past R D).
      + apply (ag_elem _ _ (tuple_agrees [dk; dv] [sk; sv] (Forall2_cons _ _ Hk (Forall2_cons _ _ Hv (Forall2_nil _))))).
      + intros kv. destruct kv as [| | | | | | | | | | | |[|k [|v [|]]]| | | |]; try apply does_ill. now apply does_ret.
    - intros a P. cbn [d_fin t_fin]. destruct a as [| |kvs|]; cbn [t_map_fin]; try apply does_ill. now apply does_ret.
  Qed.

  (** ** UnknownFields *)
  Lemma cow_agrees zc tag n R D : does (at_node tag n R D) (cow_bytes zc (hdr_node n)) (t_cow_bytes cf zc n) (past R D).
  Proof. destruct zc; [apply read_borrowed_agrees|apply read_owned_agrees]. Qed.
  Lemma unk_node_agrees zc body tbody : (forall ks R D, does (at_body ks R D) body (tbody ks) (past R (D - 1))) ->
    forall tag n R D, does (at_node tag n R D)
      (match hdr_node n with
       | HInt n => PRet (NInt n)
       | HBlob _ => b <- cow_bytes zc (hdr_node n) ; PRet (NBlob b)
       | HStruct => fs <- body ; PRet (NStruct fs)
       | HEnum d => fs <- body ; PRet (NEnum d fs)
       end) (t_unk_node cf zc tbody n) (past R D).
  Proof.
    intros H tag n R D. destruct n as [x|b|fs|d fs]; unfold t_unk_node.
    - apply does_ret. intros q c Hq. eapply leaf_past; eauto.
    - change (hdr_node (NBlob b)) with (HBlob (lenN b)). cbv match. apply does_bind with (Mid := past R D); [|intros; now apply does_ret].
      apply (cow_agrees zc tag (NBlob b)).
    - cbn [hdr_node]. apply does_bind with (Mid := past R D); [|intros; now apply does_ret].
      apply (does_tree_body body tbody tag (NStruct fs) R D eq_refl H).
    - cbn [hdr_node]. apply does_bind with (Mid := past R D); [|intros; now apply does_ret].
      apply (does_tree_body body tbody tag (NEnum d fs) R D eq_refl H).
  Qed.
  Lemma unk_body_agrees zc fuel : forall ks R D, does (at_body ks R D) (unk_body zc fuel) (t_unk_body cf zc fuel ks) (past R (D - 1)).
  Proof.
    induction fuel as [|f IH]; intros ks R D; cbn [unk_body t_unk_body].
    - exact (does_stop (at_body ks R D) StFuel (past R (D - 1))).
    - apply does_loop with (h := fun (fs : list (N * node)) tag vh =>
            pdo (OPush true (tag_name tag)) ;>
            pdo OCollect ;>
            n <- (match vh with
                  | HInt n => PRet (NInt n)
                  | HBlob _ => b <- cow_bytes zc vh ; PRet (NBlob b)
                  | HStruct => fs <- unk_body zc f ; PRet (NStruct fs)
                  | HEnum d => fs <- unk_body zc f ; PRet (NEnum d fs)
                  end) ;
            pdo OPop ;>
            PRet (inl (fs ++ [(tag, n)]))); [reflexivity|].
      clear ks R. intros fs tag n R.
      apply does_ext with (m := t_push cf (tag_name tag) ;; t_collect cf ;; let* n' := t_unk_node cf zc (t_unk_body cf zc f) n in t_pop ;; mret (inl (fs ++ [(tag, n')]))).
      { intros c. rewrite !mbind_assoc. unfold mbind. destruct (t_push cf (tag_name tag) c) as [[[]|x| |] c1]; try reflexivity.
        destruct (t_collect cf c1) as [[[]|x| |] c2]; try reflexivity.
        destruct (t_unk_node cf zc (t_unk_body cf zc f) n c2) as [[a|x| |] c3]; reflexivity. }
      apply does_bind with (Mid := at_node tag n R D); [apply does_push_node|]. intros _.
      apply does_bind with (Mid := at_node tag n R D); [apply does_collect|]. intros _.
      apply does_bind with (Mid := past R D); [now apply unk_node_agrees|]. intros n'.
      apply does_bind with (Mid := past R D); [apply does_pop|]. intros _. now apply does_ret.
  Qed.
  Lemma unk_elem_agrees zc fuel tag n R D : does (at_node tag n R D) (unk_elem zc fuel (hdr_node n)) (t_unk_elem cf zc fuel n) (past R D).
  Proof. apply unk_node_agrees. apply unk_body_agrees. Qed.
  Lemma unk_val_agrees zc fuel ks R D :
    does (at_body ks R D) (fs <- unk_body zc fuel ; PRet (VUnk fs)) (t_unk_val cf zc fuel ks) (past R (D - 1)).
  Proof. apply does_bind with (Mid := past R (D - 1)); [apply unk_body_agrees|]. intros. now apply does_ret. Qed.
  Lemma unknown_agrees zc fuel : agrees (dict_unknown zc fuel) (t_unknown_d cf zc fuel).
  Proof.
    constructor.
    - constructor; [reflexivity| |].
      + intros a tag n R D. cbn [dict_unknown t_unknown_d d_field t_field].
        destruct a as [| | |fs]; cbn [unk_field t_unk_field]; try apply does_ill.
        apply does_bind with (Mid := at_node tag n R D); [apply does_collect|]. intros _.
        apply does_bind with (Mid := past R D); [apply unk_elem_agrees|]. intros n'. now apply does_ret.
      + intros a P. cbn [dict_unknown t_unknown_d d_fin t_fin]. destruct a as [| | |fs]; cbn [t_unk_fin]; try apply does_ill. now apply does_ret.
    - intros tag n R D. cbn [dict_unknown t_unknown_d d_elem t_elem]. apply does_struct_body with (m := t_unk_val cf zc fuel).
      intros. apply unk_val_agrees.
    - intros. apply unk_val_agrees.
  Qed.
  Lemma unkfield_agrees zc fuel : agrees (dict_unkfield zc fuel) (t_unkfield cf zc fuel).
  Proof.
    apply unary_agrees. intros tag n R D. apply does_bind with (Mid := past R D); [apply unk_elem_agrees|]. intros. now apply does_ret.
  Qed.

  (** ** fourleaf_retrofit! *)
  Lemma construct_agrees b vs P : does P (construct b vs) (t_construct b vs) P.
  Proof. unfold construct, t_construct. destruct (vb_check b vs); [now apply does_ret|apply does_fail]. Qed.
  Lemma fdicts_agrees mk tmk fs : (forall t, agrees (mk t) (tmk t)) -> Forall2 fagrees (fdicts mk fs) (t_fdicts tmk fs).
  Proof. intros H. induction fs as [|f fs IH]; constructor; auto. split; [reflexivity|]. apply H. Qed.
  Lemma vbody_agrees mk tmk b : (forall t, agrees (mk t) (tmk t)) -> forall ks R D,
    does (at_body ks R D) (vbody_body mk b) (t_vbody cf tmk b ks) (past R (D - 1)).
  Proof.
    intros H ks R D. pose proof (fdicts_agrees mk tmk (vb_fields b) H) as HF. unfold vbody_body, t_vbody. cbv zeta.
    destruct (vb_special b) as [|nm t|nm t].
    - apply does_bind with (Mid := past R (D - 1)); [now apply des_body_agrees|]. intros vs. apply construct_agrees.
    - apply does_bind with (Mid := at_body ks R D); [apply does_push_stream|]. intros _.
      apply does_bind with (Mid := past R (D - 1)); [apply H|]. intros dv.
      apply does_bind with (Mid := past R (D - 1)); [apply does_pop|]. intros _.
      rewrite <- (inits_agrees _ _ HF).
      apply does_bind with (Mid := past R (D - 1)); [now apply finish_all_agrees|]. intros vs. apply construct_agrees.
    - apply does_bind with (Mid := past R (D - 1)); [|intros vs; apply construct_agrees].
      apply des_body_agrees; [exact HF|]. split; [reflexivity|]. apply H.
  Qed.
  Lemma struct_elem_agrees mk tmk b : (forall t, agrees (mk t) (tmk t)) -> forall tag n R D,
    does (at_node tag n R D) (struct_elem mk b tag (hdr_node n)) (t_struct_elem cf tmk b tag n) (past R D).
  Proof.
    intros H tag n R D. unfold struct_elem, t_struct_elem.
    destruct (vb_special b) as [|nm t|nm t].
    1,3: apply does_struct_body with (m := t_vbody cf tmk b); now apply vbody_agrees.
    apply does_bind with (Mid := at_node tag n R D); [apply does_push_node|]. intros _.
    apply does_bind with (Mid := past R D); [apply H|]. intros dv.
    apply does_bind with (Mid := past R D); [apply does_pop|]. intros _. apply construct_agrees.
  Qed.
  Lemma enum_elem_agrees mk tmk vars catch : (forall t, agrees (mk t) (tmk t)) -> forall tag n R D,
    does (at_node tag n R D) (enum_elem mk vars catch tag (hdr_node n)) (t_enum_elem cf tmk vars catch tag n) (past R D).
  Proof.
    intros H tag n R D. unfold enum_elem, t_enum_elem.
    destruct n as [x|b|fs|d fs]; cbn [hdr_node to_enum plift t_lift]; try apply does_fail_bind.
    cbn [pbind].
    assert (Hv : forall b (f : value -> value), does (at_node tag (NEnum d fs) R D) (v <- vbody_body mk b ; PRet (f v)) (let* v := t_vbody cf tmk b fs in mret (f v)) (past R D)).
    { intros b f. apply does_bind with (Mid := past R D); [|intros; now apply does_ret].
      apply (does_tree_body _ (t_vbody cf tmk b) tag (NEnum d fs) R D eq_refl). now apply vbody_agrees. }
    apply does_ext with (m := match find_variant d vars with
      | Some (ix, b) => let* v := t_vbody cf tmk b fs in mret (VVar ix v)
      | None => match catch with Some b => let* v := t_vbody cf tmk b fs in mret (VCatch d v) | None => mfail (KUnknownVariant d) end
      end); [reflexivity|].
    destruct (find_variant d vars) as [[ix b]|]; [apply Hv|]. destruct catch as [b|]; [apply Hv|apply does_fail].
  Qed.

  (** ** All types *)
  Lemma dict_stop_agrees x : agrees (dict_stop x) (t_dict_stop x).
  Proof. constructor; [constructor|..]; intros; try reflexivity; apply does_stop. Qed.
  Lemma dict_of_agrees ufuel item_d titem_d : (forall zc i, agrees (item_d zc i) (titem_d zc i)) -> forall t zc,
    agrees (dict_of ufuel item_d zc t) (t_dict_of cf ufuel titem_d zc t).
  Proof.
    intros H. apply (ty_ind2 (fun t => forall zc, agrees (dict_of ufuel item_d zc t) (t_dict_of cf ufuel titem_d zc t))).
    - intros t. destruct t; try exact I; intros zc; cbn [dict_of t_dict_of].
      + apply unary_agrees. apply conv_uint_agrees.
      + apply unary_agrees. apply conv_sint_agrees.
      + apply unary_agrees. apply conv_bool_agrees.
      + apply unary_agrees. apply conv_char_agrees.
      + apply unary_agrees. apply conv_phantom_agrees.
      + apply unary_agrees. apply conv_string_agrees.
      + destruct zc; [apply unary_agrees; apply conv_str_ref_agrees|apply dict_stop_agrees].
      + destruct zc; [apply unary_agrees; apply conv_bytes_ref_agrees|apply dict_stop_agrees].
      + destruct zc; [apply unary_agrees; apply conv_str_ref_agrees|apply unary_agrees; apply conv_string_agrees].
      + destruct zc; [apply unary_agrees; apply conv_bytes_ref_agrees|apply vecu8_agrees].
      + apply unknown_agrees.
      + apply unkfield_agrees.
      + apply H.
    - intros t IH zc; cbn [dict_of t_dict_of]. destruct (is_u8 t); [apply vecu8_agrees|now apply coll_agrees].
    - intros t IH zc; cbn [dict_of t_dict_of]. now apply coll_agrees.
    - intros t IH zc; cbn [dict_of t_dict_of]. now apply coll_agrees.
    - intros t IH zc; cbn [dict_of t_dict_of]. now apply option_agrees.
    - intros n t IH zc; cbn [dict_of t_dict_of]. destruct (is_u8 t); [apply arru8_agrees|now apply arr_agrees].
    - intros k v IHk IHv zc; cbn [dict_of t_dict_of]. now apply map_agrees.
    - intros ts IH zc; cbn [dict_of t_dict_of]. apply tuple_agrees. induction IH; cbn [map]; constructor; auto.
    - intros t IH zc. apply IH.
    - intros t IH zc. apply IH.
  Qed.
  Lemma item_dict_agrees e ufuel fuel : forall zc i, agrees (item_dict e ufuel fuel zc i) (t_item_dict cf e ufuel fuel zc i).
  Proof.
    induction fuel as [|f IH]; intros zc i; cbn [item_dict t_item_dict]; [apply dict_stop_agrees|]. cbv zeta.
    pose proof (fun t => dict_of_agrees ufuel _ _ IH t zc) as Hmk. destruct (e i) as [b|vars catch].
    - apply struct_agrees; [now apply vbody_agrees|now apply struct_elem_agrees].
    - apply with_default_agrees; [|intros; now apply enum_elem_agrees].
      constructor; [reflexivity| |apply opt_fin_agrees]. apply opt_field_agrees. intros; now apply enum_elem_agrees.
  Qed.
  Theorem full_agrees e fuel zc t : agrees (full_dict e fuel zc t) (t_full cf e fuel zc t).
  Proof. apply dict_of_agrees. apply item_dict_agrees. Qed.
End Agree.
