(** * P_RT: what was written is what is read, on trees *)

From Verif Require Import SpecListing P_Ord Base Wire Stream SpecWire SpecFormat SpecStream SpecWrite Types Ser Prog De SpecDe SpecDoc Tree
  P_Base P_Wire P_Types P_Misc P_Dict P_DictAll P_Tree.

(** ** Induction over typing *)
Definition Forall_map {A} {P Q : A -> Prop} (f : forall x, P x -> Q x) : forall l, Forall P l -> Forall Q l :=
  fix go l H := match H in Forall _ l0 return Forall Q l0 with
                | Forall_nil _ => Forall_nil Q
                | Forall_cons x Hx Hl => Forall_cons x (f x Hx) (go _ Hl)
                end.
Definition Forall2_map {A B} {P Q : A -> B -> Prop} (f : forall x y, P x y -> Q x y) : forall l m, Forall2 P l m -> Forall2 Q l m :=
  fix go l m H := match H in Forall2 _ l0 m0 return Forall2 Q l0 m0 with
                | Forall2_nil _ => Forall2_nil Q
                | Forall2_cons x y Hx Hl => Forall2_cons x y (f x y Hx) (go _ _ Hl)
                end.
Section Ind.
  Variable ordered : list value -> Prop.
  Variable e : env.
  Variable P : value -> ty -> Prop.
  Hypothesis HUInt : forall w n, n <= umax w -> P (VU n) (TUInt w).
  Hypothesis HSInt : forall w z, (smin w <= z <= smax w)%Z -> P (VS z) (TSInt w).
  Hypothesis HBool : forall b, P (VB b) TBool.
  Hypothesis HChar : forall c, char_ok c = true -> P (VChar c) TChar.
  Hypothesis HPhantom : P VPhantom TPhantom.
  Hypothesis HStr : forall t bs, is_str t -> bytes_ok bs -> utf8_ok bs = true -> P (VStr bs) t.
  Hypothesis HBytes : forall t bs, is_bytes t -> bytes_ok bs -> P (VBytes bs) t.
  Hypothesis HArrB : forall n t bs, is_u8 t = true -> bytes_ok bs -> lenN bs = n -> P (VArrB bs) (TArray n t).
  Hypothesis HArr : forall n t vs, is_u8 t = false -> lenN vs = n -> Forall (fun v => typed_by ordered e v t) vs ->
    Forall (fun v => P v t) vs -> P (VArr vs) (TArray n t).
  Hypothesis HVec : forall t vs, is_u8 t = false -> Forall (fun v => typed_by ordered e v t) vs -> Forall (fun v => P v t) vs -> P (VList vs) (TVec t).
  Hypothesis HSeq : forall t vs, Forall (fun v => typed_by ordered e v t) vs -> Forall (fun v => P v t) vs -> P (VList vs) (TSeq t).
  Hypothesis HSet : forall t vs, Forall (fun v => typed_by ordered e v t) vs -> Forall (fun v => P v t) vs -> ordered vs -> P (VList vs) (TSet t).
  Hypothesis HNone : forall t, P (VOpt None) (TOption t).
  Hypothesis HSome : forall t v, typed_by ordered e v t -> P v t -> P (VOpt (Some v)) (TOption t).
  Hypothesis HMap : forall tk tv kvs, Forall (fun p => typed_by ordered e (fst p) tk) kvs -> Forall (fun p => typed_by ordered e (snd p) tv) kvs ->
    Forall (fun p => P (fst p) tk) kvs -> Forall (fun p => P (snd p) tv) kvs -> ordered (map fst kvs) -> P (VMap kvs) (TMap tk tv).
  Hypothesis HTuple : forall ts vs, Forall2 (typed_by ordered e) vs ts -> Forall2 P vs ts -> P (VRec vs) (TTuple ts).
  Hypothesis HBox : forall t v, typed_by ordered e v t -> P v t -> P v (TBox t).
  Hypothesis HCopied : forall t v, typed_by ordered e v t -> P v t -> P v (TCopied t).
  Hypothesis HUnk : forall fs, nodes_ok fs -> P (VUnk fs) TUnknown.
  Hypothesis HNode : forall n, node_ok n -> P (VNode n) TUnkField.
  Hypothesis HStruct : forall i b vs, e i = IStruct b -> Forall2 (typed_by ordered e) vs (body_types b) -> Forall2 P vs (body_types b) ->
    vb_check b vs = true -> unknown_ok b vs -> P (VRec vs) (TItem i).
  Hypothesis HVar : forall i vars catch ix d b vs, e i = IEnum vars catch -> nth_error vars ix = Some (d, b) ->
    Forall2 (typed_by ordered e) vs (body_types b) -> Forall2 P vs (body_types b) -> vb_check b vs = true -> unknown_ok b vs ->
    P (VVar ix (VRec vs)) (TItem i).
  Hypothesis HCatch : forall i vars d b vs, e i = IEnum vars (Some b) -> d < 2 ^ 64 -> ~ In d (map fst vars) ->
    Forall2 (typed_by ordered e) vs (body_types b) -> Forall2 P vs (body_types b) -> vb_check b vs = true -> unknown_ok b vs ->
    P (VCatch d (VRec vs)) (TItem i).
  Fixpoint has_type_ind2 v t (H : typed_by ordered e v t) {struct H} : P v t :=
    match H in typed_by _ _ v0 t0 return P v0 t0 with
    | TyUInt _ w n a => HUInt w n a
    | TySInt _ w z a => HSInt w z a
    | TyBool _ b => HBool b
    | TyChar _ c a => HChar c a
    | TyPhantom _ => HPhantom
    | TyStr _ t bs a b c => HStr t bs a b c
    | TyBytes _ t bs a b => HBytes t bs a b
    | TyArrB _ n t bs a b c => HArrB n t bs a b c
    | TyArr _ n t vs a b F => HArr n t vs a b F (Forall_map (fun v Hv => has_type_ind2 v t Hv) vs F)
    | TyVec _ t vs a F => HVec t vs a F (Forall_map (fun v Hv => has_type_ind2 v t Hv) vs F)
    | TySeq _ t vs F => HSeq t vs F (Forall_map (fun v Hv => has_type_ind2 v t Hv) vs F)
    | TySet _ t vs F a => HSet t vs F (Forall_map (fun v Hv => has_type_ind2 v t Hv) vs F) a
    | TyNone _ t => HNone t
    | TySome _ t v a => HSome t v a (has_type_ind2 v t a)
    | TyMap _ tk tv kvs F G a => HMap tk tv kvs F G (Forall_map (fun p Hv => has_type_ind2 (fst p) tk Hv) kvs F)
                                   (Forall_map (fun p Hv => has_type_ind2 (snd p) tv Hv) kvs G) a
    | TyTuple _ ts vs F => HTuple ts vs F (Forall2_map (fun v t Hv => has_type_ind2 v t Hv) vs ts F)
    | TyBox _ t v a => HBox t v a (has_type_ind2 v t a)
    | TyCopied _ t v a => HCopied t v a (has_type_ind2 v t a)
    | TyUnk _ fs a => HUnk fs a
    | TyNode _ n a => HNode n a
    | TyStruct _ i b vs a F c d => HStruct i b vs a F (Forall2_map (fun v t Hv => has_type_ind2 v t Hv) vs _ F) c d
    | TyVar _ i vars catch ix d b vs a a2 F c f => HVar i vars catch ix d b vs a a2 F (Forall2_map (fun v t Hv => has_type_ind2 v t Hv) vs _ F) c f
    | TyCatch _ i vars d b vs a a2 a3 F c f => HCatch i vars d b vs a a2 a3 F (Forall2_map (fun v t Hv => has_type_ind2 v t Hv) vs _ F) c f
    end.
End Ind.

(** ** Evaluation within limits *)
Section Ev.
  Variable cf : cfg.

  (** [m] returns [a], nests [n] contexts, collects [k] elements, copies [b]
      bytes. *)
  Definition ev {A} (n k b : N) (m : T A) (a : A) : Prop :=
    forall c, c_lev c + n <= cf_rec cf -> c_coll c + k <= cf_collect cf -> c_blob c + b <= cf_blob cf ->
      m c = (ROk a, mkC (c_lev c) (c_coll c + k) (c_blob c + b) (c_path c)).
  Lemma ev_ret {A} n (a : A) : ev n 0 0 (mret a) a.
  Proof. intros [l k b p] _ _ _. cbn. now rewrite !N.add_0_r. Qed.
  Lemma ev_weak {A} n n' k b (m : T A) a : n <= n' -> ev n k b m a -> ev n' k b m a.
  Proof. intros Hn H c H1 H2 H3. apply H; lia. Qed.
  Lemma ev_bind {A B} n k1 b1 k2 b2 (m : T A) (f : A -> T B) a r : ev n k1 b1 m a -> ev n k2 b2 (f a) r ->
    ev n (k1 + k2) (b1 + b2) (mbind m f) r.
  Proof.
    intros H1 H2 c L1 L2 L3. rewrite (mbind_ok _ _ _ _ _ (H1 c L1 ltac:(lia) ltac:(lia))).
    rewrite H2; cbn; try lia. now rewrite !N.add_assoc.
  Qed.
  Lemma ev_bind0 {A B} n k b (m : T A) (f : A -> T B) a r : ev n 0 0 m a -> ev n k b (f a) r -> ev n k b (mbind m f) r.
  Proof. intros H1 H2. rewrite <- (N.add_0_l k), <- (N.add_0_l b). eapply ev_bind; eauto. Qed.
  Lemma ev_map {A B} n k b (m : T A) (f : A -> B) a : ev n k b m a -> ev n k b (mbind m (fun x => mret (f x))) (f a).
  Proof. intros H1. rewrite <- (N.add_0_r k), <- (N.add_0_r b). eapply ev_bind; [exact H1|apply ev_ret]. Qed.
  Lemma ev_then {A B} n k b (m : T A) (f : A -> T B) a r : ev n k b m a -> ev n 0 0 (f a) r -> ev n k b (mbind m f) r.
  Proof. intros H1 H2. rewrite <- (N.add_0_r k), <- (N.add_0_r b). eapply ev_bind; eauto. Qed.
  Lemma ev_ctx {A B nm} n k b (m : T A) (f : A -> B) a : ev n k b m a ->
    ev (1 + n) k b (t_push cf nm ;; let* x := m in t_pop ;; mret (f x)) (f a).
  Proof.
    intros H [l kk bb pp] L1 L2 L3. cbn in L1, L2, L3. unfold mbind at 1, t_push. cbn [c_lev c_coll c_blob c_path].
    destruct (N.leb_spec (cf_rec cf) l); [lia|].
    rewrite (mbind_ok _ _ _ _ _ (H (mkC (l + 1) kk bb (nm :: pp)) ltac:(cbn; lia) ltac:(cbn; lia) ltac:(cbn; lia))).
    unfold mbind, t_pop, mmod, mret. cbn. replace (l + 1 - 1) with l by lia. reflexivity.
  Qed.
  Lemma ev_collect n : ev n 1 0 (t_collect cf) tt.
  Proof. intros [l k b p] L1 L2 L3. cbn in *. unfold t_collect. cbn. destruct (N.ltb_spec (cf_collect cf) (k + 1)); [lia|]. now rewrite N.add_0_r. Qed.
  Lemma ev_quota n x : ev n 0 x (t_quota cf x) tt.
  Proof. intros [l k b p] L1 L2 L3. cbn in *. unfold t_quota. cbn. destruct (N.ltb_spec (cf_blob cf) (b + x)); [lia|]. now rewrite N.add_0_r. Qed.
  Lemma ev_lift {A} n (a : A) : ev n 0 0 (t_lift (ROk a)) a.
  Proof. apply ev_ret. Qed.

  Inductive evl {A} (step : A -> N -> node -> T A) (n : N) : A -> list (N * node) -> N -> N -> A -> Prop :=
  | EvNil a : evl step n a [] 0 0 a
  | EvCons a tag nd a1 ks a2 k1 b1 k2 b2 : ev n k1 b1 (step a tag nd) a1 -> evl step n a1 ks k2 b2 a2 ->
      evl step n a ((tag, nd) :: ks) (k1 + k2) (b1 + b2) a2.
  Lemma evl_loop {A} (step : A -> N -> node -> T A) n a ks k b a' : evl step n a ks k b a' -> ev n k b (t_loop step a ks) a'.
  Proof. induction 1; cbn [t_loop]; [apply ev_ret|eapply ev_bind; eauto]. Qed.
  Lemma evl_app {A} (step : A -> N -> node -> T A) n a ks k b a' ks2 k2 b2 a2 : evl step n a ks k b a' -> evl step n a' ks2 k2 b2 a2 ->
    evl step n a (ks ++ ks2) (k + k2) (b + b2) a2.
  Proof.
    induction 1 as [a|a tag nd a1 ks a3 k1 b1 k3 b3 H1 H2 IH]; intros H; cbn [app]; [exact H|].
    rewrite <- !N.add_assoc. eapply EvCons; eauto.
  Qed.
  Lemma evl_weak {A} (step : A -> N -> node -> T A) n n' a ks k b a' : n <= n' -> evl step n a ks k b a' -> evl step n' a ks k b a'.
  Proof. intros Hn. induction 1; econstructor; eauto using ev_weak. Qed.
  Lemma evl_one {A} (step : A -> N -> node -> T A) n a tag nd k b a' : ev n k b (step a tag nd) a' -> evl step n a [(tag, nd)] k b a'.
  Proof. intros H. rewrite <- (N.add_0_r k), <- (N.add_0_r b). econstructor; [exact H|constructor]. Qed.

  (** ** Bodies *)
  Lemma step_known fs unk i nm d tag ua : find_tag tag fs = Some (i, nm, d) ->
    forall n a ks k b a', evl (t_field d) n a ks k b a' -> Forall (fun p => fst p = tag) ks ->
    forall accs, nth i accs (AOpt None) = a -> (i < List.length accs)%nat ->
    exists accs', evl (t_step cf fs unk) (1 + n) (accs, ua) ks k b (accs', ua) /\
      (ks = [] /\ accs' = accs \/ accs' = upd i a' accs).
  Proof.
    intros Hf n a ks k b a' H. induction H as [a|a tag0 nd a1 ks a2 k1 b1 k2 b2 H1 H2 IH]; intros Ht accs Ha Hi.
    - exists accs. split; [constructor|]. left. auto.
    - inversion Ht as [|? ? E Ht']; subst. cbn in H1. 
      assert (Hlen : List.length (upd i a1 accs) = List.length accs).
      { clear. revert i. induction accs as [|x accs IH]; intros [|i]; cbn; auto. }
      assert (Hnth : nth i (upd i a1 accs) (AOpt None) = a1).
      { clear - Hi. revert i Hi. induction accs as [|x accs IH]; intros [|i] Hi; cbn in *; auto; try lia. apply IH. lia. }
      destruct (IH Ht' (upd i a1 accs) Hnth ltac:(lia)) as (accs' & Hl & Hc). exists accs'. split.
      + econstructor; [|exact Hl]. unfold t_step. cbn [fst] in *. rewrite Hf.
        apply (ev_ctx n k1 b1 _ (fun x => (upd i x accs, ua))). exact H1.
      + right. destruct Hc as [[-> ->]| ->].
        * inversion H2; subst. reflexivity.
        * clear. revert i. induction accs as [|x accs IH]; intros [|i]; cbn; auto. now rewrite IH.
  Qed.
  Lemma step_unk fs nm d accs n a ks k b a' : evl (t_field d) n a ks k b a' ->
    Forall (fun p => find_tag (fst p) fs = None) ks ->
    evl (t_step cf fs (Some (nm, d))) (1 + n) (accs, a) ks k b (accs, a').
  Proof.
    intros H. induction H as [a|a tag nd a1 ks a2 k1 b1 k2 b2 H1 H2 IH]; intros Ht; [constructor|].
    inversion Ht as [|? ? E Ht']; subst. cbn [fst] in E. econstructor; [|apply IH, Ht'].
    unfold t_step. rewrite E. apply (ev_ctx n k1 b1 _ (fun x => (accs, x))). exact H1.
  Qed.
  Lemma finish_one {nm} n d a v : ev n 0 0 (t_fin d a) v -> ev (1 + n) 0 0 (t_finish_one cf nm d a) v.
  Proof. intros H. unfold t_finish_one. apply (ev_ctx n 0 0 _ (fun x => x)). exact H. Qed.
  Lemma finish_all n fs : forall accs vs, Forall2 (fun f p => ev n 0 0 (t_fin (snd f) (fst p)) (snd p)) fs (combine accs vs) ->
    List.length accs = List.length fs -> List.length vs = List.length fs ->
    ev (1 + n) 0 0 (t_finish_all cf fs accs) vs.
  Proof.
    induction fs as [|[[nm tg] d] fs IH]; intros [|a accs] [|v vs] H H1 H2; try discriminate; cbn [t_finish_all].
    - apply ev_ret.
    - cbn [combine] in H. inversion H; subst. cbn in *. eapply ev_bind0; [apply finish_one; eassumption|].
      apply ev_map with (f := fun l => v :: l). apply IH; auto.
  Qed.
  Lemma body_default d n ks k b a v : evl (t_field d) n (t_init d) ks k b a -> Forall (fun p => fst p = 1) ks ->
    ev n 0 0 (t_fin d a) v -> ev (1 + n) k b (t_body_default cf d ks) v.
  Proof.
    intros H Ht Hf. unfold t_body_default, t_des_body.
    destruct (step_known [("top"%string, 1, d)] None 0 "top"%string d 1 (AOpt None) eq_refl n _ _ _ _ _ H Ht [t_init d] eq_refl ltac:(cbn; lia))
      as (accs' & Hl & Hc).
    assert (Ha : accs' = [a]).
    { destruct Hc as [[-> ->]| ->]; [inversion H; subst|]; reflexivity. }
    subst accs'. eapply ev_then with (a := [v]); [|apply ev_ret].
    eapply ev_then; [apply evl_loop; exact Hl|]. cbn [fst t_finish_all].
    eapply ev_bind0 with (a := [v]); [|apply ev_ret].
    eapply ev_bind0; [apply finish_one; exact Hf|]. eapply ev_bind0; apply ev_ret.
  Qed.
End Ev.

Section Slots.
  Variable cf : cfg.

  (** Fields [fs] read from the lists of occurrences [kss] give [vs]. *)
  Inductive slots (n : N) : list tfdict -> list (list (N * node)) -> list value -> N -> N -> list acc -> Prop :=
  | SlNil : slots n [] [] [] 0 0 []
  | SlCons nm tag d fs ks kss v vs k b k' b' a accs :
      evl cf (t_field d) n (t_init d) ks k b a -> ev cf n 0 0 (t_fin d a) v -> Forall (fun p => fst p = tag) ks ->
      slots n fs kss vs k' b' accs -> slots n ((nm, tag, d) :: fs) (ks :: kss) (v :: vs) (k + k') (b + b') (a :: accs).

  Definition tags (fs : list tfdict) : list N := map (fun f => snd (fst f)) fs.
  Lemma find_tag_at tag nm d fs1 fs2 : ~ In tag (tags fs1) ->
    find_tag tag (fs1 ++ (nm, tag, d) :: fs2) = Some (List.length fs1, nm, d).
  Proof.
    induction fs1 as [|[[nm1 t1] d1] fs1 IH]; cbn [app find_tag tags map List.length In].
    - intros _. now rewrite N.eqb_refl.
    - intros H. destruct (N.eqb_spec t1 tag); [cbn in H; tauto|]. rewrite IH; [reflexivity|]. cbn in H. tauto.
  Qed.
  Lemma upd_mid {A} (l1 : list A) x y l2 : upd (List.length l1) x (l1 ++ y :: l2) = l1 ++ x :: l2.
  Proof. induction l1 as [|z l1 IH]; cbn; [reflexivity|]. now rewrite IH. Qed.
  Lemma slots_run n unk ua fs2 kss vs k b accs2 : slots n fs2 kss vs k b accs2 ->
    forall fs1 accs1, NoDup (tags (fs1 ++ fs2)) -> List.length accs1 = List.length fs1 ->
    evl cf (t_step cf (fs1 ++ fs2) unk) (1 + n) (accs1 ++ t_inits fs2, ua) (List.concat kss) k b (accs1 ++ accs2, ua).
  Proof.
    induction 1 as [|nm tag d fs ks kss v vs k b k' b' a accs H1 H2 H3 H4 IH]; intros fs1 accs1 Hnd Hlen; cbn [List.concat t_inits map].
    - constructor.
    - assert (Hf : find_tag tag (fs1 ++ (nm, tag, d) :: fs) = Some (List.length fs1, nm, d)).
      { apply find_tag_at. unfold tags in Hnd. rewrite map_app in Hnd. cbn [map fst snd] in Hnd. apply NoDup_remove_2 in Hnd.
        intros Hin. apply Hnd. apply in_or_app. now left. }
      eapply evl_app.
      + destruct (step_known cf _ unk _ _ _ _ ua Hf n _ _ _ _ _ H1 H3 (accs1 ++ t_init d :: t_inits fs)) as (accs' & Hl & Hc).
        { rewrite <- Hlen, app_nth2, Nat.sub_diag by lia. reflexivity. }
        { rewrite app_length. cbn. lia. }
        assert (E : accs' = accs1 ++ a :: t_inits fs).
        { destruct Hc as [[-> ->]| ->].
          - inversion H1; subst. reflexivity.
          - rewrite <- Hlen. apply upd_mid. }
        subst accs'. exact Hl.
      + specialize (IH (fs1 ++ [(nm, tag, d)]) (accs1 ++ [a])). rewrite <- !app_assoc in IH. cbn [app] in IH.
        apply IH; [exact Hnd|]. rewrite !app_length. cbn. lia.
  Qed.
  Lemma slots_finish n fs kss vs k b accs : slots n fs kss vs k b accs -> ev cf (1 + n) 0 0 (t_finish_all cf fs accs) vs.
  Proof.
    induction 1 as [|nm tag d fs ks kss v vs k b k' b' a accs H1 H2 H3 H4 IH]; cbn [t_finish_all]; [apply ev_ret|].
    eapply ev_bind0; [apply finish_one; exact H2|]. apply ev_map with (f := fun l => v :: l). exact IH.
  Qed.
  Lemma slots_len n fs kss vs k b accs : slots n fs kss vs k b accs -> List.length vs = List.length fs.
  Proof. induction 1; cbn; auto. Qed.
  Lemma body_none l fs kss vs k b accs : slots (maxN l) fs kss vs k b accs -> NoDup (tags fs) -> List.length l = List.length fs ->
    ev cf (up l) k b (t_des_body cf fs None (List.concat kss)) vs.
  Proof.
    intros H Hnd Hl. destruct l as [|x l].
    - destruct fs; [|discriminate]. inversion H; subst. cbn [List.concat t_des_body]. unfold t_des_body. cbn [t_loop].
      eapply ev_bind0; [apply ev_ret|]. eapply ev_bind0; apply ev_ret.
    - unfold t_des_body. cbn [up].
      eapply ev_then; [apply evl_loop; apply (slots_run _ None (AOpt None) _ _ _ _ _ _ H [] []); auto|]. cbn [fst app].
      eapply ev_bind0; [eapply slots_finish; exact H|]. apply ev_ret.
  Qed.
  Lemma body_some n fs kss vs k b accs nm d ks k' b' a v : slots n fs kss vs k b accs -> NoDup (tags fs) ->
    evl cf (t_field d) n (t_init d) ks k' b' a -> ev cf n 0 0 (t_fin d a) v -> Forall (fun p => ~ In (fst p) (tags fs)) ks ->
    ev cf (1 + n) (k + k') (b + b') (t_des_body cf fs (Some (nm, d)) (List.concat kss ++ ks)) (vs ++ [v]).
  Proof.
    intros H Hnd H1 H2 H3. unfold t_des_body.
    eapply ev_then.
    - apply evl_loop. eapply evl_app.
      + apply (slots_run _ (Some (nm, d)) (t_init d) _ _ _ _ _ _ H [] []); auto.
      + apply step_unk; [exact H1|]. eapply Forall_impl; [|exact H3]. intros [tg nd] Hn. cbn in *.
        destruct (find_tag tg fs) as [[[i nm'] d']|] eqn:E; [|reflexivity]. apply find_tag_some in E.
        exfalso. apply Hn. unfold tags.
        apply nth_error_In in E. apply (in_map (fun f : string * N * tdict => snd (fst f))) in E. exact E.
    - cbn [fst snd app]. eapply ev_bind0; [eapply slots_finish; exact H|].
      apply ev_map with (f := fun x => vs ++ [x]). apply finish_one. exact H2.
  Qed.
End Slots.

(** ** Dictionaries *)
Section Reads.
  Variable cf : cfg.
  Record reads (d : tdict) (nd : needs) (k b : N) (dc : docs) (v : value) (okb : Prop) (fuel : N) : Prop := mkReads {
    r_elem : n_elem nd < fuel -> forall tag, ev cf (n_elem nd) k b (t_elem d tag (x_elem dc)) v;
    r_field : n_field nd < fuel -> forall tag, exists a,
      evl cf (t_field d) (n_field nd) (t_init d) (x_field dc tag) k b a /\ ev cf (n_field nd) 0 0 (t_fin d a) v;
    r_body : n_body nd < fuel -> okb -> ev cf (n_body nd) k b (t_body d (x_body dc)) v
  }.

  Lemma reads_unary conv n k b nd v okb fuel : (n < fuel -> forall tag, ev cf n k b (conv tag nd) v) ->
    reads (t_unary cf conv) (need_single n) k b (doc_single nd) v okb fuel.
  Proof.
    intros H. constructor; cbn [need_single doc_single n_elem n_field n_body x_elem x_field x_body].
    - intros Hf tag. cbn [t_elem t_unary t_with_default_body]. unfold t_opt_field.
      eapply ev_then with (a := AOpt (Some v)); [|apply ev_ret]. apply ev_map with (f := fun v => AOpt (Some v)). now apply H.
    - intros Hf tag. exists (AOpt (Some v)). split; [|apply ev_ret]. apply evl_one. cbn [t_field t_init t_unary t_with_default_body].
      unfold t_opt_field. apply ev_map with (f := fun v => AOpt (Some v)). now apply H.
    - intros Hf _. apply body_default with (a := AOpt (Some v)); [|repeat constructor|apply ev_ret].
      apply evl_one. cbn [t_field t_init t_unary t_with_default_body].
      unfold t_opt_field. apply ev_map with (f := fun v => AOpt (Some v)). apply H. lia.
  Qed.
  Lemma reads_wrapped d items k b ns v okb fuel :
    (maxN items < fuel -> forall tag, exists a, evl cf (t_field d) (maxN items) (t_init d) (map (fun n => (tag, n)) ns) k b a /\
       ev cf (maxN items) 0 0 (t_fin d a) v) ->
    reads (t_wrapped cf d) (need_coll items) k b (doc_coll ns) v okb fuel.
  Proof.
    intros H. assert (Hb : 1 + maxN items < fuel -> ev cf (1 + maxN items) k b (t_body_default cf d (map (fun n => (1, n)) ns)) v).
    { intros Hf. destruct (H ltac:(lia) 1) as (a & H1 & H2). eapply body_default; eauto.
      apply Forall_forall. intros p Hp. apply in_map_iff in Hp. destruct Hp as (x & <- & _). reflexivity. }
    constructor; cbn [need_coll doc_coll n_elem n_field n_body x_elem x_field x_body].
    - intros Hf tag. cbn [t_elem t_wrapped hdr_node to_struct kids]. eapply ev_bind0; [apply ev_lift|]. now apply Hb.
    - exact H.
    - intros Hf _. now apply Hb.
  Qed.

  (** A thing with a body of its own. *)
  Lemma reads_struct too body elem n k b dc v (okb : Prop) fuel :
    n_elem n = n_field n -> (forall tag, x_field dc tag = [(tag, x_elem dc)]) ->
    (n_elem n < fuel -> forall tag, ev cf (n_elem n) k b (elem tag (x_elem dc)) v) ->
    (n_body n < fuel -> okb -> ev cf (n_body n) k b (body (x_body dc)) v) ->
    reads (t_struct too body elem) n k b dc v okb fuel.
  Proof.
    intros Hn Hx He Hb. constructor; cbn [t_struct t_elem t_field t_init t_fin t_body].
    - exact He.
    - intros Hf tag. exists (AOpt (Some v)). split; [|apply ev_ret]. rewrite Hx. apply evl_one. unfold t_opt_field.
      apply ev_map with (f := fun v => AOpt (Some v)). rewrite <- Hn in *. now apply He.
    - exact Hb.
  Qed.
End Reads.

Section Ctx2.
  Variable cf : cfg.
  Lemma ev_ctx2 {A B nm} n k b (m : T A) (g : A -> T B) a r : ev cf n k b m a -> ev cf (1 + n) 0 0 (g a) r ->
    ev cf (1 + n) k b (t_push cf nm ;; let* x := m in t_pop ;; g x) r.
  Proof.
    intros H Hg.
    assert (Hx : ev cf (1 + n) k b (mbind (t_push cf nm ;; let* x := m in t_pop ;; mret x) g) r).
    { eapply ev_then; [apply (ev_ctx cf n k b m (fun x => x) a H)|exact Hg]. }
    intros c L1 L2 L3. rewrite <- (Hx c L1 L2 L3).
    clear. unfold mbind, mret. destruct (t_push cf nm c) as [[|? | |] c1]; try reflexivity.
    destruct (m c1) as [[|? | |] c2]; try reflexivity.
  Qed.
End Ctx2.

Section Nodes.
  Variable cf : cfg.
  Definition nb (zc : bool) (n : N) : N := if zc then 0 else n.
  Lemma nb_add zc a b : nb zc (a + b) = nb zc a + nb zc b.
  Proof. destruct zc; reflexivity. Qed.
  Notation ustep zc f := (fun (fs : list (N * node)) (tag : N) (n : node) =>
          t_push cf (tag_name tag) ;; t_collect cf ;;
          let* n' := t_unk_node cf zc (t_unk_body cf zc f) n in
          t_pop ;;
          mret (fs ++ [(tag, n')])).
  Definition unk_reads (zc : bool) (n : node) : Prop := forall fuel, node_need n < N.of_nat fuel ->
    ev cf (node_need n) (node_count n) (nb zc (node_bytes n)) (t_unk_node cf zc (t_unk_body cf zc fuel) n) n.
  Lemma unk_fields zc m f fs : Forall (fun p => unk_reads zc (snd p)) fs -> m < N.of_nat f ->
    maxN (map (fun p => node_need (snd p)) fs) <= m ->
    forall fs0, evl cf (ustep zc f) (1 + m) fs0 fs (nodes_count fs) (nb zc (nodes_bytes fs)) (fs0 ++ fs).
  Proof.
    intros H Hf. induction H as [|[tag n] fs Hn HF IH]; intros Hm fs0.
    - rewrite app_nil_r. destruct zc; constructor.
    - unfold nodes_count, nodes_bytes in *. cbn [map sumN fold_right snd maxN] in *.
      rewrite nb_add. replace (fs0 ++ (tag, n) :: fs) with ((fs0 ++ [(tag, n)]) ++ fs) by now rewrite <- app_assoc.
      assert (Hm' : N.max (node_need n) (maxN (map (fun p => node_need (snd p)) fs)) <= m) by exact Hm.
      econstructor; [|apply IH; lia].
      intros c L1 L2 L3.
      assert (E : ev cf m (1 + node_count n) (0 + nb zc (node_bytes n))
                 (t_collect cf ;; t_unk_node cf zc (t_unk_body cf zc f) n) n).
      { eapply ev_bind; [apply ev_collect|]. eapply ev_weak; [|apply Hn]; cbn; lia. }
      rewrite N.add_0_l in E.
      rewrite <- (ev_ctx (nm := tag_name tag) cf m _ _ _ (fun x => fs0 ++ [(tag, x)]) n E c L1 L2 L3).
      unfold mbind. destruct (t_push cf (tag_name tag) c) as [[|? | |] c1]; try reflexivity.
      destruct (t_collect cf c1) as [[|? | |] c2]; reflexivity.
  Qed.
  Lemma unk_body zc fs fuel : Forall (fun p => unk_reads zc (snd p)) fs ->
    up (map (fun p => node_need (snd p)) fs) < N.of_nat fuel ->
    ev cf (up (map (fun p => node_need (snd p)) fs)) (nodes_count fs) (nb zc (nodes_bytes fs)) (t_unk_body cf zc fuel fs) fs.
  Proof.
    intros H Hf. destruct fuel as [|f]; [lia|]. cbn [t_unk_body]. apply evl_loop. destruct fs as [|p fs].
    - destruct zc; constructor.
    - pose proof (unk_fields zc (maxN (map (fun q => node_need (snd q)) (p :: fs))) f (p :: fs) H) as E.
      cbn [map up] in *. apply (E ltac:(lia) (N.le_refl _) []).
  Qed.
  Lemma ev_cow zc n b : ev cf n 0 (nb zc (lenN b)) (t_cow_bytes cf zc (NBlob b)) b.
  Proof.
    destruct zc; cbn [t_cow_bytes nb].
    - unfold t_read_borrowed. cbn. eapply ev_bind0; apply ev_ret.
    - unfold t_read_owned. cbn [hdr_node to_blob t_lift blob_of]. eapply ev_bind0; [apply ev_ret|].
      eapply ev_then; [apply ev_quota|apply ev_ret].
  Qed.
  Lemma unk_node zc n : unk_reads zc n.
  Proof.
    induction n as [x|b|fs IH|d fs IH] using node_ind'; intros fuel Hf; cbn [t_unk_node node_need node_count node_bytes] in *.
    - destruct zc; apply ev_ret.
    - apply ev_map with (f := NBlob). apply ev_cow.
    - apply ev_map with (f := NStruct). now apply unk_body.
    - apply ev_map with (f := NEnum d). now apply unk_body.
  Qed.
End Nodes.

Section RT.
  Variable cf : cfg.
  Variable e : env.
  Hypothesis Hwf : env_wf e.
  Hypothesis Hnu : cf_ignore cf = true \/
    forall i b nm t', match e i with
                      | IStruct b0 => b = b0
                      | IEnum vars catch => In b (map snd vars) \/ catch = Some b
                      end -> vb_special b = SpDeleg nm t' -> unit_like t' = false.

  (** A listing and the value it is a listing of: the document of the listing
      is read as the value. *)
  Definition rt (p : value * value) (t : ty) : Prop := shape_wf t -> forall zc uf f, deserialisable e zc t ->
    reads cf (t_dict_of cf uf (t_item_dict cf e uf f) zc t) (need e (fst p) t) (coll_count (fst p)) (copied e (fst p) zc t) (doc e (fst p) t) (snd p)
      (cf_ignore cf = true \/ unit_like t = false) (N.min (N.of_nat uf) (N.of_nat f)).

  Lemma doc_box v t : doc e v (TBox t) = doc e v t.
  Proof. destruct v; reflexivity. Qed.
  Lemma doc_copied v t : doc e v (TCopied t) = doc e v t.
  Proof. destruct v; reflexivity. Qed.
  Lemma field_tags tag t : unknown_like t = false -> forall v, Forall (fun p => fst p = tag) (x_field (doc e v t) tag).
  Proof.
    assert (Hs : forall n, Forall (fun p : N * node => fst p = tag) (x_field (doc_single n) tag)).
    { intros n. repeat constructor. }
    assert (Hst : forall n, Forall (fun p : N * node => fst p = tag) (x_field (doc_struct n) tag)).
    { intros n. repeat constructor. }
    assert (Hc : forall ns, Forall (fun p : N * node => fst p = tag) (x_field (doc_coll ns) tag)).
    { intros ns. apply Forall_forall. intros p Hp. apply in_map_iff in Hp. destruct Hp as (x & <- & _). reflexivity. }
    induction t; cbn [unknown_like]; intros Hu v; rewrite ?doc_box, ?doc_copied; auto; try discriminate; destruct v; cbn [doc]; unfold doc_int; auto.
    all: cbv zeta; repeat match goal with |- Forall _ (x_field (match ?x with _ => _ end) _) => destruct x eqn:? end; auto;
      unfold doc_int; auto; repeat constructor.
  Qed.

  Lemma Forall2_app_r {A B} (R : A -> B -> Prop) l m1 m2 : Forall2 R l (m1 ++ m2) ->
    exists l1 l2, l = l1 ++ l2 /\ Forall2 R l1 m1 /\ Forall2 R l2 m2.
  Proof. intros H. apply Forall2_app_inv_r in H. destruct H as (l1 & l2 & H1 & H2 & ->). eauto. Qed.
  Lemma zipw_len {A B C} (f : A -> B -> C) l : forall m, List.length l = List.length m -> List.length (zipw f l m) = List.length l.
  Proof. induction l as [|x l IH]; intros [|y m] H; cbn in *; auto; try discriminate. Qed.
  Lemma app_inj_len {A} (l1 : list A) : forall m1 l2 m2, l1 ++ l2 = m1 ++ m2 -> List.length l1 = List.length m1 -> l1 = m1 /\ l2 = m2.
  Proof.
    induction l1 as [|x l1 IH]; intros [|y m1] l2 m2 E H; try discriminate H; cbn in E; [auto|].
    injection E as -> E. injection H as H. destruct (IH _ _ _ E H) as [-> ->]. auto.
  Qed.
  Lemma Forall_pick {A} {P Q : A -> Prop} l : Forall P l -> (forall x, In x l -> P x -> Q x) -> Forall Q l.
  Proof. intros H. rewrite Forall_forall in *. auto. Qed.

  Section Mk.
    Variables (zc : bool) (uf f : nat).
    Let mk := t_dict_of cf uf (t_item_dict cf e uf f) zc.
    Let fuel := N.min (N.of_nat uf) (N.of_nat f).

    Lemma mk_slots n fs : n < fuel -> forall ps, Forall2 rt ps (map fd_ty fs) ->
      Forall (fun f => shape_wf (fd_ty f) /\ unknown_like (fd_ty f) = false) fs ->
      (forall t, In t (map fd_ty fs) -> deserialisable e zc t) ->
      maxN (map n_field (zipw (fun x t => need e x t) (map fst ps) (map fd_ty fs))) <= n ->
      exists accs kss, slots cf n (t_fdicts mk fs) kss (map snd ps)
        (sumN (map coll_count (map fst ps))) (sumN (zipw (fun x t => copied e x zc t) (map fst ps) (map fd_ty fs))) accs /\
        List.concat kss = doc_fields fs (zipw (fun x t => doc e x t) (map fst ps) (map fd_ty fs)).
    Proof.
      intros Hn. induction fs as [|[nm tag t] fs IH]; intros ps H Hs Hd Hm; cbn [map fd_ty] in *.
      - inversion H; subst. exists [], []. split; [constructor|reflexivity].
      - inversion H as [|[v' v] ? ps' ? Hv Hvs]; subst. inversion Hs as [|? ? [Hs1 Hs2] Hs3]; subst. cbn [zipw map maxN fold_right fd_ty fst snd] in *.
        fold (maxN (map n_field (zipw (fun x t => need e x t) (map fst ps') (map fd_ty fs)))) in Hm.
        destruct (IH ps' Hvs Hs3 ltac:(intros; apply Hd; now right) ltac:(lia)) as (accs & kss & Hl & Hc).
        destruct (Hv Hs1 zc uf f (Hd t (or_introl eq_refl))) as [_ Hf _]. cbn [fst snd] in Hf. fold mk in Hf. fold fuel in Hf.
        destruct (Hf ltac:(lia) tag) as (a & Ha & Hfin).
        exists (a :: accs), (x_field (doc e v' t) tag :: kss). split.
        + unfold t_fdicts. cbn [map fd_name fd_tag fd_ty sumN fold_right]. constructor.
          * eapply evl_weak; [|exact Ha]. lia.
          * eapply ev_weak; [|exact Hfin]. lia.
          * now apply field_tags.
          * exact Hl.
        + cbn [List.concat doc_fields fd_tag]. now rewrite Hc.
    Qed.
    Lemma fdicts_tags' fs : tags (t_fdicts mk fs) = map fd_tag fs.
    Proof. unfold tags, t_fdicts. rewrite map_map. apply map_ext. reflexivity. Qed.

    Lemma doc_fields_app fs ds1 ds2 : List.length ds1 = List.length fs -> doc_fields fs (ds1 ++ ds2) = doc_fields fs ds1.
    Proof.
      revert ds1. induction fs as [|x fs IH]; intros [|d ds1] H; cbn in *; try discriminate.
      - destruct ds2; reflexivity.
      - now rewrite IH by lia.
    Qed.
    Lemma unk_doc {ordered} v t : typed_by ordered e v t -> unknown_like t = true ->
      exists fs, v = VUnk fs /\ (forall tag, x_field (doc e v t) tag = fs) /\ x_body (doc e v t) = fs.
    Proof.
      revert v. induction t; intros v H Hu; try discriminate Hu; inversion H; subst;
        try match goal with X : is_str _ |- _ => destruct X as [X|[X|X]]; discriminate X end;
        try match goal with X : is_bytes _ |- _ => destruct X as [X|[X|(? & X & _)]]; discriminate X end.
      - rewrite doc_box. now apply IHt.
      - rewrite doc_copied. now apply IHt.
      - exists fs. repeat split.
    Qed.

    (** The record of a struct or variant. *)
    Lemma vbody_reads {ordered} b ps : vbody_wf b -> fields_wf b ->
      (cf_ignore cf = true \/ forall nm t', vb_special b = SpDeleg nm t' -> unit_like t' = false) ->
      Forall2 (typed_by ordered e) (map fst ps) (body_types b) -> Forall2 rt ps (body_types b) -> vb_check b (map snd ps) = true -> unknown_ok b (map fst ps) ->
      (forall t, In t (body_types b) -> deserialisable e zc t) ->
      need_vbody b (zipw (fun x t => need e x t) (map fst ps) (body_types b)) < 1 + fuel ->
      ev cf (need_vbody b (zipw (fun x t => need e x t) (map fst ps) (body_types b))) (sumN (map coll_count (map fst ps)))
        (sumN (zipw (fun x t => copied e x zc t) (map fst ps) (body_types b)))
        (t_vbody cf mk b (doc_record b (zipw (fun x t => doc e x t) (map fst ps) (body_types b)))) (VRec (map snd ps)).
    Proof.
      intros (Hnd & _ & Hsp) (Hfw & Hspw) Hu Hty Hrt Hck Hunk Hdes Hneed. unfold t_vbody, doc_record, need_vbody in *.
      assert (Hcon : forall n, ev cf n 0 0 (t_construct b (map snd ps)) (VRec (map snd ps))) by (intros n; unfold t_construct; rewrite Hck; apply ev_ret).
      unfold body_types in *. apply Forall2_app_r in Hrt. destruct Hrt as (ps1 & ps2 & -> & Hrt1 & Hrt2).
      rewrite !map_app in *.
      assert (Hty12 : Forall2 (typed_by ordered e) (map fst ps1) (map fd_ty (vb_fields b)) /\ Forall2 (typed_by ordered e) (map fst ps2) (sp_types (vb_special b))).
      { pose proof (Forall2_len _ _ _ Hrt1) as Hl1. apply Forall2_app_r in Hty. destruct Hty as (x1 & x2 & E & H1 & H2).
        pose proof (Forall2_len _ _ _ H1). assert (List.length (map fst ps1) = List.length x1) by (rewrite map_length; lia).
        apply app_inj_len in E; [|assumption]. destruct E as [-> ->]. auto. }
      destruct Hty12 as [Hty1 Hty2].
      pose proof (Forall2_len _ _ _ Hty1) as Hlen1. pose proof (Forall2_len _ _ _ Hty2) as Hlen2. assert (Hlen1' : List.length (map fst ps1) = List.length (vb_fields b)) by (rewrite Hlen1; apply map_length).
      rewrite !zipw_app in * by exact Hlen1.
      set (ns := zipw (fun x t => need e x t) (map fst ps1) (map fd_ty (vb_fields b))) in *.
      assert (Hns : List.length ns = List.length (vb_fields b)) by (unfold ns; rewrite zipw_len by exact Hlen1; lia).
      assert (Hds : List.length (zipw (fun x t => doc e x t) (map fst ps1) (map fd_ty (vb_fields b))) = List.length (vb_fields b))
        by (rewrite zipw_len by exact Hlen1; lia).
      rewrite doc_fields_app by exact Hds.
      assert (Hsk : skipn (List.length (vb_fields b)) (zipw (fun x t => doc e x t) (map fst ps1) (map fd_ty (vb_fields b)) ++
           zipw (fun x t => doc e x t) (map fst ps2) (sp_types (vb_special b))) = zipw (fun x t => doc e x t) (map fst ps2) (sp_types (vb_special b))).
      { rewrite skipn_app, skipn_all2 by (rewrite Hds; apply le_n). now rewrite Hds, Nat.sub_diag. }
      rewrite Hsk. clear Hsk.
      assert (Hd1 : forall t, In t (map fd_ty (vb_fields b)) -> deserialisable e zc t) by (intros; apply Hdes, in_or_app; now left).
      assert (Htg : NoDup (tags (t_fdicts mk (vb_fields b)))) by (rewrite fdicts_tags'; exact Hnd).
      destruct (vb_special b) as [|nm t'|nm t'] eqn:Esp; cbn [sp_types] in *.
      - inversion Hrt2; subst. cbn [map zipw flat_map] in *. rewrite !app_nil_r in *.
        eapply ev_then; [|apply Hcon].
        assert (Hl : List.length (map n_field ns) = List.length (t_fdicts mk (vb_fields b))) by (unfold t_fdicts; rewrite !map_length; exact Hns).
        assert (Hcase : vb_fields b = [] \/ List.length (vb_fields b) <> O) by (destruct (vb_fields b); cbn; auto).
        destruct Hcase as [Ef|Ef].
        { unfold ns in *. rewrite Ef in *. cbn [map] in *. inversion Hrt1; subst. cbn. unfold t_des_body. cbn. eapply ev_bind0; [apply ev_ret|]. eapply ev_bind0; apply ev_ret. }
        assert (Hup : maxN (map n_field ns) < fuel).
        { assert (Hx : up (map n_field ns) = 1 + maxN (map n_field ns)).
          { destruct (map n_field ns) eqn:E; [|reflexivity]. apply (f_equal (@List.length N)) in E. rewrite map_length, Hns in E. now destruct Ef. }
          rewrite Hx in Hneed. clear - Hneed. lia. }
        destruct (mk_slots (maxN (map n_field ns)) (vb_fields b) Hup ps1 Hrt1 Hfw Hd1 (N.le_refl _)) as (accs & kss & Hs & Hc).
        rewrite <- Hc. eapply body_none; eauto.
      - (* delegation *)
        rewrite Hsp in *. inversion Hrt1; subst. inversion Hrt2 as [|[v w] ? ? ? Hrv Hvs]; subst. inversion Hvs; subst. clear Hvs.
        unfold ns in *. cbn [fst snd map zipw app List.length firstn skipn doc_fields flat_map up t_fdicts maxN fold_right sumN sp_types] in *.
        destruct (Hrv Hspw zc uf f (Hdes t' ltac:(now left))) as [_ _ Hb]. cbn [fst snd] in Hb. fold mk in Hb. fold fuel in Hb.
        rewrite app_nil_r, !N.add_0_r in *. rewrite N.max_0_r in *.
        eapply ev_ctx2; [apply Hb; [lia|]|].
        + destruct Hu as [Hu|Hu]; [now left|right; eapply Hu; reflexivity].
        + cbn [t_finish_all t_inits map]. eapply ev_bind0; [apply ev_ret|]. apply Hcon.
      - (* unknown fields *)
        inversion Hrt2 as [|[v w] ? ? ? Hrv Hvs]; subst. inversion Hvs; subst. clear Hvs. cbn [map fst snd] in *.
        inversion Hty2 as [|? ? ? ? Hv _]; subst.
        cbn [zipw flat_map map] in *.
        destruct (unk_doc v t' Hv Hsp) as (ufs & -> & Hxf & Hxb). rewrite app_nil_r, Hxb.
        rewrite !map_app, !sumN_app. cbn [map sumN fold_right]. rewrite !N.add_0_r.
        assert (Hup : up (map n_field ns ++ [n_field (need e (VUnk ufs) t')]) = 1 + N.max (maxN (map n_field ns)) (n_field (need e (VUnk ufs) t'))).
        { assert (Hx : forall l x, up (l ++ [x]) = 1 + N.max (maxN l) x).
          { intros l x. destruct l as [|y l]; cbn [app up]; [cbn; lia|]. change (y :: l ++ [x]) with ((y :: l) ++ [x]). rewrite maxN_app. cbn. lia. }
          apply Hx. }
        rewrite map_app in *. cbn [map] in *. rewrite Hup in *.
        set (m := N.max (maxN (map n_field ns)) (n_field (need e (VUnk ufs) t'))) in *.
        destruct (mk_slots m (vb_fields b) ltac:(lia) ps1 Hrt1 Hfw Hd1 ltac:(unfold ns in *; lia)) as (accs & kss & Hs & Hc).
        rewrite <- Hc.
        destruct (Hrv Hspw zc uf f (Hdes t' ltac:(apply in_or_app; right; now left))) as [_ Hf _]. cbn [fst snd] in Hf. fold mk in Hf. fold fuel in Hf.
        destruct (Hf ltac:(lia) 0) as (a & Ha & Hfin). rewrite Hxf in Ha.
        eapply ev_then; [|apply Hcon].
        eapply body_some; eauto.
        + eapply evl_weak; [|exact Ha]. lia.
        + eapply ev_weak; [|exact Hfin]. lia.
        + rewrite fdicts_tags'. unfold unknown_ok in Hunk. rewrite Esp in Hunk. apply (Hunk Hsp). apply last_last.
    Qed.

    Lemma coll_evl ins t d ps m tag :
      (forall p, In p ps -> forall tg, ev cf m (coll_count (fst p)) (copied e (fst p) zc t) (t_elem d tg (x_elem (doc e (fst p) t))) (snd p)) ->
      forall vs0, evl cf (t_coll_field cf ins d) m (AList vs0) (map (fun n => (tag, n)) (map (fun x => x_elem (doc e x t)) (map fst ps)))
        (sumN (map (fun x => 1 + coll_count x) (map fst ps))) (sumN (map (fun x => copied e x zc t) (map fst ps)))
        (AList (fold_left (fun l v => ins v l) (map snd ps) vs0)).
    Proof.
      induction ps as [|[v w] ps IH]; intros H vs0; cbn [map sumN fold_right fold_left fst snd].
      - constructor.
      - econstructor.
        + unfold t_coll_field. rewrite <- (N.add_0_l (copied e v zc t)). eapply ev_bind; [apply ev_collect|].
          apply ev_map with (f := fun v => AList (ins v vs0)). apply (H (v, w)). now left.
        + apply IH. intros; apply H; now right.
    Qed.
  End Mk.

  Lemma reads_single d n k b nd v okb fuel :
    (n < fuel -> forall tag, ev cf n k b (t_elem d tag nd) v) ->
    (n < fuel -> forall tag, ev cf n k b (t_field d (t_init d) tag nd) (AOpt (Some v))) ->
    (forall n, ev cf n 0 0 (t_fin d (AOpt (Some v))) v) ->
    reads cf (t_with_default_body cf d) (need_single n) k b (doc_single nd) v okb fuel.
  Proof.
    intros H1 H2 H3. constructor; cbn [need_single doc_single n_elem n_field n_body x_elem x_field x_body t_with_default_body t_elem t_field t_init t_fin t_body].
    - exact H1.
    - intros Hf tag. exists (AOpt (Some v)). split; [|apply H3]. apply evl_one. now apply H2.
    - intros Hf _. apply body_default with (a := AOpt (Some v)); [|repeat constructor|apply H3].
      apply evl_one. apply H2. lia.
  Qed.
  Lemma reads_enum too mk vars catch body n k b nd v okb fuel :
    (n < fuel -> forall tag, ev cf n k b (t_enum_elem cf mk vars catch tag nd) v) ->
    reads cf (t_with_default_body cf (t_struct too body (t_enum_elem cf mk vars catch))) (need_single n) k b (doc_single nd) v okb fuel.
  Proof.
    intros H. apply reads_single; auto; cbn [t_struct t_elem t_field t_init t_fin].
    - intros Hf tag. unfold t_opt_field. apply ev_map with (f := fun v => AOpt (Some v)). now apply H.
    - intros m. apply ev_ret.
  Qed.
  Lemma reads_imp d nd k b dc v (P Q : Prop) fuel : (Q -> P) -> reads cf d nd k b dc v P fuel -> reads cf d nd k b dc v Q fuel.
  Proof. intros H [R1 R2 R3]. constructor; auto. Qed.

  Lemma ev_owned n b : ev cf n 0 (lenN b) (t_read_owned cf (NBlob b)) b.
  Proof.
    unfold t_read_owned. cbn [hdr_node to_blob t_lift blob_of]. eapply ev_bind0; [apply ev_ret|].
    eapply ev_then; [apply ev_quota|apply ev_ret].
  Qed.
  Lemma reads_string bs okb fuel : utf8_ok bs = true ->
    reads cf (t_unary cf (t_conv_string cf)) need_leaf 0 (lenN bs) (doc_single (NBlob bs)) (VStr bs) okb fuel.
  Proof.
    intros H. apply (reads_unary cf _ 0). intros _ tag. unfold t_conv_string. eapply ev_then; [apply ev_owned|]. rewrite H. apply ev_ret.
  Qed.
  Lemma reads_strref bs okb fuel : utf8_ok bs = true ->
    reads cf (t_unary cf t_conv_str_ref) need_leaf 0 0 (doc_single (NBlob bs)) (VStr bs) okb fuel.
  Proof.
    intros H. apply (reads_unary cf _ 0). intros _ tag. unfold t_conv_str_ref, t_read_borrowed. cbn [hdr_node to_blob t_lift blob_of].
    eapply ev_bind0 with (a := bs); [eapply ev_bind0; apply ev_ret|]. rewrite H. apply ev_ret.
  Qed.
  Lemma reads_bytesref bs okb fuel :
    reads cf (t_unary cf t_conv_bytes_ref) need_leaf 0 0 (doc_single (NBlob bs)) (VBytes bs) okb fuel.
  Proof.
    apply (reads_unary cf _ 0). intros _ tag. unfold t_conv_bytes_ref, t_read_borrowed. cbn [hdr_node to_blob t_lift blob_of].
    eapply ev_bind0 with (a := bs); [eapply ev_bind0; apply ev_ret|]. apply ev_ret.
  Qed.
  Lemma reads_vecu8 bs okb fuel :
    reads cf (t_vecu8 cf) need_leaf 0 (lenN bs) (doc_single (NBlob bs)) (VBytes bs) okb fuel.
  Proof.
    apply (reads_single _ 0); cbn [t_elem t_field t_init t_fin].
    - intros _ tag. eapply ev_map with (f := VBytes), ev_owned.
    - intros _ tag. unfold t_vecu8_field. apply ev_map with (f := fun bs => AOpt (Some (VBytes bs))), ev_owned.
    - intros n. apply ev_ret.
  Qed.

  Fixpoint tdecls (i : N) (ts : list ty) : list fdecl :=
    match ts with [] => [] | t :: r => mkF (tuple_name i) (i + 1) t :: tdecls (i + 1) r end.
  Lemma tdecls_ty i ts : map fd_ty (tdecls i ts) = ts.
  Proof. revert i. induction ts as [|t ts IH]; intros i; cbn; [reflexivity|]. now rewrite IH. Qed.
  Lemma tdecls_dict mk i ts : t_tuple_fields i (map mk ts) = t_fdicts mk (tdecls i ts).
  Proof. revert i. induction ts as [|t ts IH]; intros i; cbn; [reflexivity|]. now rewrite IH. Qed.
  Lemma tdecls_doc ds : forall i ts, List.length ds = List.length ts -> doc_fields (tdecls i ts) ds = doc_tuple (i + 1) ds.
  Proof. induction ds as [|d ds IH]; intros i [|t ts] H; try discriminate; cbn; [reflexivity|]. rewrite IH; auto. Qed.
  Lemma tdecls_tags i ts : NoDup (map fd_tag (tdecls i ts)).
  Proof.
    assert (Hlt : forall ts i x, In x (map fd_tag (tdecls i ts)) -> i < x).
    { clear. induction ts as [|t ts IH]; intros i x; cbn; [contradiction|]. intros [<-|H]; [lia|]. apply IH in H. lia. }
    revert i. induction ts as [|t ts IH]; intros i; cbn; constructor; auto. intros H. apply Hlt in H. lia.
  Qed.
  Lemma shape_tuple ts : fold_right (fun t P => (shape_wf t /\ unknown_like t = false) /\ P) True ts ->
    Forall (fun t => shape_wf t /\ unknown_like t = false) ts.
  Proof. induction ts; cbn; [constructor|]. intros [H1 H2]. constructor; auto. Qed.
  Lemma tuple_reads zc uf f ts ps : Forall (fun t => shape_wf t /\ unknown_like t = false) ts -> Forall2 rt ps ts ->
    (forall t, In t ts -> deserialisable e zc t) ->
    up (zipw (fun x t' => n_field (need e x t')) (map fst ps) ts) < 1 + N.min (N.of_nat uf) (N.of_nat f) ->
    ev cf (up (zipw (fun x t' => n_field (need e x t')) (map fst ps) ts)) (sumN (map coll_count (map fst ps))) (sumN (zipw (fun x t => copied e x zc t) (map fst ps) ts))
      (t_tuple_body cf (map (t_dict_of cf uf (t_item_dict cf e uf f) zc) ts) (doc_tuple 1 (zipw (fun x t => doc e x t) (map fst ps) ts))) (VRec (map snd ps)).
  Proof.
    intros Hs Hrt Hd Hn. pose proof (Forall2_len _ _ _ Hrt) as Hlen0. assert (Hlen : List.length (map fst ps) = List.length ts) by now rewrite map_length. unfold t_tuple_body. apply ev_map with (f := VRec).
    rewrite tdecls_dict, <- (tdecls_doc _ 0 ts) by (rewrite zipw_len; auto).
    assert (Hz : zipw (fun x t' => n_field (need e x t')) (map fst ps) ts = map n_field (zipw (fun x t => need e x t) (map fst ps) ts)).
    { clear. generalize (map fst ps) as vs. intros vs. revert ts. induction vs as [|v vs IH]; intros [|t ts]; cbn; auto. now rewrite IH. }
    assert (Hs' : Forall (fun f => shape_wf (fd_ty f) /\ unknown_like (fd_ty f) = false) (tdecls 0 ts)).
    { rewrite Forall_forall in *. intros x Hx. apply Hs. rewrite <- (tdecls_ty 0 ts). now apply in_map. }
    rewrite Hz in *. pose proof (mk_slots zc uf f (maxN (map n_field (zipw (fun x t => need e x t) (map fst ps) ts))) (tdecls 0 ts)) as Hsl.
    rewrite tdecls_ty in Hsl.
    destruct ps as [|[v w] ps]; [inversion Hrt; subst; cbn; unfold t_des_body; cbn; eapply ev_bind0; [apply ev_ret|]; eapply ev_bind0; apply ev_ret|].
    destruct ts as [|t ts]; [inversion Hrt|].
    set (l := map n_field (zipw (fun x t => need e x t) (map fst ((v, w) :: ps)) (t :: ts))) in *.
    assert (Hup : up l = 1 + maxN l) by reflexivity. rewrite Hup in Hn.
    destruct (Hsl ltac:(lia) ((v, w) :: ps) Hrt Hs' Hd (N.le_refl _)) as (accs & kss & H1 & H2).
    rewrite <- H2. eapply body_none; [exact H1| |].
    - rewrite fdicts_tags'. apply tdecls_tags.
    - unfold l, t_fdicts. rewrite !map_length, zipw_len by exact Hlen. rewrite Hlen.
      rewrite <- (map_length fd_ty), tdecls_ty. reflexivity.
  Qed.

  Lemma item_des zc i t : deserialisable e zc (TItem i) -> In t (item_types (e i)) -> deserialisable e zc t.
  Proof. intros H Hin Hno. apply H. econstructor; eauto. Qed.
  Lemma maxN_in l x : In x l -> x <= maxN l.
  Proof. induction l as [|y l IH]; cbn; [contradiction|]. fold (maxN l). intros [->|H]; [lia|]. apply IH in H. lia. Qed.
  Lemma in_mapmax {A} (f : A -> N) l x : In x l -> f x <= maxN (map f l).
  Proof. intros H. apply maxN_in. now apply in_map. Qed.
  Lemma find_variant_nth d b vars : NoDup (map fst vars) -> forall ix, nth_error vars ix = Some (d, b) -> find_variant d vars = Some (ix, b).
  Proof.
    induction vars as [|[d' b'] vars IH]; intros Hnd [|ix] H; try discriminate H; cbn in *.
    - injection H as -> ->. now rewrite N.eqb_refl.
    - inversion Hnd; subst. destruct (N.eqb_spec d d') as [->|].
      + exfalso. apply nth_error_In in H. apply (in_map fst) in H. tauto.
      + now rewrite (IH H3 ix H).
  Qed.
  Lemma find_variant_out d vars : ~ In d (map fst vars) -> find_variant d vars = None.
  Proof.
    induction vars as [|[d' b'] vars IH]; cbn; [reflexivity|]. intros H. destruct (N.eqb_spec d d'); [exfalso; apply H; now left|].
    rewrite IH; [reflexivity|tauto].
  Qed.

  Ltac desc := let H := fresh in intro H; match goal with D : deserialisable _ _ _ |- _ => apply D end; econstructor; eauto; fail.

  Lemma coll_reads zc uf f ins t ps vs okb : Forall (fun p => rt p t) ps -> shape_wf t -> deserialisable e zc t ->
    fold_left (fun l v => ins v l) (map snd ps) [] = vs ->
    reads cf (t_coll cf ins (t_dict_of cf uf (t_item_dict cf e uf f) zc t)) (need_coll (map (fun x => n_elem (need e x t)) (map fst ps)))
      (sumN (map (fun x => 1 + coll_count x) (map fst ps))) (sumN (map (fun x => copied e x zc t) (map fst ps)))
      (doc_coll (map (fun x => x_elem (doc e x t)) (map fst ps))) (VList vs) okb (N.min (N.of_nat uf) (N.of_nat f)).
  Proof.
    intros H Hs Hd <-. apply reads_wrapped. cbn [t_field t_init t_fin]. intros Hn tag. eexists. split.
    - apply (coll_evl zc ins t _ ps _ tag) with (vs0 := []).
      intros p Hin tg. rewrite Forall_forall in H. pose proof (r_elem _ _ _ _ _ _ _ _ _ (H p Hin Hs zc uf f Hd)) as He.
      pose proof (in_mapmax (fun x => n_elem (need e x t)) (map fst ps) (fst p) (in_map fst _ _ Hin)) as Hle. cbv beta in Hle.
      eapply ev_weak; [exact Hle|]. apply He. lia.
    - apply ev_ret.
  Qed.

  (** Components. *)
  Lemma parts_rt {ordered} ps ts : Forall2 (fun v t => forall w, lists e v w t -> typed_by ordered e w t -> rt (v, w) t) (map fst ps) ts ->
    Forall2 (fun p t => lists e (fst p) (snd p) t) ps ts -> Forall2 (typed_by ordered e) (map snd ps) ts -> Forall2 rt ps ts.
  Proof.
    intros H1 H2. revert H1. induction H2 as [|[v w] t ps ts Hp _ IH]; cbn [map fst snd]; intros H1 H3; constructor.
    - inversion H1; inversion H3; subst. auto.
    - inversion H1; inversion H3; subst. auto.
  Qed.
  Lemma all_rt {ordered} ps t : Forall (fun v => forall w, lists e v w t -> typed_by ordered e w t -> rt (v, w) t) (map fst ps) ->
    Forall (fun p => lists e (fst p) (snd p) t) ps -> Forall (fun v => typed_by ordered e v t) (map snd ps) -> Forall (fun p => rt p t) ps.
  Proof.
    intros H1 H2. revert H1. induction H2 as [|[v w] ps Hp _ IH]; cbn [map fst snd]; intros H1 H3; constructor.
    - inversion H1; inversion H3; subst. auto.
    - inversion H1; inversion H3; subst. auto.
  Qed.
  Lemma snoc_all (vs : list value) : forall l, fold_left (fun l v => l ++ [v]) vs l = l ++ vs.
  Proof. induction vs as [|v vs IH]; intros l; cbn [fold_left]; [now rewrite app_nil_r|]. now rewrite IH, <- app_assoc. Qed.
  Ltac not_leaf := try discriminate;
    try match goal with X : is_str _ |- _ => destruct X as [X|[X|X]]; discriminate X end;
    try match goal with X : is_bytes _ |- _ => destruct X as [X|[X|(? & X & _)]]; discriminate X end; try congruence.
  Ltac leafy L x := match type of L with lists _ ?v _ _ =>
    let E := fresh in assert (E : x = v) by (inversion L; subst; try discriminate; reflexivity); rewrite E in *; clear E x L end.
  Theorem rt_all {ordered} : forall v t, typed_by ordered e v t -> forall w, lists e v w t -> has_type e w t -> rt (v, w) t.
  Proof.
    apply (has_type_ind2 ordered e (fun v t => forall w, lists e v w t -> has_type e w t -> rt (v, w) t)).
    - (* unsigned *)
      intros w n Hn x Li _; leafy Li x; intros Hs zc uf f _. apply (reads_unary cf _ 0). intros _ tag. unfold t_conv_uint.
      apply ev_map with (f := VU). assert (E : to_uint (umax w) (hdr_node (NInt n)) = ROk n).
      { cbn. destruct (N.ltb_spec (umax w) n); [lia|reflexivity]. }
      rewrite E. apply ev_lift.
    - (* signed *)
      intros w z Hz x Li _; leafy Li x; intros Hs zc uf f _. apply (reads_unary cf _ 0). intros _ tag. unfold t_conv_sint. apply ev_map with (f := VS).
      assert (Hw : 1 <= w <= 64) by (cbn in Hs; unfold width_ok in Hs; lia).
      assert (E : to_sint (smin w) (smax w) (hdr_node (NInt (zz z))) = ROk z).
      { apply to_sint_iff; [exact Hw| |].
        - cbn [hdr_node]. unfold smin, smax in Hz. cbn in Hs. unfold width_ok in Hs.
          assert (i64_ok z). { unfold i64_ok. destruct Hs as [-> |[-> |[-> | ->]]]; cbn in Hz; lia. }
          rewrite <- zz_zigzag by assumption. apply zigzag_range. assumption.
        - split; [reflexivity|]. unfold smin, smax in Hz. lia. }
      rewrite E. apply ev_lift.
    - intros b x Li _; leafy Li x; intros Hs zc uf f _. apply (reads_unary cf _ 0). intros _ tag. unfold t_conv_bool. apply ev_map with (f := VB). destruct b; apply ev_lift.
    - intros c Hc x Li _; leafy Li x; intros Hs zc uf f _. apply (reads_unary cf _ 0). intros _ tag. unfold t_conv_char.
      assert (E : to_uint (umax 32) (hdr_node (NInt c)) = ROk c).
      { cbn [hdr_node to_uint]. unfold char_ok in Hc. destruct (N.ltb_spec (umax 32) c) as [Hlt|]; [|reflexivity].
        unfold umax in Hlt. change (2 ^ 32 - 1) with 4294967295 in Hlt. exfalso.
        destruct (N.ltb_spec c 0xD800); [lia|]. destruct (N.leb_spec c 0x10FFFF); [lia|]. rewrite Bool.andb_false_r in Hc. discriminate. }
      rewrite E. eapply ev_bind0; [apply ev_lift|]. rewrite Hc. apply ev_ret.
    - intros x Li _; leafy Li x; intros Hs zc uf f _. apply (reads_unary cf _ 0). intros _ tag. unfold t_conv_phantom. eapply ev_bind0; apply ev_ret.
    - (* strings *)
      intros t bs [-> |[-> | ->]] Hb Hu x Li _; leafy Li x; intros Hs zc uf f Hd; cbn [fst snd]; cbn [t_dict_of].
      + now apply reads_string.
      + destruct zc; [now apply reads_strref|]. exfalso. apply Hd. constructor.
      + destruct zc; [now apply reads_strref|now apply reads_string].
    - (* bytes *)
      intros t bs [-> |[-> |(t' & -> & Hu)]] Hb x Li _; leafy Li x; intros Hs zc uf f Hd; cbn [fst snd]; cbn [t_dict_of].
      + destruct zc; [apply reads_bytesref|]. exfalso. apply Hd. constructor.
      + destruct zc; [apply reads_bytesref|apply reads_vecu8].
      + rewrite Hu. apply reads_vecu8.
    - (* byte arrays *)
      intros n t bs Hu Hb Hl x Li _; leafy Li x; intros Hs zc uf f Hd. cbn [fst snd]. cbn [t_dict_of]. rewrite Hu.
      assert (Hr : forall m, ev cf m 0 0 (t_read_array n (NBlob bs)) (VArrB bs)).
      { intros m. unfold t_read_array. cbn [hdr_node to_blob t_lift blob_of]. eapply ev_bind0; [apply ev_ret|].
        rewrite (proj2 (N.eqb_eq _ _) Hl). apply ev_ret. }
      apply (reads_single _ 0); cbn [t_elem t_field t_init t_fin].
      + intros _ tag. apply Hr.
      + intros _ tag. unfold t_arru8_field. apply ev_map with (f := fun v => AOpt (Some v)), Hr.
      + intros m. apply ev_ret.
    - (* arrays *)
      intros n t vs Hu Hl Hty H x Li Hx Hs zc uf f Hd.
      assert (Hps : exists ps, vs = map fst ps /\ x = VArr (map snd ps) /\ Forall (fun p => lists e (fst p) (snd p) t) ps)
        by (inversion Li; subst; try discriminate; eauto).
      destruct Hps as (ps & -> & -> & Hps). assert (Hx' : Forall (fun v => has_type e v t) (map snd ps)) by (inversion Hx; auto).
      pose proof (all_rt ps t H Hps Hx') as Hrt. clear H. cbn [fst snd t_dict_of]. rewrite Hu.
      assert (Hd' : deserialisable e zc t) by desc.
      apply (reads_wrapped cf _ (map (fun x => n_elem (need e x t)) (map fst ps))). cbn [t_field t_init t_fin]. intros Hn tag. exists (AList (map snd ps)). split.
      + assert (Hgen : forall ps0 ps1, ps0 ++ ps1 = ps -> evl cf (t_arr_field n (t_dict_of cf uf (t_item_dict cf e uf f) zc t))
            (maxN (map (fun x => n_elem (need e x t)) (map fst ps))) (AList (map snd ps0)) (map (fun n => (tag, n)) (map (fun x => x_elem (doc e x t)) (map fst ps1)))
            (sumN (map coll_count (map fst ps1))) (sumN (map (fun x => copied e x zc t) (map fst ps1))) (AList (map snd ps))).
        { intros ps0 ps1. revert ps0. induction ps1 as [|[v w] ps1 IH]; intros ps0 E.
          - rewrite app_nil_r in E. subst. constructor.
          - cbn [map sumN fold_right fst]. assert (Hin : In (v, w) ps) by (rewrite <- E; apply in_elt).
            econstructor; [|replace (AList (map snd ps0 ++ [w])) with (AList (map snd (ps0 ++ [(v, w)]))) by now rewrite map_app].
            2: { apply (IH (ps0 ++ [(v, w)])). rewrite <- app_assoc. exact E. }
            unfold t_arr_field. destruct (N.leb_spec n (lenN (map snd ps0))) as [Hge|Hlt].
            { exfalso. rewrite <- E in Hl. unfold lenN in *. rewrite !map_length, app_length in *. cbn [List.length] in Hl. lia. }
            rewrite map_app. apply ev_map with (f := fun v => AList (map snd ps0 ++ [v])).
            rewrite Forall_forall in Hrt. pose proof (r_elem _ _ _ _ _ _ _ _ _ (Hrt _ Hin Hs zc uf f Hd')) as He.
            pose proof (in_mapmax (fun x => n_elem (need e x t)) (map fst ps) v (in_map fst _ _ Hin)) as Hle. cbv beta in Hle.
            eapply ev_weak; [exact Hle|]. apply He. cbn [fst]. lia. }
        apply (Hgen [] ps eq_refl).
      + unfold t_arr_fin. assert (Hl2 : lenN (map snd ps) = n) by (unfold lenN in *; rewrite map_length in *; exact Hl).
        rewrite Hl2, N.ltb_irrefl. apply ev_ret.
    - (* Vec *)
      intros t vs Hu Hty H x Li Hx Hs zc uf f Hd.
      assert (Hps : exists ps, vs = map fst ps /\ x = VList (map snd ps) /\ Forall (fun p => lists e (fst p) (snd p) t) ps)
        by (inversion Li; subst; try discriminate; eauto).
      destruct Hps as (ps & -> & -> & Hps). assert (Hx' : Forall (fun v => has_type e v t) (map snd ps)) by (inversion Hx; auto).
      cbn [fst snd t_dict_of]. rewrite Hu. apply coll_reads; [now apply (all_rt (ordered := ascending))|exact Hs|desc|apply snoc_all].
    - (* other sequences *)
      intros t vs Hty H x Li Hx Hs zc uf f Hd.
      assert (Hps : exists ps, vs = map fst ps /\ x = VList (map snd ps) /\ Forall (fun p => lists e (fst p) (snd p) t) ps)
        by (inversion Li; subst; try discriminate; eauto).
      destruct Hps as (ps & -> & -> & Hps). assert (Hx' : Forall (fun v => has_type e v t) (map snd ps)) by (inversion Hx; auto).
      cbn [fst snd t_dict_of]. apply coll_reads; [now apply (all_rt (ordered := ascending))|exact Hs|desc|apply snoc_all].
    - (* sets *)
      intros t vs Hty H _ x Li Hx Hs zc uf f Hd.
      assert (Hps : exists ps ws, vs = map fst ps /\ x = VList ws /\ Forall (fun p => lists e (fst p) (snd p) t) ps /\ ascending ws /\
                (forall y, In y ws <-> In y (map snd ps)))
        by (inversion Li; subst; try discriminate; eauto 10).
      destruct Hps as (ps & ws & -> & -> & Hps & Ha & Hin).
      assert (Hx' : Forall (fun v => has_type e v t) (map snd ps)).
      { assert (Hf : Forall (fun v => has_type e v t) ws) by (inversion Hx; subst; try discriminate; auto).
        rewrite Forall_forall in *. intros y Hy. apply Hf, Hin, Hy. }
      cbn [fst snd t_dict_of]. apply coll_reads; [now apply (all_rt (ordered := ascending))|exact Hs|desc|now apply inserts_are].
    - (* None *)
      intros t x Li Hx Hs zc uf f Hd. assert (x = VOpt None) as -> by (inversion Li; subst; try discriminate; reflexivity).
      cbn [t_dict_of]. apply (reads_wrapped cf _ []). intros _ tag. exists (AOpt None). split; [constructor|apply ev_ret].
    - (* Some *)
      intros t v Hty H x Li Hx Hs zc uf f Hd.
      assert (Hw : exists w, x = VOpt (Some w) /\ lists e v w t) by (inversion Li; subst; try discriminate; eauto).
      destruct Hw as (w & -> & Hw). assert (Hx' : has_type e w t) by (inversion Hx; subst; auto).
      cbn [t_dict_of]. assert (Hd' : deserialisable e zc t) by desc.
      pose proof (r_elem _ _ _ _ _ _ _ _ _ (H w Hw Hx' Hs zc uf f Hd')) as He. cbn [fst snd] in *.
      apply (reads_wrapped cf _ [n_elem (need e v t)]). cbn [t_field t_init t_fin maxN fold_right]. intros Hn tag.
      exists (AOpt (Some w)). split; [|apply ev_ret]. apply evl_one. unfold t_opt_field. apply ev_map with (f := fun v => AOpt (Some v)).
      eapply ev_weak; [|apply He; lia]. lia.
    - (* maps *)
      intros tk tv kvs Hty1 Hty2 H1 H2 _ x Li Hx [[Hsk Huk] [Hsv Huv]] zc uf f Hd.
      assert (Hps : exists kps ws, kvs = map fst kps /\ x = VMap ws /\
                Forall (fun p => lists e (fst (fst p)) (fst (snd p)) tk /\ lists e (snd (fst p)) (snd (snd p)) tv) kps /\
                ascending (map fst ws) /\ NoDup (map fst (map snd kps)) /\ (forall p, In p ws <-> In p (map snd kps)))
        by (inversion Li; subst; try discriminate; eauto 12).
      destruct Hps as (kps & ws & -> & -> & Hps & Ha & Hno & Hin).
      assert (Hx' : forall p, In p kps -> rt (fst (fst p), fst (snd p)) tk /\ rt (snd (fst p), snd (snd p)) tv).
      { intros p Hp. assert (Hw : In (snd p) ws) by (apply Hin, in_map, Hp).
        assert (Hpt : has_type e (fst (snd p)) tk /\ has_type e (snd (snd p)) tv).
        { inversion Hx; subst; try discriminate. rewrite !Forall_forall in *. auto. }
        rewrite Forall_forall in Hps, H1, H2. specialize (Hps p Hp). specialize (H1 _ (in_map fst _ _ Hp)). specialize (H2 _ (in_map fst _ _ Hp)).
        cbv beta in *. split; [apply H1|apply H2]; tauto. }
      clear H1 H2. cbn [fst snd t_dict_of].
      assert (Hdk : deserialisable e zc tk) by (intros Hno'; apply Hd; now apply NiKey).
      assert (Hdv : deserialisable e zc tv) by (intros Hno'; apply Hd; now apply NiVal).
      set (nd := fun p => up [n_field (need e (fst p) tk); n_field (need e (snd p) tv)]).
      apply (reads_wrapped cf _ (map nd (map fst kps))). cbn [t_field t_init t_fin]. intros Hn tag.
      exists (AMap ws). split; [|apply ev_ret]. rewrite <- (minserts_are (map snd kps) ws Ha Hno Hin).
      assert (Hgen : forall kps1 acc, (forall p, In p kps1 -> In p kps) ->
         evl cf (t_map_field cf (t_dict_of cf uf (t_item_dict cf e uf f) zc tk) (t_dict_of cf uf (t_item_dict cf e uf f) zc tv))
           (maxN (map nd (map fst kps))) (AMap acc)
           (map (fun n => (tag, n)) (map (fun p => NStruct (x_field (doc e (fst p) tk) 1 ++ x_field (doc e (snd p) tv) 2)) (map fst kps1)))
           (sumN (map (fun p => 1 + (coll_count (fst p) + coll_count (snd p))) (map fst kps1)))
           (sumN (map (fun p => copied e (fst p) zc tk + copied e (snd p) zc tv) (map fst kps1)))
           (AMap (fold_left (fun m p => map_insert (fst p) (snd p) m) (map snd kps1) acc))).
      { induction kps1 as [|[[k v] [k' v']] kps1 IH]; intros acc E.
        - constructor.
        - cbn [map sumN fold_right fold_left fst snd].
          assert (Hi : In ((k, v), (k', v')) kps) by (apply E; now left).
          destruct (Hx' _ Hi) as [Hr1 Hr2]. cbn [fst snd] in Hr1, Hr2.
          econstructor; [|apply IH; intros; apply E; now right].
          unfold t_map_field. rewrite <- (N.add_0_l (copied e k zc tk + copied e v zc tv)). eapply ev_bind; [apply ev_collect|].
          eapply ev_then with (a := VRec [k'; v']); [|apply ev_ret].
          cbn [t_tuple t_struct t_elem hdr_node to_struct kids]. eapply ev_bind0; [apply ev_lift|].
          pose proof (tuple_reads zc uf f [tk; tv] [(k, k'); (v, v')]) as Ht.
          cbn [map zipw sumN fold_right doc_tuple fst snd] in Ht. rewrite !N.add_0_r, app_nil_r in Ht.
          change (1 + 1) with 2 in Ht.
          pose proof (in_mapmax nd (map fst kps) (k, v) (in_map fst _ _ Hi)) as Hle. unfold nd at 1 in Hle. cbn [fst snd] in Hle.
          eapply ev_weak; [exact Hle|]. apply Ht.
          * repeat constructor; auto.
          * constructor; [exact Hr1|]. constructor; [exact Hr2|constructor].
          * intros t [<-|[<-|[]]]; assumption.
          * lia. }
      apply Hgen. auto.
    - (* tuples *)
      intros ts vs Hty H x Li Hx [Hlen Hs] zc uf f Hd.
      assert (Hps : exists ps, vs = map fst ps /\ x = VRec (map snd ps) /\ Forall2 (fun p t => lists e (fst p) (snd p) t) ps ts)
        by (inversion Li; subst; try discriminate; eauto).
      destruct Hps as (ps & -> & -> & Hps). assert (Hx' : Forall2 (has_type e) (map snd ps) ts) by (inversion Hx; auto).
      pose proof (parts_rt ps ts H Hps Hx') as Hrt. clear H. cbn [t_dict_of fst snd]. apply shape_tuple in Hs.
      assert (Hd' : forall t, In t ts -> deserialisable e zc t) by (intros t Ht Hno; apply Hd; econstructor; eauto).
      pose proof (tuple_reads zc uf f ts ps Hs Hrt Hd') as Ht.
      destruct ps as [|[v0 w0] ps0].
      + inversion Hrt; subst. unfold t_tuple. apply reads_struct; auto.
        * intros Hn tag. cbn [map doc x_elem doc_single hdr_node to_struct kids need n_elem need_struct zipw up]. eapply ev_bind0; [apply ev_lift|].
          cbn in Ht. apply Ht. lia.
        * intros Hn [Hi|Hi]; [|discriminate Hi]. cbn [map doc x_body doc_single need n_body need_struct zipw up].
          unfold t_tuple_body, t_des_body. cbn [t_tuple_fields t_loop t_inits map t_step find_tag]. unfold t_unknown. rewrite Hi.
          intros c _ _ _. destruct c. cbn. now rewrite !N.add_0_r.
      + destruct ts as [|t0 ts0]; [inversion Hrt|]. cbn [map fst snd] in *. set (vs0 := map fst ps0) in *.
        assert (Hdoc : doc e (VRec (v0 :: vs0)) (TTuple (t0 :: ts0)) = doc_struct (doc_tuple 1 (zipw (fun x t' => doc e x t') (v0 :: vs0) (t0 :: ts0)))) by reflexivity.
        rewrite Hdoc. unfold t_tuple. apply reads_struct; auto; cbn [doc_struct x_elem x_body].
        * intros Hn tag. cbn [hdr_node to_struct kids]. eapply ev_bind0; [apply ev_lift|]. apply Ht. 
          change (n_elem (need e (VRec (v0 :: vs0)) (TTuple (t0 :: ts0)))) with (up (zipw (fun x t' => n_field (need e x t')) (v0 :: vs0) (t0 :: ts0))) in Hn. lia.
        * intros Hn _. apply Ht.
          change (n_body (need e (VRec (v0 :: vs0)) (TTuple (t0 :: ts0)))) with (up (zipw (fun x t' => n_field (need e x t')) (v0 :: vs0) (t0 :: ts0))) in Hn. lia.
    - (* Box *)
      intros t v Hty H x Li Hx Hs zc uf f Hd. cbn [fst snd]. rewrite need_box, copied_box, doc_box.
      apply (H x); auto; [inversion Li; subst; [now apply LiLeaf|assumption]|inversion Hx; subst; not_leaf; assumption|desc].
    - (* Copied *)
      intros t v Hty H x Li Hx Hs zc uf f Hd. cbn [fst snd]. rewrite need_copied, copied_copied, doc_copied.
      apply (H x); auto; [inversion Li; subst; [now apply LiLeaf|assumption]|inversion Hx; subst; not_leaf; assumption|desc].
    - (* UnknownFields *)
      intros fs Hok x Li _; leafy Li x; intros Hs zc uf f Hd. cbn [fst snd]. cbn [t_dict_of].
      assert (Hall : Forall (fun p => unk_reads cf zc (snd p)) fs) by (apply Forall_forall; intros; apply unk_node).
      set (l := map (fun p : N * node => node_need (snd p)) fs).
      assert (Hnd : need e (VUnk fs) TUnknown = mkNeeds (up l) (maxN l) (up l)) by reflexivity.
      assert (Hcp : copied e (VUnk fs) zc TUnknown = nb zc (nodes_bytes fs)) by reflexivity.
      assert (Hdc : doc e (VUnk fs) TUnknown = mkDoc fs (fun _ => fs) (NStruct fs)) by reflexivity.
      rewrite Hnd, Hcp, Hdc. change (coll_count (VUnk fs)) with (nodes_count fs).
      constructor; cbn [n_elem n_field n_body x_elem x_field x_body t_unknown_d t_elem t_field t_init t_fin t_body].
      + intros Hn tag. cbn [hdr_node to_struct kids]. eapply ev_bind0; [apply ev_lift|]. unfold t_unk_val. apply ev_map with (f := VUnk).
        apply unk_body; [exact Hall|]. fold l. lia.
      + intros Hn _. exists (AUnk fs). split; [|apply ev_ret].
        assert (Hgen : forall fs0 fs1, fs0 ++ fs1 = fs -> evl cf (t_unk_field cf zc uf) (maxN l) (AUnk fs0) fs1 (nodes_count fs1) (nb zc (nodes_bytes fs1)) (AUnk fs)).
        { intros fs0 fs1. revert fs0. induction fs1 as [|[tag n] fs1 IH]; intros fs0 E.
          - rewrite app_nil_r in E. subst. destruct zc; constructor.
          - unfold nodes_count, nodes_bytes in *. cbn [map sumN fold_right snd]. rewrite nb_add.
            econstructor; [|apply (IH (fs0 ++ [(tag, n)])); rewrite <- app_assoc; exact E].
            unfold t_unk_field, t_unk_elem. rewrite <- (N.add_0_l (nb zc (node_bytes n))). eapply ev_bind; [apply ev_collect|].
            apply ev_map with (f := fun x => AUnk (fs0 ++ [(tag, x)])).
            assert (Hle : node_need n <= maxN l).
            { apply (in_mapmax (fun p : N * node => node_need (snd p)) fs (tag, n)). rewrite <- E. apply in_elt. }
            eapply ev_weak; [exact Hle|]. apply unk_node. lia. }
        apply (Hgen [] fs eq_refl).
      + intros Hn _. unfold t_unk_val. apply ev_map with (f := VUnk). apply unk_body; [exact Hall|]. fold l. lia.
    - (* UnknownField *)
      intros n Hok x Li _; leafy Li x; intros Hs zc uf f Hd. cbn [fst snd]. cbn [t_dict_of]. unfold t_unkfield. apply (reads_unary cf _ (node_need n)). intros Hn tag.
      apply ev_map with (f := VNode). apply unk_node. lia.
    - (* structs *)
      intros i b vs Ei Hty H Hck0 Hunk x Li Hx Hs zc uf f Hd.
      assert (Hps : exists ps, vs = map fst ps /\ x = VRec (map snd ps) /\ Forall2 (fun p t => lists e (fst p) (snd p) t) ps (body_types b))
        by (inversion Li; subst; try discriminate; match goal with A : e i = IStruct ?b2 |- _ => assert (b2 = b) by congruence; subst; eauto end).
      destruct Hps as (ps & -> & -> & Hps).
      assert (Hx' : Forall2 (has_type e) (map snd ps) (body_types b) /\ vb_check b (map snd ps) = true)
        by (inversion Hx; subst; not_leaf; match goal with A : e i = IStruct ?b2 |- _ => assert (b2 = b) by congruence; subst; auto end).
      destruct Hx' as [Hx' Hck]. pose proof (parts_rt ps _ H Hps Hx') as Hrt. clear H. cbn [t_dict_of fst snd].
      destruct f as [|f]; [constructor; intros; lia|]. cbn [t_item_dict]. rewrite Ei.
      pose proof (Hwf i) as [Hiw Hfw]. rewrite Ei in Hiw, Hfw.
      assert (Hd' : forall t, In t (body_types b) -> deserialisable e zc t).
      { intros t Ht. apply (item_des zc i); auto. rewrite Ei. exact Ht. }
      assert (Hu : cf_ignore cf = true \/ forall nm t', vb_special b = SpDeleg nm t' -> unit_like t' = false).
      { destruct Hnu as [Hu|Hu]; [now left|right]. intros nm t'. apply (Hu i). rewrite Ei. reflexivity. }
      pose proof (vbody_reads zc uf f b ps Hiw Hfw Hu Hty Hrt Hck Hunk Hd') as Hb.
      set (vs := map fst ps) in *.
      set (ns := zipw (fun x t => need e x t) vs (body_types b)) in *.
      set (ds := zipw (fun x t => doc e x t) vs (body_types b)) in *.
      assert (Hcp : copied e (VRec vs) zc (TItem i) = sumN (zipw (fun x t => copied e x zc t) vs (body_types b))) by (cbn [copied]; rewrite Ei; reflexivity).
      assert (Hnd : need e (VRec vs) (TItem i) = match vb_special b with
                | SpDeleg _ _ => let n := 1 + maxN (map n_elem ns) in mkNeeds (need_vbody b ns) n n
                | _ => need_struct (need_vbody b ns) end) by (cbn [need]; rewrite Ei; reflexivity).
      assert (Hdc : doc e (VRec vs) (TItem i) = match vb_special b, ds with
                | SpDeleg _ _, [d] => mkDoc (x_body d) (fun t => [(t, x_elem d)]) (x_elem d)
                | _, _ => doc_struct (doc_record b ds) end) by (cbn [doc]; rewrite Ei; reflexivity).
      rewrite Hcp, Hnd, Hdc. change (coll_count (VRec vs)) with (sumN (map coll_count vs)).
      unfold t_item_struct.
      destruct (vb_special b) as [|nm t'|nm t'] eqn:Esp.
      + apply reads_struct; auto; cbn [need_struct n_elem n_body x_elem x_body doc_struct].
        * intros Hn tag. unfold t_struct_elem. rewrite Esp. cbn [hdr_node to_struct kids]. eapply ev_bind0; [apply ev_lift|]. apply Hb. lia.
        * intros Hn _. apply Hb. lia.
      + (* delegation *)
        destruct Hiw as (_ & _ & Hfs). rewrite Esp in Hfs.
        assert (Hbt : body_types b = [t']) by (unfold body_types; rewrite Esp, Hfs; reflexivity).
        unfold ns, ds, vs in *. clear ns ds vs. rewrite Hbt in *.
        inversion Hrt as [|[v w] ? ? ? Hrv Hvs]; subst. inversion Hvs; subst. clear Hvs.
        cbn [zipw map fst snd] in *. destruct Hfw as [_ Hspw]. rewrite Esp in Hspw.
        apply reads_struct; auto; cbn [n_elem n_body x_elem x_body].
        * intros Hn tag. unfold t_struct_elem. rewrite Esp. cbn [maxN fold_right sumN map] in *. rewrite !N.add_0_r, N.max_0_r in *.
          eapply ev_ctx2.
          -- apply (r_elem _ _ _ _ _ _ _ _ _ (Hrv Hspw zc uf f (Hd' t' ltac:(now left)))). cbn [fst snd]. lia.
          -- cbn [fst snd]. unfold t_construct. rewrite Hck. apply ev_ret.
        * intros Hn _. unfold doc_record in Hb. rewrite Hfs in Hb. cbn [List.length skipn flat_map doc_fields app] in Hb. rewrite app_nil_r in Hb.
          apply Hb. lia.
      + apply reads_struct; auto; cbn [need_struct n_elem n_body x_elem x_body doc_struct].
        * intros Hn tag. unfold t_struct_elem. rewrite Esp. cbn [hdr_node to_struct kids]. eapply ev_bind0; [apply ev_lift|]. apply Hb. lia.
        * intros Hn _. apply Hb. lia.
    - (* variants *)
      intros i vars catch ix d b vs Ei Hix Hty H Hck0 Hunk x Li Hx Hs zc uf f Hd.
      assert (Hps : exists ps, vs = map fst ps /\ x = VVar ix (VRec (map snd ps)) /\ Forall2 (fun p t => lists e (fst p) (snd p) t) ps (body_types b))
        by (inversion Li; subst; try discriminate; match goal with A : e i = IEnum ?v2 ?c2, B : nth_error ?v2 ix = Some (?d2, ?b2) |- _ =>
              assert (v2 = vars) by congruence; subst; assert (b2 = b) by congruence; subst; eauto end).
      destruct Hps as (ps & -> & -> & Hps).
      assert (Hx' : Forall2 (has_type e) (map snd ps) (body_types b) /\ vb_check b (map snd ps) = true)
        by (inversion Hx; subst; not_leaf; match goal with A : e i = IEnum ?v2 ?c2, B : nth_error ?v2 ix = Some (?d2, ?b2) |- _ =>
              assert (v2 = vars) by congruence; subst; assert (b2 = b) by congruence; subst; auto end).
      destruct Hx' as [Hx' Hck]. pose proof (parts_rt ps _ H Hps Hx') as Hrt. clear H. cbn [t_dict_of fst snd].
      destruct f as [|f]; [constructor; intros; lia|]. cbn [t_item_dict]. rewrite Ei.
      pose proof (Hwf i) as [Hiw Hfw]. rewrite Ei in Hiw, Hfw. destruct Hiw as (Hnd & Hvw & _). destruct Hfw as [Hvf _].
      pose proof (nth_error_In _ _ Hix) as Hin. rewrite Forall_forall in Hvw, Hvf.
      assert (Hd' : forall t, In t (body_types b) -> deserialisable e zc t).
      { intros t Ht. apply (item_des zc i); auto. rewrite Ei. apply in_or_app. left. apply in_flat_map. exists (d, b). auto. }
      assert (Hu : cf_ignore cf = true \/ forall nm t', vb_special b = SpDeleg nm t' -> unit_like t' = false).
      { destruct Hnu as [Hu|Hu]; [now left|right]. intros nm t'. apply (Hu i). rewrite Ei. left. apply (in_map snd) in Hin. exact Hin. }
      pose proof (vbody_reads zc uf f b ps (proj2 (Hvw _ Hin)) (Hvf _ Hin) Hu Hty Hrt Hck Hunk Hd') as Hb. set (vs := map fst ps) in *.
      assert (Hcp : copied e (VVar ix (VRec vs)) zc (TItem i) = sumN (zipw (fun x t => copied e x zc t) vs (body_types b))) by (cbn [copied]; rewrite Ei, Hix; destruct catch; reflexivity).
      assert (Hne : need e (VVar ix (VRec vs)) (TItem i) = need_single (need_vbody b (zipw (fun x t => need e x t) vs (body_types b)))) by (cbn [need]; rewrite Ei, Hix; destruct catch; reflexivity).
      assert (Hdc : doc e (VVar ix (VRec vs)) (TItem i) = doc_single (NEnum d (doc_record b (zipw (fun x t => doc e x t) vs (body_types b))))) by (cbn [doc]; rewrite Ei, Hix; destruct catch; reflexivity).
      rewrite Hcp, Hne, Hdc. change (coll_count (VVar ix (VRec vs))) with (sumN (map coll_count vs)).
      apply reads_enum. intros Hn tag. unfold t_enum_elem. cbn [hdr_node to_enum kids]. eapply ev_bind0; [apply ev_lift|].
      rewrite (find_variant_nth d b vars Hnd ix Hix). apply ev_map with (f := VVar ix). apply Hb. lia.
    - (* catch-all *)
      intros i vars d b vs Ei Hd64 Hout Hty H Hck0 Hunk x Li Hx Hs zc uf f Hd.
      assert (Hps : exists ps, vs = map fst ps /\ x = VCatch d (VRec (map snd ps)) /\ Forall2 (fun p t => lists e (fst p) (snd p) t) ps (body_types b))
        by (inversion Li; subst; try discriminate; match goal with A : e i = IEnum ?v2 (Some ?b2) |- _ => assert (b2 = b) by congruence; subst; eauto end).
      destruct Hps as (ps & -> & -> & Hps).
      assert (Hx' : Forall2 (has_type e) (map snd ps) (body_types b) /\ vb_check b (map snd ps) = true)
        by (inversion Hx; subst; not_leaf; match goal with A : e i = IEnum ?v2 (Some ?b2) |- _ => assert (b2 = b) by congruence; subst; auto end).
      destruct Hx' as [Hx' Hck]. pose proof (parts_rt ps _ H Hps Hx') as Hrt. clear H. cbn [t_dict_of fst snd].
      destruct f as [|f]; [constructor; intros; lia|]. cbn [t_item_dict]. rewrite Ei.
      pose proof (Hwf i) as [Hiw Hfw]. rewrite Ei in Hiw, Hfw. destruct Hiw as (Hnd & _ & Hcw). destruct Hfw as [_ Hcf].
      assert (Hd' : forall t, In t (body_types b) -> deserialisable e zc t).
      { intros t Ht. apply (item_des zc i); auto. rewrite Ei. apply in_or_app. now right. }
      assert (Hu : cf_ignore cf = true \/ forall nm t', vb_special b = SpDeleg nm t' -> unit_like t' = false).
      { destruct Hnu as [Hu|Hu]; [now left|right]. intros nm t'. apply (Hu i). rewrite Ei. now right. }
      pose proof (vbody_reads zc uf f b ps Hcw Hcf Hu Hty Hrt Hck Hunk Hd') as Hb. set (vs := map fst ps) in *.
      assert (Hcp : copied e (VCatch d (VRec vs)) zc (TItem i) = sumN (zipw (fun x t => copied e x zc t) vs (body_types b))) by (cbn [copied]; rewrite Ei; reflexivity).
      assert (Hne : need e (VCatch d (VRec vs)) (TItem i) = need_single (need_vbody b (zipw (fun x t => need e x t) vs (body_types b)))) by (cbn [need]; rewrite Ei; reflexivity).
      assert (Hdc : doc e (VCatch d (VRec vs)) (TItem i) = doc_single (NEnum d (doc_record b (zipw (fun x t => doc e x t) vs (body_types b))))) by (cbn [doc]; rewrite Ei; reflexivity).
      rewrite Hcp, Hne, Hdc. change (coll_count (VCatch d (VRec vs))) with (sumN (map coll_count vs)).
      apply reads_enum. intros Hn tag. unfold t_enum_elem. cbn [hdr_node to_enum kids]. eapply ev_bind0; [apply ev_lift|].
      rewrite (find_variant_out d vars Hout). apply ev_map with (f := VCatch d). apply Hb. lia.
  Qed.
End RT.

(** A value is a listing of itself. *)
Lemma diag_map {A B} (f : A * A -> B) (g : A -> B) (l : list A) : (forall x, f (x, x) = g x) -> map f (map (fun x => (x, x)) l) = map g l.
Proof. intros H. rewrite map_map. apply map_ext, H. Qed.
Lemma diag_all (R : value -> value -> ty -> Prop) vs ts : Forall2 (fun v t => R v v t) vs ts -> Forall2 (fun p t => R (fst p) (snd p) t) (map (fun x => (x, x)) vs) ts.
Proof. induction 1; constructor; auto. Qed.
Lemma lists_self e : forall v t, has_type e v t -> lists e v v t.
Proof.
  assert (M : forall l : list value, map fst (map (fun x => (x, x)) l) = l) by (intros; rewrite map_map; apply map_id).
  assert (M' : forall l : list value, map snd (map (fun x => (x, x)) l) = l) by (intros; rewrite map_map; apply map_id).
  assert (D : forall t vs, Forall (fun v => lists e v v t) vs -> Forall (fun p => lists e (fst p) (snd p) t) (map (fun x => (x, x)) vs)).
  { intros t vs H. rewrite Forall_forall in *. intros p Hp. apply in_map_iff in Hp. destruct Hp as (x & <- & Hx). cbn. auto. }
  apply (has_type_ind2 ascending e (fun v t => lists e v v t)); intros; try (now apply LiLeaf).
  - replace (lists e (VArr vs) (VArr vs)) with (lists e (VArr (map fst (map (fun x => (x, x)) vs))) (VArr (map snd (map (fun x => (x, x)) vs)))) by now rewrite M, M'. apply LiArr. auto.
  - replace (lists e (VList vs) (VList vs)) with (lists e (VList (map fst (map (fun x => (x, x)) vs))) (VList (map snd (map (fun x => (x, x)) vs)))) by now rewrite M, M'. apply LiVec. auto.
  - replace (lists e (VList vs) (VList vs)) with (lists e (VList (map fst (map (fun x => (x, x)) vs))) (VList (map snd (map (fun x => (x, x)) vs)))) by now rewrite M, M'. apply LiSeq. auto.
  - rewrite <- (M vs) at 1. apply LiSet; auto. intros x. now rewrite M'.
  - apply LiNone.
  - now apply LiSome.
  - assert (N1 : map fst (map (fun x => (x, x)) kvs) = kvs) by (rewrite map_map; apply map_id).
    assert (N2 : map snd (map (fun x => (x, x)) kvs) = kvs) by (rewrite map_map; apply map_id).
    rewrite <- N1 at 1. apply LiMap; auto.
    + rewrite Forall_forall in *. intros p Hp. apply in_map_iff in Hp. destruct Hp as (x & <- & Hx). cbn [fst snd]. auto.
    + rewrite N2. now apply asc_nodup.
    + intros p. now rewrite N2.
  - replace (lists e (VRec vs) (VRec vs)) with (lists e (VRec (map fst (map (fun x => (x, x)) vs))) (VRec (map snd (map (fun x => (x, x)) vs)))) by now rewrite M, M'. apply LiTuple. now apply diag_all.
  - now apply LiBox.
  - now apply LiCopied.
  - replace (lists e (VRec vs) (VRec vs)) with (lists e (VRec (map fst (map (fun x => (x, x)) vs))) (VRec (map snd (map (fun x => (x, x)) vs)))) by now rewrite M, M'. apply LiStruct with (b := b); [assumption|]. now apply diag_all.
  - replace (lists e (VVar ix (VRec vs)) (VVar ix (VRec vs))) with (lists e (VVar ix (VRec (map fst (map (fun x => (x, x)) vs)))) (VVar ix (VRec (map snd (map (fun x => (x, x)) vs))))) by now rewrite M, M'. eapply LiVar; eauto. now apply diag_all.
  - replace (lists e (VCatch d (VRec vs)) (VCatch d (VRec vs))) with (lists e (VCatch d (VRec (map fst (map (fun x => (x, x)) vs)))) (VCatch d (VRec (map snd (map (fun x => (x, x)) vs))))) by now rewrite M, M'. eapply LiCatch; eauto. now apply diag_all.
Qed.
