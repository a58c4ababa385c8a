(** * P_Fault: errors are located where the document is faulty *)

From Verif Require Import Base Wire Dev Stream SpecWire SpecFormat SpecStream Types Ser Prog De SpecDe SpecDoc SpecRead SpecText
  SpecFault Tree P_Base P_Types P_Dict P_DictAll P_Tree P_Means P_Prog P_Text.
Strategy 1000 [mloop miter].

Section Bad.
  Variable cf : cfg.

  Definition bad (F : nat) {A} (m : T A) (E : list string -> ekind -> Prop) (Q : A -> Prop) : Prop :=
    forall c, inv cf F c ->
    match m c with
    | (ROk a, c') => Q a /\ inv cf F c' /\ c_lev c' = c_lev c /\ c_path c' = c_path c
    | (RErr k, c') => exists p, c_path c' = rev p ++ c_path c /\ (forall k2, anyk k k2 -> E p k2) /\
                        (k = KRecLimit -> c_lev c + lenN p = cf_rec cf)
    | _ => True
    end.

  Lemma bad_ret F {A} (a : A) E (Q : A -> Prop) : Q a -> bad F (mret a) E Q.
  Proof. intros H c Hc. cbn. auto. Qed.
  Lemma bad_bind F {A B} (m : T A) (f : A -> T B) E Q1 Q : bad F m E Q1 -> (forall a, Q1 a -> bad F (f a) E Q) -> bad F (mbind m f) E Q.
  Proof.
    intros H1 H2 c Hc. specialize (H1 c Hc). unfold mbind. destruct (m c) as [[a|k| |] c1]; auto.
    destruct H1 as (Hq & Hi & Hl & Hp). specialize (H2 a Hq c1 Hi). destruct (f a c1) as [[b|k| |] c2]; auto.
    - destruct H2 as (A1 & A2 & A3 & A4). repeat split; auto; try apply A2; congruence.
    - destruct H2 as (p & A1 & A2 & A3). exists p. rewrite <- Hp, <- Hl. auto.
  Qed.
  Lemma bad_imp F {A} (m : T A) (E E' : list string -> ekind -> Prop) (Q Q' : A -> Prop) : bad F m E Q ->
    (forall p k, E p k -> E' p k) -> (forall a, Q a -> Q' a) -> bad F m E' Q'.
  Proof.
    intros H HE HQ c Hc. specialize (H c Hc). destruct (m c) as [[a|k| |] c1]; auto.
    - destruct H as (A1 & A2). auto.
    - destruct H as (p & A1 & A2 & A3). exists p. auto.
  Qed.
  Lemma bad_any F {A} (m : T A) (E : list string -> ekind -> Prop) (Q : A -> Prop) : bad F m E Q -> bad F m E (fun _ => True).
  Proof. intros H. eapply bad_imp; eauto. Qed.
  Lemma bad_err F {A} k (E : list string -> ekind -> Prop) (Q : A -> Prop) :
    k <> KRecLimit -> (forall k2, anyk k k2 -> E [] k2) -> bad F (mfail k) E Q.
  Proof. intros Hk H c Hc. cbn. exists []. repeat split; auto. congruence. Qed.
  Lemma bad_fail F {A} k (E : list string -> ekind -> Prop) (Q : A -> Prop) :
    match k with KRecLimit | KUnknownField _ _ => False | _ => True end -> E [] k -> bad F (mfail k) E Q.
  Proof. intros Hk H. apply bad_err; [intros ->; exact Hk|]. intros k2 Hk2. inversion Hk2; subst; [exact H|contradiction]. Qed.
  Lemma bad_stop F {A} (m : T A) (E : list string -> ekind -> Prop) (Q : A -> Prop) :
    (forall c, match m c with (RPanic, _) | (RFuel, _) => True | _ => False end) -> bad F m E Q.
  Proof. intros H c _. specialize (H c). destruct (m c) as [[a|k| |] c1]; auto; contradiction. Qed.
  Lemma bad_ill F {A} (E : list string -> ekind -> Prop) (Q : A -> Prop) : bad F t_ill E Q.
  Proof. apply bad_stop. intros c. exact I. Qed.
  Lemma bad_0 {A} (m : T A) (E : list string -> ekind -> Prop) (Q : A -> Prop) : bad 0 m E Q.
  Proof. intros c (I1 & I2 & _). exfalso. lia. Qed.
  Lemma bad_le F F' {A} (m : T A) E (Q : A -> Prop) : (F' <= F)%nat -> bad F m E Q -> bad F' m E Q.
  Proof.
    intros Hle H c (I1 & I2 & I3 & I4). assert (Hi : inv cf F c) by (repeat split; auto; lia). specialize (H c Hi).
    destruct (m c) as [[a|k| |] c1]; auto. destruct H as (A1 & (B1 & B2 & B3 & B4) & A3 & A4). repeat split; auto. lia.
  Qed.
  Lemma bad_deep F {A B} nm (m : T A) (f : A -> T B) (E E' : list string -> ekind -> Prop) (Q1 : A -> Prop) (Q : B -> Prop) :
    bad F m E Q1 -> (forall p k, E p k -> E' (nm :: p) k) -> E' [] KRecLimit -> (forall a, Q1 a -> bad (S F) (f a) E' Q) ->
    bad (S F) (t_push cf nm ;; let* a := m in t_pop ;; f a) E' Q.
  Proof.
    intros Hm HE Hr Hf c Hc. pose proof Hc as (I1 & I2 & I3 & I4). unfold t_push, mbind at 1.
    destruct (N.leb_spec (cf_rec cf) (c_lev c)) as [Hl|Hl].
    - exists []. split; [reflexivity|]. split; [intros k2 Hk2; inversion Hk2; subst; exact Hr|]. intros _. change (lenN (@nil string)) with 0. lia.
    - set (c0 := mkC (c_lev c + 1) (c_coll c) (c_blob c) (nm :: c_path c)).
      assert (Hi : inv cf F c0) by (unfold inv, c0; cbn; lia). specialize (Hm c0 Hi). unfold mbind at 1.
      destruct (m c0) as [[a|k| |] c1]; auto.
      + destruct Hm as (Hq & (J1 & J2 & J3 & J4) & Hlv & Hp). unfold mbind, t_pop, mmod.
        set (c2 := mkC (c_lev c1 - 1) (c_coll c1) (c_blob c1) (tl (c_path c1))).
        assert (L : c_lev c2 = c_lev c) by (unfold c2; cbn; rewrite Hlv; unfold c0; cbn; lia).
        assert (P : c_path c2 = c_path c) by (unfold c2; cbn; rewrite Hp; reflexivity).
        assert (Hi2 : inv cf (S F) c2) by (unfold inv; rewrite L; cbn; auto).
        specialize (Hf a Hq c2 Hi2). destruct (f a c2) as [[b|k| |] c3]; auto.
        * rewrite L, P in Hf. exact Hf.
        * rewrite L, P in Hf. exact Hf.
      + destruct Hm as (p & A1 & A2 & A3). exists (nm :: p). split; [|split].
        * rewrite A1. unfold c0. cbn [c_path rev]. now rewrite <- app_assoc.
        * intros k2 Hk2. apply HE, A2, Hk2.
        * intros Hk. specialize (A3 Hk). unfold c0 in A3. cbn [c_lev] in A3. rewrite lenN_cons. lia.
  Qed.
  Lemma bad_collect F {A} (m : T A) (E : list string -> ekind -> Prop) (Q : A -> Prop) : E [] KMaxCollect -> bad F m E Q -> bad F (t_collect cf ;; m) E Q.
  Proof.
    intros HE Hm c Hc. pose proof Hc as (I1 & I2 & I3 & I4). unfold t_collect, mbind.
    destruct (N.ltb_spec (cf_collect cf) (c_coll c + 1)) as [Hl|Hl].
    - exists []. split; [reflexivity|]. split; [intros k2 Hk2; inversion Hk2; subst; exact HE|discriminate].
    - specialize (Hm (mkC (c_lev c) (c_coll c + 1) (c_blob c) (c_path c)) ltac:(unfold inv; cbn; lia)). exact Hm.
  Qed.
  Lemma bad_quota F {A} n (m : T A) (E : list string -> ekind -> Prop) (Q : A -> Prop) : (n <> 0 -> E [] KMaxBlob) -> bad F m E Q -> bad F (t_quota cf n ;; m) E Q.
  Proof.
    intros HE Hm c Hc. pose proof Hc as (I1 & I2 & I3 & I4). unfold t_quota, mbind.
    destruct (N.ltb_spec (cf_blob cf) (c_blob c + n)) as [Hl|Hl].
    - exists []. split; [reflexivity|]. split; [intros k2 Hk2; inversion Hk2; subst; apply HE; lia|discriminate].
    - specialize (Hm (mkC (c_lev c) (c_coll c) (c_blob c + n) (c_path c)) ltac:(unfold inv; cbn; lia)). exact Hm.
  Qed.
  (** Knowing what a success yields. *)
  Lemma bad_know F {A} (m : T A) o E (Q : A -> Prop) : agree cf F m o -> bad F m E Q -> bad F m E (fun a => exists x, o = Some (a, x)).
  Proof.
    intros Ha Hb c Hc. specialize (Ha c Hc). specialize (Hb c Hc). destruct (m c) as [[a|k| |] c1]; auto.
    destruct o as [[v x]|]; [|contradiction]. destruct Ha as (-> & _). destruct Hb as (_ & Hb). split; [eauto|exact Hb].
  Qed.

  Variables (e : env).
  Notation ign := (cf_ignore cf).
  Notation ffault := (field_fault e ign).
  Notation efault := (elem_fault e ign).
  Notation bfault := (body_fault e ign).
  Notation sfault := (fields_fault e ign).
  Notation rfault := (record_fault e ign).

  (** What an impl's accumulator says of the occurrences so far. *)
  Definition shaped (F : nat) (zc : bool) (t : ty) (td : tdict) (S : list (N * node) -> acc -> Prop) : Prop :=
    S [] (t_init td) /\
    (forall occ a tag n, S occ a ->
       bad F (t_field td a tag n) (fun p k => forall more, ffault zc t (occ ++ (tag, n) :: more) (Some tag) p k) (S (occ ++ [(tag, n)]))) /\
    (forall occ a, S occ a -> bad F (t_fin td a) (ffault zc t occ None) (fun _ => True)).
  Definition fflt (F : nat) (zc : bool) (t : ty) (td : tdict) : Prop := exists S, shaped F zc t td S.
  Record flt (F : nat) (zc : bool) (t : ty) (td : tdict) : Prop := mkFlt {
    fl_field : fflt F zc t td;
    fl_elem : forall tag n, bad F (t_elem td tag n) (efault zc t n) (fun _ => True);
    fl_body : forall ks, bad F (t_body td ks) (bfault zc t ks) (fun _ => True)
  }.

  (** ** Bodies *)
  Section Body.
    Variable F : nat.
    Variable zc : bool.

    Inductive holds (done : list (N * node)) : list decl -> list tfdict -> list decl -> list acc -> Prop :=
    | HoNil pre : holds done pre [] [] []
    | HoCons pre nm tag t td fs ds a accs S : shaped F zc t td S -> S (occurrences pre tag done) a ->
        holds done (pre ++ [(nm, tag, t)]) fs ds accs -> holds done pre ((nm, tag, td) :: fs) ((nm, tag, t) :: ds) (a :: accs).
    Definition frel (f : tfdict) (d : decl) : Prop := fst f = fst d /\ fflt F zc (snd d) (snd f).
    Lemma holds_init fs ds : Forall2 frel fs ds -> forall pre, holds [] pre fs ds (t_inits fs).
    Proof.
      induction 1 as [|[[nm tag] td] [[nm' tag'] t] fs ds [H1 (S & H2)] HF IH]; intros pre; [constructor|].
      cbn in H1, H2. injection H1 as -> ->. unfold t_inits. cbn [map snd]. apply (HoCons _ _ _ _ _ _ _ _ _ _ S); [exact H2| |apply IH].
      replace (occurrences pre tag' []) with (@nil (N * node)) by (unfold occurrences; now destruct (existsb _ pre)). apply H2.
    Qed.
    Lemma occ_snoc pre tag done t n : occurrences pre tag (done ++ [(t, n)]) =
      if (t =? tag) && negb (existsb (fun d => decl_tag d =? tag) pre) then occurrences pre tag done ++ [(t, n)] else occurrences pre tag done.
    Proof.
      unfold occurrences. destruct (existsb _ pre); [now rewrite andb_false_r|]. rewrite andb_true_r.
      unfold with_tag. rewrite filter_app. cbn [filter fst]. destruct (t =? tag); [reflexivity|apply app_nil_r].
    Qed.
    Lemma holds_shadow done tag n pre fs ds accs : holds done pre fs ds accs -> existsb (fun d => decl_tag d =? tag) pre = true ->
      holds (done ++ [(tag, n)]) pre fs ds accs.
    Proof.
      induction 1 as [pre|pre nm tag' t td fs ds a accs S H1 H2 H3 IH]; intros Hx; [constructor|].
      apply (HoCons _ _ _ _ _ _ _ _ _ _ S); [exact H1| |].
      - rewrite occ_snoc. destruct (N.eqb_spec tag tag') as [<-|]; [rewrite Hx|]; exact H2.
      - apply IH. rewrite existsb_app, Hx. reflexivity.
    Qed.
    Lemma holds_unknown done tag n pre fs ds accs : holds done pre fs ds accs -> find_tag tag fs = None ->
      holds (done ++ [(tag, n)]) pre fs ds accs.
    Proof.
      induction 1 as [pre|pre nm tag' t td fs ds a accs S H1 H2 H3 IH]; intros Hx; [constructor|].
      cbn [find_tag] in Hx. destruct (N.eqb_spec tag' tag) as [->|Hne]; [discriminate|].
      destruct (find_tag tag fs) as [[[i x] y]|]; [discriminate|].
      apply (HoCons _ _ _ _ _ _ _ _ _ _ S); [exact H1| |now apply IH].
      rewrite occ_snoc. destruct (N.eqb_spec tag tag'); [congruence|exact H2].
    Qed.
    Lemma holds_known done tag n pre fs ds accs : holds done pre fs ds accs -> existsb (fun d => decl_tag d =? tag) pre = false ->
      forall i nm td, find_tag tag fs = Some (i, nm, td) ->
      exists pre1 t post S, ds = pre1 ++ (nm, tag, t) :: post /\ shaped F zc t td S /\
        existsb (fun d => decl_tag d =? tag) (pre ++ pre1) = false /\
        S (with_tag tag done) (nth i accs (AOpt None)) /\
        forall a', S (with_tag tag done ++ [(tag, n)]) a' -> holds (done ++ [(tag, n)]) pre fs ds (upd i a' accs).
    Proof.
      induction 1 as [pre|pre nm tag' t td fs ds a accs S H1 H2 H3 IH]; intros Hx i nm0 td0 Hf; [discriminate|].
      cbn [find_tag] in Hf. destruct (N.eqb_spec tag' tag) as [->|Hne].
      - injection Hf as <- <- <-. exists [], t, ds, S. split; [reflexivity|]. split; [exact H1|]. rewrite app_nil_r. split; [exact Hx|].
        unfold occurrences in H2. rewrite Hx in H2. split; [exact H2|]. intros a' Ha'. cbn [upd].
        apply (HoCons _ _ _ _ _ _ _ _ _ _ S); [exact H1| |].
        + rewrite occ_snoc, N.eqb_refl, Hx. cbn [andb negb]. unfold occurrences. now rewrite Hx.
        + apply holds_shadow; [exact H3|]. rewrite existsb_app. cbn [existsb]. unfold decl_tag at 2. cbn [fst snd]. rewrite N.eqb_refl. now rewrite !orb_true_r.
      - destruct (find_tag tag fs) as [[[i' nm'] td']|] eqn:Ef; [|discriminate]. injection Hf as <- <- <-.
        destruct (IH) with (i := i') (nm := nm') (td := td') as (pre1 & t1 & post & S1 & E1 & E2 & E3 & E4 & E5); [|reflexivity|].
        { rewrite existsb_app, Hx. cbn. unfold decl_tag. cbn. destruct (N.eqb_spec tag' tag); [contradiction|reflexivity]. }
        exists ((nm, tag', t) :: pre1), t1, post, S1. rewrite E1. split; [reflexivity|]. split; [exact E2|].
        split; [rewrite <- app_assoc in E3; exact E3|]. split; [exact E4|]. intros a' Ha'. cbn [upd].
        rewrite <- E1. apply (HoCons _ _ _ _ _ _ _ _ _ _ S); [exact H1| |now apply E5].
        rewrite occ_snoc. destruct (N.eqb_spec tag tag'); [congruence|exact H2].
    Qed.

    Definition urel (tu : option (string * tdict)) (sp : special) (Su : list (N * node) -> acc -> Prop) : Prop :=
      match tu, sp with
      | None, SpNone => True
      | Some (nm, td), SpUnknown nm' t => nm = nm' /\ shaped F zc t td Su
      | _, _ => False
      end.
    Lemma find_none fs ds tag : Forall2 frel fs ds -> find_tag tag fs = None -> existsb (fun d => decl_tag d =? tag) ds = false.
    Proof.
      induction 1 as [|[[nm tag1] td] [[nm' tag'] t] fs ds [H1 H2] HF IH]; intros H; [reflexivity|].
      cbn in H1. injection H1 as -> ->. cbn [find_tag] in H. cbn [existsb]. unfold decl_tag at 1. cbn [fst snd].
      destruct (tag' =? tag); [discriminate|]. destruct (find_tag tag fs) as [[[i x] y]|]; [discriminate|]. now apply IH.
    Qed.
    Lemma find_some fs ds tag i nm td : Forall2 frel fs ds -> find_tag tag fs = Some (i, nm, td) -> existsb (fun d => decl_tag d =? tag) ds = true.
    Proof.
      intros HF. revert i. induction HF as [|[[nm1 tag1] td1] [[nm' tag'] t] fs ds [H1 H2] HF IH]; intros i H; [discriminate|].
      cbn in H1. injection H1 as -> ->. cbn [find_tag] in H. cbn [existsb]. unfold decl_tag at 1. cbn [fst snd].
      destruct (tag' =? tag); [reflexivity|]. destruct (find_tag tag fs) as [[[i' x] y]|]; [|discriminate].
      injection H as <- <- <-. exact (IH i' eq_refl).
    Qed.
    Lemma others_snoc ds done tag n : others ds (done ++ [(tag, n)]) =
      if existsb (fun d => decl_tag d =? tag) ds then others ds done else others ds done ++ [(tag, n)].
    Proof. unfold others. rewrite filter_app. cbn [filter fst]. destruct (existsb _ ds); cbn [negb]; [apply app_nil_r|reflexivity]. Qed.
    Lemma others_app ds a b : others ds (a ++ b) = others ds a ++ others ds b.
    Proof. apply filter_app. Qed.

    Lemma bad_loop fs ds tu sp Su ks : Forall2 frel fs ds -> urel tu sp Su -> forall rest done accs ua, ks = done ++ rest ->
      holds done [] fs ds accs -> (tu <> None -> Su (others ds done) ua) ->
      bad (S F) (t_loop (t_step cf fs tu) (accs, ua) rest) (sfault zc ds sp ks)
        (fun st => holds ks [] fs ds (fst st) /\ (tu <> None -> Su (others ds ks) (snd st))).
    Proof.
      intros HF HU. induction rest as [|[tag n] rest IH]; intros done accs ua Ek Hh Hu; cbn [t_loop].
      - rewrite app_nil_r in Ek. subst ks. now apply bad_ret.
      - assert (Ek2 : ks = (done ++ [(tag, n)]) ++ rest) by now rewrite <- app_assoc.
        apply bad_bind with (Q1 := fun st => holds (done ++ [(tag, n)]) [] fs ds (fst st) /\ (tu <> None -> Su (others ds (done ++ [(tag, n)])) (snd st))).
        2:{ intros [accs' ua'] [H1 H2]. exact (IH _ _ _ Ek2 H1 H2). }
        unfold t_step. destruct (find_tag tag fs) as [[[i nm] td]|] eqn:Ef.
        + destruct (holds_known _ tag n _ _ _ _ Hh eq_refl _ _ _ Ef) as (pre & t & post & S1 & E1 & E2 & E3 & E4 & E5).
          cbn [app] in E3.
          eapply (bad_deep F nm (t_field td (nth i accs (AOpt None)) tag n)); [apply E2, E4| | |].
          * intros p k Hp. rewrite E1. apply (FfField e ign zc pre nm tag t post sp ks (Some tag)).
            specialize (Hp (with_tag tag rest)). unfold occurrences. rewrite E3. rewrite Ek. unfold with_tag in *. rewrite filter_app.
            cbn [filter fst]. rewrite N.eqb_refl. exact Hp.
          * apply FfDeep. left. rewrite E1. now destruct pre.
          * intros a' Ha'. apply bad_ret. cbn [fst snd]. split; [now apply E5|].
            intros Ht. rewrite others_snoc, (find_some _ _ _ _ _ _ HF Ef). now apply Hu.
        + pose proof (find_none _ _ _ HF Ef) as Hx. destruct tu as [[un td]|].
          * destruct sp as [|nm t|nm t]; try contradiction. destruct HU as [-> HS].
            eapply (bad_deep F (tag_name tag) (t_field td ua tag n)); [apply HS, Hu; discriminate| | |].
            -- intros p k Hp. apply (FfCaught e ign zc ds nm t ks tag).
               specialize (Hp (others ds rest)). rewrite Ek, others_app. unfold others at 2. cbn [filter fst]. rewrite Hx. exact Hp.
            -- apply FfDeep. right. eauto.
            -- intros a' Ha'. apply bad_ret. cbn [fst snd]. split; [now apply holds_unknown|].
               intros Ht. rewrite others_snoc, Hx. exact Ha'.
          * destruct sp as [|nm t|nm t]; try contradiction.
            apply bad_bind with (Q1 := fun _ => True).
            -- unfold t_unknown. destruct (cf_ignore cf) eqn:Ei; [now apply bad_ret|].
               apply bad_err; [discriminate|]. intros k2 Hk2. inversion Hk2; subst.
               ++ apply (FfUnknown e _ zc ds _ tag n 0 eq_refl). rewrite others_app. apply in_or_app. right. unfold others. cbn [filter fst]. rewrite Hx. now left.
               ++ apply (FfUnknown e _ zc ds _ tag n _ eq_refl). rewrite others_app. apply in_or_app. right. unfold others. cbn [filter fst]. rewrite Hx. now left.
            -- intros _ _. apply bad_ret. cbn [fst snd]. split; [now apply holds_unknown|]. intros Ht. now destruct Ht.
    Qed.
    Lemma bad_finish_all ds sp ks : forall pre fs ds' accs, holds ks pre fs ds' accs -> ds = pre ++ ds' ->
      bad (S F) (t_finish_all cf fs accs) (sfault zc ds sp ks) (fun _ => True).
    Proof.
      induction 1 as [pre|pre nm tag t td fs ds' a accs S H1 H2 H3 IH]; intros Ed; cbn [t_finish_all]; [now apply bad_ret|].
      apply bad_bind with (Q1 := fun _ => True).
      - unfold t_finish_one. eapply (bad_deep F nm (t_fin td a)); [apply H1, H2| | |].
        + intros p k Hp. rewrite Ed. now apply (FfField e ign zc pre nm tag t ds' sp ks None).
        + apply FfDeep. left. rewrite Ed. now destruct pre.
        + intros v _. now apply bad_ret.
      - intros v _. apply bad_bind with (Q1 := fun _ => True); [|intros; now apply bad_ret]. apply IH. now rewrite <- app_assoc.
    Qed.
    Lemma bad_des_body fs ds tu sp Su ks : Forall2 frel fs ds -> urel tu sp Su ->
      bad (S F) (t_des_body cf fs tu ks) (sfault zc ds sp ks) (fun _ => True).
    Proof.
      intros HF HU. unfold t_des_body. eapply bad_bind.
      - apply (bad_loop fs ds tu sp Su ks HF HU ks [] _ _ eq_refl).
        + apply holds_init, HF.
        + intros Ht. destruct tu as [[nm td]|]; [|now destruct Ht]. destruct sp as [|nm' t|nm' t]; try contradiction. destruct HU as [-> HS]. apply HS.
      - intros [accs ua] [Hh Hu]. cbn [fst snd] in *. apply bad_bind with (Q1 := fun _ => True).
        + exact (bad_finish_all ds sp ks [] fs ds accs Hh eq_refl).
        + intros vs _. destruct tu as [[nm td]|]; [|now apply bad_ret]. destruct sp as [|nm' t|nm' t]; try contradiction. destruct HU as [-> HS].
          apply bad_bind with (Q1 := fun _ => True); [|intros; now apply bad_ret].
          unfold t_finish_one. eapply (bad_deep F nm' (t_fin td ua)); [apply HS, Hu; discriminate| | |].
          * intros p k Hp. now apply FfCatch.
          * apply FfDeep. right. eauto.
          * intros v _. now apply bad_ret.
    Qed.
    Lemma bad_top td t ks : fflt F zc t td -> in_top e t -> bad (S F) (t_body_default cf td ks) (bfault zc t ks) (fun _ => True).
    Proof.
      intros H Ht. unfold t_body_default. apply bad_bind with (Q1 := fun _ => True).
      - eapply bad_imp; [apply (bad_des_body [("top"%string, 1, td)] [("top"%string, 1, t)] None SpNone (fun _ _ => True) ks)|intros p k; apply BfTop, Ht|auto].
        + apply Forall2_cons; [split; [reflexivity|exact H]|apply Forall2_nil].
        + exact I.
      - intros [|v [|]] _; [apply bad_ill|now apply bad_ret|apply bad_ill].
    Qed.
  End Body.
End Bad.

Section Types.
  Variable cf : cfg.
  Variable e : env.
  Notation ign := (cf_ignore cf).
  Notation ffault := (field_fault e ign).
  Notation efault := (elem_fault e ign).
  Notation bfault := (body_fault e ign).
  Notation rfault := (record_fault e ign).
  Notation fflt := (fflt cf e).
  Notation flt := (flt cf e).
  Notation bad := (bad cf).

  Lemma bad_S F {A} (m : T A) E (Q : A -> Prop) : bad (S F) m E Q -> bad F m E Q.
  Proof. apply bad_le. lia. Qed.

  (** ** One occurrence *)
  Definition one (occ : list (N * node)) (a : acc) : Prop :=
    match occ with [] => a = AOpt None | [_] => exists v, a = AOpt (Some v) | _ => False end.
  Definition at_most_one (t : ty) : Prop :=
    required t \/ (exists t', t = TOption t') \/ (exists m t', t = TArray m t' /\ is_u8 t' = true).
  Definition elem_ty (t : ty) : ty := match t with TOption t' => t' | _ => t end.
  Lemma too_many_kind t : match one_too_many t with KRecLimit | KUnknownField _ _ => False | _ => True end.
  Proof. destruct t; exact I. Qed.
  Lemma bad_once F zc t conv occ a tag n : at_most_one t -> (forall tag n, bad F (conv tag n) (efault zc (elem_ty t) n) (fun _ => True)) -> one occ a ->
    bad F (t_opt_field (one_too_many t) conv a tag n) (fun p k => forall more, ffault zc t (occ ++ (tag, n) :: more) (Some tag) p k) (one (occ ++ [(tag, n)])).
  Proof.
    intros Ht Hc Ho. destruct occ as [|f [|g occ]]; [| |contradiction].
    - cbn in Ho. subst a. cbn [t_opt_field]. apply bad_bind with (Q1 := fun _ => True).
      + eapply bad_imp; [apply Hc| |auto]. intros p k Hp more. now apply OfFirst.
      + intros v _. apply bad_ret. cbn. eauto.
    - destruct Ho as (v & ->). cbn [t_opt_field]. apply bad_fail; [apply too_many_kind|]. intros more. now apply OfSecond.
  Qed.
  Lemma bad_need F zc t occ a : required t -> one occ a -> bad F (t_opt_fin a) (ffault zc t occ None) (fun _ => True).
  Proof.
    intros Ht Ho. destruct occ as [|f [|g occ]]; [| |contradiction].
    - cbn in Ho. subst a. apply bad_fail; [exact I|]. now apply OfMissing.
    - destruct Ho as (v & ->). now apply bad_ret.
  Qed.
  Lemma fflt_once F zc t td conv : required t -> t_init td = AOpt None -> t_field td = t_opt_field (one_too_many t) conv -> t_fin td = t_opt_fin ->
    (forall tag n, bad F (conv tag n) (efault zc t n) (fun _ => True)) -> fflt F zc t td.
  Proof.
    intros Ht E1 E2 E3 Hc. exists one. split; [now rewrite E1|]. split.
    - intros occ a tag n Ho. rewrite E2. apply bad_once; [now left| |exact Ho].
      intros tag0 n0. replace (elem_ty t) with t; [apply Hc|]. destruct t; try reflexivity. destruct Ht as [[]|[[]|[]]].
    - intros occ a Ho. rewrite E3. now apply bad_need.
  Qed.
  Lemma flt_simple F zc t conv : required t -> in_top e t -> one_too_many t = KTooMany 1 ->
    (forall tag n, bad F (conv tag n) (efault zc t n) (fun _ => True)) -> flt F zc t (t_unary cf conv).
  Proof.
    intros Ht Hi Hk Hc.
    assert (Hf : forall td, t_init td = AOpt None -> t_field td = t_opt_field (KTooMany 1) conv -> t_fin td = t_opt_fin -> fflt F zc t td).
    { intros td E1 E2 E3. apply (fflt_once F zc t td conv); auto. now rewrite Hk. }
    split.
    - apply Hf; reflexivity.
    - intros tag n. unfold t_unary. cbn [t_with_default_body t_elem]. apply bad_bind with (Q1 := fun a => exists v, a = AOpt (Some v)).
      + cbn [t_opt_field]. apply bad_bind with (Q1 := fun _ => True); [apply Hc|]. intros v _. apply bad_ret. eauto.
      + intros a (v & ->). now apply bad_ret.
    - intros ks. unfold t_unary. cbn [t_with_default_body t_body]. apply bad_S, bad_top; [|exact Hi]. apply Hf; reflexivity.
  Qed.

  (** ** Values *)
  Lemma bad_want F {A} (want : fty) (r : res serr A) (n : node) (E : list string -> ekind -> Prop) (Q : A -> Prop) :
    match r with
    | ROk a => Q a
    | RErr x => E [] (KStream x)
    | _ => False
    end -> bad F (t_lift r) E Q.
  Proof.
    destruct r; cbn [t_lift]; intros H; try contradiction; [now apply bad_ret|]. now apply bad_fail.
  Qed.
  Ltac kinds := intros tag n; destruct n as [x|b|fs|d fs].
  Lemma bad_uint F zc w tag n : bad F (t_conv_uint w tag n) (efault zc (TUInt w) n) (fun _ => True).
  Proof.
    unfold t_conv_uint. apply bad_bind with (Q1 := fun _ => True); [|intros; now apply bad_ret]. apply (bad_want _ FInteger _ n).
    destruct n as [x|b|fs|d fs]; cbn [hdr_node to_uint hdr_fty].
    - destruct (N.ltb_spec (umax w) x); [|exact I]. apply EfRange. exact H.
    - apply (EfNumber e ign zc (TUInt w) (NBlob b)); [exact I|discriminate].
    - apply (EfNumber e ign zc (TUInt w) (NStruct fs)); [exact I|discriminate].
    - apply (EfNumber e ign zc (TUInt w) (NEnum d fs)); [exact I|discriminate].
  Qed.
  Lemma bad_sint F zc w tag n : bad F (t_conv_sint w tag n) (efault zc (TSInt w) n) (fun _ => True).
  Proof.
    unfold t_conv_sint. apply bad_bind with (Q1 := fun _ => True); [|intros; now apply bad_ret]. apply (bad_want _ FInteger _ n).
    destruct n as [x|b|fs|d fs]; cbn [hdr_node to_sint hdr_fty]; cbv zeta.
    - destruct (Z.ltb_spec (unzigzag x) (smin w)); [|destruct (Z.ltb_spec (smax w) (unzigzag x)); [|exact I]]; apply EfRange; cbn; lia.
    - apply (EfNumber e ign zc (TSInt w) (NBlob b)); [exact I|discriminate].
    - apply (EfNumber e ign zc (TSInt w) (NStruct fs)); [exact I|discriminate].
    - apply (EfNumber e ign zc (TSInt w) (NEnum d fs)); [exact I|discriminate].
  Qed.
  Lemma bad_bool F zc tag n : bad F (t_conv_bool tag n) (efault zc TBool n) (fun _ => True).
  Proof.
    unfold t_conv_bool. apply bad_bind with (Q1 := fun _ => True); [|intros; now apply bad_ret]. apply (bad_want _ FInteger _ n).
    destruct n as [x|b|fs|d fs]; unfold to_bool; cbn [hdr_node to_uint hdr_fty].
    - destruct (N.ltb_spec (umax 64) x) as [H|H]; [change (umax 64) with 18446744073709551615 in H; apply EfRange; cbn; lia|].
      destruct (N.eqb_spec x 0); [exact I|]. destruct (N.eqb_spec x 1); [exact I|]. apply EfRange. cbn. lia.
    - apply (EfNumber e ign zc TBool (NBlob b)); [exact I|discriminate].
    - apply (EfNumber e ign zc TBool (NStruct fs)); [exact I|discriminate].
    - apply (EfNumber e ign zc TBool (NEnum d fs)); [exact I|discriminate].
  Qed.
  Lemma bad_phantom F zc tag n : bad F (t_conv_phantom tag n) (efault zc TPhantom n) (fun _ => True).
  Proof.
    unfold t_conv_phantom. apply bad_bind with (Q1 := fun _ => True); [|intros; now apply bad_ret]. apply (bad_want _ FInteger _ n).
    destruct n as [x|b|fs|d fs]; cbn [hdr_node to_null hdr_fty].
    - destruct (N.eqb_spec x 0); [exact I|]. apply EfRange. cbn. lia.
    - apply (EfNumber e ign zc TPhantom (NBlob b)); [exact I|discriminate].
    - apply (EfNumber e ign zc TPhantom (NStruct fs)); [exact I|discriminate].
    - apply (EfNumber e ign zc TPhantom (NEnum d fs)); [exact I|discriminate].
  Qed.
  Lemma bad_char F zc tag n : bad F (t_conv_char tag n) (efault zc TChar n) (fun _ => True).
  Proof.
    unfold t_conv_char. apply bad_bind with (Q1 := fun x => n = NInt x).
    - apply (bad_want _ FInteger _ n). destruct n as [x|b|fs|d fs]; cbn [hdr_node to_uint hdr_fty].
      + destruct (N.ltb_spec (umax 32) x); [|reflexivity]. apply EfRange. exact H.
      + apply (EfNumber e ign zc TChar (NBlob b)); [exact I|discriminate].
      + apply (EfNumber e ign zc TChar (NStruct fs)); [exact I|discriminate].
      + apply (EfNumber e ign zc TChar (NEnum d fs)); [exact I|discriminate].
    - intros x ->. destruct (char_ok x) eqn:Ec; [now apply bad_ret|]. apply bad_fail; [exact I|]. apply EfChar.
      intros Hs. apply char_scalar in Hs. congruence.
  Qed.
  Lemma want_blob F zc t n : stringy t \/ bytesy t -> bad F (t_lift (to_blob (hdr_node n))) (efault zc t n) (fun len => len = lenN (blob_of n) /\ n = NBlob (blob_of n)).
  Proof.
    intros Ht. apply (bad_want _ FBlob _ n). destruct n as [x|b|fs|d fs]; cbn [hdr_node to_blob hdr_fty].
    - apply (EfBlob e ign zc t (NInt x)); [exact Ht|discriminate].
    - split; reflexivity.
    - apply (EfBlob e ign zc t (NStruct fs)); [exact Ht|discriminate].
    - apply (EfBlob e ign zc t (NEnum d fs)); [exact Ht|discriminate].
  Qed.
  Lemma bad_owned F zc t n : stringy t \/ bytesy t -> copies zc t -> bad F (t_read_owned cf n) (efault zc t n) (fun b => n = NBlob b).
  Proof.
    intros Ht Hc. unfold t_read_owned. eapply bad_bind; [apply (want_blob F zc t n Ht)|]. intros len [-> En]. cbn beta.
    apply bad_quota.
    - intros Hl. rewrite En. apply EfCopy; [exact Hc|]. intros Hb. rewrite Hb in Hl. now apply Hl.
    - now apply bad_ret.
  Qed.
  Lemma bad_borrowed F zc t n : stringy t \/ bytesy t -> bad F (t_read_borrowed n) (efault zc t n) (fun b => n = NBlob b).
  Proof.
    intros Ht. unfold t_read_borrowed. eapply bad_bind; [apply (want_blob F zc t n Ht)|]. intros len [-> En]. now apply bad_ret.
  Qed.
  Lemma bad_utf8 F zc t n b : stringy t -> n = NBlob b -> bad F (if utf8_ok b then mret (VStr b) else mfail KInvalid) (efault zc t n) (fun _ => True).
  Proof.
    intros Ht ->. destruct (utf8_ok b) eqn:Eb; [now apply bad_ret|]. apply bad_fail; [exact I|]. apply EfText; [exact Ht|].
    intros Hx. apply utf8_text in Hx. congruence.
  Qed.
  Lemma bad_string F zc t tag n : stringy t -> copies zc t -> bad F (t_conv_string cf tag n) (efault zc t n) (fun _ => True).
  Proof.
    intros Ht Hc. unfold t_conv_string. eapply bad_bind; [apply (bad_owned F zc t n); auto|]. intros b Eb. now apply bad_utf8.
  Qed.
  Lemma bad_str_ref F zc t tag n : stringy t -> bad F (t_conv_str_ref tag n) (efault zc t n) (fun _ => True).
  Proof.
    intros Ht. unfold t_conv_str_ref. eapply bad_bind; [apply (bad_borrowed F zc t n); auto|]. intros b Eb. now apply bad_utf8.
  Qed.
  Lemma bad_bytes_ref F zc t tag n : bytesy t -> bad F (t_conv_bytes_ref tag n) (efault zc t n) (fun _ => True).
  Proof.
    intros Ht. unfold t_conv_bytes_ref. eapply bad_bind; [apply (bad_borrowed F zc t n); auto|]. intros b Eb. now apply bad_ret.
  Qed.
  Lemma flt_vecu8 F zc t : bytesy t -> required t -> copies zc t -> in_top e t -> one_too_many t = KTooMany 1 -> flt F zc t (t_vecu8 cf).
  Proof.
    intros Ht Hs Hc Hi Hk.
    assert (He : elem_ty t = t) by (destruct t; try reflexivity; destruct Ht).
    assert (Hf : forall td, t_init td = AOpt None -> t_field td = t_vecu8_field cf -> t_fin td = t_opt_fin -> fflt F zc t td).
    { intros td E1 E2 E3. exists one. split; [now rewrite E1|]. split.
      - intros occ a tag n Ho. rewrite E2. destruct occ as [|f [|g occ]]; [| |contradiction].
        + cbn in Ho. subst a. cbn [t_vecu8_field]. eapply bad_bind.
          * eapply bad_imp; [apply (bad_owned F zc t n); auto| |intros b Hb; exact Hb]. intros p k Hp more. apply OfFirst; [now left|]. change (efault zc (elem_ty t) n p k). now rewrite He.
          * intros v _. apply bad_ret. cbn. eauto.
        + destruct Ho as (v & ->). cbn [t_vecu8_field]. apply bad_fail; [exact I|]. intros more. rewrite <- Hk. apply OfSecond. now left.
      - intros occ a Ho. rewrite E3. now apply bad_need. }
    split.
    - apply Hf; reflexivity.
    - intros tag n. unfold t_vecu8. cbn [t_with_default_body t_elem]. eapply bad_bind; [apply (bad_owned F zc t n); auto|]. intros b _. now apply bad_ret.
    - intros ks. unfold t_vecu8. cbn [t_with_default_body t_body]. apply bad_S, bad_top; [|exact Hi]. apply Hf; reflexivity.
  Qed.
  Lemma bad_array F zc m t n : is_u8 t = true -> bad F (t_read_array m n) (efault zc (TArray m t) n) (fun _ => True).
  Proof.
    intros Ht. unfold t_read_array. eapply bad_bind; [apply (want_blob F zc (TArray m t) n); now right|]. intros len [-> En].
    destruct (N.eqb_spec (lenN (blob_of n)) m) as [|Hne]; [now apply bad_ret|]. apply bad_fail; [exact I|]. rewrite En. now apply EfLength.
  Qed.
  Lemma flt_arru8 F zc m t : is_u8 t = true -> flt F zc (TArray m t) (t_arru8 cf m).
  Proof.
    intros Ht.
    assert (H1 : at_most_one (TArray m t)) by (right; right; eauto).
    assert (Hf : forall td, t_init td = AOpt None -> t_field td = t_arru8_field m -> t_fin td = t_arru8_fin m -> fflt F zc (TArray m t) td).
    { intros td E1 E2 E3. exists one. split; [now rewrite E1|]. split.
      - intros occ a tag n Ho. rewrite E2. destruct occ as [|f [|g occ]]; [| |contradiction].
        + cbn in Ho. subst a. cbn [t_arru8_field]. apply bad_bind with (Q1 := fun _ => True).
          * eapply bad_imp; [apply (bad_array F zc m t n Ht)| |auto]. intros p k Hp more. now apply OfFirst.
          * intros v _. apply bad_ret. cbn. eauto.
        + destruct Ho as (v & ->). cbn [t_arru8_field]. destruct (N.leb_spec m 32) as [Hm|Hm].
          * apply bad_fail; [exact I|]. intros more. now apply (OfSecond e ign zc (TArray m t)).
          * apply bad_bind with (Q1 := fun _ => True).
            -- eapply bad_imp; [apply (bad_array F zc m t n Ht)| |auto]. intros p k Hp more. now apply OfBytesSecond.
            -- intros _ _. apply bad_fail; [exact I|]. intros more. now apply (OfSecond e ign zc (TArray m t)).
      - intros occ a Ho. rewrite E3. destruct occ as [|f [|g occ]]; [| |contradiction].
        + cbn in Ho. subst a. cbn [t_arru8_fin]. destruct (N.eqb_spec m 0); [now apply bad_ret|]. apply bad_fail; [exact I|]. apply OfBytesMissing; [exact Ht|lia].
        + destruct Ho as (v & ->). now apply bad_ret. }
    split.
    - apply Hf; reflexivity.
    - intros tag n. unfold t_arru8. cbn [t_with_default_body t_elem]. now apply bad_array.
    - intros ks. unfold t_arru8. cbn [t_with_default_body t_body]. apply bad_S, bad_top; [|exact I]. apply Hf; reflexivity.
  Qed.

  (** ** Collections *)
  Lemma bad_struct F zc t n (body : list (N * node) -> T value) : in_struct e t ->
    (forall ks, bad F (body ks) (bfault zc t ks) (fun _ => True)) ->
    bad F (t_lift (to_struct (hdr_node n)) ;; body (kids n)) (efault zc t n) (fun _ => True).
  Proof.
    intros Ht Hb. apply bad_bind with (Q1 := fun _ => n = NStruct (kids n)).
    - apply (bad_want _ FStruct _ n). destruct n as [x|b|fs|d fs]; cbn [hdr_node to_struct hdr_fty]; [| |reflexivity|].
      + apply (EfStruct e ign zc t (NInt x)); [exact Ht|discriminate].
      + apply (EfStruct e ign zc t (NBlob b)); [exact Ht|discriminate].
      + apply (EfStruct e ign zc t (NEnum d fs)); [exact Ht|discriminate].
    - intros _ En. eapply bad_imp; [apply Hb| |auto]. intros p k Hp. rewrite En. now apply EfBody.
  Qed.
  Lemma flt_wrapped F zc t td : in_struct e t -> in_top e t -> fflt F zc t td ->
    fflt F zc t (t_wrapped cf td) -> flt F zc t (t_wrapped cf td).
  Proof.
    intros H1 H2 Hf Hf'. split; [exact Hf'| |].
    - intros tag n. unfold t_wrapped. cbn [t_elem]. apply bad_struct; [exact H1|]. intros ks. now apply bad_S, bad_top.
    - intros ks. unfold t_wrapped. cbn [t_body]. now apply bad_S, bad_top.
  Qed.
  Lemma flt_coll F zc t t' ins td : collection_of t t' -> in_struct e t -> in_top e t -> flt F zc t' td ->
    flt F zc t (t_coll cf ins td).
  Proof.
    intros Hc H1 H2 Hd.
    assert (Hf : forall td', t_init td' = AList [] -> t_field td' = t_coll_field cf ins td -> t_fin td' = t_coll_fin -> fflt F zc t td').
    { intros td' E1 E2 E3. exists (fun _ a => exists vs, a = AList vs). split; [rewrite E1; eauto|]. split.
      - intros occ a tag n (vs & ->). rewrite E2. cbn [t_coll_field]. apply bad_collect.
        + intros more. eapply OfMany; [exact Hc|]. apply in_or_app. right. now left.
        + apply bad_bind with (Q1 := fun _ => True); [|intros; apply bad_ret; eauto].
          eapply bad_imp; [apply (fl_elem _ _ _ _ _ _ Hd)| |auto]. intros p k Hp more. eapply OfElem; [exact Hc| |exact Hp]. apply in_or_app. right. now left.
      - intros occ a (vs & ->). rewrite E3. now apply bad_ret. }
    apply flt_wrapped; [exact H1|exact H2|apply Hf; reflexivity|apply Hf; reflexivity].
  Qed.
  Lemma flt_map F zc k v tk tv : flt F zc (TTuple [k; v]) (t_tuple cf [tk; tv]) -> flt F zc (TMap k v) (t_map cf tk tv).
  Proof.
    intros Hd.
    assert (Hf : forall td', t_init td' = AMap [] -> t_field td' = t_map_field cf tk tv -> t_fin td' = t_map_fin -> fflt F zc (TMap k v) td').
    { intros td' E1 E2 E3. exists (fun _ a => exists vs, a = AMap vs). split; [rewrite E1; eauto|]. split.
      - intros occ a tag n (vs & ->). rewrite E2. cbn [t_map_field]. apply bad_collect.
        + intros more. eapply OfMany; [constructor|]. apply in_or_app. right. now left.
        + apply bad_bind with (Q1 := fun _ => True).
          * eapply bad_imp; [apply (fl_elem _ _ _ _ _ _ Hd)| |auto]. intros p x Hp more. eapply OfElem; [constructor| |exact Hp]. apply in_or_app. right. now left.
          * intros kv _. destruct kv; try apply bad_ill. destruct vs0 as [|a0 [|b0 [|]]]; try apply bad_ill. apply bad_ret. eauto.
      - intros occ a (vs & ->). rewrite E3. now apply bad_ret. }
    apply flt_wrapped; [exact I|exact I|apply Hf; reflexivity|apply Hf; reflexivity].
  Qed.
  Lemma flt_arr F zc m t td : is_u8 t = false -> flt F zc t td -> flt F zc (TArray m t) (t_arr cf m td).
  Proof.
    intros Hu Hd.
    assert (Hf : forall td', t_init td' = AList [] -> t_field td' = t_arr_field m td -> t_fin td' = t_arr_fin m -> fflt F zc (TArray m t) td').
    { intros td' E1 E2 E3. exists (fun occ a => exists vs, a = AList vs /\ lenN vs = lenN occ /\ lenN occ <= m). split; [rewrite E1; exists []; split; [reflexivity|]; split; [reflexivity|apply N.le_0_l]|]. split.
      - intros occ a tag n (vs & -> & Hl & Hm). rewrite E2. cbn [t_arr_field]. destruct (N.leb_spec m (lenN vs)) as [Hge|Hlt].
        + apply bad_fail; [exact I|]. intros more. apply OfArrayMore; [exact Hu|lia].
        + apply bad_bind with (Q1 := fun _ => True).
          * eapply bad_imp; [apply (fl_elem _ _ _ _ _ _ Hd)| |auto]. intros p k Hp more. apply OfArrayElem; [exact Hu|lia|exact Hp].
          * intros v _. apply bad_ret. exists (vs ++ [v]). split; [reflexivity|]. rewrite !lenN_app. change (lenN [v]) with 1. change (lenN [(tag, n)]) with 1. lia.
      - intros occ a (vs & -> & Hl & Hm). rewrite E3. cbn [t_arr_fin]. destruct (N.ltb_spec (lenN vs) m) as [Hlt|Hge]; [|now apply bad_ret].
        destruct vs as [|v vs].
        + destruct occ; [|rewrite lenN_cons in Hl; change (lenN (@nil value)) with 0 in Hl; lia]. apply bad_fail; [exact I|]. apply OfArrayNone; [exact Hu|]. change (lenN (@nil value)) with 0 in Hlt. lia.
        + apply bad_fail; [exact I|]. apply OfArrayFew; [exact Hu| |lia]. intros ->. rewrite lenN_cons in Hl. change (lenN (@nil (N * node))) with 0 in Hl. lia. }
    apply flt_wrapped; [exact Hu|exact I|apply Hf; reflexivity|apply Hf; reflexivity].
  Qed.
  Lemma flt_option F zc t td : flt F zc t td -> flt F zc (TOption t) (t_option cf td).
  Proof.
    intros Hd.
    assert (Hf : forall td', t_init td' = AOpt None -> t_field td' = t_opt_field (KTooMany 1) (t_elem td) -> t_fin td' = t_option_fin -> fflt F zc (TOption t) td').
    { intros td' E1 E2 E3. exists one. split; [now rewrite E1|]. split.
      - intros occ a tag n Ho. rewrite E2. apply (bad_once F zc (TOption t)); [right; left; eauto|apply (fl_elem _ _ _ _ _ _ Hd)|exact Ho].
      - intros occ a Ho. rewrite E3. destruct occ as [|f [|g occ]]; [| |contradiction].
        + cbn in Ho. subst a. now apply bad_ret.
        + destruct Ho as (v & ->). now apply bad_ret. }
    apply flt_wrapped; [exact I|exact I|apply Hf; reflexivity|apply Hf; reflexivity].
  Qed.

  (** ** Structs *)
  Lemma flt_struct F zc t body elem : required t ->
    (forall ks, bad F (body ks) (bfault zc t ks) (fun _ => True)) ->
    (forall tag n, bad F (elem tag n) (efault zc t n) (fun _ => True)) -> flt F zc t (t_struct (one_too_many t) body elem).
  Proof.
    intros Ht Hb He. split; [|exact He|exact Hb]. now apply (fflt_once F zc t _ elem).
  Qed.
  Lemma tuple_frel F zc ts tds : Forall2 (flt F zc) ts tds -> forall i, Forall2 (frel cf e F zc) (t_tuple_fields i tds) (numbered i ts).
  Proof.
    induction 1 as [|t td ts tds H HF IH]; intros i; cbn [t_tuple_fields numbered]; [apply Forall2_nil|].
    apply Forall2_cons; [|apply IH]. split; [reflexivity|]. apply (fl_field _ _ _ _ _ _ H).
  Qed.
  Lemma flt_tuple F zc ts tds : Forall2 (flt F zc) ts tds -> flt F zc (TTuple ts) (t_tuple cf tds).
  Proof.
    intros HF.
    assert (Hb : forall ks, bad F (t_tuple_body cf tds ks) (bfault zc (TTuple ts) ks) (fun _ => True)).
    { intros ks. unfold t_tuple_body. apply bad_bind with (Q1 := fun _ => True); [|intros; now apply bad_ret]. apply bad_S.
      eapply bad_imp; [apply (bad_des_body cf e F zc (t_tuple_fields 0 tds) (numbered 0 ts) None SpNone (fun _ _ => True) ks)|intros p k; apply BfTuple|auto].
      - now apply tuple_frel.
      - exact I. }
    unfold t_tuple. change (KTooMany 1) with (one_too_many (TTuple ts)). apply flt_struct.
    - right; right. exact I.
    - exact Hb.
    - intros tag n. apply bad_struct; [exact I|exact Hb].
  Qed.

  (** ** Unknown fields *)
  Section Unk.
    Variable zc : bool.
    Lemma bad_unk_node F body n : (forall ks, bad F (body ks) (unks_fault zc ks) (fun _ => True)) ->
      bad F (t_unk_node cf zc body n) (unk_fault zc n) (fun _ => True).
    Proof.
      intros Hb. destruct n as [x|b|fs|d fs]; cbn [t_unk_node].
      - now apply bad_ret.
      - apply bad_bind with (Q1 := fun _ => True); [|intros; now apply bad_ret]. unfold t_cow_bytes. destruct zc eqn:Ez.
        + unfold t_read_borrowed. cbn [hdr_node to_blob t_lift]. apply bad_bind with (Q1 := fun _ => True); [now apply bad_ret|]. intros _ _. now apply bad_ret.
        + unfold t_read_owned. cbn [hdr_node to_blob t_lift]. apply bad_bind with (Q1 := fun l => l = lenN b); [now apply bad_ret|]. intros l ->.
          apply bad_quota; [|now apply bad_ret]. intros Hl. apply UfBlob; [reflexivity|]. intros ->. now apply Hl.
      - apply bad_bind with (Q1 := fun _ => True); [|intros; now apply bad_ret]. eapply bad_imp; [apply Hb| |auto]. intros p k. apply UfStruct.
      - apply bad_bind with (Q1 := fun _ => True); [|intros; now apply bad_ret]. eapply bad_imp; [apply Hb| |auto]. intros p k. apply UfEnum.
    Qed.
    Lemma bad_unk_body f : forall ks, bad f (t_unk_body cf zc f ks) (unks_fault zc ks) (fun _ => True).
    Proof.
      induction f as [|f IH]; intros ks; [apply bad_0|]. cbn [t_unk_body].
      assert (H : forall l, incl l ks -> forall fs, bad (S f) (t_loop (fun (fs : list (N * node)) (tag : N) (n : node) =>
          t_push cf (tag_name tag) ;; t_collect cf ;; let* n' := t_unk_node cf zc (t_unk_body cf zc f) n in t_pop ;; mret (fs ++ [(tag, n')])) fs l) (unks_fault zc ks) (fun _ => True)).
      { induction l as [|[tag n] l IHl]; intros Hi fs; cbn [t_loop]; [now apply bad_ret|].
        assert (Hin : In (tag, n) ks) by (apply Hi; now left).
        apply bad_bind with (Q1 := fun _ => True).
        - intros c Hc.
          assert (Hb : bad (S f) (t_push cf (tag_name tag) ;; let* n' := (t_collect cf ;; t_unk_node cf zc (t_unk_body cf zc f) n) in t_pop ;; mret (fs ++ [(tag, n')])) (unks_fault zc ks) (fun _ => True)).
          { eapply (bad_deep cf f (tag_name tag) (t_collect cf ;; t_unk_node cf zc (t_unk_body cf zc f) n) _ (fun p k => unks_fault zc ks (tag_name tag :: p) k)).
            - apply bad_collect; [now apply (UfMany zc tag n)|]. eapply bad_imp; [apply bad_unk_node, IH|intros p k Hp; now apply (UfIn zc tag n)|intros a Ha; exact Ha].
            - auto.
            - now apply (UfDeep zc tag n).
            - intros a _. now apply bad_ret. }
          specialize (Hb c Hc). revert Hb. unfold mbind. destruct (t_push cf (tag_name tag) c) as [[u|x| |] c1]; auto.
          destruct (t_collect cf c1) as [[u'|x| |] c2]; auto.
        - intros a _. apply IHl. intros x Hx. apply Hi. now right. }
      apply H. apply incl_refl.
    Qed.
    Lemma bad_unk_elem U F n : (F <= U)%nat -> bad F (t_unk_elem cf zc U n) (unk_fault zc n) (fun _ => True).
    Proof. intros HU. apply bad_unk_node. intros ks. eapply bad_le; [exact HU|]. apply bad_unk_body. Qed.
    Lemma flt_unknown U F : (F <= U)%nat -> flt F zc TUnknown (t_unknown_d cf zc U).
    Proof.
      intros HU.
      assert (Hb : forall ks, bad F (t_unk_val cf zc U ks) (bfault zc TUnknown ks) (fun _ => True)).
      { intros ks. unfold t_unk_val. apply bad_bind with (Q1 := fun _ => True); [|intros; now apply bad_ret].
        eapply bad_imp; [eapply bad_le; [exact HU|apply bad_unk_body]|intros p k; apply BfUnknown|auto]. }
      split.
      - exists (fun _ a => exists fs, a = AUnk fs). split; [cbn; eauto|]. split.
        + intros occ a tag n (fs & ->). cbn [t_unknown_d t_field t_unk_field]. apply bad_collect.
          * intros more. apply (OfUnkMany e ign zc _ tag n). apply in_or_app. right. now left.
          * apply bad_bind with (Q1 := fun _ => True); [|intros; apply bad_ret; eauto].
            eapply bad_imp; [now apply (bad_unk_elem U F n)| |auto]. intros p k Hp more. apply (OfUnk e ign zc _ tag n); [apply in_or_app; right; now left|exact Hp].
        + intros occ a (fs & ->). now apply bad_ret.
      - intros tag n. cbn [t_unknown_d t_elem]. apply bad_struct; [exact I|exact Hb].
      - exact Hb.
    Qed.
    Lemma flt_unkfield U F : (F <= U)%nat -> flt F zc TUnkField (t_unkfield cf zc U).
    Proof.
      intros HU. apply flt_simple; [right; right; exact I|exact I|reflexivity|]. intros tag n.
      apply bad_bind with (Q1 := fun _ => True); [|intros; now apply bad_ret].
      eapply bad_imp; [now apply bad_unk_elem| |auto]. intros p k. apply EfUnk.
    Qed.
  End Unk.

  (** ** fourleaf_retrofit! *)
  Section Items.
    Variables (F F2 : nat) (zc : bool).
    Variable tk : ty -> tdict.
    Notation mk := (means ign e F2 zc).
    Hypothesis Hmk : forall t, dag cf F (tk t) (mk t).
    Hypothesis Hfl : forall t, flt F zc t (tk t).

    Lemma decls_frel fs : Forall2 (frel cf e F zc) (t_fdicts tk fs) (decls fs).
    Proof.
      induction fs as [|f fs IH]; [apply Forall2_nil|]. unfold t_fdicts, decls. cbn [map]. apply Forall2_cons; [|exact IH].
      split; [reflexivity|]. apply (fl_field _ _ _ _ _ _ (Hfl (fd_ty f))).
    Qed.
    (** The fields alone. *)
    Lemma bad_fields b ks : bad (S F) (t_vbody cf tk (mkB (vb_fields b) (vb_special b) (fun _ => true)) ks) (rfault zc b ks)
      (fun v => exists vs x, v = VRec vs /\ m_vbody ign mk (mkB (vb_fields b) (vb_special b) (fun _ => true)) ks = Some (VRec vs, x)).
    Proof.
      set (b' := mkB (vb_fields b) (vb_special b) (fun _ => true)).
      assert (Hb : bad (S F) (t_vbody cf tk b' ks) (rfault zc b ks) (fun v => exists vs, v = VRec vs)).
      { unfold t_vbody, b'. cbn [vb_fields vb_special]. cbv zeta. destruct (vb_special b) as [|nm t|nm t] eqn:Es.
        - apply bad_bind with (Q1 := fun _ => True); [|intros vs _; unfold t_construct; cbn [vb_check]; apply bad_ret; eauto].
          eapply bad_imp; [apply (bad_des_body cf e F zc _ (decls (vb_fields b)) None SpNone (fun _ _ => True) ks); [apply decls_frel|exact I]| |auto].
          intros p k Hp. apply RfFields; [intros nm t; rewrite Es; discriminate|]. rewrite Es. exact Hp.
        - eapply (bad_deep cf F nm (t_body (tk t) ks)); [apply (fl_body _ _ _ _ _ _ (Hfl t))| | |].
          + intros p k Hp. eapply RfDeleg; eauto.
          + eapply RfDeep; eauto.
          + intros dv _. apply bad_bind with (Q1 := fun _ => True); [|intros vs _; unfold t_construct; cbn [vb_check]; apply bad_ret; eauto].
            eapply bad_imp; [apply (bad_finish_all cf e F zc (decls (vb_fields b)) SpNone [] [] (t_fdicts tk (vb_fields b)) (decls (vb_fields b))); [apply holds_init, decls_frel|reflexivity]| |auto].
            intros p k Hp. eapply RfBeside; eauto.
        - destruct (fl_field _ _ _ _ _ _ (Hfl t)) as (Su & HSu).
          apply bad_bind with (Q1 := fun _ => True); [|intros vs _; unfold t_construct; cbn [vb_check]; apply bad_ret; eauto].
          eapply bad_imp; [apply (bad_des_body cf e F zc _ (decls (vb_fields b)) (Some (nm, tk t)) (SpUnknown nm t) Su ks); [apply decls_frel|split; [reflexivity|exact HSu]]| |auto].
          intros p k Hp. apply RfFields; [intros nm' t'; rewrite Es; discriminate|]. rewrite Es. exact Hp. }
      intros c Hc. pose proof (Hb c Hc) as H1. pose proof (ag_vbody cf F tk mk Hmk b' ks c Hc) as H2.
      destruct (t_vbody cf tk b' ks c) as [[v|k| |] c1]; auto. destruct (m_vbody ign mk b' ks) as [[w x]|]; [|contradiction].
      destruct H2 as (-> & _). destruct H1 as ((vs & ->) & H1). split; [|exact H1]. exists vs, x. auto.
    Qed.
    Lemma vbody_split b ks c : t_vbody cf tk b ks c =
      (let* v := t_vbody cf tk (mkB (vb_fields b) (vb_special b) (fun _ => true)) ks in match v with VRec vs => t_construct b vs | _ => t_ill end) c.
    Proof.
      unfold t_vbody. cbn [vb_fields vb_special]. cbv zeta. destruct (vb_special b) as [|nm t|nm t]; rewrite ?mbind_assoc.
      - unfold mbind at 1 2. destruct (t_des_body cf _ _ ks c) as [[vs|k| |] c1]; reflexivity.
      - unfold mbind. destruct (t_push cf nm c) as [[u|k| |] c1]; try reflexivity. destruct (t_body (tk t) ks c1) as [[v|k| |] c2]; try reflexivity.
        destruct (t_pop c2) as [[u'|k| |] c3]; try reflexivity. destruct (t_finish_all cf _ _ c3) as [[vs|k| |] c4]; reflexivity.
      - unfold mbind at 1 2. destruct (t_des_body cf _ _ ks c) as [[vs|k| |] c1]; reflexivity.
    Qed.
    Lemma bad_vbody b ks : bad (S F) (t_vbody cf tk b ks) (rfault zc b ks) (fun _ => True).
    Proof.
      intros c Hc. rewrite vbody_split. revert c Hc.
      change (bad (S F) (let* v := t_vbody cf tk (mkB (vb_fields b) (vb_special b) (fun _ => true)) ks in match v with VRec vs => t_construct b vs | _ => t_ill end) (rfault zc b ks) (fun _ => True)).
      eapply bad_bind; [apply bad_fields|]. intros v (vs & x & -> & Hm). unfold t_construct. destruct (vb_check b vs) eqn:Ec; [now apply bad_ret|].
      apply bad_fail; [exact I|]. apply (RfRefused e ign zc b ks vs); [|exact Ec]. exists F2, x. exact Hm.
    Qed.
    Lemma bad_struct_elem i b tag n : e i = IStruct b -> bad (S F) (t_struct_elem cf tk b tag n) (efault zc (TItem i) n) (fun _ => True).
    Proof.
      intros Ei. unfold t_struct_elem.
      assert (Hs : (forall nm t, vb_special b <> SpDeleg nm t) -> bad (S F) (t_lift (to_struct (hdr_node n)) ;; t_vbody cf tk b (kids n)) (efault zc (TItem i) n) (fun _ => True)).
      { intros Hnd. apply (bad_struct (S F) zc (TItem i) n (t_vbody cf tk b)).
        - cbn. rewrite Ei. destruct (vb_special b) as [|nm t|nm t] eqn:Es; try exact I. now apply (Hnd nm t).
        - intros ks. eapply bad_imp; [apply bad_vbody| |auto]. intros p k. now apply BfStruct. }
      destruct (vb_special b) as [|nm t|nm t] eqn:Es; [apply Hs; discriminate| |apply Hs; discriminate].
      eapply (bad_deep cf F nm (t_elem (tk t) tag n)).
      - eapply bad_know; [apply (da_elem _ _ _ _ (Hmk t))|apply (fl_elem _ _ _ _ _ _ (Hfl t))].
      - intros p k Hp. eapply EfDeleg; eauto.
      - eapply EfDeep; eauto.
      - intros v (x & Hx). unfold t_construct. destruct (vb_check b [v]) eqn:Ec; [now apply bad_ret|]. apply bad_fail; [exact I|].
        eapply EfRefused; eauto.
    Qed.
    Lemma flt_item_struct i b : e i = IStruct b -> flt (S F) zc (TItem i) (t_item_struct cf tk b).
    Proof.
      intros Ei. unfold t_item_struct. change (KTooFew 1) with (one_too_many (TItem i)). apply flt_struct.
      - right; right. exact I.
      - intros ks. eapply bad_imp; [apply bad_vbody| |auto]. intros p k. now apply BfStruct.
      - intros tag n. now apply bad_struct_elem.
    Qed.
    Lemma variant_none d vars : variant d vars = None -> ~ In d (map fst vars).
    Proof.
      induction vars as [|[d' b] vars IH]; cbn; [auto|]. destruct (N.eqb_spec d d') as [->|Hne]; [discriminate|].
      destruct (variant d vars) as [[j b']|]; [discriminate|]. intros _ [H|H]; [congruence|]. now apply IH.
    Qed.
    Lemma bad_enum_elem i vars catch tag n : e i = IEnum vars catch -> bad (S F) (t_enum_elem cf tk vars catch tag n) (efault zc (TItem i) n) (fun _ => True).
    Proof.
      intros Ei. unfold t_enum_elem. apply bad_bind with (Q1 := fun d => n = NEnum d (kids n)).
      - apply (bad_want _ FEnum _ n). destruct n as [x|b|fs|d fs]; cbn [hdr_node to_enum hdr_fty]; [| | |reflexivity].
        + apply (EfEnum e ign zc i vars catch (NInt x)); [exact Ei|discriminate].
        + apply (EfEnum e ign zc i vars catch (NBlob b)); [exact Ei|discriminate].
        + apply (EfEnum e ign zc i vars catch (NStruct fs)); [exact Ei|discriminate].
      - intros d En. rewrite variant_eq. destruct (variant d vars) as [[ix b]|] eqn:Ev.
        + apply bad_bind with (Q1 := fun _ => True); [|intros; now apply bad_ret]. eapply bad_imp; [apply bad_vbody| |auto].
          intros p k Hp. rewrite En. eapply EfIn; eauto.
        + pose proof (variant_none _ _ Ev) as Hd. destruct catch as [b|].
          * apply bad_bind with (Q1 := fun _ => True); [|intros; now apply bad_ret]. eapply bad_imp; [apply bad_vbody| |auto].
            intros p k Hp. rewrite En. eapply EfOther; eauto.
          * apply bad_fail; [exact I|]. rewrite En. eapply EfVariant; eauto.
    Qed.
    Lemma flt_item_enum i vars catch : e i = IEnum vars catch -> flt (S F) zc (TItem i) (t_item_enum cf tk vars catch).
    Proof.
      intros Ei.
      assert (Hf : forall td, t_init td = AOpt None -> t_field td = t_opt_field (KTooFew 1) (t_enum_elem cf tk vars catch) -> t_fin td = t_opt_fin -> fflt (S F) zc (TItem i) td).
      { intros td E1 E2 E3. apply (fflt_once (S F) zc (TItem i) td (t_enum_elem cf tk vars catch)); auto.
        - right; right. exact I.
        - intros tag n. now apply bad_enum_elem. }
      split.
      - apply Hf; reflexivity.
      - intros tag n. now apply bad_enum_elem.
      - intros ks. unfold t_item_enum. cbn [t_with_default_body t_body]. apply bad_S, bad_top; [apply Hf; reflexivity|]. cbn. now rewrite Ei.
    Qed.
  End Items.

  (** ** All types *)
  Lemma flt_stop F zc t : flt F zc t (t_dict_stop StPanic).
  Proof.
    split.
    - exists (fun _ _ => True). split; [exact I|]. split; intros; apply bad_ill.
    - intros. apply bad_ill.
    - intros. apply bad_ill.
  Qed.
  Lemma flt_types F U item_d : (F <= U)%nat -> (forall zc i, flt F zc (TItem i) (item_d zc i)) ->
    forall t zc, flt F zc t (t_dict_of cf U item_d zc t).
  Proof.
    intros HU Hi.
    assert (Hnum : forall t, numeric t -> required t) by (intros t H; now left).
    assert (Hstr : forall t, stringy t -> required t) by (intros t H; right; now left).
    apply (ty_ind' (fun t => forall zc, flt F zc t (t_dict_of cf U item_d zc t))).
    - intros t. destruct t; try exact I; intros zc; cbn [t_dict_of].
      + apply flt_simple; [now left|exact I|reflexivity|]. intros; apply bad_uint.
      + apply flt_simple; [now left|exact I|reflexivity|]. intros; apply bad_sint.
      + apply flt_simple; [now left|exact I|reflexivity|]. intros; apply bad_bool.
      + apply flt_simple; [now left|exact I|reflexivity|]. intros; apply bad_char.
      + apply flt_simple; [now left|exact I|reflexivity|]. intros; apply bad_phantom.
      + apply flt_simple; [right; now left|exact I|reflexivity|]. intros; now apply bad_string.
      + destruct zc; [|apply flt_stop]. apply flt_simple; [right; now left|exact I|reflexivity|]. intros; now apply bad_str_ref.
      + destruct zc; [|apply flt_stop]. apply flt_simple; [right; now right|exact I|reflexivity|]. intros; now apply bad_bytes_ref.
      + destruct zc; (apply flt_simple; [right; now left|exact I|reflexivity|]); intros; [now apply bad_str_ref|now apply bad_string].
      + destruct zc; [|apply flt_vecu8; try exact I; try reflexivity; right; now right].
        apply flt_simple; [right; now right|exact I|reflexivity|]. intros; now apply bad_bytes_ref.
      + now apply flt_unknown.
      + now apply flt_unkfield.
      + apply Hi.
    - intros t IH. split; [|split; [|split; [|split; [|split]]]]; intros zc; cbn [t_dict_of].
      + destruct (is_u8 t) eqn:Eu.
        * apply flt_vecu8; [exact Eu|right; right; exact Eu|exact Eu|exact I|reflexivity].
        * apply (flt_coll F zc (TVec t) t); [now constructor|exact Eu|exact I|apply IH].
      + apply (flt_coll F zc (TSeq t) t); [constructor|exact I|exact I|apply IH].
      + apply (flt_coll F zc (TSet t) t); [constructor|exact I|exact I|apply IH].
      + apply flt_option, IH.
      + specialize (IH zc). destruct IH as [(S & H1 & H2 & H3) He Hb]. split.
        * exists S. split; [exact H1|]. split.
          -- intros occ a tag n Ho. eapply bad_imp; [apply (H2 occ a tag n Ho)|intros p k Hp more; apply OfBox, Hp|intros x Hx; exact Hx].
          -- intros occ a Ho. eapply bad_imp; [apply (H3 occ a Ho)|intros p k Hp; apply OfBox, Hp|intros x Hx; exact Hx].
        * intros tag n. eapply bad_imp; [apply He| |auto]. intros p k. apply EfBox.
        * intros ks. eapply bad_imp; [apply Hb| |auto]. intros p k. apply BfBox.
      + specialize (IH false). destruct IH as [(S & H1 & H2 & H3) He Hb]. split.
        * exists S. split; [exact H1|]. split.
          -- intros occ a tag n Ho. eapply bad_imp; [apply (H2 occ a tag n Ho)|intros p k Hp more; apply OfCopied, Hp|intros x Hx; exact Hx].
          -- intros occ a Ho. eapply bad_imp; [apply (H3 occ a Ho)|intros p k Hp; apply OfCopied, Hp|intros x Hx; exact Hx].
        * intros tag n. eapply bad_imp; [apply He| |auto]. intros p k. apply EfCopied.
        * intros ks. eapply bad_imp; [apply Hb| |auto]. intros p k. apply BfCopied.
    - intros n t IH zc. cbn [t_dict_of]. destruct (is_u8 t) eqn:Eu; [now apply flt_arru8|now apply flt_arr].
    - intros k v IHk IHv zc. cbn [t_dict_of]. apply flt_map, flt_tuple. apply Forall2_cons; [apply IHk|]. apply Forall2_cons; [apply IHv|apply Forall2_nil].
    - intros ts IH zc. cbn [t_dict_of]. apply flt_tuple.
      induction IH as [|t ts H HF IH2]; cbn [map]; [apply Forall2_nil|apply Forall2_cons; auto].
  Qed.
  Lemma flt_0 zc t td : t_init td = AOpt None -> flt 0 zc t td.
  Proof.
    intros Hi. split.
    - exists (fun _ _ => True). split; [exact I|]. split; intros; apply bad_0.
    - intros; apply bad_0.
    - intros; apply bad_0.
  Qed.
  Lemma flt_items U : forall F zc i, (F <= U)%nat -> flt F zc (TItem i) (t_item_dict cf e U F zc i).
  Proof.
    induction F as [|f IH]; intros zc i HU; [now apply flt_0|]. cbn [t_item_dict].
    assert (Hmk : forall t, dag cf f (t_dict_of cf U (t_item_dict cf e U f) zc t) (means ign e f zc t)).
    { intros t. apply dag_types; [lia|]. intros zc' i'. apply dag_items; lia. }
    assert (Hfl : forall t, flt f zc t (t_dict_of cf U (t_item_dict cf e U f) zc t)).
    { intros t. apply flt_types; [lia|]. intros zc' i'. apply IH. lia. }
    destruct (e i) as [b|vars catch] eqn:Ei; [now apply (flt_item_struct f f)|now apply (flt_item_enum f f)].
  Qed.
  Theorem read_tree_faults zc t ks :
    match read_tree cf e zc t ks with
    | (RErr k, c') => (forall k2, anyk k k2 -> bfault zc t ks (rev (c_path c')) k2) /\ (k = KRecLimit -> lenN (c_path c') = cf_rec cf)
    | _ => True
    end.
  Proof.
    unfold read_tree.
    assert (H : flt (S (N.to_nat (cf_rec cf))) zc t (t_full cf e (S (N.to_nat (cf_rec cf))) zc t)).
    { apply flt_types; [lia|]. intros zc' i. now apply flt_items. }
    pose proof (fl_body _ _ _ _ _ _ H ks (mkC 0 0 0 [])) as Hb.
    assert (Hi : inv cf (S (N.to_nat (cf_rec cf))) (mkC 0 0 0 [])) by (unfold inv; cbn [c_lev c_coll c_blob]; lia). specialize (Hb Hi).
    destruct (t_body _ ks _) as [[v|k| |] c']; auto. destruct Hb as (p & A1 & A2 & A3). cbn [c_path c_lev] in *. rewrite app_nil_r in A1.
    rewrite A1, rev_involutive. split; [exact A2|]. intros Hk. specialize (A3 Hk). unfold lenN in *. rewrite rev_length. lia.
  Qed.
End Types.
