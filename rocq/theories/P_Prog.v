(** * P_Prog: reasoning about [prog] and [run] *)

From Verif Require Import Base Wire Dev Stream Types Prog P_Base.

(** ** [run] is a monad morphism *)
Section RunEq.
  Context {S : Type} (I : source S) (cf : cfg).

  Lemma run_pbind {A B} (p : prog A) (k : A -> prog B) : forall st,
    run I cf (pbind p k) st = mbind (run I cf p) (fun a => run I cf (k a)) st.
  Proof.
    induction p as [a|x|X o h IH]; intros st; cbn [pbind run].
    - reflexivity.
    - destruct x; reflexivity.
    - rewrite mbind_assoc. unfold mbind at 1 2. destruct (run_op I cf o st) as [[a|e| |] s1]; try reflexivity.
      apply IH.
  Qed.

  Lemma run_bind_ok {A B} (p : prog A) (k : A -> prog B) st a st1 :
    run I cf p st = (ROk a, st1) -> run I cf (pbind p k) st = run I cf (k a) st1.
  Proof. intros H. rewrite run_pbind. now rewrite (mbind_ok _ _ _ _ _ H). Qed.

  Lemma run_bind_err {A B} (p : prog A) (k : A -> prog B) st e st1 :
    run I cf p st = (RErr e, st1) -> run I cf (pbind p k) st = (RErr e, st1).
  Proof. intros H. rewrite run_pbind. now rewrite (mbind_err _ _ _ _ _ H). Qed.

  Lemma run_bind_inv {A B} (p : prog A) (k : A -> prog B) st b st' :
    run I cf (pbind p k) st = (ROk b, st') ->
    exists a st1, run I cf p st = (ROk a, st1) /\ run I cf (k a) st1 = (ROk b, st').
  Proof. rewrite run_pbind. apply mbind_inv_ok. Qed.

  Lemma run_pdo {X : Set} (o : op X) st : run I cf (pdo o) st = run_op I cf o st.
  Proof.
    unfold pdo. cbn [run]. unfold mbind, mret. destruct (run_op I cf o st) as [[a|e| |] s1]; reflexivity.
  Qed.

  Lemma run_do_ok {X : Set} {A} (o : op X) (k : X -> prog A) st x st1 :
    run_op I cf o st = (ROk x, st1) -> run I cf (pbind (pdo o) k) st = run I cf (k x) st1.
  Proof. intros H. apply run_bind_ok. now rewrite run_pdo. Qed.
  Lemma run_do_err {X : Set} {A} (o : op X) (k : X -> prog A) st e st1 :
    run_op I cf o st = (RErr e, st1) -> run I cf (pbind (pdo o) k) st = (RErr e, st1).
  Proof. intros H. apply run_bind_err. now rewrite run_pdo. Qed.

  Lemma run_piter {A B} (step : A -> prog (A + B)) p : forall a st,
    run I cf (piter p step a) st = miter p (fun a => run I cf (step a)) a st.
  Proof.
    induction p as [q IH|q IH|]; intros a st; cbn [piter miter].
    - rewrite run_pbind. unfold mbind. destruct (run I cf (step a) st) as [[[a'|b]|e| |] s1]; try reflexivity.
      rewrite run_pbind. unfold mbind. rewrite IH.
      destruct (miter q (fun a0 : A => run I cf (step a0)) a' s1) as [[[a''|b]|e| |] s2]; try reflexivity.
      apply IH.
    - rewrite run_pbind. unfold mbind. rewrite IH.
      destruct (miter q (fun a0 : A => run I cf (step a0)) a st) as [[[a''|b]|e| |] s2]; try reflexivity.
      apply IH.
    - reflexivity.
  Qed.

  Lemma run_ploop {A B} (step : A -> prog (A + B)) a st :
    run I cf (ploop step a) st = mloop (fun a => run I cf (step a)) a st.
  Proof.
    unfold ploop, mloop. rewrite run_pbind. unfold mbind. rewrite run_piter.
    destruct (miter loop_bound (fun a0 : A => run I cf (step a0)) a st) as [[[a'|b]|e| |] s1]; reflexivity.
  Qed.
End RunEq.

(** ** Simulation between two executions of the same program *)

(** The error a failure at [st] produces. *)
Definition the_err {S} (st : rst S) (k : ekind) : derr :=
  mkErr (x_path st) (match x_over st with Some k' => k' | None => k end).

Section Sim.
  Context {S1 S2 : Type} (I1 : source S1) (I2 : source S2) (cf1 cf2 : cfg).
  Variable RR : rst S1 -> rst S2 -> Prop.
  Variable ER : derr -> derr -> Prop.
  Variable bad_err : bool.             (* errors of the first execution do not matter *)
  Variable Dm : rst S1 -> Prop.        (* the first execution is past caring *)

  Definition bad {A} (r : res derr A) : Prop :=
    match r with ROk _ => False | RErr _ => bad_err = true | RPanic | RFuel => True end.
  Definition orel {A} (x1 : res derr A * rst S1) (x2 : res derr A * rst S2) : Prop :=
    bad (fst x1) \/
    (match fst x1 with ROk _ => Dm (snd x1) | _ => False end) \/
    match fst x1, fst x2 with
    | ROk a, ROk b => a = b /\ RR (snd x1) (snd x2)
    | RErr e1, RErr e2 => ER e1 e2
    | _, _ => False
    end.

  Hypothesis Hop : forall (X : Set) (o : op X) st1 st2, RR st1 st2 ->
    orel (run_op I1 cf1 o st1) (run_op I2 cf2 o st2).
  Hypothesis Hfail : bad_err = false -> forall st1 st2 k, RR st1 st2 -> ER (the_err st1 k) (the_err st2 k).
  Hypothesis Hdm : forall st1, Dm st1 -> bad_err = true.
  Hypothesis Hdop : forall (X : Set) (o : op X) st1, Dm st1 ->
    match run_op I1 cf1 o st1 with (ROk _, st') => Dm st' | _ => True end.

  Lemma doomed_run {A} (p : prog A) : forall st1, Dm st1 ->
    match run I1 cf1 p st1 with (ROk _, st') => Dm st' | _ => True end.
  Proof.
    induction p as [a|x|X o k IH]; intros st1 Hd; cbn [run].
    - exact Hd.
    - destruct x; exact I.
    - unfold mbind. specialize (Hdop X o st1 Hd). destruct (run_op I1 cf1 o st1) as [[a|e| |] s1]; auto.
      now apply IH.
  Qed.

  Lemma run_sim {A} (p : prog A) : forall st1 st2, RR st1 st2 ->
    orel (run I1 cf1 p st1) (run I2 cf2 p st2).
  Proof.
    induction p as [a|x|X o k IH]; intros st1 st2 HR; cbn [run].
    - right; right. split; [reflexivity|exact HR].
    - destruct x; [|now left|now left].
      destruct bad_err eqn:Eb; [left; exact Eb|]. right; right. unfold xfail. cbn [fst snd].
      now apply Hfail.
    - specialize (Hop X o st1 st2 HR). unfold mbind.
      destruct (run_op I1 cf1 o st1) as [[a|e| |] s1]; destruct (run_op I2 cf2 o st2) as [[b|e2| |] s2];
        unfold orel in Hop; cbn [fst snd bad] in Hop;
        try (left; exact I);
        try (destruct Hop as [H|[H|H]]; [contradiction| |contradiction];
             pose proof (Hdm _ H) as Hb; pose proof (doomed_run (k a) s1 H) as Hr;
             destruct (run I1 cf1 (k a) s1) as [[a'|e'| |] s1'];
             [right; left; exact Hr|left; exact Hb|left; exact I|left; exact I]);
        try (destruct Hop as [H|[H|H]]; [left; exact H|contradiction|contradiction]).
      + destruct Hop as [H|[H|[-> H]]]; [contradiction| |now apply IH].
        pose proof (Hdm _ H) as Hb; pose proof (doomed_run (k a) s1 H) as Hr.
        destruct (run I1 cf1 (k a) s1) as [[a'|e'| |] s1'];
             [right; left; exact Hr|left; exact Hb|left; exact I|left; exact I].
      + destruct Hop as [H|[H|H]]; [left; exact H|contradiction|]. right; right. exact H.
  Qed.
End Sim.

(** ** Simulation of sources

    [RS s1 c1 s2 c2] relates the states of the sources and the fields in
    hand; the contexts agree except for positions. *)
Inductive kind_rel (PR : N -> N -> Prop) : ekind -> ekind -> Prop :=
| KR_eq k : kind_rel PR k k
| KR_unk t p1 p2 : PR p1 p2 -> kind_rel PR (KUnknownField t p1) (KUnknownField t p2).
Definition err_rel (PR : N -> N -> Prop) (e1 e2 : derr) : Prop :=
  map fst (e_path e1) = map fst (e_path e2) /\ kind_rel PR (e_kind e1) (e_kind e2).
Definition field_rel (PR : N -> N -> Prop) (f1 f2 : field) : Prop :=
  f_tag f1 = f_tag f2 /\ f_val f1 = f_val f2 /\ PR (f_pos f1) (f_pos f2).
Definition cur_rel (PR : N -> N -> Prop) (c1 c2 : option field) : Prop :=
  match c1, c2 with Some f1, Some f2 => field_rel PR f1 f2 | None, None => True | _, _ => False end.

Section SrcSim.
  Context {S1 S2 : Type} (I1 : source S1) (I2 : source S2) (cf : cfg).
  Variable PR : N -> N -> Prop.
  Variable RS : S1 -> option field -> S2 -> option field -> Prop.
  Variable bad_err : bool.
  Variable Dm : S1 -> option field -> Prop.

  Definition sim_rst (st1 : rst S1) (st2 : rst S2) : Prop :=
    RS (x_s st1) (x_cur st1) (x_s st2) (x_cur st2) /\
    map fst (x_path st1) = map fst (x_path st2) /\ x_coll st1 = x_coll st2 /\
    x_blob st1 = x_blob st2 /\ x_over st1 = x_over st2.
  Definition dm_rst (st1 : rst S1) : Prop := Dm (x_s st1) (x_cur st1).

  (** For methods of the source. *)
  Definition srel {A} (ok : A -> S1 -> A -> S2 -> Prop) (dm : A -> S1 -> Prop)
      (x1 : res serr A * S1) (x2 : res serr A * S2) : Prop :=
    match fst x1 with
    | ROk a => dm a (snd x1) \/ match fst x2 with ROk b => ok a (snd x1) b (snd x2) | _ => False end
    | RErr e => bad_err = true \/ match fst x2 with RErr e2 => e = e2 | _ => False end
    | _ => True
    end.

  Hypothesis Hdbg : forall s1 c1 s2 c2, RS s1 c1 s2 c2 -> i_dbg I1 s1 = i_dbg I2 s2.
  Hypothesis Hcur : forall s1 c1 s2 c2, RS s1 c1 s2 c2 -> cur_rel PR c1 c2.
  Hypothesis Hnext : forall s1 c1 s2 c2, RS s1 c1 s2 c2 ->
    srel (fun a t1 b t2 => RS t1 a t2 b) (fun a t1 => Dm t1 a) (i_next I1 s1) (i_next I2 s2).
  Hypothesis Hskip : forall s1 f1 s2 f2, RS s1 (Some f1) s2 (Some f2) ->
    srel (fun a t1 b t2 => RS t1 (Some f1) t2 (Some f2)) (fun _ t1 => Dm t1 (Some f1)) (i_skip I1 f1 s1) (i_skip I2 f2 s2).
  Definition blob_cur (c : option field) : Prop := match c with Some (mkField _ _ _ (HBlob _)) => True | _ => False end.
  Definition blob_sim {A} (m1 : M S1 serr A) (m2 : M S2 serr A) : Prop :=
    forall s1 c1 s2 c2, RS s1 c1 s2 c2 -> blob_cur c1 -> blob_cur c2 ->
    srel (fun a t1 b t2 => a = b /\ RS t1 c1 t2 c2) (fun _ t1 => Dm t1 c1) (m1 s1) (m2 s2).
  Hypothesis Hrem : blob_sim (i_remaining I1) (i_remaining I2).
  Hypothesis Hfull : blob_sim (i_read_fully I1 (cf_blob cf)) (i_read_fully I2 (cf_blob cf)).
  Hypothesis Hexact : forall n, blob_sim (i_read_exact I1 n) (i_read_exact I2 n).
  Hypothesis Hext : blob_sim (i_ext I1) (i_ext I2).
  (** Once past caring, always. *)
  Definition dm_keeps {A} (c : option field) (m : M S1 serr A) : Prop :=
    forall s1, Dm s1 c -> match m s1 with (ROk _, t) => Dm t c | _ => True end.
  Hypothesis Dbad : forall s c, Dm s c -> bad_err = true.
  Hypothesis Dnext : forall s c, Dm s c -> match i_next I1 s with (ROk a, t) => Dm t a | _ => True end.
  Hypothesis Dskip : forall f, dm_keeps (Some f) (i_skip I1 f).
  Hypothesis Dblob : forall c, blob_cur c -> dm_keeps c (i_remaining I1) /\
    dm_keeps c (i_read_fully I1 (cf_blob cf)) /\ (forall n, dm_keeps c (i_read_exact I1 n)) /\ dm_keeps c (i_ext I1).

  Lemma the_err_rel st1 st2 k : sim_rst st1 st2 -> err_rel PR (the_err st1 k) (the_err st2 k).
  Proof.
    intros (_ & Hp & _ & _ & Ho). unfold the_err. split; cbn; [exact Hp|]. rewrite Ho. destruct (x_over st2); apply KR_eq.
  Qed.

  Lemma on_src_sim {A} (ok : A -> S1 -> A -> S2 -> Prop) (dm : A -> S1 -> Prop) m1 m2 st1 st2 :
    sim_rst st1 st2 -> srel ok dm (m1 (x_s st1)) (m2 (x_s st2)) ->
    match on_src_of m1 st1 with
    | (ROk a, st1') => (dm a (x_s st1') \/ exists b st2', on_src_of m2 st2 = (ROk b, st2') /\ ok a (x_s st1') b (x_s st2') /\
                          st2' = x_set_s (x_s st2') st2) /\ st1' = x_set_s (x_s st1') st1
    | (RErr e1, _) => bad_err = true \/ exists e2 st2', on_src_of m2 st2 = (RErr e2, st2') /\ err_rel PR e1 e2
    | _ => True
    end.
  Proof.
    intros HR H. unfold on_src_of. destruct (m1 (x_s st1)) as [r1 t1]. destruct (m2 (x_s st2)) as [r2 t2].
    unfold srel in H. cbn [fst snd] in H. destruct r1 as [a|e| |]; try exact I.
    - split; [|reflexivity]. destruct H as [H|H]; [left; exact H|right].
      destruct r2 as [b|e| |]; try contradiction. exists b, (x_set_s t2 st2). split; [reflexivity|]. split; [exact H|reflexivity].
    - unfold xfail. destruct H as [H|H]; [left; exact H|right].
      destruct r2 as [b|e2| |]; try contradiction. subst e2.
      eexists _, _. split; [reflexivity|]. change (err_rel PR (the_err st1 (KStream e)) (the_err st2 (KStream e))). now apply the_err_rel.
  Qed.

  Lemma src_op_sim (X : Set) (o : op X) st1 st2 : sim_rst st1 st2 ->
    orel sim_rst (err_rel PR) bad_err dm_rst (run_op I1 cf o st1) (run_op I2 cf o st2).
  Proof.
    intros HR. pose proof HR as (Hs & Hp & Hc & Hb & Ho). pose proof (Hcur _ _ _ _ Hs) as Hcr.
    assert (Hlen : lenN (x_path st1) = lenN (x_path st2)).
    { unfold lenN. rewrite <- (map_length fst (x_path st1)), Hp, map_length. reflexivity. }
    assert (Hfailed : forall A k s1 s2, orel sim_rst (err_rel PR) bad_err dm_rst (A := A) (xfail k st1) (xfail k st2) /\ s1 = st1 /\ s2 = st2 \/ True) by (right; exact I).
    assert (Hf : forall A k, orel sim_rst (err_rel PR) bad_err dm_rst (A := A) (xfail k st1) (xfail k st2)).
    { intros A k. right; right. unfold xfail. cbn [fst snd]. now apply the_err_rel. }
    assert (Hblob : forall A (m1 : M S1 serr A) (m2 : M S2 serr A), blob_sim m1 m2 ->
       orel sim_rst (err_rel PR) bad_err dm_rst (on_blob m1 st1) (on_blob m2 st2)).
    { intros A m1 m2 Hm. unfold on_blob.
      destruct (x_cur st1) as [f1|] eqn:E1; [|left; exact I].
      destruct (x_cur st2) as [f2|] eqn:E2; [|destruct f1; contradiction].
      destruct Hcr as (Ht & Hv & _). destruct f1 as [t1 p1 d1 v1], f2 as [t2 p2 d2 v2]. cbn in Ht, Hv. subst t2 v2.
      destruct v1; try (left; exact I).
      pose proof (on_src_sim _ _ m1 m2 st1 st2 HR (Hm _ _ _ _ Hs I I)) as H.
      destruct (on_src_of m1 st1) as [[a|e| |] st1'] eqn:Em; try (left; exact I).
      - destruct H as [[H|(b & st2' & H2 & (-> & H3) & H4)] H5].
        + right; left. cbn [fst snd]. unfold dm_rst. rewrite H5. cbn. rewrite E1. exact H.
        + rewrite H2. right; right. cbn [fst snd]. split; [reflexivity|]. rewrite H4, H5.
          unfold sim_rst. cbn. rewrite E1, E2. auto.
      - destruct H as [H|(e2 & st2' & H2 & H3)]; [left; exact H|]. rewrite H2. right; right. exact H3. }
    destruct o; cbn [run_op].
    - (* next *)
      unfold mbind.
      pose proof (on_src_sim _ _ _ _ st1 st2 HR (Hnext _ _ _ _ Hs)) as H.
      destruct (on_src_of (i_next I1) st1) as [[a|e| |] st1']; try (left; exact I).
      + destruct H as [[H|(b & st2' & H2 & H3 & H4)] H5].
        * right; left. cbn. exact H.
        * rewrite H2. cbn [mmod mret]. right; right. cbn [fst snd].
          pose proof (Hcur _ _ _ _ H3) as Hcr'.
          split.
          -- destruct a as [f1|], b as [f2|]; try contradiction; [|reflexivity]. destruct Hcr' as (Ht & Hv & _). cbn. congruence.
          -- rewrite H4, H5. unfold sim_rst. cbn. auto.
      + destruct H as [H|(e2 & st2' & H2 & H3)]; [left; exact H|]. rewrite H2. right; right. exact H3.
    - (* skip *)
      destruct (x_cur st1) as [f1|] eqn:E1; [|left; exact I].
      destruct (x_cur st2) as [f2|] eqn:E2; [|destruct f1; contradiction].
      pose proof (on_src_sim _ _ _ _ st1 st2 HR (Hskip _ _ _ _ Hs)) as H.
      destruct (on_src_of (i_skip I1 f1) st1) as [[a|e| |] st1']; try (left; exact I).
      + destruct H as [[H|(b & st2' & H2 & H3 & H4)] H5].
        * right; left. cbn [fst snd]. unfold dm_rst. rewrite H5. cbn. rewrite E1. exact H.
        * rewrite H2. right; right. cbn [fst snd]. split; [destruct a, b; reflexivity|]. rewrite H4, H5.
          unfold sim_rst. cbn. rewrite E1, E2. auto.
      + destruct H as [H|(e2 & st2' & H2 & H3)]; [left; exact H|]. rewrite H2. right; right. exact H3.
    - (* unknown *)
      destruct (cf_ignore cf); [right; right; split; [reflexivity|exact HR]|].
      destruct (x_cur st1) as [f1|] eqn:E1; [|left; exact I].
      destruct (x_cur st2) as [f2|] eqn:E2; [|destruct f1; contradiction].
      destruct Hcr as (Ht & Hv & Hps). right; right. unfold xfail. cbn [fst snd]. split; cbn; [exact Hp|].
      rewrite Ho. destruct (x_over st2); [apply KR_eq|]. rewrite Ht. now apply KR_unk.
    - (* push *)
      rewrite <- Hlen. destruct (cf_rec cf <=? lenN (x_path st1)); [apply Hf|].
      destruct at_field.
      + destruct (x_cur st1) as [f1|] eqn:E1; [|left; exact I].
        destruct (x_cur st2) as [f2|] eqn:E2; [|destruct f1; contradiction].
        right; right. split; [reflexivity|]. unfold sim_rst. cbn. rewrite E1, E2. split; [exact Hs|]. split; [now f_equal|auto].
      + right; right. split; [reflexivity|]. unfold sim_rst. cbn. split; [exact Hs|]. split; [now f_equal|auto].
    - (* pop *)
      right; right. split; [reflexivity|]. unfold sim_rst, mmod. cbn. split; [exact Hs|]. split; [|auto].
      destruct (x_path st1), (x_path st2); cbn in *; try discriminate; congruence.
    - (* collect *)
      rewrite (Hdbg _ _ _ _ Hs), Hc. destruct (ctx_collect (i_dbg I2 (x_s st2)) (cf_collect cf) (x_coll st2) 1) as [c|k| |];
        [|apply Hf|left; exact I|left; exact I].
      right; right. split; [reflexivity|]. unfold sim_rst. cbn. auto.
    - rewrite (Hdbg _ _ _ _ Hs), Hb. destruct (ctx_blob (i_dbg I2 (x_s st2)) (cf_blob cf) (x_blob st2) n) as [c|k0| |];
        [|apply Hf|left; exact I|left; exact I].
      right; right. split; [reflexivity|]. unfold sim_rst. cbn. auto.
    - right; right. split; [reflexivity|]. unfold sim_rst. cbn. auto.
    - now apply Hblob.
    - now apply Hblob.
    - now apply Hblob.
    - now apply Hblob.
  Qed.

  Lemma src_dm_op (X : Set) (o : op X) st1 : dm_rst st1 ->
    match run_op I1 cf o st1 with (ROk _, st') => dm_rst st' | _ => True end.
  Proof.
    intros Hd. unfold dm_rst in *.
    assert (Hkeep : forall A c (m : M S1 serr A), dm_keeps c m -> x_cur st1 = c ->
      match on_src_of m st1 with (ROk _, st') => Dm (x_s st') (x_cur st') | _ => True end).
    { intros A c m Hm Hc. rewrite Hc in Hd. unfold on_src_of. specialize (Hm _ Hd).
      destruct (m (x_s st1)) as [[a|e| |] t]; try exact I. cbn. rewrite Hc. exact Hm. }
    assert (Hkb : forall A (m : M S1 serr A), (forall c, blob_cur c -> dm_keeps c m) ->
      match on_blob m st1 with (ROk _, st') => Dm (x_s st') (x_cur st') | _ => True end).
    { intros A m Hm. unfold on_blob. destruct (x_cur st1) as [[t p d v]|] eqn:E; [|exact I].
      destruct v; try exact I. eapply Hkeep; [|reflexivity]. apply Hm. exact Logic.I. }
    destruct o; cbn [run_op].
    - unfold mbind. specialize (Dnext _ _ Hd). unfold on_src_of. destruct (i_next I1 (x_s st1)) as [[a|e| |] t]; try exact I.
      cbn. exact Dnext.
    - destruct (x_cur st1) as [f1|] eqn:E1; [|exact I]. exact (Hkeep _ (Some f1) _ (Dskip f1) eq_refl).
    - destruct (cf_ignore cf); [exact Hd|]. destruct (x_cur st1); exact Logic.I.
    - destruct (cf_rec cf <=? lenN (x_path st1)); [exact I|]. destruct at_field; [|exact Hd].
      destruct (x_cur st1) eqn:E1; [|exact I]. cbn. now rewrite E1.
    - exact Hd.
    - destruct (ctx_collect _ _ _ 1); try exact I. exact Hd.
    - destruct (ctx_blob _ _ _ n); try exact I. exact Hd.
    - exact Hd.
    - apply Hkb. intros c Hc. apply (Dblob c Hc).
    - apply Hkb. intros c Hc. apply (Dblob c Hc).
    - apply Hkb. intros c Hc. apply (Dblob c Hc).
    - apply Hkb. intros c Hc. apply (Dblob c Hc).
  Qed.

  Theorem src_sim {A} (p : prog A) st1 st2 : sim_rst st1 st2 ->
    orel sim_rst (err_rel PR) bad_err dm_rst (run I1 cf p st1) (run I2 cf p st2).
  Proof.
    apply run_sim.
    - apply src_op_sim.
    - intros _ s1 s2 k H. now apply the_err_rel.
    - intros s H. exact (Dbad _ _ H).
    - apply src_dm_op.
  Qed.
End SrcSim.
