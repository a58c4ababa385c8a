(** * P_Places: the positions in error locations (C66) *)

From Verif Require Import Base Wire Dev Stream Types Prog De SpecDe P_Base P_Types P_Sched P_Read P_Pos P_ReadOnly P_DictAll.
From Coq Require Import Sorting.Sorted.
Local Open Scope N_scope.
Strategy 1000 [s_decode_u64 decode_u64 decode_loop write_all read_exact encode_u64 enc_loop encode_fixed_u64 mloop miter].

(** ** Reading moves the position forward *)
Lemma p_bread (a b : N) n : preserves (pinv a b) (b_read n).
Proof. unfold b_read. apply pr_bind; [apply pr_pure|intros rem]. apply pr_if; [apply pr_ret|apply p_tread]. Qed.
Lemma p_ext (a b : N) : preserves (pinv a b) b_ext_slice.
Proof.
  unfold b_ext_slice. apply pr_bind; [|intros inner; apply pr_bind; [apply pr_pure|intros rem]; apply pr_if; [apply pr_fail|apply pr_ret]].
  intros s r s' HP H. unfold as_slice in H. destruct (_ <? _); injection H as <- <-; exact HP.
Qed.
Lemma hd_dropN {A} (l : list A) n : hd_error (dropN n l) = nth_error l (N.to_nat n).
Proof. rewrite dropN_skipn. revert l. induction (N.to_nat n) as [|k IH]; intros [|x l]; try reflexivity. apply IH. Qed.
Section Forward.
Variables (D : bytes) (a b : N).
Definition good (s : stream) : Prop :=
  s_pos s <= U64_MAX /\ (s_commit s = None \/ s_commit s = Some CSkipBlob) /\ d_data (s_dev s) = D /\ s_pos s + a = d_pos (s_dev s) + b.
Definition fwd {A} (m : SM A) : Prop := forall s r s', good s -> m s = (r, s') -> good s' /\ s_pos s <= s_pos s'.
Lemma fwd_by {A} (m : SM A) : (forall a b, preserves (pinv a b) m) -> (forall D lo, preserves (ro D lo) m) -> fwd m.
Proof.
  intros Hp Hr s r s' (G1 & G2 & G3 & G4) H.
  assert (A1 : pinv a b s').
  { apply (Hp _ _ s r s'); [|exact H]. split; [exact G1|]. split; [exact G4|]. intros Hc. destruct G2; congruence. }
  assert (A2 : ro D (d_pos (s_dev s)) s').
  { apply (Hr _ _ s r s'); [|exact H]. split; [exact G3|]. split; [lia|exact G2]. }
  destruct A1 as (B1 & B2 & _). destruct A2 as (B0 & B3 & B4). split; [repeat split; auto|lia].
Qed.
Lemma fwd_next : fwd next_field.
Proof. apply fwd_by; [apply p_next_field|apply ro_next_field]. Qed.
Lemma fwd_skip f : fwd (field_skip f).
Proof. apply fwd_by; [|intros; apply ro_field_skip]. intros a0 b0. unfold field_skip. destruct (f_val f); try apply pr_ret; apply p_skip_up. Qed.
Lemma fwd_remaining : fwd b_remaining.
Proof. apply fwd_by; intros; apply pr_pure. Qed.
Lemma fwd_fully n : fwd (b_read_fully n).
Proof.
  apply fwd_by; [|intros; apply ro_fully]. intros a0 b0. unfold b_read_fully. apply pr_bind; [apply pr_pure|intros rem].
  apply pr_if; [apply pr_fail|apply pr_lift, pr_read_upto, p_bread].
Qed.
Lemma fwd_exact n : fwd (lift_io (b_read_exact n)).
Proof. apply fwd_by; intros; apply pr_lift; [apply pr_read_exact, p_bread|apply ro_bexact]. Qed.
Lemma fwd_ext : fwd b_ext_slice.
Proof. apply fwd_by; [apply p_ext|intros; apply ro_ext]. Qed.

(** A field lies between the position before and the position after. *)
Definition from (lo : N) (s : stream) : Prop := good s /\ lo <= s_pos s.
Lemma fwd_pres {A} (m : SM A) lo : fwd m -> preserves (from lo) m.
Proof. intros Hf s r s' [G L] H. destruct (Hf s r s' G H) as [G' L']. split; [exact G'|lia]. Qed.
Lemma fwd_step sp u : fwd (next_element_step sp u).
Proof. apply fwd_by; [intros; apply p_step|intros; apply ro_step]. Qed.
Lemma fwd_commit : fwd commit.
Proof. apply fwd_by; [apply p_commit|apply ro_commit]. Qed.
(** The byte a field begins with. *)
Definition begins (f : field) : Prop :=
  exists byte, nth_error D (N.to_nat (f_pos f + a - b)) = Some byte /\ byte mod 64 = f_tag f.
Lemma first_byte g s x s' : s_read_byte g s = (ROk x, s') -> hd_error (rest s) = Some x \/ x = 0x40.
Proof.
  intros H. destruct (s_read_byte_sim g s _ _ H) as [[H1 _]|(_ & e & He & _)]; [|discriminate].
  rewrite s_read_byte_eq in H1 by reflexivity. unfold rb_spec in H1. change (rest (strip s)) with (rest s) in H1.
  destruct (_ <? 1); [discriminate|]. destruct (rest s) as [|y l]; [destruct g; [|discriminate]; right; congruence|left; cbn; congruence].
Qed.
Lemma tag_of x ty tag : parse_desc x = Some (PPair ty tag) -> x mod 64 = tag.
Proof.
  unfold parse_desc. destruct (_ =? 0); [destruct (stype_of _); discriminate|]. destruct (dtype_of _); [|discriminate].
  intros H. injection H as _ <-. change 63 with (N.ones 6). rewrite N.land_ones. reflexivity.
Qed.
Lemma step_pos sp u s f s' : good s -> next_element_step sp u s = (ROk (inr (ElField f)), s') -> f_pos f = s_pos s /\ begins f.
Proof.
  intros (_ & _ & G3 & G4). unfold next_element_step, mget. intros H. unfold mbind at 1 in H. unfold mbind at 1 in H.
  destruct (s_read_byte (s_graceful s) s) as [[x| | |] s1] eqn:Eb; try discriminate.
  destruct (parse_desc x) as [[ty tag|[]]|] eqn:Ep; try discriminate.
  - unfold mbind, mmod in H. destruct (next_value ty _) as [[v| | |] s2]; try discriminate. unfold mret in H. inversion H. cbn [f_pos].
    split; [reflexivity|]. exists x. cbn [f_pos f_tag]. split; [|exact (tag_of _ _ _ Ep)].
    destruct (first_byte _ _ _ _ Eb) as [Hb| ->]; [|vm_compute in Ep; discriminate].
    replace (s_pos s + a - b) with (d_pos (s_dev s)) by lia. rewrite <- G3. unfold rest, d_rest in Hb. rewrite hd_dropN in Hb. exact Hb.
  - exfalso. unfold mbind, mmod in H. destruct (next_blob s1) as [[v| | |] s2]; unfold mret in H; discriminate.
  - exfalso. destruct sp; unfold mret in H; discriminate.
Qed.
Lemma next_between s f s' : good s -> next_field s = (ROk (Some f), s') -> s_pos s <= f_pos f <= s_pos s' /\ begins f.
Proof.
  intros G H. unfold next_field in H. unfold mbind at 1 in H. destruct (next_element_impl true s) as [[el| | |] s1] eqn:E; try discriminate.
  assert (Hf : el = ElField f /\ s1 = s').
  { destruct el as [g| | |len|]; try discriminate; [unfold mret in H; injection H as -> ->; auto|].
    unfold mbind in H. destruct (b_read_or_trunc 256 s1) as [[m| | |] s2]; discriminate. }
  destruct Hf as [-> ->]. unfold next_element_impl in E. destruct (s_eof s); [discriminate|].
  unfold mbind at 1 in E. destruct (commit s) as [[u| | |] s1] eqn:Ec; try discriminate. destruct (fwd_commit _ _ _ G Ec) as [G1 L1].
  assert (Hy : yields (from (s_pos s)) (fun el s' => match el with ElField f => s_pos s <= f_pos f <= s_pos s' /\ begins f | _ => True end) (mloop (next_element_step true) tt)).
  { apply y_mloop; [intros u0; apply fwd_pres, fwd_step|]. intros u0 s2 x s3 [G2 L2] Hx.
    destruct x as [x|[g| | |len|]]; auto. destruct (step_pos _ _ _ _ _ G2 Hx) as [-> Hb]. destruct (fwd_step _ _ _ _ _ G2 Hx) as [_ L3]. split; [lia|exact Hb]. }
  exact (Hy s1 (ElField f) s' (conj G1 L1) E).
Qed.
End Forward.

(** ** Stacks of contexts *)
Fixpoint chain (lo : N) (p : list (string * N)) (hi : N) : Prop :=
  match p with [] => lo <= hi | (_, x) :: r => x <= hi /\ chain lo r x end.
Lemma chain_le lo p hi hi' : chain lo p hi -> hi <= hi' -> chain lo p hi'.
Proof. destruct p as [|[nm x] r]; cbn; intros H Hl; [lia|]. destruct H. split; [lia|assumption]. Qed.
Lemma chain_sorted lo p hi : chain lo p hi -> Sorted N.le ([lo] ++ rev (map snd p) ++ [hi]).
Proof.
  revert hi. induction p as [|[nm x] r IH]; intros hi H; cbn in H.
  - repeat constructor. exact H.
  - destruct H as [Hx H]. specialize (IH x H). cbn [map rev snd]. rewrite <- app_assoc. cbn [app] in *.
    assert (Hs : forall l x hi, x <= hi -> Sorted N.le (l ++ [x]) -> Sorted N.le (l ++ [x; hi])).
    { clear. induction l as [|a l IH]; intros x hi Hx Hl; cbn [app] in *; [repeat constructor; exact Hx|].
      inversion Hl; subst. constructor; [now apply IH|]. destruct l; cbn in *; [inversion H2; subst; now constructor|inversion H2; subst; now constructor]. }
    exact (Hs (lo :: rev (map snd r)) x hi Hx IH).
Qed.

Section Safe.
  Variables (D : bytes) (a0 b0 : N) (cf : cfg) (lo : N).
  Notation good := (good D a0 b0).
  Notation fwd := (fwd D a0 b0).
  Notation begins := (begins D a0 b0).
  Notation run := (run stream_source cf).

  Definition okst (st : rst stream) : Prop := good (x_s st) /\ chain lo (x_path st) (s_pos (x_s st)) /\ lenN (x_path st) <= cf_rec cf /\
    (x_over st = None \/ x_over st = Some (KTooMany 1)).
  Definition fresh (st : rst stream) : Prop := match x_cur st with Some f => (chain lo (x_path st) (f_pos f) /\ f_pos f <= s_pos (x_s st)) /\ begins f | None => True end.
  Definition located (x : derr) (s : stream) : Prop :=
    chain lo (e_path x) (s_pos s) /\ lenN (e_path x) <= cf_rec cf /\
    (forall tag pos, e_kind x = KUnknownField tag pos -> chain lo (e_path x) pos /\ pos <= s_pos s /\
      exists byte, nth_error D (N.to_nat (pos + a0 - b0)) = Some byte /\ byte mod 64 = tag).
  Definition safe (need : bool) {A} (p : prog A) : Prop := forall st, okst st -> (need = true -> fresh st) ->
    match run p st with
    | (ROk a, st') => okst st' /\ x_path st' = x_path st
    | (RErr x, st') => located x (x_s st')
    | _ => True
    end.

  Lemma safe_weak need {A} (p : prog A) : safe false p -> safe need p.
  Proof. intros H st Hs _. apply H; [exact Hs|discriminate]. Qed.
  Lemma safe_ret need {A} (a : A) : safe need (PRet a).
  Proof. intros st Hs _. cbn. auto. Qed.
  Lemma safe_stop need {A} : safe need (PStop StPanic : prog A).
  Proof. intros st Hs _. exact I. Qed.
  Lemma safe_stop2 need {A} : safe need (PStop StFuel : prog A).
  Proof. intros st Hs _. exact I. Qed.
  Lemma xfail_located {A} st k : okst st -> (forall tag pos, k = KUnknownField tag pos -> chain lo (x_path st) pos /\ pos <= s_pos (x_s st) /\
      exists byte, nth_error D (N.to_nat (pos + a0 - b0)) = Some byte /\ byte mod 64 = tag) ->
    forall x st', @xfail stream A k st = (RErr x, st') -> located x (x_s st').
  Proof.
    intros (G & C & L & O) Hk x st' H. unfold xfail in H. injection H as <- <-. split; [exact C|]. split; [exact L|]. cbn. intros tag pos.
    destruct O as [-> | ->]; [apply Hk|discriminate].
  Qed.
  Lemma safe_fail need {A} k : (forall tag pos, k <> KUnknownField tag pos) -> safe need (pfail k : prog A).
  Proof.
    intros Hk st Hs _. unfold pfail. cbn [Prog.run]. destruct (xfail k st) as [r st'] eqn:E. pose proof E as E'. unfold xfail in E'. injection E' as <- _.
    apply (xfail_located st k Hs) with (1 := fun tag pos H => False_ind _ (Hk tag pos H)) in E. exact E.
  Qed.
  Lemma run_bind {A B} (p : prog A) (k : A -> prog B) st : run (pbind p k) st = mbind (run p) (fun a => run (k a)) st.
  Proof.
    revert st. induction p as [a|x|X o k' IH]; intros st; cbn [pbind Prog.run].
    - reflexivity.
    - destruct x; reflexivity.
    - unfold mbind. destruct (run_op stream_source cf o st) as [[x| | |] st1]; try reflexivity. rewrite IH. reflexivity.
  Qed.
  Lemma safe_bind need {A B} (p : prog A) (k : A -> prog B) : safe need p -> (forall a, safe false (k a)) -> safe need (pbind p k).
  Proof.
    intros Hp Hk st Hs Hf. rewrite run_bind. specialize (Hp st Hs Hf). unfold mbind. destruct (run p st) as [[a|x| |] st1]; auto.
    destruct Hp as [Hs1 Hp1]. specialize (Hk a st1 Hs1 ltac:(discriminate)). destruct (run (k a) st1) as [[b|x| |] st2]; auto.
    destruct Hk as [A1 A2]. split; [exact A1|congruence].
  Qed.


  Lemma safe_src need {A : Set} {B} (o : op A) (k : A -> prog B) :
    (forall st, (exists m, fwd m /\ run_op stream_source cf o st = on_src_of m st) \/ run_op stream_source cf o st = (RPanic, st)) ->
    (forall a, safe false (k a)) -> safe need (pbind (pdo o) k).
  Proof.
    intros Ho Hk. apply safe_bind; [|exact Hk]. intros st Hs _. unfold pdo. cbn [Prog.run]. unfold mbind.
    destruct (Ho st) as [(m & Hm & ->) | ->]; [|exact I]. unfold on_src_of. destruct (m (x_s st)) as [r s1] eqn:E.
    destruct Hs as (G & C & L & O). destruct (Hm _ _ _ G E) as [G1 L1].
    assert (Hs1 : okst (x_set_s s1 st)).
    { split; [exact G1|]. split; [exact (chain_le _ _ _ _ C L1)|]. split; [exact L|exact O]. }
    destruct r as [a|x| |]; try exact I.
    - unfold mret. split; [exact Hs1|reflexivity].
    - destruct (xfail (A := A) (KStream x) (x_set_s s1 st)) as [r st'] eqn:Ef. pose proof Ef as Ef'. unfold xfail in Ef'. injection Ef' as <- _.
      refine (xfail_located (x_set_s s1 st) (KStream x) Hs1 _ _ _ Ef). discriminate.
  Qed.
  Lemma on_blob_or {A : Set} (m : SM A) st : fwd m -> (exists m', fwd m' /\ on_blob m st = on_src_of m' st) \/ on_blob m st = (RPanic, st).
  Proof. intros Hm. unfold on_blob. destruct (x_cur st) as [[? ? ? []]|]; eauto. Qed.
  Lemma safe_skip need {B} (k : unit -> prog B) : (forall a, safe false (k a)) -> safe need (pbind (pdo OSkip) k).
  Proof. apply safe_src. intros st. cbn [run_op]. destruct (x_cur st) as [f|]; [left; exists (field_skip f); split; [apply fwd_skip|reflexivity]|auto]. Qed.
  Lemma safe_remaining need {B} (k : N -> prog B) : (forall a, safe false (k a)) -> safe need (pbind (pdo ORemaining) k).
  Proof. apply safe_src. intros st. apply on_blob_or, fwd_remaining. Qed.
  Lemma safe_fully need {B} (k : bytes -> prog B) : (forall a, safe false (k a)) -> safe need (pbind (pdo OReadFully) k).
  Proof. apply safe_src. intros st. apply on_blob_or, fwd_fully. Qed.
  Lemma safe_exact need {B} n (k : bytes -> prog B) : (forall a, safe false (k a)) -> safe need (pbind (pdo (OReadExact n)) k).
  Proof. apply safe_src. intros st. apply on_blob_or, fwd_exact. Qed.
  Lemma safe_ext need {B} (k : bytes -> prog B) : (forall a, safe false (k a)) -> safe need (pbind (pdo OExt) k).
  Proof. apply safe_src. intros st. apply on_blob_or, fwd_ext. Qed.
  Lemma safe_pdo need {A : Set} (o : op A) : safe need (pbind (pdo o) (fun a => PRet a)) -> safe need (pdo o).
  Proof. intros H. exact H. Qed.

  (** Operations that move nothing. *)
  Lemma safe_still need {A : Set} {B} (o : op A) (k : A -> prog B) :
    (forall st, okst st -> match run_op stream_source cf o st with
                           | (ROk a, st') => okst st' /\ x_path st' = x_path st /\ x_cur st' = x_cur st /\ x_s st' = x_s st
                           | (RErr x, st') => located x (x_s st')
                           | _ => True
                           end) ->
    (forall a, safe need (k a)) -> safe need (pbind (pdo o) k).
  Proof.
    intros Ho Hk st Hs Hf. rewrite run_bind. unfold pdo. cbn [Prog.run]. specialize (Ho st Hs). unfold mbind.
    destruct (run_op stream_source cf o st) as [[a|x| |] st1]; auto. destruct Ho as (H1 & H2 & H3 & H4). unfold mret.
    assert (Hf1 : need = true -> fresh st1) by (intros Hn; unfold fresh; rewrite H2, H3, H4; exact (Hf Hn)).
    specialize (Hk a st1 H1 Hf1). destruct (run (k a) st1) as [[b|x| |] st2]; auto. destruct Hk as [A1 A2]. split; [exact A1|congruence].
  Qed.
  Lemma xfail_ok {A} st k : okst st -> (forall tag pos, k <> KUnknownField tag pos) ->
    match @xfail stream A k st with (RErr x, st') => located x (x_s st') | _ => False end.
  Proof.
    intros Hs Hk. destruct (xfail (A := A) k st) as [r st'] eqn:E. pose proof E as E'. unfold xfail in E'. injection E' as <- _.
    refine (xfail_located st k Hs _ _ _ E). intros tag pos H. destruct (Hk tag pos H).
  Qed.
  Lemma u64_sub_kind dbg (a b : N) k : u64_sub (E := ekind) dbg a b = RErr k -> False.
  Proof. unfold u64_sub. repeat match goal with |- context [if ?b then _ else _] => destruct b end; discriminate. Qed.
  Lemma u64_add_kind dbg (a b : N) k : u64_add (E := ekind) dbg a b = RErr k -> False.
  Proof. unfold u64_add. repeat match goal with |- context [if ?b then _ else _] => destruct b end; discriminate. Qed.
  Lemma safe_collect need {B} (k : unit -> prog B) : (forall a, safe need (k a)) -> safe need (pbind (pdo OCollect) k).
  Proof.
    apply safe_still. intros st Hs. cbn [run_op]. unfold ctx_collect.
    destruct (u64_sub _ _ _) as [room|x| |]; try exact I. destruct (room <? 1).
    - pose proof (xfail_ok (A := unit) st KMaxCollect Hs ltac:(discriminate)) as H. destruct (xfail KMaxCollect st) as [[| | |] ?]; tauto.
    - destruct (u64_add _ _ _) as [c|x| |] eqn:E; try exact I; [|destruct (u64_add_kind _ _ _ _ E)]. destruct Hs as (G & C & L & O).
      split; [|auto]. split; [exact G|]. split; [exact C|]. split; [exact L|exact O].
  Qed.
  Lemma safe_quota need {B} n (k : unit -> prog B) : (forall a, safe need (k a)) -> safe need (pbind (pdo (OQuota n)) k).
  Proof.
    apply safe_still. intros st Hs. cbn [run_op]. unfold ctx_blob.
    destruct (u64_sub _ _ _) as [room|x| |]; try exact I. destruct (room <? n).
    - pose proof (xfail_ok (A := unit) st KMaxBlob Hs ltac:(discriminate)) as H. destruct (xfail KMaxBlob st) as [[| | |] ?]; tauto.
    - destruct (u64_add _ _ _) as [c|x| |] eqn:E; try exact I; [|destruct (u64_add_kind _ _ _ _ E)]. destruct Hs as (G & C & L & O).
      split; [|auto]. split; [exact G|]. split; [exact C|]. split; [exact L|exact O].
  Qed.
  Lemma safe_over need {B} (k : unit -> prog B) : (forall a, safe need (k a)) -> safe need (pbind (pdo (OOver (KTooMany 1))) k).
  Proof.
    apply safe_still. intros st (G & C & L & O). cbn [run_op]. unfold mmod. split; [|auto]. split; [exact G|]. split; [exact C|]. split; [exact L|]. right. reflexivity.
  Qed.
  Lemma safe_unknown {B} (k : unit -> prog B) : (forall a, safe true (k a)) -> safe true (pbind (pdo OUnknown) k).
  Proof.
    intros Hk st Hs Hf. rewrite run_bind. unfold pdo. cbn [Prog.run run_op]. unfold mbind, mret. destruct (cf_ignore cf); [exact (Hk tt st Hs Hf)|].
    specialize (Hf eq_refl). unfold fresh in Hf. destruct (x_cur st) as [f|]; [|exact I].
    destruct (xfail (A := unit) (KUnknownField (f_tag f) (f_pos f)) st) as [r st'] eqn:E. pose proof E as E'. unfold xfail in E'. injection E' as <- _.
    refine (xfail_located st _ Hs _ _ _ E). intros tag pos H. injection H as <- <-. destruct Hf as [[F1 F2] F3]. split; [exact F1|]. split; [exact F2|exact F3].
  Qed.
  Lemma safe_next need {B} (k : option (N * vhdr) -> prog B) : safe false (k None) -> (forall tag vh, safe true (k (Some (tag, vh)))) ->
    safe need (pbind (pdo ONext) k).
  Proof.
    intros Hn Hk st Hs _. rewrite run_bind. unfold pdo. cbn [Prog.run run_op]. unfold on_src_of, mbind, mmod, mret. cbn [i_next stream_source].
    destruct (next_field (x_s st)) as [r s1] eqn:E. destruct Hs as (G & C & L & O). destruct (fwd_next _ _ _ _ _ _ G E) as [G1 L1].
    assert (Hs1 : forall c, okst (x_set_cur c (x_set_s s1 st))).
    { intros c. split; [exact G1|]. split; [exact (chain_le _ _ _ _ C L1)|]. split; [exact L|exact O]. }
    destruct r as [[f|]|x| |]; try exact I.
    - cbn [option_map]. assert (Hf : fresh (x_set_cur (Some f) (x_set_s s1 st))).
      { destruct (next_between _ _ _ _ _ _ G E) as [[A1 A2] A3]. split; [split; [exact (chain_le _ _ _ _ C A1)|exact A2]|exact A3]. }
      specialize (Hk (f_tag f) (f_val f) _ (Hs1 (Some f)) (fun _ => Hf)).
      destruct (run (k (Some (f_tag f, f_val f))) _) as [[b|x| |] st2]; auto.
    - specialize (Hn _ (Hs1 None) ltac:(discriminate)). cbn [option_map]. destruct (run (k None) _) as [[b|x| |] st2]; auto.
    - pose proof (xfail_ok (A := option field) (x_set_s s1 st) (KStream x)) as H.
      unfold xfail in *. apply H; [|discriminate]. exact (Hs1 (x_cur st)).
  Qed.
  Lemma safe_push need (af : bool) nm {A B} (p : prog A) (k : A -> prog B) : (af = true -> need = true) ->
    safe af p -> (forall a, safe false (k a)) ->
    safe need (pbind (pdo (OPush af nm)) (fun _ => pbind p (fun a => pbind (pdo OPop) (fun _ => k a)))).
  Proof.
    intros Ha Hp Hk st Hs Hf. rewrite run_bind. unfold pdo at 1. cbn [Prog.run run_op].
    destruct Hs as (G & C & L & O). unfold mbind at 1. unfold mbind at 1. destruct (cf_rec cf <=? lenN (x_path st)) eqn:El.
    { pose proof (xfail_ok (A := unit) st KRecLimit (conj G (conj C (conj L O))) ltac:(discriminate)) as H. unfold xfail in *. exact H. }
    apply N.leb_gt in El.
    assert (Hgo : forall x, chain lo (x_path st) x -> x <= s_pos (x_s st) -> (af = true -> fresh (x_set_path ((nm, x) :: x_path st) st)) ->
      match run (pbind p (fun a => pbind (pdo OPop) (fun _ => k a))) (x_set_path ((nm, x) :: x_path st) st) with
      | (ROk a, st') => okst st' /\ x_path st' = x_path st
      | (RErr x, st') => located x (x_s st')
      | _ => True
      end).
    { intros x Hx Hl Hfr. rewrite run_bind.
      assert (Hs1 : okst (x_set_path ((nm, x) :: x_path st) st)).
      { split; [exact G|]. split; [split; [exact Hl|exact Hx]|]. split; [|exact O]. cbn [x_path x_set_path]. rewrite lenN_cons. lia. }
      specialize (Hp _ Hs1 Hfr). unfold mbind at 1. destruct (run p (x_set_path ((nm, x) :: x_path st) st)) as [[a|e| |] st1]; auto.
      destruct Hp as [(G1 & C1 & L1 & O1) Hp1]. rewrite run_bind. unfold pdo. cbn [Prog.run run_op]. unfold mbind, mmod, mret.
      assert (Hs2 : okst (x_set_path (tl (x_path st1)) st1)).
      { rewrite Hp1 in *. cbn [x_path x_set_path tl] in *. destruct C1 as [C1 C2]. split; [exact G1|]. split; [exact (chain_le _ _ _ _ C2 C1)|].
        split; [|exact O1]. cbn [x_path x_set_path]. lia. }
      specialize (Hk a _ Hs2 ltac:(discriminate)). destruct (run (k a) _) as [[b|e| |] st2]; auto. destruct Hk as [A1 A2]. split; [exact A1|].
      rewrite A2. cbn [x_path x_set_path]. rewrite Hp1. reflexivity. }
    destruct af.
    - specialize (Hf (Ha eq_refl)). unfold fresh in Hf. destruct (x_cur st) as [f|] eqn:Ec; [|exact I]. unfold mret.
      apply Hgo; [tauto|tauto|]. intros _. unfold fresh. cbn [x_set_path x_cur x_path x_s]. rewrite Ec. cbn [chain]. split; [split; [split; [lia|tauto]|tauto]|tauto].
    - unfold mret. apply Hgo; [exact C|cbn; lia|discriminate].
  Qed.
  Lemma safe_lift need {A B} (r : res serr A) (k : A -> prog B) : (forall a, safe need (k a)) -> safe need (pbind (plift r) k).
  Proof. intros Hk. destruct r as [a|x| |]; cbn [plift pbind pfail]; [apply Hk|apply (safe_fail need); discriminate|apply safe_stop|apply safe_stop2]. Qed.
  Lemma safe_piter {A B} (step : A -> prog (A + B)) p : (forall a, safe false (step a)) -> forall a, safe false (piter p step a).
  Proof.
    intros Hs. induction p as [q IH|q IH|]; intros a; cbn [piter].
    - apply safe_bind; [apply Hs|]. intros [a'|b]; [|apply safe_ret]. apply safe_bind; [apply IH|]. intros [a''|b]; [apply IH|apply safe_ret].
    - apply safe_bind; [apply IH|]. intros [a''|b]; [apply IH|apply safe_ret].
    - apply Hs.
  Qed.
  Lemma safe_loop {A B} (step : A -> prog (A + B)) a : (forall a, safe false (step a)) -> safe false (ploop step a).
  Proof. intros Hs. unfold ploop. apply safe_bind; [now apply safe_piter|]. intros [x|b]; [apply safe_stop2|apply safe_ret]. Qed.

  (** ** Every impl *)
  Record dsafe (d : dict) : Prop := mkDS {
    ds_field : forall a tag vh, safe true (d_field d a tag vh);
    ds_elem : forall tag vh, safe true (d_elem d tag vh);
    ds_fin : forall a, safe false (d_fin d a);
    ds_body : safe false (d_body d) }.
  Lemma ill_safe need {A} : safe need (ill : prog A).
  Proof. apply safe_stop. Qed.
  Lemma safe_if need {A} (c : bool) (p q : prog A) : safe need p -> safe need q -> safe need (if c then p else q).
  Proof. destruct c; auto. Qed.
  Lemma find_tag_in {A} tag (l : list (string * N * A)) i nm x : find_tag tag l = Some (i, nm, x) -> exists t, In (nm, t, x) l.
  Proof.
    revert i. induction l as [|[[n t] y] r IH]; intros i H; [discriminate|]. cbn [find_tag] in H. destruct (t =? tag).
    - injection H as _ <- <-. exists t. now left.
    - destruct (find_tag tag r) as [[[j nm'] x']|]; [|discriminate]. injection H as _ <- <-. destruct (IH j eq_refl) as [t' Ht]. exists t'. now right.
  Qed.
  Definition psafe (d : dict) : Prop := (forall a tag vh, safe true (d_field d a tag vh)) /\ (forall a, safe false (d_fin d a)).
  Lemma dsafe_p d : dsafe d -> psafe d.
  Proof. intros [H1 H2 H3 H4]. split; assumption. Qed.
  Definition fsafe (fs : list fdict) : Prop := forall nm t d, In (nm, t, d) fs -> psafe d.
  Definition usafe (unk : option (string * dict)) : Prop := match unk with Some (_, d) => psafe d | None => True end.
  Lemma step_safe fs unk st : fsafe fs -> usafe unk -> safe false (body_step fs unk st).
  Proof.
    intros Hfs Hu. unfold body_step. destruct st as [accs ua]. apply safe_next; [apply safe_ret|]. intros tag vh.
    destruct (find_tag tag fs) as [[[i nm] d]|] eqn:Ef.
    - destruct (find_tag_in _ _ _ _ _ Ef) as [t Ht]. apply (safe_push true true nm); [auto|apply (proj1 (Hfs _ _ _ Ht))|]. intros a. apply safe_ret.
    - destruct unk as [[nm d]|].
      + apply (safe_push true true); [auto|apply (proj1 Hu)|]. intros a. apply safe_ret.
      + apply safe_unknown. intros u0. apply safe_skip. intros u1. apply safe_ret.
  Qed.
  Lemma finish_one_safe nm d a : psafe d -> safe false (finish_one nm d a).
  Proof. intros Hd. unfold finish_one. apply (safe_push false false nm); [discriminate|apply (proj2 Hd)|]. intros v. apply safe_ret. Qed.
  Lemma finish_all_safe fs : fsafe fs -> forall accs, safe false (finish_all fs accs).
  Proof.
    intros Hfs. induction fs as [|[[nm t] d] r IH]; intros [|a accs]; cbn [finish_all]; try apply safe_ret; try apply ill_safe.
    apply safe_bind; [apply finish_one_safe, (Hfs nm t d); now left|]. intros v. apply safe_bind; [apply IH; intros n0 t0 d0 H0; apply (Hfs n0 t0 d0); now right|].
    intros vs. apply safe_ret.
  Qed.
  Lemma des_safe fs unk : fsafe fs -> usafe unk -> safe false (des_body fs unk).
  Proof.
    intros Hfs Hu. unfold des_body. apply safe_bind; [apply safe_loop; intros st; now apply step_safe|]. intros [accs ua].
    apply safe_bind; [now apply finish_all_safe|]. intros vs. destruct unk as [[nm d]|]; [|apply safe_ret].
    apply safe_bind; [now apply finish_one_safe|]. intros v. apply safe_ret.
  Qed.
  Lemma default_safe d : psafe d -> safe false (body_default d).
  Proof.
    intros Hd. unfold body_default. apply safe_bind; [apply des_safe; [|exact Logic.I]|].
    - intros nm t d' [H|[]]. now injection H as _ _ <-.
    - intros [|v [|]]; try apply ill_safe; apply safe_ret.
  Qed.
  (* body_default only uses d_init, d_field and d_fin. *)
  Lemma default_safe' d : (forall a tag vh, safe true (d_field d a tag vh)) -> (forall a, safe false (d_fin d a)) -> safe false (body_default d).
  Proof.
    intros H1 H2. apply default_safe. now split.
  Qed.
  Lemma opt_field_safe k conv a tag vh : (forall t p, k <> KUnknownField t p) -> (forall t v, safe true (conv t v)) -> safe true (opt_field k conv a tag vh).
  Proof.
    intros Hk Hc. unfold opt_field. destruct a as [[v|]| | |]; try apply ill_safe; [now apply safe_fail|]. apply safe_bind; [apply Hc|]. intros v. apply safe_ret.
  Qed.
  Lemma opt_fin_safe a : safe false (opt_fin a).
  Proof. destruct a as [[v|]| | |]; cbn [opt_fin]; try apply ill_safe; [apply safe_ret|apply safe_fail; discriminate]. Qed.
  Lemma unary_safe conv : (forall t v, safe true (conv t v)) -> dsafe (unary conv).
  Proof.
    intros Hc. assert (Hf : forall a tag vh, safe true (opt_field (KTooMany 1) conv a tag vh)) by (intros; apply opt_field_safe; [discriminate|exact Hc]).
    unfold unary, with_default_body. constructor; cbn [d_init d_field d_elem d_fin d_body].
    - exact Hf.
    - intros tag vh. unfold elem_default. apply safe_bind; [apply Hf|]. intros a. apply opt_fin_safe.
    - apply opt_fin_safe.
    - apply default_safe'; cbn [d_field d_fin]; [exact Hf|apply opt_fin_safe].
  Qed.
  Lemma wrapped_safe d : (forall a tag vh, safe true (d_field d a tag vh)) -> (forall a, safe false (d_fin d a)) -> dsafe (wrapped d).
  Proof.
    intros H1 H2. unfold wrapped. constructor; cbn [d_init d_field d_elem d_fin d_body]; auto.
    - intros tag vh. apply safe_lift. intros u0. apply safe_weak. now apply default_safe'.
    - now apply default_safe'.
  Qed.
  Lemma owned_safe need vh : safe need (read_owned vh).
  Proof. unfold read_owned. apply safe_lift. intros len. apply safe_quota. intros u0. apply safe_pdo, safe_fully. intros bs. apply safe_ret. Qed.
  Lemma borrowed_safe need vh : safe need (read_borrowed vh).
  Proof. unfold read_borrowed. apply safe_lift. intros len. apply safe_pdo, safe_ext. intros bs. apply safe_ret. Qed.
  Lemma cow_safe zc need vh : safe need (cow_bytes zc vh).
  Proof. destruct zc; [apply borrowed_safe|apply owned_safe]. Qed.
  Lemma array_safe n need vh : safe need (read_array n vh).
  Proof.
    unfold read_array. apply safe_lift. intros len. apply safe_remaining. intros rem. apply safe_if; [|apply safe_fail; discriminate].
    apply safe_exact. intros bs. apply safe_ret.
  Qed.
  Lemma vecu8_safe : dsafe dict_vecu8.
  Proof.
    assert (Hf : forall a tag vh, safe true (vecu8_field a tag vh)).
    { intros a tag vh. unfold vecu8_field. destruct a as [[v|]| | |]; try apply ill_safe.
      - apply safe_over. intros u0. apply safe_bind; [apply owned_safe|]. intros bs. apply safe_fail; discriminate.
      - apply safe_bind; [apply owned_safe|]. intros bs. apply safe_ret. }
    unfold dict_vecu8, with_default_body. constructor; cbn [d_init d_field d_elem d_fin d_body]; [exact Hf| |apply opt_fin_safe|].
    - intros tag vh. apply safe_bind; [apply owned_safe|]. intros bs. apply safe_ret.
    - apply default_safe'; cbn [d_field d_fin]; [exact Hf|apply opt_fin_safe].
  Qed.
  Lemma arru8_safe n : dsafe (dict_arru8 n).
  Proof.
    assert (Hf : forall a tag vh, safe true (arru8_field n a tag vh)).
    { intros a tag vh. unfold arru8_field. destruct a as [[v|]| | |]; try apply ill_safe.
      - assert (Ht : safe false (read_array n vh ;> pfail (KTooMany 1) : prog acc)).
        { apply safe_bind; [apply array_safe|]. intros bs. apply safe_fail; discriminate. }
        destruct (n <=? 32); [apply safe_over; intros u0; now apply safe_weak|]. cbn [pbind]. now apply safe_weak.
      - apply safe_bind; [apply array_safe|]. intros bs. apply safe_ret. }
    assert (Hn : forall a, safe false (arru8_fin n a)).
    { intros a. destruct a as [[v|]| | |]; cbn [arru8_fin]; try apply ill_safe; [apply safe_ret|]. apply safe_if; [apply safe_ret|apply safe_fail; discriminate]. }
    unfold dict_arru8, with_default_body. constructor; cbn [d_init d_field d_elem d_fin d_body]; [exact Hf| |exact Hn|].
    - intros tag vh. apply array_safe.
    - apply default_safe'; cbn [d_field d_fin]; [exact Hf|exact Hn].
  Qed.
  Lemma arr_safe n d : dsafe d -> dsafe (dict_arr n d).
  Proof.
    intros Hd. unfold dict_arr. apply wrapped_safe; cbn [d_field d_fin].
    - intros a tag vh. unfold arr_field. destruct a; try apply ill_safe. apply safe_if; [apply safe_fail; discriminate|].
      apply safe_bind; [apply (ds_elem _ Hd)|]. intros v. apply safe_ret.
    - intros a. unfold arr_fin. destruct a; try apply ill_safe. apply safe_if; [|apply safe_ret]. destruct vs; apply safe_fail; discriminate.
  Qed.
  Lemma coll_safe ins d : dsafe d -> dsafe (dict_coll ins d).
  Proof.
    intros Hd. unfold dict_coll. apply wrapped_safe; cbn [d_field d_fin].
    - intros a tag vh. unfold coll_field. destruct a; try apply ill_safe. apply safe_collect. intros u0.
      apply safe_bind; [apply (ds_elem _ Hd)|]. intros v. apply safe_ret.
    - intros a. destruct a; cbn [coll_fin]; try apply ill_safe; apply safe_ret.
  Qed.
  Lemma option_safe d : dsafe d -> dsafe (dict_option d).
  Proof.
    intros Hd. unfold dict_option. apply wrapped_safe; cbn [d_field d_fin].
    - intros a tag vh. apply opt_field_safe; [discriminate|apply (ds_elem _ Hd)].
    - intros a. destruct a; try apply ill_safe; apply safe_ret.
  Qed.
  Lemma struct_safe k body elem : (forall t p, k <> KUnknownField t p) -> safe false body -> (forall t v, safe true (elem t v)) -> dsafe (dict_struct k body elem).
  Proof.
    intros Hk Hb He. unfold dict_struct. constructor; cbn [d_field d_elem d_fin d_body]; auto; [|apply opt_fin_safe].
    intros a tag vh. now apply opt_field_safe.
  Qed.
  Lemma tuple_fields_safe ds : Forall dsafe ds -> forall i, fsafe (tuple_fields i ds).
  Proof.
    induction 1 as [|d r Hd _ IH]; intros i nm t d' H; [destruct H|]. cbn [tuple_fields] in H. destruct H as [H|H]; [injection H as _ _ <-; now apply dsafe_p|].
    exact (IH _ _ _ _ H).
  Qed.
  Lemma tuple_safe ds : Forall dsafe ds -> dsafe (dict_tuple ds).
  Proof.
    intros Hd. assert (Hb : safe false (tuple_body ds)).
    { unfold tuple_body. apply safe_bind; [apply des_safe; [now apply tuple_fields_safe|exact Logic.I]|]. intros vs. apply safe_ret. }
    unfold dict_tuple. apply struct_safe; [discriminate|exact Hb|]. intros t v. apply safe_lift. intros u0. now apply safe_weak.
  Qed.
  Lemma map_safe dk dv : dsafe dk -> dsafe dv -> dsafe (dict_map dk dv).
  Proof.
    intros Hk Hv. unfold dict_map. apply wrapped_safe; cbn [d_field d_fin].
    - intros a tag vh. unfold map_field. destruct a; try apply ill_safe. apply safe_collect. intros u0.
      apply safe_bind; [apply (ds_elem _ (tuple_safe [dk; dv] ltac:(auto)))|]. intros kv.
      destruct kv; try apply ill_safe. destruct vs as [|k [|v [|]]]; try apply ill_safe. apply safe_ret.
    - intros a. destruct a; try apply ill_safe; apply safe_ret.
  Qed.
  Lemma unk_node_safe (zc : bool) (vh : vhdr) (p : prog (list (N * node))) : safe false p ->
    safe true (match vh with
               | HInt n => PRet (NInt n)
               | HBlob _ => b <- cow_bytes zc vh ; PRet (NBlob b)
               | HStruct => fs <- p ; PRet (NStruct fs)
               | HEnum d => fs <- p ; PRet (NEnum d fs)
               end).
  Proof.
    intros Hp. destruct vh; [apply safe_ret| | |]; (apply safe_bind; [first [apply cow_safe|now apply safe_weak]|intros; apply safe_ret]).
  Qed.
  Lemma unk_body_safe zc fuel : safe false (unk_body zc fuel).
  Proof.
    induction fuel as [|f IH]; cbn [unk_body]; [apply safe_stop2|]. apply safe_loop. intros fs. apply safe_next; [apply safe_ret|]. intros tag vh.
    pose proof (safe_push true true (tag_name tag) (pdo OCollect ;> match vh with
               | HInt n => PRet (NInt n)
               | HBlob _ => b <- cow_bytes zc vh ; PRet (NBlob b)
               | HStruct => fs <- unk_body zc f ; PRet (NStruct fs)
               | HEnum d => fs <- unk_body zc f ; PRet (NEnum d fs)
               end) (fun n => PRet (inl (fs ++ [(tag, n)]) : list (N * node) + list (N * node)))) as H.
    apply H; [auto| |intros a; apply safe_ret]. apply safe_collect. intros u0. now apply unk_node_safe.
  Qed.
  Lemma unknown_safe zc fuel : dsafe (dict_unknown zc fuel).
  Proof.
    assert (Hb : safe false (fs <- unk_body zc fuel ; PRet (VUnk fs))) by (apply safe_bind; [apply unk_body_safe|intros fs; apply safe_ret]).
    unfold dict_unknown. constructor; cbn [d_init d_field d_elem d_fin d_body]; [| | |exact Hb].
    - intros a tag vh. unfold unk_field. destruct a; try apply ill_safe. apply safe_collect. intros u0.
      apply safe_bind; [unfold unk_elem; apply unk_node_safe, unk_body_safe|]. intros n. apply safe_ret.
    - intros tag vh. apply safe_lift. intros u0. now apply safe_weak.
    - intros a. destruct a; try apply ill_safe; apply safe_ret.
  Qed.
  Lemma unkfield_safe zc fuel : dsafe (dict_unkfield zc fuel).
  Proof. apply unary_safe. intros t v. apply safe_bind; [unfold unk_elem; apply unk_node_safe, unk_body_safe|]. intros n. apply safe_ret. Qed.
  Lemma stop_safe x : (forall k, x <> StFail k) -> dsafe (dict_stop x).
  Proof.
    intros Hx. assert (H : forall need A, safe need (PStop x : prog A)) by (intros; destruct x; [destruct (Hx k eq_refl)|apply safe_stop|apply safe_stop2]).
    unfold dict_stop. constructor; cbn [d_init d_field d_elem d_fin d_body]; intros; apply H.
  Qed.
  Lemma construct_safe need b vs : safe need (construct b vs).
  Proof. unfold construct. apply safe_if; [apply safe_ret|apply safe_fail; discriminate]. Qed.
  Section Items.
    Variable mk : ty -> dict.
    Hypothesis Hmk : forall t, dsafe (mk t).
    Lemma fdicts_safe fs : fsafe (fdicts mk fs).
    Proof. intros nm t d H. unfold fdicts in H. apply in_map_iff in H. destruct H as (f & Hf & _). injection Hf as _ _ <-. apply dsafe_p, Hmk. Qed.
    Lemma vbody_safe b : safe false (vbody_body mk b).
    Proof.
      unfold vbody_body. destruct (vb_special b) as [|nm t|nm t].
      - apply safe_bind; [apply des_safe; [apply fdicts_safe|exact Logic.I]|]. intros vs. apply construct_safe.
      - apply (safe_push false false nm); [discriminate|apply (ds_body _ (Hmk t))|]. intros dv. apply safe_bind; [apply finish_all_safe, fdicts_safe|].
        intros vs. apply construct_safe.
      - apply safe_bind; [apply des_safe; [apply fdicts_safe|apply dsafe_p, Hmk]|]. intros vs. apply construct_safe.
    Qed.
    Lemma item_struct_safe b : dsafe (dict_item_struct mk b).
    Proof.
      apply struct_safe; [discriminate|apply vbody_safe|]. intros t v. unfold struct_elem.
      destruct (vb_special b) as [|nm t0|nm t0]; try (apply safe_lift; intros u0; apply safe_weak, vbody_safe).
      apply (safe_push true true nm); [auto|apply (ds_elem _ (Hmk t0))|]. intros dv. apply construct_safe.
    Qed.
    Lemma item_enum_safe vars catch : dsafe (dict_item_enum mk vars catch).
    Proof.
      assert (He : forall t v, safe true (enum_elem mk vars catch t v)).
      { intros t v. unfold enum_elem. apply safe_lift. intros d. destruct (find_variant d vars) as [[ix b]|].
        - apply safe_bind; [apply safe_weak, vbody_safe|]. intros x. apply safe_ret.
        - destruct catch as [b|]; [|apply safe_fail; discriminate]. apply safe_bind; [apply safe_weak, vbody_safe|]. intros x. apply safe_ret. }
      unfold dict_item_enum, with_default_body, dict_struct. constructor; cbn [d_init d_field d_elem d_fin d_body].
      - intros a tag vh. apply opt_field_safe; [discriminate|exact He].
      - exact He.
      - apply opt_fin_safe.
      - apply default_safe'; cbn [d_field d_fin]; [intros a tag vh; apply opt_field_safe; [discriminate|exact He]|apply opt_fin_safe].
    Qed.
  End Items.
  Lemma string_safe : dsafe (unary conv_string).
  Proof. apply unary_safe. intros tg v. unfold conv_string. apply safe_bind; [apply owned_safe|]. intros bs. apply safe_if; [apply safe_ret|apply safe_fail; discriminate]. Qed.
  Lemma str_ref_safe : dsafe (unary conv_str_ref).
  Proof. apply unary_safe. intros tg v. unfold conv_str_ref. apply safe_bind; [apply borrowed_safe|]. intros bs. apply safe_if; [apply safe_ret|apply safe_fail; discriminate]. Qed.
  Lemma bytes_ref_safe : dsafe (unary conv_bytes_ref).
  Proof. apply unary_safe. intros tg v. unfold conv_bytes_ref. apply safe_bind; [apply borrowed_safe|]. intros bs. apply safe_ret. Qed.
  Lemma types_safe fuel item_d : (forall zc i, dsafe (item_d zc i)) -> forall t zc, dsafe (dict_of fuel item_d zc t).
  Proof.
    intros Hi. apply (ty_ind' (fun t => forall zc, dsafe (dict_of fuel item_d zc t))).
    - intros t. destruct t; try exact Logic.I; intros zc; cbn [dict_of].
      + apply unary_safe. intros tg v. unfold conv_uint. apply safe_lift. intros x. apply safe_ret.
      + apply unary_safe. intros tg v. unfold conv_sint. apply safe_lift. intros x. apply safe_ret.
      + apply unary_safe. intros tg v. unfold conv_bool. apply safe_lift. intros x. apply safe_ret.
      + apply unary_safe. intros tg v. unfold conv_char. apply safe_lift. intros x. apply safe_if; [apply safe_ret|apply safe_fail; discriminate].
      + apply unary_safe. intros tg v. unfold conv_phantom. apply safe_lift. intros x. apply safe_ret.
      + exact string_safe.
      + destruct zc; [exact str_ref_safe|apply stop_safe; discriminate].
      + destruct zc; [exact bytes_ref_safe|apply stop_safe; discriminate].
      + destruct zc; [exact str_ref_safe|exact string_safe].
      + destruct zc; [exact bytes_ref_safe|exact vecu8_safe].
      + apply unknown_safe.
      + apply unkfield_safe.
      + apply Hi.
    - intros t Ht. split; [|split; [|split; [|split; [|split]]]]; intros zc; cbn [dict_of].
      + (destruct (is_u8 t); [apply vecu8_safe|apply coll_safe, Ht]).
      + apply coll_safe, Ht.
      + apply coll_safe, Ht.
      + apply option_safe, Ht.
      + apply Ht.
      + apply Ht.
    - intros n t Ht zc. cbn [dict_of]. destruct (is_u8 t); [apply arru8_safe|apply arr_safe, Ht].
    - intros k v Hk Hv zc. cbn [dict_of]. apply map_safe; auto.
    - intros ts Hts zc. cbn [dict_of]. apply tuple_safe. apply Lists.List.Forall_map. rewrite Forall_forall in *. intros t Ht. apply Hts, Ht.
  Qed.
  Lemma items_safe e ufuel fuel : forall zc i, dsafe (item_dict e ufuel fuel zc i).
  Proof.
    induction fuel as [|f IH]; intros zc i; cbn [item_dict]; [apply stop_safe; discriminate|].
    destruct (e i) as [b|vars catch]; [apply item_struct_safe|apply item_enum_safe]; intros t; now apply types_safe.
  Qed.
  Lemma full_safe e fuel zc t : dsafe (full_dict e fuel zc t).
  Proof. apply types_safe, items_safe. Qed.
End Safe.

Theorem places e zc cf t s x s' : s_pos s <= U64_MAX -> s_commit s = None \/ s_commit s = Some CSkipBlob ->
  from_stream e zc cf t s = (RErr x, s') ->
  Sorted N.le ([s_pos s] ++ rev (map snd (e_path x)) ++ [s_pos s']) /\ lenN (e_path x) <= cf_rec cf /\
  (forall tag pos, e_kind x = KUnknownField tag pos ->
    Sorted N.le ([s_pos s] ++ rev (map snd (e_path x)) ++ [pos]) /\ pos <= s_pos s' /\
    exists byte, nth_error (d_data (s_dev s)) (N.to_nat (d_pos (s_dev s) + (pos - s_pos s))) = Some byte /\ byte mod 64 = tag).
Proof.
  intros Hp Hc H. unfold from_stream in H.
  pose proof (ds_body _ _ _ _ _ _ (full_safe (d_data (s_dev s)) (d_pos (s_dev s)) (s_pos s) cf (s_pos s) e (S (N.to_nat (cf_rec cf))) zc t)) as Hs.
  assert (Hst : okst (d_data (s_dev s)) (d_pos (s_dev s)) (s_pos s) cf (s_pos s) (top_rst s)).
  { split; [split; [exact Hp|]; split; [exact Hc|]; split; [reflexivity|cbn; lia]|]. split; [cbn; lia|]. split; [cbn; unfold lenN; cbn; lia|now left]. }
  specialize (Hs (top_rst s) Hst ltac:(discriminate)).
  destruct (run stream_source cf _ (top_rst s)) as [r st]. injection H as -> <-. destruct Hs as (H1 & H2 & H3).
  split; [exact (chain_sorted _ _ _ H1)|]. split; [exact H2|]. intros tag pos Hk. destruct (H3 tag pos Hk) as (A1 & A2 & byte & A3 & A4).
  split; [exact (chain_sorted _ _ _ A1)|]. split; [exact A2|]. exists byte. split; [|exact A4].
  rewrite <- A3. f_equal. f_equal.
  assert (Hlo : s_pos s <= pos).
  { clear - A1. revert A1. generalize (e_path x). intros p. revert pos. induction p as [|[nm y] r IH]; intros pos H; cbn in H; [exact H|]. destruct H as [H1 H2]. specialize (IH y H2). lia. }
  lia.
Qed.

Theorem places_ordered e zc cf t s x s' : s_pos s <= U64_MAX -> s_commit s = None \/ s_commit s = Some CSkipBlob ->
  from_stream e zc cf t s = (RErr x, s') ->
  Sorted N.le ([s_pos s] ++ rev (map snd (e_path x)) ++ [s_pos s']) /\ lenN (e_path x) <= cf_rec cf.
Proof. intros H1 H2 H. destruct (places _ _ _ _ _ _ _ H1 H2 H) as (A1 & A2 & _). auto. Qed.
Lemma sorted_snoc l (x y : N) : Sorted N.le (l ++ [x]) -> x <= y -> Sorted N.le (l ++ [x; y]).
Proof.
  induction l as [|a l IH]; cbn [app]; intros H L; [repeat constructor; exact L|]. inversion H as [|? ? H1 H2]; subst.
  constructor; [auto|]. destruct l; cbn [app] in *; inversion H2; subst; now constructor.
Qed.
Theorem places_unknown e zc cf t s x s' tag pos : s_pos s <= U64_MAX -> s_commit s = None \/ s_commit s = Some CSkipBlob ->
  from_stream e zc cf t s = (RErr x, s') -> e_kind x = KUnknownField tag pos ->
  Sorted N.le ([s_pos s] ++ rev (map snd (e_path x)) ++ [pos; s_pos s']) /\
  exists byte, nth_error (d_data (s_dev s)) (N.to_nat (d_pos (s_dev s) + (pos - s_pos s))) = Some byte /\ byte mod 64 = tag.
Proof.
  intros H1 H2 H Hk. destruct (places _ _ _ _ _ _ _ H1 H2 H) as (_ & _ & A3). destruct (A3 tag pos Hk) as (B1 & B2 & B3). split; [|exact B3].
  rewrite app_assoc in *. now apply sorted_snoc.
Qed.
Theorem places_slice e zc dbg cf t bs x tag pos : fst (from_stream e zc cf t (from_slice dbg bs)) = RErr x -> e_kind x = KUnknownField tag pos ->
  Sorted N.le (rev (map snd (e_path x)) ++ [pos]) /\ exists byte, nth_error bs (N.to_nat pos) = Some byte /\ byte mod 64 = tag.
Proof.
  intros H Hk. destruct (from_stream e zc cf t (from_slice dbg bs)) as [r s'] eqn:E. cbn in H. subst r.
  destruct (places _ _ _ _ (from_slice dbg bs) _ _ (N.le_0_l U64_MAX) (or_introl eq_refl) E) as (_ & _ & A3). destruct (A3 tag pos Hk) as (B1 & _ & byte & B3 & B4).
  split; [now inversion B1|]. exists byte. split; [|exact B4]. rewrite <- B3. cbn [from_slice new_stream s_dev s_pos d_data d_pos]. f_equal. f_equal. lia.
Qed.

(** ** The position follows the device *)
Section Follow.
  Variables (D : bytes) (a b : N).
  Lemma follow_src {A} (m : SM A) st r st' : fwd D a b m -> good D a b (x_s st) -> on_src_of m st = (r, st') -> good D a b (x_s st').
  Proof.
    intros Hm HP H. unfold on_src_of in H. destruct (m (x_s st)) as [r1 s1] eqn:E. destruct (Hm _ _ _ HP E) as [H1 _].
    destruct r1; unfold xfail in H; injection H as <- <-; exact H1.
  Qed.
  Lemma follow_op cf {X : Set} (o : op X) st r st' : good D a b (x_s st) -> run_op stream_source cf o st = (r, st') -> good D a b (x_s st').
  Proof.
    intros HP H. destruct o; cbn [run_op] in H.
    - unfold mbind in H. destruct (on_src_of (i_next stream_source) st) as [r1 st1] eqn:E.
      pose proof (follow_src _ _ _ _ (fwd_next D a b) HP E) as H1. destruct r1; unfold mmod, mret in H; injection H as <- <-; exact H1.
    - destruct (x_cur st); [|injection H as <- <-; exact HP]. exact (follow_src _ _ _ _ (fwd_skip D a b f) HP H).
    - destruct (cf_ignore cf); [injection H as <- <-; exact HP|]. destruct (x_cur st); unfold xfail in H; injection H as <- <-; exact HP.
    - destruct (_ <=? _); [unfold xfail in H; injection H as <- <-; exact HP|].
      destruct at_field; [|injection H as <- <-; exact HP]. destruct (x_cur st); injection H as <- <-; exact HP.
    - unfold mmod in H. injection H as <- <-. exact HP.
    - destruct (ctx_collect _ _ _ _); unfold xfail in H; injection H as <- <-; exact HP.
    - destruct (ctx_blob _ _ _ _); unfold xfail in H; injection H as <- <-; exact HP.
    - unfold mmod in H. injection H as <- <-. exact HP.
    - unfold on_blob in H. destruct (x_cur st) as [[? ? ? []]|]; try (injection H as <- <-; exact HP). exact (follow_src _ _ _ _ (fwd_remaining D a b) HP H).
    - unfold on_blob in H. destruct (x_cur st) as [[? ? ? []]|]; try (injection H as <- <-; exact HP). exact (follow_src _ _ _ _ (fwd_fully D a b _) HP H).
    - unfold on_blob in H. destruct (x_cur st) as [[? ? ? []]|]; try (injection H as <- <-; exact HP). exact (follow_src _ _ _ _ (fwd_exact D a b n) HP H).
    - unfold on_blob in H. destruct (x_cur st) as [[? ? ? []]|]; try (injection H as <- <-; exact HP). exact (follow_src _ _ _ _ (fwd_ext D a b) HP H).
  Qed.
  Lemma follow_run cf {A} (p : prog A) : forall st r st', good D a b (x_s st) -> run stream_source cf p st = (r, st') -> good D a b (x_s st').
  Proof.
    induction p as [x|x|X o k IH]; intros st r st' HP H; cbn [run] in H.
    - injection H as <- <-. exact HP.
    - destruct x; unfold xfail, mpanic in H; injection H as <- <-; exact HP.
    - unfold mbind in H. destruct (run_op stream_source cf o st) as [r1 st1] eqn:E. pose proof (follow_op cf o _ _ _ HP E) as H1.
      destruct r1; try (injection H as <- <-; exact H1). exact (IH _ _ _ _ H1 H).
  Qed.
End Follow.
Theorem from_follows e zc cf t s r s' : s_pos s <= U64_MAX -> s_commit s = None \/ s_commit s = Some CSkipBlob ->
  from_stream e zc cf t s = (r, s') ->
  s_pos s <= s_pos s' /\ s_pos s' <= U64_MAX /\ d_data (s_dev s') = d_data (s_dev s) /\ d_pos (s_dev s') = d_pos (s_dev s) + (s_pos s' - s_pos s).
Proof.
  intros Hp Hc H. pose proof (ro_from (d_data (s_dev s)) (d_pos (s_dev s)) e zc cf t s r s') as Hr.
  destruct (Hr (conj eq_refl (conj (N.le_refl _) Hc)) H) as (_ & Hge & _). unfold from_stream in H.
  destruct (run stream_source cf _ (top_rst s)) as [r1 st1] eqn:E. injection H as <- <-.
  assert (G : good (d_data (s_dev s)) (d_pos (s_dev s)) (s_pos s) (x_s (top_rst s))) by (split; [exact Hp|]; split; [exact Hc|]; split; [reflexivity|cbn; lia]).
  destruct (follow_run _ _ _ cf _ _ _ _ G E) as (G1 & _ & G3 & G4). repeat split; auto; lia.
Qed.
