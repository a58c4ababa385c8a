(** * P_Work: deserialising looks at no more elements than there are bytes (C83) *)

From Verif Require Import Base Wire Dev Stream Types Prog De SpecStream SpecWork P_Base P_Types P_Sched P_Read P_Pos P_ReadOnly P_DictAll P_Prog P_Places.
Local Open Scope N_scope.
Strategy 1000 [s_decode_u64 decode_u64 decode_loop write_all read_exact encode_u64 enc_loop encode_fixed_u64 mloop miter].

(** ** After the end of the document *)
Definition ended (s : stream) : Prop := s_eof s = true.
Lemma e_tread g n : preserves ended (t_read g n).
Proof.
  intros s r s' HP H. unfold ended in *. unfold t_read in H.
  destruct (n =? 0); [injection H as <- <-; auto|].
  unfold mbind at 1, check_advance_pos in H. destruct (_ <? _); [injection H as <- <-; auto|].
  unfold mbind at 1, on_dev, dev_read, sched_next in H.
  destruct (d_sched (s_dev s)) as [|[c| |] sc];
    try (injection H as <- <-; auto; fail);
    unfold mbind, mmod, mret in H;
    match type of H with context [takeN ?k ?l] => destruct (takeN k l) as [|x l'] end;
    [destruct g| |destruct g|]; injection H as <- <-; scbn; auto.
Qed.
Lemma e_bread n : preserves ended (b_read n).
Proof. unfold b_read. apply pr_bind; [apply pr_pure|intros rem]. apply pr_if; [apply pr_ret|apply e_tread]. Qed.
Lemma e_fully n : preserves ended (b_read_fully n).
Proof. unfold b_read_fully. apply pr_bind; [apply pr_pure|intros rem]. apply pr_if; [apply pr_fail|apply pr_lift, pr_read_upto, e_bread]. Qed.
Lemma e_exact n : preserves ended (lift_io (b_read_exact n)).
Proof. apply pr_lift, pr_read_exact, e_bread. Qed.
Lemma e_ext : preserves ended b_ext_slice.
Proof.
  unfold b_ext_slice. apply pr_bind; [|intros inner; apply pr_bind; [apply pr_pure|intros rem]; apply pr_if; [apply pr_fail|apply pr_ret]].
  intros s r s' HP H. unfold as_slice in H. destruct (_ <? _); injection H as <- <-; exact HP.
Qed.
Lemma e_impl sp : preserves ended (next_element_impl sp).
Proof. intros s r s' HP H. unfold next_element_impl in H. rewrite HP in H. injection H as <- <-. exact HP. Qed.
Lemma e_skip f : preserves ended (field_skip f).
Proof.
  unfold field_skip. destruct (f_val f); try apply pr_ret; unfold skip_up; apply pr_mloop; intros u;
    (apply pr_bind; [apply pr_get|intros s]; apply pr_if; [|apply pr_ret]; apply pr_bind; [apply e_impl|intros; apply pr_ret]).
Qed.
Lemma ended_next s : ended s -> next_field s = (ROk None, s).
Proof. intros H. unfold next_field, mbind, next_element_impl. rewrite H. reflexivity. Qed.

(** ** Progress *)
Section Progress.
Variables (D : bytes) (a b : N).
Notation good := (good D a b).
Notation fwd := (fwd D a b).
(** How much of the input lies before position [x] of the stream (which may
    have been moved past the end by a seek). *)
Definition cap (x : N) : N := N.min (x + a) (lenN D + b).
Lemma cap_mono x y : x <= y -> cap x <= cap y.
Proof. unfold cap. lia. Qed.
Lemma byte_progress g s x s' : good s -> s_read_byte g s = (ROk x, s') -> cap (s_pos s) + 1 <= cap (s_pos s') \/ x = 0x40.
Proof.
  intros (_ & _ & G3 & G4) H. destruct (s_read_byte_sim g s _ _ H) as [[H1 _]|(_ & e & He & _)]; [|discriminate].
  rewrite s_read_byte_eq in H1 by reflexivity. unfold rb_spec in H1. change (rest (strip s)) with (rest s) in H1.
  destruct (_ <? 1); [discriminate|]. destruct (rest s) as [|y l] eqn:Er; [destruct g; [|discriminate]; right; congruence|left].
  assert (Hs : adv 1 (strip s) = strip s') by congruence. apply (f_equal s_pos) in Hs.
  change (s_pos (strip s) + 1 = s_pos (strip s')) in Hs. change (s_pos (strip s)) with (s_pos s) in Hs. change (s_pos (strip s')) with (s_pos s') in Hs.
  assert (Hl : d_pos (s_dev s) < lenN D).
  { apply (f_equal lenN) in Er. unfold rest, d_rest in Er. rewrite lenN_dropN, lenN_cons, G3 in Er. lia. }
  unfold cap. lia.
Qed.
Lemma fwd_rb g : fwd (s_read_byte g).
Proof. apply fwd_by; [intros; apply p_rb|intros; apply ro_rb]. Qed.
Lemma step_progress sp u s el s' : good s -> next_element_step sp u s = (ROk (inr el), s') ->
  cap (s_pos s) + 1 <= cap (s_pos s') \/ (ended s' /\ el = ElEndOfDoc).
Proof.
  intros G. unfold next_element_step, mget. intros H. unfold mbind at 1 in H. unfold mbind at 1 in H.
  destruct (s_read_byte (s_graceful s) s) as [[x| | |] s1] eqn:Eb; try discriminate.
  destruct (fwd_rb _ _ _ _ G Eb) as [G1 L1].
  destruct (byte_progress _ _ _ _ G Eb) as [Hp| ->].
  2:{ right. change (parse_desc 0x40) with (Some (PSpecial SpEndOfDoc)) in H. unfold mbind, mmod, mret in H. injection H as <- <-. split; reflexivity. }
  destruct (parse_desc x) as [[ty tag|[]]|] eqn:Ep; try discriminate.
  - left. unfold mbind at 1, mmod in H. unfold mbind at 1 in H.
    assert (Hg : forall s2, s_pos s2 = s_pos s1 -> s_commit s2 = s_commit s1 -> s_dev s2 = s_dev s1 -> good s2).
    { intros s2 K1 K2 K3. destruct G1 as (A1 & A2 & A3 & A4). unfold P_Places.good. rewrite K1, K2, K3. auto. }
    assert (Hf : fwd (next_value ty)) by (apply fwd_by; [intros; apply p_next_value|intros; apply ro_next_value]).
    cbv zeta in H. set (s1' := if s_depth s1 =? 0 then set_depth_ 1 s1 else s1) in H.
    assert (Hs1 : s_pos s1' = s_pos s1 /\ s_commit s1' = s_commit s1 /\ s_dev s1' = s_dev s1) by (unfold s1'; destruct (s_depth s1 =? 0); auto).
    destruct Hs1 as (K1 & K2 & K3). unfold mbind in H.
    destruct (next_value ty s1') as [[v| | |] s2] eqn:Ev; try discriminate. unfold mret in H. injection H as _ <-.
    destruct (Hf _ _ _ (Hg _ K1 K2 K3) Ev) as [_ L2]. apply cap_mono in L2. rewrite ?K1 in L2. lia.
  - left. unfold mbind, mmod, mret in H. injection H as _ <-. destruct (0 <? s_depth s1); exact Hp.
  - right. unfold mbind, mmod, mret in H. injection H as <- <-. split; reflexivity.
  - left. assert (Hf : fwd next_blob) by (apply fwd_by; [intros; apply p_next_blob|intros; apply ro_next_blob]).
    unfold mbind in H. destruct (next_blob s1) as [[v| | |] s2] eqn:Ev; try discriminate. unfold mret in H. injection H as _ <-.
    destruct (Hf _ _ _ G1 Ev) as [_ L2]. apply cap_mono in L2. rewrite ?K1 in L2. lia.
  - left. destruct sp; unfold mret in H; [discriminate|]. injection H as _ <-. exact Hp.
Qed.
Lemma impl_progress sp s el s' : good s -> next_element_impl sp s = (ROk el, s') -> ~ ended s ->
  cap (s_pos s) + 1 <= cap (s_pos s') \/ (ended s' /\ el = ElEndOfDoc).
Proof.
  intros G E He. unfold next_element_impl in E. unfold ended in He. destruct (s_eof s); [destruct (He eq_refl)|].
  unfold mbind at 1 in E. destruct (commit s) as [[u| | |] s1] eqn:Ec; try discriminate. destruct (fwd_commit _ _ _ _ _ _ G Ec) as [G1 L1].
  assert (Hy : yields (from D a b (s_pos s)) (fun el s' => cap (s_pos s) + 1 <= cap (s_pos s') \/ (ended s' /\ el = ElEndOfDoc)) (mloop (next_element_step sp) tt)).
  { apply y_mloop; [intros u0; apply fwd_pres, fwd_step|]. intros u0 s2 x s3 [G2 L2] Hx.
    destruct x as [x|el0]; auto. destruct (step_progress _ _ _ _ _ G2 Hx) as [K|K]; [left; apply cap_mono in L2; lia|now right]. }
  exact (Hy s1 el s' (conj G1 L1) E).
Qed.
Lemma next_progress s r s' : good s -> next_field s = (ROk r, s') ->
  match r with
  | Some _ => cap (s_pos s) + 1 <= cap (s_pos s')
  | None => ended s' \/ cap (s_pos s) + 1 <= cap (s_pos s')
  end.
Proof.
  intros G H. destruct (s_eof s) eqn:Ee.
  { rewrite (ended_next s Ee) in H. injection H as <- <-. now left. }
  assert (He : ~ ended s) by (unfold ended; rewrite Ee; discriminate).
  unfold next_field in H. unfold mbind at 1 in H. destruct (next_element_impl true s) as [[el| | |] s1] eqn:E; try discriminate.
  pose proof (impl_progress _ _ _ _ G E He) as K.
  destruct el as [f| | |len|]; try discriminate; unfold mret in H.
  - injection H as <- <-. destruct K as [K|[_ K]]; [exact K|discriminate].
  - injection H as <- <-. tauto.
  - injection H as <- <-. tauto.
  - exfalso. unfold mbind in H. destruct (b_read_or_trunc 256 s1) as [[m| | |] s2]; discriminate.
Qed.
End Progress.

(** ** The count *)
(** What a program may look at for nothing, by the room left for nested contexts: nothing; what the contexts inside may; one more. *)
Inductive grade := GZ | GR | GS.
Definition spare (g : grade) (room : N) : N := match g with GZ => 0 | GR => room | GS => room + 1 end.

Section Safe.
  Variables (D : bytes) (a0 b0 : N) (cf : cfg) (lo : N).
  Notation good := (good D a0 b0).
  Notation fwd := (fwd D a0 b0).
  Notation run := (run tally cf).
  Notation rst := (rst (stream * N)).

  Definition okst (st : rst) : Prop := good (fst (x_s st)) /\ lenN (x_path st) <= cf_rec cf.
  Definition room (st : rst) : N := cf_rec cf - lenN (x_path st).
  Definition paid (E : N) (st : rst) : Prop := snd (x_s st) + cap D a0 b0 lo <= cap D a0 b0 (s_pos (fst (x_s st))) + E.
  Definition over (st : rst) : Prop := ended (fst (x_s st)).
  Definition within (E k : N) (st : rst) : Prop := paid E st \/ (over st /\ paid (E + k) st).
  Definition safe (g : grade) {A} (p : prog A) : Prop := forall st E, okst st -> paid E st ->
    match run p st with
    | (ROk a, st') => okst st' /\ x_path st' = x_path st /\ (over st -> over st') /\ within E (spare g (room st)) st'
    | (_, st') => paid (E + spare g (room st)) st'
    end.
  Definition iter {A B} (step : A -> prog (A + B)) : Prop := forall a st E, okst st -> within E (room st) st ->
    match run (step a) st with
    | (ROk (inl _), st') => okst st' /\ x_path st' = x_path st /\ (over st -> over st') /\ within E (room st) st'
    | (ROk (inr _), st') => okst st' /\ x_path st' = x_path st /\ (over st -> over st') /\ within E (room st + 1) st'
    | (_, st') => paid (E + (room st + 1)) st'
    end.

  Lemma paid_more E E' st : paid E st -> E <= E' -> paid E' st.
  Proof. unfold paid. lia. Qed.
  Lemma within_paid E k st : within E k st -> paid (E + k) st.
  Proof. intros [H|[_ H]]; [apply (paid_more E); [exact H|lia]|exact H]. Qed.
  Lemma within_more E k k' st : within E k st -> k <= k' -> within E k' st.
  Proof. intros [H|[H1 H2]] L; [now left|right; split; [exact H1|]]. apply (paid_more (E + k)); [exact H2|lia]. Qed.
  Lemma room_path st st' : x_path st' = x_path st -> room st' = room st.
  Proof. unfold room. now intros ->. Qed.
  Lemma safe_grade g g' {A} (p : prog A) : (forall r, spare g r <= spare g' r) -> safe g p -> safe g' p.
  Proof.
    intros Hg H st E Hs Hp. specialize (H st E Hs Hp). specialize (Hg (room st)). destruct (run p st) as [[a|x| |] st1].
    - destruct H as (H1 & H2 & H3 & H4). split; [exact H1|]. split; [exact H2|]. split; [exact H3|]. exact (within_more _ _ _ _ H4 Hg).
    - apply (paid_more _ _ _ H). lia.
    - apply (paid_more _ _ _ H). lia.
    - apply (paid_more _ _ _ H). lia.
  Qed.
  Lemma safe_room {A} (p : prog A) : safe GR p -> safe GS p.
  Proof. apply safe_grade. intros r. cbn [spare]. lia. Qed.
  Lemma safe_zero g {A} (p : prog A) : safe GZ p -> safe g p.
  Proof. apply safe_grade. intros r. destruct g; cbn [spare]; lia. Qed.
  Lemma safe_weak g {A} (p : prog A) : safe g p -> safe g p.
  Proof. exact (fun H => H). Qed.
  Lemma safe_ret g {A} (a : A) : safe g (PRet a).
  Proof. intros st E Hs Hp. cbn. split; [exact Hs|]. split; [reflexivity|]. split; [auto|]. now left. Qed.
  Lemma safe_stop g {A} : safe g (PStop StPanic : prog A).
  Proof. intros st E Hs Hp. cbn. apply (paid_more _ _ _ Hp). lia. Qed.
  Lemma safe_stop2 g {A} : safe g (PStop StFuel : prog A).
  Proof. intros st E Hs Hp. cbn. apply (paid_more _ _ _ Hp). lia. Qed.
  Lemma safe_fail g {A} k : (forall tag pos, k <> KUnknownField tag pos) -> safe g (pfail k : prog A).
  Proof. intros _ st E Hs Hp. cbn. apply (paid_more _ _ _ Hp). lia. Qed.
  Lemma run_bind {A B} (p : prog A) (k : A -> prog B) st : run (pbind p k) st = mbind (run p) (fun a => run (k a)) st.
  Proof. apply P_Prog.run_pbind. Qed.
  Lemma safe_bind g {A B} (p : prog A) (k : A -> prog B) : safe g p -> (forall a, safe GZ (k a)) -> safe g (pbind p k).
  Proof.
    intros Hp Hk st E Hs Hf. rewrite run_bind. specialize (Hp st E Hs Hf). unfold mbind. destruct (run p st) as [[a|x| |] st1]; auto.
    destruct Hp as (Hs1 & Hp1 & Ho1 & [Hw|[Hw1 Hw2]]).
    - specialize (Hk a st1 E Hs1 Hw). rewrite (room_path _ _ Hp1) in Hk. destruct (run (k a) st1) as [[c|x| |] st2].
      + destruct Hk as (K1 & K2 & K3 & K4). cbn [spare] in K4. split; [exact K1|]. split; [congruence|]. split; [auto|]. apply (within_more _ _ _ _ K4). lia.
      + apply (paid_more _ _ _ Hk). cbn [spare]. lia.
      + apply (paid_more _ _ _ Hk). cbn [spare]. lia.
      + apply (paid_more _ _ _ Hk). cbn [spare]. lia.
    - specialize (Hk a st1 _ Hs1 Hw2). rewrite (room_path _ _ Hp1) in Hk. destruct (run (k a) st1) as [[c|x| |] st2].
      + destruct Hk as (K1 & K2 & K3 & K4). split; [exact K1|]. split; [congruence|]. split; [auto|]. right. split; [auto|].
        apply within_paid in K4. apply (paid_more _ _ _ K4). cbn [spare]. lia.
      + apply (paid_more _ _ _ Hk). cbn [spare]. lia.
      + apply (paid_more _ _ _ Hk). cbn [spare]. lia.
      + apply (paid_more _ _ _ Hk). cbn [spare]. lia.
  Qed.
  (** An operation that looks at nothing. *)
  Lemma safe_first g {A : Set} {B} (o : op A) (k : A -> prog B) :
    (forall st E, okst st -> paid E st -> match run_op tally cf o st with
                           | (ROk a, st') => okst st' /\ x_path st' = x_path st /\ (over st -> over st') /\ paid E st'
                           | (_, st') => paid E st'
                           end) ->
    (forall a, safe g (k a)) -> safe g (pbind (pdo o) k).
  Proof.
    intros Ho Hk st E Hs Hf. rewrite run_bind. unfold pdo. cbn [Prog.run]. specialize (Ho st E Hs Hf). unfold mbind.
    destruct (run_op tally cf o st) as [[a|x| |] st1]; try (apply (paid_more _ _ _ Ho); lia). destruct Ho as (H1 & H2 & H3 & H4). unfold mret.
    specialize (Hk a st1 E H1 H4). rewrite (room_path _ _ H2) in Hk. destruct (run (k a) st1) as [[c|x| |] st2]; auto.
    destruct Hk as (K1 & K2 & K3 & K4). split; [exact K1|]. split; [congruence|]. split; [auto|exact K4].
  Qed.
  Lemma src_first {A : Set} (m : SM A) st E : fwd m -> preserves ended m -> okst st -> paid E st ->
    match on_src_of (uncounted m) st with
    | (ROk a, st') => okst st' /\ x_path st' = x_path st /\ (over st -> over st') /\ paid E st'
    | (_, st') => paid E st'
    end.
  Proof.
    intros Hm He [G L] Hp. unfold on_src_of, uncounted. destruct (m (fst (x_s st))) as [r s1] eqn:Em. destruct (Hm _ _ _ G Em) as [G1 L1].
    assert (Hp1 : paid E (x_set_s (s1, snd (x_s st)) st)) by (apply (cap_mono D a0 b0) in L1; unfold paid in *; cbn [x_set_s x_s fst snd]; lia).
    destruct r as [a|x| |]; try exact Hp1. split; [split; [exact G1|exact L]|]. split; [reflexivity|]. split; [|exact Hp1].
    intros Ho. exact (He _ _ _ Ho Em).
  Qed.
  Lemma blob_first {A : Set} (m : SM A) st E : fwd m -> preserves ended m -> okst st -> paid E st ->
    match on_blob (uncounted m) st with
    | (ROk a, st') => okst st' /\ x_path st' = x_path st /\ (over st -> over st') /\ paid E st'
    | (_, st') => paid E st'
    end.
  Proof. intros Hm He Hs Hp. unfold on_blob. destruct (x_cur st) as [[? ? ? []]|]; try exact Hp. now apply src_first. Qed.
  Lemma safe_skip g {B} (k : unit -> prog B) : (forall a, safe g (k a)) -> safe g (pbind (pdo OSkip) k).
  Proof.
    apply safe_first. intros st E Hs Hp. cbn [run_op]. destruct (x_cur st) as [f|]; [|exact Hp].
    apply (src_first (field_skip f)); [apply fwd_skip|apply e_skip|exact Hs|exact Hp].
  Qed.
  Lemma safe_remaining g {B} (k : N -> prog B) : (forall a, safe g (k a)) -> safe g (pbind (pdo ORemaining) k).
  Proof. apply safe_first. intros st E. apply (blob_first b_remaining); [apply fwd_remaining|apply pr_pure]. Qed.
  Lemma safe_fully g {B} (k : bytes -> prog B) : (forall a, safe g (k a)) -> safe g (pbind (pdo OReadFully) k).
  Proof. apply safe_first. intros st E. apply (blob_first (b_read_fully (cf_blob cf))); [apply fwd_fully|apply e_fully]. Qed.
  Lemma safe_exact g {B} n (k : bytes -> prog B) : (forall a, safe g (k a)) -> safe g (pbind (pdo (OReadExact n)) k).
  Proof. apply safe_first. intros st E. apply (blob_first (lift_io (b_read_exact n))); [apply fwd_exact|apply e_exact]. Qed.
  Lemma safe_ext g {B} (k : bytes -> prog B) : (forall a, safe g (k a)) -> safe g (pbind (pdo OExt) k).
  Proof. apply safe_first. intros st E. apply (blob_first b_ext_slice); [apply fwd_ext|apply e_ext]. Qed.
  Lemma safe_pdo g {A : Set} (o : op A) : safe g (pbind (pdo o) (fun a => PRet a)) -> safe g (pdo o).
  Proof. intros H. exact H. Qed.
  Lemma safe_collect g {B} (k : unit -> prog B) : (forall a, safe g (k a)) -> safe g (pbind (pdo OCollect) k).
  Proof.
    apply safe_first. intros st E Hs Hp. cbn [run_op]. destruct (ctx_collect _ _ _ _); try exact Hp.
    split; [exact Hs|]. split; [reflexivity|]. split; [auto|exact Hp].
  Qed.
  Lemma safe_quota g {B} n (k : unit -> prog B) : (forall a, safe g (k a)) -> safe g (pbind (pdo (OQuota n)) k).
  Proof.
    apply safe_first. intros st E Hs Hp. cbn [run_op]. destruct (ctx_blob _ _ _ _); try exact Hp.
    split; [exact Hs|]. split; [reflexivity|]. split; [auto|exact Hp].
  Qed.
  Lemma safe_over g {B} (k : unit -> prog B) : (forall a, safe g (k a)) -> safe g (pbind (pdo (OOver (KTooMany 1))) k).
  Proof. apply safe_first. intros st E Hs Hp. cbn [run_op]. unfold mmod. split; [exact Hs|]. split; [reflexivity|]. split; [auto|exact Hp]. Qed.
  Lemma safe_unknown g {B} (k : unit -> prog B) : (forall a, safe g (k a)) -> safe g (pbind (pdo OUnknown) k).
  Proof.
    apply safe_first. intros st E Hs Hp. cbn [run_op]. destruct (cf_ignore cf); [split; [exact Hs|]; split; [reflexivity|]; split; [auto|exact Hp]|].
    destruct (x_cur st); exact Hp.
  Qed.

  (** One round of a loop. *)
  Lemma iter_next {A B} (step : option (N * vhdr) -> prog (A + B)) (b : A + B) st E :
    (exists b', b = inr b') -> step None = PRet b -> (forall tag vh, safe GR (step (Some (tag, vh)))) ->
    okst st -> within E (room st) st ->
    match run (pbind (pdo ONext) step) st with
    | (ROk (inl _), st') => okst st' /\ x_path st' = x_path st /\ (over st -> over st') /\ within E (room st) st'
    | (ROk (inr _), st') => okst st' /\ x_path st' = x_path st /\ (over st -> over st') /\ within E (room st + 1) st'
    | (_, st') => paid (E + (room st + 1)) st'
    end.
  Proof.
    intros [b' ->] Hn Hk [G L] Hw. rewrite run_bind. unfold pdo. cbn [Prog.run run_op]. unfold on_src_of, mbind, mmod, mret. cbn [i_next tally].
    destruct (next_field (fst (x_s st))) as [r s1] eqn:En. destruct (fwd_next _ _ _ _ _ _ G En) as [G1 L1]. apply (cap_mono D a0 b0) in L1.
    pose proof (within_paid _ _ _ Hw) as Hp. unfold paid in Hp.
    destruct (s_eof (fst (x_s st))) eqn:Ee.
    { rewrite (ended_next _ Ee) in En. injection En as <- <-. cbn [option_map]. rewrite Hn. cbn [Prog.run]. unfold mret.
      split; [split; [exact G|exact L]|]. split; [reflexivity|]. split; [auto|]. right. split; [exact Ee|]. unfold paid. cbn [x_set_cur x_set_s x_s fst snd]. lia. }
    assert (Hp0 : paid E st) by (destruct Hw as [Hw|[Hw _]]; [exact Hw|unfold over, ended in Hw; congruence]). unfold paid in Hp0.
    destruct r as [[f|]|x| |].
    - pose proof (next_progress _ _ _ _ _ _ G En) as Hg. cbn in Hg. cbn [option_map].
      set (st1 := x_set_cur (Some f) (x_set_s (s1, snd (x_s st) + 1) st)).
      assert (Hs1 : okst st1) by (split; [exact G1|exact L]).
      assert (Hq : paid E st1) by (unfold paid; cbn [st1 x_set_cur x_set_s x_s fst snd]; lia).
      specialize (Hk (f_tag f) (f_val f) st1 E Hs1 Hq). change (room st1) with (room st) in Hk. cbn [spare] in Hk.
      destruct (run _ st1) as [[[a|b]|x| |] st2].
      + destruct Hk as (K1 & K2 & K3 & K4). split; [exact K1|]. split; [exact K2|]. split; [intros Ho; unfold over, ended in Ho; congruence|exact K4].
      + destruct Hk as (K1 & K2 & K3 & K4). split; [exact K1|]. split; [exact K2|]. split; [intros Ho; unfold over, ended in Ho; congruence|].
        apply (within_more _ _ _ _ K4). lia.
      + apply (paid_more _ _ _ Hk). lia.
      + apply (paid_more _ _ _ Hk). lia.
      + apply (paid_more _ _ _ Hk). lia.
    - pose proof (next_progress _ _ _ _ _ _ G En) as Hg. cbn in Hg. cbn [option_map]. rewrite Hn. cbn [Prog.run]. unfold mret.
      split; [split; [exact G1|exact L]|]. split; [reflexivity|]. split; [intros Ho; unfold over, ended in Ho; congruence|].
      unfold within, paid, over. cbn [x_set_cur x_set_s x_s fst snd]. destruct Hg as [Hg|Hg]; [right; split; [exact Hg|lia]|left; lia].
    - unfold paid. cbn [xfail x_set_s x_s fst snd]. lia.
    - unfold paid. cbn [x_set_s x_s fst snd]. lia.
    - unfold paid. cbn [x_set_s x_s fst snd]. lia.
  Qed.
  (** Inside of a context. *)
  Lemma safe_push g g' af nm {A B} (p : prog A) (k : A -> prog B) : (forall r, 0 < r -> spare g (r - 1) <= spare g' r) ->
    safe g p -> (forall a, safe GZ (k a)) ->
    safe g' (pbind (pdo (OPush af nm)) (fun _ => pbind p (fun a => pbind (pdo OPop) (fun _ => k a)))).
  Proof.
    intros Hg Hp Hk st E Hs Hf. rewrite run_bind. unfold pdo at 1. cbn [Prog.run run_op].
    unfold mbind at 1. unfold mbind at 1. destruct (cf_rec cf <=? lenN (x_path st)) eqn:El.
    { cbn [xfail]. apply (paid_more _ _ _ Hf). lia. }
    apply N.leb_gt in El.
    assert (Hgo : forall x,
      match run (pbind p (fun a => pbind (pdo OPop) (fun _ => k a))) (x_set_path ((nm, x) :: x_path st) st) with
      | (ROk a, st') => okst st' /\ x_path st' = x_path st /\ (over st -> over st') /\ within E (spare g' (room st)) st'
      | (_, st') => paid (E + spare g' (room st)) st'
      end).
    { intros x. set (st1 := x_set_path ((nm, x) :: x_path st) st).
      assert (Hs1 : okst st1) by (split; [exact (proj1 Hs)|]; cbn [st1 x_path x_set_path]; rewrite lenN_cons; lia).
      assert (Hr : room st1 = room st - 1) by (unfold room; cbn [st1 x_path x_set_path]; rewrite lenN_cons; lia).
      assert (Hle : spare g (room st1) <= spare g' (room st)) by (rewrite Hr; apply Hg; unfold room; lia).
      set (q := fun a => pbind (pdo OPop) (fun _ => k a)).
      rewrite run_bind. specialize (Hp st1 E Hs1 Hf). unfold mbind at 1. destruct (run p st1) as [[v|e| |] st2];
        try (apply (paid_more _ _ _ Hp); lia).
      destruct Hp as ((G2 & L2) & P2 & O2 & W2). unfold q. rewrite run_bind. unfold pdo. cbn [Prog.run run_op]. unfold mbind, mmod, mret.
      set (st3 := x_set_path (tl (x_path st2)) st2).
      assert (P3 : x_path st3 = x_path st) by (cbn [st3 x_path x_set_path]; rewrite P2; reflexivity).
      assert (Hs3 : okst st3) by (split; [exact G2|]; rewrite P3; apply Hs).
      assert (W3 : within E (spare g' (room st)) st3) by (apply (within_more E (spare g (room st1))); [exact W2|exact Hle]).
      destruct W3 as [W3|[W3 W4]].
      - specialize (Hk v st3 E Hs3 W3). cbn [spare] in Hk. destruct (run (k v) st3) as [[c|e| |] st4]; try (apply (paid_more _ _ _ Hk); lia).
        destruct Hk as (K1 & K2 & K3 & K4). split; [exact K1|]. split; [congruence|]. split; [auto|]. apply (within_more _ _ _ _ K4). lia.
      - specialize (Hk v st3 _ Hs3 W4). cbn [spare] in Hk. destruct (run (k v) st3) as [[c|e| |] st4]; try (apply (paid_more _ _ _ Hk); lia).
        destruct Hk as (K1 & K2 & K3 & K4). split; [exact K1|]. split; [congruence|]. split; [auto|]. right. split; [auto|].
        apply within_paid in K4. apply (paid_more _ _ _ K4). lia. }
    destruct af; [|apply Hgo]. destruct (x_cur st); [apply Hgo|]. apply (paid_more _ _ _ Hf). lia.
  Qed.
  Lemma safe_pushr af nm {A B} (p : prog A) (k : A -> prog B) : safe GS p -> (forall a, safe GZ (k a)) ->
    safe GR (pbind (pdo (OPush af nm)) (fun _ => pbind p (fun a => pbind (pdo OPop) (fun _ => k a)))).
  Proof. apply safe_push. intros r Hr. cbn [spare]. lia. Qed.
  Lemma safe_pushz af nm {A B} (p : prog A) (k : A -> prog B) : safe GZ p -> (forall a, safe GZ (k a)) ->
    safe GZ (pbind (pdo (OPush af nm)) (fun _ => pbind p (fun a => pbind (pdo OPop) (fun _ => k a)))).
  Proof. apply safe_push. intros r Hr. cbn [spare]. lia. Qed.
  Lemma safe_lift g {A B} (r : res serr A) (k : A -> prog B) : (forall a, safe g (k a)) -> safe g (pbind (plift r) k).
  Proof. intros Hk. destruct r as [a|x| |]; cbn [plift pbind pfail]; [apply Hk|apply (safe_fail g); discriminate|apply safe_stop|apply safe_stop2]. Qed.

  (** Loops. *)
  Lemma iter_over {A B} (step : A -> prog (A + B)) p : iter step -> iter (piter p step).
  Proof.
    assert (Hc : forall f g : A -> prog (A + B), iter f -> iter g ->
      iter (fun a => pbind (f a) (fun r => match r with inl a' => g a' | inr b => PRet (inr b) end))).
    { intros f g Hf Hg a st E Hs Hw. rewrite run_bind. specialize (Hf a st E Hs Hw). unfold mbind.
      destruct (run (f a) st) as [[[a'|b]|x| |] st1]; auto. destruct Hf as (H1 & H2 & Ho & H3).
      specialize (Hg a' st1 E H1). rewrite (room_path _ _ H2) in Hg. specialize (Hg H3).
      destruct (run (g a') st1) as [[[a''|b]|x| |] st2]; auto;
        (destruct Hg as (G1 & G2 & G3 & G4); split; [exact G1|]; split; [congruence|]; split; [auto|exact G4]). }
    intros Hs. induction p as [q IH|q IH|]; cbn [piter].
    - exact (Hc step (fun a => pbind (piter q step a) (fun r => match r with inl a' => piter q step a' | inr b => PRet (inr b) end)) Hs (Hc _ _ IH IH)).
    - exact (Hc _ _ IH IH).
    - exact Hs.
  Qed.
  Lemma safe_loop {A B} (step : A -> prog (A + B)) a : iter step -> safe GS (ploop step a).
  Proof.
    intros Hi st E Hs Hp. unfold ploop. rewrite run_bind. pose proof (iter_over step loop_bound Hi a st E Hs (or_introl Hp)) as H.
    unfold mbind. destruct (run (piter loop_bound step a) st) as [[[a'|b]|x| |] st1]; cbn [spare].
    - destruct H as (_ & _ & _ & H). cbn [Prog.run]. apply within_paid in H. apply (paid_more _ _ _ H). lia.
    - exact H.
    - exact H.
    - exact H.
    - exact H.
  Qed.

  (** ** Every impl *)
  Record dsafe (d : dict) : Prop := mkDS {
    ds_field : forall a tag vh, safe GS (d_field d a tag vh);
    ds_elem : forall tag vh, safe GS (d_elem d tag vh);
    ds_fin : forall a, safe GZ (d_fin d a);
    ds_body : safe GS (d_body d) }.
  Lemma ill_safe need {A} : safe need (ill : prog A).
  Proof. apply safe_stop. Qed.
  Lemma safe_if need {A} (c : bool) (p q : prog A) : safe need p -> safe need q -> safe need (if c then p else q).
  Proof. destruct c; auto. Qed.
  Lemma find_tag_in {A} tag (l : list (string * N * A)) i nm x : find_tag tag l = Some (i, nm, x) -> exists t, In (nm, t, x) l.
  Proof.
    revert i. induction l as [|[[n t] y] r IH]; intros i H; [discriminate|]. cbn [find_tag] in H. destruct (t =? tag).
    - injection H as _ <- <-. exists t. now left.
    - destruct (find_tag tag r) as [[[j nm'] x']|]; [|discriminate]. injection H as _ <- <-. destruct (IH j eq_refl) as [t' Ht]. exists t'. now right.
  Qed.
  Definition psafe (d : dict) : Prop := (forall a tag vh, safe GS (d_field d a tag vh)) /\ (forall a, safe GZ (d_fin d a)).
  Lemma dsafe_p d : dsafe d -> psafe d.
  Proof. intros [H1 H2 H3 H4]. split; assumption. Qed.
  Definition fsafe (fs : list fdict) : Prop := forall nm t d, In (nm, t, d) fs -> psafe d.
  Definition usafe (unk : option (string * dict)) : Prop := match unk with Some (_, d) => psafe d | None => True end.
  Lemma step_safe fs unk : fsafe fs -> usafe unk -> iter (body_step fs unk).
  Proof.
    intros Hfs Hu [accs ua] st E Hs Hw. unfold body_step. apply (iter_next _ (inr (accs, ua))); [eauto|reflexivity| |exact Hs|exact Hw]. intros tag vh.
    destruct (find_tag tag fs) as [[[i nm] d]|] eqn:Ef.
    - destruct (find_tag_in _ _ _ _ _ Ef) as [t Ht]. apply (safe_pushr true nm); [apply (proj1 (Hfs _ _ _ Ht))|]. intros a. apply safe_ret.
    - destruct unk as [[nm d]|].
      + apply (safe_pushr true); [apply (proj1 Hu)|]. intros a. apply safe_ret.
      + apply safe_unknown. intros u0. apply safe_skip. intros u1. apply safe_ret.
  Qed.
  Lemma finish_one_safe nm d a : psafe d -> safe GZ (finish_one nm d a).
  Proof. intros Hd. unfold finish_one. apply (safe_pushz false nm); [apply (proj2 Hd)|]. intros v. apply safe_ret. Qed.
  Lemma finish_all_safe fs : fsafe fs -> forall accs, safe GZ (finish_all fs accs).
  Proof.
    intros Hfs. induction fs as [|[[nm t] d] r IH]; intros [|a accs]; cbn [finish_all]; try apply safe_ret; try apply ill_safe.
    apply safe_bind; [apply finish_one_safe, (Hfs nm t d); now left|]. intros v. apply safe_bind; [apply IH; intros n0 t0 d0 H0; apply (Hfs n0 t0 d0); now right|].
    intros vs. apply safe_ret.
  Qed.
  Lemma des_safe fs unk : fsafe fs -> usafe unk -> safe GS (des_body fs unk).
  Proof.
    intros Hfs Hu. unfold des_body. apply safe_bind; [apply safe_loop; now apply step_safe|]. intros [accs ua].
    apply safe_bind; [now apply finish_all_safe|]. intros vs. destruct unk as [[nm d]|]; [|apply safe_ret].
    apply safe_bind; [now apply finish_one_safe|]. intros v. apply safe_ret.
  Qed.
  Lemma default_safe d : psafe d -> safe GS (body_default d).
  Proof.
    intros Hd. unfold body_default. apply safe_bind; [apply des_safe; [|exact Logic.I]|].
    - intros nm t d' [H|[]]. now injection H as _ _ <-.
    - intros [|v [|]]; try apply ill_safe; apply safe_ret.
  Qed.
  (* body_default only uses d_init, d_field and d_fin. *)
  Lemma default_safe' d : (forall a tag vh, safe GS (d_field d a tag vh)) -> (forall a, safe GZ (d_fin d a)) -> safe GS (body_default d).
  Proof.
    intros H1 H2. apply default_safe. now split.
  Qed.
  Lemma opt_field_safe k conv a tag vh : (forall t p, k <> KUnknownField t p) -> (forall t v, safe GS (conv t v)) -> safe GS (opt_field k conv a tag vh).
  Proof.
    intros Hk Hc. unfold opt_field. destruct a as [[v|]| | |]; try apply ill_safe; [now apply safe_fail|]. apply safe_bind; [apply Hc|]. intros v. apply safe_ret.
  Qed.
  Lemma opt_fin_safe a : safe GZ (opt_fin a).
  Proof. destruct a as [[v|]| | |]; cbn [opt_fin]; try apply ill_safe; [apply safe_ret|apply safe_fail; discriminate]. Qed.
  Lemma unary_safe conv : (forall t v, safe GS (conv t v)) -> dsafe (unary conv).
  Proof.
    intros Hc. assert (Hf : forall a tag vh, safe GS (opt_field (KTooMany 1) conv a tag vh)) by (intros; apply opt_field_safe; [discriminate|exact Hc]).
    unfold unary, with_default_body. constructor; cbn [d_init d_field d_elem d_fin d_body].
    - exact Hf.
    - intros tag vh. unfold elem_default. apply safe_bind; [apply Hf|]. intros a. apply opt_fin_safe.
    - apply opt_fin_safe.
    - apply default_safe'; cbn [d_field d_fin]; [exact Hf|apply opt_fin_safe].
  Qed.
  Lemma wrapped_safe d : (forall a tag vh, safe GS (d_field d a tag vh)) -> (forall a, safe GZ (d_fin d a)) -> dsafe (wrapped d).
  Proof.
    intros H1 H2. unfold wrapped. constructor; cbn [d_init d_field d_elem d_fin d_body]; auto.
    - intros tag vh. apply safe_lift. intros u0. apply safe_weak. now apply default_safe'.
    - now apply default_safe'.
  Qed.
  Lemma owned_safe need vh : safe need (read_owned vh).
  Proof. unfold read_owned. apply safe_lift. intros len. apply safe_quota. intros u0. apply safe_pdo, safe_fully. intros bs. apply safe_ret. Qed.
  Lemma borrowed_safe need vh : safe need (read_borrowed vh).
  Proof. unfold read_borrowed. apply safe_lift. intros len. apply safe_pdo, safe_ext. intros bs. apply safe_ret. Qed.
  Lemma cow_safe zc need vh : safe need (cow_bytes zc vh).
  Proof. destruct zc; [apply borrowed_safe|apply owned_safe]. Qed.
  Lemma array_safe n need vh : safe need (read_array n vh).
  Proof.
    unfold read_array. apply safe_lift. intros len. apply safe_remaining. intros rem. apply safe_if; [|apply safe_fail; discriminate].
    apply safe_exact. intros bs. apply safe_ret.
  Qed.
  Lemma vecu8_safe : dsafe dict_vecu8.
  Proof.
    assert (Hf : forall a tag vh, safe GS (vecu8_field a tag vh)).
    { intros a tag vh. unfold vecu8_field. destruct a as [[v|]| | |]; try apply ill_safe.
      - apply safe_over. intros u0. apply safe_bind; [apply owned_safe|]. intros bs. apply safe_fail; discriminate.
      - apply safe_bind; [apply owned_safe|]. intros bs. apply safe_ret. }
    unfold dict_vecu8, with_default_body. constructor; cbn [d_init d_field d_elem d_fin d_body]; [exact Hf| |apply opt_fin_safe|].
    - intros tag vh. apply safe_bind; [apply owned_safe|]. intros bs. apply safe_ret.
    - apply default_safe'; cbn [d_field d_fin]; [exact Hf|apply opt_fin_safe].
  Qed.
  Lemma arru8_safe n : dsafe (dict_arru8 n).
  Proof.
    assert (Hf : forall a tag vh, safe GS (arru8_field n a tag vh)).
    { intros a tag vh. unfold arru8_field. destruct a as [[v|]| | |]; try apply ill_safe.
      - assert (Ht : safe GS (read_array n vh ;> pfail (KTooMany 1) : prog acc)).
        { apply safe_bind; [apply array_safe|]. intros bs. apply safe_fail; discriminate. }
        destruct (n <=? 32); [apply safe_over; intros u0; now apply safe_weak|]. cbn [pbind]. now apply safe_weak.
      - apply safe_bind; [apply array_safe|]. intros bs. apply safe_ret. }
    assert (Hn : forall a, safe GZ (arru8_fin n a)).
    { intros a. destruct a as [[v|]| | |]; cbn [arru8_fin]; try apply ill_safe; [apply safe_ret|]. apply safe_if; [apply safe_ret|apply safe_fail; discriminate]. }
    unfold dict_arru8, with_default_body. constructor; cbn [d_init d_field d_elem d_fin d_body]; [exact Hf| |exact Hn|].
    - intros tag vh. apply array_safe.
    - apply default_safe'; cbn [d_field d_fin]; [exact Hf|exact Hn].
  Qed.
  Lemma arr_safe n d : dsafe d -> dsafe (dict_arr n d).
  Proof.
    intros Hd. unfold dict_arr. apply wrapped_safe; cbn [d_field d_fin].
    - intros a tag vh. unfold arr_field. destruct a; try apply ill_safe. apply safe_if; [apply safe_fail; discriminate|].
      apply safe_bind; [apply (ds_elem _ Hd)|]. intros v. apply safe_ret.
    - intros a. unfold arr_fin. destruct a; try apply ill_safe. apply safe_if; [|apply safe_ret]. destruct vs; apply safe_fail; discriminate.
  Qed.
  Lemma coll_safe ins d : dsafe d -> dsafe (dict_coll ins d).
  Proof.
    intros Hd. unfold dict_coll. apply wrapped_safe; cbn [d_field d_fin].
    - intros a tag vh. unfold coll_field. destruct a; try apply ill_safe. apply safe_collect. intros u0.
      apply safe_bind; [apply (ds_elem _ Hd)|]. intros v. apply safe_ret.
    - intros a. destruct a; cbn [coll_fin]; try apply ill_safe; apply safe_ret.
  Qed.
  Lemma option_safe d : dsafe d -> dsafe (dict_option d).
  Proof.
    intros Hd. unfold dict_option. apply wrapped_safe; cbn [d_field d_fin].
    - intros a tag vh. apply opt_field_safe; [discriminate|apply (ds_elem _ Hd)].
    - intros a. destruct a; try apply ill_safe; apply safe_ret.
  Qed.
  Lemma struct_safe k body elem : (forall t p, k <> KUnknownField t p) -> safe GS body -> (forall t v, safe GS (elem t v)) -> dsafe (dict_struct k body elem).
  Proof.
    intros Hk Hb He. unfold dict_struct. constructor; cbn [d_field d_elem d_fin d_body]; auto; [|apply opt_fin_safe].
    intros a tag vh. now apply opt_field_safe.
  Qed.
  Lemma tuple_fields_safe ds : Forall dsafe ds -> forall i, fsafe (tuple_fields i ds).
  Proof.
    induction 1 as [|d r Hd _ IH]; intros i nm t d' H; [destruct H|]. cbn [tuple_fields] in H. destruct H as [H|H]; [injection H as _ _ <-; now apply dsafe_p|].
    exact (IH _ _ _ _ H).
  Qed.
  Lemma tuple_safe ds : Forall dsafe ds -> dsafe (dict_tuple ds).
  Proof.
    intros Hd. assert (Hb : safe GS (tuple_body ds)).
    { unfold tuple_body. apply safe_bind; [apply des_safe; [now apply tuple_fields_safe|exact Logic.I]|]. intros vs. apply safe_ret. }
    unfold dict_tuple. apply struct_safe; [discriminate|exact Hb|]. intros t v. apply safe_lift. intros u0. now apply safe_weak.
  Qed.
  Lemma map_safe dk dv : dsafe dk -> dsafe dv -> dsafe (dict_map dk dv).
  Proof.
    intros Hk Hv. unfold dict_map. apply wrapped_safe; cbn [d_field d_fin].
    - intros a tag vh. unfold map_field. destruct a; try apply ill_safe. apply safe_collect. intros u0.
      apply safe_bind; [apply (ds_elem _ (tuple_safe [dk; dv] ltac:(auto)))|]. intros kv.
      destruct kv; try apply ill_safe. destruct vs as [|k [|v [|]]]; try apply ill_safe. apply safe_ret.
    - intros a. destruct a; try apply ill_safe; apply safe_ret.
  Qed.
  Lemma unk_node_safe (zc : bool) (vh : vhdr) (p : prog (list (N * node))) : safe GS p ->
    safe GS (match vh with
               | HInt n => PRet (NInt n)
               | HBlob _ => b <- cow_bytes zc vh ; PRet (NBlob b)
               | HStruct => fs <- p ; PRet (NStruct fs)
               | HEnum d => fs <- p ; PRet (NEnum d fs)
               end).
  Proof.
    intros Hp. destruct vh; [apply safe_ret| | |]; (apply safe_bind; [first [apply cow_safe|now apply safe_weak]|intros; apply safe_ret]).
  Qed.
  Lemma unk_body_safe zc fuel : safe GS (unk_body zc fuel).
  Proof.
    induction fuel as [|f IH]; cbn [unk_body]; [apply safe_stop2|]. apply safe_loop. intros fs st E Hs Hw. apply (iter_next _ (inr fs)); [eauto|reflexivity| |exact Hs|exact Hw]. intros tag vh.
    pose proof (safe_pushr true (tag_name tag) (pdo OCollect ;> match vh with
               | HInt n => PRet (NInt n)
               | HBlob _ => b <- cow_bytes zc vh ; PRet (NBlob b)
               | HStruct => fs <- unk_body zc f ; PRet (NStruct fs)
               | HEnum d => fs <- unk_body zc f ; PRet (NEnum d fs)
               end) (fun n => PRet (inl (fs ++ [(tag, n)]) : list (N * node) + list (N * node)))) as H.
    apply H; [|intros a; apply safe_ret]. apply safe_collect. intros u0. now apply unk_node_safe.
  Qed.
  Lemma unknown_safe zc fuel : dsafe (dict_unknown zc fuel).
  Proof.
    assert (Hb : safe GS (fs <- unk_body zc fuel ; PRet (VUnk fs))) by (apply safe_bind; [apply unk_body_safe|intros fs; apply safe_ret]).
    unfold dict_unknown. constructor; cbn [d_init d_field d_elem d_fin d_body]; [| | |exact Hb].
    - intros a tag vh. unfold unk_field. destruct a; try apply ill_safe. apply safe_collect. intros u0.
      apply safe_bind; [unfold unk_elem; apply unk_node_safe, unk_body_safe|]. intros n. apply safe_ret.
    - intros tag vh. apply safe_lift. intros u0. now apply safe_weak.
    - intros a. destruct a; try apply ill_safe; apply safe_ret.
  Qed.
  Lemma unkfield_safe zc fuel : dsafe (dict_unkfield zc fuel).
  Proof. apply unary_safe. intros t v. apply safe_bind; [unfold unk_elem; apply unk_node_safe, unk_body_safe|]. intros n. apply safe_ret. Qed.
  Lemma stop_safe x : (forall k, x <> StFail k) -> dsafe (dict_stop x).
  Proof.
    intros Hx. assert (H : forall need A, safe need (PStop x : prog A)) by (intros; destruct x; [destruct (Hx k eq_refl)|apply safe_stop|apply safe_stop2]).
    unfold dict_stop. constructor; cbn [d_init d_field d_elem d_fin d_body]; intros; apply H.
  Qed.
  Lemma construct_safe need b vs : safe need (construct b vs).
  Proof. unfold construct. apply safe_if; [apply safe_ret|apply safe_fail; discriminate]. Qed.
  Section Items.
    Variable mk : ty -> dict.
    Hypothesis Hmk : forall t, dsafe (mk t).
    Lemma fdicts_safe fs : fsafe (fdicts mk fs).
    Proof. intros nm t d H. unfold fdicts in H. apply in_map_iff in H. destruct H as (f & Hf & _). injection Hf as _ _ <-. apply dsafe_p, Hmk. Qed.
    Lemma vbody_safe b : safe GS (vbody_body mk b).
    Proof.
      unfold vbody_body. destruct (vb_special b) as [|nm t|nm t].
      - apply safe_bind; [apply des_safe; [apply fdicts_safe|exact Logic.I]|]. intros vs. apply construct_safe.
      - apply safe_room, (safe_pushr false nm); [apply (ds_body _ (Hmk t))|]. intros dv. apply safe_bind; [apply finish_all_safe, fdicts_safe|].
        intros vs. apply construct_safe.
      - apply safe_bind; [apply des_safe; [apply fdicts_safe|apply dsafe_p, Hmk]|]. intros vs. apply construct_safe.
    Qed.
    Lemma item_struct_safe b : dsafe (dict_item_struct mk b).
    Proof.
      apply struct_safe; [discriminate|apply vbody_safe|]. intros t v. unfold struct_elem.
      destruct (vb_special b) as [|nm t0|nm t0]; try (apply safe_lift; intros u0; apply safe_weak, vbody_safe).
      apply safe_room, (safe_pushr true nm); [apply (ds_elem _ (Hmk t0))|]. intros dv. apply construct_safe.
    Qed.
    Lemma item_enum_safe vars catch : dsafe (dict_item_enum mk vars catch).
    Proof.
      assert (He : forall t v, safe GS (enum_elem mk vars catch t v)).
      { intros t v. unfold enum_elem. apply safe_lift. intros d. destruct (find_variant d vars) as [[ix b]|].
        - apply safe_bind; [apply safe_weak, vbody_safe|]. intros x. apply safe_ret.
        - destruct catch as [b|]; [|apply safe_fail; discriminate]. apply safe_bind; [apply safe_weak, vbody_safe|]. intros x. apply safe_ret. }
      unfold dict_item_enum, with_default_body, dict_struct. constructor; cbn [d_init d_field d_elem d_fin d_body].
      - intros a tag vh. apply opt_field_safe; [discriminate|exact He].
      - exact He.
      - apply opt_fin_safe.
      - apply default_safe'; cbn [d_field d_fin]; [intros a tag vh; apply opt_field_safe; [discriminate|exact He]|apply opt_fin_safe].
    Qed.
  End Items.
  Lemma string_safe : dsafe (unary conv_string).
  Proof. apply unary_safe. intros tg v. unfold conv_string. apply safe_bind; [apply owned_safe|]. intros bs. apply safe_if; [apply safe_ret|apply safe_fail; discriminate]. Qed.
  Lemma str_ref_safe : dsafe (unary conv_str_ref).
  Proof. apply unary_safe. intros tg v. unfold conv_str_ref. apply safe_bind; [apply borrowed_safe|]. intros bs. apply safe_if; [apply safe_ret|apply safe_fail; discriminate]. Qed.
  Lemma bytes_ref_safe : dsafe (unary conv_bytes_ref).
  Proof. apply unary_safe. intros tg v. unfold conv_bytes_ref. apply safe_bind; [apply borrowed_safe|]. intros bs. apply safe_ret. Qed.
  Lemma types_safe fuel item_d : (forall zc i, dsafe (item_d zc i)) -> forall t zc, dsafe (dict_of fuel item_d zc t).
  Proof.
    intros Hi. apply (ty_ind' (fun t => forall zc, dsafe (dict_of fuel item_d zc t))).
    - intros t. destruct t; try exact Logic.I; intros zc; cbn [dict_of].
      + apply unary_safe. intros tg v. unfold conv_uint. apply safe_lift. intros x. apply safe_ret.
      + apply unary_safe. intros tg v. unfold conv_sint. apply safe_lift. intros x. apply safe_ret.
      + apply unary_safe. intros tg v. unfold conv_bool. apply safe_lift. intros x. apply safe_ret.
      + apply unary_safe. intros tg v. unfold conv_char. apply safe_lift. intros x. apply safe_if; [apply safe_ret|apply safe_fail; discriminate].
      + apply unary_safe. intros tg v. unfold conv_phantom. apply safe_lift. intros x. apply safe_ret.
      + exact string_safe.
      + destruct zc; [exact str_ref_safe|apply stop_safe; discriminate].
      + destruct zc; [exact bytes_ref_safe|apply stop_safe; discriminate].
      + destruct zc; [exact str_ref_safe|exact string_safe].
      + destruct zc; [exact bytes_ref_safe|exact vecu8_safe].
      + apply unknown_safe.
      + apply unkfield_safe.
      + apply Hi.
    - intros t Ht. split; [|split; [|split; [|split; [|split]]]]; intros zc; cbn [dict_of].
      + (destruct (is_u8 t); [apply vecu8_safe|apply coll_safe, Ht]).
      + apply coll_safe, Ht.
      + apply coll_safe, Ht.
      + apply option_safe, Ht.
      + apply Ht.
      + apply Ht.
    - intros n t Ht zc. cbn [dict_of]. destruct (is_u8 t); [apply arru8_safe|apply arr_safe, Ht].
    - intros k v Hk Hv zc. cbn [dict_of]. apply map_safe; auto.
    - intros ts Hts zc. cbn [dict_of]. apply tuple_safe. apply Lists.List.Forall_map. rewrite Forall_forall in *. intros t Ht. apply Hts, Ht.
  Qed.
  Lemma items_safe e ufuel fuel : forall zc i, dsafe (item_dict e ufuel fuel zc i).
  Proof.
    induction fuel as [|f IH]; intros zc i; cbn [item_dict]; [apply stop_safe; discriminate|].
    destruct (e i) as [b|vars catch]; [apply item_struct_safe|apply item_enum_safe]; intros t; now apply types_safe.
  Qed.
  Lemma full_safe e fuel zc t : dsafe (full_dict e fuel zc t).
  Proof. apply types_safe, items_safe. Qed.
End Safe.

(** ** Counting changes nothing *)
Definition plain (st : rst (stream * N)) : rst stream :=
  mkR (fst (x_s st)) (x_cur st) (x_path st) (x_coll st) (x_blob st) (x_over st).
Lemma plain_src {A : Set} (m : SM A) st : let '(r, st') := on_src_of (uncounted m) st in on_src_of m (plain st) = (r, plain st').
Proof.
  unfold on_src_of, uncounted, plain. cbn [x_s]. destruct (m (fst (x_s st))) as [[a|x| |] s1]; reflexivity.
Qed.
Lemma plain_blob {A : Set} (m : SM A) st : let '(r, st') := on_blob (uncounted m) st in on_blob m (plain st) = (r, plain st').
Proof. unfold on_blob. cbn [plain x_cur]. destruct (x_cur st) as [[? ? ? []]|]; try reflexivity. apply plain_src. Qed.
Lemma plain_op cf {X : Set} (o : op X) st : let '(r, st') := run_op tally cf o st in run_op stream_source cf o (plain st) = (r, plain st').
Proof.
  destruct o; cbn [run_op].
  - unfold mbind, on_src_of. cbn [i_next tally stream_source plain x_s]. destruct (next_field (fst (x_s st))) as [[f|x| |] s1]; reflexivity.
  - cbn [plain x_cur]. destruct (x_cur st); [|reflexivity]. apply (plain_src (field_skip f)).
  - destruct (cf_ignore cf); [reflexivity|]. cbn [plain x_cur]. destruct (x_cur st); reflexivity.
  - cbn [plain x_path x_cur]. destruct (_ <=? _); [reflexivity|]. destruct at_field; [|reflexivity]. destruct (x_cur st); reflexivity.
  - reflexivity.
  - cbn [plain x_coll x_s i_dbg tally stream_source]. destruct (ctx_collect _ _ _ _); reflexivity.
  - cbn [plain x_blob x_s i_dbg tally stream_source]. destruct (ctx_blob _ _ _ _); reflexivity.
  - reflexivity.
  - apply (plain_blob b_remaining).
  - apply (plain_blob (b_read_fully (cf_blob cf))).
  - apply (plain_blob (lift_io (b_read_exact n))).
  - apply (plain_blob b_ext_slice).
Qed.
Lemma plain_run cf {A} (p : prog A) : forall st, let '(r, st') := run tally cf p st in run stream_source cf p (plain st) = (r, plain st').
Proof.
  induction p as [x|x|X o k IH]; intros st; cbn [run].
  - reflexivity.
  - destruct x; reflexivity.
  - unfold mbind. pose proof (plain_op cf o st) as H. destruct (run_op tally cf o st) as [r st1]. rewrite H.
    destruct r as [a|x| |]; try reflexivity. apply IH.
Qed.
Theorem counted_same e zc cf t s : fst (from_stream_counted e zc cf t s) = from_stream e zc cf t s.
Proof.
  unfold from_stream_counted, from_stream. pose proof (plain_run cf (d_body (full_dict e (S (N.to_nat (cf_rec cf))) zc t)) (top_rst (s, 0))) as H.
  destruct (run tally cf _ (top_rst (s, 0))) as [r st1]. change (plain (top_rst (s, 0))) with (top_rst s) in H. rewrite H. reflexivity.
Qed.

(** ** The count is at most the bytes, the nesting and one *)
Theorem work e zc cf t s r s' n : s_pos s <= U64_MAX -> s_commit s = None \/ s_commit s = Some CSkipBlob ->
  from_stream_counted e zc cf t s = (r, s', n) ->
  let inside x := N.min (d_pos (s_dev x)) (lenN (d_data (s_dev s))) in inside s + n <= inside s' + cf_rec cf + 1.
Proof.
  intros Hp Hc H. unfold from_stream_counted in H.
  pose proof (ds_body _ _ _ _ _ _ (full_safe (d_data (s_dev s)) (d_pos (s_dev s)) (s_pos s) cf (s_pos s) e (S (N.to_nat (cf_rec cf))) zc t)) as Hs.
  assert (Hst : okst (d_data (s_dev s)) (d_pos (s_dev s)) (s_pos s) cf (top_rst (s, 0))).
  { split; [split; [exact Hp|]; split; [exact Hc|]; split; [reflexivity|cbn; lia]|]. cbn. unfold lenN. cbn. lia. }
  specialize (Hs (top_rst (s, 0)) 0 Hst ltac:(unfold paid; cbn; lia)).
  assert (Hr : room cf (top_rst (s, 0)) = cf_rec cf) by (unfold room; cbn; unfold lenN; cbn; lia). rewrite Hr in Hs. cbn [spare] in Hs.
  pose proof (plain_run cf (d_body (full_dict e (S (N.to_nat (cf_rec cf))) zc t)) (top_rst (s, 0))) as Hpl. change (plain (top_rst (s, 0))) with (top_rst s) in Hpl.
  destruct (run tally cf _ (top_rst (s, 0))) as [r1 st1]. pose proof (follow_run (d_data (s_dev s)) (d_pos (s_dev s)) (s_pos s) cf _ (top_rst s) _ _ (proj1 Hst) Hpl) as (_ & _ & _ & Hd). cbn [plain x_s] in Hd. injection H as <- <- <-.
  assert (Hq : paid (d_data (s_dev s)) (d_pos (s_dev s)) (s_pos s) (s_pos s) (0 + (cf_rec cf + 1)) st1).
  { destruct r1; [destruct Hs as (_ & _ & _ & Hs); now apply within_paid in Hs|exact Hs|exact Hs|exact Hs]. }
  unfold paid, cap in Hq. cbv beta zeta. clear - Hq Hd. set (L := lenN (d_data (s_dev s))) in *. clearbody L.
  revert Hq Hd. generalize (s_pos (fst (x_s st1))), (d_pos (s_dev (fst (x_s st1)))), (d_pos (s_dev s)), (s_pos s), (snd (x_s st1)). intros p' q' q p n Hq Hd. lia.
Qed.

Theorem work_consumed e zc cf t s r s' n : s_pos s <= U64_MAX -> s_commit s = None \/ s_commit s = Some CSkipBlob ->
  from_stream_counted e zc cf t s = (r, s', n) -> s_pos s + n <= s_pos s' + cf_rec cf + 1.
Proof.
  intros Hp Hc H. pose proof (work _ _ _ _ _ _ _ _ Hp Hc H) as Hw. cbv beta zeta in Hw.
  pose proof (counted_same e zc cf t s) as Hs. rewrite H in Hs. cbn [fst] in Hs. symmetry in Hs.
  destruct (from_follows _ _ _ _ _ _ _ Hp Hc Hs) as (H1 & _ & _ & H2). rewrite H2 in Hw.
  clear - Hw H1. revert Hw H1. generalize (d_pos (s_dev s)), (lenN (d_data (s_dev s))), (s_pos s), (s_pos s'). intros. lia.
Qed.
Theorem work_left e zc cf t s r s' n : s_pos s <= U64_MAX -> s_commit s = None \/ s_commit s = Some CSkipBlob ->
  from_stream_counted e zc cf t s = (r, s', n) -> n <= lenN (unread s) + cf_rec cf + 1.
Proof.
  intros Hp Hc H. pose proof (work _ _ _ _ _ _ _ _ Hp Hc H) as Hw. cbv beta zeta in Hw.
  assert (Hu : lenN (unread s) = lenN (d_data (s_dev s)) - d_pos (s_dev s)) by (unfold unread, d_rest; apply lenN_dropN).
  lia.
Qed.
