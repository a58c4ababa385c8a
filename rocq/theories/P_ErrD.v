(** * P_ErrD: a dynamic blob ends behind its start unless the device fails (C77) *)

From Verif Require Import Base Wire Dev Stream SpecFormat SpecStream SpecHist SpecBlob SpecErr SpecErrW P_Base P_Sched P_Stream P_Hist P_Pos P_Write P_ErrW.
Local Open Scope N_scope.
Strategy 1000 [s_decode_u64 decode_u64 decode_loop write_all read_exact encode_u64 enc_loop encode_fixed_u64 mloop miter].

Definition nd (s : stream) : Prop := s_commit s <> Some CFinishDyn.
Definition Fr (s : stream) : Prop := s_commit s = Some CFinishDyn -> s_dyn_start s <= s_pos s.
Lemma nd_Fr s : nd s -> Fr s.
Proof. intros H E. contradiction. Qed.
Definition notpos {A} (r : res serr A) : Prop := r <> RErr SPosBeforeDynBlob.
(** Nothing dynamic in sight. *)
Definition ndx {A} (m : SM A) : Prop := forall s r s', nd s -> m s = (r, s') -> nd s' /\ notpos r.
(** From a state where the position is behind the start. *)
Definition Gd (s : stream) : Prop := sane s /\ benign s /\ Fr s.
Definition nds {A} (m : SM A) : Prop := forall s r s', Gd s -> m s = (r, s') -> Fr s' /\ (forall a, r = ROk a -> nd s') /\ notpos r.
Definition frs {A} (m : SM A) : Prop := forall s r s', Gd s -> m s = (r, s') -> Fr s' /\ notpos r.
Lemma nds_frs {A} (m : SM A) : nds m -> frs m.
Proof. intros Hm s r s' Hs H. destruct (Hm _ _ _ Hs H) as (H1 & _ & H2). auto. Qed.
Lemma ndx_bind {A B} (m : SM A) (f : A -> SM B) : ndx m -> (forall a, ndx (f a)) -> ndx (mbind m f).
Proof.
  intros Hm Hf s r s' Hs H. unfold mbind in H. destruct (m s) as [[a|y| |] s1] eqn:E1; destruct (Hm _ _ _ Hs E1) as [H1 H2].
  - exact (Hf a _ _ _ H1 H).
  - injection H as <- <-. split; [exact H1|]. intros X. apply H2. now injection X as ->.
  - injection H as <- <-. split; [exact H1|discriminate].
  - injection H as <- <-. split; [exact H1|discriminate].
Qed.
Lemma nds_bind {A B} (m : SM A) (f : A -> SM B) : nds m -> (forall a, ndx (f a)) -> nds (mbind m f).
Proof.
  intros Hm Hf s r s' Hs H. unfold mbind in H. destruct (m s) as [[a|y| |] s1] eqn:E1; destruct (Hm _ _ _ Hs E1) as (H1 & H2 & H3).
  - destruct (Hf a _ _ _ (H2 _ eq_refl) H) as [H4 H5]. split; [now apply nd_Fr|auto].
  - injection H as <- <-. split; [exact H1|]. split; [discriminate|]. intros X. apply H3. now injection X as ->.
  - injection H as <- <-. split; [exact H1|]. split; discriminate.
  - injection H as <- <-. split; [exact H1|]. split; discriminate.
Qed.
Lemma ndx_ret {A} (a : A) : ndx (mret a).
Proof. intros s r s' Hs H. injection H as <- <-. split; [exact Hs|discriminate]. Qed.
Lemma ndx_if {A} (c : bool) (m n : SM A) : ndx m -> ndx n -> ndx (if c then m else n).
Proof. destruct c; auto. Qed.
Lemma ndx_mod f : (forall s, nd s -> nd (f s)) -> ndx (mmod f).
Proof. intros Hf s r s' Hs H. injection H as <- <-. split; [now apply Hf|discriminate]. Qed.
Lemma ndx_keep {A} (m : SM A) ok : keeps m -> eo ok m -> ~ ok SPosBeforeDynBlob -> ndx m.
Proof.
  intros Hk He Hn s r s' Hs H. destruct (Hk _ _ _ _ _ _ (conj eq_refl (conj eq_refl eq_refl)) H) as (E1 & _). split; [unfold nd; now rewrite E1|].
  intros ->. apply Hn. exact (He _ _ _ H).
Qed.
Lemma ndx_fun {A} (f : stream -> SM A) : (forall s0, ndx (f s0)) -> ndx (fun s => f s s).
Proof. intros Hf s r s' Hs H. exact (Hf s _ _ _ Hs H). Qed.
Lemma ndx_loop {A B} (step : A -> SM (A + B)) a : (forall a, ndx (step a)) -> ndx (mloop step a).
Proof.
  intros He. assert (Hi : forall p a, ndx (miter p step a)).
  { intros p. induction p as [q IH|q IH|]; intros x; cbn [miter]; [| |apply He].
    - apply ndx_bind; [apply He|]. intros [y|y]; [|apply ndx_ret]. apply ndx_bind; [apply IH|]. intros [z|z]; [apply IH|apply ndx_ret].
    - apply ndx_bind; [apply IH|]. intros [z|z]; [apply IH|apply ndx_ret]. }
  unfold mloop. apply ndx_bind; [apply Hi|]. intros [z|z]; [|apply ndx_ret]. intros s r s' Hs H. injection H as <- <-. split; [exact Hs|discriminate].
Qed.
Lemma ndx_commit : ndx commit.
Proof.
  intros s r s' Hs H. split.
  - destruct (commit_keeps _ _ _ H) as (_ & _ & E). unfold nd in *. destruct r; rewrite E; try exact Hs; discriminate.
  - intros ->. unfold commit in H. destruct (s_commit s) as [f|] eqn:Ec; [|discriminate].
    change ((run_pending f ;; mmod (set_commit None)) s = (RErr SPosBeforeDynBlob, s')) in H. unfold mbind in H.
    destruct (run_pending f s) as [[u|y| |] s1] eqn:E1; try discriminate. injection H as -> <-. destruct f; cbn [run_pending] in E1.
    + exact (eo_skip_blob _ _ _ E1).
    + unfold check_at_end_of_blob in E1. destruct (_ =? _); [discriminate|]. destruct (u64_sub _ _ _); discriminate.
    + exact (Hs Ec).
Qed.

(** Without failures closing fails only for a blob too long, and then
    changes nothing. *)
Definition calmly {E A} (bad : E) (r : res E A) : Prop := match r with ROk _ => True | RErr x => x <> bad | _ => False end.
Lemma seek_benign s z r s' : benign s -> on_dev (dev_seek (SkCur z)) s = (r, s') -> calmly IoOther r /\ benign s'.
Proof.
  intros Hb H. unfold on_dev, dev_seek in H. unfold benign, sch in *. destruct (d_sched (s_dev s)) as [|[c| |] sc] eqn:Es; cbv zeta in H.
  - destruct (_ || _)%bool; injection H as <- <-; (split; [first [discriminate|exact Logic.I]|scbn; constructor]).
  - destruct (_ || _)%bool; injection H as <- <-; (split; [first [discriminate|exact Logic.I]|scbn; inversion Hb; assumption]).
  - destruct (_ || _)%bool; injection H as <- <-; (split; [first [discriminate|exact Logic.I]|scbn; inversion Hb; assumption]).
  - inversion Hb; congruence.
Qed.
Lemma wall_benign bs s r s' : benign s -> s_pos s + lenN bs <= U64_MAX -> write_all sch t_write bs s = (r, s') -> r = ROk tt /\ benign s'.
Proof.
  intros Hb Hp H. destruct (tracker_write_simio bs s _ _ H) as [[Heq Hbn]|(Hn & _)]; [|contradiction]. split; [|now apply Hbn].
  rewrite tw_clean in Heq by reflexivity. unfold wspec in Heq.
  destruct bs as [|x l]; [injection Heq as <-; reflexivity|]. change (cap_none (strip s)) with CapNone in Heq. cbn [cap_take] in Heq. cbv zeta in Heq.
  destruct (N.ltb_spec (U64_MAX - s_pos (strip s)) (lenN (x :: l))) as [Hl|Hl]; [change (s_pos (strip s)) with (s_pos s) in Hl; lia|].
  rewrite N.eqb_refl in Heq. now injection Heq as <-.
Qed.
Lemma finish_calm s r s' : Gd s -> s_commit s = Some CFinishDyn -> finish_dynamic_blob s = (r, s') -> calmly (SIo IoOther) r.
Proof.
  intros ([HP HB] & Hbn & Hfr) Hc H. specialize (Hfr Hc). unfold finish_dynamic_blob in H. pose proof HP as (P1 & P2 & P3). pose proof (P3 Hc) as Hdy. rewrite !N.add_0_r in P2.
  destruct (N.ltb_spec (s_pos s) (s_dyn_start s)) as [Hl|Hl]; [lia|].
  unfold mbind at 1, mres at 1 in H. rewrite u64_sub_ok in H by lia.
  unfold mbind at 1, mres at 1 in H. rewrite u64_sub_ok in H by lia.
  set (disp := s_pos s - (s_dyn_start s - 10)) in *. assert (Hdp : disp <= s_pos s) by (unfold disp; lia).
  destruct (I64_MAX <? disp); [injection H as <- <-; discriminate|].
  unfold mbind at 1, lift_io at 1 in H.
  destruct (on_dev (dev_seek (SkCur (- Z.of_N disp))) s) as [r1 s1] eqn:E1. destruct (seek_benign _ _ _ _ Hbn E1) as [Hr1 Hb1].
  destruct r1 as [o|y| |]; try contradiction; [|injection H as <- _; cbn in *; congruence].
  unfold mbind at 1, mmod at 1 in H. set (s2 := set_pos_ (s_pos s1 - disp) s1) in *.
  destruct (seek_pos _ _ _ _ E1) as (Hp1 & _ & _).
  assert (Hp2 : s_pos s2 = s_dyn_start s - 10) by (unfold s2; scbn; unfold disp; lia).
  unfold mbind at 1, lift_io at 1 in H.
  destruct (write_all sch t_write _ s2) as [r3 s3] eqn:E3.
  apply (wall_benign _ s2 _ _ Hb1) in E3; [|change (lenN (encode_fixed_u64 _)) with 10; lia]. destruct E3 as [-> Hb3].
  unfold mbind at 1, lift_io at 1 in H.
  destruct (on_dev (dev_seek _) s3) as [r4 s4] eqn:E4. destruct (seek_benign _ _ _ _ Hb3 E4) as [Hr4 _].
  destruct r4 as [o4|y| |]; try contradiction; injection H as <- _; cbn in *; [exact Logic.I|congruence].
Qed.
Lemma nds_commit : nds commit.
Proof.
  intros s r s' Hs H. pose proof Hs as (HS & Hbn & Hfr). destruct (s_commit s) as [[]|] eqn:Ec.
  1,2,4: assert (Hnd : nd s) by (unfold nd; rewrite Ec; discriminate); destruct (ndx_commit _ _ _ Hnd H) as [H1 H2]; split; [now apply nd_Fr|auto].
  destruct (commit_keeps _ _ _ H) as (E1 & E2 & E3).
  unfold commit in H. rewrite Ec in H. unfold mbind in H. destruct (finish_dynamic_blob s) as [r1 s1] eqn:Ef. pose proof (finish_calm _ _ _ Hs Ec Ef) as Hcm.
  destruct r1 as [u|x| |]; try contradiction; injection H as <- <-.
  - split; [apply nd_Fr; unfold nd; rewrite E3; discriminate|]. split; [intros; unfold nd; rewrite E3; discriminate|discriminate].
  - destruct (finish_err _ _ _ (proj1 HS) Ec Ef) as [[-> Hl]|[[-> ->]| ->]].
    + specialize (Hfr Ec). lia.
    + split; [exact Hfr|]. split; discriminate.
    + now contradiction Hcm.
Qed.
(** ** The operations *)
Lemma eo_fixed n : eo plain_error (s_encode_fixed_u64 n).
Proof. apply io_plain, eo_wall_t. Qed.
Lemma ndx_io {A} (m : IM A) ks : keeps m -> eo (only ks) m -> ndx (lift_io m).
Proof.
  intros Hk He. apply (ndx_keep _ (io_error ks)); [intros c d e; apply pr_lift, Hk|now apply eo_io|]. intros (k & _ & X). discriminate.
Qed.
Lemma ndx_plain {A} (m : SM A) : keeps m -> eo plain_error m -> ndx m.
Proof. intros Hk He. apply (ndx_keep _ plain_error Hk He). intros X. exact X. Qed.
Lemma ndx_elem {A} (m : SM A) : keeps m -> eo elem_error m -> ndx m.
Proof. intros Hk He. apply (ndx_keep _ elem_error Hk He). intros [(k & _ & X)|[X|X]]; discriminate. Qed.
Lemma k_encode n : keeps (s_encode_u64 n).
Proof. intros c d e. unfold s_encode_u64. destruct (encode_u64 n); [apply pr_lift, k_wall|apply pr_panic]. Qed.
Definition desc_rest (d : pdesc) : SM unit := fun s => (let* b := mres (desc_byte (s_dbg s) d) in lift_io (write_all sch t_write [b])) s.
Lemma ndx_rest d : ndx (desc_rest d).
Proof.
  unfold desc_rest. apply (ndx_fun (fun s0 => let* b := mres (desc_byte (s_dbg s0) d) in lift_io (write_all sch t_write [b]))). intros s0. apply ndx_plain.
  - intros c d' e. apply pr_bind; [apply pr_res|intros b; apply pr_lift, k_wall].
  - apply eo_bind; [apply eo_res; intros y; unfold desc_byte; destruct d as [ty tag|sp]; repeat destruct (_ : bool); discriminate|]. intros b. apply io_plain, eo_wall_t.
Qed.
Lemma nds_desc d : nds (write_desc d).
Proof. change (write_desc d) with (commit ;; desc_rest d). apply nds_bind; [apply nds_commit|intros; apply ndx_rest]. Qed.
Lemma ndx_desc d : ndx (write_desc d).
Proof. change (write_desc d) with (commit ;; desc_rest d). apply ndx_bind; [apply ndx_commit|intros; apply ndx_rest]. Qed.
Lemma nds_u64 t n : nds (write_u64 t n).
Proof. unfold write_u64. apply nds_bind; [apply nds_desc|intros]. apply ndx_plain; [apply k_encode|apply eo_encode]. Qed.
Lemma nds_enum t n : nds (write_enum t n).
Proof. unfold write_enum. apply nds_bind; [apply nds_desc|intros]. apply ndx_plain; [apply k_encode|apply eo_encode]. Qed.
Lemma nds_alloc d len : nds (write_desc_with_blob_alloc d len).
Proof.
  unfold write_desc_with_blob_alloc. apply nds_bind; [apply nds_commit|intros _u]. apply ndx_if.
  { intros s r s' Hs H. injection H as <- <-. split; [exact Hs|discriminate]. }
  apply ndx_bind; [apply (ndx_io _ [IoOther]); [intros c d' e; apply pr_check|apply eo_check]|intros _v].
  apply ndx_bind; [apply ndx_desc|intros _w]. apply ndx_bind; [apply ndx_plain; [apply k_encode|apply eo_encode]|intros _x].
  apply ndx_bind; [|intros _y; apply ndx_bind; [apply ndx_mod; intros s _; unfold nd; scbn; discriminate|intros; apply ndx_ret]].
  intros s r s' Hs H. destruct (u64_add _ _ _); injection H as <- <-; (split; [exact Hs|discriminate]).
Qed.
Lemma nds_data d data : nds (data_of (write_desc_with_blob_alloc d (lenN data)) data).
Proof.
  unfold data_of. apply nds_bind; [apply nds_alloc|intros len]. apply ndx_bind; [|intros; apply ndx_ret].
  apply (ndx_io _ [IoOther; IoWriteZero]); [intros c d' e; apply pr_write_all; intros; apply k_bwrite|apply eo_wall, eo_bwrite].
Qed.
Lemma nds_pad al : nds (pad_to_align al).
Proof.
  intros s r s' Hs H. unfold pad_to_align in H. unfold mbind at 1, mres in H. pose proof Hs as (_ & _ & Hfr).
  destruct (u64_sub (E := serr) (s_dbg s) al 1) as [m|y| |] eqn:Em.
  2: now apply sub_err in Em.
  2,3: injection H as <- <-; (split; [exact Hfr|split; discriminate]).
  unfold mbind at 1 in H. destruct (s_dbg s && negb (N.land al m =? 0))%bool; [injection H as <- <-; split; [exact Hfr|split; discriminate]|].
  unfold mret at 1 in H. revert Hs H. apply nds_bind; [apply nds_commit|intros _u]. apply ndx_loop. intros u.
  apply ndx_bind; [intros s0 r0 s0' H0 H1; injection H1 as <- <-; split; [exact H0|discriminate]|intros s0]. apply ndx_if; [apply ndx_ret|].
  apply ndx_bind; [apply ndx_desc|intros; apply ndx_ret].
Qed.
Lemma ndx_next_blob : ndx next_blob.
Proof.
  unfold next_blob. apply ndx_bind; [apply ndx_elem; [apply k_decode|apply eo_decode]|intros len].
  apply ndx_bind; [apply (ndx_io _ [IoOther]); [intros c d' e; apply pr_check|apply eo_check]|intros _v].
  apply ndx_bind; [apply ndx_mod; intros s Hs; exact Hs|intros _w]. apply ndx_bind; [apply ndx_mod; intros s _; unfold nd; scbn; discriminate|intros; apply ndx_ret].
Qed.
Lemma ndx_incr : ndx incr_depth.
Proof. intros s r s' Hs H. unfold incr_depth in H. destruct (u64_add _ _ _); injection H as <- <-; (split; [exact Hs|discriminate]). Qed.
Lemma ndx_value ty : ndx (next_value ty).
Proof.
  assert (Hd : ndx s_decode_u64) by (apply ndx_elem; [apply k_decode|apply eo_decode]). destruct ty; cbn [next_value].
  - apply ndx_bind; [exact Hd|intros d]. apply ndx_bind; [apply ndx_incr|intros; apply ndx_ret].
  - apply ndx_bind; [exact Hd|intros; apply ndx_ret].
  - apply ndx_bind; [apply ndx_next_blob|intros; apply ndx_ret].
  - apply ndx_bind; [apply ndx_incr|intros; apply ndx_ret].
Qed.
Lemma ndx_get : ndx mget.
Proof. intros s r s' Hs H. injection H as <- <-. split; [exact Hs|discriminate]. Qed.
Lemma ndx_step sp u : ndx (next_element_step sp u).
Proof.
  unfold next_element_step. apply ndx_bind; [apply ndx_get|intros s0]. cbv zeta. apply ndx_bind; [apply ndx_elem; [apply k_rb|apply eo_rb]|intros b].
  destruct (parse_desc b) as [[ty tag|[]]|]; [| | | | |intros s r s' Hs H; injection H as <- <-; split; [exact Hs|discriminate]].
  - apply ndx_bind; [apply ndx_mod; intros s Hs; destruct (s_depth s =? 0); exact Hs|intros _u]. apply ndx_bind; [apply ndx_get|intros s1]. apply ndx_bind; [apply ndx_value|intros; apply ndx_ret].
  - apply ndx_bind; [apply ndx_mod; intros s Hs; destruct (0 <? s_depth s); exact Hs|intros; apply ndx_ret].
  - apply ndx_bind; [apply ndx_mod; intros s Hs; exact Hs|intros _u]. apply ndx_bind; [apply ndx_mod; intros s Hs; exact Hs|intros; apply ndx_ret].
  - apply ndx_bind; [apply ndx_next_blob|intros; apply ndx_ret].
  - apply ndx_if; apply ndx_ret.
Qed.
Lemma impl_cases sp s : (s_eof s = true /\ next_element_impl sp s = (ROk ElEndOfDoc, s)) \/ (s_eof s = false /\ next_element_impl sp s = (commit ;; mloop (next_element_step sp) tt) s).
Proof. unfold next_element_impl. destruct (s_eof s); auto. Qed.
Lemma frs_impl sp : frs (next_element_impl sp).
Proof.
  intros s r s' Hs H. destruct (impl_cases sp s) as [[_ E]|[_ E]]; rewrite E in H.
  - injection H as <- <-. split; [apply Hs|discriminate].
  - revert Hs H. apply nds_frs. apply nds_bind; [apply nds_commit|intros; apply ndx_loop; intros; apply ndx_step].
Qed.
Lemma Gd_impl sp s r s' : sim (next_element_impl sp) -> Gd s -> next_element_impl sp s = (r, s') -> Gd s' /\ notpos r.
Proof.
  intros Hsim Hs H. destruct (frs_impl sp _ _ _ Hs H) as [H1 H2]. split; [|exact H2]. destruct Hs as (HS & Hbn & _). split; [exact (s_impl sp _ _ _ HS H)|]. split; [|exact H1].
  destruct (Hsim _ _ _ H) as [[_ X]|[X _]]; [now apply X|contradiction].
Qed.
Definition gdx {A} (m : SM A) : Prop := forall s r s', Gd s -> m s = (r, s') -> Gd s' /\ notpos r.
Lemma gdx_bind {A B} (m : SM A) (f : A -> SM B) : gdx m -> (forall a, gdx (f a)) -> gdx (mbind m f).
Proof.
  intros Hm Hf s r s' Hs H. unfold mbind in H. destruct (m s) as [[a|y| |] s1] eqn:E1; destruct (Hm _ _ _ Hs E1) as [H1 H2].
  - exact (Hf a _ _ _ H1 H).
  - injection H as <- <-. split; [exact H1|]. intros X. apply H2. now injection X as ->.
  - injection H as <- <-. split; [exact H1|discriminate].
  - injection H as <- <-. split; [exact H1|discriminate].
Qed.
Lemma gdx_ret {A} (a : A) : gdx (mret a).
Proof. intros s r s' Hs H. injection H as <- <-. split; [exact Hs|discriminate]. Qed.
Lemma gdx_loop {A B} (step : A -> SM (A + B)) a : (forall a, gdx (step a)) -> gdx (mloop step a).
Proof.
  intros He. assert (Hi : forall p a, gdx (miter p step a)).
  { intros p. induction p as [q IH|q IH|]; intros x; cbn [miter]; [| |apply He].
    - apply gdx_bind; [apply He|]. intros [y|y]; [|apply gdx_ret]. apply gdx_bind; [apply IH|]. intros [z|z]; [apply IH|apply gdx_ret].
    - apply gdx_bind; [apply IH|]. intros [z|z]; [apply IH|apply gdx_ret]. }
  unfold mloop. apply gdx_bind; [apply Hi|]. intros [z|z]; [|apply gdx_ret]. intros s r s' Hs H. injection H as <- <-. split; [exact Hs|discriminate].
Qed.
Lemma gdx_frs {A} (m : SM A) : gdx m -> frs m.
Proof. intros Hm s r s' Hs H. destruct (Hm _ _ _ Hs H) as [H1 H2]. split; [apply H1|exact H2]. Qed.
Lemma gdx_skip_up d : gdx (skip_up d).
Proof.
  unfold skip_up. apply gdx_loop. intros u. apply gdx_bind; [intros s r s' Hs H; injection H as <- <-; split; [exact Hs|discriminate]|intros s0].
  destruct (d <? s_depth s0); [|apply gdx_ret]. apply gdx_bind; [|intros; apply gdx_ret]. intros s r s' Hs H. exact (Gd_impl false _ _ _ (next_element_impl_sim false) Hs H).
Qed.
(** An element with a blob leaves nothing dynamic. *)
Lemma impl_nd sp s e s' : Gd s -> next_element_impl sp s = (ROk e, s') -> e = ElEndOfDoc \/ nd s'.
Proof.
  intros Hs H. destruct (impl_cases sp s) as [[_ E]|[_ E]]; rewrite E in H; [injection H as <- <-; left; reflexivity|]. right.
  refine (proj1 (proj2 (nds_bind _ _ nds_commit (fun u => ndx_loop (next_element_step sp) tt (fun a => ndx_step sp a)) _ _ _ Hs H)) _ eq_refl).
Qed.
Lemma frs_next : frs next_field.
Proof.
  intros s r s' Hs H. unfold next_field in H. unfold mbind at 1 in H. destruct (next_element_impl true s) as [r1 s1] eqn:E1.
  destruct (frs_impl true _ _ _ Hs E1) as [H1 H2].
  destruct r1 as [[f| | |len|]|x| |]; try (injection H as <- <-; (split; [exact H1|try discriminate])).
  - destruct (impl_nd _ _ _ _ Hs E1) as [X|Hn]; [discriminate|].
    assert (Hx : ndx (let* msg := b_read_or_trunc 256 in mfail (A := option field) (SException msg))).
    { apply ndx_bind; [apply ndx_plain; [intros c d e; apply pr_lift, pr_read_upto; intros; apply k_bread|apply io_plain, eo_upto, eo_bread]|].
      intros msg s0 r0 s0' H0 X. injection X as <- <-. split; [exact H0|discriminate]. }
    destruct (Hx _ _ _ Hn H) as [H3 H4]. split; [now apply nd_Fr|exact H4].
  - intros X. apply H2. now injection X as ->.
Qed.
Lemma nds_seek w : nds (st_seek w).
Proof.
  unfold st_seek. apply nds_bind; [apply nds_commit|intros _u]. apply ndx_bind; [apply (ndx_io _ [IoOther; IoInvalidInput]); [apply k_dev|apply eo_devseek]|intros off].
  apply ndx_bind; [|intros _v; apply ndx_bind; [apply ndx_mod; intros s Hs; exact Hs|intros; apply ndx_ret]].
  unfold reset_pos. apply ndx_bind; [apply ndx_commit|intros _w]. apply ndx_bind; [apply ndx_mod; intros s Hs; exact Hs|intros _x].
  apply ndx_bind; [apply ndx_mod; intros s Hs; exact Hs|intros _y]. apply ndx_mod; intros s Hs; exact Hs.
Qed.
Lemma dyn_ends d s r s' : Gd s -> write_desc_with_blob_dynamic d s = (r, s') ->
  notpos r /\ match r with ROk len => s_dyn_start s' = s_pos s' /\ s_blob_end s' = s_dyn_start s' + len | _ => Fr s' end.
Proof.
  intros Hs H. unfold write_desc_with_blob_dynamic in H. unfold mbind at 1 in H.
  destruct (write_desc d s) as [r1 s1] eqn:E1. destruct (nds_desc d _ _ _ Hs E1) as (F1 & N1 & Q1).
  pose proof (p_write_desc 0 0 _ _ _ _ (proj1 (proj1 Hs)) E1) as HP1.
  destruct r1 as [[]|e| |]; try (injection H as <- <-; (split; [try discriminate; intros X; apply Q1; now injection X as ->|exact F1])).
  specialize (N1 _ eq_refl). assert (F : forall x, s_commit x = s_commit s1 -> Fr x) by (intros x Hx; apply nd_Fr; unfold nd; now rewrite Hx).
  unfold mbind at 1, mres at 1 in H. rewrite u64_sub_ok in H by apply HP1.
  unfold mbind at 1, mres at 1 in H.
  destruct (u64_sub (s_dbg s1) (U64_MAX - s_pos s1) 10) as [len|e| |] eqn:El; [|now apply sub_err in El|injection H as <- <-; split; [discriminate|now apply F]..].
  unfold mbind at 1, s_encode_fixed_u64, lift_io in H.
  destruct (write_all sch t_write _ s1) as [r2 s2] eqn:E2. pose proof (p_wall 0 0 _ _ _ _ HP1 E2) as HP2.
  destruct (k_wall _ _ _ _ _ _ _ (conj eq_refl (conj eq_refl eq_refl)) E2) as (K2 & _ & _).
  destruct r2 as [[]|e| |]; try (injection H as <- <-; (split; [discriminate|now apply F])).
  apply wall_ok_pos in E2; [|apply HP1]. change (lenN (encode_fixed_u64 _)) with 10 in E2.
  destruct HP2 as (R1 & R2 & R3).
  rewrite u64_sub_ok in El by lia. injection El as <-.
  unfold mbind at 1, mmod at 1 in H. unfold mbind at 1 in H.
  rewrite u64_add_ok in H by (scbn; unfold U64_MOD, U64_MAX in *; lia).
  unfold mbind, mmod, mret in H. injection H as <- <-. split; [discriminate|]. scbn. auto.
Qed.

(** ** Histories *)
Definition linked (op : open) (s : stream) : Prop :=
  s_commit s = Some CFinishDyn -> match op with OBlob len => s_blob_end s = s_dyn_start s + len | _ => True end.
Definition call_blob (c : call) : Prop := match c with CBlob _ => True | _ => False end.
Lemma call_front op c s r s' : no_reset c -> ~ call_blob c -> Gd s -> call_run op c s = (r, s') -> Fr s' /\ linked (opens op c r) s' /\ notpos r.
Proof.
  intros Hn Hb Hs H.
  assert (Lk : forall op', match op' with OBlob _ => False | _ => True end -> linked op' s') by (intros op' Hop _; destruct op'; auto; contradiction).
  (* calls that never open a blob *)
  assert (U : forall A (m : SM A) (f : A -> cval), frs m -> (forall x, match opens op c (ROk (f x)) with OBlob _ => False | _ => True end) ->
     (let* a := m in mret (f a)) s = (r, s') -> Fr s' /\ linked (opens op c r) s' /\ notpos r).
  { intros A m f Hm Hf Hx. unfold mbind in Hx. destruct (m s) as [r1 s1] eqn:E1. destruct (Hm _ _ _ Hs E1) as [H1 H2].
    destruct r1 as [a|y| |]; injection Hx as <- <-; (split; [exact H1|split]); try discriminate; try (apply Lk; destruct c; cbn in *; auto; contradiction).
    - apply Lk, Hf.
    - intros X. apply H2. now injection X as ->. }
  (* calls that leave nothing dynamic *)
  assert (V : forall A (m : SM A) (f : A -> cval), nds m -> (let* a := m in mret (f a)) s = (r, s') -> Fr s' /\ linked (opens op c r) s' /\ notpos r).
  { intros A m f Hm Hx. unfold mbind in Hx. destruct (m s) as [r1 s1] eqn:E1. destruct (Hm _ _ _ Hs E1) as (H1 & H2 & H3).
    destruct r1 as [a|y| |]; injection Hx as <- <-; (split; [exact H1|split]); try discriminate; try (apply Lk; destruct c; cbn in *; auto; contradiction).
    - intros X. contradiction (H2 _ eq_refl X).
    - intros X. apply H3. now injection X as ->. }
  assert (W : forall d, (let* a := write_desc_with_blob_dynamic d in mret (VBlobLen a)) s = (r, s') -> (c = CWriteExcDyn \/ exists t, c = CWriteBlobDyn t) -> Fr s' /\ linked (opens op c r) s' /\ notpos r).
  { intros d Hx Hc. unfold mbind in Hx. destruct (write_desc_with_blob_dynamic d s) as [r1 s1] eqn:E1. destruct (dyn_ends d _ _ _ Hs E1) as [H1 H2].
    destruct r1 as [a|y| |]; injection Hx as <- <-.
    - destruct H2 as [H2 H3]. split; [intros _; lia|]. split; [|discriminate]. destruct Hc as [->|(t & ->)]; intros _; exact H3.
    - split; [exact H2|]. split; [destruct Hc as [->|(t & ->)]; apply Lk; exact Logic.I|]. intros X. apply H1. now injection X as ->.
    - split; [exact H2|]. split; [destruct Hc as [->|(t & ->)]; apply Lk; exact Logic.I|discriminate].
    - split; [exact H2|]. split; [destruct Hc as [->|(t & ->)]; apply Lk; exact Logic.I|discriminate]. }
  destruct c; cbn [call_run] in H; unfold ret_unit in H; try contradiction.
  - unfold mbind in H. destruct (next_element s) as [r1 s1] eqn:E1. destruct (frs_impl false _ _ _ Hs E1) as [H1 H2].
    destruct r1 as [e|y| |]; injection H as <- <-; (split; [exact H1|split]); try discriminate; try (apply Lk; exact Logic.I).
    + destruct (impl_nd false _ _ _ Hs E1) as [->|X]; [apply Lk; exact Logic.I|]. intros Y. contradiction.
    + intros X. apply H2. now injection X as ->.
  - unfold mbind in H. destruct (next_field s) as [r1 s1] eqn:E1. destruct (frs_next _ _ _ Hs E1) as [H1 H2].
    destruct r1 as [e|y| |]; injection H as <- <-; (split; [exact H1|split]); try discriminate; try (apply Lk; exact Logic.I).
    + destruct e as [f|]; [|apply Lk; exact Logic.I]. unfold next_field in E1. unfold mbind at 1 in E1. destruct (next_element_impl true s) as [r0 s0] eqn:E0.
      destruct r0 as [[f0| | |len|]|x| |]; try discriminate.
      * injection E1 as <- <-. destruct (impl_nd true _ _ _ Hs E0) as [X|X]; [discriminate|]. intros Y. contradiction.
      * unfold mbind in E1. destruct (b_read_or_trunc 256 s0) as [[]]; discriminate.
    + intros X. apply H2. now injection X as ->.
  - exact (U _ _ (fun _ => VUnit_) (gdx_frs _ (gdx_skip_up depth)) (fun _ => Logic.I) H).
  - destruct op as [|len|f]; try (injection H as <- <-; split; [apply Hs|]; split; [apply Lk; exact Logic.I|discriminate]).
    refine (U _ _ (fun _ => VUnit_) _ (fun _ => Logic.I) H). unfold field_skip. apply gdx_frs. destruct (f_val f); try apply gdx_ret; apply gdx_skip_up.
  - exact (V _ _ (fun _ => VUnit_) nds_commit H).
  - exact (V _ _ VNum (nds_seek w) H).
  - refine (U _ _ (fun _ => VUnit_) _ (fun _ => Logic.I) H). intros s0 r0 s0' H0 X. injection X as <- <-. split; [apply H0|discriminate].
  - refine (U _ _ (fun _ => VUnit_) _ (fun _ => Logic.I) H). intros s0 r0 s0' H0 X. injection X as <- <-. split; [apply H0|discriminate].
  - refine (U _ _ (fun _ => VUnit_) _ (fun _ => Logic.I) H). intros s0 r0 s0' H0 X. injection X as <- <-. split; [apply H0|discriminate].
  - exact (V _ _ (fun _ => VUnit_) (nds_u64 _ _) H).
  - exact (V _ _ (fun _ => VUnit_) (nds_u64 _ _) H).
  - exact (V _ _ VBlobLen (nds_data _ _) H).
  - exact (V _ _ VBlobLen (nds_alloc _ _) H).
  - exact (W _ H (or_intror (ex_intro _ _ eq_refl))).
  - exact (V _ _ VBlobLen (nds_data _ _) H).
  - exact (V _ _ VBlobLen (nds_alloc _ _) H).
  - exact (W _ H (or_introl eq_refl)).
  - exact (V _ _ (fun _ => VUnit_) (nds_desc _) H).
  - exact (V _ _ (fun _ => VUnit_) (nds_enum _ _) H).
  - exact (V _ _ (fun _ => VUnit_) (nds_desc _) H).
  - exact (V _ _ (fun _ => VUnit_) (nds_desc _) H).
  - exact (V _ _ (fun _ => VUnit_) (nds_desc _) H).
  - exact (V _ _ (fun _ => VUnit_) (nds_pad _) H).
Qed.

Lemma blob_front op o s r s' : Gd s -> open_ok op s -> linked op s -> call_run op (CBlob o) s = (r, s') -> Fr s' /\ linked op s' /\ notpos r.
Proof.
  intros Hs Ho Hl H. cbn [call_run] in H. destruct op as [|len|f]; try (injection H as <- <-; split; [apply Hs|]; split; [exact Hl|discriminate]).
  assert (Ho' : open_ok (OBlob len) s').
  { destruct (call_pos 0 0 (OBlob len) (CBlob o) s r s' (fun h => h) (proj1 (proj1 Hs)) Ho H) as [_ X]. exact X. }
  assert (K : exists r1, bop_run len o s = (r1, s') /\ forall x, r = RErr x -> r1 = RErr x).
  { unfold mbind in H. destruct (bop_run len o s) as [r1 s1] eqn:E1. exists r1. destruct r1; injection H as <- <-; (split; [reflexivity|]); intros x0 Hx; try discriminate. now injection Hx as ->. }
  destruct K as (r1 & E1 & Hr). destruct (k_bop len o _ _ _ _ _ _ (conj eq_refl (conj eq_refl eq_refl)) E1) as (K1 & K2 & K3).
  cbn [open_ok] in Ho'. unfold inblob in Ho'. split; [|split].
  - intros X. rewrite K1 in X. specialize (Hl X). rewrite <- K2, <- K3 in Hl. lia.
  - intros X. rewrite K1 in X. specialize (Hl X). rewrite K2, K3. exact Hl.
  - intros ->. pose proof (Hr _ eq_refl) as ->. apply eo_bop in E1. destruct o; cbn [blob_error] in E1;
      repeat match type of E1 with _ \/ _ => destruct E1 as [E1|E1] | ex _ => destruct E1 as (? & E1) | io_error _ _ => destruct E1 as (? & _ & E1) | _ /\ _ => destruct E1 as [E1 _] end; try discriminate; contradiction.
Qed.
Lemma tread_benign g n : preserves benign (t_read g n).
Proof.
  intros s r s' Hb H. unfold t_read in H. destruct (n =? 0); [injection H as <- <-; exact Hb|]. unfold mbind, check_advance_pos in H. destruct (_ <? _); [injection H as <- <-; exact Hb|].
  unfold benign, sch in *. unfold on_dev, dev_read, sched_next in H. destruct (d_sched (s_dev s)) as [|[c| |] sc] eqn:Es; unfold mmod, mret in H;
    try (destruct (takeN _ _); [destruct g|]); injection H as <- <-; scbn; try constructor; try (inversion Hb; assumption).
Qed.
Lemma twrite_benign bs : preserves benign (t_write bs).
Proof.
  intros s r s' Hb H. unfold t_write in H. destruct bs as [|b bs]; [injection H as <- <-; exact Hb|]. unfold mbind, check_advance_pos in H. destruct (_ <? _); [injection H as <- <-; exact Hb|].
  unfold benign, sch in *. unfold on_dev, dev_write, sched_next in H. destruct (d_sched (s_dev s)) as [|[c| |] sc] eqn:Es; unfold mmod, mret in H;
    injection H as <- <-; scbn; try constructor; try (inversion Hb; assumption).
Qed.
Lemma call_benign op c s r s' : benign s -> call_run op c s = (r, s') -> benign s'.
Proof.
  intros Hb H. assert (D : full_call c \/ exists o, c = CBlob o /\ match o with BRead _ | BFillConsume _ | BWrite _ => True | _ => False end).
  { destruct c; try (left; exact Logic.I). destruct o; try (left; exact Logic.I); right; eexists; split; reflexivity. }
  destruct D as [D|(o & -> & D)].
  { destruct (call_sim op c D _ _ _ H) as [[_ X]|[X _]]; [now apply X|contradiction]. }
  cbn [call_run] in H. destruct op as [|len|f]; try (injection H as <- <-; exact Hb). revert Hb H. apply pr_bind; [|intros; apply pr_ret].
  destruct o; try contradiction; cbn [bop_run].
  - apply pr_bind; [apply pr_lift|intros; apply pr_ret]. unfold b_read. apply pr_bind; [apply pr_pure|intros rem]. apply pr_if; [apply pr_ret|apply tread_benign].
  - apply pr_bind; [apply pr_lift|intros b; apply pr_bind; [apply pr_lift|intros; apply pr_ret]].
    + unfold b_fill_buf. apply pr_bind; [apply pr_pure|intros rem]. apply pr_bind; [|intros buf; apply pr_bind; [apply pr_check|intros; apply pr_ret]].
      intros s0 r0 s0' Hb H. unfold benign, sch in *. unfold on_dev, dev_fill_buf, sched_next in H. destruct (d_sched (s_dev s0)) as [|[c| |] sc] eqn:Es; injection H as <- <-; scbn; try constructor; try (inversion Hb; assumption).
    + unfold b_consume. apply pr_bind; [apply pr_pure|intros rem]. intros s0 r0 s0' Hb H. destruct (_ && _)%bool; [injection H as <- <-; exact Hb|]. cbv zeta in H.
      destruct (u64_add _ _ _); injection H as <- <-; exact Hb.
  - apply pr_bind; [apply pr_lift|intros; apply pr_ret]. unfold b_write. apply pr_bind; [apply pr_pure|intros rem]. apply twrite_benign.
Qed.
Lemma calls_front cs : Forall no_reset cs -> forall op s, Gd s -> open_ok op s -> linked op s ->
  Forall (fun r => r <> RErr SPosBeforeDynBlob) (fst (run_calls cs op s)).
Proof.
  induction 1 as [|c cs Hc Hcs IH]; intros op s Hs Ho Hl; cbn [run_calls]; [constructor|].
  destruct (call_run op c s) as [x s1] eqn:E. destruct (call_sane op c _ _ _ Hc (proj1 Hs) Ho E) as [H1 H2].
  pose proof (call_benign op c _ _ _ (proj1 (proj2 Hs)) E) as Hb.
  assert (X : Fr s1 /\ linked (opens op c x) s1 /\ notpos x).
  { assert (D : (exists o, c = CBlob o) \/ ~ call_blob c) by (destruct c; cbn; auto; left; eauto). destruct D as [(o & ->)|D].
    - exact (blob_front op o _ _ _ Hs Ho Hl E).
    - exact (call_front op c _ _ _ Hc D Hs E). }
  destruct X as (X1 & X2 & X3). specialize (IH (opens op c x) s1 (conj H1 (conj Hb X1)) H2 X2).
  destruct (run_calls cs (opens op c x) s1) as [xs st]. constructor; [exact X3|exact IH].
Qed.
Theorem never_before cs dbg sk bs sched : Forall no_reset cs -> Forall (fun e => e <> EvFail) sched ->
  Forall (fun r => r <> RErr SPosBeforeDynBlob) (fst (run_calls cs ONone (new_stream dbg sk (mkDev bs 0 sched)))).
Proof.
  intros Hc Hb. apply calls_front; [exact Hc| |exact Logic.I|discriminate].
  split; [apply fresh_sane|]. split; [exact Hb|discriminate].
Qed.
