(** * P_ErrC: errors about unfinished blobs are about blobs that were begun (C77) *)

From Verif Require Import Base Wire Dev Stream SpecFormat SpecStream SpecHist SpecBlob SpecErr SpecErrW SpecErrC P_Base P_Sched P_Stream P_Hist P_Pos P_Write P_ErrW P_ErrD.
Local Open Scope N_scope.
Strategy 1000 [s_decode_u64 decode_u64 decode_loop write_all read_exact encode_u64 enc_loop encode_fixed_u64 mloop miter].

Definition blames (x : serr) : option commit_fn :=
  match x with
  | STruncatedBlob _ => Some CSkipBlob
  | SIncompleteBlob _ => Some CCheckEnd
  | SPosBeforeDynBlob | SOverlongDynBlob => Some CFinishDyn
  | _ => None
  end.
(** What may be pending. *)
Definition pends (P : commit_fn -> Prop) (s : stream) : Prop := forall f, s_commit s = Some f -> P f.
Definition fair {A} (P : commit_fn -> Prop) (r : res serr A) : Prop := forall x f, r = RErr x -> blames x = Some f -> P f.
Definition wl (P Q : commit_fn -> Prop) {A} (m : SM A) : Prop := forall s r s', pends P s -> m s = (r, s') -> pends Q s' /\ fair P r.

Section Walk.
  Variables (P Q : commit_fn -> Prop) (PQ : forall f, P f -> Q f).
  Lemma fair_ok {A} (a : A) : fair P (ROk a). Proof. intros x f X. discriminate X. Qed.
  Lemma fair_panic {A} : fair P (@RPanic serr A). Proof. intros x f X. discriminate X. Qed.
  Lemma fair_fuel {A} : fair P (@RFuel serr A). Proof. intros x f X. discriminate X. Qed.
  Lemma pends_more s : pends P s -> pends Q s.
  Proof. intros H f Hf. apply PQ, H, Hf. Qed.
  Lemma wl_bind {A B} (m : SM A) (f : A -> SM B) : wl P P m -> (forall a, wl P Q (f a)) -> wl P Q (mbind m f).
  Proof.
    intros Hm Hf s r s' Hs H. unfold mbind in H. destruct (m s) as [[a|y| |] s1] eqn:E1; destruct (Hm _ _ _ Hs E1) as [H1 H2].
    - exact (Hf a _ _ _ H1 H).
    - injection H as <- <-. split; [now apply pends_more|]. intros x g X. injection X as ->. exact (H2 _ _ eq_refl).
    - injection H as <- <-. split; [now apply pends_more|apply fair_panic].
    - injection H as <- <-. split; [now apply pends_more|apply fair_fuel].
  Qed.
  (** What follows an opening. *)
  Lemma wl_after {A B} (m : SM A) (f : A -> SM B) : wl P Q m -> (forall a, keeps (f a)) -> (forall a s x s', f a s = (RErr x, s') -> blames x = None) -> wl P Q (mbind m f).
  Proof.
    intros Hm Hk He s r s' Hs H. unfold mbind in H. destruct (m s) as [[a|y| |] s1] eqn:E1; destruct (Hm _ _ _ Hs E1) as [H1 H2].
    - destruct (Hk a _ _ _ _ _ _ (conj eq_refl (conj eq_refl eq_refl)) H) as (K & _). split; [intros g Hg; rewrite K in Hg; now apply H1|].
      intros x g -> Hb. rewrite (He _ _ _ _ H) in Hb. discriminate.
    - injection H as <- <-. split; [exact H1|]. intros x g X. injection X as ->. exact (H2 _ _ eq_refl).
    - injection H as <- <-. split; [exact H1|apply fair_panic].
    - injection H as <- <-. split; [exact H1|apply fair_fuel].
  Qed.
  Lemma wl_ret {A} (a : A) : wl P Q (mret a).
  Proof. intros s r s' Hs H. injection H as <- <-. split; [now apply pends_more|apply fair_ok]. Qed.
  Lemma wl_if {A} (c : bool) (m n : SM A) : wl P Q m -> wl P Q n -> wl P Q (if c then m else n).
  Proof. destruct c; auto. Qed.
  Lemma wl_mod f : (forall s, pends P s -> pends Q (f s)) -> wl P Q (mmod f).
  Proof. intros Hf s r s' Hs H. injection H as <- <-. split; [now apply Hf|apply fair_ok]. Qed.
  Lemma wl_keep {A} (m : SM A) ok : keeps m -> eo ok m -> (forall x, ok x -> match blames x with Some f => P f | None => True end) -> wl P Q m.
  Proof.
    intros Hk He Hn s r s' Hs H. destruct (Hk _ _ _ _ _ _ (conj eq_refl (conj eq_refl eq_refl)) H) as (E1 & _). split.
    - intros f Hf. rewrite E1 in Hf. apply PQ, Hs, Hf.
    - intros x f -> Hb. specialize (Hn x (He _ _ _ H)). now rewrite Hb in Hn.
  Qed.
  Lemma wl_fun {A} (f : stream -> SM A) : (forall s0, wl P Q (f s0)) -> wl P Q (fun s => f s s).
  Proof. intros Hf s r s' Hs H. exact (Hf s _ _ _ Hs H). Qed.
End Walk.
Section Walks.
  Variable P : commit_fn -> Prop.
  Notation W := (wl P P).
  Lemma PP : forall f, P f -> P f. Proof. auto. Qed.
  Ltac wb := apply (wl_bind P P PP).
  Lemma w_ret {A} (a : A) : W (mret a). Proof. apply wl_ret, PP. Qed.
  Lemma w_get : W mget.
  Proof. intros s r s' Hs H. injection H as <- <-. split; [exact Hs|apply fair_ok]. Qed.
  Lemma w_loop {A B} (step : A -> SM (A + B)) a : (forall a, W (step a)) -> W (mloop step a).
  Proof.
    intros He. assert (Hi : forall p a, W (miter p step a)).
    { intros p. induction p as [q IH|q IH|]; intros x; cbn [miter]; [| |apply He].
      - wb; [apply He|]. intros [y|y]; [|apply w_ret]. wb; [apply IH|]. intros [z|z]; [apply IH|apply w_ret].
      - wb; [apply IH|]. intros [z|z]; [apply IH|apply w_ret]. }
    unfold mloop. wb; [apply Hi|]. intros [z|z]; [|apply w_ret]. intros s r s' Hs H. injection H as <- <-. split; [exact Hs|apply fair_fuel].
  Qed.
  Lemma w_io {A} (m : IM A) ks : keeps m -> eo (only ks) m -> W (lift_io m).
  Proof.
    intros Hk He. apply (wl_keep P P PP _ (io_error ks)); [intros c d e; apply pr_lift, Hk|now apply eo_io|]. intros x (k & _ & ->). exact Logic.I.
  Qed.
  Lemma w_elem {A} (m : SM A) : keeps m -> eo elem_error m -> W m.
  Proof. intros Hk He. apply (wl_keep P P PP _ elem_error Hk He). intros x [(k & _ & ->)|[->| ->]]; exact Logic.I. Qed.
  Lemma w_wall bs : W (lift_io (write_all sch t_write bs)).
  Proof. apply (w_io _ [IoOther]); [apply k_wall|apply eo_wall_t]. Qed.
  Lemma w_encode n : W (s_encode_u64 n).
  Proof. unfold s_encode_u64. destruct (encode_u64 n); [apply w_wall|]. intros s r s' Hs H. injection H as <- <-. split; [exact Hs|apply fair_panic]. Qed.
  Lemma w_fail {A} x : blames x = None -> W (mfail (A := A) x).
  Proof. intros Hx s r s' Hs H. injection H as <- <-. split; [exact Hs|]. intros y f X Hb. injection X as <-. congruence. Qed.
  (** Closing. *)
  Definition mildly (x : serr) : Prop := blames x = None.
  Lemma io_mild {A} ks (m : IM A) : eo (only ks) m -> eo mildly (lift_io m).
  Proof. apply eo_lift. intros k _. reflexivity. Qed.
  Lemma discard_mild n : eo mildly (skip_by_discard n).
  Proof. apply (io_mild [IoOther]). apply eo_bind; [apply eo_upto; intros; apply eo_tread|intros; apply eo_ret]. Qed.
  Lemma direct_mild n : eo mildly (skip_by_seek_direct n).
  Proof.
    unfold skip_by_seek_direct. apply eo_bind; [apply (io_mild [IoOther]), eo_check|intros _u]. intros s x s' H.
    destruct (on_dev (dev_seek (SkCur (Z.of_N n))) s) as [[a|y| |] s1]; try discriminate. exact (discard_mild n _ _ _ H).
  Qed.
  Lemma seek_mild n : eo mildly (skip_by_seek n).
  Proof.
    unfold skip_by_seek. generalize 4%nat as f. intros f. revert n. induction f as [|f IH]; intros n; cbn [skip_by_seek_rec].
    - intros s x s' H. discriminate.
    - apply eo_if; [|apply direct_mild]. apply eo_bind; [apply IH|intros a]. apply eo_if; [apply eo_ret|]. apply eo_bind; [apply IH|intros; apply eo_ret].
  Qed.
  Definition by_ (f : commit_fn) (x : serr) : Prop := blames x = None \/ blames x = Some f.
  Lemma skip_blame : eo (by_ CSkipBlob) skip_blob.
  Proof.
    intros s x s' H. unfold skip_blob in H. destruct (s_pos s <? s_blob_end s); [|discriminate].
    revert H. apply eo_bind; [apply (eo_weak _ mildly); [left; assumption|]; apply eo_if; [apply seek_mild|apply discard_mild]|].
    intros k. destruct (k <? _); [|apply eo_ret]. apply eo_fail. right. reflexivity.
  Qed.
  Lemma check_blame : eo (by_ CCheckEnd) check_at_end_of_blob.
  Proof.
    intros s x s' H. unfold check_at_end_of_blob in H. destruct (_ =? _); [discriminate|]. destruct (u64_sub _ _ _); try discriminate.
    injection H as <- <-. right. reflexivity.
  Qed.
  Lemma finish_blame : eo (by_ CFinishDyn) finish_dynamic_blob.
  Proof.
    assert (L : forall A ks (m : IM A), eo (only ks) m -> eo (by_ CFinishDyn) (lift_io m)).
    { intros A ks m Hm. apply (eo_weak _ mildly); [left; assumption|]. now apply (io_mild ks). }
    assert (M : forall f, eo (by_ CFinishDyn) (mmod f)) by (intros f s x s' X; discriminate X).
    assert (U : forall s a b, eo (by_ CFinishDyn) (mres (u64_sub (s_dbg s) a b))).
    { intros s a b s0 x s' X. unfold mres in X. injection X as X _. now apply sub_err in X. }
    intros s x s' H. unfold finish_dynamic_blob in H. cbv zeta in H.
    destruct (s_pos s <? s_dyn_start s); [injection H as <- <-; right; reflexivity|]. revert H.
    generalize (s_pos s) at 1 2 3 4 as p. intros p. revert x s'. generalize (s_dyn_start s) as d. intros d.
    match goal with |- forall x s', ?m s = _ -> _ => cut (eo (by_ CFinishDyn) m); [intros X x s' H; exact (X _ _ _ H)|] end.
    apply eo_bind; [apply U|intros h]. apply eo_bind; [apply U|intros dp]. apply eo_if; [apply eo_fail; right; reflexivity|].
    apply eo_bind; [apply (L _ [IoOther; IoInvalidInput]), eo_devseek|intros _a]. apply eo_bind; [apply M|intros _b].
    apply eo_bind; [apply (L _ [IoOther]), eo_wall_t|intros _c]. apply eo_bind; [apply (L _ [IoOther; IoInvalidInput]), eo_devseek|intros _d]. apply M.
  Qed.
  Lemma pending_blame f : eo (by_ f) (run_pending f).
  Proof. destruct f; [apply skip_blame|apply check_blame|apply finish_blame]. Qed.
  Lemma w_commit : W commit.
  Proof.
    intros s r s' Hs H. destruct (commit_keeps _ _ _ H) as (_ & _ & E). split.
    - intros f Hf. destruct r; rewrite E in Hf; try discriminate; now apply Hs.
    - intros x g -> Hb. unfold commit in H. destruct (s_commit s) as [f|] eqn:Ec; [|discriminate].
      change ((run_pending f ;; mmod (set_commit None)) s = (RErr x, s')) in H. unfold mbind in H.
      destruct (run_pending f s) as [[u|y| |] s1] eqn:E1; try discriminate. injection H as -> <-.
      destruct (pending_blame f _ _ _ E1) as [X|X]; rewrite X in Hb; [discriminate|]. injection Hb as <-. now apply Hs.
  Qed.
  (** ** The operations *)
  Lemma w_rest d : W (desc_rest d).
  Proof.
    unfold desc_rest. apply (wl_fun P P (fun s0 => let* b := mres (desc_byte (s_dbg s0) d) in lift_io (write_all sch t_write [b]))). intros s0. wb; [|intros b; apply w_wall].
    intros s r s' Hs H. unfold mres in H. injection H as <- <-. split; [exact Hs|]. intros x f X. exfalso. revert X. unfold desc_byte. destruct d as [ty tag|sp]; repeat destruct (_ : bool); discriminate.
  Qed.
  Lemma w_desc d : W (write_desc d).
  Proof. change (write_desc d) with (commit ;; desc_rest d). wb; [apply w_commit|intros; apply w_rest]. Qed.
  Lemma w_u64 t n : W (write_u64 t n).
  Proof. unfold write_u64. wb; [apply w_desc|intros; apply w_encode]. Qed.
  Lemma w_enum t n : W (write_enum t n).
  Proof. unfold write_enum. wb; [apply w_desc|intros; apply w_encode]. Qed.
  Lemma w_check n : W (lift_io (check_advance_pos n)).
  Proof. apply (w_io _ [IoOther]); [intros c d' e; apply pr_check|apply eo_check]. Qed.
  Lemma w_mod f : (forall s, pends P s -> pends P (f s)) -> W (mmod f).
  Proof. apply wl_mod. Qed.
  Lemma w_incr : W incr_depth.
  Proof. intros s r s' Hs H. unfold incr_depth in H. destruct (u64_add _ _ _); injection H as <- <-; (split; [exact Hs|]); [apply fair_ok|apply fair_panic..]. Qed.
  Lemma w_pad al : W (pad_to_align al).
  Proof.
    intros s r s' Hs H. unfold pad_to_align in H. unfold mbind at 1, mres in H.
    destruct (u64_sub (E := serr) (s_dbg s) al 1) as [m|y| |] eqn:Em.
    2: now apply sub_err in Em.
    2,3: injection H as <- <-; (split; [exact Hs|]); [apply fair_panic || apply fair_fuel].
    unfold mbind at 1 in H. destruct (s_dbg s && negb (N.land al m =? 0))%bool; [injection H as <- <-; split; [exact Hs|apply fair_panic]|].
    unfold mret at 1 in H. revert Hs H. wb; [apply w_commit|intros _u]. apply w_loop. intros u.
    wb; [apply w_get|intros s0]. apply wl_if; [apply w_ret|]. wb; [apply w_desc|intros; apply w_ret].
  Qed.
  Lemma w_reset p : W (reset_pos p).
  Proof.
    unfold reset_pos. wb; [apply w_commit|intros _w]. wb; [apply w_mod; intros s Hs; exact Hs|intros _x].
    wb; [apply w_mod; intros s Hs; exact Hs|intros _y]. apply w_mod; intros s Hs; exact Hs.
  Qed.
  Lemma w_seek w : W (st_seek w).
  Proof.
    unfold st_seek. wb; [apply w_commit|intros _u]. wb; [apply (w_io _ [IoOther; IoInvalidInput]); [apply k_dev|apply eo_devseek]|intros off].
    wb; [apply w_reset|intros _v]. wb; [apply w_mod; intros s Hs; exact Hs|intros; apply w_ret].
  Qed.
  (** Reading, where skipping may be pending. *)
  Section Reading.
    Variable Hsk : P CSkipBlob.
    Lemma w_next_blob : W next_blob.
    Proof.
      unfold next_blob. wb; [apply w_elem; [apply k_decode|apply eo_decode]|intros len].
      wb; [apply w_check|intros _v].
      wb; [apply w_mod; intros s Hs; exact Hs|intros _w]. wb; [apply w_mod; intros s _ f Hf; scbn; injection Hf as <-; exact Hsk|intros; apply w_ret].
    Qed.
    Lemma w_value ty : W (next_value ty).
    Proof.
      assert (Hd : W s_decode_u64) by (apply w_elem; [apply k_decode|apply eo_decode]). destruct ty; cbn [next_value].
      - wb; [exact Hd|intros d]. wb; [apply w_incr|intros; apply w_ret].
      - wb; [exact Hd|intros; apply w_ret].
      - wb; [apply w_next_blob|intros; apply w_ret].
      - wb; [apply w_incr|intros; apply w_ret].
    Qed.
    Lemma w_step sp u : W (next_element_step sp u).
    Proof.
      unfold next_element_step. wb; [apply w_get|intros s0]. cbv zeta. wb; [apply w_elem; [apply k_rb|apply eo_rb]|intros b].
      destruct (parse_desc b) as [[ty tag|[]]|]; [| | | | |intros s r s' Hs H; injection H as <- <-; split; [exact Hs|apply fair_panic]].
      - wb; [apply w_mod; intros s Hs; destruct (s_depth s =? 0); exact Hs|intros _u]. wb; [apply w_get|intros s1]. wb; [apply w_value|intros; apply w_ret].
      - wb; [apply w_mod; intros s Hs; destruct (0 <? s_depth s); exact Hs|intros; apply w_ret].
      - wb; [apply w_mod; intros s Hs; exact Hs|intros _u]. wb; [apply w_mod; intros s Hs; exact Hs|intros; apply w_ret].
      - wb; [apply w_next_blob|intros; apply w_ret].
      - apply wl_if; apply w_ret.
    Qed.
    Lemma w_impl sp : W (next_element_impl sp).
    Proof.
      intros s r s' Hs H. destruct (impl_cases sp s) as [[_ E]|[_ E]]; rewrite E in H.
      - injection H as <- <-. split; [exact Hs|apply fair_ok].
      - revert Hs H. wb; [apply w_commit|intros; apply w_loop; intros; apply w_step].
    Qed.
    Lemma w_skip_up d : W (skip_up d).
    Proof.
      unfold skip_up. apply w_loop. intros u. wb; [apply w_get|intros s0].
      destruct (d <? s_depth s0); [|apply w_ret]. wb; [|intros; apply w_ret]. exact (w_impl false).
    Qed.
    Lemma w_next_field : W next_field.
    Proof.
      unfold next_field. wb; [apply w_impl|]. intros [f| | |len|]; try apply w_ret.
      2: { intros s r s' Hs H. injection H as <- <-. split; [exact Hs|apply fair_panic]. }
      wb; [apply (w_io _ [IoOther]); [intros c d e; apply pr_read_upto; intros; apply k_bread|apply eo_upto, eo_bread]|].
      intros msg. apply w_fail. reflexivity.
    Qed.
    Lemma w_field_skip f : W (field_skip f).
    Proof. unfold field_skip. destruct (f_val f); try apply w_ret; apply w_skip_up. Qed.
  End Reading.
  (** Opening a blob for writing. *)
  Section Opening.
    Variables (Q : commit_fn -> Prop) (PQ : forall f, P f -> Q f).
    Ltac ob := apply (wl_bind P Q PQ).
    Lemma wl_alloc d len : Q CCheckEnd -> wl P Q (write_desc_with_blob_alloc d len).
    Proof.
      intros HQ. unfold write_desc_with_blob_alloc. ob; [apply w_commit|intros _u]. apply wl_if.
      { intros s r s' Hs H. injection H as <- <-. split; [exact (pends_more P Q PQ _ Hs)|]. intros x f X. injection X as <-. discriminate. }
      ob; [apply w_check|intros _v]. ob; [apply w_desc|intros _w]. ob; [apply w_encode|intros _x].
      ob; [|intros _y; apply (wl_after P Q); [apply wl_mod; intros s _ f Hf; injection Hf as <-; exact HQ|intros u c d' e; apply pr_ret|intros u s x s' X; discriminate X]].
      intros s r s' Hs H. destruct (u64_add _ _ _); injection H as <- <-; (split; [exact Hs|]); [apply fair_ok|apply fair_panic..].
    Qed.
    Lemma wl_data d data : Q CCheckEnd -> wl P Q (data_of (write_desc_with_blob_alloc d (lenN data)) data).
    Proof.
      intros HQ. unfold data_of. apply wl_after; [now apply wl_alloc|intros len c d' e; apply pr_bind; [apply pr_lift, pr_write_all; intros; apply k_bwrite|intros; apply pr_ret]|].
      intros len s x s' H. revert H. apply (eo_bind mildly); [apply (io_mild [IoOther; IoWriteZero]), eo_wall, eo_bwrite|intros; apply eo_ret].
    Qed.
    Lemma wl_dynamic d : Q CFinishDyn -> wl P Q (write_desc_with_blob_dynamic d).
    Proof.
      intros HQ. unfold write_desc_with_blob_dynamic. ob; [apply w_desc|intros _u].
      assert (U : forall b a c, W (mres (u64_sub b a c))).
      { intros b a c s r s' Hs H. unfold mres in H. injection H as <- <-. split; [exact Hs|]. intros x f X. now apply sub_err in X. }
      apply (wl_fun P Q (fun s0 => let* a := mres (u64_sub (s_dbg s0) U64_MAX (s_pos s0)) in
     let* len := mres (u64_sub (s_dbg s0) a 10) in
     s_encode_fixed_u64 len ;;
     mmod (fun s => set_dyn_start (s_pos s) s) ;;
     (fun s => match u64_add (E := serr) (s_dbg s) (s_pos s) len with
               | ROk e => (ROk tt, set_blob_end e s)
               | _ => (RPanic, s)
               end) ;;
     mmod (set_commit (Some CFinishDyn)) ;;
     mret len)). intros s0. ob; [apply U|intros a]. ob; [apply U|intros len]. ob; [apply w_wall|intros _v].
      ob; [apply w_mod; intros s Hs; exact Hs|intros _w].
      ob; [|intros _y; apply (wl_after P Q); [apply wl_mod; intros s _ f Hf; injection Hf as <-; exact HQ|intros u c d' e; apply pr_ret|intros u s x s' X; discriminate X]].
      intros s r s' Hs H. destruct (u64_add _ _ _); injection H as <- <-; (split; [exact Hs|]); [apply fair_ok|apply fair_panic..].
    Qed.
  End Opening.
End Walks.

(** ** Histories *)
Definition cause (before : list call) (c : call) (f : commit_fn) : Prop :=
  match f with
  | CSkipBlob => Exists reads_ (c :: before)
  | CCheckEnd => Exists sizes before
  | CFinishDyn => Exists grows_ before
  end.
Definition caused (before : list call) (f : commit_fn) : Prop :=
  match f with
  | CSkipBlob => Exists reads_ before
  | CCheckEnd => Exists sizes before
  | CFinishDyn => Exists grows_ before
  end.
Lemma cause_more before c f : caused before f -> cause before c f.
Proof. destruct f; cbn; auto. Qed.
Lemma call_cause before op c s r s' : pends (caused before) s -> call_run op c s = (r, s') ->
  pends (caused (c :: before)) s' /\ (match c with CBlob _ => True | _ => fair (cause before c) r end).
Proof.
  intros Hs H.
  assert (Pc : pends (cause before c) s) by (intros f Hf; apply cause_more, Hs, Hf).
  assert (PQ : forall f, cause before c f -> caused (c :: before) f) by (intros []; cbn; auto).
  assert (U : forall A (m : SM A) (g : A -> cval), wl (cause before c) (caused (c :: before)) m -> (let* a := m in mret (g a)) s = (r, s') ->
     pends (caused (c :: before)) s' /\ fair (cause before c) r).
  { intros A m g Hm Hx. revert Pc Hx. apply (wl_after _ _ m); [exact Hm|intros a p q t; apply pr_ret|intros a s0 x0 s0' X; discriminate X]. }
  assert (V : forall A (m : SM A) (g : A -> cval), wl (cause before c) (cause before c) m -> (let* a := m in mret (g a)) s = (r, s') ->
     pends (caused (c :: before)) s' /\ fair (cause before c) r).
  { intros A m g Hm. apply U. intros s0 r0 s0' H0 H1. destruct (Hm _ _ _ H0 H1) as [X Y]. split; [intros f Hf; apply PQ, X, Hf|exact Y]. }
  assert (R : match c with CNextElement | CNextField | CSkipUp _ | CSkipField => cause before c CSkipBlob | _ => True end).
  { destruct c; try exact Logic.I; cbn; apply Exists_cons_hd; exact Logic.I. }
  assert (S : match c with CWriteBlobData _ _ | CWriteBlobAlloc _ _ | CWriteExcData _ | CWriteExcAlloc _ => caused (c :: before) CCheckEnd
                         | CWriteBlobDyn _ | CWriteExcDyn => caused (c :: before) CFinishDyn | _ => True end).
  { destruct c; try exact Logic.I; cbn; apply Exists_cons_hd; exact Logic.I. }
  assert (N : r = ROk VNothing -> s' = s -> pends (caused (c :: before)) s' /\ fair (cause before c) r).
  { intros -> ->. split; [intros f Hf; apply PQ, Pc, Hf|apply fair_ok]. }
  destruct c; cbn [call_run] in H; unfold ret_unit in H.
  - exact (V _ _ VElem (w_impl _ R false) H).
  - exact (V _ _ VField (w_next_field _ R) H).
  - exact (V _ _ (fun _ => VUnit_) (w_skip_up _ R _) H).
  - destruct op as [|len|f]; try (injection H as <- <-; now apply N). exact (V _ _ (fun _ => VUnit_) (w_field_skip _ R f) H).
  - exact (V _ _ (fun _ => VUnit_) (w_commit _) H).
  - exact (V _ _ (fun _ => VUnit_) (w_reset _ _) H).
  - exact (V _ _ VNum (w_seek _ _) H).
  - refine (V _ _ (fun _ => VUnit_) (w_mod _ _ _) H). intros s0 H0; exact H0.
  - refine (V _ _ (fun _ => VUnit_) (w_mod _ _ _) H). intros s0 H0; exact H0.
  - refine (V _ _ (fun _ => VUnit_) (w_mod _ _ _) H). intros s0 H0; exact H0.
  - exact (V _ _ (fun _ => VUnit_) (w_u64 _ _ _) H).
  - exact (V _ _ (fun _ => VUnit_) (w_u64 _ _ _) H).
  - exact (U _ _ VBlobLen (wl_data _ _ PQ _ _ S) H).
  - exact (U _ _ VBlobLen (wl_alloc _ _ PQ _ _ S) H).
  - exact (U _ _ VBlobLen (wl_dynamic _ _ PQ _ S) H).
  - exact (U _ _ VBlobLen (wl_data _ _ PQ _ _ S) H).
  - exact (U _ _ VBlobLen (wl_alloc _ _ PQ _ _ S) H).
  - exact (U _ _ VBlobLen (wl_dynamic _ _ PQ _ S) H).
  - exact (V _ _ (fun _ => VUnit_) (w_desc _ _) H).
  - exact (V _ _ (fun _ => VUnit_) (w_enum _ _ _) H).
  - exact (V _ _ (fun _ => VUnit_) (w_desc _ _) H).
  - exact (V _ _ (fun _ => VUnit_) (w_desc _ _) H).
  - exact (V _ _ (fun _ => VUnit_) (w_desc _ _) H).
  - exact (V _ _ (fun _ => VUnit_) (w_pad _ _) H).
  - destruct op as [|len|f]; try (injection H as <- <-; split; [now apply N|exact Logic.I]). split; [|exact Logic.I].
    unfold mbind in H. destruct (bop_run len o s) as [r1 s1] eqn:E1.
    destruct (k_bop len o _ _ _ _ _ _ (conj eq_refl (conj eq_refl eq_refl)) E1) as (K & _ & _).
    assert (s' = s1) as -> by (destruct r1; injection H as <- <-; reflexivity). intros g Hg. rewrite K in Hg. apply PQ, Pc, Hg.
Qed.
Lemma fair_due before c (r : res serr cval) : fair (cause before c) r -> forall x, r = RErr x -> due before c x.
Proof.
  intros Hf x Hx. specialize (Hf x). destruct x; try exact Logic.I; exact (Hf _ Hx eq_refl).
Qed.
Lemma history_due cs : forall before op s, pends (caused before) s -> all_due before cs (fst (run_calls cs op s)).
Proof.
  induction cs as [|c cs IH]; intros before op s Hs; [exact Logic.I|]. cbn [run_calls].
  destruct (call_run op c s) as [x s1] eqn:E1. destruct (call_cause _ _ _ _ _ _ Hs E1) as [H1 H2]. specialize (IH (c :: before) (opens op c x) s1 H1).
  destruct (run_calls cs (opens op c x) s1) as [xs st]. cbn [fst all_due] in *. split; [|exact IH].
  destruct c; try exact Logic.I; exact (fair_due _ _ _ H2).
Qed.
Lemma errors_due cs dbg sk d : all_due [] cs (fst (run_calls cs ONone (new_stream dbg sk d))).
Proof. apply history_due. intros f Hf. discriminate Hf. Qed.
