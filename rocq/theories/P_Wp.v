(** * P_Wp: a program logic for deserialisers

    What can be said about a [prog] whatever the source of fields is: an
    abstract state follows the nesting, the blob in hand, the progress and
    the counters, and every response of the source consistent with it is
    considered. *)

From Verif Require Import Base Wire Dev Stream Types Prog SpecFormat P_Base P_Prog.

Record astate := mkA {
  a_open : nat;                      (* bodies that may still be closed *)
  a_cur : option (vhdr * nat);       (* the field in hand, and [a_open] where it was found *)
  a_rem : N;                         (* bytes left in the blob in hand *)
  a_meas : N;                        (* at most this many fields to come *)
  a_coll : N;
  a_blob : N;
  a_path : N
}.

Definition nest (v : vhdr) : nat := match v with HStruct | HEnum _ => 1%nat | _ => 0%nat end.
Definition blob_len (v : vhdr) : N := match v with HBlob l => l | _ => 0 end.
Definition hdr_ok (tag : N) (v : vhdr) : Prop :=
  tag_ok tag /\ match v with HInt n => n < 2 ^ 64 | HBlob l => l <= U64_MAX | HStruct => True | HEnum d => d < 2 ^ 64 end.
Definition in_hand (s : astate) : Prop := match a_cur s with Some _ => True | None => False end.
Definition blob_in_hand (s : astate) : Prop := match a_cur s with Some (HBlob _, _) => True | _ => False end.

Section Wp.
  Variable cf : cfg.

  Definition op_wp {X : Set} (o : op X) : (X -> astate -> Prop) -> astate -> Prop :=
    match o in op X return (X -> astate -> Prop) -> astate -> Prop with
    | ONext => fun K s =>
        (1 <= a_open s)%nat /\
        (forall m, m <= a_meas s ->
           K None (mkA (a_open s - 1) None 0 m (a_coll s) (a_blob s) (a_path s))) /\
        (forall tag v m, hdr_ok tag v -> m < a_meas s ->
           K (Some (tag, v)) (mkA (a_open s + nest v) (Some (v, a_open s)) (blob_len v) m
                                  (a_coll s) (a_blob s) (a_path s)))
    | OSkip => fun K s =>
        match a_cur s with
        | None => False
        | Some (_, lv) =>
            forall m, m <= a_meas s ->
            K tt (mkA (Nat.min (a_open s) lv) (a_cur s) (a_rem s) m (a_coll s) (a_blob s) (a_path s))
        end
    | OUnknown => fun K s => in_hand s /\ (cf_ignore cf = true -> K tt s)
    | OPush at_field _ => fun K s =>
        a_path s < cf_rec cf ->
        (at_field = true -> in_hand s) /\
        K tt (mkA (a_open s) (a_cur s) (a_rem s) (a_meas s) (a_coll s) (a_blob s) (a_path s + 1))
    | OPop => fun K s =>
        K tt (mkA (a_open s) (a_cur s) (a_rem s) (a_meas s) (a_coll s) (a_blob s) (a_path s - 1))
    | OCollect => fun K s =>
        a_coll s + 1 <= cf_collect cf ->
        K tt (mkA (a_open s) (a_cur s) (a_rem s) (a_meas s) (a_coll s + 1) (a_blob s) (a_path s))
    | OQuota n => fun K s =>
        a_blob s + n <= cf_blob cf ->
        K tt (mkA (a_open s) (a_cur s) (a_rem s) (a_meas s) (a_coll s) (a_blob s + n) (a_path s))
    | OOver _ => fun K s => K tt s
    | ORemaining => fun K s => blob_in_hand s /\ K (a_rem s) s
    | OReadFully => fun K s =>
        blob_in_hand s /\ a_rem s <= cf_blob cf /\
        forall bs, bytes_ok bs -> lenN bs <= a_rem s ->
        K bs (mkA (a_open s) (a_cur s) (a_rem s - lenN bs) (a_meas s) (a_coll s) (a_blob s) (a_path s))
    | OReadExact n => fun K s =>
        blob_in_hand s /\
        forall bs, bytes_ok bs -> lenN bs = n -> n <= a_rem s ->
        K bs (mkA (a_open s) (a_cur s) (a_rem s - n) (a_meas s) (a_coll s) (a_blob s) (a_path s))
    | OExt => fun K s =>
        blob_in_hand s /\ forall bs, bytes_ok bs -> lenN bs = a_rem s -> K bs s
    end.

  Fixpoint wpp {A} (p : prog A) (Q : A -> astate -> Prop) (s : astate) : Prop :=
    match p with
    | PRet a => Q a s
    | PStop (StFail _) => True
    | PStop _ => False
    | PDo o k => op_wp o (fun x s' => wpp (k x) Q s') s
    end.

  Lemma op_wp_mono {X : Set} (o : op X) (K K' : X -> astate -> Prop) s :
    (forall x s', K x s' -> K' x s') -> op_wp o K s -> op_wp o K' s.
  Proof.
    intros H. destruct o; cbn [op_wp].
    - intros (H1 & H2 & H3). repeat split; auto.
    - destruct (a_cur s) as [[v lv]|]; auto.
    - intros (H1 & H2). auto.
    - intros H1 Hlt. destruct (H1 Hlt). auto.
    - auto.
    - auto.
    - auto.
    - auto.
    - intros (H1 & H2). auto.
    - intros (H1 & H2 & H3). auto.
    - intros (H1 & H2). auto.
    - intros (H1 & H2). auto.
  Qed.

  Lemma wpp_mono {A} (p : prog A) (Q Q' : A -> astate -> Prop) : forall s,
    (forall a s', Q a s' -> Q' a s') -> wpp p Q s -> wpp p Q' s.
  Proof.
    induction p as [a|x|X o k IH]; intros s H; cbn [wpp].
    - apply H.
    - destruct x; auto.
    - apply op_wp_mono. intros x s'. now apply IH.
  Qed.

  Lemma wpp_bind {A B} (p : prog A) (k : A -> prog B) (Q : B -> astate -> Prop) : forall s,
    wpp p (fun a s' => wpp (k a) Q s') s -> wpp (pbind p k) Q s.
  Proof.
    induction p as [a|x|X o h IH]; intros s; cbn [wpp pbind].
    - auto.
    - destruct x; auto.
    - apply op_wp_mono. intros x s'. apply IH.
  Qed.
  Lemma wpp_do {X : Set} {B} (o : op X) (k : X -> prog B) (Q : B -> astate -> Prop) s :
    op_wp o (fun a s' => wpp (k a) Q s') s -> wpp (pbind (pdo o) k) Q s.
  Proof. intros H. apply wpp_bind. exact H. Qed.

  (** Loops: the measure decreases in every round that continues. *)
  Lemma wpp_piter {A B} (step : A -> prog (A + B)) (Inv : A -> astate -> Prop) (Q : B -> astate -> Prop) :
    (forall a s, Inv a s -> wpp (step a) (fun r s' => match r with
                                              | inl a' => Inv a' s' /\ a_meas s' < a_meas s
                                              | inr b => Q b s'
                                              end) s) ->
    forall p a s, Inv a s ->
    wpp (piter p step a) (fun r s' => match r with
                                      | inl a' => Inv a' s' /\ a_meas s' + Npos p <= a_meas s
                                      | inr b => Q b s'
                                      end) s.
  Proof.
    intros Hstep p. induction p as [q IH|q IH|]; intros a s HI; cbn [piter].
    - apply wpp_bind. eapply wpp_mono; [|apply Hstep, HI]. intros [a'|b] s1; [|auto]. intros [H1 M1].
      apply wpp_bind. eapply wpp_mono; [|apply IH, H1]. intros [a''|b] s2; [|auto]. intros [H2 M2].
      eapply wpp_mono; [|apply IH, H2]. intros [a3|b] s3; [|auto]. intros [H3 M3]. split; [exact H3|]. lia.
    - apply wpp_bind. eapply wpp_mono; [|apply IH, HI]. intros [a''|b] s2; [|auto]. intros [H2 M2].
      eapply wpp_mono; [|apply IH, H2]. intros [a3|b] s3; [|auto]. intros [H3 M3]. split; [exact H3|]. lia.
    - eapply wpp_mono; [|apply Hstep, HI]. intros [a'|b] s1; [|auto]. intros [H1 M1]. split; [exact H1|]. lia.
  Qed.
  Lemma wpp_ploop {A B} (step : A -> prog (A + B)) (Inv : A -> astate -> Prop) (Q : B -> astate -> Prop) a s :
    (forall a s, Inv a s -> wpp (step a) (fun r s' => match r with
                                              | inl a' => Inv a' s' /\ a_meas s' < a_meas s
                                              | inr b => Q b s'
                                              end) s) ->
    Inv a s -> a_meas s <= U64_MAX -> wpp (ploop step a) Q s.
  Proof.
    intros Hstep HI Hm. unfold ploop. apply wpp_bind. eapply wpp_mono; [|eapply wpp_piter; eauto].
    intros [a'|b] s'; [|auto]. intros [_ Hb]. exfalso. unfold loop_bound, U64_MAX in *. lia.
  Qed.

  (** ** From the abstract state to executions *)
  Section Exec.
    Context {S : Type} (I : source S).
    (** [SO s c open cur rem meas]: the source state [s] and the field in hand
        [c] are described by the abstract values. *)
    Variable SO : S -> option field -> nat -> option (vhdr * nat) -> N -> N -> Prop.

    Hypothesis Hcur : forall s c o ac r m, SO s c o ac r m ->
      match c, ac with None, None => True | Some f, Some (v, _) => f_val f = v | _, _ => False end.
    Hypothesis Hnext : forall s c o ac r m, SO s c o ac r m -> (1 <= o)%nat ->
      match i_next I s with
      | (ROk None, s') => exists m', m' <= m /\ SO s' None (o - 1) None 0 m'
      | (ROk (Some f), s') => hdr_ok (f_tag f) (f_val f) /\ exists m', m' < m /\
          SO s' (Some f) (o + nest (f_val f)) (Some (f_val f, o)) (blob_len (f_val f)) m'
      | (RErr _, _) => True
      | _ => False
      end.
    Hypothesis Hskip : forall s f o v lv r m, SO s (Some f) o (Some (v, lv)) r m ->
      match i_skip I f s with
      | (ROk _, s') => exists m', m' <= m /\ SO s' (Some f) (Nat.min o lv) (Some (v, lv)) r m'
      | (RErr _, _) => True
      | _ => False
      end.
    Definition blobm_if (C : N -> Prop) {A} (m : M S serr A) (P : A -> N -> N -> Prop) : Prop :=
      forall s f o v lv r ms, SO s (Some f) o (Some (v, lv)) r ms -> (exists l, v = HBlob l) -> C r ->
      match m s with
      | (ROk a, s') => exists r', P a r r' /\ SO s' (Some f) o (Some (v, lv)) r' ms
      | (RErr _, _) => True
      | _ => False
      end.
    Definition blobm {A} (m : M S serr A) (P : A -> N -> N -> Prop) : Prop :=
      forall s f o v lv r ms, SO s (Some f) o (Some (v, lv)) r ms -> (exists l, v = HBlob l) ->
      match m s with
      | (ROk a, s') => exists r', P a r r' /\ SO s' (Some f) o (Some (v, lv)) r' ms
      | (RErr _, _) => True
      | _ => False
      end.
    Lemma blobm_when C {A} (m : M S serr A) P : blobm m P -> blobm_if C m P.
    Proof. intros H s f o v lv r ms H1 H2 _. exact (H _ _ _ _ _ _ _ H1 H2). Qed.
    Hypothesis Hrem : blobm (i_remaining I) (fun n r r' => n = r /\ r' = r).
    Hypothesis Hfull : forall n, blobm_if (fun r => r <= n) (i_read_fully I n) (fun bs r r' => bytes_ok bs /\ lenN bs <= r /\ r' = r - lenN bs).
    Hypothesis Hexact : forall n, blobm (i_read_exact I n) (fun bs r r' => bytes_ok bs /\ lenN bs = n /\ n <= r /\ r' = r - n).
    Hypothesis Hext : blobm (i_ext I) (fun bs r r' => bytes_ok bs /\ lenN bs = r /\ r' = r).
    Hypothesis Hcf : cf_collect cf <= U64_MAX /\ cf_blob cf <= U64_MAX.

    Definition arel (a : astate) (st : rst S) : Prop :=
      SO (x_s st) (x_cur st) (a_open a) (a_cur a) (a_rem a) (a_meas a) /\
      x_coll st = a_coll a /\ x_blob st = a_blob a /\ lenN (x_path st) = a_path a /\
      a_coll a <= cf_collect cf /\ a_blob a <= cf_blob cf /\ a_path a <= cf_rec cf.

    Lemma op_wp_sound {X : Set} (o : op X) K a st : op_wp o K a -> arel a st ->
      match run_op I cf o st with
      | (ROk x, st') => exists a', arel a' st' /\ K x a'
      | (RErr _, _) => True
      | _ => False
      end.
    Proof.
      intros Hw HA. pose proof HA as (HS & Hc & Hb & Hp & Lc & Lb & Lp).
      pose proof (Hcur _ _ _ _ _ _ HS) as Hcu.
      assert (Hbl0 : forall C A (m : M S serr A) P, blobm_if C m P -> C (a_rem a) -> blob_in_hand a ->
        match on_blob m st with
        | (ROk x, st') => exists r', P x (a_rem a) r' /\
             arel (mkA (a_open a) (a_cur a) r' (a_meas a) (a_coll a) (a_blob a) (a_path a)) st'
        | (RErr _, _) => True
        | _ => False
        end).
      { intros C A m P Hm HC Hh. unfold blob_in_hand in Hh. destruct (a_cur a) as [[v lv]|] eqn:Ea; [|contradiction].
        destruct v as [|l| |]; try contradiction.
        destruct (x_cur st) as [f|] eqn:Ex; [|contradiction].
        pose proof (Hm _ _ _ _ _ _ _ HS (ex_intro _ l eq_refl) HC) as H.
        unfold on_blob. rewrite Ex. destruct f as [t p d v]. cbn in Hcu. subst v. unfold on_src_of.
        destruct (m (x_s st)) as [[x|er| |] s']; try exact H.
        destruct H as (r' & H1 & H2). exists r'. split; [exact H1|]. unfold arel. cbn. rewrite Ex. repeat split; auto. }
      assert (Hbl : forall A (m : M S serr A) P, blobm m P -> blob_in_hand a -> _) by (intros A m P Hm Hh; exact (Hbl0 (fun _ => True) A m P (blobm_when _ _ _ Hm) Logic.I Hh)).
      destruct o; cbn [op_wp run_op] in *.
      - destruct Hw as (W1 & W2 & W3). pose proof (Hnext _ _ _ _ _ _ HS W1) as H.
        unfold mbind, on_src_of. destruct (i_next I (x_s st)) as [[[f|]|er| |] s']; try exact H; cbn.
        + destruct H as (Hok & m' & Hm & HS'). eexists. split; [|apply W3; [exact Hok|exact Hm]].
          unfold arel. cbn. repeat split; auto.
        + destruct H as (m' & Hm & HS'). eexists. split; [|apply W2, Hm]. unfold arel. cbn. repeat split; auto.
      - destruct (a_cur a) as [[v lv]|] eqn:Ea; [|contradiction].
        destruct (x_cur st) as [f|] eqn:Ex; [|contradiction].
        pose proof (Hskip _ _ _ _ _ _ _ HS) as H. unfold on_src_of.
        destruct (i_skip I f (x_s st)) as [[[]|er| |] s']; try exact H; cbn.
        destruct H as (m' & Hm & HS'). eexists. split; [|apply Hw, Hm]. unfold arel. cbn. rewrite Ex. repeat split; auto.
      - destruct Hw as [W1 W2]. destruct (cf_ignore cf).
        + exists a. split; [exact HA|auto].
        + unfold in_hand in W1. destruct (a_cur a) as [[]|]; [|contradiction].
          destruct (x_cur st); [exact Logic.I|contradiction].
      - rewrite Hp. destruct (N.leb_spec (cf_rec cf) (a_path a)) as [Hle|Hlt]; [exact Logic.I|].
        destruct (Hw Hlt) as [W1 W2]. 
        assert (Hpush : forall p, arel (mkA (a_open a) (a_cur a) (a_rem a) (a_meas a) (a_coll a) (a_blob a) (a_path a + 1))
                           (x_set_path (p :: x_path st) st)).
        { intros p. unfold arel. cbn. rewrite lenN_cons. repeat split; auto; lia. }
        destruct at_field.
        + specialize (W1 eq_refl). unfold in_hand in W1. destruct (a_cur a) as [[]|]; [|contradiction].
          destruct (x_cur st) eqn:Ex; [|contradiction]. eexists. split; [apply Hpush|exact W2].
        + eexists. split; [apply Hpush|exact W2].
      - eexists. split; [|exact Hw]. unfold arel. cbn. repeat split; auto; try lia.
        rewrite <- Hp. destruct (x_path st); cbn; [reflexivity|]. rewrite lenN_cons. lia.
      - unfold ctx_collect. rewrite Hc. rewrite u64_sub_ok by exact Lc.
        destruct (N.ltb_spec (cf_collect cf - a_coll a) 1) as [Hlt|Hge]; [exact Logic.I|].
        rewrite u64_add_ok by (unfold U64_MAX, U64_MOD in *; lia).
        eexists. split; [|apply Hw; lia]. unfold arel. cbn. repeat split; auto; lia.
      - unfold ctx_blob. rewrite Hb. rewrite u64_sub_ok by exact Lb.
        destruct (N.ltb_spec (cf_blob cf - a_blob a) n) as [Hlt|Hge]; [exact Logic.I|].
        rewrite u64_add_ok by (unfold U64_MAX, U64_MOD in *; lia).
        eexists. split; [|apply Hw; lia]. unfold arel. cbn. repeat split; auto; lia.
      - exists a. split; [exact HA|exact Hw].
      - destruct Hw as [W1 W2]. pose proof (Hbl _ _ _ Hrem W1) as H.
        destruct (on_blob (i_remaining I) st) as [[x|er| |] st']; try exact H.
        destruct H as (r' & (-> & ->) & H). exists a. split; [destruct a; exact H|exact W2].
      - destruct Hw as (W1 & W3 & W2). pose proof (Hbl0 _ _ _ _ (Hfull (cf_blob cf)) W3 W1) as H.
        destruct (on_blob (i_read_fully I (cf_blob cf)) st) as [[x|er| |] st']; try exact H.
        destruct H as (r' & (H1 & H2 & ->) & H). eexists. split; [exact H|]. now apply W2.
      - destruct Hw as [W1 W2]. pose proof (Hbl _ _ _ (Hexact n) W1) as H.
        destruct (on_blob (i_read_exact I n) st) as [[x|er| |] st']; try exact H.
        destruct H as (r' & (H1 & H2 & H3 & ->) & H). eexists. split; [exact H|]. now apply W2.
      - destruct Hw as [W1 W2]. pose proof (Hbl _ _ _ Hext W1) as H.
        destruct (on_blob (i_ext I) st) as [[x|er| |] st']; try exact H.
        destruct H as (r' & (H1 & H2 & ->) & H). exists a. split; [destruct a; exact H|now apply W2].
    Qed.

    Lemma wpp_sound {A} (p : prog A) Q : forall a st, wpp p Q a -> arel a st ->
      match run I cf p st with
      | (ROk x, st') => exists a', arel a' st' /\ Q x a'
      | (RErr _, _) => True
      | _ => False
      end.
    Proof.
      induction p as [x|x|X o k IH]; intros a st Hw HA; cbn [run wpp] in *.
      - exists a. auto.
      - destruct x; try contradiction. exact Logic.I.
      - unfold mbind. pose proof (op_wp_sound o _ a st Hw HA) as H.
        destruct (run_op I cf o st) as [[x|er| |] st']; try exact H.
        destruct H as (a' & HA' & HK). eapply IH; eauto.
    Qed.
  End Exec.
End Wp.
