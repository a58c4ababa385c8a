(** * P_Disp: nothing depends on the absolute position (C70) *)

From Verif Require Import Base Wire Dev Stream Types Prog Ser De SpecWire SpecFormat SpecStream SpecBlob SpecHist SpecDe SpecDoc SpecSerDe SpecDisp
  P_Base P_Sched P_Read P_Pos P_DeProps P_SerDe.

Strategy 1000 [decode_u64 decode_loop encode_u64 enc_loop encode_fixed_u64 mloop miter].

Class full (E : Type) := is_full : E -> Prop.
#[local] Instance io_full : full iokind := fun e => e = IoOther.
#[local] Instance s_full : full serr := fun e => e = SIo IoOther.
Definition esc {E A} {X : full E} (r : res E A) : Prop := match r with RErr e => is_full e | _ => False end.
Definition rr {E A} (V : A -> A -> Prop) (r r' : res E A) : Prop :=
  match r, r' with
  | ROk a, ROk a' => V a a'
  | RErr e, RErr e' => e = e'
  | RPanic, RPanic | RFuel, RFuel => True
  | _, _ => False
  end.
Lemma rr_refl {E A} (r : res E A) : rr eq r r.
Proof. destruct r; cbn; auto. Qed.
Lemma rr_eq {E A} (r r' : res E A) : rr eq r r' -> r = r'.
Proof. destruct r, r'; cbn; try contradiction; intros; subst; auto. Qed.

Section Disp.
  Variable k : N.
  (** [t] is [s] displaced by [k]; [B]: also where its blob ends, even if nothing is pending. *)
  Definition R (B : bool) (s t : stream) : Prop :=
    (exists be ds, t = mkS (s_dev s) (s_pos s + k) (s_eof s) be ds (s_depth s) (s_graceful s) (s_seek s) (s_commit s) (s_dbg s) /\
       (B = true \/ s_commit s <> None -> be = s_blob_end s + k)) /\
    s_commit s <> Some CFinishDyn.
  Lemma R_weak B B1 s t : (B = true -> B1 = true) -> R B1 s t -> R B s t.
  Proof. intros Hb ((be & ds & H & Hbe) & Hc). split; [exists be, ds; split; [exact H|]|exact Hc]. intros [X|X]; apply Hbe; auto. Qed.

  Definition agr {E A} {X : full E} (B : bool) (V : A -> A -> Prop) (m m' : M stream E A) : Prop :=
    forall s t r' t', R B s t -> m' t = (r', t') ->
      esc r' \/ exists r s', m s = (r, s') /\ rr V r r' /\ R B s' t'.
  Definition ag {E A} {X : full E} (m : M stream E A) : Prop := forall B, agr B eq m m.

  Lemma ag_pure {E A} {XE : full E} B (V : A -> A -> Prop) (f g : stream -> res E A) :
    (forall s t, R B s t -> esc (g t) \/ rr V (f s) (g t)) -> agr B V (fun s => (f s, s)) (fun s => (g s, s)).
  Proof. intros Hk s t r' t' HR H. injection H as <- <-. destruct (Hk s t HR) as [Hx|Hx]; [now left|right]. exists (f s), s. split; [reflexivity|]. split; assumption. Qed.
  Lemma ag_ret2 {E A} {XE : full E} B (V : A -> A -> Prop) (x x' : A) : V x x' -> agr (E := E) B V (mret x) (mret x').
  Proof. intros Hv. apply ag_pure. intros; now right. Qed.
  Lemma ag_ret {E A} {XE : full E} (x : A) : ag (E := E) (mret x).
  Proof. intros B. now apply ag_ret2. Qed.
  Lemma ag_res {E A} {XE : full E} (x : res E A) : ag (mres x).
  Proof. intros B. apply ag_pure. intros; right; apply rr_refl. Qed.
  Lemma ag_fail2 {E A} {XE : full E} B (V : A -> A -> Prop) (e : E) : agr B V (mfail e) (mfail e).
  Proof. apply ag_pure. intros; right; reflexivity. Qed.
  Lemma ag_fail {E A} {XE : full E} (e : E) : ag (A := A) (mfail e).
  Proof. intros B. apply ag_fail2. Qed.
  Lemma ag_panic2 {E A} {XE : full E} B (V : A -> A -> Prop) : agr (E := E) B V mpanic mpanic.
  Proof. apply ag_pure. intros; right; exact I. Qed.
  Lemma ag_panic {E A} {XE : full E} : ag (E := E) (A := A) mpanic.
  Proof. intros B. apply ag_panic2. Qed.
  Lemma ag_fuel2 {E A} {XE : full E} B (V : A -> A -> Prop) : agr B V (fun s : stream => (@RFuel E A, s)) (fun s => (RFuel, s)).
  Proof. apply ag_pure. intros; right; exact I. Qed.
  Lemma ag_fuel {E A} {XE : full E} : ag (fun s : stream => (@RFuel E A, s)).
  Proof. intros B. apply ag_fuel2. Qed.
  Lemma ag_mod {E} {XE : full E} B (f g : stream -> stream) :
    (forall s t, R B s t -> R B (f s) (g t)) -> agr (E := E) B eq (mmod f) (mmod g).
  Proof. intros Hf s t r' t' HR H; injection H as <- <-. right. exists (ROk tt), (f s). split; [reflexivity|]. split; [reflexivity|]. apply (Hf s t HR). Qed.
  Lemma ag_bind2 {E A C} {XE : full E} B (V : A -> A -> Prop) (W : C -> C -> Prop) (m m' : M stream E A) (f f' : A -> M stream E C) :
    agr B V m m' -> (forall a a', V a a' -> agr B W (f a) (f' a')) ->
    agr B W (mbind m f) (mbind m' f').
  Proof.
    intros Hm Hk s t r' t' HR H. unfold mbind in H |- *. destruct (m' t) as [r1 t1] eqn:E1.
    destruct (Hm _ _ _ _ HR E1) as [Hx|(r & s1 & H1 & H2 & H3)]; [destruct r1; try contradiction Hx; injection H as <- <-; left; exact Hx|].
    rewrite H1. destruct r as [a|e| |], r1 as [a'|e'| |]; try contradiction H2;
      try (injection H as <- <-; right; eexists _, s1; split; [reflexivity|split; [exact H2|exact H3]]).
    exact (Hk a a' H2 _ _ _ _ H3 H).
  Qed.
  Lemma ag_bind {E A C} {XE : full E} B (W : C -> C -> Prop) (m m' : M stream E A) (f f' : A -> M stream E C) :
    agr B eq m m' -> (forall a, agr B W (f a) (f' a)) -> agr B W (mbind m f) (mbind m' f').
  Proof. intros Hm Hf. apply (ag_bind2 B eq W); auto. intros a a' <-. apply Hf. Qed.
  Lemma ag_get {E A} {XE : full E} B V (f f' : stream -> M stream E A) :
    (forall s t, R B s t -> agr B V (f s) (f' t)) -> agr B V (mbind mget f) (mbind mget f').
  Proof. intros Hk s t r' t' HR H. unfold mbind, mget in H |- *. exact (Hk s t HR s t r' t' HR H). Qed.
  Lemma ag_fun {E A} {XE : full E} B V (f f' : stream -> M stream E A) :
    (forall s t, R B s t -> agr B V (f s) (f' t)) -> agr B V (fun s => f s s) (fun s => f' s s).
  Proof. intros Hk s t r' t' HR H. exact (Hk s t HR s t r' t' HR H). Qed.
  Lemma ag_if {E A} {XE : full E} B V (b : bool) (m1 m2 n1 n2 : M stream E A) :
    agr B V m1 n1 -> agr B V m2 n2 -> agr B V (if b then m1 else m2) (if b then n1 else n2).
  Proof. destruct b; auto. Qed.
  Lemma ag_lift2 {A} B V (m n : IM A) : agr B V m n -> agr B V (lift_io m) (lift_io n).
  Proof.
    intros Hm s t r' t' HR H. unfold lift_io in H |- *. destruct (n t) as [r1 t1] eqn:E1.
    destruct (Hm _ _ _ _ HR E1) as [Hx|(r & s1 & H1 & H2 & H3)]; [destruct r1; try contradiction Hx; injection H as <- <-; left; exact (f_equal SIo Hx)|].
    rewrite H1. right. destruct r as [a|e| |], r1 as [a'|e'| |]; try contradiction H2; injection H as <- <-;
      eexists _, s1; (split; [reflexivity|]); (split; [|exact H3]); cbn in *; try exact H2; now rewrite H2.
  Qed.
  Lemma ag_lift {A} (m : IM A) : ag m -> ag (lift_io m).
  Proof. intros Hm B. now apply ag_lift2. Qed.
  Definition sumr {A C} (W : C -> C -> Prop) (x y : A + C) : Prop :=
    match x, y with inl a, inl a' => a = a' | inr c, inr c' => W c c' | _, _ => False end.
  Lemma ag_miter {E A C} {XE : full E} B (W : C -> C -> Prop) (f g : A -> M stream E (A + C)) p :
    (forall a, agr B (sumr W) (f a) (g a)) -> forall a, agr B (sumr W) (miter p f a) (miter p g a).
  Proof.
    intros Hs. induction p as [q IH|q IH|]; intros a; cbn [miter].
    - apply (ag_bind2 B (sumr W)); auto. intros [a1|b] [a2|b2]; cbn [sumr]; try contradiction; [intros <-|intros Hw; now apply ag_ret2].
      apply (ag_bind2 B (sumr W)); auto. intros [a3|b] [a4|b2]; cbn [sumr]; try contradiction; [intros <-; apply IH|intros Hw; now apply ag_ret2].
    - apply (ag_bind2 B (sumr W)); auto. intros [a1|b] [a2|b2]; cbn [sumr]; try contradiction; [intros <-; apply IH|intros Hw; now apply ag_ret2].
    - apply Hs.
  Qed.
  Lemma ag_mloop {E A C} {XE : full E} B (W : C -> C -> Prop) (f g : A -> M stream E (A + C)) :
    (forall a, agr B (sumr W) (f a) (g a)) -> forall a, agr B W (mloop f a) (mloop g a).
  Proof.
    intros Hs a. apply (ag_bind2 B (sumr W)); [now apply ag_miter|].
    intros [a1|b] [a2|b2]; cbn [sumr]; try contradiction; [intros <-; apply ag_fuel2|intros Hw; now apply ag_ret2].
  Qed.
  Lemma R_move B s t n : R B s t -> R B (set_pos_ (s_pos s + n) s) (set_pos_ (s_pos t + n) t).
  Proof.
    intros ((be & ds & -> & Hb) & Hc). split; [|exact Hc]. exists be, ds. cbn [set_pos_ s_pos]. scbn. split; [|exact Hb].
    unfold set_pos_; scbn. replace (s_pos s + k + n) with (s_pos s + n + k) by lia. reflexivity.
  Qed.
  Lemma R_back B s t n : n <= s_pos s -> R B s t -> R B (set_pos_ (s_pos s - n) s) (set_pos_ (s_pos t - n) t).
  Proof.
    intros Hn ((be & ds & -> & Hb) & Hc). split; [|exact Hc]. exists be, ds. cbn [set_pos_ s_pos]. scbn. split; [|exact Hb].
    unfold set_pos_; scbn. replace (s_pos s + k - n) with (s_pos s - n + k) by lia. reflexivity.
  Qed.
  Lemma R_pos B s t : R B s t -> s_pos t = s_pos s + k.
  Proof. intros ((be & ds & -> & _) & _). reflexivity. Qed.
  Lemma R_dev B s t : R B s t -> s_dev t = s_dev s.
  Proof. intros ((be & ds & -> & _) & _). reflexivity. Qed.
  Lemma R_dbg B s t : R B s t -> s_dbg t = s_dbg s.
  Proof. intros ((be & ds & -> & _) & _). reflexivity. Qed.
  Lemma R_sch B s t : R B s t -> sch t = sch s.
  Proof. intros H. unfold sch. now rewrite (R_dev _ _ _ H). Qed.
  Lemma R_end s t : R true s t -> s_blob_end t = s_blob_end s + k.
  Proof. intros ((be & ds & -> & Hb) & _). scbn. auto. Qed.
  Lemma R_open s t : R false s t -> s_commit s <> None -> R true s t.
  Proof. intros ((be & ds & -> & Hb) & Hc) Hn. split; [|exact Hc]. exists be, ds. split; [reflexivity|]. intros _. apply Hb. auto. Qed.
  Lemma R_set_dev B s t d : R B s t -> R B (set_dev d s) (set_dev d t).
  Proof. intros ((be & ds & -> & Hb) & Hc). split; [|exact Hc]. exists be, ds. auto. Qed.
  Lemma sub_disp {E} dbg a b : u64_sub (E := E) dbg (a + k) (b + k) = u64_sub dbg a b.
  Proof.
    unfold u64_sub. replace (b + k <=? a + k) with (b <=? a) by (destruct (N.leb_spec b a), (N.leb_spec (b + k) (a + k)); lia || reflexivity).
    replace (a + k - (b + k)) with (a - b) by lia. replace (U64_MOD + (a + k) - (b + k)) with (U64_MOD + a - b) by lia. reflexivity.
  Qed.

  Lemma ag_check n : ag (check_advance_pos n).
  Proof.
    intros B s t r' t' HR H. unfold check_advance_pos in *. rewrite (R_pos _ _ _ HR) in H.
    destruct (N.ltb_spec (U64_MAX - (s_pos s + k)) n); injection H as <- <-; [left; reflexivity|right].
    destruct (N.ltb_spec (U64_MAX - s_pos s) n); [lia|]. exists (ROk tt), s. split; [reflexivity|]. split; [reflexivity|exact HR].
  Qed.
  Lemma ag_dev {A} (m : M dev iokind A) : ag (on_dev m).
  Proof.
    intros B s t r' t' HR H. unfold on_dev in *. rewrite (R_dev _ _ _ HR) in H. destruct (m (s_dev s)) as [r1 d].
    injection H as <- <-. right. eexists r1, _. split; [reflexivity|]. split; [apply rr_refl|now apply R_set_dev].
  Qed.
  Ltac splitr := split; [reflexivity|]; split; [cbn; auto|].
  Lemma ag_read_exact B rd n : (forall n, agr B eq (rd n) (rd n)) -> agr B eq (read_exact sch rd n) (read_exact sch rd n).
  Proof.
    intros Hr s t r' t' Hs H. unfold read_exact in *. rewrite (R_sch _ _ _ Hs) in H. revert H. generalize (2 + List.length (sch s))%nat as fuel.
    generalize (@nil N) as acc. intros acc fuel. revert acc n s t Hs.
    induction fuel as [|f IH]; intros acc n s t Hs H; cbn [read_exact_loop] in *; [injection H as <- <-; right; eexists _, s; splitr; exact Hs|].
    destruct (n =? 0); [injection H as <- <-; right; eexists _, s; splitr; exact Hs|].
    destruct (rd n t) as [r1 t1] eqn:E1. destruct (Hr n _ _ _ _ Hs E1) as [Hx|(r & s1 & H1 & H2 & H3)]; [destruct r1 as [|[]| |]; try contradiction Hx; try discriminate Hx; injection H as <- <-; left; exact Hx|].
    rewrite H1. apply rr_eq in H2. subst r. destruct r1 as [[|x l]|[]| |]; try (injection H as <- <-; right; eexists _, s1; splitr; exact H3); eapply IH; eauto.
  Qed.
  Lemma ag_read_upto B rd n : (forall n, agr B eq (rd n) (rd n)) -> agr B eq (read_upto sch rd n) (read_upto sch rd n).
  Proof.
    intros Hr s t r' t' Hs H. unfold read_upto in *. rewrite (R_sch _ _ _ Hs) in H. revert H. generalize (2 + List.length (sch s))%nat as fuel.
    generalize (@nil N) as acc. intros acc fuel. revert acc n s t Hs.
    induction fuel as [|f IH]; intros acc n s t Hs H; cbn [read_upto_loop] in *; [injection H as <- <-; right; eexists _, s; splitr; exact Hs|].
    destruct (n =? 0); [injection H as <- <-; right; eexists _, s; splitr; exact Hs|].
    destruct (rd n t) as [r1 t1] eqn:E1. destruct (Hr n _ _ _ _ Hs E1) as [Hx|(r & s1 & H1 & H2 & H3)]; [destruct r1 as [|[]| |]; try contradiction Hx; try discriminate Hx; injection H as <- <-; left; exact Hx|].
    rewrite H1. apply rr_eq in H2. subst r. destruct r1 as [[|x l]|[]| |]; try (injection H as <- <-; right; eexists _, s1; splitr; exact H3); eapply IH; eauto.
  Qed.
  Lemma ag_write_all B w bs : (forall bs, agr B eq (w bs) (w bs)) -> agr B eq (write_all sch w bs) (write_all sch w bs).
  Proof.
    intros Hr s t r' t' Hs H. unfold write_all in *. rewrite (R_sch _ _ _ Hs) in H. revert H. generalize (2 + List.length (sch s))%nat as fuel.
    intros fuel. revert bs s t Hs.
    induction fuel as [|f IH]; intros bs s t Hs H; cbn [write_all_loop] in *; [injection H as <- <-; right; eexists _, s; splitr; exact Hs|].
    destruct bs as [|x l]; [injection H as <- <-; right; eexists _, s; splitr; exact Hs|].
    destruct (w (x :: l) t) as [r1 t1] eqn:E1. destruct (Hr _ _ _ _ _ Hs E1) as [Hx|(r & s1 & H1 & H2 & H3)]; [destruct r1 as [|[]| |]; try contradiction Hx; try discriminate Hx; injection H as <- <-; left; exact Hx|].
    rewrite H1. apply rr_eq in H2. subst r. destruct r1 as [n|[]| |]; try (injection H as <- <-; right; eexists _, s1; splitr; exact H3); [|eapply IH; eauto].
    destruct (n =? 0); [injection H as <- <-; right; eexists _, s1; splitr; exact H3|]. eapply IH; eauto.
  Qed.
  Lemma ag_decode rb : ag rb -> ag (decode_u64 rb).
  Proof.
    intros Hb B. unfold decode_u64. generalize 258%nat as fuel; intros fuel.
    generalize 0 at 1 3 as acc. generalize 0 as sh. revert fuel.
    induction fuel as [|fuel IH]; intros sh acc; cbn [decode_loop]; [apply ag_fuel|].
    apply ag_bind; [apply Hb|]. intros b. apply ag_if; [apply ag_fail|].
    cbv zeta. apply ag_if; [apply ag_ret|]. apply ag_if; [apply ag_fail|apply IH].
  Qed.
  (** ** Every operation of a stream *)
  Ltac rmod := let s0 := fresh in let t0 := fresh in intros s0 t0 ((be & ds & -> & Hb) & Hc);
    split; [exists be, ds; split; [reflexivity|exact Hb]|exact Hc].
  Ltac agmod := apply ag_mod; rmod.
  Ltac ag1 := first [apply ag_ret | apply ag_fail | apply ag_panic | apply ag_fuel | apply ag_check | apply ag_dev | agmod].

  Lemma ag_t_read g n : ag (t_read g n).
  Proof.
    intros B. unfold t_read. apply ag_if; [ag1|]. apply ag_bind; [ag1|intros u1]. apply ag_bind; [ag1|intros bs].
    apply ag_bind; [apply ag_mod; intros s t; apply R_move|intros u2]. destruct bs; [apply ag_if|]; ag1.
  Qed.
  Lemma ag_t_write bs : ag (t_write bs).
  Proof.
    intros B. unfold t_write. destruct bs; [ag1|]. apply ag_bind; [ag1|intros u1]. apply ag_bind; [ag1|intros n'].
    apply ag_bind; [apply ag_mod; intros s t; apply R_move|intros u2]. ag1.
  Qed.
  Lemma ag_read_byte g : ag (s_read_byte g).
  Proof.
    apply ag_lift. intros B. apply ag_bind; [apply ag_read_exact; intros; apply ag_t_read|]. intros [|b l]; ag1.
  Qed.
  Lemma ag_sdecode : ag s_decode_u64.
  Proof. apply ag_decode, ag_read_byte. Qed.
  Lemma ag_discard n : ag (skip_by_discard n).
  Proof. apply ag_lift. intros B. apply ag_bind; [apply ag_read_upto; intros; apply ag_t_read|]. intros; ag1. Qed.
  Lemma ag_seek_direct n : ag (skip_by_seek_direct n).
  Proof.
    intros B. apply ag_bind; [apply ag_lift, ag_check|]. intros u1 s t r' t' HR H.
    destruct (on_dev (dev_seek (SkCur (Z.of_N n))) s) as [r1 s1] eqn:E1.
    assert (H2 : exists t1, on_dev (dev_seek (SkCur (Z.of_N n))) t = (r1, t1) /\ R B s1 t1).
    { unfold on_dev in *. rewrite (R_dev _ _ _ HR). destruct (dev_seek _ (s_dev s)) as [r0 d]. injection E1 as <- <-. eexists. split; [reflexivity|]. now apply R_set_dev. }
    destruct H2 as (t1 & H2 & H3). rewrite H2 in H. destruct r1; [|exact (ag_discard n B _ _ _ _ H3 H)| |]; injection H as <- <-; right; eexists _, _;
      (split; [reflexivity|]); (split; [cbn; auto|]); [now apply R_move|exact H3|exact H3].
  Qed.
  Lemma ag_seek_rec f : forall n, ag (skip_by_seek_rec f n).
  Proof.
    induction f as [|f IH]; intros n B; cbn [skip_by_seek_rec]; [ag1|]. apply ag_if; [|apply ag_seek_direct].
    apply ag_bind; [apply IH|intros a]. apply ag_if; [ag1|]. apply ag_bind; [apply IH|intros b]. ag1.
  Qed.
  Lemma ag_skip_blob : agr true eq skip_blob skip_blob.
  Proof.
    unfold skip_blob. intros s t r' t' HR. rewrite (R_pos _ _ _ HR), (R_end _ _ HR).
    replace (s_pos s + k <? s_blob_end s + k) with (s_pos s <? s_blob_end s) by (destruct (N.ltb_spec (s_pos s) (s_blob_end s)), (N.ltb_spec (s_pos s + k) (s_blob_end s + k)); lia || reflexivity).
    replace (s_blob_end s + k - (s_pos s + k)) with (s_blob_end s - s_pos s) by lia.
    assert (Hsk : s_seek t = s_seek s) by (destruct HR as ((? & ? & -> & _) & _); reflexivity). rewrite Hsk.
    destruct (s_pos s <? s_blob_end s).
    - cbv zeta. generalize (s_blob_end s - s_pos s) as n. intros n H.
      assert (X : agr true eq (let* skipped := (if s_seek s then skip_by_seek n else skip_by_discard n) in
         if skipped <? n then mfail (STruncatedBlob (n - skipped)) else mret tt) (let* skipped := (if s_seek s then skip_by_seek n else skip_by_discard n) in
         if skipped <? n then mfail (STruncatedBlob (n - skipped)) else mret tt)).
      { apply ag_bind; [apply ag_if; [apply ag_seek_rec|apply ag_discard]|]. intros a. apply ag_if; ag1. }
      exact (X _ _ _ _ HR H).
    - intros H. injection H as <- <-. right. exists (ROk tt), s. split; [reflexivity|]. split; [reflexivity|exact HR].
  Qed.
  Lemma ag_check_end : agr true eq check_at_end_of_blob check_at_end_of_blob.
  Proof.
    unfold check_at_end_of_blob. intros s t r' t' HR. rewrite (R_pos _ _ _ HR), (R_end _ _ HR), (R_dbg _ _ _ HR), sub_disp.
    replace (s_pos s + k =? s_blob_end s + k) with (s_pos s =? s_blob_end s) by (destruct (N.eqb_spec (s_pos s) (s_blob_end s)), (N.eqb_spec (s_pos s + k) (s_blob_end s + k)); lia || reflexivity).
    destruct (_ =? _); [|destruct (u64_sub _ _ _)]; intros H; injection H as <- <-; right; eexists _, s; (split; [reflexivity|]); (split; [cbn; auto|exact HR]).
  Qed.
  Lemma ag_commit : ag commit.
  Proof.
    intros B s t r' t' HR. unfold commit.
    assert (Hcm : s_commit t = s_commit s) by (destruct HR as ((? & ? & -> & _) & _); reflexivity). rewrite Hcm.
    destruct (s_commit s) as [f|] eqn:Ec; [|intros H; injection H as <- <-; right; exists (ROk tt), s; split; [reflexivity|]; split; [reflexivity|exact HR]].
    intros H. assert (HR1 : R true s t).
    { destruct HR as ((be & ds & -> & Hb) & Hc). split; [|exact Hc]. exists be, ds. split; [reflexivity|]. intros _. apply Hb. right. rewrite Ec. discriminate. }
    assert (X : agr true eq (match f with CSkipBlob => skip_blob | CCheckEnd => check_at_end_of_blob | CFinishDyn => finish_dynamic_blob end)
                         (match f with CSkipBlob => skip_blob | CCheckEnd => check_at_end_of_blob | CFinishDyn => finish_dynamic_blob end)).
    { destruct f; [apply ag_skip_blob|apply ag_check_end|]. exfalso. destruct HR as (_ & Hc). rewrite Ec in Hc. now apply Hc. }
    assert (Y : agr true eq (match f with CSkipBlob => skip_blob | CCheckEnd => check_at_end_of_blob | CFinishDyn => finish_dynamic_blob end ;; mmod (set_commit None))
       (match f with CSkipBlob => skip_blob | CCheckEnd => check_at_end_of_blob | CFinishDyn => finish_dynamic_blob end ;; mmod (set_commit None))).
    { apply ag_bind; [exact X|intros u]. apply ag_mod. intros s0 t0 ((be & ds & -> & Hb) & Hc).
      split; [exists be, ds; split; [reflexivity|intros _; apply Hb; now left]|discriminate]. }
    destruct (Y _ _ _ _ HR1 H) as [Hx|(r & s' & H1 & H2 & H3)]; [now left|right]. exists r, s'. split; [exact H1|]. split; [exact H2|].
    destruct B; [exact H3|]. apply (R_weak false true); [discriminate|exact H3].
  Qed.
  Lemma ag_opened (len : N) c : c = CSkipBlob \/ c = CCheckEnd -> forall B, agr (E := serr) B eq
    (mmod (fun s => set_blob_end (s_pos s + len) s) ;; mmod (set_commit (Some c)) ;; mret len)
    (mmod (fun s => set_blob_end (s_pos s + len) s) ;; mmod (set_commit (Some c)) ;; mret len).
  Proof.
    intros Hcc B s t r' t' ((be & ds & -> & Hb) & Hc) H. unfold mbind, mmod, mret in *. injection H as <- <-. right. eexists _, _. split; [reflexivity|].
    split; [reflexivity|]. split; [|scbn; destruct Hcc; subst; discriminate]. eexists _, ds. split; [reflexivity|]. intros _. scbn. lia.
  Qed.
  Lemma ag_next_blob : ag next_blob.
  Proof.
    intros B. apply ag_bind; [apply ag_sdecode|intros len]. apply ag_bind; [apply ag_lift, ag_check|intros a1].
    apply ag_opened; auto.
  Qed.
  Lemma ag_incr : ag incr_depth.
  Proof.
    intros B s t r' t' ((be & ds & -> & Hb) & Hc). unfold incr_depth. scbn.
    destruct (u64_add _ (s_depth s) 1); intros H; injection H as <- <-; right; eexists _, _; (split; [reflexivity|]);
      (split; [cbn; auto|]); (split; [exists be, ds; split; [reflexivity|exact Hb]|exact Hc]).
  Qed.
  Lemma ag_next_value t : ag (next_value t).
  Proof.
    intros B. destruct t; cbn [next_value]; apply ag_bind;
      try first [apply ag_sdecode | apply ag_next_blob | apply ag_incr]; intros n; try ag1.
    apply ag_bind; [apply ag_incr|intros a]. ag1.
  Qed.
  Definition dispE (e e' : element) : Prop := e' = disp_elem k e.
  Lemma ag_step B b u : agr B (sumr dispE) (next_element_step b u) (next_element_step b u).
  Proof.
    unfold next_element_step. apply ag_get. intros s0 t0 HR0. rewrite (R_pos _ _ _ HR0).
    assert (Hg : s_graceful t0 = s_graceful s0) by (destruct HR0 as ((? & ? & -> & _) & _); reflexivity). rewrite Hg.
    apply ag_bind; [apply ag_read_byte|intros x]. destruct (parse_desc x) as [[ty tag|[]]|].
    - apply ag_bind.
      { apply ag_mod. intros s t ((be & ds & -> & Hb) & Hc). scbn. destruct (_ =? _); (split; [exists be, ds; split; [reflexivity|exact Hb]|exact Hc]). }
      intros a1. apply ag_get. intros s1 t1 HR1.
      assert (Hd : s_depth t1 = s_depth s1) by (destruct HR1 as ((? & ? & -> & _) & _); reflexivity). rewrite Hd.
      apply ag_bind; [apply ag_next_value|intros v]. apply ag_ret2. reflexivity.
    - apply ag_bind.
      { apply ag_mod. intros s t ((be & ds & -> & Hb) & Hc). scbn. destruct (_ <? _); (split; [exists be, ds; split; [reflexivity|exact Hb]|exact Hc]). }
      intros a1. apply ag_ret2. reflexivity.
    - apply ag_bind; [agmod|intros a1]. apply ag_bind; [agmod|intros a2]. apply ag_ret2. reflexivity.
    - apply ag_bind; [apply ag_next_blob|intros len]. apply ag_ret2. reflexivity.
    - apply ag_if; apply ag_ret2; reflexivity.
    - apply ag_panic2.
  Qed.
  Lemma ag_impl B b : agr B dispE (next_element_impl b) (next_element_impl b).
  Proof.
    intros s t r' t' HR. unfold next_element_impl.
    assert (He : s_eof t = s_eof s) by (destruct HR as ((? & ? & -> & _) & _); reflexivity). rewrite He.
    destruct (s_eof s); [intros H; injection H as <- <-; right; exists (ROk ElEndOfDoc), s; split; [reflexivity|]; split; [reflexivity|exact HR]|].
    revert HR. revert s t r' t' He. intros s t r' t' _ HR H.
    assert (X : agr B dispE (commit ;; mloop (next_element_step b) tt) (commit ;; mloop (next_element_step b) tt)).
    { apply ag_bind; [apply ag_commit|intros a1]. apply ag_mloop. intros. apply ag_step. }
    exact (X _ _ _ _ HR H).
  Qed.
  (** ** Blobs *)
  Lemma ag_remaining {E} {XE : full E} : agr (E := E) true eq b_remaining b_remaining.
  Proof. apply ag_pure. intros s t HR. right. rewrite (R_pos _ _ _ HR), (R_end _ _ HR), (R_dbg _ _ _ HR), sub_disp. apply rr_refl. Qed.
  Lemma ag_b_read n : agr true eq (b_read n) (b_read n).
  Proof. apply ag_bind; [apply ag_remaining|intros a]. apply ag_if; [ag1|apply ag_t_read]. Qed.
  Lemma ag_b_read_exact n : agr true eq (b_read_exact n) (b_read_exact n).
  Proof. apply ag_read_exact, ag_b_read. Qed.
  Lemma ag_read_fully n : agr true eq (b_read_fully n) (b_read_fully n).
  Proof. apply ag_bind; [apply ag_remaining|intros a]. apply ag_if; [ag1|]. apply ag_lift2, ag_read_upto, ag_b_read. Qed.
  Lemma ag_read_trunc n : agr true eq (b_read_or_trunc n) (b_read_or_trunc n).
  Proof. apply ag_lift2, ag_read_upto, ag_b_read. Qed.
  Lemma ag_as_slice {E} {XE : full E} : ag (E := E) as_slice.
  Proof.
    intros B s t r' t' HR. unfold as_slice. rewrite (R_dev _ _ _ HR).
    destruct (_ <? _); intros H; injection H as <- <-; right; eexists _, s; (split; [reflexivity|]); (split; [cbn; auto|exact HR]).
  Qed.
  Lemma ag_b_slice : agr true eq b_slice b_slice.
  Proof. apply ag_bind; [apply ag_remaining|intros a]. apply ag_bind; [apply ag_as_slice|intros b]. apply ag_if; ag1. Qed.
  Lemma ag_slice_mut new : agr true eq (b_slice_mut_set new) (b_slice_mut_set new).
  Proof.
    apply ag_bind; [apply ag_b_slice|intros a]. apply ag_if; [|ag1]. apply ag_mod. intros s t HR. cbv zeta.
    rewrite (R_dev _ _ _ HR). now apply R_set_dev.
  Qed.
  Lemma ag_ext : agr true eq b_ext_slice b_ext_slice.
  Proof. apply ag_bind; [apply ag_as_slice|intros a]. apply ag_bind; [apply ag_remaining|intros b]. apply ag_if; ag1. Qed.
  Lemma ag_fill : agr true eq b_fill_buf b_fill_buf.
  Proof. apply ag_bind; [apply ag_remaining|intros a]. apply ag_bind; [ag1|intros b]. apply ag_bind; [ag1|intros c]. ag1. Qed.
  Lemma ag_b_write bs : agr true eq (b_write bs) (b_write bs).
  Proof. apply ag_bind; [apply ag_remaining|intros a]. apply ag_t_write. Qed.
  Lemma ag_b_write_all bs : agr true eq (b_write_all bs) (b_write_all bs).
  Proof. apply ag_write_all, ag_b_write. Qed.

  Lemma target_val len w s : inblob len s -> b_seek_target len w s =
    (match w with
     | SkStart p => if p <=? len then ROk (s_blob_end s - len + p) else RErr IoInvalidInput
     | SkEnd off => if (off <=? 0)%Z then match i64_neg (s_dbg s) off with
                      | ROk o => if o <=? len then ROk (s_blob_end s - len + (len - o)) else RErr IoInvalidInput
                      | x => x end else RErr IoInvalidInput
     | SkCur off => if (off <? 0)%Z then match i64_neg (s_dbg s) off with
                      | ROk o => if o <=? len - (s_blob_end s - s_pos s) then ROk (s_pos s - o) else RErr IoInvalidInput
                      | x => x end
                    else if Z.to_N off <=? s_blob_end s - s_pos s then ROk (s_pos s + Z.to_N off) else RErr IoInvalidInput
     end, s).
  Proof.
    intros (H1 & H2 & H3). unfold b_seek_target. destruct w as [p|off|off].
    - destruct (N.leb_spec p len); [|reflexivity]. unfold mbind, b_start_pos. rewrite u64_sub_ok by lia. rewrite u64_add_ok by (unfold U64_MAX, U64_MOD in *; lia). reflexivity.
    - destruct (off <=? 0)%Z; [|reflexivity]. unfold mbind, mres. destruct (i64_neg (s_dbg s) off) as [o|e| |]; try reflexivity.
      destruct (N.leb_spec o len); [|reflexivity]. unfold b_start_pos. rewrite u64_sub_ok by lia. rewrite u64_add_ok by (unfold U64_MAX, U64_MOD in *; lia). reflexivity.
    - destruct (off <? 0)%Z.
      + unfold mbind, mres. destruct (i64_neg (s_dbg s) off) as [o|e| |]; try reflexivity.
        unfold b_inner_pos, mbind, b_remaining. rewrite u64_sub_ok by lia. rewrite u64_sub_ok by lia.
        destruct (N.leb_spec o (len - (s_blob_end s - s_pos s))); [|reflexivity]. rewrite u64_sub_ok by lia. reflexivity.
      + unfold mbind, b_remaining. rewrite u64_sub_ok by lia. destruct (N.leb_spec (Z.to_N off) (s_blob_end s - s_pos s)); [|reflexivity].
        rewrite u64_add_ok by (unfold U64_MAX, U64_MOD in *; lia). reflexivity.
  Qed.
  Lemma ag_inner_pos {E} {XE : full E} len : agr (E := E) true eq (b_inner_pos len) (b_inner_pos len).
  Proof.
    apply ag_bind; [apply ag_remaining|intros a]. apply ag_pure. intros s t HR. right. rewrite (R_dbg _ _ _ HR). apply rr_refl.
  Qed.
  Lemma ag_b_seek len w s t r' t' : R true s t -> inblob len s -> inblob len t -> b_seek len w t = (r', t') ->
    esc r' \/ exists r s', b_seek len w s = (r, s') /\ rr eq r r' /\ R true s' t'.
  Proof.
    intros HR Hs Ht. unfold b_seek. intros H. unfold mbind at 1 in H. unfold mbind at 1. rewrite (target_val _ _ _ Ht) in H. rewrite (target_val _ _ _ Hs). revert H.
    rewrite (R_pos _ _ _ HR), (R_end _ _ HR), (R_dbg _ _ _ HR).
    assert (Hk : forall p, agr true eq ((fun s => if p <? s_pos s then
              let displacement := s_pos s - p in
              if I64_MAX <? displacement then (RErr IoOther, s)
              else (on_dev (dev_seek (SkCur (- Z.of_N displacement))) ;; mmod (fun s => set_pos_ (s_pos s - displacement) s)) s
            else let displacement := p - s_pos s in
              if I64_MAX <? displacement then (RErr IoOther, s)
              else (on_dev (dev_seek (SkCur (Z.of_N displacement))) ;; mmod (fun s => set_pos_ (s_pos s + displacement) s)) s) ;; b_inner_pos len)
          ((fun s => if p + k <? s_pos s then
              let displacement := s_pos s - (p + k) in
              if I64_MAX <? displacement then (RErr IoOther, s)
              else (on_dev (dev_seek (SkCur (- Z.of_N displacement))) ;; mmod (fun s => set_pos_ (s_pos s - displacement) s)) s
            else let displacement := p + k - s_pos s in
              if I64_MAX <? displacement then (RErr IoOther, s)
              else (on_dev (dev_seek (SkCur (Z.of_N displacement))) ;; mmod (fun s => set_pos_ (s_pos s + displacement) s)) s) ;; b_inner_pos len)).
    { intros p. apply ag_bind; [|intros u; apply ag_inner_pos]. clear.
      intros s t r' t' HR. rewrite (R_pos _ _ _ HR).
      replace (p + k <? s_pos s + k) with (p <? s_pos s) by (destruct (N.ltb_spec p (s_pos s)), (N.ltb_spec (p + k) (s_pos s + k)); lia || reflexivity).
      replace (s_pos s + k - (p + k)) with (s_pos s - p) by lia. replace (p + k - (s_pos s + k)) with (p - s_pos s) by lia. cbv zeta.
      destruct (N.ltb_spec p (s_pos s)).
      - destruct (_ <? _); [intros X; injection X as <- <-; left; reflexivity|]. intros X.
        unfold mbind, on_dev, mmod in X |- *. rewrite (R_dev _ _ _ HR) in X. destruct (dev_seek _ (s_dev s)) as [r1 d]. destruct r1;
          injection X as <- <-; right; eexists _, _; (split; [reflexivity|]); (split; [cbn; auto|]);
          [apply (R_back true (set_dev d s) (set_dev d t)); [scbn; lia|]| | |]; now apply R_set_dev.
      - destruct (_ <? _); [intros X; injection X as <- <-; left; reflexivity|]. intros X.
        unfold mbind, on_dev, mmod in X |- *. rewrite (R_dev _ _ _ HR) in X. destruct (dev_seek _ (s_dev s)) as [r1 d]. destruct r1;
          injection X as <- <-; right; eexists _, _; (split; [reflexivity|]); (split; [cbn; auto|]);
          [apply (R_move true (set_dev d s) (set_dev d t))| | |]; now apply R_set_dev. }
    assert (Hd : forall p p', p' = p + k -> forall r' t',
        ((fun s => if p' <? s_pos s then
              let displacement := s_pos s - p' in
              if I64_MAX <? displacement then (RErr IoOther, s)
              else (on_dev (dev_seek (SkCur (- Z.of_N displacement))) ;; mmod (fun s => set_pos_ (s_pos s - displacement) s)) s
            else let displacement := p' - s_pos s in
              if I64_MAX <? displacement then (RErr IoOther, s)
              else (on_dev (dev_seek (SkCur (Z.of_N displacement))) ;; mmod (fun s => set_pos_ (s_pos s + displacement) s)) s) ;; b_inner_pos len) t = (r', t') ->
        esc r' \/ exists r s', ((fun s => if p <? s_pos s then
              let displacement := s_pos s - p in
              if I64_MAX <? displacement then (RErr IoOther, s)
              else (on_dev (dev_seek (SkCur (- Z.of_N displacement))) ;; mmod (fun s => set_pos_ (s_pos s - displacement) s)) s
            else let displacement := p - s_pos s in
              if I64_MAX <? displacement then (RErr IoOther, s)
              else (on_dev (dev_seek (SkCur (Z.of_N displacement))) ;; mmod (fun s => set_pos_ (s_pos s + displacement) s)) s) ;; b_inner_pos len) s = (r, s') /\ rr eq r r' /\ R true s' t').
    { intros p p' -> r1 t1 X. exact (Hk p _ _ _ _ HR X). }
    assert (Hf : forall x : iokind, (RErr x, t) = (r', t') -> esc r' \/ exists r s', (@RErr iokind N x, s) = (r, s') /\ rr eq r r' /\ R true s' t').
    { intros x X. injection X as <- <-. right. eexists _, s. split; [reflexivity|]. split; [reflexivity|exact HR]. }
    destruct Hs as (S1 & S2 & S3). destruct Ht as (T1 & T2 & T3). rewrite (R_pos _ _ _ HR), (R_end _ _ HR) in *.
    replace (s_blob_end s + k - (s_pos s + k)) with (s_blob_end s - s_pos s) by lia.
    destruct w as [p|off|off].
    - destruct (_ <=? _); [apply Hd; lia|apply Hf].
    - destruct (off <=? 0)%Z; [|apply Hf]. destruct (i64_neg (s_dbg s) off) as [o|e| |]; [|apply Hf| |].
      + destruct (_ <=? _); [apply Hd; lia|apply Hf].
      + intros X; injection X as <- <-; right; eexists _, s; split; [reflexivity|]; split; [exact I|exact HR].
      + intros X; injection X as <- <-; right; eexists _, s; split; [reflexivity|]; split; [exact I|exact HR].
    - destruct (off <? 0)%Z.
      + destruct (i64_neg (s_dbg s) off) as [o|e| |]; [|apply Hf| |].
        * destruct (N.leb_spec o (len - (s_blob_end s - s_pos s))); [apply Hd; lia|apply Hf].
        * intros X; injection X as <- <-; right; eexists _, s; split; [reflexivity|]; split; [exact I|exact HR].
        * intros X; injection X as <- <-; right; eexists _, s; split; [reflexivity|]; split; [exact I|exact HR].
      + destruct (_ <=? _); [apply Hd; lia|apply Hf].
  Qed.
  Definition dispB (v v' : bval) : Prop := v' = disp_bval k v.
  Lemma ag_eqB {A} (m m' : SM A) (f : A -> bval) : (forall a, disp_bval k (f a) = f a) -> agr true eq m m' -> agr true dispB (let* b := m in mret (f b)) (let* b := m' in mret (f b)).
  Proof. intros Hf Hm. apply ag_bind; [exact Hm|intros a]. apply ag_ret2. unfold dispB. now rewrite Hf. Qed.
  Lemma ag_bop len o s t r' t' : R true s t -> inblob len s -> inblob len t -> bop_run len o t = (r', t') ->
    esc r' \/ exists r s', bop_run len o s = (r, s') /\ rr dispB r r' /\ R true s' t'.
  Proof.
    intros HR Hs Ht. destruct o; cbn [bop_run]; intros H.
    - exact (ag_eqB _ _ BBytes (fun _ => eq_refl) (ag_lift2 _ _ _ _ (ag_b_read n)) _ _ _ _ HR H).
    - exact (ag_eqB _ _ BBytes (fun _ => eq_refl) (ag_lift2 _ _ _ _ (ag_b_read_exact n)) _ _ _ _ HR H).
    - exact (ag_eqB _ _ BBytes (fun _ => eq_refl) (ag_read_fully max) _ _ _ _ HR H).
    - exact (ag_eqB _ _ BBytes (fun _ => eq_refl) (ag_read_trunc max) _ _ _ _ HR H).
    - unfold mbind at 1 in H. unfold mbind at 1. destruct (lift_io b_fill_buf t) as [r1 t1] eqn:E1.
      destruct (ag_lift2 _ _ _ _ ag_fill _ _ _ _ HR E1) as [Hx|(r & s1 & H1 & H2 & H3)]; [destruct r1; try contradiction Hx; injection H as <- <-; left; exact Hx|].
      rewrite H1. apply rr_eq in H2. subst r. destruct r1 as [b|e| |]; try (injection H as <- <-; right; eexists _, s1; split; [reflexivity|]; split; [cbn; auto|exact H3]).
      assert (Hb : s_pos t1 = s_pos t /\ s_blob_end t1 = s_blob_end t /\ lenN b <= s_blob_end t - s_pos t).
      { destruct Ht as (T1 & T2 & T3). unfold lift_io, b_fill_buf, mbind, b_remaining in E1. rewrite u64_sub_ok in E1 by lia.
        unfold on_dev, check_advance_pos, mret in E1. destruct (dev_fill_buf (s_dev t)) as [[buf|x| |] d]; try discriminate.
        destruct (_ <? _); [discriminate|]. injection E1 as <- <-. scbn. split; [reflexivity|]. split; [reflexivity|]. rewrite lenN_takeN. lia. }
      destruct Hb as (Hb1 & Hb2 & Hb3).
      unfold mbind, lift_io, b_consume, mbind, b_remaining in H |- *.
      destruct Ht as (T1 & T2 & T3). destruct Hs as (S1 & S2 & S3).
      assert (P1 := R_pos _ _ _ H3). assert (P2 := R_end _ _ H3). assert (P3 := R_pos _ _ _ HR). assert (P4 := R_end _ _ HR).
      rewrite u64_sub_ok in H by lia. rewrite u64_sub_ok by lia. rewrite (R_dbg _ _ _ H3), (R_dev _ _ _ H3) in H.
      replace (s_blob_end t1 - s_pos t1) with (s_blob_end s1 - s_pos s1) in H by lia.
      destruct (s_dbg s1 && _); [injection H as <- <-; right; eexists _, s1; split; [reflexivity|]; split; [exact I|exact H3]|].
      cbv zeta in *. rewrite u64_add_ok in H by (unfold U64_MAX, U64_MOD in *; lia). rewrite u64_add_ok by (unfold U64_MAX, U64_MOD in *; lia).
      unfold mret in *. injection H as <- <-. right. eexists _, _. split; [reflexivity|]. split; [reflexivity|].
      exact (R_move true _ _ (N.min n (lenN b)) (R_set_dev _ _ _ _ H3)).
    - exact (ag_eqB _ _ BBytes (fun _ => eq_refl) ag_b_slice _ _ _ _ HR H).
    - exact (ag_eqB _ _ BNum (fun _ => eq_refl) (ag_lift2 _ _ _ _ (ag_b_write bs)) _ _ _ _ HR H).
    - exact (ag_eqB _ _ (fun _ => BUnit) (fun _ => eq_refl) (ag_lift2 _ _ _ _ (ag_b_write_all bs)) _ _ _ _ HR H).
    - exact (ag_eqB _ _ (fun _ => BUnit) (fun _ => eq_refl) (ag_slice_mut new) _ _ _ _ HR H).
    - unfold mbind, lift_io in H |- *. destruct (b_seek len w t) as [r1 t1] eqn:E1.
      destruct (ag_b_seek _ _ _ _ _ _ HR Hs Ht E1) as [Hx|(r & s1 & H1 & H2 & H3)]; [destruct r1; try contradiction Hx; injection H as <- <-; left; exact (f_equal SIo Hx)|].
      rewrite H1. apply rr_eq in H2. subst r. unfold mret in *. destruct r1; injection H as <- <-; right; eexists _, s1; (split; [reflexivity|]); (split; [cbn; auto; reflexivity|exact H3]).
    - destruct Ht as (T1 & T2 & T3). destruct Hs as (S1 & S2 & S3).
      unfold mbind, b_remaining, b_start_pos, b_inner_pos, mbind, b_remaining, mget, mret in H |- *.
      assert (P1 := R_pos _ _ _ HR). assert (P2 := R_end _ _ HR).
      rewrite !u64_sub_ok in H by lia. rewrite !u64_sub_ok by lia. injection H as <- <-. right. eexists _, s. split; [reflexivity|]. split; [|exact HR].
      cbn. unfold dispB, b_end_pos, b_stream_pos. cbn [disp_bval]. f_equal; lia.
  Qed.
  (** ** Successful calls that return a blob leave its end pending *)
  Definition held {A} (_ : A) (s : stream) : Prop := s_commit s <> None.
  Definition anys (_ : stream) : Prop := True.
  Lemma any_pres {E A} (m : M stream E A) : preserves anys m.
  Proof. intros s r s' _ _. exact I. Qed.
  Lemma h_next_blob : yields anys held next_blob.
  Proof.
    unfold next_blob. apply y_bind; [apply any_pres|intros len]. apply y_bind; [apply any_pres|intros u1].
    intros s x s' _ H. unfold mbind, mmod, mret in H. injection H as <- <-. discriminate.
  Qed.
  Definition el_held (e : element) (s : stream) : Prop :=
    match e with
    | ElField f => match f_val f with HBlob len => held len s | _ => True end
    | ElException len => held len s
    | _ => True
    end.
  Lemma h_impl sp : yields anys el_held (next_element_impl sp).
  Proof.
    intros s x s' HP H. unfold next_element_impl in H. destruct (s_eof s); [injection H as <- <-; exact I|].
    revert HP H. revert s x s'. apply y_bind; [apply any_pres|intros u1].
    apply y_mloop; [intros; apply any_pres|]. intros u. unfold next_element_step.
    apply y_bind; [apply any_pres|intros s0]. apply y_bind; [apply any_pres|intros c].
    destruct (parse_desc c) as [[ty tag|[]]|]; try apply y_panic.
    - apply y_bind; [apply any_pres|intros u2]. apply y_bind; [apply any_pres|intros s1].
      apply (y_bind2 anys (fun v s => match v with HBlob len => held len s | _ => True end)).
      + destruct ty; cbn [next_value].
        * apply y_bind; [apply any_pres|intros d]. apply y_bind; [apply any_pres|intros u3]. apply y_ret. intros; exact I.
        * apply y_bind; [apply any_pres|intros d]. apply y_ret. intros; exact I.
        * apply (y_bind2 anys held); [apply h_next_blob|intros len]. apply y_ret. auto.
        * apply y_bind; [apply any_pres|intros d]. apply y_ret. intros; exact I.
      + intros v. apply y_ret. intros s Hv. cbn. destruct v; auto.
    - apply y_bind; [apply any_pres|intros u2]. apply y_ret. intros; exact I.
    - apply y_bind; [apply any_pres|intros u2]. apply y_bind; [apply any_pres|intros u3]. apply y_ret. intros; exact I.
    - apply (y_bind2 anys held); [apply h_next_blob|intros len]. apply y_ret. auto.
    - destruct sp; apply y_ret; intros; exact I.
  Qed.
  Lemma h_alloc d len : yields anys held (write_desc_with_blob_alloc d len).
  Proof.
    unfold write_desc_with_blob_alloc. apply y_bind; [apply any_pres|intros u1]. destruct (_ <? _); [apply y_fail|].
    do 4 (apply y_bind; [apply any_pres|intros ?]).
    intros s x s' _ H. unfold mbind, mmod, mret in H. injection H as <- <-. discriminate.
  Qed.

  Lemma ag_hold {A C} (m : SM A) (f : A -> SM C) (V : A -> A -> Prop) (W : C -> C -> Prop) (Q : A -> Prop) :
    agr false V m m -> yields anys (fun a s => Q a -> held a s) m ->
    (forall a a', V a a' -> ~ Q a -> agr false W (f a) (f a')) -> (forall a a', V a a' -> Q a -> agr true W (f a) (f a')) ->
    (forall a, Q a \/ ~ Q a) ->
    agr false W (mbind m f) (mbind m f).
  Proof.
    intros Hm Hy Hf Ht Hq s t r' t' HR H. unfold mbind in H |- *. destruct (m t) as [r1 t1] eqn:E1.
    destruct (Hm _ _ _ _ HR E1) as [Hx|(r & s1 & H1 & H2 & H3)]; [destruct r1; try contradiction Hx; injection H as <- <-; left; exact Hx|].
    rewrite H1. destruct r as [a|e| |], r1 as [a'|e'| |]; try contradiction H2;
      try (injection H as <- <-; right; eexists _, s1; split; [reflexivity|split; [exact H2|exact H3]]).
    destruct (Hq a) as [Qa|Qa]; [|exact (Hf a a' H2 Qa _ _ _ _ H3 H)].
    destruct (Ht a a' H2 Qa _ _ _ _ (R_open _ _ H3 (Hy _ _ _ I H1 Qa)) H) as [Hx|(r2 & s2 & K1 & K2 & K3)]; [now left|right].
    exists r2, s2. split; [exact K1|]. split; [exact K2|]. apply (R_weak false true); [discriminate|exact K3].
  Qed.

  (** ** Fields, skipping and writing *)
  Definition dispF (f f' : option field) : Prop := f' = option_map (disp_field k) f.
  Lemma ag_next_field : agr false dispF next_field next_field.
  Proof.
    unfold next_field. apply (ag_hold _ _ dispE dispF (fun e => match e with ElException _ => True | _ => False end)).
    - apply ag_impl.
    - intros s x s' _ H Hq. pose proof (h_impl true _ _ _ I H) as X. destruct x; try contradiction. exact X.
    - intros a a' -> Hq. destruct a; cbn [disp_elem]; try (apply ag_ret2; reflexivity); [destruct (Hq I)|apply ag_panic2].
    - intros a a' -> Hq. destruct a; try contradiction. cbn [disp_elem]. apply ag_bind; [apply ag_read_trunc|intros m]. apply ag_fail2.
    - intros []; auto.
  Qed.
  Lemma ag_skip_up d : ag (skip_up d).
  Proof.
    intros B. unfold skip_up. apply ag_mloop. intros u. apply ag_get. intros s t HR.
    assert (Hd : s_depth t = s_depth s) by (destruct HR as ((? & ? & -> & _) & _); reflexivity). rewrite Hd.
    apply ag_if; [|apply ag_ret2; reflexivity].
    apply (ag_bind2 _ dispE); [apply ag_impl|intros a a' _]. apply ag_ret2. reflexivity.
  Qed.
  Lemma ag_field_skip f B : agr B eq (field_skip f) (field_skip (disp_field k f)).
  Proof. unfold field_skip. cbn [disp_field f_val f_depth]. destruct (f_val f); try apply ag_ret; apply ag_skip_up. Qed.

  Lemma ag_desc d : ag (write_desc d).
  Proof.
    intros B. apply ag_bind; [apply ag_commit|intros a]. intros s t r' t' HR H. rewrite (R_dbg _ _ _ HR) in H.
    assert (X : agr B eq (let* b := mres (desc_byte (s_dbg s) d) in lift_io (write_all sch t_write [b]))
                         (let* b := mres (desc_byte (s_dbg s) d) in lift_io (write_all sch t_write [b]))).
    { apply ag_bind; [apply ag_res|intros b]. apply ag_lift2, ag_write_all. intros; apply ag_t_write. }
    exact (X _ _ _ _ HR H).
  Qed.
  Lemma ag_encode n : ag (s_encode_u64 n).
  Proof. intros B. unfold s_encode_u64. destruct (encode_u64 n); [|apply ag_panic]. apply ag_lift2, ag_write_all. intros; apply ag_t_write. Qed.
  Lemma ag_write_u64 t n : ag (write_u64 t n).
  Proof. intros B. apply ag_bind; [apply ag_desc|intros a]. apply ag_encode. Qed.
  Lemma ag_write_enum t n : ag (write_enum t n).
  Proof. intros B. apply ag_bind; [apply ag_desc|intros a]. apply ag_encode. Qed.
  Lemma desc_grows d s s' : s_commit s = None -> s_pos s <= U64_MAX -> write_desc d s = (ROk tt, s') -> s_pos s' = s_pos s + 1.
  Proof.
    intros Hc Hp E2. unfold write_desc in E2. unfold mbind at 1 in E2. unfold commit in E2. rewrite Hc in E2.
    unfold mbind, mres in E2. destruct (desc_byte (s_dbg s) d) as [b| | |]; try discriminate.
    unfold lift_io in E2. destruct (write_all sch t_write [b] s) as [[[]| | |] s3] eqn:E3; try discriminate.
    injection E2 as <-. apply wall_ok_pos in E3; [exact E3|exact Hp].
  Qed.
  Lemma encode_grows len s s' : s_pos s <= U64_MAX -> s_encode_u64 len s = (ROk tt, s') -> s_pos s' <= s_pos s + 10.
  Proof.
    intros Hp E3. unfold s_encode_u64 in E3. destruct (encode_u64 len) as [bs|] eqn:Eb; [|discriminate].
    unfold lift_io in E3. destruct (write_all sch t_write bs s) as [[[]| | |] s4] eqn:E4; try discriminate.
    injection E3 as <-. apply wall_ok_pos in E4; [|exact Hp].
    assert (lenN bs <= 10); [|lia]. clear -Eb. unfold encode_u64 in Eb.
    assert (Hg : forall f i bs, enc_loop f i = Some bs -> lenN bs <= N.of_nat f).
    { induction f as [|f IH]; intros i bs' Hb; cbn [enc_loop] in Hb; [discriminate|].
      destruct (_ =? _); [injection Hb as <-; change (lenN [N.land i 127]) with 1; lia|].
      destruct (enc_loop f _) as [l|] eqn:El; [|discriminate]. cbn in Hb. injection Hb as <-.
      apply IH in El. rewrite lenN_cons. lia. }
    apply Hg in Eb. exact Eb.
  Qed.
  Lemma ag_alloc d len : ag (write_desc_with_blob_alloc d len).
  Proof.
    intros B s t r' t' HR H. unfold write_desc_with_blob_alloc in H |- *.
    unfold mbind at 1 in H. unfold mbind at 1. destruct (commit t) as [r1 t1] eqn:E1.
    destruct (ag_commit _ _ _ _ _ HR E1) as [Hx|(r & s1 & H1 & H2 & HR1)]; [destruct r1; try contradiction Hx; injection H as <- <-; left; exact Hx|].
    rewrite H1. apply rr_eq in H2. subst r.
    destruct r1 as [[]|e| |]; try (injection H as <- <-; right; eexists _, s1; split; [reflexivity|split; [cbn; auto|exact HR1]]).
    destruct (_ <? _); [injection H as <- <-; right; eexists _, s1; split; [reflexivity|split; [cbn; auto|exact HR1]]|].
    unfold mbind at 1, lift_io at 1, check_advance_pos in H. unfold mbind at 1, lift_io at 1, check_advance_pos.
    rewrite (R_pos _ _ _ HR1) in H.
    destruct (N.ltb_spec (U64_MAX - (s_pos s1 + k)) (len + 11)) as [Hp|Hp]; [injection H as <- <-; left; reflexivity|].
    destruct (N.ltb_spec (U64_MAX - s_pos s1) (len + 11)) as [Hp'|Hp']; [lia|].
    pose proof (commit_none _ _ H1) as Hc1. pose proof (commit_none _ _ E1) as Hc1'.
    assert (Hpt : s_pos t1 = s_pos s1 + k) by exact (R_pos _ _ _ HR1).
    unfold mbind at 1 in H. unfold mbind at 1. destruct (write_desc d t1) as [r2 t2] eqn:E2.
    destruct (ag_desc _ _ _ _ _ _ HR1 E2) as [Hx|(r & s2 & H3 & H4 & HR2)]; [destruct r2; try contradiction Hx; injection H as <- <-; left; exact Hx|].
    rewrite H3. apply rr_eq in H4. subst r.
    destruct r2 as [[]|e| |]; try (injection H as <- <-; right; eexists _, s2; split; [reflexivity|split; [cbn; auto|exact HR2]]).
    assert (G0 : s_pos t1 <= U64_MAX) by lia. pose proof (desc_grows _ _ _ Hc1' G0 E2) as G1.
    unfold mbind at 1 in H. unfold mbind at 1. destruct (s_encode_u64 len t2) as [r3 t3] eqn:E3.
    destruct (ag_encode _ _ _ _ _ _ HR2 E3) as [Hx|(r & s3 & H5 & H6 & HR3)]; [destruct r3; try contradiction Hx; injection H as <- <-; left; exact Hx|].
    rewrite H5. apply rr_eq in H6. subst r.
    destruct r3 as [[]|e| |]; try (injection H as <- <-; right; eexists _, s3; split; [reflexivity|split; [cbn; auto|exact HR3]]).
    assert (G0' : s_pos t2 <= U64_MAX) by lia. pose proof (encode_grows _ _ _ G0' E3) as G2. pose proof (R_pos _ _ _ HR3) as G3.
    unfold mbind at 1 in H. rewrite u64_add_ok in H by (unfold U64_MOD, U64_MAX in *; lia).
    unfold mbind at 1. rewrite u64_add_ok by (unfold U64_MOD, U64_MAX in *; lia).
    unfold mbind, mmod, mret in H |- *. injection H as <- <-. right. eexists _, _. split; [reflexivity|]. split; [reflexivity|].
    destruct HR3 as ((be & ds & -> & Hb) & Hc). split; [|discriminate]. eexists _, ds. split; [reflexivity|]. intros _. scbn. lia.
  Qed.
  Lemma ag_data d bs : agr false eq (let* len := write_desc_with_blob_alloc d (lenN bs) in lift_io (b_write_all bs) ;; mret len)
    (let* len := write_desc_with_blob_alloc d (lenN bs) in lift_io (b_write_all bs) ;; mret len).
  Proof.
    apply (ag_hold _ _ eq eq (fun _ => True)).
    - apply ag_alloc.
    - intros s x s' Hs H _. exact (h_alloc d (lenN bs) _ _ _ Hs H).
    - intros a a' _ X. destruct (X I).
    - intros a a' <- _. apply ag_bind; [apply ag_lift2, ag_b_write_all|intros u]. apply ag_ret.
    - auto.
  Qed.
  Lemma ag_pad n : k mod 2 ^ n = 0 -> ag (pad_to_align (2 ^ n)).
  Proof.
    intros Hk B s t r' t' HR H. unfold pad_to_align in *. rewrite (R_dbg _ _ _ HR) in H.
    assert (Hp : 1 <= 2 ^ n) by (assert (2 ^ n <> 0) by (apply N.pow_nonzero; discriminate); lia).
    rewrite u64_sub_ok in H by exact Hp. rewrite u64_sub_ok by exact Hp.
    assert (Hm : forall p, N.land p (2 ^ n - 1) = p mod 2 ^ n).
    { intros p. rewrite <- N.land_ones. f_equal. rewrite N.ones_equiv. lia. }
    unfold mbind at 1, mres in H. unfold mbind at 1, mres.
    match type of H with ?m t = _ => assert (X : agr B eq m m) end; [|exact (X _ _ _ _ HR H)]. clear H HR.
    apply ag_bind; [apply ag_if; [apply ag_panic|apply ag_ret]|intros u1]. apply ag_bind; [apply ag_commit|intros u2].
    apply ag_mloop. intros u. apply ag_get. intros s0 t0 HR. rewrite !Hm, (R_pos _ _ _ HR).
    replace ((s_pos s0 + k) mod 2 ^ n) with (s_pos s0 mod 2 ^ n) by (rewrite N.add_mod, Hk, N.add_0_r, N.mod_mod by lia; reflexivity).
    apply ag_if; [apply ag_ret2; reflexivity|]. apply ag_bind; [apply ag_desc|intros u3]. apply ag_ret2. reflexivity.
  Qed.

  Definition dispV (v v' : cval) : Prop := v' = disp_val k v.
  Lemma ag_unit m : ag m -> agr false dispV (ret_unit m) (ret_unit m).
  Proof. intros Hm. apply ag_bind; [apply Hm|intros u]. apply ag_ret2. reflexivity. Qed.
  Lemma ag_len m : agr false eq m m -> agr false dispV (let* n := m in mret (VBlobLen n)) (let* n := m in mret (VBlobLen n)).
  Proof. intros Hm. apply ag_bind; [apply Hm|intros u]. apply ag_ret2. reflexivity. Qed.
  Definition disp_open (o : open) : open := match o with OField f => OField (disp_field k f) | _ => o end.
  Definition is_blob (o : open) : bool := match o with OBlob _ => true | _ => false end.
  Lemma ag_call op c : relative k c -> (forall o, c <> CBlob o) ->
    agr false dispV (call_run op c) (call_run (disp_open op) c).
  Proof.
    intros Hc Hb. destruct c; cbn [call_run]; cbn [relative] in Hc; try contradiction;
      try (apply ag_unit; first [apply ag_skip_up | apply ag_commit | apply ag_write_u64 | apply ag_write_enum | apply ag_desc | intros B; unfold clear_eof, set_graceful_eof, set_struct_depth; clear Hb Hc; agmod]; fail).
    - apply (ag_bind2 _ dispE); [apply ag_impl|intros a a' ->]. apply ag_ret2. reflexivity.
    - apply (ag_bind2 _ dispF); [apply ag_next_field|intros a a' ->]. apply ag_ret2. reflexivity.
    - destruct op; cbn [disp_open]; try (apply ag_ret2; reflexivity). apply ag_bind; [apply ag_field_skip|intros u]. apply ag_ret2. reflexivity.
    - apply ag_len. apply ag_data.
    - apply ag_len. apply ag_alloc.
    - apply ag_len. apply ag_data.
    - apply ag_len. apply ag_alloc.
    - destruct Hc as (n & -> & Hk). apply ag_unit. now apply ag_pad.
    - exfalso. now apply (Hb o).
  Qed.
  Lemma held_write_all bs : preserves (fun s => s_commit s <> None) (lift_io (b_write_all bs)).
  Proof.
    apply pr_lift, pr_write_all. intros w. unfold b_write. apply pr_bind; [apply pr_pure|intros rem]. unfold t_write.
    destruct (takeN rem w); [apply pr_ret|]. apply pr_bind; [apply pr_check|intros u1]. apply pr_bind.
    - intros s r s' Hs H. unfold on_dev in H. destruct (dev_write _ (s_dev s)). injection H as <- <-. exact Hs.
    - intros n'. apply pr_bind; [apply pr_mod; auto|intros u2; apply pr_ret].
  Qed.
  Lemma h_data d bs : yields anys held (let* len := write_desc_with_blob_alloc d (lenN bs) in lift_io (b_write_all bs) ;; mret len).
  Proof.
    apply (y_bind2 anys held); [apply h_alloc|intros len]. apply y_bind; [apply held_write_all|intros u]. apply y_ret. auto.
  Qed.
  Lemma h_call op c s v s' : (forall o, c <> CBlob o) -> call_run op c s = (ROk v, s') -> is_blob (opens op c (ROk v)) = true ->
    s_commit s' <> None \/ c = CWriteExcDyn \/ exists t, c = CWriteBlobDyn t.
  Proof.
    intros Hb H Ho. destruct c; cbn [call_run] in H; try (right; eauto; fail);
      try (unfold ret_unit, mbind in H; match type of H with context [match ?m with _ => _ end] => destruct m as [[u|e| |] s1]; try discriminate end;
           injection H as <- <-; discriminate Ho).
    - left. unfold mbind in H. destruct (next_element s) as [[e|x| |] s1] eqn:E1; try discriminate. injection H as <- <-.
      pose proof (h_impl false _ _ _ I E1) as X. cbn in Ho. destruct e as [f| | |len|]; try discriminate Ho; cbn in X; [destruct (f_val f); try discriminate Ho|]; exact X.
    - left. unfold mbind in H. destruct (next_field s) as [[e|x| |] s1] eqn:E1; try discriminate. injection H as <- <-.
      destruct e as [f|]; [|discriminate Ho]. cbn in Ho. unfold next_field in E1. unfold mbind at 1 in E1.
      destruct (next_element_impl true s) as [[e|x| |] s2] eqn:E2; try discriminate.
      pose proof (h_impl true _ _ _ I E2) as X. destruct e as [f'| | |len|]; try discriminate.
      + injection E1 as <- <-. cbn in X. destruct (f_val f'); try discriminate Ho. exact X.
      + unfold mbind in E1. destruct (b_read_or_trunc 256 s2) as [[]]; discriminate.
    - destruct op; try (injection H as <- <-; discriminate Ho). unfold ret_unit, mbind in H. destruct (field_skip f s) as [[u|e| |] s1]; try discriminate. injection H as <- <-. discriminate Ho.
    - left. unfold mbind in H. destruct (write_blob_data tag bs s) as [[n|x| |] s1] eqn:E1; try discriminate. injection H as <- <-.
      exact (h_data _ bs _ _ _ I E1).
    - left. unfold mbind in H. destruct (write_blob_alloc tag len s) as [[n|x| |] s1] eqn:E1; try discriminate. injection H as <- <-.
      exact (h_alloc _ len _ _ _ I E1).
    - left. unfold mbind in H. destruct (write_exception_data bs s) as [[n|x| |] s1] eqn:E1; try discriminate. injection H as <- <-.
      exact (h_data _ bs _ _ _ I E1).
    - left. unfold mbind in H. destruct (write_exception_alloc len s) as [[n|x| |] s1] eqn:E1; try discriminate. injection H as <- <-.
      exact (h_alloc _ len _ _ _ I E1).
    - exfalso. now apply (Hb o).
  Qed.
  Lemma opens_disp op c r r' : rr dispV r r' -> opens (disp_open op) c r' = disp_open (opens op c r) /\ r' = disp_res k r.
  Proof.
    intros Hr. assert (Hr' : r' = disp_res k r) by (destruct r, r'; cbn in Hr |- *; try contradiction; subst; auto; try now rewrite Hr).
    split; [|exact Hr']. rewrite Hr'. clear.
    destruct c; try reflexivity;
      (destruct r as [[[f| | |l|]|[f|]| | | | |]|e| |]; cbn; try reflexivity; destruct (f_val f); reflexivity).
  Qed.
  Lemma call_disp op c s t r' t' a b a' b' : relative k c -> R (is_blob op) s t -> pinv a b s -> pinv a' b' t -> open_ok op s -> open_ok op t ->
    call_run (disp_open op) c t = (r', t') ->
    r' = RErr (SIo IoOther) \/ exists r s', call_run op c s = (r, s') /\ r' = disp_res k r /\
      opens (disp_open op) c r' = disp_open (opens op c r) /\ R (is_blob (opens op c r)) s' t'.
  Proof.
    intros Hc HR HP HP' Ho Ho' H. assert (Hd : (exists o, c = CBlob o) \/ forall o, c <> CBlob o) by (destruct c; eauto; right; discriminate).
    destruct Hd as [(o & ->)|Hnb].
    - cbn [call_run] in *. destruct op as [|len|f]; cbn [disp_open is_blob] in *.
      + injection H as <- <-. right. eexists _, s. split; [reflexivity|]. split; [reflexivity|]. split; [reflexivity|exact HR].
      + unfold mbind in H |- *. destruct (bop_run len o t) as [r1 t1] eqn:E1.
        destruct (ag_bop _ _ _ _ _ _ HR Ho Ho' E1) as [Hx|(r & s1 & H1 & H2 & H3)]; [left; destruct r1; try contradiction Hx; injection H as <- <-; f_equal; exact Hx|].
        right. rewrite H1. destruct r as [v|e| |], r1 as [v'|e'| |]; try contradiction H2; unfold mret in *; injection H as <- <-;
          eexists _, s1; (split; [reflexivity|]); (split; [cbn in *; first [now rewrite H2|reflexivity]|]); (split; [reflexivity|exact H3]).
      + injection H as <- <-. right. eexists _, s. split; [reflexivity|]. split; [reflexivity|]. split; [reflexivity|exact HR].
    - assert (HR0 : R false s t) by (apply (R_weak _ (is_blob op)); [discriminate|exact HR]).
      destruct (ag_call op c Hc Hnb _ _ _ _ HR0 H) as [Hx|(r & s1 & H1 & H2 & H3)]; [left; destruct r'; try contradiction Hx; f_equal; exact Hx|].
      right. exists r, s1. destruct (opens_disp op c _ _ H2) as [O1 O2]. split; [exact H1|]. split; [exact O2|]. split; [exact O1|].
      destruct (is_blob (opens op c r)) eqn:Eo; [|exact H3].
      apply R_open; [exact H3|]. destruct r as [v|e| |];
        try (exfalso; revert Eo; clear -Hnb; destruct c; cbn; try discriminate; now destruct (Hnb o)).
      destruct (h_call op c s v s1 Hnb H1 Eo) as [X|[->|[tg ->]]]; [exact X|contradiction Hc|contradiction Hc].
  Qed.
  Lemma relative_repos c : relative k c -> ~ repositions c.
  Proof. destruct c; cbn; auto. Qed.
  Lemma hist_disp cs : Forall (relative k) cs -> forall op s t xs' op' t' a b a' b',
    R (is_blob op) s t -> pinv a b s -> pinv a' b' t -> open_ok op s -> open_ok op t ->
    run_calls cs (disp_open op) t = (xs', (op', t')) -> Forall (fun r => r <> RErr (SIo IoOther)) xs' ->
    exists xs o s', run_calls cs op s = (xs, (o, s')) /\ xs' = map (disp_res k) xs /\ op' = disp_open o /\ R (is_blob o) s' t'.
  Proof.
    induction 1 as [|c cs Hc Hcs IH]; intros op s t xs' op' t' a b a' b' HR HP HP' Ho Ho' H Hn; cbn [run_calls] in H |- *.
    - injection H as <- <- <-. exists [], op, s. auto.
    - destruct (call_run (disp_open op) c t) as [r' t1] eqn:E1.
      destruct (run_calls cs (opens (disp_open op) c r') t1) as [ys [o2 t2]] eqn:E2. injection H as <- <- <-. inversion Hn as [|? ? Hx Hn']; subst.
      destruct (call_disp op c s t r' t1 a b a' b' Hc HR HP HP' Ho Ho' E1) as [Hy|(r & s1 & H1 & H2 & H3 & H4)]; [contradiction|].
      rewrite H1. rewrite H3 in E2.
      destruct (call_pos _ _ _ _ _ _ _ (relative_repos _ Hc) HP Ho H1) as [HP1 Ho1].
      assert (Hoo : open_ok (disp_open op) t) by (destruct op; exact Ho').
      destruct (call_pos _ _ _ _ _ _ _ (relative_repos _ Hc) HP' Hoo E1) as [HP1' Ho1']. rewrite H3 in Ho1'.
      assert (Ho2 : open_ok (opens op c r) t1) by (destruct (opens op c r); exact Ho1').
      destruct (IH _ _ _ _ _ _ _ _ _ _ H4 HP1 HP1' Ho1 Ho2 E2 Hn') as (xs & o & s' & K1 & K2 & K3 & K4).
      rewrite K1. exists (r :: xs), o, s'. split; [reflexivity|]. split; [cbn [map]; now rewrite H2, K2|]. auto.
  Qed.
  (** ** Deserialisation *)
  Definition disp_path (p : list (string * N)) : list (string * N) := map (fun '(n, o) => (n, o + k)) p.
  Definition cur_blob (c : option field) : bool :=
    match c with Some f => match f_val f with HBlob _ => true | _ => false end | None => false end.
  Definition XR (st st' : rst stream) : Prop :=
    R (cur_blob (x_cur st)) (x_s st) (x_s st') /\ x_cur st' = option_map (disp_field k) (x_cur st) /\
    x_path st' = disp_path (x_path st) /\ x_coll st' = x_coll st /\ x_blob st' = x_blob st /\ x_over st' = x_over st.
  Definition xagr {A} (m m' : XM stream A) : Prop :=
    forall st st1 a st1', XR st st1 -> m' st1 = (ROk a, st1') -> exists st', m st = (ROk a, st') /\ XR st' st1'.
  Lemma xag_ret {A} (x : A) : xagr (mret x) (mret x).
  Proof. intros st st1 a st1' HR H. injection H as <- <-. exists st. split; [reflexivity|exact HR]. Qed.
  Lemma xag_bind {A C} (m m' : XM stream A) (f f' : A -> XM stream C) :
    xagr m m' -> (forall a, xagr (f a) (f' a)) -> xagr (mbind m f) (mbind m' f').
  Proof.
    intros Hm Hk st st1 a st1' HR H. unfold mbind in H |- *. destruct (m' st1) as [r1 s1] eqn:E1. destruct r1 as [x|e| |]; try discriminate.
    destruct (Hm _ _ _ _ HR E1) as (s2 & H1 & H2). rewrite H1. exact (Hk x _ _ _ _ H2 H).
  Qed.
  Lemma xag_src {A} (m m' : SM A) st st1 a st1' : agr (cur_blob (x_cur st)) eq m m' -> XR st st1 -> on_src_of m' st1 = (ROk a, st1') ->
    exists st', on_src_of m st = (ROk a, st') /\ XR st' st1'.
  Proof.
    intros Hm (H1 & H2) H. unfold on_src_of in *. destruct (m' (x_s st1)) as [r1 t1] eqn:E1. cbv zeta in *.
    destruct r1 as [x|e| |]; try discriminate. injection H as <- <-.
    destruct (Hm _ _ _ _ H1 E1) as [Hx|(r & s1 & K1 & K2 & K3)]; [contradiction Hx|]. rewrite K1.
    destruct r as [x'|e| |]; try contradiction K2. cbn in K2. subst x'. eexists. split; [reflexivity|]. split; [exact K3|exact H2].
  Qed.
  Lemma xag_blob {A} (m : SM A) : agr true eq m m -> xagr (on_blob m) (on_blob m).
  Proof.
    intros Hm st st1 a st1' HX H. unfold on_blob in *. pose proof HX as (H1 & H2 & H3). rewrite H2 in H.
    destruct (x_cur st) as [[tg ps dp [n|l| |d]]|] eqn:Ec; cbn in H; try discriminate.
    eapply xag_src; [|exact HX|exact H]. rewrite Ec. exact Hm.
  Qed.
  Lemma disp_path_len p : lenN (disp_path p) = lenN p.
  Proof. unfold lenN, disp_path. now rewrite map_length. Qed.
  Lemma h_next_field : yields anys (fun f s => cur_blob f = true -> s_commit s <> None) next_field.
  Proof.
    intros s x s' _ H Hq. unfold next_field in H. unfold mbind at 1 in H.
    destruct (next_element_impl true s) as [[e|y| |] s2] eqn:E2; try discriminate.
    pose proof (h_impl true _ _ _ I E2) as X. destruct e as [f'| | |len|]; try discriminate; try (injection H as <- <-; discriminate Hq).
    + injection H as <- <-. cbn in X, Hq. destruct (f_val f'); try discriminate Hq. exact X.
    + unfold mbind in H. destruct (b_read_or_trunc 256 s2) as [[]]; discriminate.
  Qed.
  Lemma xag_op cf {X : Set} (o : op X) : xagr (run_op stream_source cf o) (run_op stream_source cf o).
  Proof.
    destruct o; cbn [run_op stream_source i_next i_skip i_pos i_dbg i_remaining i_read_fully i_read_exact i_ext].
    - intros st st1 a st1' (H1 & H2 & H3) H. unfold mbind at 1 in H. unfold mbind at 1.
      unfold on_src_of in *. destruct (next_field (x_s st1)) as [r1 t1] eqn:E1. cbv zeta in *.
      destruct r1 as [x|e| |]; try discriminate.
      assert (H0 : R false (x_s st) (x_s st1)) by (eapply R_weak; [|exact H1]; discriminate).
      destruct (ag_next_field _ _ _ _ H0 E1) as [Hx|(r & s1 & K1 & K2 & K3)]; [contradiction Hx|]. rewrite K1.
      destruct r as [x'|e| |]; try contradiction K2. cbn in K2. unfold dispF in K2. subst x.
      unfold mbind, mmod, mret in H |- *. injection H as <- <-. eexists. split; [f_equal; f_equal; destruct x'; reflexivity|].
      split; [|split; [reflexivity|exact H3]]. cbn [x_set_s x_set_cur x_s x_cur].
      destruct (cur_blob x') eqn:Eb; [|exact K3]. apply R_open; [exact K3|]. exact (h_next_field _ _ _ I K1 Eb).
    - intros st st1 a st1' HX H. pose proof HX as (H1 & H2 & H3). rewrite H2 in H. destruct (x_cur st) as [f|] eqn:Ec; [|discriminate H].
      eapply xag_src; [|exact HX|exact H]. apply ag_field_skip.
    - intros st st1 a st1' HX H. pose proof HX as (H1 & H2 & H3). rewrite H2 in H. destruct (cf_ignore cf).
      + injection H as <- <-. exists st. split; [reflexivity|exact HX].
      + destruct (x_cur st) as [f|]; discriminate H.
    - intros st st1 a st1' HX H. pose proof HX as (H1 & H2 & H3 & H4). rewrite H2, H3, disp_path_len in H.
      destruct (_ <=? _); [discriminate H|]. rewrite (R_pos _ _ _ H1) in H.
      destruct at_field; [destruct (x_cur st) as [f|] eqn:Ec; [|discriminate H]|]; injection H as <- <-; eexists; (split; [reflexivity|]);
        (split; [cbn [x_set_path x_cur x_s]; try rewrite Ec; exact H1|]); (split; [cbn [x_set_path x_cur]; rewrite ?Ec; rewrite ?Ec in H2; exact H2|]);
        (split; [reflexivity|exact H4]).
    - intros st st1 a st1' HX H. pose proof HX as (H1 & H2 & H3 & H4). unfold mmod in *. injection H as <- <-. eexists. split; [reflexivity|].
      split; [exact H1|]. split; [exact H2|]. split; [|exact H4]. cbn [x_set_path x_path]. rewrite H3. destruct (x_path st); reflexivity.
    - intros st st1 a st1' HX H. pose proof HX as (H1 & H2 & H3 & H4 & H5). rewrite H4, (R_dbg _ _ _ H1) in H.
      destruct (ctx_collect _ _ _ _); try discriminate H. injection H as <- <-. eexists. split; [reflexivity|].
      split; [exact H1|]. split; [exact H2|]. split; [exact H3|]. split; [reflexivity|exact H5].
    - intros st st1 a st1' HX H. pose proof HX as (H1 & H2 & H3 & H4 & H5 & H6). rewrite H5, (R_dbg _ _ _ H1) in H.
      destruct (ctx_blob _ _ _ _); try discriminate H. injection H as <- <-. eexists. split; [reflexivity|].
      split; [exact H1|]. split; [exact H2|]. split; [exact H3|]. split; [exact H4|]. split; [reflexivity|exact H6].
    - intros st st1 a st1' HX H. pose proof HX as (H1 & H2 & H3 & H4 & H5 & H6). unfold mmod in *. injection H as <- <-. eexists. split; [reflexivity|].
      split; [exact H1|]. split; [exact H2|]. split; [exact H3|]. split; [exact H4|]. split; [exact H5|reflexivity].
    - apply xag_blob, ag_remaining.
    - apply xag_blob, ag_read_fully.
    - apply xag_blob, ag_lift2, ag_b_read_exact.
    - apply xag_blob, ag_ext.
  Qed.
  Lemma xag_run cf {A} (p : prog A) : xagr (run stream_source cf p) (run stream_source cf p).
  Proof.
    induction p as [a|x|X o f IH]; cbn [run].
    - apply xag_ret.
    - destruct x; intros st st1 a st1' _ H; discriminate H.
    - apply xag_bind; [apply xag_op|exact IH].
  Qed.
End Disp.

Lemma R_moved s k : s_commit s = None -> R k false s (set_pos_ (s_pos s + k) s).
Proof. intros Hc. split; [|rewrite Hc; discriminate]. exists (s_blob_end s), (s_dyn_start s). split; [reflexivity|]. rewrite Hc. intros [X|X]; [discriminate|congruence]. Qed.
Lemma R_moved0 s k : s_commit s = None -> R k false s (set_pos_ (s_pos s + k) (set_dyn_start 0 (set_blob_end 0 s))).
Proof. intros Hc. split; [|rewrite Hc; discriminate]. exists 0, 0. split; [reflexivity|]. rewrite Hc. intros [X|X]; [discriminate|congruence]. Qed.
Lemma moved_R k B s t : R k B s t -> s_dev t = s_dev s /\ s_pos t = s_pos s + k /\ s_depth t = s_depth s /\ s_eof t = s_eof s.
Proof. intros ((be & ds & -> & _) & _). repeat split. Qed.

Lemma displaced_gen k cs s t xs' op' t' : R k false s t -> Forall (relative k) cs -> s_commit s = None -> s_pos s + k <= U64_MAX ->
  run_calls cs ONone t = (xs', (op', t')) -> Forall (fun r => r <> RErr (SIo IoOther)) xs' ->
  exists xs o s', run_calls cs ONone s = (xs, (o, s')) /\ xs' = map (disp_res k) xs /\
    s_dev t' = s_dev s' /\ s_pos t' = s_pos s' + k /\ s_depth t' = s_depth s' /\ s_eof t' = s_eof s'.
Proof.
  intros HR Hcs Hc Hp H Hn. pose proof (moved_R _ _ _ _ HR) as (M1 & M2 & _).
  assert (Hct : s_commit t = None) by (destruct HR as ((? & ? & -> & _) & _); exact Hc).
  assert (HP : pinv (d_pos (s_dev s)) (s_pos s) s) by (split; [lia|]; split; [lia|]; intros X; congruence).
  assert (HP' : pinv (d_pos (s_dev t)) (s_pos t) t) by (split; [lia|]; split; [lia|]; intros X; congruence).
  destruct (hist_disp k cs Hcs ONone s t xs' op' t' _ _ _ _ HR HP HP' I I H Hn) as (xs & o & s' & H1 & H2 & H3 & H4).
  exists xs, o, s'. split; [exact H1|]. split; [exact H2|]. exact (moved_R _ _ _ _ H4).
Qed.
Lemma displaced k cs s xs' op' t' : Forall (relative k) cs -> s_commit s = None -> st_pos s + k <= U64_MAX ->
  run_calls cs ONone (snd (set_pos (st_pos s + k) s)) = (xs', (op', t')) -> Forall (fun r => r <> RErr (SIo IoOther)) xs' ->
  exists xs op s', run_calls cs ONone s = (xs, (op, s')) /\ xs' = map (disp_res k) xs /\
    s_dev t' = s_dev s' /\ st_pos t' = st_pos s' + k /\ s_depth t' = s_depth s' /\ s_eof t' = s_eof s'.
Proof. intros Hcs Hc Hp. exact (displaced_gen k cs s _ xs' op' t' (R_moved s k Hc) Hcs Hc Hp). Qed.
Lemma displaced_reset k cs s xs' op' t' : Forall (relative k) cs -> s_commit s = None -> st_pos s + k <= U64_MAX ->
  run_calls cs ONone (snd (reset_pos (st_pos s + k) s)) = (xs', (op', t')) -> Forall (fun r => r <> RErr (SIo IoOther)) xs' ->
  exists xs op s', run_calls cs ONone s = (xs, (op, s')) /\ xs' = map (disp_res k) xs /\
    s_dev t' = s_dev s' /\ st_pos t' = st_pos s' + k /\ s_depth t' = s_depth s' /\ s_eof t' = s_eof s'.
Proof.
  intros Hcs Hc Hp. replace (snd (reset_pos (st_pos s + k) s)) with (set_pos_ (s_pos s + k) (set_dyn_start 0 (set_blob_end 0 s))).
  - exact (displaced_gen k cs s _ xs' op' t' (R_moved0 s k Hc) Hcs Hc Hp).
  - unfold reset_pos, commit, mbind. rewrite Hc. reflexivity.
Qed.
Lemma displaced_de k e zc cf ty s v t' : s_commit s = None ->
  from_stream e zc cf ty (snd (set_pos (st_pos s + k) s)) = (ROk v, t') ->
  exists s', from_stream e zc cf ty s = (ROk v, s') /\ s_dev t' = s_dev s' /\ st_pos t' = st_pos s' + k.
Proof.
  intros Hc H. change (snd (set_pos (st_pos s + k) s)) with (set_pos_ (s_pos s + k) s) in H. unfold from_stream in *.
  destruct (run stream_source cf _ (top_rst (set_pos_ (s_pos s + k) s))) as [r1 st1] eqn:E1. injection H as -> <-.
  assert (HX : XR k (top_rst s) (top_rst (set_pos_ (s_pos s + k) s))).
  { split; [exact (R_moved s k Hc)|]. repeat split. }
  destruct (xag_run k cf _ _ _ _ _ HX E1) as (st' & H1 & H2 & _). rewrite H1. eexists. split; [reflexivity|].
  destruct (moved_R _ _ _ _ H2) as (M1 & M2 & _). split; [exact M1|exact M2].
Qed.
