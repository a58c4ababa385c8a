(** * P_Std: the impls for types of std *)

From Verif Require Import Base Wire Dev Stream Types Ser Prog De SpecFormat SpecStream SpecWrite SpecDe SpecDoc SpecSerDe SpecRead Retrofit SpecStd P_DeProps P_SerDe P_Ex P_Meaning P_Changes P_Keep P_CompatApi.

Section Std.
  Variable T E : ty.
  Variable user : env.
  Notation e := (std_env T E user).
  Hypothesis HT : shape_wf T.
  Hypothesis HE : shape_wf E.
  Hypothesis Hu : env_wf user.

  Lemma std_wf : env_wf e.
  Proof.
    intros i. destruct i as [|[|[|[|[|[|[|[|i]]]]]]]]; try (cbn; apply Hu); wf_item.
  Qed.

  Definition std_closure : list ty :=
    map TItem [i_ip4; i_ip6; i_ip; i_duration; i_sock4; i_sock6; i_sock] ++
    [TArray 4 (TUInt 8); TArray 16 (TUInt 8); TUInt 8; TUInt 16; TUInt 32; TUInt 64].
  Lemma std_deserialisable zc t : In t std_closure -> deserialisable e zc t.
  Proof.
    intros Hin H. revert Hin. induction H; intros Hin; unfold std_closure in Hin; cbn [In map app] in Hin;
      repeat (destruct Hin as [Hin|Hin]); try discriminate; try contradiction;
      injection Hin; intros; subst; apply IHno_impl; unfold std_closure; cbn in *; intuition.
  Qed.
  Lemma std_closed x : In (TItem (std_ty x)) std_closure.
  Proof. destruct x; cbn; tauto. Qed.

  Lemma octets6_ok s : ip6_ok s -> bytes_ok (octets6 s) /\ lenN (octets6 s) = 16.
  Proof.
    intros [Hl Hf]. destruct s as [|a0 [|a1 [|a2 [|a3 [|a4 [|a5 [|a6 [|a7 [|]]]]]]]]]; try discriminate Hl.
    repeat match goal with H : Forall _ (_ :: _) |- _ => apply Forall_cons_iff in H; destruct H end.
    split; [|reflexivity]. cbn [octets6 flat_map app].
    repeat apply Forall_cons; try apply Forall_nil;
      (apply N.div_lt_upper_bound; lia) || (apply N.mod_lt; lia).
  Qed.
  Lemma seg_join a : N.lor (N.shiftl (a / 256) 8) (a mod 256) = a.
  Proof.
    change 256 with (2 ^ 8). apply N.bits_inj. intros i. rewrite N.lor_spec.
    destruct (N.lt_ge_cases i 8) as [H|H].
    - rewrite N.shiftl_spec_low, N.mod_pow2_bits_low by exact H. reflexivity.
    - rewrite N.shiftl_spec_high', N.mod_pow2_bits_high, orb_false_r by exact H.
      rewrite N.div_pow2_bits. now rewrite N.sub_add.
  Qed.
  Lemma segments_octets s : ip6_ok s -> segments6 (octets6 s) = s.
  Proof.
    intros [Hl Hf]. destruct s as [|a0 [|a1 [|a2 [|a3 [|a4 [|a5 [|a6 [|a7 [|]]]]]]]]]; try discriminate Hl.
    repeat match goal with H : Forall _ (_ :: _) |- _ => apply Forall_cons_iff in H; destruct H end.
    unfold segments6, seg. cbn [octets6 flat_map app map nth].
    now rewrite !seg_join.
  Qed.

  Lemma std_back x : std_ok x -> std_of (std_ty x) (std_value x) = Some x.
  Proof.
    assert (H4 : forall o, ip4_ok o -> u_ip4 (v_ip4 o) = Some o).
    { intros o [Hl _]. destruct o as [|a [|b [|c [|d [|]]]]]; try discriminate Hl. reflexivity. }
    assert (H6 : forall s, ip6_ok s -> u_ip6 (v_ip6 s) = Some s).
    { intros s Hs. unfold u_ip6, v_ip6. now rewrite segments_octets. }
    assert (H4' : forall o p, ip4_ok o -> u_sock4 (v_sock4 o p) = Some (o, p)).
    { intros o p Ho. unfold u_sock4, v_sock4. now rewrite H4. }
    assert (H6' : forall s p f c, ip6_ok s -> u_sock6 (v_sock6 s p f c) = Some (s, p, f, c)).
    { intros s p f c Hs. unfold u_sock6, v_sock6. now rewrite H6. }
    destruct x; cbn [std_ok std_ty std_value]; intros H; unfold std_of, i_ip4, i_ip6, i_ip, i_duration, i_sock4, i_sock6, i_sock.
    - now rewrite H4.
    - now rewrite H6.
    - now rewrite H4.
    - now rewrite H6.
    - reflexivity.
    - now rewrite H4'.
    - now rewrite H6'.
    - now rewrite H4'.
    - now rewrite H6'.
  Qed.

  Lemma ty_ip4 o : ip4_ok o -> has_type e (v_ip4 o) (TItem i_ip4).
  Proof.
    intros [Hl Hf]. apply (TyStruct _ _ (mkB [] (SpDeleg "octets" (TArray 4 (TUInt 8))) ok_all)); [reflexivity| |reflexivity|exact Logic.I].
    apply Forall2_cons; [|apply Forall2_nil]. constructor; [reflexivity|exact Hf|unfold lenN; now rewrite Hl].
  Qed.
  Lemma ty_ip6 s : ip6_ok s -> has_type e (v_ip6 s) (TItem i_ip6).
  Proof.
    intros H. destruct (octets6_ok s H) as [H1 H2].
    apply (TyStruct _ _ (mkB [] (SpDeleg "octets" (TArray 16 (TUInt 8))) ok_all)); [reflexivity| |reflexivity|exact Logic.I].
    apply Forall2_cons; [|apply Forall2_nil]. constructor; [reflexivity|exact H1|exact H2].
  Qed.
  Lemma ty_u w n : n < 2 ^ w -> has_type e (VU n) (TUInt w).
  Proof. intros H. constructor. unfold umax. lia. Qed.
  Lemma ty_sock4 o p : ip4_ok o -> p < 65536 -> has_type e (v_sock4 o p) (TItem i_sock4).
  Proof.
    intros H1 H2. eapply TyStruct; [reflexivity| |reflexivity|exact Logic.I].
    cbn [body_types vb_fields vb_special map app fd_ty special_ty]. repeat apply Forall2_cons; try apply Forall2_nil.
    - now apply ty_ip4.
    - now apply ty_u.
  Qed.
  Lemma ty_sock6 s p f c : ip6_ok s -> p < 65536 -> f < 2 ^ 32 -> c < 2 ^ 32 -> has_type e (v_sock6 s p f c) (TItem i_sock6).
  Proof.
    intros H1 H2 H3 H4. eapply TyStruct; [reflexivity| |reflexivity|exact Logic.I].
    cbn [body_types vb_fields vb_special map app fd_ty special_ty]. repeat apply Forall2_cons; try apply Forall2_nil.
    - now apply ty_ip6.
    - now apply ty_u.
    - now apply ty_u.
    - now apply ty_u.
  Qed.
  Lemma std_typed x : std_ok x -> has_type e (std_value x) (TItem (std_ty x)).
  Proof.
    destruct x; cbn [std_ok std_ty std_value]; intros H.
    - now apply ty_ip4.
    - now apply ty_ip6.
    - eapply (TyVar _ i_ip _ _ 0%nat); [reflexivity|reflexivity| |reflexivity|exact Logic.I].
      apply Forall2_cons; [now apply ty_ip4|apply Forall2_nil].
    - eapply (TyVar _ i_ip _ _ 1%nat); [reflexivity|reflexivity| |reflexivity|exact Logic.I].
      apply Forall2_cons; [now apply ty_ip6|apply Forall2_nil].
    - destruct H as [H1 H2]. eapply TyStruct; [reflexivity| | |exact Logic.I].
      + repeat apply Forall2_cons; try apply Forall2_nil; apply ty_u; [exact H1|].
        eapply N.lt_trans; [exact H2|reflexivity].
      + cbn. now apply N.ltb_lt.
    - now apply ty_sock4.
    - now apply ty_sock6.
    - eapply (TyVar _ i_sock _ _ 0%nat); [reflexivity|reflexivity| |reflexivity|exact Logic.I].
      apply Forall2_cons; [now apply ty_sock4|apply Forall2_nil].
    - eapply (TyVar _ i_sock _ _ 1%nat); [reflexivity|reflexivity| |reflexivity|exact Logic.I].
      apply Forall2_cons; [now apply ty_sock6|apply Forall2_nil].
  Qed.

  Lemma std_document x : std_ok x -> x_body (doc e (std_value x) (TItem (std_ty x))) = std_doc x.
  Proof. destruct x; intros _; reflexivity. Qed.

  Lemma std_admits cf zc x : 8 <= cf_rec cf -> admits cf e zc (std_value x) (TItem (std_ty x)).
  Proof.
    intros H1. unfold admits.
    assert (A : n_body (need e (std_value x) (TItem (std_ty x))) <= 8) by (destruct x; vm_compute; discriminate).
    assert (B : coll_count (std_value x) = 0) by (destruct x; reflexivity).
    assert (C : copied e (std_value x) zc (TItem (std_ty x)) = 0) by (destruct x; reflexivity).
    lia.
  Qed.

  Lemma std_size x : std_ok x -> size_of e (TItem (std_ty x)) (std_value x) + 3 < U64_MAX.
  Proof.
    intros Hx. unfold size_of. rewrite std_document by exact Hx.
    assert (H4 : forall o, ip4_ok o -> lenN o = 4) by (intros o [Hl _]; unfold lenN; now rewrite Hl).
    assert (H6 : forall s, ip6_ok s -> lenN (be6 s) = 16) by (intros s Hs; exact (proj2 (octets6_ok s Hs))).
    destruct x; cbn [std_ok] in Hx;
      lazymatch type of Hx with ip4_ok _ => idtac | ip6_ok _ => idtac | _ => destruct Hx as [Hx ?] end; cbn;
      try rewrite (H4 _ Hx); try rewrite (H6 _ Hx); reflexivity.
  Qed.

  Lemma std_round zc cf dw dr x : cf_collect cf <= U64_MAX -> cf_blob cf <= U64_MAX -> cf_ignore cf = true ->
    8 <= cf_rec cf -> std_ok x ->
    exists bs, to_vec e dw (TItem (std_ty x)) (std_value x) = ROk bs /\
      shortest (document (std_doc x)) bs /\
      exists v, (if zc : bool then from_slice_borrow else from_slice_copy) e dr cf (TItem (std_ty x)) bs = ROk v /\
        std_of (std_ty x) v = Some x.
  Proof.
    intros H1 H2 Hi H3 Hx.
    assert (Hsz := std_size x Hx).
    destruct (vec_shape (ordered := ascending) e std_wf dw (TItem (std_ty x)) (std_value x)) as (bs & E1 & E2);
      [now apply std_typed|exact Logic.I|lia|].
    destruct (round_trip e std_wf cf H1 H2 zc (TItem (std_ty x)) (std_value x) dw dr) as (bs' & E3 & E4).
    - constructor; [now apply std_typed|exact Logic.I|apply std_deserialisable, std_closed|now left|now apply std_admits].
    - exact Hsz.
    - exists bs. split; [exact E1|]. split; [rewrite <- std_document by exact Hx; exact E2|].
      exists (std_value x). rewrite E3 in E1. injection E1 as <-. split; [|now apply std_back].
      destruct zc; exact E4.
  Qed.

  Lemma is_struct i b v : e i = IStruct b -> has_type e v (TItem i) ->
    exists vs, v = VRec vs /\ Forall2 (has_type e) vs (body_types b) /\ vb_check b vs = true.
  Proof.
    intros Ei H. inversion H; subst; not_str; try congruence.
    match goal with H1 : e i = IStruct ?b0 |- _ => assert (b0 = b) by congruence; subst b0 end. eauto.
  Qed.
  Lemma is_enum i vars v : e i = IEnum vars None -> has_type e v (TItem i) ->
    exists ix d b vs, v = VVar ix (VRec vs) /\ nth_error vars ix = Some (d, b) /\ Forall2 (has_type e) vs (body_types b).
  Proof.
    intros Ei H. inversion H; subst; not_str; try congruence.
    match goal with H1 : e i = IEnum ?v0 _ |- _ => assert (v0 = vars) by congruence; subst v0 end.
    do 4 eexists. eauto.
  Qed.

  (** What the constructors are given is always a value of the type. *)
  Lemma of_ip4 v : has_type e v (TItem i_ip4) -> exists o, ip4_ok o /\ u_ip4 v = Some o.
  Proof.
    intros H. destruct (is_struct i_ip4 _ _ eq_refl H) as (vs & -> & Hf & _).
    cbn in Hf. inversion Hf as [|v0 t0 l0 l0' Ha Hr]; subst. inversion Hr; subst.
    inversion Ha; subst; not_str; try discriminate.
    match goal with H : lenN ?b = 4 |- _ => rename b into o; rename H into Hl end.
    unfold lenN in Hl. destruct o as [|a [|b [|c [|d [|]]]]]; try (cbn in Hl; lia).
    exists [a; b; c; d]. split; [split; [reflexivity|assumption]|reflexivity].
  Qed.
  Lemma of_ip6 v : has_type e v (TItem i_ip6) -> exists s, ip6_ok s /\ u_ip6 v = Some s.
  Proof.
    intros H. destruct (is_struct i_ip6 _ _ eq_refl H) as (vs & -> & Hf & _).
    cbn in Hf. inversion Hf as [|v0 t0 l0 l0' Ha Hr]; subst. inversion Hr; subst.
    inversion Ha; subst; not_str; try discriminate.
    match goal with H : bytes_ok ?b |- _ => rename b into o; rename H into Hb end.
    exists (segments6 o). split; [|reflexivity]. split; [reflexivity|].
    assert (Hn : forall i, nth i o 0 < 256).
    { intros i. destruct (nth_in_or_default i o 0) as [Hin|Hd]; [|rewrite Hd; reflexivity].
      exact (proj1 (Forall_forall _ _) Hb _ Hin). }
    assert (Hs : forall i, seg o i < 65536).
    { intros i. unfold seg. change 65536 with (2 ^ 16).
      destruct (N.eq_dec (N.lor (N.shiftl (nth i o 0) 8) (nth (S i) o 0)) 0) as [-> |Hz]; [reflexivity|].
      apply N.log2_lt_pow2; [lia|]. rewrite N.log2_lor. apply N.max_lub_lt.
      - destruct (N.eq_dec (nth i o 0) 0) as [-> |Hz']; [reflexivity|].
        rewrite N.log2_shiftl by exact Hz'. assert (Hw := Hn i). change 256 with (2 ^ 8) in Hw.
        apply N.log2_lt_pow2 in Hw; lia.
      - destruct (N.eq_dec (nth (S i) o 0) 0) as [-> |Hz']; [reflexivity|].
        assert (Hw := Hn (S i)). change 256 with (2 ^ 8) in Hw. apply N.log2_lt_pow2 in Hw; lia. }
    unfold segments6. apply Forall_map, Forall_forall. intros i _. apply Hs.
  Qed.
  Lemma of_u w v : has_type e v (TUInt w) -> exists n, v = VU n /\ n <= umax w.
  Proof. intros H. inversion H; subst; try not_str. eauto. Qed.
  Lemma of_sock4 v : has_type e v (TItem i_sock4) -> exists o p, (ip4_ok o /\ p < 65536) /\ u_sock4 v = Some (o, p).
  Proof.
    intros H. destruct (is_struct i_sock4 _ _ eq_refl H) as (vs & -> & Hf & _). cbn in Hf.
    inversion Hf as [|v0 t0 l0 l0' Ha Hr]; subst. inversion Hr as [|v1 t1 l1 l1' Hp Hr1]; subst. inversion Hr1; subst.
    destruct (of_ip4 _ Ha) as (o & Ho & E1). destruct (of_u _ _ Hp) as (p & -> & Hp2).
    exists o, p. split; [split; [exact Ho|change (umax 16) with 65535 in Hp2; lia]|]. cbn. now rewrite E1.
  Qed.
  Lemma of_sock6 v : has_type e v (TItem i_sock6) ->
    exists s p f c, (ip6_ok s /\ p < 65536 /\ f < 2 ^ 32 /\ c < 2 ^ 32) /\ u_sock6 v = Some (s, p, f, c).
  Proof.
    intros H. destruct (is_struct i_sock6 _ _ eq_refl H) as (vs & -> & Hf & _). cbn in Hf.
    inversion Hf as [|v0 t0 l0 l0' Ha Hr]; subst. inversion Hr as [|v1 t1 l1 l1' Hp Hr1]; subst.
    inversion Hr1 as [|v2 t2 l2 l2' Hq Hr2]; subst. inversion Hr2 as [|v3 t3 l3 l3' Hc Hr3]; subst. inversion Hr3; subst.
    destruct (of_ip6 _ Ha) as (s & Hs & E1). destruct (of_u _ _ Hp) as (p & -> & Hp2).
    destruct (of_u _ _ Hq) as (f & -> & Hf2). destruct (of_u _ _ Hc) as (c & -> & Hc2).
    change (umax 16) with 65535 in Hp2. change (umax 32) with 4294967295 in Hf2, Hc2. change (2 ^ 32) with 4294967296.
    exists s, p, f, c. split; [repeat apply conj; [exact (proj1 Hs)|exact (proj2 Hs)|lia..]|]. cbn. now rewrite E1.
  Qed.

  Lemma std_some i v : (i <= 6)%nat -> has_type e v (TItem i) -> exists x, std_ok x /\ std_ty x = i /\ std_of i v = Some x.
  Proof.
    intros Hi H. destruct i as [|[|[|[|[|[|[|i]]]]]]]; [| | | | | | |lia].
    - destruct (of_ip4 _ H) as (o & Ho & E1). exists (SIp4 o). repeat apply conj; try apply Ho; try reflexivity. cbn. now rewrite E1.
    - destruct (of_ip6 _ H) as (o & Ho & E1). exists (SIp6 o). repeat apply conj; try apply Ho; try reflexivity. cbn. now rewrite E1.
    - destruct (is_enum i_ip _ _ eq_refl H) as (ix & d & b & vs & -> & En & Hf).
      destruct ix as [|[|ix]]; [| |destruct ix; discriminate En]; injection En as <- <-; cbn in Hf;
        inversion Hf as [|v0 t0 l0 l0' Ha Hr]; subst; inversion Hr; subst.
      + destruct (of_ip4 _ Ha) as (o & Ho & E1). exists (SIpV4 o). repeat apply conj; try apply Ho; try reflexivity. cbn. now rewrite E1.
      + destruct (of_ip6 _ Ha) as (o & Ho & E1). exists (SIpV6 o). repeat apply conj; try apply Ho; try reflexivity. cbn. now rewrite E1.
    - destruct (is_struct i_duration _ _ eq_refl H) as (vs & -> & Hf & Hc). cbn in Hf.
      inversion Hf as [|v0 t0 l0 l0' Ha Hr]; subst. inversion Hr as [|v1 t1 l1 l1' Hp Hr1]; subst. inversion Hr1; subst.
      destruct (of_u _ _ Ha) as (s & -> & Hs2). destruct (of_u _ _ Hp) as (n & -> & Hn2).
      cbn in Hc. apply N.ltb_lt in Hc. exists (SDuration s n). split; [split; [|exact Hc]|split; reflexivity].
      change (2 ^ 64) with (umax 64 + 1). lia.
    - destruct (of_sock4 _ H) as (o & p & Ho & E1). exists (SSock4 o p). repeat apply conj; try apply Ho; try reflexivity. cbn. now rewrite E1.
    - destruct (of_sock6 _ H) as (s & p & f & c & Ho & E1). exists (SSock6 s p f c). repeat apply conj; try apply Ho; try reflexivity. cbn. now rewrite E1.
    - destruct (is_enum i_sock _ _ eq_refl H) as (ix & d & b & vs & -> & En & Hf).
      destruct ix as [|[|ix]]; [| |destruct ix; discriminate En]; injection En as <- <-; cbn in Hf;
        inversion Hf as [|v0 t0 l0 l0' Ha Hr]; subst; inversion Hr; subst.
      + destruct (of_sock4 _ Ha) as (o & p & Ho & E1). exists (SSockV4 o p). repeat apply conj; try apply Ho; try reflexivity. cbn. now rewrite E1.
      + destruct (of_sock6 _ Ha) as (s & p & f & c & Ho & E1). exists (SSockV6 s p f c). repeat apply conj; try apply Ho; try reflexivity. cbn. now rewrite E1.
  Qed.

  Lemma std_env_ok : env_ok e.
  Proof. now apply env_wf_ok, std_wf. Qed.

  (** Whatever is accepted is a value of the type. *)
  Lemma std_valid zc cf i dbg sk gr bs sched v s' : (i <= 6)%nat -> cf_collect cf <= U64_MAX -> cf_blob cf <= U64_MAX ->
    bytes_ok bs -> lenN bs + 3 < U64_MAX ->
    from_stream e zc cf (TItem i) (set_graceful_ gr (new_stream dbg sk (mkDev bs 0 sched))) = (ROk v, s') ->
    exists x, std_ok x /\ std_ty x = i /\ std_of i v = Some x.
  Proof.
    intros Hi H1 H2 Hb Hl E1. apply std_some; [exact Hi|].
    eapply stream_valid; [exact std_env_ok| |exact H1|exact H2|exact Hb|exact Hl|exact E1].
    apply std_deserialisable. destruct i as [|[|[|[|[|[|[|i]]]]]]]; [cbn; tauto..|lia].
  Qed.

  (** [Result]. *)
  Lemma result_round (ok : bool) zc cf dw dr v : cf_collect cf <= U64_MAX -> cf_blob cf <= U64_MAX -> cf_ignore cf = true ->
    let t := if ok then T else E in
    let r := VVar (if ok then 0 else 1)%nat (VRec [v]) in
    has_type e v t -> deserialisable e zc T -> deserialisable e zc E ->
    admits cf e zc r (TItem i_result) -> size_of e (TItem i_result) r + 3 < U64_MAX ->
    exists bs, to_vec e dw (TItem i_result) r = ROk bs /\
      shortest (document [(1, NEnum (if ok then 1 else 2) (x_body (doc e v t)))]) bs /\
      (if zc : bool then from_slice_borrow else from_slice_copy) e dr cf (TItem i_result) bs = ROk r.
  Proof.
    intros H1 H2 Hi t r Ht HdT HdE Ha Hs.
    assert (Hr : has_type e r (TItem i_result)).
    { unfold r, t in *. destruct ok.
      - eapply (TyVar _ i_result _ _ 0%nat); [reflexivity|reflexivity| |reflexivity|exact Logic.I].
        apply Forall2_cons; [exact Ht|apply Forall2_nil].
      - eapply (TyVar _ i_result _ _ 1%nat); [reflexivity|reflexivity| |reflexivity|exact Logic.I].
        apply Forall2_cons; [exact Ht|apply Forall2_nil]. }
    destruct (vec_shape e std_wf dw (TItem i_result) r Hr Logic.I ltac:(lia)) as (bs & E1 & E2).
    destruct (round_trip e std_wf cf H1 H2 zc (TItem i_result) r dw dr) as (bs' & E3 & E4).
    - constructor; [exact Hr|exact Logic.I| |now left|exact Ha].
      intros Hn. inversion Hn as [| | | | | | | | | | | |zc0 i0 t0 Hin Hn0]; subst.
      cbn in Hin. destruct Hin as [<- |[<- |[]]]; contradiction.
    - exact Hs.
    - exists bs. split; [exact E1|]. rewrite E3 in E1. injection E1 as <-. split; [|destruct zc; exact E4].
      replace [(1, NEnum (if ok then 1 else 2) (x_body (doc e v t)))] with (x_body (doc e r (TItem i_result))); [exact E2|].
      unfold r, t. rewrite <- (app_nil_r (x_body (doc e v (if ok then T else E)))). destruct ok; reflexivity.
  Qed.

  (** A Duration whose nanoseconds are out of range is rejected. *)
  Lemma duration_range zc cf secs nanos s : usable e zc cf (TItem i_duration) ->
    doc_stream [(1, NInt secs); (2, NInt nanos)] s -> 1000000000 <= nanos ->
    exists err, fst (from_stream e zc cf (TItem i_duration) s) = RErr err.
  Proof.
    intros Hu' Hd Hn. eapply meaning_none; [exact Hu'|exact Hd|]. intros v x H.
    apply (denotes_struct e _ zc i_duration _ _ _ _ eq_refl) in H. destruct H as (fuel & H).
    unfold m_vbody in H. cbn in H.
    unfold m_record, m_fields in H. cbn in H. unfold m_uint in H.
    repeat (change (1 =? 1) with true in H; change (2 =? 1) with false in H; change (2 =? 2) with true in H; cbn in H).
    destruct (secs <=? umax 64); [|destruct (cf_ignore cf); discriminate H].
    destruct (nanos <=? umax 32); [|destruct (cf_ignore cf); discriminate H].
    assert (En : (nanos <? 1000000000) = false) by (apply N.ltb_ge; exact Hn).
    destruct (cf_ignore cf); cbn in H; unfold m_construct in H; cbn [vb_check nsecs_ok] in H; rewrite En in H; discriminate H.
  Qed.
End Std.
