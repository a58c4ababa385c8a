(** * P_Recover: reading back what a crash left (C60) *)

From Verif Require Import Base Wire Dev Stream Types Ser Prog De SpecWire SpecFormat SpecStream SpecDe SpecDoc SpecSerDe SpecCrash
  P_Base P_Wire P_Sched P_Read P_Write P_Stream P_Types P_Dict P_DeStream P_DeSched P_DeProps P_DeExt P_Prog P_TreeRun
  P_Ser P_DocOk P_SerDe P_Crash.

Strategy 1000 [s_decode_u64 decode_u64 decode_loop write_all read_exact encode_u64 enc_loop encode_fixed_u64 mloop miter].

(** Success does not depend on what follows, from any state. *)
Lemma trailing_any e zc cf t suf s v s1 : env_ok e -> deserialisable e zc t -> cf_collect cf <= U64_MAX -> cf_blob cf <= U64_MAX ->
  bytes_ok suf -> base suf s -> whole s -> from_stream e zc cf t s = (ROk v, s1) ->
  from_stream e zc cf t (ext suf s) = (ROk v, ext suf s1) /\ unread (ext suf s1) = unread s1 ++ suf.
Proof.
  intros He Ht Hc Hb Hsuf Hbase Hwh H. unfold from_stream in *. set (p := d_body _) in *.
  destruct (run stream_source cf p (top_rst s)) as [r st] eqn:E. injection H as -> <-.
  pose proof (ext_run suf Hsuf cf p s Hbase Hwh) as HR. rewrite E in HR.
  pose proof (run_ends_none e zc cf t He Ht Hc Hb s v st (bs_q _ _ Hbase) E) as Hn.
  destruct HR as [HR|[HR|HR]].
  - contradiction.
  - cbn [fst snd] in HR. unfold dm_rst in HR. rewrite Hn in HR. destruct HR as (_ & _ & _ & _ & HR). contradiction.
  - cbn [fst snd] in HR. destruct (run stream_source cf p (top_rst (ext suf s))) as [[w|x| |] st2]; try contradiction.
    destruct HR as [<- ((Hx & _ & Hb1 & _) & _)]. cbn [fst snd] in *. rewrite Hx. split; [reflexivity|].
    exact (ext_rest suf _ Hb1).
Qed.

Lemma starts_base s w suf full : starts s w [] -> starts (ext suf s) full [] -> base suf s /\ whole s.
Proof.
  intros A B. split.
  - constructor; [apply A|apply A| |apply A].
    pose proof (sq_len _ (st_seq _ _ _ B)) as H. unfold ext in H. cbn [s_dev set_dev d_data] in H. rewrite lenN_app in H. lia.
  - unfold whole. rewrite (st_none _ _ _ A). lia.
Qed.
Lemma starts_move' s a b tl a' : starts s a tl -> a ++ tl = a' ++ b -> starts s a' b.
Proof. intros [H1 H2 H3 H4 H5 H6 H7 H8 H9] E. constructor; auto. now rewrite H8. Qed.

Lemma split_prefix (w y b r : bytes) : w ++ y = b ++ r ->
  (lenN b <= lenN w -> exists w', w = b ++ w' /\ w' ++ y = r) /\
  (lenN w < lenN b -> exists y1, b = w ++ y1 /\ y = y1 ++ r /\ 0 < lenN y1).
Proof.
  intros E. split; intros H.
  - exists (dropN (lenN b) w).
    assert (E1 : takeN (lenN b) w = b).
    { pose proof (f_equal (takeN (lenN b)) E) as E2. rewrite takeN_app_l in E2 by exact H. now rewrite takeN_app_exact in E2. }
    split; [rewrite <- E1 at 1; symmetry; apply takeN_dropN|].
    pose proof (f_equal (dropN (lenN b)) E) as E2. rewrite dropN_app_l in E2 by exact H. now rewrite dropN_app_exact in E2.
  - exists (dropN (lenN w) b).
    assert (E1 : takeN (lenN w) b = w).
    { pose proof (f_equal (takeN (lenN w)) E) as E2. rewrite takeN_app_exact in E2. rewrite takeN_app_l in E2 by lia. now symmetry. }
    split; [rewrite <- E1 at 1; symmetry; apply takeN_dropN|].
    pose proof (f_equal (dropN (lenN w)) E) as E2. rewrite dropN_app_exact in E2. rewrite dropN_app_l in E2 by lia.
    split; [exact E2|]. rewrite lenN_dropN. lia.
Qed.

Section Recover.
  Variables (e : env) (zc : bool) (cf : cfg).
  Hypothesis Hwf : env_wf e.
  Hypothesis Hcc : cf_collect cf <= U64_MAX.
  Hypothesis Hcb : cf_blob cf <= U64_MAX.

  Definition encs (tvs : list (ty * value)) : list bytes := map (fun p => bytes_of e (fst p) (snd p)) tvs.

  Lemma recover tvs y : bytes_ok y -> Forall (fun p => storable cf e zc (fst p) (snd p)) tvs -> all_size e tvs <= U64_MAX -> forall s w,
    w ++ y = all_bytes e tvs -> starts s w [] -> starts (ext y s) (all_bytes e tvs) [] ->
    exists x s', read_log e zc cf (map fst tvs) s = (firstn (complete (lenN w) (encs tvs)) (map snd tvs), x, s') /\
      ((x = ROk tt /\ complete (lenN w) (encs tvs) = List.length tvs) \/
       (exists err, x = RErr err /\ (complete (lenN w) (encs tvs) < List.length tvs)%nat)).
  Proof.
    intros Hy H. induction H as [|[t v] tvs H1 H2 IH]; intros Hs s w E A B.
    - exists (ROk tt), s. split; [reflexivity|]. left. auto.
    - unfold all_size in Hs. cbn [map] in Hs. change (sumN (?x :: ?l)) with (x + sumN l) in Hs. fold (all_size e tvs) in Hs. cbn [fst snd] in *.
      unfold all_bytes in E, B. cbn [map List.concat fst snd] in E, B. fold (all_bytes e tvs) in E, B.
      destruct (starts_base _ _ _ _ A B) as [Hbase Hwh].
      assert (Hd : deserialisable e zc t) by apply H1.
      assert (B1 : starts (ext y s) (bytes_of e t v) (all_bytes e tvs)).
      { apply (starts_move' _ _ _ _ _ B). now rewrite app_nil_r. }
      destruct (read_one e zc cf Hwf Hcc Hcb t v (ext y s) _ H1 ltac:(lia) B1) as (S1 & R1 & B2).
      destruct (split_prefix _ _ _ _ E) as [Sp1 Sp2].
      cbn [map read_log fst snd encs complete List.length]. fold (encs tvs).
      destruct (N.leb_spec (lenN (bytes_of e t v)) (lenN w)) as [Hle|Hlt].
      + destruct (Sp1 Hle) as (w' & Ew & Ew').
        assert (A1 : starts s (bytes_of e t v) w').
        { apply (starts_move' _ _ _ _ _ A). now rewrite app_nil_r. }
        destruct (read_one e zc cf Hwf Hcc Hcb t v s _ H1 ltac:(lia) A1) as (s1 & R2 & A2).
        destruct (trailing_any e zc cf t y s v s1 (env_wf_ok e Hwf) Hd Hcc Hcb Hy Hbase Hwh R2) as (R3 & _).
        rewrite R1 in R3. assert (ES : S1 = ext y s1) by congruence. subst S1. rewrite R2.
        replace (lenN w - lenN (bytes_of e t v)) with (lenN w') by (rewrite Ew, lenN_app; lia).
        destruct (IH ltac:(lia) s1 w' Ew') as (x & s' & E1 & E2).
        { apply (starts_move' _ _ _ _ _ A2). now rewrite app_nil_r. }
        { apply (starts_move' _ _ _ _ _ B2). now rewrite app_nil_r. }
        rewrite E1. exists x, s'. split; [reflexivity|].
        destruct E2 as [[E2 E3]|(err & E2 & E3)]; [left|right; exists err]; (split; [exact E2|lia]).
      + destruct (Sp2 Hlt) as (y1 & Eb & Ey & Hy1). cbn [firstn].
        pose proof (sched_ok e zc cf (env_wf_ok e Hwf) Hcc Hcb t s Hd) as Htot.
        rewrite (strip_of_clean s) in Htot by (apply A). specialize (Htot (st_seq _ _ _ A)).
        destruct (from_stream e zc cf t s) as [[v'|err| |] s1] eqn:R2; try contradiction.
        * exfalso. destruct (trailing_any e zc cf t y s v' s1 (env_wf_ok e Hwf) Hd Hcc Hcb Hy Hbase Hwh R2) as (R3 & Hu).
          rewrite R1 in R3. assert (ES : S1 = ext y s1) by congruence. subst S1.
          rewrite (starts_rest _ _ B2) in Hu. apply (f_equal lenN) in Hu. rewrite Ey, !lenN_app in Hu. lia.
        * exists (RErr err), s1. split; [reflexivity|]. right. exists err. split; [reflexivity|lia].
  Qed.
End Recover.

(** ** Schedules *)
Lemma log_dsim e zc cf ts : forall s vs x s', read_log e zc cf ts s = (vs, x, s') ->
  (read_log e zc cf ts (strip s) = (vs, x, strip s') /\ (benign s -> benign s')) \/
  (~ benign s /\ (exists err, x = RErr err) /\
   exists vs2 x2 s2, read_log e zc cf ts (strip s) = (vs2, x2, s2) /\ exists j, (j <= List.length vs2)%nat /\ vs = firstn j vs2).
Proof.
  induction ts as [|t ts IH]; intros s vs x s' H; cbn [read_log] in *.
  - injection H as <- <- <-. left. auto.
  - destruct (from_stream e zc cf t s) as [r s1] eqn:E.
    destruct (from_stream_dsim _ _ _ _ _ _ _ E) as [[Heq Hb]|(Hnb & err & ->)].
    + rewrite Heq. destruct r as [v|err| |]; try (injection H as <- <- <-; left; auto).
      destruct (read_log e zc cf ts s1) as [[vs1 x1] s2] eqn:E1. injection H as <- <- <-.
      destruct (IH _ _ _ _ E1) as [[E2 Hb2]|(Hnb & He & vs2 & x2 & s3 & E2 & j & Hj & Ej)].
      * left. rewrite E2. split; [reflexivity|]. auto.
      * right. split; [auto|]. split; [exact He|]. rewrite E2. exists (v :: vs2), x2, s3. split; [reflexivity|].
        exists (S j). cbn [firstn List.length]. split; [lia|]. now rewrite Ej.
    + injection H as <- <- <-. right. split; [exact Hnb|]. split; [now exists err|].
      destruct (match from_stream e zc cf t (strip s) with (ROk v, s2) => _ | _ => _ end) as [[vs2 x2] s2] eqn:E2.
      exists vs2, x2, s2. split; [reflexivity|]. exists 0%nat. split; [lia|reflexivity].
Qed.

(** ** The claims *)
Section Claims.
  Variable e : env.
  Hypothesis Hwf : env_wf e.

  Lemma encs_vec tvs bss : Forall (typed e) tvs -> all_size e tvs <= U64_MAX ->
    Forall2 (fun p b => exists dbg, to_vec e dbg (fst p) (snd p) = ROk b) tvs bss -> bss = encs e tvs.
  Proof.
    intros Ht Hs H. induction H as [|[t v] b tvs bss [dbg H1] H2 IH]; [reflexivity|].
    inversion Ht as [|? ? T1 T2]; subst.
    unfold all_size in Hs. cbn [map] in Hs. change (sumN (?x :: ?l)) with (x + sumN l) in Hs. fold (all_size e tvs) in Hs. cbn [fst snd] in *.
    rewrite (to_vec_ok e Hwf t v dbg T1 ltac:(lia)) in H1. injection H1 as <-.
    cbn [encs map]. now rewrite (IH T2 ltac:(lia)).
  Qed.
  Lemma vec_encs tvs : Forall (typed e) tvs -> all_size e tvs <= U64_MAX ->
    Forall2 (fun p b => forall dbg, to_vec e dbg (fst p) (snd p) = ROk b) tvs (encs e tvs).
  Proof.
    intros Ht. induction Ht as [|[t v] tvs T1 T2 IH]; intros Hs; [constructor|].
    unfold all_size in Hs. cbn [map] in Hs. change (sumN (?x :: ?l)) with (x + sumN l) in Hs. fold (all_size e tvs) in Hs. cbn [fst snd] in *.
    constructor; [intros dbg; exact (to_vec_ok e Hwf t v dbg T1 ltac:(lia))|apply IH; lia].
  Qed.
  Lemma all_bytes_encs tvs : all_bytes e tvs = List.concat (encs e tvs).
  Proof. reflexivity. Qed.

  Lemma partial_write tvs : Forall (fun p => has_type e (snd p) (fst p) /\ shape_wf (fst p)) tvs ->
    sumN (map (fun p => size_of e (fst p) (snd p)) tvs) <= U64_MAX ->
    exists bss, Forall2 (fun p b => forall dbg, to_vec e dbg (fst p) (snd p) = ROk b) tvs bss /\
    forall dbg sk data sched r s', write_values e tvs (new_stream dbg sk (mkDev data (lenN data) sched)) = (r, s') ->
    exists n, d_data (s_dev s') = data ++ takeN n (List.concat bss) /\
      ((r = ROk tt /\ n = lenN (List.concat bss)) \/ (exists x, r = RErr x /\ n < lenN (List.concat bss))).
  Proof.
    intros Ht Hs. exists (encs e tvs). split; [now apply vec_encs|]. intros dbg sk data sched r s' H.
    destruct (emit_values e Hwf tvs Ht (new_stream dbg sk (mkDev data (lenN data) sched)) eq_refl (or_introl eq_refl) Hs r s' H)
      as [(u & -> & [G _ _] & _)|(x & w & y & -> & E & Hy & [G _ _])]; rewrite all_bytes_encs in *.
    - exists (lenN (List.concat (encs e tvs))). rewrite takeN_all by lia. split; [exact G|]. left. destruct u. auto.
    - exists (lenN w). rewrite E, takeN_app_exact. split; [exact G|]. right. exists x. split; [reflexivity|]. rewrite lenN_app.
      destruct y; [congruence|]. rewrite lenN_cons. lia.
  Qed.

  Section Read.
  Variables (cf : cfg) (zc : bool).
  Hypothesis Hcc : cf_collect cf <= U64_MAX.
  Hypothesis Hcb : cf_blob cf <= U64_MAX.

  Lemma typed_of tvs : Forall (fun p => storable cf e zc (fst p) (snd p)) tvs -> Forall (typed e) tvs.
  Proof. intros H. eapply Forall_impl; [|exact H]. intros [t v] [H1 H2 _ _ _]. split; assumption. Qed.
  Lemma complete_min n bss : complete (N.min n (lenN (List.concat bss))) bss = complete n bss.
  Proof.
    revert n. induction bss as [|b bss IH]; intros n; [reflexivity|]. cbn [complete List.concat]. rewrite lenN_app.
    destruct (N.leb_spec (lenN b) n), (N.leb_spec (lenN b) (N.min n (lenN b + lenN (List.concat bss)))); try lia.
    f_equal. rewrite <- (IH (n - lenN b)). f_equal. lia.
  Qed.
  Lemma complete_all n bss : Forall (fun b => 0 < lenN b) bss -> (complete n bss = List.length bss <-> lenN (List.concat bss) <= n).
  Proof.
    intros H. revert n. induction H as [|b bss Hb H IH]; intros n; cbn [complete List.concat List.length].
    - change (lenN (@nil N)) with 0. split; [lia|reflexivity].
    - rewrite lenN_app. destruct (N.leb_spec (lenN b) n); [|split; [discriminate|lia]].
      specialize (IH (n - lenN b)). split; intros Hx; [|f_equal; apply IH; lia].
      assert (lenN (List.concat bss) <= n - lenN b) by (apply IH; lia). lia.
  Qed.
  Lemma encs_pos tvs : Forall (typed e) tvs -> all_size e tvs <= U64_MAX -> Forall (fun b => 0 < lenN b) (encs e tvs).
  Proof.
    intros Ht. induction Ht as [|[t v] tvs [T1 T1'] T2 IH]; intros Hs; [constructor|].
    unfold all_size in Hs. cbn [map] in Hs. change (sumN (?x :: ?l)) with (x + sumN l) in Hs. fold (all_size e tvs) in Hs. cbn [fst snd] in *.
    constructor; [|apply IH; lia]. cbn [fst snd].
    destruct (bytes_of_ok e Hwf t v T1 T1' ltac:(lia)) as ((a & _ & E) & _). rewrite E, lenN_app. change (lenN [0]) with 1. cbn. lia.
  Qed.

  Lemma recovery tvs bss n dbg sk sched vs x s' :
    Forall (fun p => storable cf e zc (fst p) (snd p)) tvs ->
    sumN (map (fun p => size_of e (fst p) (snd p)) tvs) + 3 < U64_MAX ->
    Forall2 (fun p b => exists dbg, to_vec e dbg (fst p) (snd p) = ROk b) tvs bss ->
    read_log e zc cf (map fst tvs) (new_stream dbg sk (mkDev (takeN n (List.concat bss)) 0 sched)) = (vs, x, s') ->
    (x = ROk tt \/ exists err, x = RErr err) /\
    (exists j, (j <= complete n bss)%nat /\ vs = firstn j (map snd tvs)) /\
    (x = ROk tt -> lenN (List.concat bss) <= n /\ vs = map snd tvs) /\
    (Forall (fun y => y <> EvFail) sched ->
       vs = firstn (complete n bss) (map snd tvs) /\ (lenN (List.concat bss) <= n -> x = ROk tt)).
  Proof.
    intros Hst Hs Hbs H. pose proof (typed_of _ Hst) as Ht. fold (all_size e tvs) in Hs.
    assert (Hb : bss = encs e tvs) by (apply encs_vec; auto; lia). subst bss.
    destruct (all_bytes_ok e Hwf tvs Ht ltac:(lia)) as [Hok Hl]. rewrite all_bytes_encs in Hok, Hl.
    set (w := takeN n (List.concat (encs e tvs))) in *. set (y := dropN n (List.concat (encs e tvs))).
    assert (E : w ++ y = all_bytes e tvs) by apply takeN_dropN.
    assert (Hlen : lenN w + lenN y = lenN (List.concat (encs e tvs))) by (rewrite <- lenN_app, E; reflexivity).
    set (s0 := new_stream dbg sk (mkDev w 0 [])).
    assert (A : starts s0 w []).
    { unfold s0. pose proof (fresh_starts dbg sk w []) as F. rewrite app_nil_r in F. apply F; [now apply bytes_ok_takeN|lia]. }
    assert (B : starts (ext y s0) (all_bytes e tvs) []).
    { change (ext y s0) with (new_stream dbg sk (mkDev (w ++ y) 0 [])).
      pose proof (fresh_starts dbg sk (all_bytes e tvs) []) as F. rewrite app_nil_r in F. rewrite E. apply F; [exact Hok|].
      rewrite all_bytes_encs. lia. }
    destruct (recover e zc cf Hwf Hcc Hcb tvs y ltac:(now apply bytes_ok_dropN) Hst ltac:(lia) s0 w E A B) as (x0 & s1 & R & Hx).
    assert (Hc : complete (lenN w) (encs e tvs) = complete n (encs e tvs)).
    { unfold w. rewrite lenN_takeN. apply complete_min. }
    rewrite Hc in R, Hx.
    assert (Hall : complete n (encs e tvs) = List.length tvs <-> lenN (List.concat (encs e tvs)) <= n).
    { rewrite <- (complete_all n (encs e tvs)) by (apply encs_pos; auto; lia). unfold encs at 3. now rewrite map_length. }
    assert (Hk : (complete n (encs e tvs) <= List.length tvs)%nat) by (destruct Hx as [[_ ->]|(? & _ & ?)]; lia).
    assert (Hfl : List.length (firstn (complete n (encs e tvs)) (map snd tvs)) = complete n (encs e tvs)).
    { rewrite firstn_length, map_length. lia. }
    destruct (log_dsim _ _ _ _ _ _ _ _ H) as [[E2 _]|(Hnb & (err & ->) & vs2 & x2 & s2 & E2 & j & Hj & Ej)];
      change (strip (new_stream dbg sk (mkDev w 0 sched))) with s0 in E2; rewrite R in E2.
    - assert (Evs : vs = firstn (complete n (encs e tvs)) (map snd tvs)) by congruence.
      assert (Ex : x = x0) by congruence. subst vs x0.
      destruct Hx as [[-> Hx]|(err & -> & Hx)].
      + split; [now left|]. split; [eexists; split; [apply le_n|reflexivity]|].
        split; [intros _; split; [now apply Hall|]|intros _; auto].
        rewrite Hx, <- (map_length snd tvs). apply firstn_all.
      + split; [right; now exists err|]. split; [eexists; split; [apply le_n|reflexivity]|]. split; [discriminate|].
        intros _. split; [reflexivity|]. intros Hn. apply Hall in Hn. lia.
    - assert (Evs : vs2 = firstn (complete n (encs e tvs)) (map snd tvs)) by congruence. subst vs2.
      split; [right; now exists err|]. split; [|split; [discriminate|intros Hben; now elim Hnb]].
      exists j. rewrite Hfl in Hj. split; [exact Hj|]. rewrite Ej, firstn_firstn. f_equal. lia.
  Qed.

  Lemma interrupted tvs dw kw schedw r s1 dr kr schedr vs x s2 :
    Forall (fun p => storable cf e zc (fst p) (snd p)) tvs ->
    sumN (map (fun p => size_of e (fst p) (snd p)) tvs) + 3 < U64_MAX ->
    write_values e tvs (new_stream dw kw (mkDev [] 0 schedw)) = (r, s1) ->
    read_log e zc cf (map fst tvs) (new_stream dr kr (mkDev (d_data (s_dev s1)) 0 schedr)) = (vs, x, s2) ->
    (exists j, vs = firstn j (map snd tvs)) /\
    (x = ROk tt -> r = ROk tt /\ vs = map snd tvs) /\
    (r = ROk tt -> Forall (fun y => y <> EvFail) schedr -> x = ROk tt /\ vs = map snd tvs).
  Proof.
    intros Hst Hs Hw Hr. pose proof (typed_of _ Hst) as Ht.
    destruct (partial_write tvs Ht ltac:(lia)) as (bss & Hb & Hp).
    destruct (Hp _ _ [] _ _ _ Hw) as (n & E & Hres). cbn [app] in E. rewrite E in Hr.
    assert (Hb2 : Forall2 (fun p b => exists dbg, to_vec e dbg (fst p) (snd p) = ROk b) tvs bss).
    { clear - Hb. induction Hb; constructor; auto. exists true. auto. }
    destruct (recovery tvs bss n dr kr schedr vs x s2 Hst Hs Hb2 Hr) as (H1 & (j & Hj & H2) & H3 & H4).
    split; [now exists j|]. split.
    - intros ->. destruct (H3 eq_refl) as [H5 H6]. split; [|exact H6]. destruct Hres as [[-> _]|(z & -> & Hn)]; [reflexivity|lia].
    - intros -> Hben. destruct (H4 Hben) as [H5 H6]. destruct Hres as [[_ ->]|(z & Hz & _)]; [|discriminate].
      specialize (H6 (N.le_refl _)). split; [exact H6|]. now apply H3.
  Qed.
  End Read.
End Claims.
