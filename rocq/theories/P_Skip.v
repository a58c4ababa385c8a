(** * P_Skip: [skip_up] and [Field::skip] (C16) *)

From Verif Require Import Base Wire Dev Stream SpecWire SpecFormat SpecStream
  P_Base P_Wire P_Sched P_Read P_Write P_Blob P_Stream P_Field.

Lemma element_step s e h tl :
  positioned s (h ++ payload e ++ tl) -> hdr_enc (hdr_of e) h ->
  s_pos s + pend s + lenN h + lenN (payload e) <= U64_MAX -> s_depth s + 1 < U64_MAX ->
  exists s', next_element s = (ROk (elem_of (hdr_of e) (s_pos s + pend s) (s_depth s)), s') /\
    positioned (set_eof_ false s') tl /\ s_eof s' = (match e with DEof => true | _ => false end) /\
    s_depth s' = depth_after (hdr_of e) (s_depth s) /\
    s_pos s' + pend s' = s_pos s + pend s + lenN h + lenN (payload e).
Proof.
  intros Hpos Henc Hp Hd.
  destruct (positioned_after s 0 (hdr_of e) h (payload e) tl Hpos Henc (payload_hdr e)) as (_ & Hpb & Hpp & _).
  { change (N.of_nat 0) with 0. lia. }
  destruct Hpos as (Hi & He & Hpd & Hu).
  change (N.of_nat 0) with 0 in *. rewrite adv_0, N.add_0_r in *.
  exists (after (hdr_of e) h (settled s)). split.
  - unfold next_element. rewrite (impl_complete false s (hdr_of e) h (payload e ++ tl) 0%nat); auto.
    + change (N.of_nat 0) with 0. now rewrite adv_0, N.add_0_r.
    + discriminate.
    + rewrite payload_hdr. change (N.of_nat 0) with 0. lia.
    + unfold depth_fits, field_depth. destruct (hdr_of e) as [t []| | | |]; try exact I; lia.
  - split; [exact Hpb|]. split; [|split; [rewrite after_depth; reflexivity|exact Hpp]].
    rewrite after_eof. change (s_eof (settled s)) with (s_eof s). destruct e as [t []| | | |]; auto.
Qed.

Lemma set_eof_same s : s_eof s = false -> set_eof_ false s = s.
Proof. intros H. apply stream_eq; scbn; auto. Qed.

Lemma depth_after_le h d : depth_after h d <= d + 2.
Proof. unfold depth_after, field_depth. destruct h as [t []| | | |]; lia. Qed.

Lemma skip_up_nat D es : forall bs s tl, es <> [] ->
  elems_enc es bs -> positioned s (bs ++ tl) -> s_pos s + pend s + lenN bs <= U64_MAX ->
  s_depth s + 2 * N.of_nat (length es) + 1 < U64_MAX ->
  stays_below D (s_depth s) es -> depth_through es (s_depth s) <= D ->
  exists s', mloop_nat (S (length es)) (fun _ : unit =>
           let* s := mget in
           if D <? s_depth s then next_element ;; mret (inl tt)
           else mret (inr tt)) tt s = (ROk tt, s') /\
    positioned (set_eof_ false s') tl /\
    s_eof s' = (match last es DPad with DEof => true | _ => false end) /\
    s_depth s' = depth_through es (s_depth s) /\
    s_pos s' + pend s' = s_pos s + pend s + lenN bs.
Proof.
  induction es as [|e es IH]; intros bs s tl Hne Henc Hpos Hp Hd Hb Hf; [congruence|].
  inversion Henc as [|? ? b bs2 He Hes]; subst. destruct He as (h & Hh & Hpo & ->).
  cbn [stays_below] in Hb. destruct Hb as [Hlt Hb]. rewrite lenN_app, lenN_app in *.
  cbn [length] in *. rewrite <- !app_assoc in Hpos.
  destruct (element_step s e h (bs2 ++ tl) Hpos Hh) as (s1 & H1 & Hp1 & He1 & Hd1 & Hq1); try lia.
  rewrite mloop_nat_S. unfold mbind at 1, mbind at 1, mget.
  destruct (N.ltb_spec D (s_depth s)); [|lia].
  rewrite (mbind_ok _ _ _ _ _ H1). unfold mret at 1. cbv iota.
  change (depth_through (e :: es) (s_depth s)) with (depth_through es (depth_after (hdr_of e) (s_depth s))) in *.
  rewrite <- Hd1 in *.
  destruct es as [|e2 es].
  - inversion Hes; subst. cbn [app] in *. exists s1. 
    change (depth_through [] (s_depth s1)) with (s_depth s1) in Hf.
    cbn [length]. rewrite mloop_nat_S. unfold mbind, mget.
    destruct (N.ltb_spec D (s_depth s1)); [lia|].
    split; [reflexivity|]. split; [exact Hp1|]. split; [exact He1|]. split; [reflexivity|].
    change (lenN (@nil N)) with 0. lia.
  - assert (Hnd : e <> DEof).
    { intros ->. cbn [stays_below hdr_of depth_after] in *. rewrite Hd1 in Hb. destruct Hb as [Hb _]. lia. }
    assert (Heq : set_eof_ false s1 = s1) by (apply set_eof_same; rewrite He1; destruct e; congruence).
    rewrite Heq in Hp1. 
    destruct (IH bs2 s1 tl) as (s2 & H2 & Hp2 & He2 & Hd2 & Hq2); auto; try discriminate; try lia.
    { pose proof (depth_after_le (hdr_of e) (s_depth s)). lia. }
    exists s2. split; [exact H2|]. split; [exact Hp2|]. split; [exact He2|]. split; [exact Hd2|]. lia.
Qed.

Lemma elems_enc_len es bs : elems_enc es bs -> N.of_nat (length es) <= lenN bs.
Proof.
  induction 1 as [|e es b bs (h & Hh & _ & ->) Hes IH]; [cbn; lia|].
  rewrite !lenN_app. pose proof (hdr_enc_len _ _ Hh). cbn [length]. lia.
Qed.

Lemma skip_up_ok D es bs s tl : es <> [] ->
  elems_enc es bs -> positioned s (bs ++ tl) -> s_pos s + pend s + lenN bs <= U64_MAX ->
  s_depth s + 2 * N.of_nat (length es) + 1 < U64_MAX ->
  stays_below D (s_depth s) es -> depth_through es (s_depth s) <= D ->
  exists s', skip_up D s = (ROk tt, s') /\
    positioned (set_eof_ false s') tl /\
    s_eof s' = (match last es DPad with DEof => true | _ => false end) /\
    s_depth s' = depth_through es (s_depth s) /\
    s_pos s' + pend s' = s_pos s + pend s + lenN bs.
Proof.
  intros Hne Henc Hpos Hp Hd Hb Hf.
  destruct (skip_up_nat D es bs s tl Hne Henc Hpos Hp Hd Hb Hf) as (s' & H1 & H2).
  exists s'. split; [|exact H2]. unfold skip_up.
  apply mloop_of_nat with (n := S (length es)); [|exact H1|discriminate].
  pose proof (elems_enc_len es bs Henc). unfold U64_MAX, U64_MOD in *. lia.
Qed.

(** Well-nested contents. *)
Lemma depth_through_app a b d : depth_through (a ++ b) d = depth_through b (depth_through a d).
Proof. unfold depth_through. apply fold_left_app. Qed.
Lemma stays_below_app D a b : forall d, stays_below D d (a ++ b) <-> stays_below D d a /\ stays_below D (depth_through a d) b.
Proof.
  induction a as [|e a IH]; intros d; cbn [app stays_below].
  - unfold depth_through. cbn [fold_left]. tauto.
  - rewrite IH. unfold depth_through. cbn [fold_left]. tauto.
Qed.
Lemma wf_depth es : wf_items es -> forall D d, 1 <= d -> D < d ->
  depth_through es d = d /\ stays_below D d es.
Proof.
  assert (Hf : forall d, 1 <= d -> field_depth d = d) by (intros; unfold field_depth; lia).
  assert (Hn : forall (e : delem) body r d,
    depth_after (hdr_of e) d = d + 1 ->
    (forall D d0, 1 <= d0 -> D < d0 -> depth_through body d0 = d0 /\ stays_below D d0 body) ->
    (forall D d0, 1 <= d0 -> D < d0 -> depth_through r d0 = d0 /\ stays_below D d0 r) ->
    forall D, 1 <= d -> D < d -> depth_through (e :: body ++ DEnd :: r) d = d /\ stays_below D d (e :: body ++ DEnd :: r)).
  { intros e body r d He Hb Hr D Hd HD. cbn [stays_below].
    change (depth_through (e :: body ++ DEnd :: r) d) with (depth_through (body ++ DEnd :: r) (depth_after (hdr_of e) d)).
    rewrite He. destruct (Hb D (d + 1)) as [B1 B2]; try lia. destruct (Hr D d) as [R1 R2]; try lia.
    rewrite depth_through_app, B1, stays_below_app, B1. cbn [stays_below].
    change (depth_through (DEnd :: r) (d + 1)) with (depth_through r (depth_after HdEnd (d + 1))).
    change (depth_after (hdr_of DEnd) (d + 1)) with (depth_after HdEnd (d + 1)).
    cbn [depth_after]. replace (d + 1 - 1) with d by lia. repeat split; auto; lia. }
  induction 1; intros D d0 Hd HD.
  - split; [reflexivity|exact I].
  - cbn [stays_below depth_through fold_left hdr_of depth_after]. rewrite Hf by exact Hd.
    destruct (IHwf_items D d0 Hd HD). split; auto.
  - cbn [stays_below depth_through fold_left hdr_of depth_after]. rewrite Hf by exact Hd.
    destruct (IHwf_items D d0 Hd HD). split; auto.
  - cbn [stays_below depth_through fold_left hdr_of depth_after].
    destruct (IHwf_items D d0 Hd HD). split; auto.
  - cbn [stays_below depth_through fold_left hdr_of depth_after].
    destruct (IHwf_items D d0 Hd HD). split; auto.
  - apply Hn; auto. cbn [hdr_of depth_after]. now rewrite Hf.
  - apply Hn; auto. cbn [hdr_of depth_after]. now rewrite Hf.
Qed.

(** [Field::skip] directly after the field was returned. *)
Lemma field_skip_ok s f body bs tl :
  f_val f = HStruct \/ (exists d, f_val f = HEnum d) ->
  s_depth s = f_depth f + 1 -> 1 <= f_depth f ->
  wf_items body -> elems_enc (body ++ [DEnd]) bs -> positioned s (bs ++ tl) ->
  s_pos s + pend s + lenN bs <= U64_MAX ->
  s_depth s + 2 * lenN bs + 1 < U64_MAX ->
  exists s', field_skip f s = (ROk tt, s') /\ positioned s' tl /\ s_depth s' = f_depth f /\
    s_pos s' + pend s' = s_pos s + pend s + lenN bs.
Proof.
  intros Hv Hd H1 Hwf Henc Hpos Hp Hb.
  destruct (wf_depth body Hwf (f_depth f) (s_depth s)) as [W1 W2]; try lia.
  destruct (skip_up_ok (f_depth f) (body ++ [DEnd]) bs s tl) as (s' & S1 & S2 & S3 & S4 & S5); auto.
  { destruct body; discriminate. }
  { pose proof (elems_enc_len _ _ Henc). lia. }
  { rewrite stays_below_app, W1. split; [exact W2|]. cbn [stays_below]. split; [lia|exact I]. }
  { rewrite depth_through_app, W1. cbn [depth_through fold_left hdr_of depth_after]. lia. }
  rewrite last_last in S3.
  exists s'. split.
  - unfold field_skip. destruct Hv as [->|(d & ->)]; exact S1.
  - rewrite set_eof_same in S2 by exact S3. split; [exact S2|]. split; [|exact S5].
    rewrite S4, depth_through_app, W1. cbn [depth_through fold_left hdr_of depth_after]. lia.
Qed.

(** Skipping a leaf does nothing. *)
Lemma field_skip_leaf s f : (exists n, f_val f = HInt n) \/ (exists n, f_val f = HBlob n) ->
  field_skip f s = (ROk tt, s).
Proof. intros [(n & H)|(n & H)]; unfold field_skip; rewrite H; reflexivity. Qed.

(** Termination on arbitrary input. *)
Lemma skip_up_terminates D s : seqinv s ->
  match fst (skip_up D s) with RPanic | RFuel => False | _ => True end.
Proof.
  intros Hq.
  pose proof (mloop_inv (fun _ : unit =>
           let* s := mget in
           if D <? s_depth s then next_element ;; mret (inl tt)
           else mret (inr tt))
    (fun _ s => seqinv s)
    (fun s => if s_eof s then 0 else 1 + lenN (unread s))
    (fun (r : res serr unit) _ => match r with RPanic | RFuel => False | _ => True end)) as H.
  specialize (H) with (a := tt) (s := s).
  unfold skip_up. destruct (mloop _ tt s) as [r s'] eqn:E. cbn [fst]. apply H; clear H E.
  - intros _ s1 Hq1. unfold mbind, mget.
    destruct (N.ltb_spec D (s_depth s1)) as [Hlt|Hlt]; [|exact I].
    destruct (next_element s1) as [[e|e| |] s2] eqn:En; cbv iota.
    + destruct (seqinv_step s1 e s2 Hq1 En) as (Hq2 & _ & _ & Heof). split; [exact Hq2|].
      destruct (s_eof s1) eqn:E1.
      { pose proof (sq_eof s1 Hq1 E1). lia. }
      destruct (s_eof s2) eqn:E2; [lia|].
      apply elem_sound in En; auto; [|apply Hq1|].
      * destruct En as [(blob & hd & h & Hu & _ & Hh & _)|(_ & He & _)].
        -- rewrite Hu, !lenN_app. pose proof (hdr_enc_len _ _ Hh). lia.
        -- specialize (Heof He). discriminate.
      * pose proof (sq_len s1 Hq1). pose proof (sq_depth s1 Hq1). lia.
    + exact I.
    + pose proof (elem_no_panic s1 (sq_r s1 Hq1)) as Hn. rewrite En in Hn. apply Hn.
      pose proof (sq_len s1 Hq1). pose proof (sq_depth s1 Hq1). lia.
    + pose proof (elem_no_panic s1 (sq_r s1 Hq1)) as Hn. rewrite En in Hn. apply Hn.
      pose proof (sq_len s1 Hq1). pose proof (sq_depth s1 Hq1). lia.
  - exact Hq.
  - pose proof (sq_len s Hq). pose proof (rest_len s). change (rest s) with (unread s) in *.
    unfold U64_MOD, U64_MAX in *. destruct (s_eof s); lia.
Qed.

(** Reading a struct or enum field and skipping it. *)
Lemma read_skip_ok s t v h body bs tl :
  v = HvStruct \/ (exists d, v = HvEnum d) ->
  hdr_enc (HdField t v) h -> wf_items body -> elems_enc (body ++ [DEnd]) bs ->
  positioned s (h ++ bs ++ tl) ->
  s_pos s + pend s + lenN h + lenN bs <= U64_MAX ->
  s_depth s + 2 * lenN bs + 3 < U64_MAX ->
  exists f s1 s2, next_element s = (ROk (ElField f), s1) /\ f_tag f = t /\ f_val f = vhdr_of v /\
    field_skip f s1 = (ROk tt, s2) /\ positioned s2 tl /\ s_depth s2 = field_depth (s_depth s) /\
    s_pos s2 + pend s2 = s_pos s + pend s + lenN h + lenN bs.
Proof.
  intros Hv Henc Hwf Hel Hpos Hp Hd.
  assert (He : exists e, hdr_of e = HdField t v /\ payload e = [] /\ e <> DEof).
  { destruct Hv as [->|(d & ->)]; [exists (DField t DStructV)|exists (DField t (DEnumV d))]; repeat split; discriminate. }
  destruct He as (e & He1 & He2 & He3).
  destruct (element_step s e h (bs ++ tl)) as (s1 & H1 & H2 & H3 & H4 & H5).
  { rewrite He2. exact Hpos. } { now rewrite He1. } { rewrite He2. change (lenN (@nil N)) with 0. lia. } { lia. }
  rewrite He1 in H1. cbn [elem_of] in H1. rewrite He2 in H5. change (lenN (@nil N)) with 0 in H5.
  set (f := mkField t (s_pos s + pend s) (field_depth (s_depth s)) (vhdr_of v)) in *.
  assert (Heof : s_eof s1 = false) by (rewrite H3; destruct e; congruence).
  rewrite (set_eof_same s1 Heof) in H2.
  assert (Hd1 : s_depth s1 = field_depth (s_depth s) + 1).
  { rewrite H4, He1. destruct Hv as [->|(d & ->)]; reflexivity. }
  assert (Hfd : field_depth (s_depth s) <= s_depth s + 1) by (unfold field_depth; lia).
  destruct (field_skip_ok s1 f body bs tl) as (s2 & K1 & K2 & K3 & K4).
  { destruct Hv as [->|(d & ->)]; [left; reflexivity|right; exists d; reflexivity]. }
  { exact Hd1. } { cbn. unfold field_depth. lia. } { exact Hwf. } { exact Hel. } { exact H2. } { lia. } { lia. }
  exists f, s1, s2. repeat split; try assumption; try apply K2; try lia.
Qed.

(** With a forged depth at the end of the document, [skip_up] never
    returns: no iteration makes progress. *)
Lemma skip_up_stuck D s : s_eof s = true -> D < s_depth s -> skip_up D s = (RFuel, s).
Proof.
  intros He Hd. unfold skip_up, mloop.
  assert (Hm : forall p, miter p (fun _ : unit =>
           let* s := mget in
           if D <? s_depth s then next_element ;; mret (inl (B := unit) tt)
           else mret (inr tt)) tt s = (ROk (inl tt), s)).
  { assert (H1 : (let* s := mget in
           if D <? s_depth s then next_element ;; mret (inl (B := unit) tt)
           else mret (inr tt)) s = (ROk (inl tt), s)).
    { unfold mbind at 1, mget. destruct (N.ltb_spec D (s_depth s)); [|lia].
      unfold mbind, next_element, next_element_impl. rewrite He. reflexivity. }
    induction p as [q IH|q IH|]; cbn [miter].
    - unfold mbind at 1. rewrite H1. unfold mbind at 1. rewrite IH. exact IH.
    - unfold mbind at 1. rewrite IH. exact IH.
    - exact H1. }
  unfold mbind at 1. rewrite Hm. reflexivity.
Qed.
Lemma skip_up_refuted :
  exists data s, snd (next_element (from_slice true data)) = s /\ s_eof s = true /\
    forall d D, D < d -> skip_up D (snd (set_struct_depth d s)) = (RFuel, snd (set_struct_depth d s)).
Proof.
  exists [0x40], (snd (next_element (from_slice true [0x40]))). split; [reflexivity|]. split; [vm_compute; reflexivity|].
  intros d D Hd. apply skip_up_stuck; [vm_compute; reflexivity|exact Hd].
Qed.
Lemma fresh_skip_up_terminates dbg sk gr data n es s D :
  bytes_ok data -> lenN data + 3 < U64_MAX ->
  next_elements n (set_graceful_ gr (new_stream dbg sk (mkDev data 0 []))) = (ROk es, s) ->
  match fst (skip_up D s) with RPanic | RFuel => False | _ => True end.
Proof.
  intros Hok Hl H. apply next_elements_depth in H; [|now apply fresh_seqinv]. apply skip_up_terminates. tauto.
Qed.
