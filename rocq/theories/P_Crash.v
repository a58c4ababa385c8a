(** * P_Crash: what a writer that fails half-way leaves behind (C60) *)

From Verif Require Import Base Wire Dev Stream Types Ser Prog De SpecWire SpecFormat SpecStream SpecDe SpecDoc SpecSerDe
  P_Base P_Wire P_Sched P_Read P_Write P_Stream P_Types P_Ser P_DocOk P_SerDe.

Strategy 1000 [s_decode_u64 decode_u64 decode_loop write_all read_exact encode_u64 enc_loop encode_fixed_u64 mloop miter].

(** The cursor is at the end of what the device holds. *)
Definition wend (s : stream) : Prop := d_pos (s_dev s) = lenN (d_data (s_dev s)).

(** Some bytes were appended. *)
Record grew (w : bytes) (s s' : stream) : Prop := mkGrew {
  gr_data : d_data (s_dev s') = d_data (s_dev s) ++ w;
  gr_end : wend s';
  gr_pos : s_pos s' = s_pos s + lenN w
}.
Lemma grew_refl s : wend s -> grew [] s s.
Proof. intros H. constructor; [now rewrite app_nil_r|exact H|]. change (lenN (@nil N)) with 0. lia. Qed.
Lemma grew_app a b s1 s2 s3 : grew a s1 s2 -> grew b s2 s3 -> grew (a ++ b) s1 s3.
Proof.
  intros [A1 A2 A3] [B1 B2 B3]. constructor; [rewrite B1, A1; now rewrite app_assoc|exact B2|].
  rewrite B3, A3, lenN_app. lia.
Qed.

(** From [s], [m] appends [bs] and ends in [Q], or fails having appended a
    proper prefix. *)
Definition emit {X A} (bs : bytes) (m : M stream X A) (s : stream) (Q : A -> stream -> Prop) : Prop :=
  forall r s', m s = (r, s') ->
    (exists a, r = ROk a /\ grew bs s s' /\ Q a s') \/
    (exists x w y, r = RErr x /\ bs = w ++ y /\ y <> [] /\ grew w s s').

Lemma emit_bind {X A B} a b (m : M stream X A) (k : A -> M stream X B) s Q Q' :
  emit a m s Q -> (forall x s1, grew a s s1 -> Q x s1 -> emit b (k x) s1 Q') ->
  emit (a ++ b) (mbind m k) s Q'.
Proof.
  intros Hm Hk r s' H. unfold mbind in H. destruct (m s) as [r1 s1] eqn:E1.
  destruct (Hm r1 s1 E1) as [(x & -> & G & HQ)|(x & w & y & -> & E & Hy & G)].
  - destruct (Hk x s1 G HQ r s' H) as [(x2 & -> & G2 & HQ2)|(x2 & w & y & -> & E & Hy & G2)].
    + left. exists x2. split; [reflexivity|]. split; [exact (grew_app _ _ _ _ _ G G2)|exact HQ2].
    + right. exists x2, (a ++ w), y. split; [reflexivity|]. split; [rewrite E; now rewrite app_assoc|].
      split; [exact Hy|exact (grew_app _ _ _ _ _ G G2)].
  - injection H as <- <-. right. exists x, w, (y ++ b). split; [reflexivity|].
    split; [rewrite E; now rewrite app_assoc|]. split; [|exact G]. destruct y; [congruence|discriminate].
Qed.
Lemma emit_ret {X A} (a : A) s (Q : A -> stream -> Prop) : wend s -> Q a s -> emit (X := X) [] (mret a) s Q.
Proof. intros Hw HQ r s' H. injection H as <- <-. left. exists a. split; [reflexivity|]. split; [now apply grew_refl|exact HQ]. Qed.
(** A step that appends nothing and cannot fail. *)
Lemma emit_quiet {X A B} bs (m : M stream X A) (k : A -> M stream X B) s a s1 Q :
  m s = (ROk a, s1) -> s_dev s1 = s_dev s -> s_pos s1 = s_pos s -> emit bs (k a) s1 Q -> emit bs (mbind m k) s Q.
Proof.
  intros Hm Hd Hp Hk r s' H. rewrite (mbind_ok _ _ _ _ _ Hm) in H.
  assert (G : forall w, grew w s1 s' -> grew w s s').
  { intros w [G1 G2 G3]. constructor; [now rewrite G1, Hd|exact G2|now rewrite G3, Hp]. }
  destruct (Hk r s' H) as [(x & -> & G1 & HQ)|(x & w & y & -> & E & Hy & G1)].
  - left. exists x. auto.
  - right. exists x, w, y. auto.
Qed.
Lemma emit_lift {A} bs (m : IM A) s Q : emit bs m s Q -> emit bs (lift_io m) s Q.
Proof.
  intros Hm r s' H. unfold lift_io in H. destruct (m s) as [r1 s1] eqn:E1.
  destruct (Hm r1 s1 E1) as [(x & -> & G & HQ)|(x & w & y & -> & E & Hy & G)]; injection H as <- <-.
  - left. exists x. auto.
  - right. exists (SIo x), w, y. auto.
Qed.
Lemma emit_imp {X A} bs (m : M stream X A) s (Q Q' : A -> stream -> Prop) :
  emit bs m s Q -> (forall a s', grew bs s s' -> Q a s' -> Q' a s') -> emit bs m s Q'.
Proof.
  intros Hm HQ r s' H. destruct (Hm r s' H) as [(x & -> & G & G2)|G]; [left|now right].
  exists x. auto.
Qed.
Lemma emit_eq {X A} bs (m m' : M stream X A) s Q : m s = m' s -> emit bs m' s Q -> emit bs m s Q.
Proof. intros E H r s' Hr. rewrite E in Hr. now apply H. Qed.

(** ** The write loop under any schedule *)
Definition roomy (c : rcap) (n : N) : Prop :=
  match c with CapPanic => False | CapNone => True | Cap c => n <= c end.
Lemma wr_sched w sc s : wr w (set_sched sc s) = set_sched sc (wr w s).
Proof. reflexivity. Qed.
Lemma sched_sched a b s : set_sched a (set_sched b s) = set_sched a s.
Proof. reflexivity. Qed.
Lemma sched_self s : set_sched (sch s) s = s.
Proof. destruct s as [[d p sc] ? ? ? ? ? ? ? ? ?]. reflexivity. Qed.
Lemma wr_grew w s : wend s -> grew w s (wr w s).
Proof.
  intros H. unfold wend in *. constructor; unfold wend, wr; cbn [s_dev d_data d_pos set_pos_ set_dev s_pos].
  - rewrite H. unfold put_at. rewrite N.sub_diag, takeN_all by lia. cbn [repeat N.to_nat app]. rewrite dropN_all by lia. now rewrite app_nil_r.
  - rewrite H. rewrite lenN_put_at by lia. lia.
  - reflexivity.
Qed.

Lemma write_loop_any cap : cap_good_w cap -> forall fuel bs s r s',
  wend s -> roomy (cap s) (lenN bs) -> s_pos s + lenN bs <= U64_MAX -> (2 + List.length (sch s) <= fuel)%nat ->
  write_all_loop (wr_of cap) fuel bs s = (r, s') ->
  exists w y sc, bs = w ++ y /\ s' = set_sched sc (wr w s) /\
    ((r = ROk tt /\ y = []) \/ (exists x, r = RErr x /\ y <> [])).
Proof.
  intros [Hg1 Hg2]. induction fuel as [|fuel IH]; intros bs s r s' Hw Hr Hp Hf H; [lia|].
  assert (Hnil : wr [] s = s).
  { unfold wend in Hw. unfold wr. rewrite put_at_nil by lia. change (lenN (@nil N)) with 0.
    rewrite !N.add_0_r. destruct s as [[d p sc] ? ? ? ? ? ? ? ? ?]. reflexivity. }
  cbn [write_all_loop] in H. destruct bs as [|b l].
  { injection H as <- <-. exists [], [], (sch s). rewrite Hnil, sched_self. auto. }
  set (bs := b :: l) in *.
  assert (Hne : bs <> []) by discriminate.
  assert (Hwr : wr_of cap bs s = t_write bs s).
  { unfold wr_of. destruct (cap s) as [| |c]; [now elim Hr|reflexivity|]. cbn in Hr. now rewrite takeN_all. }
  rewrite Hwr, (t_write_eq bs s Hne) in H.
  destruct (N.ltb_spec (U64_MAX - s_pos s) (lenN bs)); [lia|].
  destruct (sch s) as [|[c| |] q] eqn:Es.
  - assert (Hl : lenN bs <> 0) by (unfold bs; rewrite lenN_cons; lia).
    destruct (N.eqb_spec (lenN bs) 0); [lia|]. rewrite dropN_all in H by lia.
    destruct fuel as [|f2]; [cbn in Hf; lia|]. cbn [write_all_loop] in H. injection H as <- <-.
    exists bs, [], []. rewrite app_nil_r. split; [reflexivity|]. split; [|now left].
    change (sch s) with (sch (wr bs s)) in Es. rewrite <- Es. now rewrite sched_self.
  - cbv zeta in H. set (k := N.min (lenN bs) (N.max 1 c)) in *.
    assert (Hl : lenN bs <> 0) by (unfold bs; rewrite lenN_cons; lia).
    rewrite lenN_takeN in H. destruct (N.eqb_spec (N.min k (lenN bs)) 0); [lia|].
    replace (N.min k (lenN bs)) with k in H by lia.
    assert (Hlt : lenN (takeN k bs) = k) by (rewrite lenN_takeN; lia).
    assert (Hc : cap (wr (takeN k bs) (set_sched q s)) = cap_sub (cap s) k).
    { rewrite Hg1; [now rewrite Hg2, Hlt|rewrite Hg2, Hlt|rewrite Hlt; scbn; cbn; lia].
      destruct (cap s); cbn in *; auto; lia. }
    apply IH in H.
    + destruct H as (w & y & sc & E & Es' & Hres). exists (takeN k bs ++ w), y, sc.
      split; [rewrite <- app_assoc, <- E; symmetry; apply takeN_dropN|]. split; [|exact Hres].
      rewrite Es', wr_wr, wr_sched, sched_sched. reflexivity.
    + apply (wr_grew (takeN k bs) (set_sched q s)). exact Hw.
    + rewrite Hc, lenN_dropN. destruct (cap s) as [| |c']; cbn in *; [exact Hr|exact Logic.I|lia].
    + rewrite wr_pos, Hlt, lenN_dropN. scbn. change (s_pos (set_sched q s)) with (s_pos s). lia.
    + change (sch (wr (takeN k bs) (set_sched q s))) with q. cbn [List.length] in Hf. lia.
  - apply IH in H.
    + destruct H as (w & y & sc & E & Es' & Hres). exists w, y, sc. split; [exact E|]. split; [|exact Hres].
      now rewrite Es', wr_sched, sched_sched.
    + exact Hw.
    + rewrite Hg2. exact Hr.
    + exact Hp.
    + change (sch (set_sched q s)) with q. cbn [List.length] in Hf. lia.
  - injection H as <- <-. exists [], bs, q. split; [reflexivity|]. split; [now rewrite Hnil|].
    right. exists IoOther. auto.
Qed.

(** What else there is in the stream is left alone. *)
Definition kept (s s' : stream) : Prop :=
  s_commit s' = s_commit s /\ s_blob_end s' = s_blob_end s /\ s_dbg s' = s_dbg s.

Lemma emit_write_all cap f bs s : cap_good_w cap -> (forall b s, f b s = wr_of cap b s) ->
  wend s -> roomy (cap s) (lenN bs) -> s_pos s + lenN bs <= U64_MAX ->
  emit bs (write_all sch f bs) s (fun _ s' => kept s s').
Proof.
  intros Hg He Hw Hr Hp r s' H. unfold write_all in H. rewrite (write_all_loop_ext f (wr_of cap) He) in H.
  destruct (write_loop_any cap Hg _ bs s r s' Hw Hr Hp (le_n _) H) as (w & y & sc & E & -> & Hres).
  assert (G : grew w s (set_sched sc (wr w s))).
  { destruct (wr_grew w s Hw) as [G1 G2 G3]. constructor; [exact G1|exact G2|exact G3]. }
  destruct Hres as [[-> ->]|(x & -> & Hy)].
  - left. exists tt. rewrite app_nil_r in E. subst w. split; [reflexivity|]. split; [exact G|repeat split].
  - right. exists x, w, y. auto.
Qed.
Lemma emit_tw bs s : wend s -> s_pos s + lenN bs <= U64_MAX -> emit bs (write_all sch t_write bs) s (fun _ s' => kept s s').
Proof. intros Hw Hp. apply (emit_write_all cap_none); auto using cap_none_good_w. exact Logic.I. Qed.
Lemma emit_bw bs s : wend s -> s_pos s + lenN bs <= s_blob_end s -> s_blob_end s <= U64_MAX ->
  emit bs (b_write_all bs) s (fun _ s' => kept s s').
Proof.
  intros Hw Hp He. apply (emit_write_all cap_blob); auto using cap_blob_good_w, b_write_wr; [|lia].
  unfold cap_blob. rewrite u64_sub_ok by lia. cbn. lia.
Qed.

(** ** The operations *)
Lemma emit_desc d s : wend s -> settled_w s -> pdesc_ok d -> s_pos s + 1 <= U64_MAX ->
  emit [desc_code d] (write_desc d) s (fun _ s' => s_commit s' = None).
Proof.
  intros Hw Hs Hd Hp. unfold write_desc. eapply emit_quiet; [apply (commit_settled s Hs)|reflexivity|reflexivity|].
  eapply emit_eq.
  { unfold mbind, mres. rewrite (desc_code_ok _ _ _ Hd). reflexivity. }
  eapply emit_imp; [apply emit_lift, emit_tw; [exact Hw|exact Hp]|].
  intros u1 s1 _ (H & _). exact H.
Qed.
Lemma emit_enc n s : wend s -> n < 2 ^ 64 -> s_pos s + lenN (enc n) <= U64_MAX ->
  emit (enc n) (s_encode_u64 n) s (fun _ s' => kept s s').
Proof.
  intros Hw Hn Hp. unfold s_encode_u64. destruct (enc_spec n Hn) as (-> & _). now apply emit_lift, emit_tw.
Qed.
Lemma emit_desc_enc d n s : wend s -> settled_w s -> pdesc_ok d -> n < 2 ^ 64 -> s_pos s + 11 <= U64_MAX ->
  emit (desc_code d :: enc n) (write_desc d ;; s_encode_u64 n) s (fun _ s' => settled_w s').
Proof.
  intros Hw Hs Hd Hn Hp. pose proof (enc_len n Hn).
  apply (emit_bind [desc_code d] (enc n) _ _ s (fun _ s' => s_commit s' = None)).
  - apply emit_desc; auto. lia.
  - intros u1 s1 [G1 G2 G3] Hc. change (lenN [desc_code d]) with 1 in G3.
    eapply emit_imp; [apply emit_enc; auto; lia|]. intros u2 s2 _ (K & _). left. congruence.
Qed.

Lemma emit_alloc d len s : wend s -> settled_w s -> pdesc_ok d ->
  len <= U64_MAX - 11 -> s_pos s + len + 11 <= U64_MAX ->
  emit (desc_code d :: enc len) (write_desc_with_blob_alloc d len) s
    (fun _ s' => s_commit s' = Some CCheckEnd /\ s_blob_end s' = s_pos s' + len).
Proof.
  intros Hw Hs Hd Hl Hp.
  assert (Hl64 : len < 2 ^ 64) by (unfold U64_MAX in *; change (2^64) with 18446744073709551616; lia).
  pose proof (enc_len len Hl64). unfold write_desc_with_blob_alloc.
  eapply emit_quiet; [apply (commit_settled s Hs)|reflexivity|reflexivity|].
  destruct (N.ltb_spec (U64_MAX - 11) len); [lia|].
  set (s1 := set_commit None s).
  assert (Hc : lift_io (check_advance_pos (len + 11)) s1 = (ROk tt, s1)).
  { unfold lift_io, check_advance_pos. change (s_pos s1) with (s_pos s).
    destruct (N.ltb_spec (U64_MAX - s_pos s) (len + 11)); [lia|reflexivity]. }
  eapply emit_quiet; [exact Hc|reflexivity|reflexivity|].
  apply (emit_bind [desc_code d] (enc len) _ _ s1 (fun _ s' => s_commit s' = None)).
  { apply emit_desc; auto; [now left|]. change (s_pos s1) with (s_pos s). lia. }
  intros u2 s2 [G1 G2 G3] Hc2. change (lenN [desc_code d]) with 1 in G3. change (s_pos s1) with (s_pos s) in G3.
  rewrite <- (app_nil_r (enc len)).
  apply (emit_bind (enc len) [] _ _ s2 (fun _ s' => kept s2 s')); [apply emit_enc; auto; lia|].
  intros u3 s3 [G4 G5 G6] _.
  assert (Ha : u64_add (E := serr) (s_dbg s3) (s_pos s3) len = ROk (s_pos s3 + len)).
  { apply u64_add_ok. unfold U64_MAX, U64_MOD in *. lia. }
  eapply emit_quiet; [cbn beta; rewrite Ha; reflexivity|reflexivity|reflexivity|].
  eapply emit_quiet; [reflexivity|reflexivity|reflexivity|].
  apply emit_ret; [exact G5|]. split; reflexivity.
Qed.

Lemma emit_blob d data s : wend s -> settled_w s -> pdesc_ok d ->
  lenN data <= U64_MAX - 11 -> s_pos s + lenN data + 11 <= U64_MAX ->
  emit ((desc_code d :: enc (lenN data)) ++ data)
    (let* len := write_desc_with_blob_alloc d (lenN data) in lift_io (b_write_all data) ;; mret len) s
    (fun _ s' => settled_w s').
Proof.
  intros Hw Hs Hd Hl Hp.
  assert (Hl64 : lenN data < 2 ^ 64) by (unfold U64_MAX in *; change (2^64) with 18446744073709551616; lia).
  pose proof (enc_len _ Hl64) as Hel.
  eapply emit_bind; [apply emit_alloc; auto|].
  intros n s1 [G1 G2 G3] [Hc Hb]. rewrite lenN_cons in G3. rewrite <- (app_nil_r data) at 1.
  apply (emit_bind data [] _ _ s1 (fun _ s' => kept s1 s')).
  - apply emit_lift, emit_bw; [exact G2|lia|lia].
  - intros u2 s2 [G4 G5 G6] (K1 & K2 & _). apply emit_ret; [exact G5|]. right. split; [congruence|]. lia.
Qed.

Lemma emit_delem e s : wend s -> settled_w s -> delem_ok e -> s_pos s + lenN (payload e) + 11 <= U64_MAX ->
  emit (canon e) (write_delem e) s (fun _ s' => settled_w s').
Proof.
  intros Hw Hs He Hp.
  assert (Hone : forall d, pdesc_ok d -> emit [desc_code d] (write_desc d) s (fun _ s' => settled_w s')).
  { intros d Hd. eapply emit_imp; [apply emit_desc; auto; lia|]. intros u1 s1 _ K. now left. }
  assert (Hblob : forall d (m : SM N) data, pdesc_ok d -> lenN data = lenN (payload e) ->
     (forall s, m s = ((let* len := write_desc_with_blob_alloc d (lenN data) in lift_io (b_write_all data) ;; mret len) s)) ->
     emit ((desc_code d :: enc (lenN data)) ++ data) (m ;; mret tt) s (fun _ s' => settled_w s')).
  { intros d m data Hd Hld Hm. rewrite <- (app_nil_r ((_ :: _) ++ _)).
    apply (emit_bind _ [] _ _ s (fun _ s' => settled_w s')).
    - eapply emit_eq; [apply Hm|]. apply emit_blob; auto; lia.
    - intros u1 s1 [G1 G2 G3] K. now apply emit_ret. }
  destruct e as [t [n|c| |d]| | |m|]; cbn [write_delem payload] in *; unfold canon; cbn [hdr_of canon_hdr payload];
    rewrite ?app_nil_r; change (lenN (@nil N)) with 0 in Hp.
  - destruct He as [Ht Hn]. apply (emit_desc_enc (PPair DInteger t) n s); auto. lia.
  - apply (Hblob (PPair DBlob t) (write_blob_data t c) c); [apply He|reflexivity|reflexivity].
  - apply (Hone (PPair DStruct t)). apply He.
  - destruct He as [Ht Hn]. apply (emit_desc_enc (PPair DEnum t) d s); auto. lia.
  - now apply (Hone (PSpecial SpEndOfStruct)).
  - now apply (Hone (PSpecial SpEndOfDoc)).
  - apply (Hblob (PSpecial SpException) (write_exception_data m) m); [exact Logic.I|reflexivity|reflexivity].
  - now apply (Hone (PSpecial SpPadding)).
Qed.

Lemma emit_elems es : forall s, wend s -> settled_w s -> Forall delem_ok es -> s_pos s + size_bound es <= U64_MAX ->
  emit (canons es) (write_elems es) s (fun _ s' => settled_w s').
Proof.
  induction es as [|e es IH]; intros s Hw Hs Hok Hp.
  - now apply emit_ret.
  - inversion Hok as [|? ? He Hes]; subst. rewrite size_bound_cons in Hp.
    assert (H64 : lenN (payload e) < 2 ^ 64) by (unfold U64_MAX in Hp; change (2^64) with 18446744073709551616; lia).
    pose proof (canon_len e He H64) as Hcl.
    cbn [write_elems]. eapply emit_quiet; [reflexivity|reflexivity|reflexivity|].
    unfold canons. cbn [map List.concat]. fold (canons es).
    apply (emit_bind (canon e) (canons es) _ _ s (fun _ s' => settled_w s')); [apply emit_delem; auto; lia|].
    intros u1 s1 [G1 G2 G3] K. rewrite <- (app_nil_r (canons es)).
    apply (emit_bind (canons es) [] _ _ s1 (fun _ s' => settled_w s')); [apply IH; auto; lia|].
    intros l s2 [G4 G5 G6] K2. now apply emit_ret.
Qed.

(** ** Values *)
Section Values.
  Variable e : env.
  Hypothesis Hwf : env_wf e.

  Lemma emit_value t v s : typed e (t, v) -> wend s -> settled_w s -> s_pos s + size_of e t v <= U64_MAX ->
    emit (bytes_of e t v) (to_stream e t v) s (fun _ s' => s_commit s' = None).
  Proof.
    intros [Hty Hsh] Hw Hs Hp. cbn [fst snd] in *. destruct (ser_doc e Hwf v t Hty Hsh) as (Hb & _ & _).
    destruct (doc_ok e Hwf v t Hty Hsh) as (Hok & _ & _). unfold to_stream.
    rewrite <- (app_nil_r (bytes_of e t v)).
    apply (emit_bind (bytes_of e t v) [] _ _ s (fun _ s' => settled_w s')).
    - eapply emit_eq; [apply (wrels_exec _ _ Hb)|]. rewrite <- (app_nil_r (bytes_of e t v)).
      apply (emit_bind (bytes_of e t v) [] _ _ s (fun _ s' => settled_w s')).
      + apply emit_elems; auto. now apply doc_el_ok.
      + intros u1 s1 [G1 G2 G3] K. now apply emit_ret.
    - intros u1 s1 [G1 G2 G3] K r s' H. rewrite (commit_settled s1 K) in H. injection H as <- <-.
      left. exists tt. split; [reflexivity|]. split; [|reflexivity].
      constructor; [symmetry; apply app_nil_r|exact G2|]. change (lenN (@nil N)) with 0. scbn. lia.
  Qed.
  Lemma emit_values tvs : Forall (typed e) tvs -> forall s, wend s -> settled_w s -> s_pos s + all_size e tvs <= U64_MAX ->
    emit (all_bytes e tvs) (write_values e tvs) s (fun _ s' => settled_w s').
  Proof.
    intros H. induction H as [|[t v] tvs H1 H2 IH]; intros s Hw Hs Hp.
    - now apply emit_ret.
    - unfold all_size in Hp. cbn [map] in Hp. change (sumN (?x :: ?l)) with (x + sumN l) in Hp. fold (all_size e tvs) in Hp. cbn [fst snd] in Hp.
      cbn [write_values]. unfold all_bytes. cbn [map List.concat fst snd]. fold (all_bytes e tvs).
      apply (emit_bind (bytes_of e t v) (all_bytes e tvs) _ _ s (fun _ s' => s_commit s' = None)).
      + apply emit_value; auto. lia.
      + intros u1 s1 [G1 G2 G3] K. destruct H1 as [Hty Hsh]. cbn [fst snd] in *.
        destruct (bytes_of_ok e Hwf t v Hty Hsh ltac:(lia)) as (_ & _ & Hl).
        apply IH; auto; [now left|lia].
  Qed.
End Values.
