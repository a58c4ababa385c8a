(** * P_Borrow: zero-copy and copying deserialisation give the same value *)

From Verif Require Import Base Wire Dev Stream SpecWire SpecFormat SpecStream Types Ser Prog De SpecDe SpecZc
  P_Base P_Wire P_Sched P_Read P_Write P_Blob P_Stream P_Prog P_Types P_Dict P_DictAll P_DeStream P_DeExt P_DeProps P_El P_Parse P_Zc.
Strategy 1000 [s_decode_u64 decode_u64 decode_loop write_all read_exact encode_u64 enc_loop encode_fixed_u64 mloop miter].

(** ** On elements *)
Section Zc.
  Variable cf : cfg.
  Hypothesis Hblob : cf_blob cf <= U64_MAX.

  Definition zq (q1 q2 : els) : Prop := q_set_blob [] q1 = q_set_blob [] q2.
  Definition zrel (i : option vhdr) (st1 st2 : rst els) : Prop :=
    (x_cur st1 = x_cur st2 /\ x_path st1 = x_path st2 /\ x_coll st1 = x_coll st2 /\ x_over st1 = None /\ x_over st2 = None) /\
    (x_blob st1 <= x_blob st2 /\ x_blob st2 <= cf_blob cf) /\ zq (x_s st1) (x_s st2) /\
    match i with
    | None => True
    | Some vh => x_s st1 = x_s st2 /\ exists f, x_cur st1 = Some f /\ f_val f = vh /\ forall len, vh = HBlob len -> lenN (q_blob (x_s st1)) = len
    end.
  Definition zout {A} (i : option vhdr) (x1 x2 : res derr A * rst els) : Prop :=
    (exists e, fst x2 = RErr e /\ e_kind e = KMaxBlob) \/
    match fst x1, fst x2 with
    | ROk a, ROk b => a = b /\ zrel i (snd x1) (snd x2)
    | ROk _, _ | _, ROk _ => False
    | _, _ => True
    end.
  Definition ZR {A} (i : option vhdr) (p1 p2 : prog A) : Prop :=
    forall st1 st2, zrel i st1 st2 -> zout None (run el_source cf p1 st1) (run el_source cf p2 st2).

  Lemma zrel_weak i st1 st2 : zrel i st1 st2 -> zrel None st1 st2.
  Proof. intros (H1 & H2 & H3 & _). split; [exact H1|]. split; [exact H2|]. split; [exact H3|exact I]. Qed.

  Lemma zout_bind {A B} i j (m1 m2 : M (rst els) derr A) (k1 k2 : A -> M (rst els) derr B) st1 st2 : zout i (m1 st1) (m2 st2) ->
    (forall a st1 st2, zrel i st1 st2 -> zout j (k1 a st1) (k2 a st2)) ->
    zout j (mbind m1 k1 st1) (mbind m2 k2 st2).
  Proof.
    intros Hx Hk. unfold mbind. destruct Hx as [(e & He & Hm)|Hx].
    { left. destruct (m2 st2) as [[b|e2| |] s2]; try discriminate. exists e2. cbn [fst] in *. split; [reflexivity|]. congruence. }
    destruct (m1 st1) as [[a|e1| |] s1], (m2 st2) as [[b|e2| |] s2]; cbn [fst snd] in Hx; try contradiction; try (right; exact I).
    destruct Hx as [-> Hx]. now apply Hk.
  Qed.

  Lemma Z_ret A i (a : A) : ZR i (PRet a) (PRet a).
  Proof. intros st1 st2 H. right. cbn. split; [reflexivity|]. eapply zrel_weak, H. Qed.
  Lemma Z_stop A i x : ZR (A := A) i (PStop x) (PStop x).
  Proof. intros st1 st2 H. right. destruct x; exact I. Qed.
  Lemma Z_weak A i (p1 p2 : prog A) : ZR None p1 p2 -> ZR i p1 p2.
  Proof. intros H st1 st2 Hr. apply H. eapply zrel_weak, Hr. Qed.
  Lemma Z_bind A B i (p1 p2 : prog A) (k1 k2 : A -> prog B) :
    ZR i p1 p2 -> (forall a, ZR None (k1 a) (k2 a)) -> ZR i (pbind p1 k1) (pbind p2 k2).
  Proof. intros Hp Hk st1 st2 Hr. rewrite !run_pbind. apply (zout_bind None); [now apply Hp|]. intros a t1 t2. apply Hk. Qed.
  Lemma Z_op (X : Set) (o1 o2 : op X) i j B (k1 k2 : X -> prog B) :
    (forall st1 st2, zrel i st1 st2 -> zout j (run_op el_source cf o1 st1) (run_op el_source cf o2 st2)) ->
    (forall x, ZR j (k1 x) (k2 x)) -> ZR i (PDo o1 k1) (PDo o2 k2).
  Proof. intros Ho Hk st1 st2 Hr. cbn [run]. apply (zout_bind j); [now apply Ho|]. intros a t1 t2. apply Hk. Qed.

  Ltac zsplit := split; [cbn; repeat split; congruence|split; [cbn; auto; lia|split; [cbn; (assumption || reflexivity)|]]].
  Lemma Z_plain (X : Set) (o : op X) B i (k1 k2 : X -> prog B) : plain_op o = true ->
    (forall x, ZR i (k1 x) (k2 x)) -> ZR i (PDo o k1) (PDo o k2).
  Proof.
    intros Ho Hk. apply (Z_op _ _ _ i i); [|exact Hk]. intros st1 st2 Hr.
    pose proof Hr as ((Hc & Hp & Hl & Ho1 & Ho2) & Hb & Hq & Hi).
    destruct o; try discriminate; cbn [run_op].
    - destruct (cf_ignore cf); [right; split; [reflexivity|exact Hr]|]. rewrite Hc. destruct (x_cur st2); right; exact I.
    - rewrite Hp, Hc. destruct (cf_rec cf <=? lenN (x_path st2)); [right; exact I|].
      destruct at_field; [destruct (x_cur st2) as [f|] eqn:Ec; [|right; exact I]|]; right; (split; [reflexivity|]); zsplit; exact Hi.
    - right. split; [reflexivity|]. unfold mmod. cbn [snd]. zsplit; auto 10; try exact I.
    - cbn [i_dbg el_source]. assert (Hd : q_dbg (x_s st1) = q_dbg (x_s st2)) by (unfold zq, q_set_blob in Hq; congruence). rewrite Hd, Hl.
      destruct (ctx_collect _ _ _ 1) as [c|k| |]; try (right; exact I). right. split; [reflexivity|]. zsplit; auto 10; try exact I.
  Qed.
  Lemma el_next_zq q1 q2 : zq q1 q2 ->
    fst (el_next q1) = fst (el_next q2) /\ zq (snd (el_next q1)) (snd (el_next q2)) /\
    forall f, fst (el_next q1) = ROk (Some f) -> snd (el_next q1) = snd (el_next q2) /\
      forall len, f_val f = HBlob len -> lenN (q_blob (snd (el_next q1))) = len.
  Proof.
    intros H. destruct q1 as [es1 en1 eo1 d1 b1 g1], q2 as [es2 en2 eo2 d2 b2 g2].
    unfold zq, q_set_blob in H. cbn in H. injection H as -> -> -> -> ->.
    unfold el_next, el_stop. cbn [q_es q_end q_eof q_depth q_blob q_dbg].
    destruct eo2; [split; [reflexivity|split; [reflexivity|discriminate]]|].
    destruct es2 as [|[o e] r]; [destruct en2; (split; [reflexivity|split; [reflexivity|discriminate]])|].
    destruct (hdr_of e) eqn:Eh; cbn [fst snd]; (split; [reflexivity|split; [reflexivity|]]); try discriminate.
    intros f Hf. injection Hf as <-. split; [reflexivity|]. cbn [f_val q_blob]. intros len Hl.
    destruct e as [t0 []| | | |]; try discriminate; cbn [hdr_of] in Eh; injection Eh as <- <-; cbn [vhdr_of] in Hl; try discriminate.
    injection Hl as <-. reflexivity.
  Qed.
  Lemma Z_next B i (k1 k2 : option (N * vhdr) -> prog B) :
    (forall r, ZR (option_map snd r) (k1 r) (k2 r)) -> ZR i (PDo ONext k1) (PDo ONext k2).
  Proof.
    intros Hk st1 st2 Hr. apply zrel_weak in Hr. pose proof Hr as ((Hc & Hp & Hl & Ho1 & Ho2) & Hb & Hq & _). cbn [run run_op].
    destruct (el_next_zq _ _ Hq) as (E1 & E2 & E3).
    destruct (el_next (x_s st1)) as [r1 q1] eqn:En1, (el_next (x_s st2)) as [r2 q2] eqn:En2. cbn [fst snd] in *. subst r2.
    assert (Hon : forall st r q, el_next (x_s st) = (r, q) -> on_src_of (i_next el_source) st =
      match r with ROk a => (ROk a, x_set_s q st) | RErr x => xfail (KStream x) (x_set_s q st) | RPanic => (RPanic, x_set_s q st) | RFuel => (RFuel, x_set_s q st) end).
    { intros st r q E. unfold on_src_of. cbn [i_next el_source]. now rewrite E. }
    unfold mbind. rewrite (Hon _ _ _ En1), (Hon _ _ _ En2). clear Hon. destruct r1 as [c|x| |]; try (right; exact I).
    unfold mmod, mret. apply Hk. destruct c as [f|]; cbn [option_map snd].
    - destruct (E3 f eq_refl) as [-> Hlen]. zsplit; auto 10; try exact I. split; [reflexivity|]. exists f. auto.
    - zsplit; auto 10; try exact I.
  Qed.
  Lemma Z_skip B i (k1 k2 : unit -> prog B) :
    (forall x, ZR None (k1 x) (k2 x)) -> ZR i (PDo OSkip k1) (PDo OSkip k2).
  Proof.
    intros Hk. apply (Z_op _ _ _ i None); [|exact Hk]. intros st1 st2 Hr.
    pose proof Hr as ((Hc & Hp & Hl & Ho1 & Ho2) & Hb & Hq & _). cbn [run_op]. rewrite <- Hc.
    destruct (x_cur st1) as [f|] eqn:Ec; [|right; exact I]. unfold on_src_of. cbn [i_skip el_source].
    destruct st1 as [[es1 en1 eo1 d1 b1 g1] c1 p1 l1 bl1 o1], st2 as [[es2 en2 eo2 d2 b2 g2] c2 p2 l2 bl2 o2]. cbn [x_s x_cur x_path x_coll x_blob x_over] in *.
    subst. unfold zq, q_set_blob in Hq. cbn in Hq. injection Hq as -> -> -> -> ->.
    unfold el_skip, el_stop. cbn [q_es q_end q_eof q_depth q_blob q_dbg]. destruct (f_val f).
    1,2: right; (split; [reflexivity|]); zsplit; auto 10; try exact I.
    all: destruct (drop_to (f_depth f) d2 eo2 es2) as [[[d0 e0] es0]|]; [right; split; [reflexivity|]; zsplit; exact I|destruct en2; right; exact I].
  Qed.

  (** Blobs. *)
  Lemma Z_blob (X : Set) (m : M els serr X) j vh st1 st2 : zrel (Some vh) st1 st2 ->
    (forall q a q', m q = (ROk a, q') -> zq q' q /\ (j = Some vh -> q' = q)) -> j = Some vh \/ j = None ->
    zout j (on_blob m st1) (on_blob m st2).
  Proof.
    intros ((Hc & Hp & Hl & Ho1 & Ho2) & Hb & Hq & Hs & f & Hf & Hv & Hlen) Hm Hj.
    unfold on_blob, on_src_of. rewrite <- Hc, Hf, <- Hs. destruct f as [t0 p0 d0 v0]. cbn [f_val] in Hv. subst v0.
    destruct vh; try (right; exact I). destruct (m (x_s st1)) as [[a|x| |] q'] eqn:Em; try (right; exact I).
    destruct (Hm _ _ _ Em) as [Hz Hsame].
    right. split; [reflexivity|]. unfold x_set_s. cbn [snd]. zsplit. destruct Hj as [->| ->]; [|exact I].
    rewrite (Hsame eq_refl). split; [reflexivity|]. cbn [x_s x_cur]. eauto.
  Qed.
  Lemma Z_rem vh B (k1 k2 : N -> prog B) : (forall n, ZR (Some vh) (k1 n) (k2 n)) -> ZR (Some vh) (PDo ORemaining k1) (PDo ORemaining k2).
  Proof.
    intros Hk. apply (Z_op _ _ _ (Some vh) (Some vh)); [|exact Hk]. intros st1 st2 Hr. apply Z_blob with (vh := vh); auto.
    intros q a q' E. unfold el_source, el_remaining in E. cbn in E. injection E as _ <-. split; [reflexivity|auto].
  Qed.
  Lemma Z_exact vh n B (k1 k2 : bytes -> prog B) : (forall b, ZR None (k1 b) (k2 b)) -> ZR (Some vh) (PDo (OReadExact n) k1) (PDo (OReadExact n) k2).
  Proof.
    intros Hk. apply (Z_op _ _ _ (Some vh) None); [|exact Hk]. intros st1 st2 Hr. apply Z_blob with (vh := vh); auto.
    intros q a q' E. cbn [i_read_exact el_source] in E. unfold el_read_exact in E. destruct (_ <? n); [discriminate|]. injection E as _ <-. split; [reflexivity|discriminate].
  Qed.
  Lemma Z_fully vh B (k1 k2 : bytes -> prog B) : (forall b, ZR None (k1 b) (k2 b)) -> ZR (Some vh) (PDo OReadFully k1) (PDo OReadFully k2).
  Proof.
    intros Hk. apply (Z_op _ _ _ (Some vh) None); [|exact Hk]. intros st1 st2 Hr. apply Z_blob with (vh := vh); auto.
    intros q a q' E. cbn [i_read_fully el_source] in E. unfold el_read_fully in E. destruct (_ <? _); [discriminate|]. injection E as _ <-. split; [reflexivity|discriminate].
  Qed.
  Lemma ctx_blob_eq dbg c n : c <= cf_blob cf -> ctx_blob dbg (cf_blob cf) c n = if cf_blob cf - c <? n then RErr KMaxBlob else ROk (c + n).
  Proof.
    intros Hc. unfold ctx_blob. rewrite (u64_sub_ok (E := ekind)) by lia.
    destruct (N.ltb_spec (cf_blob cf - c) n); [reflexivity|]. now rewrite u64_add_ok by (unfold U64_MAX, U64_MOD in *; lia).
  Qed.
  Lemma Z_quota i n B (k1 k2 : unit -> prog B) : (forall x, ZR i (k1 x) (k2 x)) -> ZR i (PDo (OQuota n) k1) (PDo (OQuota n) k2).
  Proof.
    intros Hk. apply (Z_op _ _ _ i i); [|exact Hk]. intros st1 st2 Hr.
    pose proof Hr as ((Hc & Hp & Hl & Ho1 & Ho2) & Hb & Hq & Hi). cbn [run_op]. rewrite !ctx_blob_eq by lia.
    destruct (N.ltb_spec (cf_blob cf - x_blob st2) n) as [Hlt|Hge].
    - left. unfold xfail. rewrite Ho2. eexists. split; reflexivity.
    - destruct (N.ltb_spec (cf_blob cf - x_blob st1) n); [lia|]. right. split; [reflexivity|].
      split; [cbn; repeat split; congruence|]. split; [cbn; lia|]. split; [exact Hq|]. exact Hi.
  Qed.
  (** Borrowing on one side, copying on the other. *)
  Lemma Z_cow len B (k1 k2 : bytes -> prog B) : (forall b, ZR None (k1 b) (k2 b)) ->
    ZR (Some (HBlob len)) (PDo OExt k1) (PDo (OQuota len) (fun _ => PDo OReadFully k2)).
  Proof.
    intros Hk st1 st2 Hr. pose proof Hr as ((Hc & Hp & Hl & Ho1 & Ho2) & Hb & Hq & Hs & f & Hf & Hv & Hlen).
    cbn [run]. unfold mbind at 2. cbn [run_op]. rewrite ctx_blob_eq by lia.
    destruct (N.ltb_spec (cf_blob cf - x_blob st2) len) as [Hlt|Hge].
    { left. unfold xfail. rewrite Ho2. eexists. split; reflexivity. }
    destruct f as [t0 p0 d0 v0]. cbn [f_val] in Hv. subst v0. specialize (Hlen len eq_refl).
    unfold mbind, on_blob. change (x_cur (x_set_blob (x_blob st2 + len) st2)) with (x_cur st2). rewrite <- Hc, Hf. unfold on_src_of. change (x_s (x_set_blob (x_blob st2 + len) st2)) with (x_s st2). rewrite <- Hs.
    cbn [i_ext i_read_fully el_source]. unfold el_ext, el_read_fully. rewrite Hlen.
    destruct (N.ltb_spec (cf_blob cf) len); [lia|]. apply Hk.
    split; [cbn; repeat split; congruence|]. split; [cbn; lia|]. split; [|exact I]. cbn. reflexivity.
  Qed.
  Lemma Z_never A i (p1 p2 : prog A) : (forall st a st', run el_source cf p1 st <> (ROk a, st')) ->
    (forall st a st', run el_source cf p2 st <> (ROk a, st')) -> ZR i p1 p2.
  Proof.
    intros H1 H2 st1 st2 _. right. destruct (run el_source cf p1 st1) as [[a|e1| |] s1] eqn:E1; [now destruct (H1 st1 a s1)| | |];
      (destruct (run el_source cf p2 st2) as [[b|e2| |] s2] eqn:E2; [now destruct (H2 st2 b s2)| | |]; exact I).
  Qed.

  Lemma owned_rel vh : ZR (Some vh) (read_owned vh) (read_owned vh).
  Proof.
    unfold read_owned. destruct vh; cbn [to_blob plift pbind]; try apply Z_stop. unfold pdo. cbn [pbind].
    apply Z_quota. intros _. apply Z_fully. intros b. apply Z_ret.
  Qed.
  Lemma cow_rel vh : ZR (Some vh) (read_borrowed vh) (read_owned vh).
  Proof.
    unfold read_owned, read_borrowed. destruct vh; cbn [to_blob plift pbind]; try apply Z_stop. unfold pdo. cbn [pbind].
    apply Z_cow. intros b. apply Z_ret.
  Qed.
  Lemma array_rel n vh : ZR (Some vh) (read_array n vh) (read_array n vh).
  Proof.
    unfold read_array. destruct vh; cbn [to_blob plift pbind]; try apply Z_stop. unfold pdo. cbn [pbind].
    apply Z_rem. intros m. destruct (m =? n); [|apply Z_stop]. apply Z_exact. intros b. apply Z_ret.
  Qed.
  Lemma fails_never {A B} (p : prog A) k st b st' : run el_source cf (p ;> @pfail B k) st <> (ROk b, st').
  Proof.
    rewrite run_pbind. unfold mbind. destruct (run el_source cf p st) as [[a|e| |] s]; discriminate.
  Qed.
  Lemma over_fails_never {A B} k0 (p : prog A) k st b st' : run el_source cf (pdo (OOver k0) ;> (p ;> @pfail B k)) st <> (ROk b, st').
  Proof.
    rewrite run_pbind. unfold mbind. rewrite run_pdo. cbn [run_op mmod]. apply fails_never.
  Qed.
  Lemma utf8_rel i bs : ZR i (if utf8_ok bs then PRet (VStr bs) else pfail KInvalid) (if utf8_ok bs then PRet (VStr bs) else pfail KInvalid).
  Proof. destruct (utf8_ok bs); [apply Z_ret|apply Z_stop]. Qed.

  Notation zd := (drel (@ZR)).
  Lemma string_rel : zd (unary conv_string) (unary conv_string).
  Proof.
    apply (unary_rel (@ZR)); [exact Z_ret|exact Z_stop|exact Z_bind|exact Z_plain|exact Z_next|exact Z_skip|].
    intros tag vh. unfold conv_string. apply Z_bind; [apply owned_rel|]. intros b. apply utf8_rel.
  Qed.
  Lemma vecu8_rel : zd dict_vecu8 dict_vecu8.
  Proof.
    apply (default_rel (@ZR)); [exact Z_ret|exact Z_stop|exact Z_bind|exact Z_plain|exact Z_next|exact Z_skip|..]; cbn [d_init d_field d_elem d_fin d_body]; try reflexivity.
    - intros a tag vh. unfold vecu8_field. destruct a as [[v|]| | |]; try apply Z_stop.
      + apply Z_never; intros; apply over_fails_never.
      + apply Z_bind; [apply owned_rel|]. intros b. apply Z_ret.
    - intros tag vh. apply Z_bind; [apply owned_rel|]. intros b. apply Z_ret.
    - intros a. apply (opt_fin_rel (@ZR)); [exact Z_ret|exact Z_stop].
  Qed.
  Lemma arru8_rel n : zd (dict_arru8 n) (dict_arru8 n).
  Proof.
    apply (default_rel (@ZR)); [exact Z_ret|exact Z_stop|exact Z_bind|exact Z_plain|exact Z_next|exact Z_skip|..]; cbn [d_init d_field d_elem d_fin d_body]; try reflexivity.
    - intros a tag vh. unfold arru8_field. destruct a as [[v|]| | |]; try apply Z_stop.
      + destruct (n <=? 32); [apply Z_never; intros; apply over_fails_never|]. apply Z_never; intros; apply fails_never.
      + apply Z_bind; [apply array_rel|]. intros b. apply Z_ret.
    - intros tag vh. apply array_rel.
    - intros a. unfold arru8_fin. destruct a as [[v|]| | |]; try apply Z_stop; try apply Z_ret. destruct (n =? 0); [apply Z_ret|apply Z_stop].
  Qed.
  Lemma cowstr_rel : zd (unary conv_str_ref) (unary conv_string).
  Proof.
    apply (unary_rel (@ZR)); [exact Z_ret|exact Z_stop|exact Z_bind|exact Z_plain|exact Z_next|exact Z_skip|].
    intros tag vh. unfold conv_string, conv_str_ref. apply Z_bind; [apply cow_rel|]. intros b. apply utf8_rel.
  Qed.
  Lemma cowbytes_rel : zd (unary conv_bytes_ref) dict_vecu8.
  Proof.
    apply (default_rel (@ZR)); [exact Z_ret|exact Z_stop|exact Z_bind|exact Z_plain|exact Z_next|exact Z_skip|..]; cbn [d_init d_field d_elem d_fin d_body]; try reflexivity.
    - intros a tag vh. unfold vecu8_field, opt_field. destruct a as [[v|]| | |]; try apply Z_stop.
      + apply Z_never; [discriminate|intros; apply over_fails_never].
      + unfold conv_bytes_ref, read_borrowed, read_owned. destruct vh; cbn [to_blob plift pbind]; try apply Z_stop. unfold pdo. cbn [pbind].
        apply Z_cow. intros b. apply Z_ret.
    - intros tag vh. unfold elem_default, opt_field, conv_bytes_ref, read_borrowed, read_owned. destruct vh; cbn [to_blob plift pbind]; try apply Z_stop. unfold pdo. cbn [pbind opt_fin].
      apply Z_cow. intros b. apply Z_ret.
    - intros a. apply (opt_fin_rel (@ZR)); [exact Z_ret|exact Z_stop].
  Qed.

  Variable e : env.
  Definition zgood (z1 z2 : bool) (t : ty) : Prop := z2 = false /\ deserialisable e false t.
  Lemma full_zrel f z t : deserialisable e false t -> zd (full_dict e f z t) (full_dict e f false t).
  Proof.
    intros Hd. apply (full_dict_rel (@ZR) Z_ret Z_stop Z_weak Z_bind Z_plain Z_next Z_skip e zgood); unfold zgood, deserialisable.
    - intros z1 z2 i t0 [H1 H2] Hin. split; [exact H1|]. intros Hn. apply H2. econstructor; eassumption.
    - intros z1 z2 t0 [H1 H2] _. split; [exact H1|]. intros Hn. apply H2. now constructor.
    - intros z1 z2 t0 [H1 H2]. split; [exact H1|]. intros Hn. apply H2. now constructor.
    - intros z1 z2 t0 [H1 H2]. split; [exact H1|]. intros Hn. apply H2. now constructor.
    - intros z1 z2 t0 [H1 H2]. split; [exact H1|]. intros Hn. apply H2. now constructor.
    - intros z1 z2 n t0 [H1 H2] _. split; [exact H1|]. intros Hn. apply H2. now constructor.
    - intros z1 z2 k v [H1 H2]. split; (split; [exact H1|]); intros Hn; apply H2; [now apply NiKey|now apply NiVal].
    - intros z1 z2 ts [H1 H2]. apply Forall_forall. intros t0 Hin. split; [exact H1|]. intros Hn. apply H2. econstructor; eassumption.
    - intros z1 z2 t0 [H1 H2]. split; [exact H1|]. intros Hn. apply H2. now constructor.
    - intros z1 z2 t0 [H1 H2]. split; [reflexivity|]. intros Hn. apply H2. now constructor.
    - intros z1 z2 _. exact string_rel.
    - intros z1 z2 t0 _ _. exact vecu8_rel.
    - exact arru8_rel.
    - intros uf it1 it2 z1 z2 t0 Ht [-> H2]. destruct Ht as [->|[->|[->| ->]]]; cbn [dict_of].
      + destruct H2. constructor.
      + destruct H2. constructor.
      + destruct z1; [exact cowstr_rel|exact string_rel].
      + destruct z1; [exact cowbytes_rel|exact vecu8_rel].
    - intros z1 z2 t0 _ [-> _] vh. unfold cow_bytes. destruct z1; [apply cow_rel|apply owned_rel].
    - split; [reflexivity|exact Hd].
  Qed.
  Lemma top_zrel q : zrel None (top_rst q) (top_rst q).
  Proof. split; [cbn; auto|]. split; [cbn; lia|]. split; [reflexivity|exact I]. Qed.
  Lemma els_zrel f z t q : deserialisable e false t ->
    zout None (run el_source cf (d_body (full_dict e f z t)) (top_rst q)) (run el_source cf (d_body (full_dict e f false t)) (top_rst q)).
  Proof. intros Hd. apply (full_zrel f z t Hd). apply top_zrel. Qed.
End Zc.

(** ** On bytes *)
Section Slice.
  Variables (e : env) (cf : cfg) (dbg : bool) (bs : bytes).
  Hypothesis He : env_ok e.
  Hypothesis Hc : cf_collect cf <= U64_MAX.
  Hypothesis Hb : cf_blob cf <= U64_MAX.
  Hypothesis Hok : bytes_ok bs.
  Hypothesis Hl : lenN bs + 3 < U64_MAX.

  (** The elements in front determine what is accepted. *)
  Lemma slice_els : exists q, forall z t, deserialisable e z t ->
    let r := fst (run el_source cf (d_body (full_dict e (S (N.to_nat (cf_rec cf))) z t)) (top_rst q)) in
    let r' := fst (from_stream e z cf t (from_slice dbg bs)) in
    (forall v, r' = ROk v <-> r = ROk v) /\ (forall x, r = RErr x -> exists y, r' = RErr y /\ err_rel (PRt true) x y).
  Proof.
    destruct (parse (List.length bs) bs (le_n _) Hok Hl 0) as (es & b0 & tl & Hbs & Hen & Hst).
    exists (mkEls es false false 0 [] dbg). intros z t Ht. cbv zeta.
    set (q := mkEls es false false 0 [] dbg). set (s := from_slice dbg bs).
    assert (Hu : unread s = bs) by (unfold unread, d_rest; apply dropN_0).
    assert (Hq : seqinv s) by exact (fresh_seqinv dbg true false bs Hok Hl).
    assert (Hrd : ready true false q s tl).
    { exists b0. constructor; try reflexivity; auto.
      - rewrite Hu. cbn [s from_slice new_stream s_pos]. lia.
      - rewrite Hu. change (pend s) with 0. lia.
      - cbn. lia.
      - rewrite Hu. change (pend s) with 0. now rewrite dropN_0.
      - cbn. discriminate. }
    assert (HR : RSA true false tl q None s None) by (split; [exact Hrd|split; [exact I|reflexivity]]).
    set (p := d_body (full_dict e (S (N.to_nat (cf_rec cf))) z t)).
    pose proof (el_stream true false tl cf p (top_rst q) (top_rst s)) as H1.
    pose proof (dual_run tl Hst cf p (top_rst s) (top_rst q)) as H2.
    specialize (H1 ltac:(split; [exact HR|cbn; auto])). specialize (H2 ltac:(split; [exact HR|cbn; auto])).
    unfold from_stream. fold p. pose proof (run_ends_none e z cf t He Ht Hc Hb s) as Hnone. fold p in Hnone.
    destruct (run el_source cf p (top_rst q)) as [r1 t1] eqn:E1. destruct (run stream_source cf p (top_rst s)) as [r2 t2] eqn:E2. cbn [fst snd].
    split; [intros v; split; intros ->|intros x ->].
    - destruct H2 as [H2|[H2|H2]]; [contradiction| |].
      + cbn [fst snd] in H2. unfold dm_rst in H2. rewrite (Hnone v t2 Hq eq_refl) in H2. destruct H2 as (_ & _ & _ & _ & H2). contradiction.
      + cbn [fst snd] in H2. destruct r1; try contradiction. destruct H2 as [-> _]. reflexivity.
    - destruct H1 as [H1|[H1|H1]]; try contradiction. cbn [fst snd] in H1. destruct r2; try contradiction. destruct H1 as [-> _]. reflexivity.
    - destruct H1 as [H1|[H1|H1]]; try contradiction; [discriminate|]. cbn [fst snd] in H1. destruct r2 as [|y| |]; try contradiction. eauto.
  Qed.

  Lemma no_impl_mono zc t : no_impl e true t -> zc = true -> no_impl e false t.
  Proof.
    intros H. remember true as z eqn:Ez. intros _. induction H; try discriminate; subst; try (now constructor; auto); try (econstructor; eauto; fail).
  Qed.
  Lemma both_styles t : deserialisable e false t -> deserialisable e true t.
  Proof. intros H Hn. apply H. now apply (no_impl_mono true). Qed.

  Lemma copy_borrow t v : deserialisable e false t ->
    from_slice_copy e dbg cf t bs = ROk v -> from_slice_borrow e dbg cf t bs = ROk v.
  Proof.
    intros Ht H. destruct slice_els as (q & Hqs).
    destruct (Hqs false t Ht) as (H1 & _). destruct (Hqs true t (both_styles t Ht)) as (H3 & _).
    apply H1 in H. apply H3. pose proof (els_zrel cf Hb e (S (N.to_nat (cf_rec cf))) true t q Ht) as Hz.
    destruct Hz as [(x & Hx & _)|Hz]; [congruence|].
    rewrite H in Hz. destruct (fst (run el_source cf (d_body (full_dict e (S (N.to_nat (cf_rec cf))) true t)) (top_rst q))); try contradiction.
    destruct Hz as [-> _]. reflexivity.
  Qed.
  Lemma borrow_copy t v : deserialisable e false t ->
    from_slice_borrow e dbg cf t bs = ROk v ->
    from_slice_copy e dbg cf t bs = ROk v \/ exists x, from_slice_copy e dbg cf t bs = RErr x /\ e_kind x = KMaxBlob.
  Proof.
    intros Ht H. destruct slice_els as (q & Hqs).
    destruct (Hqs false t Ht) as (H1 & H2). destruct (Hqs true t (both_styles t Ht)) as (H3 & _).
    apply H3 in H. pose proof (els_zrel cf Hb e (S (N.to_nat (cf_rec cf))) true t q Ht) as Hz.
    destruct Hz as [(x & Hx & Hk)|Hz].
    - right. destruct (H2 x Hx) as (y & Hy & _ & Hky). exists y. split; [exact Hy|]. rewrite Hk in Hky. now inversion Hky.
    - left. apply H1. rewrite H in Hz. destruct (fst (run el_source cf (d_body (full_dict e (S (N.to_nat (cf_rec cf))) false t)) (top_rst q))); try contradiction.
      destruct Hz as [<- _]. reflexivity.
  Qed.
End Slice.

(** ** Borrowing costs nothing *)
Section Free.
  Context {S : Type} (Src : source S).
  Variables (cf : cfg) (m : N).
  Notation cf2 := (with_blob m cf).
  Definition FR {A} (i : option vhdr) (p1 p2 : prog A) : Prop := forall st, run Src cf p1 st = run Src cf2 p2 st.

  Lemma F_ret A i (a : A) : FR i (PRet a) (PRet a). Proof. intros st. reflexivity. Qed.
  Lemma F_stop A i x : FR (A := A) i (PStop x) (PStop x). Proof. intros st. reflexivity. Qed.
  Lemma F_weak A i (p1 p2 : prog A) : FR None p1 p2 -> FR i p1 p2. Proof. intros H. exact H. Qed.
  Lemma F_bind A B i (p1 p2 : prog A) (k1 k2 : A -> prog B) :
    FR i p1 p2 -> (forall a, FR None (k1 a) (k2 a)) -> FR i (pbind p1 k1) (pbind p2 k2).
  Proof.
    intros Hp Hk st. rewrite !run_pbind. unfold mbind. rewrite Hp. destruct (run Src cf2 p2 st) as [[a|x| |] s]; auto. apply Hk.
  Qed.
  Lemma F_op (X : Set) (o : op X) B i j (k1 k2 : X -> prog B) : (forall st, run_op Src cf o st = run_op Src cf2 o st) ->
    (forall x, FR j (k1 x) (k2 x)) -> FR i (PDo o k1) (PDo o k2).
  Proof.
    intros Ho Hk st. cbn [run]. unfold mbind. rewrite Ho. destruct (run_op Src cf2 o st) as [[a|x| |] s]; auto. apply Hk.
  Qed.
  Lemma F_plain (X : Set) (o : op X) B i (k1 k2 : X -> prog B) : plain_op o = true ->
    (forall x, FR i (k1 x) (k2 x)) -> FR i (PDo o k1) (PDo o k2).
  Proof. intros Ho Hk. apply (F_op X o B i i); [|exact Hk]. intros st. destruct o; try discriminate; reflexivity. Qed.
  Lemma F_next B i (k1 k2 : option (N * vhdr) -> prog B) :
    (forall r, FR (option_map snd r) (k1 r) (k2 r)) -> FR i (PDo ONext k1) (PDo ONext k2).
  Proof. intros Hk st. cbn [run]. unfold mbind. change (run_op Src cf2 ONext) with (run_op Src cf ONext). destruct (run_op Src cf ONext st) as [[a|x| |] s]; auto. apply Hk. Qed.
  Lemma F_skip B i (k1 k2 : unit -> prog B) :
    (forall x, FR None (k1 x) (k2 x)) -> FR i (PDo OSkip k1) (PDo OSkip k2).
  Proof. intros Hk. apply (F_op unit OSkip B i None); [|exact Hk]. reflexivity. Qed.

  Lemma f_array n vh : FR (Some vh) (read_array n vh) (read_array n vh).
  Proof.
    unfold read_array. destruct vh; cbn [to_blob plift pbind]; try apply F_stop. unfold pdo. cbn [pbind].
    apply (F_op N ORemaining _ _ None); [reflexivity|]. intros k. destruct (k =? n); [|apply F_stop].
    apply (F_op bytes (OReadExact n) _ _ None); [reflexivity|]. intros b. apply F_ret.
  Qed.
  Lemma f_borrow vh : FR (Some vh) (read_borrowed vh) (read_borrowed vh).
  Proof.
    unfold read_borrowed. destruct vh; cbn [to_blob plift pbind]; try apply F_stop. unfold pdo.
    apply (F_op bytes OExt _ _ None); [reflexivity|]. intros b. apply F_ret.
  Qed.
  Notation fd := (drel (@FR)).
  Lemma f_arru8 n : fd (dict_arru8 n) (dict_arru8 n).
  Proof.
    apply (default_rel (@FR)); [exact F_ret|exact F_stop|exact F_bind|exact F_plain|exact F_next|exact F_skip|..]; cbn [d_init d_field d_elem d_fin d_body]; try reflexivity.
    - intros a tag vh. unfold arru8_field. destruct a as [[v|]| | |]; try apply F_stop.
      + apply F_bind; [destruct (n <=? 32); [intros st; reflexivity|apply F_ret]|]. intros _. apply F_bind; [apply (f_array n vh)|]. intros v'. apply F_stop.
      + apply F_bind; [apply f_array|]. intros b. apply F_ret.
    - intros tag vh. apply f_array.
    - intros a st. unfold arru8_fin. destruct a as [[v|]| | |]; try reflexivity. destruct (n =? 0); reflexivity.
  Qed.
  Lemma f_str : fd (unary conv_str_ref) (unary conv_str_ref).
  Proof.
    apply (unary_rel (@FR)); [exact F_ret|exact F_stop|exact F_bind|exact F_plain|exact F_next|exact F_skip|].
    intros tag vh. unfold conv_str_ref. apply F_bind; [apply f_borrow|]. intros b st. destruct (utf8_ok b); reflexivity.
  Qed.
  Lemma f_bytes : fd (unary conv_bytes_ref) (unary conv_bytes_ref).
  Proof.
    apply (unary_rel (@FR)); [exact F_ret|exact F_stop|exact F_bind|exact F_plain|exact F_next|exact F_skip|].
    intros tag vh. unfold conv_bytes_ref. apply F_bind; [apply f_borrow|]. intros b st. reflexivity.
  Qed.

  Variable e : env.
  Definition fgood (z1 z2 : bool) (t : ty) : Prop := z1 = z2 /\ ~ copies e z1 t.
  Lemma full_free f z t : ~ copies e z t -> fd (full_dict e f z t) (full_dict e f z t).
  Proof.
    intros Hd. apply (full_dict_rel (@FR) F_ret F_stop F_weak F_bind F_plain F_next F_skip e fgood); unfold fgood.
    - intros z1 z2 i t0 [H1 H2] Hin. split; [exact H1|]. intros Hn. apply H2. econstructor; eassumption.
    - intros z1 z2 t0 [H1 H2] _. split; [exact H1|]. intros Hn. apply H2. now apply CpVec.
    - intros z1 z2 t0 [H1 H2]. split; [exact H1|]. intros Hn. apply H2. now constructor.
    - intros z1 z2 t0 [H1 H2]. split; [exact H1|]. intros Hn. apply H2. now constructor.
    - intros z1 z2 t0 [H1 H2]. split; [exact H1|]. intros Hn. apply H2. now constructor.
    - intros z1 z2 n t0 [H1 H2] _. split; [exact H1|]. intros Hn. apply H2. now constructor.
    - intros z1 z2 k v [H1 H2]. split; (split; [exact H1|]); intros Hn; apply H2; [now apply CpKey|now apply CpVal].
    - intros z1 z2 ts [H1 H2]. apply Forall_forall. intros t0 Hin. split; [exact H1|]. intros Hn. apply H2. econstructor; eassumption.
    - intros z1 z2 t0 [H1 H2]. split; [exact H1|]. intros Hn. apply H2. now constructor.
    - intros z1 z2 t0 [H1 H2]. split; [reflexivity|]. intros Hn. apply H2. now constructor.
    - intros z1 z2 [_ H]. destruct H. constructor.
    - intros z1 z2 t0 [_ H] H8. destruct H. now apply CpVecU8.
    - exact f_arru8.
    - intros uf it1 it2 z1 z2 t0 Ht [<- H2].
      assert (Hsd : forall x, fd (dict_stop x) (dict_stop x)).
      { intros x. unfold dict_stop. constructor; cbn [d_init d_field d_elem d_fin d_body]; auto; intros; apply F_stop. }
      destruct Ht as [->|[->|[->| ->]]]; cbn [dict_of]; destruct z1.
      + exact f_str.
      + apply Hsd.
      + exact f_bytes.
      + apply Hsd.
      + exact f_str.
      + destruct H2; constructor.
      + exact f_bytes.
      + destruct H2; constructor.
    - intros z1 z2 t0 Ht [<- H2] vh. unfold cow_bytes. destruct z1; [apply f_borrow|]. destruct H2. destruct Ht as [->| ->]; constructor.
    - split; [reflexivity|exact Hd].
  Qed.
End Free.

Lemma borrowed_free e z cf m t s : ~ copies e z t -> from_stream e z (with_blob m cf) t s = from_stream e z cf t s.
Proof.
  intros H. unfold from_stream. cbn [with_blob cf_rec].
  pose proof (dr_body _ _ _ (full_free stream_source cf m e (Datatypes.S (N.to_nat (cf_rec cf))) z t H) (top_rst s)) as Hr.
  now rewrite <- Hr.
Qed.

Lemma ext_slice_input s b s' : in_blob s -> b_ext_slice s = (ROk b, s') ->
  s' = s /\ lenN b = s_blob_end s - s_pos s /\ exists pre post, d_data (s_dev s) = pre ++ b ++ post /\ lenN pre = d_pos (s_dev s).
Proof.
  intros Hib. unfold b_ext_slice, as_slice. unfold mbind at 1.
  destruct (N.ltb_spec (lenN (d_data (s_dev s))) (d_pos (s_dev s))) as [Hlt|Hge]; [discriminate|].
  unfold mbind. rewrite b_remaining_ok by apply Hib.
  destruct (N.ltb_spec (lenN (d_rest (s_dev s))) (s_blob_end s - s_pos s)) as [|Hle]; [discriminate|]. intros H. injection H as <- <-.
  split; [reflexivity|]. split; [rewrite lenN_takeN; lia|].
  exists (takeN (d_pos (s_dev s)) (d_data (s_dev s))), (dropN (s_blob_end s - s_pos s) (d_rest (s_dev s))).
  rewrite takeN_dropN. unfold d_rest. rewrite takeN_dropN. split; [reflexivity|]. rewrite lenN_takeN. lia.
Qed.
