(** * P_Unk: the error for an undeclared field *)

From Verif Require Import Base Wire Dev Stream Types Prog De SpecFormat SpecStream SpecDe SpecDoc SpecRead SpecSerDe Tree P_Base P_Prog P_Stream P_Types P_El P_Tree P_TreeRun P_DeTrail P_Means P_Meaning P_Order P_Adds.
Strategy 1000 [s_decode_u64 decode_u64 decode_loop write_all read_exact encode_u64 enc_loop encode_fixed_u64 mloop miter].

Lemma loop_app {A} (step : A -> N -> node -> T A) ks ks' : forall st c,
  t_loop step st (ks ++ ks') c = mbind (t_loop step st ks) (fun st' => t_loop step st' ks') c.
Proof.
  induction ks as [|[tag n] ks IH]; intros st c; [reflexivity|]. cbn [app t_loop]. rewrite mbind_assoc.
  apply mbind_cong; [reflexivity|]. intros. apply IH.
Qed.

Section Unk.
  Variable cf : cfg.
  Hypothesis Hc : cf_collect cf <= U64_MAX.
  Hypothesis Hb : cf_blob cf <= U64_MAX.
  Hypothesis Hign : cf_ignore cf = false.
  Variables (en dbg : bool).
  Variables (tag o : N) (v : dval).

  (** The elements in front: those of [A], then the field. *)
  Definition before (A : list (N * node)) (R : list (N * delem)) (D : N) (q : els) : Prop :=
    exists X d bl, q = mkEls (X ++ (o, DField tag v) :: R) en false d bl dbg /\ map snd X = flat A /\ field_depth d = D /\
      lenN (X ++ (o, DField tag v) :: R) <= U64_MAX.
  Definition fails {A} (p : prog A) (st : rst els) : Prop :=
    exists x st', run el_source cf p st = (RErr x, st') /\ e_kind x = KUnknownField tag o.
  Lemma fails_bind {A B} (p : prog A) (k : A -> prog B) st : fails p st -> fails (pbind p k) st.
  Proof. intros (x & st' & E & Hk). exists x, st'. split; [|exact Hk]. rewrite run_pbind. now apply mbind_err. Qed.

  Lemma step_first t n A R D st : before ((t, n) :: A) R D (x_s st) ->
    exists X2 st', map snd X2 = flat A /\ run_op el_source cf ONext st = (ROk (Some (t, hdr_node n)), st') /\
      at_node en dbg t n (X2 ++ (o, DField tag v) :: R) D (x_s st') (x_cur st') /\
      x_over st' = x_over st /\ abs st' = abs st /\
      (forall q c, past en dbg (X2 ++ (o, DField tag v) :: R) D q c -> before A R D q).
  Proof.
    intros (X & d & bl & E & HX & Hd & Hl). rewrite flat_cons in HX.
    destruct X as [|[o1 e1] X]; [discriminate|]. cbn [map snd] in HX. injection HX as -> HX.
    apply map_eq_app in HX. destruct HX as (X1 & X2 & -> & H1 & H2).
    assert (HD : 1 <= D) by (unfold field_depth in Hd; lia).
    assert (Hl2 : lenN (X1 ++ X2 ++ (o, DField tag v) :: R) <= U64_MAX).
    { cbn [app] in Hl. rewrite lenN_cons in Hl. rewrite <- app_assoc in Hl. lia. }
    exists X2.
    cbn [run_op]. unfold mbind, on_src_of. rewrite E. cbn [el_source i_next]. unfold el_next. cbn [q_eof q_es app].
    assert (Hh : hdr_of (DField t (dv_of n)) = HdField t (match n with NInt x => HvInt x | NBlob b => HvBlob (lenN b) | NStruct _ => HvStruct | NEnum d _ => HvEnum d end)) by (destruct n; reflexivity).
    rewrite Hh. eexists. split; [exact H2|]. split.
    { cbn. replace (vhdr_of match n with NInt x => HvInt x | NBlob b => HvBlob (lenN b) | NStruct _ => HvStruct | NEnum d0 _ => HvEnum d0 end) with (hdr_node n) by (destruct n; reflexivity). reflexivity. }
    split; [|split; [reflexivity|split; [reflexivity|]]].
    - cbn [x_s x_set_s x_set_cur x_cur]. exists X1, o1, (payload (DField t (dv_of n))).
      cbn [q_end q_depth q_dbg]. rewrite <- app_assoc. split.
      { f_equal. unfold depth_after. rewrite <- Hd. destruct n; reflexivity. }
      split; [exact H1|]. split; [rewrite <- Hd; reflexivity|].
      split; [intros Hn; destruct n; try discriminate; reflexivity|]. split; [exact HD|exact Hl2].
    - intros q c (bl' & ->). exists X2, D, bl'. repeat split; auto; [unfold field_depth; lia|].
      rewrite lenN_app in Hl2. lia.
  Qed.
  Lemma step_bad R D st fs a : before [] R D (x_s st) -> find_tag tag fs = None -> x_over st = None -> fails (body_step fs None a) st.
  Proof.
    intros (X & d & bl & E & HX & Hd & Hl) Hf Ho. destruct X; [|discriminate]. cbn [app] in E. destruct a as [accs ua].
    unfold body_step.
    assert (Hop : exists f st1, run_op el_source cf ONext st = (ROk (Some (tag, f_val f)), st1) /\ x_cur st1 = Some f /\ f_tag f = tag /\ f_pos f = o /\ x_over st1 = None).
    { cbn [run_op]. unfold mbind, on_src_of. rewrite E. cbn [el_source i_next]. unfold el_next. cbn [q_eof q_es]. cbn [hdr_of]. destruct v; cbn;
      eexists (mkField _ _ _ _), _; split; try reflexivity; cbn; auto. }
    destruct Hop as (f & st1 & E1 & Hcur & Hft & Hfp & Ho1).
    unfold fails. rewrite (run_do_ok _ _ _ _ _ _ _ E1). rewrite Hf.
    assert (Hu : exists x st2, run_op el_source cf OUnknown st1 = (RErr x, st2) /\ e_kind x = KUnknownField tag o).
    { cbn [run_op]. rewrite Hign, Hcur, Hft, Hfp. unfold xfail. eexists _, _. split; [reflexivity|]. cbn. now rewrite Ho1. }
    destruct Hu as (x & st2 & E2 & Hk). exists x, st2. split; [|exact Hk]. now apply run_do_err.
  Qed.
  Lemma loop_fails fs gs : Forall2 (fagrees cf en dbg) fs gs -> find_tag tag gs = None ->
    forall A a R D st st' c', before A R D (x_s st) -> x_over st = None -> cinv cf (abs st) ->
    t_loop (t_step cf gs None) a A (abs st) = (ROk st', c') -> fails (ploop (body_step fs None) a) st.
  Proof.
    intros HF Hf A a R D st st' c' Hp Ho Hci Hok.
    assert (Hff : find_tag tag fs = None).
    { pose proof (find_tag_agrees cf en dbg fs gs tag HF) as H. rewrite Hf in H. destruct (find_tag tag fs) as [[[? ?] ?]|]; [contradiction|reflexivity]. }
    assert (Hlen : (S (List.length A) <= Pos.to_nat loop_bound)%nat).
    { destruct Hp as (X & d & bl & _ & HX & _ & Hl).
      assert (H : forall ks (X : list (N * delem)), map snd X = flat ks -> (List.length ks <= List.length X)%nat).
      { clear. induction ks as [|[t n] ks IH]; intros X H; [cbn; lia|]. rewrite flat_cons in H.
        destruct X as [|x X]; [discriminate|]. cbn [map] in H. injection H as _ H. apply map_eq_app in H.
        destruct H as (X1 & X2 & -> & _ & H). specialize (IH _ H). cbn. rewrite app_length. lia. }
      specialize (H _ _ HX). rewrite lenN_app in Hl. rewrite loop_bound_nat. unfold lenN, U64_MAX in Hl. unfold U64_MOD. lia. }
    unfold fails. rewrite run_ploop, mloop_eq. revert Hlen. generalize (Pos.to_nat loop_bound). intros m Hm.
    revert a st m Hm Hp Ho Hci Hok. induction A as [|[t n] A IH]; intros a st m Hm Hp Ho Hci Hok; (destruct m as [|m]; [lia|]).
    - destruct (step_bad R D st fs a Hp Hff Ho) as (x & st1 & E & Hk). exists x, st1. split; [|exact Hk].
      rewrite mloop_nat_S. now apply mbind_err.
    - destruct (step_first t n A R D st Hp) as (X2 & st1 & HX2 & E & Hp1 & Ho1 & Ha1 & Hback).
      rewrite <- Ho1 in Ho. rewrite <- Ha1 in Hci. cbn [t_loop] in Hok. apply mbind_inv_ok in Hok. destruct Hok as (a1 & c1 & Hs1 & Hok).
      assert (Hgo : exists st2, run el_source cf (body_step fs None a) st = (ROk (inl a1), st2) /\
                 before A R D (x_s st2) /\ x_over st2 = None /\ abs st2 = c1 /\ cinv cf c1).
      { destruct a as [accs ua]. unfold body_step. rewrite (run_do_ok _ _ _ _ _ _ _ E). unfold t_step in Hs1.
        pose proof (find_tag_agrees cf en dbg fs gs t HF) as Hft.
        destruct (find_tag t fs) as [[[i nm] d]|], (find_tag t gs) as [[[j nm'] s]|]; try contradiction.
        2:{ exfalso. unfold t_unknown in Hs1. rewrite Hign in Hs1. unfold mbind, mfail in Hs1. discriminate. }
        destruct Hft as (-> & -> & Hd).
        assert (Hdo : does cf (at_node en dbg t n (X2 ++ (o, DField tag v) :: R) D)
            (pdo (OPush true nm') ;> (b <- d_field d (nth j accs (AOpt None)) t (hdr_node n) ; pdo OPop ;> PRet (inl (B := list acc * acc) (upd j b accs, ua))))
            (t_push cf nm' ;; let* b := t_field s (nth j accs (AOpt None)) t n in t_pop ;; mret (inl (B := list acc * acc) (upd j b accs, ua))) (past en dbg (X2 ++ (o, DField tag v) :: R) D)).
        { apply does_bind with (Mid := at_node en dbg t n (X2 ++ (o, DField tag v) :: R) D); [apply does_push_node|]. intros _.
          apply does_bind with (Mid := past en dbg (X2 ++ (o, DField tag v) :: R) D); [apply Hd|]. intros b.
          apply does_bind with (Mid := past en dbg (X2 ++ (o, DField tag v) :: R) D); [now apply does_pop|]. intros _. now apply does_ret. }
        specialize (Hdo st1 Hp1 Ho Hci).
        assert (Et : (t_push cf nm' ;; let* b := t_field s (nth j accs (AOpt None)) t n in t_pop ;; mret (inl (B := list acc * acc) (upd j b accs, ua))) (abs st1) = (ROk (inl a1), c1)).
        { rewrite Ha1. revert Hs1. unfold mbind. destruct (t_push cf nm' (abs st)) as [[[]|x| |] c2]; try discriminate.
          destruct (t_field s (nth j accs (AOpt None)) t n c2) as [[b|x| |] c3]; try discriminate.
          destruct (t_pop c3) as [[[]|x| |] c4]; try discriminate. unfold mret. congruence. }
        rewrite Et in Hdo. destruct Hdo as (st2 & E2 & Hp2 & Ho2 & Ha2 & Hc2). exists st2. split; [exact E2|].
        split; [exact (Hback _ _ Hp2)|auto]. }
      destruct Hgo as (st2 & E2 & Hp2 & Ho2 & Ha2 & Hc2).
      destruct (IH a1 st2 m) as (x & st3 & E3 & Hk); auto; [cbn in Hm; lia|rewrite Ha2; exact Hc2|rewrite Ha2; exact Hok|].
      exists x, st3. split; [|exact Hk]. rewrite mloop_nat_S. unfold mbind. now rewrite E2.
  Qed.
  Lemma des_body_fails fs gs : Forall2 (fagrees cf en dbg) fs gs -> find_tag tag gs = None ->
    forall A C R D st vs c', before A R D (x_s st) -> x_over st = None -> cinv cf (abs st) ->
    t_des_body cf gs None (A ++ C) (abs st) = (ROk vs, c') -> fails (des_body fs None) st.
  Proof.
    intros HF Hf A C R D st vs c' Hp Ho Hci Hok. unfold t_des_body in Hok. apply mbind_inv_ok in Hok. destruct Hok as (a & c1 & Hok & _).
    rewrite loop_app in Hok. apply mbind_inv_ok in Hok. destruct Hok as (a2 & c2 & Hok & _).
    unfold des_body. apply fails_bind. rewrite (inits_agrees cf en dbg fs gs HF). now apply (loop_fails fs gs HF Hf A _ R D st a2 c2).
  Qed.
  Lemma default_fails d s : pagrees cf en dbg d s -> tag <> 1 ->
    forall A C R D st w c', before A R D (x_s st) -> x_over st = None -> cinv cf (abs st) ->
    t_body_default cf s (A ++ C) (abs st) = (ROk w, c') -> fails (body_default d) st.
  Proof.
    intros Ha Ht A C R D st w c' Hp Ho Hci Hok. unfold t_body_default in Hok. apply mbind_inv_ok in Hok. destruct Hok as (a & c1 & Hok & _).
    unfold body_default. apply fails_bind. refine (des_body_fails _ [("top"%string, 1, s)] _ _ A C R D st a c1 Hp Ho Hci Hok).
    - constructor; [|constructor]. split; [reflexivity|]. exact Ha.
    - cbn [find_tag]. destruct (N.eqb_spec 1 tag); [congruence|reflexivity].
  Qed.
  Lemma decls_none mk fs : tag_type tag fs = None -> find_tag tag (t_fdicts mk fs) = None.
  Proof.
    unfold t_fdicts. induction fs as [|fd fs IH]; cbn [map tag_type find_tag]; [reflexivity|].
    destruct (fd_tag fd =? tag); [discriminate|]. intros H. now rewrite (IH H).
  Qed.
  Lemma tuple_none ds ts : nth_type ts tag = None -> List.length ds = List.length ts -> find_tag tag (t_tuple_fields 0 ds) = None.
  Proof.
    intros H Hl.
    assert (Hg : forall ds i, (if tag <=? i then None else nth_error ds (N.to_nat (tag - 1 - i))) = None -> find_tag tag (t_tuple_fields i ds) = None).
    { clear. induction ds as [|d ds IH]; intros i H; [reflexivity|]. cbn [t_tuple_fields find_tag].
      destruct (N.eqb_spec (i + 1) tag) as [E|E].
      - destruct (N.leb_spec tag i); [lia|]. replace (tag - 1 - i) with 0 in H by lia. discriminate.
      - rewrite IH; [reflexivity|]. destruct (N.leb_spec tag i), (N.leb_spec tag (i + 1)); try lia; try reflexivity.
        replace (N.to_nat (tag - 1 - i)) with (S (N.to_nat (tag - 1 - (i + 1)))) in H by lia. exact H. }
    apply Hg. unfold nth_type in H. destruct (N.eqb_spec tag 0), (N.leb_spec tag 0); try lia; try reflexivity.
    rewrite N.sub_0_r. apply nth_error_None in H. apply nth_error_None. lia.
  Qed.
  Lemma top_fails e t decl : top_decl e t decl -> decl tag = None -> forall U f zc A C R D st w c',
    before A R D (x_s st) -> x_over st = None -> cinv cf (abs st) ->
    t_body (t_dict_of cf U (t_item_dict cf e U f) zc t) (A ++ C) (abs st) = (ROk w, c') -> fails (d_body (dict_of U (item_dict e U f) zc t)) st.
  Proof.
    induction 1 as [t Hp|ts|i b Ei Es|i b nm t decl Ei Es Ht IH|t decl Ht IH|t decl Ht IH]; intros Hd U f zc A C R D st w c' Hbef Ho Hci Hok.
    - assert (Hne : tag <> 1) by (intros ->; discriminate Hd).
      assert (Ha : agrees cf en dbg (dict_of U (item_dict e U f) zc t) (t_dict_of cf U (t_item_dict cf e U f) zc t))
        by (apply dict_of_agrees; auto; apply item_dict_agrees; auto).
      assert (Hgo : forall d s, pagrees cf en dbg d s -> t_body_default cf s (A ++ C) (abs st) = (ROk w, c') -> fails (body_default d) st).
      { intros d s Hds Hx. now apply (default_fails d s Hds Hne A C R D st w c'). }
      clear Hd. apply ag_p in Ha. destruct Ha as [P1 P2 P3]. revert P1 P2 P3 Hok.
      destruct t; try discriminate; cbn [dict_of t_dict_of]; intros P1 P2 P3 Hok; try (refine (Hgo _ _ _ Hok); constructor; [exact P1|exact P2|exact P3]).
      all: try (destruct zc; try discriminate; (refine (Hgo _ _ _ Hok); constructor; [exact P1|exact P2|exact P3])).
      + destruct (is_u8 t); (refine (Hgo _ _ _ Hok); constructor; [exact P1|exact P2|exact P3]).
      + destruct (is_u8 t); (refine (Hgo _ _ _ Hok); constructor; [exact P1|exact P2|exact P3]).
      + destruct f as [|f]; [discriminate|]. cbn [item_dict t_item_dict] in *. cbn [plain] in Hp. destruct (e i) as [b|vars catch] eqn:Ei; [discriminate|].
        refine (Hgo _ _ _ Hok); constructor; [exact P1|exact P2|exact P3].
    - cbn [dict_of t_dict_of] in *. unfold dict_tuple, t_tuple in *. cbn [d_body dict_struct t_struct t_body] in *.
      unfold tuple_body, t_tuple_body in *. apply mbind_inv_ok in Hok. destruct Hok as (a & c1 & Hok & _). apply fails_bind.
      refine (des_body_fails _ _ _ _ A C R D st a c1 Hbef Ho Hci Hok).
      + apply tuple_fields_agrees. clear - Hc Hb. induction ts as [|t ts IHt]; cbn [map]; constructor; auto. apply dict_of_agrees; auto. apply item_dict_agrees; auto.
      + apply (tuple_none _ ts Hd). apply map_length.
    - cbn [dict_of t_dict_of] in *. destruct f as [|f]; [discriminate|]. cbn [item_dict t_item_dict] in *. rewrite Ei in *.
      cbn [t_item_struct t_struct t_body] in Hok. unfold dict_item_struct. cbn [d_body dict_struct]. unfold vbody_body, t_vbody in *. rewrite Es in *.
      apply mbind_inv_ok in Hok. destruct Hok as (a & c1 & Hok & _). apply fails_bind.
      refine (des_body_fails _ _ _ _ A C R D st a c1 Hbef Ho Hci Hok).
      + apply fdicts_agrees. intros t. apply dict_of_agrees; auto. apply item_dict_agrees; auto.
      + now apply decls_none.
    - cbn [dict_of t_dict_of] in *. destruct f as [|f]; [discriminate|]. cbn [item_dict t_item_dict] in *. rewrite Ei in *.
      cbn [t_item_struct t_struct t_body] in Hok. unfold dict_item_struct. cbn [d_body dict_struct]. unfold vbody_body, t_vbody in *. rewrite Es in *.
      apply mbind_inv_ok in Hok. destruct Hok as ([] & c1 & Hpu & Hok). apply mbind_inv_ok in Hok. destruct Hok as (dv & c2 & Hok & _).
      pose proof (does_push_stream cf (fun q _ => q = x_s st) nm st eq_refl Ho Hci) as Hps. rewrite Hpu in Hps.
      destruct Hps as (st1 & E1 & Hq & Ho1 & Ha1 & Hc1). rewrite <- Hq in Hbef.
      assert (Hf1 : fails (d_body (dict_of U (item_dict e U f) zc t)) st1).
      { apply (IH Hd U f zc A C R D st1 dv c2); auto; rewrite Ha1; auto. }
      unfold fails. rewrite run_pbind. rewrite (mbind_ok _ _ _ _ _ E1). exact (fails_bind _ _ _ Hf1).
    - exact (IH Hd U f zc A C R D st w c' Hbef Ho Hci Hok).
    - exact (IH Hd U f false A C R D st w c' Hbef Ho Hci Hok).
  Qed.
End Unk.

Lemma labelled es ba : encodes es ba -> forall tp p l bs, l <> [] -> enc_at true tp (p + lenN ba) l bs ->
  exists X, map snd X = es /\ enc_at true tp p (X ++ l) (ba ++ bs).
Proof.
  intros (es' & H & <-). induction H as [|e es' b bs He Hes IH]; intros tp p l bs' Hl Hr.
  - exists []. split; [reflexivity|]. change (lenN (@nil N)) with 0 in Hr. rewrite N.add_0_r in Hr. exact Hr.
  - rewrite lenN_app, N.add_assoc in Hr. destruct (IH tp (p + lenN b) l bs' Hl Hr) as (X & HX & HE). rewrite <- app_assoc.
    destruct e as [t v| | |m|]; cbn [filter not_pad].
    5:{ destruct He as (h & Hh & _ & ->). inversion Hh; subst. cbn [payload app] in *. exists X. split; [exact HX|]. constructor; [right; destruct X; [exact Hl|discriminate]|exact HE]. }
    all: eexists ((p, _) :: X); (split; [cbn [map snd]; f_equal; exact HX|]); cbn [app]; constructor; [reflexivity|discriminate|exact He|exact HE].
Qed.

Theorem unknown_error e zc cf t decl tag v A C w s0 ba b tl dbg sk sched :
  usable e zc cf t -> cf_ignore cf = false -> top_decl e t decl -> decl tag = None ->
  doc_stream (A ++ C) s0 -> fst (from_stream e zc cf t s0) = ROk w ->
  encodes (flat A) ba -> elem_enc (DField tag v) b ->
  bytes_ok (ba ++ b ++ tl) -> lenN (ba ++ b ++ tl) + 3 < U64_MAX -> Forall (fun x => x <> EvFail) sched ->
  exists x, fst (from_stream e zc cf t (new_stream dbg sk (mkDev (ba ++ b ++ tl) 0 sched))) = RErr x /\
    e_kind x = KUnknownField tag (lenN ba).
Proof.
  intros Hu Hign Htd Hdt Hs0 Hok Hba Hbe Hbok Hlen Hsched. pose proof Hu as (He & Ht & Hc & Hb).
  assert (Heq : fst (from_stream e zc cf t (new_stream dbg sk (mkDev (ba ++ b ++ tl) 0 sched))) = fst (from_stream e zc cf t (new_stream dbg sk (mkDev (ba ++ b ++ tl) 0 [])))).
  { destruct (from_stream e zc cf t (new_stream dbg sk (mkDev (ba ++ b ++ tl) 0 []))) as [r s1] eqn:E.
    destruct (sched_any e zc cf t dbg sk false (ba ++ b ++ tl) sched r s1 Hsched E) as (s2 & E2 & _).
    change (set_graceful_ false (new_stream dbg sk (mkDev (ba ++ b ++ tl) 0 sched))) with (new_stream dbg sk (mkDev (ba ++ b ++ tl) 0 sched)) in E2. now rewrite E2. }
  rewrite Heq. clear Heq Hsched sched.
  pose proof (stream_tree e zc cf t (A ++ C) s0 Hu Hs0) as Htree. rewrite Hok in Htree.
  destruct (read_tree cf e zc t (A ++ C)) as [r c'] eqn:Er. cbn [fst] in Htree.
  destruct r as [w'|k| |]; try contradiction; [|destruct Htree as (? & ? & _); discriminate]. clear Htree.
  assert (Hl0 : enc_at true true (lenN ba) [(lenN ba, DField tag v)] b).
  { rewrite <- (app_nil_r b). apply EaCons; [auto|discriminate|exact Hbe|constructor]. }
  destruct (labelled _ _ Hba true 0 [(lenN ba, DField tag v)] b ltac:(discriminate) Hl0) as (X & HX & HE).
  set (s := new_stream dbg sk (mkDev (ba ++ b ++ tl) 0 [])).
  assert (Hst : starts s (ba ++ b) tl).
  { unfold s. rewrite app_assoc in *. now apply fresh_starts. }
  set (q := mkEls (X ++ [(lenN ba, DField tag v)]) false false 0 [] (s_dbg s)).
  assert (Hbf : before false (s_dbg s) tag (lenN ba) v A [] 1 q).
  { exists X, 0, []. split; [reflexivity|]. split; [exact HX|]. split; [reflexivity|].
    pose proof (encodes_len _ _ Hba) as H1. rewrite <- HX in H1. unfold lenN in H1. rewrite map_length in H1. fold (lenN X) (lenN ba) in H1.
    rewrite lenN_app. change (lenN [(lenN ba, DField tag v)]) with 1. rewrite !lenN_app in Hlen. unfold U64_MAX, U64_MOD in *. lia. }
  assert (Hf : fails cf tag (lenN ba) (d_body (full_dict e (S (N.to_nat (cf_rec cf))) zc t)) (top_rst q)).
  { refine (top_fails cf Hc Hb Hign false (s_dbg s) tag (lenN ba) v e t decl Htd Hdt _ _ zc A C [] 1 (top_rst q) w' c' Hbf eq_refl _ Er).
    split; cbn; lia. }
  destruct Hf as (x & st1 & E1 & Hk).
  assert (Hsim : sim_rst (RSA true true tl) (top_rst q) (top_rst s)).
  { unfold sim_rst. cbn. split; [|auto]. split; [|split; [exact Logic.I|exact (st_none _ _ _ Hst)]]. exists (ba ++ b).
    destruct Hst as [S1 S2 S3 S4 S5 S6 S7 S8 S9]. constructor; cbn; auto; try congruence.
    all: try discriminate. }
  pose proof (el_stream true true tl cf (d_body (full_dict e (S (N.to_nat (cf_rec cf))) zc t)) _ _ Hsim) as H.
  unfold from_stream. rewrite E1 in H. destruct (run stream_source cf _ (top_rst s)) as [r st2].
  destruct H as [H|[H|H]]; [discriminate H|contradiction|]. cbn [fst snd] in H. destruct r as [v2|x2| |]; try contradiction.
  exists x2. split; [reflexivity|]. destruct H as [_ H]. rewrite Hk in H. inversion H; subst; [reflexivity|].
  match goal with HP : PRt true _ _ |- _ => rewrite <- (HP eq_refl) end. reflexivity.
Qed.

(** ** For examples *)
From Verif Require Import P_Ex.
Lemma doc_by ks bs tl dbg sk : okb (bs ++ [0] ++ tl) = true -> option_map (filter not_pad) (parse (List.length bs) bs) = Some (flat ks) ->
  lenN (bs ++ [0] ++ tl) + 3 <? U64_MAX = true -> doc_stream ks (new_stream dbg sk (mkDev (bs ++ [0] ++ tl) 0 [])).
Proof.
  intros Hok Hp Hl. rewrite app_assoc in *. pose proof Hok as Hok2. unfold okb in Hok2. rewrite !forallb_app in Hok2.
  apply andb_prop in Hok2. destruct Hok2 as [Hok2 _]. apply andb_prop in Hok2. destruct Hok2 as [Hok2 _].
  apply DocStream; [|now apply okb_ok|now apply N.ltb_lt|constructor].
  exists bs. split; [|reflexivity]. now apply encodes_by.
Qed.
