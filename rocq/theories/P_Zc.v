(** * P_Zc: relating the impls of a type for two styles

    [drel] is a logical relation between the impls [dict_of] builds for two
    styles, generic in the relation between programs; it is used to compare
    zero-copy with copying deserialisation, and to show that what only
    borrows has nothing to do with max_blob. *)

From Verif Require Import Base Wire Dev Stream SpecWire SpecFormat SpecStream Types Ser Prog De SpecDe P_Base P_Types P_DictAll.
Strategy 1000 [s_decode_u64 decode_u64 decode_loop write_all read_exact encode_u64 enc_loop encode_fixed_u64 mloop miter].

Definition plain_op {X : Set} (o : op X) : bool :=
  match o with OUnknown | OPush _ _ | OPop | OCollect => true | _ => false end.

Section Rel.
  Variable R : forall {A}, option vhdr -> prog A -> prog A -> Prop.
  Arguments R {A}.
  Hypothesis R_ret : forall A i (a : A), R i (PRet a) (PRet a).
  Hypothesis R_stop : forall A i x, R (A := A) i (PStop x) (PStop x).
  Hypothesis R_weak : forall A i (p1 p2 : prog A), R None p1 p2 -> R i p1 p2.
  Hypothesis R_bind : forall A B i (p1 p2 : prog A) (k1 k2 : A -> prog B),
    R i p1 p2 -> (forall a, R None (k1 a) (k2 a)) -> R i (pbind p1 k1) (pbind p2 k2).
  Hypothesis R_plain : forall (X : Set) (o : op X) B i (k1 k2 : X -> prog B), plain_op o = true ->
    (forall x, R i (k1 x) (k2 x)) -> R i (PDo o k1) (PDo o k2).
  Hypothesis R_next : forall B i (k1 k2 : option (N * vhdr) -> prog B),
    (forall r, R (option_map snd r) (k1 r) (k2 r)) -> R i (PDo ONext k1) (PDo ONext k2).
  Hypothesis R_skip : forall B i (k1 k2 : unit -> prog B),
    (forall x, R None (k1 x) (k2 x)) -> R i (PDo OSkip k1) (PDo OSkip k2).

  Record drel (d1 d2 : dict) : Prop := mkDrel {
    dr_init : d_init d1 = d_init d2;
    dr_field : forall a tag vh, R (Some vh) (d_field d1 a tag vh) (d_field d2 a tag vh);
    dr_elem : forall tag vh, R (Some vh) (d_elem d1 tag vh) (d_elem d2 tag vh);
    dr_fin : forall a, R None (d_fin d1 a) (d_fin d2 a);
    dr_body : R None (d_body d1) (d_body d2)
  }.

  Lemma R_ploop {A B} (s1 s2 : A -> prog (A + B)) a : (forall a, R None (s1 a) (s2 a)) -> R None (ploop s1 a) (ploop s2 a).
  Proof.
    intros Hs. unfold ploop. apply R_bind.
    - generalize loop_bound. intros p. revert a. induction p as [p IH|p IH|]; intros a; cbn [piter].
      + apply R_bind; [apply Hs|]. intros [a'|b]; [|apply R_ret]. apply R_bind; [apply IH|]. intros [a''|b]; [apply IH|apply R_ret].
      + apply R_bind; [apply IH|]. intros [a'|b]; [apply IH|apply R_ret].
      + apply Hs.
    - intros [a'|b]; [apply R_stop|apply R_ret].
  Qed.
  Lemma R_lift {A B} i (r : res serr A) (k1 k2 : A -> prog B) : (forall a, r = ROk a -> R i (k1 a) (k2 a)) ->
    R i (pbind (plift r) k1) (pbind (plift r) k2).
  Proof. intros H. destruct r; cbn; try apply R_stop. now apply H. Qed.
  Lemma R_do {X : Set} (o : op X) {B} i (k1 k2 : X -> prog B) : plain_op o = true ->
    (forall x, R i (k1 x) (k2 x)) -> R i (pbind (pdo o) k1) (pbind (pdo o) k2).
  Proof. intros H Hk. exact (R_plain X o B i k1 k2 H Hk). Qed.
  Lemma R_pop {B} i (b : B) : R i (pbind (pdo OPop) (fun _ => PRet b)) (pbind (pdo OPop) (fun _ => PRet b)).
  Proof. apply R_do; [reflexivity|]. intros _. apply R_ret. Qed.

  Definition frel (f1 f2 : fdict) : Prop := fst f1 = fst f2 /\ drel (snd f1) (snd f2).
  Definition urel (u1 u2 : option (string * dict)) : Prop :=
    match u1, u2 with
    | None, None => True
    | Some (n1, d1), Some (n2, d2) => n1 = n2 /\ drel d1 d2
    | _, _ => False
    end.

  Lemma find_tag_rel tag fs1 fs2 : Forall2 frel fs1 fs2 ->
    match find_tag tag fs1, find_tag tag fs2 with
    | Some (i1, n1, d1), Some (i2, n2, d2) => i1 = i2 /\ n1 = n2 /\ drel d1 d2
    | None, None => True
    | _, _ => False
    end.
  Proof.
    induction 1 as [|[[n1 t1] d1] [[n2 t2] d2] l1 l2 [Hn Hd] _ IH]; cbn [find_tag]; [exact I|].
    cbn in Hn. injection Hn as -> ->. destruct (t2 =? tag); [auto|].
    destruct (find_tag tag l1) as [[[i1 m1] e1]|], (find_tag tag l2) as [[[i2 m2] e2]|]; try contradiction; [|exact I].
    destruct IH as (-> & -> & H). auto.
  Qed.

  Lemma body_step_rel fs1 fs2 u1 u2 st : Forall2 frel fs1 fs2 -> urel u1 u2 ->
    R None (body_step fs1 u1 st) (body_step fs2 u2 st).
  Proof.
    intros Hf Hu. unfold body_step. destruct st as [accs ua]. apply R_next. intros [[tag vh]|]; cbn [option_map snd]; [|apply R_ret].
    cbn [pbind]. pose proof (find_tag_rel tag fs1 fs2 Hf) as Ht.
    destruct (find_tag tag fs1) as [[[i1 m1] e1]|], (find_tag tag fs2) as [[[i2 m2] e2]|]; try contradiction.
    - destruct Ht as (-> & -> & Hd). apply R_do; [reflexivity|]. intros _. apply R_bind; [apply Hd|]. intros a. apply R_pop.
    - destruct u1 as [[n1 d1]|], u2 as [[n2 d2]|]; try contradiction.
      + destruct Hu as [-> Hd]. apply R_do; [reflexivity|]. intros _. apply R_bind; [apply Hd|]. intros a. apply R_pop.
      + apply R_do; [reflexivity|]. intros _. apply R_skip. intros _. apply R_ret.
  Qed.
  Lemma finish_one_rel nm d1 d2 a : drel d1 d2 -> R None (finish_one nm d1 a) (finish_one nm d2 a).
  Proof.
    intros Hd. unfold finish_one. apply R_do; [reflexivity|]. intros _. apply R_bind; [apply Hd|]. intros v. apply R_pop.
  Qed.
  Lemma finish_all_rel fs1 fs2 : Forall2 frel fs1 fs2 -> forall accs, R None (finish_all fs1 accs) (finish_all fs2 accs).
  Proof.
    induction 1 as [|[[n1 t1] d1] [[n2 t2] d2] l1 l2 [Hn Hd] _ IH]; intros [|a accs]; cbn [finish_all]; try apply R_ret; try apply R_stop.
    cbn in Hn. injection Hn as -> ->. apply R_bind; [now apply finish_one_rel|]. intros v. apply R_bind; [apply IH|]. intros vs. apply R_ret.
  Qed.
  Lemma inits_rel fs1 fs2 : Forall2 frel fs1 fs2 -> inits fs1 = inits fs2.
  Proof.
    unfold inits. induction 1 as [|[[n1 t1] d1] [[n2 t2] d2] l1 l2 [Hn Hd] _ IH]; cbn; [reflexivity|].
    f_equal; [apply Hd|exact IH].
  Qed.
  Lemma des_body_rel fs1 fs2 u1 u2 : Forall2 frel fs1 fs2 -> urel u1 u2 -> R None (des_body fs1 u1) (des_body fs2 u2).
  Proof.
    intros Hf Hu. unfold des_body. rewrite (inits_rel _ _ Hf).
    replace (match u1 with Some (_, d) => d_init d | None => AOpt None end) with (match u2 with Some (_, d) => d_init d | None => AOpt None end).
    2: { destruct u1 as [[n1 d1]|], u2 as [[n2 d2]|]; try contradiction; [|reflexivity]. symmetry. apply Hu. }
    apply R_bind; [apply R_ploop; intros st; now apply body_step_rel|]. intros [accs ua].
    apply R_bind; [now apply finish_all_rel|]. intros vs.
    destruct u1 as [[n1 d1]|], u2 as [[n2 d2]|]; try contradiction; [|apply R_ret].
    destruct Hu as [-> Hd]. apply R_bind; [now apply finish_one_rel|]. intros v. apply R_ret.
  Qed.
  Lemma body_default_rel d1 d2 : drel d1 d2 -> R None (body_default d1) (body_default d2).
  Proof.
    intros Hd. unfold body_default. apply R_bind.
    - apply des_body_rel; [|exact I]. constructor; [|constructor]. split; [reflexivity|exact Hd].
    - intros [|v []]; apply R_ret || apply R_stop.
  Qed.

  (** The relation without the body, for impls completed by the default. *)
  Lemma default_rel d1 d2 : d_init d1 = d_init d2 ->
    (forall a tag vh, R (Some vh) (d_field d1 a tag vh) (d_field d2 a tag vh)) ->
    (forall tag vh, R (Some vh) (d_elem d1 tag vh) (d_elem d2 tag vh)) ->
    (forall a, R None (d_fin d1 a) (d_fin d2 a)) -> d_body d1 = ill -> d_body d2 = ill ->
    drel (with_default_body d1) (with_default_body d2).
  Proof.
    intros H1 H2 H3 H4 H5 H6. assert (Hd : drel d1 d2).
    { constructor; auto. rewrite H5, H6. apply R_stop. }
    unfold with_default_body. constructor; cbn [d_init d_field d_elem d_fin d_body]; auto. now apply body_default_rel.
  Qed.
  Lemma opt_field_rel k c1 c2 a tag vh : R (Some vh) (c1 tag vh) (c2 tag vh) ->
    R (Some vh) (opt_field k c1 a tag vh) (opt_field k c2 a tag vh).
  Proof.
    intros H. unfold opt_field. destruct a as [[v|]| | |]; try apply R_stop. apply R_bind; [exact H|]. intros v. apply R_ret.
  Qed.
  Lemma opt_fin_rel i a : R i (opt_fin a) (opt_fin a).
  Proof. unfold opt_fin. destruct a as [[v|]| | |]; apply R_ret || apply R_stop. Qed.
  Lemma unary_rel c1 c2 : (forall tag vh, R (Some vh) (c1 tag vh) (c2 tag vh)) -> drel (unary c1) (unary c2).
  Proof.
    intros H. unfold unary. apply default_rel; cbn [d_init d_field d_elem d_fin d_body]; auto.
    - intros a tag vh. now apply opt_field_rel.
    - intros tag vh. unfold elem_default. apply R_bind; [now apply (opt_field_rel _ c1 c2 (AOpt None))|]. intros a. apply opt_fin_rel.
    - intros a. apply opt_fin_rel.
  Qed.
  Lemma pure_rel i {A} (p : prog A) : match p with PDo _ _ => False | _ => True end -> R i p p.
  Proof. destruct p; intros H; apply R_ret || apply R_stop || contradiction. Qed.
  Lemma wrapped_rel d1 d2 : d_init d1 = d_init d2 ->
    (forall a tag vh, R (Some vh) (d_field d1 a tag vh) (d_field d2 a tag vh)) ->
    (forall tag vh, R (Some vh) (d_elem d1 tag vh) (d_elem d2 tag vh)) ->
    (forall a, R None (d_fin d1 a) (d_fin d2 a)) -> d_body d1 = ill -> d_body d2 = ill -> drel (wrapped d1) (wrapped d2).
  Proof.
    intros H1 H2 H3 H4 H5 H6. assert (Hd : drel d1 d2).
    { constructor; auto. rewrite H5, H6. apply R_stop. }
    unfold wrapped. constructor; cbn [d_init d_field d_elem d_fin d_body]; auto; [|now apply body_default_rel].
    intros tag vh. apply R_lift. intros _ _. apply R_weak. now apply body_default_rel.
  Qed.
  Lemma coll_rel ins d1 d2 : drel d1 d2 -> drel (dict_coll ins d1) (dict_coll ins d2).
  Proof.
    intros Hd. unfold dict_coll. apply wrapped_rel; cbn [d_init d_field d_elem d_fin d_body]; auto; try (intros; apply R_stop).
    - intros a tag vh. unfold coll_field. destruct a; try apply R_stop. apply R_do; [reflexivity|]. intros _.
      apply R_bind; [apply Hd|]. intros v. apply R_ret.
    - intros a. unfold coll_fin. destruct a; apply R_ret || apply R_stop.
  Qed.
  Lemma arr_rel n d1 d2 : drel d1 d2 -> drel (dict_arr n d1) (dict_arr n d2).
  Proof.
    intros Hd. unfold dict_arr. apply wrapped_rel; cbn [d_init d_field d_elem d_fin d_body]; auto; try (intros; apply R_stop).
    - intros a tag vh. unfold arr_field. destruct a; try apply R_stop. destruct (n <=? lenN vs); [apply R_stop|].
      apply R_bind; [apply Hd|]. intros v. apply R_ret.
    - intros a. unfold arr_fin. destruct a; try apply R_stop. destruct (lenN vs <? n); [|apply R_ret]. destruct vs; apply R_stop.
  Qed.
  Lemma option_rel d1 d2 : drel d1 d2 -> drel (dict_option d1) (dict_option d2).
  Proof.
    intros Hd. unfold dict_option. apply wrapped_rel; cbn [d_init d_field d_elem d_fin d_body]; auto; try (intros; apply R_stop).
    - intros a tag vh. apply opt_field_rel. apply Hd.
    - intros [o| | |]; apply R_ret || apply R_stop.
  Qed.
  Lemma struct_rel k b1 b2 e1 e2 : R None b1 b2 -> (forall tag vh, R (Some vh) (e1 tag vh) (e2 tag vh)) ->
    drel (dict_struct k b1 e1) (dict_struct k b2 e2).
  Proof.
    intros Hb He. unfold dict_struct. constructor; cbn [d_init d_field d_elem d_fin d_body]; auto.
    - intros a tag vh. now apply opt_field_rel.
    - intros a. apply opt_fin_rel.
  Qed.
  Lemma tuple_fields_rel i ds1 ds2 : Forall2 drel ds1 ds2 -> Forall2 frel (tuple_fields i ds1) (tuple_fields i ds2).
  Proof.
    intros H. revert i. induction H as [|d1 d2 l1 l2 Hd _ IH]; intros i; cbn; constructor; auto. split; [reflexivity|exact Hd].
  Qed.
  Lemma tuple_rel ds1 ds2 : Forall2 drel ds1 ds2 -> drel (dict_tuple ds1) (dict_tuple ds2).
  Proof.
    intros H. assert (Hb : R None (tuple_body ds1) (tuple_body ds2)).
    { unfold tuple_body. apply R_bind; [|intros vs; apply R_ret]. apply des_body_rel; [|exact I]. now apply tuple_fields_rel. }
    unfold dict_tuple. apply struct_rel; [exact Hb|]. intros tag vh. apply R_lift. intros _ _. now apply R_weak.
  Qed.
  Lemma map_rel k1 k2 v1 v2 : drel k1 k2 -> drel v1 v2 -> drel (dict_map k1 v1) (dict_map k2 v2).
  Proof.
    intros Hk Hv. assert (Ht : drel (dict_tuple [k1; v1]) (dict_tuple [k2; v2])) by (apply tuple_rel; auto).
    unfold dict_map. apply wrapped_rel; cbn [d_init d_field d_elem d_fin d_body]; auto; try (intros; apply R_stop).
    - intros a tag vh. unfold map_field. destruct a; try apply R_stop. apply R_do; [reflexivity|]. intros _.
      apply R_bind; [apply Ht|]. intros []; try apply R_stop. destruct vs as [|? [|? [|]]]; apply R_ret || apply R_stop.
    - intros []; apply R_ret || apply R_stop.
  Qed.

  Section Unk.
    Variables (z1 z2 : bool).
    Hypothesis Hcow : forall vh, R (Some vh) (cow_bytes z1 vh) (cow_bytes z2 vh).
    Lemma unk_body_rel f : R None (unk_body z1 f) (unk_body z2 f).
    Proof.
      induction f as [|f IH]; cbn [unk_body]; [apply R_stop|]. apply R_ploop. intros fs. apply R_next.
      intros [[tag vh]|]; cbn [option_map snd pbind]; [|apply R_ret]. apply R_do; [reflexivity|]. intros _. apply R_do; [reflexivity|]. intros _.
      apply R_bind; [|intros n; apply R_pop]. destruct vh.
      - apply R_ret.
      - apply R_bind; [apply Hcow|]. intros b. apply R_ret.
      - apply R_weak, R_bind; [exact IH|]. intros b. apply R_ret.
      - apply R_weak, R_bind; [exact IH|]. intros b. apply R_ret.
    Qed.
    Lemma unk_elem_rel f vh : R (Some vh) (unk_elem z1 f vh) (unk_elem z2 f vh).
    Proof.
      unfold unk_elem. destruct vh.
      - apply R_ret.
      - apply R_bind; [apply Hcow|]. intros b. apply R_ret.
      - apply R_weak, R_bind; [apply unk_body_rel|]. intros b. apply R_ret.
      - apply R_weak, R_bind; [apply unk_body_rel|]. intros b. apply R_ret.
    Qed.
    Lemma unknown_rel f : drel (dict_unknown z1 f) (dict_unknown z2 f).
    Proof.
      assert (Hb : R None (fs <- unk_body z1 f ; PRet (VUnk fs)) (fs <- unk_body z2 f ; PRet (VUnk fs))).
      { apply R_bind; [apply unk_body_rel|]. intros fs. apply R_ret. }
      unfold dict_unknown. constructor; cbn [d_init d_field d_elem d_fin d_body]; auto.
      - intros a tag vh. unfold unk_field. destruct a; try apply R_stop. apply R_do; [reflexivity|]. intros _.
        apply R_bind; [apply unk_elem_rel|]. intros n. apply R_ret.
      - intros tag vh. apply R_lift. intros _ _. now apply R_weak.
      - intros []; apply R_ret || apply R_stop.
    Qed.
    Lemma unkfield_rel f : drel (dict_unkfield z1 f) (dict_unkfield z2 f).
    Proof. unfold dict_unkfield. apply unary_rel. intros tag vh. apply R_bind; [apply unk_elem_rel|]. intros n. apply R_ret. Qed.
  End Unk.

  (** *** Items *)
  Lemma fdicts_rel mk1 mk2 fs : Forall (fun f => drel (mk1 (fd_ty f)) (mk2 (fd_ty f))) fs -> Forall2 frel (fdicts mk1 fs) (fdicts mk2 fs).
  Proof. unfold fdicts. induction 1; cbn; constructor; auto. split; [reflexivity|assumption]. Qed.
  Lemma construct_rel i b vs : R i (construct b vs) (construct b vs).
  Proof. unfold construct. destruct (vb_check b vs); apply R_ret || apply R_stop. Qed.
  Lemma vbody_rel mk1 mk2 b : Forall (fun t => drel (mk1 t) (mk2 t)) (body_types b) -> R None (vbody_body mk1 b) (vbody_body mk2 b).
  Proof.
    unfold body_types. intros H. apply Forall_app in H. destruct H as [Hf Hs]. rewrite Forall_map in Hf.
    pose proof (fdicts_rel mk1 mk2 (vb_fields b) Hf) as Hff.
    unfold vbody_body. destruct (vb_special b) as [|nm t|nm t]; cbn [sp_types] in Hs.
    - apply R_bind; [|intros vs; apply construct_rel]. now apply des_body_rel.
    - inversion Hs as [|? ? Ht _]; subst. apply R_do; [reflexivity|]. intros _. apply R_bind; [apply Ht|]. intros dv.
      apply R_do; [reflexivity|]. intros _. rewrite (inits_rel _ _ Hff). apply R_bind; [now apply finish_all_rel|]. intros vs. apply construct_rel.
    - inversion Hs as [|? ? Ht _]; subst. apply R_bind; [|intros vs; apply construct_rel]. apply des_body_rel; [exact Hff|]. split; [reflexivity|exact Ht].
  Qed.
  Lemma item_struct_rel mk1 mk2 b : Forall (fun t => drel (mk1 t) (mk2 t)) (body_types b) ->
    drel (dict_item_struct mk1 b) (dict_item_struct mk2 b).
  Proof.
    intros H. pose proof (vbody_rel mk1 mk2 b H) as Hb. unfold dict_item_struct. apply struct_rel; [exact Hb|].
    intros tag vh. unfold struct_elem. unfold body_types in H. apply Forall_app in H. destruct H as [_ Hs].
    destruct (vb_special b) as [|nm t|nm t]; cbn [sp_types] in Hs.
    - apply R_lift. intros _ _. now apply R_weak.
    - inversion Hs as [|? ? Ht _]; subst. apply R_do; [reflexivity|]. intros _. apply R_bind; [apply Ht|]. intros dv.
      apply R_do; [reflexivity|]. intros _. apply construct_rel.
    - apply R_lift. intros _ _. now apply R_weak.
  Qed.
  Lemma item_enum_rel mk1 mk2 vars catch : Forall (fun t => drel (mk1 t) (mk2 t)) (item_types (IEnum vars catch)) ->
    drel (dict_item_enum mk1 vars catch) (dict_item_enum mk2 vars catch).
  Proof.
    intros H. cbn [item_types] in H. apply Forall_app in H. destruct H as [Hv Hc]. unfold dict_item_enum.
    assert (He : forall tag vh, R (Some vh) (enum_elem mk1 vars catch tag vh) (enum_elem mk2 vars catch tag vh)).
    { intros tag vh. unfold enum_elem. apply R_lift. intros d _. apply R_weak.
      assert (Hfv : forall ix b, find_variant d vars = Some (ix, b) -> Forall (fun t => drel (mk1 t) (mk2 t)) (body_types b)).
      { clear -Hv. induction vars as [|[d' b'] r IH]; cbn [find_variant]; [discriminate|]. cbn [flat_map snd] in Hv. apply Forall_app in Hv.
        destruct Hv as [Hv1 Hv2]. intros ix b. destruct (d =? d').
        - intros E. injection E as <- <-. exact Hv1.
        - destruct (find_variant d r) as [[j b2]|]; [|discriminate]. intros E. injection E as <- <-. now apply (IH Hv2 j). }
      destruct (find_variant d vars) as [[ix b]|].
      - apply R_bind; [apply vbody_rel; now apply (Hfv ix)|]. intros v. apply R_ret.
      - destruct catch as [b|]; [|apply R_stop]. apply R_bind; [now apply vbody_rel|]. intros v. apply R_ret. }
    apply default_rel; cbn [d_init d_field d_elem d_fin d_body]; auto.
    - intros a tag vh. now apply opt_field_rel.
    - intros a. apply opt_fin_rel.
  Qed.

  (** *** All types *)
  Variable e : env.
  Variable good : bool -> bool -> ty -> Prop.
  Hypothesis g_item : forall z1 z2 i t, good z1 z2 (TItem i) -> In t (item_types (e i)) -> good z1 z2 t.
  Hypothesis g_vec : forall z1 z2 t, good z1 z2 (TVec t) -> is_u8 t = false -> good z1 z2 t.
  Hypothesis g_seq : forall z1 z2 t, good z1 z2 (TSeq t) -> good z1 z2 t.
  Hypothesis g_set : forall z1 z2 t, good z1 z2 (TSet t) -> good z1 z2 t.
  Hypothesis g_opt : forall z1 z2 t, good z1 z2 (TOption t) -> good z1 z2 t.
  Hypothesis g_arr : forall z1 z2 n t, good z1 z2 (TArray n t) -> is_u8 t = false -> good z1 z2 t.
  Hypothesis g_map : forall z1 z2 k v, good z1 z2 (TMap k v) -> good z1 z2 k /\ good z1 z2 v.
  Hypothesis g_tup : forall z1 z2 ts, good z1 z2 (TTuple ts) -> Forall (good z1 z2) ts.
  Hypothesis g_box : forall z1 z2 t, good z1 z2 (TBox t) -> good z1 z2 t.
  Hypothesis g_copied : forall z1 z2 t, good z1 z2 (TCopied t) -> good false false t.
  Hypothesis L_string : forall z1 z2, good z1 z2 TString -> drel (unary conv_string) (unary conv_string).
  Hypothesis L_vecu8 : forall z1 z2 t, good z1 z2 (TVec t) -> is_u8 t = true -> drel dict_vecu8 dict_vecu8.
  Hypothesis L_arru8 : forall n, drel (dict_arru8 n) (dict_arru8 n).
  Hypothesis L_ref : forall uf it1 it2 z1 z2 t, t = TStrRef \/ t = TBytesRef \/ t = TCowStr \/ t = TCowBytes -> good z1 z2 t ->
    drel (dict_of uf it1 z1 t) (dict_of uf it2 z2 t).
  Hypothesis L_cow : forall z1 z2 t, t = TUnknown \/ t = TUnkField -> good z1 z2 t ->
    forall vh, R (Some vh) (cow_bytes z1 vh) (cow_bytes z2 vh).

  Lemma conv_uint_rel w tag vh : R (Some vh) (conv_uint w tag vh) (conv_uint w tag vh).
  Proof. unfold conv_uint. apply R_lift. intros. apply R_ret. Qed.

  Section Of.
    Variables (uf : nat) (it1 it2 : bool -> nat -> dict).
    Hypothesis Hit : forall z1 z2 i, good z1 z2 (TItem i) -> drel (it1 z1 i) (it2 z2 i).
    Lemma dict_of_rel t : forall z1 z2, good z1 z2 t -> drel (dict_of uf it1 z1 t) (dict_of uf it2 z2 t).
    Proof.
      refine (ty_ind' (fun t => forall z1 z2, good z1 z2 t -> drel (dict_of uf it1 z1 t) (dict_of uf it2 z2 t)) _ _ _ _ _ t); clear t.
      - intros t. destruct t; try exact Logic.I; intros z1 z2 Hg; try (apply L_ref; auto 6; fail).
        + apply unary_rel. intros tag vh. apply R_lift. intros. apply R_ret.
        + apply unary_rel. intros tag vh. apply R_lift. intros. apply R_ret.
        + apply unary_rel. intros tag vh. apply R_lift. intros. apply R_ret.
        + apply unary_rel. intros tag vh. apply R_lift. intros a _. destruct (char_ok a); apply R_ret || apply R_stop.
        + apply unary_rel. intros tag vh. apply R_lift. intros. apply R_ret.
        + exact (L_string z1 z2 Hg).
        + apply unknown_rel. apply (L_cow z1 z2 TUnknown); auto.
        + apply unkfield_rel. apply (L_cow z1 z2 TUnkField); auto.
        + now apply Hit.
      - intros t IH. split; [|split; [|split; [|split; [|split]]]]; intros z1 z2 Hg; cbn [dict_of].
        + destruct (is_u8 t) eqn:E; [now apply (L_vecu8 z1 z2 t)|]. apply coll_rel, IH. now apply g_vec.
        + apply coll_rel, IH. now apply g_seq.
        + apply coll_rel, IH. now apply g_set.
        + apply option_rel, IH. now apply g_opt.
        + apply IH. now apply g_box.
        + apply IH. exact (g_copied z1 z2 t Hg).
      - intros n t IH z1 z2 Hg. cbn [dict_of]. destruct (is_u8 t) eqn:E; [apply L_arru8|]. apply arr_rel, IH. exact (g_arr z1 z2 n t Hg E).
      - intros k v IHk IHv z1 z2 Hg. cbn [dict_of]. destruct (g_map z1 z2 k v Hg). apply map_rel; auto.
      - intros ts IH z1 z2 Hg. cbn [dict_of]. apply tuple_rel. pose proof (g_tup z1 z2 ts Hg) as Hts.
        revert IH Hts. clear. intros IH Hts. induction ts as [|t ts IHl]; cbn [map]; constructor.
        + inversion IH; inversion Hts; subst. auto.
        + inversion IH; inversion Hts; subst. auto.
    Qed.
  End Of.

  Lemma item_dict_rel uf f : forall z1 z2 i, good z1 z2 (TItem i) -> drel (item_dict e uf f z1 i) (item_dict e uf f z2 i).
  Proof.
    induction f as [|f IH]; intros z1 z2 i Hg; cbn [item_dict].
    - unfold dict_stop. constructor; cbn [d_init d_field d_elem d_fin d_body]; auto; intros; apply R_stop.
    - assert (Ht : Forall (fun t => drel (dict_of uf (item_dict e uf f) z1 t) (dict_of uf (item_dict e uf f) z2 t)) (item_types (e i))).
      { apply Forall_forall. intros t Hin. apply dict_of_rel; [exact IH|]. exact (g_item z1 z2 i t Hg Hin). }
      destruct (e i) as [b|vars catch]; [now apply item_struct_rel|now apply item_enum_rel].
  Qed.
  Lemma full_dict_rel f z1 z2 t : good z1 z2 t -> drel (full_dict e f z1 t) (full_dict e f z2 t).
  Proof. intros Hg. unfold full_dict. apply dict_of_rel; [|exact Hg]. intros y1 y2 i. apply item_dict_rel. Qed.
End Rel.
