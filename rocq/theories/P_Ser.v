(** * P_Ser: serialisation writes the elements of the value's document *)

From Verif Require Import Base Wire Dev Stream SpecWire SpecFormat SpecStream SpecWrite Types Ser SpecDe SpecDoc
  P_Base P_Wire P_Write P_Stream P_Canon P_Types P_Misc P_Prog De P_El Prog P_Wp P_Dict P_DictAll P_DeStream P_DeExt Tree P_Tree P_TreeRun P_RT.
Strategy 1000 [s_decode_u64 decode_u64 decode_loop write_all read_exact encode_u64 enc_loop encode_fixed_u64 mloop miter].

Inductive wrel : wop -> delem -> Prop :=
| WrU t n : wrel (WUInt t n) (DField t (DInt n))
| WrS t z : i64_ok z -> wrel (WSInt t z) (DField t (DInt (zz z)))
| WrB t (b : bool) : wrel (WBool t b) (DField t (DInt (if b then 1 else 0)))
| WrN t : wrel (WNull t) (DField t (DInt 0))
| WrBlob t bs : wrel (WBlob t bs) (DField t (DBlobV bs))
| WrStruct t : wrel (WStruct t) (DField t DStructV)
| WrEnum t d : wrel (WEnum t d) (DField t (DEnumV d))
| WrEnd : wrel WEnd DEnd.
Definition wrels := Forall2 wrel.

Lemma wrel_exec w e : wrel w e -> exec_op w = write_delem e.
Proof. destruct 1; try reflexivity. cbn. unfold write_sint. now rewrite zz_zigzag. Qed.
Lemma wrels_exec ws es : wrels ws es -> forall s, exec ws s = (let* _ := write_elems es in mret tt) s.
Proof.
  induction 1 as [|w e ws es H Hs IH]; intros s; [reflexivity|]. cbn [exec write_elems]. rewrite (wrel_exec _ _ H).
  unfold mbind, mget, mret in *. destruct (write_delem e s) as [[|? | |] s1]; try reflexivity.
  rewrite IH. destruct (write_elems es s1) as [[|? | |] s2]; reflexivity.
Qed.

Lemma wrels_app a b c d : wrels a b -> wrels c d -> wrels (a ++ c) (b ++ d).
Proof. apply Forall2_app. Qed.
Lemma ser_node_doc n : forall tag, wrels (ser_node tag n) (flat_node tag n).
Proof.
  assert (Hfs : forall fs, Forall (fun p => forall tag, wrels (ser_node tag (snd p)) (flat_node tag (snd p))) fs ->
    wrels (flat_map (fun f => ser_node (fst f) (snd f)) fs) (flat_map (fun f => flat_node (fst f) (snd f)) fs)).
  { induction 1; cbn; [constructor|]. apply wrels_app; auto. }
  induction n as [x|b|fs IH|d fs IH] using node_ind'; intros tag; cbn [ser_node flat_node].
  - repeat constructor.
  - repeat constructor.
  - constructor; [constructor|]. apply wrels_app; [auto|repeat constructor].
  - constructor; [constructor|]. apply wrels_app; [auto|repeat constructor].
Qed.
Lemma ser_nodes_doc fs : wrels (ser_nodes fs) (flat fs).
Proof. induction fs as [|[t n] fs IH]; cbn; [constructor|]. apply wrels_app; auto. apply ser_node_doc. Qed.

Lemma flat_app a b : flat (a ++ b) = flat a ++ flat b.
Proof. apply flat_map_app. Qed.

Section W.
  Variable e : env.
  Hypothesis Hwf : env_wf e.

  Definition wser (v : value) (t : ty) : Prop := shape_wf t ->
    wrels (z_body (ser e v t)) (document (x_body (doc e v t))) /\
    (forall tag, wrels (z_elem (ser e v t) tag) (flat_node tag (x_elem (doc e v t)))) /\
    (unknown_like t = false -> forall tag, wrels (z_field (ser e v t) tag) (flat (x_field (doc e v t) tag))).

  Lemma ser_box v t : ser e v (TBox t) = ser e v t.
  Proof. destruct v; reflexivity. Qed.
  Lemma ser_copied v t : ser e v (TCopied t) = ser e v t.
  Proof. destruct v; reflexivity. Qed.

  Lemma w_default (el : N -> list wop) n :
    (forall tag, wrels (el tag) (flat_node tag n)) ->
    wrels (z_body (ser_default el)) (document (x_body (doc_single n))) /\
    (forall tag, wrels (z_elem (ser_default el) tag) (flat_node tag (x_elem (doc_single n)))) /\
    (forall tag, wrels (z_field (ser_default el) tag) (flat (x_field (doc_single n) tag))).
  Proof.
    intros H. cbn [ser_default doc_single z_body z_elem z_field x_body x_elem x_field]. unfold document, flat. cbn [flat_map fst snd].
    repeat split; intros; rewrite ?app_nil_r; auto. apply wrels_app; [auto|repeat constructor].
  Qed.
  Lemma w_coll (fl : N -> list wop) ns : (forall tag, wrels (fl tag) (flat (map (fun n => (tag, n)) ns))) ->
    wrels (z_body (ser_coll fl)) (document (x_body (doc_coll ns))) /\
    (forall tag, wrels (z_elem (ser_coll fl) tag) (flat_node tag (x_elem (doc_coll ns)))) /\
    (forall tag, wrels (z_field (ser_coll fl) tag) (flat (x_field (doc_coll ns) tag))).
  Proof.
    intros H. cbn [ser_coll doc_coll z_body z_elem z_field x_body x_elem x_field]. unfold document.
    repeat split; intros; auto; [apply wrels_app; [auto|repeat constructor]|].
    cbn [flat_node]. constructor; [constructor|]. apply wrels_app; [apply (H 1)|repeat constructor].
  Qed.
  Lemma w_struct bo fs : wrels bo (document fs) ->
    wrels (z_body (ser_struct bo)) (document (x_body (doc_struct fs))) /\
    (forall tag, wrels (z_elem (ser_struct bo) tag) (flat_node tag (x_elem (doc_struct fs)))) /\
    (forall tag, wrels (z_field (ser_struct bo) tag) (flat (x_field (doc_struct fs) tag))).
  Proof.
    intros H. cbn [ser_struct doc_struct z_body z_elem z_field x_body x_elem x_field]. split; [exact H|].
    assert (Hn : forall tag, wrels (WStruct tag :: bo) (flat_node tag (NStruct fs))).
    { intros tag. cbn [flat_node]. constructor; [constructor|exact H]. }
    split; [exact Hn|]. intros tag. unfold flat. cbn [flat_map fst snd]. rewrite app_nil_r. apply Hn.
  Qed.
  Lemma w_weak (A B : Prop) (C D : Prop) : A /\ B /\ C -> A /\ B /\ (D -> C).
  Proof. tauto. Qed.
  Lemma w_items t vs : Forall (fun v => wser v t) vs -> shape_wf t -> forall tag,
    wrels (flat_map (fun x => z_elem (ser e x t) tag) vs) (flat (map (fun n => (tag, n)) (map (fun x => x_elem (doc e x t)) vs))).
  Proof.
    intros H Hs tag. induction H as [|v vs Hv Hvs IH]; cbn [flat_map map]; [constructor|].
    destruct (Hv Hs) as (_ & He & _). unfold flat. cbn [flat_map fst snd]. apply wrels_app; [apply He|exact IH].
  Qed.

  Lemma go_zip (vs : list value) : forall ts : list ty,
    (fix go (vs : list value) (ts : list ty) : list sres :=
       match vs, ts with
       | x :: vs', t' :: ts' => ser e x t' :: go vs' ts'
       | _, _ => []
       end) vs ts = zipw (fun x t => ser e x t) vs ts.
  Proof. induction vs as [|v vs IH]; intros [|t ts]; reflexivity. Qed.
  Lemma w_tuple vs ts : Forall2 wser vs ts -> Forall (fun t => shape_wf t /\ unknown_like t = false) ts -> forall i,
    wrels ((fix go (i : N) (vs : list value) (ts : list ty) : list wop :=
                    match vs, ts with
                    | x :: vs', t' :: ts' => z_field (ser e x t') i ++ go (i + 1) vs' ts'
                    | [], [] => [WEnd]
                    | _, _ => [WPanic]
                    end) i vs ts)
      (document (doc_tuple i (zipw (fun x t => doc e x t) vs ts))).
  Proof.
    intros H. induction H as [|v t vs ts Hv Hvs IH]; intros Hs i; [repeat constructor|].
    inversion Hs as [|? ? [Hs1 Hs2] Hs3]; subst. cbn [zipw doc_tuple]. unfold document. rewrite flat_app, <- app_assoc.
    apply wrels_app; [|apply IH, Hs3]. destruct (Hv Hs1) as (_ & _ & Hf). now apply Hf.
  Qed.

  Lemma doc_fields_cut fs ds1 ds2 : List.length ds1 = List.length fs -> doc_fields fs (ds1 ++ ds2) = doc_fields fs ds1.
  Proof.
    revert ds1. induction fs as [|x fs IH]; intros [|d ds1] H; cbn in *; try discriminate.
    - destruct ds2; reflexivity.
    - now rewrite IH by lia.
  Qed.

  Lemma w_vbody {ordered} b vs : vbody_wf b -> fields_wf b -> Forall2 (typed_by ordered e) vs (body_types b) -> Forall2 wser vs (body_types b) ->
    let '(fs, sp) := split_special b (zipw (fun x t => ser e x t) vs (body_types b)) in
    wrels (ser_vbody b fs sp) (document (doc_record b (zipw (fun x t => doc e x t) vs (body_types b)))) /\
    match vb_special b, sp with SpDeleg _ _, None => False | _, _ => True end.
  Proof.
    intros (Hnd & _ & Hsp) (Hfw & Hspw) Hty H. unfold split_special, ser_vbody, doc_record, body_types in *.
    apply Forall2_app_r in Hty. destruct Hty as (vs1 & vs2 & -> & Hty1 & Hty2).
    assert (H12 : Forall2 wser vs1 (map fd_ty (vb_fields b)) /\ Forall2 wser vs2 (sp_types (vb_special b))).
    { apply Forall2_len in Hty1. apply Forall2_app_r in H. destruct H as (x1 & x2 & E & H1 & H2).
      pose proof (Forall2_len _ _ _ H1). assert (List.length vs1 = List.length x1) by lia.
      apply app_inj_len in E; [|assumption]. destruct E as [-> ->]. auto. }
    destruct H12 as [H1 H2].
    pose proof (Forall2_len _ _ _ Hty1) as Hlen1. pose proof Hlen1 as Hlen1'. rewrite map_length in Hlen1'.
    rewrite !zipw_app by exact Hlen1.
    set (z1 := zipw (fun x t => ser e x t) vs1 (map fd_ty (vb_fields b))).
    set (d1 := zipw (fun x t => doc e x t) vs1 (map fd_ty (vb_fields b))).
    assert (Hz : List.length z1 = List.length (vb_fields b)) by (unfold z1; rewrite zipw_len by exact Hlen1; lia).
    assert (Hd : List.length d1 = List.length (vb_fields b)) by (unfold d1; rewrite zipw_len by exact Hlen1; lia).
    rewrite doc_fields_cut by exact Hd.
    rewrite <- Hz at 1. rewrite firstn_app, firstn_all, Nat.sub_diag, firstn_O, app_nil_r.
    assert (Hn : nth_error (z1 ++ zipw (fun x t => ser e x t) vs2 (sp_types (vb_special b))) (List.length (vb_fields b))
               = nth_error (zipw (fun x t => ser e x t) vs2 (sp_types (vb_special b))) 0).
    { rewrite <- Hz, nth_error_app2, Nat.sub_diag by apply le_n. reflexivity. }
    rewrite Hn. clear Hn.
    assert (Hsk : skipn (List.length (vb_fields b)) (d1 ++ zipw (fun x t => doc e x t) vs2 (sp_types (vb_special b)))
               = zipw (fun x t => doc e x t) vs2 (sp_types (vb_special b))).
    { rewrite skipn_app, skipn_all2 by (rewrite Hd; apply le_n). now rewrite Hd, Nat.sub_diag. }
    rewrite Hsk. clear Hsk.
    assert (Hf : wrels (flat_map (fun p => z_field (snd p) (fd_tag (fst p))) (combine (vb_fields b) z1)) (flat (doc_fields (vb_fields b) d1))).
    { unfold z1, d1. clear - H1 Hfw. revert vs1 H1. induction Hfw as [|f fs [Hs1 Hs2] Hfs IH]; intros vs1 H1; cbn [map] in *.
      - inversion H1; subst. constructor.
      - inversion H1 as [|v ? vs ? Hv Hvs]; subst. cbn [zipw combine flat_map doc_fields fst snd]. rewrite flat_app.
        apply wrels_app; [|now apply IH]. destruct (Hv Hs1) as (_ & _ & Hx). now apply Hx. }
    unfold document. rewrite flat_app, <- app_assoc.
    destruct (vb_special b) as [|nm t'|nm t'] eqn:Esp; cbn [sp_types] in *.
    - inversion Hty2; subst. cbn. split; [|trivial]. apply wrels_app; [exact Hf|repeat constructor].
    - inversion H2 as [|v ? ? ? Hv Hvs]; subst. inversion Hvs; subst. cbn [zipw nth_error flat_map]. rewrite app_nil_r.
      split; [|trivial]. apply wrels_app; [exact Hf|]. apply (Hv Hspw).
    - inversion H2 as [|v ? ? ? Hv Hvs]; subst. inversion Hvs; subst. cbn [zipw nth_error flat_map]. rewrite app_nil_r.
      split; [|trivial]. apply wrels_app; [exact Hf|]. apply (Hv Hspw).
  Qed.

  Lemma vb_types_eq b : vb_types b = body_types b.
  Proof. unfold vb_types, body_types, special_ty, sp_types. destruct (vb_special b); reflexivity. Qed.

  Theorem ser_doc {ordered} : forall v t, typed_by ordered e v t -> wser v t.
  Proof.
    apply (has_type_ind2 ordered e wser).
    - intros w n Hn Hs. apply w_weak, w_default. repeat constructor.
    - intros w z Hz Hs. apply w_weak, w_default. intros tag. constructor; [|constructor]. constructor.
      unfold i64_ok, smin, smax in *. cbn in Hs. unfold width_ok in Hs. destruct Hs as [-> |[-> |[-> | ->]]]; cbn in Hz; lia.
    - intros b Hs. apply w_weak, w_default. repeat constructor.
    - intros c Hc Hs. apply w_weak, w_default. repeat constructor.
    - intros Hs. apply w_weak, w_default. repeat constructor.
    - intros t bs [-> |[-> | ->]] Hb Hu Hs; apply w_weak, w_default; repeat constructor.
    - intros t bs [-> |[-> |(t' & -> & Hu)]] Hb Hs; apply w_weak; [apply w_default; repeat constructor|apply w_default; repeat constructor|].
      cbn [ser doc]. rewrite Hu. apply w_default; repeat constructor.
    - intros n t bs Hu Hb Hl Hs. apply w_weak. cbn [ser doc]. rewrite Hu. apply w_default; repeat constructor.
    - intros n t vs Hu Hl Hty H Hs. apply w_weak. cbn [ser doc]. rewrite Hu. apply w_coll. apply (w_items t vs H Hs).
    - intros t vs Hu Hty H Hs. apply w_weak. cbn [ser doc]. rewrite Hu. apply w_coll. apply (w_items t vs H Hs).
    - intros t vs Hty H Hs. apply w_weak. apply w_coll. apply (w_items t vs H Hs).
    - intros t vs Hty H Hnd Hs. apply w_weak. apply w_coll. apply (w_items t vs H Hs).
    - intros t Hs. apply w_weak. apply (w_coll _ []). intros tag. constructor.
    - intros t v Hty H Hs. apply w_weak. apply (w_coll _ [x_elem (doc e v t)]). intros tag. destruct (H Hs) as (_ & He & _).
      unfold flat. cbn [map flat_map fst snd]. rewrite app_nil_r. apply He.
    - intros tk tv kvs Hty1 Hty2 H1 H2 Hnd [[Hsk Huk] [Hsv Huv]]. apply w_weak. apply w_coll. intros tag. clear Hnd Hty1 Hty2.
      induction kvs as [|[k v] kvs IH]; [constructor|]. inversion H1; subst. inversion H2; subst.
      cbn [map flat_map fst snd]. unfold flat. cbn [flat_map fst snd].
      apply (wrels_app (WStruct tag :: z_field (ser e k tk) 1 ++ z_field (ser e v tv) 2 ++ [WEnd])); [|now apply IH].
      cbn [flat_node]. constructor; [constructor|]. fold (flat (x_field (doc e k tk) 1 ++ x_field (doc e v tv) 2)).
      rewrite flat_app, <- app_assoc. destruct (H3 Hsk) as (_ & _ & Hk). destruct (H5 Hsv) as (_ & _ & Hv).
      apply wrels_app; [now apply Hk|]. apply wrels_app; [now apply Hv|repeat constructor].
    - intros ts vs Hty H [_ Hs]. apply w_weak. apply shape_tuple in Hs. destruct vs as [|v vs].
      + inversion H; subst. apply w_default. intros tag. cbn. repeat constructor.
      + destruct ts as [|t ts]; [inversion H|].
        apply (w_struct _ (doc_tuple 1 (zipw (fun x t' => doc e x t') (v :: vs) (t :: ts)))). exact (w_tuple _ _ H Hs 1).
    - intros t v Hty H Hs. unfold wser in *. rewrite ser_box, doc_box. apply H; auto.
    - intros t v Hty H Hs. unfold wser in *. rewrite ser_copied, doc_copied. apply H; auto.
    - intros fs Hok Hs. cbn [ser doc z_body z_elem z_field x_body x_elem x_field]. unfold document.
      assert (Hb : wrels (ser_nodes fs ++ [WEnd]) (flat fs ++ [DEnd])) by (apply wrels_app; [apply ser_nodes_doc|repeat constructor]).
      split; [exact Hb|]. split; [|discriminate]. intros tag. cbn [flat_node]. constructor; [constructor|exact Hb].
    - intros n Hok Hs. apply w_weak, w_default. apply ser_node_doc.
    - (* structs *)
      intros i b vs Ei Hty H Hck Hunk Hs. apply w_weak. pose proof (Hwf i) as [Hiw Hfw]. rewrite Ei in Hiw, Hfw.
      pose proof (w_vbody b vs Hiw Hfw Hty H) as Hb.
      cbn [ser doc]. rewrite Ei, vb_types_eq, go_zip.
      destruct (split_special b (zipw (fun x t => ser e x t) vs (body_types b))) as [zs sp] eqn:Esp. destruct Hb as [Hb Hdel].
      destruct (vb_special b) as [|nm t'|nm t'] eqn:Eb.
      + apply w_struct. exact Hb.
      + destruct Hiw as (_ & _ & Hfs). rewrite Eb in Hfs.
        assert (Hbt : body_types b = [t']) by (unfold body_types; rewrite Eb, Hfs; reflexivity).
        rewrite Hbt in *. inversion H as [|v ? ? ? Hv Hvs]; subst. inversion Hvs; subst. clear Hvs.
        unfold split_special in Esp. rewrite Hfs in Esp. cbn in Esp. injection Esp as <- <-. cbn [zipw] in *.
        destruct Hfw as [_ Hspw]. rewrite Eb in Hspw. destruct (Hv Hspw) as (_ & He & _).
        unfold doc_record in Hb. rewrite Hfs in Hb. cbn [List.length skipn flat_map doc_fields app] in Hb. rewrite app_nil_r in Hb.
        cbn [z_body z_elem z_field x_body x_elem x_field]. split; [exact Hb|]. split; [exact He|].
        intros tag. unfold flat. cbn [flat_map fst snd]. rewrite app_nil_r. apply He.
      + apply w_struct. exact Hb.
    - (* variants *)
      intros i vars catch ix d b vs Ei Hix Hty H Hck Hunk Hs. apply w_weak. pose proof (Hwf i) as [Hiw Hfw]. rewrite Ei in Hiw, Hfw.
      destruct Hiw as (_ & Hvw & _). destruct Hfw as [Hvf _]. rewrite Forall_forall in Hvw, Hvf. pose proof (nth_error_In _ _ Hix) as Hin.
      pose proof (w_vbody b vs (proj2 (Hvw _ Hin)) (Hvf _ Hin) Hty H) as Hb.
      assert (Hdc : doc e (VVar ix (VRec vs)) (TItem i) = doc_single (NEnum d (doc_record b (zipw (fun x t => doc e x t) vs (body_types b))))) by (cbn [doc]; rewrite Ei, Hix; destruct catch; reflexivity).
      assert (Hse : ser e (VVar ix (VRec vs)) (TItem i) = let '(fs, sp) := split_special b (zipw (fun x t => ser e x t) vs (body_types b)) in
                  ser_default (fun tag => WEnum tag d :: ser_vbody b fs sp)).
      { cbn [ser]. rewrite Ei. assert (Hv : variant (IEnum vars catch) (VVar ix (VRec vs)) = Some (d, b)) by (cbn; destruct catch; exact Hix). rewrite Hv. rewrite <- (vb_types_eq b). reflexivity. }
      rewrite Hdc, Hse. destruct (split_special b _) as [zs sp]. apply w_default. intros tag. cbn [flat_node]. constructor; [constructor|apply Hb].
    - (* catch-all *)
      intros i vars d b vs Ei Hd64 Hout Hty H Hck Hunk Hs. apply w_weak. pose proof (Hwf i) as [Hiw Hfw]. rewrite Ei in Hiw, Hfw.
      destruct Hiw as (_ & _ & Hcw). destruct Hfw as [_ Hcf].
      pose proof (w_vbody b vs Hcw Hcf Hty H) as Hb.
      assert (Hdc : doc e (VCatch d (VRec vs)) (TItem i) = doc_single (NEnum d (doc_record b (zipw (fun x t => doc e x t) vs (body_types b))))) by (cbn [doc]; rewrite Ei; reflexivity).
      assert (Hse : ser e (VCatch d (VRec vs)) (TItem i) = let '(fs, sp) := split_special b (zipw (fun x t => ser e x t) vs (body_types b)) in
                  ser_default (fun tag => WEnum tag d :: ser_vbody b fs sp)).
      { cbn [ser]. rewrite Ei. cbn [variant]. rewrite <- (vb_types_eq b). reflexivity. }
      rewrite Hdc, Hse. destruct (split_special b _) as [zs sp]. apply w_default. intros tag. cbn [flat_node]. constructor; [constructor|apply Hb].
  Qed.
End W.
