(** * P_Adds: added undeclared fields are skipped *)

From Verif Require Import Base Wire Stream Types Prog De SpecFormat SpecDe SpecDoc SpecRead SpecSerDe Tree P_Base P_Prog P_Tree P_TreeRun P_Means P_Meaning P_Order.

Scheme adds_ind2 := Minimality for adds Sort Prop
  with adds_body_ind2 := Minimality for adds_body Sort Prop
  with adds_elem_ind2 := Minimality for adds_elem Sort Prop
  with grows_ind2 := Minimality for grows Sort Prop.
Combined Scheme adds_all_ind from adds_ind2, adds_body_ind2, adds_elem_ind2, grows_ind2.

Definition structured (t : ty) : bool :=
  match t with TTuple _ | TItem _ | TBox _ | TCopied _ => true | _ => collection t end.

Section Adds.
  Variable cf : cfg.
  Hypothesis Hign : cf_ignore cf = true.
  Variable e : env.
  Definition D (U f : nat) (zc : bool) (t : ty) : tdict := t_dict_of cf U (t_item_dict cf e U f) zc t.
  Definition elem_same (t : ty) (n n' : node) : Prop :=
    forall U f zc tag c, t_elem (D U f zc t) tag n c = t_elem (D U f zc t) tag n' c.
  Lemma mbind_cong {A B} (m m' : T A) (k k' : A -> T B) c : m c = m' c -> (forall a c, k a c = k' a c) -> mbind m k c = mbind m' k' c.
  Proof. intros H Hk. unfold mbind. rewrite H. destruct (m' c) as [[a|x| |] c1]; auto. Qed.
  Lemma enum_bind {A B} (a : A) (k : A -> T B) c : mbind (mret a) k c = k a c.
  Proof. unfold mbind, mret. reflexivity. Qed.
  Lemma opt_field_same k conv a tag n n' c : (forall c, conv tag n c = conv tag n' c) -> t_opt_field k conv a tag n c = t_opt_field k conv a tag n' c.
  Proof. intros H. destruct a as [[v|]| | |]; try reflexivity. now apply mbind_cong. Qed.
  Lemma field_same t n n' : structured (each t) = true -> elem_same (each t) n n' ->
    forall U f zc a tag c, t_field (D U f zc t) a tag n c = t_field (D U f zc t) a tag n' c.
  Proof.
    intros Hs He U f. induction t as [| | | | | | | | | |t IH|t IH|t IH|t IH|k t IH|k IHk v IHv|ts|t IH|t IH| | |i]; intros zc a tag c; try discriminate;
      unfold D in *; cbn [t_dict_of each structured collection] in *.
    - destruct (is_u8 t) eqn:Eu; [cbn in Hs; rewrite Eu in Hs; discriminate|].
      cbn. unfold t_coll_field. destruct a; try reflexivity. apply mbind_cong; [reflexivity|]. intros _ c1. apply mbind_cong; [|reflexivity].
      apply (He U f zc tag c1).
    - cbn. unfold t_coll_field. destruct a; try reflexivity. apply mbind_cong; [reflexivity|]. intros _ c1. apply mbind_cong; [|reflexivity].
      apply (He U f zc tag c1).
    - cbn. unfold t_coll_field. destruct a; try reflexivity. apply mbind_cong; [reflexivity|]. intros _ c1. apply mbind_cong; [|reflexivity].
      apply (He U f zc tag c1).
    - cbn. apply opt_field_same. intros c1. apply (He U f zc tag c1).
    - destruct (is_u8 t) eqn:Eu; [cbn in Hs; rewrite Eu in Hs; discriminate|].
      cbn. unfold t_arr_field. destruct a; try reflexivity. destruct (k <=? lenN vs); [reflexivity|]. apply mbind_cong; [|reflexivity].
      apply (He U f zc tag c).
    - cbn [t_map t_wrapped t_field]. unfold t_map_field. destruct a; try reflexivity. apply mbind_cong; [reflexivity|]. intros _ c1. apply mbind_cong; [|reflexivity].
      apply (He U f zc tag c1).
    - apply opt_field_same. intros c1. apply (He U f zc tag c1).
    - now apply IH.
    - now apply IH.
    - specialize (He U f zc tag). unfold D in He. cbn [t_dict_of] in He.
      destruct f as [|f]; [reflexivity|]. cbn [t_item_dict] in *. destruct (e i) as [b|vars catch]; apply opt_field_same; exact He.
  Qed.

  (** What a body declares. *)
  Definition declares (U f : nat) (zc : bool) (decl : N -> option ty) (gs : list tfdict) : Prop :=
    forall tag, match decl tag with
                | Some t => exists i nm d, find_tag tag gs = Some (i, nm, d) /\ t_field d = t_field (D U f zc t)
                | None => find_tag tag gs = None
                end.
  Definition loop_same (decl : N -> option ty) (keep : bool) (ks ks' : list (N * node)) : Prop :=
    forall U f zc gs w, declares U f zc decl gs -> (keep = false -> w = None) ->
    forall st c, t_loop (t_step cf gs w) st ks c = t_loop (t_step cf gs w) st ks' c.
  Definition body_same (t : ty) (ks ks' : list (N * node)) : Prop := forall U f zc c, t_body (D U f zc t) ks c = t_body (D U f zc t) ks' c.
  Definition vbody_same (b : vbody) (ks ks' : list (N * node)) : Prop :=
    forall U f zc c, t_vbody cf (D U f zc) b ks c = t_vbody cf (D U f zc) b ks' c.
  Definition el_same (t : ty) (n n' : node) : Prop := n = n' \/ (structured t = true /\ elem_same t n n').

  Lemma des_body_same gs w decl keep ks ks' U f zc : loop_same decl keep ks ks' -> declares U f zc decl gs -> (keep = false -> w = None) ->
    forall c, t_des_body cf gs w ks c = t_des_body cf gs w ks' c.
  Proof. intros H Hd Hw c. unfold t_des_body. apply mbind_cong; [|reflexivity]. now apply (H U f zc). Qed.
  Lemma declares_1 U f zc t d nm : t_field d = t_field (D U f zc t) -> declares U f zc (only_1 t) [(nm, 1, d)].
  Proof.
    intros H tag. unfold only_1. cbn [find_tag]. rewrite (N.eqb_sym tag 1). destruct (1 =? tag); [|reflexivity]. eauto 6.
  Qed.
  Lemma default_same d t ks ks' U f zc : t_field d = t_field (D U f zc t) -> loop_same (only_1 t) false ks ks' ->
    forall c, t_body_default cf d ks c = t_body_default cf d ks' c.
  Proof.
    intros Hd Hl c. unfold t_body_default. apply mbind_cong; [|reflexivity].
    apply (des_body_same _ _ (only_1 t) false ks ks' U f zc); auto. now apply declares_1.
  Qed.
  Lemma declares_tuple U f zc ts : forall i, forall tag,
    match (if tag <=? i then None else nth_error ts (N.to_nat (tag - 1 - i))) with
    | Some t => exists j nm d, find_tag tag (t_tuple_fields i (map (D U f zc) ts)) = Some (j, nm, d) /\ t_field d = t_field (D U f zc t)
    | None => find_tag tag (t_tuple_fields i (map (D U f zc) ts)) = None
    end.
  Proof.
    induction ts as [|t ts IH]; intros i tag; cbn [map t_tuple_fields find_tag].
    - destruct (tag <=? i); [reflexivity|]. now destruct (N.to_nat (tag - 1 - i)).
    - specialize (IH (i + 1) tag). destruct (N.eqb_spec (i + 1) tag) as [E|E].
      + destruct (N.leb_spec tag i); [lia|]. replace (tag - 1 - i) with 0 by lia. change (N.to_nat 0) with O. cbn [nth_error]. exists O, (tuple_name i), (D U f zc t). now split.
      + destruct (N.leb_spec tag i) as [H|H].
        * destruct (N.leb_spec tag (i + 1)); [|lia]. now rewrite IH.
        * destruct (N.leb_spec tag (i + 1)); [lia|]. replace (N.to_nat (tag - 1 - i)) with (S (N.to_nat (tag - 1 - (i + 1)))) by lia. cbn [nth_error].
          destruct (nth_error ts (N.to_nat (tag - 1 - (i + 1)))) as [t'|]; [|now rewrite IH].
          destruct IH as (j & nm & d & Ef & Hd). rewrite Ef. eauto 6.
  Qed.
  Lemma declares_decls U f zc fs : declares U f zc (fun tag => tag_type tag fs) (t_fdicts (D U f zc) fs).
  Proof.
    intros tag. unfold t_fdicts. induction fs as [|fd fs IH]; cbn [map tag_type find_tag]; [reflexivity|].
    destruct (fd_tag fd =? tag); [eauto 6|]. destruct (tag_type tag fs) as [t|]; [|now rewrite IH].
    destruct IH as (j & nm & d & Ef & Hd). rewrite Ef. eauto 6.
  Qed.
  Lemma tuple_same U f zc ts ks ks' c : loop_same (nth_type ts) false ks ks' ->
    t_tuple_body cf (map (D U f zc) ts) ks c = t_tuple_body cf (map (D U f zc) ts) ks' c.
  Proof.
    intros H. unfold t_tuple_body. apply mbind_cong; [|reflexivity]. apply (des_body_same _ _ (nth_type ts) false ks ks' U f zc); auto.
    intros tag. pose proof (declares_tuple U f zc ts 0 tag) as Hd. unfold nth_type. destruct (N.eqb_spec tag 0), (N.leb_spec tag 0); try lia; [exact Hd|].
    now rewrite N.sub_0_r in Hd.
  Qed.

  Lemma adds_same :
    (forall t ks ks', adds e t ks ks' -> body_same t ks ks') /\
    (forall b ks ks', adds_body e b ks ks' -> vbody_same b ks ks') /\
    (forall t n n', adds_elem e t n n' -> el_same t n n') /\
    (forall decl keep ks ks', grows e decl keep ks ks' -> loop_same decl keep ks ks').
  Proof.
    apply (adds_all_ind e body_same vbody_same el_same loop_same).
    - (* AdPlain *)
      intros t ks ks' Hp _ IH U f zc c. unfold D. destruct t; try discriminate; cbn [t_dict_of];
        try (refine (default_same _ _ ks ks' U f zc _ IH c); reflexivity).
      + destruct zc; [|reflexivity]. refine (default_same _ _ ks ks' U f true _ IH c). reflexivity.
      + destruct zc; [|reflexivity]. refine (default_same _ _ ks ks' U f true _ IH c). reflexivity.
      + destruct zc; refine (default_same _ _ ks ks' U f _ _ IH c); [instantiate (1 := true)|instantiate (1 := false)]; reflexivity.
      + destruct zc; refine (default_same _ _ ks ks' U f _ _ IH c); [instantiate (1 := true)|instantiate (1 := false)]; reflexivity.
      + destruct (is_u8 t) eqn:Eu; refine (default_same _ _ ks ks' U f zc _ IH c); unfold D; cbn [t_dict_of]; now rewrite Eu.
      + destruct (is_u8 t) eqn:Eu; refine (default_same _ _ ks ks' U f zc _ IH c); unfold D; cbn [t_dict_of]; now rewrite Eu.
      + destruct f as [|f]; [reflexivity|]. cbn [t_item_dict]. cbn [plain] in Hp. destruct (e i) as [b|vars catch] eqn:Ei; [discriminate|].
        refine (default_same _ _ ks ks' U (S f) zc _ IH c). unfold D. cbn [t_dict_of t_item_dict]. now rewrite Ei.
    - intros ts ks ks' _ IH U f zc c. unfold D. cbn [t_dict_of t_tuple t_struct t_body]. now apply tuple_same.
    - intros i b ks ks' Ei _ IH U f zc c. unfold D. cbn [t_dict_of]. destruct f as [|f]; [reflexivity|]. cbn [t_item_dict]. rewrite Ei.
      cbn [t_item_struct t_struct t_body]. apply IH.
    - intros t ks ks' _ IH U f zc c. apply (IH U f zc c).
    - intros t ks ks' _ IH U f zc c. apply (IH U f false c).
    - (* AbFields *)
      intros b ks ks' Hd _ IH U f zc c. unfold t_vbody. cbv zeta. unfold delegates, collects in *. destruct (vb_special b) as [|nm t|nm t]; try discriminate.
      + apply mbind_cong; [|reflexivity]. apply (des_body_same _ _ _ false ks ks' U f zc IH); auto. apply declares_decls.
      + apply mbind_cong; [|reflexivity]. apply (des_body_same _ _ _ true ks ks' U f zc IH); [apply declares_decls|discriminate].
    - intros b nm t ks ks' Esp _ IH U f zc c. unfold t_vbody. cbv zeta. rewrite Esp. apply mbind_cong; [reflexivity|]. intros _ c1.
      apply mbind_cong; [apply IH|reflexivity].
    - intros t n. now left.
    - (* AeColl *)
      intros t fs fs' Hc _ IH. right. split; [destruct t; auto|]. intros U f zc tag c. unfold D. destruct t; try discriminate; cbn [t_dict_of].
      + cbn [collection] in Hc. destruct (is_u8 t) eqn:Eu; [discriminate|]. cbn. refine (default_same _ _ fs fs' U f zc _ IH c). unfold D; cbn [t_dict_of]. now rewrite Eu.
      + cbn. refine (default_same _ _ fs fs' U f zc _ IH c). reflexivity.
      + cbn. refine (default_same _ _ fs fs' U f zc _ IH c). reflexivity.
      + cbn. refine (default_same _ _ fs fs' U f zc _ IH c). reflexivity.
      + cbn [collection] in Hc. destruct (is_u8 t) eqn:Eu; [discriminate|]. cbn. refine (default_same _ _ fs fs' U f zc _ IH c). unfold D; cbn [t_dict_of]. now rewrite Eu.
      + cbn. refine (default_same _ _ fs fs' U f zc _ IH c). reflexivity.
    - intros ts fs fs' _ IH. right. split; [reflexivity|]. intros U f zc tag c. unfold D. cbn [t_dict_of t_tuple t_struct t_elem].
      exact (tuple_same U f zc ts fs fs' c IH).
    - intros i b fs fs' Ei Hd _ IH. right. split; [reflexivity|]. intros U f zc tag c. unfold D. cbn [t_dict_of]. destruct f as [|f]; [reflexivity|].
      cbn [t_item_dict]. rewrite Ei. cbn [t_item_struct t_struct t_elem]. unfold t_struct_elem. unfold delegates in Hd.
      destruct (vb_special b) as [|nm t|nm t] eqn:Esp; try discriminate; exact (IH U f zc c).
    - intros i b nm t n n' Ei Esp _ IH. destruct IH as [->|[_ IH]]; [now left|]. right. split; [reflexivity|].
      intros U f zc tag c. unfold D. cbn [t_dict_of]. destruct f as [|f]; [reflexivity|].
      cbn [t_item_dict]. rewrite Ei. cbn [t_item_struct t_struct t_elem]. unfold t_struct_elem. rewrite Esp.
      apply mbind_cong; [reflexivity|]. intros _ c1. apply mbind_cong; [apply IH|reflexivity].
    - intros i vars catch d ix b fs fs' Ei Ev _ IH. right. split; [reflexivity|]. intros U f zc tag c. unfold D. cbn [t_dict_of]. destruct f as [|f]; [reflexivity|].
      cbn [t_item_dict]. rewrite Ei. cbn [t_item_enum t_with_default_body t_struct t_elem]. unfold t_enum_elem. change (kids (NEnum d fs)) with fs. change (kids (NEnum d fs')) with fs'.
      unfold hdr_node, to_enum, t_lift. rewrite !enum_bind, variant_eq, Ev. apply mbind_cong; [|reflexivity]. apply IH.
    - intros i vars d b fs fs' Ei Ev _ IH. right. split; [reflexivity|]. intros U f zc tag c. unfold D. cbn [t_dict_of]. destruct f as [|f]; [reflexivity|].
      cbn [t_item_dict]. rewrite Ei. cbn [t_item_enum t_with_default_body t_struct t_elem]. unfold t_enum_elem.
      change (kids (NEnum d fs)) with fs. change (kids (NEnum d fs')) with fs'.
      unfold hdr_node, to_enum, t_lift. rewrite !enum_bind, variant_eq, Ev. apply mbind_cong; [|reflexivity]. apply IH.
    - intros t n n' _ [->|[_ IH]]; [now left|right]. split; [reflexivity|]. intros U f zc tag c. apply (IH U f zc tag c).
    - intros t n n' _ [->|[_ IH]]; [now left|right]. split; [reflexivity|]. intros U f zc tag c. apply (IH U f false tag c).
    - intros decl keep U f zc gs w _ _ st c. reflexivity.
    - (* GrField *)
      intros decl keep tag t n n' ks ks' Hdt _ He _ IH U f zc gs w Hd Hw st c. cbn [t_loop].
      apply mbind_cong; [|intros st' c1; now apply (IH U f zc)].
      destruct He as [->|[Hs He]]; [reflexivity|]. destruct st as [accs ua]. unfold t_step. pose proof (Hd tag) as Ht. rewrite Hdt in Ht.
      destruct Ht as (i & nm & d & Ef & Hf). rewrite Ef. apply mbind_cong; [reflexivity|]. intros _ c1. apply mbind_cong; [|reflexivity].
      rewrite Hf. now apply field_same.
    - intros decl keep tag n ks ks' Hdt _ IH U f zc gs w Hd Hw st c. cbn [t_loop]. apply mbind_cong; [reflexivity|].
      intros st' c1. now apply (IH U f zc).
    - intros decl tag n ks ks' Hdt _ IH U f zc gs w Hd Hw st c. cbn [t_loop]. rewrite (IH U f zc gs w Hd Hw).
      destruct st as [accs ua]. unfold mbind. pose proof (Hd tag) as Ht. rewrite Hdt in Ht.
      replace (t_step cf gs w (accs, ua) tag n c) with (mret (E := ekind) (accs, ua) c); [reflexivity|]. unfold t_step. rewrite Ht, (Hw eq_refl). unfold t_unknown. rewrite Hign. reflexivity.
  Qed.
End Adds.

(** ** Rejected if not ignored *)
Section Strict.
  Variable cf : cfg.
  Hypothesis Hign : cf_ignore cf = false.
  Variable e : env.
  Local Notation D := (D cf e).
  Definition nok {A} (m : T A) : Prop := forall c a c', m c <> (ROk a, c').
  Lemma nok_l {A B} (m : T A) (k : A -> T B) : nok m -> nok (mbind m k).
  Proof. intros H c b c' E. unfold mbind in E. specialize (H c). destruct (m c) as [[a|x| |] c1]; try discriminate. now apply (H a c1). Qed.
  Lemma nok_r {A B} (m : T A) (k : A -> T B) : (forall a, nok (k a)) -> nok (mbind m k).
  Proof. intros H c b c' E. unfold mbind in E. destruct (m c) as [[a|x| |] c1]; try discriminate. now apply (H a c1 b c'). Qed.
  Definition elem_bad (t : ty) (n : node) : Prop := forall U f zc tag, nok (t_elem (D U f zc t) tag n).
  Lemma nok_fail {A} k : nok (A := A) (mfail k).
  Proof. intros c a c'. discriminate. Qed.
  Lemma nok_panic {A} : nok (A := A) mpanic.
  Proof. intros c a c'. discriminate. Qed.
  Lemma opt_field_bad k conv a tag n : nok (conv tag n) -> nok (t_opt_field k conv a tag n).
  Proof.
    intros H. destruct a as [[v|]| | |]; cbn [t_opt_field]; try apply nok_panic; [apply nok_fail|now apply nok_l].
  Qed.
  Lemma field_bad t n : structured (each t) = true -> elem_bad (each t) n ->
    forall U f zc a tag, nok (t_field (D U f zc t) a tag n).
  Proof.
    intros Hs He U f. induction t as [| | | | | | | | | |t IH|t IH|t IH|t IH|k t IH|k IHk v IHv|ts|t IH|t IH| | |i]; intros zc a tag; try discriminate;
      unfold P_Adds.D in *; cbn [t_dict_of each structured collection] in *.
    - destruct (is_u8 t) eqn:Eu; [cbn in Hs; rewrite Eu in Hs; discriminate|].
      cbn. unfold t_coll_field. destruct a; try apply nok_panic. apply nok_r. intros _. apply nok_l. apply (He U f zc tag).
    - cbn. unfold t_coll_field. destruct a; try apply nok_panic. apply nok_r. intros _. apply nok_l. apply (He U f zc tag).
    - cbn. unfold t_coll_field. destruct a; try apply nok_panic. apply nok_r. intros _. apply nok_l. apply (He U f zc tag).
    - cbn. apply opt_field_bad. apply (He U f zc tag).
    - destruct (is_u8 t) eqn:Eu; [cbn in Hs; rewrite Eu in Hs; discriminate|].
      cbn. unfold t_arr_field. destruct a; try apply nok_panic. destruct (k <=? lenN vs); [apply nok_fail|]. apply nok_l. apply (He U f zc tag).
    - cbn [t_map t_wrapped t_field]. unfold t_map_field. destruct a; try apply nok_panic. apply nok_r. intros _. apply nok_l. apply (He U f zc tag).
    - apply opt_field_bad. apply (He U f zc tag).
    - now apply IH.
    - now apply IH.
    - specialize (He U f zc tag). unfold P_Adds.D in He. cbn [t_dict_of] in He.
      destruct f as [|f]; [intros c a0 c'; discriminate|]. cbn [t_item_dict] in *. destruct (e i) as [b|vars catch]; apply opt_field_bad; exact He.
  Qed.
  Definition loop_bad (decl : N -> option ty) (keep : bool) (ks ks' : list (N * node)) : Prop :=
    ks = ks' \/ forall U f zc gs w, declares cf e U f zc decl gs -> (keep = false -> w = None) ->
    forall st, nok (t_loop (t_step cf gs w) st ks').
  Definition body_bad (t : ty) (ks ks' : list (N * node)) : Prop := ks = ks' \/ forall U f zc, nok (t_body (D U f zc t) ks').
  Definition vbody_bad (b : vbody) (ks ks' : list (N * node)) : Prop := ks = ks' \/ forall U f zc, nok (t_vbody cf (D U f zc) b ks').
  Definition el_bad (t : ty) (n n' : node) : Prop := n = n' \/ (structured t = true /\ elem_bad t n').
  Lemma default_bad d t ks U f zc : t_field d = t_field (D U f zc t) ->
    (forall U f zc gs w, declares cf e U f zc (only_1 t) gs -> (false = false -> w = None) -> forall st, nok (t_loop (t_step cf gs w) st ks)) ->
    nok (t_body_default cf d ks).
  Proof.
    intros Hd Hl. unfold t_body_default. apply nok_l. unfold t_des_body. apply nok_l. apply (Hl U f zc); auto. now apply declares_1.
  Qed.
  Lemma tuple_bad U f zc ts ks :
    (forall U f zc gs w, declares cf e U f zc (nth_type ts) gs -> (false = false -> w = None) -> forall st, nok (t_loop (t_step cf gs w) st ks)) ->
    nok (t_tuple_body cf (map (D U f zc) ts) ks).
  Proof.
    intros H. unfold t_tuple_body. apply nok_l. unfold t_des_body. apply nok_l. apply (H U f zc); auto.
    intros tag. pose proof (declares_tuple cf e U f zc ts 0 tag) as Hd. unfold nth_type. destruct (N.eqb_spec tag 0), (N.leb_spec tag 0); try lia; [exact Hd|].
    now rewrite N.sub_0_r in Hd.
  Qed.
  Lemma adds_bad :
    (forall t ks ks', adds e t ks ks' -> body_bad t ks ks') /\
    (forall b ks ks', adds_body e b ks ks' -> vbody_bad b ks ks') /\
    (forall t n n', adds_elem e t n n' -> el_bad t n n') /\
    (forall decl keep ks ks', grows e decl keep ks ks' -> loop_bad decl keep ks ks').
  Proof.
    assert (Hnil : forall t, nok (t_body (t_dict_stop t) [])) by (intros []; intros c a c'; discriminate).
    apply (adds_all_ind e body_bad vbody_bad el_bad loop_bad).
    - (* AdPlain *)
      intros t ks ks' Hp _ [->|IH]; [now left|]. right. intros U f zc. unfold P_Adds.D. destruct t; try discriminate; cbn [t_dict_of];
        try (refine (default_bad _ _ ks' U f zc _ IH); reflexivity).
      + destruct zc; [|intros c a c'; discriminate]. refine (default_bad _ _ ks' U f true _ IH). reflexivity.
      + destruct zc; [|intros c a c'; discriminate]. refine (default_bad _ _ ks' U f true _ IH). reflexivity.
      + destruct zc; refine (default_bad _ _ ks' U f _ _ IH); [instantiate (1 := true)|instantiate (1 := false)]; reflexivity.
      + destruct zc; refine (default_bad _ _ ks' U f _ _ IH); [instantiate (1 := true)|instantiate (1 := false)]; reflexivity.
      + destruct (is_u8 t) eqn:Eu; refine (default_bad _ _ ks' U f zc _ IH); unfold P_Adds.D; cbn [t_dict_of]; now rewrite Eu.
      + destruct (is_u8 t) eqn:Eu; refine (default_bad _ _ ks' U f zc _ IH); unfold P_Adds.D; cbn [t_dict_of]; now rewrite Eu.
      + destruct f as [|f]; [intros c a c'; discriminate|]. cbn [t_item_dict]. cbn [plain] in Hp. destruct (e i) as [b|vars catch] eqn:Ei; [discriminate|].
        refine (default_bad _ _ ks' U (S f) zc _ IH). unfold P_Adds.D. cbn [t_dict_of t_item_dict]. now rewrite Ei.
    - intros ts ks ks' _ [->|IH]; [now left|]. right. intros U f zc. unfold P_Adds.D. cbn [t_dict_of t_tuple t_struct t_body]. now apply tuple_bad.
    - intros i b ks ks' Ei _ [->|IH]; [now left|]. right. intros U f zc. unfold P_Adds.D. cbn [t_dict_of].
      destruct f as [|f]; [intros c a c'; discriminate|]. cbn [t_item_dict]. rewrite Ei.
      cbn [t_item_struct t_struct t_body]. apply IH.
    - intros t ks ks' _ [->|IH]; [now left|]. right. intros U f zc. apply (IH U f zc).
    - intros t ks ks' _ [->|IH]; [now left|]. right. intros U f zc. apply (IH U f false).
    - (* AbFields *)
      intros b ks ks' Hd _ [->|IH]; [now left|]. right. intros U f zc. unfold t_vbody. cbv zeta. unfold delegates, collects in *. destruct (vb_special b) as [|nm t|nm t]; try discriminate.
      + apply nok_l. unfold t_des_body. apply nok_l. apply (IH U f zc); auto. apply declares_decls.
      + apply nok_l. unfold t_des_body. apply nok_l. apply (IH U f zc); [apply declares_decls|discriminate].
    - intros b nm t ks ks' Esp _ [->|IH]; [now left|]. right. intros U f zc. unfold t_vbody. cbv zeta. rewrite Esp. apply nok_r. intros _.
      apply nok_l. apply IH.
    - intros t n. now left.
    - (* AeColl *)
      intros t fs fs' Hc _ [->|IH]; [now left|]. right. split; [destruct t; auto|]. intros U f zc tag. unfold P_Adds.D. destruct t; try discriminate; cbn [t_dict_of].
      + cbn [collection] in Hc. destruct (is_u8 t) eqn:Eu; [discriminate|]. refine (default_bad _ _ fs' U f zc _ IH). unfold P_Adds.D; cbn [t_dict_of]. now rewrite Eu.
      + refine (default_bad _ _ fs' U f zc _ IH). reflexivity.
      + refine (default_bad _ _ fs' U f zc _ IH). reflexivity.
      + refine (default_bad _ _ fs' U f zc _ IH). reflexivity.
      + cbn [collection] in Hc. destruct (is_u8 t) eqn:Eu; [discriminate|]. refine (default_bad _ _ fs' U f zc _ IH). unfold P_Adds.D; cbn [t_dict_of]. now rewrite Eu.
      + refine (default_bad _ _ fs' U f zc _ IH). reflexivity.
    - intros ts fs fs' _ [->|IH]; [now left|]. right. split; [reflexivity|]. intros U f zc tag. unfold P_Adds.D. cbn [t_dict_of t_tuple t_struct t_elem].
      exact (tuple_bad U f zc ts fs' IH).
    - intros i b fs fs' Ei Hd _ [->|IH]; [now left|]. right. split; [reflexivity|]. intros U f zc tag. unfold P_Adds.D. cbn [t_dict_of].
      destruct f as [|f]; [intros c a c'; discriminate|].
      cbn [t_item_dict]. rewrite Ei. cbn [t_item_struct t_struct t_elem]. unfold t_struct_elem. unfold delegates in Hd.
      destruct (vb_special b) as [|nm t|nm t] eqn:Esp; try discriminate; exact (IH U f zc).
    - intros i b nm t n n' Ei Esp _ IH. destruct IH as [->|[_ IH]]; [now left|]. right. split; [reflexivity|].
      intros U f zc tag. unfold P_Adds.D. cbn [t_dict_of]. destruct f as [|f]; [intros c a c'; discriminate|].
      cbn [t_item_dict]. rewrite Ei. cbn [t_item_struct t_struct t_elem]. unfold t_struct_elem. rewrite Esp.
      apply nok_r. intros _. apply nok_l. apply IH.
    - intros i vars catch d ix b fs fs' Ei Ev _ [->|IH]; [now left|]. right. split; [reflexivity|]. intros U f zc tag. unfold P_Adds.D. cbn [t_dict_of].
      destruct f as [|f]; [intros c a c'; discriminate|].
      cbn [t_item_dict]. rewrite Ei. cbn [t_item_enum t_with_default_body t_struct t_elem]. unfold t_enum_elem.
      change (kids (NEnum d fs')) with fs'.
      unfold hdr_node, to_enum, t_lift. intros c a c'. rewrite !enum_bind, variant_eq, Ev. revert c a c'. apply nok_l. apply IH.
    - intros i vars d b fs fs' Ei Ev _ [->|IH]; [now left|]. right. split; [reflexivity|]. intros U f zc tag. unfold P_Adds.D. cbn [t_dict_of].
      destruct f as [|f]; [intros c a c'; discriminate|].
      cbn [t_item_dict]. rewrite Ei. cbn [t_item_enum t_with_default_body t_struct t_elem]. unfold t_enum_elem.
      change (kids (NEnum d fs')) with fs'.
      unfold hdr_node, to_enum, t_lift. intros c a c'. rewrite !enum_bind, variant_eq, Ev. revert c a c'. apply nok_l. apply IH.
    - intros t n n' _ [->|[_ IH]]; [now left|right]. split; [reflexivity|]. intros U f zc tag. apply (IH U f zc tag).
    - intros t n n' _ [->|[_ IH]]; [now left|right]. split; [reflexivity|]. intros U f zc tag. apply (IH U f false tag).
    - intros decl keep. now left.
    - (* GrField *)
      intros decl keep tag t n n' ks ks' Hdt _ [->|[Hs He]] _ IH.
      + destruct IH as [->|IH]; [now left|]. right. intros U f zc gs w Hd Hw st. cbn [t_loop]. apply nok_r. intros st'. now apply (IH U f zc).
      + right. intros U f zc gs w Hd Hw [accs ua]. cbn [t_loop]. apply nok_l. unfold t_step. pose proof (Hd tag) as Ht. rewrite Hdt in Ht.
        destruct Ht as (i & nm & d & Ef & Hf). rewrite Ef. apply nok_r. intros _. apply nok_l. rewrite Hf. now apply field_bad.
    - intros decl keep tag n ks ks' Hdt _ [->|IH]; [now left|]. right. intros U f zc gs w Hd Hw st. cbn [t_loop]. apply nok_r.
      intros st'. now apply (IH U f zc).
    - intros decl tag n ks ks' Hdt _ _. right. intros U f zc gs w Hd Hw [accs ua]. cbn [t_loop]. apply nok_l.
      unfold t_step. pose proof (Hd tag) as Ht. rewrite Hdt in Ht. rewrite Ht, (Hw eq_refl). apply nok_l. unfold t_unknown. rewrite Hign. apply nok_fail.
  Qed.
End Strict.

Lemma anyk_same k k1 k2 : anyk k k1 -> anyk k k2 -> same_kind k1 k2.
Proof. intros H1 H2; destruct H1; inversion H2; constructor. Qed.
Theorem added_ignored e zc cf t ks ks' s s' : usable e zc cf t -> cf_ignore cf = true -> adds e t ks ks' ->
  doc_stream ks s -> doc_stream ks' s' ->
  match fst (from_stream e zc cf t s), fst (from_stream e zc cf t s') with
  | ROk v, ROk v' => v' = v
  | RErr x, RErr x' => same_kind (e_kind x) (e_kind x')
  | _, _ => False
  end.
Proof.
  intros Hu Hi Ha Hs Hs'. pose proof (stream_tree e zc cf t ks s Hu Hs) as H. pose proof (stream_tree e zc cf t ks' s' Hu Hs') as H'.
  assert (E : read_tree cf e zc t ks = read_tree cf e zc t ks') by exact (proj1 (adds_same cf Hi e) t ks ks' Ha _ _ zc _).
  rewrite <- E in H'. destruct (fst (read_tree cf e zc t ks)) as [v|k| |]; try contradiction.
  - now rewrite H, H'.
  - destruct H as (x & -> & Hk), H' as (x' & -> & Hk'). exact (anyk_same k _ _ Hk Hk').
Qed.
Theorem added_rejected e zc cf t ks ks' s' : usable e zc cf t -> cf_ignore cf = false -> adds e t ks ks' -> ks' <> ks ->
  doc_stream ks' s' -> exists x, fst (from_stream e zc cf t s') = RErr x.
Proof.
  intros Hu Hi Ha Hne Hs'. pose proof (stream_tree e zc cf t ks' s' Hu Hs') as H'.
  destruct (proj1 (adds_bad cf Hi e) t ks ks' Ha) as [->|Hb]; [now destruct Hne|].
  destruct (read_tree cf e zc t ks') as [[v|k| |] c] eqn:E; cbn [fst] in H'; try contradiction.
  - exfalso. exact (Hb _ _ zc _ _ _ E).
  - destruct H' as (x & Ex & _). eauto.
Qed.
