(** * P_GiveUp: what is written instead of the rest of a document is reported (C78) *)

From Verif Require Import Base Wire Dev Stream Types Prog De Tree SpecFormat SpecDoc SpecDe SpecRead SpecAccept
  P_Base P_Prog P_Types P_DictAll P_El P_Tree P_TreeRun P_Same P_Meaning P_DeTrail P_Strict SpecStream SpecSerDe P_Unamb P_SerDe Ser.
Local Open Scope N_scope.
Strategy 1000 [s_decode_u64 decode_u64 decode_loop write_all read_exact encode_u64 enc_loop encode_fixed_u64 mloop miter].

(** ** Programs that skip only what they have reported as unknown, and give up
    for certain once they have announced an error *)
Inductive okind := KOver | KSkip | KUnk | KPlain.
Definition op_sort {X : Set} (o : op X) : okind := match o with OOver _ => KOver | OSkip => KSkip | OUnknown => KUnk | _ => KPlain end.
Fixpoint kept {A} (p : prog A) : Prop :=
  match p with
  | PRet _ | PStop _ => True
  | PDo o k => match op_sort o with KOver => forall x, dead (k x) | KSkip => False | KUnk => True | KPlain => forall x, kept (k x) end
  end.
Lemma kept_bind {A B} (p : prog A) (f : A -> prog B) : kept p -> (forall a, kept (f a)) -> kept (pbind p f).
Proof.
  intros Hp Hf. induction p as [a|x|X o k IH]; cbn [kept pbind] in *; [apply Hf|exact Logic.I|].
  destruct (op_sort o); [intros x; apply dead_bind, Hp|exact Hp|exact Logic.I|intros x; apply IH, Hp].
Qed.
Lemma kept_do {X : Set} (o : op X) : op_sort o = KPlain -> kept (pdo o).
Proof. intros H. cbn [kept pdo]. rewrite H. intros x. exact Logic.I. Qed.
Lemma kept_op {X : Set} {B} (o : op X) (f : X -> prog B) : op_sort o = KPlain -> (forall x, kept (f x)) -> kept (pbind (pdo o) f).
Proof. intros H Hf. apply kept_bind; [now apply kept_do|exact Hf]. Qed.
Lemma kept_over {B} k (f : unit -> prog B) : (forall x, dead (f x)) -> kept (pbind (pdo (OOver k)) f).
Proof. intros H. cbn [pbind pdo kept op_sort]. exact H. Qed.
Lemma kept_plift {A} (r : res serr A) : kept (plift r).
Proof. destruct r; exact Logic.I. Qed.
Lemma kept_iter {A B} (f : A -> prog (A + B)) p : (forall a, kept (f a)) -> forall a, kept (piter p f a).
Proof.
  intros H. induction p as [q IH|q IH|]; intros a; cbn [piter].
  - apply kept_bind; [apply H|]. intros [a'|b]; [|exact Logic.I]. apply kept_bind; [apply IH|]. intros [a''|b]; [apply IH|exact Logic.I].
  - apply kept_bind; [apply IH|]. intros [a''|b]; [apply IH|exact Logic.I].
  - apply H.
Qed.
Lemma kept_loop {A B} (f : A -> prog (A + B)) a : (forall a, kept (f a)) -> kept (ploop f a).
Proof. intros H. unfold ploop. apply kept_bind; [now apply kept_iter|]. intros [x|b]; exact Logic.I. Qed.

(** ** Every impl *)
Record dkept (d : dict) : Prop := mkDk {
  dk_field : forall a tag vh, kept (d_field d a tag vh);
  dk_elem : forall tag vh, kept (d_elem d tag vh);
  dk_fin : forall a, kept (d_fin d a);
  dk_body : kept (d_body d) }.
Definition pkept (d : dict) : Prop := (forall a tag vh, kept (d_field d a tag vh)) /\ (forall a, kept (d_fin d a)).
Lemma dkept_p d : dkept d -> pkept d.
Proof. intros [H1 _ H3 _]. split; assumption. Qed.
Lemma find_tag_kept tag (fs : list fdict) i nm d : Forall (fun f => pkept (snd f)) fs -> find_tag tag fs = Some (i, nm, d) -> pkept d.
Proof.
  intros H. revert i nm d. induction H as [|[[nm0 t0] d0] r H1 _ IH]; intros i nm d; cbn [find_tag]; [discriminate|].
  destruct (t0 =? tag); [intros E; injection E as _ _ <-; exact H1|]. destruct (find_tag tag r) as [[[j n] x]|]; [|discriminate].
  intros E. injection E as _ _ <-. exact (IH _ _ _ eq_refl).
Qed.
Definition ukept (u : option (string * dict)) : Prop := match u with Some (_, d) => pkept d | None => True end.
Lemma step_kept fs u st : Forall (fun f => pkept (snd f)) fs -> ukept u -> kept (body_step fs u st).
Proof.
  intros Hf Hu. unfold body_step. destruct st as [accs ua]. apply kept_op; [reflexivity|]. intros [[tag vh]|]; [|exact Logic.I].
  destruct (find_tag tag fs) as [[[i nm] d]|] eqn:E.
  - destruct (find_tag_kept _ _ _ _ _ Hf E) as [Hd _]. apply kept_op; [reflexivity|]. intros _u. apply kept_bind; [apply Hd|]. intros a.
    apply kept_op; [reflexivity|]. intros _v. exact Logic.I.
  - destruct u as [[n d]|].
    + destruct Hu as [Hd _]. apply kept_op; [reflexivity|]. intros _u. apply kept_bind; [apply Hd|]. intros a. apply kept_op; [reflexivity|]. intros _v. exact Logic.I.
    + exact Logic.I.
Qed.
Lemma finish_one_kept nm d a : pkept d -> kept (finish_one nm d a).
Proof.
  intros [_ H]. unfold finish_one. apply kept_op; [reflexivity|]. intros _u. apply kept_bind; [apply H|]. intros v. apply kept_op; [reflexivity|]. intros _v. exact Logic.I.
Qed.
Lemma finish_all_kept fs : Forall (fun f : fdict => pkept (snd f)) fs -> forall accs, kept (finish_all fs accs).
Proof.
  induction 1 as [|[[nm t] d] r H1 _ IH]; intros [|a accs]; cbn [finish_all]; try exact Logic.I.
  apply kept_bind; [now apply finish_one_kept|]. intros v. apply kept_bind; [apply IH|]. intros vs. exact Logic.I.
Qed.
Lemma des_kept fs u : Forall (fun f : fdict => pkept (snd f)) fs -> ukept u -> kept (des_body fs u).
Proof.
  intros Hf Hu. unfold des_body. apply kept_bind; [apply kept_loop; intros st; now apply step_kept|]. intros [accs ua].
  apply kept_bind; [now apply finish_all_kept|]. intros vs. destruct u as [[n d]|]; [|exact Logic.I].
  apply kept_bind; [now apply finish_one_kept|]. intros v. exact Logic.I.
Qed.
Lemma default_kept d : pkept d -> kept (body_default d).
Proof.
  intros H. unfold body_default. apply kept_bind; [apply des_kept; [|exact Logic.I]|].
  - apply Forall_cons; [exact H|apply Forall_nil].
  - intros [|v [|w r]]; exact Logic.I.
Qed.
Lemma opt_field_kept k conv a tag vh : (forall t v, kept (conv t v)) -> kept (opt_field k conv a tag vh).
Proof. intros H. unfold opt_field. destruct a as [[v|]| | |]; try exact Logic.I. apply kept_bind; [apply H|]. intros v. exact Logic.I. Qed.
Lemma opt_fin_kept a : kept (opt_fin a).
Proof. destruct a as [[v|]| | |]; exact Logic.I. Qed.
Lemma unary_kept conv : (forall t v, kept (conv t v)) -> dkept (unary conv).
Proof.
  intros H. unfold unary, with_default_body. constructor; cbn [d_init d_field d_elem d_fin d_body].
  - intros a tag vh. now apply opt_field_kept.
  - intros tag vh. unfold elem_default. apply kept_bind; [now apply opt_field_kept|intros a; apply opt_fin_kept].
  - apply opt_fin_kept.
  - apply default_kept. split; cbn [d_field d_fin]; intros; [now apply opt_field_kept|apply opt_fin_kept].
Qed.
Lemma wrapped_kept d : pkept d -> dkept (wrapped d).
Proof.
  intros H. pose proof (default_kept _ H) as Hb. destruct H as (H2 & H3). unfold wrapped.
  constructor; cbn [d_init d_field d_elem d_fin d_body]; auto. intros tag vh. apply kept_bind; [apply kept_plift|]. intros _u. exact Hb.
Qed.
Lemma coll_fin_kept a : kept (coll_fin a).
Proof. destruct a; exact Logic.I. Qed.
Lemma arr_kept n d : dkept d -> dkept (dict_arr n d).
Proof.
  intros H. unfold dict_arr. apply wrapped_kept. split; cbn [d_field d_fin]; intros a.
  - intros tag vh. unfold arr_field. destruct a; try exact Logic.I. destruct (n <=? lenN vs); [exact Logic.I|].
    apply kept_bind; [apply (dk_elem _ H)|intros v; exact Logic.I].
  - unfold arr_fin. destruct a; try exact Logic.I. destruct (lenN vs <? n); [destruct vs|]; exact Logic.I.
Qed.
Lemma coll_kept ins d : dkept d -> dkept (dict_coll ins d).
Proof.
  intros H. unfold dict_coll. apply wrapped_kept. split; cbn [d_field d_fin]; intros a; [|apply coll_fin_kept].
  intros tag vh. unfold coll_field. destruct a; try exact Logic.I. apply kept_op; [reflexivity|]. intros _u.
  apply kept_bind; [apply (dk_elem _ H)|intros v; exact Logic.I].
Qed.
Lemma option_kept d : dkept d -> dkept (dict_option d).
Proof.
  intros H. unfold dict_option. apply wrapped_kept. split; cbn [d_field d_fin]; intros a.
  - intros tag vh. apply opt_field_kept. intros t v. apply (dk_elem _ H).
  - destruct a; exact Logic.I.
Qed.
Lemma struct_kept k body elem : kept body -> (forall t v, kept (elem t v)) -> dkept (dict_struct k body elem).
Proof.
  intros Hb He. unfold dict_struct. constructor; cbn [d_init d_field d_elem d_fin d_body]; auto; intros; [now apply opt_field_kept|apply opt_fin_kept].
Qed.
Lemma tuple_kept ds : Forall dkept ds -> dkept (dict_tuple ds).
Proof.
  intros H. assert (Hf : forall i, Forall (fun f : fdict => pkept (snd f)) (tuple_fields i ds)).
  { induction H as [|d r Hd _ IH]; intros i; cbn [tuple_fields]; [apply Forall_nil|]. apply Forall_cons; [now apply dkept_p|apply IH]. }
  assert (Hb : kept (tuple_body ds)).
  { unfold tuple_body. apply kept_bind; [apply des_kept; [apply Hf|exact Logic.I]|intros vs; exact Logic.I]. }
  unfold dict_tuple. apply struct_kept; [exact Hb|]. intros t v. apply kept_bind; [apply kept_plift|]. intros _u. exact Hb.
Qed.
Lemma map_kept dk dv : dkept dk -> dkept dv -> dkept (dict_map dk dv).
Proof.
  intros Hk Hv. unfold dict_map. apply wrapped_kept. split; cbn [d_field d_fin]; intros a.
  - intros tag vh. unfold map_field. destruct a; try exact Logic.I. apply kept_op; [reflexivity|]. intros _u.
    apply kept_bind; [apply dk_elem, tuple_kept; apply Forall_cons; [exact Hk|apply Forall_cons; [exact Hv|apply Forall_nil]]|].
    intros kv. destruct kv; try exact Logic.I. match goal with |- kept (match ?l with [] => _ | _ => _ end) => destruct l as [|? [|? [|]]] end; exact Logic.I.
  - destruct a; exact Logic.I.
Qed.
Lemma read_owned_kept vh : kept (read_owned vh).
Proof. unfold read_owned. apply kept_bind; [apply kept_plift|]. intros len. apply kept_op; [reflexivity|]. intros _u. now apply kept_do. Qed.
Lemma read_borrowed_kept vh : kept (read_borrowed vh).
Proof. unfold read_borrowed. apply kept_bind; [apply kept_plift|]. intros len. now apply kept_do. Qed.
Lemma cow_kept zc vh : kept (cow_bytes zc vh).
Proof. destruct zc; [apply read_borrowed_kept|apply read_owned_kept]. Qed.
Lemma vecu8_kept : dkept dict_vecu8.
Proof.
  assert (Hf : forall a tag vh, kept (vecu8_field a tag vh)).
  { intros a tag vh. unfold vecu8_field. destruct a as [[v|]| | |]; try exact Logic.I.
    - apply kept_over. intros x. apply dead_then. intros y. exact Logic.I.
    - apply kept_bind; [apply read_owned_kept|]. intros bs. exact Logic.I. }
  unfold dict_vecu8, with_default_body. constructor; cbn [d_init d_field d_elem d_fin d_body].
  - exact Hf.
  - intros tag vh. apply kept_bind; [apply read_owned_kept|]. intros bs. exact Logic.I.
  - apply opt_fin_kept.
  - apply default_kept. split; cbn [d_field d_fin]; [exact Hf|apply opt_fin_kept].
Qed.
Lemma read_array_kept n vh : kept (read_array n vh).
Proof.
  unfold read_array. apply kept_bind; [apply kept_plift|]. intros len. apply kept_op; [reflexivity|]. intros rem.
  destruct (rem =? n); [|exact Logic.I]. apply kept_op; [reflexivity|]. intros bs. exact Logic.I.
Qed.
Lemma arru8_kept n : dkept (dict_arru8 n).
Proof.
  assert (Hf : forall a tag vh, kept (arru8_field n a tag vh)).
  { intros a tag vh. unfold arru8_field. destruct a as [[v|]| | |]; try exact Logic.I.
    - destruct (n <=? 32).
      + apply kept_over. intros x. apply dead_then. intros y. exact Logic.I.
      + apply kept_bind; [exact Logic.I|]. intros x. apply kept_bind; [apply read_array_kept|]. intros y. exact Logic.I.
    - apply kept_bind; [apply read_array_kept|]. intros bs. exact Logic.I. }
  assert (Hn : forall a, kept (arru8_fin n a)) by (intros [[v|]| | |]; try exact Logic.I; unfold arru8_fin; destruct (n =? 0); exact Logic.I).
  unfold dict_arru8, with_default_body. constructor; cbn [d_init d_field d_elem d_fin d_body].
  - exact Hf.
  - intros tag vh. apply read_array_kept.
  - exact Hn.
  - apply default_kept. split; cbn [d_field d_fin]; [exact Hf|exact Hn].
Qed.
Lemma unk_node_kept (zc : bool) (vh : vhdr) (p : prog (list (N * node))) : kept p ->
  kept (match vh with
             | HInt n => PRet (NInt n)
             | HBlob _ => b <- cow_bytes zc vh ; PRet (NBlob b)
             | HStruct => fs <- p ; PRet (NStruct fs)
             | HEnum d => fs <- p ; PRet (NEnum d fs)
             end).
Proof.
  intros Hp. destruct vh; try exact Logic.I; [apply kept_bind; [apply cow_kept|intros; exact Logic.I]| |];
    (apply kept_bind; [exact Hp|intros; exact Logic.I]).
Qed.
Lemma unk_body_kept zc U : kept (unk_body zc U).
Proof.
  induction U as [|f IH]; cbn [unk_body]; [exact Logic.I|].
  apply kept_loop. intros fs. apply kept_op; [reflexivity|]. intros [[tag vh]|]; [|exact Logic.I]. apply kept_op; [reflexivity|]. intros _u.
  apply kept_op; [reflexivity|]. intros _v. apply kept_bind; [apply unk_node_kept, IH|]. intros n. apply kept_op; [reflexivity|]. intros _w. exact Logic.I.
Qed.
Lemma unk_elem_kept zc U vh : kept (unk_elem zc U vh).
Proof. unfold unk_elem. apply unk_node_kept, unk_body_kept. Qed.
Lemma unknown_kept zc U : dkept (dict_unknown zc U).
Proof.
  assert (Hb : kept (fs <- unk_body zc U ; PRet (VUnk fs))) by (apply kept_bind; [apply unk_body_kept|intros; exact Logic.I]).
  unfold dict_unknown. constructor; cbn [d_init d_field d_elem d_fin d_body].
  - intros a tag vh. unfold unk_field. destruct a; try exact Logic.I. apply kept_op; [reflexivity|]. intros _u. apply kept_bind; [apply unk_elem_kept|intros n; exact Logic.I].
  - intros tag vh. apply kept_bind; [apply kept_plift|]. intros _u. exact Hb.
  - intros a. destruct a; exact Logic.I.
  - exact Hb.
Qed.
Lemma unkfield_kept zc U : dkept (dict_unkfield zc U).
Proof. unfold dict_unkfield. apply unary_kept. intros t v. apply kept_bind; [apply unk_elem_kept|intros n; exact Logic.I]. Qed.
Lemma construct_kept b vs : kept (construct b vs).
Proof. unfold construct. destruct (vb_check b vs); exact Logic.I. Qed.
Section Items.
  Variable mk : ty -> dict.
  Hypothesis Hmk : forall t, dkept (mk t).
  Lemma fdicts_kept fs : Forall (fun f : fdict => pkept (snd f)) (fdicts mk fs).
  Proof. induction fs as [|f r IH]; cbn [fdicts map]; [apply Forall_nil|apply Forall_cons; [apply dkept_p, Hmk|exact IH]]. Qed.
  Lemma vbody_kept b : kept (vbody_body mk b).
  Proof.
    unfold vbody_body. destruct (vb_special b) as [|nm t|nm t].
    - apply kept_bind; [apply des_kept; [apply fdicts_kept|exact Logic.I]|intros vs; apply construct_kept].
    - apply kept_op; [reflexivity|]. intros _u. apply kept_bind; [apply (dk_body _ (Hmk t))|]. intros dv. apply kept_op; [reflexivity|]. intros _v.
      apply kept_bind; [apply finish_all_kept, fdicts_kept|intros vs; apply construct_kept].
    - apply kept_bind; [apply des_kept; [apply fdicts_kept|apply dkept_p, Hmk]|intros vs; apply construct_kept].
  Qed.
  Lemma item_struct_kept b : dkept (dict_item_struct mk b).
  Proof.
    unfold dict_item_struct. apply struct_kept; [apply vbody_kept|]. intros t v. unfold struct_elem.
    destruct (vb_special b) as [|nm t0|nm t0]; try (apply kept_bind; [apply kept_plift|intros _u; apply vbody_kept]).
    apply kept_op; [reflexivity|]. intros _u. apply kept_bind; [apply (dk_elem _ (Hmk t0))|intros dv]. apply kept_op; [reflexivity|]. intros _v. apply construct_kept.
  Qed.
  Lemma item_enum_kept vars catch : dkept (dict_item_enum mk vars catch).
  Proof.
    assert (He : forall t v, kept (enum_elem mk vars catch t v)).
    { intros t v. unfold enum_elem. apply kept_bind; [apply kept_plift|]. intros d. destruct (find_variant d vars) as [[ix b]|].
      - apply kept_bind; [apply vbody_kept|intros x; exact Logic.I].
      - destruct catch as [b|]; [|exact Logic.I]. apply kept_bind; [apply vbody_kept|intros x; exact Logic.I]. }
    unfold dict_item_enum, with_default_body, dict_struct. constructor; cbn [d_init d_field d_elem d_fin d_body].
    - intros a tag vh. now apply opt_field_kept.
    - exact He.
    - apply opt_fin_kept.
    - apply default_kept. split; cbn [d_field d_fin]; intros; [now apply opt_field_kept|apply opt_fin_kept].
  Qed.
End Items.
Lemma stop_kept x : dkept (dict_stop x).
Proof. constructor; intros; exact Logic.I. Qed.
Lemma types_kept U item_d : (forall zc i, dkept (item_d zc i)) -> forall t zc, dkept (dict_of U item_d zc t).
Proof.
  intros Hi. apply (ty_ind' (fun t => forall zc, dkept (dict_of U item_d zc t))).
  - intros t. destruct t; try exact Logic.I; intros zc; cbn [dict_of].
    + apply unary_kept. intros t v. apply kept_bind; [apply kept_plift|intros; exact Logic.I].
    + apply unary_kept. intros t v. apply kept_bind; [apply kept_plift|intros; exact Logic.I].
    + apply unary_kept. intros t v. apply kept_bind; [apply kept_plift|intros; exact Logic.I].
    + apply unary_kept. intros t v. apply kept_bind; [apply kept_plift|]. intros n. destruct (char_ok n); exact Logic.I.
    + apply unary_kept. intros t v. apply kept_bind; [apply kept_plift|intros; exact Logic.I].
    + apply unary_kept. intros t v. unfold conv_string. apply kept_bind; [apply read_owned_kept|]. intros b. destruct (utf8_ok b); exact Logic.I.
    + destruct zc; [|apply stop_kept]. apply unary_kept. intros t v. unfold conv_str_ref. apply kept_bind; [apply read_borrowed_kept|]. intros b. destruct (utf8_ok b); exact Logic.I.
    + destruct zc; [|apply stop_kept]. apply unary_kept. intros t v. unfold conv_bytes_ref. apply kept_bind; [apply read_borrowed_kept|]. intros b. exact Logic.I.
    + destruct zc; apply unary_kept; intros t v; [unfold conv_str_ref; apply kept_bind; [apply read_borrowed_kept|]|unfold conv_string; apply kept_bind; [apply read_owned_kept|]];
        intros b; destruct (utf8_ok b); exact Logic.I.
    + destruct zc; [|apply vecu8_kept]. apply unary_kept. intros t v. unfold conv_bytes_ref. apply kept_bind; [apply read_borrowed_kept|]. intros b. exact Logic.I.
    + apply unknown_kept.
    + apply unkfield_kept.
    + apply Hi.
  - intros t Ht. split; [|split; [|split; [|split; [|split]]]]; intros zc; cbn [dict_of].
    + destruct (is_u8 t); [apply vecu8_kept|apply coll_kept, Ht].
    + apply coll_kept, Ht.
    + apply coll_kept, Ht.
    + apply option_kept, Ht.
    + apply Ht.
    + apply Ht.
  - intros n t Ht zc. cbn [dict_of]. destruct (is_u8 t); [apply arru8_kept|apply arr_kept, Ht].
  - intros k v Hk Hv zc. cbn [dict_of]. apply map_kept; auto.
  - intros ts Hts zc. cbn [dict_of]. apply tuple_kept. induction Hts as [|t r Ht _ IH]; cbn [map]; [apply Forall_nil|apply Forall_cons; [apply Ht|exact IH]].
Qed.
Lemma items_kept e U f : forall zc i, dkept (item_dict e U f zc i).
Proof.
  induction f as [|f IH]; intros zc i; cbn [item_dict]; [apply stop_kept|].
  destruct (e i) as [b|vars catch]; [apply item_struct_kept|apply item_enum_kept]; intros t; apply types_kept; exact IH.
Qed.
Lemma full_kept e f zc t : dkept (full_dict e f zc t).
Proof. unfold full_dict. apply types_kept. apply items_kept. Qed.

(** ** The run on the complete document, and the run on the other input *)
Section Two.
  Variables (F G : list (N * delem)) (en1 en2 g : bool) (y : serr) (cf1 cf2 : cfg).
  Hypothesis Hstrict : cf_ignore cf1 = false.
  Hypothesis Hr : cf_rec cf1 = cf_rec cf2.
  Hypothesis Hc : cf_collect cf1 = cf_collect cf2.
  Hypothesis Hb : cf_blob cf1 = cf_blob cf2.
  Hypothesis HG : forall d bl, exists q, el_next (mkEls G en2 false d bl g) = (RErr y, q).

  Definition TW (st1 st2 : rst els) : Prop := exists E eof d bl c p l b,
    st1 = mkR (mkEls (E ++ F) en1 eof d bl g) c p l b None /\ st2 = mkR (mkEls (E ++ G) en2 eof d bl g) c p l b None.
  Definition gone {A} (x : res derr A * rst els) : Prop := exists er, fst x = RErr er /\ e_kind er = KStream y.

  Lemma op_two {X : Set} (o : op X) st1 st2 x st1' : op_sort o <> KOver -> op_sort o <> KSkip -> TW st1 st2 ->
    run_op el_source cf1 o st1 = (ROk x, st1') ->
    op_sort o = KPlain /\ ((exists st2', run_op el_source cf2 o st2 = (ROk x, st2') /\ TW st1' st2') \/ gone (run_op el_source cf2 o st2)).
  Proof.
    intros Ho1 Ho2 (E & eof & d & bl & c & p & l & b & -> & ->) H.
    assert (Hblob : forall (A : Type) (m : M els serr A) (a : A) st',
      (forall es en, m (mkEls es en eof d bl g) = (fst (m (mkEls [] false eof d bl g)), mkEls es en eof d (q_blob (snd (m (mkEls [] false eof d bl g)))) g)) ->
      on_blob m (mkR (mkEls (E ++ F) en1 eof d bl g) c p l b None) = (ROk a, st') ->
      exists st2', on_blob m (mkR (mkEls (E ++ G) en2 eof d bl g) c p l b None) = (ROk a, st2') /\ TW st' st2').
    { intros A m a st' Hm HH. unfold on_blob in *. cbn [x_cur] in *. destruct c as [[t0 p0 d0 v0]|]; [|discriminate]. destruct v0; try discriminate.
      unfold on_src_of in *. cbn [x_s] in *. rewrite Hm in HH |- *. destruct (fst (m (mkEls [] false eof d bl g))) as [a'|e| |]; try discriminate.
      injection HH as -> <-. eexists. split; [reflexivity|]. unfold TW. do 8 eexists. split; reflexivity. }
    destruct o; cbn [op_sort] in *; try congruence.
    - split; [reflexivity|]. cbn [run_op] in *. unfold mbind, on_src_of in *. cbn [x_s i_next el_source] in *.
      unfold el_next in H |- *. cbn [q_eof q_es q_end q_depth q_dbg] in *. destruct eof.
      + left. cbn in H. injection H as <- <-. eexists. split; [reflexivity|]. unfold TW. do 8 eexists. split; reflexivity.
      + destruct E as [|[o e] r]; cbn [app] in *.
        * right. destruct (HG d bl) as [q Hq]. unfold el_next in Hq. cbn [q_eof q_es q_end q_depth q_dbg] in Hq. rewrite Hq.
          unfold gone, xfail. cbn. eexists. split; reflexivity.
        * left. destruct (hdr_of e) eqn:Eh; cbn in H; try discriminate; injection H as <- <-; (eexists; split; [reflexivity|]); unfold TW; do 8 eexists; split; reflexivity.
    - exfalso. cbn [run_op] in H. rewrite Hstrict in H. destruct (x_cur _); discriminate.
    - split; [reflexivity|]. left. cbn [run_op] in *. cbn [x_path x_cur] in *. rewrite <- Hr. destruct (cf_rec cf1 <=? lenN p); [discriminate|].
      destruct at_field; [destruct c; [|discriminate]|]; injection H as <- <-; (eexists; split; [reflexivity|]); unfold TW; do 8 eexists; split; reflexivity.
    - split; [reflexivity|]. left. cbn in H |- *. injection H as <- <-. eexists. split; [reflexivity|]. unfold TW; do 8 eexists; split; reflexivity.
    - split; [reflexivity|]. left. cbn [run_op] in *. cbn [x_s x_coll i_dbg el_source q_dbg] in *. rewrite <- Hc.
      destruct (ctx_collect g (cf_collect cf1) l 1); try discriminate. injection H as <- <-. eexists. split; [reflexivity|]. unfold TW; do 8 eexists; split; reflexivity.
    - split; [reflexivity|]. left. cbn [run_op] in *. cbn [x_s x_blob i_dbg el_source q_dbg] in *. rewrite <- Hb.
      destruct (ctx_blob g (cf_blob cf1) b n); try discriminate. injection H as <- <-. eexists. split; [reflexivity|]. unfold TW; do 8 eexists; split; reflexivity.
    - split; [reflexivity|]. left. cbn [run_op i_remaining el_source] in *. apply Hblob; [|exact H]. reflexivity.
    - split; [reflexivity|]. left. cbn [run_op i_read_fully el_source] in *. rewrite <- Hb. apply Hblob; [|exact H].
      intros es en. unfold el_read_fully. cbn [q_blob]. destruct (_ <? _); reflexivity.
    - split; [reflexivity|]. left. cbn [run_op i_read_exact el_source] in *. apply Hblob; [|exact H].
      intros es en. unfold el_read_exact. cbn [q_blob]. destruct (_ <? _); reflexivity.
    - split; [reflexivity|]. left. cbn [run_op i_ext el_source] in *. apply Hblob; [|exact H]. reflexivity.
  Qed.
  Lemma dead_el cf {A} (p : prog A) : dead p -> forall st a st', run el_source cf p st <> (ROk a, st').
  Proof.
    induction p as [a|x|X o k IH]; intros Hd st b st' H; cbn [Prog.run dead] in *; [contradiction|destruct x; discriminate|].
    unfold mbind in H. destruct (run_op el_source cf o st) as [[z|z| |] st1]; try discriminate. exact (IH z (Hd z) st1 b st' H).
  Qed.
  Lemma run_two {A} (p : prog A) : kept p -> forall st1 st2 a st1', TW st1 st2 -> run el_source cf1 p st1 = (ROk a, st1') ->
    (exists st2', run el_source cf2 p st2 = (ROk a, st2') /\ TW st1' st2') \/ gone (run el_source cf2 p st2).
  Proof.
    induction p as [a|x|X o k IH]; intros Hk st1 st2 b st1' Ht H; cbn [Prog.run kept] in *.
    - left. injection H as -> <-. exists st2. split; [reflexivity|exact Ht].
    - destruct x; discriminate.
    - unfold mbind in *. destruct (run_op el_source cf1 o st1) as [[z|z| |] st1a] eqn:E1; try discriminate.
      assert (N1 : op_sort o <> KOver) by (intros X1; rewrite X1 in Hk; exact (dead_el cf1 _ (Hk z) _ _ _ H)).
      assert (N2 : op_sort o <> KSkip) by (intros X1; rewrite X1 in Hk; exact Hk).
      destruct (op_two o st1 st2 z st1a N1 N2 Ht E1) as (Hp & [(st2a & E2 & Ht2)|Hg]); rewrite Hp in Hk.
      + rewrite E2. exact (IH z (Hk z) st1a st2a b st1' Ht2 H).
      + right. destruct Hg as (er & Hg & Hy). destruct (run_op el_source cf2 o st2) as [r st2a]. cbn [fst] in Hg. subst r. exists er. split; [reflexivity|exact Hy].
  Qed.
End Two.

(** ** Documents *)
Lemma complete_run e zc cf t ks v x dbg : cf_collect cf <= U64_MAX -> cf_blob cf <= U64_MAX ->
  denotes e (cf_ignore cf) zc t ks v x -> fits cf x -> lenN (document ks) <= U64_MAX ->
  exists st, run el_source cf (d_body (full_dict e (S (N.to_nat (cf_rec cf))) zc t)) (top_rst (mkEls (map (pair 0) (document ks)) false false 0 [] dbg)) = (ROk v, st) /\
    q_es (x_s st) = [].
Proof.
  intros Hc Hb Hd Hf Hlen. pose proof (tree_denotes e zc cf t ks v x Hd) as Ht.
  set (q := mkEls (map (pair 0) (document ks)) false false 0 [] dbg).
  pose proof (full_agrees cf Hc Hb false dbg e (S (N.to_nat (cf_rec cf))) zc t) as Ha.
  pose proof (ag_body _ _ _ _ _ Ha ks [] 1 (top_rst q)) as Hx. cbn [x_s x_cur top_rst x_over] in Hx.
  assert (Hml : lenN (map (pair 0) (document ks)) = lenN (document ks)) by (unfold lenN; now rewrite map_length).
  assert (Hat : at_body false dbg ks [] 1 q None).
  { exists (map (pair 0) (flat ks)), 0, 0, []. split; [unfold q, document; rewrite map_app; reflexivity|].
    split; [rewrite map_map; apply map_id|]. split; [reflexivity|].
    unfold document in Hml, Hlen. rewrite map_app in Hml. cbn [map] in Hml. rewrite Hml. exact Hlen. }
  specialize (Hx Hat eq_refl). change (abs (top_rst q)) with (mkC 0 0 0 []) in Hx.
  assert (Hci : cinv cf (mkC 0 0 0 [])) by (split; cbn; lia). specialize (Hx Hci). unfold read_tree in *.
  destruct (t_body _ ks (mkC 0 0 0 [])) as [[w|k| |] c']; cbn [fst] in Ht; try contradiction.
  - destruct Ht as [-> _]. destruct Hx as (st' & E & (bl & Hq) & _). exists st'. split; [exact E|]. rewrite Hq. reflexivity.
  - exfalso. exact (exceeds_not_fits cf x k Ht Hf).
Qed.

Definition strictly (cf : cfg) : cfg := mkCfg (cf_rec cf) false (cf_blob cf) (cf_collect cf).
Lemma instead_run e zc cf t ks v x es es2 G en dbg y : cf_collect cf <= U64_MAX -> cf_blob cf <= U64_MAX ->
  denotes e false zc t ks v x -> fits cf x -> lenN (document ks) <= U64_MAX -> document ks = es ++ es2 -> es2 <> [] ->
  (forall d bl, exists q, el_next (mkEls (map (pair 0) G) en false d bl dbg) = (RErr y, q)) ->
  exists er st, run el_source cf (d_body (full_dict e (S (N.to_nat (cf_rec cf))) zc t)) (top_rst (mkEls (map (pair 0) (es ++ G)) en false 0 [] dbg)) = (RErr er, st) /\
    e_kind er = KStream y.
Proof.
  intros Hc Hb Hd Hf Hl He Hne HG.
  destruct (complete_run e zc (strictly cf) t ks v x dbg Hc Hb Hd Hf Hl) as (st & Hrun & Hend).
  change (cf_rec (strictly cf)) with (cf_rec cf) in Hrun. rewrite He, map_app in Hrun.
  destruct (run_two (map (pair 0) es2) (map (pair 0) G) false en dbg y (strictly cf) cf eq_refl eq_refl eq_refl eq_refl HG
              (d_body (full_dict e (S (N.to_nat (cf_rec cf))) zc t)) (dk_body _ (full_kept e _ zc t))
              _ (top_rst (mkEls (map (pair 0) (es ++ G)) en false 0 [] dbg)) v st ltac:(unfold TW, top_rst; do 8 eexists; split; [reflexivity|rewrite map_app; reflexivity]) Hrun)
    as [(st2 & _ & (E & eof & d & bl & c & p & l & b & -> & _))|(er & H1 & H2)].
  - exfalso. cbn in Hend. apply app_eq_nil in Hend. destruct Hend as [_ Hend]. apply map_eq_nil in Hend. contradiction.
  - destruct (run el_source cf _ _) as [r st2]. cbn [fst] in H1. subst r. exists er, st2. split; [reflexivity|exact H2].
Qed.

Lemma exc_at es b m bx : encodes es b -> elem_enc (DExc m) bx -> forall p, enc_at false false p (map (pair 0) (es ++ [DExc m])) (b ++ bx).
Proof.
  intros (es' & H & E) Hx. rewrite <- E. clear E.
  induction H as [|e es' b1 bs1 He Hes IH]; intros p.
  - cbn [filter map app]. rewrite <- (app_nil_r bx). apply EaCons; [discriminate|discriminate|exact Hx|apply EaNil].
  - rewrite <- app_assoc. destruct e as [t v| | |m'|]; cbn [filter not_pad map app]; try (apply EaCons; [discriminate|discriminate|exact He|apply IH]).
    destruct He as (h & Hh & _ & ->). inversion Hh; subst. cbn [payload app]. apply EaPad; [|apply IH].
    right. destruct (filter not_pad es'); discriminate.
Qed.
Lemma kind_stream P k y : kind_rel P (KStream y) k -> k = KStream y.
Proof. intros H. inversion H; subst; reflexivity. Qed.

Lemma any_sched e zc cf t dbg sk bs sched : Forall (fun x => x <> EvFail) sched ->
  fst (from_stream e zc cf t (new_stream dbg sk (mkDev bs 0 sched))) = fst (from_stream e zc cf t (new_stream dbg sk (mkDev bs 0 []))).
Proof.
  intros Hs. destruct (from_stream e zc cf t (new_stream dbg sk (mkDev bs 0 []))) as [r s1] eqn:E.
  destruct (sched_any e zc cf t dbg sk false bs sched r s1 Hs E) as (s2 & E2 & _).
  change (set_graceful_ false (new_stream dbg sk (mkDev bs 0 sched))) with (new_stream dbg sk (mkDev bs 0 sched)) in E2. now rewrite E2.
Qed.

Theorem gives_up e zc cf t dbg sk sched ks v x es es2 b m bx tl : usable e zc cf t ->
  denotes e false zc t ks v x -> fits cf x -> lenN (document ks) <= U64_MAX -> document ks = es ++ es2 -> es2 <> [] ->
  encodes es b -> elem_enc (DExc m) bx -> bytes_ok (b ++ bx ++ tl) -> lenN (b ++ bx ++ tl) + 3 < U64_MAX -> Forall (fun y => y <> EvFail) sched ->
  exists err, fst (from_stream e zc cf t (new_stream dbg sk (mkDev (b ++ bx ++ tl) 0 sched))) = RErr err /\
    e_kind err = KStream (SException (takeN 256 m)).
Proof.
  intros (He & Ht & Hc & Hb) Hd Hf Hl Hdoc Hne Henc Hx Hok Hlen Hs. rewrite any_sched by exact Hs. rewrite app_assoc in *.
  destruct (instead_run e zc cf t ks v x es es2 [DExc m] false dbg (SException (takeN 256 m)) Hc Hb Hd Hf Hl Hdoc Hne) as (er & st & Hr & Hk).
  { intros d bl. eexists. reflexivity. }
  pose proof (run_to_stream cf e zc t (es ++ [DExc m]) (b ++ bx) tl _ _ (exc_at _ _ _ _ Henc Hx) (fresh_starts dbg sk (b ++ bx) tl Hok Hlen) eq_refl) as R.
  change (s_dbg (new_stream dbg sk (mkDev ((b ++ bx) ++ tl) 0 []))) with dbg in R. rewrite Hr in R. cbn [fst] in R.
  destruct (fst (from_stream e zc cf t (new_stream dbg sk (mkDev ((b ++ bx) ++ tl) 0 [])))) as [w|er2| |]; try contradiction.
  exists er2. split; [reflexivity|]. destruct R as [_ R]. rewrite Hk in R. exact (kind_stream _ _ _ R).
Qed.
Theorem cut_short e zc cf t dbg sk sched ks v x es es2 b : usable e zc cf t ->
  denotes e false zc t ks v x -> fits cf x -> lenN (document ks) <= U64_MAX -> document ks = es ++ es2 -> es2 <> [] ->
  encodes es b -> bytes_ok b -> lenN b + 3 < U64_MAX -> Forall (fun y => y <> EvFail) sched ->
  exists err, fst (from_stream e zc cf t (new_stream dbg sk (mkDev b 0 sched))) = RErr err /\
    e_kind err = KStream (SIo IoUnexpectedEof).
Proof.
  intros (He & Ht & Hc & Hb) Hd Hf Hl Hdoc Hne Henc Hok Hlen Hs. rewrite any_sched by exact Hs.
  destruct (instead_run e zc cf t ks v x es es2 [] true dbg (SIo IoUnexpectedEof) Hc Hb Hd Hf Hl Hdoc Hne) as (er & st & Hr & Hk).
  { intros d bl. eexists. reflexivity. }
  rewrite app_nil_r in Hr.
  assert (Hst : starts (new_stream dbg sk (mkDev b 0 [])) b []).
  { rewrite <- (app_nil_r b) at 1. apply fresh_starts; now rewrite app_nil_r. }
  pose proof (same_run e zc cf t es _ b He Ht Hc Hb Henc Hst) as R.
  change (s_dbg (new_stream dbg sk (mkDev b 0 []))) with dbg in R. rewrite Hr in R.
  destruct (fst (from_stream e zc cf t (new_stream dbg sk (mkDev b 0 [])))) as [w|er2| |]; try contradiction.
  exists er2. split; [reflexivity|]. destruct R as [_ R]. rewrite Hk in R. exact (kind_stream _ _ _ R).
Qed.

(** ** Values *)
Lemma elems_split es b ks c : encodes es b -> encodes_doc ks (b ++ c) -> c <> [] -> exists es2, document ks = es ++ es2 /\ es2 <> [].
Proof.
  intros (es' & He & Hf) Hd Hc. destruct (doc_list _ _ Hd) as (L & HL & HLf).
  assert (Hdoc : document ks = filter not_pad (L ++ [DEnd])) by (unfold document; rewrite filter_app, HLf; reflexivity).
  destruct (elems_unamb es' (L ++ [DEnd]) b (b ++ c) c [] He HL ltac:(now rewrite app_nil_r)) as [(r & z & -> & E & _)|(r & z & E & E2 & Hr)].
  - exfalso. rewrite <- app_assoc in E. rewrite <- (app_nil_r b) in E at 1. apply app_inv_head in E. symmetry in E. apply app_eq_nil in E. destruct E; contradiction.
  - apply app_inv_head in E2. subst z. exists (filter not_pad r). rewrite Hdoc, E, filter_app, Hf. split; [reflexivity|].
    destruct (rev r) as [|a rr] eqn:Er.
    + apply (f_equal (@rev _)) in Er. rewrite rev_involutive in Er. cbn in Er. subst r. inversion Hr; subst. contradiction.
    + apply (f_equal (@rev _)) in Er. rewrite rev_involutive in Er. cbn in Er. subst r. rewrite app_assoc in E. apply app_inj_tail in E. destruct E as [_ <-].
      rewrite filter_app. intros X. apply app_eq_nil in X. destruct X as [_ X]. discriminate.
Qed.
Lemma value_denotes e zc cf t v dw bs : env_wf e -> cf_collect cf <= U64_MAX -> cf_blob cf <= U64_MAX ->
  no_unit_body e t -> has_type e v t -> shape_wf t -> deserialisable e zc t -> admits cf e zc v t -> size_of e t v + 3 < U64_MAX ->
  to_vec e dw t v = ROk bs ->
  exists ks x, denotes e false zc t ks v x /\ fits cf x /\ encodes_doc ks bs /\ bytes_ok bs /\ lenN bs + 3 < U64_MAX /\ lenN (document ks) <= U64_MAX.
Proof.
  intros Hwf Hc Hb Hu Hty Hsh Hde Ha Hs Hv. assert (Hs' : size_of e t v <= U64_MAX) by lia.
  assert (Hst : storable (strictly cf) e zc t v) by (constructor; auto).
  destruct (round_trip e Hwf (strictly cf) Hc Hb zc t v dw true Hst Hs) as (bs' & Hv' & Hr). rewrite Hv in Hv'. injection Hv' as <-.
  rewrite (to_vec_ok e Hwf t v dw (conj Hty Hsh) Hs') in Hv. injection Hv as <-.
  destruct (bytes_of_ok e Hwf t v Hty Hsh Hs') as (Hdoc & Hok & Hl). exists (x_body (doc e v t)).
  assert (Hds : doc_stream (x_body (doc e v t)) (new_stream true true (mkDev (bytes_of e t v ++ []) 0 []))) by (apply DocStream; rewrite ?app_nil_r; auto; lia).
  rewrite app_nil_r in Hds. unfold from_slice in Hr.
  destruct (proj1 (meaning_ok e zc (strictly cf) t _ _ v (conj (env_wf_ok e Hwf) (conj Hde (conj Hc Hb))) Hds) Hr) as (x & Hd & Hf).
  exists x. split; [exact Hd|]. split; [exact Hf|]. split; [exact Hdoc|]. split; [exact Hok|]. split; [lia|].
  pose proof (encodes_len _ _ (doc_encodes _ _ Hdoc)). lia.
Qed.
Theorem value_gives_up e zc cf t v dw dbg sk sched bs b c es m bx tl : env_wf e -> cf_collect cf <= U64_MAX -> cf_blob cf <= U64_MAX ->
  no_unit_body e t -> has_type e v t -> shape_wf t -> deserialisable e zc t -> admits cf e zc v t -> size_of e t v + 3 < U64_MAX ->
  to_vec e dw t v = ROk bs -> bs = b ++ c -> c <> [] -> encodes es b ->
  elem_enc (DExc m) bx -> bytes_ok (b ++ bx ++ tl) -> lenN (b ++ bx ++ tl) + 3 < U64_MAX -> Forall (fun y => y <> EvFail) sched ->
  exists err, fst (from_stream e zc cf t (new_stream dbg sk (mkDev (b ++ bx ++ tl) 0 sched))) = RErr err /\
    e_kind err = KStream (SException (takeN 256 m)).
Proof.
  intros Hwf Hc Hb Hu Hty Hsh Hde Ha Hs Hv -> Hne He Hx Hok Hl Hsc.
  destruct (value_denotes e zc cf t v dw (b ++ c) Hwf Hc Hb Hu Hty Hsh Hde Ha Hs Hv) as (ks & x & Hd & Hf & Hdoc & _ & _ & Hdl).
  destruct (elems_split es b ks c He Hdoc Hne) as (es2 & E & Hne2).
  exact (gives_up e zc cf t dbg sk sched ks v x es es2 b m bx tl (conj (env_wf_ok e Hwf) (conj Hde (conj Hc Hb))) Hd Hf Hdl E Hne2 He Hx Hok Hl Hsc).
Qed.
