(** * P_Strict: a stricter configuration only refuses, and says which limit (C73) *)

From Verif Require Import Base Wire Dev Stream Types Prog De SpecDe SpecRead SpecStrict P_Base P_DictAll P_Relax P_DeProps P_Errs.
Local Open Scope N_scope.
Strategy 1000 [s_decode_u64 decode_u64 decode_loop write_all read_exact encode_u64 enc_loop encode_fixed_u64 mloop miter].

(** ** Programs that give up for certain once they have announced an error *)
Fixpoint dead {A} (p : prog A) : Prop :=
  match p with PRet _ => False | PStop _ => True | PDo _ k => forall x, dead (k x) end.
Definition is_over {X : Set} (o : op X) : bool := match o with OOver _ => true | _ => false end.
Fixpoint calm {A} (p : prog A) : Prop :=
  match p with
  | PRet _ | PStop _ => True
  | PDo o k => if is_over o then forall x, dead (k x) else forall x, calm (k x)
  end.
Lemma dead_bind {A B} (p : prog A) (f : A -> prog B) : dead p -> dead (pbind p f).
Proof. induction p as [a|x|X o k IH]; cbn [dead pbind]; [contradiction|auto|]. intros H x. apply IH, H. Qed.
Lemma dead_then {A B} (p : prog A) (f : A -> prog B) : (forall a, dead (f a)) -> dead (pbind p f).
Proof. intros H. induction p as [a|x|X o k IH]; cbn [dead pbind]; auto. Qed.
Lemma calm_bind {A B} (p : prog A) (f : A -> prog B) : calm p -> (forall a, calm (f a)) -> calm (pbind p f).
Proof.
  intros Hp Hf. induction p as [a|x|X o k IH]; cbn [calm pbind] in *; [apply Hf|exact Logic.I|].
  destruct (is_over o); intros x; [apply dead_bind, Hp|apply IH, Hp].
Qed.
Lemma calm_do {X : Set} (o : op X) : is_over o = false -> calm (pdo o).
Proof. intros H. cbn [calm pdo]. rewrite H. intros x. exact Logic.I. Qed.
Lemma calm_op {X : Set} {B} (o : op X) (f : X -> prog B) : is_over o = false -> (forall x, calm (f x)) -> calm (pbind (pdo o) f).
Proof. intros H Hf. apply calm_bind; [now apply calm_do|exact Hf]. Qed.
Lemma calm_over {B} k (f : unit -> prog B) : (forall x, dead (f x)) -> calm (pbind (pdo (OOver k)) f).
Proof. intros H. cbn [pbind pdo calm is_over]. exact H. Qed.
Lemma calm_plift {A} (r : res serr A) : calm (plift r).
Proof. destruct r; exact Logic.I. Qed.
Lemma calm_iter {A B} (f : A -> prog (A + B)) p : (forall a, calm (f a)) -> forall a, calm (piter p f a).
Proof.
  intros H. induction p as [q IH|q IH|]; intros a; cbn [piter].
  - apply calm_bind; [apply H|]. intros [a'|b]; [|exact Logic.I]. apply calm_bind; [apply IH|]. intros [a''|b]; [apply IH|exact Logic.I].
  - apply calm_bind; [apply IH|]. intros [a''|b]; [apply IH|exact Logic.I].
  - apply H.
Qed.
Lemma calm_loop {A B} (f : A -> prog (A + B)) a : (forall a, calm (f a)) -> calm (ploop f a).
Proof. intros H. unfold ploop. apply calm_bind; [now apply calm_iter|]. intros [x|b]; exact Logic.I. Qed.

(** ** Running under a stricter configuration *)
Section Run.
  Variables cf cf' : cfg.
  Hypothesis Hl : laxer cf cf'.
  Hypothesis Hcc : cf_collect cf <= U64_MAX.
  Hypothesis Hcb : cf_blob cf <= U64_MAX.
  Notation run := (run stream_source).
  Notation run_op := (run_op stream_source).
  Notation within := (within cf).

  (** Refused, or what totality excludes. *)
  Definition refused {A} (r : res derr A) : Prop :=
    match r with RErr err => refuses cf cf' (e_kind err) \/ (exists a b, e_kind err = KStream (SLargeBlob a b)) | RFuel | RPanic => True | _ => False end.

  Lemma op_less {X : Set} (o : op X) st x st' : is_over o = false -> x_over st = None -> within st -> run_op cf' o st = (ROk x, st') ->
    (run_op cf o st = (ROk x, st') /\ within st' /\ x_over st' = None) \/ refused (fst (run_op cf o st)).
  Proof.
    intros Ho Hov Hw H.
    assert (Hsrc : forall A (m : SM A) (a : A) s1, on_src_of m st = (ROk a, s1) -> within s1 /\ x_over s1 = None).
    { intros A m a s1 E. split; [exact (src_within cf m st a s1 Hw E)|]. unfold on_src_of in E. destruct (m (x_s st)) as [[b|y| |] s2]; try discriminate.
      injection E as _ <-. exact Hov. }
    destruct Hl as (L1 & L2 & L3 & L4). destruct o; cbn [Prog.run_op is_over] in *; try discriminate.
    - left. split; [exact H|]. unfold mbind in H. destruct (on_src_of (i_next stream_source) st) as [[f|y| |] st1] eqn:E; try discriminate.
      apply Hsrc in E. unfold mmod, mret in H. injection H as _ <-. exact E.
    - left. split; [exact H|]. destruct (x_cur st); [|discriminate]. exact (Hsrc _ _ _ _ H).
    - destruct (cf_ignore cf) eqn:Ei.
      + left. rewrite (L4 eq_refl) in H. injection H as <- <-. auto.
      + right. destruct (cf_ignore cf') eqn:Ei'.
        * destruct (x_cur st) as [f|] eqn:Ec; [|exact Logic.I]. unfold xfail. rewrite Hov. cbn. left. auto.
        * destruct (x_cur st); discriminate.
    - destruct (N.leb_spec (cf_rec cf') (lenN (x_path st))); [discriminate|].
      destruct (N.leb_spec (cf_rec cf) (lenN (x_path st))).
      + right. unfold xfail. rewrite Hov. cbn. left. lia.
      + left. split; [exact H|]. destruct at_field; [destruct (x_cur st); [|discriminate]|]; injection H as _ <-; auto.
    - left. split; [exact H|]. unfold mmod in H. injection H as _ <-. auto.
    - destruct Hw as [W1 W2]. unfold ctx_collect in *. unfold u64_sub in *.
      destruct (N.leb_spec (x_coll st) (cf_collect cf)); [|lia]. destruct (N.leb_spec (x_coll st) (cf_collect cf')); [|lia].
      destruct (N.ltb_spec (cf_collect cf' - x_coll st) 1); [discriminate|]. destruct (N.ltb_spec (cf_collect cf - x_coll st) 1).
      + right. unfold xfail. rewrite Hov. cbn. left. lia.
      + left. split; [exact H|]. unfold u64_add in H. destruct (N.ltb_spec (x_coll st + 1) U64_MOD); [|unfold U64_MAX, U64_MOD in *; lia].
        injection H as _ <-. split; [split; [cbn; lia|exact W2]|exact Hov].
    - destruct Hw as [W1 W2]. unfold ctx_blob in *. unfold u64_sub in *.
      destruct (N.leb_spec (x_blob st) (cf_blob cf)); [|lia]. destruct (N.leb_spec (x_blob st) (cf_blob cf')); [|lia].
      destruct (N.ltb_spec (cf_blob cf' - x_blob st) n); [discriminate|]. destruct (N.ltb_spec (cf_blob cf - x_blob st) n).
      + right. unfold xfail. rewrite Hov. cbn. left. lia.
      + left. split; [exact H|]. unfold u64_add in H. destruct (N.ltb_spec (x_blob st + n) U64_MOD); [|unfold U64_MAX, U64_MOD in *; lia].
        injection H as _ <-. split; [split; [exact W1|cbn; lia]|exact Hov].
    - left. split; [exact H|]. unfold on_blob in H. destruct (x_cur st) as [[? ? ? []]|]; try discriminate. exact (Hsrc _ _ _ _ H).
    - unfold on_blob in *. destruct (x_cur st) as [[? ? ? []]|]; try discriminate. pose proof (Hsrc _ _ _ _ H) as Hs.
      change (i_read_fully stream_source) with b_read_fully in *. unfold on_src_of in *. unfold b_read_fully, mbind in *.
      unfold b_remaining in *. destruct (u64_sub (s_dbg (x_s st)) (s_blob_end (x_s st)) (s_pos (x_s st))) as [rem|y| |]; try discriminate.
      destruct (N.ltb_spec (cf_blob cf') rem) as [|G]; [discriminate|]. destruct (N.ltb_spec (cf_blob cf) rem) as [G'|G'].
      + right. cbn [mfail]. unfold xfail. cbn [x_over x_set_s]. rewrite Hov. cbn. right. eauto.
      + left. split; [exact H|exact Hs].
    - left. split; [exact H|]. unfold on_blob in H. destruct (x_cur st) as [[? ? ? []]|]; try discriminate. exact (Hsrc _ _ _ _ H).
    - left. split; [exact H|]. unfold on_blob in H. destruct (x_cur st) as [[? ? ? []]|]; try discriminate. exact (Hsrc _ _ _ _ H).
  Qed.
  Lemma dead_run {A} (p : prog A) : dead p -> forall st a st', run cf' p st <> (ROk a, st').
  Proof.
    induction p as [a|x|X o k IH]; intros Hd st b st' H; cbn [Prog.run dead] in *; [contradiction|destruct x; discriminate|].
    unfold mbind in H. destruct (run_op cf' o st) as [[y|y| |] st1]; try discriminate. exact (IH y (Hd y) st1 b st' H).
  Qed.
  Lemma run_less {A} (p q : prog A) : prle p q -> calm q -> forall st a st', x_over st = None -> within st -> run cf' q st = (ROk a, st') ->
    run cf p st = (ROk a, st') \/ refused (fst (run cf p st)).
  Proof.
    induction 1 as [a|q|x|X o k k' H IH]; intros Hc st b st' Hov Hw Hr; cbn [Prog.run calm] in *.
    - now left.
    - right. exact Logic.I.
    - destruct x; discriminate.
    - unfold mbind in *. destruct (run_op cf' o st) as [[y|y| |] st1] eqn:E; try discriminate.
      destruct (is_over o) eqn:Eo; [exfalso; exact (dead_run _ (Hc y) _ _ _ Hr)|].
      destruct (op_less o st y st1 Eo Hov Hw E) as [(-> & Hw1 & Hov1)|Hf].
      + exact (IH y (Hc y) st1 b st' Hov1 Hw1 Hr).
      + right. destruct (run_op cf o st) as [[z|z| |] st2]; cbn [fst refused] in *; try exact Logic.I; [contradiction|exact Hf].
  Qed.
End Run.

(** ** Every impl *)
Record dcalm (d : dict) : Prop := mkDc {
  dc_field : forall a tag vh, calm (d_field d a tag vh);
  dc_elem : forall tag vh, calm (d_elem d tag vh);
  dc_fin : forall a, calm (d_fin d a);
  dc_body : calm (d_body d) }.
Definition pcalm (d : dict) : Prop := (forall a tag vh, calm (d_field d a tag vh)) /\ (forall a, calm (d_fin d a)).
Lemma dcalm_p d : dcalm d -> pcalm d.
Proof. intros [H1 _ H3 _]. split; assumption. Qed.
Lemma find_tag_calm tag (fs : list fdict) i nm d : Forall (fun f => pcalm (snd f)) fs -> find_tag tag fs = Some (i, nm, d) -> pcalm d.
Proof.
  intros H. revert i nm d. induction H as [|[[nm0 t0] d0] r H1 _ IH]; intros i nm d; cbn [find_tag]; [discriminate|].
  destruct (t0 =? tag); [intros E; injection E as _ _ <-; exact H1|]. destruct (find_tag tag r) as [[[j n] x]|]; [|discriminate].
  intros E. injection E as _ _ <-. exact (IH _ _ _ eq_refl).
Qed.
Definition ucalm (u : option (string * dict)) : Prop := match u with Some (_, d) => pcalm d | None => True end.
Lemma step_calm fs u st : Forall (fun f => pcalm (snd f)) fs -> ucalm u -> calm (body_step fs u st).
Proof.
  intros Hf Hu. unfold body_step. destruct st as [accs ua]. apply calm_op; [reflexivity|]. intros [[tag vh]|]; [|exact Logic.I].
  destruct (find_tag tag fs) as [[[i nm] d]|] eqn:E.
  - destruct (find_tag_calm _ _ _ _ _ Hf E) as [Hd _]. apply calm_op; [reflexivity|]. intros _u. apply calm_bind; [apply Hd|]. intros a.
    apply calm_op; [reflexivity|]. intros _v. exact Logic.I.
  - destruct u as [[n d]|].
    + destruct Hu as [Hd _]. apply calm_op; [reflexivity|]. intros _u. apply calm_bind; [apply Hd|]. intros a. apply calm_op; [reflexivity|]. intros _v. exact Logic.I.
    + apply calm_op; [reflexivity|]. intros _u. apply calm_op; [reflexivity|]. intros _v. exact Logic.I.
Qed.
Lemma finish_one_calm nm d a : pcalm d -> calm (finish_one nm d a).
Proof.
  intros [_ H]. unfold finish_one. apply calm_op; [reflexivity|]. intros _u. apply calm_bind; [apply H|]. intros v. apply calm_op; [reflexivity|]. intros _v. exact Logic.I.
Qed.
Lemma finish_all_calm fs : Forall (fun f : fdict => pcalm (snd f)) fs -> forall accs, calm (finish_all fs accs).
Proof.
  induction 1 as [|[[nm t] d] r H1 _ IH]; intros [|a accs]; cbn [finish_all]; try exact Logic.I.
  apply calm_bind; [now apply finish_one_calm|]. intros v. apply calm_bind; [apply IH|]. intros vs. exact Logic.I.
Qed.
Lemma des_calm fs u : Forall (fun f : fdict => pcalm (snd f)) fs -> ucalm u -> calm (des_body fs u).
Proof.
  intros Hf Hu. unfold des_body. apply calm_bind; [apply calm_loop; intros st; now apply step_calm|]. intros [accs ua].
  apply calm_bind; [now apply finish_all_calm|]. intros vs. destruct u as [[n d]|]; [|exact Logic.I].
  apply calm_bind; [now apply finish_one_calm|]. intros v. exact Logic.I.
Qed.
Lemma default_calm d : pcalm d -> calm (body_default d).
Proof.
  intros H. unfold body_default. apply calm_bind; [apply des_calm; [|exact Logic.I]|].
  - apply Forall_cons; [exact H|apply Forall_nil].
  - intros [|v [|w r]]; exact Logic.I.
Qed.
Lemma opt_field_calm k conv a tag vh : (forall t v, calm (conv t v)) -> calm (opt_field k conv a tag vh).
Proof. intros H. unfold opt_field. destruct a as [[v|]| | |]; try exact Logic.I. apply calm_bind; [apply H|]. intros v. exact Logic.I. Qed.
Lemma opt_fin_calm a : calm (opt_fin a).
Proof. destruct a as [[v|]| | |]; exact Logic.I. Qed.
Lemma unary_calm conv : (forall t v, calm (conv t v)) -> dcalm (unary conv).
Proof.
  intros H. unfold unary, with_default_body. constructor; cbn [d_init d_field d_elem d_fin d_body].
  - intros a tag vh. now apply opt_field_calm.
  - intros tag vh. unfold elem_default. apply calm_bind; [now apply opt_field_calm|intros a; apply opt_fin_calm].
  - apply opt_fin_calm.
  - apply default_calm. split; cbn [d_field d_fin]; intros; [now apply opt_field_calm|apply opt_fin_calm].
Qed.
Lemma wrapped_calm d : pcalm d -> dcalm (wrapped d).
Proof.
  intros H. pose proof (default_calm _ H) as Hb. destruct H as (H2 & H3). unfold wrapped.
  constructor; cbn [d_init d_field d_elem d_fin d_body]; auto. intros tag vh. apply calm_bind; [apply calm_plift|]. intros _u. exact Hb.
Qed.
Lemma coll_fin_calm a : calm (coll_fin a).
Proof. destruct a; exact Logic.I. Qed.
Lemma arr_calm n d : dcalm d -> dcalm (dict_arr n d).
Proof.
  intros H. unfold dict_arr. apply wrapped_calm. split; cbn [d_field d_fin]; intros a.
  - intros tag vh. unfold arr_field. destruct a; try exact Logic.I. destruct (n <=? lenN vs); [exact Logic.I|].
    apply calm_bind; [apply (dc_elem _ H)|intros v; exact Logic.I].
  - unfold arr_fin. destruct a; try exact Logic.I. destruct (lenN vs <? n); [destruct vs|]; exact Logic.I.
Qed.
Lemma coll_calm ins d : dcalm d -> dcalm (dict_coll ins d).
Proof.
  intros H. unfold dict_coll. apply wrapped_calm. split; cbn [d_field d_fin]; intros a; [|apply coll_fin_calm].
  intros tag vh. unfold coll_field. destruct a; try exact Logic.I. apply calm_op; [reflexivity|]. intros _u.
  apply calm_bind; [apply (dc_elem _ H)|intros v; exact Logic.I].
Qed.
Lemma option_calm d : dcalm d -> dcalm (dict_option d).
Proof.
  intros H. unfold dict_option. apply wrapped_calm. split; cbn [d_field d_fin]; intros a.
  - intros tag vh. apply opt_field_calm. intros t v. apply (dc_elem _ H).
  - destruct a; exact Logic.I.
Qed.
Lemma struct_calm k body elem : calm body -> (forall t v, calm (elem t v)) -> dcalm (dict_struct k body elem).
Proof.
  intros Hb He. unfold dict_struct. constructor; cbn [d_init d_field d_elem d_fin d_body]; auto; intros; [now apply opt_field_calm|apply opt_fin_calm].
Qed.
Lemma tuple_calm ds : Forall dcalm ds -> dcalm (dict_tuple ds).
Proof.
  intros H. assert (Hf : forall i, Forall (fun f : fdict => pcalm (snd f)) (tuple_fields i ds)).
  { induction H as [|d r Hd _ IH]; intros i; cbn [tuple_fields]; [apply Forall_nil|]. apply Forall_cons; [now apply dcalm_p|apply IH]. }
  assert (Hb : calm (tuple_body ds)).
  { unfold tuple_body. apply calm_bind; [apply des_calm; [apply Hf|exact Logic.I]|intros vs; exact Logic.I]. }
  unfold dict_tuple. apply struct_calm; [exact Hb|]. intros t v. apply calm_bind; [apply calm_plift|]. intros _u. exact Hb.
Qed.
Lemma map_calm dk dv : dcalm dk -> dcalm dv -> dcalm (dict_map dk dv).
Proof.
  intros Hk Hv. unfold dict_map. apply wrapped_calm. split; cbn [d_field d_fin]; intros a.
  - intros tag vh. unfold map_field. destruct a; try exact Logic.I. apply calm_op; [reflexivity|]. intros _u.
    apply calm_bind; [apply dc_elem, tuple_calm; apply Forall_cons; [exact Hk|apply Forall_cons; [exact Hv|apply Forall_nil]]|].
    intros kv. destruct kv; try exact Logic.I. match goal with |- calm (match ?l with [] => _ | _ => _ end) => destruct l as [|? [|? [|]]] end; exact Logic.I.
  - destruct a; exact Logic.I.
Qed.
Lemma read_owned_calm vh : calm (read_owned vh).
Proof. unfold read_owned. apply calm_bind; [apply calm_plift|]. intros len. apply calm_op; [reflexivity|]. intros _u. now apply calm_do. Qed.
Lemma read_borrowed_calm vh : calm (read_borrowed vh).
Proof. unfold read_borrowed. apply calm_bind; [apply calm_plift|]. intros len. now apply calm_do. Qed.
Lemma cow_calm zc vh : calm (cow_bytes zc vh).
Proof. destruct zc; [apply read_borrowed_calm|apply read_owned_calm]. Qed.
Lemma vecu8_calm : dcalm dict_vecu8.
Proof.
  assert (Hf : forall a tag vh, calm (vecu8_field a tag vh)).
  { intros a tag vh. unfold vecu8_field. destruct a as [[v|]| | |]; try exact Logic.I.
    - apply calm_over. intros x. apply dead_then. intros y. exact Logic.I.
    - apply calm_bind; [apply read_owned_calm|]. intros bs. exact Logic.I. }
  unfold dict_vecu8, with_default_body. constructor; cbn [d_init d_field d_elem d_fin d_body].
  - exact Hf.
  - intros tag vh. apply calm_bind; [apply read_owned_calm|]. intros bs. exact Logic.I.
  - apply opt_fin_calm.
  - apply default_calm. split; cbn [d_field d_fin]; [exact Hf|apply opt_fin_calm].
Qed.
Lemma read_array_calm n vh : calm (read_array n vh).
Proof.
  unfold read_array. apply calm_bind; [apply calm_plift|]. intros len. apply calm_op; [reflexivity|]. intros rem.
  destruct (rem =? n); [|exact Logic.I]. apply calm_op; [reflexivity|]. intros bs. exact Logic.I.
Qed.
Lemma arru8_calm n : dcalm (dict_arru8 n).
Proof.
  assert (Hf : forall a tag vh, calm (arru8_field n a tag vh)).
  { intros a tag vh. unfold arru8_field. destruct a as [[v|]| | |]; try exact Logic.I.
    - destruct (n <=? 32).
      + apply calm_over. intros x. apply dead_then. intros y. exact Logic.I.
      + apply calm_bind; [exact Logic.I|]. intros x. apply calm_bind; [apply read_array_calm|]. intros y. exact Logic.I.
    - apply calm_bind; [apply read_array_calm|]. intros bs. exact Logic.I. }
  assert (Hn : forall a, calm (arru8_fin n a)) by (intros [[v|]| | |]; try exact Logic.I; unfold arru8_fin; destruct (n =? 0); exact Logic.I).
  unfold dict_arru8, with_default_body. constructor; cbn [d_init d_field d_elem d_fin d_body].
  - exact Hf.
  - intros tag vh. apply read_array_calm.
  - exact Hn.
  - apply default_calm. split; cbn [d_field d_fin]; [exact Hf|exact Hn].
Qed.
Lemma unk_node_calm (zc : bool) (vh : vhdr) (p : prog (list (N * node))) : calm p ->
  calm (match vh with
             | HInt n => PRet (NInt n)
             | HBlob _ => b <- cow_bytes zc vh ; PRet (NBlob b)
             | HStruct => fs <- p ; PRet (NStruct fs)
             | HEnum d => fs <- p ; PRet (NEnum d fs)
             end).
Proof.
  intros Hp. destruct vh; try exact Logic.I; [apply calm_bind; [apply cow_calm|intros; exact Logic.I]| |];
    (apply calm_bind; [exact Hp|intros; exact Logic.I]).
Qed.
Lemma unk_body_calm zc U : calm (unk_body zc U).
Proof.
  induction U as [|f IH]; cbn [unk_body]; [exact Logic.I|].
  apply calm_loop. intros fs. apply calm_op; [reflexivity|]. intros [[tag vh]|]; [|exact Logic.I]. apply calm_op; [reflexivity|]. intros _u.
  apply calm_op; [reflexivity|]. intros _v. apply calm_bind; [apply unk_node_calm, IH|]. intros n. apply calm_op; [reflexivity|]. intros _w. exact Logic.I.
Qed.
Lemma unk_elem_calm zc U vh : calm (unk_elem zc U vh).
Proof. unfold unk_elem. apply unk_node_calm, unk_body_calm. Qed.
Lemma unknown_calm zc U : dcalm (dict_unknown zc U).
Proof.
  assert (Hb : calm (fs <- unk_body zc U ; PRet (VUnk fs))) by (apply calm_bind; [apply unk_body_calm|intros; exact Logic.I]).
  unfold dict_unknown. constructor; cbn [d_init d_field d_elem d_fin d_body].
  - intros a tag vh. unfold unk_field. destruct a; try exact Logic.I. apply calm_op; [reflexivity|]. intros _u. apply calm_bind; [apply unk_elem_calm|intros n; exact Logic.I].
  - intros tag vh. apply calm_bind; [apply calm_plift|]. intros _u. exact Hb.
  - intros a. destruct a; exact Logic.I.
  - exact Hb.
Qed.
Lemma unkfield_calm zc U : dcalm (dict_unkfield zc U).
Proof. unfold dict_unkfield. apply unary_calm. intros t v. apply calm_bind; [apply unk_elem_calm|intros n; exact Logic.I]. Qed.
Lemma construct_calm b vs : calm (construct b vs).
Proof. unfold construct. destruct (vb_check b vs); exact Logic.I. Qed.
Section Items.
  Variable mk : ty -> dict.
  Hypothesis Hmk : forall t, dcalm (mk t).
  Lemma fdicts_calm fs : Forall (fun f : fdict => pcalm (snd f)) (fdicts mk fs).
  Proof. induction fs as [|f r IH]; cbn [fdicts map]; [apply Forall_nil|apply Forall_cons; [apply dcalm_p, Hmk|exact IH]]. Qed.
  Lemma vbody_calm b : calm (vbody_body mk b).
  Proof.
    unfold vbody_body. destruct (vb_special b) as [|nm t|nm t].
    - apply calm_bind; [apply des_calm; [apply fdicts_calm|exact Logic.I]|intros vs; apply construct_calm].
    - apply calm_op; [reflexivity|]. intros _u. apply calm_bind; [apply (dc_body _ (Hmk t))|]. intros dv. apply calm_op; [reflexivity|]. intros _v.
      apply calm_bind; [apply finish_all_calm, fdicts_calm|intros vs; apply construct_calm].
    - apply calm_bind; [apply des_calm; [apply fdicts_calm|apply dcalm_p, Hmk]|intros vs; apply construct_calm].
  Qed.
  Lemma item_struct_calm b : dcalm (dict_item_struct mk b).
  Proof.
    unfold dict_item_struct. apply struct_calm; [apply vbody_calm|]. intros t v. unfold struct_elem.
    destruct (vb_special b) as [|nm t0|nm t0]; try (apply calm_bind; [apply calm_plift|intros _u; apply vbody_calm]).
    apply calm_op; [reflexivity|]. intros _u. apply calm_bind; [apply (dc_elem _ (Hmk t0))|intros dv]. apply calm_op; [reflexivity|]. intros _v. apply construct_calm.
  Qed.
  Lemma item_enum_calm vars catch : dcalm (dict_item_enum mk vars catch).
  Proof.
    assert (He : forall t v, calm (enum_elem mk vars catch t v)).
    { intros t v. unfold enum_elem. apply calm_bind; [apply calm_plift|]. intros d. destruct (find_variant d vars) as [[ix b]|].
      - apply calm_bind; [apply vbody_calm|intros x; exact Logic.I].
      - destruct catch as [b|]; [|exact Logic.I]. apply calm_bind; [apply vbody_calm|intros x; exact Logic.I]. }
    unfold dict_item_enum, with_default_body, dict_struct. constructor; cbn [d_init d_field d_elem d_fin d_body].
    - intros a tag vh. now apply opt_field_calm.
    - exact He.
    - apply opt_fin_calm.
    - apply default_calm. split; cbn [d_field d_fin]; intros; [now apply opt_field_calm|apply opt_fin_calm].
  Qed.
End Items.
Lemma stop_calm x : dcalm (dict_stop x).
Proof. constructor; intros; exact Logic.I. Qed.
Lemma types_calm U item_d : (forall zc i, dcalm (item_d zc i)) -> forall t zc, dcalm (dict_of U item_d zc t).
Proof.
  intros Hi. apply (ty_ind' (fun t => forall zc, dcalm (dict_of U item_d zc t))).
  - intros t. destruct t; try exact Logic.I; intros zc; cbn [dict_of].
    + apply unary_calm. intros t v. apply calm_bind; [apply calm_plift|intros; exact Logic.I].
    + apply unary_calm. intros t v. apply calm_bind; [apply calm_plift|intros; exact Logic.I].
    + apply unary_calm. intros t v. apply calm_bind; [apply calm_plift|intros; exact Logic.I].
    + apply unary_calm. intros t v. apply calm_bind; [apply calm_plift|]. intros n. destruct (char_ok n); exact Logic.I.
    + apply unary_calm. intros t v. apply calm_bind; [apply calm_plift|intros; exact Logic.I].
    + apply unary_calm. intros t v. unfold conv_string. apply calm_bind; [apply read_owned_calm|]. intros b. destruct (utf8_ok b); exact Logic.I.
    + destruct zc; [|apply stop_calm]. apply unary_calm. intros t v. unfold conv_str_ref. apply calm_bind; [apply read_borrowed_calm|]. intros b. destruct (utf8_ok b); exact Logic.I.
    + destruct zc; [|apply stop_calm]. apply unary_calm. intros t v. unfold conv_bytes_ref. apply calm_bind; [apply read_borrowed_calm|]. intros b. exact Logic.I.
    + destruct zc; apply unary_calm; intros t v; [unfold conv_str_ref; apply calm_bind; [apply read_borrowed_calm|]|unfold conv_string; apply calm_bind; [apply read_owned_calm|]];
        intros b; destruct (utf8_ok b); exact Logic.I.
    + destruct zc; [|apply vecu8_calm]. apply unary_calm. intros t v. unfold conv_bytes_ref. apply calm_bind; [apply read_borrowed_calm|]. intros b. exact Logic.I.
    + apply unknown_calm.
    + apply unkfield_calm.
    + apply Hi.
  - intros t Ht. split; [|split; [|split; [|split; [|split]]]]; intros zc; cbn [dict_of].
    + destruct (is_u8 t); [apply vecu8_calm|apply coll_calm, Ht].
    + apply coll_calm, Ht.
    + apply coll_calm, Ht.
    + apply option_calm, Ht.
    + apply Ht.
    + apply Ht.
  - intros n t Ht zc. cbn [dict_of]. destruct (is_u8 t); [apply arru8_calm|apply arr_calm, Ht].
  - intros k v Hk Hv zc. cbn [dict_of]. apply map_calm; auto.
  - intros ts Hts zc. cbn [dict_of]. apply tuple_calm. induction Hts as [|t r Ht _ IH]; cbn [map]; [apply Forall_nil|apply Forall_cons; [apply Ht|exact IH]].
Qed.
Lemma items_calm e U f : forall zc i, dcalm (item_dict e U f zc i).
Proof.
  induction f as [|f IH]; intros zc i; cbn [item_dict]; [apply stop_calm|].
  destruct (e i) as [b|vars catch]; [apply item_struct_calm|apply item_enum_calm]; intros t; apply types_calm; exact IH.
Qed.
Lemma full_calm e f zc t : dcalm (full_dict e f zc t).
Proof. unfold full_dict. apply types_calm. apply items_calm. Qed.

Lemma strict e zc cf cf' t s v s' : laxer cf cf' -> cf_collect cf <= U64_MAX -> cf_blob cf <= U64_MAX ->
  from_stream e zc cf' t s = (ROk v, s') ->
  from_stream e zc cf t s = (ROk v, s') \/ refused cf cf' (fst (from_stream e zc cf t s)).
Proof.
  intros Hl Hc Hb H. unfold from_stream in *.
  destruct (run stream_source cf' (d_body (full_dict e (S (N.to_nat (cf_rec cf'))) zc t)) (top_rst s)) as [r st] eqn:E. injection H as -> <-.
  assert (Hle : prle (d_body (full_dict e (S (N.to_nat (cf_rec cf))) zc t)) (d_body (full_dict e (S (N.to_nat (cf_rec cf'))) zc t))).
  { apply dl_body, full_le. destruct Hl as [Hl _]. lia. }
  assert (Hw : within cf (top_rst s)) by (split; cbn; lia).
  destruct (run_less cf cf' Hl Hc Hb _ _ Hle (dc_body _ (full_calm e _ zc t)) (top_rst s) _ _ eq_refl Hw E) as [->|Hr]; [now left|right].
  destruct (run stream_source cf (d_body (full_dict e (S (N.to_nat (cf_rec cf))) zc t)) (top_rst s)) as [r' st']. exact Hr.
Qed.

Theorem stricter e zc cf cf' t dbg sk gr bs sched v s' : usable e zc cf t ->
  cf_rec cf <= cf_rec cf' -> cf_blob cf <= cf_blob cf' -> cf_collect cf <= cf_collect cf' -> (cf_ignore cf = true -> cf_ignore cf' = true) ->
  bytes_ok bs -> lenN bs + 3 < U64_MAX ->
  let s := snd (set_graceful_eof gr (new_stream dbg sk (mkDev bs 0 sched))) in
  from_stream e zc cf' t s = (ROk v, s') ->
  from_stream e zc cf t s = (ROk v, s') \/ exists err, fst (from_stream e zc cf t s) = RErr err /\ refuses cf cf' (e_kind err).
Proof.
  intros (U1 & U2 & U3 & U4) L1 L2 L3 L4 Ho Hn s H.
  destruct (strict e zc cf cf' t s v s' (conj L1 (conj L2 (conj L3 L4))) U3 U4 H) as [E|Hr]; [now left|right].
  pose proof (sched_ok e zc cf U1 U3 U4 t s U2 (fresh_sched dbg sk gr bs sched Ho Hn)) as Ht.
  destruct (from_stream e zc cf t s) as [[w|err| |] s1] eqn:E1; cbn [fst] in *; try contradiction. exists err. split; [reflexivity|]. destruct Hr as [Hr|(a & b & Hk)]; [exact Hr|exfalso].
  pose proof (errors_single e zc cf t dbg sk gr bs sched err s1 (conj U1 (conj U2 (conj U3 U4))) Ho Hn E1) as X. rewrite Hk in X. exact X.
Qed.
