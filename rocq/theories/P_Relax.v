(** * P_Relax: a laxer configuration changes no result (C68) *)

From Verif Require Import Base Wire Dev Stream Types Prog De SpecDe P_Base P_DictAll.
Local Open Scope N_scope.
Strategy 1000 [s_decode_u64 decode_u64 decode_loop write_all read_exact encode_u64 enc_loop encode_fixed_u64 mloop miter].

(** ** Programs given more fuel *)
Inductive prle {A} : prog A -> prog A -> Prop :=
| Le_ret a : prle (PRet a) (PRet a)
| Le_fuel q : prle (PStop StFuel) q
| Le_stop x : prle (PStop x) (PStop x)
| Le_do (X : Set) (o : op X) k k' : (forall x, prle (k x) (k' x)) -> prle (PDo o k) (PDo o k').
Lemma le_refl {A} (p : prog A) : prle p p.
Proof. induction p as [a|x|X o k IH]; [apply Le_ret|apply Le_stop|apply Le_do, IH]. Qed.
Lemma le_bind {A B} (p q : prog A) (f g : A -> prog B) : prle p q -> (forall a, prle (f a) (g a)) -> prle (pbind p f) (pbind q g).
Proof.
  intros H Hf. induction H as [a|q|x|X o k k' H IH]; cbn [pbind]; [apply Hf|apply Le_fuel|apply Le_stop|apply Le_do, IH].
Qed.
Lemma le_then {A B} (p : prog A) (f g : A -> prog B) : (forall a, prle (f a) (g a)) -> prle (pbind p f) (pbind p g).
Proof. intros H. apply le_bind; [apply le_refl|exact H]. Qed.
Lemma le_iter {A B} (f g : A -> prog (A + B)) p : (forall a, prle (f a) (g a)) -> forall a, prle (piter p f a) (piter p g a).
Proof.
  intros H. induction p as [q IH|q IH|]; intros a; cbn [piter].
  - apply le_bind; [apply H|]. intros [a'|b]; [|apply le_refl]. apply le_bind; [apply IH|]. intros [a''|b]; [apply IH|apply le_refl].
  - apply le_bind; [apply IH|]. intros [a''|b]; [apply IH|apply le_refl].
  - apply H.
Qed.
Lemma le_loop {A B} (f g : A -> prog (A + B)) a : (forall a, prle (f a) (g a)) -> prle (ploop f a) (ploop g a).
Proof. intros H. unfold ploop. apply le_bind; [now apply le_iter|]. intros [x|b]; apply le_refl. Qed.

(** ** Running under a laxer configuration *)
Definition laxer (cf cf' : cfg) : Prop :=
  cf_rec cf <= cf_rec cf' /\ cf_blob cf <= cf_blob cf' /\ cf_collect cf <= cf_collect cf' /\ (cf_ignore cf = true -> cf_ignore cf' = true).

Section Run.
  Variables cf cf' : cfg.
  Hypothesis Hl : laxer cf cf'.
  Hypothesis Hcc : cf_collect cf <= U64_MAX.
  Hypothesis Hcb : cf_blob cf <= U64_MAX.
  Notation run := (run stream_source).
  Notation run_op := (run_op stream_source).
  Definition within (st : rst stream) : Prop := x_coll st <= cf_collect cf /\ x_blob st <= cf_blob cf.

  Lemma src_within {A} (m : SM A) st a st' : within st -> on_src_of m st = (ROk a, st') -> within st'.
  Proof.
    intros Hw H. unfold on_src_of in H. destruct (m (x_s st)) as [[b|x| |] s1]; try discriminate. injection H as _ <-. exact Hw.
  Qed.
  Lemma src_of_eq {A} (m m' : SM A) st a st' : (forall r s', m (x_s st) = (ROk r, s') -> m' (x_s st) = (ROk r, s')) ->
    on_src_of m st = (ROk a, st') -> on_src_of m' st = (ROk a, st').
  Proof.
    intros Hm H. unfold on_src_of in *. destruct (m (x_s st)) as [[b|x| |] s1] eqn:E; try discriminate. now rewrite (Hm _ _ eq_refl).
  Qed.
  Lemma fully_more s r s' : b_read_fully (cf_blob cf) s = (ROk r, s') -> b_read_fully (cf_blob cf') s = (ROk r, s').
  Proof.
    unfold b_read_fully, mbind. destruct (b_remaining s) as [[rem|x| |] s1]; try discriminate.
    destruct (N.ltb_spec (cf_blob cf) rem) as [|L]; [discriminate|]. destruct Hl as (_ & L2 & _).
    destruct (N.ltb_spec (cf_blob cf') rem); [lia|auto].
  Qed.
  Lemma op_more {X : Set} (o : op X) st x st' : within st -> run_op cf o st = (ROk x, st') -> run_op cf' o st = (ROk x, st') /\ within st'.
  Proof.
    intros Hw H. destruct o; cbn [Prog.run_op] in *.
    - split; [exact H|]. unfold mbind in H. destruct (on_src_of (i_next stream_source) st) as [[f|y| |] st1] eqn:E; try discriminate.
      apply (src_within _ _ _ _ Hw) in E. unfold mmod, mret in H. injection H as _ <-. exact E.
    - split; [exact H|]. destruct (x_cur st); [|discriminate]. exact (src_within _ _ _ _ Hw H).
    - destruct Hl as (_ & _ & _ & Hi). destruct (cf_ignore cf).
      + injection H as <- <-. rewrite (Hi eq_refl). auto.
      + destruct (x_cur st); discriminate.
    - destruct Hl as (L & _). destruct (N.leb_spec (cf_rec cf) (lenN (x_path st))); [discriminate|].
      destruct (N.leb_spec (cf_rec cf') (lenN (x_path st))); [lia|]. split; [exact H|].
      destruct at_field; [destruct (x_cur st); [|discriminate]|]; injection H as _ <-; exact Hw.
    - split; [exact H|]. unfold mmod in H. injection H as _ <-. exact Hw.
    - destruct Hl as (_ & _ & L & _). destruct Hw as [W1 W2]. unfold ctx_collect in *. unfold u64_sub in *.
      destruct (N.leb_spec (x_coll st) (cf_collect cf)); [|lia]. destruct (N.leb_spec (x_coll st) (cf_collect cf')); [|lia].
      destruct (N.ltb_spec (cf_collect cf - x_coll st) 1); [discriminate|]. destruct (N.ltb_spec (cf_collect cf' - x_coll st) 1); [lia|].
      split; [exact H|]. unfold u64_add in H. destruct (N.ltb_spec (x_coll st + 1) U64_MOD); [|unfold U64_MAX, U64_MOD in *; lia].
      injection H as _ <-. split; [cbn; lia|exact W2].
    - destruct Hl as (_ & L & _ & _). destruct Hw as [W1 W2]. unfold ctx_blob in *. unfold u64_sub in *.
      destruct (N.leb_spec (x_blob st) (cf_blob cf)); [|lia]. destruct (N.leb_spec (x_blob st) (cf_blob cf')); [|lia].
      destruct (N.ltb_spec (cf_blob cf - x_blob st) n); [discriminate|]. destruct (N.ltb_spec (cf_blob cf' - x_blob st) n); [lia|].
      split; [exact H|]. unfold u64_add in H. destruct (N.ltb_spec (x_blob st + n) U64_MOD); [|unfold U64_MAX, U64_MOD in *; lia].
      injection H as _ <-. split; [exact W1|cbn; lia].
    - split; [exact H|]. unfold mmod in H. injection H as _ <-. exact Hw.
    - split; [exact H|]. unfold on_blob in H. destruct (x_cur st) as [[? ? ? []]|]; try discriminate. exact (src_within _ _ _ _ Hw H).
    - unfold on_blob in *. destruct (x_cur st) as [[? ? ? []]|]; try discriminate. split; [|exact (src_within _ _ _ _ Hw H)].
      refine (src_of_eq _ _ _ _ _ _ H). exact (fully_more (x_s st)).
    - split; [exact H|]. unfold on_blob in H. destruct (x_cur st) as [[? ? ? []]|]; try discriminate. exact (src_within _ _ _ _ Hw H).
    - split; [exact H|]. unfold on_blob in H. destruct (x_cur st) as [[? ? ? []]|]; try discriminate. exact (src_within _ _ _ _ Hw H).
  Qed.
  Lemma run_more {A} (p q : prog A) : prle p q -> forall st a st', within st -> run cf p st = (ROk a, st') -> run cf' q st = (ROk a, st').
  Proof.
    induction 1 as [a|q|x|X o k k' H IH]; intros st b st' Hw Hr; cbn [Prog.run] in *.
    - exact Hr.
    - discriminate.
    - destruct x; discriminate.
    - unfold mbind in *. destruct (run_op cf o st) as [[y|y| |] st1] eqn:E; try discriminate.
      destruct (op_more o st y st1 Hw E) as [-> Hw1]. exact (IH y st1 b st' Hw1 Hr).
  Qed.
End Run.

(** ** Every impl *)
Record dle (d d' : dict) : Prop := mkDle {
  dl_init : d_init d = d_init d';
  dl_field : forall a tag vh, prle (d_field d a tag vh) (d_field d' a tag vh);
  dl_elem : forall tag vh, prle (d_elem d tag vh) (d_elem d' tag vh);
  dl_fin : forall a, prle (d_fin d a) (d_fin d' a);
  dl_body : prle (d_body d) (d_body d') }.
Lemma dle_refl d : dle d d.
Proof. constructor; intros; try reflexivity; apply le_refl. Qed.
Lemma dle_stop d : d_init d = AOpt None -> dle (dict_stop StFuel) d.
Proof. intros H. constructor; intros; cbn [dict_stop d_init d_field d_elem d_fin d_body]; try apply Le_fuel. now rewrite H. Qed.
Definition ple (d d' : dict) : Prop := d_init d = d_init d' /\ (forall a tag vh, prle (d_field d a tag vh) (d_field d' a tag vh)) /\ (forall a, prle (d_fin d a) (d_fin d' a)).
Lemma dle_p d d' : dle d d' -> ple d d'.
Proof. intros [H1 H2 H3 H4 H5]. split; [exact H1|split; assumption]. Qed.
Definition fle (f f' : fdict) : Prop := fst f = fst f' /\ ple (snd f) (snd f').
Definition ule (u u' : option (string * dict)) : Prop :=
  match u, u' with None, None => True | Some (n, d), Some (n', d') => n = n' /\ ple d d' | _, _ => False end.
Lemma find_tag_le tag fs fs' : Forall2 fle fs fs' ->
  match find_tag tag fs, find_tag tag fs' with
  | None, None => True | Some (i, nm, d), Some (i', nm', d') => i = i' /\ nm = nm' /\ ple d d' | _, _ => False end.
Proof.
  induction 1 as [|[[nm t] d] [[nm' t'] d'] r r' [H1 H2] _ IH]; cbn [find_tag]; [exact I|]. cbn in H1. injection H1 as <- <-.
  destruct (t =? tag); [auto|]. destruct (find_tag tag r) as [[[i n] x]|], (find_tag tag r') as [[[i' n'] x']|]; try tauto.
  destruct IH as (-> & -> & Hp). auto.
Qed.
Lemma step_le fs fs' u u' st : Forall2 fle fs fs' -> ule u u' -> prle (body_step fs u st) (body_step fs' u' st).
Proof.
  intros Hf Hu. unfold body_step. destruct st as [accs ua]. apply le_then. intros [[tag vh]|]; [|apply le_refl].
  pose proof (find_tag_le tag fs fs' Hf) as Ht. destruct (find_tag tag fs) as [[[i nm] d]|], (find_tag tag fs') as [[[i' nm'] d']|]; try tauto.
  - destruct Ht as (<- & <- & _ & Hd & _). apply le_then. intros _u. apply le_bind; [apply Hd|]. intros a. apply le_refl.
  - destruct u as [[n d]|], u' as [[n' d']|]; cbn [ule] in Hu; try tauto; [|apply le_refl]. destruct Hu as (_ & _ & Hd & _).
    apply le_then. intros _u. apply le_bind; [apply Hd|]. intros a. apply le_refl.
Qed.
Lemma finish_one_le nm d d' a : ple d d' -> prle (finish_one nm d a) (finish_one nm d' a).
Proof. intros (_ & _ & H). unfold finish_one. apply le_then. intros _u. apply le_bind; [apply H|]. intros v. apply le_refl. Qed.
Lemma finish_all_le fs fs' : Forall2 fle fs fs' -> forall accs, prle (finish_all fs accs) (finish_all fs' accs).
Proof.
  induction 1 as [|[[nm t] d] [[nm' t'] d'] r r' [H1 H2] _ IH]; intros [|a accs]; cbn [finish_all]; try apply le_refl.
  cbn in H1. injection H1 as <- <-. apply le_bind; [now apply finish_one_le|]. intros v. apply le_bind; [apply IH|]. intros vs. apply le_refl.
Qed.
Lemma inits_le fs fs' : Forall2 fle fs fs' -> inits fs = inits fs'.
Proof. induction 1 as [|f f' r r' [_ [H _]] _ IH]; [reflexivity|]. unfold inits in *. cbn [map]. unfold fdict_d at 1 3. now rewrite H, IH. Qed.
Lemma des_le fs fs' u u' : Forall2 fle fs fs' -> ule u u' -> prle (des_body fs u) (des_body fs' u').
Proof.
  intros Hf Hu. unfold des_body. rewrite (inits_le _ _ Hf).
  replace (match u' with Some (_, d) => d_init d | None => AOpt None end) with (match u with Some (_, d) => d_init d | None => AOpt None end).
  2:{ destruct u as [[n d]|], u' as [[n' d']|]; cbn [ule] in Hu; try tauto. apply Hu. }
  apply le_bind; [apply le_loop; intros st; now apply step_le|]. intros [accs ua]. apply le_bind; [now apply finish_all_le|]. intros vs.
  destruct u as [[n d]|], u' as [[n' d']|]; cbn [ule] in Hu; try tauto; [|apply le_refl]. destruct Hu as [<- Hu].
  apply le_bind; [now apply finish_one_le|]. intros v. apply le_refl.
Qed.
Lemma default_le d d' : ple d d' -> prle (body_default d) (body_default d').
Proof.
  intros H. unfold body_default. apply le_bind; [apply des_le; [|exact I]|intros vs; apply le_refl]. apply Forall2_cons; [split; [reflexivity|exact H]|apply Forall2_nil].
Qed.
Lemma opt_field_le k conv conv' a tag vh : (forall t v, prle (conv t v) (conv' t v)) -> prle (opt_field k conv a tag vh) (opt_field k conv' a tag vh).
Proof. intros H. unfold opt_field. destruct a as [[v|]| | |]; try apply le_refl. apply le_bind; [apply H|]. intros v. apply le_refl. Qed.
Lemma unary_le conv conv' : (forall t v, prle (conv t v) (conv' t v)) -> dle (unary conv) (unary conv').
Proof.
  intros H. unfold unary, with_default_body. constructor; cbn [d_init d_field d_elem d_fin d_body].
  - reflexivity.
  - intros a tag vh. now apply opt_field_le.
  - intros tag vh. unfold elem_default. apply le_bind; [now apply opt_field_le|intros a; apply le_refl].
  - intros a. apply le_refl.
  - apply default_le. split; [reflexivity|]. split; cbn [d_field d_fin]; intros; [now apply opt_field_le|apply le_refl].
Qed.
Lemma wrapped_le d d' : ple d d' -> dle (wrapped d) (wrapped d').
Proof.
  intros H. pose proof (default_le _ _ H) as Hb. destruct H as (H1 & H2 & H3). unfold wrapped.
  constructor; cbn [d_init d_field d_elem d_fin d_body]; auto. intros tag vh. apply le_then. intros _u. exact Hb.
Qed.
Lemma arr_le n d d' : dle d d' -> dle (dict_arr n d) (dict_arr n d').
Proof.
  intros H. unfold dict_arr. apply wrapped_le. split; [reflexivity|]. split; cbn [d_field d_fin]; intros; [|apply le_refl].
  unfold arr_field. destruct a; try apply le_refl. destruct (n <=? lenN vs); [apply le_refl|]. apply le_bind; [apply (dl_elem _ _ H)|intros v; apply le_refl].
Qed.
Lemma coll_le ins d d' : dle d d' -> dle (dict_coll ins d) (dict_coll ins d').
Proof.
  intros H. unfold dict_coll. apply wrapped_le. split; [reflexivity|]. split; cbn [d_field d_fin]; intros; [|apply le_refl].
  unfold coll_field. destruct a; try apply le_refl. apply le_then. intros _u. apply le_bind; [apply (dl_elem _ _ H)|intros v; apply le_refl].
Qed.
Lemma option_le d d' : dle d d' -> dle (dict_option d) (dict_option d').
Proof.
  intros H. unfold dict_option. apply wrapped_le. split; [reflexivity|]. split; cbn [d_field d_fin]; intros; [|apply le_refl].
  apply opt_field_le. intros t v. apply (dl_elem _ _ H).
Qed.
Lemma struct_le k body body' elem elem' : prle body body' -> (forall t v, prle (elem t v) (elem' t v)) -> dle (dict_struct k body elem) (dict_struct k body' elem').
Proof.
  intros Hb He. unfold dict_struct. constructor; cbn [d_init d_field d_elem d_fin d_body]; auto; intros; [now apply opt_field_le|apply le_refl].
Qed.
Lemma tuple_le ds ds' : Forall2 dle ds ds' -> dle (dict_tuple ds) (dict_tuple ds').
Proof.
  intros H. assert (Hf : forall i, Forall2 fle (tuple_fields i ds) (tuple_fields i ds')).
  { induction H as [|d d' r r' Hd _ IH]; intros i; cbn [tuple_fields]; [apply Forall2_nil|]. apply Forall2_cons; [split; [reflexivity|now apply dle_p]|apply IH]. }
  assert (Hb : prle (tuple_body ds) (tuple_body ds')).
  { unfold tuple_body. apply le_bind; [apply des_le; [apply Hf|exact I]|intros vs; apply le_refl]. }
  unfold dict_tuple. apply struct_le; [exact Hb|]. intros t v. apply le_then. intros _u. exact Hb.
Qed.
Lemma map_le dk dk' dv dv' : dle dk dk' -> dle dv dv' -> dle (dict_map dk dv) (dict_map dk' dv').
Proof.
  intros Hk Hv. unfold dict_map. apply wrapped_le. split; [reflexivity|]. split; cbn [d_field d_fin]; intros; [|apply le_refl].
  unfold map_field. destruct a; try apply le_refl. apply le_then. intros _u.
  apply le_bind; [|intros kv; apply le_refl]. apply dl_elem. apply tuple_le. apply Forall2_cons; [exact Hk|]. apply Forall2_cons; [exact Hv|apply Forall2_nil].
Qed.
Lemma unk_node_le (zc : bool) (vh : vhdr) (p p' : prog (list (N * node))) : prle p p' ->
  prle (match vh with
             | HInt n => PRet (NInt n)
             | HBlob _ => b <- cow_bytes zc vh ; PRet (NBlob b)
             | HStruct => fs <- p ; PRet (NStruct fs)
             | HEnum d => fs <- p ; PRet (NEnum d fs)
             end)
       (match vh with
             | HInt n => PRet (NInt n)
             | HBlob _ => b <- cow_bytes zc vh ; PRet (NBlob b)
             | HStruct => fs <- p' ; PRet (NStruct fs)
             | HEnum d => fs <- p' ; PRet (NEnum d fs)
             end).
Proof. intros Hp. destruct vh; try apply le_refl; (apply le_bind; [exact Hp|intros; apply le_refl]). Qed.
Lemma unk_body_le zc U : forall U', (U <= U')%nat -> prle (unk_body zc U) (unk_body zc U').
Proof.
  induction U as [|f IH]; intros U' HU; cbn [unk_body]; [apply Le_fuel|]. destruct U' as [|f']; [lia|]. cbn [unk_body].
  apply le_loop. intros fs. apply le_then. intros [[tag vh]|]; [|apply le_refl]. apply le_then. intros _u. apply le_then. intros _v.
  apply le_bind; [|intros n; apply le_refl]. apply unk_node_le. apply IH. lia.
Qed.
Lemma unk_elem_le zc U U' vh : (U <= U')%nat -> prle (unk_elem zc U vh) (unk_elem zc U' vh).
Proof. intros H. unfold unk_elem. apply unk_node_le. now apply unk_body_le. Qed.
Lemma unknown_le zc U U' : (U <= U')%nat -> dle (dict_unknown zc U) (dict_unknown zc U').
Proof.
  intros H. assert (Hb : prle (fs <- unk_body zc U ; PRet (VUnk fs)) (fs <- unk_body zc U' ; PRet (VUnk fs))) by (apply le_bind; [now apply unk_body_le|intros; apply le_refl]).
  unfold dict_unknown. constructor; cbn [d_init d_field d_elem d_fin d_body]; [reflexivity| | |intros a; apply le_refl|exact Hb].
  - intros a tag vh. unfold unk_field. destruct a; try apply le_refl. apply le_then. intros _u. apply le_bind; [now apply unk_elem_le|intros n; apply le_refl].
  - intros tag vh. apply le_then. intros _u. exact Hb.
Qed.
Lemma unkfield_le zc U U' : (U <= U')%nat -> dle (dict_unkfield zc U) (dict_unkfield zc U').
Proof. intros H. unfold dict_unkfield. apply unary_le. intros t v. apply le_bind; [now apply unk_elem_le|intros n; apply le_refl]. Qed.
Section Items.
  Variables mk mk' : ty -> dict.
  Hypothesis Hmk : forall t, dle (mk t) (mk' t).
  Lemma fdicts_le fs : Forall2 fle (fdicts mk fs) (fdicts mk' fs).
  Proof. induction fs as [|f r IH]; cbn [fdicts map]; [apply Forall2_nil|apply Forall2_cons; [split; [reflexivity|apply dle_p, Hmk]|exact IH]]. Qed.
  Lemma vbody_le b : prle (vbody_body mk b) (vbody_body mk' b).
  Proof.
    unfold vbody_body. destruct (vb_special b) as [|nm t|nm t].
    - apply le_bind; [apply des_le; [apply fdicts_le|exact I]|intros vs; apply le_refl].
    - apply le_then. intros _u. apply le_bind; [apply (dl_body _ _ (Hmk t))|]. intros dv. apply le_then. intros _v.
      rewrite (inits_le _ _ (fdicts_le (vb_fields b))). apply le_bind; [apply finish_all_le, fdicts_le|intros vs; apply le_refl].
    - apply le_bind; [apply des_le; [apply fdicts_le|split; [reflexivity|apply dle_p, Hmk]]|intros vs; apply le_refl].
  Qed.
  Lemma item_struct_le b : dle (dict_item_struct mk b) (dict_item_struct mk' b).
  Proof.
    unfold dict_item_struct. apply struct_le; [apply vbody_le|]. intros t v. unfold struct_elem.
    destruct (vb_special b) as [|nm t0|nm t0]; try (apply le_then; intros _u; apply vbody_le).
    apply le_then. intros _u. apply le_bind; [apply (dl_elem _ _ (Hmk t0))|intros dv; apply le_refl].
  Qed.
  Lemma item_enum_le vars catch : dle (dict_item_enum mk vars catch) (dict_item_enum mk' vars catch).
  Proof.
    assert (He : forall t v, prle (enum_elem mk vars catch t v) (enum_elem mk' vars catch t v)).
    { intros t v. unfold enum_elem. apply le_then. intros d. destruct (find_variant d vars) as [[ix b]|].
      - apply le_bind; [apply vbody_le|intros x; apply le_refl].
      - destruct catch as [b|]; [|apply le_refl]. apply le_bind; [apply vbody_le|intros x; apply le_refl]. }
    unfold dict_item_enum, with_default_body, dict_struct. constructor; cbn [d_init d_field d_elem d_fin d_body].
    - reflexivity.
    - intros a tag vh. now apply opt_field_le.
    - exact He.
    - intros a. apply le_refl.
    - apply default_le. split; [reflexivity|]. split; cbn [d_field d_fin]; intros; [now apply opt_field_le|apply le_refl].
  Qed.
End Items.
Lemma types_le U U' item_d item_d' : (U <= U')%nat -> (forall zc i, dle (item_d zc i) (item_d' zc i)) ->
  forall t zc, dle (dict_of U item_d zc t) (dict_of U' item_d' zc t).
Proof.
  intros HU Hi. apply (ty_ind' (fun t => forall zc, dle (dict_of U item_d zc t) (dict_of U' item_d' zc t))).
  - intros t. destruct t; try exact I; intros zc; cbn [dict_of].
    + apply dle_refl.
    + apply dle_refl.
    + apply dle_refl.
    + apply dle_refl.
    + apply dle_refl.
    + apply dle_refl.
    + apply dle_refl.
    + apply dle_refl.
    + apply dle_refl.
    + apply dle_refl.
    + now apply unknown_le.
    + now apply unkfield_le.
    + apply Hi.
  - intros t Ht. split; [|split; [|split; [|split; [|split]]]]; intros zc; cbn [dict_of].
    + destruct (is_u8 t); [apply dle_refl|apply coll_le, Ht].
    + apply coll_le, Ht.
    + apply coll_le, Ht.
    + apply option_le, Ht.
    + apply Ht.
    + apply Ht.
  - intros n t Ht zc. cbn [dict_of]. destruct (is_u8 t); [apply dle_refl|apply arr_le, Ht].
  - intros k v Hk Hv zc. cbn [dict_of]. apply map_le; auto.
  - intros ts Hts zc. cbn [dict_of]. apply tuple_le. induction Hts as [|t r Ht _ IH]; cbn [map]; [apply Forall2_nil|apply Forall2_cons; [apply Ht|exact IH]].
Qed.
Lemma items_le e U U' f : (U <= U')%nat -> forall f', (f <= f')%nat -> forall zc i, dle (item_dict e U f zc i) (item_dict e U' f' zc i).
Proof.
  intros HU. induction f as [|f IH]; intros f' Hf zc i.
  - cbn [item_dict]. apply dle_stop. destruct f' as [|f']; cbn [item_dict]; [reflexivity|]. destruct (e i); reflexivity.
  - destruct f' as [|f']; [lia|]. cbn [item_dict].
    destruct (e i) as [b|vars catch]; [apply item_struct_le|apply item_enum_le]; intros t; apply types_le; auto; apply IH; lia.
Qed.
Lemma full_le e f f' zc t : (f <= f')%nat -> dle (full_dict e f zc t) (full_dict e f' zc t).
Proof. intros H. unfold full_dict. apply types_le; [exact H|]. now apply items_le. Qed.

Theorem relaxed e zc cf cf' t s v s' : laxer cf cf' -> cf_collect cf <= U64_MAX -> cf_blob cf <= U64_MAX ->
  from_stream e zc cf t s = (ROk v, s') -> from_stream e zc cf' t s = (ROk v, s').
Proof.
  intros Hl Hc Hb H. unfold from_stream in *.
  destruct (run stream_source cf (d_body (full_dict e (S (N.to_nat (cf_rec cf))) zc t)) (top_rst s)) as [r st] eqn:E. injection H as -> <-.
  assert (Hle : prle (d_body (full_dict e (S (N.to_nat (cf_rec cf))) zc t)) (d_body (full_dict e (S (N.to_nat (cf_rec cf'))) zc t))).
  { apply dl_body, full_le. destruct Hl as [Hl _]. lia. }
  assert (Hw : within cf (top_rst s)) by (split; cbn; lia).
  now rewrite (run_more cf cf' Hl Hc Hb _ _ Hle _ _ _ Hw E).
Qed.
Theorem never_different e zc cf1 cf2 t s v1 v2 s1 s2 :
  cf_collect cf1 <= U64_MAX -> cf_blob cf1 <= U64_MAX -> cf_collect cf2 <= U64_MAX -> cf_blob cf2 <= U64_MAX ->
  from_stream e zc cf1 t s = (ROk v1, s1) -> from_stream e zc cf2 t s = (ROk v2, s2) -> v1 = v2 /\ s1 = s2.
Proof.
  intros A1 A2 B1 B2 H1 H2.
  set (cf := mkCfg (N.max (cf_rec cf1) (cf_rec cf2)) true (N.max (cf_blob cf1) (cf_blob cf2)) (N.max (cf_collect cf1) (cf_collect cf2))).
  assert (L1 : laxer cf1 cf) by (unfold laxer, cf; cbn [cf_rec cf_blob cf_collect cf_ignore]; repeat split; lia).
  assert (L2 : laxer cf2 cf) by (unfold laxer, cf; cbn [cf_rec cf_blob cf_collect cf_ignore]; repeat split; lia).
  apply (relaxed _ _ _ _ _ _ _ _ L1 A1 A2) in H1. apply (relaxed _ _ _ _ _ _ _ _ L2 B1 B2) in H2. rewrite H1 in H2. injection H2 as <- <-. auto.
Qed.
