(** * P_Alike: types that stand for one another are read alike (C82) *)

From Verif Require Import Base Wire Dev Stream Types Prog De SpecAlike P_Base P_Prog P_DictAll.
Local Open Scope N_scope.
Strategy 1000 [s_decode_u64 decode_u64 decode_loop write_all read_exact encode_u64 enc_loop encode_fixed_u64 mloop miter].

Section Same.
Variable free : bool.
Notation sn := (same_name free).
Lemma sn_refl a : sn a a.
Proof. now right. Qed.
Lemma sn_sym a b : sn a b -> sn b a.
Proof. intros [H|H]; [now left|right; congruence]. Qed.
Lemma sn_trans a b c : sn a b -> sn b c -> sn a c.
Proof. intros [H|H] [H'|H']; [now left|now left|now left|right; congruence]. Qed.

Definition loc (a b : string * N) : Prop := snd a = snd b /\ sn (fst a) (fst b).
Definition path_rel := Forall2 loc.
Lemma path_refl p : path_rel p p.
Proof. induction p; constructor; auto. split; [reflexivity|apply sn_refl]. Qed.
Lemma path_sym p q : path_rel p q -> path_rel q p.
Proof. induction 1 as [|a b p q [H1 H2] H IH]; constructor; auto. split; [auto|now apply sn_sym]. Qed.
Lemma path_trans p q : path_rel p q -> forall r, path_rel q r -> path_rel p r.
Proof.
  induction 1 as [|a b p q [H1 H2] H IH]; intros r Hr; inversion Hr as [|? c ? r' [H3 H4] H5]; subst; constructor.
  - split; [congruence|now apply (sn_trans _ (fst b))].
  - now apply IH.
Qed.
Lemma path_len p q : path_rel p q -> lenN p = lenN q.
Proof. induction 1; [reflexivity|]. rewrite !lenN_cons. lia. Qed.

Context {S : Type} (I : source S).
Variable cf : cfg.

Definition st_rel (a b : rst S) : Prop :=
  x_s a = x_s b /\ x_cur a = x_cur b /\ path_rel (x_path a) (x_path b) /\ x_coll a = x_coll b /\ x_blob a = x_blob b /\ x_over a = x_over b.
Definition res_rel {A} (r r' : res derr A) : Prop :=
  match r, r' with
  | ROk v, ROk v' => v = v'
  | RErr x, RErr x' => e_kind x = e_kind x' /\ path_rel (e_path x) (e_path x')
  | RPanic, RPanic | RFuel, RFuel => True
  | _, _ => False
  end.
Definition out {A} (o o' : res derr A * rst S) : Prop := res_rel (fst o) (fst o') /\ st_rel (snd o) (snd o').
Definition peq {A} (p p' : prog A) : Prop := forall a b, st_rel a b -> out (run I cf p a) (run I cf p' b).

Lemma st_refl a : st_rel a a.
Proof. refine (conj eq_refl (conj eq_refl (conj (path_refl _) (conj eq_refl (conj eq_refl eq_refl))))). Qed.
Lemma st_sym a b : st_rel a b -> st_rel b a.
Proof. intros (H1 & H2 & H3 & H4 & H5 & H6). refine (conj _ (conj _ (conj (path_sym _ _ H3) (conj _ (conj _ _))))); auto. Qed.
Lemma st_trans a b c : st_rel a b -> st_rel b c -> st_rel a c.
Proof.
  intros (H1 & H2 & H3 & H4 & H5 & H6) (G1 & G2 & G3 & G4 & G5 & G6).
  refine (conj _ (conj _ (conj (path_trans _ _ H3 _ G3) (conj _ (conj _ _))))); congruence.
Qed.
Lemma out_sym {A} (o o' : res derr A * rst S) : out o o' -> out o' o.
Proof.
  intros [H1 H2]. split; [|now apply st_sym]. destruct (fst o), (fst o'); cbn [res_rel] in *; auto.
  destruct H1 as [H1 H3]. split; [auto|now apply path_sym].
Qed.
Lemma out_trans {A} (o o' o'' : res derr A * rst S) : out o o' -> out o' o'' -> out o o''.
Proof.
  intros [H1 H2] [G1 G2]. split; [|now apply (st_trans _ _ _ H2)].
  destruct (fst o), (fst o'), (fst o''); cbn [res_rel] in *; try contradiction; auto; [congruence|].
  destruct H1 as [H1 H3], G1 as [G1 G3]. split; [congruence|now apply (path_trans _ _ H3)].
Qed.

Lemma on_src_rel {A} (m : M S serr A) a b : st_rel a b -> out (on_src_of m a) (on_src_of m b).
Proof.
  intros (H1 & H2 & H3 & H4 & H5 & H6). unfold on_src_of. rewrite <- H1. destruct (m (x_s a)) as [r s'].
  assert (Hs : st_rel (x_set_s s' a) (x_set_s s' b)) by (refine (conj eq_refl (conj H2 (conj H3 (conj H4 (conj H5 H6)))))).
  destruct r as [v|x| |]; (split; [|exact Hs]); [reflexivity| |exact Logic.I|exact Logic.I].
  cbn [fst xfail res_rel e_kind e_path x_path x_over x_set_s]. rewrite H6. split; [reflexivity|exact H3].
Qed.
Lemma fail_rel {A} k a b : st_rel a b -> out (xfail (A := A) k a) (xfail k b).
Proof.
  intros (H1 & H2 & H3 & H4 & H5 & H6). split; [|exact (conj H1 (conj H2 (conj H3 (conj H4 (conj H5 H6)))))].
  cbn [fst xfail res_rel e_kind e_path]. rewrite H6. split; [reflexivity|exact H3].
Qed.
Lemma push_rel at_field nm nm' a b : sn nm nm' -> st_rel a b -> out (run_op I cf (OPush at_field nm) a) (run_op I cf (OPush at_field nm') b).
Proof.
  intros Hn Hst. pose proof Hst as (H1 & H2 & H3 & H4 & H5 & H6). cbn [run_op]. rewrite <- (path_len _ _ H3), <- H2, <- H1.
  destruct (cf_rec cf <=? lenN (x_path a)); [now apply fail_rel|].
  assert (Hp : forall p, out (A := unit) (ROk tt, x_set_path ((nm, p) :: x_path a) a) (ROk tt, x_set_path ((nm', p) :: x_path b) b)).
  { intros p. split; [reflexivity|]. refine (conj H1 (conj H2 (conj _ (conj H4 (conj H5 H6))))). constructor; [split; [reflexivity|exact Hn]|exact H3]. }
  destruct at_field; [|apply Hp]. destruct (x_cur a) as [f|]; [apply Hp|]. split; [exact Logic.I|exact Hst].
Qed.
Lemma op_rel {X : Set} (o : op X) a b : st_rel a b -> out (run_op I cf o a) (run_op I cf o b).
Proof.
  intros Hst. pose proof Hst as (H1 & H2 & H3 & H4 & H5 & H6).
  assert (Hb : forall A (m : M S serr A), out (on_blob m a) (on_blob m b)).
  { intros A m. unfold on_blob. rewrite <- H2. destruct (x_cur a) as [[? ? ? []]|]; try (split; [exact Logic.I|exact Hst]). now apply on_src_rel. }
  destruct o; try apply Hb; try (now apply push_rel; [apply sn_refl|]); cbn [run_op].
  - unfold mbind. destruct (on_src_rel (i_next I) a b Hst) as [G1 G2].
    destruct (on_src_of (i_next I) a) as [[f|x| |] a'], (on_src_of (i_next I) b) as [[f'|x'| |] b']; cbn [fst snd res_rel] in *; try contradiction;
      try (split; [exact G1|exact G2]).
    subst f'. cbn [mmod mret fst snd]. split; [reflexivity|]. destruct G2 as (K1 & K2 & K3 & K4 & K5 & K6). exact (conj K1 (conj eq_refl (conj K3 (conj K4 (conj K5 K6))))).
  - rewrite <- H2. destruct (x_cur a); [now apply on_src_rel|]. split; [exact Logic.I|exact Hst].
  - rewrite <- H2. destruct (cf_ignore cf); [split; [reflexivity|exact Hst]|]. destruct (x_cur a); [now apply fail_rel|]. split; [exact Logic.I|exact Hst].
  - cbn [mmod]. split; [reflexivity|]. refine (conj H1 (conj H2 (conj _ (conj H4 (conj H5 H6))))). change (path_rel (tl (x_path a)) (tl (x_path b))).
    destruct H3 as [|? ? ? ? ? H3]; [constructor|exact H3].
  - rewrite <- H1, <- H4. destruct (ctx_collect _ _ _ _) as [c|k| |]; [|now apply fail_rel|split; [exact Logic.I|exact Hst]|split; [exact Logic.I|exact Hst]].
    split; [reflexivity|]. exact (conj H1 (conj H2 (conj H3 (conj eq_refl (conj H5 H6))))).
  - rewrite <- H1, <- H5. destruct (ctx_blob _ _ _ _) as [c|k| |]; [|now apply fail_rel|split; [exact Logic.I|exact Hst]|split; [exact Logic.I|exact Hst]].
    split; [reflexivity|]. exact (conj H1 (conj H2 (conj H3 (conj H4 (conj eq_refl H6))))).
  - cbn [mmod]. split; [reflexivity|]. exact (conj H1 (conj H2 (conj H3 (conj H4 (conj H5 eq_refl))))).
Qed.

Lemma bind_rel {A B} (m m' : XM S A) (f f' : A -> XM S B) a b :
  out (m a) (m' b) -> (forall v c d, st_rel c d -> out (f v c) (f' v d)) -> out (mbind m f a) (mbind m' f' b).
Proof.
  intros [H1 H2] Hf. unfold mbind. destruct (m a) as [[v|x| |] a'], (m' b) as [[v'|x'| |] b']; cbn [fst snd res_rel] in *; try contradiction;
    try (split; [exact H1|exact H2]). subst v'. now apply Hf.
Qed.
Lemma peq_refl {A} (p : prog A) : peq p p.
Proof.
  induction p as [v|x|X o k IH]; intros a b H; cbn [run].
  - split; [reflexivity|exact H].
  - destruct x as [k| |]; [now apply fail_rel|split; [exact Logic.I|exact H]|split; [exact Logic.I|exact H]].
  - apply bind_rel; [now apply op_rel|]. intros v c d Hc. now apply IH.
Qed.
Lemma peq_sym {A} (p q : prog A) : peq p q -> peq q p.
Proof. intros H a b Hs. apply out_sym, H, st_sym, Hs. Qed.
Lemma peq_trans {A} (p q r : prog A) : peq p q -> peq q r -> peq p r.
Proof. intros H G a b Hs. eapply out_trans; [apply H, Hs|]. apply G, st_refl. Qed.
Lemma peq_bind {A B} (p p' : prog A) (f f' : A -> prog B) : peq p p' -> (forall v, peq (f v) (f' v)) -> peq (pbind p f) (pbind p' f').
Proof. intros Hp Hf a b Hs. rewrite !run_pbind. apply bind_rel; [now apply Hp|]. intros v c d Hc. now apply Hf. Qed.
Lemma peq_push {B} at_field nm nm' (f f' : unit -> prog B) : sn nm nm' -> (forall v, peq (f v) (f' v)) ->
  peq (pbind (pdo (OPush at_field nm)) f) (pbind (pdo (OPush at_field nm')) f').
Proof. intros Hn Hf. apply peq_bind; [|exact Hf]. intros a b Hs. cbn [pdo run]. apply bind_rel; [now apply push_rel|]. intros v c d Hc. split; [reflexivity|exact Hc]. Qed.
Lemma peq_iter {A B} p (f f' : A -> prog (A + B)) : (forall v, peq (f v) (f' v)) -> forall v, peq (piter p f v) (piter p f' v).
Proof.
  intros Hf. induction p as [p IH|p IH|]; intros v; cbn [piter]; [| |apply Hf].
  - apply peq_bind; [apply Hf|]. intros [w|w]; [|apply peq_refl]. apply peq_bind; [apply IH|]. intros [u|u]; [apply IH|apply peq_refl].
  - apply peq_bind; [apply IH|]. intros [w|w]; [apply IH|apply peq_refl].
Qed.
Lemma peq_loop {A B} (f f' : A -> prog (A + B)) v : (forall v, peq (f v) (f' v)) -> peq (ploop f v) (ploop f' v).
Proof. intros Hf. unfold ploop. apply peq_bind; [now apply peq_iter|]. intros r. apply peq_refl. Qed.

(** ** Impls *)
Record deq (d d' : dict) : Prop := mkDeq {
  q_init : d_init d = d_init d';
  q_field : forall a tag vh, peq (d_field d a tag vh) (d_field d' a tag vh);
  q_elem : forall tag vh, peq (d_elem d tag vh) (d_elem d' tag vh);
  q_fin : forall a, peq (d_fin d a) (d_fin d' a);
  q_body : peq (d_body d) (d_body d')
}.
Lemma deq_refl d : deq d d.
Proof. constructor; intros; [reflexivity|apply peq_refl..]. Qed.
Lemma deq_sym d d' : deq d d' -> deq d' d.
Proof. intros [H1 H2 H3 H4 H5]. constructor; intros; [congruence|apply peq_sym; auto..]. Qed.
Lemma deq_trans d d' d'' : deq d d' -> deq d' d'' -> deq d d''.
Proof.
  intros [H1 H2 H3 H4 H5] [G1 G2 G3 G4 G5]. constructor; intros; [congruence| | | |].
  - now apply (peq_trans _ (d_field d' a tag vh)).
  - now apply (peq_trans _ (d_elem d' tag vh)).
  - now apply (peq_trans _ (d_fin d' a)).
  - now apply (peq_trans _ (d_body d')).
Qed.

(** The methods that [body_default] uses. *)
Record deq0 (d d' : dict) : Prop := mkDeq0 {
  r_init : d_init d = d_init d';
  r_field : forall a tag vh, peq (d_field d a tag vh) (d_field d' a tag vh);
  r_fin : forall a, peq (d_fin d a) (d_fin d' a)
}.
Lemma deq_0 d d' : deq d d' -> deq0 d d'.
Proof. intros [H1 H2 H3 H4 H5]. constructor; assumption. Qed.

(** ** Bodies *)
Definition feq (f f' : fdict) : Prop := sn (fst (fst f)) (fst (fst f')) /\ snd (fst f) = snd (fst f') /\ deq0 (snd f) (snd f').
Definition ueq (u u' : option (string * dict)) : Prop :=
  match u, u' with None, None => True | Some (n, d), Some (n', d') => sn n n' /\ deq0 d d' | _, _ => False end.

Lemma find_tag_rel tag fs fs' : Forall2 feq fs fs' ->
  match find_tag tag fs, find_tag tag fs' with
  | None, None => True
  | Some (i, n, d), Some (i', n', d') => i = i' /\ sn n n' /\ deq0 d d'
  | _, _ => False
  end.
Proof.
  induction 1 as [|[[n t] d] [[n' t'] d'] fs fs' (H1 & H2 & H3) H IH]; cbn [find_tag]; [exact Logic.I|]. cbn [fst snd] in *. subst t'.
  destruct (t =? tag).
  - auto.
  - destruct (find_tag tag fs) as [[[i m] x]|], (find_tag tag fs') as [[[i' m'] x']|]; try contradiction; auto.
    destruct IH as (-> & K2 & K3). auto.
Qed.
Lemma inits_rel fs fs' : Forall2 feq fs fs' -> inits fs = inits fs'.
Proof. unfold inits. induction 1 as [|f f' fs fs' (H1 & H2 & H3) H IH]; cbn [map]; [reflexivity|]. f_equal; [apply (r_init _ _ H3)|exact IH]. Qed.
Lemma step_rel fs fs' u u' st : Forall2 feq fs fs' -> ueq u u' -> peq (body_step fs u st) (body_step fs' u' st).
Proof.
  intros Hf Hu. unfold body_step. destruct st as [accs ua]. apply peq_bind; [apply peq_refl|]. intros [[tag vh]|]; [|apply peq_refl].
  pose proof (find_tag_rel tag fs fs' Hf) as K.
  destruct (find_tag tag fs) as [[[i m] x]|], (find_tag tag fs') as [[[i' m'] x']|]; try contradiction.
  - destruct K as (<- & K2 & K3). apply peq_push; [exact K2|]. intros _. apply peq_bind; [apply (r_field _ _ K3)|]. intros a. apply peq_refl.
  - destruct u as [[n d]|], u' as [[n' d']|]; cbn [ueq] in Hu; try contradiction; [|apply peq_refl].
    apply peq_push; [apply sn_refl|]. intros _. apply peq_bind; [apply (r_field _ _ (proj2 Hu))|]. intros a. apply peq_refl.
Qed.
Lemma fin1_rel nm nm' d d' a : sn nm nm' -> deq0 d d' -> peq (finish_one nm d a) (finish_one nm' d' a).
Proof. intros Hn Hd. unfold finish_one. apply peq_push; [exact Hn|]. intros _. apply peq_bind; [apply (r_fin _ _ Hd)|]. intros v. apply peq_refl. Qed.
Lemma fins_rel fs fs' : Forall2 feq fs fs' -> forall accs, peq (finish_all fs accs) (finish_all fs' accs).
Proof.
  induction 1 as [|[[n t] d] [[n' t'] d'] fs fs' (H1 & H2 & H3) H IH]; intros [|a accs]; cbn [finish_all]; try apply peq_refl.
  apply peq_bind; [now apply fin1_rel|]. intros v. apply peq_bind; [apply IH|]. intros vs. apply peq_refl.
Qed.
Lemma body_rel fs fs' u u' : Forall2 feq fs fs' -> ueq u u' -> peq (des_body fs u) (des_body fs' u').
Proof.
  intros Hf Hu. unfold des_body. rewrite <- (inits_rel fs fs' Hf).
  replace (match u' with Some (_, d) => d_init d | None => AOpt None end) with (match u with Some (_, d) => d_init d | None => AOpt None end).
  2:{ destruct u as [[n d]|], u' as [[n' d']|]; cbn [ueq] in Hu; try contradiction; [apply (r_init _ _ (proj2 Hu))|reflexivity]. }
  apply peq_bind; [apply peq_loop; intros st; now apply step_rel|]. intros [accs ua]. apply peq_bind; [now apply fins_rel|]. intros vs.
  destruct u as [[n d]|], u' as [[n' d']|]; cbn [ueq] in Hu; try contradiction; [|apply peq_refl].
  apply peq_bind; [apply fin1_rel; [exact (proj1 Hu)|exact (proj2 Hu)]|]. intros v. apply peq_refl.
Qed.
Lemma default_rel d d' : deq0 d d' -> peq (body_default d) (body_default d').
Proof.
  intros Hd. unfold body_default. apply peq_bind; [|intros vs; apply peq_refl].
  apply body_rel; [|exact Logic.I]. constructor; [|constructor]. refine (conj (sn_refl _) (conj eq_refl Hd)).
Qed.
Lemma opt_rel k c c' a tag vh : (forall tag vh, peq (c tag vh) (c' tag vh)) -> peq (opt_field k c a tag vh) (opt_field k c' a tag vh).
Proof. intros H. unfold opt_field. destruct a as [[v|]| | |]; try apply peq_refl. apply peq_bind; [apply H|]. intros v. apply peq_refl. Qed.
Lemma wrapped_rel d d' : deq0 d d' -> deq (wrapped d) (wrapped d').
Proof.
  intros H. pose proof (default_rel d d' H) as Hb. destruct H as [H1 H2 H3]. unfold wrapped. constructor; cbn [d_init d_field d_elem d_fin d_body].
  - exact H1. - exact H2.
  - intros tag vh. apply peq_bind; [apply peq_refl|]. intros _. exact Hb.
  - exact H3. - exact Hb.
Qed.
Lemma coll_rel ins d d' : deq d d' -> deq (dict_coll ins d) (dict_coll ins d').
Proof.
  intros H. unfold dict_coll. apply wrapped_rel. constructor; cbn [d_init d_field d_fin]; [reflexivity| |intros; apply peq_refl].
  intros a tag vh. unfold coll_field. destruct a; try apply peq_refl. apply peq_bind; [apply peq_refl|]. intros _.
  apply peq_bind; [apply (q_elem _ _ H)|]. intros v. apply peq_refl.
Qed.
Lemma arr_rel n d d' : deq d d' -> deq (dict_arr n d) (dict_arr n d').
Proof.
  intros H. unfold dict_arr. apply wrapped_rel. constructor; cbn [d_init d_field d_fin]; [reflexivity| |intros; apply peq_refl].
  intros a tag vh. unfold arr_field. destruct a; try apply peq_refl. destruct (n <=? lenN vs); [apply peq_refl|].
  apply peq_bind; [apply (q_elem _ _ H)|]. intros v. apply peq_refl.
Qed.
Lemma option_rel d d' : deq d d' -> deq (dict_option d) (dict_option d').
Proof.
  intros H. unfold dict_option. apply wrapped_rel. constructor; cbn [d_init d_field d_fin]; [reflexivity| |intros; apply peq_refl].
  intros a tag vh. apply opt_rel. apply (q_elem _ _ H).
Qed.
Lemma struct_rel k b b' el el' : peq b b' -> (forall tag vh, peq (el tag vh) (el' tag vh)) -> deq (dict_struct k b el) (dict_struct k b' el').
Proof.
  intros Hb He. unfold dict_struct. constructor; cbn [d_init d_field d_elem d_fin d_body]; [reflexivity| |exact He|intros; apply peq_refl|exact Hb].
  intros a tag vh. now apply opt_rel.
Qed.
Lemma tuple_fields_rel ds ds' : Forall2 deq ds ds' -> forall i, Forall2 feq (tuple_fields i ds) (tuple_fields i ds').
Proof. induction 1 as [|d d' ds ds' H _ IH]; intros i; cbn [tuple_fields]; constructor; [|apply IH]. refine (conj (sn_refl _) (conj eq_refl (deq_0 _ _ H))). Qed.
Lemma tuple_rel ds ds' : Forall2 deq ds ds' -> deq (dict_tuple ds) (dict_tuple ds').
Proof.
  intros H. assert (Hb : peq (tuple_body ds) (tuple_body ds')).
  { unfold tuple_body. apply peq_bind; [|intros; apply peq_refl]. apply body_rel; [now apply tuple_fields_rel|exact Logic.I]. }
  unfold dict_tuple. apply struct_rel; [exact Hb|]. intros tag vh. apply peq_bind; [apply peq_refl|]. intros _. exact Hb.
Qed.
Lemma map_rel dk dk' dv dv' : deq dk dk' -> deq dv dv' -> deq (dict_map dk dv) (dict_map dk' dv').
Proof.
  intros Hk Hv. unfold dict_map. apply wrapped_rel. constructor; cbn [d_init d_field d_fin]; [reflexivity| |intros; apply peq_refl].
  intros a tag vh. unfold map_field. destruct a; try apply peq_refl. apply peq_bind; [apply peq_refl|]. intros _.
  apply peq_bind; [|intros v; apply peq_refl]. apply q_elem, tuple_rel. constructor; [exact Hk|constructor; [exact Hv|constructor]].
Qed.
(** ** Types *)
Lemma is_u8_iff t : is_u8 t = true <-> t = TUInt 8.
Proof. destruct t; cbn [is_u8]; split; intros H; try discriminate; [apply N.eqb_eq in H; now subst|injection H as ->; reflexivity]. Qed.
Lemma is_u8_not t : t <> TUInt 8 -> is_u8 t = false.
Proof. intros H. destruct (is_u8 t) eqn:E; [|reflexivity]. now apply is_u8_iff in E. Qed.

Section Dicts.
Variable uf : nat.
Scheme alike_mut := Induction for alike Sort Prop with alikes_mut := Induction for alikes Sort Prop.
Lemma dict_alike D : forall z t t', alike z t t' -> deq (dict_of uf D z t) (dict_of uf D z t').
Proof.
  apply (alike_mut (fun z t t' _ => deq (dict_of uf D z t) (dict_of uf D z t'))
    (fun z ts ts' _ => Forall2 deq (map (dict_of uf D z) ts) (map (dict_of uf D z) ts'))).
  - intros z t. apply deq_refl.
  - intros z t t' _ IH. now apply deq_sym.
  - intros z t t' t'' _ IH _ IH'. now apply (deq_trans _ (dict_of uf D z t')).
  - intros z t. apply deq_refl.
  - intros t. apply deq_refl.
  - apply deq_refl.
  - apply deq_refl.
  - apply deq_refl.
  - apply deq_refl.
  - intros z t Hn. cbn [dict_of]. rewrite (is_u8_not t Hn). apply deq_refl.
  - intros z t t' Hn Hn' _ IH. cbn [dict_of]. rewrite (is_u8_not t Hn), (is_u8_not t' Hn'). now apply coll_rel.
  - intros z t t' _ IH. cbn [dict_of]. now apply coll_rel.
  - intros z t t' _ IH. cbn [dict_of]. now apply coll_rel.
  - intros z t t' _ IH. cbn [dict_of]. now apply option_rel.
  - intros z n t t' Hn Hn' _ IH. cbn [dict_of]. rewrite (is_u8_not t Hn), (is_u8_not t' Hn'). now apply arr_rel.
  - intros z k k' v v' _ IHk _ IHv. cbn [dict_of]. now apply map_rel.
  - intros z ts ts' _ IH. cbn [dict_of]. now apply tuple_rel.
  - intros z t t' _ IH. exact IH.
  - intros z. constructor.
  - intros z t t' ts ts' _ IH _ IHs. cbn [map]. constructor; assumption.
Qed.
Lemma dict_env D D' zc : (forall z i, z = zc \/ z = false -> deq (D z i) (D' z i)) ->
  forall t z, z = zc \/ z = false -> deq (dict_of uf D z t) (dict_of uf D' z t).
Proof.
  intros HD. apply (ty_ind' (fun t => forall z, z = zc \/ z = false -> deq (dict_of uf D z t) (dict_of uf D' z t))).
  - intros t. destruct t; try exact Logic.I; intros z Hz; try apply deq_refl. cbn [dict_of]. now apply HD.
  - intros t IH. refine (conj _ (conj _ (conj _ (conj _ (conj _ _))))); intros z Hz; cbn [dict_of].
    + destruct (is_u8 t); [apply deq_refl|]. now apply coll_rel, IH.
    + now apply coll_rel, IH.
    + now apply coll_rel, IH.
    + now apply option_rel, IH.
    + now apply IH.
    + apply IH. now right.
  - intros n t IH z Hz. cbn [dict_of]. destruct (is_u8 t); [apply deq_refl|]. now apply arr_rel, IH.
  - intros k v IHk IHv z Hz. cbn [dict_of]. apply map_rel; [now apply IHk|now apply IHv].
  - intros ts IH z Hz. cbn [dict_of]. apply tuple_rel. induction IH as [|t ts Ht _ IHs]; cbn [map]; constructor; [now apply Ht|exact IHs].
Qed.
Lemma dict_both D D' zc z t t' : (forall z i, z = zc \/ z = false -> deq (D z i) (D' z i)) -> z = zc \/ z = false -> alike z t t' ->
  deq (dict_of uf D z t) (dict_of uf D' z t').
Proof. intros HD Hz Ht. eapply deq_trans; [now apply (dict_env D D' zc HD)|now apply dict_alike]. Qed.

(** ** Items *)
Section Item.
Variable z : bool.
Variables mk mk' : ty -> dict.
Hypothesis Hmk : forall t t', alike z t t' -> deq (mk t) (mk' t').
Lemma fdicts_rel fs fs' : Forall2 (field_alike free z) fs fs' -> Forall2 feq (fdicts mk fs) (fdicts mk' fs').
Proof.
  unfold fdicts. induction 1 as [|f f' fs fs' (H1 & H2 & H3) H IH]; cbn [map]; constructor; [|exact IH].
  refine (conj H1 (conj H2 (deq_0 _ _ (Hmk _ _ H3)))).
Qed.
Lemma construct_rel b b' vs : (forall vs, vb_check b vs = vb_check b' vs) -> peq (construct b vs) (construct b' vs).
Proof. intros H. unfold construct. rewrite H. apply peq_refl. Qed.
Lemma vbody_rel b b' : body_alike free z b b' -> peq (vbody_body mk b) (vbody_body mk' b').
Proof.
  intros (H1 & H2 & H3). pose proof (fdicts_rel _ _ H1) as Hf. unfold vbody_body.
  destruct (vb_special b) as [|n t|n t], (vb_special b') as [|n' t'|n' t']; cbn [special_alike] in H2; try contradiction.
  - apply peq_bind; [now apply body_rel|]. intros vs. now apply construct_rel.
  - destruct H2 as [Hn Ht]. apply peq_push; [exact Hn|]. intros _. apply peq_bind; [apply (q_body _ _ (Hmk _ _ Ht))|]. intros dv.
    apply peq_bind; [apply peq_refl|]. intros _. rewrite <- (inits_rel _ _ Hf). apply peq_bind; [now apply fins_rel|]. intros vs. now apply construct_rel.
  - destruct H2 as [Hn Ht]. apply peq_bind; [|intros vs; now apply construct_rel]. apply body_rel; [exact Hf|]. exact (conj Hn (deq_0 _ _ (Hmk _ _ Ht))).
Qed.
Lemma selem_rel b b' tag vh : body_alike free z b b' -> peq (struct_elem mk b tag vh) (struct_elem mk' b' tag vh).
Proof.
  intros Hb. pose proof (vbody_rel _ _ Hb) as Hv. destruct Hb as (H1 & H2 & H3). unfold struct_elem.
  destruct (vb_special b) as [|n t|n t], (vb_special b') as [|n' t'|n' t']; cbn [special_alike] in H2; try contradiction;
    try (apply peq_bind; [apply peq_refl|intros _; exact Hv]).
  destruct H2 as [Hn Ht]. apply peq_push; [exact Hn|]. intros _. apply peq_bind; [apply (q_elem _ _ (Hmk _ _ Ht))|]. intros dv.
  apply peq_bind; [apply peq_refl|]. intros _. now apply construct_rel.
Qed.
Lemma find_variant_rel d vars vars' : Forall2 (fun p p' => fst p = fst p' /\ body_alike free z (snd p) (snd p')) vars vars' ->
  match find_variant d vars, find_variant d vars' with
  | None, None => True | Some (i, b), Some (i', b') => i = i' /\ body_alike free z b b' | _, _ => False end.
Proof.
  induction 1 as [|[x b] [x' b'] vs vs' [H1 H2] H IH]; cbn [find_variant]; [exact Logic.I|]. cbn [fst snd] in *. subst x'.
  destruct (d =? x); [auto|]. destruct (find_variant d vs) as [[i c]|], (find_variant d vs') as [[i' c']|]; try contradiction; [|exact Logic.I].
  destruct IH as [-> IH]. auto.
Qed.
Lemma item_struct_rel b b' : body_alike free z b b' -> deq (dict_item_struct mk b) (dict_item_struct mk' b').
Proof. intros Hb. unfold dict_item_struct. apply struct_rel; [now apply vbody_rel|]. intros tag vh. now apply selem_rel. Qed.
Lemma item_enum_rel vars vars' c c' : Forall2 (fun p p' => fst p = fst p' /\ body_alike free z (snd p) (snd p')) vars vars' ->
  match c, c' with None, None => True | Some b, Some b' => body_alike free z b b' | _, _ => False end ->
  deq (dict_item_enum mk vars c) (dict_item_enum mk' vars' c').
Proof.
  intros Hv Hc.
  assert (Hs : deq (dict_struct (KTooFew 1) ill (enum_elem mk vars c)) (dict_struct (KTooFew 1) ill (enum_elem mk' vars' c'))).
  { apply struct_rel; [apply peq_refl|]. intros tag vh. unfold enum_elem. apply peq_bind; [apply peq_refl|]. intros d.
    pose proof (find_variant_rel d _ _ Hv) as K. destruct (find_variant d vars) as [[i b]|], (find_variant d vars') as [[i' b']|]; try contradiction.
    - destruct K as [<- K]. apply peq_bind; [now apply vbody_rel|]. intros v. apply peq_refl.
    - destruct c as [b|], c' as [b'|]; try contradiction; [|apply peq_refl]. apply peq_bind; [now apply vbody_rel|]. intros v. apply peq_refl. }
  pose proof (default_rel _ _ (deq_0 _ _ Hs)) as Hb. unfold dict_item_enum, with_default_body. destruct Hs as [H1 H2 H3 H4 H5].
  constructor; cbn [d_init d_field d_elem d_fin d_body]; assumption.
Qed.
End Item.

Lemma items_rel e e' zc : env_alike free zc e e' -> forall fuel z i, z = zc \/ z = false -> deq (item_dict e uf fuel z i) (item_dict e' uf fuel z i).
Proof.
  intros He. induction fuel as [|f IH]; intros z i Hz; cbn [item_dict]; [apply deq_refl|].
  assert (Hmk : forall t t', alike z t t' -> deq (dict_of uf (item_dict e uf f) z t) (dict_of uf (item_dict e' uf f) z t')).
  { intros t t' Ht. now apply (dict_both _ _ zc). }
  assert (Hi : item_alike free z (e i) (e' i)) by (destruct (He i) as [H1 H2]; destruct Hz as [->| ->]; assumption).
  destruct (e i) as [b|vars c], (e' i) as [b'|vars' c']; cbn [item_alike] in Hi; try contradiction.
  - now apply (item_struct_rel z _ _ Hmk).
  - apply (item_enum_rel z _ _ Hmk); [exact (proj1 Hi)|exact (proj2 Hi)].
Qed.
End Dicts.
Lemma types_rel e e' zc t t' fuel : env_alike free zc e e' -> alike zc t t' -> deq (full_dict e fuel zc t) (full_dict e' fuel zc t').
Proof. intros He Ht. unfold full_dict. apply (dict_both fuel _ _ zc); [|now left|exact Ht]. intros z i. now apply items_rel. Qed.
End Same.

(** ** Reading *)
Theorem read_alike free e e' zc cf t t' s : env_alike free zc e e' -> alike zc t t' ->
  same_outcome free (fst (from_stream e zc cf t s)) (fst (from_stream e' zc cf t' s)) /\
  snd (from_stream e zc cf t s) = snd (from_stream e' zc cf t' s).
Proof.
  intros He Ht. unfold from_stream. generalize (Datatypes.S (N.to_nat (cf_rec cf))). intros fuel.
  pose proof (q_body _ _ _ _ _ (types_rel free stream_source cf e e' zc t t' fuel He Ht) _ _ (st_refl free (top_rst s))) as [H1 H2].
  destruct (run stream_source cf (d_body (full_dict e fuel zc t)) (top_rst s)) as [r a].
  destruct (run stream_source cf (d_body (full_dict e' fuel zc t')) (top_rst s)) as [r' b]. cbn [fst snd] in *.
  split; [|exact (proj1 H2)]. destruct r, r'; exact H1.
Qed.
Theorem read_same e e' zc cf t t' s : env_alike false zc e e' -> alike zc t t' -> from_stream e zc cf t s = from_stream e' zc cf t' s.
Proof.
  intros He Ht. destruct (read_alike false e e' zc cf t t' s He Ht) as [H1 H2].
  destruct (from_stream e zc cf t s) as [r a], (from_stream e' zc cf t' s) as [r' b]. cbn [fst snd] in *. subst b. f_equal.
  destruct r as [v|[p k]| |], r' as [v'|[p' k']| |]; cbn [same_outcome e_kind e_path] in H1; try contradiction; auto; [now subst|].
  destruct H1 as [-> H1]. f_equal. f_equal. induction H1 as [|[a1 n] [a2 m] p p' [K1 [K2|K2]] _ IH]; [reflexivity|discriminate|].
  cbn [fst snd] in *. now subst.
Qed.
