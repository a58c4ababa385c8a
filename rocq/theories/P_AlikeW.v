(** * P_AlikeW: types that stand for one another are written alike (C82) *)

From Verif Require Import Base Wire Dev Stream Types Ser Prog De SpecAlike P_Base P_Types P_DictAll P_Alike.
Local Open Scope N_scope.
Strategy 1000 [s_decode_u64 decode_u64 decode_loop write_all read_exact encode_u64 enc_loop encode_fixed_u64 mloop miter].

Record zeq (a b : sres) : Prop := mkZeq {
  w_body : z_body a = z_body b;
  w_field : forall tag, z_field a tag = z_field b tag;
  w_elem : forall tag, z_elem a tag = z_elem b tag
}.
Lemma zeq_refl a : zeq a a.
Proof. constructor; reflexivity. Qed.
Lemma zeq_sym a b : zeq a b -> zeq b a.
Proof. intros [H1 H2 H3]. constructor; intros; symmetry; auto. Qed.
Lemma zeq_trans a b c : zeq a b -> zeq b c -> zeq a c.
Proof. intros [H1 H2 H3] [G1 G2 G3]. constructor; intros; [now rewrite H1|now rewrite H2|now rewrite H3]. Qed.
Lemma coll_zeq f g : (forall tag, f tag = g tag) -> zeq (ser_coll f) (ser_coll g).
Proof. intros H. constructor; intros; cbn [z_body z_field z_elem ser_coll]; now rewrite H. Qed.
Lemma default_zeq f g : (forall tag, f tag = g tag) -> zeq (ser_default f) (ser_default g).
Proof. intros H. constructor; intros; cbn [z_body z_field z_elem ser_default]; now rewrite H. Qed.
Lemma flat_map_In {A B} (f g : A -> list B) l : Forall (fun a => f a = g a) l -> flat_map f l = flat_map g l.
Proof. induction 1 as [|a l H _ IH]; cbn [flat_map]; congruence. Qed.
Lemma flat_map_all {A B} (f g : A -> list B) l : (forall a, f a = g a) -> flat_map f l = flat_map g l.
Proof. intros H. apply flat_map_In, Forall_forall. intros a _. apply H. Qed.

Section W.
Variable e : env.
Lemma ser_alike : forall z t t', alike z t t' -> forall v, zeq (ser e v t) (ser e v t').
Proof.
  apply (alike_mut (fun z t t' _ => forall v, zeq (ser e v t) (ser e v t'))
    (fun z ts ts' _ => Forall2 (fun t t' => forall v, zeq (ser e v t) (ser e v t')) ts ts')).
  - intros z t v. apply zeq_refl.
  - intros z t t' _ IH v. now apply zeq_sym.
  - intros z t t' t'' _ IH _ IH' v. now apply (zeq_trans _ (ser e v t')).
  - intros z t v. destruct v; apply zeq_refl.
  - intros t v. destruct v; apply zeq_refl.
  - intros v. destruct v; apply zeq_refl.
  - intros v. destruct v; apply zeq_refl.
  - intros v. destruct v; apply zeq_refl.
  - intros v. destruct v; apply zeq_refl.
  - intros z t Hn v. destruct v; cbn [ser]; rewrite (is_u8_not t Hn); apply zeq_refl.
  - intros z t t' Hn Hn' _ IH v. destruct v; cbn [ser]; rewrite (is_u8_not t Hn), (is_u8_not t' Hn'); try apply zeq_refl.
    apply coll_zeq. intros tag. apply flat_map_all. intros x. apply (w_elem _ _ (IH x)).
  - intros z t t' _ IH v. destruct v; try apply zeq_refl. cbn [ser].
    apply coll_zeq. intros tag. apply flat_map_all. intros x. apply (w_elem _ _ (IH x)).
  - intros z t t' _ IH v. destruct v; try apply zeq_refl. cbn [ser].
    apply coll_zeq. intros tag. apply flat_map_all. intros x. apply (w_elem _ _ (IH x)).
  - intros z t t' _ IH v. destruct v; try apply zeq_refl. cbn [ser].
    apply coll_zeq. intros tag. destruct o as [x|]; [apply (w_elem _ _ (IH x))|reflexivity].
  - intros z n t t' Hn Hn' _ IH v. destruct v; cbn [ser]; rewrite (is_u8_not t Hn), (is_u8_not t' Hn'); try apply zeq_refl.
    apply coll_zeq. intros tag. apply flat_map_all. intros x. apply (w_elem _ _ (IH x)).
  - intros z k k' w w' _ IHk _ IHw v. destruct v; try apply zeq_refl. cbn [ser].
    apply coll_zeq. intros tag. apply flat_map_all. intros p. now rewrite (w_field _ _ (IHk (fst p))), (w_field _ _ (IHw (snd p))).
  - intros z ts ts' _ IH v. destruct IH as [|t t' ts ts' Ht IH]; [apply zeq_refl|].
    destruct v; try apply zeq_refl. cbn [ser].
    assert (E : forall vs i,
      (fix go (i : N) (vs : list value) (ts : list ty) {struct vs} : list wop :=
         match vs with
         | [] => match ts with [] => [WEnd] | _ :: _ => [WPanic] end
         | x :: vs' => match ts with [] => [WPanic] | t' :: ts' => z_field (ser e x t') i ++ go (i + 1) vs' ts' end
         end) i vs (t :: ts) =
      (fix go (i : N) (vs : list value) (ts : list ty) {struct vs} : list wop :=
         match vs with
         | [] => match ts with [] => [WEnd] | _ :: _ => [WPanic] end
         | x :: vs' => match ts with [] => [WPanic] | t' :: ts' => z_field (ser e x t') i ++ go (i + 1) vs' ts' end
         end) i vs (t' :: ts')).
    { assert (H : Forall2 (fun t t' => forall v, zeq (ser e v t) (ser e v t')) (t :: ts) (t' :: ts')) by (constructor; assumption).
      revert H. generalize (t :: ts) (t' :: ts'). intros l l' H vs'. revert l l' H. induction vs' as [|x vs' IHv]; intros l l' H i.
      - destruct H; reflexivity.
      - destruct H as [|u u' l l' Hu H]; [reflexivity|]. rewrite (w_field _ _ (Hu x)). f_equal. now apply IHv. }
    constructor; intros; cbn [ser_struct z_body z_field z_elem]; now rewrite E.
  - intros z t t' _ IH v. specialize (IH v). destruct v; exact IH.
  - intros z. constructor.
  - intros z t t' ts ts' _ IH _ IHs. constructor; assumption.
Qed.
End W.

Section Env.
Variables (free z : bool) (e e' : env).
Hypothesis He : forall i, item_alike free z (e i) (e' i).

Definition same (v : value) : Prop := forall t, zeq (ser e v t) (ser e' v t).
Lemma types_alike b b' : body_alike free z b b' -> Forall2 (alike z) (vb_types b) (vb_types b').
Proof.
  intros (H1 & H2 & _). unfold vb_types. apply Forall2_app.
  - induction H1 as [|f f' fs fs' (K1 & K2 & K3) _ IH]; cbn [map]; constructor; assumption.
  - unfold special_ty. destruct (vb_special b), (vb_special b'); cbn [special_alike] in H2; try contradiction; [constructor|constructor; [exact (proj2 H2)|constructor]..].
Qed.
Definition all_ser (e : env) := fix go (vs : list value) (ts : list ty) {struct vs} : list sres :=
  match vs, ts with x :: vs', t' :: ts' => ser e x t' :: go vs' ts' | _, _ => [] end.
Lemma all_same vs : Forall same vs -> forall ts ts', Forall2 (alike z) ts ts' -> Forall2 zeq (all_ser e vs ts) (all_ser e' vs ts').
Proof.
  induction 1 as [|v vs Hv _ IH]; intros ts ts' Ht; [constructor|]. destruct Ht as [|t t' ts ts' Ht Hts]; cbn [all_ser]; constructor; [|now apply IH].
  eapply zeq_trans; [apply Hv|]. eapply ser_alike, Ht.
Qed.
Lemma split_same b b' zs zs' : body_alike free z b b' -> Forall2 zeq zs zs' ->
  Forall2 zeq (fst (split_special b zs)) (fst (split_special b' zs')) /\
  match snd (split_special b zs), snd (split_special b' zs') with None, None => True | Some x, Some x' => zeq x x' | _, _ => False end.
Proof.
  intros (H1 & _ & _) H. unfold split_special. cbn [fst snd].
  assert (El : List.length (vb_fields b) = List.length (vb_fields b')) by (clear -H1; induction H1; cbn [List.length]; congruence).
  rewrite <- El. generalize (List.length (vb_fields b)). clear El H1. induction H as [|x x' zs zs' Hx H IH]; intros n.
  - destruct n; cbn [firstn nth_error]; split; constructor.
  - destruct n as [|n]; cbn [firstn nth_error]; [split; [constructor|exact Hx]|]. destruct (IH n) as [G1 G2]. split; [constructor; assumption|exact G2].
Qed.
Lemma body_same b b' fs fs' sp sp' : body_alike free z b b' -> Forall2 zeq fs fs' ->
  match sp, sp' with None, None => True | Some x, Some x' => zeq x x' | _, _ => False end ->
  ser_vbody b fs sp = ser_vbody b' fs' sp'.
Proof.
  intros (H1 & H2 & _) Hf Hs. unfold ser_vbody. f_equal.
  - revert fs fs' Hf. induction H1 as [|f f' gs gs' (K1 & K2 & K3) _ IH]; intros fs fs' Hf; [reflexivity|].
    destruct Hf as [|x x' fs fs' Hx Hf]; [reflexivity|]. cbn [combine flat_map fst snd]. rewrite K2, (w_field _ _ Hx). f_equal. now apply IH.
  - destruct (vb_special b), (vb_special b'); cbn [special_alike] in H2; try contradiction; destruct sp, sp'; try contradiction; try reflexivity;
      apply (w_body _ _ Hs).
Qed.
Lemma item_struct_same b b' vs : body_alike free z b b' -> Forall same vs ->
  zeq (let '(fs, sp) := split_special b (all_ser e vs (vb_types b)) in
       let body := ser_vbody b fs sp in
       match vb_special b, sp with SpDeleg _ _, Some z => mkSer body (z_elem z) (z_elem z) | _, _ => ser_struct body end)
      (let '(fs, sp) := split_special b' (all_ser e' vs (vb_types b')) in
       let body := ser_vbody b' fs sp in
       match vb_special b', sp with SpDeleg _ _, Some z => mkSer body (z_elem z) (z_elem z) | _, _ => ser_struct body end).
Proof.
  intros Hb Hv. destruct (split_same b b' _ _ Hb (all_same vs Hv _ _ (types_alike b b' Hb))) as [G1 G2].
  destruct (split_special b _) as [fs sp], (split_special b' _) as [fs' sp']. cbn [fst snd] in *.
  pose proof (body_same b b' fs fs' sp sp' Hb G1 G2) as E. cbv zeta. rewrite <- E. destruct Hb as (_ & H2 & _).
  destruct (vb_special b), (vb_special b'); cbn [special_alike] in H2; try contradiction; try apply zeq_refl.
  destruct sp, sp'; try contradiction; [|apply zeq_refl]. constructor; intros; cbn [z_body z_field z_elem]; [reflexivity|apply (w_elem _ _ G2)|apply (w_elem _ _ G2)].
Qed.
Lemma item_variant_same d b b' vs : body_alike free z b b' -> Forall same vs ->
  zeq (let '(fs, sp) := split_special b (all_ser e vs (vb_types b)) in ser_default (fun tag => WEnum tag d :: ser_vbody b fs sp))
      (let '(fs, sp) := split_special b' (all_ser e' vs (vb_types b')) in ser_default (fun tag => WEnum tag d :: ser_vbody b' fs sp)).
Proof.
  intros Hb Hv. destruct (split_same b b' _ _ Hb (all_same vs Hv _ _ (types_alike b b' Hb))) as [G1 G2].
  destruct (split_special b _) as [fs sp], (split_special b' _) as [fs' sp']. cbn [fst snd] in *.
  apply default_zeq. intros tag. now rewrite (body_same b b' fs fs' sp sp' Hb G1 G2).
Qed.
Lemma variants_same vars vars' ix : Forall2 (fun p p' : N * vbody => fst p = fst p' /\ body_alike free z (snd p) (snd p')) vars vars' ->
  match nth_error vars ix, nth_error vars' ix with None, None => True | Some (d, b), Some (d', b') => d = d' /\ body_alike free z b b' | _, _ => False end.
Proof.
  intros H. revert ix. induction H as [|[d b] [d' b'] vs vs' H _ IH]; intros [|ix]; cbn [nth_error]; try exact Logic.I; [exact H|apply IH].
Qed.
Lemma variant_same v i :
  match Ser.variant (e i) v, Ser.variant (e' i) v with None, None => True | Some (d, b), Some (d', b') => d = d' /\ body_alike free z b b' | _, _ => False end.
Proof.
  pose proof (He i) as Hi. destruct (e i) as [b|vars c], (e' i) as [b'|vars' c']; cbn [item_alike] in Hi; try contradiction; [exact Logic.I|].
  destruct Hi as [H1 H2]. destruct v; cbn [Ser.variant]; try (destruct c, c'; try contradiction; exact Logic.I).
  - pose proof (variants_same vars vars' ix H1) as K. destruct c, c'; try contradiction; exact K.
  - destruct c, c'; try contradiction; [split; [reflexivity|exact H2]|exact Logic.I].
Qed.
Lemma item_same v i : Forall same (match v with VRec vs | VVar _ (VRec vs) | VCatch _ (VRec vs) => vs | _ => [] end) ->
  zeq (ser e v (TItem i)) (ser e' v (TItem i)).
Proof.
  intros Hv. pose proof (He i) as Hi. pose proof (variant_same v i) as Hr.
  destruct v; cbn [ser]; (destruct (e i) as [q|vars ca], (e' i) as [q'|vars' ca']; cbn [item_alike] in Hi; try contradiction; try apply zeq_refl).
  - exact (item_struct_same q q' vs Hi Hv).
  - destruct v; try apply zeq_refl.
    destruct (Ser.variant (IEnum vars ca) _) as [[dd q]|], (Ser.variant (IEnum vars' ca') _) as [[d' q']|]; try contradiction; [|apply zeq_refl].
    destruct Hr as [<- Hr]. exact (item_variant_same dd q q' vs Hr Hv).
  - destruct v; try apply zeq_refl.
    destruct (Ser.variant (IEnum vars ca) _) as [[dd q]|], (Ser.variant (IEnum vars' ca') _) as [[d' q']|]; try contradiction; [|apply zeq_refl].
    destruct Hr as [<- Hr]. exact (item_variant_same dd q q' vs Hr Hv).
Qed.
Definition inner (v : value) : list value := match v with VRec vs => vs | _ => [] end.
Lemma tuple_same vs ts : Forall same vs -> zeq (ser e (VRec vs) (TTuple ts)) (ser e' (VRec vs) (TTuple ts)).
Proof.
  intros Hv. destruct ts as [|t ts]; [destruct vs; apply zeq_refl|]. cbn [ser].
  assert (E : forall l i,
      (fix go (i : N) (vs : list value) (ts : list ty) {struct vs} : list wop :=
         match vs with
         | [] => match ts with [] => [WEnd] | _ :: _ => [WPanic] end
         | x :: vs' => match ts with [] => [WPanic] | t' :: ts' => z_field (ser e x t') i ++ go (i + 1) vs' ts' end
         end) i vs l =
      (fix go (i : N) (vs : list value) (ts : list ty) {struct vs} : list wop :=
         match vs with
         | [] => match ts with [] => [WEnd] | _ :: _ => [WPanic] end
         | x :: vs' => match ts with [] => [WPanic] | t' :: ts' => z_field (ser e' x t') i ++ go (i + 1) vs' ts' end
         end) i vs l).
  { induction Hv as [|x vs Hx Hv IH]; intros l i; destruct l as [|u l]; try reflexivity. rewrite (w_field _ _ (Hx u)). f_equal. apply IH. }
  constructor; intros; cbn [ser_struct z_body z_field z_elem]; now rewrite E.
Qed.
Lemma value_same : forall v, same v /\ Forall same (inner v).
Proof.
  assert (Hself : forall v, (forall t, match t with TBox _ | TCopied _ => True | _ => zeq (ser e v t) (ser e' v t) end) -> same v).
  { intros v H. unfold same. apply (ty_ind' (fun t => zeq (ser e v t) (ser e' v t))).
    - intros t. specialize (H t). destruct t; try exact Logic.I; exact H.
    - intros t IH. refine (conj (H (TVec t)) (conj (H (TSeq t)) (conj (H (TSet t)) (conj (H (TOption t)) _)))).
      split; destruct v; exact IH.
    - intros n t _. exact (H (TArray n t)).
    - intros k w _ _. exact (H (TMap k w)).
    - intros ts _. exact (H (TTuple ts)). }
  assert (Hl : forall vs, Forall (fun v => same v /\ Forall same (inner v)) vs -> Forall same vs).
  { intros vs H. apply Forall_forall. intros x Hx. rewrite Forall_forall in H. apply (H x Hx). }
  assert (Hone : forall v, (forall t, match t with TVec _ | TSeq _ | TSet _ | TOption _ | TArray _ _ | TMap _ _ | TTuple _ => zeq (ser e v t) (ser e' v t) | _ => True end) ->
    Forall same (match v with VRec vs | VVar _ (VRec vs) | VCatch _ (VRec vs) => vs | _ => [] end) -> same v).
  { intros v H Hi. apply Hself. intros t. specialize (H t). destruct t; try exact H; try exact Logic.I; try (destruct v; apply zeq_refl). now apply item_same. }
  apply (value_ind' (fun v => same v /\ Forall same (inner v))).
  - intros v. destruct v as [n|z0|b|c| |bs|bs|bs|vs|vs|kvs|[x|]|vs|ix x|d x|fs|n]; try exact Logic.I;
      (split; [|constructor]; apply Hone; [|constructor]; intros t; destruct t as [| | | | | | | | | |t|t|t|t|m t|k w|[|t ts]| | | | |]; try exact Logic.I;
        try apply zeq_refl; cbn [ser]; destruct (is_u8 t); apply zeq_refl).
  - intros vs IH. apply Hl in IH. split; [|constructor]. apply Hone; [|constructor].
    intros t; destruct t as [| | | | | | | | | |t|t|t|t|m t|k w|[|t ts]| | | | |]; try exact Logic.I; try apply zeq_refl; cbn [ser]; destruct (is_u8 t); try apply zeq_refl.
    apply coll_zeq. intros tag. apply flat_map_In. eapply Forall_impl; [|exact IH]. intros x Hx. apply (w_elem _ _ (Hx t)).
  - intros vs IH. apply Hl in IH. split; [|constructor]. apply Hone; [|constructor].
    intros t; destruct t as [| | | | | | | | | |t|t|t|t|m t|k w|[|t ts]| | | | |]; try exact Logic.I; try apply zeq_refl; cbn [ser]; try (destruct (is_u8 t); try apply zeq_refl);
    (apply coll_zeq; intros tag; apply flat_map_In; eapply Forall_impl; [|exact IH]; intros x Hx; apply (w_elem _ _ (Hx t))).
  - intros kvs IH. split; [|constructor]. apply Hone; [|constructor].
    intros t; destruct t as [| | | | | | | | | |t|t|t|t|m t|k w|[|t ts]| | | | |]; try exact Logic.I; try apply zeq_refl; cbn [ser]; try (destruct (is_u8 t); apply zeq_refl).
    apply coll_zeq. intros tag. apply flat_map_In. eapply Forall_impl; [|exact IH]. intros p [[Hx _] [Hy _]].
    now rewrite (w_field _ _ (Hx k)), (w_field _ _ (Hy w)).
  - intros x [Hx _]. split; [|constructor]. apply Hone; [|constructor].
    intros t; destruct t as [| | | | | | | | | |t|t|t|t|m t|k w|[|t ts]| | | | |]; try exact Logic.I; try apply zeq_refl; cbn [ser]; try (destruct (is_u8 t); apply zeq_refl).
    apply coll_zeq. intros tag. apply (w_elem _ _ (Hx t)).
  - intros vs IH. apply Hl in IH. split; [|exact IH]. apply Hone; [|exact IH].
    intros t; destruct t as [| | | | | | | | | |t|t|t|t|m t|k w|ts| | | | |]; try exact Logic.I; try apply zeq_refl; try (cbn [ser]; destruct (is_u8 t); apply zeq_refl).
    now apply tuple_same.
  - intros i x [_ Hx]. split; [|constructor]. apply Hone; [|destruct x; try constructor; exact Hx].
    intros t; destruct t as [| | | | | | | | | |t|t|t|t|m t|k w|[|t ts]| | | | |]; try exact Logic.I; try apply zeq_refl; cbn [ser]; destruct (is_u8 t); apply zeq_refl.
  - intros i x [_ Hx]. split; [|constructor]. apply Hone; [|destruct x; try constructor; exact Hx].
    intros t; destruct t as [| | | | | | | | | |t|t|t|t|m t|k w|[|t ts]| | | | |]; try exact Logic.I; try apply zeq_refl; cbn [ser]; destruct (is_u8 t); apply zeq_refl.
Qed.

Theorem ser_env v t : zeq (ser e v t) (ser e' v t).
Proof. apply value_same. Qed.
End Env.

(** ** Writing *)
Theorem write_calls free zc e e' t t' v : env_alike free zc e e' -> alike zc t t' -> z_body (ser e v t) = z_body (ser e' v t').
Proof.
  intros He Ht. apply w_body. eapply zeq_trans; [apply (ser_alike e zc t t' Ht)|].
  apply (ser_env free zc e e'). intros i. apply He.
Qed.
Theorem write_same free zc e e' t t' v s : env_alike free zc e e' -> alike zc t t' -> to_stream e t v s = to_stream e' t' v s.
Proof. intros He Ht. unfold to_stream. now rewrite (write_calls free zc e e' t t' v He Ht). Qed.
Theorem to_vec_same free zc e e' dbg t t' v : env_alike free zc e e' -> alike zc t t' -> to_vec e dbg t v = to_vec e' dbg t' v.
Proof. intros He Ht. unfold to_vec, to_writer. now rewrite (write_same free zc e e' t t' v _ He Ht). Qed.
