(** * P_DictAll: every impl keeps the guarantees of P_Dict *)

From Coq Require Import Sorting.Sorted Sorting.Permutation.
From Verif Require Import P_Ord Base Wire Dev Stream Types Ser Prog De SpecFormat SpecDe
  P_Base P_Types P_Prog P_Wp P_Dict P_Misc.

Lemma need_box e v t : need e v (TBox t) = need e v t.
Proof. destruct v; reflexivity. Qed.
Lemma need_copied e v t : need e v (TCopied t) = need e v t.
Proof. destruct v; reflexivity. Qed.
Lemma copied_box e v zc t : copied e v zc (TBox t) = copied e v zc t.
Proof. destruct v; reflexivity. Qed.
Lemma copied_copied e v zc t : copied e v zc (TCopied t) = copied e v false t.
Proof. destruct v; reflexivity. Qed.

Section D.
  Variable cf : cfg.
  Variable e : env.

  Notation vok := (vok cf e).
  Notation good := (good cf e).
  Notation conv_ok := (conv_ok cf e).
  Notation body_ok := (body_ok cf e).
  Notation dict_ok := (dict_ok cf e).

  Lemma done_refl s tag v lv : at_field s tag v lv -> nest v = 0%nat -> done lv s s.
  Proof. intros (H1 & H2 & H3 & H4) Hn. unfold done. rewrite H3, Hn. repeat split; lia. Qed.

  Definition AOne zc t : AIt := fun p a ca cb =>
    match a with AOpt None => True | AOpt (Some v) => vok zc t n_elem p v ca cb | _ => False end.

  Lemma vok_weaken zc t (nf nf' : needs -> N) p v c b c' b' : vok zc t nf p v c b ->
    nf' (need e v t) <= nf (need e v t) -> c <= c' -> b <= b' -> vok zc t nf' p v c' b'.
  Proof. intros (H1 & H2 & H3 & H4) Hn Hc Hb. unfold P_Dict.vok. repeat split; auto; lia. Qed.

  Lemma opt_field_ok TP m zc t k conv : conv_ok n_elem m zc t conv ->
    forall s a ca cb tag v lv, pre cf m s -> at_field s tag v lv -> TP tag -> AOne zc t (a_path s) a ca cb ->
      wpp cf (opt_field k conv a tag v) (fun a' s' => done lv s s' /\ exists ca' cb', AOne zc t (a_path s) a' ca' cb' /\
        ca' <= ca + (a_coll s' - a_coll s) /\ cb' <= cb + (a_blob s' - a_blob s)) s.
  Proof.
    intros Hc s a ca cb tag v lv Hp Hf _ Ha. unfold opt_field. destruct a as [[x|]| | |]; try contradiction.
    - exact I.
    - apply wpp_bind. eapply wpp_mono; [|apply (Hc s tag v lv Hp Hf)]. intros x s' (D & V).
      cbn [wpp]. split; [exact D|]. exists (a_coll s' - a_coll s), (a_blob s' - a_blob s). cbn. split; [exact V|]. lia.
  Qed.

  Definition single (t : ty) : Prop :=
    unknown_like t = false /\
    forall x, has_type e x t -> n_field (need e x t) <= n_elem (need e x t) /\
      n_body (need e x t) <= 1 + n_field (need e x t).

  Lemma opt_fin_ok TP m zc t : single t ->
    forall s a ca cb, pre cf m s -> AOne zc t (a_path s) a ca cb ->
      wpp cf (opt_fin a) (fun x s' => s' = s /\ vok zc t n_field (a_path s) x ca cb /\
        (unknown_like t = true -> forall fs, x = VUnk fs -> Forall (fun f => TP (fst f)) fs)) s.
  Proof.
    intros [Hs1 Hs2] s a ca cb Hp Ha. destruct a as [[x|]| | |]; try contradiction; cbn [opt_fin wpp pfail]; [|exact I].
    cbn in Ha. split; [reflexivity|]. split; [|rewrite Hs1; discriminate].
    eapply vok_weaken; [exact Ha| |lia|lia]. apply Hs2, Ha.
  Qed.

  Lemma unary_ok conv m zc t : conv_ok n_elem m zc t conv -> single t -> good m zc t (unary conv).
  Proof.
    intros Hc Hs.
    assert (Hd : forall body TP, dict_ok TP (AOne zc t) m zc t
      (mkD (AOpt None) (opt_field (KTooMany 1) conv) (elem_default (AOpt None) (opt_field (KTooMany 1) conv) opt_fin) opt_fin body)).
    { intros body TP. constructor; cbn [d_init d_field d_fin].
      - intros p. exact I.
      - apply opt_field_ok; exact Hc.
      - apply opt_fin_ok; exact Hs. }
    split; [|split].
    - intros TP. exists (AOne zc t). apply Hd.
    - intros s tag v lv Hp Hf. cbn [unary with_default_body d_elem]. unfold elem_default.
      apply wpp_bind. eapply wpp_mono; [|eapply (opt_field_ok anytag); eauto; [exact I|exact (Logic.I : AOne zc t (a_path s) (AOpt None) 0 0)]].
      intros a s' (D & ca & cb & Ha & Hca & Hcb). destruct a as [[x|]| | |]; try contradiction; cbn [opt_fin wpp pfail]; [|exact I].
      split; [exact D|]. cbn in Ha. eapply vok_weaken; [exact Ha|lia|lia|lia].
    - cbn [unary with_default_body d_body]. intros s lv Hp Ho.
      eapply wpp_mono; [|eapply body_default_ok; [eapply (dict_ok_weaken _ _ anytag); [apply Hd|]|exact Hp|exact Ho]; lia].
      intros x s' (D & C & V). split; [exact D|]. split; [exact C|]. eapply vok_weaken; [exact V| |lia|lia].
      apply Hs, V.
  Qed.

  Ltac conv_start H :=
    let s := fresh "s" in let tag := fresh "tag" in let v := fresh "v" in let lv := fresh "lv" in
    intros s tag v lv Hp H; pose proof H as (Hh & Hcu & Hop & Hre); destruct v as [n|l| |dd];
    cbn [wpp pbind plift to_uint to_sint to_bool to_null to_blob pfail]; try exact I.

  Lemma need_leaf_vok zc t p v c b : has_type e v t -> need e v t = need_leaf -> p <= cf_rec cf ->
    coll_count v = 0 -> copied e v zc t <= b -> vok zc t n_elem p v c b.
  Proof. intros H1 H2 H3 H4 H5. unfold P_Dict.vok. rewrite H2, H4. cbn. repeat split; auto; lia. Qed.

  Lemma leaf_single t : unknown_like t = false -> (forall x, has_type e x t -> need e x t = need_leaf) -> single t.
  Proof. intros H1 H2. split; [exact H1|]. intros x Hx. rewrite (H2 x Hx). cbn. lia. Qed.

  Lemma wpp_plift {A B} (r : res serr A) (k : A -> prog B) Q s :
    match r with ROk a => wpp cf (k a) Q s | RErr _ => True | _ => False end -> wpp cf (pbind (plift r) k) Q s.
  Proof. destruct r; cbn [plift pbind pfail wpp]; auto. Qed.

  Ltac bad_str := exfalso; match goal with
    | H : is_str _ |- _ => destruct H as [|[|]]
    | H : is_bytes _ |- _ => destruct H as [|[|[? []]]] end; discriminate.
  Ltac leaf_tac := apply leaf_single; [reflexivity|let x := fresh in let H := fresh in intros x H; inversion H; subst; try reflexivity; try bad_str].

  Lemma uint_ok m zc w : good m zc (TUInt w) (unary (conv_uint w)).
  Proof.
    apply unary_ok; [|leaf_tac].
    intros s tag v lv Hp H. pose proof H as (Hh & _). unfold conv_uint. apply wpp_plift.
    destruct (to_uint (umax w) v) as [k| | |] eqn:E; [|exact I| |]; try (destruct v; cbn in E; try destruct (_ <? _); discriminate).
    apply to_uint_iff in E. destruct E as [-> E]. cbn [wpp]. split; [eapply done_refl; eauto|].
    apply need_leaf_vok; try reflexivity; [constructor; unfold umax; lia|apply Hp|cbn; lia].
  Qed.
  Lemma sint_ok m zc w : good m zc (TSInt w) (unary (conv_sint w)).
  Proof.
    apply unary_ok; [|leaf_tac].
    intros s tag v lv Hp H. pose proof H as (Hh & _). unfold conv_sint. apply wpp_plift.
    unfold to_sint. destruct v as [n| | |]; try exact I.
    destruct (Z.ltb_spec (unzigzag n) (smin w)); [exact I|]. destruct (Z.ltb_spec (smax w) (unzigzag n)); [exact I|].
    cbn [wpp]. split; [eapply done_refl; eauto|].
    apply need_leaf_vok; try reflexivity; [constructor; lia|apply Hp|cbn; lia].
  Qed.
  Lemma bool_ok m zc : good m zc TBool (unary conv_bool).
  Proof.
    apply unary_ok; [|leaf_tac].
    intros s tag v lv Hp H. pose proof H as (Hh & _). unfold conv_bool. apply wpp_plift.
    destruct (to_bool v) as [b| | |] eqn:E; [|exact I| |];
      try (unfold to_bool, to_uint in E; destruct v; try discriminate E; destruct (_ <? _); try discriminate E;
           destruct (_ =? _); try discriminate E; destruct (_ =? _); discriminate E).
    assert (exists n, v = HInt n) as [n ->]. { destruct v; try discriminate E. eexists; reflexivity. }
    cbn [wpp]. split; [eapply done_refl; eauto|].
    apply need_leaf_vok; try reflexivity; [constructor|apply Hp|cbn; lia].
  Qed.
  Lemma phantom_ok m zc : good m zc TPhantom (unary conv_phantom).
  Proof.
    apply unary_ok; [|leaf_tac].
    intros s tag v lv Hp H. pose proof H as (Hh & _). unfold conv_phantom. apply wpp_plift.
    destruct v as [n| | |]; try exact I. unfold to_null. destruct (N.eqb_spec n 0); [|exact I].
    cbn [wpp]. split; [eapply done_refl; eauto|].
    apply need_leaf_vok; try reflexivity; [constructor|apply Hp|cbn; lia].
  Qed.
  Lemma char_good m zc : good m zc TChar (unary conv_char).
  Proof.
    apply unary_ok; [|leaf_tac].
    intros s tag v lv Hp H. pose proof H as (Hh & _). unfold conv_char. apply wpp_plift.
    destruct (to_uint (umax 32) v) as [k| | |] eqn:E; [|exact I| |]; try (destruct v; cbn in E; try destruct (_ <? _); discriminate).
    apply to_uint_iff in E. destruct E as [-> E]. destruct (char_ok k) eqn:Ec; [|exact I].
    cbn [wpp]. split; [eapply done_refl; eauto|].
    apply need_leaf_vok; try reflexivity; [now constructor|apply Hp|cbn; lia].
  Qed.

  (** Blobs. *)
  Lemma read_owned_ok s tag v lv (Q : bytes -> astate -> Prop) : at_field s tag v lv ->
    (forall bs s', bytes_ok bs -> done lv s s' -> lenN bs <= a_blob s' - a_blob s -> a_coll s' = a_coll s -> Q bs s') ->
    wpp cf (read_owned v) Q s.
  Proof.
    intros (Hh & Hcu & Hop & Hre) HQ. unfold read_owned. destruct v as [n|l| |d]; try exact I.
    apply wpp_plift. cbn [to_blob]. apply wpp_do. cbn [op_wp]. intros Hb. cbn [wpp pdo op_wp].
    split; [unfold blob_in_hand; cbn; rewrite Hcu; exact I|]. split; [cbn; rewrite Hre; cbn; lia|]. intros bs Hok Hlen. cbn in Hlen. rewrite Hre in Hlen. cbn in Hlen.
    apply HQ; [exact Hok| |cbn; lia|reflexivity].
    unfold done. cbn. rewrite Hop. cbn. repeat split; lia.
  Qed.
  Lemma read_borrowed_ok s tag v lv (Q : bytes -> astate -> Prop) : at_field s tag v lv ->
    (forall bs, bytes_ok bs -> done lv s s -> Q bs s) ->
    wpp cf (read_borrowed v) Q s.
  Proof.
    intros H HQ. pose proof H as (Hh & Hcu & Hop & Hre). unfold read_borrowed. destruct v as [n|l| |d]; try exact I.
    apply wpp_plift. cbn [to_blob wpp pdo op_wp].
    split; [unfold blob_in_hand; cbn; rewrite Hcu; exact I|]. intros bs Hok Hlen.
    apply HQ; [exact Hok|]. eapply done_refl; eauto.
  Qed.

  Lemma string_ok m zc t : is_str t -> copied e (VStr []) zc t = copied e (VStr []) zc t ->
    good m zc t (unary conv_string).
  Proof.
    intros Ht _. apply unary_ok; [|destruct Ht as [->|[->| ->]]; leaf_tac].
    intros s tag v lv Hp H. unfold conv_string. apply wpp_bind. eapply read_owned_ok; [exact H|].
    intros bs s' Hok D Hb Hc. destruct (utf8_ok bs) eqn:Eu; [|exact I]. cbn [wpp]. split; [exact D|].
    apply need_leaf_vok; [now constructor|destruct Ht as [->|[->| ->]]; reflexivity|apply Hp|reflexivity|].
    destruct Ht as [->|[->| ->]]; cbn; [lia|lia|destruct zc; lia].
  Qed.
  Lemma str_ref_ok m t : t = TStrRef \/ t = TCowStr -> good m true t (unary conv_str_ref).
  Proof.
    intros Ht. assert (Hs : is_str t) by (unfold is_str; tauto).
    apply unary_ok; [|destruct Ht as [->| ->]; leaf_tac].
    intros s tag v lv Hp H. unfold conv_str_ref. apply wpp_bind. eapply read_borrowed_ok; [exact H|].
    intros bs Hok D. destruct (utf8_ok bs) eqn:Eu; [|exact I]. cbn [wpp]. split; [exact D|].
    apply need_leaf_vok; [now constructor|destruct Ht as [->| ->]; reflexivity|apply Hp|reflexivity|].
    destruct Ht as [->| ->]; cbn; lia.
  Qed.
  Lemma bytes_ref_ok m t : t = TBytesRef \/ t = TCowBytes -> good m true t (unary conv_bytes_ref).
  Proof.
    intros Ht. assert (Hs : is_bytes t) by (unfold is_bytes; tauto).
    apply unary_ok; [|destruct Ht as [->| ->]; leaf_tac].
    intros s tag v lv Hp H. unfold conv_bytes_ref. apply wpp_bind. eapply read_borrowed_ok; [exact H|].
    intros bs Hok D. cbn [wpp]. split; [exact D|].
    apply need_leaf_vok; [now constructor|destruct Ht as [->| ->]; reflexivity|apply Hp|reflexivity|].
    destruct Ht as [->| ->]; cbn; lia.
  Qed.

  (** Completing an impl by the default body. *)
  Lemma with_default_ok m zc t d AI : (forall TP, exists AI, dict_ok TP AI m zc t d) -> dict_ok anytag AI m zc t d ->
    conv_ok n_elem m zc t (d_elem d) ->
    (forall x, has_type e x t -> n_body (need e x t) <= 1 + n_field (need e x t)) ->
    good m zc t (with_default_body d).
  Proof.
    intros Hd Ha Hc Hn. split; [|split].
    - intros TP. destruct (Hd TP) as [AI' [H1 H2 H3]]. exists AI'. constructor; assumption.
    - exact Hc.
    - intros s lv Hp Ho. cbn [with_default_body d_body].
      eapply wpp_mono; [|eapply body_default_ok; [eapply dict_ok_weaken; [exact Ha|]|exact Hp|exact Ho]; lia].
      intros x s' (D & C & V). split; [exact D|]. split; [exact C|]. eapply vok_weaken; [exact V| |lia|lia].
      apply Hn, V.
  Qed.
  (** Collections. *)
  Lemma wrapped_ok m zc t d : (forall TP, exists AI, dict_ok TP AI m zc t d) ->
    (forall x, has_type e x t -> n_body (need e x t) <= 1 + n_field (need e x t) /\ n_elem (need e x t) <= 1 + n_field (need e x t)) ->
    good m zc t (wrapped d).
  Proof.
    intros Hd Hn.
    assert (Hb : body_ok (fun n => 1 + n_field n) m zc t (body_default d)).
    { destruct (Hd anytag) as [AI H]. eapply body_default_ok. eapply dict_ok_weaken; [exact H|lia]. }
    split; [|split].
    - intros TP. destruct (Hd TP) as [AI' [H1 H2 H3]]. exists AI'. constructor; assumption.
    - intros s tag v lv Hp (Hh & Hcu & Hop & Hre). cbn [wrapped d_elem]. apply wpp_plift.
      destruct v as [| | |]; try exact I. cbn [to_struct].
      eapply wpp_mono; [|apply (Hb s lv Hp)]; [|rewrite Hop; cbn; lia].
      intros x s' (D & C & V). split; [exact D|]. eapply vok_weaken; [exact V| |lia|lia]. apply Hn, V.
    - intros s lv Hp Ho. cbn [wrapped d_body]. eapply wpp_mono; [|apply (Hb s lv Hp Ho)].
      intros x s' (D & C & V). split; [exact D|]. split; [exact C|]. eapply vok_weaken; [exact V| |lia|lia]. apply Hn, V.
  Qed.

  Lemma vecu8_ok m zc t : is_bytes t -> t <> TBytesRef -> (t = TCowBytes -> zc = false) -> good m zc t dict_vecu8.
  Proof.
    intros Ht Hnb Hz.
    assert (Hneed : forall bs, need e (VBytes bs) t = need_leaf).
    { intros bs. destruct Ht as [->|[->|(t' & -> & Hu)]]; reflexivity. }
    assert (Hul : unknown_like t = false) by (destruct Ht as [->|[->|(t' & -> & Hu)]]; reflexivity).
    assert (Hty : forall x, has_type e x t -> exists bs, x = VBytes bs).
    { intros x Hx. destruct Ht as [->|[->|(t' & -> & Hu)]]; inversion Hx; subst; eauto; try bad_str; congruence. }
    assert (Hs : single t). { apply leaf_single; [exact Hul|]. intros x Hx. destruct (Hty x Hx) as [bs ->]. apply Hneed. }
    assert (Hcp : forall bs, copied e (VBytes bs) zc t <= lenN bs).
    { intros bs. destruct Ht as [->|[->|(t' & -> & Hu)]]; cbn; [lia|destruct zc; lia|lia]. }
    assert (Hv : forall bs p c b, bytes_ok bs -> p <= cf_rec cf -> lenN bs <= b -> vok zc t n_elem p (VBytes bs) c b).
    { intros bs p c b Hok Hp Hb. apply need_leaf_vok; [now constructor|apply Hneed|exact Hp|reflexivity|].
      specialize (Hcp bs). lia. }
    assert (Hd : forall TP, dict_ok TP (AOne zc t) m zc t
       (mkD (AOpt None) vecu8_field (fun _ vh => bs <- read_owned vh; PRet (VBytes bs)) opt_fin ill)).
    { intros TP. constructor; cbn [d_init d_field d_fin].
      - intros p. exact I.
      - intros s a ca cb tag v lv Hp Hf _ Ha. destruct a as [[x|]| | |]; try contradiction; cbn [vecu8_field].
        + apply wpp_do. cbn [op_wp]. apply wpp_bind. eapply read_owned_ok; [exact Hf|]. intros; exact I.
        + apply wpp_bind. eapply read_owned_ok; [exact Hf|]. intros bs s' Hok D Hb Hc. cbn [wpp].
          split; [exact D|]. exists (a_coll s' - a_coll s), (a_blob s' - a_blob s). split; [|lia].
          cbn. apply Hv; auto. apply Hp.
      - apply opt_fin_ok; exact Hs. }
    eapply with_default_ok; [intros TP; eexists; apply Hd|apply (Hd anytag)| |].
    - intros s tag v lv Hp Hf. cbn [d_elem]. apply wpp_bind. eapply read_owned_ok; [exact Hf|].
      intros bs s' Hok D Hb Hc. cbn [wpp]. split; [exact D|]. apply Hv; auto. apply Hp.
    - intros x Hx. apply Hs, Hx.
  Qed.

  Lemma arru8_ok m zc n t : is_u8 t = true -> good m zc (TArray n t) (dict_arru8 n).
  Proof.
    intros Hu.
    assert (Hread : forall s tag v lv, pre cf m s -> at_field s tag v lv ->
      wpp cf (read_array n v) (fun x s' => done lv s s' /\ vok zc (TArray n t) n_elem (a_path s) x (a_coll s' - a_coll s) (a_blob s' - a_blob s)) s).
    { intros s tag v lv Hp (Hh & Hcu & Hop & Hre). unfold read_array. destruct v as [k|l| |d]; try exact I.
      apply wpp_plift. cbn [to_blob]. apply wpp_do. cbn [op_wp].
      assert (Hb : blob_in_hand s) by (unfold blob_in_hand; rewrite Hcu; exact I).
      split; [exact Hb|]. destruct (N.eqb_spec (a_rem s) n) as [E|]; [|exact I].
      apply wpp_do. cbn [op_wp]. split; [exact Hb|]. intros bs Hok Hl Hr. cbn [wpp].
      split; [unfold done; cbn; rewrite Hop; cbn; repeat split; lia|].
      apply need_leaf_vok; [now constructor|reflexivity|apply Hp|reflexivity|cbn; lia]. }
    assert (Hneed : forall x, has_type e x (TArray n t) -> need e x (TArray n t) = need_leaf).
    { intros x Hx. inversion Hx; subst; try reflexivity; try bad_str; congruence. }
    assert (Hd : forall TP, dict_ok TP (AOne zc (TArray n t)) m zc (TArray n t)
       (mkD (AOpt None) (arru8_field n) (fun _ vh => read_array n vh) (arru8_fin n) ill)).
    { intros TP. constructor; cbn [d_init d_field d_fin].
      - intros p. exact I.
      - intros s a ca cb tag v lv Hp Hf _ Ha. destruct a as [[x|]| | |]; try contradiction; cbn [arru8_field].
        + apply wpp_bind. destruct (n <=? 32); cbn [wpp pdo op_wp]; apply wpp_bind;
            (eapply wpp_mono; [|apply (Hread s tag v lv Hp Hf)]); intros; exact I.
        + apply wpp_bind. eapply wpp_mono; [|apply (Hread s tag v lv Hp Hf)]. intros x s' [D V]. cbn [wpp].
          split; [exact D|]. exists (a_coll s' - a_coll s), (a_blob s' - a_blob s). split; [exact V|lia].
      - intros s a ca cb Hp Ha. destruct a as [[x|]| | |]; try contradiction; cbn [arru8_fin].
        + cbn [wpp]. split; [reflexivity|]. split; [|discriminate]. cbn in Ha. eapply vok_weaken; [exact Ha| |lia|lia].
          rewrite Hneed by apply Ha. cbn. lia.
        + destruct (N.eqb_spec n 0) as [->|]; [|exact I]. cbn [wpp]. split; [reflexivity|]. split; [|discriminate].
          unfold P_Dict.vok. cbn. split; [constructor; [exact Hu|constructor|reflexivity]|]. destruct Hp as (_ & Hp & _). lia. }
    eapply with_default_ok; [intros TP; eexists; apply Hd|apply (Hd anytag)| |].
    - exact Hread.
    - intros x Hx. rewrite Hneed by exact Hx. cbn. lia.
  Qed.

  (** Lists of items. *)
  Definition AItems (w : N) (zc : bool) (t : ty) (P : list value -> Prop) : AIt := fun p a ca cb =>
    exists vs, a = AList vs /\ P vs /\ Forall (fun v => has_type e v t) vs /\
      Forall (fun v => p + n_elem (need e v t) <= cf_rec cf) vs /\
      sumN (map (fun x => w + coll_count x) vs) <= ca /\
      sumN (map (fun x => copied e x zc t) vs) <= cb.
  Lemma max_le l p r : p <= r -> Forall (fun x => p + x <= r) l -> p + maxN l <= r.
  Proof. intros Hp H. unfold maxN. induction H; cbn [fold_right]; lia. Qed.
  Lemma Forall_map' {A B} (f : A -> B) (P : B -> Prop) l : Forall (fun x => P (f x)) l -> Forall P (map f l).
  Proof. induction 1; cbn; constructor; auto. Qed.

  Lemma items_snoc w zc t P p vs ca cb v c b : AItems w zc t P p (AList vs) ca cb ->
    vok zc t n_elem p v c b -> P (vs ++ [v]) -> AItems w zc t P p (AList (vs ++ [v])) (ca + (w + c)) (cb + b).
  Proof.
    intros (vs' & E & H1 & H2 & H3 & H4 & H5) (V1 & V2 & V3 & V4) HP. injection E as <-.
    exists (vs ++ [v]). split; [reflexivity|]. split; [exact HP|].
    split; [apply Forall_app; auto|]. split; [apply Forall_app; auto|].
    rewrite !map_app, !sumN_app. cbn [map sumN fold_right]. lia.
  Qed.

  Lemma sumN_perm l l' : Permutation l l' -> sumN l = sumN l'.
  Proof. unfold sumN. induction 1; cbn [fold_right]; lia. Qed.
  Lemma items_perm w zc t P p vs vs' ca cb v c b : AItems w zc t P p (AList vs) ca cb ->
    vok zc t n_elem p v c b -> P vs' -> Permutation (v :: vs) vs' -> AItems w zc t P p (AList vs') (ca + (w + c)) (cb + b).
  Proof.
    intros (vs0 & E & H1 & H2 & H3 & H4 & H5) (V1 & V2 & V3 & V4) HP Hp. injection E as <-.
    exists vs'. split; [reflexivity|]. split; [exact HP|].
    split; [eapply Permutation_Forall; [exact Hp|]; now constructor|]. split; [eapply Permutation_Forall; [exact Hp|]; now constructor|].
    rewrite <- !(sumN_perm _ _ (Permutation_map _ Hp)). cbn [map sumN fold_right]. unfold sumN in *. lia.
  Qed.

  Lemma coll_ok m zc t t' ins (P : list value -> Prop) d : good m zc t' d ->
    P [] -> (forall v vs, P vs -> P (ins v vs) /\ (Permutation (v :: vs) (ins v vs) \/ ins v vs = vs)) ->
    (forall vs, P vs -> Forall (fun v => has_type e v t') vs -> has_type e (VList vs) t) ->
    unknown_like t = false ->
    (forall vs, need e (VList vs) t = need_coll (map (fun x => n_elem (need e x t')) vs)) ->
    (forall vs, copied e (VList vs) zc t = sumN (map (fun x => copied e x zc t') vs)) ->
    (forall x, has_type e x t -> exists vs, x = VList vs) ->
    good m zc t (dict_coll ins d).
  Proof.
    intros (_ & Hel & _) HP0 Hins Hty Hul Hneed Hcop Hinv. unfold dict_coll. apply wrapped_ok.
    2: { intros x Hx. destruct (Hinv x Hx) as [vs ->]. rewrite Hneed. cbn. lia. }
    intros TP. exists (AItems 1 zc t' P). constructor; cbn [d_init d_field d_fin].
    - intros p. exists []. repeat split; auto; cbn; lia.
    - intros s a ca cb tag v lv Hp (F1 & F2 & F3 & F4) _ (vs & -> & Ha). cbn [coll_field].
      apply wpp_do. cbn [op_wp]. intros Hc. apply wpp_bind.
      eapply wpp_mono; [|eapply (Hel _ tag v lv)].
      + intros x s' ((D1 & D2 & D3 & D4 & D5) & V). cbn in D2, D3, D4, D5, V. cbn [wpp].
        split; [unfold done; repeat split; auto; lia|].
        assert (HA : AItems 1 zc t' P (a_path s) (AList vs) ca cb) by (exists vs; auto).
        destruct (Hins x vs (proj1 Ha)) as [HPn [E|E]].
        * eexists _, _. split; [eapply items_perm; eauto|]. lia.
        * rewrite E in *. exists ca, cb. split; [exact HA|]. lia.
      + unfold pre in *. cbn. lia.
      + repeat split; cbn; auto; apply F1.
    - intros s a ca cb Hp (vs & -> & H1 & H2 & H3 & H4 & H5). cbn [coll_fin wpp]. split; [reflexivity|].
      split; [|rewrite Hul; discriminate]. unfold P_Dict.vok. rewrite Hneed, Hcop. cbn [n_field need_coll coll_count].
      split; [auto|]. split; [|split; assumption].
      apply max_le; [apply Hp|]. apply Forall_map'. exact H3.
  Qed.

  Lemma arr_ok m zc n t' d : is_u8 t' = false -> good m zc t' d -> good m zc (TArray n t') (dict_arr n d).
  Proof.
    intros Hu (_ & Hel & _). unfold dict_arr. apply wrapped_ok.
    2: { intros x Hx. assert (exists vs, x = VArr vs) as [vs ->]; [inversion Hx; subst; try bad_str; eauto; congruence|]. cbn. lia. }
    intros TP. exists (AItems 0 zc t' (fun vs => lenN vs <= n)). constructor; cbn [d_init d_field d_fin].
    - intros p. exists []. split; [reflexivity|]. split; [change (0 <= n); lia|]. repeat split; auto; cbn; lia.
    - intros s a ca cb tag v lv Hp Hf _ (vs & -> & Ha). cbn [arr_field].
      destruct (N.leb_spec n (lenN vs)) as [|Hlt]; [exact I|]. apply wpp_bind.
      eapply wpp_mono; [|eapply (Hel _ tag v lv Hp Hf)].
      intros x s' (D & V). cbn [wpp]. split; [exact D|].
      assert (HA : AItems 0 zc t' (fun vs => lenN vs <= n) (a_path s) (AList vs) ca cb) by (exists vs; auto).
      eexists _, _. split; [eapply (items_snoc 0); [exact HA|exact V|cbv beta; rewrite lenN_app, lenN_cons; change (lenN (@nil value)) with 0; lia]|]. lia.
    - intros s a ca cb Hp (vs & -> & H1 & H2 & H3 & H4 & H5). cbn [arr_fin].
      destruct (N.ltb_spec (lenN vs) n); [destruct vs; exact I|]. cbn [wpp]. split; [reflexivity|].
      split; [|discriminate]. unfold P_Dict.vok. cbn [need copied n_field need_coll coll_count].
      split; [constructor; auto; lia|]. split; [|split].
      + apply max_le; [apply Hp|]. apply Forall_map'. exact H3.
      + erewrite map_ext; [exact H4|]. intros; reflexivity.
      + exact H5.
  Qed.

  Lemma option_ok m zc t' d : good m zc t' d -> good m zc (TOption t') (dict_option d).
  Proof.
    intros (_ & Hel & _). unfold dict_option. apply wrapped_ok.
    2: { intros x Hx. inversion Hx; subst; try bad_str; cbn; lia. }
    intros TP. exists (AOne zc t'). constructor; cbn [d_init d_field d_fin].
    - intros p. exact I.
    - apply opt_field_ok. exact Hel.
    - intros s a ca cb Hp Ha. destruct a as [[x|]| | |]; try contradiction; cbn [wpp].
      + split; [reflexivity|]. split; [|discriminate]. destruct Ha as (V1 & V2 & V3 & V4).
        unfold P_Dict.vok. split; [now constructor|]. cbn. repeat split; auto; lia.
      + split; [reflexivity|]. split; [|discriminate]. unfold P_Dict.vok. split; [constructor|]. destruct Hp as (_ & Hp & _).
        cbn. lia.
  Qed.

  (** Tuples. *)
  Lemma fields_exist m zc fs ts : Forall2 (fun (f : fdict) t => good m zc t (fdict_d f)) fs ts ->
    exists AIs, fields_ok cf e m zc fs ts AIs.
  Proof.
    induction 1 as [|f t fs ts Hg _ [AIs IH]]; [exists []; constructor|].
    destruct (proj1 Hg anytag) as [AI HAI]. exists (AI :: AIs). constructor; assumption.
  Qed.
  Lemma tuple_fields_good m zc ds ts : Forall2 (fun d t => good m zc t d) ds ts -> forall i,
    Forall2 (fun (f : fdict) t => good m zc t (fdict_d f)) (tuple_fields i ds) ts.
  Proof. induction 1; intros i; cbn; constructor; auto. Qed.

  Lemma zipw_map {A B C D} (g : C -> D) (f : A -> B -> C) l : forall m, map g (zipw f l m) = zipw (fun x y => g (f x y)) l m.
  Proof. induction l as [|x l IH]; intros [|y m]; cbn; try reflexivity. now rewrite IH. Qed.

  Lemma tuple_body_ok m zc ds ts : Forall2 (fun d t => good (m + 1) zc t d) ds ts ->
    body_ok n_body m zc (TTuple ts) (tuple_body ds).
  Proof.
    intros Hds s lv Hp Ho. unfold tuple_body. apply wpp_bind.
    destruct (fields_exist _ _ _ _ (tuple_fields_good _ _ _ _ Hds 0)) as [AIs HA].
    eapply wpp_mono; [|apply (des_body_ok cf e m zc (tuple_fields 0 ds) ts AIs None HA) with (lv := lv); auto; discriminate].
    intros vs s' (D & C & R & _). cbn [utys] in R. rewrite app_nil_r in R. destruct R as (R1 & R2 & R3 & R4).
    cbn [wpp]. split; [exact D|]. split; [exact C|]. unfold P_Dict.vok. cbn [need copied coll_count need_struct n_body].
    split; [now constructor|]. repeat split; auto.
  Qed.

  Lemma struct_dict_ok m zc t k body elem : conv_ok n_elem m zc t elem -> body_ok n_body m zc t body -> unknown_like t = false ->
    (forall x, has_type e x t -> n_field (need e x t) <= n_elem (need e x t)) ->
    good m zc t (dict_struct k body elem).
  Proof.
    intros He Hb Hu Hn. split; [|split].
    - intros TP. exists (AOne zc t). constructor; cbn [dict_struct d_init d_field d_fin].
      + intros p. exact I.
      + apply opt_field_ok, He.
      + intros s a ca cb Hp Ha. destruct a as [[x|]| | |]; try contradiction; cbn [opt_fin wpp pfail]; [|exact I].
        cbn in Ha. split; [reflexivity|]. split; [|rewrite Hu; discriminate].
        eapply vok_weaken; [exact Ha| |lia|lia]. apply Hn, Ha.
    - exact He.
    - exact Hb.
  Qed.

  Lemma to_struct_ok m zc t body (P : Prop) : body_ok n_body m zc t body ->
    (forall x, has_type e x t -> n_elem (need e x t) <= n_body (need e x t)) ->
    conv_ok n_elem m zc t (fun _ vh => plift (to_struct vh) ;> body).
  Proof.
    intros Hb Hn s tag v lv Hp (Hh & Hcu & Hop & Hre). apply wpp_plift.
    destruct v as [| | |]; try exact I. cbn [to_struct].
    eapply wpp_mono; [|apply (Hb s lv Hp)]; [|rewrite Hop; cbn; lia].
    intros x s' (D & C & V). split; [exact D|]. eapply vok_weaken; [exact V| |lia|lia]. apply Hn, V.
  Qed.

  Lemma tuple_ok m zc ds ts : Forall2 (fun d t => good m zc t d) ds ts -> good m zc (TTuple ts) (dict_tuple ds).
  Proof.
    intros Hds.
    assert (Hb : body_ok n_body m zc (TTuple ts) (tuple_body ds)).
    { apply tuple_body_ok. eapply Forall2_imp; [|exact Hds]. intros d t Hd; apply (good_weaken _ _ m); [exact Hd|lia]. }
    assert (Hn : forall x, has_type e x (TTuple ts) -> exists n, need e x (TTuple ts) = need_struct n).
    { intros x Hx. inversion Hx; subst; try bad_str. eexists. reflexivity. }
    apply struct_dict_ok.
    - apply to_struct_ok; [exact True|exact Hb|]. intros x Hx. destruct (Hn x Hx) as [n ->]. cbn. lia.
    - exact Hb.
    - reflexivity.
    - intros x Hx. destruct (Hn x Hx) as [n ->]. cbn. lia.
  Qed.

  (** Maps. *)
  Definition entry_w (p : value * value) : N := 1 + (coll_count (fst p) + coll_count (snd p)).
  Definition entry_b zc tk tv (p : value * value) : N := copied e (fst p) zc tk + copied e (snd p) zc tv.
  Definition entry_n tk tv (p : value * value) : N := up [n_field (need e (fst p) tk); n_field (need e (snd p) tv)].
  Definition AEntries (zc : bool) (tk tv : ty) : AIt := fun p a ca cb =>
    exists kvs, a = AMap kvs /\ ascending (map fst kvs) /\
      Forall (fun q => (has_type e (fst q) tk /\ has_type e (snd q) tv) /\ p + entry_n tk tv q <= cf_rec cf) kvs /\
      sumN (map entry_w kvs) <= ca /\ sumN (map (entry_b zc tk tv) kvs) <= cb.
  Lemma map_insert_forall (P : value * value -> Prop) k v kvs : Forall P kvs -> P (k, v) ->
    Forall P (map_insert k v kvs).
  Proof.
    intros H Hn. apply Forall_forall. intros p Hp. apply minsert_in in Hp. rewrite Forall_forall in H. destruct Hp as [->|]; auto.
  Qed.
  Lemma map_insert_sum (f : value * value -> N) k v kvs : sumN (map f (map_insert k v kvs)) <= sumN (map f kvs) + f (k, v).
  Proof.
    unfold sumN. induction kvs as [|[k' v'] r IH]; cbn [map_insert map fold_right]; [lia|].
    destruct (cmp_spec k k') as [<-| |]; cbn [map fold_right]; lia.
  Qed.

  Lemma map_good m zc tk tv dk dv : good m zc tk dk -> good m zc tv dv -> good m zc (TMap tk tv) (dict_map dk dv).
  Proof.
    intros Hk Hv. unfold dict_map. apply wrapped_ok.
    2: { intros x Hx. inversion Hx; subst; try bad_str; cbn; lia. }
    assert (Ht : good m zc (TTuple [tk; tv]) (dict_tuple [dk; dv])) by (apply tuple_ok; auto).
    destruct Ht as (_ & Hel & _).
    intros TP. exists (AEntries zc tk tv). constructor; cbn [d_init d_field d_fin].
    - intros p. exists []. repeat split; auto; cbn; try lia; constructor.
    - intros s a ca cb tag v lv Hp (F1 & F2 & F3 & F4) _ (kvs & -> & H1 & H2 & H3 & H4). cbn [map_field].
      apply wpp_do. cbn [op_wp]. intros Hc. apply wpp_bind.
      eapply wpp_mono; [|eapply (Hel _ tag v lv)].
      + intros x s' ((D1 & D2 & D3 & D4 & D5) & V). cbn in D2, D3, D4, D5.
        destruct V as (V1 & V2 & V3 & V4). inversion V1; subst; try bad_str.
        match goal with H : Forall2 _ vs _ |- _ => inversion H as [|x1 ? r1 ? T1 HH]; subst; inversion HH as [|x2 ? r2 ? T2 HH2]; subst; inversion HH2; subst end.
        cbn in V2, V3, V4. cbn [wpp]. split; [unfold done; repeat split; auto; lia|].
        exists (ca + (1 + (coll_count x1 + coll_count x2))), (cb + (copied e x1 zc tk + copied e x2 zc tv)).
        split; [|lia]. eexists. split; [reflexivity|]. split; [rewrite minsert_keys; now apply insert_asc|]. split; [|split].
        * apply map_insert_forall; [exact H2|]. cbn. split; [auto|]. unfold entry_n. cbn. lia.
        * pose proof (map_insert_sum entry_w x1 x2 kvs) as Hs. unfold entry_w in Hs at 3. cbn [fst snd] in Hs. lia.
        * pose proof (map_insert_sum (entry_b zc tk tv) x1 x2 kvs) as Hs. unfold entry_b in Hs at 3. cbn [fst snd] in Hs. lia.
      + unfold pre in *. cbn. lia.
      + repeat split; cbn; auto; apply F1.
    - intros s a ca cb Hp (kvs & -> & H1 & H2 & H3 & H4). cbn [wpp]. split; [reflexivity|].
      split; [|discriminate]. unfold P_Dict.vok. cbn [need copied n_field need_coll coll_count].
      split; [constructor; [| |exact H1]; eapply Forall_impl; [|exact H2| |exact H2]; intros q Hq; apply Hq|].
      split; [|split; [exact H3|exact H4]].
      apply max_le; [apply Hp|]. apply Forall_map'. eapply Forall_impl; [|exact H2]. intros q Hq. apply Hq.
  Qed.

  (** Unknown fields. *)
  Definition ubytes (zc : bool) (n : N) : N := if zc then 0 else n.
  Lemma cow_ok s tag v lv zc (Q : bytes -> astate -> Prop) : at_field s tag v lv ->
    (forall bs s', bytes_ok bs -> done lv s s' -> ubytes zc (lenN bs) <= a_blob s' - a_blob s -> a_coll s' = a_coll s -> Q bs s') ->
    wpp cf (cow_bytes zc v) Q s.
  Proof.
    intros Hf HQ. unfold cow_bytes. destruct zc.
    - eapply read_borrowed_ok; [exact Hf|]. intros bs Hok D. apply HQ; auto; cbn; lia.
    - eapply read_owned_ok; [exact Hf|]. intros bs s' Hok D Hb Hc. apply HQ; auto.
  Qed.
  Definition nok (zc : bool) (p : N) (n : node) (c b : N) : Prop :=
    node_ok n /\ p + node_need n <= cf_rec cf /\ node_count n <= c /\ ubytes zc (node_bytes n) <= b.
  Definition nsok (zc : bool) (p : N) (fs : list (N * node)) (c b : N) : Prop :=
    nodes_ok fs /\ p + up (map (fun f => node_need (snd f)) fs) <= cf_rec cf /\ nodes_count fs <= c /\
    ubytes zc (nodes_bytes fs) <= b.
  Lemma ubytes_add zc a b : ubytes zc (a + b) = ubytes zc a + ubytes zc b.
  Proof. destruct zc; reflexivity. Qed.
  Lemma up_snoc l x p r : p + up l <= r -> p + 1 + x <= r -> p + up (l ++ [x]) <= r.
  Proof.
    unfold up. intros H1 H2. destruct l as [|y l]; [cbn; lia|]. cbn [app]. change (y :: l ++ [x]) with ((y :: l) ++ [x]).
    rewrite maxN_app. cbn [maxN fold_right] in *. lia.
  Qed.
  Lemma nsok_snoc zc p fs c b tag n c' b' : nsok zc p fs c b -> tag_ok tag -> nok zc (p + 1) n c' b' ->
    nsok zc p (fs ++ [(tag, n)]) (c + (1 + c')) (b + b').
  Proof.
    intros (H1 & H2 & H3 & H4) Ht (N1 & N2 & N3 & N4). unfold nsok, nodes_ok, nodes_count, nodes_bytes in *.
    rewrite !map_app, !sumN_app, ubytes_add. cbn [map snd].
    split; [apply Forall_app; split; [exact H1|]; constructor; [split; assumption|constructor]|].
    split; [apply up_snoc; assumption|].
    change (sumN [1 + node_count n]) with (1 + node_count n + 0). change (sumN [node_bytes n]) with (node_bytes n + 0).
    rewrite !N.add_0_r. lia.
  Qed.
  Definition unk_elem_ok (zc : bool) (f : nat) : Prop := forall m s tag v lv, pre cf m s -> at_field s tag v lv ->
    cf_rec cf < a_path s + N.of_nat f ->
    wpp cf (unk_elem zc f v) (fun n s' => done lv s s' /\ nok zc (a_path s) n (a_coll s' - a_coll s) (a_blob s' - a_blob s)) s.
  Definition unk_body_ok (zc : bool) (f : nat) : Prop := forall m s lv, pre cf m s -> a_open s = S lv ->
    cf_rec cf < a_path s + N.of_nat f ->
    wpp cf (unk_body zc f) (fun fs s' => done lv s s' /\ a_cur s' = None /\
      nsok zc (a_path s) fs (a_coll s' - a_coll s) (a_blob s' - a_blob s)) s.
  Lemma unk_elem_of_body zc f : unk_body_ok zc f -> unk_elem_ok zc f.
  Proof.
    intros Hb m s tag v lv Hp Hf Hfu. pose proof Hf as (F1 & F2 & F3 & F4). destruct v as [n|l| |d]; cbn [unk_elem].
    - cbn [wpp]. split; [eapply done_refl; eauto|]. destruct Hp as (P1 & P2 & P3). unfold nok. cbn. destruct F1. repeat split; auto; try lia. destruct zc; cbn; lia.
    - apply wpp_bind. eapply cow_ok; [exact Hf|]. intros bs s' Hok D Hby Hc. cbn [wpp]. split; [exact D|].
      destruct Hp as (P1 & P2 & P3). unfold nok. cbn. repeat split; auto; lia.
    - apply wpp_bind. eapply wpp_mono; [|apply (Hb m s lv Hp)]; [|rewrite F3; cbn; lia|exact Hfu].
      intros fs s' (D & C & N1 & N2 & N3 & N4). cbn [wpp]. split; [exact D|]. unfold nok. cbn.
      split; [apply nodes_ok_fold; exact N1|]. auto.
    - apply wpp_bind. eapply wpp_mono; [|apply (Hb m s lv Hp)]; [|rewrite F3; cbn; lia|exact Hfu].
      intros fs s' (D & C & N1 & N2 & N3 & N4). cbn [wpp]. split; [exact D|]. unfold nok. cbn.
      split; [split; [apply F1|apply nodes_ok_fold; exact N1]|]. auto.
  Qed.
  Lemma unk_body_good zc f : unk_body_ok zc f.
  Proof.
    induction f as [|f IH]; intros m s lv Hp Ho Hfu.
    - destruct Hp as (P1 & P2 & P3). cbn in Hfu. lia.
    - cbn [unk_body].
      eapply wpp_ploop with (Inv := fun (fs : list (N * node)) s' =>
        a_open s' = S lv /\ a_path s' = a_path s /\ a_meas s' <= a_meas s /\ a_coll s <= a_coll s' /\ a_blob s <= a_blob s' /\
        nsok zc (a_path s) fs (a_coll s' - a_coll s) (a_blob s' - a_blob s)).
      2: { repeat (split; [lia || assumption || reflexivity|]). destruct Hp as (P1 & P2 & P3).
           unfold nsok, nodes_count, nodes_bytes. cbn. repeat split; [constructor|lia|lia|destruct zc; cbn; lia]. }
      2: apply Hp.
      intros fs s1 (I1 & I2 & I3 & I4 & I5 & I6). apply wpp_do. cbn [op_wp]. split; [lia|]. split.
      { intros ms Hms. cbn [wpp]. unfold done. cbn. repeat (split; [lia|]). split; [reflexivity|]. exact I6. }
      intros tag v ms Hok Hms. apply wpp_do. cbn [op_wp a_path]. intros Hlt. split; [intros _; exact I|].
      apply wpp_do. cbn [op_wp a_coll a_open a_cur a_rem a_meas a_blob a_path]. intros Hc.
      apply wpp_bind. destruct Hp as (P1 & P2 & P3).
      set (s2 := mkA _ _ _ _ _ _ _).
      assert (Hel : wpp cf (unk_elem zc f v) (fun n s' => done (S lv) s2 s' /\ nok zc (a_path s2) n (a_coll s' - a_coll s2) (a_blob s' - a_blob s2)) s2).
      { apply (unk_elem_of_body zc f IH m s2 tag v (S lv)).
        - unfold pre, s2. cbn. lia.
        - unfold at_field, s2. cbn. rewrite I1. repeat split; auto; apply Hok.
        - unfold s2. cbn. lia. }
      assert (Hpost : forall n s', done (S lv) s2 s' /\ nok zc (a_path s2) n (a_coll s' - a_coll s2) (a_blob s' - a_blob s2) ->
        wpp cf (pdo OPop;> PRet (inl (fs ++ [(tag, n)])))
         (fun (r : list (N * node) + list (N * node)) s' => match r with
          | inl a' => (a_open s' = S lv /\ a_path s' = a_path s /\ a_meas s' <= a_meas s /\ a_coll s <= a_coll s' /\ a_blob s <= a_blob s' /\
              nsok zc (a_path s) a' (a_coll s' - a_coll s) (a_blob s' - a_blob s)) /\ a_meas s' < a_meas s1
          | inr fs => done lv s s' /\ a_cur s' = None /\ nsok zc (a_path s) fs (a_coll s' - a_coll s) (a_blob s' - a_blob s)
          end) s').
      { intros n s' ((D1 & D2 & D3 & D4 & D5) & Hn). unfold s2 in D2, D3, D4, D5, Hn. cbn in D2, D3, D4, D5, Hn.
        apply wpp_do. cbn [op_wp wpp]. cbn. split; [|lia]. repeat (split; [lia|]).
        rewrite I2 in Hn. pose proof (nsok_snoc _ _ _ _ _ _ _ _ _ I6 (proj1 Hok) Hn) as Hs.
        destruct Hs as (S1 & S2 & S3 & S4). unfold nsok. repeat split; auto; lia. }
      destruct v; cbn [unk_elem] in Hel; (eapply wpp_mono; [exact Hpost|exact Hel]).
  Qed.

  Lemma unknown_good m zc f : cf_rec cf < m + N.of_nat f -> good m zc TUnknown (dict_unknown zc f).
  Proof.
    intros Hfu.
    assert (Hb : body_ok n_body m zc TUnknown (fs <- unk_body zc f; PRet (VUnk fs))).
    { intros s lv Hp Ho. apply wpp_bind. destruct Hp as (P1 & P2 & P3).
      eapply wpp_mono; [|apply (unk_body_good zc f m s lv)]; [|unfold pre; auto|exact Ho|lia].
      intros fs s' (D & C & N1 & N2 & N3 & N4). cbn [wpp]. split; [exact D|]. split; [exact C|].
      unfold P_Dict.vok. cbn. split; [now constructor|]. repeat split; auto. }
    split; [|split].
    - intros TP. exists (fun p a ca cb => exists fs, a = AUnk fs /\ nodes_ok fs /\ Forall (fun f => TP (fst f)) fs /\
         Forall (fun f => p + node_need (snd f) <= cf_rec cf) fs /\ nodes_count fs <= ca /\ ubytes zc (nodes_bytes fs) <= cb).
      constructor; cbn [dict_unknown d_init d_field d_fin].
      + intros p. exists []. unfold nodes_count, nodes_bytes. cbn. repeat split; try constructor; try lia. destruct zc; cbn; lia.
      + intros s a ca cb tag v lv Hp (F1 & F2 & F3 & F4) Htp (fs & -> & H1 & H2 & H3 & H4 & H5). cbn [unk_field].
        apply wpp_do. cbn [op_wp]. intros Hc. apply wpp_bind.
        set (s2 := mkA _ _ _ _ _ _ _).
        eapply wpp_mono; [|apply (unk_elem_of_body zc f (unk_body_good zc f) m s2 tag v lv)].
        * intros n s' ((D1 & D2 & D3 & D4 & D5) & N1 & N2 & N3 & N4).
          unfold s2 in *. cbn in D2, D3, D4, D5, N1, N2, N3, N4. cbn [wpp].
          split; [unfold done; repeat split; auto; lia|].
          exists (ca + (1 + node_count n)), (cb + ubytes zc (node_bytes n)). split; [|lia].
          exists (fs ++ [(tag, n)]). unfold nodes_ok, nodes_count, nodes_bytes in *.
          rewrite !map_app, !sumN_app, ubytes_add. cbn [map snd].
          change (sumN [1 + node_count n]) with (1 + node_count n + 0). change (sumN [node_bytes n]) with (node_bytes n + 0).
          rewrite !N.add_0_r. split; [reflexivity|]. split; [apply Forall_app; split; [exact H1|]; constructor; [split; [apply F1|exact N1]|constructor]|].
          split; [apply Forall_app; auto|]. split; [apply Forall_app; auto|]. lia.
        * unfold pre, s2 in *. cbn. lia.
        * unfold at_field, s2. cbn. repeat split; auto; apply F1.
        * unfold s2. cbn. unfold pre in Hp. lia.
      + intros s a ca cb Hp (fs & -> & H1 & H2 & H3 & H4 & H5). cbn [wpp]. split; [reflexivity|]. split.
        * unfold P_Dict.vok. cbn. split; [now constructor|]. split; [|split; [exact H4|exact H5]].
          apply max_le; [apply Hp|]. apply Forall_map'. exact H3.
        * intros _ fs' E. injection E as <-. exact H2.
    - apply to_struct_ok; [exact True|exact Hb|]. intros x Hx. inversion Hx; subst; try bad_str. cbn. lia.
    - exact Hb.
  Qed.
  Lemma unkfield_good m zc f : cf_rec cf < m + N.of_nat f -> good m zc TUnkField (dict_unkfield zc f).
  Proof.
    intros Hfu. apply unary_ok.
    - intros s tag v lv Hp Hf. apply wpp_bind.
      eapply wpp_mono; [|apply (unk_elem_of_body zc f (unk_body_good zc f) m s tag v lv Hp Hf)]; [|unfold pre in Hp; lia].
      intros n s' (D & N1 & N2 & N3 & N4). cbn [wpp]. split; [exact D|]. unfold P_Dict.vok. cbn.
      split; [now constructor|]. auto.
    - split; [reflexivity|]. intros x Hx. inversion Hx; subst; try bad_str. cbn. lia.
  Qed.

  (** Types defined by the user. *)
  Lemma fdicts_good m zc mk fs : Forall (fun f => good m zc (fd_ty f) (mk (fd_ty f))) fs ->
    Forall2 (fun (f : fdict) t => good m zc t (fdict_d f)) (fdicts mk fs) (map fd_ty fs).
  Proof. unfold fdicts. induction 1; cbn; constructor; auto. Qed.
  Lemma fdicts_tags mk fs : map (fun f : fdict => snd (fst f)) (fdicts mk fs) = map fd_tag fs.
  Proof. unfold fdicts. rewrite map_map. apply map_ext. reflexivity. Qed.

  (** The record of a body. *)
  Definition rok (zc : bool) (b : vbody) (p : N) (v : value) (c bb : N) : Prop :=
    exists vs, v = VRec vs /\ Forall2 (has_type e) vs (body_types b) /\ vb_check b vs = true /\ unknown_ok b vs /\
      p + need_vbody b (zipw (fun x t => need e x t) vs (body_types b)) <= cf_rec cf /\
      sumN (map coll_count vs) <= c /\ sumN (zipw (fun x t => copied e x zc t) vs (body_types b)) <= bb.

  Lemma up_app_le l x p r : p + up l <= r -> p + 1 + x <= r -> p + up (l ++ [x]) <= r.
  Proof. apply up_snoc. Qed.

  Lemma vbody_ok m zc mk b : (forall t, In t (body_types b) -> good (m + 1) zc t (mk t)) ->
    forall s lv, pre cf m s -> a_open s = S lv ->
    wpp cf (vbody_body mk b) (fun x s' => done lv s s' /\ a_cur s' = None /\
        rok zc b (a_path s) x (a_coll s' - a_coll s) (a_blob s' - a_blob s)) s.
  Proof.
    intros Hg s lv Hp Ho.
    assert (Hf : Forall2 (fun (f : fdict) t => good (m + 1) zc t (fdict_d f)) (fdicts mk (vb_fields b)) (map fd_ty (vb_fields b))).
    { apply fdicts_good. apply Forall_forall. intros f Hf. apply Hg. unfold body_types. apply in_or_app. left. now apply in_map. }
    destruct (fields_exist _ _ _ _ Hf) as [AIs HA].
    unfold vbody_body. destruct (vb_special b) as [|nm t|nm t] eqn:Esp.
    - apply wpp_bind. eapply wpp_mono; [|apply (des_body_ok cf e m zc _ _ AIs None HA) with (lv := lv); auto; discriminate].
      intros vs s' (D & C & (R1 & R2 & R3 & R4) & _). unfold construct. destruct (vb_check b vs) eqn:Ec; [|exact I].
      cbn [wpp]. split; [exact D|]. split; [exact C|]. cbn [utys] in *. exists vs. split; [reflexivity|].
      unfold body_types. rewrite Esp. cbn [sp_types]. split; [exact R1|]. split; [exact Ec|].
      split; [unfold unknown_ok; rewrite Esp; exact I|]. split; [|auto].
      unfold need_vbody. rewrite Esp, zipw_map. exact R2.
    - apply wpp_do. cbn [op_wp]. intros Hlt. split; [discriminate|]. apply wpp_bind.
      assert (Hgt : good (m + 1) zc t (mk t)). { apply Hg. unfold body_types. rewrite Esp. apply in_or_app. right. left. reflexivity. }
      destruct Hgt as (_ & _ & Hb). destruct Hp as (P1 & P2 & P3).
      eapply wpp_mono; [|eapply (Hb _ lv)]; [|unfold pre; cbn; lia|exact Ho].
      intros dv s1 ((D1 & D2 & D3 & D4 & D5) & C & (V1 & V2 & V3 & V4)). cbn in D1, D2, D3, D4, D5, V2, V3, V4.
      apply wpp_do. cbn [op_wp]. apply wpp_bind. set (s2 := mkA _ _ _ _ _ _ _).
      eapply wpp_mono; [|eapply (finish_all_ok cf e m zc _ _ AIs HA _ 0 0)].
      + intros vs s3 (-> & R1 & R2 & R3 & R4). unfold construct. destruct (vb_check b (vs ++ [dv])) eqn:Ec; [|exact I].
        unfold s2 in *. cbn in R2. rewrite D2 in R2. replace (a_path s + 1 - 1) with (a_path s) in R2 by lia.
        cbn [wpp]. split; [unfold done; cbn; repeat split; auto; lia|]. split; [exact C|]. cbn.
        assert (Hlen : List.length vs = List.length (map fd_ty (vb_fields b))) by (eapply Forall2_len; eauto).
        exists (vs ++ [dv]). split; [reflexivity|]. unfold body_types. rewrite Esp. cbn [sp_types].
        split; [apply Forall2_app; auto|]. split; [exact Ec|]. split; [unfold unknown_ok; rewrite Esp; exact I|].
        rewrite !zipw_app by exact Hlen. cbn [zipw].
        split; [|split].
        * unfold need_vbody. rewrite Esp.
          assert (Hl2 : List.length (zipw (fun x t => need e x t) vs (map fd_ty (vb_fields b))) = List.length (vb_fields b)).
          { rewrite map_length in Hlen. rewrite <- Hlen. clear - R1. revert R1. generalize (map fd_ty (vb_fields b)). intros ts H.
            induction H; cbn; congruence. }
          rewrite firstn_app, skipn_app, Hl2, Nat.sub_diag, <- Hl2, firstn_all, skipn_all. cbn [firstn skipn]. rewrite app_nil_r. cbn [app map].
          rewrite zipw_map. apply up_snoc; [exact R2|]. lia.
        * rewrite map_app, sumN_app. cbn. rewrite N.add_0_r.
          assert (sumN (map coll_count vs) = 0) by lia. lia.
        * rewrite sumN_app. cbn. lia.
      + unfold pre, s2. cbn. lia.
      + eapply inits_ok. exact HA.
    - apply wpp_bind.
      assert (Hgt : good (m + 1) zc t (mk t)). { apply Hg. unfold body_types. rewrite Esp. apply in_or_app. right. left. reflexivity. }
      eapply wpp_mono; [|apply (des_body_ok cf e m zc _ _ AIs (Some (nm, mk t, t)) HA) with (lv := lv); auto].
      2: { intros nm' d' t' E. injection E as <- <- <-. exact Hgt. }
      intros vs s' (D & C & (R1 & R2 & R3 & R4) & U). unfold construct. destruct (vb_check b vs) eqn:Ec; [|exact I].
      cbn [wpp]. split; [exact D|]. split; [exact C|]. cbn [utys unk_post] in *. rewrite fdicts_tags in U. exists vs. split; [reflexivity|].
      unfold body_types. rewrite Esp. cbn [sp_types]. split; [exact R1|]. split; [exact Ec|].
      split; [unfold unknown_ok; rewrite Esp; exact U|]. split; [|auto].
      unfold need_vbody. rewrite Esp, zipw_map. exact R2.
  Qed.

  Lemma item_struct_ok m zc mk i b : e i = IStruct b -> (forall nm t, vb_special b = SpDeleg nm t -> vb_fields b = []) ->
    (forall t, In t (body_types b) -> good (m + 1) zc t (mk t)) ->
    good m zc (TItem i) (dict_item_struct mk b).
  Proof.
    intros Ei Hdel Hg. pose proof (vbody_ok m zc mk b Hg) as Hb.
    assert (Hinv : forall x, has_type e x (TItem i) -> exists vs, x = VRec vs /\ Forall2 (has_type e) vs (body_types b)).
    { intros x Hx. inversion Hx; subst; try bad_str; try congruence.
      match goal with H : e i = IStruct _ |- _ => rewrite Ei in H; injection H as <- end. eauto. }
    assert (Hbody : body_ok n_body m zc (TItem i) (vbody_body mk b)).
    { intros s lv Hp Ho. eapply wpp_mono; [|apply (Hb s lv Hp Ho)].
      intros x s' (D & C & vs & -> & R1 & R2 & R3 & R4 & R5 & R6). split; [exact D|]. split; [exact C|].
      unfold P_Dict.vok. split; [econstructor; eauto|]. cbn [coll_count]. cbn [need copied]. rewrite Ei.
      split; [|auto]. destruct (vb_special b); cbn [n_body need_struct]; exact R4. }
    unfold dict_item_struct. apply struct_dict_ok; [|exact Hbody|reflexivity|].
    - intros s tag v lv Hp Hf. unfold struct_elem. destruct (vb_special b) as [|nm t|nm t] eqn:Esp.
      + refine (to_struct_ok m zc (TItem i) (vbody_body mk b) True Hbody _ s tag v lv Hp Hf).
        intros x Hx. destruct (Hinv x Hx) as (vs & -> & HF). cbn [need]. rewrite Ei, Esp. cbn. lia.
      + pose proof Hf as (F1 & F2 & F3 & F4). specialize (Hdel _ _ eq_refl).
        apply wpp_do. cbn [op_wp]. intros Hlt. split; [intros _; unfold in_hand; rewrite F2; exact I|]. apply wpp_bind.
        assert (Hgt : good (m + 1) zc t (mk t)). { apply Hg. unfold body_types. rewrite Esp. apply in_or_app. right. left. reflexivity. }
        destruct Hgt as (_ & He & _). destruct Hp as (P1 & P2 & P3).
        eapply wpp_mono; [|eapply (He _ tag v lv)]; [|unfold pre; cbn; lia|unfold at_field; cbn; repeat split; auto; apply F1].
        intros dv s1 ((D1 & D2 & D3 & D4 & D5) & (V1 & V2 & V3 & V4)). cbn in D1, D2, D3, D4, D5, V2, V3, V4.
        apply wpp_do. cbn [op_wp]. unfold construct. destruct (vb_check b [dv]) eqn:Ec; [|exact I].
        cbn [wpp]. split; [unfold done; cbn; repeat split; auto; lia|]. unfold P_Dict.vok.
        assert (Hbt : body_types b = [t]) by (unfold body_types; rewrite Hdel, Esp; reflexivity).
        split; [econstructor; eauto; [rewrite Hbt; auto|unfold unknown_ok; rewrite Esp; exact I]|].
        cbn [coll_count]. cbn [need copied]. rewrite Ei, Hbt, Esp. cbn. repeat split; lia.
      + refine (to_struct_ok m zc (TItem i) (vbody_body mk b) True Hbody _ s tag v lv Hp Hf).
        intros x Hx. destruct (Hinv x Hx) as (vs & -> & HF). cbn [need]. rewrite Ei, Esp. cbn. lia.
    - intros x Hx. destruct (Hinv x Hx) as (vs & -> & HF). cbn [need]. rewrite Ei. destruct (vb_special b); cbn; lia.
  Qed.

  Lemma find_variant_some d vars ix b : find_variant d vars = Some (ix, b) -> nth_error vars ix = Some (d, b).
  Proof.
    revert ix; induction vars as [|[d' b'] r IH]; intros ix; cbn; [discriminate|].
    destruct (N.eqb_spec d d') as [->|].
    - intros H. injection H as <- <-. reflexivity.
    - destruct (find_variant d r) as [[j x]|]; [|discriminate]. intros H. injection H as <- <-. cbn. now apply IH.
  Qed.
  Lemma find_variant_none d vars : find_variant d vars = None -> ~ In d (map fst vars).
  Proof.
    induction vars as [|[d' b'] r IH]; cbn; [auto|]. destruct (N.eqb_spec d d'); [discriminate|].
    destruct (find_variant d r) as [[]|]; [discriminate|]. intros _ [|]; [congruence|]. now apply IH.
  Qed.

  Lemma item_enum_ok m zc mk i vars catch : e i = IEnum vars catch ->
    (forall t, In t (item_types (e i)) -> good (m + 1) zc t (mk t)) ->
    good m zc (TItem i) (dict_item_enum mk vars catch).
  Proof.
    intros Ei Hg. rewrite Ei in Hg. cbn [item_types] in Hg.
    assert (Hn : forall x, has_type e x (TItem i) -> exists n, need e x (TItem i) = need_single n).
    { intros x Hx. inversion Hx; subst; try bad_str; try congruence; cbn [need].
      - match goal with H : e i = IEnum _ _ |- _ => rewrite H end.
        match goal with H : nth_error _ _ = Some _ |- _ => rewrite H end. destruct catch0; eexists; reflexivity.
      - match goal with H : e i = IEnum _ _ |- _ => rewrite H end. eexists; reflexivity. }
    assert (He : conv_ok n_elem m zc (TItem i) (enum_elem mk vars catch)).
    { intros s tag v lv Hp Hf. pose proof Hf as (F1 & F2 & F3 & F4). unfold enum_elem. apply wpp_plift.
      destruct v as [| | |d]; try exact I. cbn [to_enum].
      destruct (find_variant d vars) as [[ix b]|] eqn:Ev.
      - apply find_variant_some in Ev. apply wpp_bind.
        eapply wpp_mono; [|apply (vbody_ok m zc mk b) with (lv := lv); auto].
        + intros x s' (D & C & vs & -> & R1 & R2 & R3 & R4 & R5 & R6). cbn [wpp]. split; [exact D|].
          unfold P_Dict.vok. split; [econstructor; eauto|]. cbn [coll_count]. cbn [need copied]. rewrite Ei, Ev. destruct catch; cbn; auto.
        + intros t Ht. apply Hg. apply in_or_app. left. apply in_flat_map. exists (d, b). split; [|exact Ht].
          eapply nth_error_In; eauto.
        + rewrite F3. cbn. lia.
      - destruct catch as [b|]; [|exact I]. apply wpp_bind.
        eapply wpp_mono; [|apply (vbody_ok m zc mk b) with (lv := lv); auto].
        + intros x s' (D & C & vs & -> & R1 & R2 & R3 & R4 & R5 & R6). cbn [wpp]. split; [exact D|].
          unfold P_Dict.vok. split; [econstructor; eauto; [apply F1|now apply find_variant_none]|].
          cbn [coll_count]. cbn [need copied]. rewrite Ei. cbn. auto.
        + intros t Ht. apply Hg. apply in_or_app. right. exact Ht.
        + rewrite F3. cbn. lia. }
    assert (Hd : forall TP, dict_ok TP (AOne zc (TItem i)) m zc (TItem i) (dict_struct (KTooFew 1) ill (enum_elem mk vars catch))).
    { intros TP. constructor; cbn [dict_struct d_init d_field d_fin].
      + intros p. exact I.
      + apply opt_field_ok, He.
      + apply opt_fin_ok. split; [reflexivity|]. intros x Hx. destruct (Hn x Hx) as [n ->]. cbn. lia. }
    unfold dict_item_enum. eapply with_default_ok; [intros TP; eexists; apply Hd|apply (Hd anytag)|exact He|].
    intros x Hx. destruct (Hn x Hx) as [n ->]. cbn. lia.
  Qed.

  (** Boxes. *)
  Lemma box_good m zc t d : good m zc t d -> good m zc (TBox t) d.
  Proof.
    assert (Hv : forall nf p v c b, vok zc t nf p v c b -> vok zc (TBox t) nf p v c b).
    { intros nf p v c b (V1 & V2 & V3 & V4). unfold P_Dict.vok. rewrite need_box, copied_box. repeat split; auto. now constructor. }
    intros (Hd & He & Hb). split; [|split].
    - intros TP. destruct (Hd TP) as [AI [H1 H2 H3]]. exists AI. constructor; auto.
      intros s a ca cb Hp Ha. eapply wpp_mono; [|eapply H3; eauto]. intros x s' (-> & V & U). split; [reflexivity|]. split; [now apply Hv|exact U].
    - intros s tag v lv Hp Hf. eapply wpp_mono; [|eapply He; eauto]. intros x s' (D & V). split; [exact D|now apply Hv].
    - intros s lv Hp Ho. eapply wpp_mono; [|eapply Hb; eauto]. intros x s' (D & C & V). split; [exact D|]. split; [exact C|now apply Hv].
  Qed.
  Lemma copied_good m zc t d : good m false t d -> good m zc (TCopied t) d.
  Proof.
    assert (Hv : forall nf p v c b, vok false t nf p v c b -> vok zc (TCopied t) nf p v c b).
    { intros nf p v c b (V1 & V2 & V3 & V4). unfold P_Dict.vok. rewrite need_copied, copied_copied. repeat split; auto. now constructor. }
    intros (Hd & He & Hb). split; [|split].
    - intros TP. destruct (Hd TP) as [AI [H1 H2 H3]]. exists AI. constructor; auto.
      intros s a ca cb Hp Ha. eapply wpp_mono; [|eapply H3; eauto]. intros x s' (-> & V & U). split; [reflexivity|]. split; [now apply Hv|exact U].
    - intros s tag v lv Hp Hf. eapply wpp_mono; [|eapply He; eauto]. intros x s' (D & V). split; [exact D|now apply Hv].
    - intros s lv Hp Ho. eapply wpp_mono; [|eapply Hb; eauto]. intros x s' (D & C & V). split; [exact D|]. split; [exact C|now apply Hv].
  Qed.

  (** ** All types *)
  Section TyInd.
    Variable P : ty -> Prop.
    Hypothesis Hleaf : forall t, match t with
      | TVec _ | TSeq _ | TSet _ | TOption _ | TArray _ _ | TMap _ _ | TTuple _ | TBox _ | TCopied _ => True | _ => P t end.
    Hypothesis H1 : forall t, P t -> P (TVec t) /\ P (TSeq t) /\ P (TSet t) /\ P (TOption t) /\ P (TBox t) /\ P (TCopied t).
    Hypothesis H2 : forall n t, P t -> P (TArray n t).
    Hypothesis H3 : forall k v, P k -> P v -> P (TMap k v).
    Hypothesis H4 : forall ts, Forall P ts -> P (TTuple ts).
    Fixpoint ty_ind' (t : ty) : P t :=
      match t with
      | TVec t' => proj1 (H1 t' (ty_ind' t'))
      | TSeq t' => proj1 (proj2 (H1 t' (ty_ind' t')))
      | TSet t' => proj1 (proj2 (proj2 (H1 t' (ty_ind' t'))))
      | TOption t' => proj1 (proj2 (proj2 (proj2 (H1 t' (ty_ind' t')))))
      | TBox t' => proj1 (proj2 (proj2 (proj2 (proj2 (H1 t' (ty_ind' t'))))))
      | TCopied t' => proj2 (proj2 (proj2 (proj2 (proj2 (H1 t' (ty_ind' t'))))))
      | TArray n t' => H2 n t' (ty_ind' t')
      | TMap k v => H3 k v (ty_ind' k) (ty_ind' v)
      | TTuple ts => H4 ts ((fix go ts := match ts return Forall P ts with
                             | [] => Forall_nil _ | x :: r => Forall_cons x (ty_ind' x) (go r) end) ts)
      | TUInt w => Hleaf (TUInt w) | TSInt w => Hleaf (TSInt w) | TBool => Hleaf TBool | TChar => Hleaf TChar
      | TPhantom => Hleaf TPhantom | TString => Hleaf TString | TStrRef => Hleaf TStrRef | TBytesRef => Hleaf TBytesRef
      | TCowStr => Hleaf TCowStr | TCowBytes => Hleaf TCowBytes | TUnknown => Hleaf TUnknown | TUnkField => Hleaf TUnkField
      | TItem i => Hleaf (TItem i)
      end.
  End TyInd.

  Lemma dict_of_good m uf item_d : cf_rec cf < m + N.of_nat uf ->
    (forall zc i, deserialisable e zc (TItem i) -> good m zc (TItem i) (item_d zc i)) ->
    forall t zc, deserialisable e zc t -> good m zc t (dict_of uf item_d zc t).
  Proof.
    intros Huf Hi. apply (ty_ind' (fun t => forall zc, deserialisable e zc t -> good m zc t (dict_of uf item_d zc t))).
    - intros t. destruct t; try exact I; intros zc Hd; cbn [dict_of].
      + apply uint_ok. + apply sint_ok. + apply bool_ok. + apply char_good. + apply phantom_ok.
      + apply string_ok; [unfold is_str; tauto|reflexivity].
      + destruct zc; [apply str_ref_ok; tauto|exfalso; apply Hd; constructor].
      + destruct zc; [apply bytes_ref_ok; tauto|exfalso; apply Hd; constructor].
      + destruct zc; [apply str_ref_ok; tauto|apply string_ok; [unfold is_str; tauto|reflexivity]].
      + destruct zc; [apply bytes_ref_ok; tauto|apply vecu8_ok; [unfold is_bytes; tauto|discriminate|reflexivity]].
      + now apply unknown_good.
      + now apply unkfield_good.
      + now apply Hi.
    - intros t IH. split; [|split; [|split; [|split; [|split]]]]; intros zc Hd; cbn [dict_of].
      + destruct (is_u8 t) eqn:Eu; [apply vecu8_ok; [unfold is_bytes; eauto|discriminate|discriminate]|].
        apply (coll_ok m zc _ t push_back (fun _ => True)); auto; try reflexivity.
        * apply IH. intros Hn. apply Hd. now constructor.
        * intros u us _. split; [exact I|]. left. apply Permutation_cons_append.
        * intros vs _ Hf. now constructor.
        * intros x Hx. inversion Hx; subst; try bad_str; eauto.
          match goal with H : is_bytes _ |- _ => destruct H as [|[|(t' & E & Hu)]]; try discriminate; injection E as <-; congruence end.
      + apply (coll_ok m zc _ t push_back (fun _ => True)); auto; try reflexivity.
        * apply IH. intros Hn. apply Hd. now constructor.
        * intros u us _. split; [exact I|]. left. apply Permutation_cons_append.
        * intros vs _ Hf. now constructor.
        * intros x Hx. inversion Hx; subst; try bad_str; eauto.
      + apply (coll_ok m zc _ t set_insert ascending); auto; try reflexivity.
        * apply IH. intros Hn. apply Hd. now constructor.
        * constructor.
        * intros v vs Ha. split; [now apply insert_asc|]. destruct (insert_perm v vs Ha) as [[_ E]|[_ E]]; auto.
        * intros vs Hnd Hf. now constructor.
        * intros x Hx. inversion Hx; subst; try bad_str; eauto.
      + apply option_ok, IH. intros Hn. apply Hd. now constructor.
      + apply box_good, IH. intros Hn. apply Hd. now constructor.
      + apply copied_good, IH. intros Hn. apply Hd. now constructor.
    - intros n t IH zc Hd. cbn [dict_of]. destruct (is_u8 t) eqn:Eu; [now apply arru8_ok|].
      apply arr_ok; [exact Eu|]. apply IH. intros Hn. apply Hd. now constructor.
    - intros k v IHk IHv zc Hd. cbn [dict_of]. apply map_good.
      + apply IHk. intros Hn. apply Hd. now constructor.
      + apply IHv. intros Hn. apply Hd. now apply NiVal.
    - intros ts IH zc Hd. cbn [dict_of]. apply tuple_ok.
      assert (Hall : forall t, In t ts -> deserialisable e zc t).
      { intros t Ht Hn. apply Hd. econstructor; eauto. }
      clear Hd. induction IH as [|t ts Ht Hts IHl]; cbn [map]; constructor.
      + apply Ht, Hall. now left.
      + apply IHl. intros t' Ht'. apply Hall. now right.
  Qed.

  Lemma item_dict_good uf : env_ok e -> forall f m, cf_rec cf < m + N.of_nat uf -> cf_rec cf < m + N.of_nat f ->
    forall zc i, deserialisable e zc (TItem i) -> good m zc (TItem i) (item_dict e uf f zc i).
  Proof.
    intros He. induction f as [|f IH]; intros m Huf Hf zc i Hd.
    - cbn in Hf. assert (Hno : forall s, ~ pre cf m s) by (intros s (P1 & P2 & _); lia). split; [|split].
      + intros TP. exists (fun _ _ _ _ => True).
        constructor; [intros; exact I| |]; intros; exfalso; eapply Hno; eauto.
      + intros s tag v lv Hp. exfalso; eapply Hno; eauto.
      + intros s lv Hp. exfalso; eapply Hno; eauto.
    - assert (Hmk : forall t, In t (item_types (e i)) -> good (m + 1) zc t (dict_of uf (item_dict e uf f) zc t)).
      { intros t Ht. apply dict_of_good; [lia| |].
        - apply IH; lia.
        - intros Hn. apply Hd. econstructor; eauto. }
      cbn [item_dict]. destruct (e i) as [b|vars catch] eqn:Ei.
      + apply item_struct_ok; [exact Ei|apply (He i b Ei)|exact Hmk].
      + apply item_enum_ok; [exact Ei|rewrite Ei; exact Hmk].
  Qed.

  Lemma full_dict_good zc t : env_ok e -> deserialisable e zc t ->
    good 0 zc t (full_dict e (S (N.to_nat (cf_rec cf))) zc t).
  Proof.
    intros He Hd. unfold full_dict. apply dict_of_good; [lia| |exact Hd].
    intros zc' i. apply item_dict_good; [exact He|lia|lia].
  Qed.
End D.
