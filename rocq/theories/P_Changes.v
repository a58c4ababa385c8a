(** * P_Changes: compatible changes of types (SpecCompat.v) *)

From Verif Require Import Base Wire Dev Stream Types Prog SpecWire SpecFormat SpecWrite SpecDe SpecDoc SpecRead SpecCompat
  P_Base P_Types P_RT P_Means P_Meaning P_Order P_Card P_Compat P_CompatTy.

Definition boxed (t : ty) : bool := match t with TBox _ | TCopied _ => true | _ => false end.
Ltac not_str := repeat match goal with
  | H : is_str _ |- _ => exfalso; destruct H as [H|[H|H]]; discriminate H
  | H : is_bytes _ |- _ => exfalso; destruct H as [H|[H|(? & H & ?)]]; first [discriminate H|injection H as ->; congruence] end.

  Lemma pair_elem en ign eo v t t' w : elem en ign eo v t t' w -> forall ka kb, t' = TTuple [ka; kb] -> exists x y, w = VRec [x; y].
  Proof.
    induction 1 as [| | | | |? ? ? ? ? ? ? Hb|? ? ? ? ? ? Hi Hs Hin| | | | | | | | | |]; intros ka kb E; subst; try discriminate; eauto.
    - inversion Hb as [? ? Ht|? ? Ht|]; subst; not_str.
    - inversion Hin as [? ? ? ? Hp|? ? ? ws Hr| | | |]; subst; [discriminate Hp|]. inversion Hr as [|? ? ? ? ? ? ? ? ? ? Hr2]; subst. inversion Hr2 as [|? ? ? ? ? ? ? ? ? ? Hr3]; subst. inversion Hr3; subst. eauto.
  Qed.
  Lemma pairs_elems en ign eo its ts ws : elems en ign eo its ts ws -> forall a b, ts = TTuple [a; b] -> exists kvs : list (value * value), ws = map (fun p => VRec [fst p; snd p]) kvs.
  Proof.
    induction 1 as [|? ? ? ? ? ? ? He Hes IH]; intros a b E; [now exists []|]. destruct (pair_elem _ _ _ _ _ _ _ He a b E) as (x & y & ->). destruct (IH a b E) as (kvs & ->).
    now exists ((x, y) :: kvs).
  Qed.
  Lemma elems_len en ign eo its t ws : elems en ign eo its t ws -> lenN ws = lenN its.
  Proof. induction 1; [reflexivity|]. rewrite !lenN_cons. lia. Qed.

Lemma variant_some d vars : forall ix b, variant d vars = Some (ix, b) -> In (d, b) vars.
Proof.
  induction vars as [|[d' b'] vars IH]; intros ix b H; [discriminate H|]. cbn [variant] in H. destruct (N.eqb_spec d d') as [->|E]; [injection H as <- <-; now left|].
  destruct (variant d vars) as [[ix' b2]|]; [|discriminate H]. injection H as <- <-. right. now apply (IH ix').
Qed.

Section Total.
  Variables (eo en : env) (ign : bool) (J : nat -> nat -> Prop).
  Hypothesis Hwo : env_wf eo.
  Hypothesis Hwn : env_wf en.
  Hypothesis Hc : compatible eo en ign J.
  Notation Elem := (elem en ign eo).
  Notation Elems := (elems en ign eo).
  Notation Ext := (ext ign J).
  Notation Fext := (fext ign J).
  Notation Top := (top eo en ign J).

  Definition in_card (n : N) (c : N * option N) : Prop := fst c <= n /\ match snd c with Some m => n <= m | None => True end.
  Lemma in_within n c c' : in_card n c -> within c c' -> in_card n c'.
  Proof.
    intros [H1 H2] [H3 H4]. unfold in_card. split; [lia|]. destruct (snd c) as [m|], (snd c') as [m'|]; try exact I; [lia|contradiction].
  Qed.

  Lemma gather_total t : unknown_like t = false -> forall its us, Elems its (each t) us -> in_card (lenN its) (card_of t) -> exists w, gather t us w.
  Proof.
    assert (Hone : forall t its us, Elems its (each t) us -> each t = t -> t <> TUnknown -> in_card (lenN its) (1, Some 1) -> exists w, gather t us w).
    { intros u its us He Hu Hn [H1 H2]. cbn [fst snd] in *. rewrite <- (elems_len _ _ _ _ _ _ He) in *. destruct us as [|w [|]]; rewrite ?lenN_cons in *.
      - change (lenN (@nil value)) with 0 in H1. lia. - exists w. now constructor. - lia. }
    induction t; intros Hu its us He Hin; try discriminate Hu; cbn [card_of] in Hin;
      try (apply (Hone _ its us He); [reflexivity|discriminate|exact Hin]).
    - destruct (is_u8 t) eqn:E; [apply (Hone _ its us He); [cbn [each]; now rewrite E|discriminate|exact Hin]|]. eexists. now apply GaVec.
    - eexists. apply GaSeq.
    - eexists. apply GaSet.
    - destruct Hin as [_ Hin]. cbn [snd] in Hin. rewrite <- (elems_len _ _ _ _ _ _ He) in Hin. destruct us as [|w [|]]; rewrite ?lenN_cons in Hin; [eexists; apply GaNone|eexists; apply GaSome|lia].
    - destruct (is_u8 t) eqn:E.
      + destruct Hin as [H1 H2]. cbn [fst snd] in *. rewrite <- (elems_len _ _ _ _ _ _ He) in *. destruct us as [|w [|]]; rewrite ?lenN_cons in *.
        * change (lenN (@nil value)) with 0 in H1. destruct (N.eqb_spec n 0) as [->|]; [|lia]. eexists. now apply GaBytes0.
        * exists w. apply GaOne; [cbn [each]; now rewrite E|discriminate].
        * lia.
      + destruct Hin as [H1 H2]. cbn [fst snd] in *. eexists. apply GaArray; [exact E|]. rewrite (elems_len _ _ _ _ _ _ He). lia.
    - destruct (pairs_elems _ _ _ _ _ _ He t1 t2 eq_refl) as (kvs & ->). eexists. apply GaMap.
    - cbn [each unknown_like] in *. destruct (IHt Hu its us He Hin) as (w & Hw). exists w. now constructor.
    - cbn [each unknown_like] in *. destruct (IHt Hu its us He Hin) as (w & Hw). exists w. now constructor.
  Qed.

  Definition reads_elem (v : value) (t : ty) : Prop := forall t', Ext t t' -> exists w, Elem v t t' w.
  Definition reads_items (v : value) (t : ty) : Prop := (unknown_like t = false -> in_card (lenN (items v t)) (card_of t)) /\
    forall t', Ext (each t) t' -> exists us, Elems (items v t) t' us.
  Definition reads_top (v : value) (t : ty) : Prop := forall t', Top t t' -> exists l w, whole eo v t l /\ into en ign eo l t' w.
  Definition good (v : value) (t : ty) : Prop := shape_wf t -> reads_elem v t /\ reads_items v t /\ reads_top v t.

  Lemma field_total v t t' : reads_items v t -> Fext t t' -> exists us w, Elems (items v t) (each t') us /\ gather t' us w.
  Proof.
    intros [Hi Hr] Hf. inversion Hf as [? ? Hu Hu' Hw Hx]; subst. destruct (Hr _ Hx) as (us & Hus). exists us.
    destruct (gather_total t' Hu' (items v t) us Hus) as (w & Hg); [|eauto]. exact (in_within _ _ _ (Hi Hu) Hw).
  Qed.

  (** *** Boxes of the new program *)
  Lemma strip_elem v t : boxed t = false -> (forall t', boxed t' = false -> Ext t t' -> exists w, Elem v t t' w) -> reads_elem v t.
  Proof.
    intros Hb H t'. induction t'; intros Hx; try (apply H; [reflexivity|exact Hx]).
    - inversion Hx as [| | | | | | | |? ? Hc1 Hc2| | | |? ? Hx'| | | |]; subst; try discriminate; not_str.
      + match goal with X : is_str _ \/ is_bytes _ |- _ => destruct X as [X|X]; not_str end.
      + match goal with X : is_bytes _ \/ _ |- _ => destruct X as [X|(? & X & _)]; [not_str|discriminate X] end.
      + destruct (IHt' Hx') as (w & Hw). exists w. now apply ElBoxNew.
    - inversion Hx as [| | | | | | | |? ? Hc1 Hc2| | | | | |? ? Hx'| |]; subst; try discriminate; not_str.
      + match goal with X : is_str _ \/ is_bytes _ |- _ => destruct X as [X|X]; not_str end.
      + match goal with X : is_bytes _ \/ _ |- _ => destruct X as [X|(? & X & _)]; [not_str|discriminate X] end.
      + destruct (IHt' Hx') as (w & Hw). exists w. now apply ElCopiedNew.
  Qed.
  Lemma strip_top v t : boxed t = false -> (forall t', boxed t' = false -> Top t t' -> exists l w, whole eo v t l /\ into en ign eo l t' w) -> reads_top v t.
  Proof.
    intros Hb H t'. induction t'; intros Hx; try (apply H; [reflexivity|exact Hx]).
    - inversion Hx as [? ? Hp Hp'| | | | |? ? Hx'| | |]; subst; try discriminate. destruct (IHt' Hx') as (l & w & H1 & H2). exists l, w. split; [exact H1|now apply ToBox].
    - inversion Hx as [? ? Hp Hp'| | | | | | |? ? Hx'|]; subst; try discriminate. destruct (IHt' Hx') as (l & w & H1 & H2). exists l, w. split; [exact H1|now apply ToCopied].
  Qed.

  Lemma plain_field v t t' : reads_items v t -> Fext t t' -> plain en t' = true -> exists w, into en ign eo [(1, (v, t))] t' w.
  Proof.
    intros Hr Hf Hp. destruct (field_total v t t' Hr Hf) as (us & w & Hus & Hg). exists w. apply ToPlain; [exact Hp| |].
    - apply (ReCons en ign eo _ 1 t' [] us w []); [|exact Hg|constructor]. unfold occs. cbn [flat_map fst snd]. rewrite N.eqb_refl, app_nil_r. exact Hus.
    - right. apply undeclared_all. intros tag n H. apply nodes_tags in H. exact H.
  Qed.
  Lemma plain_total v t : plain eo t = true -> reads_items v t -> reads_top v t.
  Proof.
    intros Hp Hr. apply strip_top; [destruct t; try discriminate Hp; reflexivity|]. intros t' Hb' Ht.
    assert (Hx : plain en t' = true /\ Fext t t').
    { inversion Ht; subst; try discriminate; auto; cbn [boxed] in *; try discriminate. cbn [plain] in Hp. match goal with E : eo _ = IStruct _ |- _ => rewrite E in Hp; discriminate end. }
    destruct Hx as [Hp' Hf]. destruct (plain_field v t t' Hr Hf Hp') as (w & Hw). exists [(1, (v, t))], w. split; [now constructor|exact Hw].
  Qed.
  Lemma single_items v t : many v t = None -> each t = t -> (unknown_like t = false -> in_card 1 (card_of t)) -> reads_elem v t -> reads_items v t.
  Proof.
    intros Hm He Hcd Hr. unfold reads_items, items. rewrite Hm, He. split; [exact Hcd|]. intros t' Hx. destruct (Hr t' Hx) as (w & Hw). exists [w]. repeat constructor. exact Hw.
  Qed.
  Lemma single_total v t : plain eo t = true -> many v t = None -> each t = t -> (unknown_like t = false -> in_card 1 (card_of t)) -> reads_elem v t ->
    reads_elem v t /\ reads_items v t /\ reads_top v t.
  Proof.
    intros Hp Hm He Hcd Hr. assert (Hi := single_items v t Hm He Hcd Hr). split; [exact Hr|]. split; [exact Hi|now apply plain_total].
  Qed.
  Lemma many_total v t l : collection t = true -> many v t = Some l -> in_card (lenN l) (card_of t) ->
    (forall t', Ext (each t) t' -> exists us, Elems l t' us) -> reads_elem v t /\ reads_items v t /\ reads_top v t.
  Proof.
    intros Hct Hm Hcd Hr. assert (Hp : plain eo t = true) by (destruct t; try discriminate Hct; reflexivity).
    assert (Hi : reads_items v t). { unfold reads_items, items. rewrite Hm. auto. }
    split; [|split; [exact Hi|now apply plain_total]]. apply strip_elem; [destruct t; try discriminate Hct; reflexivity|]. intros t' Hb' Hx.
    assert (Hx' : t' = TUnkField \/ (collection t' = true /\ Fext t t')).
    { inversion Hx; subst; try discriminate Hct; try discriminate Hb'; auto; exfalso.
      - match goal with X : is_str t |- _ => destruct X as [X|[X|X]]; subst; discriminate Hct end.
      - match goal with X : is_bytes t |- _ => destruct X as [X|[X|(u & X & Hu)]]; subst; try discriminate Hct end. cbn [collection] in Hct. rewrite Hu in Hct. discriminate Hct.
      - cbn [collection] in Hct. match goal with X : is_u8 _ = true |- _ => rewrite X in Hct; discriminate Hct end. }
    destruct Hx' as [->|[Hct' Hf]]; [eexists; apply ElKeep|].
    assert (Hp' : plain en t' = true) by (destruct t'; try discriminate Hct'; reflexivity).
    destruct (plain_field v t t' Hi Hf Hp') as (w & Hw). exists w. apply (ElStruct en ign eo v t [(1, (v, t))]); [constructor; now rewrite Hm| |exact Hw].
    unfold as_struct. destruct t'; try discriminate Hct'; exact Hct'.
  Qed.

  (** *** Fields *)
  Lemma record_total l ds ds' : fields_ext ign J ds ds' -> (forall tag t, In (tag, t) ds -> exists v, In (tag, (v, t)) l /\ reads_items v t) ->
    NoDup (map fst l) -> map fst l = map fst ds -> forall l2, (forall tag, In tag (map fst ds') -> ~ In tag (map fst l2)) ->
    exists ws, record en ign eo (l ++ l2) ds' ws.
  Proof.
    intros Hf Hl Hnd Ht. induction Hf as [ds|ds tag t t' ds' Hi Hx Hf IH|ds tag t' ds' Hni Hc0 Hu Hf IH]; intros l2 H2.
    - exists []. constructor.
    - destruct (IH Hl Ht l2) as (ws & Hws); [intros tg Hg; apply H2; now right|]. destruct (Hl tag t Hi) as (v & Hv & Hr).
      destruct (field_total v t t' Hr Hx) as (us & w & Hus & Hg). exists (w :: ws). apply (ReCons en ign eo _ tag t' ds' us w ws); auto.
      rewrite occs_app, (occs_one l tag v t Hnd Hv), (occs_none tag l2), app_nil_r; [exact Hus|]. apply H2. now left.
    - destruct (IH Hl Ht l2) as (ws & Hws); [intros tg Hg; apply H2; now right|].
      destruct (gather_total t' Hu [] []) as (w & Hg); [constructor|rewrite <- (N.le_0_r _) in Hc0|].
      + split; [exact Hc0|]. change (lenN (@nil (value * ty))) with 0. destruct (snd (card_of t')); [lia|exact I].
      + exists (w :: ws). apply (ReCons en ign eo _ tag t' ds' [] w ws); auto. rewrite occs_app, !occs_none; [constructor| |].
        * apply H2. now left.
        * now rewrite Ht.
  Qed.
  Lemma items_of vs ts : Forall2 good vs ts -> Forall shape_wf ts -> Forall2 reads_items vs ts.
  Proof. induction 1 as [|v t vs ts Hg HF IH]; intros Hs; inversion Hs; subst; constructor; auto. now apply Hg. Qed.
  Lemma numbered_there ts : forall vs i, Forall2 reads_items vs ts -> forall tag t, In (tag, t) (count_from i ts) ->
    exists v, In (tag, (v, t)) (numbered i vs ts) /\ reads_items v t.
  Proof.
    induction ts as [|u ts IH]; intros vs i HF tag t Hi; [destruct Hi|]. inversion HF as [|v ? vs' ? Hr HF2]; subst. destruct Hi as [Hi|Hi].
    - injection Hi as <- <-. exists v. split; [now left|exact Hr].
    - destruct (IH vs' (i + 1) HF2 tag t Hi) as (w & Hw & Hr2). exists w. split; [now right|exact Hr2].
  Qed.
  Lemma named_there fs : forall vs, Forall2 reads_items vs (map fd_ty fs) -> forall tag t, In (tag, t) (declared fs) ->
    exists v, In (tag, (v, t)) (named fs vs) /\ reads_items v t.
  Proof.
    induction fs as [|f fs IH]; intros vs HF tag t Hi; [destruct Hi|]. inversion HF as [|v ? vs' ? Hr HF2]; subst. destruct Hi as [Hi|Hi].
    - injection Hi as <- <-. exists v. split; [now left|exact Hr].
    - destruct (IH vs' HF2 tag t Hi) as (w & Hw & Hr2). exists w. split; [now right|exact Hr2].
  Qed.
  Lemma count_incl (ts ts' : list ty) : (List.length ts <= List.length ts')%nat -> forall i, incl (map fst (count_from i ts)) (map fst (count_from i ts')).
  Proof.
    revert ts'. induction ts as [|t ts IH]; intros ts' Hl i; [intros x []|]. destruct ts' as [|t' ts']; [cbn in Hl; lia|]. cbn [count_from map fst].
    intros x [<-|Hx]; [now left|right]. apply (IH ts' ltac:(cbn in Hl; lia) (i + 1)). exact Hx.
  Qed.

  Lemma body_total b b' vs : body_ext eo en ign J b b' -> vbody_wf b -> fields_wf b -> vbody_wf b' -> Forall2 good vs (body_types b) ->
    Forall2 (has_type eo) vs (body_types b) -> unknown_ok b vs -> exists l ws, pieces eo b vs l /\ into_body en ign eo l b' ws.
  Proof.
    intros Hx (Hnd & _ & Hsp) [Hff Hfs] (Hnd' & _ & Hsp') HF HT Hu. unfold body_types in HF, HT. unfold unknown_ok in Hu.
    assert (Hul : Forall (fun f => unknown_like (fd_ty f) = false) (vb_fields b)) by (refine (Forall_impl _ _ Hff); intros f [_ H]; exact H).
    assert (Hshp : Forall shape_wf (map fd_ty (vb_fields b))) by (apply Lists.List.Forall_map; refine (Forall_impl _ _ Hff); intros f [H _]; exact H).
    destruct Hx as [Es Hd' Hac Hfe Hlost|Hco Hd' Hac Hfe Hincl Hlost|nm t nm' t' Es Es' Hac Htop].
    - rewrite Es in HF, HT. cbn [sp_types] in HF, HT. rewrite app_nil_r in HF, HT. pose proof (Forall2_len _ _ _ HF) as Hl. rewrite map_length in Hl.
      assert (Hr : exists ws, record en ign eo (named (vb_fields b) vs ++ []) (declared (vb_fields b')) ws).
      { apply (record_total _ _ _ Hfe); [apply named_there; now apply items_of|rewrite named_tags; auto|rewrite named_tags by auto; now rewrite declared_tags|intros tag _ []]. }
      rewrite app_nil_r in Hr. destruct Hr as (ws & Hr). unfold delegates, collects in *. exists (named (vb_fields b) vs).
      destruct (vb_special b') as [|nm' t'|nm' t'] eqn:Es'; try discriminate Hd'.
      + exists ws. split; [now constructor|]. apply IbFields; auto. destruct Hlost as [H|[H|H]]; [now left|discriminate H|right].
        apply undeclared_all. intros tag n Hi. apply nodes_tags in Hi. rewrite named_tags in Hi by auto. rewrite declared_tags. now apply H.
      + eexists. split; [now constructor|]. apply (IbKeep en ign eo _ b' nm' t'); [exact Es'|exact Hsp'|exact Hr|apply Hac].
    - unfold delegates, collects in *. destruct (vb_special b) as [|nm t|nm t] eqn:Es; try discriminate Hco. cbn [sp_types] in HF, HT.
      apply Forall2_app_inv_r in HF. destruct HF as (vs1 & vs2 & HF1 & HF2 & ->). inversion HF2 as [|dv ? ? ? Hdv HF3]; subst. inversion HF3; subst.
      pose proof (Forall2_len _ _ _ HF1) as Hl. rewrite map_length in Hl.
      apply Forall2_app_inv_r in HT. destruct HT as (ws1 & ws2 & HT1 & HT2 & E). inversion HT2 as [|dv' ? ? ? Hdv' HT3]; subst. inversion HT3; subst.
      apply app_inj_tail in E. destruct E as [_ <-].
      assert (Hus : exists us, dv = VUnk us). { clear -Hsp Hdv'. revert dv Hdv'. induction t; intros dv H; try discriminate Hsp; inversion H; subst; eauto;
        try match goal with X : is_str _ |- _ => destruct X as [X|[X|X]]; discriminate X end; match goal with X : is_bytes _ |- _ => destruct X as [X|[X|(? & X & _)]]; discriminate X end. }
      destruct Hus as (us & ->). specialize (Hu Hsp us (last_last _ _ _)).
      assert (Hr : exists ws, record en ign eo (named (vb_fields b) vs1 ++ kept us) (declared (vb_fields b')) ws).
      { apply (record_total _ _ _ Hfe); [apply named_there; now apply items_of|rewrite named_tags; auto|rewrite named_tags by auto; now rewrite declared_tags|].
        intros tag Ht Hi. rewrite kept_tags in Hi. rewrite declared_tags in Ht. apply Hincl in Ht.
        apply in_map_iff in Hi. destruct Hi as (f & <- & Hi). exact (proj1 (Forall_forall _ _) Hu _ Hi Ht). }
      destruct Hr as (ws & Hr). exists (named (vb_fields b) vs1 ++ kept us). destruct (vb_special b') as [|nm' t'|nm' t'] eqn:Es'; try discriminate Hd'.
      + exists ws. split; [now apply (PaKept eo b nm t)|]. apply IbFields; auto. destruct Hlost as [H|H]; [now left|discriminate H].
      + eexists. split; [now apply (PaKept eo b nm t)|]. apply (IbKeep en ign eo _ b' nm' t'); [exact Es'|exact Hsp'|exact Hr|apply Hac].
    - rewrite Es in *. rewrite Es' in *. cbn [sp_types] in HF. rewrite Hsp in HF. cbn [map app] in HF. inversion HF as [|dv ? ? ? Hdv HF3]; subst. inversion HF3; subst.
      destruct (Hdv Hfs) as (_ & _ & Hw). destruct (Hw t' Htop) as (l & w & H1 & H2). exists l, [w]. split; [now apply (PaDeleg eo b nm t)|now apply (IbDeleg en ign eo l b' nm' t')].
  Qed.

  Lemma blob_total v t bs : blob_of v t bs -> boxed t = false -> (forall t', boxed t' = false -> Ext t t' -> t' = TUnkField \/ exists w, blob_as bs t' w) -> reads_elem v t.
  Proof.
    intros Hbo Hb H. apply strip_elem; [exact Hb|]. intros t' Hb' Hx. destruct (H t' Hb' Hx) as [->|(w & Hw)]; [eexists; apply ElKeep|].
    exists w. now apply (ElBlob en ign eo v t bs).
  Qed.
  Lemma elems_total vs t : Forall (fun v => good v t) vs -> shape_wf t -> forall t', Ext t t' -> exists us, Elems (map (fun x => (x, t)) vs) t' us.
  Proof.
    intros HF Hs t' Hx. induction HF as [|v vs Hv HF (us & IH)]; [exists []; constructor|]. destruct (Hv Hs) as (He & _). destruct (He t' Hx) as (w & Hw).
    exists (w :: us). now constructor.
  Qed.
  Lemma tuple_into vs ts ts' : Forall2 reads_items vs ts -> Forall (fun t => unknown_like t = false) ts ->
    fields_ext ign J (count_from 1 ts) (count_from 1 ts') -> ign = true \/ (List.length ts <= List.length ts')%nat ->
    exists ws, into en ign eo (numbered 1 vs ts) (TTuple ts') (VRec ws).
  Proof.
    intros HF Hu Hfe Hl. pose proof (Forall2_len _ _ _ HF) as Hlen.
    assert (Hr : exists ws, record en ign eo (numbered 1 vs ts ++ []) (count_from 1 ts') ws).
    { apply (record_total _ _ _ Hfe); [now apply numbered_there|rewrite numbered_tags by exact Hlen; apply count_tags|now rewrite numbered_tags by exact Hlen|intros tag _ []]. }
    rewrite app_nil_r in Hr. destruct Hr as (ws & Hr). exists ws. apply ToTuple; [exact Hr|]. destruct Hl as [Hl|Hl]; [now left|right].
    apply undeclared_all. intros tag n H. apply nodes_tags in H. rewrite numbered_tags in H by exact Hlen. exact (count_incl ts ts' Hl 1 tag H).
  Qed.
  Lemma tuple_elem vs ts : Forall2 reads_items vs ts -> Forall (fun t => unknown_like t = false) ts -> reads_elem (VRec vs) (TTuple ts).
  Proof.
    intros HF Hu. apply strip_elem; [reflexivity|]. intros t' Hb' Hx. inversion Hx; subst; try discriminate Hb'; try discriminate; not_str; try (eexists; apply ElKeep).
    destruct (tuple_into vs ts ts' HF Hu) as (ws & Hw); auto. exists (VRec ws). apply (ElStruct en ign eo _ _ (numbered 1 vs ts)); [constructor; auto; now apply (Forall2_len _ _ _ HF)|exact I|exact Hw].
  Qed.

  Ltac new_cases Hx Hb' := inversion Hx; subst; try discriminate Hb'; try discriminate; not_str; try (eexists; apply ElKeep).

  Theorem all_good v t : has_type eo v t -> good v t.
  Proof.
    intros Hty. revert v t Hty. apply (has_type_ind2 ascending eo good); unfold good.
    - intros w n H _. apply single_total; try reflexivity; [intros _; split; cbn; lia|]. apply strip_elem; [reflexivity|]. intros t' Hb' Hx. new_cases Hx Hb'.
      exists (VU n). constructor. unfold umax in *. pose proof (N.pow_le_mono_r 2 w w' ltac:(lia) ltac:(assumption)). lia.
    - intros w z H Hs. apply single_total; try reflexivity; [intros _; split; cbn; lia|]. apply strip_elem; [reflexivity|]. intros t' Hb' Hx. new_cases Hx Hb'.
      exists (VS z). constructor; auto. unfold smin, smax in *.
      assert (Hp : (2 ^ (Z.of_N w - 1) <= 2 ^ (Z.of_N w' - 1))%Z). { apply Z.pow_le_mono_r; lia. } lia.
    - intros b _. apply single_total; try reflexivity; [intros _; split; cbn; lia|]. apply strip_elem; [reflexivity|]. intros t' Hb' Hx. new_cases Hx Hb'. eexists. constructor.
    - intros c H _. apply single_total; try reflexivity; [intros _; split; cbn; lia|]. apply strip_elem; [reflexivity|]. intros t' Hb' Hx. new_cases Hx Hb'. eexists. now constructor.
    - intros _. apply single_total; try reflexivity; [intros _; split; cbn; lia|]. apply strip_elem; [reflexivity|]. intros t' Hb' Hx. new_cases Hx Hb'. eexists. constructor.
    - intros t bs Ht _ Hu _. apply single_total; try (destruct Ht as [->|[->| ->]]; reflexivity); [intros _; destruct Ht as [->|[->| ->]]; split; cbn; lia|].
      apply (blob_total _ _ bs); [now constructor|destruct Ht as [->|[->| ->]]; reflexivity|]. intros t' Hb' Hx.
      assert (Hx' : t' = TUnkField \/ is_str t' \/ is_bytes t').
      { destruct Ht as [->|[->| ->]]; inversion Hx; subst; try discriminate; auto; not_str. }
      destruct Hx' as [->|[H|H]]; [now left|right; eexists; now apply BaStr|right; eexists; now apply BaBytes].
    - intros t bs Ht _ _. apply single_total; try (destruct Ht as [->|[->|(u & -> & Hu)]]; cbn [each many plain]; rewrite ?Hu; reflexivity);
        [intros _; destruct Ht as [->|[->|(u & -> & Hu)]]; cbn [card_of]; rewrite ?Hu; split; cbn; lia|].
      apply (blob_total _ _ bs); [now constructor|destruct Ht as [->|[->|(u & -> & Hu)]]; reflexivity|]. intros t' Hb' Hx.
      assert (Hx' : t' = TUnkField \/ is_bytes t').
      { destruct Ht as [->|[->|(u & -> & Hu)]]; inversion Hx; subst; try discriminate; auto; not_str.
        exfalso. match goal with X : collection (TVec _) = true |- _ => cbn [collection] in X; rewrite Hu in X; discriminate X end. }
      destruct Hx' as [->|H]; [now left|right; eexists; now apply BaBytes].
    - intros n t bs Hu _ Hl _. apply single_total; try (cbn [each many plain]; rewrite ?Hu; reflexivity);
        [intros _; cbn [card_of]; rewrite Hu; split; cbn [fst snd]; [destruct (n =? 0); lia|lia]|].
      apply (blob_total _ _ bs); [now constructor|reflexivity|]. intros t' Hb' Hx.
      assert (Hx' : t' = TUnkField \/ is_bytes t' \/ exists u, t' = TArray n u /\ is_u8 u = true).
      { inversion Hx; subst; try discriminate; auto; not_str.
        exfalso. match goal with X : collection (TArray _ _) = true |- _ => cbn [collection] in X; rewrite Hu in X; discriminate X end. }
      destruct Hx' as [->|[H|(u & -> & H)]]; [now left|right; eexists; now apply BaBytes|right; eexists; now apply BaArr].
    - intros n t vs Hu Hl _ HF Hs. apply (many_total _ _ (map (fun x => (x, t)) vs)); [cbn; now rewrite Hu|reflexivity| |].
      + cbn [card_of]. rewrite Hu. replace (lenN (map (fun x => (x, t)) vs)) with (lenN vs) by (unfold lenN; now rewrite map_length). split; cbn [fst snd]; lia.
      + cbn [each]. rewrite Hu. apply elems_total; auto.
    - intros t vs Hu _ HF Hs. apply (many_total _ _ (map (fun x => (x, t)) vs)); [cbn; now rewrite Hu|reflexivity| |].
      + cbn [card_of]. rewrite Hu. split; cbn [fst snd]; [lia|exact I].
      + cbn [each]. rewrite Hu. apply elems_total; auto.
    - intros t vs _ HF Hs. apply (many_total _ _ (map (fun x => (x, t)) vs)); [reflexivity|reflexivity|split; cbn [card_of fst snd]; [lia|exact I]|]. apply elems_total; auto.
    - intros t vs _ HF _ Hs. apply (many_total _ _ (map (fun x => (x, t)) vs)); [reflexivity|reflexivity|split; cbn [card_of fst snd]; [lia|exact I]|]. apply elems_total; auto.
    - intros t Hs. apply (many_total _ _ []); [reflexivity|reflexivity|split; cbn [card_of fst snd]; [lia|change (lenN (@nil (value * ty))) with 0; lia]|]. intros t' _. exists []. constructor.
    - intros t v _ IH Hs. apply (many_total _ _ [(v, t)]); [reflexivity|reflexivity|split; cbn [card_of fst snd]; [lia|unfold lenN; cbn; discriminate]|].
      apply (elems_total [v] t); auto.
    - intros tk tv kvs _ _ IHk IHv _ [[Hsk Huk] [Hsv Huv]].
      apply (many_total _ _ (map (fun p => (VRec [fst p; snd p], TTuple [tk; tv])) kvs)); [reflexivity|reflexivity|split; cbn [card_of fst snd]; [lia|exact I]|].
      cbn [each]. intros t' Hx. induction kvs as [|[k w] kvs IH]; [exists []; constructor|]. inversion IHk as [|? ? Hk IHk2]; subst. inversion IHv as [|? ? Hw IHv2]; subst. cbn [map fst snd] in *.
      destruct (IH IHk2 IHv2) as (us & Hus). destruct (Hk Hsk) as (_ & Hfk & _). destruct (Hw Hsv) as (_ & Hfw & _).
      assert (Hf2 : Forall2 reads_items [k; w] [tk; tv]) by (apply Forall2_cons; [exact Hfk|apply Forall2_cons; [exact Hfw|constructor]]).
      destruct (tuple_elem [k; w] [tk; tv] Hf2 ltac:(repeat constructor; auto) t' Hx) as (u & Hu). exists (u :: us). now constructor.
    - intros ts vs HT HF Hs. cbn [shape_wf] in Hs. destruct Hs as [_ Hs].
      assert (Hfs : Forall2 reads_items vs ts /\ Forall (fun t => unknown_like t = false) ts).
      { clear HT. induction HF as [|v t vs ts Hv HF IH]; [repeat constructor|]. destruct Hs as [[Hs1 Hu1] Hs2]. destruct (IH Hs2) as [H1 H2]. split; constructor; auto. now apply Hv. }
      destruct Hfs as [Hfs Hul]. pose proof (Forall2_len _ _ _ HT) as Hl.
      assert (He : reads_elem (VRec vs) (TTuple ts)) by now apply tuple_elem.
      assert (Hi : reads_items (VRec vs) (TTuple ts)) by (apply single_items; auto; intros _; split; cbn; lia).
      split; [exact He|]. split; [exact Hi|]. apply strip_top; [reflexivity|]. intros t' Hb' Hx.
      inversion Hx as [? ? Hp| ? ts' Hne Hx'|ts' Hig Hfe| | | | | |]; subst; try discriminate.
      + exists (numbered 1 vs ts). destruct (tuple_into vs ts ts' Hfs Hul) as (ws & Hw).
        { inversion Hx'; subst; auto; try discriminate; not_str. }
        { inversion Hx'; subst; auto; try discriminate; not_str. }
        eexists. split; [|exact Hw]. apply WhTuple; auto. intros ->. destruct ts; [now apply Hne|discriminate Hl].
      + destruct vs; [|discriminate Hl]. exists [(1, (VRec [], TTuple []))].
        assert (Hr : exists ws, record en ign eo ([(1, (VRec [], TTuple []))] ++ []) (count_from 1 ts') ws).
        { apply (record_total _ _ _ Hfe); [|repeat constructor; intros []|reflexivity|intros tag _ []].
          intros tag t [E|[]]. injection E as <- <-. exists (VRec []). split; [now left|exact Hi]. }
        destruct Hr as (ws & Hr). exists (VRec ws). split; [apply WhUnit|]. apply ToTuple; [exact Hr|now left].
    - intros t v _ IH Hs. destruct (IH Hs) as (He & (Hcd & Hit) & Hw). split; [|split; [split|]].
      + intros t'. induction t'; intros Hx; inversion Hx; subst; try discriminate; not_str; try (eexists; apply ElKeep);
          try match goal with X : Ext t _ |- _ => destruct (He _ X) as (ww & Hw1); exists ww; now apply ElBoxOld end.
        * match goal with X : Ext (TBox t) t' |- _ => destruct (IHt' X) as (w & Hw1); exists w; now apply ElBoxNew end.
        * match goal with X : Ext (TBox t) t' |- _ => destruct (IHt' X) as (w & Hw1); exists w; now apply ElCopiedNew end.
      + cbn [unknown_like card_of]. unfold items in *. cbn [many]. destruct (many v t); exact Hcd.
      + cbn [each]. intros t' Hx. destruct (Hit t' Hx) as (us & Hus). exists us. unfold items in *. cbn [many]. destruct (many v t); [exact Hus|].
        inversion Hus as [|? ? ? ? ? ? ? H1 H2]; subst. constructor; [now apply ElBoxOld|exact H2].
      + intros t'. induction t'; intros Hx; inversion Hx; subst; try discriminate;
          try match goal with X : Top t _ |- _ => destruct (Hw _ X) as (l & ww & K1 & K2); exists l, ww; split; [now apply WhBox|exact K2] end.
        * match goal with X : Top (TBox t) t' |- _ => destruct (IHt' X) as (l & ww & K1 & K2); exists l, ww; split; [exact K1|now apply ToBox] end.
        * match goal with X : Top (TBox t) t' |- _ => destruct (IHt' X) as (l & ww & K1 & K2); exists l, ww; split; [exact K1|now apply ToCopied] end.
    - intros t v _ IH Hs. destruct (IH Hs) as (He & (Hcd & Hit) & Hw). split; [|split; [split|]].
      + intros t'. induction t'; intros Hx; inversion Hx; subst; try discriminate; not_str; try (eexists; apply ElKeep);
          try match goal with X : Ext t _ |- _ => destruct (He _ X) as (ww & Hw1); exists ww; now apply ElCopiedOld end.
        * match goal with X : Ext (TCopied t) t' |- _ => destruct (IHt' X) as (w & Hw1); exists w; now apply ElBoxNew end.
        * match goal with X : Ext (TCopied t) t' |- _ => destruct (IHt' X) as (w & Hw1); exists w; now apply ElCopiedNew end.
      + cbn [unknown_like card_of]. unfold items in *. cbn [many]. destruct (many v t); exact Hcd.
      + cbn [each]. intros t' Hx. destruct (Hit t' Hx) as (us & Hus). exists us. unfold items in *. cbn [many]. destruct (many v t); [exact Hus|].
        inversion Hus as [|? ? ? ? ? ? ? H1 H2]; subst. constructor; [now apply ElCopiedOld|exact H2].
      + intros t'. induction t'; intros Hx; inversion Hx; subst; try discriminate;
          try match goal with X : Top t _ |- _ => destruct (Hw _ X) as (l & ww & K1 & K2); exists l, ww; split; [now apply WhCopied|exact K2] end.
        * match goal with X : Top (TCopied t) t' |- _ => destruct (IHt' X) as (l & ww & K1 & K2); exists l, ww; split; [exact K1|now apply ToBox] end.
        * match goal with X : Top (TCopied t) t' |- _ => destruct (IHt' X) as (l & ww & K1 & K2); exists l, ww; split; [exact K1|now apply ToCopied] end.
    - intros fs _ _. assert (He : reads_elem (VUnk fs) TUnknown).
      { apply strip_elem; [reflexivity|]. intros t' Hb' Hx. new_cases Hx Hb'. eexists. apply (ElStruct en ign eo _ _ (kept fs)); [apply InUnk|exact I|apply ToUnknown]. }
      split; [exact He|]. split; [apply single_items; auto; discriminate|]. apply strip_top; [reflexivity|]. intros t' Hb' Hx.
      inversion Hx; subst; try discriminate. exists (kept fs). eexists. split; [apply WhUnk|apply ToUnknown].
    - intros n _ _. apply single_total; try reflexivity; [intros _; split; cbn; lia|]. apply strip_elem; [reflexivity|]. intros t' Hb' Hx. new_cases Hx Hb'.
    - intros i b vs Ei HT HF Hck Hu _. pose proof (Hwo i) as [Hiw Hfw]. rewrite Ei in Hiw, Hfw. cbn [item_wf] in Hiw.
      assert (He : reads_elem (VRec vs) (TItem i)).
      { apply strip_elem; [reflexivity|]. intros t' Hb' Hx. new_cases Hx Hb'. pose proof (Hc i j ltac:(assumption)) as Hix. rewrite Ei in Hix.
        pose proof (Hwn j) as [Hjw _]. destruct (en j) as [b'|vars' catch'] eqn:Eb; [|inversion Hix]. cbn [item_wf] in Hjw. inversion Hix as [? ? Hd Hbx|? ? nm t nm' t' Es Es' Hac Hxt _|]; subst.
        - destruct (body_total b b' vs Hbx Hiw Hfw Hjw HF HT Hu) as (l & ws & H1 & H2). exists (VRec ws). apply (ElStruct en ign eo _ _ l).
          + now apply (InStruct eo i b).
          + unfold as_struct. rewrite Eb. inversion Hbx as [_ H|_ H|? ? ? ? Es]; auto. unfold delegates in Hd. rewrite Es in Hd. discriminate Hd.
          + now apply (ToStruct en ign eo l j b').
        - destruct Hiw as (_ & _ & Hsp). rewrite Es in Hsp. destruct Hjw as (_ & _ & Hsp'). rewrite Es' in Hsp'. unfold body_types in HF. rewrite Hsp, Es in HF. cbn [map app sp_types] in HF.
          inversion HF as [|dv ? ? ? Hdv HF3]; subst. inversion HF3; subst. destruct Hfw as [_ Hfs]. rewrite Es in Hfs. destruct (Hdv Hfs) as (Hde & _). destruct (Hde t' Hxt) as (w & Hw).
          exists (VRec [w]). apply (ElDelegOld en ign eo i b nm dv t); auto. now apply (ElDelegNew en ign eo j b' nm' dv t t'). }
      split; [exact He|]. split; [apply single_items; auto; intros _; split; cbn; lia|]. apply strip_top; [reflexivity|]. intros t' Hb' Hx.
      inversion Hx as [? ? Hp| | |? j b0 b' HJ Eo En| | | | |]; subst; try discriminate.
      + cbn [plain] in Hp. rewrite Ei in Hp. discriminate Hp.
      + rewrite Ei in Eo. injection Eo as <-. pose proof (Hc i j HJ) as Hix. rewrite Ei, En in Hix. pose proof (Hwn j) as [Hjw _]. rewrite En in Hjw. cbn [item_wf] in Hjw.
        assert (Hbx : body_ext eo en ign J b b'). { inversion Hix; subst; auto. eapply BxDeleg; eauto. }
        destruct (body_total b b' vs Hbx Hiw Hfw Hjw HF HT Hu) as (l & ws & H1 & H2). exists l, (VRec ws). split; [now apply (WhStruct eo i b)|now apply (ToStruct en ign eo l j b')].
    - intros i vars catch ix d b vs Ei Hn HT HF Hck Hu _. pose proof (Hwo i) as [Hiw Hfw]. rewrite Ei in Hiw, Hfw. destruct Hiw as (Hnd & Hvw & _). destruct Hfw as [Hfw _].
      pose proof (nth_error_In _ _ Hn) as Hi. pose proof (proj2 (proj1 (Forall_forall _ _) Hvw _ Hi)) as Hbw. pose proof (proj1 (Forall_forall _ _) Hfw _ Hi) as Hbf. cbn [snd] in *.
      apply single_total; try reflexivity; [cbn [plain]; now rewrite Ei|intros _; split; cbn; lia|].
      apply strip_elem; [reflexivity|]. intros t' Hb' Hx. new_cases Hx Hb'. pose proof (Hc i j ltac:(assumption)) as Hix. rewrite Ei in Hix.
      pose proof (Hwn j) as [Hjw _]. destruct (en j) as [b'|vars' catch'] eqn:Eb; [inversion Hix|]. inversion Hix as [| |? ? ? ? Hv _]; subst. destruct Hjw as (Hnd' & Hvw' & Hcw').
      destruct (Hv d b Hi) as [(ix' & b' & Hv' & Hbx)|(Hv' & b' & Ec & Hbx)].
      + assert (Hbw' : vbody_wf b'). { apply variant_some in Hv'. exact (proj2 (proj1 (Forall_forall _ _) Hvw' _ Hv')). }
        destruct (body_total b b' vs Hbx Hbw Hbf Hbw' HF HT Hu) as (l & ws & H1 & H2). exists (VVar ix' (VRec ws)).
        apply (ElVariant en ign eo _ _ d l j vars' catch' ix' b' ws); auto. now apply (VoVar eo i vars catch ix d b).
      + subst catch'. destruct (body_total b b' vs Hbx Hbw Hbf Hcw' HF HT Hu) as (l & ws & H1 & H2). exists (VCatch d (VRec ws)).
        apply (ElCatch en ign eo _ _ d l j vars' b' ws); auto. now apply (VoVar eo i vars catch ix d b).
    - intros i vars d b vs Ei _ Hni HT HF Hck Hu _. pose proof (Hwo i) as [Hiw Hfw]. rewrite Ei in Hiw, Hfw. destruct Hiw as (Hnd & _ & Hbw). destruct Hfw as [_ Hbf].
      apply single_total; try reflexivity; [cbn [plain]; now rewrite Ei|intros _; split; cbn; lia|].
      apply strip_elem; [reflexivity|]. intros t' Hb' Hx. new_cases Hx Hb'. pose proof (Hc i j ltac:(assumption)) as Hix. rewrite Ei in Hix.
      pose proof (Hwn j) as [Hjw _]. destruct (en j) as [b'|vars' catch'] eqn:Eb; [inversion Hix|]. inversion Hix as [| |? ? ? ? _ Hv]; subst. destruct Hjw as (Hnd' & Hvw' & Hcw').
      destruct Hv as (Hin & b' & -> & Hbx). destruct (body_total b b' vs Hbx Hbw Hbf Hcw' HF HT Hu) as (l & ws & H1 & H2). exists (VCatch d (VRec ws)).
      apply (ElCatch en ign eo _ _ d l j vars' b' ws); auto; [now apply (VoCatch eo i vars b)|]. apply variant_out. intros H. apply Hni. now apply Hin.
  Qed.
End Total.

Theorem compatible_reads eo en ign J v t t' : env_wf eo -> env_wf en -> compatible eo en ign J -> top eo en ign J t t' ->
  has_type eo v t -> shape_wf t -> exists w, becomes en ign eo v t t' w.
Proof.
  intros Hwo Hwn Hc Ht Hty Hs. destruct (all_good eo en ign J Hwo Hwn Hc v t Hty Hs) as (_ & _ & Hw). destruct (Hw t' Ht) as (l & w & H1 & H2).
  exists w. now apply (Becomes en ign eo v t t' w l).
Qed.
