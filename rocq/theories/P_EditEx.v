(** * P_EditEx: an old and a new program *)

From Verif Require Import Base Wire Dev Stream Types Ser Prog De SpecWire SpecFormat SpecStream SpecWrite SpecDe SpecDoc SpecSerDe SpecRead SpecCompat SpecEdit P_Base P_Ex P_Changes.

(** Old: an id, a name, the main shape and other fields; a shape is a dot or
    something else. *)
Definition o_node : vbody := mkB [mkF "id" 1 (TUInt 32); mkF "name" 2 TString; mkF "main" 5 (TItem 1)] (SpUnknown "rest" TUnknown) ok_all.
Definition o_other : vbody := mkB [] (SpUnknown "rest" TUnknown) ok_all.
Definition o_env : env := fun i => match i with
  | 0%nat => IStruct o_node
  | 1%nat => IEnum [(1, mkB [] SpNone ok_all)] (Some o_other)
  | _ => IStruct o_other end.
(** New: also a remark, other shapes and children; there are circles. *)
Definition n_node : vbody := mkB [mkF "remark" 3 (TOption TString); mkF "id" 1 (TUInt 32); mkF "others" 4 (TVec (TItem 1)); mkF "name" 2 TString; mkF "main" 5 (TItem 1);
  mkF "kids" 6 (TVec (TItem 0))] SpNone ok_all.
Definition n_circle : vbody := mkB [mkF "r" 1 (TUInt 32); mkF "c" 2 (TSInt 64)] SpNone ok_all.
Definition n_env : env := fun i => match i with
  | 0%nat => IStruct n_node
  | 1%nat => IEnum [(2, n_circle); (1, mkB [] SpNone ok_all)] None
  | _ => IStruct o_other end.
Lemma o_wf : env_wf o_env.
Proof. intros [|[|i]]; wf_item. Qed.
Lemma n_wf : env_wf n_env.
Proof. intros [|[|i]]; wf_item. Qed.
Lemma o_older : all_older o_env n_env eq.
Proof.
  assert (Hacc : forall fs sp, accepts (mkB fs sp ok_all)) by (intros fs sp vs; reflexivity).
  intros i j <-. destruct i as [|[|i]]; cbn [o_env n_env].
  - apply IoStruct. apply BoKeeps; try reflexivity; [apply Hacc|]. intros tag t' [E|[E|[E|[]]]]; injection E as <- <-; eexists; (split; [cbn; tauto|]); [now apply OlBasic|now apply OlBasic|now apply OlItem].
  - apply IoEnum; [|exact Logic.I]. intros d b [E|[E|[]]]; injection E as <- <-.
    + right. split; [cbn; intuition discriminate|]. exists o_other. split; [reflexivity|]. apply BoKeeps; try reflexivity; [apply Hacc|]. intros tag t' [].
    + left. eexists. split; [now left|]. apply BoSame; try reflexivity; [apply Hacc|intros tag t' []|intros tag []].
  - apply IoStruct. apply BoKeeps; try reflexivity; [apply Hacc|]. intros tag t' [].
Qed.
Definition o_closure : list ty := [TItem 0; TItem 1; TUInt 32; TString; TUnknown].
Lemma o_deserialisable (zc : bool) : deserialisable o_env zc (TItem 0) /\ deserialisable o_env zc (TItem 1).
Proof.
  assert (H : forall t, In t o_closure -> deserialisable o_env zc t); [|split; apply H; cbn; tauto].
  intros t Hin H. revert Hin. induction H; intros Hin; unfold o_closure in Hin; cbn [In] in Hin;
    repeat (destruct Hin as [Hin|Hin]); try discriminate; try contradiction;
    injection Hin as <-; apply IHno_impl; unfold o_closure; cbn in *; intuition.
Qed.
Definition n_closure : list ty := [TItem 0; TItem 1; TOption TString; TUInt 32; TSInt 64; TString; TVec (TItem 0); TVec (TItem 1)].
Lemma n_deserialisable (zc : bool) : deserialisable n_env zc (TItem 0) /\ deserialisable n_env zc (TItem 1).
Proof.
  assert (H : forall t, In t n_closure -> deserialisable n_env zc t); [|split; apply H; cbn; tauto].
  intros t Hin H. revert Hin. induction H; intros Hin; unfold n_closure in Hin; cbn [In] in Hin;
    repeat (destruct Hin as [Hin|Hin]); try discriminate; try contradiction;
    injection Hin as <-; apply IHno_impl; unfold n_closure; cbn in *; intuition.
Qed.

Definition n_circle_value : value := VVar 0 (VRec [VU 7; VS (-3)]).
Definition n_values : list value := [VOpt (Some (VStr [104; 105])); VU 65; VList [VVar 1 (VRec []); n_circle_value]; VStr [97]; n_circle_value;
  VList [VRec [VOpt None; VU 1; VList []; VStr []; VVar 1 (VRec []); VList []]]].
Lemma n_circle_typed : has_type n_env n_circle_value (TItem 1).
Proof. eapply (TyVar _ 1 _ _ 0 2 n_circle); try reflexivity; try exact Logic.I. repeat constructor; vm_compute; discriminate. Qed.
Lemma n_typed : has_type n_env (VRec n_values) (TItem 0).
Proof.
  assert (Hs : forall bs, okb bs = true -> utf8_ok bs = true -> has_type n_env (VStr bs) TString).
  { intros bs H1 H2. constructor; [now left|now apply okb_ok|exact H2]. }
  assert (Hd : has_type n_env (VVar 1 (VRec [])) (TItem 1)) by (eapply (TyVar _ 1 _ _ 1 1); try reflexivity; constructor).
  assert (Hu : forall x, x <= 100 -> has_type n_env (VU x) (TUInt 32)) by (intros x Hx; constructor; unfold umax; cbn; lia).
  apply (TyStruct _ 0 n_node); [reflexivity| |reflexivity|exact Logic.I]. unfold body_types, n_node, n_values. cbn [vb_fields vb_special map fd_ty sp_types app].
  apply Forall2_cons; [constructor; now apply Hs|]. apply Forall2_cons; [apply Hu; lia|].
  apply Forall2_cons; [constructor; [reflexivity|]; constructor; [exact Hd|]; constructor; [exact n_circle_typed|constructor]|].
  apply Forall2_cons; [now apply Hs|]. apply Forall2_cons; [exact n_circle_typed|]. apply Forall2_cons; [|constructor].
  constructor; [reflexivity|]. constructor; [|constructor].
  apply (TyStruct _ 0 n_node); [reflexivity| |reflexivity|exact Logic.I]. unfold body_types, n_node, n_values. cbn [vb_fields vb_special map fd_ty sp_types app].
  apply Forall2_cons; [constructor|]. apply Forall2_cons; [apply Hu; lia|]. apply Forall2_cons; [constructor; [reflexivity|constructor]|].
  apply Forall2_cons; [now apply Hs|]. apply Forall2_cons; [exact Hd|]. apply Forall2_cons; [constructor; [reflexivity|constructor]|constructor].
Qed.
(** What the old program sees: the main shape is something else. *)
Definition o_circle : value := VCatch 2 (VRec [VUnk [(1, NInt 7); (2, NInt 5)]]).
Definition o_rest : list (N * node) := undeclared (tags_of o_node) (x_body (doc n_env (VRec n_values) (TItem 0))).
Lemma circle_seen (ign : bool) : elem o_env ign n_env n_circle_value (TItem 1) (TItem 1) o_circle.
Proof.
  assert (Hv : variant_of n_env n_circle_value (TItem 1) 2 (named (vb_fields n_circle) [VU 7; VS (-3)])).
  { eapply (VoVar _ 1 _ _ 0 2 n_circle); try reflexivity. constructor; try reflexivity. repeat constructor. }
  unfold o_circle. eapply (ElCatch o_env ign n_env _ _ 2 (named (vb_fields n_circle) [VU 7; VS (-3)]) 1 _ o_other); [exact Hv|reflexivity|reflexivity|].
  exact (IbKeep o_env ign n_env _ o_other "rest" TUnknown [] eq_refl eq_refl (ReNil _ _ _ _) eq_refl).
Qed.
Lemma circle_back (ign : bool) : elem n_env ign o_env o_circle (TItem 1) (TItem 1) n_circle_value.
Proof.
  assert (Hv : variant_of o_env o_circle (TItem 1) 2 (kept [(1, NInt 7); (2, NInt 5)])).
  { eapply (VoCatch _ 1 _ o_other); [reflexivity|]. exact (PaKept o_env o_other "rest" TUnknown [] _ eq_refl eq_refl eq_refl ltac:(constructor)). }
  unfold n_circle_value. eapply (ElVariant n_env ign o_env _ _ 2 _ 1 _ _ 0 n_circle); [exact Hv|reflexivity|reflexivity|].
  apply IbFields; try reflexivity; [|right; reflexivity]. cbn [declared map vb_fields n_circle fd_tag fd_ty].
  apply (ReCons _ _ _ _ 1 (TUInt 32) _ [VU 7]); [|apply GaOne; [reflexivity|discriminate]|].
  { cbn [kept map fst snd]. unfold occs. cbn. constructor; [|constructor]. apply (ElKept n_env ign o_env n_env (VU 7) (TUInt 32)). constructor. vm_compute. discriminate. }
  apply (ReCons _ _ _ _ 2 (TSInt 64) _ [VS (-3)]); [|apply GaOne; [reflexivity|discriminate]|constructor].
  cbn [kept map fst snd]. unfold occs. cbn. constructor; [|constructor]. apply (ElKept n_env ign o_env n_env (VS (-3)) (TSInt 64)). constructor; [unfold width_ok; auto|vm_compute; split; discriminate].
Qed.
Lemma one_becomes e' (ign : bool) e v t t' w : elem e' ign e v t t' w -> many v t = None -> each t' = t' -> t' <> TUnknown -> field_becomes e' ign e v t t' w.
Proof. intros He Hm Hc Hn. exists [w]. unfold items. rewrite Hm, Hc. split; [repeat constructor; exact He|now constructor]. Qed.
Lemma n_seen (ign : bool) : seen o_env ign n_env (named (vb_fields n_node) n_values) (vb_fields o_node) [VU 65; VStr [97]; o_circle].
Proof.
  apply (SeField _ _ _ _ _ (VU 65) (TUInt 32)); [cbn; tauto|apply one_becomes; try reflexivity; try discriminate; constructor; vm_compute; discriminate|].
  apply (SeField _ _ _ _ _ (VStr [97]) TString); [cbn; tauto|apply one_becomes; try reflexivity; try discriminate; eapply ElBlob; constructor; try (now left); reflexivity|].
  apply (SeField _ _ _ _ _ n_circle_value (TItem 1)); [cbn; tauto|apply one_becomes; try reflexivity; try discriminate; apply circle_seen|constructor].
Qed.
(** The old program changes the name, and makes the id 66. *)
Definition o_new : list value := [VU 66; VStr [98]; o_circle].
Definition n_new : list value := [VOpt (Some (VStr [104; 105])); VU 66; VList [VVar 1 (VRec []); n_circle_value]; VStr [98]; n_circle_value;
  VList [VRec [VOpt None; VU 1; VList []; VStr []; VVar 1 (VRec []); VList []]]].
Lemma n_edited (ign : bool) : edited n_env ign o_env (named (vb_fields o_node) o_new) (vb_fields n_node) n_values n_new.
Proof.
  apply EdTheirs; [cbn; intuition discriminate|].
  apply (EdOurs _ _ _ _ _ _ (VU 66) (TUInt 32)); [cbn; tauto|apply one_becomes; try reflexivity; try discriminate; constructor; vm_compute; discriminate|].
  apply EdTheirs; [cbn; intuition discriminate|].
  apply (EdOurs _ _ _ _ _ _ (VStr [98]) TString); [cbn; tauto|apply one_becomes; try reflexivity; try discriminate; eapply ElBlob; constructor; try (now left); reflexivity|].
  apply (EdOurs _ _ _ _ _ _ o_circle (TItem 1)); [cbn; tauto|apply one_becomes; try reflexivity; try discriminate; apply circle_back|].
  apply EdTheirs; [cbn; intuition discriminate|constructor].
Qed.
Lemma o_new_typed : Forall2 (has_type o_env) o_new (map fd_ty (vb_fields o_node)).
Proof.
  apply Forall2_cons; [constructor; vm_compute; discriminate|]. apply Forall2_cons; [constructor; [now left|now apply okb_ok|reflexivity]|]. apply Forall2_cons; [|constructor].
  eapply (TyCatch o_env 1 _ 2 o_other); try reflexivity; [cbn; intuition discriminate| |].
  - apply Forall2_cons; [|constructor]. constructor. repeat (apply Forall_cons; [vm_compute; auto; repeat split; try discriminate; auto|]). constructor.
  - intros _ fs E. injection E as <-. repeat constructor; intros [].
Qed.
