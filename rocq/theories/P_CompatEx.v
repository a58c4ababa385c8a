(** * P_CompatEx: an old and a new schema *)

From Verif Require Import Base Wire Dev Stream Types Ser Prog De SpecWire SpecFormat SpecStream SpecWrite SpecDe SpecDoc SpecSerDe SpecRead SpecCompat SpecChange P_Ex.

(** Old: a record with an id, a name, two numbers, a flag, a shape and
    children; a shape is a dot or a circle. *)
Definition v1_node : vbody := mkB [mkF "id" 1 (TUInt 16); mkF "name" 2 TString; mkF "xy" 3 (TArray 2 (TSInt 32)); mkF "flag" 4 TBool;
  mkF "shape" 5 (TItem 1); mkF "kids" 6 (TVec (TItem 0))] SpNone ok_all.
Definition v1_shape : item := IEnum [(1, mkB [] SpNone ok_all); (2, mkB [mkF "r" 1 (TUInt 32)] SpNone ok_all)] None.
Definition v1 : env := fun i => match i with 0%nat => IStruct v1_node | 1%nat => v1_shape | _ => IStruct (mkB [] SpNone ok_all) end.
(** New: a wider id, an optional name, any number of numbers, no flag, a set
    of shapes, boxed children, a remark; there are squares too, and circles
    have a colour. *)
Definition v2_node : vbody := mkB [mkF "remark" 9 (TOption TString); mkF "id" 1 (TUInt 64); mkF "name" 2 (TOption TCowBytes); mkF "xy" 3 (TVec (TSInt 64));
  mkF "shape" 5 (TSet (TItem 1)); mkF "kids" 6 (TSeq (TBox (TItem 0)))] SpNone ok_all.
Definition v2_shape : item := IEnum [(3, mkB [mkF "side" 1 (TUInt 32)] SpNone ok_all); (1, mkB [] SpNone ok_all);
  (2, mkB [mkF "r" 1 (TUInt 64); mkF "colour" 2 (TOption (TUInt 32))] SpNone ok_all)] None.
Definition v2 : env := fun i => match i with 0%nat => IStruct v2_node | 1%nat => v2_shape | _ => IStruct (mkB [] SpNone ok_all) end.
Lemma v1_wf : env_wf v1.
Proof. intros [|[|i]]; wf_item. Qed.
Lemma v2_wf : env_wf v2.
Proof. intros [|[|i]]; wf_item. Qed.
Lemma v_compatible : compatible v1 v2 true eq.
Proof.
  assert (Hacc : forall fs sp, accepts (mkB fs sp ok_all)) by (intros fs sp vs; reflexivity).
  assert (Hw : forall t t', within (card_of t) (card_of t') <-> within (card_of t) (card_of t')) by tauto.
  intros i j <-. destruct i as [|[|i]]; cbn [v1 v2].
  - apply IxStruct; [reflexivity|]. apply BxFields; try reflexivity; [apply Hacc| |now left]. cbn [declared map vb_fields v1_node v2_node fd_tag fd_ty].
    apply FeAdded; [cbn; intuition discriminate|reflexivity|reflexivity|].
    apply (FeThere _ _ _ 1 (TUInt 16)); [cbn; tauto|constructor; try reflexivity; [split; cbn; lia|apply XtUInt; lia]|].
    apply (FeThere _ _ _ 2 TString); [cbn; tauto|constructor; try reflexivity; [split; cbn; lia|apply XtStr; [now left|right; right; now left]]|].
    apply (FeThere _ _ _ 3 (TArray 2 (TSInt 32))); [cbn; tauto|constructor; try reflexivity; [split; cbn; [lia|exact Logic.I]|apply XtSInt; unfold width_ok; auto; lia]|].
    apply (FeThere _ _ _ 5 (TItem 1)); [cbn; tauto|constructor; try reflexivity; [split; cbn; [lia|exact Logic.I]|now apply XtItem]|].
    apply (FeThere _ _ _ 6 (TVec (TItem 0))); [cbn; tauto|constructor; try reflexivity; [split; cbn; [lia|exact Logic.I]|cbn [each]; apply XtBoxNew; now apply XtItem]|constructor].
  - apply IxEnum; [|exact Logic.I]. intros d b [E|[E|[]]]; injection E as <- <-; left.
    + eexists _, _. split; [reflexivity|]. apply BxFields; try reflexivity; [apply Hacc|constructor|now left].
    + eexists _, _. split; [reflexivity|]. apply BxFields; try reflexivity; [apply Hacc| |now left].
      apply (FeThere _ _ _ 1 (TUInt 32)); [now left|constructor; try reflexivity; [split; cbn; lia|apply XtUInt; lia]|].
      apply FeAdded; [cbn; intuition discriminate|reflexivity|reflexivity|constructor].
  - apply IxStruct; [reflexivity|]. apply BxFields; try reflexivity; [apply Hacc|constructor|now left].
Qed.
Lemma v_top : top v1 v2 true eq (TItem 0) (TItem 0).
Proof. now apply (TpStruct _ _ _ _ 0 0 v1_node v2_node). Qed.
Definition v2_closure : list ty := [TItem 0; TItem 1; TOption TString; TString; TUInt 64; TOption TCowBytes; TCowBytes; TVec (TSInt 64); TSInt 64; TSet (TItem 1);
  TSeq (TBox (TItem 0)); TBox (TItem 0); TUInt 32; TOption (TUInt 32)].
Lemma v2_deserialisable : deserialisable v2 true (TItem 0).
Proof.
  assert (H : forall t, In t v2_closure -> deserialisable v2 true t); [|apply H; now left].
  intros t Hin H. revert Hin. induction H; intros Hin; unfold v2_closure in Hin; cbn [In] in Hin;
    repeat (destruct Hin as [Hin|Hin]); try discriminate; try contradiction;
    injection Hin as <-; apply IHno_impl; unfold v2_closure; cbn in *; intuition.
Qed.

Definition v1_value : value :=
  VRec [VU 65535; VStr [104; 105]; VArr [VS (-1); VS 7]; VB true; VVar 1 (VRec [VU 9]);
        VList [VRec [VU 1; VStr []; VArr [VS 0; VS 0]; VB false; VVar 0 (VRec []); VList []]]].
Definition v2_value : value :=
  VRec [VOpt None; VU 65535; VOpt (Some (VBytes [104; 105])); VList [VS (-1); VS 7]; VList [VVar 2 (VRec [VU 9; VOpt None])];
        VList [VRec [VOpt None; VU 1; VOpt (Some (VBytes [])); VList [VS 0; VS 0]; VList [VVar 1 (VRec [])]; VList []]]].
Lemma v1_typed : has_type v1 v1_value (TItem 0).
Proof.
  assert (Hs : forall bs, okb bs = true -> utf8_ok bs = true -> has_type v1 (VStr bs) TString).
  { intros bs H1 H2. constructor; [now left|now apply okb_ok|exact H2]. }
  assert (Hz : forall z, (-100 <= z <= 100)%Z -> has_type v1 (VS z) (TSInt 32)) by (intros z H; constructor; unfold smin, smax; cbn; lia).
  assert (Ha : forall y z, (-100 <= y <= 100)%Z -> (-100 <= z <= 100)%Z -> has_type v1 (VArr [VS y; VS z]) (TArray 2 (TSInt 32))).
  { intros y z H1 H2. constructor; [reflexivity|reflexivity|]. constructor; [now apply Hz|constructor; [now apply Hz|constructor]]. }
  assert (Hk : has_type v1 (VRec [VU 1; VStr []; VArr [VS 0; VS 0]; VB false; VVar 0 (VRec []); VList []]) (TItem 0)).
  { apply (TyStruct _ 0 v1_node); [reflexivity| |reflexivity|exact Logic.I].
    repeat apply Forall2_cons; [constructor; vm_compute; discriminate|apply Hs; reflexivity|apply Ha; lia|constructor| |constructor; [reflexivity|constructor]|constructor].
    eapply (TyVar _ 1 _ _ 0 1); try reflexivity; constructor. }
  apply (TyStruct _ 0 v1_node); [reflexivity| |reflexivity|exact Logic.I].
  repeat apply Forall2_cons; [constructor; vm_compute; discriminate|apply Hs; reflexivity|apply Ha; lia|constructor| |constructor; [reflexivity|constructor; [exact Hk|constructor]]|constructor].
  eapply (TyVar _ 1 _ _ 1 2); try reflexivity; try exact Logic.I. repeat constructor. vm_compute. discriminate.
Qed.
