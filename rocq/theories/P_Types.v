(** * P_Types: induction on values, decidable equality *)

From Verif Require Import Base Types SpecDe P_Base.

Section NodeInd.
  Variable P : node -> Prop.
  Hypothesis HInt : forall n, P (NInt n).
  Hypothesis HBlob : forall b, P (NBlob b).
  Hypothesis HStruct : forall fs, Forall (fun f => P (snd f)) fs -> P (NStruct fs).
  Hypothesis HEnum : forall d fs, Forall (fun f => P (snd f)) fs -> P (NEnum d fs).
  Fixpoint node_ind' (n : node) : P n :=
    let go := fix go (fs : list (N * node)) : Forall (fun f => P (snd f)) fs :=
      match fs with [] => Forall_nil _ | f :: r => Forall_cons f (node_ind' (snd f)) (go r) end in
    match n with
    | NInt n => HInt n
    | NBlob b => HBlob b
    | NStruct fs => HStruct fs (go fs)
    | NEnum d fs => HEnum d fs (go fs)
    end.
End NodeInd.

Section ValueInd.
  Variable P : value -> Prop.
  Hypothesis Hleaf : forall v, match v with
    | VArr _ | VList _ | VMap _ | VOpt (Some _) | VRec _ | VVar _ _ | VCatch _ _ => True | _ => P v end.
  Hypothesis HArr : forall vs, Forall P vs -> P (VArr vs).
  Hypothesis HList : forall vs, Forall P vs -> P (VList vs).
  Hypothesis HMap : forall kvs, Forall (fun p => P (fst p) /\ P (snd p)) kvs -> P (VMap kvs).
  Hypothesis HSome : forall v, P v -> P (VOpt (Some v)).
  Hypothesis HRec : forall vs, Forall P vs -> P (VRec vs).
  Hypothesis HVar : forall i v, P v -> P (VVar i v).
  Hypothesis HCatch : forall d v, P v -> P (VCatch d v).
  Fixpoint value_ind' (v : value) : P v :=
    let go := fix go (vs : list value) : Forall P vs :=
      match vs with [] => Forall_nil _ | x :: r => Forall_cons x (value_ind' x) (go r) end in
    let gom := fix gom (kvs : list (value * value)) : Forall (fun p => P (fst p) /\ P (snd p)) kvs :=
      match kvs with
      | [] => Forall_nil _
      | p :: r => Forall_cons p (conj (value_ind' (fst p)) (value_ind' (snd p))) (gom r)
      end in
    match v with
    | VArr vs => HArr vs (go vs)
    | VList vs => HList vs (go vs)
    | VMap kvs => HMap kvs (gom kvs)
    | VOpt (Some x) => HSome x (value_ind' x)
    | VRec vs => HRec vs (go vs)
    | VVar i x => HVar i x (value_ind' x)
    | VCatch d x => HCatch d x (value_ind' x)
    | VU n => Hleaf (VU n) | VS z => Hleaf (VS z) | VB b => Hleaf (VB b) | VChar c => Hleaf (VChar c)
    | VPhantom => Hleaf VPhantom | VStr b => Hleaf (VStr b) | VBytes b => Hleaf (VBytes b)
    | VArrB b => Hleaf (VArrB b) | VOpt None => Hleaf (VOpt None) | VUnk fs => Hleaf (VUnk fs)
    | VNode n => Hleaf (VNode n)
    end.
End ValueInd.

(** ** Sums and maxima *)
Lemma sumN_app a b : sumN (a ++ b) = sumN a + sumN b.
Proof. unfold sumN, maxN. induction a; cbn [app fold_right]; lia. Qed.
Lemma maxN_app a b : maxN (a ++ b) = N.max (maxN a) (maxN b).
Proof. unfold sumN, maxN. induction a; cbn [app fold_right]; lia. Qed.
Lemma zipw_app {A B C} (f : A -> B -> C) a : forall b c d, List.length a = List.length c ->
  zipw f (a ++ b) (c ++ d) = zipw f a c ++ zipw f b d.
Proof. induction a as [|x a IH]; intros b [|y c] d H; cbn in *; try discriminate; [reflexivity|]. f_equal. apply IH. lia. Qed.

Lemma nodes_ok_fold fs : fold_right (fun f P => (SpecFormat.tag_ok (fst f) /\ node_ok (snd f)) /\ P) True fs <-> nodes_ok fs.
Proof.
  induction fs as [|f r IH]; cbn; [split; [constructor|auto]|]. rewrite IH. split.
  - intros [H1 H2]. now constructor.
  - intros H. inversion H; subst. auto.
Qed.

Lemma Forall2_len {A B} (R : A -> B -> Prop) l m : Forall2 R l m -> List.length l = List.length m.
Proof. induction 1; cbn; congruence. Qed.

Lemma NoDup_app_snoc {A} (l : list A) x : NoDup l -> ~ In x l -> NoDup (l ++ [x]).
Proof.
  induction 1 as [|y l Hy Hl IH]; cbn; intros Hn; [repeat constructor; auto|].
  constructor; [|apply IH; tauto]. rewrite in_app_iff. cbn. intros [|[->|[]]]; tauto.
Qed.

Lemma Forall2_imp {A B} (R R' : A -> B -> Prop) l m : (forall x y, R x y -> R' x y) -> Forall2 R l m -> Forall2 R' l m.
Proof. intros H. induction 1; constructor; auto. Qed.
