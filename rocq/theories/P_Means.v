(** * P_Means: deserialising a tree finds its meaning *)

From Verif Require Import P_Sets P_Ord Base Wire Stream Types Ser Prog De SpecFormat SpecDe SpecRead Tree P_Base P_Types P_Dict P_DictAll.

(** ** Costs *)
Lemma cost_eq x y : k_lev x = k_lev y -> k_coll x = k_coll y -> k_blob x = k_blob y -> x = y.
Proof. destruct x, y; cbn; intros -> -> ->; reflexivity. Qed.
Ltac cost := apply cost_eq; cbn [cadd cdeep czero cone cbytes k_lev k_coll k_blob]; lia.
Lemma cadd_0_l x : cadd czero x = x. Proof. cost. Qed.
Lemma cadd_0_r x : cadd x czero = x. Proof. cost. Qed.
Lemma cadd_assoc x y z : cadd (cadd x y) z = cadd x (cadd y z). Proof. cost. Qed.
Lemma cadd_comm x y : cadd x y = cadd y x. Proof. cost. Qed.
Lemma cdeep_add x y : cdeep (cadd x y) = cadd (cdeep x) (cdeep y). Proof. cost. Qed.

Lemma rbind_ret {A B} (a : A) (f : A -> R B) : rbind (rret a) f = f a.
Proof. unfold rbind, rret. destruct (f a) as [[b y]|]; [|reflexivity]. now rewrite cadd_0_l. Qed.
Lemma rbind_ret_r {A} (m : R A) : rbind m rret = m.
Proof. destruct m as [[a x]|]; [|reflexivity]. cbn. now rewrite cadd_0_r. Qed.
Lemma rbind_assoc {A B C} (m : R A) (f : A -> R B) (g : B -> R C) :
  rbind (rbind m f) g = rbind m (fun a => rbind (f a) g).
Proof.
  destruct m as [[a x]|]; [|reflexivity]. cbn. destruct (f a) as [[b y]|]; [|reflexivity]. cbn.
  destruct (g b) as [[c z]|]; [|reflexivity]. now rewrite cadd_assoc.
Qed.
Lemma rbind_ext {A B} (m : R A) (f g : A -> R B) : (forall a, f a = g a) -> rbind m f = rbind m g.
Proof. intros H. destruct m as [[a x]|]; [|reflexivity]. cbn. now rewrite H. Qed.
Lemma rbind_swap {A B C} (m : R A) (n : R B) (k : A -> B -> R C) :
  rbind m (fun a => rbind n (k a)) = rbind n (fun b => rbind m (fun a => k a b)).
Proof.
  destruct m as [[a x]|], n as [[b y]|]; try reflexivity. cbn. destruct (k a b) as [[c z]|]; [|reflexivity].
  now rewrite <- !cadd_assoc, (cadd_comm x y).
Qed.
Lemma rbind_none {A B} (m : R A) : rbind m (fun _ => @rnone B) = rnone.
Proof. now destruct m as [[a x]|]. Qed.
Lemma rdeep_bind {A B} (m : R A) (f : A -> R B) : rdeep (rbind m f) = rbind (rdeep m) (fun a => rdeep (f a)).
Proof.
  destruct m as [[a x]|]; [|reflexivity]. cbn. destruct (f a) as [[b y]|]; [|reflexivity]. cbn. now rewrite cdeep_add.
Qed.
Lemma rmap_ext {A B} (f g : A -> R B) l : (forall a, f a = g a) -> rmap f l = rmap g l.
Proof. intros H. induction l as [|a l IH]; [reflexivity|]. cbn [rmap]. rewrite H, IH. reflexivity. Qed.

(** ** Agreement *)
Definition cplus (c : cs) (x : cost) : cs := mkC (c_lev c) (c_coll c + k_coll x) (c_blob c + k_blob x) (c_path c).
Section Agree.
  Variable cf : cfg.
  Definition inv (F : nat) (c : cs) : Prop :=
    c_lev c <= cf_rec cf /\ cf_rec cf < c_lev c + N.of_nat F /\ c_coll c <= cf_collect cf /\ c_blob c <= cf_blob cf.
  Definition room (x : cost) (c : cs) : Prop :=
    c_lev c + k_lev x <= cf_rec cf /\ c_coll c + k_coll x <= cf_collect cf /\ c_blob c + k_blob x <= cf_blob cf.
  Definition over (k : ekind) (x : cost) (c : cs) : Prop :=
    match k with
    | KRecLimit => cf_rec cf < c_lev c + k_lev x
    | KMaxCollect => cf_collect cf < c_coll c + k_coll x
    | KMaxBlob => cf_blob cf < c_blob c + k_blob x
    | _ => False
    end.
  Definition agree (F : nat) {A} (m : T A) (o : R A) : Prop :=
    forall c, inv F c ->
    match o with
    | Some (v, x) =>
        match m c with
        | (ROk w, c') => w = v /\ c' = cplus c x /\ room x c
        | (RErr k, _) => over k x c
        | _ => False
        end
    | None => match m c with (ROk _, _) => False | _ => True end
    end.

  Lemma over_l k x y c : over k x c -> over k (cadd x y) c.
  Proof. destruct k; cbn; try contradiction; lia. Qed.
  Lemma over_r k x y c : over k y (cplus c x) -> over k (cadd x y) c.
  Proof. destruct k; cbn; try contradiction; lia. Qed.

  Lemma agree_ret F {A} (a : A) : agree F (mret a) (rret a).
  Proof. intros c (H1 & H2 & H3 & H4). cbn. split; [reflexivity|]. split; [unfold cplus; destruct c; cbn; f_equal; lia|]. unfold room. cbn. lia. Qed.
  Lemma agree_bind F {A B} (m : T A) (f : A -> T B) o g : agree F m o -> (forall a, agree F (f a) (g a)) -> agree F (mbind m f) (rbind o g).
  Proof.
    intros Hm Hf c Hc. specialize (Hm c Hc). unfold mbind, rbind. destruct o as [[v x]|].
    - destruct (m c) as [[w|k| |] c1]; try contradiction.
      + destruct Hm as (-> & -> & Hr). specialize (Hf v (cplus c x)).
        assert (Hc1 : inv F (cplus c x)). { destruct Hc as (I1 & I2 & I3 & I4). destruct Hr as (R1 & R2 & R3). unfold inv, cplus. cbn. lia. }
        specialize (Hf Hc1). destruct (g v) as [[b y]|].
        * destruct (f v (cplus c x)) as [[b'|k| |] c2]; try contradiction.
          -- destruct Hf as (-> & -> & Hr2). split; [reflexivity|]. destruct Hr as (R1 & R2 & R3), Hr2 as (S1 & S2 & S3). cbn in S1, S2, S3.
             split; [unfold cplus; cbn; f_equal; lia|]. unfold room. cbn. lia.
          -- now apply over_r.
        * destruct (f v (cplus c x)) as [[b'|k| |] c2]; auto.
      + destruct (g v) as [[b y]|]; [|exact I]. now apply over_l.
    - destruct (m c) as [[w|k| |] c1]; try contradiction; auto.
  Qed.
  Lemma agree_le F F' {A} (m : T A) o : (F' <= F)%nat -> agree F m o -> agree F' m o.
  Proof. intros Hle H c (I1 & I2 & I3 & I4). apply H. repeat split; auto. lia. Qed.
  Lemma agree_ext F {A} (m : T A) o o' : agree F m o -> o = o' -> agree F m o'.
  Proof. intros H <-. exact H. Qed.
  Lemma agree_deep F {A B nm} (m : T A) (o : R A) (h : A -> B) : agree F m o ->
    agree (S F) (t_push cf nm ;; let* a := m in t_pop ;; mret (h a)) (let! a := rdeep o in rret (h a)).
  Proof.
    intros Hm c (I1 & I2 & I3 & I4). unfold t_push, mbind.
    destruct (N.leb_spec (cf_rec cf) (c_lev c)) as [Hl|Hl].
    - destruct o as [[a x]|]; cbn; [lia|exact I].
    - specialize (Hm (mkC (c_lev c + 1) (c_coll c) (c_blob c) (nm :: c_path c))).
      assert (Hi : inv F (mkC (c_lev c + 1) (c_coll c) (c_blob c) (nm :: c_path c))) by (unfold inv; cbn; lia). specialize (Hm Hi).
      destruct o as [[a x]|]; cbn [rdeep rbind rret].
      + destruct (m _) as [[w|k| |] c1]; try contradiction.
        * destruct Hm as (-> & -> & Hr). cbn. split; [reflexivity|]. destruct Hr as (R1 & R2 & R3). cbn in R1, R2, R3.
          split; [unfold cplus; cbn; f_equal; lia|]. unfold room. cbn. lia.
        * destruct k; cbn in *; try contradiction; lia.
      + destruct (m _) as [[w|k| |] c1]; try contradiction; auto.
  Qed.
  Lemma agree_deep1 F {A nm} (m : T A) (o : R A) : agree F m o ->
    agree (S F) (t_push cf nm ;; let* a := m in t_pop ;; mret a) (rdeep o).
  Proof. intros H. eapply agree_ext; [apply (agree_deep (nm := nm) F m o (fun a => a)); exact H|]. apply rbind_ret_r. Qed.
  (** Followed by anything. *)
  Lemma agree_deep_k F {A B nm} (m : T A) (o : R A) (k : A -> T B) (g : A -> R B) : agree F m o -> (forall a, agree (S F) (k a) (g a)) ->
    agree (S F) (t_push cf nm ;; let* a := m in t_pop ;; k a) (let! a := rdeep o in g a).
  Proof.
    intros Hm Hk.
    pose proof (agree_bind (S F) _ _ _ _ (agree_deep1 (nm := nm) F m o Hm) Hk) as H.
    intros c Hc. specialize (H c Hc).
    replace ((t_push cf nm;; (let* a := m in t_pop;; k a)) c) with ((let* a := t_push cf nm;; (let* a := m in t_pop;; mret a) in k a) c); [exact H|].
    unfold mbind. destruct (t_push cf nm c) as [[u|x| |] c1]; try reflexivity.
    destruct (m c1) as [[a|x| |] c2]; reflexivity.
  Qed.
  Lemma agree_collect F {A} (m : T A) o : agree F m o -> agree F (t_collect cf ;; m) (rcost cone o).
  Proof.
    intros Hm c Hc. pose proof Hc as (I1 & I2 & I3 & I4). unfold t_collect, mbind.
    destruct (N.ltb_spec (cf_collect cf) (c_coll c + 1)) as [Hl|Hl].
    - destruct o as [[a x]|]; cbn; [lia|exact I].
    - specialize (Hm (mkC (c_lev c) (c_coll c + 1) (c_blob c) (c_path c)) ltac:(unfold inv; cbn; lia)). destruct o as [[a x]|]; cbn [rcost].
      + destruct (m _) as [[w|k| |] c1]; try contradiction.
        * destruct Hm as (-> & -> & R1 & R2 & R3). cbn in R1, R2, R3. split; [reflexivity|]. split; [unfold cplus; cbn; f_equal; lia|]. unfold room. cbn. lia.
        * destruct k; cbn in *; try contradiction; lia.
      + destruct (m _) as [[w|k| |] c1]; try contradiction; auto.
  Qed.
  Lemma agree_quota F {A} n (a : A) : agree F (t_quota cf n ;; mret a) (Some (a, cbytes n)).
  Proof.
    intros c (I1 & I2 & I3 & I4). unfold t_quota, mbind. destruct (N.ltb_spec (cf_blob cf) (c_blob c + n)); cbn; [lia|].
    split; [reflexivity|]. split; [unfold cplus; cbn; f_equal; lia|]. unfold room; cbn; lia.
  Qed.
  Lemma agree_none F {A} (m : T A) : (forall c, match m c with (ROk _, _) => False | _ => True end) -> agree F m rnone.
  Proof. intros H c _. exact (H c). Qed.
  Lemma agree_fail F {A} k : agree F (@mfail cs ekind A k) rnone.
  Proof. apply agree_none. intros c. exact I. Qed.
  Lemma agree_ill F {A} : agree F (@t_ill A) rnone.
  Proof. apply agree_none. intros c. exact I. Qed.
  Lemma agree_0 {A} (m : T A) o : agree 0 m o.
  Proof. intros c (I1 & I2 & _). cbn in I2. lia. Qed.
  Lemma agree_lift F {A B} (r : res serr A) (k : A -> T B) o :
    match r with ROk a => agree F (k a) o | RErr _ => o = None | _ => False end -> agree F (let* a := t_lift r in k a) o.
  Proof.
    destruct r as [a|x| |]; try contradiction.
    - intros H c Hc. exact (H c Hc).
    - intros -> c Hc. exact I.
  Qed.
End Agree.

(** ** Accumulators *)
Record sdict := mkS {
  s_init : acc;
  s_field : acc -> N -> node -> R acc;
  s_fin : acc -> R value
}.
Fixpoint s_fold (d : sdict) (a : acc) (occ : list (N * node)) : R acc :=
  match occ with
  | [] => rret a
  | (tag, n) :: r => let! a' := s_field d a tag n in s_fold d a' r
  end.
Definition s_occ (d : sdict) (a : acc) (occ : list (N * node)) : R value := let! a' := s_fold d a occ in s_fin d a'.
Lemma s_occ_cons d a tag n occ : s_occ d a ((tag, n) :: occ) = let! a' := s_field d a tag n in s_occ d a' occ.
Proof. unfold s_occ. cbn [s_fold]. apply rbind_assoc. Qed.
Lemma s_occ_nil d a : s_occ d a [] = s_fin d a.
Proof. unfold s_occ. cbn [s_fold]. apply rbind_ret. Qed.

Record dag (cf : cfg) (F : nat) (td : tdict) (mn : meaning) : Prop := mkDag {
  da_elem : forall tag n, agree cf F (t_elem td tag n) (m_elem mn n);
  da_body : forall ks, agree cf F (t_body td ks) (m_body mn ks);
  da_occ : exists sd, t_init td = s_init sd /\
     (forall a tag n, agree cf F (t_field td a tag n) (s_field sd a tag n)) /\
     (forall a, agree cf F (t_fin td a) (s_fin sd a)) /\
     forall occ, s_occ sd (s_init sd) occ = m_occ mn occ
}.
(** Only fields matter. *)
Definition fag (cf : cfg) (F : nat) (td : tdict) (occ : list (N * node) -> R value) : Prop :=
  exists sd, t_init td = s_init sd /\
     (forall a tag n, agree cf F (t_field td a tag n) (s_field sd a tag n)) /\
     (forall a, agree cf F (t_fin td a) (s_fin sd a)) /\
     forall o, s_occ sd (s_init sd) o = occ o.

(** ** Bodies *)
Section Bodies.
  Variable ign : bool.
  Definition sfdict := (string * N * sdict)%type.
  Definition s_step (fs : list sfdict) (unk : option sdict) (st : list acc * acc) (tag : N) (n : node) : R (list acc * acc) :=
    let '(accs, ua) := st in
    match find_tag tag fs with
    | Some (i, _, d) => let! a := rdeep (s_field d (nth i accs (AOpt None)) tag n) in rret (upd i a accs, ua)
    | None =>
        match unk with
        | Some d => let! a := rdeep (s_field d ua tag n) in rret (accs, a)
        | None => if ign then rret st else rnone
        end
    end.
  Fixpoint s_loop {A} (step : A -> N -> node -> R A) (st : A) (ks : list (N * node)) : R A :=
    match ks with [] => rret st | (tag, n) :: r => let! st' := step st tag n in s_loop step st' r end.
  Fixpoint s_finish (fs : list sfdict) (accs : list acc) : R (list value) :=
    match fs, accs with
    | (_, _, d) :: fs', a :: accs' => let! v := rdeep (s_fin d a) in let! vs := s_finish fs' accs' in rret (v :: vs)
    | [], [] => rret []
    | _, _ => rnone
    end.
  Definition s_inits (fs : list sfdict) : list acc := map (fun f => s_init (snd f)) fs.

  (** The same by tags. *)
  Fixpoint r_fields (fs : list sfdict) (accs : list acc) (ks : list (N * node)) : R (list value * list (N * node)) :=
    match fs, accs with
    | (_, tag, d) :: fs', a :: accs' =>
        let! v := rdeep (s_occ d a (with_tag tag ks)) in
        let! r := r_fields fs' accs' (without_tag tag ks) in
        rret (v :: fst r, snd r)
    | [], [] => rret ([], ks)
    | _, _ => rnone
    end.
  Lemma r_fields_nil fs : forall accs, r_fields fs accs [] = let! vs := s_finish fs accs in rret (vs, []).
  Proof.
    induction fs as [|[[nm tag] d] fs IH]; intros [|a accs]; cbn [r_fields s_finish]; try reflexivity.
    - cbn [with_tag without_tag filter]. rewrite s_occ_nil, rbind_assoc. apply rbind_ext. intros v. rewrite IH, !rbind_assoc. apply rbind_ext.
      intros vs. now rewrite !rbind_ret.
  Qed.
  Lemma r_fields_known fs : forall accs tag n ks i nm d, List.length accs = List.length fs -> find_tag tag fs = Some (i, nm, d) ->
    r_fields fs accs ((tag, n) :: ks) =
    let! a := rdeep (s_field d (nth i accs (AOpt None)) tag n) in r_fields fs (upd i a accs) ks.
  Proof.
    induction fs as [|[[nm0 t0] d0] fs IH]; intros [|a0 accs] tag n ks i nm d Hl Hf; try discriminate.
    cbn [find_tag] in Hf. cbn [r_fields with_tag without_tag filter fst]. rewrite (N.eqb_sym tag t0).
    destruct (t0 =? tag) eqn:Et.
    - injection Hf as <- <- <-. cbn [negb upd nth]. rewrite s_occ_cons, rdeep_bind, rbind_assoc. apply rbind_ext. intros a. reflexivity.
    - destruct (find_tag tag fs) as [[[i' nm'] d']|] eqn:Ef; [|discriminate]. injection Hf as <- <- <-. cbn [negb nth].
      fold (with_tag t0 ks) (without_tag t0 ks).
      rewrite (rbind_ext _ _ (fun v => rbind (rdeep (s_field d' (nth i' accs (AOpt None)) tag n)) (fun a =>
          rbind (r_fields fs (upd i' a accs) (without_tag t0 ks)) (fun r => rret (v :: fst r, snd r))))).
      + rewrite rbind_swap. apply rbind_ext. intros a. reflexivity.
      + intros v. rewrite (IH accs tag n _ _ _ _ ltac:(now injection Hl) Ef), rbind_assoc. reflexivity.
  Qed.
  Lemma r_fields_unknown fs : forall accs tag n ks, find_tag tag fs = None ->
    r_fields fs accs ((tag, n) :: ks) = let! r := r_fields fs accs ks in rret (fst r, (tag, n) :: snd r).
  Proof.
    induction fs as [|[[nm0 t0] d0] fs IH]; intros [|a0 accs] tag n ks Hf; cbn [r_fields]; try reflexivity.
    - cbn [find_tag] in Hf. destruct (t0 =? tag) eqn:Et; [discriminate|]. destruct (find_tag tag fs) as [[[i' nm'] d']|] eqn:Ef; [discriminate|].
      cbn [with_tag without_tag filter fst]. rewrite (N.eqb_sym tag t0), Et. cbn [negb].
      fold (with_tag t0 ks) (without_tag t0 ks). rewrite rbind_assoc. apply rbind_ext. intros v. rewrite (IH accs tag n _ Ef), !rbind_assoc.
      apply rbind_ext. intros r. rewrite !rbind_ret. reflexivity.
  Qed.
  Lemma upd_len {A} i (a : A) l : List.length (upd i a l) = List.length l.
  Proof. revert i. induction l as [|x l IH]; intros [|i]; cbn; auto. Qed.

  Definition s_body (fs : list sfdict) (unk : option sdict) (accs : list acc) (ua : acc) (ks : list (N * node)) : R (list value) :=
    let! st := s_loop (s_step fs unk) (accs, ua) ks in
    let! vs := s_finish fs (fst st) in
    match unk with None => rret vs | Some d => let! v := rdeep (s_fin d (snd st)) in rret (vs ++ [v]) end.
  Definition r_body (fs : list sfdict) (unk : option sdict) (accs : list acc) (ua : acc) (ks : list (N * node)) : R (list value) :=
    let! r := r_fields fs accs ks in
    match unk with
    | Some d => let! v := rdeep (s_occ d ua (snd r)) in rret (fst r ++ [v])
    | None => match snd r with [] => rret (fst r) | _ => if ign then rret (fst r) else rnone end
    end.
  Lemma s_body_eq fs unk ks : forall accs ua, List.length accs = List.length fs -> s_body fs unk accs ua ks = r_body fs unk accs ua ks.
  Proof.
    induction ks as [|[tag n] ks IH]; intros accs ua Hl; unfold s_body, r_body; cbn [s_loop].
    - rewrite rbind_ret, r_fields_nil, rbind_assoc. cbn [fst]. apply rbind_ext. intros vs. rewrite rbind_ret. cbn [fst snd].
      destruct unk as [d|]; [|reflexivity]. now rewrite s_occ_nil.
    - rewrite rbind_assoc. unfold s_step at 1. destruct (find_tag tag fs) as [[[i nm] d]|] eqn:Ef.
      + rewrite (r_fields_known _ _ _ _ _ _ _ _ Hl Ef), !rbind_assoc. apply rbind_ext. intros a. rewrite rbind_ret.
        apply (IH (upd i a accs) ua). now rewrite upd_len.
      + rewrite (r_fields_unknown _ _ _ _ _ Ef), !rbind_assoc. destruct unk as [d|].
        * transitivity (let! a := rdeep (s_field d ua tag n) in s_body fs (Some d) accs a ks).
          { rewrite rbind_assoc. apply rbind_ext. intros a. now rewrite rbind_ret. }
          rewrite (rbind_ext _ _ (fun a => r_body fs (Some d) accs a ks)) by (intros a; now apply IH).
          unfold r_body. rewrite rbind_swap. apply rbind_ext. intros r. rewrite rbind_ret. cbn [fst snd].
          rewrite s_occ_cons, rdeep_bind, rbind_assoc. reflexivity.
        * destruct ign eqn:Ei.
          -- rewrite rbind_ret. transitivity (s_body fs None accs ua ks); [reflexivity|]. rewrite (IH accs ua Hl). unfold r_body. rewrite Ei. apply rbind_ext. intros r. rewrite rbind_ret. cbn [fst snd].
             destruct (snd r); reflexivity.
          -- transitivity (@rnone (list value)); [reflexivity|]. symmetry. etransitivity; [|apply (rbind_none (r_fields fs accs ks))]. apply rbind_ext. intros r. rewrite rbind_ret. reflexivity.
  Qed.
End Bodies.

Section AgreeBody.
  Variable cf : cfg.
  Variable F : nat.
  Definition fag3 (td : tdict) (sd : sdict) : Prop :=
    t_init td = s_init sd /\
    (forall a tag n, agree cf F (t_field td a tag n) (s_field sd a tag n)) /\
    (forall a, agree cf F (t_fin td a) (s_fin sd a)).
  Definition frel (t : tfdict) (s : sfdict) : Prop := fst t = fst s /\ fag3 (snd t) (snd s).

  Lemma find_tag_rel tag tfs sfs : Forall2 frel tfs sfs ->
    match find_tag tag tfs, find_tag tag sfs with
    | Some (i, nm, td), Some (j, nm', sd) => i = j /\ fag3 td sd
    | None, None => True
    | _, _ => False
    end.
  Proof.
    induction 1 as [|[[nm t] td] [[nm' t'] sd] tfs sfs [E H] HF IH]; [exact I|]. cbn in E. injection E as -> ->. cbn [find_tag snd] in *.
    destruct (t' =? tag); [auto|]. destruct (find_tag tag tfs) as [[[i n1] d1]|], (find_tag tag sfs) as [[[j n2] d2]|]; auto. destruct IH as [-> IH]. auto.
  Qed.
  Lemma agree_loop {A} (st1 : A -> N -> node -> T A) st2 : forall ks a,
    (forall a tag n, agree cf (S F) (st1 a tag n) (st2 a tag n)) -> agree cf (S F) (t_loop st1 a ks) (s_loop st2 a ks).
  Proof.
    induction ks as [|[tag n] ks IH]; intros a H; cbn [t_loop s_loop]; [apply agree_ret|].
    apply agree_bind; [apply H|]. intros a'. now apply IH.
  Qed.
  Definition urel (tu : option (string * tdict)) (su : option sdict) : Prop :=
    match tu, su with Some (_, td), Some sd => fag3 td sd | None, None => True | _, _ => False end.
  Lemma agree_step tfs sfs tu su st tag n : Forall2 frel tfs sfs -> urel tu su ->
    agree cf (S F) (t_step cf tfs tu st tag n) (s_step (cf_ignore cf) sfs su st tag n).
  Proof.
    intros Hf Hu. destruct st as [accs ua]. unfold t_step, s_step. pose proof (find_tag_rel tag _ _ Hf) as H.
    destruct (find_tag tag tfs) as [[[i n1] d1]|], (find_tag tag sfs) as [[[j n2] d2]|]; try contradiction.
    - destruct H as [-> (_ & H & _)]. apply (agree_deep cf F _ _ (fun a => (upd j a accs, ua))). apply H.
    - destruct tu as [[nm td]|], su as [sd|]; try contradiction.
      + destruct Hu as (_ & Hu & _). apply (agree_deep cf F _ _ (fun a => (accs, a))). apply Hu.
      + unfold t_unknown. destruct (cf_ignore cf).
        * intros c Hc. exact (agree_ret cf (S F) (accs, ua) c Hc).
        * apply agree_none. intros c. exact I.
  Qed.
  Lemma agree_finish tfs sfs : Forall2 frel tfs sfs -> forall accs, agree cf (S F) (t_finish_all cf tfs accs) (s_finish sfs accs).
  Proof.
    induction 1 as [|[[nm t] td] [[nm' t'] sd] tfs sfs [E (_ & _ & H)] HF IH]; intros [|a accs]; cbn [t_finish_all s_finish]; try apply agree_ill.
    - apply agree_ret.
    - apply agree_bind; [apply agree_deep1; apply H|]. intros v. apply agree_bind; [apply IH|]. intros vs. apply agree_ret.
  Qed.
  Lemma inits_rel tfs sfs : Forall2 frel tfs sfs -> t_inits tfs = s_inits sfs.
  Proof. induction 1 as [|t s tfs sfs [_ (E & _)] HF IH]; [reflexivity|]. unfold t_inits, s_inits in *. cbn [map]. now rewrite E, IH. Qed.
  Lemma agree_des_body tfs sfs tu su ks : Forall2 frel tfs sfs -> urel tu su ->
    agree cf (S F) (t_des_body cf tfs tu ks)
      (s_body (cf_ignore cf) sfs su (s_inits sfs) (match su with Some d => s_init d | None => AOpt None end) ks).
  Proof.
    intros Hf Hu. unfold t_des_body, s_body. rewrite (inits_rel _ _ Hf).
    replace (match tu with Some (_, d) => t_init d | None => AOpt None end) with (match su with Some d => s_init d | None => AOpt None end).
    2: { destruct tu as [[nm td]|], su as [sd|]; try contradiction; [|reflexivity]. symmetry. apply Hu. }
    apply agree_bind; [apply agree_loop; intros; now apply agree_step|]. intros st.
    apply agree_bind; [now apply agree_finish|]. intros vs.
    destruct tu as [[nm td]|], su as [sd|]; try contradiction; [|apply agree_ret].
    apply agree_bind; [apply agree_deep1; apply Hu|]. intros v. apply agree_ret.
  Qed.

  (** By meanings. *)
  Definition mrel (t : tfdict) (m : N * meaning) : Prop := snd (fst t) = fst m /\ fag cf F (snd t) (m_occ (snd m)).
  Definition smrel (s : sfdict) (m : N * meaning) : Prop :=
    snd (fst s) = fst m /\ forall occ, s_occ (snd s) (s_init (snd s)) occ = m_occ (snd m) occ.
  Lemma pick tfs ms : Forall2 mrel tfs ms -> exists sfs, Forall2 frel tfs sfs /\ Forall2 smrel sfs ms.
  Proof.
    induction 1 as [|[[nm t] td] m tfs ms [E (sd & E1 & E2 & E3 & E4)] HF (sfs & I1 & I2)].
    - exists []. split; constructor.
    - exists ((nm, t, sd) :: sfs). split; constructor; auto.
      + split; [reflexivity|]. split; auto.
      + split; auto.
  Qed.
  Lemma r_fields_means sfs ms : Forall2 smrel sfs ms -> forall ks, r_fields sfs (s_inits sfs) ks = m_fields ms ks.
  Proof.
    induction 1 as [|[[nm t] sd] [t' m] sfs ms [E H] HF IH]; intros ks; [reflexivity|]. cbn in E, H. subst t'.
    cbn [s_inits map r_fields m_fields snd]. fold (s_inits sfs). rewrite H. apply rbind_ext. intros v. now rewrite IH.
  Qed.
  Definition umrel (tu : option (string * tdict)) (m : option meaning) : Prop :=
    match tu, m with Some (_, td), Some m => fag cf F td (m_occ m) | None, None => True | _, _ => False end.
  Theorem agree_record tfs tu ms mu ks : Forall2 mrel tfs ms -> umrel tu mu ->
    agree cf (S F) (t_des_body cf tfs tu ks) (m_record (cf_ignore cf) ms mu ks).
  Proof.
    intros Hf Hu. destruct (pick _ _ Hf) as (sfs & H1 & H2).
    assert (Hs : exists su, urel tu su /\ match su, mu with Some sd, Some m => forall occ, s_occ sd (s_init sd) occ = m_occ m occ | None, None => True | _, _ => False end).
    { destruct tu as [[nm td]|], mu as [m|]; try contradiction.
      - destruct Hu as (sd & E1 & E2 & E3 & E4). exists (Some sd). split; [split; auto|exact E4].
      - exists None. split; exact I. }
    destruct Hs as (su & Hs1 & Hs2).
    eapply agree_ext; [apply (agree_des_body tfs sfs tu su ks H1 Hs1)|].
    rewrite s_body_eq by (unfold s_inits; apply map_length). unfold r_body, m_record. rewrite (r_fields_means _ _ H2). apply rbind_ext.
    intros r. destruct su as [sd|], mu as [m|]; try contradiction; [|reflexivity]. now rewrite Hs2.
  Qed.
  Lemma agree_inits tfs ms : Forall2 mrel tfs ms ->
    agree cf (S F) (t_finish_all cf tfs (t_inits tfs)) (let! r := m_fields ms [] in rret (fst r)).
  Proof.
    intros Hf. destruct (pick _ _ Hf) as (sfs & H1 & H2). rewrite (inits_rel _ _ H1).
    eapply agree_ext; [apply (agree_finish _ _ H1)|]. rewrite <- (r_fields_means _ _ H2), r_fields_nil, rbind_assoc.
    rewrite (rbind_ext _ _ rret); [now rewrite rbind_ret_r|]. intros vs. now rewrite rbind_ret.
  Qed.
  Lemma agree_top td occ ks : fag cf F td occ -> agree cf (S F) (t_body_default cf td ks) (m_top (cf_ignore cf) occ ks).
  Proof.
    intros H. unfold t_body_default, m_top. apply agree_bind.
    - apply agree_record; [|exact I]. constructor; [|constructor]. split; [reflexivity|exact H].
    - intros [|v [|w vs]]; try apply agree_ill. apply agree_ret.
  Qed.
End AgreeBody.

Ltac ag0 := try solve [apply agree_ill|apply agree_fail].
(** ** Types *)
Section Types.
  Variable cf : cfg.
  Let ign := cf_ignore cf.
  Variable F : nat.

  Lemma dag_fag td mn : dag cf F td mn -> fag cf F td (m_occ mn).
  Proof. intros [_ _ H]. exact H. Qed.
  Definition s_opt (conv : node -> R value) (fin : acc -> R value) : sdict :=
    mkS (AOpt None) (fun a _ n => match a with AOpt None => let! v := conv n in rret (AOpt (Some v)) | _ => rnone end) fin.
  Definition s_opt_fin (a : acc) : R value := match a with AOpt (Some v) => rret v | _ => rnone end.
  Lemma s_opt_many conv fin v : forall occ, occ <> [] -> s_occ (s_opt conv fin) (AOpt (Some v)) occ = rnone.
  Proof. intros [|[t n] occ] H; [congruence|]. rewrite s_occ_cons. reflexivity. Qed.
  Lemma s_opt_occ conv fin occ : s_occ (s_opt conv fin) (AOpt None) occ =
    match occ with [] => fin (AOpt None) | [(_, n)] => let! v := conv n in fin (AOpt (Some v)) | _ => rnone end.
  Proof.
    destruct occ as [|[t n] [|p occ]]; [apply s_occ_nil| |].
    - rewrite s_occ_cons. cbn [s_field s_opt]. rewrite rbind_assoc. apply rbind_ext. intros v. rewrite rbind_ret. apply s_occ_nil.
    - rewrite s_occ_cons. cbn [s_field s_opt]. rewrite rbind_assoc. etransitivity; [|apply (rbind_none (conv n))]. apply rbind_ext. intros v. rewrite rbind_ret.
      apply s_opt_many. discriminate.
  Qed.
  Lemma agree_opt_field tm conv mc a tag n : (forall tag n, agree cf F (conv tag n) (mc n)) ->
    agree cf F (t_opt_field tm conv a tag n) (s_field (s_opt mc s_opt_fin) a tag n).
  Proof.
    intros H. destruct a as [[v|]| | |]; cbn; ag0.
    apply agree_bind; [apply H|]. intros v. apply agree_ret.
  Qed.
  Lemma agree_opt_fin a : agree cf F (t_opt_fin a) (s_opt_fin a).
  Proof. destruct a as [[v|]| | |]; cbn; ag0; apply agree_ret. Qed.
  Lemma fag_once td tm conv mc : t_init td = AOpt None -> t_field td = t_opt_field tm conv -> t_fin td = t_opt_fin ->
    (forall tag n, agree cf F (conv tag n) (mc n)) -> fag cf F td (m_once mc).
  Proof.
    intros E1 E2 E3 H. exists (s_opt mc s_opt_fin). split; [exact E1|]. split; [intros; rewrite E2; now apply agree_opt_field|].
    split; [intros; rewrite E3; apply agree_opt_fin|]. intros o. change (s_init (s_opt mc s_opt_fin)) with (AOpt None). rewrite s_opt_occ.
    unfold m_once. destruct o as [|[t n] [|p o]]; try reflexivity. cbn. apply rbind_ret_r.
  Qed.
  Lemma agree_S {A} (m : T A) o : agree cf (S F) m o -> agree cf F m o.
  Proof. apply agree_le. lia. Qed.

  Lemma dag_unary conv mc : (forall tag n, agree cf F (conv tag n) (mc n)) -> dag cf F (t_unary cf conv) (m_simple ign mc).
  Proof.
    intros H.
    assert (Hf : fag cf F (t_unary cf conv) (m_once mc)) by now apply (fag_once _ (KTooMany 1) conv).
    split; [| |exact Hf].
    - intros tag n. cbn. eapply agree_ext; [apply agree_bind|].
      + apply (agree_opt_field (KTooMany 1) conv mc (AOpt None) tag n H).
      + intros a. apply agree_opt_fin.
      + cbn [s_field s_opt]. rewrite rbind_assoc. rewrite (rbind_ext _ _ rret); [apply rbind_ret_r|]. intros v. now rewrite rbind_ret.
    - intros ks. cbn. apply agree_S. apply agree_top.
      now apply (fag_once _ (KTooMany 1) conv).
  Qed.
  Lemma dag_struct tm body elem mb me : (forall ks, agree cf F (body ks) (mb ks)) -> (forall tag n, agree cf F (elem tag n) (me n)) ->
    dag cf F (t_struct tm body elem) (m_struct mb me).
  Proof.
    intros H1 H2. split; [exact H2|exact H1|]. now apply (fag_once _ tm elem).
  Qed.

  (** Conversions. *)
  Lemma ag_uint w tag n : agree cf F (t_conv_uint w tag n) (m_uint w n).
  Proof.
    unfold t_conv_uint, m_uint. apply agree_lift. destruct n; cbn [hdr_node to_uint]; try reflexivity.
    destruct (N.ltb_spec (umax w) n), (N.leb_spec n (umax w)); try lia; [reflexivity|apply agree_ret].
  Qed.
  Lemma ag_sint w tag n : agree cf F (t_conv_sint w tag n) (m_sint w n).
  Proof.
    unfold t_conv_sint, m_sint. apply agree_lift. destruct n; cbn [hdr_node to_sint]; try reflexivity. cbv zeta.
    destruct (Z.ltb_spec (unzigzag n) (smin w)), (Z.leb_spec (smin w) (unzigzag n)); try lia; cbn [andb]; [reflexivity|].
    destruct (Z.ltb_spec (smax w) (unzigzag n)), (Z.leb_spec (unzigzag n) (smax w)); try lia; [reflexivity|apply agree_ret].
  Qed.
  Lemma ag_bool tag n : agree cf F (t_conv_bool tag n) (m_bool n).
  Proof.
    unfold t_conv_bool, m_bool. apply agree_lift. destruct n; try reflexivity. unfold to_bool. cbn [hdr_node to_uint].
    assert (H1 : 1 <= umax 64) by (vm_compute; discriminate).
    destruct (N.ltb_spec (umax 64) n).
    - destruct (N.eqb_spec n 0); [lia|]. destruct (N.eqb_spec n 1); [lia|reflexivity].
    - destruct (n =? 0); [apply agree_ret|]. destruct (n =? 1); [apply agree_ret|reflexivity].
  Qed.
  Lemma ag_phantom tag n : agree cf F (t_conv_phantom tag n) (m_phantom n).
  Proof.
    unfold t_conv_phantom, m_phantom. apply agree_lift. destruct n; try reflexivity. cbn [hdr_node to_null].
    destruct (n =? 0); [apply agree_ret|reflexivity].
  Qed.
  Lemma ag_char tag n : agree cf F (t_conv_char tag n) (m_char n).
  Proof.
    unfold t_conv_char, m_char. apply agree_lift. destruct n; cbn [hdr_node to_uint]; try reflexivity.
    destruct (N.ltb_spec (umax 32) n), (N.leb_spec n (umax 32)); try lia; [reflexivity|]. cbn [andb].
    destruct (char_ok n); [apply agree_ret|apply agree_fail].
  Qed.
  Lemma ag_owned {A} n (k : bytes -> T A) o : agree cf F (let* bs := t_read_owned cf n in k bs) o <->
    agree cf F (let* len := t_lift (to_blob (hdr_node n)) in (t_quota cf len ;; k (blob_of n))) o.
  Proof.
    assert (E : forall c, (let* bs := t_read_owned cf n in k bs) c = (let* len := t_lift (to_blob (hdr_node n)) in (t_quota cf len ;; k (blob_of n))) c).
    { intros c. unfold t_read_owned, mbind. destruct (t_lift (to_blob (hdr_node n)) c) as [[l|x| |] c1]; try reflexivity.
      destruct (t_quota cf l c1) as [[u|x| |] c2]; reflexivity. }
    unfold agree. split; intros H c Hc; specialize (H c Hc); [rewrite <- E|rewrite E]; exact H.
  Qed.
  Lemma agree_quota_k {A} n (k : T A) o : agree cf F k o -> agree cf F (t_quota cf n ;; k) (rcost (cbytes n) o).
  Proof.
    intros Hm. assert (H : agree cf F (let* u := (t_quota cf n ;; mret tt) in k) (rbind (Some (tt, cbytes n)) (fun _ => o))).
    { apply agree_bind; [apply agree_quota|]. intros _. exact Hm. }
    intros c Hc. specialize (H c Hc). unfold mbind in *. destruct (t_quota cf n c) as [[u|x| |] c1]; exact H.
  Qed.
  Lemma ag_str tag n : agree cf F (t_conv_string cf tag n) (m_str true n).
  Proof.
    unfold t_conv_string. apply ag_owned, agree_lift. destruct n; cbn; try reflexivity.
    destruct (utf8_ok b).
    - eapply agree_ext; [apply agree_quota_k, agree_ret|]. cbn. now rewrite cadd_0_r.
    - eapply agree_ext; [apply agree_quota_k, agree_fail|]. reflexivity.
  Qed.
  Lemma ag_str_ref tag n : agree cf F (t_conv_str_ref tag n) (m_str false n).
  Proof.
    unfold t_conv_str_ref, t_read_borrowed. destruct n; cbn; try (apply agree_none; intros c; exact I).
    intros c Hc. unfold mbind, mret. destruct (utf8_ok b); [exact (agree_ret cf F (VStr b) c Hc)|exact I].
  Qed.
  Lemma ag_bytes_ref tag n : agree cf F (t_conv_bytes_ref tag n) (m_bytes false n).
  Proof.
    unfold t_conv_bytes_ref, t_read_borrowed. destruct n; cbn; try (apply agree_none; intros c; exact I).
    intros c Hc. exact (agree_ret cf F (VBytes b) c Hc).
  Qed.
  Lemma ag_bytes n : agree cf F (let* bs := t_read_owned cf n in mret (VBytes bs)) (m_bytes true n).
  Proof.
    apply ag_owned, agree_lift. destruct n; cbn; try reflexivity. apply agree_quota.
  Qed.
  Lemma fag_vecu8 td : t_init td = AOpt None -> t_field td = t_vecu8_field cf -> t_fin td = t_opt_fin -> fag cf F td (m_once (m_bytes true)).
  Proof.
    intros E1 E2 E3. exists (s_opt (m_bytes true) s_opt_fin). split; [exact E1|]. split; [|split].
    - intros a tag n. rewrite E2. unfold t_vecu8_field. destruct a as [[v|]| | |]; cbn [s_field s_opt]; ag0.
      apply ag_owned, agree_lift. destruct n; cbn; try reflexivity.
      eapply agree_ext; [apply agree_quota_k, agree_ret|]. reflexivity.
    - intros a. rewrite E3. apply agree_opt_fin.
    - intros o. change (s_init (s_opt (m_bytes true) s_opt_fin)) with (AOpt None). rewrite s_opt_occ.
      unfold m_once. destruct o as [|[t n] [|p o]]; try reflexivity. cbn. apply rbind_ret_r.
  Qed.
  Lemma dag_vecu8 : dag cf F (t_vecu8 cf) (m_simple ign (m_bytes true)).
  Proof.
    split.
    - intros tag n. apply ag_bytes.
    - intros ks. apply agree_S, agree_top. now apply fag_vecu8.
    - now apply fag_vecu8.
  Qed.
  Lemma ag_arrb len n : agree cf F (t_read_array len n) (m_arrb len n).
  Proof.
    unfold t_read_array, m_arrb. apply agree_lift. destruct n; cbn; try reflexivity.
    destruct (lenN b =? len); [apply agree_ret|apply agree_fail].
  Qed.
  Definition s_arrb_fin (len : N) (a : acc) : R value :=
    match a with AOpt (Some v) => rret v | AOpt None => if len =? 0 then rret (VArrB []) else rnone | _ => rnone end.
  Lemma fag_arrb len td : t_init td = AOpt None -> t_field td = t_arru8_field len -> t_fin td = t_arru8_fin len -> fag cf F td (m_arrb_occ len).
  Proof.
    intros E1 E2 E3. exists (s_opt (m_arrb len) (s_arrb_fin len)). split; [exact E1|]. split; [|split].
    - intros a tag n. rewrite E2. unfold t_arru8_field. destruct a as [[v|]| | |]; cbn [s_field s_opt]; ag0.
      + destruct (len <=? 32); [apply agree_fail|]. apply agree_none. intros c. unfold mbind. destruct (t_read_array len n c) as [[w|x| |] c1]; exact I.
      + apply agree_bind; [apply ag_arrb|]. intros v. apply agree_ret.
    - intros a. rewrite E3. unfold t_arru8_fin. destruct a as [[v|]| | |]; cbn [s_fin s_opt s_arrb_fin]; ag0; [apply agree_ret|].
      destruct (len =? 0); [apply agree_ret|apply agree_fail].
    - intros o. change (s_init (s_opt (m_arrb len) (s_arrb_fin len))) with (AOpt None). rewrite s_opt_occ.
      unfold m_arrb_occ, m_once. destruct o as [|[t n] [|p o]]; try reflexivity. cbn [s_arrb_fin]. apply rbind_ret_r.
  Qed.
  Lemma dag_arrb len : dag cf F (t_arru8 cf len) (mkMn (m_arrb_occ len) (m_arrb len) (m_top ign (m_arrb_occ len))).
  Proof.
    split.
    - intros tag n. apply ag_arrb.
    - intros ks. apply agree_S, agree_top. now apply fag_arrb.
    - now apply fag_arrb.
  Qed.

  (** Collections. *)
  Lemma ag_in_struct tag (body : list (N * node) -> T value) mb n : (forall ks, agree cf F (body ks) (mb ks)) ->
    agree cf F ((fun (_ : N) n => t_lift (to_struct (hdr_node n)) ;; body (kids n)) tag n) (m_in_struct mb n).
  Proof. intros H. apply agree_lift. destruct n; cbn; try reflexivity. apply H. Qed.
  Lemma dag_wrapped td occ : fag cf F td occ -> dag cf F (t_wrapped cf td) (m_coll ign occ).
  Proof.
    intros H. assert (Hb : forall ks, agree cf F (t_body_default cf td ks) (m_top ign occ ks)) by (intros ks; now apply agree_S, agree_top).
    split; [|exact Hb|exact H].
    intros tag n. apply (ag_in_struct tag (t_body_default cf td)). exact Hb.
  Qed.

  Definition s_ls (step : list value -> node -> R (list value)) (fin : list value -> R value) : sdict :=
    mkS (AList []) (fun a _ n => match a with AList vs => let! r := step vs n in rret (AList r) | _ => rnone end)
        (fun a => match a with AList vs => fin vs | _ => rnone end).
  Lemma s_ls_list (ins : value -> list value -> list value) (conv : node -> R value) fin occ : forall vs,
    s_occ (s_ls (fun vs n => let! v := conv n in rret (ins v vs)) (fun vs => rret (fin vs))) (AList vs) occ =
    let! ws := rmap (fun f => conv (snd f)) occ in rret (fin (fold_left (fun l v => ins v l) ws vs)).
  Proof.
    induction occ as [|[t n] occ IH]; intros vs.
    - rewrite s_occ_nil. cbn [rmap]. now rewrite rbind_ret.
    - rewrite s_occ_cons. cbn [s_field s_ls rmap snd]. rewrite !rbind_assoc. apply rbind_ext. intros v. rewrite !rbind_ret, IH, rbind_assoc.
      apply rbind_ext. intros ws. rewrite rbind_ret. reflexivity.
  Qed.
  Lemma push_back_all ws : forall vs, fold_left (fun l v => push_back v l) ws vs = vs ++ ws.
  Proof. induction ws as [|w ws IH]; intros vs; cbn [fold_left]; [now rewrite app_nil_r|]. rewrite IH. unfold push_back. now rewrite <- app_assoc. Qed.
  Lemma rcost_bind {A B} x (m : R A) (f : A -> R B) : rcost x (rbind m f) = rbind (rcost x m) f.
  Proof. destruct m as [[a y]|]; [|reflexivity]. cbn. destruct (f a) as [[b z]|]; [|reflexivity]. cbn. now rewrite cadd_assoc. Qed.
  Lemma dag_coll (ins : value -> list value -> list value) fin td mn : (forall ws, VList (fold_left (fun l v => ins v l) ws []) = fin ws) -> dag cf F td mn ->
    dag cf F (t_coll cf ins td) (m_list ign fin mn).
  Proof.
    intros Hfin [He _ _]. apply dag_wrapped.
    exists (s_ls (fun vs n => let! v := rcost cone (m_elem mn n) in rret (ins v vs)) (fun vs => rret (VList vs))).
    split; [reflexivity|]. split; [|split].
    - intros a tag n. cbn [t_field s_field s_ls]. unfold t_coll_field. destruct a as [|vs| |]; ag0.
      eapply agree_ext; [apply agree_collect, agree_bind; [apply He|intros v; apply agree_ret]|].
      rewrite rcost_bind, rbind_assoc. apply rbind_ext. intros v. now rewrite rbind_ret.
    - intros a. cbn [t_fin s_fin s_ls]. unfold t_coll_fin. destruct a; ag0. apply agree_ret.
    - intros occ. change (s_init (s_ls _ _)) with (AList []). rewrite s_ls_list. apply rbind_ext. intros ws. now rewrite Hfin.
  Qed.
  Lemma dag_list td mn : dag cf F td mn -> dag cf F (t_coll cf push_back td) (m_list ign VList mn).
  Proof. apply dag_coll. intros ws. now rewrite push_back_all. Qed.
  Lemma dag_set td mn : dag cf F td mn -> dag cf F (t_coll cf set_insert td) (m_list ign as_set mn).
  Proof. apply dag_coll. intros ws. now rewrite as_set_left. Qed.

  Lemma s_arr_occ len conv occ : forall vs, lenN vs <= len ->
    s_occ (s_ls (fun vs n => if len <=? lenN vs then rnone else let! v := conv n in rret (vs ++ [v]))
                (fun vs => if lenN vs <? len then rnone else rret (VArr vs))) (AList vs) occ =
    if lenN vs + lenN occ =? len then let! ws := rmap (fun f => conv (snd f)) occ in rret (VArr (vs ++ ws)) else rnone.
  Proof.
    induction occ as [|[t n] occ IH]; intros vs Hl.
    - rewrite s_occ_nil. cbn [rmap s_fin s_ls]. change (lenN (@nil (N * node))) with 0. rewrite N.add_0_r.
      destruct (N.ltb_spec (lenN vs) len), (N.eqb_spec (lenN vs) len); try lia; [reflexivity|]. now rewrite rbind_ret, app_nil_r.
    - rewrite s_occ_cons. cbn [s_field s_ls rmap snd]. rewrite lenN_cons. destruct (N.leb_spec len (lenN vs)).
      + destruct (N.eqb_spec (lenN vs + (lenN occ + 1)) len); [lia|reflexivity].
      + rewrite !rbind_assoc.
        transitivity (let! v := conv n in (if lenN vs + (lenN occ + 1) =? len then let! ws := rmap (fun f => conv (snd f)) occ in rret (VArr (vs ++ v :: ws)) else rnone)).
        * apply rbind_ext. intros v. rewrite !rbind_ret, IH by (rewrite lenN_app; change (lenN [v]) with 1; lia).
          rewrite lenN_app. change (lenN [v]) with 1. replace (lenN vs + 1 + lenN occ) with (lenN vs + (lenN occ + 1)) by lia.
          destruct (_ =? len); [|reflexivity]. apply rbind_ext. intros ws. now rewrite <- app_assoc.
        * destruct (_ =? len); [|apply rbind_none]. apply rbind_ext. intros v. rewrite rbind_assoc. apply rbind_ext. intros ws. now rewrite rbind_ret.
  Qed.
  Lemma dag_arr len td mn : dag cf F td mn -> dag cf F (t_arr cf len td) (m_array ign len mn).
  Proof.
    intros [He _ _]. apply dag_wrapped.
    exists (s_ls (fun vs n => if len <=? lenN vs then rnone else let! v := m_elem mn n in rret (vs ++ [v]))
                 (fun vs => if lenN vs <? len then rnone else rret (VArr vs))).
    split; [reflexivity|]. split; [|split].
    - intros a tag n. cbn [t_field s_field s_ls]. unfold t_arr_field. destruct a as [|vs| |]; ag0.
      destruct (len <=? lenN vs); [apply agree_fail|].
      eapply agree_ext; [apply agree_bind; [apply He|intros v; apply agree_ret]|].
      rewrite rbind_assoc. apply rbind_ext. intros v. now rewrite rbind_ret.
    - intros a. cbn [t_fin s_fin s_ls]. unfold t_arr_fin. destruct a as [|vs| |]; ag0.
      destruct (lenN vs <? len); [destruct vs; apply agree_fail|apply agree_ret].
    - intros occ. change (s_init (s_ls _ _)) with (AList []). rewrite s_arr_occ by (change (lenN (@nil value)) with 0; lia). reflexivity.
  Qed.
  Lemma dag_option td mn : dag cf F td mn -> dag cf F (t_option cf td) (m_option ign mn).
  Proof.
    intros [He _ _]. apply dag_wrapped.
    exists (s_opt (m_elem mn) (fun a => match a with AOpt o => rret (VOpt o) | _ => rnone end)).
    split; [reflexivity|]. split; [|split].
    - intros a tag n. cbn [t_field]. apply (agree_opt_field (KTooMany 1) (t_elem td) (m_elem mn)). exact He.
    - intros a. cbn. unfold t_option_fin. destruct a; ag0. apply agree_ret.
    - intros occ. change (s_init (s_opt _ _)) with (AOpt None). rewrite s_opt_occ. reflexivity.
  Qed.

  (** Tuples and maps. *)
  Lemma tuple_mrel tds ms : Forall2 (dag cf F) tds ms -> forall i, Forall2 (mrel cf F) (t_tuple_fields i tds) (m_number (i + 1) ms).
  Proof.
    induction 1 as [|td mn tds ms H HF IH]; intros i; cbn [t_tuple_fields m_number]; constructor; auto.
    split; [reflexivity|apply dag_fag; exact H].
  Qed.
  Lemma ag_tuple_body tds ms ks : Forall2 (dag cf F) tds ms -> agree cf F (t_tuple_body cf tds ks) (m_tuple_body ign ms ks).
  Proof.
    intros H. unfold t_tuple_body, m_tuple_body. apply agree_bind; [|intros vs; apply agree_ret].
    apply agree_S, agree_record; [|exact I]. now apply (tuple_mrel tds ms H 0).
  Qed.
  Lemma dag_tuple tds ms : Forall2 (dag cf F) tds ms -> dag cf F (t_tuple cf tds) (m_tuple ign ms).
  Proof.
    intros H. apply dag_struct; [intros ks; now apply ag_tuple_body|].
    intros tag n. apply (ag_in_struct tag (t_tuple_body cf tds)). intros ks. now apply ag_tuple_body.
  Qed.

  Definition s_mp (conv : node -> R (value * value)) : sdict :=
    mkS (AMap []) (fun a _ n => match a with AMap kvs => let! kv := conv n in rret (AMap (put (fst kv) (snd kv) kvs)) | _ => rnone end)
        (fun a => match a with AMap kvs => rret (VMap kvs) | _ => rnone end).
  Lemma s_mp_occ conv occ : forall kvs, s_occ (s_mp conv) (AMap kvs) occ =
    let! ws := rmap (fun f => conv (snd f)) occ in rret (VMap (fold_left (fun l kv => put (fst kv) (snd kv) l) ws kvs)).
  Proof.
    induction occ as [|[t n] occ IH]; intros kvs.
    - rewrite s_occ_nil. cbn [rmap]. now rewrite rbind_ret.
    - rewrite s_occ_cons. cbn [s_field s_mp rmap snd]. rewrite !rbind_assoc. apply rbind_ext. intros v. rewrite !rbind_ret, IH, rbind_assoc.
      apply rbind_ext. intros ws. rewrite rbind_ret. reflexivity.
  Qed.
  Lemma dag_map tk tv mk mv : dag cf F tk mk -> dag cf F tv mv -> dag cf F (t_map cf tk tv) (m_map ign mk mv).
  Proof.
    intros Hk Hv. pose proof (dag_tuple [tk; tv] [mk; mv] (Forall2_cons _ _ Hk (Forall2_cons _ _ Hv (Forall2_nil _)))) as [He _ _].
    apply dag_wrapped. exists (s_mp (fun n => rcost cone (m_entry ign mk mv n))).
    split; [reflexivity|]. split; [|split].
    - intros a tag n. cbn [t_field s_field s_mp]. unfold t_map_field. destruct a as [| |kvs|]; ag0.
      eapply agree_ext.
      + apply agree_collect. apply agree_bind; [apply He|].
        intros kv. instantiate (1 := fun kv => match kv with VRec [k; v] => rret (AMap (put k v kvs)) | _ => rnone end). cbv beta.
        destruct kv as [| | | | | | | | | | | |vs| | | |]; ag0. destruct vs as [|k [|v [|w vs]]]; ag0. rewrite put_insert. apply agree_ret.
      + unfold m_entry. rewrite <- rcost_bind, rbind_assoc. f_equal. apply rbind_ext. intros kv.
        destruct kv as [| | | | | | | | | | | |vs| | | |]; try reflexivity. destruct vs as [|k [|v [|w vs]]]; try reflexivity; try now rewrite rbind_ret.
    - intros a. cbn [t_fin s_fin s_mp]. unfold t_map_fin. destruct a; ag0. apply agree_ret.
    - intros occ. change (s_init (s_mp _)) with (AMap []). rewrite s_mp_occ. reflexivity.
  Qed.
End Types.

(** ** Unknown fields *)
Section Unk.
  Variable cf : cfg.
  Variable zc : bool.
  Notation own := (negb zc).
  Definition body_cost (fs : list (N * node)) : cost :=
    fold_right (fun f x => cadd (cdeep (cadd cone (unk_cost own (snd f)))) x) czero fs.
  Lemma agree_eq F {A} (m m' : T A) o : (forall c, m' c = m c) -> agree cf F m o -> agree cf F m' o.
  Proof. intros E H c Hc. rewrite E. exact (H c Hc). Qed.
  Lemma ag_unk_node F body n : (forall ks, agree cf F (body ks) (Some (ks, body_cost ks))) ->
    agree cf F (t_unk_node cf zc body n) (Some (n, unk_cost own n)).
  Proof.
    intros Hb. destruct n as [x|b|fs|d fs]; cbn [t_unk_node].
    - apply agree_ret.
    - unfold t_cow_bytes. destruct zc; cbn [unk_cost negb].
      + intros c Hc. exact (agree_ret cf F (NBlob b) c Hc).
      + apply (ag_owned cf F (NBlob b) (fun b => mret (NBlob b))), agree_lift. cbn. apply agree_quota.
    - eapply agree_ext; [apply agree_bind; [apply Hb|intros r; apply agree_ret]|]. cbn. now rewrite cadd_0_r.
    - eapply agree_ext; [apply agree_bind; [apply Hb|intros r; apply agree_ret]|]. cbn. now rewrite cadd_0_r.
  Qed.
  Lemma ag_unk_body f : forall ks, agree cf f (t_unk_body cf zc f ks) (Some (ks, body_cost ks)).
  Proof.
    induction f as [|f IH]; intros ks; [apply agree_0|]. cbn [t_unk_body].
    match goal with |- agree _ _ (t_loop ?s _ _) _ =>
      enough (H : forall ks fs0, agree cf (S f) (t_loop s fs0 ks) (Some (fs0 ++ ks, body_cost ks))) by exact (H ks []) end.
    clear ks. intros ks. induction ks as [|[tag n] ks IHk]; intros fs0; cbn [t_loop].
    - rewrite app_nil_r. apply agree_ret.
    - eapply agree_ext.
      + apply agree_bind; [|intros fs; apply IHk].
        apply (agree_eq _ (t_push cf (tag_name tag) ;; let* a := (t_collect cf ;; t_unk_node cf zc (t_unk_body cf zc f) n) in t_pop ;; mret (fs0 ++ [(tag, a)]))).
        { intros c. unfold mbind. destruct (t_push cf (tag_name tag) c) as [[u|x| |] c1]; try reflexivity. destruct (t_collect cf c1) as [[u'|x| |] c2]; reflexivity. }
        apply (agree_deep cf f _ (rcost cone (Some (n, unk_cost own n))) (fun a => fs0 ++ [(tag, a)])). apply agree_collect, ag_unk_node, IH.
      + cbn [rcost rdeep rbind rret body_cost fold_right snd]. rewrite <- app_assoc, cadd_0_r. reflexivity.
  Qed.
  Lemma rmap_pure {A} (c : A -> cost) l : rmap (fun f => Some (f, c f)) l = Some (l, fold_right (fun f x => cadd (c f) x) czero l).
  Proof. induction l as [|a l IH]; [reflexivity|]. cbn [rmap fold_right]. rewrite IH. cbn. now rewrite cadd_0_r. Qed.
  Definition s_unk : sdict :=
    mkS (AUnk []) (fun a tag n => match a with AUnk fs => Some (AUnk (fs ++ [(tag, n)]), cadd cone (unk_cost own n)) | _ => rnone end)
        (fun a => match a with AUnk fs => rret (VUnk fs) | _ => rnone end).
  Lemma s_unk_occ occ : forall fs, s_occ s_unk (AUnk fs) occ =
    Some (VUnk (fs ++ occ), fold_right (fun f x => cadd (cadd cone (unk_cost own (snd f))) x) czero occ).
  Proof.
    induction occ as [|[t n] occ IH]; intros fs.
    - rewrite s_occ_nil, app_nil_r. reflexivity.
    - rewrite s_occ_cons. cbn [s_field s_unk rbind]. rewrite IH, <- app_assoc. reflexivity.
  Qed.
  Lemma dag_unknown U F : (F <= U)%nat -> dag cf F (t_unknown_d cf zc U) (m_unknown own).
  Proof.
    intros Hle.
    assert (Hb : forall ks, agree cf F (t_unk_val cf zc U ks) (m_body (m_unknown own) ks)).
    { intros ks. apply (agree_le cf U F); [exact Hle|]. eapply agree_ext; [apply agree_bind; [apply ag_unk_body|intros r; apply agree_ret]|].
      cbn [m_unknown m_body]. rewrite (rmap_ext _ (fun f => Some (f, cdeep (cadd cone (unk_cost own (snd f)))))) by reflexivity.
      rewrite rmap_pure. reflexivity. }
    split; [|exact Hb|].
    - intros tag n. apply (ag_in_struct cf F tag (t_unk_val cf zc U) (m_body (m_unknown own)) n). exact Hb.
    - exists s_unk. split; [reflexivity|]. split; [|split].
      + intros a tag n. cbn [t_field t_unknown_d s_field s_unk]. unfold t_unk_field. destruct a; ag0.
        eapply agree_ext; [apply agree_collect, agree_bind; [|intros r; apply agree_ret]|].
        * unfold t_unk_elem. apply (agree_le cf U F); [exact Hle|]. apply ag_unk_node, ag_unk_body.
        * cbn. now rewrite cadd_0_r.
      + intros a. cbn. unfold t_unk_fin. destruct a; ag0. apply agree_ret.
      + intros occ. change (s_init s_unk) with (AUnk []). rewrite s_unk_occ. cbn [m_unknown m_occ].
        rewrite (rmap_pure (fun f => cadd cone (unk_cost own (snd f)))). cbn. now rewrite cadd_0_r.
  Qed.
  Lemma dag_unkfield U F : (F <= U)%nat -> dag cf F (t_unkfield cf zc U) (m_unkfield (cf_ignore cf) own).
  Proof.
    intros Hle. apply dag_unary. intros _ n.
    eapply agree_ext; [apply agree_bind; [|intros r; apply agree_ret]|].
    - apply (agree_le cf U F); [exact Hle|]. apply ag_unk_node, ag_unk_body.
    - cbn. now rewrite cadd_0_r.
  Qed.
End Unk.

(** ** Structs and enums *)
Section Items.
  Variable cf : cfg.
  Let ign := cf_ignore cf.
  Variable F : nat.
  Variable tk : ty -> tdict.
  Variable mk : ty -> meaning.
  Hypothesis Hmk : forall t, dag cf F (tk t) (mk t).

  Lemma ag_construct F' b vs : agree cf F' (t_construct b vs) (m_construct b vs).
  Proof. unfold t_construct, m_construct. destruct (vb_check b vs); [apply agree_ret|apply agree_fail]. Qed.
  Lemma decls_mrel fs : Forall2 (mrel cf F) (t_fdicts tk fs) (m_decls mk fs).
  Proof.
    induction fs as [|f fs IH]; [constructor|]. unfold t_fdicts, m_decls. cbn [map]. apply Forall2_cons; [|exact IH].
    split; [reflexivity|]. apply dag_fag, Hmk.
  Qed.
  Lemma ag_vbody b ks : agree cf (S F) (t_vbody cf tk b ks) (m_vbody ign mk b ks).
  Proof.
    unfold t_vbody, m_vbody. cbv zeta. destruct (vb_special b) as [|nm t|nm t].
    - apply agree_bind; [|intros; apply ag_construct]. apply agree_record; [apply decls_mrel|exact I].
    - apply (agree_deep_k cf F (t_body (tk t) ks) (m_body (mk t) ks) (fun dv => let* vs := t_finish_all cf (t_fdicts tk (vb_fields b)) (t_inits (t_fdicts tk (vb_fields b))) in t_construct b (vs ++ [dv]))
        (fun dv => let! r := m_fields (m_decls mk (vb_fields b)) [] in m_construct b (fst r ++ [dv]))).
      + apply (da_body cf F _ _ (Hmk t)).
      + intros dv. eapply agree_ext; [apply agree_bind; [apply agree_inits, decls_mrel|intros vs; apply ag_construct]|].
        rewrite rbind_assoc. apply rbind_ext. intros r. now rewrite rbind_ret.
    - apply agree_bind; [|intros; apply ag_construct]. apply agree_record; [apply decls_mrel|]. apply dag_fag, Hmk.
  Qed.
  Lemma ag_struct_elem b tag n : agree cf (S F) (t_struct_elem cf tk b tag n) (m_struct_elem ign mk b n).
  Proof.
    unfold t_struct_elem, m_struct_elem. destruct (vb_special b) as [|nm t|nm t].
    - apply (ag_in_struct cf (S F) tag (t_vbody cf tk b)). intros ks. apply ag_vbody.
    - apply (agree_deep_k cf F (t_elem (tk t) tag n) (m_elem (mk t) n) (fun dv => t_construct b [dv]) (fun dv => m_construct b [dv])); [apply (da_elem cf F _ _ (Hmk t))|].
      intros. apply ag_construct.
    - apply (ag_in_struct cf (S F) tag (t_vbody cf tk b)). intros ks. apply ag_vbody.
  Qed.
  Lemma dag_item_struct b : dag cf (S F) (t_item_struct cf tk b) (m_struct (m_vbody ign mk b) (m_struct_elem ign mk b)).
  Proof. apply dag_struct; [intros; apply ag_vbody|intros; apply ag_struct_elem]. Qed.
  Lemma variant_eq d vars : find_variant d vars = variant d vars.
  Proof. induction vars as [|[d' b] r IH]; [reflexivity|]. cbn. rewrite IH. rewrite ?(N.eqb_sym d' d). destruct (d =? d'); reflexivity. Qed.
  Lemma ag_enum_elem vars catch tag n : agree cf (S F) (t_enum_elem cf tk vars catch tag n) (m_enum_elem ign mk vars catch n).
  Proof.
    unfold t_enum_elem, m_enum_elem. apply agree_lift. destruct n as [| | |d fs]; cbn; try reflexivity. rewrite variant_eq.
    destruct (variant d vars) as [[ix b]|].
    - apply agree_bind; [apply ag_vbody|]. intros; apply agree_ret.
    - destruct catch as [b|]; ag0. apply agree_bind; [apply ag_vbody|]. intros; apply agree_ret.
  Qed.
  Lemma dag_item_enum vars catch : dag cf (S F) (t_item_enum cf tk vars catch) (m_simple ign (m_enum_elem ign mk vars catch)).
  Proof.
    assert (Hf : fag cf (S F) (t_item_enum cf tk vars catch) (m_once (m_enum_elem ign mk vars catch))).
    { apply (fag_once cf (S F) _ (KTooFew 1) (t_enum_elem cf tk vars catch)); try reflexivity. intros; apply ag_enum_elem. }
    split; [intros; apply ag_enum_elem| |exact Hf].
    intros ks. cbn. apply agree_S, agree_top.
    apply (fag_once cf (S F) _ (KTooFew 1) (t_enum_elem cf tk vars catch)); try reflexivity. intros; apply ag_enum_elem.
  Qed.
End Items.

Section All.
  Variable cf : cfg.
  Let ign := cf_ignore cf.
  Lemma dag_nothing F : dag cf F (t_dict_stop StPanic) m_nothing.
  Proof.
    assert (Hn : forall A, agree cf F (@mpanic cs ekind A) rnone) by (intros A; apply agree_none; intros c; exact I).
    split; [intros; apply Hn|intros; apply Hn|].
    exists (mkS (AOpt None) (fun _ _ _ => rnone) (fun _ => rnone)). split; [reflexivity|].
    split; [intros; apply Hn|]. split; [intros; apply Hn|].
    intros [|[t n] o]; reflexivity.
  Qed.
  Lemma dag_types F U item_d item_m : (F <= U)%nat -> (forall zc i, dag cf F (item_d zc i) (item_m zc i)) ->
    forall t zc, dag cf F (t_dict_of cf U item_d zc t) (meaning_of ign item_m zc t).
  Proof.
    intros HU Hi. apply (ty_ind' (fun t => forall zc, dag cf F (t_dict_of cf U item_d zc t) (meaning_of ign item_m zc t))).
    - intros t. destruct t; try exact I; intros zc; cbn [t_dict_of meaning_of].
      + apply dag_unary, ag_uint. + apply dag_unary, ag_sint. + apply dag_unary, ag_bool. + apply dag_unary, ag_char. + apply dag_unary, ag_phantom.
      + apply dag_unary, ag_str.
      + destruct zc; [apply dag_unary, ag_str_ref|apply dag_nothing].
      + destruct zc; [apply dag_unary, ag_bytes_ref|apply dag_nothing].
      + destruct zc; [apply dag_unary, ag_str_ref|apply dag_unary, ag_str].
      + destruct zc; [apply dag_unary, ag_bytes_ref|apply dag_vecu8].
      + now apply dag_unknown.
      + now apply dag_unkfield.
      + apply Hi.
    - intros t IH. split; [|split; [|split; [|split; [|split]]]]; intros zc; cbn [t_dict_of meaning_of].
      + destruct (is_u8 t); [apply dag_vecu8|]. apply dag_list, IH.
      + apply dag_list, IH.
      + apply dag_set, IH.
      + apply dag_option, IH.
      + apply IH.
      + apply IH.
    - intros n t IH zc. cbn [t_dict_of meaning_of]. destruct (is_u8 t); [apply dag_arrb|apply dag_arr, IH].
    - intros k v IHk IHv zc. cbn [t_dict_of meaning_of]. apply dag_map; auto.
    - intros ts IH zc. cbn [t_dict_of meaning_of]. apply dag_tuple.
      induction IH as [|t ts H HF IH2]; cbn [map]; [apply Forall2_nil|apply Forall2_cons; auto].
  Qed.
  Lemma dag_le F F' td mn : (F' <= F)%nat -> dag cf F td mn -> dag cf F' td mn.
  Proof.
    intros Hle [H1 H2 (sd & E1 & E2 & E3 & E4)]. split.
    - intros. eapply agree_le; eauto.
    - intros. eapply agree_le; eauto.
    - exists sd. split; [exact E1|]. split; [intros; eapply agree_le; eauto|]. split; [intros; eapply agree_le; eauto|exact E4].
  Qed.
  (** Nothing is claimed at fuel 0. *)
  Definition s_any (occ : list (N * node) -> R value) : sdict :=
    mkS (AOpt None)
      (fun a tag n => match a with AUnk fs => rret (AUnk (fs ++ [(tag, n)])) | _ => rret (AUnk [(tag, n)]) end)
      (fun a => match a with AUnk fs => occ fs | _ => occ [] end).
  Lemma s_any_occ occ l : forall fs, s_occ (s_any occ) (AUnk fs) l = occ (fs ++ l).
  Proof.
    induction l as [|[t n] l IH]; intros fs; [rewrite s_occ_nil, app_nil_r; reflexivity|].
    rewrite s_occ_cons. cbn [s_field s_any]. rewrite rbind_ret, IH, <- app_assoc. reflexivity.
  Qed.
  Lemma dag_0 td mn : t_init td = AOpt None -> dag cf 0 td mn.
  Proof.
    intros Hi. split; [intros; apply agree_0|intros; apply agree_0|].
    exists (s_any (m_occ mn)). split; [exact Hi|]. split; [intros; apply agree_0|]. split; [intros; apply agree_0|].
    intros [|[t n] l]; [apply s_occ_nil|]. rewrite s_occ_cons. cbn [s_field s_any s_init]. rewrite rbind_ret. apply s_any_occ.
  Qed.
  Variable e : env.
  Lemma dag_items U : forall F F2 zc i, (F <= U)%nat -> (F <= F2)%nat -> dag cf F (t_item_dict cf e U F zc i) (item_meaning ign e F2 zc i).
  Proof.
    induction F as [|f IH]; intros F2 zc i HU H2; [now apply dag_0|].
    destruct F2 as [|f2]; [lia|]. cbn [t_item_dict item_meaning].
    assert (Hmk : forall t, dag cf f (t_dict_of cf U (t_item_dict cf e U f) zc t) (meaning_of ign (item_meaning ign e f2) zc t)).
    { intros t. apply dag_types; [lia|]. intros zc' i'. apply IH; lia. }
    destruct (e i) as [b|vars catch]; [apply dag_item_struct|apply dag_item_enum]; exact Hmk.
  Qed.
  Theorem dag_full F F2 zc t : (F <= F2)%nat -> dag cf F (t_full cf e F zc t) (means ign e F2 zc t).
  Proof. intros H. apply dag_types; [lia|]. intros zc' i. apply dag_items; lia. Qed.

  (** What [read_tree] does, by the document's meaning. *)
  Theorem read_tree_means F2 zc t ks : (S (N.to_nat (cf_rec cf)) <= F2)%nat ->
    match m_body (means ign e F2 zc t) ks with
    | Some (v, x) =>
        match read_tree cf e zc t ks with
        | (ROk w, _) => w = v /\ fits cf x
        | (RErr k, _) => exceeds cf x k
        | _ => False
        end
    | None => match read_tree cf e zc t ks with (ROk _, _) => False | _ => True end
    end.
  Proof.
    intros Hle. pose proof (da_body cf _ _ _ (dag_full (S (N.to_nat (cf_rec cf))) F2 zc t Hle) ks (mkC 0 0 0 [])) as H.
    assert (Hi : inv cf (S (N.to_nat (cf_rec cf))) (mkC 0 0 0 [])) by (unfold inv; cbn [c_lev c_coll c_blob]; lia).
    specialize (H Hi). unfold read_tree. destruct (m_body _ ks) as [[v x]|].
    - destruct (t_body _ ks _) as [[w|k| |] c']; try contradiction.
      + destruct H as (E & _ & R1 & R2 & R3). cbn in R1, R2, R3. split; [exact E|]. unfold fits. lia.
      + destruct k; cbn in H; try contradiction; exact H.
    - exact H.
  Qed.
End All.
