(** * P_Listing: the order of sets and maps does not matter *)

From Verif Require Import Base Wire Dev Stream SpecWire SpecFormat Types Ser Prog De SpecDe SpecListing SpecDoc SpecSerDe SpecRead Tree
  P_Base P_Types P_Ord P_Sets P_RT P_TreeRun P_SerDe P_Means P_Meaning P_Card.

Lemma listed_round_trip e cf zc t v' v dw dr : env_wf e -> cf_collect cf <= U64_MAX -> cf_blob cf <= U64_MAX ->
  listing_type e v' t -> lists e v' v t -> has_type e v t -> shape_wf t -> deserialisable e zc t ->
  cf_ignore cf = true \/ no_unit_body e t -> admits cf e zc v' t -> size_of e t v' + 3 < U64_MAX ->
  exists bs, to_vec e dw t v' = ROk bs /\ fst (from_stream e zc cf t (from_slice dr bs)) = ROk v.
Proof.
  intros Hwf Hcc Hcb Hty' Hli Hty Hsh Hd Hu Hf Hs. assert (Hs' : size_of e t v' <= U64_MAX) by lia.
  destruct (bytes_of_ok e Hwf t v' Hty' Hsh Hs') as (Henc & Hb & Hl).
  exists (bytes_of e t v'). split; [exact (to_vec_any e Hwf t v' dw Hty' Hsh Hs')|].
  assert (S1 : starts (from_slice dr (bytes_of e t v')) (bytes_of e t v') []).
  { apply reader_starts; auto; [lia|lia|]. now rewrite dropN_0, app_nil_r. }
  pose proof (tree_stream e zc cf t _ _ _ [] (env_wf_ok e Hwf) Hd Hcc Hcb Henc S1) as H.
  rewrite (read_tree_listed cf e zc v' v t Hwf Hty' Hli Hty Hsh Hd Hu Hf) in H. destruct H as (s' & E & _). now rewrite E.
Qed.

(** ** The same document as a sequence *)
Lemma cadd_zero x : cadd x czero = x.
Proof. destruct x. unfold cadd, czero. cbn. f_equal; lia. Qed.
Lemma rbind_ret {A B} (m : R A) (f : A -> B) : (let! a := m in rret (f a)) = match m with Some (a, x) => Some (f a, x) | None => None end.
Proof. unfold rbind, rret. destruct m as [[a x]|]; [|reflexivity]. now rewrite cadd_zero. Qed.
Lemma top_change {A} ign (g : list (N * node) -> R A) (f1 f2 : A -> value) ks v x :
  m_top ign (fun o => let! a := g o in rret (f1 a)) ks = Some (v, x) ->
  exists a, v = f1 a /\ m_top ign (fun o => let! a := g o in rret (f2 a)) ks = Some (f2 a, x).
Proof.
  unfold m_top, m_record. cbn [m_fields m_occ]. rewrite !rbind_ret. destruct (g (with_tag 1 ks)) as [[a y]|]; [|discriminate].
  unfold rdeep, rbind, rret. cbn [fst snd]. destruct (without_tag 1 ks); [|destruct ign; [|discriminate]]; cbn [fst snd];
    intros H; injection H as <- <-; exists a; split; reflexivity.
Qed.
Lemma top_ext ign o1 o2 ks : (forall l, o1 l = o2 l) -> m_top ign o1 ks = m_top ign o2 ks.
Proof. intros H. unfold m_top, m_record. cbn [m_fields m_occ]. now rewrite H. Qed.

Lemma denotes_set e ign zc t ks v x : denotes e ign zc (TSet t) ks v x <-> exists vs, v = as_set vs /\ denotes e ign zc (TSeq t) ks (VList vs) x.
Proof.
  split.
  - intros (n & H). apply (top_change ign _ as_set VList) in H. destruct H as (vs & -> & H). exists vs. split; [reflexivity|]. now exists n.
  - intros (vs & -> & n & H). apply (top_change ign _ VList as_set) in H. destruct H as (vs' & E & H). injection E as <-. now exists n.
Qed.
Lemma entry_pair ign mk mv n : m_elem (m_tuple ign [mk; mv]) n = let! p := m_entry ign mk mv n in rret (pair_of p).
Proof.
  unfold m_tuple, m_struct, m_entry. cbn [m_elem]. unfold m_in_struct. destruct n as [| |fs|]; try reflexivity.
  unfold m_tuple_body. destruct (m_record ign (m_number 1 [mk; mv]) None fs) as [[vs x]|] eqn:E; [|reflexivity].
  assert (Hl : exists a b, vs = [a; b]).
  { unfold m_record in E. cbn [m_number m_fields] in E.
    apply rbind_some in E. destruct E as (r & y & z & E1 & E2).
    apply rbind_some in E1. destruct E1 as (a & ? & ? & _ & E1). apply rbind_some in E1. destruct E1 as (r1 & ? & ? & E3 & E1).
    apply rbind_some in E3. destruct E3 as (b & ? & ? & _ & E3). apply rbind_some in E3. destruct E3 as (r2 & ? & ? & E4 & E3).
    injection E4 as <- _. injection E3 as <- _. injection E1 as <- _. cbn [fst snd] in E2.
    destruct (without_tag (1 + 1) (without_tag 1 fs)); [|destruct ign; [|discriminate E2]]; injection E2 as <- _; eauto. }
  destruct Hl as (a & b & ->). unfold rbind, rret. cbn. now rewrite !cadd_zero.
Qed.
Lemma rmap_map {A B C} (f : A -> R B) (g : B -> C) l : rmap (fun a => let! b := f a in rret (g b)) l = let! bs := rmap f l in rret (map g bs).
Proof.
  induction l as [|a l IH]; cbn [rmap]; [reflexivity|]. rewrite IH. destruct (f a) as [[b x]|]; [|reflexivity].
  unfold rbind, rret. destruct (rmap f l) as [[bs y]|]; [|reflexivity]. cbn [map]. now rewrite !cadd_zero.
Qed.
Lemma rmap_ext {A B} (f g : A -> R B) l : (forall a, f a = g a) -> rmap f l = rmap g l.
Proof. intros H. induction l as [|a l IH]; cbn [rmap]; [reflexivity|]. now rewrite H, IH. Qed.
Lemma rcost_bind {A B} c (m : R A) (g : A -> B) : rcost c (let! a := m in rret (g a)) = let! a := rcost c m in rret (g a).
Proof. unfold rcost, rbind, rret. destruct m as [[a x]|]; [|reflexivity]. now rewrite !cadd_zero. Qed.
Lemma bind_bind {A B C} (m : R A) (f : A -> B) (g : B -> C) : (let! b := (let! a := m in rret (f a)) in rret (g b)) = let! a := m in rret (g (f a)).
Proof. unfold rbind, rret. destruct m as [[a x]|]; [|reflexivity]. now rewrite !cadd_zero. Qed.
Lemma pairs_occ ign mk mv (fin : list value -> value) occ : (let! vs := rmap (fun f => rcost cone (m_elem (m_tuple ign [mk; mv]) (snd f))) occ in rret (fin vs)) =
  let! kvs := rmap (fun f : N * node => rcost cone (m_entry ign mk mv (snd f))) occ in rret (fin (map pair_of kvs)).
Proof.
  rewrite (rmap_ext _ (fun f : N * node => let! p := rcost cone (m_entry ign mk mv (snd f)) in rret (pair_of p)))
    by (intros; now rewrite entry_pair, rcost_bind).
  now rewrite rmap_map, bind_bind.
Qed.
Lemma denotes_map e ign zc tk tv ks v x : denotes e ign zc (TMap tk tv) ks v x <->
  exists l, v = VMap (as_map l) /\ denotes e ign zc (TSeq (TTuple [tk; tv])) ks (VList (map pair_of l)) x.
Proof.
  assert (Hp : forall n o, m_occ (means ign e n zc (TSeq (TTuple [tk; tv]))) o =
     let! kvs := rmap (fun f : N * node => rcost cone (m_entry ign (means ign e n zc tk) (means ign e n zc tv) (snd f))) o in rret (VList (map pair_of kvs))).
  { intros n o. apply (pairs_occ ign (means ign e n zc tk) (means ign e n zc tv) VList o). }
  split.
  - intros (n & H). apply (top_change ign _ _ (fun l => VList (map pair_of l))) in H. destruct H as (l & -> & H). exists l. split; [reflexivity|].
    exists n. rewrite <- H. apply top_ext, Hp.
  - intros (l & -> & n & H). exists n.
    assert (H' : m_top ign (fun o => let! kvs := rmap (fun f : N * node => rcost cone (m_entry ign (means ign e n zc tk) (means ign e n zc tv) (snd f))) o in
        rret (VList (map pair_of kvs))) ks = Some (VList (map pair_of l), x)) by (rewrite <- H; symmetry; apply top_ext, Hp).
    apply (top_change ign _ _ (fun l => VMap (as_map l))) in H'. destruct H' as (l' & E & H'). injection E as E.
    assert (l' = l); [|subst; exact H']. revert E. clear. revert l'. induction l as [|[a b] l IH]; intros [|[a' b'] l'] E; try discriminate; [reflexivity|].
    injection E as <- <- E. f_equal. auto.
Qed.

Lemma set_read e zc cf t ks s w : usable e zc cf (TSet t) -> doc_stream ks s ->
  fst (from_stream e zc cf (TSet t) s) = ROk w <-> exists vs ws, fst (from_stream e zc cf (TSeq t) s) = ROk (VList vs) /\
    w = VList ws /\ ascending ws /\ forall x, In x ws <-> In x vs.
Proof.
  intros Hu Hs. assert (Hu' : usable e zc cf (TSeq t)).
  { destruct Hu as (U1 & U2 & U3). split; [exact U1|]. split; [|exact U3]. intros H. apply U2. inversion H; subst. now constructor. }
  rewrite (meaning_ok e zc cf _ ks s w Hu Hs). split.
  - intros (x & H & Hf). apply denotes_set in H. destruct H as (vs & -> & H). exists vs, (fold_right set_insert [] vs).
    split; [apply (meaning_ok e zc cf _ ks s _ Hu' Hs); eauto|]. split; [apply as_set_fold|]. split; [apply fold_asc|apply fold_in].
  - intros (vs & ws & H & -> & Ha & Hi). apply (meaning_ok e zc cf _ ks s _ Hu' Hs) in H. destruct H as (x & H & Hf). exists x. split; [|exact Hf].
    apply denotes_set. exists vs. split; [|exact H]. rewrite as_set_fold. f_equal. apply asc_same; [exact Ha|apply fold_asc|].
    intros y. now rewrite fold_in.
Qed.
Lemma puts_minserts (l : list (value * value)) : as_map l = fold_left (fun m p => map_insert (fst p) (snd p) m) l [].
Proof. generalize (@nil (value * value)). induction l as [|p l IH]; intros acc; cbn [fold_left]; [reflexivity|]. now rewrite put_insert, IH. Qed.
Lemma map_read e zc cf tk tv ks s w : usable e zc cf (TMap tk tv) -> doc_stream ks s ->
  fst (from_stream e zc cf (TMap tk tv) s) = ROk w <-> exists l kvs, fst (from_stream e zc cf (TSeq (TTuple [tk; tv])) s) = ROk (VList (map pair_of l)) /\
    w = VMap kvs /\ ascending (map fst kvs) /\ forall k v, In (k, v) kvs <-> finally k v l.
Proof.
  intros Hu Hs. assert (Hu' : usable e zc cf (TSeq (TTuple [tk; tv]))).
  { destruct Hu as (U1 & U2 & U3). split; [exact U1|]. split; [|exact U3]. intros H. apply U2. inversion H as [| | |? ? H'| | | | | | | | |]; subst.
    inversion H' as [| | | | | | | | |? t' ? Hi Hn| | |]; subst. destruct Hi as [<-|[<-|[]]]; [now apply NiKey|now apply NiVal]. }
  rewrite (meaning_ok e zc cf _ ks s w Hu Hs). split.
  - intros (x & H & Hf). apply denotes_map in H. destruct H as (l & -> & H). exists l, (as_map l).
    split; [apply (meaning_ok e zc cf _ ks s _ Hu' Hs); eauto|]. split; [reflexivity|]. split; [apply as_map_asc|].
    intros k v. rewrite puts_minserts. apply minserts_in.
  - intros (l & kvs & H & -> & Ha & Hi). apply (meaning_ok e zc cf _ ks s _ Hu' Hs) in H. destruct H as (x & H & Hf). exists x. split; [|exact Hf].
    apply denotes_map. exists l. split; [|exact H]. f_equal. rewrite puts_minserts. apply pairs_same; [exact Ha|apply minserts_asc|].
    intros [k v]. now rewrite minserts_in, Hi.
Qed.
