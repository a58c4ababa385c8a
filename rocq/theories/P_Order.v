(** * P_Order: the order of fields with different tags does not matter *)

From Verif Require Import Base Wire Stream Types Prog De SpecFormat SpecDe SpecDoc SpecRead Tree P_Base P_Tree P_Means P_Meaning.

Definition swap_in (l l' : list (N * node)) : Prop :=
  exists a tag n n' r, l = a ++ (tag, n) :: r /\ l' = a ++ (tag, n') :: r /\ swap_node n n'.
Definition same_or (P : list (N * node) -> list (N * node) -> Prop) l l' : Prop := l = l' \/ P l l'.

Lemma swap_in_swap l l' : swap_in l l' -> swap l l'.
Proof. intros (a & t & n & n' & r & -> & -> & H). now constructor. Qed.
Lemma swap_in_len l l' : swap_in l l' -> lenN l = lenN l'.
Proof. intros (a & t & n & n' & r & -> & -> & H). now rewrite !lenN_app, !lenN_cons. Qed.
Lemma filter_in p l l' : (forall t n n', p (t, n) = p (t, n')) -> swap_in l l' -> same_or swap_in (filter p l) (filter p l').
Proof.
  intros Hp (a & t & n & n' & r & -> & -> & H). rewrite !filter_app. cbn [filter]. rewrite (Hp t n n').
  destruct (p (t, n')); [right|now left]. exists (filter p a), t, n, n', (filter p r). auto.
Qed.
Lemma with_swap tag ks ks' : swap ks ks' -> same_or swap_in (with_tag tag ks) (with_tag tag ks').
Proof.
  intros [l a b r Hne|l t n n' r H].
  - left. unfold with_tag. rewrite !filter_app. cbn [filter].
    destruct (N.eqb_spec (fst a) tag), (N.eqb_spec (fst b) tag); try reflexivity. congruence.
  - apply filter_in; [reflexivity|]. exists l, t, n, n', r. auto.
Qed.
Lemma without_swap tag ks ks' : swap ks ks' -> same_or swap (without_tag tag ks) (without_tag tag ks').
Proof.
  intros [l a b r Hne|l t n n' r H].
  - unfold without_tag. rewrite !filter_app. cbn [filter].
    destruct (negb (fst a =? tag)), (negb (fst b =? tag)); try (now left). right. now constructor.
  - assert (Hi : swap_in (l ++ (t, n) :: r) (l ++ (t, n') :: r)) by (exists l, t, n, n', r; auto).
    destruct (filter_in (fun f => negb (fst f =? tag)) _ _ ltac:(reflexivity) Hi) as [E|E]; [now left|right; now apply swap_in_swap].
Qed.
Lemma swap_nil_l ks : ~ swap [] ks.
Proof. intros H. inversion H; destruct l; discriminate. Qed.
Lemma swap_nil_r ks : ~ swap ks [].
Proof. intros H. inversion H; destruct l; discriminate. Qed.

(** ** Meanings that do not see the order *)
Record blind (m : meaning) : Prop := mkBlind {
  bl_occ : forall l l', swap_in l l' -> m_occ m l = m_occ m l';
  bl_elem : forall n n', swap_node n n' -> m_elem m n = m_elem m n';
  bl_body : forall ks ks', swap ks ks' -> m_body m ks = m_body m ks'
}.
Definition occ_blind (m : meaning) : Prop := forall l l', swap_in l l' -> m_occ m l = m_occ m l'.

Section Blind.
  Variable ign : bool.
  Lemma fields_blind fs : Forall (fun f => occ_blind (snd f)) fs -> forall ks ks', same_or swap ks ks' ->
    match m_fields fs ks, m_fields fs ks' with
    | Some ((vs, l), x), Some ((vs', l'), x') => vs = vs' /\ x = x' /\ same_or swap l l'
    | None, None => True
    | _, _ => False
    end.
  Proof.
    induction 1 as [|[tag m] fs H HF IH]; intros ks ks' Hs; cbn [m_fields].
    - cbn. auto.
    - assert (H1 : m_occ m (with_tag tag ks) = m_occ m (with_tag tag ks')).
      { destruct Hs as [->|Hs]; [reflexivity|]. destruct (with_swap tag _ _ Hs) as [->|Hi]; [reflexivity|]. now apply H. }
      assert (H2 : same_or swap (without_tag tag ks) (without_tag tag ks')).
      { destruct Hs as [->|Hs]; [now left|]. now apply without_swap. }
      rewrite H1. destruct (m_occ m (with_tag tag ks')) as [[v y]|]; [|exact I]. cbn [rdeep rbind].
      specialize (IH _ _ H2). destruct (m_fields fs (without_tag tag ks)) as [[[vs l] x]|], (m_fields fs (without_tag tag ks')) as [[[vs' l'] x']|]; try contradiction; [|exact I].
      destruct IH as (-> & -> & Hl). cbn. auto.
  Qed.
  Lemma record_blind fs ks ks' : Forall (fun f => occ_blind (snd f)) fs -> swap ks ks' -> m_record ign fs None ks = m_record ign fs None ks'.
  Proof.
    intros Hf Hs. unfold m_record. pose proof (fields_blind fs Hf ks ks' (or_intror Hs)) as H.
    destruct (m_fields fs ks) as [[[vs l] x]|], (m_fields fs ks') as [[[vs' l'] x']|]; try contradiction; [|reflexivity].
    destruct H as (-> & -> & Hl). cbn. destruct l as [|a l], l' as [|a' l']; try reflexivity.
    - destruct Hl as [Hl|Hl]; [discriminate|]. now apply swap_nil_l in Hl.
    - destruct Hl as [Hl|Hl]; [discriminate|]. now apply swap_nil_r in Hl.
  Qed.
  Lemma top_blind occ ks ks' : (forall l l', swap_in l l' -> occ l = occ l') -> swap ks ks' -> m_top ign occ ks = m_top ign occ ks'.
  Proof.
    intros H Hs. unfold m_top. rewrite (record_blind [(1, mkMn occ (fun _ => rnone) (fun _ => rnone))] ks ks'); auto.
  Qed.
  Lemma in_struct_blind b n n' : (forall ks ks', swap ks ks' -> b ks = b ks') -> swap_node n n' -> m_in_struct b n = m_in_struct b n'.
  Proof. intros H [fs fs' Hs|d fs fs' Hs]; cbn; auto. Qed.
  Lemma once_blind c l l' : (forall n n', swap_node n n' -> c n = c n') -> swap_in l l' -> m_once c l = m_once c l'.
  Proof.
    intros H (a & t & n & n' & r & -> & -> & Hn). destruct a as [|p a]; cbn; [destruct r; auto; now rewrite (H _ _ Hn)|].
    destruct p as [t0 n0]. destruct a; reflexivity.
  Qed.
  Lemma simple_blind c : (forall n n', swap_node n n' -> c n = c n') -> blind (m_simple ign c).
  Proof.
    intros H. split; cbn; [intros; now apply once_blind|exact H|]. intros ks ks' Hs. apply top_blind; [|exact Hs].
    intros; now apply once_blind.
  Qed.
  Lemma coll_blind occ : (forall l l', swap_in l l' -> occ l = occ l') -> blind (m_coll ign occ).
  Proof.
    intros H. split; cbn; [exact H| |].
    - intros n n' Hn. apply in_struct_blind; [|exact Hn]. intros. now apply top_blind.
    - intros. now apply top_blind.
  Qed.
  Lemma rmap_blind {B} (f : N * node -> R B) l l' : (forall t n n', swap_node n n' -> f (t, n) = f (t, n')) -> swap_in l l' -> rmap f l = rmap f l'.
  Proof.
    intros H (a & t & n & n' & r & -> & -> & Hn). induction a as [|p a IH]; cbn [app rmap]; [now rewrite (H _ _ _ Hn)|]. now rewrite IH.
  Qed.
  Lemma list_blind fin m : blind m -> blind (m_list ign fin m).
  Proof.
    intros [_ He _]. apply coll_blind. intros l l' Hl. rewrite (rmap_blind _ l l'); [reflexivity| |exact Hl].
    intros t n n' Hn. cbn. now rewrite (He _ _ Hn).
  Qed.
  Lemma array_blind k m : blind m -> blind (m_array ign k m).
  Proof.
    intros [_ He _]. apply coll_blind. intros l l' Hl. rewrite (swap_in_len _ _ Hl). destruct (lenN l' =? k); [|reflexivity].
    rewrite (rmap_blind _ l l'); [reflexivity| |exact Hl]. intros t n n' Hn. cbn. now rewrite (He _ _ Hn).
  Qed.
  Lemma option_blind m : blind m -> blind (m_option ign m).
  Proof.
    intros [_ He _]. apply coll_blind. intros l l' (a & t & n & n' & r & -> & -> & Hn).
    destruct a as [|p a]; cbn; [destruct r; auto; now rewrite (He _ _ Hn)|]. destruct p as [t0 n0]. destruct a; reflexivity.
  Qed.
  Lemma struct_blind b c : (forall ks ks', swap ks ks' -> b ks = b ks') -> (forall n n', swap_node n n' -> c n = c n') -> blind (m_struct b c).
  Proof. intros H1 H2. split; cbn; [intros; now apply once_blind|exact H2|exact H1]. Qed.
  Lemma number_blind ms : Forall blind ms -> forall i, Forall (fun f => occ_blind (snd f)) (m_number i ms).
  Proof. induction 1 as [|m ms [H _ _] HF IH]; intros i; cbn [m_number]; constructor; auto. Qed.
  Lemma tuple_body_blind ms ks ks' : Forall blind ms -> swap ks ks' -> m_tuple_body ign ms ks = m_tuple_body ign ms ks'.
  Proof. intros H Hs. unfold m_tuple_body. rewrite (record_blind _ ks ks'); auto. now apply number_blind. Qed.
  Lemma tuple_blind ms : Forall blind ms -> blind (m_tuple ign ms).
  Proof.
    intros H. apply struct_blind; [intros; now apply tuple_body_blind|].
    intros n n' Hn. apply in_struct_blind; [|exact Hn]. intros; now apply tuple_body_blind.
  Qed.
  Lemma map_blind k v : blind k -> blind v -> blind (m_map ign k v).
  Proof.
    intros Hk Hv. apply coll_blind. intros l l' Hl. rewrite (rmap_blind _ l l'); [reflexivity| |exact Hl].
    intros t n n' Hn. cbn [snd]. unfold m_entry. rewrite (in_struct_blind _ n n'); [reflexivity| |exact Hn].
    intros; apply tuple_body_blind; auto.
  Qed.
  Lemma nothing_blind : blind m_nothing.
  Proof. split; reflexivity. Qed.

  Variable e : env.
  Section Item.
    Variable mk : ty -> meaning.
    Definition mk_blind (b : vbody) : Prop := forall t, In t (body_types b) -> blind (mk t).
    Lemma decls_blind b : mk_blind b -> Forall (fun f => occ_blind (snd f)) (m_decls mk (vb_fields b)).
    Proof.
      intros H. unfold m_decls. apply Forall_map, Forall_forall. intros f Hf. cbn. intros l l' Hl.
      refine (bl_occ _ (H (fd_ty f) _) l l' Hl). unfold body_types. apply in_or_app. left. now apply in_map.
    Qed.
    Lemma vbody_blind b ks ks' : mk_blind b -> ~ body_catches b -> swap ks ks' -> m_vbody ign mk b ks = m_vbody ign mk b ks'.
    Proof.
      intros H Hc Hs. unfold m_vbody. cbv zeta. unfold body_catches in Hc. destruct (vb_special b) as [|nm t|nm t] eqn:Esp.
      - rewrite (record_blind _ ks ks'); auto. now apply decls_blind.
      - rewrite (bl_body (mk t)) with (ks' := ks'); auto. apply H. unfold body_types. rewrite Esp. apply in_or_app. right. now left.
      - now destruct Hc.
    Qed.
    Lemma struct_elem_blind b n n' : mk_blind b -> ~ body_catches b -> swap_node n n' -> m_struct_elem ign mk b n = m_struct_elem ign mk b n'.
    Proof.
      intros H Hc Hs. unfold m_struct_elem. pose proof Hc as Hc'. unfold body_catches in Hc. destruct (vb_special b) as [|nm t|nm t] eqn:Esp.
      - apply in_struct_blind; [|exact Hs]. intros. now apply vbody_blind.
      - rewrite (bl_elem (mk t)) with (n' := n'); auto. apply H. unfold body_types. rewrite Esp. apply in_or_app. right. now left.
      - now destruct Hc.
    Qed.
    Lemma enum_elem_blind vars catch n n' : (forall b, In b (map snd vars) \/ catch = Some b -> mk_blind b /\ ~ body_catches b) ->
      swap_node n n' -> m_enum_elem ign mk vars catch n = m_enum_elem ign mk vars catch n'.
    Proof.
      intros H [fs fs' Hs|d fs fs' Hs]; [reflexivity|]. cbn [m_enum_elem].
      assert (Hv : forall vs ix b, variant d vs = Some (ix, b) -> In b (map snd vs)).
      { induction vs as [|[d' b'] vs IH]; [discriminate|]. intros ix b. cbn. destruct (d =? d'); [intros E; injection E as <- <-; now left|].
        destruct (variant d vs) as [[j b2]|]; [|discriminate]. intros E. injection E as <- <-. right. now apply (IH j). }
      destruct (variant d vars) as [[ix b]|] eqn:Ev.
      - destruct (H b) as [H1 H2]; [left; now apply (Hv vars ix)|]. now rewrite (vbody_blind b fs fs').
      - destruct catch as [b|]; [|reflexivity]. destruct (H b) as [H1 H2]; [now right|]. now rewrite (vbody_blind b fs fs').
    Qed.
  End Item.
  Lemma types_blind im : (forall zc i, ~ keeps_unknown e (TItem i) -> blind (im zc i)) ->
    forall t zc, ~ keeps_unknown e t -> blind (meaning_of ign im zc t).
  Proof.
    intros Hi.
    assert (Hx : forall (c : node -> R value), (forall fs, c (NStruct fs) = rnone) -> (forall d fs, c (NEnum d fs) = rnone) -> blind (m_simple ign c)).
    { intros c H1 H2. apply simple_blind. intros n n' [fs fs' _|d fs fs' _]; rewrite ?H1, ?H2; reflexivity. }
    apply (ty_ind2 (fun t => forall zc, ~ keeps_unknown e t -> blind (meaning_of ign im zc t))).
    - intros t. destruct t; try exact I; intros zc Hk; cbn [meaning_of]; try (now apply Hx).
      + destruct zc; [now apply Hx|apply nothing_blind].
      + destruct zc; [now apply Hx|apply nothing_blind].
      + exfalso. apply Hk. constructor.
      + exfalso. apply Hk. constructor.
      + now apply Hi.
    - intros t IH zc Hk. cbn [meaning_of]. destruct (is_u8 t); [now apply Hx|]. apply list_blind, IH. intros H. apply Hk. now constructor.
    - intros t IH zc Hk. apply list_blind, IH. intros H. apply Hk. now constructor.
    - intros t IH zc Hk. apply list_blind, IH. intros H. apply Hk. now constructor.
    - intros t IH zc Hk. apply option_blind, IH. intros H. apply Hk. now constructor.
    - intros k t IH zc Hk. cbn [meaning_of]. destruct (is_u8 t).
      + assert (Hc : forall n n', swap_node n n' -> m_arrb k n = m_arrb k n') by (intros n n' []; reflexivity).
        assert (Ho : forall l l', swap_in l l' -> m_arrb_occ k l = m_arrb_occ k l').
        { intros l l' Hl. pose proof (once_blind _ _ _ Hc Hl) as H. destruct Hl as (a & tg & n & n' & r & -> & -> & Hn).
          unfold m_arrb_occ. destruct a; exact H. }
        split; cbn; [exact Ho|exact Hc|]. intros. now apply top_blind.
      + apply array_blind, IH. intros H. apply Hk. now constructor.
    - intros k v IHk IHv zc Hk. apply map_blind; [apply IHk|apply IHv]; intros H; apply Hk; [now apply KuKey|now apply KuVal].
    - intros ts IH zc Hk. cbn [meaning_of]. apply tuple_blind. apply Forall_map. rewrite Forall_forall in *. intros t Ht. apply IH; auto.
      intros H. apply Hk. now apply KuTuple with t.
    - intros t IH zc Hk. apply IH. intros H. apply Hk. now constructor.
    - intros t IH zc Hk. apply IH. intros H. apply Hk. now constructor.
  Qed.
  Lemma items_blind f : forall zc i, ~ keeps_unknown e (TItem i) -> blind (item_meaning ign e f zc i).
  Proof.
    induction f as [|f IH]; intros zc i Hk; [apply nothing_blind|]. cbn [item_meaning].
    assert (Hb : forall b, match e i with IStruct b0 => b = b0 | IEnum vars catch => In b (map snd vars) \/ catch = Some b end ->
       mk_blind (meaning_of ign (item_meaning ign e f) zc) b /\ ~ body_catches b).
    { intros b Hin. split.
      - intros t Ht. apply types_blind; [exact IH|]. intros Hkt. apply Hk. apply (KuItem e i t); [|exact Hkt].
        unfold item_types. destruct (e i) as [b0|vars catch]; [now subst b0|].
        destruct Hin as [Hin|Hin].
        + apply in_or_app. left. apply in_flat_map. apply in_map_iff in Hin. destruct Hin as ([d b'] & E & Hin). cbn in E. subst b'. exists (d, b). auto.
        + subst catch. apply in_or_app. now right.
      - intros Hc. apply Hk. destruct (e i) as [b0|vars catch] eqn:Ei; [subst b0; now apply (KuStruct e i b)|now apply (KuVariant e i vars catch b)]. }
    destruct (e i) as [b|vars catch].
    - destruct (Hb b eq_refl) as [H1 H2]. apply struct_blind; intros; [now apply vbody_blind|now apply struct_elem_blind].
    - apply simple_blind. intros. now apply enum_elem_blind.
  Qed.
  Lemma means_blind f zc t : ~ keeps_unknown e t -> blind (means ign e f zc t).
  Proof. intros H. apply types_blind; [apply items_blind|exact H]. Qed.
End Blind.

Lemma reordered_denotes e ign zc t ks ks' v x : ~ keeps_unknown e t -> reordered ks ks' -> denotes e ign zc t ks v x <-> denotes e ign zc t ks' v x.
Proof.
  intros Hk H. induction H as [|k1 k2 k3 H _ IH]; [reflexivity|]. rewrite <- IH.
  split; intros (f & E); exists f; rewrite <- E; [symmetry|]; now apply bl_body; [apply means_blind|].
Qed.
Theorem reordered_same e zc cf t ks ks' s s' v : usable e zc cf t -> ~ keeps_unknown e t -> reordered ks ks' ->
  doc_stream ks s -> doc_stream ks' s' ->
  fst (from_stream e zc cf t s) = ROk v <-> fst (from_stream e zc cf t s') = ROk v.
Proof.
  intros Hu Hk Hr Hs Hs'. rewrite (meaning_ok e zc cf t ks s v Hu Hs), (meaning_ok e zc cf t ks' s' v Hu Hs').
  split; intros (x & Hd & Hf); exists x; split; auto; now apply (reordered_denotes e _ zc t ks ks' v x Hk Hr).
Qed.

(** ** The view of a struct *)
Lemma filter_filter {A} (p q : A -> bool) l : filter p (filter q l) = filter (fun a => q a && p a) l.
Proof. induction l as [|a l IH]; [reflexivity|]. cbn. destruct (q a); cbn; [destruct (p a); now rewrite IH|exact IH]. Qed.
Lemma filter_comm {A} (p q : A -> bool) l : filter p (filter q l) = filter q (filter p l).
Proof. rewrite !filter_filter. apply filter_ext. intros a. apply Bool.andb_comm. Qed.
Lemma undeclared_cons tag tags ks : undeclared (tag :: tags) ks = undeclared tags (without_tag tag ks).
Proof.
  unfold undeclared, without_tag. rewrite filter_filter. apply filter_ext. intros f. cbn [existsb]. apply Bool.negb_orb.
Qed.
Lemma undeclared_nil ks : undeclared [] ks = ks.
Proof. unfold undeclared. induction ks as [|k ks IH]; [reflexivity|]. cbn in *. now rewrite IH. Qed.
Lemma fields_view fs : forall ks ks', same_fields (map fst fs) ks ks' -> m_fields fs ks = m_fields fs ks'.
Proof.
  induction fs as [|[tag m] fs IH]; intros ks ks' [H1 H2]; cbn [m_fields map fst] in *.
  - rewrite !undeclared_nil in H2. now rewrite H2.
  - rewrite (H1 tag) by now left. rewrite (IH (without_tag tag ks) (without_tag tag ks')); [reflexivity|]. split.
    + intros t Ht. unfold with_tag, without_tag. rewrite (filter_comm (fun f => fst f =? t)), (filter_comm (fun f => fst f =? t)).
      fold (with_tag t ks) (with_tag t ks'). rewrite (H1 t); [reflexivity|now right].
    + now rewrite <- !undeclared_cons.
Qed.
Lemma fields_rest fs : forall ks vs l x, m_fields fs ks = Some ((vs, l), x) -> l = undeclared (map fst fs) ks /\ List.length vs = List.length fs.
Proof.
  induction fs as [|[tag m] fs IH]; intros ks vs l x; cbn [m_fields map fst].
  - intros H. injection H as <- <- _. now rewrite undeclared_nil.
  - destruct (m_occ m (with_tag tag ks)) as [[v y]|]; [|discriminate]. cbn [rdeep rbind].
    destruct (m_fields fs (without_tag tag ks)) as [[[vs' l'] x']|] eqn:E; [|discriminate]. cbn. intros H. injection H as <- <- _.
    rewrite undeclared_cons. destruct (IH _ _ _ _ E) as [-> Hl]. cbn. now rewrite Hl.
Qed.
Lemma decls_tags mk fs : map fst (m_decls mk fs) = map fd_tag fs.
Proof. unfold m_decls. rewrite map_map. reflexivity. Qed.
Lemma vbody_view ign mk b ks ks' : same_fields (map fd_tag (vb_fields b)) ks ks' -> match vb_special b with SpDeleg _ _ => False | _ => True end ->
  m_vbody ign mk b ks = m_vbody ign mk b ks'.
Proof.
  intros H Hd. rewrite <- (decls_tags mk) in H. unfold m_vbody. cbv zeta. destruct (vb_special b) as [|nm t|nm t]; try contradiction;
    unfold m_record; now rewrite (fields_view _ ks ks' H).
Qed.
Theorem same_fields_same e zc cf i b ks ks' s s' v : usable e zc cf (TItem i) -> e i = IStruct b ->
  match vb_special b with SpDeleg _ _ => False | _ => True end -> same_fields (map fd_tag (vb_fields b)) ks ks' ->
  doc_stream ks s -> doc_stream ks' s' ->
  fst (from_stream e zc cf (TItem i) s) = ROk v <-> fst (from_stream e zc cf (TItem i) s') = ROk v.
Proof.
  intros Hu Ei Hb Hk Hs Hs'. rewrite (meaning_ok e zc cf _ ks s v Hu Hs), (meaning_ok e zc cf _ ks' s' v Hu Hs').
  assert (H : forall f, m_body (means (cf_ignore cf) e f zc (TItem i)) ks = m_body (means (cf_ignore cf) e f zc (TItem i)) ks').
  { intros [|f]; [reflexivity|]. unfold means. cbn [meaning_of item_meaning]. rewrite Ei. cbn [m_struct m_body]. now apply vbody_view. }
  split; intros (x & (f & Hd) & Hf); exists x; (split; [exists f|exact Hf]); [now rewrite <- H|now rewrite H].
Qed.
Lemma same_fields_struct e zc cf i b ks ks' s s' v : usable e zc cf (TItem i) -> e i = IStruct b -> delegates b = false ->
  same_fields (map fd_tag (vb_fields b)) ks ks' -> doc_stream ks s -> doc_stream ks' s' ->
  fst (from_stream e zc cf (TItem i) s) = ROk v <-> fst (from_stream e zc cf (TItem i) s') = ROk v.
Proof.
  intros Hu Ei Hb. apply (same_fields_same e zc cf i b); auto. unfold delegates in Hb. destruct (vb_special b); [exact Logic.I|discriminate|exact Logic.I].
Qed.
