(** * P_Loc: errors tell what is wrong with the document, and where (C65) *)

From Verif Require Import Base Wire Dev Stream Types Prog De SpecFormat SpecDe SpecDoc SpecRead SpecText SpecFault Tree.
From Verif Require Import P_Base P_Prog P_Tree P_TreeRun P_Means P_Meaning P_DeTrail P_Text P_Fault.
Local Open Scope N_scope.

(** ** The error of a stream is the error of the tree *)
Lemma stream_path e zc cf t ks s x s' : usable e zc cf t -> doc_stream ks s -> from_stream e zc cf t s = (RErr x, s') ->
  exists k c, read_tree cf e zc t ks = (RErr k, c) /\ anyk k (e_kind x) /\ map fst (e_path x) = c_path c.
Proof.
  intros (He & Ht & Hc & Hb) [bs tl dbg sk sched Henc Hok Hlen Hs] Hrun.
  pose proof (tree_stream_path e zc cf t ks _ bs tl He Ht Hc Hb Henc (fresh_starts dbg sk bs tl Hok Hlen)) as H.
  destruct (from_stream e zc cf t (new_stream dbg sk (mkDev (bs ++ tl) 0 []))) as [r s1] eqn:E.
  destruct (sched_any e zc cf t dbg sk false (bs ++ tl) sched r s1 Hs E) as (s2 & E2 & _).
  change (set_graceful_ false (new_stream dbg sk (mkDev (bs ++ tl) 0 sched))) with (new_stream dbg sk (mkDev (bs ++ tl) 0 sched)) in E2.
  assert (r = RErr x) by congruence. subst r. destruct (read_tree cf e zc t ks) as [[v|k| |] c]; try contradiction.
  - destruct H as (s3 & E3 & _). discriminate.
  - destruct H as (y & s3 & E3 & Hk & Hp). injection E3 as <- _. eauto.
Qed.
Theorem located e zc cf t ks s x s' : usable e zc cf t -> doc_stream ks s -> from_stream e zc cf t s = (RErr x, s') ->
  body_fault e (cf_ignore cf) zc t ks (rev (map fst (e_path x))) (e_kind x) /\
  (e_kind x = KRecLimit -> lenN (e_path x) = cf_rec cf).
Proof.
  intros Hu Hd Hr. destruct (stream_path _ _ _ _ _ _ _ _ Hu Hd Hr) as (k & c & E & Hk & Hp).
  pose proof (read_tree_faults cf e zc t ks) as H. rewrite E in H. destruct H as [H1 H2]. rewrite Hp. split; [now apply H1|].
  intros Hx. replace (lenN (e_path x)) with (lenN (map fst (e_path x))) by (unfold lenN; now rewrite map_length). rewrite Hp. apply H2.
  rewrite Hx in Hk. now inversion Hk.
Qed.

(** ** A document with a fault is no value of the type *)
Scheme fields_fault_mut := Induction for fields_fault Sort Prop
  with record_fault_mut := Induction for record_fault Sort Prop
  with body_fault_mut := Induction for body_fault Sort Prop
  with field_fault_mut := Induction for field_fault Sort Prop
  with elem_fault_mut := Induction for elem_fault Sort Prop.
Combined Scheme faults_ind from fields_fault_mut, record_fault_mut, body_fault_mut, field_fault_mut, elem_fault_mut.

Section Real.
  Variables (e : env) (ign : bool).
  Notation mn f zc := (means ign e f zc).
  Definition meant f zc (ds : list decl) : list (N * meaning) := map (fun d => (decl_tag d, mn f zc (snd d))) ds.
  Definition catcher f zc (sp : special) : option meaning := match sp with SpUnknown _ t => Some (mn f zc t) | _ => None end.

  Lemma rbind_none {A B} (m : R A) (f : A -> R B) : m = None -> rbind m f = None.
  Proof. intros ->. reflexivity. Qed.
  Lemma with_without tag tag' ks : with_tag tag (without_tag tag' ks) = if tag' =? tag then [] else with_tag tag ks.
  Proof.
    unfold with_tag, without_tag. destruct (N.eqb_spec tag' tag) as [->|Hne].
    - induction ks as [|[t n] ks IH]; [reflexivity|]. cbn [filter fst]. destruct (N.eqb_spec t tag) as [->|Ht]; cbn [negb]; [exact IH|].
      cbn [filter fst]. destruct (N.eqb_spec t tag); [contradiction|exact IH].
    - induction ks as [|[t n] ks IH]; [reflexivity|]. cbn [filter fst]. destruct (N.eqb_spec t tag') as [->|Ht]; cbn [negb filter fst].
      + destruct (N.eqb_spec tag' tag); [contradiction|exact IH].
      + destruct (N.eqb_spec t tag); [now rewrite IH|exact IH].
  Qed.
  Lemma fields_none f zc pre nm tag t post ks : m_occ (mn f zc t) (occurrences pre tag ks) = None ->
    m_fields (meant f zc (pre ++ (nm, tag, t) :: post)) ks = None.
  Proof.
    intros H. unfold meant. rewrite map_app. cbn [map]. change (decl_tag (nm, tag, t)) with tag. cbn [snd].
    revert ks H. induction pre as [|d pre IH]; intros ks H; cbn [map app m_fields].
    - apply rbind_none. unfold occurrences in H. cbn [existsb] in H. now rewrite H.
    - destruct (rdeep _) as [[v x]|]; [|reflexivity]. unfold rbind at 1. cbn [rbind]. erewrite rbind_none; [reflexivity|]. apply IH.
      unfold occurrences in *. cbn [existsb] in H. rewrite with_without. destruct (decl_tag d =? tag); cbn [orb] in H; [|exact H].
      now destruct (existsb _ pre).
  Qed.
  Lemma fields_left f zc ds : forall ks r x, m_fields (meant f zc ds) ks = Some (r, x) -> snd r = others ds ks.
  Proof.
    induction ds as [|d ds IH]; intros ks r x H; cbn [meant map m_fields] in H.
    - injection H as <- _. unfold others. cbn. induction ks as [|a ks IH]; [reflexivity|]. cbn. now rewrite <- IH.
    - unfold rbind in H at 1. destruct (rdeep _) as [[v y]|]; [|discriminate]. unfold rbind in H.
      fold (meant f zc ds) in H. destruct (m_fields (meant f zc ds) _) as [[r' z]|] eqn:E; [|discriminate]. injection H as <- _. cbn [snd].
      rewrite (IH _ _ _ E). unfold others, without_tag. clear. induction ks as [|[t n] ks IH]; [reflexivity|]. cbn [filter fst existsb].
      rewrite (N.eqb_sym t). destruct (decl_tag d =? t); cbn [negb orb filter fst]; [exact IH|]. destruct (existsb _ ds); cbn [negb]; [exact IH|now rewrite IH].
  Qed.
  Lemma record_none f zc ds c ks : m_fields (meant f zc ds) ks = None -> m_record ign (meant f zc ds) c ks = None.
  Proof. intros H. unfold m_record. now apply rbind_none. Qed.
  Lemma rmap_none {A B} (f : A -> R B) l a : In a l -> f a = None -> rmap f l = None.
  Proof.
    induction l as [|b l IH]; [contradiction|]. intros [->|Hi] Ha; cbn [rmap]; [now rewrite Ha|].
    unfold rbind at 1. destruct (f b) as [[y x]|]; [|reflexivity]. now rewrite (IH Hi Ha).
  Qed.
  Lemma numbered_meant f zc ts : forall i, meant f zc (numbered i ts) = m_number (i + 1) (map (mn f zc) ts).
  Proof. induction ts as [|t ts IH]; intros i; [reflexivity|]. cbn [numbered meant map m_number]. change (decl_tag (tuple_name i, i + 1, t)) with (i + 1). cbn [snd]. f_equal. apply IH. Qed.
  Lemma decls_meant f zc fs : meant f zc (decls fs) = m_decls (mn f zc) fs.
  Proof. unfold meant, decls, m_decls. rewrite map_map. apply map_ext. reflexivity. Qed.

  Let Pfs zc ds sp ks (p : list string) k := ~ a_limit k -> forall f, m_record ign (meant f zc ds) (catcher f zc sp) ks = None.
  Let Pr zc b ks (p : list string) k := ~ a_limit k -> forall f, m_vbody ign (mn f zc) b ks = None.
  Let Pb zc t ks (p : list string) k := ~ a_limit k -> forall f, m_body (mn f zc t) ks = None.
  Let Pf zc t occ (w : option N) (p : list string) k := ~ a_limit k -> forall f, m_occ (mn f zc t) occ = None.
  Let Pe zc t n (p : list string) k := ~ a_limit k -> forall f, m_elem (mn f zc t) n = None.

  Lemma unk_limit zc : (forall n p k, unk_fault zc n p k -> a_limit k) .
  Proof.
    assert (H : forall n p k, unk_fault zc n p k -> a_limit k).
    { fix IH 4. intros n p k H. destruct H as [b ? ?|fs p k H|d fs p k H]; [right; now right| |].
      - revert fs p k H. fix IH2 4. intros fs p k H. destruct H as [| |tag n fs p k Hi H]; [now left|right; now left|exact (IH _ _ _ H)].
      - revert fs p k H. fix IH2 4. intros fs p k H. destruct H as [| |tag n fs p k Hi H]; [now left|right; now left|exact (IH _ _ _ H)]. }
    exact H.
  Qed.
  Lemma unks_limit zc fs p k : unks_fault zc fs p k -> a_limit k.
  Proof. intros [| |tag n fs' p' k' Hi H]; [now left|right; now left|exact (unk_limit zc _ _ _ H)]. Qed.

  Lemma top_none f zc t ks : m_record ign (meant f zc [("top"%string, 1, t)]) None ks = None -> m_top ign (m_occ (mn f zc t)) ks = None.
  Proof. intros H. unfold m_top. apply rbind_none. exact H. Qed.
  Lemma body_top f zc t : in_top e t -> forall ks, m_top ign (m_occ (mn f zc t)) ks = None -> m_body (mn f zc t) ks = None.
  Proof.
    unfold means. destruct t; intros Hi ks H; cbn [meaning_of] in *; try contradiction; try exact H.
    - destruct zc; [exact H|reflexivity].
    - destruct zc; [exact H|reflexivity].
    - destruct (is_u8 t); exact H.
    - destruct (is_u8 t); exact H.
    - cbn in Hi. destruct f as [|f]; [reflexivity|]. cbn [item_meaning] in *. match goal with |- context [e ?j] => destruct (e j) end; [contradiction|]. exact H.
  Qed.
  Lemma elem_struct f zc t : in_struct e t -> forall n, (forall ks, n = NStruct ks -> m_body (mn f zc t) ks = None) -> m_elem (mn f zc t) n = None.
  Proof.
    unfold means. destruct t; intros Hi nd H; cbn [meaning_of in_struct] in *; try contradiction;
      try (destruct nd; try reflexivity; exact (H _ eq_refl));
      try (rewrite Hi in *; destruct nd; try reflexivity; exact (H _ eq_refl)).
    destruct f as [|f]; [reflexivity|]. cbn [item_meaning] in *. match goal with |- context [e ?j] => destruct (e j) as [b|] end; [|contradiction].
    cbn [m_struct m_elem m_body] in *. unfold m_struct_elem. destruct (vb_special b); try contradiction; (destruct nd; try reflexivity; exact (H _ eq_refl)).
  Qed.
  Lemma required_once f zc t : required t -> forall occ, (forall tag n, occ = [(tag, n)] -> m_elem (mn f zc t) n = None) -> m_occ (mn f zc t) occ = None.
  Proof.
    intros Ht occ H. assert (Ho : m_occ (mn f zc t) occ = None \/ m_occ (mn f zc t) occ = m_once (m_elem (mn f zc t)) occ).
    { unfold means. destruct t; cbn [meaning_of]; try (right; reflexivity); try (destruct Ht as [[]|[[]|[]]]; fail).
      - destruct zc; [right|left]; reflexivity.
      - destruct zc; [right|left]; reflexivity.
      - destruct Ht as [[]|[[]|Ht]]. rewrite Ht. right; reflexivity.
      - destruct f as [|f]; [left; reflexivity|]. cbn [item_meaning]. match goal with |- context [e ?j] => destruct (e j) end; right; reflexivity. }
    destruct Ho as [->| ->]; [reflexivity|]. destruct occ as [|[tag n] [|b occ]]; try reflexivity. exact (H tag n eq_refl).
  Qed.
  Lemma coll_none f zc t t' occ tag n : collection_of t t' -> In (tag, n) occ -> m_elem (mn f zc t') n = None -> m_occ (mn f zc t) occ = None.
  Proof.
    intros Hc Hi He. unfold means in *. destruct Hc as [t Hu|t|t|k v]; cbn [meaning_of] in *; rewrite ?Hu; cbn [m_list m_coll m_map m_occ m_elem m_tuple m_struct] in *;
      apply rbind_none; apply (rmap_none _ _ (tag, n) Hi); cbn [snd]; try (now rewrite He).
    unfold m_entry. now rewrite (rbind_none _ _ He).
  Qed.
  Lemma variant_in d vars : ~ In d (map fst vars) -> variant d vars = None.
  Proof.
    induction vars as [|[d' b] vars IH]; [reflexivity|]. cbn. intros H. destruct (N.eqb_spec d d') as [->|Hne]; [destruct H; now left|].
    rewrite IH; [reflexivity|]. intros Hi. apply H. now right.
  Qed.
  Lemma vbody_checks mk b ks : m_vbody ign mk b ks =
    rbind (m_vbody ign mk (mkB (vb_fields b) (vb_special b) (fun _ => true)) ks) (fun v => match v with VRec vs => m_construct b vs | _ => rnone end).
  Proof.
    unfold m_vbody. cbn [vb_fields vb_special]. cbv zeta. destruct (vb_special b) as [|nm t|nm t]; unfold rbind, m_construct; cbn [vb_check].
    - destruct (m_record _ _ _ _) as [[vs x]|]; [|reflexivity]. cbn. destruct (vb_check b vs); [|reflexivity]. now rewrite !cadd_0_r.
    - destruct (rdeep _) as [[v x]|]; [|reflexivity]. destruct (m_fields _ _) as [[r y]|]; [|reflexivity]. cbn. destruct (vb_check b _); [|reflexivity].
      cbn. now rewrite !cadd_0_r.
    - destruct (m_record _ _ _ _) as [[vs x]|]; [|reflexivity]. cbn. destruct (vb_check b vs); [|reflexivity]. now rewrite !cadd_0_r.
  Qed.
  Lemma reads_fun b zc ks vs : reads_as e ign zc b ks vs -> vb_check b vs = false -> forall f, m_vbody ign (mn f zc) b ks = None.
  Proof.
    intros (g & x & Hg) Hc f. rewrite vbody_checks. destruct (m_vbody ign (mn f zc) _ ks) as [[v y]|] eqn:E; [|reflexivity].
    pose proof (vbody_mle ign _ _ (fun t => means_mle ign e f (Nat.max f g) zc t (Nat.le_max_l _ _)) _ ks _ E) as H1.
    pose proof (vbody_mle ign _ _ (fun t => means_mle ign e g (Nat.max f g) zc t (Nat.le_max_r _ _)) _ ks _ Hg) as H2.
    rewrite H1 in H2. injection H2 as -> _. unfold rbind, m_construct. now rewrite Hc.
  Qed.
  Lemma elem_fun zc t n v x f f' v' x' : m_elem (mn f zc t) n = Some (v, x) -> m_elem (mn f' zc t) n = Some (v', x') -> v = v'.
  Proof.
    intros H1 H2. pose proof (ml_elem _ _ (means_mle ign e f (Nat.max f f') zc t (Nat.le_max_l _ _)) n _ H1) as H3.
    pose proof (ml_elem _ _ (means_mle ign e f' (Nat.max f f') zc t (Nat.le_max_r _ _)) n _ H2) as H4. congruence.
  Qed.

  Lemma faults_real :
    (forall zc ds sp ks p k, fields_fault e ign zc ds sp ks p k -> Pfs zc ds sp ks p k) /\
    (forall zc b ks p k, record_fault e ign zc b ks p k -> Pr zc b ks p k) /\
    (forall zc t ks p k, body_fault e ign zc t ks p k -> Pb zc t ks p k) /\
    (forall zc t occ w p k, field_fault e ign zc t occ w p k -> Pf zc t occ w p k) /\
    (forall zc t n p k, elem_fault e ign zc t n p k -> Pe zc t n p k).
  Proof.
    apply (faults_ind e ign (fun zc ds sp ks p k _ => Pfs zc ds sp ks p k) (fun zc b ks p k _ => Pr zc b ks p k)
      (fun zc t ks p k _ => Pb zc t ks p k) (fun zc t occ w p k _ => Pf zc t occ w p k) (fun zc t n p k _ => Pe zc t n p k));
      unfold Pfs, Pr, Pb, Pf, Pe;
      try (intros; match goal with H : ~ a_limit ?k |- _ => exfalso; apply H; unfold a_limit; auto; fail end).
    (* fields *)
    - intros zc pre nm tag t post sp ks w p k _ IH Hl f. apply record_none, fields_none. now apply IH.
    - intros zc ds ks tag n pos Hg Hi Hl f. unfold m_record, catcher. destruct (m_fields (meant f zc ds) ks) as [[r x]|] eqn:E; [|reflexivity].
      unfold rbind. rewrite (fields_left _ _ _ _ _ _ E). destruct (others ds ks); [contradiction|]. now rewrite Hg.
    - intros zc ds nm t ks tag p k _ IH Hl f. unfold m_record, catcher. destruct (m_fields (meant f zc ds) ks) as [[r x]|] eqn:E; [|reflexivity].
      unfold rbind at 1. rewrite (fields_left _ _ _ _ _ _ E), (IH Hl). reflexivity.
    - intros zc ds nm t ks p k _ IH Hl f. unfold m_record, catcher. destruct (m_fields (meant f zc ds) ks) as [[r x]|] eqn:E; [|reflexivity].
      unfold rbind at 1. rewrite (fields_left _ _ _ _ _ _ E), (IH Hl). reflexivity.
    (* records *)
    - intros zc b ks p k Hnd _ IH Hl f. specialize (IH Hl f). unfold m_vbody. rewrite <- decls_meant. destruct (vb_special b) as [|nm t|nm t] eqn:Es; cbn [catcher] in IH.
      + now rewrite IH.
      + now destruct (Hnd nm t).
      + now rewrite IH.
    - intros zc b ks nm t p k Es _ IH Hl f. unfold m_vbody. rewrite Es, (IH Hl f). reflexivity.
    - intros zc b ks nm t p k Es _ IH Hl f. unfold m_vbody. rewrite Es. destruct (rdeep _) as [[v x]|]; [|reflexivity]. unfold rbind at 1.
      specialize (IH Hl f). unfold m_record in IH. rewrite <- decls_meant. destruct (m_fields (meant f zc (decls (vb_fields b))) []) as [[r y]|] eqn:E; [|reflexivity].
      unfold rbind in IH. cbn [catcher] in IH. rewrite (fields_left _ _ _ _ _ _ E) in IH. discriminate.
    - intros zc b ks vs Hr Hc Hl f. now apply (reads_fun b zc ks vs).
    (* bodies *)
    - intros zc t ks p k Ht _ IH Hl f. apply body_top; [exact Ht|]. apply top_none, (IH Hl f).
    - intros zc ts ks p k _ IH Hl f. specialize (IH Hl f). unfold means. cbn [meaning_of m_tuple m_struct m_body]. unfold m_tuple_body.
      rewrite numbered_meant in IH. change (0 + 1) with 1 in IH. cbn [catcher] in IH. unfold means in IH. apply rbind_none. exact IH.
    - intros zc i b ks p k Ei _ IH Hl f. unfold means. cbn [meaning_of]. destruct f as [|f]; [reflexivity|]. cbn [item_meaning]. rewrite Ei. apply (IH Hl).
    - intros zc ks p k H Hl. destruct (Hl (unks_limit _ _ _ _ H)).
    - intros zc t ks p k _ IH Hl f. exact (IH Hl f).
    - intros zc t ks p k _ IH Hl f. exact (IH Hl f).
    (* occurrences *)
    - intros zc t Ht Hl f. apply required_once; [exact Ht|discriminate].
    - intros zc t tag n r p k Ht _ IH Hl f. destruct Ht as [Ht|[(t' & ->)|(m & t' & -> & Hu)]].
      + apply required_once; [exact Ht|]. intros tag' n' [= -> -> ->]. specialize (IH Hl f). destruct t; try exact IH. destruct Ht as [[]|[[]|[]]].
      + unfold means in *. cbn [meaning_of m_option m_coll m_occ]. destruct r; [|reflexivity]. rewrite (rbind_none _ _ (IH Hl f)). reflexivity.
      + specialize (IH Hl f). unfold means in *. cbn [meaning_of] in *. rewrite Hu in *. cbn [m_occ m_elem] in *. unfold m_arrb_occ. destruct r; [exact IH|reflexivity].
    - intros zc t a tag n r Ht Hl f. destruct Ht as [Ht|[(t' & ->)|(m & t' & -> & Hu)]].
      + apply required_once; [exact Ht|]. discriminate.
      + unfold means in *. cbn [meaning_of m_option m_coll m_occ]. destruct a; reflexivity.
      + unfold means in *. cbn [meaning_of] in *. rewrite Hu in *. cbn [m_occ m_elem] in *. unfold m_arrb_occ. destruct a; reflexivity.
    - intros zc m t Hu Hm Hl f. unfold means. cbn [meaning_of]. rewrite Hu. cbn [m_occ m_arrb_occ]. destruct (N.eqb_spec m 0); [lia|reflexivity].
    - intros zc m t a tag n r p k Hu Hm _ _ Hl f. unfold means. cbn [meaning_of]. rewrite Hu. cbn [m_occ m_arrb_occ]. destruct a; reflexivity.
    - intros zc t t' occ tag n p k Hc Hi _ IH Hl f. now apply (coll_none f zc t t' occ tag n Hc Hi), IH.
    - intros zc m t pre tag n post p k Hu Hm _ IH Hl f. specialize (IH Hl f). unfold means in *. cbn [meaning_of]. rewrite Hu. cbn [m_array m_coll m_occ].
      destruct (_ =? m); [|reflexivity]. apply rbind_none. apply (rmap_none _ _ (tag, n)); [apply in_or_app; right; now left|exact IH].
    - intros zc m t pre tag n post Hu Hm Hl f. unfold means in *. cbn [meaning_of]. rewrite Hu. cbn [m_array m_coll m_occ].
      destruct (N.eqb_spec (lenN (pre ++ (tag, n) :: post)) m) as [H|H]; [|reflexivity]. rewrite lenN_app, lenN_cons in H. lia.
    - intros zc m t Hu Hm Hl f. unfold means in *. cbn [meaning_of]. rewrite Hu. cbn [m_array m_coll m_occ].
      destruct (N.eqb_spec (lenN (@nil (N * node))) m) as [H|H]; [|reflexivity]. change (lenN (@nil (N * node))) with 0 in H. lia.
    - intros zc m t occ Hu Hn Hm Hl f. unfold means in *. cbn [meaning_of]. rewrite Hu. cbn [m_array m_coll m_occ].
      destruct (N.eqb_spec (lenN occ) m) as [H|H]; [|reflexivity]. lia.
    - intros zc occ tag n p k Hi H Hl. destruct (Hl (unk_limit _ _ _ _ H)).
    - intros zc t occ w p k _ IH Hl f. exact (IH Hl f).
    - intros zc t occ w p k _ IH Hl f. exact (IH Hl f).
    (* values *)
    - intros zc t n Ht Hk Hl f. unfold means. destruct t; try contradiction; destruct n; try reflexivity; now destruct Hk.
    - intros zc t x Ht Hl f. unfold means. destruct t; try contradiction; cbn [meaning_of m_simple m_elem m_uint m_sint m_bool m_char m_phantom no_number] in *.
      + destruct (N.leb_spec x (umax w)) as [H|H]; [|reflexivity]. unfold umax in H. lia.
      + cbv zeta. destruct (Z.leb_spec (smin w) (unzigzag x)) as [H|H]; [|reflexivity]. destruct (Z.leb_spec (unzigzag x) (smax w)) as [H'|H']; [|reflexivity]. destruct Ht. auto.
      + destruct (N.eqb_spec x 0); [lia|]. destruct (N.eqb_spec x 1); [lia|reflexivity].
      + destruct (N.leb_spec x (umax 32)) as [H|H]; [|reflexivity]. unfold umax in H. lia.
      + destruct (N.eqb_spec x 0); [lia|reflexivity].
    - intros zc x Hs Hl f. unfold means. cbn [meaning_of m_simple m_elem m_char]. destruct (char_ok x) eqn:Ec; [destruct Hs; now apply char_scalar|].
      now rewrite andb_false_r.
    - intros zc t n Ht Hk Hl f. unfold means. destruct t; try (destruct Ht as [[]|[]]; fail); cbn [meaning_of].
      all: try (destruct zc; try reflexivity). all: try (destruct n; try reflexivity; now destruct Hk).
      all: destruct Ht as [[]|Ht]; cbn in Ht; rewrite Ht. all: try (destruct n; try reflexivity; now destruct Hk).
      all: destruct n0; try reflexivity; now destruct Hk.
    - intros zc t b Ht Hs Hl f. assert (Hb : utf8_ok b = false) by (destruct (utf8_ok b) eqn:Eb; [destruct Hs; now apply utf8_text|reflexivity]).
      unfold means. destruct t; try contradiction; cbn [meaning_of]; try (destruct zc; try reflexivity); cbn [m_simple m_elem m_str]; now rewrite Hb.
    - intros zc m t b Hu Hm Hl f. unfold means. cbn [meaning_of]. rewrite Hu. cbn [m_elem m_arrb]. destruct (N.eqb_spec (lenN b) m); [contradiction|reflexivity].
    - intros zc t n Ht Hk Hl f. apply elem_struct; [exact Ht|]. intros ks ->. now destruct Hk.
    - intros zc t ks p k Ht _ IH Hl f. apply elem_struct; [exact Ht|]. intros ks' [= <-]. exact (IH Hl f).
    - intros zc i b nm t n p k Ei Es _ IH Hl f. unfold means. cbn [meaning_of]. destruct f as [|f]; [reflexivity|]. cbn [item_meaning]. rewrite Ei. cbn [m_struct m_elem].
      unfold m_struct_elem. rewrite Es. specialize (IH Hl f). unfold means in IH. now rewrite IH.
    - intros zc i b nm t n v x fuel Ei Es Hv Hc Hl f. unfold means. cbn [meaning_of]. destruct f as [|f]; [reflexivity|]. cbn [item_meaning]. rewrite Ei. cbn [m_struct m_elem].
      unfold m_struct_elem. rewrite Es. change (meaning_of ign (item_meaning ign e f) zc t) with (mn f zc t).
      destruct (m_elem (mn f zc t) n) as [[v' x']|] eqn:E; [|reflexivity]. rewrite (elem_fun _ _ _ _ _ _ _ _ _ E Hv). cbn [rdeep rbind].
      unfold m_construct. now rewrite Hc.
    - intros zc i vars catch n Ei Hk Hl f. unfold means. cbn [meaning_of]. destruct f as [|f]; [reflexivity|]. cbn [item_meaning]. rewrite Ei. cbn [m_simple m_elem].
      destruct n; try reflexivity. now destruct Hk.
    - intros zc i vars d fs Ei Hd Hl f. unfold means. cbn [meaning_of]. destruct f as [|f]; [reflexivity|]. cbn [item_meaning]. rewrite Ei. cbn [m_simple m_elem m_enum_elem].
      now rewrite (variant_in _ _ Hd).
    - intros zc i vars catch d ix b fs p k Ei Hv _ IH Hl f. unfold means. cbn [meaning_of]. destruct f as [|f]; [reflexivity|]. cbn [item_meaning]. rewrite Ei. cbn [m_simple m_elem m_enum_elem].
      rewrite Hv. apply rbind_none, (IH Hl f).
    - intros zc i vars b d fs p k Ei Hd _ IH Hl f. unfold means. cbn [meaning_of]. destruct f as [|f]; [reflexivity|]. cbn [item_meaning]. rewrite Ei. cbn [m_simple m_elem m_enum_elem].
      rewrite (variant_in _ _ Hd). apply rbind_none, (IH Hl f).
    - intros zc n p k H Hl. destruct (Hl (unk_limit _ _ _ _ H)).
    - intros zc t n p k _ IH Hl f. exact (IH Hl f).
    - intros zc t n p k _ IH Hl f. exact (IH Hl f).
  Qed.
  Theorem fault_real zc t ks p k : body_fault e ign zc t ks p k -> ~ a_limit k -> forall v x, ~ denotes e ign zc t ks v x.
  Proof.
    intros H Hl v x (f & Hf). destruct faults_real as (_ & _ & Hb & _). specialize (Hb _ _ _ _ _ H Hl f). cbn beta in Hb. congruence.
  Qed.
End Real.

Theorem fault_fails e zc cf t ks s p k : usable e zc cf t -> doc_stream ks s -> body_fault e (cf_ignore cf) zc t ks p k -> ~ a_limit k ->
  exists err, fst (from_stream e zc cf t s) = RErr err.
Proof. intros Hu Hs Hf Hl. apply (meaning_none e zc cf t ks s Hu Hs). exact (fault_real _ _ _ _ _ _ _ Hf Hl). Qed.
