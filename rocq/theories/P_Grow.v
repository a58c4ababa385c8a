(** * P_Grow: a value read is no larger, written back, than what it was read from (C81) *)

From Verif Require Import Base Wire Dev Stream Types Prog Ser De Tree SpecWire SpecFormat SpecStream SpecDe SpecDoc SpecSerDe SpecRead SpecAccept SpecWrite SpecGrow
  P_Base P_Wire P_Read P_Types P_DictAll P_Means P_Meaning P_DeProps P_Accept P_Exact.
Local Open Scope N_scope.
Strategy 1000 [s_decode_u64 decode_u64 decode_loop write_all read_exact encode_u64 enc_loop encode_fixed_u64 mloop miter].

Lemma rbind_inv {A B} (m : R A) (f : A -> R B) b x : rbind m f = Some (b, x) -> exists a y z, m = Some (a, y) /\ f a = Some (b, z).
Proof. unfold rbind. destruct m as [[a y]|]; [|discriminate]. destruct (f a) as [[c z]|] eqn:E; [|discriminate]. intros H. injection H as <- _. eauto 6. Qed.
Lemma rdeep_inv {A} (m : R A) a x : rdeep m = Some (a, x) -> exists y, m = Some (a, y).
Proof. unfold rdeep. destruct m as [[b y]|]; [|discriminate]. intros H. injection H as <- _. eauto. Qed.
Lemma rcost_inv {A} c (m : R A) a x : rcost c m = Some (a, x) -> exists y, m = Some (a, y).
Proof. unfold rcost. destruct m as [[b y]|]; [|discriminate]. intros H. injection H as <- _. eauto. Qed.
Lemma rret_inv {A} (a b : A) x : rret a = Some (b, x) -> a = b.
Proof. intros H. now injection H. Qed.
Lemma rmap_inv {A B} (f : A -> R B) l : forall bs x, rmap f l = Some (bs, x) -> Forall2 (fun a b => exists y, f a = Some (b, y)) l bs.
Proof.
  induction l as [|a l IH]; intros bs x H; cbn [rmap] in H.
  - apply rret_inv in H. subst. constructor.
  - apply rbind_inv in H. destruct H as (b & y & z & H1 & H2). apply rbind_inv in H2. destruct H2 as (bs' & y' & z' & H2 & H3).
    apply rret_inv in H3. subst. constructor; [eauto|]. eapply IH; eauto.
Qed.

Section Measure.
  Variables (ci : N -> N) (cb : bytes -> N) (cs : N) (ce : N -> N).
  Hypothesis Hci : forall x, ci (zz (unzigzag x)) <= ci x.
  Fixpoint ms (n : node) : N :=
    match n with
    | NInt x => ci x
    | NBlob b => cb b
    | NStruct fs => cs + fold_right (fun f x => ms (snd f) + x) 0 fs
    | NEnum d fs => ce d + fold_right (fun f x => ms (snd f) + x) 0 fs
    end.
  Definition msf (ks : list (N * node)) : N := fold_right (fun f x => ms (snd f) + x) 0 ks.
  Definition mss (ns : list node) : N := fold_right (fun n x => ms n + x) 0 ns.
  Lemma ms_struct fs : ms (NStruct fs) = cs + msf fs. Proof. reflexivity. Qed.
  Lemma ms_enum d fs : ms (NEnum d fs) = ce d + msf fs. Proof. reflexivity. Qed.
  Lemma msf_cons t n ks : msf ((t, n) :: ks) = ms n + msf ks. Proof. reflexivity. Qed.
  Lemma mss_cons n ks : mss (n :: ks) = ms n + mss ks. Proof. reflexivity. Qed.
  Lemma msf_one t n : msf [(t, n)] = ms n. Proof. unfold msf. cbn. lia. Qed.
  Lemma msf_app a b : msf (a ++ b) = msf a + msf b.
  Proof. induction a as [|[t n] a IH]; [reflexivity|]. cbn [app]. rewrite !msf_cons, IH. lia. Qed.
  Lemma msf_map tag ns : msf (map (fun n => (tag, n)) ns) = mss ns.
  Proof. induction ns as [|n ns IH]; [reflexivity|]. cbn [map]. rewrite msf_cons, mss_cons, IH. reflexivity. Qed.
  Lemma msf_tag tag ks : msf (with_tag tag ks) + msf (without_tag tag ks) = msf ks.
  Proof.
    unfold with_tag, without_tag. induction ks as [|[t n] ks IH]; [reflexivity|]. cbn [filter fst]. destruct (t =? tag); cbn [negb]; rewrite !msf_cons; lia.
  Qed.

  Section Env.
    Variables (e : env) (ign : bool).
    Record gb (t : ty) (m : meaning) : Prop := mkGb {
      g_occ : forall occ v x tag, m_occ m occ = Some (v, x) -> msf (x_field (doc e v t) tag) <= msf occ;
      g_elem : forall n v x, m_elem m n = Some (v, x) -> ms (x_elem (doc e v t)) <= ms n;
      g_body : unit_like t = false -> forall ks v x, m_body m ks = Some (v, x) -> msf (x_body (doc e v t)) <= msf ks
    }.
    Lemma gb_nothing t : gb t m_nothing.
    Proof. split; cbn; discriminate. Qed.

    Lemma fields_inv : forall fs ks r x, m_fields fs ks = Some (r, x) -> List.length (fst r) = List.length fs.
    Proof.
      induction fs as [|[tag m] fs IH]; intros ks r x H; cbn [m_fields] in H.
      - apply rret_inv in H. subst. reflexivity.
      - apply rbind_inv in H. destruct H as (v & y & z & H1 & H2). apply rbind_inv in H2. destruct H2 as (r1 & y1 & z1 & H2 & H3).
        apply rret_inv in H3. subst. cbn. f_equal. eapply IH; eauto.
    Qed.
    Lemma top_inv occ ks v x : m_top ign occ ks = Some (v, x) -> exists y, occ (with_tag 1 ks) = Some (v, y).
    Proof.
      unfold m_top, m_record. intros H. apply rbind_inv in H. destruct H as (vs & y & z & H1 & H2). apply rbind_inv in H1. destruct H1 as (r & y1 & z1 & H1 & H3).
      cbn [m_fields] in H1. apply rbind_inv in H1. destruct H1 as (w & y2 & z2 & H1 & H4). apply rbind_inv in H4. destruct H4 as (r1 & y3 & z3 & H4 & H5).
      apply rret_inv in H4. subst r1. apply rret_inv in H5. subst r. cbn [fst snd] in H3. apply rdeep_inv in H1. destruct H1 as (y4 & H1). cbn [m_occ] in H1.
      assert (vs = [w]) by (destruct (without_tag 1 ks); [now apply rret_inv in H3|]; destruct ign; [now apply rret_inv in H3|discriminate]). subst vs.
      apply rret_inv in H2. subst. eauto.
    Qed.
    Lemma once_inv conv occ v x : m_once conv occ = Some (v, x) -> exists t n, occ = [(t, n)] /\ conv n = Some (v, x).
    Proof. destruct occ as [|[t n] [|]]; cbn [m_once]; try discriminate. eauto. Qed.
    Lemma in_struct_inv body n v x : m_in_struct body n = Some (v, x) -> exists fs, n = NStruct fs /\ body fs = Some (v, x).
    Proof. destruct n; cbn [m_in_struct]; try discriminate. eauto. Qed.

    Lemma g_simple t conv : (forall n v x, conv n = Some (v, x) -> exists n', doc e v t = doc_single n' /\ ms n' <= ms n) -> gb t (m_simple ign conv).
    Proof.
      intros H. split; cbn [m_simple m_occ m_elem m_body].
      - intros occ v x tag E. apply once_inv in E. destruct E as (t0 & n & -> & E). destruct (H _ _ _ E) as (n' & -> & Hn). cbn [doc_single x_field]. now rewrite !msf_one.
      - intros n v x E. destruct (H _ _ _ E) as (n' & -> & Hn). exact Hn.
      - intros _ ks v x E. apply top_inv in E. destruct E as (y & E). apply once_inv in E. destruct E as (t0 & n & E1 & E). destruct (H _ _ _ E) as (n' & -> & Hn).
        cbn [doc_single x_body]. rewrite msf_one. pose proof (msf_tag 1 ks) as Ht. rewrite E1, msf_one in Ht. lia.
    Qed.
    Lemma g_coll t occf : (forall occ v x, occf occ = Some (v, x) -> exists ns, doc e v t = doc_coll ns /\ mss ns <= msf occ) -> gb t (m_coll ign occf).
    Proof.
      intros H.
      assert (Ht : forall ks v x, m_top ign occf ks = Some (v, x) -> msf (x_body (doc e v t)) <= msf ks /\ ms (x_elem (doc e v t)) = cs + msf (x_body (doc e v t))).
      { intros ks v x E. apply top_inv in E. destruct E as (y & E). destruct (H _ _ _ E) as (ns & -> & Hn).
        cbn [doc_coll x_body x_elem]. rewrite ms_struct, msf_map. pose proof (msf_tag 1 ks). lia. }
      split; cbn [m_coll m_occ m_elem m_body].
      - intros occ v x tag E. destruct (H _ _ _ E) as (ns & -> & Hn). cbn [doc_coll x_field]. now rewrite msf_map.
      - intros n v x E. apply in_struct_inv in E. destruct E as (fs & -> & E). apply Ht in E. rewrite ms_struct. lia.
      - intros _ ks v x E. now apply Ht in E.
    Qed.
    Lemma g_struct t body elem :
      (unit_like t = false -> forall ks v x, body ks = Some (v, x) -> msf (x_body (doc e v t)) <= msf ks) ->
      (forall n v x, elem n = Some (v, x) -> ms (x_elem (doc e v t)) <= ms n /\ forall tag, x_field (doc e v t) tag = [(tag, x_elem (doc e v t))]) -> gb t (m_struct body elem).
    Proof.
      intros Hb He. split; cbn [m_struct m_occ m_elem m_body]; [|intros n v x E; now apply He in E|exact Hb].
      intros occ v x tag E. apply once_inv in E. destruct E as (t0 & n & -> & E). apply He in E. destruct E as [E1 E2]. rewrite E2, !msf_one. exact E1.
    Qed.

    (** Lists, sets, maps *)
    Lemma elems_sum (t : ty) m (f : N * node -> R value) occ vs x : gb t m -> (forall k v y, f k = Some (v, y) -> exists y', m_elem m (snd k) = Some (v, y')) ->
      rmap f occ = Some (vs, x) -> mss (map (fun v => x_elem (doc e v t)) vs) <= msf occ.
    Proof.
      intros Hg Hf H. apply rmap_inv in H. induction H as [|[tg n] v occ vs (y & Hv) _ IH]; [cbn; lia|]. cbn [map]. rewrite mss_cons, msf_cons.
      apply Hf in Hv. destruct Hv as (y' & Hv). pose proof (g_elem _ _ Hg _ _ _ Hv). cbn [snd] in *. lia.
    Qed.
    Lemma place_sum (w : value -> node) v l : mss (map w (place v l)) <= ms (w v) + mss (map w l).
    Proof.
      induction l as [|a l IH]; [cbn; lia|]. cbn [place]. destruct (value_cmp v a); cbn [map]; rewrite ?mss_cons in *; lia.
    Qed.
    Lemma set_sum (w : value -> node) vs : mss (map w (fold_right place [] vs)) <= mss (map w vs).
    Proof.
      induction vs as [|v vs IH]; [cbn; lia|]. cbn [fold_right map]. rewrite mss_cons. pose proof (place_sum w v (fold_right place [] vs)). lia.
    Qed.
    Lemma put_sum (w : value * value -> node) k v l : mss (map w (put k v l)) <= ms (w (k, v)) + mss (map w l).
    Proof.
      induction l as [|[k' v'] l IH]; [cbn; lia|]. cbn [put]. destruct (value_cmp k k'); cbn [map]; rewrite ?mss_cons in *; lia.
    Qed.
    Lemma puts_sum (w : value * value -> node) kvs : forall l, mss (map w (fold_left (fun l kv => put (fst kv) (snd kv) l) kvs l)) <= mss (map w kvs) + mss (map w l).
    Proof.
      induction kvs as [|[k v] kvs IH]; intros l; [cbn [fold_left map]; unfold mss at 2; cbn [fold_right]; lia|]. cbn [fold_left map fst snd]. rewrite mss_cons. specialize (IH (put k v l)). pose proof (put_sum w k v l). lia.
    Qed.

    (** Records *)
    Lemma tuple_sum (mk : ty -> meaning) ts : Forall (fun t => gb t (mk t)) ts -> forall i ks r x, m_fields (m_number i (map mk ts)) ks = Some (r, x) ->
      msf (doc_tuple i (zipw (fun v t => doc e v t) (fst r) ts)) + msf (snd r) <= msf ks.
    Proof.
      induction 1 as [|t ts Ht _ IH]; intros i ks r x H; cbn [map m_number m_fields] in H.
      - apply rret_inv in H. subst. cbn [fst snd zipw map doc_tuple doc_fields]. change (msf []) with 0. lia.
      - apply rbind_inv in H. destruct H as (v & y & z & H1 & H2). apply rbind_inv in H2. destruct H2 as (r1 & y1 & z1 & H2 & H3).
        apply rret_inv in H3. subst. cbn [fst snd zipw doc_tuple]. apply rdeep_inv in H1. destruct H1 as (y2 & H1).
        pose proof (g_occ _ _ Ht _ _ _ i H1). apply IH in H2. rewrite msf_app. pose proof (msf_tag i ks). lia.
    Qed.
    Lemma tuple_len (mk : ty -> meaning) ts i : List.length (m_number i (map mk ts)) = List.length ts.
    Proof. revert i. induction ts as [|t ts IH]; intros i; cbn; [reflexivity|]. now rewrite IH. Qed.
    Lemma none_inv fs ks vs x : m_record ign fs None ks = Some (vs, x) -> exists r y, m_fields fs ks = Some (r, y) /\ vs = fst r.
    Proof.
      unfold m_record. intros H. apply rbind_inv in H. destruct H as (r & y & z & H1 & H2). exists r, y. split; [exact H1|].
      destruct (snd r); [now apply rret_inv in H2|]. destruct ign; [now apply rret_inv in H2|discriminate].
    Qed.
    Lemma tuple_body_inv (mk : ty -> meaning) ts ks v x : Forall (fun t => gb t (mk t)) ts -> m_tuple_body ign (map mk ts) ks = Some (v, x) ->
      exists vs, v = VRec vs /\ List.length vs = List.length ts /\ msf (doc_tuple 1 (zipw (fun v t => doc e v t) vs ts)) <= msf ks.
    Proof.
      intros Hg H. apply rbind_inv in H. destruct H as (vs & y & z & H1 & H2). apply rret_inv in H2. subst. exists vs. split; [reflexivity|].
      apply none_inv in H1. destruct H1 as (r & y1 & H1 & ->). split; [|apply (tuple_sum mk ts Hg) in H1; lia].
      now rewrite (fields_inv _ _ _ _ H1), tuple_len.
    Qed.
    Lemma decls_sum (mk : ty -> meaning) fs : Forall (fun f => gb (fd_ty f) (mk (fd_ty f))) fs -> forall ks r x, m_fields (m_decls mk fs) ks = Some (r, x) ->
      msf (doc_fields fs (zipw (fun v t => doc e v t) (fst r) (map fd_ty fs))) + msf (snd r) <= msf ks.
    Proof.
      induction 1 as [|f fs Hf _ IH]; intros ks r x H; cbn [m_decls map m_fields] in H.
      - apply rret_inv in H. subst. cbn [fst snd zipw map doc_tuple doc_fields]. change (msf []) with 0. lia.
      - apply rbind_inv in H. destruct H as (v & y & z & H1 & H2). apply rbind_inv in H2. destruct H2 as (r1 & y1 & z1 & H2 & H3).
        apply rret_inv in H3. subst. cbn [map fst snd zipw doc_fields]. apply rdeep_inv in H1. destruct H1 as (y2 & H1).
        pose proof (g_occ _ _ Hf _ _ _ (fd_tag f) H1). apply IH in H2. rewrite msf_app. pose proof (msf_tag (fd_tag f) ks). lia.
    Qed.
    Lemma construct_inv b vs v x : m_construct b vs = Some (v, x) -> v = VRec vs.
    Proof. unfold m_construct. destruct (vb_check b vs); [|discriminate]. intros H. now apply rret_inv in H. Qed.
    Lemma zipw_app {A B C} (f : A -> B -> C) : forall l m l' m', List.length l = List.length m -> zipw f (l ++ l') (m ++ m') = zipw f l m ++ zipw f l' m'.
    Proof. induction l as [|a l IH]; intros [|b m] l' m' H; try discriminate; [reflexivity|]. cbn. f_equal. apply IH. now injection H. Qed.
    Lemma zipw_len {A B C} (f : A -> B -> C) : forall l m, List.length l = List.length m -> List.length (zipw f l m) = List.length m.
    Proof. induction l as [|a l IH]; intros [|b m] H; try discriminate; [reflexivity|]. cbn. f_equal. apply IH. now injection H. Qed.
    Lemma doc_fields_app fs : forall ds ds', List.length ds = List.length fs -> doc_fields fs (ds ++ ds') = doc_fields fs ds.
    Proof. induction fs as [|f fs IH]; intros [|d ds] ds' H; try discriminate; [reflexivity|]. cbn. f_equal. apply IH. now injection H. Qed.
    Lemma record_doc b vs ws : List.length vs = List.length (vb_fields b) ->
      doc_record b (zipw (fun v t => doc e v t) (vs ++ ws) (body_types b)) =
      doc_fields (vb_fields b) (zipw (fun v t => doc e v t) vs (map fd_ty (vb_fields b))) ++ flat_map x_body (zipw (fun v t => doc e v t) ws (sp_types (vb_special b))).
    Proof.
      intros H. unfold doc_record, body_types. rewrite zipw_app by now rewrite map_length.
      assert (Hl : List.length (zipw (fun v t => doc e v t) vs (map fd_ty (vb_fields b))) = List.length (vb_fields b)) by (rewrite zipw_len; now rewrite map_length).
      rewrite doc_fields_app by exact Hl. rewrite <- Hl, skipn_app, skipn_all, Nat.sub_diag. reflexivity.
    Qed.
    Lemma unknown_body t : unknown_like t = true -> forall v tag, msf (x_body (doc e v t)) = msf (x_field (doc e v t) tag).
    Proof.
      induction t; cbn [unknown_like]; try discriminate; intros H v tag.
      - specialize (IHt H v tag). destruct v; exact IHt.
      - specialize (IHt H v tag). destruct v; exact IHt.
      - destruct v; reflexivity.
    Qed.
    Definition good_types (mk : ty -> meaning) (b : vbody) : Prop := Forall (fun t => gb t (mk t)) (body_types b).
    Definition no_unit (b : vbody) : Prop := forall nm t, vb_special b = SpDeleg nm t -> unit_like t = false.
    Lemma vbody_sum mk b ks v x : vbody_wf b -> no_unit b -> good_types mk b -> m_vbody ign mk b ks = Some (v, x) ->
      exists vs, v = VRec vs /\ msf (doc_record b (zipw (fun v t => doc e v t) vs (body_types b))) <= msf ks /\
        (forall nm t, vb_special b = SpDeleg nm t -> exists dv, vs = [dv] /\ msf (x_body (doc e dv t)) <= msf ks).
    Proof.
      intros (_ & _ & Hsp) Hu Hg H. unfold good_types, body_types in Hg. apply Forall_app in Hg. destruct Hg as [Hg1 Hg2]. rewrite Forall_map in Hg1. unfold m_vbody in H.
      destruct (vb_special b) as [|nm t|nm t] eqn:Es.
      - apply rbind_inv in H. destruct H as (vs & y & z & H1 & H2). apply construct_inv in H2. subst. exists vs. split; [reflexivity|]. split; [|discriminate].
        apply none_inv in H1. destruct H1 as (r & y1 & H1 & ->). pose proof (fields_inv _ _ _ _ H1) as Hl. unfold m_decls in Hl. rewrite map_length in Hl.
        rewrite <- (app_nil_r (fst r)), record_doc, Es by exact Hl. cbn [sp_types zipw flat_map]. rewrite app_nil_r. apply (decls_sum mk _ Hg1) in H1. lia.
      - apply rbind_inv in H. destruct H as (dv & y & z & H1 & H2). apply rbind_inv in H2. destruct H2 as (r & y1 & z1 & H2 & H3). apply construct_inv in H3. subst v.
        apply rdeep_inv in H1. destruct H1 as (y2 & H1). pose proof (fields_inv _ _ _ _ H2) as Hl. unfold m_decls in Hl. rewrite map_length in Hl.
        rewrite Hsp in Hl. destruct r as [[|a l] rest]; [|discriminate]. cbn [fst app]. inversion Hg2 as [|? ? Hgt _]; subst.
        pose proof (g_body _ _ Hgt (Hu _ _ Es) _ _ _ H1) as Hb. exists [dv]. split; [reflexivity|]. split.
        + rewrite <- (app_nil_l [dv]), record_doc, Es, Hsp by (rewrite Hsp; reflexivity). cbn [sp_types zipw flat_map app]. rewrite app_nil_r. exact Hb.
        + intros nm' t' E. injection E as _ <-. exists dv. split; [reflexivity|exact Hb].
      - apply rbind_inv in H. destruct H as (vs & y & z & H1 & H2). apply construct_inv in H2. subst. exists vs. split; [reflexivity|]. split; [|discriminate].
        unfold m_record in H1. apply rbind_inv in H1. destruct H1 as (r & y1 & z1 & H1 & H2). apply rbind_inv in H2. destruct H2 as (w & y2 & z2 & H2 & H3).
        apply rret_inv in H3. subst vs. apply rdeep_inv in H2. destruct H2 as (y3 & H2). pose proof (fields_inv _ _ _ _ H1) as Hl. unfold m_decls in Hl. rewrite map_length in Hl.
        rewrite record_doc, Es by exact Hl. cbn [sp_types zipw flat_map]. rewrite app_nil_r, msf_app, (unknown_body t Hsp w 1). inversion Hg2 as [|? ? Hgt _]; subst.
        pose proof (g_occ _ _ Hgt _ _ _ 1 H2). apply (decls_sum mk _ Hg1) in H1. lia.
    Qed.

    (** ** All types *)
    Lemma doc_box t v : doc e v (TBox t) = doc e v t. Proof. destruct v; reflexivity. Qed.
    Lemma doc_copied t v : doc e v (TCopied t) = doc e v t. Proof. destruct v; reflexivity. Qed.
    Lemma gb_same t t' m : (forall v, doc e v t' = doc e v t) -> unit_like t' = unit_like t -> gb t m -> gb t' m.
    Proof.
      intros Hd Hu [H1 H2 H3]. split.
      - intros occ v x tag E. rewrite Hd. eauto.
      - intros n v x E. rewrite Hd. eauto.
      - intros Hl ks v x E. rewrite Hd. rewrite Hu in Hl. eauto.
    Qed.
    Lemma g_list t t' m (fin : list value -> list value) : (forall vs, doc e (VList (fin vs)) t' = doc_coll (map (fun v => x_elem (doc e v t)) (fin vs))) ->
      (forall vs, mss (map (fun v => x_elem (doc e v t)) (fin vs)) <= mss (map (fun v => x_elem (doc e v t)) vs)) ->
      gb t m -> gb t' (m_list ign (fun vs => VList (fin vs)) m).
    Proof.
      intros Hd Hs Hg. apply g_coll. intros occ v x E. apply rbind_inv in E. destruct E as (vs & y & z & E1 & E2). apply rret_inv in E2. subst v.
      eexists. split; [apply Hd|]. specialize (Hs vs).
      apply (elems_sum t m _ _ _ _ Hg) in E1; [lia|]. intros k v y' Hv. now apply rcost_inv in Hv.
    Qed.
    Lemma unk_same (c : N * node -> cost) (g : R (N * node) -> R (N * node)) l r x : (forall m a y, g m = Some (a, y) -> exists y', m = Some (a, y')) ->
      rmap (fun f => g (Some (f, c f))) l = Some (r, x) -> r = l.
    Proof.
      intros Hg H. apply rmap_inv in H. induction H as [|a b l r (y & E) _ IH]; [reflexivity|]. apply Hg in E. destruct E as (y' & E). injection E as <- _. now rewrite IH.
    Qed.
    Lemma g_unknown own : gb TUnknown (m_unknown own).
    Proof.
      assert (Hb : forall ks v x, m_body (m_unknown own) ks = Some (v, x) -> v = VUnk ks).
      { intros ks v x H. cbn [m_unknown m_body] in H. apply rbind_inv in H. destruct H as (r & y & z & H1 & H2). apply rret_inv in H2. subst v. f_equal.
        refine (unk_same (fun f => cadd cone (unk_cost own (snd f))) rdeep ks r y _ H1). intros m a y' E. now apply rdeep_inv in E. }
      split.
      - intros occ v x tag H. cbn [m_unknown m_occ] in H. apply rbind_inv in H. destruct H as (r & y & z & H1 & H2). apply rret_inv in H2. subst v.
        assert (r = occ); [|subst; apply N.le_refl].
        refine (unk_same (fun f => cadd cone (unk_cost own (snd f))) (fun m => m) occ r y _ H1). eauto.
      - intros n v x H. cbn [m_unknown m_elem] in H. apply in_struct_inv in H. destruct H as (fs & -> & H). apply Hb in H. subst v. apply N.le_refl.
      - intros _ ks v x H. apply Hb in H. subst v. apply N.le_refl.
    Qed.
    Lemma g_arrb n t : is_u8 t = true -> n <> 0 -> gb (TArray n t) (mkMn (m_arrb_occ n) (m_arrb n) (m_top ign (m_arrb_occ n))).
    Proof.
      intros Hu Hn.
      assert (He : forall k v x, m_arrb n k = Some (v, x) -> exists b, k = NBlob b /\ v = VArrB b).
      { intros [| | |]; cbn [m_arrb]; try discriminate. intros v x. destruct (_ =? _); [|discriminate]. intros E. apply rret_inv in E. eauto. }
      assert (Ho : forall occ v x, m_arrb_occ n occ = Some (v, x) -> exists t0 b, occ = [(t0, NBlob b)] /\ v = VArrB b).
      { intros [|f l] v x; cbn [m_arrb_occ]; [destruct (N.eqb_spec n 0); [contradiction|discriminate]|]. intros E. apply once_inv in E. destruct E as (t0 & k & -> & E).
        apply He in E. destruct E as (b & -> & ->). eauto. }
      split; cbn [m_occ m_elem m_body].
      - intros occ v x tag E. apply Ho in E. destruct E as (t0 & b & -> & ->). cbn [doc doc_single x_field]. rewrite !msf_one. apply N.le_refl.
      - intros k v x E. apply He in E. destruct E as (b & -> & ->). apply N.le_refl.
      - intros _ ks v x E. apply top_inv in E. destruct E as (y & E). apply Ho in E. destruct E as (t0 & b & E & ->). cbn [doc doc_single x_body].
        pose proof (msf_tag 1 ks) as Ht. rewrite E, msf_one in Ht. rewrite msf_one. lia.
    Qed.
    Lemma unit_sum v x fs : m_tuple_body ign [] fs = Some (v, x) -> v = VRec [].
    Proof. intros H. apply (tuple_body_inv (fun _ => m_nothing) [] fs v x (Forall_nil _)) in H. destruct H as (vs & -> & Hl & _). destruct vs; [reflexivity|discriminate]. Qed.
    Lemma g_tuple (mk : ty -> meaning) ts : Forall (fun t => gb t (mk t)) ts -> gb (TTuple ts) (m_tuple ign (map mk ts)).
    Proof.
      intros Hg. unfold m_tuple. destruct ts as [|t ts].
      - apply g_struct; [discriminate|]. intros n v x E. apply in_struct_inv in E. destruct E as (fs & -> & E). apply unit_sum in E. subst v.
        split; [cbn [doc doc_single x_elem]; rewrite !ms_struct; change (msf []) with 0; lia|reflexivity].
      - assert (Hd : forall ks v x, m_tuple_body ign (map mk (t :: ts)) ks = Some (v, x) -> exists fs, doc e v (TTuple (t :: ts)) = doc_struct fs /\ msf fs <= msf ks).
        { intros ks v x E. apply (tuple_body_inv mk (t :: ts) ks v x Hg) in E. destruct E as (vs & -> & Hl & Hs). destruct vs as [|v0 vs]; [discriminate|].
          eexists. split; [reflexivity|exact Hs]. }
        apply g_struct.
        + intros _ ks v x E. apply Hd in E. destruct E as (fs & -> & E). exact E.
        + intros n v x E. apply in_struct_inv in E. destruct E as (ks & -> & E). apply Hd in E. destruct E as (fs & -> & E).
          split; [cbn [doc_struct x_elem]; rewrite !ms_struct; lia|reflexivity].
    Qed.
    Lemma entry_inv tk tv mk mv n k v x : gb tk mk -> gb tv mv -> m_entry ign mk mv n = Some ((k, v), x) ->
      ms (NStruct (x_field (doc e k tk) 1 ++ x_field (doc e v tv) 2)) <= ms n.
    Proof.
      intros Hk Hv H. unfold m_entry in H. apply rbind_inv in H. destruct H as (kv & y & z & H1 & H2). apply in_struct_inv in H1. destruct H1 as (fs & -> & H1).
      unfold m_tuple_body in H1. apply rbind_inv in H1. destruct H1 as (vs & y1 & z1 & H1 & H3). apply rret_inv in H3. subst kv.
      apply none_inv in H1. destruct H1 as (r & y2 & H1 & ->). cbn [m_number] in H1. change (1 + 1) with 2 in H1.
      cbn [m_fields] in H1. apply rbind_inv in H1. destruct H1 as (a & y3 & z3 & H1 & H4). apply rbind_inv in H4. destruct H4 as (r1 & y4 & z4 & H4 & H5).
      apply rret_inv in H5. subst r. apply rbind_inv in H4. destruct H4 as (b & y5 & z5 & H4 & H6). apply rbind_inv in H6. destruct H6 as (r2 & y6 & z6 & H6 & H7).
      apply rret_inv in H6. subst r2. apply rret_inv in H7. subst r1. cbn [fst snd] in H2. apply rret_inv in H2. injection H2 as <- <-.
      apply rdeep_inv in H1. destruct H1 as (w1 & H1). apply rdeep_inv in H4. destruct H4 as (w2 & H4).
      pose proof (g_occ _ _ Hk _ _ _ 1 H1). pose proof (g_occ _ _ Hv _ _ _ 2 H4). rewrite !ms_struct, msf_app.
      pose proof (msf_tag 1 fs). pose proof (msf_tag 2 (without_tag 1 fs)). lia.
    Qed.
    Lemma g_map tk tv mk mv : gb tk mk -> gb tv mv -> gb (TMap tk tv) (m_map ign mk mv).
    Proof.
      intros Hk Hv. apply g_coll. intros occ v x E. apply rbind_inv in E. destruct E as (kvs & y & z & E1 & E2). apply rret_inv in E2. subst v.
      eexists. split; [reflexivity|].
      etransitivity; [apply puts_sum|]. cbn [map]. change (mss []) with 0. rewrite N.add_0_r.
      apply rmap_inv in E1. induction E1 as [|[tg n] [k v] occ kvs (y' & Hkv) _ IH]; [apply N.le_refl|]. cbn [map fst snd]. rewrite mss_cons, msf_cons.
      apply rcost_inv in Hkv. destruct Hkv as (y2 & Hkv). pose proof (entry_inv _ _ _ _ _ _ _ _ Hk Hv Hkv) as H. cbn [snd] in H. exact (N.add_le_mono _ _ _ _ H IH).
    Qed.
    Lemma g_str t own : t = TString \/ t = TStrRef \/ t = TCowStr -> gb t (m_simple ign (m_str own)).
    Proof.
      intros Ht. apply g_simple. intros [| | |] v y; cbn [m_str]; try discriminate. destruct (utf8_ok _); [|discriminate]. intros E. injection E as <- _.
      eexists. split; [destruct Ht as [->|[->| ->]]; reflexivity|apply N.le_refl].
    Qed.
    Lemma g_bytes t own : t = TBytesRef \/ t = TCowBytes -> gb t (m_simple ign (m_bytes own)).
    Proof.
      intros Ht. apply g_simple. intros [| | |] v y; cbn [m_bytes]; try discriminate. intros E. injection E as <- _.
      eexists. split; [destruct Ht as [->| ->]; reflexivity|apply N.le_refl].
    Qed.
    Lemma g_of item_m : (forall zc i, ~ empty_bytes e (TItem i) -> gb (TItem i) (item_m zc i)) ->
      forall t zc, ~ empty_bytes e t -> gb t (meaning_of ign item_m zc t).
    Proof.
      intros Hi. apply (ty_ind' (fun t => forall zc, ~ empty_bytes e t -> gb t (meaning_of ign item_m zc t))).
      - intros t. destruct t; try exact Logic.I; intros zc Hn; cbn [meaning_of].
        + apply g_simple. intros [x| | |] v y; cbn [m_uint]; try discriminate. destruct (_ <=? _); [|discriminate]. intros E. apply rret_inv in E. subst v.
          exists (NInt x). split; [reflexivity|apply N.le_refl].
        + apply g_simple. intros [x| | |] v y; cbn [m_sint]; try discriminate. cbv zeta. destruct (_ && _); [|discriminate]. intros E. apply rret_inv in E. subst v.
          exists (NInt (zz (unzigzag x))). split; [reflexivity|apply Hci].
        + apply g_simple. intros [x| | |] v y; cbn [m_bool]; try discriminate. destruct (N.eqb_spec x 0); [|destruct (N.eqb_spec x 1); [|discriminate]];
            intros E; apply rret_inv in E; subst v x; (eexists; split; [reflexivity|apply N.le_refl]).
        + apply g_simple. intros [x| | |] v y; cbn [m_char]; try discriminate. destruct (_ && _); [|discriminate]. intros E. apply rret_inv in E. subst v.
          exists (NInt x). split; [reflexivity|apply N.le_refl].
        + apply g_simple. intros [x| | |] v y; cbn [m_phantom]; try discriminate. destruct (N.eqb_spec x 0); [|discriminate]. intros E. apply rret_inv in E. subst v x.
          eexists. split; [reflexivity|apply N.le_refl].
        + apply g_str. now left.
        + destruct zc; [apply g_str; now right; left|apply gb_nothing].
        + destruct zc; [apply g_bytes; now left|apply gb_nothing].
        + apply g_str. now right; right.
        + apply g_bytes. now right.
        + apply g_unknown.
        + apply g_simple. intros n v y E. injection E as <- _. exists n. split; [reflexivity|apply N.le_refl].
        + now apply Hi.
      - intros t IH. split; [|split; [|split; [|split; [|split]]]]; intros zc Hn; cbn [meaning_of].
        + destruct (is_u8 t) eqn:Eu; [|apply (g_list t _ _ (fun vs => vs)); [reflexivity|intros; apply N.le_refl|apply IH; intros H; apply Hn; now constructor]].
          apply g_simple. intros [| | |] v y; cbn [m_bytes]; try discriminate. intros E. injection E as <- _. eexists. split; [reflexivity|apply N.le_refl].
        + apply (g_list t _ _ (fun vs => vs)); [reflexivity|intros; apply N.le_refl|apply IH; intros H; apply Hn; now constructor].
        + apply (g_list t _ _ (fold_right place [])); [reflexivity|intros; apply set_sum|apply IH; intros H; apply Hn; now constructor].
        + assert (Hg : gb t (meaning_of ign item_m zc t)) by (apply IH; intros H; apply Hn; now constructor).
          apply g_coll. intros [|[t0 n] [|]] v x E; try discriminate.
          * apply rret_inv in E. subst v. exists []. split; [reflexivity|apply N.le_refl].
          * apply rbind_inv in E. destruct E as (w & y & z & E1 & E2). apply rret_inv in E2. subst v. eexists. split; [reflexivity|].
            rewrite msf_one. unfold mss. cbn [fold_right]. rewrite N.add_0_r. exact (g_elem _ _ Hg _ _ _ E1).
        + apply (gb_same t); [apply doc_box|reflexivity|]. apply IH. intros H. apply Hn. now constructor.
        + apply (gb_same t); [apply doc_copied|reflexivity|]. apply IH. intros H. apply Hn. now constructor.
      - intros n t IH zc Hn. cbn [meaning_of]. destruct (is_u8 t) eqn:Eu.
        + apply g_arrb; [exact Eu|]. intros ->. apply Hn. now constructor.
        + assert (Hg : gb t (meaning_of ign item_m zc t)) by (apply IH; intros H; apply Hn; now apply EbArray).
          apply g_coll. intros occ v x E. destruct (_ =? _); [|discriminate]. apply rbind_inv in E. destruct E as (vs & y & z & E1 & E2). apply rret_inv in E2. subst v.
          eexists. split; [reflexivity|]. apply (elems_sum t _ _ _ _ _ Hg) in E1; [exact E1|]. eauto.
      - intros k v IHk IHv zc Hn. cbn [meaning_of]. apply g_map; [apply IHk; intros H; apply Hn; now apply EbKey|apply IHv; intros H; apply Hn; now apply EbVal].
      - intros ts IH zc Hn. cbn [meaning_of]. apply g_tuple. apply Forall_forall. intros t Hin. rewrite Forall_forall in IH. apply IH; [exact Hin|].
        intros H. apply Hn. now apply (EbTuple _ t).
    Qed.

    Hypothesis Hwf : env_wf e.
    Hypothesis Hun : forall i b nm t', match e i with IStruct b0 => b = b0 | IEnum vars catch => In b (map snd vars) \/ catch = Some b end ->
      vb_special b = SpDeleg nm t' -> unit_like t' = false.
    Lemma variant_nth d vars ix b : SpecRead.variant d vars = Some (ix, b) -> nth_error vars ix = Some (d, b).
    Proof.
      revert ix. induction vars as [|[d' b'] vars IH]; intros ix H; [discriminate|]. cbn [SpecRead.variant] in H. destruct (N.eqb_spec d d').
      - injection H as <- <-. subst. reflexivity.
      - destruct (SpecRead.variant d vars) as [[j b1]|]; [|discriminate]. injection H as <- <-. cbn. now apply IH.
    Qed.
    Lemma nth_variant (vars : list (N * vbody)) ix d b : nth_error vars ix = Some (d, b) -> In (d, b) vars.
    Proof. apply nth_error_In. Qed.
    Lemma g_item fuel : forall zc i, ~ empty_bytes e (TItem i) -> gb (TItem i) (item_meaning ign e fuel zc i).
    Proof.
      induction fuel as [|f IH]; intros zc i Hn; cbn [item_meaning]; [apply gb_nothing|].
      pose proof (fun t => g_of _ IH t zc) as Hmk. set (mk := meaning_of ign (item_meaning ign e f) zc) in *.
      assert (Hin : forall t, In t (item_types (e i)) -> gb t (mk t)).
      { intros t Ht. apply Hmk. intros H. apply Hn. exact (EbItem e i t Ht H). }
      pose proof (Hwf i) as [Hw _]. pose proof (fun b nm t' => Hun i b nm t') as Hu.
      destruct (e i) as [b|vars catch] eqn:Ei; cbn [item_types item_wf] in *.
      - assert (Hg : good_types mk b) by (apply Forall_forall; exact Hin).
        assert (Hnu : no_unit b) by (intros nm t; apply Hu; reflexivity).
        assert (Hbody : forall ks v x, m_vbody ign mk b ks = Some (v, x) -> exists vs, v = VRec vs /\
          ((exists nm t dv, vb_special b = SpDeleg nm t /\ vs = [dv] /\ msf (x_body (doc e dv t)) <= msf ks) \/
           ((forall nm t, vb_special b <> SpDeleg nm t) /\ exists fs, doc e v (TItem i) = doc_struct fs /\ msf fs <= msf ks))).
        { intros ks v x E. destruct (vbody_sum mk b ks v x Hw Hnu Hg E) as (vs & -> & Hs & Hd). exists vs. split; [reflexivity|].
          destruct (vb_special b) as [|nm t|nm t] eqn:Es.
          - right. split; [discriminate|]. eexists. split; [cbn [doc]; rewrite Ei, Es; reflexivity|exact Hs].
          - left. destruct (Hd nm t eq_refl) as (dv & -> & Hb). exists nm, t, dv. auto.
          - right. split; [discriminate|]. eexists. split; [cbn [doc]; rewrite Ei, Es; reflexivity|exact Hs]. }
        apply g_struct.
        + intros _ ks v x E. destruct (Hbody _ _ _ E) as (vs & -> & [(nm & t & dv & Es & -> & Hb)|(Hnd & fs & Hd & Hs)]).
          * cbn [doc]. rewrite Ei, Es. unfold body_types. rewrite Es. destruct Hw as (_ & _ & Hsp). rewrite Es in Hsp. rewrite Hsp. exact Hb.
          * rewrite Hd. exact Hs.
        + intros n v x E. unfold m_struct_elem in E. destruct (vb_special b) as [|nm t|nm t] eqn:Es.
          * apply in_struct_inv in E. destruct E as (ks & -> & E). destruct (Hbody _ _ _ E) as (vs & -> & [(nm & t & dv & Es' & _)|(_ & fs & Hd & Hs)]); [discriminate|].
            rewrite Hd. split; [cbn [doc_struct x_elem]; rewrite !ms_struct; lia|reflexivity].
          * apply rbind_inv in E. destruct E as (dv & y & z & E1 & E2). apply construct_inv in E2. subst v. apply rdeep_inv in E1. destruct E1 as (y1 & E1).
            destruct Hw as (_ & _ & Hsp). rewrite Es in Hsp. cbn [doc]. rewrite Ei, Es. unfold body_types. rewrite Es, Hsp. cbn [map sp_types app zipw x_elem x_field].
            assert (Hgt : gb t (mk t)) by (apply Hin; unfold body_types; rewrite Es, Hsp; now left).
            split; [exact (g_elem _ _ Hgt _ _ _ E1)|reflexivity].
          * apply in_struct_inv in E. destruct E as (ks & -> & E). destruct (Hbody _ _ _ E) as (vs & -> & [(nm' & t' & dv & Es' & _)|(_ & fs & Hd & Hs)]); [discriminate|].
            rewrite Hd. split; [cbn [doc_struct x_elem]; rewrite !ms_struct; lia|reflexivity].
      - apply g_simple. intros n v x E. destruct n as [| | |d ks]; cbn [m_enum_elem] in E; try discriminate.
        destruct Hw as (_ & Hvs & Hc). destruct (SpecRead.variant d vars) as [[ix b]|] eqn:Ev.
        + apply rbind_inv in E. destruct E as (w & y & z & E1 & E2). apply rret_inv in E2. subst v. apply variant_nth in Ev. pose proof (nth_variant _ _ _ _ Ev) as Hi.
          rewrite Forall_forall in Hvs. destruct (Hvs _ Hi) as [_ Hwb]. cbn [snd] in Hwb.
          assert (Hg : good_types mk b). { apply Forall_forall. intros t Ht. apply Hin. apply in_or_app. left. apply in_flat_map. exists (d, b). auto. }
          assert (Hnu : no_unit b) by (intros nm t; apply Hu; left; apply in_map_iff; exists (d, b); auto).
          destruct (vbody_sum mk b ks w y Hwb Hnu Hg E1) as (vs & -> & Hs & _).
          exists (NEnum d (doc_record b (zipw (fun v t => doc e v t) vs (body_types b)))). split; [cbn [doc]; rewrite Ei, Ev; destruct catch; reflexivity|]. rewrite !ms_enum. lia.
        + destruct catch as [b|]; [|discriminate]. apply rbind_inv in E. destruct E as (w & y & z & E1 & E2). apply rret_inv in E2. subst v.
          assert (Hg : good_types mk b). { apply Forall_forall. intros t Ht. apply Hin. apply in_or_app. right. exact Ht. }
          assert (Hnu : no_unit b) by (intros nm t; apply Hu; right; reflexivity).
          destruct (vbody_sum mk b ks w y Hc Hnu Hg E1) as (vs & -> & Hs & _).
          eexists. split; [cbn [doc]; rewrite Ei; reflexivity|]. rewrite !ms_enum. lia.
    Qed.
  End Env.
  Theorem not_larger e ign zc t ks v x : env_wf e -> no_unit_body e t -> ~ empty_bytes e t -> denotes e ign zc t ks v x ->
    msf (x_body (doc e v t)) <= msf ks.
  Proof.
    intros Hwf [Hu Hun] Hn (fuel & H). unfold means in H. refine (g_body e t _ (g_of e ign _ (g_item e ign Hwf Hun fuel) t zc Hn) Hu ks v x H).
  Qed.
End Measure.
