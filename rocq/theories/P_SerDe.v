(** * P_SerDe: serialising and deserialising *)

From Verif Require Import SpecListing Base Wire Dev Stream SpecWire SpecFormat SpecStream SpecWrite Types Ser SpecDe SpecDoc SpecSerDe
  P_Base P_Wire P_Write P_Stream P_Canon P_Types P_Misc P_Prog De P_El Prog P_Wp P_Dict P_DictAll P_DeStream P_DeExt Tree P_Tree P_TreeRun
  P_RT P_Ser P_DocOk P_Sched P_Unamb.
Strategy 1000 [s_decode_u64 decode_u64 decode_loop write_all read_exact encode_u64 enc_loop encode_fixed_u64 mloop miter].

Lemma env_wf_ok e : env_wf e -> env_ok e.
Proof.
  intros H i b Ei nm t Esp. destruct (H i) as [Hi _]. rewrite Ei in Hi. destruct Hi as (_ & _ & Hi). now rewrite Esp in Hi.
Qed.

(** ** The bytes *)
Lemma payload_small e es : In e es -> size_bound es <= U64_MAX -> lenN (payload e) < 2 ^ 64.
Proof.
  induction es as [|x es IH]; intros Hin Hs; [destruct Hin|]. rewrite size_bound_cons in Hs.
  change (2 ^ 64) with 18446744073709551616. unfold U64_MAX in *. destruct Hin as [-> |Hin]; [lia|].
  change (2 ^ 64) with 18446744073709551616 in IH. apply IH; [exact Hin|lia].
Qed.
Lemma canons_enc es : Forall delem_ok es -> size_bound es <= U64_MAX -> elems_enc es (canons es).
Proof.
  intros H Hs. induction H as [|e es He Hes IH]; [constructor|].
  rewrite canons_cons. constructor.
  - exists (canon_hdr (hdr_of e)). split; [|split; [|reflexivity]].
    + apply canon_hdr_enc, delem_hdr_ok; auto. apply (payload_small e (e :: es)); [now left|exact Hs].
    + destruct e as [t []| | | |]; cbn in *; try constructor; tauto.
  - apply IH. rewrite size_bound_cons in Hs. lia.
Qed.

Lemma doc_el_ok ks : nodes_ok ks -> Forall delem_ok (document ks).
Proof.
  intros H. apply Forall_app. split; [|repeat constructor]. eapply Forall_impl; [|apply flat_el_ok, H]. intros a [_ Ha]. exact Ha.
Qed.
Lemma elems_enc_app a : forall b x, elems_enc (a ++ b) x -> exists x1 x2, elems_enc a x1 /\ elems_enc b x2 /\ x = x1 ++ x2.
Proof.
  induction a as [|e a IH]; intros b x H; [exists [], x; repeat split; auto; constructor|].
  cbn in H. inversion H as [|? ? y1 y2 He Hr]; subst. destruct (IH _ _ Hr) as (x1 & x2 & A & B & ->).
  exists (y1 ++ x1), x2. rewrite app_assoc. repeat split; auto. now constructor.
Qed.
Lemma canons_doc ks : nodes_ok ks -> size_bound (document ks) <= U64_MAX -> encodes_doc ks (canons (document ks)).
Proof.
  intros Hn Hs. pose proof (canons_enc _ (doc_el_ok ks Hn) Hs) as H. unfold document in *.
  apply elems_enc_app in H. destruct H as (x1 & x2 & H1 & H2 & E). rewrite E.
  exists x1. split.
  - exists (flat ks). split; [exact H1|]. clear - Hn. pose proof (flat_el_ok ks Hn) as H.
    induction H as [|e es [He _] Hes IH]; [reflexivity|]. cbn. destruct e; cbn; try (now rewrite IH); now elim He.
  - inversion H2 as [|? ? y1 y2 He Hr]; subst. inversion Hr; subst. destruct He as (h & Hh & _ & ->). inversion Hh; subst. reflexivity.
Qed.

(** ** Writing *)
Section Write.
  Variable e : env.
  Hypothesis Hwf : env_wf e.

  Definition body_of (v : value) (t : ty) := document (x_body (doc e v t)).

  Lemma exec_ok ws es s : wrels ws es -> winv s -> settled_w s -> Forall delem_ok es -> s_pos s + size_bound es <= U64_MAX ->
    exists s', exec ws s = (ROk tt, s') /\ settled_w s' /\ winv s' /\ s_dev s' = s_dev (wr (canons es) s) /\ s_pos s' = s_pos s + lenN (canons es).
  Proof.
    intros Hr Hw Hs Hok Hp. destruct (write_elems_ok es s Hw Hs Hok Hp) as (s' & H & H1 & H2 & H3 & H4).
    exists s'. split; [|auto]. rewrite (wrels_exec _ _ Hr). now rewrite (mbind_ok _ _ _ _ _ H).
  Qed.
  Lemma to_stream_ok {ordered} v t s : typed_by ordered e v t -> shape_wf t -> winv s -> settled_w s -> s_pos s + size_bound (body_of v t) <= U64_MAX ->
    exists s', to_stream e t v s = (ROk tt, s') /\ settled_w s' /\ winv s' /\ s_dev s' = s_dev (wr (canons (body_of v t)) s) /\
      s_pos s' = s_pos s + lenN (canons (body_of v t)) /\ s_commit s' = None.
  Proof.
    intros Hty Hsh Hw Hs Hp. destruct (ser_doc e Hwf v t Hty Hsh) as (Hb & _ & _).
    destruct (doc_ok e Hwf v t Hty Hsh) as (Hok & _ & _).
    destruct (exec_ok _ _ s Hb Hw Hs (doc_el_ok _ Hok) Hp) as (s1 & H & H1 & H2 & H3 & H4).
    exists (set_commit None s1). unfold to_stream. rewrite (mbind_ok _ _ _ _ _ H), (commit_settled _ H1).
    split; [reflexivity|]. split; [now left|]. auto.
  Qed.
End Write.

(** ** Reading *)
Lemma read_tree_listed {ordered} cf e zc v' v t : env_wf e -> typed_by ordered e v' t -> lists e v' v t -> has_type e v t -> shape_wf t -> deserialisable e zc t ->
  cf_ignore cf = true \/ no_unit_body e t -> admits cf e zc v' t ->
  read_tree cf e zc t (x_body (doc e v' t)) = (ROk v, mkC 0 (coll_count v') (copied e v' zc t) []).
Proof.
  intros Hwf Hty' Hli Hty Hsh Hd Hu (H1 & H2 & H3).
  assert (Hnu : cf_ignore cf = true \/ forall i b nm t', match e i with
                    | IStruct b0 => b = b0
                    | IEnum vars catch => In b (map snd vars) \/ catch = Some b
                    end -> vb_special b = SpDeleg nm t' -> unit_like t' = false).
  { destruct Hu as [Hu|Hu]; [now left|right; apply Hu]. }
  pose proof (rt_all cf e Hwf Hnu v' t Hty' v Hli Hty Hsh zc (S (N.to_nat (cf_rec cf))) (S (N.to_nat (cf_rec cf))) Hd) as R.
  pose proof (r_body _ _ _ _ _ _ _ _ _ R) as B. cbn [fst snd] in B. unfold read_tree, t_full.
  rewrite B; [reflexivity|lia| |cbn; lia|cbn; lia|cbn; lia].
  destruct Hu as [Hu|Hu]; [now left|right; apply Hu].
Qed.
Lemma read_tree_doc cf e zc v t : env_wf e -> has_type e v t -> shape_wf t -> deserialisable e zc t ->
  cf_ignore cf = true \/ no_unit_body e t -> admits cf e zc v t ->
  read_tree cf e zc t (x_body (doc e v t)) = (ROk v, mkC 0 (coll_count v) (copied e v zc t) []).
Proof. intros Hwf Hty. apply (read_tree_listed (ordered := ascending)); auto. now apply lists_self. Qed.

Section WriteAll.
  Variable e : env.
  Hypothesis Hwf : env_wf e.

  Definition bytes_of (t : ty) (v : value) : bytes := canons (body_of e v t).

  Lemma bytes_of_ok {ordered} t v : typed_by ordered e v t -> shape_wf t -> size_of e t v <= U64_MAX ->
    encodes_doc (x_body (doc e v t)) (bytes_of t v) /\ bytes_ok (bytes_of t v) /\ lenN (bytes_of t v) <= size_of e t v.
  Proof.
    intros Hty Hsh Hs. destruct (doc_ok e Hwf v t Hty Hsh) as (Hok & _ & _).
    split; [now apply canons_doc|]. pose proof (doc_el_ok _ Hok) as Hel. split; [now apply canons_bytes|now apply canons_len].
  Qed.

  Definition all_bytes (tvs : list (ty * value)) : bytes := List.concat (map (fun p => bytes_of (fst p) (snd p)) tvs).
  Definition all_size (tvs : list (ty * value)) : N := sumN (map (fun p => size_of e (fst p) (snd p)) tvs).

  (** Writing all of them. *)
  Lemma wr_end s w : sch s = [] -> d_pos (s_dev s) = lenN (d_data (s_dev s)) ->
    s_dev (wr w s) = mkDev (d_data (s_dev s) ++ w) (lenN (d_data (s_dev s) ++ w)) [].
  Proof.
    intros Hs Hp. unfold wr. cbn [s_dev set_pos_ set_dev]. rewrite Hs, Hp, lenN_app. f_equal.
    unfold put_at. rewrite N.sub_diag, takeN_all by lia. cbn [repeat N.to_nat app]. rewrite dropN_all by lia. now rewrite app_nil_r.
  Qed.
  Definition at_end (s : stream) (data : bytes) : Prop :=
    s_dev s = mkDev data (lenN data) [].
  Lemma at_end_winv s data : at_end s data -> winv s.
  Proof. intros H. unfold winv, sch, at_end in *. rewrite H. cbn. split; [reflexivity|lia]. Qed.
  Definition typed (p : ty * value) : Prop := has_type e (snd p) (fst p) /\ shape_wf (fst p).

  Lemma write_any {ordered} t v s data : typed_by ordered e v t -> shape_wf t -> at_end s data -> settled_w s -> s_pos s + size_of e t v <= U64_MAX ->
    exists s', to_stream e t v s = (ROk tt, s') /\ settled_w s' /\ at_end s' (data ++ bytes_of t v) /\ s_pos s' <= s_pos s + size_of e t v.
  Proof.
    intros Hty Hsh Ha Hs Hp. destruct (to_stream_ok e Hwf v t s Hty Hsh (at_end_winv _ _ Ha) Hs Hp) as (s' & H1 & H2 & H3 & H4 & H5 & H6).
    destruct (bytes_of_ok t v Hty Hsh ltac:(unfold size_of in *; lia)) as (_ & _ & Hl).
    exists s'. split; [exact H1|]. split; [exact H2|]. split; [|unfold bytes_of in *; lia].
    unfold at_end in *. rewrite H4, wr_end; unfold sch; rewrite ?Ha; try reflexivity.
  Qed.
  Lemma write_one t v s data : typed (t, v) -> at_end s data -> settled_w s -> s_pos s + size_of e t v <= U64_MAX ->
    exists s', to_stream e t v s = (ROk tt, s') /\ settled_w s' /\ at_end s' (data ++ bytes_of t v) /\ s_pos s' <= s_pos s + size_of e t v.
  Proof. intros [Hty Hsh]. now apply (write_any (ordered := ascending)). Qed.
  Lemma write_all_values tvs : Forall typed tvs -> forall s data, at_end s data -> settled_w s -> s_pos s + all_size tvs <= U64_MAX ->
    exists s', write_values e tvs s = (ROk tt, s') /\ settled_w s' /\ at_end s' (data ++ all_bytes tvs).
  Proof.
    intros H. induction H as [|[t v] tvs H1 H2 IH]; intros s data Ha Hs Hp.
    - exists s. unfold all_bytes. cbn. rewrite app_nil_r. auto.
    - unfold all_size in Hp. cbn [map] in Hp. change (sumN (?x :: ?l)) with (x + sumN l) in Hp. fold (all_size tvs) in Hp. cbn [fst snd] in Hp.
      destruct (write_one t v s data H1 Ha Hs ltac:(lia)) as (s1 & E1 & S1 & A1 & P1).
      destruct (IH s1 _ A1 S1 ltac:(lia)) as (s2 & E2 & S2 & A2). exists s2. cbn [write_values]. rewrite (mbind_ok _ _ _ _ _ E1).
      split; [exact E2|]. split; [exact S2|]. unfold all_bytes. cbn [map List.concat fst snd]. now rewrite app_assoc.
  Qed.
  Lemma to_writer_any {ordered} t v dbg data : typed_by ordered e v t -> shape_wf t -> size_of e t v <= U64_MAX ->
    to_writer e dbg (mkDev data (lenN data) []) t v = ROk (mkDev (data ++ bytes_of t v) (lenN (data ++ bytes_of t v)) []).
  Proof.
    intros H Hsh Hs. destruct (write_any t v (new_stream dbg false (mkDev data (lenN data) [])) data H Hsh eq_refl (or_introl eq_refl)) as (s' & E & _ & A & _); [cbn; lia|].
    unfold to_writer. rewrite E. f_equal. exact A.
  Qed.
  Lemma to_writer_ok t v dbg data : typed (t, v) -> size_of e t v <= U64_MAX ->
    to_writer e dbg (mkDev data (lenN data) []) t v = ROk (mkDev (data ++ bytes_of t v) (lenN (data ++ bytes_of t v)) []).
  Proof. intros [H Hsh]. now apply (to_writer_any (ordered := ascending)). Qed.
  Lemma to_vec_any {ordered} t v dbg : typed_by ordered e v t -> shape_wf t -> size_of e t v <= U64_MAX -> to_vec e dbg t v = ROk (bytes_of t v).
  Proof. intros H Hsh Hs. unfold to_vec. change 0 with (lenN (@nil N)). now rewrite (to_writer_any t v dbg [] H Hsh). Qed.
  Lemma to_vec_ok t v dbg : typed (t, v) -> size_of e t v <= U64_MAX -> to_vec e dbg t v = ROk (bytes_of t v).
  Proof. intros [H Hsh]. now apply (to_vec_any (ordered := ascending)). Qed.
  Lemma to_writers_ok tvs dbg : Forall typed tvs -> all_size tvs <= U64_MAX -> forall data,
    to_writers e dbg (mkDev data (lenN data) []) tvs = ROk (mkDev (data ++ all_bytes tvs) (lenN (data ++ all_bytes tvs)) []).
  Proof.
    intros H. induction H as [|[t v] tvs H1 H2 IH]; intros Hs data.
    - unfold all_bytes. cbn. now rewrite app_nil_r.
    - unfold all_size in Hs. cbn [map] in Hs. change (sumN (?x :: ?l)) with (x + sumN l) in Hs. fold (all_size tvs) in Hs. cbn [fst snd] in Hs.
      cbn [to_writers]. rewrite to_writer_ok by (auto; lia). rewrite IH by lia.
      unfold all_bytes. cbn [map List.concat fst snd]. now rewrite app_assoc.
  Qed.

  Lemma all_bytes_ok tvs : Forall typed tvs -> all_size tvs <= U64_MAX -> bytes_ok (all_bytes tvs) /\ lenN (all_bytes tvs) <= all_size tvs.
  Proof.
    intros H. induction H as [|[t v] tvs [H1 H1'] H2 IH]; intros Hs; [split; [constructor|apply N.le_refl]|].
    unfold all_size in *. cbn [map] in *. change (sumN (?x :: ?l)) with (x + sumN l) in *. cbn [fst snd] in *.
    destruct (bytes_of_ok t v H1 H1' ltac:(lia)) as (_ & B & L). destruct (IH ltac:(lia)) as [B2 L2].
    unfold all_bytes in *. cbn [map List.concat fst snd]. rewrite lenN_app. split; [now apply Forall_app|lia].
  Qed.

End WriteAll.

Section RoundTrip.
  Variables (e : env) (zc : bool) (cf : cfg).
  Hypothesis Hwf : env_wf e.
  Hypothesis Hcc : cf_collect cf <= U64_MAX.
  Hypothesis Hcb : cf_blob cf <= U64_MAX.

  Lemma read_one t v s tl : storable cf e zc t v -> size_of e t v <= U64_MAX -> starts s (bytes_of e t v) tl ->
    exists s', from_stream e zc cf t s = (ROk v, s') /\ starts s' [] tl.
  Proof.
    intros [Hty Hsh Hd Hu Hf] Hs Hst. destruct (bytes_of_ok e Hwf t v Hty Hsh Hs) as (Henc & _ & _).
    pose proof (tree_stream e zc cf t _ s _ tl (env_wf_ok e Hwf) Hd Hcc Hcb Henc Hst) as H.
    rewrite (read_tree_doc cf e zc v t Hwf Hty Hsh Hd Hu Hf) in H. exact H.
  Qed.

  Lemma starts_move s a b tl : starts s a tl -> a ++ tl = b -> forall b1 b2, b = b1 ++ b2 -> starts s b1 b2.
  Proof. intros [H1 H2 H3 H4 H5 H6 H7 H8 H9] <- b1 b2 E. constructor; auto. now rewrite H8. Qed.

  Lemma read_all tvs : Forall (fun p => storable cf e zc (fst p) (snd p)) tvs -> all_size e tvs <= U64_MAX -> forall s tl,
    starts s (all_bytes e tvs) tl -> exists s', read_values e zc cf (map fst tvs) s = (ROk (map snd tvs), s') /\ starts s' [] tl.
  Proof.
    intros H. induction H as [|[t v] tvs H1 H2 IH]; intros Hs s tl Hst.
    - exists s. split; [reflexivity|exact Hst].
    - unfold all_size in Hs. cbn [map] in Hs. change (sumN (?x :: ?l)) with (x + sumN l) in Hs. fold (all_size e tvs) in Hs. cbn [fst snd] in *.
      unfold all_bytes in Hst. cbn [map List.concat fst snd] in Hst. fold (all_bytes e tvs) in Hst.
      assert (Hst1 : starts s (bytes_of e t v) (all_bytes e tvs ++ tl)).
      { eapply starts_move; [exact Hst|reflexivity|]. now rewrite app_assoc. }
      destruct (read_one t v s _ H1 ltac:(lia) Hst1) as (s1 & E1 & S1).
      assert (S2 : starts s1 (all_bytes e tvs) tl) by (eapply starts_move; [exact S1|reflexivity|reflexivity]).
      destruct (IH ltac:(lia) s1 tl S2) as (s2 & E2 & S3). exists s2. split; [|exact S3].
      cbn [map fst snd read_values]. rewrite (mbind_ok _ _ _ _ _ E1), (mbind_ok _ _ _ _ _ E2). reflexivity.
  Qed.

End RoundTrip.

Section Readers.
  (** Values read through [from_reader] one after the other. *)
  Lemma reader_starts dbg sk data pos a b : bytes_ok data -> lenN data + 3 < U64_MAX -> pos <= lenN data -> dropN pos data = a ++ b ->
    starts (new_stream dbg sk (mkDev data pos [])) a b.
  Proof.
    intros Hok Hl Hp E.
    assert (Hu : unread (new_stream dbg sk (mkDev data pos [])) = a ++ b) by exact E.
    assert (Hpd : pend (new_stream dbg sk (mkDev data pos [])) = 0) by reflexivity.
    assert (Hle : lenN (a ++ b) <= lenN data) by (rewrite <- E, lenN_dropN; lia).
    constructor; rewrite ?Hpd, ?Hu, ?dropN_0; try reflexivity; cbn; try lia.
    constructor.
    - constructor; [reflexivity|exact Hok|cbn; lia|now left].
    - exact Hl.
    - rewrite Hu. cbn. lia.
    - discriminate.
  Qed.

  Lemma restarts s tl dbg : starts s [] tl -> forall a b, tl = a ++ b -> starts (new_stream dbg false (s_dev s)) a b.
  Proof.
    intros [[[H1 H2 H3 H4] H5 H6 H7] _ _ _ _ _ Hd Hu Hp] a b E. rewrite Hp, dropN_0 in Hu. cbn [app] in Hu.
    assert (Hdev : s_dev s = mkDev (d_data (s_dev s)) (d_pos (s_dev s)) []).
    { unfold sch in H1. destruct (s_dev s); cbn in *; now subst. }
    rewrite Hdev. apply reader_starts; auto. rewrite <- E. exact Hu.
  Qed.
  Lemma starts_rest s tl : starts s [] tl -> unread s = tl.
  Proof. intros H. pose proof (st_unread _ _ _ H) as E. rewrite (st_none _ _ _ H), dropN_0 in E. exact E. Qed.
End Readers.

Lemma readers_all e cf (Hwf : env_wf e) (Hcc : cf_collect cf <= U64_MAX) (Hcb : cf_blob cf <= U64_MAX) dbg tvs :
  Forall (fun p => storable cf e false (fst p) (snd p)) tvs -> all_size e tvs <= U64_MAX -> forall d tl,
  starts (new_stream dbg false d) (all_bytes e tvs) tl -> d_sched d = [] ->
  exists d', from_readers e dbg cf (map fst tvs) d = (ROk (map snd tvs), d') /\ d_rest d' = tl.
Proof.
  intros H. induction H as [|[t v] tvs H1 H2 IH]; intros Hs d tl Hst Hd.
  - exists d. split; [reflexivity|]. exact (starts_rest _ _ Hst).
  - unfold all_size in Hs. cbn [map] in Hs. change (sumN (?x :: ?l)) with (x + sumN l) in Hs. fold (all_size e tvs) in Hs. cbn [fst snd] in *.
    unfold all_bytes in Hst. cbn [map List.concat fst snd] in Hst. fold (all_bytes e tvs) in Hst.
    assert (Hst1 : starts (new_stream dbg false d) (bytes_of e t v) (all_bytes e tvs ++ tl)).
    { eapply starts_move; [exact Hst|reflexivity|]. now rewrite app_assoc. }
    destruct (read_one e false cf Hwf Hcc Hcb t v _ _ H1 ltac:(lia) Hst1) as (s1 & E1 & S1).
    destruct (IH ltac:(lia) (s_dev s1) tl (restarts _ _ dbg S1 _ _ eq_refl)) as (d2 & E2 & R2).
    { exact (ri_sch _ (sq_r _ (st_seq _ _ _ S1))). }
    exists d2. split; [|exact R2]. cbn [map fst snd from_readers]. unfold from_reader. rewrite E1, E2. reflexivity.
Qed.

(** ** The claims *)
Section Claims.
  Variable e : env.
  Hypothesis Hwf : env_wf e.

  Lemma shortest_doc {ordered} t v : typed_by ordered e v t -> shape_wf t -> size_of e t v <= U64_MAX ->
    shortest (document (x_body (doc e v t))) (bytes_of e t v).
  Proof.
    intros Hty Hsh Hs. destruct (doc_ok e Hwf v t Hty Hsh) as (Hok & _ & _).
    apply (canons_shortest _ _ (canons_enc _ (doc_el_ok _ Hok) Hs)).
  Qed.
  Lemma vec_shape {ordered} dbg t v : typed_by ordered e v t -> shape_wf t -> size_of e t v <= U64_MAX ->
    exists bs, to_vec e dbg t v = ROk bs /\ shortest (document (x_body (doc e v t))) bs.
  Proof. intros Hty Hsh Hs. exists (bytes_of e t v). split; [exact (to_vec_any e Hwf t v dbg Hty Hsh Hs)|exact (shortest_doc t v Hty Hsh Hs)]. Qed.

  Lemma exec_shape ws es s : wrels ws es -> Forall delem_ok es -> no_open_blob s ->
    d_pos (s_dev s) = lenN (d_data (s_dev s)) -> d_sched (s_dev s) = [] -> s_pos s + size_bound es <= U64_MAX ->
    exists bs s', exec ws s = (ROk tt, s') /\ shortest es bs /\ d_data (s_dev s') = d_data (s_dev s) ++ bs /\ no_open_blob s'.
  Proof.
    intros Hr Hok Hn Hd Hsc Hp. assert (Hw : winv s) by (split; [exact Hsc|lia]).
    destruct (exec_ok ws es s Hr Hw Hn Hok Hp) as (s' & H1 & H2 & H3 & H4 & H5).
    exists (canons es), s'. split; [exact H1|]. split; [apply (canons_shortest _ _ (canons_enc _ Hok ltac:(lia)))|].
    split; [|exact H2]. rewrite H4, wr_end by auto. reflexivity.
  Qed.
  Lemma node_el_ok tag n : tag_ok tag -> node_ok n -> Forall delem_ok (flat_node tag n).
  Proof.
    intros Ht Hn. assert (H : nodes_ok [(tag, n)]) by (constructor; [split; auto|constructor]).
    pose proof (flat_el_ok _ H) as Hf. unfold flat in Hf. cbn [flat_map fst snd] in Hf. rewrite app_nil_r in Hf.
    eapply Forall_impl; [|exact Hf]. intros a [_ Ha]. exact Ha.
  Qed.
  Lemma element_shape {ordered} t v tag s : typed_by ordered e v t -> shape_wf t -> tag_ok tag -> no_open_blob s ->
    d_pos (s_dev s) = lenN (d_data (s_dev s)) -> d_sched (s_dev s) = [] ->
    s_pos s + size_bound (flat_node tag (x_elem (doc e v t))) <= U64_MAX ->
    exists bs s', exec (z_elem (ser e v t) tag) s = (ROk tt, s') /\ shortest (flat_node tag (x_elem (doc e v t))) bs /\
      d_data (s_dev s') = d_data (s_dev s) ++ bs /\ no_open_blob s'.
  Proof.
    intros Hty Hsh Ht Hn Hd Hsc Hp. destruct (ser_doc e Hwf v t Hty Hsh) as (_ & Hr & _).
    destruct (doc_ok e Hwf v t Hty Hsh) as (_ & _ & Hok). apply exec_shape; auto. now apply node_el_ok.
  Qed.
  Lemma field_shape {ordered} t v tag s : typed_by ordered e v t -> shape_wf t -> unknown_like t = false -> tag_ok tag -> no_open_blob s ->
    d_pos (s_dev s) = lenN (d_data (s_dev s)) -> d_sched (s_dev s) = [] ->
    s_pos s + size_bound (flat (x_field (doc e v t) tag)) <= U64_MAX ->
    exists bs s', exec (z_field (ser e v t) tag) s = (ROk tt, s') /\ shortest (flat (x_field (doc e v t) tag)) bs /\
      d_data (s_dev s') = d_data (s_dev s) ++ bs /\ no_open_blob s' /\ Forall (fun p => fst p = tag) (x_field (doc e v t) tag).
  Proof.
    intros Hty Hsh Hu Ht Hn Hd Hsc Hp. destruct (ser_doc e Hwf v t Hty Hsh) as (_ & _ & Hr).
    destruct (doc_ok e Hwf v t Hty Hsh) as (_ & Hok & _).
    destruct (exec_shape _ (flat (x_field (doc e v t) tag)) s (Hr Hu tag)) as (bs & s' & A & B & C & D); auto.
    { eapply Forall_impl; [|apply flat_el_ok, Hok, Ht]. intros a [_ Ha]. exact Ha. }
    exists bs, s'. repeat split; auto; try apply B. now apply field_tags.
  Qed.

  Section Read.
  Variable cf : cfg.
  Hypothesis Hcc : cf_collect cf <= U64_MAX.
  Hypothesis Hcb : cf_blob cf <= U64_MAX.

  Lemma round_trip zc t v dw dr : storable cf e zc t v -> size_of e t v + 3 < U64_MAX ->
    exists bs, to_vec e dw t v = ROk bs /\ fst (from_stream e zc cf t (from_slice dr bs)) = ROk v.
  Proof.
    intros Hst Hs. assert (Hs' : size_of e t v <= U64_MAX) by lia. pose proof Hst as [Hty Hsh _ _ _].
    destruct (bytes_of_ok e Hwf t v Hty Hsh Hs') as (_ & Hb & Hl).
    exists (bytes_of e t v). split; [apply to_vec_ok; auto; split; auto|].
    assert (S1 : starts (from_slice dr (bytes_of e t v)) (bytes_of e t v) []).
    { apply reader_starts; auto; [lia|lia|]. now rewrite dropN_0, app_nil_r. }
    destruct (read_one e zc cf Hwf Hcc Hcb t v _ _ Hst Hs' S1) as (s' & E & _). now rewrite E.
  Qed.
  Lemma leaves_rest zc t v dw dr sk tl : storable cf e zc t v -> bytes_ok tl -> size_of e t v + lenN tl + 3 < U64_MAX ->
    exists bs, to_vec e dw t v = ROk bs /\
      exists s', from_stream e zc cf t (new_stream dr sk (mkDev (bs ++ tl) 0 [])) = (ROk v, s') /\ unread s' = tl.
  Proof.
    intros Hst Htl Hs. assert (Hs' : size_of e t v <= U64_MAX) by lia. pose proof Hst as [Hty Hsh _ _ _].
    destruct (bytes_of_ok e Hwf t v Hty Hsh Hs') as (_ & Hb & Hl).
    exists (bytes_of e t v). split; [apply to_vec_ok; auto; split; auto|].
    assert (S1 : starts (new_stream dr sk (mkDev (bytes_of e t v ++ tl) 0 [])) (bytes_of e t v) tl).
    { apply reader_starts; auto; rewrite ?lenN_app; try lia; [now apply Forall_app|]. apply dropN_0. }
    destruct (read_one e zc cf Hwf Hcc Hcb t v _ _ Hst Hs' S1) as (s' & E & S2). exists s'. split; [exact E|]. now apply starts_rest.
  Qed.
  Lemma consecutive zc tvs dw kw dr kr : Forall (fun p => storable cf e zc (fst p) (snd p)) tvs ->
    all_size e tvs + 3 < U64_MAX ->
    exists s1, write_values e tvs (new_stream dw kw (mkDev [] 0 [])) = (ROk tt, s1) /\
    exists s2, read_values e zc cf (map fst tvs) (new_stream dr kr (mkDev (d_data (s_dev s1)) 0 [])) = (ROk (map snd tvs), s2) /\ unread s2 = [].
  Proof.
    intros H Hs. assert (Hty : Forall (typed e) tvs).
    { eapply Forall_impl; [|exact H]. intros p [A B _ _ _]. split; auto. }
    destruct (write_all_values e Hwf tvs Hty (new_stream dw kw (mkDev [] 0 [])) [] eq_refl (or_introl eq_refl)) as (s1 & E1 & _ & A1); [cbn; lia|].
    exists s1. split; [exact E1|]. unfold at_end in A1. rewrite A1. cbn [d_data app].
    destruct (all_bytes_ok e Hwf tvs Hty ltac:(lia)) as [Hb Hl].
    assert (S1 : starts (new_stream dr kr (mkDev (all_bytes e tvs) 0 [])) (all_bytes e tvs) []).
    { apply reader_starts; auto; [lia|lia|]. now rewrite dropN_0, app_nil_r. }
    destruct (read_all e zc cf Hwf Hcc Hcb tvs H ltac:(lia) _ _ S1) as (s2 & E2 & S2). exists s2. split; [exact E2|now apply starts_rest].
  Qed.
  Lemma consecutive_readers tvs dw dr : Forall (fun p => storable cf e false (fst p) (snd p)) tvs ->
    all_size e tvs + 3 < U64_MAX ->
    exists d1, to_writers e dw (mkDev [] 0 []) tvs = ROk d1 /\
    exists d2, from_readers e dr cf (map fst tvs) (mkDev (d_data d1) 0 []) = (ROk (map snd tvs), d2) /\ d_rest d2 = [].
  Proof.
    intros H Hs. assert (Hty : Forall (typed e) tvs).
    { eapply Forall_impl; [|exact H]. intros p [A B _ _ _]. split; auto. }
    pose proof (to_writers_ok e Hwf tvs dw Hty ltac:(lia) []) as E1. change (lenN (@nil N)) with 0 in E1. cbn [app] in E1.
    eexists. split; [exact E1|]. cbn [d_data].
    destruct (all_bytes_ok e Hwf tvs Hty ltac:(lia)) as [Hb Hl].
    apply readers_all; auto; [lia|]. apply reader_starts; auto; [lia|lia|]. now rewrite dropN_0, app_nil_r.
  Qed.
  End Read.

  Lemma encoding_injective t v1 v2 d1 d2 b1 b2 x : shape_wf t -> deserialisable e true t -> has_type e v1 t -> has_type e v2 t ->
    size_of e t v1 <= U64_MAX -> size_of e t v2 <= U64_MAX ->
    to_vec e d1 t v1 = ROk b1 -> to_vec e d2 t v2 = ROk b2 -> b2 = b1 ++ x -> v1 = v2 /\ x = [].
  Proof.
    intros Hsh Hd T1 T2 S1 S2 E1 E2 E.
    rewrite to_vec_ok in E1 by (auto; split; auto). rewrite to_vec_ok in E2 by (auto; split; auto).
    injection E1 as <-. injection E2 as <-.
    destruct (bytes_of_ok e Hwf t v1 T1 Hsh S1) as (D1 & _). destruct (bytes_of_ok e Hwf t v2 T2 Hsh S2) as (D2 & _).
    destruct (documents_unamb _ _ _ _ x [] D1 D2) as (Ek & Eb & ->); [now rewrite app_nil_r|]. split; [|reflexivity].
    set (cf := mkCfg (N.max (n_body (need e v1 t)) (n_body (need e v2 t))) true
                 (N.max (copied e v1 true t) (copied e v2 true t)) (N.max (coll_count v1) (coll_count v2))).
    assert (A : forall v, v = v1 \/ v = v2 -> admits cf e true v t).
    { intros v Hv. unfold admits, cf. cbn. destruct Hv; subst; lia. }
    pose proof (read_tree_doc cf e true v1 t Hwf T1 Hsh Hd (or_introl eq_refl) (A _ (or_introl eq_refl))) as R1.
    pose proof (read_tree_doc cf e true v2 t Hwf T2 Hsh Hd (or_introl eq_refl) (A _ (or_intror eq_refl))) as R2.
    rewrite Ek in R1. rewrite R1 in R2. congruence.
  Qed.
End Claims.
