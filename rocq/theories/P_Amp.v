(** * P_Amp: nothing is read that was not paid for in input bytes (C71) *)

From Verif Require Import Base Wire Dev Stream Types Prog Ser De Tree SpecWire SpecFormat SpecStream SpecDe SpecDoc SpecSerDe SpecRead SpecAccept
  P_Base P_Wire P_Read P_Types P_DictAll P_Means P_Meaning P_DeProps P_Accept P_Exact.
Strategy 1000 [s_decode_u64 decode_u64 decode_loop write_all read_exact encode_u64 enc_loop encode_fixed_u64 mloop miter].

(** The weight of a document: every field 1, and the bytes of its blobs. *)
Fixpoint wn (n : node) : N :=
  match n with
  | NInt _ => 1
  | NBlob b => 1 + lenN b
  | NStruct fs | NEnum _ fs => 1 + fold_right (fun f x => wn (snd f) + x) 0 fs
  end.
Definition wf (ks : list (N * node)) : N := fold_right (fun f x => wn (snd f) + x) 0 ks.
Definition cc (x : cost) : N := k_coll x + k_blob x.
Lemma cc_add x y : cc (cadd x y) = cc x + cc y.
Proof. unfold cc, cadd. cbn. lia. Qed.
Lemma cc_deep x : cc (cdeep x) = cc x.
Proof. reflexivity. Qed.
Lemma wn_pos n : 1 <= wn n.
Proof. destruct n; cbn [wn]; lia. Qed.
Lemma wf_filter p ks : wf (filter p ks) + wf (filter (fun f => negb (p f)) ks) = wf ks.
Proof.
  induction ks as [|f ks IH]; [reflexivity|]. cbn [filter]. destruct (p f); cbn [negb]; unfold wf in *; cbn [fold_right]; lia.
Qed.

Definition bnd {A} (r : R A) (w : N) : Prop := forall a x, r = Some (a, x) -> cc x <= w.
Lemma b_none {A} w : bnd (@rnone A) w.
Proof. intros a x H. discriminate. Qed.
Lemma b_ret {A} (a : A) w : bnd (rret a) w.
Proof. intros b x H. injection H as <- <-. unfold cc. cbn. lia. Qed.
Lemma b_le {A} (r : R A) w w' : w <= w' -> bnd r w -> bnd r w'.
Proof. intros Hl H a x E. specialize (H a x E). lia. Qed.
Lemma b_bind {A B} (m : R A) (f : A -> R B) w1 w2 w : bnd m w1 -> (forall a x, m = Some (a, x) -> bnd (f a) w2) -> w1 + w2 <= w -> bnd (rbind m f) w.
Proof.
  intros Hm Hf Hw b x H. unfold rbind in H. destruct m as [[a y]|]; [|discriminate]. destruct (f a) as [[c z]|] eqn:E; [|discriminate].
  injection H as <- <-. rewrite cc_add. specialize (Hm a y eq_refl). specialize (Hf a y eq_refl c z E). lia.
Qed.
Lemma b_bind0 {A B} (m : R A) (f : A -> R B) w : bnd m w -> (forall a, bnd (f a) 0) -> bnd (rbind m f) w.
Proof. intros Hm Hf. apply (b_bind m f w 0); [exact Hm|intros a x _; apply Hf|lia]. Qed.
Lemma b_deep {A} (m : R A) w : bnd m w -> bnd (rdeep m) w.
Proof. intros H a x E. unfold rdeep in E. destruct m as [[b y]|]; [|discriminate]. injection E as <- <-. rewrite cc_deep. eapply H; reflexivity. Qed.
Lemma b_cost {A} c (m : R A) w : bnd m w -> bnd (rcost c m) (cc c + w).
Proof. intros H a x E. unfold rcost in E. destruct m as [[b y]|]; [|discriminate]. injection E as <- <-. rewrite cc_add. specialize (H _ _ eq_refl). lia. Qed.
Lemma b_map {B} (f : N * node -> R B) ks : (forall k, In k ks -> bnd (f k) (wn (snd k))) -> bnd (rmap f ks) (wf ks).
Proof.
  induction ks as [|k ks IH]; intros H; cbn [rmap]; [apply b_ret|].
  apply (b_bind _ _ (wn (snd k)) (wf ks)); [apply H; now left| |unfold wf; cbn [fold_right]; lia].
  intros b x _. apply b_bind0; [apply IH; intros; apply H; now right|intros; apply b_ret].
Qed.

(** A meaning costs no more than what it is the meaning of. *)
Record mb (m : meaning) : Prop := mkMb {
  mb_occ : forall occ, bnd (m_occ m occ) (wf occ);
  mb_elem : forall n, bnd (m_elem m n) (wn n - 1);
  mb_body : forall ks, bnd (m_body m ks) (wf ks)
}.
Lemma wf_one t n : wf [(t, n)] = wn n.
Proof. unfold wf. cbn. lia. Qed.
Lemma mb_nothing : mb m_nothing.
Proof. split; intros; apply b_none. Qed.

Section B.
  Variable ign : bool.
  Lemma b_fields fs : Forall (fun f => mb (snd f)) fs -> forall ks,
    forall r x, m_fields fs ks = Some (r, x) -> cc x + wf (snd r) <= wf ks.
  Proof.
    induction 1 as [|[tag m] fs Hm Hfs IH]; intros ks r x H; cbn [m_fields] in H.
    - injection H as <- <-. cbn [snd]. change (cc czero) with 0. lia.
    - unfold rbind in H. destruct (rdeep (m_occ m (with_tag tag ks))) as [[v y]|] eqn:E1; [|discriminate].
      destruct (m_fields fs (without_tag tag ks)) as [[r1 z]|] eqn:E2; [|discriminate]. injection H as <- <-. cbn [snd].
      specialize (IH _ _ _ E2). pose proof (b_deep _ _ (mb_occ _ Hm (with_tag tag ks)) _ _ E1) as H1.
      pose proof (wf_filter (fun f => fst f =? tag) ks) as H2. change (wf (with_tag tag ks) + wf (without_tag tag ks) = wf ks) in H2.
      rewrite !cc_add. change (cc czero) with 0. lia.
  Qed.
  Lemma b_record fs catch ks : Forall (fun f => mb (snd f)) fs -> (forall m, catch = Some m -> mb m) -> bnd (m_record ign fs catch ks) (wf ks).
  Proof.
    intros Hf Hc a x H. unfold m_record, rbind in H. destruct (m_fields fs ks) as [[r y]|] eqn:E1; [|discriminate].
    pose proof (b_fields fs Hf _ _ _ E1) as H1.
    match type of H with match ?m with _ => _ end = _ => assert (Hb : bnd m (wf (snd r))); [|destruct m as [[b z]|]; [|discriminate]] end.
    - destruct catch as [m|].
      + apply b_bind0; [apply b_deep, mb_occ, Hc; reflexivity|intros; apply b_ret].
      + destruct (snd r); [apply b_ret|]. destruct ign; [apply b_ret|apply b_none].
    - injection H as <- <-. specialize (Hb _ _ eq_refl). rewrite cc_add. lia.
  Qed.
  Lemma b_top occ ks : (forall l, bnd (occ l) (wf l)) -> bnd (m_top ign occ ks) (wf ks).
  Proof.
    intros H. unfold m_top. apply b_bind0.
    - apply b_record; [|discriminate]. constructor; [|constructor]. split; cbn; intros; auto using b_none.
    - intros [|v [|? ?]]; try apply b_none. apply b_ret.
  Qed.
  Lemma b_in_struct body n : (forall ks, bnd (body ks) (wf ks)) -> bnd (m_in_struct body n) (wn n - 1).
  Proof. intros H. destruct n; cbn [m_in_struct]; try apply b_none. eapply b_le; [|apply H]. cbn [wn]. fold (wf fs). lia. Qed.
  Lemma b_once conv occ : (forall n, bnd (conv n) (wn n - 1)) -> bnd (m_once conv occ) (wf occ).
  Proof.
    intros H. destruct occ as [|[t n] [|]]; cbn [m_once]; try apply b_none. eapply b_le; [|apply H]. rewrite wf_one. lia.
  Qed.
  Lemma b_simple conv : (forall n, bnd (conv n) (wn n - 1)) -> mb (m_simple ign conv).
  Proof.
    intros H. split; cbn [m_simple m_occ m_elem m_body]; intros; [now apply b_once|apply H|]. apply b_top. intros l. now apply b_once.
  Qed.
  Lemma b_coll occ : (forall l, bnd (occ l) (wf l)) -> mb (m_coll ign occ).
  Proof.
    intros H. split; cbn [m_coll m_occ m_elem m_body]; intros; [apply H| |now apply b_top]. apply b_in_struct. intros. now apply b_top.
  Qed.
  Lemma b_cone {A} (m : R A) n : bnd m (wn n - 1) -> bnd (rcost cone m) (wn n).
  Proof. intros H. eapply b_le; [|apply b_cost, H]. pose proof (wn_pos n). change (cc cone) with 1. lia. Qed.
  Lemma b_list fin m : mb m -> mb (m_list ign fin m).
  Proof.
    intros H. apply b_coll. intros l. apply b_bind0; [|intros; apply b_ret]. apply b_map. intros k _. apply b_cone, mb_elem, H.
  Qed.
  Lemma b_array n m : mb m -> mb (m_array ign n m).
  Proof.
    intros H. apply b_coll. intros l. destruct (_ =? _); [|apply b_none]. apply b_bind0; [|intros; apply b_ret]. apply b_map.
    intros k _. eapply b_le; [|apply mb_elem, H]. lia.
  Qed.
  Lemma b_option m : mb m -> mb (m_option ign m).
  Proof.
    intros H. apply b_coll. intros [|[t n] [|]]; try apply b_ret; try apply b_none. apply b_bind0; [|intros; apply b_ret].
    eapply b_le; [|apply mb_elem, H]. rewrite wf_one. lia.
  Qed.
  Lemma b_number ms : Forall mb ms -> forall i, Forall (fun f => mb (snd f)) (m_number i ms).
  Proof. induction 1; intros i; cbn [m_number]; constructor; auto. Qed.
  Lemma b_tuple_body ms ks : Forall mb ms -> bnd (m_tuple_body ign ms ks) (wf ks).
  Proof. intros H. apply b_bind0; [|intros; apply b_ret]. apply b_record; [now apply b_number|discriminate]. Qed.
  Lemma b_struct body elem : (forall ks, bnd (body ks) (wf ks)) -> (forall n, bnd (elem n) (wn n - 1)) -> mb (m_struct body elem).
  Proof. intros H1 H2. split; cbn [m_struct m_occ m_elem m_body]; auto. intros. now apply b_once. Qed.
  Lemma b_tuple ms : Forall mb ms -> mb (m_tuple ign ms).
  Proof.
    intros H. apply b_struct; intros; [now apply b_tuple_body|]. apply b_in_struct. intros. now apply b_tuple_body.
  Qed.
  Lemma b_map_ mk mv : mb mk -> mb mv -> mb (m_map ign mk mv).
  Proof.
    intros Hk Hv. apply b_coll. intros l. apply b_bind0; [|intros; apply b_ret]. apply b_map. intros k _. apply b_cone.
    unfold m_entry. apply b_bind0.
    - apply b_in_struct. intros. apply b_tuple_body. auto.
    - intros [] ; try apply b_none. match goal with |- bnd (match ?l with _ => _ end) _ => destruct l as [|? [|? [|]]] end; try apply b_none. apply b_ret.
  Qed.
  Lemma b_unk own n : cc (unk_cost own n) <= wn n - 1.
  Proof.
    revert n. refine (node_ind' _ _ _ _ _).
    - intros n. unfold cc. cbn. lia.
    - intros b. unfold cc. cbn. destruct own; lia.
    - intros fs IH. cbn [unk_cost wn].
      assert (H : cc (fold_right (fun f x => cadd (cdeep (cadd cone (unk_cost own (snd f)))) x) czero fs) <= fold_right (fun f x => wn (snd f) + x) 0 fs); [|lia].
      induction IH as [|f fs Hf Hfs IH]; [unfold cc; cbn; lia|]. cbn [fold_right]. rewrite cc_add, cc_deep, cc_add. change (cc cone) with 1. pose proof (wn_pos (snd f)). lia.
    - intros d fs IH. cbn [unk_cost wn].
      assert (H : cc (fold_right (fun f x => cadd (cdeep (cadd cone (unk_cost own (snd f)))) x) czero fs) <= fold_right (fun f x => wn (snd f) + x) 0 fs); [|lia].
      induction IH as [|f fs Hf Hfs IH]; [unfold cc; cbn; lia|]. cbn [fold_right]. rewrite cc_add, cc_deep, cc_add. change (cc cone) with 1. pose proof (wn_pos (snd f)). lia.
  Qed.
  Lemma b_each own (f : N * node) : bnd (Some (f, cadd cone (unk_cost own (snd f)))) (wn (snd f)).
  Proof. intros a x H. injection H as <- <-. rewrite cc_add. change (cc cone) with 1. pose proof (b_unk own (snd f)). pose proof (wn_pos (snd f)). lia. Qed.
  Lemma b_unknown own : mb (m_unknown own).
  Proof.
    assert (Hb : forall ks, bnd (let! r := rmap (fun f => rdeep (Some (f, cadd cone (unk_cost own (snd f))))) ks in rret (VUnk r)) (wf ks)).
    { intros ks. apply b_bind0; [|intros; apply b_ret]. apply b_map. intros k _. apply b_deep, b_each. }
    split; cbn [m_unknown m_occ m_elem m_body]; intros; [|now apply b_in_struct|apply Hb].
    apply b_bind0; [|intros; apply b_ret]. apply b_map. intros k _. apply b_each.
  Qed.
  Lemma b_unkfield own : mb (m_unkfield ign own).
  Proof. apply b_simple. intros n a x H. injection H as <- <-. apply b_unk. Qed.
  Lemma b_construct b vs : bnd (m_construct b vs) 0.
  Proof. unfold m_construct. destruct (vb_check b vs); [apply b_ret|apply b_none]. Qed.
  Lemma b_decls mk fs : (forall t, mb (mk t)) -> Forall (fun f => mb (snd f)) (m_decls mk fs).
  Proof. intros H. unfold m_decls. apply Forall_forall. intros f Hf. apply in_map_iff in Hf. destruct Hf as (g & <- & _). apply H. Qed.
  Lemma b_vbody mk b ks : (forall t, mb (mk t)) -> bnd (m_vbody ign mk b ks) (wf ks).
  Proof.
    intros H. unfold m_vbody. destruct (vb_special b).
    - apply b_bind0; [|intros; apply b_construct]. apply b_record; [now apply b_decls|discriminate].
    - apply (b_bind _ _ (wf ks) 0); [apply b_deep, mb_body, H| |lia]. intros dv x _.
      apply b_bind0; [|intros; apply b_construct]. intros r y E. pose proof (b_fields _ (b_decls mk (vb_fields b) H) _ _ _ E) as Hr. unfold wf in Hr at 2. cbn in Hr. lia.
    - apply b_bind0; [|intros; apply b_construct]. apply b_record; [now apply b_decls|]. intros m Hm. injection Hm as <-. apply H.
  Qed.
  Lemma b_struct_elem mk b n : (forall t, mb (mk t)) -> bnd (m_struct_elem ign mk b n) (wn n - 1).
  Proof.
    intros H. unfold m_struct_elem. destruct (vb_special b); try (apply b_in_struct; intros; now apply b_vbody).
    apply b_bind0; [apply b_deep, mb_elem, H|intros; apply b_construct].
  Qed.
  Lemma b_enum_elem mk vars catch n : (forall t, mb (mk t)) -> bnd (m_enum_elem ign mk vars catch n) (wn n - 1).
  Proof.
    intros H. destruct n as [| | |d fs]; cbn [m_enum_elem]; try apply b_none. assert (Hw : wf fs <= wn (NEnum d fs) - 1) by (cbn [wn]; fold (wf fs); lia).
    destruct (variant d vars) as [[ix b]|].
    - apply b_bind0; [|intros; apply b_ret]. eapply b_le; [exact Hw|]. now apply b_vbody.
    - destruct catch as [b|]; [|apply b_none]. apply b_bind0; [|intros; apply b_ret]. eapply b_le; [exact Hw|]. now apply b_vbody.
  Qed.
  Lemma b_blob own (c : bytes -> value) b : bnd (Some (c b, cbytes (if own : bool then lenN b else 0))) (wn (NBlob b) - 1).
  Proof. intros a x H. injection H as <- <-. unfold cc. cbn. destruct own; lia. Qed.
  Lemma b_str own n : bnd (m_str own n) (wn n - 1).
  Proof. destruct n; cbn [m_str]; try apply b_none. destruct (utf8_ok _); [apply b_blob|apply b_none]. Qed.
  Lemma b_bytes own n : bnd (m_bytes own n) (wn n - 1).
  Proof. destruct n; cbn [m_bytes]; try apply b_none. apply b_blob. Qed.
  Lemma b_arrb len : mb (mkMn (m_arrb_occ len) (m_arrb len) (m_top ign (m_arrb_occ len))).
  Proof.
    assert (He : forall n, bnd (m_arrb len n) (wn n - 1)).
    { intros n. destruct n; cbn [m_arrb]; try apply b_none. destruct (_ =? _); [apply b_ret|apply b_none]. }
    assert (Ho : forall occ, bnd (m_arrb_occ len occ) (wf occ)).
    { intros [|f l]; [|apply b_once, He]. cbn [m_arrb_occ]. destruct (_ =? _); [apply b_ret|apply b_none]. }
    split; cbn [m_occ m_elem m_body]; auto. intros. now apply b_top.
  Qed.
  Lemma b_of item_m : (forall zc i, mb (item_m zc i)) -> forall t zc, mb (meaning_of ign item_m zc t).
  Proof.
    intros Hi. apply (ty_ind' (fun t => forall zc, mb (meaning_of ign item_m zc t))).
    - intros t. destruct t; try exact I; intros zc; cbn [meaning_of].
      + apply b_simple. intros []; cbn [m_uint]; try apply b_none. destruct (_ <=? _); [apply b_ret|apply b_none].
      + apply b_simple. intros []; cbn [m_sint]; try apply b_none. cbv zeta. destruct (_ && _); [apply b_ret|apply b_none].
      + apply b_simple. intros []; cbn [m_bool]; try apply b_none. destruct (_ =? _); [apply b_ret|]. destruct (_ =? _); [apply b_ret|apply b_none].
      + apply b_simple. intros []; cbn [m_char]; try apply b_none. destruct (_ && _); [apply b_ret|apply b_none].
      + apply b_simple. intros []; cbn [m_phantom]; try apply b_none. destruct (_ =? _); [apply b_ret|apply b_none].
      + apply b_simple, b_str.
      + destruct zc; [apply b_simple, b_str|apply mb_nothing].
      + destruct zc; [apply b_simple, b_bytes|apply mb_nothing].
      + apply b_simple, b_str.
      + apply b_simple, b_bytes.
      + apply b_unknown.
      + apply b_unkfield.
      + apply Hi.
    - intros t IH. split; [|split; [|split; [|split; [|split]]]]; intros zc; cbn [meaning_of].
      + destruct (is_u8 t); [apply b_simple, b_bytes|now apply b_list].
      + now apply b_list.
      + now apply b_list.
      + now apply b_option.
      + apply IH.
      + apply IH.
    - intros n t IH zc. cbn [meaning_of]. destruct (is_u8 t); [apply b_arrb|now apply b_array].
    - intros k v IHk IHv zc. cbn [meaning_of]. now apply b_map_.
    - intros ts IH zc. cbn [meaning_of]. apply b_tuple. induction IH; cbn [map]; constructor; auto.
  Qed.
  Variable e : env.
  Lemma b_item fuel : forall zc i, mb (item_meaning ign e fuel zc i).
  Proof.
    induction fuel as [|f IH]; intros zc i; cbn [item_meaning]; [apply mb_nothing|].
    pose proof (fun t => b_of _ IH t zc) as Hmk. destruct (e i) as [b|vars catch].
    - apply b_struct; intros; [now apply b_vbody|now apply b_struct_elem].
    - apply b_simple. intros. now apply b_enum_elem.
  Qed.
End B.

Theorem cost_bound e ign zc t ks v x : denotes e ign zc t ks v x -> k_coll x + k_blob x <= wf ks.
Proof. intros (fuel & H). exact (mb_body _ (b_of ign _ (b_item ign e fuel) t zc) ks _ _ H). Qed.

(** ** Elements and bytes *)
Definition we (e : delem) : N := match e with DField _ (DBlobV b) => 1 + lenN b | DField _ _ => 1 | _ => 0 end.
Definition wes (es : list delem) : N := fold_right (fun e x => we e + x) 0 es.
Lemma wes_app a b : wes (a ++ b) = wes a + wes b.
Proof. unfold wes. induction a as [|x a IH]; cbn [app fold_right]; [lia|]. rewrite IH. lia. Qed.
Lemma wes_flat_node : forall n t, wes (flat_node t n) = wn n.
Proof.
  refine (node_ind' _ _ _ _ _); intros; cbn [flat_node]; try (unfold wes; cbn; lia).
  - change (wes (?a :: ?l)) with (we a + wes l). cbn [we]. rewrite wes_app. cbn [wn]. change (wes [DEnd]) with 0.
    assert (Hx : wes (flat_map (fun f => flat_node (fst f) (snd f)) fs) = fold_right (fun f x => wn (snd f) + x) 0 fs); [|lia].
    induction H as [|f fs Hf Hfs IH]; [reflexivity|]. cbn [flat_map fold_right]. rewrite wes_app, Hf, IH. reflexivity.
  - change (wes (?a :: ?l)) with (we a + wes l). cbn [we]. rewrite wes_app. cbn [wn]. change (wes [DEnd]) with 0.
    assert (Hx : wes (flat_map (fun f => flat_node (fst f) (snd f)) fs) = fold_right (fun f x => wn (snd f) + x) 0 fs); [|lia].
    induction H as [|f fs Hf Hfs IH]; [reflexivity|]. cbn [flat_map fold_right]. rewrite wes_app, Hf, IH. reflexivity.
Qed.
Lemma wes_flat ks : wes (flat ks) = wf ks.
Proof. unfold flat. induction ks as [|f ks IH]; [reflexivity|]. cbn [flat_map]. rewrite wes_app, wes_flat_node, IH. reflexivity. Qed.

Lemma hdr_nonempty h b : hdr_enc h b -> 1 <= lenN b.
Proof. intros H. destruct H; cbn [app]; rewrite ?lenN_cons; try lia; unfold lenN; cbn; lia. Qed.
Lemma elem_weight e b : elem_enc e b -> we e <= lenN b /\ 1 <= lenN b.
Proof.
  intros (h & Hh & _ & ->). pose proof (hdr_nonempty _ _ Hh) as H1. rewrite lenN_app. split; [|lia].
  destruct e as [t []| | | |]; cbn [we payload]; lia.
Qed.
Lemma elems_weight es b : elems_enc es b -> wes es <= lenN b /\ wes es + lenN (filter (fun e => we e =? 0) es) <= lenN b.
Proof.
  induction 1 as [|e es b bs He Hes [IH1 IH2]]; [cbn; unfold lenN; cbn; lia|].
  destruct (elem_weight _ _ He) as [W1 W2]. change (wes (e :: es)) with (we e + wes es). rewrite lenN_app. split; [lia|].
  cbn [filter]. destruct (we e =? 0) eqn:E; [apply N.eqb_eq in E; rewrite lenN_cons; lia|lia].
Qed.
Lemma wes_filter p es : (forall x, In x es -> p x = false -> we x = 0) -> wes (filter p es) = wes es.
Proof.
  induction es as [|x es IH]; intros H; [reflexivity|]. cbn [filter]. change (wes (x :: es)) with (we x + wes es).
  destruct (p x) eqn:E; [change (wes (x :: filter p es)) with (we x + wes (filter p es)); rewrite IH; [reflexivity|]|rewrite (H x (or_introl eq_refl) E), IH; [reflexivity|]];
    intros y Hy; apply H; now right.
Qed.
Lemma ends_weight k : wes (repeat DEnd k) = 0.
Proof. induction k; [reflexivity|]. cbn [repeat]. change (wes (DEnd :: repeat DEnd k)) with (0 + wes (repeat DEnd k)). lia. Qed.
Lemma closes_weight es ks : closes es ks -> wes es = wf ks /\ exists x, In x es /\ we x = 0.
Proof.
  intros [->|(X & k & HX & ->)].
  - unfold document. rewrite wes_app, wes_flat. change (wes [DEnd]) with 0. split; [lia|]. exists DEnd. split; [|reflexivity]. apply in_or_app. right. now left.
  - assert (H : wes (document ks) = wf ks) by (unfold document; rewrite wes_app, wes_flat; change (wes [DEnd]) with 0; lia).
    rewrite HX, wes_app, ends_weight in H. rewrite wes_app. change (wes [DEof]) with 0. split; [lia|].
    exists DEof. split; [|reflexivity]. apply in_or_app. right. now left.
Qed.
Lemma document_weight es ks b : encodes es b -> closes (filter not_exc es) ks -> wf ks + 1 <= lenN b.
Proof.
  intros (es' & Hen & Hf) Hc. destruct (closes_weight _ _ Hc) as (Hw & x & Hx & Hx0).
  apply filter_In in Hx. destruct Hx as [Hx _]. rewrite <- Hf in Hx. apply filter_In in Hx. destruct Hx as [Hx _].
  rewrite wes_filter in Hw by (intros [] _ Hy; try discriminate; reflexivity).
  rewrite <- Hf in Hw. rewrite wes_filter in Hw by (intros [] _ Hy; try discriminate; reflexivity).
  destruct (elems_weight _ _ Hen) as [_ H]. assert (Hi : In x (filter (fun e => we e =? 0) es')) by (apply filter_In; split; [exact Hx|now apply N.eqb_eq]).
  destruct (filter (fun e => we e =? 0) es') as [|y l]; [elim Hi|]. rewrite lenN_cons in H. lia.
Qed.

(** The same document without the exceptions. *)
Lemma without_exc es b : encodes es b -> bytes_ok b -> exists b', encodes (filter not_exc es) b' /\ bytes_ok b' /\ lenN b' <= lenN b.
Proof.
  intros (es' & Hen & <-) Hok. revert Hok. induction Hen as [|e es b bs He Hes IH]; intros Hok.
  - exists []. split; [exists []; split; [constructor|reflexivity]|]. split; [constructor|lia].
  - apply Forall_app in Hok. destruct Hok as [Ho1 Ho2]. destruct (IH Ho2) as (b' & (l & H1 & H2) & H3 & H4).
    rewrite lenN_app. destruct (not_pad e) eqn:Ep; cbn [filter]; rewrite Ep.
    + cbn [filter]. destruct (not_exc e) eqn:Ee.
      * exists (b ++ b'). split; [exists (e :: l); split; [now constructor|cbn [filter]; now rewrite Ep, H2]|]. split; [now apply Forall_app|rewrite lenN_app; lia].
      * exists b'. split; [exists l; auto|]. split; [exact H3|lia].
    + exists b'. split; [exists l; auto|]. split; [exact H3|lia].
Qed.

Theorem no_amplification e zc cf t dbg sk bs sched v s' : usable e zc cf t -> bytes_ok bs -> 2 * lenN bs + 3 < U64_MAX ->
  from_stream e zc cf t (new_stream dbg sk (mkDev bs 0 sched)) = (ROk v, s') ->
  coll_count v + copied e v zc t + 1 <= s_pos s'.
Proof.
  intros Hu Hok Hl H. destruct (consumed_exactly e zc cf t dbg sk bs sched v s' Hu Hok Hl H) as (b0 & tl & es & ks & x & -> & Hen & Hcl & Hd & Hf & Hp & _).
  rewrite Hp. pose proof (document_weight _ _ _ Hen Hcl) as Hw. pose proof (cost_bound _ _ _ _ _ _ _ Hd) as Hc.
  apply Forall_app in Hok. destruct Hok as [Hok _]. rewrite lenN_app in Hl. destruct (without_exc _ _ Hen Hok) as (b' & Hen' & Hok' & Hl').
  set (cf' := mkCfg (cf_rec cf) (cf_ignore cf) (k_blob x) (k_coll x)).
  destruct Hu as (He & Ht & Hcc & Hbb). destruct Hf as (F1 & F2 & F3).
  assert (Hu' : usable e zc cf' t) by (repeat split; auto; cbn; lia).
  pose proof (document_accepted e zc cf' t dbg sk b' [] ks v x Hu' Hok' ltac:(lia) (Forall_nil _)) as HA.
  specialize (HA (ex_intro _ b' (ex_intro _ [] (ex_intro _ _ (conj (eq_sym (app_nil_r b')) (conj Hen' Hcl)))))  Hd ltac:(repeat split; cbn; lia)).
  destruct (from_stream e zc cf' t (new_stream dbg sk (mkDev b' 0 []))) as [r s1] eqn:E. cbn [fst] in HA. subst r.
  destruct Hu' as (_ & _ & U3 & U4).
  pose proof (stream_copied e zc cf' t dbg sk false b' [] v s1 He Ht U3 U4 Hok' ltac:(lia) E) as A1.
  pose proof (stream_collected e zc cf' t dbg sk false b' [] v s1 He Ht U3 U4 Hok' ltac:(lia) E) as A2.
  cbn [cf' cf_blob cf_collect] in A1, A2. lia.
Qed.

(** Limits as large as the input never make a difference. *)
Theorem input_sized e zc cf cf' t dbg sk bs sched v : usable e zc cf t -> usable e zc cf' t -> bytes_ok bs -> 2 * lenN bs + 3 < U64_MAX ->
  Forall (fun y => y <> EvFail) sched -> exception_free bs -> cf_rec cf' <= cf_rec cf -> cf_ignore cf' = cf_ignore cf ->
  lenN bs <= cf_collect cf + 1 -> lenN bs <= cf_blob cf + 1 ->
  fst (from_stream e zc cf' t (new_stream dbg sk (mkDev bs 0 sched))) = ROk v ->
  fst (from_stream e zc cf t (new_stream dbg sk (mkDev bs 0 sched))) = ROk v.
Proof.
  intros Hu Hu' Hok Hl Hs Hx Hr Hi Lc Lb H.
  apply (accepted_exactly e zc cf' t dbg sk bs sched v Hu' Hok Hl Hs Hx) in H. destruct H as (ks & x & Hb & Hd & Hf).
  apply (accepted_exactly e zc cf t dbg sk bs sched v Hu Hok Hl Hs Hx). exists ks, x. rewrite Hi in Hd. split; [exact Hb|]. split; [exact Hd|].
  destruct Hb as (b0 & tl & es & -> & Hen & Hcl). 
  assert (Hfl : filter not_exc es = es).
  { assert (Hno : forall m, ~ In (DExc m) es) by (intros m; exact (Hx b0 tl es m eq_refl Hen)). clear -Hno.
    induction es as [|y r IH]; [reflexivity|]. cbn [filter]. rewrite IH by (intros m Hin; exact (Hno m (or_intror Hin))).
    destruct y; try reflexivity. exfalso. exact (Hno _ (or_introl eq_refl)). }
  rewrite <- Hfl in Hcl. pose proof (document_weight _ _ _ Hen Hcl) as Hw. pose proof (cost_bound _ _ _ _ _ _ _ Hd) as Hc.
  rewrite lenN_app in *. destruct Hf as (F1 & F2 & F3). repeat split; lia.
Qed.

(** Input without the byte 0x80 holds no exception. *)
Lemma no_80_free bs : ~ In 0x80 bs -> exception_free bs.
Proof.
  intros Hn b0 tl es m -> (es' & He & <-) Hin. apply filter_In in Hin. destruct Hin as [Hin _].
  apply Hn. apply in_or_app. left. clear Hn tl. induction He as [|y r b bs Hy _ IH]; [contradiction|].
  apply in_or_app. destruct Hin as [->|Hin]; [left|right; exact (IH Hin)].
  destruct Hy as (h & Hh & _ & ->). apply in_or_app. left. inversion Hh; subst. now left.
Qed.
