(** * P_Dict: what every deserialiser guarantees, whatever it reads *)

From Verif Require Import Base Wire Dev Stream Types Ser Prog De SpecFormat SpecDe
  P_Base P_Types P_Prog P_Wp.

Lemma find_tag_some {A} tag (l : list (string * N * A)) i nm a : find_tag tag l = Some (i, nm, a) ->
  nth_error l i = Some (nm, tag, a).
Proof.
  revert i; induction l as [|[[n t] x] r IH]; intros i; cbn; [discriminate|].
  destruct (N.eqb_spec t tag) as [->|Hn].
  - intros H. injection H as <- <- <-. reflexivity.
  - destruct (find_tag tag r) as [[[j n'] x']|]; [|discriminate]. intros H. injection H as <- <- <-. cbn. now apply IH.
Qed.
Lemma find_tag_none {A} tag (l : list (string * N * A)) : find_tag tag l = None -> ~ In tag (map (fun f => snd (fst f)) l).
Proof.
  induction l as [|[[n t] x] r IH]; cbn; [auto|].
  destruct (N.eqb_spec t tag) as [->|Hn]; [discriminate|].
  destruct (find_tag tag r) as [[[j n'] x']|]; [discriminate|]. intros _ [H|H]; [congruence|]. now apply IH.
Qed.

Ltac acbn := cbn [a_open a_cur a_rem a_meas a_coll a_blob a_path op_wp fst snd] in *.
Section D.
  Variable cf : cfg.
  Variable e : env.

  Definition pre (m : N) (s : astate) : Prop := m <= a_path s /\ a_path s <= cf_rec cf /\ a_meas s <= U64_MAX.
  Definition at_field (s : astate) (tag : N) (v : vhdr) (lv : nat) : Prop :=
    hdr_ok tag v /\ a_cur s = Some (v, lv) /\ a_open s = (lv + nest v)%nat /\ a_rem s = blob_len v.
  Definition done (lv : nat) (s s' : astate) : Prop :=
    a_open s' = lv /\ a_path s' = a_path s /\ a_meas s' <= a_meas s /\ a_coll s <= a_coll s' /\ a_blob s <= a_blob s'.
  Definition vok (zc : bool) (t : ty) (nf : needs -> N) (p : N) (v : value) (c b : N) : Prop :=
    has_type e v t /\ p + nf (need e v t) <= cf_rec cf /\ coll_count v <= c /\ copied e v zc t <= b.

  Definition AIt := N -> acc -> N -> N -> Prop.

  (** The part of an impl used by the body it is a field of. *)
  Record dict_ok (TP : N -> Prop) (AI : AIt) (m : N) (zc : bool) (t : ty) (d : dict) : Prop := mkDok {
    di_init : forall p, AI p (d_init d) 0 0;
    di_field : forall s a ca cb tag v lv, pre m s -> at_field s tag v lv -> TP tag -> AI (a_path s) a ca cb ->
      wpp cf (d_field d a tag v) (fun a' s' => done lv s s' /\ exists ca' cb', AI (a_path s) a' ca' cb' /\
        ca' <= ca + (a_coll s' - a_coll s) /\ cb' <= cb + (a_blob s' - a_blob s)) s;
    di_fin : forall s a ca cb, pre m s -> AI (a_path s) a ca cb ->
      wpp cf (d_fin d a) (fun x s' => s' = s /\ vok zc t n_field (a_path s) x ca cb /\
        (unknown_like t = true -> forall fs, x = VUnk fs -> Forall (fun f => TP (fst f)) fs)) s
  }.
  Definition conv_ok (nf : needs -> N) (m : N) (zc : bool) (t : ty) (conv : N -> vhdr -> prog value) : Prop :=
    forall s tag v lv, pre m s -> at_field s tag v lv ->
      wpp cf (conv tag v) (fun x s' => done lv s s' /\
        vok zc t nf (a_path s) x (a_coll s' - a_coll s) (a_blob s' - a_blob s)) s.
  Definition elem_ok m zc t d := conv_ok n_elem m zc t (d_elem d).
  Definition body_ok (nf : needs -> N) (m : N) (zc : bool) (t : ty) (body : prog value) : Prop :=
    forall s lv, pre m s -> a_open s = S lv ->
      wpp cf body (fun x s' => done lv s s' /\ a_cur s' = None /\
        vok zc t nf (a_path s) x (a_coll s' - a_coll s) (a_blob s' - a_blob s)) s.
  Definition good (m : N) (zc : bool) (t : ty) (d : dict) : Prop :=
    (forall TP, exists AI, dict_ok TP AI m zc t d) /\ elem_ok m zc t d /\ body_ok n_body m zc t (d_body d).
  Definition anytag (_ : N) : Prop := True.

  (** ** Bodies *)
  Inductive fields_ok (m : N) (zc : bool) : list fdict -> list ty -> list AIt -> Prop :=
  | FoNil : fields_ok m zc [] [] []
  | FoCons f fs t ts (AI : AIt) (AIs : list AIt) : dict_ok anytag AI m zc t (fdict_d f) -> fields_ok m zc fs ts AIs ->
      fields_ok m zc (f :: fs) (t :: ts) (AI :: AIs).
  Inductive accs_ok (p : N) : list AIt -> list acc -> N -> N -> Prop :=
  | AoNil : accs_ok p [] [] 0 0
  | AoCons (AI : AIt) (AIs : list AIt) a accs ca cb ca' cb' : AI p a ca cb -> accs_ok p AIs accs ca' cb' ->
      accs_ok p (AI :: AIs) (a :: accs) (ca + ca') (cb + cb').

  Lemma fields_nth m zc fs ts AIs : fields_ok m zc fs ts AIs -> forall i nm tag d, nth_error fs i = Some (nm, tag, d) ->
    exists t AI, nth_error AIs i = Some AI /\ nth_error ts i = Some t /\ dict_ok anytag AI m zc t d.
  Proof.
    induction 1 as [|f fs t ts AI AIs Hd Hf IH]; intros [|i] nm tag d; cbn; try discriminate.
    - intros H. injection H as ->. exists t, AI. auto.
    - apply IH.
  Qed.
  Lemma inits_ok m zc fs ts AIs p : fields_ok m zc fs ts AIs -> accs_ok p AIs (inits fs) 0 0.
  Proof.
    induction 1 as [|f fs t ts AI AIs Hd Hf IH]; cbn; [constructor|].
    change 0 with (0 + 0). constructor; [apply (di_init _ _ _ _ _ _ Hd)|exact IH].
  Qed.
  Lemma accs_upd p AIs accs ca cb : accs_ok p AIs accs ca cb -> forall i AI, nth_error AIs i = Some AI ->
    exists c1 b1 c2 b2, AI p (nth i accs (AOpt None)) c1 b1 /\ c1 + c2 = ca /\ b1 + b2 = cb /\
      forall a' c b, AI p a' c b -> accs_ok p AIs (upd i a' accs) (c + c2) (b + b2).
  Proof.
    induction 1 as [|AI0 AIs a accs c0 b0 ca cb Ha Hr IH]; intros [|i] AI; cbn; try discriminate.
    - intros H. injection H as ->. exists c0, b0, ca, cb. repeat split; auto. intros. now constructor.
    - intros H. destruct (IH i AI H) as (c1 & b1 & c2 & b2 & H1 & H2 & H3 & H4).
      exists c1, b1, (c0 + c2), (b0 + b2). repeat split; auto; try lia.
      intros a' c b Hb. specialize (H4 a' c b Hb).
      replace (c + (c0 + c2)) with (c0 + (c + c2)) by lia. replace (b + (b0 + b2)) with (b0 + (b + b2)) by lia.
      now constructor.
  Qed.

  Lemma astate_eq s o c r m cl b p : o = a_open s -> c = a_cur s -> r = a_rem s -> m = a_meas s -> cl = a_coll s ->
    b = a_blob s -> p = a_path s -> mkA o c r m cl b p = s.
  Proof. intros. subst. destruct s; reflexivity. Qed.

  Definition recs_ok (zc : bool) (ts : list ty) (p : N) (vs : list value) (c b : N) : Prop :=
    Forall2 (has_type e) vs ts /\
    p + up (zipw (fun x t => n_field (need e x t)) vs ts) <= cf_rec cf /\
    sumN (map coll_count vs) <= c /\ sumN (zipw (fun x t => copied e x zc t) vs ts) <= b.

  Lemma up_cons x l p r : p + 1 + x <= r -> p + up l <= r -> p + up (x :: l) <= r.
  Proof. unfold up, maxN. destruct l; cbn [fold_right]; lia. Qed.

  Lemma finish_one_ok TP AI m zc t nm d s a ca cb : dict_ok TP AI (m + 1) zc t d -> pre m s -> AI (a_path s + 1) a ca cb ->
    wpp cf (finish_one nm d a) (fun x s' => s' = s /\ vok zc t n_field (a_path s + 1) x ca cb /\
      (unknown_like t = true -> forall fs, x = VUnk fs -> Forall (fun f => TP (fst f)) fs)) s.
  Proof.
    intros Hd (P1 & P2 & P3) Ha. unfold finish_one. apply wpp_do. cbn [op_wp]. intros Hlt. split; [discriminate|].
    apply wpp_bind. eapply wpp_mono; [|eapply (di_fin _ _ _ _ _ _ Hd)].
    - intros x s' (-> & Hv & Hu). apply wpp_do. cbn [op_wp wpp]. split; [|split; [exact Hv|exact Hu]].
      apply astate_eq; cbn; auto; lia.
    - unfold pre; cbn; lia.
    - exact Ha.
  Qed.

  Lemma finish_all_ok m zc fs ts AIs : fields_ok (m + 1) zc fs ts AIs -> forall accs ca cb s,
    pre m s -> accs_ok (a_path s + 1) AIs accs ca cb ->
    wpp cf (finish_all fs accs) (fun vs s' => s' = s /\ recs_ok zc ts (a_path s) vs ca cb) s.
  Proof.
    induction 1 as [|[[nm tag] d] fs t ts AI AIs Hd Hf IH]; intros accs ca cb s Hp Ha.
    - inversion Ha; subst. cbn [finish_all wpp]. split; [reflexivity|]. unfold recs_ok. cbn.
      destruct Hp as (P1 & P2 & P3). repeat split; try lia. constructor.
    - inversion Ha as [|? ? a accs' c0 b0 c1 b1 Ha1 Ha2]; subst. cbn [finish_all]. apply wpp_bind.
      eapply wpp_mono; [|eapply finish_one_ok; eauto].
      intros v s' (-> & (V1 & V2 & V3 & V4) & _). apply wpp_bind.
      eapply wpp_mono; [|apply (IH _ _ _ _ Hp Ha2)].
      intros vs s' (-> & R1 & R2 & R3 & R4). cbn [wpp]. split; [reflexivity|].
      unfold recs_ok. split; [now constructor|]. split; [|split].
      + cbn [zipw]. apply up_cons; [lia|exact R2].
      + cbn [map sumN fold_right]. unfold sumN in R3. lia.
      + cbn [zipw sumN fold_right]. unfold sumN in R4. lia.
  Qed.

  (** The [(?)] field. *)
  Definition utys (u : option (string * dict * ty)) : list ty := match u with Some (_, _, t) => [t] | None => [] end.
  Definition uopt (u : option (string * dict * ty)) : option (string * dict) :=
    match u with Some (nm, d, _) => Some (nm, d) | None => None end.
  Definition unk_post (fs : list fdict) (u : option (string * dict * ty)) (vs : list value) : Prop :=
    match u with
    | Some (_, _, t) => unknown_like t = true -> forall ns, last vs VPhantom = VUnk ns ->
        Forall (fun f => ~ In (fst f) (map (fun f => snd (fst f)) fs)) ns
    | None => True
    end.

  Lemma des_body_ok m zc fs ts AIs u : fields_ok (m + 1) zc fs ts AIs ->
    (forall nm d t, u = Some (nm, d, t) -> good (m + 1) zc t d) ->
    forall s lv, pre m s -> a_open s = S lv ->
    wpp cf (des_body fs (uopt u)) (fun vs s' => done lv s s' /\ a_cur s' = None /\
      recs_ok zc (ts ++ utys u) (a_path s) vs (a_coll s' - a_coll s) (a_blob s' - a_blob s) /\
      unk_post fs u vs) s.
  Proof.
    intros Hfs Hu s lv Hp Ho.
    set (UT := fun tag => ~ In tag (map (fun f : fdict => snd (fst f)) fs)).
    assert (Hua : exists UAI : AIt, forall nm d t, u = Some (nm, d, t) -> dict_ok UT UAI (m + 1) zc t d).
    { destruct u as [[[nm d] t]|].
      - destruct (proj1 (Hu nm d t eq_refl) UT) as [AI HAI]. exists AI. intros nm' d' t' H. injection H as <- <- <-. exact HAI.
      - exists (fun _ _ _ _ => True). discriminate. }
    destruct Hua as [UAI HUAI].
    set (p := a_path s).
    set (Uok := fun (ua : acc) c b => match u with Some _ => UAI (p + 1) ua c b | None => c = 0 /\ b = 0 end).
    unfold des_body. apply wpp_bind.
    eapply wpp_mono with (Q := fun (st : list acc * acc) s' => 
       a_open s' = lv /\ a_path s' = p /\ a_meas s' <= a_meas s /\ a_coll s <= a_coll s' /\ a_blob s <= a_blob s' /\
       a_cur s' = None /\ exists ca cb c2 b2, accs_ok (p + 1) AIs (fst st) ca cb /\ Uok (snd st) c2 b2 /\
         ca + c2 <= a_coll s' - a_coll s /\ cb + b2 <= a_blob s' - a_blob s).
    2: { eapply wpp_ploop with (Inv := fun (st : list acc * acc) s' =>
           a_open s' = S lv /\ a_path s' = p /\ a_meas s' <= a_meas s /\ a_coll s <= a_coll s' /\ a_blob s <= a_blob s' /\
           exists ca cb c2 b2, accs_ok (p + 1) AIs (fst st) ca cb /\ Uok (snd st) c2 b2 /\
             ca + c2 <= a_coll s' - a_coll s /\ cb + b2 <= a_blob s' - a_blob s).
      - intros [accs ua] s1 (I1 & I2 & I3 & I4 & I5 & ca & cb & c2 & b2 & I6 & I7 & I8 & I9). cbn [fst snd] in *.
        destruct Hp as (P1 & P2 & P3).
        unfold body_step. apply wpp_do. cbn [op_wp]. split; [lia|]. split.
        + intros ms Hms. cbn [wpp]. cbn. repeat (split; [lia || reflexivity || exact I2|]).
          exists ca, cb, c2, b2. auto.
        + intros tag v ms Hok Hms.
          assert (Hfield : forall TP AI t d nm a c1 b1, dict_ok TP AI (m + 1) zc t d -> TP tag -> AI (p + 1) a c1 b1 ->
            forall K : acc -> prog ((list acc * acc) + (list acc * acc)), forall Q,
            (forall a' s' c b, AI (p + 1) a' c b -> a_open s' = S lv -> a_path s' = p -> a_meas s' < a_meas s1 ->
               a_coll s1 <= a_coll s' -> a_blob s1 <= a_blob s' ->
               c <= c1 + (a_coll s' - a_coll s1) -> b <= b1 + (a_blob s' - a_blob s1) -> wpp cf (K a') Q s') ->
            wpp cf (pbind (pdo (OPush true nm)) (fun _ => pbind (d_field d a tag v) (fun a' => pbind (pdo OPop) (fun _ => K a')))) Q
              (mkA (a_open s1 + nest v) (Some (v, a_open s1)) (blob_len v) ms (a_coll s1) (a_blob s1) (a_path s1))).
          { intros TP AI t d nm a c1 b1 Hd Htp Ha K Q HK. apply wpp_do. cbn [op_wp a_path]. intros Hlt.
            split; [intros _; exact I|]. apply wpp_bind. acbn.
            eapply wpp_mono; [|eapply (di_field _ _ _ _ _ _ Hd)].
            - intros a' s' ((D1 & D2 & D3 & D4 & D5) & c & b & A1 & A2 & A3). acbn.
              rewrite I2 in *. apply wpp_do. acbn.
              eapply HK; acbn; eauto; lia.
            - unfold pre. cbn. lia.
            - unfold at_field. acbn. rewrite I1. repeat split; auto; try apply Hok.
            - exact Htp.
            - cbn. rewrite I2. exact Ha. }
          destruct (find_tag tag fs) as [[[i nm] d]|] eqn:Ef.
          * apply find_tag_some in Ef. destruct (fields_nth _ _ _ _ _ Hfs _ _ _ _ Ef) as (t & AI & N1 & N2 & Hd).
            destruct (accs_upd _ _ _ _ _ I6 i AI N1) as (c1 & b1 & c3 & b3 & U1 & U2 & U3 & U4).
            eapply Hfield; [exact Hd|exact I|exact U1|].
            intros a' s' c b Ha' O1 O2 O3 O4 O5 O6 O7. cbn [wpp].
            split; [|exact O3]. repeat (split; [lia || assumption|]).
            exists (c + c3), (b + b3), c2, b2. cbn [fst snd]. split; [now apply U4|]. split; [exact I7|]. lia.
          * apply find_tag_none in Ef. destruct u as [[[nm d] t]|] eqn:Eu; cbn [uopt].
            -- eapply Hfield; [exact (HUAI _ _ _ eq_refl)|exact Ef|exact I7|].
               intros a' s' c b Ha' O1 O2 O3 O4 O5 O6 O7. cbn [wpp].
               split; [|exact O3]. repeat (split; [lia || assumption|]).
               exists ca, cb, c, b. cbn [fst snd]. split; [exact I6|]. split; [exact Ha'|]. lia.
            -- apply wpp_do. cbn [op_wp]. split; [exact I|]. intros _. apply wpp_do. cbn [op_wp a_cur]. intros m2 Hm2. cbn in Hm2.
               cbn [wpp]. cbn. split; [|lia]. repeat (split; [lia || assumption|]).
               exists ca, cb, c2, b2. auto.
      - repeat (split; [lia || assumption || reflexivity|]).
        exists 0, 0, 0, 0. split; [eapply inits_ok; eauto|]. split; [|lia].
        unfold Uok. destruct u as [[[nm d] t]|]; cbn [uopt snd]; [|auto]. apply (di_init _ _ _ _ _ _ (HUAI _ _ _ eq_refl)).
      - apply Hp. }
    intros [accs ua] s1 (J1 & J2 & J3 & J4 & J5 & J6 & ca & cb & c2 & b2 & J7 & J8 & J9 & J10). cbn [fst snd] in *.
    destruct Hp as (P1 & P2 & P3).
    assert (Hp1 : pre m s1) by (unfold pre; rewrite J2; unfold p; lia).
    assert (Hd1 : done lv s s1) by (unfold done; auto).
    apply wpp_bind. eapply wpp_mono; [|eapply finish_all_ok; [exact Hfs|exact Hp1|rewrite J2; exact J7]].
    intros vs s2 (-> & R1 & R2 & R3 & R4). rewrite J2 in R2.
    destruct u as [[[nm d] t]|]; cbn [uopt utys].
    - apply wpp_bind. eapply wpp_mono; [|eapply finish_one_ok; [exact (HUAI _ _ _ eq_refl)|exact Hp1|rewrite J2; exact J8]].
      intros v s3 (-> & (V1 & V2 & V3 & V4) & V5). cbn [wpp]. split; [exact Hd1|]. split; [exact J6|]. rewrite J2 in V2.
      split.
      + assert (Hl : List.length vs = List.length ts) by (eapply Forall2_len; eauto).
        unfold recs_ok. rewrite !zipw_app by exact Hl. cbn [zipw].
        split; [apply Forall2_app; auto|]. rewrite map_app, !sumN_app. cbn [map sumN fold_right].
        split; [|split; lia].
        clear - V2 R2. unfold up in *. set (l := zipw _ vs ts) in *.
        destruct l; [cbn; lia|]. cbn [app]. change (n :: l ++ [n_field (need e v t)]) with ((n :: l) ++ [n_field (need e v t)]).
        rewrite maxN_app. cbn [maxN fold_right] in *. lia.
      + cbn [unk_post]. intros Hl ns. rewrite last_last. intros ->. apply (V5 Hl ns eq_refl).
    - cbn [wpp]. rewrite app_nil_r. split; [exact Hd1|]. split; [exact J6|]. split; [|exact I].
      unfold recs_ok. unfold p in *. repeat split; auto; try lia.
  Qed.

  Lemma body_default_ok AI m zc t d : dict_ok anytag AI (m + 1) zc t d -> body_ok (fun n => 1 + n_field n) m zc t (body_default d).
  Proof.
    intros Hd s lv Hp Ho. unfold body_default. apply wpp_bind.
    eapply wpp_mono; [|apply (des_body_ok m zc [("top"%string, 1, d)] [t] [AI] None) with (lv := lv); auto].
    - intros vs s' (D & C & (R1 & R2 & R3 & R4) & _). cbn [utys app] in *.
      inversion R1 as [|v ? vs' ? V1 V2]; subst. inversion V2; subst. cbn [wpp].
      split; [exact D|]. split; [exact C|]. cbn in R2, R3, R4. unfold vok. repeat split; auto; lia.
    - constructor; [exact Hd|constructor].
    - discriminate.
  Qed.
  Lemma pre_weaken m m' s : pre m' s -> m <= m' -> pre m s.
  Proof. unfold pre. lia. Qed.
  Lemma dict_ok_weaken TP AI m m' zc t d : dict_ok TP AI m zc t d -> m <= m' -> dict_ok TP AI m' zc t d.
  Proof.
    intros [H1 H2 H3] Hm. constructor; [auto| |]; intros; [eapply H2|eapply H3]; eauto using pre_weaken.
  Qed.
  Lemma good_weaken m m' zc t d : good m zc t d -> m <= m' -> good m' zc t d.
  Proof.
    intros (Hg & He & Hb) Hm. split; [|split].
    - intros TP. destruct (Hg TP) as [AI H]. exists AI. eapply dict_ok_weaken; eauto.
    - intros s tag v lv Hp. apply He. eauto using pre_weaken.
    - intros s lv Hp. apply Hb. eauto using pre_weaken.
  Qed.
End D.
