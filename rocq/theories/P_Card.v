(** * P_Card: how often fields occur (C33) *)

From Verif Require Import Base Wire Dev Stream Types Ser Prog De SpecFormat SpecStream SpecDe SpecDoc SpecRead SpecCard Tree
  P_Base P_Types P_Dict P_Prog P_Tree P_TreeRun P_Means P_Meaning P_Order P_Unk.
Strategy 1000 [s_decode_u64 decode_u64 decode_loop write_all read_exact encode_u64 enc_loop encode_fixed_u64 mloop miter].

(** ** Accumulators *)
Section Acc.
  Variables (cf : cfg) (fs : list tfdict) (unk : option (string * tdict)) (tag : N) (i : nat) (nm : string) (d : tdict).
  Hypothesis Hf : find_tag tag fs = Some (i, nm, d).
  Variable P : acc -> N -> Prop.
  Hypothesis Hstep : forall a k n c a' c', P a k -> t_field d a tag n c = (ROk a', c') -> P a' (k + 1).

  Lemma nth_upd_same {A} j (a : A) l x : (j < List.length l)%nat -> nth j (upd j a l) x = a.
  Proof. revert j. induction l as [|y l IH]; intros [|j] H; cbn in *; try lia; auto. apply IH. lia. Qed.
  Lemma nth_upd_other {A} j k (a : A) l x : j <> k -> nth j (upd k a l) x = nth j l x.
  Proof. revert j k. induction l as [|y l IH]; intros [|j] [|k] H; cbn; try congruence; auto. Qed.

  Lemma step_inv st t n c st' c' : t_step cf fs unk st t n c = (ROk st', c') ->
    match find_tag t fs with
    | Some (j, _, dj) => exists a c1 c2, t_field dj (nth j (fst st) (AOpt None)) t n c1 = (ROk a, c2) /\ fst st' = upd j a (fst st)
    | None => fst st' = fst st
    end.
  Proof.
    destruct st as [accs ua]. unfold t_step. cbn [fst]. destruct (find_tag t fs) as [[[j nm'] dj]|].
    - intros H. apply mbind_inv_ok in H. destruct H as (u & c1 & _ & H). apply mbind_inv_ok in H. destruct H as (a & c2 & H1 & H).
      apply mbind_inv_ok in H. destruct H as (u' & c3 & _ & H). injection H as <- <-. exists a, c1, c2. auto.
    - destruct unk as [[nm' du]|].
      + intros H. apply mbind_inv_ok in H. destruct H as (u & c1 & _ & H). apply mbind_inv_ok in H. destruct H as (a & c2 & H1 & H).
        apply mbind_inv_ok in H. destruct H as (u' & c3 & _ & H). injection H as <- <-. reflexivity.
      + intros H. apply mbind_inv_ok in H. destruct H as (u & c1 & _ & H). injection H as <- <-. reflexivity.
  Qed.
  Lemma acc_count A : forall k st c st' c', List.length (fst st) = List.length fs -> P (nth i (fst st) (AOpt None)) k ->
    t_loop (t_step cf fs unk) st A c = (ROk st', c') ->
    P (nth i (fst st') (AOpt None)) (k + lenN (with_tag tag A)) /\ List.length (fst st') = List.length fs.
  Proof.
    pose proof (find_tag_some _ _ _ _ _ Hf) as Hn.
    assert (Hi : (i < List.length fs)%nat) by (apply nth_error_Some; intros Hx; pose proof (eq_trans (eq_sym Hn) Hx) as Hy; discriminate Hy).
    induction A as [|[t n] A IH]; intros k st c st' c' Hl HP H; cbn [t_loop with_tag filter fst] in *.
    - injection H as <- <-. change (lenN (@nil (N * node))) with 0. rewrite N.add_0_r. auto.
    - apply mbind_inv_ok in H. destruct H as (st1 & c1 & H1 & H). apply step_inv in H1. fold (with_tag tag A).
      destruct (N.eqb_spec t tag) as [-> |Ht].
      + rewrite Hf in H1. destruct H1 as (a & c2 & c3 & H1 & E1).
        rewrite lenN_cons. replace (k + (lenN (with_tag tag A) + 1)) with ((k + 1) + lenN (with_tag tag A)) by lia.
        apply (IH (k + 1) st1 c1 st' c'); auto; rewrite E1; [now rewrite upd_len|]. rewrite nth_upd_same by lia. exact (Hstep _ _ _ _ _ _ HP H1).
      + apply (IH k st1 c1 st' c'); auto.
        * destruct (find_tag t fs) as [[[j nm'] dj]|]; [destruct H1 as (a & c2 & c3 & _ & ->); now rewrite upd_len|now rewrite H1].
        * destruct (find_tag t fs) as [[[j nm'] dj]|] eqn:Ej; [|now rewrite H1]. destruct H1 as (a & c2 & c3 & _ & ->).
          rewrite nth_upd_other; [exact HP|]. intros ->. apply find_tag_some in Ej. congruence.
  Qed.
End Acc.

(** The accumulators of the others. *)
Lemma acc_others cf fs unk tag i nm d X : find_tag tag fs = Some (i, nm, d) -> Forall (fun f => fst f = tag) X -> forall st c st' c',
  t_loop (t_step cf fs unk) st X c = (ROk st', c') -> forall j, j <> i -> nth j (fst st') (AOpt None) = nth j (fst st) (AOpt None).
Proof.
  intros Hf HX. induction HX as [|[t n] X E HX IH]; intros st c st' c' H j Hj; cbn [t_loop] in H.
  - now injection H as <- <-.
  - cbn in E. subst t. apply mbind_inv_ok in H. destruct H as (st1 & c1 & H1 & H). apply step_inv in H1. rewrite Hf in H1.
    destruct H1 as (a & c2 & c3 & _ & E). rewrite (IH _ _ _ _ H j Hj), E. now apply nth_upd_other.
Qed.

(** ** Types *)
Section Types.
  Variables (cf : cfg) (U : nat) (im : bool -> nat -> tdict).
  Notation td zc t := (t_dict_of cf U im zc t).

  (** [bounded d k n x]: a further occurrence [n] after [k] others is the error [x]. *)
  Definition bounded (d : tdict) (n : node) (k : N) (x : ekind) : Prop :=
    exists P : acc -> N -> Prop, P (t_init d) 0 /\
      (forall a j tag n c a' c', P a j -> t_field d a tag n c = (ROk a', c') -> P a' (j + 1)) /\
      (forall a tag c, P a k -> exists c', t_field d a tag n c = (RErr x, c')).
  Definition opt_acc (a : acc) (j : N) : Prop := (j = 0 /\ a = AOpt None) \/ (1 <= j /\ exists v, a = AOpt (Some v)).
  Lemma bounded_opt d n tm conv : t_init d = AOpt None -> t_field d = t_opt_field tm conv -> bounded d n 1 tm.
  Proof.
    intros E1 E2. exists opt_acc. rewrite E1, E2. split; [left; auto|]. split.
    - intros a j tag m c a' c' H H1. right. split; [lia|]. destruct a as [[v|]| | |]; cbn in H1; try discriminate.
      apply mbind_inv_ok in H1. destruct H1 as (v & c1 & _ & H1). injection H1 as <- _. eauto.
    - intros a tag c [[H _]|[_ (v & ->)]]; [discriminate|]. exists c. reflexivity.
  Qed.
  Lemma bounded_stop s n k x : k <> 0 -> bounded (t_dict_stop s) n k x.
  Proof.
    intros Hk. exists (fun _ j => j = 0). split; [reflexivity|]. split.
    - intros a j tag m c a' c' _ H. destruct s; discriminate H.
    - intros a tag c ->. now elim Hk.
  Qed.
  Lemma bounded_vecu8 n : bounded (t_vecu8 cf) n 1 (KTooMany 1).
  Proof.
    exists opt_acc. split; [left; auto|]. split.
    - intros a j tag m c a' c' H H1. right. split; [lia|]. cbn [t_field t_vecu8 t_with_default_body] in H1. unfold t_vecu8_field in H1.
      destruct a as [[v|]| | |]; try discriminate. apply mbind_inv_ok in H1. destruct H1 as (v & c1 & _ & H1). injection H1 as <- _. eauto.
    - intros a tag c [[H _]|[_ (v & ->)]]; [discriminate|]. exists c. reflexivity.
  Qed.
  Lemma bounded_arru8 k n : k <= 32 \/ (exists b, n = NBlob b /\ lenN b = k) -> bounded (t_arru8 cf k) n 1 (KTooMany 1).
  Proof.
    intros Hn. exists opt_acc. split; [left; auto|]. split.
    - intros a j tag m c a' c' H H1. right. split; [lia|]. cbn [t_field t_arru8 t_with_default_body] in H1. unfold t_arru8_field in H1.
      destruct a as [[v|]| | |]; try discriminate.
      + destruct (k <=? 32); [discriminate|]. apply mbind_inv_ok in H1. destruct H1 as (v' & c1 & _ & H1). discriminate.
      + apply mbind_inv_ok in H1. destruct H1 as (v & c1 & _ & H1). injection H1 as <- _. eauto.
    - intros a tag c [[H _]|[_ (v & ->)]]; [discriminate|]. exists c. cbn [t_field t_arru8 t_with_default_body t_arru8_field].
      destruct (N.leb_spec k 32); [reflexivity|]. destruct Hn as [Hn|(b & -> & Hb)]; [lia|].
      unfold t_read_array. cbn [hdr_node to_blob t_lift blob_of]. unfold mbind. cbn. rewrite Hb, N.eqb_refl. reflexivity.
  Qed.
  Lemma bounded_arr k d n : bounded (t_arr cf k d) n k (KTooMany k).
  Proof.
    exists (fun a j => exists vs, a = AList vs /\ lenN vs = j). split; [exists []; auto|]. split.
    - intros a j tag m c a' c' (vs & -> & <-) H1. cbn [t_field t_arr t_wrapped t_arr_field] in H1. destruct (k <=? lenN vs); [discriminate|].
      apply mbind_inv_ok in H1. destruct H1 as (v & c1 & _ & H1). injection H1 as <- _. eexists. split; [reflexivity|]. now rewrite lenN_app.
    - intros a tag c (vs & -> & <-). exists c. cbn [t_field t_arr t_wrapped t_arr_field]. now rewrite N.leb_refl.
  Qed.
  Lemma at_most_bounded t n k x : at_most t n k x -> forall zc, bounded (td zc t) n k x.
  Proof.
    induction 1 as [t n|k t n Hu|k t n Hu Hn|t n Hu|ts n|t n Hin|w n|w n|t n k x H IH|t n k x H IH]; intros zc; cbn [t_dict_of].
    - now apply (bounded_opt _ n (KTooMany 1) (t_elem (td zc t))).
    - rewrite Hu. apply bounded_arr.
    - rewrite Hu. now apply bounded_arru8.
    - rewrite Hu. apply bounded_vecu8.
    - eapply (bounded_opt _ n (KTooMany 1)); reflexivity.
    - assert (Hs : forall k, 1 <> 0 -> bounded (t_dict_stop k) n 1 (KTooMany 1)) by (intros; now apply bounded_stop).
      repeat (destruct Hin as [<- |Hin]; [cbn [t_dict_of]; try (destruct zc); first [apply bounded_vecu8|eapply (bounded_opt _ n (KTooMany 1)); reflexivity|apply bounded_stop; discriminate]|]). destruct Hin.
    - eapply (bounded_opt _ n (KTooMany 1)); reflexivity.
    - eapply (bounded_opt _ n (KTooMany 1)); reflexivity.
    - apply IH.
    - apply IH.
  Qed.

  (** [needed d k]: with [j < k] occurrences the field is not complete. *)
  Definition needed (d : tdict) (k : N) : Prop :=
    exists P : acc -> N -> Prop, P (t_init d) 0 /\
      (forall a j tag n c a' c', P a j -> t_field d a tag n c = (ROk a', c') -> P a' (j + 1)) /\
      (forall a j c, P a j -> j < k -> t_fin d a c = (RErr (if j =? 0 then KMissing else KTooFew k), c)).
  Lemma needed_opt d tm conv : t_init d = AOpt None -> t_field d = t_opt_field tm conv -> t_fin d = t_opt_fin -> needed d 1.
  Proof.
    intros E1 E2 E3. exists opt_acc. rewrite E1, E2, E3. split; [left; auto|]. split.
    - intros a j tag m c a' c' H H1. right. split; [lia|]. destruct a as [[v|]| | |]; cbn in H1; try discriminate.
      apply mbind_inv_ok in H1. destruct H1 as (v & c1 & _ & H1). injection H1 as <- _. eauto.
    - intros a j c [[-> ->]|[H _]] Hj; [reflexivity|lia].
  Qed.
  Lemma needed_vecu8 : needed (t_vecu8 cf) 1.
  Proof.
    exists opt_acc. split; [left; auto|]. split.
    - intros a j tag m c a' c' H H1. right. split; [lia|]. cbn [t_field t_vecu8 t_with_default_body] in H1. unfold t_vecu8_field in H1.
      destruct a as [[v|]| | |]; try discriminate. apply mbind_inv_ok in H1. destruct H1 as (v & c1 & _ & H1). injection H1 as <- _. eauto.
    - intros a j c [[-> ->]|[H _]] Hj; [reflexivity|lia].
  Qed.
  Lemma needed_arru8 k : k <> 0 -> needed (t_arru8 cf k) 1.
  Proof.
    intros Hk. exists opt_acc. split; [left; auto|]. split.
    - intros a j tag m c a' c' H H1. right. split; [lia|]. cbn [t_field t_arru8 t_with_default_body] in H1. unfold t_arru8_field in H1.
      destruct a as [[v|]| | |]; try discriminate.
      + destruct (k <=? 32); [discriminate|]. apply mbind_inv_ok in H1. destruct H1 as (v' & c1 & _ & H1). discriminate.
      + apply mbind_inv_ok in H1. destruct H1 as (v & c1 & _ & H1). injection H1 as <- _. eauto.
    - intros a j c [[-> ->]|[H _]] Hj; [|lia]. cbn [t_fin t_arru8 t_with_default_body t_arru8_fin]. destruct (N.eqb_spec k 0); [contradiction|reflexivity].
  Qed.
  Lemma needed_arr k d : needed (t_arr cf k d) k.
  Proof.
    exists (fun a j => exists vs, a = AList vs /\ lenN vs = j). split; [exists []; auto|]. split.
    - intros a j tag m c a' c' (vs & -> & <-) H1. cbn [t_field t_arr t_wrapped t_arr_field] in H1. destruct (k <=? lenN vs); [discriminate|].
      apply mbind_inv_ok in H1. destruct H1 as (v & c1 & _ & H1). injection H1 as <- _. eexists. split; [reflexivity|]. now rewrite lenN_app.
    - intros a j c (vs & -> & <-) Hj. cbn [t_fin t_arr t_wrapped t_arr_fin]. destruct (N.ltb_spec (lenN vs) k); [|lia].
      destruct vs as [|v vs]; [reflexivity|]. rewrite lenN_cons. destruct (N.eqb_spec (lenN vs + 1) 0); [lia|reflexivity].
  Qed.
End Types.

(** Completing a field depends on nothing but the accumulator. *)
Section Pure.
  Variables (cf : cfg) (U : nat).
  Definition pure_fin (d : tdict) : Prop := forall a, exists r, forall c, t_fin d a c = (r, c).
  Ltac pf := let a := fresh "a" in intros a; destruct a as [[?v|]|?vs|?kvs|?us]; eexists; intros ?c; cbn; try reflexivity.
  Lemma pure_types im : (forall zc i, pure_fin (im zc i)) -> forall t zc, pure_fin (t_dict_of cf U im zc t).
  Proof.
    intros Hi.
    assert (Ho : forall d, t_fin d = t_opt_fin -> pure_fin d) by (intros d E; unfold pure_fin; rewrite E; pf).
    assert (Hs : forall s, pure_fin (t_dict_stop s)) by (intros s a; exists (fst (t_stop s (mkC 0 0 0 []))); intros c; destruct s; reflexivity).
    induction t; intros zc; cbn [t_dict_of]; try (now apply Ho); auto.
    - destruct zc; [now apply Ho|apply Hs].
    - destruct zc; [now apply Ho|apply Hs].
    - destruct zc; now apply Ho.
    - destruct zc; now apply Ho.
    - destruct (is_u8 t); [now apply Ho|pf].
    - pf.
    - pf.
    - pf.
    - destruct (is_u8 t).
      + intros a. destruct a as [[v|]|vs|kvs|us]; cbn [t_fin t_arru8 t_with_default_body t_arru8_fin]; try (eexists; intros c; reflexivity).
        destruct (n =? 0); eexists; intros c; reflexivity.
      + intros a. destruct a as [[v|]|vs|kvs|us]; cbn [t_fin t_arr t_wrapped t_arr_fin]; try (eexists; intros c; reflexivity).
        destruct (lenN vs <? n); [destruct vs|]; eexists; intros c; reflexivity.
    - pf.
    - pf.
  Qed.
  Lemma pure_items e f : forall zc i, pure_fin (t_item_dict cf e U f zc i).
  Proof.
    destruct f as [|f]; intros zc i; cbn [t_item_dict]; [exists RFuel; reflexivity|]. destruct (e i); unfold pure_fin; cbn; pf.
  Qed.
End Pure.

Definition needs (d : tdict) (k : N) : Prop := needed d k \/ (forall a c v c', t_fin d a c <> (ROk v, c')).
Lemma at_least_needs cf e U f t k : at_least e t k -> forall zc, needs (t_dict_of cf U (t_item_dict cf e U f) zc t) k.
Proof.
  Ltac nd l := unshelve (eapply l; try reflexivity; try assumption); try exact O; try exact (fun _ _ => t_dict_stop StPanic).
  assert (Hs : forall s k, needs (t_dict_stop s) k) by (intros s k'; right; intros a c v c'; destruct s; discriminate).
  induction 1 as [k t Hu|k t Hu Hk|t Hu|ts|i|t Hin|w|w|t k H IH|t k H IH]; intros zc; cbn [t_dict_of].
  - rewrite Hu. left. nd needed_arr.
  - rewrite Hu. left. nd needed_arru8.
  - rewrite Hu. left. nd needed_vecu8.
  - left. nd needed_opt.
  - destruct f as [|f]; cbn [t_item_dict]; [apply Hs|]. left. destruct (e i); nd needed_opt.
  - repeat (destruct Hin as [<- |Hin]; [cbn [t_dict_of]; try (destruct zc); first [apply Hs|left; first [nd needed_vecu8|nd needed_opt]]|]). destruct Hin.
  - left. nd needed_opt.
  - left. nd needed_opt.
  - apply IH.
  - apply IH.
Qed.
Lemma item_bounded cf e U f i n zc : bounded (t_dict_of cf U (t_item_dict cf e U f) zc (TItem i)) n 1 (KTooFew 1).
Proof.
  cbn [t_dict_of]. destruct f as [|f]; cbn [t_item_dict]; [nd bounded_stop; discriminate|]. destruct (e i); nd bounded_opt.
Qed.

(** ** Bodies *)
Section Body.
  Variables (cf : cfg) (F : nat) (tfs : list tfdict) (tu : option (string * tdict)) (ms : list (N * meaning)) (mu : option meaning).
  Hypothesis Hf : Forall2 (mrel cf F) tfs ms.
  Hypothesis Hu : umrel cf F tu mu.
  Variables (tag : N) (i : nat) (nm : string) (d : tdict).
  Hypothesis Hfind : find_tag tag tfs = Some (i, nm, d).
  Notation st0 := (t_inits tfs, match tu with Some (_, d) => t_init d | None => AOpt None end).

  Lemma loop_level ks st c st' c' : inv cf (S F) c -> t_loop (t_step cf tfs tu) st ks c = (ROk st', c') -> c_lev c' = c_lev c /\ inv cf (S F) c'.
  Proof.
    intros Hi H. destruct (pick _ _ _ _ Hf) as (sfs & H1 & _).
    assert (Hs : exists su, urel cf F tu su).
    { destruct tu as [[nm' td]|], mu as [m|]; try contradiction.
      - destruct Hu as (sd & E1 & E2 & E3 & E4). exists (Some sd). split; auto.
      - exists None. exact Logic.I. }
    destruct Hs as (su & Hs).
    pose proof (agree_loop cf F (t_step cf tfs tu) (s_step (cf_ignore cf) sfs su) ks st (fun a t n => agree_step cf F tfs sfs tu su a t n H1 Hs) c Hi) as Ha.
    rewrite H in Ha. destruct (s_loop _ st ks) as [[v x]|]; [|contradiction]. destruct Ha as (-> & -> & Hr).
    split; [reflexivity|]. destruct Hi as (I1 & I2 & I3 & I4), Hr as (R1 & R2 & R3). unfold inv, cplus. cbn. lia.
  Qed.
  Lemma idx : (i < List.length tfs)%nat.
  Proof. pose proof (find_tag_some _ _ _ _ _ Hfind) as Hn. apply nth_error_Some. intros Hx. pose proof (eq_trans (eq_sym Hn) Hx) as Hy. discriminate Hy. Qed.
  Lemma inits_nth : nth i (t_inits tfs) (AOpt None) = t_init d.
  Proof.
    pose proof (find_tag_some _ _ _ _ _ Hfind) as Hn. unfold t_inits.
    exact (nth_error_nth _ _ _ (map_nth_error (fun f : tfdict => t_init (snd f)) _ _ Hn)).
  Qed.
  Lemma finish_push accs c vs c' : t_finish_all cf tfs accs c = (ROk vs, c') -> c_lev c < cf_rec cf.
  Proof.
    intros H. pose proof idx as Hi. destruct tfs as [|[[n1 t1] d1] fs]; [cbn in Hi; lia|]. destruct accs as [|a accs]; [discriminate|].
    cbn [t_finish_all] in H. apply mbind_inv_ok in H. destruct H as (v & c1 & H & _). unfold t_finish_one in H.
    apply mbind_inv_ok in H. destruct H as (u & c2 & H & _). unfold t_push in H. destruct (N.leb_spec (cf_rec cf) (c_lev c)); [discriminate|lia].
  Qed.
  Lemma body_inv ks c vs c' : t_des_body cf tfs tu ks c = (ROk vs, c') ->
    exists st c1 ws c2, t_loop (t_step cf tfs tu) st0 ks c = (ROk st, c1) /\ t_finish_all cf tfs (fst st) c1 = (ROk ws, c2).
  Proof.
    intros H. unfold t_des_body in H. apply mbind_inv_ok in H. destruct H as (st & c1 & H1 & H). apply mbind_inv_ok in H. destruct H as (ws & c2 & H2 & _).
    exists st, c1, ws, c2. auto.
  Qed.

  Lemma body_many n k x A C D c vs c' : bounded d n k x -> lenN (with_tag tag A) = k -> inv cf (S F) c ->
    t_des_body cf tfs tu (A ++ C) c = (ROk vs, c') -> exists c2, t_des_body cf tfs tu (A ++ (tag, n) :: D) c = (RErr x, c2).
  Proof.
    intros (P & P0 & P1 & P2) Hk Hi H. destruct (body_inv _ _ _ _ H) as (st & c1 & ws & c2 & Hl & Hfi).
    rewrite loop_app in Hl. apply mbind_inv_ok in Hl. destruct Hl as (st1 & c3 & Hl1 & Hl2).
    destruct (loop_level _ _ _ _ _ Hi Hl1) as [L1 I1]. destruct (loop_level _ _ _ _ _ I1 Hl2) as [L2 I2]. pose proof (finish_push _ _ _ _ Hfi) as Hp.
    destruct (acc_count cf tfs tu tag i nm d Hfind P (fun a k n c a' c' => P1 a k tag n c a' c') A 0 st0 c st1 c3) as [HP HL]; auto.
    { cbn [fst]. unfold t_inits. apply map_length. }
    { cbn [fst]. now rewrite inits_nth. }
    rewrite Hk, N.add_0_l in HP.
    assert (Hbad : exists c4, t_loop (t_step cf tfs tu) st1 ((tag, n) :: D) c3 = (RErr x, c4)).
    { cbn [t_loop]. destruct st1 as [accs ua]. cbn [fst] in HP. unfold t_step at 1. rewrite Hfind.
      assert (Hpu : t_push cf nm c3 = (ROk tt, mkC (c_lev c3 + 1) (c_coll c3) (c_blob c3) (nm :: c_path c3))) by (unfold t_push; destruct (N.leb_spec (cf_rec cf) (c_lev c3)); [lia|reflexivity]).
      destruct (P2 _ tag (mkC (c_lev c3 + 1) (c_coll c3) (c_blob c3) (nm :: c_path c3)) HP) as (c5 & E). exists c5. apply mbind_err.
      rewrite (mbind_ok _ _ _ _ _ Hpu). now apply mbind_err. }
    destruct Hbad as (c4 & Hbad). exists c4. unfold t_des_body. apply mbind_err. rewrite loop_app. now rewrite (mbind_ok _ _ _ _ _ Hl1).
  Qed.

  Hypothesis Hpure : Forall (fun f : tfdict => pure_fin (snd f)) tfs.
  Lemma finish_fails x : forall gs accs1 accs2 j c1 c2 vs c2' dj nmj, Forall (fun f : tfdict => pure_fin (snd f)) gs ->
    c_lev c1 = c_lev c2 -> List.length accs1 = List.length gs -> (forall j', j' <> j -> nth j' accs1 (AOpt None) = nth j' accs2 (AOpt None)) ->
    nth_error gs j = Some (nmj, tag, dj) -> (forall c, t_fin dj (nth j accs1 (AOpt None)) c = (RErr x, c)) ->
    t_finish_all cf gs accs2 c2 = (ROk vs, c2') -> exists c, t_finish_all cf gs accs1 c1 = (RErr x, c).
  Proof.
    induction gs as [|[[n1 t1] d1] gs IH]; intros accs1 accs2 j c1 c2 vs c2' dj nmj Hp Hlev Hl Heq Hn Hx H; [destruct j; discriminate|].
    destruct accs1 as [|a1 accs1]; [discriminate|]. destruct accs2 as [|a2 accs2]; [discriminate|]. inversion Hp as [|y l Hp1 Hp2]; subst.
    cbn [t_finish_all] in *. apply mbind_inv_ok in H. destruct H as (v & c3 & H1 & H).
    apply mbind_inv_ok in H. destruct H as (vs' & c4 & H2 & _). unfold t_finish_one in *.
    apply mbind_inv_ok in H1. destruct H1 as ([] & c5 & Hpu & H1).
    assert (Hpu1 : t_push cf n1 c1 = (ROk tt, mkC (c_lev c1 + 1) (c_coll c1) (c_blob c1) (n1 :: c_path c1))).
    { unfold t_push in *. rewrite Hlev. destruct (cf_rec cf <=? c_lev c2); [discriminate|reflexivity]. }
    destruct j as [|j].
    - cbn in Hn. injection Hn as -> -> ->. cbn [nth] in Hx. exists (mkC (c_lev c1 + 1) (c_coll c1) (c_blob c1) (nmj :: c_path c1)).
      apply mbind_err. rewrite (mbind_ok _ _ _ _ _ Hpu1). apply mbind_err. apply Hx.
    - pose proof (Heq O (Nat.neq_0_succ j)) as E0. cbn [nth] in E0. subst a2. cbn [snd] in Hp1. destruct (Hp1 a1) as (r & Hr).
      rewrite Hr in H1 || (unfold mbind in H1; rewrite Hr in H1). 
      assert (Hv : r = ROk v /\ c_lev c3 = c_lev c2).
      { unfold t_push in Hpu. destruct (cf_rec cf <=? c_lev c2); [discriminate|]. injection Hpu as <-.
        destruct r as [v'|k| |]; try discriminate. unfold mbind, t_pop, mmod, mret in H1. cbn in H1. injection H1 as <- <-. split; [reflexivity|]. cbn. lia. }
      destruct Hv as [-> Hlv].
      assert (E1 : (t_push cf n1 ;; let* v := t_fin d1 a1 in t_pop ;; mret v) c1 = (ROk v, mkC (c_lev c1 + 1 - 1) (c_coll c1) (c_blob c1) (c_path c1))).
      { rewrite (mbind_ok _ _ _ _ _ Hpu1). now rewrite (mbind_ok _ _ _ _ _ (Hr _)). }
      rewrite (mbind_ok _ _ _ _ _ E1).
      destruct (IH accs1 accs2 j (mkC (c_lev c1 + 1 - 1) (c_coll c1) (c_blob c1) (c_path c1)) c3 vs' c4 dj nmj Hp2) as (c & E); auto.
      + cbn. lia.
      + intros j' Hj. apply (Heq (S j')). congruence.
      + exists c. now apply mbind_err.
  Qed.

  Lemma same_body ks ks' c vs c' : same_fields (map fst ms) ks ks' -> inv cf (S F) c ->
    t_des_body cf tfs tu ks' c = (ROk vs, c') -> exists c2, t_des_body cf tfs tu ks c = (ROk vs, c2).
  Proof.
    intros Hs Hi H. pose proof (agree_record cf F tfs tu ms mu ks' Hf Hu c Hi) as H1. pose proof (agree_record cf F tfs tu ms mu ks Hf Hu c Hi) as H2.
    unfold m_record in *. rewrite (fields_view ms ks ks' Hs) in H2. rewrite H in H1. destruct (rbind _ _) as [[v x]|]; [|contradiction].
    destruct H1 as (-> & _ & Hr). destruct (t_des_body cf tfs tu ks c) as [[w|k| |] c2]; try contradiction.
    - destruct H2 as (-> & _). eauto.
    - exfalso. destruct Hr as (R1 & R2 & R3). destruct k; try contradiction; cbn in H2; lia.
  Qed.

  Lemma body_few k ks ks' X c vs c' : needs d k -> without_tag tag ks = without_tag tag ks' -> with_tag tag ks' = with_tag tag ks ++ X ->
    lenN (with_tag tag ks) < k -> inv cf (S F) c -> t_des_body cf tfs tu ks' c = (ROk vs, c') ->
    exists c2, t_des_body cf tfs tu ks c = (RErr (if lenN (with_tag tag ks) =? 0 then KMissing else KTooFew k), c2).
  Proof.
    intros Hnd Hwo Hw Hj Hi H.
    assert (HX : Forall (fun f => fst f = tag) X).
    { apply Forall_forall. intros f Hin. assert (Hin2 : In f (with_tag tag ks')) by (rewrite Hw; apply in_or_app; now right).
      unfold with_tag in Hin2. apply filter_In in Hin2. now apply N.eqb_eq. }
    assert (Hsame : same_fields (map fst ms) (ks ++ X) ks').
    { assert (HwX : forall t, with_tag t X = if t =? tag then X else []).
      { intros t. clear - HX. induction HX as [|[t' n] X E HX IH]; [now destruct (t =? tag)|]. cbn in E. subst t'. unfold with_tag in *. cbn [filter fst].
        rewrite IH, (N.eqb_sym t tag). now destruct (tag =? t). }
      assert (Hne : forall t, t <> tag -> with_tag t ks = with_tag t ks').
      { intros t Ht. assert (E : forall l, with_tag t l = with_tag t (without_tag tag l)).
        { clear - Ht. induction l as [|[t' n] l IH]; [reflexivity|]. unfold with_tag, without_tag in *. cbn [filter fst].
          destruct (N.eqb_spec t' t) as [-> |E1].
          - destruct (N.eqb_spec t tag); [contradiction|]. cbn [negb filter fst]. rewrite N.eqb_refl. now rewrite IH.
          - destruct (negb (t' =? tag)); [|exact IH]. cbn [filter fst]. destruct (N.eqb_spec t' t); [contradiction|exact IH]. }
        now rewrite (E ks), (E ks'), Hwo. }
      split.
      - intros t _. unfold with_tag at 1. rewrite filter_app. fold (with_tag t ks) (with_tag t X). rewrite HwX.
        destruct (N.eqb_spec t tag) as [-> |Ht]; [now rewrite Hw|]. rewrite app_nil_r. now apply Hne.
      - assert (Hin : In tag (map fst ms)).
        { pose proof (find_tag_some _ _ _ _ _ Hfind) as Hn. clear - Hn Hf. revert Hn. generalize i. intros j Hn. revert j Hn. induction Hf as [|t m l l' [E _] HF IH]; intros [|j] Hn; try discriminate.
          - cbn in Hn. injection Hn as ->. left. now symmetry.
          - right. exact (IH HF j Hn). }
        assert (HU : forall l, undeclared (map fst ms) l = undeclared (map fst ms) (without_tag tag l)).
        { clear - Hin. induction l as [|[t' n] l IH]; [reflexivity|]. unfold undeclared, without_tag in *. cbn [filter fst].
          destruct (N.eqb_spec t' tag) as [-> |E1]; cbn [negb filter fst].
          - assert (Hx : existsb (N.eqb tag) (map fst ms) = true) by (apply existsb_exists; exists tag; split; [exact Hin|apply N.eqb_refl]).
            rewrite ?Hx. cbn [negb]. exact IH.
          - now rewrite IH. }
        rewrite (HU (ks ++ X)), (HU ks'), <- Hwo. f_equal. unfold without_tag. rewrite filter_app.
        assert (E : filter (fun f => negb (fst f =? tag)) X = []).
        { clear - HX. induction HX as [|[t' n] X E HX IH]; [reflexivity|]. cbn in E. subst t'. cbn [filter fst]. now rewrite N.eqb_refl. }
        now rewrite E, app_nil_r. }
    destruct (same_body _ _ _ _ _ Hsame Hi H) as (c2 & H2). destruct (body_inv _ _ _ _ H2) as (st & c1 & ws & c3 & Hl & Hfi).
    rewrite loop_app in Hl. apply mbind_inv_ok in Hl. destruct Hl as (st1 & c4 & Hl1 & Hl2).
    destruct (loop_level _ _ _ _ _ Hi Hl1) as [L1 I1]. destruct (loop_level _ _ _ _ _ I1 Hl2) as [L2 I2].
    pose proof (find_tag_some _ _ _ _ _ Hfind) as Hn.
    destruct Hnd as [(P & P0 & P1 & P2)|Hnever].
    - destruct (acc_count cf tfs tu tag i nm d Hfind P (fun a k n c a' c' => P1 a k tag n c a' c') ks 0 st0 c st1 c4) as [HP HL]; auto.
      { cbn [fst]. unfold t_inits. apply map_length. }
      { cbn [fst]. now rewrite inits_nth. }
      rewrite N.add_0_l in HP.
      destruct (finish_fails (if lenN (with_tag tag ks) =? 0 then KMissing else KTooFew k) tfs (fst st1) (fst st) i c4 c1 ws c3 d nm) as (c5 & E); auto.
      + intros j' Hj'. symmetry. exact (acc_others cf tfs tu tag i nm d X Hfind HX st1 c4 st c1 Hl2 j' Hj').
      + exists c5. unfold t_des_body. rewrite (mbind_ok _ _ _ _ _ Hl1). now apply mbind_err.
    - exfalso. clear - Hfi Hn Hnever. revert Hn Hfi. generalize (fst st) i c1 ws c3. clear - Hnever. induction tfs as [|[[n1 t1] d1] gs IH]; intros accs j c1 ws c3 Hn H; [destruct j; discriminate|].
      destruct accs as [|a accs]; [discriminate|]. cbn [t_finish_all] in H. apply mbind_inv_ok in H. destruct H as (v & c4 & H1 & H).
      apply mbind_inv_ok in H. destruct H as (vs & c5 & H2 & _). destruct j as [|j]; [|exact (IH accs j c4 vs c5 Hn H2)].
      cbn in Hn. injection Hn as -> -> ->. unfold t_finish_one in H1. apply mbind_inv_ok in H1. destruct H1 as (u & c6 & _ & H1).
      apply mbind_inv_ok in H1. destruct H1 as (w & c7 & H1 & _). exact (Hnever _ _ _ _ H1).
  Qed.
End Body.

(** ** Types *)
Lemma plain_body cf e U f zc t : plain e t = true -> let td := t_dict_of cf U (t_item_dict cf e U f) zc t in
  (exists d, t_body td = t_body_default cf d /\ t_init d = t_init td /\ t_field d = t_field td /\ t_fin d = t_fin td) \/
  (forall ks c v c', t_body td ks c <> (ROk v, c')).
Proof.
  assert (Hs : forall s, let td := t_dict_stop s in (exists d, t_body td = t_body_default cf d /\ t_init d = t_init td /\ t_field d = t_field td /\ t_fin d = t_fin td) \/
    (forall ks c v c', t_body td ks c <> (ROk v, c'))) by (intros s td; right; intros ks c v c'; destruct s; discriminate).
  assert (Hw : forall d, let td := t_with_default_body cf d in (exists d, t_body td = t_body_default cf d /\ t_init d = t_init td /\ t_field d = t_field td /\ t_fin d = t_fin td) \/
    (forall ks c v c', t_body td ks c <> (ROk v, c'))) by (intros d td; left; exists d; auto).
  assert (Hw2 : forall d, let td := t_wrapped cf d in (exists d, t_body td = t_body_default cf d /\ t_init d = t_init td /\ t_field d = t_field td /\ t_fin d = t_fin td) \/
    (forall ks c v c', t_body td ks c <> (ROk v, c'))) by (intros d td; left; exists d; auto).
  intros Hp. destruct t; try discriminate; cbn [t_dict_of]; try apply Hw; try apply Hw2.
  - destruct zc; [apply Hw|apply Hs].
  - destruct zc; [apply Hw|apply Hs].
  - destruct zc; apply Hw.
  - destruct zc; apply Hw.
  - destruct (is_u8 t); [apply Hw|apply Hw2].
  - destruct (is_u8 t); [apply Hw|apply Hw2].
  - destruct f as [|f]; [apply Hs|]. cbn [t_item_dict]. cbn [plain] in Hp. destruct (e i); [discriminate|]. apply Hw.
Qed.
Lemma fag_same cf F td td' o : t_init td' = t_init td -> t_field td' = t_field td -> t_fin td' = t_fin td -> fag cf F td o -> fag cf F td' o.
Proof. intros E1 E2 E3 (sd & H). exists sd. rewrite E1, E2, E3. exact H. Qed.
Lemma bounded_same td td' n k x : t_init td' = t_init td -> t_field td' = t_field td -> bounded td n k x -> bounded td' n k x.
Proof. intros E1 E2 (P & H). exists P. rewrite E1, E2. exact H. Qed.
Lemma needs_same td td' k : t_init td' = t_init td -> t_field td' = t_field td -> t_fin td' = t_fin td -> needs td k -> needs td' k.
Proof. intros E1 E2 E3 [(P & H)|H]; [left; exists P|right]; rewrite ?E1, ?E2, ?E3; exact H. Qed.
Lemma decls_find mk tag t fs : tag_type tag fs = Some t -> exists i nm, find_tag tag (t_fdicts mk fs) = Some (i, nm, mk t).
Proof.
  unfold t_fdicts. induction fs as [|fd fs IH]; cbn [map tag_type find_tag]; [discriminate|].
  destruct (fd_tag fd =? tag); [intros H; injection H as <-; eauto|]. intros H. destruct (IH H) as (i & nm & E). rewrite E. eauto.
Qed.
Lemma tuple_find mk tag t ts : nth_type ts tag = Some t -> exists i nm, find_tag tag (t_tuple_fields 0 (map mk ts)) = Some (i, nm, mk t).
Proof.
  intros H.
  assert (Hg : forall ts i, (if tag <=? i then None else nth_error ts (N.to_nat (tag - 1 - i))) = Some t -> exists j nm, find_tag tag (t_tuple_fields i (map mk ts)) = Some (j, nm, mk t)).
  { clear. induction ts as [|t' ts IH]; intros i H; [destruct (tag <=? i); [discriminate|destruct (N.to_nat (tag - 1 - i)); discriminate]|]. cbn [map t_tuple_fields find_tag].
    destruct (N.eqb_spec (i + 1) tag) as [E|E].
    - destruct (N.leb_spec tag i); [lia|]. replace (tag - 1 - i) with 0 in H by lia. cbn in H. injection H as ->. eauto.
    - destruct (IH (i + 1)) as (j & nm & E1); [|rewrite E1; eauto]. destruct (N.leb_spec tag i), (N.leb_spec tag (i + 1)); try lia; try discriminate.
      replace (N.to_nat (tag - 1 - i)) with (S (N.to_nat (tag - 1 - (i + 1)))) in H by lia. exact H. }
  apply Hg. unfold nth_type in H. destruct (N.eqb_spec tag 0), (N.leb_spec tag 0); try lia; try discriminate. now rewrite N.sub_0_r.
Qed.

Section Top.
  Variables (cf : cfg) (e : env) (U : nat).
  Notation td f zc t := (t_dict_of cf U (t_item_dict cf e U f) zc t).
  Lemma td_dag f zc t : (f <= U)%nat -> dag cf f (td f zc t) (meaning_of (cf_ignore cf) (item_meaning (cf_ignore cf) e f) zc t).
  Proof. intros H. apply dag_types; [exact H|]. intros zc' i. now apply dag_items. Qed.
  Lemma td_pure f zc t : pure_fin (td f zc t).
  Proof. apply pure_types. intros. apply pure_items. Qed.

  (** What every body is: [Q] of [t_des_body] holds of all bodies. *)
  Section Rule.
    Variables (tag : N) (zc' : bool) (ft : ty) (ks ks2 : list (N * node)) (x : ekind).
    Variable good : tdict -> Prop.
    Hypothesis Hgood : forall f, good (td f zc' ft).
    Hypothesis Hgsame : forall d d', t_init d' = t_init d -> t_field d' = t_field d -> t_fin d' = t_fin d -> good d -> good d'.
    Hypothesis Hbody : forall F tfs tu ms mu i nm d c vs c', Forall2 (mrel cf F) tfs ms -> umrel cf F tu mu -> find_tag tag tfs = Some (i, nm, d) -> good d ->
      Forall (fun f : tfdict => pure_fin (snd f)) tfs -> inv cf (S F) c -> t_des_body cf tfs tu ks c = (ROk vs, c') -> exists c2, t_des_body cf tfs tu ks2 c = (RErr x, c2).
    Lemma top_rule zc t : top_field e zc t tag zc' ft -> forall f c v c', (f <= U)%nat -> inv cf f c ->
      t_body (td f zc t) ks c = (ROk v, c') -> exists c2, t_body (td f zc t) ks2 c = (RErr x, c2).
    Proof.
      intros Htf. 
      induction Htf as [zc t Hp|zc ts tag t Hn|zc i b tag t Ei Hd Hty|zc i b nm t tag zc' t' Ei Es Htf IH|zc t tag zc' t' Htf IH|zc t tag zc' t' Htf IH]; intros f c v c' Hf Hi H.
      - destruct f as [|f]; [destruct Hi as (I1 & I2 & _); lia|].
        destruct (plain_body cf e U (S f) zc t Hp) as [(d & E1 & E2 & E3 & E4)|Hno]; [|destruct (Hno _ _ _ _ H)].
        rewrite E1 in *. unfold t_body_default in *. apply mbind_inv_ok in H. destruct H as (vs & c1 & H & _).
        destruct (Hbody f [("top"%string, 1, d)] None [(1, mkMn (m_occ (meaning_of (cf_ignore cf) (item_meaning (cf_ignore cf) e (S f)) zc t)) (fun _ => rnone) (fun _ => rnone))] None O "top"%string d c vs c1) as (c2 & E); auto.
        + apply Forall2_cons; [|apply Forall2_nil]. split; [reflexivity|]. cbn [snd m_occ]. apply (fag_same cf f (td (S f) zc t)); auto.
          apply dag_fag. apply (dag_le cf (S f)); [lia|]. now apply td_dag.
        + exact Logic.I.
        + apply (Hgsame (td (S f) zc t)); auto.
        + constructor; [|constructor]. cbn [snd]. unfold pure_fin. rewrite E4. apply td_pure.
        + exists c2. now apply mbind_err.
      - destruct f as [|f]; [destruct Hi as (I1 & I2 & _); lia|]. cbn [t_dict_of t_tuple t_struct t_body] in *. unfold t_tuple_body in *.
        apply mbind_inv_ok in H. destruct H as (vs & c1 & H & _).
        destruct (tuple_find (fun t => td (S f) zc t) tag t ts Hn) as (i & nm & Hfi).
        destruct (Hbody f (t_tuple_fields 0 (map (fun t => td (S f) zc t) ts)) None
          (m_number 1 (map (meaning_of (cf_ignore cf) (item_meaning (cf_ignore cf) e (S f)) zc) ts)) None i nm (td (S f) zc t) c vs c1) as (c2 & E); auto.
        + apply (tuple_mrel cf f _ _). clear - Hf. induction ts as [|t ts IH]; cbn [map]; [apply Forall2_nil|apply Forall2_cons; auto].
          apply (dag_le cf (S f)); [lia|]. now apply td_dag.
        + exact Logic.I.
        + generalize 0. clear. induction ts as [|t ts IH]; intros i; cbn [map t_tuple_fields]; constructor; [apply td_pure|apply IH].
        + exists c2. now apply mbind_err.
      - destruct f as [|f]; [destruct Hi as (I1 & I2 & _); lia|]. cbn [t_dict_of t_item_dict] in *. rewrite Ei in *. cbn [t_item_struct t_struct t_body] in *.
        assert (Hmk : forall t, dag cf f (td f zc t) (meaning_of (cf_ignore cf) (item_meaning (cf_ignore cf) e f) zc t)) by (intros; apply td_dag; lia).
        destruct (decls_find (fun t => td f zc t) tag t (vb_fields b) Hty) as (j & nm & Hfi).
        assert (Hpu : Forall (fun g : tfdict => pure_fin (snd g)) (t_fdicts (fun t => td f zc t) (vb_fields b))).
        { clear. unfold t_fdicts. induction (vb_fields b) as [|fd fs IH]; cbn [map]; constructor; auto. apply td_pure. }
        unfold t_vbody in *. cbv zeta in *. unfold delegates in Hd. destruct (vb_special b) as [|nm' t'|nm' t']; try discriminate;
          apply mbind_inv_ok in H; destruct H as (vs & c1 & H & _).
        + destruct (Hbody f _ None _ None j nm (td f zc t) c vs c1 (decls_mrel cf f _ _ Hmk (vb_fields b)) Logic.I Hfi (Hgood _) Hpu Hi H) as (c2 & E).
          exists c2. now apply mbind_err.
        + destruct (Hbody f _ (Some (nm', td f zc t')) _ (Some (meaning_of (cf_ignore cf) (item_meaning (cf_ignore cf) e f) zc t')) j nm (td f zc t) c vs c1 (decls_mrel cf f _ _ Hmk (vb_fields b)) (dag_fag _ _ _ _ (Hmk t')) Hfi (Hgood _) Hpu Hi H) as (c2 & E).
          exists c2. now apply mbind_err.
      - destruct f as [|f]; [destruct Hi as (I1 & I2 & _); lia|]. cbn [t_dict_of t_item_dict] in *. rewrite Ei in *. cbn [t_item_struct t_struct t_body] in *.
        unfold t_vbody in *. rewrite Es in *. apply mbind_inv_ok in H. destruct H as ([] & c1 & Hpu & H). apply mbind_inv_ok in H. destruct H as (dv & c2 & H & _).
        assert (Hi1 : inv cf f c1).
        { unfold t_push in Hpu. destruct Hi as (I1 & I2 & I3 & I4). destruct (N.leb_spec (cf_rec cf) (c_lev c)); [discriminate|]. injection Hpu as <-. unfold inv. cbn. lia. }
        destruct (IH Hgood Hbody f c1 dv c2 ltac:(lia) Hi1 H) as (c3 & E). exists c3. rewrite (mbind_ok _ _ _ _ _ Hpu). now apply mbind_err.
      - exact (IH Hgood Hbody f c v c' Hf Hi H).
      - exact (IH Hgood Hbody f c v c' Hf Hi H).
    Qed.
  End Rule.
End Top.

Section Docs.
  Variables (cf : cfg) (e : env) (zc : bool) (t : ty) (tag : N) (zc' : bool) (ft : ty).
  Hypothesis Hu : usable e zc cf t.
  Hypothesis Htop : top_field e zc t tag zc' ft.
  Lemma from_tree ks ks2 s s2 w x : doc_stream ks s -> doc_stream ks2 s2 -> fst (from_stream e zc cf t s) = ROk w ->
    (match x with KUnknownField _ _ => False | _ => True end) ->
    (forall v c, read_tree cf e zc t ks = (ROk v, c) -> exists c2, read_tree cf e zc t ks2 = (RErr x, c2)) ->
    exists err, fst (from_stream e zc cf t s2) = RErr err /\ e_kind err = x.
  Proof.
    intros Hs Hs2 Hok Hx Hgo. pose proof (stream_tree e zc cf t ks s Hu Hs) as H1. pose proof (stream_tree e zc cf t ks2 s2 Hu Hs2) as H2.
    destruct (read_tree cf e zc t ks) as [r c] eqn:Er. cbn [fst] in H1. rewrite Hok in H1.
    destruct r as [v|k| |]; try contradiction; [|destruct H1 as (? & ? & _); discriminate].
    destruct (Hgo v c eq_refl) as (c2 & E). rewrite E in H2. cbn [fst] in H2. destruct H2 as (err & E2 & Hk). exists err. split; [exact E2|].
    unfold anyk in Hk. destruct x; try contradiction; inversion Hk; subst; auto.
  Qed.
  Lemma inv_0 : inv cf (S (N.to_nat (cf_rec cf))) (mkC 0 0 0 []).
  Proof. unfold inv. cbn. lia. Qed.
  Lemma once_more A C D n k x s s2 w : (forall cf U im, bounded (t_dict_of cf U im zc' ft) n k x) \/ (exists i, ft = TItem i /\ k = 1 /\ x = KTooFew 1) ->
    (match x with KUnknownField _ _ => False | _ => True end) ->
    lenN (with_tag tag A) = k -> doc_stream (A ++ C) s -> fst (from_stream e zc cf t s) = ROk w -> doc_stream (A ++ (tag, n) :: D) s2 ->
    exists err, fst (from_stream e zc cf t s2) = RErr err /\ e_kind err = x.
  Proof.
    intros Hm Hx Hk Hs Hok Hs2. apply (from_tree (A ++ C) (A ++ (tag, n) :: D) s s2 w x Hs Hs2 Hok Hx).
    intros v c H. unfold read_tree, t_full in *.
    refine (top_rule cf e (S (N.to_nat (cf_rec cf))) tag zc' ft (A ++ C) (A ++ (tag, n) :: D) x (fun d => bounded d n k x) _ _ _ zc t Htop _ _ v c (Nat.le_refl _) inv_0 H).
    - intros f. destruct Hm as [Hm|(i & -> & -> & ->)]; [apply Hm|apply item_bounded].
    - intros d d' E1 E2 _. now apply bounded_same.
    - intros F tfs tu ms mu i nm d c0 vs c' H1 H2 H3 H4 _ H5 H6.
      exact (body_many cf F tfs tu ms mu H1 H2 tag i nm d H3 n k x A C D c0 vs c' H4 Hk H5 H6).
  Qed.
  Theorem too_many A C D n k x s s2 w : at_most ft n k x ->
    lenN (with_tag tag A) = k -> doc_stream (A ++ C) s -> fst (from_stream e zc cf t s) = ROk w -> doc_stream (A ++ (tag, n) :: D) s2 ->
    exists err, fst (from_stream e zc cf t s2) = RErr err /\ e_kind err = x.
  Proof.
    intros Hm. apply once_more; [left; intros; now apply at_most_bounded|].
    clear - Hm. induction Hm; auto; exact Logic.I.
  Qed.
  Theorem struct_twice i A C D n s s2 w : ft = TItem i ->
    lenN (with_tag tag A) = 1 -> doc_stream (A ++ C) s -> fst (from_stream e zc cf t s) = ROk w -> doc_stream (A ++ (tag, n) :: D) s2 ->
    exists err, fst (from_stream e zc cf t s2) = RErr err /\ e_kind err = KTooFew 1.
  Proof. intros Hi. apply once_more; [right; exists i; auto|exact Logic.I]. Qed.
  Theorem too_few k ks ks' X s s' w : at_least e ft k -> without_tag tag ks = without_tag tag ks' -> with_tag tag ks' = with_tag tag ks ++ X ->
    lenN (with_tag tag ks) < k -> doc_stream ks' s' -> fst (from_stream e zc cf t s') = ROk w -> doc_stream ks s ->
    exists err, fst (from_stream e zc cf t s) = RErr err /\ e_kind err = (if lenN (with_tag tag ks) =? 0 then KMissing else KTooFew k).
  Proof.
    intros Hm H1 H2 H3 Hs' Hok Hs.
    apply (from_tree ks' ks s' s w _ Hs' Hs Hok); [destruct (lenN (with_tag tag ks) =? 0); exact Logic.I|].
    intros v c H. unfold read_tree, t_full in *.
    refine (top_rule cf e (S (N.to_nat (cf_rec cf))) tag zc' ft ks' ks _ (fun d => needs d k) _ _ _ zc t Htop _ _ v c (Nat.le_refl _) inv_0 H).
    - intros f. now apply at_least_needs.
    - intros d d' E1 E2 E3. now apply needs_same.
    - intros F tfs tu ms mu i nm d c0 vs c' G1 G2 G3 G4 G5 G6 G7.
      exact (body_few cf F tfs tu ms mu G1 G2 tag i nm d G3 G5 k ks ks' X c0 vs c' G4 H1 H2 H3 G6 G7).
  Qed.
End Docs.

(** ** What accepted documents hold *)
Section Occ.
  Variables (e : env) (ign : bool).
  Lemma rbind_some {A B} (m : R A) (f : A -> R B) b y : rbind m f = Some (b, y) -> exists a x z, m = Some (a, x) /\ f a = Some (b, z).
  Proof.
    unfold rbind. destruct m as [[a x]|]; [|discriminate]. destruct (f a) as [[b' z]|] eqn:E; [|discriminate]. intros H. injection H as <- _. eauto.
  Qed.
  Lemma rmap_some {A B} (f : A -> R B) l : forall bs y, rmap f l = Some (bs, y) -> Forall2 (fun a b => exists x, f a = Some (b, x)) l bs.
  Proof.
    induction l as [|a l IH]; intros bs y H; cbn [rmap] in H; [injection H as <- _; constructor|].
    apply rbind_some in H. destruct H as (b & x & z & H1 & H). apply rbind_some in H. destruct H as (bs' & x' & z' & H2 & H).
    injection H as <- _. constructor; eauto.
  Qed.
  Lemma rcost_some {A} c (m : R A) a x : rcost c m = Some (a, x) -> exists y, m = Some (a, y).
  Proof. unfold rcost, rbind. destruct m as [[a' y]|]; [|discriminate]. cbn. intros H. injection H as <- _. eauto. Qed.
  Lemma rdeep_some {A} (m : R A) a x : rdeep m = Some (a, x) -> exists y, m = Some (a, y).
  Proof. unfold rdeep. destruct m as [[a' y]|]; [|discriminate]. intros H. injection H as <- _. eauto. Qed.
  Lemma once_some conv occ w x : m_once conv occ = Some (w, x) -> exists tag n, occ = [(tag, n)] /\ conv n = Some (w, x).
  Proof. destruct occ as [|[tag n] [|]]; try discriminate. eauto. Qed.
  Ltac one_way H f x := apply once_some in H; destruct H as (tag & n & -> & H); exists tag, n; split; [reflexivity|]; exists f, x; exact H.
  Lemma occ_occurs t0 : forall f zc occ w x, m_occ (means ign e f zc t0) occ = Some (w, x) -> occurs e ign zc t0 occ w.
  Proof.
    assert (Hl : forall t f zc fin occ w x, m_occ (m_list ign fin (means ign e f zc t)) occ = Some (w, x) ->
      exists us, Forall2 (fun g u => stands e ign zc t (snd g) u) occ us /\ w = fin us).
    { intros t f zc fin occ w x H. cbn in H. apply rbind_some in H. destruct H as (us & x' & z & H1 & H). injection H as <- _. exists us. split; [|reflexivity].
      apply rmap_some in H1. refine (Forall2_imp _ _ _ _ _ H1). intros g u (y & Hy). apply rcost_some in Hy. destruct Hy as (y2 & Hy). now exists f, y2. }
    induction t0 as [w|w| | | | | | | | |t IH|t IH|t IH|t IH|k t IH|tk IHk tv IHv|ts|t IH|t IH| | |i]; intros f zc occ u x H;
      try (one_way H f x).
    - destruct zc; [one_way H f x|discriminate H].
    - destruct zc; [one_way H f x|discriminate H].
    - cbn [occurs]. unfold means in H. cbn [meaning_of] in H. destruct (is_u8 t) eqn:E8.
      + apply once_some in H. destruct H as (tag & n & -> & H). exists tag, n. split; [reflexivity|]. exists f, x. unfold means. cbn [meaning_of]. rewrite E8. exact H.
      + exact (Hl _ _ _ _ _ _ _ H).
    - exact (Hl _ _ _ _ _ _ _ H).
    - exact (Hl _ _ _ _ _ _ _ H).
    - cbn [occurs]. cbn in H. destruct occ as [|[tag n] [|]]; try discriminate.
      + injection H as <- _. now left.
      + right. apply rbind_some in H. destruct H as (v & x' & z & H1 & H). injection H as <- _. exists tag, n, v. split; [reflexivity|]. split; [reflexivity|]. now exists f, x'.
    - cbn [occurs]. unfold means in H. cbn [meaning_of] in H. destruct (is_u8 t) eqn:E8.
      + cbn [m_occ] in H. unfold m_arrb_occ in H. destruct occ as [|o occ].
        * right. destruct (N.eqb_spec k 0); [|discriminate]. injection H as <- _. auto.
        * left. apply once_some in H. destruct H as (tag & n & -> & H). exists tag, n. split; [reflexivity|]. exists f, x. unfold means. cbn [meaning_of]. rewrite E8. exact H.
      + cbn [m_array m_coll m_occ] in H. destruct (N.eqb_spec (lenN occ) k); [|discriminate]. split; [assumption|].
        apply rbind_some in H. destruct H as (us & x' & z & H1 & H). injection H as <- _. exists us. split; [|reflexivity].
        apply rmap_some in H1. refine (Forall2_imp _ _ _ _ _ H1). intros g v (y & Hy). now exists f, y.
    - cbn [occurs]. unfold means in H. cbn [meaning_of m_map m_coll m_occ] in H. apply rbind_some in H. destruct H as (kvs & x' & z & H1 & H). injection H as <- _.
      exists kvs. split; [|reflexivity]. apply rmap_some in H1. clear - H1. induction H1 as [|g [k v] occ kvs (y & Hy) H1 IH]; cbn [map]; constructor; auto.
      apply rcost_some in Hy. destruct Hy as (y2 & Hy). unfold m_entry in Hy. apply rbind_some in Hy. destruct Hy as (kv & x1 & z1 & H2 & Hy).
      destruct kv eqn:Ekv; try discriminate. match type of Ekv with _ = VRec ?l => destruct l as [|v1 [|v2 [|]]]; try discriminate end. subst kv. injection Hy as -> -> _. exists f, x1. exact H2.
    - exact (IH f zc occ u x H).
    - exact (IH f false occ u x H).
    - cbn [occurs]. cbn in H. apply rbind_some in H. destruct H as (r & x' & z & H1 & H). injection H as <- _. f_equal.
      apply rmap_some in H1. clear - H1. induction H1 as [|g r occ rs (y & Hy) H1 IH]; [reflexivity|]. injection Hy as <- _. now rewrite IH.
    - destruct f as [|f]; [discriminate|]. cbn [occurs]. unfold means in H. cbn [meaning_of item_meaning] in H.
      destruct (e i) as [b|vars catch] eqn:Ei; (apply once_some in H; destruct H as (tag & n & -> & H); exists tag, n; split; [reflexivity|]; exists (S f), x;
        unfold means; cbn [meaning_of item_meaning]; rewrite Ei; exact H).
  Qed.

  (** Fields of records. *)
  Lemma fields_nth ms : forall ks vs r x n tag m w, NoDup (map fst ms) -> m_fields ms ks = Some ((vs, r), x) ->
    nth_error ms n = Some (tag, m) -> nth_error vs n = Some w -> exists y, m_occ m (with_tag tag ks) = Some (w, y).
  Proof.
    induction ms as [|[t m] ms IH]; intros ks vs r x n tag m' w Hnd H Hm Hv; [destruct n; discriminate|]. cbn [m_fields] in H.
    apply rbind_some in H. destruct H as (v & x1 & z1 & H1 & H). apply rbind_some in H. destruct H as ([vs' r'] & x2 & z2 & H2 & H).
    cbn [fst snd] in H. injection H as <- <- _. cbn [map fst] in Hnd. inversion Hnd as [|a l Hni Hnd2]; subst. destruct n as [|n]; cbn [nth_error] in *.
    - injection Hm as -> ->. injection Hv as ->. now apply rdeep_some in H1.
    - destruct (IH _ _ _ _ n tag m' w Hnd2 H2 Hm Hv) as (y & E). exists y. rewrite <- E. f_equal.
      assert (Hne : tag <> t). { intros ->. apply Hni. apply nth_error_In in Hm. now apply (in_map fst) in Hm. }
      clear - Hne. induction ks as [|[t' n'] ks IH]; [reflexivity|]. unfold with_tag, without_tag in *. cbn [filter fst].
      destruct (N.eqb_spec t' t) as [-> |E1]; cbn [negb filter fst].
      + destruct (N.eqb_spec t tag); [congruence|exact IH].
      + now rewrite IH.
  Qed.
  Lemma record_fields ms mu ks vs x : m_record ign ms mu ks = Some (vs, x) -> exists ws r y, m_fields ms ks = Some ((ws, r), y) /\ firstn (List.length ms) vs = ws.
  Proof.
    unfold m_record. intros H. apply rbind_some in H. destruct H as ([ws r] & x1 & z1 & H1 & H). exists ws, r, x1. split; [exact H1|].
    pose proof (fields_rest _ _ _ _ _ H1) as [_ Hl]. rewrite <- Hl. cbn [fst snd] in H. destruct mu as [m|].
    - apply rbind_some in H. destruct H as (v & x2 & z2 & _ & H). injection H as <- _. rewrite firstn_app, firstn_all, Nat.sub_diag. now rewrite firstn_O, app_nil_r.
    - assert (E : vs = ws) by (destruct r; [|destruct ign]; try discriminate; injection H as <- _; reflexivity). rewrite E. apply firstn_all.
  Qed.
  Lemma firstn_nth {A} n k (l : list A) : (k < n)%nat -> nth_error (firstn n l) k = nth_error l k.
  Proof. revert n l. induction k as [|k IH]; intros [|n] [|a l] H; try lia; cbn; auto; try reflexivity. apply IH. lia. Qed.

  Lemma number_nth ms : forall i n, nth_error (m_number i ms) n = option_map (fun m => (i + N.of_nat n, m)) (nth_error ms n).
  Proof.
    induction ms as [|m ms IH]; intros i [|n]; cbn [m_number nth_error option_map]; try reflexivity; [now rewrite N.add_0_r|].
    rewrite IH. destruct (nth_error ms n); cbn; [|reflexivity]. do 2 f_equal. lia.
  Qed.
  Lemma number_nodup ms : forall i, NoDup (map fst (m_number i ms)).
  Proof.
    assert (H : forall ms i j, In j (map fst (m_number i ms)) -> i <= j).
    { induction ms0 as [|m ms0 IH]; intros i j Hin; [destruct Hin|]. destruct Hin as [<- |Hin]; [cbn; lia|]. specialize (IH _ _ Hin). lia. }
    induction ms as [|m ms IH]; intros i; cbn [m_number map fst]; constructor; auto. intros Hin. specialize (H _ _ _ Hin). lia.
  Qed.
  Lemma plain_means t f zc : plain e t = true -> (forall ks, m_body (means ign e f zc t) ks = m_top ign (m_occ (means ign e f zc t)) ks) \/ (forall ks, m_body (means ign e f zc t) ks = None).
  Proof.
    intros Hp. unfold means. destruct t; try discriminate; cbn [meaning_of]; try (left; reflexivity).
    - destruct zc; [left|right]; reflexivity.
    - destruct zc; [left|right]; reflexivity.
    - destruct (is_u8 t); left; reflexivity.
    - destruct (is_u8 t); left; reflexivity.
    - destruct f as [|f]; [right; reflexivity|]. cbn [item_meaning plain] in *. destruct (e i); [discriminate|left; reflexivity].
  Qed.

  Theorem parts zc t tag zc' ft : top_field e zc t tag zc' ft -> forall ks v x w, denotes e ign zc t ks v x -> part e t v tag w ->
    occurs e ign zc' ft (with_tag tag ks) w.
  Proof.
    induction 1 as [zc t Hp|zc ts tag t Hn|zc i b tag t Ei Hd Hty|zc i b nm t tag zc' t' Ei Es Htf IH|zc t tag zc' t' Htf IH|zc t tag zc' t' Htf IH];
      intros ks v x w (f & H) Hpart.
    - assert (v = w) as <-. { inversion Hpart; subst; try discriminate; auto; cbn [plain] in Hp; rewrite ?H0 in Hp; try discriminate.
        all: match goal with E : e _ = _ |- _ => rewrite E in Hp; discriminate end. }
      destruct (plain_means t f zc Hp) as [E|E]; rewrite E in H; [|discriminate]. apply rbind_some in H. destruct H as (vs & x1 & z & H & H2).
      apply record_fields in H. destruct H as (ws & r & y & H & Hws). destruct vs as [|v1 [|]]; try discriminate. injection H2 as -> _. cbn in Hws. subst ws.
      destruct (fields_nth [(1, (mkMn (m_occ (means ign e f zc t)) (fun _ => rnone) (fun _ => rnone)))] _ _ _ _ O 1 (mkMn (m_occ (means ign e f zc t)) (fun _ => rnone) (fun _ => rnone)) v (NoDup_cons (1 : N) (@in_nil N 1) (NoDup_nil N)) H eq_refl eq_refl) as (y' & E').
      exact (occ_occurs t f zc _ _ _ E').
    - inversion Hpart as [t' v' Hp|ts' vs n w' Hv| | | |]; subst; [discriminate|].
      unfold nth_type in Hn. destruct (N.eqb_spec (N.of_nat n + 1) 0); [lia|]. replace (N.to_nat (N.of_nat n + 1 - 1)) with n in Hn by lia.
      apply rbind_some in H. destruct H as (vs' & x1 & z & H & H2). injection H2 as -> _. apply record_fields in H. destruct H as (ws & r & y & H & Hws).
      assert (Hn2 : nth_error (m_number 1 (map (meaning_of ign (item_meaning ign e f) zc) ts)) n = Some (N.of_nat n + 1, means ign e f zc t)).
      { rewrite number_nth. rewrite (map_nth_error _ _ _ Hn). cbn. do 2 f_equal. lia. }
      assert (Hlt : (n < List.length (m_number 1 (map (meaning_of ign (item_meaning ign e f) zc) ts)))%nat) by (apply nth_error_Some; rewrite Hn2; discriminate).
      destruct (fields_nth _ _ _ _ _ n _ _ w (number_nodup _ _) H Hn2) as (y' & E').
      + rewrite <- Hws. rewrite firstn_nth by exact Hlt. exact Hv.
      + exact (occ_occurs t f zc _ _ _ E').
    - inversion Hpart as [t' v' Hp| |i' b' vs n fd w' Ei' Hd' Hnd Hfd Hv|i' b' nm t0 vs v0 tag0 w0 Ei' Es'| |]; subst.
      + cbn [plain] in Hp. rewrite Ei in Hp. discriminate.
      + rewrite Ei in Ei'. injection Ei' as <-. assert (fd_ty fd = t) as <-.
        { clear - Hnd Hfd Hty. revert n Hfd Hty. induction (vb_fields b) as [|g fs IH]; intros [|n] Hfd Hty; try discriminate; cbn [nth_error tag_type map] in *.
          - injection Hfd as ->. rewrite N.eqb_refl in Hty. congruence.
          - inversion Hnd as [|a l Hni Hnd2]; subst. destruct (N.eqb_spec (fd_tag g) (fd_tag fd)) as [E|E].
            + exfalso. apply Hni. rewrite E. apply nth_error_In in Hfd. now apply (in_map fd_tag) in Hfd.
            + now apply (IH Hnd2 n). }
        destruct f as [|f]; [discriminate|]. unfold means in H. cbn [meaning_of item_meaning] in H. rewrite Ei in H. cbn [m_struct m_body] in H.
        assert (Hrec : exists mu y, m_record ign (m_decls (meaning_of ign (item_meaning ign e f) zc) (vb_fields b)) mu ks = Some (vs, y)).
        { unfold m_vbody in H. cbv zeta in H. unfold delegates in Hd. unfold m_construct in H. destruct (vb_special b) as [|nm' t'|nm' t']; try discriminate;
            apply rbind_some in H; destruct H as (vs' & x1 & z & H & H2); destruct (vb_check b vs'); try discriminate; injection H2 as <- _; eauto. }
        destruct Hrec as (mu & y & Hrec). apply record_fields in Hrec. destruct Hrec as (ws & r & y2 & H2 & Hws).
        assert (Hn2 : nth_error (m_decls (meaning_of ign (item_meaning ign e f) zc) (vb_fields b)) n = Some (fd_tag fd, means ign e f zc (fd_ty fd))).
        { unfold m_decls. now rewrite (map_nth_error _ _ _ Hfd). }
        assert (Hlt : (n < List.length (m_decls (meaning_of ign (item_meaning ign e f) zc) (vb_fields b)))%nat) by (apply nth_error_Some; rewrite Hn2; discriminate).
        destruct (fields_nth _ _ _ _ _ n _ _ w (eq_ind_r (fun l => NoDup l) Hnd (decls_tags (meaning_of ign (item_meaning ign e f) zc) (vb_fields b))) H2 Hn2) as (y' & E').
        * rewrite <- Hws. rewrite firstn_nth by exact Hlt. exact Hv.
        * exact (occ_occurs (fd_ty fd) f zc _ _ _ E').
      + rewrite Ei in Ei'. injection Ei' as <-. unfold delegates in Hd. rewrite Es' in Hd. discriminate.
    - inversion Hpart as [t0 v' Hp| |i' b' vs n fd w' Ei' Hd' Hnd Hfd Hv|i' b' nm' t0 vs v0 tag0 w0 Ei' Es' Hp2| |]; subst.
      + cbn [plain] in Hp. rewrite Ei in Hp. discriminate.
      + rewrite Ei in Ei'. injection Ei' as <-. unfold delegates in Hd'. rewrite Es in Hd'. discriminate.
      + rewrite Ei in Ei'. injection Ei' as <-. rewrite Es in Es'. injection Es' as <- <-.
        destruct f as [|f]; [discriminate|]. unfold means in H. cbn [meaning_of item_meaning] in H. rewrite Ei in H. cbn [m_struct m_body] in H.
        unfold m_vbody in H. cbv zeta in H. rewrite Es in H. apply rbind_some in H. destruct H as (dv & x1 & z & H & H2). apply rdeep_some in H. destruct H as (y & H).
        apply rbind_some in H2. destruct H2 as (r & x2 & z2 & _ & H2). unfold m_construct in H2. destruct (vb_check b (fst r ++ [dv])); [|discriminate]. injection H2 as H2 _.
        apply app_inj_tail in H2. destruct H2 as [_ ->]. apply (IH ks v0 y w); [|exact Hp2]. now exists f.
    - inversion Hpart; subst; [discriminate|]. apply (IH ks v x w); [now exists f|assumption].
    - inversion Hpart; subst; [discriminate|]. apply (IH ks v x w); [now exists f|assumption].
  Qed.
End Occ.

Theorem cardinality e zc cf t tag zc' ft ks s v w : usable e zc cf t -> top_field e zc t tag zc' ft -> doc_stream ks s ->
  fst (from_stream e zc cf t s) = ROk v -> part e t v tag w -> occurs e (cf_ignore cf) zc' ft (with_tag tag ks) w.
Proof.
  intros Hu Ht Hs Hok Hp. apply (meaning_ok e zc cf t ks s v Hu Hs) in Hok. destruct Hok as (x & Hd & _). exact (parts e (cf_ignore cf) zc t tag zc' ft Ht ks v x w Hd Hp).
Qed.

(** Collections take any number. *)
Lemma rmap_total {A B} (f : A -> R B) l bs : Forall2 (fun a b => exists x, f a = Some (b, x)) l bs -> exists y, rmap f l = Some (bs, y).
Proof.
  induction 1 as [|a b l bs (x & E) H (y & IH)]; cbn [rmap]; [eexists; reflexivity|]. rewrite E, IH. eexists. reflexivity.
Qed.
Lemma same_fuel e ign zc t (ks : list (N * node)) us : Forall2 (fun f u => fst f = 1 /\ stands e ign zc t (snd f) u) ks us ->
  exists fuel, Forall2 (fun f u => exists x, m_elem (means ign e fuel zc t) (snd f) = Some (u, x)) ks us.
Proof.
  induction 1 as [|f u ks us [_ (n & x & E)] H (m & IH)]; [exists O; constructor|]. exists (Nat.max n m). constructor.
  - exists x. exact (ml_elem _ _ (means_mle ign e n _ zc t (Nat.le_max_l n m)) _ _ E).
  - refine (Forall2_imp _ _ _ _ _ IH). intros g v (y & Ey). exists y. exact (ml_elem _ _ (means_mle ign e m _ zc t (Nat.le_max_r n m)) _ _ Ey).
Qed.
Theorem any_number e ign zc t fin ct ks us : In (ct, fin) [(TVec t, VList); (TSeq t, VList); (TSet t, as_set)] -> (ct = TVec t -> is_u8 t = false) ->
  Forall2 (fun f u => fst f = 1 /\ stands e ign zc t (snd f) u) ks us -> exists x, denotes e ign zc ct ks (fin us) x.
Proof.
  intros Hin Hu H. destruct (same_fuel _ _ _ _ _ _ H) as (fuel & HF).
  assert (Hm : m_body (means ign e fuel zc ct) ks = m_body (m_list ign fin (means ign e fuel zc t)) ks).
  { destruct Hin as [E|[E|[E|[]]]]; injection E as <- <-; unfold means; cbn [meaning_of]; [|reflexivity|reflexivity]. now rewrite (Hu eq_refl). }
  assert (H1 : with_tag 1 ks = ks /\ without_tag 1 ks = []).
  { clear - H. induction H as [|[t' n] u ks us [E _] H [IH1 IH2]]; [auto|]. cbn in E. subst t'. unfold with_tag, without_tag in *. cbn. now rewrite IH1. }
  destruct H1 as [H1 H2].
  assert (Hr : exists y, rmap (fun f : N * node => rcost cone (m_elem (means ign e fuel zc t) (snd f))) ks = Some (us, y)).
  { apply rmap_total. refine (Forall2_imp _ _ _ _ _ HF). intros g v (y & Ey). rewrite Ey. eexists. reflexivity. }
  destruct Hr as (y & Hr). eexists. exists fuel. rewrite Hm. cbn [m_list m_coll m_body]. unfold m_top, m_record. cbn [m_fields]. rewrite H1, H2. cbn [m_occ].
  rewrite Hr. reflexivity.
Qed.

From Verif Require Import SpecSerDe P_Ex.
Theorem too_many_refuted :
  ~ (forall cf e zc t tag zc' i A C D n s s' w, usable e zc cf t -> top_field e zc t tag zc' (TItem i) -> lenN (with_tag tag A) = 1 ->
       doc_stream (A ++ C) s -> fst (from_stream e zc cf t s) = ROk w -> doc_stream (A ++ (tag, n) :: D) s' ->
       exists err, fst (from_stream e zc cf t s') = RErr err /\ e_kind err = KTooMany 1).
Proof.
  intros H.
  destruct (H default_cfg ex_env false (TItem 1) 1 false 1%nat [(1, NEnum 1 [])] [] [] (NEnum 1 []) (new_stream true false (mkDev ([1; 1; 0] ++ [0] ++ []) 0 []))
    (new_stream true false (mkDev ([1; 1; 0; 1; 1; 0] ++ [0] ++ []) 0 [])) (VVar 0 (VRec []))) as (err & E & Hk).
  - split; [exact ex_env_ok|]. split; [apply ex_deserialisable; cbn; auto|]. split; vm_compute; discriminate.
  - now apply TfPlain.
  - reflexivity.
  - apply doc_by; reflexivity.
  - vm_compute. reflexivity.
  - apply doc_by; reflexivity.
  - vm_compute in E. injection E as <-. discriminate Hk.
Qed.
