(** * P_Pos: positions never wrap (C17) *)

From Verif Require Import Base Wire Dev Stream SpecWire SpecFormat SpecStream SpecBlob SpecHist
  P_Base P_Wire P_Sched P_Read P_Write.

Definition preserves {E A} (P : stream -> Prop) (m : M stream E A) : Prop :=
  forall s r s', P s -> m s = (r, s') -> P s'.

Section Pres.
  Variable P : stream -> Prop.
  Lemma pr_ret {E A} (x : A) : preserves (E := E) P (mret x).
  Proof. intros s r s' Hs H; injection H as <- <-; auto. Qed.
  Lemma pr_fail {E A} (e : E) : preserves (A := A) P (mfail e).
  Proof. intros s r s' Hs H; injection H as <- <-; auto. Qed.
  Lemma pr_panic {E A} : preserves (E := E) (A := A) P mpanic.
  Proof. intros s r s' Hs H; injection H as <- <-; auto. Qed.
  Lemma pr_res {E A} (x : res E A) : preserves P (mres x).
  Proof. intros s r s' Hs H; injection H as <- <-; auto. Qed.
  Lemma pr_fuel {E A} : preserves P (fun s : stream => (@RFuel E A, s)).
  Proof. intros s r s' Hs H; injection H as <- <-; auto. Qed.
  Lemma pr_mod {E} f : (forall s, P s -> P (f s)) -> preserves (E := E) P (mmod f).
  Proof. intros Hf s r s' Hs H; injection H as <- <-; auto. Qed.
  Lemma pr_get {E} : preserves (E := E) P mget.
  Proof. intros s r s' Hs H; injection H as <- <-; auto. Qed.
  Lemma pr_bind {E A B} (m : M stream E A) (k : A -> M stream E B) :
    preserves P m -> (forall a, preserves P (k a)) -> preserves P (mbind m k).
  Proof.
    intros Hm Hk s r s' Hs H. unfold mbind in H. destruct (m s) as [r1 s1] eqn:E1.
    pose proof (Hm _ _ _ Hs E1) as H1. destruct r1 as [x|e| |]; try (injection H as <- <-; exact H1).
    exact (Hk x _ _ _ H1 H).
  Qed.
  Lemma pr_if {E A} (b : bool) (m1 m2 : M stream E A) :
    preserves P m1 -> preserves P m2 -> preserves P (if b then m1 else m2).
  Proof. destruct b; auto. Qed.
  Lemma pr_lift {A} (m : IM A) : preserves P m -> preserves P (lift_io m).
  Proof.
    intros Hm s r s' Hs H. unfold lift_io in H. destruct (m s) as [r1 s1] eqn:E1.
    pose proof (Hm _ _ _ Hs E1). destruct r1; injection H as <- <-; auto.
  Qed.
  Lemma pr_miter {E A B} (step : A -> M stream E (A + B)) p :
    (forall a, preserves P (step a)) -> forall a, preserves P (miter p step a).
  Proof.
    intros Hs. induction p as [q IH|q IH|]; intros a; cbn [miter].
    - apply pr_bind; [apply Hs|]. intros [a'|b]; [|apply pr_ret].
      apply pr_bind; [apply IH|]. intros [a''|b]; [apply IH|apply pr_ret].
    - apply pr_bind; [apply IH|]. intros [a'|b]; [apply IH|apply pr_ret].
    - apply Hs.
  Qed.
  Lemma pr_mloop {E A B} (step : A -> M stream E (A + B)) :
    (forall a, preserves P (step a)) -> forall a, preserves P (mloop step a).
  Proof.
    intros Hs a. apply pr_bind; [now apply pr_miter|]. intros [a'|b]; [apply pr_fuel|apply pr_ret].
  Qed.
  Lemma pr_check n : preserves P (check_advance_pos n).
  Proof. intros s r s' Hs H. unfold check_advance_pos in H. destruct (_ <? _); injection H as <- <-; auto. Qed.
  Lemma pr_fun {E A} (f : stream -> M stream E A) : (forall s0, preserves P (f s0)) -> preserves P (fun s => f s s).
  Proof. intros Hf s r s' Hs H. exact (Hf s s r s' Hs H). Qed.
  Lemma pr_pure {E A} (f : stream -> res E A) : preserves P (fun s => (f s, s)).
  Proof. intros s r s' Hs H. injection H as <- <-. auto. Qed.

  Lemma pr_read_exact rd n : (forall n, preserves P (rd n)) -> preserves P (read_exact sch rd n).
  Proof.
    intros Hr s r s' Hs H. unfold read_exact in H. revert H. generalize (2 + length (sch s))%nat as fuel.
    generalize (@nil N) as acc. intros acc fuel. revert acc n s Hs.
    induction fuel as [|f IH]; intros acc n s Hs H; cbn [read_exact_loop] in H; [injection H as <- <-; auto|].
    destruct (n =? 0); [injection H as <- <-; auto|].
    destruct (rd n s) as [r1 s1] eqn:E1. pose proof (Hr n _ _ _ Hs E1) as H1.
    destruct r1 as [[|x l]|[]| |]; try (injection H as <- <-; exact H1); eapply IH; eauto.
  Qed.
  Lemma pr_read_upto rd n : (forall n, preserves P (rd n)) -> preserves P (read_upto sch rd n).
  Proof.
    intros Hr s r s' Hs H. unfold read_upto in H. revert H. generalize (2 + length (sch s))%nat as fuel.
    generalize (@nil N) as acc. intros acc fuel. revert acc n s Hs.
    induction fuel as [|f IH]; intros acc n s Hs H; cbn [read_upto_loop] in H; [injection H as <- <-; auto|].
    destruct (n =? 0); [injection H as <- <-; auto|].
    destruct (rd n s) as [r1 s1] eqn:E1. pose proof (Hr n _ _ _ Hs E1) as H1.
    destruct r1 as [[|x l]|[]| |]; try (injection H as <- <-; exact H1); eapply IH; eauto.
  Qed.
  Lemma pr_write_all w bs : (forall bs, preserves P (w bs)) -> preserves P (write_all sch w bs).
  Proof.
    intros Hr s r s' Hs H. unfold write_all in H. revert H. generalize (2 + length (sch s))%nat as fuel.
    intros fuel. revert bs s Hs.
    induction fuel as [|f IH]; intros bs s Hs H; cbn [write_all_loop] in H; [injection H as <- <-; auto|].
    destruct bs as [|x l]; [injection H as <- <-; auto|].
    destruct (w (x :: l) s) as [r1 s1] eqn:E1. pose proof (Hr _ _ _ _ Hs E1) as H1.
    destruct r1 as [n|[]| |]; try (injection H as <- <-; exact H1); [|eapply IH; eauto].
    destruct (n =? 0); [injection H as <- <-; exact H1|]. eapply IH; eauto.
  Qed.
  Lemma pr_decode : (preserves P (s_read_byte false)) -> preserves P s_decode_u64.
  Proof.
    intros Hb. unfold s_decode_u64, decode_u64. generalize 258%nat as fuel; intros fuel.
    generalize 0 at 1 as acc. generalize 0 as sh. revert fuel.
    induction fuel as [|fuel IH]; intros sh acc; cbn [decode_loop]; [apply pr_fuel|].
    apply pr_bind; [exact Hb|]. intros b. apply pr_if; [apply pr_fail|].
    cbv zeta. apply pr_if; [apply pr_ret|]. apply pr_if; [apply pr_fail|apply IH].
  Qed.
End Pres.

Definition dynok (s : stream) : Prop := s_commit s = Some CFinishDyn -> 10 <= s_dyn_start s <= U64_MAX.
(** [a], [b] fix the offset between the stream's and the device's position. *)
Definition pinv (a b : N) (s : stream) : Prop :=
  s_pos s <= U64_MAX /\ s_pos s + a = d_pos (s_dev s) + b /\ dynok s.
(** ... inside a blob from [st] to [e]. *)
Definition pblob (a b st e : N) (s : stream) : Prop :=
  pinv a b s /\ s_blob_end s = e /\ st <= s_pos s <= e /\ e <= U64_MAX.

(** Single transfers: the position and the device move together and the
    position stays within the buffer asked for. *)
Lemma t_read_pos g n s r s' : t_read g n s = (r, s') -> s_pos s <= U64_MAX ->
  exists k, k <= n /\ s_pos s + k <= U64_MAX /\ s_pos s' = s_pos s + k /\ d_pos (s_dev s') = d_pos (s_dev s) + k /\
    same_rest s s'.
Proof.
  intros H Hp. unfold t_read in H. destruct (N.eqb_spec n 0).
  { injection H as <- <-. exists 0. unfold same_rest. repeat split; lia. }
  unfold mbind at 1, check_advance_pos in H.
  destruct (N.ltb_spec (U64_MAX - s_pos s) n); [injection H as <- <-; exists 0; unfold same_rest; repeat split; lia|].
  unfold mbind at 1, on_dev, dev_read, sched_next in H.
  assert (Hz : exists k, k <= n /\ s_pos s + k <= U64_MAX /\ s_pos s = s_pos s + k /\ d_pos (s_dev s) = d_pos (s_dev s) + k) by (exists 0; repeat split; lia).
  destruct (d_sched (s_dev s)) as [|[c| |] sc].
  - unfold mbind, mmod in H. 
    match type of H with context [takeN ?k ?l] => set (bs := takeN k l) in *; assert (Hb : lenN bs <= n) by (unfold bs; rewrite lenN_takeN; lia) end.
    clearbody bs. exists (lenN bs). destruct bs; [destruct g|]; injection H as <- <-; unfold same_rest; scbn; cbn [d_pos]; repeat split; try lia; auto.
  - unfold mbind, mmod in H. 
    match type of H with context [takeN ?k ?l] => set (bs := takeN k l) in *; assert (Hb : lenN bs <= n) by (unfold bs; rewrite lenN_takeN; lia) end.
    clearbody bs. exists (lenN bs). destruct bs; [destruct g|]; injection H as <- <-; unfold same_rest; scbn; cbn [d_pos]; repeat split; try lia; auto.
  - injection H as <- <-. destruct Hz as (k & Hz). exists k. unfold same_rest; scbn; cbn [d_pos]. tauto.
  - injection H as <- <-. destruct Hz as (k & Hz). exists k. unfold same_rest; scbn; cbn [d_pos]. tauto.
Qed.

Lemma t_write_pos bs s r s' : t_write bs s = (r, s') -> s_pos s <= U64_MAX ->
  exists k, k <= lenN bs /\ s_pos s + k <= U64_MAX /\ s_pos s' = s_pos s + k /\ d_pos (s_dev s') = d_pos (s_dev s) + k /\
    same_rest s s'.
Proof.
  intros H Hp. unfold t_write in H. destruct bs as [|x l].
  { injection H as <- <-. exists 0. unfold same_rest. repeat split; lia. }
  set (bs := x :: l) in *. clearbody bs.
  unfold mbind at 1, check_advance_pos in H.
  destruct (N.ltb_spec (U64_MAX - s_pos s) (lenN bs)); [injection H as <- <-; exists 0; unfold same_rest; repeat split; lia|].
  unfold mbind at 1, on_dev, dev_write, sched_next in H.
  assert (Hz : exists k, k <= lenN bs /\ s_pos s + k <= U64_MAX /\ s_pos s = s_pos s + k /\ d_pos (s_dev s) = d_pos (s_dev s) + k) by (exists 0; repeat split; lia).
  destruct (d_sched (s_dev s)) as [|[c| |] sc].
  - unfold mbind, mmod in H. injection H as <- <-.
    exists (lenN (takeN (lenN bs) bs)). rewrite lenN_takeN. unfold same_rest; scbn; cbn [d_pos]. repeat split; lia.
  - unfold mbind, mmod in H. injection H as <- <-.
    exists (lenN (takeN (N.min (lenN bs) (N.max 1 c)) bs)). unfold same_rest; scbn; cbn [d_pos]. rewrite !lenN_takeN. repeat split; lia.
  - injection H as <- <-. destruct Hz as (k & Hz). exists k. unfold same_rest; scbn; cbn [d_pos]. tauto.
  - injection H as <- <-. destruct Hz as (k & Hz). exists k. unfold same_rest; scbn; cbn [d_pos]. tauto.
Qed.

Lemma dynok_same s s' : same_rest s s' -> dynok s -> dynok s'.
Proof. unfold same_rest, dynok. intros (_ & _ & -> & _ & _ & _ & -> & _). auto. Qed.

Lemma seek_pos w s r s' : on_dev (dev_seek w) s = (r, s') ->
  s_pos s' = s_pos s /\ same_rest s s' /\
  match r with
  | ROk n => d_pos (s_dev s') = n /\ Z.of_N n = (match w with
                    | SkStart n => Z.of_N n
                    | SkEnd z => (Z.of_N (lenN (d_data (s_dev s))) + z)
                    | SkCur z => (Z.of_N (d_pos (s_dev s)) + z)
                    end)%Z /\ n <= U64_MAX
  | _ => d_pos (s_dev s') = d_pos (s_dev s)
  end.
Proof.
  intros H. unfold on_dev, dev_seek in H.
  set (t := (match w with SkStart n => Z.of_N n | SkEnd z => (Z.of_N (lenN (d_data (s_dev s))) + z)
                    | SkCur z => (Z.of_N (d_pos (s_dev s)) + z) end)%Z) in *.
  assert (Hm : (if ((t <? 0) || (Z.of_N U64_MAX <? t))%Z
      then (RErr IoInvalidInput, mkDev (d_data (s_dev s)) (d_pos (s_dev s)) (tl (d_sched (s_dev s))))
      else (ROk (Z.to_N t), mkDev (d_data (s_dev s)) (Z.to_N t) (tl (d_sched (s_dev s))))) = (r, s_dev s') ->
      s_pos s' = s_pos s -> same_rest s s' -> 
      match r with ROk n => d_pos (s_dev s') = n /\ Z.of_N n = t /\ n <= U64_MAX | _ => d_pos (s_dev s') = d_pos (s_dev s) end).
  { intros Hx _ _. destruct (Z.ltb_spec t 0); cbn [orb] in Hx; [injection Hx as <- <-; reflexivity|].
    destruct (Z.ltb_spec (Z.of_N U64_MAX) t); injection Hx as <- <-; [reflexivity|]. cbn [d_pos]. repeat split; lia. }
  assert (Hsr : forall d, same_rest s (set_dev d s)) by (intros d; unfold same_rest; scbn; repeat split).
  destruct (d_sched (s_dev s)) as [|[c| |] sc]; cbn [tl] in *;
    lazymatch type of H with
    | context [_ || _] =>
      destruct (_ || _); injection H as <- <-; (split; [reflexivity|]); (split; [apply Hsr|]);
         apply Hm; try reflexivity; try apply Hsr
    | _ => injection H as <- <-; split; [reflexivity|]; split; [apply Hsr|]; reflexivity
    end.
Qed.

Section Ops.
  Variables a b : N.
  Notation P := (pinv a b).

  Lemma p_tread g n : preserves P (t_read g n).
  Proof.
    intros s r s' (H1 & H2 & H3) H. destruct (t_read_pos _ _ _ _ _ H H1) as (k & K1 & K2 & K3 & K4 & K5).
    split; [lia|]. split; [lia|]. eapply dynok_same; eauto.
  Qed.
  Lemma p_twrite bs : preserves P (t_write bs).
  Proof.
    intros s r s' (H1 & H2 & H3) H. destruct (t_write_pos _ _ _ _ H H1) as (k & K1 & K2 & K3 & K4 & K5).
    split; [lia|]. split; [lia|]. eapply dynok_same; eauto.
  Qed.
  Lemma p_wall bs : preserves P (write_all sch t_write bs).
  Proof. apply pr_write_all. apply p_twrite. Qed.
  Lemma p_rb g : preserves P (s_read_byte g).
  Proof.
    unfold s_read_byte. apply pr_lift, pr_bind; [apply pr_read_exact, p_tread|].
    intros [|x l]; [apply pr_panic|apply pr_ret].
  Qed.
  Lemma p_decode : preserves P s_decode_u64.
  Proof. apply pr_decode, p_rb. Qed.
  Lemma p_discard n : preserves P (skip_by_discard n).
  Proof. unfold skip_by_discard. apply pr_lift, pr_bind; [apply pr_read_upto, p_tread|intros; apply pr_ret]. Qed.
  Lemma p_skip_direct n : preserves P (skip_by_seek_direct n).
  Proof.
    intros s r s' HP H. unfold skip_by_seek_direct in H. unfold mbind at 1, lift_io, check_advance_pos in H.
    destruct (N.ltb_spec (U64_MAX - s_pos s) n); [injection H as <- <-; exact HP|].
    destruct (on_dev (dev_seek (SkCur (Z.of_N n))) s) as [r1 s1] eqn:E.
    destruct (seek_pos _ _ _ _ E) as (Hp & Hsr & Hr). destruct HP as (P1 & P2 & P3).
    destruct r1 as [x|e| |].
    - injection H as <- <-. destruct Hr as (R1 & R2 & R3). split; [scbn; lia|]. split; [scbn; lia|].
      eapply (dynok_same s); [|exact P3]. unfold same_rest in *. scbn. tauto.
    - eapply p_discard; [|exact H]. split; [lia|]. split; [lia|]. eapply dynok_same; eauto.
    - injection H as <- <-. split; [lia|]. split; [lia|]. eapply dynok_same; eauto.
    - injection H as <- <-. split; [lia|]. split; [lia|]. eapply dynok_same; eauto.
  Qed.
  Lemma p_skip_seek fuel : forall n, preserves P (skip_by_seek_rec fuel n).
  Proof.
    induction fuel as [|f IH]; intros n; cbn [skip_by_seek_rec]; [apply pr_fuel|].
    apply pr_if; [|apply p_skip_direct]. apply pr_bind; [apply IH|intros x].
    apply pr_if; [apply pr_ret|]. apply pr_bind; [apply IH|intros; apply pr_ret].
  Qed.
  Lemma p_skip_blob : preserves P skip_blob.
  Proof.
    intros s r s' HP H. unfold skip_blob in H. cbv zeta in H.
    destruct (s_pos s <? s_blob_end s); [|injection H as <- <-; exact HP].
    revert s r s' HP H. 
    intros s. generalize (s_seek s), (s_blob_end s - s_pos s). intros sk n r s' HP H. revert H. revert HP. revert s r s'.
    apply pr_bind.
    - apply pr_if; [apply p_skip_seek|apply p_discard].
    - intros k. apply pr_if; [apply pr_fail|apply pr_ret].
  Qed.
  Lemma p_check_end : preserves P check_at_end_of_blob.
  Proof.
    intros s r s' HP H. unfold check_at_end_of_blob in H.
    destruct (_ =? _); [injection H as <- <-; exact HP|].
    destruct (u64_sub _ _ _); injection H as <- <-; exact HP.
  Qed.

  (** [write_all] on success moves by exactly the length. *)
  Lemma wall_ok_pos bs s s' : s_pos s <= U64_MAX -> write_all sch t_write bs s = (ROk tt, s') ->
    s_pos s' = s_pos s + lenN bs.
  Proof.
    intros Hp H. destruct (tracker_write_simio bs s _ _ H) as [[Heq _]|(_ & e & He & _)]; [|discriminate].
    rewrite tw_clean in Heq by reflexivity. unfold wspec in Heq.
    assert (Hsp : forall x y : stream, (ROk (E := iokind) tt, x) = (ROk tt, y) -> s_pos x = s_pos y) by (intros x y Hxy; congruence).
    destruct bs as [|x l].
    { apply Hsp in Heq. change (lenN (@nil N)) with 0. change (s_pos (strip s)) with (s_pos s) in Heq. change (s_pos (strip s')) with (s_pos s') in Heq. lia. }
    change (cap_none (strip s)) with CapNone in Heq. cbn [cap_take] in Heq. cbv zeta in Heq.
    destruct (_ <? _); [discriminate|]. rewrite N.eqb_refl in Heq.
    apply Hsp in Heq. rewrite wr_pos in Heq. exact (eq_sym Heq).
  Qed.

  Lemma p_finish_dyn s r s' : P s -> s_commit s = Some CFinishDyn ->
    finish_dynamic_blob s = (r, s') -> P s'.
  Proof.
    intros HP Hc H. unfold finish_dynamic_blob in H. pose proof HP as (P1 & P2 & P3). pose proof (P3 Hc) as Hdy.
    destruct (N.ltb_spec (s_pos s) (s_dyn_start s)); [injection H as <- <-; exact HP|].
    unfold mbind at 1, mres at 1 in H. rewrite u64_sub_ok in H by lia.
    unfold mbind at 1, mres at 1 in H. rewrite u64_sub_ok in H by lia.
    set (disp := s_pos s - (s_dyn_start s - 10)) in *.
    destruct (I64_MAX <? disp); [injection H as <- <-; exact HP|].
    unfold mbind at 1, lift_io at 1 in H.
    destruct (on_dev (dev_seek (SkCur (- Z.of_N disp))) s) as [r1 s1] eqn:E1.
    destruct (seek_pos _ _ _ _ E1) as (Hp1 & Hsr1 & Hr1).
    assert (HP1 : match r1 with ROk _ => P (set_pos_ (s_pos s1 - disp) s1) | _ => P s1 end).
    { destruct r1; split; try (scbn; lia); (split; [scbn; lia|]); (eapply (dynok_same s); [|exact P3]); unfold same_rest in *; scbn; tauto. }
    destruct r1 as [x|e| |]; try (injection H as <- <-; exact HP1).
    unfold mbind at 1, mmod at 1 in H. set (s2 := set_pos_ (s_pos s1 - disp) s1) in *.
    assert (Hp2 : s_pos s2 = s_dyn_start s - 10) by (unfold s2; scbn; unfold disp; lia).
    unfold mbind at 1, lift_io at 1 in H.
    destruct (write_all sch t_write _ s2) as [r3 s3] eqn:E3.
    pose proof (p_wall _ _ _ _ HP1 E3) as HP3.
    destruct r3 as [[]|e| |]; try (injection H as <- <-; exact HP3).
    apply wall_ok_pos in E3; [|apply HP1]. change (lenN (encode_fixed_u64 _)) with 10 in E3.
    unfold mbind at 1, lift_io at 1 in H.
    destruct (on_dev (dev_seek _) s3) as [r4 s4] eqn:E4.
    destruct (seek_pos _ _ _ _ E4) as (Hp4 & Hsr4 & Hr4). destruct HP3 as (Q1 & Q2 & Q3).
    destruct r4 as [x4|e| |]; unfold mmod in H; injection H as <- <-; split; try (scbn; lia); (split; [scbn; lia|]);
      (eapply (dynok_same s3); [|exact Q3]); unfold same_rest in *; scbn; tauto.
  Qed.

  Lemma p_clear_commit s : P s -> P (set_commit None s).
  Proof. intros (H1 & H2 & H3). split; [exact H1|]. split; [exact H2|]. unfold dynok. scbn. discriminate. Qed.

  Lemma p_commit : preserves P commit.
  Proof.
    intros s r s' HP H. unfold commit in H. destruct (s_commit s) as [f|] eqn:Ec; [|injection H as <- <-; exact HP].
    unfold mbind at 1 in H.
    assert (Hall : forall (m : SM unit), (forall r1 s1, m s = (r1, s1) -> P s1) ->
       (let (r, s') := m s in match r with ROk _ => mmod (set_commit None) s' | RErr e => (RErr e, s')
          | RPanic => (RPanic, s') | RFuel => (RFuel, s') end) = (r, s') -> P s').
    { intros m Hm Hx. destruct (m s) as [r1 s1] eqn:E1. specialize (Hm _ _ eq_refl).
      destruct r1; try (injection Hx as <- <-; exact Hm). unfold mmod in Hx. injection Hx as <- <-.
      now apply p_clear_commit. }
    destruct f; (eapply Hall; [|exact H]); intros r1 s1 H1;
      [eapply p_skip_blob; eauto|eapply p_check_end; eauto|eapply p_finish_dyn; eauto].
  Qed.

  Lemma p_next_blob : preserves P next_blob.
  Proof.
    unfold next_blob. apply pr_bind; [apply p_decode|intros len]. apply pr_bind; [apply pr_lift, pr_check|intros _].
    apply pr_bind; [apply pr_mod|intros _; apply pr_bind; [apply pr_mod|intros _; apply pr_ret]].
    - intros s (H1 & H2 & H3). repeat split; auto; apply H3; auto.
    - intros s (H1 & H2 & H3). split; [exact H1|]. split; [exact H2|]. unfold dynok. scbn. discriminate.
  Qed.
  Lemma p_incr : preserves P incr_depth.
  Proof. intros s r s' HP H. unfold incr_depth in H. destruct (u64_add _ _ _); injection H as <- <-; exact HP. Qed.
  Lemma p_next_value t : preserves P (next_value t).
  Proof.
    destruct t; cbn [next_value].
    - apply pr_bind; [apply p_decode|intros d]. apply pr_bind; [apply p_incr|intros; apply pr_ret].
    - apply pr_bind; [apply p_decode|intros; apply pr_ret].
    - apply pr_bind; [apply p_next_blob|intros; apply pr_ret].
    - apply pr_bind; [apply p_incr|intros; apply pr_ret].
  Qed.
  Lemma p_step sp u : preserves P (next_element_step sp u).
  Proof.
    unfold next_element_step. apply pr_bind; [apply pr_get|intros s0]. apply pr_bind; [apply p_rb|intros c].
    destruct (parse_desc c) as [[ty tag|[]]|]; try apply pr_panic.
    - apply pr_bind; [apply pr_mod|intros _].
      { intros s HP. destruct (s_depth s =? 0); exact HP. }
      apply pr_bind; [apply pr_get|intros s1]. apply pr_bind; [apply p_next_value|intros; apply pr_ret].
    - apply pr_bind; [apply pr_mod|intros; apply pr_ret]. intros s HP. destruct (0 <? s_depth s); exact HP.
    - apply pr_bind; [apply pr_mod; auto|intros _]. apply pr_bind; [apply pr_mod; auto|intros; apply pr_ret].
    - apply pr_bind; [apply p_next_blob|intros; apply pr_ret].
    - apply pr_if; apply pr_ret.
  Qed.
  Lemma p_impl sp : preserves P (next_element_impl sp).
  Proof.
    intros s r s' HP H. unfold next_element_impl in H. destruct (s_eof s); [injection H as <- <-; exact HP|].
    revert HP H. apply pr_bind; [apply p_commit|intros _]. apply pr_mloop. apply p_step.
  Qed.
  Lemma p_skip_up d : preserves P (skip_up d).
  Proof.
    unfold skip_up. apply pr_mloop. intros u. apply pr_bind; [apply pr_get|intros s]. apply pr_if; [|apply pr_ret].
    apply pr_bind; [apply p_impl|intros; apply pr_ret].
  Qed.
  Lemma p_write_desc d : preserves P (write_desc d).
  Proof.
    unfold write_desc. apply pr_bind; [apply p_commit|intros _].
    apply (pr_fun P (fun s0 => _)). intros s0. apply pr_bind; [apply pr_res|intros c]. apply pr_lift, p_wall.
  Qed.
  Lemma p_encode n : preserves P (s_encode_u64 n).
  Proof. unfold s_encode_u64. destruct (encode_u64 n); [apply pr_lift, p_wall|apply pr_panic]. Qed.
  Lemma p_write_u64 t n : preserves P (write_u64 t n).
  Proof. unfold write_u64. apply pr_bind; [apply p_write_desc|intros; apply p_encode]. Qed.
  Lemma p_pad al : preserves P (pad_to_align al).
  Proof.
    unfold pad_to_align. apply (pr_fun P (fun s0 => _)). intros s0. apply pr_bind; [apply pr_res|intros m].
    apply pr_bind; [apply pr_if; [apply pr_panic|apply pr_ret]|intros _]. apply pr_bind; [apply p_commit|intros _].
    apply pr_mloop. intros u. apply pr_bind; [apply pr_get|intros s]. apply pr_if; [apply pr_ret|].
    apply pr_bind; [apply p_write_desc|intros; apply pr_ret].
  Qed.
  Lemma p_alloc d len : preserves P (write_desc_with_blob_alloc d len).
  Proof.
    unfold write_desc_with_blob_alloc. apply pr_bind; [apply p_commit|intros _]. apply pr_if; [apply pr_fail|].
    apply pr_bind; [apply pr_lift, pr_check|intros _]. apply pr_bind; [apply p_write_desc|intros _].
    apply pr_bind; [apply p_encode|intros _]. apply pr_bind.
    - intros s r s' HP H. destruct (u64_add _ _ _); injection H as <- <-; exact HP.
    - intros _. apply pr_bind; [apply pr_mod|intros; apply pr_ret].
      intros s (H1 & H2 & H3). split; [exact H1|]. split; [exact H2|]. unfold dynok. scbn. discriminate.
  Qed.
  Lemma p_dyn d : preserves P (write_desc_with_blob_dynamic d).
  Proof.
    intros s r s' HP H. unfold write_desc_with_blob_dynamic in H. unfold mbind at 1 in H.
    destruct (write_desc d s) as [r1 s1] eqn:E1. pose proof (p_write_desc _ _ _ _ HP E1) as HP1.
    destruct r1 as [[]|e| |]; try (injection H as <- <-; exact HP1).
    unfold mbind at 1, mres at 1 in H. destruct (u64_sub (s_dbg s1) U64_MAX (s_pos s1)) as [x|e| |]; try (injection H as <- <-; exact HP1).
    unfold mbind at 1, mres at 1 in H. destruct (u64_sub (s_dbg s1) x 10) as [len|e| |]; try (injection H as <- <-; exact HP1).
    unfold mbind at 1, s_encode_fixed_u64, lift_io in H.
    destruct (write_all sch t_write _ s1) as [r2 s2] eqn:E2. pose proof (p_wall _ _ _ _ HP1 E2) as HP2.
    destruct r2 as [[]|e| |]; try (injection H as <- <-; exact HP2).
    apply wall_ok_pos in E2; [|apply HP1]. change (lenN (encode_fixed_u64 _)) with 10 in E2.
    unfold mbind at 1, mmod at 1 in H. unfold mbind at 1 in H.
    destruct HP2 as (Q1 & Q2 & Q3).
    destruct (u64_add _ _ _); try (injection H as <- <-; split; [exact Q1|split; [exact Q2|]]; intros Hc; scbn; lia).

  Qed.
End Ops.

(** Blob operations keep the position inside the blob. *)
Section Blobs.
  Variables a b st e : N.
  Notation P := (pblob a b st e).

  Lemma pb_rem {E} : preserves P (@b_remaining E).
  Proof. intros s r s' HP H. injection H as <- <-. exact HP. Qed.
  Lemma pb_read n : preserves P (b_read n).
  Proof.
    intros s r s' HP H. unfold b_read in H. pose proof HP as ((P1 & P2 & P3) & P4 & P5 & P6).
    rewrite (mbind_ok _ _ _ _ _ (ltac:(unfold b_remaining; rewrite u64_sub_ok by lia; reflexivity) : b_remaining s = (ROk (s_blob_end s - s_pos s), s))) in H.
    destruct (N.eqb_spec (s_blob_end s - s_pos s) 0); [injection H as <- <-; exact HP|].
    destruct (t_read_pos _ _ _ _ _ H P1) as (k & K1 & K2 & K3 & K4 & K5).
    assert (k <= s_blob_end s - s_pos s) by (destruct (N.ltb_spec (s_blob_end s - s_pos s) n); lia).
    pose proof (dynok_same _ _ K5 P3). destruct K5 as (_ & K5 & _).
    repeat split; try assumption; try lia; apply H1; auto.
  Qed.
  Lemma pb_write bs : preserves P (b_write bs).
  Proof.
    intros s r s' HP H. unfold b_write in H. pose proof HP as ((P1 & P2 & P3) & P4 & P5 & P6).
    rewrite (mbind_ok _ _ _ _ _ (ltac:(unfold b_remaining; rewrite u64_sub_ok by lia; reflexivity) : b_remaining s = (ROk (s_blob_end s - s_pos s), s))) in H.
    destruct (t_write_pos _ _ _ _ H P1) as (k & K1 & K2 & K3 & K4 & K5). rewrite lenN_takeN in K1.
    pose proof (dynok_same _ _ K5 P3). destruct K5 as (_ & K5 & _).
    repeat split; try assumption; try lia; apply H0; auto.
  Qed.
End Blobs.

Lemma pblob_ext a b st e s s' : pblob a b st e s -> s_pos s' = s_pos s -> d_pos (s_dev s') = d_pos (s_dev s) ->
  same_rest s s' -> pblob a b st e s'.
Proof.
  intros ((P1 & P2 & P3) & P4 & P5 & P6) H1 H2 H3. pose proof (dynok_same _ _ H3 P3).
  destruct H3 as (_ & H3 & _). repeat split; try lia; apply H; auto.
Qed.

Lemma pb_op a b st e len o : e - len = st -> len <= e -> preserves (pblob a b st e) (bop_run len o).
Proof.
  intros Hst Hlen. destruct o; cbn [bop_run].
  - apply pr_bind; [apply pr_lift, pb_read|intros; apply pr_ret].
  - apply pr_bind; [apply pr_lift, pr_read_exact, pb_read|intros; apply pr_ret].
  - apply pr_bind; [|intros; apply pr_ret]. unfold b_read_fully. apply pr_bind; [apply pb_rem|intros rem].
    apply pr_if; [apply pr_fail|apply pr_lift, pr_read_upto, pb_read].
  - apply pr_bind; [|intros; apply pr_ret]. apply pr_lift, pr_read_upto, pb_read.
  - (* fill_buf, consume *)
    intros s r s' HP H. pose proof HP as ((P1 & P2 & P3) & P4 & P5 & P6).
    assert (Hrem : forall E, @b_remaining E s = (ROk (s_blob_end s - s_pos s), s)).
    { intros E. unfold b_remaining. now rewrite u64_sub_ok by lia. }
    unfold mbind at 1 in H. destruct (lift_io b_fill_buf s) as [r1 s1] eqn:E1.
    assert (H1 : s_pos s1 = s_pos s /\ d_pos (s_dev s1) = d_pos (s_dev s) /\ same_rest s s1 /\
                 match r1 with ROk buf => lenN buf <= s_blob_end s - s_pos s | _ => True end).
    { unfold lift_io, b_fill_buf in E1. rewrite (mbind_ok _ _ _ _ _ (Hrem iokind)) in E1.
      unfold mbind at 1, on_dev, dev_fill_buf, sched_next in E1.
      assert (Hsr : forall d, same_rest s (set_dev d s)) by (intros d; unfold same_rest; scbn; repeat split).
      destruct (d_sched (s_dev s)) as [|[c| |] sc];
        try (injection E1 as <- <-; split; [reflexivity|split; [reflexivity|split; [apply Hsr|exact I]]]);
        unfold mbind, check_advance_pos in E1; destruct (_ <? _) in E1; unfold mret in E1; injection E1 as <- <-;
        split; try reflexivity; (split; [reflexivity|]); (split; [apply Hsr|]); try exact I;
        rewrite !lenN_takeN; lia. }
    destruct H1 as (Hp1 & Hd1 & Hs1 & Hb1).
    pose proof (pblob_ext _ _ _ _ _ _ HP Hp1 Hd1 Hs1) as HP1.
    destruct r1 as [buf|e1| |]; try (injection H as <- <-; exact HP1).
    pose proof HP1 as ((Q1 & Q2 & Q3) & Q4 & Q5 & Q6).
    unfold mbind at 1, lift_io, b_consume in H.
    unfold mbind at 1 in H. unfold b_remaining at 1 in H. rewrite u64_sub_ok in H by lia.
    destruct (_ && _); [injection H as <- <-; exact HP1|].
    rewrite u64_add_ok in H.
    + unfold mret in H. injection H as <- <-. repeat split; scbn; cbn [d_pos]; try lia; apply Q3; auto.
    + unfold U64_MOD, U64_MAX in *. lia.
  - apply pr_bind; [|intros; apply pr_ret]. unfold b_slice. apply pr_bind; [apply pb_rem|intros rem].
    apply pr_bind.
    + intros s r s' HP H. unfold as_slice in H. destruct (_ <? _); injection H as <- <-; exact HP.
    + intros inner. apply pr_if; [apply pr_ret|apply pr_fail].
  - apply pr_bind; [apply pr_lift, pb_write|intros; apply pr_ret].
  - apply pr_bind; [apply pr_lift, pr_write_all, pb_write|intros; apply pr_ret].
  - apply pr_bind; [|intros; apply pr_ret]. unfold b_slice_mut_set. apply pr_bind.
    + unfold b_slice. apply pr_bind; [apply pb_rem|intros rem]. apply pr_bind.
      * intros s r s' HP H. unfold as_slice in H. destruct (_ <? _); injection H as <- <-; exact HP.
      * intros inner. apply pr_if; [apply pr_ret|apply pr_fail].
    + intros cur. apply pr_if; [|apply pr_ret]. apply pr_mod. intros s HP. cbv zeta.
      eapply pblob_ext; [exact HP|reflexivity|reflexivity|]. unfold same_rest; scbn; repeat split.
  - (* seek *)
    intros s r s' HP H. pose proof HP as ((P1 & P2 & P3) & P4 & P5 & P6).
    unfold mbind at 1, lift_io in H. destruct (b_seek len w s) as [r1 s1] eqn:E1.
    assert (H1 : pblob a b st e s1); [|destruct r1; unfold mret in H; injection H as <- <-; exact H1].
    clear H. unfold b_seek in E1. unfold mbind at 1 in E1.
    assert (Htgt : forall rt st', b_seek_target len w s = (rt, st') -> st' = s /\
        match rt with ROk t => st <= t <= e | _ => True end).
    { intros rt st' Ht.
      assert (Hbs : forall E, @b_start_pos E len s = (ROk st, s)).
      { intros E. unfold b_start_pos. rewrite P4, u64_sub_ok by lia. now rewrite Hst. }
      assert (Hbr : forall E, @b_remaining E s = (ROk (e - s_pos s), s)).
      { intros E. unfold b_remaining. now rewrite P4, u64_sub_ok by lia. }
      assert (Hbi : forall E, @b_inner_pos E len s = (ROk (len - (e - s_pos s)), s)).
      { intros E. unfold b_inner_pos. rewrite (mbind_ok _ _ _ _ _ (Hbr E)), u64_sub_ok by lia. reflexivity. }
      assert (Hadd : forall x y, x + y <= U64_MAX -> @u64_add iokind (s_dbg s) x y = ROk (x + y)).
      { intros x y Hxy. apply u64_add_ok. unfold U64_MOD, U64_MAX in *. lia. }
      unfold b_seek_target in Ht. destruct w as [p|z|z].
      - destruct (N.leb_spec p len); [|injection Ht as <- <-; auto].
        rewrite (mbind_ok _ _ _ _ _ (Hbs iokind)) in Ht. rewrite Hadd in Ht by lia. injection Ht as <- <-. split; [auto|lia].
      - destruct (z <=? 0)%Z; [|injection Ht as <- <-; auto].
        unfold mbind at 1, mres at 1 in Ht. destruct (i64_neg (s_dbg s) z) as [o| | |]; try (injection Ht as <- <-; auto).
        destruct (N.leb_spec o len); [|injection Ht as <- <-; auto].
        rewrite (mbind_ok _ _ _ _ _ (Hbs iokind)) in Ht. rewrite Hadd in Ht by lia. injection Ht as <- <-. split; [auto|lia].
      - destruct (z <? 0)%Z.
        + unfold mbind at 1, mres at 1 in Ht. destruct (i64_neg (s_dbg s) z) as [o| | |]; try (injection Ht as <- <-; auto).
          rewrite (mbind_ok _ _ _ _ _ (Hbi iokind)) in Ht.
          destruct (N.leb_spec o (len - (e - s_pos s))); [|injection Ht as <- <-; auto].
          rewrite u64_sub_ok in Ht by lia. injection Ht as <- <-. split; [auto|lia].
        + rewrite (mbind_ok _ _ _ _ _ (Hbr iokind)) in Ht.
          destruct (N.leb_spec (Z.to_N z) (e - s_pos s)); [|injection Ht as <- <-; auto].
          rewrite Hadd in Ht by lia. injection Ht as <- <-. split; [auto|lia]. }
    destruct (b_seek_target len w s) as [rt st'] eqn:Et. destruct (Htgt _ _ eq_refl) as [-> Ht].
    destruct rt as [t|x| |]; try (injection E1 as <- <-; exact HP).
    unfold mbind at 1 in E1.
    assert (Hmv : forall z t0, (z = Z.of_N t - Z.of_N (s_pos s))%Z -> t0 = t -> forall r3 s3,
       (on_dev (dev_seek (SkCur z)) ;; mmod (fun x => set_pos_ (t0 - 0) x)) s = (r3, s3) -> pblob a b st e s3).
    { intros z t0 -> -> r3 s3 H3. unfold mbind in H3.
      destruct (on_dev (dev_seek (SkCur (Z.of_N t - Z.of_N (s_pos s)))) s) as [r2 s2] eqn:E2.
      destruct (seek_pos _ _ _ _ E2) as (Hp2 & Hs2 & Hr2).
      pose proof (dynok_same _ _ Hs2 P3) as Hdy. destruct Hs2 as (_ & Hbe & _).
      destruct r2; unfold mmod in H3; injection H3 as <- <-; repeat split; scbn; cbn [s_pos set_pos_] in *; try lia; apply Hdy; auto. }
    destruct (N.ltb_spec t (s_pos s)).
    + destruct (I64_MAX <? _); [injection E1 as <- <-; exact HP|].
      match type of E1 with context [?m s] =>
        match m with mbind (on_dev _) _ => destruct (m s) as [r3 s3] eqn:E3 end end.
      assert (H3 : pblob a b st e s3).
      { unfold mbind in E3. destruct (on_dev (dev_seek (SkCur (- Z.of_N (s_pos s - t)))) s) as [r2 s2] eqn:E2.
        specialize (Hmv (- Z.of_N (s_pos s - t))%Z t ltac:(lia) eq_refl). unfold mbind in Hmv. rewrite E2 in Hmv.
        destruct (seek_pos _ _ _ _ E2) as (Hp2 & _).
        destruct r2; unfold mmod in *; injection E3 as <- <-; try (eapply Hmv; reflexivity).
        replace (s_pos s2 - (s_pos s - t)) with (t - 0) by lia. eapply Hmv; reflexivity. }
      destruct r3 as [[]|x| |]; try (injection E1 as <- <-; exact H3).
      unfold b_inner_pos, mbind, b_remaining in E1. destruct (u64_sub _ _ _); injection E1 as <- <-; exact H3.
    + destruct (I64_MAX <? _); [injection E1 as <- <-; exact HP|].
      match type of E1 with context [?m s] =>
        match m with mbind (on_dev _) _ => destruct (m s) as [r3 s3] eqn:E3 end end.
      assert (H3 : pblob a b st e s3).
      { unfold mbind in E3. destruct (on_dev (dev_seek (SkCur (Z.of_N (t - s_pos s)))) s) as [r2 s2] eqn:E2.
        specialize (Hmv (Z.of_N (t - s_pos s))%Z t ltac:(lia) eq_refl). unfold mbind in Hmv. rewrite E2 in Hmv.
        destruct (seek_pos _ _ _ _ E2) as (Hp2 & _).
        destruct r2; unfold mmod in *; injection E3 as <- <-; try (eapply Hmv; reflexivity).
        replace (s_pos s2 + (t - s_pos s)) with (t - 0) by lia. eapply Hmv; reflexivity. }
      destruct r3 as [[]|x| |]; try (injection E1 as <- <-; exact H3).
      unfold b_inner_pos, mbind, b_remaining in E1. destruct (u64_sub _ _ _); injection E1 as <- <-; exact H3.
  - apply pr_bind; [apply pb_rem|intros rem]. apply pr_bind; [apply pr_pure|intros x].
    apply pr_bind; [|intros y; apply pr_bind; [apply pr_get|intros; apply pr_ret]].
    unfold b_inner_pos. apply pr_bind; [apply pb_rem|intros; apply pr_pure].
Qed.

(** ** Successful calls that return a blob *)
Definition yields {E A} (P : stream -> Prop) (Q : A -> stream -> Prop) (m : M stream E A) : Prop :=
  forall s x s', P s -> m s = (ROk x, s') -> Q x s'.

Section Yields.
  Context {E : Type} (P : stream -> Prop).
  Lemma y_bind {A B} (Q : B -> stream -> Prop) (m : M stream E A) (k : A -> M stream E B) :
    preserves P m -> (forall a, yields P Q (k a)) -> yields P Q (mbind m k).
  Proof.
    intros Hm Hk s x s' Hs H. unfold mbind in H. destruct (m s) as [r1 s1] eqn:E1.
    destruct r1 as [y|e| |]; try discriminate. exact (Hk y _ _ _ (Hm _ _ _ Hs E1) H).
  Qed.
  Lemma y_bind2 {A B} (Q1 : A -> stream -> Prop) (Q : B -> stream -> Prop) (m : M stream E A) (k : A -> M stream E B) :
    yields P Q1 m -> (forall a, yields (Q1 a) Q (k a)) -> yields P Q (mbind m k).
  Proof.
    intros Hm Hk s x s' Hs H. unfold mbind in H. destruct (m s) as [r1 s1] eqn:E1.
    destruct r1 as [y|e| |]; try discriminate. exact (Hk y _ _ _ (Hm _ _ _ Hs E1) H).
  Qed.
  Lemma y_ret {A} (Q : A -> stream -> Prop) (x : A) : (forall s, P s -> Q x s) -> yields P Q (mret (E := E) x).
  Proof. intros Hq s y s' Hs H. injection H as <- <-. auto. Qed.
  Lemma y_fail {A} (Q : A -> stream -> Prop) e : yields P Q (mfail (E := E) e).
  Proof. intros s y s' Hs H. discriminate. Qed.
  Lemma y_panic {A} (Q : A -> stream -> Prop) : yields P Q (mpanic (E := E)).
  Proof. intros s y s' Hs H. discriminate. Qed.
  Lemma y_miter {A B} (Q : B -> stream -> Prop) (step : A -> M stream E (A + B)) p :
    (forall a, preserves P (step a)) ->
    (forall a, yields P (fun r s => match r with inr b => Q b s | inl _ => True end) (step a)) ->
    forall a, yields P (fun r s => match r with inr b => Q b s | inl _ => True end) (miter p step a).
  Proof.
    intros Hp Hy. induction p as [q IH|q IH|]; intros a; cbn [miter]; [| |apply Hy].
    - apply (y_bind2 (fun r s => P s /\ match r with inr b => Q b s | inl _ => True end)).
      { intros s x s' Hs H. split; [eapply Hp; eauto|eapply Hy; eauto]. }
      intros [a'|b]; [|intros s x s' Hs H; injection H as <- <-; apply Hs].
      intros s x s' [Hs _] H. revert s x s' Hs H.
      apply (y_bind2 (fun r s => P s /\ match r with inr b => Q b s | inl _ => True end)).
      { intros s x s' Hs H. split; [eapply (pr_miter P step q Hp); eauto|eapply IH; eauto]. }
      intros [a''|b]; [intros s x s' [Hs _] H; eapply IH; eauto|intros s x s' Hs H; injection H as <- <-; apply Hs].
    - apply (y_bind2 (fun r s => P s /\ match r with inr b => Q b s | inl _ => True end)).
      { intros s x s' Hs H. split; [eapply (pr_miter P step q Hp); eauto|eapply IH; eauto]. }
      intros [a''|b]; [intros s x s' [Hs _] H; eapply IH; eauto|intros s x s' Hs H; injection H as <- <-; apply Hs].
  Qed.
  Lemma y_mloop {A B} (Q : B -> stream -> Prop) (step : A -> M stream E (A + B)) :
    (forall a, preserves P (step a)) ->
    (forall a, yields P (fun r s => match r with inr b => Q b s | inl _ => True end) (step a)) ->
    forall a, yields P Q (mloop step a).
  Proof.
    intros Hp Hy a. unfold mloop.
    apply (y_bind2 (fun r s => match r with inr b => Q b s | inl _ => True end)).
    - now apply y_miter.
    - intros [x|x] s y s' Hs H; [discriminate|]. injection H as <- <-. exact Hs.
  Qed.
End Yields.

(** The open blob, if any, contains the position. *)
Definition inblob (len : N) (s : stream) : Prop :=
  len <= s_blob_end s /\ s_blob_end s - len <= s_pos s <= s_blob_end s /\ s_blob_end s <= U64_MAX.
Definition open_ok (op : open) (s : stream) : Prop :=
  match op with OBlob len => inblob len s | _ => True end.

Section Open.
  Variables a b : N.
  Notation P := (pinv a b).

  Lemma y_next_blob : yields P inblob next_blob.
  Proof.
    unfold next_blob. apply y_bind; [apply p_decode|intros len].
    intros s x s' HP H. unfold mbind at 1, lift_io, check_advance_pos in H.
    destruct (N.ltb_spec (U64_MAX - s_pos s) len); [discriminate|].
    unfold mbind, mmod, mret in H. injection H as <- <-. unfold inblob. destruct HP as (P1 & _). scbn. lia.
  Qed.
  Definition el_ok (e : element) (s : stream) : Prop :=
    match e with
    | ElField f => match f_val f with HBlob len => inblob len s | _ => True end
    | ElException len => inblob len s
    | _ => True
    end.
  Lemma y_next_value t : yields P (fun v s => match v with HBlob len => inblob len s | _ => True end) (next_value t).
  Proof.
    destruct t; cbn [next_value].
    - intros s x s' _ H. unfold mbind in H. destruct (s_decode_u64 s) as [[]]; try discriminate.
      destruct (incr_depth _) as [[]]; try discriminate. injection H as <- <-. exact I.
    - intros s x s' _ H. unfold mbind in H. destruct (s_decode_u64 s) as [[]]; try discriminate. injection H as <- <-. exact I.
    - apply (y_bind2 P inblob); [apply y_next_blob|intros len]. apply y_ret. auto.
    - intros s x s' _ H. unfold mbind in H.
      destruct (incr_depth _) as [[]]; try discriminate. injection H as <- <-. exact I.
  Qed.
  Lemma y_impl sp : yields P el_ok (next_element_impl sp).
  Proof.
    intros s x s' HP H. unfold next_element_impl in H. destruct (s_eof s); [injection H as <- <-; exact I|].
    revert HP H. revert s x s'. apply y_bind; [apply p_commit|intros _].
    apply y_mloop; [apply p_step|]. intros u. unfold next_element_step.
    apply y_bind; [apply pr_get|intros s0]. apply y_bind; [apply p_rb|intros c].
    destruct (parse_desc c) as [[ty tag|[]]|]; try apply y_panic.
    - apply y_bind; [apply pr_mod|intros _].
      { intros s HP. destruct (s_depth s =? 0); exact HP. }
      apply y_bind; [apply pr_get|intros s1].
      apply (y_bind2 P _ _ _ _ (y_next_value ty)). intros v. apply y_ret. intros s Hv. cbn. destruct v; auto.
    - intros s x s' _ H. unfold mbind, mmod, mret in H. injection H as <- <-. exact I.
    - intros s x s' _ H. unfold mbind, mmod, mret in H. injection H as <- <-. exact I.
    - apply (y_bind2 P _ _ _ _ y_next_blob). intros len. apply y_ret. auto.
    - intros s x s' _ H. destruct sp; injection H as <- <-; exact I.
  Qed.
  Lemma y_alloc d len : yields P inblob (write_desc_with_blob_alloc d len).
  Proof.
    intros s x s' HP H. unfold write_desc_with_blob_alloc in H.
    unfold mbind at 1 in H. destruct (commit s) as [[[]| | |] s1] eqn:E1; try discriminate.
    pose proof (p_commit a b _ _ _ HP E1) as HP1.
    destruct (N.ltb_spec (U64_MAX - 11) len); [discriminate|].
    unfold mbind at 1, lift_io at 1, check_advance_pos in H.
    destruct (N.ltb_spec (U64_MAX - s_pos s1) (len + 11)); [discriminate|].
    (* the second commit finds nothing to do, and at most 11 bytes are written *)
    assert (Hc : s_commit s1 = None).
    { unfold commit in E1. destruct (s_commit s) as [f|] eqn:Ec; [|injection E1 as <-; exact Ec].
      unfold mbind in E1.
      destruct f; match type of E1 with context [?g s] => destruct (g s) as [[u|e| |] s0]; try discriminate end;
        unfold mmod in E1; injection E1 as <-; reflexivity. }
    unfold mbind at 1 in H. destruct (write_desc d s1) as [[[]| | |] s2] eqn:E2; try discriminate.
    pose proof (p_write_desc a b _ _ _ _ HP1 E2) as HP2.
    assert (Hp2 : s_pos s2 = s_pos s1 + 1).
    { unfold write_desc in E2. unfold mbind at 1 in E2. unfold commit in E2. rewrite Hc in E2.
      unfold mbind, mres in E2. destruct (desc_byte (s_dbg s1) d); try discriminate.
      unfold lift_io in E2. destruct (write_all sch t_write [a0] s1) as [[[]| | |] s3] eqn:E3; try discriminate.
      injection E2 as <-. apply wall_ok_pos in E3; [exact E3|apply HP1]. }
    unfold mbind at 1 in H. destruct (s_encode_u64 len s2) as [[[]| | |] s3] eqn:E3; try discriminate.
    pose proof (p_encode a b _ _ _ _ HP2 E3) as HP3.
    assert (Hp3 : s_pos s3 <= s_pos s2 + 10).
    { unfold s_encode_u64 in E3. destruct (encode_u64 len) as [bs|] eqn:Eb; [|discriminate].
      unfold lift_io in E3. destruct (write_all sch t_write bs s2) as [[[]| | |] s4] eqn:E4; try discriminate.
      injection E3 as <-. apply wall_ok_pos in E4; [|apply HP2].
      assert (lenN bs <= 10); [|lia]. clear -Eb. unfold encode_u64 in Eb.
      assert (Hg : forall f i bs, enc_loop f i = Some bs -> lenN bs <= N.of_nat f).
      { induction f as [|f IH]; intros i bs' Hb; cbn [enc_loop] in Hb; [discriminate|].
        destruct (_ =? _); [injection Hb as <-; change (lenN [N.land i 127]) with 1; lia|].
        destruct (enc_loop f _) as [l|] eqn:El; [|discriminate]. cbn in Hb. injection Hb as <-.
        apply IH in El. rewrite lenN_cons. lia. }
      apply Hg in Eb. exact Eb. }
    unfold mbind at 1 in H. rewrite u64_add_ok in H by (unfold U64_MOD, U64_MAX in *; lia).
    unfold mbind, mmod, mret in H. injection H as <- <-. unfold inblob. scbn. lia.
  Qed.
  Lemma y_dyn d : yields P inblob (write_desc_with_blob_dynamic d).
  Proof.
    intros s x s' HP H. unfold write_desc_with_blob_dynamic in H. unfold mbind at 1 in H.
    destruct (write_desc d s) as [r1 s1] eqn:E1. pose proof (p_write_desc a b _ _ _ _ HP E1) as HP1.
    destruct r1 as [[]|e| |]; try discriminate.
    unfold mbind at 1, mres at 1 in H. rewrite u64_sub_ok in H by apply HP1.
    unfold mbind at 1, mres at 1 in H.
    destruct (u64_sub (s_dbg s1) (U64_MAX - s_pos s1) 10) as [len|e| |] eqn:El; try discriminate.
    unfold mbind at 1, s_encode_fixed_u64, lift_io in H.
    destruct (write_all sch t_write _ s1) as [r2 s2] eqn:E2. pose proof (p_wall a b _ _ _ _ HP1 E2) as HP2.
    destruct r2 as [[]|e| |]; try discriminate.
    apply wall_ok_pos in E2; [|apply HP1]. change (lenN (encode_fixed_u64 _)) with 10 in E2.
    destruct HP2 as (Q1 & Q2 & Q3).
    rewrite u64_sub_ok in El by lia. injection El as <-.
    unfold mbind at 1, mmod at 1 in H. unfold mbind at 1 in H.
    rewrite u64_add_ok in H by (scbn; unfold U64_MOD, U64_MAX in *; lia).
    unfold mbind, mmod, mret in H. injection H as <- <-. unfold inblob. scbn. lia.
  Qed.
  Lemma inblob_pblob len s : P s -> inblob len s -> pblob a b (s_blob_end s - len) (s_blob_end s) s.
  Proof. intros H (H1 & H2 & H3). split; [exact H|]. split; [reflexivity|]. split; [lia|exact H3]. Qed.
  Lemma pblob_inblob len e s : len <= e -> pblob a b (e - len) e s -> P s /\ inblob len s.
  Proof. intros Hle (H & H1 & H2 & H3). split; [exact H|]. unfold inblob. subst e. lia. Qed.
  Lemma yp_data (al : SM N) data : preserves P al -> yields P inblob al ->
    preserves P (let* len := al in lift_io (b_write_all data) ;; mret len) /\
    yields P inblob (let* len := al in lift_io (b_write_all data) ;; mret len).
  Proof.
    intros Hp Hy.
    assert (Hw : forall s r s', P s -> forall len, inblob len s -> lift_io (b_write_all data) s = (r, s') -> P s' /\ inblob len s').
    { intros s r s' HP len Hin H. pose proof (inblob_pblob _ _ HP Hin) as Hpb.
      apply (pblob_inblob len (s_blob_end s)); [apply Hin|].
      refine (pr_lift _ _ (pr_write_all _ _ _ _) _ _ _ _ H); [|exact Hpb]. intros; apply pb_write. }
    split.
    - intros s r s' HP H. unfold mbind at 1 in H. destruct (al s) as [r1 s1] eqn:E1.
      pose proof (Hp _ _ _ HP E1) as HP1. destruct r1 as [len|e| |]; try (injection H as <- <-; exact HP1).
      pose proof (Hy _ _ _ HP E1) as Hin. unfold mbind in H. destruct (lift_io (b_write_all data) s1) as [r2 s2] eqn:E2.
      destruct (Hw _ _ _ HP1 _ Hin E2) as [HP2 _]. destruct r2; injection H as <- <-; exact HP2.
    - intros s x s' HP H. unfold mbind at 1 in H. destruct (al s) as [r1 s1] eqn:E1.
      pose proof (Hp _ _ _ HP E1) as HP1. destruct r1 as [len|e| |]; try discriminate.
      pose proof (Hy _ _ _ HP E1) as Hin. unfold mbind in H. destruct (lift_io (b_write_all data) s1) as [r2 s2] eqn:E2.
      destruct (Hw _ _ _ HP1 _ Hin E2) as [_ HP2]. destruct r2; try discriminate. injection H as <- <-; exact HP2.
  Qed.
  Lemma p_next_field : preserves P next_field.
  Proof.
    intros s r s' HP H. unfold next_field in H. unfold mbind at 1 in H.
    destruct (next_element_impl true s) as [r1 s1] eqn:E1. pose proof (p_impl a b _ _ _ _ HP E1) as HP1.
    destruct r1 as [[f| | |len|]|e| |]; try (injection H as <- <-; exact HP1).
    pose proof (y_impl true _ _ _ HP E1) as Hin. cbn in Hin.
    pose proof (inblob_pblob _ _ HP1 Hin) as Hpb. unfold mbind in H.
    destruct (b_read_or_trunc 256 s1) as [r2 s2] eqn:E2.
    assert (HP2 : P s2); [|destruct r2; injection H as <- <-; exact HP2].
    refine (proj1 (pr_lift _ _ (pr_read_upto _ _ _ _) _ _ _ Hpb E2)). intros; apply pb_read.
  Qed.
  Lemma y_next_field : yields P (fun f s => match f with Some f => el_ok (ElField f) s | None => True end) next_field.
  Proof.
    unfold next_field. apply (y_bind2 P _ _ _ _ (y_impl true)).
    intros [f| | |len|]; try (apply y_ret; auto); [|apply y_panic].
    intros s x s' _ H. unfold mbind in H. destruct (b_read_or_trunc 256 s) as [[]]; discriminate.
  Qed.

  (** Calls that say themselves where the stream is. *)
  Definition repositions (c : call) : Prop := match c with CResetPos _ | CSeek _ => True | _ => False end.

  Strategy 1000 [s_decode_u64 decode_u64 decode_loop write_all read_exact encode_u64 enc_loop encode_fixed_u64 mloop miter].
  Lemma call_pos op c s r s' : ~ repositions c -> P s -> open_ok op s ->
    call_run op c s = (r, s') -> P s' /\ open_ok (opens op c r) s'.
  Proof.
    intros Hn HP Ho H.
    assert (Hu : forall m : SM unit, preserves P m -> forall c', c' = c -> (match c with CBlob _ => False | _ => True end) ->
       ret_unit m s = (r, s') -> P s' /\ open_ok (opens op c r) s').
    { intros m Hm c' _ Hc Hx. unfold ret_unit in Hx.
      assert (HP' : P s') by (refine (pr_bind _ _ _ Hm (fun _ => pr_ret _ _) _ _ _ HP Hx)).
      split; [exact HP'|]. destruct r as [v|e| |]; [|now destruct c..].
      unfold mbind in Hx. destruct (m s) as [[[]| | |] s1]; try discriminate. injection Hx as <- <-. now destruct c. }
    assert (Hb : forall m : SM N, preserves P m -> yields P inblob m ->
       (match c with CBlob _ => False | _ => True end) ->
       (let* n := m in mret (VBlobLen n)) s = (r, s') -> P s' /\ open_ok (opens op c r) s').
    { intros m Hm Hy Hc Hx. unfold mbind in Hx. destruct (m s) as [r1 s1] eqn:E1. pose proof (Hm _ _ _ HP E1) as HP1.
      destruct r1 as [n|e| |]; injection Hx as <- <-; (split; [exact HP1|]); destruct c; try contradiction; try exact I.
      all: exact (Hy _ _ _ HP E1). }
    destruct c; cbn [call_run] in H; idtac;
      try (eapply Hu; [..|exact H]; [|reflexivity|exact I]).
    - (* next_element *)
      unfold mbind in H. destruct (next_element s) as [r1 s1] eqn:E1. pose proof (p_impl a b _ _ _ _ HP E1) as HP1.
      destruct r1 as [e|e| |]; injection H as <- <-; (split; [exact HP1|]); try exact I.
      pose proof (y_impl false _ _ _ HP E1) as Hin. cbn. destruct e; cbn in *; auto. destruct (f_val f); cbn in *; auto.
    - unfold mbind in H. destruct (next_field s) as [r1 s1] eqn:E1. pose proof (p_next_field _ _ _ HP E1) as HP1.
      destruct r1 as [e|e| |]; injection H as <- <-; (split; [exact HP1|]); try exact I.
      pose proof (y_next_field _ _ _ HP E1) as Hin. cbn. destruct e as [f|]; cbn in *; auto. destruct (f_val f); cbn in *; auto.
    - apply p_skip_up.
    - destruct op; [injection H as <- <-; now split|injection H as <- <-; now split|].
      eapply Hu; [..|exact H]; [|reflexivity|exact I]. unfold field_skip.
      destruct (f_val f); try apply pr_ret; apply p_skip_up.
    - apply p_commit.
    - exfalso. apply Hn. exact I.
    - exfalso. apply Hn. exact I.
    - apply pr_mod. auto.
    - apply pr_mod. auto.
    - apply pr_mod. auto.
    - apply p_write_u64.
    - apply p_write_u64.
    - apply (Hb (write_blob_data tag bs)); auto; apply yp_data; try apply p_alloc; apply y_alloc.
    - apply (Hb (write_blob_alloc tag len)); auto; [apply p_alloc|apply y_alloc].
    - apply (Hb (write_blob_dynamic tag)); auto; [apply p_dyn|apply y_dyn].
    - apply (Hb (write_exception_data bs)); auto; apply yp_data; try apply p_alloc; apply y_alloc.
    - apply (Hb (write_exception_alloc len)); auto; [apply p_alloc|apply y_alloc].
    - apply (Hb (write_exception_dynamic)); auto; [apply p_dyn|apply y_dyn].
    - apply p_write_desc.
    - unfold write_enum. apply pr_bind; [apply p_write_desc|intros; apply p_encode].
    - apply p_write_desc.
    - apply p_write_desc.
    - apply p_write_desc.
    - apply p_pad.
    - destruct op as [|len|f]; [injection H as <- <-; now split| |injection H as <- <-; now split].
      pose proof (inblob_pblob _ _ HP Ho) as Hpb.
      unfold mbind in H. destruct (bop_run len o s) as [r1 s1] eqn:E1.
      pose proof (pb_op a b _ _ len o eq_refl (proj1 Ho) _ _ _ Hpb E1) as H1.
      apply (pblob_inblob len (s_blob_end s)) in H1; [|apply Ho].
      destruct r1; injection H as <- <-; exact H1.
  Qed.
End Open.

(** ** Histories *)
Lemma run_pos a b cs : forall op s rs op' s',
  Forall (fun c => ~ repositions c) cs -> pinv a b s -> open_ok op s ->
  run_calls cs op s = (rs, (op', s')) -> pinv a b s' /\ open_ok op' s'.
Proof.
  induction cs as [|c cs IH]; intros op s rs op' s' Hf HP Ho H; cbn [run_calls] in H.
  - injection H as <- <- <-. auto.
  - inversion Hf as [|? ? Hc Hcs]; subst. destruct (call_run op c s) as [x s1] eqn:E1.
    destruct (call_pos a b op c s x s1 Hc HP Ho E1) as [HP1 Ho1].
    destruct (run_calls cs (opens op c x) s1) as [xs [op2 s2]] eqn:E2. injection H as <- <- <-.
    eapply IH; eauto.
Qed.

Definition reset_fits (c : call) : Prop := match c with CResetPos p => p <= U64_MAX | _ => True end.

Lemma commit_none s s' : commit s = (ROk tt, s') -> s_commit s' = None.
Proof.
  intros E1. unfold commit in E1. destruct (s_commit s) as [f|] eqn:Ec; [|injection E1 as <-; exact Ec].
  unfold mbind in E1.
  destruct f; match type of E1 with context [?g s] => destruct (g s) as [[u|e| |] s0]; try discriminate end;
    unfold mmod in E1; injection E1 as <-; reflexivity.
Qed.

Lemma reset_pos_pos a b p s r s' : p <= U64_MAX -> pinv a b s -> reset_pos p s = (r, s') ->
  (exists a' b', pinv a' b' s').
Proof.
  intros Hp HP H. unfold reset_pos in H. unfold mbind at 1 in H.
  destruct (commit s) as [r1 s1] eqn:E1. pose proof (p_commit a b _ _ _ HP E1) as HP1.
  destruct r1 as [[]|e| |]; try (injection H as <- <-; now exists a, b).
  unfold mbind, mmod in H. injection H as <- <-. apply commit_none in E1.
  exists (d_pos (s_dev s1)), p. split; [exact Hp|]. split; [scbn; lia|].
  unfold dynok. scbn. rewrite E1. discriminate.
Qed.

Lemma seek_st_pos a b w s r s' : pinv a b s -> st_seek w s = (r, s') -> exists a' b', pinv a' b' s'.
Proof.
  intros HP H. unfold st_seek in H. unfold mbind at 1 in H.
  destruct (commit s) as [r1 s1] eqn:E1. pose proof (p_commit a b _ _ _ HP E1) as HP1.
  destruct r1 as [[]|e| |]; try (injection H as <- <-; now exists a, b).
  apply commit_none in E1.
  unfold mbind at 1, lift_io in H. destruct (on_dev (dev_seek w) s1) as [r2 s2] eqn:E2.
  destruct (seek_pos _ _ _ _ E2) as (Hp2 & Hs2 & Hr2).
  assert (Hc2 : s_commit s2 = None) by (destruct Hs2 as (_ & _ & _ & _ & _ & _ & -> & _); exact E1).
  assert (HP2 : pinv (d_pos (s_dev s2)) (s_pos s2) s2).
  { split; [rewrite Hp2; apply HP1|]. split; [lia|]. unfold dynok. rewrite Hc2. discriminate. }
  destruct r2 as [off|e| |]; try (injection H as <- <-; eauto).
  unfold mbind at 1 in H. destruct (reset_pos off s2) as [r3 s3] eqn:E3.
  destruct (reset_pos_pos _ _ _ _ _ _ (proj2 (proj2 Hr2)) HP2 E3) as (a' & b' & HP3).
  destruct r3 as [[]|e| |]; try (injection H as <- <-; eauto).
Qed.

Lemma run_pos_all cs : forall op s rs op' s' a b,
  Forall reset_fits cs -> pinv a b s -> open_ok op s ->
  run_calls cs op s = (rs, (op', s')) -> (exists a' b', pinv a' b' s') /\ open_ok op' s'.
Proof.
  induction cs as [|c cs IH]; intros op s rs op' s' a b Hf HP Ho H; cbn [run_calls] in H.
  - injection H as <- <- <-. split; [eauto|exact Ho].
  - inversion Hf as [|? ? Hc Hcs]; subst. destruct (call_run op c s) as [x s1] eqn:E1.
    destruct (run_calls cs (opens op c x) s1) as [xs [op2 s2]] eqn:E2. injection H as <- <- <-.
    assert (Hst : (exists a' b', pinv a' b' s1) /\ open_ok (opens op c x) s1).
    { destruct c;
        try (match goal with |- context [opens op ?c x] =>
             destruct (call_pos a b op c s x s1 ltac:(cbn; tauto) HP Ho E1) as [HP1 Ho1]; split; [eauto|exact Ho1] end).
      - cbn [call_run] in E1. unfold ret_unit in E1. unfold mbind in E1.
        destruct (reset_pos p s) as [r1 s2'] eqn:E3. destruct (reset_pos_pos _ _ _ _ _ _ Hc HP E3) as (a' & b' & HP').
        destruct r1 as [[]|e| |]; injection E1 as <- <-; (split; [eauto|exact I]).
      - cbn [call_run] in E1. unfold mbind in E1.
        destruct (st_seek w s) as [r1 s2'] eqn:E3. destruct (seek_st_pos _ _ _ _ _ _ HP E3) as (a' & b' & HP').
        destruct r1 as [n|e| |]; injection E1 as <- <-; (split; [eauto|exact I]). }
    destruct Hst as [(a' & b' & HP1) Ho1]. eapply IH; eauto.
Qed.
Lemma hist_pos cs s rs op s' :
  s_pos s <= U64_MAX -> s_commit s = None ->
  (forall p, In (CResetPos p) cs -> p <= U64_MAX) ->
  run_calls cs ONone s = (rs, (op, s')) -> s_pos s' <= U64_MAX.
Proof.
  intros Hp Hc Hr H.
  destruct (run_pos_all cs ONone s rs op s' (d_pos (s_dev s)) (s_pos s)) as [(a & b & HP) _]; auto.
  - apply Forall_forall. intros c Hin. destruct c; cbn; auto.
  - split; [exact Hp|]. split; [lia|]. unfold dynok. rewrite Hc. discriminate.
  - exact I.
  - apply HP.
Qed.
Lemma hist_follows cs s rs op s' :
  s_pos s <= U64_MAX -> s_commit s = None ->
  (forall c, In c cs -> ~ repositions c) ->
  run_calls cs ONone s = (rs, (op, s')) ->
  s_pos s' + d_pos (s_dev s) = s_pos s + d_pos (s_dev s').
Proof.
  intros Hp Hc Hr H.
  destruct (run_pos (d_pos (s_dev s)) (s_pos s) cs ONone s rs op s') as [(_ & HP & _) _]; auto.
  - apply Forall_forall. exact Hr.
  - split; [exact Hp|]. split; [lia|]. unfold dynok. rewrite Hc. discriminate.
  - exact I.
  - lia.
Qed.
Lemma hist_blob cs s rs len s' :
  s_pos s <= U64_MAX -> s_commit s = None ->
  (forall p, In (CResetPos p) cs -> p <= U64_MAX) ->
  run_calls cs ONone s = (rs, (OBlob len, s')) ->
  exists start, start + len = b_end_pos s' /\ start <= s_pos s' <= b_end_pos s' /\ b_end_pos s' <= U64_MAX.
Proof.
  intros Hp Hc Hr H.
  destruct (run_pos_all cs ONone s rs (OBlob len) s' (d_pos (s_dev s)) (s_pos s)) as [_ Ho]; auto.
  - apply Forall_forall. intros c Hin. destruct c; cbn; auto.
  - split; [exact Hp|]. split; [lia|]. unfold dynok. rewrite Hc. discriminate.
  - exact I.
  - destruct Ho as (H1 & H2 & H3). unfold b_end_pos. exists (s_blob_end s' - len). lia.
Qed.
