(** * P_Errs: which errors reading can report (C75) *)

From Verif Require Import Base Wire Dev Stream Types Prog De SpecFormat SpecDe SpecRead SpecStream SpecHist SpecBlob SpecCrash SpecSerDe SpecErr P_Base P_Sched P_Stream P_Prog P_Wp P_Dict P_DictAll P_DeStream P_DeSched P_DeProps P_Names P_Read P_Blob.
Local Open Scope N_scope.
Strategy 1000 [s_decode_u64 decode_u64 decode_loop write_all read_exact encode_u64 enc_loop encode_fixed_u64 mloop miter].

Definition rd (s : stream) : Prop := s_commit s = None \/ s_commit s = Some CSkipBlob.
(** Errors are [ok]; reading leaves reading streams. *)
Definition er {E A} (ok : E -> Prop) (m : M stream E A) : Prop :=
  forall s r s', rd s -> m s = (r, s') -> rd s' /\ (forall x, r = RErr x -> ok x).
Section Er.
  Context {E : Type} (ok : E -> Prop).
  Lemma er_ret {A} (a : A) : er ok (mret a).
  Proof. intros s r s' Hs H. injection H as <- <-. split; [exact Hs|discriminate]. Qed.
  Lemma er_fail {A} x : ok x -> er (A := A) ok (mfail x).
  Proof. intros Hx s r s' Hs H. injection H as <- <-. split; [exact Hs|]. intros y Hy. now injection Hy as <-. Qed.
  Lemma er_panic {A} : er (A := A) ok mpanic.
  Proof. intros s r s' Hs H. injection H as <- <-. split; [exact Hs|discriminate]. Qed.
  Lemma er_get : er ok mget.
  Proof. intros s r s' Hs H. injection H as <- <-. split; [exact Hs|discriminate]. Qed.
  Lemma er_mod f : (forall s, rd s -> rd (f s)) -> er ok (mmod f).
  Proof. intros Hf s r s' Hs H. injection H as <- <-. split; [now apply Hf|discriminate]. Qed.
  Lemma er_bind {A B} (m : M stream E A) (f : A -> M stream E B) : er ok m -> (forall a, er ok (f a)) -> er ok (mbind m f).
  Proof.
    intros Hm Hf s r s' Hs H. unfold mbind in H. destruct (m s) as [[a|x| |] s1] eqn:E1; destruct (Hm _ _ _ Hs E1) as [H1 H2].
    - exact (Hf a _ _ _ H1 H).
    - injection H as <- <-. split; [exact H1|]. intros y Hy. injection Hy as <-. now apply H2.
    - injection H as <- <-. split; [exact H1|discriminate].
    - injection H as <- <-. split; [exact H1|discriminate].
  Qed.
  Lemma er_if {A} (c : bool) (m n : M stream E A) : er ok m -> er ok n -> er ok (if c then m else n).
  Proof. destruct c; auto. Qed.
  Lemma er_iter {A B} (step : A -> M stream E (A + B)) : (forall a, er ok (step a)) -> forall p a, er ok (miter p step a).
  Proof.
    intros H p. induction p as [q IH|q IH|]; intros a; cbn [miter].
    - apply er_bind; [apply H|]. intros [x|x]; [|apply er_ret]. apply er_bind; [apply IH|]. intros [y|y]; [apply IH|apply er_ret].
    - apply er_bind; [apply IH|]. intros [y|y]; [apply IH|apply er_ret].
    - apply H.
  Qed.
  Lemma er_loop {A B} (step : A -> M stream E (A + B)) a : (forall a, er ok (step a)) -> er ok (mloop step a).
  Proof.
    intros H. unfold mloop. apply er_bind; [now apply er_iter|]. intros [x|x]; [|apply er_ret].
    intros s r s' Hs X. injection X as <- <-. split; [exact Hs|discriminate].
  Qed.
  Lemma er_still {A} (f : stream -> res E A) : (forall s x, f s = RErr x -> ok x) -> er ok (fun s => (f s, s)).
  Proof. intros Hf s r s' Hs H. injection H as <- <-. split; [exact Hs|]. intros x. apply Hf. Qed.
End Er.

Definition io_ok (k : iokind) : Prop := k = IoUnexpectedEof \/ k = IoOther.
Definition io_dev (k : iokind) : Prop := k = IoInterrupted \/ k = IoOther.
Lemma er_lift {A} (m : IM A) : er io_ok m -> er reading_error (lift_io m).
Proof.
  intros Hm s r s' Hs H. unfold lift_io in H. destruct (m s) as [[a|x| |] s1] eqn:E1; destruct (Hm _ _ _ Hs E1) as [H1 H2]; injection H as <- <-;
    (split; [exact H1|]); try discriminate. intros y Hy. injection Hy as <-. exact (H2 _ eq_refl).
Qed.
Lemma er_check (ok : iokind -> Prop) n : ok IoOther -> er ok (check_advance_pos n).
Proof. intros Ho s r s' Hs H. unfold check_advance_pos in H. destruct (_ <? _); injection H as <- <-; (split; [exact Hs|]); [|discriminate]. intros y Hy. now injection Hy as <-. Qed.
Lemma er_dev_read n : er io_dev (on_dev (dev_read n)).
Proof.
  intros s r s' Hs H. unfold on_dev, dev_read, sched_next in H.
  destruct (d_sched (s_dev s)) as [|[c| |] sc]; injection H as <- <-; (split; [exact Hs|]); try discriminate; intros y Hy; injection Hy as <-; [left|right]; reflexivity.
Qed.
Lemma er_tread g n : er io_dev (t_read g n).
Proof.
  unfold t_read. apply er_if; [apply er_ret|]. apply er_bind; [apply er_check; right; reflexivity|intros _u]. apply er_bind; [apply er_dev_read|intros bs].
  apply er_bind; [apply er_mod; auto|intros _v]. destruct bs; [|apply er_ret]. apply er_if; apply er_ret.
Qed.
Lemma u64_sub_err {E} dbg a b x : u64_sub (E := E) dbg a b = RErr x -> False.
Proof. unfold u64_sub. repeat destruct (_ : bool); discriminate. Qed.
Lemma u64_add_err {E} dbg a b x : u64_add (E := E) dbg a b = RErr x -> False.
Proof. unfold u64_add. repeat destruct (_ : bool); discriminate. Qed.
Lemma er_rem {E} (ok : E -> Prop) : er ok b_remaining.
Proof. apply er_still. intros s x H. exfalso. exact (u64_sub_err _ _ _ _ H). Qed.
Lemma er_bread n : er io_dev (b_read n).
Proof. unfold b_read. apply er_bind; [apply er_rem|intros rem]. apply er_if; [apply er_ret|apply er_tread]. Qed.
Lemma er_exact rdf n : (forall n, er io_dev (rdf n)) -> er io_ok (read_exact sch rdf n).
Proof.
  intros Hr s r s' Hs H. unfold read_exact in H. revert H. generalize (2 + List.length (sch s))%nat as fuel. intros fuel. revert s n Hs. generalize (@nil N) as acc.
  induction fuel as [|f IH]; intros acc s n Hs H; cbn [read_exact_loop] in H; [injection H as <- <-; split; [exact Hs|discriminate]|].
  destruct (n =? 0); [injection H as <- <-; split; [exact Hs|discriminate]|].
  destruct (rdf n s) as [[bs|x| |] s1] eqn:E1; destruct (Hr n _ _ _ Hs E1) as [H1 H2].
  - destruct bs as [|b bs]; [injection H as <- <-; split; [exact H1|]; intros y Hy; injection Hy as <-; left; reflexivity|]. exact (IH _ _ _ H1 H).
  - destruct (H2 x eq_refl) as [-> | ->]; [exact (IH _ _ _ H1 H)|]. injection H as <- <-. split; [exact H1|]. intros y Hy. injection Hy as <-. right. reflexivity.
  - injection H as <- <-. split; [exact H1|discriminate].
  - injection H as <- <-. split; [exact H1|discriminate].
Qed.
Lemma er_upto rdf n : (forall n, er io_dev (rdf n)) -> er io_ok (read_upto sch rdf n).
Proof.
  intros Hr s r s' Hs H. unfold read_upto in H. revert H. generalize (2 + List.length (sch s))%nat as fuel. intros fuel. revert s n Hs. generalize (@nil N) as acc.
  induction fuel as [|f IH]; intros acc s n Hs H; cbn [read_upto_loop] in H; [injection H as <- <-; split; [exact Hs|discriminate]|].
  destruct (n =? 0); [injection H as <- <-; split; [exact Hs|discriminate]|].
  destruct (rdf n s) as [[bs|x| |] s1] eqn:E1; destruct (Hr n _ _ _ Hs E1) as [H1 H2].
  - destruct bs as [|b bs]; [injection H as <- <-; split; [exact H1|discriminate]|]. exact (IH _ _ _ H1 H).
  - destruct (H2 x eq_refl) as [-> | ->]; [exact (IH _ _ _ H1 H)|]. injection H as <- <-. split; [exact H1|]. intros y Hy. injection Hy as <-. right. reflexivity.
  - injection H as <- <-. split; [exact H1|discriminate].
  - injection H as <- <-. split; [exact H1|discriminate].
Qed.
(** No more than asked for. *)
Definition short (rdf : N -> IM bytes) : Prop := forall n s bs s', rdf n s = (ROk bs, s') -> lenN bs <= n.
Lemma upto_short rdf n s bs s' : short rdf -> read_upto sch rdf n s = (ROk bs, s') -> lenN bs <= n.
Proof.
  intros Hr H. unfold read_upto in H. revert H. generalize (2 + List.length (sch s))%nat as fuel. intros fuel.
  enough (X : forall acc n s, read_upto_loop rdf fuel acc n s = (ROk bs, s') -> lenN bs <= lenN acc + n) by (intros H; apply X in H; change (lenN (@nil N)) with 0 in H; lia).
  clear s n. induction fuel as [|f IH]; intros acc n s H; cbn [read_upto_loop] in H; [discriminate|].
  destruct (n =? 0); [injection H as <- <-; lia|]. destruct (rdf n s) as [[b|x| |] s1] eqn:E1; try discriminate.
  - destruct b as [|c b]; [injection H as <- <-; lia|]. pose proof (Hr _ _ _ _ E1). apply IH in H. rewrite lenN_app in H. lia.
  - destruct x; try discriminate. exact (IH _ _ _ H).
Qed.
Lemma tread_short n s bs s' : t_read false n s = (ROk bs, s') -> lenN bs <= n.
Proof.
  unfold t_read. destruct (n =? 0); [intros H; injection H as <- <-; change (lenN (@nil N)) with 0; lia|]. unfold mbind, check_advance_pos. destruct (_ <? _); [discriminate|].
  unfold on_dev, dev_read, sched_next. destruct (d_sched (s_dev s)) as [|[c| |] sc]; try discriminate; unfold mmod.
  - destruct (takeN n (d_rest (s_dev s))) eqn:Et; unfold mret; intros H; injection H as <- <-; [change (lenN (@nil N)) with 0; lia|]. rewrite <- Et, lenN_takeN. lia.
  - destruct (takeN (N.min n (N.max 1 c)) (d_rest (s_dev s))) eqn:Et; unfold mret; intros H; injection H as <- <-; [change (lenN (@nil N)) with 0; lia|]. rewrite <- Et, lenN_takeN. lia.
Qed.
Lemma bread_short : short b_read.
Proof.
  intros n s bs s' H. unfold b_read, mbind, b_remaining in H. destruct (u64_sub _ _ _) as [r|x| |]; try discriminate.
  destruct (r =? 0); [injection H as <- <-; change (lenN (@nil N)) with 0; lia|]. apply tread_short in H. destruct (r <? n) eqn:E; [apply N.ltb_lt in E|]; lia.
Qed.

Lemma er_rb g : er reading_error (s_read_byte g).
Proof. apply er_lift. apply er_bind; [apply er_exact; intros; apply er_tread|]. intros [|b r]; [apply er_panic|apply er_ret]. Qed.
Lemma er_decode : er reading_error s_decode_u64.
Proof.
  unfold s_decode_u64, decode_u64. generalize 258%nat as f. intros f. generalize 0 at 1 as acc. generalize 0 as sh. induction f as [|f IH]; intros sh acc; cbn [decode_loop].
  - intros s r s' Hs H. injection H as <- <-. split; [exact Hs|discriminate].
  - apply er_bind; [apply er_rb|intros b]. apply er_if; [apply er_fail; exact Logic.I|]. apply er_if; [apply er_ret|]. apply er_if; [apply er_fail; exact Logic.I|]. apply IH.
Qed.
Lemma er_discard n : er reading_error (skip_by_discard n).
Proof. apply er_lift. apply er_bind; [apply er_upto; intros; apply er_tread|intros; apply er_ret]. Qed.
Lemma er_direct n : er reading_error (skip_by_seek_direct n).
Proof.
  unfold skip_by_seek_direct. apply er_bind; [apply er_lift, er_check; right; reflexivity|intros _u]. intros s r s' Hs H.
  assert (X : forall d, rd (set_dev d s)) by (intros d; exact Hs).
  unfold on_dev in H. destruct (dev_seek (SkCur (Z.of_N n)) (s_dev s)) as [[a|x| |] d].
  - injection H as <- <-. split; [exact (X d)|discriminate].
  - exact (er_discard n _ _ _ (X d) H).
  - injection H as <- <-. split; [exact (X d)|discriminate].
  - injection H as <- <-. split; [exact (X d)|discriminate].
Qed.
Lemma er_seek n : er reading_error (skip_by_seek n).
Proof.
  unfold skip_by_seek. generalize 4%nat as f. intros f. revert n. induction f as [|f IH]; intros n; cbn [skip_by_seek_rec].
  - intros s r s' Hs H. injection H as <- <-. split; [exact Hs|discriminate].
  - apply er_if; [|apply er_direct]. apply er_bind; [apply IH|intros a]. apply er_if; [apply er_ret|]. apply er_bind; [apply IH|intros; apply er_ret].
Qed.
Lemma er_skip_blob : er reading_error skip_blob.
Proof.
  intros s r s' Hs H. unfold skip_blob in H. destruct (s_pos s <? s_blob_end s); [|injection H as <- <-; split; [exact Hs|discriminate]].
  revert H. apply er_bind; [apply er_if; [apply er_seek|apply er_discard]| |exact Hs]. intros k. destruct (k <? _) eqn:E; [|apply er_ret]. apply er_fail. cbn. apply N.ltb_lt in E. lia.
Qed.
Lemma er_commit : er reading_error commit.
Proof.
  intros s r s' Hs H. unfold commit in H. pose proof Hs as [E|E]; rewrite E in H; [injection H as <- <-; split; [exact Hs|discriminate]|].
  revert H. apply er_bind; [apply er_skip_blob| |exact Hs]. intros _u. apply er_mod. intros s0 _. left. reflexivity.
Qed.
Lemma er_next_blob : er reading_error next_blob.
Proof.
  unfold next_blob. apply er_bind; [apply er_decode|intros len]. apply er_bind; [apply er_lift, er_check; right; reflexivity|intros _u].
  apply er_bind; [apply er_mod; auto|intros _v]. apply er_bind; [apply er_mod; intros; right; reflexivity|intros _w]. apply er_ret.
Qed.
Lemma er_incr : er reading_error incr_depth.
Proof. intros s r s' Hs H. unfold incr_depth in H. destruct (u64_add _ _ _); injection H as <- <-; (split; [exact Hs|discriminate]). Qed.
Lemma er_value ty : er reading_error (next_value ty).
Proof.
  destruct ty; cbn [next_value].
  - apply er_bind; [apply er_decode|intros d]. apply er_bind; [apply er_incr|intros; apply er_ret].
  - apply er_bind; [apply er_decode|intros; apply er_ret].
  - apply er_bind; [apply er_next_blob|intros; apply er_ret].
  - apply er_bind; [apply er_incr|intros; apply er_ret].
Qed.
Lemma er_step sp u : er reading_error (next_element_step sp u).
Proof.
  unfold next_element_step. apply er_bind; [apply er_get|intros s0]. cbv zeta. apply er_bind; [apply er_rb|intros b].
  destruct (parse_desc b) as [[ty tag|[]]|]; [| | | | |apply er_panic].
  - apply er_bind; [apply er_mod; intros s Hs; destruct (s_depth s =? 0); exact Hs|intros _u]. apply er_bind; [apply er_get|intros s1]. apply er_bind; [apply er_value|intros; apply er_ret].
  - apply er_bind; [apply er_mod; intros s Hs; destruct (0 <? s_depth s); exact Hs|intros; apply er_ret].
  - apply er_bind; [apply er_mod; auto|intros _u]. apply er_bind; [apply er_mod; auto|intros; apply er_ret].
  - apply er_bind; [apply er_next_blob|intros; apply er_ret].
  - apply er_if; apply er_ret.
Qed.
Lemma er_impl sp : er reading_error (next_element_impl sp).
Proof.
  intros s r s' Hs H. unfold next_element_impl in H. destruct (s_eof s); [injection H as <- <-; split; [exact Hs|discriminate]|].
  revert H. apply er_bind; [apply er_commit| |exact Hs]. intros _u. apply er_loop. intros a. apply er_step.
Qed.
Lemma er_next : er reading_error next_field.
Proof.
  unfold next_field. apply er_bind; [apply er_impl|]. intros [f| | |len|]; try apply er_ret; [|apply er_panic].
  intros s r s' Hs H. unfold mbind in H. destruct (b_read_or_trunc 256 s) as [[m|x| |] s1] eqn:E1;
    destruct (er_lift _ (er_upto b_read 256 er_bread) _ _ _ Hs E1) as [H1 H2].
  - injection H as <- <-. split; [exact H1|]. intros y Hy. injection Hy as <-. cbn. unfold b_read_or_trunc, lift_io in E1.
    destruct (read_upto sch b_read 256 s) as [[m'|x| |] s2] eqn:E2; try discriminate. injection E1 as -> _. exact (upto_short _ _ _ _ _ bread_short E2).
  - injection H as <- <-. split; [exact H1|]. intros y Hy. injection Hy as <-. now apply H2.
  - injection H as <- <-. split; [exact H1|discriminate].
  - injection H as <- <-. split; [exact H1|discriminate].
Qed.
Lemma er_skip f : er reading_error (field_skip f).
Proof.
  assert (X : er reading_error (skip_up (f_depth f))).
  { unfold skip_up. apply er_loop. intros a. apply er_bind; [apply er_get|intros s]. apply er_if; [|apply er_ret]. apply er_bind; [apply er_impl|intros; apply er_ret]. }
  unfold field_skip. destruct (f_val f); try apply er_ret; exact X.
Qed.
Lemma er_b_exact n : er reading_error (lift_io (b_read_exact n)).
Proof. apply er_lift, er_exact, er_bread. Qed.
Lemma er_ext : er reading_error b_ext_slice.
Proof.
  unfold b_ext_slice. apply er_bind.
  - intros s r s' Hs H. unfold as_slice in H. destruct (_ <? _); injection H as <- <-; (split; [exact Hs|discriminate]).
  - intros buf. apply er_bind; [apply er_rem|intros rem]. destruct (lenN buf <? rem) eqn:E; [|apply er_ret]. apply er_fail. cbn. apply N.ltb_lt in E. lia.
Qed.

(** ** Programs *)
Definition mild_kind (k : ekind) : Prop :=
  match k with KStream x => reading_error x | KUnknownField _ _ => False | KTooFew n => 0 < n | _ => True end.
Definition op_mild {X : Set} (o : op X) : Prop := match o with OOver k => mild_kind k | _ => True end.
Fixpoint mild {A} (p : prog A) : Prop :=
  match p with
  | PRet _ => True
  | PStop (StFail k) => mild_kind k
  | PStop _ => True
  | PDo o k => op_mild o /\ forall x, mild (k x)
  end.
Lemma mild_bind {A B} (p : prog A) (f : A -> prog B) : mild p -> (forall a, mild (f a)) -> mild (pbind p f).
Proof.
  intros Hp Hf. induction p as [a|x|X o k IH]; cbn [mild pbind] in *; [apply Hf|destruct x; exact Hp|].
  destruct Hp as [H1 H2]. split; [exact H1|]. intros x. apply IH, H2.
Qed.
Lemma mild_do {X : Set} (o : op X) : op_mild o -> mild (pdo o).
Proof. intros H. cbn [mild pdo]. split; [exact H|]. intros x. exact Logic.I. Qed.
Lemma mild_op {X : Set} {B} (o : op X) (f : X -> prog B) : op_mild o -> (forall x, mild (f x)) -> mild (pbind (pdo o) f).
Proof. intros H Hf. apply mild_bind; [now apply mild_do|exact Hf]. Qed.
Lemma mild_over {B} k (f : unit -> prog B) : mild_kind k -> (forall x, mild (f x)) -> mild (pbind (pdo (OOver k)) f).
Proof. intros H Hf. apply mild_op; [exact H|exact Hf]. Qed.
Lemma mild_plift {A} (r : res serr A) : (forall x, r = RErr x -> reading_error x) -> mild (plift r).
Proof. intros H. destruct r as [a|x| |]; try exact Logic.I. exact (H x eq_refl). Qed.
Lemma mild_iter {A B} (f : A -> prog (A + B)) p : (forall a, mild (f a)) -> forall a, mild (piter p f a).
Proof.
  intros H. induction p as [q IH|q IH|]; intros a; cbn [piter].
  - apply mild_bind; [apply H|]. intros [a'|b]; [|exact Logic.I]. apply mild_bind; [apply IH|]. intros [a''|b]; [apply IH|exact Logic.I].
  - apply mild_bind; [apply IH|]. intros [a''|b]; [apply IH|exact Logic.I].
  - apply H.
Qed.
Lemma mild_loop {A B} (f : A -> prog (A + B)) a : (forall a, mild (f a)) -> mild (ploop f a).
Proof. intros H. unfold ploop. apply mild_bind; [now apply mild_iter|]. intros [x|b]; exact Logic.I. Qed.
Lemma uint_err max v x : to_uint max v = RErr x -> reading_error x.
Proof. unfold to_uint. destruct v; [destruct (_ <? _)| | |]; intros E; try discriminate; injection E as <-; cbn; try exact Logic.I; discriminate. Qed.
Lemma sint_err lo hi v x : to_sint lo hi v = RErr x -> reading_error x.
Proof. unfold to_sint. cbv zeta. destruct v; [repeat destruct (_ <? _)%Z| | |]; intros E; try discriminate; injection E as <-; cbn; try exact Logic.I; discriminate. Qed.
Lemma bool_err v x : to_bool v = RErr x -> reading_error x.
Proof.
  unfold to_bool. destruct (to_uint (umax 64) v) as [n|y| |] eqn:E1; [repeat destruct (_ =? _)| | |]; intros E; try discriminate; injection E as <-; [exact Logic.I|].
  exact (uint_err _ _ _ E1).
Qed.
Lemma null_err v x : to_null v = RErr x -> reading_error x.
Proof. unfold to_null. destruct v; [destruct (_ =? _)| | |]; intros E; try discriminate; injection E as <-; cbn; try exact Logic.I; discriminate. Qed.
Lemma struct_err v x : to_struct v = RErr x -> reading_error x.
Proof. destruct v; intros E; try discriminate; injection E as <-; cbn; discriminate. Qed.
Lemma enum_err v x : to_enum v = RErr x -> reading_error x.
Proof. destruct v; intros E; try discriminate; injection E as <-; cbn; discriminate. Qed.
Lemma blob_err v x : to_blob v = RErr x -> reading_error x.
Proof. destruct v; intros E; try discriminate; injection E as <-; cbn; discriminate. Qed.
Ltac lifts := first [apply uint_err|apply sint_err|apply bool_err|apply null_err|apply struct_err|apply enum_err|apply blob_err].

(** ** Every impl *)
Record dmild (d : dict) : Prop := mkDm {
  dm_field : forall a tag vh, mild (d_field d a tag vh);
  dm_elem : forall tag vh, mild (d_elem d tag vh);
  dm_fin : forall a, mild (d_fin d a);
  dm_body : mild (d_body d) }.
Definition pmild (d : dict) : Prop := (forall a tag vh, mild (d_field d a tag vh)) /\ (forall a, mild (d_fin d a)).
Lemma dmild_p d : dmild d -> pmild d.
Proof. intros [H1 _ H3 _]. split; assumption. Qed.
Lemma find_tag_mild tag (fs : list fdict) i nm d : Forall (fun f => pmild (snd f)) fs -> find_tag tag fs = Some (i, nm, d) -> pmild d.
Proof.
  intros H. revert i nm d. induction H as [|[[nm0 t0] d0] r H1 _ IH]; intros i nm d; cbn [find_tag]; [discriminate|].
  destruct (t0 =? tag); [intros E; injection E as _ _ <-; exact H1|]. destruct (find_tag tag r) as [[[j n] x]|]; [|discriminate].
  intros E. injection E as _ _ <-. exact (IH _ _ _ eq_refl).
Qed.
Definition umild (u : option (string * dict)) : Prop := match u with Some (_, d) => pmild d | None => True end.
Lemma step_mild fs u st : Forall (fun f => pmild (snd f)) fs -> umild u -> mild (body_step fs u st).
Proof.
  intros Hf Hu. unfold body_step. destruct st as [accs ua]. apply mild_op; [exact Logic.I|]. intros [[tag vh]|]; [|exact Logic.I].
  destruct (find_tag tag fs) as [[[i nm] d]|] eqn:E.
  - destruct (find_tag_mild _ _ _ _ _ Hf E) as [Hd _]. apply mild_op; [exact Logic.I|]. intros _u. apply mild_bind; [apply Hd|]. intros a.
    apply mild_op; [exact Logic.I|]. intros _v. exact Logic.I.
  - destruct u as [[n d]|].
    + destruct Hu as [Hd _]. apply mild_op; [exact Logic.I|]. intros _u. apply mild_bind; [apply Hd|]. intros a. apply mild_op; [exact Logic.I|]. intros _v. exact Logic.I.
    + apply mild_op; [exact Logic.I|]. intros _u. apply mild_op; [exact Logic.I|]. intros _v. exact Logic.I.
Qed.
Lemma finish_one_mild nm d a : pmild d -> mild (finish_one nm d a).
Proof.
  intros [_ H]. unfold finish_one. apply mild_op; [exact Logic.I|]. intros _u. apply mild_bind; [apply H|]. intros v. apply mild_op; [exact Logic.I|]. intros _v. exact Logic.I.
Qed.
Lemma finish_all_mild fs : Forall (fun f : fdict => pmild (snd f)) fs -> forall accs, mild (finish_all fs accs).
Proof.
  induction 1 as [|[[nm t] d] r H1 _ IH]; intros [|a accs]; cbn [finish_all]; try exact Logic.I.
  apply mild_bind; [now apply finish_one_mild|]. intros v. apply mild_bind; [apply IH|]. intros vs. exact Logic.I.
Qed.
Lemma des_mild fs u : Forall (fun f : fdict => pmild (snd f)) fs -> umild u -> mild (des_body fs u).
Proof.
  intros Hf Hu. unfold des_body. apply mild_bind; [apply mild_loop; intros st; now apply step_mild|]. intros [accs ua].
  apply mild_bind; [now apply finish_all_mild|]. intros vs. destruct u as [[n d]|]; [|exact Logic.I].
  apply mild_bind; [now apply finish_one_mild|]. intros v. exact Logic.I.
Qed.
Lemma default_mild d : pmild d -> mild (body_default d).
Proof.
  intros H. unfold body_default. apply mild_bind; [apply des_mild; [|exact Logic.I]|].
  - apply Forall_cons; [exact H|apply Forall_nil].
  - intros [|v [|w r]]; exact Logic.I.
Qed.
Lemma opt_field_mild k conv a tag vh : mild_kind k -> (forall t v, mild (conv t v)) -> mild (opt_field k conv a tag vh).
Proof. intros Hk H. unfold opt_field. destruct a as [[v|]| | |]; try exact Logic.I; [exact Hk|]. apply mild_bind; [apply H|]. intros v. exact Logic.I. Qed.
Lemma opt_fin_mild a : mild (opt_fin a).
Proof. destruct a as [[v|]| | |]; exact Logic.I. Qed.
Lemma unary_mild conv : (forall t v, mild (conv t v)) -> dmild (unary conv).
Proof.
  intros H. unfold unary, with_default_body. constructor; cbn [d_init d_field d_elem d_fin d_body].
  - intros a tag vh. (apply opt_field_mild; [first [assumption|exact Logic.I|reflexivity]|try exact H; try assumption]).
  - intros tag vh. unfold elem_default. apply mild_bind; [(apply opt_field_mild; [first [assumption|exact Logic.I|reflexivity]|try exact H; try assumption])|intros a; apply opt_fin_mild].
  - apply opt_fin_mild.
  - apply default_mild. split; cbn [d_field d_fin]; intros; [(apply opt_field_mild; [first [assumption|exact Logic.I|reflexivity]|try exact H; try assumption])|apply opt_fin_mild].
Qed.
Lemma wrapped_mild d : pmild d -> dmild (wrapped d).
Proof.
  intros H. pose proof (default_mild _ H) as Hb. destruct H as (H2 & H3). unfold wrapped.
  constructor; cbn [d_init d_field d_elem d_fin d_body]; auto. intros tag vh. apply mild_bind; [apply mild_plift; lifts|]. intros _u. exact Hb.
Qed.
Lemma coll_fin_mild a : mild (coll_fin a).
Proof. destruct a; exact Logic.I. Qed.
Lemma arr_mild n d : dmild d -> dmild (dict_arr n d).
Proof.
  intros H. unfold dict_arr. apply wrapped_mild. split; cbn [d_field d_fin]; intros a.
  - intros tag vh. unfold arr_field. destruct a; try exact Logic.I. destruct (n <=? lenN vs); [exact Logic.I|].
    apply mild_bind; [apply (dm_elem _ H)|intros v; exact Logic.I].
  - unfold arr_fin. destruct a; try exact Logic.I. destruct (N.ltb_spec (lenN vs) n) as [Hlt|]; [destruct vs; [exact Logic.I|]|exact Logic.I]. cbn. lia.
Qed.
Lemma coll_mild ins d : dmild d -> dmild (dict_coll ins d).
Proof.
  intros H. unfold dict_coll. apply wrapped_mild. split; cbn [d_field d_fin]; intros a; [|apply coll_fin_mild].
  intros tag vh. unfold coll_field. destruct a; try exact Logic.I. apply mild_op; [exact Logic.I|]. intros _u.
  apply mild_bind; [apply (dm_elem _ H)|intros v; exact Logic.I].
Qed.
Lemma option_mild d : dmild d -> dmild (dict_option d).
Proof.
  intros H. unfold dict_option. apply wrapped_mild. split; cbn [d_field d_fin]; intros a.
  - intros tag vh. apply opt_field_mild; [exact Logic.I|]. intros t v. apply (dm_elem _ H).
  - destruct a; exact Logic.I.
Qed.
Lemma struct_mild k body elem : mild_kind k -> mild body -> (forall t v, mild (elem t v)) -> dmild (dict_struct k body elem).
Proof.
  intros Hk Hb He. unfold dict_struct. constructor; cbn [d_init d_field d_elem d_fin d_body]; auto; intros; [(apply opt_field_mild; [first [assumption|exact Logic.I|reflexivity]|try exact H; try assumption])|apply opt_fin_mild].
Qed.
Lemma tuple_mild ds : Forall dmild ds -> dmild (dict_tuple ds).
Proof.
  intros H. assert (Hf : forall i, Forall (fun f : fdict => pmild (snd f)) (tuple_fields i ds)).
  { induction H as [|d r Hd _ IH]; intros i; cbn [tuple_fields]; [apply Forall_nil|]. apply Forall_cons; [now apply dmild_p|apply IH]. }
  assert (Hb : mild (tuple_body ds)).
  { unfold tuple_body. apply mild_bind; [apply des_mild; [apply Hf|exact Logic.I]|intros vs; exact Logic.I]. }
  unfold dict_tuple. apply struct_mild; [exact Logic.I|exact Hb|]. intros t v. apply mild_bind; [apply mild_plift; lifts|]. intros _u. exact Hb.
Qed.
Lemma map_mild dk dv : dmild dk -> dmild dv -> dmild (dict_map dk dv).
Proof.
  intros Hk Hv. unfold dict_map. apply wrapped_mild. split; cbn [d_field d_fin]; intros a.
  - intros tag vh. unfold map_field. destruct a; try exact Logic.I. apply mild_op; [exact Logic.I|]. intros _u.
    apply mild_bind; [apply dm_elem, tuple_mild; apply Forall_cons; [exact Hk|apply Forall_cons; [exact Hv|apply Forall_nil]]|].
    intros kv. destruct kv; try exact Logic.I. match goal with |- mild (match ?l with [] => _ | _ => _ end) => destruct l as [|? [|? [|]]] end; exact Logic.I.
  - destruct a; exact Logic.I.
Qed.
Lemma read_owned_mild vh : mild (read_owned vh).
Proof. unfold read_owned. apply mild_bind; [apply mild_plift; lifts|]. intros len. apply mild_op; [exact Logic.I|]. intros _u. apply mild_do; exact Logic.I. Qed.
Lemma read_borrowed_mild vh : mild (read_borrowed vh).
Proof. unfold read_borrowed. apply mild_bind; [apply mild_plift; lifts|]. intros len. apply mild_do; exact Logic.I. Qed.
Lemma cow_mild zc vh : mild (cow_bytes zc vh).
Proof. destruct zc; [apply read_borrowed_mild|apply read_owned_mild]. Qed.
Lemma vecu8_mild : dmild dict_vecu8.
Proof.
  assert (Hf : forall a tag vh, mild (vecu8_field a tag vh)).
  { intros a tag vh. unfold vecu8_field. destruct a as [[v|]| | |]; try exact Logic.I.
    - apply mild_over; [exact Logic.I|]. intros x. apply mild_bind; [|intros y; exact Logic.I]. first [apply read_owned_mild|apply read_array_mild].
    - apply mild_bind; [apply read_owned_mild|]. intros bs. exact Logic.I. }
  unfold dict_vecu8, with_default_body. constructor; cbn [d_init d_field d_elem d_fin d_body].
  - exact Hf.
  - intros tag vh. apply mild_bind; [apply read_owned_mild|]. intros bs. exact Logic.I.
  - apply opt_fin_mild.
  - apply default_mild. split; cbn [d_field d_fin]; [exact Hf|apply opt_fin_mild].
Qed.
Lemma read_array_mild n vh : mild (read_array n vh).
Proof.
  unfold read_array. apply mild_bind; [apply mild_plift; lifts|]. intros len. apply mild_op; [exact Logic.I|]. intros rem.
  destruct (rem =? n); [|exact Logic.I]. apply mild_op; [exact Logic.I|]. intros bs. exact Logic.I.
Qed.
Lemma arru8_mild n : dmild (dict_arru8 n).
Proof.
  assert (Hf : forall a tag vh, mild (arru8_field n a tag vh)).
  { intros a tag vh. unfold arru8_field. destruct a as [[v|]| | |]; try exact Logic.I.
    - destruct (n <=? 32).
      + apply mild_over; [exact Logic.I|]. intros x. apply mild_bind; [|intros y; exact Logic.I]. first [apply read_owned_mild|apply read_array_mild].
      + apply mild_bind; [exact Logic.I|]. intros x. apply mild_bind; [apply read_array_mild|]. intros y. exact Logic.I.
    - apply mild_bind; [apply read_array_mild|]. intros bs. exact Logic.I. }
  assert (Hn : forall a, mild (arru8_fin n a)) by (intros [[v|]| | |]; try exact Logic.I; unfold arru8_fin; destruct (n =? 0); exact Logic.I).
  unfold dict_arru8, with_default_body. constructor; cbn [d_init d_field d_elem d_fin d_body].
  - exact Hf.
  - intros tag vh. apply read_array_mild.
  - exact Hn.
  - apply default_mild. split; cbn [d_field d_fin]; [exact Hf|exact Hn].
Qed.
Lemma unk_node_mild (zc : bool) (vh : vhdr) (p : prog (list (N * node))) : mild p ->
  mild (match vh with
             | HInt n => PRet (NInt n)
             | HBlob _ => b <- cow_bytes zc vh ; PRet (NBlob b)
             | HStruct => fs <- p ; PRet (NStruct fs)
             | HEnum d => fs <- p ; PRet (NEnum d fs)
             end).
Proof.
  intros Hp. destruct vh; try exact Logic.I; [apply mild_bind; [apply cow_mild|intros; exact Logic.I]| |];
    (apply mild_bind; [exact Hp|intros; exact Logic.I]).
Qed.
Lemma unk_body_mild zc U : mild (unk_body zc U).
Proof.
  induction U as [|f IH]; cbn [unk_body]; [exact Logic.I|].
  apply mild_loop. intros fs. apply mild_op; [exact Logic.I|]. intros [[tag vh]|]; [|exact Logic.I]. apply mild_op; [exact Logic.I|]. intros _u.
  apply mild_op; [exact Logic.I|]. intros _v. apply mild_bind; [apply unk_node_mild, IH|]. intros n. apply mild_op; [exact Logic.I|]. intros _w. exact Logic.I.
Qed.
Lemma unk_elem_mild zc U vh : mild (unk_elem zc U vh).
Proof. unfold unk_elem. apply unk_node_mild, unk_body_mild. Qed.
Lemma unknown_mild zc U : dmild (dict_unknown zc U).
Proof.
  assert (Hb : mild (fs <- unk_body zc U ; PRet (VUnk fs))) by (apply mild_bind; [apply unk_body_mild|intros; exact Logic.I]).
  unfold dict_unknown. constructor; cbn [d_init d_field d_elem d_fin d_body].
  - intros a tag vh. unfold unk_field. destruct a; try exact Logic.I. apply mild_op; [exact Logic.I|]. intros _u. apply mild_bind; [apply unk_elem_mild|intros n; exact Logic.I].
  - intros tag vh. apply mild_bind; [apply mild_plift; lifts|]. intros _u. exact Hb.
  - intros a. destruct a; exact Logic.I.
  - exact Hb.
Qed.
Lemma unkfield_mild zc U : dmild (dict_unkfield zc U).
Proof. unfold dict_unkfield. apply unary_mild. intros t v. apply mild_bind; [apply unk_elem_mild|intros n; exact Logic.I]. Qed.
Lemma construct_mild b vs : mild (construct b vs).
Proof. unfold construct. destruct (vb_check b vs); exact Logic.I. Qed.
Section Items.
  Variable mk : ty -> dict.
  Hypothesis Hmk : forall t, dmild (mk t).
  Lemma fdicts_mild fs : Forall (fun f : fdict => pmild (snd f)) (fdicts mk fs).
  Proof. induction fs as [|f r IH]; cbn [fdicts map]; [apply Forall_nil|apply Forall_cons; [apply dmild_p, Hmk|exact IH]]. Qed.
  Lemma vbody_mild b : mild (vbody_body mk b).
  Proof.
    unfold vbody_body. destruct (vb_special b) as [|nm t|nm t].
    - apply mild_bind; [apply des_mild; [apply fdicts_mild|exact Logic.I]|intros vs; apply construct_mild].
    - apply mild_op; [exact Logic.I|]. intros _u. apply mild_bind; [apply (dm_body _ (Hmk t))|]. intros dv. apply mild_op; [exact Logic.I|]. intros _v.
      apply mild_bind; [apply finish_all_mild, fdicts_mild|intros vs; apply construct_mild].
    - apply mild_bind; [apply des_mild; [apply fdicts_mild|apply dmild_p, Hmk]|intros vs; apply construct_mild].
  Qed.
  Lemma item_struct_mild b : dmild (dict_item_struct mk b).
  Proof.
    unfold dict_item_struct. apply struct_mild; [reflexivity|apply vbody_mild|]. intros t v. unfold struct_elem.
    destruct (vb_special b) as [|nm t0|nm t0]; try (apply mild_bind; [apply mild_plift; lifts|intros _u; apply vbody_mild]).
    apply mild_op; [exact Logic.I|]. intros _u. apply mild_bind; [apply (dm_elem _ (Hmk t0))|intros dv]. apply mild_op; [exact Logic.I|]. intros _v. apply construct_mild.
  Qed.
  Lemma item_enum_mild vars catch : dmild (dict_item_enum mk vars catch).
  Proof.
    assert (He : forall t v, mild (enum_elem mk vars catch t v)).
    { intros t v. unfold enum_elem. apply mild_bind; [apply mild_plift; lifts|]. intros d. destruct (find_variant d vars) as [[ix b]|].
      - apply mild_bind; [apply vbody_mild|intros x; exact Logic.I].
      - destruct catch as [b|]; [|exact Logic.I]. apply mild_bind; [apply vbody_mild|intros x; exact Logic.I]. }
    unfold dict_item_enum, with_default_body, dict_struct. constructor; cbn [d_init d_field d_elem d_fin d_body].
    - intros a tag vh. (apply opt_field_mild; [first [assumption|exact Logic.I|reflexivity]|try exact H; try assumption]).
    - exact He.
    - apply opt_fin_mild.
    - apply default_mild. split; cbn [d_field d_fin]; intros; [(apply opt_field_mild; [first [assumption|exact Logic.I|reflexivity]|try exact H; try assumption])|apply opt_fin_mild].
  Qed.
End Items.
Lemma stop_mild x : (forall k, x = StFail k -> mild_kind k) -> dmild (dict_stop x).
Proof. intros H. assert (X : forall A, mild (A := A) (PStop x)) by (intros A; destruct x; [exact (H k eq_refl)|exact Logic.I|exact Logic.I]). constructor; intros; apply X. Qed.
Lemma types_mild U item_d : (forall zc i, dmild (item_d zc i)) -> forall t zc, dmild (dict_of U item_d zc t).
Proof.
  intros Hi. apply (ty_ind' (fun t => forall zc, dmild (dict_of U item_d zc t))).
  - intros t. destruct t; try exact Logic.I; intros zc; cbn [dict_of].
    + apply unary_mild. intros t v. apply mild_bind; [apply mild_plift; lifts|intros; exact Logic.I].
    + apply unary_mild. intros t v. apply mild_bind; [apply mild_plift; lifts|intros; exact Logic.I].
    + apply unary_mild. intros t v. apply mild_bind; [apply mild_plift; lifts|intros; exact Logic.I].
    + apply unary_mild. intros t v. apply mild_bind; [apply mild_plift; lifts|]. intros n. destruct (char_ok n); exact Logic.I.
    + apply unary_mild. intros t v. apply mild_bind; [apply mild_plift; lifts|intros; exact Logic.I].
    + apply unary_mild. intros t v. unfold conv_string. apply mild_bind; [apply read_owned_mild|]. intros b. destruct (utf8_ok b); exact Logic.I.
    + destruct zc; [|apply stop_mild; discriminate]. apply unary_mild. intros t v. unfold conv_str_ref. apply mild_bind; [apply read_borrowed_mild|]. intros b. destruct (utf8_ok b); exact Logic.I.
    + destruct zc; [|apply stop_mild; discriminate]. apply unary_mild. intros t v. unfold conv_bytes_ref. apply mild_bind; [apply read_borrowed_mild|]. intros b. exact Logic.I.
    + destruct zc; apply unary_mild; intros t v; [unfold conv_str_ref; apply mild_bind; [apply read_borrowed_mild|]|unfold conv_string; apply mild_bind; [apply read_owned_mild|]];
        intros b; destruct (utf8_ok b); exact Logic.I.
    + destruct zc; [|apply vecu8_mild]. apply unary_mild. intros t v. unfold conv_bytes_ref. apply mild_bind; [apply read_borrowed_mild|]. intros b. exact Logic.I.
    + apply unknown_mild.
    + apply unkfield_mild.
    + apply Hi.
  - intros t Ht. split; [|split; [|split; [|split; [|split]]]]; intros zc; cbn [dict_of].
    + destruct (is_u8 t); [apply vecu8_mild|apply coll_mild, Ht].
    + apply coll_mild, Ht.
    + apply coll_mild, Ht.
    + apply option_mild, Ht.
    + apply Ht.
    + apply Ht.
  - intros n t Ht zc. cbn [dict_of]. destruct (is_u8 t); [apply arru8_mild|apply arr_mild, Ht].
  - intros k v Hk Hv zc. cbn [dict_of]. apply map_mild; auto.
  - intros ts Hts zc. cbn [dict_of]. apply tuple_mild. induction Hts as [|t r Ht _ IH]; cbn [map]; [apply Forall_nil|apply Forall_cons; [apply Ht|exact IH]].
Qed.
Lemma items_mild e U f : forall zc i, dmild (item_dict e U f zc i).
Proof.
  induction f as [|f IH]; intros zc i; cbn [item_dict]; [apply stop_mild; discriminate|].
  destruct (e i) as [b|vars catch]; [apply item_struct_mild|apply item_enum_mild]; intros t; apply types_mild; exact IH.
Qed.
Lemma full_mild e f zc t : dmild (full_dict e f zc t).
Proof. unfold full_dict. apply types_mild. apply items_mild. Qed.


(** ** Running *)
Definition over_ok (st : rst stream) : Prop := match x_over st with Some k => mild_kind k | None => True end.
Definition cur_ok (st : rst stream) : Prop := match x_cur st with Some f => tag_ok (f_tag f) | None => True end.
Definition J (st : rst stream) : Prop := rd (x_s st) /\ over_ok st /\ cur_ok st.
Lemma mild_possible cf k : mild_kind k -> possible_error cf k.
Proof. destruct k; cbn; auto; contradiction. Qed.

Section Run.
  Variable cf : cfg.
  Notation good_res st' r := (J st' /\ (forall err, r = RErr err -> possible_error cf (e_kind err))).
  Lemma xfail_good {A} k st (r : res derr A) st' : J st -> possible_error cf k -> xfail k st = (r, st') -> good_res st' r.
  Proof.
    intros (H1 & H2 & H3) Hk H. injection H as <- <-. split; [split; [exact H1|split; [exact H2|exact H3]]|]. intros err Herr. injection Herr as <-. cbn [e_kind].
    unfold over_ok in H2. destruct (x_over st); [now apply mild_possible|exact Hk].
  Qed.
  Lemma src_good {A} (m : SM A) st r st' : er reading_error m -> J st -> on_src_of m st = (r, st') -> good_res st' r.
  Proof.
    intros Hm (H1 & H2 & H3) H. unfold on_src_of in H. destruct (m (x_s st)) as [[a|x| |] s1] eqn:E; destruct (Hm _ _ _ H1 E) as [H4 H5].
    - injection H as <- <-. split; [|discriminate]. split; [exact H4|split; [exact H2|exact H3]].
    - revert H. apply xfail_good; [split; [exact H4|split; [exact H2|exact H3]]|]. exact (H5 x eq_refl).
    - injection H as <- <-. split; [|discriminate]. split; [exact H4|split; [exact H2|exact H3]].
    - injection H as <- <-. split; [|discriminate]. split; [exact H4|split; [exact H2|exact H3]].
  Qed.
  Lemma blob_good {A} (m : SM A) st r st' : er reading_error m -> J st -> on_blob m st = (r, st') -> good_res st' r.
  Proof.
    intros Hm HJ H. unfold on_blob in H. destruct (x_cur st) as [[? ? ? []]|]; try (injection H as <- <-; split; [exact HJ|discriminate]).
    exact (src_good m st r st' Hm HJ H).
  Qed.
  Lemma op_good {X : Set} (o : op X) K a st r st' : op_mild o -> op_wp cf o K a -> arel cf SO a (rstrip st) -> J st ->
    run_op stream_source cf o st = (r, st') -> good_res st' r.
  Proof.
    intros Ho Hw Ha HJ. pose proof HJ as (J1 & J2 & J3). destruct o; cbn [run_op].
    - intros H. unfold mbind in H. destruct (on_src_of (i_next stream_source) st) as [[f|x| |] st1] eqn:E;
        destruct (src_good _ _ _ _ er_next HJ E) as [H4 H5].
      + unfold mmod, mret in H. injection H as <- <-. split; [|discriminate]. destruct H4 as (H6 & H7 & H8). split; [exact H6|split; [exact H7|]].
        unfold cur_ok. cbn [x_cur x_set_cur]. destruct f as [f|]; [|exact Logic.I].
        unfold on_src_of in E. cbn [i_next stream_source] in E. destruct (next_field (x_s st)) as [[g|x| |] s1] eqn:E3; try discriminate.
        injection E as -> <-. exact (next_tag _ _ _ E3).
      + injection H as <- <-. split; [exact H4|]. intros err Herr. apply H5. congruence.
      + injection H as <- <-. split; [exact H4|discriminate].
      + injection H as <- <-. split; [exact H4|discriminate].
    - unfold cur_ok in J3. destruct (x_cur st) as [f|]; [apply src_good; [apply er_skip|exact HJ]|]. intros H. injection H as <- <-. split; [exact HJ|discriminate].
    - destruct (cf_ignore cf) eqn:Ei; [intros H; injection H as <- <-; split; [exact HJ|discriminate]|]. unfold cur_ok in J3.
      destruct (x_cur st) as [f|]; [|intros H; injection H as <- <-; split; [exact HJ|discriminate]].
      apply xfail_good; [exact HJ|]. cbn. auto.
    - destruct (_ <=? _); [apply xfail_good; [exact HJ|exact Logic.I]|].
      destruct at_field; [destruct (x_cur st) eqn:Ec|]; intros H; injection H as <- <-; (split; [|discriminate]); try exact HJ;
        (split; [exact J1|split; [exact J2|exact J3]]).
    - intros H. injection H as <- <-. split; [|discriminate]. split; [exact J1|split; [exact J2|exact J3]].
    - destruct (ctx_collect _ _ _ _) as [c|k| |] eqn:E; try (intros H; injection H as <- <-; (split; [|discriminate]); first [exact HJ|exact (conj J1 (conj J2 J3))]).
      apply xfail_good; [exact HJ|]. unfold ctx_collect in E. destruct (u64_sub _ _ _) as [d|x| |] eqn:E1; [destruct (_ <? _)|exfalso; exact (u64_sub_err _ _ _ _ E1)| |]; try discriminate.
      + injection E as <-. exact Logic.I.
      + exfalso. exact (u64_add_err _ _ _ _ E).
    - destruct (ctx_blob _ _ _ _) as [c|k| |] eqn:E; try (intros H; injection H as <- <-; (split; [|discriminate]); first [exact HJ|exact (conj J1 (conj J2 J3))]).
      apply xfail_good; [exact HJ|]. unfold ctx_blob in E. destruct (u64_sub _ _ _) as [d|x| |] eqn:E1; [destruct (_ <? _)|exfalso; exact (u64_sub_err _ _ _ _ E1)| |]; try discriminate.
      + injection E as <-. exact Logic.I.
      + exfalso. exact (u64_add_err _ _ _ _ E).
    - intros H. injection H as <- <-. split; [|discriminate]. split; [exact J1|split; [exact Ho|exact J3]].
    - apply blob_good; [apply er_rem|exact HJ].
    - destruct Hw as (Hbl & Hrem & _). destruct Ha as ((_ & _ & Hc) & _). cbn [rstrip x_set_s x_s x_cur] in Hc. unfold blob_in_hand in Hbl.
      unfold on_blob. destruct (x_cur st) as [[tg ps dp vh]|] eqn:Ec; [|intros H; injection H as <- <-; split; [exact HJ|discriminate]].
      destruct vh as [|len| |]; try (intros H; injection H as <- <-; split; [exact HJ|discriminate]).
      destruct (a_cur a) as [[v lv]|] eqn:Eac; [|contradiction]. destruct Hc as [Hv Hb]. cbn [f_val] in Hv. specialize (Hb len (eq_sym Hv)).
      destruct Hb as (_ & (_ & Hpos & _) & Hr & _).
      intros H. unfold on_src_of in H. change (i_read_fully stream_source) with b_read_fully in H.
      assert (Hrem' : b_remaining (E := serr) (x_s st) = (ROk (s_blob_end (x_s st) - s_pos (x_s st)), x_s st)) by (apply b_remaining_ok; exact Hpos).
      assert (X : b_read_fully (cf_blob cf) (x_s st) = lift_io (read_upto sch b_read U64_MAX) (x_s st)).
      { unfold b_read_fully. rewrite (mbind_ok _ _ _ _ _ Hrem'). destruct (N.ltb_spec (cf_blob cf) (s_blob_end (x_s st) - s_pos (x_s st))) as [Hlt|]; [|reflexivity].
        exfalso. change (s_blob_end (strip (x_s st))) with (s_blob_end (x_s st)) in Hr. change (s_pos (strip (x_s st))) with (s_pos (x_s st)) in Hr. lia. }
      rewrite X in H. apply (src_good (lift_io (read_upto sch b_read U64_MAX)) st r st'); [apply er_lift, er_upto, er_bread|exact HJ|exact H].
    - apply blob_good; [apply er_b_exact|exact HJ].
    - apply blob_good; [apply er_ext|exact HJ].
  Qed.
  Hypothesis Hlim : cf_collect cf <= U64_MAX /\ cf_blob cf <= U64_MAX.
  Lemma op_next {X : Set} (o : op X) K a st x st' : op_wp cf o K a -> arel cf SO a (rstrip st) -> run_op stream_source cf o st = (ROk x, st') ->
    exists a', arel cf SO a' (rstrip st') /\ K x a'.
  Proof.
    intros Hw Ha H. destruct (run_op_dsim cf o st _ _ H) as [[Hs _]|(_ & y & Hy & _)]; [|discriminate].
    pose proof (stream_sound cf Hlim (pdo o) K a (rstrip st) Hw Ha) as X1. unfold pdo in X1. cbn [run] in X1. rewrite (mbind_ok _ _ _ _ _ Hs) in X1. exact X1.
  Qed.
  Lemma run_good {A} (p : prog A) : forall Q a st r st', mild p -> wpp cf p Q a -> arel cf SO a (rstrip st) -> J st ->
    run stream_source cf p st = (r, st') -> good_res st' r.
  Proof.
    induction p as [x|x|X o k IH]; intros Q a st r st' Hm Hw Ha HJ; cbn [run].
    - intros H. injection H as <- <-. split; [exact HJ|discriminate].
    - destruct x; [apply xfail_good; [exact HJ|apply mild_possible; exact Hm]| |]; intros H; injection H as <- <-; (split; [exact HJ|discriminate]).
    - cbn [wpp] in Hw. destruct Hm as [M1 M2]. unfold mbind. destruct (run_op stream_source cf o st) as [[x|x| |] st1] eqn:E;
        destruct (op_good o _ a st _ _ M1 Hw Ha HJ E) as [G1 G2].
      + destruct (op_next o _ a st _ _ Hw Ha E) as (a' & Ha' & Hk). exact (IH x Q a' st1 r st' (M2 x) Hk Ha' G1).
      + intros H. injection H as <- <-. split; [exact G1|]. intros err Herr. apply G2. congruence.
      + intros H. injection H as <- <-. split; [exact G1|discriminate].
      + intros H. injection H as <- <-. split; [exact G1|discriminate].
  Qed.
  Lemma from_good e zc t s r s' : env_ok e -> deserialisable e zc t -> seqinv (strip s) -> rd s -> from_stream e zc cf t s = (r, s') ->
    rd s' /\ (forall err, r = RErr err -> possible_error cf (e_kind err)).
  Proof.
    intros He Ht Hq Hs. unfold from_stream. set (p := d_body _). intros H.
    destruct (run stream_source cf p (top_rst s)) as [r1 st1] eqn:E. injection H as <- <-.
    destruct (full_dict_good cf e zc t He Ht) as (_ & _ & Hb). pose (a := mkA 1 None 0 (lenN (unread (strip s))) 0 0 0).
    assert (G : forall u, seqinv u -> pre cf 0 (mkA 1 None 0 (lenN (unread u)) 0 0 0)).
    { intros u Hu. unfold pre. cbn. pose proof (sq_len u Hu). pose proof (rest_len u). change (rest u) with (unread u) in *. lia. }
    pose proof (G _ Hq) as Hpre. fold a in Hpre. clear G.
    pose proof (Hb a 0%nat Hpre eq_refl) as Hw.
    assert (Har : arel cf SO a (rstrip (top_rst s))).
    { split; [|cbn; repeat split; lia]. split; [exact Hq|]. split; [apply N.le_refl|exact Logic.I]. }
    assert (HJ : J (top_rst s)) by (split; [exact Hs|split; exact Logic.I]).
    destruct (run_good p _ a (top_rst s) _ _ (dm_body _ (full_mild e _ zc t)) Hw Har HJ E) as [G1 G2]. split; [apply G1|exact G2].
  Qed.
End Run.

(** ** Calls *)
Definition io_read (k : iokind) : Prop := io_ok k \/ k = IoInterrupted.
Definition io_seek (k : iokind) : Prop := io_ok k \/ k = IoInvalidInput.
Lemma er_weak {E A} (ok ok' : E -> Prop) (m : M stream E A) : (forall x, ok x -> ok' x) -> er ok m -> er ok' m.
Proof. intros Hi Hm s r s' Hs H. destruct (Hm s r s' Hs H) as [H1 H2]. split; [exact H1|]. intros x Hx. apply Hi, H2, Hx. Qed.
Lemma er_liftc {A} (ok : iokind -> Prop) (ok' : serr -> Prop) (m : IM A) : (forall k, ok k -> ok' (SIo k)) -> er ok m -> er ok' (lift_io m).
Proof.
  intros Hi Hm s r s' Hs H. unfold lift_io in H. destruct (m s) as [[a|x| |] s1] eqn:E1; destruct (Hm _ _ _ Hs E1) as [H1 H2]; injection H as <- <-;
    (split; [exact H1|]); try discriminate. intros y Hy. injection Hy as <-. apply Hi, H2, eq_refl.
Qed.
Lemma er_pure {E A} (ok : E -> Prop) (f : stream -> res E A) : (forall s x, f s <> RErr x) -> er ok (fun s => (f s, s)).
Proof. intros Hf. apply er_still. intros s x H. exfalso. exact (Hf s x H). Qed.
Lemma er_start {E} (ok : E -> Prop) len : er ok (b_start_pos len).
Proof. apply er_pure. intros s x H. exact (u64_sub_err _ _ _ _ H). Qed.
Lemma er_inner {E} (ok : E -> Prop) len : er ok (b_inner_pos len).
Proof.
  unfold b_inner_pos. first [apply er_bind; [apply er_start|intros st]; apply er_pure; intros s x H; exact (u64_sub_err _ _ _ _ H)
    | apply er_bind; [apply er_rem|intros st]; apply er_pure; intros s x H; exact (u64_sub_err _ _ _ _ H)].
Qed.
Lemma er_devseek w : er io_seek (on_dev (dev_seek w)).
Proof.
  intros s r s' Hs H. unfold on_dev, dev_seek in H.
  destruct (d_sched (s_dev s)) as [|[c| |] sc]; try (destruct (_ || _)%bool); injection H as <- <-; (split; [exact Hs|]); try discriminate;
    intros y Hy; injection Hy as <-; first [right; reflexivity|left; right; reflexivity].
Qed.
Lemma er_neg {E} (ok : E -> Prop) dbg z : er (A := N) ok (mres (i64_neg dbg z)).
Proof. apply er_pure. intros s x H. unfold i64_neg in H. destruct (z =? _)%Z; [destruct dbg|]; discriminate. Qed.
Lemma er_target len w : er io_seek (b_seek_target len w).
Proof.
  assert (Ha : forall p q : stream -> N, er io_seek (fun s => (u64_add (s_dbg s) (p s) (q s), s))) by (intros p q; apply er_pure; intros s x H; exact (u64_add_err _ _ _ _ H)).
  assert (Hsb : forall p q : stream -> N, er io_seek (fun s => (u64_sub (s_dbg s) (p s) (q s), s))) by (intros p q; apply er_pure; intros s x H; exact (u64_sub_err _ _ _ _ H)).
  assert (Hf : er (A := N) io_seek (mfail IoInvalidInput)) by (apply er_fail; right; reflexivity).
  intros s r s' Hs. unfold b_seek_target. destruct w as [p|off|off].
  - apply er_if; [|exact Hf|exact Hs]. apply er_bind; [apply er_start|intros st]. apply (Ha (fun _ => st) (fun _ => p)).
  - apply er_if; [|exact Hf|exact Hs]. apply er_bind; [apply er_neg|intros o]. apply er_if; [|exact Hf]. apply er_bind; [apply er_start|intros st].
    apply (Ha (fun _ => st) (fun _ => len - o)).
  - apply er_if; [| |exact Hs].
    + apply er_bind; [apply er_neg|intros o]. apply er_bind; [apply er_inner|intros ip]. apply er_if; [|exact Hf]. apply (Hsb s_pos (fun _ => o)).
    + cbv zeta. apply er_bind; [apply er_rem|intros rem]. apply er_if; [|exact Hf]. apply (Ha s_pos (fun _ => Z.to_N off)).
Qed.
Lemma er_bseek len w : er io_seek (b_seek len w).
Proof.
  unfold b_seek. apply er_bind; [apply er_target|intros pos]. apply er_bind; [|intros _u; apply er_inner].
  intros s r s' Hs. cbv zeta. destruct (pos <? s_pos s); (destruct (_ <? _); [intros H; injection H as <- <-; split; [exact Hs|]; intros x Hx; injection Hx as <-; left; right; reflexivity|]);
    (apply er_bind; [apply er_devseek|intros _u; apply er_mod; intros s0 H0; exact H0|exact Hs]).
Qed.
Lemma er_fill : er io_read b_fill_buf.
Proof.
  unfold b_fill_buf. apply er_bind; [apply er_rem|intros rem]. apply er_bind.
  - intros s r s' Hs H. unfold on_dev, dev_fill_buf, sched_next in H.
    destruct (d_sched (s_dev s)) as [|[c| |] sc]; injection H as <- <-; (split; [exact Hs|]); try discriminate; intros y Hy; injection Hy as <-; [right; reflexivity|left; right; reflexivity].
  - intros buf. apply er_bind; [apply er_check; left; right; reflexivity|intros _u; apply er_ret].
Qed.
Lemma er_consume n : er io_read (b_consume n).
Proof.
  unfold b_consume. apply er_bind; [apply er_rem|intros rem]. intros s r s' Hs H. cbv zeta in H.
  destruct (_ && _)%bool; [injection H as <- <-; split; [exact Hs|discriminate]|]. destruct (u64_add _ _ _); injection H as <- <-; (split; [exact Hs|discriminate]).
Qed.
Lemma er_slice : er reading_error b_slice.
Proof.
  unfold b_slice. apply er_bind; [apply er_rem|intros rem]. apply er_bind.
  - intros s r s' Hs H. unfold as_slice in H. destruct (_ <? _); injection H as <- <-; (split; [exact Hs|discriminate]).
  - intros buf. destruct (N.leb_spec rem (lenN buf)) as [|E]; [apply er_ret|]. apply er_fail. cbn. lia.
Qed.
Lemma er_reset p : er reading_error (reset_pos p).
Proof.
  unfold reset_pos. apply er_bind; [apply er_commit|intros _u]. apply er_bind; [apply er_mod; auto|intros _v]. apply er_bind; [apply er_mod; auto|intros _w]. apply er_mod; auto.
Qed.
Lemma call_good op c : reads c -> er (call_error c) (call_run op c).
Proof.
  intros Hr.
  assert (W : forall A (m : SM A) d, er reading_error m -> er (call_error d) m) by (intros A m d; apply er_weak; intros x Hx; left; exact Hx).
  assert (U : forall A (m : SM A) (f : A -> cval), er (call_error c) m -> er (call_error c) (mbind m (fun a => mret (f a)))).
  { intros A m f Hm. apply er_bind; [exact Hm|]. intros a. apply er_ret. }
  assert (Hio : forall A (m : IM A) (d : call), er io_read m -> (forall x, io_read x -> call_error d (SIo x)) -> er (call_error d) (lift_io m)).
  { intros A m d Hm Hd. apply (er_liftc io_read); [exact Hd|exact Hm]. }
  destruct c; cbn [reads] in Hr; try contradiction; cbn [call_run]; try (unfold ret_unit; apply (U unit _ (fun _ => VUnit_)); apply W).
  - apply (U element), W. exact (er_impl false).
  - apply (U (option field)), W, er_next.
  - unfold skip_up. apply er_loop. intros a. apply er_bind; [apply er_get|intros s]. apply er_if; [|apply er_ret]. apply er_bind; [apply er_impl|intros; apply er_ret].
  - destruct op as [|len|f]; try apply er_ret. apply (U unit _ (fun _ => VUnit_)), W, er_skip.
  - apply er_commit.
  - apply er_reset.
  - apply (U N). unfold st_seek. apply er_bind; [apply W, er_commit|intros _u]. apply er_bind.
    + apply (er_liftc io_seek); [|apply er_devseek]. intros k [Hk| ->]; [left; exact Hk|right; exact Logic.I].
    + intros off. apply er_bind; [apply W, er_reset|intros _v]. apply er_bind; [apply er_mod; auto|intros _w; apply er_ret].
  - apply er_mod; auto.
  - apply er_mod; auto.
  - apply er_mod; auto.
  - destruct op as [|len|f]; try apply er_ret.
    assert (V : forall A (m : SM A) (f : A -> bval), er (call_error (CBlob o)) m -> er (call_error (CBlob o)) (mbind (mbind m (fun a => mret (f a))) (fun v => mret (VBop v)))).
    { intros A m f Hm. apply er_bind; [|intros; apply er_ret]. apply er_bind; [exact Hm|]. intros a. apply er_ret. }
    destruct o; cbn [reads] in Hr; try contradiction; cbn [bop_run].
    + apply (V bytes). apply Hio; [apply (er_weak io_dev); [|apply er_bread]; intros x [->| ->]; [right; reflexivity|left; right; reflexivity]|].
      intros x [Hx| ->]; [left; exact Hx|right; exact Logic.I].
    + apply (V bytes), W, er_b_exact.
    + apply (V bytes). unfold b_read_fully. apply er_bind; [apply er_rem|intros rem]. destruct (N.ltb_spec max rem).
      * apply er_fail. right. auto.
      * apply W, er_lift, er_upto, er_bread.
    + apply (V bytes), W, er_lift, er_upto, er_bread.
    + assert (Hd : forall x, io_read x -> call_error (CBlob (BFillConsume n)) (SIo x)) by (intros x [Hx| ->]; [left; exact Hx|right; exact Logic.I]).
      apply er_bind; [|intros; apply er_ret]. apply er_bind; [apply Hio; [apply er_fill|exact Hd]|intros b].
      apply er_bind; [apply Hio; [apply er_consume|exact Hd]|intros; apply er_ret].
    + apply (V bytes), W, er_slice.
    + apply (V N). apply (er_liftc io_seek); [|apply er_bseek]. intros k [Hk| ->]; [left; exact Hk|right; exact Logic.I].
    + apply er_bind; [|intros; apply er_ret]. apply er_bind; [apply er_rem|intros r]. apply er_bind; [apply er_start|intros st]. apply er_bind; [apply er_inner|intros ip].
      apply er_bind; [apply er_get|intros s; apply er_ret].
Qed.
Lemma calls_good cs : Forall reads cs -> forall op s, rd s -> errors_ok cs (fst (run_calls cs op s)).
Proof.
  induction 1 as [|c cs Hc Hcs IH]; intros op s Hs; cbn [run_calls]; [constructor|].
  destruct (call_run op c s) as [x s1] eqn:E. destruct (call_good op c Hc s x s1 Hs E) as [H1 H2].
  specialize (IH (opens op c x) s1 H1). destruct (run_calls cs (opens op c x) s1) as [xs st]. constructor; [exact H2|exact IH].
Qed.
Lemma values_good e zc cf ts : env_ok e -> Forall (deserialisable e zc) ts -> cf_collect cf <= U64_MAX -> cf_blob cf <= U64_MAX ->
  forall s err, seqinv (strip s) -> rd s -> fst (read_values e zc cf ts s) = RErr err -> possible_error cf (e_kind err).
Proof.
  intros He Hts Hc Hb. induction Hts as [|t ts Ht Hts IH]; intros s err Hq Hs; cbn [read_values]; [discriminate|].
  unfold mbind. pose proof (sched_ok e zc cf He Hc Hb t s Ht Hq) as H. destruct (from_stream e zc cf t s) as [r s1] eqn:E.
  destruct (from_good cf (conj Hc Hb) e zc t s _ _ He Ht Hq Hs E) as [H1 H2]. destruct r as [v|x| |]; try discriminate.
  - destruct H as [Hq1 _]. specialize (IH s1 err Hq1 H1). destruct (read_values e zc cf ts s1) as [[vs|x| |] s2]; try discriminate. cbn [fst] in *. intros X. apply IH. congruence.
  - cbn [fst]. intros X. apply H2. congruence.
Qed.
Theorem errors_possible e zc cf ts dbg sk gr bs sched err : env_ok e -> Forall (deserialisable e zc) ts -> cf_collect cf <= U64_MAX -> cf_blob cf <= U64_MAX ->
  bytes_ok bs -> lenN bs + 3 < U64_MAX ->
  fst (read_values e zc cf ts (snd (set_graceful_eof gr (new_stream dbg sk (mkDev bs 0 sched))))) = RErr err -> possible_error cf (e_kind err).
Proof.
  intros He Ht Hc Hb Ho Hl. apply values_good; auto; [exact (fresh_sched dbg sk gr bs sched Ho Hl)|]. left. reflexivity.
Qed.
Theorem errors_single e zc cf t dbg sk gr bs sched err s' : usable e zc cf t -> bytes_ok bs -> lenN bs + 3 < U64_MAX ->
  from_stream e zc cf t (snd (set_graceful_eof gr (new_stream dbg sk (mkDev bs 0 sched)))) = (RErr err, s') -> possible_error cf (e_kind err).
Proof.
  intros (He & Ht & Hc & Hb) Ho Hl H. destruct (from_good cf (conj Hc Hb) e zc t _ _ _ He Ht (fresh_sched dbg sk gr bs sched Ho Hl) (or_introl eq_refl) H) as [_ X]. exact (X err eq_refl).
Qed.
Theorem call_errors cs dbg sk dev : Forall reads cs -> errors_ok cs (fst (run_calls cs ONone (new_stream dbg sk dev))).
Proof. intros H. apply calls_good; [exact H|]. left. reflexivity. Qed.
