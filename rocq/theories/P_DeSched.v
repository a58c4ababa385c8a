(** * P_DeSched: deserialising through a reader with short reads,
    interruptions and failures *)

From Verif Require Import Base Wire Dev Stream SpecWire SpecFormat SpecStream SpecHist Types Prog De SpecDe
  P_Base P_Wire P_Sched P_Prog.
Strategy 1000 [s_decode_u64 decode_u64 decode_loop write_all read_exact encode_u64 enc_loop encode_fixed_u64 mloop miter].

Definition rstrip (st : rst stream) : rst stream := x_set_s (strip (x_s st)) st.
Definition rbenign (st : rst stream) : Prop := benign (x_s st).
Definition anyerr (_ : derr) : Prop := True.
Notation dsim := (gsim rstrip rbenign anyerr).

Lemma on_src_dsim {A} (m : M stream serr A) : sim m -> dsim (on_src_of m).
Proof.
  intros Hm st r st' H. unfold on_src_of in *. cbn [rstrip x_s x_set_s].
  destruct (m (x_s st)) as [r1 s1] eqn:E1.
  destruct (Hm _ _ _ E1) as [[Heq Hb]|(Hnb & e & -> & _)].
  - left. rewrite Heq. destruct r1; cbn in *; injection H as <- <-; (split; [reflexivity|exact Hb]).
  - right. split; [exact Hnb|]. cbn in H. injection H as <- <-. eexists. split; [reflexivity|exact I].
Qed.

Lemma xfail_dsim {A} k : dsim (xfail (A := A) k).
Proof. intros st r st' H. injection H as <- <-. left. auto. Qed.

Lemma pure_dsim {A} (f : rst stream -> res derr A * rst stream) :
  (forall st, snd (f (rstrip st)) = rstrip (snd (f st)) /\ fst (f (rstrip st)) = fst (f st) /\
     x_s (snd (f st)) = x_s st) -> dsim f.
Proof.
  intros Hf st r st' H. destruct (Hf st) as (H1 & H2 & H3). rewrite H in *. cbn [fst snd] in *. left. split.
  - destruct (f (rstrip st)) as [r1 s1]. cbn in *. congruence.
  - unfold rbenign. now rewrite H3.
Qed.

Lemma run_op_dsim cf {X : Set} (o : op X) : dsim (run_op stream_source cf o).
Proof.
  assert (Hbl : forall A (m : M stream serr A), sim m -> dsim (on_blob m)).
  { intros A m Hm st r st' H. pose proof (on_src_dsim m Hm st) as Hs. unfold on_blob in *. cbn [rstrip x_set_s x_cur].
    destruct (x_cur st) as [[t p d v]|] eqn:Ec; [|injection H as <- <-; left; auto].
    destruct v; try (injection H as <- <-; left; auto; fail). now apply Hs. }
  destruct o; cbn [run_op].
  - apply gsim_bind; [apply on_src_dsim, next_field_sim|]. intros f. apply gsim_bind.
    + apply gsim_mod; intros; reflexivity || assumption.
    + intros _. apply gsim_ret.
  - intros st r st' H. cbn [rstrip x_set_s x_cur]. destruct (x_cur st) as [f|] eqn:Ec; [|injection H as <- <-; left; auto].
    revert H. apply (on_src_dsim (field_skip f) (field_skip_sim f)).
  - apply pure_dsim. intros st. destruct (cf_ignore cf); [auto|]. cbn. destruct (x_cur st); auto.
  - apply pure_dsim. intros st. change (x_path (rstrip st)) with (x_path st). change (x_cur (rstrip st)) with (x_cur st).
    destruct (cf_rec cf <=? lenN (x_path st)); [auto|]. destruct at_field; [destruct (x_cur st); auto|auto].
  - apply pure_dsim. auto.
  - apply pure_dsim. intros st. change (x_coll (rstrip st)) with (x_coll st).
    change (i_dbg stream_source (x_s (rstrip st))) with (i_dbg stream_source (x_s st)).
    destruct (ctx_collect _ _ _ _); auto.
  - apply pure_dsim. intros st. change (x_blob (rstrip st)) with (x_blob st).
    change (i_dbg stream_source (x_s (rstrip st))) with (i_dbg stream_source (x_s st)).
    destruct (ctx_blob _ _ _ _); auto.
  - apply pure_dsim. auto.
  - apply Hbl. apply b_remaining_sim.
  - apply Hbl. apply b_read_fully_sim.
  - apply Hbl. apply sim_lift, b_read_exact_simio.
  - apply Hbl. apply b_ext_slice_sim.
Qed.

Lemma run_dsim cf {A} (p : prog A) : dsim (run stream_source cf p).
Proof.
  induction p as [a|x|X o k IH]; cbn [run].
  - apply gsim_ret.
  - destruct x; [apply xfail_dsim|apply gsim_panic|apply gsim_fuel].
  - apply gsim_bind; [apply run_op_dsim|exact IH].
Qed.

Lemma from_stream_dsim e zc cf t s r s' : from_stream e zc cf t s = (r, s') ->
  (from_stream e zc cf t (strip s) = (r, strip s') /\ (benign s -> benign s')) \/
  (~ benign s /\ exists x, r = RErr x).
Proof.
  unfold from_stream. set (p := d_body _). intros H.
  destruct (run stream_source cf p (top_rst s)) as [r1 st1] eqn:E. injection H as <- <-.
  destruct (run_dsim cf p _ _ _ E) as [[Heq Hb]|(Hnb & x & -> & _)].
  - left. change (top_rst (strip s)) with (rstrip (top_rst s)). rewrite Heq. split; [reflexivity|exact Hb].
  - right. split; [exact Hnb|]. eauto.
Qed.
