(** * P_GrowC: data passed through an old program does not grow (C32, C81) *)

From Verif Require Import Base Wire Dev Stream Types Ser Prog De SpecFormat SpecStream SpecDe SpecDoc SpecSerDe SpecRead SpecEdit SpecCompat SpecGrow
  P_Stream P_Types P_DocOk P_Compat P_CompatApi P_Edit P_Pass P_SerDe P_Resave P_Ex P_Unk P_GrowB.
Local Open Scope N_scope.
Strategy 1000 [s_decode_u64 decode_u64 decode_loop write_all read_exact encode_u64 enc_loop encode_fixed_u64 mloop miter].

Lemma to_vec_bytes e t v dw bs : env_wf e -> has_type e v t -> shape_wf t -> size_of e t v <= U64_MAX -> to_vec e dw t v = ROk bs -> bs = bytes_of e t v.
Proof. intros Hwf HT Hs Hz H. rewrite (to_vec_ok e Hwf t v dw) in H; [now injection H|now split|exact Hz]. Qed.
Theorem passed_through_sized eo en (zc ign : bool) J v t t' dw dw' : env_wf eo -> env_wf en -> all_older eo en J -> older J t' t ->
  no_unit_body en t -> no_unit_body eo t' -> ~ empty_bytes eo t' ->
  deserialisable eo zc t' -> deserialisable en zc t -> has_type en v t -> shape_wf t -> size_of en t v <= U64_MAX ->
  exists w bs bs', has_type eo w t' /\ to_vec en dw t v = ROk bs /\ read_as eo zc ign t' bs w /\
    to_vec eo dw' t' w = ROk bs' /\ read_as en zc ign t bs' v /\ lenN bs' <= lenN bs.
Proof.
  intros Hwo Hwn HJ Ho Hun Huo Hne Hdo Hdn Hty Hs Hsz. pose proof (older_shape J _ _ Ho Hs) as Hso.
  destruct (all_pass eo en ign J Hwo Hwn HJ (units_of en ign _ (or_intror Hun)) v t Hty Hs (ex_intro _ zc Hdn) t' Ho) as (_ & _ & Hw).
  destruct Hw as (w & l & l' & W1 & W2 & W3 & W4 & W5); [right; exact (proj1 Hun)|].
  pose proof (Becomes eo ign en v t t' w l W2 W3) as HB.
  destruct (read_back en eo zc ign v t t' w dw Hwn Hwo Hdo Hty Hs Hsz HB) as (bs & B1 & B2).
  destruct (becomes_denotes eo ign en v t t' w zc Hwo Hdo HB) as (x & Hx).
  destruct (doc_ok en Hwn v t Hty Hs) as (Hok & _ & _).
  destruct (grown_denotes eo t' Hwo Hso Huo Hne ign zc _ w x Hx W1 Hok) as [G1 G2].
  assert (Hsz' : size_of eo t' w <= U64_MAX) by (unfold size_of in *; lia).
  destruct (read_back eo en zc ign w t' t v dw' Hwo Hwn Hdn W1 Hso Hsz' (Becomes en ign eo w t' t v l' W4 W5)) as (bs' & C1 & C2).
  exists w, bs, bs'. split; [exact W1|]. split; [exact B1|]. split; [exact B2|]. split; [exact C1|]. split; [exact C2|].
  rewrite (to_vec_bytes eo t' w dw' bs' Hwo W1 Hso Hsz' C1), (to_vec_bytes en t v dw bs Hwn Hty Hs Hsz B1). exact G2.
Qed.

Lemma grown_any_input e zc cf t dbg sk bs sched v s' dw dr : env_wf e -> shape_wf t -> no_unit_body e t -> ~ empty_bytes e t ->
  deserialisable e zc t -> cf_collect cf <= U64_MAX -> cf_blob cf <= U64_MAX ->
  bytes_ok bs -> 22 * lenN bs + 6 < U64_MAX ->
  from_stream e zc cf t (new_stream dbg sk (mkDev bs 0 sched)) = (ROk v, s') ->
  exists out, to_vec e dw t v = ROk out /\ fst (from_stream e zc cf t (from_slice dr out)) = ROk v /\ lenN out + 1 <= 2 * s_pos s'.
Proof.
  intros Hwf Hsh Hu Hn Hd Hc Hb Ho Hl H.
  destruct (grown_any e zc cf t Hwf Hsh Hd Hc Hb Hu Hn dbg sk bs sched v s' dw Ho ltac:(lia) H) as (Hz & Hp & out & Hout & Hlen).
  destruct (resave e zc cf t dbg sk false bs sched v s' dw dr Hwf Hc Hb Hsh Hd (or_intror Hu) Ho ltac:(lia) H ltac:(lia)) as (out' & Hout' & Hr).
  assert (out' = out) by congruence. subst out'. exists out. auto.
Qed.

Definition grow_fields : list (N * node) :=
  [(1, NInt 300); (2, NBlob [104; 105]);
   (3, NStruct [(1, NInt 7); (2, NBlob [])]); (4, NEnum 2 [(1, NInt 5); (2, NInt 10)]);
   (9, NStruct [(1, NInt 5); (2, NBlob [1; 2; 3])])].
Lemma ex_no_empty : ~ empty_bytes ex_env (TItem 0).
Proof.
  assert (G : forall t, empty_bytes ex_env t -> In t ex_closure -> False).
  { induction 1 as [t Ht|t H IH|t H IH|t H IH|t H IH|n t H IH|k v H IH|k v H IH|t ts Hin H IH|t H IH|t H IH|i t Hin H IH]; intros Hc;
      cbn in Hc; repeat destruct Hc as [Hc|Hc]; try discriminate; try contradiction.
    - injection Hc as <-. apply IH. cbn. auto 10.
    - injection Hc as <-. apply IH. cbn. auto 10.
    - injection Hc as <-. cbn in Hin. apply IH. cbn. intuition auto.
    - injection Hc as <-. cbn in Hin. apply IH. cbn. intuition auto. }
  intros H. apply (G _ H). cbn. auto.
Qed.
Lemma grow_instance : ~ empty_bytes ex_env (TItem 0) /\ no_unit_body ex_env (TItem 0) /\ shape_wf (TItem 0) /\
  doc_stream grow_fields (from_slice false ex_bytes) /\ encodes_doc grow_fields ex_bytes /\
  fst (from_stream ex_env false default_cfg (TItem 0) (from_slice false ex_bytes)) = ROk ex_value /\
  to_vec ex_env true (TItem 0) ex_value = ROk ex_bytes.
Proof.
  split; [exact ex_no_empty|]. split.
  { split; [reflexivity|]. intros [|i] b nm t'; cbn.
    + intros -> . discriminate.
    + intros [[<- |[<- |[]]]|H]; try discriminate. injection H as <-. discriminate. }
  split; [exact Logic.I|]. split; [apply (doc_by grow_fields (removelast ex_bytes) [] false true); reflexivity|].
  split; [exists (removelast ex_bytes); split; [apply encodes_by; reflexivity|reflexivity]|]. split; vm_compute; reflexivity.
Qed.
