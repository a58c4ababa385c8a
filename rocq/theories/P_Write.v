(** * P_Write: writing elements to a device that accepts everything *)

From Verif Require Import Base Wire Dev Stream SpecWire SpecFormat SpecStream P_Base P_Wire P_Sched P_Read.

(** A stream used for writing: the cursor is inside or at the end of what
    the device holds. *)
Definition winv (s : stream) : Prop :=
  sch s = [] /\ d_pos (s_dev s) <= lenN (d_data (s_dev s)).

Lemma put_at_nil d p : p <= lenN d -> put_at d p [] = d.
Proof.
  intros H. unfold put_at. replace (p - lenN d) with 0 by lia. change (repeat 0 (N.to_nat 0)) with (@nil N). cbn [app].
  change (lenN (@nil N)) with 0. rewrite N.add_0_r. apply takeN_dropN.
Qed.
Lemma wr_nil s : winv s -> wr [] s = s.
Proof.
  intros [Hs Hp]. unfold wr. rewrite put_at_nil by exact Hp. change (lenN (@nil N)) with 0.
  rewrite !N.add_0_r. destruct s as [[d p sc] ? ? ? ? ? ? ? ? ?]. reflexivity.
Qed.
Lemma lenN_put_at d p bs : p <= lenN d -> lenN (put_at d p bs) = N.max (lenN d) (p + lenN bs).
Proof.
  intros H. unfold put_at. replace (p - lenN d) with 0 by lia. change (repeat 0 (N.to_nat 0)) with (@nil N). cbn [app].
  rewrite !lenN_app, lenN_takeN, lenN_dropN. lia.
Qed.
Lemma wr_winv bs s : winv s -> winv (wr bs s).
Proof.
  intros [Hs Hp]. split; [exact Hs|]. unfold wr; scbn. rewrite lenN_put_at by exact Hp. lia.
Qed.
Lemma wr_set_commit bs c s : wr bs (set_commit c s) = set_commit c (wr bs s).
Proof. reflexivity. Qed.
Lemma wr_set_blob_end bs c s : wr bs (set_blob_end c s) = set_blob_end c (wr bs s).
Proof. reflexivity. Qed.
Lemma wr_pos bs s : s_pos (wr bs s) = s_pos s + lenN bs.
Proof. reflexivity. Qed.

Lemma tw_clean bs s : sch s = [] -> write_all sch t_write bs s = wspec cap_none bs s.
Proof. intros Hs. apply write_all_clean; auto. apply cap_none_good_w. Qed.

Lemma tw_ok bs s : winv s -> s_pos s + lenN bs <= U64_MAX ->
  write_all sch t_write bs s = (ROk tt, wr bs s).
Proof.
  intros Hw Hp. rewrite tw_clean by apply Hw. unfold wspec, cap_none.
  destruct bs as [|b l].
  - now rewrite wr_nil.
  - cbn [cap_take]. destruct (N.ltb_spec (U64_MAX - s_pos s) (lenN (b :: l))); [lia|].
    now rewrite N.eqb_refl.
Qed.
Lemma tw_err bs s : bs <> [] -> sch s = [] -> U64_MAX < s_pos s + lenN bs -> s_pos s <= U64_MAX ->
  write_all sch t_write bs s = (RErr IoOther, s).
Proof.
  intros Hb Hs Hp Hq. rewrite tw_clean by exact Hs. unfold wspec, cap_none.
  destruct bs as [|b l]; [congruence|].
  cbn [cap_take]. destruct (N.ltb_spec (U64_MAX - s_pos s) (lenN (b :: l))); [reflexivity|lia].
Qed.

(** No blob is being written or it has been filled. *)
Definition settled_w (s : stream) : Prop :=
  s_commit s = None \/ (s_commit s = Some CCheckEnd /\ s_pos s = s_blob_end s).
Lemma commit_settled s : settled_w s -> commit s = (ROk tt, set_commit None s).
Proof.
  intros [H|[H Hp]]; unfold commit; rewrite H.
  - f_equal. destruct s; cbn in *; now subst.
  - unfold mbind, check_at_end_of_blob. rewrite Hp, N.eqb_refl. reflexivity.
Qed.

Definition desc_code (d : pdesc) : N :=
  match d with PPair t tag => dtype_code t + tag | PSpecial t => stype_code t end.
Lemma desc_code_ok E dbg d : pdesc_ok d -> @desc_byte E dbg d = ROk (desc_code d).
Proof.
  intros Hd. destruct (desc_byte_parse E dbg d Hd) as (b & Hb & Hlt & Hp). rewrite Hb. f_equal.
  destruct d as [t tag|t]; cbn [desc_code].
  - apply (parse_pair_inv b t tag Hlt) in Hp. tauto.
  - apply (parse_special_inv b t Hlt Hp).
Qed.

Lemma write_desc_ok d s : winv s -> settled_w s -> pdesc_ok d -> s_pos s + 1 <= U64_MAX ->
  write_desc d s = (ROk tt, wr [desc_code d] (set_commit None s)).
Proof.
  intros Hw Hs Hd Hp. unfold write_desc. rewrite (mbind_ok _ _ _ _ _ (commit_settled s Hs)).
  unfold mbind, mres. rewrite (desc_code_ok _ _ _ Hd). unfold lift_io.
  rewrite tw_ok; [reflexivity|exact Hw|exact Hp].
Qed.

Lemma s_encode_ok n s : winv s -> n < 2 ^ 64 -> s_pos s + lenN (enc n) <= U64_MAX ->
  s_encode_u64 n s = (ROk tt, wr (enc n) s).
Proof.
  intros Hw Hn Hp. unfold s_encode_u64. destruct (enc_spec n Hn) as (-> & _).
  unfold lift_io. now rewrite tw_ok.
Qed.

Lemma enc_len n : n < 2 ^ 64 -> 1 <= lenN (enc n) <= 10.
Proof. intros H. now destruct (enc_spec n H) as (_ & _ & _ & ?). Qed.

Lemma write_u64_ok t n s : winv s -> settled_w s -> tag_ok t -> n < 2 ^ 64 ->
  s_pos s + 1 + lenN (enc n) <= U64_MAX ->
  write_u64 t n s = (ROk tt, wr (0x40 + t :: enc n) (set_commit None s)).
Proof.
  intros Hw Hs Ht Hn Hp. pose proof (enc_len n Hn). unfold write_u64.
  rewrite (mbind_ok _ _ _ _ _ (write_desc_ok (PPair DInteger t) s Hw Hs Ht ltac:(lia))).
  rewrite s_encode_ok; [rewrite wr_wr; reflexivity|apply wr_winv; exact Hw|exact Hn|rewrite wr_pos; exact Hp].
Qed.
Lemma write_enum_ok t n s : winv s -> settled_w s -> tag_ok t -> n < 2 ^ 64 ->
  s_pos s + 1 + lenN (enc n) <= U64_MAX ->
  write_enum t n s = (ROk tt, wr (0x00 + t :: enc n) (set_commit None s)).
Proof.
  intros Hw Hs Ht Hn Hp. pose proof (enc_len n Hn). unfold write_enum.
  rewrite (mbind_ok _ _ _ _ _ (write_desc_ok (PPair DEnum t) s Hw Hs Ht ltac:(lia))).
  rewrite s_encode_ok; [rewrite wr_wr; reflexivity|apply wr_winv; exact Hw|exact Hn|rewrite wr_pos; exact Hp].
Qed.

(** ** Blobs of known size *)
Lemma write_alloc_ok d len s : winv s -> settled_w s -> pdesc_ok d ->
  len <= U64_MAX - 11 -> s_pos s + len + 11 <= U64_MAX ->
  write_desc_with_blob_alloc d len s =
  (ROk len, set_commit (Some CCheckEnd)
     (set_blob_end (s_pos s + 1 + lenN (enc len) + len) (wr (desc_code d :: enc len) s))).
Proof.
  intros Hw Hs Hd Hl Hp.
  assert (Hl64 : len < 2 ^ 64) by (unfold U64_MAX in *; change (2^64) with 18446744073709551616; lia).
  pose proof (enc_len len Hl64). unfold write_desc_with_blob_alloc.
  rewrite (mbind_ok _ _ _ _ _ (commit_settled s Hs)).
  destruct (N.ltb_spec (U64_MAX - 11) len); [lia|].
  set (s1 := set_commit None s).
  assert (Hc : lift_io (check_advance_pos (len + 11)) s1 = (ROk tt, s1)).
  { unfold lift_io, check_advance_pos. change (s_pos s1) with (s_pos s).
    destruct (N.ltb_spec (U64_MAX - s_pos s) (len + 11)); [lia|reflexivity]. }
  rewrite (mbind_ok _ _ _ _ _ Hc).
  rewrite (mbind_ok _ _ _ _ _ (write_desc_ok d s1 Hw (or_introl eq_refl) Hd ltac:(cbn; lia))).
  assert (He : s_encode_u64 len (wr [desc_code d] (set_commit None s1)) = (ROk tt, wr (desc_code d :: enc len) s1)).
  { rewrite s_encode_ok; [rewrite wr_wr; reflexivity|apply wr_winv; exact Hw|exact Hl64|].
    rewrite wr_pos. change (lenN [desc_code d]) with 1. cbn. lia. }
  rewrite (mbind_ok _ _ _ _ _ He).
  set (s2 := wr (desc_code d :: enc len) s1).
  assert (Hp2 : s_pos s2 = s_pos s + 1 + lenN (enc len)).
  { unfold s2. rewrite wr_pos, lenN_cons. cbn. lia. }
  unfold mbind, mmod, mret. rewrite u64_add_ok by (rewrite Hp2; unfold U64_MAX, U64_MOD in *; lia).
  rewrite Hp2. f_equal.
Qed.

Lemma bw_clean bs s : sch s = [] -> b_write_all bs s = wspec cap_blob bs s.
Proof. intros Hs. apply write_all_clean; auto using cap_blob_good_w, b_write_wr. Qed.

Lemma b_write_all_ok bs s : winv s -> s_pos s + lenN bs <= s_blob_end s -> s_blob_end s <= U64_MAX ->
  b_write_all bs s = (ROk tt, wr bs s).
Proof.
  intros Hw Hp He. rewrite bw_clean by apply Hw. unfold wspec, cap_blob.
  destruct bs as [|b l]; [now rewrite wr_nil|].
  rewrite u64_sub_ok by lia. cbn [cap_take]. rewrite takeN_all by lia.
  destruct (N.ltb_spec (U64_MAX - s_pos s) (lenN (b :: l))); [lia|]. now rewrite N.eqb_refl.
Qed.

Lemma write_blob_gen_ok d data s : winv s -> settled_w s -> pdesc_ok d ->
  lenN data <= U64_MAX - 11 -> s_pos s + lenN data + 11 <= U64_MAX ->
  (let* len := write_desc_with_blob_alloc d (lenN data) in
   lift_io (b_write_all data) ;; mret len) s =
  (ROk (lenN data),
   let bs := desc_code d :: enc (lenN data) ++ data in
   set_commit (Some CCheckEnd) (set_blob_end (s_pos s + lenN bs) (wr bs s))).
Proof.
  intros Hw Hs Hd Hl Hp.
  assert (Hl64 : lenN data < 2 ^ 64) by (unfold U64_MAX in *; change (2^64) with 18446744073709551616; lia).
  pose proof (enc_len _ Hl64) as Hel.
  rewrite (mbind_ok _ _ _ _ _ (write_alloc_ok d (lenN data) s Hw Hs Hd Hl Hp)).
  set (s1 := set_commit _ _).
  assert (Hb : lift_io (b_write_all data) s1 = (ROk tt, wr data s1)).
  { unfold lift_io. rewrite b_write_all_ok; [reflexivity| | |].
    - apply (wr_winv (desc_code d :: enc (lenN data)) s Hw).
    - unfold s1; scbn. rewrite wr_pos, lenN_cons. lia.
    - unfold s1; scbn. lia. }
  rewrite (mbind_ok _ _ _ _ _ Hb). unfold mret. f_equal. unfold s1.
  rewrite wr_set_commit, wr_set_blob_end, wr_wr. cbn zeta.
  change ((desc_code d :: enc (lenN data)) ++ data) with (desc_code d :: enc (lenN data) ++ data).
  f_equal. f_equal. rewrite lenN_cons, lenN_app. lia.
Qed.
