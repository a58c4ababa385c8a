(** * P_Wire: proofs about integers and descriptors *)

From Verif Require Import Base P_Base Wire SpecWire.

(** ** Bit-level facts *)

Lemma byte_sweep (P : N -> bool) :
  forallb P (map N.of_nat (seq 0 256)) = true -> forall b, b < 256 -> P b = true.
Proof.
  intros H b Hb. rewrite forallb_forall in H. apply H.
  replace b with (N.of_nat (N.to_nat b)) by lia.
  apply in_map, in_seq. lia.
Qed.

Lemma land_7F b : N.land b 0x7F = b mod 128.
Proof. change 0x7F with (N.ones 7). rewrite N.land_ones. reflexivity. Qed.

Lemma land_80 b : b < 256 -> (N.land b 0x80 =? 0) = (b <? 128).
Proof.
  intros Hb.
  pose proof (byte_sweep (fun b => Bool.eqb (N.land b 0x80 =? 0) (b <? 128))) as H.
  apply Bool.eqb_prop, H; [vm_compute; reflexivity|exact Hb].
Qed.

Lemma land_shl_0 a v s : a < 2 ^ s -> N.land a (v * 2 ^ s) = 0.
Proof.
  intros Ha. rewrite <- N.shiftl_mul_pow2.
  rewrite <- (N.mod_small a (2 ^ s) Ha), <- N.land_ones, <- N.land_assoc.
  rewrite (N.land_comm (N.ones s)), N.land_ones, N.shiftl_mul_pow2.
  rewrite N.mod_mul by (apply N.pow_nonzero; lia). apply N.land_0_r.
Qed.

Lemma lor_shl a v s : a < 2 ^ s -> N.lor a (v * 2 ^ s) = a + v * 2 ^ s.
Proof.
  intros Ha. pose proof (land_shl_0 a v s Ha) as H.
  rewrite <- N.lxor_lor by exact H. symmetry. now apply N.add_nocarry_lxor.
Qed.

Lemma lor_80 b : b < 128 -> N.lor b 0x80 = b + 128.
Proof. intros H. change 0x80 with (1 * 2 ^ 7). now rewrite lor_shl. Qed.

(** ** The decoder *)

(** One-step facts about the overflow test of the loop. *)
Lemma overflow_test a v s :
  v < 128 -> a < 2 ^ s -> a < 2 ^ 64 ->
  (negb (v =? 0) && ((64 <=? s) || negb (N.shiftr (N.shiftl v s mod U64_MOD) s =? v)))
  = (2 ^ 64 <=? a + v * 2 ^ s).
Proof.
  intros Hv Ha Ha64. change U64_MOD with (2 ^ 64).
  rewrite N.shiftr_div_pow2, N.shiftl_mul_pow2.
  destruct (N.eqb_spec v 0) as [->|Hv0]; cbn [negb andb].
  - destruct (N.leb_spec (2 ^ 64) (a + 0 * 2 ^ s)); lia.
  - destruct (N.leb_spec 64 s) as [Hs|Hs]; cbn [orb].
    + assert (2 ^ 64 <= 2 ^ s) by (apply N.pow_le_mono_r; lia).
      destruct (N.leb_spec (2 ^ 64) (a + v * 2 ^ s)); [reflexivity|nia].
    + assert (Hp : 2 ^ 64 = 2 ^ (64 - s) * 2 ^ s).
      { rewrite <- N.pow_add_r. f_equal. lia. }
      assert (Hs0 : 2 ^ s <> 0) by (apply N.pow_nonzero; lia).
      assert (Hs1 : 2 ^ (64 - s) <> 0) by (apply N.pow_nonzero; lia).
      destruct (N.ltb_spec (v * 2 ^ s) (2 ^ 64)) as [Hlt|Hge].
      * rewrite (N.mod_small _ _ Hlt), N.div_mul by exact Hs0.
        rewrite N.eqb_refl. cbn [negb].
        assert (v < 2 ^ (64 - s)) by (rewrite Hp in Hlt; nia).
        assert (v * 2 ^ s + 2 ^ s <= 2 ^ 64) by (rewrite Hp; nia).
        symmetry. apply N.leb_gt. lia.
      * assert (Hne : (v * 2 ^ s) mod 2 ^ 64 / 2 ^ s <> v).
        { intros Heq.
          assert (Hd : (v * 2 ^ s) mod 2 ^ 64 < 2 ^ 64) by (apply N.mod_lt; lia).
          assert (Hd2 : (v * 2 ^ s) mod 2 ^ 64 / 2 ^ s < 2 ^ (64 - s)).
          { apply N.div_lt_upper_bound; [exact Hs0|].
            rewrite (N.mul_comm (2 ^ s)), <- Hp. exact Hd. }
          rewrite Heq in Hd2. rewrite Hp in Hge. nia. }
        apply N.eqb_neq in Hne. rewrite Hne. cbn [negb].
        symmetry. apply N.leb_le. lia.
Qed.

(** [read_byte] on a plain byte slice ([Read for &[u8]]). *)
Definition rd_list : M bytes serr N := fun l =>
  match l with
  | [] => (RErr (SIo IoUnexpectedEof), [])
  | b :: r => (ROk b, r)
  end.

Lemma decode_loop_step {S} (rb : M S serr N) fuel a k s b s1 :
  a < 2 ^ (7 * k) -> a < 2 ^ 64 -> b < 256 -> rb s = (ROk b, s1) ->
  decode_loop rb (Datatypes.S fuel) a (7 * k) s =
  (if 2 ^ 64 <=? a + (b mod 128) * 2 ^ (7 * k) then (RErr SIntegerOverflow, s1)
   else if b <? 128 then (ROk (a + (b mod 128) * 2 ^ (7 * k)), s1)
   else if 256 <=? k then (RErr SOverwideInteger, s1)
   else decode_loop rb fuel (a + (b mod 128) * 2 ^ (7 * k)) (7 * (k + 1)) s1).
Proof.
  intros Ha Ha64 Hb Hrb. cbn [decode_loop]. rewrite (mbind_ok _ _ _ _ _ Hrb).
  rewrite land_7F, (land_80 b Hb).
  assert (Hv : b mod 128 < 128) by (apply N.mod_lt; lia).
  cbv zeta. rewrite (overflow_test a (b mod 128) (7 * k) Hv Ha Ha64).
  destruct (N.leb_spec (2 ^ 64) (a + b mod 128 * 2 ^ (7 * k))) as [Hov|Hov]; [reflexivity|].
  assert (Hacc : (if b mod 128 =? 0 then a
                  else N.lor a (N.shiftl (b mod 128) (7 * k) mod U64_MOD))
                 = a + b mod 128 * 2 ^ (7 * k)).
  { destruct (N.eqb_spec (b mod 128) 0) as [H0|H0]; [rewrite H0; lia|].
    rewrite N.shiftl_mul_pow2, N.mod_small.
    - now apply lor_shl.
    - change U64_MOD with (2 ^ 64). lia. }
  rewrite Hacc. destruct (b <? 128); [reflexivity|].
  replace (7 * k + 7) with (7 * (k + 1)) by lia.
  replace (256 * 7 <? 7 * (k + 1)) with (256 <=? k) by lia.
  destruct (256 <=? k); reflexivity.
Qed.

Lemma pow7_succ k : 2 ^ (7 * (k + 1)) = 128 * 2 ^ (7 * k).
Proof.
  replace (7 * (k + 1)) with (7 + 7 * k) by lia.
  rewrite N.pow_add_r. reflexivity.
Qed.

Definition dec_outcome (k a : N) (l : bytes) (r : res serr N) (rest : bytes) : Prop :=
  match r with
  | ROk v => exists bs, l = bs ++ rest /\ is_varint bs /\ k + lenN bs <= 257 /\
                        v = a + 2 ^ (7 * k) * varint_value bs /\ v < 2 ^ 64
  | RErr SIntegerOverflow =>
      exists p b, l = p ++ b :: rest /\ Forall cont_byte p /\ k + lenN p <= 256 /\
                  a + 2 ^ (7 * k) * varint_value p < 2 ^ 64 /\
                  2 ^ 64 <= a + 2 ^ (7 * k) * varint_value (p ++ [b])
  | RErr SOverwideInteger =>
      exists p, l = p ++ rest /\ Forall cont_byte p /\ k + lenN p = 257 /\
                a + 2 ^ (7 * k) * varint_value p < 2 ^ 64
  | RErr (SIo IoUnexpectedEof) =>
      rest = [] /\ Forall cont_byte l /\ k + lenN l <= 256 /\
      a + 2 ^ (7 * k) * varint_value l < 2 ^ 64
  | _ => False
  end.

Lemma decode_loop_sound fuel : forall k a l,
  N.of_nat fuel + k = 258 -> k <= 256 -> a < 2 ^ (7 * k) -> a < 2 ^ 64 -> bytes_ok l ->
  let '(r, rest) := decode_loop rd_list fuel a (7 * k) l in dec_outcome k a l r rest.
Proof.
  induction fuel as [|fuel IH]; intros k a l Hf Hk Ha Ha64 Hl; [lia|].
  destruct l as [|b l].
  - cbn [decode_loop]. unfold mbind, rd_list. cbn. rewrite lenN_nil.
    repeat split; try lia; constructor.
  - inversion Hl as [|? ? Hb Hl']; subst.
    rewrite (decode_loop_step rd_list fuel a k (b :: l) b l) by (auto; reflexivity).
    assert (Hpk : 2 ^ (7 * k) <> 0) by (apply N.pow_nonzero; lia).
    assert (Hb128 : b mod 128 < 128) by (apply N.mod_lt; lia).
    unfold byte_ok in Hb.
    destruct (N.leb_spec (2 ^ 64) (a + b mod 128 * 2 ^ (7 * k))) as [Hov|Hov].
    { exists [], b. cbn [app varint_value]. rewrite lenN_nil.
      repeat split; try lia; constructor. }
    destruct (N.ltb_spec b 128) as [Hfin|Hcont].
    { exists [b]. cbn [app varint_value]. rewrite lenN_cons, lenN_nil.
      split; [reflexivity|]. split; [|split; [|split]]; try lia.
      exists [], b. repeat split; auto. }
    destruct (N.leb_spec 256 k) as [Hk2|Hk2].
    { exists [b]. cbn [app varint_value]. rewrite lenN_cons, lenN_nil.
      repeat split; try lia. constructor; [|constructor]. split; lia. }
    specialize (IH (k + 1) (a + b mod 128 * 2 ^ (7 * k)) l).
    destruct (decode_loop rd_list fuel (a + b mod 128 * 2 ^ (7 * k)) (7 * (k + 1)) l) as [r rest].
    assert (IH' : dec_outcome (k + 1) (a + b mod 128 * 2 ^ (7 * k)) l r rest).
    { apply IH; try lia; [|exact Hl']. rewrite pow7_succ. nia. }
    clear IH. unfold dec_outcome in *. rewrite pow7_succ in IH'.
    assert (Hcb : cont_byte b) by (split; lia).
    destruct r as [v|e| |]; try contradiction.
    + destruct IH' as (bs & -> & (p & c & -> & Hp & Hc) & Hlen & Hv & Hv64).
      exists (b :: p ++ [c]). split; [reflexivity|]. split.
      { exists (b :: p), c. repeat split; auto. }
      rewrite lenN_cons. split; [lia|]. cbn [varint_value]. split; [|exact Hv64].
      rewrite Hv. ring.
    + destruct e as [[]| | | | | | | | | | |]; try contradiction.
      * destruct IH' as (-> & Hall & Hlen & Hv). repeat split.
        -- now constructor.
        -- rewrite lenN_cons; lia.
        -- cbn [varint_value]. lia.
      * destruct IH' as (p & c & -> & Hp & Hlen & Hv1 & Hv2).
        exists (b :: p), c. cbn [app varint_value]. rewrite lenN_cons.
        repeat split; try lia. now constructor.
      * destruct IH' as (p & -> & Hp & Hlen & Hv).
        exists (b :: p). cbn [app varint_value]. rewrite lenN_cons.
        repeat split; try lia. now constructor.
Qed.

Lemma decode_loop_sound' fuel l r rest :
  fuel = 258%nat -> bytes_ok l ->
  decode_loop rd_list fuel 0 0 l = (r, rest) -> dec_outcome 0 0 l r rest.
Proof.
  intros Hf Hl H.
  pose proof (decode_loop_sound fuel 0 0 l) as Hs.
  rewrite N.mul_0_r in Hs. rewrite H in Hs. apply Hs; try lia; auto.
Qed.

(** Keeps the kernel from computing with the fuel. *)
Lemma decode_u64_eq {S} (rb : M S serr N) :
  exists fuel, fuel = 258%nat /\ decode_u64 rb = decode_loop rb fuel 0 0.
Proof. now exists 258%nat. Qed.

Lemma varint_value_app p q :
  varint_value (p ++ q) = varint_value p + 2 ^ (7 * lenN p) * varint_value q.
Proof.
  induction p as [|b p IH]; cbn [app varint_value].
  - change (2 ^ (7 * lenN (@nil N))) with 1. lia.
  - rewrite lenN_cons, IH, pow7_succ. lia.
Qed.

Lemma varint_value_bound bs : varint_value bs < 2 ^ (7 * lenN bs).
Proof.
  induction bs as [|b bs IH]; cbn [varint_value].
  - reflexivity.
  - rewrite lenN_cons, pow7_succ.
    assert (b mod 128 < 128) by (apply N.mod_lt; lia). lia.
Qed.

(** Completeness over any byte source that delivers the bytes. *)
Definition delivers {S} (rb : M S serr N) (bs : bytes) (s s' : S) : Prop :=
  exists f : nat -> S, f 0%nat = s /\ f (length bs) = s' /\
    forall i b, nth_error bs i = Some b -> rb (f i) = (ROk b, f (Datatypes.S i)).

Lemma delivers_cons {S} (rb : M S serr N) b bs s s1 s' :
  rb s = (ROk b, s1) -> delivers rb bs s1 s' -> delivers rb (b :: bs) s s'.
Proof.
  intros Hb (f & H0 & Hn & Hs).
  exists (fun i => match i with O => s | Datatypes.S j => f j end).
  split; [reflexivity|]. split; [exact Hn|].
  intros [|i] c Hc; cbn in Hc.
  - injection Hc as <-. rewrite H0. exact Hb.
  - apply Hs. exact Hc.
Qed.

Lemma delivers_uncons {S} (rb : M S serr N) b bs s s' :
  delivers rb (b :: bs) s s' -> exists s1, rb s = (ROk b, s1) /\ delivers rb bs s1 s'.
Proof.
  intros (f & H0 & Hn & Hs). exists (f 1%nat). split.
  - rewrite <- H0. apply Hs. reflexivity.
  - exists (fun i => f (Datatypes.S i)). repeat split; [exact Hn|].
    intros i c Hc. apply Hs. exact Hc.
Qed.

Lemma decode_loop_complete {S} (rb : M S serr N) fuel : forall k a bs s s',
  N.of_nat fuel + k = 258 -> is_varint bs -> k + lenN bs <= 257 ->
  a < 2 ^ (7 * k) -> a + 2 ^ (7 * k) * varint_value bs < 2 ^ 64 ->
  delivers rb bs s s' ->
  decode_loop rb fuel a (7 * k) s = (ROk (a + 2 ^ (7 * k) * varint_value bs), s').
Proof.
  induction fuel as [|fuel IH]; intros k a bs s s' Hf Hbs Hlen Ha Hv Hdel.
  { destruct bs; [|rewrite lenN_cons in Hlen; lia].
    destruct Hbs as ([|] & c & Heq & _); discriminate. }
  assert (Ha64 : a < 2 ^ 64).
  { eapply N.le_lt_trans; [|exact Hv]. apply N.le_add_r. }
  destruct Hbs as (p & c & -> & Hp & Hc).
  destruct p as [|b p].
  - cbn [app] in *. apply delivers_uncons in Hdel. destruct Hdel as (s1 & Hs1 & Hdel).
    destruct Hdel as (f & H0 & Hn & _). cbn in Hn.
    rewrite <- H0, Hn in Hs1.
    unfold final_byte in Hc.
    assert (Hc256 : c < 256) by (clear - Hc; lia).
    rewrite (decode_loop_step rb fuel a k s c s' Ha Ha64 Hc256 Hs1).
    cbn [varint_value] in *.
    destruct (N.leb_spec (2 ^ 64) (a + c mod 128 * 2 ^ (7 * k))); [lia|].
    destruct (N.ltb_spec c 128); [|lia]. f_equal. f_equal. lia.
  - cbn [app] in *. apply delivers_uncons in Hdel. destruct Hdel as (s1 & Hs1 & Hdel).
    inversion Hp as [|? ? Hb Hp']; subst. destruct Hb as [Hb1 Hb2].
    rewrite lenN_cons in Hlen. cbn [varint_value] in *.
    assert (Hpk : 2 ^ (7 * k) <> 0) by (apply N.pow_nonzero; lia).
    rewrite (decode_loop_step rb fuel a k s b s1 Ha Ha64 Hb2 Hs1).
    assert (Hb128 : b mod 128 < 128) by (apply N.mod_lt; lia).
    destruct (N.leb_spec (2 ^ 64) (a + b mod 128 * 2 ^ (7 * k))); [nia|].
    destruct (N.ltb_spec b 128); [lia|].
    assert (0 < lenN (p ++ [c])) by (rewrite lenN_app, lenN_cons; lia).
    destruct (N.leb_spec 256 k); [lia|].
    rewrite (IH (k + 1) _ (p ++ [c]) s1 s'); try lia.
    + f_equal. f_equal. rewrite pow7_succ. ring.
    + exists p, c. auto.
    + rewrite pow7_succ. nia.
    + rewrite pow7_succ. nia.
    + exact Hdel.
Qed.

Lemma decode_complete' {S} (rb : M S serr N) fuel bs v s s' :
  fuel = 258%nat ->
  legal_varint bs v -> delivers rb bs s s' -> decode_loop rb fuel 0 0 s = (ROk v, s').
Proof.
  intros Hf (Hbs & Hlen & Hv & Hv64) Hdel.
  pose proof (decode_loop_complete rb fuel 0 0 bs s s') as H.
  rewrite N.mul_0_r, N.pow_0_r in H. rewrite H; try lia; auto.
  f_equal; f_equal; lia.
Qed.

Lemma decode_complete {S} (rb : M S serr N) bs v s s' :
  legal_varint bs v -> delivers rb bs s s' -> decode_u64 rb s = (ROk v, s').
Proof. exact (decode_complete' rb 258 bs v s s' eq_refl). Qed.

Lemma delivers_list bs rest : delivers rd_list bs (bs ++ rest) rest.
Proof.
  induction bs as [|b bs IH]; cbn [app].
  - exists (fun _ => rest). repeat split. intros [|i] c Hc; discriminate.
  - eapply delivers_cons; [reflexivity|exact IH].
Qed.

(** The exact behaviour of [decode_u64] on a byte string. *)
Lemma decode_u64_sound l r rest :
  bytes_ok l -> decode_u64 rd_list l = (r, rest) -> dec_outcome 0 0 l r rest.
Proof.
  intros Hl H.
  destruct (decode_u64_eq rd_list) as (fuel & Hf & Heq). rewrite Heq in H.
  exact (decode_loop_sound' fuel l r rest Hf Hl H).
Qed.

Lemma decode_u64_iff l v rest :
  bytes_ok l ->
  (decode_u64 rd_list l = (ROk v, rest) <->
   exists bs, l = bs ++ rest /\ legal_varint bs v).
Proof.
  intros Hl. split.
  - intros H. apply decode_u64_sound in H; [|exact Hl].
    destruct H as (bs & -> & Hbs & Hlen & Hv & Hv64).
    exists bs. split; [reflexivity|]. repeat split; auto; lia.
  - intros (bs & -> & Hleg). eapply decode_complete; [exact Hleg|apply delivers_list].
Qed.

(** ** The encoder *)

Lemma enc_loop_spec fuel : forall i,
  i < 2 ^ (7 * N.of_nat fuel) ->
  match enc_loop fuel i with
  | Some bs => is_varint bs /\ varint_value bs = i /\ lenN bs <= N.of_nat fuel /\
               bytes_ok bs /\ (lenN bs = 1 \/ 2 ^ (7 * (lenN bs - 1)) <= i)
  | None => fuel = 0%nat
  end.
Proof.
  induction fuel as [|fuel IH]; intros i Hi; [reflexivity|].
  cbn [enc_loop]. rewrite land_7F, N.shiftr_div_pow2. change (2 ^ 7) with 128.
  assert (Hm : i mod 128 < 128) by (apply N.mod_lt; lia).
  destruct (N.eqb_spec (i / 128) 0) as [H0|H0].
  - assert (i < 128) by lia.
    split; [|split; [|split; [|split]]].
    + exists [], (i mod 128). repeat split; auto.
    + cbn [varint_value]. rewrite N.mod_mod, N.mod_small by lia. lia.
    + rewrite lenN_cons, lenN_nil. lia.
    + constructor; [|constructor]. unfold byte_ok; lia.
    + left. rewrite lenN_cons, lenN_nil. reflexivity.
  - specialize (IH (i / 128)).
    assert (Hi' : i / 128 < 2 ^ (7 * N.of_nat fuel)).
    { replace (7 * N.of_nat (Datatypes.S fuel)) with (7 * (N.of_nat fuel + 1)) in Hi by lia.
      rewrite pow7_succ in Hi. lia. }
    specialize (IH Hi'). destruct (enc_loop fuel (i / 128)) as [bs|]; cbn [option_map].
    + destruct IH as ((p & c & -> & Hp & Hc) & Hv & Hlen & Hok & Hmin).
      rewrite lor_80 by exact Hm.
      split; [|split; [|split; [|split]]].
      * exists (i mod 128 + 128 :: p), c. repeat split; auto. constructor; auto.
        split; lia.
      * change (varint_value ((i mod 128 + 128) :: p ++ [c]))
          with ((i mod 128 + 128) mod 128 + 128 * varint_value (p ++ [c])).
        rewrite Hv.
        replace ((i mod 128 + 128) mod 128) with (i mod 128).
        2:{ rewrite <- (N.mul_1_l 128) at 3. rewrite N.mod_add by lia.
            now rewrite N.mod_mod by lia. }
        pose proof (N.div_mod i 128). lia.
      * rewrite lenN_cons. lia.
      * constructor; [unfold byte_ok; lia|exact Hok].
      * right. rewrite lenN_cons.
        assert (Hl1 : 1 <= lenN (p ++ [c])) by (rewrite lenN_app, lenN_cons; lia).
        replace (lenN (p ++ [c]) + 1 - 1) with ((lenN (p ++ [c]) - 1) + 1) by lia.
        rewrite pow7_succ. destruct Hmin as [H1|Hge].
        -- rewrite H1. change (2 ^ (7 * (1 - 1))) with 1. lia.
        -- pose proof (N.div_mod i 128). lia.
    + subst fuel. cbn in Hi'. lia.
Qed.

Lemma encode_spec i :
  i < 2 ^ 64 ->
  exists bs, encode_u64 i = Some bs /\ legal_varint bs i /\ bytes_ok bs /\
             1 <= lenN bs <= 10 /\ (lenN bs = 1 \/ 2 ^ (7 * (lenN bs - 1)) <= i).
Proof.
  intros Hi. pose proof (enc_loop_spec 10 i) as H. unfold encode_u64.
  assert (Hi' : i < 2 ^ (7 * N.of_nat 10)).
  { eapply N.lt_le_trans; [exact Hi|]. vm_compute. discriminate. }
  specialize (H Hi'). destruct (enc_loop 10 i) as [bs|]; [|discriminate].
  destruct H as (Hvar & Hv & Hlen & Hok & Hmin).
  exists bs. repeat split; auto; try lia.
  destruct Hvar as (p & c & -> & _). rewrite lenN_app, lenN_cons; lia.
Qed.

(** The bytes of the canonical encoding, totalised for convenience. *)
Definition enc (i : N) : bytes := match encode_u64 i with Some bs => bs | None => [] end.

Lemma enc_spec i : i < 2 ^ 64 ->
  encode_u64 i = Some (enc i) /\ legal_varint (enc i) i /\ bytes_ok (enc i) /\
  1 <= lenN (enc i) <= 10.
Proof.
  intros Hi. destruct (encode_spec i Hi) as (bs & He & Hleg & Hok & Hlen & _).
  unfold enc. rewrite He. auto.
Qed.

Lemma encode_minimal i bs bs' :
  i < 2 ^ 64 -> encode_u64 i = Some bs -> legal_varint bs' i -> lenN bs <= lenN bs'.
Proof.
  intros Hi He (Hvar & Hlen & Hv & _).
  destruct (encode_spec i Hi) as (bs0 & He0 & Hleg & Hok & Hl10 & Hmin).
  rewrite He in He0; inversion He0; subst bs0.
  assert (1 <= lenN bs').
  { destruct Hvar as (p & c & -> & _). rewrite lenN_app, lenN_cons; lia. }
  destruct Hmin as [H1|Hge]; [lia|].
  pose proof (varint_value_bound bs') as Hb. rewrite Hv in Hb.
  assert (Hlt : 2 ^ (7 * (lenN bs - 1)) < 2 ^ (7 * lenN bs')) by lia.
  apply N.pow_lt_mono_r_iff in Hlt; lia.
Qed.

Lemma varint_prefix_free bs bs' x :
  is_varint bs -> is_varint bs' -> bs' = bs ++ x -> x = [].
Proof.
  intros (p & c & -> & Hp & Hc) (p' & c' & -> & Hp' & Hc') H.
  destruct x as [|y x]; [reflexivity|exfalso].
  destruct (exists_last (l := y :: x)) as (x' & z & Hx); [discriminate|].
  rewrite Hx in H. rewrite <- app_assoc in H. cbn [app] in H.
  rewrite app_comm_cons, app_assoc in H.
  apply app_inj_tail in H. destruct H as [H _]. subst p'.
  apply Forall_app in Hp'. destruct Hp' as [_ Hp'].
  inversion Hp' as [|? ? Hcc _]; subst. unfold cont_byte, final_byte in *. lia.
Qed.

Lemma enc_inj i j : i < 2 ^ 64 -> j < 2 ^ 64 -> enc i = enc j -> i = j.
Proof.
  intros Hi Hj H. destruct (enc_spec i Hi) as (_ & (_ & _ & Hv & _) & _).
  destruct (enc_spec j Hj) as (_ & (_ & _ & Hv' & _) & _). congruence.
Qed.

(** ** Fixed width *)

Lemma enc_fixed_loop_spec k : forall i, i < 2 ^ (7 * N.of_nat (Datatypes.S k)) ->
  let bs := enc_fixed_loop (Datatypes.S k) i in
  is_varint bs /\ varint_value bs = i /\ lenN bs = N.of_nat (Datatypes.S k) /\ bytes_ok bs.
Proof.
  induction k as [|k IH]; intros i Hi.
  - cbn [enc_fixed_loop]. rewrite land_7F.
    change (2 ^ (7 * N.of_nat 1)) with 128 in Hi.
    rewrite N.mod_small by lia. cbn [varint_value]. rewrite N.mod_small by lia.
    repeat split; try lia.
    + exists [], i. repeat split; auto.
    + constructor; [unfold byte_ok; lia|constructor].
  - change (enc_fixed_loop (Datatypes.S (Datatypes.S k)) i)
      with (N.lor (N.land i 0x7F) 0x80 :: enc_fixed_loop (Datatypes.S k) (N.shiftr i 7)).
    rewrite land_7F, N.shiftr_div_pow2. change (2 ^ 7) with 128.
    assert (Hm : i mod 128 < 128) by (apply N.mod_lt; lia).
    rewrite lor_80 by exact Hm.
    assert (Hi' : i / 128 < 2 ^ (7 * N.of_nat (Datatypes.S k))).
    { replace (7 * N.of_nat (Datatypes.S (Datatypes.S k)))
        with (7 * (N.of_nat (Datatypes.S k) + 1)) in Hi by lia.
      rewrite pow7_succ in Hi. lia. }
    destruct (IH _ Hi') as ((p & c & Heq & Hp & Hc) & Hv & Hlen & Hok).
    cbv zeta. rewrite Heq in *. split; [|split; [|split]].
    + exists (i mod 128 + 128 :: p), c. repeat split; auto. constructor; auto. split; lia.
    + change (varint_value ((i mod 128 + 128) :: p ++ [c]))
        with ((i mod 128 + 128) mod 128 + 128 * varint_value (p ++ [c])).
      rewrite Hv.
      replace ((i mod 128 + 128) mod 128) with (i mod 128).
      2:{ rewrite <- (N.mul_1_l 128) at 3. rewrite N.mod_add by lia.
          now rewrite N.mod_mod by lia. }
      pose proof (N.div_mod i 128). lia.
    + rewrite lenN_cons. lia.
    + constructor; [unfold byte_ok; lia|exact Hok].
Qed.

Lemma encode_fixed_spec i : i < 2 ^ 64 ->
  legal_varint (encode_fixed_u64 i) i /\ lenN (encode_fixed_u64 i) = 10 /\
  bytes_ok (encode_fixed_u64 i).
Proof.
  intros Hi. unfold encode_fixed_u64.
  destruct (enc_fixed_loop_spec 9 i) as (Hvar & Hv & Hlen & Hok).
  { eapply N.lt_le_trans; [exact Hi|]. vm_compute. discriminate. }
  repeat split; auto. rewrite Hlen. vm_compute; discriminate.
Qed.

(** ** ZigZag *)

Definition i64_ok (z : Z) : Prop := (- 2 ^ 63 <= z < 2 ^ 63)%Z.

Lemma zigzag_nonneg i : (0 <= i < 2 ^ 63)%Z -> zigzag i = Z.to_N (2 * i).
Proof.
  intros Hi. unfold zigzag, to_i64, of_i64.
  rewrite Z.shiftr_div_pow2 by lia. rewrite (Z.div_small i) by lia.
  rewrite Z.lxor_0_r, Z.shiftl_mul_pow2 by lia.
  change (2 ^ 63) with 9223372036854775808. 
  destruct (N.ltb_spec (Z.to_N ((i * 2 ^ 1) mod 2 ^ 64)) 9223372036854775808);
    lia.
Qed.

Lemma zigzag_neg i : (- 2 ^ 63 <= i < 0)%Z -> zigzag i = Z.to_N (- 2 * i - 1).
Proof.
  intros Hi. unfold zigzag, to_i64, of_i64.
  rewrite Z.shiftr_div_pow2 by lia.
  replace (i / 2 ^ 63)%Z with (-1)%Z by lia.
  rewrite Z.lxor_m1_r, Z.shiftl_mul_pow2 by lia.
  change (2 ^ 63) with 9223372036854775808.
  assert (Hlnot : forall z, Z.lnot z = (- z - 1)%Z) by (intros z; unfold Z.lnot; lia).
  rewrite Hlnot.
  destruct (N.ltb_spec (Z.to_N ((i * 2 ^ 1) mod 2 ^ 64)) 9223372036854775808); lia.
Qed.

Lemma land_1 i : N.land i 1 = i mod 2.
Proof. change 1 with (N.ones 1) at 1. now rewrite N.land_ones. Qed.

Lemma lxor_max a : a < 2 ^ 64 -> N.lxor a U64_MAX = U64_MAX - a.
Proof.
  intros Ha. change U64_MAX with (N.ones 64).
  change (N.lxor a (N.ones 64)) with (N.lnot a 64).
  destruct (N.eqb_spec a 0) as [->|H0]; [reflexivity|].
  assert (Hl : N.log2 a < 64) by (apply N.log2_lt_pow2; lia).
  rewrite N.lnot_sub_low by exact Hl. reflexivity.
Qed.

Lemma unzigzag_even n : n < 2 ^ 64 -> n mod 2 = 0 -> unzigzag n = Z.of_N (n / 2).
Proof.
  intros Hn Hm. unfold unzigzag, to_i64. rewrite land_1, Hm. cbn [N.eqb].
  rewrite N.eqb_refl. rewrite N.lxor_0_r, N.shiftr_div_pow2. change (2 ^ 1) with 2.
  change (2 ^ 63) with 9223372036854775808.
  change (2 ^ 64) with 18446744073709551616 in Hn.
  destruct (N.ltb_spec (n / 2) 9223372036854775808); lia.
Qed.

Lemma unzigzag_odd n :
  n < 2 ^ 64 -> n mod 2 = 1 -> unzigzag n = (- Z.of_N (n / 2) - 1)%Z.
Proof.
  intros Hn Hm. unfold unzigzag, to_i64. rewrite land_1, Hm.
  change (1 =? 0) with false. cbv iota.
  rewrite N.shiftr_div_pow2. change (2 ^ 1) with 2.
  change (2 ^ 64) with 18446744073709551616 in Hn.
  rewrite lxor_max by (change (2 ^ 64) with 18446744073709551616; lia).
  unfold U64_MAX. change (2 ^ 63) with 9223372036854775808.
  destruct (N.ltb_spec (18446744073709551615 - n / 2) 9223372036854775808); lia.
Qed.

Lemma zigzag_range i : i64_ok i -> zigzag i < 2 ^ 64.
Proof.
  intros [H1 H2]. change (2 ^ 64) with 18446744073709551616.
  destruct (Z.leb_spec 0 i).
  - rewrite zigzag_nonneg by lia. lia.
  - rewrite zigzag_neg by lia. lia.
Qed.

Lemma unzigzag_range n : n < 2 ^ 64 -> i64_ok (unzigzag n).
Proof.
  intros Hn. unfold i64_ok. assert (H : n mod 2 = 0 \/ n mod 2 = 1) by lia.
  change (2 ^ 64) with 18446744073709551616 in Hn.
  destruct H as [H|H].
  - rewrite unzigzag_even by (auto; change (2 ^ 64) with 18446744073709551616; lia). lia.
  - rewrite unzigzag_odd by (auto; change (2 ^ 64) with 18446744073709551616; lia). lia.
Qed.

Lemma unzigzag_zigzag i : i64_ok i -> unzigzag (zigzag i) = i.
Proof.
  intros Hi. pose proof (zigzag_range i Hi) as Hr. destruct Hi as [H1 H2].
  destruct (Z.leb_spec 0 i).
  - rewrite zigzag_nonneg in * by lia. rewrite unzigzag_even by (auto; lia). lia.
  - rewrite zigzag_neg in * by lia. rewrite unzigzag_odd by (auto; lia). lia.
Qed.

Lemma zigzag_unzigzag n : n < 2 ^ 64 -> zigzag (unzigzag n) = n.
Proof.
  intros Hn. pose proof (unzigzag_range n Hn) as Hr. unfold i64_ok in Hr.
  assert (H : n mod 2 = 0 \/ n mod 2 = 1) by lia. destruct H as [H|H].
  - rewrite unzigzag_even in * by auto. rewrite zigzag_nonneg by lia. lia.
  - rewrite unzigzag_odd in * by auto. rewrite zigzag_neg by lia. lia.
Qed.

(** ** Descriptors *)

Lemma parse_desc_total b : b < 256 -> exists d, parse_desc b = Some d.
Proof.
  intros Hb.
  assert (H : (match parse_desc b with Some _ => true | None => false end) = true).
  { apply (byte_sweep (fun b => match parse_desc b with Some _ => true | None => false end));
      [vm_compute; reflexivity|exact Hb]. }
  destruct (parse_desc b) as [d|]; [now exists d|discriminate].
Qed.

Definition pdesc_ok (d : pdesc) : Prop :=
  match d with PPair _ tag => 1 <= tag <= 63 | PSpecial _ => True end.

Definition pdesc_okb (d : pdesc) : bool :=
  match d with PPair _ tag => (1 <=? tag) && (tag <=? 63) | PSpecial _ => true end.

Lemma parse_desc_back b d : b < 256 -> parse_desc b = Some d ->
  pdesc_ok d /\ forall E dbg, @desc_byte E dbg d = ROk b.
Proof.
  intros Hb Hp.
  assert (H : match parse_desc b with
              | Some d => pdesc_okb d &&
                  match @desc_byte unit true d with ROk c => c =? b | _ => false end
              | None => false end = true).
  { apply (byte_sweep (fun b => match parse_desc b with
              | Some d => pdesc_okb d &&
                  match @desc_byte unit true d with ROk c => c =? b | _ => false end
              | None => false end)); [vm_compute; reflexivity|exact Hb]. }
  rewrite Hp in H. apply andb_prop in H. destruct H as [Hok Hd].
  split.
  - destruct d; cbn in *; [|exact I]. lia.
  - intros E dbg. destruct d as [t tag|t]; cbn in *.
    + rewrite Hok in *. rewrite andb_false_r in *. cbn in *.
      apply N.eqb_eq in Hd. now rewrite Hd.
    + apply N.eqb_eq in Hd. now rewrite Hd.
Qed.

Lemma tag_sweep (P : N -> bool) :
  forallb P (map N.of_nat (seq 1 63)) = true -> forall t, 1 <= t <= 63 -> P t = true.
Proof.
  intros H t Ht. rewrite forallb_forall in H. apply H.
  replace t with (N.of_nat (N.to_nat t)) by lia.
  apply in_map, in_seq. lia.
Qed.

Definition dtype_eqb (a b : dtype) : bool := dtype_code a =? dtype_code b.

Definition desc_chk (t : dtype) (tag : N) : bool :=
  (N.lor tag (dtype_code t) <? 256) &&
  match parse_desc (N.lor tag (dtype_code t)) with
  | Some (PPair t' tag') => (tag' =? tag) && dtype_eqb t t'
  | _ => false
  end.

Lemma desc_byte_parse E dbg d : pdesc_ok d ->
  exists b, @desc_byte E dbg d = ROk b /\ b < 256 /\ parse_desc b = Some d.
Proof.
  destruct d as [t tag|t]; intros Hd.
  - exists (N.lor tag (dtype_code t)). split.
    + cbn in *. replace ((1 <=? tag) && (tag <=? 63)) with true by lia.
      now rewrite andb_false_r.
    + assert (H : desc_chk t tag = true).
      { destruct t; apply tag_sweep; try exact Hd; vm_compute; reflexivity. }
      unfold desc_chk in H. apply andb_prop in H. destruct H as [H1 H2]. split; [lia|].
      destruct (parse_desc (N.lor tag (dtype_code t))) as [[t' tag'|]|]; try discriminate.
      apply andb_prop in H2. destruct H2 as [H2 H3]. apply N.eqb_eq in H2. subst.
      destruct t, t'; try discriminate; reflexivity.
  - exists (stype_code t). destruct t; vm_compute; auto.
Qed.

(** ** The shapes used in the property file *)

Lemma roundtrip_any i rest :
  i < 2 ^ 64 -> exists bs, encode_u64 i = Some bs /\ decode_u64 rd_list (bs ++ rest) = (ROk i, rest).
Proof.
  intros Hi. destruct (enc_spec i Hi) as (He & Hleg & Hok & Hlen).
  exists (enc i). split; [exact He|].
  eapply decode_complete; [exact Hleg|apply delivers_list].
Qed.

Lemma encode_none i : 2 ^ 70 <= i -> encode_u64 i = None.
Proof.
  intros Hi. unfold encode_u64.
  assert (H : forall n i, 2 ^ (7 * N.of_nat n) <= i -> enc_loop n i = None).
  { induction n as [|n IH]; intros j Hj; [reflexivity|]. cbn [enc_loop].
    rewrite N.shiftr_div_pow2. change (2 ^ 7) with 128.
    replace (7 * N.of_nat (Datatypes.S n)) with (7 * (N.of_nat n + 1)) in Hj by lia.
    rewrite pow7_succ in Hj.
    assert (0 < 2 ^ (7 * N.of_nat n)) by (apply N.neq_0_lt_0, N.pow_nonzero; lia).
    assert (2 ^ (7 * N.of_nat n) <= j / 128) by (apply N.div_le_lower_bound; lia).
    destruct (N.eqb_spec (j / 128) 0); [lia|]. now rewrite IH. }
  apply (H 10%nat). exact Hi.
Qed.

Lemma decode_outcome_full l :
  bytes_ok l ->
  match decode_u64 rd_list l with
  | (ROk v, rest) => exists bs, l = bs ++ rest /\ legal_varint bs v
  | (RErr SIntegerOverflow, rest) =>
      exists p b, l = p ++ b :: rest /\ Forall cont_byte p /\ lenN p <= 256 /\
                  varint_value p < 2 ^ 64 /\ 2 ^ 64 <= varint_value (p ++ [b])
  | (RErr SOverwideInteger, rest) =>
      exists p, l = p ++ rest /\ Forall cont_byte p /\ lenN p = 257 /\ varint_value p < 2 ^ 64
  | (RErr (SIo IoUnexpectedEof), rest) =>
      rest = [] /\ Forall cont_byte l /\ lenN l <= 256 /\ varint_value l < 2 ^ 64
  | _ => False
  end.
Proof.
  intros Hl. destruct (decode_u64 rd_list l) as [r rest] eqn:H.
  apply decode_u64_sound in H; [|exact Hl]. unfold dec_outcome in H.
  change (2 ^ (7 * 0)) with 1 in H.
  destruct r as [v|e| |]; try exact H.
  - destruct H as (bs & -> & Hv & Hlen & Heq & H64). exists bs. split; [reflexivity|].
    repeat split; auto; lia.
  - destruct e as [[]| | | | | | | | | | |]; try exact H.
    + destruct H as (-> & Ha & Hb & Hc). repeat split; auto; lia.
    + destruct H as (p & b & -> & Ha & Hb & Hc & Hd). exists p, b. repeat split; auto; lia.
    + destruct H as (p & -> & Ha & Hb & Hc). exists p. repeat split; auto; lia.
Qed.

Lemma canonical_shape i : i < 2 ^ 64 ->
  exists bs, encode_u64 i = Some bs /\ is_varint bs /\ 1 <= lenN bs <= 10 /\
  (forall l rest bs', bytes_ok l -> l = bs' ++ rest ->
     decode_u64 rd_list l = (ROk i, rest) -> lenN bs <= lenN bs').
Proof.
  intros Hi. destruct (enc_spec i Hi) as (He & Hleg & Hok & Hlen).
  exists (enc i). split; [exact He|]. split; [apply Hleg|]. split; [exact Hlen|].
  intros l rest bs' Hl -> Hd. apply decode_u64_iff in Hd; [|exact Hl].
  destruct Hd as (bs2 & Heq & Hleg2). apply app_inv_tail in Heq. subst bs2.
  eapply encode_minimal; eauto.
Qed.

Lemma encode_prefix_free i j bs bs' x :
  i < 2 ^ 64 -> j < 2 ^ 64 -> encode_u64 i = Some bs -> encode_u64 j = Some bs' ->
  bs' = bs ++ x -> i = j /\ x = [].
Proof.
  intros Hi Hj Hei Hej Hx.
  destruct (enc_spec i Hi) as (He & Hleg & _ & _). destruct (enc_spec j Hj) as (He' & Hleg' & _ & _).
  rewrite Hei in He; injection He as ->. rewrite Hej in He'; injection He' as ->.
  assert (x = []). { eapply varint_prefix_free; [apply Hleg|apply Hleg'|exact Hx]. }
  subst x. rewrite app_nil_r in Hx. split; [symmetry; now apply enc_inj|reflexivity].
Qed.

Lemma fixed_roundtrip i rest : i < 2 ^ 64 ->
  lenN (encode_fixed_u64 i) = 10 /\ bytes_ok (encode_fixed_u64 i) /\
  decode_u64 rd_list (encode_fixed_u64 i ++ rest) = (ROk i, rest).
Proof.
  intros Hi. destruct (encode_fixed_spec i Hi) as (Hleg & Hlen & Hok).
  repeat split; auto. eapply decode_complete; [exact Hleg|apply delivers_list].
Qed.

(** ** Signed integers *)
Lemma signed_roundtrip z rest : (- 2 ^ 63 <= z < 2 ^ 63)%Z ->
  exists bs, encode_i64 z = Some bs /\ decode_i64 rd_list (bs ++ rest) = (ROk z, rest).
Proof.
  intros Hz. destruct (roundtrip_any (zigzag z) rest (zigzag_range z Hz)) as (bs & H1 & H2). exists bs. split; [exact H1|].
  unfold decode_i64, mbind. rewrite H2. unfold mret. now rewrite (unzigzag_zigzag z Hz).
Qed.
Lemma zigzag_formula z : (- 2 ^ 63 <= z < 2 ^ 63)%Z -> zigzag z = Z.to_N (if (z <? 0)%Z then - 2 * z - 1 else 2 * z).
Proof. intros Hz. destruct (Z.ltb_spec z 0); [apply zigzag_neg|apply zigzag_nonneg]; lia. Qed.
Lemma signed_accepts l z rest : bytes_ok l ->
  (decode_i64 rd_list l = (ROk z, rest) <->
   (- 2 ^ 63 <= z < 2 ^ 63)%Z /\
   exists bs, l = bs ++ rest /\ legal_varint bs (Z.to_N (if (z <? 0)%Z then - 2 * z - 1 else 2 * z))).
Proof.
  intros Hl. unfold decode_i64, mbind. split.
  - destruct (decode_u64 rd_list l) as [[v|e| |] l1] eqn:E1; intros H; try discriminate. unfold mret in H. injection H as <- <-.
    apply (decode_u64_iff _ _ _ Hl) in E1. destruct E1 as (bs & -> & Hv).
    assert (Hb : v < 2 ^ 64) by (destruct Hv as (_ & ? & ?); intuition (subst; auto)).
    split; [exact (unzigzag_range v Hb)|]. exists bs. split; [reflexivity|].
    rewrite <- (zigzag_formula _ (unzigzag_range v Hb)), (zigzag_unzigzag v Hb). exact Hv.
  - intros (Hz & bs & -> & Hv). rewrite <- (zigzag_formula z Hz) in Hv.
    rewrite (proj2 (decode_u64_iff _ _ _ Hl) (ex_intro _ bs (conj eq_refl Hv))). unfold mret. now rewrite (unzigzag_zigzag z Hz).
Qed.
