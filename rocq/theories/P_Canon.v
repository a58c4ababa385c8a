(** * P_Canon: the canonical encoding is the unique shortest one *)

From Verif Require Import Base Wire Dev Stream SpecWire SpecFormat SpecStream
  P_Base P_Wire P_Read P_Write P_Stream.

Lemma varint_same_len p : forall c q d, Forall cont_byte p -> Forall cont_byte q -> final_byte c -> final_byte d ->
  length p = length q -> varint_value (p ++ [c]) = varint_value (q ++ [d]) -> p ++ [c] = q ++ [d].
Proof.
  induction p as [|x p IH]; intros c [|y q] d Hp Hq Hc Hd Hl Hv; try discriminate; cbn [app varint_value] in *.
  - unfold final_byte in *. rewrite !N.mod_small in Hv by lia. f_equal. lia.
  - inversion Hp as [|? ? Hx Hp']; inversion Hq as [|? ? Hy Hq']; subst. unfold cont_byte in *.
    pose proof (N.mod_upper_bound x 128 ltac:(lia)). pose proof (N.mod_upper_bound y 128 ltac:(lia)).
    assert (x mod 128 = y mod 128 /\ varint_value (p ++ [c]) = varint_value (q ++ [d])) as [E1 E2] by lia.
    f_equal; [|apply IH; auto].
    pose proof (N.div_mod x 128 ltac:(lia)). pose proof (N.div_mod y 128 ltac:(lia)).
    assert (x / 128 = 1) by (assert (x / 128 < 2) by (apply N.div_lt_upper_bound; lia); assert (1 <= x / 128) by (apply N.div_le_lower_bound; lia); lia).
    assert (y / 128 = 1) by (assert (y / 128 < 2) by (apply N.div_lt_upper_bound; lia); assert (1 <= y / 128) by (apply N.div_le_lower_bound; lia); lia).
    lia.
Qed.
Lemma legal_same_len v v' n : legal_varint v n -> legal_varint v' n -> lenN v = lenN v' -> v = v'.
Proof.
  intros ((p & c & -> & Hp & Hc) & _ & Hv & _) ((q & d & -> & Hq & Hd) & _ & Hv' & _) Hl.
  apply varint_same_len; auto; [|congruence]. unfold lenN in Hl. rewrite !app_length in Hl. cbn in Hl. lia.
Qed.
Lemma enc_shortest n v : legal_varint v n -> lenN (enc n) <= lenN v /\ (lenN v = lenN (enc n) -> v = enc n).
Proof.
  intros Hv. assert (Hn : n < 2 ^ 64) by apply Hv. destruct (enc_spec n Hn) as (He & Hl & _).
  split; [eapply encode_minimal; eauto|]. intros. eapply legal_same_len; eauto.
Qed.
Lemma hdr_shortest hd h : hdr_enc hd h -> lenN (canon_hdr hd) <= lenN h /\ (lenN h = lenN (canon_hdr hd) -> h = canon_hdr hd).
Proof.
  destruct 1; cbn [canon_hdr]; try (split; [lia|reflexivity]);
    destruct (enc_shortest _ _ ltac:(eassumption)) as [K1 K2]; rewrite ?lenN_cons;
    (split; [lia|]); intros Hx; f_equal; apply K2; lia.
Qed.
Lemma hdr_enc_ok hd h : hdr_enc hd h -> hdr_ok hd.
Proof. destruct 1; cbn; auto; try (split; [assumption|]); match goal with H : legal_varint _ _ |- _ => apply H end. Qed.
Lemma elems_shortest es bs : elems_enc es bs ->
  lenN (canons es) <= lenN bs /\ (lenN bs = lenN (canons es) -> bs = canons es) /\ elems_enc es (canons es).
Proof.
  induction 1 as [|e es b bs He Hes (I1 & I2 & I3)].
  - repeat split; [unfold canons; cbn; lia|constructor].
  - destruct He as (h & Hh & Hp & ->). destruct (hdr_shortest _ _ Hh) as [J1 J2].
    rewrite canons_cons. unfold canon. rewrite !lenN_app. split; [lia|]. split.
    + intros Hx. rewrite J2, I2 by lia. reflexivity.
    + constructor; [|exact I3]. exists (canon_hdr (hdr_of e)). split; [|split; [exact Hp|reflexivity]].
      apply canon_hdr_enc. eapply hdr_enc_ok; eauto.
Qed.
Lemma canons_shortest es bs : elems_enc es bs -> shortest es (canons es).
Proof.
  intros H. split; [apply (elems_shortest es bs H)|]. intros bs' H'. apply (elems_shortest es bs' H').
Qed.
Lemma shortest_unique es bs : shortest es bs -> bs = canons es.
Proof.
  intros [H1 H2]. destruct (elems_shortest es bs H1) as (A & B & C). apply B.
  specialize (H2 _ C). lia.
Qed.
Lemma elems_enc_ok es bs : elems_enc es bs -> Forall delem_ok es.
Proof.
  induction 1 as [|e es b bs He Hes IH]; constructor; [|exact IH].
  destruct He as (h & Hh & Hp & _). apply hdr_enc_ok in Hh.
  destruct e as [t []| | | |]; cbn in *; tauto.
Qed.
