(** * P_Field: [next_field] on legal input (C10, C15) *)

From Verif Require Import Base Wire Dev Stream SpecWire SpecFormat SpecStream
  P_Base P_Wire P_Sched P_Read P_Write P_Blob P_Stream.

Lemma positioned_after s np hd h (p tl : bytes) :
  positioned s (repeat 0xC0 np ++ h ++ p ++ tl) -> hdr_enc hd h -> hdr_payload hd = lenN p ->
  s_pos s + pend s + N.of_nat np + lenN h + lenN p <= U64_MAX ->
  let s' := after hd h (adv (N.of_nat np) (settled s)) in
  (hd <> HdEof -> positioned s' tl) /\ positioned (set_eof_ false s') tl /\
  s_pos s' + pend s' = s_pos s + pend s + N.of_nat np + lenN h + lenN p /\
  unread s' = p ++ tl /\ pend s' = lenN p /\ rinv s'.
Proof.
  intros (Hi & He & Hpd & Hu) Henc Hpl Hp s'.
  set (s1 := adv (N.of_nat np) (settled s)) in *.
  assert (Hr1 : rest s1 = h ++ p ++ tl).
  { unfold s1. rewrite rest_adv. unfold settled. change (rest (set_commit None (adv (pend s) s))) with (rest (adv (pend s) s)).
    rewrite rest_adv. change (rest s) with (unread s). rewrite Hu.
    replace (N.of_nat np) with (lenN (repeat 0xC0 np)) by (rewrite lenN_repeat; reflexivity).
    now rewrite dropN_app_exact. }
  assert (Hpos1 : s_pos s1 = s_pos s + pend s + N.of_nat np) by reflexivity.
  assert (Hi' : rinv s').
  { apply after_rinv; [apply rinv_adv, rinv_settled, Hi|reflexivity|]. rewrite Hpl, Hpos1. exact Hp. }
  assert (Hu' : unread s' = p ++ tl).
  { unfold s'. rewrite after_unread, Hr1. apply dropN_app_exact. }
  assert (Hpe : pend s' = lenN p).
  { unfold s'. rewrite after_pend by reflexivity. exact Hpl. }
  assert (Hgen : forall b, b = false -> positioned (set_eof_ b s') tl).
  { intros b ->. split; [|split; [reflexivity|]].
    - destruct Hi' as [R1 R2 R3 R4]. constructor; assumption.
    - change (pend (set_eof_ false s')) with (pend s'). change (unread (set_eof_ false s')) with (unread s').
      rewrite Hpe, Hu', lenN_app, dropN_app_exact. split; [lia|reflexivity]. }
  split; [|split; [apply Hgen; reflexivity|]].
  - intros Hne. replace s' with (set_eof_ false s').
    + apply Hgen. reflexivity.
    + apply stream_eq; scbn; try reflexivity. unfold s'. rewrite after_eof.
      destruct hd; try congruence; symmetry; exact He.
  - split; [|auto]. rewrite Hpe. unfold s'. rewrite after_pos, Hpos1. lia.
Qed.

Lemma fully_positioned s (p tl : bytes) : rinv s -> s_eof s = false -> unread s = p ++ tl -> pend s = lenN p ->
  in_blob s -> s_commit s = Some CSkipBlob -> lenN p <= U64_MAX ->
  exists s', b_read_fully U64_MAX s = (ROk p, s') /\ positioned s' tl /\
    s_pos s' + pend s' = s_pos s + pend s /\ s_depth s' = s_depth s.
Proof.
  intros Hi He Hu Hp Hb Hc Hl. 
  assert (Hrem : s_blob_end s - s_pos s = lenN p) by (unfold pend in Hp; now rewrite Hc in Hp).
  rewrite b_read_fully_ok by exact Hb. cbv zeta. rewrite Hrem. destruct (N.ltb_spec U64_MAX (lenN p)); [lia|].
  change (rest s) with (unread s). rewrite Hu, takeN_app_exact. rewrite lenN_app, N.min_l by lia.
  eexists. split; [reflexivity|].
  assert (Hpe : pend (adv (lenN p) s) = 0).
  { unfold pend. change (s_commit (adv (lenN p) s)) with (s_commit s). rewrite Hc.
    change (s_blob_end (adv (lenN p) s)) with (s_blob_end s). change (s_pos (adv (lenN p) s)) with (s_pos s + lenN p).
    destruct Hb as (_ & Hb & _). lia. }
  split; [|split; [rewrite Hpe, Hp; change (s_pos (adv (lenN p) s)) with (s_pos s + lenN p); lia|reflexivity]].
  split; [now apply rinv_adv|]. split; [exact He|]. rewrite Hpe. split; [lia|].
  rewrite dropN_0. change (unread (adv (lenN p) s)) with (rest (adv (lenN p) s)). rewrite rest_adv.
  change (rest s) with (unread s). rewrite Hu. apply dropN_app_exact.
Qed.

Lemma read_field1_ok s e h np tl :
  e <> DPad -> positioned s (repeat 0xC0 np ++ h ++ payload e ++ tl) -> hdr_enc (hdr_of e) h ->
  s_pos s + pend s + N.of_nat np + lenN h + lenN (payload e) <= U64_MAX ->
  s_depth s + 1 < U64_MAX ->
  exists s', read_field1 s = (hd (RPanic, []) (fields_of [e] (s_depth s)), s') /\ positioned s' tl /\
    s_depth s' = depth_after (hdr_of e) (s_depth s) /\
    s_pos s' + pend s' = s_pos s + pend s + N.of_nat np + lenN h + lenN (payload e).
Proof.
  intros Hne Hpos Henc Hp Hd.
  destruct (positioned_after s np (hdr_of e) h (payload e) tl Hpos Henc (payload_hdr e) Hp)
    as (Hpa & Hpb & Hpp & Hu' & Hpe & Hi').
  pose proof Hpos as (Hi & He & Hpd & Hu).
  assert (Hnx : next_element_impl true s =
     (ROk (elem_of (hdr_of e) (s_pos s + pend s + N.of_nat np) (s_depth s)),
      after (hdr_of e) h (adv (N.of_nat np) (settled s)))).
  { apply (impl_complete true s (hdr_of e) h (payload e ++ tl) np); auto.
    - discriminate.
    - intros _. destruct e as [t []| | | |]; discriminate || congruence.
    - rewrite payload_hdr. exact Hp.
    - unfold depth_fits, field_depth. destruct (hdr_of e) as [t []| | | |]; try exact I; lia. }
  set (s1 := after (hdr_of e) h (adv (N.of_nat np) (settled s))) in *.
  assert (Hsd : s_depth s1 = depth_after (hdr_of e) (s_depth s)) by (unfold s1; rewrite after_depth; reflexivity).
  assert (Hlp : lenN (payload e) <= U64_MAX) by lia.
  unfold read_field1, next_field, mbind. rewrite Hnx.
  assert (Hib : is_blobby (hdr_of e) = true -> in_blob s1 /\ s_commit s1 = Some CSkipBlob).
  { intros Hbb. split.
    - apply after_in_blob; [exact (ri_sch s Hi)|exact Hbb|]. rewrite payload_hdr.
      change (s_pos (adv (N.of_nat np) (settled s))) with (s_pos s + pend s + N.of_nat np). lia.
    - unfold s1. destruct (hdr_of e) as [t []| | | |]; try discriminate; reflexivity. }
  destruct e as [t [n|c| |n]| | |m|]; try congruence; cbn [hdr_of elem_of vhdr_of fields_of hd app payload] in *.
  - unfold mret. cbn [f_val]. exists s1. split; [reflexivity|].
    split; [apply Hpa; discriminate|]. split; [exact Hsd|exact Hpp].
  - unfold mret. cbn [f_val].
    destruct (Hib eq_refl) as [Hib1 Hic1].
    destruct (fully_positioned s1 c tl) as (s2 & H2 & Hp2 & Hq2 & Hd2); auto.
    rewrite H2. exists s2. split; [reflexivity|]. split; [exact Hp2|].
    split; [congruence|]. rewrite Hq2. exact Hpp.
  - unfold mret. cbn [f_val]. exists s1. split; [reflexivity|].
    split; [apply Hpa; discriminate|]. split; [exact Hsd|exact Hpp].
  - unfold mret. cbn [f_val]. exists s1. split; [reflexivity|].
    split; [apply Hpa; discriminate|]. split; [exact Hsd|exact Hpp].
  - unfold mret. exists (set_eof_ false s1). split; [reflexivity|]. split; [exact Hpb|]. split; [exact Hsd|exact Hpp].
  - unfold mret. exists (set_eof_ false s1). split; [reflexivity|]. split; [exact Hpb|]. split; [exact Hsd|exact Hpp].
  - destruct (Hib eq_refl) as [Hib1 Hic1].
    rewrite b_read_or_trunc_ok by exact Hib1. unfold mfail.
    assert (Hrem : s_blob_end s1 - s_pos s1 = lenN m) by (unfold pend in Hpe; rewrite Hic1 in Hpe; exact Hpe).
    change (rest s1) with (unread s1). rewrite Hrem, Hu', lenN_app.
    rewrite (N.min_l (lenN m)) by lia.
    assert (Htk : takeN (N.min 256 (lenN m)) (m ++ tl) = takeN 256 m).
    { rewrite takeN_app_l by lia. destruct (N.leb_spec 256 (lenN m)).
      - now rewrite N.min_l.
      - rewrite N.min_r by lia. rewrite !takeN_all by lia. reflexivity. }
    rewrite Htk. set (k := N.min 256 (lenN m)). eexists. split; [reflexivity|].
    assert (Hpk : pend (adv k s1) = lenN m - k).
    { unfold pend. change (s_commit (adv k s1)) with (s_commit s1). rewrite Hic1.
      change (s_blob_end (adv k s1)) with (s_blob_end s1). change (s_pos (adv k s1)) with (s_pos s1 + k). lia. }
    split; [|split; [exact Hsd|]].
    + split; [now apply rinv_adv|]. split; [exact He|].
      change (unread (adv k s1)) with (rest (adv k s1)). rewrite rest_adv. change (rest s1) with (unread s1).
      rewrite Hpk, Hu', lenN_dropN, lenN_app, dropN_dropN. split; [lia|].
      replace (k + (lenN m - k)) with (lenN m) by lia. apply dropN_app_exact.
    + rewrite Hpk. change (s_pos (adv k s1)) with (s_pos s1 + k). rewrite <- Hpp, Hpe. lia.
Qed.

Lemma elems_enc_pads es bs : elems_enc es bs -> exists np es' bs', bs = repeat 0xC0 np ++ bs' /\ elems_enc es' bs' /\
  (forall d, fields_of es d = fields_of es' d) /\ (length es' <= length es)%nat /\
  match es' with DPad :: _ => False | _ => True end.
Proof.
  induction 1 as [|e es b bs He Hes IH].
  - exists 0%nat, [], []. repeat split; auto. constructor.
  - destruct e as [t v| | |m|] eqn:Ee;
      try (exists 0%nat, (e :: es), (b ++ bs); subst e; repeat split; auto; constructor; auto).
    destruct IH as (np & es' & bs' & H1 & H2 & H3 & H4 & H5).
    destruct He as (h & Hh & _ & ->). cbn [hdr_of payload] in *. inversion Hh; subst.
    exists (S np), es', bs'. repeat split; auto. cbn [length]. lia.
Qed.

Lemma read_fields_ok n : forall es bs s tl, (length es <= n)%nat -> elems_enc es bs -> positioned s (bs ++ tl) ->
  s_pos s + pend s + lenN bs <= U64_MAX -> s_depth s + 2 * N.of_nat n + 1 < U64_MAX ->
  exists s' np, read_fields (length (fields_of es (s_depth s))) s = (fields_of es (s_depth s), s') /\
    positioned s' (repeat 0xC0 np ++ tl) /\
    s_pos s' + pend s' + N.of_nat np = s_pos s + pend s + lenN bs.
Proof.
  induction n as [|n IH]; intros es bs s tl Hn Henc Hpos Hp Hd.
  - destruct es; [|cbn in Hn; lia]. inversion Henc; subst. exists s, 0%nat. split; [reflexivity|].
    split; [exact Hpos|]. change (lenN (@nil N)) with 0. lia.
  - destruct (elems_enc_pads es bs Henc) as (np & es' & bs' & -> & Henc' & Hf & Hle & Hnp).
    rewrite Hf. inversion Henc' as [|e es2 b bs2 He Hes E1 E2]; subst.
    + exists s, np. rewrite app_nil_r in *. split; [reflexivity|]. split; [exact Hpos|].
      rewrite lenN_repeat. lia.
    + destruct He as (h & Hh & Hpo & ->).
      assert (Hne : e <> DPad) by (intros ->; exact Hnp).
      rewrite !lenN_app, lenN_repeat in Hp.
      destruct (read_field1_ok s e h np (bs2 ++ tl) Hne) as (s1 & H1 & Hp1 & Hd1 & Hq1); auto; try lia.
      { rewrite <- !app_assoc in Hpos. exact Hpos. }
      assert (Hf1 : forall d, fields_of (e :: es2) d =
         hd (RPanic, []) (fields_of [e] d) :: fields_of es2 (depth_after (hdr_of e) d)).
      { intros d. cbn [fields_of]. destruct e; try congruence; reflexivity. }
      rewrite Hf1. cbn [length read_fields]. rewrite H1. rewrite <- Hd1.
      destruct (IH es2 bs2 s1 tl) as (s2 & np2 & H2 & Hp2 & Hq2); auto.
      { cbn [length] in Hle. lia. }
      { rewrite Hq1. lia. }
      { rewrite Hd1. unfold depth_after, field_depth. destruct (hdr_of e) as [t []| | | |]; lia. }
      rewrite H2. exists s2, np2. split; [reflexivity|]. split; [exact Hp2|].
      rewrite Hq2, Hq1, !lenN_app, lenN_repeat. lia.
Qed.

(** C10: two inputs whose elements differ only by padding. *)
Definition is_pad (e : delem) : bool := match e with DPad => true | _ => false end.
Lemma fields_of_nopad es : forall d, fields_of es d = fields_of (filter (fun e => negb (is_pad e)) es) d.
Proof.
  induction es as [|e es IH]; intros d; [reflexivity|].
  destruct e; cbn [fields_of filter is_pad negb]; rewrite IH; reflexivity.
Qed.
Lemma padding_invisible es1 es2 bs1 bs2 s1 s2 tl1 tl2 :
  filter (fun e => negb (is_pad e)) es1 = filter (fun e => negb (is_pad e)) es2 ->
  elems_enc es1 bs1 -> elems_enc es2 bs2 -> positioned s1 (bs1 ++ tl1) -> positioned s2 (bs2 ++ tl2) ->
  s_depth s1 = s_depth s2 ->
  s_pos s1 + pend s1 + lenN bs1 <= U64_MAX -> s_pos s2 + pend s2 + lenN bs2 <= U64_MAX ->
  s_depth s1 + 2 * N.of_nat (length es1) + 1 < U64_MAX -> s_depth s2 + 2 * N.of_nat (length es2) + 1 < U64_MAX ->
  let n := length (fields_of es1 (s_depth s1)) in
  fst (read_fields n s1) = fst (read_fields n s2) /\ fst (read_fields n s1) = fields_of es1 (s_depth s1).
Proof.
  intros Hf H1 H2 Hp1 Hp2 Hd Hq1 Hq2 Hs1 Hs2. cbv zeta.
  destruct (read_fields_ok _ es1 bs1 s1 tl1 (le_n _) H1 Hp1 Hq1 Hs1) as (s1' & np1 & HR1 & _).
  destruct (read_fields_ok _ es2 bs2 s2 tl2 (le_n _) H2 Hp2 Hq2 Hs2) as (s2' & np2 & HR2 & _).
  rewrite HR1. split; [|reflexivity]. 
  assert (E : fields_of es1 (s_depth s1) = fields_of es2 (s_depth s2)).
  { rewrite fields_of_nopad, Hf, Hd, <- fields_of_nopad. reflexivity. }
  rewrite E, HR2. reflexivity.
Qed.

(** C15 *)
Lemma exception_field s m h np tl :
  positioned s (repeat 0xC0 np ++ h ++ m ++ tl) -> hdr_enc (HdExc (lenN m)) h ->
  s_pos s + pend s + N.of_nat np + lenN h + lenN m <= U64_MAX -> s_depth s + 1 < U64_MAX ->
  exists s', next_field s = (RErr (SException (takeN 256 m)), s') /\ positioned s' tl /\
    s_depth s' = s_depth s.
Proof.
  intros Hp Henc Hq Hd.
  destruct (read_field1_ok s (DExc m) h np tl) as (s' & H1 & H2 & H3 & _); auto; [discriminate|].
  unfold read_field1 in H1. destruct (next_field s) as [r s1] eqn:E. cbn [fields_of hd app] in H1.
  destruct r as [[f|]|e| |]; try discriminate.
  - destruct (f_val f); [discriminate| |discriminate|discriminate]. destruct (b_read_fully U64_MAX s1) as [[] ?]; discriminate.
  - injection H1 as -> ->. exists s'. auto.
Qed.

Lemma exception_element s m h tl :
  positioned s (h ++ m ++ tl) -> hdr_enc (HdExc (lenN m)) h -> bytes_ok m ->
  s_pos s + pend s + lenN h + lenN m <= U64_MAX -> s_depth s + 1 < U64_MAX ->
  exists s1 s2, next_element s = (ROk (ElException (lenN m)), s1) /\
    b_read_fully U64_MAX s1 = (ROk m, s2) /\ positioned s2 tl.
Proof.
  intros Hpos Henc Hok Hp Hd.
  destruct (positioned_after s 0 (HdExc (lenN m)) h m tl) as (Hpa & Hpb & Hpp & Hu' & Hpe & Hi');
    [exact Hpos|exact Henc|reflexivity|cbn [N.of_nat]; lia|].
  pose proof Hpos as (Hi & He & Hpd & Hu).
  assert (Hnx : next_element s =
     (ROk (elem_of (HdExc (lenN m)) (s_pos s + pend s + N.of_nat 0) (s_depth s)),
      after (HdExc (lenN m)) h (adv (N.of_nat 0) (settled s)))).
  { apply (impl_complete false s (HdExc (lenN m)) h (m ++ tl) 0%nat); auto; try discriminate.
    - cbn [hdr_payload N.of_nat]. lia.
    - exact I. }
  set (s1 := after (HdExc (lenN m)) h (adv (N.of_nat 0) (settled s))) in *.
  assert (Hib1 : in_blob s1).
  { apply after_in_blob; [exact (ri_sch s Hi)|reflexivity|]. cbn [hdr_payload].
    change (s_pos (adv (N.of_nat 0) (settled s))) with (s_pos s + pend s + N.of_nat 0). cbn [N.of_nat]. lia. }
  destruct (fully_positioned s1 m tl) as (s2 & H2 & Hp2 & _); auto; [lia|].
  exists s1, s2. split; [exact Hnx|]. split; [exact H2|exact Hp2].
Qed.
