(** * P_Ex: the example types and value meet the hypotheses of the theorems *)

From Verif Require Import Base Wire Dev Stream Types Ser Prog De SpecWire SpecFormat SpecStream SpecWrite SpecDe SpecDoc SpecSerDe.
From Verif Require P_Base.

(** The type definitions of the example, and its value, satisfy the
    hypotheses of everything below. *)
Lemma ex_wf : env_wf ex_env.
Proof.
  assert (Ht : forall n, 1 <= n <= 63 -> tag_ok n) by (intros; split; lia).
  intros [|i]; cbn; repeat first [split | apply Forall_cons | apply Forall_nil | apply NoDup_cons | apply NoDup_nil]; cbn;
    try (intros H; repeat destruct H as [H|H]; discriminate || contradiction);
    try (apply Ht; lia); try reflexivity; try exact Logic.I; unfold width_ok; auto.
Qed.
(** The same for other definitions. *)
Lemma tag_by n : 1 <= n <= 63 -> tag_ok n.
Proof. intros; split; lia. Qed.
Ltac wf_item :=
  cbn; repeat first [split | apply Forall_cons | apply Forall_nil | apply NoDup_cons | apply NoDup_nil]; cbn;
    try (intros H; repeat destruct H as [H|H]; discriminate || contradiction);
    try (apply tag_by; lia); try reflexivity; try exact Logic.I; unfold width_ok; auto.
Lemma ex_typed : has_type ex_env ex_value (TItem 0).
Proof.
  assert (Hb : forall l, forallb (fun b => b <? 256) l = true -> bytes_ok l).
  { induction l as [|x l IH]; cbn; [constructor|]. intros H. apply andb_prop in H. destruct H as [H1 H2].
    constructor; [now apply N.ltb_lt|now apply IH]. }
  assert (Hs : forall bs, forallb (fun b => b <? 256) bs = true -> utf8_ok bs = true -> has_type ex_env (VStr bs) TString).
  { intros bs H1 H2. constructor; [now left|auto|exact H2]. }
  assert (Hk : has_type ex_env (VRec [VU 7; VStr []; VList []; VOpt None; VUnk []]) (TItem 0)).
  { apply (TyStruct _ 0 ex_tree); [reflexivity| |reflexivity|].
    - repeat apply Forall2_cons; [constructor; vm_compute; discriminate|apply Hs; reflexivity|constructor; [reflexivity|constructor]
        |constructor|constructor; constructor|constructor].
    - intros _ fs E. injection E as <-. constructor. }
  apply (TyStruct _ 0 ex_tree); [reflexivity| |reflexivity|].
  - repeat apply Forall2_cons; [constructor; vm_compute; discriminate|apply Hs; reflexivity| | | |constructor].
    + constructor; [reflexivity|]. constructor; [exact Hk|constructor].
    + constructor. apply (TyVar _ 1 [(1, mkB [] SpNone ok_all); (2, mkB [mkF "w" 1 (TSInt 32); mkF "h" 2 (TSInt 32)] SpNone ok_all)]
         (Some (mkB [] (SpUnknown "body" TUnknown) ok_all)) 1%nat 2
         (mkB [mkF "w" 1 (TSInt 32); mkF "h" 2 (TSInt 32)] SpNone ok_all)); try reflexivity; try exact Logic.I.
      repeat apply Forall2_cons; try apply Forall2_nil; constructor; vm_compute; split; discriminate.
    + constructor. constructor; [|constructor]. cbn. repeat split; try (unfold tag_ok; lia); try reflexivity. now apply Hb.
  - intros _ fs E. injection E as <-. constructor; [|constructor]. cbn. intros H. repeat destruct H as [H|H]; try discriminate; contradiction.
Qed.
Lemma ex_storable zc : storable default_cfg ex_env zc (TItem 0) ex_value.
Proof.
  split; [exact ex_typed|exact Logic.I|apply ex_deserialisable; cbn; auto|now left|].
  destruct zc; vm_compute; repeat split; discriminate.
Qed.


(** ** Concrete encodings: a decoder that says how bytes may be read *)
Fixpoint take_varint (bs : bytes) : option (bytes * bytes) :=
  match bs with
  | [] => None
  | b :: r => if b <? 128 then Some ([b], r)
              else match take_varint r with Some (v, r') => Some (b :: v, r') | None => None end
  end.
Definition okb (bs : bytes) : bool := forallb (fun b => b <? 256) bs.
Lemma okb_ok bs : okb bs = true -> bytes_ok bs.
Proof.
  induction bs as [|x l IH]; cbn; [constructor|]. intros H. apply andb_prop in H. destruct H as [H1 H2].
  constructor; [now apply N.ltb_lt|now apply IH].
Qed.
Lemma take_varint_ok bs : forall v r, take_varint bs = Some (v, r) -> okb bs = true -> bs = v ++ r /\ is_varint v /\ okb v = true /\ okb r = true.
Proof.
  induction bs as [|b bs IH]; intros v r; cbn [take_varint okb forallb]; [discriminate|].
  intros H Hok. apply andb_prop in Hok. destruct Hok as [Hb Hok]. destruct (N.ltb_spec b 128) as [Hlt|Hge].
  - injection H as <- <-. split; [reflexivity|]. split; [exists [], b; repeat split; [constructor|exact Hlt]|]. split; [cbn; now rewrite Hb|exact Hok].
  - destruct (take_varint bs) as [[v1 r1]|]; [|discriminate]. injection H as <- <-.
    destruct (IH v1 r1 eq_refl Hok) as (-> & (p & c & -> & Hp & Hc) & Hv & Hr). split; [reflexivity|]. split.
    + exists (b :: p), c. split; [reflexivity|]. split; [|exact Hc]. constructor; [|exact Hp]. apply N.ltb_lt in Hb. split; lia.
    + split; [cbn [okb forallb]; rewrite Hb; exact Hv|exact Hr].
Qed.
Definition take_int (bs : bytes) : option (bytes * N * bytes) :=
  match take_varint bs with
  | Some (v, r) => if (lenN v <=? 257) && (varint_value v <? 2 ^ 64) then Some (v, varint_value v, r) else None
  | None => None
  end.
Lemma take_int_ok bs v n r : take_int bs = Some (v, n, r) -> okb bs = true ->
  bs = v ++ r /\ legal_varint v n /\ bytes_ok v /\ okb r = true.
Proof.
  unfold take_int. destruct (take_varint bs) as [[v1 r1]|] eqn:E; [|discriminate].
  destruct (N.leb_spec (lenN v1) 257) as [H1|]; [|discriminate]. destruct (N.ltb_spec (varint_value v1) (2 ^ 64)) as [H2|]; [|discriminate].
  intros [= <- <- <-] Hok. destruct (take_varint_ok _ _ _ E Hok) as (-> & Hv & H3 & H4).
  split; [reflexivity|]. split; [repeat split; auto|]. split; [now apply okb_ok|exact H4].
Qed.
Fixpoint parse (fuel : nat) (bs : bytes) : option (list delem) :=
  match fuel, bs with
  | _, [] => Some []
  | O, _ => None
  | S f, b :: r =>
      let more e r' := match parse f r' with Some es => Some (e :: es) | None => None end in
      let cut k v n r' := if lenN r' <? n then None else more (k (takeN n r')) (dropN n r') in
      let t := b mod 64 in
      match b / 64 with
      | 0 => if t =? 0 then more DEnd r else match take_int r with Some (_, d, r') => more (DField t (DEnumV d)) r' | None => None end
      | 1 => if t =? 0 then more DEof r else match take_int r with Some (_, n, r') => more (DField t (DInt n)) r' | None => None end
      | 2 => match take_int r with
             | Some (v, n, r') => cut (fun c => if t =? 0 then DExc c else DField t (DBlobV c)) v n r'
             | None => None
             end
      | _ => more (if t =? 0 then DPad else DField t DStructV) r
      end
  end.
Lemma okb_cut n l : okb l = true -> okb (takeN n l) = true /\ okb (dropN n l) = true.
Proof.
  intros H. unfold okb in *. rewrite <- (P_Base.takeN_dropN n l), forallb_app in H. now apply andb_prop in H.
Qed.
Lemma parse_ok fuel : forall bs es, parse fuel bs = Some es -> okb bs = true -> elems_enc es bs.
Proof.
  induction fuel as [|f IH]; intros bs es; (destruct bs as [|b r]; cbn [parse]; [intros [= <-] _; constructor|]); [discriminate|].
  intros H Hok. cbn [okb forallb] in Hok. apply andb_prop in Hok. destruct Hok as [Hb Hok]. apply N.ltb_lt in Hb.
  assert (Hmore : forall e es0 h r', match parse f r' with Some es1 => Some (e :: es1) | None => None end = Some es0 -> okb r' = true ->
     hdr_enc (hdr_of e) h -> payload e = [] -> elems_enc es0 (h ++ r')).
  { intros e es0 h r' H0 Hk Hh Hp. destruct (parse f r') as [es1|] eqn:Er; [|discriminate]. injection H0 as <-.
    constructor; [|now apply IH]. exists h. rewrite Hp, app_nil_r. split; [exact Hh|]. split; [constructor|reflexivity]. }
  pose proof (N.div_mod b 64 ltac:(lia)) as Hdm. pose proof (N.mod_lt b 64 ltac:(lia)) as Hm.
  assert (Hq : b / 64 < 4) by (apply N.div_lt_upper_bound; lia).
  set (t := b mod 64) in *. set (k := b / 64) in *.
  assert (Ht : t <> 0 -> tag_ok t) by (intros; unfold tag_ok; lia).
  clearbody t k.
  assert (Hk4 : k = 3 \/ k = 2 \/ k = 1 \/ k = 0) by lia.
  destruct Hk4 as [->|[->|[->| ->]]].
  - (* 3 *) assert (Hb3 : b = 0xC0 + t) by lia. destruct (N.eqb_spec t 0) as [E|E].
    + apply (Hmore DPad es [b] r H Hok); [|reflexivity]. rewrite Hb3, E. constructor.
    + apply (Hmore _ es [b] r H Hok); [|reflexivity]. rewrite Hb3. constructor. auto.
  - (* 2 *) assert (Hb3 : b = 0x80 + t) by lia. destruct (take_int r) as [[[v n] r']|] eqn:Et; [|discriminate].
    destruct (take_int_ok _ _ _ _ Et Hok) as (-> & Hl & Hv & Hr).
    destruct (N.ltb_spec (lenN r') n) as [|Hle]; [discriminate|].
    destruct (okb_cut n r' Hr) as [Hc1 Hc2].
    destruct (parse f (dropN n r')) as [es1|] eqn:Er; [|discriminate]. injection H as <-.
    replace (b :: v ++ r') with (((b :: v) ++ takeN n r') ++ dropN n r') by (rewrite <- app_assoc, P_Base.takeN_dropN; reflexivity).
    constructor; [|now apply IH].
    assert (Hlen : lenN (takeN n r') = n) by (rewrite P_Base.lenN_takeN; lia).
    exists (b :: v). destruct (N.eqb_spec t 0) as [E|E]; cbn [hdr_of payload]; rewrite Hlen.
    + split; [|split; [now apply okb_ok|reflexivity]]. rewrite Hb3, E. now constructor.
    + split; [|split; [now apply okb_ok|reflexivity]]. rewrite Hb3. constructor; auto.
  - (* 1 *) assert (Hb3 : b = 0x40 + t) by lia. destruct (N.eqb_spec t 0) as [E|E].
    + apply (Hmore DEof es [b] r H Hok); [|reflexivity]. rewrite Hb3, E. constructor.
    + destruct (take_int r) as [[[v n] r']|] eqn:Et; [|discriminate].
      destruct (take_int_ok _ _ _ _ Et Hok) as (-> & Hl & Hv & Hr).
      apply (Hmore _ es (b :: v) r' H Hr); [|reflexivity]. rewrite Hb3. constructor; auto.
  - (* 0 *) assert (Hb3 : b = 0x00 + t) by lia. destruct (N.eqb_spec t 0) as [E|E].
    + apply (Hmore DEnd es [b] r H Hok); [|reflexivity]. rewrite Hb3, E. constructor.
    + destruct (take_int r) as [[[v n] r']|] eqn:Et; [|discriminate].
      destruct (take_int_ok _ _ _ _ Et Hok) as (-> & Hl & Hv & Hr).
      apply (Hmore _ es (b :: v) r' H Hr); [|reflexivity]. rewrite Hb3. constructor; auto.
Qed.
Lemma encodes_by es bs : okb bs = true -> option_map (filter not_pad) (parse (List.length bs) bs) = Some es -> encodes es bs.
Proof.
  intros Hok H. destruct (parse _ bs) as [es'|] eqn:E; [|discriminate]. injection H as <-. exists es'. split; [|reflexivity].
  exact (parse_ok _ _ _ E Hok).
Qed.
