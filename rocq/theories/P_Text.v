(** * P_Text: the checks of [String] and [char] (C64) *)

From Verif Require Import Base Wire Dev Stream Types Prog Ser De SpecFormat SpecStream SpecHist SpecDe SpecDoc SpecSerDe SpecRead SpecText
  P_Base P_Read P_DeProps P_Meaning P_RT Tree.

Lemma char_scalar c : char_ok c = true <-> scalar c.
Proof.
  unfold char_ok, scalar. rewrite orb_true_iff, andb_true_iff, !N.ltb_lt, N.leb_le. lia.
Qed.
Lemma between_iff lo hi b : between lo hi b = true <-> lo <= b <= hi.
Proof. unfold between. rewrite andb_true_iff, !N.leb_le. tauto. Qed.
Lemma between_out lo hi b : ~ (lo <= b <= hi) -> between lo hi b = false.
Proof. intros H. destruct (between lo hi b) eqn:E; [|reflexivity]. apply between_iff in E. tauto. Qed.

(** ** One character, in digits of six bits *)
Definition dig (a b d e : N) : N := a * 262144 + b * 4096 + d * 64 + e.
Lemma dig_of c : exists a b d e, b < 64 /\ d < 64 /\ e < 64 /\ c = dig a b d e.
Proof.
  exists (c / 64 / 64 / 64), (c / 64 / 64 mod 64), (c / 64 mod 64), (c mod 64).
  pose proof (N.mod_lt c 64 ltac:(discriminate)). pose proof (N.mod_lt (c / 64) 64 ltac:(discriminate)).
  pose proof (N.mod_lt (c / 64 / 64) 64 ltac:(discriminate)).
  pose proof (N.div_mod c 64 ltac:(discriminate)) as E1. pose proof (N.div_mod (c / 64) 64 ltac:(discriminate)) as E2.
  pose proof (N.div_mod (c / 64 / 64) 64 ltac:(discriminate)) as E3. unfold dig. repeat split; lia.
Qed.
Section Digits.
  Variables (a b d e : N).
  Hypothesis Hb : b < 64.
  Hypothesis Hd : d < 64.
  Hypothesis He : e < 64.
  Lemma dig_64 : dig a b d e / 64 = a * 4096 + b * 64 + d.
  Proof. symmetry. apply (N.div_unique _ 64 _ e); unfold dig; lia. Qed.
  Lemma dig_m : dig a b d e mod 64 = e.
  Proof. symmetry. apply (N.mod_unique _ 64 (a * 4096 + b * 64 + d)); unfold dig; lia. Qed.
  Lemma dig_64m : dig a b d e / 64 mod 64 = d.
  Proof. rewrite dig_64. symmetry. apply (N.mod_unique _ 64 (a * 64 + b)); lia. Qed.
  Lemma dig_4096 : dig a b d e / 4096 = a * 64 + b.
  Proof. symmetry. apply (N.div_unique _ 4096 _ (d * 64 + e)); unfold dig; lia. Qed.
  Lemma dig_4096m : dig a b d e / 4096 mod 64 = b.
  Proof. rewrite dig_4096. symmetry. apply (N.mod_unique _ 64 a); lia. Qed.
  Lemma dig_18 : dig a b d e / 262144 = a.
  Proof. symmetry. apply (N.div_unique _ 262144 _ (b * 4096 + d * 64 + e)); unfold dig; lia. Qed.
  Lemma utf8_dig : utf8_char (dig a b d e) =
    if dig a b d e <? 0x80 then [dig a b d e]
    else if dig a b d e <? 0x800 then [0xC0 + (a * 4096 + b * 64 + d); 0x80 + e]
    else if dig a b d e <? 0x10000 then [0xE0 + (a * 64 + b); 0x80 + d; 0x80 + e]
    else [0xF0 + a; 0x80 + b; 0x80 + d; 0x80 + e].
  Proof. unfold utf8_char. now rewrite dig_64m, dig_4096m, dig_m, dig_64, dig_4096, dig_18. Qed.
End Digits.

Lemma utf8_one c r : scalar c -> utf8_ok (utf8_char c ++ r) = utf8_ok r.
Proof.
  intros Hc. destruct (dig_of c) as (a & b & d & e & Hb & Hd & He & ->). rewrite utf8_dig by assumption.
  unfold scalar in Hc. 
  destruct (N.ltb_spec (dig a b d e) 0x80) as [H1|H1]; [|destruct (N.ltb_spec (dig a b d e) 0x800) as [H2|H2];
    [|destruct (N.ltb_spec (dig a b d e) 0x10000) as [H3|H3]]]; cbn [app utf8_ok].
  - apply N.ltb_lt in H1. now rewrite H1.
  - unfold dig in *. rewrite (proj2 (N.ltb_ge _ _)) by lia. rewrite (proj2 (between_iff 0xC2 0xDF _)) by lia.
    rewrite (proj2 (between_iff 0x80 0xBF _)) by lia. reflexivity.
  - unfold dig in *. rewrite (proj2 (N.ltb_ge _ _)) by lia. rewrite (between_out 0xC2 0xDF) by lia.
    rewrite (proj2 (between_iff 0xE0 0xEF _)) by lia.
    rewrite (proj2 (between_iff _ _ (0x80 + d))); [|destruct (N.eqb_spec (0xE0 + (a * 64 + b)) 0xE0); destruct (N.eqb_spec (0xE0 + (a * 64 + b)) 0xED); lia].
    rewrite (proj2 (between_iff 0x80 0xBF _)) by lia. reflexivity.
  - unfold dig in *. rewrite (proj2 (N.ltb_ge _ _)) by lia. rewrite (between_out 0xC2 0xDF) by lia. rewrite (between_out 0xE0 0xEF) by lia.
    rewrite (proj2 (between_iff 0xF0 0xF4 _)) by lia.
    rewrite (proj2 (between_iff _ _ (0x80 + b))); [|destruct (N.eqb_spec (0xF0 + a) 0xF0); destruct (N.eqb_spec (0xF0 + a) 0xF4); lia].
    rewrite !(proj2 (between_iff 0x80 0xBF _)) by lia. reflexivity.
Qed.

Lemma utf8_first bs : bs <> [] -> utf8_ok bs = true -> exists c r, scalar c /\ bs = utf8_char c ++ r /\ utf8_ok r = true.
Proof.
  destruct bs as [|b r]; [congruence|]. intros _ H. cbn [utf8_ok] in H.
  destruct (N.ltb_spec b 0x80) as [H1|H1].
  { exists b, r. repeat split; [left; lia| |exact H]. unfold utf8_char. apply N.ltb_lt in H1. now rewrite H1. }
  destruct (between 0xC2 0xDF b) eqn:E2.
  { apply between_iff in E2. destruct r as [|c r]; [discriminate|]. apply andb_true_iff in H. destruct H as [Hc H].
    apply between_iff in Hc. exists (dig 0 0 (b - 0xC0) (c - 0x80)), r. split; [unfold scalar, dig; lia|]. split; [|exact H].
    rewrite utf8_dig by lia. unfold dig. rewrite (proj2 (N.ltb_ge _ 0x80)) by lia. rewrite (proj2 (N.ltb_lt _ 0x800)) by lia.
    cbn [app]. repeat f_equal; lia. }
  destruct (between 0xE0 0xEF b) eqn:E3.
  { apply between_iff in E3. destruct r as [|c [|d r]]; try discriminate. apply andb_true_iff in H. destruct H as [Hc H].
    apply andb_true_iff in Hc. destruct Hc as [Hc Hd]. apply between_iff in Hc. apply between_iff in Hd.
    exists (dig 0 (b - 0xE0) (c - 0x80) (d - 0x80)), r.
    split; [unfold scalar, dig; destruct (N.eqb_spec b 0xE0); destruct (N.eqb_spec b 0xED); lia|]. split; [|exact H].
    assert (0x80 <= c <= 0xBF) by (destruct (N.eqb_spec b 0xE0); destruct (N.eqb_spec b 0xED); lia).
    rewrite utf8_dig by lia. unfold dig. rewrite (proj2 (N.ltb_ge _ 0x80)) by (destruct (N.eqb_spec b 0xE0); lia).
    rewrite (proj2 (N.ltb_ge _ 0x800)) by (destruct (N.eqb_spec b 0xE0); lia). rewrite (proj2 (N.ltb_lt _ 0x10000)) by lia.
    cbn [app]. repeat f_equal; lia. }
  destruct (between 0xF0 0xF4 b) eqn:E4; [|discriminate].
  apply between_iff in E4. destruct r as [|c [|d [|e r]]]; try discriminate. apply andb_true_iff in H. destruct H as [Hc H].
  apply andb_true_iff in Hc. destruct Hc as [Hc He]. apply andb_true_iff in Hc. destruct Hc as [Hc Hd].
  apply between_iff in Hc. apply between_iff in Hd. apply between_iff in He.
  exists (dig (b - 0xF0) (c - 0x80) (d - 0x80) (e - 0x80)), r.
  split; [unfold scalar, dig; destruct (N.eqb_spec b 0xF0); destruct (N.eqb_spec b 0xF4); lia|]. split; [|exact H].
  assert (0x80 <= c <= 0xBF) by (destruct (N.eqb_spec b 0xF0); destruct (N.eqb_spec b 0xF4); lia).
  rewrite utf8_dig by lia. unfold dig. rewrite (proj2 (N.ltb_ge _ 0x80)) by (destruct (N.eqb_spec b 0xF0); lia).
  rewrite (proj2 (N.ltb_ge _ 0x800)) by (destruct (N.eqb_spec b 0xF0); lia). rewrite (proj2 (N.ltb_ge _ 0x10000)) by (destruct (N.eqb_spec b 0xF0); lia).
  cbn [app]. repeat f_equal; lia.
Qed.

Theorem utf8_text bs : utf8_ok bs = true <-> text bs.
Proof.
  split.
  - remember (List.length bs) as n eqn:En. revert bs En. induction n as [n IH] using (well_founded_induction Wf_nat.lt_wf).
    intros bs -> H. destruct bs as [|b r]; [exists []; split; [constructor|reflexivity]|].
    destruct (utf8_first (b :: r) ltac:(discriminate) H) as (c & r' & Hc & E & Hr).
    destruct (IH (List.length r')) with (bs := r') as (cs & Hcs & ->); auto.
    + rewrite E, app_length. enough (0 < List.length (utf8_char c))%nat by lia.
      unfold utf8_char. repeat destruct (_ <? _); cbn; lia.
    + exists (c :: cs). split; [now constructor|]. exact E.
  - intros (cs & Hcs & ->). induction Hcs as [|c cs Hc Hcs IH]; [reflexivity|]. cbn [flat_map]. now rewrite utf8_one.
Qed.

(** ** All text held by a value *)
Lemma all_left {A B} (P : A -> Prop) l (l' : list B) : Forall2 (fun x _ => P x) l l' -> forall x, In x l -> P x.
Proof. induction 1 as [|a b l l' Ha H IH]; intros x Hx; [destruct Hx|]. destruct Hx as [<-|Hx]; auto. Qed.
Lemma typed_text e v t : has_type e v t ->
  (forall bs, part (VStr bs) v -> text bs) /\ (forall c, part (VChar c) v -> scalar c).
Proof.
  revert v t. apply (has_type_ind2 ascending e (fun v t => (forall bs, part (VStr bs) v -> text bs) /\ (forall c, part (VChar c) v -> scalar c)));
    try (intros; split; intros q Hq; inversion Hq; fail).
  - intros c Hc. split; intros q Hq; inversion Hq; subst. now apply char_scalar.
  - intros t bs _ _ H. split; intros q Hq; inversion Hq; subst. now apply utf8_text.
  - intros n t vs _ _ _ H. rewrite Forall_forall in H. split; intros q Hq; inversion Hq; subst; now apply (H y).
  - intros t vs _ _ H. rewrite Forall_forall in H. split; intros q Hq; inversion Hq; subst; now apply (H y).
  - intros t vs _ H. rewrite Forall_forall in H. split; intros q Hq; inversion Hq; subst; now apply (H y).
  - intros t vs _ H _. rewrite Forall_forall in H. split; intros q Hq; inversion Hq; subst; now apply (H y).
  - intros t v _ H. split; intros q Hq; inversion Hq; subst; now apply H.
  - intros tk tv kvs _ _ H1 H2 _. rewrite Forall_forall in H1, H2. split; intros q Hq; inversion Hq as [| | | | |k v l Hi Hp|k v l Hi Hp| |]; subst;
      first [exact (proj1 (H1 _ Hi) _ Hp)|exact (proj2 (H1 _ Hi) _ Hp)|exact (proj1 (H2 _ Hi) _ Hp)|exact (proj2 (H2 _ Hi) _ Hp)].
  - intros ts vs _ H. assert (G : forall y, In y vs -> (forall bs, part (VStr bs) y -> text bs) /\ (forall c, part (VChar c) y -> scalar c)).
    { exact (all_left _ _ _ H). }
    split; intros q Hq; inversion Hq; subst; now apply (G y).
  - auto.
  - auto.
  - intros i b vs _ _ H _ _. assert (G : forall y, In y vs -> (forall bs, part (VStr bs) y -> text bs) /\ (forall c, part (VChar c) y -> scalar c)).
    { exact (all_left _ _ _ H). }
    split; intros q Hq; inversion Hq; subst; now apply (G y).
  - intros i vars catch ix d b vs _ _ _ H _ _. assert (G : forall y, In y vs -> (forall bs, part (VStr bs) y -> text bs) /\ (forall c, part (VChar c) y -> scalar c)).
    { exact (all_left _ _ _ H). }
    split; intros q Hq; inversion Hq as [| | | | | | |ix' z Hz|]; subst; inversion Hz; subst; now apply (G y).
  - intros i vars d b vs _ _ _ _ H _ _. assert (G : forall y, In y vs -> (forall bs, part (VStr bs) y -> text bs) /\ (forall c, part (VChar c) y -> scalar c)).
    { exact (all_left _ _ _ H). }
    split; intros q Hq; inversion Hq as [| | | | | | | |ix' z Hz]; subst; inversion Hz; subst; now apply (G y).
Qed.

(** ** What is accepted as text *)
Lemma one_field cf conv n r c : 1 <= cf_rec cf -> conv 1 n (mkC 1 0 0 ["top"%string]) = (r, c) -> c_lev c = 1 ->
  match r with ROk _ | RErr _ => True | _ => False end ->
  fst (t_body (t_unary cf conv) [(1, n)] (mkC 0 0 0 [])) = r.
Proof.
  intros Hr H Hl Hx. unfold t_unary, t_with_default_body. cbn [t_body]. unfold t_body_default, t_des_body.
  cbn [t_loop t_step find_tag fst snd]. change (1 =? 1) with true. cbv iota. cbn [t_inits map t_init snd t_field nth upd].
  unfold t_opt_field, mbind, t_push, t_pop, mmod, mret. cbn [c_lev c_coll c_blob c_path].
  destruct (N.leb_spec (cf_rec cf) 0) as [Hz|Hz]; [lia|]. change (0 + 1) with 1. rewrite H.
  destruct r as [v|k| |]; try contradiction; [|reflexivity].
  cbn [t_finish_all fst snd]. unfold t_finish_one, mbind, t_push, t_pop, mmod. cbn [c_lev c_coll c_blob c_path]. rewrite Hl. change (1 - 1) with 0.
  destruct (N.leb_spec (cf_rec cf) 0) as [Hy|Hy]; [lia|]. reflexivity.
Qed.
Lemma str_tree cf e zc t b : is_str t -> deserialisable e zc t -> 1 <= cf_rec cf -> lenN b <= cf_blob cf ->
  fst (read_tree cf e zc t [(1, NBlob b)]) = if utf8_ok b then ROk (VStr b) else RErr KInvalid.
Proof.
  intros Hs Hd Hr Hb. unfold read_tree, t_full.
  assert (A1 : fst (t_body (t_unary cf (t_conv_string cf)) [(1, NBlob b)] (mkC 0 0 0 [])) = if utf8_ok b then ROk (VStr b) else RErr KInvalid).
  { apply (one_field cf _ _ _ (mkC 1 0 (lenN b) ["top"%string]) Hr).
    - unfold t_conv_string, t_read_owned, t_quota, mbind, mret. cbn [to_blob hdr_node t_lift c_lev c_coll c_blob c_path blob_of]. unfold mret. cbn [c_blob].
      rewrite N.add_0_l. rewrite (proj2 (N.ltb_ge _ _) Hb). destruct (utf8_ok b); reflexivity.
    - reflexivity.
    - destruct (utf8_ok b); exact I. }
  assert (A2 : fst (t_body (t_unary cf t_conv_str_ref) [(1, NBlob b)] (mkC 0 0 0 [])) = if utf8_ok b then ROk (VStr b) else RErr KInvalid).
  { apply (one_field cf _ _ _ (mkC 1 0 0 ["top"%string]) Hr).
    - unfold t_conv_str_ref, t_read_borrowed, mbind, mret. cbn [to_blob hdr_node t_lift blob_of]. unfold mret. destruct (utf8_ok b); reflexivity.
    - reflexivity.
    - destruct (utf8_ok b); exact I. }
  destruct Hs as [->|[->| ->]]; cbn [t_dict_of].
  - exact A1.
  - destruct zc; [exact A2|]. destruct Hd. constructor.
  - destruct zc; [exact A2|exact A1].
Qed.
Theorem text_read e zc cf t b s : is_str t -> usable e zc cf t -> 1 <= cf_rec cf -> lenN b <= cf_blob cf ->
  doc_stream [(1, NBlob b)] s ->
  (forall v, fst (from_stream e zc cf t s) = ROk v <-> text b /\ v = VStr b) /\
  (~ text b -> exists err, fst (from_stream e zc cf t s) = RErr err /\ e_kind err = KInvalid).
Proof.
  intros Hs Hu Hr Hb Hd. pose proof (stream_tree e zc cf t _ s Hu Hd) as H.
  rewrite (str_tree cf e zc t b Hs (proj1 (proj2 Hu)) Hr Hb) in H. pose proof (utf8_text b) as Hx. destruct (utf8_ok b).
  - rewrite H. split; [|intros Hno; destruct Hno; now apply Hx]. intros v. split; [intros [= <-]; split; [now apply Hx|reflexivity]|intros [_ ->]; reflexivity].
  - destruct H as (x & E & Hk). rewrite E. split.
    + intros v. split; [discriminate|intros [Ht _]; apply Hx in Ht; discriminate].
    + intros _. exists x. split; [reflexivity|]. now inversion Hk.
Qed.
Theorem char_read e zc cf n s : usable e zc cf TChar -> 1 <= cf_rec cf -> n < 2 ^ 32 -> doc_stream [(1, NInt n)] s ->
  (forall v, fst (from_stream e zc cf TChar s) = ROk v <-> scalar n /\ v = VChar n) /\
  (~ scalar n -> exists err, fst (from_stream e zc cf TChar s) = RErr err /\ e_kind err = KInvalidMsg).
Proof.
  intros Hu Hr Hn Hd. pose proof (stream_tree e zc cf TChar _ s Hu Hd) as H.
  assert (A1 : fst (read_tree cf e zc TChar [(1, NInt n)]) = if char_ok n then ROk (VChar n) else RErr KInvalidMsg).
  { apply (one_field cf t_conv_char _ _ (mkC 1 0 0 ["top"%string]) Hr).
    - unfold t_conv_char, mbind, to_uint. cbn [hdr_node]. rewrite (proj2 (N.ltb_ge _ _)) by (unfold umax; lia). cbn [t_lift]. unfold mret.
      destruct (char_ok n); reflexivity.
    - reflexivity.
    - destruct (char_ok n); exact I. }
  rewrite A1 in H. pose proof (char_scalar n) as Hx. destruct (char_ok n).
  - rewrite H. split; [|intros Hno; destruct Hno; now apply Hx]. intros v. split; [intros [= <-]; split; [now apply Hx|reflexivity]|intros [_ ->]; reflexivity].
  - destruct H as (x & E & Hk). rewrite E. split.
    + intros v. split; [discriminate|intros [Ht _]; apply Hx in Ht; discriminate].
    + intros _. exists x. split; [reflexivity|]. now inversion Hk.
Qed.
Theorem valid_text e zc cf t dbg sk gr bs sched v s' :
  env_ok e -> deserialisable e zc t -> cf_collect cf <= U64_MAX -> cf_blob cf <= U64_MAX ->
  bytes_ok bs -> lenN bs + 3 < U64_MAX ->
  from_stream e zc cf t (set_graceful_ gr (new_stream dbg sk (mkDev bs 0 sched))) = (ROk v, s') ->
  (forall b, part (VStr b) v -> text b) /\ (forall c, part (VChar c) v -> scalar c).
Proof.
  intros He Ht Hc Hb Ho Hl H. apply (typed_text e v t). exact (stream_valid e zc cf t dbg sk gr bs sched v s' He Ht Hc Hb Ho Hl H).
Qed.
