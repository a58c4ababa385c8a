(** * P_Sched: the device schedule only matters if it contains a failure

    [strip s] is [s] with a device that always transfers as much as
    possible.  For each operation the result under an arbitrary schedule is
    compared with the result on [strip s]. *)

From Verif Require Import Base Wire Dev Stream P_Base P_Wire.

Ltac scbn := cbn [s_dev s_pos s_eof s_blob_end s_dyn_start s_depth s_graceful s_seek s_commit
  s_dbg d_data d_pos d_sched set_dev set_pos_ set_eof_ set_blob_end set_dyn_start set_depth_
  set_graceful_ set_commit sch].

Definition dstrip (d : dev) : dev := mkDev (d_data d) (d_pos d) [].
Definition strip (s : stream) : stream := set_dev (dstrip (s_dev s)) s.
Definition benign (s : stream) : Prop := Forall (fun e => e <> EvFail) (sch s).

Definition set_sched (sc : list ev) (s : stream) : stream :=
  set_dev (mkDev (d_data (s_dev s)) (d_pos (s_dev s)) sc) s.
(** Move cursor and position forward by [n]. *)
Definition adv (n : N) (s : stream) : stream :=
  set_pos_ (s_pos s + n)
    (set_dev (mkDev (d_data (s_dev s)) (d_pos (s_dev s) + n) (sch s)) s).
Definition rest (s : stream) : bytes := d_rest (s_dev s).

Lemma stream_eq a b :
  s_dev a = s_dev b -> s_pos a = s_pos b -> s_eof a = s_eof b ->
  s_blob_end a = s_blob_end b -> s_dyn_start a = s_dyn_start b -> s_depth a = s_depth b ->
  s_graceful a = s_graceful b -> s_seek a = s_seek b -> s_commit a = s_commit b ->
  s_dbg a = s_dbg b -> a = b.
Proof. destruct a, b; cbn; intros; subst; reflexivity. Qed.

Lemma strip_strip s : strip (strip s) = strip s.
Proof. reflexivity. Qed.
Lemma strip_set_sched sc s : strip (set_sched sc s) = strip s.
Proof. reflexivity. Qed.
Lemma strip_adv n s : strip (adv n s) = adv n (strip s).
Proof. reflexivity. Qed.
Lemma strip_of_clean s : sch s = [] -> strip s = s.
Proof. destruct s as [[d p sc] ? ? ? ? ? ? ? ? ?]; cbn; intros ->; reflexivity. Qed.
Lemma adv_0 s : adv 0 s = s.
Proof. destruct s as [[d p sc] ? ? ? ? ? ? ? ? ?]. unfold adv; cbn. now rewrite !N.add_0_r. Qed.
Lemma adv_adv a b s : adv a (adv b s) = adv (b + a) s.
Proof.
  destruct s as [[d p sc] ? ? ? ? ? ? ? ? ?]. unfold adv; cbn. now rewrite !N.add_assoc.
Qed.
Lemma rest_adv n s : rest (adv n s) = dropN n (rest s).
Proof. unfold rest, d_rest, adv; cbn. now rewrite dropN_dropN. Qed.
Lemma rest_strip s : rest (strip s) = rest s.
Proof. reflexivity. Qed.

(** ** Simulation *)
Section Sim.
  Context {S : Type}.
  Variable st : S -> S.            (* forget the schedule *)
  Variable bn : S -> Prop.         (* no failure in the schedule *)

  (** Outcomes that count as having surfaced a failure. *)
  Definition gsim {E A} (surf : E -> Prop) (m : M S E A) : Prop :=
    forall s r s', m s = (r, s') ->
      (m (st s) = (r, st s') /\ (bn s -> bn s')) \/
      (~ bn s /\ exists e, r = RErr e /\ surf e).

  Lemma gsim_ret {E A} surf (a : A) : gsim (E := E) surf (mret a).
  Proof. intros s r s' H; injection H as <- <-; left; auto. Qed.
  Lemma gsim_fail {E A} surf (e : E) : gsim (A := A) surf (mfail e).
  Proof. intros s r s' H; injection H as <- <-; left; auto. Qed.
  Lemma gsim_panic {E A} surf : gsim (E := E) (A := A) surf mpanic.
  Proof. intros s r s' H; injection H as <- <-; left; auto. Qed.
  Lemma gsim_res {E A} surf (x : res E A) : gsim surf (mres x).
  Proof. intros s r s' H; injection H as <- <-; left; auto. Qed.
  Lemma gsim_fuel {E A} surf : gsim surf (fun s : S => (@RFuel E A, s)).
  Proof. intros s r s' H; injection H as <- <-; left; auto. Qed.
  Lemma gsim_mod {E} surf (f : S -> S) :
    (forall s, f (st s) = st (f s)) -> (forall s, bn s -> bn (f s)) ->
    gsim (E := E) surf (mmod f).
  Proof.
    intros Hf Hb s r s' H; injection H as <- <-. left. split; [|apply Hb].
    unfold mmod. now rewrite Hf.
  Qed.

  Lemma gsim_bind {E A B} surf (m : M S E A) (k : A -> M S E B) :
    gsim surf m -> (forall a, gsim surf (k a)) -> gsim surf (mbind m k).
  Proof.
    intros Hm Hk s r s' H. unfold mbind in *.
    destruct (m s) as [r1 s1] eqn:E1.
    destruct (Hm s r1 s1 E1) as [[Heq Hb]|(Hnb & e & -> & He)].
    - rewrite Heq. destruct r1 as [a|e| |]; try (injection H as <- <-; now left).
      destruct (Hk a s1 r s' H) as [[Heq2 Hb2]|(Hnb & Hr)].
      + left. split; auto.
      + right. split; auto.
    - injection H as <- <-. right. split; [exact Hnb|]. exists e. auto.
  Qed.

  Lemma gsim_get {E A} surf (f : S -> M S E A) :
    (forall s0, gsim surf (f s0)) -> (forall s0, f (st s0) = f s0) ->
    gsim surf (mbind mget f).
  Proof.
    intros Hf Hst s r s' H. cbn in *. unfold mbind, mget in *.
    destruct (Hf s s r s' H) as [[Heq Hb]|Hr]; [left|now right].
    split; [|exact Hb]. rewrite Hst. exact Heq.
  Qed.

  (** The same for a function that looks at the state directly. *)
  Lemma gsim_fun {E A} surf (f : S -> M S E A) :
    (forall s0, gsim surf (f s0)) -> (forall s0, f (st s0) = f s0) ->
    gsim surf (fun s => f s s).
  Proof. intros H1 H2. exact (gsim_get surf f H1 H2). Qed.

  Lemma gsim_if {E A} surf (b : bool) (m1 m2 : M S E A) :
    gsim surf m1 -> gsim surf m2 -> gsim surf (if b then m1 else m2).
  Proof. destruct b; auto. Qed.

  Lemma gsim_miter {E A B} surf (step : A -> M S E (A + B)) p :
    (forall a, gsim surf (step a)) -> forall a, gsim surf (miter p step a).
  Proof.
    intros Hs. induction p as [q IH|q IH|]; intros a; cbn [miter].
    - apply gsim_bind; [apply Hs|]. intros [a'|b]; [|apply gsim_ret].
      apply gsim_bind; [apply IH|]. intros [a''|b]; [apply IH|apply gsim_ret].
    - apply gsim_bind; [apply IH|]. intros [a'|b]; [apply IH|apply gsim_ret].
    - apply Hs.
  Qed.

  Lemma gsim_mloop {E A B} surf (step : A -> M S E (A + B)) :
    (forall a, gsim surf (step a)) -> forall a, gsim surf (mloop step a).
  Proof.
    intros Hs a. apply gsim_bind; [now apply gsim_miter|].
    intros [a'|b]; [apply gsim_fuel|apply gsim_ret].
  Qed.

  Lemma gsim_ext {E A} surf (m m' : M S E A) :
    (forall s, m s = m' s) -> gsim surf m -> gsim surf m'.
  Proof. intros He H s r s' Hr. rewrite <- He in *. now apply H. Qed.

  Lemma gsim_decode surf (rb : M S serr N) : gsim surf rb -> gsim surf (decode_u64 rb).
  Proof.
    intros Hrb. unfold decode_u64. generalize 258%nat as fuel; intros fuel.
    generalize 0 at 1 as acc. generalize 0 as sh. revert fuel.
    induction fuel as [|fuel IH]; intros sh acc; cbn [decode_loop]; [apply gsim_fuel|].
    apply gsim_bind; [exact Hrb|]. intros b. apply gsim_if; [apply gsim_fail|].
    cbv zeta. apply gsim_if; [apply gsim_ret|]. apply gsim_if; [apply gsim_fail|apply IH].
  Qed.
End Sim.

Definition surf_io (k : iokind) : Prop := k = IoOther.
Definition surf_s (e : serr) : Prop :=
  e = SIo IoOther \/ exists n, e = STruncatedBlob n.
Notation simio := (gsim strip benign surf_io).
Notation sim := (gsim strip benign surf_s).

Lemma sim_lift {A} (m : IM A) : simio m -> sim (lift_io m).
Proof.
  intros Hm s r s' H. unfold lift_io in *. destruct (m s) as [r1 s1] eqn:E1.
  destruct (Hm s r1 s1 E1) as [[Heq Hb]|(Hnb & e & -> & He)].
  - rewrite Heq. left. destruct r1; injection H as <- <-; auto.
  - right. injection H as <- <-. split; [exact Hnb|]. eexists. split; [reflexivity|].
    left. now rewrite He.
Qed.

Lemma benign_tl s sc e : sch s = e :: sc -> benign s -> Forall (fun e => e <> EvFail) sc.
Proof. unfold benign; intros -> H. now inversion H. Qed.

Lemma not_benign s sc : sch s = EvFail :: sc -> ~ benign s.
Proof. unfold benign; intros -> H. inversion H; congruence. Qed.

(** ** Single calls *)

Lemma check_adv_sim {E} (n : N) : gsim (E := iokind) strip benign E (check_advance_pos n).
Proof.
  intros s r s' H. left. unfold check_advance_pos in *. change (s_pos (strip s)) with (s_pos s).
  destruct (U64_MAX - s_pos s <? n); injection H as <- <-; auto.
Qed.

(** One call of [read] through the tracker. *)
Lemma t_read_eq g n s : n <> 0 ->
  t_read g n s =
  if U64_MAX - s_pos s <? n then (RErr IoOther, s)
  else let out k := let bs := takeN k (rest s) in
                    match bs with [] => if g then ([stype_code SpEndOfDoc], 0) else ([], 0)
                                | _ => (bs, lenN bs) end in
       match sch s with
       | [] => let '(o, k) := out n in (ROk o, adv k s)
       | EvShort c :: r => let '(o, k) := out (N.min n (N.max 1 c)) in
                           (ROk o, adv k (set_sched r s))
       | EvIntr :: r => (RErr IoInterrupted, set_sched r s)
       | EvFail :: r => (RErr IoOther, set_sched r s)
       end.
Proof.
  intros Hn. unfold t_read. destruct (N.eqb_spec n 0) as [|_]; [congruence|].
  unfold mbind, check_advance_pos. destruct (U64_MAX - s_pos s <? n); [reflexivity|].
  unfold on_dev, dev_read, sched_next, sch, rest.
  destruct s as [[da p sc] ? ? ? ? ? ? ? ? ?]; cbn [s_dev d_sched d_data d_pos].
  destruct sc as [|[c| |] r]; cbn [d_data d_pos d_sched]; unfold mmod, mret, adv, set_sched, set_dev, set_pos_; cbn.
  - match goal with |- context [takeN ?k ?l] => destruct (takeN k l) as [|x l'] end;
      [destruct g|]; cbn; rewrite ?N.add_0_r; reflexivity.
  - match goal with |- context [takeN ?k ?l] => destruct (takeN k l) as [|x l'] end;
      [destruct g|]; cbn; rewrite ?N.add_0_r; reflexivity.
  - reflexivity.
  - reflexivity.
Qed.

(** Limits on how much a reader/writer may transfer. *)
Inductive rcap := CapPanic | CapNone | Cap (c : N).
Definition cap_le (k : N) (c : rcap) : Prop :=
  match c with CapPanic => False | CapNone => True | Cap c => k <= c end.
Definition cap_sub (c : rcap) (k : N) : rcap :=
  match c with Cap c => Cap (c - k) | _ => c end.
Definition cap_min (c : rcap) (n : N) : N :=
  match c with Cap c => N.min c n | _ => n end.

Definition cap_blob (s : stream) : rcap :=
  match u64_sub (E := iokind) (s_dbg s) (s_blob_end s) (s_pos s) with
  | ROk c => Cap c
  | _ => CapPanic
  end.
Definition cap_none (s : stream) : rcap := CapNone.

Definition cap_good (cap : stream -> rcap) : Prop :=
  (forall s k, cap_le k (cap s) -> s_pos s + k <= U64_MAX ->
     cap (adv k s) = cap_sub (cap s) k) /\
  (forall s sc, cap (set_sched sc s) = cap s).

Lemma cap_none_good : cap_good cap_none.
Proof. split; reflexivity. Qed.

Lemma cap_blob_good : cap_good cap_blob.
Proof.
  split; [|reflexivity]. intros s k Hk Hp. unfold cap_blob, u64_sub in *. cbn in *.
  unfold U64_MAX in Hp.
  destruct (N.leb_spec (s_pos s) (s_blob_end s)) as [H1|H1].
  - cbn in Hk. destruct (N.leb_spec (s_pos s + k) (s_blob_end s)) as [H2|H2]; [|lia].
    cbn. f_equal. lia.
  - destruct (s_dbg s) eqn:Ed; cbn in Hk; [contradiction|].
    destruct (N.leb_spec (s_pos s + k) (s_blob_end s)) as [H2|H2]; [lia|]. cbn. f_equal.
    unfold U64_MOD in *.
    rewrite !N.mod_small by lia. lia.
Qed.

Definition rd_of (cap : stream -> rcap) (n : N) : IM bytes := fun s =>
  match cap s with
  | CapPanic => (RPanic, s)
  | CapNone => t_read false n s
  | Cap c => if c =? 0 then (ROk [], s) else t_read false (N.min c n) s
  end.

Lemma b_read_rd n s : b_read n s = rd_of cap_blob n s.
Proof.
  unfold b_read, b_remaining, rd_of, cap_blob, mbind.
  assert (Hs : forall E1 E2, match @u64_sub E1 (s_dbg s) (s_blob_end s) (s_pos s), @u64_sub E2 (s_dbg s) (s_blob_end s) (s_pos s) with
               | ROk a, ROk b => a = b | RPanic, RPanic => True | _, _ => False end).
  { intros. unfold u64_sub. destruct (_ <=? _); [reflexivity|]. destruct (s_dbg s); auto. }
  destruct (u64_sub (s_dbg s) (s_blob_end s) (s_pos s)) as [c|e| |] eqn:E1; try reflexivity.
  - destruct (c =? 0) eqn:E0; [reflexivity|].
    replace (if c <? n then c else n) with (N.min c n); [reflexivity|].
    destruct (N.ltb_spec c n); lia.
  - exfalso. unfold u64_sub in E1. destruct (_ <=? _); [discriminate|]. destruct (s_dbg s); discriminate.
  - exfalso. unfold u64_sub in E1. destruct (_ <=? _); [discriminate|]. destruct (s_dbg s); discriminate.
Qed.

Lemma t_read_rd n s : t_read false n s = rd_of cap_none n s.
Proof. reflexivity. Qed.

(** ** Closed forms of the read loops *)

Definition avail (c : rcap) (s : stream) : N := cap_min c (lenN (rest s)).

(** [eof acc] is the result at end of input. *)
Definition rspec (eof : bytes -> res iokind bytes) (cap : stream -> rcap) (acc : bytes)
  (n : N) (s : stream) : res iokind bytes * stream :=
  if n =? 0 then (ROk acc, s)
  else match cap s with
       | CapPanic => (RPanic, s)
       | Cap 0 => (eof acc, s)
       | c =>
           if U64_MAX - s_pos s <? cap_min c n then (RErr IoOther, s)
           else if n <=? avail c s then (ROk (acc ++ takeN n (rest s)), adv n s)
           else (eof (acc ++ takeN (avail c s) (rest s)), adv (avail c s) s)
       end.

Fixpoint rloop (eof : bytes -> res iokind bytes) (rd : N -> IM bytes) (fuel : nat)
         (acc : bytes) (n : N) : IM bytes := fun s =>
  match fuel with
  | O => (RFuel, s)
  | Datatypes.S f =>
      if n =? 0 then (ROk acc, s)
      else match rd n s with
           | (ROk [], s') => (eof acc, s')
           | (ROk bs, s') => rloop eof rd f (acc ++ bs) (n - lenN bs) s'
           | (RErr IoInterrupted, s') => rloop eof rd f acc n s'
           | (RErr e, s') => (RErr e, s')
           | (RPanic, s') => (RPanic, s')
           | (RFuel, s') => (RFuel, s')
           end
  end.
Definition eof_err (_ : bytes) : res iokind bytes := RErr IoUnexpectedEof.
Definition eof_ok (acc : bytes) : res iokind bytes := ROk acc.

Lemma rloop_ext eof rd rd' : (forall n s, rd n s = rd' n s) ->
  forall fuel acc n s, rloop eof rd fuel acc n s = rloop eof rd' fuel acc n s.
Proof.
  intros He. induction fuel as [|f IH]; intros acc n s; [reflexivity|].
  cbn [rloop]. destruct (n =? 0); [reflexivity|]. rewrite He.
  destruct (rd' n s) as [[[|x l]|[]| |] s']; try reflexivity; apply IH.
Qed.

Lemma read_exact_rloop rd fuel : forall acc n s,
  read_exact_loop rd fuel acc n s = rloop eof_err rd fuel acc n s.
Proof.
  induction fuel as [|f IH]; intros acc n s; [reflexivity|].
  cbn [rloop read_exact_loop]. destruct (n =? 0); [reflexivity|].
  destruct (rd n s) as [[[|x l]|[]| |] s']; try reflexivity; apply IH.
Qed.
Lemma read_upto_rloop rd fuel : forall acc n s,
  read_upto_loop rd fuel acc n s = rloop eof_ok rd fuel acc n s.
Proof.
  induction fuel as [|f IH]; intros acc n s; [reflexivity|].
  cbn [rloop read_upto_loop]. destruct (n =? 0); [reflexivity|].
  destruct (rd n s) as [[[|x l]|[]| |] s']; try reflexivity; apply IH.
Qed.

(** One call of a capped reader that transfers data: [k] bytes, at least one
    unless the input is exhausted. *)
Lemma rd_of_cases cap n s r s' :
  n <> 0 -> rd_of cap n s = (r, s') ->
  (cap s = CapPanic /\ r = RPanic /\ s' = s) \/
  (cap s = Cap 0 /\ r = ROk [] /\ s' = s) \/
  (cap s <> CapPanic /\ cap s <> Cap 0 /\
   ((U64_MAX - s_pos s < cap_min (cap s) n /\ r = RErr IoOther /\ s' = s) \/
    (s_pos s + cap_min (cap s) n <= U64_MAX /\
     ((exists sc, sch s = EvIntr :: sc /\ r = RErr IoInterrupted /\ s' = set_sched sc s) \/
      (exists sc, sch s = EvFail :: sc /\ r = RErr IoOther /\ s' = set_sched sc s) \/
      (exists k sc, 1 <= k <= cap_min (cap s) n /\
          ((sch s = [] /\ sc = [] /\ k = cap_min (cap s) n) \/ exists c, sch s = EvShort c :: sc) /\
          r = ROk (takeN k (rest s)) /\ s' = adv (lenN (takeN k (rest s))) (set_sched sc s)))))).
Proof.
  intros Hn H. unfold rd_of in H.
  assert (Hgen : forall m, m <> 0 -> t_read false m s = (r, s') ->
     ((U64_MAX - s_pos s < m /\ r = RErr IoOther /\ s' = s) \/
      (s_pos s + m <= U64_MAX /\
       ((exists sc, sch s = EvIntr :: sc /\ r = RErr IoInterrupted /\ s' = set_sched sc s) \/
        (exists sc, sch s = EvFail :: sc /\ r = RErr IoOther /\ s' = set_sched sc s) \/
        (exists k sc, 1 <= k <= m /\
          ((sch s = [] /\ sc = [] /\ k = m) \/ exists c, sch s = EvShort c :: sc) /\
          r = ROk (takeN k (rest s)) /\ s' = adv (lenN (takeN k (rest s))) (set_sched sc s)))))).
  { intros m Hm Ht. rewrite t_read_eq in Ht by exact Hm. cbv beta zeta in Ht.
    destruct (N.ltb_spec (U64_MAX - s_pos s) m) as [Hov|Hov].
    - left. injection Ht as <- <-. auto.
    - right. split; [lia|]. destruct (sch s) as [|[c| |] sc] eqn:Es.
      + right. right. exists m, []. split; [lia|]. split; [left; auto|].
        assert (Hss : set_sched [] s = s).
        { rewrite <- Es. destruct s as [[? ? ?] ? ? ? ? ? ? ? ? ?]; reflexivity. }
        rewrite Hss. destruct (takeN m (rest s)) as [|x l]; injection Ht as <- <-; auto.
      + right. right. exists (N.min m (N.max 1 c)), sc. split; [lia|].
        split; [right; now exists c|].
        destruct (takeN (N.min m (N.max 1 c)) (rest s)) as [|x l]; injection Ht as <- <-; auto.
      + left. exists sc. injection Ht as <- <-. auto.
      + right. left. exists sc. injection Ht as <- <-. auto. }
  destruct (cap s) as [| |c] eqn:Ec.
  - left. injection H as <- <-. auto.
  - right. right. split; [congruence|]. split; [congruence|]. apply Hgen; auto.
  - destruct (N.eqb_spec c 0) as [->|Hc].
    + right. left. injection H as <- <-. auto.
    + right. right. split; [congruence|]. split; [congruence|].
      apply Hgen; [cbn; lia|exact H].
Qed.

Lemma rspec_step eof cap acc n s k :
  cap_good cap -> n <> 0 ->
  cap s <> CapPanic -> cap s <> Cap 0 -> s_pos s + cap_min (cap s) n <= U64_MAX ->
  1 <= k <= cap_min (cap s) n -> k <= lenN (rest s) ->
  rspec eof cap (acc ++ takeN k (rest s)) (n - k) (adv k s) = rspec eof cap acc n s.
Proof.
  intros [Hg _] Hn Hcp Hc0 Hov Hk Hlen.
  assert (Hckle : cap_le k (cap s)).
  { destruct (cap s); cbn in *; auto; try congruence. lia. }
  assert (Hcap := Hg s k Hckle).
  unfold rspec. rewrite Hcap by (destruct (cap s); cbn in *; lia). 
  change (s_pos (adv k s)) with (s_pos s + k).
  unfold avail. rewrite rest_adv, lenN_dropN.
  destruct (N.eqb_spec n 0) as [|_]; [congruence|].
  destruct (cap s) as [| |c] eqn:Ec; [congruence| |]; cbn [cap_sub cap_min] in *.
  - destruct (N.ltb_spec (U64_MAX - s_pos s) n) as [?|_]; [lia|].
    destruct (N.eqb_spec (n - k) 0) as [Hz|Hz].
    + assert (n = k) by lia. subst k.
      destruct (N.leb_spec n (lenN (rest s))) as [_|?]; [|lia]. reflexivity.
    + destruct (N.ltb_spec (U64_MAX - (s_pos s + k)) (n - k)) as [?|_]; [lia|].
      destruct (N.leb_spec n (lenN (rest s))) as [H1|H1];
        destruct (N.leb_spec (n - k) (lenN (rest s) - k)) as [H2|H2]; try lia.
      * replace (takeN n (rest s)) with (takeN (k + (n - k)) (rest s)) by (f_equal; lia).
        rewrite takeN_add, app_assoc, adv_adv. do 2 f_equal. lia.
      * rewrite adv_adv, <- app_assoc. rewrite <- takeN_add.
        replace (k + (lenN (rest s) - k)) with (lenN (rest s)) by lia. reflexivity.
  - destruct (N.eqb_spec c 0) as [->|Hcn]; [congruence|]. destruct c as [|c]; [congruence|].
    destruct (N.ltb_spec (U64_MAX - s_pos s) (N.min (N.pos c) n)) as [?|_]; [lia|].
    destruct (N.eqb_spec (n - k) 0) as [Hz|Hz].
    + assert (n = k) by lia. subst k.
      destruct (N.leb_spec n (N.min (N.pos c) (lenN (rest s)))) as [_|?]; [|lia]. reflexivity.
    + destruct (N.pos c - k) as [|c'] eqn:Eck.
      * destruct (N.leb_spec n (N.min (N.pos c) (lenN (rest s)))) as [?|?]; [lia|].
        replace (N.min (N.pos c) (lenN (rest s))) with k by lia. reflexivity.
      * destruct (N.ltb_spec (U64_MAX - (s_pos s + k)) (N.min (N.pos c') (n - k))) as [?|_]; [lia|].
        destruct (N.leb_spec n (N.min (N.pos c) (lenN (rest s)))) as [H1|H1];
        destruct (N.leb_spec (n - k) (N.min (N.pos c') (lenN (rest s) - k))) as [H2|H2]; try lia.
        -- replace (takeN n (rest s)) with (takeN (k + (n - k)) (rest s)) by (f_equal; lia).
           rewrite takeN_add, app_assoc, adv_adv. do 2 f_equal. lia.
        -- rewrite adv_adv, <- app_assoc. rewrite <- takeN_add.
           replace (k + N.min (N.pos c') (lenN (rest s) - k)) with (N.min (N.pos c) (lenN (rest s))) by lia.
           reflexivity.
Qed.

Lemma set_sched_same s : set_sched (sch s) s = s.
Proof. destruct s as [[? ? ?] ? ? ? ? ? ? ? ? ?]; reflexivity. Qed.

Definition same_or_surf {A} (spec : res iokind A * stream) (r : res iokind A) (s s' : stream) : Prop :=
  (spec = (r, strip s') /\ (benign s -> benign s')) \/
  (~ benign s /\ exists e, r = RErr e /\ surf_io e).

Lemma cap_strip cap s : cap_good cap -> cap (strip s) = cap s.
Proof. intros [_ H]. apply (H s []). Qed.

Lemma rloop_sim eof cap : cap_good cap -> forall fuel acc n s r s',
  (2 + length (sch s) <= fuel)%nat ->
  rloop eof (rd_of cap) fuel acc n s = (r, s') ->
  same_or_surf (rspec eof cap acc n (strip s)) r s s'.
Proof.
  intros Hg. induction fuel as [|fuel IH]; intros acc n s r s' Hf H; [lia|].
  cbn [rloop] in H.
  destruct (N.eqb_spec n 0) as [->|Hn].
  { injection H as <- <-. left. split; [reflexivity|auto]. }
  destruct (rd_of cap n s) as [r1 s1] eqn:E1.
  destruct (rd_of_cases cap n s r1 s1 Hn E1) as
    [(Hc & -> & ->)|[(Hc & -> & ->)|(Hc1 & Hc2 & [(Hov & -> & ->)|(Hov & Hcases)])]].
  - injection H as <- <-. left. split; [|auto]. unfold rspec.
    destruct (N.eqb_spec n 0); [congruence|]. now rewrite (cap_strip cap s Hg), Hc.
  - injection H as <- <-. left. split; [|auto]. unfold rspec.
    destruct (N.eqb_spec n 0); [congruence|]. now rewrite (cap_strip cap s Hg), Hc.
  - injection H as <- <-. left. split; [|auto]. unfold rspec.
    destruct (N.eqb_spec n 0); [congruence|]. rewrite (cap_strip cap s Hg).
    change (s_pos (strip s)) with (s_pos s).
    destruct (cap s) as [| |[|c]]; try congruence;
      (match goal with |- (if ?b then _ else _) = _ => destruct b eqn:Eb end; [reflexivity|lia]).
  - destruct Hcases as [(sc & Es & -> & ->)|[(sc & Es & -> & ->)|(k & sc & Hk & Hsc & -> & ->)]].
    + apply IH in H; [|unfold sch in *; rewrite Es in Hf; cbn in *; lia].
      destruct H as [[Heq Hb]|(Hnb & Hr)].
      * left. split; [exact Heq|]. intros Hbs. apply Hb. eapply benign_tl; eauto.
      * right. split; [|exact Hr]. intros Hbs. apply Hnb. eapply benign_tl; eauto.
    + injection H as <- <-. right. split; [eapply not_benign; eauto|]. now exists IoOther.
    + assert (Hbn : benign s -> benign (adv (lenN (takeN k (rest s))) (set_sched sc s))).
      { intros Hbs. destruct Hsc as [(Es & -> & _)|(c & Es)]; [constructor|].
        eapply benign_tl; eauto. }
      assert (Hss : strip (adv (lenN (takeN k (rest s))) (set_sched sc s)) = adv (lenN (takeN k (rest s))) (strip s))
        by reflexivity.
      destruct (N.leb_spec k (lenN (rest s))) as [Hkl|Hkl].
      * assert (Hlk : lenN (takeN k (rest s)) = k) by (rewrite lenN_takeN; lia).
        destruct (takeN k (rest s)) as [|x l] eqn:Et; [rewrite lenN_nil in Hlk; lia|].
        rewrite Hlk in *. rewrite <- Et in H.
        assert (Hlast : n = k \/ sch s = [] /\ k < n \/ (length sc < length (sch s))%nat).
        { destruct Hsc as [(Es & -> & Hkeq)|(c & Es)].
          - destruct (N.eqb_spec n k); [auto|]. right; left. split; [exact Es|].
            destruct (cap s); cbn in *; lia.
          - right; right. rewrite Es. cbn; lia. }
        assert (Hres : forall r0 s0, rloop eof (rd_of cap) fuel (acc ++ takeN k (rest s)) (n - k)
                          (adv k (set_sched sc s)) = (r0, s0) ->
                 same_or_surf (rspec eof cap (acc ++ takeN k (rest s)) (n - k) (adv k (strip s)))
                              r0 (adv k (set_sched sc s)) s0).
        { intros r0 s0 H0.
          destruct Hlast as [->|[(Es & Hlt)|Hlt]].
          - rewrite N.sub_diag in *. destruct fuel as [|fuel]; [lia|]. cbn in H0.
            injection H0 as <- <-. left. split; [reflexivity|auto].
          - (* everything available was read: the next read returns nothing *)
            destruct Hsc as [(_ & -> & Hkeq)|(c & Es')]; [|congruence].
            destruct (cap s) as [| |c] eqn:Ec; cbn in Hkeq; [congruence|lia|].
            assert (Hcap : cap (adv k (strip s)) = Cap 0).
            { pose proof (cap_strip cap s Hg) as Hstr.
              destruct Hg as [Hg1 Hg2]. rewrite Hg1.
              - rewrite Hstr, Ec. cbn. f_equal. lia.
              - rewrite Hstr, Ec. cbn. lia.
              - cbn in *. lia. }
            destruct fuel as [|fuel]; [lia|]. cbn [rloop] in H0.
            destruct (N.eqb_spec (n - k) 0) as [?|Hz]; [lia|].
            unfold rd_of in H0. change (adv k (set_sched [] s)) with (adv k (strip s)) in H0.
            rewrite Hcap in H0. cbn in H0. injection H0 as <- <-. left. split; [|auto].
            unfold rspec. destruct (N.eqb_spec (n - k) 0) as [?|_]; [lia|]. now rewrite Hcap.
          - apply IH in H0; [|unfold sch in *; cbn in *; lia]. exact H0. }
        apply Hres in H. clear Hres.
        change (rest s) with (rest (strip s)) in H.
        rewrite rspec_step in H; try assumption; try (rewrite (cap_strip cap s Hg); assumption).
        destruct H as [[Heq Hb]|(Hnb & Hr)].
        -- left. split; auto.
        -- right. split; auto.
      * (* the input ends here *)
        assert (Htk : takeN k (rest s) = rest s) by (apply takeN_all; lia).
        rewrite Htk in *.
        assert (Hspec : rspec eof cap acc n (strip s) = (eof (acc ++ rest s), adv (lenN (rest s)) (strip s))).
        { unfold rspec. destruct (N.eqb_spec n 0); [congruence|].
          rewrite (cap_strip cap s Hg). change (s_pos (strip s)) with (s_pos s).
          unfold avail. rewrite rest_strip.
          destruct (cap s) as [| |c] eqn:Ec; cbn [cap_min] in *; [congruence| |].
          - destruct (N.ltb_spec (U64_MAX - s_pos s) n); [lia|].
            destruct (N.leb_spec n (lenN (rest s))); [lia|]. now rewrite takeN_all by lia.
          - destruct c as [|c]; [congruence|].
            destruct (N.ltb_spec (U64_MAX - s_pos s) (N.min (N.pos c) n)); [lia|].
            destruct (N.leb_spec n (N.min (N.pos c) (lenN (rest s)))); [lia|].
            replace (N.min (N.pos c) (lenN (rest s))) with (lenN (rest s)) by lia.
            now rewrite takeN_all by lia. }
        destruct (rest s) as [|x l] eqn:Er.
        -- injection H as <- <-. left. split; [|exact Hbn]. rewrite Hspec, app_nil_r. reflexivity.
        -- rewrite <- Er in *.
           assert (Hnil : rest (adv (lenN (rest s)) (set_sched sc s)) = []).
           { change (rest (adv (lenN (rest s)) s) = []). rewrite rest_adv. apply dropN_all. lia. }
           set (s2 := adv (lenN (rest s)) (set_sched sc s)) in *.
           assert (Hcap2 : cap s2 = cap_sub (cap s) (lenN (rest s))).
           { destruct Hg as [Hg1 Hg2]. unfold s2.
             change (adv (lenN (rest s)) (set_sched sc s)) with (set_sched sc (adv (lenN (rest s)) s)).
             rewrite Hg2, Hg1; [reflexivity| |].
             - destruct (cap s); cbn in *; auto; lia.
             - destruct (cap s); cbn in *; lia. }
           assert (Hsp2 : rspec eof cap (acc ++ rest s) (n - lenN (rest s)) (strip s2) =
                          (eof (acc ++ rest s), strip s2)).
           { unfold rspec. destruct (N.eqb_spec (n - lenN (rest s)) 0).
             { destruct (cap s); cbn in *; lia. }
             rewrite (cap_strip cap s2 Hg), Hcap2. unfold avail. change (rest (strip s2)) with (rest s2). rewrite Hnil. change (lenN (@nil N)) with 0.
             change (s_pos (strip s2)) with (s_pos s + lenN (rest s)).
             destruct (cap s) as [| |c] eqn:Ec; cbn [cap_sub cap_min] in *; [congruence| |].
             - destruct (N.ltb_spec (U64_MAX - (s_pos s + lenN (rest s))) (n - lenN (rest s))); [lia|].
               destruct (N.leb_spec (n - lenN (rest s)) 0); [lia|]. now rewrite takeN_0, adv_0, app_nil_r.
             - destruct (c - lenN (rest s)) as [|c'] eqn:Ecc; [reflexivity|].
               destruct (N.ltb_spec (U64_MAX - (s_pos s + lenN (rest s))) (N.min (N.pos c') (n - lenN (rest s)))); [lia|].
               destruct (N.leb_spec (n - lenN (rest s)) (N.min (N.pos c') 0)); [lia|].
               now rewrite N.min_0_r, adv_0, takeN_0, app_nil_r. }
           assert (Hfin : same_or_surf (rspec eof cap (acc ++ rest s) (n - lenN (rest s)) (strip s2)) r s2 s').
           { destruct Hsc as [(Es & -> & Hkeq)|(c & Es)].
             - (* no schedule: one more read *)
               destruct fuel as [|fuel]; [lia|]. cbn [rloop] in H.
               destruct (N.eqb_spec (n - lenN (rest s)) 0) as [Hz|Hz].
               { destruct (cap s); cbn in *; lia. }
               rewrite Hsp2.
               destruct (rd_of cap (n - lenN (rest s)) s2) as [r2 s3] eqn:E2.
               assert (E3 : r2 = ROk [] /\ s3 = s2).
               { destruct (rd_of_cases cap _ s2 r2 s3 Hz E2) as
                   [(Hc & -> & ->)|[(Hc & -> & ->)|(_ & _ & [(Hov2 & -> & ->)|(Hov2 & Hcs)])]].
                 - rewrite Hcap2 in Hc. destruct (cap s); cbn in Hc; congruence.
                 - auto.
                 - exfalso. rewrite Hcap2 in Hov2. unfold s2 in Hov2. cbn in Hov2.
                   destruct (cap s); cbn in *; lia.
                 - destruct Hcs as [(sc & Es2 & _)|[(sc & Es2 & _)|(k2 & sc2 & Hk2 & Hsc2 & -> & ->)]].
                   + discriminate.
                   + discriminate.
                   + destruct Hsc2 as [(_ & -> & _)|(c & Es2)]; [|discriminate].
                     rewrite Hnil. cbn. split; [reflexivity|].
                     change (adv 0 (set_sched (sch s2) s2) = s2). now rewrite adv_0, set_sched_same. }
               destruct E3 as [-> ->]. injection H as <- <-. left. split; [reflexivity|auto].
             - apply IH in H; [exact H|].
               unfold s2, sch in *; cbn in *. rewrite Es in Hf. cbn in Hf. lia. }
           rewrite Hsp2 in Hfin. rewrite Hspec.
           destruct Hfin as [[Heq Hb]|(Hnb & Hr)].
           ++ left. split; [exact Heq|]. auto.
           ++ right. split; auto.
Qed.

(** ** Closed form of the write loop *)

Definition wr (w : bytes) (s : stream) : stream :=
  set_pos_ (s_pos s + lenN w)
    (set_dev (mkDev (put_at (d_data (s_dev s)) (d_pos (s_dev s)) w)
                    (d_pos (s_dev s) + lenN w) (sch s)) s).

Lemma put_at_shape d p : exists pre,
  lenN pre = p /\ (forall x, put_at d p x = pre ++ x ++ dropN (p + lenN x) d).
Proof.
  exists (takeN p d ++ repeat 0 (N.to_nat (p - lenN d))). split.
  - rewrite lenN_app, lenN_takeN, lenN_repeat. lia.
  - intros x. unfold put_at. now rewrite <- app_assoc.
Qed.

Lemma put_at_app d p a b : put_at (put_at d p a) (p + lenN a) b = put_at d p (a ++ b).
Proof.
  destruct (put_at_shape d p) as (pre & Hpre & Hsh). rewrite !Hsh. unfold put_at.
  assert (Hl : lenN ((pre ++ a) ++ dropN (p + lenN a) d) = p + lenN a + (lenN d - (p + lenN a))).
  { rewrite lenN_app, lenN_app, lenN_dropN, Hpre. reflexivity. }
  rewrite (app_assoc pre a). rewrite Hl.
  replace (p + lenN a - (p + lenN a + (lenN d - (p + lenN a)))) with 0 by lia.
  change (repeat 0 (N.to_nat 0)) with (@nil N). cbn [app].
  rewrite takeN_app_l by (rewrite lenN_app; lia).
  rewrite takeN_all by (rewrite lenN_app; lia).
  rewrite dropN_app. rewrite (dropN_all _ (pre ++ a)) by (rewrite lenN_app; lia).
  rewrite lenN_app, Hpre, dropN_dropN, lenN_app. cbn [app]. rewrite <- !app_assoc.
  do 4 f_equal. lia.
Qed.

Lemma wr_wr a b s : wr b (wr a s) = wr (a ++ b) s.
Proof.
  destruct s as [[d p sc] ? ? ? ? ? ? ? ? ?]. unfold wr, sch; scbn. rewrite put_at_app, lenN_app.
  now rewrite !N.add_assoc.
Qed.

Lemma t_write_eq bs s : bs <> [] ->
  t_write bs s =
  if U64_MAX - s_pos s <? lenN bs then (RErr IoOther, s)
  else match sch s with
       | [] => (ROk (lenN bs), wr bs s)
       | EvShort c :: r => let w := takeN (N.min (lenN bs) (N.max 1 c)) bs in
                           (ROk (lenN w), wr w (set_sched r s))
       | EvIntr :: r => (RErr IoInterrupted, set_sched r s)
       | EvFail :: r => (RErr IoOther, set_sched r s)
       end.
Proof.
  intros Hn. unfold t_write. destruct bs as [|x l]; [congruence|].
  unfold mbind, check_advance_pos. destruct (U64_MAX - s_pos s <? lenN (x :: l)); [reflexivity|].
  unfold on_dev, dev_write, sched_next, sch.
  destruct s as [[da p sc] ? ? ? ? ? ? ? ? ?]; cbn [s_dev d_sched d_data d_pos].
  destruct sc as [|[c| |] r]; cbn [d_data d_pos d_sched]; unfold mmod, mret, wr, set_sched, set_dev, set_pos_;
    scbn; try reflexivity.
  rewrite (takeN_all (lenN (x :: l))) by lia. reflexivity.
Qed.

Definition wr_of (cap : stream -> rcap) (bs : bytes) : IM N := fun s =>
  match cap s with
  | CapPanic => (RPanic, s)
  | CapNone => t_write bs s
  | Cap c => t_write (takeN c bs) s
  end.
Lemma t_write_wr bs s : t_write bs s = wr_of cap_none bs s.
Proof. reflexivity. Qed.

Lemma u64_sub_E {E1 E2 B} dbg a b (f : N -> B) (p : B) :
  match @u64_sub E1 dbg a b with ROk c => f c | _ => p end =
  match @u64_sub E2 dbg a b with ROk c => f c | _ => p end.
Proof. unfold u64_sub. destruct (b <=? a); [reflexivity|]. destruct dbg; reflexivity. Qed.

Lemma b_write_wr bs s : b_write bs s = wr_of cap_blob bs s.
Proof.
  unfold b_write, b_remaining, wr_of, cap_blob, mbind.
  destruct (u64_sub (s_dbg s) (s_blob_end s) (s_pos s)) as [c|e| |] eqn:E1; try reflexivity;
    exfalso; unfold u64_sub in E1; (destruct (_ <=? _); [discriminate|]); destruct (s_dbg s); discriminate.
Qed.

Definition cap_take (c : rcap) (bs : bytes) : bytes :=
  match c with Cap c => takeN c bs | _ => bs end.

Definition wspec (cap : stream -> rcap) (bs : bytes) (s : stream) : res iokind unit * stream :=
  match bs with
  | [] => (ROk tt, s)
  | _ =>
      match cap s with
      | CapPanic => (RPanic, s)
      | c =>
          let w := cap_take c bs in
          match w with
          | [] => (RErr IoWriteZero, s)
          | _ => if U64_MAX - s_pos s <? lenN w then (RErr IoOther, s)
                 else if lenN w =? lenN bs then (ROk tt, wr w s)
                 else (RErr IoWriteZero, wr w s)
          end
      end
  end.

Lemma write_all_loop_ext f g : (forall bs s, f bs s = g bs s) ->
  forall fuel bs s, write_all_loop (S := stream) f fuel bs s = write_all_loop g fuel bs s.
Proof.
  intros He. induction fuel as [|fuel IH]; intros bs s; [reflexivity|].
  cbn [write_all_loop]. destruct bs as [|x l]; [reflexivity|]. rewrite He.
  destruct (g (x :: l) s) as [[n|[]| |] s']; try reflexivity; try apply IH.
  destruct (n =? 0); [reflexivity|apply IH].
Qed.

Definition cap_good_w (cap : stream -> rcap) : Prop :=
  (forall s w, cap_le (lenN w) (cap s) -> s_pos s + lenN w <= U64_MAX ->
     cap (wr w s) = cap_sub (cap s) (lenN w)) /\
  (forall s sc, cap (set_sched sc s) = cap s).
Lemma cap_none_good_w : cap_good_w cap_none.
Proof. split; reflexivity. Qed.
Lemma cap_blob_good_w : cap_good_w cap_blob.
Proof.
  split; [|reflexivity]. intros s w H1 H2. destruct cap_blob_good as [H _].
  rewrite <- (H s (lenN w) H1 H2). reflexivity.
Qed.

Lemma cap_take_len (cap : stream -> rcap) s bs : lenN (cap_take (cap s) bs) = cap_min (cap s) (lenN bs) \/ cap s = CapPanic.
Proof. destruct (cap s) as [| |c]; [now right|now left|left]. cbn. rewrite lenN_takeN. lia. Qed.

Lemma wspec_step cap bs s k :
  cap_good_w cap -> cap s <> CapPanic -> 1 <= k ->
  k <= lenN (cap_take (cap s) bs) -> s_pos s + lenN (cap_take (cap s) bs) <= U64_MAX ->
  wspec cap (dropN k bs) (wr (takeN k bs) s) = wspec cap bs s.
Proof.
  intros [Hg _] Hcp Hk1 Hk Hov.
  assert (Hkb : k <= lenN bs).
  { destruct (cap s); cbn in *; rewrite ?lenN_takeN in *; lia. }
  assert (Hlk : lenN (takeN k bs) = k) by (rewrite lenN_takeN; lia).
  assert (Hcap : cap (wr (takeN k bs) s) = cap_sub (cap s) k).
  { rewrite Hg; rewrite Hlk; [reflexivity| |].
    - destruct (cap s); cbn in *; rewrite ?lenN_takeN in *; auto; lia.
    - lia. }
  assert (Hld : lenN (dropN k bs) = lenN bs - k) by apply lenN_dropN.
  unfold wspec at 2. destruct bs as [|b0 bs0]; [rewrite lenN_nil in Hkb; lia|].
  set (bs := b0 :: bs0) in *.
  assert (Hmain : forall w, cap_take (cap s) bs = w -> cap s <> CapPanic ->
     wspec cap (dropN k bs) (wr (takeN k bs) s) =
     (if lenN w =? lenN bs then (ROk tt, wr w s) else (RErr IoWriteZero, wr w s))).
  { intros w Hw _. rewrite Hw in *.
    assert (Hwk : w = takeN k bs ++ cap_take (cap_sub (cap s) k) (dropN k bs)).
    { rewrite <- Hw. destruct (cap s) as [| |c] eqn:Ec; [congruence| |]; cbn [cap_take cap_sub] in *.
      - symmetry; apply takeN_dropN.
      - assert (k <= c). { rewrite <- Hw, lenN_takeN in Hk. lia. }
        replace c with (k + (c - k)) at 1 by lia. now rewrite takeN_add. }
    unfold wspec. destruct (dropN k bs) as [|y l] eqn:Ed.
    - rewrite lenN_nil in Hld. assert (k = lenN bs) by lia.
      assert (Hwt : w = takeN k bs).
      { rewrite Hwk. destruct (cap_sub (cap s) k); cbn; now rewrite app_nil_r. }
      rewrite <- Hwt. replace (lenN w =? lenN bs) with true; [reflexivity|].
      rewrite Hwt, Hlk. symmetry. apply N.eqb_eq. lia.
    - rewrite <- Ed in *. rewrite Hcap.
      set (w2 := cap_take (cap_sub (cap s) k) (dropN k bs)) in *.
      assert (Hw2 : lenN w = k + lenN w2) by (rewrite Hwk, lenN_app, Hlk; reflexivity).
      assert (Hgoal : match w2 with
               | [] => (RErr IoWriteZero, wr (takeN k bs) s)
               | _ => if U64_MAX - s_pos (wr (takeN k bs) s) <? lenN w2 then (RErr IoOther, wr (takeN k bs) s)
                      else if lenN w2 =? lenN (dropN k bs) then (ROk tt, wr w2 (wr (takeN k bs) s))
                      else (RErr IoWriteZero, wr w2 (wr (takeN k bs) s)) end =
               (if lenN w =? lenN bs then (ROk tt, wr w s) else (RErr IoWriteZero, wr w s))).
      { destruct w2 as [|z m] eqn:Ew2.
        - rewrite app_nil_r in Hwk. rewrite Hwk.
          destruct (N.eqb_spec (lenN (takeN k bs)) (lenN bs)) as [He|He]; [|reflexivity].
          exfalso. assert (lenN (dropN k bs) = 0) by lia. rewrite Ed, lenN_cons in H. lia.
        - rewrite <- Ew2 in *. change (s_pos (wr (takeN k bs) s)) with (s_pos s + lenN (takeN k bs)).
          rewrite Hlk. destruct (N.ltb_spec (U64_MAX - (s_pos s + k)) (lenN w2)); [lia|].
          rewrite wr_wr, <- Hwk.
          destruct (N.eqb_spec (lenN w2) (lenN (dropN k bs))); destruct (N.eqb_spec (lenN w) (lenN bs)); try lia; reflexivity. }
      destruct (cap s) as [| |c]; [congruence| |]; cbn [cap_sub] in *; exact Hgoal. }
  assert (Hcases : cap s <> CapPanic) by exact Hcp.
  destruct (cap s) as [| |c] eqn:Ec; [congruence| |].
  - rewrite (Hmain bs eq_refl) by congruence. cbn [cap_take] in *. unfold bs at 4.
    destruct (N.ltb_spec (U64_MAX - s_pos s) (lenN bs)); [lia|]. reflexivity.
  - rewrite (Hmain (takeN c bs) eq_refl) by congruence. cbn [cap_take] in *. cbv zeta.
    destruct (takeN c bs) as [|z m] eqn:Et; [rewrite lenN_nil in Hk; lia|]. rewrite <- Et in *.
    destruct (N.ltb_spec (U64_MAX - s_pos s) (lenN (takeN c bs))); [lia|]. reflexivity.
Qed.

Lemma write_all_loop_sim cap : cap_good_w cap -> forall fuel bs s r s',
  (2 + length (sch s) <= fuel)%nat ->
  write_all_loop (wr_of cap) fuel bs s = (r, s') ->
  same_or_surf (wspec cap bs (strip s)) r s s'.
Proof.
  intros Hg. pose proof Hg as [Hg1 Hg2].
  assert (Hstr : forall s, cap (strip s) = cap s) by (intros s0; apply (Hg2 s0 [])).
  induction fuel as [|fuel IH]; intros bs s r s' Hf H; [lia|].
  cbn [write_all_loop] in H.
  destruct bs as [|b0 bs0]; [injection H as <- <-; left; split; auto; reflexivity|].
  set (bs := b0 :: bs0) in *.
  assert (Hd : cap s = CapPanic \/ cap s <> CapPanic) by (destruct (cap s); auto; right; discriminate).
  destruct Hd as [Ec|Hcp].
  { unfold wr_of in H. rewrite Ec in H. injection H as <- <-. left. split; [|auto].
    unfold wspec, bs. now rewrite Hstr, Ec. }
  assert (Hwr : wr_of cap bs s = t_write (cap_take (cap s) bs) s).
  { unfold wr_of. destruct (cap s); [congruence|reflexivity|reflexivity]. }
  rewrite Hwr in H; clear Hwr.
  assert (Hwsp : wspec cap bs (strip s) =
          match cap_take (cap s) bs with
          | [] => (RErr IoWriteZero, strip s)
          | _ => if U64_MAX - s_pos s <? lenN (cap_take (cap s) bs) then (RErr IoOther, strip s)
                 else if lenN (cap_take (cap s) bs) =? lenN bs then (ROk tt, wr (cap_take (cap s) bs) (strip s))
                 else (RErr IoWriteZero, wr (cap_take (cap s) bs) (strip s))
          end) by (unfold wspec, bs; rewrite Hstr; destruct (cap s); [congruence|reflexivity|reflexivity]).
  assert (Hpre : exists c', cap_take (cap s) bs = takeN c' bs /\ c' = lenN (cap_take (cap s) bs) /\
          (c' < lenN bs -> cap s = Cap c')).
  { destruct (cap s) as [| |c]; [congruence| |]; cbn [cap_take].
    - exists (lenN bs). rewrite takeN_all by lia. repeat split. lia.
    - destruct (N.leb_spec c (lenN bs)).
      + exists c. rewrite lenN_takeN. repeat split. lia.
      + exists (lenN bs). rewrite !takeN_all by lia. repeat split. lia. }
  destruct Hpre as (c' & Hwt & Hc' & Hcapw).
  set (w := cap_take (cap s) bs) in *.
  assert (Hw : cap_take (cap s) bs = w) by reflexivity. clearbody w.
  assert (Hd : w = [] \/ w <> []) by (destruct w; [now left|right; discriminate]).
  destruct Hd as [->|Hwne].
  { cbn in H; injection H as <- <-; left; split; [exact Hwsp|auto]. }
  assert (Hwlen : 1 <= lenN w) by (destruct w; [congruence|rewrite lenN_cons; lia]).
  rewrite t_write_eq in H by exact Hwne.
  destruct (N.ltb_spec (U64_MAX - s_pos s) (lenN w)) as [Hov|Hov].
  { injection H as <- <-; left; split; [|auto]. rewrite Hwsp. destruct w; [congruence|reflexivity]. }
  assert (Hwsp' : wspec cap bs (strip s) =
      if lenN w =? lenN bs then (ROk tt, wr w (strip s)) else (RErr IoWriteZero, wr w (strip s))).
  { rewrite Hwsp. destruct w; [congruence|reflexivity]. }
  clear Hwsp. assert (Hwb : lenN w <= lenN bs) by (rewrite Hwt, lenN_takeN; lia).
  destruct (sch s) as [|[c2| |] sc] eqn:Es.
  - destruct (N.eqb_spec (lenN w) 0) as [?|_]; [lia|].
    destruct fuel as [|fuel]; [lia|].
    cbn [write_all_loop] in H.
    assert (Hld : lenN (dropN (lenN w) bs) = lenN bs - lenN w) by apply lenN_dropN.
    destruct (dropN (lenN w) bs) as [|y l] eqn:Ed.
    + rewrite lenN_nil in Hld. injection H as <- <-. left. split; [|auto].
      rewrite Hwsp'. destruct (N.eqb_spec (lenN w) (lenN bs)); [reflexivity|lia].
    + rewrite lenN_cons in Hld.
      assert (Hcs : cap s = Cap (lenN w)) by (rewrite <- Hc'; apply Hcapw; lia).
      assert (Hc0 : cap (wr w s) = Cap 0).
      { rewrite Hg1; [rewrite Hcs; cbn; f_equal; lia|rewrite Hcs; cbn; lia|lia]. }
      unfold wr_of in H. rewrite Hc0 in H. cbn in H. injection H as <- <-.
      left. split; [|auto]. rewrite Hwsp'.
      destruct (N.eqb_spec (lenN w) (lenN bs)); [lia|reflexivity].
  - cbv zeta in H. set (k := N.min (lenN w) (N.max 1 c2)) in *.
    assert (Hkw : lenN (takeN k w) = k) by (rewrite lenN_takeN; lia).
    rewrite Hkw in H. destruct (N.eqb_spec k 0) as [?|_]; [lia|].
    assert (Htk : takeN k w = takeN k bs) by (rewrite Hwt, takeN_takeN; f_equal; lia).
    rewrite Htk in H. apply IH in H; [|unfold sch in *; cbn in *; lia].
    change (strip (wr (takeN k bs) (set_sched sc s))) with (wr (takeN k bs) (strip s)) in H.
    rewrite wspec_step in H; [|exact Hg|rewrite Hstr; exact Hcp|lia|rewrite Hstr, Hw; lia
                              |rewrite Hstr, Hw; cbn; lia].
    destruct H as [[Heq Hb]|(Hnb & Hr)].
    + left; split; [exact Heq|]. intros Hbs; apply Hb; eapply benign_tl; eauto.
    + right; split; [|exact Hr]; intros Hbs; apply Hnb; eapply benign_tl; eauto.
  - apply IH in H; [|unfold sch in *; cbn in *; lia].
    destruct H as [[Heq Hb]|(Hnb & Hr)].
    + left; split; [exact Heq|]; intros Hbs; apply Hb; eapply benign_tl; eauto.
    + right; split; [|exact Hr]; intros Hbs; apply Hnb; eapply benign_tl; eauto.
  - injection H as <- <-; right; split; [eapply not_benign; eauto|exists IoOther; split; reflexivity].
Qed.

(** ** The operations *)

Lemma rspec_same eof cap n fuel rd : cap_good cap -> (forall n s, rd n s = rd_of cap n s) ->
  forall acc s r s', (2 + length (sch s) <= fuel)%nat -> rloop eof rd fuel acc n s = (r, s') ->
  same_or_surf (rspec eof cap acc n (strip s)) r s s'.
Proof.
  intros Hg He acc s r s' Hf H. rewrite (rloop_ext eof rd (rd_of cap) He) in H.
  now apply (rloop_sim eof cap Hg fuel).
Qed.

(** On a device without schedule the loop equals its closed form. *)
Lemma rloop_clean eof cap rd n acc s fuel :
  cap_good cap -> (forall n s, rd n s = rd_of cap n s) -> sch s = [] -> (2 <= fuel)%nat ->
  rloop eof rd fuel acc n s = rspec eof cap acc n s.
Proof.
  intros Hg He Hs Hf. destruct (rloop eof rd fuel acc n s) as [r s'] eqn:E.
  pose proof (rspec_same eof cap n fuel rd Hg He acc s r s') as H.
  destruct H as [[Heq Hb]|(Hnb & _)]; [rewrite Hs; cbn; lia|exact E| |].
  - rewrite (strip_of_clean s Hs) in Heq. rewrite Heq. f_equal.
    rewrite (rloop_ext eof rd (rd_of cap) He) in E.
    (* the result state of the closed form has no schedule *)
    assert (Hc : strip s' = strip s' /\ sch (strip s') = []) by (split; reflexivity).
    assert (Hsch : forall s0 s0', sch s0 = [] -> forall fuel acc n r, 
        rloop eof (rd_of cap) fuel acc n s0 = (r, s0') -> sch s0' = []).
    { intros s0 s0' H0 fuel0. revert s0 s0' H0.
      induction fuel0 as [|f IH]; intros s0 s0' H0 acc0 n0 r0 H1; cbn [rloop] in H1.
      - injection H1 as _ <-. exact H0.
      - destruct (n0 =? 0) eqn:En; [injection H1 as _ <-; exact H0|].
        apply N.eqb_neq in En.
        destruct (rd_of cap n0 s0) as [r1 s1] eqn:E1.
        assert (Hs1 : sch s1 = []).
        { destruct (rd_of_cases cap n0 s0 r1 s1 En E1) as
            [(Hc1 & -> & ->)|[(Hc1 & -> & ->)|(_ & _ & [(Hov & -> & ->)|(Hov & Hcs)])]]; auto.
          destruct Hcs as [(sc & Es & _)|[(sc & Es & _)|(k & sc & Hk & Hsc & -> & ->)]]; try congruence.
          destruct Hsc as [(_ & -> & _)|(c & Es)]; [reflexivity|congruence]. }
        destruct r1 as [[|x l]|[]| |]; try (injection H1 as _ <-; exact Hs1);
          eapply IH; eauto. }
    symmetry. apply strip_of_clean. eapply Hsch; eauto.
  - exfalso. apply Hnb. unfold benign. rewrite Hs. constructor.
Qed.

Lemma read_exact_simio cap rd n : cap_good cap -> (forall n s, rd n s = rd_of cap n s) ->
  simio (read_exact sch rd n).
Proof.
  intros Hg He s r s' H. unfold read_exact in *. rewrite read_exact_rloop in *.
  assert (Hc : rloop eof_err rd (2 + length (sch (strip s))) [] n (strip s) =
               rspec eof_err cap [] n (strip s)).
  { apply (rloop_clean _ cap); auto. }
  rewrite Hc. apply (rspec_same eof_err cap n _ rd Hg He) in H; [exact H|lia].
Qed.

Lemma read_upto_simio cap rd n : cap_good cap -> (forall n s, rd n s = rd_of cap n s) ->
  simio (read_upto sch rd n).
Proof.
  intros Hg He s r s' H. unfold read_upto in *. rewrite read_upto_rloop in *.
  assert (Hc : rloop eof_ok rd (2 + length (sch (strip s))) [] n (strip s) =
               rspec eof_ok cap [] n (strip s)).
  { apply (rloop_clean _ cap); auto. }
  rewrite Hc. apply (rspec_same eof_ok cap n _ rd Hg He) in H; [exact H|lia].
Qed.

Lemma write_all_clean cap f bs s : cap_good_w cap -> (forall bs s, f bs s = wr_of cap bs s) ->
  sch s = [] -> write_all sch f bs s = wspec cap bs s.
Proof.
  intros Hg He Hs. unfold write_all. rewrite (write_all_loop_ext f (wr_of cap) He).
  destruct (write_all_loop (wr_of cap) (2 + length (sch s)) bs s) as [r s'] eqn:E.
  pose proof (write_all_loop_sim cap Hg _ bs s r s' (le_n _) E) as H.
  destruct H as [[Heq Hb]|(Hnb & _)].
  - rewrite (strip_of_clean s Hs) in Heq. rewrite Heq. f_equal.
    symmetry. apply strip_of_clean.
    rewrite Hs in E. cbn [length Nat.add] in E. 
    assert (Hsch : forall fuel s0 s0' bs r, sch s0 = [] -> 
        write_all_loop (wr_of cap) fuel bs s0 = (r, s0') -> sch s0' = []).
    { induction fuel as [|fu IH]; intros s0 s0' bs0 r0 H0 H1; cbn [write_all_loop] in H1.
      - injection H1 as _ <-. exact H0.
      - destruct bs0 as [|b0 l0]; [injection H1 as _ <-; exact H0|].
        destruct (wr_of cap (b0 :: l0) s0) as [r1 s1] eqn:E1.
        assert (Ht : forall x, t_write x s0 = (r1, s1) -> sch s1 = []).
        { intros x Hx. destruct x as [|y z].
          - cbn in Hx. injection Hx as _ <-. exact H0.
          - rewrite t_write_eq in Hx by discriminate. rewrite H0 in Hx.
            destruct (_ <? _); injection Hx as _ <-; exact H0. }
        assert (Hs1 : sch s1 = []).
        { unfold wr_of in E1. destruct (cap s0) as [| |c].
          - injection E1 as _ <-. exact H0.
          - eapply Ht; eauto.
          - eapply Ht; eauto. }
        destruct r1 as [n|[]| |]; try (injection H1 as _ <-; exact Hs1).
        + destruct (n =? 0); [injection H1 as _ <-; exact Hs1|]. eapply IH; eauto.
        + eapply IH; eauto. }
    eapply Hsch; eauto.
  - exfalso. apply Hnb. unfold benign. rewrite Hs. constructor.
Qed.

Lemma write_all_simio cap f bs : cap_good_w cap -> (forall bs s, f bs s = wr_of cap bs s) ->
  simio (write_all sch f bs).
Proof.
  intros Hg He s r s' H.
  rewrite (write_all_clean cap f bs (strip s) Hg He eq_refl).
  unfold write_all in H. rewrite (write_all_loop_ext f (wr_of cap) He) in H.
  apply (write_all_loop_sim cap Hg) in H; [exact H|lia].
Qed.

Lemma rd_none n s : t_read false n s = rd_of cap_none n s.
Proof. reflexivity. Qed.

Lemma tracker_write_simio bs : simio (write_all sch t_write bs).
Proof. apply (write_all_simio cap_none); [apply cap_none_good_w|reflexivity]. Qed.
Lemma b_write_all_simio bs : simio (b_write_all bs).
Proof. apply (write_all_simio cap_blob); [apply cap_blob_good_w|apply b_write_wr]. Qed.
Lemma b_read_exact_simio n : simio (b_read_exact n).
Proof. apply (read_exact_simio cap_blob); [apply cap_blob_good|apply b_read_rd]. Qed.
Lemma b_read_upto_simio n : simio (read_upto sch b_read n).
Proof. apply (read_upto_simio cap_blob); [apply cap_blob_good|apply b_read_rd]. Qed.
Lemma t_read_upto_simio n : simio (read_upto sch (t_read false) n).
Proof. apply (read_upto_simio cap_none); [apply cap_none_good|reflexivity]. Qed.

(** One byte, with or without graceful EOF. *)
Definition byte_spec (g : bool) (s : stream) : res iokind bytes * stream :=
  if U64_MAX - s_pos s <? 1 then (RErr IoOther, s)
  else match rest s with
       | b :: _ => (ROk [b], adv 1 s)
       | [] => if g then (ROk [0x40], s) else (RErr IoUnexpectedEof, s)
       end.

Lemma read1_loop_sim g : forall fuel s r s',
  (2 + length (sch s) <= fuel)%nat ->
  read_exact_loop (t_read g) fuel [] 1 s = (r, s') ->
  same_or_surf (byte_spec g (strip s)) r s s'.
Proof.
  induction fuel as [|fuel IH]; intros s r s' Hf H; [lia|].
  cbn [read_exact_loop] in H. change (1 =? 0) with false in H. cbv iota in H.
  rewrite t_read_eq in H by lia. cbv beta zeta in H.
  unfold byte_spec. change (s_pos (strip s)) with (s_pos s). change (rest (strip s)) with (rest s).
  destruct (N.ltb_spec (U64_MAX - s_pos s) 1) as [Hov|Hov].
  { injection H as <- <-. left. auto. }
  assert (Hend : forall k sc (Hsc : benign s -> benign (set_sched sc s)), 1 <= k ->
     k <= 1 ->
     (match (let '(o, k0) := match takeN k (rest s) with
                      | [] => if g then ([stype_code SpEndOfDoc], 0) else ([], 0)
                      | _ :: _ => (takeN k (rest s), lenN (takeN k (rest s)))
                      end in (@ROk iokind bytes o, adv k0 (set_sched sc s))) with
      | (ROk [], s0) => (RErr IoUnexpectedEof, s0)
      | (ROk ((_ :: _) as bs), s0) => read_exact_loop (t_read g) fuel ([] ++ bs) (1 - lenN bs) s0
      | (RErr IoInterrupted, s0) => read_exact_loop (t_read g) fuel [] 1 s0
      | (RErr (_ as e), s0) => (RErr e, s0)
      | (RPanic, s0) => (RPanic, s0)
      | (RFuel, s0) => (RFuel, s0)
      end) = (r, s') ->
     same_or_surf (match rest s with
       | b :: _ => (ROk [b], adv 1 (strip s))
       | [] => if g then (ROk [0x40], strip s) else (RErr IoUnexpectedEof, strip s)
       end) r s s').
  { intros k sc Hsc Hk1 Hk2 H1. assert (k = 1) by lia. subst k.
    destruct fuel as [|fuel]; [lia|].
    destruct (rest s) as [|b l].
    - cbn [takeN] in H1. destruct g.
      + cbn in H1. injection H1 as <- <-. left. split; [|exact Hsc].
        change (adv 0 (set_sched sc s)) with (set_sched sc (adv 0 s)). now rewrite adv_0.
      + injection H1 as <- <-. left. split; [|exact Hsc].
        change (adv 0 (set_sched sc s)) with (set_sched sc (adv 0 s)). now rewrite adv_0.
    - cbn [takeN] in H1. change (1 =? 0) with false in H1. cbv iota in H1.
      rewrite takeN_0 in H1. change (lenN [b]) with 1 in H1.
      cbn in H1. injection H1 as <- <-. left. split; [reflexivity|exact Hsc]. }
  destruct (sch s) as [|[c| |] sc] eqn:Es.
  - apply (Hend 1 [] (fun _ => Forall_nil _)); [lia|lia|].
    assert (Hss : set_sched [] s = s) by (rewrite <- Es; apply set_sched_same).
    rewrite Hss. exact H.
  - apply (Hend (N.min 1 (N.max 1 c)) sc); [intros Hb; eapply benign_tl; eauto|lia|lia|exact H].
  - apply IH in H; [|unfold sch in *; cbn in *; lia].
    destruct H as [[Heq Hb]|(Hnb & Hr)].
    + left. split; [|intros Hbs; apply Hb; eapply benign_tl; eauto].
      unfold byte_spec in Heq. change (rest (strip (set_sched sc s))) with (rest s) in Heq.
      change (s_pos (strip (set_sched sc s))) with (s_pos s) in Heq.
      destruct (N.ltb_spec (U64_MAX - s_pos s) 1); [lia|]. exact Heq.
    + right. split; [|exact Hr]. intros Hbs; apply Hnb; eapply benign_tl; eauto.
  - injection H as <- <-. right. split; [eapply not_benign; eauto|now exists IoOther].
Qed.

Lemma read1_clean g s : sch s = [] -> read_exact sch (t_read g) 1 s = byte_spec g s.
Proof.
  intros Hs. unfold read_exact. rewrite Hs. cbn [length Nat.add read_exact_loop].
  change (1 =? 0) with false. cbv iota. rewrite t_read_eq by lia. cbv beta zeta.
  unfold byte_spec. rewrite Hs.
  destruct (U64_MAX - s_pos s <? 1); [reflexivity|].
  destruct (rest s) as [|b l].
  - cbn [takeN]. destruct g; cbn; rewrite adv_0; reflexivity.
  - cbn [takeN]. change (1 =? 0) with false. cbv iota. rewrite takeN_0.
    change (lenN [b]) with 1. reflexivity.
Qed.

Lemma s_read_byte_sim g : sim (s_read_byte g).
Proof.
  apply sim_lift. apply gsim_bind.
  - intros s r s' H. rewrite read1_clean by reflexivity.
    unfold read_exact in H. apply read1_loop_sim in H; [exact H|lia].
  - intros [|b l]; [apply gsim_panic|apply gsim_ret].
Qed.

Lemma s_decode_sim : sim s_decode_u64.
Proof. apply gsim_decode, s_read_byte_sim. Qed.

Lemma seek_simio w : simio (on_dev (dev_seek w)).
Proof.
  intros s r s' H. unfold on_dev, dev_seek in *.
  destruct s as [[da p sc] ps e be ds dp g sk cm db]; unfold strip, dstrip, benign in *; cbn [s_dev d_sched d_data d_pos set_dev sch tl] in *.
  destruct sc as [|[c| |] sc]; cbn [tl] in *.
  1,2,3: left; destruct (_ || _); injection H as <- <-; (split; [reflexivity|]);
      intros Hb; cbn in *; try exact Hb; now inversion Hb.
  right. injection H as <- <-. split; [|now exists IoOther].
  intros Hb; inversion Hb; congruence.
Qed.

Lemma seek_err_strip w s e s1 : on_dev (dev_seek w) s = (RErr e, s1) -> strip s1 = strip s.
Proof.
  unfold on_dev, dev_seek. intros H.
  destruct s as [[da p sc] ps ef be ds dp g sk cm db]; cbn [s_dev d_sched d_data d_pos] in H.
  destruct sc as [|[c| |] sc]; cbn [tl] in H;
    try (match type of H with context [if ?b then _ else _] => destruct b end);
    try discriminate; injection H as _ <-; reflexivity.
Qed.

Lemma set_bn (f : stream -> stream) : (forall s, s_dev (f s) = s_dev s) -> forall s, benign s -> benign (f s).
Proof. intros H s. unfold benign, sch. now rewrite H. Qed.

Ltac sim_mod := apply gsim_mod; [intros; reflexivity|intros ? ?; assumption].

Lemma skip_discard_simio n : sim (skip_by_discard n).
Proof. apply sim_lift, gsim_bind; [apply t_read_upto_simio|intros; apply gsim_ret]. Qed.

(** Skipping: after a failing seek the bytes are read instead. *)
Definition sim_skip (n : N) (m : SM N) : Prop :=
  forall s r s', m s = (r, s') ->
    (m (strip s) = (r, strip s') /\ (benign s -> benign s')) \/
    (~ benign s /\ ((exists e, r = RErr e /\ surf_s e) \/ (exists k, r = ROk k /\ k < n))).

Lemma discard_clean n s : sch s = [] ->
  skip_by_discard n s =
  match rspec eof_ok cap_none [] n s with
  | (ROk bs, s') => (ROk (lenN bs), s')
  | (RErr k, s') => (RErr (SIo k), s')
  | (RPanic, s') => (RPanic, s')
  | (RFuel, s') => (RFuel, s')
  end.
Proof.
  intros Hs. unfold skip_by_discard, lift_io, mbind, read_upto. rewrite read_upto_rloop.
  rewrite (rloop_clean eof_ok cap_none) by (auto using cap_none_good; cbn; lia).
  destruct (rspec eof_ok cap_none [] n s) as [[bs|k| |] s']; reflexivity.
Qed.

Lemma discard_full n s : sch s = [] -> s_pos s + n <= U64_MAX ->
  skip_by_discard n s = (ROk (N.min n (lenN (rest s))), adv (N.min n (lenN (rest s))) s).
Proof.
  intros Hs Hp. rewrite discard_clean by exact Hs. unfold rspec, cap_none.
  destruct (N.eqb_spec n 0) as [->|Hn].
  - rewrite N.min_0_l, adv_0. reflexivity.
  - cbn [cap_min avail]. destruct (N.ltb_spec (U64_MAX - s_pos s) n); [lia|].
    unfold avail, eof_ok; cbn [cap_min app].
    destruct (N.leb_spec n (lenN (rest s))).
    + rewrite N.min_l, lenN_takeN by lia. rewrite N.min_l by lia. reflexivity.
    + rewrite N.min_r by lia. rewrite takeN_all by lia. reflexivity.
Qed.

Lemma skip_seek_direct_sim n : sim_skip n (skip_by_seek_direct n).
Proof.
  intros s r s' H. unfold skip_by_seek_direct, mbind, lift_io, check_advance_pos in *.
  change (s_pos (strip s)) with (s_pos s).
  destruct (N.ltb_spec (U64_MAX - s_pos s) n) as [Hov|Hov].
  { injection H as <- <-. left. auto. }
  destruct (on_dev (dev_seek (SkCur (Z.of_N n))) s) as [r1 s1] eqn:E1.
  destruct (seek_simio _ s r1 s1 E1) as [[Heq Hb]|(Hnb & e & -> & He)].
  - rewrite Heq. destruct r1 as [x|e| |].
    + injection H as <- <-. left. split; [reflexivity|exact Hb].
    + destruct (skip_discard_simio n s1 r s' H) as [[Heq2 Hb2]|(Hnb & Hr)].
      * left. split; auto.
      * right. split; [auto|now left].
    + injection H as <- <-. left. auto.
    + injection H as <- <-. left. auto.
  - (* the seek failed because of the schedule *)
    assert (Hs1 : strip s1 = strip s).
    { eapply seek_err_strip; eauto. }
    destruct (N.eqb_spec n 0) as [->|Hn0].
    { unfold skip_by_discard, lift_io, mbind, read_upto in H. rewrite read_upto_rloop in H. cbn in H.
      injection H as <- <-. left. split.
      - rewrite Hs1. unfold on_dev, dev_seek.
        destruct s as [[da p sc] ps e0 be ds dp g sk cm db]. cbn.
        assert (Hps : ps < U64_MAX \/ U64_MAX <= ps) by lia.
        destruct (_ || _) eqn:Eb.
        + rewrite discard_clean by reflexivity. reflexivity.
        + f_equal. unfold strip, dstrip, set_pos_, set_dev; cbn. rewrite N.add_0_r.
          do 2 f_equal. lia.
      - intros Hbs; contradiction. }
    destruct (skip_discard_simio n s1 r s' H) as [[Heq2 Hb2]|(Hnb2 & Hr)].
    + rewrite Hs1 in Heq2. rewrite discard_full in Heq2 by (cbn; auto; lia).
      assert (Hr : r = ROk (N.min n (lenN (rest (strip s))))) by congruence.
      assert (Hst : adv (N.min n (lenN (rest (strip s)))) (strip s) = strip s') by congruence.
      clear Heq2. subst r. rewrite rest_strip in *.
      destruct (N.leb_spec n (lenN (rest s))) as [Hc|Hc].
      * (* complete: same as seeking *)
        rewrite N.min_l in * by exact Hc. left. split; [|intros; contradiction].
        unfold on_dev, dev_seek.
        change (d_sched (s_dev (strip s))) with (@nil ev). cbn [tl].
        change (d_pos (s_dev (strip s))) with (d_pos (s_dev s)).
        destruct (_ || _) eqn:Eb.
        -- change (set_dev (mkDev (d_data (s_dev (strip s))) (d_pos (s_dev s)) []) (strip s)) with (strip s).
           rewrite discard_full by (cbn; auto; lia). rewrite rest_strip, N.min_l by lia.
           now rewrite Hst.
        -- rewrite <- Hst. f_equal. unfold adv, strip, dstrip, set_pos_, set_dev, sch; cbn.
           do 2 f_equal. lia.
      * right. split; [exact Hnb|]. right. rewrite N.min_r by lia. exists (lenN (rest s)). split; [reflexivity|lia].
    + right. split; [exact Hnb|]. now left.
Qed.

Lemma skip_seek_rec_sim fuel : forall n, sim_skip n (skip_by_seek_rec fuel n).
Proof.
  induction fuel as [|fuel IH]; intros n; cbn [skip_by_seek_rec].
  { intros s r s' H. injection H as <- <-. left. auto. }
  destruct (N.ltb_spec I64_MAX n) as [Hbig|Hsmall]; [|apply skip_seek_direct_sim].
  intros s r s' H. unfold mbind in *.
  destruct (skip_by_seek_rec fuel I64_MAX s) as [r1 s1] eqn:E1.
  destruct (IH I64_MAX s r1 s1 E1) as [[Heq Hb]|(Hnb & [(e & -> & He)|(k & -> & Hk)])].
  - rewrite Heq. destruct r1 as [k|e| |]; try (injection H as <- <-; left; auto).
    destruct (N.ltb_spec k I64_MAX) as [Hk|Hk]; [injection H as <- <-; left; auto|].
    destruct (skip_by_seek_rec fuel (n - k) s1) as [r2 s2] eqn:E2.
    destruct (IH (n - k) s1 r2 s2 E2) as [[Heq2 Hb2]|(Hnb2 & [(e & -> & He)|(k2 & -> & Hk2)])].
    + rewrite Heq2. destruct r2; injection H as <- <-; left; auto.
    + injection H as <- <-. right. split; [auto|]. left. now exists e.
    + injection H as <- <-. right. split; [auto|]. right. exists (k + k2). split; [reflexivity|lia].
  - injection H as <- <-. right. split; [auto|]. left. now exists e.
  - destruct (N.ltb_spec k I64_MAX) as [Hk'|Hk']; [|lia].
    injection H as <- <-. right. split; [auto|]. right. exists k. split; [reflexivity|lia].
Qed.

Lemma skip_check_sim n (m : SM N) : sim_skip n m ->
  sim (let* skipped := m in
       if skipped <? n then mfail (STruncatedBlob (n - skipped)) else mret tt).
Proof.
  intros Hm s r s' H. unfold mbind in *.
  destruct (m s) as [r1 s1] eqn:E1.
  destruct (Hm s r1 s1 E1) as [[Heq Hb]|(Hnb & [(e & -> & He)|(k & -> & Hk)])].
  - rewrite Heq. destruct r1 as [k|e| |]; try (injection H as <- <-; left; auto).
    destruct (k <? n); injection H as <- <-; left; auto.
  - injection H as <- <-. right. split; [auto|]. now exists e.
  - destruct (N.ltb_spec k n); [|lia]. injection H as <- <-. right. split; [exact Hnb|].
    exists (STruncatedBlob (n - k)). split; [reflexivity|]. right. now exists (n - k).
Qed.

Lemma skip_blob_sim : sim skip_blob.
Proof.
  unfold skip_blob.
  apply (gsim_fun strip benign surf_s (fun s0 s =>
    if s_pos s0 <? s_blob_end s0 then
    (let* skipped := (if s_seek s0 then skip_by_seek (s_blob_end s0 - s_pos s0) else skip_by_discard (s_blob_end s0 - s_pos s0)) in
     if skipped <? (s_blob_end s0 - s_pos s0) then mfail (STruncatedBlob ((s_blob_end s0 - s_pos s0) - skipped)) else mret tt) s
    else (ROk tt, s))); [intros s0|intros s0; reflexivity].
  destruct (s_pos s0 <? s_blob_end s0); [|apply gsim_ret].
  apply skip_check_sim. destruct (s_seek s0); [apply skip_seek_rec_sim|].
  intros s1 r1 s1' H0. destruct (skip_discard_simio _ s1 r1 s1' H0) as [?|[? ?]]; [now left|].
  right. split; auto.
Qed.

(** Functions that only look at the fields other than the device. *)
Ltac sim_step :=
  match goal with
  | |- gsim _ _ _ (mret _) => apply gsim_ret
  | |- gsim _ _ _ (mfail _) => apply gsim_fail
  | |- gsim _ _ _ mpanic => apply gsim_panic
  | |- gsim _ _ _ (mres _) => apply gsim_res
  | |- gsim _ _ _ (mmod _) => sim_mod
  | |- gsim _ _ _ (mbind mget _) => apply gsim_get; [intros ?|intros ?; reflexivity]
  | |- gsim _ _ _ (mbind _ _) => apply gsim_bind; [|intros ?]
  | |- gsim _ _ surf_s (lift_io _) => apply sim_lift
  | |- gsim _ _ _ (if _ then _ else _) => apply gsim_if
  | |- gsim _ _ _ (mloop _ _) => apply gsim_mloop; intros ?
  | |- gsim _ _ _ (check_advance_pos _) => apply check_adv_sim
  | |- gsim _ _ _ (on_dev (dev_seek _)) => apply seek_simio
  | |- gsim _ _ _ (write_all sch t_write _) => apply tracker_write_simio
  | |- gsim _ _ _ (b_write_all _) => apply b_write_all_simio
  | |- gsim _ _ _ (b_read_exact _) => apply b_read_exact_simio
  | |- gsim _ _ _ (read_upto sch b_read _) => apply b_read_upto_simio
  | |- gsim _ _ _ s_decode_u64 => apply s_decode_sim
  | |- gsim _ _ _ (s_read_byte _) => apply s_read_byte_sim
  | |- gsim _ _ _ skip_blob => apply skip_blob_sim
  | |- gsim ?a ?b ?c (fun s => ?m s) => change (gsim a b c m)
  end.
Ltac sims := repeat sim_step.

(** State-inspecting functions written as [fun s => f s s]. *)
Ltac sim_fun f := apply (gsim_fun strip benign _ f); [intros ?|intros ?; reflexivity].

Lemma check_end_sim : sim check_at_end_of_blob.
Proof.
  intros s r s' H. left. unfold check_at_end_of_blob in *. cbn [s_pos s_blob_end s_dbg strip set_dev].
  change (s_pos (strip s)) with (s_pos s). change (s_blob_end (strip s)) with (s_blob_end s).
  change (s_dbg (strip s)) with (s_dbg s).
  destruct (s_pos s =? s_blob_end s); [injection H as <- <-; auto|].
  destruct (u64_sub _ _ _); injection H as <- <-; auto.
Qed.

Lemma finish_dyn_sim : sim finish_dynamic_blob.
Proof.
  unfold finish_dynamic_blob.
  apply (gsim_fun strip benign surf_s (fun s0 s =>
    let blob_start := s_dyn_start s0 in let blob_end := s_pos s0 in
    if s_pos s0 <? blob_start then (RErr SPosBeforeDynBlob, s)
    else
    (let* header := mres (u64_sub (s_dbg s0) blob_start 10) in
     let* displacement := mres (u64_sub (s_dbg s0) blob_end header) in
     if I64_MAX <? displacement then mfail SOverlongDynBlob
     else
       lift_io (on_dev (dev_seek (SkCur (- Z.of_N displacement)))) ;;
       mmod (fun s => set_pos_ (s_pos s - displacement) s) ;;
       lift_io (write_all sch t_write (encode_fixed_u64 (blob_end - blob_start))) ;;
       lift_io (on_dev (dev_seek (SkCur (Z.of_N (blob_end - blob_start))))) ;;
       mmod (set_pos_ blob_end)) s)); [intros s0|intros s0; reflexivity].
  cbv zeta. destruct (s_pos s0 <? s_dyn_start s0); [apply gsim_fail|]. sims.
Qed.

Lemma commit_sim : sim commit.
Proof.
  unfold commit.
  apply (gsim_fun strip benign surf_s (fun s0 s =>
    match s_commit s0 with
    | None => (ROk tt, s)
    | Some f => (match f with CSkipBlob => skip_blob | CCheckEnd => check_at_end_of_blob
                 | CFinishDyn => finish_dynamic_blob end ;; mmod (set_commit None)) s
    end)); [intros s0|intros s0; reflexivity].
  destruct (s_commit s0) as [f|]; [|apply gsim_ret].
  apply gsim_bind; [destruct f; [apply skip_blob_sim|apply check_end_sim|apply finish_dyn_sim]|].
  intros ?. sims.
Qed.

Ltac sim_step2 :=
  match goal with
  | |- gsim _ _ _ commit => apply commit_sim
  | _ => sim_step
  end.
Ltac sims2 := repeat sim_step2.

Lemma reset_pos_sim p : sim (reset_pos p).
Proof. unfold reset_pos. sims2. Qed.
Lemma st_seek_sim w : sim (st_seek w).
Proof. unfold st_seek. sims2. all: try apply reset_pos_sim. Qed.
Lemma next_blob_sim : sim next_blob.
Proof. unfold next_blob. sims2. Qed.
Lemma incr_depth_sim : sim incr_depth.
Proof.
  intros s r s' H. left. unfold incr_depth in *. change (s_depth (strip s)) with (s_depth s).
  change (s_dbg (strip s)) with (s_dbg s).
  destruct (u64_add _ _ _); injection H as <- <-; auto.
Qed.
Lemma next_value_sim t : sim (next_value t).
Proof. destruct t; unfold next_value; sims2; try apply incr_depth_sim; apply next_blob_sim. Qed.
Lemma if_mod_sim (b : stream -> bool) (f : stream -> stream) :
  (forall s, b (strip s) = b s) -> (forall s, f (strip s) = strip (f s)) ->
  (forall s, benign s -> benign (f s)) ->
  sim (mmod (fun s => if b s then f s else s)).
Proof.
  intros H1 H2 H3. apply gsim_mod.
  - intros s. rewrite H1, H2. now destruct (b s).
  - intros s Hs. destruct (b s); auto.
Qed.
Lemma step_sim sp u : sim (next_element_step sp u).
Proof.
  unfold next_element_step. apply gsim_get; [intros s0|intros s0; reflexivity].
  apply gsim_bind; [apply s_read_byte_sim|intros b].
  destruct (parse_desc b) as [[ty tag|[]]|].
  - apply gsim_bind.
    { apply (if_mod_sim (fun s => s_depth s =? 0) (set_depth_ 1)); auto. }
    intros ?. sims2. apply next_value_sim.
  - apply gsim_bind; [|intros ?; sims2].
    apply (if_mod_sim (fun s => 0 <? s_depth s) (fun s => set_depth_ (s_depth s - 1) s)); auto.
  - sims2.
  - sims2. apply next_blob_sim.
  - sims2.
  - sims2.
Qed.
Lemma next_element_impl_sim sp : sim (next_element_impl sp).
Proof.
  unfold next_element_impl.
  apply (gsim_fun strip benign surf_s (fun s0 s =>
    if s_eof s0 then (ROk ElEndOfDoc, s) else (commit ;; mloop (next_element_step sp) tt) s));
    [intros s0|intros s0; reflexivity].
  destruct (s_eof s0); [apply gsim_ret|]. sims2. apply step_sim.
Qed.
Lemma next_element_sim : sim next_element.
Proof. apply next_element_impl_sim. Qed.

Lemma b_remaining_sim {E} (su : E -> Prop) : gsim strip benign su b_remaining.
Proof. intros s r s' H. left. unfold b_remaining in *. injection H as <- <-. auto. Qed.
Lemma b_start_sim {E} (su : E -> Prop) len : gsim strip benign su (b_start_pos len).
Proof. intros s r s' H. left. unfold b_start_pos in *. injection H as <- <-. auto. Qed.
Lemma u64_op_sim {E} (su : E -> Prop) (f : bool -> N -> res E N) (g : stream -> N) :
  (forall s, g (strip s) = g s) ->
  gsim strip benign su (fun s => (f (s_dbg s) (g s), s)).
Proof.
  intros Hg s r s' H. left. injection H as <- <-. rewrite Hg. auto.
Qed.
Lemma b_inner_sim {E} (su : E -> Prop) len : gsim strip benign su (b_inner_pos len).
Proof.
  unfold b_inner_pos. apply gsim_bind; [apply b_remaining_sim|]. intros r.
  apply (u64_op_sim su (fun d x => u64_sub d len x) (fun _ => r)). auto.
Qed.
Lemma b_read_fully_sim max : sim (b_read_fully max).
Proof. unfold b_read_fully. sims2. apply b_remaining_sim. Qed.
Lemma b_read_or_trunc_sim max : sim (b_read_or_trunc max).
Proof. unfold b_read_or_trunc. sims2. Qed.
Lemma as_slice_sim {E} (su : E -> Prop) : gsim strip benign su as_slice.
Proof.
  intros s r s' H. left. unfold as_slice in *. cbn in *.
  destruct (_ <? _); injection H as <- <-; auto.
Qed.
Lemma b_slice_sim : sim b_slice.
Proof. unfold b_slice. sims2; [apply b_remaining_sim|apply as_slice_sim]. Qed.
Lemma b_slice_mut_sim new : sim (b_slice_mut_set new).
Proof. unfold b_slice_mut_set. sims2. apply b_slice_sim. Qed.
Lemma b_ext_slice_sim : sim b_ext_slice.
Proof. unfold b_ext_slice. sims2; [apply as_slice_sim|apply b_remaining_sim]. Qed.

Lemma b_seek_target_simio len w : simio (b_seek_target len w).
Proof.
  unfold b_seek_target.
  apply (gsim_fun strip benign surf_io (fun s0 s =>
   (match w with
   | SkStart p =>
       if p <=? len then
         let* st := b_start_pos len in fun s => (u64_add (s_dbg s) st p, s)
       else mfail IoInvalidInput
   | SkEnd off =>
       if (off <=? 0)%Z then
         let* o := mres (i64_neg (s_dbg s0) off) in
         if o <=? len then
           let* st := b_start_pos len in
           fun s => (u64_add (s_dbg s) st (len - o), s)
         else mfail IoInvalidInput
       else mfail IoInvalidInput
   | SkCur off =>
       if (off <? 0)%Z then
         let* o := mres (i64_neg (s_dbg s0) off) in
         let* ip := b_inner_pos len in
         if o <=? ip then fun s => (u64_sub (s_dbg s) (s_pos s) o, s)
         else mfail IoInvalidInput
       else
         let o := Z.to_N off in
         let* rem := b_remaining in
         if o <=? rem then fun s => (u64_add (s_dbg s) (s_pos s) o, s)
         else mfail IoInvalidInput
   end) s)); [intros s0|intros s0; reflexivity].
  destruct w as [p|z|z]; cbv zeta; sims2.
  - apply b_start_sim.
  - apply (u64_op_sim surf_io (fun d x => u64_add d x p) (fun _ => a)); auto.
  - apply b_start_sim.
  - apply (u64_op_sim surf_io (fun d x => u64_add d x (len - a)) (fun _ => a0)); auto.
  - apply b_inner_sim.
  - apply (u64_op_sim surf_io (fun d x => u64_sub d x a) s_pos); auto.
  - apply b_remaining_sim.
  - apply (u64_op_sim surf_io (fun d x => u64_add d x (Z.to_N z)) s_pos); auto.
Qed.

Lemma b_seek_simio len w : simio (b_seek len w).
Proof.
  unfold b_seek. apply gsim_bind; [apply b_seek_target_simio|intros pos].
  apply gsim_bind; [|intros ?; apply b_inner_sim].
  apply (gsim_fun strip benign surf_io (fun s0 s =>
    if pos <? s_pos s0 then
      if I64_MAX <? s_pos s0 - pos then (RErr IoOther, s)
      else (on_dev (dev_seek (SkCur (- Z.of_N (s_pos s0 - pos)))) ;;
            mmod (fun s => set_pos_ (s_pos s - (s_pos s0 - pos)) s)) s
    else
      if I64_MAX <? pos - s_pos s0 then (RErr IoOther, s)
      else (on_dev (dev_seek (SkCur (Z.of_N (pos - s_pos s0)))) ;;
            mmod (fun s => set_pos_ (s_pos s + (pos - s_pos s0)) s)) s));
    [intros s0|intros s0; reflexivity].
  destruct (pos <? s_pos s0).
  - destruct (I64_MAX <? s_pos s0 - pos); [apply gsim_fail|sims2].
  - destruct (I64_MAX <? pos - s_pos s0); [apply gsim_fail|sims2].
Qed.

Lemma next_field_sim : sim next_field.
Proof.
  unfold next_field. apply gsim_bind; [apply next_element_impl_sim|].
  intros [f| | |len|]; sims2. apply b_read_or_trunc_sim.
Qed.
Lemma skip_up_sim d : sim (skip_up d).
Proof. unfold skip_up. sims2. apply next_element_sim. Qed.
Lemma field_skip_sim f : sim (field_skip f).
Proof. unfold field_skip. destruct (f_val f); sims2; apply skip_up_sim. Qed.

(** Writing *)
Lemma write_desc_sim d : sim (write_desc d).
Proof.
  unfold write_desc. apply gsim_bind; [apply commit_sim|intros _].
  apply (gsim_fun strip benign surf_s (fun s0 s =>
    (let* b := mres (desc_byte (s_dbg s0) d) in lift_io (write_all sch t_write [b])) s));
    [intros s0|intros s0; reflexivity].
  sims2.
Qed.
Lemma s_encode_sim n : sim (s_encode_u64 n).
Proof. unfold s_encode_u64. destruct (encode_u64 n); sims2. Qed.
Lemma s_encode_fixed_sim n : sim (s_encode_fixed_u64 n).
Proof. unfold s_encode_fixed_u64. sims2. Qed.
Lemma write_u64_sim t n : sim (write_u64 t n).
Proof. unfold write_u64. sims2; [apply write_desc_sim|apply s_encode_sim]. Qed.
Lemma set_end_sim len : sim (fun s => match u64_add (E := serr) (s_dbg s) (s_pos s) len with
              | ROk e => (ROk tt, set_blob_end e s)
              | _ => (RPanic, s)
              end).
Proof.
  intros s r s' H. left. change (s_dbg (strip s)) with (s_dbg s). change (s_pos (strip s)) with (s_pos s).
  destruct (u64_add _ _ _); injection H as <- <-; auto.
Qed.
Lemma write_alloc_sim d len : sim (write_desc_with_blob_alloc d len).
Proof.
  unfold write_desc_with_blob_alloc. sims2; try apply write_desc_sim; try apply s_encode_sim.
  apply set_end_sim.
Qed.
Lemma write_blob_data_sim t bs : sim (write_blob_data t bs).
Proof. unfold write_blob_data. sims2. apply write_alloc_sim. Qed.
Lemma write_exception_data_sim bs : sim (write_exception_data bs).
Proof. unfold write_exception_data. sims2. apply write_alloc_sim. Qed.
Lemma write_dynamic_sim d : sim (write_desc_with_blob_dynamic d).
Proof.
  unfold write_desc_with_blob_dynamic. apply gsim_bind; [apply write_desc_sim|intros _].
  apply (gsim_fun strip benign surf_s (fun s0 s =>
    (let* a := mres (u64_sub (s_dbg s0) U64_MAX (s_pos s0)) in
     let* len := mres (u64_sub (s_dbg s0) a 10) in
     s_encode_fixed_u64 len ;;
     mmod (fun s => set_dyn_start (s_pos s) s) ;;
     (fun s => match u64_add (E := serr) (s_dbg s) (s_pos s) len with
               | ROk e => (ROk tt, set_blob_end e s)
               | _ => (RPanic, s)
               end) ;;
     mmod (set_commit (Some CFinishDyn)) ;;
     mret len) s)); [intros s0|intros s0; reflexivity].
  sims2; [apply s_encode_fixed_sim|apply set_end_sim].
Qed.
Lemma write_enum_sim t d : sim (write_enum t d).
Proof. unfold write_enum. sims2; [apply write_desc_sim|apply s_encode_sim]. Qed.
Lemma pad_to_align_sim a : sim (pad_to_align a).
Proof.
  unfold pad_to_align.
  apply (gsim_fun strip benign surf_s (fun s0 s =>
   (let* m := mres (u64_sub (s_dbg s0) a 1) in
   (if s_dbg s0 && negb (N.land a m =? 0) then mpanic else mret tt) ;;
   commit ;;
   mloop (fun _ : unit =>
            let* s := mget in
            if N.land (s_pos s) m =? 0 then mret (inr tt)
            else write_padding ;; mret (inl tt)) tt) s)); [intros s0|intros s0; reflexivity].
  sims2. apply write_desc_sim.
Qed.
