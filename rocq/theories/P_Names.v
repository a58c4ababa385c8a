(** * P_Names: the names in error locations are words (C74) *)

From Verif Require Import SpecFormat Base Wire Dev Stream Types Prog De SpecDe SpecRead SpecShow Show P_Base P_Stream P_DictAll P_Pos P_Show.
Local Open Scope N_scope.
Strategy 1000 [s_decode_u64 decode_u64 decode_loop write_all read_exact encode_u64 enc_loop encode_fixed_u64 mloop miter].

(** ** Names *)
Lemma ident_all (f : N -> string) n : forallb (fun i => negb (String.eqb (f (N.of_nat i)) "") && word_chars (f (N.of_nat i))) (seq 0 n) = true ->
  forall i, i < N.of_nat n -> identifier (f i).
Proof.
  intros H i Hi. rewrite forallb_forall in H. specialize (H (N.to_nat i)). rewrite N2Nat.id in H.
  assert (Hin : In (N.to_nat i) (seq 0 n)) by (apply in_seq; lia). apply H in Hin. apply andb_prop in Hin as [H1 H2]. split; [|exact H2].
  intros E. rewrite E in H1. discriminate.
Qed.
Lemma tag_ident tag : tag <= 63 -> identifier (tag_name tag).
Proof. intros H. apply (ident_all tag_name 64); [vm_compute; reflexivity|lia]. Qed.
Lemma tuple_ident i : i < 16 -> identifier (tuple_name i).
Proof. intros H. apply (ident_all tuple_name 16); [vm_compute; reflexivity|lia]. Qed.

(** ** Programs that push identifiers only *)
Definition op_word {X : Set} (o : op X) : Prop := match o with OPush _ nm => identifier nm | _ => True end.
Definition resp {X : Set} (o : op X) : X -> Prop :=
  match o in op X return X -> Prop with ONext => fun x => match x with Some (tag, _) => tag <= 63 | None => True end | _ => fun _ => True end.
Fixpoint word {A} (p : prog A) : Prop :=
  match p with PRet _ | PStop _ => True | PDo o k => op_word o /\ forall x, resp o x -> word (k x) end.
Lemma word_bind {A B} (p : prog A) (f : A -> prog B) : word p -> (forall a, word (f a)) -> word (pbind p f).
Proof.
  intros Hp Hf. induction p as [a|x|X o k IH]; cbn [word pbind] in *; [apply Hf|exact Logic.I|].
  destruct Hp as [H1 H2]. split; [exact H1|]. intros x Hx. apply IH, H2, Hx.
Qed.
Lemma word_do {X : Set} (o : op X) : op_word o -> word (pdo o).
Proof. intros H. cbn [word pdo]. split; [exact H|]. intros x _. exact Logic.I. Qed.
Lemma word_op {X : Set} {B} (o : op X) (f : X -> prog B) : op_word o -> (forall x, word (f x)) -> word (pbind (pdo o) f).
Proof. intros H Hf. apply word_bind; [now apply word_do|exact Hf]. Qed.
Lemma word_next {B} (f : option (N * vhdr) -> prog B) : word (f None) -> (forall tag vh, tag <= 63 -> word (f (Some (tag, vh)))) -> word (pbind (pdo ONext) f).
Proof. intros H1 H2. cbn [pbind pdo word]. split; [exact Logic.I|]. intros [[tag vh]|] Hx; [apply H2, Hx|exact H1]. Qed.
Lemma word_over {B} k (f : unit -> prog B) : (forall x, word (f x)) -> word (pbind (pdo (OOver k)) f).
Proof. intros H. apply word_op; [exact Logic.I|exact H]. Qed.
Lemma word_plift {A} (r : res serr A) : word (plift r).
Proof. destruct r; exact Logic.I. Qed.
Lemma word_iter {A B} (f : A -> prog (A + B)) p : (forall a, word (f a)) -> forall a, word (piter p f a).
Proof.
  intros H. induction p as [q IH|q IH|]; intros a; cbn [piter].
  - apply word_bind; [apply H|]. intros [a'|b]; [|exact Logic.I]. apply word_bind; [apply IH|]. intros [a''|b]; [apply IH|exact Logic.I].
  - apply word_bind; [apply IH|]. intros [a''|b]; [apply IH|exact Logic.I].
  - apply H.
Qed.
Lemma word_loop {A B} (f : A -> prog (A + B)) a : (forall a, word (f a)) -> word (ploop f a).
Proof. intros H. unfold ploop. apply word_bind; [now apply word_iter|]. intros [x|b]; exact Logic.I. Qed.

(** ** Running them *)
Lemma parse_tag x ty tag : parse_desc x = Some (PPair ty tag) -> tag_ok tag.
Proof.
  unfold parse_desc, tag_ok. destruct (N.eqb_spec (N.land x 63) 0) as [|Hn]; [destruct (stype_of _); discriminate|]. destruct (dtype_of _); [|discriminate].
  intros E. injection E as _ <-. split; [lia|]. replace (N.land x 63) with (x mod 64) by (symmetry; apply (N.land_ones x 6)). pose proof (N.mod_lt x 64 ltac:(discriminate)). lia.
Qed.
Lemma step_tag sp u s f s' : next_element_step sp u s = (ROk (inr (ElField f)), s') -> tag_ok (f_tag f).
Proof.
  unfold next_element_step, mget. intros H. unfold mbind at 1 in H. unfold mbind at 1 in H.
  destruct (s_read_byte (s_graceful s) s) as [[x| | |] s1] eqn:Eb; try discriminate.
  destruct (parse_desc x) as [[ty tag|[]]|] eqn:Ep; try discriminate.
  - unfold mbind, mmod in H. destruct (next_value ty _) as [[v| | |] s2]; try discriminate. unfold mret in H. inversion H. cbn [f_tag]. exact (parse_tag _ _ _ Ep).
  - exfalso. unfold mbind, mmod in H. destruct (next_blob s1) as [[v| | |] s2]; unfold mret in H; discriminate.
  - exfalso. destruct sp; unfold mret in H; discriminate.
Qed.
Lemma next_tag s f s' : next_field s = (ROk (Some f), s') -> tag_ok (f_tag f).
Proof.
  intros H. unfold next_field in H. unfold mbind at 1 in H. destruct (next_element_impl true s) as [[el| | |] s1] eqn:E; try discriminate.
  assert (Hf : el = ElField f /\ s1 = s').
  { destruct el as [g| | |len|]; try discriminate; [unfold mret in H; injection H as -> ->; auto|].
    unfold mbind in H. destruct (b_read_or_trunc 256 s1) as [[m| | |] s2]; discriminate. }
  destruct Hf as [-> ->]. unfold next_element_impl in E. destruct (s_eof s); [discriminate|].
  unfold mbind at 1 in E. destruct (commit s) as [[u| | |] s1] eqn:Ec; try discriminate.
  assert (Hy : yields (fun _ => True) (fun el s' => match el with ElField f => tag_ok (f_tag f) | _ => True end) (mloop (next_element_step true) tt)).
  { apply y_mloop; [intros u0 s2 r s3 _ _; exact Logic.I|]. intros u0 s2 x s3 _ Hx.
    destruct x as [x|[g| | |len|]]; auto. exact (step_tag _ _ _ _ _ Hx). }
  exact (Hy s1 (ElField f) s' Logic.I E).
Qed.
Lemma path_src {A} (m : SM A) st r st' : on_src_of m st = (r, st') -> x_path st' = x_path st /\ (forall err, r = RErr err -> e_path err = x_path st).
Proof.
  unfold on_src_of, xfail. destruct (m (x_s st)) as [[a|x| |] s1]; intros E; injection E as <- <-; (split; [reflexivity|]); intros err H; inversion H; reflexivity.
Qed.
Lemma path_blob {A} (m : SM A) st r st' : on_blob m st = (r, st') -> x_path st' = x_path st /\ (forall err, r = RErr err -> e_path err = x_path st).
Proof.
  unfold on_blob. destruct (x_cur st) as [[? ? ? []]|]; try apply path_src; intros E; injection E as <- <-; (split; [reflexivity|discriminate]).
Qed.
Lemma same_path (st st' : rst stream) {A} (r : res derr A) : path_ok (x_path st) -> x_path st' = x_path st /\ (forall err, r = RErr err -> e_path err = x_path st) ->
  path_ok (x_path st') /\ (forall err, r = RErr err -> path_ok (e_path err)).
Proof. intros H [E1 E2]. rewrite E1. split; [exact H|]. intros err Herr. now rewrite (E2 err Herr). Qed.
Lemma word_op_run cf {X : Set} (o : op X) st r st' : op_word o -> path_ok (x_path st) -> run_op stream_source cf o st = (r, st') ->
  (path_ok (x_path st') /\ (forall err, r = RErr err -> path_ok (e_path err))) /\ (forall x, r = ROk x -> resp o x).
Proof.
  intros Ho Hp. destruct o; cbn [run_op resp].
  - intros E. unfold mbind in E. destruct (on_src_of (i_next stream_source) st) as [[f|x| |] st1] eqn:E1.
    + cbv [mmod mret] in E. injection E as <- <-. destruct (path_src _ _ _ _ E1) as [E2 _]. split.
      * split; [cbn; now rewrite E2|discriminate].
      * intros x H. injection H as <-. destruct f as [f|]; [|exact Logic.I]. cbn [option_map].
        unfold on_src_of in E1. cbn [i_next stream_source] in E1. destruct (next_field (x_s st)) as [[g|x| |] s1] eqn:E3; try discriminate.
        injection E1 as -> <-. exact (proj2 (next_tag _ _ _ E3)).
    + injection E as <- <-. destruct (path_src _ _ _ _ E1) as [E2 E3]. split; [|discriminate]. apply (same_path st); [exact Hp|]. split; [exact E2|].
      intros err Herr. apply E3. congruence.
    + injection E as <- <-. destruct (path_src _ _ _ _ E1) as [E2 E3]. split; [|discriminate]. apply (same_path st); [exact Hp|]. split; [exact E2|].
      intros err Herr. apply E3. congruence.
    + injection E as <- <-. destruct (path_src _ _ _ _ E1) as [E2 E3]. split; [|discriminate]. apply (same_path st); [exact Hp|]. split; [exact E2|].
      intros err Herr. apply E3. congruence.
  - intros E. split; [|auto]. apply (same_path st); [exact Hp|]. destruct (x_cur st); [exact (path_src _ _ _ _ E)|]. injection E as <- <-. split; [reflexivity|discriminate].
  - intros E. split; [|auto]. apply (same_path st); [exact Hp|]. destruct (cf_ignore cf); [injection E as <- <-; split; [reflexivity|discriminate]|].
    destruct (x_cur st); injection E as <- <-; (split; [reflexivity|]); intros err H; inversion H; reflexivity.
  - intros E. split; [|auto]. destruct (cf_rec cf <=? lenN (x_path st)).
    + apply (same_path st); [exact Hp|]. injection E as <- <-. split; [reflexivity|]. intros err H; inversion H; reflexivity.
    + destruct at_field; [destruct (x_cur st)|]; injection E as <- <-; (split; [|discriminate]); try exact Hp; (apply Forall_cons; [exact Ho|exact Hp]).
  - intros E. split; [|auto]. injection E as <- <-. split; [|discriminate]. cbn. destruct (x_path st); [exact Hp|]. exact (Forall_inv_tail Hp).
  - intros E. split; [|auto]. apply (same_path st); [exact Hp|]. destruct (ctx_collect _ _ _ _); injection E as <- <-; (split; [reflexivity|]); intros err H; inversion H; reflexivity.
  - intros E. split; [|auto]. apply (same_path st); [exact Hp|]. destruct (ctx_blob _ _ _ _); injection E as <- <-; (split; [reflexivity|]); intros err H; inversion H; reflexivity.
  - intros E. split; [|auto]. apply (same_path st); [exact Hp|]. injection E as <- <-. split; [reflexivity|discriminate].
  - intros E. split; [|auto]. apply (same_path st); [exact Hp|]. exact (path_blob _ _ _ _ E).
  - intros E. split; [|auto]. apply (same_path st); [exact Hp|]. exact (path_blob _ _ _ _ E).
  - intros E. split; [|auto]. apply (same_path st); [exact Hp|]. exact (path_blob _ _ _ _ E).
  - intros E. split; [|auto]. apply (same_path st); [exact Hp|]. exact (path_blob _ _ _ _ E).
Qed.
Lemma word_run cf {A} (p : prog A) : word p -> forall st r st', path_ok (x_path st) -> run stream_source cf p st = (r, st') ->
  path_ok (x_path st') /\ (forall err, r = RErr err -> path_ok (e_path err)).
Proof.
  induction p as [a|x|X o k IH]; intros Hw st r st' Hp; cbn [run].
  - intros E. injection E as <- <-. split; [exact Hp|discriminate].
  - destruct x; intros E; injection E as <- <-; (split; [exact Hp|]); intros err H; inversion H; exact Hp.
  - destruct Hw as [H1 H2]. unfold mbind. destruct (run_op stream_source cf o st) as [[x|x| |] st1] eqn:E1;
      destruct (word_op_run cf o st _ _ H1 Hp E1) as [[H3 H4] H5].
    + apply IH; [apply H2, H5; reflexivity|exact H3].
    + intros E. injection E as <- <-. split; [exact H3|]. intros err H. inversion H; subst. exact (H4 _ eq_refl).
    + intros E. injection E as <- <-. split; [exact H3|discriminate].
    + intros E. injection E as <- <-. split; [exact H3|discriminate].
Qed.

(** ** Every impl *)
Record dword (d : dict) : Prop := mkDw {
  dw_field : forall a tag vh, word (d_field d a tag vh);
  dw_elem : forall tag vh, word (d_elem d tag vh);
  dw_fin : forall a, word (d_fin d a);
  dw_body : word (d_body d) }.
Definition pword (d : dict) : Prop := (forall a tag vh, word (d_field d a tag vh)) /\ (forall a, word (d_fin d a)).
Lemma dword_p d : dword d -> pword d.
Proof. intros [H1 _ H3 _]. split; assumption. Qed.
Definition fword (f : fdict) : Prop := identifier (fst (fst f)) /\ pword (snd f).
Lemma find_tag_word tag (fs : list fdict) i nm d : Forall fword fs -> find_tag tag fs = Some (i, nm, d) -> identifier nm /\ pword d.
Proof.
  intros H. revert i nm d. induction H as [|[[nm0 t0] d0] r H1 _ IH]; intros i nm d; cbn [find_tag]; [discriminate|].
  destruct (t0 =? tag); [intros E; injection E as _ <- <-; exact H1|]. destruct (find_tag tag r) as [[[j n] x]|]; [|discriminate].
  intros E. injection E as _ <- <-. exact (IH _ _ _ eq_refl).
Qed.
Definition uword (u : option (string * dict)) : Prop := match u with Some (nm, d) => identifier nm /\ pword d | None => True end.
Lemma step_word fs u st : Forall fword fs -> uword u -> word (body_step fs u st).
Proof.
  intros Hf Hu. unfold body_step. destruct st as [accs ua]. apply word_next; [exact Logic.I|]. intros tag vh Htag.
  destruct (find_tag tag fs) as [[[i nm] d]|] eqn:E.
  - destruct (find_tag_word _ _ _ _ _ Hf E) as [Hnm [Hd _]]. apply word_op; [exact Hnm|]. intros _u. apply word_bind; [apply Hd|]. intros a.
    apply word_op; [exact Logic.I|]. intros _v. exact Logic.I.
  - destruct u as [[n d]|].
    + destruct Hu as [_ [Hd _]]. apply word_op; [now apply tag_ident|]. intros _u. apply word_bind; [apply Hd|]. intros a. apply word_op; [exact Logic.I|]. intros _v. exact Logic.I.
    + apply word_op; [exact Logic.I|]. intros _u. apply word_op; [exact Logic.I|]. intros _v. exact Logic.I.
Qed.
Lemma finish_one_word nm d a : identifier nm -> pword d -> word (finish_one nm d a).
Proof.
  intros Hnm [_ H]. unfold finish_one. apply word_op; [exact Hnm|]. intros _u. apply word_bind; [apply H|]. intros v. apply word_op; [exact Logic.I|]. intros _v. exact Logic.I.
Qed.
Lemma finish_all_word fs : Forall fword fs -> forall accs, word (finish_all fs accs).
Proof.
  induction 1 as [|[[nm t] d] r [Hnm H1] _ IH]; intros [|a accs]; cbn [finish_all]; try exact Logic.I.
  apply word_bind; [now apply finish_one_word|]. intros v. apply word_bind; [apply IH|]. intros vs. exact Logic.I.
Qed.
Lemma des_word fs u : Forall fword fs -> uword u -> word (des_body fs u).
Proof.
  intros Hf Hu. unfold des_body. apply word_bind; [apply word_loop; intros st; now apply step_word|]. intros [accs ua].
  apply word_bind; [now apply finish_all_word|]. intros vs. destruct u as [[n d]|]; [|exact Logic.I]. destruct Hu as [Hnm Hu].
  apply word_bind; [now apply finish_one_word|]. intros v. exact Logic.I.
Qed.
Lemma default_word d : pword d -> word (body_default d).
Proof.
  intros H. unfold body_default. apply word_bind; [apply des_word; [|exact Logic.I]|].
  - apply Forall_cons; [split; [split; [discriminate|reflexivity]|exact H]|apply Forall_nil].
  - intros [|v [|w r]]; exact Logic.I.
Qed.
Lemma opt_field_word k conv a tag vh : (forall t v, word (conv t v)) -> word (opt_field k conv a tag vh).
Proof. intros H. unfold opt_field. destruct a as [[v|]| | |]; try exact Logic.I. apply word_bind; [apply H|]. intros v. exact Logic.I. Qed.
Lemma opt_fin_word a : word (opt_fin a).
Proof. destruct a as [[v|]| | |]; exact Logic.I. Qed.
Lemma unary_word conv : (forall t v, word (conv t v)) -> dword (unary conv).
Proof.
  intros H. unfold unary, with_default_body. constructor; cbn [d_init d_field d_elem d_fin d_body].
  - intros a tag vh. now apply opt_field_word.
  - intros tag vh. unfold elem_default. apply word_bind; [now apply opt_field_word|intros a; apply opt_fin_word].
  - apply opt_fin_word.
  - apply default_word. split; cbn [d_field d_fin]; intros; [now apply opt_field_word|apply opt_fin_word].
Qed.
Lemma wrapped_word d : pword d -> dword (wrapped d).
Proof.
  intros H. pose proof (default_word _ H) as Hb. destruct H as (H2 & H3). unfold wrapped.
  constructor; cbn [d_init d_field d_elem d_fin d_body]; auto. intros tag vh. apply word_bind; [apply word_plift|]. intros _u. exact Hb.
Qed.
Lemma coll_fin_word a : word (coll_fin a).
Proof. destruct a; exact Logic.I. Qed.
Lemma arr_word n d : dword d -> dword (dict_arr n d).
Proof.
  intros H. unfold dict_arr. apply wrapped_word. split; cbn [d_field d_fin]; intros a.
  - intros tag vh. unfold arr_field. destruct a; try exact Logic.I. destruct (n <=? lenN vs); [exact Logic.I|].
    apply word_bind; [apply (dw_elem _ H)|intros v; exact Logic.I].
  - unfold arr_fin. destruct a; try exact Logic.I. destruct (lenN vs <? n); [destruct vs|]; exact Logic.I.
Qed.
Lemma coll_word ins d : dword d -> dword (dict_coll ins d).
Proof.
  intros H. unfold dict_coll. apply wrapped_word. split; cbn [d_field d_fin]; intros a; [|apply coll_fin_word].
  intros tag vh. unfold coll_field. destruct a; try exact Logic.I. apply word_op; [exact Logic.I|]. intros _u.
  apply word_bind; [apply (dw_elem _ H)|intros v; exact Logic.I].
Qed.
Lemma option_word d : dword d -> dword (dict_option d).
Proof.
  intros H. unfold dict_option. apply wrapped_word. split; cbn [d_field d_fin]; intros a.
  - intros tag vh. apply opt_field_word. intros t v. apply (dw_elem _ H).
  - destruct a; exact Logic.I.
Qed.
Lemma struct_word k body elem : word body -> (forall t v, word (elem t v)) -> dword (dict_struct k body elem).
Proof.
  intros Hb He. unfold dict_struct. constructor; cbn [d_init d_field d_elem d_fin d_body]; auto; intros; [now apply opt_field_word|apply opt_fin_word].
Qed.
Lemma tuple_word ds : lenN ds <= 16 -> Forall dword ds -> dword (dict_tuple ds).
Proof.
  intros Hl H. assert (Hf : forall i, i + lenN ds <= 16 -> Forall fword (tuple_fields i ds)).
  { clear Hl. induction H as [|d r Hd _ IH]; intros i Hi; cbn [tuple_fields]; [apply Forall_nil|]. rewrite lenN_cons in Hi.
    apply Forall_cons; [split; [apply tuple_ident; lia|now apply dword_p]|apply IH; lia]. }
  assert (Hb : word (tuple_body ds)).
  { unfold tuple_body. apply word_bind; [apply des_word; [apply Hf; lia|exact Logic.I]|intros vs; exact Logic.I]. }
  unfold dict_tuple. apply struct_word; [exact Hb|]. intros t v. apply word_bind; [apply word_plift|]. intros _u. exact Hb.
Qed.
Lemma map_word dk dv : dword dk -> dword dv -> dword (dict_map dk dv).
Proof.
  intros Hk Hv. unfold dict_map. apply wrapped_word. split; cbn [d_field d_fin]; intros a.
  - intros tag vh. unfold map_field. destruct a; try exact Logic.I. apply word_op; [exact Logic.I|]. intros _u.
    apply word_bind; [apply dw_elem, tuple_word; [vm_compute; discriminate|]; apply Forall_cons; [exact Hk|apply Forall_cons; [exact Hv|apply Forall_nil]]|].
    intros kv. destruct kv; try exact Logic.I. match goal with |- word (match ?l with [] => _ | _ => _ end) => destruct l as [|? [|? [|]]] end; exact Logic.I.
  - destruct a; exact Logic.I.
Qed.
Lemma read_owned_word vh : word (read_owned vh).
Proof. unfold read_owned. apply word_bind; [apply word_plift|]. intros len. apply word_op; [exact Logic.I|]. intros _u. now apply word_do. Qed.
Lemma read_borrowed_word vh : word (read_borrowed vh).
Proof. unfold read_borrowed. apply word_bind; [apply word_plift|]. intros len. now apply word_do. Qed.
Lemma cow_word zc vh : word (cow_bytes zc vh).
Proof. destruct zc; [apply read_borrowed_word|apply read_owned_word]. Qed.
Lemma vecu8_word : dword dict_vecu8.
Proof.
  assert (Hf : forall a tag vh, word (vecu8_field a tag vh)).
  { intros a tag vh. unfold vecu8_field. destruct a as [[v|]| | |]; try exact Logic.I.
    - apply word_over. intros x. apply word_bind; [apply read_owned_word|]. intros y. exact Logic.I.
    - apply word_bind; [apply read_owned_word|]. intros bs. exact Logic.I. }
  unfold dict_vecu8, with_default_body. constructor; cbn [d_init d_field d_elem d_fin d_body].
  - exact Hf.
  - intros tag vh. apply word_bind; [apply read_owned_word|]. intros bs. exact Logic.I.
  - apply opt_fin_word.
  - apply default_word. split; cbn [d_field d_fin]; [exact Hf|apply opt_fin_word].
Qed.
Lemma read_array_word n vh : word (read_array n vh).
Proof.
  unfold read_array. apply word_bind; [apply word_plift|]. intros len. apply word_op; [exact Logic.I|]. intros rem.
  destruct (rem =? n); [|exact Logic.I]. apply word_op; [exact Logic.I|]. intros bs. exact Logic.I.
Qed.
Lemma arru8_word n : dword (dict_arru8 n).
Proof.
  assert (Hf : forall a tag vh, word (arru8_field n a tag vh)).
  { intros a tag vh. unfold arru8_field. destruct a as [[v|]| | |]; try exact Logic.I.
    - destruct (n <=? 32).
      + apply word_over. intros x. apply word_bind; [apply read_array_word|]. intros y. exact Logic.I.
      + apply word_bind; [exact Logic.I|]. intros x. apply word_bind; [apply read_array_word|]. intros y. exact Logic.I.
    - apply word_bind; [apply read_array_word|]. intros bs. exact Logic.I. }
  assert (Hn : forall a, word (arru8_fin n a)) by (intros [[v|]| | |]; try exact Logic.I; unfold arru8_fin; destruct (n =? 0); exact Logic.I).
  unfold dict_arru8, with_default_body. constructor; cbn [d_init d_field d_elem d_fin d_body].
  - exact Hf.
  - intros tag vh. apply read_array_word.
  - exact Hn.
  - apply default_word. split; cbn [d_field d_fin]; [exact Hf|exact Hn].
Qed.
Lemma unk_node_word (zc : bool) (vh : vhdr) (p : prog (list (N * node))) : word p ->
  word (match vh with
             | HInt n => PRet (NInt n)
             | HBlob _ => b <- cow_bytes zc vh ; PRet (NBlob b)
             | HStruct => fs <- p ; PRet (NStruct fs)
             | HEnum d => fs <- p ; PRet (NEnum d fs)
             end).
Proof.
  intros Hp. destruct vh; try exact Logic.I; [apply word_bind; [apply cow_word|intros; exact Logic.I]| |];
    (apply word_bind; [exact Hp|intros; exact Logic.I]).
Qed.
Lemma unk_body_word zc U : word (unk_body zc U).
Proof.
  induction U as [|f IH]; cbn [unk_body]; [exact Logic.I|].
  apply word_loop. intros fs. apply word_next; [exact Logic.I|]. intros tag vh Htag. apply word_op; [now apply tag_ident|]. intros _u.
  apply word_op; [exact Logic.I|]. intros _v. apply word_bind; [apply unk_node_word, IH|]. intros n. apply word_op; [exact Logic.I|]. intros _w. exact Logic.I.
Qed.
Lemma unk_elem_word zc U vh : word (unk_elem zc U vh).
Proof. unfold unk_elem. apply unk_node_word, unk_body_word. Qed.
Lemma unknown_word zc U : dword (dict_unknown zc U).
Proof.
  assert (Hb : word (fs <- unk_body zc U ; PRet (VUnk fs))) by (apply word_bind; [apply unk_body_word|intros; exact Logic.I]).
  unfold dict_unknown. constructor; cbn [d_init d_field d_elem d_fin d_body].
  - intros a tag vh. unfold unk_field. destruct a; try exact Logic.I. apply word_op; [exact Logic.I|]. intros _u. apply word_bind; [apply unk_elem_word|intros n; exact Logic.I].
  - intros tag vh. apply word_bind; [apply word_plift|]. intros _u. exact Hb.
  - intros a. destruct a; exact Logic.I.
  - exact Hb.
Qed.
Lemma unkfield_word zc U : dword (dict_unkfield zc U).
Proof. unfold dict_unkfield. apply unary_word. intros t v. apply word_bind; [apply unk_elem_word|intros n; exact Logic.I]. Qed.
Lemma construct_word b vs : word (construct b vs).
Proof. unfold construct. destruct (vb_check b vs); exact Logic.I. Qed.
Section Items.
  Variable mk : ty -> dict.
  Hypothesis Hmk : forall t, tuples_ok t -> dword (mk t).
  Lemma fdicts_word fs : Forall (fun f => identifier (fd_name f) /\ tuples_ok (fd_ty f)) fs -> Forall fword (fdicts mk fs).
  Proof. induction 1 as [|f r [H1 H2] _ IH]; cbn [fdicts map]; [apply Forall_nil|apply Forall_cons; [split; [exact H1|apply dword_p, Hmk, H2]|exact IH]]. Qed.
  Lemma vbody_word b : body_in_rust b -> word (vbody_body mk b).
  Proof.
    intros [Hf Hs]. unfold vbody_body. destruct (vb_special b) as [|nm t|nm t].
    - apply word_bind; [apply des_word; [now apply fdicts_word|exact Logic.I]|intros vs; apply construct_word].
    - destruct Hs as [Hnm Ht]. apply word_op; [exact Hnm|]. intros _u. apply word_bind; [apply (dw_body _ (Hmk t Ht))|]. intros dv. apply word_op; [exact Logic.I|]. intros _v.
      apply word_bind; [now apply finish_all_word, fdicts_word|intros vs; apply construct_word].
    - destruct Hs as [Hnm Ht]. apply word_bind; [apply des_word; [now apply fdicts_word|split; [exact Hnm|apply dword_p, Hmk, Ht]]|intros vs; apply construct_word].
  Qed.
  Lemma item_struct_word b : body_in_rust b -> dword (dict_item_struct mk b).
  Proof.
    intros Hb. unfold dict_item_struct. apply struct_word; [now apply vbody_word|]. intros t v. unfold struct_elem.
    destruct (vb_special b) as [|nm t0|nm t0] eqn:E; try (apply word_bind; [apply word_plift|intros _u; now apply vbody_word]).
    destruct Hb as [_ Hs]. rewrite E in Hs. destruct Hs as [Hnm Ht].
    apply word_op; [exact Hnm|]. intros _u. apply word_bind; [apply (dw_elem _ (Hmk t0 Ht))|intros dv]. apply word_op; [exact Logic.I|]. intros _v. apply construct_word.
  Qed.
  Lemma find_variant_in d vars ix b : find_variant d vars = Some (ix, b) -> In (d, b) vars.
  Proof.
    revert ix. induction vars as [|[d' b'] r IH]; intros ix; cbn [find_variant]; [discriminate|]. destruct (d =? d') eqn:E.
    - apply N.eqb_eq in E. intros X. injection X as _ <-. left. congruence.
    - destruct (find_variant d r) as [[j c]|]; [|discriminate]. intros X. injection X as _ <-. right. exact (IH _ eq_refl).
  Qed.
  Lemma item_enum_word vars catch : Forall (fun v => body_in_rust (snd v)) vars -> match catch with Some b => body_in_rust b | None => True end -> dword (dict_item_enum mk vars catch).
  Proof.
    intros Hv Hc. assert (He : forall t v, word (enum_elem mk vars catch t v)).
    { intros t v. unfold enum_elem. apply word_bind; [apply word_plift|]. intros d. destruct (find_variant d vars) as [[ix b]|] eqn:E.
      - apply word_bind; [apply vbody_word|intros x; exact Logic.I]. apply find_variant_in in E. rewrite Forall_forall in Hv. exact (Hv _ E).
      - destruct catch as [b|]; [|exact Logic.I]. apply word_bind; [now apply vbody_word|intros x; exact Logic.I]. }
    unfold dict_item_enum, with_default_body, dict_struct. constructor; cbn [d_init d_field d_elem d_fin d_body].
    - intros a tag vh. now apply opt_field_word.
    - exact He.
    - apply opt_fin_word.
    - apply default_word. split; cbn [d_field d_fin]; intros; [now apply opt_field_word|apply opt_fin_word].
  Qed.
End Items.
Lemma stop_word x : dword (dict_stop x).
Proof. constructor; intros; exact Logic.I. Qed.
Lemma types_word U item_d : (forall zc i, dword (item_d zc i)) -> forall t zc, tuples_ok t -> dword (dict_of U item_d zc t).
Proof.
  intros Hi. apply (ty_ind' (fun t => forall zc, tuples_ok t -> dword (dict_of U item_d zc t))).
  - intros t. destruct t; try exact Logic.I; intros zc _; cbn [dict_of].
    + apply unary_word. intros t v. apply word_bind; [apply word_plift|intros; exact Logic.I].
    + apply unary_word. intros t v. apply word_bind; [apply word_plift|intros; exact Logic.I].
    + apply unary_word. intros t v. apply word_bind; [apply word_plift|intros; exact Logic.I].
    + apply unary_word. intros t v. apply word_bind; [apply word_plift|]. intros n. destruct (char_ok n); exact Logic.I.
    + apply unary_word. intros t v. apply word_bind; [apply word_plift|intros; exact Logic.I].
    + apply unary_word. intros t v. unfold conv_string. apply word_bind; [apply read_owned_word|]. intros b. destruct (utf8_ok b); exact Logic.I.
    + destruct zc; [|apply stop_word]. apply unary_word. intros t v. unfold conv_str_ref. apply word_bind; [apply read_borrowed_word|]. intros b. destruct (utf8_ok b); exact Logic.I.
    + destruct zc; [|apply stop_word]. apply unary_word. intros t v. unfold conv_bytes_ref. apply word_bind; [apply read_borrowed_word|]. intros b. exact Logic.I.
    + destruct zc; apply unary_word; intros t v; [unfold conv_str_ref; apply word_bind; [apply read_borrowed_word|]|unfold conv_string; apply word_bind; [apply read_owned_word|]];
        intros b; destruct (utf8_ok b); exact Logic.I.
    + destruct zc; [|apply vecu8_word]. apply unary_word. intros t v. unfold conv_bytes_ref. apply word_bind; [apply read_borrowed_word|]. intros b. exact Logic.I.
    + apply unknown_word.
    + apply unkfield_word.
    + apply Hi.
  - intros t Ht. split; [|split; [|split; [|split; [|split]]]]; intros zc Hok; cbn [dict_of tuples_ok] in *; specialize (fun z => Ht z Hok).
    + destruct (is_u8 t); [apply vecu8_word|apply coll_word, Ht].
    + apply coll_word, Ht.
    + apply coll_word, Ht.
    + apply option_word, Ht.
    + apply Ht.
    + apply Ht.
  - intros n t Ht zc Hok. cbn [dict_of tuples_ok] in *. destruct (is_u8 t); [apply arru8_word|apply arr_word, Ht, Hok].
  - intros k v Hk Hv zc [Ok Ov]. cbn [dict_of]. apply map_word; auto.
  - intros ts Hts zc [Hl Hok]. cbn [dict_of]. apply tuple_word; [unfold lenN in *; now rewrite map_length|]. clear Hl.
    induction Hts as [|t r Ht _ IH]; cbn [map]; [apply Forall_nil|]. destruct Hok as [H1 H2]. apply Forall_cons; [apply Ht, H1|exact (IH H2)].
Qed.
Lemma items_word e U f : in_rust e -> forall zc i, dword (item_dict e U f zc i).
Proof.
  intros He. induction f as [|f IH]; intros zc i; cbn [item_dict]; [apply stop_word|]. specialize (He i).
  destruct (e i) as [b|vars catch]; [apply item_struct_word|apply item_enum_word]; try apply He; intros t Ht; apply types_word; auto.
Qed.
Lemma full_word e f zc t : in_rust e -> tuples_ok t -> dword (full_dict e f zc t).
Proof. intros He Ht. unfold full_dict. apply types_word; [|exact Ht]. now apply items_word. Qed.

Theorem names e zc cf t s err s' : in_rust e -> tuples_ok t -> from_stream e zc cf t s = (RErr err, s') -> path_ok (e_path err).
Proof.
  intros He Ht H. unfold from_stream in H.
  destruct (run stream_source cf (d_body (full_dict e (S (N.to_nat (cf_rec cf))) zc t)) (top_rst s)) as [r st] eqn:E. injection H as -> <-.
  exact (proj2 (word_run cf _ (dw_body _ (full_word e _ zc t He Ht)) (top_rst s) _ _ (Forall_nil _) E) err eq_refl).
Qed.
Theorem printed e zc cf t s x s1 e' zc' cf' t' s' y s2 tx tx' : in_rust e -> tuples_ok t -> in_rust e' -> tuples_ok t' ->
  from_stream e zc cf t s = (RErr x, s1) -> from_stream e' zc' cf' t' s' = (RErr y, s2) -> show_error tx x = show_error tx' y ->
  e_path x = e_path y /\ (own_words (e_kind x) -> own_words (e_kind y) -> e_kind x = e_kind y).
Proof. intros H1 H2 H3 H4 Hx Hy E. apply (shown tx tx'); [exact (names _ _ _ _ _ _ _ H1 H2 Hx)|exact (names _ _ _ _ _ _ _ H3 H4 Hy)|exact E]. Qed.
