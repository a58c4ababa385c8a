(** * Prop_GraceEq: a graceful end of input stands for an end-of-document marker *)

From Verif Require Import Base Wire Dev Stream Types Ser Prog De SpecWire SpecFormat SpecStream SpecDe SpecDoc SpecSerDe P_GraceEq P_Ex.

(** ** C72.  With [graceful_eof] an input is accepted, and means, exactly what
    it would without it if an end-of-document marker were appended: so an
    input that ends inside an element is not accepted.  True of readers
    without [Seek]. *)
Theorem C72_implied_marker_partial e zc cf t dbg bs sched sched' v : env_ok e -> deserialisable e zc t -> cf_collect cf <= U64_MAX -> cf_blob cf <= U64_MAX ->
  bytes_ok bs -> lenN bs + 4 < U64_MAX -> Forall (fun x => x <> EvFail) sched -> Forall (fun x => x <> EvFail) sched' ->
  fst (from_stream e zc cf t (snd (set_graceful_eof true (new_stream dbg false (mkDev bs 0 sched))))) = ROk v <->
  fst (from_stream e zc cf t (new_stream dbg false (mkDev (bs ++ [0x40]) 0 sched'))) = ROk v.
Proof. exact (graceful_is_implied e zc cf t dbg bs sched sched' v). Qed.
Print Assumptions C72_implied_marker_partial.

(** One half holds of seekable streams too. *)
Theorem C72_marker_not_needed e zc cf t dbg sk bs sched sched' v s1 : env_ok e -> deserialisable e zc t -> cf_collect cf <= U64_MAX -> cf_blob cf <= U64_MAX ->
  bytes_ok bs -> lenN bs + 4 < U64_MAX -> Forall (fun x => x <> EvFail) sched' ->
  from_stream e zc cf t (new_stream dbg sk (mkDev (bs ++ [0x40]) 0 sched)) = (ROk v, s1) ->
  fst (from_stream e zc cf t (snd (set_graceful_eof true (new_stream dbg sk (mkDev bs 0 sched'))))) = ROk v.
Proof. exact (implied_accepts e zc cf t dbg sk bs sched sched' v s1). Qed.
Print Assumptions C72_marker_not_needed.

(** Two structs left open; and the string of length 5 of which only [h] is
    there: refused without [Seek] ... *)
Definition ex_cut : bytes := [0xC1; 0x41; 5].
Definition ex_short : bytes := [0x81; 5; 104].
Definition seq_of (r : res derr value * stream) : option value := match fst r with ROk v => Some v | _ => None end.
Definition ex_grace (sk : bool) (t : ty) (bs : bytes) : option value :=
  seq_of (from_stream ex_env false default_cfg t (snd (set_graceful_eof true (new_stream true sk (mkDev bs 0 [EvIntr]))))).
Example C72_instance :
  ex_grace false (TTuple [TTuple [TUInt 8]]) ex_cut = Some (VRec [VRec [VU 5]]) /\
  seq_of (from_stream ex_env false default_cfg (TTuple [TTuple [TUInt 8]]) (new_stream true false (mkDev (ex_cut ++ [0x40]) 0 []))) = Some (VRec [VRec [VU 5]]) /\
  ex_grace false (TTuple [TString]) ex_short = None /\ deserialisable ex_env false (TTuple [TTuple [TUInt 8]]).
Proof. split; [vm_compute; reflexivity|]. split; [vm_compute; reflexivity|]. split; [vm_compute; reflexivity|].
  intros H. repeat (match goal with X : no_impl _ _ (TTuple _) |- _ => inversion X; subst; clear X end;
    match goal with X : In _ [_] |- _ => destruct X as [<-|[]] end); match goal with X : no_impl _ _ _ |- _ => inversion X end.
Qed.

(** ... but silently accepted, and cut short, from a stream that skips by
    seeking. *)
Theorem C72_seekable_refuted :
  ~ (forall e zc cf t dbg sk bs v, env_ok e -> deserialisable e zc t -> cf_collect cf <= U64_MAX -> cf_blob cf <= U64_MAX ->
     bytes_ok bs -> lenN bs + 4 < U64_MAX ->
     fst (from_stream e zc cf t (snd (set_graceful_eof true (new_stream dbg sk (mkDev bs 0 []))))) = ROk v ->
     fst (from_stream e zc cf t (new_stream dbg sk (mkDev (bs ++ [0x40]) 0 []))) = ROk v).
Proof.
  intros H. assert (Hd : deserialisable ex_env false (TTuple [TString])).
  { intros X. inversion X as [| | | | | | | | |z t ts Hin Hn| | |]; subst. destruct Hin as [<-|[]]. inversion Hn. }
  specialize (H ex_env false default_cfg (TTuple [TString]) true true ex_short (VRec [VStr [104]]) ex_env_ok Hd).
  assert (H1 : cf_collect default_cfg <= U64_MAX) by (vm_compute; discriminate).
  assert (H2 : cf_blob default_cfg <= U64_MAX) by (vm_compute; discriminate).
  assert (H3 : bytes_ok ex_short) by (repeat constructor).
  assert (H4 : lenN ex_short + 4 < U64_MAX) by (vm_compute; reflexivity).
  specialize (H H1 H2 H3 H4). clear H1 H2 H3 H4 Hd. vm_compute in H. specialize (H eq_refl). discriminate H.
Qed.
Print Assumptions C72_seekable_refuted.
