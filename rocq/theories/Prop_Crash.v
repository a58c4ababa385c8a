(** * Properties C60, C61: crashes while writing; reading leaves the input alone *)

From Verif Require Import Base Wire Dev Stream Types Ser Prog De SpecFormat SpecStream SpecBlob SpecHist SpecDe SpecDoc SpecSerDe SpecCrash
  P_DictAll P_SerDe P_Ex P_ReadOnly P_Recover.

(** ** C60.  Over a writer that may fail at any call, after having taken any
    part of what it was given: what has been written is a prefix of the
    encodings of the values, all of it if every call succeeded and a proper
    one if not. *)
Theorem C60_partial_write e tvs : env_wf e ->
  Forall (fun p => has_type e (snd p) (fst p) /\ shape_wf (fst p)) tvs ->
  sumN (map (fun p => size_of e (fst p) (snd p)) tvs) <= U64_MAX ->
  exists bss, Forall2 (fun p b => forall dbg, to_vec e dbg (fst p) (snd p) = ROk b) tvs bss /\
  forall dbg sk data sched r s', write_values e tvs (new_stream dbg sk (mkDev data (lenN data) sched)) = (r, s') ->
  exists n, d_data (s_dev s') = data ++ takeN n (List.concat bss) /\
    ((r = ROk tt /\ n = lenN (List.concat bss)) \/ (exists x, r = RErr x /\ n < lenN (List.concat bss))).
Proof. exact (fun H => partial_write e H tvs). Qed.
Print Assumptions C60_partial_write.

(** Cut the encodings anywhere.  Reading the values back gives exactly those
    whose encodings are complete, then an error unless all are; a reader that
    fails gives fewer.  It never panics and never makes up a value. *)
Theorem C60_recovery e cf zc tvs bss n dbg sk sched vs x s' : env_wf e -> cf_collect cf <= U64_MAX -> cf_blob cf <= U64_MAX ->
  Forall (fun p => storable cf e zc (fst p) (snd p)) tvs ->
  sumN (map (fun p => size_of e (fst p) (snd p)) tvs) + 3 < U64_MAX ->
  Forall2 (fun p b => exists dbg, to_vec e dbg (fst p) (snd p) = ROk b) tvs bss ->
  read_log e zc cf (map fst tvs) (new_stream dbg sk (mkDev (takeN n (List.concat bss)) 0 sched)) = (vs, x, s') ->
  (x = ROk tt \/ exists err, x = RErr err) /\
  (exists j, (j <= complete n bss)%nat /\ vs = firstn j (map snd tvs)) /\
  (x = ROk tt -> lenN (List.concat bss) <= n /\ vs = map snd tvs) /\
  (Forall (fun y => y <> EvFail) sched ->
     vs = firstn (complete n bss) (map snd tvs) /\ (lenN (List.concat bss) <= n -> x = ROk tt)).
Proof. exact (fun H1 H2 H3 => recovery e H1 cf zc H2 H3 tvs bss n dbg sk sched vs x s'). Qed.
Print Assumptions C60_recovery.

(** Both together: whatever happened while writing and while reading, what is
    read is a beginning of what was written; a reader that gets to the end
    knows that nothing was lost; if nothing failed, everything is read. *)
Theorem C60_interrupted e cf zc tvs dw kw schedw r s1 dr kr schedr vs x s2 : env_wf e -> cf_collect cf <= U64_MAX -> cf_blob cf <= U64_MAX ->
  Forall (fun p => storable cf e zc (fst p) (snd p)) tvs ->
  sumN (map (fun p => size_of e (fst p) (snd p)) tvs) + 3 < U64_MAX ->
  write_values e tvs (new_stream dw kw (mkDev [] 0 schedw)) = (r, s1) ->
  read_log e zc cf (map fst tvs) (new_stream dr kr (mkDev (d_data (s_dev s1)) 0 schedr)) = (vs, x, s2) ->
  (exists j, vs = firstn j (map snd tvs)) /\
  (x = ROk tt -> r = ROk tt /\ vs = map snd tvs) /\
  (r = ROk tt -> Forall (fun y => y <> EvFail) schedr -> x = ROk tt /\ vs = map snd tvs).
Proof. exact (fun H1 H2 H3 => interrupted e H1 cf zc H2 H3 tvs dw kw schedw r s1 dr kr schedr vs x s2). Qed.
Print Assumptions C60_interrupted.

(** Three values; the writer fails in the middle of the third; the first two
    are recovered. *)
Definition c60_values : list (ty * value) := [(TItem 0, ex_value); (TUInt 16, VU 3); (TItem 0, ex_value)].
Definition c60_sched : list ev := repeat (EvShort 1) 30 ++ repeat EvIntr 7 ++ repeat (EvShort 2) 5 ++ [EvFail].
Example C60_instance :
  env_wf ex_env /\ Forall (fun p => storable default_cfg ex_env false (fst p) (snd p)) c60_values /\
  sumN (map (fun p => size_of ex_env (fst p) (snd p)) c60_values) + 3 < U64_MAX /\
  exists s1, write_values ex_env c60_values (new_stream true false (mkDev [] 0 c60_sched)) = (RErr (SIo IoOther), s1) /\
    lenN ex_bytes + 3 < lenN (d_data (s_dev s1)) /\ lenN (d_data (s_dev s1)) < 2 * lenN ex_bytes + 3 /\
    exists err s2, read_log ex_env false default_cfg (map fst c60_values) (new_stream true false (mkDev (d_data (s_dev s1)) 0 [EvShort 1; EvIntr])) =
      ([ex_value; VU 3], RErr err, s2).
Proof.
  split; [apply ex_wf|]. split.
  { assert (H3 : storable default_cfg ex_env false (TUInt 16) (VU 3)).
    { split; [constructor; vm_compute; discriminate|right; left; reflexivity|apply ex_deserialisable; cbn; auto|now left|vm_compute; repeat split; discriminate]. }
    unfold c60_values. repeat apply Forall_cons; try apply Forall_nil; cbn [fst snd]; auto using ex_storable. }
  split; [vm_compute; reflexivity|].
  eexists. split; [vm_compute; reflexivity|]. split; [vm_compute; reflexivity|]. split; [vm_compute; reflexivity|].
  eexists _, _. vm_compute. reflexivity.
Qed.

(** ** C61.  Whatever calls that read are made, in whatever order, over
    whatever device, also after errors: the device's contents stay as they
    are, and unless the caller seeks, its cursor only moves forward. *)
Theorem C61_contents_unchanged cs s rs op s' : s_commit s = None -> (forall c, In c cs -> reads c) ->
  run_calls cs ONone s = (rs, (op, s')) -> d_data (s_dev s') = d_data (s_dev s).
Proof. exact (hist_input cs s rs op s'). Qed.
Print Assumptions C61_contents_unchanged.

Theorem C61_cursor_moves_forward cs s rs op s' : s_commit s = None -> (forall c, In c cs -> reads c /\ ~ seeks c) ->
  run_calls cs ONone s = (rs, (op, s')) -> d_pos (s_dev s) <= d_pos (s_dev s').
Proof. exact (hist_forward cs s rs op s'). Qed.
Print Assumptions C61_cursor_moves_forward.

(** Deserialisation, of any type, whatever it returns. *)
Theorem C61_deserialisation e zc cf t s r s' : s_commit s = None \/ s_commit s = Some CSkipBlob ->
  from_stream e zc cf t s = (r, s') ->
  d_data (s_dev s') = d_data (s_dev s) /\ d_pos (s_dev s) <= d_pos (s_dev s') /\
  (s_commit s' = None \/ s_commit s' = Some CSkipBlob).
Proof. exact (from_input e zc cf t s r s'). Qed.
Print Assumptions C61_deserialisation.

(** A history that leaves a blob half read, goes back, and fails. *)
Definition c61_calls : list call :=
  [CNextField; CBlob (BReadExact 2); CNextElement; CCommit; CSeek (SkStart 0); CNextElement; CBlob (BSeek (SkEnd 0)); CSkipUp 0].
Example C61_instance :
  (forall c, In c c61_calls -> reads c) /\
  fst (run_calls c61_calls ONone (new_stream true true (mkDev [0x81; 0x03; 5; 6; 7; 0x42; 0x80; 0x01] 0 [EvShort 1]))) =
    [ROk (VField (Some (mkField 1 0 1 (HBlob 3)))); ROk (VBop (BBytes [5; 6]));
     ROk (VElem (ElField (mkField 2 5 1 (HInt 128)))); ROk VUnit_; ROk (VNum 0);
     ROk (VElem (ElField (mkField 1 0 1 (HBlob 3)))); ROk (VBop (BNum 3)); RErr (SIo IoUnexpectedEof)].
Proof.
  split; [|vm_compute; reflexivity]. intros c Hc. cbn in Hc. repeat (destruct Hc as [<-|Hc]; [exact Logic.I|]). contradiction.
Qed.
