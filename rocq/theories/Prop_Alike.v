(** * Prop_Alike: types that stand for one another (C82) *)

From Verif Require Import Base Wire Dev Stream Types Ser Prog De SpecAlike P_Alike P_AlikeW.
Local Open Scope N_scope.

(** ** C82.  Replacing types by others that stand for them, in the type read
    and anywhere in the definitions it uses, changes nothing in reading: the
    same value or the same error, from every stream, leaving it in the same
    state. *)
Theorem C82_reading e e' zc cf t t' s :
  env_alike false zc e e' -> alike zc t t' -> from_stream e zc cf t s = from_stream e' zc cf t' s.
Proof. exact (read_same e e' zc cf t t' s). Qed.
Print Assumptions C82_reading.

(** Nor in writing. *)
Theorem C82_writing free zc e e' t t' v :
  env_alike free zc e e' -> alike zc t t' ->
  (forall s, to_stream e t v s = to_stream e' t' v s) /\ (forall dbg, to_vec e dbg t v = to_vec e' dbg t' v).
Proof. exact (fun He Ht => conj (fun s => write_same free zc e e' t t' v s He Ht) (fun dbg => to_vec_same free zc e e' dbg t t' v He Ht)). Qed.
Print Assumptions C82_writing.

(** If moreover fields are renamed ([free]), still the same values are read
    and the same inputs refused for the same reason at the same place; only
    the names in the location of an error differ. *)
Theorem C82_renaming free e e' zc cf t t' s :
  env_alike free zc e e' -> alike zc t t' ->
  same_outcome free (fst (from_stream e zc cf t s)) (fst (from_stream e' zc cf t' s)) /\
  snd (from_stream e zc cf t s) = snd (from_stream e' zc cf t' s).
Proof. exact (read_alike free e e' zc cf t t' s). Qed.
Print Assumptions C82_renaming.

(** A struct of a [String] and a [Vec<Option<Vec<u8>>>], and one of a
    [Box<Cow<str>>] and a [VecDeque<Rc<Option<Cow<[u8]>>>>] with another name
    for its first field. *)
Definition old_env : env := fun _ =>
  IStruct (mkB [mkF "name" 1 TString; mkF "parts" 2 (TVec (TOption (TVec (TUInt 8))))] SpNone (fun _ => true)).
Definition new_env : env := fun _ =>
  IStruct (mkB [mkF "title" 1 (TBox TCowStr); mkF "parts" 2 (TSeq (TBox (TOption TCowBytes)))] SpNone (fun _ => true)).
Example C82_instance :
  env_alike true false old_env new_env /\ alike false (TItem 0) (TBox (TItem 0)) /\
  let v := VRec [VStr [104; 105]; VList [VOpt (Some (VBytes [7])); VOpt None]] in
  let doc := [129; 2; 104; 105; 194; 129; 1; 7; 0; 194; 0; 0] in
  to_vec old_env true (TItem 0) v = ROk doc /\ to_vec new_env true (TBox (TItem 0)) v = ROk doc /\
  from_slice_copy old_env true default_cfg (TItem 0) doc = ROk v /\
  from_slice_copy new_env true default_cfg (TBox (TItem 0)) doc = ROk v /\
  from_slice_copy old_env true default_cfg (TItem 0) [65; 5] = RErr (mkErr [("name"%string, 0)] (KStream (SUnexpectedType FBlob FInteger))) /\
  from_slice_copy new_env true default_cfg (TBox (TItem 0)) [65; 5] = RErr (mkErr [("title"%string, 0)] (KStream (SUnexpectedType FBlob FInteger))).
Proof.
  assert (Hb : body_alike true false
    (mkB [mkF "name" 1 TString; mkF "parts" 2 (TVec (TOption (TVec (TUInt 8))))] SpNone (fun _ => true))
    (mkB [mkF "title" 1 (TBox TCowStr); mkF "parts" 2 (TSeq (TBox (TOption TCowBytes)))] SpNone (fun _ => true))).
  { split; [|split; [exact Logic.I|reflexivity]]. constructor; [|constructor; [|constructor]].
    - split; [now left|split; [reflexivity|]]. apply LkSym. eapply LkTrans; [apply LkBox|apply LkCowStr].
    - split; [now left|split; [reflexivity|]]. cbn [fd_ty]. eapply LkTrans; [apply LkSeq; discriminate|]. apply LkInSeq, LkSym.
      eapply LkTrans; [apply LkBox|]. apply LkInOption, LkCowBytes. }
  split; [intros i; exact (conj Hb Hb)|]. split; [apply LkSym, LkBox|]. cbv zeta.
  split; [vm_compute; reflexivity|]. split; [vm_compute; reflexivity|]. split; [vm_compute; reflexivity|].
  split; [vm_compute; reflexivity|]. split; vm_compute; reflexivity.
Qed.

(** Why [u8] is an exception: [Vec<u8>] is a blob, [Vec<Box<u8>>] is not. *)
Example C82_u8 :
  to_vec old_env true (TVec (TUInt 8)) (VBytes [7]) = ROk [129; 1; 7; 0] /\
  to_vec old_env true (TVec (TBox (TUInt 8))) (VList [VU 7]) = ROk [65; 7; 0].
Proof. split; vm_compute; reflexivity. Qed.
