(** * Prop_Elems: reading the elements of a document one at a time *)

From Verif Require Import Base Wire Dev Stream Types Ser Prog De Elems SpecWire SpecFormat SpecStream SpecDe SpecDoc SpecSerDe SpecRead SpecElems
  P_Elems P_Unk P_Ex.
Local Open Scope N_scope.

(** ** C79.  The loop over [next_field] and [deserialize_element] with one
    [Context::top] gives, for a document, the values its fields stand for as
    elements, in order, exactly if together they are within the limits... *)
Theorem C79_one_at_a_time e zc cf t ks s vs : usable e zc cf t -> doc_stream ks s ->
  stream_elements e zc cf t s = ROk vs <-> exists x, elems_denote e (cf_ignore cf) zc t ks vs x /\ fits cf x.
Proof. exact (elems_iff e zc cf t ks s vs). Qed.
Print Assumptions C79_one_at_a_time.

Theorem C79_over_the_limits e zc cf t ks s vs x : usable e zc cf t -> doc_stream ks s ->
  elems_denote e (cf_ignore cf) zc t ks vs x -> ~ fits cf x ->
  exists err, stream_elements e zc cf t s = RErr err /\ exceeds cf x (e_kind err).
Proof. exact (elems_limit e zc cf t ks s vs x). Qed.
Print Assumptions C79_over_the_limits.

(** ... the same as collecting them all does, when that succeeds, and
    collecting succeeds with room for one context and the elements more ... *)
Theorem C79_like_collecting e zc cf t t' ks s vs : sequence_of t t' -> usable e zc cf t -> usable e zc cf t' ->
  doc_stream ks s -> all_elems ks ->
  fst (from_stream e zc cf t' s) = ROk (VList vs) -> stream_elements e zc cf t s = ROk vs.
Proof. exact (like_collecting e zc cf t t' ks s vs). Qed.
Print Assumptions C79_like_collecting.

Theorem C79_collected e zc cf t t' ks s vs : sequence_of t t' -> usable e zc cf t -> usable e zc (roomier (lenN vs) cf) t' ->
  doc_stream ks s -> all_elems ks ->
  stream_elements e zc cf t s = ROk vs -> fst (from_stream e zc (roomier (lenN vs) cf) t' s) = ROk (VList vs).
Proof. exact (collected e zc cf t t' ks s vs). Qed.
Print Assumptions C79_collected.

(** ... the elements are there as soon as their bytes are, whatever comes
    after them, be it nothing ... *)
Theorem C79_as_they_come e zc cf t ks vs x b tl dbg sk sched : cf_collect cf <= U64_MAX -> cf_blob cf <= U64_MAX ->
  elems_denote e (cf_ignore cf) zc t ks vs x -> fits cf x -> encodes (flat ks) b ->
  bytes_ok (b ++ tl) -> lenN (b ++ tl) + 3 < U64_MAX -> Forall (fun y => y <> EvFail) sched ->
  first_elements e (List.length ks) zc cf t (new_stream dbg sk (mkDev (b ++ tl) 0 sched)) = ROk vs.
Proof. exact (first_stream e zc cf t ks vs x b tl dbg sk sched). Qed.
Print Assumptions C79_as_they_come.

(** ... what was written as a collection is read back one by one ... *)
Theorem C79_written e zc cf t t' vs dw dbg sk sched tl : sequence_of t t' -> env_wf e -> cf_collect cf <= U64_MAX -> cf_blob cf <= U64_MAX ->
  deserialisable e zc t -> storable cf e zc t' (VList vs) ->
  bytes_ok tl -> size_of e t' (VList vs) + lenN tl + 3 < U64_MAX -> Forall (fun y => y <> EvFail) sched ->
  exists b, to_vec e dw t' (VList vs) = ROk (b ++ [0x00]) /\
    stream_elements e zc cf t (new_stream dbg sk (mkDev ((b ++ [0x00]) ++ tl) 0 sched)) = ROk vs /\
    first_elements e (List.length vs) zc cf t (new_stream dbg sk (mkDev (b ++ tl) 0 sched)) = ROk vs.
Proof. exact (written_elems e zc cf t t' vs dw dbg sk sched tl). Qed.
Print Assumptions C79_written.

(** ... and whatever the bytes and however the reader delivers them or fails,
    the loop ends, without a panic, with an error or with values of the type
    that are together within the limits. *)
Theorem C79_any_input e zc cf t dbg sk gr bs sched : env_ok e -> deserialisable e zc t ->
  cf_collect cf <= U64_MAX -> cf_blob cf <= U64_MAX -> bytes_ok bs -> lenN bs + 3 < U64_MAX ->
  match stream_elements e zc cf t (set_graceful_ gr (new_stream dbg sk (mkDev bs 0 sched))) with
  | ROk vs => Forall (fun v => has_type e v t) vs /\
              sumN (map coll_count vs) <= cf_collect cf /\ sumN (map (fun v => copied e v zc t) vs) <= cf_blob cf
  | RErr _ => True
  | RPanic | RFuel => False
  end.
Proof. exact (elems_any e zc cf t dbg sk gr bs sched). Qed.
Print Assumptions C79_any_input.

(** Two trees, the second with a padding byte in front of it, its fields in
    another order and a child. *)
Definition ex_trees : list (N * node) :=
  [(1, NStruct [(1, NInt 300); (2, NBlob [104; 105])]);
   (1, NStruct [(2, NBlob [33]); (3, NStruct [(1, NInt 7); (2, NBlob [])]); (1, NInt 200)])].
Definition ex_trees_body : bytes :=
  [0xC1; 0x41; 0xAC; 2; 0x82; 2; 104; 105; 0;
   0xC0; 0xC1; 0x82; 1; 33; 0xC3; 0x41; 7; 0x82; 0; 0; 0x41; 200; 1; 0].
Definition ex_tree_values : list value :=
  [VRec [VU 300; VStr [104; 105]; VList []; VOpt None; VUnk []];
   VRec [VU 200; VStr [33]; VList [VRec [VU 7; VStr []; VList []; VOpt None; VUnk []]]; VOpt None; VUnk []]].
Definition ex_trees_stream : stream := new_stream true false (mkDev ((ex_trees_body ++ [0]) ++ [99]) 0 [EvShort 3; EvIntr; EvShort 1]).
Example ex_trees_enc : encodes (flat ex_trees) ex_trees_body.
Proof. apply encodes_by; reflexivity. Qed.
Example ex_trees_doc : doc_stream ex_trees ex_trees_stream.
Proof.
  apply DocStream; [exists ex_trees_body; split; [exact ex_trees_enc|reflexivity]|apply okb_ok; reflexivity|now apply N.ltb_lt|].
  repeat (apply Forall_cons; [discriminate|]). apply Forall_nil.
Qed.
Example ex_trees_usable zc cf t : cf_collect cf <= U64_MAX -> cf_blob cf <= U64_MAX -> t = TItem 0 \/ t = TVec (TItem 0) -> usable ex_env zc cf t.
Proof.
  intros H1 H2 Ht. split; [exact ex_env_ok|]. split; [|split; assumption].
  apply ex_deserialisable. cbn. destruct Ht as [->| ->]; auto 10.
Qed.
Example C79_instance :
  sequence_of (TItem 0) (TVec (TItem 0)) /\ all_elems ex_trees /\
  usable ex_env false default_cfg (TItem 0) /\ usable ex_env false default_cfg (TVec (TItem 0)) /\
  elems_denote ex_env true false (TItem 0) ex_trees ex_tree_values (mkX 2 1 3) /\ fits default_cfg (mkX 2 1 3) /\
  stream_elements ex_env false default_cfg (TItem 0) ex_trees_stream = ROk ex_tree_values /\
  fst (from_stream ex_env false default_cfg (TVec (TItem 0)) ex_trees_stream) = ROk (VList ex_tree_values).
Proof.
  split; [right; split; reflexivity|]. split; [repeat (apply Forall_cons; [reflexivity|]); apply Forall_nil|].
  split; [apply ex_trees_usable; [vm_compute; discriminate|vm_compute; discriminate|auto]|].
  split; [apply ex_trees_usable; [vm_compute; discriminate|vm_compute; discriminate|auto]|].
  split; [exists 3%nat; vm_compute; reflexivity|]. split; [vm_compute; repeat split; discriminate|].
  split; vm_compute; reflexivity.
Qed.
(** The two limits that collecting needs more of, and the first element from
    a document that breaks off in the second. *)
Example C79_limits :
  stream_elements ex_env false (mkCfg 2 true 3 1) (TItem 0) ex_trees_stream = ROk ex_tree_values /\
  roomier 2 (mkCfg 2 true 3 1) = mkCfg 3 true 3 3 /\
  fst (from_stream ex_env false (mkCfg 3 true 3 3) (TVec (TItem 0)) ex_trees_stream) = ROk (VList ex_tree_values) /\
  fst (from_stream ex_env false (mkCfg 3 true 3 2) (TVec (TItem 0)) ex_trees_stream) = RErr (mkErr [("kids"%string, 14); ("top"%string, 10)] KMaxCollect) /\
  fst (from_stream ex_env false (mkCfg 2 true 3 3) (TVec (TItem 0)) ex_trees_stream) = RErr (mkErr [("kids"%string, 14); ("top"%string, 10)] KRecLimit) /\
  stream_elements ex_env false (mkCfg 2 true 2 1) (TItem 0) ex_trees_stream = RErr (mkErr [("name"%string, 11)] KMaxBlob) /\
  first_elements ex_env 1 false (mkCfg 2 true 3 1) (TItem 0) (new_stream true false (mkDev (takeN 12 ex_trees_body) 0 [])) = ROk (firstn 1 ex_tree_values).
Proof. repeat split; vm_compute; reflexivity. Qed.
Example C79_written_instance :
  storable default_cfg ex_env false (TVec (TItem 0)) (VList [ex_value; ex_value]) /\ env_wf ex_env /\ deserialisable ex_env false (TItem 0).
Proof.
  split; [|split; [exact ex_wf|apply ex_deserialisable; cbn; auto]].
  split; [|exact Logic.I|apply ex_deserialisable; cbn; auto 10|now left|vm_compute; repeat split; discriminate].
  constructor; [reflexivity|]. repeat (apply Forall_cons; [exact ex_typed|]). apply Forall_nil.
Qed.
