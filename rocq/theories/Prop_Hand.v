(** * Prop_Hand: reading and writing documents field by field *)

From Verif Require Import Base Wire Dev Stream Types Ser Prog De Hand SpecWire SpecFormat SpecStream SpecDe SpecDoc SpecSerDe SpecRead SpecElems SpecHand
  P_Hand P_Unk P_Ex.
Local Open Scope N_scope.

(** ** C80.  A loop that reads the fields of some tags each as an element of
    a type of its own and skips all others gives, for a document, the values
    those fields stand for, with their tags, in order, exactly if together
    they are within the limits... *)
Theorem C80_reads_what_is_asked_for e zc cf pick ks s vs : pickable e zc cf pick -> doc_stream ks s ->
  stream_picks e zc cf pick s = ROk vs <-> exists x, picks_denote e (cf_ignore cf) zc pick ks vs x /\ fits cf x.
Proof. exact (picks_iff e zc cf pick ks s vs). Qed.
Print Assumptions C80_reads_what_is_asked_for.

Theorem C80_over_the_limits e zc cf pick ks s vs x : pickable e zc cf pick -> doc_stream ks s ->
  picks_denote e (cf_ignore cf) zc pick ks vs x -> ~ fits cf x ->
  exists err, stream_picks e zc cf pick s = RErr err /\ exceeds cf x (e_kind err).
Proof. exact (picks_limit e zc cf pick ks s vs x). Qed.
Print Assumptions C80_over_the_limits.

(** ... whatever the other fields hold, however large or deep ... *)
Theorem C80_others_do_not_matter e zc cf pick ks ks' s s' vs : pickable e zc cf pick -> doc_stream ks s -> doc_stream ks' s' ->
  wanted pick ks = wanted pick ks' ->
  stream_picks e zc cf pick s = ROk vs <-> stream_picks e zc cf pick s' = ROk vs.
Proof. exact (picks_others e zc cf pick ks ks' s s' vs). Qed.
Print Assumptions C80_others_do_not_matter.

(** ... whatever the bytes and however the reader delivers them or fails, the
    loop ends, without a panic, with an error or with values of the types
    asked for that are together within the limits ... *)
Theorem C80_any_input e zc cf pick dbg sk gr bs sched : pickable e zc cf pick -> bytes_ok bs -> lenN bs + 3 < U64_MAX ->
  match stream_picks e zc cf pick (set_graceful_ gr (new_stream dbg sk (mkDev bs 0 sched))) with
  | ROk vs => Forall (fun p => exists t, pick (fst p) = Some t /\ has_type e (snd p) t) vs /\
              sumN (map (fun p => coll_count (snd p)) vs) <= cf_collect cf /\ sumN (map (copied_at e zc pick) vs) <= cf_blob cf
  | RErr _ => True
  | RPanic | RFuel => False
  end.
Proof. exact (picks_any e zc cf pick dbg sk gr bs sched). Qed.
Print Assumptions C80_any_input.

(** ... values written field by field, however the writer takes the bytes,
    are read back field by field, those asked for, whatever follows the
    document ... *)
Theorem C80_written e zc cf pick its dw sw dbg sk sched tl : env_wf e -> pickable e zc cf pick -> items_ok cf e zc its -> reads_back pick its ->
  bytes_ok tl -> items_size e its + lenN tl + 3 < U64_MAX -> Forall (fun y => y <> EvFail) sw -> Forall (fun y => y <> EvFail) sched ->
  exists s', write_record e its (new_stream dw false (mkDev [] 0 sw)) = (ROk tt, s') /\
    stream_picks e zc cf pick (new_stream dbg sk (mkDev (d_data (s_dev s') ++ tl) 0 sched)) = ROk (picked pick its).
Proof. exact (written_picks e zc cf pick its dw sw dbg sk sched tl). Qed.
Print Assumptions C80_written.

(** ... writing elements one by one under tag 1 is writing the collection
    of them. *)
Theorem C80_sequence e t t' vs s : sequence_of t t' ->
  write_record e (map (mkItem 1 t) vs) s = to_stream e t' (VList vs) s.
Proof. exact (record_seq e t t' vs s). Qed.
Print Assumptions C80_sequence.

(** ... and writing the fields of a struct one by one, collections element by
    element, unknown fields last, is writing the struct, ... *)
Theorem C80_struct e i b vs its s : e i = IStruct b -> record_items b vs its ->
  write_record e its s = to_stream e (TItem i) (VRec vs) s.
Proof. exact (record_struct e i b vs its s). Qed.
Print Assumptions C80_struct.

(** ... which the struct's type then reads. *)
Theorem C80_read_as_struct e zc cf i b vs its dw sw dbg sk sched tl : env_wf e -> cf_collect cf <= U64_MAX -> cf_blob cf <= U64_MAX ->
  e i = IStruct b -> record_items b vs its -> storable cf e zc (TItem i) (VRec vs) ->
  bytes_ok tl -> size_of e (TItem i) (VRec vs) + lenN tl + 3 < U64_MAX -> Forall (fun y => y <> EvFail) sw -> Forall (fun y => y <> EvFail) sched ->
  exists s', write_record e its (new_stream dw false (mkDev [] 0 sw)) = (ROk tt, s') /\
    fst (from_stream e zc cf (TItem i) (new_stream dbg sk (mkDev (d_data (s_dev s') ++ tl) 0 sched))) = ROk (VRec vs).
Proof. exact (struct_reads e zc cf i b vs its dw sw dbg sk sched tl). Qed.
Print Assumptions C80_read_as_struct.

(** Four fields of three types; the text under tag 5 is not asked for. *)
Definition ex_items : list item_ :=
  [mkItem 3 (TUInt 16) (VU 7); mkItem 5 TString (VStr [104; 105]); mkItem 3 (TUInt 16) (VU 9); mkItem 9 (TItem 0) ex_value].
Definition ex_pick (tag : N) : option ty := if tag =? 3 then Some (TUInt 16) else if tag =? 9 then Some (TItem 0) else None.
Definition ex_small : cfg := mkCfg 100 true 100 100.
Example C80_instance :
  env_wf ex_env /\ pickable ex_env false ex_small ex_pick /\ items_ok ex_small ex_env false ex_items /\ reads_back ex_pick ex_items /\
  picked ex_pick ex_items = [(3, VU 7); (3, VU 9); (9, ex_value)] /\
  exists s', write_record ex_env ex_items (new_stream true false (mkDev [] 0 [EvShort 3; EvIntr; EvShort 1])) = (ROk tt, s') /\
    takeN 9 (d_data (s_dev s')) = [0x43; 7; 0x85; 2; 104; 105; 0x43; 9; 0xC9] /\
    stream_picks ex_env false ex_small ex_pick (new_stream true false (mkDev (d_data (s_dev s') ++ [99]) 0 [EvShort 2; EvIntr; EvShort 1])) =
      ROk [(3, VU 7); (3, VU 9); (9, ex_value)].
Proof.
  split; [exact ex_wf|]. split.
  { split; [exact ex_env_ok|]. split; [|split; vm_compute; discriminate].
    intros tag t. unfold ex_pick. destruct (tag =? 3); [intros [= <-]; apply ex_deserialisable; cbn; auto 10|].
    destruct (tag =? 9); [intros [= <-]; apply ex_deserialisable; cbn; auto 10|discriminate]. }
  split.
  { split; [|split; vm_compute; discriminate].
    repeat (apply Forall_cons; [split; [split; vm_compute; discriminate| | |apply ex_deserialisable; cbn; auto 10|now left|vm_compute; discriminate]|]); [..|apply Forall_nil].
    all: cbn [it_val it_ty it_tag]; try exact ex_typed; try exact Logic.I.
    - constructor. vm_compute. discriminate.
    - cbn. unfold width_ok. auto.
    - apply TyStr; [now left| |reflexivity]. repeat (apply Forall_cons; [now apply N.ltb_lt|]); apply Forall_nil.
    - constructor. vm_compute. discriminate.
    - cbn. unfold width_ok. auto. }
  split; [repeat (apply Forall_cons; [vm_compute; auto|]); apply Forall_nil|]. split; [reflexivity|].
  eexists. split; [vm_compute; reflexivity|]. split; vm_compute; reflexivity.
Qed.
(** A document whose fields of other tags are nested beyond the recursion
    limit is read all the same; the fields asked for are not. *)
Definition ex_deep : list (N * node) := [(3, NInt 7); (5, NStruct [(1, NStruct [(1, NStruct [(1, NStruct [])])])]); (9, NStruct [(1, NInt 300); (2, NBlob [104; 105])])].
Definition ex_deep_bytes : bytes := [0x43; 7; 0xC5; 0xC1; 0xC1; 0xC1; 0; 0; 0; 0; 0xC9; 0x41; 0xAC; 2; 0x82; 2; 104; 105; 0].
Definition ex_deep_stream : stream := new_stream true false (mkDev ((ex_deep_bytes ++ [0]) ++ [99]) 0 [EvShort 3; EvIntr; EvShort 1]).
Example C80_deep_instance :
  doc_stream ex_deep ex_deep_stream /\
  wanted ex_pick ex_deep = [(3, NInt 7); (9, NStruct [(1, NInt 300); (2, NBlob [104; 105])])] /\
  picks_denote ex_env true false ex_pick ex_deep [(3, VU 7); (9, VRec [VU 300; VStr [104; 105]; VList []; VOpt None; VUnk []])] (mkX 1 0 2) /\
  stream_picks ex_env false (mkCfg 1 true 2 0) ex_pick ex_deep_stream = ROk [(3, VU 7); (9, VRec [VU 300; VStr [104; 105]; VList []; VOpt None; VUnk []])] /\
  stream_picks ex_env false (mkCfg 0 true 2 0) ex_pick ex_deep_stream = RErr (mkErr [] KRecLimit) /\
  stream_picks ex_env false (mkCfg 1 true 1 0) ex_pick ex_deep_stream = RErr (mkErr [("name"%string, 14)] KMaxBlob).
Proof.
  split.
  { apply DocStream; [exists ex_deep_bytes; split; [apply encodes_by; reflexivity|reflexivity]|apply okb_ok; reflexivity|now apply N.ltb_lt|].
    repeat (apply Forall_cons; [discriminate|]). apply Forall_nil. }
  split; [reflexivity|]. split; [exists 3%nat; vm_compute; reflexivity|]. split; [|split]; vm_compute; reflexivity.
Qed.
(** The tree of [ex_value], field by field. *)
Example C80_struct_instance :
  ex_env 0%nat = IStruct ex_tree /\
  (exists vs, ex_value = VRec vs /\
    record_items ex_tree vs
      [mkItem 1 (TUInt 16) (VU 300); mkItem 2 TString (VStr [104; 105]);
       mkItem 3 (TItem 0) (VRec [VU 7; VStr []; VList []; VOpt None; VUnk []]);
       mkItem 4 (TItem 1) (VVar 1 (VRec [VS (-3); VS 5]));
       mkItem 9 TUnkField (VNode (NStruct [(1, NInt 5); (2, NBlob [1; 2; 3])]))]) /\
  storable default_cfg ex_env false (TItem 0) ex_value.
Proof.
  split; [reflexivity|]. split; [|exact (ex_storable false)]. eexists. split; [reflexivity|].
  refine (RiUnknown ex_tree "rest"%string [_; _; _; _] [_; _; _; _] _ eq_refl _).
  apply AiOne; [reflexivity|]. apply AiOne; [reflexivity|].
  refine (AiSeq (mkF "kids" 3 (TVec (TItem 0))) (TItem 0) [_] _ _ _ (or_introl (or_intror (conj eq_refl eq_refl))) _).
  apply (AiSome (mkF "shape" 4 (TOption (TItem 1))) (TItem 1)); [reflexivity|]. apply AiNil.
Qed.
