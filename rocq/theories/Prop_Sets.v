(** * Prop_Sets: sets and maps have no order (C62) *)

From Verif Require Import Base Wire Dev Stream SpecFormat Types Ser Prog De SpecDe SpecListing SpecDoc SpecSerDe SpecRead P_Ord P_Unk P_Ex P_Listing.

(** ** C62.  Whatever order a hash table hands out its elements in, at any
    depth, what is written reads back as the same value. *)
Theorem C62_any_order e cf zc t v' v dw dr : env_wf e -> cf_collect cf <= U64_MAX -> cf_blob cf <= U64_MAX ->
  listing_type e v' t -> lists e v' v t -> has_type e v t -> shape_wf t -> deserialisable e zc t ->
  cf_ignore cf = true \/ no_unit_body e t -> admits cf e zc v' t -> size_of e t v' + 3 < U64_MAX ->
  exists bs, to_vec e dw t v' = ROk bs /\ fst (from_stream e zc cf t (from_slice dr bs)) = ROk v.
Proof. exact (listed_round_trip e cf zc t v' v dw dr). Qed.
Print Assumptions C62_any_order.

(** A document is read as a set exactly if it is read as a sequence, and the
    set is that of the elements of the sequence. *)
Theorem C62_set_of_sequence e zc cf t ks s w : usable e zc cf (TSet t) -> doc_stream ks s ->
  fst (from_stream e zc cf (TSet t) s) = ROk w <-> exists vs ws, fst (from_stream e zc cf (TSeq t) s) = ROk (VList vs) /\
    w = VList ws /\ ascending ws /\ forall x, In x ws <-> In x vs.
Proof. exact (set_read e zc cf t ks s w). Qed.
Print Assumptions C62_set_of_sequence.

(** The same for maps and sequences of pairs: the last value of a key counts. *)
Theorem C62_map_of_pairs e zc cf tk tv ks s w : usable e zc cf (TMap tk tv) -> doc_stream ks s ->
  fst (from_stream e zc cf (TMap tk tv) s) = ROk w <-> exists l kvs, fst (from_stream e zc cf (TSeq (TTuple [tk; tv])) s) = ROk (VList (map pair_of l)) /\
    w = VMap kvs /\ ascending (map fst kvs) /\ forall k v, In (k, v) kvs <-> finally k v l.
Proof. exact (map_read e zc cf tk tv ks s w). Qed.
Print Assumptions C62_map_of_pairs.

(** A [HashMap<u8, HashSet<u8>>] handed out from the last key to the first,
    and the bytes that makes. *)
Example C62_instance :
  let t := TMap (TUInt 8) (TSet (TUInt 8)) in
  let v := VMap [(VU 1, VList [VU 2; VU 5]); (VU 7, VList [VU 3])] in
  let v' := VMap [(VU 7, VList [VU 3; VU 3]); (VU 1, VList [VU 5; VU 2])] in
  let bs := [0xC1; 0x41; 7; 0x42; 3; 0x42; 3; 0x00; 0xC1; 0x41; 1; 0x42; 5; 0x42; 2; 0x00; 0x00] in
  listing_type ex_env v' t /\ lists ex_env v' v t /\ has_type ex_env v t /\ shape_wf t /\ deserialisable ex_env false t /\
  admits default_cfg ex_env false v' t /\ size_of ex_env t v' + 3 < U64_MAX /\
  to_vec ex_env true t v' = ROk bs /\ to_vec ex_env true t v <> ROk bs /\
  fst (from_stream ex_env false default_cfg t (from_slice true bs)) = ROk v.
Proof.
  assert (H8 : forall o n, n <= 255 -> typed_by o ex_env (VU n) (TUInt 8)) by (intros; now apply TyUInt).
  assert (HS : forall (o : list value -> Prop) vs, Forall (fun v => typed_by o ex_env v (TUInt 8)) vs -> o vs -> typed_by o ex_env (VList vs) (TSet (TUInt 8))) by (intros; now apply TySet).
  assert (Asc : forall a b, value_cmp a b = Lt -> ascending [a; b]).
  { intros a b H. constructor; [apply asc_one|]. constructor; [exact H|constructor]. }
  split.
  { apply TyMap; [| |exact Logic.I]; repeat (apply Forall_cons || apply Forall_nil); cbn [fst snd]; try (apply H8; lia);
      (apply HS; [|exact Logic.I]); repeat (apply Forall_cons || apply Forall_nil); apply H8; lia. }
  split.
  { assert (Hl : forall n, lists ex_env (VU n) (VU n) (TUInt 8)) by (intros; now apply LiLeaf).
    apply (LiMap ex_env (TUInt 8) (TSet (TUInt 8))
      [((VU 7, VList [VU 3; VU 3]), (VU 7, VList [VU 3])); ((VU 1, VList [VU 5; VU 2]), (VU 1, VList [VU 2; VU 5]))]).
    - repeat (apply Forall_cons || apply Forall_nil); cbn [fst snd]; split; auto.
      + apply (LiSet ex_env (TUInt 8) [(VU 3, VU 3); (VU 3, VU 3)] [VU 3]); [repeat constructor|apply asc_one|cbn; tauto].
      + apply (LiSet ex_env (TUInt 8) [(VU 5, VU 5); (VU 2, VU 2)] [VU 2; VU 5]); [repeat constructor|now apply Asc|cbn; tauto].
    - now apply Asc.
    - repeat constructor; cbn; intuition discriminate.
    - intros p. cbn. tauto. }
  split.
  { apply TyMap; [| |now apply Asc]; repeat (apply Forall_cons || apply Forall_nil); cbn [fst snd]; try (apply H8; lia);
      (apply HS; [|first [now apply Asc|apply asc_one]]); repeat (apply Forall_cons || apply Forall_nil); apply H8; lia. }
  split; [cbn; unfold width_ok; repeat split; auto|].
  split. { intros H. repeat match goal with X : no_impl _ _ _ |- _ => inversion X; clear X; subst end. }
  split; [vm_compute; repeat split; discriminate|]. split; [vm_compute; reflexivity|].
  split; [vm_compute; reflexivity|]. split; [vm_compute; discriminate|]. vm_compute. reflexivity.
Qed.

(** A document with a repeated element and one with a repeated key. *)
Example C62_instance_documents :
  let set := [0x41; 9; 0x41; 4; 0x41; 9; 0x00] in
  let pairs := [0xC1; 0x41; 4; 0x42; 1; 0x00; 0xC1; 0x41; 2; 0x42; 6; 0x00; 0xC1; 0x41; 4; 0x42; 3; 0x00; 0x00] in
  doc_stream [(1, NInt 9); (1, NInt 4); (1, NInt 9)] (from_slice true set) /\
  fst (from_stream ex_env false default_cfg (TSet (TUInt 8)) (from_slice true set)) = ROk (VList [VU 4; VU 9]) /\
  doc_stream [(1, NStruct [(1, NInt 4); (2, NInt 1)]); (1, NStruct [(1, NInt 2); (2, NInt 6)]); (1, NStruct [(1, NInt 4); (2, NInt 3)])] (from_slice true pairs) /\
  fst (from_stream ex_env false default_cfg (TMap (TUInt 8) (TUInt 8)) (from_slice true pairs)) = ROk (VMap [(VU 2, VU 6); (VU 4, VU 3)]) /\
  finally (VU 4) (VU 3) [(VU 4, VU 1); (VU 2, VU 6); (VU 4, VU 3)].
Proof.
  split; [apply (doc_by _ (removelast [0x41; 9; 0x41; 4; 0x41; 9; 0x00]) [] true true); reflexivity|].
  split; [vm_compute; reflexivity|].
  split; [apply (doc_by _ (removelast [0xC1; 0x41; 4; 0x42; 1; 0x00; 0xC1; 0x41; 2; 0x42; 6; 0x00; 0xC1; 0x41; 4; 0x42; 3; 0x00; 0x00]) [] true true); reflexivity|].
  split; [vm_compute; reflexivity|]. exists [(VU 4, VU 1); (VU 2, VU 6)], []. cbn. tauto.
Qed.
