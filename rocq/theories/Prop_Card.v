(** * Prop_Card: how often fields may and must occur *)

From Verif Require Import Base Wire Dev Stream Types Ser Prog De SpecWire SpecFormat SpecStream SpecDe SpecDoc SpecSerDe SpecRead SpecCard P_Card P_Unk P_Ex Prop_Meaning.

(** ** C33.  [top_field e zc t tag zc' ft]: the body of a [t] declares a field
    of type [ft] with this tag (SpecCard.v).  One more occurrence than allowed
    (fields [A] that some accepted document starts with, the field once more,
    and anything) is the error; *)
Theorem C33_at_most cf e zc t tag zc' ft A C D n k x s s' w : usable e zc cf t -> top_field e zc t tag zc' ft ->
  at_most ft n k x -> lenN (with_tag tag A) = k ->
  doc_stream (A ++ C) s -> fst (from_stream e zc cf t s) = ROk w -> doc_stream (A ++ (tag, n) :: D) s' ->
  exists err, fst (from_stream e zc cf t s') = RErr err /\ e_kind err = x.
Proof. exact (fun Hu Ht => too_many cf e zc t tag zc' ft Hu Ht A C D n k x s s' w). Qed.
Print Assumptions C33_at_most.

(** fewer than needed (the same as in an accepted document but for the last
    occurrences of the field) is the error as well; *)
Theorem C33_at_least cf e zc t tag zc' ft k ks ks' X s s' w : usable e zc cf t -> top_field e zc t tag zc' ft ->
  at_least e ft k -> without_tag tag ks = without_tag tag ks' -> with_tag tag ks' = with_tag tag ks ++ X -> lenN (with_tag tag ks) < k ->
  doc_stream ks' s' -> fst (from_stream e zc cf t s') = ROk w -> doc_stream ks s ->
  exists err, fst (from_stream e zc cf t s) = RErr err /\ e_kind err = (if lenN (with_tag tag ks) =? 0 then KMissing else KTooFew k).
Proof. exact (fun Hu Ht => too_few cf e zc t tag zc' ft Hu Ht k ks ks' X s s' w). Qed.
Print Assumptions C33_at_least.

(** and in whatever is accepted, every field occurs as often as its type
    says, and all its occurrences are in the value, in order. *)
Theorem C33_accepted e zc cf t tag zc' ft ks s v w : usable e zc cf t -> top_field e zc t tag zc' ft -> doc_stream ks s ->
  fst (from_stream e zc cf t s) = ROk v -> part e t v tag w -> occurs e (cf_ignore cf) zc' ft (with_tag tag ks) w.
Proof. exact (cardinality e zc cf t tag zc' ft ks s v w). Qed.
Print Assumptions C33_accepted.

(** Collections take any number of elements. *)
Theorem C33_any_number e ign zc t fin ct ks us : In (ct, fin) [(TVec t, VList); (TSeq t, VList); (TSet t, as_set)] -> (ct = TVec t -> is_u8 t = false) ->
  Forall2 (fun f u => fst f = 1 /\ stands e ign zc t (snd f) u) ks us -> exists x, denotes e ign zc ct ks (fin us) x.
Proof. exact (any_number e ign zc t fin ct ks us). Qed.
Print Assumptions C33_any_number.

(** Structs and enums declared with [fourleaf_retrofit!] are rejected too if
    they occur twice, but with the wrong error: FieldOccursTooFewTimes. *)
Theorem C33_struct_twice cf e zc t tag zc' i A C D n s s' w : usable e zc cf t -> top_field e zc t tag zc' (TItem i) ->
  lenN (with_tag tag A) = 1 ->
  doc_stream (A ++ C) s -> fst (from_stream e zc cf t s) = ROk w -> doc_stream (A ++ (tag, n) :: D) s' ->
  exists err, fst (from_stream e zc cf t s') = RErr err /\ e_kind err = KTooFew 1.
Proof. exact (fun Hu Ht => struct_twice cf e zc t tag zc' (TItem i) Hu Ht i A C D n s s' w eq_refl). Qed.
Print Assumptions C33_struct_twice.

Theorem C33_too_many_times_refuted :
  ~ (forall cf e zc t tag zc' i A C D n s s' w, usable e zc cf t -> top_field e zc t tag zc' (TItem i) -> lenN (with_tag tag A) = 1 ->
       doc_stream (A ++ C) s -> fst (from_stream e zc cf t s) = ROk w -> doc_stream (A ++ (tag, n) :: D) s' ->
       exists err, fst (from_stream e zc cf t s') = RErr err /\ e_kind err = KTooMany 1).
Proof. exact too_many_refuted. Qed.
Print Assumptions C33_too_many_times_refuted.

(** The tree's shape twice, its name not at all, two of three array elements;
    and a repeated enum. *)
Example C33_instance :
  let s ks := new_stream true false (mkDev (fst ks ++ [0] ++ []) 0 []) in
  let twice := (removelast ex_bytes ++ [0x04; 1; 0], ex_fields ++ [(4, NEnum 1 [])]) in
  let noname := ([0x41; 0xAC; 0x02], [(1, NInt 300)]) in
  let named := ([0x41; 0xAC; 0x02; 0x82; 2; 104; 105], [(1, NInt 300); (2, NBlob [104; 105])]) in
  let three := ([0x41; 7; 0x41; 8; 0x41; 9], [(1, NInt 7); (1, NInt 8); (1, NInt 9)]) in
  let two := ([0x41; 7; 0x41; 8], [(1, NInt 7); (1, NInt 8)]) in
  let arr := TTuple [TArray 3 (TUInt 32)] in
  let one := ([0x01; 1; 0], [(1, NEnum 1 [])]) in
  let shapes := ([0x01; 1; 0; 0x01; 1; 0], [(1, NEnum 1 []); (1, NEnum 1 [])]) in
  (top_field ex_env false (TItem 0) 4 false (TOption (TItem 1)) /\ at_most (TOption (TItem 1)) (NEnum 1 []) 1 (KTooMany 1) /\
   lenN (with_tag 4 ex_fields) = 1 /\ doc_stream (ex_fields ++ []) (new_stream true false (mkDev ex_bytes 0 [])) /\
   doc_stream (snd twice) (s twice) /\
   fst (from_stream ex_env false default_cfg (TItem 0) (s twice)) = RErr (mkErr [("shape"%string, 29)] (KTooMany 1))) /\
  (top_field ex_env false (TItem 0) 2 false TString /\ at_least ex_env TString 1 /\
   doc_stream (snd noname) (s noname) /\ doc_stream (snd named) (s named) /\ with_tag 2 (snd named) = [] ++ [(2, NBlob [104; 105])] /\
   fst (from_stream ex_env false default_cfg (TItem 0) (s named)) = ROk (VRec [VU 300; VStr [104; 105]; VList []; VOpt None; VUnk []]) /\
   fst (from_stream ex_env false default_cfg (TItem 0) (s noname)) = RErr (mkErr [("name"%string, 4)] KMissing) /\
   part ex_env (TItem 0) (VRec [VU 300; VStr [104; 105]; VList []; VOpt None; VUnk []]) 3 (VList [])) /\
  (top_field ex_env false arr 1 false (TArray 3 (TUInt 32)) /\ at_least ex_env (TArray 3 (TUInt 32)) 3 /\ doc_stream (snd three) (s three) /\ doc_stream (snd two) (s two) /\
   fst (from_stream ex_env false default_cfg arr (s three)) = ROk (VRec [VArr [VU 7; VU 8; VU 9]]) /\
   (exists l, fst (from_stream ex_env false default_cfg arr (s two)) = RErr (mkErr l (KTooFew 3)))) /\
  (top_field ex_env false (TTuple [TItem 1]) 1 false (TItem 1) /\ doc_stream (snd one) (s one) /\ doc_stream (snd shapes) (s shapes) /\
   fst (from_stream ex_env false default_cfg (TTuple [TItem 1]) (s one)) = ROk (VRec [VVar 0 (VRec [])]) /\
   (exists l, fst (from_stream ex_env false default_cfg (TTuple [TItem 1]) (s shapes)) = RErr (mkErr l (KTooFew 1)))) /\
  Forall2 (fun f u => fst f = 1 /\ stands ex_env true false (TUInt 32) (snd f) u) [(1, NInt 7); (1, NInt 8)] [VU 7; VU 8].
Proof.
  cbv zeta. cbn [fst snd]. split; [|split; [|split; [|split]]].
  - split; [now apply (TfStruct ex_env false 0 ex_tree)|]. split; [constructor|]. split; [reflexivity|].
    split; [apply (doc_by ex_fields (removelast ex_bytes) [] true false); reflexivity|].
    split; [apply doc_by; reflexivity|vm_compute; reflexivity].
  - split; [now apply (TfStruct ex_env false 0 ex_tree)|]. split; [apply AlSimple; cbn; tauto|].
    split; [apply doc_by; reflexivity|]. split; [apply doc_by; reflexivity|]. split; [reflexivity|].
    split; [vm_compute; reflexivity|]. split; [vm_compute; reflexivity|].
    apply (PtStruct ex_env 0 ex_tree _ 2 (mkF "kids" 3 (TVec (TItem 0)))); try reflexivity.
    repeat (apply NoDup_cons; [cbn; intuition discriminate|]). apply NoDup_nil.
  - split; [now apply TfTuple|]. split; [now apply AlArray|]. split; [apply doc_by; reflexivity|]. split; [apply doc_by; reflexivity|].
    split; [vm_compute; reflexivity|eexists; vm_compute; reflexivity].
  - split; [now apply TfTuple|]. split; [apply doc_by; reflexivity|]. split; [apply doc_by; reflexivity|].
    split; [vm_compute; reflexivity|eexists; vm_compute; reflexivity].
  - repeat (apply Forall2_cons; [split; [reflexivity|]; exists O; eexists; reflexivity|]). apply Forall2_nil.
Qed.
