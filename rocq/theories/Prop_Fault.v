(** * Prop_Fault: errors tell what is wrong with the document, and where (C65) *)

From Verif Require Import Base Wire Dev Stream Types Prog Ser De SpecFormat SpecStream SpecHist SpecDe SpecDoc SpecSerDe SpecRead SpecText SpecFault
  P_Unk P_Ex P_DeProps P_Loc Prop_Meaning.

(** ** C65.  When deserialising a document fails, the context path of the
    error, read from the outside in, leads to a place in the document that is
    faulty in the way the error's kind says.  A depth error is reported
    exactly where the permitted depth is used up. *)
Theorem C65_located e zc cf t ks s x s' : usable e zc cf t -> doc_stream ks s -> from_stream e zc cf t s = (RErr x, s') ->
  body_fault e (cf_ignore cf) zc t ks (rev (map fst (e_path x))) (e_kind x) /\
  (e_kind x = KRecLimit -> lenN (e_path x) = cf_rec cf).
Proof. exact (located e zc cf t ks s x s'). Qed.
Print Assumptions C65_located.

(** Faults are real: a document with one anywhere (limits aside) cannot be
    read. *)
Theorem C65_real e zc cf t ks s p k : usable e zc cf t -> doc_stream ks s -> body_fault e (cf_ignore cf) zc t ks p k -> ~ a_limit k ->
  exists err, fst (from_stream e zc cf t s) = RErr err.
Proof. exact (fault_fails e zc cf t ks s p k). Qed.
Print Assumptions C65_real.

(** The child of a tree lacks its name; has two numbers; its number is a
    string; its number is too big; its name is no text; its shape lacks a
    coordinate.  The first of these in full. *)
Example C65_instance :
  let run bs := match from_slice_copy ex_env true default_cfg (TItem 0) bs with
                | RErr x => Some (rev (map fst (e_path x)), e_kind x) | _ => None end in
  let bytes ks := [0x41; 1; 0x82; 0; 0xC3] ++ ks ++ [0; 0] in
  run (bytes [0x41; 7]) = Some (["kids"; "name"]%string, KMissing) /\
  run (bytes [0x41; 7; 0x41; 8; 0x82; 0]) = Some (["kids"; "id"]%string, KTooMany 1) /\
  run (bytes [0x81; 0; 0x82; 0]) = Some (["kids"; "id"]%string, wrong_kind FInteger (NBlob [])) /\
  run (bytes [0x41; 0xFF; 0xFF; 0x7F; 0x82; 0]) = Some (["kids"; "id"]%string, out_of_range) /\
  run (bytes [0x41; 7; 0x82; 1; 0xFF]) = Some (["kids"; "name"]%string, KInvalid) /\
  run (bytes [0x41; 7; 0x82; 0; 0x04; 2; 0x41; 5; 0]) = Some (["kids"; "shape"; "h"]%string, KMissing) /\
  usable ex_env false default_cfg (TItem 0) /\
  doc_stream [(1, NInt 1); (2, NBlob []); (3, NStruct [(1, NInt 7)])] (from_slice true (bytes [0x41; 7])) /\
  body_fault ex_env true false (TItem 0) [(1, NInt 1); (2, NBlob []); (3, NStruct [(1, NInt 7)])] ["kids"; "name"]%string KMissing /\
  ~ a_limit KMissing.
Proof.
  cbv zeta. do 6 (split; [vm_compute; reflexivity|]). split; [apply ex_usable|].
  split; [apply (doc_by _ [0x41; 1; 0x82; 0; 0xC3; 0x41; 7; 0] [] true true); reflexivity|].
  split; [|intros [H|[H|H]]; discriminate].
  apply (BfStruct _ _ _ 0 ex_tree); [reflexivity|]. apply RfFields; [discriminate|].
  apply (FfField _ _ _ [("id"%string, 1, TUInt 16); ("name"%string, 2, TString)] "kids" 3 (TVec (TItem 0)) [("shape"%string, 4, TOption (TItem 1))] _ _ (Some 3)).
  apply (OfElem _ _ _ _ (TItem 0) _ 3 (NStruct [(1, NInt 7)])); [now constructor|now left|].
  apply EfBody; [exact I|]. apply (BfStruct _ _ _ 0 ex_tree); [reflexivity|]. apply RfFields; [discriminate|].
  apply (FfField _ _ _ [("id"%string, 1, TUInt 16)] "name" 2 TString [("kids"%string, 3, TVec (TItem 0)); ("shape"%string, 4, TOption (TItem 1))] _ _ None).
  apply OfMissing. right. left. exact I.
Qed.
