(** * Prop_Show: what is printed about an error *)

From Verif Require Import Base Wire Dev Stream Types Ser Prog De SpecDe SpecSerDe SpecShow Show P_Show P_Names.

(** ** C74.  Errors that print alike are at the same place: the same fields
    at the same positions, whatever the other text in the message (which may
    come from the input) is.  And if both are described in the crate's own
    words, they are the same error. *)
Theorem C74_printed_errors e zc cf t s x s1 e' zc' cf' t' s' y s2 tx tx' :
  in_rust e -> tuples_ok t -> in_rust e' -> tuples_ok t' ->
  from_stream e zc cf t s = (RErr x, s1) ->
  from_stream e' zc' cf' t' s' = (RErr y, s2) ->
  show_error tx x = show_error tx' y ->
  e_path x = e_path y /\ (own_words (e_kind x) -> own_words (e_kind y) -> e_kind x = e_kind y).
Proof. exact (printed e zc cf t s x s1 e' zc' cf' t' s' y s2 tx tx'). Qed.
Print Assumptions C74_printed_errors.

(** The texts of two faults in the example: a wrong kind of value in the box
    (offset 16), and an exception that tries to look like it, read as a
    message at the top. *)
Definition ex_texts : texts :=
  mkTexts (fun _ => "io"%string) (fun bs => fold_right (fun b r => String (ascii_of_N b) r) EmptyString bs) "range"%string "utf8"%string "msg"%string.
Example C74_instance :
  let text bs := match fst (from_stream ex_env false default_cfg (TItem 0) (new_stream true false (mkDev bs 0 []))) with
                 | RErr x => show_error ex_texts x | _ => EmptyString end in
  in_rust ex_env /\ tuples_ok (TItem 0) /\
  text [0x41; 0xAC; 0x02; 0x82; 0; 0x04; 2; 0xC1; 0; 0; 0] = "expected field type Integer, got Struct at {0}.shape{5}.w{7}"%string /\
  text [0x41; 1; 0xC3; 0x41; 7; 0x41; 8] = "too many occurrences (max 1) of field at {0}.kids{2}.id{5}"%string /\
  text [0x80; 8; 32; 97; 116; 32; 123; 53; 125; 46] = "error message in stream:  at {5}. at {0}"%string.
Proof.
  cbv zeta. split; [|split; [exact Logic.I|vm_compute; repeat split; reflexivity]].
  intros [|i]; cbn; repeat split; try discriminate; repeat (apply Forall_cons || apply Forall_nil); cbn; repeat split; try discriminate; repeat (apply Forall_cons || apply Forall_nil);
    cbn; repeat split; try discriminate.
Qed.

(** The names that the crate makes up: an undeclared field goes by its tag in
    two decimal digits, a component of a tuple by its index. *)
Theorem C74_names_made_up n : n <= 63 ->
  tag_name n = append (if n <? 10 then "0" else "") (show_num n) /\ (n < 16 -> tuple_name n = append "field_" (show_num n)).
Proof. exact (names_made_up n). Qed.
Print Assumptions C74_names_made_up.
Example C74_names_instance : tag_name 7 = "07"%string /\ tag_name 63 = "63"%string /\ tuple_name 0 = "field_0"%string /\ tuple_name 15 = "field_15"%string.
Proof. repeat split. Qed.
