(** * Prop_Copy: copying from one stream to another over devices that cut up transfers (C20) *)

From Verif Require Import Base Wire Dev Stream SpecStream SpecHist SpecWrite P_CopySched.

(** ** C20, for [write_element] / [write_field], which move the contents of a
    blob from the source's device to the destination's: [n] elements copied,
    from any input, well formed or not, to any device.  Short transfers and
    interruptions on either side change neither the result nor what has been
    consumed and written when it is reached. *)
Theorem C20_copying_does_not_depend_on_chunking n src dst r src' dst' : no_failure src -> no_failure dst ->
  s_pos src <= U64_MAX -> s_pos dst <= U64_MAX -> s_commit src = None -> s_commit dst = None ->
  copy_elems n (src, dst) = (r, (src', dst')) ->
  copy_elems n (unscheduled src, unscheduled dst) = (r, (unscheduled src', unscheduled dst')).
Proof. exact (copy_benign n src dst r src' dst'). Qed.
Print Assumptions C20_copying_does_not_depend_on_chunking.

(** A struct, a blob, an exception, an end of struct, then a blob cut off by
    the end of the input: all that is there of it is copied. *)
Example C20_copying_instance :
  let bs := [0xC1; 0x85; 3; 11; 12; 13; 0x80; 1; 9; 0x00; 0x83; 5; 21; 22] in
  let src := new_stream true false (mkDev bs 0 [EvIntr; EvShort 1; EvShort 1; EvIntr; EvShort 2; EvIntr; EvShort 1]) in
  let dst := new_stream true false (mkDev [] 0 [EvShort 1; EvIntr; EvIntr; EvShort 1; EvShort 1; EvIntr]) in
  no_failure src /\ no_failure dst /\
  (let '(r, (_, d)) := copy_elems 5 (src, dst) in r = ROk tt /\ d_data (s_dev d) = bs) /\
  (let '(r, (_, d)) := copy_elems 6 (src, dst) in r = RErr (STruncatedBlob 3) /\ d_data (s_dev d) = bs).
Proof.
  cbv zeta. split; [repeat constructor; discriminate|]. split; [repeat constructor; discriminate|].
  vm_compute. repeat split.
Qed.
