(** * Prop_Amp: memory in proportion to input *)

From Verif Require Import Base Wire Dev Stream Types Ser Prog De SpecWire SpecFormat SpecStream SpecDe SpecDoc SpecSerDe SpecRead SpecAccept P_Amp P_Ex Prop_Meaning.

(** ** C71.  However high the limits, a value read holds no more collected
    elements and copied bytes than bytes were consumed for it; and at least
    one byte is always consumed. *)
Theorem C71_no_amplification e zc cf t dbg sk bs sched v s' : usable e zc cf t -> bytes_ok bs -> 2 * lenN bs + 3 < U64_MAX ->
  from_stream e zc cf t (new_stream dbg sk (mkDev bs 0 sched)) = (ROk v, s') ->
  coll_count v + copied e v zc t + 1 <= s_pos s'.
Proof. exact (no_amplification e zc cf t dbg sk bs sched v s'). Qed.
Print Assumptions C71_no_amplification.

(** With the highest limits on both: 4 elements and 5 bytes; and
    [UnknownFields] of nested structs at one byte each, closed together by
    one end of document, where nothing is left over. *)
Definition ex_open : cfg := mkCfg 100 true U64_MAX U64_MAX.
Definition ex_lean : bytes := [0xC1; 0xC1; 0xC1; 0x40].
Example C71_instance :
  usable ex_env false ex_open (TItem 0) /\
  (exists s', from_stream ex_env false ex_open (TItem 0) (new_stream true false (mkDev ex_bytes 0 [EvShort 1])) = (ROk ex_value, s') /\
    coll_count ex_value = 4 /\ copied ex_env ex_value false (TItem 0) = 5 /\ s_pos s' = lenN ex_bytes) /\
  exists v s', from_stream ex_env false ex_open TUnknown (new_stream true false (mkDev ex_lean 0 [])) = (ROk v, s') /\
    coll_count v = 3 /\ s_pos s' = 4.
Proof.
  split; [|split].
  - destruct (ex_usable false) as (U1 & U2 & _). repeat split; auto; apply N.le_refl.
  - eexists. split; [vm_compute; reflexivity|]. vm_compute. auto.
  - eexists. eexists. split; [vm_compute; reflexivity|]. vm_compute. auto.
Qed.

(** Nor need the limits ever be higher: [max_collect] and [max_blob] of the
    size of the input (less the byte that ends it) accept whatever higher
    ones would. *)
Theorem C71_input_sized_limits e zc cf cf' t dbg sk bs sched v : usable e zc cf t -> usable e zc cf' t -> bytes_ok bs -> 2 * lenN bs + 3 < U64_MAX ->
  Forall (fun y => y <> EvFail) sched -> exception_free bs -> cf_rec cf' <= cf_rec cf -> cf_ignore cf' = cf_ignore cf ->
  lenN bs <= cf_collect cf + 1 -> lenN bs <= cf_blob cf + 1 ->
  fst (from_stream e zc cf' t (new_stream dbg sk (mkDev bs 0 sched))) = ROk v ->
  fst (from_stream e zc cf t (new_stream dbg sk (mkDev bs 0 sched))) = ROk v.
Proof. exact (input_sized e zc cf cf' t dbg sk bs sched v). Qed.
Print Assumptions C71_input_sized_limits.

(** The nested unknown structs need all of it: one less is refused. *)
Example C71_input_sized_instance :
  let run n := fst (from_stream ex_env false (mkCfg 100 true n n) TUnknown (new_stream true false (mkDev ex_lean 0 []))) in
  (exists v, run 3 = ROk v /\ run U64_MAX = ROk v) /\ (exists x, run 2 = RErr x /\ e_kind x = KMaxCollect) /\ lenN ex_lean <= 3 + 1 /\ exception_free ex_lean.
Proof.
  cbv zeta. split; [eexists; split; vm_compute; reflexivity|]. split; [eexists; split; vm_compute; reflexivity|]. split; [vm_compute; discriminate|].
  apply no_80_free. cbn. intuition discriminate.
Qed.
