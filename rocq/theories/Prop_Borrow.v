(** * C39.  Zero-copy and copying deserialisation agree *)

From Verif Require Import Base Wire Dev Stream SpecWire SpecFormat SpecStream Types Prog De SpecDe SpecSerDe SpecZc P_Blob P_Ex P_Borrow Prop_Meaning.

(** For every type that supports both styles, whatever the input: what
    from_slice_copy accepts, from_slice_borrow accepts with the same value. *)
Theorem C39_copied_also_borrowed e dbg cf t bs v :
  env_ok e -> deserialisable e false t -> cf_collect cf <= U64_MAX -> cf_blob cf <= U64_MAX ->
  bytes_ok bs -> lenN bs + 3 < U64_MAX ->
  from_slice_copy e dbg cf t bs = ROk v -> from_slice_borrow e dbg cf t bs = ROk v.
Proof. intros He Ht Hc Hb Ho Hl. exact (copy_borrow e cf dbg bs He Hc Hb Ho Hl t v Ht). Qed.
Print Assumptions C39_copied_also_borrowed.

(** And what from_slice_borrow accepts, from_slice_copy accepts with the same
    value, unless its limit on copied bytes is hit. *)
Theorem C39_borrowed_also_copied e dbg cf t bs v :
  env_ok e -> deserialisable e false t -> cf_collect cf <= U64_MAX -> cf_blob cf <= U64_MAX ->
  bytes_ok bs -> lenN bs + 3 < U64_MAX ->
  from_slice_borrow e dbg cf t bs = ROk v ->
  from_slice_copy e dbg cf t bs = ROk v \/
  exists x, from_slice_copy e dbg cf t bs = RErr x /\ e_kind x = KMaxBlob.
Proof. intros He Ht Hc Hb Ho Hl. exact (borrow_copy e cf dbg bs He Hc Hb Ho Hl t v Ht). Qed.
Print Assumptions C39_borrowed_also_copied.

(** A type that copies nothing (in the style at hand) never notices
    max_blob: not the result, not the state of the stream. *)
Theorem C39_max_blob_is_for_copies e zc cf m t s :
  ~ copies e zc t -> from_stream e zc (with_blob m cf) t s = from_stream e zc cf t s.
Proof. exact (borrowed_free e zc cf m t s). Qed.
Print Assumptions C39_max_blob_is_for_copies.

(** A borrowed blob is the range of the input that starts at the reader's
    position and has the length of (the rest of) the blob. *)
Theorem C39_borrowed_is_input s b s' : in_blob s -> b_ext_slice s = (ROk b, s') ->
  s' = s /\ lenN b = s_blob_end s - s_pos s /\
  exists pre post, d_data (s_dev s) = pre ++ b ++ post /\ lenN pre = d_pos (s_dev s).
Proof. exact (ext_slice_input s b s'). Qed.
Print Assumptions C39_borrowed_is_input.

(** The tree of SpecSerDe: one name, one unknown blob.  With a limit of four
    bytes only borrowing works, except that the (owned) name still counts. *)
Example C39_instance :
  env_ok ex_env /\ deserialisable ex_env false (TItem 0) /\ bytes_ok ex_bytes /\ lenN ex_bytes + 3 < U64_MAX /\
  from_slice_copy ex_env true default_cfg (TItem 0) ex_bytes = ROk ex_value /\
  from_slice_borrow ex_env true default_cfg (TItem 0) ex_bytes = ROk ex_value /\
  from_slice_borrow ex_env true (with_blob 4 default_cfg) (TItem 0) ex_bytes = ROk ex_value /\
  (exists x, from_slice_copy ex_env true (with_blob 4 default_cfg) (TItem 0) ex_bytes = RErr x /\ e_kind x = KMaxBlob) /\
  (* [(Cow<[u8]>, u32)] *)
  ~ copies ex_env true (TTuple [TCowBytes; TUInt 32]) /\ copies ex_env false (TTuple [TCowBytes; TUInt 32]) /\
  from_slice_borrow ex_env true (with_blob 0 default_cfg) (TTuple [TCowBytes; TUInt 32]) [0x81; 2; 7; 9; 0x42; 5; 0] = ROk (VRec [VBytes [7; 9]; VU 5]) /\
  (exists x, from_slice_copy ex_env true (with_blob 0 default_cfg) (TTuple [TCowBytes; TUInt 32]) [0x81; 2; 7; 9; 0x42; 5; 0] = RErr x /\ e_kind x = KMaxBlob).
Proof.
  split; [exact ex_env_ok|]. split; [apply ex_deserialisable; cbn; auto|]. split; [now apply okb_ok|]. split; [vm_compute; reflexivity|].
  split; [vm_compute; reflexivity|]. split; [vm_compute; reflexivity|]. split; [vm_compute; reflexivity|].
  split; [eexists; split; vm_compute; reflexivity|]. split.
  { intros H. inversion H as [| | | | | | | | | | | | |zc t ts Hin Ht| | |]; subst. cbn in Hin. destruct Hin as [<-|[<-|[]]]; inversion Ht. }
  split; [apply (CpTuple _ _ TCowBytes); [now left|constructor]|]. split; [vm_compute; reflexivity|].
  eexists; split; vm_compute; reflexivity.
Qed.
