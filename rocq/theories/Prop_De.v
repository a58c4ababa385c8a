(** * Prop_De: what every deserialisation guarantees, whatever the input *)

From Verif Require Import Base Wire Dev Stream Types Ser Prog De SpecFormat SpecStream SpecHist SpecDe SpecSerDe P_DeProps P_DeTrail.

(** ** C42.  No panic, no divergence: for every input, type and
    configuration the result is [Ok] or [Err]. *)
Definition returns {A} (r : res derr A) : Prop :=
  match r with ROk _ | RErr _ => True | RPanic | RFuel => False end.
Theorem C42_from_slice_copy e dbg cf t bs :
  env_ok e -> deserialisable e false t -> cf_collect cf <= U64_MAX -> cf_blob cf <= U64_MAX ->
  bytes_ok bs -> lenN bs + 3 < U64_MAX ->
  returns (from_slice_copy e dbg cf t bs).
Proof. exact (slice_copy_total e dbg cf t bs). Qed.
Print Assumptions C42_from_slice_copy.

Theorem C42_from_slice_borrow e dbg cf t bs :
  env_ok e -> deserialisable e true t -> cf_collect cf <= U64_MAX -> cf_blob cf <= U64_MAX ->
  bytes_ok bs -> lenN bs + 3 < U64_MAX ->
  returns (from_slice_borrow e dbg cf t bs).
Proof. exact (slice_borrow_total e dbg cf t bs). Qed.
Print Assumptions C42_from_slice_borrow.

(** A reader that transfers as little as it likes, is interrupted, or fails
    at any point. *)
Theorem C42_from_reader e dbg cf t bs sched :
  env_ok e -> deserialisable e false t -> cf_collect cf <= U64_MAX -> cf_blob cf <= U64_MAX ->
  bytes_ok bs -> lenN bs + 3 < U64_MAX ->
  returns (fst (from_reader e dbg cf t (mkDev bs 0 sched))).
Proof. exact (reader_total e dbg cf t bs sched). Qed.
Print Assumptions C42_from_reader.

(** Several values from one stream, seekable or not, gracefully ending or
    not. *)
Theorem C42_read_values e zc cf ts dbg sk gr bs sched :
  env_ok e -> Forall (deserialisable e zc) ts -> cf_collect cf <= U64_MAX -> cf_blob cf <= U64_MAX ->
  bytes_ok bs -> lenN bs + 3 < U64_MAX ->
  returns (fst (read_values e zc cf ts (set_graceful_ gr (new_stream dbg sk (mkDev bs 0 sched))))).
Proof. exact (read_values_total e zc cf ts dbg sk gr bs sched). Qed.
Print Assumptions C42_read_values.

Example C42_instance :
  env_ok ex_env /\ deserialisable ex_env false (TItem 0) /\ bytes_ok ex_bytes /\ lenN ex_bytes + 3 < U64_MAX /\
  from_slice_copy ex_env true default_cfg (TItem 0) ex_bytes = ROk ex_value /\
  from_slice_borrow ex_env true default_cfg (TItem 0) ex_bytes = ROk ex_value /\
  fst (from_reader ex_env true default_cfg (TItem 0) (mkDev ex_bytes 0 [EvIntr; EvShort 1; EvShort 1; EvIntr])) = ROk ex_value /\
  from_slice_copy ex_env true default_cfg (TItem 0) [0x41; 7; 0x82; 0xFF; 0xFF; 4; 1; 2; 0x00]
    = RErr (mkErr [("name"%string, 2)] (KMaxBlob)).
Proof.
  split; [exact ex_env_ok|]. split; [apply ex_deserialisable; cbn; auto|].
  split; [repeat constructor|]. split; [reflexivity|]. vm_compute. repeat split; reflexivity.
Qed.

(** ** C43.  The values returned are valid. *)
Theorem C43_valid e zc cf t dbg sk gr bs sched v s' :
  env_ok e -> deserialisable e zc t -> cf_collect cf <= U64_MAX -> cf_blob cf <= U64_MAX ->
  bytes_ok bs -> lenN bs + 3 < U64_MAX ->
  from_stream e zc cf t (set_graceful_ gr (new_stream dbg sk (mkDev bs 0 sched))) = (ROk v, s') ->
  has_type e v t.
Proof. exact (stream_valid e zc cf t dbg sk gr bs sched v s'). Qed.
Print Assumptions C43_valid.

(** ** C34.  The contexts nested in the result are within the limit. *)
Theorem C34_nesting e zc cf t dbg sk gr bs sched v s' :
  env_ok e -> deserialisable e zc t -> cf_collect cf <= U64_MAX -> cf_blob cf <= U64_MAX ->
  bytes_ok bs -> lenN bs + 3 < U64_MAX ->
  from_stream e zc cf t (set_graceful_ gr (new_stream dbg sk (mkDev bs 0 sched))) = (ROk v, s') ->
  n_body (need e v t) <= cf_rec cf.
Proof. exact (stream_nesting e zc cf t dbg sk gr bs sched v s'). Qed.
Print Assumptions C34_nesting.

(** ** C35.  The bytes copied into the result are within the limit. *)
Theorem C35_copied e zc cf t dbg sk gr bs sched v s' :
  env_ok e -> deserialisable e zc t -> cf_collect cf <= U64_MAX -> cf_blob cf <= U64_MAX ->
  bytes_ok bs -> lenN bs + 3 < U64_MAX ->
  from_stream e zc cf t (set_graceful_ gr (new_stream dbg sk (mkDev bs 0 sched))) = (ROk v, s') ->
  copied e v zc t <= cf_blob cf.
Proof. exact (stream_copied e zc cf t dbg sk gr bs sched v s'). Qed.
Print Assumptions C35_copied.

(** ** C36.  The elements collected in the result are within the limit. *)
Theorem C36_collected e zc cf t dbg sk gr bs sched v s' :
  env_ok e -> deserialisable e zc t -> cf_collect cf <= U64_MAX -> cf_blob cf <= U64_MAX ->
  bytes_ok bs -> lenN bs + 3 < U64_MAX ->
  from_stream e zc cf t (set_graceful_ gr (new_stream dbg sk (mkDev bs 0 sched))) = (ROk v, s') ->
  coll_count v <= cf_collect cf.
Proof. exact (stream_collected e zc cf t dbg sk gr bs sched v s'). Qed.
Print Assumptions C36_collected.

(** The example value needs 2 nested contexts, copies 5 bytes and collects 4
    elements; with exactly these limits it is accepted, with any of them one
    lower it is not. *)
Definition lim (r b c : N) : cfg := mkCfg r true b c.
Definition kind_of (r : res derr value) : option ekind := match r with RErr x => Some (e_kind x) | _ => None end.
Example C34_C35_C36_instance :
  n_body (need ex_env ex_value (TItem 0)) = 2 /\ copied ex_env ex_value false (TItem 0) = 5 /\
  copied ex_env ex_value true (TItem 0) = 2 /\ coll_count ex_value = 4 /\
  from_slice_copy ex_env true (lim 2 5 4) (TItem 0) ex_bytes = ROk ex_value /\
  from_slice_borrow ex_env true (lim 2 2 4) (TItem 0) ex_bytes = ROk ex_value /\
  kind_of (from_slice_copy ex_env true (lim 1 5 4) (TItem 0) ex_bytes) = Some KRecLimit /\
  kind_of (from_slice_copy ex_env true (lim 2 4 4) (TItem 0) ex_bytes) = Some KMaxBlob /\
  kind_of (from_slice_copy ex_env true (lim 2 5 3) (TItem 0) ex_bytes) = Some KMaxCollect.
Proof. vm_compute. repeat split; reflexivity. Qed.

(** ** C38.  Bytes after the value do not matter, nor do they get consumed
    ([sched] and [sched2]: how the reader delivers the bytes). *)
Theorem C38_trailing e zc cf t dbg sk bs suffix sched sched2 v s1 :
  env_ok e -> deserialisable e zc t -> cf_collect cf <= U64_MAX -> cf_blob cf <= U64_MAX ->
  bytes_ok (bs ++ suffix) -> lenN (bs ++ suffix) + 3 < U64_MAX ->
  Forall (fun x => x <> EvFail) sched2 ->
  from_stream e zc cf t (new_stream dbg sk (mkDev bs 0 sched)) = (ROk v, s1) ->
  exists s2, from_stream e zc cf t (new_stream dbg sk (mkDev (bs ++ suffix) 0 sched2)) = (ROk v, s2) /\
    s_pos s2 = s_pos s1 /\ unread s2 = unread s1 ++ suffix.
Proof. exact (fun H1 H2 H3 H4 => trailing_sched e zc cf t H1 H2 H3 H4 dbg sk bs suffix sched sched2 v s1). Qed.
Print Assumptions C38_trailing.

(** ** C37.  If a document is cut anywhere before the end of what a
    successful deserialisation consumed, deserialisation fails. *)
Theorem C37_truncated e zc cf t dbg sk bs cut sched sched2 v s1 w s2 :
  env_ok e -> deserialisable e zc t -> cf_collect cf <= U64_MAX -> cf_blob cf <= U64_MAX ->
  bytes_ok (bs ++ cut) -> lenN (bs ++ cut) + 3 < U64_MAX ->
  from_stream e zc cf t (new_stream dbg sk (mkDev (bs ++ cut) 0 sched)) = (ROk v, s1) ->
  lenN (unread s1) < lenN cut ->
  from_stream e zc cf t (new_stream dbg sk (mkDev bs 0 sched2)) <> (ROk w, s2).
Proof. exact (fun H1 H2 H3 H4 => truncated e zc cf t H1 H2 H3 H4 dbg sk bs cut sched sched2 v s1 w s2). Qed.
Print Assumptions C37_truncated.

Theorem C37_truncated_slice e dbg cf t bs cut v s1 :
  env_ok e -> deserialisable e false t -> cf_collect cf <= U64_MAX -> cf_blob cf <= U64_MAX ->
  bytes_ok (bs ++ cut) -> lenN (bs ++ cut) + 3 < U64_MAX ->
  from_stream e false cf t (from_slice dbg (bs ++ cut)) = (ROk v, s1) ->
  lenN (unread s1) < lenN cut ->
  exists x, from_slice_copy e dbg cf t bs = RErr x.
Proof. exact (truncated_slice e dbg cf t bs cut v s1). Qed.
Print Assumptions C37_truncated_slice.

(** The example document with three bytes after it: one more than the last
    byte has to be missing. *)
Example C37_C38_instance :
  let s1 := snd (from_stream ex_env false default_cfg (TItem 0) (from_slice true (ex_bytes ++ [1; 2; 3]))) in
  fst (from_stream ex_env false default_cfg (TItem 0) (from_slice true (ex_bytes ++ [1; 2; 3]))) = ROk ex_value /\
  unread s1 = [1; 2; 3] /\
  from_slice_copy ex_env true default_cfg (TItem 0) (removelast ex_bytes)
    = RErr (mkErr [] (KStream (SIo IoUnexpectedEof))).
Proof. vm_compute. auto. Qed.

(** ** C54.  How a reader splits its data makes no difference; a failing
    reader makes the deserialisation fail and cannot make it return another
    value. *)
Theorem C54_reader_schedule e zc cf t dbg sk gr bs sched r s1 :
  Forall (fun x => x <> EvFail) sched ->
  from_stream e zc cf t (set_graceful_ gr (new_stream dbg sk (mkDev bs 0 []))) = (r, s1) ->
  exists s2, from_stream e zc cf t (set_graceful_ gr (new_stream dbg sk (mkDev bs 0 sched))) = (r, s2) /\
    unscheduled s2 = s1.
Proof. exact (sched_any e zc cf t dbg sk gr bs sched r s1). Qed.
Print Assumptions C54_reader_schedule.

Theorem C54_reader_failure e zc cf t dbg sk gr bs sched v s1 :
  from_stream e zc cf t (set_graceful_ gr (new_stream dbg sk (mkDev bs 0 sched))) = (ROk v, s1) ->
  from_stream e zc cf t (set_graceful_ gr (new_stream dbg sk (mkDev bs 0 []))) = (ROk v, unscheduled s1).
Proof. exact (sched_clean e zc cf t dbg sk gr bs sched v s1). Qed.
Print Assumptions C54_reader_failure.

Example C54_instance :
  fst (from_reader ex_env true default_cfg (TItem 0) (mkDev ex_bytes 0 [EvShort 1; EvIntr; EvShort 1; EvFail]))
    = RErr (mkErr [] (KStream (SIo IoOther))) /\
  fst (from_reader ex_env true default_cfg (TItem 0) (mkDev ex_bytes 0 [EvShort 1; EvIntr; EvShort 1; EvIntr; EvIntr]))
    = ROk ex_value.
Proof. vm_compute. auto. Qed.
