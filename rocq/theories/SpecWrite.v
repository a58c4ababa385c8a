(** * SpecWrite: vocabulary for the writing properties *)

From Verif Require Import Base Wire Dev Stream SpecFormat SpecStream SpecHist.

(** An output stream with [out] written so far and the device at its end. *)
Definition appending (s : stream) (out : bytes) : Prop := s_dev s = mkDev out (lenN out) [].

(** No blob is waiting to be filled or finished. *)
Definition no_open_blob (s : stream) : Prop :=
  s_commit s = None \/ (s_commit s = Some CCheckEnd /\ s_pos s = s_blob_end s).

(** [write_all] of several pieces through the open blob, going on after
    errors. *)
Fixpoint write_pieces (ws : list bytes) (s : stream) : stream :=
  match ws with
  | [] => s
  | w :: r => write_pieces r (snd (b_write_all w s))
  end.

(** The operations that first finish the previous blob: all but the blob's
    own and the flag setters.  (Reading at the end of a document does nothing
    at all.) *)
Definition finishes_blob (s : stream) (c : call) : Prop :=
  match c with
  | CNextElement | CNextField => s_eof s = false
  | CPadAlign a => exists k, k < 64 /\ a = 2 ^ k
  | CSkipUp _ | CSkipField | CClearEof | CGraceful _ | CStructDepth _ | CBlob _ => False
  | _ => True
  end.

(** Copy the next [n] elements of one stream to another, as
    [while let Ok(e) = src.next_element() { dst.write_element(e) }] does. *)
Fixpoint copy_elems (n : nat) : M (stream * stream) serr unit :=
  match n with
  | O => mret tt
  | S n' =>
      let* e := on_src next_element in
      write_element e ;;
      match e with ElEndOfDoc => on_src clear_eof | _ => mret tt end ;;
      copy_elems n'
  end.

(** The ZigZag code of a signed integer. *)
Definition zz (z : Z) : N := Z.to_N (if (0 <=? z)%Z then 2 * z else - 2 * z - 1).

(** The calls that write a field with tag [t]. *)
Inductive tagged_write (t : N) : call -> Prop :=
| TwU64 n : tagged_write t (CWriteU64 t n)
| TwSint z : tagged_write t (CWriteSint t z)
| TwBlobData bs : lenN bs <= U64_MAX - 11 -> tagged_write t (CWriteBlobData t bs)
| TwBlobAlloc len : len <= U64_MAX - 11 -> tagged_write t (CWriteBlobAlloc t len)
| TwBlobDyn : tagged_write t (CWriteBlobDyn t)
| TwStruct : tagged_write t (CWriteStruct t)
| TwEnum d : tagged_write t (CWriteEnum t d).

(** Where [seek] goes: relative to the end of an unfinished blob. *)
Definition seek_target (s : stream) (w : seek_from) : Z :=
  match w with
  | SkStart n => Z.of_N n
  | SkEnd z => (Z.of_N (lenN (d_data (s_dev s))) + z)%Z
  | SkCur z => (Z.of_N (d_pos (s_dev s) + pend s) + z)%Z
  end.

(** A blob field with a tag, or an exception. *)
Definition blob_hd (t : option N) (len : N) : hdr := match t with Some t => HdField t (HvBlob len) | None => HdExc len end.
Definition blob_elem (t : option N) (c : bytes) : delem := match t with Some t => DField t (DBlobV c) | None => DExc c end.
Definition otag_ok (t : option N) : Prop := match t with Some t => tag_ok t | None => True end.

(** [w], called on [s], appends some bytes, and [next_field] reads them as a
    field with tag [t] whose value satisfies [P]. *)
Definition written_field (s : stream) (out : bytes) (t : N) (w : SM unit) (P : vhdr -> Prop) : Prop :=
  exists bs s', w s = (ROk tt, s') /\ appending s' (out ++ bs) /\
    forall r, positioned r bs -> s_pos r + pend r + lenN bs <= U64_MAX -> s_depth r + 1 < U64_MAX ->
      exists f r', next_field r = (ROk (Some f), r') /\ f_tag f = t /\ P (f_val f).
