(** * SpecHist: histories of calls on a stream

    A client program is a list of calls.  A blob may be used between the call
    that returned it and the next call on the stream, as the borrow checker
    enforces: the runner remembers the length of the blob the last call
    returned. *)

From Verif Require Import Base Wire Dev Stream SpecStream SpecBlob.

Inductive call :=
| CNextElement
| CNextField
| CSkipUp (depth : N)
| CSkipField                  (* Field::skip on the field just returned *)
| CCommit
| CResetPos (p : N)
| CSeek (w : seek_from)
| CClearEof
| CGraceful (b : bool)
| CStructDepth (d : N)        (* set_struct_depth *)
| CWriteU64 (tag n : N)       (* also write_u8 .. write_usize, write_bool, write_null *)
| CWriteSint (tag : N) (z : Z)
| CWriteBlobData (tag : N) (bs : bytes)
| CWriteBlobAlloc (tag len : N)
| CWriteBlobDyn (tag : N)
| CWriteExcData (bs : bytes)
| CWriteExcAlloc (len : N)
| CWriteExcDyn
| CWriteStruct (tag : N)
| CWriteEnum (tag d : N)
| CWriteEnd
| CWriteEndDoc
| CWritePad
| CPadAlign (align : N)
| CBlob (o : bop).            (* an operation on the blob just returned *)

Inductive cval :=
| VElem (e : element) | VField (f : option field) | VUnit_ | VNum (n : N)
| VBlobLen (len : N) | VBop (v : bval) | VNothing.

(** What the last call returned that may still be used. *)
Inductive open := ONone | OBlob (len : N) | OField (f : field).

Definition ret_unit (m : SM unit) : SM cval := m ;; mret VUnit_.
Definition call_run (op : open) (c : call) : SM cval :=
  match c with
  | CNextElement => let* e := next_element in mret (VElem e)
  | CNextField => let* f := next_field in mret (VField f)
  | CSkipUp d => ret_unit (skip_up d)
  | CSkipField => match op with OField f => ret_unit (field_skip f) | _ => mret VNothing end
  | CCommit => ret_unit commit
  | CResetPos p => ret_unit (reset_pos p)
  | CSeek w => let* n := st_seek w in mret (VNum n)
  | CClearEof => ret_unit clear_eof
  | CGraceful b => ret_unit (set_graceful_eof b)
  | CStructDepth d => ret_unit (set_struct_depth d)
  | CWriteU64 t n => ret_unit (write_u64 t n)
  | CWriteSint t z => ret_unit (write_sint t z)
  | CWriteBlobData t bs => let* n := write_blob_data t bs in mret (VBlobLen n)
  | CWriteBlobAlloc t len => let* n := write_blob_alloc t len in mret (VBlobLen n)
  | CWriteBlobDyn t => let* n := write_blob_dynamic t in mret (VBlobLen n)
  | CWriteExcData bs => let* n := write_exception_data bs in mret (VBlobLen n)
  | CWriteExcAlloc len => let* n := write_exception_alloc len in mret (VBlobLen n)
  | CWriteExcDyn => let* n := write_exception_dynamic in mret (VBlobLen n)
  | CWriteStruct t => ret_unit (write_struct t)
  | CWriteEnum t d => ret_unit (write_enum t d)
  | CWriteEnd => ret_unit write_end_struct
  | CWriteEndDoc => ret_unit write_end_doc
  | CWritePad => ret_unit write_padding
  | CPadAlign a => ret_unit (pad_to_align a)
  | CBlob o => match op with
               | OBlob len => let* v := bop_run len o in mret (VBop v)
               | _ => mret VNothing
               end
  end.

(** What a call leaves open. *)
Definition opens (op : open) (c : call) (r : res serr cval) : open :=
  match c with
  | CBlob _ => op
  | _ =>
      match r with
      | ROk (VElem (ElField f)) | ROk (VField (Some f)) =>
          match f_val f with HBlob len => OBlob len | _ => OField f end
      | ROk (VElem (ElException len)) => OBlob len
      | ROk (VBlobLen len) => OBlob len
      | _ => ONone
      end
  end.

(** Run a history, continuing after errors. *)
Fixpoint run_calls (cs : list call) (op : open) (s : stream)
  : list (res serr cval) * (open * stream) :=
  match cs with
  | [] => ([], (op, s))
  | c :: r => let '(x, s1) := call_run op c s in
              let '(xs, st) := run_calls r (opens op c x) s1 in (x :: xs, st)
  end.

(** Calls whose result is not documented to depend on how much a single
    [read] or [write] transfers: all except [Read::read], [Write::write] and
    [fill_buf] themselves. *)
Definition full_call (c : call) : Prop :=
  match c with
  | CBlob (BRead _) | CBlob (BFillConsume _) | CBlob (BWrite _) => False
  | _ => True
  end.

(** The same stream over a device that always transfers all it can. *)
Definition unscheduled (s : stream) : stream :=
  set_dev (mkDev (d_data (s_dev s)) (d_pos (s_dev s)) []) s.
(** No failure in the schedule: only short transfers and interruptions. *)
Definition no_failure (s : stream) : Prop := Forall (fun e => e <> EvFail) (d_sched (s_dev s)).
