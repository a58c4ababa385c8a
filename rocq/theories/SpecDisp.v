(** * SpecDisp: the same history at a displaced position (C70) *)

From Verif Require Import Base Wire Dev Stream Types Prog SpecStream SpecBlob SpecHist.

(** Results that report offsets, every offset larger by [k]. *)
Definition disp_field (k : N) (f : field) : field := mkField (f_tag f) (f_pos f + k) (f_depth f) (f_val f).
Definition disp_elem (k : N) (e : element) : element :=
  match e with ElField f => ElField (disp_field k f) | _ => e end.
Definition disp_bval (k : N) (v : bval) : bval :=
  match v with
  | BPoss rem st en inn sp => BPoss rem (st + k) (en + k) inn (sp + k)
  | _ => v
  end.
Definition disp_val (k : N) (v : cval) : cval :=
  match v with
  | VElem e => VElem (disp_elem k e)
  | VField f => VField (option_map (disp_field k) f)
  | VBop v => VBop (disp_bval k v)
  | _ => v
  end.
Definition disp_res (k : N) (r : res serr cval) : res serr cval :=
  match r with ROk v => ROk (disp_val k v) | _ => r end.

(** Calls that do not speak about offsets in absolute terms: [reset_pos] and
    [seek] name one, a dynamic blob reserves all that remains of the range of
    offsets, and padding aligns the offset (to a divisor of [k] is fine). *)
Definition relative (k : N) (c : call) : Prop :=
  match c with
  | CResetPos _ | CSeek _ | CWriteBlobDyn _ | CWriteExcDyn => False
  | CPadAlign a => exists n, a = 2 ^ n /\ k mod a = 0
  | _ => True
  end.
