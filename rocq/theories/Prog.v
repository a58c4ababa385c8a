(** * Prog: the operations a deserialiser performs

    A [Deserialize] impl talks to the stream, to the current [Field] and
    [Blob], and to its [Context] (src/de.rs 246-346) through the operations
    below and through nothing else.  A deserialiser is therefore a tree of
    operations ([prog]); [run] executes it against the stream model.

    The [Context]s of src/de.rs form a stack of (field name, position) pairs
    with shared counters; [OPush] / [OPop] enter and leave one. *)

From Verif Require Import Base Wire Dev Stream Types.

(** [de::Config], src/de.rs 199-220. *)
Record cfg := mkCfg {
  cf_rec : N;          (* recursion_limit *)
  cf_ignore : bool;    (* ignore_unknown_fields *)
  cf_blob : N;         (* max_blob *)
  cf_collect : N       (* max_collect *)
}.
(** [Config::default], src/de.rs 222-232. *)
Definition default_cfg : cfg := mkCfg 32 true 65536 256.

(** [de::Error], src/de.rs 110-193, without its location. *)
Inductive ekind :=
| KStream (x : serr)
| KRecLimit
| KUnknownField (tag pos : N)
| KUnknownVariant (d : N)
| KTooFew (min : N)
| KTooMany (max : N)
| KMissing
| KInvalid             (* InvalidValue: not UTF-8 *)
| KInvalidMsg          (* InvalidValueMsg *)
| KMaxCollect
| KMaxBlob.
(** An error with its location, innermost field first.
    src/de.rs 110-193. *)
Record derr := mkErr { e_path : list (string * N); e_kind : ekind }.

(** The calls made by src/de.rs 359-1579, src/unknown.rs 84-170 and src/sugar.rs 428-704. *)
Inductive op : Set -> Type :=
| ONext : op (option (N * vhdr))          (* stream.next_field().context(context)? *)
| OSkip : op unit                          (* field.skip().context(context)? *)
| OUnknown : op unit                       (* context.unknown_field(&field)? *)
| OPush (at_field : bool) (name : string) : op unit
    (* context.push(name, field.pos)? or context.push(name, stream.pos())? *)
| OPop : op unit                           (* the subcontext goes out of scope *)
| OCollect : op unit                       (* context.collect(1)?, the only call there is *)
| OQuota (n : N) : op unit                 (* context.blob(n)? *)
| OOver (k : ekind) : op unit              (* from here on, whatever fails, report [k] *)
| ORemaining : op N                        (* blob.remaining() *)
| OReadFully : op bytes                    (* blob.read_fully(config.max_blob).context()? *)
| OReadExact (n : N) : op bytes            (* blob.read_exact(&mut [0; n]).context()? *)
| OExt : op bytes.                         (* blob.ext_slice().context()? *)

(** Leaving with an error, panicking, or running out of the model's fuel.
    [return Err(..)] (src/de.rs 110-193), [panic!]; the third has no counterpart. *)
Inductive stop := StFail (k : ekind) | StPanic | StFuel.

(** Code of a method of [Deserialize], src/de.rs 412-738. *)
Inductive prog (A : Type) : Type :=
| PRet (a : A)
| PStop (x : stop)
| PDo {X : Set} (o : op X) (k : X -> prog A).
Arguments PRet {A} a.
Arguments PStop {A} x.
Arguments PDo {A X} o k.

(** Sequencing with [?], src/de.rs 359-1579. *)
Fixpoint pbind {A B} (p : prog A) (f : A -> prog B) : prog B :=
  match p with
  | PRet a => f a
  | PStop x => PStop x
  | PDo o k => PDo o (fun x => pbind (k x) f)
  end.
(** One call, see [op]. *)
Definition pdo {X : Set} (o : op X) : prog X := PDo o (fun x => PRet x).
(** [return Err(..)], src/de.rs 110-193. *)
Definition pfail {A} (k : ekind) : prog A := PStop (StFail k).

Notation "x <- p ; k" := (pbind p (fun x => k))
  (at level 95, p at level 90, k at level 200, right associativity).
Notation "p ;> k" := (pbind p (fun _ => k))
  (at level 95, k at level 200, right associativity).

(** A pure conversion failing with a stream error ([.context(context)?]).
    E.g. src/de.rs 740-763. *)
Definition plift {A} (r : res serr A) : prog A :=
  match r with
  | ROk a => PRet a
  | RErr x => pfail (KStream x)
  | RPanic => PStop StPanic
  | RFuel => PStop StFuel
  end.

(** Loops, as [miter]/[mloop] in Base.v.
    [while let] of src/de.rs 367-382. *)
Fixpoint piter {A B} (p : positive) (step : A -> prog (A + B)) (a : A) : prog (A + B) :=
  match p with
  | xH => step a
  | xO q => r <- piter q step a ;
            match r with
            | inl a' => piter q step a'
            | inr b => PRet (inr b)
            end
  | xI q => r <- step a ;
            match r with
            | inl a' =>
                r' <- piter q step a' ;
                match r' with
                | inl a'' => piter q step a''
                | inr b => PRet (inr b)
                end
            | inr b => PRet (inr b)
            end
  end.
(** [while let] of src/de.rs 367-382. *)
Definition ploop {A B} (step : A -> prog (A + B)) (a : A) : prog B :=
  r <- piter loop_bound step a ;
  match r with
  | inl _ => PStop StFuel
  | inr b => PRet b
  end.

(** ** Execution *)

(** [ContextStats], src/de.rs 264-269, and the two checked counters
    [Context::collect] (326-333) and [Context::blob] (338-346).  The
    subtractions are on [usize]. *)
Definition ctx_collect (dbg : bool) (max collected n : N) : res ekind N :=
  match u64_sub (E := ekind) dbg max collected with
  | ROk room => if room <? n then RErr KMaxCollect else u64_add dbg collected 1
  | _ => RPanic
  end.
(** src/de.rs 338-346. *)
Definition ctx_blob (dbg : bool) (max total n : N) : res ekind N :=
  match u64_sub (E := ekind) dbg max total with
  | ROk room => if room <? n then RErr KMaxBlob else u64_add dbg total n
  | _ => RPanic
  end.

(** Where the fields come from: the methods of [Stream], [Field] and [Blob]
    that deserialisation uses.
    src/stream.rs 595-635, 1111-1218, 1411-1417. *)
Record source (S : Type) := mkSource {
  i_next : M S serr (option field);        (* Stream::next_field *)
  i_skip : field -> M S serr unit;         (* Field::skip *)
  i_pos : S -> N;                          (* Stream::pos *)
  i_dbg : S -> bool;
  i_remaining : M S serr N;                (* Blob::remaining *)
  i_read_fully : N -> M S serr bytes;      (* Blob::read_fully *)
  i_read_exact : N -> M S serr bytes;      (* Blob::read_exact *)
  i_ext : M S serr bytes                   (* Blob::ext_slice *)
}.
Arguments mkSource {S}.
Arguments i_next {S}. Arguments i_skip {S}. Arguments i_pos {S}. Arguments i_dbg {S}.
Arguments i_remaining {S}. Arguments i_read_fully {S}. Arguments i_read_exact {S}.
Arguments i_ext {S}.

(** The real one (Stream.v).
    src/stream.rs 595-635, 1111-1218, 1411-1417. *)
Definition stream_source : source stream :=
  mkSource next_field field_skip s_pos s_dbg b_remaining b_read_fully
    (fun n => lift_io (b_read_exact n)) b_ext_slice.

(** The state a deserialiser sees: [&mut Stream], [&mut Field], [&Context] (src/de.rs 246-269). *)
Record rst (S : Type) := mkR {
  x_s : S;
  x_cur : option field;              (* the field in hand, if any *)
  x_path : list (string * N);        (* the stack of contexts below the top one *)
  x_coll : N;                        (* stats.collected *)
  x_blob : N;                        (* stats.total_blob *)
  x_over : option ekind              (* see OOver *)
}.
Arguments mkR {S}. Arguments x_s {S}. Arguments x_cur {S}. Arguments x_path {S}.
Arguments x_coll {S}. Arguments x_blob {S}. Arguments x_over {S}.

Section Run.
  Context {S : Type} (I : source S).

  (** Record update (src/de.rs 246-269). *)
  Definition x_set_s (s : S) (st : rst S) := mkR s (x_cur st) (x_path st) (x_coll st) (x_blob st) (x_over st).
  (** Record update (src/de.rs 246-269). *)
  Definition x_set_cur c (st : rst S) := mkR (x_s st) c (x_path st) (x_coll st) (x_blob st) (x_over st).
  (** Record update (src/de.rs 246-269). *)
  Definition x_set_path p (st : rst S) := mkR (x_s st) (x_cur st) p (x_coll st) (x_blob st) (x_over st).
  (** Record update (src/de.rs 246-269). *)
  Definition x_set_coll n (st : rst S) := mkR (x_s st) (x_cur st) (x_path st) n (x_blob st) (x_over st).
  (** Record update (src/de.rs 246-269). *)
  Definition x_set_blob n (st : rst S) := mkR (x_s st) (x_cur st) (x_path st) (x_coll st) n (x_over st).
  (** Record update (src/de.rs 246-269). *)
  Definition x_set_over o (st : rst S) := mkR (x_s st) (x_cur st) (x_path st) (x_coll st) (x_blob st) o.

  (** [de::Result], src/de.rs 110-193. *)
  Definition XM A := M (rst S) derr A.

  (** src/de.rs 110-193 ([.context(context)] records the location). *)
  Definition xfail {A} (k : ekind) : XM A := fun st =>
    (RErr (mkErr (x_path st) (match x_over st with Some k' => k' | None => k end)), st).

  (** An operation of the source followed by [.context(context)?].
      src/de.rs 110-193. *)
  Definition on_src_of {A} (m : M S serr A) : XM A := fun st =>
    let '(r, s') := m (x_s st) in
    let st' := x_set_s s' st in
    match r with
    | ROk a => (ROk a, st')
    | RErr x => xfail (KStream x) st'
    | RPanic => (RPanic, st')
    | RFuel => (RFuel, st')
    end.

  (** A method of the [Blob] in the field in hand (Rust's types guarantee
      that there is one).
      src/stream.rs 1104-1239. *)
  Definition on_blob {A} (m : M S serr A) : XM A := fun st =>
    match x_cur st with
    | Some (mkField _ _ _ (HBlob _)) => on_src_of m st
    | _ => (RPanic, st)
    end.

  (** src/de.rs 287-346; each case cites its lines or names the call in [op]. *)
  Definition run_op (cf : cfg) {X : Set} (o : op X) : XM X :=
    match o in op X return XM X with
    | ONext =>
        let* f := on_src_of (i_next I) in
        mmod (x_set_cur f) ;;
        mret (option_map (fun f => (f_tag f, f_val f)) f)
    | OSkip => fun st =>
        match x_cur st with
        | Some f => on_src_of (i_skip I f) st
        | None => (RPanic, st)
        end
    | OUnknown => fun st =>      (* src/de.rs 314-321 *)
        if cf_ignore cf then (ROk tt, st)
        else match x_cur st with
             | Some f => xfail (KUnknownField (f_tag f) (f_pos f)) st
             | None => (RPanic, st)
             end
    | OPush at_field name => fun st =>     (* src/de.rs 287-301 *)
        if cf_rec cf <=? lenN (x_path st) then xfail KRecLimit st
        else
          match at_field, x_cur st with
          | true, Some f => (ROk tt, x_set_path ((name, f_pos f) :: x_path st) st)
          | true, None => (RPanic, st)
          | false, _ => (ROk tt, x_set_path ((name, i_pos I (x_s st)) :: x_path st) st)
          end
    | OPop => mmod (fun st => x_set_path (tl (x_path st)) st)
    | OCollect => fun st =>
        match ctx_collect (i_dbg I (x_s st)) (cf_collect cf) (x_coll st) 1 with
        | ROk c => (ROk tt, x_set_coll c st)
        | RErr k => xfail k st
        | RPanic => (RPanic, st)
        | RFuel => (RFuel, st)
        end
    | OQuota n => fun st =>
        match ctx_blob (i_dbg I (x_s st)) (cf_blob cf) (x_blob st) n with
        | ROk c => (ROk tt, x_set_blob c st)
        | RErr k => xfail k st
        | RPanic => (RPanic, st)
        | RFuel => (RFuel, st)
        end
    | OOver k => mmod (x_set_over (Some k))
    | ORemaining => on_blob (i_remaining I)
    | OReadFully => on_blob (i_read_fully I (cf_blob cf))
    | OReadExact n => on_blob (i_read_exact I n)
    | OExt => on_blob (i_ext I)
    end.

  (** No counterpart: executes the calls in order. *)
  Fixpoint run (cf : cfg) {A} (p : prog A) : XM A :=
    match p with
    | PRet a => mret a
    | PStop (StFail k) => xfail k
    | PStop StPanic => mpanic
    | PStop StFuel => fun st => (RFuel, st)
    | PDo o k => let* x := run_op cf o in run cf (k x)
    end.

  (** [Context::top], src/de.rs 273-283. *)
  Definition top_rst (s : S) : rst S := mkR s None [] 0 0 None.
End Run.
Arguments XM S A : clear implicits.
