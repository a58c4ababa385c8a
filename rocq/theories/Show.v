(** * Show: what errors look like when printed

    [Display] of [Context] and of the two [Error] types (src/de.rs 110-193,
    349-357, src/stream.rs 32-116).  Text that comes from elsewhere (the
    operating system, std's UTF-8 check, a lossy conversion, messages chosen
    by the macro's user) is a parameter. *)

From Coq Require Import DecimalString.
From Verif Require Import Base Wire Dev Stream Types Prog.
Local Open Scope string_scope.

(** [Display] of [u64], [u8] and [usize] in the format strings of
    src/de.rs 110-193, 349-357 and src/stream.rs 32-116. *)
Definition show_num (n : N) : string := NilZero.string_of_uint (N.to_uint n).

(** [Display for Context], src/de.rs 349-357, of a context below [top]
    (273-283: no name, position 0); innermost field first. *)
Fixpoint show_location (p : list (string * N)) : string :=
  match p with
  | [] => "{" ++ show_num 0 ++ "}"
  | (nm, pos) :: r => show_location r ++ "." ++ nm ++ "{" ++ show_num pos ++ "}"
  end.

(** Text from elsewhere: [io::Error::description()] (src/stream.rs 37-41), [String::from_utf8_lossy]
    (631-632), the message of [IntegerOutOfRange] (1386-1393, 1427, 1485), [Utf8Error] (src/de.rs 786,
    797), the message of [InvalidValueMsg] (915, 977, 1043). *)
Record texts := mkTexts {
  tx_io : iokind -> string;
  tx_lossy : bytes -> string;
  tx_range : string;
  tx_utf8 : string;
  tx_msg : string
}.

(** The names passed to [UnexpectedType], src/stream.rs 1379-1383, 1430-1434, 1444-1448, 1458-1462, 1495-1501. *)
Definition show_fty (f : fty) : string :=
  match f with FInteger => "Integer" | FBlob => "Blob" | FStruct => "Struct" | FEnum => "Enum" end.

(** [Display for stream::Error], src/stream.rs 32-116 (where no [display] is given,
    [quick_error!] prints the description). *)
Definition show_serr (tx : texts) (x : serr) : string :=
  match x with
  | SIo k => tx_io tx k
  | SIntegerOverflow => "integer overflow"
  | SOverwideInteger => "encoded integer too wide"
  | SException msg => "error message in stream: " ++ tx_lossy tx msg
  | STruncatedBlob n => "blob extends beyond EOF (" ++ show_num n ++ " bytes remaining)"
  | SOverlongBlob => "blob length too long"
  | SIncompleteBlob n => "blob not fully written (" ++ show_num n ++ " bytes remaining)"
  | SPosBeforeDynBlob => "stream position moved before start of dynamic blob"
  | SOverlongDynBlob => "dynamic blob length exceeds i64::MAX"
  | SLargeBlob max remaining => "blob (size " ++ show_num remaining ++ ") exceeds maximum requested size (" ++ show_num max ++ ")"
  | SUnexpectedType expected actual => "expected field type " ++ show_fty expected ++ ", got " ++ show_fty actual
  | SOutOfRange => tx_range tx
  end.

(** [Display for de::Error], src/de.rs 110-193: the text before [" at "], and
    what follows it. *)
Definition show_kind (tx : texts) (k : ekind) : string :=
  match k with
  | KStream x => show_serr tx x
  | KRecLimit => "recursion limit exceeded"
  | KUnknownField tag _ => "unknown field " ++ show_num tag ++ " encountered"
  | KUnknownVariant d => "unknown enum variant " ++ show_num d ++ " encountered"
  | KTooFew n => "too few occurrences (min " ++ show_num n ++ ") of field"
  | KTooMany n => "too many occurrences (max " ++ show_num n ++ ") of field"
  | KMissing => "required field missing"
  | KInvalid => tx_utf8 tx
  | KInvalidMsg => tx_msg tx
  | KMaxCollect => "collection size sum limit exceeded"
  | KMaxBlob => "copied blob size sum limit exceeded"
  end.
(** src/de.rs 110-193. *)
Definition show_error (tx : texts) (x : derr) : string :=
  show_kind tx (e_kind x) ++ " at " ++
  match e_kind x with
  | KUnknownField _ pos => show_location (e_path x) ++ ".{" ++ show_num pos ++ "}"
  | _ => show_location (e_path x)
  end.
