(** * Prop_Text: strings are text, characters are scalar values (C64) *)

From Verif Require Import Base Wire Dev Stream Types Prog Ser De SpecFormat SpecStream SpecHist SpecDe SpecDoc SpecSerDe SpecRead SpecText
  P_Unk P_Ex P_DeProps P_Text.

(** ** C64.  A blob is accepted as a [String], [&str] or [Cow<str>] exactly
    if it is the UTF-8 encoding of a sequence of Unicode scalar values, and
    then the string has exactly these bytes. *)
Theorem C64_text e zc cf t b s : is_str t -> usable e zc cf t -> 1 <= cf_rec cf -> lenN b <= cf_blob cf ->
  doc_stream [(1, NBlob b)] s ->
  (forall v, fst (from_stream e zc cf t s) = ROk v <-> text b /\ v = VStr b) /\
  (~ text b -> exists err, fst (from_stream e zc cf t s) = RErr err /\ e_kind err = KInvalid).
Proof. exact (text_read e zc cf t b s). Qed.
Print Assumptions C64_text.

(** An integer is accepted as a [char] exactly if it is a scalar value. *)
Theorem C64_char e zc cf n s : usable e zc cf TChar -> 1 <= cf_rec cf -> n < 2 ^ 32 -> doc_stream [(1, NInt n)] s ->
  (forall v, fst (from_stream e zc cf TChar s) = ROk v <-> scalar n /\ v = VChar n) /\
  (~ scalar n -> exists err, fst (from_stream e zc cf TChar s) = RErr err /\ e_kind err = KInvalidMsg).
Proof. exact (char_read e zc cf n s). Qed.
Print Assumptions C64_char.

(** Whatever the input, every string and character anywhere in a value that
    deserialisation returns is valid. *)
Theorem C64_valid e zc cf t dbg sk gr bs sched v s' :
  env_ok e -> deserialisable e zc t -> cf_collect cf <= U64_MAX -> cf_blob cf <= U64_MAX ->
  bytes_ok bs -> lenN bs + 3 < U64_MAX ->
  from_stream e zc cf t (set_graceful_ gr (new_stream dbg sk (mkDev bs 0 sched))) = (ROk v, s') ->
  (forall b, part (VStr b) v -> text b) /\ (forall c, part (VChar c) v -> scalar c).
Proof. exact (valid_text e zc cf t dbg sk gr bs sched v s'). Qed.
Print Assumptions C64_valid.

(** "aé€😀" is accepted; an encoded surrogate, an overlong encoding of NUL and
    a cut sequence are not. *)
Example C64_instance :
  text [0x61; 0xC3; 0xA9; 0xE2; 0x82; 0xAC; 0xF0; 0x9F; 0x98; 0x80] /\
  doc_stream [(1, NBlob [0x61; 0xC3; 0xA9])] (from_slice true [0x81; 3; 0x61; 0xC3; 0xA9; 0x00]) /\
  from_slice_copy ex_env true default_cfg TString [0x81; 3; 0x61; 0xC3; 0xA9; 0x00] = ROk (VStr [0x61; 0xC3; 0xA9]) /\
  from_slice_borrow ex_env true default_cfg TStrRef [0x81; 3; 0xED; 0xA0; 0x80; 0x00] = RErr (mkErr [("top"%string, 0)] KInvalid) /\
  from_slice_copy ex_env true default_cfg TString [0x81; 2; 0xC0; 0x80; 0x00] = RErr (mkErr [("top"%string, 0)] KInvalid) /\
  from_slice_copy ex_env true default_cfg TCowStr [0x81; 1; 0xC3; 0x00] = RErr (mkErr [("top"%string, 0)] KInvalid) /\
  from_slice_copy ex_env true default_cfg TChar [0x41; 0x80; 0xB0; 0x03; 0x00] = RErr (mkErr [("top"%string, 0)] KInvalidMsg) /\
  from_slice_copy ex_env true default_cfg TChar [0x41; 0x80; 0xC0; 0x03; 0x00] = ROk (VChar 0xE000).
Proof.
  split; [exists [0x61; 0xE9; 0x20AC; 0x1F600]; split; [repeat constructor; unfold scalar; cbn; lia|reflexivity]|].
  split; [apply (doc_by _ [0x81; 3; 0x61; 0xC3; 0xA9] [] true true); reflexivity|].
  vm_compute. repeat split; reflexivity.
Qed.
