# Formal model of fourleaf in Rocq (Coq 8.16.1)

This file was written before the proofs and is kept current as the model
grows.  `properties.jsonl` has the properties in English, `MANIFEST.json` their
status, `seeded/LOG.jsonl` the wrong programs the theorems were tested on.

## Layers

Model (every definition cites its lines in /repo):

| file | models |
|---|---|
| `Base.v` | nothing: byte lists, results with explicit panic, `u64` arithmetic with debug/release overflow |
| `Wire.v` | `src/wire.rs`: descriptors, integers, zigzag |
| `Dev.v` | the `Read`/`Write`/`Seek`/`BufRead` impl under a stream: a byte array with a cursor (`io::Cursor`, `src/io.rs`) and an adversarial schedule of short transfers, interrupts and failures; std's `read_exact`, `write_all`, `read_to_end`, `io::copy` loops |
| `Stream.v` | `src/stream.rs`, slicing of `src/io.rs` |
| `Types.v` | type codes, values, user types (`fourleaf_retrofit!`, `src/sugar.rs`), UTF-8, names of fields in error locations |
| `Ser.v` | `src/ser.rs` and the `Serialize` impls of `src/unknown.rs`, `src/adapt.rs`, `src/sugar.rs` |
| `Prog.v` | `Config`, `Context`, `Error` of `src/de.rs`; the operations a deserialiser may perform and their execution |
| `De.v` | every `Deserialize` impl of `src/de.rs`, `src/unknown.rs`, `src/adapt.rs` and those `src/sugar.rs` generates; `from_stream_*`, `from_reader`, `from_slice_*` |
| `Elems.v` | the documented client loop over `next_field` and `deserialize_element` |
| `Hand.v` | programs that read and write documents field by field, each tag with a type of its own |
| `Retrofit.v` | `src/retrofit.rs` |
| `Show.v` | `Display` of `Context` and the two `Error`s |

Specifications (independent of the model's helpers; what a reader of the
theorems has to read):

| file | content |
|---|---|
| `SpecWire.v` | little-endian base-128 integers, their value, canonical form |
| `SpecFormat.v` | "Physical Format" of `src/lib.rs`: elements, their legal encodings |
| `SpecStream.v` | how elements are reported by the reading methods, fresh streams |
| `SpecBlob.v`, `SpecHist.v`, `SpecWrite.v` | histories of calls on a blob, on a stream, of writing calls |
| `SpecDe.v` | typing of values, how much of each limit a value uses, which types can be deserialised |
| `SpecDoc.v` | documents as trees, their encodings, the document of a value |
| `SpecListing.v` | listings of a value: what iterating over its hash tables may hand out |
| `SpecSerDe.v` | size of an encoding, client programs, example types |
| `SpecRead.v` | what a document means as a value of a type (a declarative account of deserialisation) |
| `SpecCard.v` | occurrences of fields, cardinalities |
| `SpecCtx.v` | histories of calls on a `Context`'s counters |
| `SpecZc.v` | what is copied and what is borrowed |
| `SpecCompat.v`, `SpecChange.v`, `SpecEdit.v` | "Maintaining Compatibility" of `src/lib.rs` |
| `SpecStd.v` | values of the std types of `src/retrofit.rs` |
| `SpecAccept.v` | inputs that begin with a document |
| `SpecCrash.v` | reading a log of values until one cannot be read; which calls read |
| `SpecDbg.v` | histories without misuse, for comparing debug and release builds |
| `SpecFault.v` | the faults of a document read as a value of a type, and where they are |
| `SpecText.v` | Unicode scalar values and UTF-8 |
| `SpecDisp.v` | histories at a displaced position |
| `SpecErr.v` | the errors reading may report |
| `SpecErrW.v` | the errors each call may report |
| `SpecErrC.v` | which earlier call an error about an unfinished blob is due to |
| `SpecElems.v` | what fields mean as elements |
| `SpecGrow.v` | which types contain a `[u8; 0]` (absent allowed, written always) |
| `SpecAlike.v` | which types stand for one another (Box, Cow, Copied, sequences), for whole families of definitions; results equal up to names |
| `SpecWork.v` | the deserialisers run on a stream with a counter of the elements asked for |
| `SpecHand.v` | what the fields a program asks for mean, and values to be written field by field |
| `SpecRetry.v` | repeating a commit that failed |
| `SpecStrict.v` | the errors by which a stricter configuration refuses |
| `SpecShow.v` | identifiers; errors described in the crate's own words |

`Tree.v` and `P_*.v` are proofs (`Tree.v` computes on trees what `De.v`
computes on streams; it occurs in no property theorem).  `Prop_*.v` hold the
property theorems and nothing else: each is closed by `exact`, is followed by
`Print Assumptions`, and has an example that meets its hypotheses.

Deserialisers never look at the stream other than through its public
operations, so they are modelled as *programs over stream operations* (a free
monad): the same program is run on the byte-level `Stream` model, on a list of
elements and on a tree.  Relating two runs of one program is then an induction
over the program, which yields chunking independence, trailing-byte
independence, padding/denormal independence and the refinement "bytes ->
document" at once.  Writers give serialisers no feedback other than success or
failure, so a serialiser is the sequence of `write_*` calls it makes, which is
then executed on the byte-level `Stream` model.

## Conventions

* Every panic the Rust code can raise (overflow checks in debug builds, slice
  bounds, `assert!`, `unreachable!`, `unwrap`) is the explicit result `RPanic`.
  Streams carry a flag telling whether overflow checks and `debug_assert!` are
  compiled in (`s_dbg`), so theorems quantify over both build profiles.
* Loops without a structural bound run on fuel 2^64; running out is the
  explicit result `RFuel` and is proved unreachable.
* A property that is false of the code is refuted by a concrete witness
  (`..._refuted`) next to the strongest true part (`..._partial`).

## Trusted base

* Coq 8.16.1's kernel (including its `vm_compute` machine).
* `Print Assumptions` reports "Closed under the global context" for every
  theorem in `Prop_*.v`: no axioms at all.  (Loading the standard library's
  `ZifyBool` makes the seven constants of `Coq.ssr.ssrunder.Under_rel` present
  in the environment; no theorem depends on them.)
* That the definitions of the model say what the Rust code does: they were
  written function by function from the text, and compared with it again when
  the line citations were checked.  Nothing was executed.
* That the specifications say what the English says.
* The behaviour of Rust's std used by the crate: `io::Cursor`, `read_exact`,
  `read_to_end`, `write_all`, `io::copy`, `Take`, UTF-8 and `char` checks,
  `Ipv4Addr`, ... as described in the comments of `Dev.v`, `Types.v` and
  `Retrofit.v`.

### Modelled

All of `wire.rs`, `stream.rs`, `io.rs`, `ser.rs`, `de.rs`, `unknown.rs`,
`adapt.rs`, `sugar.rs` and `retrofit.rs` except what is listed next.

### Not modelled

* `Debug` output, `Error::description`/`cause`.  Error locations are the list
  of (field name, position) pairs they are printed from; `Show.v` models the
  printing (`Display`), with text from outside the crate as a parameter.
* `get_ref`, `get_mut`, `into_inner`, `stream_get_ref`, `stream_get_mut`,
  `stream_set_pos`: they hand out the underlying reader, after which anything
  can happen.  `flush` (it does nothing in the crate but forward).
* Memory use and allocation failure; stack depth (nesting is counted).
* `Eq`/`Ord`/`Hash` of keys and set elements are taken to be structural:
  sets and maps are kept in ascending order of a derived-`Ord`-like total
  order (`value_cmp`), the order in which `BTreeSet`/`BTreeMap` iterate when
  `Ord` is derived.  `HashSet`/`HashMap` iterate in an arbitrary order:
  `SpecListing.v` and C62 treat that.  Hand-written `Ord`/`Eq` are not
  modelled.  A `BinaryHeap` is a sequence: which internal order `push` leaves
  is not modelled.
* `usize` is 64 bits wide.
* Lifetimes (`AsExtBytes`): a borrowed slice is the bytes it refers to; C39
  states that they are the bytes of the input at that place.
* Accessor and constructor expressions given to `fourleaf_retrofit!` are
  arbitrary: a value is the list of what the accessors return, and of the
  constructor only whether it returns `Ok` is kept (`vb_check`).  Context
  arguments passed to them are ignored.  A `(?)` enum variant, as in the
  macro, may have any body.
* Readers and writers that break the contracts of `Read`/`Write`/`Seek`
  (returning more than asked, changing data behind the stream's back).
* Test modules, `ser_des_builtin_tests.rs`, `test_helpers.rs`.

## Properties

| property | how it is modelled and proved | status | theorems |
|---|---|---|---|
| C01 Integer round trip | `Wire.v` over an abstract byte source; induction over 7-bit groups | proved | `C01_decode_encode` |
| C02 Exact accept set of the integer decoder | as C01, against the inductive format of `SpecWire.v`, both directions | proved | `C02_accepts_iff`, `C02_outcome` |
| C03 Integer encoding is canonical and minimal | as C01; length by induction, minimality against every accepted string | proved | `C03_canonical_minimal`, `C03_injective_prefix_free` |
| C04 Fixed-width integers | as C01, ten groups | proved | `C04_fixed_width` |
| C05 ZigZag is a bijection that keeps small magnitudes small | arithmetic on `Z`/`N` with two's complement casts | proved | `C05_zigzag_bijection`, `C05_zigzag_magnitude`, `C05_signed_round_trip`, `C05_signed_accepts_iff` |
| C06 Descriptor bytes are a bijection | sweep over the 256 bytes lifted by `forallb_forall` | proved | `C06_every_byte_parses`, `C06_every_descriptor_has_one_byte` |
| C07 Element stream round trip | `Stream.v`; one lemma per writing method and element, then induction on the sequence | proved | `C07_write_read_roundtrip` |
| C08 The reader accepts exactly the documented physical format and never reads ahead | characterisation of next_element against `SpecFormat.v`, both directions | proved | `C08_accepts_every_legal_encoding`, `C08_consumes_exactly_one_legal_encoding`, `C08_never_panics` |
| C09 Struct depth counter is the nesting depth | invariant over element sequences | proved | `C09_depth_is_nesting` |
| C10 Padding is invisible | induction on the padding run; for deserialisation through C46 | proved | `C10_padding_invisible` |
| C11 The next field follows the blob, however it was consumed | window invariant of `SpecBlob.v` over arbitrary operation sequences | proved | `C11_next_element_follows_blob`, `C11_blob_use_is_invisible_afterwards` |
| C12 Blob operations are confined to the blob | as C11 | proved | `C12_blob_operations_confined` |
| C13 End of document is sticky | direct, for every stream state | proved | `C13_end_of_document_is_sticky`, `C13_end_of_document_sets_eof_and_resumes_after_it` |
| C14 Graceful EOF | direct | proved | `C14_end_of_input_at_descriptor`, `C14_end_of_input_in_integer` |
| C15 In-band exceptions | direct, using the blob lemmas | proved | `C15_exception_is_an_error`, `C15_next_element_exposes_exception` |
| C16 Skipping a field skips exactly its subtree | induction on document trees; a measure on the remaining input for termination | proved | `C16_skip_struct_field`, `C16_skip_leaf_field`, `C16_skip_up`, `C16_skip_up_terminates` |
| C17 Stream positions never wrap | invariant over all histories of calls (`SpecHist.v`) | proved | `C17_positions_never_wrap`, `C17_position_follows_device`, `C17_open_blob_fits` |
| C18 Integer conversions accept exactly their range | case analysis and arithmetic | proved | `C18_unsigned_conversion`, `C18_signed_conversion`, `C18_bool_conversion`, `C18_null_conversion`, `C18_errors_are_range_or_type`, `C18_write_convert_back` |
| C19 Truncated blobs are detected | per operation; witnesses for the two that do not report | partial | `C19_skipping_by_reading_reports_truncation_partial`, `C19_skipping_by_seeking_reports_an_error_partial`, `C19_read_exact_reports_truncation_partial`, `C19_slicing_reports_truncation_partial`, `C19_read_fully_refuted`, `C19_skipping_by_seeking_refuted` |
| C20 Read results do not depend on how the reader chunks or interrupts | relational induction over std's loops, lifted to every operation and history; `P_CopySched`: the same for copying between two streams, each with its own schedule | proved | `C20_copying_does_not_depend_on_chunking`, `C20_reads_do_not_depend_on_chunking` |
| C21 Pre-sized blobs must be filled exactly | invariant over write sequences | proved | `C21_presized_blob` |
| C22 Dynamic blobs are back-patched correctly | as C21, with the back-patching of the device | proved | `C22_dynamic_blob` |
| C23 Alignment padding | arithmetic on powers of two, induction on the padding | proved | `C23_pad_to_align` |
| C24 Copying elements between streams | two-stream histories; induction on the elements | proved | `C24_copying_elements`, `C24_partially_consumed_blob` |
| C25 Written bytes do not depend on how the writer splits writes | as C20 on the writing side | proved | `C25_writes_do_not_depend_on_chunking` |
| C26 Invalid tags are refused | case analysis on the build profile; witness for release | partial | `C26_invalid_tags_partial`, `C26_release_build_refuted` |
| C27 Serialisation round trip | value -> calls -> document (`P_Ser`), document -> value (`P_RT`), bytes <-> document (`P_TreeRun`) | proved | `C27_roundtrip`, `C27_roundtrip_borrow` |
| C28 Consecutive values on one stream | C27 with the state afterwards, induction on the list of values | proved | `C28_leaves_the_rest`, `C28_one_stream`, `C28_one_reader` |
| C29 Field order does not matter | permutation invariance of the meaning (`SpecRead.v`) through C57 | proved | `C29_any_depth`, `C29_struct` |
| C30 Unknown fields are skipped or rejected as configured | insertion in the tree through C57; the error by following the body loop | proved | `C30_ignored`, `C30_rejected`, `C30_unknown_field` |
| C31 UnknownFields preserves everything | induction on documents | proved | `C31_unknown_fields` |
| C32 Edit compatibility | document of the edited value computed and read by the newer type (C57, C40) | proved | `C32_edit_struct`, `C32_same_types`, `C32_unknown_variant`, `C32_passed_through` |
| C33 Field cardinality | counting occurrences in the meaning (C57) | partial | `C33_at_most`, `C33_at_least`, `C33_accepted`, `C33_any_number`, `C33_struct_twice`, `C33_too_many_times_refuted` |
| C34 Recursion limit | Hoare-style induction over types, fuel and programs (`P_Wp`); threshold through C57 | proved | `C34_nesting`, `C34_threshold`, `C34_too_deep` |
| C35 max_blob bounds copied bytes | as C34 | proved | `C35_copied`, `C35_threshold`, `C35_too_many_bytes` |
| C36 max_collect bounds collected elements | as C34 | proved | `C36_collected`, `C36_threshold`, `C36_too_many` |
| C37 Truncated documents never deserialise | every run that ends on a prefix is the same run on the whole (`P_DeTrail`) | proved | `C37_truncated`, `C37_truncated_slice` |
| C38 Trailing bytes are ignored | relational: run with more input | proved | `C38_trailing` |
| C39 Zero-copy and copying agree | relational over the two styles (`P_Zc`, `P_Borrow`) | proved | `C39_copied_also_borrowed`, `C39_borrowed_also_copied`, `C39_max_blob_is_for_copies`, `C39_borrowed_is_input` |
| C40 Documented backward-compatible changes | the old value's document is given a meaning in the new type (`P_Compat`, `P_Changes`) | proved | `C40_old_data_is_read`, `C40_one_reading`, `C40_unchanged`, `C40_compatible_types`, `C40_struct_changes`, `C40_deleted_fields_kept`, `C40_variants_added`, `C40_u8_to_vec_refuted`, `C40_vec_u8_widened_refuted`, `C40_vec_u8_added_refuted` |
| C41 Enum variants | through C57 | proved | `C41_declared`, `C41_undeclared`, `C41_caught`, `C41_caught_kept` |
| C42 Deserialisation is total: no panic, no divergence | Hoare-style induction (`P_Wp`), fuel bounded by the recursion limit and the input | proved | `C42_from_slice_copy`, `C42_from_slice_borrow`, `C42_from_reader`, `C42_read_values` |
| C43 Deserialised values are valid | as C42 with typing as postcondition | proved | `C43_valid` |
| C44 Serialised output has the documented shape | induction on values (`P_Ser`) | proved | `C44_to_vec_shape`, `C44_serialize_element_shape`, `C44_serialize_field_shape` |
| C45 Encoding is injective | from C27 and C28 | proved | `C45_injective_prefix_free` |
| C46 Only the logical document matters | the run on the bytes is the run on the tree (`P_TreeRun`), errors included | proved | `C46_only_the_document_matters` |
| C47 End-of-document closes all open structs | simulation between the two endings (`P_Same`) | proved | `C47_end_of_document` |
| C48 Context::collect accounting | direct on the counters; witnesses | partial | `C48_collect_partial`, `C48_collect_refuted`, `C48_collect_ones`, `C48_collect_zero`, `C48_blob` |
| C49 Blob slicing is total and consuming as documented | direct; witnesses | partial | `C49_slice_partial`, `C49_ext_slice_consumes_refuted`, `C49_slice_never_panics_refuted` |
| C50 Repositioning | direct, with C11 | proved | `C50_reset_pos`, `C50_seek`, `C50_reading_again` |
| C51 I/O failures surface as errors | relational: a failing schedule against a clean one | proved | `C51_failures_surface` |
| C52 Blob::seek never panics | case analysis; witness | partial | `C52_blob_seek_total_partial`, `C52_blob_seek_total_refuted` |
| C53 skip_up always returns | measure; witness that iterates for ever | partial | `C53_skip_up_always_returns_refuted`, `C53_skip_up_returns_partial` |
| C54 Deserialisation does not depend on how the reader delivers data | as C20/C51 through every deserialiser | proved | `C54_reader_schedule`, `C54_reader_failure` |
| C55 Strict round trip | as C27, with the types that hold a unit excluded; witnesses | partial | `C55_strict_roundtrip_partial`, `C55_unit_strict_refuted`, `C55_result_unit_strict_refuted` |
| C56 The format is unambiguous | induction on documents | proved | `C56_unambiguous` |
| C57 A document determines the value | tree deserialiser against the declarative meaning (`P_Means`, `P_Meaning`) | proved | `C57_meaning`, `C57_over_the_limits`, `C57_meaningless`, `C57_one_meaning` |
| C58 Standard-library types round trip and reject impossible values | instances of C27/C43 on the declarations of `Retrofit.v` | proved | `C58_std_roundtrip`, `C58_only_valid_values`, `C58_duration_out_of_range`, `C58_result` |
| C59 Whatever is accepted is a document | the elements consumed by a successful run are parsed into a tree (`P_Parse`, `P_Accept`); `P_Exact`: a self-simulation records which elements were consumed, the run is repeated on exactly these bytes and lifted back by `trailing`, so the final position is the length of the document and everything behind it is still unread | proved | `C59_accepted`, `C59_accepted_exactly`, `C59_documents_accepted`, `C59_consumed_exactly` |
| C60 An interrupted serialisation is never mistaken for a complete one | Judgement `emit` (P_Crash): under any schedule the serialiser appends a prefix of the encoding, the whole of it iff it succeeds. Reading back: complete documents by C59's machinery, the cut one by the truncation theorem, whatever the schedule by simulation (P_Recover). | proved | `C60_partial_write`, `C60_recovery`, `C60_interrupted` |
| C61 Reading never alters the input and only moves forward | Invariant over every reading operation (P_ReadOnly): contents fixed, cursor not below its start, pending commit only ever one that skips; lifted over histories and over the deserialiser by its stream interpretation. | proved | `C61_contents_unchanged`, `C61_cursor_moves_forward`, `C61_deserialisation` |
| C62 The order of sets and maps does not matter | `SpecListing.lists` relates a listing to the value it lists; the round-trip induction (P_RT.rt_all) is over listings, the plain round trip is the case of a value listing itself. The order of values is total (P_Ord), so the sorted list with given members is unique; sets and maps against sequences via the declarative meaning (P_Listing). | proved | `C62_any_order`, `C62_set_of_sequence`, `C62_map_of_pairs` |
| C63 Debug and release builds agree | The stream state of the model carries the build profile; `release` (SpecDbg.v) is the same stream compiled without checks. P_Dbg.v proves a judgement `agr` (equal result and state unless the checked run panics) for every primitive by structural combinators, and lifts it to histories (`run_calls`), to pairs of streams for copying, to `exec` (serialisation) and to `run` (deserialisation); with C42's totality the deserialisation theorems need no no-panic premise. `C63_panics` shows three misuses where only the checked build panics. | proved | `C63_histories`, `C63_copying`, `C63_to_stream`, `C63_from_stream`, `C63_from_slice_copy`, `C63_from_slice_borrow`, `C63_from_reader`, `C63_to_vec` |
| C64 Strings are UTF-8 text, characters are scalar values | `str::from_utf8` and `char::from_u32` are library functions of Rust; the model has the checks of the Rust documentation (`utf8_ok`, `char_ok` in Types.v). SpecText.v defines scalar values and their encoding independently (by division into six-bit digits); P_Text.v proves the checks equivalent to `exists cs, Forall scalar cs /\ bs = flat_map utf8_char cs`, evaluates the deserialisers on one-field documents (through the tree semantics), and combines C43's typing with an induction over values for nested strings. | proved | `C64_text`, `C64_char`, `C64_valid` |
| C65 Deserialisation errors name the fault and where it is | SpecFault.v defines, by five mutual inductive relations over documents, types and paths, what it means for a document to be faulty at a path (no streams, accumulators or reading). P_Fault.v: Hoare-style rules for the tree semantics (Tree.v, which tracks the stack of context names) with the fault relation as the exceptional postcondition; P_TreeRun/tree_stream_path: the stream run has the same path. P_Loc.v lifts this to all schedules, and proves by mutual induction that a fault excludes every meaning (SpecRead). Which of several faults is reported is left open; positions in the path are not described. | proved | `C65_located`, `C65_real` |
| C66 The positions in error locations are ordered and point at the field | P_Places.v: a safety logic over deserialiser programs (Prog.v) whose state invariant is that the stack of contexts is a chain of positions ending at the stream's, the field in hand lying behind them at a byte with its tag; every operation preserves it (single stream operations move forward and change no byte: P_Pos, P_ReadOnly; the first byte of a field under any schedule: P_Sched), every impl keeps it by induction on types and unfoldings. | proved | `C66_ordered`, `C66_unknown_field`, `C66_slice` |
| C67 Reading, writing and reading again changes nothing | From C43/C34/C35/C36 (what was read is well typed and within the limits, hence storable) and C27 (storable values round trip); the normal form from injectivity (C45). | proved | `C67_resave`, `C67_normal_form` |
| C68 A laxer configuration changes no result | P_Relax.v: a refinement order on deserialiser programs (the right one may go on where the left runs out of unfolding fuel), congruences for every impl by induction on types, and a simulation of every operation under the two configurations with the counters as invariant. | proved | `C68_relaxed`, `C68_never_different` |
| C69 Graceful end of input closes the document and changes nothing else | a simulation between a graceful stream and the list of elements it holds followed by an end of document (`P_Grace.v`), composed with C47; a second relation, over every operation, device schedule and history, for what does not change (`P_Quiet.v`) | proved | `C69_end_of_input_closes`, `C69_histories_unchanged`, `C69_deserialising_unchanged` |
| C70 Nothing depends on the absolute stream position | a relation between streams whose positions (and blob ends) differ by k, kept by every operation and history (`SpecDisp.v`, `P_Disp.v`) | proved | `C70_histories_displaced`, `C70_after_reset_pos`, `C70_deserialising_displaced` |
| C71 No amplification | `P_Amp`: structural induction over the declarative meanings bounds what reading costs by the weight of the document (one per field, plus blob contents), the weight is bounded by the bytes that encode it, the bytes consumed are exactly those (C59), and the value is read once more under limits equal to its cost so that C35/C36 bound what it holds. `C71_input_sized_limits`: the cost of what was read is bounded by the document weight, so the run under the lower limits is the one P_Meaning predicts | proved | `C71_no_amplification`, `C71_input_sized_limits` |
| C72 Graceful end of input stands for an end-of-document marker | `P_GraceOk`, `P_GraceEq`: a simulation between a stream with graceful_eof over `bs` and one without over `bs ++ [0x40]`, in both directions, through every operation of the source interface (the two part only at the end, where the first reports an implied end of document and the second reads one). Proved for readers without Seek; one half for all. With Seek the English claim is false: a truncated blob is skipped by seeking past the end, and the string read from it is accepted cut short (`C72_seekable_refuted`). | partial | `C72_implied_marker_partial`, `C72_marker_not_needed`, `C72_seekable_refuted` |
| C73 A stricter configuration only refuses, and says why | `P_Strict`: a lock-step simulation of the two runs of the deserialiser program over the same stream: each step is taken alike or the stricter run announces an over-limit error, after which the program never succeeds (`calm`), while totality (C01) excludes panics; `SpecStrict.refuses` lists which error may arise from which setting | proved | `C73_stricter` |
| C74 Printed errors identify the place | `Show.v` models the `Display` impls; `P_Show`: a location contains no space, so it is what follows the last space, and its segments are self-delimiting because names are words and numbers are digits; `P_Names`: by induction over the impls, every name pushed while deserialising is an identifier or two digits | proved | `C74_printed_errors`, `C74_names_made_up` |
| C75 Reading reports reading errors, with sensible details | `P_Errs`: an error predicate for monadic stream code (`er`) carried through every reading function; a walk over every impl showing which errors it raises itself; run lemma that joins both with the program logic of `P_Wp`, whose precondition for reading a blob into memory (`remaining <= max_blob`) excludes `LargeBlob`. | proved | `C75_deserialisation_errors`, `C75_call_errors` |
| C76 A failed commit can be repeated | `P_Retry`: a commit, successful or not, only moves stream and device together towards the end of the blob and keeps the pending operation when it fails (`moves`); induction over the attempts. Dynamic blobs: a witness on the model, a device failing at the last seek of the close. | partial | `C76_retry_partial`, `C76_retried_right_partial`, `C76_retry_refuted` |
| C77 Every call reports only errors that concern it | `P_ErrW`: an error predicate for every operation of the stream layer, with and without the invariant that a blob's end is representable and not before the position (`sane`), which every call but `reset_pos` keeps; induction over the history. `P_ErrD`: on devices that never fail the position is never before the start of a dynamic blob (`Gd`). `P_ErrV`: a walk over the serialiser. `P_ErrC`: what may be pending on a stream is caused by an earlier call, and the error of closing it names what was pending. | proved | `C77_errors_proper`, `C77_never_before_dynamic`, `C77_writing_errors`, `C77_causes` |
| C78 A writer that gives up with an exception is understood | `P_GiveUp`: lockstep simulation, on sequences of elements, of the run on the complete document (strict) and the run on the abandoned one: they agree until the latter stops at the exception, and since the former consumes the whole document it must; a walk over every impl shows that only fields reported as unknown are skipped. Transfer to bytes through `P_El`, to values through C27 and C56. | proved | `C78_gives_up`, `C78_value_gives_up`, `C78_cut_short` |
| C79 Elements can be read one at a time | `Elems.v` writes the client's loop as a program over the same operations as the impls; `P_Elems.v`: on trees the loop is `t_loop` over `t_elem`, whose meaning is `rmap` of `m_elem` (P_Means); transfer to streams by `el_stream` and to schedules by `run_dsim`; the early part by a variant of the body predicate without an end marker; the last part by the weakest-precondition calculus of P_Wp. | proved | `C79_one_at_a_time`, `C79_over_the_limits`, `C79_like_collecting`, `C79_collected`, `C79_as_they_come`, `C79_written`, `C79_any_input` |
| C80 Documents can be read and written field by field | `Hand.v` writes the client's loop as a program over the same operations as the impls, with a dictionary per tag, and the writer as `serialize_element` calls followed by `write_end_struct` and `commit`; `P_Hand.v`: on trees the loop is `t_picks`, whose meaning is `rmap` over the wanted fields (the skipped fields are dropped by `OSkip` on any subtree); transfer to streams by `el_stream` and to schedules by `run_dsim`; any input by the weakest-precondition calculus; writing by `exec` over the concatenated operations, which writes the canonical encoding of `written_fields`. | proved | `C80_reads_what_is_asked_for`, `C80_over_the_limits`, `C80_others_do_not_matter`, `C80_any_input`, `C80_written`, `C80_sequence`, `C80_struct`, `C80_read_as_struct` |
| C81 Reading and writing back does not make data grow | `P_Grow.v`: for any measure of nodes that is additive and does not grow under the canonical choice of an integer's encoding, what a value is written as measures no more than any document it is a meaning of, by induction over the types along the meaning (each written field is charged to a distinct field of the document: last occurrences, dictionary keys and set elements cancel duplicates, catch-all fields are the ones no other field took). `P_GrowB.v` instantiates the measure with the length of the shortest encoding and with the bound that `to_vec` needs, and compares both with the input: a document's ends of structs are one more than its starts, so one end-of-document marker in place of all of them costs a factor of two. `P_GrowC.v`: data passed through an old program (with C32). | proved | `C81_document`, `C81_any_input`, `C81_passed_through` |
| C82 Types that stand for one another are interchangeable | `SpecAlike.alike` lists the replacements and closes them under the type constructors; `env_alike` applies it to definitions. Two impls are equal if all their methods run alike from states that agree up to the names on the context stack; this is kept by every combinator of De.v (P_Alike), by induction over the derivation of `alike`, over types and over the unfolding of definitions. For writing, the lists of calls are equal, by induction over `alike` and over values (P_AlikeW). | proved | `C82_reading`, `C82_writing`, `C82_renaming` |
| C83 Deserialising asks for no more elements than there are bytes | The real deserialisers run on a stream paired with a counter of `next_field` calls (SpecWork.v; running them is shown to change nothing else). P_Work.v: a logic over deserialiser programs with credit: every answer of `next_field` other than the end of the document reads a byte that lies in the input (skipping by a seek only moves further), and after that the stream remembers that it has ended; a program may overdraw only by one call for each context it may still open, and only if the stream has ended (or it fails). Every operation and loop keeps this, every impl by induction on types and unfoldings. | proved | `C83_next_calls`, `C83_consumed`, `C83_counting_changes_nothing` |

## Findings

Where a documented or expected property is false of the code:

1. `Blob::ext_slice` (stream.rs 1209-1218) is documented as consuming but does
   not advance the position (C49).
2. `Context::collect(n)` (de.rs 326-333) adds 1, not `n`; `collect(n)` for
   `n = 0` at the maximum lets the next subtraction underflow (C48).  The crate
   itself only calls it with 1.
3. A second occurrence of a `fourleaf_retrofit!` struct or enum is reported as
   `FieldOccursTooFewTimes` (sugar.rs 526-550) (C33).
4. `()` is written with a field (`C1 00 00`) but read by an impl that declares
   none, so with `ignore_unknown_fields = false` `()` cannot be read back, nor
   can `Result<(), E>` (C55).
5. `read_fully` / `read_or_trunc` of a truncated blob return short data
   without an error; skipping a blob by seeking never notices truncation; with
   graceful EOF a truncated final blob is accepted silently (C19): from a
   seekable stream `[0x81, 5, 'h']` deserialises as the string "h" (C72).
6. `slice`, `slice_mut`, `ext_slice` panic when the cursor stands beyond the
   end of the underlying slice, e.g. after skipping such a blob (C49).
7. Tags out of range are checked by `debug_assert!` only (wire.rs 106-116):
   a release build writes a corrupt document (C26).
8. `Blob::seek(SeekFrom::Current(i64::MIN))` panics in debug builds (C52).
9. `skip_up` never returns when the end of document was met and the depth was
   then set above the target (C53).
10. The documented compatible changes do not hold for `u8` (`u8` to `Vec<u8>`,
    `Vec<u8>` to `Vec<u32>`, a missing `Vec<u8>` field) (C40).
11. The documentation's example `[1] fields: Copied<UnknownFields>` panics on
    serialisation (`UnknownFields` has no `serialize_field`).
12. An exception element inside a skipped unknown struct is swallowed (C59, C78).
13. Copying a partially consumed blob with `write_field`/`write_element`
    announces the whole length; the next operation fails (C24).
14. `write_blob_dynamic` within 10 bytes of `u64::MAX` panics in debug builds
    and fails in release builds; `pad_to_align(0)` panics in debug builds.
15. Tuples are documented up to 15 components, implemented up to 16.
16. The documentation calls changing a plain type to a collection
    incompatible at top level; for non-struct types it is compatible (C40).
17. `OverlongBlob` is documented for blobs that "would be read or written"; on
    reading, such a length is reported as an I/O error (C75).
18. When closing a dynamic blob fails at the device, calling `commit()` again may
    succeed and declare the blob empty, so that what follows overwrites it (C76),
    or report `PositionBeforeStartOfDynamicBlob`, documented as not ordinarily
    possible without bypassing the abstraction (C77).
