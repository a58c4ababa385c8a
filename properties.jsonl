{"id": "C01", "title": "Integer round trip", "statement": "Encoding any u64 with wire::encode_u64 and decoding the bytes with wire::decode_u64 returns the same number and consumes exactly the encoded bytes, whatever bytes follow.", "quantifier": "every u64 value and every continuation of the input", "why_tests_cant": "2^64 values times unboundedly many suffixes; boundary behaviour at every 7-bit group cannot be sampled exhaustively", "anchors": ["src/wire.rs: encode_u64, decode_u64"]}
{"id": "C02", "title": "Exact accept set of the integer decoder", "statement": "decode_u64 accepts an input exactly when it starts with a little-endian base-128 integer (high bit = continuation) of at most 257 bytes whose mathematical value is below 2^64 (denormalised forms included), and then returns that value and stops right after it; otherwise it returns IntegerOverflow as soon as a non-zero group does not fit, OverwideInteger after 257 continuation bytes, or UnexpectedEof if the input ends first. It never returns a wrong number.", "quantifier": "every finite byte string", "why_tests_cant": "the set of byte strings is infinite; the denormalised forms have lengths up to 257", "anchors": ["src/wire.rs: decode_u64"]}
{"id": "C03", "title": "Integer encoding is canonical and minimal", "statement": "encode_u64 writes between 1 and 10 bytes, the last one without and all others with the continuation bit, and no byte string accepted by decode_u64 with the same value is shorter; different integers get different encodings and no encoding is a prefix of another.", "quantifier": "every u64 value and every accepted byte string", "why_tests_cant": "minimality quantifies over all alternative encodings", "anchors": ["src/wire.rs: encode_u64"]}
{"id": "C04", "title": "Fixed-width integers", "statement": "encode_fixed_u64 always writes exactly 10 bytes and decode_u64 reads the same value back from them, so a fixed-width integer can be overwritten in place by any other.", "quantifier": "every u64 value and every continuation", "why_tests_cant": "2^64 values", "anchors": ["src/wire.rs: encode_fixed_u64, decode_u64"]}
{"id": "C05", "title": "ZigZag is a bijection that keeps small magnitudes small", "statement": "wire::zigzag and wire::unzigzag are inverse bijections between i64 and u64; a non-negative i maps to 2i and a negative i to -2i-1.", "quantifier": "every i64 and every u64", "why_tests_cant": "2^64 values in each direction", "anchors": ["src/wire.rs: zigzag, unzigzag, encode_i64, decode_i64"]}
{"id": "C06", "title": "Descriptor bytes are a bijection", "statement": "Every byte parses to exactly one descriptor; converting back yields the same byte; every (type, tag) pair with tag 1..63 and every special type is represented by exactly one byte; the unreachable!() arms are never reached.", "quantifier": "every byte and every parsed descriptor with a legal tag", "why_tests_cant": "a test of 12 values does not show the absence of collisions or panics", "anchors": ["src/wire.rs: Descriptor::parse, From<ParsedDescriptor> for Descriptor, DescriptorType::from_u8, SpecialType::from_u8"]}
{"id": "C07", "title": "Element stream round trip", "statement": "Any sequence of elements written with the Stream::write_* methods (integers, blobs, structs, enums, end-of-struct, exceptions, padding, end-of-doc) is read back by next_element as the same sequence, with the same tags, integer values, discriminants and blob lengths, and with each field reporting the byte offset at which its descriptor was written.", "quantifier": "every finite sequence of writes with legal tags and any blob contents", "why_tests_cant": "sequences are unbounded and the stream is stateful", "anchors": ["src/stream.rs: Stream::write_*, Stream::next_element"]}
{"id": "C08", "title": "The reader accepts exactly the documented physical format and never reads ahead", "statement": "If next_element succeeds, the bytes it consumed are a legal encoding of the returned element according to the Physical Format section, pos() advanced by exactly that number of bytes, and the underlying reader stands exactly after them; conversely any legal encoding of an element at the current position is accepted and yields that element.", "quantifier": "every stream state between elements, every input byte sequence", "why_tests_cant": "infinite input space; 'never reads ahead' is a statement about all inputs", "anchors": ["src/stream.rs: next_element_impl, next_value, next_blob, StreamTracker", "src/lib.rs: Physical Format"]}
{"id": "C09", "title": "Struct depth counter is the nesting depth", "statement": "After reading any sequence of elements from a fresh stream, struct_depth() equals the nesting depth computed from the elements: fields at depth 0 raise it to 1, struct/enum fields raise it by one more, end-of-struct lowers it by one saturating at 0, end-of-doc resets it to 0; each field's depth is the depth of its container and at least 1.", "quantifier": "every finite element sequence", "why_tests_cant": "unbounded sequences, saturation at 0 and implicit top-level struct interact", "anchors": ["src/stream.rs: struct_depth, next_element_impl, next_value"]}
{"id": "C10", "title": "Padding is invisible", "statement": "Inserting any number of padding bytes before any element changes neither the fields next_field returns (other than their offsets) nor the result of deserialisation.", "quantifier": "every document, every padding placement and amount", "why_tests_cant": "placements are unbounded", "anchors": ["src/stream.rs: next_element_impl, next_field", "src/de.rs: des_struct_body"]}
{"id": "C11", "title": "The next field follows the blob, however it was consumed", "statement": "Whatever sequence of reads, partial reads and in-bounds seeks the caller performs on a blob of a complete input, the next call to next_field/next_element continues with the element directly after the blob.", "quantifier": "every blob, every sequence of blob operations", "why_tests_cant": "operation histories are unbounded", "anchors": ["src/stream.rs: Blob, skip_blob, commit, skip_by_seek, skip_by_discard"]}
{"id": "C12", "title": "Blob operations are confined to the blob", "statement": "Reads through a Blob return only bytes of that blob, in order; writes through it change only bytes inside the blob and never its size; seeks (with any offset other than i64::MIN, see C52) succeed exactly for targets between the start and end of the blob (rejected seeks move nothing), and inner_pos/remaining/start_pos/end_pos/stream_pos stay mutually consistent.", "quantifier": "every blob position and every sequence of read/write/seek operations", "why_tests_cant": "histories of operations with arbitrary offsets", "anchors": ["src/stream.rs: impl Read/Write/Seek/BufRead for Blob"]}
{"id": "C13", "title": "End of document is sticky", "statement": "Once next_element/next_field met an end-of-document element, eof() is true and every further call returns end-of-document/None without touching the input, position or reader, until clear_eof(); after clear_eof() reading resumes with the byte following it.", "quantifier": "every stream state at end of document, any number of further calls", "why_tests_cant": "any number of calls, any following bytes", "anchors": ["src/stream.rs: next_element_impl, eof, clear_eof"]}
{"id": "C14", "title": "Graceful EOF", "statement": "With graceful EOF enabled, end of input exactly where a descriptor is expected is reported as end-of-document with the eof flag set and pos() unchanged; with it disabled the same situation is an UnexpectedEof error; in the middle of an integer end of input is an UnexpectedEof error in both modes.", "quantifier": "every input and every cut position", "why_tests_cant": "all cut positions of all inputs", "anchors": ["src/stream.rs: set_graceful_eof, StreamTracker::read, track"]}
{"id": "C15", "title": "In-band exceptions", "statement": "next_field turns an exception element into an Exception error carrying the first min(256, length) bytes of the message, and the next call continues with the element after the whole message; next_element instead exposes it as a blob.", "quantifier": "every message length and content, every following element", "why_tests_cant": "message lengths around and beyond 256 and arbitrary continuations", "anchors": ["src/stream.rs: next_field, next_element_impl, Blob::read_or_trunc"]}
{"id": "C16", "title": "Skipping a field skips exactly its subtree", "statement": "Field::skip() on any well-formed field, however deeply nested, leaves the stream so that the next element read is the one after that field, without any recursion limit; skip_up(0) continues at the next top-level item; skip_up terminates on every input, from every state reached by reading (for forged depths see C53).", "quantifier": "every well-formed subtree of any depth and size and every continuation", "why_tests_cant": "unbounded nesting", "anchors": ["src/stream.rs: Field::skip, Stream::skip_up"]}
{"id": "C17", "title": "Stream positions never wrap", "statement": "No read or write operation of a stream moves pos() beyond u64::MAX or wraps it: an operation that would do so fails with an error, for reads before returning data past the limit and for blob headers before accepting the blob.", "quantifier": "every starting position and input", "why_tests_cant": "positions near 2^64 for every operation", "anchors": ["src/stream.rs: check_advance_pos, next_blob, write_desc_with_blob_alloc"]}
{"id": "C18", "title": "Integer conversions accept exactly their range", "statement": "Value::to_u8/i8/.../usize/isize/bool/null return Ok(v) exactly when the field is an integer whose (un-zigzagged, for signed types) value is within the target type's range and v is that value; otherwise IntegerOutOfRange or UnexpectedType. Writing v with the matching write_* method and converting back yields v.", "quantifier": "every field value and every target integer type", "why_tests_cant": "2^64 values times 12 target types", "anchors": ["src/stream.rs: to_int!, to_bool, to_null, write_int!, write_bool, write_null"]}
{"id": "C19", "title": "Truncated blobs are detected", "statement": "If a blob's declared length exceeds the rest of the input, skipping it, reading it fully, slicing it or reading an array from it reports an error rather than yielding short data.", "quantifier": "every blob with every possible truncation, for seekable and non-seekable inputs", "why_tests_cant": "all truncation points, several consumption modes", "anchors": ["src/stream.rs: skip_blob, skip_by_seek, skip_by_discard, Blob::read_fully, Blob::slice, Blob::ext_slice"]}
{"id": "C20", "title": "Read results do not depend on how the reader chunks or interrupts", "statement": "For a reader that returns arbitrarily short reads and ErrorKind::Interrupted at arbitrary points, every stream read and every deserialisation gives the same result and final position as with a reader that always fills the buffer.", "quantifier": "every input and every schedule of short reads and interruptions", "why_tests_cant": "schedules are unbounded", "anchors": ["src/stream.rs: StreamTracker", "src/wire.rs: read_byte", "src/de.rs: from_reader"]}
{"id": "C21", "title": "Pre-sized blobs must be filled exactly", "statement": "After write_blob_alloc/write_exception_alloc(len), writing through the blob never emits more than len bytes; if fewer than len bytes were written, every following write or commit fails with IncompleteBlob(missing) without writing anything until the blob is completed; after exactly len bytes the stream continues normally and the blob reads back as written.", "quantifier": "every length, every split of the content into writes, every following operation", "why_tests_cant": "histories of partial writes", "anchors": ["src/stream.rs: write_desc_with_blob_alloc, check_at_end_of_blob, impl Write for Blob"]}
{"id": "C22", "title": "Dynamic blobs are back-patched correctly", "statement": "After write_blob_dynamic, any sequence of writes and a commit, the output contains the descriptor, a fixed-width length equal to the number of bytes written, and exactly those bytes; earlier output is unchanged, the device is positioned at the end, and the blob reads back as written.", "quantifier": "every prefix, content and split of the content", "why_tests_cant": "unbounded contents and histories", "anchors": ["src/stream.rs: write_desc_with_blob_dynamic, finish_dynamic_blob"]}
{"id": "C23", "title": "Alignment padding", "statement": "pad_to_align(a) for a power of two a writes exactly the least number of padding bytes that makes pos() a multiple of a, and nothing else.", "quantifier": "every position and every power-of-two alignment", "why_tests_cant": "all positions and alignments", "anchors": ["src/stream.rs: pad_to_align"]}
{"id": "C24", "title": "Copying elements between streams", "statement": "Reading elements with next_element from one stream and passing each to write_element of another reproduces the same element sequence, normalising integers and lengths to canonical form; if the source is canonical the copy is byte-identical. Copying a partially consumed blob cannot silently corrupt the destination: the next operation on it fails.", "quantifier": "every element sequence", "why_tests_cant": "unbounded sequences of two coupled stateful streams", "anchors": ["src/stream.rs: write_element, write_field"]}
{"id": "C25", "title": "Written bytes do not depend on how the writer splits writes", "statement": "For a writer that accepts arbitrarily short writes and reports Interrupted at arbitrary points, the bytes output by every write operation and by serialisation are the same as for one that accepts everything.", "quantifier": "every value and every schedule of short writes and interruptions", "why_tests_cant": "schedules are unbounded", "anchors": ["src/stream.rs: StreamTracker::write", "src/ser.rs: to_writer"]}
{"id": "C26", "title": "Invalid tags are refused", "statement": "The write_* methods panic instead of writing anything when the tag is not in 1..63.", "quantifier": "every tag value, debug and release profile", "why_tests_cant": "build-profile dependent behaviour is invisible to a debug test run (and the existing tests are under the never-set cfg(debug))", "anchors": ["src/wire.rs: From<ParsedDescriptor> for Descriptor", "src/stream.rs: write_u64 and others, '## Panics'"]}
{"id": "C27", "title": "Serialisation round trip", "statement": "For every supported type (integers, bool, char, PhantomData, (), String, Vec, VecDeque/LinkedList, sets, maps, Option, arrays, tuples, Box/Rc/Arc, UnknownFields, user structs and enums defined with fourleaf_retrofit! including recursive ones, delegation and catch-alls) and every value of it within the configured limits, under a configuration that ignores unknown fields (the default; C55 is the strict case), from_slice_copy(to_vec(v)) = Ok(v).", "quantifier": "every type of the universe, every value, every configuration with ignore_unknown_fields whose limits admit the value", "why_tests_cant": "types nest arbitrarily (including user-defined recursive types); contexts body/field/element interact", "anchors": ["src/ser.rs", "src/de.rs", "src/sugar.rs", "src/unknown.rs"]}
{"id": "C28", "title": "Consecutive values on one stream", "statement": "Values written one after the other with to_stream/to_writer are read back one after the other with from_stream_copy/from_reader, each call leaving the stream/reader exactly at the start of the next value.", "quantifier": "every finite sequence of values of any types", "why_tests_cant": "unbounded sequences", "anchors": ["src/ser.rs: to_writer, to_stream", "src/de.rs: from_reader, from_stream_copy"]}
{"id": "C29", "title": "Field order does not matter", "statement": "Deserialising a struct gives the same result whatever the relative order of fields with different tags in the input.", "quantifier": "every struct/tuple type and every permutation of its fields that keeps the order of equal tags", "why_tests_cant": "factorially many permutations of unboundedly many documents", "anchors": ["src/de.rs: des_struct_body!", "src/sugar.rs: @_STRUCT_BODY_DESER"]}
{"id": "C30", "title": "Unknown fields are skipped or rejected as configured", "statement": "With ignore_unknown_fields, inserting any well-formed field (of any shape and depth) with an undeclared tag anywhere in a struct body does not change the result; without it, a body containing an undeclared tag fails with UnknownField carrying the tag and offset of the field (unless a (?) field captures it).", "quantifier": "every struct type, every document, every inserted field and position", "why_tests_cant": "unbounded shapes of unknown data", "anchors": ["src/de.rs: Context::unknown_field, des_struct_body!", "src/sugar.rs: @_STRUCT_BODY_DESER"]}
{"id": "C31", "title": "UnknownFields preserves everything", "statement": "Deserialising any well-formed document as UnknownFields and serialising it again yields the canonical encoding of the same document (byte-identical if it was canonical).", "quantifier": "every well-formed document within the limits", "why_tests_cant": "unbounded documents", "anchors": ["src/unknown.rs"]}
{"id": "C32", "title": "Edit compatibility", "statement": "If an old struct type with a (?) catch-all reads a document written by a newer type with additional fields, changes its own fields and writes the result, then the newer type reads back the changed fields together with all additional fields unchanged; likewise for unknown enum variants with a (?) variant.", "quantifier": "every pair of struct types old \u2286 new, every value, every edit", "why_tests_cant": "quantifies over schema pairs and values", "anchors": ["src/lib.rs: Edit-compatibility", "src/sugar.rs", "src/unknown.rs"]}
{"id": "C33", "title": "Field cardinality", "statement": "A single-valued field occurring twice is rejected with FieldOccursTooManyTimes, one occurring zero times with RequiredFieldMissing; Option accepts 0..1, an array [T;n] exactly n, collections any number of occurrences, and collections keep all occurrences in order.", "quantifier": "every type and every document", "why_tests_cant": "all combinations of type and occurrence count", "anchors": ["src/de.rs: des_unary!, des_small_array!, des_large_array!, Option, Vec, des_push_seq!", "src/sugar.rs: @_DESER_BOILERPLATE"]}
{"id": "C34", "title": "Recursion limit", "statement": "Deserialisation never nests contexts deeper than recursion_limit: if it succeeds, the nesting of the result is within the limit, and a document nested deeper is rejected with RecursionLimitExceeded rather than recursing, for every input and every (also recursive) type.", "quantifier": "every input byte sequence, every type, every limit", "why_tests_cant": "malicious inputs of any depth", "anchors": ["src/de.rs: Context::push", "src/unknown.rs"]}
{"id": "C35", "title": "max_blob bounds copied bytes", "statement": "If deserialisation succeeds, the total number of bytes held in copied Strings, byte vectors and unknown blobs of the result is at most max_blob; otherwise MaxBlobExceeded is reported before the excess bytes are buffered.", "quantifier": "every input, type and limit", "why_tests_cant": "resource limits must hold on every adversarial input", "anchors": ["src/de.rs: Context::blob, String, u8::deserialize_vec"]}
{"id": "C36", "title": "max_collect bounds collected elements", "statement": "If deserialisation succeeds, the total number of elements in all variable-size collections of the result (including UnknownFields) is at most max_collect.", "quantifier": "every input, type and limit", "why_tests_cant": "resource limits must hold on every adversarial input", "anchors": ["src/de.rs: Context::collect, Vec, des_push_seq!, des_map!", "src/unknown.rs"]}
{"id": "C37", "title": "Truncated documents never deserialise", "statement": "With default stream settings, if a byte string deserialises successfully consuming k bytes then every strictly shorter prefix of those k bytes fails to deserialise.", "quantifier": "every type, document and cut position", "why_tests_cant": "all cut positions of all documents of all types", "anchors": ["src/de.rs: from_slice_copy, from_slice_borrow, from_reader"]}
{"id": "C38", "title": "Trailing bytes are ignored", "statement": "If deserialisation of a byte string succeeds then appending any bytes gives the same value and the same number of consumed bytes.", "quantifier": "every type, input and suffix", "why_tests_cant": "infinite suffixes; requires no read-ahead anywhere", "anchors": ["src/de.rs: from_slice_copy, from_slice_borrow"]}
{"id": "C39", "title": "Zero-copy and copying agree", "statement": "from_slice_borrow and from_slice_copy give the same value for types supporting both whenever the copying limits are not hit, borrowed byte slices are exactly the blob's bytes inside the input, and max_blob does not apply to borrowed data.", "quantifier": "every input and every type supporting both styles", "why_tests_cant": "all inputs and types", "anchors": ["src/de.rs: Cow impls, &[u8], &str", "src/stream.rs: Blob::ext_slice", "src/io.rs"]}
{"id": "C40", "title": "Documented backward-compatible changes", "statement": "Data written with the old type can be read with the new type, with the expected value, when an integer type is widened, a plain field becomes Option or a collection of it, an optional/collection field is added, a field is deleted (unknown fields ignored, or kept by a (?) field), an array becomes a Vec, or an enum variant is added; in any combination and at any depth.  (Vec<u8> is a string of bytes, not a collection: the documented rules do not apply to it.)", "quantifier": "every value of every old type, for each documented change", "why_tests_cant": "quantifies over types and values", "anchors": ["src/lib.rs: Backwards-compatibility"]}
{"id": "C41", "title": "Enum variants", "statement": "An enum value is decoded by the variant whose discriminant was written; an undeclared discriminant yields UnknownVariant with that discriminant, or the (?) variant carrying the discriminant and all its fields, which re-serialises to the same document.", "quantifier": "every enum type, discriminant and body", "why_tests_cant": "2^64 discriminants and unbounded bodies", "anchors": ["src/sugar.rs: enum arm, @_STRUCT_BODY_DESER"]}
{"id": "C42", "title": "Deserialisation is total: no panic, no divergence", "statement": "For every byte string, every type and every configuration, deserialisation returns Ok or Err: it never panics (arithmetic overflow, slice bounds, unreachable!, assert!) and always terminates.", "quantifier": "every input, type and configuration", "why_tests_cant": "absence of panics and termination on all adversarial inputs", "anchors": ["src/de.rs", "src/unknown.rs", "src/sugar.rs", "src/stream.rs"]}
{"id": "C43", "title": "Deserialised values are valid", "statement": "Any value returned by deserialisation satisfies its type's validity rules: integers in range, chars are Unicode scalar values, strings are valid UTF-8, arrays have exactly their length, sets/maps have no duplicate keys (for maps the last occurrence wins), struct constructors' validations hold (Duration nanoseconds < 10^9).", "quantifier": "every input and type", "why_tests_cant": "all adversarial inputs", "anchors": ["src/de.rs", "src/retrofit.rs"]}
{"id": "C44", "title": "Serialised output has the documented shape", "statement": "to_vec(v) is the canonical encoding of the document the crate documentation describes for v (struct-body context at top level, flattened collections as fields, wrapped collections as elements, u8 slices as blobs) terminated by exactly one end-of-struct; serialize_element writes exactly one field with the requested tag.", "quantifier": "every type and value", "why_tests_cant": "all nestings of contexts", "anchors": ["src/ser.rs", "src/lib.rs: The fourleaf format, Built-in types"]}
{"id": "C45", "title": "Encoding is injective", "statement": "Two values of the same type with the same to_vec output are equal, and no value's encoding is a proper prefix of another's.", "quantifier": "every pair of values of every type", "why_tests_cant": "pairs of values", "anchors": ["src/ser.rs", "src/de.rs"]}
{"id": "C46", "title": "Only the logical document matters", "statement": "Two byte strings that encode the same document (differing only in denormalised integers and lengths and in padding) deserialise to the same value or fail with the same kind of error, for every type and configuration.", "quantifier": "every document, every pair of encodings, every type", "why_tests_cant": "unboundedly many encodings of each document", "anchors": ["src/lib.rs: Readers MUST accept integers in denormalised form", "src/de.rs"]}
{"id": "C47", "title": "End-of-document closes all open structs", "statement": "A document in which the trailing run of end-of-struct markers is replaced by one end-of-document marker deserialises to the same value.", "quantifier": "every type and document", "why_tests_cant": "any nesting depth at the cut", "anchors": ["src/stream.rs: EndOfDoc handling", "src/de.rs"]}
{"id": "C48", "title": "Context::collect accounting", "statement": "Context::collect(n) succeeds exactly if the running count plus n is at most max_collect and then increases the running count by n.", "quantifier": "every n, every running count, every limit", "why_tests_cant": "all histories of collect calls", "anchors": ["src/de.rs: Context::collect"]}
{"id": "C49", "title": "Blob slicing is total and consuming as documented", "statement": "Blob::slice/slice_mut return the unconsumed bytes of the blob or TruncatedBlob if the blob extends beyond the underlying slice, and never panic; Blob::ext_slice returns the unconsumed bytes and consumes them.", "quantifier": "every blob state reachable by reads and seeks", "why_tests_cant": "all histories of blob operations", "anchors": ["src/stream.rs: Blob::slice, slice_mut, ext_slice", "src/io.rs: TransparentCursor, AsExtBytes"]}
{"id": "C50", "title": "Repositioning", "statement": "reset_pos(p) finishes a pending blob first and then reports p, with subsequent field offsets counted from p; Stream::seek finishes a pending blob, moves the underlying stream to the requested place, reports that offset as pos() and resets the struct depth; reading after seeking back re-reads the same elements.", "quantifier": "every stream state and target", "why_tests_cant": "stateful; all targets", "anchors": ["src/stream.rs: seek, reset_pos, set_pos"]}
{"id": "C51", "title": "I/O failures surface as errors", "statement": "If the underlying reader or writer fails at an arbitrary point, the operation returns an error, or the same result as without the failure (when the failing call was not needed or could be worked around): never a different value.", "quantifier": "every input, every value, every failure point", "why_tests_cant": "every crash point", "anchors": ["src/stream.rs", "src/de.rs: from_reader", "src/ser.rs: to_writer"]}
{"id": "C52", "title": "Blob::seek never panics", "statement": "Seek on a Blob returns Ok or an InvalidInput error for every SeekFrom value and never panics.", "quantifier": "every blob position and every u64/i64 offset", "why_tests_cant": "the offset ranges over all 64-bit integers; the failing one is a single value", "anchors": ["src/stream.rs: impl Seek for Blob"]}
{"id": "C53", "title": "skip_up always returns", "statement": "Stream::skip_up(depth) returns for every stream state, including after set_struct_depth and at end of document.", "quantifier": "every stream state and depth", "why_tests_cant": "non-termination cannot be observed by a finite test and the states are unbounded", "anchors": ["src/stream.rs: Stream::skip_up", "src/stream.rs: Stream::set_struct_depth"]}
{"id": "C54", "title": "Deserialisation does not depend on how the reader delivers data", "statement": "Deserialising from a reader gives the same result and the same final stream however the reader splits or interrupts its reads, and a reader that fails at some point can only turn the result into an error, never into another value.", "quantifier": "every document, every type, every configuration, every schedule of short reads, interruptions and failures", "why_tests_cant": "schedules and failure points are unbounded", "anchors": ["src/de.rs: from_reader, Deserialize", "src/stream.rs: Stream::next_field, Blob"]}
{"id": "C55", "title": "Strict round trip", "statement": "With ignore_unknown_fields = false every value within the limits is still read back from its own encoding, for every supported type.", "quantifier": "every type of the universe, every value, every configuration whose limits admit the value", "why_tests_cant": "unbounded types, values and limits; tests use the default configuration", "anchors": ["src/ser.rs: impl Serialize for ()", "src/de.rs: impl Deserialize for ()", "src/de.rs: Config::ignore_unknown_fields"]}
{"id": "C56", "title": "The format is unambiguous", "statement": "A byte string has at most one prefix that is an encoding of a document, and that prefix encodes only one document, whatever integer encodings and padding are used.", "quantifier": "every pair of documents, every pair of encodings, every continuation", "why_tests_cant": "infinitely many encodings of infinitely many documents", "anchors": ["src/lib.rs: Physical Format", "src/stream.rs: Stream::next_element"]}
{"id": "C57", "title": "A document determines the value", "statement": "Deserialising a document succeeds exactly if the document has a meaning as a value of the type (each declared field has its cardinality and form, undeclared fields are allowed or captured) and the nesting, collected elements and copied bytes that the meaning calls for are within the configured limits; the value is that meaning, whatever the encoding, the trailing input, the reader's chunking and seekability; if only limits stand in the way the error names a limit that is exceeded.", "quantifier": "every document, every encoding of it, every type of the universe (also recursive), both styles, every configuration", "why_tests_cant": "Ranges over all documents, types, encodings and limits at once; a test fixes one of each.", "anchors": ["src/de.rs: from_stream, Deserialize, Context, Config", "src/sugar.rs: fourleaf_retrofit!", "src/unknown.rs: UnknownFields"]}
{"id": "C58", "title": "Standard-library types round trip and reject impossible values", "statement": "Every Ipv4Addr, Ipv6Addr, IpAddr, Duration, SocketAddrV4/V6, SocketAddr and Result<T, E> (for T and E whose values fit) is written as its documented shape (addresses as blobs in network byte order, IP versions as variants 4 and 6, Ok/Err as variants 1 and 2) and read back unchanged in both styles, IPv6 segments included; and whatever the input bytes, deserialising one of these types never yields a value that does not exist (such as a Duration with 10^9 or more nanoseconds), which is rejected with an error instead.", "quantifier": "all values of these types, all type parameters of Result, all configurations with the default limits or larger, all inputs and read schedules", "why_tests_cant": "2^128 addresses and 2^94 durations, and the rejection claim ranges over every byte string", "anchors": ["src/retrofit.rs: all fourleaf_retrofit! uses", "src/sugar.rs: fourleaf_retrofit!", "src/ser.rs: to_vec", "src/de.rs: from_slice_copy, from_slice_borrow"]}
{"id": "C59", "title": "Whatever is accepted is a document", "statement": "If deserialising a value of any type from a slice or from any reader succeeds, the input begins with a complete, well-formed fourleaf document (closed by its end-of-struct, or by one end-of-document marker in place of all ends still due), and the value returned is the one that document means, within the configured limits; nothing else (unfinished structures, truncated blobs or integers, garbage) is ever accepted. Exactly that document is consumed: pos() ends up right behind its last byte and everything after it is still unread. The only exceptions to well-formedness are exception elements inside skipped parts. Conversely every such document without exceptions is accepted, whatever follows it, so for exception-free inputs this is exactly the set of accepted inputs.", "quantifier": "all types, configurations, zero-copy or copying style, all input byte strings below 2^63 bytes and all read schedules", "why_tests_cant": "acceptance ranges over every byte string: a fuzzer can only sample malformed inputs", "anchors": ["src/de.rs: from_slice_copy, from_slice_borrow, from_reader, Deserialize", "src/stream.rs: next_field, skip, Blob", "src/sugar.rs: fourleaf_retrofit!"]}
{"id": "C60", "title": "An interrupted serialisation is never mistaken for a complete one", "statement": "Write several values one after the other to a writer that may accept only part of what it is given, be interrupted, or fail at any call. What has reached the writer is a prefix of the concatenated encodings: all of it if every call reported success, a proper prefix if one reported an error. Reading the values back from what is there, over any reader, returns exactly the values whose encodings are complete and then an error; a reading that gets to the end without an error proves that the writing had succeeded and that nothing is lost or altered; no value is made up from an incomplete encoding and reading never panics.", "quantifier": "all environments of well-formed type definitions, all lists of typed storable values, every write schedule and crash point, every read schedule, both build modes", "why_tests_cant": "the crash point ranges over every byte of every encoding and the schedules are unbounded", "anchors": ["src/ser.rs: to_writer, Serialize", "src/de.rs: from_stream_copy, from_stream_borrow, from_reader", "src/stream.rs: write_struct, write_end_struct, write_end_doc, write_blob_data"]}
{"id": "C61", "title": "Reading never alters the input and only moves forward", "statement": "Any history of reading calls on a stream (next_field, next_element, skip, blob reads and seeks, position changes, commit), including histories with errors and half-read blobs, leaves the contents of the underlying device as they were; unless the caller seeks, the device's cursor never moves backward. The same holds of deserialising a value of any type, whatever the result.", "quantifier": "all histories of reading calls, all device contents, all schedules, all types", "why_tests_cant": "histories are unbounded and include every interleaving of errors with pending commits", "anchors": ["src/stream.rs: Stream, Blob, commit", "src/de.rs: from_stream_copy, from_stream_borrow"]}
{"id": "C62", "title": "The order of sets and maps does not matter", "statement": "A HashSet or HashMap (at any depth inside the value) may hand out its elements in any order: whatever the order, what is serialised deserialises to the same value. A document deserialises as a set exactly when it deserialises as a sequence of the same element type, and gives the set of the sequence's elements, repetitions dropped; it deserialises as a map exactly when it does as a sequence of pairs, and each key has its last value.", "quantifier": "all type definitions, values, orders of iteration at every depth, documents, configurations", "why_tests_cant": "iteration orders are unbounded in number and depend on hasher state", "anchors": ["src/ser.rs: ser_iter!, ser_map!", "src/de.rs: des_push_seq!, des_map!"]}
{"id": "C63", "title": "Debug and release builds agree", "statement": "A history of calls on a stream (reading, writing, skipping, seeking, padding, operations on blobs, copying elements between two streams), a serialisation or a deserialisation that does not panic in a build with overflow checks and debug assertions returns the same results, writes the same bytes and leaves the stream in the same state in a build without them; since deserialisation never panics (C42), every input is deserialised alike by both builds.", "quantifier": "every history of calls, every starting state of the stream and behaviour of the device, every type, configuration and input", "why_tests_cant": "Tests run in one profile; arithmetic that silently wraps in release shows only for particular positions and lengths.", "anchors": ["src/stream.rs: Blob::remaining, Blob::seek, pad_to_align, finish_dynamic_blob, check_at_end_of_blob, next_value", "src/de.rs: Context::collect, Context::blob", "src/wire.rs: From<ParsedDescriptor> for Descriptor"]}
{"id": "C64", "title": "Strings are UTF-8 text, characters are scalar values", "statement": "A blob deserialises as String, &str or Cow<str> exactly if it is the UTF-8 encoding of a sequence of Unicode scalar values (no surrogates, nothing above U+10FFFF, no overlong forms, no cut sequences), and then gives exactly these bytes; otherwise the error is InvalidValue. An integer below 2^32 deserialises as char exactly if it is a Unicode scalar value. No value returned by deserialisation, from whatever input, holds an invalid string or character at any depth.", "quantifier": "every byte string, every integer, every input, type, configuration and style", "why_tests_cant": "Tests sample a few malformed sequences; an invalid str or char is undefined behaviour, so every input matters.", "anchors": ["src/de.rs: Deserialize for String, &str, Cow<str>, char", "src/stream.rs: Blob::read_fully, Blob::ext_slice"]}
{"id": "C65", "title": "Deserialisation errors name the fault and where it is", "statement": "When deserialising a well-formed document fails, the error's context path, from the outside in, is the list of the names of the fields leading to a place in the document that really is faulty in the way the error's kind says: a missing field where there is none, one too many where there is a second one, the wrong kind of value with the kind that was found, a number out of range, an unknown variant with its discriminant, an undeclared field with its tag, a value that was refused. A recursion-limit error is reported exactly where the permitted depth is used up. Conversely a document with such a fault anywhere cannot be deserialised.", "quantifier": "all types (including user structs and enums, delegating and catch-all fields, recursive types), both styles, all documents and encodings of them, all configurations and read schedules", "why_tests_cant": "the path is built by pushes and pops spread over every deserialiser; each type, nesting, fault and order of fields has its own path", "anchors": ["src/de.rs: Context, Error, ErrorKind, Context::push, Deserialize::deserialize_body/_field/_element/finish", "src/de.rs: impl Deserialize for ...", "src/sugar.rs: fourleaf_retrofit!"]}
{"id": "C66", "title": "The positions in error locations are ordered and point at the field", "statement": "The positions in the location of a deserialisation error are ordered: the outermost is not before the position where deserialising began, no inner one is before an outer one, and the innermost is not after the position at which the stream was left; there are at most as many as the recursion limit allows. The position of an unknown-field error lies behind them, and at that offset of the input stands a byte carrying the reported tag.", "quantifier": "all types, styles, configurations, input bytes (well formed or not), read schedules and stream states not in the middle of writing a blob", "why_tests_cant": "positions are taken from the field or from the stream at dozens of places in every deserialiser, for inputs of any shape, valid or not", "anchors": ["src/de.rs: Context::push, Context::unknown_field, Error", "src/de.rs: des_struct_body!", "src/sugar.rs: @_STRUCT_BODY_DESER, @_STRUCT_ELEMENT_DESER", "src/stream.rs: Stream::next_field, Stream::pos, Field::pos"]}
{"id": "C67", "title": "Reading, writing and reading again changes nothing", "statement": "Whatever bytes a value was successfully deserialised from, the value can be serialised, and deserialising the output under the same configuration (limits included) yields the same value. The output is a normal form: two inputs are written back as the same bytes exactly if they hold the same value.", "quantifier": "all types, values, inputs (padded, denormal, reordered, with unknown fields or trailing bytes), read schedules, configurations (unknown fields ignored, or a type without unit tuples), both styles", "why_tests_cant": "the accepted inputs of a value are infinitely many; equality of what is read back needs the validity of every value that can be read", "anchors": ["src/de.rs: from_stream_copy, from_stream_borrow, impl Deserialize for ...", "src/ser.rs: to_vec, impl Serialize for ...", "src/sugar.rs: fourleaf_retrofit!"]}
{"id": "C68", "title": "A laxer configuration changes no result", "statement": "If an input deserialises under some configuration, then raising the recursion limit, max_blob or max_collect, or no longer refusing unknown fields, yields the same value and leaves the stream in the same state. Two configurations never yield different values for the same input.", "quantifier": "all types, styles, inputs (well formed or not), stream states, schedules, pairs of configurations", "why_tests_cant": "every deserialiser consults the limits at many places; the claim relates two runs on every input", "anchors": ["src/de.rs: Config, Context::push, Context::collect, Context::blob, Context::unknown_field", "src/stream.rs: Blob::read_fully"]}
{"id": "C69", "title": "Graceful end of input closes the document and changes nothing else", "statement": "With set_graceful_eof(true), deserialising an input that ends at an element boundary where only ends of structs are missing gives what deserialising the complete document gives (same value or same error). As long as the end of the input is not run into, graceful handling changes no outcome and no effect of any call, and no successful deserialisation.", "quantifier": "all documents, places to cut them, padding, types, configurations; all histories of calls, stream states and device behaviours", "why_tests_cant": "the number of open structs, the position in the type at which the input ends, and the histories before it are unbounded", "anchors": ["src/stream.rs: Stream::set_graceful_eof, StreamTracker::read, next_element_impl, skip_up", "src/de.rs: from_stream_config"]}
{"id": "C70", "title": "Nothing depends on the absolute stream position", "statement": "Telling a stream with set_pos (or reset_pos) that it stands k bytes further on changes nothing but the offsets it reports: every history of reading and writing calls that names no absolute offset and does not exhaust the 64-bit offsets gives the same results with each reported offset larger by k, and leaves the device in the same state; every deserialisation gives the same value from the same bytes.", "quantifier": "all k, all histories of calls (continuing after errors), all stream states without a pending commit, all device contents and schedules, all types and configurations", "why_tests_cant": "every limit and every blob boundary is computed from absolute positions; the claim relates two runs over every history and displacement", "anchors": ["src/stream.rs: Stream::set_pos, Stream::reset_pos, Stream::pos, Blob, Field::pos", "src/de.rs: from_stream_config"]}
{"id": "C71", "title": "No amplification", "statement": "However high max_collect and max_blob are configured, a successfully deserialised value never holds more collected elements plus copied blob bytes than bytes of input were consumed for it: the memory a value takes is proportional to the input actually sent, not to lengths or counts claimed in it. Every successful deserialisation consumes at least one byte. Consequently, when the input has no exception markers, limits as large as the input length accept whatever higher limits would.", "quantifier": "all types, configurations, zero-copy or copying style, all input byte strings below 2^63 bytes and all read schedules", "why_tests_cant": "an attacker chooses the input; the bound must hold for every byte string", "anchors": ["src/de.rs: Context::collect, Context::blob, Deserialize", "src/stream.rs: Blob::read_fully"]}
{"id": "C72", "title": "Graceful end of input stands for an end-of-document marker", "statement": "With set_graceful_eof(true), an input is accepted, and means, exactly what it would without it if an end-of-document byte (0x40) were appended: the structs left open are closed and nothing else changes, so an input that ends inside an element is refused as it would be otherwise.", "quantifier": "all types, configurations and styles, all input byte strings, all read schedules without failures, all values", "why_tests_cant": "every prefix of every document is a different end-of-input point", "anchors": ["src/stream.rs: Stream::set_graceful_eof, Stream::next_element, Stream::track, StreamTracker::read", "src/de.rs: Deserialize::deserialize_top_level, from_stream_copy, from_stream_borrow"]}
{"id": "C73", "title": "A stricter configuration only refuses, and says why", "statement": "Lowering max_collect, max_blob or recursion_limit, or refusing unknown fields, leaves the result of an otherwise successful deserialisation exactly as it is (value, and the stream it leaves), or turns it into an error which names a setting that was tightened (recursion limit exceeded, maximum collection size exceeded, maximum blob size exceeded, unknown field): never another value, another kind of error, or a panic.", "quantifier": "all types, all pairs of comparable configurations, both styles, graceful or not, all input byte strings, all read schedules", "why_tests_cant": "pairs of runs over all inputs and all configurations", "anchors": ["src/de.rs: Config, Context::push, Context::collect, Context::blob, Context::unknown_field", "src/stream.rs: Blob::read_fully"]}
{"id": "C74", "title": "Printed errors identify the place", "statement": "Two deserialisation errors whose printed messages (Display) are equal carry the same location: the same field names at the same byte positions. Text in a message that comes from elsewhere, in particular an exception message chosen by whoever wrote the input, cannot make an error appear to be at another place. If both errors are described in the crate's own words they are the same error.", "quantifier": "all pairs of failing deserialisations: types (with identifiers as names and tuples of at most 16 components), configurations, inputs, stream states, schedules, foreign texts", "why_tests_cant": "injectivity over all errors and all foreign texts", "anchors": ["src/de.rs: Display for Context, Error, Context::push_tag", "src/stream.rs: Error"]}
{"id": "C75", "title": "Reading reports reading errors, with sensible details", "statement": "Whatever the input and whatever the device does, the error a deserialisation ends with is about reading: never one of the stream errors about writing, an interruption or LargeBlob (an over-large blob is reported as the configured limit). An exception error carries at most 256 bytes of the message, a truncated blob lacks at least one byte, an unexpected type differs from the expected one, an unknown field is reported only if unknown fields are refused and with a tag between 1 and 63, and 'too few occurrences' never asks for none. Likewise for any history of reading calls on a stream, where besides these only read_fully's own limit, an interruption of a single read and an invalid seek are reported.", "quantifier": "all types, configurations and styles, sequences of values, graceful or not, all input byte strings, all device schedules including failures; all histories of reading calls", "why_tests_cant": "it excludes outcomes over all inputs, schedules and histories", "anchors": ["src/stream.rs: Error, Stream::next_field, Stream::commit, Stream::skip_blob, Blob::read_fully, Blob::slice, Blob::ext_slice", "src/de.rs: Error, Context, Deserialize::from_stream_copy"]}
{"id": "C76", "title": "A failed commit can be repeated", "statement": "If commit() fails (the device failed, a blob was truncated or not filled) and is called again, with nothing in between, until it succeeds, the stream is as if nothing had gone wrong: positioned behind the blob, the contents those a commit without the failure would have left, nothing pending.", "quantifier": "all stream states, all device schedules including failures, any number of attempts", "why_tests_cant": "ranges over all states, all places of failure and numbers of attempts", "anchors": ["src/stream.rs: Stream::commit, Stream::skip_blob, Stream::check_at_end_of_blob, Stream::finish_dynamic_blob"]}
{"id": "C77", "title": "Every call reports only errors that concern it", "statement": "Whatever was called on a Stream before (reading, writing, seeking mixed; reset_pos excepted) and whatever the device does, a call that fails reports one of the errors documented for what it does: TruncatedBlob/IncompleteBlob with a positive count for an unfinished blob, OverlongBlob only for a length that cannot be represented, LargeBlob only for a blob over the limit given, Exception only from next_field, UnexpectedEof only from reading, WriteZero only from writing past the end of a blob. An error about an unfinished blob is due to a blob begun by an earlier call: TruncatedBlob to one being read, IncompleteBlob to one allocated with a length, the dynamic-blob errors to one written without. PositionBeforeStartOfDynamicBlob is never reported unless the device has failed. Serialising a value fails only because the device does (or has no room below 2^64) or because a blob is overlong.", "quantifier": "all call histories without reset_pos, all inputs, all device schedules including failures; all types and values for serialising", "why_tests_cant": "ranges over all histories of calls and all device behaviours", "anchors": ["src/stream.rs: Error, Stream::commit, Stream::write_desc, Stream::write_desc_with_blob_alloc, Stream::finish_dynamic_blob, Stream::check_at_end_of_blob, Blob", "src/ser.rs: to_writer"]}
{"id": "C78", "title": "A writer that gives up with an exception is understood", "statement": "A writer that, part way through a document, writes an exception element instead of the rest is understood by every reader of that type: deserialisation fails with Exception carrying the first 256 bytes of the message, wherever between two elements the document was abandoned, however deep, whatever follows the exception, however the reader delivers the data, and whether or not unknown fields are ignored. If nothing follows at all, the error is UnexpectedEof. (The document begun must not contain unknown fields: inside a skipped struct an exception goes unnoticed.)", "quantifier": "all types, values, configurations that would have accepted the whole document, all places between elements, all messages, all trailing bytes, all non-failing device schedules", "why_tests_cant": "ranges over all types, documents, places of abandonment and following bytes", "anchors": ["src/stream.rs: Stream::next_field, Stream::write_exception_data", "src/de.rs: Deserialize, from_reader, from_stream, from_slice_copy"]}
{"id": "C79", "title": "Elements can be read one at a time", "statement": "Looping over next_field and calling deserialize_element on each field with one Context::top gives, for any document, the values the fields stand for as elements, in order; it succeeds exactly if each has a meaning and all together are within the limits, and fails with the right limit error otherwise. It agrees with collecting them into a Vec or other sequence (which needs room for one context and the number of elements more). The first n elements are delivered as soon as their bytes are there, whatever follows: a truncated or corrupt rest does not lose them. What was written as a collection is read back. On arbitrary bytes and devices the loop terminates without panic, and what it returns has the type and is within the limits taken together.", "quantifier": "all types, documents and their encodings, configurations, numbers of elements, trailing bytes, device schedules; for the last part all byte strings", "why_tests_cant": "ranges over all types, documents, limits, trailing bytes and schedules", "anchors": ["src/stream.rs: Stream::next_field", "src/de.rs: Context::top, Deserialize::deserialize_element, Vec<T>, from_stream_copy, from_stream_borrow"]}
{"id": "C80", "title": "Documents can be read and written field by field", "statement": "A program without a type for the whole document, which loops over next_field, reads the fields of the tags it knows with deserialize_element, each tag as a type of its own, and skips all others, gets for any document exactly the values those fields stand for, in order with their tags; it succeeds exactly if each has a meaning and all together are within the limits, and fails with the right limit error otherwise. The other fields do not matter, whatever they hold. On arbitrary bytes and devices the loop terminates without panic, and what it returns has the types asked for and is within the limits taken together. Calling serialize_element for values of any types under any tags from 1 to 63, then write_end_struct and commit, succeeds and makes a document from which such a loop reads back those asked for; for one type and tag 1 it is what serialising the collection writes; for the fields of a struct (collections element by element, unknown fields last) it is what serialising the struct writes, and deserialising with the struct's type gives the struct back.", "quantifier": "all assignments of types to tags, documents and encodings, values, configurations, trailing bytes, writer and reader schedules; for arbitrary input all byte strings", "why_tests_cant": "ranges over all assignments of types to tags, all documents and limits and all schedules", "anchors": ["src/stream.rs: Stream::next_field, Field::skip, Stream::write_end_struct, Stream::commit", "src/de.rs: Context::top, Deserialize::deserialize_element", "src/ser.rs: Serialize::serialize_element"]}
{"id": "C81", "title": "Reading and writing back does not make data grow", "statement": "If a value is read from a stream that holds a document and then written with to_vec, the writing succeeds and the output is no longer than the document was, in whichever encoding (dense, padded, with a duplicated or reordered field) it was written before. For input that need not be a whole document (one that ends by an end-of-document marker with structs still open, or holds exceptions) the output is shorter than twice the number of bytes consumed, and reading it gives the value again. An old program that passes on data of a newer one, keeping what it does not know in a (?) field, does not make it longer. This holds for all types in which neither () is a delegated body nor [u8; 0] occurs, since those may be absent in the input but are written as fields.", "quantifier": "all type definitions, types, values, documents and their encodings, byte strings, reader schedules, configurations", "why_tests_cant": "an inequality between all inputs and the outputs for them, over all types and all encodings of every document; the factor of two is reached only on special inputs", "anchors": ["src/de.rs: Deserialize impls, StandardDeserialize", "src/ser.rs: Serialize impls", "src/stream.rs: Stream::read_element, Stream::write_header", "src/unknown.rs: UnknownFields"]}
{"id": "C82", "title": "Types that stand for one another are interchangeable", "statement": "Replacing a type by one that is documented to be represented in the same way (Box, Rc, Arc and what they point to; Cow<str> and String when copying, Cow<str> and &str when borrowing, likewise for bytes; Copied<T> and T when copying; Vec<T> and VecDeque<T> or LinkedList<T> unless T is spelt u8), at any depth and anywhere in the definitions used, changes nothing: every stream gives the same value or the same error and is left in the same state, and every value is written by the same calls and hence as the same bytes. Renaming fields as well changes only the names in the locations of errors, never a value, the kind or position of an error, or a byte written.", "quantifier": "all pairs of families of type definitions related in this way, all types, values, configurations, streams in any state (all inputs, devices and schedules)", "why_tests_cant": "equality of two programs on all inputs, for all type definitions", "anchors": ["src/de.rs: Deserialize for Box, Rc, Arc, Cow, Vec, VecDeque, LinkedList", "src/ser.rs: Serialize impls, SerializeAs", "src/adapt.rs: Copied", "src/sugar.rs: fourleaf_retrofit!"]}
{"id": "C83", "title": "Deserialising asks for no more elements than there are bytes", "statement": "However deserialising ends, with a value or any error, the number of elements it asks of the stream (calls of Stream::next_field, each doing one turn of some field loop) is at most the number of bytes of the input passed over, plus the recursion limit, plus one; bytes that are only claimed to be there and are skipped by a seek beyond the end of the input do not count. So no input, however it nests or repeats, makes the work of the loops grow faster than its length, and no stream can keep a loop going without supplying bytes.", "quantifier": "all type definitions, types, configurations, streams over any device and schedule, graceful or not, with nothing or a blob left to skip, at a position in range", "why_tests_cant": "a bound on the work for all inputs and types; it is reached only on inputs cut off at the deepest nesting, and one loop of one impl that goes on without input would break it", "anchors": ["src/de.rs: Deserialize impls, Context", "src/sugar.rs: fourleaf_retrofit!", "src/unknown.rs: UnknownFields", "src/stream.rs: Stream::next_field"]}
