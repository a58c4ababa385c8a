{
 "claims": [
  {
   "property": "C01",
   "status": "proved",
   "theorems": [
    "C01_decode_encode"
   ],
   "note": "Prop_Wire.v"
  },
  {
   "property": "C02",
   "status": "proved",
   "theorems": [
    "C02_accepts_iff",
    "C02_outcome"
   ],
   "note": "Prop_Wire.v"
  },
  {
   "property": "C03",
   "status": "proved",
   "theorems": [
    "C03_canonical_minimal",
    "C03_injective_prefix_free"
   ],
   "note": "Prop_Wire.v"
  },
  {
   "property": "C04",
   "status": "proved",
   "theorems": [
    "C04_fixed_width"
   ],
   "note": "Prop_Wire.v"
  },
  {
   "property": "C05",
   "status": "proved",
   "theorems": [
    "C05_zigzag_bijection",
    "C05_zigzag_magnitude",
    "C05_signed_round_trip",
    "C05_signed_accepts_iff"
   ],
   "note": "Prop_Wire.v"
  },
  {
   "property": "C06",
   "status": "proved",
   "theorems": [
    "C06_every_byte_parses",
    "C06_every_descriptor_has_one_byte"
   ],
   "note": "Prop_Wire.v"
  },
  {
   "property": "C07",
   "status": "proved",
   "theorems": [
    "C07_write_read_roundtrip"
   ],
   "note": "Prop_Stream.v"
  },
  {
   "property": "C08",
   "status": "proved",
   "theorems": [
    "C08_accepts_every_legal_encoding",
    "C08_consumes_exactly_one_legal_encoding",
    "C08_never_panics"
   ],
   "note": "Prop_Stream.v"
  },
  {
   "property": "C09",
   "status": "proved",
   "theorems": [
    "C09_depth_is_nesting"
   ],
   "note": "Prop_Stream.v"
  },
  {
   "property": "C10",
   "status": "proved",
   "theorems": [
    "C10_padding_invisible"
   ],
   "note": "Prop_Field.v"
  },
  {
   "property": "C11",
   "status": "proved",
   "theorems": [
    "C11_next_element_follows_blob",
    "C11_blob_use_is_invisible_afterwards"
   ],
   "note": "Prop_Blob.v"
  },
  {
   "property": "C12",
   "status": "proved",
   "theorems": [
    "C12_blob_operations_confined"
   ],
   "note": "Prop_Blob.v"
  },
  {
   "property": "C13",
   "status": "proved",
   "theorems": [
    "C13_end_of_document_is_sticky",
    "C13_end_of_document_sets_eof_and_resumes_after_it"
   ],
   "note": "Prop_Stream.v"
  },
  {
   "property": "C14",
   "status": "proved",
   "theorems": [
    "C14_end_of_input_at_descriptor",
    "C14_end_of_input_in_integer"
   ],
   "note": "Prop_Stream.v"
  },
  {
   "property": "C15",
   "status": "proved",
   "theorems": [
    "C15_exception_is_an_error",
    "C15_next_element_exposes_exception"
   ],
   "note": "Prop_Field.v"
  },
  {
   "property": "C16",
   "status": "proved",
   "theorems": [
    "C16_skip_struct_field",
    "C16_skip_leaf_field",
    "C16_skip_up",
    "C16_skip_up_terminates"
   ],
   "note": "Prop_Skip.v"
  },
  {
   "property": "C17",
   "status": "proved",
   "theorems": [
    "C17_positions_never_wrap",
    "C17_position_follows_device",
    "C17_open_blob_fits"
   ],
   "note": "Prop_Hist.v"
  },
  {
   "property": "C18",
   "status": "proved",
   "theorems": [
    "C18_unsigned_conversion",
    "C18_signed_conversion",
    "C18_bool_conversion",
    "C18_null_conversion",
    "C18_errors_are_range_or_type",
    "C18_write_convert_back"
   ],
   "note": "Prop_Write.v"
  },
  {
   "property": "C19",
   "status": "partial",
   "theorems": [
    "C19_skipping_by_reading_reports_truncation_partial",
    "C19_skipping_by_seeking_reports_an_error_partial",
    "C19_read_exact_reports_truncation_partial",
    "C19_slicing_reports_truncation_partial",
    "C19_read_fully_refuted",
    "C19_skipping_by_seeking_refuted"
   ],
   "note": "Prop_Blob.v. The claim holds of read_exact, of skipping by reading and of slicing (the _partial theorems); it is false of read_fully/read_or_trunc and of skipping by seeking, which accept a truncated blob silently: both refuted on concrete streams. A defect of the code."
  },
  {
   "property": "C20",
   "status": "proved",
   "theorems": [
    "C20_copying_does_not_depend_on_chunking",
    "C20_reads_do_not_depend_on_chunking"
   ],
   "note": "Prop_Copy.v, Prop_Hist.v"
  },
  {
   "property": "C21",
   "status": "proved",
   "theorems": [
    "C21_presized_blob"
   ],
   "note": "Prop_Write.v"
  },
  {
   "property": "C22",
   "status": "proved",
   "theorems": [
    "C22_dynamic_blob"
   ],
   "note": "Prop_Write.v"
  },
  {
   "property": "C23",
   "status": "proved",
   "theorems": [
    "C23_pad_to_align"
   ],
   "note": "Prop_Write.v"
  },
  {
   "property": "C24",
   "status": "proved",
   "theorems": [
    "C24_copying_elements",
    "C24_partially_consumed_blob"
   ],
   "note": "Prop_Write.v"
  },
  {
   "property": "C25",
   "status": "proved",
   "theorems": [
    "C25_writes_do_not_depend_on_chunking"
   ],
   "note": "Prop_Hist.v"
  },
  {
   "property": "C26",
   "status": "partial",
   "theorems": [
    "C26_invalid_tags_partial",
    "C26_release_build_refuted"
   ],
   "note": "Prop_Write.v. Proved for debug builds; in a release build Descriptor::from does not check the tag (debug_assert only), refuted on a concrete stream."
  },
  {
   "property": "C27",
   "status": "proved",
   "theorems": [
    "C27_roundtrip",
    "C27_roundtrip_borrow"
   ],
   "note": "Prop_SerDe.v"
  },
  {
   "property": "C28",
   "status": "proved",
   "theorems": [
    "C28_leaves_the_rest",
    "C28_one_stream",
    "C28_one_reader"
   ],
   "note": "Prop_SerDe.v"
  },
  {
   "property": "C29",
   "status": "proved",
   "theorems": [
    "C29_any_depth",
    "C29_struct"
   ],
   "note": "Prop_Meaning.v"
  },
  {
   "property": "C30",
   "status": "proved",
   "theorems": [
    "C30_ignored",
    "C30_rejected",
    "C30_unknown_field"
   ],
   "note": "Prop_Meaning.v"
  },
  {
   "property": "C31",
   "status": "proved",
   "theorems": [
    "C31_unknown_fields"
   ],
   "note": "Prop_Keep.v"
  },
  {
   "property": "C32",
   "status": "proved",
   "theorems": [
    "C32_edit_struct",
    "C32_same_types",
    "C32_unknown_variant",
    "C32_passed_through"
   ],
   "note": "Prop_Edit.v. Structs, unknown enum variants, and (C32_passed_through) whole documents at any depth."
  },
  {
   "property": "C33",
   "status": "partial",
   "theorems": [
    "C33_at_most",
    "C33_at_least",
    "C33_accepted",
    "C33_any_number",
    "C33_struct_twice",
    "C33_too_many_times_refuted"
   ],
   "note": "Prop_Card.v. Proved for every declared field at the top of every type, except that a second occurrence of a fourleaf_retrofit! struct or enum is rejected with FieldOccursTooFewTimes (C33_struct_twice), not FieldOccursTooManyTimes as the English says (C33_too_many_times_refuted): a defect of the code."
  },
  {
   "property": "C34",
   "status": "proved",
   "theorems": [
    "C34_nesting",
    "C34_threshold",
    "C34_too_deep"
   ],
   "note": "Prop_De.v, Prop_Meaning.v"
  },
  {
   "property": "C35",
   "status": "proved",
   "theorems": [
    "C35_copied",
    "C35_threshold",
    "C35_too_many_bytes"
   ],
   "note": "Prop_De.v, Prop_Meaning.v"
  },
  {
   "property": "C36",
   "status": "proved",
   "theorems": [
    "C36_collected",
    "C36_threshold",
    "C36_too_many"
   ],
   "note": "Prop_De.v, Prop_Meaning.v"
  },
  {
   "property": "C37",
   "status": "proved",
   "theorems": [
    "C37_truncated",
    "C37_truncated_slice"
   ],
   "note": "Prop_De.v"
  },
  {
   "property": "C38",
   "status": "proved",
   "theorems": [
    "C38_trailing"
   ],
   "note": "Prop_De.v"
  },
  {
   "property": "C39",
   "status": "proved",
   "theorems": [
    "C39_copied_also_borrowed",
    "C39_borrowed_also_copied",
    "C39_max_blob_is_for_copies",
    "C39_borrowed_is_input"
   ],
   "note": "Prop_Borrow.v"
  },
  {
   "property": "C40",
   "status": "proved",
   "theorems": [
    "C40_old_data_is_read",
    "C40_one_reading",
    "C40_unchanged",
    "C40_compatible_types",
    "C40_struct_changes",
    "C40_deleted_fields_kept",
    "C40_variants_added",
    "C40_u8_to_vec_refuted",
    "C40_vec_u8_widened_refuted",
    "C40_vec_u8_added_refuted"
   ],
   "note": "Prop_Compat.v. Proved as stated; the documented rules without the Vec<u8> exception are refuted (C40_*_refuted)."
  },
  {
   "property": "C41",
   "status": "proved",
   "theorems": [
    "C41_declared",
    "C41_undeclared",
    "C41_caught",
    "C41_caught_kept"
   ],
   "note": "Prop_Keep.v"
  },
  {
   "property": "C42",
   "status": "proved",
   "theorems": [
    "C42_from_slice_copy",
    "C42_from_slice_borrow",
    "C42_from_reader",
    "C42_read_values"
   ],
   "note": "Prop_De.v"
  },
  {
   "property": "C43",
   "status": "proved",
   "theorems": [
    "C43_valid"
   ],
   "note": "Prop_De.v"
  },
  {
   "property": "C44",
   "status": "proved",
   "theorems": [
    "C44_to_vec_shape",
    "C44_serialize_element_shape",
    "C44_serialize_field_shape"
   ],
   "note": "Prop_SerDe.v"
  },
  {
   "property": "C45",
   "status": "proved",
   "theorems": [
    "C45_injective_prefix_free"
   ],
   "note": "Prop_SerDe.v"
  },
  {
   "property": "C46",
   "status": "proved",
   "theorems": [
    "C46_only_the_document_matters"
   ],
   "note": "Prop_Doc.v"
  },
  {
   "property": "C47",
   "status": "proved",
   "theorems": [
    "C47_end_of_document"
   ],
   "note": "Prop_Doc.v"
  },
  {
   "property": "C48",
   "status": "partial",
   "theorems": [
    "C48_collect_partial",
    "C48_collect_refuted",
    "C48_collect_ones",
    "C48_collect_zero",
    "C48_blob"
   ],
   "note": "Prop_Ctx.v. The blob quota part holds as stated. Context::collect(n) adds 1 rather than n, so the counting part is refuted and the true behaviour is proved instead (C48_collect_partial, _ones, _zero). A defect of the code."
  },
  {
   "property": "C49",
   "status": "partial",
   "theorems": [
    "C49_slice_partial",
    "C49_ext_slice_consumes_refuted",
    "C49_slice_never_panics_refuted"
   ],
   "note": "Prop_Blob.v. slice returns exactly the rest of the blob and consumes it while the cursor is inside the input; ext_slice does not consume (refuted) and slicing with the cursor past the end panics (refuted). Defects of the code."
  },
  {
   "property": "C50",
   "status": "proved",
   "theorems": [
    "C50_reset_pos",
    "C50_seek",
    "C50_reading_again"
   ],
   "note": "Prop_Write.v"
  },
  {
   "property": "C51",
   "status": "proved",
   "theorems": [
    "C51_failures_surface"
   ],
   "note": "Prop_Hist.v"
  },
  {
   "property": "C52",
   "status": "partial",
   "theorems": [
    "C52_blob_seek_total_partial",
    "C52_blob_seek_total_refuted"
   ],
   "note": "Prop_Blob.v. Total for every argument but Current(i64::MIN), which panics in debug builds (refuted). A defect of the code."
  },
  {
   "property": "C53",
   "status": "partial",
   "theorems": [
    "C53_skip_up_always_returns_refuted",
    "C53_skip_up_returns_partial"
   ],
   "note": "Prop_Skip.v. skip_up returns on every stream whose end has not been reached inside an open struct; it loops for ever when eof is set and the depth is not (refuted). A defect of the code."
  },
  {
   "property": "C54",
   "status": "proved",
   "theorems": [
    "C54_reader_schedule",
    "C54_reader_failure"
   ],
   "note": "Prop_De.v"
  },
  {
   "property": "C55",
   "status": "partial",
   "theorems": [
    "C55_strict_roundtrip_partial",
    "C55_unit_strict_refuted",
    "C55_result_unit_strict_refuted"
   ],
   "note": "Prop_SerDe.v, Prop_Std.v. Round trip in strict mode proved for every type without a top-level or delegated unit; the unit type itself fails (refuted). A defect of the code."
  },
  {
   "property": "C56",
   "status": "proved",
   "theorems": [
    "C56_unambiguous"
   ],
   "note": "Prop_SerDe.v"
  },
  {
   "property": "C57",
   "status": "proved",
   "theorems": [
    "C57_meaning",
    "C57_over_the_limits",
    "C57_meaningless",
    "C57_one_meaning"
   ],
   "note": "Prop_Meaning.v"
  },
  {
   "property": "C58",
   "status": "proved",
   "theorems": [
    "C58_std_roundtrip",
    "C58_only_valid_values",
    "C58_duration_out_of_range",
    "C58_result"
   ],
   "note": "Prop_Std.v"
  },
  {
   "property": "C59",
   "status": "proved",
   "theorems": [
    "C59_accepted",
    "C59_accepted_exactly",
    "C59_documents_accepted",
    "C59_consumed_exactly"
   ],
   "note": "Prop_Accept.v"
  },
  {
   "property": "C60",
   "status": "proved",
   "theorems": [
    "C60_partial_write",
    "C60_recovery",
    "C60_interrupted"
   ],
   "note": "Prop_Crash.v"
  },
  {
   "property": "C61",
   "status": "proved",
   "theorems": [
    "C61_contents_unchanged",
    "C61_cursor_moves_forward",
    "C61_deserialisation"
   ],
   "note": "Prop_Crash.v"
  },
  {
   "property": "C62",
   "status": "proved",
   "theorems": [
    "C62_any_order",
    "C62_set_of_sequence",
    "C62_map_of_pairs"
   ],
   "note": "Prop_Sets.v"
  },
  {
   "property": "C63",
   "status": "proved",
   "theorems": [
    "C63_histories",
    "C63_copying",
    "C63_to_stream",
    "C63_from_stream",
    "C63_from_slice_copy",
    "C63_from_slice_borrow",
    "C63_from_reader",
    "C63_to_vec"
   ],
   "note": "Prop_Dbg.v"
  },
  {
   "property": "C64",
   "status": "proved",
   "theorems": [
    "C64_text",
    "C64_char",
    "C64_valid"
   ],
   "note": "Prop_Text.v"
  },
  {
   "property": "C65",
   "status": "proved",
   "theorems": [
    "C65_located",
    "C65_real"
   ],
   "note": "Prop_Fault.v"
  },
  {
   "property": "C66",
   "status": "proved",
   "theorems": [
    "C66_ordered",
    "C66_unknown_field",
    "C66_slice"
   ],
   "note": "Prop_Places.v"
  },
  {
   "property": "C67",
   "status": "proved",
   "theorems": [
    "C67_resave",
    "C67_normal_form"
   ],
   "note": "Prop_Resave.v"
  },
  {
   "property": "C68",
   "status": "proved",
   "theorems": [
    "C68_relaxed",
    "C68_never_different"
   ],
   "note": "Prop_Relax.v"
  },
  {
   "property": "C69",
   "status": "proved",
   "theorems": [
    "C69_end_of_input_closes",
    "C69_histories_unchanged",
    "C69_deserialising_unchanged"
   ],
   "note": "Prop_Grace.v"
  },
  {
   "property": "C70",
   "status": "proved",
   "theorems": [
    "C70_histories_displaced",
    "C70_after_reset_pos",
    "C70_deserialising_displaced"
   ],
   "note": "Prop_Disp.v"
  },
  {
   "property": "C71",
   "status": "proved",
   "theorems": [
    "C71_no_amplification",
    "C71_input_sized_limits"
   ],
   "note": "Prop_Amp.v"
  },
  {
   "property": "C72",
   "status": "partial",
   "theorems": [
    "C72_implied_marker_partial",
    "C72_marker_not_needed",
    "C72_seekable_refuted"
   ],
   "note": "Prop_GraceEq.v. Both directions proved for readers without Seek, one direction for all; with Seek a truncated blob at the end is accepted cut short (refuted). A defect of the code."
  },
  {
   "property": "C73",
   "status": "proved",
   "theorems": [
    "C73_stricter"
   ],
   "note": "Prop_Strict.v"
  },
  {
   "property": "C74",
   "status": "proved",
   "theorems": [
    "C74_printed_errors",
    "C74_names_made_up"
   ],
   "note": "Prop_Show.v"
  },
  {
   "property": "C75",
   "status": "proved",
   "theorems": [
    "C75_deserialisation_errors",
    "C75_call_errors"
   ],
   "note": "Prop_Err.v"
  },
  {
   "property": "C76",
   "status": "partial",
   "theorems": [
    "C76_retry_partial",
    "C76_retried_right_partial",
    "C76_retry_refuted"
   ],
   "note": "Prop_Retry.v. Proved for everything but dynamic blobs; for those refuted: a retried close may declare the blob empty. A defect of the code."
  },
  {
   "property": "C77",
   "status": "proved",
   "theorems": [
    "C77_errors_proper",
    "C77_never_before_dynamic",
    "C77_writing_errors",
    "C77_causes"
   ],
   "note": "Prop_ErrW.v"
  },
  {
   "property": "C78",
   "status": "proved",
   "theorems": [
    "C78_gives_up",
    "C78_value_gives_up",
    "C78_cut_short"
   ],
   "note": "Prop_GiveUp.v"
  },
  {
   "property": "C79",
   "status": "proved",
   "theorems": [
    "C79_one_at_a_time",
    "C79_over_the_limits",
    "C79_like_collecting",
    "C79_collected",
    "C79_as_they_come",
    "C79_written",
    "C79_any_input"
   ],
   "note": "Prop_Elems.v"
  },
  {
   "property": "C80",
   "status": "proved",
   "theorems": [
    "C80_reads_what_is_asked_for",
    "C80_over_the_limits",
    "C80_others_do_not_matter",
    "C80_any_input",
    "C80_written",
    "C80_sequence",
    "C80_struct",
    "C80_read_as_struct"
   ],
   "note": "Prop_Hand.v"
  },
  {
   "property": "C81",
   "status": "proved",
   "theorems": [
    "C81_document",
    "C81_any_input",
    "C81_passed_through"
   ],
   "note": "Prop_Grow.v"
  },
  {
   "property": "C82",
   "status": "proved",
   "theorems": [
    "C82_reading",
    "C82_writing",
    "C82_renaming"
   ],
   "note": "Prop_Alike.v"
  },
  {
   "property": "C83",
   "status": "proved",
   "theorems": [
    "C83_next_calls",
    "C83_consumed",
    "C83_counting_changes_nothing"
   ],
   "note": "Prop_Work.v"
  }
 ]
}