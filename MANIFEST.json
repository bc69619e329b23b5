{
 "claims": [
  {
   "property": "C01",
   "status": "proved",
   "theorems": [
    "C01_zigzag_bijection"
   ],
   "note": ""
  },
  {
   "property": "C02",
   "status": "proved",
   "theorems": [
    "C02_u_varint_roundtrip"
   ],
   "note": ""
  },
  {
   "property": "C03",
   "status": "proved",
   "theorems": [
    "C03_u_varint_length"
   ],
   "note": ""
  },
  {
   "property": "C04",
   "status": "proved",
   "theorems": [
    "C04_u_varint_reader_complete"
   ],
   "note": ""
  },
  {
   "property": "C05",
   "status": "proved",
   "theorems": [
    "C05_i_varint_roundtrip"
   ],
   "note": ""
  },
  {
   "property": "C06",
   "status": "proved",
   "theorems": [
    "C06_untrusted_varint",
    "C06_refuted_loses_bits",
    "C06_refuted_panics"
   ],
   "note": "Finding: the property one would expect is refuted; the exact behaviour is proved. "
  },
  {
   "property": "C07",
   "status": "proved",
   "theorems": [
    "C07_address_delta_roundtrip"
   ],
   "note": ""
  },
  {
   "property": "C08",
   "status": "proved",
   "theorems": [
    "C08_header_roundtrip"
   ],
   "note": ""
  },
  {
   "property": "C09",
   "status": "proved",
   "theorems": [
    "C09_operation_roundtrip"
   ],
   "note": ""
  },
  {
   "property": "C10",
   "status": "proved",
   "theorems": [
    "C10_section_roundtrip"
   ],
   "note": ""
  },
  {
   "property": "C11",
   "status": "proved",
   "theorems": [
    "C11_iterator_yields_written_sections"
   ],
   "note": ""
  },
  {
   "property": "C12",
   "status": "proved",
   "theorems": [
    "C12_writer_validation_exact"
   ],
   "note": ""
  },
  {
   "property": "C13",
   "status": "proved",
   "theorems": [
    "C13_long_add_accepted_but_unreadable",
    "C13_refuted"
   ],
   "note": "Finding: the property one would expect is refuted; the exact behaviour is proved. "
  },
  {
   "property": "C14",
   "status": "proved",
   "theorems": [
    "C14_writer_panics_exactly"
   ],
   "note": ""
  },
  {
   "property": "C15",
   "status": "proved",
   "theorems": [
    "C15_make_sections_partition"
   ],
   "note": ""
  },
  {
   "property": "C16",
   "status": "proved",
   "theorems": [
    "C16_read_header_add_bytes",
    "C16_refuted"
   ],
   "note": "Finding: the property one would expect is refuted; the exact behaviour is proved. "
  },
  {
   "property": "C17",
   "status": "proved",
   "theorems": [
    "C17_read_agrees_with_header",
    "C17_release_oversized_refuted"
   ],
   "note": "Release-mode part is a finding."
  },
  {
   "property": "C18",
   "status": "proved",
   "theorems": [
    "C18_truncation_detected"
   ],
   "note": ""
  },
  {
   "property": "C19",
   "status": "proved",
   "theorems": [
    "C19_trailing_bytes_ignored"
   ],
   "note": ""
  },
  {
   "property": "C20",
   "status": "proved",
   "theorems": [
    "C20_reader_accepts_conforming"
   ],
   "note": ""
  },
  {
   "property": "C21",
   "status": "proved",
   "theorems": [
    "C21_operation_byte_layout",
    "C21_spec_table_refuted"
   ],
   "note": "Finding: the property one would expect is refuted; the exact behaviour is proved. "
  },
  {
   "property": "C22",
   "status": "proved",
   "theorems": [
    "C22_unknown_compression_read_as_plain",
    "C22_refuted"
   ],
   "note": "Finding: the property one would expect is refuted; the exact behaviour is proved. "
  },
  {
   "property": "C23",
   "status": "proved",
   "theorems": [
    "C23_apply_is_meaning"
   ],
   "note": ""
  },
  {
   "property": "C24",
   "status": "proved",
   "theorems": [
    "C24_sectioning_format_compression_irrelevant"
   ],
   "note": ""
  },
  {
   "property": "C25",
   "status": "proved",
   "theorems": [
    "C25_out_of_range_copy_is_error"
   ],
   "note": ""
  },
  {
   "property": "C26",
   "status": "proved",
   "theorems": [
    "C26_failed_apply_leaves_prefix"
   ],
   "note": ""
  },
  {
   "property": "C27",
   "status": "proved",
   "theorems": [
    "C27_prior_sink_contents",
    "C27_refuted_stale_bytes"
   ],
   "note": "Finding: the property one would expect is refuted; the exact behaviour is proved. "
  },
  {
   "property": "C28",
   "status": "proved",
   "theorems": [
    "C28_missing_dictionary",
    "C28_refuted"
   ],
   "note": "Finding: the property one would expect is refuted; the exact behaviour is proved. "
  },
  {
   "property": "C29",
   "status": "proved",
   "theorems": [
    "C29_smdiff_compression_lossless"
   ],
   "note": ""
  },
  {
   "property": "C30",
   "status": "proved",
   "theorems": [
    "C30_external_compression_lossless"
   ],
   "note": ""
  },
  {
   "property": "C31",
   "status": "proved",
   "theorems": [
    "C31_encode_apply_roundtrip"
   ],
   "note": ""
  },
  {
   "property": "C32",
   "status": "proved",
   "theorems": [
    "C32_refuted_default_config_panics"
   ],
   "note": "Finding: the property one would expect is refuted; the exact behaviour is proved. "
  },
  {
   "property": "C33",
   "status": "proved",
   "theorems": [
    "C33_encode_total",
    "C33_encode_total_no_src",
    "C33_encode_total_short",
    "C33_total_roundtrip",
    "C33_levels_total"
   ],
   "note": "sizes: target below 2^62 bytes; in debug builds source length * target length below 2^64 when source matching is on"
  },
  {
   "property": "C34",
   "status": "proved",
   "theorems": [
    "C34_encoder_respects_limits"
   ],
   "note": ""
  },
  {
   "property": "C35",
   "status": "proved",
   "theorems": [
    "C35_no_dictionary_needed"
   ],
   "note": ""
  },
  {
   "property": "C36",
   "status": "proved",
   "theorems": [
    "C36_candidates_become_exact_tiling"
   ],
   "note": ""
  },
  {
   "property": "C37",
   "status": "proved",
   "theorems": [
    "C37_chunking_exact",
    "C37_few_operations"
   ],
   "note": ""
  },
  {
   "property": "C38",
   "status": "proved",
   "theorems": [
    "C38_rolling_equals_fresh",
    "C38_rolling_many_steps"
   ],
   "note": ""
  },
  {
   "property": "C39",
   "status": "proved",
   "theorems": [
    "C39_table_sound",
    "C39_last_insertion_found"
   ],
   "note": ""
  },
  {
   "property": "C40",
   "status": "proved",
   "theorems": [
    "C40_refuted_endless_loop",
    "C33_encode_total"
   ],
   "note": "Finding: the property one would expect is refuted; the exact behaviour is proved. Termination outside that class is part of C33."
  },
  {
   "property": "C41",
   "status": "proved",
   "theorems": [
    "C41_append_short_tail_panics"
   ],
   "note": "Finding: the property one would expect is refuted; the exact behaviour is proved. "
  },
  {
   "property": "C42",
   "status": "proved",
   "theorems": [
    "C42_refuted_repeat_not_found"
   ],
   "note": "Finding: the property one would expect is refuted; the exact behaviour is proved. "
  },
  {
   "property": "C43",
   "status": "proved",
   "theorems": [
    "C43_illegal_capacity_panics"
   ],
   "note": "Finding: the property one would expect is refuted; the exact behaviour is proved. "
  },
  {
   "property": "C44",
   "status": "proved",
   "theorems": [
    "C44_levels_monotone_in_range",
    "C44_public_levels"
   ],
   "note": ""
  },
  {
   "property": "C45",
   "status": "proved",
   "theorems": [
    "C45_controlling_op_exact"
   ],
   "note": ""
  },
  {
   "property": "C46",
   "status": "proved",
   "theorems": [
    "C46_exact_slice"
   ],
   "note": ""
  },
  {
   "property": "C47",
   "status": "proved",
   "theorems": [
    "C47_deref_preserves"
   ],
   "note": ""
  },
  {
   "property": "C48",
   "status": "proved",
   "theorems": [
    "C48_merge_two"
   ],
   "note": ""
  },
  {
   "property": "C49",
   "status": "proved",
   "theorems": [
    "C49_merge_chain",
    "C49_encoded_patches_merge"
   ],
   "note": ""
  },
  {
   "property": "C50",
   "status": "proved",
   "theorems": [
    "C50_early_summary_sound"
   ],
   "note": ""
  },
  {
   "property": "C51",
   "status": "proved",
   "theorems": [
    "C51_written_merge"
   ],
   "note": ""
  },
  {
   "property": "C52",
   "status": "proved",
   "theorems": [
    "C52_new_exact",
    "C52_refuted"
   ],
   "note": "Finding: the property one would expect is refuted; the exact behaviour is proved. "
  },
  {
   "property": "C53",
   "status": "proved",
   "theorems": [
    "C53_statistics_exact",
    "C53_refuted"
   ],
   "note": "Finding: the property one would expect is refuted; the exact behaviour is proved. "
  },
  {
   "property": "C54",
   "status": "proved",
   "theorems": [
    "C54_extraction_exact"
   ],
   "note": ""
  },
  {
   "property": "C55",
   "status": "proved",
   "theorems": [
    "C55_transcode_preserves"
   ],
   "note": ""
  },
  {
   "property": "C56",
   "status": "proved",
   "theorems": [
    "C56_transcode_limits"
   ],
   "note": ""
  },
  {
   "property": "C57",
   "status": "proved",
   "theorems": [
    "C57_empty_patch_panics",
    "C57_encoded_empty_panics"
   ],
   "note": "Finding: the property one would expect is refuted; the exact behaviour is proved. "
  },
  {
   "property": "C58",
   "status": "proved",
   "theorems": [
    "C58_vcdiff_conversion"
   ],
   "note": "the messages of the external vcdiff-reader crate are the input; the contract assumed of them is SpecVcd.vinst_ok (a copy lies in the segment, or in the window, or runs past its end)"
  },
  {
   "property": "C59",
   "status": "proved",
   "theorems": [
    "C59_long_sequences_fail"
   ],
   "note": "Finding: the property one would expect is refuted; the exact behaviour is proved. "
  },
  {
   "property": "C60",
   "status": "proved",
   "theorems": [
    "C60_disjoint_candidates_all_used"
   ],
   "note": ""
  },
  {
   "property": "C61",
   "status": "proved",
   "theorems": [
    "C61_unfitting_predecessor_panics"
   ],
   "note": "Finding: the property one would expect is refuted; the exact behaviour is proved. "
  },
  {
   "property": "C62",
   "status": "proved",
   "theorems": [
    "C62_three_adds_not_joined",
    "C56_transcode_limits"
   ],
   "note": "Finding: the property one would expect is refuted; the exact behaviour is proved. "
  },
  {
   "property": "C63",
   "status": "proved",
   "theorems": [
    "C63_encode_conforms",
    "C63_writer_conforms"
   ],
   "note": "layout relations in SpecFmt.v"
  },
  {
   "property": "C64",
   "status": "proved",
   "theorems": [
    "C64_reader_accepts_conforming_patch",
    "C64_reader_accepts_conforming_section"
   ],
   "note": "layout relations in SpecFmt.v"
  },
  {
   "property": "C65",
   "status": "proved",
   "theorems": [
    "C65_size_forms",
    "C65_refuted"
   ],
   "note": "Finding: the property one would expect is refuted; the exact behaviour is proved. "
  },
  {
   "property": "C66",
   "status": "proved",
   "theorems": [
    "C66_build_modes_agree"
   ],
   "note": ""
  },
  {
   "property": "C67",
   "status": "proved",
   "theorems": [
    "C67_untrusted_patches",
    "C67_refuted"
   ],
   "note": "Finding: the property one would expect is refuted; the exact behaviour is proved. "
  },
  {
   "property": "C68",
   "status": "proved",
   "theorems": [
    "C68_output_bounded"
   ],
   "note": "memory reserved for the operation count of a header (Vec::reserve) is not modelled"
  },
  {
   "property": "C69",
   "status": "proved",
   "theorems": [
    "C69_shared_beginning_not_resent"
   ],
   "note": ""
  },
  {
   "property": "C70",
   "status": "proved",
   "theorems": [
    "C70_unchanged_file"
   ],
   "note": ""
  },
  {
   "property": "C71",
   "status": "proved",
   "theorems": [
    "C71_append_not_resent",
    "C71_prepend_not_resent"
   ],
   "note": ""
  },
  {
   "property": "C72",
   "status": "proved",
   "theorems": [
    "C72_short_dictionary_ignored"
   ],
   "note": "Finding: the property one would expect is refuted; the exact behaviour is proved. "
  },
  {
   "property": "C73",
   "status": "proved",
   "theorems": [
    "C73_merged_patch_is_a_link",
    "C73_chain_with_merged_part"
   ],
   "note": ""
  },
  {
   "property": "C74",
   "status": "proved",
   "theorems": [
    "C74_merge_in_steps"
   ],
   "note": "steps from the newest side"
  },
  {
   "property": "C75",
   "status": "proved",
   "theorems": [
    "C75_every_workflow",
    "C75_steps_succeed"
   ],
   "note": ""
  },
  {
   "property": "C76",
   "status": "proved",
   "theorems": [
    "C76_workflow_conforms"
   ],
   "note": "operation byte as written by the code (C21)"
  },
  {
   "property": "C77",
   "status": "proved",
   "theorems": [
    "C77_accepted_patches_are_prefix_free",
    "C77_extension_changes_nothing",
    "C77_cut_patches_are_end_of_file"
   ],
   "note": ""
  },
  {
   "property": "C78",
   "status": "proved",
   "theorems": [
    "C78_interrupted_write_is_detected",
    "C78_interrupted_apply_is_a_prefix",
    "C78_interrupted_write_is_end_of_file"
   ],
   "note": "end-of-file kind of Merger::merge in debug builds: provided its own debug assertion holds"
  },
  {
   "property": "C79",
   "status": "proved",
   "theorems": [
    "C79_new_untrusted",
    "C79_merge_untrusted",
    "C79_transcode_untrusted",
    "C79_refuted",
    "C79_what_applies_fits"
   ],
   "note": "Finding: the property one would expect is refuted; the exact behaviour is proved. "
  },
  {
   "property": "C80",
   "status": "proved",
   "theorems": [
    "C80_buffers_are_appended_to"
   ],
   "note": ""
  },
  {
   "property": "C81",
   "status": "proved",
   "theorems": [
    "C81_iterator_histories",
    "C81_apply_over_iterator"
   ],
   "note": ""
  },
  {
   "property": "C82",
   "status": "proved",
   "theorems": [
    "C82_io_failure",
    "C82_enough_calls"
   ],
   "note": "one failing call per run (the code stops at the first); reading a section from the patch counts as one call"
  },
  {
   "property": "C83",
   "status": "proved",
   "theorems": [
    "C83_apply_again"
   ],
   "note": ""
  },
  {
   "property": "C84",
   "status": "proved",
   "theorems": [
    "C84_failing_writer",
    "C84_disk_full_is_detected"
   ],
   "note": "external compressors write their output with one write_all in the model; cut-off data: the decoders are assumed not to take a cut stream for a whole one (codecs_cut)"
  },
  {
   "property": "C85",
   "status": "proved",
   "theorems": [
    "C85_scratch_buffer",
    "C85_refuted"
   ],
   "note": "Finding: the property one would expect is refuted; the exact behaviour is proved. "
  },
  {
   "property": "C86",
   "status": "proved",
   "theorems": [
    "C86_encode_reads_from_the_position",
    "C86_apply_reads_from_the_position",
    "C86_reader_afterwards",
    "C86_roundtrip_from_the_position",
    "C86_refuted",
    "C86_patches_in_a_row_refuted"
   ],
   "note": "Finding: the property one would expect is refuted; the exact behaviour is proved. "
  },
  {
   "property": "C87",
   "status": "proved",
   "theorems": [
    "C87_no_source_matching",
    "C87_source_not_needed",
    "C87_no_target_matching",
    "C87_no_matching"
   ],
   "note": "a lossless codec is assumed where the patch is read back"
  },
  {
   "property": "C88",
   "status": "proved",
   "theorems": [
    "C88_no_repeat_is_found",
    "C88_nothing_is_found",
    "C88_repeated_blocks_refuted"
   ],
   "note": "Finding: the property one would expect is refuted; the exact behaviour is proved. "
  },
  {
   "property": "C89",
   "status": "proved",
   "theorems": [
    "C89_unset_is_90",
    "C89_default_is_unset",
    "C89_small_values",
    "C89_large_values",
    "C89_refuted"
   ],
   "note": "Finding: the property one would expect is refuted; the exact behaviour is proved. "
  },
  {
   "property": "C90",
   "status": "proved",
   "theorems": [
    "C90_fewest_sections",
    "C90_section_count"
   ],
   "note": ""
  },
  {
   "property": "C91",
   "status": "proved",
   "theorems": [
    "C91_written_size",
    "C91_encoded_size",
    "C91_size_bound",
    "C91_no_matching_bound"
   ],
   "note": ""
  },
  {
   "property": "C92",
   "status": "proved",
   "theorems": [
    "C92_same_result",
    "C92_slots_exact",
    "C92_literals_bounded",
    "C92_success_bounded",
    "C92_refuted"
   ],
   "note": "Finding: the property one would expect is refuted; the exact behaviour is proved. "
  },
  {
   "property": "C93",
   "status": "proved",
   "theorems": [
    "C93_write_outcome",
    "C93_read_back",
    "C93_format_corrupted",
    "C93_refuted",
    "C93_builder",
    "C93_any_settings",
    "C93_queries",
    "C93_release_header_panics_debug",
    "C93_version_not_checked"
   ],
   "note": "Finding: the property one would expect is refuted; the exact behaviour is proved. "
  },
  {
   "property": "C94",
   "status": "proved",
   "theorems": [
    "C94_any_reader_section",
    "C94_any_reader_patch"
   ],
   "note": ""
  },
  {
   "property": "C95",
   "status": "proved",
   "theorems": [
    "C95_streaming_roundtrip",
    "C95_zstd_empty_target",
    "C95_brotli_empty_target_refuted"
   ],
   "note": "Finding: the property one would expect is refuted; the exact behaviour is proved. "
  },
  {
   "property": "C96",
   "status": "proved",
   "theorems": [
    "C96_any_files",
    "C96_encode_any_readers",
    "C96_roundtrip_any_files"
   ],
   "note": "files that never fail (failing ones: C82, C84); offsets: all addresses of the patch must be ones that the files accept (u64 for a Cursor, proved for encoded patches from 2^63)"
  },
  {
   "property": "C97",
   "status": "proved",
   "theorems": [
    "C97_same_results",
    "C97_goes_on",
    "C97_cut_patch_never_ends",
    "C97_refuted"
   ],
   "note": "Finding: the property one would expect is refuted; the exact behaviour is proved. "
  },
  {
   "property": "C98",
   "status": "proved",
   "theorems": [
    "C98_merged_size",
    "C98_never_joined",
    "C98_blowup"
   ],
   "note": "Finding: the property one would expect is refuted; the exact behaviour is proved. "
  },
  {
   "property": "C99",
   "status": "proved",
   "theorems": [
    "C99_settled_unchanged",
    "C99_detour",
    "C99_own_settings",
    "C99_transcoded_size",
    "C99_refuted"
   ],
   "note": "Finding: the property one would expect is refuted; the exact behaviour is proved. "
  },
  {
   "property": "C100",
   "status": "proved",
   "theorems": [
    "C100_apply",
    "C100_merge_and_transcode",
    "C100_cut_patch",
    "C100_zstd_refuted",
    "C100_any_reader"
   ],
   "note": "Finding: the property one would expect is refuted; the exact behaviour is proved. "
  },
  {
   "property": "C101",
   "status": "proved",
   "theorems": [
    "C101_in_place",
    "C101_forward_only",
    "C101_transcoded",
    "C101_no_source_matching",
    "C101_refuted"
   ],
   "note": "Finding: the property one would expect is refuted; the exact behaviour is proved. "
  },
  {
   "property": "C102",
   "status": "proved",
   "theorems": [
    "C102_other_source",
    "C102_provenance",
    "C102_refuted"
   ],
   "note": "Finding: the property one would expect is refuted; the exact behaviour is proved. "
  },
  {
   "property": "C103",
   "status": "proved",
   "theorems": [
    "C103_rolling_equals_fresh",
    "C103_table_sound",
    "C103_checked_window_never_slides",
    "C103_unchecked_window_safe"
   ],
   "note": "Finding: the property one would expect is refuted; the exact behaviour is proved. "
  },
  {
   "property": "C104",
   "status": "proved",
   "theorems": [
    "C104_same_below_4GiB",
    "C104_checked_builds_stop",
    "C104_unchecked_builds_corrupt",
    "C104_unnoticed",
    "C104_encoded_patches"
   ],
   "note": "Finding: the property one would expect is refuted; the exact behaviour is proved. "
  },
  {
   "property": "C105",
   "status": "proved",
   "theorems": [
    "C105_search_exact",
    "C105_every_search",
    "C105_more_is_longer",
    "C105_longest_found",
    "C105_collision_hides",
    "C105_level_not_monotone"
   ],
   "note": "Finding: the property one would expect is refuted; the exact behaviour is proved. "
  },
  {
   "property": "C106",
   "status": "proved",
   "theorems": [
    "C106_every_search",
    "C106_every_search_one_window",
    "C106_word_found",
    "C106_block_has_word",
    "C106_last_words_never_found",
    "C106_extension_exact",
    "C106_not_the_longest",
    "C106_tail_missed",
    "C106_nine_byte_target_missed"
   ],
   "note": "The last three are refutations of what one might rely on (findings). The search is described for targets with more than nine bytes left at the beginning of the search."
  },
  {
   "property": "C107",
   "status": "proved",
   "theorems": [
    "C107_found_not_resent",
    "C107_run_not_resent"
   ],
   "note": "30 = two overlapping matches (13 each) and 4 bytes at the end of the target; it is an upper bound, not shown to be attained. C107_thirteen_attained is an Example."
  },
  {
   "property": "C108",
   "status": "proved",
   "theorems": [
    "C108_block_not_resent",
    "C108_all_words_held",
    "C108_index_capacity"
   ],
   "note": "The bound D + 26 is an upper bound. Several windows (dictionaries above the window size) and naive tests are not covered."
  },
  {
   "property": "C109",
   "status": "proved",
   "theorems": [
    "C109_healthy_run",
    "C109_failing_reader",
    "C109_failing_compressor",
    "C109_compressor_failure_is_detected"
   ],
   "note": ""
  },
  {
   "property": "C110",
   "status": "proved",
   "theorems": [
    "C110_last_call_wins",
    "C110_every_configuration_can_be_made",
    "C110_equivalent_settings",
    "C110_short_forms"
   ],
   "note": ""
  },
  {
   "property": "C111",
   "status": "proved",
   "theorems": [
    "C111_reader_accepts_exactly",
    "C111_numbers_accepted_exactly",
    "C111_short_numbers",
    "C111_accepts_more_than_the_format_refuted"
   ],
   "note": "Finding: the property one would expect is refuted; the exact behaviour is proved. "
  },
  {
   "property": "C112",
   "status": "proved",
   "theorems": [
    "C112_empty_operations_do_nothing",
    "C112_merge_composes",
    "C112_merge_succeeds",
    "C112_written",
    "C112_harmless_refuted"
   ],
   "note": "Finding: the property one would expect is refuted; the exact behaviour is proved. "
  },
  {
   "property": "C113",
   "status": "proved",
   "theorems": [
    "C113_merging_is_substitution",
    "C113_any_order",
    "C113_same_summary",
    "C113_flatten_means",
    "C113_graft_means",
    "C113_graft_associative"
   ],
   "note": ""
  },
  {
   "property": "C114",
   "status": "proved",
   "theorems": [
    "C114_summary_size",
    "C114_graft_size",
    "C114_no_growth",
    "C114_copied_literals_refuted",
    "C114_output_copies_refuted"
   ],
   "note": "Finding: the property one would expect is refuted; the exact behaviour is proved. "
  },
  {
   "property": "C115",
   "status": "proved",
   "theorems": [
    "C115_other_source",
    "C115_provenance",
    "C115_needs_less",
    "C115_errors_lost_refuted"
   ],
   "note": ""
  },
  {
   "property": "C116",
   "status": "proved",
   "theorems": [
    "C116_where_found",
    "C116_small_target",
    "C116_without_long_matches",
    "C116_only_the_first_window",
    "C116_later_block_resent_refuted",
    "C116_later_block_encodes"
   ],
   "note": "Finding: the property one would expect is refuted; the exact behaviour is proved. "
  },
  {
   "property": "C117",
   "status": "proved",
   "theorems": [
    "C117_what_matching_can_cost",
    "C117_at_most_twice",
    "C117_matching_can_enlarge_a_patch"
   ],
   "note": "Finding: the property one would expect is refuted; the exact behaviour is proved. "
  },
  {
   "property": "C118",
   "status": "proved",
   "theorems": [
    "C118_entries_looked_at",
    "C118_bounded",
    "C118_every_search",
    "C118_rounds",
    "C118_chain_check_is_no_bound"
   ],
   "note": "Finding: the property one would expect is refuted; the exact behaviour is proved. "
  },
  {
   "property": "C119",
   "status": "proved",
   "theorems": [
    "C119_kinds",
    "C119_operation_byte",
    "C119_oal_wrong"
   ],
   "note": "Finding: the property one would expect is refuted; the exact behaviour is proved. "
  },
  {
   "property": "C120",
   "status": "proved",
   "theorems": [
    "C120_decoder_into_inner",
    "C120_reader_into_inner",
    "C120_refuted"
   ],
   "note": "Finding: the property one would expect is refuted; the exact behaviour is proved. "
  },
  {
   "property": "C121",
   "status": "proved",
   "theorems": [
    "C121_joined_patches",
    "C121_join_without_output_copies",
    "C121_join_moved",
    "C121_refuted"
   ],
   "note": "Finding: the property one would expect is refuted; the exact behaviour is proved. "
  }
 ]
}