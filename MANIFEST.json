{
 "claims": [
  {
   "property": "C01",
   "status": "proved",
   "theorems": [
    "C01_fixed_is_bounded_fifo"
   ],
   "note": ""
  },
  {
   "property": "C02",
   "status": "proved",
   "theorems": [
    "C02_static_is_bounded_fifo",
    "C02_static_answers_like_fixed"
   ],
   "note": ""
  },
  {
   "property": "C03",
   "status": "proved",
   "theorems": [
    "C03_fixed_exposure",
    "C03_static_exposure"
   ],
   "note": ""
  },
  {
   "property": "C04",
   "status": "proved",
   "theorems": [
    "C04_fixed_marking",
    "C04_static_marking",
    "C04_marking_splits",
    "C04_static_marking_splits"
   ],
   "note": ""
  },
  {
   "property": "C05",
   "status": "proved",
   "theorems": [
    "C05_no_panic",
    "C05_static_no_panic",
    "C05_index_bounds",
    "C05_static_index_bounds",
    "C05_fillers_never_emitted",
    "C05_static_fillers_never_emitted"
   ],
   "note": ""
  },
  {
   "property": "C06",
   "status": "proved",
   "theorems": [
    "C06_zero_capacity_refuted",
    "C06_zero_capacity_otherwise_conforms"
   ],
   "note": "The property describes a defect: refuted by witness, with a proof of what holds otherwise."
  },
  {
   "property": "C07",
   "status": "proved",
   "theorems": [
    "C07_fixed_debug",
    "C07_static_debug"
   ],
   "note": ""
  },
  {
   "property": "C08",
   "status": "proved",
   "theorems": [
    "C08_default_bulk_consume"
   ],
   "note": ""
  },
  {
   "property": "C09",
   "status": "proved",
   "theorems": [
    "C09_bulk_consume_full_slice_calls",
    "C09_bulk_count_is_exactly",
    "C09_consume_full_slice",
    "C09_bulk_consume_full_slice",
    "C09_bulk_consume_full_slice_lower_bound",
    "C09_bulk_exact_count_refuted"
   ],
   "note": "The documented exactness of the count is violated for bulk_consume_full_slice (witness C09_bulk_exact_count_refuted); what the count is in general is proved (C09_bulk_consume_full_slice_calls, C09_bulk_count_is_exactly). Everything else holds."
  },
  {
   "property": "C10",
   "status": "proved",
   "theorems": [
    "C10_overwrite_full_slice",
    "C10_bulk_overwrite_full_slice"
   ],
   "note": ""
  },
  {
   "property": "C11",
   "status": "proved",
   "theorems": [
    "C11_default_bulk_produce"
   ],
   "note": ""
  },
  {
   "property": "C12",
   "status": "proved",
   "theorems": [
    "C12_pipe",
    "C12_pipe_lawful"
   ],
   "note": ""
  },
  {
   "property": "C13",
   "status": "proved",
   "theorems": [
    "C13_bulk_pipe",
    "C13_bulk_pipe_keeps_the_rest"
   ],
   "note": ""
  },
  {
   "property": "C14",
   "status": "proved",
   "theorems": [
    "C14_pipe_at_most",
    "C14_pipe_at_most_success"
   ],
   "note": ""
  },
  {
   "property": "C15",
   "status": "proved",
   "theorems": [
    "C15_bulk_pipe_at_most",
    "C15_bulk_pipe_at_most_keeps_the_rest"
   ],
   "note": ""
  },
  {
   "property": "C16",
   "status": "proved",
   "theorems": [
    "C16_from_slice_conforms",
    "C16_from_slice_accessors"
   ],
   "note": ""
  },
  {
   "property": "C17",
   "status": "proved",
   "theorems": [
    "C17_empty_conforms",
    "C17_empty_emits_final",
    "C17_empty_history"
   ],
   "note": ""
  },
  {
   "property": "C18",
   "status": "proved",
   "theorems": [
    "C18_into_vec_conforms",
    "C18_into_vec_collects"
   ],
   "note": ""
  },
  {
   "property": "C19",
   "status": "proved",
   "theorems": [
    "C19_limit_conforms",
    "C19_limit_leaves_the_rest",
    "C19_slurp_refuted",
    "C19_limit_conforms_exactly",
    "C19_no_leak"
   ],
   "note": "Violated in one case (witness C19_slurp_refuted); C19_limit_conforms_exactly proves for all histories that this is the only deviation."
  },
  {
   "property": "C20",
   "status": "proved",
   "theorems": [
    "C20_limit_conforms",
    "C20_limit_counts",
    "C20_limit_refuses"
   ],
   "note": ""
  },
  {
   "property": "C21",
   "status": "proved",
   "theorems": [
    "C21_map_item_producer",
    "C21_map_item_consumer"
   ],
   "note": ""
  },
  {
   "property": "C22",
   "status": "proved",
   "theorems": [
    "C22_map_final_producer",
    "C22_map_final_consumer",
    "C22_map_final_producer_conforms",
    "C22_map_final_consumer_conforms"
   ],
   "note": ""
  },
  {
   "property": "C23",
   "status": "proved",
   "theorems": [
    "C23_map_error_transparent_refuted",
    "C23_map_error_first_call",
    "C23_map_error_no_second_call"
   ],
   "note": "The property describes a defect: refuted by witness, with proofs of what holds in general."
  },
  {
   "property": "C24",
   "status": "proved",
   "theorems": [
    "C24_checker_transparent_producer",
    "C24_checker_transparent_consumer",
    "C24_checker_faithful",
    "C24_checker_conforms_producer",
    "C24_checker_conforms_consumer"
   ],
   "note": ""
  },
  {
   "property": "C25",
   "status": "proved",
   "theorems": [
    "C25_detects_use_after_end_producer",
    "C25_detects_use_after_end_consumer",
    "C25_detects_overmarking"
   ],
   "note": ""
  },
  {
   "property": "C26",
   "status": "proved",
   "theorems": [
    "C26_detects_failed_marking_refuted",
    "C26_failed_marking_stays_active"
   ],
   "note": "The property describes a defect: refuted by witness, with proofs of what holds in general."
  },
  {
   "property": "C27",
   "status": "proved",
   "theorems": [
    "C27_rejects_stale_exposures_refuted"
   ],
   "note": "The property describes a defect: refuted by witness, with proofs of what holds in general."
  },
  {
   "property": "C28",
   "status": "proved",
   "theorems": [
    "C28_scrambler_conforms",
    "C28_scrambler_reads_ahead",
    "C28_scrambler_early_slurp"
   ],
   "note": "Also proved: slurp is harmless while more than `capacity` items are still to come."
  },
  {
   "property": "C29",
   "status": "proved",
   "theorems": [
    "C29_slurp_refuted",
    "C29_slurp_uses_ended_inner"
   ],
   "note": "The property describes a defect: refuted by witness, with a proof of how general the defect is."
  },
  {
   "property": "C30",
   "status": "proved",
   "theorems": [
    "C30_scrambler_forwards",
    "C30_scrambler_flush",
    "C30_scrambler_close",
    "C30_scrambler_error",
    "C30_scrambler_total"
   ],
   "note": ""
  },
  {
   "property": "C31",
   "status": "proved",
   "theorems": [
    "C31_debug_consume_panics",
    "C31_debug_overflow_refuted"
   ],
   "note": "The property describes a defect: refuted by witness, with a proof of how general the defect is."
  },
  {
   "property": "C32",
   "status": "proved",
   "theorems": [
    "C32_zero_capacity_producer_panics",
    "C32_zero_capacity_consumer_drops",
    "C32_zero_capacity_refuted"
   ],
   "note": "The property describes a defect: refuted by witness, with a proof of how general the defect is."
  },
  {
   "property": "C33",
   "status": "proved",
   "theorems": [
    "C33_test_producer_conforms",
    "C33_test_producer_accessors",
    "C33_test_producer_exposure_sizes"
   ],
   "note": ""
  },
  {
   "property": "C34",
   "status": "proved",
   "theorems": [
    "C34_test_consumer_conforms",
    "C34_test_consumer_accessors",
    "C34_test_consumer_fails_after_n",
    "C34_test_consumer_accepts_before_n"
   ],
   "note": ""
  },
  {
   "property": "C35",
   "status": "proved",
   "theorems": [
    "C35_await_completes",
    "C35_new_is_ready",
    "C35_polls_follow_pattern",
    "C35_awaits_cycle"
   ],
   "note": ""
  },
  {
   "property": "C36",
   "status": "proved",
   "theorems": [
    "C36_merge_interleaves",
    "C36_merge_final",
    "C36_merge_error"
   ],
   "note": ""
  },
  {
   "property": "C37",
   "status": "proved",
   "theorems": [
    "C37_merge_respects_ends",
    "C37_merge_step_progress",
    "C37_merge_completes"
   ],
   "note": ""
  },
  {
   "property": "C38",
   "status": "proved",
   "theorems": [
    "C38_buf_reader_conforms",
    "C38_buf_reader_emits"
   ],
   "note": ""
  },
  {
   "property": "C39",
   "status": "proved",
   "theorems": [
    "C39_reader_conforms",
    "C39_reader_emits"
   ],
   "note": ""
  },
  {
   "property": "C40",
   "status": "proved",
   "theorems": [
    "C40_writer_total",
    "C40_writer_conforms",
    "C40_writer_conserves",
    "C40_writer_drains",
    "C40_writer_error"
   ],
   "note": ""
  },
  {
   "property": "C41",
   "status": "proved",
   "theorems": [
    "C41_buf_reader_empty_buffer",
    "C41_reader_empty_buffer",
    "C41_writer_empty_buffer",
    "C41_buf_reader_unexpected_eof",
    "C41_reader_unexpected_eof",
    "C41_reader_refuted",
    "C41_writer_refuted",
    "C41_unexpected_eof_refuted"
   ],
   "note": "The property describes a defect: refuted by witnesses, with proofs of how general each defect is."
  },
  {
   "property": "C42",
   "status": "proved",
   "theorems": [
    "C42_round_trip",
    "C42_encoding_exists",
    "C42_vec_round_trip"
   ],
   "note": ""
  },
  {
   "property": "C43",
   "status": "proved",
   "theorems": [
    "C43_injective_prefix_free",
    "C43_layout",
    "C43_length"
   ],
   "note": ""
  },
  {
   "property": "C44",
   "status": "proved",
   "theorems": [
    "C44_reencodes",
    "C44_canonic",
    "C44_injective"
   ],
   "note": ""
  },
  {
   "property": "C45",
   "status": "proved",
   "theorems": [
    "C45_decode_outcome",
    "C45_fails_iff",
    "C45_chunking_irrelevant"
   ],
   "note": ""
  },
  {
   "property": "C46",
   "status": "proved",
   "theorems": [
    "C46_encode_into_any",
    "C46_encode_into_failing"
   ],
   "note": ""
  },
  {
   "property": "C47",
   "status": "proved",
   "theorems": [
    "C47_encode_into_vec",
    "C47_any_consumer",
    "C47_relative",
    "C47_decode_from_slice",
    "C47_decode_result"
   ],
   "note": ""
  },
  {
   "property": "C48",
   "status": "proved",
   "theorems": [
    "C48_round_trip",
    "C48_bytes",
    "C48_encoder_fails",
    "C48_empty_encoding_refuted"
   ],
   "note": "Proved for codecs without empty encodings, as stated; C48_empty_encoding_refuted shows that the restriction is needed."
  },
  {
   "property": "C49",
   "status": "proved",
   "theorems": [
    "C49_decoder_outcome",
    "C49_final_iff_boundary",
    "C49_truncation",
    "C49_slurp"
   ],
   "note": ""
  },
  {
   "property": "C50",
   "status": "proved",
   "theorems": [
    "C50_encoder_references",
    "C50_decoder_references",
    "C50_lockstep_round_trip",
    "C50_unit_reference"
   ],
   "note": ""
  },
  {
   "property": "C51",
   "status": "proved",
   "theorems": [
    "C51_lock_order",
    "C51_task_order",
    "C51_any_execution",
    "C51_drop",
    "C51_no_deadlock",
    "C51_encodings",
    "C51_first_error",
    "C51_no_panic",
    "C51_close_no_effect",
    "C51_bytes",
    "C51_completes",
    "C51_references"
   ],
   "note": "For all schedules in which nobody drops a future that holds the lock; C58 shows what happens otherwise."
  },
  {
   "property": "C52",
   "status": "proved",
   "theorems": [
    "C52_same_as_relative_decoder",
    "C52_same_as_decoder",
    "C52_references",
    "C52_values",
    "C52_first_end",
    "C52_plain_values"
   ],
   "note": "For all schedules in which nobody drops a future that holds the lock."
  },
  {
   "property": "C53",
   "status": "proved",
   "theorems": [
    "C53_conversions",
    "C53_blame_unsigned",
    "C53_blame_signed"
   ],
   "note": ""
  },
  {
   "property": "C54",
   "status": "proved",
   "theorems": [
    "C54_basic_invariants",
    "C54_known_size_invariants",
    "C54_canonic_invariants",
    "C54_endian"
   ],
   "note": ""
  },
  {
   "property": "C55",
   "status": "proved",
   "theorems": [
    "C55_producer_tower_conforms",
    "C55_producer_tower_emits",
    "C55_consumer_tower_conforms",
    "C55_consumer_tower_feed",
    "C55_consumer_tower_close"
   ],
   "note": ""
  },
  {
   "property": "C56",
   "status": "proved",
   "theorems": [
    "C56_assertions_detect",
    "C56_basic_assertions_mean",
    "C56_other_assertions_mean",
    "C56_canonic_assertions_mean",
    "C56_unread_bytes_refuted"
   ],
   "note": "The last part is a refutation by witness (C56_unread_bytes_refuted)."
  },
  {
   "property": "C57",
   "status": "proved",
   "theorems": [
    "C57_encoder_refuted",
    "C57_decoder_refuted",
    "C57_resumes_refuted"
   ],
   "note": "The property does not hold: refuted by witnesses for encoders and decoders."
  },
  {
   "property": "C58",
   "status": "proved",
   "theorems": [
    "C58_refuted"
   ],
   "note": "The property does not hold: refuted by witness. C51 proves it for cancellation while waiting."
  },
  {
   "property": "C59",
   "status": "proved",
   "theorems": [
    "C59_fixed_passes",
    "C59_static_passes",
    "C59_queue_target_means"
   ],
   "note": ""
  },
  {
   "property": "C60",
   "status": "proved",
   "theorems": [
    "C60_consume_full_slice_passes",
    "C60_overwrite_full_slice_passes",
    "C60_bulk_consume_passes",
    "C60_bulk_produce_passes",
    "C60_consume_target_means",
    "C60_bulk_consume_target_means",
    "C60_overwrite_target_means",
    "C60_bulk_consume_method_means",
    "C60_bulk_produce_method_means",
    "C60_bulk_overwrite_target_means",
    "C60_slices_unnoticed"
   ],
   "note": ""
  },
  {
   "property": "C61",
   "status": "proved",
   "theorems": [
    "C61_pipe_passes",
    "C61_pipe_at_most_passes",
    "C61_pipe_target_means",
    "C61_pipe_at_most_target_means",
    "C61_bulk_pipe_target_means",
    "C61_lost_items_unnoticed"
   ],
   "note": ""
  },
  {
   "property": "C62",
   "status": "proved",
   "theorems": [
    "C62_from_slice_passes",
    "C62_producer_targets_pass",
    "C62_from_slice_target_means",
    "C62_comparison_means"
   ],
   "note": "from_boxed_slice shares the model of from_slice (FromBoxedSlice and FromSlice have the same model)."
  },
  {
   "property": "C63",
   "status": "proved",
   "theorems": [
    "C63_consumer_targets_pass",
    "C63_into_vec_passes",
    "C63_into_vec_target_means",
    "C63_scrambler_target_means",
    "C63_invariant_target_means",
    "C63_debug_panics",
    "C63_refuted"
   ],
   "note": "As stated refuted in debug builds (C63_debug_panics, C63_refuted); proved without debug assertions and for inputs up to 2048 items. The assertion about the capacity of the vector (into_vec.rs 22) is covered by C102."
  },
  {
   "property": "C64",
   "status": "proved",
   "theorems": [
    "C64_merge_passes",
    "C64_merge_target_means"
   ],
   "note": ""
  },
  {
   "property": "C65",
   "status": "proved",
   "theorems": [
    "C65_writer_lawful",
    "C65_pipe_into_writer",
    "C65_copy"
   ],
   "note": "A writer that may fail is not a lawful consumer, because errors of queued bytes come with later calls (C65_example_late); C40 covers such writers."
  },
  {
   "property": "C66",
   "status": "proved",
   "theorems": [
    "C66_compat_passes",
    "C66_compat_buf_read_passes",
    "C66_compat_catches",
    "C66_compat_buf_read_catches",
    "C66_send_means",
    "C66_receive_means",
    "C66_debug_panics"
   ],
   "note": "The model sends everything before receiving; connecting and accepting succeed."
  },
  {
   "property": "C67",
   "status": "proved",
   "theorems": [
    "C67_absolute_targets_mean",
    "C67_absolute_targets_pass",
    "C67_all_includes_the_others",
    "C67_passing_means",
    "C67_endian"
   ],
   "note": "The assertions about independence of consumer and producer details are covered by assuming codecs that write and read the same bytes everywhere (lawful_encode, lawful_decode)."
  },
  {
   "property": "C68",
   "status": "proved",
   "theorems": [
    "C68_relative_targets_mean",
    "C68_relative_targets_pass",
    "C68_rejected_data_passes",
    "C68_decoded_values_are_encoded"
   ],
   "note": "Same as C67."
  },
  {
   "property": "C69",
   "status": "proved",
   "theorems": [
    "C69_absolute_vectors",
    "C69_canonic_vectors",
    "C69_relative_vectors",
    "C69_unusable_corpus_panics",
    "C69_relative_unusable_corpus_panics",
    "C69_vectors_are_sorted",
    "C69_relative_vectors_are_sorted",
    "C69_reencoded_decodes",
    "C69_canonic_yay",
    "C69_corpus_targets_return"
   ],
   "note": "Errors of the file system are not modelled; the corpus is outside of the output directory."
  },
  {
   "property": "C70",
   "status": "proved",
   "theorems": [
    "C70_relative_reencoded",
    "C70_relative_reencoded_refuted",
    "C70_stale_files_refuted",
    "C70_existing_files_stay"
   ],
   "note": "Two parts do not hold: refuted by witnesses, with proofs of what holds in general."
  },
  {
   "property": "C71",
   "status": "proved",
   "theorems": [
    "C71_into_slice_conforms",
    "C71_into_slice_contents",
    "C71_pipe_into_slice",
    "C71_into_slice_clean"
   ],
   "note": "The module is commented out in consumer.rs; modelled as written. What a caller stores through as_mut and the other _mut accessors is not modelled."
  },
  {
   "property": "C72",
   "status": "proved",
   "theorems": [
    "C72_pipe_error",
    "C72_consume_at_least_error",
    "C72_produce_at_least_error",
    "C72_texts_differ",
    "C72_decode_error",
    "C72_sources"
   ],
   "note": "Texts are strings, sources are values; writing into a formatter is taken not to fail."
  },
  {
   "property": "C73",
   "status": "proved",
   "theorems": [
    "C73_word_queue_iff",
    "C73_sized_items",
    "C73_same_histories",
    "C73_zero_sized_refuted"
   ],
   "note": "The bound fails for zero-sized items with capacities above half the range: C73_zero_sized_refuted."
  },
  {
   "property": "C74",
   "status": "proved",
   "theorems": [
    "C74_exported_producer",
    "C74_exported_consumer",
    "C74_from_slice",
    "C74_from_slice_accessors",
    "C74_empty",
    "C74_into_vec",
    "C74_into_vec_collects",
    "C74_test_producer_inner_checker",
    "C74_test_producer",
    "C74_test_producer_histories",
    "C74_test_consumer_inner_checker",
    "C74_test_consumer",
    "C74_test_consumer_histories"
   ],
   "note": "The state of the forwarding Invariant keeps the two fields of the checker, which it never touches."
  },
  {
   "property": "C75",
   "status": "proved",
   "theorems": [
    "C75_from_slice",
    "C75_from_slice_conforms",
    "C75_into_slice",
    "C75_into_slice_conforms",
    "C75_limit_producer",
    "C75_limit_consumer",
    "C75_overstepping",
    "C75_checker",
    "C75_indices",
    "C75_test_consumer",
    "C75_into_vec",
    "C75_into_vec_step",
    "C75_into_vec_full",
    "C75_test_consumer_expose",
    "C75_grow",
    "C75_into_vec_sized",
    "C75_zero_sized_refuted",
    "C75_bulk_consume_full_slice",
    "C75_bulk_overwrite_full_slice",
    "C75_pipe_at_most",
    "C75_bulk_pipe_at_most"
   ],
   "note": "IntoVec is bounded by what a vector can hold; for zero-sized items it panics earlier than necessary: C75_zero_sized_refuted."
  },
  {
   "property": "C76",
   "status": "proved",
   "theorems": [
    "C76_executor",
    "C76_block_on",
    "C76_provided_methods",
    "C76_pipes",
    "C76_basics",
    "C76_producer_adaptors",
    "C76_consumer_adaptors",
    "C76_codecs",
    "C76_codec_adaptors",
    "C76_test_objects",
    "C76_test_objects_yield",
    "C76_pending_pipes",
    "C76_pending_producers",
    "C76_pending_consumers",
    "C76_pending_codecs",
    "C76_pending_codec_adaptors",
    "C76_count_pipes",
    "C76_count_producers",
    "C76_count_consumers",
    "C76_count_codec_adaptors"
   ],
   "note": "Second, poll-level model of the functions in AsyncModel.v and AsyncAdaptorModel.v; the I/O adaptors follow in C79."
  },
  {
   "property": "C77",
   "status": "proved",
   "theorems": [
    "C77_suspended",
    "C77_pipe",
    "C77_bulk_pipe",
    "C77_test_objects",
    "C77_waiting",
    "C77_test_pipe",
    "C77_test_bulk_pipe",
    "C77_dropped_pipe_refuted",
    "C77_dropped_bulk_pipe_refuted"
   ],
   "note": "The two _refuted theorems show what dropping a suspended pipe can do; the documentation forbids it."
  },
  {
   "property": "C78",
   "status": "proved",
   "theorems": [
    "C78_test_producer",
    "C78_test_producer_conforms",
    "C78_test_consumer",
    "C78_test_consumer_step"
   ],
   "note": "TestConsumer is bounded by what a vector can hold, counting the 2048 slots it makes room for."
  },
  {
   "property": "C79",
   "status": "proved",
   "theorems": [
    "C79_completes",
    "C79_pending",
    "C79_count",
    "C79_buf_reader_waiting",
    "C79_reader_waiting",
    "C79_reader_pipe",
    "C79_writer_suspended",
    "C79_logged",
    "C79_dropped_flush_refuted"
   ],
   "note": "C79_dropped_flush_refuted shows what dropping a suspended flush can do; the documentation forbids it."
  },
  {
   "property": "C80",
   "status": "proved",
   "theorems": [
    "C80_merge_refines",
    "C80_merge_interleaves",
    "C80_merge_drop",
    "C80_merge_polls",
    "C80_merge_wakes"
   ],
   "note": ""
  },
  {
   "property": "C81",
   "status": "proved",
   "theorems": [
    "C81_encodings",
    "C81_integers",
    "C81_values",
    "C81_same_encoders",
    "C81_same_decoders",
    "C81_served"
   ],
   "note": ""
  },
  {
   "property": "C82",
   "status": "proved",
   "theorems": [
    "C82_consumer_hint",
    "C82_yielder_hint",
    "C82_crate_hints",
    "C82_producer_hint_refuted",
    "C82_producer_right_hint",
    "C82_producer_generated",
    "C82_consumer_generated",
    "C82_yielder_generated",
    "C82_crate_sizes",
    "C82_producer_every",
    "C82_consumer_every",
    "C82_crate_every",
    "C82_operations_every",
    "C82_operations_positive",
    "C82_invariant_refuted",
    "C82_invariant_noop"
   ],
   "note": "C82_producer_hint_refuted and C82_invariant_refuted are violations of the property by the code; the instances of the arbitrary crate used as witnesses follow its documentation."
  },
  {
   "property": "C83",
   "status": "proved",
   "theorems": [
    "C83_producer_eq",
    "C83_producer_into_data",
    "C83_producer_equivalence",
    "C83_producer_values_refuted",
    "C83_consumer_eq",
    "C83_consumer_equivalence"
   ],
   "note": "C83_producer_values_refuted is the disagreement with the documentation."
  },
  {
   "property": "C84",
   "status": "proved",
   "theorems": [
    "C84_compat_any_order",
    "C84_compat_buf_read_any_order",
    "C84_compat_block_on",
    "C84_compat_buf_read_block_on",
    "C84_compat_spawned",
    "C84_compat_buf_read_spawned",
    "C84_compat_debug",
    "C84_compat_buf_read_debug",
    "C84_buffered_reader_lawful",
    "C84_room_needed"
   ],
   "note": "The connection is a bounded queue of bytes that wakes the waiting end; waiting takes fuel (the parameter wait), which the schedule must not exceed. join!, block_on and BufReader are modelled from their documentation; their sources are not in the repository."
  },
  {
   "property": "C85",
   "status": "proved",
   "theorems": [
    "C85_limit_producer",
    "C85_limit_consumer",
    "C85_map_item",
    "C85_map_final",
    "C85_map_error",
    "C85_invariant_producer",
    "C85_invariant_consumer",
    "C85_bulk_methods",
    "C85_consume_slices",
    "C85_produce_slices",
    "C85_bounded_pipes",
    "C85_producer_scrambler",
    "C85_consumer_scrambler",
    "C85_endian_decode",
    "C85_endian_encode",
    "C85_waiting_limit_refuted",
    "C85_dropped_scrambler_refuted"
   ],
   "note": ""
  },
  {
   "property": "C86",
   "status": "proved",
   "theorems": [
    "C86_guard_producer",
    "C86_guard_consumer",
    "C86_pipe",
    "C86_pipe_at_most",
    "C86_bulk_pipe",
    "C86_bulk_pipe_at_most",
    "C86_default_is_honest",
    "C86_dishonest_refuted",
    "C86_slices",
    "C86_defaults",
    "C86_limit",
    "C86_map_final",
    "C86_map_error",
    "C86_invariant",
    "C86_map_item",
    "C86_producer_scrambler",
    "C86_consumer_scrambler",
    "C86_scrambler_slurp_refuted",
    "C86_merge",
    "C86_endian",
    "C86_encoders",
    "C86_decoders"
   ],
   "note": ""
  },
  {
   "property": "C87",
   "status": "proved",
   "theorems": [
    "C87_basics",
    "C87_lawful_producer",
    "C87_lawful_consumer",
    "C87_limit",
    "C87_map_final",
    "C87_invariant",
    "C87_map_item",
    "C87_as_buffered",
    "C87_map_error_refuted",
    "C87_producer_scrambler",
    "C87_scrambler_slurp_refuted",
    "C87_consumer_scrambler",
    "C87_scrambler_debug_refuted",
    "C87_towers",
    "C87_merge",
    "C87_pipes",
    "C87_defaults",
    "C87_honesty_needed",
    "C87_slices",
    "C87_endian",
    "C87_encoders",
    "C87_decoders"
   ],
   "note": ""
  },
  {
   "property": "C88",
   "status": "proved",
   "theorems": [
    "C88_equivalence",
    "C88_adaptors",
    "C88_scramblers",
    "C88_towers",
    "C88_merge",
    "C88_pipes",
    "C88_slices",
    "C88_endian",
    "C88_codecs",
    "C88_invariant",
    "C88_unchecked",
    "C88_invariant_refuted",
    "C88_map_final",
    "C88_limit",
    "C88_map_item",
    "C88_basics",
    "C88_scrambler_slurp_refuted",
    "C88_honesty_needed",
    "C88_default_needed",
    "C88_limit_0_refuted"
   ],
   "note": ""
  },
  {
   "property": "C89",
   "status": "proved",
   "theorems": [
    "C89_adaptors",
    "C89_towers",
    "C89_writer",
    "C89_encoders",
    "C89_async",
    "C89_pipes",
    "C89_shared_flush",
    "C89_shared_close_refuted"
   ],
   "note": "Closing a shared encoder violates the property (C89_shared_close_refuted); everything else satisfies it."
  },
  {
   "property": "C90",
   "status": "proved",
   "theorems": [
    "C90_pipe",
    "C90_pipe_at_most",
    "C90_bulk_pipe",
    "C90_bulk_pipe_at_most",
    "C90_consume_full_slice",
    "C90_bulk_consume_full_slice",
    "C90_overwrite_full_slice",
    "C90_bulk_overwrite_full_slice",
    "C90_consumer_towers",
    "C90_producer_towers",
    "C90_queues",
    "C90_reader_sidesteps",
    "C90_writer_sidesteps",
    "C90_buf_reader",
    "C90_queued_reader",
    "C90_queued_writer",
    "C90_encoder",
    "C90_decoder"
   ],
   "note": ""
  },
  {
   "property": "C91",
   "status": "proved",
   "theorems": [
    "C91_producer_scrambler",
    "C91_consumer_scrambler",
    "C91_consumer_waits",
    "C91_operations"
   ],
   "note": ""
  },
  {
   "property": "C92",
   "status": "proved",
   "theorems": [
    "C92_reader",
    "C92_buf_reader",
    "C92_codec_reader",
    "C92_codec_buf_reader"
   ],
   "note": "The two tasks are small programs of this development that call the modelled functions; the repository has no such program. The connection is that of C84."
  },
  {
   "property": "C93",
   "status": "proved",
   "theorems": [
    "C93_watching",
    "C93_producers",
    "C93_consumers",
    "C93_map_item",
    "C93_io",
    "C93_codecs",
    "C93_endian",
    "C93_pipes",
    "C93_slices",
    "C93_towers",
    "C93_merge",
    "C93_shared",
    "C93_shared_absolute",
    "C93_shared_refuted"
   ],
   "note": ""
  },
  {
   "property": "C94",
   "status": "proved",
   "theorems": [
    "C94_calm",
    "C94_basics",
    "C94_lawful_producer",
    "C94_lawful_consumer",
    "C94_limit",
    "C94_map_final",
    "C94_invariant",
    "C94_map_item",
    "C94_as_buffered",
    "C94_producer_scrambler",
    "C94_consumer_scrambler",
    "C94_towers",
    "C94_close_refuted",
    "C94_map_error_refuted",
    "C94_merge",
    "C94_pipes",
    "C94_defaults",
    "C94_slices",
    "C94_endian",
    "C94_encoders",
    "C94_decoders"
   ],
   "note": ""
  },
  {
   "property": "C95",
   "status": "proved",
   "theorems": [
    "C95_reader",
    "C95_buf_reader",
    "C95_writer",
    "C95_calm",
    "C95_writer_returns",
    "C95_lengths",
    "C95_copy",
    "C95_into_slice",
    "C95_boasting_refuted",
    "C95_no_room_refuted"
   ],
   "note": "Readers and writers are arbitrary; what they must not do is shown by refuted witnesses. C95_calm is the version without dropped futures."
  },
  {
   "property": "C96",
   "status": "proved",
   "theorems": [
    "C96_fixed_with_any_clone",
    "C96_static_with_any_clone",
    "C96_only_a_panicking_dequeue_loses_an_item",
    "C96_plain_clone_is_the_plain_model"
   ],
   "note": "CloneModel.v models the methods that clone a second time, with an arbitrary Clone that may panic; the remaining methods are those of QueueModel.v."
  },
  {
   "property": "C97",
   "status": "proved",
   "theorems": [
    "C97_consume_full_slice_clones_as_it_goes",
    "C97_bulk_consume_clones_once",
    "C97_bulk_consume_full_slice_clones_once",
    "C97_cases_exclude_each_other",
    "C97_from_slice_keeps_the_item",
    "C97_bulk_overwrite_full_slice_clones_once",
    "C97_pipe_clones_as_it_goes",
    "C97_bulk_pipe_clones_once",
    "C97_pipes_clone_alike",
    "C97_plain_clone_is_the_plain_model",
    "C97_plain_pipes_are_the_plain_model"
   ],
   "note": "The Clone of test code is still the identity (for the scramblers see C108 and C109, for TestProducer C110)."
  },
  {
   "property": "C98",
   "status": "proved",
   "theorems": [
    "C98_producer_tower_taken_apart",
    "C98_producer_goes_on",
    "C98_consumer_tower_taken_apart",
    "C98_nothing_lost_refuted",
    "C98_consumer_scrambler_refuted"
   ],
   "note": "Readers and writers give their queue back as well (C39, C40); what codec adaptors leave behind is in C48 to C50."
  },
  {
   "property": "C99",
   "status": "proved",
   "theorems": [
    "C99_absolute",
    "C99_canonic",
    "C99_relative",
    "C99_returns_iff",
    "C99_complete_vectors_refuted"
   ],
   "note": "What is read from the corpus does not change while the generator runs, and the corpus is not in the output directory."
  },
  {
   "property": "C100",
   "status": "proved",
   "theorems": [
    "C100_map_item_pipes",
    "C100_map_item_pipes_again",
    "C100_without_panics",
    "C100_map_final_produce",
    "C100_map_final_close",
    "C100_close_again_refuted",
    "C100_map_error",
    "C100_nothing_lost_refuted"
   ],
   "note": "A panic of a closure unwinds out of the adaptor and the pipe and is caught by their caller. The inner producer and consumer do not panic themselves."
  },
  {
   "property": "C101",
   "status": "proved",
   "theorems": [
    "C101_reaches",
    "C101_new_scramblers",
    "C101_scrambled_producer",
    "C101_replaced_producer",
    "C101_fetching_refuted",
    "C101_checked_producer",
    "C101_scrambled_consumer",
    "C101_checked_consumer",
    "C101_into_slice_views"
   ],
   "note": "What lies behind a mutable reference is given by the state the caller leaves there. Slots and items on display do not survive a change between the two ways; the scramblers are not asked to slurp between rounds, and the consumer scrambler is that of the release build (C31)."
  },
  {
   "property": "C102",
   "status": "proved",
   "theorems": [
    "C102_same_answers",
    "C102_refusal_panics",
    "C102_same_executions",
    "C102_constructors",
    "C102_capacity",
    "C102_resize",
    "C102_requests",
    "C102_saved_requests",
    "C102_boxed_slice",
    "C102_number_slices",
    "C102_one_allocation_refuted",
    "C102_fixed",
    "C102_fixed_default",
    "C102_try_new_refuted",
    "C102_fuzz_target"
   ],
   "note": "Items take up memory; capacities are counted in items. A refusal is a panic (it aborts the process in reality). What Vec does with its capacity is taken from the documentation of the standard library."
  },
  {
   "property": "C103",
   "status": "proved",
   "theorems": [
    "C103_unambiguous",
    "C103_producers_and_consumers",
    "C103_adaptors",
    "C103_values",
    "C103_fixed",
    "C103_static",
    "C103_fixed_tells",
    "C103_static_tells",
    "C103_producer_scrambler",
    "C103_consumer_scrambler",
    "C103_checks_invisible",
    "C103_tells",
    "C103_clear_types",
    "C103_clear_adaptors",
    "C103_map_item_tells_refuted",
    "C103_static_capacity_refuted",
    "C103_into_vec_items_refuted"
   ],
   "note": "The builders of core::fmt are modelled after their source. Writing does not fail, no other flags are set. Debug of items, final values and errors may be anything that prints a readable tree; user types that print unbalanced texts are not covered."
  },
  {
   "property": "C104",
   "status": "proved",
   "theorems": [
    "C104_partial_orders",
    "C104_total_orders",
    "C104_faithful",
    "C104_hash",
    "C104_parts",
    "C104_order",
    "C104_equalities",
    "C104_encodings",
    "C104_builds",
    "C104_builds_refuted"
   ],
   "note": "Hashers are modelled by the sequence of what is fed to them. Comparisons of inner types do not panic. Hash of slices: length, then items, like the standard library (which feeds the bytes of integer slices in one piece)."
  },
  {
   "property": "C105",
   "status": "proved",
   "theorems": [
    "C105_fair",
    "C105_stays_done",
    "C105_rounds",
    "C105_encoders",
    "C105_decoders",
    "C105_relative_decoders",
    "C105_one_task_refuted"
   ],
   "note": "The mutex of wb_async_utils is a lock that is granted to any waiting task when it is free. Fairness is a hypothesis about the executor."
  },
  {
   "property": "C106",
   "status": "proved",
   "theorems": [
    "C106_terminates",
    "C106_fair",
    "C106_any_time",
    "C106_starvation",
    "C106_starvation_refuted"
   ],
   "note": "In which order select polls depends on the version of the futures crate (first the first, or at random) and is decided by the schedule; probabilities are not modelled."
  },
  {
   "property": "C107",
   "status": "proved",
   "theorems": [
    "C107_contract",
    "C107_limit",
    "C107_limit_leaves_the_rest",
    "C107_adaptors",
    "C107_scrambler",
    "C107_map_item",
    "C107_buf_reader",
    "C107_reader",
    "C107_slices",
    "C107_pipe_for_ever",
    "C107_pipe_fails",
    "C107_pipe_at_most",
    "C107_decoder"
   ],
   "note": "MapError is left out: it panics on its second call whatever it wraps. The general contract of decoders quantifies over finite producers; over an endless one it applies behind a Limit (C107_limit), and directly for the fixed-width numbers (C107_decoder)."
  },
  {
   "property": "C108",
   "status": "proved",
   "theorems": [
    "C108_scrambler_with_any_clone",
    "C108_every_item_is_accounted_for",
    "C108_total_clone_loses_nothing",
    "C108_faithful_clone",
    "C108_plain_clone_is_the_plain_model"
   ],
   "note": "The wrapped producer may run the user's clone in produce (see C110), but not in its other methods; slurp is left out (see C29)."
  },
  {
   "property": "C109",
   "status": "proved",
   "theorems": [
    "C109_scrambler_with_any_clone",
    "C109_every_item_is_accounted_for",
    "C109_faithful_clone",
    "C109_tame_clone",
    "C109_plain_clone_is_the_plain_model"
   ],
   "note": "The wrapped consumer must not itself run the user's clone. Only without debug assertions: with them, consume on a full queue panics anyway (C30)."
  },
  {
   "property": "C110",
   "status": "proved",
   "theorems": [
    "C110_slice_with_any_clone",
    "C110_test_producer_with_any_clone",
    "C110_adaptors_keep_to_it",
    "C110_nothing_lost",
    "C110_limit_with_any_clone",
    "C110_limit_counts_panics",
    "C110_limit_refuted",
    "C110_scrambled_test_producer",
    "C110_pipe_again",
    "C110_plain_clone_is_the_plain_model"
   ],
   "note": "Slurp is left out (it runs no clone in these producers), and so is MapItem."
  },
  {
   "property": "C111",
   "status": "proved",
   "theorems": [
    "C111_into_vec_with_any_default",
    "C111_test_consumer_with_any_default",
    "C111_adaptors_keep_to_it",
    "C111_any_such_consumer",
    "C111_vector_holds_what_was_given",
    "C111_test_consumer_holds_what_was_given",
    "C111_limit_counts_panics",
    "C111_pipe_again",
    "C111_pipe_into_vec",
    "C111_limit_refuted",
    "C111_pipe_refuted",
    "C111_plain_default_is_the_plain_model"
   ],
   "note": "How many of the new values stay in the vector when resize_with unwinds is a parameter. The constructors of the queues, which also call default, have no state to leave behind. For lengths beyond the machine word see C75 and C78."
  },
  {
   "property": "C112",
   "status": "proved",
   "theorems": [
    "C112_invariant_producer",
    "C112_invariant_consumer",
    "C112_map_final_producer",
    "C112_map_final_consumer",
    "C112_map_error_producer",
    "C112_map_error_consumer",
    "C112_map_item",
    "C112_limit_producer",
    "C112_limit_consumer",
    "C112_pipe",
    "C112_pipe_again",
    "C112_bulk_pipe",
    "C112_calm",
    "C112_close_again_refuted",
    "C112_bulk_pipe_again_refuted"
   ],
   "note": "The functions given to MapItem, MapFinal and MapError do not panic here (for those see C100). The readers and writers and the codecs are not covered; for the scramblers see C113."
  },
  {
   "property": "C113",
   "status": "proved",
   "theorems": [
    "C113_producer",
    "C113_consumer",
    "C113_calm",
    "C113_once_refuted",
    "C113_one_lost_refuted"
   ],
   "note": "A run may also not end (if the inner producer exposes empty slices for ever, say); the theorems then say nothing. Cloning does not panic here (for clones see C108 and C109). With debug assertions the consumer panics by itself when its buffer overflows (C31)."
  }
 ]
}