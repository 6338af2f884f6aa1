{
 "claims": [
  {
   "property": "C01",
   "status": "proved",
   "theorems": [
    "C01_no_overlap",
    "C01_no_undefined_behaviour",
    "C01_non_power_of_two_segment_refuted"
   ],
   "note": "Proved for every history when the first segment is a power of two and min_order<=29; refuted (witness) for other accepted first-segment sizes."
  },
  {
   "property": "C02",
   "status": "proved",
   "theorems": [
    "C02_conservation",
    "C02_full_coalescing"
   ],
   "note": "Conservation at every reachable state and full coalescing once nothing is held (in use or object-cached)."
  },
  {
   "property": "C03",
   "status": "partial",
   "theorems": [
    "C03_alloc_terminates",
    "C03_oversized_request_refuted",
    "C03_oversized_never_served"
   ],
   "note": "Proved for requests up to 512 MB; refuted above (request never answered). Backend out-of-memory is a distinct outcome (NullSegment), see DESIGN."
  },
  {
   "property": "C04",
   "status": "partial",
   "theorems": [
    "C04_cached_blocks_idle",
    "C04_reuse_power_of_two",
    "C04_reuse_refuted"
   ],
   "note": "Idleness and size proved for all histories; reuse proved for power-of-two sizes and refuted otherwise."
  },
  {
   "property": "C05",
   "status": "partial",
   "theorems": [
    "C05_match_is_stored_partial",
    "C05_match_sizes",
    "C05_child_order_irrelevant",
    "C05_false_match_refuted"
   ],
   "note": "Proved for histories and queries that part cleanly (the parting token does not reappear later in the stored sequence); refuted in general."
  },
  {
   "property": "C06",
   "status": "partial",
   "theorems": [
    "C06_longest_partial",
    "C06_addresses_partial",
    "C06_wrong_addresses_refuted"
   ],
   "note": "Longest match and addresses proved for the clean class; refuted in general (wrong addresses)."
  },
  {
   "property": "C07",
   "status": "proved",
   "theorems": [
    "C07_fields_round_trip",
    "C07_addresses_injective"
   ],
   "note": "All field widths with page_bits+lane_bits<=32 handled by the code."
  },
  {
   "property": "C08",
   "status": "partial",
   "theorems": [
    "C08_distinct_first_page_partial",
    "C08_distinct_when_no_pages",
    "C08_no_leak_first_page_partial",
    "C08_double_allocation_refuted",
    "C08_file_blob_refuted",
    "C08_small_geometry_refuted"
   ],
   "note": "Distinctness proved while every blob has only its first page; refuted in general by a concrete history (free clears a bit of the wrong page), for file blobs and for tiny geometries."
  },
  {
   "property": "C09",
   "status": "partial",
   "theorems": [
    "C09_access_ranges",
    "C09_blob_large_enough",
    "C09_hints_refuted",
    "C09_hints_first_page_partial"
   ],
   "note": "Access ranges disjoint and inside the blob proved for all addresses; the hint ranges are refuted beyond page 0 and proved on page 0."
  },
  {
   "property": "C10",
   "status": "partial",
   "theorems": [
    "C10_tlb_is_a_map",
    "C10_held_lane_mapped_partial",
    "C10_held_lane_unmapped_refuted"
   ],
   "note": "The TLB is proved to be a map for every history; that held lanes stay mapped is proved for the first-page class and refuted in general."
  },
  {
   "property": "C11",
   "status": "partial",
   "theorems": [
    "C11_save_load_partial",
    "C11_long_name_refuted",
    "C11_colliding_names_refuted",
    "C11_view_refuted"
   ],
   "note": "Round trip proved for every store the format can represent (both readers, every iteration order); refuted for names over 255 bytes and for views."
  },
  {
   "property": "C12",
   "status": "partial",
   "theorems": [
    "C12_save_load_partial",
    "C12_unnamed_tensor_refuted",
    "C12_large_tensor_refuted"
   ],
   "note": "Round trip of names, types, bytes proved when tensors carry their names and have < 2^31 elements; refuted otherwise (unnamed tensors, large tensors)."
  },
  {
   "property": "C13",
   "status": "partial",
   "theorems": [
    "C13_v2_sections",
    "C13_v1_sections_partial",
    "C13_v1_sections_refuted"
   ],
   "note": "V2: proved for every store that can be written. V1: proved for savable stores, refuted when storage names differ from keys."
  },
  {
   "property": "C14",
   "status": "proved",
   "theorems": [
    "C14_fresh_layout",
    "C14_write_one_element",
    "C14_rank_refuted"
   ],
   "note": "All shapes of 1..16 dimensions; other ranks are shown to be undefined behaviour (C14_rank_refuted)."
  },
  {
   "property": "C15",
   "status": "partial",
   "theorems": [
    "C15_slice_selects",
    "C15_slice_writes_through",
    "C15_out_of_range_refuted",
    "C15_negative_index_refuted"
   ],
   "note": "Proved for all in-range slices of all tensors; refuted for out-of-range bounds, which are accepted."
  },
  {
   "property": "C16",
   "status": "partial",
   "theorems": [
    "C16_view_keeps_elements",
    "C16_view_accepts",
    "C16_unsqueeze",
    "C16_squeeze",
    "C16_flatten",
    "C16_reshape_uninitialised_refuted",
    "C16_reshape_negative_refuted"
   ],
   "note": "view/unsqueeze/squeeze/flatten proved; reshape refuted (CPU reshape never writes its output, accepts negative extents)."
  },
  {
   "property": "C17",
   "status": "partial",
   "theorems": [
    "C17_split_partitions",
    "C17_concat_places",
    "C17_split_then_concat",
    "C17_negative_sections_refuted",
    "C17_concat_type_refuted"
   ],
   "note": "Proved for positive sections and fp32/fp16 concat of any layouts; refuted for non-positive sections and for concat of other types."
  },
  {
   "property": "C18",
   "status": "partial",
   "theorems": [
    "C18_permute_partial",
    "C18_permute_inverse",
    "C18_transpose_partial",
    "C18_transpose_twice",
    "C18_transpose_batch_refuted",
    "C18_noncontiguous_refuted"
   ],
   "note": "Proved for contiguous inputs (SSE kernels included), inverse and twice; refuted for non-contiguous inputs and for transposing dimensions 0,1 of rank>2."
  },
  {
   "property": "C19",
   "status": "partial",
   "theorems": [
    "C19_history_partial",
    "C19_update_returns",
    "C19_capacity_refuted",
    "C19_set_forward_refuted",
    "C19_short_values_refuted",
    "C19_uneven_heads_refuted",
    "C19_write_window",
    "C19_window_refuted"
   ],
   "note": "History, truncation and returned tensors proved for all sequences within capacity (and the flash-attention write window); refuted: over-capacity updates always write outside the storage, setting the counter forward, short values, uneven head counts."
  },
  {
   "property": "C20",
   "status": "partial",
   "theorems": [
    "C20_history_partial",
    "C20_noncontiguous_refuted"
   ],
   "note": "All histories of contiguous (or unrepeated) fp32/fp16 inputs, any batch; refuted for non-contiguous inputs."
  },
  {
   "property": "C21",
   "status": "partial",
   "theorems": [
    "C21_pieces_make_the_text",
    "C21_special_tokens_isolated_partial",
    "C21_is_special",
    "C21_overlapping_tokens_refuted",
    "C21_token_cut_refuted",
    "C21_qwen3_tokens_unambiguous"
   ],
   "note": "Concatenation and non-emptiness proved for every token set and text; isolation of special tokens proved for token sets that cannot overlap (shown to include the Qwen3 set) and refuted for overlapping ones."
  },
  {
   "property": "C22",
   "status": "proved",
   "theorems": [
    "C22_encode",
    "C22_result_unique",
    "C22_order_irrelevant",
    "C22_empty_word"
   ],
   "note": "All merge lists (fewer than 2^63 entries) and non-empty words, any hash order; the result is characterised uniquely."
  },
  {
   "property": "C23",
   "status": "proved",
   "theorems": [
    "C23_encode",
    "C23_decode",
    "C23_round_trip",
    "C23_round_trip_bytes",
    "C23_decoder_total",
    "C23_encode_injective",
    "C23_cut_character_refuted",
    "C23_ill_formed_refuted"
   ],
   "note": "All code points and all byte strings; what happens to ill-formed input is stated in the _refuted theorems."
  },
  {
   "property": "C24",
   "status": "proved",
   "theorems": [
    "C24_total",
    "C24_injective",
    "C24_inverse",
    "C24_printable"
   ],
   "note": "All 256 bytes, any iteration order of the map."
  },
  {
   "property": "C25",
   "status": "partial",
   "theorems": [
    "C25_print_parse_partial",
    "C25_same_expression",
    "C25_float_constant",
    "C25_negative_constant_refuted",
    "C25_exponent_refuted"
   ],
   "note": "Proved for all expressions with non-negative integer constants and float constants whose printed text reads back (any float arithmetic); refuted for negative constants and floats printed with an exponent."
  },
  {
   "property": "C26",
   "status": "partial",
   "theorems": [
    "C26_usual_reading_partial",
    "C26_accepted",
    "C26_tree",
    "C26_three_factors_refuted",
    "C26_usual_reading_refuted",
    "C26_mod_refuted"
   ],
   "note": "Every text of the grammar is accepted and its tree characterised exactly; it is the usual one without % and with at most two factors behind + or -; refuted otherwise."
  },
  {
   "property": "C27",
   "status": "partial",
   "theorems": [
    "C27_exactly_once_partial",
    "C27_quiet_after_return",
    "C27_plan",
    "C27_plan_exists",
    "C27_uneven_step_refuted",
    "C27_no_threads_refuted",
    "C27_counting_down_refuted",
    "C27_shared_slot_refuted",
    "C27_exclusive_slots_no_race"
   ],
   "note": "Proved for every interleaving of workers and callers, one caller per slot, step dividing the length (or serial execution); refuted: uneven step writes outside the index vector, 0 threads, counting down, two callers sharing a slot."
  },
  {
   "property": "C28",
   "status": "partial",
   "theorems": [
    "C28_fifo_exactly_once",
    "C28_nothing_only_after_shutdown_and_drain",
    "C28_drains",
    "C28_no_lost_wakeup",
    "C28_comes_to_rest",
    "C28_service_nothing_lost",
    "C28_service_in_order",
    "C28_service_all_handled_partial",
    "C28_service_comes_to_rest",
    "C28_stop_drops_requests_refuted"
   ],
   "note": "Queue: proved for all interleavings of any number of threads, with no lost wake-up and termination of all internal steps. Workers: everything is handled once and, before stop, all of it; refuted: stop leaves queued requests unhandled."
  },
  {
   "property": "C29",
   "status": "partial",
   "theorems": [
    "C29_per_id_fifo",
    "C29_nothing_only_after_shutdown",
    "C29_no_leak",
    "C29_no_lost_wakeup_partial",
    "C29_shutdown_wakes_all",
    "C29_lost_wakeup_refuted",
    "C29_shutdown_drops_responses_refuted"
   ],
   "note": "Per-id order, exactly once, no leak proved for all interleavings; wake-up proved when concurrent readers ask for one id and refuted for readers of different ids; responses unread at shutdown are refuted to stay available."
  },
  {
   "property": "C30",
   "status": "partial",
   "theorems": [
    "C30_stream",
    "C30_returns",
    "C30_generate_partial",
    "C30_chat",
    "C30_generate_after_free_refuted",
    "C30_mode"
   ],
   "note": "Streaming and chat proved for every model, sampler, limit and end token; generate proved equal to streaming for greedy decoding; refuted: generate with a sampling mode uses the logits after the sampler freed them."
  },
  {
   "property": "C31",
   "status": "partial",
   "theorems": [
    "C31_greedy",
    "C31_greedy_nan_refuted",
    "C31_rank",
    "C31_top_k_partial",
    "C31_top_k_too_large_refuted",
    "C31_top_p_partial",
    "C31_categorical_partial",
    "C31_categorical_out_of_range_refuted",
    "C31_sampling_uses_deleted_tensor_refuted",
    "C31_sampling_with_working_delete"
   ],
   "note": "Greedy proved for all logits of rank 3 with dense last dimension and no NaN; top-k, top-p, categorical: the choice of the id is proved, temperature scaling and softmax are arbitrary functions; refuted: NaN, k above the vocabulary size, categorical draw above the last partial sum, delete_ dereferences a reset handle."
  },
  {
   "property": "C32",
   "status": "proved",
   "theorems": [
    "C32_keeps_exactly_the_window",
    "C32_releases_exactly_outside",
    "C32_evict_again_releases_nothing",
    "C32_never_released_twice",
    "C32_released_never_found"
   ],
   "note": "All histories, windows, layers."
  },
  {
   "property": "C33",
   "status": "partial",
   "theorems": [
    "C33_recover_forgets_lanes_refuted"
   ],
   "note": "Refuted: recover rebuilds bitmaps as all free. Full statement is false of the code."
  },
  {
   "property": "C34",
   "status": "partial",
   "theorems": [
    "C34_wrong_magic_rejected",
    "C34_truncated_file_refuted"
   ],
   "note": "Wrong magic is refused (all files); truncated files are refuted (both formats, both readers)."
  },
  {
   "property": "C35",
   "status": "partial",
   "theorems": [
    "C35_block_sizes_partial",
    "C35_block_sizes_refuted"
   ],
   "note": "Proved for all declared types but five; refuted for those five."
  },
  {
   "property": "C36",
   "status": "proved",
   "theorems": [
    "C36_push_pull",
    "C36_push_duplicate_rejected",
    "C36_remove",
    "C36_order_irrelevant"
   ],
   "note": "All stores, names, tensors."
  },
  {
   "property": "C37",
   "status": "partial",
   "theorems": [
    "C37_contiguous_partial",
    "C37_contiguous_square_stride_refuted",
    "C37_clone_partial",
    "C37_clone_view_refuted",
    "C37_copy2_partial"
   ],
   "note": "contiguous proved unless every stride is the square of the next; clone/copy2 proved for tensors owning their storage; refuted otherwise."
  },
  {
   "property": "C38",
   "status": "partial",
   "theorems": [
    "C38_stack_places",
    "C38_repeat_partial",
    "C38_repeat_noncontiguous_refuted"
   ],
   "note": "stack proved for all layouts, repeat for contiguous inputs; repeat of non-contiguous inputs refuted."
  },
  {
   "property": "C39",
   "status": "proved",
   "theorems": [
    "C39_history",
    "C39_set_count_refuted"
   ],
   "note": "All histories of the parent and of the sub-cache; setCurrentSeqCnt on a sub-cache is shown to be a silent no-op."
  },
  {
   "property": "C40",
   "status": "partial",
   "theorems": [
    "C40_pretokenize",
    "C40_tokenize",
    "C40_ids_partial",
    "C40_detokenize_refuted",
    "C40_unknown_token_refuted"
   ],
   "note": "Pre-tokenization, tokenization and byte-level id round trip proved; decoding token by token and unknown tokens refuted."
  },
  {
   "property": "C41",
   "status": "partial",
   "theorems": [
    "C41_pattern_partial",
    "C41_pattern_refuted"
   ],
   "note": "Proved away from upper-case contractions and runs of white space; refuted there."
  },
  {
   "property": "C42",
   "status": "partial",
   "theorems": [
    "C42_unclosed_refuted",
    "C42_dropped_operand_refuted"
   ],
   "note": "Every well-formed text is parsed (C26_accepted); refuted: an unclosed parenthesis loops forever, adjacent operands are dropped."
  },
  {
   "property": "C43",
   "status": "partial",
   "theorems": [
    "C43_value_of_variables",
    "C43_value",
    "C43_static",
    "C43_static_value",
    "C43_missing_variable_refuted"
   ],
   "note": "Proved for all expressions; refuted: a missing variable is undefined behaviour."
  },
  {
   "property": "C44",
   "status": "partial",
   "theorems": [
    "C44_no_deadlock_partial",
    "C44_idle_blocks_refuted"
   ],
   "note": "No deadlock in any reachable state while the pool stays active; refuted when the pool is put to rest while a loop starts. Completion is stated as possibility, not under a fairness assumption."
  },
  {
   "property": "C45",
   "status": "proved",
   "theorems": [
    "C45_one_holder",
    "C45_fails_only_when_full"
   ],
   "note": "All histories of acquire and release."
  },
  {
   "property": "C46",
   "status": "partial",
   "theorems": [
    "C46_answered_partial",
    "C46_register",
    "C46_none_session",
    "C46_no_model_refuted",
    "C46_unknown_model_refuted",
    "C46_no_response_refuted",
    "C46_shutdown_reply_refuted"
   ],
   "note": "Proved for requests naming a registered session; refuted: no model, unknown model, model not a string, reply after shutdown."
  },
  {
   "property": "C47",
   "status": "partial",
   "theorems": [
    "C47_result_shape",
    "C47_elementwise_partial",
    "C47_left_operand_refuted",
    "C47_column_plus_row_refuted",
    "C47_two_dimensions_refuted",
    "C47_integer_repeat_refuted",
    "C47_no_kernel_refuted",
    "C47_noncontiguous_refuted"
   ],
   "note": "Shape rule proved (both directions); elements proved for contiguous operands with equal extents, one repeated dimension on the right (fp32) or a one-element right operand, any vector width; refuted: left operand repeated, column plus row, two repeated dimensions, integer repeat, fp16 on x86, non-contiguous operands."
  },
  {
   "property": "C48",
   "status": "partial",
   "theorems": [
    "C48_index_partial",
    "C48_out_of_range_refuted",
    "C48_index_matrix_refuted",
    "C48_only_slices_refuted"
   ],
   "note": "Proved for contiguous tensors and in-range slices, lists and rank-1 index tensors; refuted: out-of-range positions, index tensors of rank 2, slices only."
  },
  {
   "property": "C49",
   "status": "partial",
   "theorems": [
    "C49_gather_partial",
    "C49_gather_out_of_range_refuted",
    "C49_embedding_partial",
    "C49_embedding_unchecked_refuted"
   ],
   "note": "Gather completely characterised for contiguous inputs (out-of-range indices leave memory unwritten); embedding proved for ids in the table and shown to be undefined behaviour for any other id."
  },
  {
   "property": "C50",
   "status": "partial",
   "theorems": [
    "C50_pad_partial",
    "C50_noncontiguous_refuted"
   ],
   "note": "All four modes, contiguous input; refuted for non-contiguous input."
  },
  {
   "property": "C51",
   "status": "partial",
   "theorems": [
    "C51_argsort_partial",
    "C51_topk_partial",
    "C51_topk_bounds_refuted"
   ],
   "note": "Proved for all lanes of contiguous tensors under the contracts of std::sort and std::priority_queue; refuted: k = 0 or above the extent is undefined behaviour."
  },
  {
   "property": "C52",
   "status": "partial",
   "theorems": [
    "C52_causal_mask_partial",
    "C52_causal_mask_half_partial",
    "C52_causal_window_partial",
    "C52_half_cache_refuted",
    "C52_window_cache_refuted",
    "C52_window_decode_refuted",
    "C52_few_keys_refuted"
   ],
   "note": "fp32 without window proved for all S-1 <= D; fp16 and windows for square scores; refuted for keys from a cache, windows while decoding, and fewer keys than queries minus one."
  },
  {
   "property": "C53",
   "status": "partial",
   "theorems": [
    "C53_masked_scatter_partial",
    "C53_source_order_refuted"
   ],
   "note": "Which elements change and their value by index proved for all broadcastable contiguous inputs; refuted: the source is not consumed in order."
  },
  {
   "property": "C54",
   "status": "partial",
   "theorems": [
    "C54_sum_partial",
    "C54_sum_all_partial",
    "C54_rank_one_refuted",
    "C54_arm_int_partial",
    "C54_arm_int32_partial",
    "C54_arm_int_all_partial",
    "C54_arm_real_partial",
    "C54_arm_real_all_partial"
   ],
   "note": "Proved in every commutative monoid for every vector width (x86 fp32 kernel), and for the ARM kernel over reals and over 8-, 16- and 32-bit integers (modulo 2^bits; int32 if no partial sum overflows); refuted: rank-1 input with the dimension dropped."
  },
  {
   "property": "C55",
   "status": "partial",
   "theorems": [
    "C55_matmul_partial",
    "C55_threads_apart",
    "C55_mismatch_refused",
    "C55_transposed_batch_refuted",
    "C55_empty_inner_refuted",
    "C55_batch_shapes_refuted",
    "C55_noncontiguous_refuted"
   ],
   "note": "Proved for all sizes, kernels and thread counts on AVX2, AVX-512 and NEON in every commutative monoid; thread disjointness proved for the packed product; refuted: right operand's batch ignored in one case, empty inner extent, batches of different shape, strides ignored."
  },
  {
   "property": "C56",
   "status": "partial",
   "theorems": [
    "C56_linear_partial",
    "C56_few_channels_refuted"
   ],
   "note": "Proved on ARM for every channel count and on x86 for at least 4 input channels; with fewer the output is unwritten on x86 (refuted)."
  },
  {
   "property": "C57",
   "status": "partial",
   "theorems": [
    "C57_flash_attention",
    "C57_mismatch_refused",
    "C57_average",
    "C57_causal",
    "C57_too_many_queries_refuted",
    "C57_uneven_heads_refuted",
    "C57_strides_refuted"
   ],
   "note": "Over the real numbers: proved for contiguous inputs with S_Q <= S_KV and H_Q a multiple of H_KV, both architectures, every head schedule; refuted: more queries than keys give non-numbers, uneven heads are out of bounds, strides of keys and values are ignored."
  },
  {
   "property": "C58",
   "status": "proved",
   "theorems": [
    "C58_incremental"
   ],
   "note": "Over the real numbers, for every split point; for the inputs C57 covers."
  },
  {
   "property": "C59",
   "status": "partial",
   "theorems": [
    "C59_radix_attention_partial",
    "C59_radix_relax_partial",
    "C59_x86_refuted",
    "C59_options_refuted"
   ],
   "note": "Proved on ARM for every address list, also with different widths; refuted on x86, where the primitives are empty and the output is never written, and for uneven heads or an option B below the batch."
  },
  {
   "property": "C60",
   "status": "partial",
   "theorems": [
    "C60_prefill_partial",
    "C60_decode_partial",
    "C60_flash_prompt",
    "C60_flash_decode",
    "C60_window_refuted",
    "C60_future_refuted",
    "C60_append_refuted"
   ],
   "note": "Exact window proved for ARM prefill and decode and for flash attention with sinks (whole prompt, decode); refuted: prefill's window is one token wider than decode's, a query sees a later token when several queries meet a full window, append writes nothing, sinks cannot be left out."
  },
  {
   "property": "C61",
   "status": "partial",
   "theorems": [
    "C61_softmax_partial",
    "C61_short_rows",
    "C61_other_axis_refuted",
    "C61_equal_inputs_refuted"
   ],
   "note": "Over the real numbers, contiguous inputs, last axis: positive, sums to 1, absolute and relative error bounds, schedule independent, exact up to 16 numbers; refuted: other axes stop the program, equal inputs differ by 2 percent on x86."
  },
  {
   "property": "C62",
   "status": "partial",
   "theorems": [
    "C62_rmsnorm_partial",
    "C62_inplace_partial",
    "C62_mean_square",
    "C62_misaligned_refuted",
    "C62_weight_refuted",
    "C62_zero_row_refuted"
   ],
   "note": "Over the real numbers, contiguous inputs: fresh and in place, both architectures, every schedule; refuted: misaligned rows on x86, short weights are read past their end, a zero row with eps = 0 gives no numbers."
  },
  {
   "property": "C63",
   "status": "partial",
   "theorems": [
    "C63_layernorm_partial",
    "C63_moments",
    "C63_x86_refuted",
    "C63_refuses",
    "C63_shape_refuted"
   ],
   "note": "Over the real numbers: proved on ARM for every shape; mismatching sizes refused; refuted: nothing is written on x86, a normalised shape of the right size that is no suffix is accepted."
  },
  {
   "property": "C64",
   "status": "partial",
   "theorems": [
    "C64_arm_partial",
    "C64_relu",
    "C64_silu_partial",
    "C64_x86_nothing_refuted",
    "C64_sigmoid_inplace_refuted",
    "C64_x86_sigmoid_refuted"
   ],
   "note": "Over the real numbers: proved on ARM for all four functions and all real inputs, SiLU on x86 and in place; refuted: ReLU and quick GELU write nothing on x86, sigmoid on x86 is constant below -11.5, an in-place sigmoid loses its input."
  },
  {
   "property": "C65",
   "status": "partial",
   "theorems": [
    "C65_rope",
    "C65_rope_inplace",
    "C65_frequencies",
    "C65_tables",
    "C65_positions",
    "C65_relative",
    "C65_isometry",
    "C65_origin",
    "C65_shift",
    "C65_shared_tables_refuted",
    "C65_partial_too_large_refuted",
    "C65_flat_tables_refuted"
   ],
   "note": "Over the real numbers, fp32 kernels: operator, in place, tables, end to end, shift invariance, isometry; refuted: tables are not broadcast over the batch and not checked, a partial dimension beyond the row is accepted, two-dimensional tables as documented abort."
  },
  {
   "property": "C66",
   "status": "partial",
   "theorems": [
    "C66_q8_0_roundtrip_partial",
    "C66_q4_0_block_partial",
    "C66_q8_K_block_partial",
    "C66_i8_partial",
    "C66_i8_saturates_partial",
    "C66_i8_row_partial",
    "C66_tiny_block_refuted",
    "C66_large_block_refuted",
    "C66_i8_reference_refuted"
   ],
   "note": "Rounded binary32/binary16 arithmetic (Flocq). Q8_0 round trip of rows for all three implementations; Q4_0, Q8_K blocks; int8 on NEON. Refuted: tiny blocks in the portable code, scales beyond half precision, the portable int8 quantizer is out of bounds. Missing: inputs that are infinities or NaNs."
  },
  {
   "property": "C67",
   "status": "partial",
   "theorems": [
    "C67_integer_product",
    "C67_row_product_partial",
    "C67_arm_even_partial",
    "C67_arm_odd_refuted",
    "C67_mmla_refuted",
    "C67_minus_128_refuted"
   ],
   "note": "Integer part exact; the sum over blocks is over the real numbers. Refuted: odd numbers of blocks on ARM, the matrix-multiply kernel stores two floats, the byte -128 on x86."
  },
  {
   "property": "C68",
   "status": "partial",
   "theorems": [
    "C68_linear_quantized_partial",
    "C68_input_error",
    "C68_embedding_q4_0_partial",
    "C68_embedding_negative_refuted"
   ],
   "note": "Real sums over blocks; the llamafile path of ggml::mat_mul, contiguous inputs, channels a multiple of 32, every thread count. Not covered: the interleaved gemv/gemm path. Refuted: a negative token leaves the embedding row unwritten."
  },
  {
   "property": "C69",
   "status": "partial",
   "theorems": [
    "C69_compiled_run_partial",
    "C69_view_refuted",
    "C69_split_refuted",
    "C69_same_layer_name_refuted",
    "C69_captured_buffer_refuted",
    "C69_constant_result_refuted"
   ],
   "note": "Without the memory solver, abstract kernels, distinct instance names each called once, layer names standing for one operator, every tensor read before a newer one on its storage is made. Refuted: a source read after its view, parts of a split, two layers of one name, captured buffers, results that are constants."
  },
  {
   "property": "C70",
   "status": "partial",
   "theorems": [
    "C70_memory_solver_partial",
    "C70_result_read_refuted",
    "C70_view_result_refuted",
    "C70_second_run_refuted"
   ],
   "note": "If no operator reads a result (and for more than one run: no operator reads a constant). Refuted: results that are read or are views, second run with a constant."
  },
  {
   "property": "C71",
   "status": "partial",
   "theorems": [
    "C71_graph_names_partial",
    "C71_shared_names_partial",
    "C71_numbered_name_refuted",
    "C71_third_call_refuted"
   ],
   "note": "Each instance called once, names either distinct or shared without one being a numbered version of another. Refuted: the third call of an instance gets the name of the second and compiling aborts."
  },
  {
   "property": "C72",
   "status": "partial",
   "theorems": [
    "C72_compile_defined_refuted"
   ],
   "note": "Refuted for every module: the first operator of the empty deinit graph is read; with that read harmless, compiling succeeds under the conditions of C69."
  },
  {
   "property": "C73",
   "status": "proved",
   "theorems": [
    "C73_tensors_apart",
    "C73_contents_kept",
    "C73_alloc_answered"
   ],
   "note": "All histories, configurations and malloc answers; allocation is answered while the threshold for large tensors is at most 512 MB (default 128 MB)."
  },
  {
   "property": "C74",
   "status": "partial",
   "theorems": [
    "C74_release_defined",
    "C74_books",
    "C74_no_leak",
    "C74_clear_defined",
    "C74_second_alloc_refuted"
   ],
   "note": "Release defined for every history except large tensors without memory (C75); books and no leak when alloc is called once per tensor; refuted: a second alloc of a large tensor loses the first block, of a small one exits."
  },
  {
   "property": "C75",
   "status": "partial",
   "theorems": [
    "C75_unallocated_large_refuted",
    "C75_failed_alloc_refuted",
    "C75_unallocated_small_partial"
   ],
   "note": "Proved for small tensors; refuted for tensors of 128 MB and more, also after an allocation malloc could not satisfy."
  },
  {
   "property": "C76",
   "status": "partial",
   "theorems": [
    "C76_conv1d_partial",
    "C76_textbook",
    "C76_refused",
    "C76_short_input_refuted"
   ],
   "note": "fp32, contiguous inputs, exact integer extents; weight and bias of the declared shapes (the code does not check them); refuted: an input shorter than the kernel by less than the stride yields a spurious output; strides of the input are ignored."
  },
  {
   "property": "C77",
   "status": "partial",
   "theorems": [
    "C77_conv2d_partial",
    "C77_x86_refused"
   ],
   "note": "ARM without BLAS, fp32, contiguous input; addition associative and commutative, multiplication commutative; on x86 loading the layer exits (proved)."
  },
  {
   "property": "C78",
   "status": "partial",
   "theorems": [
    "C78_conv3d_partial",
    "C78_x86_refuted"
   ],
   "note": "ARM, fp32, contiguous input; nothing assumed of the arithmetic; refuted on x86 (result never written) and for kernels that do not fit (out-of-bounds read)."
  },
  {
   "property": "C79",
   "status": "partial",
   "theorems": [
    "C79_avgpool1d_partial",
    "C79_extent",
    "C79_empty_window_refuted"
   ],
   "note": "fp32, contiguous inputs, ceil of an exact quotient; refuted: with ceil_mode a window may contain no element and yields 0."
  },
  {
   "property": "C80",
   "status": "proved",
   "theorems": [
    "C80_names",
    "C80_unique",
    "C80_plain_names",
    "C80_module_list"
   ],
   "note": "Param layers are assumed to be given the name of their registration (the code lets them choose any)."
  },
  {
   "property": "C81",
   "status": "partial",
   "theorems": [
    "C81_load_partial",
    "C81_missing",
    "C81_reload",
    "C81_layernorm_refuted"
   ],
   "note": "CPU operators; layers that pack their weights at load excluded; Conv1D with 0 groups excluded; refuted: a LayerNorm without affine parameters lists a nil weight in params(); a Linear with a quantised implementation never loads its bias; siblings whose names contain dots can clash and params() exits."
  },
  {
   "property": "C82",
   "status": "partial",
   "theorems": [
    "C82_depth_partial",
    "C82_sequential_refuted",
    "C82_late_refuted"
   ],
   "note": "Sequentials registered directly in a module; refuted: a standalone Sequential counts one level too many; a child registered after its module got a parent is placed at depth 1."
  },
  {
   "property": "C83",
   "status": "partial",
   "theorems": [
    "C83_host_partial"
   ],
   "note": "towards the CPU or a device that leaves weights on the host; refuted: coming back from a device holding the weights leaves operators and weights there."
  },
  {
   "property": "C84",
   "status": "proved",
   "theorems": [
    "C84_sequential"
   ],
   "note": ""
  },
  {
   "property": "C85",
   "status": "proved",
   "theorems": [
    "C85_decode",
    "C85_encode",
    "C85_exact",
    "C85_no_scalar",
    "C85_search"
   ],
   "note": ""
  },
  {
   "property": "C86",
   "status": "partial",
   "theorems": [
    "C86_greedy",
    "C86_long",
    "C86_unique",
    "C86_pieces",
    "C86_vocab_file",
    "C86_max_refuted"
   ],
   "note": "refuted: the maximal length counts bytes, not characters (proved for the byte count)."
  },
  {
   "property": "C87",
   "status": "partial",
   "theorems": [
    "C87_words",
    "C87_segments",
    "C87_plain",
    "C87_word_shape",
    "C87_invalid",
    "C87_order",
    "C87_order_refuted",
    "C87_empty_special_refuted",
    "C87_special_lost_refuted"
   ],
   "note": "strip_accents does nothing in the code; refuted: with one special token the beginning of another the result depends on the hash order; an empty special token makes the search endless; special tokens with ideographs, tabs or control characters are never found."
  },
  {
   "property": "C88",
   "status": "partial",
   "theorems": [
    "C88_round_trip_partial",
    "C88_text_refuted",
    "C88_types",
    "C88_types_single",
    "C88_types_refuted"
   ],
   "note": "texts without special tokens whose words all have a segmentation; refuted: the exact text does not come back; token types of a pair with an empty second sequence are one too short."
  },
  {
   "property": "C89",
   "status": "partial",
   "theorems": [
    "C89_bpe",
    "C89_detokenize",
    "C89_round_trip",
    "C89_ids",
    "C89_tokens_unambiguous",
    "C89_special_refuted",
    "C89_mark_refuted",
    "C89_unknown_refuted"
   ],
   "note": "texts without U+2581; refuted: a space appears before plain text behind a special token; U+2581 becomes a space; unknown characters all get id 0."
  },
  {
   "property": "C90",
   "status": "partial",
   "theorems": [
    "C90_cache_is_invisible_partial",
    "C90_cached_prompt_refuted",
    "C90_one_new_token_refuted",
    "C90_one_token_prompt_refuted",
    "C90_other_conversation_refuted",
    "C90_no_tokens_refuted"
   ],
   "note": "sessions whose requests ask for at least one token, have at least two tokens that are not cached, and part cleanly (C05) from the cached sequences, with equal end tokens; refuted otherwise: a completely cached prompt reads before an empty tensor, a single new token is put one position too far, a false match answers from another conversation, max_length 0 caches a prompt that was never computed."
  },
  {
   "property": "C91",
   "status": "partial",
   "theorems": [
    "C91_cached_bytes_partial",
    "C91_other_bytes_refuted"
   ],
   "note": "under the conditions of C90; refuted without them (a false match returns the bytes of another position)."
  },
  {
   "property": "C92",
   "status": "partial",
   "theorems": [
    "C92_stream_protocol_partial",
    "C92_two_end_tokens_refuted",
    "C92_no_tokens_refuted"
   ],
   "note": "end tokens equal and max_length at least 1, any cache state; refuted otherwise."
  },
  {
   "property": "C93",
   "status": "partial",
   "theorems": [
    "C93_lane_count_partial",
    "C93_leak_refuted"
   ],
   "note": "the exact number of lanes taken; refuted: the lanes of thinking tokens are never returned."
  },
  {
   "property": "C94",
   "status": "partial",
   "theorems": [
    "C94_tokens_partial",
    "C94_greedy_partial",
    "C94_no_history",
    "C94_long_prompt_refuted",
    "C94_first_eos_refuted",
    "C94_empty_prompt_refuted"
   ],
   "note": "prompts of 1..context_len-ar_len tokens (any length if ar_len = context_len) that do not fill the context while decoding; refuted otherwise: longer prompts silently give other tokens, an empty prompt answers from old logits, an end token right after the prompt does not stop."
  },
  {
   "property": "C95",
   "status": "partial",
   "theorems": [
    "C95_in_bounds_partial",
    "C95_full_context_refuted"
   ],
   "note": "under the conditions of C94; refuted for every network: with ar_len < context_len a full context writes behind the K buffer."
  },
  {
   "property": "C96",
   "status": "partial",
   "theorems": [
    "C96_init",
    "C96_update",
    "C96_window_update_partial",
    "C96_window_init_refuted",
    "C96_window_new_refuted"
   ],
   "note": "plain masks completely; window updates for the cached columns; refuted: window initialisation counts the past twice, new columns ignore the window."
  },
  {
   "property": "C97",
   "status": "proved",
   "theorems": [
    "C97_rearrange",
    "C97_round_trip"
   ],
   "note": ""
  },
  {
   "property": "C98",
   "status": "partial",
   "theorems": [
    "C98_store",
    "C98_wrong_arrangement",
    "C98_too_few_refuted",
    "C98_none_refuted"
   ],
   "note": "at least n_update >= 1 tokens selected; refuted for fewer, and for n_update = 0 with a selection."
  },
  {
   "property": "C99",
   "status": "partial",
   "theorems": [
    "C99_order",
    "C99_ids",
    "C99_angles",
    "C99_two_images_refuted",
    "C99_ragged_refuted"
   ],
   "note": "one image, whole blocks; refuted: two images always abort, ragged grids leave zero positions."
  },
  {
   "property": "C100",
   "status": "partial",
   "theorems": [
    "C100_prefill",
    "C100_decode",
    "C100_no_tail_refuted"
   ],
   "note": "with text behind the image; refuted without."
  },
  {
   "property": "C101",
   "status": "proved",
   "theorems": [
    "C101_pads",
    "C101_insert",
    "C101_alignment",
    "C101_no_pad_refuted"
   ],
   "note": "message with an image token; without one the code inserts past the end (C101_no_pad_refuted)."
  },
  {
   "property": "C102",
   "status": "proved",
   "theorems": [
    "C102_windows",
    "C102_restore"
   ],
   "note": ""
  },
  {
   "property": "C103",
   "status": "partial",
   "theorems": [
    "C103_mrope",
    "C103_text",
    "C103_two_sections_refuted"
   ],
   "note": "three sections; refuted for two."
  },
  {
   "property": "C104",
   "status": "proved",
   "theorems": [
    "C104_patches"
   ],
   "note": ""
  },
  {
   "property": "C105",
   "status": "partial",
   "theorems": [
    "C105_size_partial",
    "C105_refused",
    "C105_keeps",
    "C105_overflow_refuted",
    "C105_small_limit_refuted"
   ],
   "note": "images up to 46000 x 46000, limits 784 <= min, 17 min <= max, 156800 <= max; refuted: int overflow for larger areas, a small maximum is not kept."
  },
  {
   "property": "C106",
   "status": "partial",
   "theorems": [
    "C106_disjoint",
    "C106_inside",
    "C106_stable",
    "C106_odd_pool_refuted",
    "C106_big_refuted"
   ],
   "note": "pools whose size is a multiple of 32 at a base multiple of 64, at most 64 GiB, requests up to 2^32-64 bytes; refuted: a pool of another size hands out memory behind its end, a request just below 4 GiB gets 32 bytes."
  },
  {
   "property": "C107",
   "status": "partial",
   "theorems": [
    "C107_best_fit",
    "C107_reuse",
    "C107_no_leak",
    "C107_fragments_refuted",
    "C107_no_memory"
   ],
   "note": "proved: best fit, reuse, no leak; refuted: freed neighbours are not joined, so a request can be refused with the whole pool free."
  },
  {
   "property": "C108",
   "status": "partial",
   "theorems": [
    "C108_storages",
    "C108_fresh",
    "C108_large_refuted"
   ],
   "note": "storages up to 2^32-64 bytes; refuted: the size of a larger storage is cut to 32 bits."
  },
  {
   "property": "C109",
   "status": "partial",
   "theorems": [
    "C109_line",
    "C109_any_order",
    "C109_refused",
    "C109_required",
    "C109_booleans",
    "C109_strings",
    "C109_numbers",
    "C109_typed",
    "C109_words",
    "C109_names",
    "C109_garbage_refuted",
    "C109_unchecked_refuted"
   ],
   "note": "refuted parts: garbage behind a number is ignored, words nobody asked for are accepted, a number or switch never given and without default is read uninitialised."
  },
  {
   "property": "C110",
   "status": "proved",
   "theorems": [
    "C110_tiles",
    "C110_closest"
   ],
   "note": "for every outcome of the float computations of sizes and errors, stb resampling being any function with the asked-for size; sizes below 2^31."
  },
  {
   "property": "C111",
   "status": "proved",
   "theorems": [
    "C111_pixels"
   ],
   "note": "normalisation arithmetic left open; 3 channels, as Image::open makes them."
  },
  {
   "property": "C112",
   "status": "partial",
   "theorems": [
    "C112_slots",
    "C112_lines",
    "C112_marks_before_refuted"
   ],
   "note": "one image tag per message, as the chat template makes; refuted: a begin mark in the text before the image (system prompts are free text) moves all rows to wrong places."
  },
  {
   "property": "C113",
   "status": "partial",
   "theorems": [
    "C113_positions",
    "C113_float_buckets_refuted",
    "C113_mask",
    "C113_resampler"
   ],
   "note": "refuted: binary32 buckets put a row that begins on a boundary into the bucket before it (25 rows, table of 70)."
  },
  {
   "property": "C114",
   "status": "partial",
   "theorems": [
    "C114_frames",
    "C114_count",
    "C114_slots",
    "C114_recordings",
    "C114_long_refuted",
    "C114_chunks"
   ],
   "note": "one recording per message; refuted: a recording longer than 30 s has slots nothing is put into."
  },
  {
   "property": "C115",
   "status": "proved",
   "theorems": [
    "C115_mixture",
    "C115_bad_id",
    "C115_alone",
    "C115_no_tokens",
    "C115_shared",
    "C115_gate",
    "C115_arm"
   ],
   "note": "Rows of hidden_dim floats are single elements; argsort, indexing, slices, concat, broadcast multiplication and sum are taken from C47, C48, C51, C54. C115_arm shows the quotients idxs / k right on ARM for up to 2^24 places."
  },
  {
   "property": "C116",
   "status": "partial",
   "theorems": [
    "C116_loops",
    "C116_quotients",
    "C116_large_refuted",
    "C116_overflow_refuted"
   ],
   "note": "C116_quotients: right for dividends of at most 24 bits and quotients that fit; C116_large_refuted: beyond, int32 quotients are wrong in the vector part and right behind it; C116_overflow_refuted: -128 / -1 differs between the two parts."
  },
  {
   "property": "C117",
   "status": "partial",
   "theorems": [
    "C117_int_partial",
    "C117_int_all_partial",
    "C117_real_partial",
    "C117_real_all_partial",
    "C117_x86_refuted",
    "C117_x86_lanes_refuted",
    "C117_rank_one_refuted"
   ],
   "note": "ARM hosts, contiguous tensors, integers of 8, 16 and 32 bits and floating point numbers without NaN, any lane length; refuted: on x86 hosts neither max nor min is computed (the result is unwritten memory, no error); a vector reduced without keeping the dimension."
  },
  {
   "property": "C118",
   "status": "partial",
   "theorems": [
    "C118_real_partial",
    "C118_real_all_partial",
    "C118_int_partial",
    "C118_int_all_partial",
    "C118_int8_overflow_refuted",
    "C118_int32_rounding_refuted"
   ],
   "note": "ARM hosts: floating point without rounding; integers if the sum fits the element type (int32: and is below 2^24); refuted: int8 mean of 100 and 100 is -28, int32 mean of 67108863 is 67108864, nothing is computed on x86 hosts."
  },
  {
   "property": "C119",
   "status": "partial",
   "theorems": [
    "C119_numbering",
    "C119_indices_to_codes",
    "C119_codes_to_indices",
    "C119_round_trip",
    "C119_codes_distinct",
    "C119_codebook",
    "C119_level26_refuted"
   ],
   "note": "proved for levels 2..25 with fewer than 2^24 codes; refuted for 26 levels (C119_level26_refuted)"
  },
  {
   "property": "C120",
   "status": "partial",
   "theorems": [
    "C120_quantize_partial",
    "C120_odd_refuted",
    "C120_even_refuted"
   ],
   "note": "the rounded and clipped value is characterised for all inputs; that it lies in the codebook is refuted for odd and even levels"
  },
  {
   "property": "C121",
   "status": "partial",
   "theorems": [
    "C121_decode_partial",
    "C121_index_zero_refuted",
    "C121_batches_refuted",
    "C121_fewer_refuted"
   ],
   "note": "proved for one batch or one position and indices other than 0; refuted for index 0, several batches and fewer quantisers"
  },
  {
   "property": "C122",
   "status": "partial",
   "theorems": [
    "C122_mrope",
    "C122_positions",
    "C122_shift",
    "C122_odd_refuted",
    "C122_x86_refuted",
    "C122_no_sections_refuted"
   ],
   "note": "ARM, fp32 read as real numbers, even head size; refuted: an odd head size leaves the last channel uninitialised, nothing is computed on x86, tables without sections abort"
  },
  {
   "property": "C123",
   "status": "partial",
   "theorems": [
    "C123_vision",
    "C123_tables",
    "C123_patches",
    "C123_relative",
    "C123_odd_refuted",
    "C123_x86_refuted",
    "C123_wide_tables_refuted",
    "C123_view_refuted"
   ],
   "note": "ARM, fp32 read as real numbers, even head size, dense activation; refuted: odd head size, x86, tables with D columns and views are accepted and misread"
  },
  {
   "property": "C124",
   "status": "partial",
   "theorems": [
    "C124_nearest_signals",
    "C124_nearest_images",
    "C124_nearest_volumes",
    "C124_same_size",
    "C124_single_refuted"
   ],
   "note": "fp32 read as real numbers, dense input; refuted: a single output element without aligned corners copies the first element instead of one in the middle"
  },
  {
   "property": "C125",
   "status": "partial",
   "theorems": [
    "C125_linear",
    "C125_bilinear",
    "C125_trilinear",
    "C125_bounds",
    "C125_bounds_signals",
    "C125_bounds_volumes",
    "C125_same_size",
    "C125_corners",
    "C125_planes",
    "C125_aligned_inside"
   ],
   "note": "fp32 read as real numbers, dense input; a single output element needs aligned corners (C124_single_refuted shows the defect)"
  },
  {
   "property": "C126",
   "status": "partial",
   "theorems": [
    "C126_bicubic",
    "C126_same_size",
    "C126_constant",
    "C126_planes",
    "C126_bounds_refuted"
   ],
   "note": "fp32 read as real numbers, dense input; refuted: results can leave the interval of the inputs"
  },
  {
   "property": "C127",
   "status": "partial",
   "theorems": [
    "C127_smoothing",
    "C127_other_axis_refuted"
   ],
   "note": "fp32 read as real numbers, at least two outputs per axis; refuted: an axis that does not shrink is smoothed too"
  },
  {
   "property": "C128",
   "status": "partial",
   "theorems": [
    "C128_ranks_refuted",
    "C128_channels_refuted",
    "C128_views_refuted",
    "C128_too_many_sizes"
   ],
   "note": "sizes for more axes than the input has are refused; refuted: linear and trilinear on images return uninitialised tensors, sizes naming channels leave channels unwritten or overrun the output, views are misread"
  },
  {
   "property": "C129",
   "status": "partial",
   "theorems": [
    "C129_forward",
    "C129_inverse",
    "C129_bluestein"
   ],
   "note": "fp32 read as real numbers (twiddle factors and sums exact), int sizes up to 2^30"
  },
  {
   "property": "C130",
   "status": "partial",
   "theorems": [
    "C130_round_trip",
    "C130_half_is_enough"
   ],
   "note": "fp32 read as real numbers"
  },
  {
   "property": "C131",
   "status": "partial",
   "theorems": [
    "C131_stft",
    "C131_rows_refuted",
    "C131_batch_refuted",
    "C131_short_signal_refuted",
    "C131_default_hop_refuted"
   ],
   "note": "fp32 read as real numbers, one signal at a time, window no longer than the extended signal; refuted: with several signals every row is the transform of the first; mirror padding of a signal of at most n/2 samples reads out of bounds; the default hop of fewer than 4 points divides by zero"
  },
  {
   "property": "C132",
   "status": "partial",
   "theorems": [
    "C132_istft",
    "C132_same",
    "C132_same_odd_refuted",
    "C132_same_window_refuted"
   ],
   "note": "fp32 read as real numbers, without the normalized option, spectrum with n/2+1 bins; refuted for 'same': an odd difference of window and hop leaves the last sample unwritten, a window shorter than the transform aborts"
  },
  {
   "property": "C133",
   "status": "partial",
   "theorems": [
    "C133_round_trip",
    "C133_energy",
    "C133_same",
    "C133_center_refuted"
   ],
   "note": "fp32 read as real numbers; proved without centring and for 'same'; refuted with center=true: the extension is not removed, the output lags by n/2 samples"
  },
  {
   "property": "C134",
   "status": "proved",
   "theorems": [
    "C134_packed_values_come_back",
    "C134_packing_is_injective"
   ],
   "note": "all widths and the three buffer sizes; only_changes gives the exact extent"
  },
  {
   "property": "C135",
   "status": "proved",
   "theorems": [
    "C135_unsigned_32",
    "C135_unsigned_64",
    "C135_unsigned_128_and_table",
    "C135_table_of_more_than_16_refuted"
   ],
   "note": "refuted beyond 4 bits: the 16-entry table instruction yields 0 for larger indices"
  },
  {
   "property": "C136",
   "status": "proved",
   "theorems": [
    "C136_interleaving",
    "C136_interleaving_is_undone",
    "C136_uneven_sections_refuted"
   ],
   "note": "refuted when sr does not divide kr (only an assert forbids it)"
  },
  {
   "property": "C137",
   "status": "proved",
   "theorems": [
    "C137_weights_come_back",
    "C137_odd_row_length_refuted"
   ],
   "note": "for row lengths that are multiples of 8; refuted otherwise: packed_weights_size is smaller than what pack_weights writes; the look-up-table variant of pack_weights is not modelled"
  },
  {
   "property": "C138",
   "status": "proved",
   "theorems": [
    "C138_sums_and_scales_in_place"
   ],
   "note": "same scope as C137"
  },
  {
   "property": "C139",
   "status": "partial",
   "theorems": [
    "C139_transpose_partial",
    "C139_same_as_x86",
    "C139_short_rows_refuted",
    "C139_batch_refuted"
   ],
   "note": "All shapes, types and dimension pairs for which the code is right; the two remaining cases are refuted (short rows leave the buffer, dimensions 0/1 of rank >= 3 are never written)."
  },
  {
   "property": "C140",
   "status": "partial",
   "theorems": [
    "C140_permute_partial",
    "C140_permute_inverse",
    "C140_noncontiguous_refuted"
   ],
   "note": "Contiguous inputs; non-contiguous inputs are refuted."
  },
  {
   "property": "C141",
   "status": "partial",
   "theorems": [
    "C141_never_dangling_partial",
    "C141_converting_move_refuted"
   ],
   "note": "All operations except the converting move (constructor and assignment from IntrusivePtr<U>&&), which is refuted."
  },
  {
   "property": "C142",
   "status": "proved",
   "theorems": [
    "C142_counts_and_lifetimes",
    "C142_count_at_any_time",
    "C142_operations_finish"
   ],
   "note": "Converting moves excluded (refuted in C141)."
  },
  {
   "property": "C143",
   "status": "proved",
   "theorems": [
    "C143_copy_construction",
    "C143_copy_assignment",
    "C143_move_assignment",
    "C143_self_assignment"
   ],
   "note": ""
  },
  {
   "property": "C144",
   "status": "proved",
   "theorems": [
    "C144_fill_value",
    "C144_zeros",
    "C144_ones"
   ],
   "note": "x86 kernels; float16 is a separate scalar loop, not modelled."
  },
  {
   "property": "C145",
   "status": "partial",
   "theorems": [
    "C145_arange_float_partial",
    "C145_arange_int_partial",
    "C145_inside_interval",
    "C145_last_value_missing_refuted",
    "C145_unwritten_element_refuted"
   ],
   "note": "Exact arithmetic; the missing last value and, in binary32, an unwritten element are refuted."
  },
  {
   "property": "C146",
   "status": "partial",
   "theorems": [
    "C146_values_partial",
    "C146_in_range_partial",
    "C146_seed_bits",
    "C146_prefix_partial",
    "C146_unit_interval_f32",
    "C146_beyond_end_f32_refuted"
   ],
   "note": "Exact arithmetic for general intervals, binary32 for [0, 1]; other intervals can be left by rounding (refuted)."
  },
  {
   "property": "C147",
   "status": "proved",
   "theorems": [
    "C147_chunks",
    "C147_whole_text"
   ],
   "note": "The sampler and the language model are any function from positions to tokens. The end token's own text is part of the answer; tokens can be missing at the end only if that text has fewer than three bytes or is broken off (stated in the theorem)."
  },
  {
   "property": "C148",
   "status": "partial",
   "theorems": [
    "C148_documented_loop_late",
    "C148_documented_loop_refuted"
   ],
   "note": "Refuted: the documented loop sees an empty output first and never the last chunk."
  },
  {
   "property": "C149",
   "status": "proved",
   "theorems": [
    "C149_overlap_add",
    "C149_smooth"
   ],
   "note": "Samples are reals."
  },
  {
   "property": "C150",
   "status": "partial",
   "theorems": [
    "C150_all_audio",
    "C150_loop_misses_the_end",
    "C150_loop_refuted",
    "C150_length"
   ],
   "note": "Proved for calls until one says finished; for the documented loop (and the example programs) the end held back for mixing is lost, refuted."
  },
  {
   "property": "C151",
   "status": "partial",
   "theorems": [
    "C151_text",
    "C151_whole_text",
    "C151_no_text_without_audio",
    "C151_text_only_refuted",
    "C151_marker_refuted"
   ],
   "note": "Proved with audio on and no marker; without audio no text is output, and text after the marker is (refuted)."
  },
  {
   "property": "C152",
   "status": "partial",
   "theorems": [
    "C152_text_reaches_speech_partial",
    "C152_tokens_missed_refuted",
    "C152_attended_is_prefilled",
    "C152_mask_at_the_end"
   ],
   "note": "Proved when the text is in time for every window; with the generator's own settings (8 tokens in the first call, 10 places) tokens are missed (refuted). That audio tokens attend only to filled places is proved for every text."
  },
  {
   "property": "C153",
   "status": "partial",
   "theorems": [
    "C153_codes",
    "C153_no_stop",
    "C153_cache_full_refuted"
   ],
   "note": "The frames are proved; that they fit in the cache is refuted: it has 722 places for audio, the stream goes on to 1024 frames."
  },
  {
   "property": "C154",
   "status": "partial",
   "theorems": [
    "C154_sampling_partial",
    "C154_out_of_range",
    "C154_always_a_token_refuted"
   ],
   "note": "Exact sums and 0 < r <= total proved; a total below 1 by one rounding error gives a token that does not exist (refuted)."
  },
  {
   "property": "C155",
   "status": "proved",
   "theorems": [
    "C155_top_k",
    "C155_top_p"
   ],
   "note": "Logits real or minus infinity, exponentials and sums exact; the sort is any that meets the contract of std::sort / std::partial_sort."
  },
  {
   "property": "C156",
   "status": "proved",
   "theorems": [
    "C156_crop",
    "C156_center"
   ],
   "note": "Integers unbounded; every image of the class has three channels."
  },
  {
   "property": "C157",
   "status": "proved",
   "theorems": [
    "C157_tiles"
   ],
   "note": "The resized page is any image of the size asked for; any grid."
  },
  {
   "property": "C158",
   "status": "proved",
   "theorems": [
    "C158_size",
    "C158_pad"
   ],
   "note": "Resizing arbitrary, the scale an exact quotient."
  },
  {
   "property": "C159",
   "status": "partial",
   "theorems": [
    "C159_count",
    "C159_layout",
    "C159_placed_partial",
    "C159_in_order_partial",
    "C159_order_refuted",
    "C159_present_refuted"
   ],
   "note": "Numbers and layout proved; the scatter puts the rows at the image's places rotated by the image's position (refuted: in order), and tiles whose pixels sum to zero are ignored (refuted)."
  },
  {
   "property": "C160",
   "status": "partial",
   "theorems": [
    "C160_separator",
    "C160_words",
    "C160_maxsplit_refuted"
   ],
   "note": "Proved; splitting at white space for an unlimited number of splits only: with a limit the rest is not as in Python (refuted)."
  },
  {
   "property": "C161",
   "status": "proved",
   "theorems": [
    "C161_grid"
   ],
   "note": "Quotients exact; any order of candidates with equally many tiles."
  },
  {
   "property": "C162",
   "status": "proved",
   "theorems": [
    "C162_resize",
    "C162_transform"
   ],
   "note": "Arithmetic of any type of values; scale of the resize exact."
  }
 ]
}