{
 "claims": [
  {
   "property": "C01",
   "status": "proved",
   "theorems": [
    "scalar_at_is_the_element",
    "scalar_at_agrees_with_canonical",
    "elements_are_typed",
    "scalar_at_unchecked_is_the_element",
    "scalar_at_dict_of_structs_refuted"
   ],
   "note": "16 array encodings nested arbitrarily."
  },
  {
   "property": "C02",
   "status": "proved",
   "theorems": [
    "slice_commutes_with_decoding",
    "slice_never_wrong",
    "slice_bad_bounds_is_an_error",
    "scalar_at_of_slice",
    "slice_of_slice",
    "runend_slice_refuted",
    "empty_chunked_slice_refuted"
   ],
   "note": "16 array encodings nested arbitrarily."
  },
  {
   "property": "C03",
   "status": "proved",
   "theorems": [
    "take_commutes_with_decoding",
    "bitpacked_take_refuted",
    "chunked_take_refuted",
    "varbin_take_refuted",
    "string_take_refuted",
    "chunked_take_out_of_range_refuted"
   ],
   "note": "16 array encodings nested arbitrarily; flags of the class wf name the exclusions."
  },
  {
   "property": "C04",
   "status": "proved",
   "theorems": [
    "filter_commutes_with_decoding",
    "sliced_mask_filter_refuted",
    "extension_filter_refuted"
   ],
   "note": "16 array encodings nested arbitrarily, both filter strategies (slices and indices)."
  },
  {
   "property": "C05",
   "status": "proved",
   "theorems": [
    "pipeline_commutes_with_decoding",
    "pipeline_total",
    "slice_of_slice"
   ],
   "note": "Induction over the history; each operation is shown to preserve the representation invariant."
  },
  {
   "property": "C06",
   "status": "proved",
   "theorems": [
    "canonical_is_lossless",
    "canonical_is_idempotent",
    "logical_validity_is_nullness",
    "sparse_bool_canonical_refuted",
    "sparse_null_patch_canonical_refuted",
    "sparse_fill_canonical_refuted",
    "binary_canonical_refuted",
    "constant_canonical_refuted"
   ],
   "note": "16 array encodings nested arbitrarily."
  },
  {
   "property": "C07",
   "status": "proved",
   "theorems": [
    "search_sorted_insertion_point",
    "search_sorted_any_comparator",
    "search_sorted_nullable",
    "search_sorted_insert_keeps_sorted"
   ],
   "note": "Generic binary search of compute/search_sorted.rs, all lengths, both sides."
  },
  {
   "property": "C08",
   "status": "proved",
   "theorems": [
    "encoded_search_sorted",
    "encoded_search_position",
    "encoded_search_agrees_with_decoded",
    "for_search_sorted_refuted",
    "sparse_search_sorted_refuted",
    "empty_constant_search_sorted_refuted",
    "bitpacked_search_u64_many_refuted",
    "runend_take_patched_ends_refuted"
   ],
   "note": ""
  },
  {
   "property": "C09",
   "status": "proved",
   "theorems": [
    "for_roundtrip",
    "for_decompress_is_logical",
    "for_compress_without_values"
   ],
   "note": "for_compress including the constant and sparse results for all-zero arrays; statistics via C29. The result is shown well-formed in the class where slicing/decoding are total."
  },
  {
   "property": "C10",
   "status": "proved",
   "theorems": [
    "zigzag_roundtrip",
    "zigzag_bijective",
    "zigzag_rejects_other_types"
   ],
   "note": "zigzag crate's shift/xor formulas at every width."
  },
  {
   "property": "C11",
   "status": "proved",
   "theorems": [
    "bitpack_roundtrip",
    "bitpack_unpack_is_logical",
    "bitpack_rejects",
    "patchless_width_has_no_patches"
   ],
   "note": "The bit layout inside a 1024-value FastLanes block is an external crate: a block is the list of its fields."
  },
  {
   "property": "C12",
   "status": "proved",
   "theorems": [
    "bitpacked_slice",
    "bitpacked_unpack_and_access",
    "bitpacked_take",
    "bitpack_encode_is_simple",
    "bitpacked_take_refuted"
   ],
   "note": ""
  },
  {
   "property": "C13",
   "status": "proved",
   "theorems": [
    "decompress_compress",
    "delta_decompress_spec",
    "delta_roundtrip",
    "delta_slice_spec",
    "delta_scalar_at_spec",
    "delta_signed_panics",
    "delta_from_primitive_drops_nulls_refuted",
    "delta_nullable_slice_refuted",
    "delta_parts_accepted_exactly"
   ],
   "note": "The fastlanes crate's delta/undelta/transpose kernels are modelled from their documented index formulas (external crate, not in /repo)."
  },
  {
   "property": "C14",
   "status": "proved",
   "theorems": [
    "runend_roundtrip",
    "runend_decode_is_logical",
    "runend_encode_decode",
    "runend_negative_zero_refuted"
   ],
   "note": "Every integer type and floats as bit patterns with the native comparison. The -0.0 defect is a theorem."
  },
  {
   "property": "C15",
   "status": "proved",
   "theorems": [
    "runend_bool_roundtrip",
    "runend_bool_decode_is_logical",
    "runend_bool_scalar_at",
    "runend_bool_take",
    "runend_bool_slice",
    "runend_bool_take_drops_nulls_refuted",
    "runend_bool_slice_of_slice_refuted",
    "runend_bool_slice_nullable_refuted"
   ],
   "note": "The three defects are theorems with concrete witnesses."
  },
  {
   "property": "C16",
   "status": "proved",
   "theorems": [
    "dict_primitive_roundtrip",
    "dict_varbin_roundtrip",
    "dict_validity_is_logical",
    "dict_validity_refuted"
   ],
   "note": "Primitive and VarBin encoders; the VarBinView encoder is the VarBin one followed by a canonicalisation (C06)."
  },
  {
   "property": "C17",
   "status": "proved",
   "theorems": [
    "sparse_is_fill_plus_patches",
    "sparse_slice_keeps_patches",
    "is_patched_unique",
    "sparse_bool_canonical_refuted",
    "sparse_null_patch_canonical_refuted",
    "sparse_fill_canonical_refuted"
   ],
   "note": ""
  },
  {
   "property": "C18",
   "status": "proved",
   "theorems": [
    "chunked_is_concatenation",
    "chunk_boundaries_do_not_matter",
    "rechunking_regroups",
    "chunked_take_refuted",
    "chunked_take_out_of_range_refuted",
    "empty_chunked_slice_refuted"
   ],
   "note": ""
  },
  {
   "property": "C19",
   "status": "proved",
   "theorems": [
    "validity_slice",
    "validity_take",
    "validity_filter",
    "validity_from_bits",
    "validity_and",
    "validity_to_logical",
    "validity_into_validity",
    "validity_collect",
    "validity_null_count",
    "validity_try_new"
   ],
   "note": "All validity variants and lengths. Validity children are represented by their bits (a non-BoolArray child makes Validity::and return an error, validity.rs:200-202)."
  },
  {
   "property": "C20",
   "status": "proved",
   "theorems": [
    "varbin_build_keeps_rows",
    "varbin_build_rejects",
    "varbin_from_vec_keeps_rows",
    "varbin_slice_keeps_rows",
    "varbin_take_keeps_rows",
    "varbin_filter_keeps_rows",
    "varbin_reads_rows",
    "varbin_take_refuted"
   ],
   "note": "Utf8 and Binary alike."
  },
  {
   "property": "C21",
   "status": "proved",
   "theorems": [
    "view_build_keeps_rows",
    "view_build_rejects_nulls",
    "view_ops_keep_rows",
    "string_take_refuted"
   ],
   "note": "Arrow's byte-view builder is an external crate, modelled with an arbitrary block policy."
  },
  {
   "property": "C22",
   "status": "proved",
   "theorems": [
    "fsst_compress_keeps_rows",
    "fsst_compress_array_keeps_rows",
    "fsst_scalar_at_is_the_row",
    "fsst_decodes_to_the_rows",
    "fsst_decoding_limit",
    "fsst_slice_the_rows",
    "fsst_take_the_rows",
    "fsst_filter_the_rows",
    "fsst_equality_is_elementwise",
    "fsst_order_is_elementwise",
    "greedy_is_a_compressor",
    "fsst_null_equality_refuted",
    "fsst_binary_decoding_refuted"
   ],
   "note": "The fsst-rs library is a dependency: its decoder is modelled from the format, its compressor is any function whose codes spell their input (greedy_is_a_compressor shows one), and equality assumes that the compressor rebuilt from the symbol table is the one that made the codes. Not modelled: the 16 MB scratch buffer (unsafe for strings over 8 MB), nullable take indices."
  },
  {
   "property": "C23",
   "status": "proved",
   "theorems": [
    "alp_encode_keeps_values",
    "alp_decodes_to_the_rows",
    "alp_round_trip",
    "alp_scalar_at_is_the_row",
    "alp_slice_the_rows",
    "alp_take_the_rows",
    "alp_filter_the_rows",
    "alp_encode_rejects",
    "alp_negative_zero_refuted",
    "alp_dense_patches_refuted"
   ],
   "note": "Float arithmetic is concrete (Coq's SpecFloat, round to nearest even). Nullable take indices are not modelled."
  },
  {
   "property": "C24",
   "status": "proved",
   "theorems": [
    "rd_encode_keeps_values",
    "rd_training_gives_an_encoder",
    "rd_decodes_to_the_rows",
    "rd_round_trip",
    "rd_scalar_at_is_the_row",
    "rd_slice_the_rows",
    "rd_take_the_rows",
    "rd_filter_the_rows",
    "rd_encoding_panics",
    "rd_decode_type_refuted",
    "rd_mixed_types_refuted"
   ],
   "note": "The choice of the cut point and the order of the dictionary (estimated sizes, hash-map order) are left open: the theorems hold for every choice. Nullable take indices are not modelled."
  },
  {
   "property": "C25",
   "status": "proved",
   "theorems": [
    "compare_is_elementwise",
    "compare_commutes_with_decoding",
    "primitive_compare_is_ieee",
    "primitive_constant_compare_is_ieee",
    "extension_compare_is_storage_compare",
    "compare_rejects",
    "operator_swap_is_correct",
    "operator_inverse_is_correct",
    "operator_tables_are_involutions",
    "fsst_equality_is_elementwise",
    "fsst_order_is_elementwise",
    "alp_compare_is_elementwise",
    "alp_encode_then_compare",
    "nan_compare_refuted",
    "constant_equality_nullability_refuted",
    "compare_failures_refuted",
    "alp_compare_patched_refuted",
    "alp_compare_constant_refuted",
    "alp_compare_null_refuted"
   ],
   "note": "Arrow's comparison kernels are modelled by their documented behaviour. The ordering operators on ALP arrays rest on AlpOrder.v: rounding to nearest even is monotone, so decoding is."
  },
  {
   "property": "C26",
   "status": "proved",
   "theorems": [
    "split_gives_the_parts",
    "split_rejects_days",
    "parts_scalar_at_is_the_row",
    "parts_decode_to_the_rows",
    "parts_may_be_recompressed",
    "parts_slice_the_rows",
    "parts_take_the_rows",
    "decode_panics_on_garbage_under_nulls_refuted"
   ],
   "note": "DateTime.v. The extension wrapper (time zone metadata) is not modelled. The last theorem is the exception named in the statement."
  },
  {
   "property": "C27",
   "status": "proved",
   "theorems": [
    "rint_encode_is_the_sorted_set",
    "rint_encode_keeps_rows",
    "rint_encode_rejects",
    "rint_decodes_to_the_rows",
    "rint_scalar_at_is_the_row",
    "rint_slice_the_rows",
    "rint_take_the_rows",
    "rint_filter_the_rows",
    "rint_stats_are_sound",
    "rint_encode_rows_refuted",
    "rint_empty_slice_refuted",
    "rint_slice_of_empty_refuted",
    "rint_histograms_refuted",
    "rbool_encode_keeps_rows",
    "rbool_encode_rejects",
    "rbool_decodes_to_the_rows",
    "rbool_scalar_at_is_the_row",
    "rbool_slice_the_rows",
    "rbool_take_the_rows",
    "rbool_filter_the_rows",
    "rbool_init_stats_are_sound",
    "rbool_stats_are_sound",
    "rbool_encode_nulls_refuted",
    "rbool_stats_panic_refuted",
    "rbool_constructor_refuted",
    "rbool_slice_wraps_refuted",
    "roaring_int_accepted_exactly"
   ],
   "note": "The croaring library (a C bitmap) is modelled by its contract: a set of u32 values with rank/select, lossless serialisation, and a bitset as long as its maximum."
  },
  {
   "property": "C28",
   "status": "proved",
   "theorems": [
    "bytebool_from_keeps_rows",
    "bytebool_try_from_vec_keeps_rows",
    "bytebool_ops_keep_rows",
    "bytebool_other_bytes_refuted",
    "bytebool_take_nullability_refuted"
   ],
   "note": ""
  },
  {
   "property": "C29",
   "status": "proved",
   "theorems": [
    "stats_sound",
    "statistics_use_the_order_of_values",
    "prim_stats_exact",
    "bool_min_with_nulls_refuted",
    "float_constant_refuted",
    "empty_constant_stats_refuted",
    "dict_max_refuted",
    "dict_null_count_refuted",
    "sorted_ignores_nulls_refuted"
   ],
   "note": "All 16 modelled encodings, any nesting, any requested statistic; the excluded cases (st_ok) are each shown wrong by a refuted theorem."
  },
  {
   "property": "C30",
   "status": "proved",
   "theorems": [
    "merge_is_sound",
    "merge_counts_are_sound",
    "merge_max_with_nulls_refuted",
    "merge_constant_refuted"
   ],
   "note": "StatsSet::merge over arbitrary statistics sets that are sound for arbitrary lists."
  },
  {
   "property": "C31",
   "status": "proved",
   "theorems": [
    "subtract_scalar_spec",
    "subtract_scalar_rejects",
    "subtract_scalar_chunked_refuted",
    "subtract_scalar_float_refuted",
    "subtract_scalar_overflow_refuted"
   ],
   "note": "Primitive arrays and chunked trees of them (other encodings are canonicalised first by the code). Float subtraction itself is a parameter."
  },
  {
   "property": "C32",
   "status": "proved",
   "theorems": [
    "fill_forward_spec",
    "fill_forward_total"
   ],
   "note": ""
  },
  {
   "property": "C33",
   "status": "proved",
   "theorems": [
    "dtype_flatbuffer_round_trip",
    "dtype_protobuf_round_trip",
    "dtype_flatbuffer_injective",
    "project_flatbuffer",
    "project_unknown_name",
    "scalar_protobuf_round_trip",
    "scalar_protobuf_reads_back",
    "scalar_protobuf_round_trip_refuted",
    "scalar_flatbuffer_reads_back",
    "scalar_flatbuffer_round_trip_refuted"
   ],
   "note": "Model Serde.v at the level of message fields; the byte formats (flatbuffers, prost, flexbuffers crates) are external. Flexbuffers' choice of integer widths is an arbitrary relation; floats are assumed to come back in their own type."
  },
  {
   "property": "C34",
   "status": "proved",
   "theorems": [
    "writer_output",
    "everything_starts_aligned",
    "stream_round_trip",
    "array_stream_round_trip",
    "chunk_offsets_tile",
    "big_page_size_refuted"
   ],
   "note": "The flatbuffers library is abstracted as a codec record whose decoder inverts its encoder in the presence of trailing padding; framing, padding, buffer offsets and the reader state machine are modelled as written."
  },
  {
   "property": "C35",
   "status": "proved",
   "theorems": [
    "array_tree_round_trip",
    "buffer_indices_are_consecutive",
    "depth_first_is_preorder"
   ],
   "note": "Trees of any shape and depth; view_at recomputes buffer positions by walking indices exactly as ArrayView does."
  },
  {
   "property": "C36",
   "status": "proved",
   "theorems": [
    "stream_truncation",
    "empty_stream_panics_refuted",
    "truncation_always_noticed_refuted",
    "opening_any_file",
    "opening_small_file_panics_refuted",
    "cut_file_is_an_error",
    "far_schema_panics_refuted",
    "zero_length_message_is_an_error",
    "undecodable_message_is_an_error"
   ],
   "note": "Four defects stated as refuted: cut inside the first length word panics, cut inside a later length word is taken as end of stream, tiny files with a valid trailer panic, far schema panics."
  },
  {
   "property": "C37",
   "status": "proved",
   "theorems": [
    "file_round_trip",
    "read_all_returns_the_rows",
    "footer_ranges_hold_the_chunks",
    "demo_filtered_scan",
    "no_batches_panics_refuted",
    "no_batches_file",
    "struct_nulls_lost_refuted",
    "chunk_ids_collide_refuted",
    "batch_size_zero_refuted"
   ],
   "note": "Writer, footer, layout readers (flat, chunked, column), buffered readers, batch readers and the scan state machine are modelled as written; flatbuffers and per-array (de)serialisation are codec records that must invert (C34/C35 treat the latter). Fuel K exists for every file: the scan terminates."
  },
  {
   "property": "C38",
   "status": "proved",
   "theorems": [
    "filtered_scan_returns_the_matching_rows",
    "all_false_block_refuted",
    "demo_filtered_scan"
   ],
   "note": "The filter expression is an arbitrary row predicate here (its evaluation over arrays is C42)."
  },
  {
   "property": "C39",
   "status": "proved",
   "theorems": [
    "file_scan_returns_the_rows",
    "field_lookup_agrees",
    "field_lookup_sound",
    "unknown_name_is_an_error",
    "index_past_the_end_refuted",
    "empty_projection_refuted",
    "demo_filtered_scan"
   ],
   "note": ""
  },
  {
   "property": "C40",
   "status": "proved",
   "theorems": [
    "prune_is_sound",
    "prune_is_effective",
    "pruning_refuted",
    "pruning_lower_bound_refuted",
    "pruning_not_equal_columns_refuted",
    "pruning_bool_column_refuted"
   ],
   "note": "Model: Expr.v (pruning.rs). Row meaning: ExprSpec.v. stats_ok is the independent meaning of statistics. Non-vacuity: prune_meets. The statement names the unsound cases; each has a refuted theorem."
  },
  {
   "property": "C41",
   "status": "proved",
   "theorems": [
    "take_rows_takes_the_rows",
    "take_rows_rejects_out_of_range",
    "take_rows_of_other_lists_refuted",
    "take_rows_narrow_ids_refuted",
    "stream_take_takes_the_rows",
    "stream_take_rejects"
   ],
   "note": "Model TakeRows.v (find_chunks, take_from_chunk, TakeRows stream, subtract_scalar, search with cast); proof PropTakeRows.v on top of the stream writer/reader (C34-C36) and take (C03). Example: chunks of 2,0,4,5 rows."
  },
  {
   "property": "C42",
   "status": "proved",
   "theorems": [
    "evaluate_is_rowwise",
    "evaluate_total",
    "split_conjunction_keeps_meaning",
    "expr_operator_tables",
    "row_filter_is_the_filter",
    "row_filter_total",
    "countable_is_counted",
    "chunked_column_is_counted",
    "select_include_keeps_columns",
    "select_exclude_drops_columns",
    "row_filter_empty_chunk_refuted",
    "row_filter_dict_bool_refuted",
    "column_of_chunked_batch_refuted"
   ],
   "note": "Model: Expr.v (column.rs, literal.rs, binary.rs, select.rs, lib.rs split_conjunction, filtering.rs RowFilter, mod.rs null_as_false). Non-vacuity: ex_filter_hyps, ex_filter_runs."
  },
  {
   "property": "C43",
   "status": "proved",
   "theorems": [
    "and_or_are_elementwise",
    "and_or_reject",
    "and_or_constant_refuted"
   ],
   "note": "Simplification: arrays carry no cached IsConstant statistic (only ConstantArray has it)."
  },
  {
   "property": "C44",
   "status": "proved",
   "theorems": [
    "compression_preserves_values",
    "compressed_reads_the_same",
    "compressed_null_column_refuted",
    "compressed_negative_zero_refuted",
    "compressed_sparse_slice_refuted",
    "compressed_binary_views_refuted"
   ],
   "note": "Induction over the tree of choices, which are arbitrary (no sampling, cost or size model). ALP, ALP-RD, FSST, DateTimeParts, Delta and Roaring choices are not in the tree: their round trips are C02, C03, C14-C16 etc. Example table_hypotheses/table_compressed: a two-chunk struct, six levels."
  },
  {
   "property": "C45",
   "status": "proved",
   "theorems": [
    "scalar_order_reflexive",
    "scalar_order_antisymmetric",
    "scalar_order_transitive",
    "scalar_order_total",
    "scalars_are_comparable_by_type",
    "with_nullability_changes_only_that",
    "scalar_order_equal",
    "null_is_greatest",
    "scalar_equality_is_the_order",
    "scalar_equality_is_the_order_refuted",
    "scalar_equality_ignores_nullability_refuted",
    "scalar_cast_of_numbers",
    "scalar_cast_keeps_nulls",
    "null_cast_to_non_nullable_is_an_error",
    "scalar_cast_nullability",
    "struct_cast_is_fieldwise",
    "scalar_cast_preserves_numbers_refuted",
    "scalar_cast_never_panics_refuted",
    "array_cast_correct",
    "array_cast_total",
    "array_cast_rejects",
    "array_cast_ignores_nulls_refuted",
    "instance_of_is_the_type",
    "null_is_an_instance_of_nullable_types",
    "instance_of_counts_fields_refuted"
   ],
   "note": "Order and casts of scalars (Scalars.v), with IEEE conversion from the standard library's SpecFloat; num_traits::NumCast is modelled, NaN payloads are not."
  },
  {
   "property": "C46",
   "status": "proved",
   "theorems": [
    "partition_covers",
    "partition_panics",
    "sample_slices_are_stratified",
    "sample_is_a_subsequence",
    "sampling_overflow_refuted",
    "empty_samples_refuted"
   ],
   "note": "The random number generator is an arbitrary sequence of draws. Overflow of the u16 product is a panic (checked build)."
  },
  {
   "property": "C47",
   "status": "proved",
   "theorems": [
    "temporal_metadata_roundtrip",
    "temporal_dtype_injective",
    "arrow_temporal_type_roundtrip",
    "temporal_ext_roundtrip",
    "temporal_rejects",
    "empty_timezone_refuted",
    "short_metadata_refuted"
   ],
   "note": "from_utf8_lossy is any function that keeps valid UTF-8."
  },
  {
   "property": "C48",
   "status": "proved",
   "theorems": [
    "dtype_to_arrow_and_back",
    "arrow_type_to_dtype_and_back",
    "schema_of_structs_only",
    "from_arrow_preserves_values",
    "imported_rows_are_read",
    "record_batch_import",
    "to_arrow_preserves_values",
    "to_arrow_succeeds",
    "record_batch_export",
    "record_batch_export_succeeds",
    "arrow_round_trip",
    "exported_arrays_are_well_formed",
    "vortex_round_trip",
    "time_zone_lost_refuted",
    "redundant_nulls_refuted",
    "fieldless_struct_refuted"
   ],
   "note": "Arrow arrays are modelled as arrow-array 53.2.0 lays them out; from_utf8_lossy is any function that keeps valid UTF-8."
  },
  {
   "property": "C49",
   "status": "proved",
   "theorems": [
    "iteration_yields_the_rows",
    "iterable_arrays",
    "alp_iteration_yields_the_rows",
    "alp_iteration_yields_patched_rows",
    "with_iterator_yields_the_rows",
    "unary_maps_the_rows",
    "unary_rejects",
    "binary_combines_the_rows",
    "binary_rejects",
    "alp_iteration_drops_patches_refuted",
    "null_constant_iteration_refuted",
    "size_hint_refuted",
    "binary_needs_plain_refuted",
    "accessors_know_nulls"
   ],
   "note": "Uninitialised output slots are modelled; reading one would be a panic."
  },
  {
   "property": "C50",
   "status": "proved",
   "theorems": [
    "project_selects_the_columns",
    "project_succeeds",
    "project_selects_the_columns_sparse",
    "field_is_a_column",
    "field_is_a_column_sparse",
    "every_column_is_found",
    "field_by_name_is_the_first_of_its_name",
    "project_rejects_unknown_columns",
    "null_constant_has_no_columns_refuted",
    "project_index_is_an_error_refuted"
   ],
   "note": ""
  },
  {
   "property": "C51",
   "status": "proved",
   "theorems": [
    "invert_negates_every_row",
    "invert_succeeds",
    "invert_twice",
    "set_positions_are_the_true_rows",
    "set_ranges_cover_the_set_positions",
    "invert_keeps_the_type_refuted",
    "set_positions_of_a_slice_refuted",
    "set_positions_of_sparse_refuted",
    "set_positions_total_refuted"
   ],
   "note": ""
  },
  {
   "property": "C52",
   "status": "proved",
   "theorems": [
    "accepted_filters_convert",
    "accepted_filters",
    "conversion_keeps_meaning",
    "filtered_scan_selects_rows",
    "filtered_scan_is_the_query",
    "full_scan_is_the_query",
    "full_scan_succeeds",
    "filtered_scan_succeeds",
    "or_of_null_refuted",
    "null_rows_are_not_returned_refuted",
    "accepted_filters_run_refuted",
    "full_scan_counts_rows_refuted"
   ],
   "note": "Filtered scans: StructArray chunks without null rows, columns of flat types without NaN and -0.0 in the filter."
  },
  {
   "property": "C53",
   "status": "proved",
   "theorems": [
    "chosen_encodings_preserve_values",
    "reused_choices_preserve_values",
    "small_arrays_get_the_best_encoding",
    "chosen_encoding_is_allowed",
    "nesting_cost_is_limited",
    "shared_dictionary_constant_refuted",
    "compressor_loses_data_refuted",
    "reuse_across_types_refuted",
    "compressed_may_grow_refuted"
   ],
   "note": "Compressors of Compressor.v (constant, chunked, struct, FoR, zigzag, bit-packing, run-end, dictionary, sparse). Inputs: no dictionary chunks inside chunked columns, sliceable strings and sparse arrays."
  },
  {
   "property": "C54",
   "status": "proved",
   "theorems": [
    "answers_are_true",
    "answers_are_true_from_fresh",
    "known_statistics_stay_known",
    "histories_agree",
    "true_answers_agree",
    "stats_travel",
    "chunked_view_never_answers_refuted",
    "owned_arrays_answer",
    "fresh_is_owned",
    "views_of_flat_arrays_answer",
    "asked_and_answered"
   ],
   "note": "Class hist_ok: as st_ok of C29 independent of the statistic; merging compares minima, so stored 'constant' must come with a minimum (usable). The refuted theorem: a chunked array read in place from a message without chunk statistics never answers. Arrays all of whose parts are owned, and flat views, do answer (null count, run count, extrema, constancy; dictionaries, chunks, primitive and string data)."
  },
  {
   "property": "C55",
   "status": "proved",
   "theorems": [
    "struct_parts_accepted_exactly",
    "chunks_accepted_exactly",
    "flat_parts_accepted_exactly",
    "offsets_accepted_exactly",
    "sparse_parts_accepted_exactly",
    "codes_accepted_exactly",
    "run_ends_accepted_exactly",
    "bool_run_ends_accepted_exactly",
    "timestamp_parts_accepted_exactly",
    "alp_parts_accepted_exactly",
    "rd_parts_accepted_exactly",
    "fsst_parts_accepted_exactly",
    "bool_bitmap_accepted_exactly",
    "delta_parts_accepted_exactly",
    "roaring_int_accepted_exactly",
    "inconsistent_parts_are_rejected_refuted"
   ],
   "note": "Stated from English conditions in PropConstruct.v. Children whose elements a constructor reads (sparse positions, run ends) are taken to be readable arrays. The refuted theorem lists inconsistent parts that are accepted, with what reading and decoding them does."
  },
  {
   "property": "C56",
   "status": "proved",
   "theorems": [
    "storage_has_the_rows",
    "storage_of_one_type",
    "storage_reads_the_same",
    "storage_type_refuted"
   ],
   "note": "storage_has_the_rows needs no hypothesis beyond the call returning. Date-time parts (whose storage is a struct of the parts) are not in the array type of this model."
  },
  {
   "property": "C57",
   "status": "proved",
   "theorems": [
    "strings_are_texts",
    "strings_order_as_texts",
    "string_scalars_order_as_texts",
    "buffer_holds_its_bytes",
    "buffers_compare_by_bytes",
    "slice_is_the_range",
    "slice_of_slice",
    "slice_out_of_range",
    "slices_of_equal_buffers_refuted",
    "flex_slices",
    "into_vec_loses_nothing",
    "io_slices_are_the_range",
    "io_slice_in_bounds_refuted"
   ],
   "note": "valid_iff_text also grounds the UTF-8 check used by the other properties (Arr.utf8_valid): it accepts exactly the encodings of texts, and byte order is the order of texts. Alignment and sharing of the memory are not modelled; arrow's decision whether memory can be reused is a parameter of into_vec."
  },
  {
   "property": "C58",
   "status": "proved",
   "theorems": [
    "reads_within",
    "reads_past_the_end",
    "sizes",
    "sources_agree",
    "cursor_reads_the_bytes",
    "reads_are_consecutive",
    "store_ranges",
    "object_past_the_end_refuted",
    "offset_past_the_end_refuted",
    "vec_holds_the_writes",
    "object_is_all_or_nothing"
   ],
   "note": "Sums of positions are 64-bit: the refusals past the end are stated below the overflow. What a store answers is a parameter; files and the tokio, monoio and futures adapters leave everything to the system and are not modelled."
  }
 ]
}