{
 "claims": [
  {
   "property": "C01",
   "status": "partial",
   "theorems": [
    "c01_max_exact",
    "c01_min_exact",
    "c01_min_exact_nonempty_batches",
    "c01_elementwise_exact",
    "c01_uint32_uint64_rejected",
    "c01_max_of_constant_dtype_max_column_is_wrong",
    "c01_max_refuted",
    "c01_max_schedule_independence_refuted",
    "c01_min_refuted",
    "c01_float_min_max_exact",
    "c01_float_min_max_empty",
    "c01_float_infinity_refuted"
   ],
   "note": "The unguarded statement is false of the code: c01_max_refuted, c01_max_schedule_independence_refuted and c01_min_refuted are the counterexamples (sentinel -dtype.max collides with data; negation of dtype.min wraps). c01_max_exact / c01_min_exact / c01_elementwise_exact are the exact guarded versions for every schedule. Floating point columns: c01_float_min_max_exact (finite values, every schedule), c01_float_infinity_refuted (batches of only infinities)."
  },
  {
   "property": "C02",
   "status": "partial",
   "theorems": [
    "c02_sum_exact",
    "c02_sum_64bit",
    "c02_size_exact",
    "c02_sum_refuted",
    "c02_sum_schedule_independence_refuted"
   ],
   "note": "The unguarded statement is false for narrow integer dtypes: a batch is summed in the dtype of the input (c02_sum_refuted). Exact under the stated guards for every schedule; tft.size is exact. Integer dtypes."
  },
  {
   "property": "C03",
   "status": "proved",
   "theorems": [
    "c03_mean_and_var_exact",
    "c03_mean_and_var_elementwise_exact",
    "c03_mean_and_var_sparse_exact",
    "c03_sparse_nan_refuted"
   ],
   "note": "Exact (rational) arithmetic; dense, sparse and ragged columns, both settings of reduce_instance_dims, batches may be empty; non-finite values are ignored. c03_sparse_nan_refuted is an additional finding outside the quantifier (non-finite values in elementwise sparse columns corrupt the variance)."
  },
  {
   "property": "C04",
   "status": "proved",
   "theorems": [
    "c04_weighted_label_statistics_exact",
    "c04_negative_weights_refuted"
   ],
   "note": "Exact arithmetic, every schedule, from rows to the merged accumulator. c04_negative_weights_refuted shows the guard on weights is needed. (A weighted variance does not exist in the code: it raises ValueError.)"
  },
  {
   "property": "C05",
   "status": "partial",
   "theorems": [
    "c05_covariance_exact",
    "c05_covariance_empty",
    "c05_integer_columns_refuted"
   ],
   "note": "Proved for floating point columns (exact arithmetic). Refuted for integer columns: inner products are computed in the dtype of the column and overflow (c05_integer_columns_refuted)."
  },
  {
   "property": "C06",
   "status": "partial",
   "theorems": [
    "c06_count_per_key_exact",
    "c06_max_per_key_exact",
    "c06_min_per_key_exact",
    "c06_min_max_per_key_agree",
    "c06_int16_refuted",
    "c06_mean_and_var_per_key_exact",
    "c06_outputs_sorted_by_key",
    "c06_outputs_order_independent",
    "c06_map_per_key",
    "c06_float_min_max_per_key_exact"
   ],
   "note": "Proved for counts, mean/var and, for every dtype but int16, min/max. Refuted for int16 min/max (c06_int16_refuted): the per-key reduction does not widen int16."
  },
  {
   "property": "C07",
   "status": "proved",
   "theorems": [
    "c07_scale_by_min_max",
    "c07_dataset_in_range",
    "c07_empty_dataset_in_range",
    "c07_rejects_empty_output_range",
    "c07_per_key_in_range",
    "c07_per_key_unseen_in_range"
   ],
   "note": "Exact arithmetic; sigmoid is any monotone function into (0,1) (specified by is_sigmoid). The dataset theorem composes the analyzer (every schedule) with the mapper."
  },
  {
   "property": "C08",
   "status": "proved",
   "theorems": [
    "c08_z_score",
    "c08_z_score_monotone",
    "c08_per_key_unseen"
   ],
   "note": "Over the real numbers of the standard library (its axioms are listed in DESIGN.md section 6)."
  },
  {
   "property": "C09",
   "status": "partial",
   "theorems": [
    "c09_apply_buckets_count",
    "c09_count_monotone",
    "c09_apply_buckets_nan",
    "c09_apply_buckets_in_schema_range",
    "c09_float16_refuted",
    "c09_unsigned_boundaries_refuted"
   ],
   "note": "Proved for every pair of dtypes where the common dtype can hold both (compatible). Refuted for float16 with integers and for unsigned boundaries with negative values (c09_float16_refuted, c09_unsigned_boundaries_refuted)."
  },
  {
   "property": "C10",
   "status": "partial",
   "theorems": [
    "c10_own_key_bucket",
    "c10_own_key_bucket_any_row",
    "c10_strict_row",
    "c10_strict_row_moves_up",
    "c10_two_buckets_first_key",
    "c10_two_buckets_refuted",
    "c10_one_bucket_raises"
   ],
   "note": "Proved for three or more buckets (exact arithmetic). Refuted for two buckets (c10_two_buckets_refuted); one bucket raises."
  },
  {
   "property": "C11",
   "status": "partial",
   "theorems": [
    "c11_seen_keys_in_schema_range",
    "c11_unseen_key_refuted"
   ],
   "note": "Proved for keys seen in the analysis. Refuted for other keys, which give -1 (c11_unseen_key_refuted)."
  },
  {
   "property": "C12",
   "status": "proved",
   "theorems": [
    "c12_interpolation",
    "c12_boundaries_equally_spaced",
    "c12_negative_infinity",
    "c12_positive_infinity",
    "c12_nan",
    "c12_nan_single_boundary_refuted"
   ],
   "note": "Exact arithmetic. c12_nan_single_boundary_refuted is a finding outside the statement: NaN with one boundary gives 1, not the documented 0.5."
  },
  {
   "property": "C13",
   "status": "proved",
   "theorems": [
    "c13_schedule_independent",
    "c13_order",
    "c13_ranking_unique",
    "c13_fingerprint_order",
    "c13_reserved_order"
   ],
   "note": "All batchings, datasets and CombinePerKey schedules; exact rational weights. fingerprint_shuffle: proved under distinct fingerprints. With input already sorted by Top.Of the code relies on fusion keeping that order; so does the model."
  },
  {
   "property": "C14",
   "status": "proved",
   "theorems": [
    "c13_order",
    "c14_selection",
    "c14_no_better_token_excluded"
   ],
   "note": "c13_order gives the exact list; c14 states the selection in set terms."
  },
  {
   "property": "C15",
   "status": "partial",
   "theorems": [
    "c15_lookup",
    "c15_injective",
    "c15_lookup_reserved",
    "c15_duplicate_reserved_refuted"
   ],
   "note": "Proved end to end (analysis, file, table, lookup) for string columns. Refuted when a token is reserved twice: the table cannot be initialised (c15_duplicate_reserved_refuted)."
  },
  {
   "property": "C16",
   "status": "proved",
   "theorems": [
    "c16_in_schema_range",
    "c16_range_attained",
    "c16_num_buckets",
    "c16_registered_size",
    "c16_reserved_size_refuted"
   ],
   "note": "For every file, token, default value and number of buckets. c16_reserved_size_refuted is a finding about the separately registered vocabulary size with reserved tokens."
  },
  {
   "property": "C17",
   "status": "partial",
   "theorems": [
    "c17_read_back",
    "c17_reserved_newline_refuted"
   ],
   "note": "Proved for text and TFRecord files. Refuted for reserved tokens, which are not filtered (c17_reserved_newline_refuted)."
  },
  {
   "property": "C18",
   "status": "partial",
   "theorems": [
    "c18_empty_vocabulary",
    "c18_never_empty",
    "c18_dummy_beside_tokens_refuted"
   ],
   "note": "Proved without coverage and reserved tokens. Refuted with top_k together with one of them: the dummy entry appears in a non-empty vocabulary (c18_dummy_beside_tokens_refuted)."
  },
  {
   "property": "C19",
   "status": "partial",
   "theorems": [
    "c19_store_frequency_lookup",
    "c19_no_underscore_distinct",
    "c19_space_collision_refuted",
    "c19_vocabulary_spaces_refuted"
   ],
   "note": "Proved for TFRecord files and for text files up to the replacement of spaces, which is injective on tokens without underscores. Refuted in general (two _refuted theorems)."
  },
  {
   "property": "C20",
   "status": "partial",
   "theorems": [
    "c20_coverage_appends",
    "c18_dummy_beside_tokens_refuted"
   ],
   "note": "Proved when the standard part is not empty or top_k is not set (guard needed: c18_dummy_beside_tokens_refuted)."
  },
  {
   "property": "C21",
   "status": "proved",
   "theorems": [
    "c21_within_bounds",
    "c21_monotone",
    "c21_small_and_large"
   ],
   "note": "Every integer feature cardinality (the default of the code)."
  },
  {
   "property": "C22",
   "status": "proved",
   "theorems": [
    "c22_labeled_weights"
   ],
   "note": "Every grouping of the rows; exact weights."
  },
  {
   "property": "C23",
   "status": "proved",
   "theorems": [
    "c23_segment_indices"
   ],
   "note": "All sorted non-negative ids; kernels segment_sum, cumsum, gather by their documented behaviour."
  },
  {
   "property": "C24",
   "status": "proved",
   "theorems": [
    "c24_ngrams",
    "c24_output_rows",
    "c24_invalid_range"
   ],
   "note": "All row-major batches with any empty rows, all ranges; the shifting, masking and stacking of the code is modelled."
  },
  {
   "property": "C25",
   "status": "proved",
   "theorems": [
    "c25_deduplicate",
    "c25_deduplicate_dense",
    "c25_first_occurrences_unique",
    "c25_rank_one",
    "c25_bag_of_words"
   ],
   "note": "Sparse and dense inputs of rank 2 with at least one row, rank 1, and bag_of_words."
  },
  {
   "property": "C26",
   "status": "proved",
   "theorems": [
    "c26_left_align",
    "c26_left_align_canonical"
   ],
   "note": "Entries in any order."
  },
  {
   "property": "C27",
   "status": "partial",
   "theorems": [
    "c27_tfidf",
    "c27_each_term_once",
    "c27_frequencies_sum_to_one",
    "c27_one_term_vocabulary_refuted"
   ],
   "note": "Exact arithmetic, any logarithm, any batching. Refuted for vocab_size = 1, where the transformation always raises (c27_one_term_vocabulary_refuted)."
  },
  {
   "property": "C28",
   "status": "proved",
   "theorems": [
    "c28_word_count",
    "c28_one_count_per_row"
   ],
   "note": "Two-dimensional sparse batches and ragged batches."
  },
  {
   "property": "C29",
   "status": "proved",
   "theorems": [
    "c29_key_value",
    "c29_encodes",
    "c29_truncated",
    "c29_vocabulary",
    "c29_per_key",
    "c29_json"
   ],
   "note": "Byte layout of struct, both byte orders; JSON text of numbers and nested lists is printed and parsed in the model. Python's float repr is a parameter that is assumed to read back (float_literals). numpy's dtype of the decoded array is not modelled."
  },
  {
   "property": "C30",
   "status": "proved",
   "theorems": [
    "c30_last_write",
    "c30_read_while_writing"
   ],
   "note": "All histories of completed writes with any sharding and any interleaving of the runner's steps. Beam's file sink and source are modelled by their documented behaviour; METADATA files are left out."
  },
  {
   "property": "C31",
   "status": "partial",
   "theorems": [
    "c31_other_entries",
    "c31_written_entries_partial",
    "c31_later_writes_partial",
    "c31_read_raises_refuted",
    "c31_part_of_the_records_refuted",
    "c31_lost_manifest_refuted"
   ],
   "note": "The full statement is false of the code: after a crash reading may raise, return part of the records, or (after the manifest is lost and an index is reused) mix in records of another entry. Proved for all crash points: entries not being written keep their records or are not found; written ones never show another entry's records; later writes are right unless the crash hit the replacement of a manifest."
  },
  {
   "property": "C32",
   "status": "partial",
   "theorems": [
    "c32_no_separators",
    "c32_idempotent",
    "c32_allowed_names_kept",
    "c32_paths",
    "c32_directories",
    "c32_validation",
    "c32_non_cacheable",
    "c32_collision_refuted",
    "c32_parent_refuted",
    "c32_newline_refuted"
   ],
   "note": "Names that differ only in replaced characters share a key (refuted); distinct for names of allowed characters, whose directories are distinct except for '.' and '..'."
  },
  {
   "property": "C33",
   "status": "proved",
   "theorems": [
    "c33_cache_does_not_change_results",
    "c33_one_preprocessing_fn",
    "c33_without_cache",
    "c33_never_raises",
    "c33_all_datasets_covered",
    "c33_written_cache_alone_refuted"
   ],
   "note": "All histories of runs on any datasets with any entries lost. Operations are parameters that meet their documented contract (implementation). Different preprocessing functions: under the hypothesis that equal keys mean equivalent values (see C35). c33_written_cache_alone_refuted: entries that were read are not written again, so the written cache must be merged with the given one."
  },
  {
   "property": "C34",
   "status": "proved",
   "theorems": [
    "c34_reported_datasets_suffice",
    "c34_reported_datasets_suffice_for_written_cache"
   ],
   "note": "All graphs that build makes, all available caches, all other contents of datasets that are not reported. For the written cache: when no cacheable value is computed from another cacheable one."
  },
  {
   "property": "C35",
   "status": "partial",
   "theorems": [
    "c35_paths_partial",
    "c35_paths_any_structure_partial",
    "c35_entry_keys_partial",
    "c35_unchanged_path",
    "c35_unchanged_value",
    "c35_path_of_graph",
    "c35_attribute_order",
    "c35_structure_refuted",
    "c35_op_type_refuted",
    "c35_analyzer_parameters_refuted",
    "c35_stale_cache_refuted"
   ],
   "note": "The full statement is false of the code: the type of an operation is not hashed, nor are the parameters of a combiner, and a run with the cache of an earlier preprocessing function may give its results (the refuted theorems). Proved: equal keys mean equal labels, inputs, attributes and structure, or an explicit collision of two hashed texts, for computations of the same shape; for any structure the only further exception is pieces of text that are the same when joined; unchanged computations keep their keys."
  },
  {
   "property": "C36",
   "status": "proved",
   "theorems": [
    "c36_traversal",
    "c36_meaning_unique",
    "c36_acyclic_succeeds",
    "c36_cycle_reported",
    "c36_terminates"
   ],
   "note": "Any finite graph, any pure visitor, any sequence of queries on one traverser. Python's recursion limit is not modelled."
  },
  {
   "property": "C37",
   "status": "partial",
   "theorems": [
    "c37_ready_and_dependencies",
    "c37_first_query",
    "c37_any_graph_partial",
    "c37_tables_and_inputs",
    "c37_cycle_history_refuted"
   ],
   "note": "Proved for all graphs without cycles, with tables, after any history of queries, and for the first query on any graph. With a cycle (a TensorFlow 1 loop) a later query may call a tensor ready although it depends on an unready source (c37_cycle_history_refuted). Bodies of tf.functions are not modelled."
  },
  {
   "property": "C38",
   "status": "proved",
   "theorems": [
    "c38_phases",
    "c38_inputs_in_earlier_phases"
   ],
   "note": "All graphs on which the analysis is defined and where no analyzer depends on itself."
  },
  {
   "property": "C39",
   "status": "partial",
   "theorems": [
    "c39_packed_accumulate",
    "c39_packed_merge",
    "c39_packed_accumulate_any_schedule",
    "c39_packed_merge_any_schedule",
    "c39_packing_keeps_results",
    "c39_reserved_tokens_refuted"
   ],
   "note": "Packed combines for every schedule and group size, and the rewriting of every well formed graph (single_phase restricts what follows a combine to chains of single-input operations when merges are packed). The full statement is false: an operation with a second input after a packed combine loses it (c39_reserved_tokens_refuted)."
  },
  {
   "property": "C40",
   "status": "partial",
   "theorems": [
    "c40_copy_computes_the_same",
    "c40_copies_upstream_once",
    "c40_labels_unique",
    "c40_returns_partial",
    "c40_copies_read_copies_partial",
    "c40_diamond_refuted",
    "c40_two_outputs_refuted",
    "c40_second_output_raises_refuted",
    "c40_boundary_raises_refuted",
    "c40_hints_refuted"
   ],
   "note": "Contents, copying once, labels and the rest of the pipeline: all valid pipelines. That copies read copies and that a copy is returned are false in general (the refuted theorems) and proved when one output of each transform is used and all ways to a collection have the same length."
  },
  {
   "property": "C41",
   "status": "partial",
   "theorems": [
    "c41_lines_read_back_partial",
    "c41_fixed_lengths_checked",
    "c41_line_break_refuted",
    "c41_carriage_return_refuted",
    "c41_several_values_refuted",
    "c41_array_of_zero_refuted",
    "c41_undescribed_column_refuted",
    "c41_failure_is_permanent_refuted"
   ],
   "note": "All coders, delimiters, schemas and histories of instances, nested secondary lines included. The full statement is false of the code: line breaks before Python 3.13, several values without a secondary delimiter, an array holding one zero, columns the schema lacks, and any call after one that failed on a lone surrogate (the refuted theorems); the positive theorem is guarded by hypotheses that exclude them."
  },
  {
   "property": "C42",
   "status": "proved",
   "theorems": [
    "c42_history_does_not_matter",
    "c42_contents",
    "c42_accepted"
   ],
   "note": "All schemas whose shared columns agree on dtype and shape, all histories of instances, calls that raise half way included; casting of values and reshaping are parameters; the protobuf message is modelled by its documented behaviour (Clear detaches the lists it held), the wire format is not."
  },
  {
   "property": "C43",
   "status": "proved",
   "theorems": [
    "c43_accepts_exactly_left_aligned"
   ],
   "note": "All index arrays TensorFlow can hold; the differences are machine integers and wrap around."
  },
  {
   "property": "C44",
   "status": "partial",
   "theorems": [
    "c44_binary_search_brackets",
    "c44_binary_search_accuracy",
    "c44_search_admissible",
    "c44_params_admissible_partial",
    "c44_between_refuted"
   ],
   "note": "All error functions and all numbers with an order in which rounding keeps mid points between their arguments; the formula of the errors is a parameter. The full statement is false of the code for an L-kurtosis between the threshold 0.1226017 and the Gaussian value 0.12260171954: c44_between_refuted. NaN inputs are not modelled."
  },
  {
   "property": "C45",
   "status": "proved",
   "theorems": [
    "c45_to_vocab_range",
    "c45_hash_strings"
   ],
   "note": "Every list of ids; the hash function is arbitrary."
  },
  {
   "property": "C46",
   "status": "partial",
   "theorems": [
    "c46_safe_characters",
    "c46_idempotent",
    "c46_file_found_by_name",
    "c46_annotated_asset_found",
    "c46_only_existing_files",
    "c46_empty_name_refuted",
    "c46_distinct_names_refuted"
   ],
   "note": "ASCII names. Found again when no other asset shares the sanitized name. Refuted: a name of white space gives an empty file name; distinct names may share a file."
  },
  {
   "property": "C47",
   "status": "proved",
   "theorems": [
    "c47_to_dense",
    "c47_to_dense_accepts"
   ],
   "note": "Two-dimensional tensors."
  },
  {
   "property": "C48",
   "status": "proved",
   "theorems": [
    "c48_analyze_columns",
    "c48_transform_columns"
   ],
   "note": "All traced graphs in which analyzers do not read their own results; operations, analyzers and datasets are arbitrary. Tracing itself is not modelled."
  },
  {
   "property": "C49",
   "status": "partial",
   "theorems": [
    "c49_dynamic_scoping",
    "c49_threads_independent",
    "c49_after_graph_scope_refuted",
    "c49_other_thread_refuted"
   ],
   "note": "All programs and schedules, if graph getters are called inside their blocks and a thread constructs a context before it enters one constructed elsewhere. Refuted otherwise: both raise AttributeError."
  },
  {
   "property": "C50",
   "status": "partial",
   "theorems": [
    "c50_counts",
    "c50_given_boundaries",
    "c50_every_value_once",
    "c50_density",
    "c50_densities_sum_to_one",
    "c50_categories",
    "c50_integer_categories",
    "c50_documented_example_refuted",
    "c50_bin_count_refuted",
    "c50_small_values_refuted",
    "c50_constant_column_refuted"
   ],
   "note": "Counts, densities and categories are exact for at least two sorted boundaries. Refuted: the number of bins for an integer, the documented example, the scale of the shift of the boundaries, the density of a constant column."
  },
  {
   "property": "C51",
   "status": "partial",
   "theorems": [
    "c51_record_batches",
    "c51_instances",
    "c51_different_values",
    "c51_batching",
    "c51_overlap_refused",
    "c51_encoded_passthrough_refuted"
   ],
   "note": "All batches, keys, graphs and sizes; the conversions of tensors are parameters. Refuted: with record batches EncodeTransformedDataset encodes the passthrough columns, although it says it drops them (the encoder of tfx_bsl is taken to encode the columns it is given)."
  },
  {
   "property": "C52",
   "status": "partial",
   "theorems": [
    "c52_write_and_read",
    "c52_work_succeeds",
    "c52_interrupted_partial",
    "c52_published_again_partial",
    "c52_atomic_refuted",
    "c52_retry_refuted"
   ],
   "note": "All file systems, histories and schedules, for one run at a time in an output directory and a file system with atomic renames. Refuted: publishing is not atomic (new metadata may be read with an old or removed transform function), and its retry raises and removes the published metadata. The partial theorems say what a crash can leave and which retries succeed."
  },
  {
   "property": "C53",
   "status": "partial",
   "theorems": [
    "c53_document_frequency",
    "c53_count_determined",
    "c53_batching",
    "c53_idf",
    "c53_one_term_vocabulary_refuted"
   ],
   "note": "All datasets and batchings whose flattened indices fit in 64 bits; any logarithm; the rounding of the division in the one-hot encoding does not matter. Refuted for vocab_size = 1, where document_frequency always raises."
  },
  {
   "property": "C54",
   "status": "partial",
   "theorems": [
    "c54_unexpected",
    "c54_outputs",
    "c54_compat_succeeds",
    "c54_succeeds",
    "c54_finalize",
    "c54_finalized",
    "c54_made_up_inputs_refuted",
    "c54_failed_finalize_refuted",
    "c54_control_dependencies_refuted"
   ],
   "note": "All acyclic graphs of stateless operations and all inputs of the expected types. Refuted: saved models of TensorFlow 2 run on made-up values for the missing inputs, and raise when another output cannot be computed from these; with those of TensorFlow 1 an output with a control dependency on a missing input is asked for and raises; and a refused call of finalize breaks a loader finalized before. The success theorems give the conditions under which nothing raises."
  },
  {
   "property": "C55",
   "status": "partial",
   "theorems": [
    "c55_probabilities",
    "c55_expected",
    "c55_information",
    "c55_adjusted",
    "c55_constant",
    "c55_exact",
    "c55_clipping_refuted",
    "c55_small_weights_refuted",
    "c55_sentinel_refuted",
    "c55_repeated_token_refuted"
   ],
   "note": "Real numbers instead of floating point ones; all datasets, batchings and merge trees; the adjusted information for weights 1; not negative where no probability is clipped. Refuted: clipping makes the information of an independent token negative; where weights sum to less than a half every token has information 0; a token equal to the sentinel is merged with the label counts of the dataset; a token repeated in a row counts several times."
  },
  {
   "property": "C56",
   "status": "partial",
   "theorems": [
    "c56_histories",
    "c56_saved_before_loading",
    "c56_one_process",
    "c56_unregistered",
    "c56_saved_again_refuted",
    "c56_function_bodies_refuted",
    "c56_unregistered_refuted"
   ],
   "note": "All histories in which the functions of each model loaded got their tokens in one process: in particular with one process, or where no graph is saved after a model was loaded into it. Refuted otherwise: a graph loaded and saved again keeps the old tokens too, and the next process may call another function; tokens in bodies of tf.functions are not replaced; and unregistered functions are accepted if none is stored or (TensorFlow 2) the token is among the new ones."
  },
  {
   "property": "C57",
   "status": "partial",
   "theorems": [
    "c57_moments",
    "c57_dense",
    "c57_sparse",
    "c57_mean_and_one_batch",
    "c57_parameters",
    "c57_light_tails",
    "c57_small_batches",
    "c57_units",
    "c57_batching_refuted"
   ],
   "note": "Exact numbers and finite values. The moments of orders two to four are of the subsets within batches only, so that the parameters depend on the batches (refuted: the same column in one batch and in several); with batches of fewer than four values no column is gaussianized. An L-kurtosis between 0.1226017 and that of the Gaussian distribution is left out (C44)."
  },
  {
   "property": "C58",
   "status": "partial",
   "theorems": [
    "c58_lambert_w",
    "c58_inverse",
    "c58_order",
    "c58_scale_to_gaussian",
    "c58_monotone_refuted",
    "c58_documented_function_refuted",
    "c58_small_error_refuted"
   ],
   "note": "Exact arithmetic. Refuted: the order of values closer than 1e-7 (the inverse jumps down where the small case ends), the function in the documentation (the code inverts u exp(h u^2 / 2)), and the error bound 1e-14 that a comment gives for the small case."
  },
  {
   "property": "C59",
   "status": "partial",
   "theorems": [
    "c59_principal",
    "c59_empty",
    "c59_output_dim_refuted",
    "c59_empty_output_dim_refuted"
   ],
   "note": "Exact arithmetic; np.linalg.eigh is assumed to return an eigenvalue decomposition with an orthogonal matrix and np.argsort an order. Refuted for an output_dim above the number of columns: the matrix has fewer columns than declared, and zero columns on an empty dataset."
  },
  {
   "property": "C60",
   "status": "partial",
   "theorems": [
    "c60_schema_v1_partial",
    "c60_schema_v2_partial",
    "c60_deferred_v1",
    "c60_deferred_v2",
    "c60_ordinary_names",
    "c60_sparse_annotation_refuted",
    "c60_two_keys_refuted",
    "c60_shared_values_refuted",
    "c60_column_names_refuted"
   ],
   "note": "Proved if no sparse tensor is annotated in TF1, no annotated sparse tensor shares its values with another output, and in TF2 no two outputs share values. The four refuted theorems show what happens otherwise: annotations are lost, or reach another output, or a KeyError is raised."
  },
  {
   "property": "C61",
   "status": "proved",
   "theorems": [
    "c61_transform",
    "c61_meaning_unique",
    "c61_executions_agree"
   ],
   "note": "Operations are deterministic functions of their inputs; a source shared with an analyzer of an earlier phase is extracted again."
  },
  {
   "property": "C62",
   "status": "partial",
   "theorems": [
    "c62_same_order",
    "c62_named",
    "c62_distinct_sources",
    "c62_detects",
    "c62_names_distinct",
    "c62_order_detected_refuted"
   ],
   "note": "That a changed order is always detected is false (c62_order_detected_refuted); proved under the guards of c62_named and c62_distinct_sources. TensorFlow's Graph.unique_name is modelled from its documented behaviour."
  },
  {
   "property": "C63",
   "status": "partial",
   "theorems": [
    "c63_file",
    "c63_same_as_memory",
    "c63_first_word",
    "c63_conflict",
    "c63_spaces_refuted",
    "c63_float64_refuted"
   ],
   "note": "False for keys with spaces (c63_spaces_refuted, c63_conflict) and for float64 (c63_float64_refuted); proved for keys of one word (c63_file, c63_same_as_memory). How numbers are printed and parsed is a parameter with the hypothesis that printing and parsing gives the number back."
  },
  {
   "property": "C64",
   "status": "partial",
   "theorems": [
    "c64_batch",
    "c64_dataset",
    "c64_statistics",
    "c64_weights",
    "c64_unweighted",
    "c64_information",
    "c64_elementwise_refuted",
    "c64_weighted_values_refuted",
    "c64_sparse_weights_refuted",
    "c64_negative_label_refuted",
    "c64_missing_labels_refuted"
   ],
   "note": "Proved for every batch whose labels are not negative and whose weights, if any, are one for each row with exactly one value (c64_weights: no other shapes are accepted with labels). False of the documented inputs named by the _refuted theorems. Sums are exact instead of float32."
  },
  {
   "property": "C65",
   "status": "partial",
   "theorems": [
    "c65_entries",
    "c65_size",
    "c65_analysed_entries",
    "c65_analysed_size",
    "c65_annotated_asset",
    "c65_slash_refuted",
    "c65_asset_key_refuted",
    "c65_reserved_size_refuted",
    "c65_approximate_names_refuted"
   ],
   "note": "Proved for every sequence of calls in which the names give distinct files and nothing hides the name, and with the analysis of C13 - C20. The full statement is false: see the _refuted theorems. ASCII names."
  },
  {
   "property": "C66",
   "status": "partial",
   "theorems": [
    "c66_outcome",
    "c66_invoked",
    "c66_saved",
    "c66_saved_only",
    "c66_outside",
    "c66_scope_restored",
    "c66_scopes",
    "c66_unique_names_refuted",
    "c66_taken_name_refuted",
    "c66_attribute_name_refuted"
   ],
   "note": "c66_outcome determines the result of every call of every history. Proved for names that a module does not use itself; false for those (c66_taken_name_refuted, c66_attribute_name_refuted). What tf.Module does on setattr (wrapping lists) and saving are not modelled."
  },
  {
   "property": "C67",
   "status": "partial",
   "theorems": [
    "c67_example",
    "c67_columns",
    "c67_order",
    "c67_error",
    "c67_vocabulary_metadata",
    "c67_bucket_boundaries",
    "c67_gaps_refuted"
   ],
   "note": "Proved at the level of bytes for all dense tensors and all left-aligned sparse tensors, with an exact description for the others (c67_columns); the documented treatment of the indices of sparse rows is false (c67_gaps_refuted). The EncodeProto op itself is modelled from its documentation."
  },
  {
   "property": "C68",
   "status": "partial",
   "theorems": [
    "c68_boundaries",
    "c68_range",
    "c68_balanced",
    "c68_balanced_float64",
    "c68_default_epsilon",
    "c68_order",
    "c68_nan",
    "c68_integers_refuted",
    "c68_one_bucket_refuted"
   ],
   "note": "Proved for every plan of batches, merges and compactions and every sketch satisfying the promise stated in QuantileSpec (a sketch that keeps all values is shown to). That buckets of distinct values are of about the same size is false of large integers (c68_integers_refuted), and the documented error for one bucket is not raised (c68_one_bucket_refuted). The sketch of tfx_bsl itself is not modelled."
  },
  {
   "property": "C69",
   "status": "partial",
   "theorems": [
    "c69_bounds",
    "c69_heavy",
    "c69_exact",
    "c69_same_as_vocabulary",
    "c69_reserved",
    "c69_misra_gries",
    "c69_batching_refuted"
   ],
   "note": "Proved for every plan of batches, merges and cached accumulators and every sketch that keeps the bounds of ApproxSpec; the Misra-Gries algorithm is modelled and proved to keep them for all histories (c69_misra_gries). That the file depends only on the rows is false (c69_batching_refuted). Counts and weights are exact; the code passes them to the sketch as float32. The sketch of tfx_bsl itself is not modelled."
  },
  {
   "property": "C70",
   "status": "partial",
   "theorems": [
    "c70_accepts",
    "c70_round_trip",
    "c70_order",
    "c70_read_again",
    "c70_columns",
    "c70_remove",
    "c70_remove_written",
    "c70_lost_refuted",
    "c70_shared_refuted",
    "c70_annotations_refuted"
   ],
   "note": "Proved for all feature specs and schemas without struct features. That every accepted feature spec reads back is false (c70_lost_refuted, c70_shared_refuted), as is that removing columns keeps the rest of the metadata (c70_annotations_refuted). The inference of tensor representations is tfx_bsl's, modelled from its documentation and the project's test cases; c70_accepts, c70_order and c70_lost_refuted do not depend on it."
  },
  {
   "property": "C71",
   "status": "partial",
   "theorems": [
    "c71_right_model",
    "c71_nothing_lost",
    "c71_one_copy",
    "c71_loaded_once",
    "c71_keepalive",
    "c71_keepalive_refuted",
    "c71_released",
    "c71_released_refuted"
   ],
   "note": "Proved for all schedules. apache_beam.utils.shared is modelled from its documented behaviour (weak references, a lock around construction, the object acquired last kept alive). That a graph is never loaded twice is false with two steps (c71_keepalive_refuted), and that clearing frees every graph is false if a call ends after it (c71_released_refuted)."
  },
  {
   "property": "C72",
   "status": "partial",
   "theorems": [
    "c72_old_signature",
    "c72_dense_shape",
    "c72_dense_shape_refuted",
    "c72_new_signature",
    "c72_new_signature_refuted",
    "c72_exported_as_v1",
    "c72_other_graphs",
    "c72_no_signature_refuted",
    "c72_json_schema",
    "c72_json_default",
    "c72_json_default_refuted",
    "c72_json_sparse_refuted"
   ],
   "note": "Proved for all signatures and documents; int() of a string is any function. False, and proved false of the code: sparse features called dense_shape (c72_dense_shape_refuted), names of today that end like components (c72_new_signature_refuted), graphs without the signature (c72_no_signature_refuted), JSON schemas with default values (c72_json_default_refuted) or sparse features (c72_json_sparse_refuted)."
  },
  {
   "property": "C73",
   "status": "partial",
   "theorems": [
    "c73_unit",
    "c73_scaled",
    "c73_order",
    "c73_upper_bound_refuted",
    "c73_constant",
    "c73_exact_integers",
    "c73_exact_float32",
    "c73_integers_refuted",
    "c73_overflow",
    "c73_finite_refuted",
    "c73_zscore_order",
    "c73_zscore_mean",
    "c73_zscore"
   ],
   "note": "Proved bit-exactly, with Flocq's formalization of IEEE 754 (subnormal numbers included; the mode in which they are flushed to zero is not modelled). Three natural readings are false: the upper bound of the output range is exceeded for 0.1 and 0.7 (c73_upper_bound_refuted), different integers above 2^24 or different float64 values can be scaled as one constant (c73_integers_refuted), and a column whose range is 2^128 or more becomes NaN and 0 (c73_overflow, c73_finite_refuted)."
  },
  {
   "property": "C74",
   "status": "partial",
   "theorems": [
    "c74_range",
    "c74_order",
    "c74_accuracy",
    "c74_finite_refuted"
   ],
   "note": "Proved bit-exactly, with Flocq's formalization of IEEE 754; float64 inputs, for which the function computes in float64, are not modelled. That every finite value has a place is false for buckets wider than the largest number (c74_finite_refuted)."
  },
  {
   "property": "C75",
   "status": "partial",
   "theorems": [
    "c75_accuracy",
    "c75_schedules",
    "c75_exact",
    "c75_nan",
    "c75_empty",
    "c75_same_refuted",
    "c75_relative_refuted"
   ],
   "note": "Proved for whole-column sums of tf.float32, with Flocq's formalization of IEEE 754, for all reductions that add in some order; float64, sparse inputs and reduce_instance_dims=False are not modelled here. That the same rows always give the same sum is false (c75_same_refuted), and so is a bound relative to the sum itself (c75_relative_refuted)."
  },
  {
   "property": "C76",
   "status": "partial",
   "theorems": [
    "c76_datasets",
    "c76_entries",
    "c76_written",
    "c76_pipeline_refuted"
   ],
   "note": "Proved for all graphs, caches, datasets and choices of what to leave out, with the PTransforms of the analyzers as in C33. The keys must be asked for with at least one cached dataset. Without the pipeline argument, and when every dataset is left out because the cache has everything, the analysis raises StopIteration although its assertion admits the call (c76_pipeline_refuted); c76_datasets has the guard."
  },
  {
   "property": "C77",
   "status": "partial",
   "theorems": [
    "c77_variance",
    "c77_mean_accuracy",
    "c77_variance_accuracy",
    "c77_constant",
    "c77_first_batch_refuted"
   ],
   "note": "Proved on IEEE numbers (Flocq) with the arithmetic of each step in the precision it runs in: TensorFlow's single precision in a batch, NumPy's promotion of float32 and float64 in the combiner. Without the condition on first batches the statement is false: a first batch without values replaces the float64 accumulator of its bundle, which goes on in single precision, and can overflow to a negative variance (c77_first_batch_refuted)."
  },
  {
   "property": "C78",
   "status": "partial",
   "theorems": [
    "c78_order",
    "c78_constant",
    "c78_accuracy",
    "c78_nan_refuted"
   ],
   "note": "Composes the model of the analysis (C77) and of the scaling (C73) on IEEE numbers. Without the condition on first batches the statement is false: the variance can be negative, and a finite value of the column then has a NaN as its z-score (c78_nan_refuted)."
  },
  {
   "property": "C79",
   "status": "partial",
   "theorems": [
    "c79_range",
    "c79_order",
    "c79_own_key",
    "c79_own_key_refuted",
    "c79_many_keys_refuted"
   ],
   "note": "The IEEE counterpart of C10. Without the distance from the boundaries the statement is false: the greatest number below a boundary can be put at the boundary (c79_own_key_refuted), and with 2^24 + 1 keys all boundaries of the last key coincide, so that a value in the middle between two of them is in the last bucket (c79_many_keys_refuted)."
  },
  {
   "property": "C80",
   "status": "partial",
   "theorems": [
    "c80_float",
    "c80_float_refuted",
    "c80_int",
    "c80_int_missing",
    "c80_int_missing_refuted",
    "c80_widths_refuted",
    "c80_sum"
   ],
   "note": "Proved for finite values, and for missing coordinates of the dtypes that are not cast. With infinite values the maximum depends on the batching (c80_float_refuted). A missing coordinate of a tf.uint8 column has maximum 1, and one of a tf.int16 column gives different values when the shape is known and when it is not (c80_int_missing_refuted). If the shape is not known and the batches differ in width, the analysis fails (c80_widths_refuted)."
  },
  {
   "property": "C81",
   "status": "partial",
   "theorems": [
    "c81_range",
    "c81_own_rows",
    "c81_alone",
    "c81_balanced",
    "c81_balanced_any",
    "c81_close_values_refuted",
    "c81_two_buckets_refuted"
   ],
   "note": "Buckets of about the same size, without conditions on the values, are refuted: of twenty distinct float32 numbers, ten near 0 and ten near 1, five buckets have 3, 7, 10, 0 and 0, where tft.bucketize has 3, 4, 4, 4 and 5 (c81_close_values_refuted); with two buckets all rows of the second key are in one (c81_two_buckets_refuted). Boundaries and values are rounded to float32; the arithmetic of scaling and shifting is exact here, see C79 for its rounding."
  },
  {
   "property": "C82",
   "status": "partial",
   "theorems": [
    "c82_lookup",
    "c82_others",
    "c82_library",
    "c82_order",
    "c82_once_refuted",
    "c82_string_tags_refuted"
   ],
   "note": "That each implementation is registered only once is refuted: the assertion is about a generator object and never fails, and the later one replaces the earlier (c82_once_refuted). Registering with the strings of the tags, as documented, is accepted and never found (c82_string_tags_refuted). PTransforms themselves are arbitrary functions here."
  },
  {
   "property": "C83",
   "status": "partial",
   "theorems": [
    "c83_accuracy",
    "c83_order",
    "c83_constant",
    "c83_none",
    "c83_unseen",
    "c83_nan_refuted",
    "c83_constant_refuted"
   ],
   "note": "Without the condition on the variance of the batches the statement is false: two values 100000 and 100001 of a key in one batch give a variance of -1024 and NaN as z-scores, in whatever order sums are taken, while without a key the z-scores are finite (c83_nan_refuted); five times the float nearest to 0.7 in one batch gives NaN instead of zero (c83_constant_refuted). A key_vocabulary_filename is not modelled here."
  },
  {
   "property": "C84",
   "status": "partial",
   "theorems": [
    "c84_unit",
    "c84_scaled",
    "c84_order",
    "c84_constant",
    "c84_empty",
    "c84_unit_per_key",
    "c84_scaled_per_key",
    "c84_order_per_key",
    "c84_constant_per_key",
    "c84_unseen",
    "c84_infinity_refuted"
   ],
   "note": "For columns with infinities the statement is false: a batch whose only value is an infinity is forgotten when another batch follows and kept when it comes last, so that the greatest finite value of a column is scaled to 1 or to 0 depending on the order of the batches (c84_infinity_refuted). A key_vocabulary_filename and elementwise scaling are not modelled here."
  },
  {
   "property": "C85",
   "status": "partial",
   "theorems": [
    "c85_function",
    "c85_variables",
    "c85_function_runs",
    "c85_saved_model",
    "c85_saved_model_runs",
    "c85_unused_refuted",
    "c85_twice_refuted",
    "c85_second_output_refuted",
    "c85_scope_refuted",
    "c85_overlap_refuted",
    "c85_saved_model_unused_refuted"
   ],
   "note": "Without the conditions on the inputs the statement is false: an argument the function does not use (c85_unused_refuted) or that is not the first output of its operation (c85_second_output_refuted) is a ValueError, and so is an input a saved model does not need for the outputs asked for (c85_saved_model_unused_refuted); a tensor passed twice may be replaced by another tensor without an error (c85_twice_refuted). A scope takes in scopes that begin with its name (c85_scope_refuted), and overlapping scopes are a ValueError (c85_overlap_refuted). TensorFlow's naming of operations, Saver, freezing of variables and graph import are modelled from their documentation."
  },
  {
   "property": "C86",
   "status": "partial",
   "theorems": [
    "c86_plain",
    "c86_history",
    "c86_division",
    "c86_not_read",
    "c86_call",
    "c86_two_outputs_refuted",
    "c86_condition_refuted",
    "c86_restart_refuted",
    "c86_parameters_refuted"
   ],
   "note": "The conditions are needed. The condition that the documentation says must hold is not enough, since accumulators are merged twice (c86_condition_refuted). Cache keys have the class, label and address of the PTransforms: the same analyzer made again, as in the next process, does not find what it wrote (c86_restart_refuted), and one with other parameters at the same address is given wrong accumulators (c86_parameters_refuted). An analyzer with cache cannot have two outputs (c86_two_outputs_refuted). That the representation of a PTransform is its class, label and address is Beam's, from its source."
  },
  {
   "property": "C87",
   "status": "partial",
   "theorems": [
    "c87_types",
    "c87_placeholders",
    "c87_accepted",
    "c87_placeholders_of_types",
    "c87_mixed",
    "c87_domains",
    "c87_features",
    "c87_written",
    "c87_uniform_refuted",
    "c87_size_refuted",
    "c87_same_name_refuted",
    "c87_lost_refuted",
    "c87_renamed_refuted"
   ],
   "note": "The order of partitions is needed (c87_uniform_refuted: the theorem c87_types is an equivalence). A sparse feature whose size is an int has no type (c87_size_refuted). A column of the context and one of the feature lists may have the same name: domains (c87_same_name_refuted) and features (c87_lost_refuted) are then mixed up. A ragged feature with another name than its column is written with a dimension too few (c87_renamed_refuted). What tf.io parses partitions to is from TensorFlow's documentation; how tfx_bsl makes the specs of contexts and feature lists is left open."
  },
  {
   "property": "C88",
   "status": "partial",
   "theorems": [
    "c88_outputs",
    "c88_feeds",
    "c88_unbound",
    "c88_unexpected",
    "c88_assets",
    "c88_history",
    "c88_drop",
    "c88_drop_independent",
    "c88_existing_scope_refuted",
    "c88_components_refuted"
   ],
   "note": "Needs that the name scopes in the graph are in use, which is so unless a graph was imported without name scope: then the output that is returned can be another tensor (c88_existing_scope_refuted). A composite input for which too few parts are given is not refused nor returned as unbound (c88_components_refuted). Names that TensorFlow makes, what importing a graph and initializing from a checkpoint do are modelled from TensorFlow's documentation; tables are not modelled here (C05, C81)."
  },
  {
   "property": "C89",
   "status": "partial",
   "theorems": [
    "c89_supplied",
    "c89_dense",
    "c89_batch",
    "c89_alone",
    "c89_zero_refuted",
    "c89_fixed_rows_refuted",
    "c89_sparse_size_refuted",
    "c89_uniform_refuted",
    "c89_unknown_rank_refuted"
   ],
   "note": "Proved for inputs whose number of rows is not known when tracing, and where known sizes of sparse tensors and lengths of rows are one. Not so for others: a size of 0 (c89_zero_refuted), fixed numbers of rows (c89_fixed_rows_refuted), sparse tensors of known size (c89_sparse_size_refuted), rows of known length (c89_uniform_refuted), unknown rank (c89_unknown_rank_refuted). Which outputs are returned is another property (SavedModelLoader)."
  },
  {
   "property": "C90",
   "status": "partial",
   "theorems": [
    "c90_no_assertion",
    "c90_function",
    "c90_graph",
    "c90_eager",
    "c90_again",
    "c90_drop",
    "c90_tf1",
    "c90_eager_after_graph_refuted",
    "c90_tracked_refuted",
    "c90_graph_refuted",
    "c90_replaced_refuted",
    "c90_keep_refuted"
   ],
   "note": "Proved for all histories that the assertion never fails, that the function in the files is applied while they stay, and what is loaded again; for graphs that were not also default in eager mode, and for histories all in eager mode, that what is applied can be used there. Not so in eager mode after a use in a graph (c90_eager_after_graph_refuted, c90_tracked_refuted), in a graph that was the default one in eager mode (c90_graph_refuted), if the files are replaced (c90_replaced_refuted); drop_unused_features=False is not followed in TF2 (c90_keep_refuted)."
  },
  {
   "property": "C91",
   "status": "partial",
   "theorems": [
    "c91_refused",
    "c91_done",
    "c91_finishes",
    "c91_crash",
    "c91_unchanged",
    "c91_metadata",
    "c91_unchanged_refuted",
    "c91_crash_refuted",
    "c91_failed_refuted"
   ],
   "note": "Proved: refusal in both modes, what a finished analysis leaves, crashes over an empty directory, and in TF1 that refusals change nothing. Not so in TF2, where a refused function is written first (c91_unchanged_refuted), where a crash over an earlier output mixes the two (c91_crash_refuted), and if metadata cannot be inferred (c91_failed_refuted)."
  },
  {
   "property": "C92",
   "status": "partial",
   "theorems": [
    "c92_analyze",
    "c92_with_cache",
    "c92_no_data",
    "c92_cache_keys",
    "c92_keys_refuted",
    "c92_pipeline_refuted"
   ],
   "note": "Proved as an equivalence for both, with the conditions that hold of the code: the keys of caches are looked at, those of datasets are not (c92_keys_refuted); with caches but no dataset or pipeline the failure is a StopIteration, not the assertion for it (c92_pipeline_refuted). Temporary directories (Context) and deferred metadata are left out."
  },
  {
   "property": "C93",
   "status": "partial",
   "theorems": [
    "c93_values",
    "c93_needs",
    "c93_automatic",
    "c93_checks_refuted",
    "c93_mixed_refuted"
   ],
   "note": "Proved for all graphs. Not so where what is waited for is left out, as it is when the function for annotations is saved (c93_checks_refuted), and for outputs that wait for something of which one is not an Identity (c93_mixed_refuted; tf.function makes all of them Identities if there are automatic control dependencies, c93_automatic). WrappedFunction.prune is TensorFlow's and not modelled."
  },
  {
   "property": "C94",
   "status": "partial",
   "theorems": [
    "c94_pending",
    "c94_evaluated",
    "c94_static",
    "c94_fails",
    "c94_final",
    "c94_order_refuted",
    "c94_size_refuted"
   ],
   "note": "Proved for all functions and phases, with exactly the functions for which tracing fails: those with a lookup in a file given as a string after a vocabulary that is pending (c94_fails, c94_order_refuted). Sizes of tables wait for nothing and are of temporary files while analyzers are pending (c94_size_refuted). lookup_fn of the user is left out."
  },
  {
   "property": "C95",
   "status": "partial",
   "theorems": [
    "c95_first",
    "c95_own",
    "c95_made",
    "c95_size",
    "c95_appended",
    "c95_formats_refuted",
    "c95_size_refuted",
    "c95_names_refuted"
   ],
   "note": "Proved for all functions in which vocabularies of the same name have the same reserved tokens; c95_first says for all functions whose tokens each gets. False otherwise: tokens are kept by the name without the suffix of the format, so that the second of two vocabularies with different files gets the tokens of the first (c95_formats_refuted, c95_size_refuted), and different names of the user can be one name (c95_names_refuted). What is written for the tokens is c13_reserved_order and c69_reserved; the size is about data without reserved tokens (c65_reserved_size_refuted)."
  }
 ]
}