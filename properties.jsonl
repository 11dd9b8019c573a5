{"id": "C01", "title": "tft.max / tft.min are the true extrema for every batching", "statement": "The value returned by tft.max (tft.min) on an integer column is the greatest (smallest) value present in the dataset, however the runner splits the rows into batches and bundles and in whatever order and tree shape it merges partial results.", "quantifier": "all non-empty integer datasets, all splits into non-empty batches, all merge trees of accumulators (including empty ones)", "why_tests_cant": "the runner chooses batch boundaries, bundle boundaries and merge order; a test fixes one choice, and the failing values are single points at the edge of the dtype", "anchors": ["tensorflow_transform/analyzers.py:NumPyCombiner", "tensorflow_transform/analyzers.py:_min_and_max", "tensorflow_transform/analyzers.py:_numeric_combine", "tensorflow_transform/tf_utils.py:reduce_batch_minus_min_and_max"]}
{"id": "C02", "title": "tft.sum, tft.size and element counts do not depend on batching", "statement": "tft.sum (tft.size) of a column equals the sum (count) of all its values, for every way the rows are batched, bundled and merged, and an empty dataset gives 0.", "quantifier": "all datasets including the empty one, all batchings, all merge trees", "why_tests_cant": "unbounded number of batch splits and merge trees", "anchors": ["tensorflow_transform/analyzers.py:sum", "tensorflow_transform/analyzers.py:size", "tensorflow_transform/analyzers.py:NumPyCombiner"]}
{"id": "C03", "title": "tft.mean and tft.var are the population mean and variance for every batching", "statement": "In exact arithmetic the pair returned by tft.mean/tft.var is (sum x / n, sum (x-mean)^2 / n) of the whole dataset, for every split into batches and every merge tree; NaNs produced by empty batches do not contaminate the result.", "quantifier": "all non-empty finite datasets of rationals, all splits in batches (some possibly empty), all merge trees", "why_tests_cant": "the pairwise update is applied along an arbitrary tree chosen by the runner, with operands swapped by size", "anchors": ["tensorflow_transform/analyzers.py:WeightedMeanAndVarCombiner", "tensorflow_transform/analyzers.py:mean", "tensorflow_transform/analyzers.py:var", "tensorflow_transform/tf_utils.py:reduce_batch_count_mean_and_var"]}
{"id": "C04", "title": "The weighted label statistics behind mutual-information vocabularies equal their closed form for every batching", "statement": "For a vocabulary with labels and weights, the statistics of every token (number of rows, mean weight, and for each label its share of the total weight) are those of all the rows in which the token occurs, independent of the batching, of how many labels each batch has seen, and of the merge tree.", "quantifier": "all datasets of (token, label, weight) rows with non-negative weights, all batchings and merge trees", "why_tests_cant": "same as above", "anchors": ["tensorflow_transform/analyzers.py:WeightedMeanAndVarCombiner", "tensorflow_transform/tf_utils.py:reduce_batch_weighted_cooccurrences", "tensorflow_transform/beam/analyzer_impls.py:_MutualInformationTransformAccumulate"]}
{"id": "C05", "title": "tft.covariance equals the population covariance for every batching", "statement": "In exact arithmetic every entry of the matrix returned by tft.covariance equals E[xy]-E[x]E[y] over all rows, independent of batching and merge order.", "quantifier": "all non-empty datasets of vectors, all batchings, all merge trees", "why_tests_cant": "unbounded batchings and merges", "anchors": ["tensorflow_transform/analyzers.py:CovarianceCombiner"]}
{"id": "C06", "title": "Per-key analyzers agree with the global analyzer run on each key's rows", "statement": "For every key the per-key result (count, min/max, mean/var) equals the result of the global analyzer on exactly the rows carrying that key, and rows of other keys have no influence.", "quantifier": "all keyed datasets, all batchings", "why_tests_cant": "needs all datasets, all keys", "anchors": ["tensorflow_transform/analyzers.py:count_per_key", "tensorflow_transform/analyzers.py:_min_and_max_per_key", "tensorflow_transform/analyzers.py:_mean_and_var_per_key", "tensorflow_transform/tf_utils.py:reduce_batch_count_per_key", "tensorflow_transform/tf_utils.py:map_per_key_reductions"]}
{"id": "C07", "title": "scale_to_0_1 / scale_by_min_max stay in range and preserve order", "statement": "For every finite input at or between the analyzed min and max, scale_by_min_max(x, lo, hi) lies in [lo, hi], min maps to lo and max to hi, and x <= y implies scaled(x) <= scaled(y); calls with lo >= hi are rejected.", "quantifier": "all rationals x, y, all analyzed ranges, all output ranges", "why_tests_cant": "all reals/rationals; the degenerate range min = max takes another branch", "anchors": ["tensorflow_transform/mappers.py:scale_by_min_max", "tensorflow_transform/mappers.py:_scale_by_min_max_internal"]}
{"id": "C08", "title": "scale_to_z_score yields mean 0 and unit variance and never divides by zero", "statement": "Scaling a whole dataset by its own mean and standard deviation gives values of mean 0 and variance 1 when the variance is non-zero, and a dataset of one repeated value gives 0 everywhere.", "quantifier": "all non-empty datasets", "why_tests_cant": "all datasets", "anchors": ["tensorflow_transform/mappers.py:scale_to_z_score", "tensorflow_transform/mappers.py:_scale_to_z_score_internal"]}
{"id": "C09", "title": "apply_buckets assigns the number of boundaries not exceeding the value", "statement": "apply_buckets(x, b) returns, for sorted boundaries b, the number of boundaries <= x; hence the result is in [0, len(b)], equals the declared schema range, and is monotone in x.", "quantifier": "all values, all sorted boundary lists of any length", "why_tests_cant": "all lists and values", "anchors": ["tensorflow_transform/mappers.py:apply_buckets", "tensorflow_transform/tf_utils.py:assign_buckets", "tensorflow_transform/mappers.py:_assign_buckets_all_shapes"]}
{"id": "C10", "title": "bucketize_per_key puts every value in its own key's bucket", "statement": "For a key that was seen during analysis, bucketize_per_key returns the number of that key's (strictly increasing) quantile boundaries not exceeding the value, whatever the boundaries of the other keys are.", "quantifier": "all numbers of keys and buckets, all boundary matrices, all values", "why_tests_cant": "boundaries of all keys are packed in one shared list by scale and shift; interference needs specific numeric coincidences", "anchors": ["tensorflow_transform/mappers.py:bucketize_per_key", "tensorflow_transform/mappers.py:_apply_buckets_with_keys", "tensorflow_transform/beam/analyzer_impls.py:_join_boundary_rows", "tensorflow_transform/beam/analyzer_impls.py:_make_strictly_increasing_boundaries_rows"]}
{"id": "C11", "title": "bucketize_per_key output stays in the range declared in the output schema", "statement": "Every value produced by bucketize_per_key lies in the [0, num_buckets-1] range that is written to the output schema.", "quantifier": "all values, keys (including keys never seen during analysis), boundaries", "why_tests_cant": "keys unseen during analysis occur only at serving time", "anchors": ["tensorflow_transform/mappers.py:_apply_buckets_with_keys"]}
{"id": "C12", "title": "apply_buckets_with_interpolation returns a monotone value in [0,1]", "statement": "For sorted boundaries the interpolated value lies in [0,1], is monotone in x, and maps each boundary to index/(n-1) style positions; NaN-free inputs never give NaN.", "quantifier": "all sorted boundary lists, all finite values", "why_tests_cant": "all lists, including duplicates boundaries and single-boundary lists", "anchors": ["tensorflow_transform/mappers.py:apply_buckets_with_interpolation", "tensorflow_transform/tf_utils.py:assign_buckets"]}
{"id": "C13", "title": "The vocabulary file does not depend on how the data was sharded", "statement": "For the default (frequency) ordering the list of vocabulary entries is a function of the multiset of tokens only: sorted by decreasing count, ties by decreasing token, whatever the batching, sharding and merge order.", "quantifier": "all token multisets, all batchings and merge orders", "why_tests_cant": "unbounded schedules", "anchors": ["tensorflow_transform/beam/analyzer_impls.py:VocabularyAccumulateImpl", "tensorflow_transform/beam/analyzer_impls.py:VocabularyMergeImpl", "tensorflow_transform/beam/analyzer_impls.py:VocabularyOrderAndWriteImpl", "tensorflow_transform/beam/analyzer_impls.py:_OrderElementsFn"]}
{"id": "C14", "title": "top_k and frequency_threshold select exactly the right tokens", "statement": "With frequency_threshold f and top_k k the vocabulary is the first k entries of the ordered list of tokens with count >= f; no excluded token has a strictly greater count than an included one.", "quantifier": "all count tables, all k, all f", "why_tests_cant": "all tables with ties", "anchors": ["tensorflow_transform/beam/analyzer_impls.py:VocabularyPruneImpl", "tensorflow_transform/beam/analyzer_impls.py:_ApplyThresholdsAndTopK", "tensorflow_transform/analyzers.py:_get_top_k_and_frequency_threshold"]}
{"id": "C15", "title": "Vocabulary lookup is a bijection between vocabulary entries and indices", "statement": "compute_and_apply_vocabulary maps the i-th vocabulary entry to i, distinct entries to distinct indices, and tokens outside the vocabulary to default_value or to an out-of-vocabulary bucket in [size, size+num_oov_buckets).", "quantifier": "all vocabularies, all tokens, all oov settings", "why_tests_cant": "all tokens", "anchors": ["tensorflow_transform/mappers.py:apply_vocabulary", "tensorflow_transform/mappers.py:_apply_vocabulary_internal", "tensorflow_transform/mappers.py:_make_construct_vocabulary_table_function"]}
{"id": "C16", "title": "Integerized output stays in the range declared in the output schema", "statement": "Every index produced by apply_vocabulary lies in the [min,max] range registered for the output feature, and get_num_buckets exceeds every index.", "quantifier": "all vocabularies, tokens, default values and oov settings", "why_tests_cant": "out-of-range needs rare default/oov combinations", "anchors": ["tensorflow_transform/mappers.py:_apply_vocabulary_internal", "tensorflow_transform/mappers.py:get_num_buckets_for_transformed_feature"]}
{"id": "C17", "title": "A text vocabulary file reads back as the ordered vocabulary", "statement": "Writing the ordered vocabulary as a text file and reading it with vocabulary_by_name returns the same tokens in the same order, because tokens that are empty or contain a newline never enter a text vocabulary.", "quantifier": "all byte-string tokens", "why_tests_cant": "one token with the wrong byte shifts every later index", "anchors": ["tensorflow_transform/beam/analyzer_impls.py:VocabularyAccumulateImpl", "tensorflow_transform/beam/analyzer_impls.py:VocabularyOrderAndWriteImpl", "tensorflow_transform/output_wrapper.py:TFTransformOutput.vocabulary_by_name", "tensorflow_transform/analyzers.py:_maybe_annotate_vocab_metadata"]}
{"id": "C18", "title": "An empty vocabulary is never written as an empty file", "statement": "When no token survives filtering the vocabulary holds exactly one dummy entry, and its registered size is 1; when some token survives no dummy entry is added.", "quantifier": "all token streams and thresholds", "why_tests_cant": "depends on every filter", "anchors": ["tensorflow_transform/beam/analyzer_impls.py:maybe_add_empty_vocabulary_dummy", "tensorflow_transform/beam/analyzer_impls.py:VocabularyCountImpl", "tensorflow_transform/beam/analyzer_impls.py:VocabularyOrderAndWriteImpl"]}
{"id": "C19", "title": "With store_frequency distinct tokens stay distinct", "statement": "For a text vocabulary written with store_frequency=True, looking up a token finds the entry of that very token, for all tokens accepted in the vocabulary.", "quantifier": "all pairs of byte-string tokens", "why_tests_cant": "spaces are rewritten to a marker; collisions need a token containing the marker", "anchors": ["tensorflow_transform/tf_utils.py:maybe_format_vocabulary_input", "tensorflow_transform/beam/analyzer_impls.py:_count_and_token_to_bytes", "tensorflow_transform/mappers.py:_make_construct_vocabulary_table_function"]}
{"id": "C20", "title": "Label-coverage vocabularies only append to the unrestricted vocabulary", "statement": "Adding coverage_top_k with key_fn keeps all entries chosen by top_k in the same positions and appends the coverage-only entries, each of which is among the coverage_top_k most frequent of its key.", "quantifier": "all count tables, key functions, k and coverage k", "why_tests_cant": "all tables", "anchors": ["tensorflow_transform/beam/analyzer_impls.py:_ApplyThresholdsAndTopK", "tensorflow_transform/beam/analyzer_impls.py:VocabularyPruneImpl"]}
{"id": "C21", "title": "tft.estimated min_diff_from_avg is within documented bounds and monotone", "statement": "calculate_recommended_min_diff_from_avg(n) is in [2, 25] and non-decreasing in n.", "quantifier": "all dataset sizes", "why_tests_cant": "all sizes", "anchors": ["tensorflow_transform/analyzers.py:calculate_recommended_min_diff_from_avg"]}
{"id": "C22", "title": "Weighted label sums used by mutual-information vocabularies are order independent", "statement": "Merging partial (weight, per-label weight) accumulators gives, for each label, the total weight of the rows with that label whatever the merge order and whatever number of labels each partial result knew about.", "quantifier": "all lists of rows, all merge orders", "why_tests_cant": "partial results have different lengths", "anchors": ["tensorflow_transform/beam/analyzer_impls.py:_WeightedMeanCombineFn", "tensorflow_transform/beam/analyzer_impls.py:sum_labeled_weights", "tensorflow_transform/tf_utils.py:extend_reduced_batch_with_y_counts"]}
{"id": "C23", "title": "segment_indices counts from zero within each segment", "statement": "For sorted segment ids tft.segment_indices returns, at each position, the number of earlier positions with the same id.", "quantifier": "all sorted lists of ids", "why_tests_cant": "all lists", "anchors": ["tensorflow_transform/mappers.py:segment_indices"]}
{"id": "C24", "title": "tft.ngrams yields exactly the contiguous windows of each row", "statement": "tft.ngrams(tokens, (n0,n1), sep) returns for each row exactly all contiguous windows of n0..n1 of its tokens joined by sep, in row-major order by start and then by length; windows never cross rows.", "quantifier": "all ragged batches (including empty rows), all ranges 1<=n0<=n1", "why_tests_cant": "all batches", "anchors": ["tensorflow_transform/mappers.py:ngrams"]}
{"id": "C25", "title": "deduplicate_tensor_per_row keeps each distinct value once in first-seen order", "statement": "Each output row is the list of distinct values of the input row in order of first appearance, left aligned.", "quantifier": "all batches of rows", "why_tests_cant": "all batches", "anchors": ["tensorflow_transform/mappers.py:deduplicate_tensor_per_row", "tensorflow_transform/mappers.py:bag_of_words"]}
{"id": "C26", "title": "sparse_tensor_left_align keeps each row's values in order and left aligned", "statement": "Each row's values keep their order and their column indices become 0..len-1.", "quantifier": "all sparse batches in canonical order", "why_tests_cant": "all batches", "anchors": ["tensorflow_transform/mappers.py:sparse_tensor_left_align"]}
{"id": "C27", "title": "tft.tfidf term frequencies of a row sum to one", "statement": "For each row the term frequencies are count(term)/row length, they sum to one for non-empty rows, each term appears once, and all rows are processed independently.", "quantifier": "all batches of token rows", "why_tests_cant": "all batches", "anchors": ["tensorflow_transform/mappers.py:tfidf", "tensorflow_transform/mappers.py:_to_term_frequency", "tensorflow_transform/mappers.py:_count_docs_with_term", "tensorflow_transform/mappers.py:_to_tfidf"]}
{"id": "C28", "title": "tft.word_count returns each row's length, including empty rows", "statement": "tft.word_count returns for each row of the batch the number of its tokens, with one output per row even for trailing empty rows.", "quantifier": "all ragged or sparse batches", "why_tests_cant": "all batches", "anchors": ["tensorflow_transform/mappers.py:word_count"]}
{"id": "C29", "title": "Analyzer-cache coders round trip", "statement": "Decoding an encoded vocabulary accumulator entry or per-key accumulator returns the same key and value for all byte strings, including empty ones and ones containing separators.", "quantifier": "all keys and values", "why_tests_cant": "all byte strings", "anchors": ["tensorflow_transform/analyzer_nodes.py:_BaseKVCoder", "tensorflow_transform/analyzer_nodes.py:_VocabularyAccumulatorCoder", "tensorflow_transform/analyzer_nodes.py:_CombinerPerKeyAccumulatorCoder"]}
{"id": "C30", "title": "Reading the analyzer cache returns what was last written", "statement": "After any sequence of completed cache writes to a directory, reading it returns for each dataset and entry key the data of the last write that contained it, and entries not rewritten keep their data.", "quantifier": "all histories of writes over all datasets and entry keys", "why_tests_cant": "all histories", "anchors": ["tensorflow_transform/beam/analyzer_cache.py:WriteAnalysisCacheToFS", "tensorflow_transform/beam/analyzer_cache.py:ReadAnalysisCacheFromFS", "tensorflow_transform/beam/analyzer_cache.py:_ManifestFile"]}
{"id": "C31", "title": "A crash during a cache write never makes later reads return wrong data", "statement": "If the process dies at any point of a cache write, later reads return for each entry either the old data, the new data or nothing, and later writes/reads stay correct.", "quantifier": "all crash points of all histories", "why_tests_cant": "all crash points", "anchors": ["tensorflow_transform/beam/analyzer_cache.py:_ManifestFile", "tensorflow_transform/beam/analyzer_cache.py:WriteAnalysisCacheToFS"]}
{"id": "C32", "title": "Distinct dataset keys have distinct cache locations", "statement": "Two datasets given different keys never share a cache directory; sanitized keys contain no path separators and sanitizing twice changes nothing.", "quantifier": "all strings", "why_tests_cant": "all strings", "anchors": ["tensorflow_transform/beam/analyzer_cache.py:DatasetKey", "tensorflow_transform/beam/analyzer_cache.py:validate_dataset_keys", "tensorflow_transform/beam/analyzer_cache.py:_make_valid_cache_component"]}
{"id": "C33", "title": "Using the analyzer cache does not change results", "statement": "AnalyzeDatasetWithCache fed with a cache produced by earlier runs on the same datasets returns the same analyzer results as running without a cache, for any subset of entries that is still available; and the cache it was given together with the cache it writes covers every dataset.", "quantifier": "all datasets, all accumulate functions, all commutative merges, all subsets of cached entries", "why_tests_cant": "all subsets of cache hits", "anchors": ["tensorflow_transform/beam/analysis_graph_builder.py:_OptimizeVisitor", "tensorflow_transform/beam/analysis_graph_builder.py:_apply_operation_on_fine_grained_view"]}
{"id": "C34", "title": "get_analysis_dataset_keys reports every dataset whose data is needed", "statement": "The analysis result does not depend on the contents of datasets that get_analysis_dataset_keys leaves out (given the cache it was computed with).", "quantifier": "all pipelines of cacheable/non-cacheable analyzers, all cache contents, all dataset contents", "why_tests_cant": "all caches and contents", "anchors": ["tensorflow_transform/beam/analysis_graph_builder.py:get_analysis_dataset_keys", "tensorflow_transform/beam/analysis_graph_builder.py:_InspectVisitor"]}
{"id": "C35", "title": "Changing the preprocessing function changes the cache key", "statement": "Two analyzers whose inputs are computed by different TensorFlow computations have different cache entry keys (assuming a collision-free hash).", "quantifier": "all graphs", "why_tests_cant": "needs all pairs of graphs", "anchors": ["tensorflow_transform/graph_tools.py:describe_path_as_analyzer_cache_hash", "tensorflow_transform/beam/analysis_graph_builder.py:_make_next_hashed_path", "tensorflow_transform/analyzer_nodes.py:Combiner.__repr__"]}
{"id": "C36", "title": "Graph traversal visits each node once and computes the recursive meaning", "statement": "Traversing an acyclic analysis graph visits each operation exactly once, after its inputs, and gives each output the value of the recursive definition; a cyclic graph is always reported as an error instead of looping.", "quantifier": "all finite graphs", "why_tests_cant": "all graphs", "anchors": ["tensorflow_transform/nodes.py:Traverser"]}
{"id": "C37", "title": "A transformed tensor is evaluated only when everything it depends on is ready", "statement": "ready_to_run(t) is true iff no source on which t transitively depends is un-ready; get_dependent_inputs returns exactly the inputs reachable from t, independent of the order of earlier queries.", "quantifier": "all graphs, all query sequences", "why_tests_cant": "all graphs and query orders", "anchors": ["tensorflow_transform/graph_tools.py:_GraphAnalyzer", "tensorflow_transform/graph_tools.py:InitializableGraphAnalyzer", "tensorflow_transform/graph_tools.py:get_dependent_inputs"]}
{"id": "C38", "title": "Analyzers are scheduled in the fewest phases", "statement": "Each analyzer runs in the phase equal to the longest chain of analyzers below it, all its inputs were produced in strictly earlier phases, and scheduling terminates.", "quantifier": "all acyclic analyzer dependency graphs", "why_tests_cant": "all graphs", "anchors": ["tensorflow_transform/beam/analysis_graph_builder.py:build"]}
{"id": "C39", "title": "Packing combiners does not change results", "statement": "Combining a packed tuple of analyzers gives the tuple of the individual results for every batching and merge tree, and rewriting the analysis graph to packed combines returns each result to its own tensor and its own cache entry: whatever the rewritten graph computes, the original could have computed.", "quantifier": "all lists of combiners, all batchings, all analysis graphs and sets of cache outputs", "why_tests_cant": "graphs are unbounded and the runner chooses bundles and merge order; the rewrite depends on the order in which the traversal meets the analyzers", "anchors": ["tensorflow_transform/beam/analyzer_impls.py:_PackedCombinerWrapper", "tensorflow_transform/beam/analyzer_impls.py:_CombinePerKeyFormatKeys", "tensorflow_transform/beam/combiner_packing_util.py:perform_combiner_packing_optimization", "tensorflow_transform/beam/analyzer_impls.py:PackedCombineMergeImpl"]}
{"id": "C40", "title": "deep_copy duplicates the whole un-materialised upstream of a PCollection", "statement": "deep_copy(p) returns a collection computed by copies of all transforms up to the materialisation boundary, with the same contents as p; each transform is copied once, under a new unique label, and the copies read copies of their inputs, never the originals; the rest of the pipeline is not changed.", "quantifier": "all pipelines (any sharing, any number of outputs, any composites), all collections in them, any number of earlier copies", "why_tests_cant": "the traversal order depends on the shape of the whole upstream graph; a test fixes one shape", "anchors": ["tensorflow_transform/beam/deep_copy.py:deep_copy", "tensorflow_transform/beam/deep_copy.py:_get_items_to_clone", "tensorflow_transform/beam/deep_copy.py:_clone_items"]}
{"id": "C41", "title": "CSV encoding round trips", "statement": "Parsing a line produced by CsvCoder.encode with a standard CSV reader with the same delimiter gives the columns in the declared order with their string values, including values with delimiters and quotes.", "quantifier": "all field strings, all delimiters", "why_tests_cant": "all strings", "anchors": ["tensorflow_transform/coders/csv_coder.py:CsvCoder"]}
{"id": "C42", "title": "Encoding an instance as tf.Example does not depend on earlier instances", "statement": "ExampleProtoCoder.encode returns the feature values of the given instance only, whatever was encoded before, including missing values and calls that failed half way.", "quantifier": "all histories of encode calls", "why_tests_cant": "the coder reuses one message across calls: all histories", "anchors": ["tensorflow_transform/coders/example_proto_coder.py:ExampleProtoCoder"]}
{"id": "C43", "title": "Sparse batch validation accepts exactly the left-aligned batches", "statement": "validate_varlen_sparse_value raises unless the indices enumerate, row by row in increasing order, columns 0,1,2,... of each row.", "quantifier": "all index arrays", "why_tests_cant": "all arrays", "anchors": ["tensorflow_transform/impl_helper.py:validate_varlen_sparse_value"]}
{"id": "C44", "title": "Tukey HH parameter search terminates with admissible parameters", "statement": "compute_tukey_hh_params terminates and returns 0 <= h_left, h_right < 1 (the domain on which the distribution is defined), whatever values the error functions take; the binary search keeps a bracketing interval inside the initial one.", "quantifier": "all L-skewness/L-kurtosis inputs, all error-function behaviours", "why_tests_cant": "iterative search over reals with nested loops", "anchors": ["tensorflow_transform/gaussianization.py:compute_tukey_hh_params", "tensorflow_transform/gaussianization.py:_binary_search"]}
{"id": "C45", "title": "hash_strings and vocabulary range helpers stay in range", "statement": "Values clipped into a vocabulary range are in [0, vocab_size), and in-range ids are unchanged.", "quantifier": "all ids and sizes", "why_tests_cant": "all ids", "anchors": ["tensorflow_transform/tf_utils.py:to_vocab_range"]}
{"id": "C46", "title": "Vocabulary file names are safe, stable path components", "statement": "The sanitized vocabulary file name contains only allowed characters, is unchanged by sanitizing again, and the file written by an analyzer is found again by name.", "quantifier": "all strings", "why_tests_cant": "all strings", "anchors": ["tensorflow_transform/analyzers.py:sanitized_vocab_filename", "tensorflow_transform/output_wrapper.py:TFTransformOutput.vocabulary_file_by_name"]}
{"id": "C47", "title": "sparse_tensor_to_dense_with_shape keeps every value at its index and fills the rest", "statement": "tft.sparse_tensor_to_dense_with_shape returns a matrix of the requested shape (unknown sizes taken from the tensor) that holds every value at its index and the default value elsewhere; it rejects indices that are repeated, unsorted or outside the shape.", "quantifier": "all sparse tensors, shapes and default values", "why_tests_cant": "all tensors", "anchors": ["tensorflow_transform/mappers.py:sparse_tensor_to_dense_with_shape"]}
{"id": "C48", "title": "The columns a preprocessing function is said to read are the columns it reads", "statement": "get_analyze_input_columns returns exactly the columns some analyzer (or a control dependency) reads, through other analyzers too, in the order of the inputs: datasets that agree on them give the same results of every analyzer. get_transform_input_columns returns exactly the columns the outputs read once the analyzers are done: batches that agree on them give the same outputs. Both end, and raise only if something cannot be run.", "quantifier": "all traced graphs, analyzers, tables, datasets and operations", "why_tests_cant": "dropping a column that is read, through any chain of operations, tables and analyzers, changes results only for some data", "anchors": ["tensorflow_transform/inspect_preprocessing_fn.py:get_analyze_input_columns", "tensorflow_transform/inspect_preprocessing_fn.py:get_transform_input_columns", "tensorflow_transform/graph_tools.py:get_dependent_inputs"]}
{"id": "C49", "title": "Contexts scope dynamically, per thread", "statement": "Inside nested `with Context(...)` blocks every getter gives the value of the innermost block that sets it, and the documented default outside; leaving a block, normally or by an exception, restores what held before; so does TFGraphContext, which gives None outside its blocks. Threads do not affect each other, and it does not matter where a context object was constructed.", "quantifier": "all programs of with blocks, exceptions and getters, in any number of threads under any schedule", "why_tests_cant": "all nestings, exceptions and interleavings of threads", "anchors": ["tensorflow_transform/beam/context.py:Context", "tensorflow_transform/graph_context.py:TFGraphContext"]}
{"id": "C50", "title": "Histograms count every value once, and densities are densities", "statement": "tft.histogram returns, for every bin between the boundaries it returns, in order, the number of values of the dataset in it (zero if none), however the dataset is batched; every value is in exactly one bin. estimated_probability_density is the share of the bin of the value over the width of a bin: not negative, with total 1. With categorical=True each distinct value has its number of occurrences, and the mass of a value is its share, zero if it does not occur. As documented, an integer is the number of bins.", "quantifier": "all datasets, batchings, merge orders and sorted boundaries", "why_tests_cant": "all datasets, batchings and boundaries", "anchors": ["tensorflow_transform/analyzers.py:histogram", "tensorflow_transform/tf_utils.py:reorder_histogram", "tensorflow_transform/mappers.py:estimated_probability_density"]}
{"id": "C51", "title": "Transformed rows and passthrough columns stay together, however batches are sliced", "statement": "TransformDataset gives, for a batch, the transformed rows of the graph, in order, each once, whether the output is record batches (each small enough or of one row) or instance dicts, with the values of the passthrough columns of the same row; when the number of rows changes, a passthrough column with one value is repeated for all the rows, and one with different values is refused. Nothing else comes out. For a graph that works row by row the result does not depend on the batching or on the size limit. Passthrough columns that are transformed are refused. EncodeTransformedDataset drops passthrough columns.", "quantifier": "all batches, passthrough keys, graphs, size limits and memory sizes of slices", "why_tests_cant": "all batches, all sizes at which they are sliced and all combinations of row counts", "anchors": ["tensorflow_transform/beam/impl.py:TransformDataset", "tensorflow_transform/beam/impl.py:_convert_to_record_batch", "tensorflow_transform/beam/impl.py:_maybe_slice_large_record_batch", "tensorflow_transform/beam/impl.py:_transformed_batch_to_instance_dicts", "tensorflow_transform/beam/impl.py:EncodeTransformedDataset"]}
{"id": "C52", "title": "A written transform function is read back, whatever died before", "statement": "After WriteTransformFn, the output directory holds exactly the metadata and the transform function that were written and no temporary files, ReadTransformFn returns them, and nothing else in the file system has changed: whatever was there before, wherever earlier runs died or raised, and however the work is scheduled among attempts the runner gives up. A process that dies while publishing leaves the old or the new outputs, and publishing can be repeated.", "quantifier": "all contents of the file system, all histories of runs that died at any point, all schedules of the work", "why_tests_cant": "all crash points and all leftovers of earlier runs", "anchors": ["tensorflow_transform/beam/tft_beam_io/transform_fn_io.py:WriteTransformFn", "tensorflow_transform/beam/tft_beam_io/transform_fn_io.py:ReadTransformFn", "tensorflow_transform/beam/tft_beam_io/beam_metadata_io.py:WriteMetadata"]}
{"id": "C53", "title": "document_frequency and idf count the documents of the entire dataset, once each", "statement": "tft.experimental.document_frequency maps every entry to the number of documents of the dataset that contain its term, however often they contain it and however the documents are batched, with the indices and shape of the input; tft.experimental.idf maps it to the documented (smoothed, with baseline) logarithm of the size of the dataset over that number. Ids outside of the vocabulary are taken modulo its size.", "quantifier": "all datasets, batchings, vocabulary sizes and ids", "why_tests_cant": "all batchings and repetitions of terms; the flattened indices must never collide", "anchors": ["tensorflow_transform/experimental/mappers.py:document_frequency", "tensorflow_transform/experimental/mappers.py:idf", "tensorflow_transform/experimental/mappers.py:_to_term_document_one_hot", "tensorflow_transform/tf_utils.py:document_frequency_to_idf"]}
{"id": "C54", "title": "A transform graph applied to some of its inputs gives the outputs they determine", "statement": "Applying a saved transform function (TFTransformOutput.transform_raw_features, TransformFeaturesLayer, SavedModelLoader.apply_transform_model) to some of its inputs returns exactly the outputs that are computed from them alone, each with the value it has whatever the missing inputs are; unknown inputs, and just those, are refused. finalize accepts exactly outputs that are computed from the given inputs; a finalized loader returns just these outputs, with their values, for these inputs and refuses other combinations of inputs. No output that can be computed is withheld because another one cannot, and a refused call of finalize changes nothing.", "quantifier": "all graphs (dense and composite inputs and outputs, captured tables, control dependencies), all sets of inputs and their values, all orders in which sets are walked and all supplied values", "why_tests_cant": "all graphs and subsets of inputs", "anchors": ["tensorflow_transform/saved/saved_transform_io_v2.py:SavedModelLoader", "tensorflow_transform/saved/saved_transform_io.py:_expand_input_map", "tensorflow_transform/graph_tools.py:retrieve_sources"]}
{"id": "C55", "title": "The mutual information of a token is that with the label, adjusted by its average over all placements", "statement": "For vocabularies ranked by (adjusted) mutual information, the value of a token is the documented weighted sum over the labels of P(y|x) log2(P(y|x)/P(y)), of the entire dataset, however it is batched and merged, with probabilities clipped as documented, over the labels whose weight with the token differs from the expected one by at least min_diff_from_avg. It is 0 for a token in every row, not negative, and 0 for a token independent of the label. With adjustment, the value subtracted is the average of the information over all the ways in which as many rows could have had the token. Any string can be a token.", "quantifier": "all datasets, tokens, labels, weights, batchings and merge orders", "why_tests_cant": "all datasets; the expectation ranges over exponentially many placements of a token, and rounding and clipping only show at the borders", "anchors": ["tensorflow_transform/info_theory.py:calculate_partial_expected_mutual_information", "tensorflow_transform/info_theory.py:calculate_partial_mutual_information", "tensorflow_transform/info_theory.py:_hypergeometric_pmf", "tensorflow_transform/beam/analyzer_impls.py:_calculate_mutual_information_for_feature_value", "tensorflow_transform/beam/analyzer_impls.py:_extract_sentinels", "tensorflow_transform/tf_utils.py:extend_reduced_batch_with_y_counts"]}
{"id": "C56", "title": "A python function in a transform graph is the function that was given, in every process", "statement": "tft.apply_pyfunc stores the function with the graph. Wherever the saved transform function is loaded afterwards (in other processes, several times, in TensorFlow 1 and 2, whatever functions are registered there already, or after it was loaded and saved again as AnalyzeDataset does), every such operation calls the function it was made with; a graph with an operation whose function was not stored is refused.", "quantifier": "all histories of processes, registrations, graphs, saves and loads", "why_tests_cant": "tokens are handed out by a counter of each process; only some histories make those of two processes collide", "anchors": ["tensorflow_transform/py_func/pyfunc_helper.py:insert_pyfunc", "tensorflow_transform/py_func/pyfunc_helper.py:register_pyfuncs_from_saved_transform", "tensorflow_transform/saved/saved_transform_io.py:_partially_apply_saved_transform_impl", "tensorflow_transform/saved/saved_transform_io_v2.py:_restore_from_v1_saved_model"]}
{"id": "C57", "title": "tft.scale_to_gaussian fits the L-moments of the values within batches", "statement": "However the batches of a column are scheduled and merged, the analysis behind tft.tukey_location, tft.tukey_scale, tft.tukey_h_params and tft.scale_to_gaussian computes exactly the average over the one, two, three and four element subsets of values of the same batch of their contributions to the first four L-moments, with their numbers; the location and scale returned match the mean of the column and that second moment; a column without heavy tails is scaled exactly as tft.scale_to_z_score does; and changing the unit of a column that is not constant does not change the result.", "quantifier": "all columns, batches, schedules and trees of merges; dense, sparse and reduced", "why_tests_cant": "the factors are polynomials in the position and the number of values of a batch; tests compare a few samples with a tolerance", "anchors": ["tensorflow_transform/tf_utils.py:_num_terms_and_factors", "tensorflow_transform/tf_utils.py:reduce_batch_count_l_moments", "tensorflow_transform/analyzers.py:_LMomentsCombiner", "tensorflow_transform/gaussianization.py:tukey_hh_l_mean_and_scale", "tensorflow_transform/mappers.py:_scale_to_gaussian_internal"]}
{"id": "C58", "title": "The Gaussian values of tft.scale_to_gaussian are the inverse of the fitted distribution", "statement": "In exact arithmetic the fixed number of iterations of the Lambert W function ends within 1e-20 of the true value for every positive argument, and never below it; the value that tft.scale_to_gaussian returns for a column with heavy tails has the sign of the distance to the location, is mapped back to the value by the Tukey HH function with the fitted parameters up to a relative error of 1e-7, and keeps the order of values that differ by more than that.", "quantifier": "all values, all admissible parameters, all columns with heavy tails and all schedules", "why_tests_cant": "the start of the iteration is piecewise over all positive numbers and the number of steps is fixed; tests try a few values with a tolerance", "anchors": ["tensorflow_transform/gaussianization.py:lambert_w", "tensorflow_transform/gaussianization.py:inverse_tukey_hh", "tensorflow_transform/mappers.py:_scale_to_gaussian_internal"]}
{"id": "C59", "title": "tft.pca returns the directions that retain the most variance", "statement": "However the rows are batched, bundled and merged, the matrix that tft.pca(x, output_dim) returns has orthonormal columns; the rows are uncorrelated along them, with decreasing variances; and no other output_dim orthonormal directions retain more of the variance of the dataset. Without rows the columns are the first basis vectors.", "quantifier": "all datasets of rows, schedules, numbers of columns and output dimensions up to it, and all eigenvalue decompositions and orders of eigenvalues that numpy may return", "why_tests_cant": "optimality is against all other families of directions; tests check two or three matrices", "anchors": ["tensorflow_transform/analyzers.py:PCACombiner", "tensorflow_transform/analyzers.py:pca", "tensorflow_transform/analyzers.py:CovarianceCombiner"]}
{"id": "C60", "title": "The inferred schema describes the outputs of the preprocessing function, with what was said of them", "statement": "Whatever a preprocessing function outputs and whatever it says of tensors (ranges of vocabulary indices, annotations of tensors and of the schema, shapes of sparse outputs), the inferred schema has for each output, by name, columns of its type and shape; the range that was set last for its values; its annotations in order; and for sparse outputs the shape given last. Before analyzers are evaluated it has the same without bounds, annotations and given shapes. It raises exactly when an output cannot be described. Columns never collide if names of outputs have no dollar.", "quantifier": "all dicts of dense, sparse and ragged outputs of any type and static shape, all sequences of calls that annotate tensors, all values of annotation tensors, TensorFlow 1 and 2", "why_tests_cant": "which annotation reaches which output depends on combinations of kinds of tensors, names, and several calls for one tensor; tests cover one annotation at a time", "anchors": ["tensorflow_transform/schema_inference.py:infer_feature_schema", "tensorflow_transform/schema_inference.py:infer_feature_schema_v2", "tensorflow_transform/schema_inference.py:_infer_feature_schema_common", "tensorflow_transform/schema_inference.py:set_tensor_schema_override", "tensorflow_transform/schema_inference.py:annotate", "tensorflow_transform/tf_metadata/schema_utils.py:schema_from_feature_spec"]}
{"id": "C61", "title": "Transforming a dataset gives the preprocessing function with every analyzer applied to the entire dataset", "statement": "For a preprocessing function made of any TensorFlow operations, tables and analyzers, where analyzers may read, directly or through operations and tables, results of other analyzers, analysis succeeds and transforming any batch gives every output the value obtained by evaluating the function on that batch with each analyzer's result computed from its input tensors on the entire dataset. The result does not depend on the order in which batches are seen in each phase, on the version of TensorFlow, or on the temporary values of analyzers in TensorFlow 2.", "quantifier": "all graphs without cycles, all semantics of operations, tables and analyzers whose results do not depend on the order of batches, all datasets and batches, all orders of batches in each phase, TensorFlow 1 and 2", "why_tests_cant": "it quantifies over preprocessing functions: which phases, bindings and table initializers are needed depends on the whole graph; tests evaluate a few functions", "anchors": ["tensorflow_transform/beam/analysis_graph_builder.py:build", "tensorflow_transform/beam/impl.py:_CreateSavedModelImpl", "tensorflow_transform/beam/impl.py:_CreateSavedModelImplV2", "tensorflow_transform/beam/impl.py:_ApplySavedModelImpl", "tensorflow_transform/graph_tools.py:InitializableGraphAnalyzer"]}
{"id": "C62", "title": "Tracing the preprocessing function a second time binds each analyzer call to its own result, or is rejected", "statement": "In TensorFlow 2 the preprocessing function is traced once to analyze and again to write the transform. If it calls its analyzers in the same order, or if every call has a name of its own, or if a changed order is accepted although no two calls read the same inputs, then every output of the written transform has the value the function means on the analyzed dataset. Whatever the second trace is, a call only ever gets the result of a call of the first trace that reads the same inputs. The documented error promises that a changed order is detected: it is not when two unnamed calls of one analyzer read the same inputs.", "quantifier": "all preprocessing functions, all names of calls, all orders of calls in the second trace, all datasets and batches, all semantics of operations and analyzers", "why_tests_cant": "non-determinism in a user's function shows up in some runs only, and the outcome depends on how names with suffixes line up between two traces", "anchors": ["tensorflow_transform/analyzer_nodes.py:_bind_future_as_tensor_v2", "tensorflow_transform/graph_tools.py:get_analyzers_fingerprint", "tensorflow_transform/impl_helper.py:_validate_analyzers_fingerprint", "tensorflow_transform/impl_helper.py:trace_and_write_v2_saved_model"]}
{"id": "C63", "title": "Storing per-key statistics in a file does not change the result of per-key scaling", "statement": "For tft.scale_to_0_1_per_key, tft.scale_by_min_max_per_key and tft.scale_to_z_score_per_key, giving key_vocabulary_filename stores the statistics of each key in a text file that is looked up when transforming. When no key has a space or a line break, every row gets the statistics of its own key, zeros if its key was not in the data, exactly as without a file. With spaces this is false: a key is looked up by its text up to the first space, so rows with spaces in their keys are scaled as if their key was unknown, rows with other keys get statistics that are not theirs, or, when two keys begin with the same word, the transform cannot be initialized. Statistics of float64 columns are rounded to float32 by the file.", "quantifier": "all sets of keys and statistics, all orders in which Beam yields them, all batches of keys, all texts of numbers that are read back", "why_tests_cant": "it quantifies over the characters of keys; the repository's tests use single letters as keys", "anchors": ["tensorflow_transform/tf_utils.py:apply_per_key_vocabulary", "tensorflow_transform/analyzers.py:_apply_cacheable_combiner_per_key_large", "tensorflow_transform/beam/analyzer_impls.py:_CombinePerKeyFormatLargeImpl", "tensorflow_transform/beam/analyzer_impls.py:_OrderElementsFn", "tensorflow_transform/mappers.py:_scale_to_z_score_internal"]}
{"id": "C64", "title": "Batches contribute to a mutual information vocabulary exactly what their rows have", "statement": "tft.vocabulary with labels reduces every batch, whether the feature is dense, sparse or ragged and whether labels are dense or sparse, to the count of each token, its weight and its weight with each label, and to the same of all the rows. Summed over the batches this is what the dataset has, however its rows are batched, and the mean labels of a token without weights, and so its mutual information, are those of its rows for every order of the batches and every merge tree. This is false of some documented inputs: labels of the same shape as a matrix x are rejected, so are weights of the same shape as a matrix x; weights of a sparse x are taken as both per value and per row; a negative label is counted for another token; a row without labels makes a batch fail if no other row of the batch has labels.", "quantifier": "all dense, sparse and ragged features with any number of ragged dimensions, all labels that are not negative, single or several per row, all filters of tokens, all batches and all merge trees", "why_tests_cant": "it quantifies over batches, nesting and schedules; the repository's tests check a few literal batches of reduce_batch_weighted_cooccurrences", "anchors": ["tensorflow_transform/tf_utils.py:reduce_batch_weighted_cooccurrences", "tensorflow_transform/tf_utils.py:_compute_weighted_counts", "tensorflow_transform/tf_utils.py:_preprocess_tensors_for_cooccurences", "tensorflow_transform/tf_utils.py:extend_reduced_batch_with_y_counts", "tensorflow_transform/analyzers.py:_get_vocabulary_analyzer_inputs", "tensorflow_transform/beam/analyzer_impls.py:_flatten_to_key_and_means_accumulator_list", "tensorflow_transform/analyzers.py:WeightedMeanAndVarCombiner"]}
{"id": "C65", "title": "A vocabulary asked for by its name is that vocabulary, and its size is the number of its entries", "statement": "Whatever else a preprocessing function computes and annotates: TFTransformOutput.vocabulary_by_name returns, for the name given to tft.vocabulary or tft.experimental.approximate_vocabulary (or that of the generated file), the entries of that vocabulary in order; vocabulary_size_by_name and, while tracing, tft.experimental.get_vocabulary_size_by_name return their number, whether or not the schema has annotations; an asset annotated with tft.annotate_asset is found under its key. This holds when the names give distinct files and no other name ends in a slash and this name. It is false otherwise: a later vocabulary dir/words hides the vocabulary words; assets annotated under a key with a slash are not found; with reserved tokens that occur in the data the size is not the number of entries.", "quantifier": "all sequences of calls of tft.vocabulary, approximate_vocabulary and annotate_asset, all names, formats and other assets", "why_tests_cant": "it quantifies over all names and the other vocabularies of the preprocessing function; tests use one vocabulary with a plain name", "anchors": ["tensorflow_transform/output_wrapper.py:TFTransformOutput.vocabulary_by_name", "tensorflow_transform/output_wrapper.py:TFTransformOutput.vocabulary_size_by_name", "tensorflow_transform/output_wrapper.py:TFTransformOutput.vocabulary_file_by_name", "tensorflow_transform/annotators.py:annotate_asset", "tensorflow_transform/annotators.py:get_asset_annotations", "tensorflow_transform/analyzers.py:register_vocab", "tensorflow_transform/analyzers.py:_maybe_annotate_vocab_metadata", "tensorflow_transform/experimental/annotators.py:get_vocabulary_size_by_name"]}
{"id": "C66", "title": "Objects made with tft.make_and_track_object are made once for each name and saved with the transform function", "statement": "In the traces of a preprocessing function within one scope, calls of tft.make_and_track_object with the same name return the object made by the first factory of that name that did not raise, whose object is the only one invoked for it; calls without a name return objects of their own; every object returned is saved with the transform function, and no object of a call that raised is. The scope is left without a tracker however the trace ends. This is false for names that the module uses itself: some are returned without invoking the factory, others are lost from the saved module. A second, different factory under a name that is in use is ignored instead of rejected.", "quantifier": "all sequences of calls in any number of traces, all factories that return objects, Keras layers or None, or raise, all names", "why_tests_cant": "it quantifies over all histories of calls and retraces, including factories that fail", "anchors": ["tensorflow_transform/annotators.py:make_and_track_object", "tensorflow_transform/annotators.py:ObjectTracker", "tensorflow_transform/annotators.py:object_tracker_scope", "tensorflow_transform/saved/saved_transform_io_v2.py:trace_and_update_module", "tensorflow_transform/graph_context.py:TFGraphContext"]}
{"id": "C67", "title": "Messages encoded in the graph read back as the values they were made from", "statement": "serialize_example turns a dict of dense tensors and sparse tensors of rank 2 into one serialized tf.train.Example for each row of the batch, from which a protocol buffer reader gets exactly the features of the dict, each with the values of that row, whatever the order of insertion into the dict; it is an error exactly for an empty dict, other types or different batch sizes. The annotations that vocabularies and bucketized features attach read back as the name and sizes of the vocabulary and the boundaries. The documented rule that indices within the rows of a sparse tensor are ignored is false: a row whose values are not at columns 0, 1, ... loses values, with defaults in their place.", "quantifier": "all dicts of tensors of string, int64 and float32, all shapes, batch sizes and values, all vocabulary names and sizes, all boundaries", "why_tests_cant": "it quantifies over all batches and goes down to the bytes of the wire format, for all values of 64 bit integers", "anchors": ["tensorflow_transform/tf_utils.py:serialize_example", "tensorflow_transform/tf_utils.py:_serialize_feature", "tensorflow_transform/tf_utils.py:_encode_proto", "tensorflow_transform/analyzers.py:_maybe_annotate_vocab_metadata", "tensorflow_transform/mappers.py:_annotate_buckets", "tensorflow_transform/annotations.proto"]}
{"id": "C68", "title": "bucketize splits data into buckets of about the same weight", "statement": "tft.bucketize with k buckets puts every value into one of k buckets, larger values not into smaller ones and NaN into the last, and each bucket holds the share 1/k of the total weight of the (non-missing, not NaN) values of its feature, up to twice the error epsilon times the total weight plus the weight of values that become one float32 number; by default the error is 1/100 for up to 100 buckets and 1/k for more. This holds for any batching, sharding, merging and compaction, with or without weights, for all values together or each element on its own, if only the quantiles sketch keeps its promise on ranks. Distinct large integers are not spread: sixty consecutive ones may all be in the last of ten buckets; and one bucket is not an error though documented as one.", "quantifier": "all datasets, batchings and orders of merging, numbers of buckets, errors, weights, types and every quantiles sketch that keeps its promise", "why_tests_cant": "it quantifies over all datasets and all schedules of a distributed computation with an approximate sketch", "anchors": ["tensorflow_transform/mappers.py:bucketize", "tensorflow_transform/analyzers.py:quantiles", "tensorflow_transform/analyzers.py:QuantilesCombiner", "tensorflow_transform/mappers.py:apply_buckets", "tensorflow_transform/tf_utils.py:assign_buckets"]}
{"id": "C69", "title": "approximate_vocabulary finds every frequent value and is exact for few values", "statement": "tft.experimental.approximate_vocabulary with top_k = k writes at most k values of the data, each once, in decreasing order of (estimated frequency, value). The estimate of a value is never above its true frequency (number of occurrences, or total weight) and below it by at most delta, where (k+1) delta is at most the total frequency minus the sum of the estimates; a value that is not in the file has the estimate 0. So every value with more than 1/(k+1) of the total frequency is in the file, and if there are at most k different values (and weights are positive) the file is the one tft.vocabulary writes with the same top_k. Reserved tokens come first in their order and the other values follow as without them. This holds for any batching, sharding, merging and caching, if only the sketch keeps its documented bounds. The file is not determined by the rows: the same four rows give a file with one value or that of an empty vocabulary, depending on how they are batched.", "quantifier": "all datasets, batchings, orders of merging, uses of the cache, values of top_k, weights, reserved tokens, and every sketch that keeps its documented bounds", "why_tests_cant": "it quantifies over all datasets and all schedules of a distributed computation with an approximate sketch", "anchors": ["tensorflow_transform/experimental/analyzers.py:approximate_vocabulary", "tensorflow_transform/experimental/analyzers.py:_VocabularyCombiner", "tensorflow_transform/beam/analyzer_impls.py:_VocabularyOrderAndWriteImpl", "tensorflow_transform/tf_utils.py:reduce_batch_weighted_counts"]}
{"id": "C70", "title": "A feature spec reads back from the metadata made from it", "statement": "tft.DatasetMetadata.from_feature_spec returns for exactly the feature specs made of fixed-length features without a default value, variable-length, sparse features with as many sizes as index keys and ragged features with row lengths or uniform lengths, of types int64, float32 and string, with int, float or string domains. If sparse features give their keys and sizes as lists, ragged features name their value column and have int64 row splits that are not validated, and no two features are parsed from the same column, the schema reads back as the same feature spec and domains; the order of the dicts does not matter. Whatever schema a feature spec was read from, metadata made from it reads back as it, if it has no default values; and removing columns from metadata gives metadata that reads as before without them. Other feature specs do not read back: different specs have the same schema, a feature that is also the index column of another is lost, and removing columns drops annotations and raises if a feature has a default value.", "quantifier": "all feature specs, domains, orders of items, schemas without struct features, and sets of removed columns", "why_tests_cant": "it quantifies over all feature specs and schemas; tests round-trip a few", "anchors": ["tensorflow_transform/tf_metadata/schema_utils.py:schema_from_feature_spec", "tensorflow_transform/tf_metadata/schema_utils.py:schema_as_feature_spec", "tensorflow_transform/tf_metadata/dataset_metadata.py:DatasetMetadata.from_feature_spec", "tensorflow_transform/beam/impl.py:_remove_columns_from_metadata"]}
{"id": "C71", "title": "The threads of a worker share a graph without mixing up batches", "statement": "In a worker process the threads that process batches share a loaded transform graph. Whatever the interleaving of threads, bundles, barriers and the garbage collector, the outputs of each batch are those of the graph of its own step in its own directory, or the call raises, and then the step was given two directories. If each step has one directory, every call is answered exactly once. No two graphs of a step are in memory at once; a step's graph is loaded at most once while its copies live, and at most once for the whole life of a worker that only has that step, until the shared state is cleared. After the shared state is cleared and the copies are torn down, every graph can be freed, unless a call ended after the clearing. With two steps a graph may be loaded again.", "quantifier": "all schedules of set-ups, calls, returns, tear-downs, barriers and collections, all numbers of steps and threads, all models and batches", "why_tests_cant": "it quantifies over interleavings of threads and the garbage collector; a test runs one of them", "anchors": ["tensorflow_transform/beam/impl.py:_RunMetaGraphDoFn.process", "tensorflow_transform/beam/impl.py:_clear_shared_state_after_barrier", "tensorflow_transform/beam/impl.py:_RunMetaGraphDoFn._make_graph_state"]}
{"id": "C72", "title": "Transform functions and metadata of older versions load as what they were", "statement": "A transform function saved by an older version, whose signature has an item for every component of a feature, is loaded with today's signature, whatever the order of the items and whatever other graphs are in the saved model, unless a sparse feature is called dense_shape: then it never loads. A signature of today loads as it is if no name ends like the name of a component; a column called price$values loads as a sparse column price without indices. The transform function is the first graph whose only tag is that of transform functions; without one, loading raises, and a graph without the signature loads as one without inputs and outputs. A schema in the JSON format of older versions reads as the features it describes, with types, shapes and integer domains, unless one has a default value: then it does not read. Its sparse features are dropped.", "quantifier": "all features, orders of items, names, other graphs, and JSON documents that describe features, with any other keys", "why_tests_cant": "it quantifies over names, orders and documents; the tests read two documents without looking at the result", "anchors": ["tensorflow_transform/saved/saved_transform_io.py:_update_legacy_signature", "tensorflow_transform/saved/saved_transform_io.py:_load_transform_saved_model", "tensorflow_transform/saved/saved_model_loader.py:choose_meta_graph_def", "tensorflow_transform/tf_metadata/metadata_io.py:_parse_schema_json"]}
{"id": "C73", "title": "In single precision, too, scaling keeps its range, its order and its ends", "statement": "The graph computes in IEEE 754 single precision. For every column of numbers of magnitude at most 2^126 that has two different values in single precision, and however it is split in batches, tft.scale_to_0_1 gives finite numbers of [0, 1], exactly 0 for the least and exactly 1 for the greatest value, each within 5 * 2^-24 of its exact position, and tft.scale_by_min_max gives numbers in the order of the values, not below output_min, the least of them exactly output_min, each within a relative 2^-19 of its exact place. tft.scale_to_z_score never gives NaN for finite statistics, keeps the order, gives 0 for the mean and is within a relative 2^-21 of (x - mean) / sqrt(var) for every positive variance.", "quantifier": "all columns of integers, float32 and float64 values, all batchings, all output ranges up to 2^100, all means and variances", "why_tests_cant": "it quantifies over all floating point numbers; rounding errors show only for particular values", "anchors": ["tensorflow_transform/mappers.py:_scale_by_min_max_internal", "tensorflow_transform/mappers.py:_scale_to_z_score_internal", "tensorflow_transform/mappers.py:scale_to_0_1", "tensorflow_transform/analyzers.py:_min_and_max", "tensorflow_transform/tf_utils.py:reduce_batch_minus_min_and_max"]}
{"id": "C74", "title": "Interpolated buckets stay in [0, 1] and in order in single precision", "statement": "tft.apply_buckets_with_interpolation computes in IEEE 754 single precision. For all sorted boundaries (2 to 2^24 of them, of magnitude at most 2^126, equal ones allowed) and all values of the same dtype, integers or float32: the result is a finite number of [0, 1], exactly 0 below the first boundary and exactly 1 from the last one on; results are in the order of the values, across boundaries too; a value between two boundaries is within 2^-21 of its exact place and boundary k becomes the single precision number nearest to k / (n - 1).", "quantifier": "all sorted lists of boundaries, all integers and float32 values", "why_tests_cant": "it quantifies over all floating point numbers; an inversion at a boundary would show only for particular values", "anchors": ["tensorflow_transform/mappers.py:apply_buckets_with_interpolation", "tensorflow_transform/tf_utils.py:assign_buckets"]}
{"id": "C75", "title": "The sum of a float column is accurate however it is batched", "statement": "tft.sum of a tf.float32 column adds with rounding, within each batch, across the batches of a bundle and across bundles, in orders TensorFlow, NumPy and Beam choose. For every column, batching, schedule and order: up to 2^23 values whose magnitudes sum to at most 2^126 give a finite sum within n * 2^-23 times the sum of the magnitudes of the exact sum, so two runs over the same rows differ by at most twice that; values that are multiples of one power of two, with magnitudes summing to at most 2^24 of it (such as whole numbers up to 2^24 in all), are summed exactly; one NaN makes the sum NaN; no rows sum to zero.", "quantifier": "all columns of float32 values, all batchings, all schedules of the combiner, all orders of addition within a reduction", "why_tests_cant": "it quantifies over all schedules and orders of addition and over all floating point numbers", "anchors": ["tensorflow_transform/analyzers.py:sum", "tensorflow_transform/analyzers.py:NumPyCombiner"]}
{"id": "C76", "title": "Datasets and cache entries that are not reported can be left out of an analysis", "statement": "tft_beam.analysis_graph_builder.get_analysis_dataset_keys reports the datasets an analysis with cache has to read, and get_analysis_cache_entry_keys the cache entries it can use. For every graph of analyzers whose cached values do not depend on other cached values, every cache written by earlier runs and every set of datasets: AnalyzeDatasetWithCache given None for any of the datasets that are not reported succeeds, provided it has a pipeline; it gives exactly the result and output cache of the call with all the datasets, each entry with the size of its dataset, and the result is that of an analysis without cache. Entries under keys that are not reported never matter, for the datasets asked about or others, and what a run writes it writes under reported keys, for given cached datasets, where there was no entry.", "quantifier": "all graphs of analyzers, all caches written by earlier runs, all sets of datasets and all choices of unreported datasets and entries to leave out", "why_tests_cant": "it quantifies over all graphs, histories of runs and subsets of the datasets and of the cache", "anchors": ["tensorflow_transform/beam/analysis_graph_builder.py:get_analysis_dataset_keys", "tensorflow_transform/beam/analysis_graph_builder.py:get_analysis_cache_entry_keys", "tensorflow_transform/beam/impl.py:AnalyzeDatasetWithCache"]}
{"id": "C77", "title": "Mean and variance of single precision columns", "statement": "tft.mean and tft.var of a tf.float32 column, NaNs and infinities left out. For every column of up to 2^53 values in batches of up to 2^23, every schedule of bundles and merges in which the first batch of a bundle has a value, and every order in which a batch is summed: the mean is a finite number and the variance is never negative and never NaN, whatever the values. If the values are at most M in magnitude, and the N batches have at most B values, the mean is off by at most ((B + 3) * 2^-23 + N * 2^-48) * M: the combining of batches adds almost nothing to the error of single precision sums. For M between 2^-50 and 2^48 the variance is off by at most ((28 * B + 84) * 2^-23 + N * 2^-40) * M^2. If the values are all equal, and the sums of the batches do not round, the mean is that value and the variance zero.", "quantifier": "all columns of floats, batchings, schedules and orders of summation", "why_tests_cant": "rounding depends on the values, on the batches and on the order in which they are combined", "anchors": ["tensorflow_transform/analyzers.py:mean", "tensorflow_transform/analyzers.py:var", "tensorflow_transform/analyzers.py:WeightedMeanAndVarCombiner", "tensorflow_transform/tf_utils.py:reduce_batch_count_mean_and_var"]}
{"id": "C78", "title": "z-scores of single precision columns, from the batches to the outputs", "statement": "tft.scale_to_z_score of a tf.float32 column, analysis and scaling together. For every column of up to 2^53 values in batches of up to 2^23, every schedule of bundles and merges in which the first batch of a bundle has a value, and every order in which a batch is summed: if the values are at most 2^100 in magnitude, the z-score of any value up to 2^126, of the column or not, is not NaN, and a greater value does not have a lower z-score. If all values are equal, and the sums of the batches do not round, the z-scores are zero. If the values are at most M, in N batches of at most B values, and their standard deviation is sigma, then with E = (28 * B + 84) * 2^-23 + N * 2^-40 every z-score is off by at most 2 * E * (M / sigma)^3, provided that 2 * E * M^2 is at most the variance.", "quantifier": "all columns of floats, batchings, schedules, orders of summation and values to be scaled", "why_tests_cant": "the error of the analysis and that of the scaling add up, in ways that depend on the values, the batches and the order in which they are combined", "anchors": ["tensorflow_transform/mappers.py:scale_to_z_score", "tensorflow_transform/mappers.py:_scale_to_z_score_internal", "tensorflow_transform/analyzers.py:WeightedMeanAndVarCombiner", "tensorflow_transform/tf_utils.py:reduce_batch_count_mean_and_var"]}
{"id": "C79", "title": "buckets per key in single precision", "statement": "tft.bucketize_per_key on tf.float32 boundaries, where the boundaries of all keys are scaled and shifted into one float array that is then searched by bisection. For every matrix of boundaries, NaN and infinities among them, and every value: a key of the vocabulary gets a bucket from 0 to num_buckets - 1, any other key gets -1. If the boundaries of a key are finite, in order, not all equal and at most rho times their spread away from zero, a greater value of that key does not get a lower bucket, whatever the other keys' boundaries are. If all keys' boundaries are so, a value that is further from the boundaries of its own key than (keys + num_buckets + rho) / 2^16 of their spread gets the number of these boundaries at or below it, as if there were no other keys and no rounding.", "quantifier": "all numbers of keys and buckets, boundary matrices, keys and values of any numeric dtype", "why_tests_cant": "rounding moves the boundaries of different keys in different ways, so that they need not stay in order; whether a value ends up among the boundaries of another key depends on all of them", "anchors": ["tensorflow_transform/mappers.py:bucketize_per_key", "tensorflow_transform/mappers.py:_apply_buckets_with_keys", "tensorflow_transform/beam/analyzer_impls.py:_join_boundary_rows", "tensorflow_transform/beam/analyzer_impls.py:_make_strictly_increasing_boundaries_rows", "tensorflow_transform/tf_utils.py:assign_buckets"]}
{"id": "C80", "title": "elementwise minima, maxima and sums of sparse columns", "statement": "tft.min, tft.max and tft.sum of a SparseTensor with reduce_instance_dims=False. However the batches are cut and scheduled: at each coordinate of an instance that has values, tft.min and tft.max of finite tf.float32 or of integers give the least and the greatest of all the values the dataset has there. At a coordinate without values they give NaN for tf.float32, and for tf.int8, tf.int32 and tf.int64 the greatest number of the dtype and the least plus one. tft.sum gives the exact sum of the values at each coordinate, 0 where there is none, if no batch overflows.", "quantifier": "all schedules, batches (empty ones included), sets of missing coordinates, integer dtypes and values, with the shape of an instance known or not", "why_tests_cant": "what an absent value contributes depends on which batches have values at the coordinate, on the default of the accumulators and on whether the shape is known", "anchors": ["tensorflow_transform/analyzers.py:_min_and_max", "tensorflow_transform/analyzers.py:sum", "tensorflow_transform/analyzers.py:NumPyCombiner", "tensorflow_transform/tf_utils.py:_sparse_minus_reduce_min_and_reduce_max", "tensorflow_transform/tf_utils.py:reduce_batch_count", "tensorflow_transform/tf_utils.py:_get_missing_value"]}
{"id": "C81", "title": "buckets per key of about the same weight", "statement": "tft.bucketize_per_key, from the batches of a dataset to the buckets of its rows, with at least three buckets. Whatever the batches, however a runner combines the rows of each key, and whatever the sketch of the quantiles if it keeps its promise of an error at most epsilon: every value with a key of the dataset is in one of the buckets 0 to num_buckets - 1 (also if the key's rows are all NaN or weigh nothing), a value with another key is in -1; the bucket depends on the rows of the value's own key alone; if the boundaries of the key are apart by a millionth of their range, the bucket is the one tft.bucketize computes of the rows of that key alone, and each bucket has 1/num_buckets of the weight of the key up to twice epsilon of it and the weight of equal values; for any boundaries the buckets are as balanced up to the weight of the values in two intervals of num_buckets millionths of the range.", "quantifier": "all datasets of keys, values and weights, batchings, runner schedules, sketches that keep their promise, numbers of buckets and keys", "why_tests_cant": "the balance of the buckets depends on the whole dataset, its batching and the error of the sketch at once, and how close values are compared to the range of their key is not visible in small examples", "anchors": ["tensorflow_transform/mappers.py:bucketize_per_key", "tensorflow_transform/analyzers.py:_quantiles_per_key", "tensorflow_transform/analyzers.py:QuantilesCombiner", "tensorflow_transform/beam/analyzer_impls.py:_split_inputs_by_key", "tensorflow_transform/beam/analyzer_impls.py:_merge_outputs_by_key", "tensorflow_transform/beam/analyzer_impls.py:_join_boundary_rows"]}
{"id": "C82", "title": "implementations of the operations of an analysis", "statement": "For any history of registrations with register_ptransform, an operation of an analysis is carried out by the PTransform that was last registered for its exact class and the current environment (TF1 compatibility or TF2), if there is none by the one last registered for its class without tags, and if there is none of these either a ValueError is raised; registrations for other classes have no influence; outputs are given as a tuple and failures name the label. Every operation the library uses has an implementation in both environments, whatever a user registers before or after, and whatever the order in which the library's modules are loaded.", "quantifier": "all histories of registrations, operation classes, environments, PTransforms, labels and inputs, and all orders of the library's registrations", "why_tests_cant": "registrations happen at import, in an order that depends on the user's imports, and tests see one order and one environment each", "anchors": ["tensorflow_transform/beam/common.py:register_ptransform", "tensorflow_transform/beam/common.py:_PtransformWrapper", "tensorflow_transform/beam/common.py:ConstructBeamPipelineVisitor.visit", "tensorflow_transform/beam/impl.py:_CreateSavedModelImplV2"]}
{"id": "C83", "title": "z-scores per key of single precision columns, from the batches to the outputs", "statement": "tft.scale_to_z_score_per_key of a tf.float32 column, analysis and scaling together. For every dataset of keyed values in batches, every schedule of the bundles and merges of a key and every order in which a batch is summed: if the finite values of the key are at most M in magnitude, with M between 2^-50 and 2^48, in N batches of at most B values (batches in which the key has no finite value may be among them, also the first), and the variance of each of these batches is at least (6 * B + 22) * 2^-23 * M^2 or the batch has at most one finite value, then z-scores are not NaN and a greater value does not have a lower one; if moreover 2 * E * M^2 is at most the variance of the key, with E = (28 * B + 84) * 2^-23 + N * 2^-40, every z-score is off by at most 2 * E * (M / sigma)^3. If all values of the key are equal, and neither the sums nor the sums of squares of the batches round, the z-scores are zero. A finite value whose key was not seen, or seen with NaN and infinite values only, is left unchanged.", "quantifier": "all datasets of keys and floats, batchings, schedules per key, orders of summation, keys and values to be scaled", "why_tests_cant": "per key the variance of a batch is a difference of two rounded numbers, so that what is lost depends on the values and on how they are batched; tests have small values far from each other", "anchors": ["tensorflow_transform/mappers.py:scale_to_z_score_per_key", "tensorflow_transform/mappers.py:_scale_to_z_score_internal", "tensorflow_transform/analyzers.py:_mean_and_var_per_key", "tensorflow_transform/analyzers.py:WeightedMeanAndVarCombiner", "tensorflow_transform/tf_utils.py:reduce_batch_count_mean_and_var_per_key", "tensorflow_transform/tf_utils.py:map_per_key_reductions"]}
{"id": "C84", "title": "Min-max scaling in single precision for every schedule, also per key", "statement": "tft.scale_by_min_max, tft.scale_to_0_1 and their per-key variants on integers and floats, analysis and scaling together. For every dataset in batches, every schedule of bundles and merges (of a key's inputs, with keys) and every column of numbers of magnitude at most 2^126 (of the key): if its least and greatest values differ in single precision, a value between them, seen in the analysis or not, is scaled by scale_to_0_1 to a number of [0, 1], the least to exactly 0, the greatest to exactly 1, each within 5 * 2^-24 of its exact position; between any other bounds of magnitude at most 2^100 no value falls under the lower bound and each is within a relative 2^-19 of its exact place; the order of values is kept. If all values are the same single precision number, if there are none, or if the key was not seen, the place of a value is its sigmoid.", "quantifier": "all datasets of numbers and keys, batchings, schedules, output bounds, keys and values to be scaled", "why_tests_cant": "what is combined are rounded numbers, in an order the runner chooses, from accumulators whose initial value is told apart by comparison; tests have one schedule and few values", "anchors": ["tensorflow_transform/mappers.py:scale_by_min_max", "tensorflow_transform/mappers.py:scale_by_min_max_per_key", "tensorflow_transform/mappers.py:_scale_by_min_max_internal", "tensorflow_transform/analyzers.py:_min_and_max", "tensorflow_transform/analyzers.py:_min_and_max_per_key", "tensorflow_transform/analyzers.py:NumPyCombiner", "tensorflow_transform/tf_utils.py:reduce_batch_minus_min_and_max_per_key"]}
{"id": "C85", "title": "Applying pretrained functions and saved models", "statement": "tft.apply_function_with_checkpoint and tft.apply_saved_model. For every tensor-in-tensor-out function, all inputs, checkpoints and scopes: if the call succeeds, each returned tensor has, for all values of the inputs, the value the function has for those inputs with the variables of the checkpoint, and only variables that are chosen by the include and exclude scopes are used; it succeeds if each input is the first output of an operation of its own and used, and the variables chosen, each by one scope, are in the checkpoint and suffice. For every saved model: if the call succeeds, the signature is the one asked for, the tensors are the outputs asked for in that order, each with the value the model has for the inputs given, and all its table initializers are added to the graph; it succeeds if inputs are given for exactly the names of the signature and each is used.", "quantifier": "all functions, saved models, inputs, checkpoints, scopes, signatures, output keys and values of the inputs", "why_tests_cant": "inputs are bound by the names of graph operations, so that what happens depends on which tensors are passed together; tests pass one or two tensors of different names", "anchors": ["tensorflow_transform/pretrained_models.py:apply_saved_model", "tensorflow_transform/pretrained_models.py:apply_function_with_checkpoint", "tensorflow_transform/pretrained_models.py:_get_variables_to_restore", "tensorflow_transform/pretrained_models.py:_get_variables"]}
{"id": "C86", "title": "Analyzers made of PTransforms of the user", "statement": "tft.experimental.ptransform_analyzer. A PTransform is given every batch of the dataset once, in any order, and the tensors are the elements of the PCollections it returns, in order. With tft.experimental.CacheablePTransformAnalyzer, for every sequence of analyses, each given the cache that those before have left, with or without a cache and however the data is divided into datasets: the output is extract(merge(make(all the data))), if the stages are what the documentation asks for (merging does not depend on the order, and accumulators that were merged stand for those they were merged from), the coder gives back what it was given, and analyzers with the same cache key do the same. A dataset that was cached is not read again and may be gone.", "quantifier": "all PTransforms and analyzers, datasets, batches, orders of elements, divisions into datasets and histories of analyses with their caches", "why_tests_cant": "whether cached accumulators are mixed up depends on the earlier analyses and on the process they ran in; the unit test replaces the hash of cache keys and has one dataset", "anchors": ["tensorflow_transform/experimental/analyzers.py:ptransform_analyzer", "tensorflow_transform/experimental/analyzers.py:CacheablePTransformAnalyzer", "tensorflow_transform/beam/analyzer_impls.py:_PTransformImpl", "tensorflow_transform/beam/analysis_graph_builder.py:_OptimizeVisitor"]}
{"id": "C87", "title": "Types of the tensors of features, and domains of the columns of SequenceExamples", "statement": "For every feature spec: what a batch is parsed to has the type that the preprocessing function is traced and outputs are written with (kind, type, sizes, number of partitions), when the partitions of uniform length come last; the placeholders made with TF1 have the same types, and are made exactly for the kinds and types that are supported; those of type specs have these types; the two are not mixed. For every schema of SequenceExamples: the features are those of contexts and feature lists together, and each has the domain of the column that its values are in, shared domains included, if no two columns have the same name.", "quantifier": "all feature specs, partitions, sizes, batches, schemas, nested structs, shared domains and sets of features", "why_tests_cant": "whether the type of a ragged tensor matches depends on the order of its partitions, and what a name is resolved to on all other columns; the unit tests have one order and different names", "anchors": ["tensorflow_transform/impl_helper.py:get_type_specs_from_feature_specs", "tensorflow_transform/impl_helper.py:batched_placeholders_from_specs", "tensorflow_transform/impl_helper.py:get_tensors_to_arrow_converter", "tensorflow_transform/tf_metadata/schema_utils.py:_sequence_schema_as_feature_spec", "tensorflow_transform/tf_metadata/schema_utils.py:_get_source_feature_domains"]}
{"id": "C88", "title": "Applying a SavedModel of a transform to tensors of a graph, again and again", "statement": "Applying the transform function of a SavedModel to tensors of a TF1 graph (transform_raw_features, and the phases of an analysis), any number of times and in any name scope: each output that is returned has the value that it has in the SavedModel when the given tensors are fed to its inputs, its asset files are those of the model, its variables (partitioned or not) are what was saved, and for the inputs that were not given what is fed to the new tensors that are returned for them. Tensors that were in the graph keep their values. Inputs that the model does not have are refused. With drop_unused_features the outputs are kept that need no input that was not given, and these do not depend on what is fed to those.", "quantifier": "all graphs, SavedModels, name scopes, given tensors (dense, sparse, composite), replacements of tensors, feeds, checkpoints and histories of applications", "why_tests_cant": "whether names clash depends on what else is in the graph and on how often models were applied; tests apply a model once or twice", "anchors": ["tensorflow_transform/saved/saved_transform_io.py:partially_apply_saved_transform_internal", "tensorflow_transform/saved/saved_transform_io.py:_expand_input_map", "tensorflow_transform/saved/saved_transform_io.py:_partially_apply_saved_transform_impl", "tensorflow_transform/output_wrapper.py:TFTransformOutput._transform_raw_features_compat_v1"]}
{"id": "C89", "title": "Inputs that are supplied for features that are not given", "statement": "Applying a TF2 SavedModel, or a TransformFeaturesLayer, to some of the features (and tracing the function that evaluates annotations): the function is called with a tensor for every input, the given ones as they are, and for each other one a well formed tensor of its type, dense, sparse of any rank or ragged of any depth, with as many rows as the given ones, or one row if none is given.", "quantifier": "all types of inputs, given tensors and sizes of batches (also empty ones)", "why_tests_cant": "an input of another type, or a batch of another size, can make the supplied tensors malformed, which makes unrelated outputs fail; tests have few types", "anchors": ["tensorflow_transform/tf2_utils.py:supply_missing_tensor", "tensorflow_transform/tf2_utils.py:supply_missing_inputs", "tensorflow_transform/saved/saved_transform_io_v2.py:SavedModelLoader._apply_v2_transform_model"]}
{"id": "C90", "title": "Which function a TransformFeaturesLayer applies, and where", "statement": "One TFTransformOutput, used any number of times (its layer called, transform_raw_features, load_transform_graph) in any mix of eager mode and graphs: no use fails because of what came before; each applies the function that is in the files; in graph mode it applies one that is loaded in the current graph, in eager mode one that is loaded eagerly, once, and that is tracked for checkpoints.", "quantifier": "all histories of uses, graphs (also those of functions) and modes, and changes of the files between them", "why_tests_cant": "what the layer has loaded is kept between uses, so it depends on their order; tests use a layer in one or two contexts", "anchors": ["tensorflow_transform/output_wrapper.py:TransformFeaturesLayer", "tensorflow_transform/output_wrapper.py:TFTransformOutput.transform_features_layer", "tensorflow_transform/output_wrapper.py:TFTransformOutput.transform_raw_features"]}
{"id": "C91", "title": "Analysis in place writes the output of functions without analyzers, and refuses others", "statement": "analyze_in_place(preprocessing_fn, ...): a function with analyzers is refused, and the output directory is left as it was; otherwise, if it finishes, the directory has the transform function and the metadata of this preprocessing function; wherever it is stopped, a directory with metadata is a complete output.", "quantifier": "all preprocessing functions, results of tracing and of inferring metadata, contents of the directory, both modes, and crash points", "why_tests_cant": "crashes and failures can be anywhere between the writes, over any directory; tests look at results of runs that finish, or at the error", "anchors": ["tensorflow_transform/impl_helper.py:analyze_in_place", "tensorflow_transform/impl_helper.py:_assert_no_analyzers_in_graph"]}
{"id": "C92", "title": "What analyses accept", "statement": "AnalyzeDataset and AnalyzeDatasetWithCache start an analysis exactly if the preprocessing function returns a dict with outputs and has no trainable variables, the metadata has features, no keys are to be passed through instance dicts, the keys of datasets and caches have letters, digits, periods, hyphens and underscores only, and there is a dataset or a pipeline.", "quantifier": "all results of tracing, metadata, keys, datasets (also None), caches and pipelines", "why_tests_cant": "each condition has to be looked at in every combination with the others; tests have one example of each error", "anchors": ["tensorflow_transform/beam/impl.py:_AnalyzeDatasetCommon.expand", "tensorflow_transform/beam/impl.py:AnalyzeDatasetWithCache.expand", "tensorflow_transform/beam/analyzer_cache.py:validate_dataset_keys"]}
{"id": "C93", "title": "Outputs of functions without their automatic control dependencies", "statement": "Where the outputs of a traced preprocessing function wait for operations with side effects or checks, tf.Transform takes them apart: the outputs as the function returned them, and what they wait for. Fetching the outputs gives the same values as fetching the first and running the second, and both together need exactly the inputs that the outputs need, so that no column that an analysis needs is missing from get_analyze_input_columns.", "quantifier": "all graphs, operations (also those that fail), lists of outputs and values", "why_tests_cant": "graphs can be of any shape; tests have one with an assertion", "anchors": ["tensorflow_transform/tf2_utils.py:strip_and_get_tensors_and_control_dependencies", "tensorflow_transform/inspect_preprocessing_fn.py:get_analyze_input_columns", "tensorflow_transform/saved/saved_transform_io_v2.py:optimize_concrete_function"]}
{"id": "C94", "title": "Lookups in vocabularies wait for them, and then read them", "statement": "tft.apply_vocabulary (and other lookups in files of analyzers), while a preprocessing function is traced again and again: as long as the analyzer of a vocabulary is pending, every lookup in it waits for it, so that nothing is computed of temporary files; when it has been evaluated, lookups read its file; lookups in files of the function's own read these; tracing does not fail.", "quantifier": "all preprocessing functions as sequences of vocabularies and lookups in any order, sets of analyzers that have been evaluated, and both modes", "why_tests_cant": "which lookups are right depends on the phase and on all other vocabularies of the function; tests have one or two", "anchors": ["tensorflow_transform/tf_utils.py:construct_and_lookup_table", "tensorflow_transform/tf_utils.py:lookup_table", "tensorflow_transform/tf_utils.py:track_asset_analyzer_output", "tensorflow_transform/mappers.py:apply_vocabulary"]}
{"id": "C95", "title": "Every vocabulary gets its own reserved tokens", "statement": "tft.vocabulary and tft.experimental.approximate_vocabulary with reserved_tokens, given as strings or as a tensor, for any number of vocabularies of a preprocessing function: the file of a vocabulary gets the reserved tokens of its own call, in their order, and none if it asks for none; the size that is annotated counts them; vocabularies that are added later change nothing for the others; analysis is refused only if tokens cannot be computed without data.", "quantifier": "all sequences of vocabularies with and without reserved tokens, names, name scopes and formats of files, and values of tensors", "why_tests_cant": "which tokens a vocabulary gets depends on the names of all vocabularies of the function; tests have one vocabulary with reserved tokens", "anchors": ["tensorflow_transform/tf_utils.py:register_vocabulary_reserved_tokens", "tensorflow_transform/tf_utils.py:fetch_vocabulary_reserved_tokens", "tensorflow_transform/analyzers.py:_vocabulary_analyzer_nodes", "tensorflow_transform/experimental/analyzers.py:_approximate_vocabulary_analyzer_nodes", "tensorflow_transform/beam/analyzer_impls.py:_ExtractVocabularyReservedTokensImpl"]}
