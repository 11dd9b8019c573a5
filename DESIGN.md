# A formal model of tensorflow/transform in Rocq

Source: `/repo` (read as text, never run). Model and proofs: `rocq/theories` (logical name `Verif`).

## 1. Method

* `*Model.v` files hold shallow, total, computable Gallina functions that mirror Python functions branch by branch.
  Each definition carries a comment with the file and the lines it models. Python exceptions are values.
* `*Spec.v` (or the first section of a property file) holds the small independent specification.
* `*Proofs.v` (and `*Shape.v`, `*History.v`, …) hold the lemmas; `*Example.v` hold concrete cases.
* `*Props.v` holds only the property theorems (`exact lemma`), non-vacuity `Example`s and `Print Assumptions`.
* A property that is false of the faithful model gets a `_refuted` theorem with a concrete witness, plus the strongest
  positive theorem we can prove under an explicit guard.  Section 5 lists these findings.  A theorem that proves only
  part of its property has the suffix `_partial`.
* Behaviour that the code does not determine (the runner's batching and merge order, the file system at a crash, hash
  functions, logarithms, error functions of a search) is universally quantified: a schedule, a history, or a function
  parameter with the documented contract as an explicit hypothesis of the theorem.
* Wrong programs: `seeded/LOG.jsonl` lists edits of the model that break a claim, and the theorems that then failed.

## 2. Trusted base

* Coq 8.16.1 kernel (and `coqchk`).
* Libraries: the standard library, and for C73 Flocq (its definitions of IEEE 754 formats and operations are part of
  the model there; it adds no axioms).
* `Print Assumptions` for each theorem: see section 6.
* The correspondence between the model and the Python text, by reading only.
* External libraries are modelled by their documented behaviour: numpy, TensorFlow ops, Beam primitives
  (`Flatten`, `CombineGlobally`, `CombinePerKey`: any batching, any merge tree), file system, `csv`, `struct`, `json`.
  Where behaviour is arbitrary it is a universally quantified parameter.
* Floating point: exact rationals, with NaN and infinities where they matter (`FloatModel`); rounding is out of scope,
  except in C73.
  Machine integers wrap around (`NumericModel`).

## 3. Per property: what is modelled and how it is proved

| id | model | proof |
|----|-------|-------|
| C01 | `NumericModel`, `ScaleModel`: `NumPyCombiner` add/merge/extract over pairs (-min, max) with the default-sentinel test; `0 - x` with machine wrap; floating point with infinities | refuted (sentinel collision, wrap of the least integer, infinity); positive theorem for any batching and merge tree under the guard that excludes those |
| C02 | same combiner with sum, batch reduction in the dtype of the column, size | induction over schedules |
| C03, C04 | `MeanVarModel`: `_combine` of `WeightedMeanAndVarCombiner` over exact floats, batch reducers, weights | induction over schedules to the closed form |
| C05 | `CovarianceCombiner` over `Q` | induction over schedules |
| C06 | `PerKeyModel`: per-key batch reducers, `CombinePerKey`, per-key lookup | filter/homomorphism argument |
| C07 | `ScaleModel`: `_scale_by_min_max_internal`, also per key | algebra over `Q` |
| C08 | `ZScoreModel`: `_scale_to_z_score_internal` over `R` | algebra over the reals |
| C09-C12 | `BucketModel`: `assign_buckets`, `_join_boundary_rows`, `_make_strictly_increasing_boundaries_rows`, `_apply_buckets_with_keys`, interpolation | sorted-list lemmas |
| C13-C20 | `VocabModel`, `VocabFileModel`: accumulate, merge, prune, order, write, read back, tables | permutation invariance, uniqueness of sorted lists, round trip through the text file |
| C21, C45, C46 | `MiscModel`: pure functions | arithmetic, list induction |
| C22 | `WeightedModel`: `_WeightedMeanCombineFn`, `sum_labeled_weights` | induction over schedules |
| C23-C28, C47 | `SparseModel`: sparse mappers as functions on (index, value) lists, the shifting and masking kept | list induction |
| C29 | `CacheCoderModel`: struct-packed keys and values, JSON text printed and parsed | round trip |
| C30, C31 | `CacheFSModel`: directory state machine with manifest and shards; steps interleave; a crash at every step | refinement to a finite map; refutations for crash points |
| C32 | `CacheKeyModel`: replacement of characters, validation, paths | induction; refutation of injectivity |
| C33, C34 | `OptimizeModel`: `_OptimizeVisitor` on the analysis graph as a tree, with per-dataset views; evaluation of the optimised graph | structural induction on graphs, induction on histories of runs |
| C35 | `CacheHashModel`: `_serialize_op_attr`, `describe_path_as_analyzer_cache_hash`, fields of operations | induction on computations, up to an explicit collision; refuted for op types and parameters |
| C36 | `TraverseModel`: `Traverser` with memo table and stack | invariant of the recursion; measure for termination; cycle error |
| C37 | `ReadyModel`: `_GraphAnalyzer.analyze_tensor` as the iterative loop, tables | loop invariant, measure; refuted on cyclic graphs |
| C38 | `PhaseModel`: phase loop of `build` | phase = level |
| C39 | `PackModel`: packed combiners as products of combiners; `PackGraphModel`: the visitors that pack a graph | induction over schedules; a packed run is mapped to a run of the original graph by replacing each packed label; a vocabulary with reserved tokens refutes the unrestricted statement |
| C40 | `DeepCopyModel`: the queue of `_get_items_to_clone`, the loop of `_clone_items`, labels and resource hints | invariants of both loops; measure for the queue; levels for the order; counterexamples by computation |
| C41 | `CsvModel`: `csv.writer` with its reused buffer, column handlers, `CsvCoder`; `CsvSpec`: the automaton of `csv.reader` | round trip through both automata for histories of records; counterexamples by computation |
| C42 | `ExampleProtoModel`: `_FixedLenFeatureHandler`, `_VarLenFeatureHandler`, `ExampleProtoCoder.encode` on one reused message, whose lists are objects a handler may keep from an earlier call | the state of the message is invariant up to what the next call overwrites; induction over histories, failed calls included |
| C43 | `VarlenModel`: `validate_varlen_sparse_value` with machine differences | accepted exactly when the indices enumerate the positions of left-aligned rows; list induction |
| C44 | `TukeyModel`: `_binary_search` and the loop of `compute_tukey_hh_params`, with arbitrary error functions | loop invariant over any ordered numbers; the start over the reals |
| C48 | `InspectModel`: `get_dependent_inputs`, `SourcedTensorsVisitor`, both functions of `inspect_preprocessing_fn` | the columns are those reached backwards (from C36 and C37); runs that agree on them agree on every wanted tensor, by induction on the layers of analyzers |
| C49 | `ContextModel`: `Context`, `TFGraphContext` on thread-local slots; threads with control stacks, exceptions and any schedule | structural induction on programs against an environment semantics; refuted after a graph scope and for objects of other threads |
| C50 | `HistogramModel`: `histogram`, `reorder_histogram` (string keys, missing buckets, padding, `argsort`, `gather`), `estimated_probability_density` | per-key counts from C06; the reordered counts are a permutation argument; algebra over `Q`; refuted for bin counts, small values and constant columns |
| C51 | `TransformModel`: `_maybe_slice_large_record_batch`, `_RunMetaGraphDoFn._handle_batch` and its passthrough columns, `_convert_to_record_batch`, `_transformed_batch_to_instance_dicts`, `TransformDataset`, `EncodeTransformedDataset`; adapter, graph and converter are parameters | slices concatenate to the batch by induction on the fuel; dict lemmas for what is popped and added; pointwise equality of instances; refuted for passthrough columns in encoded record batches |
| C52 | `PublishModel`: a file system with crashes inside operations, `write_metadata_output`, `_copy_tree`, `publish_outputs`, `ReadTransformFn` | frame lemmas per directory, the work seen from each temporary directory, induction over histories; refuted for atomicity and retries |
| C53 | `DocFreqModel`: `document_frequency`, `idf`, the term-document encoding with 64 bit arithmetic | the decoding of flattened indices, documents listed without repetition, sums over batches |
| C54 | `ServeModel`: `retrieve_sources`, `apply_transform_model` (TensorFlow 1 and 2 saved models, finalized or not), `finalize`; graphs of operations that run in order | the walk over the operations reaches just what an output is computed from (invariant); the flattened inputs meet their placeholders; values depend on the reached placeholders alone |
| C55 | `InfoModel`: `_hypergeometric_pmf`, `calculate_partial_expected_mutual_information`, `calculate_partial_mutual_information`, `_calculate_mutual_information_for_feature_value`, the sentinel; real numbers, `lgamma` any function that is right at the integers | arrangements of the token are counted (Vandermonde by induction on the labels), so that the running products of the loop are their shares; sums over labels and arrangements are exchanged; Gibbs' inequality; the accumulators come from C04 |
| C56 | `PyFuncModel`: `insert_pyfunc`, `register_pyfuncs_from_saved_transform`, loading in TensorFlow 1 and 2, saving; histories of processes with their registries | invariant of histories: every stored function is registered under its token in its process, every operation has a stored function of the process of its graph; registries only grow |
| C57 | `LMomentsModel`: factors and moments of a batch, the combiner, its output, `inverse_tukey_hh`, `scale_to_gaussian` | sums over subsets are sums over positions with binomial weights (induction on the sample); accumulators carry numbers and sums of contributions (invariant of schedules); affine maps commute with sorting |
| C58 | `LMomentsModel`: `lambert_w`, `inverse_tukey_hh`, `scale_to_gaussian` | a Newton step on w exp(w) ends above the solution (from 1 + t <= exp t), the error after a step is at most its square; the three starts are within 2/3 below or 1 above; existence by the intermediate value theorem |
| C59 | `PcaModel`: `PCACombiner` on the accumulators of C05, `eigh` and `argsort` as oracles | the variance along a direction is a quadratic form of the covariance matrix; Parseval and Bessel bound the weights of the eigenvalues, an exchange argument gives the maximum |
| C60 | `SchemaModel`: collections of a graph, both versions of schema inference, feature specs and `schema_from_feature_spec`, the dict of protos with positions as references | collections are lists of calls, dicts of lists keep the last entry; columns of each output are named apart, so popping and annotating by name reach the right column; names without dollars never collide |
| C61 | `FullPassModel`: the loop of `build` with the table initializers and sinks of each phase; evaluation of a saved model with bindings, tables and temporary values; passes over the dataset; the final transform | the meaning of a tensor is an inductive relation without phases; induction along the graph shows that evaluation gives the meaning when bindings and tables a tensor is fed with are right; induction over phases |
| C62 | `RetraceModel`: traced functions with analyzer calls in order, unique names in a graph, fingerprints by source keys, their validation, results bound by name | the meaning of a function is an inductive relation; names are shown distinct by a pigeonhole argument; a reordering that keeps names gives every call its own result, and validation implies that names are kept when sources differ |
| C63 | `PerKeyFileModel`: encoding of the statistics of a key, fingerprint order, the text file, the table of TextFileInitializer, splitting, padding and parsing numbers | the specification only speaks of the statistics of a key; lines are shown to parse to (first word, value), the table of distinct words is a permutation of the statistics |
| C64 | `CooccurModel`: broadcasting or gathering labels, filtering tokens, tf.unique, the segment sums, the loop over label columns, the sentinel rows, the accumulators made from them and the combiner without weights | the specification is about rows; a matrix of cells (token, label, weight) is shown to be both what the tensors give and what the rows have, the segment sums are sums over cells; the means by a representation invariant over all schedules, linked to C04 and C55 |
| C65 | `ByNameModel`: what each call records in the collections and annotations, the asset map cut to base names, the assets directory, the lookups by name | facts about dictionaries (the last value of a key), base names and sanitized names; linked to the analysis of C13 - C20 and to reading files (C17) |
| C66 | `TrackModel`: make_and_track_object, the tracker, the attributes of the exported module before and after trace_and_update_module, nested scopes | invariants over the history of calls: the attributes are the first objects of their names; the outcome of each call is determined by the calls before it |
| C67 | `WireModel`: _encode_proto, _serialize_feature, serialize_example, the vocabulary and bucket annotations, down to the wire format; `WireSpec`: a reader of the wire format | varints, tags and chunks are read back by induction; messages are concatenations of chunks, which determine the fields read; features, entries and examples follow level by level |
| C68 | `QuantileModel`: QuantilesCombiner, quantiles, bucketize and the casts of assign_buckets over an abstract sketch and an abstract rounding to float32; `QuantileSpec`: the promise of a sketch for what was added to it | a plan builds a sketch of the concatenated batches by induction; a value is below bucket i exactly if it is below the i-th boundary, so the weight up to a bucket is within the error of its rank; the weight of a bucket is a difference of two |
| C69 | `ApproxModel`: the reduction of a batch, _VocabularyCombiner, approximate_vocabulary and the two ways of writing the entries, over an abstract sketch; `ApproxSpec`: the bounds a sketch promises; `ApproxSketch`: the Misra-Gries algorithm | a plan builds a sketch of the reduced batches, which have the frequencies and the total of the accepted rows; few values force delta = 0 because the total misses at most k delta; the algorithm keeps the bounds by an invariant over all histories, compression by splitting the sorted weights at position k |
| C70 | `FspecModel`: schema_from_feature_spec branch by branch, schema_as_feature_spec with the inference of tensor representations as documented, _remove_columns_from_metadata; `FspecSpec`: acceptable and canonical specs, columns a feature is parsed from, equality of dicts | writing is a map over the sorted items; reading takes the columns of ragged, then sparse features, and what is left are the plain ones, so the items come back permuted; whatever a schema reads as is canonical and shares no columns, because columns are taken from a dict |
| C71 | `SharedModel`: a worker process as objects, weak references, the one kept-alive object, copies of DoFns and the calls they are in, with a step per event; `SharedSpec`: schedules Beam may run, what a batch should become | one invariant over all schedules: the references point at the only uncollected object of their step, and whatever is held is not collected; its consequences by induction on the schedule |
| C72 | `LegacyModel`: the regular expression for component names, the update of a signature item by item, the choice of a graph by tags, JSON values and the reading of JSON schemas; `LegacySpec`: features and their items then and now, what it is for a document to describe features | invariant over the items done so far that says what each key holds; JSON by following the keys, then C70's round trip |
| C73 | `IeeeModel`: the casts, minimum and maximum, scale_by_min_max and z-score over Flocq's binary32 and binary64; `IeeeSpec`: columns as real numbers, rounding to single precision as a function on the reals | each operation is its exact result rounded (Flocq's correctness theorems), no operation overflows for ordinary columns, rounding is monotone, the difference of two different numbers does not round to 0; errors by the relative error of each rounding |
| C74 | `InterpModel`: assignment to buckets and interpolation over Flocq's binary32; `InterpSpec`: sorted boundaries of one dtype | the position is the number of boundaries not above the value; a quotient is between 0 and 1 (as in C73), so the sum with the number of the bucket rounds to between two integers, which are exact up to 2^24 |
| C75 | `FsumModel`: the combiner of `sum` over Flocq's binary32, with the two reductions as oracles; `FsumSpec`: additions in some order and grouping | every schedule's result is obtained by additions in some order, with accumulators equal to zero left out; by induction on these, the relative error of n numbers is (1 + 2^-24)^n - 1 of the magnitudes |
| C76 | `RollModel`: the construction of the pipeline with datasets that may be None, the output cache with its dataset sizes, and the reported entry keys; `RollSpec`: what is left out | the optimized graph is the same for caches that agree on reported keys (induction on the graph); it decodes present entries and reads reported datasets only (C34's invariants), so the construction cannot raise |
| C77 | `FmvModel`: one batch in binary32, the combiner with NumPy numbers of either dtype, `nan_to_num`; `FmvSpec`: the real mean and the condition on bundles | the combined mean lies between the two means (rounding is monotone), so the correction of the variance is not below minus the greater-count variance; error of one combination bounded, for the mean and for the variance plus the squared mean (whose exact combination is a weighted mean), then induction over the schedule |
| C78 | `FzModel`: mean and variance of the column (`FmvModel`) used by the scaling of `IeeeModel`; `FzSpec`: the real z-score, the error of a column | the bounds of C77 on mean and variance, the effect of an inexact mean and variance on (x - mean) / sqrt(var), and the rounding of the scaling (C73) |
| C79 | `FpkModel`: strictly increasing rows, scales, shifts, joined boundaries and the lookup of `bucketize_per_key`, on binary32 with the bisection of std::upper_bound; `FpkSpec`: the number of boundaries at or below a value, ordinary boundaries, distance from the boundaries | an invariant of the bisection for boundaries in any order (`FpkSearch`), rounding errors of one key's boundaries after accumulation, scaling and shift (`FpkRow`), position of all other keys' boundaries relative to the value (`FpkProofs`) |
| C80 | `SelModel`: NumPyCombiner over any element type, batches of a SparseTensor, the batch reductions with missing values, np.max / np.nanmax / np.sum combination, casts; `SelSpec`: the values at a coordinate, least, greatest, total | the combiner preserves any relation between the cells of the batches and the result that the reduction preserves (`SelProofs`), instantiated for maxima with a default, maxima that skip NaN, and sums (`SelInt`, `SelFloat`) |
| C81 | `BpkModel`: batches split into rows by key, quantiles per key over any plan of a runner, the sorted keys with their boundaries, and the bucket of a value; `BpkSpec`: the rows and the weighted values of a key, crowds of values in an interval | the own row of boundaries (C10) is that of `quantiles` on the key's rows (C68); weights are invariant under the order of rows; boundaries made strictly increasing move by at most n gaps, so that cumulative weights change by at most the weight of an interval |
| C82 | `RegModel`: the dicts of implementations by class and tag, the decorator, the lookup of the visitor, and the table of the library's 30 registrations; `RegSpec`: the last registration of a kind in a history | the dict has the last registration of a key (induction on the history); in the library a key is registered once, so that permutations give the same |
| C83 | `FzkModel`: the count, mean and variance of a key in a batch in single precision, as mean of squares minus square of mean; the combiner of `FmvModel`, the lookup of `PerKeyModel` and the scaling of `IeeeModel`; `FzkSpec`: the values of a key, a clear variance | `FzkBatch`: error of the batch variance, exact cases; `FzkInv`: accumulators without a value yet, in single precision; `FzkGen`: the bounds of C77 and C78 for any batch function that is accurate enough; `FzkProofs`: a schedule of the key's inputs is one of its batches |
| C84 | `FmmModel`: the accumulators of `ScaleModel` in single precision, batches with and without keys, the scaling of `IeeeModel` over a schedule and the lookup of `PerKeyModel`; `FmmSpec`: the values of a key, a function that takes the greatest number, places of scaled values | `FmmProofs`: an accumulator holds the extremes of the values it has seen, by induction on schedules; the extremes are those of the column rounded; then the error bounds of C73 |
| C85 | `PreModel`: graphs as expressions over placeholders, variables and constants; unique names of placeholders, choice and restoring of variables, freezing, import with an input map; signatures of saved models; `PreSpec`: the value of an expression, variables chosen, what a signature asks for | `PreProofs`, `PreSaved`: substitution and freezing keep values, by induction on expressions; names stay as they are when they differ; the input map inverts the naming |
| C86 | `CustModel`: the call, what PTransforms return, descriptions of operations that are hashed for cache keys, an analysis with and without fine grained view, histories of analyses that leave caches; PTransforms are any functions of collections given in any order; `CustSpec`: the conditions of the documentation, the value on all data | `CustProofs`: every entry of the cache is what some analysis wrote (invariant over histories); local merges are then those of the data; merging merges by associativity |
| C87 | `TypModel`: types of feature specs, placeholders, dicts, domains of nested schemas, names of sequence columns; `TypSpec`: what partitions are parsed to, when data has a type, which domain a column means | `TypProofs`: induction on partitions (the number of ragged ones against those parsed); dicts by membership with distinct keys; nested induction on features |
| C88 | `ImpModel`: graphs with names in use, unique names, expansion of the input map, constants for assets, import with an input map, initializers from a checkpoint, outputs and unbound inputs, readiness of outputs; operations and checkpoints are any functions; `ImpSpec`: values of tensors as an inductive relation, what the SavedModel is fed, conditions on graphs and calls | `ImpNames`: fresh names; `ImpProofs`: values of images of saved tensors are those in the SavedModel (induction on values, both ways), values in a part of a graph; `ImpApply`: the input map is as specified, the scope is fresh; invariant for histories |
| C89 | `SupModel`: supplied tensors of every kind with the check of PlaceholderWithDefault, the batch size of the first given input, the inputs of the call; values of tensors are any type with a zero; `SupSpec`: well formed dense, sparse and ragged tensors, types, rows | `SupProofs`: induction on ragged rank, sizes and keys |
| C90 | `LayModel`: TFTransformOutput and TransformFeaturesLayer as states, uses as events with their context and files; functions are any type, the graph around a graph any function; `LaySpec`: where what is loaded can be used | `LayProps`: an invariant of layers, by induction on histories |
| C91 | `InpModel`: the states the output directory goes through, in both modes; tracing, initializers and inference of metadata are any functions; `InpSpec`: what a run can leave behind, complete outputs | `InpProps`: by cases on the outcomes of each step |
| C92 | `EntModel`: the checks of both analyses in order, with the pattern of keys of `CacheKeyModel`; PCollections are present or not; `EntSpec`: proper keys, functions that can be analyzed | `EntProps`: by cases, and induction on keys |
| C93 | `StripModel`: graphs of operations with inputs and control inputs, the test for Identity and the stripping; what operations compute is any partial function; `StripSpec`: which operations run with which values, what they need, automatic control dependencies | `StripProps`: inversion of runs, induction on outputs |
| C94 | `TabModel`: preprocessing functions as lists of vocabularies and lookups, the collection of tracked assets, binding of futures in both modes, tables and what lookups wait for; evaluated analyzers and temporary files are any functions; `TabSpec`: scope, waiting, functions that fail | `TabProps`: an invariant of the collection, by induction on functions |
| C95 | `ResModel`: preprocessing functions as lists of vocabularies, the two collections of reserved tokens, their registration, the search by name, the inputs of the written files and the annotated sizes; values of tensors are any function; `ResSpec`: what a vocabulary is given, names of their own, the first of a name | `ResProps`: an invariant of the collections, by induction on functions |

## 4. What is modelled and what is not

Each definition of a `*Model.v` file cites the lines it models; together they cover parts of `analyzers.py`,
`analyzer_nodes.py`, `mappers.py`, `tf_utils.py`, `nodes.py`, `graph_tools.py`, `beam/analyzer_impls.py`,
`beam/analyzer_cache.py`, `beam/analysis_graph_builder.py`, `beam/combiner_packing_util.py`, `beam/deep_copy.py`,
`coders/`, `impl_helper.py`, `gaussianization.py`, `inspect_preprocessing_fn.py`, `beam/context.py`, `graph_context.py` and `output_wrapper.py`.

Not modelled: TensorFlow kernels beyond their documented results, tracing of the preprocessing function, bodies of
`tf.function`s, Beam runners beyond arbitrary schedules, SavedModel files, Arrow conversion, the quantile sketch of
TFX-BSL, the SVD of `tft.pca`, the protobuf wire format, gzip and TFRecord framing, rounding of floating point, the
recursion limit and threads of Python, logging and metrics.

## 5. Findings

Properties (or natural readings of them) that are false of the code as modelled. Each is a theorem with a concrete
witness; the guarded positive theorem stands beside it in the same file.

* `c01_float_infinity_refuted` (ScaleProps.v): an accumulator whose minimum is +inf is taken for an untouched one, so tft.max drops batches holding nothing but +inf, or not, depending on the schedule.
* `c01_max_refuted` (NumericProps.v): tft.max fails without the guard: an accumulator that equals the least value of the dtype is taken for an untouched one.
* `c01_max_schedule_independence_refuted` (NumericProps.v): The same rows, batched differently, give different maxima.
* `c01_min_refuted` (NumericProps.v): tft.min of a signed column holding the smallest value of the dtype.
* `c02_sum_refuted` (NumericProps.v): narrow integer columns overflow inside a batch, so the sum depends on the batching.
* `c02_sum_schedule_independence_refuted` (NumericProps.v): the same rows in different batches give different sums, by the overflow above.
* `c03_sparse_nan_refuted` (MeanVarProps.v): in sparse columns a NaN is left out of the count and of the mean, but enters the variance as if it were zero.
* `c04_negative_weights_refuted` (MeanVarProps.v): negative weights are not rejected, and break the statistics (a batch whose weights cancel yields an infinite mean, which the combiner turns into the largest float).
* `c05_integer_columns_refuted` (MeanVarProps.v): the inner products of integer columns are computed in the dtype of the column.
* `c06_int16_refuted` (PerKeyProps.v): for int16 they disagree; the per-key minimum of [-32768; 5] is 5.
* `c09_float16_refuted` (BucketProps.v): the common dtype is the one with the larger maximum, which for float16 and integers is the integer dtype, so values (or boundaries) are truncated.
* `c09_unsigned_boundaries_refuted` (BucketProps.v): a negative value of a signed dtype wraps around when the boundaries are unsigned with a larger maximum.
* `c10_two_buckets_refuted` (BucketProps.v): for key number i the boundary b acts as if it were b - i.
* `c11_unseen_key_refuted` (BucketProps.v): -1 is outside of the range written to the schema.
* `c12_nan_single_boundary_refuted` (BucketProps.v): but with a single boundary NaN goes to 1, against the documentation.
* `c15_duplicate_reserved_refuted` (VocabProps.v): a token reserved twice makes the table fail to initialise.
* `c16_reserved_size_refuted` (VocabProps.v): a reserved token that also occurs in the data (or an empty vocabulary beside reserved tokens) is counted twice, so the registered size exceeds the number of lines.
* `c17_reserved_newline_refuted` (VocabProps.v): reserved tokens are not filtered, so one with a newline becomes two lines (and all later indices shift).
* `c18_dummy_beside_tokens_refuted` (VocabProps.v): with top_k the dummy entry is added before coverage tokens and reserved tokens are, so it appears in vocabularies that are not empty.
* `c19_space_collision_refuted` (VocabProps.v): other tokens may collide - even if neither contains "__SPACE__" -, getting the same index and a joint count.
* `c19_vocabulary_spaces_refuted` (VocabProps.v): tft.vocabulary followed by tft.apply_vocabulary does not replace spaces: tokens with spaces are not found, and two that agree up to the first space break the table.
* `c27_one_term_vocabulary_refuted` (SparseProps.v): with a vocabulary of one term (vocab_size 1) the transformation always raises.
* `c31_lost_manifest_refuted` (CacheProps.v): after a crash in the replacement of a manifest, indices are reused, and reading an entry mixes in the records of another one.
* `c31_part_of_the_records_refuted` (CacheProps.v): a crash while the shards of an entry are put in place leaves part of the records, and reading returns that part without an error.
* `c31_read_raises_refuted` (CacheProps.v): the manifest is written before the records. After a crash in between, reading the cache raises (no file matches), for every entry of every dataset read with it, and the old records are lost.
* `c32_collision_refuted` (CacheProps.v): different dataset names can get the same key, and so share a cache directory.
* `c32_newline_refuted` (CacheProps.v): a key that ends in a newline passes the validation.
* `c32_parent_refuted` (CacheProps.v): the key ".." is accepted, and its cache is written outside the base directory.
* `c33_written_cache_alone_refuted` (OptimizeProps.v): The written cache alone does not cover every dataset: entries that were read are not written again.
* `c35_analyzer_parameters_refuted` (CacheHashProps.v): analyzers with different parameters share an entry key: of a combiner only the name of its class is hashed.
* `c35_op_type_refuted` (CacheHashProps.v): different computations share a path: the type of an operation is not hashed, whatever the hash function.
* `c35_stale_cache_refuted` (CacheHashProps.v): a run with the cache of an earlier version of the preprocessing function can give results of that version, with an injective hash function.
* `c35_structure_refuted` (CacheHashProps.v): computations of different structure have different paths. Pieces are hashed without what separates them: an input whose name is [0] followed by the digest of another input has the path of the first tensor of that input.
* `c37_cycle_history_refuted` (ReadyProps.v): With a cycle (a TensorFlow 1 loop) the answer does depend on earlier queries: here node 0 reads node 1 and the unready source 2, and node 1 reads node 0. Asked first, node 1 is unready; asked after node 0 it is said to be ready, although it depends on source 2.
* `c39_reserved_tokens_refuted` (PackGraphProps.v): The results are not kept for every graph: when an operation after a packed combine has a second input, packing rebuilds it with the first one only. The file of an approximate vocabulary with reserved tokens loses the reserved tokens when another analyzer is packed with it.
* `c40_boundary_raises_refuted` (DeepCopyProps.v): Nor of a collection at a materialization boundary: [AnalyzeAndTransformDataset] of the output of a GroupByKey fails.
* `c40_diamond_refuted` (DeepCopyProps.v): A copy can read an original: a collection that is flattened with what was computed from it is copied after the transform that reads it.
* `c40_hints_refuted` (DeepCopyProps.v): The transforms of one copy do not always have the same resource hint, and those of different copies can have the same one: after a copy of a collection, a copy of another one that was computed from it.
* `c40_second_output_raises_refuted` (DeepCopyProps.v): No copy is made when the second output is met later than the transform: it is listed twice and an assertion fails.
* `c40_two_outputs_refuted` (DeepCopyProps.v): Likewise for the second of two outputs of one transform.
* `c41_array_of_zero_refuted` (CsvProps.v): A numpy array that holds one zero is written as an empty column, while the list with the same zero is written as [0].
* `c41_carriage_return_refuted` (CsvProps.v): The same for a carriage return: the reader raises.
* `c41_failure_is_permanent_refuted` (CsvProps.v): A call that fails because a string holds a lone surrogate is not forgotten: the row stays in the buffer, and every later call on the same coder fails too, although each of them succeeds on a new coder.
* `c41_line_break_refuted` (CsvProps.v): Where `csv.writer` does not quote line breaks (before Python 3.13), a value with one is written as it stands: the reader sees two records.
* `c41_several_values_refuted` (CsvProps.v): A feature of variable length that is not declared multivalent loses all its values but the first, without an error.
* `c41_undescribed_column_refuted` (CsvProps.v): A declared column the schema does not have is written as the text [None].
* `c44_between_refuted` (TukeyProps.v): With an L-kurtosis at the threshold 0.1226017, which is rounded to just below that of the Gaussian distribution, the search starts at a negative parameter, and returns one if that already has too large a kurtosis.
* `c46_distinct_names_refuted` (MiscProps.v): different vocabulary names may share a file name.
* `c46_empty_name_refuted` (MiscProps.v): a name of white space gives the empty file name; different names may share a file; a text and a TFRecord vocabulary whose names share the sanitized form cannot be told apart.
* `c49_after_graph_scope_refuted` (ContextProps.v): `get_module_to_export` is documented to give `None` outside a scope. Once the thread has left a scope, it raises an `AttributeError`.
* `c49_other_thread_refuted` (ContextProps.v): A context constructed in one thread cannot be entered in another thread that has constructed none: `__enter__` raises an `AttributeError`.
* `c50_bin_count_refuted` (HistogramProps.v): An integer `boundaries` is documented as the number of bins. It gives one bin less; 1 raises an error.
* `c50_constant_column_refuted` (HistogramProps.v): A constant column has an infinite density, if the boundaries are found from the minimum and the maximum.
* `c50_documented_example_refuted` (HistogramProps.v): The first example in the documentation gives four counts, not the five that are shown, and shifted boundaries.
* `c50_small_values_refuted` (HistogramProps.v): The shift of the boundaries does not depend on the scale of the data: with the boundaries found from the minimum and the maximum, values smaller than 0.0001 are all counted in the last bin.
* `c51_encoded_passthrough_refuted` (TransformProps.v): [EncodeTransformedDataset] drops the passthrough columns of instance dicts, and says that it does so for record batches ("Dropping passthrough features"); but the record batches contain them, and they are encoded: the two formats of one dataset give different examples.
* `c52_atomic_refuted` (PublishProps.v): Publishing is not atomic: a process that dies between the two renames leaves the new metadata with the old transform function, or with a part of it, and `ReadTransformFn` returns them without an error.
* `c52_retry_refuted` (PublishProps.v): Publishing cannot be repeated: a runner that retries it after it died behind the first rename gets an error, and nothing can be read afterwards.
* `c53_one_term_vocabulary_refuted` (DocFreqProps.v): With a vocabulary of one term document_frequency always raises: tf.squeeze of the 1 by 1 sums is a scalar, from which tf.gather cannot select.
* `c54_control_dependencies_refuted` (ServeProps.v): Full statement: an output returned for some inputs can be computed from them. False for saved models of TensorFlow 1: control dependencies are ignored when the outputs are chosen, so an output that waits for an operation on a missing input is asked for, and the call raises.
* `c54_failed_finalize_refuted` (ServeProps.v): Full statement: a call to [finalize] that raises leaves the loader as it was. False: the inputs it was called with are kept, so that a loader finalized before refuses the inputs it was finalized for.
* `c54_made_up_inputs_refuted` (ServeProps.v): Full statement: an output that can be computed from the given inputs is returned. False: the loader of TensorFlow 2 saved models runs the whole graph on values made up for the missing inputs (zeros and empty strings), so it raises when another output cannot be computed from these, e.g. when it parses numbers.
* `c55_clipping_refuted` (InfoProps.v): a token that does not depend on the label can have a negative mutual information, because its probability 1 of the only label is moved to 1 - 1e-6 while the probability of the label is not.
* `c55_repeated_token_refuted` (InfoProps.v): a token that is repeated in a row counts several times, and can have more rows than there are (for which the code raises an error only if the sum exceeds the size of the dataset).
* `c55_sentinel_refuted` (InfoProps.v): a token equal to the sentinel under which the label counts of the dataset are kept is counted with them: more rows than there are, and no information for the token.
* `c55_small_weights_refuted` (InfoProps.v): frequencies are compared after rounding, so that where the weights sum to less than a half every token is taken for one that is in every row, and has information 0.
* `c56_function_bodies_refuted` (PyFuncProps.v): tokens in the bodies of functions are not replaced. Such a py_func calls whatever has its old token in the process that loads the model.
* `c56_saved_again_refuted` (PyFuncProps.v): a graph that was loaded and saved again stores the functions under their old tokens too (as in AnalyzeDataset, where a worker loads the graph, replaces the analyzers and saves it). If a new token of one function is an old token of another one, the next process that loads the model calls the other one.
* `c56_unregistered_refuted` (PyFuncProps.v): an unregistered py_func is accepted if no function was stored with the model, and, in TensorFlow 2, if its token happens to be one of the new ones: it then calls another function.
* `c57_batching_refuted` (LMomentsProps.v): The parameters depend on the batches: the same four values give tft.tukey_scale a value above 1 in one batch, and 1 in four batches.
* `c58_documented_function_refuted` (LambertProps.v): The documentation of `inverse_tukey_hh` gives x = u exp(h u^2) as the function that is inverted; the code inverts u exp(h u^2 / 2), and what it returns is mapped by the documented function to at least 1.5 x in a case.
* `c58_monotone_refuted` (LambertProps.v): The order of close values is not kept: at h x^2 = 1e-7 the inverse jumps down.
* `c58_small_error_refuted` (LambertProps.v): The comment on the case h x^2 < 1e-7 says that its error is below 1e-14; it is above 1e-8 in a case.
* `c59_empty_output_dim_refuted` (PcaProps.v): Without rows it has that shape, but the further columns are zero.
* `c59_output_dim_refuted` (PcaProps.v): With an output_dim above the number of columns the matrix does not have the shape (input_dim, output_dim) that is documented and declared for the tensor.
* `c60_column_names_refuted` (SchemaProps.v): With an output named like a column of another, a KeyError, though all outputs can be described.
* `c60_shared_values_refuted` (SchemaProps.v): Annotations of sparse outputs are kept for their values: another output that shares them, like the result of tf.sparse.reshape, is described as the annotated one, and not as a variable length feature.
* `c60_sparse_annotation_refuted` (SchemaProps.v): In TensorFlow 1 the annotation of a sparse tensor (tft.annotators, schema_inference.annotate) is lost without an error: it is kept for the sparse tensor and looked up for its values.
* `c60_two_keys_refuted` (SchemaProps.v): In TensorFlow 2 a tensor that is output under two keys has its range and annotations under the last only.
* `c62_order_detected_refuted` (RetraceProps.v): C62, as promised by the error message (another order of calls is detected), is false: two unnamed calls of one analyzer that read the same input, made in the other order when the function is traced again, are accepted, and each gets the result of the other. Only a warning is logged.
* `c63_float64_refuted` (PerKeyFileProps.v): C63 is false of float64 statistics: they are written in full and read as float32, so that with a file the mean of a column of float64 is rounded to 24 bits.
* `c63_spaces_refuted` (PerKeyFileProps.v): C63 is false of keys with spaces: a row whose key, in the data, has a space gets zeros, as if its key was unknown, and a row with an unknown key gets the statistics of another key.
* `c64_elementwise_refuted` (CooccurProps.v): "If x is dense, labels can either be a 1D tensor of row-wise labels, or a dense tensor of the identical shape as x": labels of the shape of x are rejected, since they are reshaped to one dimension first.
* `c64_missing_labels_refuted` (CooccurProps.v): Whether labels may be missing depends on the other rows of the batch: two rows are accepted in one batch, but the row without labels is not accepted in a batch of its own.
* `c64_negative_label_refuted` (CooccurProps.v): A negative label is counted for another token: here "b" alone has label -2, and "a", which has label 1 alone, gets label 0.
* `c64_sparse_weights_refuted` (CooccurProps.v): A sparse feature with as many values as rows, but not one in each row: the same weights are taken as those of the values for the tokens and as those of the rows for the sentinel. A token in one of the rows with label 0 then has more weight with label 0 than all the rows.
* `c64_weighted_values_refuted` (CooccurProps.v): Weights "must have the same shape as x": where there are labels and x has two dimensions, such weights are rejected.
* `c65_approximate_names_refuted` (ByNameProps.v): the names of approximate vocabularies without a name are swapped: "approx_vocab_frequency_..." is the one without frequencies.
* `c65_asset_key_refuted` (ByNameProps.v): an asset annotated under a key with a slash is not found under it.
* `c65_reserved_size_refuted` (ByNameProps.v): with a reserved token that is also in the data the size under the name is not the number of the entries under that name; it is for a name that is not its own file name, since then the lines of the file are counted.
* `c65_slash_refuted` (ByNameProps.v): the keys of the asset map are cut at their last slash, so a later vocabulary "dir/words" hides the vocabulary "words", although they have files of their own: asking for "words" gives the entries of "dir/words", and the size of "words".
* `c66_attribute_name_refuted` (TrackProps.v): with the name of an attribute that modules have, the value of that attribute is returned and the factory is not invoked.
* `c66_taken_name_refuted` (TrackProps.v): an object whose name is used by the saved module is returned, but not saved.
* `c66_unique_names_refuted` (TrackProps.v): names that are not unique are not found out, although this is what the message of the exception is about: the second factory is ignored and its caller gets the object of the first.
* `c67_gaps_refuted` (WireProps.v): So the documented rule, that indices within each row are ignored, is false: the value of a row whose only value is not in the first column is replaced by zero.
* `c68_integers_refuted` (QuantileProps.v): Distinct integers need not be spread over the buckets at all: sixty from 2^30, which are the same number in float32, are all in the last of ten.
* `c68_one_bucket_refuted` (QuantileProps.v): One bucket is not an error, though the documentation says that it is.
* `c69_batching_refuted` (ApproxProps.v): The file depends on how the rows are batched: the same rows give the file of one value in one batch, and the file of an empty vocabulary when each row is its own batch.
* `c70_annotations_refuted` (FspecProps.v): Removing no column loses the annotations of the metadata, and raises if a feature has a default value.
* `c70_lost_refuted` (FspecProps.v): Not every feature spec reads back: different feature specs have the same schema.
* `c70_shared_refuted` (FspecProps.v): Nor if a feature is parsed from a column of another one: the feature is not in what is read.
* `c71_keepalive_refuted` (SharedProps.v): With a second ParDo it may be loaded again.
* `c71_released_refuted` (SharedProps.v): That the barrier comes before the end of every call is needed: a call that ends later keeps its graph for as long as the worker does nothing else.
* `c72_dense_shape_refuted` (LegacyProps.v): see the comment there.
* `c72_json_default_refuted` (LegacyProps.v): see the comment there.
* `c72_json_sparse_refuted` (LegacyProps.v): Sparse features are dropped without a word.
* `c72_new_signature_refuted` (LegacyProps.v): Other names are taken for those of components: a transform function with the column "price$values" loads with a sparse column "price" that has no indices.
* `c72_no_signature_refuted` (LegacyProps.v): A graph with the tag and without the signature loads as one without inputs and outputs.
* `c73_finite_refuted` (IeeeProps.v): So a column of finite numbers can be scaled to NaN.
* `c73_integers_refuted` (IeeeProps.v): For larger integers it is not: 2^24 and 2^24 + 1, the least and the greatest of a column, are scaled to the same number, whatever the sigmoid is.
* `c73_upper_bound_refuted` (IeeeProps.v): The upper bound is not kept: between 0.1 and 0.7 the greatest value of a column becomes 0.70000005, more than the single precision number nearest to 0.7.
* `c74_finite_refuted` (InterpProps.v): Not every finite value has a place: in a bucket wider than the largest number the quotient is NaN, which an assertion reports.
* `c75_relative_refuted` (FsumProps.v): The error is not small beside the sum itself: rows that add up to one can sum to zero.
* `c75_same_refuted` (FsumProps.v): How the rows are batched changes the sum of the same rows.
* `c76_pipeline_refuted` (RollProps.v): When everything is in the cache, no dataset is reported; without a dataset, and although there is data in the cache, the analysis fails unless a pipeline is given.
* `c77_first_batch_refuted` (FmvProps.v): A bundle whose first batch has no value is combined in single precision from then on: the same batches in the same bundle, that batch second, have another mean, and the variance is negative.
* `c78_nan_refuted` (FzProps.v): Without the condition on first batches, a finite value of the column can have a NaN as its z-score.
* `c79_many_keys_refuted` (FpkProps.v): Nor for every number of keys: with 2^24 + 1 keys, a value in the middle between two boundaries of the last key is in the last bucket, although two of four boundaries are above it.
* `c79_own_key_refuted` (FpkProps.v): Not for every value: the greatest number below the second boundary, 2, is in the bucket that starts at 2.
* `c80_float_refuted` (SelProps.v): Not so with an infinite value: a batch whose values at a coordinate are all infinite counts as having none there, but the infinite value is kept if the batch also has a finite one. So tft.max of the same values is infinite with one batching and 1 with another.
* `c80_int_missing_refuted` (SelProps.v): Not so for the dtypes that are computed in tf.int32 and cast back. A coordinate of a tf.uint8 column with no values has maximum 1. A coordinate of a tf.int16 column with no values has minimum -1 and maximum 1 if the shape of an instance is not known, and other values if it is. Nothing tells these from minima and maxima of values.
* `c80_widths_refuted` (SelProps.v): If the shape of an instance is not known and batches differ in their widths, as batches of a tf.io.VarLenFeature do, the analysis fails, although the values are all there.
* `c81_close_values_refuted` (BpkProps.v): buckets of about the same size are not what one gets if values are close to each other compared to the range of the key. Of twenty distinct float32 numbers, five buckets of tft.bucketize_per_key have 3, 7, 10, 0 and 0, while those of tft.bucketize have 3, 4, 4, 4 and 5.
* `c81_two_buckets_refuted` (BpkProps.v): with two buckets the rows of all keys but the first may be in one of them.
* `c82_once_refuted` (RegProps.v): A second implementation for the same operation is not refused, although each should be registered only once: the assertion is about a generator object, which is always true. It replaces the first one.
* `c82_string_tags_refuted` (RegProps.v): Tags are documented to be strings of those of the environments. A PTransform registered with such strings is accepted and never found.
* `c83_constant_refuted` (FzkProps.v): A value that does not change: five times the float32 nearest to 0.7 in one batch. The sums round, the variance is negative, and all z-scores are NaN.
* `c83_nan_refuted` (FzkProps.v): Two values of a key in one batch, 100000 and 100001: the variance of the batch comes out as -1024, and the z-scores are NaN, in whatever order sums are taken; without a key the z-scores of the same values are finite.
* `c84_infinity_refuted` (FmmProps.v): With infinities the result depends on the order of the batches: a batch whose only value is an infinity has the accumulator's initial value as its least value and is forgotten when another one follows, but not when it comes last. Then 2, the greatest finite value of the column, becomes 1 or 0.
* `c85_overlap_refuted` (PreProps.v): Scopes that overlap are a ValueError, where each of them is not.
* `c85_saved_model_unused_refuted` (PreProps.v): A saved model, given exactly the inputs of its signature, is a ValueError if the outputs asked for do not depend on one of them.
* `c85_scope_refuted` (PreProps.v): A scope takes in the variables of scopes that begin with its name.
* `c85_second_output_refuted` (PreProps.v): A tensor that is not the first output of its operation cannot be passed: it is a ValueError.
* `c85_twice_refuted` (PreProps.v): A tensor that is passed twice: the second argument becomes another tensor, without an error. Here f(x, x, x_1) is the value of f(x, x_1, x_1).
* `c85_unused_refuted` (PreProps.v): A function that does not use one of its arguments cannot be applied: it is a ValueError.
* `c86_condition_refuted` (CustProps.v): the condition that the documentation says must hold does not ensure correctness, not even with a merge that makes one accumulator and does not depend on the order: accumulators are merged twice, so the output depends on how the data is divided into datasets and on whether there is a cache.
* `c86_parameters_refuted` (CustProps.v): what a PTransform was made with is not part of the key. An analyzer of the same class and with the same address as that of an earlier analysis (in another process, or after that was freed) is given the accumulators of that one.
* `c86_restart_refuted` (CustProps.v): what an analyzer wrote is not found by the same analyzer made again, as in the next process: the key has the addresses of its PTransforms.
* `c86_two_outputs_refuted` (CustProps.v): an analyzer with cache cannot have two outputs, although ptransform_analyzer takes lists of types and shapes: building the analysis fails, also without a cache.
* `c87_lost_refuted` (TypProps.v): Of two features with the same name that of the context is lost, without an error.
* `c87_renamed_refuted` (TypProps.v): A ragged feature of feature lists that has another name than its column has a dimension too few.
* `c87_same_name_refuted` (TypProps.v): A column of the context and one of the feature lists may have the same name in a SequenceExample: the feature of the context then has the domain of the other one.
* `c87_size_refuted` (TypProps.v): A sparse feature whose size is an int, as tf.io.SparseFeature documents, has a placeholder and is parsed, but has no type.
* `c87_uniform_refuted` (TypProps.v): Not so otherwise: rows of two lists of any length are parsed to a ragged tensor with three partitions, and its type says two.
* `c88_components_refuted` (ImpProps.v): A composite tensor must be given for a composite input, and with all of its parts, but this is not checked: the placeholders of the other parts remain, and the input is not returned as one that has to be fed.
* `c88_existing_scope_refuted` (ImpProps.v): A graph that has operations under the name "transform" but where this name is not in use, as after importing a graph with its names, without a name scope: operations of the model get other names, and the outputs that are returned are the tensors that were there.
* `c89_fixed_rows_refuted` (SupProps.v): A tensor whose first size is known has that many rows, not those of the batch.
* `c89_sparse_size_refuted` (SupProps.v): A sparse tensor of a known size, as sparse features of schemas have: the one that is supplied is not of that size.
* `c89_uniform_refuted` (SupProps.v): A ragged tensor with rows of a known length other than one
* `c89_unknown_rank_refuted` (SupProps.v): Tensors of unknown rank: a scalar is supplied, which has no rows, and nothing for sparse ones.
* `c89_zero_refuted` (SupProps.v): A size of zero is taken for an unknown one: nothing can be supplied for an input without rows.
* `c90_eager_after_graph_refuted` (LayProps.v): Uses in eager mode apply what can be used there. Not so after one in a graph: the layer then keeps what it has loaded in that graph, and goes on to use it in eager mode.
* `c90_graph_refuted` (LayProps.v): Uses in graph mode apply what can be used there. Not so in the default graph that there was when the layer was made in eager mode: nothing is loaded into that graph.
* `c90_keep_refuted` (LayProps.v): transform_raw_features with drop_unused_features=False gives all outputs. Not so for SavedModels of TF2.
* `c90_replaced_refuted` (LayProps.v): A layer applies one function. Not so if the files are replaced and it is used in another graph.
* `c90_tracked_refuted` (LayProps.v): What is tracked, and saved in checkpoints, is what is applied. Not so after a use in a graph.
* `c91_crash_refuted` (InpProps.v): A directory with metadata is a complete output of one function. Not so if there was an output before, in TF2: a crash leaves the function of one analysis with the metadata of another.
* `c91_failed_refuted` (InpProps.v): An analysis that fails leaves no transform function. Not so if the metadata cannot be inferred, and then, in TF1, it cannot be run again into the same directory.
* `c91_unchanged_refuted` (InpProps.v): A function that is refused because it has analyzers leaves the directory as it was. Not so in TF2: its transform function is written before it is looked at, and stays there, in the place of the one that was there.
* `c92_keys_refuted` (EntProps.v): Keys of datasets that are not proper are refused. Not so: the keys of the caches are looked at in their place, so that a dataset whose key is empty, and whose cache then is the base directory itself, is accepted.
* `c92_pipeline_refuted` (EntProps.v): Without data a pipeline is asked for. Not so if there are caches: the analysis then fails when it looks for one.
* `c93_checks_refuted` (StripProps.v): A function whose outputs are stripped gives values only where it did. Not so if what they waited for is left out, as it is when a function is saved with strip_control_dependencies: checks are lost.
* `c93_mixed_refuted` (StripProps.v): What outputs wait for is found. Not so if one of them is not an Identity: none is found then.
* `c94_order_refuted` (TabProps.v): The order of independent lookups does not matter. Not so: a lookup in a file of the function's own is refused after a vocabulary, and not before it.
* `c94_size_refuted` (TabProps.v): Tables, and so their sizes, are read from the files of their analyzers. Not so while these are pending: they are read from temporary files, and the size waits for nothing.
* `c95_formats_refuted` (ResProps.v): reserved tokens are kept by the name without the suffix of the format, and the first ones of a name are taken: of two vocabularies that are written to different files, one as text and one as compressed records, the second gets the reserved tokens of the first.
* `c95_names_refuted` (ResProps.v): file names that the user chose to be different may be the same name, with the same tokens.
* `c95_size_refuted` (ResProps.v): ... and the size that is annotated for it is not the number of entries of its file.

## 6. Assumptions per theorem

`Print Assumptions` was run on all 578 property theorems.

* Using axioms of the standard library (`ClassicalDedekindReals.sig_forall_dec`, `ClassicalDedekindReals.sig_not_dec`, `Classical_Prop.classic`, `FunctionalExtensionality.functional_extensionality_dep`): `c64_information`, `c84_unit`, `c84_scaled`, `c84_order`, `c84_constant`, `c84_empty`, `c84_unit_per_key`, `c84_scaled_per_key`, `c84_order_per_key`, `c84_constant_per_key`, `c84_unseen`, `c84_infinity_refuted`, `c77_variance`, `c77_mean_accuracy`, `c77_variance_accuracy`, `c77_constant`, `c77_first_batch_refuted`, `c79_range`, `c79_order`, `c79_own_key`, `c79_own_key_refuted`, `c79_many_keys_refuted`, `c75_accuracy`, `c75_schedules`, `c75_exact`, `c75_nan`, `c75_empty`, `c75_same_refuted`, `c75_relative_refuted`, `c78_order`, `c78_constant`, `c78_accuracy`, `c78_nan_refuted`, `c83_accuracy`, `c83_order`, `c83_constant`, `c83_none`, `c83_nan_refuted`, `c83_constant_refuted`, `c83_unseen`, `c73_unit`, `c73_scaled`, `c73_order`, `c73_upper_bound_refuted`, `c73_constant`, `c73_exact_integers`, `c73_exact_float32`, `c73_integers_refuted`, `c73_overflow`, `c73_finite_refuted`, `c73_zscore_order`, `c73_zscore_mean`, `c73_zscore`, `c55_probabilities`, `c55_expected`, `c55_information`, `c55_adjusted`, `c55_constant`, `c55_exact`, `c55_clipping_refuted`, `c55_small_weights_refuted`, `c74_range`, `c74_order`, `c74_accuracy`, `c74_finite_refuted`, `c57_parameters`, `c57_light_tails`, `c57_small_batches`, `c57_units`, `c57_batching_refuted`, `c58_lambert_w`, `c58_inverse`, `c58_order`, `c58_scale_to_gaussian`, `c58_monotone_refuted`, `c58_documented_function_refuted`, `c58_small_error_refuted`, `c80_float`, `c80_float_refuted`, `c44_params_admissible_partial`, `c44_between_refuted`.
* Using axioms of the standard library (`ClassicalDedekindReals.sig_forall_dec`, `FunctionalExtensionality.functional_extensionality_dep`): `c59_principal`, `c59_empty`.
* Using axioms of the standard library (`ClassicalDedekindReals.sig_forall_dec`, `ClassicalDedekindReals.sig_not_dec`, `FunctionalExtensionality.functional_extensionality_dep`): `c59_output_dim_refuted`, `c59_empty_output_dim_refuted`, `c08_z_score`, `c08_z_score_monotone`, `c08_per_key_unseen`, `c44_binary_search_accuracy`.
* "Closed under the global context" (489 theorems): all others, namely
  * ApproxProps.v: `c69_bounds`, `c69_heavy`, `c69_exact`, `c69_same_as_vocabulary`, `c69_reserved`, `c69_misra_gries`, `c69_batching_refuted`
  * BpkProps.v: `c81_range`, `c81_own_rows`, `c81_alone`, `c81_balanced`, `c81_balanced_any`, `c81_close_values_refuted`, `c81_two_buckets_refuted`
  * BucketProps.v: `c09_apply_buckets_count`, `c09_count_monotone`, `c09_apply_buckets_nan`, `c09_apply_buckets_in_schema_range`, `c09_float16_refuted`, `c09_unsigned_boundaries_refuted`, `c10_own_key_bucket`, `c10_own_key_bucket_any_row`, `c10_strict_row`, `c10_strict_row_moves_up`, `c10_two_buckets_first_key`, `c10_two_buckets_refuted`, `c10_one_bucket_raises`, `c11_seen_keys_in_schema_range`, `c11_unseen_key_refuted`, `c12_interpolation`, `c12_boundaries_equally_spaced`, `c12_negative_infinity`, `c12_positive_infinity`, `c12_nan`, `c12_nan_single_boundary_refuted`
  * ByNameProps.v: `c65_entries`, `c65_size`, `c65_analysed_entries`, `c65_analysed_size`, `c65_annotated_asset`, `c65_slash_refuted`, `c65_asset_key_refuted`, `c65_reserved_size_refuted`, `c65_approximate_names_refuted`
  * CacheHashProps.v: `c35_paths_partial`, `c35_paths_any_structure_partial`, `c35_unchanged_path`, `c35_path_of_graph`, `c35_attribute_order`, `c35_entry_keys_partial`, `c35_unchanged_value`, `c35_structure_refuted`, `c35_op_type_refuted`, `c35_analyzer_parameters_refuted`, `c35_stale_cache_refuted`
  * CacheProps.v: `c29_key_value`, `c29_encodes`, `c29_truncated`, `c29_vocabulary`, `c29_per_key`, `c29_json`, `c30_last_write`, `c30_read_while_writing`, `c31_other_entries`, `c31_written_entries_partial`, `c31_later_writes_partial`, `c31_read_raises_refuted`, `c31_part_of_the_records_refuted`, `c31_lost_manifest_refuted`, `c32_no_separators`, `c32_idempotent`, `c32_allowed_names_kept`, `c32_paths`, `c32_directories`, `c32_validation`, `c32_non_cacheable`, `c32_collision_refuted`, `c32_parent_refuted`, `c32_newline_refuted`
  * ContextProps.v: `c49_dynamic_scoping`, `c49_threads_independent`, `c49_after_graph_scope_refuted`, `c49_other_thread_refuted`
  * CooccurProps.v: `c64_batch`, `c64_dataset`, `c64_statistics`, `c64_weights`, `c64_unweighted`, `c64_elementwise_refuted`, `c64_weighted_values_refuted`, `c64_sparse_weights_refuted`, `c64_negative_label_refuted`, `c64_missing_labels_refuted`
  * CsvProps.v: `c41_lines_read_back_partial`, `c41_fixed_lengths_checked`, `c41_line_break_refuted`, `c41_carriage_return_refuted`, `c41_several_values_refuted`, `c41_array_of_zero_refuted`, `c41_undescribed_column_refuted`, `c41_failure_is_permanent_refuted`
  * CustProps.v: `c86_plain`, `c86_history`, `c86_division`, `c86_not_read`, `c86_call`, `c86_two_outputs_refuted`, `c86_condition_refuted`, `c86_restart_refuted`, `c86_parameters_refuted`
  * DeepCopyProps.v: `c40_copy_computes_the_same`, `c40_copies_upstream_once`, `c40_labels_unique`, `c40_returns_partial`, `c40_copies_read_copies_partial`, `c40_diamond_refuted`, `c40_two_outputs_refuted`, `c40_second_output_raises_refuted`, `c40_boundary_raises_refuted`, `c40_hints_refuted`
  * DocFreqProps.v: `c53_document_frequency`, `c53_count_determined`, `c53_batching`, `c53_idf`, `c53_one_term_vocabulary_refuted`
  * EntProps.v: `c92_analyze`, `c92_with_cache`, `c92_no_data`, `c92_cache_keys`, `c92_keys_refuted`, `c92_pipeline_refuted`
  * ExampleProtoProps.v: `c42_history_does_not_matter`, `c42_contents`, `c42_accepted`
  * FspecProps.v: `c70_accepts`, `c70_round_trip`, `c70_order`, `c70_read_again`, `c70_columns`, `c70_remove`, `c70_remove_written`, `c70_lost_refuted`, `c70_shared_refuted`, `c70_annotations_refuted`
  * FullPassProps.v: `c61_transform`, `c61_meaning_unique`, `c61_executions_agree`
  * HistogramProps.v: `c50_counts`, `c50_given_boundaries`, `c50_every_value_once`, `c50_density`, `c50_densities_sum_to_one`, `c50_categories`, `c50_integer_categories`, `c50_documented_example_refuted`, `c50_bin_count_refuted`, `c50_small_values_refuted`, `c50_constant_column_refuted`
  * ImpProps.v: `c88_outputs`, `c88_feeds`, `c88_unbound`, `c88_unexpected`, `c88_assets`, `c88_history`, `c88_drop`, `c88_drop_independent`, `c88_existing_scope_refuted`, `c88_components_refuted`
  * InfoProps.v: `c55_sentinel_refuted`, `c55_repeated_token_refuted`
  * InpProps.v: `c91_refused`, `c91_done`, `c91_finishes`, `c91_crash`, `c91_unchanged`, `c91_metadata`, `c91_unchanged_refuted`, `c91_crash_refuted`, `c91_failed_refuted`
  * InspectProps.v: `c48_analyze_columns`, `c48_transform_columns`
  * LMomentsProps.v: `c57_moments`, `c57_dense`, `c57_sparse`, `c57_mean_and_one_batch`
  * LayProps.v: `c90_no_assertion`, `c90_function`, `c90_graph`, `c90_eager`, `c90_again`, `c90_drop`, `c90_tf1`, `c90_eager_after_graph_refuted`, `c90_tracked_refuted`, `c90_graph_refuted`, `c90_replaced_refuted`, `c90_keep_refuted`
  * LegacyProps.v: `c72_old_signature`, `c72_dense_shape`, `c72_dense_shape_refuted`, `c72_new_signature`, `c72_new_signature_refuted`, `c72_exported_as_v1`, `c72_other_graphs`, `c72_no_signature_refuted`, `c72_json_schema`, `c72_json_default`, `c72_json_default_refuted`, `c72_json_sparse_refuted`
  * MeanVarProps.v: `c03_mean_and_var_exact`, `c03_mean_and_var_elementwise_exact`, `c03_mean_and_var_sparse_exact`, `c03_sparse_nan_refuted`, `c04_weighted_label_statistics_exact`, `c04_negative_weights_refuted`, `c05_covariance_exact`, `c05_covariance_empty`, `c05_integer_columns_refuted`
  * MiscProps.v: `c21_within_bounds`, `c21_monotone`, `c21_small_and_large`, `c22_labeled_weights`, `c45_to_vocab_range`, `c45_hash_strings`, `c46_safe_characters`, `c46_idempotent`, `c46_file_found_by_name`, `c46_annotated_asset_found`, `c46_only_existing_files`, `c46_empty_name_refuted`, `c46_distinct_names_refuted`
  * NumericProps.v: `c01_max_exact`, `c01_min_exact`, `c01_min_exact_nonempty_batches`, `c01_elementwise_exact`, `c01_uint32_uint64_rejected`, `c01_max_of_constant_dtype_max_column_is_wrong`, `c01_max_refuted`, `c01_max_schedule_independence_refuted`, `c01_min_refuted`, `c02_sum_exact`, `c02_sum_64bit`, `c02_size_exact`, `c02_sum_refuted`, `c02_sum_schedule_independence_refuted`
  * OptimizeProps.v: `c33_cache_does_not_change_results`, `c33_one_preprocessing_fn`, `c33_without_cache`, `c33_never_raises`, `c33_all_datasets_covered`, `c34_reported_datasets_suffice`, `c34_reported_datasets_suffice_for_written_cache`, `c33_written_cache_alone_refuted`
  * PackGraphProps.v: `c39_packing_keeps_results`, `c39_reserved_tokens_refuted`
  * PackProps.v: `c39_packed_accumulate`, `c39_packed_merge`, `c39_packed_accumulate_any_schedule`, `c39_packed_merge_any_schedule`
  * PerKeyFileProps.v: `c63_file`, `c63_same_as_memory`, `c63_first_word`, `c63_conflict`, `c63_spaces_refuted`, `c63_float64_refuted`
  * PerKeyProps.v: `c06_count_per_key_exact`, `c06_max_per_key_exact`, `c06_min_per_key_exact`, `c06_min_max_per_key_agree`, `c06_int16_refuted`, `c06_mean_and_var_per_key_exact`, `c06_outputs_sorted_by_key`, `c06_outputs_order_independent`, `c06_map_per_key`
  * PhaseProps.v: `c38_phases`, `c38_inputs_in_earlier_phases`
  * PreProps.v: `c85_function`, `c85_variables`, `c85_function_runs`, `c85_saved_model`, `c85_saved_model_runs`, `c85_unused_refuted`, `c85_twice_refuted`, `c85_second_output_refuted`, `c85_scope_refuted`, `c85_overlap_refuted`, `c85_saved_model_unused_refuted`
  * PublishProps.v: `c52_write_and_read`, `c52_work_succeeds`, `c52_interrupted_partial`, `c52_published_again_partial`, `c52_atomic_refuted`, `c52_retry_refuted`
  * PyFuncProps.v: `c56_histories`, `c56_saved_before_loading`, `c56_one_process`, `c56_unregistered`, `c56_saved_again_refuted`, `c56_function_bodies_refuted`, `c56_unregistered_refuted`
  * QuantileProps.v: `c68_boundaries`, `c68_range`, `c68_balanced`, `c68_balanced_float64`, `c68_default_epsilon`, `c68_order`, `c68_nan`, `c68_integers_refuted`, `c68_one_bucket_refuted`
  * ReadyProps.v: `c37_ready_and_dependencies`, `c37_first_query`, `c37_any_graph_partial`, `c37_tables_and_inputs`, `c37_cycle_history_refuted`
  * RegProps.v: `c82_lookup`, `c82_others`, `c82_library`, `c82_order`, `c82_once_refuted`, `c82_string_tags_refuted`
  * ResProps.v: `c95_first`, `c95_own`, `c95_made`, `c95_size`, `c95_appended`, `c95_formats_refuted`, `c95_size_refuted`, `c95_names_refuted`
  * RetraceProps.v: `c62_same_order`, `c62_named`, `c62_distinct_sources`, `c62_detects`, `c62_names_distinct`, `c62_order_detected_refuted`
  * RollProps.v: `c76_datasets`, `c76_entries`, `c76_written`, `c76_pipeline_refuted`
  * ScaleProps.v: `c01_float_min_max_exact`, `c01_float_min_max_empty`, `c01_float_infinity_refuted`, `c06_float_min_max_per_key_exact`, `c07_scale_by_min_max`, `c07_dataset_in_range`, `c07_empty_dataset_in_range`, `c07_rejects_empty_output_range`, `c07_per_key_in_range`, `c07_per_key_unseen_in_range`
  * SchemaProps.v: `c60_schema_v1_partial`, `c60_deferred_v1`, `c60_schema_v2_partial`, `c60_deferred_v2`, `c60_ordinary_names`, `c60_sparse_annotation_refuted`, `c60_two_keys_refuted`, `c60_shared_values_refuted`, `c60_column_names_refuted`
  * SelProps.v: `c80_int`, `c80_int_missing`, `c80_int_missing_refuted`, `c80_widths_refuted`, `c80_sum`
  * ServeProps.v: `c54_unexpected`, `c54_outputs`, `c54_compat_succeeds`, `c54_succeeds`, `c54_finalize`, `c54_finalized`, `c54_made_up_inputs_refuted`, `c54_failed_finalize_refuted`, `c54_control_dependencies_refuted`
  * SharedProps.v: `c71_right_model`, `c71_nothing_lost`, `c71_one_copy`, `c71_loaded_once`, `c71_keepalive`, `c71_keepalive_refuted`, `c71_released`, `c71_released_refuted`
  * SparseProps.v: `c23_segment_indices`, `c24_ngrams`, `c24_output_rows`, `c24_invalid_range`, `c25_deduplicate`, `c25_deduplicate_dense`, `c25_first_occurrences_unique`, `c25_rank_one`, `c25_bag_of_words`, `c26_left_align`, `c26_left_align_canonical`, `c28_word_count`, `c28_one_count_per_row`, `c27_tfidf`, `c27_each_term_once`, `c27_frequencies_sum_to_one`, `c27_one_term_vocabulary_refuted`, `c47_to_dense`, `c47_to_dense_accepts`
  * StripProps.v: `c93_values`, `c93_needs`, `c93_automatic`, `c93_checks_refuted`, `c93_mixed_refuted`
  * SupProps.v: `c89_supplied`, `c89_dense`, `c89_batch`, `c89_alone`, `c89_zero_refuted`, `c89_fixed_rows_refuted`, `c89_sparse_size_refuted`, `c89_uniform_refuted`, `c89_unknown_rank_refuted`
  * TabProps.v: `c94_pending`, `c94_evaluated`, `c94_static`, `c94_fails`, `c94_final`, `c94_order_refuted`, `c94_size_refuted`
  * TrackProps.v: `c66_outcome`, `c66_invoked`, `c66_saved`, `c66_saved_only`, `c66_outside`, `c66_scope_restored`, `c66_scopes`, `c66_unique_names_refuted`, `c66_taken_name_refuted`, `c66_attribute_name_refuted`
  * TransformProps.v: `c51_record_batches`, `c51_instances`, `c51_different_values`, `c51_batching`, `c51_overlap_refused`, `c51_encoded_passthrough_refuted`
  * TraverseProps.v: `c36_traversal`, `c36_meaning_unique`, `c36_acyclic_succeeds`, `c36_cycle_reported`, `c36_terminates`
  * TukeyProps.v: `c44_binary_search_brackets`, `c44_search_admissible`
  * TypProps.v: `c87_types`, `c87_uniform_refuted`, `c87_size_refuted`, `c87_placeholders`, `c87_accepted`, `c87_placeholders_of_types`, `c87_mixed`, `c87_domains`, `c87_features`, `c87_same_name_refuted`, `c87_lost_refuted`, `c87_written`, `c87_renamed_refuted`
  * VarlenProps.v: `c43_accepts_exactly_left_aligned`
  * VocabProps.v: `c13_schedule_independent`, `c13_order`, `c13_ranking_unique`, `c13_fingerprint_order`, `c13_reserved_order`, `c14_selection`, `c14_no_better_token_excluded`, `c15_lookup`, `c15_injective`, `c15_lookup_reserved`, `c15_duplicate_reserved_refuted`, `c16_in_schema_range`, `c16_range_attained`, `c16_num_buckets`, `c16_registered_size`, `c16_reserved_size_refuted`, `c17_read_back`, `c17_reserved_newline_refuted`, `c18_empty_vocabulary`, `c18_never_empty`, `c18_dummy_beside_tokens_refuted`, `c19_store_frequency_lookup`, `c19_no_underscore_distinct`, `c19_space_collision_refuted`, `c19_vocabulary_spaces_refuted`, `c20_coverage_appends`
  * WireProps.v: `c67_example`, `c67_columns`, `c67_gaps_refuted`, `c67_order`, `c67_error`, `c67_vocabulary_metadata`, `c67_bucket_boundaries`
