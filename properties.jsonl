{"id": "C01", "title": "Sharding assigns every sample to exactly one worker", "statement": "When max_samples_per_sequence is None, Sharder.shard_workers over all ranks and workers returns sub-shards whose sample ranges, concatenated in (rank, worker) order, are exactly every sample of every shard once, in dataset order: no loss, no duplicate, no sample invented.", "quantifier": "all shard lists (any counts incl. 0), world sizes, worker counts (incl. 0) and rotation offsets", "why_tests_cant": "needs every combination of shard sizes and worker counts; off-by-one errors only appear on particular boundaries", "anchors": ["src/megatron/energon/flavors/webdataset/sharder.py:Sharder.shard_workers", "src/megatron/energon/flavors/webdataset/sharder.py:Sharder._split_shards"]}
{"id": "C02", "title": "Sharding is balanced to within one sample", "statement": "Each global worker gets floor(total/G) or floor(total/G)+1 samples, G = world_size*max(1,num_workers), and exactly total mod G of them get the extra one.", "quantifier": "all totals, world sizes, worker counts, rotation offsets", "why_tests_cant": "arithmetic claim over all sizes", "anchors": ["src/megatron/energon/flavors/webdataset/sharder.py:Sharder.shard_workers"]}
{"id": "C03", "title": "Sharding depends only on the global worker count", "statement": "Two configurations with the same product world_size*num_workers give the same assignment to each global worker: reshaping ranks vs workers does not move any sample.", "quantifier": "all pairs of configurations with equal product, all datasets", "why_tests_cant": "relational property over pairs of runs", "anchors": ["src/megatron/energon/flavors/webdataset/sharder.py:Sharder.shard_workers", "src/megatron/energon/worker.py:WorkerConfig.global_worker_id"]}
{"id": "C04", "title": "Remainders rotate across blended datasets", "statement": "With the rotation offsets the train pipeline accumulates over its datasets, the total number of samples a global worker gets over all datasets is floor or ceil of the grand total divided by the number of global workers.", "quantifier": "all lists of dataset lengths, all G>0", "why_tests_cant": "global over every list of datasets", "anchors": ["src/megatron/energon/task_encoder/base.py:DefaultTaskEncoder.build_train_datasets", "src/megatron/energon/flavors/webdataset/sharder.py:Sharder.shard_workers"]}
{"id": "C05", "title": "Splitting long shards for max_samples_per_sequence loses nothing", "statement": "Splitting a sub-shard [s,e) into sequences of about max_samples_per_sequence samples yields contiguous slices covering exactly [s,e), none longer than 1.5*max (up to rounding: less than 1.5*max + 2).", "quantifier": "all s<=e, all max>0, including the IEEE double rounding the code performs", "why_tests_cant": "floating point: depends on the rounding of n/k*k for every n and k", "anchors": ["src/megatron/energon/flavors/webdataset/sharder.py:Sharder._split_shard"]}
{"id": "C06", "title": "Generalized bit reversal is a permutation", "statement": "The bit-reversal order visits each index exactly once, for every length (not just powers of two); for powers of two it is the classical bit reversal.", "quantifier": "all list lengths and contents", "why_tests_cant": "every length", "anchors": ["src/megatron/energon/flavors/webdataset/sharder.py:Sharder._generalized_bit_reversal"]}
{"id": "C07", "title": "Worker identities and seeds are unique and stable", "statement": "Distinct (rank, worker) pairs have distinct global worker ids in [0, world_size*num_workers); the worker seed depends only on (global worker id, seed offset), and (up to hash collisions) differs for different workers.", "quantifier": "all ranks, world sizes, worker counts, worker id offsets", "why_tests_cant": "for all configurations", "anchors": ["src/megatron/energon/worker.py:WorkerConfig.global_worker_id", "src/megatron/energon/worker.py:WorkerConfig.worker_seed", "src/megatron/energon/worker.py:WorkerConfig.rank_worker_id"]}
{"id": "C08", "title": "After a restore the data loader continues with the worker whose turn it is", "statement": "After restoring a loader state saved when worker k was next, the first sample the restored loader returns comes from logical worker k, and the following ones from k+1, k+2, ... modulo the worker count.", "quantifier": "all worker counts n and next worker ids k", "why_tests_cant": "only manifests for particular (n,k) pairs", "anchors": ["src/megatron/energon/worker.py:WorkerConfig.rank_worker_id", "src/megatron/energon/savable_loader.py:SavableDataLoader.restore_state_rank"]}
{"id": "C09", "title": "Sample index contexts nest and never collide", "statement": "Every push of a sample index is matched by a pop, the visible per-sample index is the innermost, the batch index the outermost, and two workers (or two different local indices) never expose the same global sample index.", "quantifier": "all nestings and histories of push/pop, all worker counts", "why_tests_cant": "for all histories", "anchors": ["src/megatron/energon/worker.py:WorkerConfig.worker_push_sample_index", "src/megatron/energon/worker.py:WorkerConfig.active_worker_sample_index", "src/megatron/energon/wrappers/base.py:SampleIndex"]}
{"id": "C10", "title": "Worker RNG: save, merge, restore continues the same random stream", "statement": "For every worker, after any sequence of draws, restoring the merged state of all workers into a fresh RNG gives the same continuation of draws as the uninterrupted RNG; choosing among one alternative consumes no randomness; restoring the initial state gives the initial stream.", "quantifier": "all draw histories, all worker counts, all RNG implementations", "why_tests_cant": "all histories", "anchors": ["src/megatron/energon/rng.py:WorkerRng"]}
{"id": "C11", "title": "Shuffles are permutations and choices are legal", "statement": "WorkerRng.shuffle returns a permutation of its input, rand_pop removes exactly one element, and choose_idx returns a valid index with nonzero weight.", "quantifier": "all lists, all RNG states", "why_tests_cant": "every RNG outcome", "anchors": ["src/megatron/energon/rng.py:WorkerRng"]}
{"id": "C12", "title": "Each worker's epoch delivers every sample of its shards the advertised number of times", "statement": "One epoch of the webdataset sample loader yields exactly the samples of the worker's sub-shards: once each without shuffling (in order) and with multiplier 1, k times each with shuffle_over_epochs=k, regardless of parallel_shard_iters and of the random choices; samples of a sub-shard are read in order.", "quantifier": "all shard lists, sizes (incl. empty), parallelism, RNG outcomes", "why_tests_cant": "all random schedules", "anchors": ["src/megatron/energon/flavors/webdataset/sample_loader.py:WebdatasetSampleLoaderDataset._shards_once", "src/megatron/energon/flavors/webdataset/sample_loader.py:WebdatasetSampleLoaderDataset._shards_iter"]}
{"id": "C13", "title": "The sample loader resumes exactly", "statement": "Saving the sample loader after any number of yielded samples (mid-epoch or at epoch end), merging all workers' states and restoring into a freshly built loader yields exactly the remaining sample stream of the uninterrupted run, including random shard order.", "quantifier": "all shards, modes, parallelism, histories, save points", "why_tests_cant": "all crash points", "anchors": ["src/megatron/energon/flavors/webdataset/sample_loader.py:WebdatasetSampleLoaderDataset.save_state", "src/megatron/energon/flavors/webdataset/sample_loader.py:WebdatasetSampleLoaderDataset.restore_state"]}
{"id": "C14", "title": "The sample loader keeps at most parallel_shard_iters shards open and never opens a shard twice per draw", "statement": "At any time at most parallel_shard_iters sub-shards are in progress; epoch_sample_count and sample_count equal the number of samples yielded in the epoch / in total.", "quantifier": "all histories", "why_tests_cant": "all histories", "anchors": ["src/megatron/energon/flavors/webdataset/sample_loader.py:WebdatasetSampleLoaderDataset._shards_iter"]}
{"id": "C15", "title": "A sample's restore key brings back the same sample", "statement": "Asking the dataset pipeline to restore the sample for the restore key attached to a yielded sample returns an equal sample, through every wrapper of the pipeline.", "quantifier": "all pipelines, all samples, all keys", "why_tests_cant": "all compositions", "anchors": ["src/megatron/energon/flavors/base_dataset.py:add_sample_restore_key", "src/megatron/energon/flavors/webdataset/sample_loader.py:WebdatasetSampleLoaderDataset.restore_sample", "src/megatron/energon/flavors/webdataset/single_shard_reader.py"]}
{"id": "C16", "title": "Joined datasets read row by row", "statement": "A joined loader yields, for each position, the tuple of the columns' samples at that position; a difference in key or length is an error instead of a silent misalignment.", "quantifier": "all column contents", "why_tests_cant": "all contents", "anchors": ["src/megatron/energon/flavors/webdataset/sample_loader.py:WebdatasetSampleLoaderDataset._read_multicolumn_shard", "src/megatron/energon/flavors/webdataset/joined_webdataset.py"]}
{"id": "C17", "title": "Tar index and reader agree", "statement": "For every tar member sequence the index written by dataset preparation has one entry per sample; reading the sub-shard [offset, offset+count) through the index yields exactly the samples offset..offset+count-1 of a full sequential read, with all their parts.", "quantifier": "all tar member sequences (directories, meta files, multi-part samples), all sub ranges", "why_tests_cant": "all archives", "anchors": ["src/megatron/energon/flavors/webdataset/prepare.py:WebdatasetPreparator._preprocess_tar", "src/megatron/energon/flavors/webdataset/single_shard_reader.py:ShardReader", "src/megatron/energon/flavors/webdataset/itar.py"]}
{"id": "C18", "title": "Reader position is resumable mid-shard", "statement": "Stopping a shard reader after any number of samples and creating a new reader at the recorded (offset, byte_offset) yields exactly the remaining samples.", "quantifier": "all archives, sub-shards, stop points", "why_tests_cant": "all crash points", "anchors": ["src/megatron/energon/flavors/webdataset/single_shard_reader.py:ShardReader"]}
{"id": "C19", "title": "Sub-file reader exposes exactly its window", "statement": "Any sequence of read/seek/tell operations on the sub-file reader behaves like an ordinary file whose content is the byte range [offset, offset+size).", "quantifier": "all files, windows and operation sequences", "why_tests_cant": "all operation sequences", "anchors": ["src/megatron/energon/flavors/webdataset/itar.py:SubFileReader"]}
{"id": "C20", "title": "Retrying stream reads return the right bytes", "statement": "A read of n bytes through the retrying stream returns the next n bytes of the object (fewer only at the end), whatever transient failures happen.", "quantifier": "all contents, reads and failure schedules", "why_tests_cant": "all failure schedules", "anchors": ["src/megatron/energon/retry_stream.py"]}
{"id": "C21", "title": "Index files appear atomically", "statement": "If writing a shard index is interrupted or fails, the final index file is either absent/old or complete: a partial index is never visible; index reads reject out-of-range sample numbers.", "quantifier": "all write sequences and failure points", "why_tests_cant": "all crash points", "anchors": ["src/megatron/energon/flavors/webdataset/itar.py:TarIndexWriter", "src/megatron/energon/flavors/webdataset/itar.py:TarIndexReader"]}
{"id": "C22", "title": "Split preparation partitions the shards", "statement": "Preparing with ratio split parts assigns every non-empty shard to exactly one split part when the ratios are normalised; parts are contiguous and in order.", "quantifier": "all shard lists and ratio lists, with the float arithmetic used", "why_tests_cant": "floating point rounding for each ratio list", "anchors": ["src/megatron/energon/flavors/webdataset/prepare.py:WebdatasetPreparator.prepare_dataset"]}
{"id": "C23", "title": "Shuffle buffer only reorders", "statement": "The shuffle buffer yields exactly the multiset of inner samples, never yields a sample more than buffer-size positions early, and for any RNG.", "quantifier": "all inner streams, sizes, RNG outcomes", "why_tests_cant": "all random outcomes", "anchors": ["src/megatron/energon/wrappers/shuffle_buffer_dataset.py"]}
{"id": "C24", "title": "Shuffle buffer resumes exactly", "statement": "Saving after any number of yields and restoring gives exactly the remaining output of the uninterrupted run, provided the inner dataset resumes and restores samples by key.", "quantifier": "all inner datasets, histories, save points", "why_tests_cant": "all crash points", "anchors": ["src/megatron/energon/wrappers/shuffle_buffer_dataset.py", "src/megatron/energon/wrappers/buffer.py"]}
{"id": "C25", "title": "Repeat yields the inner dataset exactly N times (or forever)", "statement": "RepeatDataset(n) yields the inner epoch n times per iteration, also after a mid-repeat save/restore, and again when iterated again.", "quantifier": "all inner datasets, repeats, save points", "why_tests_cant": "all crash points", "anchors": ["src/megatron/energon/wrappers/repeat_dataset.py"]}
{"id": "C26", "title": "Epochize slices the inner stream without loss", "statement": "Consecutive epochs of EpochizeDataset, over all workers, have in total exactly `length` samples each and concatenate to the inner stream without loss or duplication; also across save/restore at any point.", "quantifier": "all lengths, worker counts, inner streams, save points", "why_tests_cant": "all crash points", "anchors": ["src/megatron/energon/wrappers/epochize_dataset.py"]}
{"id": "C27", "title": "Limit yields exactly the first samples", "statement": "Per worker, LimitDataset yields the first local-limit samples (or all if fewer); local limits add up to the limit; after a save/restore at any point the remainder is yielded.", "quantifier": "all limits, worker counts, inner streams, save points", "why_tests_cant": "all crash points", "anchors": ["src/megatron/energon/wrappers/limit_dataset.py"]}
{"id": "C28", "title": "Blend draws only from its datasets, in each dataset's order, and resumes exactly", "statement": "The blended stream restricted to each inner dataset is a prefix of that dataset's own (repeated) stream; datasets of weight 0 or empty for the worker are never drawn; the stream continues exactly after restore.", "quantifier": "all weights, inner streams, RNG outcomes, save points", "why_tests_cant": "all random outcomes", "anchors": ["src/megatron/energon/wrappers/blend_dataset.py"]}
{"id": "C29", "title": "Concat yields all datasets one after the other and resumes exactly", "statement": "ConcatDataset yields the inner datasets' samples in order, and a save/restore at any point yields exactly the remaining samples.", "quantifier": "all lists of inner datasets, save points", "why_tests_cant": "all crash points", "anchors": ["src/megatron/energon/wrappers/concat_dataset.py"]}
{"id": "C30", "title": "Batching groups consecutive samples without loss", "statement": "BatchDataset turns the inner stream into consecutive groups of exactly batch_size samples in order; only the last may be shorter and is dropped iff drop_last; the number of batches equals the reported length; and it resumes exactly.", "quantifier": "all streams, batch sizes, save points", "why_tests_cant": "all sizes and crash points", "anchors": ["src/megatron/energon/wrappers/batch_dataset.py"]}
{"id": "C31", "title": "A batch's restore key rebuilds the same batch", "statement": "The restore key of a yielded batch lists exactly its samples' keys and restoring it applies the batcher to the same samples with the same sample index, also after earlier batches were skipped by errors.", "quantifier": "all streams, batcher error schedules", "why_tests_cant": "all error schedules", "anchors": ["src/megatron/energon/wrappers/batch_dataset.py"]}
{"id": "C32", "title": "Grouped batches are homogeneous and lossless", "statement": "Each batch of GroupBatchDataset contains only samples of one group key, in arrival order, of that group's batch size (only final ones shorter); batches come out in the order in which they are completed, the shorter ones at the end of the epoch in the order in which their keys first occurred; no sample is lost or duplicated; buffered samples survive save/restore in the right worker.", "quantifier": "all streams, key functions, worker counts, save points", "why_tests_cant": "all crash points", "anchors": ["src/megatron/energon/wrappers/group_batch_dataset.py"]}
{"id": "C33", "title": "Packing uses each selected sample exactly once", "statement": "Packing reads the inner stream in order into a bounded buffer, and every sample the packer selects is in exactly one pack, all of a pack's samples being packed together; resumes exactly.", "quantifier": "all packers, streams, buffer sizes, save points", "why_tests_cant": "all crash points", "anchors": ["src/megatron/energon/wrappers/packing_dataset.py"]}
{"id": "C34", "title": "Mapping applies the function once per sample, in order, with stable sample index", "statement": "MapDataset yields f(sample) for each inner sample in order, dropping exactly those where f raises SkipSample (or a handled error); the sample index passed to f is the number of samples mapped before; a restored dataset uses the same indices as the uninterrupted run; generator outputs likewise.", "quantifier": "all functions (incl. raising, generator), streams, save points", "why_tests_cant": "all crash points", "anchors": ["src/megatron/energon/wrappers/map_dataset.py"]}
{"id": "C35", "title": "IterMap restore keys", "statement": "Every sample yielded by IterMapDataset carries a restore key from which the same sample can be rebuilt.", "quantifier": "all iteration functions, streams", "why_tests_cant": "all functions", "anchors": ["src/megatron/energon/wrappers/iter_map_dataset.py"]}
{"id": "C36", "title": "Filter, GC and log wrappers are transparent", "statement": "FilterDataset yields exactly the inner samples satisfying the predicate in order; GcDataset and LogSampleDataset yield the inner stream unchanged; all resume whenever the inner dataset does.", "quantifier": "all predicates, streams, save points", "why_tests_cant": "all streams", "anchors": ["src/megatron/energon/wrappers/filter_dataset.py", "src/megatron/energon/wrappers/gc_dataset.py", "src/megatron/energon/wrappers/log_sample_dataset.py"]}
{"id": "C37", "title": "Worker checkpoint plus replay continues at the right sample", "statement": "In each data-loader worker, restoring from the checkpoint chosen for sample index k and skipping the recorded offset yields the worker's samples k+1, k+2, ... of the uninterrupted run.", "quantifier": "all checkpoint schedules (time based), histories, indices", "why_tests_cant": "checkpointing depends on wall-clock time", "anchors": ["src/megatron/energon/savable_loader.py:SavableDatasetWrapper"]}
{"id": "C38", "title": "Needed checkpoints are still available", "statement": "Whenever the main process asks a worker for the state after a sample it received, the worker still has a checkpoint at or before that sample, although the worker runs ahead and prunes old checkpoints.", "quantifier": "all schedules, prefetch lags, checkpoint timing", "why_tests_cant": "depends on scheduling and timing", "anchors": ["src/megatron/energon/savable_loader.py:SavableDatasetWrapper._store_checkpoint", "src/megatron/energon/savable_loader.py:SavableDatasetWrapper.get_checkpoint"]}
{"id": "C39", "title": "Saving and restoring the data loader resumes the global sample sequence", "statement": "SavableDataLoader.save_state after any number of yielded samples, then restore_state in a new loader, yields exactly the samples that the uninterrupted loader would have yielded next, in the same order, for all workers.", "quantifier": "all worker counts, save points (incl. before first sample and right after a restore)", "why_tests_cant": "all crash points", "anchors": ["src/megatron/energon/savable_loader.py:SavableDataLoader"]}
{"id": "C40", "title": "Rank states are gathered and scattered to the right rank", "statement": "Saving on all ranks and restoring on all ranks gives each rank back its own state; loading fails with an error if the number of states does not match.", "quantifier": "all world sizes", "why_tests_cant": "all world sizes", "anchors": ["src/megatron/energon/savable_loader.py:SavableDataLoader.save_state_global", "src/megatron/energon/savable_loader.py:SavableDataLoader.restore_state_global"]}
{"id": "C41", "title": "Metadataset weights", "statement": "The weights of a (nested) blended metadataset are nonnegative, sum to 1, and each leaf gets the product of the relative weights along its path.", "quantifier": "all nested metadatasets and weights", "why_tests_cant": "all trees", "anchors": ["src/megatron/energon/metadataset/metadataset.py", "src/megatron/energon/metadataset/metadataset_v2.py"]}
{"id": "C42", "title": "Metadataset settings precedence", "statement": "Split part, subflavor, subflavors and shuffle multipliers given at outer levels combine with inner ones as documented: inner subflavors keys are overridden by outer ones, multipliers multiply, split part of inner reference wins.", "quantifier": "all nestings", "why_tests_cant": "all nestings", "anchors": ["src/megatron/energon/metadataset/metadataset_v2.py", "src/megatron/energon/metadataset/dataset_loader.py", "src/megatron/energon/metadataset/join_dataset_loader.py"]}
{"id": "C43", "title": "Path resolution is canonical and stays below the root", "statement": "EPath normalisation removes '.' and '..', is idempotent, never escapes the root (raises instead), joining an absolute path replaces, and relative_to inverts joining.", "quantifier": "all path strings", "why_tests_cant": "all strings", "anchors": ["src/megatron/energon/epathlib/epath.py"]}
{"id": "C44", "title": "Field access expressions", "statement": "Field access with alternatives returns the first alternative that exists, nested access follows the path, and a missing field is an error.", "quantifier": "all samples and field expressions", "why_tests_cant": "all inputs", "anchors": ["src/megatron/energon/flavors/webdataset/field_access.py"]}
{"id": "C45", "title": "End to end resume of a training pipeline", "statement": "The standard training pipeline (sample loader, shuffle buffer, encode map, batch, epochize) saved after any number of batches and restored continues with exactly the same batches.", "quantifier": "all pipelines parameters, datasets, save points", "why_tests_cant": "all crash points and compositions", "anchors": ["src/megatron/energon/task_encoder/base.py:DefaultTaskEncoder.build_train_datasets"]}
{"id": "C46", "title": "One epoch over all ranks and workers delivers the dataset exactly once", "statement": "If every rank shards the dataset for its own (rank, world_size, num_workers) and every worker reads one epoch of its webdataset loader, then all the samples delivered by all workers of all ranks together are exactly the samples of the dataset, each once (k times with shuffle_over_epochs_multiplier k); with max_samples_per_sequence none is delivered more often.", "quantifier": "all shard lists (any sizes, empty shards included), all world sizes and worker counts, rotation offsets, numbers of parallel shard iterators, all random choices", "why_tests_cant": "the property is about the union of what many processes deliver, over unboundedly many dataset shapes, cluster shapes and random schedules", "anchors": ["src/megatron/energon/flavors/webdataset/sharder.py: Sharder.shard_workers", "src/megatron/energon/flavors/webdataset/sample_loader.py: WebdatasetSampleLoaderDataset", "src/megatron/energon/flavors/webdataset/base_webdataset.py: BaseWebdatasetFactory.build"]}
{"id": "C47", "title": "Functions marked stateless(restore_seeds=True) are reproducible and do not disturb other randomness", "statement": "A task encoder function decorated with stateless(restore_seeds=True) draws random numbers that depend only on the worker's seed and the sample index: the same (worker, sample index, argument) gives the same result at any time, in whatever state the global random generators are and whatever was called before; when a sample is restored the same random numbers are drawn again; and the caller's random generators are left exactly as they were, also when the function raises, and at every yield of a generator function.", "quantifier": "all functions and generator functions, all states of the torch/numpy/random generators, all interleavings of calls, all worker configurations", "why_tests_cant": "the claim is about arbitrary call histories and arbitrary interference between yields; a test only sees one history", "anchors": ["src/megatron/energon/task_encoder/base.py:stateless", "src/megatron/energon/rng.py:SystemRng", "src/megatron/energon/worker.py:WorkerConfig.worker_seed", "src/megatron/energon/savable_loader.py:SavableDatasetWrapper.restore_sample"]}
{"id": "C48", "title": "A task encoder's training and validation datasets deliver the encoded data and resume exactly", "statement": "In every worker, each epoch of the dataset that build_val_datasets returns is the data of its datasets one after the other, each sample cooked and encoded, consecutive samples batched and each batch encoded, in order; with a limit each epoch is the worker's share of the limit from the front, and all epochs are the same. The dataset that build_train_datasets returns can be saved and restored at any time without changing the samples that follow, and every sample of either can be restored from its key. If all overridden methods are marked stateless (and the datasets can restore), can_restore_sample() is true.", "quantifier": "all encoders (which methods are overridden, functions, generators), datasets, batch sizes, limits, shuffle buffers, blending weights, histories of iterating, saving and restoring", "why_tests_cant": "the pipeline is assembled from options in very many combinations, each with unboundedly many histories", "anchors": ["src/megatron/energon/task_encoder/base.py:TaskEncoder.build_train_datasets", "src/megatron/energon/task_encoder/base.py:TaskEncoder.build_val_datasets", "src/megatron/energon/task_encoder/base.py:TaskEncoder.build_batch"]}
{"id": "C49", "title": "Crude samples are cooked by the first matching cooker", "statement": "A crude sample is passed to the first registered cooker whose subflavor equals the sample's, whose required subflavors all occur in the sample's with these values, and whose condition holds (each as far as given); samples that are not crude pass unchanged; a crude sample without such a cooker is dropped with a logged error; order is kept.", "quantifier": "all lists of cookers and all samples", "why_tests_cant": "the matching conditions combine with arbitrary user predicates over arbitrary subflavor dictionaries", "anchors": ["src/megatron/energon/task_encoder/cooking.py:Cooker.is_match", "src/megatron/energon/task_encoder/base.py:TaskEncoder.cook_crude_sample"]}
{"id": "C50", "title": "Loaded and joined samples have the right fields", "statement": "A webdataset sample loaded with a field_map has as fields: its restore key and the dataset's subflavors (never overridden), for each mapped field the value of the first existing alternative of its description in the sample's decoded files, its key, and the class's defaults otherwise; loading fails exactly if decoding fails, a mapped field is not found, or a field without default is not mapped. Only the tar parts the map mentions are read, and this cannot be noticed in the loaded samples. A field_map that cannot give a valid sample is rejected when the dataset is constructed. A joined sample takes key, restore key and subflavors from the primary sample and every other field from the last sample that has it; derive_from keeps the metadata, extend keeps every field not given.", "quantifier": "all classes (fields, defaults), field maps, samples, decoders, archives and sub-shards, lists of joined samples", "why_tests_cant": "field maps, nested values and archives are unbounded; the filter claim compares two reads for every archive", "anchors": ["src/megatron/energon/flavors/webdataset/default_generic_webdataset.py:DefaultGenericWebdatasetFactory", "src/megatron/energon/flavors/webdataset/default_decoder_webdataset.py:DefaultDecoderWebdatasetFactory.load_sample", "src/megatron/energon/flavors/base_dataset.py:Sample.from_joined", "src/megatron/energon/flavors/base_dataset.py:Sample.derive_from", "src/megatron/energon/flavors/base_dataset.py:ExtendableDataclassMixin.extend"]}
{"id": "C51", "title": "Batched samples keep their data, aligned and padded with zeros only", "statement": "Batching a list of samples gives, at every path of dict keys and attributes the first sample has, the tensors of all samples stacked in their order and padded with zeros at the end of each dimension to the smallest common shape, or the list of the other values in their order; it fails exactly if a sample lacks such a path or the tensors there differ in number of dimensions. Mixing batches concatenates along the first dimension in the same way. DefaultTaskEncoder keeps the subflavors of every sample. The rows of a mixed batch still line up with its keys.", "quantifier": "all lists of samples: nested dicts, dataclasses and namedtuples, all tensor shapes, dtypes and contents", "why_tests_cant": "shapes, nesting and batch sizes are unbounded; the padding claim is about every index", "anchors": ["src/megatron/energon/task_encoder/base.py:generic_batch", "src/megatron/energon/task_encoder/base.py:batch_pad_stack", "src/megatron/energon/task_encoder/base.py:TaskEncoder._batch", "src/megatron/energon/wrappers/mix_batch_dataset.py:generic_concat", "src/megatron/energon/wrappers/mix_batch_dataset.py:concat_pad"]}
{"id": "C52", "title": "An epoch of a loader without checkpoints returns every sample once, in an order no schedule can change", "statement": "A loader with worker processes over datasets that end (BasicDataLoader for validation) returns each worker's samples exactly once and in their order, the workers taking turns; the sequence does not depend on how fast the workers run, the loader never blocks, and every execution reaches StopIteration. Over all ranks a validation epoch delivers every sample of the dataset exactly once. A loader without worker processes numbers the samples of its dataset and, saved and restored, goes on with exactly the samples that were to come; every sample can be brought back by its key.", "quantifier": "all worker counts, prefetch factors, lists of samples per worker and interleavings of workers and main process; all datasets, states, worlds", "why_tests_cant": "depends on the scheduling of the worker processes; tests see one interleaving", "anchors": ["src/megatron/energon/savable_loader.py: SimpleSavableDatasetWrapper, BasicDataLoader, SavableDataLoader.save_state_rank"]}
{"id": "C53", "title": "Typed configuration data is read and written faithfully", "statement": "A value of a configuration type (nested dataclasses, NamedTuples, lists, dicts, tuples, unions, literals, plain data) written with to_json_object is read back unchanged by raw_to_typed, in particular .info.yaml and split.yaml. Whatever data is read, the result has the type asked for or the read fails with JsonValueError; each field is the given value or else its default. With strict nothing in the data is ignored.", "quantifier": "all types, all values and data of any nesting, strict or not, with or without imports", "why_tests_cant": "types and data nest without bound; the claim is about every combination of a type and wrong or right data", "anchors": ["src/megatron/energon/typed_converter.py: raw_to_typed", "src/megatron/energon/typed_converter.py: to_json_object", "src/megatron/energon/flavors/webdataset/structs.py: to_json/from_json users", "src/megatron/energon/flavors/webdataset/metadata.py", "src/megatron/energon/flavors/webdataset/config.py"]}
{"id": "C54", "title": "Classes and functions named in configuration files get the right arguments", "statement": "safe_call_function with a dictionary calls the function with every named parameter bound to the given value or else its default, converted to its annotated type, and further given values only if it takes **kwargs; if strict, unknown arguments are an error; it is called whenever all required arguments are there and convertible. load_config finds the class named in the file (or the default), and gives it for every parameter the value in the file, else the caller's default, else the parameter's default. Where a class is expected a subclass is returned.", "quantifier": "all signatures, all argument dictionaries and lists, all importable modules, all default arguments", "why_tests_cant": "signatures and data are unbounded; the precedence claim is about every key", "anchors": ["src/megatron/energon/typed_converter.py: safe_call_function", "src/megatron/energon/typed_converter.py: raw_to_instance", "src/megatron/energon/dataset_config.py: load_config"]}
{"id": "C55", "title": "Merged image transforms show the same picture", "statement": "MergeTransform applied to an image gives an image of the same size, and showing the same source point at every place, as applying the torchvision transforms it merges one after the other with the same random draws; the crop box of RandomResizedCrop lies inside the image; the fill value and interpolation used are those of every merged transform.", "quantifier": "every list of supported transforms, their parameters and random draws, every image size and content", "why_tests_cant": "the number of transforms, their order, their real-valued parameters and the image sizes are unbounded; a test compares a few pictures up to a tolerance and misses off-by-one shifts or borders", "anchors": ["src/megatron/energon/transforms/merge.py: MergeTransform", "src/megatron/energon/transforms/mappers.py: ResizeMapper, RandomResizedCropMapper, RandomCropMapper, CenterCropMapper, RandomRotationMapper, RandomPerspectiveMapper, RandomHorizontalFlipMapper, RandomVerticalFlipMapper"]}
{"id": "C56", "title": "Overriding a configuration changes exactly what is named", "statement": "override(value, {\"a.b\": x, ...}) returns an object of the same type in which each named part has the value given (converted from text to the declared type) and every other part is as before; names that do not exist are an error if strict; lists can be changed by index, dictionaries by key.", "quantifier": "every typed object (classes nested arbitrarily), every set of dotted names and values, every list and indexes", "why_tests_cant": "types, nesting, names and texts are unbounded; a test covers a few objects", "anchors": ["src/megatron/energon/typed_converter.py: override, _split_dict_keys, _isinstance_deep"]}
{"id": "C57", "title": "Reproducible scaling: the same global batches on a different number of ranks", "statement": "If world_size * num_workers and the seeds stay the same and the global batch size is a multiple of micro batch size * world_size * num_workers, then every global batch consists of the same micro batches (contents and restore keys), whatever the split of the workers over ranks, the prefetching and the interleaving of the worker processes. The worker with the same global id delivers exactly the same samples, restore keys and errors in both layouts.", "quantifier": "all training pipelines built from webdatasets by map, generator map (at most one output), shuffle buffer, batch, filter, log, gc, blend, packing and iter-map; all pairs of layouts with equal number of global workers; all loader settings, schedules and global batch numbers", "why_tests_cant": "the claim relates whole runs of two different clusters, over all pipelines, layouts and schedules", "anchors": ["docs/source/repro_scaling.md", "src/megatron/energon/worker.py: WorkerConfig.global_worker_id, worker_seed", "src/megatron/energon/flavors/webdataset/sharder.py: Sharder.shard_workers", "src/megatron/energon/savable_loader.py: SavableDataLoader.__iter__"]}
{"id": "C58", "title": "The debug heatmap shows exactly what the ranks yielded", "statement": "Given the debug logs that the main processes of all ranks wrote for a loader, analyze-debug draws one row per distinct sample key (in order of first appearance) and one column per step; every key a rank yielded at a step adds that rank's colour to the pixel of its row and column, however often the image had to be zoomed out; no point is lost, the zoom is the smallest power of two at which everything fits, and each process's log file holds everything that process logged.", "quantifier": "every number of ranks, every batch sequence with or without keys, every interleaving with other loaders and processes in the logs, every palette, and every image size", "why_tests_cant": "The image is resized at data-dependent moments, the logs of several ranks and loaders are merged step by step, and the defects only show for particular sizes, options and pipelines; a test draws one image.", "anchors": ["tools/analyze_debug.py:AutosizingHeatmapWriter", "tools/analyze_debug.py:LoaderLogIter", "tools/analyze_debug.py:command", "worker.py:WorkerConfig.worker_log", "savable_loader.py:SavableDataLoader.__iter__", "savable_loader.py:BasicDataLoader.__iter__"]}
{"id": "C59", "title": "A split part contains what split.yaml says", "statement": "Loading a split part of a dataset serves exactly the shards its list in split.yaml stands for (after brace expansion), in order, minus the excluded shards, and of these exactly the samples that are not excluded; loading fails exactly if the part is unknown, a pattern is malformed or a shard was not counted, and reports an empty dataset exactly if everything is excluded; len() is the number of samples of an epoch; joined datasets pair the shards of the same position and are only accepted if they fit", "quantifier": "every split.yaml, .info.yaml, exclude list, brace expansion, archive and part filter", "why_tests_cant": "needs all split files, patterns, exclude lists and archives; tests use a few", "anchors": ["src/megatron/energon/flavors/webdataset/metadata.py:WebdatasetMeta.from_config", "src/megatron/energon/flavors/webdataset/base_webdataset.py:BaseWebdatasetFactory.__len__", "src/megatron/energon/flavors/webdataset/joined_webdataset.py:JoinedWebdatasetFactory.__init__", "src/megatron/energon/flavors/webdataset/single_shard_reader.py:SingleShardReader._next_tarinfo"]}
{"id": "C60", "title": "Errors in samples are reported", "statement": "With a handler that returns, every sample that can be loaded is served and the handler is called once for each failing one, with its exception and its key; the default handler raises at the first failing sample; system exceptions always end the iteration; energon lint passes exactly if the index files are right, all split parts can be loaded and every sample loads, and otherwise names the failing samples", "quantifier": "every dataset, loading function, handler, sequence of failures, split and index file", "why_tests_cant": "needs all failure patterns and handlers; tests inject a few failures", "anchors": ["src/megatron/energon/flavors/webdataset/error_handler.py:ErrorHandler", "src/megatron/energon/flavors/webdataset/structs.py:reraise_exception", "src/megatron/energon/wrappers/map_dataset.py:MapDataset.__iter__", "src/megatron/energon/flavors/webdataset/single_shard_reader.py:SingleShardReader.read_next", "src/megatron/energon/tools/lint.py:command", "src/megatron/energon/tools/lint.py:check_index"]}
{"id": "C61", "title": "Arguments and file names reach the datasets they are meant for", "statement": "Every dataset that get_train_dataset or get_val_dataset loads is made by the class named in the configuration file that its reference names (dataset_config), with the settings of that file first, then the split file, split part and subflavor that hold at that place of the metadataset, then the additional arguments of the call, and with nothing else; loading succeeds exactly when everything referred to is there and every class has the parameters; a worker configuration given to get_loader must be that of the dataset.", "quantifier": "all metadataset trees, dataset configuration files and their classes' parameters, arguments of the call, worker configurations", "why_tests_cant": "Any combination of nesting, files and arguments can occur; tests load a few metadatasets.", "anchors": ["src/megatron/energon/task_encoder/loader.py:get_train_dataset", "src/megatron/energon/metadataset/loader.py:load_dataset", "src/megatron/energon/metadataset/dataset_loader.py:DatasetLoader", "src/megatron/energon/metadataset/join_dataset_loader.py:JoinDatasetLoader", "src/megatron/energon/dataset_config.py:get_dataset_from_config", "src/megatron/energon/loader.py:get_loader"]}
{"id": "C62", "title": "User functions named in dataset.yaml", "statement": "A string 'module.py:function' (or 'module.py' with the default name) given as sample_loader or part_filter in dataset.yaml means that function of the file next to dataset.yaml. Each file is executed at most once per process, so all functions named from one file share one execution; a call that succeeds returns a callable of the right name from the right file. The loader sees exactly the parts admitted by the filter, each with the contents of its file; the loaded sample has the fields the function returned, except for the restore key and subflavors, which it cannot change. A sample_loader needs a part_filter and excludes a field_map.", "quantifier": "every function string, dataset path, sequence of calls with files changing in between, user function, filter, archive and sub-shard", "why_tests_cant": "The order of the calls, the contents of the files over time and what user code returns are unbounded.", "anchors": ["src/megatron/energon/module_loader.py:ModuleLoader", "src/megatron/energon/flavors/webdataset/default_generic_webdataset.py:DefaultGenericWebdatasetFactory", "src/megatron/energon/flavors/webdataset/default_decoder_webdataset.py:load_sample"]}
{"id": "C63", "title": "Preparing a dataset, and being interrupted", "statement": "'energon prepare' leaves a dataset directory that is usable or visibly not prepared. If a first preparation is stopped at any point (kill, power loss; all processes, whatever they had done), the dataset either cannot be opened or is completely prepared, and every shard of every split part can be read through its index and returns the right samples. After a preparation that completes, every split part with a shard opens, its shards are archives that could be read, with their number of samples, and together the parts have every readable archive once (except those the split leaves out). Preparing or indexing again, also when interrupted or failing, never makes a shard unreadable that was readable. The parts reported to the user are those that the samples have, at most 50.", "quantifier": "all archives and archive names, all interleavings of the indexing processes, all failures of single archives, all crash points, all previous states of the directory, all YAML encodings that can be read back", "why_tests_cant": "tests prepare once, without a crash, and with a pool whose interleaving they do not control; crash points and interleavings are unboundedly many", "anchors": ["src/megatron/energon/flavors/webdataset/prepare.py:WebdatasetPreparator._preprocess_tar", "src/megatron/energon/flavors/webdataset/prepare.py:WebdatasetPreparator.prepare_dataset", "src/megatron/energon/flavors/webdataset/itar.py:TarIndexWriter", "src/megatron/energon/tools/prepare.py:command", "src/megatron/energon/flavors/webdataset/metadata.py"]}
{"id": "C64", "title": "A saved state can be restored again", "statement": "Without worker processes, restore_state may be called on a SavableDataLoader that is in use, and the same saved state may be restored any number of times: each time iteration continues exactly as it did after the state was saved, whatever was iterated in between.", "quantifier": "every training pipeline (any nesting of loaders, blends and wrappers), every point where the state was saved, every later state of the dataset object restored into, every number of workers recorded in the state", "why_tests_cant": "A test restores one state once, usually into a new loader; the state object, the leftover generators and counters of the used datasets depend on the whole history between saving and restoring.", "anchors": ["savable_loader.py:SimpleSavableDatasetWrapper", "savable_loader.py:SavableDataLoader.restore_state", "wrappers/epochize_dataset.py:EpochizeDataset.restore_state", "wrappers/base.py:SampleIndex.restore_state", "wrappers/buffer.py:SavableSampleBuffer.restore_state", "rng.py:WorkerRng.restore_state"]}
{"id": "C65", "title": "config() tells whether two datasets have the same settings", "statement": "For every two pipelines of the webdataset loader and the wrappers, and for the data loaders on top of them, the dictionaries returned by config() are equal if and only if the pipelines were built with the same constructors, sizes, flags, weights, shards and worker layout and with functions of the same name and description (GcDataset and LogSampleDataset may differ); and two datasets with equal configs yield the same samples, save and restore alike.", "quantifier": "all pairs of pipelines of any shape and depth, all worker configs, all user functions, file contents and random generators", "why_tests_cant": "A test compares config() with one literal; that no two different pipelines share a config, and that an equal config means equal behaviour, ranges over all pairs of pipelines.", "anchors": ["flavors/base_dataset.py: SavableDataset.config, _function_config", "flavors/webdataset/sample_loader.py: config", "wrappers/*.py: config", "worker.py: WorkerConfig.config", "savable_loader.py: SavableDataLoader.config, BasicDataLoader.config"]}
{"id": "C66", "title": "len() is the number of samples of an epoch", "statement": "len(dataset) (and len(loader)) equals the number of samples that all the workers of the rank deliver together in each epoch; len() of a dataset factory equals the number of samples over all ranks.", "quantifier": "all pipelines of the library's datasets, all sources and shards, numbers of workers, user functions, schedules of the workers and numbers of epochs", "why_tests_cant": "the number depends on how every wrapper, every user function and the division of the samples among workers interact; tests compare a few pipelines with one worker", "anchors": ["src/megatron/energon/wrappers/*.py:__len__", "src/megatron/energon/flavors/webdataset/sample_loader.py:__len__", "src/megatron/energon/flavors/webdataset/base_webdataset.py:__len__", "src/megatron/energon/savable_loader.py:__len__"]}
{"id": "C67", "title": "User functions that draw random numbers continue with the same numbers", "statement": "User functions that are not marked stateless and use the global random generators (random, numpy, torch) draw, after the loader was restored, exactly the numbers they would have drawn without the interruption, so that the delivered samples are the same.", "quantifier": "all user functions, generators, histories, checkpoints, restores in any process", "why_tests_cant": "a test draws a few numbers in one pipeline; which number a function draws depends on all calls of all functions before it, over every checkpoint and restore", "anchors": ["src/megatron/energon/savable_loader.py:_store_checkpoint, _save_state, _restore_state", "src/megatron/energon/rng.py:SystemRng", "src/megatron/energon/wrappers/map_dataset.py:MapDataset", "src/megatron/energon/wrappers/batch_dataset.py:BatchDataset"]}
{"id": "C68", "title": "Which pipelines can be saved, and which samples can be brought back", "statement": "can_restore_sample() is True exactly if every user function in the pipeline is marked stateless, and assert_can_restore() raises exactly if it is False; save_state() works exactly if no dataset that keeps samples back (shuffle buffer, packing, non-empty group batch) is anywhere above a function that is not marked.", "quantifier": "all pipelines of any shape and depth, all markings, all histories", "why_tests_cant": "the answer is a function of the whole tree of datasets; tests check a few trees", "anchors": ["src/megatron/energon/wrappers/base.py:can_restore_sample, assert_can_restore", "src/megatron/energon/wrappers/buffer.py:SavableSampleBuffer.save_state", "src/megatron/energon/wrappers/*.py:can_restore_sample, assert_can_restore"]}
{"id": "C69", "title": "The loader's state can be requested at any moment", "statement": "save_state_rank may be called at any moment while the worker processes run ahead: the answer of every worker is the checkpoint that belongs to a state the worker was in between question and answer, restoring it continues right after the last sample that was received, neither of the two threads of a worker waits for ever, and every command gets its own answers, one from each worker.", "quantifier": "all interleavings of the iterating thread and the command thread, all datasets, histories, numbers of workers and sequences of commands", "why_tests_cant": "a race needs one particular interleaving of two threads; tests see a handful of schedules", "anchors": ["src/megatron/energon/savable_loader.py:_command_thread", "src/megatron/energon/savable_loader.py:SavableDatasetWrapper.__iter__, _store_checkpoint, get_checkpoint", "src/megatron/energon/savable_loader.py:SavableDataLoader._worker_command"]}
{"id": "C70", "title": "A wrapping task encoder behaves like the encoder it wraps", "statement": "An AugmentTaskEncoder around any task encoder delivers exactly what the wrapped encoder would deliver: same samples, same batches, same order, same abilities (cooking, grouping, packing, unbatched use, generator functions, restoring of samples by key).", "quantifier": "all wrapped encoders, data, settings, numbers of epochs and workers", "why_tests_cant": "a test wraps one encoder; the claim is about all encoders and all combinations of overridden methods", "anchors": ["src/megatron/energon/task_encoder/base.py:AugmentTaskEncoder", "src/megatron/energon/task_encoder/base.py:TaskEncoder.build_batch, build_cook_crude_sample, build_encode_sample", "src/megatron/energon/wrappers/map_dataset.py:MapDataset.__iter__"]}
{"id": "C71", "title": "Converting and pinning samples keeps the data", "statement": "With encoded_sample_type, raw_batch_type or batch_type set (a dataclass, a NamedTuple or dict), a DefaultTaskEncoder turns every sample or batch into that type with all its fields unchanged, and leaves those alone that have the type already; pin_memory() moves all tensors of a batch to pinned memory and changes nothing else.", "quantifier": "all types, samples, batches and nestings of them", "why_tests_cant": "the claim ranges over all classes users define (fields, defaults, init flags) and all nested values", "anchors": ["src/megatron/energon/task_encoder/base.py:DefaultTaskEncoder.encode_sample, batch, encode_batch", "src/megatron/energon/task_encoder/base.py:TaskEncoder._batch", "src/megatron/energon/flavors/base_dataset.py:PinMemoryMixin", "docs/source/task_encoders.md"]}
{"id": "C72", "title": "Paths are ordered values and prepare finds the tar files in one order", "statement": "Comparing two paths of one file system with < is a strict total order (dictionary order of the components) that agrees with ==; == is an equivalence compatible with hash() and with the printed url; comparing paths of different file systems raises. Consequently energon prepare lists every tar file below the directory exactly once, in dictionary order and without the excluded ones, however the file system orders its listing, and directory / name is the file again.", "quantifier": "all paths, all directory contents and all listing orders", "why_tests_cant": "orders of the listing and path strings are unbounded", "anchors": ["src/megatron/energon/epathlib/epath.py:__lt__", "src/megatron/energon/epathlib/epath.py:glob", "src/megatron/energon/tools/prepare.py:command"]}
{"id": "C73", "title": "energon info reports the right numbers", "statement": "The report gives the total of the sample counts, for each split part the number of samples and shards listed for it and its share of the total (train, val, test first), these add up when the parts partition the shards, they are the numbers of the dataset the loader builds, and the printed size equals the size in bytes.", "quantifier": "all shard counts, split definitions and sizes", "why_tests_cant": "unbounded numbers of shards, parts and bytes", "anchors": ["src/megatron/energon/tools/info.py:fmt_size", "src/megatron/energon/tools/info.py:command"]}
{"id": "C74", "title": "energon preview displays every sample", "statement": "Every field of a sample can be displayed; an image is drawn with one mark per pixel on a scale from the darkest to the brightest pixel; all samples of all parts are shown while the user continues, and the command ends when the user answers no.", "quantifier": "all nested sample values, images and answers", "why_tests_cant": "values nest arbitrarily; image contents are unbounded", "anchors": ["src/megatron/energon/tools/preview.py:to_str", "src/megatron/energon/tools/preview.py:command"]}
{"id": "C75", "title": "Samples made with random numbers are brought back the same", "statement": "If every function of a pipeline that claims it can bring back samples (can_restore_sample() is True) either uses no random numbers or is marked stateless(restore_seeds=True), then a restore key brings back the very same sample whatever random numbers the process has drawn since, without disturbing the process' random generators; the buffers of packing and grouping datasets are therefore the same after a restore. Cookers are included.", "quantifier": "all chains of user functions, all samples, all sample indices and all states of the global random generators at both moments", "why_tests_cant": "the statement is about every state of the generators between making and bringing back a sample", "anchors": ["src/megatron/energon/wrappers/map_dataset.py:MapDataset.restore_sample", "src/megatron/energon/wrappers/buffer.py:SavableSampleBuffer.restore_samples", "src/megatron/energon/task_encoder/base.py:stateless, TaskEncoder.cook_crude_sample, TaskEncoder.build_cook_crude_sample"]}
{"id": "C76", "title": "Every delivered sample has its own restore key and stays as it was", "statement": "The samples a map function (encode_sample, for example) yields for one input sample each carry their own restore key, which brings back exactly that sample, and no sample is changed after it has been delivered - whether the function makes new samples or returns the objects it has.", "quantifier": "all behaviours of a (generator) function: any sequence of yields of new objects, of its input or of objects yielded before; all input samples and keys", "why_tests_cant": "the keys are attributes of mutable objects; the statement ranges over all ways a function can reuse objects", "anchors": ["src/megatron/energon/flavors/base_dataset.py:add_sample_restore_key, Sample.derive_from", "src/megatron/energon/wrappers/map_dataset.py:MapDataset.__iter__"]}
{"id": "C77", "title": "Debug logs are complete and every process has its own file", "statement": "With a worker_debug_path that contains {worker_id}, every process of a job (the main process and the workers of every rank, also after a restore that shifts the workers) has its own log number, and whatever the interleaving of the processes its file contains exactly its entries in its order. The yield_batch entries of a worker are numbered 0, 1, 2, ... without gap through epochs, saves and restores, and a batch whose __key__ is a list of strings is logged with exactly these keys. Logging never changes or stops the data.", "quantifier": "all numbers of ranks and workers, all shifts of the workers, all interleavings of log calls, all entries, all file systems before; all datasets and histories of epochs, saves and restores; all batches", "why_tests_cant": "The files are written by many processes concurrently; a test sees one interleaving, one number of workers and one kind of batch", "anchors": ["src/megatron/energon/worker.py:WorkerConfig.worker_log", "src/megatron/energon/worker.py:WorkerConfig.rank_worker_id", "src/megatron/energon/wrappers/log_sample_dataset.py:default_get_keys", "src/megatron/energon/wrappers/log_sample_dataset.py:LogSampleDataset"]}
{"id": "C78", "title": "Error messages show the sample without growing with it", "statement": "The message of a sample failure (SampleException.from_sample, FieldAccessError) shows the sample by compact_str: the text has a bounded length however deep the value is, however many entries its lists and dictionaries have and however long its strings are; a value within the limits is shown completely; what is cut are the entries after the first max_items, the characters after the first max_str_len (marked with three dots) and everything deeper than depth (marked with three dots).", "quantifier": "for every nested value of dictionaries, lists, strings and other values, every depth and every limit", "why_tests_cant": "tests try a few values; the bound must hold for arbitrarily deep, wide and long values", "anchors": ["src/megatron/energon/errors.py:compact_str", "src/megatron/energon/errors.py:SampleException.from_sample"]}
{"id": "C79", "title": "rclone:// paths use the remote the rclone configuration describes", "statement": "An rclone:// path is opened with the access key, secret, region and endpoint that the section of its remote states in the rclone configuration, which is the first of rclone's own places that exists; endpoints without a protocol are contacted by https; a remote without a section is a ValueError, one that is not of type s3 is refused, and a given configuration replaces the machine's.", "quantifier": "for every environment, every configuration file and every remote name", "why_tests_cant": "tests use one configuration given by override; the rule must hold for every combination of present files, sections and values", "anchors": ["src/megatron/energon/epathlib/rclone_config.py:get_rclone_config_path", "src/megatron/energon/epathlib/rclone_config.py:read_rclone_config_at_path", "src/megatron/energon/epathlib/epath.py:EPath.create_s3fs_from_rclone_remote"]}
{"id": "C80", "title": "Path operations and index names", "statement": "Path objects can be taken apart and put together (parent / name), compared, sorted, listed and moved: p.parent / p.name is p; with_suffix replaces the last suffix of the name only; two absolute paths are equal exactly if their URLs are; paths of one file system have a strict total order by their components and paths of different ones cannot be compared; everything glob lists on a remote is a path on that remote; files are moved only within one file system; every .tar shard has an index file of its own next to it, written under a temporary name which can always be moved over it.", "quantifier": "All paths, names, suffixes, remotes, and all results of the file system's glob.", "why_tests_cant": "Path names, suffixes and remotes are unbounded; tests use a few literals, and the order and the absence of collisions are statements over all pairs and triples of paths.", "anchors": ["epathlib/epath.py: EPath.name, parent, glob, with_suffix, move, __lt__, __eq__", "flavors/webdataset/itar.py: ITAR_SUFFIX, TarIndexReader, TarIndexWriter", "tools/prepare.py: command"]}
