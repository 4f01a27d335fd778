# A Rocq (Coq 8.16.1) model of NVIDIA/Megatron-Energon

Sources: `rocq/theories/*.v` (logical name `Verif`).  Build: `cd rocq && coq_makefile -f _CoqProject -o Makefile && make -j4`.

* `properties.jsonl` the properties in English, `MANIFEST.json` which theorems prove (or refute) which.
* `X.v` (e.g. `Sharder.v`, `Packing.v`) models code; every definition cites file and lines.
* `XSpec.v` says what a property means, without referring to the model's helpers.
* `XProofs*.v` proofs; `P_X.v` the property theorems, with an `Example ..._nonvacuous` (a concrete case that meets the
  hypotheses) and `Print Assumptions` after each theorem.
* `seeded/LOG.jsonl` wrong programs tried against the theorems.

## Trusted base

* Coq's kernel (including `vm_compute`, used for the concrete counterexamples and examples).
* `Print Assumptions` prints "Closed under the global context" for every theorem in `MANIFEST.json` except those of C55, which are about real coordinates and
  use three axioms of the standard library: `ClassicalDedekindReals.sig_not_dec`, `ClassicalDedekindReals.sig_forall_dec`,
  `FunctionalExtensionality.functional_extensionality_dep`. Otherwise no axioms,
  no section variables left over, no functors or module types, no `Admitted`. (vcheck lists seven "library axioms" from `Coq.ssr.ssrunder`:
  they are module-type fields in a file of the standard library which is loaded, and nothing depends on them.)
* That the model says what the Python code says. This is by reading; every definition cites the lines it models so that it can be compared, and the
  comment there states simplifications.

### What is modelled, and how

* **Numbers.** Sharding and splitting use Python ints (Coq `Z`/`nat`) and IEEE binary64 floats. Float division, multiplication,
  rounding and `int()` are modelled exactly on `Z` (`PyFloat.v`: round to nearest even), not idealised; `PyFloatProofs`/`PyFloatMono` prove the error bound
  and monotonicity used. Weights (`Meta.v`, `Blend.v`) are rationals.
* **Datasets.** A `SavableDataset` is a record (`Dataset.v`): object state, the state of the generator returned by `__iter__`, one step of that
  generator (yield / silent step / end / exception), `save_state`, `merge_states`, `restore_state` (with a state or None), `restore_sample`.
  `reach` is every state obtainable by iterating, re-iterating after the end, restoring any merge of worker states that contains this worker's saved state, and resetting. `resumable`,
  `restorable`, `endless` are stated on this interface only.
* **Wrappers.** `Wrap.v` models wrappers/base.py; each wrapper is a `trans` and is combined with *any* inner dataset, so
  the wrapper theorems compose to arbitrary pipelines (`Pipeline.v`). Modelled: map (plain and generator functions), iter_map, filter, gc, log, repeat, epochize, limit, shuffle
  buffer, batch (plain and generator), group batch, packing (plain and generator final packer), blend, concat, the savable sample buffer.
  MixBatch is Batch over Blend. User functions are arbitrary mathematical functions of (worker, sample index, contents), with outcomes result / SkipSample /
  handled exception / system exception, i.e. "stateless" in the repository's words.
* **Random generators.** `torch.Generator` is a state type with draws (`Rng.v`); assumed of it, as explicit hypotheses
  (`rng_ok`: a drawn index is in range; `get_state`/`set_state` are the identity on states). WorkerRng's code is modelled on top of it.
* **Files.** Tar archives are lists of members with sizes (`Tar.v`); index files are byte sequences; retrying streams and sub-file readers operate on byte lists with a failure
  schedule; a crash can happen after every system call (`Files.v`).
* **Data loader.** The worker side (cache of checkpoints, command queue) and the main side, PyTorch's round-robin collection of worker results,
  prefetching and `torch.distributed` gather/scatter as documented (`Loader.v`, `LoaderSys.v`, `Distributed.v`).
* **Configuration.** Metadataset v1/v2 trees, joins, overrides; paths; field access expressions; split preparation; typed data and calls from files.
* **Image transforms.** The matrices and sizes computed by `transforms/` over exact reals; floating-point rounding and resampling are not modelled;
  torchvision is taken as documented, its least-squares solver is a parameter.

### Not modelled

Decoding of images, audio, video; the command line tools and debug analysis (`tools/`, `cli/`); logging and debug output; `config()` dictionaries; webdataset's own
decoders; rclone; OS-level process creation; memory sharing between processes;
Python's hash randomisation; performance. User functions with hidden state.

In `savable_loader.py`: the race between the command thread and `_restore_state`.

Where the unchanged code violates a property, the full statement is refuted by a machine-checked counterexample (`*_refuted`) and the strongest version found to hold
is proved (`*_partial`). Status `partial` in the manifest means that some part of the English property is refuted or is only proved under the extra hypotheses stated.

## Violations of the properties found in the code

All are proved by a concrete run of the model (`vm_compute`).

| where | what | theorem |
|---|---|---|
| sharder.py split for `max_samples_per_sequence` | float rounding can lose the last sample | C05_max_samples_split_refuted |
| worker.py / savable_loader.py restore | after a restore the wrong worker is next | C08_restore_order_refuted, C39_order_refuted |
| rng.py restore_state(None) | a used generator is not reset | C10_reset_refuted |
| joined_webdataset.py load_sample | prefixes the restore key, which restore_sample then rejects | C15_joined_restore_refuted |
| sample_loader.py joined reading | with a log-only error handler, mismatching columns are combined | C16_logging_handler_refuted |
| single_shard_reader.py | with excluded samples a restore key names another sample | C17_excluded_key_refuted |
| retry_stream.py | short reads, failures of open and seek are not handled | C20_*_refuted |
| prepare.py split ratios | the last shard can be in no part | C22_last_shard_lost_refuted |
| shuffle buffer, batch, group batch, packing, iter_map | a checkpoint while draining at the end of a finite epoch loses the epoch end | C24_shuffle_finite_refuted, C30_resume_at_last_batch_refuted, C32_resume_in_final_batches_refuted, C33_resume_in_last_packs_refuted, C35_collect_finite_resume_refuted |
| repeat_dataset.py | finite repetition: second iteration and resume are wrong | C25_repeat_again_refuted, C25_repeat_resume_refuted |
| blend_dataset.py | zero-weight dataset drawn; restore key indexes the unfiltered list | C28_*_refuted |
| concat_dataset.py | position among the datasets is not saved | C29_resume_refuted |
| batch_dataset.py | `__len__` wrong for uneven workers; keys stale after a skipped batch; generator batchers do not resume | C30_length_refuted, C31_after_skip_refuted, C30_generator_resume_refuted |
| group_batch_dataset.py restore_state | inverted condition: waiting samples are lost | C32_resume_refuted (C32_resumes_when_repaired) |
| packing_dataset.py | merging a missing worker state gives two empty packs; generator final packers do not resume | C33_worker_without_state_refuted, C33_generator_resume_refuted |
| map_dataset.py generator functions | resume uses the wrong sample index; stale generator state after an exception | C34_*_refuted |
| iter_map_dataset.py | second sample of an input, and samples after a failure, cannot be restored | C35_*_refuted |
| savable_loader.py | save before all workers delivered, right after a restore, finite datasets | C38_finite_refuted, C39_*_refuted |
| savable_loader.py distributed | world size not checked; src_rank path | C40_*_refuted |
| metadataset joins | multiplier dropped; subflavors differ from the documentation; -1 multiplies | C42_*_refuted |
| epath.py | `..` can replace the remote name; local paths not normalised | C43_*_refuted |
| field_access.py | a malformed alternative is replaced by the whole description | C44_malformed_alternative_refuted |
| task_encoder/base.py stateless(restore_seeds=True) | the worker seed of the first call is cached for ever: restoring samples of several workers in one process, or two loaders with different seed offsets, use wrong random numbers | C47_restore_history_refuted, C47_two_loaders_refuted |
| task_encoder/base.py 397-408 (build_batch) | GroupBatchDataset is built without batcher_stateless: can_restore_sample() is false for every grouping encoder; encode_batch is silently not called when grouping | C48_can_restore_group_refuted |
| task_encoder/base.py 427-435 | an encoder that overrides batch or encode_batch (DefaultTaskEncoder does) fails with AssertionError for batch_size=None | C48_unbatched_refuted |
| group_batch_dataset.py with limit_dataset.py | the batch index is not reset with the epoch of a limited dataset, so epochs differ | C48_group_limit_refuted |
| default_generic_webdataset.py 79-84 | the check that all required fields are mapped tests `default is not MISSING and default_factory is not MISSING`, which no field satisfies: a map without a required field is accepted, then every sample fails and training hangs without any sample | C50_missing_field_refuted, C50_missing_field_hangs_refuted |
| mix_batch_dataset.py 19-40 | generic_concat returns non-tensor values as a list of the batches' values: for batches whose `__key__` is a list the mixed batch has a list of lists, so its rows no longer line up with its keys | C51_mix_misaligned_refuted |
| task_encoder/base.py 58-98 | generic_batch uses the first sample's keys and dtype: with TaskEncoder.batch, samples with different `__subflavors__` raise KeyError or silently lose names; floats are truncated if the first tensor is integer | C51_subflavors_break_batching, C51_dtype_refuted |
| savable_loader.py 113-121 | SimpleSavableDatasetWrapper does not save its sample index: a loader with num_workers=0 restored from a state numbers the samples from 0 again, so restore keys and the index given to worker_activate differ from the uninterrupted run (with workers they do not) | C52_simple_keys_not_resumed |
| typed_converter.py 447-460 | Tuple[int, str] data is checked per item but returned as a list | C53_fixed_tuple_refuted |
| typed_converter.py 511-512 | an annotation that is any other class accepts every data unchanged | C53_other_class_refuted |
| typed_converter.py 298 | __dash_keys__ defaults to the string "False", which is true: a NamedTuple always rewrites dashes, and a-b is silently dropped when a_b is there, strict or not | C53_dashes_refuted |
| typed_converter.py raw_to_typed (dataclass fields) | defaults are converted like data: a dataclass or tuple default of the right type is rejected when the field is left out | C53_object_default_refuted |
| typed_converter.py 585-600 | arguments given as a list are taken with pop(), from the end: they arrive in reverse order | C54_list_arguments_refuted |
| typed_converter.py 43-58 | _check_instance_type accepts every class unless the expected one is a metaclass: a file may name any class | C54_wrong_class_refuted |
| merge.py | merged transforms show content that an intermediate crop has cut off, where torchvision shows the fill value | C55_cut_off_shown_refuted |
| mappers.py 427-428 | a CenterCrop that has to add 3, 7, 11, ... columns is off by one against torchvision | C55_center_crop_refuted |
| mappers.py 297-336 | the padding of RandomCrop is ignored | C55_padding_refuted |
| mappers.py RandomResizedCropMapper | the fallback box can be empty, and merging then divides by zero | C55_box_empty_refuted |
| merge.py 139-153 | with perspective, tensors are sampled at linspace(-1,1,n) with align_corners=False: not at the pixel centres | C55_tensor_perspective_refuted |
| typed_converter.py 755-756 | override: text "False" for Any gives True | C56_any_false_refuted |
| typed_converter.py 1076 | override of a dictionary with entries unpacks its values (missing enumerate): TypeError/ValueError, or lost keys | C56_dict_refuted |
| typed_converter.py 1017-1037 | override: appending to a list raises IndexError; no overrides for a list raise ValueError | C56_append_refuted, C56_empty_refuted |
| typed_converter.py 767-822 | override: Optional cannot be set to None; Literal with several values always fails | C56_optional_refuted, C56_literal_refuted |
| typed_converter.py 632-649 | override: the order of "a" and "a.b" decides between success and ValueError | C56_order_refuted |
| docs/source/repro_scaling.md | "the multiple is the number of gradient accumulation steps": gbs = k * mbs * world * workers needs k * workers accumulation steps per rank, not k (the table of the same page has it right) | grad_steps_mul |
| wrappers/limit_dataset.py:80-86 | zip takes one sample beyond the limit and throws it away: if that sample raises (or never comes) the epoch fails (or hangs), and a restored dataset behaves differently | C27_one_too_many_refuted |
| tools/analyze_debug.py:574 | --skip > 0 always ends in AssertionError (entries before the start are not skipped) | C58_skip_refuted |
| tools/analyze_debug.py:165, 170 | odd heatmap size raises ValueError on resize; size 1 forgets the picture; size 0 never returns | C58_odd_size_refuted, C58_one_row_refuted, C58_no_row_refuted |
| tools/analyze_debug.py:413 | the loading-order mode calls heatmap.add without src: TypeError at the first key | C58_loading_order_refuted |
| tools/analyze_debug.py:532, joined_webdataset.py:244 | the configuration of a joined dataset has no path: reading its log fails with AssertionError | C58_joined_refuted |
| task_encoder/base.py:460, worker.py:260 | with debug logging on, a cooker with a condition makes the loader constructor fail (function in json.dumps) | C58_condition_refuted |
| worker.py:258 | log files are opened with "w": two worker processes with the same worker_id (train and val loader) erase each other's log unless the path has {pid} | C58_shared_file_refuted |
| base_webdataset.py:113 | len() counts samples that are excluded in split.yaml | C59_len_refuted |
| metadata.py:54-59 vs prepare.py:236 | shard names are written as they are but read as brace patterns: a file name with braces cannot be loaded | C59_brace_name_refuted |
| joined_webdataset.py:122-125 | only excludes with a slash are compared: joined datasets with different excluded shards are paired wrongly | C59_join_misaligned_refuted |
| single_shard_reader.py:140 with joined_webdataset.py:192 | the exclude keys contain the column's shard name: excluding a sample of a joined dataset works only with an entry per column | C59_joined_exclude_refuted |
| error_handler.py:35 | the loading stage passes tuples, the handler looks for lists: the key is always None | C60_key_unknown_refuted |
| lint.py:70-86 | the handler runs in a worker process (default --parallel 1), so failing samples never set `failed`: lint passes | C60_lint_workers_refuted |
| lint.py:102 | BaseWebdatasetFactory has no attribute EmptyDatasetError: an empty or missing split part crashes lint | C60_lint_empty_part_refuted |
| lint.py:18-21,66 | check_index returns None for metadataset files, taken as a failure | C60_lint_metadataset_refuted |
| single_shard_reader.py:219-222 | with a handler that returns, a sample with an unreadable part is served without it | C60_incomplete_sample_refuted |
| task_encoder/loader.py:16-34 | subflavor, dataset_config and split_config given to get_train_dataset make loading any metadataset file fail | C61_metadataset_subflavor_refuted |
| metadataset_v2.py:130-140, join_dataset_loader.py:59-60 | a joined dataset's own split_config is silently replaced by the join's (default split.yaml) | C61_joined_split_config_refuted |
| join_dataset_loader.py:105-113 | max_samples_per_sequence / parallel_shard_iters set in the joined datasets' dataset.yaml are ignored; other arguments make a join fail | C61_join_file_settings_refuted, C61_join_extra_argument_refuted |
| worker.py:128-129 | WorkerConfig compares equal to every object that is not a WorkerConfig (returns an exception object), so get_loader accepts anything | C61_loader_config_refuted |
| default_generic_webdataset.py:51; advanced_dataformat.md:48 | part_filter is documented as optional but required | C62_filter_optional_refuted |
| default_decoder_webdataset.py:73-89 | ignore_decoder_errors: the handler is never passed to the decoder; no effect | C62_ignore_decoder_errors_refuted |
| joined_webdataset.py:143,191 | a join reads all parts: the joined datasets' part_filter (and the filter derived from field_map) are not applied | C62_join_filter_refuted |
| module_loader.py:61-62 | a URL without function name is split at its protocol's colon | C62_url_default_refuted |
| module_loader.py:55-56 | a relative path without relative_path fails although the docstring promises the current directory | C62_relative_refuted |
| module_loader.py:36 | absolute paths with .. are not normalised: one file is executed once per spelling | C62_two_spellings_refuted |
| prepare.py:94-100 | The count is set before the last index entry is written and before the index is closed and renamed: if one of these fails (disk full), the shard is listed with its count and has no index | C63_late_failure_refuted |
| prepare.py:217-220 | .info.yaml and split.yaml are written in place: interrupting a re-preparation can leave a valid file with truncated numbers | C63_torn_info_refuted |
| itar.py:41, epath.py with_suffix | Archives differing only in the suffix (a.tar, a.tgz) share the index a.tar.idx | C63_same_stem_refuted |
| prepare.py:208 | The docstring says at most 50 parts are returned; up to 99 are | C63_at_most_50_refuted |
| prepare.py:67, itar.py | .tgz archives are found by tools/prepare.py and indexed (mode r:*), but the reader refuses compressed archives (by reading; no theorem) | - |
| epochize_dataset.py:122-131 | restore_state on a used loader (num_workers=0) leaves _active_iter: the old iterator goes on, rewinding has no effect | C64_epochize_rewind_refuted |
| buffer.py:142, base.py:201, epochize_dataset.py:131 and others | restore_state stores the state's own lists in the datasets, which update them: without worker processes the state object cannot be restored a second time | C64_second_restore_shuffle_refuted, C64_second_restore_epochize_refuted, C64_second_restore_index_refuted |
| group_batch_dataset.py:305-326, worker.py:225-233, sample_loader.py:756-781, map_dataset.py:266-281, iter_map_dataset.py:212-230 | config() leaves out fixed_batch_size, seed_offset, part_filter, MapDataset's error_handler, stateless_iter_fn | C65_group_size_refuted, C65_seed_refuted, C65_part_filter_refuted, C65_map_handler_refuted, C65_iter_stateless_refuted |
| sample_loader.py:759-774, single_shard_reader.py:65-71 | config() contains the caches byte_offset and byte_size, so it changes when the dataset is read (without worker processes) or restored | C65_reading_changes_config |
| base_dataset.py:330-337 | partial objects and callable instances are recorded as "<module>.<unknown>", bound methods without their object | C65_unnamed_functions_refuted |
| limit_dataset.py:58, batch_dataset.py:111, filter_dataset.py:60, map_dataset.py:106, sample_loader.py:510, blend_dataset.py:67 | len() is not the number of samples of an epoch: limits and batches with uneven workers, filters, generator functions, shuffle_over_epochs>1, blends (endless), a second iteration of a finite repeat | C66_*_refuted |
| simple_savable_loader / savable_loader.py (num_workers=0) | without worker processes the global random generators are not part of the saved state: random user functions draw other numbers after a restore | C67_no_workers_refuted |
| map_dataset.py:111-137 | a random generator function is re-run on resume with the generators as they were after the delivered samples: the remaining samples differ | C67_generator_refuted |
| savable_loader.py (restore) | a worker that had not delivered anything has no saved generators and starts with the seed of whichever process it is restored in | C67_unstarted_worker_refuted |
| buffer.py:121-125, group_batch_dataset.py:216-234 | a buffering dataset above a function not marked stateless makes save_state() raise AssertionError; the grouping dataset only once it has seen a sample | C68_save_iff, C68_group_late_refuted |
| map_dataset.py:111-121 | a generator function above a random function: saving works, resuming raises AssertionError after every delivered sample | C68_generator_over_random_refuted |
| savable_loader.py:423-426 | the final checkpoint of a worker is stored outside the command lock: a command that is being answered meanwhile iterates over reversed(list) while the list shrinks and may answer "No checkpoint found" although a checkpoint exists before and after | C69_end_race_refuted |
| savable_loader.py:353-376 | the command thread is started before the state is restored: until the iterating thread took the lock a restored worker hands out the beginning of the dataset as its checkpoint | C69_boot_refuted |
| savable_loader.py:862-876 | a command that is interrupted while it waits for the workers leaves its answers in the queues; every later command gets the answers of the previous one | C69_interrupt_refuted |
| task_encoder/base.py:737-759 | AugmentTaskEncoder "by default, delegates everything" but inherits cookers, batch_group_criterion, select_samples_to_pack and pack_selected_samples from TaskEncoder: crude datasets and packing are refused, grouping is ignored; unbatched use is refused; its methods are not marked stateless | C70_cookers_refuted, C70_packing_refuted, C70_grouping_refuted, C70_unbatched_refuted, C70_restore_refuted |
| task_encoder/base.py:751-752, map_dataset.py:143-145 | if the wrapped encode_sample is a generator function every sample fails an assertion, is logged and dropped: the loader delivers nothing | C70_generator_refuted |
| docs/source/task_encoders.md:31-90, task_encoder/base.py:326-333 | the documented task encoder cannot batch anything: CaptioningRawBatch does not take __restore_key__, __subflavor__ and __subflavors__, so every batch raises TypeError, which is logged and the batch dropped | C71_documented_example_refuted |
| task_encoder/base.py:640-660, 688-696 | NamedTuple types cannot be used with samples (field names starting with an underscore are impossible in a NamedTuple) although the docstring offers them | C71_namedtuple_refuted |
| task_encoder/base.py:678-681, base_dataset.py:43-49 | dataclass fields with init=False make conversion and pin_memory raise TypeError; pin_memory turns dict subclasses into plain dicts | C71_not_a_param_refuted, C71_pin_refuted |
| epath.py:222-230 absolute, tools/prepare.py:155-156 | `energon prepare ../data` (any relative path with ..): glob returns resolved paths but the base keeps its '..', so relative_to raises ValueError as soon as one tar file exists | C72_dotdot_refuted |
| epath.py:197-201 parent | the parent of rclone://remote prints as rclone://, which is read back as a relative local path | C72_parent_refuted |
| tools/info.py:26-33 fmt_size | from 1024 TiB on the value is divided once more but still labelled TiB: 2 PiB is printed as 2.00 TiB | C73_size_refuted |
| tools/info.py:58-91 | counts excluded shards, fails with KeyError on split parts given as brace patterns (the loader expands them), ZeroDivisionError without samples | C73_excluded_refuted, C73_pattern_refuted, C73_no_samples_refuted |
| tools/preview.py:55-60 | an image of one colour gives 0/0 = nan and int(nan) raises: the preview ends with an error | C74_blank_image_refuted |
| tools/preview.py:68-74 | _fields of a namedtuple are strings without .name: AttributeError | C74_namedtuple_refuted |
| tools/preview.py:132-136 | after answering no ('Exiting Preview') the next split part is shown | C74_exit_refuted |
| task_encoder/base.py:239 | cook_crude_sample is marked @stateless whatever the cookers do: with a cooker that draws random numbers can_restore_sample() is True and saving a packing buffer is accepted, but the restored buffer has other samples and later draws differ | C75_random_cooker_refuted |
| epathlib/epath.py:256-277,305-316 | energon prepare never finds a tar file below a local directory given with .. (ValueError as soon as there is one) | C72_dotdot_finds_nothing |
| epathlib/epath.py:318-330,366 | after joining .. over the remote name, two equal paths (==) refer to different remotes | C72_equal_other_remote_refuted |
| flavors/base_dataset.py:386-403, wrappers/map_dataset.py:148-167 | add_sample_restore_key changes the object: a generator that yields one sample twice (to repeat it) delivers a key that cannot be restored and changes the first delivery; a shared placeholder object gets a longer key with every sample | C76_yield_twice_refuted, C76_shared_object_refuted |
| worker.py:158-163, 245-260; savable_loader.py:128, 582 | restore_sample in the main process while logging at level 2 or more: the override changes the process's log number, its entries go to (and, without {pid}, empty) the file of a worker, and the next entry empties the main log | C77_restore_sample_refuted |
| wrappers/log_sample_dataset.py:18-52 | default_get_keys: keys of unbatched samples are lost or taken letter by letter, of a list only the first sample counts, an empty list raises IndexError | C77_unbatched_refuted |
| errors.py:34-36 | compact_str prints the value of a key that starts with two underscores in full: an error message can be as long as the sample's metadata | C78_dunder_refuted |
| errors.py:52-53 | compact_str prints undecoded contents (bytes) in full, so the message of a failed loader call contains whole files | C78_bytes_refuted |
| errors.py:38,46 | compact_str does not mark omitted entries: a list of eleven is shown like its first ten | C78_cut_invisible_refuted |
| epath.py:131 | an endpoint whose host name starts with "http" (http-gateway.example.com) is taken for a URL and used without protocol | C79_http_host_refuted |
| rclone_config.py:64 | configparser interpolates: a percent sign in any section's value makes every remote unusable, %% in a secret silently becomes % (rclone takes values as they are) | C79_percent_refuted |
| epath.py:142 | TLS certificates of remotes are never verified, whatever the configuration | C79_unverified_refuted |
| typed_converter.py:1020-1033 | items of Tuple[a, b] are overridden by the type of their old value, not the annotation: an int in Tuple[float] cannot become 0.5 | C56_tuple_item_type_refuted |
| typed_converter.py:400-425 | Set[...] of lists raises TypeError instead of JsonValueError, so a Union does not try its next alternative | C53_set_refuted |
| flavors/webdataset/itar.py:13, tools/prepare.py:155 | x.tar and x.tgz in one directory share the index file x.tar.idx: the second to be indexed overwrites the first one's index | C80_index_collision_refuted |
| epathlib/epath.py:197-201 | the parent of rclone://remote is a path without remote that keeps the remote's connection; joining another remote's name accesses that name on the first remote | C80_parent_of_remote_refuted |

## Per property

Modelled in / how proved; status and scope notes are in `MANIFEST.json`.

| property | model | proof |
|---|---|---|
| C01-C05 | `PyFloat`, `Sharder` | prefix-sum invariants by induction on the shard list; rotation by arithmetic mod n; float error lemma |
| C06 | `Sharder` (generalized bit reversal) | strong induction on the length |
| C07-C09 | `WorkerConfig` | modular arithmetic, injectivity of decimal printing, induction on push/pop histories |
| C10-C11 | `Rng` | induction on draw histories; shuffle = composition of removals |
| C12-C14 | `SampleLoader` (step machine over sub-shards, abstract RNG) | invariants over histories; permutation of (sub-shard, offset) multisets; resume by forward simulation both ways |
| C15 | `SampleLoaderRestore`, `Joined`, `Pipeline` | structural induction over pipelines |
| C16-C18 | `Tar`, `Joined` | induction on member lists; index file bytes decoded back; for joined columns: the recorded positions of all columns, reopening them is reading on |
| C19-C21 | `Files` | refinement of an ordinary byte file; invariant over all crash points |
| C22 | `Prepare` with `PyFloat` | monotone rounding of prefix sums |
| C23-C27, C34, C36 | `ShuffleBuffer`, `Wrappers`, `MapModel` | `WrapTrace` (trace relation), `WrapProofs` (local simulation lifts to resumability) |
| C28, C29 | `Multi`, `Blend`, `Concat` | invariants relating the family of inner states; simulation |
| C30-C32 | `Batch`, `GroupBatch`, `GenBatchTrace`, `ContentSpec`, `RelabelProofs`, `GenContentProofs` | trace relation; key-wise grouping by induction; generator batchers: trace relation, and resume up to restore keys (contents) by erasing keys |
| C33 | `Packing` | trace relation with the buffer cut into chunks; drought counter; local simulation; generator packers by a step simulation against a packer returning all outputs at once (`PackGenTrace`) |
| C35 | `IterMap` | `iter_map_fn` as an arbitrary state machine; replay lemma |
| C37-C40 | `Loader`, `LoaderSys`, `Distributed` | invariants over all schedules of commands and worker steps |
| C41, C42 | `Meta` over Q | structural induction on the metadataset tree |
| C43, C44 | `Epath`, `FieldAccess` | confluence of `..` cancellation; induction on component lists |
| C45, C46 | `Pipeline`, `EndToEndProofs`, `WebProofs` | composition of the above from the sharder to the end of the pipeline |
| C47 | `Stateless`, `Sha1`, `WorkerConfig` | invariant on the cached seed, induction on call histories and on the callers' interference |
| C48, C49 | `TaskEncoder`, `TaskEncoderSpec`, `ValSpec` (packing, grouping, generators) | the stages composed: forward lemmas per wrapper, `training`/`restoring` inductives, reset lemmas |
| C50 | `Load` on `FieldAccess`, `Tar` | case analysis on dict lookups; filtering commutes with collecting parts |
| C51 | `Tensor`: tensors as shape and element function, torch slice assignment trusted when shapes agree; nested values | loop invariants of stack/concat over the written region; induction on the nested value |
| C52 | `EpochLoader`: PyTorch multi-process iterator as a transition system over task list, index queues, result queue; `SimpleLoader`: the numbering wrapper | invariant per worker (returned ++ buffered ++ queued ++ left = its samples), liveness invariant, decreasing measure; order by an abstract sequence of visits; composition with C46 |
| C53 | `Typed`: Python values, type annotations, raw_to_typed, to_json_object; `TypedSpec`: inhabitation, JSON, written form, coverage | structural induction over types; round trip with unions whose alternatives have disjoint written shapes; refutations by examples |
| C54 | `Typed`: signatures, safe_call_function, raw_to_instance (fuel = nesting depth), load_config; `TypedCallSpec`: which parameter receives what | induction over the parameter list with the unused arguments; dict update lemmas; refutations by examples |
| C55 | `Transforms`: merge.py and mappers.py over exact reals (3x3 matrices); `TransformsSpec`: images as functions of real coordinates, each torchvision transform as documented, one after the other | one lemma per transform; a product of matrices is the composition of pullbacks; refutations by explicit pictures |
| C56 | `Override` on `Typed`; Python's text functions (int, float, json.loads, isnumeric) as parameters; `OverrideSpec`: parts by path, comparable paths, what a text stands for | grouping of dotted names by first component (invariant of _split_dict_keys), induction on the recursion |
| C57 | Scaling.v (pipelines independent of the layout; build for a layout), LoaderSys.v (loader of each rank) | lockstep simulation between equal global workers (Lockstep.v, ScalingProofs.v), reshaping of the sharder, taking turns (ScalingMain.v): P_Scaling.v |
| C58 | AnalyzeDebug.v: AutosizingHeatmapWriter (cells as a function, numpy slice arithmetic incl. odd sizes), loader log lines, log_entries, the merging loop, key numbering, config lookup, worker_log | AnalyzeSpec.v states the picture (pixel = sum of colours in a square) and `shown`; AnalyzeProofs.v: invariant of resizing (cells, bounds, zoom), step-by-step merge of ascending logs; P_AnalyzeDebug.v |
| C59 | Split.v: metadata.py from_config, __len__, the checks of joined_webdataset.py; brace expansion is an arbitrary function; SplitSpec.v: what the lists of split.yaml stand for | case analysis of from_config; composition with the tar reader (C17) and with preparation (C22) |
| C60 | Errors.v: error_handler.py, the loading stage of MapDataset with a handler, unreadable parts in the shard reader, tools/lint.py with and without worker processes | induction over the samples; equivalence for lint --parallel 0 |
| C61 | LoadArgs.v: task_encoder/loader.py, metadataset/loader.py, dataset_loader.py, join_dataset_loader.py, prepare and get_datasets of both metadataset versions, dataset_config.py, loader.py (worker_config check). Left out: paths (trees instead), weights/multipliers/subflavors (C41, C42), required parameters and types (C54) | P_LoadArgs.v, induction over the metadataset tree; spec LoadArgsSpec.v (places, made, built, loadable, complete) |
| C62 | UserFunctions.v: module cache, function strings, sample_loader / part_filter, user_load | P_UserFunctions.v: invariant of the cache and execution log over all call sequences; path cancellation (C43); dict lookups |
| C63 | PrepareRun.v: one archive's indexing (PrepareRun.shard_run: Files.v's effects plus the reported count, with every way to fail), the pool (any interleaving), .info.yaml / split.yaml / dataset.yaml as opened-truncated-written files, opening a split part from the three files, the found extensions, with_suffix | P_PrepareRun.v: projection of an interleaving to one index file; crash = prefix of the effects; reading through C17, splitting through C22/C59 |
| C64 | Rewind.v: restoring into a used object is the framework's ds_restore (objects keep what the code keeps); [al]: what the state object reads after the datasets updated its lists in place | a congruence on objects that restore_state establishes (RewindProofs.v), C45; refutations by computed runs and an invariant |
| C65 | Config.v: config dicts as trees, pipelines as constructor calls (pipe), config() of every wrapper and of the loaders, denote = the dataset of the other models | injectivity by induction over pairs of pipelines (against the inductive same_settings of ConfigSpec.v); equality of datasets by induction on same_settings; refutations by running both datasets. Not modelled: config() of the dataset factories, subclasses of the user, Python's 1 == True == 1.0 |
| C66 | Length.v: `pipe_len` (every __len__) over the pipelines of Config.v, whose meaning is `denote`; LengthSpec.v: `epoch_sizes`, `exact`, `bounded` | induction over pipelines; one lemma per wrapper on the sizes of its epochs (LengthProofs.v), sums over workers (LengthProofs2.v) |
| C67 | RandomFns.v: random_ds (map, filter, batch stages with generators G saved per worker by the loader), random_simple_ds, randomgen_ds | local_ok/local_resumable for the fused chain (RandomProofs.v); the numbers drawn by folding over the input (draw_all, draw_batches) |
| C68 | SaveCheck.v: can_restore, assert_can_restore, save_check over the pipelines of Config.v | induction over pipelines against the relations directly/below/unmarked/buffering |
| C69 | CommandThread.v: the iterating thread and the command thread of a worker, one step per access to the shared list and to the lock; the queues of the main process | invariants over all interleavings (who has the lock, what the list holds at each program point), an answer traced back to the list it was read from; C37 for resuming; three refutations by explicit schedules |
| C70 | Augment.v: AugmentTaskEncoder as a function on encoders (TaskEncoder.v) | via C48's exact characterisation of validation epochs, which is the same for both; training: the built datasets are equal terms; the refutations hold for every wrapped encoder |
| C71 | Convert.v: Python classes (dict, dataclass, namedtuple) with fields, init flags and defaults; encode_sample, encode_batch, the construction in _batch, pin_memory over nested values | induction over the class's fields and over the size of nested values |
| C72 | Discover.v: epath.py __lt__, __eq__, __hash__, parent, glob, absolute; tools/prepare.py:155-159 (sorted() as insertion sort calling __lt__, the file system's glob an arbitrary function) | order laws by induction on components; the sorted list is the unique ordered permutation |
| C73 | Info.v: tools/info.py fmt_size and the numbers of the report; Split.v for the loader | induction over units and shards; comparison with from_config |
| C74 | Preview.v: tools/preview.py to_str, pprint, loop over parts | nested induction over values; order lemmas for min/max and floor |
| C75 | RandomRestore.v: call of a marked function with explicit generator state, restore_sample through a chain of maps, refilling a buffer | induction over the chain and over the buffer; refutation by computation |
| C76 | ObjectKeys.v: objects with identity, the yields of a map function as a list of actions over them, add_sample_restore_key changing the object | induction over the yields, lengths of keys for the converse |
| C77 | DebugLog.v: log numbers, files with write positions, worker_log, any number of processes; default_get_keys; step counter of log_ds | invariant over all interleavings (file content = entries so far); arithmetic of the shifted worker ids; induction over histories |
| C78 | Compact.v: compact_str over nested values, with repr of strings and of other values as parameters | induction over the value (nested induction principle), the bound by induction over the depth |
| C79 | Remote.v: the search for rclone.conf, configparser's value interpolation, the entries, the arguments of S3FileSystem | case analysis for the search (equal to the first existing candidate), induction over the sections; interpolation is the identity without percent signs |
| C80 | PathOps.v on Epath.v: name, parent, suffixes, index names, order, equality, glob, move | P_PathOps.v: induction on strings (last dot) and on component lists; lexicographic orders of strict total orders are strict total; round trip of URLs (C43) |
