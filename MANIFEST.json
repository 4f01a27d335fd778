{"claims": [
{"property": "C01", "status": "proved", "theorems": ["C01_sharding_partition", "C01_subshards_wellformed"], "note": "All shard lists (any number, sizes, joined columns), world sizes, worker counts and rotation offsets, with the code's float arithmetic modelled exactly (totals below 2^53). Also proved of the result for any max_samples_per_sequence: no empty sub-shard, columns aligned, bounded length."},
{"property": "C02", "status": "proved", "theorems": ["C02_sharding_balance", "C02_remainder_order"], "note": "Same scope as C01; additionally which workers get the remainder (bit-reversal order from the rotation offset)."},
{"property": "C03", "status": "proved", "theorems": ["C03_sharding_reshape"], "note": "For every max_samples_per_sequence and rotation offset, errors included (equality of results)."},
{"property": "C04", "status": "proved", "theorems": ["C04_rotation_balance"], "note": "For every list of datasets, with the offsets computed as build_train_datasets does."},
{"property": "C05", "status": "partial", "theorems": ["C05_max_samples_split_refuted", "C05_split_loses_at_most_last_partial", "C05_split_sublist_partial", "C05_split_exact_partial", "C01_subshards_wellformed"], "note": "False as stated: float rounding can lose the last sample of a range (C05_max_samples_split_refuted: 1867 samples, maximum 100). Proved: at most that one sample per split range is lost, nothing duplicated or invented, order kept; exact whenever the float product does not round down; every slice shorter than 1.5*max + 2 (C01_subshards_wellformed, max_len_ok)."},
{"property": "C06", "status": "proved", "theorems": ["C06_bit_reversal_permutation", "C06_bit_reversal_pow2"], "note": "Every length; termination of the recursion included (the fuel is shown sufficient)."},
{"property": "C07", "status": "proved", "theorems": ["C07_worker_ids_unique", "C07_worker_seed_depends_only_on_id", "C07_seed_text_injective", "C07_seed_main_matches_worker", "C07_restoring_worker"], "note": "Identity and range of global ids for every world; the text that is hashed is injective in (id, offset); worker seed function shared by main process and workers. The hash itself is a parameter (collisions not excluded)."},
{"property": "C08", "status": "partial", "theorems": ["C08_restore_order_refuted", "C08_restore_order_partial"], "note": "The code violates it: after restoring, process p is logical worker (p - k) mod n instead of (p + k) mod n. Proved: exact characterisation (iff), the order is right exactly when 2k is a multiple of n."},
{"property": "C09", "status": "proved", "theorems": ["C09_contexts_nest", "C09_indexes_never_collide", "C09_activation"], "note": "Any nesting of contexts and reads, including bodies that raise (stack restored), any worker; distinctness of global sample indexes across workers and local indexes."},
{"property": "C10", "status": "partial", "theorems": ["C10_rng_resumes", "C10_single_choice_consumes_nothing", "C10_reset_unused_partial", "C10_reset_refuted"], "note": "Resume proved for any number of workers and any draws. restore_state(None) does not reset a generator that was already used (C10_reset_refuted); it is the identity on an unused one (partial)."},
{"property": "C11", "status": "proved", "theorems": ["C11_shuffle_permutation", "C11_rand_pop_removes_one", "C11_choice_legal"], "note": "Over any generator satisfying the laws of rng_ok (in-range draws, permutations); weights as rationals."},
{"property": "C12", "status": "proved", "theorems": ["C12_shuffled_epochs", "C12_epoch_is_permutation", "C12_in_order", "C12_with_replacement", "C12_epochs_complete", "C12_endless", "C12_no_shards", "C12_empty_subshard_refuted"], "note": "epochs of the webdataset sample loader, over any history with restarts; sub-shards without samples are excluded (the sharder drops them) and the exclusion is shown necessary"},
{"property": "C13", "status": "proved", "theorems": ["C13_loader_resumes"], "note": "any reachable state, any worker, with the RNG abstracted by its save/restore law"},
{"property": "C14", "status": "proved", "theorems": ["C14_at_most_par_open", "C14_counters", "C14_opened_once_per_pass"], "note": "bound, counters and one opening per pass"},
{"property": "C15", "status": "partial", "theorems": ["C15_web_restores", "C15_pipeline_restores", "C15_joined_restore_refuted", "C15_sharder_web_ok"], "note": "proved by induction over every pipeline of the modelled wrappers (including Blend, Concat, Packing and IterMap) on webdataset loaders, under the conditions of 'restoring'; key-prefixing load_sample of joined datasets refuted"},
{"property": "C16", "status": "partial", "theorems": ["C16_joined_rows", "C16_logging_handler_refuted", "C16_end_is_end"], "note": "proved for the default error handler (raise), all contents and numbers of columns; with a handler that only logs, a mismatch silently misaligns columns (refuted)"},
{"property": "C17", "status": "proved", "theorems": ["C17_index_counts_samples", "C17_subshard_read", "C17_samples_partition", "C17_excluded_key_refuted", "C17_member_name", "C17_member_skipped", "C17_parts", "C17_name_unique"], "note": "all member sequences, any sub-shard, through the real index file bytes; sample-level excludes make the restore key point to another sample (refuted)"},
{"property": "C18", "status": "proved", "theorems": ["C18_reader_resumes", "C18_joined_resumes"], "note": "for every exclude set and part filter"},
{"property": "C19", "status": "proved", "theorems": ["C19_subfile_is_window", "C19_subfile_no_error", "C19_subfile_over_retry"], "note": "plain and retrying streams"},
{"property": "C20", "status": "partial", "theorems": ["C20_retry_reads_right_partial", "C20_retry_absorbs_partial", "C20_short_read_refuted", "C20_open_failure_refuted", "C20_seek_failure_refuted"], "note": "proved when raw reads are complete or fail; short reads, open failures and seek failures refuted"},
{"property": "C21", "status": "proved", "theorems": ["C21_index_atomic", "C21_index_complete", "C21_failed_writer_cleans_up", "C21_index_reads_back"], "note": "every crash point and every buffering"},
{"property": "C22", "status": "partial", "theorems": ["C22_parts_disjoint_contiguous_partial", "C22_at_most_last_shard_lost_partial", "C22_last_shard_lost_refuted", "C22_pattern_parts"], "note": "Parts are disjoint, contiguous, in order; at most the last shard (after shuffling) is in no part. Coverage itself is false: ratios 7,2,1 with ten shards lose the last shard (C22_last_shard_lost_refuted)."},
{"property": "C23", "status": "proved", "theorems": ["C23_shuffle_epoch_is_permutation", "C23_shuffle_holds_back_at_most_size", "C23_shuffle_not_too_early"], "note": "every clean epoch is a permutation; at most size held back; never early"},
{"property": "C24", "status": "partial", "theorems": ["C24_shuffle_resumes", "C24_shuffle_finite_refuted"], "note": "proved for endless inner datasets (the pipeline's use); refuted for finite inner datasets while the buffer drains"},
{"property": "C25", "status": "partial", "theorems": ["C25_repeat_forever", "C25_repeat_forever_nothing_else", "C25_repeat_forever_resumes", "C25_repeat_n_times", "C25_repeat_again_refuted", "C25_repeat_resume_refuted"], "note": "forever: proved incl. resume; n times: first iteration proved; re-iteration and resume of finite repeat refuted"},
{"property": "C26", "status": "partial", "theorems": ["C26_shares_add_up", "C26_epochize_slices", "C26_epochize_complete", "C26_epochize_resumes", "C26_epochize_end_refuted"], "note": "slices, totals and resume modulo a leading end-of-epoch event proved; exact resume at the end of an epoch refuted"},
{"property": "C27", "status": "partial", "theorems": ["C27_limit_takes_first", "C27_limit_resumes_partial", "C27_one_too_many_refuted", "C26_shares_add_up"], "note": "Epochs (first share of samples, starting over) proved for every inner dataset that restore_state(None) resets; shares add up to the limit (C26_shares_add_up). Resuming is exact whenever the uninterrupted iterator's next step is not an exception; with an exception it is refuted: one sample too many is read after the limit (C27_one_too_many_refuted)."},
{"property": "C28", "status": "partial", "theorems": ["C28_blend_draws", "C28_blend_endless", "C28_blend_errors", "C28_blend_delivers", "C28_blend_resumes", "C28_restores_partial", "C28_restore_key_refuted", "C28_zero_weight_refuted"], "note": "draws, order per dataset, positive weights, errors, delivery, exact resume proved for every generator and all inner datasets; refuted corners: a zero-weight dataset is drawn when it is the only one with samples; restore keys name the wrong dataset when another dataset has none for the worker"},
{"property": "C29", "status": "partial", "theorems": ["C29_concat_epochs", "C29_concat_nothing_else", "C29_restores", "C29_resumes_in_first_partial", "C29_resume_refuted"], "note": "epochs, nothing else and restore keys proved; resume proved while in the first dataset, refuted in later datasets (position among datasets is not saved)"},
{"property": "C30", "status": "partial", "theorems": ["C30_batches", "C30_batches_skipping", "C30_nothing_else", "C30_group_count", "C30_length_partial", "C30_length_refuted", "C30_resumes_partial", "C30_resume_at_last_batch_refuted", "C30_generator_resume_refuted", "C30_generator_contents_resume_partial", "C30_generator_batches", "C30_generator_nothing_else"], "note": "Groups, order, drop_last, sample indexes over any number of epochs and nothing else: proved for every inner dataset and batcher. Length proved when samples divide evenly over workers or drop_last, refuted otherwise (code bug in __len__). Resume proved over endless datasets or with drop_last; refuted at an incomplete last batch and for generator batchers (code bugs), whose output contents (not keys) do resume."},
{"property": "C31", "status": "partial", "theorems": ["C31_restores_partial", "C31_after_skip_refuted", "C31_generator_restores_partial"], "note": "Proved for batchers that never skip; refuted after a skipped batch (stale keys, code bug)."},
{"property": "C32", "status": "partial", "theorems": ["C32_batches", "C32_nothing_else", "C32_restores", "C32_resumes_if_nothing_waits_partial", "C32_resume_refuted", "C32_resumes_when_repaired", "C32_resume_in_final_batches_refuted"], "note": "Batches, their order, losslessness, restore keys proved. Resuming is refuted for the code (inverted conditional in restore_state loses waiting samples), proved when nothing waits, and proved for the repaired conditional (endless inner or drop_last)."},
{"property": "C33", "status": "partial", "theorems": ["C33_packs", "C33_determined", "C33_nothing_else", "C33_each_sample_at_most_once", "C33_each_sample_once", "C33_drought_raises", "C33_restores", "C33_resumes_partial", "C33_endless", "C33_restores_changed_samples_refuted", "C33_resume_in_last_packs_refuted", "C33_generator_resume_refuted", "C33_worker_without_state_refuted", "C33_generator_restores", "C33_generator_packs", "C33_generator_nothing_else", "C33_generator_determined"], "note": "Packing with a final packer that returns one sample or is a generator (which packs come out, nothing else, restore keys). Proved for all pre packers, final packers, inner datasets, buffer sizes and epochs: exactly which packs come out, that nothing else does, each sample in at most / exactly one pack, when the 'too many empty rounds' error is raised, restore keys, exact resume over an endless dataset. Exact resume is refuted (with witnesses) for a checkpoint among the last packs of a finite epoch, within a generator final packer's pack, and for workers without a saved state, which start with two empty packs."},
{"property": "C34", "status": "partial", "theorems": ["C34_map_in_order", "C34_map_nothing_else", "C34_map_resumes", "C34_mapgen_in_order", "C34_mapgen_resumes_partial", "C34_mapgen_resume_refuted", "C34_mapgen_stale_generator_refuted", "C34_mapgen_contents_resume_partial", "C34_mapgen_nothing_else"], "note": "plain functions proved; generator functions: order proved, resume partial, general resume refuted"},
{"property": "C35", "status": "partial", "theorems": ["C35_in_order", "C35_nothing_else", "C35_restores_partial", "C35_resumes_partial", "C35_endless", "C35_at_most_one", "C35_collecting", "C35_second_sample_refuted", "C35_second_sample_resume_refuted", "C35_after_failure_refuted", "C35_collect_finite_resume_refuted"], "note": "IterMapDataset with iter_map_fn as an arbitrary state machine. Proved: what comes out for per-sample functions (any number of samples per input, failures), restore keys and exact resume for every function that starts anew after each yielded sample (any number of inputs per sample). Refuted with witnesses: several samples per input (documented as fine), a sample after a failed one, collecting over a finite dataset."},
{"property": "C36", "status": "proved", "theorems": ["C36_filter_exact", "C36_filter_nothing_else", "C36_gc_transparent", "C36_log_transparent", "C36_all_resume"], "note": "Both directions for the filter (exactly, nothing else); gc and log wrappers emit the same event lists; resuming for all of them, any inner dataset."},
{"property": "C37", "status": "proved", "theorems": ["C37_worker_resumes", "C37_worker_numbers", "C37_epoch_end_refuted", "C37_empty_worker_ends"], "note": "every checkpoint timing; epoch-end events across a restore: see C37_epoch_end_refuted"},
{"property": "C38", "status": "partial", "theorems": ["C38_checkpoint_available", "C38_save_succeeds", "C38_finite_refuted"], "note": "proved for endless (training) datasets and every schedule; refuted for finite datasets"},
{"property": "C39", "status": "partial", "theorems": ["C39_restored_continues_rotated", "C39_resumes_partial", "C39_order_refuted", "C39_first_samples_refuted", "C39_save_after_restore_refuted"], "note": "each worker continues exactly, but the turn order is rotated (C08): exact iff 2k is a multiple of the number of workers; refuted otherwise, before all workers contributed, and right after a restore"},
{"property": "C40", "status": "partial", "theorems": ["C40_own_state", "C40_single", "C40_missing_state_error", "C40_world_size_unchecked_refuted", "C40_src_rank_refuted"], "note": "all-gather path proved for all world sizes; src_rank path and world size check refuted"},
{"property": "C41", "status": "proved", "theorems": ["C41_weights_sum_to_one", "C41_weight_is_path_product", "C41_no_leaf_lost", "C41_zero_weights_rejected"], "note": "Weights of nested blends: nonnegative, sum to one, product along the path, every leaf present; zero total rejected."},
{"property": "C42", "status": "partial", "theorems": ["C42_settings", "C42_leaf_file", "C42_join_multiplier_refuted", "C42_join_subflavor_doc_refuted", "C42_infinite_multiplier_refuted"], "note": "Precedence proved for split part, subflavor(s) and multiplier products along nested references. Refuted parts (proved counterexamples): a join's multiplier is dropped, join subflavors differ from the documentation, -1 multipliers multiply arithmetically."},
{"property": "C43", "status": "partial", "theorems": ["C43_resolve_normalises", "C43_resolve_idempotent", "C43_resolve_relative_rejected", "C43_join_associative", "C43_join_absolute", "C43_relative_to_join", "C43_join_relative_to", "C43_url_roundtrip_local", "C43_url_roundtrip_rclone", "C43_remote_escape_refuted", "C43_local_not_normalised_refuted", "C43_str", "C43_protocol"], "note": "Normalisation, idempotence, join associativity, relative_to/join inverse, url round trip proved. 'Stays below the root' fails for remotes (joining .. can replace the remote name) and local string paths are not normalised: both refuted by counterexample."},
{"property": "C44", "status": "proved", "theorems": ["C44_nested_access", "C44_first_alternative", "C44_missing_is_error", "C44_parse_description", "C44_parse_nonempty", "C44_malformed_alternative_refuted", "C44_parse_any", "C44_numbers"], "note": "Nested access, first existing alternative, missing field error, and parsing of well-formed descriptions. A malformed alternative is replaced by the whole description (finding, proved separately)."},
{"property": "C45", "status": "proved", "theorems": ["C45_train_pipeline", "C45_train_blend", "C45_blend_empty_refuted", "C45_pipeline_resumes"], "note": "the standard training pipeline on one dataset and on blended datasets; an epoch end that was due when saving is not reported again (C26); the proviso that every blended dataset has samples for every worker is shown necessary"},
{"property": "C46", "status": "proved", "theorems": ["C46_epoch_delivers_files", "C46_epoch_covers_dataset", "C12_sharder_delivers"], "note": "sharder, loaders of all ranks and tar reading composed"},
{"property": "C47", "status": "partial", "theorems": ["C47_calls_depend_on_index_only", "C47_generators_untouched", "C47_generator_undisturbed", "C47_seed_text_injective", "C47_restore_sees_the_worker", "C47_restores_partial", "C47_restore_history_refuted", "C47_two_loaders_refuted"], "note": "Proved for a process that works for one worker (calls and generators, arbitrary interference). The part about restoring holds only if the function was not called before for another worker: the decorator caches the worker seed of its first call (C47_restore_history_refuted, C47_two_loaders_refuted, with real SHA-1)."},
{"property": "C48", "status": "partial", "theorems": ["C48_val_epochs", "C48_val_grouped", "C48_val_limit", "C48_val_web_source", "C48_train_resumes_partial", "C48_val_restores_partial", "C48_train_restores_partial", "C48_can_restore_partial", "C48_can_restore_group_refuted", "C48_unbatched_refuted", "C48_group_limit_refuted", "C48_can_restore_honest", "C48_group_encode_batch_refuted"], "note": "Validation epochs: exactly (iff) cook, encode, pack, batch, encode_batch for every encoder without grouping, any function possibly a generator; with grouping likewise (iff), including the order of the batches of different groups. Limits for all encoders without grouping (with grouping refuted). Missing: resumption of the training dataset is only for steady encoders without grouping (other cases are refuted under C30-C34); restoring of samples for steady encoders. Refuted: can_restore_sample() with grouping is always false; encode_batch is never called with grouping; overriding batch/encode_batch forbids batch_size=None; limited epochs with grouping differ."},
{"property": "C49", "status": "proved", "theorems": ["C49_first_match", "C49_unmatched"], "note": "first matching cooker, and the stream of cooked samples"},
{"property": "C50", "status": "partial", "theorems": ["C50_loaded_fields", "C50_load_succeeds", "C50_part_filter_unnoticed", "C50_unknown_field_rejected", "C50_missing_field_refuted", "C50_missing_field_hangs_refuted", "C50_joined_fields", "C50_derive_keeps_metadata", "C50_extend_keeps_fields", "C50_join_needs_primary"], "note": "All proved except the check at construction, which is refuted: the condition for required fields can never hold, so a map that lacks a required field is accepted and the training dataset then skips every sample for ever."},
{"property": "C51", "status": "partial", "theorems": ["C51_pad_stack", "C51_concat_pad", "C51_generic_batch", "C51_concat_mix", "C51_batch_fields", "C51_default_batch_keeps_subflavors", "C51_subflavors_break_batching", "C51_dtype_refuted", "C51_mix_misaligned_refuted", "C51_mix_same_class"], "note": "Proved except the alignment of mixed batches (refuted: list fields are nested one level deeper while tensors are concatenated); also shown: the batch takes the first sample's dtype, and TaskEncoder.batch fails or drops names when subflavors differ."},
{"property": "C52", "status": "partial", "theorems": ["C52_epoch_in_turn", "C52_epoch_each_once", "C52_epoch_prefix", "C52_epoch_never_blocks", "C52_epoch_terminates", "C52_simple_shows", "C52_simple_resumes_partial", "C52_simple_keys_not_resumed", "C52_simple_restorable", "C52_validation_epoch_covers_dataset"], "note": "proved: order, completeness, termination and freedom from blocking of an epoch for all schedules; end-to-end validation epoch over all ranks; the loader without workers resumes with the same contents and inner keys, restores samples by key. Refuted: the loader's own sample index is not saved, so after restoring the keys (and the batch index user functions see) restart at 0. PyTorch's multi-process iterator is modelled from its documentation/source (trusted); no worker failures"},
{"property": "C53", "status": "partial", "theorems": ["C53_read_back", "C53_info_read_back", "C53_splits_read_back", "C53_read_has_type_partial", "C53_fixed_tuple_refuted", "C53_other_class_refuted", "C53_strict_ignores_nothing_partial", "C53_dashes_refuted", "C53_only_json_errors", "C53_given_or_default", "C53_plain_default_partial", "C53_object_default_refuted", "C53_union_first", "C53_literal", "C53_set_refuted"], "note": "Read back, only JsonValueError, given-or-default proved; 'has the type' for all but Tuple[a, b] and annotations that are other classes (refuted there); strictness for data without dashed keys (refuted with); a default of its own type is refused if it is a dataclass or tuple (refuted)"},
{"property": "C54", "status": "partial", "theorems": ["C54_arguments", "C54_called", "C54_list_arguments_refuted", "C54_class_expected", "C54_config", "C54_wrong_class_refuted", "C54_list_arguments", "C54_class_checked"], "note": "Arguments given as a dictionary: proved, both directions. As a list they arrive reversed (refuted). The class named in a file is not checked against the expected one (refuted), except where Type[...] is expected"},
{"property": "C55", "status": "partial", "theorems": ["C55_same_picture_partial", "C55_exactly", "C55_perspective_partial", "C55_cut_off_shown_refuted", "C55_center_crop_refuted", "C55_padding_refuted", "C55_box_inside", "C55_box_empty_refuted", "C55_tensor_partial", "C55_tensor_perspective_refuted", "C55_common", "C55_resized", "C55_resize_error"], "note": "Over exact real coordinates. Without perspective: same size, and everything shown one by one is shown by the merged transform at the same place (C55_same_picture_partial); exactly the same picture when the list first loses nothing and then adds nothing (C55_exactly). With perspective under no_tiny (C55_perspective_partial). The full statement is false of the code: content cut off by an intermediate crop reappears, a centre crop adding 3, 7, .. columns is off by one, the padding of RandomCrop is ignored, the fallback box of RandomResizedCrop can be empty, the tensor path samples perspective at wrong points (the _refuted theorems). Missing: resampling/interpolation and floating-point rounding. These theorems rest on the standard library's axioms for the reals."},
{"property": "C56", "status": "partial", "theorems": ["C56_changes_exactly", "C56_works", "C56_list", "C56_any_false_refuted", "C56_dict_refuted", "C56_append_refuted", "C56_empty_refuted", "C56_optional_refuted", "C56_literal_refuted", "C56_order_refuted", "C56_tuple", "C56_fixed_tuple", "C56_union_value", "C56_union_text", "C56_union_json", "C56_tuple_item_type_refuted"], "note": "Proved for NamedTuples and dataclasses nested to any depth with plain values (both directions: what a success means, and when there is no error), and for lists by existing index. Refuted for dictionaries with entries (missing enumerate), appending to lists, empty overrides of lists, Optional set to None, Literal with several values, Any given \"False\", and independence of the order of the overrides. Unions (by value, by text, JSON), tuples of either kind by index proved too; items of fixed tuples follow their old value's type instead of the annotation (refuted)."},
{"property": "C57", "status": "proved", "theorems": ["C57_same_global_batches", "C57_same_worker", "C57_multiple_needed"], "note": "Two whole systems (all ranks, all worker processes, any schedule, any prefetching) are related through a lockstep simulation of every wrapper; global batches are compared as multisets of micro batches (their order within a global batch does differ: ranks and workers take turns differently). Group batching and generator packers are not in the pipeline grammar; the rotation offset is a parameter (it depends on the number of global workers only). C57_multiple_needed: the rule about the multiple cannot be dropped."},
{"property": "C58", "status": "partial", "theorems": ["C58_writer", "C58_nothing_lost", "C58_points", "C58_heatmap", "C58_key_numbers", "C58_loader_info", "C58_log_numbers", "C58_log_files", "C58_skip_refuted", "C58_odd_size_refuted", "C58_one_row_refuted", "C58_no_row_refuted", "C58_loading_order_refuted", "C58_joined_refuted", "C58_condition_refuted", "C58_shared_file_refuted"], "note": "Proved for images of even size >= 2 read from the start (the defaults). The full statement is false: --skip > 0, odd sizes, sizes 0 and 1, the loading-order mode, joined datasets, cookers with a condition, and log paths without {pid} all fail or lose data (the _refuted theorems)."},
{"property": "C59", "status": "partial", "theorems": ["C59_split_part", "C59_loads", "C59_empty", "C59_excluded_samples", "C59_samples_served", "C59_shard_entry_harmless", "C59_prepared_parts", "C59_join", "C59_len_refuted", "C59_brace_name_refuted", "C59_listed_twice_refuted", "C59_by_index_refuted", "C59_join_misaligned_refuted", "C59_joined_exclude_refuted", "C59_len_partial"], "note": "Shards, excluded shards and samples, loading/empty/failing conditions and the join check hold for all inputs. Refuted: len() counts excluded samples; a shard name with braces cannot be loaded after preparation; a shard named by two patterns is served twice; excluding by sample index (as the comments say) has no effect; joined datasets with different whole-shard excludes are paired wrongly; an exclude entry for one column only makes reading a join fail."},
{"property": "C60", "status": "partial", "theorems": ["C60_every_failure_reported", "C60_key_unknown_refuted", "C60_default_stops", "C60_system_is_fatal", "C60_unreadable_parts", "C60_incomplete_sample_refuted", "C60_key_of", "C60_key_of_refuted", "C60_prepared_index", "C60_lint_in_process", "C60_lint_workers_refuted", "C60_lint_names_none_refuted", "C60_lint_empty_part_refuted", "C60_lint_metadataset_refuted"], "note": "Reporting, the default handler, system exceptions and lint without workers hold for all inputs. Refuted: the handler never gets the key of a sample that fails to load (the map function's argument is a tuple); a part that cannot be read is left out silently; the key computation itself fails for some lists; lint with worker processes (the default) does not notice failing samples, never names them, crashes for empty split parts and always fails for metadataset files."},
{"property": "C61", "status": "partial", "theorems": ["C61_metadataset", "C61_directory", "C61_loads", "C61_metadataset_subflavor_refuted", "C61_joined_split_config_refuted", "C61_join_file_settings_refuted", "C61_join_extra_argument_refuted", "C61_shuffle_over_epochs_refuted", "C61_other_split_refuted", "C61_loader_config", "C61_loader_config_refuted"], "note": "Proved for all metadatasets and arguments: what each dataset is made with, and exactly when loading succeeds. Refuted: subflavor, dataset_config and split_config cannot be given for a metadataset; a joined dataset's own split_config has no effect; the joined datasets' file settings do not reach the join that reads them; additional arguments fail as soon as a join is involved; shuffle_over_epochs can never be given; datasets of other splits must exist; get_loader accepts any object that is not a WorkerConfig, and one with another seed."},
{"property": "C62", "status": "partial", "theorems": ["C62_function_named", "C62_executed_once", "C62_shared_module", "C62_user_fields", "C62_parts_seen", "C62_user_samples", "C62_chosen", "C62_filter_optional_refuted", "C62_ignore_decoder_errors_refuted", "C62_join_filter_refuted", "C62_url_default_refuted", "C62_relative_refuted", "C62_two_spellings_refuted", "C62_changed_file_not_reloaded", "C62_remote_function", "C62_join_filter_given"], "note": "Proved: which file and function a name means, at most one execution per file for all call sequences, the parts seen and the fields loaded. Refuted: part_filter is not optional, ignore_decoder_errors has no effect, joined datasets' part filters are not applied, URLs cannot use the default name, relative paths without relative_path fail, two spellings of an absolute path are executed twice."},
{"property": "C63", "status": "partial", "theorems": ["C63_interrupted", "C63_prepared", "C63_again", "C63_parts_found", "C63_late_failure_refuted", "C63_torn_info_refuted", "C63_same_stem_refuted", "C63_at_most_50_refuted", "C63_index_name"], "note": "C63_interrupted: the first preparation, stopped at any point of any interleaving, any archives unreadable. C63_prepared: the completed preparation with split ratios. C63_again: preparing or indexing again, interrupted or failing. C63_parts_found: the parts reported (at most 99; all of them if there are at most 50). Partial because the code does not have the rest: a failure when the index is closed or renamed leaves a listed shard without index (C63_late_failure_refuted); interrupting a second preparation while .info.yaml is written can leave smaller counts (C63_torn_info_refuted); a.tar and a.tgz share one index (C63_same_stem_refuted; hence the hypothesis that the archives are called *.tar); more than 50 parts can be reported (C63_at_most_50_refuted)."},
{"property": "C64", "status": "partial", "theorems": ["C64_used_like_new", "C64_rewind", "C64_second_restore", "C64_epochize_rewind_refuted", "C64_second_restore_shuffle_refuted", "C64_second_restore_epochize_refuted", "C64_second_restore_index_refuted"], "note": "Proved for every training pipeline: restoring (a copy of) the state into an object that has been used in any way continues like the saved one (C64_rewind); more generally restoring into a used object is restoring into a new one for every pipeline of loaders, blends, concatenations and the wrappers except epochize, limit and group_batch (C64_used_like_new). The full property is false of the code: EpochizeDataset keeps its inner iterator across restore_state, and restore_state stores the lists of the state object in the datasets, which update them in place, so the state object changes (shuffle buffer loses samples, epochs end early, sample indexes continue)."},
{"property": "C65", "status": "partial", "theorems": ["C65_config_iff", "C65_loader_config_iff", "C65_same_dataset", "C65_reading_changes_config", "C65_group_size_refuted", "C65_seed_refuted", "C65_part_filter_refuted", "C65_map_handler_refuted", "C65_unnamed_functions_refuted", "C65_function_names_refuted", "C65_iter_stateless_refuted", "C65_exclude_order_refuted", "C65_same_samples"], "note": "Proved: config() (and the loaders' config()) is equal iff the recorded settings are the same (C65_config_iff, C65_loader_config_iff), for all pipelines; equal configs plus equal unrecorded settings plus names that identify functions give the very same dataset (C65_same_dataset), and with GcDataset/LogSampleDataset around them the same samples (C65_same_samples). Refuted: seed_offset, GroupBatchDataset.fixed_batch_size, part_filter, MapDataset.error_handler, IterMapDataset.stateless_iter_fn and unnamed callables are not recorded, so equal configs do not mean equal samples; reading fills byte_offset/byte_size and so changes the config of an unchanged dataset; exclude is listed in set order."},
{"property": "C66", "status": "partial", "theorems": ["C66_len_exact", "C66_loader_len", "C66_repeat_keeps_going", "C66_len_upper_bound_partial", "C66_factory_len", "C66_even_shares", "C66_filter_refuted", "C66_generator_map_refuted", "C66_shuffle_over_refuted", "C66_limit_refuted", "C66_batch_refuted", "C66_blend_refuted", "C66_repeat_refuted", "C66_factory_refuted", "C66_repeat_of_nothing"], "note": "exact for pipelines of source, map, shuffle, batch (even shares; drop_last or divisible), repeat(n) (first iteration), epochize, limit (all workers above or all below their share), concat, gc, log: C66_len_exact, C66_loader_len, C66_factory_len. Upper bound where samples may be skipped, filtered or grouped. Refuted elsewhere: filter, generator functions, shuffle_over_epochs>1, uneven limit, uneven batches, blend, second iteration of repeat, max_samples_per_sequence. Missing: bounds for packing, iter_map, batch over a filter."},
{"property": "C67", "status": "partial", "theorems": ["C67_random_resumes", "C67_worker_resumes", "C67_any_process", "C67_sample_draws", "C67_batch_draws", "C67_no_workers_refuted", "C67_generator_refuted", "C67_unstarted_worker_refuted", "C67_skip_draws"], "note": "Proved for pipelines of random map, filter and one batch level (any number of each) above any resumable dataset, with worker processes. Random filters below buffering datasets and several batch levels are not modelled. Refuted without workers, for generator functions, and for workers that had not delivered anything."},
{"property": "C68", "status": "proved", "theorems": ["C68_can_restore_iff", "C68_assert_agrees", "C68_save_iff", "C68_restorable_savable", "C68_group_late_refuted", "C68_generator_over_random_refuted"], "note": "Proved as stated. C68_generator_over_random_refuted records that a state that was saved need not be resumable (generator function above a random function)."},
{"property": "C69", "status": "partial", "theorems": ["C69_answers", "C69_exclusive", "C69_exact", "C69_resumes", "C69_answered", "C69_iterates", "C69_boot_refuted", "C69_end_race_refuted", "C69_own_answers", "C69_interrupt_refuted"], "note": "proved for every interleaving of the two threads of a worker while its generator does not end (any answer belongs to a state between question and answer; restoring continues right after the received sample; no deadlock), and for every sequence of uninterrupted commands; refuted at three places: a restored worker answers like a new one until its iterating thread took the lock, the final checkpoint is stored outside the lock (spurious No checkpoint found), and an interrupted command shifts the answers of all later ones"},
{"property": "C70", "status": "partial", "theorems": ["C70_same_batches", "C70_same_training", "C70_cookers_refuted", "C70_packing_refuted", "C70_unbatched_refuted", "C70_restore_refuted", "C70_generator_refuted", "C70_grouping_refuted"], "note": "proved for encoders that override only encode_sample, batch and encode_batch with plain functions: same validation batches for all data (C70_same_batches), the very same training dataset except for can_restore_sample (C70_same_training). Refuted for every wrapped encoder otherwise: cookers, packing, grouping and unbatched use are refused or ignored, samples of a generator encode_sample are all dropped, samples can never be restored by key"},
{"property": "C71", "status": "partial", "theorems": ["C71_keeps_fields", "C71_converts_iff", "C71_has_type", "C71_batch_unchanged", "C71_pins", "C71_namedtuple_refuted", "C71_not_a_param_refuted", "C71_batch_type_refuted", "C71_documented_example_refuted", "C71_dict_class_refuted", "C71_pin_refuted", "C71_batch_converted", "C71_sequences"], "note": "proved: all fields kept and the rest defaults (C71_keeps_fields), exactly when a conversion works (C71_converts_iff), type of the result, unchanged batches, pinning of all nested structures (C71_pins). Refuted: samples can never become a NamedTuple, fields with init=False break conversion and pinning (encode_batch even for batches of the right type), dict subclasses become plain dicts, the documented task encoder drops every batch. InitVar and __post_init__ are not modelled"},
{"property": "C72", "status": "partial", "theorems": ["C72_less_than", "C72_strict_total_order", "C72_equality", "C72_equality_is_url", "C72_parent_of_join", "C72_discover", "C72_order_independent", "C72_names_lead_back", "C72_parent_refuted", "C72_dotdot_refuted", "C72_dotdot_finds_nothing", "C72_equal_other_remote_refuted"], "note": "proved for directories without '..' components; refuted for a directory given with '..' (energon prepare ../data raises ValueError as soon as there is a tar file) and for the parent of a remote's root (its url cannot be read back). Not modelled: pattern matching of the file system's glob (its results are arbitrary)."},
{"property": "C73", "status": "partial", "theorems": ["C73_size", "C73_order", "C73_line", "C73_adds_up", "C73_agrees_with_loader", "C73_size_refuted", "C73_excluded_refuted", "C73_pattern_refuted", "C73_no_samples_refuted", "C73_report_size"], "note": "proved for sizes below 1024 TiB, without exclude list and without brace patterns; refuted beyond: from 1024 TiB on the number is too small by 1024, excluded shards are counted, brace patterns raise KeyError, a dataset without samples raises ZeroDivisionError. Numbers are rationals; text formatting is not modelled."},
{"property": "C74", "status": "partial", "theorems": ["C74_displays_iff", "C74_picture", "C74_simple", "C74_all_shown", "C74_blank_image_refuted", "C74_namedtuple_refuted", "C74_exit_refuted", "C74_failing_sample"], "note": "proved: exactly the values without namedtuples and without images of one colour are displayed, and images are drawn correctly; refuted: a blank image ends the command (0/0), a namedtuple raises AttributeError, answering no continues with the next split part. Floats are rationals; the area interpolation is an arbitrary function."},
{"property": "C75", "status": "partial", "theorems": ["C75_brought_back", "C75_buffer_refilled", "C75_exactly_if_independent", "C75_random_cooker_refuted"], "note": "Proved for encode functions (seeded or without randomness), exactly-if for a single function. Refuted for cookers: the map of the cookers is always marked stateless, so a cooker that draws makes other samples after a restore (packing and grouping buffers), although can_restore_sample() is True and saving is accepted; a cooker cannot be seeded because the decorator needs a task encoder as first argument. Functions, not generators; the cached worker seed of the decorator is treated in C47."},
{"property": "C76", "status": "partial", "theorems": ["C76_own_keys", "C76_not_changed", "C76_shared_object_refuted", "C76_yield_twice_refuted"], "note": "Proved as an iff: the keys are right for every input exactly if the function yields a new object with its input's key each time (or its input at the very end), and then nothing delivered is changed. Refuted otherwise: yielding the same object twice gives a key that cannot be restored and changes the first delivery; one object returned for every sample gets a longer key each time, without end. MapDataset only (Blend, Concat and the loaders prefix keys in the same way, once per delivery)."},
{"property": "C77", "status": "partial", "theorems": ["C77_log_numbers", "C77_logs_complete", "C77_entries_numbered", "C77_keys_of_batch", "C77_keys_sound", "C77_unbatched_refuted", "C77_restore_sample_refuted"], "note": "Numbers, files and entries proved for all interleavings. Refuted as stated: restore_sample in the main process with log level 2 writes to another number and empties the main log (C77_restore_sample_refuted); unbatched samples have no keys or a string taken letter by letter, and an empty list batch or a non-iterable __key__ makes logging raise (C77_unbatched_refuted). Not modelled: failing writes, the other kinds of entries (their data is arbitrary bytes in the model)."},
{"property": "C78", "status": "partial", "theorems": ["C78_bounded", "C78_small_shown", "C78_cut", "C78_first_entries", "C78_first_dict_entries", "C78_dunder_refuted", "C78_bytes_refuted", "C78_cut_invisible_refuted"], "note": "Proved: the bound (for keys not starting with two underscores and for other values of bounded repr), completeness within the limits, and what exactly is cut. Refuted parts: values of keys starting with two underscores and values that are neither string, list nor dictionary (bytes of undecoded parts) are printed in full; omitted entries of lists and dictionaries are not marked. repr of strings is a parameter; depth and limits are naturals."},
{"property": "C79", "status": "partial", "theorems": ["C79_config_file", "C79_connects", "C79_unknown", "C79_http_host_refuted", "C79_percent_refuted", "C79_unverified_refuted", "C79_missing_places", "C79_references", "C79_bad_references"], "note": "Proved as an iff for configurations without percent signs and with endpoints that are URLs or do not start with http. Refuted: an endpoint whose host starts with http gets no protocol; percent signs are interpolated by configparser (an error in any section disables all remotes, %% silently becomes %); certificates are never verified. The parsing of the file's text into sections and S3FileSystem itself are not modelled."},
{"property": "C80", "status": "partial", "theorems": ["C80_parent_name", "C80_with_suffix", "C80_index_own", "C80_index_finalised", "C80_equal_iff", "C80_order", "C80_glob_remote", "C80_move", "C80_index_collision_refuted", "C80_parent_of_remote_refuted", "C80_order_of_urls_refuted", "C80_escaped_not_moved", "C80_glob_local", "C80_suffix_rejected", "C80_shard_order"], "note": "Refuted: x.tar and x.tgz in one directory have the same index file, although prepare looks for both (C80_index_collision_refuted); the parent of a remote is not a path on a remote (C80_parent_of_remote_refuted); the order is not that of the URLs (C80_order_of_urls_refuted). __rtruediv__ is never reached between two paths and is not modelled."}
]}
