{"claims": [
  {"property": "C01", "status": "proved", "theorems": ["C01_top_experts_choice"], "note": "Exact scalars over any total preorder (no NaN). K > E is an error."},
  {"property": "C02", "status": "proved", "theorems": ["C02_buffer_slot_is_number_of_competitors"], "note": "Both dispatchers, with and without batch priority; choices are any function meeting the C01 spec."},
  {"property": "C03", "status": "proved", "theorems": ["C03_einsum_slots_exclusive_and_bounded", "C03_indices_slots_exclusive"], "note": "Exclusive slots, at most C items per expert, at most K experts per item, no holes."},
  {"property": "C04", "status": "proved", "theorems": ["C04_dispatchers_interchangeable"], "note": "Any number of groups; items form a module over the scalars."},
  {"property": "C05", "status": "proved", "theorems": ["C05_reordering_lossless"], "note": "Both branches of _dispatch/_receive; sharding constraints are identities."},
  {"property": "C06", "status": "proved", "theorems": ["C06_layer_semantics"], "note": "Both dispatchers; experts act on each slot separately."},
  {"property": "C07", "status": "proved", "theorems": ["C07_top_items"], "note": ""},
  {"property": "C08", "status": "proved", "theorems": ["C08_top_items_metrics"], "note": ""},
  {"property": "C09", "status": "proved", "theorems": ["C09_compute_capacity"], "note": "Exact rational capacity factor; float rounding of the quotient not modelled."},
  {"property": "C10", "status": "partial", "theorems": ["C10_refuted", "C10_partial"], "note": "False as stated: the default multiple_of=4 can push the capacity above the group size (S=2, E=1, factor 1 gives 4). Proved when there is no multiple or it divides the group size."},
  {"property": "C11", "status": "proved", "theorems": ["C11_factory_arguments"], "note": "capacity=0 is treated as missing and raises TypeError."},
  {"property": "C12", "status": "proved", "theorems": ["C12_save_restore_identity"], "note": "Arrays without zero-size axes whose overlapping shards are replicas (as jax produces). Concurrent reads are interleaved at chunk granularity."},
  {"property": "C13", "status": "proved", "theorems": ["C13_chunks_partition_and_limit"], "note": ""},
  {"property": "C14", "status": "proved", "theorems": ["C14_written_once_by_a_holder"], "note": "That no save raises is the first part of C12_save_restore_identity."},
  {"property": "C15", "status": "proved", "theorems": ["C15_layout_agreement"], "note": ""},
  {"property": "C16", "status": "proved", "theorems": ["C16_greedy_balance"], "note": ""},
  {"property": "C17", "status": "proved", "theorems": ["C17_reads_exactly_needed_files"], "note": ""},
  {"property": "C18", "status": "proved", "theorems": ["C18_intersection"], "note": ""},
  {"property": "C19", "status": "partial", "theorems": ["C19_refuted", "C19_every_zero_size_array_fails", "C19_zero_size_blocks_the_file", "C19_partial"], "note": "False: restoring a zero-size array raises ValueError, and so does restoring anything from a data file that holds one. C19_partial: restore succeeds when no axis has size zero."},
  {"property": "C20", "status": "proved", "theorems": ["C20_atomic_replace", "C20_saves_complete"], "note": "Any interleaving of any number of saves to distinct paths, stopped anywhere. Rename is taken as atomic, as POSIX does."},
  {"property": "C21", "status": "partial", "theorems": ["C21_refuted", "C21_partial", "C21_single_files"], "note": "False as stated: a step is reported complete while the save of one of its data files has not started. Proved when every save of the step has opened its temporary file, or when there is one file per suffix."},
  {"property": "C22", "status": "proved", "theorems": ["C22_reported_steps", "C22_latest_is_maximum"], "note": "Also states exactly when ValueError or TypeError is raised instead."},
  {"property": "C23", "status": "proved", "theorems": ["C23_shard_suffix_round_trip", "C23_shard_names_distinct", "C23_no_suffix_unchanged"], "note": "For all paths without newlines, even those that already end like a shard suffix."},
  {"property": "C24", "status": "proved", "theorems": ["C24_serialize_restore", "C24_slices_encode", "C24_empty_chunk_unreadable"], "note": "Byte-level model of msgpack and of vmoe/checkpoints/serialization.py. Round trip for every tree of supported objects; arrays of at least one item (zero-item chunks are shown to be unreadable)."},
  {"property": "C25", "status": "proved", "theorems": ["C25_each_device_once", "C25_error_unless_divisor", "C25_colliding_coords_lose_devices"], "note": "All device lists with distinct hardware coordinates; the case of colliding coordinates is shown to lose a device."},
  {"property": "C26", "status": "proved", "theorems": ["C26_first_rule", "C26_no_error"], "note": "Regular expressions are an arbitrary search predicate. Keys with a slash are covered: they raise."},
  {"property": "C27", "status": "proved", "theorems": ["C27_never_truncates"], "note": "Finite iterables."},
  {"property": "C28", "status": "proved", "theorems": ["C28_only_matched", "C28_no_error"], "note": "Patterns, array conversions and the reshape/squeeze/tile/zoom transformations are external functions; copy and stack are modelled."},
  {"property": "C29", "status": "partial", "theorems": ["C29_numeric_order_partial", "C29_numeric_order_refuted"], "note": "Proved for names whose texts do not blend with the numbers; false when a hyphen (read as a minus sign) precedes the number: 'x-1' and 'x-2' are stacked in reverse. Numbers are exact, not rounded to floats."},
  {"property": "C30", "status": "proved", "theorems": ["C30_warmup_polynomial", "C30_no_error", "C30_no_decay"], "note": "Over the reals; optax schedules modelled from their documentation."},
  {"property": "C31", "status": "proved", "theorems": ["C31_rsqrt", "C31_errors", "C31_past_the_end"], "note": "Over the reals. The bound holds up to the last step only: past it the rate is negative (C31_past_the_end)."},
  {"property": "C32", "status": "proved", "theorems": ["C32_frozen_unchanged", "C32_others_as_without", "C32_both_error", "C32_no_error"], "note": "optax transformations other than masking are arbitrary; adding zeros leaves a parameter as it is."},
  {"property": "C33", "status": "partial", "theorems": ["C33_weight_decay_partial", "C33_key_order_refuted", "C33_gradient_scaling"], "note": "Gradient scaling is proved. Weight decay pairs updates and parameters by position, so the claim needs their dicts to have the same key order; refuted otherwise."},
  {"property": "C34", "status": "proved", "theorems": ["C34_each_example_once", "C34_full_batch", "C34_no_error"], "note": "Over the reals; gradients are vectors of reals and the loss function is arbitrary."},
  {"property": "C35", "status": "proved", "theorems": ["C35_mixed", "C35_same_device", "C35_label_mass", "C35_no_error", "C35_off", "C35_errors"], "note": "Over the reals. Dirichlet samples are any nonnegative weights of sum 1. The in-place removal of the key from the state's dict is not modelled."},
  {"property": "C36", "status": "partial", "theorems": ["C36_steps", "C36_same_as_uninterrupted_partial", "C36_can_finish", "C36_same_as_uninterrupted_refuted", "C36_few_batches_refuted"], "note": "Step numbers, counters and checkpoints resume correctly for every interleaving of stops, background saves and deletions. The states are the same as without interruption only for an iterator that continues after the last seen example; get_dataset_iterator ignores it and starts again, so that part is refuted. With too few batches the last checkpoint has the wrong label."},
  {"property": "C37", "status": "proved", "theorems": ["C37_exactly_one", "C37_from_epochs", "C37_from_steps"], "note": "Over the rationals."},
  {"property": "C38", "status": "proved", "theorems": ["C38_means", "C38_order", "C38_infinite_padding_refuted", "C38_mixing_model_refuted"], "note": "Over the reals extended with a value that is not finite. The two refuted theorems show that the conditions of the statement are needed."},
  {"property": "C39", "status": "proved", "theorems": ["C39_batches", "C39_one_process", "C39_errors", "C39_filter_refuted"], "note": "Proved for all splits, batch sizes and orders when no filter drops examples; refuted with a filter, since the count of fake examples is made from the unfiltered split sizes."},
  {"property": "C40", "status": "proved", "theorems": ["C40_same_items", "C40_never_wrong", "C40_read_ahead", "C40_global_rows", "C40_global_errors", "C40_failing_source_refuted"], "note": "Proved for every source that does not fail and stops for good, for all prefetch sizes; refuted for a source that fails (queued items are lost). Also the assembly of global arrays from the rows of the processes."},
  {"property": "C41", "status": "proved", "theorems": ["C41_epsilon", "C41_finite", "C41_fresh_keys", "C41_no_updates"], "note": "Over the reals with non-finite values; gradients are arbitrary. Also: the returned key is not used by the attack."},
  {"property": "C42", "status": "proved", "theorems": ["C42_stats", "C42_batching", "C42_pgd_alone", "C42_infinite_fake_refuted"], "note": "Over the reals with non-finite values. The refuted theorem shows that finite losses are needed."},
  {"property": "C43", "status": "proved", "theorems": ["C43_mixing", "C43_range", "C43_no_item_dropped", "C43_order", "C43_outcomes"], "note": "Over the reals, for any logits. Also: without noise no item is dropped, and permuting items permutes outputs."},
  {"property": "C44", "status": "partial", "theorems": ["C44_total_partial", "C44_refuted"], "note": "Refuted: the auxiliary losses of the towers are nested under 'img' and 'txt' and silently left out of the total. Proved: the exact objective that is optimised."},
  {"property": "C45", "status": "partial", "theorems": ["C45_einsum_partial", "C45_top_items_partial", "C45_indices_partial", "C45_indices_value", "C45_refuted", "C45_weights_determined", "C45_all_layers", "C45_images"], "note": "Proved for both routers with einsum dispatchers. For the indices dispatcher only when no choice is beyond the capacity; refuted otherwise: dropped choices are reported with their gates."},
  {"property": "C46", "status": "proved", "theorems": ["C46_roundtrip", "C46_grouping", "C46_member_position", "C46_gates", "C46_routing", "C46_errors", "C46_layer", "C46_independent", "C46_encoder", "C46_encoder_rows", "C46_encoder_values", "C46_zero_gates_refuted"], "note": "Over the reals, where gates of a member's own experts are positive. C46_zero_gates_refuted shows that routing could cross members if all but K-1 own gates underflow to zero."},
  {"property": "C47", "status": "proved", "theorems": ["C47_log_mean", "C47_errors", "C47_eval_loss", "C47_eval_infinite", "C47_train_loss", "C47_jensen", "C47_predictions", "C47_sigmoid_loss", "C47_sigmoid_train", "C47_sigmoid_jensen", "C47_sigmoid_predictions", "C47_sigmoid_masked_refuted", "C47_one_member", "C47_unknown_loss"], "note": "Over extended reals with infinities and NaN, without rounding. Logits of the softmax losses may be -inf; C47_sigmoid_masked_refuted shows that the sigmoid loss is NaN for such logits."},
  {"property": "C48", "status": "proved", "theorems": ["C48_representation", "C48_sampling", "C48_nested", "C48_results", "C48_best_l2", "C48_not_dominated", "C48_callback", "C48_same_split_error", "C48_ties_refuted"], "note": "The model step, numpy's permutations (any permutation), np.argsort (any sorting order) and the regression are arbitrary functions; the regression itself is C55. Among equal accuracies the ranks depend on the unspecified order of np.argsort (C48_ties_refuted)."},
  {"property": "C49", "status": "proved", "theorems": ["C49_composition", "C49_error", "C49_single", "C49_not_dictionary", "C49_order", "C49_caller_changed", "C49_caller_kept", "C49_operation", "C49_copy", "C49_keep", "C49_ignore_no_labels", "C49_eval_flag", "C49_eval_labels", "C49_flag_kept"], "note": "ast.parse, ast.literal_eval, import_module and getattr are parameters. Tensors of datasets are modelled by values; graph tracing by tf.data is not modelled."},
  {"property": "C50", "status": "proved", "theorems": ["C50_importance", "C50_gshard", "C50_load", "C50_router", "C50_router_noisy", "C50_errors"], "note": "Over the reals; norm.cdf is any function with values in [0,1)."},
  {"property": "C51", "status": "partial", "theorems": ["C51_bounds", "C51_no_changes_partial", "C51_no_changes_refuted"], "note": "Bounds proved. No change is reported as no change only if every token has an expert; refuted otherwise: tokens without experts count as changed."},
  {"property": "C52", "status": "partial", "theorems": ["C52_weights", "C52_mu_partial", "C52_mu_refuted"], "note": "Proved for the combine and dispatch weights. For the parameters mu the reported highest similarity is wrong when all pairs are negative (refuted); the lowest is right."},
  {"property": "C53", "status": "proved", "theorems": ["C53_objective", "C53_missing"], "note": "Blocks are arbitrary functions."},
  {"property": "C54", "status": "proved", "theorems": ["C54_loss", "C54_error", "C54_positive", "C54_order", "C54_symmetric", "C54_logits", "C54_towers"], "note": "Over the reals."},
  {"property": "C55", "status": "proved", "theorems": ["C55_fit", "C55_order", "C55_shift", "C55_normalized_mean", "C55_normalized_deviation", "C55_no_classes", "C55_seed"], "note": "Over the real numbers. jnp.linalg.eigh is assumed to give an eigendecomposition with orthonormal eigenvectors of the matrix that it gets; that its eigenvalues are not negative is proved. The L2 value must be positive."},
  {"property": "C56", "status": "proved", "theorems": ["C56_central_crop", "C56_central_crop_error", "C56_resize_small", "C56_resize_crop", "C56_onehot_multi", "C56_onehot_error", "C56_onehot_single", "C56_onehot_each", "C56_range_affine", "C56_range_order", "C56_range_inverse", "C56_range_clip", "C56_range_channels", "C56_range_mismatch", "C56_inverted_refuted"], "note": "Over the real numbers; tf.image.resize is a parameter (only sizes are claimed). Claims for clip_values hold for vmin <= vmax; C56_inverted_refuted shows what happens otherwise."},
  {"property": "C57", "status": "proved", "theorems": ["C57_name", "C57_arguments", "C57_dotted", "C57_nested", "C57_binding", "C57_keys"], "note": "ast.parse, ast.literal_eval, import_module and getattr are parameters; end_col_offset counts bytes, and characters are assumed to be ASCII."},
  {"property": "C58", "status": "partial", "theorems": ["C58_maximum", "C58_attained", "C58_gradient", "C58_rows", "C58_columns", "C58_best_rows_partial", "C58_best_columns_partial", "C58_gap_partial", "C58_dual", "C58_balance_refuted", "C58_items_gates", "C58_gates"], "note": "The sparse direction (C58_rows, C58_columns), the maximum operator and weak duality are proved for every result of the solver. The sums in the other direction are not guaranteed, not even for exact minimisers (C58_balance_refuted, for every projection); optimality is proved under the assumption that they hold, with the exact gap otherwise (C58_gap_partial). The projection on the sparse simplex is an oracle that returns a nearest point; one is constructed (C58_projection_example)."},
  {"property": "C59", "status": "partial", "theorems": ["C59_experts_weights", "C59_items_weights", "C59_experts_kept", "C59_items_kept", "C59_errors", "C59_experts_mixture_partial", "C59_items_mixture_partial", "C59_unplanned_refuted", "C59_kl_items", "C59_kl_experts_partial", "C59_kl_errors", "C59_kl_experts_refuted"], "note": "The output is proved for all dispatchers and weights. False parts: with softmax combine weights (the default) experts without weight in the plan contribute (C59_unplanned_refuted), and the KL router for experts uses the logits without noise for the combine weights (C59_kl_experts_refuted). Without softmax weights the mixture theorems hold (C59_experts_mixture_partial, C59_items_mixture_partial)."},
  {"property": "C60", "status": "proved", "theorems": ["C60_copies", "C60_one_axis", "C60_expand_tile_errors", "C60_squeeze", "C60_squeeze_expand", "C60_stack", "C60_stack_errors", "C60_reshape_order", "C60_reshape", "C60_reshape_inferred", "C60_upcycled", "C60_reshaped_parameter", "C60_squeezed_parameter", "C60_stacked_parameter", "C60_copies_layer", "C60_copies_dense"], "note": "Array functions of jax.numpy are modelled on arrays of any rank. The exception of a failing jnp.reshape or jnp.tile is not specified. The theorems about parameters of reshape, squeeze and stack rules are for arrays of the type of the parameter (C28 covers conversions). The upcycled layer covers routers that select experts, with exact arithmetic."},
  {"property": "C61", "status": "proved", "theorems": ["C61_position_embeddings", "C61_determined", "C61_same_grid", "C61_corners", "C61_range", "C61_errors", "C61_zoom", "C61_resized_embeddings", "C61_zoomed_parameter"], "note": "scipy.ndimage.zoom with order=1 is modelled as exact linear interpolation with coinciding ends; int(math.sqrt(n)) as the integer square root. The theorems about parameters are for arrays of the type of the parameter."},
  {"property": "C62", "status": "proved", "theorems": ["C62_images", "C62_groups", "C62_no_drop", "C62_no_drop_images", "C62_factor_enough", "C62_earlier", "C62_ragged", "C62_other_image_refuted", "C62_later_image_refuted"], "note": "Exact arithmetic over the reals; norms, attention, patch embedding and heads are arbitrary functions of a token or of one sequence. The refuted theorems show that the conditions of the property are needed. Batches are not empty; negative capacities are not modelled."},
  {"property": "C63", "status": "proved", "theorems": ["C63_tokens", "C63_network", "C63_errors", "C63_encoder_errors", "C63_error_kind", "C63_dot", "C63_norm", "C63_distinct"], "note": "Exact real sines and cosines and a positive temperature. Distinctness is proved with the lowest frequency, hence for sides up to six times the temperature."},
  {"property": "C64", "status": "proved", "theorems": ["C64_train", "C64_names", "C64_calls", "C64_errors", "C64_resume", "C64_evaluate", "C64_evaluate_names", "C64_evaluate_same", "C64_fewshot", "C64_fewshot_runs", "C64_fewshot_same"], "note": "Calls in training, evaluation and few-shot evaluation with all wrappers. Keys are symbolic: equal only if derived in the same way; split(k, n)[i] is identified with fold_in(k, i) (the worst case). The keys of model.init are ancestors of the training keys, and different from them."},
  {"property": "C65", "status": "partial", "theorems": ["C65_reuse_refuted", "C65_reuse", "C65_parent", "C65_batch_partial", "C65_updates_partial"], "note": "False as stated (C65_reuse_refuted; C65_reuse and C65_parent describe the reuse for all runs). Proved: different keys in each batch, and separate keys for the updates of all batches."},
  {"property": "C66", "status": "proved", "theorems": ["C66_parse", "C66_unique", "C66_accept", "C66_errors", "C66_model", "C66_blocks", "C66_copies", "C66_epochs", "C66_optimizer", "C66_optimizer_errors", "C66_dense", "C66_losses", "C66_soft_blocks", "C66_experts_choose_blocks"], "note": "Regular expression, positions of MoE layers, sizes, errors and the copies of the code."},
  {"property": "C67", "status": "proved", "theorems": ["C67_groups", "C67_ragged", "C67_no_drop", "C67_no_drop_total", "C67_experts_choose", "C67_soft", "C67_dense"], "note": "Uses the theorems of C62 for the group sizes and capacities of the configurations."},
  {"property": "C68", "status": "partial", "theorems": ["C68_mixup", "C68_mixup_partial", "C68_router_partial", "C68_experts_choose_partial", "C68_soft_router", "C68_soft_refuted", "C68_pretrain_refuted"], "note": "False as stated (C68_pretrain_refuted, C68_soft_refuted; C68_soft_router for all soft router models). Proved for the other configurations."},
  {"property": "C69", "status": "proved", "theorems": ["C69_values", "C69_whole", "C69_sequence", "C69_none", "C69_compose", "C69_errors", "C69_call", "C69_call_errors", "C69_create", "C69_create_errors"], "note": "Reals without rounding; NaN modelled, infinities not. Patterns are arbitrary predicates."},
  {"property": "C70", "status": "partial", "theorems": ["C70_array_partial", "C70_names_partial", "C70_no_loss_partial", "C70_metrics", "C70_refuted"], "note": "False as stated (C70_refuted). Proved for keys that do not prolong one another."},
  {"property": "C71", "status": "proved", "theorems": ["C71_pairs", "C71_rank", "C71_errors", "C71_texts", "C71_network", "C71_pooling", "C71_position"], "note": "Inference mode over the reals; examples whose tokens fill whole groups."},
  {"property": "C72", "status": "partial", "theorems": ["C72_objective_partial", "C72_full", "C72_less", "C72_positives", "C72_refuted"], "note": "The property is false with two or more microsteps (C72_refuted, C72_less); C72_objective_partial gives the objective that is optimised instead. Towers that embed examples one by one."},
  {"property": "C73", "status": "partial", "theorems": ["C73_zeroshot", "C73_zeroshot_error", "C73_retrieval", "C73_hooks", "C73_durations_refuted"], "note": "All of it but the durations of zero-shot tasks, which are cumulative (C73_durations_refuted)."},
  {"property": "C74", "status": "proved", "theorems": ["C74_step", "C74_entries", "C74_reports", "C74_errors", "C74_norm_bound", "C74_value_bound"], "note": "Over the real numbers; optax transformations are modelled from their source. Parameters that Adafactor factors are only covered by C77."},
  {"property": "C75", "status": "proved", "theorems": ["C75_adam_bound", "C75_adam_scaling", "C75_sgd_scaling"], "note": "Over the real numbers."},
  {"property": "C76", "status": "partial", "theorems": ["C76_independent", "C76_frozen_refuted"], "note": "False with clipping by global norm (C76_frozen_refuted: gradients of frozen parameters count in the norm); proved without it."},
  {"property": "C77", "status": "proved", "theorems": ["C77_experts", "C77_adafactor_bound", "C77_decay_rate", "C77_sharp"], "note": "numpy.argsort is any function that returns a sorting permutation. C77_sharp shows that the bound on min_dim_size_to_factor cannot be lowered."},
  {"property": "C78", "status": "partial", "theorems": ["C78_any_partial", "C78_frozen_partial", "C78_string", "C78_none", "C78_search", "C78_total", "C78_refs_refuted", "C78_names_refuted", "C78_invalid_refuted"], "note": "False with backreferences after groups (C78_refs_refuted), names in common (C78_names_refuted) and for invalid expressions (C78_invalid_refuted). Proved for separable lists, with Python's parser and matcher for the modelled syntax."},
  {"property": "C79", "status": "proved", "theorems": ["C79_writes", "C79_zero"], "note": "Keys named like parameters of savez_compressed (filepath, file) are excluded; arrays under one key have rows of one shape."},
  {"property": "C80", "status": "proved", "theorems": ["C80_attack", "C80_storing", "C80_reports"], "note": "One process; the model's third result is the value of the label at the prediction and the weights of a router have one shape; sums over the reals."},
  {"property": "C81", "status": "proved", "theorems": ["C81_reuse", "C81_missing", "C81_latest", "C81_fresh", "C81_warm", "C81_slash_refuted"], "note": "Shardings are not modelled; the transformations of arrays are oracles that give arrays for arrays (see C60, C61)."},
  {"property": "C82", "status": "proved", "theorems": ["C82_evaluations", "C82_fewshots", "C82_no_fewshots", "C82_reports", "C82_saves", "C82_last", "C82_agree", "C82_clocks_refuted", "C82_zero", "C82_cost", "C82_cost_resumed_refuted"], "note": "PeriodicAction and ReportProgress of the library clu are modelled from its documented behaviour (they are not in the repository); whether ReportProgress leaves out the first call is a parameter. Time is a whole number."},
  {"property": "C83", "status": "proved", "theorems": ["C83_cast", "C83_top_experts", "C83_top_items", "C83_soft", "C83_exact", "C83_same_refuted", "C83_integers", "C83_integers_refuted"], "note": "Over the reals: float32 rounding, infinities and NaN are not modelled; combine weights are float32 (not themselves rounded)."},
  {"property": "C84", "status": "proved", "theorems": ["C84_drawn", "C84_all_seen", "C84_epoch_refuted", "C84_epochs", "C84_errors", "C84_empty", "C84_filtered_epoch_refuted", "C84_restart_refuted", "C84_options"], "note": "tf.data's shuffle, parallel map, repeat and batch are modelled from their documented behaviour; ignore_errors skips nothing."},
  {"property": "C85", "status": "proved", "theorems": ["C85_as_in_memory", "C85_assigned", "C85_old", "C85_old_other_names", "C85_vit", "C85_vit_unknown_type", "C85_old_other_containers_refuted"], "note": "End-to-end composition of C12 and C28. Arrays with an empty axis are excluded (they cannot be restored, C19). The last sentence, about old checkpoints, is C85_old_other_containers_refuted."},
  {"property": "C86", "status": "proved", "theorems": ["C86_training", "C86_clocks_refuted", "C86_save", "C86_save_no_makedirs", "C86_save_no_makedirs_refuted", "C86_barrier", "C86_barrier_waits", "C86_close_names", "C86_names_refuted"], "note": "Any number of processes; computations over all devices, Orbax saves and psum are atomic and happen when all processes have called them. Refuted: clocks that differ, names with the same CRC-32, saving without makedirs to a missing directory."},
  {"property": "C87", "status": "proved", "theorems": ["C87_layer", "C87_items", "C87_blocked", "C87_derivative", "C87_items_derivative", "C87_ties_refuted", "C87_softmax"], "note": "The layer is run on pairs of values and tangents with jax's rules. C87_ties_refuted shows that the hypothesis about ties is needed."},
  {"property": "C88", "status": "partial", "theorems": ["C88_gshard", "C88_importance_partial", "C88_load_partial", "C88_auxiliary_partial", "C88_single_expert", "C88_balanced", "C88_finite_refuted"], "note": "False where the standard deviation is 0: C88_single_expert, C88_balanced and C88_finite_refuted; the partial theorems give the exact condition."},
  {"property": "C89", "status": "proved", "theorems": ["C89_derivative", "C89_logits", "C89_weights"], "note": "Forward mode over the reals, exact arithmetic; Bfloat16Dispatcher is not modelled; experts enter as functions with a given derivative rule."},
  {"property": "C90", "status": "proved", "theorems": ["C90_zero", "C90_safe", "C90_derivative", "C90_derivative_refuted", "C90_xent", "C90_plain"], "note": "Reverse mode with infinities and NaN; the exception at x = 0 is part of the statement (C90_derivative_refuted: 0 instead of y)."},
  {"property": "C91", "status": "partial", "theorems": ["C91_weights_partial", "C91_range", "C91_mu_partial", "C91_mu_refuted", "C91_single_refuted"], "note": "For weights the reported mean is low by at most 1e-9 times the number of slots (items) over the number of other items (slots), exact means need similarities of 1 with itself, which the eps of cosine_psim prevents; for mu the error can reach 1/(n-1) (refuted: scale 0 gives -1 although all similarities are 0); a single item or slot divides by zero (refuted)."},
  {"property": "C92", "status": "partial", "theorems": ["C92_rows", "C92_monotone_partial", "C92_rate_partial", "C92_balance_partial", "C92_balance_refuted", "C92_best", "C92_near_best", "C92_limit_best"], "note": "The columns are not balanced exactly (C92_balance_refuted, for every number of iterations). Proved: rows exactly; the imbalance never grows, is at most T sqrt(8 (hi - lo) / n) and tends to 0 (C92_balance_partial); optimality if balanced, otherwise up to (hi - lo) times the imbalance."},
  {"property": "C93", "status": "partial", "theorems": ["C93_columns", "C93_rows_partial", "C93_exact", "C93_best_partial", "C93_gap", "C93_rows_refuted", "C93_dense", "C93_sparse_refuted", "C93_gates"], "note": "Columns are exact for every result of the solver (C93_columns). Rows sum to one if and only if the solver returns a minimum (C93_exact), otherwise up to its error (C93_rows_partial); false for the initial vector (C93_rows_refuted). The plan is then the only best one (C93_best_partial), with the exact gap otherwise (C93_gap). Plans need not be sparse (C93_sparse_refuted). The projection on the simplex is an oracle that returns a nearest point."},
  {"property": "C94", "status": "partial", "theorems": ["C94_options_partial", "C94_errors", "C94_ensemble", "C94_ensemble_errors", "C94_partialclass", "C94_split_partial", "C94_split_refuted", "C94_string_refuted"], "note": "Proved: exactly which value each option gets, exactly when and how creation fails, ensemble layers, nested partial classes, and bools or iterables of names for split_rngs. Refuted: deterministic and num_experts in the call string are silently ignored, and a string as split_rngs splits nothing."},
  {"property": "C95", "status": "partial", "theorems": ["C95_trained", "C95_trained_accepts", "C95_again_partial", "C95_attacked", "C95_attacked_accepts", "C95_same_model", "C95_towers", "C95_towers_accepts", "C95_losses_partial", "C95_objective_partial", "C95_objective_refuted", "C95_mesh", "C95_again_refuted", "C95_same_model_refuted", "C95_losses_refuted"], "note": "Proved: exact options and conditions of all three ways to make a model, and that whatever can be evaluated can be attacked as the same model but for its name. Refuted: a dict as configuration loses its name after the first model; an option in both sources is an error in training but overridden in attacks; ensemble losses can not be attacked; a model without auxiliary losses is a KeyError if they are attacked."},
  {"property": "C96", "status": "partial", "theorems": ["C96_declared_partial", "C96_structs", "C96_placed", "C96_compiled_once", "C96_refuted"], "note": "Proved for all arrays of numbers and bools, all meshes and numbers of processes. Refuted in general: a leaf of strings is declared as a sharded array over the mesh, but steps get the rows of their own process on the host."},
  {"property": "C97", "status": "partial", "theorems": ["C97_asked", "C97_restored", "C97_accepts_partial", "C97_initialized", "C97_sharding_immaterial", "C97_rules_refuted", "C97_slash_refuted"], "note": "What is asked for and restored is characterised exactly (iff), the result does not depend on the sharding rules, and without rules all checkpoints without slashes in keys are accepted. Refuted: a rule that also matches the name of a value without a shape (None, a string or a Python number) is an AttributeError, and a slash in a key is a ValueError."},
  {"property": "C98", "status": "partial", "theorems": ["C98_cached", "C98_builders_partial", "C98_datasets", "C98_fewshot_partial", "C98_same_split", "C98_compiled", "C98_builders_refuted", "C98_fewshot_refuted"], "note": "Cached calls are characterised for all sequences of calls. Proved for builders of which those of the same name and data_dir agree, for few-shot tasks with different splits, and for compiled steps. Refuted: the key of the builder leaves out manual_dir and try_gcs, so a second configuration gets the builder of the first; and a few-shot task with the same split for training and test shares one iterator, which is used up when the test batches are read (it always raises)."},
  {"property": "C99", "status": "partial", "theorems": ["C99_updates", "C99_bounded_partial", "C99_offset_never", "C99_offset_refuted", "C99_factored_refuted"], "note": "Proved for entries that are not factored, from states with at least decay_offset updates (momentum left out, numbers not rounded). False for a new state with decay_offset > 0: the power of a base that is not positive makes every update NaN in every step. False for factored parameters: their first step has no bound."}
]}
