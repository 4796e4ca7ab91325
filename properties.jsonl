{"id": "C01", "title": "Top-experts routing: chosen experts are the K best", "statement": "For every item of a group, top-experts-per-item routing selects exactly K distinct experts, no unselected expert has a strictly larger gate than a selected one, choices are ordered by decreasing gate, and ties go to the lower expert index; the combine weight of a choice is the item's gate for that expert.", "quantifier": "every group size, number of experts, K <= number of experts, every gate matrix over every totally ordered scalar type", "why_tests_cant": "Top-k with ties over arbitrary matrices; tests check a few literal matrices.", "anchors": ["vmoe/moe.py:get_top_experts_per_item_dispatcher", "vmoe/moe.py:_get_top_experts_per_item_common"]}
{"id": "C02", "title": "Top-experts routing: buffer slot = number of higher-priority competitors", "statement": "A (item, k-th choice) pair is given, in the buffer of its expert, the slot equal to the number of (item', k'-th choice) pairs that chose the same expert with higher priority, where all k'-th choices come before k-th choices for k' < k, and within the same k earlier items come first, or, with batch priority, items with larger maximum gate come first (ties by position). The pair is processed iff that number is smaller than the capacity.", "quantifier": "every gate matrix, K, capacity, with and without batch priority", "why_tests_cant": "The claim relates a cumsum/permutation/inverse-permutation pipeline to a priority order for all inputs, including ties.", "anchors": ["vmoe/moe.py:_get_top_experts_per_item_common", "vmoe/moe.py:_get_top_experts_per_item_einsum_dispatcher", "vmoe/moe.py:_get_top_experts_per_item_expert_indices_dispatcher"]}
{"id": "C03", "title": "Capacity is never exceeded and buffer slots are never shared", "statement": "In every group, no two items are dispatched to the same (expert, slot), every dispatched slot is below the capacity, so no expert receives more than `capacity` items from a group, and each item is dispatched to at most K experts and at most once to each expert. Slots are filled from 0 without holes.", "quantifier": "every gate matrix, K, capacity, batch_priority, both dispatcher types", "why_tests_cant": "Collision freedom is a universal statement about pairs of items.", "anchors": ["vmoe/moe.py:EinsumDispatcher", "vmoe/moe.py:ExpertIndicesDispatcher", "vmoe/moe.py:get_top_experts_per_item_dispatcher"]}
{"id": "C04", "title": "The einsum and indices dispatchers are interchangeable", "statement": "For the same gates, K, capacity and batch priority, dispatching any data with the 'einsum' dispatcher and with the 'indices' dispatcher yields the same expert inputs, and combining any expert outputs yields the same item outputs.", "quantifier": "every number of groups, gates, data, expert outputs, over every scalar ring with an order", "why_tests_cant": "Equality of two different algorithms over all inputs.", "anchors": ["vmoe/moe.py:EinsumDispatcher", "vmoe/moe.py:ExpertIndicesDispatcher", "vmoe/moe.py:_scatter_nd"]}
{"id": "C05", "title": "Dispatch/receive reordering is lossless and routes to the right expert", "statement": "Rearranging the per-group buffers (G,E,C) into per-expert buffers (E,G*C) and back is the identity in both code paths (groups a multiple of experts or not); all the data that expert e receives comes from the buffers for expert e, each (group, slot) appearing exactly once.", "quantifier": "every number of groups, experts and capacity", "why_tests_cant": "Reshape/swapaxes index arithmetic over all shapes; two branches dependent on divisibility.", "anchors": ["vmoe/moe.py:_dispatch", "vmoe/moe.py:_receive"]}
{"id": "C06", "title": "End-to-end meaning of a sparse MoE layer with top-experts routing", "statement": "If every expert acts on each buffer slot separately, the output for an item is the sum, over its choices that are kept (C02), of its gate for the expert times that expert applied to the item; an item all of whose choices were dropped yields zero. Outputs of one group do not depend on the data or gates of other groups.", "quantifier": "every number of groups, items, experts, capacity, gates, data and per-slot expert functions", "why_tests_cant": "Whole-pipeline functional correctness for all sizes.", "anchors": ["vmoe/moe.py:sparse_moe_spmd", "vmoe/moe.py:EinsumDispatcher", "vmoe/moe.py:ExpertIndicesDispatcher"]}
{"id": "C07", "title": "Top-items routing gives each expert exactly `capacity` best items", "statement": "With top-items-per-expert routing each expert processes exactly `capacity` distinct items of a group, no unselected item has a larger gate for that expert than a selected one, and the combine weight of each selected pair is its gate; the layer output of an item is the sum over the experts that selected it. If capacity exceeds the group size, the call fails.", "quantifier": "every gate matrix and capacity", "why_tests_cant": "Universal statement on all matrices, ties included.", "anchors": ["vmoe/moe.py:get_top_items_per_expert_dispatcher", "vmoe/moe.py:_get_top_items_per_expert_einsum_dispatcher"]}
{"id": "C08", "title": "Top-items routing metrics report what was routed", "statement": "num_experts_per_item_min/max are the min/max over items of the number of experts that selected the item; min/max_selected_gate are the min/max of the selected gates; ratio_processed_items_by_at_least_t is the fraction of items selected by at least t experts.", "quantifier": "every gate matrix and capacity", "why_tests_cant": "Must hold for all matrices.", "anchors": ["vmoe/moe.py:_get_top_items_per_expert_einsum_dispatcher"]}
{"id": "C09", "title": "Capacity computation", "statement": "compute_capacity returns the smallest positive multiple of `multiple_of` that is at least ceil (or round-half-to-even) of num_tokens*capacity_factor/num_experts, and fails iff that rounding is below 1 or the rounding mode is unknown. With 'ceil' the E*capacity slots are enough for num_tokens*capacity_factor tokens.", "quantifier": "all token counts, expert counts, rational capacity factors, rounding modes, multiples", "why_tests_cant": "Arithmetic over all integers; rounding half cases.", "anchors": ["vmoe/moe.py:compute_capacity"]}
{"id": "C10", "title": "Capacity computed from a factor is usable by top-items routing", "statement": "For top-items routing with a capacity factor of at most the number of experts, the computed capacity never exceeds the number of items in the group, so routing succeeds.", "quantifier": "all group sizes, expert counts, factors", "why_tests_cant": "Boundary interplay between rounding to a multiple of 4 and small groups.", "anchors": ["vmoe/moe.py:get_top_items_per_expert_dispatcher", "vmoe/moe.py:compute_capacity"]}
{"id": "C11", "title": "Dispatcher factories reject ambiguous capacity arguments and honour an explicit capacity", "statement": "Exactly one of capacity and capacity_factor must be given, otherwise ValueError; an explicit non-zero capacity is used as given; capacity = 0 never yields a dispatcher (it is treated as missing and raises); a capacity factor is applied to S*K/E (top-experts) or S/E (top-items).", "quantifier": "all argument combinations, including capacity = 0", "why_tests_cant": "Falsy-zero handling is easy to miss in tests.", "anchors": ["vmoe/moe.py:get_top_experts_per_item_dispatcher", "vmoe/moe.py:get_top_items_per_expert_dispatcher"]}
{"id": "C12", "title": "Partitioned checkpoints: save then restore is the identity", "statement": "If a tree of arrays is saved by all processes with save_checkpoint and every write succeeds, restore_checkpoint returns, on every process, for every leaf and under any target sharding, shards whose every element equals the saved array's element at the same global index; independently of the number of checkpoint shards, process count, chunk size limit and of the order in which shard files are read.", "quantifier": "all trees, shapes of any rank with nonzero sizes, all save shardings that cover the array, all restore shardings, any number of processes/shards, any chunk limit, any read order", "why_tests_cant": "Shardings x shapes x shard counts is unbounded; tests fix few meshes.", "anchors": ["vmoe/checkpoints/partitioned.py:save_checkpoint", "vmoe/checkpoints/partitioned.py:restore_checkpoint", "vmoe/checkpoints/partitioned.py:_restore_local_buffers", "vmoe/checkpoints/partitioned.py:_update_lazy_array_chunks_with_leaf"]}
{"id": "C13", "title": "Chunking partitions a shard and respects the size limit", "statement": "The chunks an array shard is broken into are pairwise disjoint, cover exactly the shard, and each holds at most max(max_chunk_bytes // itemsize, 1) elements.", "quantifier": "all slices of any rank and size, all limits", "why_tests_cant": "The greedy divisor search must work for every factorization of every dimension.", "anchors": ["vmoe/checkpoints/partitioned.py:_split_slicend", "vmoe/checkpoints/partitioned.py:_create_map_slicend_to_array_shards"]}
{"id": "C14", "title": "Every chunk is written exactly once, by a process that has the data", "statement": "Each chunk of each array is assigned to one checkpoint shard file, written by exactly one process, and that process holds an array shard containing the chunk; the internal error 'this is a bug, it should never happen' is unreachable.", "quantifier": "all shardings, process counts, shard counts (including fewer shards than processes, which is raised)", "why_tests_cant": "Requires reasoning on modular shard ownership for all process counts.", "anchors": ["vmoe/checkpoints/partitioned.py:_create_map_slicend_to_checkpoint_shard", "vmoe/checkpoints/partitioned.py:_find_smallest_ckpt_shard", "vmoe/checkpoints/partitioned.py:_update_lazy_array_chunks_with_leaf"]}
{"id": "C15", "title": "All processes agree on the checkpoint layout", "statement": "The mapping from chunks to checkpoint shards computed by each process is the same whatever order the process enumerates the global array shards in; hence the index written by process 0 describes the data files written by all others.", "quantifier": "all permutations of the enumeration of global shards on each process", "why_tests_cant": "Schedules/enumeration orders across hosts cannot be enumerated in tests.", "anchors": ["vmoe/checkpoints/partitioned.py:_create_map_slicend_to_checkpoint_shard", "vmoe/checkpoints/partitioned.py:_make_index_info"]}
{"id": "C16", "title": "Checkpoint shard sizes are balanced", "statement": "Chunks are placed on the currently smallest checkpoint shard among those owned by processes holding it; when every process holds every chunk, the byte sizes of any two checkpoint shards never differ by more than the size of the largest chunk.", "quantifier": "all sequences of chunk sizes and shard counts", "why_tests_cant": "Greedy balancing invariant over arbitrary histories.", "anchors": ["vmoe/checkpoints/partitioned.py:_find_smallest_ckpt_shard", "vmoe/checkpoints/partitioned.py:_create_map_slicend_to_checkpoint_shard"]}
{"id": "C17", "title": "Restore reads exactly the shard files it needs", "statement": "A process reads a checkpoint data file iff the file holds a chunk that intersects one of the array shards it must materialise.", "quantifier": "all shardings and indices", "why_tests_cant": "Universal over layouts.", "anchors": ["vmoe/checkpoints/partitioned.py:_find_ckpt_shards_to_restore"]}
{"id": "C18", "title": "Slice intersection is set intersection", "statement": "The intersection of two N-d slices contains exactly the indices in both, and is reported absent exactly when no index is in both (for rank >= 1 and bounded or unbounded stops).", "quantifier": "all slices with optional start/stop", "why_tests_cant": "Off-by-one errors at boundaries.", "anchors": ["vmoe/checkpoints/partitioned.py:_intersect_slicend"]}
{"id": "C19", "title": "Zero-size arrays survive a checkpoint round trip", "statement": "An array with a zero-size dimension that was saved successfully can be restored.", "quantifier": "all shapes with a zero dimension", "why_tests_cant": "Edge shapes not in tests.", "anchors": ["vmoe/checkpoints/partitioned.py:_restore_local_buffers"]}
{"id": "C20", "title": "A checkpoint file is replaced atomically", "statement": "At any crash point during save_checkpoint of a file the final path holds either its previous content (or absence) or the complete new content, never a partial write, and files other than the path and its temporary are untouched; a successful save leaves no temporary file.", "quantifier": "all crash points, all contents, all previous file-system states, concurrent saves to other paths in any interleaving", "why_tests_cant": "Crash points and interleavings.", "anchors": ["vmoe/checkpoints/base.py:save_checkpoint", "vmoe/checkpoints/base.py:save_multiple_checkpoints_async"]}
{"id": "C21", "title": "The latest complete checkpoint is really complete", "statement": "If a step is reported complete (with suffixes .index and .data) after a crash at any point of saving a multi-file checkpoint, then all the files of that step are present with their complete contents.", "quantifier": "all crash points and thread interleavings of the writers", "why_tests_cant": "Crash points and interleavings of many writers.", "anchors": ["vmoe/checkpoints/base.py:find_latest_complete_checkpoint_for_prefix", "vmoe/checkpoints/base.py:iterate_complete_steps_for_prefix"]}
{"id": "C22", "title": "Which steps are reported complete", "statement": "A step is yielded iff for every required suffix some file of the step with that suffix exists in final form and no temporary file of the same step and suffix exists; steps are yielded once each, in increasing (or decreasing) order, and the latest is the maximum.", "quantifier": "all sets of file names of checkpoint form", "why_tests_cant": "All directory states.", "anchors": ["vmoe/checkpoints/base.py:iterate_complete_steps_for_prefix"]}
{"id": "C23", "title": "Shard suffix can be added and removed", "statement": "remove_shard_suffix(add_shard_suffix(path, shard, count)) = path for any path without a shard suffix of its own; names of distinct (shard) under the same path and count are distinct.", "quantifier": "all strings (without newlines), all shard numbers", "why_tests_cant": "Regex with lazy/optional groups over all strings.", "anchors": ["vmoe/checkpoints/base.py:add_shard_suffix", "vmoe/checkpoints/base.py:remove_shard_suffix", "vmoe/checkpoints/base.py:CHECKPOINT_REGEX"]}
{"id": "C24", "title": "Checkpoint metadata encoding round trip", "statement": "Encoding then decoding slices, N-d slices, arrays of N-d slices, index info and array chunks returns the same value.", "quantifier": "all values of these types", "why_tests_cant": "Round trip over unbounded data.", "anchors": ["vmoe/checkpoints/serialization.py:_msgpack_ext_pack", "vmoe/checkpoints/serialization.py:_msgpack_ext_unpack", "vmoe/checkpoints/types.py"]}
{"id": "C25", "title": "The logical mesh uses every device exactly once", "statement": "When the devices have distinct hardware coordinates, a logical mesh built for P partitions is a (P, N/P) arrangement containing each of the N devices exactly once (P is lowered to N if larger); if P does not divide the devices an error is raised. Devices with colliding coordinates are left out silently.", "quantifier": "all device sets, hardware shapes, partition counts", "why_tests_cant": "All topologies.", "anchors": ["vmoe/partitioning.py:get_auto_logical_mesh", "vmoe/partitioning.py:get_logical_mesh", "vmoe/partitioning.py:get_logical_mesh_tile_by_process", "vmoe/partitioning.py:get_logical_mesh_default"]}
{"id": "C26", "title": "First matching rule decides the partitioning of a parameter", "statement": "Each parameter gets the partition spec of the first rule matching its full name; an unmatched one (or one of size at most one) is replicated; the result has the structure of the tree.", "quantifier": "all trees, rules, match relations", "why_tests_cant": "All trees.", "anchors": ["vmoe/partitioning.py:tree_axis_resources_from_regexes"]}
{"id": "C27", "title": "safe_zip never truncates silently", "statement": "Iterating safe_zip to exhaustion either yields all tuples of equally long inputs or raises; it never ends normally when inputs have different lengths.", "quantifier": "all numbers and lengths of iterables", "why_tests_cant": "All lengths.", "anchors": ["vmoe/utils.py:SafeZipIterator", "vmoe/utils.py:safe_map"]}
{"id": "C28", "title": "Mapping a checkpoint onto a model touches only matched parameters", "statement": "When initialising from a checkpoint by rules, each target parameter is either set from the source selected by the first rule matching the source name, after that rule's transformations, or left exactly as initialised; every key of the target is kept and no key is added; sources matched by 'ignore' rules change nothing; without permission flags an unmatched source or target is an error.", "quantifier": "all rule lists, source and target trees", "why_tests_cant": "All rule lists and trees.", "anchors": ["vmoe/initialization/mapping.py:map_state_dict", "vmoe/initialization/mapping.py:_flat_state_dict_mapping_build", "vmoe/initialization/mapping.py:_flat_state_dict_mapping_apply", "vmoe/initialization/rules.py:Rules"]}
{"id": "C29", "title": "Stacking experts follows their numeric order", "statement": "When several source parameters are stacked into one target, they are stacked in the numeric order of the integers in their names.", "quantifier": "all source names", "why_tests_cant": "All strings.", "anchors": ["vmoe/initialization/mapping.py:_natural_sort", "vmoe/initialization/rules.py:StackTransformation"]}
{"id": "C30", "title": "Warm-up + polynomial schedule", "statement": "The learning rate rises linearly from its initial value to the peak over the warm-up, is continuous at the boundary, then follows the polynomial decay to the end value and stays between end value and peak.", "quantifier": "all steps and real parameters", "why_tests_cant": "All real parameters.", "anchors": ["vmoe/train/schedule.py:warmup_polynomial_decay_schedule"]}
{"id": "C31", "title": "Reciprocal square-root schedule", "statement": "Warm-up is linear, the middle is peak*sqrt(timescale/(timescale+step-warmup)), cooldown linear to 0 at the last step; never negative and never above the peak for steps up to the total.", "quantifier": "all steps and real parameters", "why_tests_cant": "All real parameters.", "anchors": ["vmoe/train/schedule.py:big_vision_rsqrt_schedule"]}
{"id": "C32", "title": "Frozen parameters never change", "statement": "Whatever the optimizer, weight decay, clipping or scaling, a parameter matched as frozen (or not matched as trainable) has the same value after any number of updates; specifying both patterns is an error; other parameters get the update they would have without freezing.", "quantifier": "all parameter trees, gradients, histories of steps", "why_tests_cant": "All histories.", "anchors": ["vmoe/train/optimizer.py:create_optimizer", "vmoe/train/optimizer.py:freeze_weights"]}
{"id": "C33", "title": "Weight decay and gradient scaling use the first matching pattern", "statement": "Every parameter receives weight decay (gradient scaling) with the value of the first pattern matching its name, and none if no pattern matches.", "quantifier": "all trees and pattern lists", "why_tests_cant": "All trees.", "anchors": ["vmoe/train/optimizer.py:add_decayed_weights", "vmoe/train/optimizer.py:gradient_scaling"]}
{"id": "C34", "title": "Gradient accumulation equals the full-batch gradient", "statement": "Splitting a batch into microsteps uses each example exactly once, and for a loss that is a mean over examples the accumulated gradient and metrics equal those of the full batch.", "quantifier": "all batch sizes divisible by the microsteps, all example gradients", "why_tests_cant": "All sizes.", "anchors": ["vmoe/train/trainer.py:accumulate_gradients_and_metrics"]}
{"id": "C35", "title": "Mixup mixes images and labels consistently", "statement": "Every output image is a convex combination of images of the same device group with weights in decreasing order, and its label is the combination of the labels of the same images with the same weights; the label mass is preserved.", "quantifier": "all batches, group counts, mixing weights", "why_tests_cant": "All batches.", "anchors": ["vmoe/train/trainer.py:mixup"]}
{"id": "C36", "title": "Training resumes where it stopped", "statement": "For any crash point, restarting from the last saved state performs exactly the remaining steps: every step between 1 and the total is executed with the same state it would have in an uninterrupted run and the final saved state is the same.", "quantifier": "all crash points and checkpoint periods", "why_tests_cant": "Crash points/histories.", "anchors": ["vmoe/train/trainer.py:train_and_evaluate", "vmoe/train/trainer.py:restore_or_create_train_state"]}
{"id": "C37", "title": "Train steps and epochs are consistent", "statement": "Exactly one of steps/epochs must be given; from epochs the number of steps is the smallest one that covers epochs*examples examples; from steps the epochs are steps*batch/examples.", "quantifier": "all values", "why_tests_cant": "All values.", "anchors": ["vmoe/train/trainer.py:get_train_steps_and_epochs"]}
{"id": "C38", "title": "Evaluation metrics count every valid example once", "statement": "For a model that treats the examples of a batch one by one and finite losses, the reported precision and loss are the average over the valid examples of the dataset, independent of how examples are grouped into batches, their order and of the padding examples. (False without these conditions: a padding example with an infinite loss spoils the average, and in models that mix the examples of a batch padding changes the outputs.)", "quantifier": "all datasets, batchings and paddings", "why_tests_cant": "All batchings.", "anchors": ["vmoe/evaluate/evaluator.py:evaluate_step", "vmoe/evaluate/evaluator.py:evaluate_dataset"]}
{"id": "C39", "title": "Padding makes all processes see the same number of full batches and no real example is lost", "statement": "For an evaluation dataset without a filter (pre_filter_fn), with the computed number of fake examples every process iterates over the same number of batches, all full, and every real example appears in exactly one batch; the number of fake examples is minimal. (With a filter the claim is false.)", "quantifier": "all splits of examples among processes, all batch sizes", "why_tests_cant": "All splits.", "anchors": ["vmoe/data/builder.py:_get_num_fake_examples", "vmoe/data/input_pipeline.py:get_dataset"]}
{"id": "C40", "title": "Device prefetching does not change the data", "statement": "Iterating through the prefetching iterator yields exactly the items of the source, in order, for every prefetch size, for a source that ends without failing; at most `size` items are read ahead.", "quantifier": "all finite sources and sizes", "why_tests_cant": "All interleavings of consumer/producer.", "anchors": ["vmoe/data/pjit_utils.py:prefetch_to_device", "vmoe/data/pjit_utils.py:put_to_devices"]}
{"id": "C41", "title": "PGD adversarial images stay within epsilon", "statement": "After the attack every pixel differs from the original by at most max_epsilon, whatever the model and loss.", "quantifier": "all images, gradients, numbers of updates >= 1", "why_tests_cant": "All models.", "anchors": ["vmoe/projects/adversarial_attacks/attacks.py:stateless_attack_pgd"]}
{"id": "C42", "title": "Attack statistics ignore fake examples and are order independent", "statement": "When the attack and the model treat each image by itself and losses are finite, num_images, num_changes, num_correct, sum_loss and sum_iou accumulate only over valid images and do not depend on how images are batched or ordered. (With an infinite loss on a fake image the claim is false.)", "quantifier": "all batch sequences", "why_tests_cant": "All batchings.", "anchors": ["vmoe/projects/adversarial_attacks/attacks.py:stateful_attack", "vmoe/projects/adversarial_attacks/attacks.py:AttackState"]}
{"id": "C43", "title": "Soft MoE mixes convexly", "statement": "Every slot input of a Soft MoE layer is a convex combination (positive weights with sum 1) of the items of its own group, and every output a convex combination of the outputs of the slots of its own group, over all experts. Without noise every item enters every slot with a weight of at least exp(-2|scale|)/M, and permuting the items of a group permutes the outputs.", "quantifier": "all inputs, parameters, noises, group sizes, experts and slots (at least one of each)", "why_tests_cant": "All real logits.", "anchors": ["vmoe/projects/soft_moe/router.py:SoftRouter"]}
{"id": "C44", "title": "Auxiliary losses of both towers enter the contrastive objective", "statement": "In contrastive training the optimised total loss includes the auxiliary losses of the image and text towers.", "quantifier": "all metrics", "why_tests_cant": "The nested metrics dictionary silently hides the key.", "anchors": ["vmoe/projects/contrastive/trainer.py:train_step", "vmoe/projects/contrastive/models.py:TwoTower"]}
{"id": "C45", "title": "Reported combine weights describe what the layer used", "statement": "The combine weights extracted for analysis are, for each item and expert, the weight with which the layer combined that expert's output, for both dispatcher types.", "quantifier": "all gates, capacities, dispatcher types", "why_tests_cant": "Universal; depends on dropped items.", "anchors": ["vmoe/projects/adversarial_attacks/restore.py:get_combine_weights"]}
{"id": "C46", "title": "Ensemble routing keeps members separate", "statement": "Grouping tokens by ensemble member and back is the identity. Tokens of a member are routed only to the experts of this member, with the softmax over these experts as gates, and the outputs of a member depend only on its own tokens, router weights, noise and experts, not on those of other members, even with limited capacity. The encoder repeats the batch once per member exactly when it has a MoE layer.", "quantifier": "all batch sizes, ensemble sizes, group sizes, capacities, weights", "why_tests_cant": "Independence is a statement about all pairs of inputs and weights.", "anchors": ["vmoe/nn/ensemble_routing.py", "vmoe/nn/vit_moe_ensemble.py"]}
{"id": "C47", "title": "Ensemble losses and predictions use the mean of member probabilities", "statement": "The ensemble log-probability of an image is the log of the mean over its members of the members' probabilities, which sum to one; the evaluation loss is its cross entropy with the labels, where classes without label do not matter even with probability zero; it is never above the mean of the members' training losses; predictions are the first class of highest mean probability; and with one member all this coincides with the plain losses.", "quantifier": "all logits (also -inf), labels, batch and ensemble sizes", "why_tests_cant": "Inequalities and identities over all reals.", "anchors": ["vmoe/evaluate/ensemble.py", "vmoe/train/trainer.py:get_loss_fn"]}
{"id": "C48", "title": "Few-shot evaluation: sampling, results and choice of the L2 regularization", "statement": "The representation of a split has exactly its valid examples. For each number of shots, exactly min(shots, available) distinct training examples per class are used, all of the right class, and runs with more shots use all examples of those with fewer. The reported L2 value is the first one with the highest total rank over all datasets and seeds, and no other value is better on all of them. The reported metrics are the accuracies at that L2 value, the main task being their mean over seeds, and all iterators are reset for the next evaluation. A dataset with the same split for training and test raises ValueError.", "quantifier": "all models, datasets, batches, seeds, shots, L2 values, permutations and sorting functions", "why_tests_cant": "The claims hold for all data, permutations and results; tests cover a few fixed examples.", "anchors": ["vmoe/evaluate/fewshot.py:FewShotPeriodicAction", "vmoe/evaluate/fewshot.py:_compute_fewshot_metrics", "vmoe/evaluate/fewshot.py:_compute_representation", "vmoe/evaluate/fewshot.py:_find_best_l2_reg"]}
{"id": "C49", "title": "Processing pipeline is the left-to-right composition of its ops", "statement": "A processing string fn1|fn2|... gives a function that applies the operations from left to right until the first exception; an error in the text of an operation is raised when the function is made. Each operation reads and writes only the keys it is given (key, inkey, outkey); keep retains the given keys and the flag __valid__, and nothing else. The dictionary of the caller is modified in place until the first operation that makes a new one (keep, ignore_no_labels), and no other existing dictionary changes. In evaluation, every processed example has the flag __valid__, which is True unless ignore_no_labels found no labels.", "quantifier": "all processing strings, operations, dictionaries and states of memory", "why_tests_cant": "Tests run single operations and a few strings; composition, aliasing and the fate of the flag concern all sequences of operations.", "anchors": ["vmoe/data/input_pipeline.py:get_data_process_fn", "vmoe/data/input_pipeline.py:get_dataset", "vmoe/data/pp_ops.py"]}
{"id": "C50", "title": "Auxiliary losses of the router", "statement": "Per group, the importance loss is the squared coefficient of variation of the per-expert sums of the gates (non-negative, zero iff all experts have the same importance, at most E-1), the GShard loss is E times the dot product of the fraction of items whose first expert is e and the mean gate of e (in [0, E], 1 when items are spread evenly), and the load loss is the squared coefficient of variation of the mean probability of being among the K largest. The auxiliary loss is their weighted sum, where losses with non-positive weight do not contribute. The router fails iff K is not in 1..E.", "quantifier": "all logits, noise, weights and sizes", "why_tests_cant": "All reals.", "anchors": ["vmoe/nn/routing.py:_importance_auxiliary_loss", "vmoe/nn/routing.py:_gshard_auxiliary_loss", "vmoe/nn/routing.py:_load_auxiliary_loss", "vmoe/nn/routing.py:_weighted_sum"]}
{"id": "C51", "title": "Reported routing changes", "statement": "The sum of intersections over unions of selected experts lies between 0 and the number of images, and an attack that changes no routing weight reports no routing change.", "quantifier": "all batches, tokens, experts and weights", "why_tests_cant": "All weights, including tokens without experts.", "anchors": ["vmoe/projects/adversarial_attacks/attacks.py:sum_intersection_over_union", "vmoe/projects/adversarial_attacks/lib.py:run_pgd_attack"]}
{"id": "C52", "title": "Similarity metrics of the soft router", "statement": "The minimum and maximum similarities reported by the soft router are the lowest and highest cosine similarity between two different items (combine weights), two different slots (dispatch weights) and two different slot parameters (mu).", "quantifier": "all weights and parameters, at least two elements", "why_tests_cant": "The maximum depends on the sign of all the similarities; all reals.", "anchors": ["vmoe/projects/soft_moe/router.py:SoftRouter.get_metrics", "vmoe/projects/soft_moe/router.py:cosine_psim"]}
{"id": "C53", "title": "Auxiliary losses of all MoE layers enter the objective once", "statement": "The total loss optimised for a classifier is the mean loss of the examples plus the sum over the MoE layers of the encoder of their (group-averaged) auxiliary losses, each counted exactly once, and the metrics of every layer are reported; a MoE layer without auxiliary loss raises an error instead of being skipped.", "quantifier": "all depths, choices of MoE layers and layer metrics (numbers or one entry per group)", "why_tests_cant": "All depths and layer choices; a layer whose key is overwritten is silently lost.", "anchors": ["vmoe/nn/vit_moe.py:EncoderMoe", "vmoe/train/trainer.py:train_step"]}
{"id": "C54", "title": "Sigmoid contrastive loss", "statement": "The contrastive loss of image m is the sum over all texts n of log(1+exp(-logit)) for n=m and log(1+exp(logit)) otherwise; it is positive, permuting pairs permutes losses, the total is symmetric in images and texts, the logits are within exp(s) of the bias, and differing batch sizes raise ValueError.", "quantifier": "all embeddings, scales, biases and batch sizes", "why_tests_cant": "All reals and sizes.", "anchors": ["vmoe/projects/contrastive/trainer.py:sigmoid_loss", "vmoe/projects/contrastive/models.py:TwoTower"]}
{"id": "C55", "title": "The few-shot classifier is the exact ridge regression", "statement": "For a positive L2 value, the accuracy of few-shot evaluation is the fraction of test examples whose label is the first class with the highest score, where scores are the linear function of the features (normalized by the mean and standard deviation of the training examples) which uniquely minimizes the squared error to +-1 targets plus L2 times the squared weights, with the bias penalized 10000 times less. This holds both when there are more and when there are fewer examples than features. Hence it depends neither on the order of training examples, the choice of eigenvectors, or constants added to features, nor, when all training examples are used, on the seed.", "quantifier": "all features, labels, numbers of examples, features and classes, L2 values > 0, eigendecompositions", "why_tests_cant": "Optimality is a statement about all weights, for all data; tests compare a few examples.", "anchors": ["vmoe/evaluate/fewshot.py:_precompute_cache", "vmoe/evaluate/fewshot.py:_eig_fewshot_acc_fn"]}
{"id": "C56", "title": "Image and label operations do what their names say", "statement": "central_crop(h, w) returns the window in the middle of the image (margins differ by at most one pixel), and fails exactly when the crop is empty or larger than the image. resize_small(s) makes the smaller side exactly s and keeps the aspect ratio within half a pixel, so that resize_small(s)|central_crop(c) with 0 < c <= s never fails on a non-empty image. onehot of a list of labels is 'on' exactly at the listed classes, whatever the multiplicity, and fails when a label is out of range; of a single label it is 'on' at that class only. value_range maps in_min to vmin and in_max to vmax linearly, keeps order, is undone by value_range with exchanged ranges, treats each channel with its own range, and with clip_values gives values in [vmin, vmax] and does not change those that were in it, provided that vmin <= vmax (otherwise the image becomes constant).", "quantifier": "all images, sizes, labels, ranges", "why_tests_cant": "The claims quantify over all shapes and values; rounding cases (odd margins, halves) and multiplicities are not covered by examples.", "anchors": ["vmoe/data/pp_ops.py:central_crop", "vmoe/data/pp_ops.py:resize_small", "vmoe/data/pp_ops.py:onehot", "vmoe/data/pp_ops.py:value_range"]}
{"id": "C57", "title": "Calls written as strings mean what the same Python call means", "statement": "parse_call looks up a plain name in the default module and a dotted name in the module named by all parts except the last, with literal positional and keyword arguments in order; any other callee is a ValueError. The arguments are bound as in Python: positional ones first, then keywords, then defaults, and TypeError exactly for calls with too many, unknown, repeated or missing arguments; key, inkey and outkey are taken by the decorator and the rest is passed on.", "quantifier": "all strings, expressions, modules, parameters and arguments", "why_tests_cant": "Tests have a handful of strings; dotted names of any depth and all combinations of arguments are not enumerable.", "anchors": ["vmoe/utils.py:parse_call", "vmoe/data/pp_ops.py:InKeyOutKey"]}
{"id": "C58", "title": "Sparse transport plans have exact, sparse rows and are optimal when balanced", "statement": "The k-sparse routers turn the softmax of the logits into a transport plan: when tokens select experts, the weights of each token are probabilities with at most k nonzero entries; when experts select tokens, each expert receives exactly T/E from at most k tokens. The sums in the other direction are also as required (experts balanced, respectively token weights summing to one), and the plan is the best sparse plan for the similarity with squared 2-norm regularisation.", "quantifier": "all numbers of tokens, experts and k, all similarity matrices, all results of the inner solver, all sparse plans compared with", "why_tests_cant": "Tests run the solver on a few random matrices and check with tolerances; sparsity, exact sums and optimality concern all matrices and all states of an unconverged solver.", "anchors": ["vmoe/projects/sparsity_constrained_ot/ksparse_projection_routing.py:_max_l2_top_k", "vmoe/projects/sparsity_constrained_ot/ksparse_projection_routing.py:_get_sparsity_constrained_ot_algorithm"]}
{"id": "C59", "title": "Layers routed by transport plans combine the experts of the plan", "statement": "With the optimal transport routers the layer's output for an item is the sum, over the choices made by the plan that fit in the capacity, of the expert outputs with the combine weights: those of the plan, or the softmax gates for the same logits. Experts without weight in the plan do not contribute, and for sparse plans without softmax weights and with enough capacity the output is the full mixture given by the plan. Replacing weights of other than einsum dispatchers is a TypeError.", "quantifier": "all group sizes, numbers of experts, k, capacities, logits, plans, experts and items", "why_tests_cant": "Tests check shapes and a mocked dispatcher; the equality of the sparse layer with the mixture of the plan holds for all inputs or not at all.", "anchors": ["vmoe/projects/sparsity_constrained_ot/ot_routing.py", "vmoe/projects/sparsity_constrained_ot/ksparse_projection_routing.py", "vmoe/projects/sparsity_constrained_ot/kl_projection_routing.py"]}
{"id": "C60", "title": "Initialisation rules copy, stack and reshape arrays exactly", "statement": "With the rule expand_tile a parameter is the source repeated along the new axes: its shape is the shape of the source with the repetitions inserted at the axes, and every part along the new axes is an exact copy of the source. So a sparse layer upcycled from a dense one starts with identical experts, and its output is the dense output times the sum of the weights of the choices that are not dropped: the dense output itself if nothing is dropped and the weights sum to one. The i-th part of a stack is the i-th source, squeeze undoes the insertion of an axis, and reshape keeps the row-major order. Axes that are out of range or repeated, axes to squeeze whose size is not one, stacks of different shapes and other numbers of entries are errors.", "quantifier": "all arrays of any rank and size, all axes (positive and negative), repetitions, rules, state dicts, gates, capacities and dense layers", "why_tests_cant": "Tests apply each rule to one or two small arrays; that every expert is a copy at every index, for any combination of axes, and what this means for the output of the layer is quantified over all of them.", "anchors": ["vmoe/initialization/rules.py", "vmoe/initialization/mapping.py", "vmoe/moe.py"]}
{"id": "C61", "title": "Position embeddings are resized by interpolation and tokens are kept", "statement": "With the rule vit_zoom, position embeddings of a square grid are resized to the grid of the target by bilinear interpolation in which the corners coincide: a grid of the same size is unchanged, corners are kept, and no value leaves the range of the source. The class token of the result is the token of the source if it has one, and otherwise the token of the target (random values if the target has only a shape); if the target has none it is dropped. Shapes other than (1, tokens, size), different sizes and grids that are not square (plus one) are errors. The rule zoom gives the shape of the target with values in the range of the source.", "quantifier": "all grid sizes, embedding sizes, values, and the four combinations of tokens of source and target", "why_tests_cant": "Tests compare a few shapes with a call of scipy; range, corners and identity hold for all sizes and real values or not at all.", "anchors": ["vmoe/initialization/rules.py"]}
{"id": "C62", "title": "A prediction of the Vision Transformer depends only on its own image when groups do not mix images or experts have room for all tokens", "statement": "In inference (deterministic, no dropout or noise), if the number of tokens of an image is a multiple of the group size of the MoE layers, then VisionTransformerMoe returns for a batch exactly the predictions that it returns for each image alone, for every router and every capacity. More generally, parts of a batch that are a whole number of groups do not influence each other. If the experts have room for all tokens of a group - which is so when capacity_factor * num_selected_experts >= num_experts - then the prediction for an image is the same in all batches and at all places, whatever the group size, and the network is the one without MoE layers in which each token goes to the mixture of its K best experts. With one selected expert and no batch priority, predictions depend only on images at the same or earlier places. Without these conditions predictions do depend on other images of the batch (two counterexamples, one with a later image through batch priority). Batches whose tokens cannot be split into groups are rejected.", "quantifier": "all images, grids, parameters (embedding, norms, attention, experts, routers, heads), numbers of blocks and MoE layers, group sizes, capacities, batch sizes", "why_tests_cant": "Tests run a network on one random batch; that two batches never influence each other, and for which options they do, is a statement about all pairs of batches.", "anchors": ["vmoe/nn/vit_moe.py", "vmoe/moe.py", "vmoe/nn/routing.py"]}
{"id": "C63", "title": "sincos2d position embeddings identify the place of each patch", "statement": "With position_emb name sincos2d, the encoder of VisionTransformerMoe gets each patch with the embedding of its own row and column added (first half of the entries for the column, second half for the row, frequencies from 1 down to 1/temperature), and the class token, if there is one, unchanged. The network is the encoder without embeddings applied to these tokens, followed by the head on the first token (token, 0), the average of the tokens (gap) or the vector of MapHead (map). The embeddings have all the same norm, their scalar products depend only on the displacement between the places, and different places have different embeddings as long as the sides of the grid are at most six times the temperature. The options fail exactly for hidden sizes that are not multiples of four or below eight, for unknown names, and when position_emb is given as None; the encoder alone also needs h and w and sequences of h*w or h*w+1 tokens.", "quantifier": "all grids, hidden sizes, temperatures, images, with and without class token", "why_tests_cant": "Tests check shapes or a few grids; distinctness and dependence on the displacement are statements about all pairs of places and real frequencies.", "anchors": ["vmoe/nn/vit_moe.py"]}
{"id": "C64", "title": "No PRNG key is used twice in training, evaluation or few-shot evaluation", "statement": "In a training run, all keys given to calls of the model (for the updates of adversarial training and for the microsteps) and to mixup, together with the keys kept in the train state, are pairwise separate: no two are equal and none can be derived from another by splitting. The keys of model.init are different from all of them. Each name (dropout, gating, mixup...) has its own stream, derived from its first key; the state always keeps exactly the extra names; the model never gets the key params or, with mixup, the key mixup. Continuing from the keys of a checkpoint gives the same calls as an uninterrupted run. The only error is mixup without a key named mixup (ValueError). In an evaluation the batches of a dataset get separate keys, and all datasets and evaluations with the same seed get the same keys in the same order. Few-shot evaluation gives separate keys to all batches of a dataset, to datasets with different sub-seeds and, with seed_fold_in_step, to different steps; without it all steps use the same keys.", "quantifier": "all numbers of steps, batches, microsteps and PGD updates, all configurations of adversarial training and mixup, all lists of names, seeds, sub-seeds and steps", "why_tests_cant": "Tests check that one split gives different keys; that no key recurs, or descends from a used key, in an arbitrarily long run with nested wrappers is a statement about all executions.", "anchors": ["vmoe/utils.py", "vmoe/train/trainer.py", "vmoe/evaluate/evaluator.py", "vmoe/evaluate/fewshot.py", "vmoe/projects/adversarial_attacks/attacks.py"]}
{"id": "C65", "title": "No PRNG key is used twice in a run of adversarial attacks", "statement": "In a run of run_pgd_attack, all calls of the model (the updates of the images, and the evaluations of the images before and after the attack, for all batches) get different keys. As stated this is false: the keys for the images after the attack of a batch are used again for the images before the attack of the next batch, and the keys for the images before the attack are also those that are split for the updates. It holds in each batch, and for the updates of all batches.", "quantifier": "all numbers of batches and updates, names and seeds", "why_tests_cant": "Tests attack one batch with a mocked model; the reuse only appears across batches.", "anchors": ["vmoe/projects/adversarial_attacks/attacks.py", "vmoe/projects/adversarial_attacks/lib.py", "vmoe/utils.py"]}
{"id": "C66", "title": "A model description means the model it says", "statement": "The functions of vmoe_paper/common.py accept exactly the descriptions of the form \"ViT-V/P, E=e, K=k, Every|Last n, t Epochs\" (perhaps with a newline at the end), which can only be read in one way, and read each group of digits as the number it stands for. get_vmoe_config makes a model exactly if the variant is S, B, L or H, the patches have at least one pixel, there is at least one class and n >= 1 for \"Every n\"; everything else is a ValueError, or a ZeroDivisionError for patches of size 0. The model has the hidden size, blocks and heads of the variant (the heads divide the hidden size), MLPs of four times the hidden size, the experts, selected experts and patches of the description, and groups of the tokens of 8 images. \"Every n\" puts a MoE into exactly the blocks n, 2n, 3n..., \"Last n\" into the last n of every second block (all of them for n = 0), in increasing order. The copy of the code in pretrain_imagenet21k.py makes the same model, and the functions of the adversarial attacks agree on sizes and epochs. The optimizer gets the learning rate of the table, else a KeyError. last_n of the Soft MoE configurations gives the last n blocks.", "quantifier": "all strings, image sizes, numbers of classes, experts, selected experts, patches and positions", "why_tests_cant": "There are no tests for the configurations; strings and numbers are unbounded.", "anchors": ["vmoe/configs/vmoe_paper/common.py", "vmoe/configs/vmoe_paper/pretrain_imagenet21k.py", "vmoe/projects/soft_moe/configs/common.py", "vmoe/projects/adversarial_attacks/configs/common.py"]}
{"id": "C67", "title": "Predictions of the models of the shipped configurations and the batches they are made in", "statement": "With a model made by get_vmoe_config, parts of a batch with a multiple of 8 images each do not influence each other, and a batch with another number of images has no predictions. If the capacity factor of the evaluation times the number of selected experts is at least the number of experts (4.0 for 8 experts and 2 selected ones in vmoe_s32_last2_ilsvrc2012_randaug_light1.py), then all batches of a multiple of 8 images get predictions, and the prediction for an image does not depend on the batch and on its place. With the models of the Soft MoE paper (dense, experts choice, and soft router once its name can be found), the predictions for a batch are those for each of its images alone, whatever is dropped.", "quantifier": "all descriptions, image sizes, parameters of the network, batches and numbers of experts", "why_tests_cant": "Tests use small random networks on one batch; the claim relates all batches for all parameters.", "anchors": ["vmoe/configs/vmoe_paper/common.py", "vmoe/configs/vmoe_paper/vmoe_s32_last2_ilsvrc2012_randaug_light1.py", "vmoe/projects/soft_moe/configs/common.py", "vmoe/nn/vit_moe.py"]}
{"id": "C68", "title": "The options of the shipped configurations are accepted", "statement": "All configurations of the repository can be used for training as they are: the options of mixup are parameters of wrap_train_step_with_mixup and the routers can be found. As stated this is false: pretrain_imagenet21k.py sets mixup.mixup_size, which is not a parameter (TypeError before the first step), and the models of the Soft MoE paper with the soft router name it SoftRouter, which vmoe.nn.routing does not have (AttributeError). It holds for the options made by get_mixup_config and for the models of descriptions and of experts choice. Options of mixup are errors exactly if a name is not concentration, granularity or size.", "quantifier": "all mixup sections, all variants, patches, numbers of experts and slots", "why_tests_cant": "There are no tests for the configurations, and the router tests import the soft router directly.", "anchors": ["vmoe/configs/vmoe_paper/pretrain_imagenet21k.py", "vmoe/train/trainer.py", "vmoe/projects/soft_moe/configs/common.py", "vmoe/nn/vit_moe.py", "vmoe/utils.py"]}
{"id": "C69", "title": "Summaries of arrays are the values of the given operations", "statement": "A transformation of a TreeSummarizer over some axes (negative ones count from the end; all of them if none are given) keeps the number of axes, with size 1 for the reduced ones, and each entry of the result is the sum, mean, standard deviation, Frobenius norm, least or greatest of exactly those entries of the array whose index agrees along the other axes; it is NaN if one of these is. Transformations of a rule are applied one after the other; sums, means, norms and extreme values along some axes and then along others are those along all of them. A transformation is a ValueError exactly if its operation is unknown, its axes are out of range or repeated, or it takes an extreme value along an empty axis. The summarizer yields, for the arrays and then the rules in order, the entries of the transformed array (row-major) of each rule that matches the key; it fails, with ValueError, exactly if such a transformation fails or has more than max_summary_values entries (1 for a list of rules), and warns about exactly the rules that match no key.", "quantifier": "all arrays of any rank and shape, axes, sequences of transformations, patterns, rules and trees", "why_tests_cant": "The tests transform arrays of at most 4 entries; ranks, axes and sequences are unbounded.", "anchors": ["vmoe/train/tree_summarizer.py", "vmoe/train/trainer.py"]}
{"id": "C70", "title": "Each summary value has its own name among the metrics", "statement": "All values that a TreeSummarizer yields have different names, so that each of them is a metric of the training step, and the other metrics are unchanged. As stated this is false: a name is the key, the operations and the index of the entry, so an array w with the operation sum and an array w_sum without operations have the same name, and only the last value is kept. It holds for one rule and array, and if no key is another key followed by an underscore or a bracket: names are then different if the rules that match a key differ in their transformations, and equal names have equal values in any case. Metrics whose name does not begin with a key of the state or with params_grads/ (such as main_loss) are never changed.", "quantifier": "all trees, rules, patterns, shapes and metrics", "why_tests_cant": "Names depend on arbitrary keys, axes and indices; the tests compare three names.", "anchors": ["vmoe/train/tree_summarizer.py", "vmoe/train/trainer.py"]}
{"id": "C71", "title": "Logits of the contrastive model depend only on the pair, and evaluations rank as the logits do", "statement": "If the tokens of an image and of a text are whole numbers of routing groups, then in inference mode the logit that the two-tower model gives for an image and a text in any batch is the one it gives for this pair alone, for all routers and capacities. The text tower encodes the embedded tokens and takes, by pool_type, the last or first token, the average, the greatest entries or the output of MapHead of each text, and rejects other pool types and sincos2d position embeddings. The functions that the retrieval, zero-shot and few-shot evaluations call give embeddings whose inner products are the logits up to the positive scale and the bias, so they rank all pairs as the logits do; they reject inputs with both or neither of images and texts.", "quantifier": "all configurations of both towers, parameters, batches, images, texts and lengths", "why_tests_cant": "The tests check shapes and a few examples; that batches do not matter quantifies over all batches and routers.", "anchors": ["vmoe/projects/contrastive/models.py", "vmoe/projects/contrastive/trainer.py", "vmoe/nn/vit_moe.py"]}
{"id": "C72", "title": "Contrastive training with microsteps optimises the contrastive loss of the batch", "statement": "The losses and gradients of a contrastive training step are those of the sigmoid loss of all pairs of images and texts in the batch, with or without microsteps. As stated this is false: with m microsteps the step optimises the mean over the images of the logistic losses of only those pairs whose numbers are equal modulo m. All positive pairs take part, but for m >= 2 the negatives in other microbatches are lost; the loss is always strictly less than that of the batch, and its gradient can differ from zero where that of the batch is zero. Without microsteps it is the loss of the batch.", "quantifier": "all towers that embed examples one by one, parameters, batches, numbers of microsteps and of devices", "why_tests_cant": "No test compares contrastive steps with and without microsteps; the statement is about gradients for all batches.", "anchors": ["vmoe/projects/contrastive/trainer.py", "vmoe/train/trainer.py"]}
{"id": "C73", "title": "Reports of the zero-shot and retrieval evaluations", "statement": "The zero-shot evaluation writes the accuracy and the duration of each task under the name of the task, and the retrieval evaluation writes all metrics of both directions and the duration; names of different values differ, given extra metrics that are not None take precedence, and nothing else is written. An error in the evaluation of a task is raised before anything is written. The hooks evaluate all given datasets, or none if Big Vision is missing; a sharding without devices is an error if there are datasets. That the written duration of a zero-shot task is the time of its evaluation is false: it is the time since the start of the first task.", "quantifier": "all names, tasks, metrics, clocks and extra metrics", "why_tests_cant": "The tests use one task and mocked clocks; names and values of all tasks are unbounded.", "anchors": ["vmoe/projects/contrastive/evaluators.py", "vmoe/projects/contrastive/trainer.py"]}
{"id": "C74", "title": "What a training step does to the parameters", "statement": "After any number of training steps with any gradients, a step lowers every parameter that is not frozen by the learning rate of this step (the schedule at the number of steps done) times the sum of its weight decay times its value and the direction that the optimizer makes of its gradients so far; frozen parameters stay. The gradients are first multiplied by the factor of their name and then clipped; weight decay is neither clipped nor part of momentum or moments. The direction is the last gradient, or the sum of all gradients with momentum (SGD, with or without Nesterov), the ratio of the bias-corrected moments (Adam), or the average of the gradients over the roots of their second moments (Adafactor, for parameters without two large axes). With clipping the change in a step is bounded whatever the gradients: in norm by the rate times (clipping norm / (1 - momentum) + decay * norm of the parameters), with clipping by value in each entry. The reported norms are those of the gradients before scaling and clipping, of the change of the parameters and of the new parameters, over every entry once. An optimizer is created unless both kinds of clipping or both patterns are given, or the optimizer or the schedule is not known; 0 counts as not given.", "quantifier": "all configurations, parameters, histories of gradients, steps and entries", "why_tests_cant": "The tests check single updates of a few numbers; the statement is about all histories.", "anchors": ["vmoe/train/optimizer.py:create_optimizer", "vmoe/train/optimizer.py:gradient_clipping", "vmoe/train/optimizer.py:trace_momentum", "vmoe/train/train_state.py:apply_gradients_and_compute_global_norms"]}
{"id": "C75", "title": "Adam: bounded steps, and the effect of gradient scales", "statement": "With Adam (0 <= b1 <= b2 < 1) an entry changes in a step by at most the learning rate times (sqrt((1 - b1) / (1 - b2)) + decay * its size), whatever the gradients, scales and clipping. As the comment in create_optimizer says, scaling gradients is not a learning rate per parameter: with Adam without eps and clipping, positive scales make no difference at all; with SGD without weight decay and clipping, a scale multiplies all changes of the parameter.", "quantifier": "all configurations, histories of gradients, entries and scales", "why_tests_cant": "All histories of gradients.", "anchors": ["vmoe/train/optimizer.py:create_optimizer", "vmoe/train/optimizer.py:gradient_scaling"]}
{"id": "C76", "title": "Parameters are trained independently of each other", "statement": "The values of an entry of a parameter in a training depend only on its own initial value and its own gradients, not on those of other (for example frozen) parameters, unless the parameter is factored by Adafactor. As stated this is false with clipping by global norm: freezing is the last transformation, so the gradients of frozen parameters count in the norm and shrink the updates of the parameters that are trained. Without clipping by global norm it holds.", "quantifier": "all configurations, histories of gradients and entries", "why_tests_cant": "No test combines freezing and clipping; the statement compares all pairs of trainings.", "anchors": ["vmoe/train/optimizer.py:create_optimizer", "vmoe/train/optimizer.py:freeze_weights", "vmoe/train/optimizer.py:gradient_clipping"]}
{"id": "C77", "title": "Adafactor does not mix experts if min_dim_size_to_factor is above their number", "statement": "With min_dim_size_to_factor greater than the number of experts, Adafactor never factors a parameter over the axis of the experts: the values of the parameters of an expert in a training depend only on its own initial values and gradients (without clipping by global norm). If it is equal to the number of experts this can fail. The decay rate of the second moments is 0 in the first step and then between 0 and decay_rate_max, so an entry of a parameter that is not factored changes in a step by at most the learning rate times (1 / sqrt(1 - decay_rate_max) + decay * its size), for decay_offset 0.", "quantifier": "all shapes, axes, sorting permutations, histories of gradients and configurations", "why_tests_cant": "The docstring demands min_dim_size_to_factor >= num_experts + 1, but no test checks shapes or the effect; all shapes and histories are unbounded.", "anchors": ["vmoe/train/optimizer.py:scale_by_big_vision_adafactor"]}
{"id": "C78", "title": "A list of regular expressions means any of them", "statement": "make_match_fn_from_regex_list(regexes) returns a function that is true for exactly the strings in which at least one of the expressions is found, whatever alternatives, groups, anchors and lookaheads they contain; a single string means itself, and None, an empty string or an empty list gives None. The same holds for the lists of frozen and trainable patterns of the optimizer. As stated this is false: the expressions are joined as texts into one, so groups are renumbered (backreferences in the second and later expressions refer to groups of earlier ones), the same name of a group in two expressions is an error, and expressions that are errors can be accepted. It holds for expressions that compile on their own, have no name in common and use backreferences only where no earlier expression has a group.", "quantifier": "all lists of expressions (in the modelled part of the syntax) and all strings", "why_tests_cant": "The tests try two lists of two simple expressions; the texts and strings are unbounded.", "anchors": ["vmoe/utils.py:make_match_fn_from_regex_list", "vmoe/train/optimizer.py:freeze_weights"]}
{"id": "C79", "title": "The example storage loses and doubles nothing", "statement": "For any sequence of calls of ExampleStorage.store and write, with any steps and any interval of transfers other than 0, each write leaves a file with exactly the keys stored so far, each with all its arrays concatenated in the order of the calls; a write before anything is stored writes no file; further stores after a write extend it. An interval of 0 fails at the first store.", "quantifier": "all sequences of calls, steps, intervals, keys and arrays whose rows have one shape per key", "why_tests_cant": "The test stores a few arrays with one interval; the histories are unbounded.", "anchors": ["vmoe/projects/adversarial_attacks/lib.py:ExampleStorage", "vmoe/projects/adversarial_attacks/lib.py:savez_compressed"]}
{"id": "C80", "title": "The reports of an attack agree with the stored examples", "statement": "run_pgd_attack with stored examples (one process): the file holds the images, labels and marks of all batches in order, with the results of the attack at the same rows; and the scalars written can be recomputed from the file alone: the error and the mean loss before and after, the rate of changed predictions, and the routing changes of each router (one minus the mean intersection over union of the experts used), as rates over the images marked valid, so padding never counts. Storing examples does not change the scalars, nor any error.", "quantifier": "all datasets, batch sizes, masks, attacks, models with one shape of weights per router, and storage intervals", "why_tests_cant": "The test of run_pgd_attack replaces the attack by a mock; datasets, models and routings are unbounded.", "anchors": ["vmoe/projects/adversarial_attacks/lib.py:run_pgd_attack", "vmoe/projects/adversarial_attacks/attacks.py:stateful_attack"]}
{"id": "C81", "title": "Where the arrays of a train state come from", "statement": "restore_or_create_train_state: with a checkpoint of the training, its latest step is restored and no initialization is used; otherwise the state has exactly the structure of a fresh state, and each of its arrays is the one that the rules of the initialization assign to it from the other checkpoint, or, if no array of that checkpoint goes to it (and unmatched targets are allowed), the array of the fresh state at the same place. create_or_reuse_train_state keeps given arrays, takes missing ones from the fresh state, and fails if the fresh state lacks one. Names are without slashes; a slash in a name makes even a fresh state fail.", "quantifier": "all train states, fresh states, source checkpoints, rules and flags", "why_tests_cant": "The tests use one small state with mocked initialization; the trees and rules are unbounded.", "anchors": ["vmoe/train/trainer.py:create_or_reuse_train_state", "vmoe/train/trainer.py:restore_or_create_train_state", "vmoe/initialization/mapping.py:map_state_dict"]}
{"id": "C82", "title": "When a training run evaluates, reports and saves, and what", "statement": "A run from init_step evaluates exactly once, in order, at each step it executes that is the first (init_step + 1), the last (train_steps), in on_steps or a multiple of every_steps (or, with every_secs, if more time than that passed since the previous evaluation), and at no other step; always with the parameters after exactly that step's update. Few-shot evaluations do the same with their own options and never happen without options. A checkpoint is asked for at every step with the state after it, and forced at step 0 and at the end if missing, so with enough batches the evaluated final parameters are those of the saved final state. Progress is reported by the chosen process only, with the metrics of that step. All processes evaluate and save alike whatever their clocks, unless every_secs is used: then they may evaluate at different steps. every_steps = 0 raises ZeroDivisionError. The reported cost is the positive cost per device times steps times devices; it is not the cost of the training if earlier steps ran on another number of devices.", "quantifier": "all options, models, train steps, batches, initial steps, clocks and numbers of processes", "why_tests_cant": "The tests run a few steps with mocked hooks and one process; the schedule depends on every option, on the restart step and on clocks of other processes.", "anchors": ["vmoe/train/trainer.py:train_and_evaluate", "vmoe/train/trainer.py:create_evaluation_hook", "vmoe/train/trainer.py:create_fewshot_hook", "vmoe/train/trainer.py:create_progress_hook", "vmoe/train/trainer.py:make_train_cost_fn", "vmoe/train/periodic_actions.py:ReportProgress", "vmoe/utils.py:get_flops_and_seconds_per_device"]}
{"id": "C83", "title": "Dispatching in bfloat16 only rounds the inputs and outputs of the experts", "statement": "With the dispatcher option bfloat16 (always, in Soft MoE), a layer chooses the same experts, keeps the same choices and uses the same weights as without it: its output is the same weighted sum, with the inputs and the outputs of the experts rounded to the nearest bfloat16 (ties to even). For experts with Lipschitz constant L and inputs of size at most B, the output for an item differs by at most the sum of |gate| (L eta(B) + eta(|output|)) over its kept choices, with eta(b) = 2^-8 b + 2^-134; in Soft MoE by at most L eta(B) + eta(H), whatever the number of items, experts and slots. Nothing changes if inputs and outputs are bfloat16 numbers already, and wrapping twice is wrapping once. Results do differ otherwise (257 becomes 256). Expert outputs of an integer dtype come back truncated to integers, unlike without the option.", "quantifier": "all reals, gates, group sizes, numbers of experts, choices, capacities, expert functions, and dispatchers", "why_tests_cant": "The test checks dtypes around a mocked dispatcher; it compares no values, and bounds for all inputs and expert functions cannot be sampled.", "anchors": ["vmoe/moe.py:Bfloat16Dispatcher", "vmoe/moe.py:_cast_to_bfloat16", "vmoe/nn/routing.py:NoisyTopExpertsPerItemRouter", "vmoe/nn/routing.py:NoisyTopItemsPerExpertRouter", "vmoe/projects/soft_moe/router.py:SoftRouter"]}
{"id": "C84", "title": "Which examples a model is trained on", "statement": "Whatever the random numbers, the order of files and the timing of parallel calls, the examples a process has drawn for training after N steps, together with as many as the shuffle buffer (B) and the parallel calls (P) hold, are the first N*b+B+P of an endless sequence of complete passes over its examples that pass the filter, each exactly once. So the number of times that examples with any given property were drawn is at most that of the passes begun, and at least that of the full passes minus B+P; every one of n examples is drawn within n(B+P+1). Bad batch sizes and shuffle buffers raise ValueError, and without data there is no batch. Options accepted when creating a dataset are accepted when counting its examples. It is not true that one epoch draws each example once, that the epochs count filtered examples (the count ignores the filter), or that a continued run goes on with new examples (it begins again).", "quantifier": "all data, filters, file orders, random numbers, timings, buffer sizes, batch sizes, process counts and numbers of steps", "why_tests_cant": "The tests mock the builder and look at a few batches; the shuffling is random and endless, and its guarantees concern all random outcomes and all numbers of steps.", "anchors": ["vmoe/data/input_pipeline.py:get_dataset", "vmoe/data/input_pipeline.py:get_datasets", "vmoe/data/input_pipeline.py:get_data_num_examples", "vmoe/data/builder.py:TfdsBuilder", "vmoe/train/trainer.py:get_dataset_iterator"]}
{"id": "C85", "title": "Initialization from saved checkpoints", "statement": "Initializing from a V-MoE checkpoint gives exactly what mapping the arrays as they were in memory when saved gives (C28): same result or same error, whatever the numbers of processes that saved and restore, the number of files, the size of chunks, the mesh, the partitioning rules and the order of the reads; the only other outcome is the error of a spec that does not fit the array it is chosen for. So every parameter of the result is as initialised or comes from the saved array that the rules send to it. The same holds for checkpoints from before 2022/06/22 if the target has the containers and names that were saved, and if some name is only in one of them it is a ValueError. A VisionTransformer checkpoint gives the mapping of its arrays with two-byte void types read as bfloat16; other void types are an AssertionError. It is not true that names equal to those saved are enough for old checkpoints: with another kind of container the arrays can be swapped silently.", "quantifier": "all pytrees of arrays, shardings, process counts, options for saving, regexes, mapping rules and flags, interleavings", "why_tests_cant": "The tests restore one small tree with mocked checkpoints on one process; that the composition of index, shards, slices and mapping never moves a value concerns all trees and all placements.", "anchors": ["vmoe/initialization/initialization.py:initialize_from_vmoe", "vmoe/initialization/initialization.py:initialize_from_vit", "vmoe/checkpoints/partitioned.py:restore_checkpoint", "vmoe/initialization/mapping.py:map_state_dict"]}
{"id": "C86", "title": "Processes keep in step", "statement": "Whatever the interleaving of the processes of a multi-host run, of the background saves of the checkpoint manager and of the threads that write files: (training) if the evaluation and few-shot hooks act at the same steps on all processes, then no process raises or waits forever for the others, every execution is finite, and it ends with the checkpoint of the last step complete, for any checkpoints in the directory at the beginning (fresh, resumed or already completed runs) and any policy of saving and removing checkpoints; (saving) a partitioned checkpoint saved by all processes with makedirs never finds its directory missing, and all files of all processes are there at the end; without makedirs this holds if the directory exists; (barriers) no process passes sync_devices before all have called it, and then exactly those whose name has the CRC-32 of the name of the main process go on and the others raise ValueError; names that differ only within four consecutive bytes are always told apart. It is not true that processes whose hooks act by the clock (every_secs) keep in step: they can wait for each other forever. It is not true that different names are always told apart.", "quantifier": "all numbers of processes and devices, steps, saving policies, initial directories and checkpoints, names, interleavings", "why_tests_cant": "The tests run on one process with simulated devices; deadlocks and races depend on the interleaving of many processes.", "anchors": ["vmoe/multihost_utils.py:sync_devices", "vmoe/checkpoints/partitioned.py:_make_dir_sync", "vmoe/checkpoints/partitioned.py:save_checkpoint", "vmoe/train/trainer.py:create_checkpoint_manager", "vmoe/train/trainer.py:train_and_evaluate"]}
{"id": "C87", "title": "Derivatives through a sparse MoE layer", "statement": "The tangent that jax computes for the output of a sparse MoE layer is, for every item, the sum over the experts that process it (chosen, and with room in their buffer) of gate' * y + gate * y', with the same choices as without differentiation, ties included; einsum and indices dispatchers agree, and the same holds for experts that choose items. Gates and experts that do not process an item have no influence on its tangent: only the router's softmax carries gradients to the logits of experts that were not chosen, with its exact derivative. If no two of the compared gates are equal (the gates of an item; with batch priority also the largest gates of two items; the gates of an expert when experts choose items), the tangent is the derivative of the layer along every differentiable path of gates, items and expert parameters. At ties it is not: the layer may be discontinuous there, and jax returns a tangent all the same.", "quantifier": "all sizes, capacities, gates, tangents, experts and differentiable paths", "why_tests_cant": "Tests compare outputs for a few gates; that the derivative is right concerns all directions at all points without ties.", "anchors": ["vmoe/moe.py:sparse_moe_spmd", "vmoe/moe.py:_get_top_experts_per_item_common", "vmoe/moe.py:get_top_experts_per_item_dispatcher", "vmoe/moe.py:get_top_items_per_expert_dispatcher", "vmoe/nn/routing.py:NoisyTopExpertsPerItemRouter"]}
{"id": "C88", "title": "Gradients of the losses of the router", "statement": "The gradients that jax computes for the auxiliary losses of the router are finite and are the partial derivatives of the losses: of the GShard loss when every item has a single largest gate (only the mean gates carry gradients), of the importance loss for positive gates, and of the load loss when no noisy logits of an item are equal; and a loss whose weight is not positive adds nothing, not even NaN. This is true of the importance loss unless all experts have the same importance, and of the load loss unless all have the same chance; there the losses are 0 with derivative 0, but every gradient is NaN, because the root in the standard deviation has no derivative at 0. So a router with one expert, or with equal gates, gets NaN gradients for every input as soon as the importance loss has a positive weight (the default).", "quantifier": "all group sizes, numbers of experts, gates, logits, noise, weights and differentiable paths", "why_tests_cant": "The tests check values of the losses for a few inputs, not their gradients, and not the inputs where the rule of the square root breaks down.", "anchors": ["vmoe/nn/routing.py:_gshard_auxiliary_loss", "vmoe/nn/routing.py:_importance_auxiliary_loss", "vmoe/nn/routing.py:_load_auxiliary_loss", "vmoe/nn/routing.py:_weighted_sum"]}
{"id": "C89", "title": "Soft MoE layers are differentiable everywhere", "statement": "The outputs of a Soft MoE layer are differentiable at every point, along every differentiable path of the inputs, the parameters mu and scale, and differentiable experts, and jax's rules compute exactly this derivative: there is no condition on ties, on zero inputs or parameters, on the noise or on the numbers of items, experts and slots. The tangents of the logits are at most |scale'| + 1000 |scale| (|x'| + |mu'|), also where an input or a parameter is zero, and those of the dispatch and combine weights at most twice that bound times the weight.", "quantifier": "all sizes, inputs, parameters, noises, differentiable experts and differentiable paths", "why_tests_cant": "Differentiability at every point, in every direction, including the degenerate ones.", "anchors": ["vmoe/projects/soft_moe/router.py:SoftRouter", "vmoe/projects/soft_moe/router.py:normalize", "vmoe/moe.py:EinsumDispatcher", "vmoe/moe.py:sparse_moe_spmd"]}
{"id": "C90", "title": "Safe gradients of multiply_no_nan", "statement": "Where x is 0, the gradients of multiply_no_nan(x, y) with respect to x and y are both 0, whatever y and the cotangent (infinite or NaN included); for numbers x, cotangents, and y wherever x is not 0, value and gradients are never infinite or NaN. A single jnp.where has the same values but NaN gradients there. The gradients are the partial derivatives for all numbers x and y, with one exception: with respect to x, at x = 0, 0 is returned but the derivative is y. In the cross entropy of an ensemble, the gradient with respect to the log-probabilities is minus the label for every class, also for classes without label of log-probability -inf.", "quantifier": "all numbers, infinities and NaN; all differentiable paths", "why_tests_cant": "Tests compare values for a few inputs; gradients at infinities need the rules for all combinations.", "anchors": ["vmoe/utils.py:multiply_no_nan", "vmoe/evaluate/ensemble.py:_multiply_no_nan", "vmoe/evaluate/ensemble.py:ensemble_softmax_xent_eval"]}
{"id": "C91", "title": "Mean similarities of the soft router", "statement": "The mean similarities reported by the soft router are the mean cosine similarity over all pairs of different items of a group (combine weights), different slots (dispatch weights) and different slot parameters (mu).", "quantifier": "all weights, parameters, numbers of groups, items, experts and slots", "why_tests_cant": "All reals; the code subtracts a diagonal of exact ones that the regularised similarities do not have.", "anchors": ["vmoe/projects/soft_moe/router.py:SoftRouter.get_metrics", "vmoe/projects/soft_moe/router.py:cosine_psim"]}
{"id": "C92", "title": "Balance of the plans of KL-projection routers", "statement": "The transport plans of the routers with KL projections (Sinkhorn's algorithm) have rows that are probability vectors with positive entries and columns that sum to the same expected number of tokens, group_size / num_experts, and no plan with these sums has a greater similarity plus entropy.", "quantifier": "all logits, group sizes, numbers of experts and of iterations", "why_tests_cant": "All real matrices and numbers of iterations; tests look at one plan with a tolerance.", "anchors": ["vmoe/projects/sparsity_constrained_ot/kl_projection_routing.py:KLProjectionNoisyTopExpertsPerItemRouter._get_kl_projection_algorithm", "vmoe/projects/sparsity_constrained_ot/kl_projection_routing.py:KLProjectionNoisyTopItemsPerExpertRouter._get_kl_projection_algorithm"]}
{"id": "C93", "title": "Plans of the sparse projection router", "statement": "The router with squared 2-norm regularised transport turns the softmax of the logits into a sparse plan whose rows are probability vectors and whose columns sum to the same expected number of tokens, group_size / num_experts, and it is the only best such plan for the similarity less half the sum of squares.", "quantifier": "all similarity matrices, group sizes, numbers of experts, results of the inner solver and plans compared with", "why_tests_cant": "Tests run the solver on a few random matrices with tolerances; exact sums and optimality concern all matrices and all states of an unconverged solver.", "anchors": ["vmoe/projects/sparsity_constrained_ot/sparse_projection_routing.py:_get_squared_l2_ot_algorithm", "vmoe/projects/sparsity_constrained_ot/sparse_projection_routing.py:SparseProjectionTransportTopItemsPerExpertRouter"]}
{"id": "C94", "title": "Options of routers and of nested layers", "statement": "The router of a MoE layer is created with the options of the dictionary router, then those of the call string that names its class, and the number of experts, data type and (unless given) deterministic of the layer; each option is passed exactly once, an option that can not be honoured is an error, and ensemble layers pass their ensemble size. partialclass passes positional arguments from the innermost to the outermost and the keyword of the outermost. split_rngs splits exactly the streams it names.", "quantifier": "all layers, router dictionaries, call strings and results of parsing them, ensemble sizes, nested partial classes and values of split_rngs", "why_tests_cant": "Tests create a few routers; which of several sources of an option wins concerns all combinations of keys.", "anchors": ["vmoe/nn/vit_moe.py:MlpMoeBlock.create_router", "vmoe/nn/vit_moe.py:MlpMoeBlock.create_split_rngs", "vmoe/nn/vit_moe_ensemble.py:MlpMoeWithNoisyTopExpertsPerItemEnsembleRouter.create_router", "vmoe/utils.py:partialclass"]}
{"id": "C95", "title": "The trained, evaluated and attacked models and losses are the same", "statement": "The model that a run trains and evaluates, the towers of a contrastive model, and the model that is attacked are the class of the call string with its positional arguments, and every option of the configuration and of the call string exactly once; models can be made from a configuration any number of times; a model that is trained can be attacked and conversely, with the same options, loss and mesh; and the attack increases the loss that training decreases.", "quantifier": "all configurations, call strings and results of parsing them, losses, auxiliary losses, numbers of partitions and devices", "why_tests_cant": "Tests make a few models; which of two sources of an option wins, and whether separate functions agree, concerns all combinations.", "anchors": ["vmoe/train/trainer.py:create_flax_model", "vmoe/train/trainer.py:get_loss_fn", "vmoe/projects/adversarial_attacks/restore.py:restore_from_config", "vmoe/projects/adversarial_attacks/restore.py:get_loss_including_auxiliary_fn", "vmoe/projects/adversarial_attacks/restore.py:create_mesh", "vmoe/projects/contrastive/models.py:TwoTower"]}
{"id": "C96", "title": "Batches are as they are declared to the compiler", "statement": "Every array of a batch that a step gets has the shape, type and sharding that get_dataset_shape_dtype_struct declared for it when the step was compiled, with the rows of all processes; structures can be declared exactly if the number of rows of each array is known and the mesh is not empty, and batches can be placed exactly if the devices of a process divide their rows; so one compilation does for all batches.", "quantifier": "all numbers of processes, meshes, element specs, batches that conform to them", "why_tests_cant": "Tests run with one process and few devices; the two functions compute the global shape separately and must agree for all of them.", "anchors": ["vmoe/data/pjit_utils.py:get_dataset_shape_dtype_struct", "vmoe/data/pjit_utils.py:prefetch_to_device"]}
{"id": "C97", "title": "Initialisation from an Orbax checkpoint uses exactly what was saved", "statement": "initialize_from_orbax asks for every array of the checkpoint with the shape and type recorded in its .zarray file and the sharding of the first rule that matches its name, and for other values as they are; so what is mapped onto the target is exactly what was saved, at the names at which it was saved, and the sharding rules for reading never change the result; and every checkpoint whose arrays can be read and laid out can be used, with any rules.", "quantifier": "all checkpoints (nested dicts of arrays, values and None), directories, partitioning rules, mapping rules and targets", "why_tests_cant": "Tests restore one small checkpoint; that flattening, renaming and rebuilding the structure keeps every leaf in place, and which structures cannot be used, concerns all nested dicts and rules.", "anchors": ["vmoe/initialization/initialization.py:initialize_from_orbax", "vmoe/partitioning.py:tree_axis_resources_from_regexes"]}
{"id": "C98", "title": "What is cached is what was asked for", "statement": "Caching of dataset builders, few-shot datasets and compiled evaluation steps cannot be seen: every dataset is read by the builder that its own configuration describes; every few-shot evaluation, at every step and for every seed, uses all batches of the training and test splits of every task, also if tasks share datasets; and every dataset is compiled and reported once, at the first evaluation, to what it would be compiled to at the others. Failed calls are not cached.", "quantifier": "all sequences of calls, configurations, few-shot tasks, seeds, evaluation steps", "why_tests_cant": "Tests make one builder or evaluate one step; the caches live for a whole process, and their effect depends on the history of calls.", "anchors": ["vmoe/data/builder.py:_get_tfds_builder", "vmoe/evaluate/fewshot.py:_get_datasets", "vmoe/evaluate/fewshot.py:FewShotPeriodicAction", "vmoe/evaluate/evaluator.py:EvaluateMultipleDatasets"]}
{"id": "C99", "title": "Adafactor makes numbers, of bounded size", "statement": "For all gradients, Adafactor (scale_by_big_vision_adafactor) makes updates that are numbers, of absolute value at most 1 / sqrt(1 - decay_rate_max) in every step: for entries that are not factored they are the gradients over the roots of averages of their squares. This also holds for decay_offset set to the first step of a fine-tuning, as its documentation suggests, and for factored parameters.", "quantifier": "all histories of gradients, decay rates, offsets, initial states", "why_tests_cant": "Tests make the optimizer, and do not run it with an offset or with many gradients; sizes of gradients are unbounded.", "anchors": ["vmoe/train/optimizer.py:scale_by_big_vision_adafactor"]}
