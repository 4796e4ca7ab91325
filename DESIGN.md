# Formal model of google-research/vmoe: design

Everything is in `rocq/theories` (Coq 8.16.1, logical name `Verif`).  The code in
`/repo` was read as text; nothing was executed.

## Layout

For each area `X` of the code base there are up to four files:

* `XModel.v`  – executable Gallina definitions mirroring the Python functions branch by
  branch.  Exceptions are values (`option`, or a result type with an error tag).  Each
  definition cites file and lines.  No proofs.
* `XSpec.v`   – the small independent vocabulary used to state properties.
* `XProofs.v` – lemmas.
* `XProps.v`  – only the property theorems (each closed by `exact`), the non-vacuity
  `Example`s, and `Print Assumptions`.

## Modelling conventions

* Arrays are total functions of their indices together with explicit dimensions passed
  as arguments; `reshape` is expressed by row-major flattening (`/`, `mod`) and
  `swapaxes` by permuting arguments.  Every theorem restricts indices to the array's
  shape, so the value outside the shape is irrelevant.
* Scalars: routing is generic over any totally (pre)ordered scalar type with the
  ring laws a theorem needs (given as fields of a record, instantiated at `Z` in the
  examples).  Floating-point rounding, NaN and infinities are not modelled.
* Schedules, losses and mixing are over Coq's reals.
* `jax.lax.top_k` / `jnp.argsort` are modelled as stable sorts of indices (top_k:
  descending, ties to the lower index, error if k exceeds the row length).
* File systems are finite maps from path to content; a crash is the truncation of the
  sequence of primitive operations at any point; concurrency is any interleaving.
* Regular expressions supplied by the user are modelled by an arbitrary match predicate
  or relation; the fixed checkpoint regular expression is modelled by an explicit
  backtracking matcher.

## Plan per property

| Property | Model | Proof idea |
|---|---|---|
| C01 | `top_k` as stable sort on indices | sortedness, stability, permutation of stable insertion sort |
| C02 | `_get_top_experts_per_item_common` as function tensors | count of one-hot prefix = number of higher-priority pairs, `argsort` of a permutation is its inverse |
| C03 | both dispatcher builders | corollary of C02 (ranks among competitors are injective) |
| C04 | dispatchers' `dispatch`/`combine` | sums with at most one non-zero term, re-indexing sum over experts by sum over choices |
| C05 | `_dispatch`, `_receive` | div/mod arithmetic |
| C06 | `sparse_moe_spmd` | C02 + C04 + C05 |
| C07, C08 | top-items dispatcher and metrics | C01 lemmas on columns; counting |
| C09–C11 | `compute_capacity`, factories | integer arithmetic on rationals; refutation witnesses for C10, C11 |
| C12–C19 | `partitioned.py` save and restore as pure functions from a sharding description to file contents and back | per-element reasoning on slices, induction on lists of chunks, invariance under permutations |
| C20–C22 | file-system traces of `base.py` | invariant over all prefixes of all interleavings; refutation witness for C21 |
| C23 | backtracking matcher for `CHECKPOINT_REGEX` on character lists | induction on strings |
| C24 | ext pack/unpack on a msgpack value type | structural induction |
| C25, C26 | `partitioning.py` | permutations of products, first-match lookup |
| C27 | `SafeZipIterator` as a state machine | induction on lengths |
| C28, C29 | `mapping.py`, `rules.py` with abstract match relation | induction on rules / sources; witness for C29 |
| C30, C31 | `schedule.py` over R | real analysis inequalities |
| C32, C33 | optimizer chain as a list of transformations on association lists | induction on steps |
| C34 | micro-step split and accumulation over R | reordering of finite sums |
| C35 | `mixup` over R | convexity, rolls are permutations |
| C36, C37 | training loop as a state machine | induction on steps, crash = truncation |
| C38, C42 | evaluator/attack accumulators | fold fusion, permutations |
| C39, C40 | fake examples, batching, prefetch queue | arithmetic; queue invariant |
| C41 | PGD loop over R | induction on updates |
| C43, C47, C50 | softmax etc. over R | sums and positivity |
| C44, C45 | metrics dictionaries, combine-weight extraction | refutation witnesses + positive part |
| C46 | ensemble reshapes and block-diagonal gates | div/mod arithmetic |
| C48, C49 | selection of indices, composition of ops | induction |

## Trusted base

* The kernel of Coq 8.16.1 (including `vm_compute`, which is used for examples and
  refutation witnesses).
* The axioms of the standard library that `Print Assumptions` lists; see the last
  section.  There are no other axioms.
* That the definitions in the `*Model.v` files say what the Python code does.  Nothing
  connects them mechanically; the comments cite the lines.
* That the statements in `*Props.v`, with the vocabulary of `*Spec.v`, say what
  `properties.jsonl` says.
* The behaviour of external libraries as described below.

### What is modelled

| Files | Code |
|---|---|
| `Prim`, `Moe*` | `vmoe/moe.py` (dispatchers, `sparse_moe_spmd`, capacity), `vmoe/nn/routing.py` (dispatcher factories, without noise) |
| `Ckpt*`, `Ser*`, `Base*` | `vmoe/checkpoints/partitioned.py`, `types.py`, `serialization.py`, `base.py` |
| `Mesh*`, `Tree*` | `vmoe/partitioning.py`, `SafeZipIterator` of `vmoe/utils.py` |
| `Map*` | `vmoe/initialization/mapping.py`, `rules.py` |
| `Sched*`, `Opt*` | `vmoe/train/schedule.py`, `optimizer.py` |
| `Step*`, `Mix*`, `Loop*` | `vmoe/train/trainer.py`: gradient accumulation, initial accumulators, mixup, train loop, restoring |
| `Eval*` | `vmoe/evaluate/evaluator.py` |
| `Few*`, `Fit*` | `vmoe/evaluate/fewshot.py` |
| `Elm*` | `vmoe/evaluate/ensemble.py`, `get_loss_fn` of the trainer |
| `Data*` | `vmoe/data/builder.py` (splits), `input_pipeline.py` (`get_dataset`), `pjit_utils.py` |
| `Pp*` | `vmoe/data/input_pipeline.py` (`get_data_process_fn`), `pp_ops.py`, `parse_call` of `vmoe/utils.py` |
| `Soft*` | `vmoe/projects/soft_moe/router.py` |
| `Aux*` | auxiliary losses of `routing.py` and of the trainers, `vmoe/projects/contrastive` losses and logits |
| `Cw*`, `Att*` | `vmoe/projects/adversarial_attacks` (`attacks.py`, parts of `restore.py` and `lib.py`) |
| `Ot*` | `vmoe/projects/sparsity_constrained_ot`: `ot_routing.py`, `ksparse_projection_routing.py`, gates of `kl_projection_routing.py` (`sparse_projection_routing.py` and the Sinkhorn and LBFGS solvers are not modelled) |
| `Vit*` | `vmoe/nn/vit_moe.py` in inference: routing in groups, blocks, position embeddings, classifiers |
| `Rng*` | PRNG keys: `vmoe/utils.py` `make_rngs`, `tree_rngs_split`; the keys of the calls in `trainer.py`, `evaluator.py`, `fewshot.py`, `adversarial_attacks` |
| `Cfg*` | configurations: `vmoe/configs/vmoe_paper/common.py`, `pretrain_imagenet21k.py` (74-76, 108-216), `vmoe/projects/soft_moe/configs/common.py` (190-264), `vmoe/projects/adversarial_attacks/configs/common.py` (30-35, 91-138); names of routers in `create_router`, keywords of mixup |
| `Con*` | `vmoe/projects/contrastive`: text tower, both towers, evaluation functions, training steps with microsteps, reports of `evaluators.py` |
| `Num*` | `vmoe/train/optimizer.py` and `train_state.py` over real numbers: scaling, clipping, SGD, Adam, Adafactor, decay, learning rate, freezing, reported norms |
| `Rx*` | `vmoe/utils.py` 176-189 and `vmoe/train/optimizer.py` 144-163: lists of regular expressions, with a parser and matcher for them |
| `Sto*` | `vmoe/projects/adversarial_attacks/lib.py` 43-97 and 172-231: the storage of examples, and the loop and reports of `run_pgd_attack` |
| `Sta*` | `vmoe/train/trainer.py` 272-319 and 371-438: creating, restoring and initialising train states |
| C82 | hooks of the training loop as actions with state, the loop as a list of events | per-action lists of steps, induction on batches |
| `Bf*` | `vmoe/moe.py` `Bfloat16Dispatcher`, `_cast_to_bfloat16`; `vmoe/nn/routing.py` option `bfloat16` | C83 |
| `Tp*` | `vmoe/data/input_pipeline.py` `get_dataset` for training, `get_datasets`, `get_data_num_examples` (options); `vmoe/data/builder.py` | C84 |
| `Ini*` | `vmoe/initialization/initialization.py` `initialize_from_vmoe`, `initialize_from_vit`, with the trees around `vmoe/checkpoints/partitioned.py` `save_checkpoint`, `restore_checkpoint` | C85 |
| `Syn*` | `vmoe/multihost_utils.py` (`sync_devices`), the barriers of `vmoe/checkpoints/partitioned.py` (`_make_dir_sync`, end of `save_checkpoint`) and of `vmoe/train/trainer.py` (`create_checkpoint_manager`, `train_and_evaluate`), as interleaved processes | C86 |
| `Grd*` | derivatives of the layer (`vmoe/moe.py` run on values and tangents, as under `jax.grad` in `vmoe/train/trainer.py`), of `jax.nn.softmax`, and reverse mode through the losses of `vmoe/nn/routing.py` | C87, C88 |
| `Sdr*` | vmoe/projects/soft_moe/router.py:36-110, vmoe/moe.py:143-161, 427-448: forward-mode derivatives of Soft MoE layers | C89 |
| `Nng*` | vmoe/utils.py:50-57, vmoe/evaluate/ensemble.py:25-30, 111-112: gradients of multiply_no_nan | C90 |
| `Smn*` | vmoe/projects/soft_moe/router.py:138-140, 153-155, 165-166: mean similarities | C91 |
| `Skh*` | vmoe/projects/sparsity_constrained_ot/kl_projection_routing.py:128-159, 225-250: plans by Sinkhorn iterations | C92 |
| `Sql*` | vmoe/projects/sparsity_constrained_ot/sparse_projection_routing.py:67-81, 98-124: plans with squared 2-norm regularisation | C93 |
| `Rtr*` | vmoe/nn/vit_moe.py:76-99, vmoe/nn/vit_moe_ensemble.py:30-57 and vmoe/utils.py:112-123: options of routers, split streams, partial classes | C94 |
| `Bld*` | vmoe/train/trainer.py:233-241 and 441-477, vmoe/projects/contrastive/models.py:119-135, vmoe/projects/adversarial_attacks/restore.py:55-138: calls that make models, losses and meshes | C95 |
| `Sds*` | vmoe/data/pjit_utils.py:31-51, 77-102: declared structures and placed arrays | C96 |
| `Obx*` | vmoe/initialization/initialization.py:69-146: initialize_from_orbax | C97 |
| `Cac*` | vmoe/data/builder.py:93-128, vmoe/evaluate/fewshot.py:166-190, 310-330, vmoe/evaluate/evaluator.py:169-202: caches | C98 |
| `Ada*` | vmoe/train/optimizer.py:236-286: Adafactor with infinities and NaN | C99 |
| `Sum*` | `vmoe/train/tree_summarizer.py`, its use in `trainer.py` (263-269, 677-682) |
| `Tf*` | the transformations of `vmoe/initialization/rules.py` (copies, tiles, reshapes, stacks and zooms of arrays) |
| `Ens*` | `vmoe/nn/ensemble_routing.py`, `vit_moe_ensemble.py`, group reshapes of `vit_moe.py` |

### What is not modelled, or is idealised

* Floating point.  Numbers are exact (integers, rationals or reals).  Where it matters,
  a value may also be "not finite" (`None` of `fl`), or one of the infinities and NaN
  (`ext` in `ElmModel`).  Rounding, overflow, underflow and casts to bfloat16 are not
  modelled.
* XLA, `pjit`, devices and collectives: sharding constraints are identities; a program
  on several devices is the same function as on one.  Random bits are arbitrary inputs.
  In `RngModel`, a key is a seed and a list of split numbers, so keys are equal only if they are made
  in the same way (collisions of the hash are not modelled), and `split(k, n)[i]` is `fold_in(k, i)`.
* The modules of Flax: parameters, layer norms, attention, learned position embeddings,
  patch embeddings, heads and dropout are arbitrary functions where blocks are composed.
  In `VitModel`, norms and heads act on a token and attention on one sequence; dropout and
  router noise are off.  The position embeddings sincos2d are modelled.
* Gradients are arbitrary functions (an oracle), except in statements about their sums.
* optax transformations are arbitrary, or modelled from their documentation (schedules,
  masking, chains).  Exponential and cosine schedules are not modelled.
* msgpack is modelled at the byte level from its specification, for the types that are
  used.  Arrays above 1 GiB, which Flax splits, are not modelled.
* The file system: renaming is atomic, and writes to different files do not interfere.
  Concurrent reads of shards are interleaved at the granularity of chunks.  Of orbax,
  only the calls by the trainer are modelled, with the documented behaviour.
* tf.data and TFDS: `even_splits`, `batch`, `repeat`, `concatenate`, `filter` are list
  functions; a map that is not deterministic gives any permutation.  Image decoding,
  resizing, augmentation and tokenisation are arbitrary functions.
* Regular expressions of the user are arbitrary predicates.  Numbers in natural sorting
  are exact, with ASCII digits.
* numpy: `argsort` is any sorting permutation if its order of ties is not specified,
  `permutation` is any permutation, `jnp.linalg.eigh` is any decomposition.
* Dirichlet samples are any nonnegative weights with sum 1; `norm.cdf` is any function
  with values in [0, 1).
* The removal of the mixup key from the state of the caller, in place, is not modelled.
* The means of similarities reported by the soft router are not modelled (the extreme
  values are).
* `scipy.ndimage.zoom` with `order=1` is linear interpolation axis by axis, in exact
  arithmetic: the last coordinate is exactly the last entry of the source.  The pure callback
  and `shard_map` around it are identities.  Which exception a failing `jnp.reshape`,
  `jnp.tile` or `scipy.ndimage.zoom` raises is not specified.
* In `CfgModel`, floats of configurations are rationals, the limit of 4300 digits of `int()` is
  not modelled, and of the dotted names of routers only that of the soft router is known.
* In `ConModel`, `jax.grad` is an arbitrary function of a batch and the parameters; C72 assumes that
  it gives the gradients of the loss of each batch.  Big Vision's evaluators are arbitrary functions.
* `Num*`: trees of arrays are functions of entries (name and index); numbers are reals, so no
  rounding, overflow or dtypes; the transformations of optax (`trace`, `scale_by_adam`, `ema`,
  `scale_by_factored_rms`, `clip*`) are modelled from their source, arrays without an axis as
  functions that do not depend on it; `numpy.argsort` is any sorting permutation.
* `Rx*`: Python's module `re` is modelled from its source (sre_parse and the backtracking matcher) for
  a part of the syntax; braces, flags, comments, lookbehind, conditions and numeric escapes give
  `Unsupported`, about which nothing is claimed. Characters are bytes. In `Opt*`, `Map*` and the other
  modules the meaning of a single pattern is still an oracle.
* `Sto*`: arrays are lists of rows with the shape of a row; the compression and the file system are not
  modelled (a file is its content). The loop runs in one process; the attack and the model are oracles,
  with `AttModel` for what is done with them; sums are over the reals.
* C82: `PeriodicAction`, `PeriodicCallback` and `ReportProgress` of the library clu are not in the repository; they are modelled from their documented behaviour (HookModel.v), with a parameter for whether `ReportProgress` reports at its first call. Clocks are arbitrary functions from steps to whole numbers.
* C83: `astype(bfloat16)` of jax is modelled as rounding to nearest, ties to even, with 8 significant bits and subnormal numbers from 2^-133, without overflow; the rest of the arithmetic is exact.
* C84: `Dataset.shuffle`, `Dataset.map` with parallel calls in any order, `repeat`, `cache` and `batch` of tf.data, and the splits of tfds, are modelled from their documented behaviour (TpModel.v). Random numbers, orders of files and timings are arbitrary functions.
* C85: the shardings of jax (`NamedSharding`, `addressable_devices_indices_map`) are any function that gives slices covering the array, or an error; pytrees are dicts and ordered containers (lists, tuples, dataclasses) without `None`; the dtype of an array is kept in the index, its conversion to bytes is not modelled; `vit_jax.checkpoint.load` gives any nested dict. `initialize_from_orbax` is not modelled.
* C86 models the processes as programs over a shared world (directories, files, checkpoints). Assumed: psum and other computations over all devices happen atomically, when all processes have called the same one; `CheckpointManager.save` is such a computation, waits for the earlier save, and `wait_until_finished` returns when the checkpoint is complete; which steps are saved is the same on all processes; removing old checkpoints removes only earlier steps; the training data never end; zlib.crc32 is modelled bit by bit.
* Differentiation: the derivative rules of jax for products, sums, quotients, roots, squares, softmax, one-hot encodings and comparisons are in the trusted base (`Grd*`). Reverse mode through a layer is taken to be the transpose of forward mode. A zero divisor counts as +0.
* Derivative rules of jax used by C89 and C90 (products, sums, rsqrt, softmax, where, mul) are taken from its documentation; rounding is not modelled, and neither is the bfloat16 conversion of the soft router.
* ott (C92): the kernel, the order of the updates, the initial scalings and the number of iterations are taken from its documentation; underflow of the kernel and the LBFGS variant are not modelled.
C94: values of options are opaque, parse_call (C49, C57) is an oracle that returns dictionaries, and a call of a class is the class with its arguments; what the constructor of the class does with them is not modelled.
C95: values of options are opaque, parse_call is an oracle that returns dictionaries, and ConfigDict.update of a key that both sides have is an oracle (it merges dictionaries and checks types). The rest of restore_from_config (shapes of variables and reading of parameters) is not modelled here; reading is C12 and C17. Losses are named; their values are not looked into.
- `Sds*`: data types and rows are opaque; which types are numbers, and the type a device keeps, are variables of the theorems. Tensors of unknown rank are not modelled. Placement of rows on devices is `DataModel.to_global_array` (C40).
- `Obx*`: Orbax itself is a variable of the theorems: the .zarray files, the saved arrays, conversion to a type, cutting to a shape, and whether a sharding fits. That .zarray files agree with the saved arrays is a hypothesis (`consistent`). Of the errors of several threads, the first in the order of leaves is taken. Dicts keep the order of the structure (jax sorts them).
- `Cac*`: cachetools, TFDS, the batches of a dataset and compilation are variables of the theorems. That an iterator of a finite dataset yields its batches once until it is reset is part of the model (clu is not in the repository). An error of a compilation ends the evaluation; this is not modelled.
- `Ada*`: one entry of a parameter that is not factored; numbers are reals without rounding, overflow and signed zeros, with the infinities and NaN of IEEE arithmetic. The update of optax.scale_by_factored_rms (count - step_offset, rsqrt) is part of the model (optax is not in the repository). The momentum is left out. C99_factored_refuted uses `Num*`.
* Logging, profiling, timing and progress reports.
* jaxopt: `projection_sparse_simplex` returns a nearest point, solvers return any vector.
* `ast.parse` is an arbitrary function from strings to expressions.

## Axioms per theorem

As listed by `Print Assumptions`, for all theorems in `MANIFEST.json`.  The first three
come with the real numbers of the standard library (`sig_forall_dec`, `sig_not_dec`,
`functional_extensionality_dep`), as does `classic` (some lemmas about `exp`, `sqrt` and
`ln`).

* no axioms (closed under the global context): `C01_top_experts_choice`; `C02_buffer_slot_is_number_of_competitors`; `C03_einsum_slots_exclusive_and_bounded`, `C03_indices_slots_exclusive`; `C04_dispatchers_interchangeable`; `C05_reordering_lossless`; `C06_layer_semantics`; `C07_top_items`; `C08_top_items_metrics`; `C09_compute_capacity`; `C10_refuted`, `C10_partial`; `C11_factory_arguments`; `C12_save_restore_identity`; `C13_chunks_partition_and_limit`; `C14_written_once_by_a_holder`; `C15_layout_agreement`; `C16_greedy_balance`; `C17_reads_exactly_needed_files`; `C18_intersection`; `C19_refuted`, `C19_every_zero_size_array_fails`, `C19_zero_size_blocks_the_file`, `C19_partial`; `C20_atomic_replace`, `C20_saves_complete`; `C21_refuted`, `C21_partial`, `C21_single_files`; `C22_reported_steps`, `C22_latest_is_maximum`; `C23_shard_suffix_round_trip`, `C23_shard_names_distinct`, `C23_no_suffix_unchanged`; `C24_serialize_restore`, `C24_slices_encode`, `C24_empty_chunk_unreadable`; `C25_each_device_once`, `C25_error_unless_divisor`, `C25_colliding_coords_lose_devices`; `C26_first_rule`, `C26_no_error`; `C27_never_truncates`; `C28_only_matched`, `C28_no_error`; `C29_numeric_order_partial`, `C29_numeric_order_refuted`; `C32_frozen_unchanged`, `C32_others_as_without`, `C32_both_error`, `C32_no_error`; `C33_weight_decay_partial`, `C33_key_order_refuted`, `C33_gradient_scaling`; `C35_same_device`; `C36_steps`, `C36_same_as_uninterrupted_partial`, `C36_can_finish`, `C36_same_as_uninterrupted_refuted`, `C36_few_batches_refuted`; `C37_exactly_one`, `C37_from_epochs`, `C37_from_steps`; `C39_batches`, `C39_one_process`, `C39_errors`, `C39_filter_refuted`; `C40_same_items`, `C40_never_wrong`, `C40_read_ahead`, `C40_global_rows`, `C40_global_errors`, `C40_failing_source_refuted`; `C45_einsum_partial`, `C45_top_items_partial`, `C45_indices_partial`, `C45_indices_value`, `C45_refuted`, `C45_weights_determined`, `C45_all_layers`, `C45_images`; `C46_roundtrip`, `C46_grouping`, `C46_member_position`; `C48_representation`, `C48_sampling`, `C48_nested`; `C49_composition`, `C49_error`, `C49_single`, `C49_not_dictionary`, `C49_order`, `C49_caller_changed`, `C49_caller_kept`, `C49_operation`, `C49_copy`, `C49_keep`, `C49_eval_flag`; `C56_central_crop`, `C56_central_crop_error`, `C56_resize_small`, `C56_resize_crop`; `C57_name`, `C57_arguments`, `C57_dotted`, `C57_nested`, `C57_binding`, `C57_keys`; `C59_experts_weights`, `C59_items_weights`, `C59_experts_kept`, `C59_items_kept`, `C59_errors`; `C60_copies`, `C60_one_axis`, `C60_expand_tile_errors`, `C60_squeeze`, `C60_squeeze_expand`, `C60_stack`, `C60_stack_errors`, `C60_reshape_order`, `C60_reshape`, `C60_reshape_inferred`; `C62_factor_enough`; `C64_train`, `C64_names`, `C64_calls`, `C64_errors`, `C64_resume`, `C64_evaluate`, `C64_evaluate_names`, `C64_evaluate_same`, `C64_fewshot`, `C64_fewshot_runs`, `C64_fewshot_same`; `C65_reuse_refuted`, `C65_reuse`, `C65_parent`, `C65_batch_partial`, `C65_updates_partial`; `C66_parse`, `C66_unique`, `C66_accept`, `C66_errors`, `C66_model`, `C66_blocks`, `C66_copies`, `C66_epochs`, `C66_optimizer`, `C66_optimizer_errors`, `C66_dense`, `C66_losses`, `C66_soft_blocks`, `C66_experts_choose_blocks`; `C68_mixup`, `C68_mixup_partial`, `C68_router_partial`, `C68_experts_choose_partial`, `C68_pretrain_refuted`; `C69_none`, `C69_create`, `C69_create_errors`; `C70_array_partial`; `C71_errors`; `C73_hooks`; `C74_entries`; `C78_any_partial`, `C78_frozen_partial`, `C78_string`, `C78_none`, `C78_search`, `C78_total`, `C78_refs_refuted`, `C78_names_refuted`, `C78_invalid_refuted`; `C79_writes`, `C79_zero`; `C81_reuse`, `C81_missing`, `C81_latest`, `C81_fresh`, `C81_warm`, `C81_slash_refuted`; `C82_evaluations`, `C82_fewshots`, `C82_no_fewshots`, `C82_reports`, `C82_saves`, `C82_last`, `C82_agree`, `C82_clocks_refuted`, `C82_zero`; `C84_drawn`, `C84_all_seen`, `C84_epoch_refuted`, `C84_epochs`, `C84_errors`, `C84_empty`, `C84_filtered_epoch_refuted`, `C84_restart_refuted`, `C84_options`; `C85_as_in_memory`, `C85_assigned`, `C85_old`, `C85_old_other_names`, `C85_vit`, `C85_vit_unknown_type`, `C85_old_other_containers_refuted`; `C86_training`, `C86_clocks_refuted`, `C86_save`, `C86_save_no_makedirs`, `C86_save_no_makedirs_refuted`, `C86_barrier`, `C86_barrier_waits`, `C86_close_names`, `C86_names_refuted`; `C94_options_partial`, `C94_errors`, `C94_ensemble`, `C94_ensemble_errors`, `C94_partialclass`, `C94_split_partial`, `C94_split_refuted`, `C94_string_refuted`; `C95_trained`, `C95_trained_accepts`, `C95_again_partial`, `C95_attacked`, `C95_attacked_accepts`, `C95_same_model`, `C95_towers`, `C95_towers_accepts`, `C95_losses_partial`, `C95_mesh`, `C95_again_refuted`, `C95_same_model_refuted`, `C95_losses_refuted`; `C96_declared_partial`, `C96_structs`, `C96_placed`, `C96_compiled_once`, `C96_refuted`; `C97_asked`, `C97_restored`, `C97_accepts_partial`, `C97_initialized`, `C97_sharding_immaterial`, `C97_rules_refuted`, `C97_slash_refuted`; `C98_cached`, `C98_builders_partial`, `C98_datasets`, `C98_fewshot_partial`, `C98_same_split`, `C98_compiled`, `C98_builders_refuted`, `C98_fewshot_refuted`.
* `ClassicalDedekindReals.sig_forall_dec`: `C46_encoder`, `C46_encoder_rows`, `C46_encoder_values`; `C53_missing`; `C73_zeroshot`, `C73_zeroshot_error`, `C73_retrieval`.
* `ClassicalDedekindReals.sig_forall_dec`, `FunctionalExtensionality.functional_extensionality_dep`: `C34_each_example_once`, `C34_full_batch`, `C34_no_error`; `C35_mixed`, `C35_label_mass`, `C35_no_error`, `C35_off`, `C35_errors`; `C38_means`, `C38_order`, `C38_infinite_padding_refuted`, `C38_mixing_model_refuted`; `C41_epsilon`, `C41_finite`, `C41_fresh_keys`, `C41_no_updates`; `C42_stats`, `C42_batching`, `C42_pgd_alone`, `C42_infinite_fake_refuted`; `C46_zero_gates_refuted`; `C48_results`, `C48_best_l2`, `C48_same_split_error`, `C48_ties_refuted`; `C49_ignore_no_labels`, `C49_eval_labels`, `C49_flag_kept`; `C50_gshard`; `C51_bounds`, `C51_no_changes_partial`, `C51_no_changes_refuted`; `C53_objective`; `C56_onehot_multi`, `C56_onehot_error`, `C56_onehot_single`, `C56_onehot_each`, `C56_range_affine`, `C56_range_order`, `C56_range_inverse`, `C56_range_clip`, `C56_range_channels`, `C56_range_mismatch`, `C56_inverted_refuted`; `C58_maximum`, `C58_attained`, `C58_gradient`, `C58_rows`, `C58_columns`, `C58_best_rows_partial`, `C58_best_columns_partial`, `C58_gap_partial`, `C58_dual`, `C58_balance_refuted`; `C60_upcycled`, `C60_reshaped_parameter`, `C60_squeezed_parameter`, `C60_stacked_parameter`, `C60_copies_layer`, `C60_copies_dense`; `C61_position_embeddings`, `C61_determined`, `C61_same_grid`, `C61_corners`, `C61_range`, `C61_errors`, `C61_zoom`, `C61_resized_embeddings`, `C61_zoomed_parameter`; `C71_pooling`; `C73_durations_refuted`; `C80_attack`, `C80_storing`, `C80_reports`; `C82_cost`, `C82_cost_resumed_refuted`; `C87_layer`, `C87_items`, `C87_blocked`, `C87_derivative`, `C87_items_derivative`, `C87_ties_refuted`; `C88_gshard`; `C90_zero`, `C90_safe`, `C90_derivative`, `C90_derivative_refuted`, `C90_xent`, `C90_plain`; `C91_range`; `C93_columns`, `C93_rows_partial`, `C93_exact`, `C93_best_partial`, `C93_gap`, `C93_rows_refuted`, `C93_dense`, `C93_sparse_refuted`; `C95_objective_partial`, `C95_objective_refuted`.
* `ClassicalDedekindReals.sig_forall_dec`, `ClassicalDedekindReals.sig_not_dec`, `FunctionalExtensionality.functional_extensionality_dep`: `C43_mixing`, `C43_range`, `C43_order`, `C43_outcomes`; `C46_gates`, `C46_routing`, `C46_errors`, `C46_layer`, `C46_independent`; `C50_importance`, `C50_load`, `C50_router`, `C50_router_noisy`, `C50_errors`; `C52_weights`, `C52_mu_partial`, `C52_mu_refuted`; `C54_logits`, `C54_towers`; `C55_fit`, `C55_order`, `C55_shift`, `C55_normalized_mean`, `C55_normalized_deviation`, `C55_no_classes`, `C55_seed`; `C58_items_gates`, `C58_gates`; `C59_experts_mixture_partial`, `C59_items_mixture_partial`, `C59_unplanned_refuted`, `C59_kl_items`, `C59_kl_experts_partial`, `C59_kl_errors`; `C69_values`, `C69_whole`, `C69_sequence`, `C69_compose`, `C69_errors`, `C69_call`, `C69_call_errors`; `C70_names_partial`, `C70_no_loss_partial`, `C70_metrics`, `C70_refuted`; `C71_rank`; `C74_reports`; `C87_softmax`; `C88_importance_partial`, `C88_load_partial`, `C88_auxiliary_partial`, `C88_single_expert`, `C88_balanced`, `C88_finite_refuted`; `C89_derivative`, `C89_logits`, `C89_weights`; `C91_weights_partial`, `C91_mu_partial`, `C91_mu_refuted`, `C91_single_refuted`; `C92_rows`, `C92_monotone_partial`; `C93_gates`.
* `ClassicalDedekindReals.sig_forall_dec`, `Classical_Prop.classic`, `FunctionalExtensionality.functional_extensionality_dep`: `C48_not_dominated`, `C48_callback`.
* `ClassicalDedekindReals.sig_forall_dec`, `ClassicalDedekindReals.sig_not_dec`, `Classical_Prop.classic`, `FunctionalExtensionality.functional_extensionality_dep`: `C30_warmup_polynomial`, `C30_no_error`, `C30_no_decay`; `C31_rsqrt`, `C31_errors`, `C31_past_the_end`; `C43_no_item_dropped`; `C44_total_partial`, `C44_refuted`; `C47_log_mean`, `C47_errors`, `C47_eval_loss`, `C47_eval_infinite`, `C47_train_loss`, `C47_jensen`, `C47_predictions`, `C47_sigmoid_loss`, `C47_sigmoid_train`, `C47_sigmoid_jensen`, `C47_sigmoid_predictions`, `C47_sigmoid_masked_refuted`, `C47_one_member`, `C47_unknown_loss`; `C54_loss`, `C54_error`, `C54_positive`, `C54_order`, `C54_symmetric`; `C59_kl_experts_refuted`; `C62_images`, `C62_groups`, `C62_no_drop`, `C62_no_drop_images`, `C62_earlier`, `C62_ragged`, `C62_other_image_refuted`, `C62_later_image_refuted`; `C63_tokens`, `C63_network`, `C63_errors`, `C63_encoder_errors`, `C63_error_kind`, `C63_dot`, `C63_norm`, `C63_distinct`; `C67_groups`, `C67_ragged`, `C67_no_drop`, `C67_no_drop_total`, `C67_experts_choose`, `C67_soft`, `C67_dense`; `C68_soft_router`, `C68_soft_refuted`; `C71_pairs`, `C71_texts`, `C71_network`, `C71_position`; `C72_objective_partial`, `C72_full`, `C72_less`, `C72_positives`, `C72_refuted`; `C74_step`, `C74_errors`, `C74_norm_bound`, `C74_value_bound`; `C75_adam_bound`, `C75_adam_scaling`, `C75_sgd_scaling`; `C76_independent`, `C76_frozen_refuted`; `C77_experts`, `C77_adafactor_bound`, `C77_decay_rate`, `C77_sharp`; `C83_cast`, `C83_top_experts`, `C83_top_items`, `C83_soft`, `C83_exact`, `C83_same_refuted`, `C83_integers`, `C83_integers_refuted`; `C92_rate_partial`, `C92_balance_partial`, `C92_balance_refuted`, `C92_best`, `C92_near_best`, `C92_limit_best`; `C99_updates`, `C99_bounded_partial`, `C99_offset_never`, `C99_offset_refuted`, `C99_factored_refuted`.
