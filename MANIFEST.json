{
 "claims": [
  {
   "property": "C01",
   "status": "proved",
   "theorems": [
    "C01_latest_n",
    "C01_latest_n_none"
   ],
   "note": "n is any non-negative integer or None; decision list characterised index by index."
  },
  {
   "property": "C02",
   "status": "partial",
   "theorems": [
    "C02_every_n_steps_exact_partial",
    "C02_zero_interval_rejected",
    "C02_cap_zero_refuted",
    "C02_cap_zero_keeps_all"
   ],
   "note": "Proved for no cap and every cap >= 1. False for max_to_keep=0 (C02_cap_zero_refuted): the slice [:-0] is empty, so cap 0 behaves exactly like no cap (C02_cap_zero_keeps_all)."
  },
  {
   "property": "C03",
   "status": "proved",
   "theorems": [
    "C03_every_n_seconds",
    "C03_every_n_steps_spacing"
   ],
   "note": "Greedy spacing is a unique characterisation (first kept; later kept iff gap to last kept >= interval). EveryNSteps cap >= 1."
  },
  {
   "property": "C04",
   "status": "proved",
   "theorems": [
    "C04_best_n",
    "C04_best_n_one_per",
    "C04_best_n_count",
    "C04_best_n_all",
    "C04_best_n_zero"
   ],
   "note": "Metric values are totally ordered (NaN not modelled). Rank characterisation plus exact count."
  },
  {
   "property": "C05",
   "status": "proved",
   "theorems": [
    "C05_any_preservation_union",
    "C05_any_preservation_monotone",
    "C05_empty_union_refuted"
   ],
   "note": "Proved for every non-empty policy list (as the property is quantified). C05_empty_union_refuted records that an empty policy list yields a scalar."
  },
  {
   "property": "C06",
   "status": "proved",
   "theorems": [
    "C06_latest_duration",
    "C06_latest_duration_chronological"
   ],
   "note": "Arbitrary clock value and timestamps."
  },
  {
   "property": "C07",
   "status": "partial",
   "theorems": [
    "C07_every_n_steps_closest_partial",
    "C07_cap_bounds",
    "C07_cap_zero_refuted"
   ],
   "note": "Proved for every non-zero interval and caps >= 1; false for cap 0 (C07_cap_zero_refuted). Exact division instead of float division (equal for |step| < 2^52)."
  },
  {
   "property": "C08",
   "status": "proved",
   "theorems": [
    "C08_fixed_interval",
    "C08_specific_steps",
    "C08_continuous",
    "C08_preemption_initial",
    "C08_any_save"
   ],
   "note": "ContinuousCheckpointing includes the multi-host broadcast: all hosts get the primary's decision."
  },
  {
   "property": "C09",
   "status": "partial",
   "theorems": [
    "C09_crash_safe_partial",
    "C09_unfinished_save",
    "C09_finished_save",
    "C09_force_overwrite_refuted",
    "C09_legacy_refuted"
   ],
   "note": "Crash at every operation of every save/cleanup in arbitrary histories. Holds for non-overwriting saves always, and for force=True when rmtree is atomic; false for force=True with file-by-file rmtree and for CommitFile with allow_legacy_atomic_rename (both refuted with witnesses)."
  },
  {
   "property": "C10",
   "status": "proved",
   "theorems": [
    "C10_cleanup_exact",
    "C10_cleanup_concurrent",
    "C10_disjoint"
   ],
   "note": "Both protocols, with/without the legacy option, atomic or file-by-file rmtree in any scan order; concurrent removals covered by C10_cleanup_concurrent."
  },
  {
   "property": "C11",
   "status": "proved",
   "theorems": [
    "C11_tmp_has_suffix",
    "C11_tmp_never_final",
    "C11_recover",
    "C11_recover_error",
    "C11_injective"
   ],
   "note": "Names are arbitrary strings (path separators excluded by the caller)."
  },
  {
   "property": "C12",
   "status": "partial",
   "theorems": [
    "C12_name_shape",
    "C12_round_trip",
    "C12_injective",
    "C12_recognised_is_built_partial",
    "C12_newline_refuted",
    "C12_pattern_prefix_refuted",
    "C12_find_all",
    "C12_find_all_nodup",
    "C12_find_step",
    "C12_step_from_name",
    "C12_step_from_tmp_name",
    "C12_empty_prefix_refuted",
    "C12_negative_not_listed"
   ],
   "note": "Round trip, injectivity, listing, lookup and step_from_checkpoint_name proved. Missing: recognised => built is false for names ending in a newline (C12_newline_refuted), proved for all others; prefixes with regex characters are refuted (C12_pattern_prefix_refuted), as is the empty prefix for step_from_checkpoint_name."
  },
  {
   "property": "C13",
   "status": "proved",
   "theorems": [
    "C13_find_step_first",
    "C13_find_step_none",
    "C13_find_all",
    "C13_written_is_found"
   ],
   "note": "First-match and listing theorems hold for arbitrary formats; written-is-found for composites of standard formats."
  },
  {
   "property": "C14",
   "status": "partial",
   "theorems": [
    "C14_async_refines_sync",
    "C14_async_list_is_disk",
    "C14_reload_in_flight_refuted",
    "C14_list_is_disk",
    "C14_latest_is_greatest",
    "C14_unforced_increasing",
    "C14_forced_latest_refuted",
    "C14_negative_step_refuted",
    "C14_trash_collision_refuted"
   ],
   "note": "Synchronous checkpointer: invariant over all histories of calls (returning or raising) and crashes/restarts, any policies, any well-formed initial directory. Asynchronous: the three-thread manager refines the synchronous one under every interleaving when nothing fails and other calls wait first. False cases refuted: latest_step after a forced lower step, negative steps after reload, todelete_subdir collision, reload during a save in flight."
  },
  {
   "property": "C15",
   "status": "partial",
   "theorems": [
    "C15_async_save_is_sync",
    "C15_async_leftover_refuted",
    "C15_retention_is_policy",
    "C15_default_retention",
    "C15_default_count",
    "C15_new_step_survives",
    "C15_new_step_lost_refuted",
    "C15_zero_period_refuted"
   ],
   "note": "Every reachable state of the synchronous manager; general policies and the default options for all n >= 0 and p <> 0 (with p = 0 no save is successful: C15_zero_period_refuted; n = 0 removes the new step itself: C15_new_step_lost_refuted). An asynchronous save has exactly the effect of the synchronous one. A successful save after a failed one leaves an unlisted step behind: C15_async_leftover_refuted."
  },
  {
   "property": "C16",
   "status": "partial",
   "theorems": [
    "C16_async_crash_points",
    "C16_async_always_restorable",
    "C16_async_overwrite_refuted",
    "C16_preserved_untouched",
    "C16_commit_before_delete",
    "C16_one_always_left",
    "C16_training_always_restorable",
    "C16_rename_never_damages",
    "C16_damaged_listed_refuted"
   ],
   "note": "Every crash point, any policy; whole training jobs with any number of crashes; asynchronous manager at every instant of every interleaving. Refuted: a listed but damaged step after a crash during permanent removal; overwriting of the only good checkpoint after a failed background save."
  },
  {
   "property": "C17",
   "status": "partial",
   "theorems": [
    "C17_only_condemned_lost",
    "C17_failure_deletes_nothing",
    "C17_failure_reported",
    "C17_listed_on_disk_partial",
    "C17_list_misses_steps_refuted",
    "C17_consumed_error_refuted",
    "C17_restore_consumes_error_refuted",
    "C17_restore_race_refuted",
    "C17_failure_after_commit_refuted"
   ],
   "note": "Proved for all careful schedules with failures anywhere: nothing is lost, the error is raised once, the failed step is unlisted, listed steps are on disk. Refuted: list = disk after a failure (old steps vanish from the list), and both claims when restore()/check_for_errors() run while the failing save is in flight (then every checkpoint is deleted)."
  },
  {
   "property": "C18",
   "status": "partial",
   "theorems": [
    "C18_not_above_is_noop",
    "C18_existing_untouched",
    "C18_progress_refuted",
    "C18_write_error_progress_refuted"
   ],
   "note": "No rewrite proved. 'Progress status unchanged after the error' is false: refuted (the in-progress flag stays set and continuous checkpointing never saves again)."
  },
  {
   "property": "C19",
   "status": "partial",
   "theorems": [
    "C19_read_only_partial",
    "C19_forced_save_refuted"
   ],
   "note": "Proved for every call except save(force=True), for which it is false (C19_forced_save_refuted)."
  },
  {
   "property": "C20",
   "status": "partial",
   "theorems": [
    "C20_delete_exact",
    "C20_delete_listed_succeeds",
    "C20_unlisted_raises",
    "C20_trash_keeps_data_partial",
    "C20_trash_collision_refuted",
    "C20_leftover_tmp_refuted"
   ],
   "note": "Exactness proved from every reachable state; trash collision and leftover temporary directory refuted."
  },
  {
   "property": "C21",
   "status": "partial",
   "theorems": [
    "C21_close_is_sequential",
    "C21_in_order",
    "C21_close_returns",
    "C21_requested_gone",
    "C21_negative_step_refuted",
    "C21_after_close_refuted"
   ],
   "note": "Any deletion function, any interleaving. False for negative steps (end marker) and for requests made after close: refuted."
  },
  {
   "property": "C22",
   "status": "proved",
   "theorems": [
    "C22_tiles",
    "C22_target",
    "C22_accepts",
    "C22_axes",
    "C22_rest",
    "C22_priority",
    "C22_needed",
    "C22_one_dimension",
    "C22_largest_refuted",
    "C22_axis_once_refuted"
   ],
   "note": "Chunk choice modelled with all its loops; tiling, target, acceptance (with termination), priorities and tightness proved for all inputs. The refuted theorems concern wording of the docstring (largest possible, sharded once), not the property."
  },
  {
   "property": "C23",
   "status": "proved",
   "theorems": [
    "C23_chunk_fragment",
    "C23_refused",
    "C23_chunk_fragments",
    "C23_steps_refuted",
    "C23_negative_target_refuted",
    "C23_divisible_shapes_refuted"
   ],
   "note": "Proved for contiguous fragments of every rank and offset and every positive target, with the exact condition for acceptance, and for lists of overlapping fragments. Refuted for steps other than one (the docstring's own example) and for negative targets; validate_divisible_shapes broadcasts."
  },
  {
   "property": "C24",
   "status": "proved",
   "theorems": [
    "C24_intersect",
    "C24_slice",
    "C24_fragments_slice",
    "C24_assemble",
    "C24_round_trip",
    "C24_last_wins_refuted",
    "C24_position_refuted"
   ],
   "note": "Intersection, slicing and assembly proved for every rank; assembly and the round trip for every positive step. Refuted: the short cut for a fragment of the full size neither lets the last fragment win nor looks at the position."
  },
  {
   "property": "C25",
   "status": "proved",
   "theorems": [
    "C25_resolve",
    "C25_resolve_integers",
    "C25_resolve_idempotent",
    "C25_dissolve",
    "C25_resolve_undoes_dissolve",
    "C25_normalize",
    "C25_fragments_normalize",
    "C25_hashable",
    "C25_hashable_back",
    "C25_canonical",
    "C25_shape",
    "C25_negative_integer_refuted",
    "C25_negative_step_resolve_refuted",
    "C25_negative_step_dissolve_refuted",
    "C25_negative_shape_refuted",
    "C25_key_refuted",
    "C25_hashable_concrete"
   ],
   "note": "Proved for every rank, bound and positive step, normalize_slice for steps of any sign; resolve undoes dissolve; keys are canonical for contiguous non-empty indices. Refuted: negative integers, negative steps (resolve and dissolve), negative shapes of empty backwards slices, key equality with steps."
  },
  {
   "property": "C26",
   "status": "proved",
   "theorems": [
    "C26_exact_cover",
    "C26_nbytes",
    "C26_limits",
    "C26_local",
    "C26_parallel_local",
    "C26_local_refuted",
    "C26_replica_id_refuted"
   ],
   "note": "Proved over all processes at once for any sharding as jax guarantees it (record sharded in Replica_Spec.v), any limits. The _refuted theorems concern local checkpointing (replica_id None) with a device order that mixes replica ids on a process, and a replica_id no shard has; both are outside the statement (array saved across all hosts with a valid replica id) and are recorded as findings."
  },
  {
   "property": "C27",
   "status": "proved",
   "theorems": [
    "C27_shard",
    "C27_strict",
    "C27_rank",
    "C27_array",
    "C27_assemble",
    "C27_round_trip",
    "C27_footprint",
    "C27_empty_footprint_refuted"
   ],
   "note": "TensorStore itself (indexing, domain intersection, storage) is trusted; casts are any function on elements. C27_round_trip joins this with C26: save by all processes in any order of writes, restore with any sharding. The refuted theorem is about bytes reserved for an empty read, not about values."
  },
  {
   "property": "C28",
   "status": "proved",
   "theorems": [
    "C28_bound",
    "C28_returned",
    "C28_reject_now",
    "C28_reject_only",
    "C28_waiting",
    "C28_no_deadlock",
    "C28_bounded",
    "C28_config",
    "C28_exact_fit_refuted"
   ],
   "note": "Cooperative scheduling of one event loop; the reserved sizes must not be negative. Stronger than stated: every schedule ends within n(n+4) steps. The refuted theorem records that a request equal to the limit, which would fit, is rejected."
  },
  {
   "property": "C29",
   "status": "partial",
   "theorems": [
    "C29_cover",
    "C29_budget_partial",
    "C29_untracked_workers_refuted",
    "C29_maximal"
   ],
   "note": "Cover, order and maximality proved; the budget holds for every batch after the first, and for the first on the workers of the first array (C29_budget_partial). C29_untracked_workers_refuted: other workers are not charged in the first batch."
  },
  {
   "property": "C30",
   "status": "partial",
   "theorems": [
    "C30_no_overlap",
    "C30_once",
    "C30_genuine",
    "C30_first",
    "C30_wait_means",
    "C30_silent_loss_refuted",
    "C30_cancel",
    "C30_wait_ends",
    "C30_make"
   ],
   "note": "Proved except for one clause: a CancelledError nobody asked for is swallowed, so a normal wait does not imply a commit then (C30_silent_loss_refuted); C30_wait_means names that case."
  },
  {
   "property": "C31",
   "status": "partial",
   "theorems": [
    "C31_after_writes",
    "C31_once",
    "C31_success",
    "C31_failed_writes",
    "C31_early_timeout",
    "C31_late_failure_refuted",
    "C31_progress"
   ],
   "note": "Everything proved for failures of writes and before the first barrier opens; the last clause is false for later failures (C31_late_failure_refuted)."
  },
  {
   "property": "C32",
   "status": "partial",
   "theorems": [
    "C32_result_partial",
    "C32_raises",
    "C32_cancelled",
    "C32_base_exception_refuted",
    "C32_race_refuted",
    "C32_cancel_signals_refuted",
    "C32_chain",
    "C32_chain_error"
   ],
   "note": "Threads as an interleaving model. result() returning implies completion and all signals set, except in two cases shown as counterexamples: a target ending with a BaseException such as asyncio.CancelledError, and a timeout racing with cancel(). Errors and cancellation are reported. Chained futures are covered in full."
  },
  {
   "property": "C33",
   "status": "partial",
   "theorems": [
    "C33_linearizable_partial",
    "C33_linearizable_no_listing",
    "C33_no_lost_wakeup",
    "C33_dir_get_error_refuted",
    "C33_dir_get_torn_refuted",
    "C33_dir_get",
    "C33_remove",
    "C33_remove_any_id",
    "C33_signals",
    "C33_contract",
    "C33_contract_other",
    "C33_contract_race_refuted",
    "C33_ids",
    "C33_ids_race_refuted"
   ],
   "note": "The client's operations as steps of any number of threads; histories refine a sequential map whenever the store does not change while a directory is listed (key_value_dir_get takes no lock; shown as counterexamples). Also covers signal keys, contract, removal per operation id and id generation, with races shown as counterexamples."
  },
  {
   "property": "C34",
   "status": "partial",
   "theorems": [
    "C34_lock_partial",
    "C34_exclusion_atomic_partial",
    "C34_leak_refuted",
    "C34_exclusion_refuted",
    "C34_false_timeout_refuted"
   ],
   "note": "Both halves hold in runs without lock timeouts (all threads, interleavings, nesting); mutual exclusion also with timeouts if nothing interrupts __enter__. With timeouts both halves are false because _acquired is shared: leak, false entry and false timeout are shown as counterexamples."
  },
  {
   "property": "C35",
   "status": "partial",
   "theorems": [
    "C35_rebuild",
    "C35_round_trip",
    "C35_separator",
    "C35_long_separator_refuted",
    "C35_leaf_separator_refuted",
    "C35_target",
    "C35_target_separator",
    "C35_target_separator_refuted"
   ],
   "note": "Proved for all trees of dictionaries (string or integer keys), lists, tuples, named tuples, None and leaves. Separators of several characters, and a bare leaf with a separator, are refuted; inplace=True is not modelled."
  },
  {
   "property": "C36",
   "status": "partial",
   "theorems": [
    "C36_serialized",
    "C36_form",
    "C36_round_trip",
    "C36_round_trip_keep",
    "C36_dicts",
    "C36_gap_refuted"
   ],
   "note": "Round trip proved whenever serialization succeeds, and always with keep_empty_nodes; the exact failure condition is C36_serialized, the refutation is [None, 1]. Custom pytree nodes are not modelled."
  },
  {
   "property": "C37",
   "status": "partial",
   "theorems": [
    "C37_names",
    "C37_distinct_partial",
    "C37_dot_refuted"
   ],
   "note": "Proved when no key contains a dot; refuted otherwise."
  },
  {
   "property": "C38",
   "status": "proved",
   "theorems": [
    "C38_init",
    "C38_domain",
    "C38_overlay",
    "C38_overlay_ok",
    "C38_intersect",
    "C38_subtract",
    "C38_split",
    "C38_filter",
    "C38_partition",
    "C38_full",
    "C38_full_missing",
    "C38_unsafe",
    "C38_like",
    "C38_map",
    "C38_select",
    "C38_select_path",
    "C38_structure_hash_refuted"
   ],
   "note": "Statements are for every partial tree the operations can produce. The order-dependence of structure_hash is a finding beside the claim; the claim itself is proved."
  },
  {
   "property": "C39",
   "status": "proved",
   "theorems": [
    "C39_none",
    "C39_reports",
    "C39_true",
    "C39_shape"
   ],
   "note": ""
  },
  {
   "property": "C40",
   "status": "partial",
   "theorems": [
    "C40_ok",
    "C40_result",
    "C40_pairs",
    "C40_same_path",
    "C40_same_path_refuted",
    "C40_string_refuted",
    "C40_callback",
    "C40_coverage",
    "C40_lenient",
    "C40_modes",
    "C40_self"
   ],
   "note": "Proved: strict trimming succeeds exactly when types are compatible, no template key is missing, lengths agree and no template leaf meets None (C40_ok); the result has the template's structure and its leaves are the counterparts (C40_result, C40_pairs), at the same path of names when there are no named tuples (C40_same_path); each dropped node is reported exactly once (C40_callback) and each leaf of the structure is kept or reported, not both (C40_coverage); lenient mode (C40_lenient, C40_modes); a tree trimmed to itself (C40_self). Refuted: 'at the same path' fails for named tuples with other field names, which are matched by position (C40_same_path_refuted), and a string leaf is taken apart where the template has a sequence (C40_string_refuted). Custom pytree nodes are not modelled."
  },
  {
   "property": "C41",
   "status": "partial",
   "theorems": [
    "C41_applied",
    "C41_unique",
    "C41_error",
    "C41_plain",
    "C41_transform",
    "C41_absent",
    "C41_fallback_refuted",
    "C41_overridden_refuted",
    "C41_order_refuted",
    "C41_empty_refuted",
    "C41_slash_refuted",
    "C41_merge",
    "C41_merge_target",
    "C41_intersect",
    "C41_intersect_none",
    "C41_intersect_target"
   ],
   "note": "Proved: apply_transformations succeeds exactly when every pattern can be tried on every leaf key and every matching transform has a value; the result has new_tree's structure and every leaf has the chosen value (C41_applied): that of the last matching transform that does not merely keep the value, else the original one if default_to_original and present, else new_tree's; the choice is unique (C41_unique). Errors are ValueError if the functions do not raise (C41_error, C41_absent). Which Transform objects can be made (C41_transform). merge_trees and intersect_trees with and without target (C41_merge, C41_merge_target, C41_intersect, C41_intersect_target). Refuted corners: a use_fallback transform that matches last keeps an earlier transform's value; an overridden transform with an absent key is an error; the order of transforms is that of sorted patterns; an empty new_tree gives {}; slashes in keys confuse keys. Assumption: keys contain no slash, trees are well formed."
  },
  {
   "property": "C42",
   "status": "partial",
   "theorems": [
    "C42_make",
    "C42_within",
    "C42_integral",
    "C42_surge",
    "C42_over",
    "C42_restored",
    "C42_pid",
    "C42_rises",
    "C42_falls",
    "C42_bytes",
    "C42_auto",
    "C42_idle",
    "C42_ratio_refuted",
    "C42_smaller_surge_refuted",
    "C42_over_refuted",
    "C42_negative_surge_refuted"
   ],
   "note": "Proved over exact rationals: every limit lies between the configured minimum and maximum for every state and every sequence of measurements when target_ratio <= 1 (C42_within), integral within the windup limit (C42_integral), a surge does not touch the history and does not raise the limit beyond the baseline less the surge (C42_surge), usage over total memory lowers the limit by at least the overflow (C42_over), baseline is restored after a surge (C42_restored), the controller is a PID controller while nothing saturates (C42_pid), steady usage below/above target drives the limit to its maximum/minimum (C42_rises, C42_falls), bytes are rounded down and stay within limits (C42_bytes, C42_auto, C42_idle), accepted configurations (C42_make). Refuted corners: target_ratio > 1 lets the result exceed the maximum; a smaller surge, or the end of a surge while usage is over total memory, raises the limit; negative surges raise it. Floating-point rounding, NaN and infinity not modelled."
  },
  {
   "property": "C43",
   "status": "partial",
   "theorems": [
    "C43_returned",
    "C43_timeout",
    "C43_no_timeout",
    "C43_rounds",
    "C43_ends",
    "C43_found",
    "C43_increasing",
    "C43_reaches",
    "C43_snapshots",
    "C43_stops",
    "C43_no_error",
    "C43_deleted_refuted",
    "C43_nothing_there_refuted",
    "C43_early_refuted",
    "C43_asked_twice_refuted",
    "C43_large_refuted",
    "C43_leftover_refuted"
   ],
   "note": "Proved for all evolutions of directory, clock, timeout function and consumer: returned and yielded steps are the largest of their look, at least until_step, strictly increasing; -1 only on timeout; a step that stays is reached; snapshots. Refuted: ignore_snapshot_errors does not cover a step deleted meanwhile (ValueError); an ignored error yields a step that is not there; a sleep longer than the timeout gives up at once; timeout_fn is asked twice; steps above 2^31-1 raise; an incomplete leftover snapshot is taken."
  },
  {
   "property": "C44",
   "status": "proved",
   "theorems": [
    "C44_broadcast_listing"
   ],
   "note": "Broadcast modelled as every host computing from the primary's padded step list."
  },
  {
   "property": "C45",
   "status": "proved",
   "theorems": [
    "C45_latest",
    "C45_order_irrelevant"
   ],
   "note": "For arbitrary name formats."
  },
  {
   "property": "C46",
   "status": "partial",
   "theorems": [
    "C46_best_is_optimal",
    "C46_none_iff_no_metrics",
    "C46_forgotten_refuted"
   ],
   "note": "Optimality, tie-breaking and None case proved; the restart clause is false with prevent_write_metrics (C46_forgotten_refuted)."
  },
  {
   "property": "C47",
   "status": "partial",
   "theorems": [
    "C47_default_cadence",
    "C47_zero_interval_refuted"
   ],
   "note": "Exact characterisation for every non-zero interval; interval 0 is accepted by the options and raises (C47_zero_interval_refuted)."
  },
  {
   "property": "C48",
   "status": "proved",
   "theorems": [
    "C48_everything_unlinked",
    "C48_once",
    "C48_nothing_else",
    "C48_not_stuck",
    "C48_width",
    "C48_counter"
   ],
   "note": "Scan errors (unreadable subdirectories) and failing unlinks are only logged by the code and are not modelled."
  },
  {
   "property": "C49",
   "status": "partial",
   "theorems": [
    "C49_atomic_partial",
    "C49_append_refuted"
   ],
   "note": "Holds unless something is appended between the loop of a deletion and its end; that append is lost, shown as a counterexample."
  },
  {
   "property": "C50",
   "status": "partial",
   "theorems": [
    "C50_conflict",
    "C50_union",
    "C50_merged",
    "C50_overwrite",
    "C50_self",
    "C50_none_refuted",
    "C50_empty_refuted",
    "C50_key_refuted",
    "C50_types_refuted",
    "C50_name_refuted",
    "C50_nothing",
    "C50_dict_over_named",
    "C50_named_over_dict"
   ],
   "note": "Proved: conflicts are refused; what succeeds without overwrite is exactly the union; trees of the same shape without collisions are merged; with overwrite the last tree that decides wins (compatible trees); idempotence. Refuted: later None does not overwrite; a later empty dictionary removes a leaf; a list over a dictionary meets its keys; a dictionary over a list fails even with overwrite; keys 1 and '1' collide. Not modelled: custom pytree nodes, is_leaf argument."
  },
  {
   "property": "C51",
   "status": "partial",
   "theorems": [
    "C51_replica",
    "C51_partition",
    "C51_replica_id",
    "C51_one_axis_refuted",
    "C51_local",
    "C51_membership",
    "C51_empty",
    "C51_spans",
    "C51_consistent",
    "C51_makes",
    "C51_unchanged",
    "C51_by_order_refuted",
    "C51_restoring",
    "C51_swapped_refuted",
    "C51_table",
    "C51_missing"
   ],
   "note": "Refuted parts: a mesh with one axis counts as one replica that has only the first device, so other processes are in no replica; without the distributed-id flag changed ids give other hardware; a slice restores with its new slice id, so slices that changed places restore with a mesh of the other slice's hosts."
  },
  {
   "property": "C52",
   "status": "partial",
   "theorems": [
    "C52_exchange",
    "C52_common",
    "C52_spanning_refuted",
    "C52_outside_refuted",
    "C52_all_steps",
    "C52_should_save",
    "C52_cache_refuted",
    "C52_save",
    "C52_latest_refuted",
    "C52_restore_local",
    "C52_restore_persistent",
    "C52_restore_given",
    "C52_restore_latest",
    "C52_missing_refuted"
   ],
   "note": "Proved for meshes with equally many devices per process and no process in two slices (named by `even`); five corner cases are refuted. What a checkpoint holds is not in this model."
  },
  {
   "property": "C53",
   "status": "partial",
   "theorems": [
    "C53_batches",
    "C53_fewest",
    "C53_limits_refuted",
    "C53_memory",
    "C53_oversize_refuted",
    "C53_empty_refuted",
    "C53_broadcast",
    "C53_axis",
    "C53_assertion_refuted",
    "C53_dtype",
    "C53_dtype_refuted",
    "C53_zero_refuted",
    "C53_sources_refuted"
   ],
   "note": "Values, sharding, order, number of batches and memory are proved for all inputs; dtype and sign of zero are not always kept (refuted). The behaviour of jnp.sum and make_array_from_single_device_arrays is assumed as named in Broadcast_Model."
  },
  {
   "property": "C54",
   "status": "partial",
   "theorems": [
    "C54_topology",
    "C54_distinct",
    "C54_positions",
    "C54_positions_refuted",
    "C54_complete",
    "C54_full_copy",
    "C54_full_copy_refuted",
    "C54_source",
    "C54_no_source",
    "C54_spread",
    "C54_sync",
    "C54_sync_refuted",
    "C54_restore",
    "C54_persistent",
    "C54_given_persistent",
    "C54_all_or_none",
    "C54_fallback_refuted",
    "C54_owner_refuted",
    "C54_prefetch",
    "C54_prefetch_refuted"
   ],
   "note": "Proved for all meshes, scans and disks, with the conditions stated (one owner per disk, working network) for the restore of all processes. Refuted parts: coordinated fallback, owners from the latest step, spanning processes, ranks as positions, unreadable latest step, second restore of the prefetched step."
  },
  {
   "property": "C55",
   "status": "proved",
   "theorems": [
    "C55_numbers",
    "C55_exact",
    "C55_message",
    "C55_cut_message",
    "C55_answer",
    "C55_other_message",
    "C55_no_data_refuted",
    "C55_no_data",
    "C55_file",
    "C55_cut_file",
    "C55_sendable",
    "C55_one_place",
    "C55_contained",
    "C55_accepted",
    "C55_plain",
    "C55_fetched",
    "C55_unsafe",
    "C55_whole",
    "C55_empty_file_refuted",
    "C55_all_files_refuted",
    "C55_manifest_refuted"
   ],
   "note": "Proved as stated for every fragmentation, link layout and completion order. Refuted companions record what the code does not give: a message without data is received as an error (dead branch), a whole shard with an empty file may be refused depending on completion order, empty files are never created, and sizes of the manifest are compared with nothing."
  },
  {
   "property": "C56",
   "status": "partial",
   "theorems": [
    "C56_closest",
    "C56_request",
    "C56_zone_only_refuted",
    "C56_zone_region_refuted",
    "C56_region_of_zone",
    "C56_matching",
    "C56_under",
    "C56_own_place",
    "C56_place_again",
    "C56_inside_refuted",
    "C56_validate",
    "C56_initialize",
    "C56_kept",
    "C56_verify",
    "C56_verify_refuted",
    "C56_restart_refuted"
   ],
   "note": "All proved; refuted: a request with only a zone does not use the zone's region, a zone is compared with regions as a prefix, paths with '..' leave the prefix, a configuration listing a backend twice hides another one, empty lists of regions break the check after filling."
  },
  {
   "property": "C57",
   "status": "partial",
   "theorems": [
    "C57_select",
    "C57_claim",
    "C57_final",
    "C57_owner",
    "C57_capacity",
    "C57_capacity_refuted",
    "C57_exclusive",
    "C57_exclusive_claims_refuted",
    "C57_exclusive_late_refuted",
    "C57_stuck_refuted"
   ],
   "note": "Proved for all interleavings; the bounds on leases under the stated conditions, with witnesses that they fail without. FOR UPDATE on an outer join (db_lib.py l.370-390) is taken to execute as written."
  },
  {
   "property": "C58",
   "status": "partial",
   "theorems": [
    "C58_unique",
    "C58_rows",
    "C58_end",
    "C58_deletion",
    "C58_deleted",
    "C58_keep_alive",
    "C58_ready_refuted",
    "C58_finalize_refuted",
    "C58_prefetch_refuted",
    "C58_failed_deletion_refuted",
    "C58_finalize_error_refuted"
   ],
   "note": "Invariants proved for all interleavings; five witnesses for the exceptions. Physical deletion and storage are not modelled."
  },
  {
   "property": "C60",
   "status": "partial",
   "theorems": [
    "C60_value",
    "C60_written",
    "C60_round_trip",
    "C60_refused",
    "C60_local_refuted",
    "C60_renamed_refuted",
    "C60_unique_refuted",
    "C60_integer_keys_refuted"
   ],
   "note": "Holds with the exceptions that are refuted: local classes and renamed fields make the text unreadable, the made-up class names collide, integer keys become strings."
  },
  {
   "property": "C59",
   "status": "partial",
   "theorems": [
    "C59_key",
    "C59_round_trip",
    "C59_rich",
    "C59_tree",
    "C59_nested",
    "C59_merge",
    "C59_merge_refused",
    "C59_merge_succeeds",
    "C59_lost_leaf_refuted",
    "C59_hidden_leaf_refuted",
    "C59_mixed_refuted",
    "C59_empty_custom_refuted",
    "C59_one_tree_refuted",
    "C59_custom",
    "C59_unflatten",
    "C59_twice_refuted",
    "C59_integer_keys_refuted"
   ],
   "note": "All of it is proved for trees of lists, tuples, named tuples and dictionaries without empty nodes (the caller puts metadata in their place); the exceptions named in the statement are refuted with witnesses. Key types outside sequences, dictionaries and attributes, and directories inside parameter infos, are not modelled."
  },
  {
   "property": "C61",
   "status": "proved",
   "theorems": [
    "C61_paths",
    "C61_paths_refuted",
    "C61_uuid",
    "C61_order",
    "C61_literal",
    "C61_filter",
    "C61_requests",
    "C61_session",
    "C61_finalized",
    "C61_union",
    "C61_replaced_refuted",
    "C61_dropped_refuted",
    "C61_filled_refuted",
    "C61_mixed_refuted",
    "C61_format_refuted",
    "C61_custom",
    "C61_custom_refuted"
   ],
   "note": "Saves follow one another and are completed in order; the files of the arrays are not modelled. Proved for all sessions of one array format; what is false is refuted with a witness."
  },
  {
   "property": "C62",
   "status": "partial",
   "theorems": [
    "C62_kept",
    "C62_placed",
    "C62_unfinished",
    "C62_collision",
    "C62_refused",
    "C62_resume",
    "C62_resume_files",
    "C62_saves",
    "C62_stuck_refuted",
    "C62_manifest_refuted",
    "C62_handler_refuted",
    "C62_repeated_refuted",
    "C62_truncated_refuted",
    "C62_overlap_refuted"
   ],
   "note": "Proved: no data file is lost under any kills and repeated runs, placement, no overwriting, collisions refused, resumption between pending directories and inside plain files, saves one after another. Refuted: resumption in general (a kill inside a pytree leaves a session that can never be finalized, or one finalized without its OCDBT manifest; array metadata entries repeated; metadata lost when killed while writing) and overlapping asynchronous saves."
  },
  {
   "property": "C63",
   "status": "partial",
   "theorems": [
    "C63_round_trip",
    "C63_fields",
    "C63_no_list",
    "C63_reserved_key_refuted",
    "C63_writes",
    "C63_read_all",
    "C63_stray_file_refuted",
    "C63_check",
    "C63_check_order",
    "C63_finalize",
    "C63_finalize_none",
    "C63_missing_process_refuted",
    "C63_extension_refuted",
    "C63_duplicates_refuted",
    "C63_batches",
    "C63_keys",
    "C63_restore_order",
    "C63_unchecked_refuted",
    "C63_write_shapes"
   ],
   "note": "Proved for all processes, interleavings of batches, listing orders and extensions. Refuted as parts of what the code or its comments promise: reserved key in an extension, stray process_* file, missing process accepted, extensions not compared, shadowed duplicates not compared, and no check when every host is primary."
  },
  {
   "property": "C64",
   "status": "partial",
   "theorems": [
    "C64_one_handler",
    "C64_stable",
    "C64_routing",
    "C64_new_item",
    "C64_committed",
    "C64_finalizes",
    "C64_finalized_again",
    "C64_round_trip",
    "C64_restores",
    "C64_order",
    "C64_another_handler",
    "C64_finalized_by_saver_refuted",
    "C64_restored_by_saver_refuted",
    "C64_general_handler_refuted",
    "C64_same_args_again_refuted",
    "C64_refused_without_effect_refuted",
    "C64_legacy_restored_refuted",
    "C64_default_registry_refuted",
    "C64_empty_save_refuted"
   ],
   "note": "One handler per item, stability, routing, committed saves, finalization with and after failures, round trip, order, and restoring by a new handler are proved for every run. Refuted, with witnesses: the same for registries with two handlers of one item (finalize takes the first, restore without args the last), restoring with the registered restore args what a handler registered for all items saved, saving twice with a second class of save args, saving after a refused save, restoring a wrapped asynchronous handler without args, create_default_handler_registry with one class of args for both, and finalizing a save of nothing."
  },
  {
   "property": "C65",
   "status": "partial",
   "theorems": [
    "C65_committed",
    "C65_errors",
    "C65_wait_ends",
    "C65_drains",
    "C65_last",
    "C65_no_fault",
    "C65_why_failed",
    "C65_saves_fine",
    "C65_blocking",
    "C65_stolen_refuted",
    "C65_unread_refuted",
    "C65_two_stores_refuted",
    "C65_changed_refuted",
    "C65_in_place_refuted",
    "C65_reader_refuted",
    "C65_again_refuted"
   ],
   "note": "Proved for the store with a background thread and the blocking store; the provisos (no stolen error, no failed read, no second store, unchanged user objects) are each shown necessary by a refutation."
  },
  {
   "property": "C66",
   "status": "partial",
   "theorems": [
    "C66_serialize",
    "C66_round_trip",
    "C66_stable",
    "C66_written",
    "C66_deserialize",
    "C66_argument",
    "C66_keywords",
    "C66_update",
    "C66_save",
    "C66_additional",
    "C66_additional_ok",
    "C66_root",
    "C66_root_read",
    "C66_two_unknown_refuted",
    "C66_twice_refuted",
    "C66_unknown_metric_refuted",
    "C66_statistics_refuted",
    "C66_validation_refuted",
    "C66_nested_refuted"
   ],
   "note": "Proved: exact acceptance of serializing, deserializing, keyword validation and additional metrics; the round trip through JSON and its stability; what an update changes; a save from first write to commit; the root's metadata. Refuted (real behaviour of the code): two unknown names with empty custom metadata, deserializing one dictionary twice, unknown float performance metrics, statistics other than floats, truth values as times and falsy metrics, nested keys that are numbers."
  },
  {
   "property": "C67",
   "status": "partial",
   "theorems": [
    "C67_fuse_keys",
    "C67_fuse_pattern",
    "C67_fuse_overwrites_refuted",
    "C67_fuse_prefix_refuted",
    "C67_fuse_same_part_refuted",
    "C67_rename",
    "C67_rename_kept",
    "C67_rename_refuted",
    "C67_repeat_keys",
    "C67_repeat_pattern",
    "C67_repeat_twice_refuted",
    "C67_stack",
    "C67_stack_exact",
    "C67_stack_none",
    "C67_stack_left",
    "C67_stack_lost_refuted",
    "C67_stack_overwrites_refuted",
    "C67_stack_dropped_refuted",
    "C67_stack_broadcast_refuted",
    "C67_stack_axis_refuted",
    "C67_stream",
    "C67_stream_slices_refuted",
    "C67_stream_axis_refuted",
    "C67_nest_target",
    "C67_nest_target_left",
    "C67_nest",
    "C67_nest_lost_refuted"
   ],
   "note": "Proved: all operations, under the stated conditions on names, exactly (including when they fail); refuted without them: parameters are lost without a word when renaming or a fused or stacked name collides, parts of which one begins another are never fused, two keys that are the same part of the same name leave one behind, a key given twice is repeated twice, with a filler indices beyond the expected number are dropped, shapes are broadcast and axes from the back are taken wrongly, streaming ignores the slices of other axes and announces a wrong shape for axes from the back, and a failure in place has already taken the caller's parameters."
  },
  {
   "property": "C68",
   "status": "partial",
   "theorems": [
    "C68_runs",
    "C68_one_run",
    "C68_blocks",
    "C68_over_read",
    "C68_over_read_refuted",
    "C68_uniform",
    "C68_auto_reads_refuted",
    "C68_auto_zero_refuted",
    "C68_chunks",
    "C68_filled",
    "C68_load",
    "C68_load_whole",
    "C68_checks",
    "C68_accepts",
    "C68_header_refuted"
   ],
   "note": "Proved: runs of parts in row-major order, one run for a split first dimension, the partition of the runs into blocks with a bound of what is over-read, one block for uniform runs under the chosen ratio, disjoint bounded chunks, the bytes of every destination for every order of the chunks, what a load with or without a state has on every device, the checks, and when a plan is made. Refuted: that a ratio of 2 pulls at most twice what is needed (runs less than a page apart are always put together), that the chosen ratio bounds the number of requests for runs that are not uniform, that the choice never fails (division by zero for empty tensors far apart), and that a header whose offsets disagree with the shape is refused. Ratios are exact fractions: the rounding of floats is not modelled; header parsing, the limiter and the building of arrays are not."
  },
  {
   "property": "C69",
   "status": "partial",
   "theorems": [
    "C69_add",
    "C69_unique",
    "C69_copy",
    "C69_local",
    "C69_local_alone",
    "C69_get_error",
    "C69_local_again_refuted",
    "C69_example_refuted",
    "C69_secondary_refuted",
    "C69_save",
    "C69_load",
    "C69_fallback",
    "C69_direct",
    "C69_same",
    "C69_roundtrip",
    "C69_scoped_refuted",
    "C69_secondary_first_refuted",
    "C69_undecided_refuted",
    "C69_stateful_refuted",
    "C69_construct_refuted",
    "C69_type_get",
    "C69_type_add",
    "C69_type_override",
    "C69_typestr",
    "C69_override_refuted",
    "C69_stale_refuted",
    "C69_recorded"
   ],
   "note": "Registration, copies and local registries, resolution for saving and loading (exact, with the precedence as a specification), the fallback to the handler of 'state', and the whole round trip, are proved; so are the lookups of the registry of types and what adding keeps. Refuted: that a local registry can be the base of another with the global entries, the example of the module's documentation (refused as already present), that merging keeps the further names of global handlers, that the handler of a name is always used for loading, that the recorded handler comes before one that has the name as a further one, that a handler which defers to the recorded name is used, that objects that save themselves are loaded by the same handler without an abstract value, that handlers without a default constructor are refused when added (instead nothing can be saved), that overriding a type keeps the handlers of other types, and that the name of a replaced handler is forgotten. Handlers are numbers with capabilities as functions; the properties of the objects (what a handler can save) are inputs."
  },
  {
   "property": "C70",
   "status": "partial",
   "theorems": [
    "C70_layout",
    "C70_inside",
    "C70_empty_refuted",
    "C70_is_orbax_refuted",
    "C70_auto",
    "C70_named",
    "C70_pytree_refuted",
    "C70_safetensors",
    "C70_saved",
    "C70_roundtrip",
    "C70_load",
    "C70_auto_same",
    "C70_requested",
    "C70_metadata",
    "C70_nothing_refuted",
    "C70_direct_refuted",
    "C70_metadata_all_refuted",
    "C70_name_refuted",
    "C70_trainer_refuted",
    "C70_trainer",
    "C70_direct",
    "C70_direct_one",
    "C70_metadata_one"
   ],
   "note": "Everything stated is proved. Refuted besides: that a checkpoint needs metadata or a valid part (an empty directory is one); that what is said to be a checkpoint can be loaded; that 'pytree' is taken first, as documented; that an empty checkpoint is a KeyError, as documented; that an old checkpoint whose metadata can be read without a name can be loaded without one; that the metadata of a part needs only a handler for that part; that names that pass the checks can be saved; that saving with metrics leaves the dictionary of the caller alone."
  },
  {
   "property": "C71",
   "status": "partial",
   "theorems": [
    "C71_workers",
    "C71_known",
    "C71_partition",
    "C71_order",
    "C71_representative_refuted",
    "C71_accepts",
    "C71_rejects",
    "C71_peers",
    "C71_peers_meaning",
    "C71_peers_mutual",
    "C71_remap",
    "C71_remap_error",
    "C71_remap_back",
    "C71_remap_disjoint",
    "C71_remap_twice_refuted",
    "C71_latest",
    "C71_latest_none",
    "C71_latest_common",
    "C71_latest_refuted",
    "C71_retry",
    "C71_retry_gives_up",
    "C71_should_save",
    "C71_save",
    "C71_save_latest",
    "C71_worker",
    "C71_save_refuted",
    "C71_restore",
    "C71_restore_latest",
    "C71_restore_negative_refuted",
    "C71_lifecycle"
   ],
   "note": "Topology, peers, renaming, retry and unanimity are proved exactly. Refuted: the representative device depends on the order; repeated source ids are renamed to the last target; the latest common step is missed if a worker has 128 greater ones; a save returns True though no worker saved; a negative step makes workers restore different steps."
  },
  {
   "property": "C72",
   "status": "partial",
   "theorems": [
    "C72_saves",
    "C72_told",
    "C72_no_loss",
    "C72_no_deadlock",
    "C72_bounded",
    "C72_rest",
    "C72_outcome",
    "C72_failed",
    "C72_undrained",
    "C72_finish",
    "C72_retry",
    "C72_impatient",
    "C72_check",
    "C72_recovery_refuted",
    "C72_two_savers_refuted",
    "C72_join_refuted"
   ],
   "note": "Small-step model of _ControllerSaveHandoffLifecycle and the part of save that publishes: what is done under the lock is one step. Proved for all interleavings: at most one persist, truthful outcomes, no loss with a single saver, no deadlock, boundedness, every call has an outcome. Refuted: recovery after a failed handoff, two concurrent savers, a waiting drain between publication and start of the thread. Not modelled: the preparation of the state, the persistent manager itself, the decision whether to save (C71)."
  },
  {
   "property": "C73",
   "status": "partial",
   "theorems": [
    "C73_validate",
    "C73_save",
    "C73_dataset_lost_refuted",
    "C73_delete",
    "C73_delete_refuted",
    "C73_delete_error_refuted",
    "C73_restore",
    "C73_value",
    "C73_sidecar",
    "C73_mismatch",
    "C73_elastic",
    "C73_dataset",
    "C73_leaf",
    "C73_latest",
    "C73_dataset_restore_refuted",
    "C73_dataset_tree_refuted",
    "C73_ragged_refuted",
    "C73_mesh_axes_refuted",
    "C73_sharding_metadata_refuted",
    "C73_single_refuted"
   ],
   "note": "Arguments, saves, deletes, restores in standard and sidecar mode, and the dataset are proved for all inputs; refuted are the lost dataset, its restore, tree datasets, deletes of steps without dataset, the check of ragged tables, (mesh, axes) arguments, metadata of shardings and arrays on one device."
  },
  {
   "property": "C74",
   "status": "partial",
   "theorems": [
    "C74_complete",
    "C74_destination",
    "C74_told",
    "C74_refused",
    "C74_refused_ends",
    "C74_progress",
    "C74_no_deadlock",
    "C74_race",
    "C74_bounded",
    "C74_ends",
    "C74_creation",
    "C74_overwrite_refuted",
    "C74_free_refuted",
    "C74_active_refuted",
    "C74_creation_refuted"
   ],
   "note": "Proved for all interleavings of the newer save and of the older synchronous one. Refuted: overwriting with several processes can hang with the old checkpoint gone (and nothing ever brings it back, C74_race); handlers without barriers can be committed without the parts of other processes; a proper subset of active processes hangs at the check of paths; a failed creation of directories is reported to the first that waits only."
  },
  {
   "property": "C75",
   "status": "proved",
   "theorems": [
    "C75_result",
    "C75_sync",
    "C75_save",
    "C75_listed",
    "C75_latest",
    "C75_contents",
    "C75_disk",
    "C75_written",
    "C75_loaded",
    "C75_survivor",
    "C75_progress",
    "C75_bounded",
    "C75_ends",
    "C75_swap_refuted",
    "C75_overwrite_refuted",
    "C75_latest_refuted",
    "C75_lightweight_refuted",
    "C75_forgotten_refuted",
    "C75_stale_response_refuted"
   ],
   "note": "Proved for every interleaving: save reports the truth, listed steps are on disk, latest and load agree with the disk, a checkpoint survives every stop, no deadlock. The refuted theorems are findings outside of these statements (calling save_async before the thread of the last save has begun to wait; overwrite with a policy that then skips; load right after save_async; lightweight_initialize; forgotten older steps; stale responses)."
  },
  {
   "property": "C76",
   "status": "partial",
   "theorems": [
    "C76_text",
    "C76_round_trip",
    "C76_missing",
    "C76_never_raises",
    "C76_or_none",
    "C76_classes",
    "C76_made",
    "C76_keys",
    "C76_key_bits",
    "C76_file",
    "C76_metadata",
    "C76_restored",
    "C76_origin",
    "C76_standard",
    "C76_target",
    "C76_fallback",
    "C76_maximal",
    "C76_memory_refuted",
    "C76_equal_refuted",
    "C76_process_refuted",
    "C76_unreadable_refuted",
    "C76_other_refuted",
    "C76_not_maximal_refuted",
    "C76_subset_refuted"
   ],
   "note": "Round trip of metadata and texts, keys, file, restore arguments, standard handler and maximal shardings. Refuted: memory kind lost; metadata not equal after a round trip with several axes; single-device shardings of other processes; fallback not used for unreadable texts; other classes of shardings come back as numpy; maximal shardings not maximal."
  },
  {
   "property": "C77",
   "status": "partial",
   "theorems": [
    "C77_needed",
    "C77_read",
    "C77_origin",
    "C77_unread",
    "C77_plain",
    "C77_structure",
    "C77_dispatch",
    "C77_errors",
    "C77_made",
    "C77_own_args_refuted",
    "C77_minimal_refuted",
    "C77_value_fn_refuted",
    "C77_inputs_refuted",
    "C77_no_args_refuted",
    "C77_partial_restore_refuted",
    "C77_partial_params",
    "C77_no_files",
    "C77_mismatch",
    "C77_function"
   ],
   "note": "Proved as stated. Refuted beside it: an output is not always restored with its own arguments (shared arrays), arrays that are not needed are read, value_fn of RestoreTransform does not get RestoreArgs, inputs named with None are not read, missing restore_args can be a KeyError, partial_restore is dropped with an aggregate file."
  },
  {
   "property": "C78",
   "status": "partial",
   "theorems": [
    "C78_peers",
    "C78_symmetric",
    "C78_ranks_needed",
    "C78_ranks",
    "C78_slices_refuted",
    "C78_file",
    "C78_atomic",
    "C78_lines",
    "C78_numbers",
    "C78_run_refuted",
    "C78_wait",
    "C78_errors",
    "C78_failed_refuted",
    "C78_names",
    "C78_restore",
    "C78_followed",
    "C78_quiet",
    "C78_stopped",
    "C78_again_refuted",
    "C78_poll",
    "C78_info",
    "C78_arguments",
    "C78_start",
    "C78_started",
    "C78_start_time",
    "C78_timeout_refuted",
    "C78_stale_refuted",
    "C78_worker"
   ],
   "note": "Proved for all mappings, directories, behaviours of the replicator and timeouts. Refuted: an empty or unreadable replicator.failed is deleted and ignored; a replicator.failed from an earlier run makes a new start fail; a run name with a newline injects lines into the request; a marker for a step still in the local directory makes the start fail; slices of processes that are not consecutive give peers in the same slice; the given timeout does not bound the start without colocated python. One round of polling is one step of the model."
  },
  {
   "property": "C79",
   "status": "partial",
   "theorems": [
    "C79_specific",
    "C79_exact",
    "C79_missing",
    "C79_missing_error",
    "C79_abstract",
    "C79_abstract_exact",
    "C79_abstract_missing",
    "C79_protocol",
    "C79_leaves",
    "C79_abstract_leaves",
    "C79_leaves_error",
    "C79_validated",
    "C79_abstract_validated",
    "C79_distinct",
    "C79_scores",
    "C79_refused",
    "C79_refused_error",
    "C79_added",
    "C79_duplicate",
    "C79_updated",
    "C79_registered",
    "C79_order",
    "C79_all",
    "C79_standard",
    "C79_v0_made",
    "C79_v0",
    "C79_v0_typestr",
    "C79_typestr",
    "C79_stable_refuted",
    "C79_override_refuted",
    "C79_typestrs_refuted",
    "C79_dropped_refuted",
    "C79_same_members_refuted",
    "C79_inherited_refuted",
    "C79_names_refuted",
    "C79_clash_refuted",
    "C79_number_refuted"
   ],
   "note": "Proved for all sequences of registrations and all class hierarchies. Refuted in general: that a registration leaves the handlers of other types alone (incomparable types are decided by the number of bases; an override removes entries that share the abstract type), that new typestrs are used, that protocols with equal or inherited members are told apart, that names or typestrs shared by handlers do no harm, and that np.number is handled as the comment says."
  },
  {
   "property": "C80",
   "status": "partial",
   "theorems": [
    "C80_roundtrip",
    "C80_roundtrip_in_place",
    "C80_chunk_sizes",
    "C80_refused",
    "C80_errors",
    "C80_restore_errors",
    "C80_handler",
    "C80_caller",
    "C80_byte_order_refuted",
    "C80_list_refuted",
    "C80_marker_refuted",
    "C80_int_keys_refuted",
    "C80_dtype_name_refuted",
    "C80_in_place_refuted",
    "C80_mixed_keys_refuted",
    "C80_tuple_names",
    "C80_copied"
   ],
   "note": "The round trip, the sizes of chunks, the errors and the handler are proved. Refuted: arrays of the other byte order come back with other values; large arrays in lists are refused where they are saved in dicts; dicts with the key of chunks or with integer keys are saved but not restored; arrays of texts are not restored; a save in place leaves chunks in the tree of the caller; keys of several types are refused by the copy."
  },
  {
   "property": "C81",
   "status": "partial",
   "theorems": [
    "C81_pass_exact",
    "C81_equal_tolerances",
    "C81_tolerances_swapped_refuted",
    "C81_same_outputs_pass",
    "C81_key_order",
    "C81_scalar_mismatches",
    "C81_partly_different_refuted",
    "C81_empty_mismatch_refuted",
    "C81_nan_fails_refuted",
    "C81_float_shapes_refuted",
    "C81_kinds_crosswise_refuted",
    "C81_one_signature",
    "C81_faithful_passes",
    "C81_bare_array_refuted",
    "C81_validate",
    "C81_inference",
    "C81_make_config",
    "C81_passthrough_refuted",
    "C81_processors_ignored_refuted"
   ],
   "note": "Exact conditions of a pass, round of all signatures, bound functions and accepted configs are proved. The property as documented is refuted in several ways: the tolerances are handed to numpy in the wrong order, tensors without floats only mismatch when all elements differ, equal empty ones mismatch, NaN never passes, shapes of floats and kinds of leaves are not compared, a bare array is split into rows, and processors of the new kinds are never run."
  },
  {
   "property": "C82",
   "status": "partial",
   "theorems": [
    "C82_spec_with_default",
    "C82_spec_errors",
    "C82_defaults",
    "C82_default_errors",
    "C82_with_default_args",
    "C82_documented_order_refuted",
    "C82_auto_batching_primary",
    "C82_auto_batching_other",
    "C82_auto_batching",
    "C82_primary_not_tiled_refuted",
    "C82_exported_map",
    "C82_joined_twice_refuted",
    "C82_empty_map_refuted",
    "C82_slash_key_refuted",
    "C82_param_names",
    "C82_same_name_refuted",
    "C82_lower",
    "C82_platforms",
    "C82_platforms_name_refuted",
    "C82_to_bfloat16",
    "C82_bfloat16_floats_refuted",
    "C82_names",
    "C82_save_refused"
   ],
   "note": "Proved: defaults, calls, batching, round trip of saved maps for absolute directories and keys without slashes, different names for keys without dots and tildes, platforms when the enumeration is at hand, conversion to bfloat16. Refuted: the directory is joined twice (relative and remote directories fail), empty maps and keys with slashes do not come back, names of parameters can collide, manifest_pb2 is not imported, the documented order of defaults, tiling of primary tensors, and conversion of python floats."
  },
  {
   "property": "C83",
   "status": "partial",
   "theorems": [
    "C83_global_id",
    "C83_no_global_id",
    "C83_backend_devices",
    "C83_map",
    "C83_map_order",
    "C83_resolve",
    "C83_normalize",
    "C83_install",
    "C83_unique",
    "C83_sharding",
    "C83_args",
    "C83_args_errors",
    "C83_single",
    "C83_tree",
    "C83_tree_total",
    "C83_spec_without_sharding_refuted",
    "C83_weak_type_refuted",
    "C83_final",
    "C83_final_guard_refuted",
    "C83_zeros",
    "C83_zeros_errors"
   ],
   "note": "Proved: parsing of global ids, deduplication of devices, the map of CPU devices and its independence of the order, resolution of ids, normalisation before serialisation, the patch, moving of shardings, restore arguments and trees, final specs, zeros. Refuted: a spec without a sharding makes a tree a TypeError, weak types are lost, and a final spec without a sharding is an AttributeError although the code asks for it."
  },
  {
   "property": "C84",
   "status": "partial",
   "theorems": [
    "C84_placement",
    "C84_even",
    "C84_tuple",
    "C84_elements",
    "C84_rank",
    "C84_rank_refuted",
    "C84_no_jax_mesh_refuted",
    "C84_system",
    "C84_failed_start_refuted",
    "C84_stack",
    "C84_pspecs"
   ],
   "note": "Proved: placement of parts, equal parts, choice of the axis for tuples, rank of layouts, the state of the system, the stack of meshes, specs of trees. Refuted: a spec longer than the rank is not refused, consolidation without a jax mesh is a TypeError, and a failed initialisation can neither be repeated nor shut down."
  },
  {
   "property": "C85",
   "status": "partial",
   "theorems": [
    "C85_shutdown_waits",
    "C85_shutdown_returns",
    "C85_order",
    "C85_closed",
    "C85_taken",
    "C85_cancel",
    "C85_capture",
    "C85_no_wait_refuted",
    "C85_spawned_refuted",
    "C85_run_sync",
    "C85_nested_neither",
    "C85_registered",
    "C85_nested_refuted",
    "C85_cancellable"
   ],
   "note": "Proved for all interleavings. Refuted parts: without wait, coroutines that were taken never end and need not be asked to cancel; tasks started during the wait are left; with nest_asyncio a nested run_sync deletes the outer registration."
  },
  {
   "property": "C86",
   "status": "partial",
   "theorems": [
    "C86_input_from_specs",
    "C86_discarded",
    "C86_results",
    "C86_no_input",
    "C86_once",
    "C86_empty_specs_refuted",
    "C86_no_sharding_refuted",
    "C86_outside_refuted"
   ],
   "note": "Proved for all trees, devices and functions. Refuted parts: an empty container of result specs is taken for missing although the result is kept; specs without a sharding are collected but then refused; with one mesh in the specs the devices outside of it are not looked at."
  },
  {
   "property": "C87",
   "status": "partial",
   "theorems": [
    "C87_save",
    "C87_order",
    "C87_latest",
    "C87_join",
    "C87_join_returns",
    "C87_worker",
    "C87_increasing",
    "C87_reset",
    "C87_reset_refuted",
    "C87_crash_refuted",
    "C87_load",
    "C87_load_errors",
    "C87_pin",
    "C87_sharded_refuted",
    "C87_no_mesh_refuted"
   ],
   "note": "Proved for all interleavings and trees. Refuted parts: a load that replaces the snapshot throws a newer one away; an unexpected error ends the worker for good and join never returns; arrays sharded over the replica axis are cut short when a replica is lost; arrays without a mesh are saved but never loaded."
  },
  {
   "property": "C88",
   "status": "partial",
   "theorems": [
    "C88_parse",
    "C88_refused",
    "C88_ends",
    "C88_rmtree",
    "C88_flat",
    "C88_mark_refuted",
    "C88_root_refuted"
   ],
   "note": "Proved for all buckets, paths and orders. Refuted parts: a number sign or question mark in a path makes the folders of another directory be deleted; the folders of a bucket that is removed as a whole stay."
  },
  {
   "property": "C89",
   "status": "partial",
   "theorems": [
    "C89_pytree",
    "C89_orbax",
    "C89_ocdbt",
    "C89_tensorflow_refuted",
    "C89_directory_refuted",
    "C89_root_refuted"
   ],
   "note": "Proved for all directory trees. Refuted parts, which are promises of the documentation: the directory of a TensorFlow checkpoint, each directory with a subdirectory called checkpoint, and roots whose steps have no item name are taken for checkpoints."
  },
  {
   "property": "C90",
   "status": "partial",
   "theorems": [
    "C90_token",
    "C90_permission",
    "C90_zone",
    "C90_region",
    "C90_empty_token_refuted",
    "C90_case_refuted",
    "C90_empty_zone_refuted"
   ],
   "note": "Proved for all headers and texts. Refuted parts: an empty token lets a caller in; the word for the kind of token in lower case is refused; an answer without zone gives an empty zone and not none."
  }
 ]
}
