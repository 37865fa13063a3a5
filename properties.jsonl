{"id":"C01","title":"LatestN keeps exactly the newest n checkpoints","statement":"For every chronological list of checkpoints and every n, the LatestN preservation policy (max_to_keep) answers with one decision per checkpoint, in order, and preserves checkpoint i exactly when fewer than n checkpoints come after it; n=None preserves everything and n=0 nothing.","quantifier":"all checkpoint lists (any length, steps, times, metrics) and all n (None or a natural number)","why_tests_cant":"Unit tests check a handful of lists and n; the off-by-one behaviour at len=n, n=0 and n>len has to hold for every list length, because a wrong answer deletes a user's checkpoint.","anchors":["checkpoint/orbax/checkpoint/_src/checkpoint_managers/preservation_policy.py: LatestN.should_preserve"]}
{"id":"C02","title":"EveryNSteps keeps exactly the multiples of the interval, capped to the newest max_to_keep","statement":"With exact_interval=True and a non-zero interval, a checkpoint is preserved iff its step is a multiple of the interval and (when max_to_keep is given) fewer than max_to_keep later checkpoints of the list are multiples too. A zero interval is rejected with an error, not a decision.","quantifier":"all checkpoint lists, all intervals, all max_to_keep values including None and 0","why_tests_cant":"The cap is implemented by negative slicing, whose edge value (0) behaves differently from all others; only a statement over all caps exposes it.","anchors":["preservation_policy.py: EveryNSteps.should_preserve"]}
{"id":"C03","title":"Interval policies (seconds, non-exact steps) are greedy spacing filters","statement":"EveryNSeconds(t) and EveryNSteps(exact_interval=False) preserve the first checkpoint, never preserve two consecutive preserved checkpoints closer than the interval, and drop a checkpoint only if it lies less than the interval after the last preserved checkpoint before it.","quantifier":"all checkpoint lists with arbitrary (not necessarily increasing) times/steps and all intervals","why_tests_cant":"The decision depends on the whole prefix (running state last_preserved); tests cover specific spacings only.","anchors":["preservation_policy.py: EveryNSeconds.should_preserve","preservation_policy.py: EveryNSteps.should_preserve"]}
{"id":"C04","title":"BestN keeps n checkpoints no worse than any dropped one","statement":"For every list and n less than the list length (n>0), BestN keeps min(n, number with metrics) checkpoints carrying metrics, every kept one is at least as good as every dropped one under the metric ordering (or reverse ordering), among equals the later checkpoint wins in max mode, and checkpoints without metrics are kept iff keep_checkpoints_without_metrics; n=None or n>=len keeps all; n=0 keeps none.","quantifier":"all checkpoint lists with arbitrary metric values (including ties and missing metrics), both orderings, all n and flags","why_tests_cant":"Depends on sort stability, reverse semantics and index bookkeeping over every permutation of metrics.","anchors":["preservation_policy.py: BestN.should_preserve"]}
{"id":"C05","title":"AnyPreservationPolicy preserves the union","statement":"A checkpoint is preserved by AnyPreservationPolicy(policies) iff at least one of the policies preserves it; hence adding a policy never causes an additional deletion, and order and duplicates of the policies do not matter.","quantifier":"all non-empty policy lists (arbitrary policies returning one decision per checkpoint) and all checkpoint lists","why_tests_cant":"Ranges over arbitrary user-defined policies and lists.","anchors":["preservation_policy.py: AnyPreservationPolicy.should_preserve"]}
{"id":"C06","title":"LatestDuration keeps a suffix that starts at the first checkpoint inside the window","statement":"LatestDuration preserves checkpoint i iff some checkpoint j<=i is no older than the duration relative to now; in particular for checkpoints in chronological order it keeps exactly those no older than the duration.","quantifier":"all checkpoint lists, times, durations and clock values","why_tests_cant":"Clock values and orders of timestamps are unbounded.","anchors":["preservation_policy.py: LatestDuration.should_preserve"]}
{"id":"C07","title":"EveryNStepsClosest keeps one nearest checkpoint per interval bucket and the last checkpoint","statement":"For interval>0, every preserved checkpoint is the last of the list or is a nearest-to-the-target checkpoint of its bucket (ties: the later one), each non-empty bucket has a preserved representative, the last checkpoint is always preserved (before the cap), and at most max_to_keep are preserved if max_to_keep is given.","quantifier":"all checkpoint lists and positive intervals, all caps","why_tests_cant":"Bucketing uses rounding and a running minimum over the whole list.","anchors":["preservation_policy.py: EveryNStepsClosest.should_preserve"]}
{"id":"C08","title":"Save decision policies decide as documented","statement":"FixedInterval saves iff the step is a multiple of the interval; SpecificSteps iff the step is listed; InitialSave iff there is no previous checkpoint; Preemption iff a preemption was reached; ContinuousCheckpointing never saves while a save is in progress, otherwise saves iff there is no previous checkpoint, no minimum interval, or the minimum interval has elapsed since the latest; AnySavePolicy is the disjunction.","quantifier":"all steps, previous checkpoint lists and contexts","why_tests_cant":"Quantifies over all histories of previous steps and all combinations of policies.","anchors":["save_decision_policy.py: FixedIntervalPolicy, SpecificStepsPolicy, ContinuousCheckpointingPolicy, PreemptionCheckpointingPolicy, InitialSavePolicy, AnySavePolicy"]}
{"id":"C09","title":"A crash never exposes a partial checkpoint","statement":"At every point at which the process may die during any sequence of saves (atomic rename or commit file), every path that is recognised as a finalized checkpoint holds the complete contents handed to the save that created it (all items plus step metadata); a save that did not finish leaves at most a path recognised as temporary or nothing.","quantifier":"all histories of saves to any names, all contents, all crash points between file-system operations, both commit protocols","why_tests_cant":"Tests kill at a few chosen points; the guarantee ranges over every prefix of every operation sequence.","anchors":["_src/path/atomicity.py: AtomicRenameTemporaryPath.create/finalize/validate/validate_final, CommitFileTemporaryPath.*, _create_tmp_directory, on_commit_callback","_src/checkpointers/checkpointer.py: Checkpointer.save/restore","_src/path/temporary_paths.py: is_path_finalized, is_path_temporary"]}
{"id":"C10","title":"Restart cleanup removes every unfinished save and nothing else","statement":"Running the temporary-path cleanup on any directory state removes every path recognised as temporary and leaves every other path, in particular every finalized checkpoint, with identical contents; no path is both temporary and finalized.","quantifier":"all directory states (any names and contents), both commit protocols","why_tests_cant":"Ranges over all directory contents left behind by arbitrary crashes or other programs.","anchors":["temporary_paths.py: is_path_temporary, is_path_finalized, all_temporary_paths, cleanup_temporary_paths","atomicity.py: validate, validate_final"]}
{"id":"C11","title":"Temporary and final names correspond one to one","statement":"The temporary name of a final name always carries the reserved suffix, is never itself a finalized name, and recovering the final name from it gives back the original exactly when the original does not contain the reserved suffix; distinct final names have distinct temporary names.","quantifier":"all path name strings","why_tests_cant":"Ranges over all strings.","anchors":["atomicity.py: _get_tmp_directory, _get_final_directory, AtomicRenameTemporaryPath.from_final/from_temporary"]}
{"id":"C12","title":"Step directory names round-trip","statement":"For every prefix and fixed length, the directory name built for a non-negative step is recognised by the same format as exactly that step, different steps get different names, and any name that is recognised as step s is the name built for s.","quantifier":"all prefixes (None or a string without pattern characters), fixed lengths and steps","why_tests_cant":"Padding, overflow of the fixed length, leading zeros and prefixes have to work for every step number.","anchors":["_src/path/step.py: _StandardNameFormat.build_name, _build_metadata, step_from_checkpoint_name"]}
{"id":"C13","title":"Composite name formats find a step if any read format does","statement":"With a composite format, a step is found iff some read format finds it, the first format that finds it wins, listing returns every path found by some read format exactly once, and anything written with the write format is found again.","quantifier":"all lists of read formats and all directory listings","why_tests_cant":"Arbitrary combinations of formats and directory contents.","anchors":["step.py: _CompositeNameFormat"]}
{"id":"C14","title":"CheckpointManager history: the step list always equals the committed steps on disk","statement":"Starting from any directory, after any sequence of successful save, delete, restore and reload calls through one manager, all_steps() equals the committed steps in the root directory and latest_step() is the last of them; unforced saves are strictly increasing.","quantifier":"all option sets, all initial directory states, all finite call histories","why_tests_cant":"Cache and disk are updated by different code paths; equality has to be an invariant over every history.","anchors":["checkpoint_manager.py: CheckpointManager.save, delete, all_steps, latest_step, reload, _add_checkpoint_info, _load_checkpoint_infos, _get_old_steps_to_remove"]}
{"id":"C15","title":"Retention is exactly what the preservation policy says","statement":"After a successful save the steps remaining are exactly those of (previous steps + new step) that the preservation policy marks as preserved; with the default options (max_to_keep=n, keep_period=p) a step remains iff it is among the newest n or a multiple of p, so at most n non-multiples remain, and the newly saved step always survives when n>=1.","quantifier":"all histories of saves, all policies, all n and p","why_tests_cant":"Requires an inductive argument over whole training runs.","anchors":["checkpoint_manager.py: _get_default_preservation_policy, _get_old_steps_to_remove, save, _finalize"]}
{"id":"C16","title":"A crash during save never loses the last good checkpoint","statement":"At every crash point inside a save (including its garbage collection of old steps), every step that was committed before and is preserved by the policy is still committed, and old steps are only removed once the new step is committed; so if a committed checkpoint existed before and the policy keeps at least one, a committed checkpoint exists at every crash point.","quantifier":"all policies, all directory states, all crash points","why_tests_cant":"All interleavings of commit and delete at every crash point.","anchors":["checkpoint_manager.py: save, _finalize, _finalize_checkpoint","deleter.py: StandardCheckpointDeleter.delete","async_checkpointer.py: _background_wait_for_commit_futures"]}
{"id":"C17","title":"A failed background save is reported and deletes nothing","statement":"If the background write of a save fails, no older checkpoint is deleted because of it, the failing step is not listed by the manager once the failure has been reported, and after reporting the manager's list still equals the committed steps on disk.","quantifier":"all histories with failures injected at any save","why_tests_cant":"Requires all failure positions in all histories.","anchors":["checkpoint_manager.py: wait_until_finished, _finalize, save"]}
{"id":"C18","title":"should_save/save never rewrite an existing or older step","statement":"Without force, save(step) for a step not greater than the latest one returns False and changes nothing; with force, saving an existing step raises StepAlreadyExistsError and leaves that checkpoint untouched; after the error the manager remains usable with an unchanged saving-in-progress status.","quantifier":"all manager states, steps and policies","why_tests_cant":"All states and policies.","anchors":["checkpoint_manager.py: should_save, save, is_saving_in_progress"]}
{"id":"C19","title":"A read-only manager never modifies storage","statement":"No call to save, delete, reload, restore or close on a manager constructed with read_only=True modifies the root directory.","quantifier":"all call sequences and arguments","why_tests_cant":"All call sequences with all argument combinations, including force.","anchors":["checkpoint_manager.py: CheckpointManagerOptions.read_only, should_save, save, delete"]}
{"id":"C20","title":"delete(step) removes exactly that step","statement":"delete(step) on a listed step removes its committed directory and its list entry and leaves every other checkpoint unchanged; on a step that is not listed it raises FileNotFoundError and changes nothing. With rename options the data survives under the trash location.","quantifier":"all directory states (including leftovers of crashed saves) and steps","why_tests_cant":"Directory states with leftovers of crashes are unbounded.","anchors":["checkpoint_manager.py: delete","deleter.py: StandardCheckpointDeleter.delete","step.py: find_step_path"]}
{"id":"C21","title":"Background deleter performs every requested deletion in order and reports failures","statement":"With the threaded deleter, whatever the thread schedule, after close() returns normally every step passed to delete has been deleted, in order and once; if a deletion failed, close() raises that error.","quantifier":"all sequences of delete calls, all interleavings of the worker, all failure positions","why_tests_cant":"Ranges over thread schedules.","anchors":["deleter.py: ThreadedCheckpointDeleter"]}
{"id":"C22","title":"Chunk shapes chosen for storage always tile the shard exactly","statement":"choose_chunk_shape returns, for every shard shape and options, a shape of the same rank in which every dimension is at least 1 and divides the shard's dimension; with a byte target the chunk holds at most the target unless it is a single element, only dimensions listed in shard_axes or needed for the target are split; invalid ranks, axes and targets smaller than one item are rejected.","quantifier":"all global and shard shapes, item sizes, byte targets and shard axes","why_tests_cant":"Arithmetic property over all shapes; a non-dividing chunk shape corrupts or bloats checkpoints.","anchors":["_src/arrays/subchunking.py: _find_divisors, choose_chunk_shape, validate_divisible_shapes"]}
{"id":"C23","title":"Re-chunking a fragment neither loses, duplicates nor moves data","statement":"chunk_fragment splits a contiguous fragment into pieces whose index boxes are pairwise disjoint, cover exactly the fragment's box, have the requested shape, and carry the same value at every global coordinate.","quantifier":"all fragments (any rank, offset), all dividing target shapes, all element values","why_tests_cant":"Every coordinate of every shape.","anchors":["subchunking.py: chunk_fragment, chunk_fragments"]}
{"id":"C24","title":"Fragment slicing and intersection are exact on boxes","statement":"The intersection of two contiguous fragments contains exactly the coordinates in both (None iff there is none); slicing a fragment returns the same values at the coordinates shifted to the slice's origin; Fragments assembled into an array return at each coordinate the value of the last fragment covering it, and assembly is refused unless every coordinate is covered.","quantifier":"all fragments and slices of all ranks","why_tests_cant":"Every coordinate of every pair of boxes.","anchors":["_src/arrays/fragments.py: _GenericFragment.intersect, slice, Fragments.__array__, slice, _is_full"]}
{"id":"C25","title":"Slice normalisation preserves the selected elements","statement":"Resolving, dissolving and normalising N-dimensional slices against a shape selects exactly the same elements as the original slice, results contain no None (respectively no redundant values), and resolve undoes dissolve.","quantifier":"all slices with positive steps (including None and negative bounds) and all shapes","why_tests_cant":"All combinations of None/negative/out-of-range bounds.","anchors":["_src/arrays/numpy_utils.py: resolve_slice, dissolve_slice, normalize_slice, slice_shape, to_hashable_index, from_hashable_index"]}
{"id":"C26","title":"Replicated arrays are written exactly once across all hosts","statement":"For an array replicated R times, taking the slices every process decides to write (replica-parallel or single-replica), every element of the global array is written by exactly one replica, at its own global position, whatever the limits on replicas and minimum slice bytes.","quantifier":"all shard shapes, replica counts, shard index boxes, limits","why_tests_cant":"Needs all divisibility combinations and the global view over all processes, which no single-process test sees.","anchors":["_src/serialization/replica_slices.py: calculate_replica_parallel_axis_and_local_shape, get_replica_slices"]}
{"id":"C27","title":"Resharded restore returns the stored values","statement":"Reading any shard box of the requested global shape returns at every coordinate inside the stored array the stored value and zero outside it; in strict mode a shape mismatch is an error instead; assembling all shards of any box partition gives back the stored array.","quantifier":"all stored arrays, requested shapes, shardings into boxes","why_tests_cant":"All pairs of save-time and restore-time topologies.","anchors":["_src/serialization/serialization.py: _read_shard, _read_array_index_and_device_put, _read_and_create_array, estimate_read_memory_footprint"]}
{"id":"C28","title":"The in-flight byte limit is never exceeded and never deadlocks","statement":"For every schedule of concurrent reads/writes going through the byte limiter, the bytes reserved at any time are less than the configured maximum, every reservation is returned even on failure, requests that could never fit are rejected immediately, and whenever some request waits either it can be granted or some reservation is still outstanding.","quantifier":"all request sizes, all interleavings, all failures","why_tests_cant":"Ranges over schedules.","anchors":["_src/serialization/limits.py: LimitInFlightBytes, reserved_bytes, get_byte_limiter"]}
{"id":"C29","title":"Memory-budgeted batches cover everything and respect the budget on every worker","statement":"The batches yielded for a list of arrays are non-empty, concatenate to the input in order, and every batch with more than one array stays below the budget on every worker.","quantifier":"all array lists, shard placements, replica filters and budgets","why_tests_cant":"All placements of shards over workers.","anchors":["_src/serialization/worker_memory_utils.py: next_memory_budgeted_batch, _estimate_worker_memory_usage, _increment_worker_memory_usage"]}
{"id":"C30","title":"Errors of background saves surface exactly once, and saves never overlap","statement":"With the asynchronous checkpointer, a save or restore starts only after the previous background commit ended; an error of a background commit that was not cancelled is raised by exactly one of the following wait/check/save/restore calls and by the first of them; a successful wait means the previous save committed.","quantifier":"all sequences of save, wait, check_for_errors, cancel calls and all outcomes/timings of background work","why_tests_cant":"All call sequences against all completion timings.","anchors":["_src/checkpointers/async_checkpointer.py: _AsyncManager, AsyncCheckpointer.save/restore/wait_until_finished/check_for_errors/cancel"]}
{"id":"C31","title":"Multi-host commit happens only after every host finished writing","statement":"In every interleaving of the background save threads of all hosts, the commit callback runs at most once, only on the primary host, and only after every participating host's writes completed; no host reports completion before the commit happened; if any host fails, the checkpoint is not committed.","quantifier":"all numbers of hosts, interleavings and failing hosts","why_tests_cant":"Distributed schedules.","anchors":["async_checkpointer.py: _background_wait_for_commit_futures","_src/multihost/multihost.py: sync_global_processes, get_barrier_sync_fn"]}
{"id":"C32","title":"A commit future that did not run to completion is never reported as successful","statement":"Waiting on a commit future returns normally only if its coroutine ran to completion and its completion signals were set; if the coroutine raises anything, or the future was cancelled, waiting raises.","quantifier":"all coroutine outcomes (return, any exception class, cancellation at any point) and waiting times","why_tests_cant":"All exception classes and cancellation points.","anchors":["_src/futures/future.py: _SignalingThread, CommitFuture, ChainedFuture"]}
{"id":"C33","title":"The signalling store is a linearizable key-value map with directory deletion","statement":"Any sequence of set/try_get/delete/dir_get operations on the thread-safe signalling client behaves as on a map: a set without overwrite permission on a present key fails and changes nothing, deleting a key ending in '/' removes exactly the keys below it, removing all signals of one operation id does not touch other operation ids.","quantifier":"all operation sequences and key strings","why_tests_cant":"All keys, e.g. operation ids that are prefixes of each other.","anchors":["_src/futures/signaling_client.py: ThreadSafeKeyValueSignalingClient","future.py: AwaitableSignalsContract"]}
{"id":"C34","title":"The timed reentrant lock gives mutual exclusion and is released","statement":"Whatever the threads do, at most one thread is inside a block guarded by the timed lock, and when all threads have left their blocks the lock is free again.","quantifier":"all numbers of threads, all interleavings, nested blocks and timeouts","why_tests_cant":"Ranges over schedules including timeouts.","anchors":["_src/threading.py: TimeoutRLock","_src/metadata/checkpoint_info.py: CheckpointInfos"]}
{"id":"C35","title":"Flattening a tree to a dictionary and back is lossless","statement":"For nested dictionaries with string keys, from_flat_dict(to_flat_dict(t)) is t (up to empty nodes when they are not kept); with a target tree the result has the target's structure and the value of each leaf is the value stored under that leaf's path; with a separator the same holds when no key contains the separator.","quantifier":"all trees","why_tests_cant":"All tree shapes and keys, including keys containing the separator.","anchors":["_src/tree/utils.py: to_flat_dict, from_flat_dict, tuple_path_from_keypath"]}
{"id":"C36","title":"serialize_tree followed by deserialize_tree returns the original tree","statement":"For every tree built from dictionaries, lists, tuples, named tuples and leaves, deserialize_tree(serialize_tree(t, keep_empty_nodes), t, keep_empty_nodes) = t; serialization replaces tuples by lists and named tuples by dictionaries and changes no leaf.","quantifier":"all trees, both settings of keep_empty_nodes","why_tests_cant":"All tree shapes.","anchors":["tree/utils.py: serialize_tree, deserialize_tree, from_flattened_with_keypath, get_key_name"]}
{"id":"C37","title":"Different parameters get different storage names","statement":"Two different leaves of a tree never receive the same parameter name (the name under which the array is stored).","quantifier":"all trees and pairs of leaves","why_tests_cant":"All key strings; collisions silently overwrite data.","anchors":["tree/utils.py: get_param_names, param_name_from_keypath, get_key_name"]}
{"id":"C38","title":"Partial trees obey the algebra of partial maps","statement":"overlay, intersect, subtraction, filter and partition on PartsOf act leaf-wise as on partial maps: overlay prefers the right operand, intersect and difference split a tree into two disjoint parts whose overlay is the original, partition classes are disjoint and their union is the whole, full_structure succeeds iff every template leaf is present, strict overlay fails iff a leaf is present on both sides.","quantifier":"all templates, values and combinations","why_tests_cant":"Algebraic laws over all trees.","anchors":["_src/tree/parts_of.py: PartsOf, filter_values, partition, map_leaves"]}
{"id":"C39","title":"tree_difference reports None exactly for equal trees","statement":"With leaf equality as comparison, tree_difference(a, b) is None iff a and b are equal (mappings up to key order), and otherwise every reported difference points at a place where they really differ.","quantifier":"all pairs of trees","why_tests_cant":"All pairs of trees.","anchors":["_src/tree/structure_utils.py: tree_difference"]}
{"id":"C40","title":"tree_trim returns a subset of the structure with the template's shape","statement":"If strict tree_trim succeeds, the result has exactly the template's structure, each of its leaves is the structure's leaf at the same path, and every entry of the structure not in the result has been reported to the callback; it fails iff a template key is missing, a sequence length differs or node types are incompatible.","quantifier":"all templates and structures","why_tests_cant":"All pairs of trees.","anchors":["structure_utils.py: tree_trim, _tree_trim"]}
{"id":"C41","title":"Tree transformations fill every requested key from exactly one documented source","statement":"apply_transformations returns a tree with new_tree's structure where each leaf comes from the last matching transformation (renamed original value, value_fn of it, or multi_value_fn result), and otherwise from the original tree if default_to_original and present there, else from new_tree; referring to an absent original key is an error.","quantifier":"all trees and transformation lists","why_tests_cant":"All combinations of keys, matches and fallbacks.","anchors":["transform_utils.py: apply_transformations, merge_trees, intersect_trees"]}
{"id":"C42","title":"The memory regulator always stays within its configured limits","statement":"For every sequence of measurements the next memory limit lies between min_memory_limit_gib and max_memory_limit_gib, the accumulated integral stays within the windup limit, a surge never increases the limit, and usage over the hard limit never increases it.","quantifier":"all accepted configurations and all measurement sequences (exact arithmetic)","why_tests_cant":"Feedback controller over unbounded measurement sequences.","anchors":["_src/serialization/memory_regulator.py: MemoryRegulator"]}
{"id":"C43","title":"Waiting for new checkpoints yields strictly newer steps","statement":"wait_for_new_checkpoint returns either -1 (timeout) or a step that existed, was the largest at that moment and is at least until_step; checkpoints_iterator yields strictly increasing steps and never skips the newest one available.","quantifier":"all evolutions of the directory, timeouts and clock behaviours","why_tests_cant":"All evolutions of an externally changing directory.","anchors":["checkpoint_utils.py: _wait_for_new_checkpoint, wait_for_new_checkpoint, checkpoints_iterator"]}
{"id":"C44","title":"Listing through one host gives every host the same checkpoints","statement":"With the single-host load-and-broadcast option, the listing every host computes from the step numbers broadcast by the primary host contains exactly the checkpoints of a local listing, each once.","quantifier":"all directories with distinct newline-free entry names, all name formats without pattern characters","why_tests_cant":"All directory contents and formats; the broadcast pads and re-globs, so agreement is a property of two different code paths.","anchors":["_src/path/step.py: _StandardNameFormat._find_all_with_single_host_load_and_broadcast, _get_broadcasted_step_list"]}
{"id":"C45","title":"The latest step does not depend on listing order","statement":"The latest checkpoint metadata has the largest step among all found; among paths with the same step it is the one with the lexicographically greatest name, whatever order the file system lists the directory in.","quantifier":"all name formats, directories and listing orders","why_tests_cant":"All permutations of an unbounded listing.","anchors":["_src/path/step.py: latest_step_metadata"]}
{"id": "C46", "title": "best_step returns the step with the optimal metric", "statement": "When a best_fn is configured, best_step() is a listed step whose metric is the maximum (best_mode 'max') or minimum ('min') among the listed steps that have metrics, the last of them on ties; it is None exactly when no listed step has metrics; and a manager restarted on the same directory gives the same answer.", "quantifier": "all step lists with any pattern of missing metrics, both modes", "why_tests_cant": "All lists, tie patterns and missing-metrics patterns.", "anchors": ["checkpoint_manager.py: best_step, _sort_checkpoints_by_metrics, _get_metrics, save"]}
{"id": "C47", "title": "Default save cadence", "statement": "With the default save decision policy, should_save(step) never raises and answers True exactly for a step above the latest one that is a multiple of save_interval_steps, is in save_on_steps, coincides with preemption, or is the first step ever saved.", "quantifier": "all option sets, manager states and steps", "why_tests_cant": "All combinations of interval, extra steps, preemption and history.", "anchors": ["checkpoint_manager.py: should_save, _get_default_save_decision_policy", "save_decision_policy.py: FixedIntervalPolicy, SpecificStepsPolicy, PreemptionCheckpointingPolicy, InitialSavePolicy, AnySavePolicy"]}
{"id": "C48", "title": "Parallel directory removal unlinks exactly the files below the directory", "statement": "When the scheduler of the parallel deleter returns, every file and symbolic link below the directory has been unlinked exactly once, nothing outside the directory has been touched and no link has been followed; before that some thread can always make progress.", "quantifier": "all directory trees, all numbers of workers, all interleavings of scan thread, scheduler and workers", "why_tests_cant": "The exit test of the scheduler reads three shared variables at different times while other threads write them; only an invariant covers every interleaving.", "anchors": ["_src/path/deleter.py: _ParallelDirectoryDeleter"]}
{"id": "C49", "title": "The shared list of checkpoint infos loses nothing", "statement": "Whatever append, set and delete_if operations threads perform on the list of checkpoint infos, the list is what these operations make of it one after the other; in particular an appended info that no deletion selects stays in the list.", "quantifier": "all lists, predicates and interleavings of the operations", "why_tests_cant": "Ranges over interleavings inside delete_if.", "anchors": ["_src/metadata/checkpoint_info.py: CheckpointInfos.append, set, delete_if"]}
{"id": "C50", "title": "Merging trees is a union, or lets the last tree decide", "statement": "merge_trees without overwrite succeeds exactly if no two trees have a leaf or None under the same names and common nodes have the same types, and then has exactly the leaves of all trees at their paths; with overwrite, what is at a path comes from the last tree that decides about it; merging a tree with itself changes nothing.", "quantifier": "all lists of pytrees of dictionaries, lists, tuples, named tuples and None", "why_tests_cant": "All shapes and nestings of several trees.", "anchors": ["_src/tree/structure_utils.py: _check_for_common_keys, _recursive_merge, merge_trees"]}
{"id": "C51", "title": "Replicas partition the mesh and restoring keeps the hardware in place", "statement": "The devices of a replica are those whose index along the replica axis is the replica id, the replicas partition the mesh, and the replica of a process is found correctly; after a restart in which ids changed, the restore mesh has at each place the hardware that was there when the checkpoint was written, so a slice that restores from its storage is made of the hosts that wrote it.", "quantifier": "all mesh shapes, axes, devices and processes, all tables of ids before and after a restart", "why_tests_cant": "Ranges over all shapes and all permutations of ids.", "anchors": ["_src/multihost/multislice.py: process_replica_id, replica_devices, replica_count, local_replica_devices, primary_process_in_replica, in_replica, process_spans_multiple_replicas", "experimental/emergency/multihost.py: consistent_restore_mesh", "_src/multihost/multihost.py: initialize_distributed_to_device_ids"]}
{"id": "C52", "title": "Emergency checkpoint manager: complete steps per slice, latest step and common restore source", "statement": "The steps that processes send to each other arrive unchanged whatever their lengths. On a mesh in which each process has the same number of devices, all in one slice, a step is listed for a slice exactly if every process of that slice has it; all_steps returns exactly the steps that some whole slice or persistent storage has, and the latest step is the greatest of them. If the processes remember the same, should_save and save give all the same answer, nobody waits in vain and they remember the same afterwards. Restoring the latest step makes all processes restore the same step from the same source, which has it, and no later step could have been restored. Refuted: with processes spanning slices an incomplete step counts as complete; a process outside the mesh makes a step available that nobody can restore; differing caches make some processes wait; the latest step goes back when a lower step is saved; restoring a missing step fails in the primary slice only while all others wait.", "quantifier": "for all meshes, replica axes, process counts, local and persistent steps of all processes, caches and answers of the managers", "why_tests_cant": "tests run with one or two fixed meshes and few step sets; completeness quantifies over all distributions of steps over processes and over all mesh shapes", "anchors": ["checkpoint/orbax/checkpoint/experimental/emergency/checkpoint_manager.py:642-859", "checkpoint/orbax/checkpoint/experimental/emergency/checkpoint_manager.py:1205-1231", "checkpoint/orbax/checkpoint/experimental/emergency/path.py:31-157"]}
{"id": "C53", "title": "Broadcast of one replica: every leaf arrives unchanged, in the fewest batches within the limit", "statement": "For every tree and memory limit the batches are the leaves in their order, none empty, each within the limit unless a single leaf beyond it, and no such division has fewer batches; an estimated limit leaves room for three copies of such a batch. Where one replica is the source of a shard, every replica ends with that shard and the input's sharding whatever the inputs of the other replicas; where none is, with zeros. The broadcast fails exactly if a spec uses the replica axis or an axis twice. Refuted: hosts with different memory make different batches; leaves beyond the limit are broadcast all the same; booleans and short integers change their dtype; negative zeros lose their sign; two sources are added up; an empty tree is an error without a limit.", "quantifier": "for all trees of arrays, shard sizes, specs, limits, numbers of replicas and places, sources and values (integers and IEEE floats)", "why_tests_cant": "the optimality of the batches and the equality of values range over all trees, limits and values; multi-slice hardware with different memory is not available to tests", "anchors": ["checkpoint/orbax/checkpoint/_src/multihost/multislice.py:143-190", "checkpoint/orbax/checkpoint/_src/multihost/multislice.py:203-386"]}
{"id": "C54", "title": "Peer-to-peer manager: complete steps are found and every process restores its shard", "statement": "For every mesh the topology map gives each process its last replica and its rank there, no two the same; with replicas laid out alike, equal ranks mean equal positions. The latest complete step is the greatest one whose every rank is held by some process; a full copy in one replica suffices if no process spans two. A source holds the step under the own index or else under one with the same rank, chosen by replica modulo the number of holders; there is none exactly if nobody holds the shard. With one owner per disk and a working network every process restores the given or latest complete step, from its disk or a rightful peer. All processes return or none does, all from persistent storage or none. Refuted: the coordinated fallback deadlocks when only some processes fail; owners taken from the latest step hide complete steps; spanning processes hide full copies; ranks need not mean positions; an unreadable latest step stops all; the prefetched step can be restored only once.", "quantifier": "for all meshes, axes, scans and disks of any number of processes, networks, persistent steps and sequences of restores", "why_tests_cant": "the deadlock needs several hosts of which some fail; selection and completeness range over all meshes and all distributions of steps over disks", "anchors": ["checkpoint/orbax/checkpoint/experimental/emergency/p2p/peer_selector.py:32-160", "checkpoint/orbax/checkpoint/experimental/emergency/p2p/registry.py:28-71", "checkpoint/orbax/checkpoint/experimental/emergency/p2p/local.py:205-300", "checkpoint/orbax/checkpoint/experimental/emergency/p2p/utils.py:40-58", "checkpoint/orbax/checkpoint/experimental/emergency/p2p/checkpoint_manager.py:90-200", "checkpoint/orbax/checkpoint/experimental/emergency/p2p/checkpoint_manager.py:369-479", "checkpoint/orbax/checkpoint/_src/checkpointers/checkpointer.py:304-339"]}
{"id": "C55", "title": "Files move between peers whole and only into their directory", "statement": "Whatever pieces the connection cuts the bytes into: numbers, messages with data and files come out as they went in, what follows stays on the connection, and a message or file of which only a part arrives is reported as an error. A path is joined to the storage directory exactly if it is relative, not empty and leads into the directory, with links and '..' followed. A shard is taken as fetched only if every file with content has all its content, for every order in which the downloads finish; a shard without empty files that arrives whole is fetched exactly; one unsafe path refuses the whole shard.", "quantifier": "all byte strings, all fragmentations into non-empty pieces, all buffer sizes, all cut-off points of every connection, all file systems with links, all paths, all manifests, all completion orders", "why_tests_cant": "Tests run over loopback sockets with small payloads that arrive in one piece; fragmentations, cut-offs and completion orders of parallel downloads cannot be enumerated, nor can all arrangements of links.", "anchors": ["checkpoint/orbax/checkpoint/experimental/emergency/p2p/protocol.py:28-347", "checkpoint/orbax/checkpoint/experimental/emergency/p2p/service.py:35-69", "checkpoint/orbax/checkpoint/experimental/emergency/p2p/service.py:184-369"]}
{"id": "C56", "title": "Requests and copies find their storage backend, assets their own place in it, and the table of backends is the configured one", "statement": "A location is given the first backend of its zone, otherwise the first of its region; a copy goes to the first backend of the source's zone, otherwise of its region, otherwise one covering the region, otherwise one sharing a region. An asset's place lies (as text) below the backend's prefix, ends in its identifier and differs from the place of every other identifier; computing the place of a place changes nothing. A level of the table is accepted exactly if it has one type and no location twice; an empty table is filled with exactly the configured backends and then passes the check at the start; the check accepts only tables that contain every configured backend and, if no location is configured twice, nothing else.", "quantifier": "all lists of backends, all zones, regions and lists of regions, all prefixes, paths and identifiers without slashes, all configurations and tables", "why_tests_cant": "Tests use two or three backends with well-formed names; the order of preference over arbitrary lists, names that are prefixes of each other, trailing slashes and configurations with repeated entries are not enumerated.", "anchors": ["checkpoint/orbax/checkpoint/experimental/tiering_service/storage_backend.py:31-124", "checkpoint/orbax/checkpoint/experimental/tiering_service/assets.py:432-500", "checkpoint/orbax/checkpoint/experimental/tiering_service/db_lib.py:86-230", "checkpoint/orbax/checkpoint/experimental/tiering_service/db_schema.py:175-306", "checkpoint/orbax/checkpoint/experimental/tiering_service/server.py:46-135"]}
{"id": "C57", "title": "Jobs of the tiering service are claimed and owned one at a time", "statement": "A worker is given the oldest job that is waiting or whose lease has passed, of the backend it asked for, whose row nobody else holds and of whose asset no other job has a lease; it leaves with nothing only if there is none. A claim changes only the job and its target. A job in work stays with its worker until that worker ends it or another one claims it with a clock past the end of the lease; an ended job is never touched again. If workers write only while their lease lasts, no backend has more active jobs than permitted; if moreover claims do not overlap, no two jobs of an asset have a lease at the same time. (Without these conditions both bounds fail, and a deletion can stay in work forever.)", "quantifier": "all configurations, all sets of backends, all interleavings of any number of clients and workers, statement by statement, with crashes and errors at any point", "why_tests_cant": "Tests of the worker run one worker against an in-memory database; the interleavings of several workers, stale readings of the clock and late extensions of a lease do not occur in them.", "anchors": ["checkpoint/orbax/checkpoint/experimental/tiering_service/db_lib.py:246-465", "checkpoint/orbax/checkpoint/experimental/tiering_service/job_worker.py:112-334", "checkpoint/orbax/checkpoint/experimental/tiering_service/job_worker.py:398-472", "checkpoint/orbax/checkpoint/experimental/tiering_service/job_worker.py:540-618"]}
{"id": "C58", "title": "The rows of assets, tier paths and jobs of the tiering service agree with each other", "statement": "At any time there is at most one live asset per path, one active tier path per asset and backend and one pending deletion per asset. A tier path has a time of readiness exactly if it is READY. Every job is a copy to a tier path of its own asset, shared with no other job and not READY before the job ends, or the deletion of an asset; assets being written are not copied to. A copy ends completed with its target READY or failed with its target FAILED; a completed deletion leaves the asset and all of its tier paths deleted and touches no other asset. A deleted asset stays deleted unless a Finalize is under way. A keep-alive never shortens the life of a tier path. (Exceptions: a late worker completes a copy for a deleted asset, a concurrent Finalize revives one, Prefetch can queue a copy during a deletion, a failed deletion cannot be repeated, Finalize can fail after storing.)", "quantifier": "all configurations, all sets of backends, all interleavings of clients and workers, statement by statement, with crashes and errors at any point", "why_tests_cant": "The invariants relate rows written by different calls and workers at different times; tests look at single calls on a fresh database.", "anchors": ["checkpoint/orbax/checkpoint/experimental/tiering_service/assets.py:279-427", "checkpoint/orbax/checkpoint/experimental/tiering_service/assets.py:503-924", "checkpoint/orbax/checkpoint/experimental/tiering_service/db_schema.py:106-478", "checkpoint/orbax/checkpoint/experimental/tiering_service/job_worker.py:336-396", "checkpoint/orbax/checkpoint/experimental/tiering_service/job_worker.py:620-837", "checkpoint/orbax/checkpoint/experimental/tiering_service/server.py:99-551"]}
{"id": "C60", "title": "The rich JSON form of a metadata tree is read back as the tree that was written", "statement": "The JSON form of a value's metadata is read back unchanged, except that an empty named tuple becomes None without rich types. A tree of metadata is written just if no node is empty, and then reading gives the same structure, tuples, named tuples and lists included, with the same metadata at every leaf, a made-up class for each named tuple and string keys; it is refused as a whole just if some class or field name cannot be made up. (Exceptions, refuted: classes defined in functions and renamed fields make the metadata unreadable, made-up class names are not unique, integer keys become strings.)", "quantifier": "for all metadata trees, module names and class names", "why_tests_cant": "tests use a few fixed trees of global classes; the claim needs all nestings, dictionaries that contain the markers used by the encoding itself, and all class names", "anchors": ["checkpoint/orbax/checkpoint/_src/metadata/tree_rich_types.py:32-249", "checkpoint/orbax/checkpoint/_src/metadata/value_metadata_entry.py:33-95", "checkpoint/orbax/checkpoint/_src/metadata/empty_values.py:79-96"]}
{"id": "C59", "title": "The metadata file of a pytree gives back the tree that was saved", "statement": "Different paths have different keys in the file. Building the metadata of a tree, writing it, reading it and nesting it gives lists and dictionaries with the same paths and, at each path, the metadata of the value saved there, flags and custom metadata included; with rich types it gives the tree with tuples and named tuples. Entries may come in any order; an entry that others extend is a placeholder and is dropped. Merging gives the entries of the second metadata and those of the first it lacks, and is refused with a ValueError just if the formats differ or, without overwriting, if an entry is in both. The metadata shown to the user has at each path the answer of the handler of its type for this very value. (Exceptions, refuted: merging can lose or hide a leaf above or below others, can give metadata that cannot be nested, loses an empty dictionary of custom metadata, and hides entries when only one side has a rich tree; the pytree of metadata can be unflattened once only and its integer keys become strings.)", "quantifier": "for all trees, all lists of entries, all pairs of metadata and all handlers that answer value by value", "why_tests_cant": "the key of a path is a printed tuple whose quoting depends on every character of the names, nesting depends on the order of a sort of mixed keys, and batching by type depends on all leaves at once", "anchors": ["checkpoint/orbax/checkpoint/_src/metadata/tree.py:70-207", "checkpoint/orbax/checkpoint/_src/metadata/tree.py:249-489", "checkpoint/orbax/checkpoint/_src/metadata/tree.py:491-681", "checkpoint/orbax/checkpoint/_src/metadata/tree.py:898-1026"]}
{"id": "C61", "title": "A checkpoint saved in parts has exactly the values of the accepted parts", "statement": "A partial save is accepted just if it has something in it and no value whose key is, extends or is extended by a key of an earlier accepted save of the session; a refused save leaves the session as it was. The requests of an accepted save are kept, each once. Finalizing a session of nested dictionaries gives metadata with exactly the values of the accepted saves (empty nodes: those nothing else is below, if nothing is saved twice). A key is dropped from the merged metadata just if another extends it; keys are read back from their text. The names of the saves sort by time and give back their identifiers; the name of the checkpoint and that of the session denote the same session. (Exceptions, refuted: empty nodes of a later save are not checked, so they replace or drop earlier values; an earlier empty node cannot be filled; a list and a dictionary may meet and make the metadata unreadable; the second save may use another array format; custom metadata lists of different lengths make finalizing impossible; a path ending with the session suffix is finalized from another session.)", "quantifier": "for all sessions of any number of saves of any trees, all keys with any characters, all requests", "why_tests_cant": "acceptance depends on all pairs of keys of all earlier saves, merging on the order of the saves and on which keys extend which, and reading a key on the quoting of every character in it", "anchors": ["checkpoint/orbax/checkpoint/_src/handlers/base_pytree_checkpoint_handler.py:241-368", "checkpoint/orbax/checkpoint/_src/handlers/base_pytree_checkpoint_handler.py:589-599", "checkpoint/orbax/checkpoint/experimental/v1/_src/partial/saving.py:280-357", "checkpoint/orbax/checkpoint/experimental/v1/_src/partial/path.py:19-36", "checkpoint/orbax/checkpoint/_src/path/snapshot/snapshot.py:34-45"]}
{"id": "C62", "title": "Finalizing a checkpoint saved in parts loses and overwrites nothing", "statement": "Merging the pending directories of partial saves into the final checkpoint never loses a data file, however often the finalization is killed between any two file operations of any of its concurrent tasks, fails, or is run again. The final path appears only when every data file of every save is at the place it belongs, directories written by a process being told apart by the identifier of the save; two saves with a file for the same place are refused; a merged file is never moved or overwritten; a finalization killed and run again comes to the same checkpoint; saves that follow one another do not disturb each other.", "quantifier": "all contents of the partial directory, all ways of merging metadata, all schedules of the concurrent tasks with a kill at any operation, all sequences of killed, failed and complete runs, all sequences of saves", "why_tests_cant": "Tests finalize once without a kill; the failures need a kill between two particular renames among concurrent tasks followed by a second run, or two overlapping asynchronous saves.", "anchors": ["checkpoint/orbax/checkpoint/experimental/v1/_src/partial/saving.py:_merge_all", "checkpoint/orbax/checkpoint/experimental/v1/_src/partial/saving.py:_rename_or_merge_json", "checkpoint/orbax/checkpoint/experimental/v1/_src/partial/saving.py:_recursive_merge", "checkpoint/orbax/checkpoint/experimental/v1/_src/partial/saving.py:finalize", "checkpoint/orbax/checkpoint/_src/path/atomicity.py:_create_tmp_directory", "checkpoint/orbax/checkpoint/_src/path/snapshot/snapshot.py:_EmptySnapshot"]}
{"id": "C63", "title": "Array metadata written by all processes is read back, checked across processes exactly, and random keys are restored as saved", "statement": "The per-process array metadata files: (a) serialized metadata is read back exactly iff no extension object has the key 'array_metadata'; (b) for any number of processes writing any number of batches in any interleaving, if the primary process writes first all writes succeed and every process's file holds exactly its batches in order; (c) reading all processes gives exactly the processes that wrote, whatever the listing order and other files; (d) the validator accepts exactly when the metadata of all processes agrees (same names, count, shapes and random key implementation, nothing empty, and a single file only for a single process), otherwise raises ValueError, independent of which process is the reference; (e) batching of a save by priority writes each array once; (f) random keys are restored with their implementation and plain arrays as plain arrays, for any batching by any process and any listing order, and after an accepted finalization the restore never depends on the listing order; (g) the primary process attaches to each array the write shape it stored, or refuses.", "quantifier": "for all lists of metadata with arbitrary JSON extensions, all numbers of processes, all interleavings of batch writes, all listing orders and stray files, all priorities and batch splits, all parameter lists", "why_tests_cant": "Tests run with one or two processes and fixed listing order; interleavings of writes, listing orders, nested extension values and disagreeing processes are unbounded.", "anchors": ["checkpoint/orbax/checkpoint/_src/metadata/array_metadata_store.py", "checkpoint/orbax/checkpoint/_src/metadata/array_metadata.py", "checkpoint/orbax/checkpoint/_src/serialization/jax_array_handlers.py", "checkpoint/orbax/checkpoint/_src/handlers/base_pytree_checkpoint_handler.py"]}
{"id": "C64", "title": "Every item of a composite checkpoint is saved, finalized and restored by one handler", "statement": "For a CompositeCheckpointHandler constructed in any of its three ways (with a registry that names one handler per item, if a registry is given), and any sequence of saves, finalizations, metadata calls and restores with any of their steps failing: all saves, finalizations, restores and metadata calls of an item are made by one handler; args once registered for an item stay accepted by that handler; a handler constructed without arguments accepts for a known item exactly the first registered save and restore args of the class of its handler, and for a new item exactly args whose handler class can be made and has args for both. After a save and its finalization every item is in its place, written from its args and finalized once by its handler and committed, no temporary directory is left, all other directories are unchanged; finalization succeeds if no step fails and, called often enough, after finitely many failures. What is restored later was written and finalized by the handler that restores it; restoring with fitting args succeeds; the order in which items are given makes no difference; and a new handler restoring without args finds the classes in the step metadata and restores exactly the saved items.", "quantifier": "all global registrations, handler classes, constructions, sequences of calls, sets of failing steps, items, args, kinds of temporary directories", "why_tests_cant": "Handlers are chosen lazily from three registries and a set of already met items; the property is about all sequences of calls with failures between them, where a wrong choice shows only when a later call picks another handler or refuses the args.", "anchors": ["checkpoint/orbax/checkpoint/_src/handlers/composite_checkpoint_handler.py", "checkpoint/orbax/checkpoint/_src/handlers/handler_registration.py", "checkpoint/orbax/checkpoint/checkpoint_args.py"]}
{"id": "C65", "title": "The metadata file of a committed checkpoint says what was handed over", "statement": "For any number of saves at a time that share one store with a background thread, any other threads that wait, write or update in directories of their own, any interleaving with the background thread and any failures of the file system or values that are not JSON: the metadata file of a committed checkpoint says of every key what was handed over for it, provided no other thread was given one of the save's errors and no read failed in one of its updates; errors are raised in the order of their tasks, each once, and waiting succeeds only if all is written and all errors were raised; tasks of a directory take effect in the order they were handed over and none is lost; a save fails only because an error of a task was raised in it; without failures none fails; the background thread and waiting come to an end. With the blocking store a save either leaves that file or leaves the final directory as it was. Without the provisos it fails: stolen errors, failed reads, two stores, changed objects, writing in place.", "quantifier": "all saves, directories, dictionaries of values, user objects, failures of each step of the file system, and all sequences of events of the threads", "why_tests_cant": "The outcome depends on how the steps of a background thread, commit threads and other waiting threads interleave and on which step fails; tests run a few schedules with mocked failures, while the number of schedules is unbounded.", "anchors": ["checkpoint/orbax/checkpoint/_src/metadata/checkpoint.py", "checkpoint/orbax/checkpoint/_src/metadata/step_metadata_serialization.py", "checkpoint/orbax/checkpoint/_src/path/atomicity.py", "checkpoint/orbax/checkpoint/_src/checkpointers/checkpointer.py", "checkpoint/orbax/checkpoint/_src/checkpointers/async_checkpointer.py", "checkpoint/orbax/checkpoint/checkpoint_manager.py"]}
{"id": "C66", "title": "Step and root metadata keep what they are given", "statement": "Serializing a step's metadata accepts exactly the valid ones; writing them as JSON and reading them back gives the handlers, metrics and custom metadata as JSON gives them, both times as they were and the floats of the statistics, and writing again gives the same file. Deserializing accepts exactly the dictionaries whose fields are valid, whose float performance metrics are fields of the statistics and whose unknown names do not meet custom metadata; unknown names become custom metadata. An update validates and changes exactly the fields it names, so that after a save (first write, update, commit) the metadata read back are those of the save with both times. Root metadata likewise; metrics added on reading win.", "quantifier": "all Python values as fields, all dictionaries with distinct keys, all updates, all renderings of numbers as JSON keys", "why_tests_cant": "Which values are accepted, what JSON makes of nested values and how unknown names meet custom metadata is a statement about all values and all combinations of names; tests try a few of each.", "anchors": ["checkpoint/orbax/checkpoint/_src/metadata/step_metadata_serialization.py", "checkpoint/orbax/checkpoint/_src/metadata/metadata_serialization_utils.py", "checkpoint/orbax/checkpoint/_src/metadata/root_metadata_serialization.py", "checkpoint/orbax/checkpoint/_src/metadata/checkpoint.py", "checkpoint/orbax/checkpoint/_src/logging/step_statistics.py"]}
{"id": "C67", "title": "Model surgery keeps every parameter: fusing, renaming, repeating, stacking and nesting do what they say and lose nothing", "statement": "For all flat parameter dictionaries: fusing replaces exactly the pieces of complete names by their concatenation in the order of the parts and leaves all else unchanged; renaming by rules that keep keys apart keeps every parameter under its new name; repeating changes exactly the selected parameters, repeating each item along the axis; stacking gives every base the stack of its items in the order of their indices (with the filler where one is missing), keeps what does not match, and without fillers refuses exactly what does not fit; streaming gives each shard its slice of the stack; nesting gives the target with the parameters of its names; in place exactly the consumed parameters are taken from the caller.", "quantifier": "all parameter dictionaries, arrays of all shapes and values, axes (negative ones too), part names, replacement texts, renaming rules, regular expressions (as oracles), indices, fillers, targets and separators", "why_tests_cant": "The unit tests use a few layers with one naming scheme and axis 0; collisions of names, parts that are prefixes of each other, gaps and too large indices with fillers, negative axes and failures in place are combinations of names, shapes and options without bound.", "anchors": ["checkpoint/orbax/checkpoint/experimental/model_surgery/transformations/fusing.py", "checkpoint/orbax/checkpoint/experimental/model_surgery/transformations/renaming.py", "checkpoint/orbax/checkpoint/experimental/model_surgery/transformations/repeating.py", "checkpoint/orbax/checkpoint/experimental/model_surgery/transformations/stacking.py", "checkpoint/orbax/checkpoint/experimental/model_surgery/transformations/nesting.py"]}
{"id": "C68", "title": "Every device gets exactly its part of a safetensors checkpoint, whatever the sharding, the coalescing of reads, the size of the chunks and the order of arrival", "statement": "For all files, shapes, item sizes, shardings, ratios and chunk sizes: the byte runs of a part are sorted, within the tensor and list the part's bytes in row-major order (one run if only the first dimension is split); coalescing puts every run into exactly one block, blocks are further apart than the gap and over-read at most the ratio plus a gap per run; chunks are non-empty, at most the given size and disjoint; and a planned load never fails, in any order of the chunks, and leaves on every addressable device the bytes of its part of the tensor of that name, and touches nothing else; files that are too short, duplicate names, missing names, other shapes and unknown dtypes are refused.", "quantifier": "all headers, file contents, shapes, item sizes, device-to-part maps, over-read ratios (given or chosen), limits of bytes, chunk sizes, numbers of files and permutations of the chunks", "why_tests_cant": "Tests load a few small tensors with one or two shardings; the plan depends on every combination of bounds in every dimension, distances between runs relative to the ratio and to the page, chunk borders within runs and the order in which concurrent reads complete.", "anchors": ["checkpoint/orbax/checkpoint/experimental/v1/_src/layout/safetensors_layout.py"]}
{"id": "C69", "title": "Registries keep what is registered apart, and what was saved is loaded with the handler that saved it", "statement": "For all sequences of additions: a handler is added exactly if its name (or, without one, its class) is not there, names have one handler, a copy has the same entries and further names, and a local registry is the global one followed by the other or is refused because of a clash. For all registries, objects, names and recorded names of handlers: saving resolves to the last capable handler for objects that save themselves, else to that of the name, else to the last capable one; loading resolves to what is stated by the precedence (recorded handler for self-loading objects, capable handler of the name, capable recorded handler, last capable, handler of the name), else to the handler of 'state', else fails with KeyError; and if names of handlers are not shared, everything that was saved is loaded with the handlers that saved it. For all registries of types: a type is handled by the first entry that says so, adding keeps the handlers of all types and names unless it overrides, and the name of the handler of a type always names a handler with that name.", "quantifier": "all sequences of additions to registries and merges of registries, all handler capabilities, objects, names, recorded names of handlers, dictionaries of checkpointables, types and matching functions", "why_tests_cant": "Tests register a few handlers and resolve a few objects; the answer depends on the order of all additions, the capabilities of all handlers, names and further names together, and on what another registry contributes.", "anchors": ["checkpoint/orbax/checkpoint/experimental/v1/_src/handlers/registration.py", "checkpoint/orbax/checkpoint/experimental/v1/_src/handlers/resolution.py", "checkpoint/orbax/checkpoint/experimental/v1/_src/saving/execution.py", "checkpoint/orbax/checkpoint/_src/serialization/type_handler_registry.py"]}
{"id": "C70", "title": "What counts as a checkpoint, which part of it is loaded, and that what was saved is loaded", "statement": "A directory is a checkpoint of the new version exactly if it is not temporary and has the indicator and the metadata; without the indicator it is taken for an old one exactly if it is not temporary, not inside a checkpoint, and not merely a directory of checkpoints; parts of checkpoints and directories of checkpoints are refused, always with a ValueError. Without a name, the part 'state' is taken if it is a tree, else the tree whose name is first in the alphabet, whatever the order in which the directory is listed, and it is loaded, and its metadata read, exactly as with its name; an explicit name is taken exactly if it is that of a tree. What was saved is a checkpoint of the new version with exactly the names that were saved, none of them reserved; loading everything gives back exactly what was saved, each part with the handler that saved it, if handlers load what they saved and their names are not shared; the metadata has exactly those names. What is asked for by name is given by name from its own directory, a missing name is a KeyError, a reserved or empty one a ValueError.", "quantifier": "for all directory contents, orders of listing, registries, handlers, objects and names", "why_tests_cant": "Directory contents, orders of listing and registries are unbounded, and tests list a handful of fixed checkpoints in the order the file system happens to give.", "anchors": ["checkpoint/orbax/checkpoint/experimental/v1/_src/layout/orbax_layout.py", "checkpoint/orbax/checkpoint/experimental/v1/_src/layout/orbax_v0_layout.py", "checkpoint/orbax/checkpoint/experimental/v1/_src/layout/registry.py", "checkpoint/orbax/checkpoint/experimental/v1/_src/loading/loading.py", "checkpoint/orbax/checkpoint/experimental/v1/_src/metadata/loading.py", "checkpoint/orbax/checkpoint/experimental/v1/_src/saving/execution.py"]}
{"id": "C71", "title": "Workers, their ranks and peers, and the step they agree on", "statement": "The topology built from the devices is exactly: one worker per (task, slice), ranked slice-major, with the sorted ids of its devices; independent of the order of the devices; a number of slices is accepted iff the workers form a full grid; the peers of a worker are exactly those with the same task in the other slices, mutual, n-1 each; renaming of ids is exact and invertible. The controller's latest step is the greatest that is among the 128 greatest of every worker; workers restore the same step; saves happen only by unanimous wish.", "quantifier": "all lists of devices, all numbers of slices, all lists of steps of all workers, all sequences of attempts", "why_tests_cant": "Tests look at a few topologies and a few steps; the order of devices, the shapes of grids and the numbers of steps are unbounded.", "anchors": ["checkpoint/orbax/checkpoint/experimental/emergency/multi_tier_checkpointing/pathways_topology.py", "checkpoint/orbax/checkpoint/_src/multihost/pathways.py", "checkpoint/orbax/checkpoint/experimental/emergency/multi_tier_checkpointing/colocated_utils.py", "checkpoint/orbax/checkpoint/experimental/emergency/multi_tier_checkpointing/sidecar_worker_checkpoint_manager.py", "checkpoint/orbax/checkpoint/experimental/emergency/multi_tier_checkpointing/colocated_controller.py"]}
{"id": "C72", "title": "Handoff of colocated saves: at most one persisted dataset, truthful answers, no loss, no deadlock", "statement": "In every interleaving of callers that save, drain, finish and check, of the handoff threads and of the workers: the dataset of a save is persisted at most once and only after the workers unanimously saved; the payload is released only after the workers have answered; whatever a caller is told about a save is what the workers answered (or the failure of the persistent manager, of the waiting or of an unstarted thread); with a single saving caller no save is lost; no caller waits for ever, and every call ends with an outcome. False: a later save after a failed handoff (the failed one stays pending for ever), two saving callers (a dataset is lost), a drain between publication and start of the thread (RuntimeError).", "quantifier": "for all numbers of callers, all sequences of calls, all answers of the workers and all interleavings", "why_tests_cant": "The tests run one or two fixed schedules with mocked threads; the statement is about all interleavings of any number of callers and threads.", "anchors": ["checkpoint/orbax/checkpoint/experimental/emergency/multi_tier_checkpointing/colocated_controller.py"]}
{"id": "C73", "title": "Replicated local checkpoints: what is accepted, saved, deleted and restored after devices got other ids", "statement": "Arguments are accepted exactly if they are a composite with a state, without process metadata, of registered arguments (a dataset excepted). A save is handed on exactly if forced or due; the local manager gets all items but the dataset plus the process metadata, the persistent one the dataset. After a restart in which devices have other ids but the tables describe the same hardware, every saved array is restored with the value that was saved on the sharding asked for (or on the mesh of the user with the saved partition), no successful restore returns another value, and the dataset is the one of the persistent manager; sidecars return the arrays on the mesh of the time of saving; changed numbers of processes or devices are refused, or in a sidecar read as asked. False: a dataset is lost without a persistent directory and cannot be restored, a dataset that is a tree cannot be restored, a step without a dataset cannot be deleted, unequal rows of the tables pass the check and raise IndexError, a mesh and axes instead of a sharding leave the array on the wrong mesh, metadata of shardings is refused at the end, arrays on one device are not found again.", "quantifier": "for all arguments, meshes, tables of devices, partitions, arrays and ways to cut them, and all contents of the storage", "why_tests_cant": "The tests use a handful of meshes on one simulated host where ids never change; the statement is about all permutations of hardware, all trees and all combinations of arguments.", "anchors": ["checkpoint/orbax/checkpoint/experimental/emergency/multi_tier_checkpointing/replicator_checkpoint_manager.py", "checkpoint/orbax/checkpoint/experimental/emergency/mesh_consistency.py"]}
{"id": "C74", "title": "A save on all processes: what is committed is whole, refused saves change nothing, and without timeouts all processes end", "statement": "For every number of processes, handlers and interleaving of the steps of the processes with timeouts and failures: whatever is renamed to the destination is whole (metadata, finalized trees with the parts of all processes, the files of the primary); the destination is otherwise what it was, or nothing only when overwriting; a process told of success finds the checkpoint; a save that is refused (paths differ, or the destination exists without overwrite) changes nothing and all processes raise ValueError; runs have a bounded number of events; and in runs without timeouts and failures something can happen until all processes have ended well, with one exception: an overwriting save of the newer interface with several processes, where the primary may remove the destination before another process looks.", "quantifier": "all configurations (version, number of processes, primary, handlers, overwrite), all interleavings of events, all reachable states", "why_tests_cant": "The interleavings of the steps of several processes and of timeouts are too many to run, tests with one process skip all barriers, and the race between removing and looking needs a particular order.", "anchors": ["checkpoint/orbax/checkpoint/experimental/v1/_src/saving/execution.py:160-435", "checkpoint/orbax/checkpoint/experimental/v1/_src/saving/path_utils.py:59-125", "checkpoint/orbax/checkpoint/experimental/v1/_src/path/async_utils.py:38-252", "checkpoint/orbax/checkpoint/experimental/v1/_src/handlers/pytree_handler.py:322-424", "checkpoint/orbax/checkpoint/_src/checkpointers/checkpointer.py:200-302"]}
{"id": "C75", "title": "In a training loop, what a save reports is what is on disk, and a checkpoint always survives", "statement": "For the Checkpointer of training loops on one process, under every interleaving of the caller, the threads that write, the threads that finalize and the threads of the responses, and for every outcome of the writes: if save says that the save is done then it was committed; if the response of save_async says so then it was committed or the caller was told of its failure before; a step in the list of checkpoints is on disk with all its files unless its save is not finished or its failure not told yet; when nothing is going on, latest is the greatest step in the list and load without a step gives what was saved under it; if the policy keeps the last checkpoint and no step is overwritten then in every state in which the process may be stopped some checkpoint is complete; and every call ends. The statements on save_async suppose that each call is made after the thread that finalizes the save before it has begun to wait, without which they are shown to be false.", "quantifier": "for all initial disks, all save and preservation policies, all sequences of calls (save, save_async, wait, load, latest, reload, close) and all interleavings of all threads with the commits and their failures", "why_tests_cant": "the swap of the checkpointer while a thread is about to wait for it is a window of a few instructions; tests run one or two schedules, with writes that succeed", "anchors": ["checkpoint/orbax/checkpoint/experimental/v1/_src/training/checkpointer.py", "checkpoint/orbax/checkpoint/checkpoint_manager.py", "checkpoint/orbax/checkpoint/_src/checkpointers/async_checkpointer.py", "checkpoint/orbax/checkpoint/experimental/v1/_src/saving/saving.py"]}
{"id": "C76", "title": "An array restored without a sharding gets the sharding it was saved with", "statement": "The metadata of a sharding survive the text they are written as; with the same devices the sharding comes back with the same mesh, the same devices at the same places, the same types of axes and the same spec; on other devices it is refused with ValueError and never replaced silently. Each array finds the text of its own name in the shared file whatever the names are and in whatever batches and order arrays were saved; keys of different names differ. A sharding given by the target or the restore arguments takes precedence, the fallback is used exactly when devices are missing, and every restored array has a sharding from the arguments or the file. Shardings made for given devices always exist, cover all of the devices and divide each sharded dimension evenly.", "quantifier": "All shardings (any mesh shape, names, types of axes, order of devices, specs with several axes per dimension), all sets of devices and processes, all names of arrays (any bytes), all sequences of writes, all files and texts, all restore arguments and targets, all shapes and numbers of devices.", "why_tests_cant": "Tests run on a fixed small set of devices with a few meshes in the order of their ids; permuted and higher-dimensional meshes, arbitrary names of arrays and topologies that partly overlap can not be enumerated, and errors in the position of a device do not show in values of arrays, only in where they are.", "anchors": ["checkpoint/orbax/checkpoint/_src/metadata/sharding.py:NamedShardingMetadata", "checkpoint/orbax/checkpoint/_src/metadata/sharding.py:from_serialized_string", "checkpoint/orbax/checkpoint/_src/serialization/jax_array_handlers.py:_async_serialize_shardings", "checkpoint/orbax/checkpoint/_src/serialization/jax_array_handlers.py:_deserialize_shardings", "checkpoint/orbax/checkpoint/_src/serialization/tensorstore_utils.py:get_sharding_tensorstore_spec", "checkpoint/orbax/checkpoint/_src/handlers/standard_checkpoint_handler.py:_get_sharding_from_metadata_leaf", "checkpoint/orbax/checkpoint/checkpoint_utils.py:construct_restore_args", "checkpoint/orbax/checkpoint/_src/arrays/sharding.py:_construct_maximal_sharding"]}
{"id": "C77", "title": "Restoring with transforms reads what the result needs and nothing unread gets into it", "statement": "With transforms, arrays of the checkpoint that are skipped are not needed: the result equals that of transforming the checkpoint with everything read, if functions look only at the inputs they name. Without functions each leaf of the result is the value of the item or an array read with the arguments of an output that it is for, and no placeholder gets into the result. Each array that is read is named by a function with these arguments or is for an output with these arguments. Without transforms every leaf is read with its own arguments. The structure takes the names of the metadata file and the values of the aggregate file; the base handler restores exactly when there are a metadata file, no aggregated values and no transforms; missing items, inputs and files are the documented errors.", "quantifier": "All checkpoints (any names, any split between metadata, aggregate file and stored arrays), all items, restore arguments and sequences of transforms with any patterns, any regular expression semantics, any functions, both defaults.", "why_tests_cant": "What is skipped depends on the reversal of patterns over all pairs of outputs and inputs, and an array that is wrongly skipped shows only for combinations of renames, functions, fallbacks and defaults that tests do not enumerate.", "anchors": ["checkpoint/orbax/checkpoint/_src/handlers/pytree_checkpoint_handler.py:_find_matching_input_args", "checkpoint/orbax/checkpoint/_src/handlers/pytree_checkpoint_handler.py:_get_restore_parameters", "checkpoint/orbax/checkpoint/_src/handlers/pytree_checkpoint_handler.py:_transform_checkpoint", "checkpoint/orbax/checkpoint/_src/handlers/pytree_checkpoint_handler.py:PyTreeCheckpointHandler.restore", "checkpoint/orbax/checkpoint/_src/handlers/pytree_checkpoint_handler.py:PyTreeCheckpointHandler._get_internal_metadata", "checkpoint/orbax/checkpoint/transform_utils.py:RestoreTransform"]}
{"id": "C78", "title": "The start of multi-tier checkpointing names the right peers and follows the right restore marker", "statement": "For a one-to-one mapping of processes to ranks and slices of equal size, the peers of a node are exactly the nodes at its place in the other slices; peering is symmetric and transitive, and always passes the check of the request. The request is only ever seen whole by the replicator, names exactly one positive interval, and has the right fields. Each wait ends at the first second its condition holds, or fails exactly at its timeout. A look at the restore markers raises a fatal error of the replicator before anything is touched; otherwise the marker of the highest step (first by name) becomes that step's directory, every marker is removed, and nothing else is changed but the files of errors. A start that succeeds leaves no marker and has seen its whole request taken; with colocated python it ends within its timeout.", "quantifier": "all mappings, node counts, slice counts and process indices; all contents of the local directory; all behaviours of the replicator and others in each second; all timeouts and arguments", "why_tests_cant": "Tests use a handful of file layouts and a mocked clock; the behaviours of the replicator over time, the mappings of ranks and the sets of markers are unbounded.", "anchors": ["checkpoint/orbax/checkpoint/experimental/emergency/multi_tier_checkpointing/initialization.py:57", "checkpoint/orbax/checkpoint/experimental/emergency/multi_tier_checkpointing/initialization.py:191", "checkpoint/orbax/checkpoint/experimental/emergency/multi_tier_checkpointing/initialization.py:437", "checkpoint/orbax/checkpoint/experimental/emergency/multi_tier_checkpointing/initialization.py:659"]}
{"id": "C79", "title": "The registry of leaf handlers gives the most special handler, whatever the order of registering", "statement": "After any registrations, refused or not, with or without override: no leaf type has two entries and no abstract type two handlers, and the scores are those of the registry as it is. If the registered types are ordered by subclassing, a leaf gets the handler of a registered type that fits and below which no other fits; a registered type gets its own handler; there is none exactly if nothing fits; the same of abstract types, compared as protocols. Validation of a tree passes exactly if each leaf that is no placeholder has a handler. A registration is refused exactly if it clashes, is no override and is not there already; a new one replaces exactly those it clashes with. Compatible registrations of handlers with different names give the same lookups in every order. The registry of the old interface that is made of it gives every type the same handler, and by typestr the handler that saved, if no other has its typestr.", "quantifier": "all sequences of registrations; all subclass relations, protocols and their members; all leaf types and trees", "why_tests_cant": "Tests register a handful of types in one order; sequences of registrations with overrides and class hierarchies are unbounded, and the choice depends on counts over the whole registry.", "anchors": ["checkpoint/orbax/checkpoint/experimental/v1/_src/serialization/registry.py:156", "checkpoint/orbax/checkpoint/experimental/v1/_src/serialization/registry.py:226", "checkpoint/orbax/checkpoint/experimental/v1/_src/serialization/registry.py:341", "checkpoint/orbax/checkpoint/experimental/v1/_src/serialization/protocol_utils.py:23", "checkpoint/orbax/checkpoint/experimental/v1/_src/serialization/compatibility.py:423", "checkpoint/orbax/checkpoint/experimental/v1/_src/handlers/pytree_handler.py:472"]}
{"id": "C80", "title": "Trees saved in the legacy msgpack format come back, whatever the size of their arrays", "statement": "For every tree of nested dicts with string keys (none of them the key of chunked arrays on the way from the root), with arrays of any size reached by dicts and with lists, tuples, numbers, texts and byte strings below, msgpack_serialize succeeds and msgpack_restore of what it gives is the tree: every array has its shape, its dtype and its elements, whether it was sent whole or in chunks; jax arrays come back as numpy arrays, named tuples as tuples, and dicts with their keys in order (or in their own order with in_place). Of nested dicts of arrays, no byte string in the message is longer than MAX_CHUNK_SIZE. A tree with an object of another type, an integer of more than 64 bits or an array of objects anywhere in it is refused with ValueError, and there is no other error of a save; unknown extension codes and dtype names are errors of a restore. Only the primary host writes the aggregate file, and a file that is missing is FileNotFoundError.", "quantifier": "All trees (any depth and width, any arrays), all chunk sizes below 2^64, all limits of the library that allow the chunk size, all dtype registries, both values of in_place.", "why_tests_cant": "The chunking only starts above 2^30 bytes per array, so tests cannot run it with real sizes and with all shapes and item sizes; the round trip is over unboundedly many trees, and the byte order, marker key, list and key-type cases are silent or late failures that a test must guess.", "anchors": ["checkpoint/orbax/checkpoint/msgpack_utils.py:37", "checkpoint/orbax/checkpoint/msgpack_utils.py:56", "checkpoint/orbax/checkpoint/msgpack_utils.py:73", "checkpoint/orbax/checkpoint/msgpack_utils.py:103", "checkpoint/orbax/checkpoint/msgpack_utils.py:149", "checkpoint/orbax/checkpoint/msgpack_utils.py:160", "checkpoint/orbax/checkpoint/msgpack_utils.py:168", "checkpoint/orbax/checkpoint/msgpack_utils.py:183", "checkpoint/orbax/checkpoint/msgpack_utils.py:197", "checkpoint/orbax/checkpoint/msgpack_utils.py:219", "checkpoint/orbax/checkpoint/aggregate_handlers.py:71", "checkpoint/orbax/checkpoint/aggregate_handlers.py:96"]}
{"id": "C81", "title": "A validation report of an exported model passes exactly for outputs within the set tolerances", "statement": "ValidationReport passes exactly when the outputs of baseline and candidate have the same structure, every float of the candidate is within the tolerances of the float of the baseline at the same place, and the share of other tensors that mismatch is at most the limit; the same outputs (with the keys of dicts in any order) always pass for every option that can be set, so that a loaded model that does what the JAX functions do is never reported as failing. ValidationManager gives exactly one report per signature key, made from all inputs of this key, with the baseline bound by the last serving config with the key and the candidate being the signature of the loaded model. A bound function is the preprocessor, then the method, then the postprocessor, with the second part of the preprocessor's output handed over when passthrough is on; a serving config is accepted exactly when its processors do not contradict each other.", "quantifier": "All trees of outputs (any nesting, any tensors), all tolerances and limits, all functions and loaded signatures, all lists of serving configs and inputs, any order of dict keys.", "why_tests_cant": "Tests compare a few outputs that are equal or far apart with equal tolerances; the order of the two tolerances, partly different, empty or NaN tensors, leaves of changed kinds and configs that share a key only show over all outputs and options.", "anchors": ["export/orbax/export/validate/validation_report.py:52", "export/orbax/export/validate/validation_report.py:192", "export/orbax/export/validate/validation_report.py:226", "export/orbax/export/validate/validation_report.py:251", "export/orbax/export/validate/validation_manager.py:108", "export/orbax/export/validate/validation_manager.py:168", "export/orbax/export/validate/validation_manager.py:242", "export/orbax/export/validate/validation_job.py:41", "export/orbax/export/validate/validation_job.py:91", "export/orbax/export/validate/validation_utils.py:27", "export/orbax/export/serving_config.py:159", "export/orbax/export/serving_config.py:296"]}
{"id": "C82", "title": "Defaults, batching, files, names and platforms of exports are what their callers asked for", "statement": "A TensorSpecWithDefault holds only a default of its dtype and of a fitting shape. A function made by with_default_args is called with the given arguments by position, then by name, then with the default of the signature, and with nothing else; a signature that mixes specs with and without defaults in one parameter, or puts a parameter without default after one with a default, is refused. A function made by make_auto_batching_function gives every tensor the batch size of the primary ones (unchanged, or with its one row repeated) and fails exactly when the sizes do not fit; it is refused exactly when no tensor is primary. What save_jax_exported_map saves in a new directory, load_jax_exported_map loads, for every non-empty map, and no other file changes. get_param_names gives each leaf of a tree of parameters its own name. get_lowering_platforms gives known platforms in lower case and refuses all others. to_bfloat16 changes exactly the floats of a tree and keeps its structure.", "quantifier": "All signatures (trees of specs of any shape), all arguments by position and name, all batch sizes, all directories, maps and files, all trees of parameters, all lists of platforms.", "why_tests_cant": "Tests save into one absolute temporary directory with two keys and use trees with simple keys; relative and remote directories, keys with dots, tildes or slashes and all orders of parameters and batch sizes are outside of what can be listed.", "anchors": ["export/orbax/export/utils.py:98", "export/orbax/export/utils.py:123", "export/orbax/export/utils.py:138", "export/orbax/export/utils.py:157", "export/orbax/export/utils.py:243", "export/orbax/export/utils.py:262", "export/orbax/export/utils.py:420", "export/orbax/export/utils.py:440", "export/orbax/export/utils.py:459", "export/orbax/export/utils.py:486", "export/orbax/export/utils.py:500", "export/orbax/export/utils.py:560", "export/orbax/export/utils.py:592"]}
{"id": "C83", "title": "Ids of colocated CPU devices are never resolved to the wrong device, and moving shardings to CPU devices changes nothing but the devices", "statement": "The map of CPU devices exists exactly when no id, global (read from the text of a device) or local, stands for two CPU devices, and then finds for each id the device it stands for, in whatever order the backends list them; else there is a ValueError. Resolving a list of ids gives the devices in the order of the ids, or a ValueError if one is unknown. Meshes, device lists and shardings are serialised with CPU devices only, those that are CPU devices staying, and installing the patch again changes nothing. Moving shardings, restore arguments and trees to colocated CPU devices keeps names, shapes, specs, memory kinds, types, values and all other members, and moves each device to the one beside it, at its place. The zeros for a spec have on each shard as many places as the index of the shard takes.", "quantifier": "All lists of devices with any ids, texts and platforms, all orders of the backends, all lists of ids, all meshes, shardings, restore arguments and trees, all indices and shapes.", "why_tests_cant": "Tests fake a few devices in one order and parse two texts; collisions of the two namespaces depend on how the runtime numbers its devices, and the code runs only on a Pathways cluster.", "anchors": ["checkpoint/orbax/checkpoint/_src/multihost/colocated_transport.py:75", "checkpoint/orbax/checkpoint/_src/multihost/colocated_transport.py:106", "checkpoint/orbax/checkpoint/_src/multihost/colocated_transport.py:125", "checkpoint/orbax/checkpoint/_src/multihost/colocated_transport.py:174", "checkpoint/orbax/checkpoint/_src/multihost/colocated_transport.py:235", "checkpoint/orbax/checkpoint/_src/multihost/colocated_transport.py:301", "checkpoint/orbax/checkpoint/_src/multihost/colocated_transport.py:321", "checkpoint/orbax/checkpoint/_src/multihost/colocated_transport.py:384", "checkpoint/orbax/checkpoint/_src/multihost/colocated_transport.py:444", "checkpoint/orbax/checkpoint/_src/multihost/colocated_transport.py:466", "checkpoint/orbax/checkpoint/_src/multihost/colocated_transport.py:502"]}
{"id": "C84", "title": "Each device packs the part of an array that its DTensor layout says it holds", "statement": "For every mesh, shape and partition spec that jax_array_to_dtensor accepts, the local data that are packed are cut into the same parts as the layout of the DTensor, and each device holds the part that the layout gives it, also when axes of size 1 are dropped from tuples and when tuples are consolidated to one axis; the parts are equal and no axis is used twice. A dimension sharded over two proper axes is refused, or with leave given to the first largest of them. The flag of the DTensor system says that the system is there after any calls. Code in blocks of maybe_enable_dtensor_export_on sees the mesh of the innermost block, and the stack is as before at the end, also after exceptions. get_pspec_from_jax_arrays gives the specs exactly if all shardings are named and of one mesh.", "quantifier": "All meshes, shapes, partition specs, device positions, sequences of initialisations and shutdowns, all nestings of blocks with exceptions, all trees of arrays.", "why_tests_cant": "Tests run on eight virtual CPU devices with a few specs; which device holds which part for every mesh and spec, and what a failed initialisation leaves behind, are not covered.", "anchors": ["export/orbax/export/dtensor_utils.py:36", "export/orbax/export/dtensor_utils.py:107", "export/orbax/export/dtensor_utils.py:196", "export/orbax/export/dtensor_utils.py:322", "export/orbax/export/dtensor_utils.py:387", "export/orbax/export/dtensor_utils.py:392"]}
{"id": "C85", "title": "A runner's shutdown that waits returns only when every coroutine it took has ended", "statement": "In every execution of an AsyncRunner, in every order of callbacks and tasks, also with tasks that start others: when shutdown(wait=True) has returned, each coroutine that run_coroutine accepted has come to its end; from each state after the call there is a way to its return if tasks end. After a shutdown run_coroutine is a RuntimeError for ever and a further shutdown does nothing. Exactly the tasks that run when the task of the shutdown starts are asked to cancel, if wished. run_sync gives the result or the first error of the coroutine and leaves no task registered for the thread; during its run the coroutine finds its own task registered. cancellable changes nothing about awaitables that are not cancelled.", "quantifier": "All interleavings of submissions, shutdowns, callbacks, spawned tasks and ends of tasks; all nestings of run_sync; all outcomes of awaitables.", "why_tests_cant": "Tests run a few coroutines with fixed sleeps; the order of callbacks of the loop, tasks that start tasks during the shutdown and calls without waiting depend on timing.", "anchors": ["checkpoint/orbax/checkpoint/_src/asyncio_utils.py:37", "checkpoint/orbax/checkpoint/_src/asyncio_utils.py:78", "checkpoint/orbax/checkpoint/_src/asyncio_utils.py:158", "checkpoint/orbax/checkpoint/_src/asyncio_utils.py:174"]}
{"id": "C86", "title": "A dispatched function runs once beside the right devices, and its results land where the specs say", "statement": "ColocatedPythonDispatcher.dispatch calls the function at most once, never when an argument, spec or array cannot be moved, with the arrays on the CPU devices beside theirs if they were given and with the arguments moved so. Without result specs the result is True on all devices of the input, each once and by id. With specs the results are the function's values with exactly the shardings of the specs in their places, exactly when the structures agree. Without input the function runs on the one device list of the meshes of the specs, else on the devices of the specs by id, else on all devices; two different device lists are refused.", "quantifier": "All trees of arrays and specs, all shardings, devices, maps to CPU devices, functions and arguments.", "why_tests_cant": "Tests use the devices of one host in their usual order; other orders of devices, specs with meshes and single devices mixed and empty trees of specs are not tried.", "anchors": ["checkpoint/orbax/checkpoint/_src/multihost/dispatchers.py:32", "checkpoint/orbax/checkpoint/_src/multihost/dispatchers.py:41", "checkpoint/orbax/checkpoint/_src/multihost/dispatchers.py:69", "checkpoint/orbax/checkpoint/_src/multihost/dispatchers.py:189", "checkpoint/orbax/checkpoint/_src/multihost/dispatchers.py:239"]}
{"id": "C87", "title": "Snapshots are handled in order, the latest is the last ready one, and a load gives back the data that were saved", "statement": "In every interleaving of saves, the worker and loads: the worker handles the items in the order of the saves, none twice and none left out, and at most two are unfinished; a save is skipped exactly when an item waits. As long as no load replaces it, the latest snapshot is the last that was ready, and its step never goes back if the steps of the saves grow; when join returns all items that were put are handled, and join can return while the worker is there. A load works exactly when each array is on a mesh, has a replica that can be read and has a target sharding, and gives the data that were saved if they were replicated over the axis or no part is lost, in pinned memory for the snapshot and in device memory for the caller.", "quantifier": "All sequences of saves, ends of snapshots and loads; all trees, numbers of replicas, sets of lost replicas and target shardings.", "why_tests_cant": "Which snapshot is ready when a load reads or writes depends on timing, and lost replicas need a failing slice; tests use mocks with one replica set.", "anchors": ["checkpoint/orbax/checkpoint/experimental/v1/_src/training/pathways/snapshotter.py:68", "checkpoint/orbax/checkpoint/experimental/v1/_src/training/pathways/snapshotter.py:83", "checkpoint/orbax/checkpoint/experimental/v1/_src/training/pathways/snapshotter.py:114", "checkpoint/orbax/checkpoint/experimental/v1/_src/training/pathways/snapshotter.py:149", "checkpoint/orbax/checkpoint/experimental/v1/_src/training/pathways/snapshotter.py:209", "checkpoint/orbax/checkpoint/experimental/v1/_src/training/pathways/snapshotter.py:215"]}
{"id": "C88", "title": "The removal of a directory in cloud storage deletes its folders bottom up, ends, and touches nothing else", "statement": "A path whose parts have no question mark or number sign is parsed into its bucket and its parts. In a bucket with folders, in which each folder's parent is a folder, the removal of a directory that is not the whole bucket works in whatever order the sets are gone through: no folder is deleted before those in it, no request fails, afterwards no folder and no object of the directory is left, and all others stay. The loop ends for every listing. In a bucket without folders only the objects of the directory are removed; other paths are refused and nothing is removed.", "quantifier": "All buckets, all folders and objects, all paths, all orders of sets.", "why_tests_cant": "The clients of the service are replaced by mocks in tests, which list a handful of folders and never fail for folders that are not empty; the order of a set is not under control.", "anchors": ["checkpoint/orbax/checkpoint/_src/path/gcs_utils.py:27", "checkpoint/orbax/checkpoint/_src/path/gcs_utils.py:31", "checkpoint/orbax/checkpoint/_src/path/gcs_utils.py:66", "checkpoint/orbax/checkpoint/_src/path/gcs_utils.py:86", "checkpoint/orbax/checkpoint/_src/path/gcs_utils.py:103"]}
{"id": "C89", "title": "What is taken for a checkpoint is decided by the names of entries, and no directory makes the check fail", "statement": "A directory is taken for a checkpoint of a tree exactly if it has an entry of the name of the old single file, or the metadata of a tree and either the manifest of a database or a subdirectory with an array; it is taken for a checkpoint of Orbax exactly if its step metadata can be read or it or one of its entries is a checkpoint of a tree. For an existing directory there is no error, whatever files and directories are in it; a missing path and a file are refused with different errors.", "quantifier": "All directory trees, and all sets of directories whose metadata can be read.", "why_tests_cant": "Tests look at a few directories that Orbax wrote; that the two alternatives of the check together accept each directory with one name needs all directories, and so does the absence of errors for entries that are files.", "anchors": ["checkpoint/orbax/checkpoint/_src/path/format_utils.py:26", "checkpoint/orbax/checkpoint/_src/path/format_utils.py:43", "checkpoint/orbax/checkpoint/_src/path/format_utils.py:51", "checkpoint/orbax/checkpoint/_src/path/format_utils.py:60", "checkpoint/orbax/checkpoint/_src/path/format_utils.py:110"]}
{"id": "C90", "title": "Who is let in and where the client is are decided by the last header, by the variables and by the end of the answer", "statement": "The token of a caller is t exactly if the last authorization header is the word Bearer, a space and t. Read and write are allowed for exactly the same callers: those with a token, on backends of a known type, on all paths. The zone is the variable if it is not empty, and else what follows the last slash of the answer of the metadata server; the region is the variable if it is not empty, and else the zone up to its last dash, and there is none for a zone without dash.", "quantifier": "All lists of headers, tokens, backends and paths; all values of the variables and all answers.", "why_tests_cant": "Tests have single headers and well-formed zones; that two headers, empty tokens and texts with any number of dashes and slashes are treated as stated is for all texts.", "anchors": ["checkpoint/orbax/checkpoint/experimental/tiering_service/auth.py:30", "checkpoint/orbax/checkpoint/experimental/tiering_service/auth.py:98", "checkpoint/orbax/checkpoint/experimental/tiering_service/auth.py:123", "checkpoint/orbax/checkpoint/experimental/tiering_service/environment.py:34", "checkpoint/orbax/checkpoint/experimental/tiering_service/environment.py:57"]}
