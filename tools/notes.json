{
 "C01": {"note": "n is any non-negative integer or None; decision list characterised index by index."},
 "C02": {"note": "Proved for no cap and every cap >= 1. False for max_to_keep=0 (C02_cap_zero_refuted): the slice [:-0] is empty, so cap 0 behaves exactly like no cap (C02_cap_zero_keeps_all)."},
 "C03": {"note": "Greedy spacing is a unique characterisation (first kept; later kept iff gap to last kept >= interval). EveryNSteps cap >= 1."},
 "C04": {"note": "Metric values are totally ordered (NaN not modelled). Rank characterisation plus exact count."},
 "C05": {"note": "Proved for every non-empty policy list (as the property is quantified). C05_empty_union_refuted records that an empty policy list yields a scalar.", "status": "proved"},
 "C06": {"note": "Arbitrary clock value and timestamps."},
 "C07": {"note": "Proved for every non-zero interval and caps >= 1; false for cap 0 (C07_cap_zero_refuted). Exact division instead of float division (equal for |step| < 2^52)."},
 "C08": {"note": "ContinuousCheckpointing includes the multi-host broadcast: all hosts get the primary's decision."},
 "C09": {"note": "Crash at every operation of every save/cleanup in arbitrary histories. Holds for non-overwriting saves always, and for force=True when rmtree is atomic; false for force=True with file-by-file rmtree and for CommitFile with allow_legacy_atomic_rename (both refuted with witnesses)."},
 "C10": {"note": "Both protocols, with/without the legacy option, atomic or file-by-file rmtree in any scan order; concurrent removals covered by C10_cleanup_concurrent."},
 "C11": {"note": "Names are arbitrary strings (path separators excluded by the caller)."},
 "C12": {"note": "Round trip, injectivity, listing, lookup and step_from_checkpoint_name proved. Missing: recognised => built is false for names ending in a newline (C12_newline_refuted), proved for all others; prefixes with regex characters are refuted (C12_pattern_prefix_refuted), as is the empty prefix for step_from_checkpoint_name."},
 "C13": {"note": "First-match and listing theorems hold for arbitrary formats; written-is-found for composites of standard formats."},
 "C14": {"note": "Synchronous checkpointer: invariant over all histories of calls (returning or raising) and crashes/restarts, any policies, any well-formed initial directory. Asynchronous: the three-thread manager refines the synchronous one under every interleaving when nothing fails and other calls wait first. False cases refuted: latest_step after a forced lower step, negative steps after reload, todelete_subdir collision, reload during a save in flight.", "status": "partial"},
 "C15": {"note": "Every reachable state of the synchronous manager; general policies and the default options for all n >= 0 and p <> 0 (with p = 0 no save is successful: C15_zero_period_refuted; n = 0 removes the new step itself: C15_new_step_lost_refuted). An asynchronous save has exactly the effect of the synchronous one. A successful save after a failed one leaves an unlisted step behind: C15_async_leftover_refuted.", "status": "partial"},
 "C16": {"note": "Every crash point, any policy; whole training jobs with any number of crashes; asynchronous manager at every instant of every interleaving. Refuted: a listed but damaged step after a crash during permanent removal; overwriting of the only good checkpoint after a failed background save."},
 "C17": {"note": "Proved for all careful schedules with failures anywhere: nothing is lost, the error is raised once, the failed step is unlisted, listed steps are on disk. Refuted: list = disk after a failure (old steps vanish from the list), and both claims when restore()/check_for_errors() run while the failing save is in flight (then every checkpoint is deleted)."},
 "C18": {"note": "No rewrite proved. 'Progress status unchanged after the error' is false: refuted (the in-progress flag stays set and continuous checkpointing never saves again)."},
 "C19": {"note": "Proved for every call except save(force=True), for which it is false (C19_forced_save_refuted)."},
 "C20": {"note": "Exactness proved from every reachable state; trash collision and leftover temporary directory refuted."},
 "C21": {"note": "Any deletion function, any interleaving. False for negative steps (end marker) and for requests made after close: refuted."},
 "C22": {"note": "Chunk choice modelled with all its loops; tiling, target, acceptance (with termination), priorities and tightness proved for all inputs. The refuted theorems concern wording of the docstring (largest possible, sharded once), not the property.", "status": "proved"},
 "C23": {"note": "Proved for contiguous fragments of every rank and offset and every positive target, with the exact condition for acceptance, and for lists of overlapping fragments. Refuted for steps other than one (the docstring's own example) and for negative targets; validate_divisible_shapes broadcasts.", "status": "proved"},
 "C24": {"note": "Intersection, slicing and assembly proved for every rank; assembly and the round trip for every positive step. Refuted: the short cut for a fragment of the full size neither lets the last fragment win nor looks at the position.", "status": "proved"},
 "C25": {"note": "Proved for every rank, bound and positive step, normalize_slice for steps of any sign; resolve undoes dissolve; keys are canonical for contiguous non-empty indices. Refuted: negative integers, negative steps (resolve and dissolve), negative shapes of empty backwards slices, key equality with steps.", "status": "proved"},
 "C26": {"note": "Proved over all processes at once for any sharding as jax guarantees it (record sharded in Replica_Spec.v), any limits. The _refuted theorems concern local checkpointing (replica_id None) with a device order that mixes replica ids on a process, and a replica_id no shard has; both are outside the statement (array saved across all hosts with a valid replica id) and are recorded as findings.", "status": "proved"},
 "C27": {"note": "TensorStore itself (indexing, domain intersection, storage) is trusted; casts are any function on elements. C27_round_trip joins this with C26: save by all processes in any order of writes, restore with any sharding. The refuted theorem is about bytes reserved for an empty read, not about values.", "status": "proved"},
 "C28": {"note": "Cooperative scheduling of one event loop; the reserved sizes must not be negative. Stronger than stated: every schedule ends within n(n+4) steps. The refuted theorem records that a request equal to the limit, which would fit, is rejected.", "status": "proved"},
 "C29": {"note": "Cover, order and maximality proved; the budget holds for every batch after the first, and for the first on the workers of the first array (C29_budget_partial). C29_untracked_workers_refuted: other workers are not charged in the first batch."},
 "C30": {"note": "Proved except for one clause: a CancelledError nobody asked for is swallowed, so a normal wait does not imply a commit then (C30_silent_loss_refuted); C30_wait_means names that case."},
 "C31": {"note": "Everything proved for failures of writes and before the first barrier opens; the last clause is false for later failures (C31_late_failure_refuted)."},
 "C32": {"note": "Threads as an interleaving model. result() returning implies completion and all signals set, except in two cases shown as counterexamples: a target ending with a BaseException such as asyncio.CancelledError, and a timeout racing with cancel(). Errors and cancellation are reported. Chained futures are covered in full."},
 "C33": {"note": "The client's operations as steps of any number of threads; histories refine a sequential map whenever the store does not change while a directory is listed (key_value_dir_get takes no lock; shown as counterexamples). Also covers signal keys, contract, removal per operation id and id generation, with races shown as counterexamples."},
 "C34": {"note": "Both halves hold in runs without lock timeouts (all threads, interleavings, nesting); mutual exclusion also with timeouts if nothing interrupts __enter__. With timeouts both halves are false because _acquired is shared: leak, false entry and false timeout are shown as counterexamples."},
 "C35": {"note": "Proved for all trees of dictionaries (string or integer keys), lists, tuples, named tuples, None and leaves. Separators of several characters, and a bare leaf with a separator, are refuted; inplace=True is not modelled."},
 "C36": {"note": "Round trip proved whenever serialization succeeds, and always with keep_empty_nodes; the exact failure condition is C36_serialized, the refutation is [None, 1]. Custom pytree nodes are not modelled."},
 "C37": {"note": "Proved when no key contains a dot; refuted otherwise."},
 "C38": {"note": "Statements are for every partial tree the operations can produce. The order-dependence of structure_hash is a finding beside the claim; the claim itself is proved.", "status": "proved"},
 "C40": {"note": "Proved: strict trimming succeeds exactly when types are compatible, no template key is missing, lengths agree and no template leaf meets None (C40_ok); the result has the template's structure and its leaves are the counterparts (C40_result, C40_pairs), at the same path of names when there are no named tuples (C40_same_path); each dropped node is reported exactly once (C40_callback) and each leaf of the structure is kept or reported, not both (C40_coverage); lenient mode (C40_lenient, C40_modes); a tree trimmed to itself (C40_self). Refuted: 'at the same path' fails for named tuples with other field names, which are matched by position (C40_same_path_refuted), and a string leaf is taken apart where the template has a sequence (C40_string_refuted). Custom pytree nodes are not modelled.", "status": "partial"},
 "C41": {"note": "Proved: apply_transformations succeeds exactly when every pattern can be tried on every leaf key and every matching transform has a value; the result has new_tree's structure and every leaf has the chosen value (C41_applied): that of the last matching transform that does not merely keep the value, else the original one if default_to_original and present, else new_tree's; the choice is unique (C41_unique). Errors are ValueError if the functions do not raise (C41_error, C41_absent). Which Transform objects can be made (C41_transform). merge_trees and intersect_trees with and without target (C41_merge, C41_merge_target, C41_intersect, C41_intersect_target). Refuted corners: a use_fallback transform that matches last keeps an earlier transform's value; an overridden transform with an absent key is an error; the order of transforms is that of sorted patterns; an empty new_tree gives {}; slashes in keys confuse keys. Assumption: keys contain no slash, trees are well formed.", "status": "partial"},
 "C42": {"note": "Proved over exact rationals: every limit lies between the configured minimum and maximum for every state and every sequence of measurements when target_ratio <= 1 (C42_within), integral within the windup limit (C42_integral), a surge does not touch the history and does not raise the limit beyond the baseline less the surge (C42_surge), usage over total memory lowers the limit by at least the overflow (C42_over), baseline is restored after a surge (C42_restored), the controller is a PID controller while nothing saturates (C42_pid), steady usage below/above target drives the limit to its maximum/minimum (C42_rises, C42_falls), bytes are rounded down and stay within limits (C42_bytes, C42_auto, C42_idle), accepted configurations (C42_make). Refuted corners: target_ratio > 1 lets the result exceed the maximum; a smaller surge, or the end of a surge while usage is over total memory, raises the limit; negative surges raise it. Floating-point rounding, NaN and infinity not modelled.", "status": "partial"},
 "C43": {"note": "Proved for all evolutions of directory, clock, timeout function and consumer: returned and yielded steps are the largest of their look, at least until_step, strictly increasing; -1 only on timeout; a step that stays is reached; snapshots. Refuted: ignore_snapshot_errors does not cover a step deleted meanwhile (ValueError); an ignored error yields a step that is not there; a sleep longer than the timeout gives up at once; timeout_fn is asked twice; steps above 2^31-1 raise; an incomplete leftover snapshot is taken.", "status": "partial"},
 "C44": {"note": "Broadcast modelled as every host computing from the primary's padded step list."},
 "C45": {"note": "For arbitrary name formats."},
 "C46": {"note": "Optimality, tie-breaking and None case proved; the restart clause is false with prevent_write_metrics (C46_forgotten_refuted)."},
 "C47": {"note": "Exact characterisation for every non-zero interval; interval 0 is accepted by the options and raises (C47_zero_interval_refuted)."},
 "C48": {"note": "Scan errors (unreadable subdirectories) and failing unlinks are only logged by the code and are not modelled."},
 "C49": {"note": "Holds unless something is appended between the loop of a deletion and its end; that append is lost, shown as a counterexample."},
 "C50": {"note": "Proved: conflicts are refused; what succeeds without overwrite is exactly the union; trees of the same shape without collisions are merged; with overwrite the last tree that decides wins (compatible trees); idempotence. Refuted: later None does not overwrite; a later empty dictionary removes a leaf; a list over a dictionary meets its keys; a dictionary over a list fails even with overwrite; keys 1 and '1' collide. Not modelled: custom pytree nodes, is_leaf argument.", "status": "partial"},
 "C51": {"note": "Refuted parts: a mesh with one axis counts as one replica that has only the first device, so other processes are in no replica; without the distributed-id flag changed ids give other hardware; a slice restores with its new slice id, so slices that changed places restore with a mesh of the other slice's hosts.", "status": "partial"},
 "C52": {"note": "Proved for meshes with equally many devices per process and no process in two slices (named by `even`); five corner cases are refuted. What a checkpoint holds is not in this model.", "status": "partial"},
 "C53": {"note": "Values, sharding, order, number of batches and memory are proved for all inputs; dtype and sign of zero are not always kept (refuted). The behaviour of jnp.sum and make_array_from_single_device_arrays is assumed as named in Broadcast_Model.", "status": "partial"},
 "C54": {"note": "Proved for all meshes, scans and disks, with the conditions stated (one owner per disk, working network) for the restore of all processes. Refuted parts: coordinated fallback, owners from the latest step, spanning processes, ranks as positions, unreadable latest step, second restore of the prefetched step.", "status": "partial"},
 "C55": {"note": "Proved as stated for every fragmentation, link layout and completion order. Refuted companions record what the code does not give: a message without data is received as an error (dead branch), a whole shard with an empty file may be refused depending on completion order, empty files are never created, and sizes of the manifest are compared with nothing.", "status": "proved"},
 "C56": {"note": "All proved; refuted: a request with only a zone does not use the zone's region, a zone is compared with regions as a prefix, paths with '..' leave the prefix, a configuration listing a backend twice hides another one, empty lists of regions break the check after filling.", "status": "partial"},
 "C57": {"note": "Proved for all interleavings; the bounds on leases under the stated conditions, with witnesses that they fail without. FOR UPDATE on an outer join (db_lib.py l.370-390) is taken to execute as written.", "status": "partial"},
 "C58": {"note": "Invariants proved for all interleavings; five witnesses for the exceptions. Physical deletion and storage are not modelled.", "status": "partial"},
 "C59": {"note": "All of it is proved for trees of lists, tuples, named tuples and dictionaries without empty nodes (the caller puts metadata in their place); the exceptions named in the statement are refuted with witnesses. Key types outside sequences, dictionaries and attributes, and directories inside parameter infos, are not modelled.", "status": "partial"},
 "C60": {"note": "Holds with the exceptions that are refuted: local classes and renamed fields make the text unreadable, the made-up class names collide, integer keys become strings.", "status": "partial"},
 "C61": {"note": "Saves follow one another and are completed in order; the files of the arrays are not modelled. Proved for all sessions of one array format; what is false is refuted with a witness.", "status": "proved"},
 "C62": {"note": "Proved: no data file is lost under any kills and repeated runs, placement, no overwriting, collisions refused, resumption between pending directories and inside plain files, saves one after another. Refuted: resumption in general (a kill inside a pytree leaves a session that can never be finalized, or one finalized without its OCDBT manifest; array metadata entries repeated; metadata lost when killed while writing) and overlapping asynchronous saves.", "status": "partial"},
 "C63": {"note": "Proved for all processes, interleavings of batches, listing orders and extensions. Refuted as parts of what the code or its comments promise: reserved key in an extension, stray process_* file, missing process accepted, extensions not compared, shadowed duplicates not compared, and no check when every host is primary.", "status": "partial"},
 "C64": {"note": "One handler per item, stability, routing, committed saves, finalization with and after failures, round trip, order, and restoring by a new handler are proved for every run. Refuted, with witnesses: the same for registries with two handlers of one item (finalize takes the first, restore without args the last), restoring with the registered restore args what a handler registered for all items saved, saving twice with a second class of save args, saving after a refused save, restoring a wrapped asynchronous handler without args, create_default_handler_registry with one class of args for both, and finalizing a save of nothing.", "status": "partial"},
 "C65": {"note": "Proved for the store with a background thread and the blocking store; the provisos (no stolen error, no failed read, no second store, unchanged user objects) are each shown necessary by a refutation.", "status": "partial"},
 "C66": {"note": "Proved: exact acceptance of serializing, deserializing, keyword validation and additional metrics; the round trip through JSON and its stability; what an update changes; a save from first write to commit; the root's metadata. Refuted (real behaviour of the code): two unknown names with empty custom metadata, deserializing one dictionary twice, unknown float performance metrics, statistics other than floats, truth values as times and falsy metrics, nested keys that are numbers.", "status": "partial"},
 "C67": {"note": "Proved: all operations, under the stated conditions on names, exactly (including when they fail); refuted without them: parameters are lost without a word when renaming or a fused or stacked name collides, parts of which one begins another are never fused, two keys that are the same part of the same name leave one behind, a key given twice is repeated twice, with a filler indices beyond the expected number are dropped, shapes are broadcast and axes from the back are taken wrongly, streaming ignores the slices of other axes and announces a wrong shape for axes from the back, and a failure in place has already taken the caller's parameters.", "status": "partial"},
 "C68": {"note": "Proved: runs of parts in row-major order, one run for a split first dimension, the partition of the runs into blocks with a bound of what is over-read, one block for uniform runs under the chosen ratio, disjoint bounded chunks, the bytes of every destination for every order of the chunks, what a load with or without a state has on every device, the checks, and when a plan is made. Refuted: that a ratio of 2 pulls at most twice what is needed (runs less than a page apart are always put together), that the chosen ratio bounds the number of requests for runs that are not uniform, that the choice never fails (division by zero for empty tensors far apart), and that a header whose offsets disagree with the shape is refused. Ratios are exact fractions: the rounding of floats is not modelled; header parsing, the limiter and the building of arrays are not.", "status": "partial"},
 "C69": {"note": "Registration, copies and local registries, resolution for saving and loading (exact, with the precedence as a specification), the fallback to the handler of 'state', and the whole round trip, are proved; so are the lookups of the registry of types and what adding keeps. Refuted: that a local registry can be the base of another with the global entries, the example of the module's documentation (refused as already present), that merging keeps the further names of global handlers, that the handler of a name is always used for loading, that the recorded handler comes before one that has the name as a further one, that a handler which defers to the recorded name is used, that objects that save themselves are loaded by the same handler without an abstract value, that handlers without a default constructor are refused when added (instead nothing can be saved), that overriding a type keeps the handlers of other types, and that the name of a replaced handler is forgotten. Handlers are numbers with capabilities as functions; the properties of the objects (what a handler can save) are inputs.", "status": "partial"},
 "C70": {"note": "Everything stated is proved. Refuted besides: that a checkpoint needs metadata or a valid part (an empty directory is one); that what is said to be a checkpoint can be loaded; that 'pytree' is taken first, as documented; that an empty checkpoint is a KeyError, as documented; that an old checkpoint whose metadata can be read without a name can be loaded without one; that the metadata of a part needs only a handler for that part; that names that pass the checks can be saved; that saving with metrics leaves the dictionary of the caller alone.", "status": "partial"},
 "C71": {"note": "Topology, peers, renaming, retry and unanimity are proved exactly. Refuted: the representative device depends on the order; repeated source ids are renamed to the last target; the latest common step is missed if a worker has 128 greater ones; a save returns True though no worker saved; a negative step makes workers restore different steps.", "status": "partial"},
 "C72": {"note": "Small-step model of _ControllerSaveHandoffLifecycle and the part of save that publishes: what is done under the lock is one step. Proved for all interleavings: at most one persist, truthful outcomes, no loss with a single saver, no deadlock, boundedness, every call has an outcome. Refuted: recovery after a failed handoff, two concurrent savers, a waiting drain between publication and start of the thread. Not modelled: the preparation of the state, the persistent manager itself, the decision whether to save (C71).", "status": "partial"},
 "C73": {"note": "Arguments, saves, deletes, restores in standard and sidecar mode, and the dataset are proved for all inputs; refuted are the lost dataset, its restore, tree datasets, deletes of steps without dataset, the check of ragged tables, (mesh, axes) arguments, metadata of shardings and arrays on one device.", "status": "partial"},
 "C74": {"note": "Proved for all interleavings of the newer save and of the older synchronous one. Refuted: overwriting with several processes can hang with the old checkpoint gone (and nothing ever brings it back, C74_race); handlers without barriers can be committed without the parts of other processes; a proper subset of active processes hangs at the check of paths; a failed creation of directories is reported to the first that waits only.", "status": "partial"},
 "C75": {"note": "Proved for every interleaving: save reports the truth, listed steps are on disk, latest and load agree with the disk, a checkpoint survives every stop, no deadlock. The refuted theorems are findings outside of these statements (calling save_async before the thread of the last save has begun to wait; overwrite with a policy that then skips; load right after save_async; lightweight_initialize; forgotten older steps; stale responses).", "status": "proved"},
 "C76": {"note": "Round trip of metadata and texts, keys, file, restore arguments, standard handler and maximal shardings. Refuted: memory kind lost; metadata not equal after a round trip with several axes; single-device shardings of other processes; fallback not used for unreadable texts; other classes of shardings come back as numpy; maximal shardings not maximal.", "status": "partial"},
 "C77": {"note": "Proved as stated. Refuted beside it: an output is not always restored with its own arguments (shared arrays), arrays that are not needed are read, value_fn of RestoreTransform does not get RestoreArgs, inputs named with None are not read, missing restore_args can be a KeyError, partial_restore is dropped with an aggregate file.", "status": "partial"},
 "C78": {"note": "Proved for all mappings, directories, behaviours of the replicator and timeouts. Refuted: an empty or unreadable replicator.failed is deleted and ignored; a replicator.failed from an earlier run makes a new start fail; a run name with a newline injects lines into the request; a marker for a step still in the local directory makes the start fail; slices of processes that are not consecutive give peers in the same slice; the given timeout does not bound the start without colocated python. One round of polling is one step of the model.", "status": "partial"},
 "C79": {"note": "Proved for all sequences of registrations and all class hierarchies. Refuted in general: that a registration leaves the handlers of other types alone (incomparable types are decided by the number of bases; an override removes entries that share the abstract type), that new typestrs are used, that protocols with equal or inherited members are told apart, that names or typestrs shared by handlers do no harm, and that np.number is handled as the comment says.", "status": "partial"},
 "C80": {"note": "The round trip, the sizes of chunks, the errors and the handler are proved. Refuted: arrays of the other byte order come back with other values; large arrays in lists are refused where they are saved in dicts; dicts with the key of chunks or with integer keys are saved but not restored; arrays of texts are not restored; a save in place leaves chunks in the tree of the caller; keys of several types are refused by the copy.", "status": "partial"},
 "C81": {"note": "Exact conditions of a pass, round of all signatures, bound functions and accepted configs are proved. The property as documented is refuted in several ways: the tolerances are handed to numpy in the wrong order, tensors without floats only mismatch when all elements differ, equal empty ones mismatch, NaN never passes, shapes of floats and kinds of leaves are not compared, a bare array is split into rows, and processors of the new kinds are never run.", "status": "partial"},
 "C82": {"note": "Proved: defaults, calls, batching, round trip of saved maps for absolute directories and keys without slashes, different names for keys without dots and tildes, platforms when the enumeration is at hand, conversion to bfloat16. Refuted: the directory is joined twice (relative and remote directories fail), empty maps and keys with slashes do not come back, names of parameters can collide, manifest_pb2 is not imported, the documented order of defaults, tiling of primary tensors, and conversion of python floats.", "status": "partial"},
 "C83": {"note": "Proved: parsing of global ids, deduplication of devices, the map of CPU devices and its independence of the order, resolution of ids, normalisation before serialisation, the patch, moving of shardings, restore arguments and trees, final specs, zeros. Refuted: a spec without a sharding makes a tree a TypeError, weak types are lost, and a final spec without a sharding is an AttributeError although the code asks for it.", "status": "partial"},
 "C84": {"note": "Proved: placement of parts, equal parts, choice of the axis for tuples, rank of layouts, the state of the system, the stack of meshes, specs of trees. Refuted: a spec longer than the rank is not refused, consolidation without a jax mesh is a TypeError, and a failed initialisation can neither be repeated nor shut down.", "status": "partial"},
 "C85": {"note": "Proved for all interleavings. Refuted parts: without wait, coroutines that were taken never end and need not be asked to cancel; tasks started during the wait are left; with nest_asyncio a nested run_sync deletes the outer registration.", "status": "partial"},
 "C86": {"note": "Proved for all trees, devices and functions. Refuted parts: an empty container of result specs is taken for missing although the result is kept; specs without a sharding are collected but then refused; with one mesh in the specs the devices outside of it are not looked at.", "status": "partial"},
 "C87": {"note": "Proved for all interleavings and trees. Refuted parts: a load that replaces the snapshot throws a newer one away; an unexpected error ends the worker for good and join never returns; arrays sharded over the replica axis are cut short when a replica is lost; arrays without a mesh are saved but never loaded.", "status": "partial"},
 "C88": {"note": "Proved for all buckets, paths and orders. Refuted parts: a number sign or question mark in a path makes the folders of another directory be deleted; the folders of a bucket that is removed as a whole stay.", "status": "partial"},
 "C89": {"note": "Proved for all directory trees. Refuted parts, which are promises of the documentation: the directory of a TensorFlow checkpoint, each directory with a subdirectory called checkpoint, and roots whose steps have no item name are taken for checkpoints.", "status": "partial"},
 "C90": {"note": "Proved for all headers and texts. Refuted parts: an empty token lets a caller in; the word for the kind of token in lower case is refused; an answer without zone gives an empty zone and not none.", "status": "partial"}
}
