# Formal model of orbax (checkpoint library)

Target: the python sources in `/repo/checkpoint/orbax/checkpoint` at the pinned
commit, read as text. Tool: Rocq/Coq 8.16.1, standard library only.

## 1. How the model is organised

Every modelled area has four files under `rocq/theories/`:

* `<Area>_Model.v` – definitions only, branch by branch after the python code.
  Each definition carries a comment with file and line numbers and the
  simplifications made. Exceptions are values (`result`), loops are structural
  recursion or fuel with a proof that the fuel suffices, external calls are
  explicit oracle arguments or nondeterministic labels of a transition system.
* `<Area>_Spec.v` – the independent vocabulary used to state the properties
  (no reference to the model's helpers).
* `<Area>_Proofs.v` – lemmas.
* `<Area>_Props.v` – only the property theorems, named `Cnn_...`, each closed by
  `exact lemma`, followed by `Print Assumptions` and by an `Example` that
  instantiates its hypotheses with a concrete non-trivial case. A property that
  is false of the faithful model has a theorem `Cnn_..._refuted` with a concrete
  witness, and what remains true is a theorem with suffix `_partial` (or the
  same property under the explicit extra hypothesis).

## 2. Trusted base

* Coq's kernel (no `-type-in-type`, no disabled checks), `vm_compute` used by
  some `Example`s and refutations.
* Axioms: see the `Print Assumptions` output under each theorem; at the end of
  this file the list is repeated (section 6).
* The reading of the python code recorded in the comments, i.e. that the
  modelled functions are faithful. In particular:
  * python `int` is `Z`/`nat` (unbounded), `datetime`/`float` seconds are exact
    numbers (`Z` or `Q`), i.e. float rounding is not modelled;
  * the file system is a finite map from names to directory contents whose
    individual operations (mkdir, write file, rename of a directory, unlink of one
    entry) are atomic, and a crash happens between operations; rmtree is modelled
    both as one atomic step and file by file in any order; durability (fsync) is
    not modelled;
  * jax/tensorstore/numpy primitives are represented by their documented
    effect (pytree flattening order, basic slicing, array read/write);
  * multi-host barriers are represented by their contract: nobody passes a
    barrier before every participant reached it.
  * the database of the tiering service executes its statements one at a time,
    checks its two unique indexes at commit and keeps rows read FOR UPDATE locked
    to the end of the transaction; reads without a lock see what is committed
    (PostgreSQL's default isolation). The statements are taken to execute as
    written (some lock the nullable side of an outer join, db_lib.py l.370-390,
    job_worker.py l.642-647, which PostgreSQL may refuse). Clocks do not differ
    between workers, but a reading may be used late.
* `tools/check_comments.py` and `tools/check_cites.py` check that each definition
  cites lines of the source, that these exist and that functions named with them
  are there; what they say is checked by reading only.

## 3. Properties: what is modelled and how it is proved

| Property | Model | Method |
|---|---|---|
| C01–C07 | `Policy_Model`: each preservation policy as a function from the list of checkpoint infos to a list of booleans (or an error) | index-wise characterisation by induction on the list; sort stability for BestN; greedy filters characterised by a spacing specification |
| C08 | `Policy_Model`: save decision policies | case analysis, `existsb` |
| C09, C10, C11 | `Atomic_Model`: file system as association list from name to directory; save protocols compiled to lists of atomic file-system operations; crash = any prefix | invariant over operation prefixes; string lemmas for the reserved suffix |
| C12, C13 | `StepName_Model`: decimal printing with zero padding, the recogniser for the format's regular expression, composite format | round trip of decimal digits; list induction |
| C44, C45 | `StepName_Model`: broadcast listing, latest step | permutation arguments over the directory listing |
| C14–C16, C18–C20, C46, C47 | `Manager_Model`: manager state (cached infos, options, saving flag) over a file system of step directories; each call is a function to the list of atomic operations it performs, the new manager state and the result; crash = any prefix of the operations followed by a new manager | invariant by induction over histories of calls and crashes |
| C14-C17 | `ManagerAsync_Model`: the same manager with an AsyncCheckpointer: user thread, commit thread, finalize thread | invariant over all schedules |
| C21, C48 | `Deleter_Model`: transition systems caller/queue/worker and scan thread/scheduler/worker pool | invariant over all schedules |
| C22, C23, C24 | `Chunk_Model`, `Fragment_Model`: nat/Z arithmetic on shape lists, boxes, values as functions of coordinates | divisor-list invariant; box partition by induction on the rank |
| C25 | `Slice_Model`: python slice semantics (`slice.indices`) on Z | arithmetic, element sets |
| C26 | `Replica_Model`: shards as (box, replica id) | exact-cover argument via division with remainder |
| C27 | `Reshard_Model`: arrays as functions, zero padding, domains as boxes | pointwise |
| C28 | `Limiter_Model`: labelled transition system of tasks | invariant + enabledness (no deadlock) |
| C29 | `Batch_Model`: greedy batching over worker usage maps | induction on the list; a refutation for the untracked workers |
| C30, C31, C32, C33, C34 | `Async_Model`, `Commit_Model`, `Future_Model`, `Signal_Model`, `Lock_Model`: transition systems with arbitrary scheduling | inductive invariants |
| C35–C41 | `Tree_Model` and friends: a pytree datatype with dict/list/tuple/namedtuple/None nodes | nested induction over trees |
| C42 | `MemReg_Model`: rational arithmetic | `lra`/`nra` style proofs over Q |
| C43 | `Wait_Model`: polling loop against an arbitrary sequence of directory listings | induction on the poll sequence |
| C50 | `Merge_Model`: merging of pytrees | a relation for the merged tree, induction over it |
| C51 | `Mesh_Model`: replicas of a mesh, mesh after a restart | row-major indices, induction over the shape |
| C52 | `Emergency_Model`: steps per slice, latest step, saving and choice of the restore source | counting occurrences over the processes of a slice, using the partition of C51 |
| C53 | `Broadcast_Model`: batches, buffers and sum over replicas | greedy exchange argument for the number of batches; folding of zero shards |
| C54 | `Peer_Model`: topology map, registry of peers, choice of step and source, restore of all processes with its meetings, background fetch | registry characterised by last holders; meetings of all processes; counting ranks of first occurrences |
| C55 | `Transfer_Model`: the wire format, exact reads, file streaming, safe joining of paths and fetching of a shard (protocol.py l.28-347, service.py l.35-69, l.184-369) | sockets are lists of pieces that arrive; timeouts and local disk errors appear only as connections that end early; json encoding is an argument; threads appear as the order of completion |
| C56 | `Backend_Model`: choice of the backend of a request and of a copy, place of an asset, filling and checking of the table of backends (storage_backend.py l.31-124, assets.py l.432-500, db_lib.py l.86-230, db_schema.py l.175-306, server.py l.46-135) | search results characterised as the first element of the first non-empty class; string lemmas; pigeonhole for the comparison of table and configuration |
| C57, C58 | `Tiering_Model`: database of the tiering service, the calls of clients, claiming, processing and polling of jobs by workers, as a transition system of statements (assets.py l.258-427, l.503-924, db_lib.py l.246-465, db_schema.py l.35-478, job_worker.py l.112-618, l.620-837, server.py l.99-551) | invariants over reachable states: claims under way hold their rows, leases and locks bound the number of active jobs, unique indexes, rows of jobs and targets; frame lemmas per statement |
| C60 | `RichMeta_Model`: JSON form of value metadata and of metadata trees with tuples and named tuples, reading it back (tree_rich_types.py l.32-249, value_metadata_entry.py l.33-95, empty_values.py l.79-96) ; JSON texts are the values they denote | induction over trees; a reader of the written form |
| C59 | `TreeMeta_Model`: keys, entries and the metadata file of a pytree, its JSON form, nesting, merging, the batches asked of the type handlers, the pytree of metadata (tree.py l.70-1026) | injectivity of python's repr of a tuple; sorted lists of paths and their trees; invariants of the two loops over batches |
| C61 | `Partial_Model`: names of sessions and pending directories, which additions a partial save may make, filtering of requests, text of keys, merging of the metadata files (base_pytree_checkpoint_handler.py l.241-368, l.589-599, partial/saving.py l.280-357, l.452-453, l.558-563, partial/path.py, snapshot.py l.34-41) | a reader of python's repr; maximal keys of a list are those of any list with the same maximal keys; induction over the session |
| C62 | `PartialFs_Model`: temporary directory of a partial save, merge of the pending directories, finalization, with a kill at any file operation of the concurrent tasks (partial/saving.py l.324-621, snapshot.py l.138-186, atomicity.py l.104-167, l.522-552, ocdbt_utils.py l.141-205); `rename` is assumed to raise FileExistsError when the destination exists | invariant of every task by induction over directories, lifted through gather; commuting handler calls |
| C63 | `ArrayMeta_Model`: text form of array metadata, write/read of the per-process files, the validator, batches by priority, wrapping of random keys on restore, write shapes on finalize (array_metadata_store.py, array_metadata.py, jax_array_handlers.py, base_pytree_checkpoint_handler.py) | mutual induction on JSON values; run invariant `holds` over interleavings of writes; fold invariants of the caches; permutation invariance via the exact characterisation |
| C64 | `Composite_Model`: global registries of args and handler types, handler registries, the choice of handlers, save, finalize, metadata and restore of all items of a checkpoint with failing steps (composite_checkpoint_handler.py, handler_registration.py, handler_type_registry.py, checkpoint_args.py, atomicity.py, checkpointer.py) | run invariants over arbitrary sequences of calls and failures (one handler per item; registered args of known items); extension order of registries; induction on retries |
| C65 | `MetaStore_Model`: stores of metadata files, blocking and with a background thread, step by step with failures; waiting; saves from the temporary directory to the commit; concurrent saves and other threads (checkpoint.py, atomicity.py, async_checkpointer.py, checkpointer.py) | invariants over all sequences of events: order of futures, the file of one directory as a fold over the tasks done, phases of one save |
| C66 | `StepMeta_Model`: metadata of steps and of the root as dictionaries and as JSON, updates, a save from first write to commit (`step_metadata_serialization.py`, `metadata_serialization_utils.py`, `root_metadata_serialization.py`, `step_statistics.py`, `checkpoint.py`) | exact characterisation of each processor; nested induction over values for JSON; the aliased custom metadata as an explicit second result |
| C67 | `Surgery_Model`: fusing, renaming, repeating, stacking and nesting of parameters (model_surgery/transformations/fusing.py, renaming.py, repeating.py, stacking.py, nesting.py) | arrays as shapes and functions of indices with pointwise relations; inductive relations for parts of names; invariants of the grouping loops; sorted permutations |
| C68 | `Safetensors_Model`: byte runs of shards, coalescing of reads, chunks, copying, planning and checks of a load (v1/_src/layout/safetensors_layout.py) | recursion over the dimensions against row-major addresses; groups of a sorted permutation; coverage of reads by chunks; memory as a function with an order-independent source for every byte |
| C69 | `Registry_Model`: registries of handlers, local registries, resolution for saving and loading, registry of types (v1/_src/handlers/registration.py, resolution.py, v1/_src/saving/execution.py l.120-175, _src/serialization/type_handler_registry.py) | invariant of registries made by adding; first and last entries with a property; precedence as an inductive specification |
| C70 | `Layout_Model`: what is a checkpoint, the choice of a layout and of a part, saving, loading and metadata of the parts over directories as finite lists (experimental v1 `layout/*`, `loading/*`, `metadata/loading.py`, parts of `saving/*`, `training/checkpointer.py`); handlers are oracles, the files in a part are theirs | characterisations by equivalences; sortedness of names for independence of the order of listing; permutations for the round trip, on top of C69 |
| C71 | `Topology_Model`: workers, ranks, peers, renaming of ids, agreement on steps (`pathways_topology.py`, `pathways.py`, `colocated_utils.py`, `sidecar_worker_checkpoint_manager.py`, `colocated_controller.py`) | uniqueness of sorted permutations; grids as products; induction on sorted lists of steps |
| C72 | `Handoff_Model` | The handoff of colocated saves: the pending save, its thread, the callers that drain, finish and check it, and the workers, as an interleaving of steps (what is done under the lock is one step) |
| C73 | `Replicator_Model` | The manager of replicated local checkpoints: checks of arguments, saves, deletes, and restores by way of the mesh of the time of saving; the storage is what each piece of hardware has (built on the mesh of C51); assumed: `jax.device_put` keeps values, leaves arrays without a sharding where they are and refuses what is no sharding |
| C74 | `SaveAll_Model` | `v1 saving/execution.py` (`_finalize_save`, `_run_blocking_save`, `_check_directory_consistency`, `save_checkpointables_impl`), `saving/path_utils.py`, `path/async_utils.py`, the barriers of the handlers, and the older `Checkpointer.save`, as an interleaving of processes |
| C75 | `Train_Model`, `Train_Spec` | Checkpointer of training loops (training/checkpointer.py) over the manager, async checkpointer and the finalize threads; one process, every interleaving |
| C76 | `Sharding_Model`, `Sharding_Spec` | Metadata of shardings (metadata/sharding.py), the file of shardings with its keys, the choice of the sharding when restoring, maximal shardings; jax meshes and specs as values with the checks of their constructors |
| C77 | `Restore_Model`, `Restore_Spec` | Restoring with transforms (pytree_checkpoint_handler.py): which arrays are read with which arguments, aggregated values, the transforms of the result; on flat dictionaries, reading an array is an oracle |
| C78 | `Mtc_Model`, `Mtc_Spec` | The start of multi-tier checkpointing (initialization.py): ranks of peers, the file for the replicator, its errors, the waits, the restore markers; the directory is changed by an oracle each second, one round of polling is one step; jax.distributed and the dispatch to workers are not modelled |
| C79 | `Leaf_Model`, `Leaf_Spec` | The registry of leaf handlers of the new interface (registry.py), protocols (protocol_utils.py), the checks of leaves (pytree_handler.py) and the registry of the old interface made of it (compatibility.py); subclassing, members and attributes are oracles; the wrapper of a handler is its type, and saving and restoring by it are not modelled |
| C80 | `Msgpack_Model`, `Msgpack_Spec` | The legacy msgpack format (msgpack_utils.py) and the handler of the aggregate file (aggregate_handlers.py). The msgpack library is modelled by what it refuses: other types, integers of more than 64 bits, byte strings that are too long (oracle), and map keys that are no strings when unpacking. The bytes of a message and of numbers are not modelled; dtypes are given by a table of names |
| C81 | `Validate_Model`, `Validate_Spec` | Validation of exported models (validation_report.py, validation_manager.py, validation_job.py, validation_utils.py) and the serving configs (serving_config.py). Floats are rational numbers or NaN, without rounding and infinities; tensors of other types hold integers; broadcasting of tensors with different shapes is an oracle; the functions are given and may raise. Latencies, greatest differences, profiles and JSON are not modelled |
| C82 | `Export_Model`, `Export_Spec` | Utilities for exports (export/orbax/export/utils.py). Files are a map from paths to contents, with an option for stores without directories; exported functions are their serialised form; tensors for batching are lists of rows; conversions to tensors are an oracle. Tracing by TensorFlow, TF1 sessions and the fallback names of parameters are not modelled |
| C83 | `Colocated_Model`, `Colocated_Spec` | Transport through colocated python (multihost/colocated_transport.py). Devices are objects with client, id, platform and text; `cp.colocated_cpu_devices`, the reducers of jax and the conversion of metadata are oracles; a pytree is the list of its leaves. The lock of the PRNG wrapper, the cache of the map and `make_scalar_array_like` are not modelled |
| C84 | `Dtensor_Model`, `Dtensor_Spec` | Conversion of arrays to DTensors (export/orbax/export/dtensor_utils.py). Of TensorFlow are assumed: an unknown axis is an error, a layout uses no axis twice, the accelerator system can be initialised only once and shut down only when initialised. Which part a device holds is that of jax: the first axis of a tuple counts most. The making of the mesh and the packing itself are not modelled |
| C85 | `Runner_Model`, `Runner_Spec` | The runner of coroutines, `run_sync` and `cancellable` (_src/asyncio_utils.py) as a transition system of callbacks and tasks. Of asyncio are assumed: callbacks scheduled from other threads run in their order, and nothing runs on a loop that has ended. Each call on the runner is atomic. The values of tasks and the start of the thread are not modelled |
| C86 | `Dispatch_Model`, `Dispatch_Spec` | The dispatch of functions by colocated python (_src/multihost/dispatchers.py), over the model of C83. Of colocated python is assumed that it runs the function once on the arrays as given and refuses a result of another structure than the specs. Trees are one leaf or one container of leaves; shapes, dtypes and logging are not modelled |
| C87 | `Snap_Model`, `Snap_Spec` | Snapshots in pinned host memory (experimental/v1/_src/training/pathways/snapshotter.py) as a transition system of saves, the worker and loads. Of pathwaysutils is assumed that splitting over an axis gives the whole data for each position of a replicated array and the parts of a sharded one, and that concatenation puts them together again; `device_put` takes any data to any sharding. One thread saves. The conversion of keys and logging are not modelled |
| C88 | `Gcs_Model`, `Gcs_Spec` | Removal of directories in Google Cloud Storage (_src/path/gcs_utils.py). Of the service is assumed that a folder is deleted exactly if nothing is in it, that `path.rmtree` deletes the objects below the path and no folder, and that folders are listed by prefix. `urlparse` is modelled for texts that start with gs:// without brackets and control characters. The cache of buckets and requests that fail for other reasons are not modelled |
| C89 | `Format_Model`, `Format_Spec` | Recognition of checkpoints by the entries of a directory (_src/path/format_utils.py). Whether step metadata can be read is an argument; the tree does not change while it is looked at |
| C90 | `Auth_Model`, `Auth_Spec` | Tokens, permissions, zone and region of the tiering service (experimental/tiering_service/auth.py, environment.py). The checks of permissions are the place-holders that the code has. The answer of the metadata server is an argument, without white space at its ends |

Not expressible here: wall-clock liveness (how long a save takes), float
rounding, GCS specific object semantics, and the behaviour of user code in
handlers beyond "returns or raises".

## 4. Findings

Statements one would expect to hold and that are false of the code as modelled,
each proved with a concrete witness (`tools/gen_design.py` refreshes the list):

<!-- findings -->
* `C02_cap_zero_refuted`: 
* `C05_empty_union_refuted`: An empty union is not "preserve nothing": it is not a list at all.
* `C07_cap_zero_refuted`: 
* `C09_force_overwrite_refuted`: False in general: overwriting (force=True) where rmtree deletes file by file leaves, after a crash in the middle, a final-named directory with some of its files missing that is still recognised as finalized -- with both commit protocols.
* `C09_legacy_refuted`: False with AtomicityOptions(allow_legacy_atomic_rename=True) in CommitFile mode: an interrupted save to a fresh name is recognised as finalized.
* `C12_empty_prefix_refuted`: With the empty prefix the format lists "_5" but step_from_checkpoint_name rejects it.
* `C12_newline_refuted`: The regular expression ends in [$], which also matches before a final newline: the directory "12\n" is taken for step 12, whose name is "12".
* `C12_pattern_prefix_refuted`: The prefix is put into the regular expression without escaping: with the prefix "a+b" no step that is saved is ever listed, though it can be looked up by number.
* `C14_forced_latest_refuted`: A forced save of a lower step is appended at the end of the list, so latest_step is no longer the greatest committed step.
* `C14_negative_step_refuted`: A checkpoint of a negative step is saved and listed, and gone from the list after reload although it is still on disk.
* `C14_reload_in_flight_refuted`: Finding: reload() while a save is in flight forgets the step being saved and brings back the one being deleted.
* `C14_trash_collision_refuted`: With todelete_subdir, removing a step a second time fails because the trash already holds that name; the save that triggers it raises after having dropped the steps from the list, and list and disk differ from then on.
* `C15_async_leftover_refuted`: Finding: after a failed save the leftover steps stay on disk even once a later save has succeeded: more than max_to_keep checkpoints remain.
* `C15_new_step_lost_refuted`: max_to_keep = 0 is accepted, and every save then removes its own step.
* `C15_zero_period_refuted`: keep_period = 0 is accepted by the options; the error comes from the save, after the checkpoint was committed and without any clean-up.
* `C16_async_overwrite_refuted`: Finding: after the failure an unforced save of a step that is on disk is let through (the list is empty), and AsyncCheckpointer.save(force=True) removes the only good checkpoint before writing.
* `C16_damaged_listed_refuted`: With permanent removal a crash can leave a directory that is listed as a committed step and cannot be restored.
* `C17_consumed_error_refuted`: Finding: check_for_errors() (or restore()) called while a failing save is in flight takes the exception away from the finalize thread. That thread then deletes the old steps: no checkpoint is left, wait_until_finished returns normally and the list shows the step that was never committed.
* `C17_failure_after_commit_refuted`: Finding: a failure after the commit (for example in the post-commit callback) leaves a committed step that is not in the list.
* `C17_list_misses_steps_refuted`: Finding: the steps to remove are dropped from the list when the save starts (CM l.1556). If the save then fails they stay on disk and out of the list: with max_to_keep=1 latest_step() is None although step 2 is there, and restore() without a step fails.
* `C17_restore_consumes_error_refuted`: Finding: the same with restore() in place of check_for_errors().
* `C17_restore_race_refuted`: Finding: restore() while a good save is in flight can set the commit thread to None between the finalize thread's test and its join: the save is reported as failed, its step leaves the list, and yet it is committed; the old step stays on disk, unlisted.
* `C18_progress_refuted`: After StepAlreadyExistsError the manager reports a save in progress although none is, and with ContinuousCheckpointingPolicy it never saves again: the flag is only cleared at the end of a save.
* `C18_write_error_progress_refuted`: The same after a write error.
* `C19_forced_save_refuted`: save(force=True) skips should_save, the only place where read_only is looked at: a read-only manager writes a checkpoint.
* `C20_leftover_tmp_refuted`: If a step has both a committed directory and a temporary one left over by a killed writer (a state outside [wf_fs]: another process has to be involved), delete removes the temporary one: the checkpoint stays on disk and leaves the list.
* `C20_trash_collision_refuted`: Save, delete, save and delete the same step again with todelete_subdir: the second delete raises, because its target in the trash exists.
* `C21_after_close_refuted`: Finding: a request after close is accepted and never carried out; the next close returns normally.
* `C21_negative_step_refuted`: Finding: a negative step is taken for the end marker. close returns normally, the steps behind it are never deleted.
* `C22_axis_once_refuted`: The documentation says a requested axis is "sharded at least once"; in fact it is always cut into single rows, even when the whole shard already fits the byte target, so that a megabyte vector is stored as single elements.
* `C22_largest_refuted`: The documentation says the chunk is "otherwise as large as possible"; in more than one dimension the greedy search misses larger ones.
* `C23_divisible_shapes_refuted`: validate_divisible_shapes lets numpy broadcast: (4, 6) counts as divisible by the shape (2,), and a shape with any dimension by the empty shape only when both are empty.
* `C23_negative_target_refuted`: A negative target that divides the shape is accepted, and all the data is dropped: no piece is returned.
* `C23_steps_refuted`: The docstring of chunk_fragment gives an example with a step of two: [0:4:2, 0:2:1] cut into pieces of shape (2, 1). The pieces returned have step one, so the second pair claims rows 2 and 3 but carries arrays without any element, row 3 was never part of the fragment, and the value of row 2 is handed out as that of row 1.
* `C24_last_wins_refuted`: When one fragment has the whole shape it is returned at once, even if a later fragment overwrites part of it: the first one wins there, the last one everywhere else.
* `C24_position_refuted`: The same short cut compares only sizes, not positions: a fragment at [2:4] of an array of shape (2,) is accepted as the whole array although no coordinate of the array is covered.
* `C25_key_refuted`: Keys are not canonical once steps are involved: [0:2:5] and [0:1:1] select the same elements of a sequence of length 5 under different keys.
* `C25_negative_integer_refuted`: An integer counted from the end is resolved to a slice that selects nothing: [-1] becomes [-1:0:1].
* `C25_negative_shape_refuted`: An empty slice given backwards stays backwards when resolved, and slice_shape then reports a negative dimension.
* `C25_negative_step_dissolve_refuted`: dissolve_slice drops a start of zero also for a negative step: [0::-1] is one element, its result [::-1] the whole sequence reversed.
* `C25_negative_step_resolve_refuted`: With a negative step the resolved slice can select something else: [::-1] against length 5 becomes [4:-1:-1], which selects nothing.
* `C26_local_refuted`: With local checkpointing a process may lose data: it takes the replica id of its first shard as the one to write, but the shards it holds of other boxes need not have that id. In the example the process holds the top half as replica 0 and the bottom half as replica 1 (a mesh whose device order is not the order of the processes); the bottom half is not written, without an error.
* `C26_replica_id_refuted`: A replica id that no shard has is not noticed: every process writes nothing and reports success.
* `C27_empty_footprint_refuted`: Nothing is read of a shard outside the stored array, yet bytes are reserved and reported for it if its origin is inside a chunk in every dimension.
* `C28_exact_fit_refuted`: A request of exactly the limit would fit, but is rejected (as "more bytes than we reserved space for: n > n"); nothing can ever use the last byte.
* `C29_untracked_workers_refuted`: The first batch is charged only on the workers that hold shards of the first array (the usage starts as the estimate for that array instead of from zero on all workers, and increments look only at the workers already there). With a small first array on worker 7 and two arrays of 60 bytes on worker 8, all three go out in one batch: 120 bytes against a budget of 100.
* `C30_silent_loss_refuted`: A commit future that raises CancelledError although nobody called [cancel] (a shut-down executor, a cancelled task) is taken for a clean cancellation: the wait returns normally, nothing was committed and no call ever raises.
* `C31_late_failure_refuted`: The converse fails: a host that reports a failure does not mean that nothing was committed. If the commit takes longer than what is left of the timeout, the other hosts give up at the second barrier while the rename succeeds; all hosts may even report failure of a checkpoint that is complete.
* `C32_base_exception_refuted`: asyncio.CancelledError is a BaseException, so [except Exception] (FU l.380) does not catch it although FU l.382 tests for it. A target that ends with it, without [cancel()] having been called, makes [result] return as if the commit had been done; the signals are not set. SystemExit and the like do the same.
* `C32_cancel_signals_refuted`: A future cancelled while it waits for its signals ends without setting its own (FU l.376-377), whereas one cancelled later sets them (FU l.384-385): those who wait for them wait until their timeout.
* `C32_race_refuted`: The caller's time is up, [_cancelled] is read as False (FU l.432), then the future is cancelled and the thread leaves without running the target, then [is_alive()] is False (FU l.436) and [_exception] None: [result] returns although nothing was done.
* `C33_contract_race_refuted`: The contract is read and written in two operations (FU l.121, l.134): of two threads that add to it at the same time, the signals of one are lost.
* `C33_dir_get_error_refuted`: [key_value_dir_get] takes no lock. If a key is deleted between collecting the keys (SC l.333-337) and reading its value (SC l.338) it raises KeyError, which it does in no state of the map.
* `C33_dir_get_torn_refuted`: For the same reason a listing can show values that were never there together: the other operations of this run ended one before the other began, and at no place among them would the listing be right.
* `C33_ids_race_refuted`: [next_operation_id] assigns and returns in two steps without a lock (SY l.60-61): two threads can get the same id.
* `C34_exclusion_refuted`: For the same reason a thread that timed out can go in: thread 1 times out and assigns False, thread 2, which got the lock meanwhile, assigns True, and thread 1 reads True (TH l.56). Both are inside.
* `C34_false_timeout_refuted`: A thread that holds the lock can be told that it timed out: thread 0 acquires, thread 1's result is assigned before thread 0 tests the field. Thread 0 raises TimeoutError without entering; the lock stays taken.
* `C34_leak_refuted`: [_acquired] is a field shared by all threads (TH l.55). Thread 1 times out while thread 0 is inside, which sets it to False; then thread 0 leaves without releasing (TH l.65): everybody is out and the lock is held for ever.
* `C35_leaf_separator_refuted`: With a separator a single leaf does not come back: it turns into a dictionary.
* `C35_long_separator_refuted`: With a separator of two characters the tree can come back different although no key contains the separator: [to_flat_dict({'a/': {'b': 0}}, sep='//')] has the key ['a///b'], which is split into ['a'] and ['/b'].
* `C35_target_separator_refuted`: When two leaves of the target get the same joined name, rebuilding a complete dictionary fails: there are fewer values than leaves.
* `C36_gap_refuted`: Without keeping empty nodes a list such as [[None, 1]] cannot be serialized: the index of the second item leaves a gap and [_extend_list] fails its assertion.
* `C37_dot_refuted`: A dot in a key lets two parameters share a name, so that one overwrites the other in storage: [{'a.b': x, 'a': {'b': y}}].
* `C38_structure_hash_refuted`: The structure hash looks at the order in which the values were put in, so that the same partial tree can have two hashes: overlaying disjoint parts in the two orders.
* `C40_same_path_refuted`: Named tuples are matched by position whatever their fields are called: the result's leaf ["x"] can be the structure's leaf ["y"].
* `C40_string_refuted`: 
* `C41_empty_refuted`: An empty new tree gives an empty dictionary, whatever its structure was.
* `C41_fallback_refuted`: The last matching transform does not decide: if it is [use_fallback] and [default_to_original] is set, it leaves the value that an earlier transform put there instead of the value of [new_tree].
* `C41_order_refuted`: The order of the transforms is that of the sorted patterns, not the one in which the user wrote them: here the pattern written last does not win.
* `C41_overridden_refuted`: A transform whose original key is absent is an error even if a later one matches too and has a value.
* `C41_slash_refuted`: A slash in a key: two leaves of the new tree share a key and the tree cannot be built again; a leaf of the original tree under the same key is hidden.
* `C42_negative_surge_refuted`: A negative surge is accepted and raises the limit by itself.
* `C42_over_refuted`: After a surge the limit is raised even though the usage is over the memory there is.
* `C42_ratio_refuted`: A target ratio above one is accepted; the lower limit can then be above the upper one, and the result is above the upper one.
* `C42_smaller_surge_refuted`: A surge that is smaller than the previous one raises the limit, although a surge is going on.
* `C43_asked_twice_refuted`: [timeout_fn] answering true does not end the iterator: it is called a second time, and if that answer is false the iterator goes on.
* `C43_deleted_refuted`: [ignore_snapshot_errors] does not cover a step that is deleted (by the trainer's retention) between the listing and the snapshot: [find_step] and [create_snapshot] raise ValueError, and only FileNotFoundError is ignored, so the evaluation loop dies.
* `C43_early_refuted`: The documentation says that a sleep longer than the timeout makes it time out after the sleep; in fact it gives up at once, without sleeping or looking again.
* `C43_large_refuted`: A step that does not fit into 32 bits is listed but cannot be returned: the conversion for the broadcast raises, and its snapshot is left behind.
* `C43_leftover_refuted`: A snapshot that an interrupted copy left behind is taken as it is: [wait_for_new_checkpoint] called directly returns the step with an incomplete snapshot. (The iterator removes what is left behind before it starts.)
* `C43_nothing_there_refuted`: A FileNotFoundError that is ignored lets a step be yielded although nothing of it is there any more: no snapshot, and the step may be gone.
* `C46_forgotten_refuted`: prevent_write_metrics: the best step known to the running manager is forgotten by the next one.
* `C47_zero_interval_refuted`: save_interval_steps = 0 is accepted by the options and makes should_save raise ZeroDivisionError.
* `C49_append_refuted`: [append] takes no lock (CI l.140). An info appended after the loop of [delete_if] and before the list is replaced (CI l.133) is lost, although it was not selected.
* `C50_empty_refuted`: With overwriting a later empty dictionary, which has no leaf at all, removes an earlier value.
* `C50_key_refuted`: With overwriting a list put over a dictionary of the same length meets the keys of the dictionary instead of its values: where the list has [None], the key appears as a leaf of the result, a value that none of the trees had.
* `C50_name_refuted`: Without overwriting, trees are refused although they have no path in common: the key [1] and the key ['1'] have the same name.
* `C50_none_refuted`: "Later values from [trees] will overwrite earlier values": not if the later value is [None].
* `C50_types_refuted`: The documentation names differing types as an error only without overwriting; a dictionary cannot be put over a list that is not empty with overwriting either.
* `C51_by_order_refuted`: Without the flag the mesh has other hardware once a device got another id.
* `C51_one_axis_refuted`: A process of a mesh with one axis can be in no replica: such a mesh counts as one replica, but this replica has only the first device. [local_replica_devices] then fails for a process of the mesh.
* `C51_swapped_refuted`: A slice that restores from its own storage does so with the slice id of the new mesh. If the hosts of two slices changed places in the restart, the slice with the checkpoint restores with a mesh of the other slice's hosts and none of its own.
* `C52_cache_refuted`: Finding: what the processes remember is compared before they meet. If it differs, as after a listing of the persistent directory that saw a new step on some processes only, those that remember the step return while the others wait for them.
* `C52_latest_refuted`: Finding: what is remembered as latest is the step saved last, not the greatest: after saving a lower step (the managers do so if forced to) the latest step goes back although the greater step is still there.
* `C52_missing_refuted`: Finding: asked for a step that is nowhere, only the processes of the primary slice fail; all others wait for them before the broadcast.
* `C52_outside_refuted`: Finding: a process without a device in the mesh is put in a slice of its own with number -1, and a step that it alone has counts as available (with two devices per slice and two local devices a slice has one process): the latest step is then one that no slice can restore, and restoring it fails in the primary slice while all others wait.
* `C52_spanning_refuted`: Finding: if a process has devices in two slices, its steps count for the first one only while the number of processes of a slice is computed from the number of devices. On a two by two mesh where both processes have a device in each slice, a step that only process 0 has counts as complete, and one that both have does not.
* `C53_assertion_refuted`: Finding: the assertion that the axis of the replicas is not used looks at single axes only; a spec that uses it together with others is refused later with another error.
* `C53_dtype_refuted`: Finding: booleans and short integers come back as 32 or 64 bit integers.
* `C53_empty_refuted`: Finding: if no limit is given, an empty tree is an error; with a limit it is not.
* `C53_limits_refuted`: Finding: the number of batches depends on the memory of the own host or device (if no limit is given). On hosts with different memory the batches differ, so that the processes run different programs on the same devices.
* `C53_oversize_refuted`: Finding: a leaf beyond the limit is broadcast all the same, with a warning only.
* `C53_sources_refuted`: Finding: if two replicas are sources, the values are added without an error.
* `C53_zero_refuted`: Finding: negative zeros of the source arrive as positive ones.
* `C54_fallback_refuted`: The fallback to the persistent storage is meant for the case that some process fails to get its data from its peers (checkpoint_manager.py l.458). In that case it is not reached: the processes that have their data wait at the barrier at the end of Checkpointer.restore for those that failed, which wait for them in the vote. Here one connection does not work; the step is in the persistent storage, and no process ends.
* `C54_full_copy_refuted`: A process with devices in two replicas is mapped to the last one only. Then a step may count as incomplete though all processes of a replica hold it: "at least one full copy exists" (peer_selector.py l.90) is not what is tested.
* `C54_owner_refuted`: The owner of all steps on a disk is taken from the latest one. After a restart with other process indexes the disks have steps of different owners: then a step that is complete on the disks is not found.
* `C54_positions_refuted`: The relative id of a process is its rank in the order of first devices, not where its devices are. When one replica is laid out differently (here 0 0 1 1 and 2 3 2 3), the process 1 is taken as the source for the process 3, though it stored other parts of the arrays.
* `C54_prefetch_refuted`: The step fetched at the start is lost with the first restore, which removes the directory it is in, but is still taken as fetched: restoring it a second time, or after another step, fails with ValueError though a peer would send it.
* `C54_sync_refuted`: One process whose latest step does not tell who stored it (for example because the format of the names of the steps is not the default one, which utils.py l.42 does not know) keeps all processes from building the registry, though a step is complete.
* `C55_all_files_refuted`: FALSE: "a fetched shard has all files of the peer." Empty files are never created: protocol.py l.299-307 takes size 0 for a missing file and returns before opening the destination.
* `C55_empty_file_refuted`: FALSE: "a shard that arrives whole is fetched." With an empty file among others it is refused if the downloads finish in another order than the manifest's: service.py l.327-328 pairs the results, in the order of [as_completed], with the manifest, so that the 0 of the empty file is taken for the result of another one.
* `C55_manifest_refuted`: FALSE: "the fetched files are those of the manifest." The size in the manifest is compared with nothing: a file that was replaced on the peer after the manifest was made is taken as it is now (service.py l.327-328 only asks for a result other than 0).
* `C55_no_data_refuted`: FALSE: "a message is received with the opcode it was sent with." A message without data is received as an error: [recv_exact(sock, 0)] returns an empty [bytearray], which counts as false at protocol.py l.176, so that the branch for length 0 at l.185 is never reached.
* `C56_inside_refuted`: FALSE: "an asset is stored below the prefix of its backend." The path in the request is used as it is (storage_backend.py l.115-124): with ".." in it the place lies outside when the file system reads it.
* `C56_restart_refuted`: FALSE: "a server that filled the table accepts it at its next start." Backends with an empty list of regions are not compared when the table is filled (db_schema.py l.284) but have the same key when it is checked (db_lib.py l.97).
* `C56_verify_refuted`: FALSE: "a table accepted at the start has no backend beyond the configured ones." A configuration that lists a backend twice has the length of a table with another one (db_lib.py l.179-230 compares the lengths and looks up each configured backend).
* `C56_zone_only_refuted`: FALSE: "a request that gives only its zone finds a backend of the zone's region" (docstring storage_backend.py l.58-61). The server passes the fields of the request as they are (server.py l.124-126, l.306-308); a region that was not set reads as the empty string, not as [None], so that the search by the zone's region (storage_backend.py l.78-85) is never reached.
* `C56_zone_region_refuted`: FALSE: "the backend found for a zone lies in the zone's region." A zone is compared with a region as a prefix: europe-west10-a begins with europe-west1, and the backend of that region is taken although one in europe-west10 exists (storage_backend.py l.80-85).
* `C57_capacity_refuted`: The number of active jobs of a backend can exceed [max_active_jobs_per_backend]: a worker that comes late extends the lease of its job although it has passed (only the owner is looked at, JW l.258-262), after another worker has counted the active jobs and before that one claims its own.
* `C57_exclusive_claims_refuted`: Two jobs of one asset can be processed at the same time: each of two claims, of the copy and of the deletion, sees the other job still queued (the backend's row is locked only for jobs with a backend, DL l.301-306, and never the asset's).
* `C57_exclusive_late_refuted`: The same happens when a worker extends its lease late, while the claim of another one is under way.
* `C57_stuck_refuted`: A deletion can stay in work forever. If marking its paths fails with an exception, the job is not put into the queue of deletions (JW l.356-357, l.138-139), but the polling loop of the same worker goes on to extend its lease (JW l.159-175): as long as it does so, no one ever ends the job.
* `C58_failed_deletion_refuted`: A deletion that fails cannot be repeated: the asset is marked DELETED before its data is removed (AS l.843-867), the paths stay DELETE_IN_PROCESS, and another request for the deletion is answered with an error (SV l.510-523, AS l.809-813).
* `C58_finalize_error_refuted`: Finalize can fail although the asset has become STORED: without a matching backend of level 1 the copy cannot be started, the client gets an error and a second call is refused (SV l.269-287, AS l.503-564).
* `C58_finalize_refuted`: A deleted asset can become STORED again, with its tier paths READY though their data is gone: the state checked by Finalize is read without a lock and the deletion may take place before it is written (AS l.400-427).
* `C58_prefetch_refuted`: A copy can be queued for an asset whose deletion is pending: Prefetch looks for pending deletions and adds its job later, without a lock on the asset (AS l.645-692).
* `C58_ready_refuted`: The tier path of a deleted asset can become READY: a copy whose lease has passed is still completed by its worker (JW l.258-262 look only at the owner) after the asset was deleted.
* `C59_empty_custom_refuted`: An empty dictionary as custom metadata is turned into nothing by merging.
* `C59_hidden_leaf_refuted`: With overwriting, a new leaf is not shown when the old metadata has values below it: the old values stay.
* `C59_integer_keys_refuted`: Integer keys of the outermost dictionary come back as strings, and two keys may become one.
* `C59_lost_leaf_refuted`: Without overwriting, a leaf of the first metadata is lost when the second one has values below it: the keys differ, so nothing is refused, and the tree shows the longer keys only.
* `C59_mixed_refuted`: Merging a list with a dictionary at the same place succeeds, but the result cannot be shown as a tree.
* `C59_one_tree_refuted`: With rich types, when only one of the two has a tree, the entries of the other are in the merged metadata but are not shown.
* `C59_twice_refuted`: What describes the flattened tree is used up: unflattening a second time with it raises a KeyError, though jax hands the same description to each use of one tree structure.
* `C60_integer_keys_refuted`: Integer keys of a dictionary come back as strings.
* `C60_local_refuted`: A named tuple whose class is defined in a function has a name such as f.<locals>.C. Saving works and writes it, but no class of that name can be made up: the metadata of such a checkpoint can never be read with rich types.
* `C60_renamed_refuted`: A field that the named tuple's own constructor renamed (namedtuple(..., rename=True) gives names such as _0) is refused on reading as well.
* `C60_unique_refuted`: The name of the made-up class is said to be unique; classes of different modules get the same name (a_b.c and a.b_c).
* `C61_custom_refuted`: FINDING: the custom metadata of the saves is merged as a tree: two saves with lists of different lengths under one name are accepted, but the merge fails, and with it every attempt to finalize the session.
* `C61_dropped_refuted`: FINDING: an empty node below an earlier value removes that value from the metadata when the session is finalized: both saves are accepted and the array is lost.
* `C61_filled_refuted`: FINDING: an empty dictionary of an earlier save cannot be filled by a later one: the value below it is refused as a replacement, although nothing was saved there.
* `C61_format_refuted`: FINDING: the format of a save is not compared with the one before it (the merge that compares formats needs two earlier saves): a save in zarr3 after one in zarr2 is accepted, the finalized checkpoint is marked as zarr3 throughout, and the array of the first save is looked for in the wrong format; only a third save is refused, whatever its format.
* `C61_mixed_refuted`: FINDING: a list in one save and a dictionary in another may meet in one place, since only the names of the keys are compared; both saves are accepted and the metadata of the finalized checkpoint cannot be read as a tree.
* `C61_paths_refuted`: FINDING: saving to a path whose own name ends with ".partial_save" adds the suffix once more, but finalizing the same path takes the suffix away: it looks for a session the saves did not write to and would finalize that one, under another name.
* `C61_replaced_refuted`: FINDING: empty nodes of a save are not compared with the earlier saves, so a later empty dictionary replaces an earlier value although replacements are refused: the metadata of the finalized checkpoint says that there is an empty dictionary and the array, written before, cannot be reached any more.
* `C62_handler_refuted`: The same when the kill comes after the last pending directory was merged and removed and before the handler's finalization: the next run finds nothing pending and renames the directory without it.
* `C62_manifest_refuted`: With one save the second run succeeds, but as the directory is not taken for a pytree the OCDBT directories are never merged: the checkpoint is in its final place and its arrays cannot be found.
* `C62_overlap_refuted`: A second asynchronous save does not wait for the first, although the documentation says so: both use the same temporary directory, which the second removes. The first save ends without an error and its file is nowhere.
* `C62_repeated_refuted`: Merging array metadata is not safe to repeat: killed after the merged file was written and before the source was removed, the second run appends the entries of the source again.
* `C62_stuck_refuted`: A finalization killed after the metadata of a pytree was merged and before its array metadata was can never be completed: the second run no longer takes the directory for a pytree, moves its files one by one and finds the array metadata of the first save in the way, every time.
* `C62_truncated_refuted`: The merged metadata is written over the only copy of the metadata of the earlier saves, whose own directories are gone: killed while writing, the keys of the first save are lost and no later run can read the file.
* `C63_duplicates_refuted`: If a process stored an array twice only the last entry is compared: the number of entries is that of all, so that [x, x, y] and [x, y, y] are accepted though the first entry for [x] has another shape than all others.
* `C63_extension_refuted`: Of the extensions only the implementation of random keys is compared, contrary to the comment in the code that the extensions are checked to be the same.
* `C63_missing_process_refuted`: The number of processes is looked at only if one single file is found: with three processes, of which one wrote no file, the check accepts.
* `C63_reserved_key_refuted`: The hook that makes array metadata of JSON objects is called for all objects, also for those of the extensions: an extension with the key ["array_metadata"] is written, and then makes the file unreadable (here KeyError), also for the next batch of the same process.
* `C63_stray_file_refuted`: A file whose name starts like that of a process, such as one left by another tool, makes all metadata unreadable, so that nothing can be restored from the checkpoint.
* `C63_unchecked_refuted`: If all hosts are primary nothing is checked, and what is restored depends on the order in which the file system lists the files.
* `C64_default_registry_refuted`: [create_default_handler_registry] fails for a handler whose class has one class of args for saving and for restoring.
* `C64_empty_save_refuted`: Saving no item at all succeeds, but cannot be finalized.
* `C64_finalized_by_saver_refuted`: Two handlers registered for one item, for different classes of args: what the second saved is finalized by the first, because [finalize] takes the first handler of an item.
* `C64_general_handler_refuted`: A handler registered for all items: what it saved cannot be restored with the args for restoring that are registered for its class; the first attempt fails because the class of args for saving is already registered for the item, later ones because the item has been met.
* `C64_legacy_restored_refuted`: An asynchronous handler without registered args, given for an item: it is wrapped and registered for the args of the synchronous wrapper, while [restore] without args makes those of the asynchronous one, for which a wrapper is then made without its handler: TypeError.
* `C64_refused_without_effect_refuted`: A save refused because the class of the handler has no args for restoring: the item is taken as met, so that saving it with proper args is refused from then on.
* `C64_restored_by_saver_refuted`: With such a registry [restore] without args takes the last handler of an item, although the first one saved it and finalized it.
* `C64_same_args_again_refuted`: A class of args registered second for saving with a class of handlers: the first save of an item with it succeeds, the next with the very same args is refused.
* `C65_again_refuted`: Waiting raises one error and keeps the rest (MC l.449-452): after a save failed and its error was raised, the next save, which begins by waiting (AC l.613), fails with another error of the save before.
* `C65_changed_refuted`: The custom metadata of an asynchronous save are those the user's object has when the background thread writes them (AC l.455, MC l.181), not those when [save] returned.
* `C65_in_place_refuted`: A failure while a file is written destroys it: it is written in place (MC l.182), and the next update takes the broken file for a missing one (MC l.217-227) and drops what was there.
* `C65_reader_refuted`: Who reads while an update is written finds no metadata at all, although the file was there before the update and is there after it (MC l.182, l.217-227).
* `C65_stolen_refuted`: A checkpoint is committed although its metadata could not be written: another thread that waits ([check_for_errors], AC l.648-651) takes the error of the update with the handlers and the custom metadata out of the store (MC l.449-452), so that the thread that commits does not see it.
* `C65_two_stores_refuted`: Two stores that update the same file lose an update: an update is a read and then a write (MC l.243-246), and nothing keeps another store (of another checkpointer, or the blocking one) from writing between.
* `C65_unread_refuted`: One failed read in an update loses all that was written before, without an error: reading takes any error for a missing file (MC l.206-214), and the update then starts from nothing (MC l.243). The checkpoint is committed with the time of its commit alone.
* `C66_nested_refuted`: Validation looks only at the outermost keys of custom metadata: below, numbers as keys become strings, and then entries may be lost.
* `C66_statistics_refuted`: The statistics' step, directory and flags do not come back: a save that was reached by preemption reads as one that was not.
* `C66_twice_refuted`: Deserializing changes its argument: the same dictionary cannot be deserialized twice if it has an unknown name and an empty dictionary of custom metadata.
* `C66_two_unknown_refuted`: Unknown names with an empty dictionary of custom metadata: one is taken, two are a ValueError that says the custom metadata are already defined. The first one was put into the dictionary that is looked at for the second.
* `C66_unknown_metric_refuted`: A performance metric with an unknown name makes the metadata unreadable (TypeError) if it is a float, and is dropped silently otherwise; it can be written in both cases.
* `C66_validation_refuted`: Validation lets through truth values as times, and anything that counts as false as metrics.
* `C67_fuse_overwrites_refuted`: A fused name that is in use: the parameter that had it is lost without a word.
* `C67_fuse_prefix_refuted`: Two parts of which the first begins the second: the key of the second is taken for the first, and nothing is fused, although every part has its key.
* `C67_fuse_same_part_refuted`: Two keys that are the same part of the same name, since all parts in a key are replaced but only the leftmost counts: the later one is fused, and the earlier stays behind.
* `C67_nest_lost_refuted`: In place a failure has already taken parameters from the caller: here both are gone, and there is no result.
* `C67_rename_refuted`: Two keys that get the same name: one parameter is lost without a word.
* `C67_repeat_twice_refuted`: A key that is given twice is repeated twice.
* `C67_stack_axis_refuted`: With a filler an axis from the back is taken wrongly, since [list.insert] counts it differently: items that stack without a filler are refused, or, with jax, a wrong array is made without a word.
* `C67_stack_broadcast_refuted`: With a filler shapes that differ are broadcast without a word; without one they are refused.
* `C67_stack_dropped_refuted`: With a filler an index that is not below the expected number is dropped: the parameter is in neither the result nor an error.
* `C67_stack_lost_refuted`: In place, a failure comes too late: the items are gone from the caller's parameters, and there is no result.
* `C67_stack_overwrites_refuted`: A base that is the name of a parameter that does not match: that one is lost without a word.
* `C67_stream_axis_refuted`: For an axis from the back the shape that is announced is not that of the array.
* `C67_stream_slices_refuted`: A shard that is also split along another axis gets an array that is too large: the slices of the other axes are not looked at.
* `C68_auto_reads_refuted`: "Instead of an unbounded number of small requests" does not hold for runs that are not uniform: the ratio of a file with one large run is too small to put the small ones together, and each of them is a request of its own.
* `C68_auto_zero_refuted`: Empty tensors that are far apart, and nothing else, make the choice of the ratio divide by zero.
* `C68_header_refuted`: The offsets of a tensor are not compared with its shape: a file whose header says that [v] has five numbers in three bytes passes the checks, and the devices get bytes of the next tensor for the last two.
* `C68_over_read_refuted`: "With max_over_read_ratio == 2.0, a host pulls at most 2x the bytes it actually needs" is false: runs that are less than a page apart are always put together, so two bytes may cost four thousand.
* `C69_construct_refuted`: A handler that cannot be constructed without arguments is added, though the documentation of adding says that it is refused, and then nothing can be saved at all.
* `C69_example_refuted`: The example of the documentation, a handler for a name that is then added with a further name, is refused.
* `C69_local_again_refuted`: A registry for local use cannot be taken as the base of another, unless the global entries are left out: its own copies of the global entries are refused.
* `C69_override_refuted`: "If True, will override an existing mapping of type to handler": overriding for a subtype replaces the entry of the supertype, which then has no handler at all.
* `C69_scoped_refuted`: "This handler will always be prioritized for saving or loading the checkpointable with that name, even if the handler is not capable": it is passed over if another can.
* `C69_secondary_first_refuted`: "If a corresponding handler is present … If not, scan the secondary typestrs": a later handler that has the name as a further one is taken before the handler that saved.
* `C69_secondary_refuted`: Using a global handler for one more name by way of another registry takes its further names away, so that checkpoints that were written under these names are no longer recognised.
* `C69_stale_refuted`: The name of a handler that was replaced by one of another name still gives the handler that was replaced.
* `C69_stateful_refuted`: An object that saves itself, under a name that is registered, is not loaded with the handler that saved it if nothing is given to load with.
* `C69_undecided_refuted`: A handler that "cannot decide whether it can handle the abstract checkpointable and defers to the typestr" is not taken although the name is its own: what JsonHandler saved is loaded with PyTreeHandler if something is given to load with.
* `C70_direct_refuted`: An old checkpoint that is a tree itself and says handlers by name gives metadata without a name, but cannot be loaded without a name.
* `C70_empty_refuted`: "AND has checkpoint metadata file OR has a valid checkpointable subdirectory": an empty directory is taken for a checkpoint, and so is one with anything in it that is not a checkpoint.
* `C70_is_orbax_refuted`: A directory with the indicator but without metadata is said to be a checkpoint, but nothing can be loaded from it.
* `C70_metadata_all_refuted`: The metadata of a part cannot be had, though the part can be loaded, if there is no handler for another part.
* `C70_name_refuted`: A name can pass all checks and yet be that of the file with the metadata: then nothing can be saved, which shows only when all is written.
* `C70_nothing_refuted`: "KeyError: If … the checkpoint is empty": an empty checkpoint gives an empty dictionary.
* `C70_pytree_refuted`: "It prioritizes the standard 'pytree' checkpointable name if present": it does not, other names come first.
* `C70_trainer_refuted`: Saving with metrics changes the dictionary of the caller, so that the same dictionary cannot be saved again.
* `C71_latest_refuted`: "Returns the highest step present on every worker, or `None`" (CC l.837) does not hold for workers with many steps: each reports only its 128 greatest (SW l.316), so a step that all have is not found if one worker has 128 greater ones.
* `C71_remap_twice_refuted`: An id that is listed twice among the sources is renamed to the last of its targets, without a complaint (PT l.63-66); the sidecar looks for repetitions before (SW l.120), [remap_distributed_device_ids] does not (PT l.162-169).
* `C71_representative_refuted`: The device that represents a worker is the one that is listed first, so it does depend on the order of the devices (PT l.141): two controllers that list the same devices differently represent the same worker by different devices.
* `C71_restore_negative_refuted`: A negative step is passed on by the controller (CC l.1061-1070) and means to each worker its own latest step (SW l.290): the workers restore different steps.
* `C71_save_refuted`: A save "returns whether a new save occurred" (CC l.944) also when no save did: a worker answers True for every step but 0, whatever its manager did (SW l.244-249), so the controller returns True although no worker has the step.
* `C72_join_refuted`: One expects that a drain fails only if the handoff fails, or the dataset cannot be saved. It may fail otherwise: a pending save is published under the lock but its thread is started after that (CC l.204-207), and a drain that waits and comes between joins a thread that was not started, which is a RuntimeError (CC l.264).
* `C72_recovery_refuted`: After an error of a handoff has been reported, one expects that a later save is handed off again. It is not: [finish] raises the error at CC l.345, before the [try] whose [finally] clears the pending save (CC l.346-355), so that every later [save] raises the same error (CC l.972-977) and [wait_until_finished] does too; only a new controller helps.
* `C72_two_savers_refuted`: With two callers that save at the same time one expects that each of the datasets is saved. It is not: both may find no pending save (CC l.972-977, the look is not under the lock of the publication), and the second one then replaces the first one's pending save (CC l.204-206), which no call ever drains again, although its caller was told that it was dispatched.
* `C73_dataset_lost_refuted`: Without a persistent directory a dataset is accepted and the save says that it happened, but the dataset is given to nobody.
* `C73_dataset_restore_refuted`: A dataset is accepted as an argument of a restore without a persistent directory, all else is there, and the restore ends with [KeyError].
* `C73_dataset_tree_refuted`: A dataset that is a tree is accepted and saved with the persistent manager, but a restore with [PyTreeRestore] looks for it in the local checkpoint, too, where it is not.
* `C73_delete_error_refuted`: A step that only the persistent manager has is deleted there, and an error is raised nevertheless.
* `C73_delete_refuted`: With a persistent directory a step that was saved without a dataset cannot be deleted: the persistent manager does not have it and raises, before the local one is asked.
* `C73_mesh_axes_refuted`: With a mesh and axes instead of a sharding the array is read, but it is left on the mesh with the devices of the time of saving, not on the one asked for.
* `C73_ragged_refuted`: The numbers of processes and devices are the same, but a process has fewer devices than before and another more: this is not noticed by the check that is there for it, and the restore ends with [IndexError]. In a sidecar, where it would be possible to go on without, it does as well.
* `C73_sharding_metadata_refuted`: The metadata of a sharding is accepted when the arguments are placed, but at the end it is given to [jax.device_put] as it is.
* `C73_single_refuted`: An array on one device is asked for from the device with the same id as when it was saved, not from the same hardware: after a restart with other ids it is not found, though the hardware that has it is there.
* `C74_active_refuted`: With [active_processes] a proper subset of the processes the newer save hangs at its beginning: the check of the paths uses collective operations of all processes (EX l.316-323), which the others do not take part in.
* `C74_creation_refuted`: A creation of directories that fails is reported to the first that waits for it only; the others go on as though the directories were there (AU l.207-214).
* `C74_free_refuted`: A handler whose processes all write but do not wait for each other is not protected in the newer save: the primary commits when its own handlers have ended. The checkpoint is committed without the part of the other process, which then fails because the temporary directory is gone. (EX l.171-211; the older save waits for all processes before it commits, C74_complete.)
* `C74_overwrite_refuted`: Overwriting with several processes can hang and lose the checkpoint: if the primary has removed the destination before another process looks, the primary waits at the barrier after the removal, and the other, which saw nothing there, at the next one; nothing can happen but timeouts, and the old checkpoint is gone. (SP l.113-125; the older save, which has no barrier inside the branch, does not have this: C74_no_deadlock.)
* `C75_forgotten_refuted`: After a failed save the list does not get the older steps back that were to be removed after it: the older checkpoint stays on disk, but the Checkpointer does not know it any more (CM l.1554, l.2084).
* `C75_latest_refuted`: [load] without a step, right after [save_async], fails although an older checkpoint is there: the step of the unfinished save is in the list (CM l.1542) and is taken for the latest one (TC l.216-226).
* `C75_lightweight_refuted`: With [lightweight_initialize] over a directory with checkpoints, [latest], [load] and [save_async] all raise where [datetime.min.timestamp()] does (TC l.255, CM l.1828-1833; Python 3.11 raises ValueError).
* `C75_overwrite_refuted`: [save] with [overwrite] deletes the checkpoint before it asks whether to save at all (TC l.575-576 before CM l.1417): when the decision is not to save, it returns False and the checkpoint is gone.
* `C75_stale_response_refuted`: A response can say that a save is done which failed: its thread waits for whatever thread finalizes when it looks (CM l.2046-2066), which may be that of a later save. The caller's thread has been told of the failure by then (C75_result).
* `C75_swap_refuted`: A second [save_async] can make the thread that finalizes the first one wait for the wrong checkpointer, namely for the one that the second call has just made (TC l.583-586): the thread reads [self._checkpointer] of the manager when it begins to wait (CM l.2020-2021), not when it is made. Then it deletes the old checkpoints before the new one has been committed; if the commit fails after that then nobody is told, the response says that the save is done, and no checkpoint is left although the policy keeps the last one.
* `C76_equal_refuted`: Metadata read from a file are not equal to the metadata written when a dimension is sharded over several axes: the spec has a list where it had a tuple (SM l.234), so that comparing the two reports a difference.
* `C76_memory_refuted`: The memory kind is not in the metadata: an array saved from pinned host memory is restored in device memory (SM l.193-203, l.287-291).
* `C76_not_maximal_refuted`: construct_maximal_shardings is not maximal: (9, 4) over 8 devices is not sharded at all although the second dimension divides by 4: a dimension that is smaller than the number of devices left is skipped (AR l.73).
* `C76_other_refuted`: A jax.Array with a sharding of another class is written without a sharding (SM l.342-347) and comes back from the standard handler as numpy without an error, and without a target even with a fallback sharding given (CU l.528-535).
* `C76_process_refuted`: A single-device sharding is looked for among the devices of the process (SM l.297): the other processes can not restore the array without giving a sharding although the device is there.
* `C76_subset_refuted`: With devices given, the size of the array is still compared with the number of all devices (AR l.55): (4,) over 2 of 8 devices is replicated.
* `C76_unreadable_refuted`: The fallback does not help with texts that can not be read (JH l.1404, outside of SH l.355-364): one array with a PositionalSharding of an older version, or with a type of axes of a newer version, makes the metadata of the whole checkpoint fail, and so restoring with the standard handler, although all other arrays are fine.
* `C77_inputs_refuted`: An input that is named with no arguments (None) is not read: the function gets the entry of the metadata instead of the array (PH l.313 tests whether the arguments are true).
* `C77_minimal_refuted`: "Keys present in the original checkpoint but not needed are not restored" (PH l.205-219) fails: when "a" of the item is drawn from "b", the array "a" is read too, with the arguments meant for the values of "b", though the result does not depend on it. An array of another shape can then make the restore fail.
* `C77_no_args_refuted`: Transforms without restore_args should be a ValueError (PH l.425-429); with a rename it is a KeyError instead, since the default arguments have the names of the checkpoint (PH l.244-245, l.170).
* `C77_own_args_refuted`: An array that two outputs are drawn from is read once, with the arguments of one of them: the other gets an array with arguments (a sharding, a dtype) that were not given for it (PH l.159-170). Here the array "a" is kept and also copied to "x"; both come back with the arguments of "x".
* `C77_partial_restore_refuted`: The request for a partial restore is dropped when a value is in the aggregate file (PH l.903-913): arguments for the wanted leaves alone are refused as trees of other structure.
* `C77_value_fn_refuted`: The function of one value of a RestoreTransform is documented to get the RestoreArgs too (XU l.116-119, l.137), but it is called with the value only: every restore with one is a TypeError.
* `C78_again_refuted`: A marker for a step that is still in the local directory can not be followed: the start fails although the checkpoint is there.
* `C78_failed_refuted`: A failed replicator whose file can not be read, or is still empty, is taken for a good one, and the file is deleted.
* `C78_run_refuted`: The name of the run is not looked at: with a newline it adds lines of its own to the file, here another rank.
* `C78_slices_refuted`: The slices of processes need not be consecutive indices: nothing checks it, and then a peer may be in the same slice as the node, and lost with it.
* `C78_stale_refuted`: A file of a fatal error that is left from before makes a new start fail, although the replicator does all of its part: the first wait does not look at errors, and the second does not know when they were written.
* `C78_timeout_refuted`: The timeout that is given does not bound the start: the wait for the file with the id of the process always takes up to 900 seconds, and that for the markers 300.
* `C79_clash_refuted`: Two handlers with the same first typestr: what one saved is restored by the other.
* `C79_dropped_refuted`: A registration that is there already but with other typestrs is accepted without an override, and the typestrs are dropped.
* `C79_inherited_refuted`: Only the annotations of the class itself count: a protocol that adds an attribute to another is not a sub-protocol of it, nor of itself, and though registered it is not handled.
* `C79_names_refuted`: Handlers of the same name: the order of registering decides.
* `C79_number_refuted`: The comment on the standard registry names np.number; such a scalar has no handler there.
* `C79_override_refuted`: An override for one leaf type removes the entries of others that share its abstract type, and these are not handled any more.
* `C79_same_members_refuted`: Two protocols with the same members: an abstract type that is registered gets the handler of the other.
* `C79_stable_refuted`: Between two types that fit and are not related, the number of their registered bases decides: registering a handler for a base of one of them gives the leaf to another handler, that is neither the new one nor the one before.
* `C79_typestrs_refuted`: New typestrs for a registration are not the typestrs of its handler: another entry of the handler comes first, as int, float and bytes share one.
* `C80_byte_order_refuted`: An array with the other byte order is restored with other values, without an error: the name of a dtype ("uint16" for ">u2") does not tell the byte order, and the bytes are written as they are in memory (MP l.44).
* `C80_dtype_name_refuted`: An array of texts is saved, but it is not restored: the name of its dtype ("str96") is none that numpy understands (MP l.59-62).
* `C80_in_place_refuted`: After a save in place the dicts of the caller hold the chunks and not the arrays (MP l.213-215).
* `C80_int_keys_refuted`: A dict with integers for keys is saved, but it is not restored: the library refuses such keys unless it is told not to (MP l.232-233).
* `C80_list_refuted`: A large array in a list or a tuple is not sent in chunks, and the save fails, where the same array in a dict is saved: arrays are looked for in dicts only (MP l.168-180).
* `C80_marker_refuted`: A dict of the user with the key of chunked arrays is saved, but it is not restored: it is taken for an array in chunks (MP l.183-194).
* `C80_mixed_keys_refuted`: A dict whose keys are not all of one type is refused by the copy, though saved in place (MP l.213).
* `C81_bare_array_refuted`: An output that is one array is taken apart: its rows become the outputs, so that the structure differs from the one output of the loaded model; an array without dimensions is an error
* `C81_empty_mismatch_refuted`: An empty tensor that is no float counts as a mismatch with itself, as no element is equal, so that a faithful model fails
* `C81_float_shapes_refuted`: Shapes of floats are not compared, nor which leaf a float came from: two tensors with one and two elements are the same as two with two and one
* `C81_kinds_crosswise_refuted`: Leaves that change their kind are compared crosswise: when the output "a" is 1.0 and "b" the integer 7 in one model, and "a" the integer 7 and "b" 1.0 in the other, the report passes
* `C81_nan_fails_refuted`: A NaN that both models give is a failure, under all tolerances
* `C81_partly_different_refuted`: A tensor that is no float counts as a mismatch only when every element differs (`np.all(j != t)`): the tokens [1, 2, 3] and [1, 9, 9] pass with the limit 0
* `C81_passthrough_refuted`: With the passthrough and a postprocessor but without `tf_preprocessor`, which is an accepted config, every call ends with a name that is not bound instead of a message
* `C81_processors_ignored_refuted`: Processors of the new kinds (`preprocessors`, `postprocessors`, `data_processors`) are accepted but no bound function runs them: what is validated is the bare method
* `C81_tolerances_swapped_refuted`: The absolute and the relative tolerance are handed to numpy in the wrong order (`np.allclose(candidate, baseline, floating_atol, floating_rtol)`, while numpy's order is rtol, atol): with atol = 1 and rtol = 0 the answers 100 and 150 are taken as close, but with atol = 0 and rtol = 1 the answers 100 and 150 are not
* `C82_bfloat16_floats_refuted`: The documentation says that python floats and other arrays of floats are converted; they are left as they are
* `C82_documented_order_refuted`: The documentation of `TensorSpecWithDefault` asks for parameters with defaults before those without, which is what is refused; the other order is what works
* `C82_empty_map_refuted`: An empty map is saved without an error but not loaded
* `C82_joined_twice_refuted`: The directory is joined twice to the name of a file: with a relative directory `e` the file is `e/e/f.jax_exported`, whose directory does not exist, so that the save fails after it has made `e`; in a store without directories, as with `gs://b/e`, the save succeeds but the file is at another place and the load finds nothing
* `C82_platforms_name_refuted`: `utils.py` uses `manifest_pb2` but does not import it: every call with a platform ends with a NameError
* `C82_primary_not_tiled_refuted`: The documentation of `is_primary` says that the batch size of a primary tensor is or will be tiled to match that of the others; one row beside a primary tensor of two is an error
* `C82_same_name_refuted`: Two parameters can get the same name: `a.b` and `b` below `a`, or `w~` and `w_`
* `C82_slash_key_refuted`: A key with a slash is not kept: one in the middle asks for a directory that does not exist, and one at the start writes outside of the directory
* `C83_final_guard_refuted`: `to_final_specs` asks whether a spec has a sharding, but only around the log line: a spec without one is an AttributeError for any value, instead of leaving the value where it is.
* `C83_spec_without_sharding_refuted`: `transform_tree_shardings` means to convert a spec only if it has a sharding (`hasattr(leaf, 'sharding')`), and to leave other leaves. But every `jax.ShapeDtypeStruct` has the attribute, with None when no sharding was given, so one spec without a sharding makes the whole tree a TypeError.
* `C83_weak_type_refuted`: `transform_tree_shardings` builds the new spec from shape, dtype and sharding only: a weakly typed spec comes out as one that is not.
* `C84_failed_start_refuted`: `initialize_dtensor` sets its flag only after the checks, but TensorFlow's system is initialised before them. When the clients do not fit the processes it stays so: no later call of `initialize_dtensor` (ValueError) or `shutdown_dtensor` (RuntimeError) can change it.
* `C84_no_jax_mesh_refuted`: `jax_mesh` is optional in `jax_array_to_dtensor`, whatever `allow_multi_axis_sharding_consolidation` is, but a spec that is consolidated needs it: without it there is a TypeError from `with None`.
* `C84_rank_refuted`: `jax_array_to_dtensor` does not compare the length of the spec with the rank of the array (`[UNSHARDED] * (len(arr.shape) - len(pspec))` is empty for a negative number): a longer spec of None makes a layout of a higher rank than the array, and one with an axis an IndexError.
* `C85_nested_refuted`: With nest_asyncio a nested run is in the same thread, overwrites the task that the thread holds, and deletes it at its end: the outer coroutine goes on, but from then on the thread holds no task, and a future that wants to cancel it finds none
* `C85_no_wait_refuted`: A shutdown that does not wait stops the loop at once: tasks that run then, and coroutines that were taken, never come to their end, so whoever waits for their futures waits for ever; and with `cancel` they need not even be asked to cancel, because the task that asks need not start
* `C85_spawned_refuted`: Also a shutdown that waits does so only for the tasks that run when its own task starts: a task that one of them starts later is left without an end, although the docstring says that it waits for all tasks
* `C86_empty_specs_refuted`: An empty container of result specs is not None, so the result of the function is kept, but `result_specs or dummy` takes it for missing: the function runs, and its result, although it is the empty container that was described, is an error of structure
* `C86_no_sharding_refuted`: `_collect` is written for specs without a sharding and falls back to all devices, but such a spec ends in a TypeError before the function runs
* `C86_outside_refuted`: When one spec has a mesh, devices of the other specs are not looked at: the function runs on the mesh only, although a result is to be on a device outside of it
* `C87_crash_refuted`: An error that the worker does not expect ends its thread without a sign: one more save is taken, all others are skipped as if the snapshotter were busy, no item is handled any more, and join never returns
* `C87_no_mesh_refuted`: Arrays of any sharding are saved, but those without a mesh, for instance on a single device, make every load an AttributeError
* `C87_reset_refuted`: A load that replaces the snapshot writes the step that it read at its start: a newer snapshot that became ready while it ran is thrown away, and the latest step goes back
* `C87_sharded_refuted`: When an array is sharded over the replica axis and a replica is lost, its part of the data is lost too: the load works and gives an array that is too short, without any error
* `C88_mark_refuted`: A number sign or a question mark in a path ends it for the parser: the folders of another directory are deleted, and those of the directory that is meant stay
* `C88_root_refuted`: The folders of a bucket that is removed as a whole stay: the prefix is a slash, with which no name starts
* `C89_directory_refuted`: It is not looked at whether the entry is a file: each directory with an empty subdirectory of the name checkpoint is taken for a checkpoint
* `C89_root_refuted`: FALSE: "It will return False when pointing to a root directory (containing multiple step directories)." It is true if the steps have their tree without a name for the item
* `C89_tensorflow_refuted`: FALSE: "unlikely to return a false positive." The directory of a TensorFlow checkpoint, which has a file with the name checkpoint too, is taken for one of Orbax, and so is the directory above it
* `C90_case_refuted`: The word for the kind of token is compared letter by letter, though it is the same in upper and lower case for HTTP: a caller with a token is refused
* `C90_empty_token_refuted`: A header with the word Bearer and nothing after it gives an empty token, and an empty token is a token: the caller may read and write on each backend
* `C90_empty_zone_refuted`: An answer that is empty or ends with a slash gives an empty zone and not none
<!-- /findings -->

## 5. Files

See `rocq/_CoqProject`.

## 6. Assumptions per theorem

<!-- assumptions -->
1045 property theorems in 65 files, each followed by `Print Assumptions` (1045 lines); every one prints "Closed under the global context", i.e. no theorem depends on any axiom, own or library.
<!-- /assumptions -->

Loading the standard library modules used (`List`, `ZArith`, `String`, `Lia`,
`Permutation`, ...) also loads `Coq.ssr.ssrunder`, whose sealed module
`Under_rel` declares seven constants without body (`Under_rel`,
`Under_rel_from_rel`, `under_relE`, ...). `vcheck` lists them as library axioms of
the environment; no theorem here uses them.
