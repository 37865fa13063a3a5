(** Model of CheckpointManager with a synchronous Checkpointer, on one host.
    Sources: checkpoint/orbax/checkpoint/checkpoint_manager.py ("CM"),
    _src/path/deleter.py ("DEL"), _src/path/step.py ("ST"),
    _src/checkpointers/checkpointer.py ("CP"),
    _src/metadata/checkpoint_info.py ("CI").
    The root directory is abstracted to the steps it holds; that names and steps
    correspond is the subject of [StepName_Model], that a commit is one atomic
    operation is the subject of [Atomic_Model].  Logging, statistics, item
    handlers and argument validation are omitted. *)
From Coq Require Import ZArith List Bool.
From Verif Require Import Base Policy_Model.
Import ListNotations.
Local Open Scope Z_scope.

(** * Storage *)

(** A committed step directory: its contents, its commit timestamp
    (step_metadata.commit_timestamp, CM l.1842), the metrics item if one was
    written (CM l.1899-1915), and whether all its files are still there (a
    directory whose removal was interrupted is not whole). *)
Record ckpt : Type := mkCkpt { c_data : Z; c_time : Z; c_metrics : option Z; c_whole : bool }.

(** The root directory (CM l.808): committed step directories in some listing
    order, steps that have a temporary directory (ST l.288-292), and what lies in
    the [todelete_subdir] (DEL l.351-357; [None]: moved temporary directory). *)
Record fs : Type := mkFs {
  committed : list (Z * ckpt);
  tmps : list Z;
  trash : list (Z * option ckpt) }.

(** Directory lookup by step (ST l.559-575 find_step on a step-indexed root). *)
Fixpoint dget (s : Z) (d : list (Z * ckpt)) : option ckpt :=
  match d with
  | [] => None
  | (t, c) :: d' => if s =? t then Some c else dget s d'
  end.

(** Removal of one directory entry (DEL l.361-371). *)
Definition dremove {A : Type} (s : Z) (d : list (Z * A)) : list (Z * A) :=
  filter (fun e => negb (fst e =? s)) d.

(** Creation of one directory entry (rename of the temporary directory, CP
    l.283-288). *)
Definition dput (s : Z) (c : ckpt) (d : list (Z * ckpt)) : list (Z * ckpt) :=
  dremove s d ++ [(s, c)].

(** Atomic file-system operations the manager's calls are made of (CP l.235-288,
    DEL l.238-371).  Removing a directory is two operations: the first unlinks
    some files, the last removes the directory itself. *)
Inductive op : Type :=
| ODamage (s : Z)
| ORemove (s : Z)
| OMkTmp (s : Z)
| ORmTmp (s : Z)
| OCommit (s : Z) (c : ckpt)
| OTrash (s : Z)
| OTrashTmp (s : Z).

(** A directory some of whose files have been unlinked (DEL l.361-371). *)
Definition damage (c : ckpt) : ckpt := mkCkpt (c_data c) (c_time c) (c_metrics c) false.

(** Effect of one operation (CP l.235-288, DEL l.238-371). *)
Definition apply_op (o : op) (d : fs) : fs :=
  match o with
  | ODamage s =>
      mkFs (map (fun e => if fst e =? s then (fst e, damage (snd e)) else e) (committed d)) (tmps d) (trash d)
  | ORemove s => mkFs (dremove s (committed d)) (tmps d) (trash d)
  | OMkTmp s => mkFs (committed d) (s :: filter (fun t => negb (t =? s)) (tmps d)) (trash d)
  | ORmTmp s => mkFs (committed d) (filter (fun t => negb (t =? s)) (tmps d)) (trash d)
  | OCommit s c =>
      mkFs (dput s c (committed d)) (filter (fun t => negb (t =? s)) (tmps d)) (trash d)
  | OTrash s =>
      mkFs (dremove s (committed d)) (tmps d) ((s, dget s (committed d)) :: dremove s (trash d))
  | OTrashTmp s =>
      mkFs (committed d) (filter (fun t => negb (t =? s)) (tmps d)) ((s, None) :: dremove s (trash d))
  end.

(** Operations one after the other (CP l.235-288, DEL l.374-376). *)
Definition exec (ops : list op) (d : fs) : fs := fold_left (fun x o => apply_op o x) ops d.

(** * Deleter (DEL) *)

(** DEL l.274-291: permanent removal, rename into todelete_subdir, or
    todelete_full_path on a local path, which is not implemented (the GCS branch is
    not modelled). *)
Inductive del_mode : Type := Permanent | ToSubdir | ToFullPath.

(** DEL l.238-301 StandardCheckpointDeleter.delete on the primary host, with
    ST l.262-296 find_step_path(include_uncommitted=True): a temporary directory
    of the step is preferred to the committed one.  A step that is not found is
    skipped with a warning (DEL l.266-272).  [delete_target.replace(dst)]
    (DEL l.356) fails when [dst] is a non-empty directory. *)
Definition delete_ops (mode : del_mode) (s : Z) (d : fs) : list op * option err :=
  let in_trash := existsb (fun e => fst e =? s) (trash d) in
  if existsb (Z.eqb s) (tmps d) then
    match mode with
    | Permanent => ([ORmTmp s], None)
    | ToSubdir => if in_trash then ([], Some OtherError) else ([OTrashTmp s], None)
    | ToFullPath => ([], Some NotImplementedError)
    end
  else match dget s (committed d) with
  | None => ([], None)
  | Some _ =>
      match mode with
      | Permanent => ([ODamage s; ORemove s], None)
      | ToSubdir => if in_trash then ([], Some OtherError) else ([OTrash s], None)
      | ToFullPath => ([], Some NotImplementedError)
      end
  end.

(** DEL l.374-376 delete_steps. *)
Fixpoint delete_steps_ops (mode : del_mode) (ss : list Z) (d : fs) : list op * option err :=
  match ss with
  | [] => ([], None)
  | s :: ss' =>
      let '(ops, e) := delete_ops mode s d in
      match e with
      | Some _ => (ops, e)
      | None => let '(ops', e') := delete_steps_ops mode ss' (exec ops d) in (ops ++ ops', e')
      end
  end.

(** * Checkpointer (CP) *)

(** CP l.195-302 Checkpointer.save(force=True): an existing directory is removed
    first, the items are written into a temporary directory, the last operation
    commits it.  [ok = false]: writing raises before the commit. *)
Definition write_ops (s : Z) (c : ckpt) (ok : bool) (d : fs) : list op :=
  (match dget s (committed d) with Some _ => [ODamage s; ORemove s] | None => [] end)
  ++ [OMkTmp s] ++ (if ok then [OCommit s c] else []).

(** * Manager *)

(** CM l.370-413 CheckpointManagerOptions, as far as used below.  [o_decide] is
    the resolved save decision policy (CM l.720-723), [o_preserve] the resolved
    preservation policy (CM l.735-738), [o_reverse] is best_mode == 'min'. *)
Record config : Type := mkCfg {
  o_read_only : bool;
  o_track_best : bool;
  o_reverse : bool;
  o_prevent_write_metrics : bool;
  o_check_progress : bool;
  o_lightweight : bool;
  o_mode : del_mode;
  o_decide : save_policy;
  o_preserve : list info -> result decisions }.

(** The manager object: the cached list (CI l.66-142) and the progress tracker
    (CM l.908-912). *)
Record mgr : Type := mkMgr { cache : list info; saving : bool }.

(** datetime.datetime.min in microseconds since the epoch (CM l.1833). *)
Definition datetime_min : Z := -62135596800000000.

(** CM l.1808-1855 _load_checkpoint_infos: the name format lists non-negative
    steps only (ST l.374-379). *)
Definition load_infos (skip : bool) (d : fs) : list info :=
  py_sorted step
    (map (fun e => if skip then mkInfo (fst e) datetime_min None
                   else mkInfo (fst e) (c_time (snd e)) (c_metrics (snd e)))
         (filter (fun e => 0 <=? fst e) (committed d))).

(** CM l.871-875, l.908-912: a new manager over an existing directory. *)
Definition init (cfg : config) (d : fs) : mgr := mkMgr (load_infos (o_lightweight cfg) d) false.

(** CM l.1156-1171 all_steps() *)
Definition all_steps (m : mgr) : list Z := map step (cache m).

(** CM l.1173-1182 latest_step, CI l.110-113 latest *)
Definition latest_step (m : mgr) : option Z :=
  match last_info (cache m) with Some i => Some (step i) | None => None end.

(** CM l.1978-1999 _sort_checkpoints_by_metrics (second component). *)
Definition sort_by_metrics (reverse : bool) (cs : list info) : list info :=
  py_sorted_rev (fun i => match metrics i with Some v => v | None => 0 end) reverse
    (filter (fun i => match metrics i with Some _ => true | None => false end) cs).

(** CM l.1184-1198 best_step *)
Definition best_step (cfg : config) (m : mgr) : option Z :=
  if o_track_best cfg then
    match last_info (sort_by_metrics (o_reverse cfg) (cache m)) with
    | Some i => Some (step i)
    | None => None
    end
  else latest_step m.

(** CM l.1213-1250 should_save *)
Definition should_save (cfg : config) (m : mgr) (now : Z) (preempt : bool) (s : Z) : result bool :=
  if o_read_only cfg then Ok false
  else if match latest_step m with Some l => s <=? l | None => false end then Ok false
  else o_decide cfg (mkInfo s now None) (cache m)
         (mkCtx (if o_check_progress cfg then saving m else false) preempt).

(** CM l.2001-2017 _get_old_steps_to_remove; [zip] stops at the shorter list and
    raises TypeError on a scalar. *)
Definition steps_to_remove (cfg : config) (cs : list info) : result (list Z) :=
  rbind (o_preserve cfg cs) (fun r =>
    match r with
    | DScalar _ => Err TypeError
    | DList flags =>
        Ok (map (fun p => step (fst p)) (filter (fun p => negb (snd p)) (combine cs flags)))
    end).

(** CI l.123-138 delete_if(lambda info: info.step in ss) *)
Definition drop_steps (ss : list Z) (cs : list info) : list info :=
  filter (fun i => negb (existsb (Z.eqb (step i)) ss)) cs.

(** Arguments and environment of one save call (CM l.1334-1343): the step, the
    contents, the clock readings, the metrics, force, whether preemption is
    reached, and whether writing succeeds. *)
Record save_args : Type := mkSave {
  sv_step : Z; sv_data : Z; sv_now : Z; sv_metrics : option Z;
  sv_force : bool; sv_preempt : bool; sv_write_ok : bool }.

(** What a save writes (CM l.1520-1523: the metrics item only when tracking best
    and not prevented). *)
Definition ckpt_of (cfg : config) (a : save_args) : ckpt :=
  mkCkpt (sv_data a) (sv_now a)
    (if o_track_best cfg && negb (o_prevent_write_metrics cfg) then sv_metrics a else None) true.

(** Values returned by the manager's methods (CM l.1156-1763). *)
Inductive value : Type := VUnit | VBool (b : bool) | VSteps (l : list Z) | VData (z : Z).

(** Outcome of a call: the file-system operations performed in order, the
    manager afterwards, the returned value or exception (CM l.1156-1763). *)
Record outcome : Type := mkOut { out_ops : list op; out_mgr : mgr; out_res : result value }.

(** CM l.1422-1612 the part of save() after should_save, for a synchronous
    Checkpointer: l.1468 progress := True; l.1469 step present -> error; l.1537
    checkpointer.save(force=True); l.1544 append; l.1546 steps to remove; l.1556
    drop them from the list; l.2158-2192 _finalize: delete them, finally
    progress := False. *)
Definition do_save (cfg : config) (a : save_args) (d : fs) (m : mgr) : outcome :=
  let busy := mkMgr (cache m) true in
  if existsb (Z.eqb (sv_step a)) (all_steps m)
  then mkOut [] busy (Err StepAlreadyExistsError)
  else
    let w := write_ops (sv_step a) (ckpt_of cfg a) (sv_write_ok a) d in
    if negb (sv_write_ok a) then mkOut w busy (Err OtherError)
    else
      let cs := cache m ++ [mkInfo (sv_step a) (sv_now a) (sv_metrics a)] in
      match steps_to_remove cfg cs with
      | Err e => mkOut w (mkMgr cs true) (Err e)
      | Ok rm =>
          let '(ops, e) := delete_steps_ops (o_mode cfg) rm (exec w d) in
          mkOut (w ++ ops) (mkMgr (drop_steps rm cs) false)
            (match e with Some e => Err e | None => Ok (VBool true) end)
      end.

(** CM l.1334-1612 save *)
Definition save (cfg : config) (a : save_args) (d : fs) (m : mgr) : outcome :=
  if sv_force a then do_save cfg a d m
  else match should_save cfg m (sv_now a) (sv_preempt a) (sv_step a) with
  | Err e => mkOut [] m (Err e)
  | Ok false => mkOut [] m (Ok (VBool false))
  | Ok true => do_save cfg a d m
  end.

(** CM l.1274-1303 delete *)
Definition delete (cfg : config) (s : Z) (d : fs) (m : mgr) : outcome :=
  if o_read_only cfg then mkOut [] m (Ok VUnit)
  else if existsb (Z.eqb s) (all_steps m) then
    let '(ops, e) := delete_ops (o_mode cfg) s d in
    match e with
    | Some e => mkOut ops m (Err e)
    | None => mkOut ops (mkMgr (drop_steps [s] (cache m)) (saving m)) (Ok VUnit)
    end
  else mkOut [] m (Err FileNotFoundError).

(** CM l.1201-1207 reload *)
Definition reload (d : fs) (m : mgr) : outcome :=
  mkOut [] (mkMgr (load_infos false d) (saving m)) (Ok VUnit).

(** CM l.1156-1171 all_steps(read) *)
Definition all_steps_call (read : bool) (d : fs) (m : mgr) : outcome :=
  if read then
    let m' := mkMgr (load_infos false d) (saving m) in mkOut [] m' (Ok (VSteps (all_steps m')))
  else mkOut [] m (Ok (VSteps (all_steps m))).

(** CM l.1640-1763 restore with CP l.304-339; a directory with missing files
    makes the handler raise. *)
Definition restore (s : option Z) (d : fs) (m : mgr) : outcome :=
  match (match s with Some s => Some s | None => latest_step m end) with
  | None => mkOut [] m (Err FileNotFoundError)
  | Some s =>
      match dget s (committed d) with
      | None => mkOut [] m (Err FileNotFoundError)
      | Some c => if c_whole c then mkOut [] m (Ok (VData (c_data c))) else mkOut [] m (Err OtherError)
      end
  end.

(** The calls of a program (CM l.1156-1763, l.2194-2201). *)
Inductive call : Type :=
| CSave (a : save_args)
| CDelete (s : Z)
| CReload
| CAllSteps (read : bool)
| CRestore (s : option Z)
| CClose.

(** Dispatch (CM l.1156-1763, l.2194-2201; close has nothing to wait for). *)
Definition run_call (cfg : config) (c : call) (d : fs) (m : mgr) : outcome :=
  match c with
  | CSave a => save cfg a d m
  | CDelete s => delete cfg s d m
  | CReload => reload d m
  | CAllSteps read => all_steps_call read d m
  | CRestore s => restore s d m
  | CClose => mkOut [] m (Ok VUnit)
  end.

(** One call on the pair of directory and manager (CM l.1156-1763). *)
Definition after_call (cfg : config) (c : call) (x : fs * mgr) : fs * mgr :=
  let o := run_call cfg c (fst x) (snd x) in (exec (out_ops o) (fst x), out_mgr o).

(** A crash after the first [k] operations of a call, followed by a new manager;
    with cleanup_tmp_directories the temporary directories are removed first
    (CM l.858-868). *)
Definition after_crash (cfg : config) (c : call) (k : nat) (cleanup : bool) (x : fs * mgr) : fs * mgr :=
  let o := run_call cfg c (fst x) (snd x) in
  let d := exec (firstn k (out_ops o)) (fst x) in
  let d' := if cleanup then mkFs (committed d) [] (trash d) else d in
  (d', init cfg d').

(** * Options *)

(** CM l.370-413: the options that determine the default policies.  [p_best]:
    best_fn is set; [p_save_on] is [None] or the set of steps. *)
Record options : Type := mkOpts {
  p_read_only : bool;
  p_interval : Z;
  p_save_on : option (list Z);
  p_max_to_keep : option Z;
  p_keep_seconds : option Z;
  p_keep_period : option Z;
  p_best : bool;
  p_reverse : bool;
  p_keep_without_metrics : bool }.

(** CM l.416-515 __post_init__ *)
Definition post_init (o : options) : result options :=
  if match p_max_to_keep o with Some n => n <? 0 | None => false end then Err ValueError
  else if p_read_only o then
    Ok (mkOpts true (if 0 <? p_interval o then 0 else p_interval o) (Some []) None None None
          (p_best o) (p_reverse o) (p_keep_without_metrics o))
  else Ok (mkOpts false (p_interval o)
          (Some (match p_save_on o with Some l => l | None => [] end))
          (p_max_to_keep o) (p_keep_seconds o) (p_keep_period o)
          (p_best o) (p_reverse o) (p_keep_without_metrics o)).

(** CM l.184-209 _get_default_save_decision_policy (without should_save_fn). *)
Definition default_decide (o : options) : save_policy :=
  any_save ([fixed_interval (p_interval o)] ++
            (match p_save_on o with Some l => [specific_steps l] | None => [] end) ++
            [preemption_policy; initial_save]).

(** CM l.212-239 _get_default_preservation_policy *)
Definition default_preserve (o : options) (cs : list info) : result decisions :=
  any_preservation
    ((match p_keep_period o with Some p => [every_n_steps p true None] | None => [] end) ++
     (match p_keep_seconds o with Some t => [fun cs => Ok (every_n_seconds t cs)] | None => [] end) ++
     [fun cs => Ok (if p_best o then best_n (p_reverse o) (p_max_to_keep o) (p_keep_without_metrics o) cs
                    else latest_n (p_max_to_keep o) cs)]) cs.
