(** Model of the Checkpointer of the newer interface that manages the checkpoints of a training loop, on one host: the caller's thread, the thread of each save that commits, the thread of each save that finalizes,
    and the thread that each response of [save_async] waits in, under any interleaving.
    Sources: checkpoint/orbax/checkpoint/experimental/v1/_src/training/checkpointer.py ("TC"), checkpoint/orbax/checkpoint/experimental/v1/_src/saving/saving.py ("SV"),
    checkpoint/orbax/checkpoint/experimental/v1/_src/synchronization/thread_utils.py ("TU"), checkpoint/orbax/checkpoint/checkpoint_manager.py ("CM"),
    checkpoint/orbax/checkpoint/_src/checkpointers/async_checkpointer.py ("AC"), checkpoint/orbax/checkpoint/_src/path/deleter.py ("DEL"), checkpoint/orbax/checkpoint/_src/metadata/checkpoint_info.py ("CI").
    Directories, operations on them, deletion, [should_save] and the choice of the steps to remove are those of [Manager_Model].
    An AsyncCheckpointer is made for each call of save (SV l.341-350, TC l.583-586), whether or not it comes to a save; it is known by its number.
    Simplifications: loading and reloading are single steps; what is read from a directory with all its files is what was written; the stores of metadata have nothing pending; nothing is cancelled. *)
From Coq Require Import ZArith List Bool.
From Verif Require Import Base Policy_Model Manager_Model.
Import ListNotations.
Local Open Scope Z_scope.

(** The options (TC l.84-101 and l.183-203): those of the manager, whether directories are created by the background thread (AC l.532-541), and what [datetime.min.timestamp()] gives (TC l.256; a ValueError in Python 3.11,
    whatever the time zone) *)
Record options : Type := mkOptions { t_cfg : config; t_async_dirs : bool; t_min_timestamp : result Z }.

(** The thread that commits (AC l.216-253): not started; running, with the contents it is going to commit and whether the temporary directory is there; ended, with or without an exception *)
Inductive jstate : Type := JIdle | JRun (s : Z) (c : ckpt) (made : bool) | JDone (s : Z) (c : ckpt) (ok : bool).

(** An AsyncCheckpointer: its thread and [_exception] (AC l.209-211) *)
Record job : Type := mkJob { j_state : jstate; j_exc : option err }.

(** Where the thread is that finalizes (CM l.2158-2192): before it reads [self._checkpointer] (l.2020-2021); waiting for the checkpointer that it read; before it checks for errors (l.2113-2119); deleting (steps left,
    operations left of the current step); in the finally block with the exception in flight; ended *)
Inductive fpc : Type :=
| PStart | PWait (k : nat) | PCheck | PDelete (ss : list Z) (ops : list op) | PFinally (e : option err) | PEnd (e : option err).

(** A [_FinalizeThread] (CM l.120-163): its step, the steps to remove, the checkpointer that did the save (not known to the thread), where it is, whether the caller's thread has been given the exception (l.154-162) *)
Record fin : Type := mkFin { f_step : Z; f_rm : list Z; f_ck : nat; f_pc : fpc; f_told : bool }.

(** Where the thread of a response is in [wait_until_finished] (TC l.57-61, CM l.2039-2084): before the test; before the step is read; before the thread is read for join; in join; ended with a result *)
Inductive wpc : Type := WTest | WStep | WGet (s : Z) | WJoin (s : Z) (j : nat) | WEnd (r : result bool).

(** A response (TC l.52-69); [r_fin] is the number of the thread that finalizes its save (not known to the response) *)
Record resp : Type := mkResp { r_fin : nat; r_pc : wpc }.

(** The arguments and the environment of [save_async] or, with [t_sync], of [save] (TC l.283-293, l.472-482): step, contents, clock, metrics, force, whether preemption is reached, overwrite *)
Record call : Type := mkCall {
  t_step : Z; t_data : Z; t_now : Z; t_metrics : option Z; t_force : bool; t_preempt : bool; t_overwrite : bool; t_sync : bool }.

(** Where the caller's thread is: outside of any call; deleting in [save_checkpointables_async] (TC l.576); before it makes a checkpointer (l.583-586); before the decision (CM l.1416); waiting for the previous save (CM l.1455);
    in the part of the save that blocks (CM l.1537, AC l.518-541); in [wait] (TC l.915); in [close], before and after that wait (CM l.2194-2201); in [result] of a response (TC l.65-66) *)
Inductive upc : Type :=
| UIdle | UDelete (a : call) (ops : list op) | UReady (a : call) | UDecide (a : call) | UWaitSave (a : call) | UWrite (a : call) (ops : list op)
| UWait | UClose | UCloseLast | UResult (i : nat).

(** The state: directory, list of checkpoints and progress flag (CM l.889-912), the number of [self._checkpointer], the checkpointers, the threads that finalize (the last one is [self._finalize_thread], CM l.905), the responses,
    the caller's thread *)
Record st : Type := mkSt {
  x_fs : fs; x_cache : list info; x_saving : bool; x_ck : nat; x_jobs : list job; x_fins : list fin; x_resps : list resp; x_user : upc }.

(** A new Checkpointer (TC l.204-208, CM l.889-912); the checkpointer that the manager made has number 0 *)
Definition tinit (o : options) (d : fs) : st :=
  mkSt d (cache (init (t_cfg o) d)) false 0%nat [mkJob JIdle None] [] [] UIdle.

(** Updates of the record (no counterpart in the code, CM l.889-912) *)
Definition set_fs (d : fs) (x : st) : st := mkSt d (x_cache x) (x_saving x) (x_ck x) (x_jobs x) (x_fins x) (x_resps x) (x_user x).
(** As above (CI l.81-90) *)
Definition set_cache (c : list info) (x : st) : st := mkSt (x_fs x) c (x_saving x) (x_ck x) (x_jobs x) (x_fins x) (x_resps x) (x_user x).
(** As above (CM l.908-912) *)
Definition set_saving (b : bool) (x : st) : st := mkSt (x_fs x) (x_cache x) b (x_ck x) (x_jobs x) (x_fins x) (x_resps x) (x_user x).
(** As above (AC l.209-211) *)
Definition set_job (k : nat) (j : job) (x : st) : st :=
  mkSt (x_fs x) (x_cache x) (x_saving x) (x_ck x) (set_nth k j (x_jobs x)) (x_fins x) (x_resps x) (x_user x).
(** As above (CM l.905) *)
Definition set_fin (i : nat) (f : fin) (x : st) : st :=
  mkSt (x_fs x) (x_cache x) (x_saving x) (x_ck x) (x_jobs x) (set_nth i f (x_fins x)) (x_resps x) (x_user x).
(** As above (TC l.52-63) *)
Definition set_resp (i : nat) (w : resp) (x : st) : st :=
  mkSt (x_fs x) (x_cache x) (x_saving x) (x_ck x) (x_jobs x) (x_fins x) (set_nth i w (x_resps x)) (x_user x).
(** As above (TC l.524-596) *)
Definition set_user (u : upc) (x : st) : st := mkSt (x_fs x) (x_cache x) (x_saving x) (x_ck x) (x_jobs x) (x_fins x) (x_resps x) u.

(** TC l.583-586: a new AsyncCheckpointer takes the place of the manager's *)
Definition swap (x : st) : st :=
  mkSt (x_fs x) (x_cache x) (x_saving x) (length (x_jobs x)) (x_jobs x ++ [mkJob JIdle None]) (x_fins x) (x_resps x) (x_user x).

(** CM l.1577-1585: a new thread that finalizes, and TC l.596: a new response *)
Definition add_fin (f : fin) (x : st) : st :=
  mkSt (x_fs x) (x_cache x) (x_saving x) (x_ck x) (x_jobs x) (x_fins x ++ [f]) (x_resps x ++ [mkResp (length (x_fins x)) WTest]) (x_user x).

(** [self._finalize_thread] (CM l.905) with its number *)
Definition current (x : st) : option (nat * fin) :=
  let i := Nat.pred (length (x_fins x)) in
  match nth_error (x_fins x) i with Some f => Some (i, f) | None => None end.

(** [self._checkpoints] for the synchronous part (CM l.889-912) *)
Definition as_mgr (x : st) : mgr := mkMgr (x_cache x) (x_saving x).

(** TC l.229-259 checkpoints: the steps in ascending order; a list that was read without metadata has [datetime.min] as time (CM l.1829-1836) *)
Definition checkpoints (o : options) (x : st) : result (list Z) :=
  rmap (map step) (sequence (map (fun i =>
    if time i =? datetime_min then rmap (fun _ => i) (t_min_timestamp o) else Ok i) (py_sorted step (x_cache x)))).

(** TC l.216-226 latest *)
Definition latest (o : options) (x : st) : result (option Z) :=
  rmap (fun l => match l with [] => None | s :: l' => Some (last l' s) end) (checkpoints o x).

(** TC l.261-275 _resolve_existing_checkpoint; StepNotFoundError is a FileNotFoundError *)
Definition resolve (o : options) (s : option Z) (x : st) : result Z :=
  match s with
  | None => rbind (latest o x) (fun l => match l with Some t => Ok t | None => Err FileNotFoundError end)
  | Some s => rbind (checkpoints o x) (fun l => if existsb (Z.eqb s) l then Ok s else Err FileNotFoundError)
  end.

(** TC l.668-783 load_checkpointables: the directory of the step must be there with all its files *)
Definition load (o : options) (s : option Z) (x : st) : result Z :=
  rbind (resolve o s x) (fun s =>
    match dget s (committed (x_fs x)) with
    | None => Err FileNotFoundError
    | Some c => if c_whole c then Ok (c_data c) else Err OtherError
    end).

(** What calls return (TC l.283-924): nothing; [None] of [save_async] or [False] of [save]; a response; [True]; contents; a step *)
Inductive value : Type := VUnit | VSkipped | VResponse (i : nat) | VTrue | VData (z : Z) | VStep (s : option Z).

(** What the calls return or raise at their end, [None] when a call goes on (TC l.283-924) *)
Definition reply : Type := option (result value).

(** CM l.2023-2084 wait_until_finished in the caller's thread: [None] when it blocks; the exception is raised once (CM l.154-162), the step is taken from the list *)
Definition user_wait (x : st) : option (st * option err) :=
  match current x with
  | None => Some (x, None)
  | Some (i, f) =>
      match f_pc f with
      | PEnd None => Some (x, None)
      | PEnd (Some e) =>
          if f_told f then Some (x, None)
          else Some (set_cache (drop_steps [f_step f] (x_cache x)) (set_fin i (mkFin (f_step f) (f_rm f) (f_ck f) (f_pc f) true) x), Some e)
      | _ => None
      end
  end.

(** What a save commits; the metrics are an item of it (TC l.583-585) *)
Definition ckpt_of (a : call) : ckpt := mkCkpt (t_data a) (t_now a) (t_metrics a) true.

(** AC l.518-541: the operations of a save in the caller's thread *)
Definition blocking_ops (o : options) (s : Z) (d : fs) : list op :=
  (match dget s (committed d) with Some _ => [ODamage s; ORemove s] | None => [] end) ++ (if t_async_dirs o then [] else [OMkTmp s]).

(** CM l.1544-1587 with AC l.637-641 and TC l.594-596: start the thread that commits, append the step, ask the policy, take the condemned steps from the list, start the thread that finalizes, make the response *)
Definition launch (o : options) (a : call) (x : st) : st * reply :=
  let cs := x_cache x ++ [mkInfo (t_step a) (t_now a) (t_metrics a)] in
  let x1 := set_user UIdle (set_cache cs (set_job (x_ck x) (mkJob (JRun (t_step a) (ckpt_of a) (negb (t_async_dirs o))) None) x)) in
  match steps_to_remove (t_cfg o) cs with
  | Err e => (x1, Some (Err e))
  | Ok rm =>
      let x2 := add_fin (mkFin (t_step a) rm (x_ck x) PStart false) (set_cache (drop_steps rm cs) x1) in
      let i := length (x_resps x) in
      if t_sync a then (set_user (UResult i) x2, None) else (x2, Some (Ok (VResponse i)))
  end.

(** The end of a wait in a call (TC l.915) *)
Definition reply_of (e : option err) : reply := Some (match e with Some e => Err e | None => Ok VUnit end).

(** A call of [save_async] begins (TC l.567-580): [delete] of the manager (CM l.1286-1303) when [overwrite] is given, otherwise the step must not be listed *)
Definition begin_save (o : options) (a : call) (x : st) : st * reply :=
  if t_overwrite a then
    if o_read_only (t_cfg o) then (set_user (UReady a) x, None)
    else if existsb (Z.eqb (t_step a)) (map step (x_cache x)) then
      let '(ops, e) := delete_ops (o_mode (t_cfg o)) (t_step a) (x_fs x) in
      match e with
      | Some e => (set_fs (exec ops (x_fs x)) x, Some (Err e))
      | None => (set_user (UDelete a ops) x, None)
      end
    else (set_user (UReady a) x, None)
  else match checkpoints o x with
  | Err e => (x, Some (Err e))
  | Ok l => if existsb (Z.eqb (t_step a)) l then (x, Some (Err StepAlreadyExistsError)) else (set_user (UReady a) x, None)
  end.

(** One step of the caller's thread in a call (TC l.524-596, CM l.1416-1587, l.2194-2201, AC l.518-541, l.669-673); [None]: blocked *)
Definition user_step (o : options) (x : st) : option (st * reply) :=
  match x_user x with
  | UIdle => None
  | UDelete a (p :: ops) => Some (set_user (UDelete a ops) (set_fs (apply_op p (x_fs x)) x), None)
  | UDelete a [] => Some (set_user (UReady a) (set_cache (drop_steps [t_step a] (x_cache x)) x), None)
  | UReady a => Some (set_user (UDecide a) (swap x), None)
  | UDecide a =>
      if t_force a then Some (set_user (UWaitSave a) x, None)
      else match should_save (t_cfg o) (as_mgr x) (t_now a) (t_preempt a) (t_step a) with
      | Err e => Some (set_user UIdle x, Some (Err e))
      | Ok false => Some (set_user UIdle x, Some (Ok VSkipped))
      | Ok true => Some (set_user (UWaitSave a) x, None)
      end
  | UWaitSave a =>
      match user_wait x with
      | None => None
      | Some (y, Some e) => Some (set_user UIdle y, Some (Err e))
      | Some (y, None) =>
          if existsb (Z.eqb (t_step a)) (map step (x_cache y))
          then Some (set_user UIdle (set_saving true y), Some (Err StepAlreadyExistsError))
          else Some (set_user (UWrite a (blocking_ops o (t_step a) (x_fs y))) (set_saving true y), None)
      end
  | UWrite a (p :: ops) => Some (set_user (UWrite a ops) (set_fs (apply_op p (x_fs x)) x), None)
  | UWrite a [] => Some (launch o a x)
  | UWait => match user_wait x with None => None | Some (y, e) => Some (set_user UIdle y, reply_of e) end
  | UClose =>
      match user_wait x with
      | None => None
      | Some (y, Some e) => Some (set_user UIdle y, Some (Err e))
      | Some (y, None) => Some (set_user UCloseLast y, None)
      end
  | UCloseLast =>
      match nth_error (x_jobs x) (x_ck x) with
      | None => None
      | Some j =>
          match j_state j with
          | JRun _ _ _ => None
          | _ => Some (set_user UIdle (set_job (x_ck x) (mkJob (j_state j) None) x), reply_of (j_exc j))
          end
      end
  | UResult i =>
      match nth_error (x_resps x) i with
      | Some w => match r_pc w with WEnd (Ok _) => Some (set_user UIdle x, Some (Ok VTrue)) | WEnd (Err e) => Some (set_user UIdle x, Some (Err e)) | _ => None end
      | None => None
      end
  end.

(** A thread that finalizes goes on (CM l.2158-2192) *)
Definition move (i : nat) (f : fin) (p : fpc) (x : st) : st := set_fin i (mkFin (f_step f) (f_rm f) (f_ck f) p (f_told f)) x.

(** One step of the thread number [i] that finalizes (CM l.2158-2192, l.2019-2021, l.2113-2140, DEL l.374-376) *)
Definition fin_step (o : options) (i : nat) (x : st) : option st :=
  match nth_error (x_fins x) i with
  | None => None
  | Some f =>
      match f_pc f with
      | PStart => Some (move i f (PWait (x_ck x)) x)
      | PWait k =>
          match nth_error (x_jobs x) k with
          | None => None
          | Some j =>
              match j_state j with
              | JRun _ _ _ => None
              | _ => Some (move i f (match j_exc j with Some e => PFinally (Some e) | None => PCheck end) (set_job k (mkJob (j_state j) None) x))
              end
          end
      | PCheck =>
          let y := match nth_error (x_jobs x) (x_ck x) with Some j => set_job (x_ck x) (mkJob (j_state j) None) x | None => x end in
          Some (move i f (PDelete (f_rm f) []) y)
      | PDelete ss (p :: ops) => Some (move i f (PDelete ss ops) (set_fs (apply_op p (x_fs x)) x))
      | PDelete (t :: ss) [] =>
          let '(ops, e) := delete_ops (o_mode (t_cfg o)) t (x_fs x) in
          match e with
          | Some e => Some (move i f (PFinally (Some e)) x)
          | None => Some (move i f (PDelete ss ops) x)
          end
      | PDelete [] [] => Some (move i f (PFinally None) x)
      | PFinally e => Some (move i f (PEnd e) (set_saving false x))
      | PEnd _ => None
      end
  end.

(** One step of the thread of response number [i] (TC l.57-61, CM l.2039-2084); the first join of a thread raises (CM l.154-162) *)
Definition resp_step (i : nat) (x : st) : option st :=
  match nth_error (x_resps x) i with
  | None => None
  | Some w =>
      let go p := set_resp i (mkResp (r_fin w) p) in
      match r_pc w with
      | WTest =>
          match current x with
          | None => Some (go (WEnd (Ok true)) x)
          | Some (_, f) => match f_pc f with PEnd None => Some (go (WEnd (Ok true)) x) | _ => Some (go WStep x) end
          end
      | WStep => match current x with None => None | Some (_, f) => Some (go (WGet (f_step f)) x) end
      | WGet s => match current x with None => None | Some (j, _) => Some (go (WJoin s j) x) end
      | WJoin s j =>
          match nth_error (x_fins x) j with
          | None => None
          | Some f =>
              match f_pc f with
              | PEnd None => Some (go (WEnd (Ok true)) x)
              | PEnd (Some e) => Some (go (WEnd (Err e)) (set_cache (drop_steps [s] (x_cache x)) x))
              | _ => None
              end
          end
      | WEnd _ => None
      end
  end.

(** The temporary directory can be renamed: it is there and there is no directory of the step (AC l.486-489) *)
Definition can_commit (s : Z) (d : fs) : bool := existsb (Z.eqb s) (tmps d) && negb (existsb (Z.eqb s) (map fst (committed d))).

(** What can happen: the caller calls (TC l.283-924); the caller's thread, a thread that finalizes or that of a response goes on; the part of the save that blocks raises after the removal of an existing directory (AC l.531-558); the thread of a checkpointer makes the directory
    (AC l.532-539), commits (AC l.450-506), raises before it commits, raises after that *)
Inductive label : Type :=
| LSave (a : call) | LWait | LClose | LResult (i : nat) | LLoad (s : option Z) | LLatest | LReload
| LUser | LWriteFail | LFin (i : nat) | LResp (i : nat)
| LMkdir (k : nat) | LCommit (k : nat) | LCommitFail (k : nat) (e : err) | LCommitThenFail (k : nat) (e : err).

(** One step; [None]: it cannot happen (TC l.283-924, CM l.1416-2201, AC l.216-253) *)
Definition tstep (o : options) (l : label) (x : st) : option (st * reply) :=
  match l with
  | LSave a => match x_user x with UIdle => Some (begin_save o a x) | _ => None end
  | LWait => match x_user x with UIdle => Some (set_user UWait x, None) | _ => None end
  | LClose => match x_user x with UIdle => Some (set_user UClose x, None) | _ => None end
  | LResult i => match x_user x with UIdle => if Nat.ltb i (length (x_resps x)) then Some (set_user (UResult i) x, None) else None | _ => None end
  | LLoad s => match x_user x with UIdle => Some (x, Some (rmap VData (load o s x))) | _ => None end
  | LLatest => match x_user x with UIdle => Some (x, Some (rmap VStep (latest o x))) | _ => None end
  | LReload => match x_user x with UIdle => Some (set_cache (load_infos false (x_fs x)) x, Some (Ok VUnit)) | _ => None end
  | LUser => user_step o x
  | LWriteFail =>
      match x_user x with
      | UWrite _ ops => if forallb (fun p => match p with OMkTmp _ => true | _ => false end) ops then Some (set_user UIdle x, Some (Err OtherError)) else None
      | _ => None
      end
  | LFin i => match fin_step o i x with Some y => Some (y, None) | None => None end
  | LResp i => match resp_step i x with Some y => Some (y, None) | None => None end
  | LMkdir k =>
      match nth_error (x_jobs x) k with
      | Some (mkJob (JRun s c false) e) => Some (set_job k (mkJob (JRun s c true) e) (set_fs (apply_op (OMkTmp s) (x_fs x)) x), None)
      | _ => None
      end
  | LCommit k =>
      match nth_error (x_jobs x) k with
      | Some (mkJob (JRun s c true) e) =>
          if can_commit s (x_fs x) then Some (set_job k (mkJob (JDone s c true) e) (set_fs (apply_op (OCommit s c) (x_fs x)) x), None) else None
      | _ => None
      end
  | LCommitFail k e =>
      match nth_error (x_jobs x) k with
      | Some (mkJob (JRun s c _) _) => Some (set_job k (mkJob (JDone s c false) (Some e)) x, None)
      | _ => None
      end
  | LCommitThenFail k e =>
      match nth_error (x_jobs x) k with
      | Some (mkJob (JRun s c true) _) =>
          if can_commit s (x_fs x) then Some (set_job k (mkJob (JDone s c false) (Some e)) (set_fs (apply_op (OCommit s c) (x_fs x)) x), None) else None
      | _ => None
      end
  end.
