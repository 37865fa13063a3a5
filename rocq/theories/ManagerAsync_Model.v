(** Model of CheckpointManager with an AsyncCheckpointer, on one host: one user
    thread, the commit thread of the last save and the finalize thread of the last
    save, under any interleaving.
    Sources: checkpoint/orbax/checkpoint/checkpoint_manager.py ("CM"),
    _src/checkpointers/async_checkpointer.py ("AC"), _src/path/deleter.py ("DEL").
    Everything that is the same as in the synchronous case is taken from
    [Manager_Model].  Simplifications: directories are created by the user thread
    (create_directories_asynchronously off); delete(), reload() and
    check_for_errors() called by the user are single steps; cancellation is not
    reachable through the manager; metadata stores have nothing pending. *)
From Coq Require Import ZArith List Bool.
From Verif Require Import Base Policy_Model Manager_Model.
Import ListNotations.
Local Open Scope Z_scope.

(** The commit thread (AC l.216-253 _thread_func): none, running for a step with
    the contents it is going to commit, or finished. *)
Inductive job : Type := JNone | JRun (s : Z) (c : ckpt) | JDone.

(** Program counter in _AsyncManager.wait_until_finished (AC l.293-323): before
    the test [self._thread is not None]; after it, before [self._thread] is read
    again for join(); inside join(); before check_for_errors(). *)
Inductive wpc : Type := WTest | WLoad | WJoin | WCheck.

(** Program counter of the finalize thread in _finalize (CM l.2158-2192): waiting
    for the checkpointer; in _finalize_checkpoint; deleting (steps left, operations
    left of the current step); in the finally block with the exception in flight. *)
Inductive fpc : Type :=
| PWait (w : wpc)
| PFinal
| PDelete (ss : list Z) (ops : list op)
| PFinally (e : option err).

(** self._finalize_thread (CM l.120-163): none; alive; or ended, with its exception
    and whether the user thread still has to be told (join, CM l.151-163). *)
Inductive fin : Type :=
| FNone
| FRun (s : Z) (rm : list Z) (pc : fpc)
| FEnd (s : Z) (e : option err) (should_raise : bool).

(** The user thread: outside any call; blocked in wait_until_finished inside save
    (CM l.1455) or on its own (CM l.2023); in AsyncCheckpointer.save waiting for the
    previous commit (AC l.618); removing an existing directory and creating the
    temporary one (AC l.518-545); in AsyncCheckpointer.restore waiting for the
    commit (AC l.643-646). *)
Inductive upc : Type :=
| UIdle
| UWaitSave (a : save_args)
| UWait
| UJoinSave (a : save_args)
| UWrite (a : save_args) (ops : list op)
| URestore (s : Z) (w : wpc).

(** All of the state: directory, manager's list and progress flag (CM l.871-912),
    commit thread, [_AsyncManager._thread is not None] and [_exception]
    (AC l.209-211), finalize thread, user thread. *)
Record st : Type := mkSt {
  a_fs : fs; a_cache : list info; a_saving : bool;
  a_job : job; a_thread : bool; a_exc : option err;
  a_fin : fin; a_user : upc }.

(** CM l.585-939: a new manager. *)
Definition ainit (cfg : config) (d : fs) : st :=
  mkSt d (cache (init cfg d)) false JNone false None FNone UIdle.

(** The synchronous view (CM l.871-912). *)
Definition as_mgr (x : st) : mgr := mkMgr (a_cache x) (a_saving x).

(** Record updates (no counterpart in the code, CM l.585). *)
Definition set_fs (d : fs) (x : st) : st :=
  mkSt d (a_cache x) (a_saving x) (a_job x) (a_thread x) (a_exc x) (a_fin x) (a_user x).
(** As above (CM l.585). *)
Definition set_cache (c : list info) (x : st) : st :=
  mkSt (a_fs x) c (a_saving x) (a_job x) (a_thread x) (a_exc x) (a_fin x) (a_user x).
(** As above (CM l.585). *)
Definition set_saving (b : bool) (x : st) : st :=
  mkSt (a_fs x) (a_cache x) b (a_job x) (a_thread x) (a_exc x) (a_fin x) (a_user x).
(** As above (AC l.209). *)
Definition set_job (j : job) (x : st) : st :=
  mkSt (a_fs x) (a_cache x) (a_saving x) j (a_thread x) (a_exc x) (a_fin x) (a_user x).
(** As above (AC l.209). *)
Definition set_thread (b : bool) (x : st) : st :=
  mkSt (a_fs x) (a_cache x) (a_saving x) (a_job x) b (a_exc x) (a_fin x) (a_user x).
(** As above (AC l.211). *)
Definition set_exc (e : option err) (x : st) : st :=
  mkSt (a_fs x) (a_cache x) (a_saving x) (a_job x) (a_thread x) e (a_fin x) (a_user x).
(** As above (CM l.905). *)
Definition set_fin (f : fin) (x : st) : st :=
  mkSt (a_fs x) (a_cache x) (a_saving x) (a_job x) (a_thread x) (a_exc x) f (a_user x).
(** As above (CM l.585). *)
Definition set_user (u : upc) (x : st) : st :=
  mkSt (a_fs x) (a_cache x) (a_saving x) (a_job x) (a_thread x) (a_exc x) (a_fin x) u.

(** Labels: calls started by the user, steps of a call in progress, steps of the
    background threads (CM l.1156-2201, AC l.62-323).  [LCommitFail e]: the commit
    futures or the callback raise before the directory is renamed.
    [LCommitThenFail e]: the callback raises after the rename (AC l.483-503).
    [LWriteFail]: the handler raises in the blocking part of the save
    (AC l.543-545). *)
Inductive label : Type :=
| LSave (a : save_args)
| LWaitCall
| LRestore (s : Z)
| LCheck
| LReload
| LDelete (s : Z)
| LUser
| LWriteFail
| LCommit
| LCommitFail (e : err)
| LCommitThenFail (e : err)
| LFin.

(** Result of one wait step (AC l.293-323): the next program counter, or the end
    of wait_until_finished with the exception it raises.  [None]: blocked. *)
Definition wait_step (w : wpc) (x : st) : option (st * (wpc + option err)) :=
  match w with
  | WTest => Some (x, inl (if a_thread x then WLoad else WCheck))
  | WLoad =>
      if a_thread x then Some (x, inl WJoin)
      else Some (x, inr (Some OtherError))    (* AttributeError on None *)
  | WJoin =>
      match a_job x with
      | JRun _ _ => None
      | _ => Some (set_thread false x, inl WCheck)
      end
  | WCheck => Some (set_exc None x, inr (a_exc x))
  end.

(** CM l.2023-2097 wait_until_finished by the user thread: [None] while the
    finalize thread is alive; otherwise the state and the exception raised. *)
Definition manager_wait (x : st) : option (st * option err) :=
  match a_fin x with
  | FNone => Some (x, None)
  | FRun _ _ _ => None
  | FEnd s (Some e) true =>
      Some (set_cache (drop_steps [s] (a_cache x)) (set_fin (FEnd s (Some e) false) x), Some e)
  | FEnd _ _ _ => Some (x, None)
  end.

(** Operations of AsyncCheckpointer._save before the commit (AC l.518-545). *)
Definition blocking_ops (s : Z) (d : fs) : list op :=
  (match dget s (committed d) with Some _ => [ODamage s; ORemove s] | None => [] end) ++ [OMkTmp s].

(** CM l.1544-1598 with AC l.636-640: start the commit thread, append the step,
    ask the policy, drop the condemned steps from the list, start the finalize
    thread.  A raising policy leaves the commit thread running without finalize
    thread. *)
Definition launch (cfg : config) (a : save_args) (x : st) : st * result value :=
  let cs := a_cache x ++ [mkInfo (sv_step a) (sv_now a) (sv_metrics a)] in
  let x1 := set_user UIdle (set_cache cs (set_thread true
              (set_job (JRun (sv_step a) (ckpt_of cfg a)) x))) in
  match steps_to_remove cfg cs with
  | Err e => (x1, Err e)
  | Ok rm => (set_fin (FRun (sv_step a) rm (PWait WTest)) (set_cache (drop_steps rm cs) x1), Ok (VBool true))
  end.

(** The rest of a call in progress, one step (CM l.1422-1612, l.2023-2097,
    AC l.510-646, CP l.304-339). *)
Definition user_step (cfg : config) (x : st) : option (st * option (result value)) :=
  match a_user x with
  | UIdle => None
  | UWait =>
      match manager_wait x with
      | None => None
      | Some (x', e) => Some (set_user UIdle x', Some (match e with Some e => Err e | None => Ok VUnit end))
      end
  | UWaitSave a =>
      match manager_wait x with
      | None => None
      | Some (x', Some e) => Some (set_user UIdle x', Some (Err e))
      | Some (x', None) =>
          let x'' := set_saving true x' in
          if existsb (Z.eqb (sv_step a)) (map step (a_cache x''))
          then Some (set_user UIdle x'', Some (Err StepAlreadyExistsError))
          else Some (set_user (UJoinSave a) x'', None)
      end
  | UJoinSave a =>
      match a_job x with
      | JRun _ _ => None
      | _ =>
          let x' := set_exc None (set_thread false x) in
          match a_exc x with
          | Some e => Some (set_user UIdle x', Some (Err e))
          | None => Some (set_user (UWrite a (blocking_ops (sv_step a) (a_fs x'))) x', None)
          end
      end
  | UWrite a (o :: ops) => Some (set_user (UWrite a ops) (set_fs (apply_op o (a_fs x)) x), None)
  | UWrite a [] => let '(x', r) := launch cfg a x in Some (x', Some r)
  | URestore s w =>
      match wait_step w x with
      | None => None
      | Some (x', inl w') => Some (set_user (URestore s w') x', None)
      | Some (x', inr (Some e)) => Some (set_user UIdle x', Some (Err e))
      | Some (x', inr None) => Some (set_user UIdle x', Some (out_res (restore (Some s) (a_fs x) (as_mgr x))))
      end
  end.

(** One step of the finalize thread (CM l.2158-2192, l.2121-2156). *)
Definition fin_step (cfg : config) (x : st) : option st :=
  match a_fin x with
  | FRun s rm pc =>
      match pc with
      | PWait w =>
          match wait_step w x with
          | None => None
          | Some (x', inl w') => Some (set_fin (FRun s rm (PWait w')) x')
          | Some (x', inr (Some e)) => Some (set_fin (FRun s rm (PFinally (Some e))) x')
          | Some (x', inr None) => Some (set_fin (FRun s rm PFinal) x')
          end
      | PFinal => Some (set_exc None (set_fin (FRun s rm (PDelete rm [])) x))
      | PDelete ss (o :: ops) =>
          Some (set_fin (FRun s rm (PDelete ss ops)) (set_fs (apply_op o (a_fs x)) x))
      | PDelete (t :: ss) [] =>
          let '(ops, e) := delete_ops (o_mode cfg) t (a_fs x) in
          match e with
          | Some e => Some (set_fin (FRun s rm (PFinally (Some e))) x)
          | None => Some (set_fin (FRun s rm (PDelete ss ops)) x)
          end
      | PDelete [] [] => Some (set_fin (FRun s rm (PFinally None)) x)
      | PFinally e => Some (set_saving false (set_fin (FEnd s e true) x))
      end
  | _ => None
  end.

(** The transition function; [None]: the label is not enabled.  The second
    component is the result of the user's call if it ends with this step
    (CM l.1156-2201, AC l.62-323). *)
Definition astep (cfg : config) (l : label) (x : st) : option (st * option (result value)) :=
  match l, a_user x with
  | LSave a, UIdle =>
      if sv_force a then Some (set_user (UWaitSave a) x, None)
      else match should_save cfg (as_mgr x) (sv_now a) (sv_preempt a) (sv_step a) with
      | Err e => Some (x, Some (Err e))
      | Ok false => Some (x, Some (Ok (VBool false)))
      | Ok true => Some (set_user (UWaitSave a) x, None)
      end
  | LWaitCall, UIdle => Some (set_user UWait x, None)
  | LRestore s, UIdle => Some (set_user (URestore s WTest) x, None)
  | LCheck, UIdle =>
      Some (set_exc None x, Some (match a_exc x with Some e => Err e | None => Ok VUnit end))
  | LReload, UIdle => Some (set_cache (load_infos false (a_fs x)) x, Some (Ok VUnit))
  | LDelete s, UIdle =>
      let o := delete cfg s (a_fs x) (as_mgr x) in
      Some (set_cache (cache (out_mgr o)) (set_fs (exec (out_ops o) (a_fs x)) x), Some (out_res o))
  | LUser, _ => user_step cfg x
  | LWriteFail, UWrite a ops => Some (set_user UIdle x, Some (Err OtherError))
  | LCommit, _ =>
      match a_job x with
      | JRun s c =>
          if existsb (Z.eqb s) (tmps (a_fs x))
          then Some (set_job JDone (set_fs (apply_op (OCommit s c) (a_fs x)) x), None)
          else None
      | _ => None
      end
  | LCommitFail e, _ =>
      match a_job x with
      | JRun s c => Some (set_job JDone (set_exc (Some e) x), None)
      | _ => None
      end
  | LCommitThenFail e, _ =>
      match a_job x with
      | JRun s c =>
          if existsb (Z.eqb s) (tmps (a_fs x))
          then Some (set_job JDone (set_exc (Some e) (set_fs (apply_op (OCommit s c) (a_fs x)) x)), None)
          else None
      | _ => None
      end
  | LFin, _ => match fin_step cfg x with Some x' => Some (x', None) | None => None end
  | _, _ => None
  end.
