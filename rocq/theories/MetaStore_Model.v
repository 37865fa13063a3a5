(** Model of the store of metadata files that checkpoints share: writes and updates by one
    background thread, waiting for them, and how a checkpoint's metadata file comes about from
    the creation of its temporary directory to its commit.
    Source: checkpoint/orbax/checkpoint/_src/metadata/checkpoint.py ("MC"),
    checkpoint/orbax/checkpoint/_src/metadata/step_metadata_serialization.py ("SS"),
    checkpoint/orbax/checkpoint/_src/path/atomicity.py ("AT"),
    checkpoint/orbax/checkpoint/_src/checkpointers/checkpointer.py ("CK"),
    checkpoint/orbax/checkpoint/_src/checkpointers/async_checkpointer.py ("AC") and
    checkpoint/orbax/checkpoint/checkpoint_manager.py ("CM").
    Simplifications: a metadata file is named by its directory; it is missing, broken (not JSON)
    or holds a dictionary; values are not looked into, except whether JSON has them; values that
    a user may still change are references, read when the JSON text is made; the steps of the
    background thread are those that reach the file system; waiting (MC l.445-452) holds the lock
    until it ends, so that it takes place at the moment it ends; an operation of the blocking store
    (MC l.286-309) takes place as a whole.
    Not modelled: logging, times, what the handlers write, other processes, [close] (MC l.454-459),
    stores that may not write (MC l.291-292, l.383-390). *)
From Coq Require Import List Bool Arith NArith String.
From Verif Require Import Base Tree_Model.
Import ListNotations.
Open Scope string_scope.

Section Store.

(** Values, and whether JSON has them (MC l.181) *)
Variable V : Type.
Variable serializable : V -> bool.

(** Failures: the [n]th step that reaches a metadata file fails if [fault n] is an error
    (MC l.201, l.207, l.182). *)
Variable fault : nat -> option err.

(** ** Files *)

(** A value as it is handed over: of one's own, or an object of the user (SS l.223-227, AC l.455) *)
Inductive val : Type := Own (v : V) | User (r : N).

(** What is in a directory: no metadata file, one that is no JSON (MC l.217-227) or a dictionary *)
Inductive file : Type := NoFile | Broken | Whole (m : dict string V).

(** A write (MC l.377-395) or an update (MC l.416-443) of the metadata file of a directory *)
Inductive task : Type := TWrite (d : N) (m : dict string val) | TUpdate (d : N) (kw : dict string val).

(** The directory of a task (MC l.178, l.242) *)
Definition dir_of (t : task) : N := match t with TWrite d _ | TUpdate d _ => d end.

(** Who waits or submits: a save (AC l.450-486) or any other thread (AC l.648-656, CM l.2163) *)
Inductive who : Type := Save (j : nat) | Other (n : nat).

(** How far a task has come: the file is looked for (MC l.201), it is read (MC l.207), it is opened
    for writing (MC l.182), it is filled (MC l.182). *)
Inductive stage : Type := SExists | SRead | SOpen (m : dict string val) | SFill (m : dict string V).

(** How far a save has come: not begun; its directory is made and the first metadata is handed
    over (AT l.133-159); handlers and custom metadata are handed over (AC l.455); all written
    (AT l.532-534); the time of the commit is handed over (AT l.535-539); all written
    (AT l.540-542); committed (AT l.544-552); given up *)
Inductive phase : Type := P0 | P1 | P2 | P3 | P4 | P5 | PDone | PFailed.

(** A save: its temporary and final directory, its metadata when the directory is made
    (AT l.154-158), the update after the handlers saved (CK l.380-415) and the time of its commit
    (AT l.538) *)
Record save : Type := mkSave {
  sv_tmp : N; sv_final : N; sv_init : dict string val; sv_kw : dict string val; sv_time : val; sv_phase : phase }.

(** A future with its task and who submitted it (MC l.392-395) *)
Definition job : Type := nat * who * task.

(** The file system, the objects of users, the tasks not yet begun (MC l.330-332), the one at work,
    those done with their results, the futures not yet waited for (MC l.335-337), the number of
    futures so far, that of steps so far, the errors raised by waiting, the reads that failed, and
    the saves *)
Record st : Type := mkSt {
  fs : dict N file; users : N -> V; queue : list job; current : option (job * stage);
  done : list (job * result unit); pend : list nat; next : nat; clock : nat;
  raised : list (who * nat * err); unread : list nat; saves : list save }.

(** Assignment (MC l.182) *)
Definition set_fs x s := mkSt x (users s) (queue s) (current s) (done s) (pend s) (next s) (clock s) (raised s) (unread s) (saves s).
(** Assignment (AC l.455) *)
Definition set_users x s := mkSt (fs s) x (queue s) (current s) (done s) (pend s) (next s) (clock s) (raised s) (unread s) (saves s).
(** Assignment (MC l.392) *)
Definition set_queue x s := mkSt (fs s) (users s) x (current s) (done s) (pend s) (next s) (clock s) (raised s) (unread s) (saves s).
(** Assignment (MC l.392) *)
Definition set_current x s := mkSt (fs s) (users s) (queue s) x (done s) (pend s) (next s) (clock s) (raised s) (unread s) (saves s).
(** Assignment (MC l.366-375) *)
Definition set_done x s := mkSt (fs s) (users s) (queue s) (current s) x (pend s) (next s) (clock s) (raised s) (unread s) (saves s).
(** Assignment (MC l.358) *)
Definition set_pend x s := mkSt (fs s) (users s) (queue s) (current s) (done s) x (next s) (clock s) (raised s) (unread s) (saves s).
(** Assignment (MC l.392) *)
Definition set_next x s := mkSt (fs s) (users s) (queue s) (current s) (done s) (pend s) x (clock s) (raised s) (unread s) (saves s).
(** One more step (MC l.182) *)
Definition tick s := mkSt (fs s) (users s) (queue s) (current s) (done s) (pend s) (next s) (S (clock s)) (raised s) (unread s) (saves s).
(** Assignment (MC l.452) *)
Definition set_raised x s := mkSt (fs s) (users s) (queue s) (current s) (done s) (pend s) (next s) (clock s) x (unread s) (saves s).
(** Assignment (MC l.208-214) *)
Definition set_unread x s := mkSt (fs s) (users s) (queue s) (current s) (done s) (pend s) (next s) (clock s) (raised s) x (saves s).
(** Assignment (AC l.450-486) *)
Definition set_saves x s := mkSt (fs s) (users s) (queue s) (current s) (done s) (pend s) (next s) (clock s) (raised s) (unread s) x.

(** The value now (MC l.181) *)
Definition eval (u : N -> V) (x : val) : V := match x with Own v => v | User r => u r end.

(** [json.dumps] (MC l.181) *)
Definition dumps (u : N -> V) (m : dict string val) : result (dict string V) :=
  if forallb (fun x => serializable (eval u (snd x))) m then Ok (map (fun x => (fst x, eval u (snd x))) m) else Err TypeError.

(** MC l.243-245 *)
Definition merge (old : dict string V) (kw : dict string val) : dict string val :=
  fold_left (fun m x => dput String.eqb (fst x) (snd x) m) kw (map (fun x => (fst x, Own (snd x))) old).

(** MC l.197-235, without failures *)
Definition read (s : st) (d : N) : option (dict string V) :=
  match dget N.eqb d (fs s) with Some (Whole m) => Some m | _ => None end.

(** The first stage of a task (MC l.178-182, l.242-243) *)
Definition start (t : task) : stage := match t with TWrite _ m => SOpen m | TUpdate _ _ => SExists end.

(** What an update adds (MC l.244-245) *)
Definition kw_of (t : task) : dict string val := match t with TWrite _ _ => [] | TUpdate _ kw => kw end.

(** One step of a task: to its next stage, or its end (MC l.173-253).  The directory may be gone. *)
Definition advance (id : nat) (t : task) (g : stage) (s : st) : st * (stage + result unit) :=
  let d := dir_of t in
  let s' := tick s in
  match g with
  | SExists =>
    match fault (clock s) with
    | Some e => (s', inr (Err e))
    | None =>
      match dget N.eqb d (fs s) with
      | Some Broken | Some (Whole _) => (s', inl SRead)
      | _ => (s', inl (SOpen (merge [] (kw_of t))))
      end
    end
  | SRead =>
    match fault (clock s) with
    | Some _ => (set_unread (unread s ++ [id])%list s', inl (SOpen (merge [] (kw_of t))))
    | None => (s', inl (SOpen (merge (match read s d with Some m => m | None => [] end) (kw_of t))))
    end
  | SOpen m =>
    match dumps (users s) m with
    | Err e => (s', inr (Err e))
    | Ok m' =>
      match fault (clock s), dget N.eqb d (fs s) with
      | Some e, _ => (s', inr (Err e))
      | None, None => (s', inr (Err FileNotFoundError))
      | None, Some _ => (set_fs (dput N.eqb d Broken (fs s)) s', inl (SFill m'))
      end
    end
  | SFill m =>
    match fault (clock s), dget N.eqb d (fs s) with
    | Some e, _ => (s', inr (Err e))
    | None, None => (s', inr (Err FileNotFoundError))
    | None, Some _ => (set_fs (dput N.eqb d (Whole m) (fs s)) s', inr (Ok tt))
    end
  end.

(** ** The store with a background thread *)

(** MC l.377-395, l.416-443 *)
Definition submit (w : who) (t : task) (s : st) : st :=
  set_next (S (next s)) (set_pend (pend s ++ [next s])%list (set_queue (queue s ++ [(next s, w, t)])%list s)).

(** One step of the background thread (MC l.343-345, l.360-375, l.403-414) *)
Definition work (s : st) : st :=
  match current s with
  | None =>
    match queue s with
    | [] => s
    | j :: q => set_current (Some (j, start (snd j))) (set_queue q s)
    end
  | Some (j, g) =>
    match advance (fst (fst j)) (snd j) g s with
    | (s', inl g') => set_current (Some (j, g')) s'
    | (s', inr r) => set_current None (set_done (done s ++ [(j, r)])%list s')
    end
  end.

(** The result of a future, if it is there (MC l.452) *)
Fixpoint result_of (id : nat) (l : list (job * result unit)) : option (result unit) :=
  match l with
  | [] => None
  | (j, r) :: l' => if Nat.eqb id (fst (fst j)) then Some r else result_of id l'
  end.

(** MC l.449-452: the futures left, and what is raised; [None] if it would have to wait *)
Fixpoint wait_loop (l : list (job * result unit)) (p : list nat) : option (list nat * option (nat * err)) :=
  match p with
  | [] => Some ([], None)
  | id :: p' =>
    match result_of id l with
    | None => None
    | Some (Ok _) => wait_loop l p'
    | Some (Err e) => Some (p', Some (id, e))
    end
  end.

(** MC l.445-452 *)
Definition wait (w : who) (s : st) : option (st * result unit) :=
  match wait_loop (done s) (pend s) with
  | None => None
  | Some (p, None) => Some (set_pend p s, Ok tt)
  | Some (p, Some (id, e)) => Some (set_raised (raised s ++ [(w, id, e)])%list (set_pend p s), Err e)
  end.

(** ** The blocking store *)

(** All steps of a task at once (MC l.293-294, l.308-309); there are at most four. *)
Fixpoint exec (fuel : nat) (id : nat) (t : task) (g : stage) (s : st) : st * result unit :=
  match fuel with
  | O => (s, Err OtherError)
  | S f => match advance id t g s with (s', inl g') => exec f id t g' s' | (s', inr r) => (s', r) end
  end.

(** MC l.286-309 *)
Definition blocking (t : task) (s : st) : st * result unit :=
  exec 4 (next s) t (start t) (set_next (S (next s)) s).

(** ** Saves *)

(** AT l.133-150: an old temporary directory is removed. *)
Definition mkdir (d : N) (s : st) : st := set_fs (dput N.eqb d NoFile (fs s)) s.

(** AT l.544-552: the directory is renamed, which another in its place prevents; or AT l.677-681:
    the temporary directory is the final one. *)
Definition rename (a b : N) (s : st) : st * result unit :=
  if N.eqb a b then (s, Ok tt)
  else
    match dget N.eqb a (fs s), dget N.eqb b (fs s) with
    | Some f, None => (set_fs (dput N.eqb b f (filter (fun x => negb (N.eqb a (fst x))) (fs s))) s, Ok tt)
    | Some _, Some _ => (s, Err OtherError)
    | None, _ => (s, Err FileNotFoundError)
    end.

(** The name of the time of the commit (SS l.76, AT l.538) *)
Definition commit_key : string := "commit_timestamp_nsecs".

(** What a save has come to (AC l.450-486) *)
Definition set_phase (j : nat) (p : phase) (s : st) : st :=
  set_saves (match nth_error (saves s) j with
             | Some v => set_nth j (mkSave (sv_tmp v) (sv_final v) (sv_init v) (sv_kw v) (sv_time v) p) (saves s)
             | None => saves s
             end) s.

(** The next step of an asynchronous save (AT l.104-161, AC l.450-489, AT l.522-552); waiting may
    have to wait. *)
Definition save_step (j : nat) (s : st) : st :=
  match nth_error (saves s) j with
  | None => s
  | Some v =>
    let wait_then p := match wait (Save j) s with
                       | None => s
                       | Some (s', Ok _) => set_phase j p s'
                       | Some (s', Err _) => set_phase j PFailed s'
                       end in
    match sv_phase v with
    | P0 => set_phase j P1 (submit (Save j) (TWrite (sv_tmp v) (sv_init v)) (mkdir (sv_tmp v) s))
    | P1 => set_phase j P2 (submit (Save j) (TUpdate (sv_tmp v) (sv_kw v)) s)
    | P2 => wait_then P3
    | P3 => set_phase j P4 (submit (Save j) (TUpdate (sv_tmp v) [(commit_key, sv_time v)]) s)
    | P4 => wait_then P5
    | P5 => match rename (sv_tmp v) (sv_final v) s with
            | (s', Ok _) => set_phase j PDone s'
            | (s', Err _) => set_phase j PFailed s'
            end
    | PDone | PFailed => s
    end
  end.

(** What can happen: a step of the background thread, of a save, a save that gives up
    (AC l.248-265), another thread waits (AC l.648-656, CM l.2163), another thread writes or updates
    with this store or the blocking one, a user changes an object (AC l.567). *)
Inductive event : Type :=
| EWork | ESave (j : nat) | EFail (j : nat) | EWait (n : nat) | ESubmit (n : nat) (t : task) | EBlocking (t : task) | EChange (r : N) (v : V).

(** One event (AC l.450-489, MC l.343-452) *)
Definition step (e : event) (s : st) : st :=
  match e with
  | EWork => work s
  | ESave j => save_step j s
  | EFail j => match nth_error (saves s) j with
               | Some v => match sv_phase v with PDone => s | _ => set_phase j PFailed s end
               | None => s
               end
  | EWait n => match wait (Other n) s with None => s | Some (s', _) => s' end
  | ESubmit n t => submit (Other n) t s
  | EBlocking t => fst (blocking t s)
  | EChange r v => set_users (fun r' => if N.eqb r r' then v else users s r') s
  end.

(** Many events (AC l.450-489, MC l.343-452) *)
Definition run (l : list event) (s : st) : st := fold_left (fun s e => step e s) l s.

(** A new store (MC l.339-346) *)
Definition begin (f : dict N file) (u : N -> V) (l : list save) : st := mkSt f u [] None [] [] 0 0 [] [] l.

(** ** A synchronous save *)

(** CK l.258-289 with the blocking store *)
Definition blocking_save (v : save) (s : st) : st * result unit :=
  match blocking (TWrite (sv_tmp v) (sv_init v)) (mkdir (sv_tmp v) s) with
  | (s1, Err e) => (s1, Err e)
  | (s1, Ok _) =>
    match blocking (TUpdate (sv_tmp v) (sv_kw v)) s1 with
    | (s2, Err e) => (s2, Err e)
    | (s2, Ok _) =>
      match blocking (TUpdate (sv_tmp v) [(commit_key, sv_time v)]) s2 with
      | (s3, Err e) => (s3, Err e)
      | (s3, Ok _) => rename (sv_tmp v) (sv_final v) s3
      end
    end
  end.

End Store.
