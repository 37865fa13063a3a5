(** Model of one save on all processes with a shared file system, as an interleaving of the steps of the processes: the check of the destination, its removal, the temporary directory, the writes of the handlers, the commit.
    Sources: checkpoint/orbax/checkpoint/experimental/v1/_src/saving/execution.py ("EX"), checkpoint/orbax/checkpoint/experimental/v1/_src/saving/path_utils.py ("SP"),
    checkpoint/orbax/checkpoint/experimental/v1/_src/path/async_utils.py ("AU"), checkpoint/orbax/checkpoint/experimental/v1/_src/handlers/pytree_handler.py ("PH"),
    checkpoint/orbax/checkpoint/experimental/v1/_src/handlers/json_handler.py ("JH"), checkpoint/orbax/checkpoint/experimental/v1/_src/handlers/stateful_checkpointable_handler.py ("SH"),
    checkpoint/orbax/checkpoint/experimental/v1/_src/layout/orbax_layout.py ("OL"), checkpoint/orbax/checkpoint/experimental/v1/_src/synchronization/multihost.py ("MH");
    for the older synchronous save checkpoint/orbax/checkpoint/_src/checkpointers/checkpointer.py ("CP") and checkpoint/orbax/checkpoint/_src/path/atomicity.py ("AT").
    The active processes are 0, 1, ..., n - 1; [inactive] others are there but do not save.
    Assumed of barriers (MH l.79-142): one opens when all participants wait at it; a participant may give up at any time before (a timeout). A collective operation of jax is a barrier of all processes.
    Simplifications: the part of a save of a handler that blocks does not touch the file system, so that it does not matter whether directories are created before or after it (EX l.275-296); the indicator file (OL l.149-159)
    is a handler like that for json; removing does not fail, other operations fail before they do anything; file systems are consistent. The handlers of a tree of different names wait at different barriers (PH l.416-418).
    Not modelled: partial saves (C61, C62), what is written (other chapters), the preceding barrier for the operation id (EX l.394-399), [primary_host=None] (local file systems). *)
From Coq Require Import List Bool Arith.
From Verif Require Import Base.
Import ListNotations.

(** The save of the newer interface (EX l.374-435) or the synchronous one of the older (CP l.200-302) *)
Inductive version : Type := V1 | V0.

(** Kinds of handlers by what they do in the background: all processes write, with barriers before and after the primary finalizes (PH l.331-393); only the primary writes (JH l.95-105); all write, without barriers,
    as the objects that save themselves may (SH l.31-36) *)
Inductive kind : Type := Tree | Json | Free.

(** The parameters of a save (EX l.374-382): version, active processes, others, the primary host, [overwrite], the handlers of the checkpointables, and the path that each process was given *)
Record config : Type := mkConfig { c_version : version; c_n : nat; c_inactive : nat; c_primary : nat; c_overwrite : bool; c_handlers : list kind; c_path : nat -> nat }.

(** Where a process is: before the collective check of paths (EX l.316-324); at the barriers and operations of SP l.105-125 and l.70-83; creating the directories (AU l.48-92); waiting for the handlers (EX l.171);
    writing metadata, renaming (EX l.191-211); at the last barrier (EX l.220-227). [AtSaved]: the barrier of CP l.265-271. *)
Inductive phase : Type :=
| AtPaths | AtPre | Check | Remove | AtRemoved | AtPost | Create | AtCreate | Background | Meta | AtSaved | Rename | AtFinalize | Done | Failed (e : err).

(** Where a handler is in a process: not started; writing; at the barrier after the writes; finalizing; at the barrier after that; ended (PH l.331-393) *)
Inductive sub : Type := Idle | Write | AtCommit | Finalize | AtFinal | HDone | HFailed (e : err).

(** The barriers (SP l.76-125, AU l.84-92, EX l.220-227, PH l.350-393, CP l.265-271) *)
Inductive barrier : Type := BPaths | BPre | BRemoved | BPost | BCreate | BSaved | BFinalize | BCommit (h : nat) | BFinal (h : nat).

(** The temporary directory: which processes have written for which handler, which handlers have been finalized, whether the metadata is there (EX l.191-202) *)
Record tmpdir : Type := mkTmp { t_parts : list (nat * nat); t_final : list nat; t_meta : bool }.

(** What is at the destination: what was there before, or what was renamed to it (EX l.208-211) *)
Inductive content : Type := Old | New (t : tmpdir).

(** The state of all processes, of the barriers and of the file system (EX l.160-233) *)
Record state : Type := mkState { phases : nat -> phase; subs : nat -> nat -> sub; opened : barrier -> bool; final : option content; tmp : option tmpdir }.

(** Whether two barriers are the same (their keys, SP l.77-80) *)
Definition barrier_eqb (a b : barrier) : bool :=
  match a, b with
  | BPaths, BPaths | BPre, BPre | BRemoved, BRemoved | BPost, BPost | BCreate, BCreate | BSaved, BSaved | BFinalize, BFinalize => true
  | BCommit h, BCommit k => Nat.eqb h k
  | BFinal h, BFinal k => Nat.eqb h k
  | _, _ => false
  end.

(** The processes of the state with one changed (EX l.160-233) *)
Definition set_phase (s : state) (i : nat) (p : phase) : state :=
  mkState (fun j => if Nat.eqb j i then p else phases s j) (subs s) (opened s) (final s) (tmp s).

(** One handler of one process changed (PH l.331-393) *)
Definition set_sub (s : state) (i h : nat) (b : sub) : state :=
  mkState (phases s) (fun j k => if Nat.eqb j i && Nat.eqb k h then b else subs s j k) (opened s) (final s) (tmp s).

(** The handlers of one process start (OL l.540-546). *)
Definition start_subs (c : config) (s : state) (i : nat) : state :=
  mkState (phases s) (fun j k => if Nat.eqb j i && (k <? length (c_handlers c)) then Write else subs s j k) (opened s) (final s) (tmp s).

(** The destination changed (SP l.75, EX l.208-211) *)
Definition set_final (s : state) (f : option content) : state := mkState (phases s) (subs s) (opened s) f (tmp s).
(** The temporary directory changed (AU l.53-61) *)
Definition set_tmp (s : state) (t : option tmpdir) : state := mkState (phases s) (subs s) (opened s) (final s) t.

(** EX l.308-334: process 0 broadcasts (the hash of) its path, every process compares, and the numbers of mismatches are gathered; the same for all processes *)
Definition paths_agree (c : config) : bool := forallb (fun i => Nat.eqb (c_path c i) (c_path c 0)) (seq 0 (c_n c)).

(** MH l.162-174 *)
Definition is_primary (c : config) (i : nat) : bool := Nat.eqb i (c_primary c).

(** The state in which all processes begin (EX l.384-402, CP l.225-243) *)
Definition initial (c : config) (exists_before : bool) : state :=
  mkState (fun _ => match c_version c with V1 => AtPaths | V0 => AtPre end) (fun _ _ => Idle) (fun _ => false) (if exists_before then Some Old else None) None.

(** The barrier at which a process waits (SP l.76-125, AU l.84-92, EX l.220-227, CP l.265-271) *)
Definition waits (p : phase) : option barrier :=
  match p with
  | AtPaths => Some BPaths | AtPre => Some BPre | AtRemoved => Some BRemoved | AtPost => Some BPost | AtCreate => Some BCreate | AtSaved => Some BSaved | AtFinalize => Some BFinalize
  | _ => None
  end.

(** The barrier at which a handler waits (PH l.350-393) *)
Definition sub_waits (h : nat) (b : sub) : option barrier :=
  match b with AtCommit => Some (BCommit h) | AtFinal => Some (BFinal h) | _ => None end.

(** Whether the process waits at the barrier (MH l.79-142) *)
Definition at_barrier (s : state) (b : barrier) (i : nat) : bool :=
  match b with
  | BCommit h | BFinal h => match sub_waits h (subs s i h) with Some b' => barrier_eqb b b' | None => false end
  | _ => match waits (phases s i) with Some b' => barrier_eqb b b' | None => false end
  end.

(** A barrier opens when all active processes wait at it; a collective operation needs all processes (EX l.316-324, MH l.79-142). *)
Definition open_barrier (c : config) (s : state) (b : barrier) : option state :=
  if negb (opened s b) && forallb (at_barrier s b) (seq 0 (c_n c)) && (match b with BPaths => Nat.eqb (c_inactive c) 0 | _ => true end)
  then Some (mkState (phases s) (subs s) (fun x => barrier_eqb b x || opened s x) (final s) (tmp s)) else None.

(** Whether all handlers of a process have ended well (OL l.540-546) *)
Definition handlers_done (c : config) (s : state) (i : nat) : bool :=
  forallb (fun h => match subs s i h with HDone => true | _ => false end) (seq 0 (length (c_handlers c))).

(** The first error of the handlers of a process: [asyncio.gather] raises it (OL l.541-546). *)
Fixpoint first_error (l : list sub) : option err :=
  match l with [] => None | HFailed e :: _ => Some e | _ :: r => first_error r end.
(** The error of the handlers of a process, if there is one (OL l.541-546) *)
Definition handler_error (c : config) (s : state) (i : nat) : option err := first_error (map (subs s i) (seq 0 (length (c_handlers c)))).

(** The next step of the process itself (EX l.160-233, SP l.105-125, AU l.48-92; CP l.225-301) *)
Definition step_main (c : config) (s : state) (i : nat) : option state :=
  match phases s i with
  | AtPaths => if opened s BPaths then Some (set_phase s i (if paths_agree c then AtPre else Failed ValueError)) else None
  | AtPre => if opened s BPre then Some (set_phase s i Check) else None
  | Check =>
    match final s with
    | Some _ =>
      if c_overwrite c then
        Some (set_phase s i (if is_primary c i then Remove else match c_version c with V1 => AtRemoved | V0 => AtPost end))
      else Some (set_phase s i (Failed ValueError))
    | None => Some (set_phase s i AtPost)
    end
  | Remove => Some (set_phase (set_final s None) i (match c_version c with V1 => AtRemoved | V0 => AtPost end))
  | AtRemoved => if opened s BRemoved then Some (set_phase s i AtPost) else None
  | AtPost => if opened s BPost then Some (set_phase s i Create) else None
  | Create => Some (set_phase (if is_primary c i then set_tmp s (Some (mkTmp [] [] false)) else s) i AtCreate)
  | AtCreate => if opened s BCreate then Some (set_phase (start_subs c s i) i Background) else None
  | Background =>
    match handler_error c s i with
    | Some e => Some (set_phase s i (Failed e))
    | None => if handlers_done c s i then Some (set_phase s i (if is_primary c i then Meta else match c_version c with V1 => AtFinalize | V0 => AtSaved end)) else None
    end
  | Meta =>
    match tmp s with
    | Some t => Some (set_phase (set_tmp s (Some (mkTmp (t_parts t) (t_final t) true))) i (match c_version c with V1 => Rename | V0 => AtSaved end))
    | None => Some (set_phase s i (Failed FileNotFoundError))
    end
  | AtSaved => if opened s BSaved then Some (set_phase s i (if is_primary c i then Rename else AtFinalize)) else None
  | Rename =>
    match tmp s with
    | Some t =>
      let t' := match c_version c with V1 => t | V0 => mkTmp (t_parts t) (seq 0 (length (c_handlers c))) (t_meta t) end in
      Some (set_phase (set_final (set_tmp s None) (Some (New t'))) i AtFinalize)
    | None => Some (set_phase s i (Failed FileNotFoundError))
    end
  | AtFinalize => if opened s BFinalize then Some (set_phase s i Done) else None
  | Done | Failed _ => None
  end.

(** A part is written to the temporary directory (PH l.344-346, JH l.103-105). *)
Definition write_part (s : state) (i h : nat) (next : sub) : state :=
  match tmp s with
  | Some t => set_sub (set_tmp s (Some (mkTmp ((h, i) :: t_parts t) (t_final t) (t_meta t)))) i h next
  | None => set_sub s i h (HFailed FileNotFoundError)
  end.

(** The next step of a handler of a process (PH l.331-393, JH l.95-105, SH l.31-36; in the older save the handlers have no barriers, CP l.261) *)
Definition step_sub (c : config) (s : state) (i h : nat) : option state :=
  match nth_error (c_handlers c) h with
  | None => None
  | Some k =>
    match subs s i h with
    | Write =>
      match k with
      | Tree => Some (write_part s i h (match c_version c with V1 => AtCommit | V0 => HDone end))
      | Json => Some (if is_primary c i then write_part s i h HDone else set_sub s i h HDone)
      | Free => Some (write_part s i h HDone)
      end
    | AtCommit => if opened s (BCommit h) then Some (set_sub s i h Finalize) else None
    | Finalize =>
      if is_primary c i then
        match tmp s with
        | Some t => Some (set_sub (set_tmp s (Some (mkTmp (t_parts t) (h :: t_final t) (t_meta t)))) i h AtFinal)
        | None => Some (set_sub s i h (HFailed FileNotFoundError))
        end
      else Some (set_sub s i h AtFinal)
    | AtFinal => if opened s (BFinal h) then Some (set_sub s i h HDone) else None
    | Idle | HDone | HFailed _ => None
    end
  end.

(** Events: a barrier opens, a process or one of its handlers goes on, gives up waiting (MH l.142), a handler fails to write (PH l.344-346), the creation, the metadata or the renaming fails on the primary (AU l.53-61, EX l.183-211) *)
Inductive event : Type := Open (b : barrier) | Main (i : nat) | Sub (i h : nat) | Timeout (i : nat) | SubTimeout (i h : nat) | SubFails (i h : nat) (e : err) | MainFails (i : nat) (e : err).

(** EX l.374-435, CP l.200-302 *)
Definition step (c : config) (s : state) (e : event) : option state :=
  match e with
  | Open b => open_barrier c s b
  | Main i => if i <? c_n c then step_main c s i else None
  | Sub i h => if i <? c_n c then step_sub c s i h else None
  | Timeout i =>
    if i <? c_n c then
      match waits (phases s i) with Some b => if opened s b then None else Some (set_phase s i (Failed TimeoutError)) | None => None end
    else None
  | SubTimeout i h =>
    if (i <? c_n c) && (h <? length (c_handlers c)) then
      match sub_waits h (subs s i h) with Some b => if opened s b then None else Some (set_sub s i h (HFailed TimeoutError)) | None => None end
    else None
  | SubFails i h x =>
    if (i <? c_n c) && (h <? length (c_handlers c)) then match subs s i h with Write => Some (set_sub s i h (HFailed x)) | _ => None end else None
  | MainFails i x =>
    if (i <? c_n c) && is_primary c i then match phases s i with Create | Meta | Rename => Some (set_phase s i (Failed x)) | _ => None end else None
  end.

(** A sequence of events (EX l.374-435) *)
Fixpoint run (c : config) (s : state) (es : list event) : option state :=
  match es with
  | [] => Some s
  | e :: r => match step c s e with Some s' => run c s' r | None => None end
  end.

(** The calls of [create] on one path object, in the order in which they get the lock: the first runs the creation, the others find the flag set (AU l.196-214); [r]: how the creation ends *)
Fixpoint creates (completed : bool) (r : result unit) (calls : nat) : list (result unit) :=
  match calls with
  | 0 => []
  | S m => (if completed then Ok tt else r) :: creates true r m
  end.

(** Whether the directories are there after the calls (AU l.207-214) *)
Definition created (r : result unit) (calls : nat) : bool := match calls, r with S _, Ok _ => true | _, _ => false end.
