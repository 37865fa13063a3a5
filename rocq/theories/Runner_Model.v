(** Model of the helpers for coroutines: a runner with an event loop in its own thread, running a coroutine to its end, and logging of cancellations.
    Source: checkpoint/orbax/checkpoint/_src/asyncio_utils.py ("AU").
    Of asyncio are modelled: callbacks of other threads run in the order in which they were scheduled; [run_coroutine_threadsafe] makes its task in such a callback, and the first step of the task comes later; [stop] ends the loop some time after its callback ran,
    and nothing runs on a loop that has ended. Tasks run in any order, may start other tasks, and end at any time or never, also when they were asked to cancel.
    Simplifications: each call on the runner is atomic (the class is not meant for calls from many threads, AU l.132-136). Not modelled: results of tasks, the start of the thread (AU l.142-156), logging. *)
From Coq Require Import List Bool Arith.
From Verif Require Import Base.
Import ListNotations.
Local Open Scope nat_scope.

(** ** The runner *)

(** A callback that waits for the loop: make the task of a coroutine, make the task of the shutdown, stop (AU l.172, l.215, l.222, l.227) *)
Inductive cb : Type := CCreate (i : nat) | CShut | CStop.

(** How far the task of the shutdown is: not made, made, waiting for tasks, at its end (AU l.189-212) *)
Inductive phase : Type := Idle | Made | Gathering (l : list nat) | Gathered.

(** Where the call of shutdown is: none, waiting for its task, waiting for the thread, at its end (AU l.214-228) *)
Inductive place : Type := NotCalled | AwaitTask | AwaitThread | Returned.

(** The runner: callbacks, tasks that run, tasks at their end, coroutines that were taken, tasks asked to cancel, the flag, the arguments of shutdown, whether the loop is to stop and whether it runs (AU l.142-149, l.174) *)
Record runner : Type := mkRunner { queue : list cb; pending : list nat; finished : list nat; taken : list nat; asked : list nat; closed : bool; waits : bool; cancels : bool; shut : phase; main : place; stopping : bool; running : bool }.

(** A new runner (AU l.142-149) *)
Definition new : runner := mkRunner [] [] [] [] [] false false false Idle NotCalled false true.

(** Is it among them (AU l.192) *)
Definition mem (i : nat) (l : list nat) : bool := existsb (Nat.eqb i) l.

(** Whether a name is new (AU l.172) *)
Definition fresh (i : nat) (s : runner) : bool := negb (mem i (taken s) || mem i (pending s) || mem i (finished s)).

(** [run_coroutine] (AU l.158-172) *)
Definition run_coroutine (s : runner) (i : nat) : result runner :=
  if closed s then Err RuntimeError
  else Ok (mkRunner (queue s ++ [CCreate i]) (pending s) (finished s) (taken s ++ [i]) (asked s) (closed s) (waits s) (cancels s) (shut s) (main s) (stopping s) (running s)).

(** The call of [shutdown], up to its first wait (AU l.174-187, l.214-219, l.225-228) *)
Definition shutdown (s : runner) (wait cancel : bool) : runner :=
  if closed s then s
  else mkRunner (queue s ++ CShut :: (if wait then [] else [CStop])) (pending s) (finished s) (taken s) (asked s) true wait cancel (shut s) (if wait then AwaitTask else Returned) (stopping s) (running s).

(** What may happen (AU l.158-228) *)
Inductive event : Type := ESubmit (i : nat) | EShutdown (wait cancel : bool) | ECallback | ECapture | ESpawn (parent child : nat) | EFinish (i : nat) | EGathered | EStop | EExit | EReturn.

(** One event, if it can happen (AU l.158-228) *)
Definition step (s : runner) (e : event) : option runner :=
  match e with
  | ESubmit i => if fresh i s then match run_coroutine s i with Ok s' => Some s' | Err _ => Some s end else None
  | EShutdown w c => Some (shutdown s w c)
  | ECallback =>
      if running s then
        match queue s with
        | [] => None
        | CCreate i :: q => Some (mkRunner q (pending s ++ [i]) (finished s) (taken s) (asked s) (closed s) (waits s) (cancels s) (shut s) (main s) (stopping s) (running s))
        | CShut :: q => Some (mkRunner q (pending s) (finished s) (taken s) (asked s) (closed s) (waits s) (cancels s) Made (main s) (stopping s) (running s))
        | CStop :: q => Some (mkRunner q (pending s) (finished s) (taken s) (asked s) (closed s) (waits s) (cancels s) (shut s) (main s) true (running s))
        end
      else None
  | ECapture =>
      if running s then
        match shut s with
        | Made => Some (mkRunner (queue s) (pending s) (finished s) (taken s) (if cancels s then pending s else []) (closed s) (waits s) (cancels s) (Gathering (pending s)) (main s) (stopping s) (running s))
        | _ => None
        end
      else None
  | ESpawn p c =>
      if running s && mem p (pending s) && fresh c s
      then Some (mkRunner (queue s) (pending s ++ [c]) (finished s) (taken s) (asked s) (closed s) (waits s) (cancels s) (shut s) (main s) (stopping s) (running s))
      else None
  | EFinish i =>
      if running s && mem i (pending s)
      then Some (mkRunner (queue s) (filter (fun j => negb (Nat.eqb i j)) (pending s)) (i :: finished s) (taken s) (asked s) (closed s) (waits s) (cancels s) (shut s) (main s) (stopping s) (running s))
      else None
  | EGathered =>
      if running s then
        match shut s with
        | Gathering l => if forallb (fun i => mem i (finished s)) l then Some (mkRunner (queue s) (pending s) (finished s) (taken s) (asked s) (closed s) (waits s) (cancels s) Gathered (main s) (stopping s) (running s)) else None
        | _ => None
        end
      else None
  | EStop =>
      match main s, shut s with
      | AwaitTask, Gathered => Some (mkRunner (queue s ++ [CStop]) (pending s) (finished s) (taken s) (asked s) (closed s) (waits s) (cancels s) (shut s) AwaitThread (stopping s) (running s))
      | _, _ => None
      end
  | EExit => if running s && stopping s then Some (mkRunner (queue s) (pending s) (finished s) (taken s) (asked s) (closed s) (waits s) (cancels s) (shut s) (main s) (stopping s) false) else None
  | EReturn =>
      match main s with
      | AwaitThread => if running s then None else Some (mkRunner (queue s) (pending s) (finished s) (taken s) (asked s) (closed s) (waits s) (cancels s) (shut s) Returned (stopping s) (running s))
      | _ => None
      end
  end.

(** Many events (AU l.158-228) *)
Fixpoint exec (s : runner) (l : list event) : option runner := match l with [] => Some s | e :: l' => match step s e with Some s' => exec s' l' | None => None end end.

(** ** Running a coroutine to its end *)

(** A coroutine: at its end, looking whether its own task is the one that its thread holds for cancellation, or running another coroutine by [run_sync] first (AU l.86-96) *)
Inductive co : Type := CEnd (r : result nat) | CLook (k : co) | CNest (inner k : co).

(** What is installed: uvloop, which runs nested coroutines in a new thread, or nest_asyncio, which runs them in the same, or neither (AU l.24-32, l.103-112) *)
Inductive nesting : Type := Uvloop | NestAsyncio | Neither.

(** The body of [_coro_with_registration] after the registration: [me] is the task, [held] the task of the thread; what was seen, the result, the task held at the end. A nested run registers its own task and deletes the registration at its end (AU l.86-96, l.101-123) *)
Fixpoint body (n : nesting) (c : co) (me : nat) (held : option nat) : list bool * result nat * option nat :=
  match c with
  | CEnd r => ([], r, held)
  | CLook k => match body n k me held with (l, r, h) => ((match held with Some t => Nat.eqb t me | None => false end) :: l, r, h) end
  | CNest inner k =>
      match n with
      | Neither => ([], Err RuntimeError, held)
      | Uvloop =>
          match body n inner (S me) (Some (S me)) with
          | (l, Ok _, _) => match body n k me held with (l', r, h) => (l ++ l', r, h) end
          | (l, Err e, _) => (l, Err e, held)
          end
      | NestAsyncio =>
          match body n inner (S me) (Some (S me)) with
          | (l, Ok _, _) => match body n k me None with (l', r, h) => (l ++ l', r, h) end
          | (l, Err e, _) => (l, Err e, None)
          end
      end
  end.

(** [run_sync] without a running loop: what was seen, the result, the task that the thread holds then (AU l.78-100) *)
Definition run_sync (n : nesting) (c : co) : list bool * result nat * option nat := match body n c 0 (Some 0) with (l, r, _) => (l, r, None) end.

(** ** Cancellations *)

(** How an awaitable ends (AU l.55-57) *)
Inductive outcome : Type := OValue (v : option nat) | OCancelled | OError (e : err).

(** [cancellable]: how it ends, whether the awaitable was asked to cancel, and whether there was a log line (AU l.37-69) *)
Definition cancellable (o : outcome) (can_cancel message reraise : bool) : outcome * bool * bool :=
  match o with
  | OCancelled => (if reraise then OCancelled else OValue None, can_cancel, message)
  | _ => (o, false, false)
  end.
