(** Model of waiting for checkpoints.
    Source: checkpoint/orbax/checkpoint/checkpoint_utils.py ("CU"),
    checkpoint/orbax/checkpoint/_src/path/snapshot/snapshot.py ("SN"),
    checkpoint/orbax/checkpoint/_src/path/step.py ("ST").
    The directory, the clock, the answers of [timeout_fn], failures of copying and what
    the consumer does are given by a function from moments to views; each look at the
    world takes the next moment.  Modelled is process 0, whose result is broadcast
    (CU l.220).  Not modelled: errors while listing or while making the snapshot
    directory, [set_immutable], snapshots made or removed by others, logging. *)
From Coq Require Import List Bool Arith ZArith.
From Verif Require Import Base.
Import ListNotations.
Open Scope Z_scope.

(** What is there at a moment: the directory (CU l.198), the finalized steps in it
    (CU l.203, ST l.812), the steps that the name format finds (CU l.97), the clock
    (CU l.175), the answer of [timeout_fn] (CU l.182), how copying ends (SN l.98) and
    whether a failed copy leaves a directory, whether the consumer stops (CU l.439). *)
Record view : Type := mk_view {
  dir_exists : bool;
  steps : list Z;
  findable : list Z;
  clock : Z;
  answer : bool;
  copy_error : option err;
  leaves_part : bool;
  closes : bool
}.

(** CU l.162-173, l.234-246 *)
Record options : Type := mk_options {
  until_step : option Z;
  seconds_to_sleep : Z;
  timeout : option Z;
  has_timeout_fn : bool;
  ignore_snapshot_errors : bool
}.

(** The snapshots in the snapshot directory; [true]: complete (CU l.113, SN l.86-113) *)
Definition store : Type := list (Z * bool).

(** What was done: for the statements only (CU l.178-218) *)
Inductive event : Type :=
| Missing (moment : nat)
| Listed (moment : nat)
| Asked (moment : nat)
| Slept.

(** Membership (CU l.97-98) *)
Definition has (s : Z) (l : list Z) : bool := existsb (Z.eqb s) l.

(** [snapshot_path.exists()] (CU l.113, SN l.110) *)
Definition in_store (s : Z) (d : store) : bool := existsb (fun x => Z.eqb s (fst x)) d.

(** [max(steps) if steps else None] (CU l.204) *)
Definition newest (l : list Z) : option Z :=
  match l with [] => None | x :: r => Some (fold_left Z.max r x) end.

(** CU l.152-159 *)
Definition reached_desired_step (step until_step : option Z) : bool :=
  match step, until_step with
  | None, _ => false
  | Some _, None => true
  | Some s, Some u => u <=? s
  end.

(** CU l.178-186: (exit, events, next moment) *)
Definition sleep_and_maybe_exit (w : nat -> view) (o : options) (stop_time : option Z) (i : nat) : bool * list event * nat :=
  match stop_time with
  | None => (false, [Slept], i)
  | Some stop =>
    if stop <? clock (w i) + seconds_to_sleep o then
      if negb (has_timeout_fn o) then (true, [], S i)
      else if answer (w (S i)) then (true, [Asked (S i)], S (S i))
      else (false, [Asked (S i); Slept], S (S i))
    else (false, [Slept], S i)
  end.

(** [_manage_snapshot_file_not_found] (CU l.70-80) *)
Definition suppress (ignore : bool) (e : err) : result unit :=
  match e with FileNotFoundError => if ignore then Ok tt else Err e | _ => Err e end.

(** CU l.83-125 on process 0 and SN l.86-102 *)
Definition snapshot_checkpoint (w : nat -> view) (o : options) (i : nat) (d : store) (step : Z) : result bool * store * nat :=
  if negb (has step (findable (w i))) then (Err ValueError, d, S i)
  else if negb (has step (findable (w (S i)))) then (Err ValueError, d, S (S i))
  else if in_store step d then (Ok true, d, S (S i))
  else if negb (has step (findable (w (S (S i))))) then (Err ValueError, d, S (S (S i)))
  else
    let j := S (S (S i)) in
    match copy_error (w j) with
    | None => (Ok true, (step, true) :: d, S j)
    | Some e => (rmap (fun _ => true) (suppress (ignore_snapshot_errors o) e), if leaves_part (w j) then (step, false) :: d else d, S j)
    end.

(** The loop of CU l.195-218.  [None]: still waiting when [fuel] is used up. *)
Fixpoint wait_loop (w : nat -> view) (o : options) (stop_time : option Z) (fuel i : nat) (d : store) (log : list event) : option (result Z * store * list event * nat) :=
  match fuel with
  | O => None
  | S f =>
    let sleep_then (i : nat) (log : list event) :=
      let '(exit, es, j) := sleep_and_maybe_exit w o stop_time i in
      if exit then Some (Ok (-1), d, (log ++ es)%list, j)
      else wait_loop w o stop_time f j d (log ++ es)%list in
    if negb (dir_exists (w i)) then sleep_then (S i) (log ++ [Missing i])%list
    else
      let step := newest (steps (w (S i))) in
      let log' := (log ++ [Listed (S i)])%list in
      match step with
      | Some s =>
        if reached_desired_step step (until_step o) then
          match snapshot_checkpoint w o (S (S i)) d s with
          | (Err e, d', j) => Some (Err e, d', log', j)
          | (Ok false, d', j) => wait_loop w o stop_time f j d' log'
          | (Ok true, d', j) => Some (Ok s, d', log', j)
          end
        else sleep_then (S (S i)) log'
      | None => sleep_then (S (S i)) log'
      end
  end.

(** [np.int32(result)] (CU l.220); numpy refuses what does not fit. *)
Definition int32 (z : Z) : result Z :=
  if (-2147483648 <=? z) && (z <=? 2147483647) then Ok z else Err OtherError.

(** CU l.162-230 *)
Definition wait_for_new_checkpoint (w : nat -> view) (o : options) (fuel i : nat) (d : store) : option (result Z * store * list event * nat) :=
  let stop_time := match timeout o with None => None | Some t => Some (clock (w i) + t) end in
  match wait_loop w o stop_time fuel (S i) d [] with
  | None => None
  | Some (r, d', log, j) => Some (rbind r int32, d', log, j)
  end.

(** CU l.128-149, SN l.108-113 *)
Definition release_snapshot (o : options) (d : store) (step : Z) : result unit * store :=
  if in_store step d then (Ok tt, filter (fun x => negb (Z.eqb step (fst x))) d)
  else (suppress (ignore_snapshot_errors o) FileNotFoundError, d).

(** How the iterator ended (CU l.414-442) *)
Inductive ending : Type :=
| Waiting
| Stopped
| Closed
| Raised (e : err).

(** A yielded step: the step, the moment before which it was listed and the snapshots
    that existed when it was yielded (CU l.439). *)
Record yielded : Type := mk_yielded { y_step : Z; y_log : list event; y_moment : nat; y_store : store }.

(** The loop of CU l.414-442.  [timeout_fn] is called here once more (CU l.431); the wait for
    the minimal interval takes no look at the world. *)
Fixpoint iterate (w : nat -> view) (o : options) (fuel wait_fuel i : nat) (d : store) (checkpoint_step : option Z) : list yielded * ending * store * nat :=
  match fuel with
  | O => ([], Waiting, d, i)
  | S f =>
    let o' := mk_options (option_map (fun s => s + 1) checkpoint_step) (seconds_to_sleep o) (timeout o) (has_timeout_fn o) (ignore_snapshot_errors o) in
    match wait_for_new_checkpoint w o' wait_fuel i d with
    | None => ([], Waiting, d, i)
    | Some (Err e, d', _, j) => ([], Raised e, d', j)
    | Some (Ok s, d', log, j) =>
      if s =? -1 then
        if negb (has_timeout_fn o) then ([], Stopped, d', j)
        else if answer (w j) then ([], Stopped, d', S j)
        else iterate w o f wait_fuel (S j) d' checkpoint_step
      else
        let y := mk_yielded s log j d' in
        let '(released, d2) := release_snapshot o d' s in
        match released with
        | Err e => ([y], Raised e, d2, S j)
        | Ok _ =>
          if closes (w j) then ([y], Closed, d2, S j)
          else
            let '(ys, e, d3, k) := iterate w o f wait_fuel (S j) d2 (Some s) in
            (y :: ys, e, d3, k)
        end
    end
  end.

(** CU l.314-442: leftover snapshots are released first (CU l.402-412). *)
Definition checkpoints_iterator (w : nat -> view) (o : options) (fuel wait_fuel : nat) (d : store) : list yielded * ending * store * nat :=
  iterate w o fuel wait_fuel 0 [] None.
