(** Model of the limiter of bytes in flight.
    Source: checkpoint/orbax/checkpoint/_src/serialization/limits.py ("LIM").

    Any number of coroutines of one event loop run [async with
    reserved_bytes(limiter, n)].  A coroutine is only interrupted where it awaits;
    the condition's lock is never held across such a point (cv.wait releases it),
    so acquiring it never suspends and each critical section is one step. *)
From Coq Require Import ZArith List Bool.
From Verif Require Import Base.
Import ListNotations.
Local Open Scope Z_scope.

(** Where a coroutine is in [reserved_bytes] (LIM l.100-110). *)
Inductive phase : Type :=
| Start                 (** before wait_for_bytes, LIM l.106 *)
| Waiting               (** suspended in cv.wait, not notified, LIM l.56 *)
| Notified              (** its waiter is done, it will look at the predicate again *)
| Inside                (** in the body, LIM l.108 *)
| Done                  (** left after a body without error *)
| Raised                (** left after a body with an error or cancellation *)
| Rejected              (** ValueError of LIM l.50-54 *)
| Cancelled             (** cancelled before the bytes were reserved *)
| Broken.               (** one of the assertions of LIM l.64, l.75 failed *)

(** A coroutine: the bytes it asks for, and its phase (LIM l.100-104). *)
Record task : Type := mk_task { nbytes : Z; ph : phase }.

(** The limiter and its users (LIM l.40-42). *)
Record state : Type := mk_state { max_bytes : Z; available : Z; tasks : list task }.

(** LIM l.37-42 __init__ *)
Definition limiter (num_bytes : Z) : result Z :=
  if num_bytes <=? 0 then Err ValueError else Ok num_bytes.

(** LIM l.90-97 get_byte_limiter; Ok None is UnlimitedInFlightBytes. *)
Definition get_byte_limiter (concurrent : option Z) : result (option Z) :=
  match concurrent with
  | None => Ok None
  | Some c => if c <=? 0 then Err ValueError else rmap Some (limiter c)
  end.

(** [notify_all] (LIM l.76). *)
Definition notify (t : task) : task :=
  match ph t with Waiting => mk_task (nbytes t) Notified | _ => t end.

(** The predicate and the rest of the critical section (LIM l.56-64). *)
Definition try_reserve (st : state) (i : nat) (t : task) : state :=
  if nbytes t <? available st then
    let a := available st - nbytes t in
    mk_state (max_bytes st) a (set_nth i (mk_task (nbytes t) (if 0 <=? a then Inside else Broken)) (tasks st))
  else mk_state (max_bytes st) (available st) (set_nth i (mk_task (nbytes t) Waiting) (tasks st)).

(** LIM l.66-76 release_bytes, run by the [finally] of LIM l.109-110. *)
Definition release (st : state) (i : nat) (t : task) (after : phase) : state :=
  let a := available st + nbytes t in
  if a <=? max_bytes st
  then mk_state (max_bytes st) a (set_nth i (mk_task (nbytes t) after) (map notify (tasks st)))
  else mk_state (max_bytes st) a (set_nth i (mk_task (nbytes t) Broken) (tasks st)).

(** What the event loop may do (LIM l.106-110): resume coroutine [i]; end its
    body, with an error or not; cancel it. *)
Inductive event : Type := Run (i : nat) | End (i : nat) (ok : bool) | Cancel (i : nat).

(** One step of the event loop (LIM l.48-76, l.100-110); None: not possible now. *)
Definition step (st : state) (e : event) : option state :=
  match e with
  | Run i =>
      match nth_error (tasks st) i with
      | Some t =>
          match ph t with
          | Start => if max_bytes st <=? nbytes t
                     then Some (mk_state (max_bytes st) (available st) (set_nth i (mk_task (nbytes t) Rejected) (tasks st)))
                     else Some (try_reserve st i t)
          | Notified => Some (try_reserve st i t)
          | _ => None
          end
      | None => None
      end
  | End i ok =>
      match nth_error (tasks st) i with
      | Some t => match ph t with
                  | Inside => Some (release st i t (if ok then Done else Raised))
                  | _ => None
                  end
      | None => None
      end
  | Cancel i =>
      match nth_error (tasks st) i with
      | Some t => match ph t with
                  | Start | Waiting | Notified =>
                      Some (mk_state (max_bytes st) (available st) (set_nth i (mk_task (nbytes t) Cancelled) (tasks st)))
                  | _ => None
                  end
      | None => None
      end
  end.

(** A limiter of [m] bytes with the coroutines not yet started (LIM l.37-42). *)
Definition initial (m : Z) (sizes : list Z) : state := mk_state m m (map (fun n => mk_task n Start) sizes).

(** A run (LIM l.100-110): the events one after the other. *)
Fixpoint play (st : state) (es : list event) : option state :=
  match es with
  | [] => Some st
  | e :: r => match step st e with Some st' => play st' r | None => None end
  end.
