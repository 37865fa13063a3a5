(** Model of commit futures.
    Source: checkpoint/orbax/checkpoint/_src/futures/future.py ("FU"): the
    signalling thread, the caller that waits for it, one more thread that may cancel
    it, and ChainedFuture.  Reads and writes of shared fields are single steps.
    Cancelling the task inside the event loop (FU l.400-406) only changes how the
    target ends, which is arbitrary here.  The value returned by the target is left
    out. *)
From Coq Require Import List Bool Arith ZArith.
From Verif Require Import Base.
Import ListNotations.

(** What the target may raise: an [Exception] ([CancelledError] being the one of
    concurrent.futures), or one of the classes that [except Exception] does not
    catch (FU l.380): asyncio.CancelledError and SystemExit and the like. *)
Inductive exn : Type := Ordinary (e : err) | AsyncCancelled | Exit.

(** Where [_SignalingThread.run] is (FU l.370-395): at the first check, waiting for
    signals, at the second check, in the target, setting [k] more signals, in the
    handler of an exception, setting [k] more signals there, ended. *)
Inductive thread : Type :=
| Start | Receiving | Ready | Target | Sending (k : nat) | Caught (e : err) | Resending (k : nat) | Dead.

(** The caller of [result] (FU l.408-445): polling, after the loop, before the look
    at [is_alive], before the look at [_exception], returned, raised. *)
Inductive waiter : Type := Polling | Look1 | Look2 | Look3 | Returned | Raised (e : err).

(** Fields of the thread (FU l.300-341), the number of signals set, the waiter. *)
Record state : Type := mk_state {
  th : thread; exc : option err; cancelled : bool; sent : nat; wt : waiter
}.

(** A new future (FU l.493, l.496). *)
Definition initial : state := mk_state Start None false 0 Polling.

(** Steps of the three threads (FU l.370-445). *)
Inductive event : Type :=
| Begin
| Received (r : result unit)
| Proceed
| Ends (r : option exn)
| Signal (r : result unit)
| Handle
| Cancel
| Poll (timed_out : bool)
| Look.

(** The thread after the signals that remain are set (FU l.379, l.385). *)
Definition sending (k : nat) : thread := match k with O => Dead | _ => Sending k end.
(** Likewise in the handler (FU l.385). *)
Definition resending (k : nat) : thread := match k with O => Dead | _ => Resending k end.

(** The thread goes on (FU l.370-395). *)
Definition goto (st : state) (t : thread) : state := mk_state t (exc st) (cancelled st) (sent st) (wt st).
(** The waiter goes on (FU l.408-445). *)
Definition wgoto (st : state) (w : waiter) : state := mk_state (th st) (exc st) (cancelled st) (sent st) w.

(** [isinstance(e, CancelledError)] (FU l.381-383, l.432-434) *)
Definition is_cancel (e : err) : bool := match e with CancelledError => true | _ => false end.

(** Steps of the thread with [n] signals to send (FU l.370-395). *)
Definition thread_step (n : nat) (st : state) (ev : event) : option state :=
  match ev, th st with
  | Begin, Start => Some (goto st (if cancelled st then Dead else Receiving))
  | Received (Ok _), Receiving => Some (goto st Ready)
  | Received (Err e), Receiving => Some (goto st (Caught e))
  | Proceed, Ready => Some (goto st (if cancelled st then Dead else Target))
  | Ends None, Target => Some (goto st (sending n))
  | Ends (Some (Ordinary e)), Target => Some (goto st (Caught e))
  | Ends (Some _), Target => Some (goto st Dead)
  | Signal (Ok _), Sending (S k) => Some (mk_state (sending k) (exc st) (cancelled st) (S (sent st)) (wt st))
  | Signal (Err e), Sending (S k) => Some (goto st (Caught e))
  | Handle, Caught e =>
      if cancelled st || is_cancel e
      then Some (mk_state (resending n) (Some CancelledError) (cancelled st) (sent st) (wt st))
      else Some (mk_state Dead (Some e) (cancelled st) (sent st) (wt st))
  | Signal (Ok _), Resending (S k) => Some (mk_state (resending k) (exc st) (cancelled st) (S (sent st)) (wt st))
  | Signal (Err e), Resending (S k) => Some (goto st Dead)
  | _, _ => None
  end.

(** [is_alive()] (FU l.422, l.436) *)
Definition alive (st : state) : bool := match th st with Dead => false | _ => true end.

(** Steps of the waiter (FU l.408-445). *)
Definition waiter_step (st : state) (ev : event) : option state :=
  match ev, wt st with
  | Poll timed_out, Polling => Some (wgoto st (if negb (alive st) || timed_out then Look1 else Polling))
  | Look, Look1 =>
      Some (wgoto st (if cancelled st || match exc st with Some e => is_cancel e | None => false end
                      then Raised CancelledError else Look2))
  | Look, Look2 => Some (wgoto st (if alive st then Raised TimeoutError else Look3))
  | Look, Look3 => Some (wgoto st (match exc st with Some e => Raised e | None => Returned end))
  | _, _ => None
  end.

(** One step of the three threads (FU l.370-445). *)
Definition step (n : nat) (st : state) (ev : event) : option state :=
  match ev with
  | Cancel => Some (mk_state (th st) (exc st) true (sent st) (wt st))
  | Poll _ | Look => waiter_step st ev
  | _ => thread_step n st ev
  end.

(** A run (FU l.370-445). *)
Fixpoint play (n : nat) (st : state) (es : list event) : option state :=
  match es with
  | [] => Some st
  | ev :: r => match step n st ev with Some st' => play n st' r | None => None end
  end.

(** ** ChainedFuture *)

(** A future: given a timeout and the time, how waiting for it ends and when
    (FU l.163-182). *)
Definition future : Type := option Z -> Z -> result unit * Z.

(** FU l.230-239 get_remaining_time *)
Definition remaining (start now : Z) (timeout : option Z) : result (option Z) :=
  match timeout with
  | None => Ok None
  | Some t => if Z.leb t (now - start) then Err TimeoutError else Ok (Some (t - (now - start))%Z)
  end.

(** FU l.206-213: the loop; ends with the number of futures waited for, the time,
    and the outcome.  A TimeoutError is raised anew as TimeoutError. *)
Fixpoint chain_loop (start : Z) (timeout : option Z) (fs : list future) (now : Z) : nat * Z * result unit :=
  match fs with
  | [] => (0, now, Ok tt)
  | f :: r =>
      match remaining start now timeout with
      | Err e => (0, now, Err e)
      | Ok left_ =>
          match f left_ now with
          | (Err e, now') => (1, now', Err e)
          | (Ok _, now') => let '(k, t, o) := chain_loop start timeout r now' in (S k, t, o)
          end
      end
  end.

(** FU l.202-222 ChainedFuture.result; [cb] is the callback's outcome.  The second
    component tells whether the callback was called. *)
Definition chain_result (timeout : option Z) (fs : list future) (cb : result unit) (now : Z) : result unit * bool :=
  match chain_loop now timeout fs now with
  | (_, _, Ok _) => (cb, true)
  | (_, _, Err e) => (Err e, false)
  end.
