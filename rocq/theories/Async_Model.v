(** Model of the background saves of the asynchronous checkpointer.
    Source: checkpoint/orbax/checkpoint/_src/checkpointers/async_checkpointer.py
    ("ACP").  One caller thread and the background threads it starts; the reads
    and writes of the shared fields are single steps.  Left out: the metadata
    store, the process barrier before a save (ACP l.593-602), what the handler does
    during the blocking part (any outcome), and the effect of cancelling a future
    (the background thread may end in any way). *)
From Coq Require Import List Bool Arith.
From Verif Require Import Base.
Import ListNotations.

(** A background thread (ACP l.231-265): at work; an exception arrived in the
    handler (ACP l.248); it is about to be stored (ACP l.265); dead. *)
Inductive thread : Type :=
| Working
| Raised (e : err)
| Storing (e : err)
| Dead.

(** Fields of the manager (ACP l.213-216); the threads started so far, in order;
    an exception is the object raised by one of them. *)
Record state : Type := mk_state {
  threads : list thread;
  handle : option nat;
  exception : option (nat * err);
  cancel_requested : bool
}.

(** ACP l.188-220 *)
Definition initial : state := mk_state [] None None false.

(** The constructor refuses a timeout that is not positive (ACP l.196-199). *)
Definition make (timeout_secs : nat) : result state := if Nat.leb timeout_secs 0 then Err ValueError else Ok initial.

(** Calls of the user (ACP l.562-673).  [Save]: what the blocking part of the save
    does (ACP l.619-630).  [Close] waits as well (ACP l.669-673). *)
Inductive call : Type := Save (prepared : result unit) | Restore | Wait | Check | Cancel | Close.

(** What a call returns or raises (ACP l.562-673). *)
Inductive reply : Type :=
| Started (i : nat)
| Restored
| Returned
| Refused (e : err)
| Surfaced (i : nat) (e : err).

(** Events: a call runs, or thread [i] does its next step.  [Ends]: the waiting and
    the commit callback (ACP l.239-247) return or raise. *)
Inductive event : Type :=
| Call (c : call) (r : reply)
| Ends (i : nat) (r : result unit)
| Looks (i : nat)
| Stores (i : nat).

(** [self._thread.join()] returns (ACP l.313) *)
Definition joinable (st : state) : bool :=
  match handle st with
  | None => true
  | Some i => match nth_error (threads st) i with Some Dead => true | _ => false end
  end.

(** ACP l.287-298 check_for_errors *)
Definition check_for_errors (st : state) : state * option (nat * err) :=
  match exception st with
  | None => (st, None)
  | Some x =>
      if cancel_requested st
      then (mk_state (threads st) (handle st) None false, None)
      else (mk_state (threads st) (handle st) None (cancel_requested st), Some x)
  end.

(** ACP l.300-331 wait_until_finished, once the join returned *)
Definition wait (st : state) : state * option (nat * err) :=
  check_for_errors (mk_state (threads st) None (exception st) (cancel_requested st)).

(** ACP l.333-356 cancel *)
Definition cancel (st : state) : state :=
  match handle st with
  | None => st
  | Some _ => mk_state (threads st) (handle st) (exception st) true
  end.

(** ACP l.267-285 start_async_commit *)
Definition start_async_commit (st : state) : state :=
  mk_state (threads st ++ [Working]) (Some (List.length (threads st))) (exception st) false.

(** What a call does and returns (ACP l.562-673); None while it blocks. *)
Definition run_call (st : state) (c : call) : option (state * reply) :=
  match c with
  | Cancel => Some (cancel st, Returned)
  | Check => let (st', x) := check_for_errors st in
             Some (st', match x with Some (i, e) => Surfaced i e | None => Returned end)
  | _ =>
      if joinable st then
        let (st', x) := wait st in
        match x with
        | Some (i, e) => Some (st', Surfaced i e)
        | None =>
            match c with
            | Save (Ok _) => Some (start_async_commit st', Started (List.length (threads st')))
            | Save (Err e) => Some (st', Refused e)
            | Restore => Some (st', Restored)
            | _ => Some (st', Returned)
            end
        end
      else None
  end.

(** Thread [i] becomes [t] (ACP l.238-265). *)
Definition put (st : state) (i : nat) (t : thread) : state :=
  mk_state (set_nth i t (threads st)) (handle st) (exception st) (cancel_requested st).

(** [isinstance(e, CancelledError) or self._cancel_requested] (ACP l.250-252) *)
Definition swallowed (e : err) (flag : bool) : bool :=
  match e with CancelledError => true | _ => flag end.

(** Equality of replies, to follow a given trace (ACP l.562-673).  *)
Definition reply_dec : forall a b : reply, {a = b} + {a <> b}.
Proof. decide equality; try apply Nat.eq_dec; decide equality. Defined.

(** One step of the system (ACP l.231-356). *)
Definition step (st : state) (ev : event) : option state :=
  match ev with
  | Call c r =>
      match run_call st c with
      | Some (st', r') => if reply_dec r r' then Some st' else None
      | None => None
      end
  | Ends i (Ok _) => match nth_error (threads st) i with Some Working => Some (put st i Dead) | _ => None end
  | Ends i (Err e) => match nth_error (threads st) i with Some Working => Some (put st i (Raised e)) | _ => None end
  | Looks i =>
      match nth_error (threads st) i with
      | Some (Raised e) => Some (put st i (if swallowed e (cancel_requested st) then Dead else Storing e))
      | _ => None
      end
  | Stores i =>
      match nth_error (threads st) i with
      | Some (Storing e) =>
          Some (mk_state (set_nth i Dead (threads st)) (handle st) (Some (i, e)) (cancel_requested st))
      | _ => None
      end
  end.

(** A run (ACP l.185-356). *)
Fixpoint play (st : state) (es : list event) : option state :=
  match es with
  | [] => Some st
  | ev :: r => match step st ev with Some st' => play st' r | None => None end
  end.
