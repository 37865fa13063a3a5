(** Model of the background threads of one asynchronous save on all hosts.
    Source: checkpoint/orbax/checkpoint/_src/checkpointers/async_checkpointer.py
    ("ACP") and _src/multihost/multihost.py ("MH").  The hosts that take part (the
    active processes) are numbered 0, 1, ...; a primary host that does not take
    part has a number beyond.  Assumed of the barriers of the coordination service
    (MH l.299-327): a barrier opens when all participants wait at it, and a
    participant may give up at any time.  [multi] is [process_count > 1]. *)
From Coq Require Import List Bool Arith.
From Verif Require Import Base.
Import ListNotations.

(** Where the thread of a host is in ACP l.62-173: waiting for its own writes
    (l.86); at the first barrier (l.119); after it; in the commit callback before
    and after the rename (l.136, l.486); at the second barrier (l.143); returned;
    raised. *)
Inductive phase : Type :=
| Writing | AtWrite | Written | Calling | Renamed | AtCommit | Finished | Failed (e : err).

(** Phases of the hosts and the barriers that are open (ACP l.112-157). *)
Record state : Type := mk_state { phases : list phase; write_open : bool; commit_open : bool }.

(** All hosts start to wait for their writes (ACP l.83-88). *)
Definition initial (n : nat) : state := mk_state (repeat Writing n) false false.

(** MH l.463-466 is_primary_host *)
Definition is_primary (primary : option nat) (i : nat) : bool :=
  match primary with None => true | Some p => Nat.eqb p i end.

(** Steps (ACP l.62-173): the writes of a host end; a barrier opens; a host passes
    a barrier; it enters the callback or skips it; the rename; the callback ends or
    raises; a host times out at a barrier (l.127-133, l.151-157, also by
    get_remaining_time). *)
Inductive event : Type :=
| Writes (i : nat) (r : result unit)
| OpenWrite
| PassWrite (i : nat)
| Callback (i : nat)
| Rename (i : nat)
| CallbackEnds (i : nat) (r : result unit)
| OpenCommit
| PassCommit (i : nat)
| TimesOut (i : nat).

(** Everyone waits at the barrier (MH l.308-318). *)
Definition all_at_write (l : list phase) : bool := forallb (fun p => match p with AtWrite => true | _ => false end) l.
(** Everyone waits at the barrier (MH l.308-318). *)
Definition all_at_commit (l : list phase) : bool := forallb (fun p => match p with AtCommit => true | _ => false end) l.

(** Host [i] moves on (ACP l.62-173). *)
Definition goto (st : state) (i : nat) (p : phase) : state :=
  mk_state (set_nth i p (phases st)) (write_open st) (commit_open st).

(** ACP l.112, l.137: without other processes there are no barriers. *)
Definition after_writes (multi : bool) : phase := if multi then AtWrite else Written.
(** ACP l.137 *)
Definition after_callback (multi : bool) : phase := if multi then AtCommit else Finished.

(** One step of ACP l.62-173 on one host. *)
Definition step (multi : bool) (primary : option nat) (st : state) (ev : event) : option state :=
  match ev with
  | Writes i r =>
      match nth_error (phases st) i with
      | Some Writing => Some (goto st i (match r with Ok _ => after_writes multi | Err e => Failed e end))
      | _ => None
      end
  | OpenWrite =>
      if multi && all_at_write (phases st) then Some (mk_state (phases st) true (commit_open st)) else None
  | PassWrite i =>
      match nth_error (phases st) i with
      | Some AtWrite => if write_open st then Some (goto st i Written) else None
      | _ => None
      end
  | Callback i =>
      match nth_error (phases st) i with
      | Some Written => Some (goto st i (if is_primary primary i then Calling else after_callback multi))
      | _ => None
      end
  | Rename i =>
      match nth_error (phases st) i with
      | Some Calling => Some (goto st i Renamed)
      | _ => None
      end
  | CallbackEnds i (Ok _) =>
      match nth_error (phases st) i with
      | Some Renamed => Some (goto st i (after_callback multi))
      | _ => None
      end
  | CallbackEnds i (Err e) =>
      match nth_error (phases st) i with
      | Some Calling | Some Renamed => Some (goto st i (Failed e))
      | _ => None
      end
  | OpenCommit =>
      if multi && all_at_commit (phases st) then Some (mk_state (phases st) (write_open st) true) else None
  | PassCommit i =>
      match nth_error (phases st) i with
      | Some AtCommit => if commit_open st then Some (goto st i Finished) else None
      | _ => None
      end
  | TimesOut i =>
      match nth_error (phases st) i with
      | Some AtWrite | Some AtCommit => Some (goto st i (Failed TimeoutError))
      | _ => None
      end
  end.

(** A run of ACP l.62-173 on all hosts. *)
Fixpoint play (multi : bool) (primary : option nat) (st : state) (es : list event) : option state :=
  match es with
  | [] => Some st
  | ev :: r => match step multi primary st ev with Some st' => play multi primary st' r | None => None end
  end.
