(** Model of the timed reentrant lock and of the list of checkpoint infos it guards.
    Sources: checkpoint/orbax/checkpoint/_src/threading.py ("TH") and
    _src/metadata/checkpoint_info.py ("CI").  The field [_start], which only serves
    the error message, is left out; so are OptionalRef and Ref. *)
From Coq Require Import List Bool Arith.
From Verif Require Import Base.
Import ListNotations.

(** Where a thread is: not in [__enter__], back from [acquire] with its result
    (TH l.55, before the assignment), after the assignment (before the test, TH l.56). *)
Inductive phase : Type := Running | Got (ok : bool) | Assigned.

(** A thread: its phase and how many blocks it is in (TH l.53-67). *)
Record thread : Type := mk_thread { ph : phase; depth : nat }.

(** The RLock (owner and count, the count being at least 1), [self._acquired], the
    threads (TH l.46-51). *)
Record state : Type := mk_state { owner : option (nat * nat); acquired : bool; threads : list thread }.

(** A new lock and [n] threads (TH l.46-51). *)
Definition initial (n : nat) : state := mk_state None false (repeat (mk_thread Running 0) n).

(** What a thread does: [Acquire] is the call at TH l.55, which takes effect when
    the lock is free or its own, and otherwise times out; [Assign] the assignment
    there; [Check] TH l.56-62; [Exit] TH l.64-67. *)
Inductive event : Type := Acquire (t : nat) | Assign (t : nat) | Check (t : nat) | Exit (t : nat).

(** The thread [t] becomes [th] (TH l.53-67). *)
Definition set_thread (st : state) (o : option (nat * nat)) (a : bool) (t : nat) (th : thread) : state :=
  mk_state o a (set_nth t th (threads st)).

(** [RLock.acquire]: the lock afterwards, or None if another thread holds it
    (TH l.55). *)
Definition take (t : nat) (o : option (nat * nat)) : option (nat * nat) :=
  match o with
  | None => Some (t, 1)
  | Some (u, c) => if Nat.eqb t u then Some (t, S c) else None
  end.

(** [RLock.release] (TH l.66): raises and changes nothing when the caller is not the
    owner. *)
Definition release (t : nat) (o : option (nat * nat)) : option (nat * nat) :=
  match o with
  | None => None
  | Some (u, c) => if Nat.eqb t u then match c with S (S c') => Some (u, S c') | _ => None end else o
  end.

(** One step (TH l.53-67). *)
Definition step (st : state) (e : event) : option state :=
  match e with
  | Acquire t =>
      match nth_error (threads st) t with
      | Some (mk_thread Running d) =>
          match take t (owner st) with
          | Some o => Some (set_thread st (Some o) (acquired st) t (mk_thread (Got true) d))
          | None => Some (set_thread st (owner st) (acquired st) t (mk_thread (Got false) d))
          end
      | _ => None
      end
  | Assign t =>
      match nth_error (threads st) t with
      | Some (mk_thread (Got ok) d) => Some (set_thread st (owner st) ok t (mk_thread Assigned d))
      | _ => None
      end
  | Check t =>
      match nth_error (threads st) t with
      | Some (mk_thread Assigned d) =>
          Some (set_thread st (owner st) (acquired st) t (mk_thread Running (if acquired st then S d else d)))
      | _ => None
      end
  | Exit t =>
      match nth_error (threads st) t with
      | Some (mk_thread Running (S d)) =>
          Some (set_thread st (if acquired st then release t (owner st) else owner st) (acquired st) t (mk_thread Running d))
      | _ => None
      end
  end.

(** A run (TH l.53-67). *)
Fixpoint play (st : state) (es : list event) : option state :=
  match es with
  | [] => Some st
  | e :: r => match step st e with Some st' => play st' r | None => None end
  end.

(** ** The list of checkpoint infos *)

Section Infos.
Variable info : Type.

(** A thread in [delete_if] with its predicate: in the loop at an index, with what
    it keeps (CI l.126-132), or after the loop (CI l.133). *)
Inductive deletion : Type :=
| Looping (i : nat) (kept : list info) (select : info -> bool)
| Replacing (kept : list info) (select : info -> bool).

(** The list and the thread in [delete_if], if there is one (CI l.81-85, l.123-133). *)
Record infos : Type := mk_infos { list_of : list info; deleting : option deletion }.

(** What threads do: [append], which takes no lock (CI l.138-140), [set] (CI l.87-96),
    the beginning of [delete_if], one turn of its loop or finding the end of the
    list, its last lines (CI l.123-133). *)
Inductive infos_event : Type :=
| Append (x : info)
| Set_ (l : list info)
| DeleteBegin (select : info -> bool)
| DeleteNext
| DeleteEnd.

(** One step, with a lock that works: [set] and another [delete_if] wait for the one
    that is running (CI l.87-140).  The loop sees what is appended before it ends. *)
Definition infos_step (s : infos) (e : infos_event) : option infos :=
  match e, deleting s with
  | Append x, d => Some (mk_infos (list_of s ++ [x]) d)
  | Set_ l, None => Some (mk_infos l None)
  | DeleteBegin f, None => Some (mk_infos (list_of s) (Some (Looping 0 [] f)))
  | DeleteNext, Some (Looping i kept f) =>
      match nth_error (list_of s) i with
      | Some x => Some (mk_infos (list_of s) (Some (Looping (S i) (if f x then kept else kept ++ [x]) f)))
      | None => Some (mk_infos (list_of s) (Some (Replacing kept f)))
      end
  | DeleteEnd, Some (Replacing kept f) => Some (mk_infos kept None)
  | _, _ => None
  end.

(** A run (CI l.87-140). *)
Fixpoint infos_play (s : infos) (es : list infos_event) : option infos :=
  match es with
  | [] => Some s
  | e :: r => match infos_step s e with Some s' => infos_play s' r | None => None end
  end.

End Infos.
