(** Independent vocabulary for C28. *)
From Coq Require Import ZArith List.
From Verif Require Import Base Limiter_Model.
Import ListNotations.
Local Open Scope Z_scope.

(** The bytes of the coroutines that are in their body. *)
Fixpoint in_flight (l : list task) : Z :=
  match l with
  | [] => 0
  | t :: r => match ph t with Inside => nbytes t | _ => 0 end + in_flight r
  end.

(** The coroutine has left [reserved_bytes] for good. *)
Definition over (t : task) : Prop :=
  ph t = Done \/ ph t = Raised \/ ph t = Rejected \/ ph t = Cancelled.
