(** Independent vocabulary for C30: what a trace says. *)
From Coq Require Import List Bool Arith.
From Verif Require Import Base Async_Model.
Import ListNotations.

(** The trace can happen, from a new checkpointer. *)
Definition possible (es : list event) : Prop := play initial es <> None.

(** Calls that wait for the background save. *)
Definition waits (c : call) : Prop := match c with Save _ | Restore | Wait | Close => True | Check | Cancel => False end.

(** No save starts in this part of the trace. *)
Definition no_start (es : list event) : Prop := forall c i, ~ In (Call c (Started i)) es.
(** No call raises a background error in this part of the trace. *)
Definition no_surfacing (es : list event) : Prop := forall c i e, ~ In (Call c (Surfaced i e)) es.
Definition no_cancel (es : list event) : Prop := forall r, ~ In (Call Cancel r) es.

(** [cancel] was called on save [i]: after its start and before the next one's. *)
Definition cancelled (i : nat) (es : list event) : Prop :=
  exists a c b d, es = a ++ Call c (Started i) :: b ++ Call Cancel Returned :: d /\ no_start b.

(** How often an error of save [i] was raised. *)
Fixpoint surfacings (i : nat) (es : list event) : nat :=
  match es with
  | [] => 0
  | Call _ (Surfaced j _) :: r => (if Nat.eqb i j then 1 else 0) + surfacings i r
  | _ :: r => surfacings i r
  end.

(** Save [i] was started; its thread ended its work. *)
Definition was_started (i : nat) (es : list event) : Prop := exists c, In (Call c (Started i)) es.
Definition ended (i : nat) (es : list event) : Prop := exists r, In (Ends i r) es.
