(** What the handoff of saves ought to do (C72) *)
From Coq Require Import List Bool Arith.
From Verif Require Import Base Handoff_Model.
Import ListNotations.

(** The states that [n] callers can get to with steps of which each is [ok] *)
Inductive reach (ok : action -> Prop) (n : nat) : state -> Prop :=
| ReachInit : reach ok n (initial n)
| ReachStep : forall s x s' es, reach ok n s -> ok x -> step s x = Some (s', es) -> reach ok n s'.

(** The states that come later *)
Inductive later (ok : action -> Prop) (s : state) : state -> Prop :=
| LaterRefl : later ok s s
| LaterStep : forall s1 x s2 es, later ok s s1 -> ok x -> step s1 x = Some (s2, es) -> later ok s s2.

(** Any step at all *)
Definition any (x : action) : Prop := True.

(** Only the first caller saves. *)
Definition one_saver (x : action) : Prop := match x with ABegin c (CSave _ _ _) => c = 0 | _ => True end.

(** A step that does not begin a call *)
Definition ongoing (x : action) : Prop := match x with ABegin _ _ => False | _ => True end.

(** Save [i] is as [P] says. *)
Definition save_is (s : state) (i : nat) (P : record -> Prop) : Prop := exists r, nth_error (recs s) i = Some r /\ P r.

(** How often the dataset is to have been saved for a save with the answer [b] *)
Definition times (dataset b : bool) : nat := if dataset && b then 1 else 0.

(** The workers have answered, and the thread has said so. *)
Definition answered (r : record) : Prop := r_thread r = TExit \/ r_thread r = TEnd.

(** The caller is in a call. *)
Definition busy (s : state) (c : nat) : Prop := exists q, nth_error (callers s) c = Some q /\ q <> Idle.

(** The caller is within a drain that does not wait. *)
Definition impatient (q : pc) : bool :=
  match q with
  | DrainRead w => negb w
  | Acquire _ (ForDrain w) | SavedCheck _ (ForDrain w) | Join _ (ForDrain w) | Done _ (ForDrain w) | Persist _ (ForDrain w) | SetSaved _ _ (ForDrain w) => negb w
  | _ => false
  end.

(** What a caller that is told [out] about the save [r] may conclude *)
Definition means (r : record) (impatient : bool) (out : result (option bool)) : Prop :=
  match out with
  | Ok (Some true) => r_fate r = Ok true /\ r_saved r = Some true /\ r_persisted r = times (r_dataset r) true
  | Ok (Some false) => impatient = true \/ (r_fate r = Ok false /\ r_saved r = Some false /\ r_persisted r = 0)
  | Ok None => True
  | Err e => (r_fate r = Err e /\ answered r) \/ (e = RuntimeError /\ r_thread r = TNew) \/ (e = OtherError /\ r_fate r = Ok true)
  end.
