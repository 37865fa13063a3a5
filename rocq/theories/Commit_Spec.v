(** Independent vocabulary for C31. *)
From Coq Require Import List Bool Arith.
From Verif Require Import Base Commit_Model.
Import ListNotations.

(** A possible history of [n] hosts and the state it leads to.  A save without
    other processes has one host. *)
Definition history (n : nat) (multi : bool) (primary : option nat) (es : list event) (st : state) : Prop :=
  (multi = false -> n = 1) /\ play multi primary (initial n) es = Some st.

(** The checkpoint was committed by host [i]. *)
Definition committed_by (i : nat) (es : list event) : Prop := In (Rename i) es.

Definition times_committed (es : list event) : nat :=
  List.length (filter (fun ev => match ev with Rename _ => true | _ => false end) es).

(** The host whose job the commit is; every host if none is named. *)
Definition in_charge (primary : option nat) (i : nat) : Prop := primary = None \/ primary = Some i.

Definition reports_success (st : state) (i : nat) : Prop := nth_error (phases st) i = Some Finished.
Definition reports_failure (st : state) (i : nat) : Prop := exists e, nth_error (phases st) i = Some (Failed e).

(** Nothing went wrong so far. *)
Definition healthy (st : state) : Prop := forall i, ~ reports_failure st i.
