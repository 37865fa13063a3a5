(** What the topology of workers and the agreement on steps ought to be (C71) *)
From Coq Require Import List Bool Arith ZArith Sorted Permutation.
From Verif Require Import Base Topology_Model.
Import ListNotations.

(** The worker of a device *)
Definition belongs (d : device) (k : wkey) : Prop :=
  (exists t s, d_task d = Some t /\ d_slice d = Some s /\ k = [t; s]) \/ (exists t, d_task d = Some t /\ d_slice d = None /\ k = [t]).

(** A device of which the task is known *)
Definition known (d : device) : Prop := exists t, d_task d = Some t.

(** The order of tuples *)
Inductive tuple_lt : list nat -> list nat -> Prop :=
| LtShort : forall x l, tuple_lt [] (x :: l)
| LtHead : forall x y a b, x < y -> tuple_lt (x :: a) (y :: b)
| LtTail : forall x a b, tuple_lt a b -> tuple_lt (x :: a) (x :: b).

(** The place of a worker: first the slice, then the task *)
Inductive place : wkey -> list nat -> Prop :=
| PlacePair : forall t s, place [t; s] [s; t]
| PlaceOne : forall t, place [t] [t].

(** [a] comes before [b]. *)
Definition before (a b : wkey) : Prop := exists p q, place a p /\ place b q /\ tuple_lt p q.

(** The devices of the worker [k], in the order given *)
Inductive members (k : wkey) : list device -> list device -> Prop :=
| MNil : members k [] []
| MIn : forall d l m, belongs d k -> members k l m -> members k (d :: l) (d :: m)
| MOut : forall d l m, ~ belongs d k -> members k l m -> members k (d :: l) m.

(** [y] is [x] in ascending order. *)
Definition ascending (x y : list nat) : Prop := Permutation x y /\ Sorted le y.

(** The workers of the devices [ds]: each has as its rank its position, and the ids of its devices in ascending order; no worker is without
    devices, no device is without a worker, and the workers are in order. *)
Definition topology (ds : list device) (ws : list worker) : Prop :=
  (forall i w, nth_error ws i = Some w ->
     w_rank w = i /\ exists ms, members (w_key w) ds ms /\ ms <> [] /\ ascending (map d_id ms) (w_device_ids w) /\ w_representative w = hd_error ms) /\
  (forall d, In d ds -> exists w, In w ws /\ belongs d (w_key w)) /\
  StronglySorted before (map w_key ws).

(** [i] is renamed to [j]. *)
Definition renamed (source target : list nat) (i j : nat) : Prop := exists p, nth_error source p = Some i /\ nth_error target p = Some j.

(** The keys are those of all tasks [ts] in all slices [ss]. *)
Definition grid (ts ss : list nat) (ks : list wkey) : Prop := forall k, In k ks <-> exists t s, k = [t; s] /\ In t ts /\ In s ss.

(** [s] can be seen among the steps of a worker: it is one of its 128 greatest. *)
Definition visible (steps : list Z) (s : Z) : Prop := In s steps /\ s <> 0%Z /\ length (filter (fun x => (s <? x)%Z) steps) < 128.

(** [s] is the greatest step with [P]. *)
Definition greatest (P : Z -> Prop) (s : Z) : Prop := P s /\ forall s', P s' -> (s' <= s)%Z.

(** What is done by all of the operations, one after the other *)
Inductive runs {S : Type} : list (S -> S * result unit) -> S -> S -> list (result unit) -> Prop :=
| RunNil : forall s, runs [] s s []
| RunCons : forall op ops s s1 s2 o os, op s = (s1, o) -> runs ops s1 s2 os -> runs (op :: ops) s s2 (o :: os).

(** The peers of rank [i] among [n] slices with [m] tasks each: the ranks at the same place of the other slices, in ascending order *)
Definition same_task_ranks (m n i : nat) : list nat := filter (fun j => negb (j =? i)) (map (fun q => q * m + i mod m) (seq 0 n)).

(** A worker after it was given a step: if its manager saves it, it has it. *)
Definition after_save (w : side) (step : Z) (force : bool) : side := if s_saves w step force then mkSide (step :: s_steps w) (s_wants w) (s_saves w) else w.
