(** What is meant by the properties of the dispatch of functions to workers. *)
From Coq Require Import List Bool Arith NArith String Sorting.Sorted.
From Verif Require Import Base Colocated_Model Colocated_Spec Dispatch_Model.
Import ListNotations.
Local Open Scope nat_scope.

(** These devices, each once, by id *)
Definition arranged (S : dev -> Prop) (l : list dev) : Prop := StronglySorted (fun a b => (d_id a <= d_id b)%N) l /\ NoDup l /\ forall d, In d l <-> S d.

(** A device of a sharding *)
Definition on (other : nat -> list dev) (s : sharding) (d : dev) : Prop := match s with SSingle x _ => d = x | SNamed m _ _ => In d (m_devices m) | SOther n => In d (other n) end.

(** A device of one of the specs *)
Definition on_specs (other : nat -> list dev) (t : tree (option sharding)) (d : dev) : Prop := exists s, In (Some s) (leaves t) /\ on other s d.

(** A device of one of the arrays *)
Definition on_arrays (other : nat -> list dev) (t : tree arr) (d : dev) : Prop := exists a, In a (leaves t) /\ on other (a_sh a) d.

(** The array holds one value everywhere on a list of devices *)
Definition replica (a : arr) (l : list dev) : Prop := exists m, a_sh a = SNamed m [] None /\ m_devices m = l /\ m_shape m = [List.length l] /\ a_val a = 1.

(** An array beside another, on the CPU devices *)
Definition beside_arr (colo : dev -> dev) (a b : arr) : Prop := a_val b = a_val a /\ cpu_sharding colo (a_sh a) = Ok (a_sh b).

(** The same structure, and related leaves *)
Definition alike_trees {A B : Type} (R : A -> B -> Prop) (t : tree A) (u : tree B) : Prop := match t, u with One x, One y => R x y | Many l, Many m => Forall2 R l m | _, _ => False end.
