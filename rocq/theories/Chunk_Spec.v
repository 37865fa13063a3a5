(** Independent vocabulary for the chunk-shape properties (C22). *)
From Coq Require Import ZArith List.
Import ListNotations.
Local Open Scope Z_scope.

(** The number of elements of a box. *)
Fixpoint volume (s : list Z) : Z :=
  match s with [] => 1 | d :: ds => d * volume ds end.

(** Size of dimension [i] (a dimension that does not exist has size 1). *)
Definition dim (s : list Z) (i : nat) : Z := nth i s 1.

(** What a legal chunk of a shard of shape [w] is: as many dimensions, all of
    them positive, and each an exact divisor of the shard's dimension, where a
    dimension of size zero counts as one. *)
Definition tiles (c w : list Z) : Prop :=
  List.length c = List.length w /\
  forall i, (i < List.length w)%nat -> 1 <= dim c i /\ (dim c i | Z.max 1 (dim w i)).

(** A request that the function may refuse. *)
Definition acceptable (g w : list Z) (itemsize : Z) (target : option Z) (axes : list Z) : Prop :=
  List.length g = List.length w /\
  (forall a, In a axes -> 0 <= a < Z.of_nat (List.length w)) /\
  match target with Some t => itemsize <= t | None => True end.

(** Dimension [i] is named by [axes]. *)
Definition named (axes : list Z) (i : nat) : Prop := In (Z.of_nat i) axes.

(** [e] is the next larger admissible size of a dimension of size [w] that is
    currently [d]. *)
Definition next_size (w d e : Z) : Prop :=
  d < e /\ (e | w) /\ forall x, d < x -> (x | w) -> e <= x.

(** [s] with dimension [i] replaced. *)
Definition with_dim (s : list Z) (i : nat) (e : Z) : list Z :=
  firstn i s ++ e :: skipn (S i) s.
