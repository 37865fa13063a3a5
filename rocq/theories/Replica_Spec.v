(** Independent vocabulary for C26: a sharded, replicated array. *)
From Coq Require Import ZArith List Permutation.
From Verif Require Import Base Nd_Model Fragment_Model Fragment_Spec Slice_Model Replica_Model.
Import ListNotations.
Local Open Scope Z_scope.

(** The box of a shard: one unit-step range per dimension, None meaning the bound
    of the dimension. *)
Definition range_of (s : pslice) (n : Z) : sl :=
  mk_sl (match ps_start s with Some a => a | None => 0 end)
        (match ps_stop s with Some b => b | None => n end) 1.
Definition box (shape : list Z) (idx : list pslice) : list sl := map2 range_of idx shape.

(** [0; 1; ...; n-1] *)
Definition zseq (n : Z) : list Z := map Z.of_nat (seq 0 (Z.to_nat n)).

Definition box_eqb (a b : list sl) : bool :=
  shape_eqb (map sl_start a) (map sl_start b) && shape_eqb (map sl_stop a) (map sl_stop b).

(** What jax guarantees of an array of the given global shape and contents whose
    shards (over all processes) are [all] and which is replicated [R] times:
    boxes inside the shape, all of the same size [d], with the data of the
    array; boxes equal or disjoint, together everything; and the replicas of a
    box numbered 0 to R-1. *)
Record sharded {V : Type} (shape : list Z) (G : list Z -> V) (R : Z) (d : list Z) (all : list (shard V)) : Prop := {
  sd_replicas : 1 <= R;
  sd_index : forall s, In s all ->
    Forall2 (fun p n => ps_step p = None /\ 0 <= sl_start (range_of p n) /\
                        sl_start (range_of p n) <= sl_stop (range_of p n) /\ sl_stop (range_of p n) <= n)
            (sh_index s) shape;
  sd_shape : forall s, In s all -> map extent (box shape (sh_index s)) = d /\ ashape (sh_data s) = d;
  sd_data : forall s ks, In s all -> inside d ks ->
    aget (sh_data s) ks = G (point (box shape (sh_index s)) ks);
  sd_cover : forall c, inside shape c -> exists s, In s all /\ covers (box shape (sh_index s)) c;
  sd_apart : forall s t c, In s all -> In t all ->
    covers (box shape (sh_index s)) c -> covers (box shape (sh_index t)) c ->
    box shape (sh_index s) = box shape (sh_index t);
  sd_numbered : forall s, In s all ->
    Permutation (map sh_replica (filter (fun t => box_eqb (box shape (sh_index t)) (box shape (sh_index s))) all)) (zseq R) }.

(** Exactly one element of the list has the property. *)
Definition just_one {A : Type} (P : A -> Prop) (l : list A) : Prop :=
  exists l1 x l2, l = l1 ++ x :: l2 /\ P x /\ forall y, In y (l1 ++ l2) -> ~ P y.

(** The number of elements of a box of the given extents, and of a fragment. *)
Definition elements (l : list Z) : Z := fold_right Z.mul 1 l.
Definition volume {V : Type} (f : frag V) : Z := elements (map extent (f_index f)).
