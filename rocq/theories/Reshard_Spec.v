(** Independent vocabulary for C27. *)
From Coq Require Import ZArith List.
From Verif Require Import Base Nd_Model Fragment_Model Fragment_Spec Slice_Model Replica_Spec Reshard_Model.
Import ListNotations.
Local Open Scope Z_scope.

(** [v] is what a restore has to give for the global coordinate [p]: the stored
    element, or the zero outside the stored array. *)
Definition expected {V : Type} (zero : V) (a : arr V) (p : list Z) (v : V) : Prop :=
  (inside (ashape a) p -> v = aget a p) /\ (~ inside (ashape a) p -> v = zero).

Definition casted {V : Type} (cast : option (V -> V)) (v : V) : V :=
  match cast with None => v | Some f => f v end.

(** The index of a shard as jax gives it: no steps, inside the shape. *)
Definition proper (shape : list Z) (idx : list pslice) : Prop :=
  Forall2 (fun p n => ps_step p = None /\ 0 <= sl_start (range_of p n) /\
                      sl_start (range_of p n) <= sl_stop (range_of p n) /\ sl_stop (range_of p n) <= n) idx shape.

(** A sharding of an array of the given shape into boxes of extents [d]. *)
Definition shards_into (shape d : list Z) (sg : sharding) : Prop :=
  NoDup (map fst (sg_indices sg)) /\
  forall dev i, In (dev, i) (sg_indices sg) -> proper shape i /\ map extent (box shape i) = d.

(** The devices of this process. *)
Definition addressable (sg : sharding) (dev : Z) : Prop := In dev (map fst (sg_indices sg)) /\ In dev (sg_local sg).

(** [x] is in the same chunk of a dimension (chunks of size [cs] from [co]) as
    some element of [lo, hi). *)
Definition touched (co cs lo hi x : Z) : Prop :=
  exists y k, lo <= y < hi /\ co + k * cs <= x < co + (k + 1) * cs /\ co + k * cs <= y < co + (k + 1) * cs.
