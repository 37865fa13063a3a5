(** Independent vocabulary for C29. *)
From Coq Require Import ZArith List Bool.
From Verif Require Import Base Batch_Model.
Import ListNotations.
Local Open Scope Z_scope.

(** Device [d] belongs to worker [w]. *)
Fixpoint belongs (workers : list (Z * Z)) (d : Z) : option Z :=
  match workers with
  | [] => None
  | (d', w) :: r => if Z.eq_dec d' d then Some w else belongs r d
  end.

(** Number of shards of the array that are saved (all, or those of one replica)
    on worker [w]. *)
Definition counted (rid : option Z) (workers : list (Z * Z)) (w : Z) (s : Z * Z) : bool :=
  match rid with None => true | Some i => snd s =? i end
  && match belongs workers (fst s) with Some v => v =? w | None => false end.
Definition need (rid : option Z) (workers : list (Z * Z)) (w : Z) (a : array) : Z :=
  shard_bytes a * Z.of_nat (List.length (filter (counted rid workers w) (shards a))).

(** Memory of a batch on a worker. *)
Definition total (rid : option Z) (workers : list (Z * Z)) (w : Z) (b : list array) : Z :=
  fold_right Z.add 0 (map (need rid workers w) b).

(** Every device of every array has a worker. *)
Definition placed (workers : list (Z * Z)) (l : list array) : Prop :=
  forall a s, In a l -> In s (shards a) -> belongs workers (fst s) <> None.

(** The array has a saved shard on the worker. *)
Definition uses (rid : option Z) (workers : list (Z * Z)) (a : array) (w : Z) : Prop :=
  exists s, In s (shards a) /\ counted rid workers w s = true.
