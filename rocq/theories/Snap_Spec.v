(** What is meant by the properties of the snapshots. *)
From Coq Require Import List Bool Arith Sorting.Sorted.
From Verif Require Import Base Snap_Model.
Import ListNotations.
Local Open Scope nat_scope.

(** None or one *)
Definition one {A : Type} (o : option A) : list A := match o with Some x => [x] | None => [] end.

(** The last item that was ready *)
Definition newest {S : Type} (l : list (S * nat * ends)) (o : option (S * nat)) : Prop :=
  match o with
  | None => forall i, ~ In (i, Ready) l
  | Some i => exists a b, l = a ++ (i, Ready) :: b /\ forall j, ~ In (j, Ready) b
  end.

(** No load replaces the snapshot *)
Definition no_resets {S : Type} (l : list (event S)) : Prop := forall h, ~ In (ELoaded true h) l.

(** A leaf that can be loaded: another thing, or an array on a mesh with a replica that can be read and a target *)
Definition loadable (alive : nat -> bool) (x : leaf) (a : aleaf) : Prop :=
  match x with
  | LElse _ => True
  | LArr _ _ (Other _) _ => False
  | LArr _ _ (Named n _ _) _ => (exists i, i < n /\ alive i = true) /\ exists s, a = ASpec s
  end.

(** What becomes of a leaf: on the host and at the end. The data are the same if they were replicated, or if all parts can be read *)
Definition loaded (alive : nat -> bool) (x : leaf) (a : aleaf) (h o : leaf) : Prop :=
  match x with
  | LElse _ => h = x /\ o = x
  | LArr _ _ (Other _) _ => False
  | LArr k d (Named n sharded _) _ =>
      exists s d', a = ASpec s /\ h = LArr k d' s Pinned /\ o = LArr k d' s Device /\ (sharded = false -> d' = d) /\ ((forall i, i < n -> alive i = true) -> (exists q, List.length d = n * q) -> d' = d)
  end.
