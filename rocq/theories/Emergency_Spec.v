(** Vocabulary of the statements about the emergency checkpoint manager. *)
From Coq Require Import List Bool Arith ZArith.
From Verif Require Import Base Mesh_Model Mesh_Spec Emergency_Model.
Import ListNotations.

(** A mesh of at least two axes with [n] replicas in which every process has [k] devices, all
    in one replica. *)
Definition even (m : mesh) (axis n k : nat) : Prop :=
  proper m /\ nth_error (shape m) axis = Some n /\ 2 <= length (shape m) /\ 0 < k /\
  (forall p r q, process_in m axis r p -> process_in m axis q p -> r = q) /\
  (forall d, In d (devices m) -> length (filter (fun e => process e =? process d) (devices m)) = k).

(** The processes of the mesh are the numbers below [N]. *)
Definition numbered (m : mesh) (N : nat) : Prop :=
  forall p, p < N <-> exists d, In d (devices m) /\ process d = p.

(** Every process of the replica has the step. *)
Definition complete (m : mesh) (axis : nat) (local_steps : list (list Z)) (r : nat) (step : Z) : Prop :=
  forall p, process_in m axis r p -> exists steps, nth_error local_steps p = Some steps /\ In step steps.

(** The directory of a process has a step at most once. *)
Definition distinct (local_steps : list (list Z)) : Prop := forall steps, In steps local_steps -> NoDup steps.

(** A step that can be restored. *)
Definition available (m : mesh) (axis n : nat) (local_steps : list (list Z)) (persistent_steps : list Z) (step : Z) : Prop :=
  (exists r, r < n /\ complete m axis local_steps r step) \/ In step persistent_steps.

(** The greatest element, if any. *)
Definition greatest (P : Z -> Prop) (o : option Z) : Prop :=
  match o with
  | None => forall s, ~ P s
  | Some l => P l /\ forall s, P s -> (s <= l)%Z
  end.
