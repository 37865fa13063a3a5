(** Vocabulary of the statements about the memory regulator. *)
From Coq Require Import List Bool ZArith QArith.
From Verif Require Import Base MemReg_Model.
Import ListNotations.
Open Scope Q_scope.

(** [y] is the number between [low] and [high] that is nearest to [x]. *)
Definition nearest (low high x y : Q) : Prop := (x <= low /\ y == low) \/ (low <= x <= high /\ y == x) \/ (high <= x /\ y == high).

Definition within (c : config) (x : Q) : Prop := min_memory_limit_gib c <= x <= max_memory_limit_gib c.

(** How far the usage is over the memory that there is. *)
Definition overflow (m : measurement) : Q := peak_memory_usage_gib m - total_memory_gib m.

(** How far the usage is below the target. *)
Definition gap (c : config) (m : measurement) : Q := target_ratio c * total_memory_gib m - peak_memory_usage_gib m.

Fixpoint sum (l : list Q) : Q := match l with [] => 0 | x :: r => x + sum r end.

(** The sum of all the sums of shorter and shorter beginnings: what an integral term has
    added up after these errors, starting at [i]. *)
Fixpoint sum_of_integrals (i : Q) (l : list Q) : Q := match l with [] => 0 | x :: r => i + sum_of_integrals (i + x) r end.

(** No surge. *)
Definition quiet (m : measurement) : Prop := expected_surge_gib m == 0.

(** The limit without the room kept free for a surge. *)
Definition baseline (limit : Q) (s : state) : Q := limit + prev_expected_surge_gib s.

(** A textbook controller: limit, integral and last error; the integral only grows when
    nothing saturates. *)
Fixpoint unsaturated (c : config) (i last limit : Q) (ms : list measurement) : Prop :=
  match ms with
  | [] => True
  | m :: r =>
    let e := gap c m in
    let limit' := limit + kp c * e + ki c * i + kd c * (e - last) in
    quiet m /\ overflow m <= 0 /\ within c limit' /\ -50 <= i + e <= 50 /\ unsaturated c (i + e) e limit' r
  end.
