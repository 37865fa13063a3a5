(** Independent statements about waiting for checkpoints. *)
From Coq Require Import List Bool Arith ZArith.
From Verif Require Import Base Wait_Model.
Import ListNotations.
Open Scope Z_scope.

(** [s] is the largest step of the listing [l]. *)
Definition largest (s : Z) (l : list Z) : Prop := In s l /\ forall x, In x l -> x <= s.

(** [s] is wanted: at least [u], if given. *)
Definition wanted (u : option Z) (s : Z) : Prop := match u with None => True | Some u => u <= s end.

(** Nothing of the listing is wanted. *)
Definition nothing_new (u : option Z) (l : list Z) : Prop := forall x, In x l -> ~ wanted u x.

(** Nothing that was seen during the events was wanted: the directory was missing or had no
    wanted step. *)
Definition seen_nothing (w : nat -> view) (u : option Z) (log : list event) : Prop :=
  forall k, (In (Missing k) log -> dir_exists (w k) = false) /\ (In (Listed k) log -> nothing_new u (steps (w k))).

(** The last look: what a log ends with. *)
Inductive last_look (w : nat -> view) (u : option Z) : list event -> nat -> Z -> Prop :=
| last_look_intro (before : list event) (k : nat) (s : Z) :
    seen_nothing w u before -> largest s (steps (w k)) -> wanted u s ->
    last_look w u (before ++ [Listed k])%list k s.

(** Steps are numbers that are not negative and fit into 32 bits. *)
Definition small_steps (w : nat -> view) : Prop := forall k s, In s (steps (w k)) -> 0 <= s <= 2147483647.

(** Every step that is listed can be found from then on, and copying works. *)
Definition steady (w : nat -> view) : Prop :=
  (forall i j s, (i <= j)%nat -> In s (steps (w i)) -> In s (findable (w j))) /\ (forall k, copy_error (w k) = None).

(** A list is strictly increasing. *)
Fixpoint increasing (l : list Z) : Prop :=
  match l with
  | [] => True
  | x :: r => (forall y, In y r -> x < y) /\ increasing r
  end.

(** Same for moments. *)
Fixpoint increasing_nat (l : list nat) : Prop :=
  match l with
  | [] => True
  | x :: r => (forall y, In y r -> (x < y)%nat) /\ increasing_nat r
  end.

(** What the yielded steps must be: each is the largest wanted step of a look at the
    directory that was taken after the previous one was yielded. *)
Fixpoint chain (w : nat -> view) (previous : option Z) (i : nat) (ys : list yielded) : Prop :=
  match ys with
  | [] => True
  | y :: r =>
    (exists k, last_look w (option_map (fun s => s + 1) previous) (y_log y) k (y_step y) /\ (i < k < y_moment y)%nat)
    /\ chain w (Some (y_step y)) (S (y_moment y)) r
  end.

(** Only the consumer and the timeout can end the iterator in an orderly way. *)
Definition timed_out (w : nat -> view) (o : options) (i j : nat) : Prop :=
  exists t a b, timeout o = Some t /\ (i <= a < b)%nat /\ (b < j)%nat /\ clock (w a) + t < clock (w b) + seconds_to_sleep o.
