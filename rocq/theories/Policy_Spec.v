(** Independent vocabulary for the policy properties (C01-C08).  Nothing here
    refers to the helpers of [Policy_Model]; only the record of checkpoint infos
    is shared. *)
From Coq Require Import ZArith List Bool Znumtheory.
From Verif Require Import Base Policy_Model.
Import ListNotations.
Local Open Scope Z_scope.

(** "Is a multiple of", decided by the standard library's [Zdivide_dec]. *)
Definition is_multiple (n z : Z) : bool := if Zdivide_dec n z then true else false.

(** Number of positions strictly after [i] whose element satisfies [P]. *)
Definition count_after {A : Type} (P : A -> bool) (l : list A) (i : nat) : Z :=
  Z.of_nat (length (filter P (skipn (S i) l))).

(** [flags] answers the list [cs] decision by decision. *)
Definition one_per {A : Type} (cs : list A) (flags : list bool) : Prop :=
  length flags = length cs.

(** [flags] at position [i] (meaningful below the length only). *)
Definition kept (flags : list bool) (i : nat) : Prop := nth_error flags i = Some true.

(** [p] is the last kept position before [i]. *)
Definition last_kept_before (flags : list bool) (p i : nat) : Prop :=
  (p < i)%nat /\ kept flags p /\ (forall q, (p < q < i)%nat -> ~ kept flags q).

(** A greedy spacing filter over the positions [key 0, key 1, ...]: the first
    element is kept, and a later one is kept exactly when it is at least [gap]
    after the last kept element before it. *)
Definition greedy_spacing (gap : Z) (keys : list Z) (flags : list bool) : Prop :=
  length flags = length keys /\
  (keys <> [] -> kept flags 0) /\
  (forall i p ki kp, last_kept_before flags p i ->
     nth_error keys i = Some ki -> nth_error keys p = Some kp ->
     (kept flags i <-> gap <= ki - kp)).

(** The flags that remain of [all] when only the newest [m] kept ones stay. *)
Definition newest_only (m : Z) (all flags : list bool) : Prop :=
  length flags = length all /\
  forall i, (i < length all)%nat ->
    (kept flags i <-> kept all i /\ count_after (fun b => b) all i < m).

(** [j] is strictly preferred to [i]: better metric, or equal metric and later.
    [reverse = true] means that smaller metrics are better. *)
Definition preferred (reverse : bool) (cs : list info) (j i : nat) : bool :=
  match nth_error cs j, nth_error cs i with
  | Some cj, Some ci =>
      match metrics cj, metrics ci with
      | Some mj, Some mi =>
          (if reverse then mj <? mi else mi <? mj) || ((mj =? mi) && Nat.ltb i j)
      | _, _ => false
      end
  | _, _ => false
  end.

(** How many checkpoints of the list are strictly preferred to [i]. *)
Definition how_many_preferred (reverse : bool) (cs : list info) (i : nat) : Z :=
  Z.of_nat (length (filter (fun j => preferred reverse cs j i) (seq 0 (length cs)))).

Definition has_metrics (c : info) : Prop := metrics c <> None.

(** [k] is the number of the grid point nearest to [s] on the grid of multiples
    of [n]; a point exactly in the middle goes to the even grid number. *)
Definition nearest (n s k : Z) : Prop :=
  2 * Z.abs (s - k * n) < Z.abs n \/
  (2 * Z.abs (s - k * n) = Z.abs n /\ Z.Even k).

(** Checkpoint [i] represents its bucket: nothing in the same bucket is closer
    to the grid point, and nothing equally close is later. *)
Definition represents (n : Z) (cs : list info) (i : nat) : Prop :=
  exists ci k, nth_error cs i = Some ci /\ nearest n (step ci) k /\
    forall j cj, nth_error cs j = Some cj -> nearest n (step cj) k ->
      let di := Z.abs (step ci - k * n) in
      let dj := Z.abs (step cj - k * n) in
      di < dj \/ (di = dj /\ (j <= i)%nat).
