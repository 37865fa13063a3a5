(** Independent vocabulary for C25: what [a[xs]] selects. *)
From Coq Require Import ZArith List.
From Verif Require Import Base Slice_Model.
Import ListNotations.
Local Open Scope Z_scope.

(** A bound counted from the end when negative, then clipped to lo..hi. *)
Definition place (n lo hi b : Z) : Z :=
  Z.max lo (Z.min hi (if b <? 0 then n + b else b)).

(** The [k]th element that slicing a sequence of length [n] gives is the element
    [x] of the sequence (Python reference, sequence types, note 5). *)
Definition kth (s : pslice) (n k x : Z) : Prop :=
  let step := match ps_step s with Some d => d | None => 1 end in
  0 <= k /\
  ( (0 < step /\
     x = match ps_start s with Some a => place n 0 n a | None => 0 end + k * step /\
     x < match ps_stop s with Some b => place n 0 n b | None => n end)
  \/ (step < 0 /\
     x = match ps_start s with Some a => place n (-1) (n - 1) a | None => n - 1 end + k * step /\
     match ps_stop s with Some b => place n (-1) (n - 1) b | None => -1 end < x)).

(** Element [ks] of [a[xs]] is element [c] of [a], for an array [a] of the given
    shape: an integer removes its dimension, missing slices take everything, and
    superfluous ones are an error. *)
Inductive reads : list item -> list Z -> list Z -> list Z -> Prop :=
| R_rest : forall shape c, Forall2 (fun n x => 0 <= x < n) shape c -> reads [] shape c c
| R_slice : forall s xs n shape k ks x c, kth s n k x -> reads xs shape ks c ->
    reads (ISlice s :: xs) (n :: shape) (k :: ks) (x :: c)
| R_int : forall i xs n shape ks c, - n <= i < n -> reads xs shape ks c ->
    reads (IInt i :: xs) (n :: shape) ks ((if i <? 0 then n + i else i) :: c).

Definition items (xs : ndslice) : list item := match xs with NTuple l => l | NEllipsis => [] end.

(** The coordinates occurring in [a[xs]]. *)
Definition selected (xs : list item) (shape c : list Z) : Prop := exists ks, reads xs shape ks c.

(** The slices of the tuple have positive steps. *)
Definition pos_step (s : pslice) : Prop := match ps_step s with Some k => 0 < k | None => True end.
Definition only_slices (xs : ndslice) : Prop := Forall (fun x => exists s, x = ISlice s) (items xs).
Definition pos_steps (xs : ndslice) : Prop :=
  Forall (fun x => match x with ISlice s => pos_step s | IInt _ => True end) (items xs).
(** Integers of the tuple count from the front. *)
Definition front_ints (xs : ndslice) (shape : list Z) : Prop :=
  Forall (fun p => match fst p with ISlice _ => True | IInt i => 0 <= i < snd p end) (combine (items xs) shape).

Definition no_none (s : pslice) : Prop :=
  ps_start s <> None /\ ps_stop s <> None /\ ps_step s <> None.

(** Neither a zero start, nor a stop at the end, nor a step of one. *)
Definition no_redundant (s : pslice) (dim : Z) : Prop :=
  ps_start s <> Some 0 /\ ps_stop s <> Some dim /\ ps_step s <> Some 1.
