(** Shared vocabulary of the models: exceptions as values and the python
    list-slicing primitives that several modelled functions rely on. *)
From Coq Require Import ZArith List Bool.
Import ListNotations.

(** Python exception classes that the modelled code raises explicitly or that a
    modelled primitive raises (e.g. [ZeroDivisionError] for [x % 0]). *)
Inductive err : Type :=
| ValueError
| TypeError
| KeyError
| IndexError
| AssertionError
| ZeroDivisionError
| FileNotFoundError
| FileExistsError
| NotImplementedError
| TimeoutError
| StepAlreadyExistsError
| CancelledError
| RuntimeError
| AttributeError
| OtherError.

(** The outcome of a python call: a value or a raised exception. *)
Inductive result (A : Type) : Type :=
| Ok (a : A)
| Err (e : err).
Arguments Ok {A} a.
Arguments Err {A} e.

Definition rbind {A B : Type} (r : result A) (f : A -> result B) : result B :=
  match r with Ok a => f a | Err e => Err e end.

Definition rmap {A B : Type} (f : A -> B) (r : result A) : result B :=
  match r with Ok a => Ok (f a) | Err e => Err e end.

(** Evaluate a list of computations left to right, stopping at the first
    exception (a python list comprehension over calls). *)
Fixpoint sequence {A : Type} (l : list (result A)) : result (list A) :=
  match l with
  | [] => Ok []
  | r :: rs => rbind r (fun a => rbind (sequence rs) (fun l' => Ok (a :: l')))
  end.

(** [[x] * z] for a python list: empty for a non-positive multiplier. *)
Definition py_repeat {A : Type} (x : A) (z : Z) : list A := repeat x (Z.to_nat z).

(** Clamp a python slice bound: a negative bound counts from the end. *)
Definition py_bound (len z : Z) : Z :=
  if (z <? 0)%Z then Z.max 0 (len + z) else Z.min len z.

(** [l[:stop]] *)
Definition py_upto {A : Type} (l : list A) (stop : Z) : list A :=
  firstn (Z.to_nat (py_bound (Z.of_nat (length l)) stop)) l.

(** [l[start:]] *)
Definition py_from {A : Type} (l : list A) (start : Z) : list A :=
  skipn (Z.to_nat (py_bound (Z.of_nat (length l)) start)) l.

(** [list(enumerate(l))], starting at [k]. *)
Fixpoint enumerate_from {A : Type} (k : nat) (l : list A) : list (nat * A) :=
  match l with
  | [] => []
  | x :: xs => (k, x) :: enumerate_from (S k) xs
  end.
Definition enumerate {A : Type} (l : list A) : list (nat * A) := enumerate_from 0 l.

(** [l[i] = v] for an index in range (out of range leaves the list alone; the
    modelled code only assigns at indices obtained from [enumerate]). *)
Fixpoint set_nth {A : Type} (i : nat) (v : A) (l : list A) : list A :=
  match l, i with
  | [], _ => []
  | _ :: xs, O => v :: xs
  | x :: xs, S i' => x :: set_nth i' v xs
  end.
