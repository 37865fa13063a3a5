(** What is meant by the properties of the helpers for coroutines. *)
From Coq Require Import List Bool Arith.
From Verif Require Import Base Runner_Model.
Import ListNotations.
Local Open Scope nat_scope.

(** A state that a new runner can come to *)
Definition reached (s : runner) : Prop := exists l, exec new l = Some s.

(** A state that comes after another *)
Definition later (s s' : runner) : Prop := exists l, exec s l = Some s'.

(** The result of a coroutine whose nested coroutines can run: the first error, or its own result *)
Fixpoint outcome_of (c : co) : result nat := match c with CEnd r => r | CLook k => outcome_of k | CNest inner k => match outcome_of inner with Ok _ => outcome_of k | Err e => Err e end end.

(** Nothing is nested *)
Fixpoint flat (c : co) : Prop := match c with CEnd _ => True | CLook k => flat k | CNest _ _ => False end.
