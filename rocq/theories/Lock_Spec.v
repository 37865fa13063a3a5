(** Independent vocabulary for C34 and C49. *)
From Coq Require Import List Bool Arith.
From Verif Require Import Base Lock_Model.
Import ListNotations.

Definition run (n : nat) (es : list event) (st : state) : Prop := play (initial n) es = Some st.

Definition inside (st : state) (t : nat) : Prop := exists th, nth_error (threads st) t = Some th /\ depth th > 0.
Definition exclusive (st : state) : Prop := forall t u, inside st t -> inside st u -> t = u.
Definition all_out (st : state) : Prop := forall t th, nth_error (threads st) t = Some th -> th = mk_thread Running 0.
Definition free (st : state) : Prop := owner st = None.

(** Nobody asks for the lock in vain. *)
Fixpoint no_timeout (st : state) (es : list event) : Prop :=
  match es with
  | [] => True
  | e :: r =>
      match e with Acquire t => match owner st with Some (u, _) => u = t | None => True end | _ => True end /\
      match step st e with Some st' => no_timeout st' r | None => True end
  end.

(** Threads entering and leaving blocks, with nothing happening in the middle of
    [__enter__]. *)
Inductive action : Type := Enter (t : nat) | Leave (t : nat).
Definition as_events (a : action) : list event :=
  match a with Enter t => [Acquire t; Assign t; Check t] | Leave t => [Exit t] end.

(** ** The list *)
Section Infos.
Variable info : Type.

(** What the list should be: appended infos come last, a deletion takes out those
    selected. *)
Fixpoint should_be (l : list info) (select : info -> bool) (es : list (infos_event info)) : list info :=
  match es with
  | [] => l
  | Append _ x :: r => should_be (l ++ [x]) select r
  | Set_ _ l' :: r => should_be l' select r
  | DeleteBegin _ f :: r => should_be l f r
  | DeleteNext _ :: r => should_be l select r
  | DeleteEnd _ :: r => should_be (filter (fun x => negb (select x)) l) select r
  end.

(** Nothing is appended between the loop of a deletion and its end. *)
Fixpoint calm (s : infos info) (es : list (infos_event info)) : Prop :=
  match es with
  | [] => True
  | e :: r =>
      match e, deleting info s with Append _ _, Some (Replacing _ _ _) => False | _, _ => True end /\
      match infos_step info s e with Some s' => calm s' r | None => True end
  end.

Definition start (l : list info) : infos info := mk_infos info l None.

End Infos.
