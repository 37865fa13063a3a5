(** Independent vocabulary for C32. *)
From Coq Require Import List Bool Arith ZArith.
From Verif Require Import Base Future_Model.
Import ListNotations.

Definition history (n : nat) (es : list event) (st : state) : Prop := play n initial es = Some st.

(** The target ran to completion. *)
Definition completed (es : list event) : Prop := In (Ends None) es.

(** Number of signals set. *)
Fixpoint signals (es : list event) : nat :=
  match es with [] => 0 | Signal (Ok _) :: r => S (signals r) | _ :: r => signals r end.

(** The target raised something that is no [Exception]. *)
Definition beyond_exception (es : list event) : Prop := In (Ends (Some AsyncCancelled)) es \/ In (Ends (Some Exit)) es.

(** The caller's time ran out, the future was cancelled, and the target never ran
    (the target ends at most once). *)
Definition raced (es : list event) : Prop := In (Poll true) es /\ In Cancel es /\ forall r, ~ In (Ends r) es.

(** Waiting for the futures one after the other, each with what is left of the
    time: all of them return. *)
Fixpoint all_return (start : Z) (timeout : option Z) (fs : list future) (now : Z) : Prop :=
  match fs with
  | [] => True
  | f :: r =>
      let left_ := match timeout with None => None | Some t => Some (t - (now - start))%Z end in
      (forall t, timeout = Some t -> (now - start < t)%Z) /\
      fst (f left_ now) = Ok tt /\ all_return start timeout r (snd (f left_ now))
  end.

(** The time after waiting for the futures. *)
Fixpoint clock (start : Z) (timeout : option Z) (fs : list future) (now : Z) : Z :=
  match fs with
  | [] => now
  | f :: r => clock start timeout r (snd (f (match timeout with None => None | Some t => Some (t - (now - start))%Z end) now))
  end.
