(** C28: the in-flight byte limit is never exceeded and never deadlocks. *)
From Coq Require Import ZArith List Lia.
From Verif Require Import Base Limiter_Model Limiter_Spec Limiter_Proofs.
Import ListNotations.
Local Open Scope Z_scope.

(** 10 bytes; requests of 6, 7, 2, 12 and 0 bytes.  Coroutine 1 has to wait for
    coroutine 0, 3 is rejected, 2 fails in its body. *)
Definition ex_sizes : list Z := [6; 7; 2; 12; 0].
Definition ex_run : list event :=
  [Run 0; Run 1; Run 2; Run 3; End 2 false; Run 1; Run 4; End 0 true; Run 1; End 4 true; End 1 true].
Definition phases (o : option state) : list phase := match o with Some st => map ph (tasks st) | None => [] end.
Definition avail (o : option state) : Z := match o with Some st => available st | None => -1 end.

(** In every schedule the reserved bytes and the available ones make up the
    limit, the reserved bytes stay below it, and no assertion fails. *)
Theorem C28_bound : forall m sizes es st, 1 <= m -> Forall (fun n => 0 <= n) sizes -> play (initial m sizes) es = Some st ->
  available st + in_flight (tasks st) = m /\ 0 <= in_flight (tasks st) < m /\ (forall t, In t (tasks st) -> ph t <> Broken).
Proof. exact bound_ok. Qed.
Print Assumptions C28_bound.

Example C28_bound_ex : phases (play (initial 10 ex_sizes) (firstn 4 ex_run)) = [Inside; Waiting; Inside; Rejected; Start] /\
  avail (play (initial 10 ex_sizes) (firstn 4 ex_run)) = 2 /\
  phases (play (initial 10 ex_sizes) ex_run) = [Done; Done; Raised; Rejected; Done] /\
  avail (play (initial 10 ex_sizes) ex_run) = 10.
Proof. repeat split; vm_compute; reflexivity. Qed.

(** A body that ends, with or without error, returns its bytes and wakes every
    coroutine that waits. *)
Theorem C28_returned : forall m sizes es st i t ok, 1 <= m -> Forall (fun n => 0 <= n) sizes -> play (initial m sizes) es = Some st ->
  nth_error (tasks st) i = Some t -> ph t = Inside ->
  exists st', step st (End i ok) = Some st' /\ available st' = available st + nbytes t /\
    (forall u, In u (tasks st') -> ph u <> Waiting).
Proof. exact returned. Qed.
Print Assumptions C28_returned.

Example C28_returned_ex : phases (play (initial 10 ex_sizes) (firstn 5 ex_run)) = [Inside; Notified; Raised; Rejected; Start] /\
  avail (play (initial 10 ex_sizes) (firstn 5 ex_run)) = 4.
Proof. split; vm_compute; reflexivity. Qed.

(** Requests of at least the limit are rejected when they are made, without
    waiting; no other request is rejected, and none of them gets in. *)
Theorem C28_reject_now : forall st i t, nth_error (tasks st) i = Some t -> ph t = Start -> max_bytes st <= nbytes t ->
  exists st', step st (Run i) = Some st' /\ available st' = available st /\ nth_error (tasks st') i = Some (mk_task (nbytes t) Rejected).
Proof. exact reject_now. Qed.
Print Assumptions C28_reject_now.

Theorem C28_reject_only : forall m sizes es st t, 1 <= m -> Forall (fun n => 0 <= n) sizes -> play (initial m sizes) es = Some st ->
  In t (tasks st) -> (ph t = Rejected -> m <= nbytes t) /\ (m <= nbytes t -> ph t = Start \/ ph t = Rejected \/ ph t = Cancelled).
Proof. exact rejected_iff. Qed.
Print Assumptions C28_reject_only.

Example C28_reject_ex : phases (play (initial 10 [9; 10]) [Run 1; Run 0]) = [Inside; Rejected].
Proof. reflexivity. Qed.

(** A coroutine only sleeps while it does not fit and another one is in its body
    (whose end will wake it): no wake-up is lost. *)
Theorem C28_waiting : forall m sizes es st t, 1 <= m -> Forall (fun n => 0 <= n) sizes -> play (initial m sizes) es = Some st ->
  In t (tasks st) -> ph t = Waiting -> available st <= nbytes t /\ exists u, In u (tasks st) /\ ph u = Inside.
Proof. exact waiting_reason. Qed.
Print Assumptions C28_waiting.

(** No deadlock: as long as a coroutine is not over, one can be resumed or is in
    its body. *)
Theorem C28_no_deadlock : forall m sizes es st, 1 <= m -> Forall (fun n => 0 <= n) sizes -> play (initial m sizes) es = Some st ->
  (exists t, In t (tasks st) /\ ~ over t) ->
  exists i st', step st (Run i) = Some st' \/ step st (End i true) = Some st'.
Proof. exact live. Qed.
Print Assumptions C28_no_deadlock.

(** No starvation: every schedule of [n] coroutines ends after at most n(n+4)
    steps; with the theorem before, then all of them are over. *)
Theorem C28_bounded : forall m sizes es st, play (initial m sizes) es = Some st ->
  (List.length es <= List.length sizes * (List.length sizes + 4))%nat.
Proof. exact bounded. Qed.
Print Assumptions C28_bounded.

Example C28_live_ex : phases (play (initial 10 [6; 7]) [Run 0; Run 1]) = [Inside; Waiting] /\
  phases (play (initial 10 [6; 7]) [Run 0; Run 1; End 0 true; Run 1; End 1 true]) = [Done; Done].
Proof. split; reflexivity. Qed.

(** get_byte_limiter: no limit without a number, the number if positive. *)
Theorem C28_config : forall c, (c = None -> get_byte_limiter c = Ok None) /\
  (forall n, c = Some n -> 0 < n -> get_byte_limiter c = Ok (Some n)) /\
  (forall n, c = Some n -> n <= 0 -> get_byte_limiter c = Err ValueError).
Proof. exact config. Qed.
Print Assumptions C28_config.

Example C28_config_ex : get_byte_limiter (Some 5) = Ok (Some 5) /\ get_byte_limiter (Some 0) = Err ValueError.
Proof. split; reflexivity. Qed.

(** A request of exactly the limit would fit, but is rejected (as "more bytes than
    we reserved space for: n > n"); nothing can ever use the last byte. *)
Theorem C28_exact_fit_refuted : exists m n, 1 <= m /\ 0 <= n <= m /\
  exists st, step (initial m [n]) (Run 0) = Some st /\ map ph (tasks st) = [Rejected].
Proof. exists 10, 10. split; [lia|]. split; [lia|]. eexists. split; reflexivity. Qed.
Print Assumptions C28_exact_fit_refuted.
