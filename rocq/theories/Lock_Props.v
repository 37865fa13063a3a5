(** C34: the timed lock.  C49: the list of checkpoint infos. *)
From Coq Require Import List Bool Arith.
From Verif Require Import Base Lock_Model Lock_Spec Lock_Proofs.
Import ListNotations.

(** As long as no thread asks for the lock in vain, at most one thread is inside, and
    the lock is free when all are out.  Missing: runs in which [acquire] times out,
    for which both are false (below). *)
Theorem C34_lock_partial : forall n es st, run n es st -> no_timeout (initial n) es -> exclusive st /\ (all_out st -> free st).
Proof. exact works. Qed.
Print Assumptions C34_lock_partial.

Example C34_lock_example :
  let es := [Acquire 0; Assign 0; Check 0; Acquire 0; Assign 0; Check 0; Exit 0; Exit 0; Acquire 1; Assign 1; Check 1] in
  run 2 es (mk_state (Some (1, 1)) true [mk_thread Running 0; mk_thread Running 1]) /\ no_timeout (initial 2) es.
Proof. vm_compute. repeat split; auto. Qed.

(** Timeouts included, at most one thread is inside if nothing happens in the middle
    of any [__enter__]. *)
Theorem C34_exclusion_atomic_partial : forall acts n st, run n (flat_map as_events acts) st -> exclusive st.
Proof. exact exclusive_atomic. Qed.
Print Assumptions C34_exclusion_atomic_partial.

Example C34_exclusion_atomic_example :
  run 2 (flat_map as_events [Enter 0; Enter 1; Leave 0; Enter 0; Leave 0]) (mk_state (Some (0, 1)) true [mk_thread Running 0; mk_thread Running 0]).
Proof. reflexivity. Qed.

(** [_acquired] is a field shared by all threads (TH l.55).  Thread 1 times out while
    thread 0 is inside, which sets it to False; then thread 0 leaves without
    releasing (TH l.65): everybody is out and the lock is held for ever. *)
Theorem C34_leak_refuted : exists n es st, run n es st /\ all_out st /\ ~ free st.
Proof.
  exists 2, (flat_map as_events [Enter 0; Enter 1; Leave 0]), (mk_state (Some (0, 1)) false [mk_thread Running 0; mk_thread Running 0]).
  split; [reflexivity|]. split; [|discriminate]. intros [|[|t]] th H; simpl in H; try (injection H as <-; reflexivity). destruct t; discriminate.
Qed.
Print Assumptions C34_leak_refuted.

(** For the same reason a thread that timed out can go in: thread 1 times out and
    assigns False, thread 2, which got the lock meanwhile, assigns True, and
    thread 1 reads True (TH l.56).  Both are inside. *)
Theorem C34_exclusion_refuted : exists n es st, run n es st /\ ~ exclusive st.
Proof.
  exists 3, [Acquire 0; Assign 0; Check 0; Acquire 1; Exit 0; Acquire 2; Assign 1; Assign 2; Check 2; Check 1].
  exists (mk_state (Some (2, 1)) true [mk_thread Running 0; mk_thread Running 1; mk_thread Running 1]).
  split; [reflexivity|]. intros X. specialize (X 1 2). assert (1 = 2) as D; [|discriminate D].
  apply X; eexists; (split; [reflexivity|]); simpl; auto.
Qed.
Print Assumptions C34_exclusion_refuted.

(** A thread that holds the lock can be told that it timed out: thread 0 acquires,
    thread 1's result is assigned before thread 0 tests the field.  Thread 0 raises
    TimeoutError without entering; the lock stays taken. *)
Theorem C34_false_timeout_refuted : exists n es st, run n es st /\ all_out st /\ ~ free st /\
  exists es', es = es' ++ [Check 0] /\ exists s d, run n es' s /\ owner s = Some (0, 1) /\ nth_error (threads s) 0 = Some (mk_thread Assigned d).
Proof.
  exists 2, ([Acquire 0; Acquire 1; Assign 0; Assign 1; Check 1] ++ [Check 0]), (mk_state (Some (0, 1)) false [mk_thread Running 0; mk_thread Running 0]).
  split; [reflexivity|]. split; [|split; [discriminate|]].
  - intros [|[|t]] th H; simpl in H; try (injection H as <-; reflexivity). destruct t; discriminate.
  - eexists. split; [reflexivity|]. exists (mk_state (Some (0, 1)) false [mk_thread Assigned 0; mk_thread Running 0]), 0. repeat split.
Qed.
Print Assumptions C34_false_timeout_refuted.

(** With a lock that works, the list is what the operations make of it one after the
    other, a deletion counting when it ends.  Missing: infos appended between the loop
    of a deletion and its end (refuted below). *)
Theorem C49_atomic_partial : forall info l f es s, infos_play info (start info l) es = Some s -> calm info (start info l) es ->
  list_of info s = should_be info l f es.
Proof. exact infos_atomic. Qed.
Print Assumptions C49_atomic_partial.

Example C49_atomic_example :
  let es := [DeleteBegin nat Nat.even; DeleteNext nat; Append nat 6; DeleteNext nat; Append nat 7; DeleteNext nat; DeleteNext nat; DeleteNext nat; DeleteEnd nat; Append nat 8] in
  infos_play nat (start nat [4; 5]) es = Some (mk_infos nat [5; 7; 8] None) /\ calm nat (start nat [4; 5]) es.
Proof. vm_compute. repeat split; auto. Qed.

(** [append] takes no lock (CI l.140).  An info appended after the loop of [delete_if]
    and before the list is replaced (CI l.133) is lost, although it was not selected. *)
Theorem C49_append_refuted : exists (l : list nat) es s x,
  infos_play nat (start nat l) es = Some s /\ In (Append nat x) es /\ (forall l', ~ In (Set_ nat l') es) /\
  (forall f, In (DeleteBegin nat f) es -> f x = false) /\ ~ In x (list_of nat s).
Proof.
  exists [4], [DeleteBegin nat Nat.even; DeleteNext nat; DeleteNext nat; Append nat 5; DeleteEnd nat], (mk_infos nat [] None), 5.
  split; [reflexivity|]. split; [simpl; auto|]. split; [intros l' H; simpl in H; repeat destruct H as [H|H]; try discriminate; auto|].
  split; [|simpl; auto]. intros f H. simpl in H. destruct H as [H|H]; [injection H as <-; reflexivity|]. repeat destruct H as [H|H]; try discriminate; contradiction.
Qed.
Print Assumptions C49_append_refuted.
