(** C30: errors of background saves surface once; saves never overlap. *)
From Coq Require Import List Bool Arith Lia.
From Verif Require Import Base Async_Model Async_Spec Async_Proofs.
Import ListNotations.

(** Save 0 fails in the background; a check before the failure sees nothing; the
    wait inside save 1 raises it; then save 1 starts, is cancelled and fails too;
    restore returns. *)
Definition ex_trace : list event :=
  [Call (Save (Ok tt)) (Started 0); Call Check Returned; Ends 0 (Err OtherError); Looks 0; Stores 0;
   Call (Save (Ok tt)) (Surfaced 0 OtherError); Call Wait Returned; Call (Save (Err ValueError)) (Refused ValueError);
   Call (Save (Ok tt)) (Started 1); Ends 1 (Err OtherError); Looks 1; Call Cancel Returned; Stores 1;
   Call Restore Restored; Call Close Returned].

(** A save or restore gets past its wait only after the work of every earlier
    save has ended. *)
Theorem C30_no_overlap : forall es c r i, possible (es ++ [Call c r]) -> (r = Restored \/ exists k, r = Started k) ->
  was_started i es -> ended i es.
Proof. exact no_overlap. Qed.
Print Assumptions C30_no_overlap.

Example C30_trace_ex : possible ex_trace /\
  ~ possible [Call (Save (Ok tt)) (Started 0); Call (Save (Ok tt)) (Started 1)] /\
  ~ possible [Call (Save (Ok tt)) (Started 0); Call Restore Restored].
Proof. unfold possible. repeat split; vm_compute; congruence. Qed.

(** An error of a background save is raised by at most one call, and what is
    raised is the error that the save ended with. *)
Theorem C30_once : forall es i, possible es -> surfacings i es <= 1.
Proof. exact once. Qed.
Print Assumptions C30_once.

Theorem C30_genuine : forall es c i e, possible es -> In (Call c (Surfaced i e)) es -> In (Ends i (Err e)) es /\ e <> CancelledError.
Proof. exact genuine. Qed.
Print Assumptions C30_genuine.

Example C30_once_ex : surfacings 0 ex_trace = 1 /\ surfacings 1 ex_trace = 0.
Proof. split; reflexivity. Qed.

(** The error of a save that was not cancelled is raised by the first call after
    it that waits, or by a check once it is stored. *)
Theorem C30_first : forall es0 c0 i es1 e c r,
  possible (es0 ++ Call c0 (Started i) :: es1 ++ [Call c r]) ->
  no_start es1 -> no_surfacing es1 -> no_cancel es1 -> In (Ends i (Err e)) es1 -> e <> CancelledError ->
  waits c \/ (c = Check /\ In (Stores i) es1) -> r = Surfaced i e.
Proof. exact first. Qed.
Print Assumptions C30_first.

Example C30_first_ex :
  possible ([] ++ Call (Save (Ok tt)) (Started 0) :: [Call Check Returned; Ends 0 (Err OtherError); Looks 0; Stores 0] ++ [Call Check (Surfaced 0 OtherError)]) /\
  ~ possible ([] ++ Call (Save (Ok tt)) (Started 0) :: [Call Check Returned; Ends 0 (Err OtherError); Looks 0; Stores 0] ++ [Call Check Returned]).
Proof. unfold possible. split; vm_compute; congruence. Qed.

(** A waiting call that raises no background error means: every save started so
    far committed, or it was cancelled, or its error was raised by an earlier
    call, or it ended with a CancelledError (see below). *)
Theorem C30_wait_means : forall es c r i, possible (es ++ [Call c r]) -> waits c -> (forall k e, r <> Surfaced k e) -> was_started i es ->
  In (Ends i (Ok tt)) es \/ In (Ends i (Err CancelledError)) es \/ cancelled i es \/ surfacings i es = 1.
Proof. exact wait_means. Qed.
Print Assumptions C30_wait_means.

Example C30_wait_means_ex : possible ([Call (Save (Ok tt)) (Started 0); Ends 0 (Ok tt)] ++ [Call Wait Returned]) /\
  ~ possible ([Call (Save (Ok tt)) (Started 0); Ends 0 (Err OtherError); Looks 0; Stores 0] ++ [Call Wait Returned]).
Proof. unfold possible. split; vm_compute; congruence. Qed.

(** A commit future that raises CancelledError although nobody called [cancel]
    (a shut-down executor, a cancelled task) is taken for a clean cancellation:
    the wait returns normally, nothing was committed and no call ever raises. *)
Theorem C30_silent_loss_refuted : exists es, possible (es ++ [Call Wait Returned]) /\ was_started 0 es /\ no_cancel es /\
  ~ In (Ends 0 (Ok tt)) es /\ surfacings 0 (es ++ [Call Wait Returned]) = 0.
Proof.
  exists [Call (Save (Ok tt)) (Started 0); Ends 0 (Err CancelledError); Looks 0]. repeat split.
  - unfold possible. vm_compute. congruence.
  - exists (Save (Ok tt)). simpl. auto.
  - intros r [H|[H|[H|[]]]]; discriminate.
  - intros [H|[H|[H|[]]]]; discriminate.
Qed.
Print Assumptions C30_silent_loss_refuted.

(** After [cancel], no call raises a background error until the next save starts;
    in particular not the error of the cancelled save, whenever it happens. *)
Theorem C30_cancel : forall es0 es1, possible (es0 ++ Call Cancel Returned :: es1) -> no_start es1 -> no_surfacing es1.
Proof. exact quell. Qed.
Print Assumptions C30_cancel.

Example C30_cancel_ex : possible ([Call (Save (Ok tt)) (Started 0); Ends 0 (Err OtherError); Looks 0] ++ Call Cancel Returned :: [Stores 0; Call Check Returned; Call Wait Returned]).
Proof. unfold possible. vm_compute. congruence. Qed.

(** Waiting is never stuck: at most three steps of the background thread away,
    every waiting call goes through. *)
Theorem C30_wait_ends : forall es, possible es -> exists more, (List.length more <= 3)%nat /\ (forall c r, ~ In (Call c r) more) /\
  forall c, waits c -> exists r, possible (es ++ more ++ [Call c r]).
Proof. exact wait_ends. Qed.
Print Assumptions C30_wait_ends.

Example C30_wait_ends_ex : possible (firstn 10 ex_trace ++ [Looks 1; Stores 1] ++ [Call Wait (Surfaced 1 OtherError)]) /\
  make 0 = Err ValueError /\ make 1 = Ok initial.
Proof. unfold possible. repeat split; vm_compute; congruence. Qed.

(** The constructor refuses exactly the timeouts that are not positive. *)
Theorem C30_make : forall timeout, match make timeout with Ok s => timeout > 0 /\ s = initial | Err e => timeout = 0 /\ e = ValueError end.
Proof. intros [|timeout]; cbn; split; auto with arith. Qed.
Print Assumptions C30_make.

Example C30_make_ex : make 1200 = Ok initial /\ make 0 = Err ValueError.
Proof. vm_compute. split; reflexivity. Qed.
