(** C32: what a caller of [result] learns. *)
From Coq Require Import List Bool Arith ZArith.
From Verif Require Import Base Future_Model Future_Spec Future_Proofs.
Import ListNotations.

(** If [result] returns, the target ran to completion and all signals are set,
    unless the target raised something that is no [Exception], or the call timed out
    while the future was being cancelled.  Missing: those two cases, which are
    refuted below. *)
Theorem C32_result_partial : forall n es st, history n es st -> wt st = Returned ->
  (completed es /\ signals es = n) \/ beyond_exception es \/ raced es.
Proof. exact returned_means. Qed.
Print Assumptions C32_result_partial.

Example C32_result_example :
  let es := [Poll false; Begin; Received (Ok tt); Proceed; Poll false; Ends None; Signal (Ok tt); Poll false; Signal (Ok tt); Poll false; Look; Look; Look] in
  history 2 es (mk_state Dead None false 2 Returned) /\ completed es /\ signals es = 2.
Proof. vm_compute. auto 10. Qed.

(** If the target raised an [Exception], [result] does not return; if nobody
    cancelled, it raises that very exception, or [TimeoutError] when its time was up. *)
Theorem C32_raises : forall n es st e, history n es st -> In (Ends (Some (Ordinary e))) es ->
  wt st <> Returned /\
  (forall x, wt st = Raised x -> ~ In Cancel es -> e <> CancelledError -> x = e \/ (x = TimeoutError /\ In (Poll true) es)).
Proof. exact error_raised. Qed.
Print Assumptions C32_raises.

Example C32_raises_example :
  history 1 [Begin; Received (Ok tt); Proceed; Ends (Some (Ordinary OtherError)); Poll false; Handle; Poll false; Look; Look; Look] (mk_state Dead (Some OtherError) false 0 (Raised OtherError)).
Proof. reflexivity. Qed.

(** A call that finds the future cancelled raises CancelledError. *)
Theorem C32_cancelled : forall n es st, history n (es ++ [Look]) st -> ~ In Look es -> In Cancel es -> wt st = Raised CancelledError.
Proof. exact cancel_raises. Qed.
Print Assumptions C32_cancelled.

Example C32_cancelled_example :
  history 1 ([Begin; Received (Ok tt); Proceed; Ends None; Signal (Ok tt); Cancel; Poll false] ++ [Look]) (mk_state Dead None true 1 (Raised CancelledError)).
Proof. reflexivity. Qed.

(** asyncio.CancelledError is a BaseException, so [except Exception] (FU l.380) does
    not catch it although FU l.382 tests for it.  A target that ends with it, without
    [cancel()] having been called, makes [result] return as if the commit had been
    done; the signals are not set.  SystemExit and the like do the same. *)
Theorem C32_base_exception_refuted : exists n es st, history n es st /\ wt st = Returned /\ ~ In Cancel es /\ ~ completed es /\ n > 0 /\ signals es = 0.
Proof.
  exists 1, [Begin; Received (Ok tt); Proceed; Ends (Some AsyncCancelled); Poll false; Look; Look; Look], (mk_state Dead None false 0 Returned).
  split; [reflexivity|]. split; [reflexivity|]. split; [|split; [|split; [auto|reflexivity]]].
  - simpl. intros H. repeat destruct H as [H|H]; try discriminate; auto.
  - unfold completed. simpl. intros H. repeat destruct H as [H|H]; try discriminate; auto.
Qed.
Print Assumptions C32_base_exception_refuted.

(** The caller's time is up, [_cancelled] is read as False (FU l.432), then the future
    is cancelled and the thread leaves without running the target, then [is_alive()]
    is False (FU l.436) and [_exception] None: [result] returns although nothing was
    done. *)
Theorem C32_race_refuted : exists n es st, history n es st /\ wt st = Returned /\ ~ beyond_exception es /\ ~ completed es /\ n > 0 /\ signals es = 0.
Proof.
  exists 1, [Begin; Poll true; Look; Cancel; Received (Ok tt); Proceed; Look; Look], (mk_state Dead None true 0 Returned).
  split; [reflexivity|]. split; [reflexivity|]. split; [|split; [|split; [auto|reflexivity]]].
  - unfold beyond_exception. simpl. intros [H|H]; repeat destruct H as [H|H]; try discriminate; auto.
  - unfold completed. simpl. intros H. repeat destruct H as [H|H]; try discriminate; auto.
Qed.
Print Assumptions C32_race_refuted.

(** A future cancelled while it waits for its signals ends without setting its own
    (FU l.376-377), whereas one cancelled later sets them (FU l.384-385): those who
    wait for them wait until their timeout. *)
Theorem C32_cancel_signals_refuted : exists n es st, history n es st /\ th st = Dead /\ cancelled st = true /\ n > 0 /\ signals es = 0.
Proof. exists 1, [Begin; Cancel; Received (Ok tt); Proceed], (mk_state Dead None true 0 Polling). repeat split; auto. Qed.
Print Assumptions C32_cancel_signals_refuted.

Example C32_cancel_signals_example :
  history 1 [Begin; Received (Ok tt); Proceed; Cancel; Ends (Some (Ordinary OtherError)); Handle; Signal (Ok tt)] (mk_state Dead (Some CancelledError) true 1 Polling).
Proof. reflexivity. Qed.

(** A chained future calls its callback exactly when all its futures return within
    the time; otherwise it raises and does not call it. *)
Theorem C32_chain : forall timeout fs cb now,
  (all_return now timeout fs now -> chain_result timeout fs cb now = (cb, true)) /\
  (~ all_return now timeout fs now -> exists e, chain_result timeout fs cb now = (Err e, false)).
Proof. exact chain_ok. Qed.
Print Assumptions C32_chain.

(** What it raises is what the first future that failed raised. *)
Theorem C32_chain_error : forall timeout a f b cb now e t, all_return now timeout a now ->
  (forall u, timeout = Some u -> (clock now timeout a now - now < u)%Z) ->
  f (match timeout with None => None | Some u => Some (u - (clock now timeout a now - now))%Z end) (clock now timeout a now) = (Err e, t) ->
  chain_result timeout (a ++ f :: b) cb now = (Err e, false).
Proof. exact chain_error. Qed.
Print Assumptions C32_chain_error.

Example C32_chain_example :
  let takes d := (fun left_ now => match left_ with Some t => if (t <? d)%Z then (Err TimeoutError, (now + t)%Z) else (Ok tt, (now + d)%Z) | None => (Ok tt, (now + d)%Z) end) : future in
  chain_result (Some 10%Z) [takes 3%Z; takes 4%Z] (Ok tt) 100%Z = (Ok tt, true) /\
  chain_result (Some 10%Z) [takes 3%Z; takes 8%Z] (Ok tt) 100%Z = (Err TimeoutError, false) /\
  chain_result (Some 10%Z) [takes 3%Z; (fun _ n => (Err KeyError, n)); takes 8%Z] (Ok tt) 100%Z = (Err KeyError, false).
Proof. vm_compute. auto. Qed.
