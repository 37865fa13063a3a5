(** C85: the runner of coroutines, running a coroutine to its end, and logging of cancellations. *)
From Coq Require Import List Bool Arith Lia.
From Verif Require Import Base Runner_Model Runner_Spec Runner_Proofs.
Import ListNotations.
Local Open Scope nat_scope.

(** When a shutdown that waits has returned, every coroutine that the runner took has come to its end, in every order of events; and the loop has ended *)
Theorem C85_shutdown_waits : forall s, reached s -> waits s = true -> main s = Returned -> (forall i, In i (taken s) -> In i (finished s)) /\ closed s = true.
Proof.
  intros s R W M. split; [exact (shutdown_waits s R W M)|]. destruct (closed s) eqn:C; [reflexivity|]. destruct (reached_good s R) as (_ & G2 & _). destruct (G2 C) as (_ & X & _). congruence.
Qed.
Print Assumptions C85_shutdown_waits.

Example C85_shutdown_waits_example : exists s, exec new [ESubmit 1; ESubmit 2; ECallback; EShutdown true true; ECallback; ECallback; EFinish 1; ECapture; EFinish 2; EGathered; EStop; ECallback; EExit; EReturn] = Some s /\ waits s = true /\ main s = Returned /\ taken s = [1; 2] /\ asked s = [2].
Proof. eexists. split; [vm_compute; reflexivity | repeat split]. Qed.

(** Such a shutdown is never stuck: from every state after its call there is a way to its return, if tasks end *)
Theorem C85_shutdown_returns : forall s, reached s -> closed s = true -> exists t, later s t /\ main t = Returned /\ taken t = taken s /\ waits t = waits s.
Proof. intros s R C. destruct (can_return s R C) as (t & L & M). exists t. destruct (closed_later s t C L) as (_ & A & _ & B). now repeat split. Qed.
Print Assumptions C85_shutdown_returns.

Example C85_shutdown_returns_example : exists s, exec new [ESubmit 1; EShutdown true false; ECallback; ESpawn 1 2; ECallback; ECapture] = Some s /\ closed s = true /\ main s = AwaitTask /\ shut s = Gathering [1; 2].
Proof. eexists. split; [vm_compute; reflexivity | repeat split]. Qed.

(** The order in which a shutdown that waits goes: it returns only after the thread has ended, the loop is asked to stop only after the tasks were gathered, and tasks are gathered only when all are at their end *)
Theorem C85_order : forall s t, (step s EReturn = Some t -> running s = false /\ main s = AwaitThread) /\ (step s EStop = Some t -> shut s = Gathered /\ main s = AwaitTask) /\
  (step s EGathered = Some t -> exists l, shut s = Gathering l /\ (forall i, In i l -> In i (finished s))) /\ (step s EExit = Some t -> stopping s = true).
Proof.
  intros s t. cbn [step]. split; [|split; [|split]].
  - destruct (main s); try discriminate. destruct (running s); [discriminate | now split].
  - destruct (main s); try discriminate. destruct (shut s); try discriminate. now split.
  - destruct (running s); [|discriminate]. destruct (shut s) as [| | l |]; try discriminate. destruct (forallb _ l) eqn:F; [|discriminate]. intros _. exists l. split; [reflexivity|]. intros i Hi. rewrite forallb_forall in F. now apply mem_spec, F.
  - destruct (running s); [|discriminate]. destruct (stopping s); [reflexivity | discriminate].
Qed.
Print Assumptions C85_order.

Example C85_order_example : step new EReturn = None /\ step new EStop = None /\ step new EExit = None.
Proof. repeat split. Qed.

(** After a shutdown no coroutine is taken, for ever, and a further shutdown changes nothing, also not the arguments of the first; before it every coroutine is taken *)
Theorem C85_closed : forall s w c t, later (shutdown s w c) t -> (forall i, run_coroutine t i = Err RuntimeError) /\ (forall w' c', shutdown t w' c' = t) /\ taken t = taken (shutdown s w c) /\ waits t = waits (shutdown s w c) /\ cancels t = cancels (shutdown s w c).
Proof.
  intros s w c t L. assert (C : closed (shutdown s w c) = true) by (unfold shutdown; destruct (closed s) eqn:C; [exact C | reflexivity]). destruct (closed_later _ t C L) as (Ct & A & B & D).
  unfold run_coroutine. split; [intro i; now rewrite Ct|]. split; [intros w' c'; unfold shutdown; now rewrite Ct|]. now repeat split.
Qed.
Print Assumptions C85_closed.

Example C85_closed_example : later (shutdown new true false) (shutdown new true false) /\ taken (shutdown new true false) = [].
Proof. split; [now exists [] | reflexivity]. Qed.

(** Before a shutdown a coroutine is taken, and its task is made after those that were taken before *)
Theorem C85_taken : forall s i, closed s = false -> exists t, run_coroutine s i = Ok t /\ taken t = taken s ++ [i] /\ queue t = queue s ++ [CCreate i] /\ pending t = pending s /\ finished t = finished s /\ closed t = false.
Proof. intros s i C. unfold run_coroutine. rewrite C. eexists. split; [reflexivity|]. cbn. now repeat split. Qed.
Print Assumptions C85_taken.

Example C85_taken_example : closed new = false.
Proof. reflexivity. Qed.

(** The tasks that are asked to cancel are those that run when the task of the shutdown starts, if the caller wants it, and none before or without that wish *)
Theorem C85_cancel : forall s, reached s -> match shut s with Gathering l => asked s = if cancels s then l else [] | Gathered => True | _ => asked s = [] end.
Proof. exact asked_is. Qed.
Print Assumptions C85_cancel.

(** What the shutdown takes note of: all tasks that run then *)
Theorem C85_capture : forall s t, step s ECapture = Some t -> shut t = Gathering (pending s) /\ asked t = (if cancels s then pending s else []) /\ pending t = pending s /\ shut s = Made.
Proof. intros s t. cbn [step]. destruct (running s); [|discriminate]. destruct (shut s); try discriminate. intro H. injection H as <-. now repeat split. Qed.
Print Assumptions C85_capture.

Example C85_cancel_example : exists s, exec new [ESubmit 1; ESubmit 2; EShutdown true true; ECallback; ECallback; ECallback; ECapture] = Some s /\ shut s = Gathering [1; 2] /\ asked s = [1; 2] /\ cancels s = true.
Proof. eexists. split; [vm_compute; reflexivity | repeat split]. Qed.

(** A shutdown that does not wait stops the loop at once: tasks that run then, and coroutines that were taken, never come to their end, so whoever waits for their futures waits for ever; and with `cancel` they need not even be asked to cancel, because the task that asks need not start *)
Theorem C85_no_wait_refuted : exists s i, reached s /\ waits s = false /\ cancels s = true /\ main s = Returned /\ In i (taken s) /\ In i (pending s) /\ forall t, later s t -> ~ In i (finished t) /\ asked t = [].
Proof.
  exists (mkRunner [] [1] [] [1] [] true false true Made Returned true false), 1. split; [exists [ESubmit 1; ECallback; EShutdown false true; ECallback; ECallback; EExit]; vm_compute; reflexivity|].
  repeat (split; [first [reflexivity | left; reflexivity]|]). intros t [l L]. pose proof (ended_exec l (mkRunner [] [1] [] [1] [] true false true Made Returned true false) t eq_refl L) as (_ & F & A). rewrite F, A. cbn.
  split; [intros [] | reflexivity].
Qed.
Print Assumptions C85_no_wait_refuted.

(** Also a shutdown that waits does so only for the tasks that run when its own task starts: a task that one of them starts later is left without an end, although the docstring says that it waits for all tasks *)
Theorem C85_spawned_refuted : exists s i, reached s /\ waits s = true /\ main s = Returned /\ In i (pending s) /\ forall t, later s t -> ~ In i (finished t).
Proof.
  exists (mkRunner [] [2] [1] [1] [] true true false Gathered Returned true false), 2. split; [exists [ESubmit 1; EShutdown true false; ECallback; ECallback; ECapture; ESpawn 1 2; EFinish 1; EGathered; EStop; ECallback; EExit; EReturn]; vm_compute; reflexivity|].
  repeat (split; [first [reflexivity | left; reflexivity]|]). intros t [l L]. pose proof (ended_exec l (mkRunner [] [2] [1] [1] [] true true false Gathered Returned true false) t eq_refl L) as (_ & F & A). rewrite F. cbn.
  intros [X | []]. discriminate.
Qed.
Print Assumptions C85_spawned_refuted.

(** [run_sync] gives the result of the coroutine, or the first error of it or of the coroutines that it runs, wherever nested runs are possible; the thread holds no task afterwards *)
Theorem C85_run_sync : forall n c, snd (run_sync n c) = None /\ (n <> Neither -> snd (fst (run_sync n c)) = outcome_of c) /\ (flat c -> snd (fst (run_sync n c)) = outcome_of c).
Proof.
  intros n c. unfold run_sync. pose proof (body_result n c 0 (Some 0)) as B. pose proof (fun F : flat c => F) as F. destruct (body n c 0 (Some 0)) as [[l r] h] eqn:E. cbn [fst snd] in *. split; [reflexivity|]. split; [exact B|].
  clear B F. intro F. revert l r h E. induction c as [x | k IH | a _ k _]; cbn [body outcome_of]; [intros l r h E; now injection E as _ <- _ | | destruct F].
  intros l r h E. destruct (body n k 0 (Some 0)) as [[l' r'] h'] eqn:K. injection E as _ <- _. exact (IH F l' r' h' eq_refl).
Qed.
Print Assumptions C85_run_sync.

(** Without one of the two packages a nested run is a RuntimeError *)
Theorem C85_nested_neither : forall a k, run_sync Neither (CNest a k) = ([], Err RuntimeError, None).
Proof. reflexivity. Qed.
Print Assumptions C85_nested_neither.

(** With uvloop, and without nested runs, a coroutine always finds its own task in its thread, so that it can be cancelled *)
Theorem C85_registered : forall n c, n = Uvloop \/ flat c -> forall b, In b (fst (fst (run_sync n c))) -> b = true.
Proof.
  intros n c H b. unfold run_sync. assert (X : Forall (fun b => b = true) (fst (fst (body n c 0 (Some 0))))) by (destruct H as [-> | F]; [apply body_uvloop | now apply body_flat]).
  destruct (body n c 0 (Some 0)) as [[l r] h]. cbn [fst] in *. rewrite Forall_forall in X. apply X.
Qed.
Print Assumptions C85_registered.

Example C85_run_sync_example : run_sync Uvloop (CLook (CNest (CLook (CEnd (Ok 5))) (CLook (CEnd (Ok 7))))) = ([true; true; true], Ok 7, None) /\ run_sync Uvloop (CNest (CEnd (Err ValueError)) (CEnd (Ok 7))) = ([], Err ValueError, None) /\
  run_sync Neither (CLook (CEnd (Ok 3))) = ([true], Ok 3, None).
Proof. repeat split. Qed.

(** With nest_asyncio a nested run is in the same thread, overwrites the task that the thread holds, and deletes it at its end: the outer coroutine goes on, but from then on the thread holds no task, and a future that wants to cancel it finds none *)
Theorem C85_nested_refuted : exists c, outcome_of c = Ok 7 /\ run_sync NestAsyncio c = ([true; true; false], Ok 7, None).
Proof. exists (CLook (CNest (CLook (CEnd (Ok 5))) (CLook (CEnd (Ok 7))))). now split. Qed.
Print Assumptions C85_nested_refuted.

(** [cancellable] changes nothing about an awaitable that is not cancelled; a cancelled one is asked to cancel if it can be, is logged if there is a message, and ends as cancelled or without a value, as asked *)
Theorem C85_cancellable : (forall v cc m r, cancellable (OValue v) cc m r = (OValue v, false, false)) /\ (forall e cc m r, cancellable (OError e) cc m r = (OError e, false, false)) /\
  (forall cc m, cancellable OCancelled cc m true = (OCancelled, cc, m)) /\ (forall cc m, cancellable OCancelled cc m false = (OValue None, cc, m)).
Proof. repeat split. Qed.
Print Assumptions C85_cancellable.

Example C85_cancellable_example : cancellable OCancelled true false false = (OValue None, true, false).
Proof. reflexivity. Qed.
