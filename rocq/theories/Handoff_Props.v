(** C72: the handoff of colocated saves to the workers *)
From Coq Require Import List Bool Arith Lia.
From Verif Require Import Base Handoff_Model Handoff_Spec Handoff_Proofs.
Import ListNotations.

(** A save, in any execution with any number of callers: its dataset is saved at most once, and only if the workers all said that they had saved; the payload is let go only when
    the workers have answered; the thread tells what the workers answered; and what is recorded as saved is what the workers answered, with the dataset saved if there is one. *)
Theorem C72_saves : forall n s i r, reach any n s -> nth_error (recs s) i = Some r ->
  r_persisted r <= 1 /\ (r_persisted r = 1 -> r_dataset r = true /\ r_fate r = Ok true /\ r_ready r = true) /\
  (r_keepalive r = false -> r_ready r = true) /\ (answered r -> r_keepalive r = false) /\
  (r_done r = true <-> answered r) /\ (forall b, r_handoff_saved r = Some b -> r_fate r = Ok b) /\ (forall e, r_error r = Some e -> r_fate r = Err e) /\
  (forall b, r_saved r = Some b -> r_fate r = Ok b /\ r_persisted r = times (r_dataset r) b).
Proof.
  intros n s i r R RI. pose proof (proj1 (reach_inv _ _ _ R) _ _ RI) as (K1 & K2 & K3 & K4 & K5 & K6 & K7 & K8).
  assert (D : answered r \/ ~ answered r) by (unfold answered; destruct (r_thread r); auto; right; intros [X|X]; discriminate).
  destruct D as [AN|NA].
  - destruct (K2 AN) as (A1 & A2 & A3 & A4). split; [destruct (r_persisted r) as [|[|]] eqn:P; auto; destruct K7 as [X _]; lia|]. split; [intros P; destruct K7 as (_ & X & Y); [lia|auto]|]. split; auto. split; auto. split; [tauto|].
    destruct (r_fate r) as [b|e] eqn:FE.
    + destruct A4 as (B1 & B2 & _). split; [congruence|]. split; [congruence|auto].
    + destruct A4 as (B1 & B2 & B3 & B4). split; [congruence|]. split; [congruence|auto].
  - destruct (K1 NA) as (A1 & A2 & A3 & A4 & A5). rewrite A1, A2, A3, A4, A5. split; [lia|]. split; [discriminate|]. split; [|split; [tauto|split; [split; [discriminate|tauto]|repeat split; discriminate]]].
    unfold answered in NA. intros KA. destruct (r_thread r) eqn:T; try (rewrite K6 in KA by auto; discriminate); try tauto; apply K5; auto.
Qed.
Print Assumptions C72_saves.

(** Two callers drain the same save with a dataset: it is saved once, and both are told that it was saved. *)
Example C72_saves_example :
  match exec (initial 2) ([ABegin 0 (CSave true true (Ok true)); AGo 0 true; AGo 0 true; AGo 0 true; ABegin 0 (CDrain true); ABegin 1 CFinish; AGo 0 true; AGo 1 true; AGo 0 true; AGo 0 true; AReady 0]
                          ++ repeat (AThread 0) 4 ++ repeat (AGo 0 true) 4 ++ repeat (AGo 1 true) 4) with
  | Some (s, es) => map r_persisted (recs s) = [1] /\ pending s = None /\ es = [Dispatched 0 0; Returned 0 (Some 0) (Ok (Some true)); Returned 1 (Some 0) (Ok (Some true))]
  | None => False
  end.
Proof. vm_compute. auto. Qed.

(** What a caller is told holds: "saved" only if the workers all saved and the dataset is saved; "not saved" only if the workers all said so, or the caller did not want to wait; and an error is
    the error of the workers, or that of a thread that is not started yet, or that of the persistent manager or of the waiting for the workers. *)
Theorem C72_told : forall n s x s' es c i out, reach any n s -> step s x = Some (s', es) -> In (Returned c (Some i) out) es ->
  exists q, nth_error (callers s) c = Some q /\ save_is s' i (fun r => means r (impatient q) out).
Proof. intros n s x s' es c i out R. apply step_means. eapply reach_inv; eauto. Qed.
Print Assumptions C72_told.

(** The workers disagree, and each of the callers is told. *)
Example C72_told_example :
  match exec (initial 2) ([ABegin 0 (CSave true true (Err RuntimeError)); AGo 0 true; AGo 0 true; AGo 0 true; AReady 0] ++ repeat (AThread 0) 4 ++ [ABegin 1 CCheck] ++ repeat (AGo 1 true) 2
                          ++ [ABegin 0 CFinish] ++ repeat (AGo 0 true) 5) with
  | Some (s, es) => es = [Dispatched 0 0; Returned 1 (Some 0) (Err RuntimeError); Returned 0 (Some 0) (Err RuntimeError)] /\ map r_persisted (recs s) = [0]
  | None => False
  end.
Proof. vm_compute. auto. Qed.

(** With one caller that saves (and any number of others that drain, finish and check): no save is lost. Each save is either still pending or what the workers answered is recorded, with the
    dataset saved if they all saved. *)
Theorem C72_no_loss : forall n s i r, reach one_saver n s -> nth_error (recs s) i = Some r -> pending s <> Some i ->
  exists b, r_saved r = Some b /\ r_fate r = Ok b /\ r_persisted r = times (r_dataset r) b.
Proof.
  intros n s i r R RI NP. pose proof (proj2 (reach_lone _ _ R) _ _ RI NP) as SV. destruct (r_saved r) as [b|] eqn:S; [|congruence]. exists b. split; auto. apply (proj1 (proj2 (proj2 (proj1 (reach_inv _ _ _ R) _ _ RI)))). auto.
Qed.
Print Assumptions C72_no_loss.

(** The second save finishes the first one before it is handed off. *)
Example C72_no_loss_example :
  let l := [ABegin 0 (CSave true true (Ok true)); AGo 0 true; AGo 0 true; AGo 0 true; AReady 0] ++ repeat (AThread 0) 4 ++ [ABegin 0 (CSave true true (Ok false))] ++ repeat (AGo 0 true) 12 in
  Forall one_saver l /\ match exec (initial 3) l with Some (s, es) => map r_persisted (recs s) = [1; 0] /\ pending s = Some 1 /\ es = [Dispatched 0 0; Dispatched 0 1] | None => False end.
Proof. split; [repeat constructor|vm_compute; auto]. Qed.

(** Whatever the state, and whatever the callers have in hand: some step that begins no new call is possible while a caller is in a call. *)
Theorem C72_no_deadlock : forall n s c, reach any n s -> busy s c -> exists x, ongoing x /\ step s x <> None.
Proof. intros n s c R B. eapply no_deadlock; eauto; [eapply reach_inv|eapply reach_owned]; eauto. Qed.
Print Assumptions C72_no_deadlock.

(** There is a bound on how many steps follow without a new call. *)
Theorem C72_bounded : forall n s, reach any n s -> exists N, forall l, Forall ongoing l -> exec s l <> None -> length l <= N.
Proof. intros n s R. exists (measure s). intros l. apply bounded. eapply reach_inv; eauto. Qed.
Print Assumptions C72_bounded.

(** When no step is possible without a new call, every call has returned and every thread has ended. *)
Theorem C72_rest : forall n s, reach any n s -> (forall x, ongoing x -> step s x = None) -> (forall c, ~ busy s c) /\ forall i r, nth_error (recs s) i = Some r -> r_thread r = TEnd /\ r_done r = true.
Proof.
  intros n s R N. destruct (rest _ _ _ R N) as [B T]. split; auto. intros i r RI. split; eauto. apply (proj1 (proj2 (proj1 (reach_inv _ _ _ R) _ _ RI))). right. eauto.
Qed.
Print Assumptions C72_rest.

(** A call that ends has an outcome. *)
Theorem C72_outcome : forall n s x s' es c, reach any n s -> step s x = Some (s', es) -> busy s c -> ~ busy s' c -> exists e, In e es /\ ((exists i out, e = Returned c i out) \/ (exists i, e = Dispatched c i)).
Proof. intros n s x s' es c _. apply answered_call. Qed.
Print Assumptions C72_outcome.

(** A caller waits for the lock that another one holds while it waits for the thread, which waits for the workers: then only their answer can come, and after it all is done. *)
Example C72_no_deadlock_example :
  let l := [ABegin 0 (CSave true true (Ok true)); AGo 0 true; AGo 0 true; AGo 0 true; ABegin 0 (CDrain true); ABegin 1 CFinish; AGo 0 true; AGo 1 true; AGo 0 true; AGo 0 true] in
  match exec (initial 2) l with
  | Some (s, _) => callers s = [Join 0 (ForDrain true); Acquire 0 (ForFinish AfterReturn)] /\ step s (AGo 0 true) = None /\ step s (AGo 1 true) = None /\ step s (AThread 0) = None /\ step s (AReady 0) <> None
  | None => False
  end.
Proof. vm_compute. repeat split; discriminate. Qed.

(** With one caller that saves, a save that is not confirmed by the workers stays the pending one for ever: nothing that is called afterwards removes it, and no further save is handed off. *)
Theorem C72_failed : forall n s s' i e, reach one_saver n s -> pending s = Some i -> save_is s i (fun r => r_fate r = Err e) -> later one_saver s s' ->
  pending s' = Some i /\ length (recs s') = length (recs s).
Proof. intros n s s' i e R P F L. destruct (failed_forever _ _ _ _ _ R P F L) as (A & B & _). auto. Qed.
Print Assumptions C72_failed.

(** A save counts as undrained if it is pending and nothing is recorded about it. *)
Theorem C72_undrained : forall n s, reach any n s -> (has_undrained_pending_save s = true <-> exists i, pending s = Some i /\ save_is s i (fun r => r_saved r = None)).
Proof.
  intros n s R. unfold has_undrained_pending_save, save_is. destruct (pending s) as [i|] eqn:P; [|split; [discriminate|intros (i & X & _); discriminate]].
  destruct (nth_error (recs s) i) as [r|] eqn:RI.
  - split.
    + intros H. exists i. split; auto. exists r. split; auto. destruct (r_saved r); [discriminate|auto].
    + intros (j & J & r' & R' & S). assert (j = i) by congruence. subst j. assert (r' = r) by congruence. subst r'. rewrite S. auto.
  - split; [discriminate|]. intros (j & J & r' & R' & S). congruence.
Qed.
Print Assumptions C72_undrained.

Example C72_undrained_example :
  match exec (initial 1) [ABegin 0 (CSave true true (Ok true)); AGo 0 true; AGo 0 true; AGo 0 true; AReady 0; AThread 0; AThread 0; AThread 0; AThread 0] with
  | Some (s, _) => has_undrained_pending_save s = true /\ match exec s [ABegin 0 (CDrain true); AGo 0 true; AGo 0 true; AGo 0 true; AGo 0 true; AGo 0 true; AGo 0 true; AGo 0 true] with Some (s', _) => has_undrained_pending_save s' = false | None => False end
  | None => False
  end.
Proof. vm_compute. auto. Qed.

(** The end of [finish]: the save is not pending any more, another one that is stays so; if the save was confirmed, the workers are waited for, and if that fails the caller is told. *)
Theorem C72_finish : forall n s c i b a fine s1 e1 fine' s2 e2, reach any n s -> nth_error (callers s) c = Some (FinWait i b a) -> step s (AGo c fine) = Some (s1, e1) -> step s1 (AGo c fine') = Some (s2, e2) ->
  e1 = [] /\ pending s2 <> Some i /\ (pending s <> Some i -> pending s2 = pending s) /\
  (a = AfterReturn \/ (b = true /\ fine = false) -> e2 = [Returned c (Some i) (if b && negb fine then Err OtherError else Ok (Some b))]).
Proof.
  intros n s c i b a fine s1 e1 fine' s2 e2 R Q H1 H2. pose proof (proj1 (proj2 (reach_inv _ _ _ R)) _ _ Q) as (r & RI & SV). cbn [step] in H1. rewrite Q in H1. cbn [go] in H1. rewrite RI, SV in H1. injection H1 as <- <-.
  cbn [step at_pc callers] in H2. rewrite (put_same _ _ _ _ Q) in H2. cbn [go at_pc recs pending] in H2. rewrite RI in H2. split; auto.
  assert (P : pending s2 = match pending s with Some j => if j =? i then None else pending s | None => None end) by (destruct a, b, fine; injection H2 as <- <-; reflexivity).
  rewrite P. split; [|split].
  - destruct (pending s) as [j|]; [|discriminate]. destruct (j =? i) eqn:E; [discriminate|]. apply Nat.eqb_neq in E. congruence.
  - intros N. destruct (pending s) as [j|]; auto. destruct (j =? i) eqn:E; auto. apply Nat.eqb_eq in E. congruence.
  - intros [-> | [-> ->]]; [destruct b, fine; injection H2 as <- <-; reflexivity|destruct a; injection H2 as <- <-; reflexivity].
Qed.
Print Assumptions C72_finish.

Example C72_finish_example :
  match exec (initial 1) ([ABegin 0 (CSave true true (Ok true)); AGo 0 true; AGo 0 true; AGo 0 true; AReady 0] ++ repeat (AThread 0) 4 ++ [ABegin 0 CFinish] ++ repeat (AGo 0 true) 7) with
  | Some (s, _) => callers s = [FinWait 0 true AfterReturn] /\ match exec s [AGo 0 false; AGo 0 true] with Some (s', es) => pending s' = None /\ es = [Returned 0 (Some 0) (Err OtherError)] | None => False end
  | None => False
  end.
Proof. vm_compute. auto. Qed.

(** A drain whose dataset cannot be saved raises, and the save stays undrained, so that a later drain saves the dataset. *)
Theorem C72_retry : forall n s c i p s' es, reach any n s -> nth_error (callers s) c = Some (Persist i p) -> save_is s i (fun r => r_dataset r = true) -> step s (AGo c false) = Some (s', es) ->
  es = [Returned c (Some i) (Err OtherError)] /\ save_is s' i (fun r => r_saved r = None /\ r_persisted r = 0 /\ r_fate r = Ok true /\ r_owner r = None) /\ pending s' = pending s.
Proof.
  intros n s c i p s' es R Q (r & RI & D) H. pose proof (proj1 (proj2 (reach_inv _ _ _ R)) _ _ Q) as (r' & RI' & O & P0 & SV & AN & FE). assert (r' = r) by congruence. subst r'. cbn [step] in H. rewrite Q in H. cbn [go] in H. rewrite RI, D in H. cbn [raised] in H. injection H as <- <-.
  split; auto. split; auto. eexists. split; [cbn; eapply put_same; eauto|]. cbn. auto.
Qed.
Print Assumptions C72_retry.

Example C72_retry_example :
  match exec (initial 1) ([ABegin 0 (CSave true true (Ok true)); AGo 0 true; AGo 0 true; AGo 0 true; AReady 0] ++ repeat (AThread 0) 4 ++ [ABegin 0 CFinish] ++ repeat (AGo 0 true) 5) with
  | Some (s, _) => callers s = [Persist 0 (ForFinish AfterReturn)] /\ match exec s ([AGo 0 false; ABegin 0 CFinish] ++ repeat (AGo 0 true) 9) with Some (s', es) => pending s' = None /\ map r_persisted (recs s') = [1] /\ es = [Returned 0 (Some 0) (Err OtherError); Returned 0 (Some 0) (Ok (Some true))] | None => False end
  | None => False
  end.
Proof. vm_compute. auto. Qed.

(** A drain that does not want to wait waits for no thread: it says "not saved" while the thread runs, and goes on otherwise. *)
Theorem C72_impatient : forall n s c i fine, reach any n s -> nth_error (callers s) c = Some (Join i (ForDrain false)) ->
  exists s' es r, step s (AGo c fine) = Some (s', es) /\ nth_error (recs s) i = Some r /\
    (es = [Returned c (Some i) (Ok (Some false))] /\ ~ busy s' c <-> r_thread r <> TNew /\ r_thread r <> TEnd) /\ (r_thread r = TNew \/ r_thread r = TEnd -> es = [] /\ nth_error (callers s') c = Some (Done i (ForDrain false))).
Proof.
  intros n s c i fine R Q. pose proof (proj1 (proj2 (reach_inv _ _ _ R)) _ _ Q) as (r & RI & _). cbn [step]. rewrite Q. cbn [go waits]. rewrite RI.
  assert (NB : forall s', callers s' = put c Idle (callers s) -> ~ busy s' c). { intros s' E (q & X & N). rewrite E, (put_same _ _ _ _ Q) in X. congruence. }
  destruct (r_thread r) eqn:T; cbn [alive drained]; eexists; eexists; exists r; (split; [reflexivity|]); (split; [reflexivity|]); rewrite T; split;
    try (split; [intros [X _]; discriminate|intros [X Y]; congruence]); try (intros _; split; auto; cbn; eapply put_same; eauto; fail); try (intros [X|X]; discriminate); (split; [intros _; split; discriminate|intros _; split; [reflexivity|apply NB; reflexivity]]).
Qed.
Print Assumptions C72_impatient.

Example C72_impatient_example :
  match exec (initial 1) ([ABegin 0 (CSave true true (Ok true)); AGo 0 true; AGo 0 true; AGo 0 true; ABegin 0 (CDrain false)] ++ repeat (AGo 0 true) 3) with
  | Some (s, _) => callers s = [Join 0 (ForDrain false)] /\ match exec s [AGo 0 true] with Some (s', es) => es = [Returned 0 (Some 0) (Ok (Some false))] | None => False end
  | None => False
  end.
Proof. vm_compute. auto. Qed.

(** [raise_on_handoff_error] raises the error of a handoff whose thread has ended, and nothing otherwise. *)
Theorem C72_check : forall n s c i fine r, reach any n s -> nth_error (callers s) c = Some (Check i) -> nth_error (recs s) i = Some r ->
  exists s', step s (AGo c fine) = Some (s', [Returned c (Some i) (match r_fate r with Err e => match r_thread r with TEnd => Err e | _ => Ok None end | Ok _ => Ok None end)]) /\ recs s' = recs s /\ pending s' = pending s.
Proof.
  intros n s c i fine r R Q RI. pose proof (proj1 (reach_inv _ _ _ R) _ _ RI) as (K1 & K2 & _). cbn [step]. rewrite Q. cbn [go]. rewrite RI. unfold answered in *.
  destruct (r_thread r) eqn:T; cbn [alive]; try (destruct (r_fate r); eexists; (split; [reflexivity|split; reflexivity]); fail).
  - destruct K1 as (_ & _ & -> & _); [intros [X|X]; discriminate|]. destruct (r_fate r); eexists; (split; [reflexivity|split; reflexivity]).
  - destruct K2 as (-> & _ & _ & F); auto. destruct (r_fate r); [destruct F as (_ & -> & _)|destruct F as (_ & -> & _)]; eexists; (split; [reflexivity|split; reflexivity]).
Qed.
Print Assumptions C72_check.

Example C72_check_example :
  match exec (initial 1) ([ABegin 0 (CSave true true (Err TypeError)); AGo 0 true; AGo 0 true; AGo 0 true; AReady 0; ABegin 0 CCheck; AGo 0 true; AThread 0; AThread 0; AThread 0; AThread 0]) with
  | Some (s, _) => callers s = [Check 0] /\ match exec s [AGo 0 true] with Some (s', es) => es = [Returned 0 (Some 0) (Err TypeError)] | None => False end
  | None => False
  end.
Proof. vm_compute. auto. Qed.

(** After an error of a handoff has been reported, one expects that a later save is handed off again. It is not: [finish] raises the error at CC l.345, before the [try] whose [finally] clears the
    pending save (CC l.346-355), so that every later [save] raises the same error (CC l.972-977) and [wait_until_finished] does too; only a new controller helps. *)
Theorem C72_recovery_refuted : exists n s, reach one_saver n s /\ (forall c, ~ busy s c) /\ length (recs s) = 1 /\ forall s', later one_saver s s' -> length (recs s') = 1.
Proof.
  set (l := [ABegin 0 (CSave true true (Err RuntimeError)); AGo 0 true; AGo 0 true; AGo 0 true; AReady 0] ++ repeat (AThread 0) 4 ++ [ABegin 0 CFinish] ++ repeat (AGo 0 true) 5).
  destruct (exec (initial 2) l) as [[s es]|] eqn:E; [|vm_compute in E; discriminate].
  assert (R : reach one_saver 2 s). { eapply exec_reach; [apply ReachInit| |exact E]. unfold l. repeat constructor. }
  exists 2, s. split; auto. vm_compute in E. injection E as E _. split; [|split].
  - intros c (q & Q & N). rewrite <- E in Q. apply N. destruct c as [|[|c]]; cbn in Q; try congruence. destruct c; discriminate.
  - rewrite <- E. reflexivity.
  - intros s' L. destruct (C72_failed 2 s s' 0 RuntimeError R) as [_ ->]; auto; rewrite <- E; [reflexivity|eexists; split; [reflexivity|reflexivity]|reflexivity].
Qed.
Print Assumptions C72_recovery_refuted.

(** With two callers that save at the same time one expects that each of the datasets is saved. It is not: both may find no pending save (CC l.972-977, the look is not under the lock of the publication),
    and the second one then replaces the first one's pending save (CC l.204-206), which no call ever drains again, although its caller was told that it was dispatched. *)
Theorem C72_two_savers_refuted : exists n s i es l, exec (initial n) l = Some (s, es) /\ In (Dispatched 0 i) es /\ save_is s i (fun r => r_dataset r = true /\ r_fate r = Ok true) /\
  forall s', later any s s' -> save_is s' i (fun r => r_persisted r = 0).
Proof.
  set (l := [ABegin 0 (CSave true true (Ok true)); ABegin 1 (CSave true true (Ok true)); AGo 0 true; AGo 1 true; AGo 0 true; AGo 1 true; AGo 0 true; AGo 1 true]).
  destruct (exec (initial 2) l) as [[s es]|] eqn:E; [|vm_compute in E; discriminate]. exists 2, s, 0, es, l. split; auto. vm_compute in E. injection E as Es Ees. split; [rewrite <- Ees; left; reflexivity|].
  assert (RI : nth_error (recs s) 0 = Some (set_thread TWait (fresh true (Ok true)))) by (rewrite <- Es; reflexivity).
  split; [eexists; split; [exact RI|split; reflexivity]|]. intros s' L. destruct (forgotten_forever s s' 0 (set_thread TWait (fresh true (Ok true)))) as [_ X]; auto.
  rewrite <- Es. split; [cbn; lia|]. split; [discriminate|]. intros c q Q. destruct c as [|[|c]]; cbn in Q; try (injection Q as <-; discriminate). destruct c; discriminate.
Qed.
Print Assumptions C72_two_savers_refuted.

(** One expects that a drain fails only if the handoff fails, or the dataset cannot be saved. It may fail otherwise: a pending save is published under the lock but its thread is started after that
    (CC l.204-207), and a drain that waits and comes between joins a thread that was not started, which is a RuntimeError (CC l.264). *)
Theorem C72_join_refuted : exists n l s es, exec (initial n) l = Some (s, es) /\ Forall one_saver l /\ Forall (fun x => match x with AGo _ fine => fine = true | ABegin _ (CSave _ _ f) => f = Ok true | _ => True end) l /\
  In (Returned 1 (Some 0) (Err RuntimeError)) es.
Proof.
  exists 2, [ABegin 0 (CSave true true (Ok true)); ABegin 1 (CDrain true); AGo 0 true; AGo 0 true; AGo 1 true; AGo 1 true; AGo 1 true; AGo 1 true].
  eexists. eexists. split; [vm_compute; reflexivity|]. split; [repeat constructor|]. split; [repeat constructor|]. left. reflexivity.
Qed.
Print Assumptions C72_join_refuted.
