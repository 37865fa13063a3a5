(** C31: a multi-host save commits only after every host finished writing. *)
From Coq Require Import List Bool Arith Lia.
From Verif Require Import Base Commit_Model Commit_Spec Commit_Proofs.
Import ListNotations.

(** Three hosts, host 1 in charge. *)
Definition ex_good : list event :=
  [Writes 2 (Ok tt); Writes 0 (Ok tt); Writes 1 (Ok tt); OpenWrite; PassWrite 0; Callback 0; PassWrite 1; Callback 1; PassWrite 2;
   Rename 1; CallbackEnds 1 (Ok tt); Callback 2; OpenCommit; PassCommit 2; PassCommit 0; PassCommit 1].
Definition ends (o : option state) : list phase := match o with Some st => phases st | None => [] end.

(** A host that commits is in charge of it, takes part, and every host's writes
    had completed by then (apply it to the history up to the commit). *)
Theorem C31_after_writes : forall n multi primary es st i, history n multi primary es st -> committed_by i es ->
  in_charge primary i /\ i < n /\ forall j, j < n -> In (Writes j (Ok tt)) es.
Proof. exact commit_after. Qed.
Print Assumptions C31_after_writes.

Example C31_after_writes_ex : ends (play true (Some 1) (initial 3) ex_good) = [Finished; Finished; Finished] /\
  play true (Some 1) (initial 3) [Writes 1 (Ok tt); Writes 0 (Ok tt); OpenWrite] = None /\
  play true (Some 1) (initial 3) [Writes 1 (Ok tt); PassWrite 1] = None /\
  ends (play false (Some 0) (initial 1) [Writes 0 (Ok tt); Callback 0; Rename 0; CallbackEnds 0 (Ok tt)]) = [Finished].
Proof. repeat split; vm_compute; reflexivity. Qed.

(** With a primary host there is at most one commit, and it is that host's. *)
Theorem C31_once : forall n multi p es st, history n multi (Some p) es st -> times_committed es <= 1 /\ forall i, committed_by i es -> i = p.
Proof. exact commit_once. Qed.
Print Assumptions C31_once.

Example C31_once_ex : times_committed ex_good = 1 /\ committed_by 1 ex_good.
Proof. split; [reflexivity|]. unfold committed_by, ex_good. simpl. tauto. Qed.

(** A host reports success only after every host in charge committed. *)
Theorem C31_success : forall n multi primary es st i j, history n multi primary es st -> reports_success st i ->
  j < n -> in_charge primary j -> committed_by j es.
Proof. exact success_means. Qed.
Print Assumptions C31_success.

(** The condition that the host in charge takes part is needed: it is demanded in
    the documentation of the options but not checked. *)
Example C31_success_ex : ends (play true (Some 1) (initial 3) (firstn 14 ex_good)) = [AtCommit; AtCommit; Finished] /\
  ends (play true (Some 5) (initial 2) [Writes 0 (Ok tt); Writes 1 (Ok tt); OpenWrite; PassWrite 0; PassWrite 1; Callback 0; Callback 1;
    OpenCommit; PassCommit 0; PassCommit 1]) = [Finished; Finished].
Proof. split; vm_compute; reflexivity. Qed.

(** If the writes of any host fail, or any host gives up at the first barrier
    before it opened, nothing is ever committed. *)
Theorem C31_failed_writes : forall n multi primary es st i j e, history n multi primary es st -> In (Writes j (Err e)) es -> ~ committed_by i es.
Proof. exact failed_writes. Qed.
Print Assumptions C31_failed_writes.

Theorem C31_early_timeout : forall n primary a b st i j, history n true primary (a ++ TimesOut j :: b) st -> ~ In OpenWrite a ->
  ~ committed_by i (a ++ TimesOut j :: b).
Proof. exact early_timeout. Qed.
Print Assumptions C31_early_timeout.

Example C31_failed_ex : ends (play true (Some 1) (initial 2) [Writes 0 (Err OtherError); Writes 1 (Ok tt); TimesOut 1]) = [Failed OtherError; Failed TimeoutError] /\
  play true (Some 1) (initial 2) [Writes 1 (Ok tt); TimesOut 1; Writes 0 (Ok tt); OpenWrite] = None.
Proof. split; vm_compute; reflexivity. Qed.

(** The converse fails: a host that reports a failure does not mean that nothing
    was committed.  If the commit takes longer than what is left of the timeout,
    the other hosts give up at the second barrier while the rename succeeds; all
    hosts may even report failure of a checkpoint that is complete. *)
Theorem C31_late_failure_refuted : exists n es st, history n true (Some 0) es st /\ (forall i, i < n -> reports_failure st i) /\ committed_by 0 es.
Proof.
  exists 2, [Writes 0 (Ok tt); Writes 1 (Ok tt); OpenWrite; PassWrite 0; PassWrite 1; Callback 0; Callback 1; TimesOut 1; Rename 0;
    CallbackEnds 0 (Ok tt); TimesOut 0], (mk_state [Failed TimeoutError; Failed TimeoutError] true false).
  split; [|split].
  - split; [discriminate|vm_compute; reflexivity].
  - intros [|[|i]] L; [| |lia]; exists TimeoutError; reflexivity.
  - unfold committed_by. simpl. tauto.
Qed.
Print Assumptions C31_late_failure_refuted.

(** No deadlock: as long as nobody failed, everybody can still finish. *)
Theorem C31_progress : forall n multi primary es st, history n multi primary es st -> healthy st ->
  exists more st', history n multi primary (es ++ more) st' /\ forall i, i < n -> reports_success st' i.
Proof. exact progress. Qed.
Print Assumptions C31_progress.

Example C31_progress_ex : exists st, history 3 true (Some 1) (firstn 6 ex_good) st /\ healthy st /\ phases st = [AtCommit; AtWrite; AtWrite].
Proof.
  exists (mk_state [AtCommit; AtWrite; AtWrite] true false). split; [split; [discriminate|vm_compute; reflexivity]|]. split; [|reflexivity].
  intros [|[|[|[|i]]]] [e E]; discriminate.
Qed.
