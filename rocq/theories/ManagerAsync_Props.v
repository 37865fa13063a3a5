(** Theorems C14-C17 for the asynchronous manager. *)
From Coq Require Import ZArith List Bool Permutation Lia.
From Verif Require Import Base Policy_Model Policy_Spec Manager_Model Manager_Spec Manager_Proofs Manager_Props
  ManagerAsync_Model ManagerAsync_Spec ManagerAsync_Proofs.
Import ListNotations.
Local Open Scope Z_scope.

(** * Executions used in the examples *)

(** Keep the newest step only, save every 2 steps. *)
Definition opts1 : options := mkOpts false 2 None (Some 1) None None false false true.
Definition cfg1 : config :=
  mkCfg false false false false true false Permanent (default_decide opts1) (default_preserve opts1).
Definition disk2 : fs := mkFs [(2, good 102)] [] [].
Definition start1 : st := ainit cfg1 disk2.

(** save(step), up to the start of the threads. *)
Definition l_save (s : Z) : list label := [LSave (sv s); LUser; LUser; LUser; LUser].
Definition l_wait : list label := [LWaitCall; LUser].

Definition final (o : option (st * list (result value))) : option (list Z * list Z * list (result value)) :=
  match o with
  | Some (x, rs) => Some (committed_steps (a_fs x), map step (a_cache x), rs)
  | None => None
  end.

Example normal_run :
  final (play cfg1 (l_save 4 ++ [LCommit] ++ repeat LFin 10 ++ l_wait) start1) =
  Some ([4], [4], [Ok (VBool true); Ok VUnit]).
Proof. vm_compute. reflexivity. Qed.

(** Careful schedules are reachable. *)
Fixpoint checked (cfg : config) (ls : list label) (x : st) : Prop :=
  match ls with
  | [] => True
  | l :: ls' => careful l x /\ unforced_label l /\ (forall s, l <> LDelete s) /\
      match astep cfg l x with Some (y, r) => smooth l x y r /\ checked cfg ls' y | None => False end
  end.

Lemma play_reach : forall cfg d0 ls x z rs, areach cfg true true false d0 x -> checked cfg ls x ->
  play cfg ls x = Some (z, rs) -> areach cfg true true false d0 z.
Proof.
  induction ls as [|l ls IH]; intros x z rs R C P; simpl in *; [congruence|].
  destruct C as (C1 & C2 & C3 & C4). destruct (astep cfg l x) as [[y r]|] eqn:E; [|destruct C4].
  destruct C4 as [C4 C5]. destruct (play cfg ls y) as [[z' rs']|] eqn:P'; [|discriminate]. inversion P; subst.
  apply (IH y z rs'); auto. eapply A_step; eauto.
Qed.

Definition end1 : st := match play cfg1 (l_save 4 ++ [LCommit] ++ repeat LFin 10) start1 with Some (x, _) => x | None => start1 end.
Definition half1 : st := match play cfg1 (l_save 4 ++ [LCommit] ++ repeat LFin 7) start1 with Some (x, _) => x | None => start1 end.

Ltac check_run := vm_compute; repeat split; intros; try discriminate.

Lemma disk2_wf : wf_fs disk2.
Proof.
  unfold wf_fs, committed_steps. simpl. split; [|split].
  - repeat constructor; simpl; intuition lia.
  - intros s H. intuition lia.
  - intros s [].
Qed.

Lemma end1_reach : areach cfg1 true true false disk2 end1.
Proof.
  apply (play_reach cfg1 disk2 (l_save 4 ++ [LCommit] ++ repeat LFin 10) start1 end1 [Ok (VBool true)]);
    [apply A_init|check_run|vm_compute; reflexivity].
Qed.

Lemma half1_reach : areach cfg1 true true false disk2 half1.
Proof.
  apply (play_reach cfg1 disk2 (l_save 4 ++ [LCommit] ++ repeat LFin 7) start1 half1 [Ok (VBool true)]);
    [apply A_init|check_run|vm_compute; reflexivity].
Qed.

Lemma end1_quiet : quiet end1.
Proof. check_run. Qed.

(** * C14, C15: with the discipline and without failures the asynchronous manager
    is the synchronous one *)

(** Whenever no save is in flight, the directory and the list are those of some
    run of the synchronous manager over the same directory, under every
    interleaving of the user thread, the commit thread and the finalize thread, and
    every crash and restart. *)
Theorem C14_async_refines_sync : forall cfg u del d0 x, areach cfg true u del d0 x -> quiet x ->
  exists m, reachable (always_save cfg) u d0 (a_fs x, m) /\ cache m = a_cache x.
Proof. exact async_refines. Qed.
Print Assumptions C14_async_refines_sync.

Theorem C14_async_list_is_disk : forall cfg u del d0 x, wf_fs d0 -> areach cfg true u del d0 x -> quiet x ->
  Permutation (map step (a_cache x)) (committed_steps (a_fs x)) /\ NoDup (map step (a_cache x)).
Proof. exact async_list_is_disk. Qed.
Print Assumptions C14_async_list_is_disk.

(** A save, once its threads are through, has done to directory and list exactly
    what the synchronous save does.  Together with C15_retention_is_policy and
    C15_default_retention this gives the retention of asynchronous saves. *)
Theorem C15_async_save_is_sync : forall cfg u del d0 x a x1 x2, areach cfg true u del d0 x -> quiet x ->
  0 <= sv_step a -> (u = true -> sv_force a = false) ->
  astep cfg (LSave a) x = Some (x1, None) -> threads_run cfg x1 x2 -> quiet x2 ->
  let y := after_call (always_save cfg) (CSave (wok a)) (a_fs x, mkMgr (a_cache x) false) in
  a_fs x2 = fst y /\ a_cache x2 = cache (snd y).
Proof. exact async_save_is_sync. Qed.
Print Assumptions C15_async_save_is_sync.

Example C14_async_ex : wf_fs disk2 /\ areach cfg1 true true false disk2 end1 /\ quiet end1 /\
  map step (a_cache end1) = [4] /\ committed_steps (a_fs end1) = [4].
Proof.
  split; [exact disk2_wf|]. split; [exact end1_reach|]. split; [exact end1_quiet|]. split; vm_compute; reflexivity.
Qed.

Fixpoint threads_checked (cfg : config) (ls : list label) (x : st) : Prop :=
  match ls with
  | [] => True
  | l :: ls' => (l = LUser \/ l = LCommit \/ l = LFin) /\
      match astep cfg l x with Some (y, r) => smooth l x y r /\ threads_checked cfg ls' y | None => False end
  end.

Lemma play_threads : forall cfg ls x z rs, threads_checked cfg ls x -> play cfg ls x = Some (z, rs) -> threads_run cfg x z.
Proof.
  induction ls as [|l ls IH]; intros x z rs C P; simpl in *.
  - inversion P; subst. constructor.
  - destruct C as (C1 & C4). destruct (astep cfg l x) as [[y r]|] eqn:E; [|destruct C4].
    destruct C4 as [C4 C5]. destruct (play cfg ls y) as [[z' rs']|] eqn:P'; [|discriminate]. inversion P; subst.
    eapply TR_step; eauto.
Qed.

Example C15_async_ex : exists x1, astep cfg1 (LSave (sv 4)) start1 = Some (x1, None) /\ quiet start1 /\
  threads_run cfg1 x1 end1 /\ quiet end1.
Proof.
  eexists. split; [vm_compute; reflexivity|]. split; [check_run|]. split; [|exact end1_quiet].
  eapply (play_threads cfg1 ([LUser; LUser; LUser; LUser; LCommit] ++ repeat LFin 10)).
  - vm_compute. repeat split; intros; try discriminate; auto.
  - vm_compute. reflexivity.
Qed.

(** * C16: crashes at any point of the asynchronous manager *)

(** Whatever is on disk at any moment of an asynchronous run is on disk at some
    crash point of a synchronous run; so every C16 theorem about crash points
    applies. *)
Theorem C16_async_crash_points : forall cfg u del d0 x, areach cfg true u del d0 x ->
  exists y c k, reachable (always_save cfg) u d0 y /\ nonneg_call c /\ (u = true -> ~ forced c) /\
    a_fs x = crash_point (always_save cfg) c y k.
Proof. exact async_crash_points. Qed.
Print Assumptions C16_async_crash_points.

(** A training job with the standard options can always be restored from the
    newest checkpoint on disk, at every instant. *)
Theorem C16_async_always_restorable : forall cfg o n d0 x, wf_fs d0 -> areach cfg true true false d0 x ->
  o_preserve cfg = default_preserve o -> p_best o = false -> p_keep_seconds o = None ->
  p_max_to_keep o = Some n -> 1 <= n -> (forall p, p_keep_period o = Some p -> p <> 0) ->
  newest_whole d0 -> newest_whole (a_fs x).
Proof. exact async_newest_whole. Qed.
Print Assumptions C16_async_always_restorable.

(** In [half1] the old step is half removed and the new one is there. *)
Example C16_async_ex : wf_fs disk2 /\ areach cfg1 true true false disk2 half1 /\ newest_whole disk2 /\
  committed (a_fs half1) = [(2, damage (good 102)); (4, mkCkpt 104 4 None true)].
Proof.
  split; [exact disk2_wf|]. split; [exact half1_reach|]. split; [|vm_compute; reflexivity].
  exists 2, (good 102). split; [split; [simpl; auto|reflexivity]|]. intros t' H. simpl in H. intuition lia.
Qed.

(** * C17: failures *)

(** Also when saves fail at any point, a committed checkpoint is lost only (a) by
    delete, (b) by a save of the same step that is being written, or (c) because
    the policy condemned it and either the policy condemned the new step as well or
    the new step is committed with all its files.  So a failed save deletes
    nothing. *)
Theorem C17_only_condemned_lost : forall cfg ok u del d0 l x x' r t c, areach cfg ok u del d0 x ->
  astep cfg l x = Some (x', r) -> careful l x ->
  In (t, c) (committed (a_fs x)) -> ~ In (t, c) (committed (a_fs x')) ->
  l = LDelete t \/
  (exists a ops, a_user x = UWrite a ops /\ sv_step a = t) \/
  (exists s rm pc, a_fin x = FRun s rm pc /\ In t rm /\ (In s rm \/ exists c', intact (a_fs x) s c')).
Proof. exact careful_loss. Qed.
Print Assumptions C17_only_condemned_lost.

(** Once the background part of a save has raised [e], nothing on disk changes
    until the finalize thread has ended, and it ends with [e] to be raised. *)
Theorem C17_failure_deletes_nothing : forall cfg ok u del d0 x s rm p e y, areach cfg ok u del d0 x ->
  a_fin x = FRun s rm (PWait p) -> a_exc x = Some e -> during_save cfg x y ->
  a_fs y = a_fs x /\ ((forall s' rm' pc', a_fin y <> FRun s' rm' pc') -> a_fin y = FEnd s (Some e) true).
Proof. exact failed_save. Qed.
Print Assumptions C17_failure_deletes_nothing.

(** wait_until_finished raises it, once, and takes exactly the failed step off the list. *)
Theorem C17_failure_reported : forall cfg x s e, a_fin x = FEnd s (Some e) true -> a_user x = UIdle ->
  exists y z, astep cfg LWaitCall x = Some (y, None) /\ astep cfg LUser y = Some (z, Some (Err e)) /\
    a_fs z = a_fs x /\ ~ In s (map step (a_cache z)) /\
    (forall t, t <> s -> (In t (map step (a_cache z)) <-> In t (map step (a_cache x)))) /\ ~ unreported z.
Proof. exact report. Qed.
Print Assumptions C17_failure_reported.

(** After that every listed step is on disk.  Partial: the converse is false, see
    C17_list_misses_steps_refuted; and policies must not raise. *)
Theorem C17_listed_on_disk_partial : forall cfg ok u del d0 x, (forall cs, exists rm, steps_to_remove cfg cs = Ok rm) ->
  areach cfg ok u del d0 x -> settled x -> ~ unreported x ->
  incl (map step (a_cache x)) (committed_steps (a_fs x)).
Proof. exact listed_on_disk. Qed.
Print Assumptions C17_listed_on_disk_partial.

Fixpoint careful_run (cfg : config) (ls : list label) (x : st) : Prop :=
  match ls with
  | [] => True
  | l :: ls' => careful l x /\ unforced_label l /\ (forall s, l <> LDelete s) /\
      match astep cfg l x with Some (y, r) => careful_run cfg ls' y | None => False end
  end.

Lemma play_careful : forall cfg d0 ls x z rs, areach cfg false true false d0 x -> careful_run cfg ls x ->
  play cfg ls x = Some (z, rs) -> areach cfg false true false d0 z.
Proof.
  induction ls as [|l ls IH]; intros x z rs R C P; simpl in *; [congruence|].
  destruct C as (C1 & C2 & C3 & C4). destruct (astep cfg l x) as [[y r]|] eqn:E; [|destruct C4].
  destruct (play cfg ls y) as [[z' rs']|] eqn:P'; [|discriminate]. inversion P; subst.
  apply (IH y z rs'); auto. eapply A_step; eauto. discriminate.
Qed.

Definition failing : list label := l_save 4 ++ [LFin; LCommitFail OtherError].
Definition fail1 : st := match play cfg1 failing start1 with Some (x, _) => x | None => start1 end.
Definition fail2 : st := match play cfg1 (failing ++ repeat LFin 4) start1 with Some (x, _) => x | None => start1 end.
Definition fail3 : st := match play cfg1 (failing ++ repeat LFin 4 ++ l_wait) start1 with Some (x, _) => x | None => start1 end.

Lemma fail1_reach : areach cfg1 false true false disk2 fail1.
Proof.
  apply (play_careful cfg1 disk2 failing start1 fail1 [Ok (VBool true)]); [apply A_init|check_run|vm_compute; reflexivity].
Qed.

Lemma fail3_reach : areach cfg1 false true false disk2 fail3.
Proof.
  apply (play_careful cfg1 disk2 (failing ++ repeat LFin 4 ++ l_wait) start1 fail3 [Ok (VBool true); Err OtherError]);
    [apply A_init|check_run|vm_compute; reflexivity].
Qed.

(** Hypotheses of the four theorems, for a save of step 4 that fails. *)
Example C17_ex : areach cfg1 false true false disk2 fail1 /\ a_fin fail1 = FRun 4 [2] (PWait WLoad) /\
  a_exc fail1 = Some OtherError /\ during_save cfg1 fail1 fail2 /\ a_fin fail2 = FEnd 4 (Some OtherError) true /\
  areach cfg1 false true false disk2 fail3 /\ settled fail3 /\ ~ unreported fail3 /\ committed_steps (a_fs fail3) = [2].
Proof.
  split; [exact fail1_reach|]. split; [vm_compute; reflexivity|]. split; [vm_compute; reflexivity|].
  split; [|split; [vm_compute; reflexivity|split; [exact fail3_reach|]]].
  - do 4 (eapply DS_step with (l := LFin); [vm_compute; reflexivity|vm_compute; reflexivity|exact Logic.I|]).
    assert (E : fail2 = match play cfg1 (repeat LFin 4) fail1 with Some (x, _) => x | None => fail1 end) by (vm_compute; reflexivity).
    rewrite E. apply DS_refl.
  - split; [check_run|]. split; [|vm_compute; reflexivity]. intros (s & e & E). vm_compute in E. discriminate.
Qed.

(** A loss in the sense of C17_only_condemned_lost, case (c). *)
Example C17_loss_ex : exists x', astep cfg1 LFin half1 = Some (x', None) /\
  In (2, damage (good 102)) (committed (a_fs half1)) /\ committed_steps (a_fs x') = [4] /\
  a_fin half1 = FRun 4 [2] (PDelete [] [ORemove 2]).
Proof. eexists. split; [vm_compute; reflexivity|]. split; [simpl; auto|]. split; vm_compute; reflexivity. Qed.

(** ** What does not hold *)

(** Finding: the steps to remove are dropped from the list when the save starts
    (CM l.1556).  If the save then fails they stay on disk and out of the list:
    with max_to_keep=1 latest_step() is None although step 2 is there, and
    restore() without a step fails. *)
Theorem C17_list_misses_steps_refuted : exists x, areach cfg1 false true false disk2 x /\ quiet x /\
  committed (a_fs x) = [(2, good 102)] /\ a_cache x = [] /\ latest_step (as_mgr x) = None /\
  out_res (restore None (a_fs x) (as_mgr x)) = Err FileNotFoundError.
Proof.
  exists fail3. split; [exact fail3_reach|]. split; [check_run|]. repeat split; vm_compute; reflexivity.
Qed.
Print Assumptions C17_list_misses_steps_refuted.

(** Finding: that step is never removed again; after the retried save two steps are
    on disk with max_to_keep=1. *)
Definition fail4 : st :=
  match play cfg1 (failing ++ repeat LFin 4 ++ l_wait ++ l_save 4 ++ [LCommit] ++ repeat LFin 7) start1 with
  | Some (x, _) => x | None => start1 end.

(** Finding: after a failed save the leftover steps stay on disk even once a later
    save has succeeded: more than max_to_keep checkpoints remain. *)
Theorem C15_async_leftover_refuted : exists x, areach cfg1 false true false disk2 x /\ quiet x /\
  p_max_to_keep opts1 = Some 1 /\ committed_steps (a_fs x) = [2; 4] /\ map step (a_cache x) = [4].
Proof.
  exists fail4. split.
  - apply (play_careful cfg1 disk2 (failing ++ repeat LFin 4 ++ l_wait ++ l_save 4 ++ [LCommit] ++ repeat LFin 7)
      start1 fail4 [Ok (VBool true); Err OtherError; Ok (VBool true)]); [apply A_init|check_run|vm_compute; reflexivity].
  - split; [check_run|]. repeat split; vm_compute; reflexivity.
Qed.
Print Assumptions C15_async_leftover_refuted.

(** Finding: after the failure an unforced save of a step that is on disk is let
    through (the list is empty), and AsyncCheckpointer.save(force=True) removes the
    only good checkpoint before writing. *)
Theorem C16_async_overwrite_refuted : exists x rs, areach cfg1 false true false disk2 x /\
  play cfg1 (failing ++ repeat LFin 4 ++ l_wait ++ [LSave (sv 2); LUser; LUser; LUser; LUser]) start1 = Some (x, rs) /\
  newest_whole disk2 /\ committed (a_fs x) = [].
Proof.
  eexists. eexists. split; [|split; [vm_compute; reflexivity|split; [|vm_compute; reflexivity]]].
  - eapply (play_careful cfg1 disk2 (failing ++ repeat LFin 4 ++ l_wait ++ [LSave (sv 2); LUser; LUser; LUser; LUser]) start1);
      [apply A_init|check_run|vm_compute; reflexivity].
  - exists 2, (good 102). split; [split; [simpl; auto|reflexivity]|]. intros t' H. simpl in H. intuition lia.
Qed.
Print Assumptions C16_async_overwrite_refuted.

(** Finding: check_for_errors() (or restore()) called while a failing save is in
    flight takes the exception away from the finalize thread.  That thread then
    deletes the old steps: no checkpoint is left, wait_until_finished returns
    normally and the list shows the step that was never committed. *)
Theorem C17_consumed_error_refuted : exists x,
  play cfg1 (failing ++ [LCheck] ++ repeat LFin 9 ++ l_wait) start1 =
    Some (x, [Ok (VBool true); Err OtherError; Ok VUnit]) /\
  quiet x /\ committed (a_fs x) = [] /\ map step (a_cache x) = [4].
Proof. eexists. split; [vm_compute; reflexivity|]. split; [check_run|]. split; vm_compute; reflexivity. Qed.
Print Assumptions C17_consumed_error_refuted.

(** Finding: the same with restore() in place of check_for_errors(). *)
Theorem C17_restore_consumes_error_refuted : exists x,
  play cfg1 (failing ++ [LRestore 2; LUser; LUser; LUser; LUser]) start1 =
    Some (x, [Ok (VBool true); Err OtherError]) /\ a_exc x = None /\
  a_fin x = FRun 4 [2] (PWait WLoad).
Proof. eexists. split; [vm_compute; reflexivity|]. split; vm_compute; reflexivity. Qed.
Print Assumptions C17_restore_consumes_error_refuted.

(** Finding: restore() while a good save is in flight can set the commit thread to
    None between the finalize thread's test and its join: the save is reported as
    failed, its step leaves the list, and yet it is committed; the old step stays
    on disk, unlisted. *)
Theorem C17_restore_race_refuted : exists x,
  play cfg1 (l_save 4 ++ [LCommit; LFin; LRestore 2; LUser; LUser; LUser; LUser; LFin; LFin] ++ l_wait) start1 =
    Some (x, [Ok (VBool true); Ok (VData 102); Err OtherError]) /\
  quiet x /\ committed_steps (a_fs x) = [2; 4] /\ a_cache x = [].
Proof. eexists. split; [vm_compute; reflexivity|]. split; [check_run|]. split; vm_compute; reflexivity. Qed.
Print Assumptions C17_restore_race_refuted.

(** Finding: reload() while a save is in flight forgets the step being saved and
    brings back the one being deleted. *)
Theorem C14_reload_in_flight_refuted : exists x,
  play cfg1 (l_save 4 ++ [LReload; LCommit] ++ repeat LFin 10 ++ l_wait) start1 =
    Some (x, [Ok (VBool true); Ok VUnit; Ok VUnit]) /\
  quiet x /\ committed_steps (a_fs x) = [4] /\ map step (a_cache x) = [2].
Proof. eexists. split; [vm_compute; reflexivity|]. split; [check_run|]. split; vm_compute; reflexivity. Qed.
Print Assumptions C14_reload_in_flight_refuted.

(** Finding: a failure after the commit (for example in the post-commit callback)
    leaves a committed step that is not in the list. *)
Theorem C17_failure_after_commit_refuted : exists x,
  play cfg1 (l_save 4 ++ [LCommitThenFail OtherError] ++ repeat LFin 5 ++ l_wait) start1 =
    Some (x, [Ok (VBool true); Err OtherError]) /\
  quiet x /\ committed_steps (a_fs x) = [2; 4] /\ a_cache x = [].
Proof. eexists. split; [vm_compute; reflexivity|]. split; [check_run|]. split; vm_compute; reflexivity. Qed.
Print Assumptions C17_failure_after_commit_refuted.
