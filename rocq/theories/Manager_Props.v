(** Theorems C14-C16, C18-C20, C46, C47: CheckpointManager with a synchronous
    checkpointer. *)
From Coq Require Import ZArith List Bool Permutation Sorting Lia.
From Verif Require Import Base Policy_Model Policy_Spec Manager_Model Manager_Spec Manager_Proofs.
Import ListNotations.
Local Open Scope Z_scope.

(** Options used in the examples: save every 2 steps, keep the newest 2 and
    every multiple of 10. *)
Definition opts2 : options := mkOpts false 2 (Some [7]) (Some 2) None (Some 10) false false true.
Definition cfg2 : config :=
  mkCfg false false false false true false Permanent (default_decide opts2) (default_preserve opts2).
Definition cfg2_trash : config :=
  mkCfg false false false false true false ToSubdir (default_decide opts2) (default_preserve opts2).
Definition good (z : Z) : ckpt := mkCkpt z z None true.
Definition disk1 : fs := mkFs [(14, good 114); (10, good 110); (12, good 112)] [3] [].
Definition sv (s : Z) : save_args := mkSave s (100 + s) s None false false true.
Definition sv_forced (s : Z) : save_args := mkSave s (100 + s) s None true false true.

Lemma disk1_wf : wf_fs disk1.
Proof.
  unfold wf_fs, committed_steps. simpl. split; [|split].
  - repeat constructor; simpl; intuition lia.
  - intros s H. intuition lia.
  - intros s [<-|[]]. intuition lia.
Qed.

Lemma disk0_wf : wf_fs (mkFs [] [] []).
Proof. repeat split; simpl; try constructor; intros; contradiction. Qed.

(** After saving 16 and then 18 on top of [disk1]. *)
Definition state1 : fs * mgr := after_call cfg2 (CSave (sv 18)) (after_call cfg2 (CSave (sv 16)) (disk1, init cfg2 disk1)).

Lemma state1_reachable : reachable cfg2 true disk1 state1.
Proof.
  apply R_call; [apply R_call; [apply R_init| | |]| | |]; simpl; try lia; try (left; reflexivity); intros _; discriminate.
Qed.

Lemma state1_value : state1 =
  (mkFs [(10, good 110); (16, mkCkpt 116 16 None true); (18, mkCkpt 118 18 None true)] [3] [],
   mkMgr [mkInfo 10 110 None; mkInfo 16 16 None; mkInfo 18 18 None] false).
Proof. vm_compute. reflexivity. Qed.

(** * C14 *)

(** In every reachable state the manager's list is the set of committed steps,
    each once: after any calls, returning or raising, and after any crash and
    restart.  [undisturbed] (in [reachable]) asks that calls raise only while
    removal is permanent; C14_trash_collision_refuted shows that it is needed. *)
Theorem C14_list_is_disk : forall cfg u d0 x, wf_fs d0 -> reachable cfg u d0 x ->
  Permutation (all_steps (snd x)) (committed_steps (fst x)) /\ NoDup (all_steps (snd x)).
Proof. exact steps_are_committed. Qed.
Print Assumptions C14_list_is_disk.

(** Without forced saves the list is ascending and latest_step is the greatest
    committed step. *)
Theorem C14_latest_is_greatest : forall cfg d0 x, wf_fs d0 -> reachable cfg true d0 x ->
  StronglySorted Z.lt (all_steps (snd x)) /\
  match latest_step (snd x) with
  | None => committed_steps (fst x) = []
  | Some l => In l (committed_steps (fst x)) /\ forall t, In t (committed_steps (fst x)) -> t <= l
  end.
Proof. exact latest_is_greatest. Qed.
Print Assumptions C14_latest_is_greatest.

(** Unforced saves only go upwards. *)
Theorem C14_unforced_increasing : forall cfg d0 x a, wf_fs d0 -> reachable cfg true d0 x -> sv_force a = false ->
  out_res (run_call cfg (CSave a) (fst x) (snd x)) = Ok (VBool true) ->
  forall t, In t (committed_steps (fst x)) -> t < sv_step a.
Proof. exact unforced_increasing. Qed.
Print Assumptions C14_unforced_increasing.

Example C14_ex : wf_fs disk1 /\ reachable cfg2 true disk1 state1 /\
  all_steps (snd state1) = [10; 16; 18] /\ committed_steps (fst state1) = [10; 16; 18] /\
  latest_step (snd state1) = Some 18 /\
  out_res (run_call cfg2 (CSave (sv 20)) (fst state1) (snd state1)) = Ok (VBool true) /\
  all_steps (init cfg2 disk1) = [10; 12; 14].
Proof. split; [exact disk1_wf|]. split; [exact state1_reachable|]. repeat split; vm_compute; reflexivity. Qed.

(** A forced save of a lower step is appended at the end of the list, so
    latest_step is no longer the greatest committed step. *)
Theorem C14_forced_latest_refuted : exists cfg d0 x l t, wf_fs d0 /\ reachable cfg false d0 x /\
  latest_step (snd x) = Some l /\ In t (committed_steps (fst x)) /\ l < t.
Proof.
  exists cfg2, disk1, (after_call cfg2 (CSave (sv_forced 5)) (disk1, init cfg2 disk1)), 5, 14.
  split; [exact disk1_wf|]. split.
  - apply R_call; [apply R_init|simpl; lia|left; reflexivity|discriminate].
  - repeat split; vm_compute; auto.
Qed.
Print Assumptions C14_forced_latest_refuted.

(** A checkpoint of a negative step is saved and listed, and gone from the list
    after reload although it is still on disk. *)
Theorem C14_negative_step_refuted : exists cfg d0 a,
  let x1 := after_call cfg (CSave a) (d0, init cfg d0) in
  let x2 := after_call cfg CReload x1 in
  wf_fs d0 /\ sv_step a < 0 /\
  In (sv_step a) (all_steps (snd x1)) /\ In (sv_step a) (committed_steps (fst x2)) /\ all_steps (snd x2) = [].
Proof.
  exists cfg2, (mkFs [] [] []), (sv (-4)). split; [exact disk0_wf|]. split; [reflexivity|].
  repeat split; vm_compute; auto.
Qed.
Print Assumptions C14_negative_step_refuted.

(** With todelete_subdir, removing a step a second time fails because the trash
    already holds that name; the save that triggers it raises after having
    dropped the steps from the list, and list and disk differ from then on. *)
Theorem C14_trash_collision_refuted : exists cfg d0 a,
  let x := after_call cfg (CSave a) (d0, init cfg d0) in
  wf_fs d0 /\ nonneg_call (CSave a) /\ ~ forced (CSave a) /\
  out_res (run_call cfg (CSave a) d0 (init cfg d0)) = Err OtherError /\
  In 12 (committed_steps (fst x)) /\ ~ In 12 (all_steps (snd x)).
Proof.
  exists cfg2_trash, (mkFs [(12, good 112); (14, good 114)] [] [(12, Some (good 5))]), (sv 16).
  split; [|split; [simpl; lia|split; [discriminate|]]].
  - unfold wf_fs, committed_steps. simpl. split; [repeat constructor; simpl; intuition lia|]. split; [intuition lia|tauto].
  - repeat split; try (vm_compute; reflexivity); vm_compute; intuition discriminate.
Qed.
Print Assumptions C14_trash_collision_refuted.

(** * C15 *)

(** After a successful save, disk and list hold exactly the previous checkpoints
    and the new one, less those the policy condemns; contents unchanged. *)
Theorem C15_retention_is_policy : forall cfg u d0 x a, wf_fs d0 -> reachable cfg u d0 x -> 0 <= sv_step a ->
  out_res (run_call cfg (CSave a) (fst x) (snd x)) = Ok (VBool true) ->
  let x' := after_call cfg (CSave a) x in
  (forall t c, In (t, c) (committed (fst x')) <->
     (In (t, c) (committed (fst x)) \/ (t = sv_step a /\ c = ckpt_of cfg a)) /\
     ~ condemned cfg (with_new a (snd x)) t) /\
  (forall t, In t (all_steps (snd x')) <->
     (In t (all_steps (snd x)) \/ t = sv_step a) /\ ~ condemned cfg (with_new a (snd x)) t).
Proof. exact save_retention. Qed.
Print Assumptions C15_retention_is_policy.

(** With max_to_keep = n and keep_period = p a step remains iff fewer than n of
    the steps are newer or it is a multiple of p. *)
Theorem C15_default_retention : forall cfg o n d0 x a, wf_fs d0 -> reachable cfg true d0 x ->
  o_preserve cfg = default_preserve o -> p_best o = false -> p_keep_seconds o = None ->
  p_max_to_keep o = Some n -> 0 <= n -> (forall p, p_keep_period o = Some p -> p <> 0) ->
  0 <= sv_step a -> sv_force a = false ->
  out_res (run_call cfg (CSave a) (fst x) (snd x)) = Ok (VBool true) ->
  let old := committed_steps (fst x) in
  forall t, In t (committed_steps (fst (after_call cfg (CSave a) x))) <->
    (In t old \/ t = sv_step a) /\
    ((exists p, p_keep_period o = Some p /\ (p | t)) \/ newer (sv_step a :: old) t < n).
Proof. exact default_retention. Qed.
Print Assumptions C15_default_retention.

(** At most n checkpoints that are not multiples of p remain. *)
Theorem C15_default_count : forall cfg o n p d0 x a, wf_fs d0 -> reachable cfg true d0 x ->
  o_preserve cfg = default_preserve o -> p_best o = false -> p_keep_seconds o = None ->
  p_max_to_keep o = Some n -> 0 <= n -> p_keep_period o = Some p -> p <> 0 ->
  0 <= sv_step a -> sv_force a = false ->
  out_res (run_call cfg (CSave a) (fst x) (snd x)) = Ok (VBool true) ->
  Z.of_nat (length (filter (fun t => negb (is_multiple p t))
              (committed_steps (fst (after_call cfg (CSave a) x))))) <= n.
Proof. exact default_count. Qed.
Print Assumptions C15_default_count.

(** The step just saved survives when n >= 1. *)
Theorem C15_new_step_survives : forall cfg o n d0 x a, wf_fs d0 -> reachable cfg true d0 x ->
  o_preserve cfg = default_preserve o -> p_best o = false -> p_keep_seconds o = None ->
  p_max_to_keep o = Some n -> 1 <= n -> (forall p, p_keep_period o = Some p -> p <> 0) ->
  0 <= sv_step a -> sv_force a = false ->
  out_res (run_call cfg (CSave a) (fst x) (snd x)) = Ok (VBool true) ->
  In (sv_step a) (committed_steps (fst (after_call cfg (CSave a) x))).
Proof. exact default_new_survives. Qed.
Print Assumptions C15_new_step_survives.

Example C15_ex : wf_fs disk1 /\ reachable cfg2 true disk1 state1 /\
  o_preserve cfg2 = default_preserve opts2 /\ p_best opts2 = false /\ p_keep_seconds opts2 = None /\
  p_max_to_keep opts2 = Some 2 /\ p_keep_period opts2 = Some 10 /\ sv_force (sv 20) = false /\
  out_res (run_call cfg2 (CSave (sv 20)) (fst state1) (snd state1)) = Ok (VBool true) /\
  committed_steps (fst (after_call cfg2 (CSave (sv 20)) state1)) = [10; 18; 20] /\
  condemned cfg2 (with_new (sv 20) (snd state1)) 16.
Proof.
  split; [exact disk1_wf|]. split; [exact state1_reachable|].
  repeat (split; [vm_compute; reflexivity|]).
  exists [true; false; true; true], 1%nat, (mkInfo 16 16 None). repeat split; vm_compute; reflexivity.
Qed.

(** max_to_keep = 0 is accepted, and every save then removes its own step. *)
Theorem C15_new_step_lost_refuted : exists cfg o a d0, wf_fs d0 /\ post_init o = Ok o /\
  o_preserve cfg = default_preserve o /\
  out_res (run_call cfg (CSave a) d0 (init cfg d0)) = Ok (VBool true) /\
  committed (fst (after_call cfg (CSave a) (d0, init cfg d0))) = [].
Proof.
  exists (mkCfg false false false false true false Permanent
            (default_decide (mkOpts false 2 (Some []) (Some 0) None None false false true))
            (default_preserve (mkOpts false 2 (Some []) (Some 0) None None false false true))),
         (mkOpts false 2 (Some []) (Some 0) None None false false true), (sv 16), disk1.
  split; [exact disk1_wf|]. repeat split; vm_compute; reflexivity.
Qed.
Print Assumptions C15_new_step_lost_refuted.

(** keep_period = 0 is accepted by the options; the error comes from the save,
    after the checkpoint was committed and without any clean-up. *)
Theorem C15_zero_period_refuted : exists cfg o a, post_init o = Ok o /\ o_preserve cfg = default_preserve o /\
  let x := (disk1, init cfg disk1) in
  out_res (run_call cfg (CSave a) (fst x) (snd x)) = Err ValueError /\
  committed_steps (fst (after_call cfg (CSave a) x)) = [14; 10; 12; 16] /\
  saving (snd (after_call cfg (CSave a) x)) = true.
Proof.
  exists (mkCfg false false false false true false Permanent
            (default_decide (mkOpts false 2 (Some []) (Some 1) None (Some 0) false false true))
            (default_preserve (mkOpts false 2 (Some []) (Some 1) None (Some 0) false false true))),
         (mkOpts false 2 (Some []) (Some 1) None (Some 0) false false true), (sv 16).
  repeat split; vm_compute; reflexivity.
Qed.
Print Assumptions C15_zero_period_refuted.

(** * C16 *)

(** Whatever the policy does not condemn is untouched at every crash point. *)
Theorem C16_preserved_untouched : forall cfg u d0 x a k, wf_fs d0 -> reachable cfg u d0 x ->
  forall t c, In (t, c) (committed (fst x)) -> ~ condemned cfg (with_new a (snd x)) t ->
    In (t, c) (committed (crash_point cfg (CSave a) x k)).
Proof. exact crash_keeps. Qed.
Print Assumptions C16_preserved_untouched.

(** A checkpoint is missing or changed at a crash point only if the new one is
    already committed there. *)
Theorem C16_commit_before_delete : forall cfg u d0 x a k, wf_fs d0 -> reachable cfg u d0 x ->
  ~ condemned cfg (with_new a (snd x)) (sv_step a) ->
  forall t c, In (t, c) (committed (fst x)) -> ~ In (t, c) (committed (crash_point cfg (CSave a) x k)) ->
    intact (crash_point cfg (CSave a) x k) (sv_step a) (ckpt_of cfg a).
Proof. exact crash_commit_first. Qed.
Print Assumptions C16_commit_before_delete.

(** If the policy keeps anything, some whole checkpoint exists at every crash
    point. *)
Theorem C16_one_always_left : forall cfg u d0 x a k, wf_fs d0 -> reachable cfg u d0 x ->
  (forall t c, In (t, c) (committed (fst x)) -> c_whole c = true) ->
  committed (fst x) <> [] ->
  (exists t, In t (map step (with_new a (snd x))) /\ ~ condemned cfg (with_new a (snd x)) t) ->
  exists t c, intact (crash_point cfg (CSave a) x k) t c.
Proof. exact crash_some_left. Qed.
Print Assumptions C16_one_always_left.

(** Over a whole training job with any number of crashes: once a whole
    checkpoint exists, the newest one is always whole, and restore() of the
    latest step returns its contents.  Default policies, max_to_keep >= 1. *)
Theorem C16_training_always_restorable : forall cfg o n d0 x, wf_fs d0 -> training cfg d0 x ->
  o_preserve cfg = default_preserve o -> p_best o = false -> p_keep_seconds o = None ->
  p_max_to_keep o = Some n -> 1 <= n -> (forall p, p_keep_period o = Some p -> p <> 0) ->
  newest_whole d0 ->
  newest_whole (fst x) /\
  (forall s, latest_step (snd x) = Some s -> exists c, In (s, c) (committed (fst x)) /\
     out_res (run_call cfg (CRestore None) (fst x) (snd x)) = Ok (VData (c_data c))) /\
  latest_step (snd x) <> None.
Proof. exact training_newest_whole. Qed.
Print Assumptions C16_training_always_restorable.

(** With todelete_subdir no crash point has a damaged directory: every directory
    is an old one, unchanged, or the new one, complete. *)
Theorem C16_rename_never_damages : forall cfg u d0 x a k, wf_fs d0 -> reachable cfg u d0 x -> o_mode cfg = ToSubdir ->
  forall t c, In (t, c) (committed (crash_point cfg (CSave a) x k)) ->
    In (t, c) (committed (fst x)) \/ (t = sv_step a /\ c = ckpt_of cfg a).
Proof. exact crash_never_damages. Qed.
Print Assumptions C16_rename_never_damages.

Definition crashed1 : fs * mgr := after_crash cfg2 (CSave (sv 20)) 3 true state1.

Example C16_ex :
  out_ops (run_call cfg2 (CSave (sv 20)) (fst state1) (snd state1)) =
    [OMkTmp 20; OCommit 20 (mkCkpt 120 20 None true); ODamage 16; ORemove 16] /\
  condemned cfg2 (with_new (sv 20) (snd state1)) 16 /\
  committed_steps (crash_point cfg2 (CSave (sv 20)) state1 1) = [10; 16; 18] /\
  committed_steps (crash_point cfg2 (CSave (sv 20)) state1 3) = [10; 16; 18; 20] /\
  committed_steps (crash_point cfg2 (CSave (sv 20)) state1 4) = [10; 18; 20] /\
  out_res (run_call cfg2 (CRestore None) (fst crashed1) (snd crashed1)) = Ok (VData 120).
Proof.
  repeat (split; [vm_compute; reflexivity|]). split; [apply C15_ex|]. repeat split; vm_compute; reflexivity.
Qed.

Example C16_training_ex : training cfg2 disk1 crashed1 /\ newest_whole disk1.
Proof.
  split.
  - apply T_crash; [|simpl; lia|discriminate|discriminate].
    apply T_call; [apply T_call; [apply T_init| | | |]| | | |]; simpl; try lia; try (left; reflexivity); discriminate.
  - exists 14, (good 114). split; [split; [simpl; auto|reflexivity]|]. intros t' H. simpl in H. intuition lia.
Qed.

Example C16_rename_ex : o_mode cfg2_trash = ToSubdir /\ reachable cfg2_trash true disk1 (disk1, init cfg2_trash disk1) /\
  committed_steps (crash_point cfg2_trash (CSave (sv 16)) (disk1, init cfg2_trash disk1) 2) = [14; 10; 12; 16] /\
  committed_steps (crash_point cfg2_trash (CSave (sv 16)) (disk1, init cfg2_trash disk1) 3) = [14; 10; 16].
Proof. split; [reflexivity|]. split; [apply R_init|]. split; vm_compute; reflexivity. Qed.

(** With permanent removal a crash can leave a directory that is listed as a
    committed step and cannot be restored. *)
Theorem C16_damaged_listed_refuted : exists cfg d0 a k s,
  let x := after_crash cfg (CSave a) k true (d0, init cfg d0) in
  wf_fs d0 /\ (forall t c, In (t, c) (committed d0) -> c_whole c = true) /\
  In s (all_steps (snd x)) /\
  out_res (run_call cfg (CRestore (Some s)) (fst x) (snd x)) = Err OtherError.
Proof.
  exists cfg2, disk1, (sv 16), 3%nat, 12. split; [exact disk1_wf|]. split.
  - simpl. intros t c [E|[E|[E|[]]]]; inversion E; reflexivity.
  - split; vm_compute; auto.
Qed.
Print Assumptions C16_damaged_listed_refuted.

(** * C18 *)

(** Without force a step that is not above all committed steps is not saved, and
    nothing changes. *)
Theorem C18_not_above_is_noop : forall cfg d0 x a, wf_fs d0 -> reachable cfg true d0 x -> sv_force a = false ->
  (exists t, In t (committed_steps (fst x)) /\ sv_step a <= t) ->
  out_res (run_call cfg (CSave a) (fst x) (snd x)) = Ok (VBool false) /\
  after_call cfg (CSave a) x = x.
Proof. exact save_noop. Qed.
Print Assumptions C18_not_above_is_noop.

(** With force, saving an existing step raises and touches neither the directory
    nor the list. *)
Theorem C18_existing_untouched : forall cfg u d0 x a, wf_fs d0 -> reachable cfg u d0 x -> sv_force a = true ->
  In (sv_step a) (committed_steps (fst x)) ->
  out_res (run_call cfg (CSave a) (fst x) (snd x)) = Err StepAlreadyExistsError /\
  out_ops (run_call cfg (CSave a) (fst x) (snd x)) = [] /\
  cache (snd (after_call cfg (CSave a) x)) = cache (snd x).
Proof. exact save_existing. Qed.
Print Assumptions C18_existing_untouched.

Example C18_ex : reachable cfg2 true disk1 state1 /\
  out_res (run_call cfg2 (CSave (sv 17)) (fst state1) (snd state1)) = Ok (VBool false) /\
  out_res (run_call cfg2 (CSave (sv 18)) (fst state1) (snd state1)) = Ok (VBool false) /\
  out_res (run_call cfg2 (CSave (sv_forced 18)) (fst state1) (snd state1)) = Err StepAlreadyExistsError /\
  In 18 (committed_steps (fst state1)).
Proof.
  split; [exact state1_reachable|]. repeat split; try (vm_compute; reflexivity). vm_compute. auto.
Qed.

(** A manager that saves whenever no save is in progress. *)
Definition cfg_cont : config :=
  mkCfg false false false false true false Permanent (continuous None) (default_preserve opts2).

(** After StepAlreadyExistsError the manager reports a save in progress although
    none is, and with ContinuousCheckpointingPolicy it never saves again: the flag
    is only cleared at the end of a save. *)
Theorem C18_progress_refuted : exists cfg d0 a,
  let x := after_call cfg (CSave a) (d0, init cfg d0) in
  wf_fs d0 /\ out_res (run_call cfg (CSave a) d0 (init cfg d0)) = Err StepAlreadyExistsError /\
  saving (init cfg d0) = false /\ saving (snd x) = true /\
  (forall b, sv_force b = false -> sv_preempt b = false ->
     out_res (run_call cfg (CSave b) (fst x) (snd x)) = Ok (VBool false)) /\
  (exists b, sv_force b = false /\ sv_preempt b = false /\
     out_res (run_call cfg (CSave b) d0 (init cfg d0)) = Ok (VBool true)).
Proof.
  exists cfg_cont, disk1, (sv_forced 12). split; [exact disk1_wf|].
  split; [vm_compute; reflexivity|]. split; [reflexivity|]. split; [vm_compute; reflexivity|]. split.
  - intros b HF HP.
    assert (E : after_call cfg_cont (CSave (sv_forced 12)) (disk1, init cfg_cont disk1) =
                (disk1, mkMgr (cache (init cfg_cont disk1)) true)) by (vm_compute; reflexivity).
    rewrite E. simpl. unfold save, should_save. rewrite HF. cbn [o_read_only cfg_cont].
    destruct (match latest_step _ with Some l => sv_step b <=? l | None => false end); [reflexivity|].
    cbn [o_decide o_check_progress cfg_cont saving]. unfold continuous. cbn [saving_in_progress]. reflexivity.
  - exists (sv 15). repeat split; vm_compute; reflexivity.
Qed.
Print Assumptions C18_progress_refuted.

(** The same after a write error. *)
Theorem C18_write_error_progress_refuted : exists cfg d0 a,
  let x := after_call cfg (CSave a) (d0, init cfg d0) in
  wf_fs d0 /\ sv_force a = false /\ out_res (run_call cfg (CSave a) d0 (init cfg d0)) = Err OtherError /\
  saving (snd x) = true /\ committed (fst x) = committed d0 /\ cache (snd x) = cache (init cfg d0).
Proof.
  exists cfg_cont, disk1, (mkSave 16 1 16 None false false false). split; [exact disk1_wf|].
  repeat split; vm_compute; reflexivity.
Qed.
Print Assumptions C18_write_error_progress_refuted.

(** * C19 *)

(** A read-only manager performs no file-system operation.  Missing: forced
    saves, for which it is false (C19_forced_save_refuted). *)
Theorem C19_read_only_partial : forall cfg c d m, o_read_only cfg = true -> ~ forced c ->
  out_ops (run_call cfg c d m) = [].
Proof. exact read_only_no_ops. Qed.
Print Assumptions C19_read_only_partial.

(** The configuration a read-only manager really has. *)
Definition opts_ro : options := mkOpts true 0 (Some []) None None None false false true.
Definition cfg_ro : config :=
  mkCfg true false false false true false Permanent (default_decide opts_ro) (default_preserve opts_ro).

Example C19_ex : post_init (mkOpts true 5 None (Some 2) None (Some 3) false false true) = Ok opts_ro /\
  o_read_only cfg_ro = true /\ ~ forced (CSave (sv 16)) /\ ~ forced (CDelete 12) /\
  out_res (run_call cfg_ro (CSave (sv 16)) disk1 (init cfg_ro disk1)) = Ok (VBool false) /\
  out_res (run_call cfg_ro (CDelete 12) disk1 (init cfg_ro disk1)) = Ok VUnit /\
  out_res (run_call cfg2 (CSave (sv 16)) disk1 (init cfg2 disk1)) = Ok (VBool true).
Proof.
  repeat split; try (vm_compute; reflexivity); simpl; try discriminate. tauto.
Qed.

(** save(force=True) skips should_save, the only place where read_only is
    looked at: a read-only manager writes a checkpoint. *)
Theorem C19_forced_save_refuted : exists cfg a d m, o_read_only cfg = true /\
  out_res (run_call cfg (CSave a) d m) = Ok (VBool true) /\
  ~ In (sv_step a) (committed_steps d) /\
  In (sv_step a) (committed_steps (exec (out_ops (run_call cfg (CSave a) d m)) d)).
Proof.
  exists cfg_ro, (sv_forced 16), disk1, (init cfg_ro disk1). repeat split; vm_compute; auto.
  intuition discriminate.
Qed.
Print Assumptions C19_forced_save_refuted.

(** * C20 *)

(** A delete that returns removed a listed step from disk and list, and nothing
    else. *)
Theorem C20_delete_exact : forall cfg u d0 x s, wf_fs d0 -> reachable cfg u d0 x -> o_read_only cfg = false ->
  out_res (run_call cfg (CDelete s) (fst x) (snd x)) = Ok VUnit ->
  let x' := after_call cfg (CDelete s) x in
  In s (committed_steps (fst x)) /\
  (forall t c, In (t, c) (committed (fst x')) <-> In (t, c) (committed (fst x)) /\ t <> s) /\
  (forall t, In t (all_steps (snd x')) <-> In t (all_steps (snd x)) /\ t <> s).
Proof. exact delete_exact. Qed.
Print Assumptions C20_delete_exact.

(** With permanent removal every listed step can be deleted. *)
Theorem C20_delete_listed_succeeds : forall cfg u d0 x s, wf_fs d0 -> reachable cfg u d0 x -> o_read_only cfg = false ->
  o_mode cfg = Permanent -> In s (committed_steps (fst x)) ->
  out_res (run_call cfg (CDelete s) (fst x) (snd x)) = Ok VUnit.
Proof. exact delete_listed_ok. Qed.
Print Assumptions C20_delete_listed_succeeds.

Theorem C20_unlisted_raises : forall cfg u d0 x s, wf_fs d0 -> reachable cfg u d0 x -> o_read_only cfg = false ->
  ~ In s (committed_steps (fst x)) ->
  out_res (run_call cfg (CDelete s) (fst x) (snd x)) = Err FileNotFoundError /\
  after_call cfg (CDelete s) x = x.
Proof. exact delete_unlisted. Qed.
Print Assumptions C20_unlisted_raises.

(** With todelete_subdir the data is in the trash afterwards.  Missing: a trash
    that already holds the step (C20_trash_collision_refuted). *)
Theorem C20_trash_keeps_data_partial : forall cfg u d0 x s c, wf_fs d0 -> reachable cfg u d0 x ->
  o_read_only cfg = false -> o_mode cfg = ToSubdir ->
  In (s, c) (committed (fst x)) ->
  (forall e, In e (trash (fst x)) -> fst e <> s) ->
  out_res (run_call cfg (CDelete s) (fst x) (snd x)) = Ok VUnit /\
  In (s, Some c) (trash (fst (after_call cfg (CDelete s) x))).
Proof. exact delete_keeps_data. Qed.
Print Assumptions C20_trash_keeps_data_partial.

Example C20_ex : reachable cfg2 true disk1 (disk1, init cfg2 disk1) /\
  out_res (run_call cfg2 (CDelete 12) disk1 (init cfg2 disk1)) = Ok VUnit /\
  committed (exec (out_ops (run_call cfg2 (CDelete 12) disk1 (init cfg2 disk1))) disk1) = [(14, good 114); (10, good 110)] /\
  out_res (run_call cfg2 (CDelete 13) disk1 (init cfg2 disk1)) = Err FileNotFoundError /\
  trash (exec (out_ops (run_call cfg2_trash (CDelete 12) disk1 (init cfg2_trash disk1))) disk1) = [(12, Some (good 112))].
Proof. split; [apply R_init|]. repeat split; vm_compute; reflexivity. Qed.

(** Save, delete, save and delete the same step again with todelete_subdir: the
    second delete raises, because its target in the trash exists. *)
Theorem C20_trash_collision_refuted : exists cfg s,
  let x := (mkFs [] [] [], init cfg (mkFs [] [] [])) in
  let x3 := after_call cfg (CSave (sv s)) (after_call cfg (CDelete s) (after_call cfg (CSave (sv s)) x)) in
  o_mode cfg = ToSubdir /\ reachable cfg true (fst x) x3 /\
  In s (all_steps (snd x3)) /\
  out_res (run_call cfg (CDelete s) (fst x3) (snd x3)) = Err OtherError /\
  after_call cfg (CDelete s) x3 = x3.
Proof.
  exists cfg2_trash, 4. split; [reflexivity|]. split.
  - apply R_call; [apply R_call; [apply R_call; [apply R_init| | |]| | |]| | |]; simpl; try lia; auto;
      try (intros _; discriminate); right; eexists; vm_compute; reflexivity.
  - repeat split; vm_compute; auto.
Qed.
Print Assumptions C20_trash_collision_refuted.

(** If a step has both a committed directory and a temporary one left over by a
    killed writer (a state outside [wf_fs]: another process has to be involved),
    delete removes the temporary one: the checkpoint stays on disk and leaves the
    list. *)
Theorem C20_leftover_tmp_refuted : exists cfg d s,
  let m := init cfg d in
  In s (all_steps m) /\ out_res (run_call cfg (CDelete s) d m) = Ok VUnit /\
  In s (committed_steps (fst (after_call cfg (CDelete s) (d, m)))) /\
  ~ In s (all_steps (snd (after_call cfg (CDelete s) (d, m)))).
Proof.
  exists cfg2, (mkFs [(12, good 112)] [12] []), 12. repeat split; vm_compute; auto.
Qed.
Print Assumptions C20_leftover_tmp_refuted.

(** * C46 *)

(** best_step returns a step whose metric is optimal among those that have one;
    among equals the last in the list. *)
Theorem C46_best_is_optimal : forall cfg m s, o_track_best cfg = true -> best_step cfg m = Some s ->
  exists l1 b l2 v, cache m = l1 ++ b :: l2 /\ step b = s /\ metrics b = Some v /\
    (forall y w, In y l1 -> metrics y = Some w -> if o_reverse cfg then v <= w else w <= v) /\
    (forall y w, In y l2 -> metrics y = Some w -> if o_reverse cfg then v < w else w < v).
Proof. exact best_step_spec. Qed.
Print Assumptions C46_best_is_optimal.

Theorem C46_none_iff_no_metrics : forall cfg m, o_track_best cfg = true ->
  (best_step cfg m = None <-> forall i, In i (cache m) -> metrics i = None).
Proof. exact best_step_none. Qed.
Print Assumptions C46_none_iff_no_metrics.

Definition cfg_best (rev : bool) : config :=
  mkCfg false true rev false true false Permanent (default_decide opts2) (default_preserve opts2).

Example C46_ex :
  let m := mkMgr [mkInfo 1 0 (Some 5); mkInfo 2 0 None; mkInfo 3 0 (Some 9); mkInfo 4 0 (Some 9); mkInfo 6 0 (Some 5)] false in
  best_step (cfg_best false) m = Some 4 /\ best_step (cfg_best true) m = Some 6 /\
  best_step (cfg_best false) (mkMgr [mkInfo 2 0 None] false) = None.
Proof. repeat split; vm_compute; reflexivity. Qed.

(** prevent_write_metrics: the best step known to the running manager is
    forgotten by the next one. *)
Theorem C46_forgotten_refuted : exists cfg d0 a,
  let x := after_call cfg (CSave a) (d0, init cfg d0) in
  o_track_best cfg = true /\ wf_fs d0 /\
  best_step cfg (snd x) = Some (sv_step a) /\ best_step cfg (init cfg (fst x)) = None /\
  all_steps (init cfg (fst x)) = all_steps (snd x).
Proof.
  exists (mkCfg false true false true true false Permanent (default_decide opts2) (default_preserve opts2)),
    (mkFs [] [] []), (mkSave 4 104 4 (Some 9) false false true).
  split; [reflexivity|]. split; [exact disk0_wf|]. repeat split; vm_compute; reflexivity.
Qed.
Print Assumptions C46_forgotten_refuted.

(** * C47 *)

(** With the default policy and a non-zero interval should_save always answers,
    and says yes exactly for a step above the latest one that is a multiple of the
    interval, one of save_on_steps, at preemption, or the first. *)
Theorem C47_default_cadence : forall cfg o m now pre s,
  o_decide cfg = default_decide o -> o_read_only cfg = false -> p_interval o <> 0 ->
  exists b, should_save cfg m now pre s = Ok b /\
    (b = true <->
     (forall l, latest_step m = Some l -> l < s) /\
     ((p_interval o | s) \/ (exists l, p_save_on o = Some l /\ In s l) \/ pre = true \/ cache m = [])).
Proof. exact default_cadence. Qed.
Print Assumptions C47_default_cadence.

Example C47_ex :
  let m := mkMgr [mkInfo 5 0 None] false in
  should_save cfg2 m 0 false 6 = Ok true /\ should_save cfg2 m 0 false 7 = Ok true /\
  should_save cfg2 m 0 false 9 = Ok false /\ should_save cfg2 m 0 true 9 = Ok true /\
  should_save cfg2 m 0 false 4 = Ok false /\ should_save cfg2 (mkMgr [] false) 0 false 9 = Ok true.
Proof. repeat split; vm_compute; reflexivity. Qed.

(** save_interval_steps = 0 is accepted by the options and makes should_save
    raise ZeroDivisionError. *)
Theorem C47_zero_interval_refuted : exists cfg o m, post_init o = Ok o /\
  o_decide cfg = default_decide o /\ o_read_only cfg = false /\
  forall s, 5 < s -> should_save cfg m 0 false s = Err ZeroDivisionError.
Proof.
  exists (mkCfg false false false false true false Permanent
            (default_decide (mkOpts false 0 (Some []) None None None false false true)) (default_preserve opts2)),
         (mkOpts false 0 (Some []) None None None false false true), (mkMgr [mkInfo 5 0 None] false).
  repeat split. intros s H. unfold should_save. simpl. destruct (Z.leb_spec s 5); [lia|]. reflexivity.
Qed.
Print Assumptions C47_zero_interval_refuted.
