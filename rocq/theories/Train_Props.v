(** Theorems C75: the Checkpointer of the newer interface in a training loop. *)
From Coq Require Import ZArith List Bool Lia.
From Verif Require Import Base Policy_Model Manager_Model Manager_Spec Manager_Proofs Train_Model Train_Spec Train_Proofs Train_Disk Train_Live.
Import ListNotations.
Local Open Scope Z_scope.

(** * Executions used in the examples *)

Definition always : save_policy := fun _ _ _ => Ok true.
Definition never : save_policy := fun _ _ _ => Ok false.
Definition keep (n : Z) (cs : list info) : result decisions := Ok (DList (latest_n (Some n) cs)).
Definition opt (lightweight : bool) (n : Z) (p : save_policy) : options :=
  mkOptions (mkCfg false false false false false lightweight Permanent p (keep n)) false (Err ValueError).
Definition disk (l : list Z) : fs := mkFs (map (fun s => (s, mkCkpt (100 + s) 0 None true)) l) [] [].
Definition sv (s : Z) (overwrite sync : bool) : call := mkCall s (100 + s) (1000 * s) None false false overwrite sync.
Definition saves (s : Z) : list label := LSave (sv s false false) :: repeat LUser 5.
Definition fins (i n : nat) : list label := repeat (LFin i) n.

Definition calm_b (l : label) (x : st) : bool :=
  match l with
  | LUser => match x_user x with UReady _ => forallb (fun f => match f_pc f with PStart => false | _ => true end) (x_fins x) | _ => true end
  | LReload => forallb (fun f => match f_pc f with PEnd _ => true | _ => false end) (x_fins x)
  | _ => true
  end.
Definition fresh_b (l : label) (x : st) : bool :=
  match l with
  | LSave a => negb (t_overwrite a)
  | LUser => match x_user x with UWaitSave a => negb (existsb (Z.eqb (t_step a)) (committed_steps (x_fs x))) | _ => true end
  | _ => true
  end.
Definition sync_b (l : label) (_ : st) : bool := match l with LSave a => t_sync a | _ => true end.

Lemma calm_b_ok : forall l x, calm_b l x = true -> calm l x.
Proof.
  intros l x H. destruct l; cbn in *; auto.
  - intros f Hf. rewrite forallb_forall in H. specialize (H f Hf). unfold over. destruct (f_pc f); try discriminate; eauto.
  - intros a E f Hf P. rewrite E, forallb_forall in H. specialize (H f Hf). rewrite P in H. discriminate.
Qed.
Lemma fresh_b_ok : forall l x, fresh_b l x = true -> fresh l x.
Proof.
  intros l x H. destruct l; cbn in *; auto; [now apply negb_true_iff in H|]. intros b E. rewrite E in H. apply negb_true_iff in H. now apply existsb_notIn in H.
Qed.
Lemma sync_b_ok : forall l x, sync_b l x = true -> synchronous l x.
Proof. intros l x H. destruct l; cbn in *; auto. Qed.

Fixpoint checked (b : label -> st -> bool) (o : options) (ls : list label) (x : st) : bool :=
  match ls with [] => true | l :: ls' => b l x && match tstep o l x with Some (y, _) => checked b o ls' y | None => false end end.

Lemma play_run : forall b (P : label -> st -> Prop), (forall l x, b l x = true -> P l x) -> forall o ls x0 x z rs, run o P x0 x -> checked b o ls x = true -> play o ls x = Some (z, rs) -> run o P x0 z.
Proof.
  intros b P HP o ls. induction ls as [|l ls IH]; intros x0 x z rs R C H; cbn in *; [now injection H as <- <-|].
  apply andb_prop in C. destruct C as [C1 C2]. destruct (tstep o l x) as [[y r]|] eqn:E; [|discriminate]. destruct (play o ls y) as [[z' rs']|] eqn:E2; [|discriminate]. injection H as <- _.
  eapply IH; [eapply run_step; eauto|exact C2|exact E2].
Qed.

Definition after (o : options) (d : fs) (ls : list label) : st := match play o ls (tinit o d) with Some (x, _) => x | None => tinit o d end.
Definition replies (o : options) (d : fs) (ls : list label) : list (result value) := match play o ls (tinit o d) with Some (_, rs) => rs | None => [] end.

Lemma reached : forall b (P : label -> st -> Prop), (forall l x, b l x = true -> P l x) -> forall o d ls, checked b o ls (tinit o d) = true -> run o P (tinit o d) (after o d ls).
Proof.
  intros b P HP o d ls C. unfold after. destruct (play o ls (tinit o d)) as [[x rs]|] eqn:E; [|constructor]. eapply play_run; eauto. constructor.
Qed.

(** LatestN with [n] at least 1 keeps the last one. *)
Lemma opt_keeps : forall lw n p, 1 <= n -> keeps_last (opt lw n p).
Proof.
  intros lw n p H cs i. cbn. unfold keep, latest_n, py_repeat. rewrite app_length. cbn [length].
  assert (R : forall k : nat, repeat true (S k) = repeat true k ++ [true]) by (intros k; apply (repeat_cons k true)).
  destruct (Z.leb_spec (Z.of_nat (length cs + 1)) n) as [L|L].
  - exists (repeat true (length cs)). split; [|apply repeat_length]. rewrite Nat2Z.id, Nat.add_1_r, R. reflexivity.
  - exists (repeat false (Z.to_nat (Z.of_nat (length cs + 1) - n)) ++ repeat true (Z.to_nat (n - 1))). split; [|rewrite app_length, !repeat_length; lia].
    rewrite <- app_assoc, <- R. replace (S (Z.to_nat (n - 1))) with (Z.to_nat n) by lia. reflexivity.
Qed.

Lemma opt_total : forall lw n p, 1 <= n -> total_policy (opt lw n p).
Proof. intros lw n p H. apply keeps_total, opt_keeps, H. Qed.

Lemma disk_sound : forall l, NoDup l -> sound (disk l).
Proof.
  intros l N. split.
  - unfold committed_steps. cbn. rewrite map_map. cbn. now rewrite map_id.
  - intros s c H. cbn in H. apply in_map_iff in H. destruct H as [t [E _]]. now injection E as _ <-.
Qed.

Lemma one_sound : forall s, sound (disk [s]).
Proof. intros s. apply disk_sound. constructor; [intros []|constructor]. Qed.

(** ** Responses *)

(** If a response says that the save is done then the save was committed, or the caller's thread was told of its failure before; whatever the interleaving, provided that each call of [save_async] is made after the threads that finalize earlier
    saves have at least begun to wait. *)
Theorem C75_result : forall o d x i f j, total_policy o -> run o calm (tinit o d) x -> says_done x i -> save_of x i f j ->
  (exists c, j_state j = JDone (f_step f) c true) \/ f_told f = true /\ exists e, f_pc f = PEnd (Some e).
Proof. exact result_told. Qed.
Print Assumptions C75_result.

(** A program that only calls [save] is always calm. *)
Theorem C75_sync : forall o d x, run o synchronous (tinit o d) x -> run o calm (tinit o d) x.
Proof. intros o d x R. now apply sync_calm. Qed.
Print Assumptions C75_sync.

(** If [save] says that the save is done then the save was committed. *)
Theorem C75_save : forall o d x i f j, total_policy o -> run o synchronous (tinit o d) x -> says_done x i -> save_of x i f j -> exists c, j_state j = JDone (f_step f) c true.
Proof. exact sync_result. Qed.
Print Assumptions C75_save.

Definition two_saves : list label := saves 2 ++ [LFin 0] ++ [LSave (sv 3 false false)] ++ repeat LUser 2 ++ [LCommit 1] ++ fins 0 7 ++ [LResp 0] ++ repeat LUser 3 ++ [LCommit 2] ++ fins 1 8 ++ [LResp 1; LResult 1; LUser; LLoad None].
(** Two saves, the second of which is called while the first is going on. *)
Example C75_example_result : exists f j, run (opt false 1 always) calm (tinit (opt false 1 always) (disk [1])) (after (opt false 1 always) (disk [1]) two_saves) /\
  says_done (after (opt false 1 always) (disk [1]) two_saves) 1 /\ save_of (after (opt false 1 always) (disk [1]) two_saves) 1 f j /\ j_state j = JDone 3 (ckpt_of (sv 3 false false)) true /\
  replies (opt false 1 always) (disk [1]) two_saves = [Ok (VResponse 0); Ok (VResponse 1); Ok VTrue; Ok (VData 103)].
Proof.
  eexists _, _. split; [apply (reached calm_b calm calm_b_ok); vm_compute; reflexivity|]. split; [eexists; split; vm_compute; reflexivity|]. split; [eexists; split; [vm_compute; reflexivity|split; vm_compute; reflexivity]|].
  split; vm_compute; reflexivity.
Qed.

Definition one_save : list label := LSave (sv 2 false true) :: repeat LUser 5 ++ [LCommit 1] ++ fins 0 8 ++ [LResp 0; LUser; LLoad None].
Example C75_example_save : exists f j, run (opt false 1 always) synchronous (tinit (opt false 1 always) (disk [1])) (after (opt false 1 always) (disk [1]) one_save) /\
  says_done (after (opt false 1 always) (disk [1]) one_save) 0 /\ save_of (after (opt false 1 always) (disk [1]) one_save) 0 f j /\ j_state j = JDone 2 (ckpt_of (sv 2 false true)) true /\
  replies (opt false 1 always) (disk [1]) one_save = [Ok VTrue; Ok (VData 102)].
Proof.
  eexists _, _. split; [apply (reached sync_b synchronous sync_b_ok); vm_compute; reflexivity|]. split; [eexists; split; vm_compute; reflexivity|]. split; [eexists; split; [vm_compute; reflexivity|split; vm_compute; reflexivity]|].
  split; vm_compute; reflexivity.
Qed.

(** ** The list of checkpoints, and what is loaded *)

(** A step in the list is on disk with all its files, unless its save is not finished (or failed and the caller has not been told yet), or the caller's own thread is deleting it. *)
Theorem C75_listed : forall o d x s, total_policy o -> o_mode (t_cfg o) = Permanent -> sound d -> run o calm (tinit o d) x -> listed x s ->
  (exists c, intact (x_fs x) s c) \/ (exists i f, current x = Some (i, f) /\ f_step f = s /\ pending f) \/ deleting x s.
Proof. exact listed_intact. Qed.
Print Assumptions C75_listed.

(** When no save is unfinished and the caller has been told of the failures, [latest] is the greatest step in the list, it is on disk with all its files, and [load] without a step gives its contents. *)
Theorem C75_latest : forall o d x s, total_policy o -> o_mode (t_cfg o) = Permanent -> sound d -> run o calm (tinit o d) x ->
  x_user x = UIdle -> (forall f, In f (x_fins x) -> settled f) -> latest o x = Ok (Some s) ->
  listed x s /\ (forall t, listed x t -> t <= s) /\ exists c, intact (x_fs x) s c /\ load o None x = Ok (c_data c).
Proof. exact quiet_latest. Qed.
Print Assumptions C75_latest.

(** Then what is loaded for a step in the list is what the last save of that step wrote, if it was committed without an exception. *)
Theorem C75_contents : forall o d x i f c e, total_policy o -> o_mode (t_cfg o) = Permanent -> sound d -> run o calm (tinit o d) x ->
  x_user x = UIdle -> (forall f, In f (x_fins x) -> settled f) -> newest x i f -> nth_error (x_jobs x) (f_ck f) = Some (mkJob (JDone (f_step f) c true) e) ->
  listed x (f_step f) -> intact (x_fs x) (f_step f) c /\ forall l, checkpoints o x = Ok l -> load o (Some (f_step f)) x = Ok (c_data c).
Proof. exact quiet_contents. Qed.
Print Assumptions C75_contents.

(** When no thread that finalizes runs and the caller is outside of a call, every directory of a step has all its files. *)
Theorem C75_disk : forall o d x, total_policy o -> o_mode (t_cfg o) = Permanent -> sound d -> run o calm (tinit o d) x -> x_user x = UIdle -> (forall f, In f (x_fins x) -> over f) -> sound (x_fs x).
Proof. exact quiet_sound. Qed.
Print Assumptions C75_disk.

(** Nothing is invented: a complete checkpoint on disk was there at the beginning, or some call of [save] or [save_async] was given this step, these contents and these metrics; so for what [load] gives. *)
Theorem C75_written : forall A o d x s c, run o (only A) (tinit o d) x -> intact (x_fs x) s c ->
  In (s, c) (committed d) \/ exists a, A a /\ t_step a = s /\ c_data c = t_data a /\ c_metrics c = t_metrics a.
Proof. exact disk_written. Qed.
Print Assumptions C75_written.

Theorem C75_loaded : forall A o d x s z, run o (only A) (tinit o d) x -> load o (Some s) x = Ok z ->
  (exists c, In (s, c) (committed d) /\ c_data c = z) \/ exists a, A a /\ t_step a = s /\ t_data a = z.
Proof. exact load_written. Qed.
Print Assumptions C75_loaded.

Definition only_b (l : label) (_ : st) : bool := match l with LSave a => (t_step a =? 2) && (t_data a =? 102) | _ => true end.
Lemma only_b_ok : forall l x, only_b l x = true -> only (fun a => t_step a = 2 /\ t_data a = 102) l x.
Proof. intros l x H. destruct l; cbn in *; auto. apply andb_prop in H. destruct H as [H1 H2]. apply Z.eqb_eq in H1, H2. auto. Qed.
Example C75_example_written : let o := opt false 1 always in let x := after o (disk [1]) one_save in
  run o (only (fun a => t_step a = 2 /\ t_data a = 102)) (tinit o (disk [1])) x /\ load o (Some 2) x = Ok 102 /\ intact (x_fs x) 2 (ckpt_of (sv 2 false true)).
Proof.
  cbv zeta. split; [apply (reached only_b _ only_b_ok); vm_compute; reflexivity|]. split; [vm_compute; reflexivity|]. split; vm_compute; auto.
Qed.

(** The step saved is in the list while its save goes on; a step that is deleted is not. *)
Example C75_example_listed : let x := after (opt false 1 always) (disk [1]) (saves 2 ++ [LFin 0]) in
  run (opt false 1 always) calm (tinit (opt false 1 always) (disk [1])) x /\ sound (disk [1]) /\ listed x 2 /\ ~ listed x 1 /\ committed_steps (x_fs x) = [1] /\ exists i f, current x = Some (i, f) /\ f_step f = 2 /\ pending f.
Proof.
  cbv zeta. split; [apply (reached calm_b calm calm_b_ok); vm_compute; reflexivity|]. split; [apply one_sound|]. split; [vm_compute; auto|]. split; [vm_compute; intuition discriminate|]. split; [vm_compute; reflexivity|].
  eexists _, _. split; [vm_compute; reflexivity|split; [reflexivity|exact Logic.I]].
Qed.

(** A save that overwrites a step, with its contents loaded afterwards. *)
Definition overwrites : list label := LSave (mkCall 2 777 5000 None false false true true) :: repeat LUser 8 ++ [LCommit 1] ++ fins 0 5 ++ [LResp 0; LUser; LLoad (Some 2); LLoad None].
Example C75_example_latest : let o := opt false 2 always in let x := after o (disk [1; 2]) overwrites in
  run o calm (tinit o (disk [1; 2])) x /\ x_user x = UIdle /\ (forall f, In f (x_fins x) -> settled f) /\ latest o x = Ok (Some 2) /\ (exists f e, newest x 0 f /\
  nth_error (x_jobs x) (f_ck f) = Some (mkJob (JDone (f_step f) (mkCkpt 777 5000 None true) true) e) /\ listed x (f_step f)) /\
  replies o (disk [1; 2]) overwrites = [Ok VTrue; Ok (VData 777); Ok (VData 777)].
Proof.
  cbv zeta. assert (F : x_fins (after (opt false 2 always) (disk [1; 2]) overwrites) = [mkFin 2 [] 1%nat (PEnd None) false]) by (vm_compute; reflexivity).
  split; [apply (reached calm_b calm calm_b_ok); vm_compute; reflexivity|]. split; [vm_compute; reflexivity|]. split; [rewrite F; intros f [<-|[]]; left; reflexivity|]. split; [vm_compute; reflexivity|].
  split; [|vm_compute; reflexivity]. eexists _, _. split; [split; [vm_compute; reflexivity|]|split; [vm_compute; reflexivity|vm_compute; auto]].
  rewrite F. intros i' f' H _. destruct i' as [|[|i']]; [lia|discriminate|discriminate].
Qed.

(** ** What survives *)

(** There is always a checkpoint on disk, in every state that the process may be stopped in: if there was one at the beginning or a save has been committed without an exception, and the policy keeps the last checkpoint, and no step
    is overwritten, and each save is called after the threads that finalize earlier saves have begun to wait. *)
Theorem C75_survivor : forall o d x, keeps_last o -> run o (both calm fresh) (tinit o d) x ->
  some_intact d \/ (exists i f j c, save_of x i f j /\ j_state j = JDone (f_step f) c true) -> some_intact (x_fs x).
Proof. exact survivor. Qed.
Print Assumptions C75_survivor.

Lemma both_ok : forall l x, calm_b l x && fresh_b l x = true -> both calm fresh l x.
Proof. intros l x H. apply andb_prop in H. destruct H as [H1 H2]. split; [now apply calm_b_ok|now apply fresh_b_ok]. Qed.

(** The old checkpoint is half deleted; the new one is there. *)
Example C75_example_survivor : let o := opt false 1 always in let x := after o (disk [1]) (saves 2 ++ [LFin 0; LCommit 1] ++ fins 0 4) in
  keeps_last o /\ run o (both calm fresh) (tinit o (disk [1])) x /\ some_intact (disk [1]) /\ intact (x_fs x) 2 (ckpt_of (sv 2 false false)) /\ In (1, mkCkpt 101 0 None false) (committed (x_fs x)).
Proof.
  cbv zeta. split; [apply opt_keeps; lia|]. split; [apply (reached (fun l x => calm_b l x && fresh_b l x) (both calm fresh) both_ok); vm_compute; reflexivity|].
  split; [exists 1, (mkCkpt 101 0 None true); split; [now left|reflexivity]|]. split; [split; vm_compute; auto|vm_compute; auto].
Qed.

(** ** Nothing gets stuck *)

(** In every state that any program can reach, all threads have ended and the caller is outside of a call, or something can happen without another call. *)
Theorem C75_progress : forall o d x, run o any (tinit o d) x -> at_rest x \/ exists l y r, internal l /\ tstep o l x = Some (y, r).
Proof. intros o d x R. apply progress. now apply (winv_run o any d). Qed.
Print Assumptions C75_progress.

(** There is a bound on what can happen without another call. *)
Theorem C75_bounded : forall o x, exists b : nat, forall n y, goes_on o n x y -> (n <= b)%nat.
Proof. intros o x. exists (mu x). intros n y. apply bounded. Qed.
Print Assumptions C75_bounded.

(** So every call ends, and the threads do. *)
Theorem C75_ends : forall o d x, run o any (tinit o d) x -> exists n y, goes_on o n x y /\ at_rest y.
Proof. intros o d x R. apply comes_to_rest. now apply (winv_run o any d). Qed.
Print Assumptions C75_ends.

Example C75_example_ends : let x := after (opt false 1 always) (disk [1]) (saves 2) in run (opt false 1 always) any (tinit (opt false 1 always) (disk [1])) x /\ ~ at_rest x.
Proof.
  cbv zeta. split; [apply (reached (fun _ _ => true) any (fun _ _ _ => Logic.I)); vm_compute; reflexivity|]. intros [_ [H _]].
  assert (F : x_fins (after (opt false 1 always) (disk [1]) (saves 2)) = [mkFin 2 [1] 1%nat PStart false]) by (vm_compute; reflexivity).
  rewrite F in H. destruct (H (mkFin 2 [1] 1%nat PStart false)) as [e E]; [now left|discriminate].
Qed.

(** ** What does not hold *)

(** A second [save_async] can make the thread that finalizes the first one wait for the wrong checkpointer, namely for the one that the second call has just made (TC l.583-586): the thread reads [self._checkpointer] of the manager when it begins
    to wait (CM l.2020-2021), not when it is made. Then it deletes the old checkpoints before the new one has been committed; if the commit fails after that then nobody is told, the response says that the save is done,
    and no checkpoint is left although the policy keeps the last one. *)
Theorem C75_swap_refuted : exists o d x f j, keeps_last o /\ sound d /\ some_intact d /\ run o fresh (tinit o d) x /\ says_done x 0 /\ save_of x 0 f j /\
  j_state j = JDone 1 (ckpt_of (sv 1 false false)) false /\ f_told f = false /\ f_pc f = PEnd None /\ committed (x_fs x) = [].
Proof.
  exists (opt false 1 always), (disk [0]), (after (opt false 1 always) (disk [0]) (saves 1 ++ [LSave (sv 2 false false)] ++ repeat LUser 2 ++ fins 0 8 ++ [LCommitFail 1 OtherError; LResp 0])).
  eexists _, _. split; [apply opt_keeps; lia|]. split; [apply one_sound|]. split; [exists 0, (mkCkpt 100 0 None true); split; [now left|reflexivity]|].
  split; [apply (reached fresh_b fresh fresh_b_ok); vm_compute; reflexivity|]. split; [eexists; split; vm_compute; reflexivity|]. split; [eexists; split; [vm_compute; reflexivity|split; vm_compute; reflexivity]|].
  repeat split; vm_compute; reflexivity.
Qed.
Print Assumptions C75_swap_refuted.

(** [save] with [overwrite] deletes the checkpoint before it asks whether to save at all (TC l.575-576 before CM l.1417): when the decision is not to save, it returns False and the checkpoint is gone. *)
Theorem C75_overwrite_refuted : exists o d ls, sound d /\ committed_steps d = [2] /\ replies o d ls = [Ok VSkipped] /\ run o synchronous (tinit o d) (after o d ls) /\ committed (x_fs (after o d ls)) = [].
Proof.
  exists (opt false 1 never), (disk [2]), (LSave (sv 2 true true) :: repeat LUser 5). split; [apply one_sound|]. split; [reflexivity|]. split; [vm_compute; reflexivity|].
  split; [apply (reached sync_b synchronous sync_b_ok); vm_compute; reflexivity|vm_compute; reflexivity].
Qed.
Print Assumptions C75_overwrite_refuted.

(** [load] without a step, right after [save_async], fails although an older checkpoint is there: the step of the unfinished save is in the list (CM l.1542) and is taken for the latest one (TC l.216-226). *)
Theorem C75_latest_refuted : exists o d ls, sound d /\ run o calm (tinit o d) (after o d ls) /\ replies o d ls = [Ok (VResponse 0); Err FileNotFoundError] /\ some_intact (x_fs (after o d ls)).
Proof.
  exists (opt false 2 always), (disk [1]), (saves 2 ++ [LLoad None]). split; [apply one_sound|]. split; [apply (reached calm_b calm calm_b_ok); vm_compute; reflexivity|]. split; [vm_compute; reflexivity|].
  exists 1, (mkCkpt 101 0 None true). split; [vm_compute; auto|reflexivity].
Qed.
Print Assumptions C75_latest_refuted.

(** With [lightweight_initialize] over a directory with checkpoints, [latest], [load] and [save_async] all raise where [datetime.min.timestamp()] does (TC l.255, CM l.1828-1833; Python 3.11 raises ValueError). *)
Theorem C75_lightweight_refuted : exists o d ls, sound d /\ t_min_timestamp o = Err ValueError /\ o_lightweight (t_cfg o) = true /\ some_intact d /\ replies o d ls = [Err ValueError; Err ValueError; Err ValueError] /\
  ls = [LLatest; LLoad None; LSave (sv 2 false false)].
Proof.
  exists (opt true 2 always), (disk [1]), [LLatest; LLoad None; LSave (sv 2 false false)]. split; [apply one_sound|]. split; [reflexivity|]. split; [reflexivity|]. split; [exists 1, (mkCkpt 101 0 None true); split; [now left|reflexivity]|].
  split; [vm_compute; reflexivity|reflexivity].
Qed.
Print Assumptions C75_lightweight_refuted.

(** After a failed save the list does not get the older steps back that were to be removed after it: the older checkpoint stays on disk, but the Checkpointer does not know it any more (CM l.1554, l.2084). *)
Theorem C75_forgotten_refuted : exists o d ls, sound d /\ keeps_last o /\ run o calm (tinit o d) (after o d ls) /\ replies o d ls = [Ok (VResponse 0); Err OtherError; Ok (VStep None)] /\ some_intact (x_fs (after o d ls)).
Proof.
  exists (opt false 1 always), (disk [1]), (saves 2 ++ [LFin 0; LCommitFail 1 OtherError] ++ fins 0 2 ++ [LWait; LUser; LLatest]). split; [apply one_sound|]. split; [apply opt_keeps; lia|].
  split; [apply (reached calm_b calm calm_b_ok); vm_compute; reflexivity|]. split; [vm_compute; reflexivity|]. exists 1, (mkCkpt 101 0 None true). split; [vm_compute; auto|reflexivity].
Qed.
Print Assumptions C75_forgotten_refuted.

(** A response can say that a save is done which failed: its thread waits for whatever thread finalizes when it looks (CM l.2046-2066), which may be that of a later save. The caller's thread has been told of the failure by then (C75_result). *)
Theorem C75_stale_response_refuted : exists o d ls f j, sound d /\ run o calm (tinit o d) (after o d ls) /\ says_done (after o d ls) 0 /\ save_of (after o d ls) 0 f j /\ f_step f = 2 /\ j_state j = JDone 2 (ckpt_of (sv 2 false false)) false /\
  replies o d ls = [Ok (VResponse 0); Err OtherError; Ok (VResponse 1); Ok VTrue] /\ ~ In 2 (committed_steps (x_fs (after o d ls))).
Proof.
  exists (opt false 2 always), (disk [1]), (saves 2 ++ [LFin 0; LCommitFail 1 OtherError; LFin 0; LFin 0; LWait; LUser] ++ saves 3 ++ [LFin 1; LCommit 2] ++ fins 1 4 ++ [LResp 0; LResult 0; LUser]).
  eexists _, _. split; [apply one_sound|]. split; [apply (reached calm_b calm calm_b_ok); vm_compute; reflexivity|]. split; [eexists; split; vm_compute; reflexivity|]. split; [eexists; split; [vm_compute; reflexivity|split; vm_compute; reflexivity]|].
  split; [reflexivity|split; [reflexivity|split; [vm_compute; reflexivity|]]]. vm_compute. intuition discriminate.
Qed.
Print Assumptions C75_stale_response_refuted.
