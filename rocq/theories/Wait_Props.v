(** C43: waiting for checkpoints. *)
From Coq Require Import List Bool Arith ZArith Lia.
From Verif Require Import Base Wait_Model Wait_Spec Wait_Proofs.
Import ListNotations.
Open Scope Z_scope.

(** A world for the examples: nothing at first, step 3 from moment 6 on, steps 3 and 7 from
    moment 16 on. *)
Definition demo_world (k : nat) : view :=
  let l := if (k <? 6)%nat then [] else if (k <? 16)%nat then [3] else [7; 3] in
  mk_view (2 <=? k)%nat l l (Z.of_nat k) (40 <=? k)%nat None false false.

Definition demo_options : options := mk_options None 2 (Some 5) true false.

Example C43_demo : let '(ys, e, d, j) := checkpoints_iterator demo_world demo_options 20 20 [(9, true)] in
  map y_step ys = [3; 7] /\ e = Stopped /\ d = [] /\ map y_store ys = [[(3, true)]; [(7, true)]].
Proof. vm_compute. repeat split. Qed.

Lemma demo_small : small_steps demo_world.
Proof.
  intros k s; unfold demo_world; cbn [steps]. destruct (k <? 6)%nat; [intros []|]. destruct (k <? 16)%nat; cbn; lia.
Qed.

Lemma demo_steady : steady demo_world.
Proof.
  split; [|reflexivity]. intros i j s L; unfold demo_world; cbn [steps findable].
  destruct (i <? 6)%nat eqn:A; [intros []|]. apply Nat.ltb_ge in A.
  replace (j <? 6)%nat with false by (symmetry; apply Nat.ltb_ge; lia).
  destruct (i <? 16)%nat eqn:B; destruct (j <? 16)%nat eqn:C; cbn; try tauto.
  apply Nat.ltb_ge in B; apply Nat.ltb_lt in C; lia.
Qed.

(** A step that is returned was the largest of the last look at the directory and is at
    least [until_step]; every earlier look found nothing that was wanted. *)
Theorem C43_returned : forall w o fuel i d s d' log j,
  small_steps w -> wait_for_new_checkpoint w o fuel i d = Some (Ok s, d', log, j) -> s <> -1 ->
  exists k, last_look w (until_step o) log k s /\ (i < k < j)%nat /\ In s (findable (w (S k))).
Proof.
  intros w o fuel i d s d' log j Sm H N. apply wait_ok in H; [|assumption].
  destruct H as [(-> & _)|(_ & k & L & B & _ & Sn)]; [congruence|].
  exists k. split; [exact L|]. split; [lia|].
  unfold snapshot_checkpoint in Sn. destruct (has s (findable (w (S k)))) eqn:E; [apply has_iff; exact E | discriminate].
Qed.
Print Assumptions C43_returned.

Example C43_returned_ex : exists d' log j,
  wait_for_new_checkpoint demo_world (mk_options (Some 4) 2 None false false) 20 0 [] = Some (Ok 7, d', log, j).
Proof. eexists _, _, _. vm_compute. reflexivity. Qed.

(** -1 is returned only if there is a timeout, the clock was so far that another sleep
    would pass it, and no look found a wanted step; with [timeout_fn] only if it then
    answered true.  The snapshots are as before. *)
Theorem C43_timeout : forall w o fuel i d d' log j,
  small_steps w -> wait_for_new_checkpoint w o fuel i d = Some (Ok (-1), d', log, j) ->
  d' = d /\ seen_nothing w (until_step o) log
  /\ exists t k, timeout o = Some t /\ (i < k < j)%nat /\ clock (w i) + t < clock (w k) + seconds_to_sleep o
     /\ (has_timeout_fn o = true -> exists a, answer (w a) = true /\ (k < a < j)%nat /\ In (Asked a) log).
Proof.
  intros w o fuel i d d' log j Sm H. apply wait_ok in H; [|assumption].
  destruct H as [(_ & H)|(N & _)]; [exact H | lia].
Qed.
Print Assumptions C43_timeout.

Example C43_timeout_ex : exists d' log j,
  wait_for_new_checkpoint demo_world (mk_options (Some 8) 2 (Some 30) true false) 40 0 [] = Some (Ok (-1), d', log, j).
Proof. eexists _, _, _. vm_compute. reflexivity. Qed.

(** Without a timeout -1 is never returned. *)
Theorem C43_no_timeout : forall w o fuel i d d' log j,
  small_steps w -> timeout o = None -> wait_for_new_checkpoint w o fuel i d <> Some (Ok (-1), d', log, j).
Proof.
  intros w o fuel i d d' log j Sm T H. apply C43_timeout in H as (_ & _ & t & k & E & _); [congruence | assumption].
Qed.
Print Assumptions C43_no_timeout.

Example C43_no_timeout_ex : wait_for_new_checkpoint demo_world (mk_options (Some 8) 2 None true false) 40 0 [] = None.
Proof. vm_compute. reflexivity. Qed.

(** The number of rounds that are looked at does not change the result. *)
Theorem C43_rounds : forall w o fuel n i d x,
  wait_for_new_checkpoint w o fuel i d = Some x -> wait_for_new_checkpoint w o (fuel + n) i d = Some x.
Proof.
  intros w o fuel n i d x; unfold wait_for_new_checkpoint.
  destruct (wait_loop w o _ fuel (S i) d []) as [y|] eqn:E; [|discriminate].
  rewrite (wait_loop_fuel _ _ _ _ n _ _ _ _ E). auto.
Qed.
Print Assumptions C43_rounds.

(** The wait ends if from some moment on the clock is past the timeout and [timeout_fn], if
    given, answers true. *)
Theorem C43_ends : forall w o i d t N,
  timeout o = Some t ->
  (forall k, (N <= k)%nat -> clock (w i) + t < clock (w k) + seconds_to_sleep o /\ (has_timeout_fn o = true -> answer (w k) = true)) ->
  wait_for_new_checkpoint w o (S N) i d <> None.
Proof.
  intros w o i d t N T H. unfold wait_for_new_checkpoint. rewrite T.
  destruct (wait_loop w o _ (S N) (S i) d []) as [[[[? ?] ?] ?]|] eqn:E; [discriminate|].
  exfalso; revert E. apply (wait_loop_ends _ _ _ N); [|lia].
  intros k Hk; exists (clock (w i) + t). destruct (H k Hk) as [A B]. auto.
Qed.
Print Assumptions C43_ends.

Example C43_ends_ex : forall k, (40 <= k)%nat ->
  clock (demo_world 0) + 5 < clock (demo_world k) + 2 /\ (true = true -> answer (demo_world k) = true).
Proof.
  intros k Hk; unfold demo_world; cbn [clock answer]. split; [lia|]. intros _. apply Nat.leb_le; exact Hk.
Qed.

(** The wait ends if from some moment on there is a wanted step, and under steady listings
    it ends with a step or with -1. *)
Theorem C43_found : forall w o m N i d,
  (forall k, (N <= k)%nat -> dir_exists (w k) = true /\ In m (steps (w k))) -> wanted (until_step o) m ->
  exists r d' log j, wait_for_new_checkpoint w o (S N) i d = Some (r, d', log, j)
    /\ (small_steps w -> steady w -> exists s, r = Ok s /\ (timeout o = None -> wanted (until_step o) s /\ 0 <= s)).
Proof.
  intros w o m N i d Hm Wa.
  destruct (wait_for_new_checkpoint w o (S N) i d) as [[[[r d'] log] j]|] eqn:E; [|exfalso; eapply wait_found; eassumption].
  exists r, d', log, j. split; [reflexivity|]. intros Sm Sd.
  destruct r as [s|e]; [|exfalso; eapply wait_steady; eassumption].
  exists s; split; [reflexivity|]. intros T. apply wait_ok in E; [|assumption].
  destruct E as [(_ & _ & _ & t & k & T' & _)|(P & k & L & _)]; [congruence|].
  split; [apply (last_look_in _ _ _ _ _ L) | exact P].
Qed.
Print Assumptions C43_found.

Example C43_found_ex : forall k, (16 <= k)%nat -> dir_exists (demo_world k) = true /\ In 7 (steps (demo_world k)).
Proof.
  intros k Hk; unfold demo_world; cbn [dir_exists steps]. split; [apply Nat.leb_le; lia|].
  replace (k <? 6)%nat with false by (symmetry; apply Nat.ltb_ge; lia).
  replace (k <? 16)%nat with false by (symmetry; apply Nat.ltb_ge; lia). left; reflexivity.
Qed.

(** The iterator yields strictly increasing steps, each the largest one of a look at the
    directory after the previous yield. *)
Theorem C43_increasing : forall w o fuel wf d ys e d' j,
  small_steps w -> checkpoints_iterator w o fuel wf d = (ys, e, d', j) ->
  increasing (map y_step ys) /\ increasing_nat (map y_moment ys) /\ chain w None 0 ys.
Proof.
  intros w o fuel wf d ys e d' j Sm H. apply iterate_chain in H; [|assumption].
  destruct (chain_increasing _ _ _ _ H); auto.
Qed.
Print Assumptions C43_increasing.

Example C43_increasing_ex : map y_step (fst (fst (fst (checkpoints_iterator demo_world demo_options 20 20 [])))) = [3; 7].
Proof. vm_compute. reflexivity. Qed.

(** A step that stays in the directory is reached: without a timeout the iterator yields it or
    a later one. *)
Theorem C43_reaches : forall w o m N d ys e d' j,
  small_steps w -> steady w -> timeout o = None -> (forall k, closes (w k) = false) ->
  (forall k, (N <= k)%nat -> dir_exists (w k) = true /\ In m (steps (w k))) ->
  checkpoints_iterator w o (S N) (S N) d = (ys, e, d', j) -> exists y, In y ys /\ m <= y_step y.
Proof.
  intros w o m N d ys e d' j Sm Sd T C Hm H.
  eapply (iterate_reaches w o m N Sm Sd T C Hm N 0 None); [lia | discriminate | exact H].
Qed.
Print Assumptions C43_reaches.

Example C43_reaches_ex : map y_step (fst (fst (fst (checkpoints_iterator demo_world (mk_options None 2 None false false) 17 17 [])))) = [3; 7].
Proof. vm_compute. reflexivity. Qed.

(** While a step is used there is at most its own snapshot, which is complete if errors are
    not ignored or none is that a file is missing; afterwards none is left unless an error was raised. *)
Theorem C43_snapshots : forall w o fuel wf d ys e d' j,
  small_steps w -> checkpoints_iterator w o fuel wf d = (ys, e, d', j) ->
  ((forall x, e <> Raised x) -> d' = []) /\ (List.length d' <= 1)%nat
  /\ (forall y, In y ys -> (y_store y = [] \/ exists b, y_store y = [(y_step y, b)])
      /\ (ignore_snapshot_errors o = false \/ (forall k, copy_error (w k) <> Some FileNotFoundError) -> y_store y = [(y_step y, true)])).
Proof. intros w o fuel wf d ys e d' j Sm H. eapply iterate_store; eassumption. Qed.
Print Assumptions C43_snapshots.

Example C43_snapshots_ex : map y_store (fst (fst (fst (checkpoints_iterator demo_world demo_options 20 20 [(3, false)])))) = [[(3, true)]; [(7, true)]].
Proof. vm_compute. reflexivity. Qed.

(** The iterator stops by itself only after a timeout, and with [timeout_fn] only after it
    answered true twice, the second time last. *)
Theorem C43_stops : forall w o fuel wf d ys d' j,
  small_steps w -> checkpoints_iterator w o fuel wf d = (ys, Stopped, d', j) ->
  timed_out w o 0 j
  /\ (has_timeout_fn o = true -> exists a b, (a < b)%nat /\ (S b = j)%nat /\ answer (w a) = true /\ answer (w b) = true).
Proof.
  intros w o fuel wf d ys d' j Sm H. apply iterate_moment in H as [_ H]; [|assumption].
  destruct (H eq_refl) as [A B]. split; [exact A|]. intros Hf; destruct (B Hf) as (a & b & ? & ?). exists a, b. tauto.
Qed.
Print Assumptions C43_stops.

Example C43_stops_ex : snd (fst (fst (checkpoints_iterator demo_world demo_options 20 20 []))) = Stopped.
Proof. vm_compute. reflexivity. Qed.

(** With steady listings the iterator raises no error. *)
Theorem C43_no_error : forall w o fuel wf d ys e d' j x,
  small_steps w -> steady w -> checkpoints_iterator w o fuel wf d = (ys, e, d', j) -> e <> Raised x.
Proof. intros w o fuel wf d ys e d' j x Sm Sd H. eapply iterate_steady; eassumption. Qed.
Print Assumptions C43_no_error.

Example C43_no_error_ex : small_steps demo_world /\ steady demo_world.
Proof. split; [apply demo_small | apply demo_steady]. Qed.

(** [ignore_snapshot_errors] does not cover a step that is deleted (by the trainer's retention)
    between the listing and the snapshot: [find_step] and [create_snapshot] raise ValueError,
    and only FileNotFoundError is ignored, so the evaluation loop dies. *)
Theorem C43_deleted_refuted : exists w o d' j,
  small_steps w /\ ignore_snapshot_errors o = true /\ (forall k s, In s (findable (w k)) -> In s (steps (w k)))
  /\ checkpoints_iterator w o 5 5 [] = ([], Raised ValueError, d', j).
Proof.
  exists (fun k => let l := if (k <=? 2)%nat then [4] else [5] in mk_view true l l 0 false None false false), (mk_options None 1 None false true).
  eexists _, _. split; [|split; [reflexivity|split; [|vm_compute; reflexivity]]].
  - intros k s; cbn. destruct k as [|[|[|k]]]; cbn; lia.
  - intros k s; cbn. auto.
Qed.
Print Assumptions C43_deleted_refuted.

(** A FileNotFoundError that is ignored lets a step be yielded although nothing of it is
    there any more: no snapshot, and the step may be gone. *)
Theorem C43_nothing_there_refuted : exists w o ys e d' j y,
  small_steps w /\ checkpoints_iterator w o 5 5 [] = (ys, e, d', j) /\ In y ys /\ y_store y = []
  /\ ~ In (y_step y) (findable (w (y_moment y))).
Proof.
  exists (fun k => let l := if (k <=? 5)%nat then [4] else [] in
    mk_view true l l 0 false (if (k =? 6)%nat then Some FileNotFoundError else None) false true), (mk_options None 1 None false true).
  eexists _, _, _, _, _. split; [|split; [vm_compute; reflexivity|split; [left; reflexivity|split; [reflexivity | cbn; tauto]]]].
  intros k s; cbn [steps]. destruct (k <=? 5)%nat; cbn; lia.
Qed.
Print Assumptions C43_nothing_there_refuted.

(** The documentation says that a sleep longer than the timeout makes it time out after the
    sleep; in fact it gives up at once, without sleeping or looking again. *)
Theorem C43_early_refuted : exists w o d' log j,
  small_steps w /\ timeout o = Some 5 /\ seconds_to_sleep o = 10
  /\ wait_for_new_checkpoint w o 5 0 [] = Some (Ok (-1), d', log, j) /\ ~ In Slept log
  /\ (forall k, (k < j)%nat -> clock (w k) = clock (w 0%nat)).
Proof.
  exists (fun k => mk_view true [] [] (if (k <? 4)%nat then 100 else 110) false None false false), (mk_options None 10 (Some 5) false false).
  eexists _, _, _. split; [intros k s []|]. split; [reflexivity|]. split; [reflexivity|]. split; [vm_compute; reflexivity|].
  split; [intros [E|[]]; discriminate|]. intros k Hk. cbn. destruct k as [|[|[|[|k]]]]; try reflexivity. lia.
Qed.
Print Assumptions C43_early_refuted.

(** [timeout_fn] answering true does not end the iterator: it is called a second time, and if
    that answer is false the iterator goes on. *)
Theorem C43_asked_twice_refuted : exists w o ys e d' j a y,
  small_steps w /\ has_timeout_fn o = true /\ checkpoints_iterator w o 5 5 [] = (ys, e, d', j)
  /\ In y ys /\ answer (w a) = true /\ (a < y_moment y)%nat
  /\ exists d1 log1 j1, wait_for_new_checkpoint w o 5 0 [] = Some (Ok (-1), d1, log1, j1) /\ In (Asked a) log1.
Proof.
  exists (fun k => let l := if (k <? 6)%nat then [] else [4] in mk_view true l l (Z.of_nat k) (k =? 4)%nat None false true), (mk_options None 2 (Some 3) true false).
  eexists _, _, _, _, 4%nat, _. split; [|split; [reflexivity|split; [vm_compute; reflexivity|split; [left; reflexivity|split; [reflexivity|split; [cbn; lia|]]]]]].
  - intros k s; cbn [steps]. destruct (k <? 6)%nat; cbn; lia.
  - eexists _, _, _. split; [vm_compute; reflexivity | cbn; tauto].
Qed.
Print Assumptions C43_asked_twice_refuted.

(** A step that does not fit into 32 bits is listed but cannot be returned: the conversion for
    the broadcast raises, and its snapshot is left behind. *)
Theorem C43_large_refuted : exists w o d' log j e,
  steady w /\ (forall k, steps (w k) = [3000000000]) /\ wait_for_new_checkpoint w o 5 0 [] = Some (Err e, d', log, j)
  /\ d' = [(3000000000, true)].
Proof.
  exists (fun _ => mk_view true [3000000000] [3000000000] 0 false None false false), (mk_options None 1 None false false).
  eexists _, _, _, _. split; [split; [intros i j s _ H; exact H | reflexivity]|]. split; [reflexivity|]. split; vm_compute; reflexivity.
Qed.
Print Assumptions C43_large_refuted.

(** A snapshot that an interrupted copy left behind is taken as it is: [wait_for_new_checkpoint]
    called directly returns the step with an incomplete snapshot.  (The iterator removes what
    is left behind before it starts.) *)
Theorem C43_leftover_refuted : exists w o d d' log j s,
  small_steps w /\ steady w /\ wait_for_new_checkpoint w o 5 0 d = Some (Ok s, d', log, j) /\ In (s, false) d' /\ ~ In (s, true) d'.
Proof.
  exists (fun _ => mk_view true [4] [4] 0 false None false false), (mk_options None 1 None false false), [(4, false)].
  eexists _, _, _, _. split; [|split; [|split; [vm_compute; reflexivity|split; [left; reflexivity | intros [E|[]]; discriminate]]]].
  - intros k s; cbn; lia.
  - split; [intros i j s _ H; exact H | reflexivity].
Qed.
Print Assumptions C43_leftover_refuted.
