(** C71: the topology of workers of colocated checkpointing and the agreement of the workers on steps *)
From Coq Require Import List Bool Arith ZArith Lia Sorted Permutation.
From Verif Require Import Base Topology_Model Topology_Spec Topology_Proofs.
Import ListNotations.

(** ** Workers *)

(** The workers that are found are exactly those of the devices: ranks are positions in the order of slices and tasks, each worker has the
    ids of its devices in ascending order, and the first of its devices represents it. *)
Theorem C71_workers : forall ds ws, from_devices ds = Ok ws <-> topology ds ws.
Proof. exact from_devices_iff. Qed.
Print Assumptions C71_workers.

(** Two slices of two tasks, with two devices each, listed in some order *)
Definition eight : list device :=
  [mkDevice 7 (Some 1) (Some 1); mkDevice 0 (Some 0) (Some 0); mkDevice 1 (Some 0) (Some 0); mkDevice 6 (Some 1) (Some 1); mkDevice 3 (Some 1) (Some 0);
   mkDevice 4 (Some 0) (Some 1); mkDevice 2 (Some 1) (Some 0); mkDevice 5 (Some 0) (Some 1)].

Definition eight_workers : list worker :=
  [mkWorker 0 [0; 0] [0; 1] (Some (mkDevice 0 (Some 0) (Some 0))); mkWorker 1 [1; 0] [2; 3] (Some (mkDevice 3 (Some 1) (Some 0)));
   mkWorker 2 [0; 1] [4; 5] (Some (mkDevice 4 (Some 0) (Some 1))); mkWorker 3 [1; 1] [6; 7] (Some (mkDevice 7 (Some 1) (Some 1)))].

Example C71_workers_ex : from_devices eight = Ok eight_workers.
Proof. vm_compute. reflexivity. Qed.

(** They are found if the task of every device is known, and only then. *)
Theorem C71_known : forall ds, (Forall known ds -> exists ws, from_devices ds = Ok ws) /\ (~ Forall known ds -> from_devices ds = Err ValueError).
Proof. exact from_devices_total. Qed.
Print Assumptions C71_known.

Example C71_known_ex : from_devices [mkDevice 0 (Some 0) None; mkDevice 1 None (Some 3)] = Err ValueError.
Proof. vm_compute. reflexivity. Qed.

(** Every device is with one worker: the ids of the workers together are the ids of the devices. *)
Theorem C71_partition : forall ds ws, from_devices ds = Ok ws -> Permutation (concat (distributed_to_device_ids ws)) (map d_id ds).
Proof. exact partition. Qed.
Print Assumptions C71_partition.

Example C71_partition_ex : exists ws, from_devices eight = Ok ws /\ distributed_to_device_ids ws = [[0; 1]; [2; 3]; [4; 5]; [6; 7]].
Proof. exists eight_workers. vm_compute. auto. Qed.

(** Ranks, keys and ids do not depend on the order in which the devices are listed. *)
Theorem C71_order : forall ds ds' ws ws', Permutation ds ds' -> from_devices ds = Ok ws -> from_devices ds' = Ok ws' ->
  map (fun w => (w_rank w, w_key w, w_device_ids w)) ws = map (fun w => (w_rank w, w_key w, w_device_ids w)) ws'.
Proof. intros ds ds' ws ws' P H H'. apply (topology_order ds ds'); auto; apply from_devices_iff; auto. Qed.
Print Assumptions C71_order.

Example C71_order_ex : exists ws, from_devices (rev eight) = Ok ws /\ distributed_to_device_ids ws = [[0; 1]; [2; 3]; [4; 5]; [6; 7]].
Proof. eexists. vm_compute. split; reflexivity. Qed.

(** The device that represents a worker is the one that is listed first, so it does depend on the order of the devices (PT l.141): two
    controllers that list the same devices differently represent the same worker by different devices. *)
Theorem C71_representative_refuted : exists ds ds' ws ws', Permutation ds ds' /\ from_devices ds = Ok ws /\ from_devices ds' = Ok ws' /\ map w_representative ws <> map w_representative ws'.
Proof.
  exists [mkDevice 0 (Some 0) None; mkDevice 1 (Some 0) None], [mkDevice 1 (Some 0) None; mkDevice 0 (Some 0) None]. do 2 eexists.
  split; [apply perm_swap|]. split; [vm_compute; reflexivity|]. split; [vm_compute; reflexivity|]. vm_compute. discriminate.
Qed.
Print Assumptions C71_representative_refuted.

(** ** Slices and peers *)

(** A number of slices is accepted exactly if it is 1 or the workers are all tasks of some list in each of that many slices. *)
Theorem C71_accepts : forall ds ws n, from_devices ds = Ok ws ->
  (validate_num_slices ws n = Ok tt <-> ws <> [] /\ (n = 1%Z \/ (1 < n)%Z /\ exists ts ss, NoDup ts /\ NoDup ss /\ Z.of_nat (length ss) = n /\ grid ts ss (map w_key ws))).
Proof. exact accepts. Qed.
Print Assumptions C71_accepts.

Example C71_accepts_ex : validate_num_slices eight_workers 2 = Ok tt /\ validate_num_slices eight_workers 4 = Err ValueError /\ validate_num_slices eight_workers 0 = Err ValueError.
Proof. vm_compute. auto. Qed.

(** What is not accepted is a ValueError. *)
Theorem C71_rejects : forall ws n e, validate_num_slices ws n = Err e -> e = ValueError.
Proof. exact validate_error. Qed.
Print Assumptions C71_rejects.

Example C71_rejects_ex : forall ws, from_devices [mkDevice 0 (Some 0) (Some 0); mkDevice 1 (Some 1) (Some 0); mkDevice 2 (Some 0) (Some 1); mkDevice 3 (Some 2) (Some 1)] = Ok ws ->
  validate_num_slices ws 2 = Err ValueError.
Proof. intros ws H. vm_compute in H. injection H as <-. vm_compute. reflexivity. Qed.

(** If the number of slices is accepted, the peers are found (nothing is missing in the dictionary): the workers are in as many blocks as there are
    slices, and the peers of a rank are the ranks at the same place of the other blocks. *)
Theorem C71_peers : forall ds ws n, from_devices ds = Ok ws -> validate_num_slices ws n = Ok tt ->
  exists m, length ws = Z.to_nat n * m /\ peer_ranks_by_worker_rank ws n = Ok (map (same_task_ranks m (Z.to_nat n)) (seq 0 (length ws))).
Proof. exact peers_exact. Qed.
Print Assumptions C71_peers.

Example C71_peers_ex : peer_ranks_by_worker_rank eight_workers 2 = Ok [[2]; [3]; [0]; [1]] /\ map (same_task_ranks 2 2) (seq 0 4) = [[2]; [3]; [0]; [1]].
Proof. vm_compute. auto. Qed.

(** Peers are the workers with the same task in another slice. *)
Theorem C71_peers_meaning : forall ds ws n ps i j p wi wj, (1 < n)%Z -> from_devices ds = Ok ws -> peer_ranks_by_worker_rank ws n = Ok ps ->
  nth_error ps i = Some p -> nth_error ws i = Some wi -> nth_error ws j = Some wj ->
  (In j p <-> exists t s s', w_key wi = [t; s] /\ w_key wj = [t; s'] /\ s <> s').
Proof. exact peers_meaning. Qed.
Print Assumptions C71_peers_meaning.

Example C71_peers_meaning_ex : exists t s s', w_key (nth 1 eight_workers (mkWorker 0 [] [] None)) = [t; s] /\ w_key (nth 3 eight_workers (mkWorker 0 [] [] None)) = [t; s'] /\ s <> s'.
Proof. exists 1, 0, 1. split; [reflexivity|]. split; [reflexivity|discriminate]. Qed.

(** Each worker has one peer less than there are slices, itself is none of them, and peers are mutual. *)
Theorem C71_peers_mutual : forall ds ws n ps i p, from_devices ds = Ok ws -> peer_ranks_by_worker_rank ws n = Ok ps -> nth_error ps i = Some p ->
  length p = Z.to_nat n - 1 /\ NoDup p /\ ~ In i p /\ forall j, In j p -> exists q, nth_error ps j = Some q /\ In i q.
Proof.
  intros ds ws n ps i p H PR EP. assert (V : validate_num_slices ws n = Ok tt). { unfold peer_ranks_by_worker_rank in PR. destruct (validate_num_slices ws n) as [[]|]; [auto|discriminate]. }
  destruct (peers_exact ds ws n H V) as (m & LW & E). rewrite PR in E. injection E as ->. pose proof (validate_parts ws n V) as (P & NE & _).
  assert (G : forall j, j < length ws -> nth_error (map (same_task_ranks m (Z.to_nat n)) (seq 0 (length ws))) j = Some (same_task_ranks m (Z.to_nat n) j)).
  { intros j J. rewrite nth_error_map, (nth_error_nth' (seq 0 (length ws)) 0) by (rewrite seq_length; auto). rewrite seq_nth by auto. auto. }
  assert (LI : i < length ws). { assert (X : nth_error (map (same_task_ranks m (Z.to_nat n)) (seq 0 (length ws))) i <> None) by congruence. apply nth_error_Some in X. rewrite map_length, seq_length in X. auto. }
  rewrite (G i LI) in EP. injection EP as <-. pose proof LI as LI'. rewrite LW in LI'. destruct (div_parts m (Z.to_nat n) i LI') as (Q & R & EI).
  assert (INJ : forall x y, x * m + i mod m = y * m + i mod m -> x = y). { intros x y X. assert (x * m = y * m) by lia. apply Nat.mul_cancel_r in H0; lia. }
  assert (ND : NoDup (map (fun q => q * m + i mod m) (seq 0 (Z.to_nat n)))) by (apply FinFun.Injective_map_NoDup; [intros x y; apply INJ|apply seq_NoDup]).
  unfold same_task_ranks. split; [|split; [|split]].
  - assert (II : In i (map (fun q => q * m + i mod m) (seq 0 (Z.to_nat n)))) by (apply in_map_iff; exists (i / m); split; [auto|apply in_seq; lia]).
    assert (LL : length (map (fun q => q * m + i mod m) (seq 0 (Z.to_nat n))) = Z.to_nat n) by (rewrite map_length, seq_length; auto). rewrite (filter_one i _ ND II), LL. auto.
  - apply NoDup_filter. auto.
  - intros I. apply filter_In in I as [_ I]. rewrite Nat.eqb_refl in I. discriminate.
  - intros j J. apply filter_In in J as [J NJ]. apply in_map_iff in J as (q & <- & J). apply in_seq in J. apply negb_true_iff, Nat.eqb_neq in NJ. assert (LJ : q * m + i mod m < length ws) by (rewrite LW; nia).
    exists (same_task_ranks m (Z.to_nat n) (q * m + i mod m)). split; [apply G; auto|]. unfold same_task_ranks. assert (RJ : (q * m + i mod m) mod m = i mod m) by (rewrite Nat.add_comm, Nat.mod_add by lia; apply Nat.mod_mod; lia).
    rewrite RJ. apply filter_In. split; [apply in_map_iff; exists (i / m); split; [auto|apply in_seq; lia]|]. apply negb_true_iff, Nat.eqb_neq. auto.
Qed.
Print Assumptions C71_peers_mutual.

Example C71_peers_mutual_ex : exists ws ps, from_devices (map (fun i => mkDevice i (Some (i mod 2)) (Some (i / 2))) (seq 0 6)) = Ok ws /\ peer_ranks_by_worker_rank ws 3 = Ok ps /\
  ps = [[2; 4]; [3; 5]; [0; 4]; [1; 5]; [0; 2]; [1; 3]].
Proof. do 2 eexists. vm_compute. auto. Qed.

(** ** Renaming of ids *)

(** Each id is renamed to the one at its position, and lists of different lengths or unknown ids are refused. *)
Theorem C71_remap : forall nested source target r, NoDup source ->
  (remap_nested_device_ids nested source target = Ok r <-> length source = length target /\ Forall2 (Forall2 (renamed source target)) nested r).
Proof. exact remap_iff. Qed.
Print Assumptions C71_remap.

Example C71_remap_ex : remap_nested_device_ids [[4; 2]; [0]] [0; 2; 4] [7; 8; 9] = Ok [[9; 8]; [7]] /\ remap_nested_device_ids [[4; 3]] [0; 2; 4] [7; 8; 9] = Err ValueError.
Proof. vm_compute. auto. Qed.

(** The only error is a ValueError. *)
Theorem C71_remap_error : forall nested source target e, remap_nested_device_ids nested source target = Err e -> e = ValueError.
Proof. exact remap_error. Qed.
Print Assumptions C71_remap_error.

Example C71_remap_error_ex : remap_nested_device_ids [] [0; 1] [0] = Err ValueError.
Proof. vm_compute. reflexivity. Qed.

(** Renaming back gives what was there before. *)
Theorem C71_remap_back : forall nested source target r, NoDup source -> NoDup target -> remap_nested_device_ids nested source target = Ok r -> remap_nested_device_ids r target source = Ok nested.
Proof. exact remap_back. Qed.
Print Assumptions C71_remap_back.

Example C71_remap_back_ex : remap_nested_device_ids [[9; 8]; [7]] [7; 8; 9] [0; 2; 4] = Ok [[4; 2]; [0]].
Proof. vm_compute. reflexivity. Qed.

(** Workers that share no device share none after the renaming. *)
Theorem C71_remap_disjoint : forall ds ws source target r, NoDup (map d_id ds) -> from_devices ds = Ok ws -> NoDup (map d_id source) -> NoDup (map d_id target) ->
  remap_distributed_device_ids ws source target = Ok r -> NoDup (concat r).
Proof.
  intros ds ws source target r N H NS NT R. eapply remap_disjoint; [exact NS|exact NT| |exact R]. eapply Permutation_NoDup; [|exact N]. symmetry. apply partition. auto.
Qed.
Print Assumptions C71_remap_disjoint.

Example C71_remap_disjoint_ex : remap_distributed_device_ids eight_workers (rev eight) (map (fun i => mkDevice (10 + i) None None) (seq 0 8)) = Ok [[16; 15]; [11; 13]; [12; 10]; [14; 17]].
Proof. vm_compute. reflexivity. Qed.

(** An id that is listed twice among the sources is renamed to the last of its targets, without a complaint (PT l.63-66); the sidecar looks for
    repetitions before (SW l.120), [remap_distributed_device_ids] does not (PT l.162-169). *)
Theorem C71_remap_twice_refuted : exists source target, length source = length target /\ NoDup target /\ remap_nested_device_ids [[0]] source target = Ok [[6]] /\ nth_error source 0 = Some 0 /\ nth_error target 0 = Some 5.
Proof. exists [0; 0], [5; 6]. repeat split; auto. repeat constructor; simpl; intuition discriminate. Qed.
Print Assumptions C71_remap_twice_refuted.

(** ** Steps *)

(** The step that the controller takes for the latest is the greatest of those that every worker has among its 128 greatest. *)
Theorem C71_latest : forall ws s, Forall (@NoDup Z) ws -> (latest_common (map all_steps ws) = Some s <-> ws <> [] /\ greatest (fun x => forall st, In st ws -> visible st x) s).
Proof. exact agreed_iff. Qed.
Print Assumptions C71_latest.

Example C71_latest_ex : latest_common (map all_steps [[1; 2; 5]; [7; 2; 1]; [2; 1; 3]])%Z = Some 2%Z.
Proof. vm_compute. reflexivity. Qed.

(** There is none exactly if no step is visible in every worker. *)
Theorem C71_latest_none : forall ws, Forall (@NoDup Z) ws -> ws <> [] -> (latest_common (map all_steps ws) = None <-> ~ exists s, forall st, In st ws -> visible st s).
Proof. exact agreed_none. Qed.
Print Assumptions C71_latest_none.

Example C71_latest_none_ex : latest_common (map all_steps [[1; 2; 5]; [0; 7]])%Z = None.
Proof. vm_compute. reflexivity. Qed.

(** If the greatest common step of the workers is not zero and no worker has 128 greater ones, it is found. *)
Theorem C71_latest_common : forall ws s, Forall (@NoDup Z) ws -> ws <> [] -> s <> 0%Z -> greatest (fun x => forall st, In st ws -> In x st) s ->
  (forall st, In st ws -> length (filter (fun x => (s <? x)%Z) st) < 128) -> latest_common (map all_steps ws) = Some s.
Proof.
  intros ws s N NE NZ [I M] C. apply agreed_iff; auto. split; auto. split; [intros st ST; split; auto|]. intros s' S'. apply M. intros st ST. apply (S' st ST).
Qed.
Print Assumptions C71_latest_common.

Example C71_latest_common_ex : latest_common (map all_steps [map Z.of_nat (seq 1 128); [1]])%Z = Some 1%Z.
Proof. vm_compute. reflexivity. Qed.

(** "Returns the highest step present on every worker, or `None`" (CC l.837) does not hold for workers with many steps: each reports only its
    128 greatest (SW l.316), so a step that all have is not found if one worker has 128 greater ones. *)
Theorem C71_latest_refuted : exists ws s, Forall (@NoDup Z) ws /\ s <> 0%Z /\ (forall st, In st ws -> In s st) /\ latest_common (map all_steps ws) = None.
Proof.
  exists [map Z.of_nat (seq 1 129); [1]]%Z, 1%Z. split; [|split; [lia|split; [|vm_compute; reflexivity]]].
  - constructor; [|constructor; [repeat constructor; simpl; tauto|constructor]]. apply FinFun.Injective_map_NoDup; [intros x y; apply Nat2Z.inj|apply seq_NoDup].
  - intros st [<-|[<-|[]]]; [apply in_map_iff; exists 1; split; [reflexivity|apply in_seq; lia]|left; auto].
Qed.
Print Assumptions C71_latest_refuted.

(** The answer is that of the first attempt that does not fail with a RuntimeError, if it begins before the deadline. *)
Theorem C71_retry : forall deadline l v, latest_step deadline l = Ok v <->
  exists pre now arrays post, l = pre ++ (now, Ok arrays) :: post /\ (now < deadline)%Z /\ Forall (fun x => (fst x < deadline)%Z /\ snd x = Err RuntimeError) pre /\ v = latest_common arrays.
Proof. exact retry_ok. Qed.
Print Assumptions C71_retry.

Example C71_retry_ex : latest_step 30 [(0, Err RuntimeError); (12, Err RuntimeError); (25, Ok [[3; 0]; [3; 4]])]%Z = Ok (Some 3%Z).
Proof. vm_compute. reflexivity. Qed.

(** If all attempts before the deadline fail so, there is a RuntimeError. *)
Theorem C71_retry_gives_up : forall deadline l, Forall (fun x => (fst x < deadline)%Z -> snd x = Err RuntimeError) l -> latest_step deadline l = Err RuntimeError.
Proof. exact retry_gives_up. Qed.
Print Assumptions C71_retry_gives_up.

Example C71_retry_gives_up_ex : latest_step 30 [(0, Err RuntimeError); (29, Err RuntimeError); (30, Ok [[3]])]%Z = Err RuntimeError.
Proof. vm_compute. reflexivity. Qed.

(** ** Saving and restoring *)

(** The workers are to save a step if all want it, are not if none does, and it is an error if they differ; step 0 is never saved. *)
Theorem C71_should_save : forall ws step b, should_save ws step = Ok b <-> (step = 0%Z /\ b = false) \/ (step <> 0%Z /\ ws <> [] /\ Forall (fun rcm => rcm step = b) ws).
Proof. exact should_save_iff. Qed.
Print Assumptions C71_should_save.

Example C71_should_save_ex : should_save [Z.even; fun s => (s <? 3)%Z] 2 = Ok true /\ should_save [Z.even; fun s => (s <? 3)%Z] 4 = Err RuntimeError /\ should_save [Z.even; Z.even] 0 = Ok false.
Proof. vm_compute. auto. Qed.

(** What a save returns and does: it is true if the step is not 0 and is forced or wanted by all; then it is given to each worker, and otherwise nothing changes. *)
Theorem C71_save : forall ws step force r ws', ws <> [] -> controller_save ws step force = (r, ws') ->
  r = (if (step =? 0)%Z then Ok false else if force then Ok true else should_save (map s_wants ws) step) /\
  ws' = match r with Ok true => map (fun w => after_save w step force) ws | _ => ws end.
Proof. exact save_result. Qed.
Print Assumptions C71_save.

Example C71_save_ex : let w := mkSide [2; 4]%Z Z.even (fun _ _ => true) in
  map s_steps (snd (controller_save [w; w] 6 false)) = [[6; 2; 4]; [6; 2; 4]]%Z /\ fst (controller_save [w; w] 6 false) = Ok true /\ fst (controller_save [w; w] 5 false) = Ok false.
Proof. vm_compute. auto. Qed.

(** If the managers of the workers save what they are given, a step greater than all before is the latest after it was saved. *)
Theorem C71_save_latest : forall ws step force ws', (0 < step)%Z ->
  (forall w, In w ws -> NoDup (s_steps w) /\ (forall x, In x (s_steps w) -> (x < step)%Z) /\ s_saves w step force = true) -> ws <> [] ->
  controller_save ws step force = (Ok true, ws') -> latest_common (map all_steps (map s_steps ws')) = Some step.
Proof. exact save_latest. Qed.
Print Assumptions C71_save_latest.

Example C71_save_latest_ex : let w := mkSide [2; 4]%Z Z.even (fun _ _ => true) in latest_common (map all_steps (map s_steps (snd (controller_save [w; w] 6 false)))) = Some 6%Z.
Proof. vm_compute. reflexivity. Qed.

(** A worker refuses step 0 and saves nothing; for other steps it answers yes. *)
Theorem C71_worker : forall w step force, worker_save w 0%Z force = (false, w) /\ (step <> 0%Z -> fst (worker_save w step force) = true) /\
  (forall s, In s (s_steps (snd (worker_save w step force))) -> In s (s_steps w) \/ s = step /\ s_saves w step force = true).
Proof.
  intros w step force. split; [reflexivity|]. unfold worker_save, no_step. destruct (Z.eqb_spec step 0) as [->|N]; cbn; [split; [congruence|auto]|]. split; [auto|]. intros s. destruct (s_saves w step force) eqn:E; cbn; [intros [<-|H]; auto|auto].
Qed.
Print Assumptions C71_worker.

(** A save "returns whether a new save occurred" (CC l.944) also when no save did: a worker answers True for every step but 0, whatever its manager did (SW l.244-249),
    so the controller returns True although no worker has the step. *)
Theorem C71_save_refuted : exists ws step force, fst (controller_save ws step force) = Ok true /\ forall w, In w (snd (controller_save ws step force)) -> ~ In step (s_steps w).
Proof.
  exists [mkSide [2]%Z Z.even (fun _ _ => false); mkSide [2]%Z Z.even (fun _ _ => false)], 4%Z, false. split; [vm_compute; reflexivity|]. intros w W. vm_compute in W. destruct W as [<-|[<-|[]]]; simpl; intros [X|[]]; discriminate.
Qed.
Print Assumptions C71_save_refuted.

(** A step that is given is restored by all workers or it is an error. *)
Theorem C71_restore : forall s latest ws l, (0 < s)%Z -> (controller_restore (Some s) latest ws = Ok l <-> (forall st, In st ws -> In s st) /\ l = repeat s (length ws)).
Proof. exact restore_step. Qed.
Print Assumptions C71_restore.

Example C71_restore_ex : controller_restore (Some 2%Z) (Err RuntimeError) [[1; 2]; [2; 3]]%Z = Ok [2; 2]%Z /\ controller_restore (Some 3%Z) (Err RuntimeError) [[1; 2]; [2; 3]]%Z = Err FileNotFoundError.
Proof. vm_compute. auto. Qed.

(** If no step is given, all workers restore the same one, the latest that they agree on. *)
Theorem C71_restore_latest : forall ws, Forall (fun st => NoDup st /\ forall x, In x st -> (0 < x)%Z) ws -> ws <> [] ->
  match latest_common (map all_steps ws) with
  | Some s => controller_restore None (Ok (latest_common (map all_steps ws))) ws = Ok (repeat s (length ws)) /\ greatest (fun x => forall st, In st ws -> visible st x) s
  | None => controller_restore None (Ok (latest_common (map all_steps ws))) ws = Err FileNotFoundError
  end.
Proof. exact restore_latest. Qed.
Print Assumptions C71_restore_latest.

Example C71_restore_latest_ex : controller_restore None (Ok (latest_common (map all_steps [[1; 2]; [3; 2]]%Z))) [[1; 2]; [3; 2]]%Z = Ok [2; 2]%Z.
Proof. vm_compute. reflexivity. Qed.

(** A negative step is passed on by the controller (CC l.1061-1070) and means to each worker its own latest step (SW l.290): the workers restore different steps. *)
Theorem C71_restore_negative_refuted : exists s ws l, controller_restore (Some s) (Err RuntimeError) ws = Ok l /\ exists a b, In a l /\ In b l /\ a <> b.
Proof. exists (-1)%Z, [[1; 2]; [2; 3]]%Z, [2; 3]%Z. split; [vm_compute; reflexivity|]. exists 2%Z, 3%Z. simpl. repeat split; auto. discriminate. Qed.
Print Assumptions C71_restore_negative_refuted.

(** ** Operations at the end *)

(** All operations are run, in order, whichever fail, and the first error is raised. *)
Theorem C71_lifecycle : forall S (ops : list (S -> S * result unit)) s,
  exists s' os, runs ops s s' os /\
    run_lifecycle_ops ops s = (s', match find (fun o => match o with Err _ => true | Ok _ => false end) os with Some o => o | None => Ok tt end).
Proof. intros S ops s. destruct (runs_total ops s) as (s' & os & H). exists s', os. split; auto. apply (run_ops_runs ops s s' os H None). Qed.
Print Assumptions C71_lifecycle.

Example C71_lifecycle_ex : run_lifecycle_ops [fun l => (l ++ [1], Ok tt); fun l => (l ++ [2], Err ValueError); fun l => (l ++ [3], Err KeyError); fun l => (l ++ [4], Ok tt)] [] = ([1; 2; 3; 4], Err ValueError).
Proof. vm_compute. reflexivity. Qed.
