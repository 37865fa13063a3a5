(** C51: replicas of a mesh and the mesh that restores local checkpoints. *)
From Coq Require Import List Bool Arith ZArith Lia Permutation.
From Verif Require Import Base Mesh_Model Mesh_Spec Mesh_Proofs.
Import ListNotations.

(** The devices of a replica are the devices whose index along the replica axis is the
    replica's id, in the order of the other indices. *)
Theorem C51_replica : forall m axis r n, proper m -> nth_error (shape m) axis = Some n -> r < n ->
  exists l, replica_devices m r axis = Ok l /\
  (forall pre post d, length pre = axis -> index_of (shape m) (pre ++ r :: post) ->
    (has_at m (pre ++ r :: post) d <-> nth_error l (place (firstn axis (shape m) ++ skipn (S axis) (shape m)) (pre ++ post)) = Some d)) /\
  (forall d, In d l <-> in_slice m axis r d).
Proof.
  intros m axis r n P N R. destruct (replica_ok m axis r n P N R) as (l & E & _ & I & ->). eexists. split; [exact E|]. split; auto.
  intros pre post d <- X. assert (T := take_nth (shape m) r (devices m) pre post X (proj1 P)). unfold del in T. rewrite T. unfold has_at. tauto.
Qed.
Print Assumptions C51_replica.

Definition dev (i p : nat) : device := mk_device (Z.of_nat i) p.
(* two replicas of two devices on two processes each; the replica axis is the last one *)
Definition grid : mesh := mk_mesh [2; 2] [dev 0 0; dev 1 1; dev 2 2; dev 3 3].

Lemma grid_proper : proper grid. Proof. split; auto. repeat constructor. Qed.

Example C51_replica_ex : proper grid /\ replica_devices grid 1 1 = Ok [dev 1 1; dev 3 3] /\ replica_devices grid 1 0 = Ok [dev 2 2; dev 3 3].
Proof. split; [exact grid_proper|]. vm_compute. auto. Qed.

(** The replicas together have each device of the mesh exactly once. *)
Theorem C51_partition : forall m axis n, proper m -> nth_error (shape m) axis = Some n ->
  exists ls, map (fun r => replica_devices m r axis) (seq 0 n) = map Ok ls /\ Permutation (concat ls) (devices m).
Proof.
  intros m axis n P N. exists (map (fun r => take (shape m) axis r (devices m)) (seq 0 n)). split.
  - rewrite map_map. apply map_ext_in. intros r I. apply in_seq in I. destruct (replica_ok m axis r n P N) as (l & E & _ & _ & ->); [lia|]. auto.
  - rewrite <- flat_map_concat_map. apply take_partition; auto. apply P.
Qed.
Print Assumptions C51_partition.

Example C51_partition_ex : map (fun r => replica_devices grid r 1) (seq 0 2) = map Ok [[dev 0 0; dev 2 2]; [dev 1 1; dev 3 3]].
Proof. vm_compute. auto. Qed.

(** The replica id of a process is the first replica in which it has a device, and -1
    exactly if it has none in the mesh. *)
Theorem C51_replica_id : forall m axis n p, proper m -> nth_error (shape m) axis = Some n -> 2 <= length (shape m) ->
  (exists r, process_replica_id p m axis = Ok (Z.of_nat r) /\ process_in m axis r p /\ forall q, q < r -> ~ process_in m axis q p) \/
  (process_replica_id p m axis = Ok (-1)%Z /\ forall d, In d (devices m) -> process d <> p).
Proof.
  intros m axis n p P N L. unfold process_replica_id. rewrite (count_ok m axis n) by auto. cbn [rbind].
  destruct (first_ok m axis n p n 0 P N) as [(r & -> & R & I & F)|(-> & F)]; [lia| |].
  - left. exists r. split; auto. split; auto. intros q Q. apply F. lia.
  - right. split; auto. intros d I E. destruct (in_some_slice m axis n d P N I) as (r & R & S). apply (F r); [lia|]. exists d. auto.
Qed.
Print Assumptions C51_replica_id.

Example C51_replica_id_ex : process_replica_id 2 grid 1 = Ok 0%Z /\ process_replica_id 3 grid 1 = Ok 1%Z /\ process_replica_id 4 grid 1 = Ok (-1)%Z.
Proof. vm_compute. auto. Qed.

(** A process of a mesh with one axis can be in no replica: such a mesh counts as one
    replica, but this replica has only the first device.  [local_replica_devices] then
    fails for a process of the mesh. *)
Theorem C51_one_axis_refuted : exists m p d, proper m /\ In d (devices m) /\ process d = p /\
  replica_count m 0 = Ok 1 /\ process_replica_id p m 0 = Ok (-1)%Z /\ local_replica_devices p m 0 = Err ValueError.
Proof.
  exists (mk_mesh [2] [dev 0 0; dev 1 1]), 1, (dev 1 1). split; [split; auto; repeat constructor|]. split; [cbn; auto|]. vm_compute. auto.
Qed.
Print Assumptions C51_one_axis_refuted.

(** The local replica of a process is one with its devices; there is none exactly if the
    process has no device in the mesh. *)
Theorem C51_local : forall m axis n p, proper m -> nth_error (shape m) axis = Some n -> 2 <= length (shape m) ->
  (exists r l, local_replica_devices p m axis = Ok l /\ replica_devices m r axis = Ok l /\ process_replica_id p m axis = Ok (Z.of_nat r) /\ exists d, In d l /\ process d = p) \/
  (local_replica_devices p m axis = Err ValueError /\ forall d, In d (devices m) -> process d <> p).
Proof.
  intros m axis n p P N L. unfold local_replica_devices, process_replica_id. rewrite (count_ok m axis n) by auto. cbn [rbind].
  destruct (first_ok m axis n p n 0 P N) as [(r & -> & R & (d & I & E) & F)|(-> & F)]; [lia| |]; cbn [rbind rmap].
  - left. destruct (replica_ok m axis r n P N) as (l & EL & _ & IL & _); [lia|]. exists r, l. split; auto. split; auto. split; auto. exists d. split; auto. apply IL. auto.
  - right. split; auto. intros d I E. destruct (in_some_slice m axis n d P N I) as (r & R & S). apply (F r); [lia|]. exists d. auto.
Qed.
Print Assumptions C51_local.

Example C51_local_ex : local_replica_devices 3 grid 1 = Ok [dev 1 1; dev 3 3] /\ local_replica_devices 4 grid 1 = Err ValueError.
Proof. vm_compute. auto. Qed.

(** Membership in a replica is decided correctly, and the primary process of a replica is
    one of its processes, whatever the order of sets. *)
Theorem C51_membership : forall m axis r n, proper m -> nth_error (shape m) axis = Some n -> r < n ->
  (forall p, exists b, in_replica p m r axis = Ok b /\ (b = true <-> process_in m axis r p)) /\
  (forall first, (forall l, l <> [] -> In (first l) l) -> exists p, primary_process_in_replica first m r axis = Ok p /\ process_in m axis r p) /\
  (exists ids pids, get_primary_replica_ids_and_pids m r axis = Ok (ids, pids) /\ (forall i, In i ids <-> exists d, in_slice m axis r d /\ dev_id d = i) /\
    forall p, In p pids <-> process_in m axis r p).
Proof.
  intros m axis r n P N R. split; [intros p; apply (in_replica_ok m axis r n p); auto|].
  destruct (replica_ok m axis r n P N R) as (l & E & NE & I & _).
  assert (U : exists ps, unique_processes_from_devices l = Ok ps /\ ps <> [] /\ forall p, In p ps <-> process_in m axis r p).
  { unfold unique_processes_from_devices. destruct l as [|d l]; [congruence|]. eexists. split; [reflexivity|].
    assert (G : forall p, In p (nodup Nat.eq_dec (map process (d :: l))) <-> process_in m axis r p).
    { intros p. rewrite nodup_In, in_map_iff. unfold process_in. split; intros (e & H1 & H2); exists e; [split; auto; apply I; auto|split; auto; apply I; auto]. }
    split; auto. intros Z. assert (Q : In (process d) []) by (rewrite <- Z; apply nodup_In; left; auto). contradiction. }
  destruct U as (ps & U & UN & UI). split.
  - intros first F. unfold primary_process_in_replica. rewrite E. cbn [rbind]. rewrite U. cbn [rmap]. eexists. split; [reflexivity|]. apply UI. auto.
  - unfold get_primary_replica_ids_and_pids. rewrite E. cbn [rbind]. rewrite U. cbn [rmap]. eexists _, _. split; [reflexivity|]. split; auto.
    intros i. rewrite in_map_iff. split; intros (e & H1 & H2); exists e; [split; auto; apply I; auto|split; auto; apply I; auto].
Qed.
Print Assumptions C51_membership.

Example C51_membership_ex : in_replica 2 grid 0 1 = Ok true /\ in_replica 2 grid 1 1 = Ok false /\
  primary_process_in_replica (fun l => hd 0 l) grid 1 1 = Ok 1 /\ get_primary_replica_ids_and_pids grid 1 1 = Ok ([1; 3]%Z, [1; 3]).
Proof. vm_compute. auto. Qed.

(** A replica without devices has no processes that could be asked for. *)
Theorem C51_empty : forall m axis r p first, replica_devices m r axis = Ok [] ->
  in_replica p m r axis = Err ValueError /\ primary_process_in_replica first m r axis = Err ValueError /\ get_primary_replica_ids_and_pids m r axis = Err ValueError.
Proof. intros m axis r p first E. unfold in_replica, primary_process_in_replica, get_primary_replica_ids_and_pids. rewrite E. auto. Qed.
Print Assumptions C51_empty.

Example C51_empty_ex : replica_devices (mk_mesh [0; 2] []) 1 1 = Ok [] /\ in_replica 0 (mk_mesh [0; 2] []) 1 1 = Err ValueError.
Proof. vm_compute. auto. Qed.

(** It is recognised exactly if some process has devices in two replicas; otherwise the
    replica of a process is the only one it is in. *)
Theorem C51_spans : forall m axis n, proper m -> nth_error (shape m) axis = Some n -> 2 <= length (shape m) ->
  exists b, process_spans_multiple_replicas m axis = Ok b /\
  (b = true <-> exists p r q, r <> q /\ process_in m axis r p /\ process_in m axis q p) /\
  (b = false -> forall p r, process_in m axis r p -> process_replica_id p m axis = Ok (Z.of_nat r)).
Proof.
  intros m axis n P N L. unfold process_spans_multiple_replicas. rewrite (count_ok m axis n) by auto. cbn [rbind].
  assert (NE : devices m <> []). { intros Z. destruct P as (E & F). rewrite Z in E. cbn in E. assert (Q := size_pos _ F). unfold size in Q. lia. }
  unfold unique_processes_from_devices. destruct (devices m) as [|d0 ds] eqn:D; [congruence|]. cbn [rbind].
  destruct (spans_ok m axis n (nodup Nat.eq_dec (map process (d0 :: ds))) P N) as (b & -> & B). exists b. split; auto.
  assert (B' : b = true <-> exists p r q, r <> q /\ process_in m axis r p /\ process_in m axis q p).
  { rewrite B. split; [intros (p & r & q & _ & H); exists p, r, q; auto|]. intros (p & r & q & H1 & H2 & H3). exists p, r, q. split; auto.
    destruct H2 as (d & H2 & <-). apply nodup_In, in_map. rewrite <- D. eapply slice_in; eauto. }
  split; auto. intros -> p r H. destruct (C51_replica_id m axis n p P N L) as [(q & -> & Q & _)|(_ & F)].
  - destruct (Nat.eq_dec q r) as [->|NQ]; auto. exfalso. assert (false = true) by (apply B'; exists p, q, r; auto). discriminate.
  - destruct H as (d & S & E). exfalso. apply (F d); auto. eapply slice_in; eauto.
Qed.
Print Assumptions C51_spans.

Example C51_spans_ex : process_spans_multiple_replicas grid 1 = Ok false /\
  process_spans_multiple_replicas (mk_mesh [2; 2] [dev 0 0; dev 1 0; dev 2 1; dev 3 1]) 1 = Ok true.
Proof. vm_compute. auto. Qed.

(** The mesh for restoring has at each place the hardware that was at this place of the mesh
    that was saved, if the tables of ids describe the same hardware. *)
Theorem C51_consistent : forall {H : Type} (hw_before hw_now : Z -> H) ds g ids previous current m,
  same_hardware hw_before hw_now previous current -> consistent_restore_mesh true ds g ids previous current = Ok m ->
  shape m = shape g /\ map (fun d => hw_now (dev_id d)) (devices m) = map hw_before ids /\ forall d, In d (devices m) -> In d ds.
Proof.
  intros H hw_before hw_now ds g ids previous current m S E. unfold consistent_restore_mesh in E.
  destruct (device_id_across_restarts previous current []) as [across|] eqn:A; [|discriminate]. cbn [rbind] in E. apply across_spec in A as (_ & A & _).
  destruct (sequence _) as [l|] eqn:Q; [|discriminate]. cbn [rbind] in E. unfold reshape in E. destruct (_ =? _); [|discriminate]. injection E as <-. cbn [shape devices]. split; auto.
  apply sequence_ok in Q. clear - S A Q. induction Q as [|i d ids l E Q (IH1 & IH2)]; [split; [auto|intros d []]|].
  destruct (lookup i across) as [c|] eqn:C; [|discriminate]. cbn [rbind] in E. apply lookup_in in C. apply A in C as [[]|(a & b & ps & cs & X1 & X2 & X3 & X4)]. cbn [fst snd] in *.
  apply by_id_in in E as (I & E). split.
  - cbn [map]. f_equal; auto. rewrite E. symmetry. apply (S a b i c ps cs); auto.
  - intros e [<-|J]; auto.
Qed.
Print Assumptions C51_consistent.

(* before the restart process 0 had the devices 0 and 1, now it has 2 and 3 *)
Definition prev_table : list (list Z) := [[0; 1]; [2; 3]]%Z.
Definition cur_table : list (list Z) := [[2; 3]; [0; 1]]%Z.
Definition hw (i : Z) : nat := Z.to_nat (match i with 0 => 2 | 1 => 3 | 2 => 0 | _ => 1 end)%Z.
Definition new_devices : list device := [mk_device 0 1; mk_device 1 1; mk_device 2 0; mk_device 3 0].

Example C51_consistent_ex : same_hardware Z.to_nat hw prev_table cur_table /\
  consistent_restore_mesh true new_devices grid [0; 2; 1; 3]%Z prev_table cur_table = Ok (mk_mesh [2; 2] [mk_device 2 0; mk_device 0 1; mk_device 3 0; mk_device 1 1]).
Proof.
  split; [|vm_compute; auto]. intros i j p c ps cs. destruct i as [|[|i]]; cbn [nth_error prev_table cur_table]; [| |destruct i; discriminate];
    intros E1 E2 E3 E4; injection E1 as <-; injection E3 as <-; destruct j as [|[|j]]; cbn [nth_error] in E2, E4; try (destruct j; discriminate); injection E2 as <-; injection E4 as <-; auto.
Qed.

(** When making this mesh succeeds, and what each failure means. *)
Theorem C51_makes : forall ds g ids previous current,
  (covers current previous -> (forall i, In i ids -> listed previous i) -> (forall c, listed current c -> exists d, In d ds /\ dev_id d = c) ->
   length ids = fold_right Nat.mul 1 (shape g) -> exists m, consistent_restore_mesh true ds g ids previous current = Ok m) /\
  (forall m, consistent_restore_mesh true ds g ids previous current = Ok m ->
   covers current previous /\ (forall i, In i ids -> listed previous i) /\ length ids = fold_right Nat.mul 1 (shape g)) /\
  (forall e, consistent_restore_mesh true ds g ids previous current = Err e ->
   (e = IndexError /\ ~ covers current previous) \/
   (e = KeyError /\ ((exists i, In i ids /\ ~ listed previous i) \/ exists c, listed current c /\ forall d, In d ds -> dev_id d <> c)) \/
   (e = ValueError /\ length ids <> fold_right Nat.mul 1 (shape g))).
Proof.
  intros ds g ids previous current. unfold consistent_restore_mesh.
  assert (ERR : forall e, rbind (device_id_across_restarts previous current []) (fun across =>
      rbind (sequence (map (fun i => rbind (lookup i across) (fun c => lookup c (rev (map (fun d => (dev_id d, d)) ds)))) ids)) (reshape (shape g))) = Err e ->
   (e = IndexError /\ ~ covers current previous) \/
   (e = KeyError /\ ((exists i, In i ids /\ ~ listed previous i) \/ exists c, listed current c /\ forall d, In d ds -> dev_id d <> c)) \/
   (e = ValueError /\ length ids <> fold_right Nat.mul 1 (shape g))).
  { intros e. destruct (device_id_across_restarts previous current []) as [across|e'] eqn:A; cbn [rbind]; [|intros H; injection H as <-; left; eapply across_err; eauto].
    apply across_spec in A as (_ & A & K). destruct (sequence _) as [l|e'] eqn:Q; cbn [rbind].
    - unfold reshape. apply sequence_ok in Q. destruct (Nat.eqb_spec (length l) (size (shape g))) as [|N]; [discriminate|]. intros H. injection H as <-. right. right. split; auto.
      assert (LL : length ids = length l) by (clear - Q; induction Q; cbn; auto). rewrite LL. exact N.
    - intros H. injection H as <-. right. left. apply sequence_err in Q as (i & I & Q). destruct (lookup i across) as [c|e2] eqn:C; cbn [rbind] in Q.
      + apply by_id_err in Q as (-> & Q). split; auto. right. exists c. split; auto. apply lookup_in in C. apply A in C as [[]|(a & b & ps & cs & X1 & X2 & X3 & X4)]. cbn [snd] in X4. exists cs. split; eapply nth_error_In; eauto.
      + injection Q as <-. apply lookup_err in C as (-> & C). split; auto. left. exists i. split; auto. intros P. apply C, K. auto. }
  assert (OK : forall m, rbind (device_id_across_restarts previous current []) (fun across =>
      rbind (sequence (map (fun i => rbind (lookup i across) (fun c => lookup c (rev (map (fun d => (dev_id d, d)) ds)))) ids)) (reshape (shape g))) = Ok m ->
   covers current previous /\ (forall i, In i ids -> listed previous i) /\ length ids = fold_right Nat.mul 1 (shape g)).
  { intros m. destruct (device_id_across_restarts previous current []) as [across|e'] eqn:A; cbn [rbind]; [|discriminate]. apply across_spec in A as (C & A & K).
    destruct (sequence _) as [l|e'] eqn:Q; cbn [rbind]; [|discriminate]. unfold reshape. destruct (Nat.eqb_spec (length l) (size (shape g))) as [E|N]; [|discriminate]. intros _. split; auto. apply sequence_ok in Q. split.
    - intros i I. clear - Q I K. induction Q as [|x y ids l E Q IH]; [contradiction|]. destruct I as [->|I]; auto. destruct (lookup i across) as [c|] eqn:C; [|discriminate]. apply lookup_in in C. apply (in_map fst) in C. apply K in C as [[]|C]. auto.
    - unfold size in E. rewrite <- E. clear - Q. induction Q; cbn; auto. }
  split; [|split; [exact OK|exact ERR]]. intros C L D Z. match goal with |- exists m, ?x = _ => destruct x as [m|e] eqn:E end; [eauto|]. exfalso.
  destruct (ERR e eq_refl) as [(_ & N)|[(_ & [(i & I & N)|(c & I & N)])|(_ & N)]]; auto. destruct (D c I) as (d & J & <-). apply (N d); auto.
Qed.
Print Assumptions C51_makes.

Example C51_makes_ex : covers cur_table prev_table /\ consistent_restore_mesh true new_devices grid [0; 1; 2; 4]%Z prev_table cur_table = Err KeyError /\
  consistent_restore_mesh true new_devices grid [0; 1; 2]%Z prev_table cur_table = Err ValueError /\
  consistent_restore_mesh true new_devices grid [0; 1; 2; 3]%Z prev_table [[2; 3]; [0]]%Z = Err IndexError.
Proof.
  split; [|vm_compute; auto]. intros i ps E NE. destruct i as [|[|i]]; cbn in E; [| |destruct i; discriminate]; injection E as <-; eexists; cbn; auto.
Qed.

(** Nothing changes if the ids did not change, for both ways to make the mesh. *)
Theorem C51_unchanged : forall flag ds g table, (forall d, In d (devices g) -> In d ds) -> (forall d e, In d ds -> In e ds -> dev_id d = dev_id e -> d = e) ->
  (forall d, In d (devices g) -> listed table (dev_id d)) -> (forall c, listed table c -> exists d, In d ds /\ dev_id d = c) -> proper g ->
  consistent_restore_mesh flag ds g (map dev_id (devices g)) table table = Ok g.
Proof.
  intros flag ds g table SUB INJ LI AV P. destruct flag.
  - destruct (proj1 (C51_makes ds g (map dev_id (devices g)) table table)) as (m & E).
    + intros i ps E _. exists ps. auto.
    + intros i I. apply in_map_iff in I as (d & <- & I). auto.
    + auto.
    + rewrite map_length. apply P.
    + rewrite E. f_equal. destruct (C51_consistent (fun i => i) (fun i => i) ds g (map dev_id (devices g)) table table m) as (S & M & I); auto.
      { intros i j p c ps cs H1 H2 H3 H4. congruence. }
      destruct m as [s l], g as [s' l']. cbn [shape devices] in *. subst s'. f_equal. clear - M I SUB INJ. revert l' SUB M. induction l as [|d l IH]; intros [|d' l'] SUB M; try discriminate; auto. cbn [map] in M. injection M as M1 M2. f_equal.
      * apply INJ; auto; [apply I|apply SUB]; left; auto.
      * apply IH; auto; intros e J; [apply I|apply SUB]; right; auto.
  - unfold consistent_restore_mesh. assert (Q : sequence (map (device_with_id ds) (map dev_id (devices g))) = Ok (devices g)).
    { rewrite map_map. apply sequence_ok. assert (G : forall l, (forall d, In d l -> In d ds) -> Forall2 (fun x y => device_with_id ds (dev_id x) = Ok y) l l).
      { induction l as [|d l IH]; intros S; constructor; [|apply IH; intros e J; apply S; right; auto].
        assert (J : In d ds) by (apply S; left; auto). destruct (device_with_id ds (dev_id d)) as [x|e] eqn:X; [apply with_id_ok in X as (X1 & X2); f_equal; apply INJ; auto|].
        exfalso. clear - J X. induction ds as [|y ds IH]; [contradiction|]. cbn [device_with_id] in X. destruct (Z.eqb_spec (dev_id y) (dev_id d)); [discriminate|]. destruct J as [->|J]; auto. }
      auto. }
    rewrite Q. cbn [rbind]. unfold reshape. destruct g as [s l]. cbn [shape devices] in *. destruct P as (P & _). cbn in P. unfold size. rewrite P, Nat.eqb_refl. auto.
Qed.
Print Assumptions C51_unchanged.

Example C51_unchanged_ex : consistent_restore_mesh true (devices grid) grid (map dev_id (devices grid)) [[0]; [1]; [2]; [3]]%Z [[0]; [1]; [2]; [3]]%Z = Ok grid.
Proof. vm_compute. auto. Qed.

(** Without the flag the mesh has other hardware once a device got another id. *)
Theorem C51_by_order_refuted : exists (hw_before hw_now : Z -> nat) ds g ids previous current m, same_hardware hw_before hw_now previous current /\
  consistent_restore_mesh false ds g ids previous current = Ok m /\ map (fun d => hw_now (dev_id d)) (devices m) <> map hw_before ids.
Proof.
  exists Z.to_nat, hw, new_devices, grid, [0; 1; 2; 3]%Z, prev_table, cur_table. eexists. split; [exact (proj1 C51_consistent_ex)|]. split; [vm_compute; reflexivity|]. vm_compute. discriminate.
Qed.
Print Assumptions C51_by_order_refuted.

(** The processes that restore as slice [r] are those whose devices were in slice [r] when
    the checkpoint was written. *)
Theorem C51_restoring : forall {H : Type} (hw_before hw_now : Z -> H) ds g ids previous current m axis n r,
  same_hardware hw_before hw_now previous current -> (forall d e, In d ds -> In e ds -> hw_now (dev_id d) = hw_now (dev_id e) -> d = e) ->
  consistent_restore_mesh true ds g ids previous current = Ok m -> proper g -> nth_error (shape g) axis = Some n -> r < n ->
  exists ps, restoring_processes m r axis = Ok ps /\
  forall p, In p ps <-> exists idx i d, index_of (shape g) idx /\ nth_error idx axis = Some r /\ nth_error ids (place (shape g) idx) = Some i /\ In d ds /\ hw_now (dev_id d) = hw_before i /\ process d = p.
Proof.
  intros H hw_before hw_now ds g ids previous current m axis n r S INJ E P N R.
  destruct (C51_consistent hw_before hw_now ds g ids previous current m S E) as (SH & M & I). destruct (proj1 (proj2 (C51_makes ds g ids previous current)) m E) as (_ & _ & L).
  assert (PM : proper m). { destruct P as (P1 & P2). split; [|rewrite SH; auto]. rewrite SH, <- L. apply (f_equal (@length _)) in M. rewrite !map_length in M. auto. }
  rewrite <- SH in N. destruct (replica_ok m axis r n PM N R) as (l & EL & NE & IL & _). unfold restoring_processes. rewrite EL. cbn [rbind]. unfold unique_processes_from_devices.
  destruct l as [|d0 l0]; [congruence|]. eexists. split; [reflexivity|]. intros p. rewrite nodup_In, in_map_iff.
  assert (NTH : forall k, nth_error (map (fun d => hw_now (dev_id d)) (devices m)) k = nth_error (map hw_before ids) k) by (intros; rewrite M; auto).
  split.
  - intros (d & <- & J). apply IL in J as (idx & (X & D) & K). rewrite SH in X, D. specialize (NTH (place (shape g) idx)). rewrite (map_nth_error _ _ _ D) in NTH.
    destruct (nth_error ids (place (shape g) idx)) as [i|] eqn:EI; [rewrite (map_nth_error _ _ _ EI) in NTH|apply nth_error_None in EI; rewrite (proj2 (nth_error_None _ _)) in NTH by (rewrite map_length; auto); discriminate].
    injection NTH as NTH. exists idx, i, d. split; auto. split; auto. split; auto. split; [apply I; eapply nth_error_In; eauto|]. auto.
  - intros (idx & i & d & X & K & EI & J & HW & <-). specialize (NTH (place (shape g) idx)). rewrite (map_nth_error _ _ _ EI) in NTH.
    destruct (nth_error (devices m) (place (shape g) idx)) as [e|] eqn:D; [rewrite (map_nth_error _ _ _ D) in NTH|apply nth_error_None in D; rewrite (proj2 (nth_error_None _ _)) in NTH by (rewrite map_length; auto); discriminate].
    injection NTH as NTH. assert (e = d) by (apply INJ; auto; [apply I; eapply nth_error_In; eauto|congruence]). subst e. exists d. split; auto. apply IL. exists idx. split; auto. split; rewrite SH; auto.
Qed.
Print Assumptions C51_restoring.

Example C51_restoring_ex : exists m, consistent_restore_mesh true new_devices grid [0; 1; 2; 3]%Z prev_table cur_table = Ok m /\ restoring_processes m 0 0 = Ok [0] /\ restoring_processes m 1 0 = Ok [1].
Proof. eexists. vm_compute. auto. Qed.

(** A slice that restores from its own storage does so with the slice id of the new mesh.
    If the hosts of two slices changed places in the restart, the slice with the checkpoint
    restores with a mesh of the other slice's hosts and none of its own. *)
Theorem C51_swapped_refuted : exists ds g ids previous current m p r ps, same_hardware Z.to_nat hw previous current /\ proper g /\ ds = devices g /\
  consistent_restore_mesh true ds g ids previous current = Ok m /\
  process_replica_id p g 0 = Ok (Z.of_nat r) /\ restoring_processes m r 0 = Ok ps /\ ~ In p ps.
Proof.
  exists new_devices, (mk_mesh [2; 2] new_devices), [0; 1; 2; 3]%Z, prev_table, cur_table. eexists. exists 1, 0. eexists.
  split; [exact (proj1 C51_consistent_ex)|]. split; [split; auto; repeat constructor|]. split; auto. split; [vm_compute; reflexivity|]. split; [vm_compute; auto|]. split; [vm_compute; reflexivity|].
  cbn. intros [H|[]]. discriminate.
Qed.
Print Assumptions C51_swapped_refuted.

(** Every process writes its device ids once; the table has them in the order of the
    processes, in whatever order the store returns them.  A process without devices makes
    everybody fail. *)
Theorem C51_table : forall n ids, NoDup (map fst ids) -> (forall i, In i (map fst ids) <-> i < n) ->
  ((forall i l, In (i, l) ids -> l <> []) -> exists t, distributed_to_device_ids n ids = Ok t /\ length t = n /\ forall i l, nth_error t i = Some l <-> In (i, l) ids) /\
  ((exists i, In (i, []) ids) -> distributed_to_device_ids n ids = Err ValueError).
Proof.
  intros n ids ND ALL. unfold distributed_to_device_ids.
  assert (G : forall ids res, NoDup (map fst ids) -> (forall i, In i (map fst ids) -> i < length res) ->
    ((forall i l, In (i, l) ids -> l <> []) -> exists res', collect ids res = Ok res' /\ length res' = length res /\
      forall j, (forall l, In (j, l) ids -> nth_error res' j = Some (Some l)) /\ (~ In j (map fst ids) -> nth_error res' j = nth_error res j)) /\
    ((exists i, In (i, []) ids) -> collect ids res = Err ValueError)).
  { clear. intros ids. induction ids as [|[i l] ids IH]; intros res ND B; cbn [collect].
    - split; [|intros (i & [])]. intros _. exists res. split; auto. split; auto. intros j. split; [intros l []|auto].
    - cbn [map fst] in ND, B. inversion_clear ND as [|? ? ND1 ND2]. assert (LI : i < length res) by (apply B; left; auto).
      assert (B' : forall j, In j (map fst ids) -> j < length (set_nth i (Some l) res)) by (intros j J; rewrite set_length; apply B; right; auto).
      destruct (IH _ ND2 B') as (IH1 & IH2). destruct (Nat.ltb_spec i (length res)); [|lia]. split.
      + intros NE. assert (NL : l <> []) by (apply (NE i); left; auto). destruct l as [|x l]; [congruence|].
        destruct IH1 as (res' & -> & L' & I'); [intros j m J; apply (NE j); right; auto|]. exists res'. split; auto. split; [rewrite L', set_length; auto|]. intros j. destruct (I' j) as (I1 & I2). split.
        * intros m [E|J]; [|auto]. injection E as <- <-. rewrite I2 by auto. rewrite nth_set, Nat.eqb_refl. destruct (Nat.ltb_spec i (length res)); [auto|lia].
        * intros NJ. rewrite I2 by (intros K; apply NJ; right; auto). rewrite nth_set. destruct (Nat.eqb_spec i j) as [->|]; auto. exfalso. apply NJ. left. auto.
      + intros (j & [E|J]); [injection E as -> ->; auto|]. destruct l; auto. apply IH2. eauto. }
  destruct (G ids (repeat None n) ND) as (G1 & G2); [intros i I; rewrite repeat_length; apply ALL; auto|]. split.
  - intros NE. destruct (G1 NE) as (res & -> & L & I). cbn [rbind]. rewrite repeat_length in L.
    assert (NN : forall res, (forall j, j < length res -> exists l, nth_error res j = Some (Some l)) -> exists t, @no_none (list Z) res = Ok t /\ length t = length res /\ forall j l, nth_error t j = Some l <-> nth_error res j = Some (Some l)).
    { clear. induction res as [|o res IH]; intros H; cbn [no_none].
      - exists []. split; auto. split; auto. intros [|j] l; cbn; split; discriminate.
      - destruct (H 0) as (l & E); [cbn; lia|]. injection E as ->. destruct IH as (t & -> & LT & IT); [intros j J; apply (H (S j)); cbn; lia|]. exists (l :: t). split; auto. split; [cbn; auto|]. intros [|j] m; cbn [nth_error]; [split; intros E; injection E as ->; auto|apply IT]. }
    destruct (NN res) as (t & -> & LT & IT).
    { intros j J. rewrite L in J. apply ALL in J. apply in_map_iff in J as ([k l] & E & J). cbn in E. subst k. exists l. apply (proj1 (I j)). auto. }
    exists t. split; auto. split; [congruence|]. intros i l. rewrite IT. split; [|apply I]. intros E. assert (J : i < n) by (rewrite <- L; apply nth_error_Some; congruence).
    apply ALL in J. apply in_map_iff in J as ([k l'] & EK & J). cbn in EK. subst k. rewrite (proj1 (I i) _ J) in E. injection E as ->. auto.
  - intros X. rewrite (G2 X). auto.
Qed.
Print Assumptions C51_table.

Example C51_table_ex : distributed_to_device_ids 2 [(1, [0; 1]%Z); (0, [2; 3]%Z)] = Ok cur_table /\ distributed_to_device_ids 2 [(1, [0; 1]%Z); (0, [])] = Err ValueError.
Proof. vm_compute. auto. Qed.

(** A process that has not written its device ids makes the table unusable. *)
Theorem C51_missing : forall n ids i, i < n -> ~ In i (map fst ids) -> exists e, distributed_to_device_ids n ids = Err e.
Proof.
  intros n ids i L NI. unfold distributed_to_device_ids.
  assert (G : forall ids res, nth_error res i = Some None -> ~ In i (map fst ids) ->
    forall res', collect ids res = Ok res' -> nth_error res' i = Some None).
  { clear. induction ids as [|[j l] ids IH]; intros res N NI res'; cbn [collect]; [intros E; injection E as <-; auto|].
    destruct l; [discriminate|]. destruct (j <? length res); [|discriminate]. apply IH; [|intros I; apply NI; right; auto].
    rewrite nth_set. destruct (Nat.eqb_spec j i) as [->|]; auto. exfalso. apply NI. left. auto. }
  destruct (collect ids (repeat None n)) as [res'|e] eqn:E; cbn [rbind]; [|eauto].
  apply G in E; auto; [|rewrite nth_error_repeat; auto]. clear -E. revert i E.
  induction res' as [|[x|] r IH]; intros [|i] E; cbn in *; try discriminate; eauto.
  destruct (IH i E) as (e & ->). exists e. auto.
Qed.
Print Assumptions C51_missing.

Example C51_missing_ex : distributed_to_device_ids 2 [(1, [0; 1]%Z)] = Err AssertionError.
Proof. vm_compute. auto. Qed.
