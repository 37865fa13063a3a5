(** C87: snapshots of a training state in pinned host memory. *)
From Coq Require Import List Bool Arith Sorting.Sorted Lia.
From Verif Require Import Base Snap_Model Snap_Spec Snap_Proofs.
Import ListNotations.
Local Open Scope nat_scope.

(** A save is skipped exactly when an item waits; else its item is put behind all others *)
Theorem C87_save : forall (S : Type) (s : snap S) i, (waiting s <> None -> save s i = s) /\
  (waiting s = None -> waiting (save s i) = Some i /\ put (save s i) = put s ++ [i] /\ unfinished (save s i) = unfinished s + 1 /\ latest (save s i) = latest s /\ working (save s i) = working s /\ handled (save s i) = handled s).
Proof. intros S s i. unfold save. destruct (waiting s); split; intro H; try congruence. cbn. repeat split. lia. Qed.
Print Assumptions C87_save.

(** In every execution the worker handles the items in the order of the saves, none twice and none left out; at most two are unfinished *)
Theorem C87_order : forall (S : Type) l (s : snap S), exec start l = Some s -> put s = map fst (handled s) ++ one (working s) ++ one (waiting s) /\ unfinished s = List.length (one (working s)) + List.length (one (waiting s)) /\ unfinished s <= 2.
Proof.
  intros S l s H. destruct (good_exec l start s good_start H) as (A & B & _). split; [exact A|]. split; [exact B|]. rewrite B. destruct (working s), (waiting s); cbn; lia.
Qed.
Print Assumptions C87_order.

(** As long as no load replaces it, the latest snapshot is the last one that was ready *)
Theorem C87_latest : forall (S : Type) l (s : snap S), exec start l = Some s -> no_resets l -> newest (handled s) (latest s).
Proof. intros S l s H R. apply (newest_exec l start s R); [intros i [] | exact H]. Qed.
Print Assumptions C87_latest.

(** When join returns, all items that were put are handled, and the latest snapshot is the last of them that was ready *)
Theorem C87_join : forall (S : Type) l (s : snap S), exec start l = Some s -> joined s = true -> map fst (handled s) = put s /\ (no_resets l -> newest (handled s) (latest s)).
Proof.
  intros S l s H J. destruct (good_exec l start s good_start H) as (A & B & _). unfold joined in J. apply Nat.eqb_eq in J. split; [|intro R; exact (C87_latest S l s H R)]. rewrite B in J. rewrite A. destruct (working s), (waiting s); try discriminate. cbn. now rewrite app_nil_r.
Qed.
Print Assumptions C87_join.

(** Join can always return while the worker is there *)
Theorem C87_join_returns : forall (S : Type) l (s : snap S), exec start l = Some s -> thread s = true -> exists l' t, exec s l' = Some t /\ joined t = true /\ put t = put s.
Proof. intros S l s H T. exact (can_join s (good_exec l start s good_start H) T). Qed.
Print Assumptions C87_join_returns.

(** The worker is there exactly as long as no snapshot ended with an error that it does not expect; those that it expects do it no harm *)
Theorem C87_worker : forall (S : Type) l (s : snap S), exec start l = Some s -> (thread s = true <-> forall i, ~ In (i, Crashed) (handled s)).
Proof. intros S l s H. apply (alive_exec S l start s); [split; [intros _ i [] | reflexivity] | exact H]. Qed.
Print Assumptions C87_worker.

Example C87_order_example : exists s, exec start [ESave (10, 1); ETake; ESave (20, 2); ESave (30, 3); EEnd Ready; ETake; EEnd Failed; ESave (40, 4)] = Some s /\ put s = [(10, 1); (20, 2); (40, 4)] /\ handled s = [((10, 1), Ready); ((20, 2), Failed)] /\ latest s = Some (10, 1) /\ unfinished s = 1 /\ thread s = true.
Proof. eexists. split; [vm_compute; reflexivity | repeat split]. Qed.

(** If steps grow from save to save, the step of the latest snapshot never goes back, as long as no load replaces it *)
Theorem C87_increasing : forall (S : Type) l l' (s t : snap S) x y, exec start l = Some s -> exec s l' = Some t -> no_resets (l ++ l') -> StronglySorted lt (map snd (put t)) -> latest s = Some x -> latest t = Some y -> snd x <= snd y.
Proof.
  intros S l l' s t x y H K R So Ex Ey. pose proof (good_exec l start s good_start H) as G. destruct (handled_exec l' s t K) as [m E].
  assert (N : newest (handled s) (latest s)) by (apply (C87_latest S l s H); intros h X; apply (R h), in_app_iff; now left).
  assert (N' : newest (handled t) (latest t)) by (apply (newest_exec l' s t); [intros h X; apply (R h), in_app_iff; now right | exact N | exact K]).
  rewrite Ex in N. rewrite Ey in N'. exact (increasing s t m x y (good_exec l' s t G K) So E N N').
Qed.
Print Assumptions C87_increasing.

Example C87_increasing_example : exists s t : snap nat, exec start [ESave (10, 1); ETake; EEnd Ready] = Some s /\ exec s [ESave (20, 2); ELoad; ETake; EEnd Ready; ELoaded false 7] = Some t /\ latest s = Some (10, 1) /\ latest t = Some (20, 2) /\ map snd (put t) = [1; 2].
Proof. eexists. eexists. split; [vm_compute; reflexivity|]. split; [vm_compute; reflexivity | repeat split]. Qed.

(** A load with nothing in between keeps the latest step: it leaves the snapshot, or puts the state on the host in its place. It changes neither the queue nor the worker, and there is no load before a snapshot was ready *)
Theorem C87_reset : forall (S : Type) (s : snap S), loading s = None -> (latest s = None -> step s ELoad = None) /\
  (forall x n r h, latest s = Some (x, n) -> exists t, exec s [ELoad; ELoaded r h] = Some t /\ latest t = Some (if r then h else x, n) /\ loading t = None /\ waiting t = waiting s /\ working t = working s /\ thread t = thread s /\ unfinished t = unfinished s /\ put t = put s /\ handled t = handled s).
Proof.
  intros S s L. split; [intro E; cbn; now rewrite L, E|]. intros x n r h E. cbn [exec step]. rewrite L, E. cbn. eexists. split; [reflexivity|]. cbn. destruct r; repeat split; assumption.
Qed.
Print Assumptions C87_reset.

Example C87_reset_example : exists s : snap nat, exec start [ESave (10, 1); ETake; EEnd Ready] = Some s /\ loading s = None /\ latest s = Some (10, 1).
Proof. eexists. split; [vm_compute; reflexivity | now split]. Qed.

(** A load that replaces the snapshot writes the step that it read at its start: a newer snapshot that became ready while it ran is thrown away, and the latest step goes back *)
Theorem C87_reset_refuted : exists (l : list (event nat)) s t x y, exec start l = Some s /\ exec s [ELoaded true 5] = Some t /\ StronglySorted lt (map snd (put t)) /\ latest s = Some x /\ latest t = Some y /\ snd y < snd x.
Proof.
  exists [ESave (10, 1); ETake; EEnd Ready; ELoad; ESave (20, 2); ETake; EEnd Ready]. eexists. eexists. exists (20, 2), (5, 1). split; [vm_compute; reflexivity|]. split; [vm_compute; reflexivity|]. split; [cbn; repeat constructor|]. cbn. repeat split. lia.
Qed.
Print Assumptions C87_reset_refuted.

(** An error that the worker does not expect ends its thread without a sign: one more save is taken, all others are skipped as if the snapshotter were busy, no item is handled any more, and join never returns *)
Theorem C87_crash_refuted : exists (l : list (event nat)) s, exec start l = Some s /\ List.length (put s) = 2 /\ forall l' t, exec s l' = Some t -> joined t = false /\ put t = put s /\ handled t = handled s.
Proof.
  exists [ESave (10, 1); ETake; EEnd Crashed; ESave (20, 2)], (mkSnap None (Some (20, 2)) None false 1 None [(10, 1); (20, 2)] [((10, 1), Crashed)]). split; [vm_compute; reflexivity|]. split; [reflexivity|]. intros l' t. apply dead_exec; cbn; congruence.
Qed.
Print Assumptions C87_crash_refuted.

(** What ends a load: without a snapshot it is a RuntimeError; it works exactly when each array is on a mesh, has a replica that can be read, and has a target sharding. Each array is then in pinned memory for the snapshot and in device memory for the caller, with the target sharding; its data are those saved if they were replicated over the axis, or if no part is lost. Other leaves stay as they are *)
Theorem C87_load : forall alive t a, load alive None a = Err RuntimeError /\ ((exists r, load alive (Some t) a = Ok r) <-> Forall2 (loadable alive) t a) /\
  (forall h o, load alive (Some t) a = Ok (h, o) -> List.length h = List.length t /\ List.length o = List.length t /\
    forall i x y hx ox, nth_error t i = Some x -> nth_error a i = Some y -> nth_error h i = Some hx -> nth_error o i = Some ox -> loaded alive x y hx ox).
Proof.
  intros alive t a. destruct (loads alive t a) as [A B]. split; [reflexivity|]. split; [split; [intros [[h o] H]; now destruct (A h o H) | intro F; destruct (B F) as (h & o & H); now exists (h, o)]|]. intros h o H. now destruct (A h o H).
Qed.
Print Assumptions C87_load.

Example C87_load_example : load (fun i => i =? 2) (Some [LArr true [7; 8] (Named 3 false 0) Pinned; LElse 4]) [ASpec (Named 2 false 9); ANone] = Ok ([LArr true [7; 8] (Named 2 false 9) Pinned; LElse 4], [LArr true [7; 8] (Named 2 false 9) Device; LElse 4]) /\
  load (fun _ => true) (Some [LArr false [1; 2; 3; 4] (Named 2 true 0) Pinned]) [ASpec (Named 1 true 9)] = Ok ([LArr false [1; 2; 3; 4] (Named 1 true 9) Pinned], [LArr false [1; 2; 3; 4] (Named 1 true 9) Device]) /\
  load (fun i => 5 <=? i) (Some [LArr true [7; 8] (Named 3 false 0) Pinned]) [ASpec (Named 2 false 9)] = Err RuntimeError /\ load (fun _ => true) (Some [LElse 1]) [] = Err ValueError.
Proof. vm_compute. repeat split. Qed.

(** The kinds of errors for one array: no mesh, or no target sharding, is an AttributeError, and no replica that can be read a RuntimeError *)
Theorem C87_load_errors : forall alive k d m a, (forall n, load alive (Some [LArr k d (Other n) m]) [a] = Err AttributeError) /\
  (forall n b r, (forall i, i < n -> alive i = false) -> load alive (Some [LArr k d (Named n b r) m]) [a] = Err RuntimeError) /\ (forall n b r, (exists i, i < n /\ alive i = true) -> load alive (Some [LArr k d (Named n b r) m]) [ANone] = Err AttributeError).
Proof.
  intros alive k d m a. split; [reflexivity|]. split.
  - intros n b r H. unfold load. cbn [map sequence]. destruct (active_spec alive k d n b r m) as [A _]. destruct (active alive (LArr k d (Named n b r) m)) as [y|e] eqn:E.
    + destruct (A y eq_refl) as ((i & Hi & Al) & _). rewrite (H i Hi) in Al. discriminate.
    + cbn [active] in E. cbn. destruct (map snd _); [now injection E as <- | discriminate].
  - intros n b r H. unfold load. cbn [map sequence]. destruct (active_spec alive k d n b r m) as [A B]. destruct (B H) as [y E]. rewrite E. destruct (A y E) as (_ & d' & c & -> & _). reflexivity.
Qed.
Print Assumptions C87_load_errors.

Example C87_load_errors_example : (exists i, i < 3 /\ (i =? 2) = true) /\ forall i, i < 3 -> (5 <=? i) = false.
Proof. split; [exists 2; split; [lia | reflexivity] | intros i H; apply Nat.leb_gt; lia]. Qed.

(** The pinned copy has the data, the sharding and the mark of a key of the original; other leaves stay *)
Theorem C87_pin : forall x, match x with LArr k d s _ => pin x = LArr k d s Pinned | LElse _ => pin x = x end.
Proof. intros [k d s m | n]; reflexivity. Qed.
Print Assumptions C87_pin.

(** When an array is sharded over the replica axis and a replica is lost, its part of the data is lost too: the load works and gives an array that is too short, without any error *)
Theorem C87_sharded_refuted : exists alive d h o, load alive (Some [pin (LArr false d (Named 2 true 0) Device)]) [ASpec (Named 1 true 0)] = Ok (h, [o]) /\ (exists i, i < 2 /\ alive i = true) /\ o = LArr false [1; 2] (Named 1 true 0) Device /\ d = [1; 2; 3; 4].
Proof. exists (fun i => i =? 0), [1; 2; 3; 4]. eexists. eexists. split; [vm_compute; reflexivity|]. split; [exists 0; split; [lia | reflexivity] | now split]. Qed.
Print Assumptions C87_sharded_refuted.

(** Arrays of any sharding are saved, but those without a mesh, for instance on a single device, make every load an AttributeError *)
Theorem C87_no_mesh_refuted : exists x, pin x = LArr false [1] (Other 0) Pinned /\ forall alive a, load alive (Some [pin x]) [a] = Err AttributeError.
Proof. exists (LArr false [1] (Other 0) Device). now split. Qed.
Print Assumptions C87_no_mesh_refuted.
