(** C73: the manager of replicated local checkpoints: what it accepts, saves, deletes and restores. *)
From Coq Require Import List Bool Arith ZArith String Lia.
From Verif Require Import Base Tree_Model Mesh_Model Mesh_Spec Replicator_Model Replicator_Spec Replicator_Proofs.
Import ListNotations.
Open Scope string_scope.
Open Scope list_scope.

(** An instance: an array is a list of numbers, each place of the mesh has one of them; one device has all. *)
Inductive part : Type := Part (n : nat) | Whole (l : list nat).
Definition cut (ly : @layout nat) (g : list nat) : list part := match ly with Grid _ _ => map Part g | One => [Whole g] end.
Definition paste (ly : @layout nat) (l : list part) : option (list nat) :=
  match ly, l with
  | One, [Whole g] => Some g
  | Grid _ _, _ => (fix go l := match l with [] => Some [] | Part n :: r => option_map (cons n) (go r) | Whole _ :: _ => None end) l
  | _, _ => None
  end.
Lemma cut_paste : fits cut paste.
Proof. intros [s p|] g; [|reflexivity]. cbn. induction g as [|n g IH]; cbn; auto. rewrite IH. auto. Qed.

(** ** Arguments *)

(** The arguments are accepted exactly if they are a composite with a state, without process metadata, of arguments of checkpoints only, that the local handlers know except for a dataset; with colocated workers nothing
    else than state and dataset. *)
Theorem C73_validate : forall {S : Type} (colocated : bool) (args : option (list (string * @item_args S))) out,
  validate_args colocated args = Ok out <->
  args = Some out /\ In "state" (map fst out) /\ ~ In "process_metadata" (map fst out) /\ (forall k a, In (k, a) out -> a <> NotArgs) /\
  (if colocated then forall k, In k (map fst out) -> k = "state" \/ k = "dataset" else forall k, In (k, OtherArgs false) out -> k = "dataset").
Proof.
  intros S colocated args out. destruct args as [args|]; [|split; [discriminate|intros (A & _); discriminate]]. unfold validate_args.
  assert (HAS : forall k, has k args = true <-> In k (map fst args)).
  { intros k. unfold has. rewrite existsb_exists, in_map_iff. split; intros (x & A & B); exists x; [apply String.eqb_eq in B|apply String.eqb_eq in A]; auto. }
  assert (SEQ : (exists l, sequence (map (check_item (negb colocated)) args) = Ok l) <-> (forall k a, In (k, a) args -> a <> NotArgs) /\ (colocated = false -> forall k, In (k, OtherArgs false) args -> k = "dataset")).
  { split.
    - intros (l & E). apply seq_ok in E. split.
      + intros k a I ->. destruct (f2_in _ _ _ _ E I) as (y & _ & Q). discriminate.
      + intros -> k I. destruct (f2_in _ _ _ _ E I) as (y & _ & Q). unfold check_item in Q. cbn [snd fst supported negb andb] in Q. destruct (String.eqb_spec k dataset_name); [auto|discriminate].
    - intros (A & B). destruct (f2_choose (fun x y => check_item (negb colocated) x = Ok y) args) as (l & F); [|exists l; apply seq_ok; auto].
      intros [k a] I. exists tt. unfold check_item. cbn [snd fst]. destruct a as [|o|[|]]; [exfalso; apply (A k NotArgs); auto| | |]; cbn [supported negb]; rewrite ?andb_false_r; auto.
      destruct colocated; auto. rewrite (B eq_refl k I). auto. }
  destruct (has state_name args) eqn:HS; cbn [negb].
  2:{ split; [discriminate|]. intros (E & I & _). injection E as <-. apply HAS in I. unfold state_name in HS. congruence. }
  destruct (has process_metadata_name args) eqn:HP.
  { split; [discriminate|]. intros (E & _ & N & _). injection E as <-. exfalso. apply N. apply HAS. exact HP. }
  assert (NP : ~ In "process_metadata" (map fst args)). { intros I. apply HAS in I. unfold process_metadata_name in HP. congruence. }
  destruct colocated; cbn [andb negb] in *.
  - destruct (existsb _ args) eqn:X.
    + split; [discriminate|]. intros (E & _ & _ & _ & A). injection E as <-. apply existsb_exists in X as ([k a] & I & X). cbn [fst] in X. destruct (A k) as [-> | ->]; [apply in_map_iff; exists (k, a); auto|discriminate X|discriminate X].
    + assert (A : forall k, In k (map fst args) -> k = "state" \/ k = "dataset").
      { intros k I. apply in_map_iff in I as ([k' a] & <- & I). cbn [fst]. destruct (String.eqb_spec k' state_name) as [|N1]; auto. destruct (String.eqb_spec k' dataset_name) as [|N2]; auto. exfalso.
        apply Bool.not_true_iff_false in X. apply X. apply existsb_exists. exists (k', a). split; auto. cbn [fst]. apply String.eqb_neq in N1. apply String.eqb_neq in N2. rewrite N1, N2. auto. }
      split.
      * destruct (sequence _) as [l|] eqn:E; [|discriminate]. cbn [rbind]. intros Q. injection Q as <-. destruct (proj1 SEQ) as (B & _); eauto. repeat split; auto. apply HAS. auto.
      * intros (E & I & _ & B & _). injection E as <-. destruct (proj2 SEQ) as (l & ->); auto. split; auto. discriminate.
  - split.
    + destruct (sequence _) as [l|] eqn:E; [|discriminate]. cbn [rbind]. intros Q. injection Q as <-. destruct (proj1 SEQ) as (B & C); eauto. repeat split; auto. apply HAS. auto.
    + intros (E & I & _ & B & C). injection E as <-. destruct (proj2 SEQ) as (l & ->); auto.
Qed.
Print Assumptions C73_validate.

Example C73_validate_example : validate_args false (Some [("state", @PyTree nat None); ("dataset", OtherArgs false)]) = Ok [("state", PyTree None); ("dataset", OtherArgs false)] /\
  validate_args false (Some [("state", @PyTree nat None); ("extra", OtherArgs false)]) = Err ValueError /\ validate_args true (Some [("state", @PyTree nat None); ("extra", PyTree None)]) = Err ValueError /\
  validate_args false (Some [("extra", @PyTree nat None)]) = Err ValueError /\ validate_args false (Some [("state", @NotArgs nat)]) = Err TypeError.
Proof. vm_compute. repeat split. Qed.

(** ** Saving and deleting *)

(** A save happens if it is forced or due; the local manager is then given all items but the dataset, and the process metadata; the answer is the one of the local manager; the persistent manager is given the dataset if there is
    such a manager, there is a dataset, and the local save happened. *)
Theorem C73_save : forall {S : Type} should force saved persistent (args : list (string * @item_args S)),
  let out := save should force saved persistent args in
  (fst out = true <-> (force = true \/ should = true) /\ saved = true) /\
  (force = false -> should = false -> snd out = []) /\
  (force = true \/ should = true -> exists names rest, snd out = LocalSave names :: rest /\
     (forall k, In k names <-> (In k (map fst args) /\ k <> "dataset") \/ k = "process_metadata") /\
     (NoDup (map fst args) -> ~ In "process_metadata" (map fst args) -> NoDup names) /\
     (rest = [PersistentSave] /\ saved = true /\ persistent = true /\ In "dataset" (map fst args) \/ rest = [] /\ (saved = false \/ persistent = false \/ ~ In "dataset" (map fst args)))).
Proof.
  intros S should force saved persistent args out. unfold out, save. clear out.
  assert (HAS : has dataset_name args = true <-> In "dataset" (map fst args)).
  { unfold has. rewrite existsb_exists, in_map_iff. split; intros (x & A & B); exists x; [apply String.eqb_eq in B|apply String.eqb_eq in A]; auto. }
  destruct (negb force && negb should) eqn:F.
  { apply andb_true_iff in F as (A & B). apply negb_true_iff in A. apply negb_true_iff in B. subst. split; [|split]; auto. - cbn. split; [discriminate|]. intros ([X|X] & _); discriminate. - intros [X|X]; discriminate. }
  assert (DUE : force = true \/ should = true). { destruct force, should; auto; discriminate. }
  set (names := filter (fun k => negb (k =? dataset_name)%string) (map fst args) ++ [process_metadata_name]).
  assert (N1 : forall k, In k names <-> (In k (map fst args) /\ k <> "dataset") \/ k = "process_metadata").
  { intros k. unfold names. rewrite in_app_iff, filter_In, negb_true_iff, String.eqb_neq. cbn [In]. unfold dataset_name, process_metadata_name. intuition. }
  assert (N2 : NoDup (map fst args) -> ~ In "process_metadata" (map fst args) -> NoDup names).
  { intros N NI. unfold names. clear - N NI. induction (map fst args) as [|k l IH]; cbn [filter app]; [constructor; [intros []|constructor]|]. inversion N as [|? ? A B]; subst.
    assert (IH' : NoDup (filter (fun k => negb (k =? dataset_name)%string) l ++ [process_metadata_name])) by (apply IH; auto; intros I; apply NI; cbn; auto).
    destruct (negb _); auto. cbn [app]. constructor; auto. rewrite in_app_iff, filter_In. intros [(I & _)|[<-|[]]]; [auto|]. apply NI. cbn. auto. }
  split; [|split].
  - destruct saved; cbn [negb fst]; [tauto|split; [discriminate|intros (_ & X); discriminate]].
  - intros -> ->. discriminate.
  - intros _. exists names. destruct saved; cbn [negb snd].
    + eexists. split; [reflexivity|]. split; auto. split; auto. destruct persistent; cbn [andb]; [|right; auto]. destruct (has dataset_name args) eqn:HD.
      * left. repeat split; auto. apply HAS. auto.
      * right. split; auto. right. right. intros I. apply HAS in I. congruence.
    + eexists. split; [reflexivity|]. repeat split; auto; apply N1.
Qed.
Print Assumptions C73_save.

Example C73_save_example : save true false true true [("state", @PyTree nat None); ("dataset", OtherArgs false)] = (true, [LocalSave ["state"; "process_metadata"]; PersistentSave]) /\
  save true false false true [("state", @PyTree nat None); ("dataset", OtherArgs false)] = (false, [LocalSave ["state"; "process_metadata"]]).
Proof. vm_compute. auto. Qed.

(** Without a persistent directory a dataset is accepted and the save says that it happened, but the dataset is given to nobody. *)
Theorem C73_dataset_lost_refuted : exists (args : list (string * @item_args nat)), validate_args false (Some args) = Ok args /\ In "dataset" (map fst args) /\
  exists names, save true false true false args = (true, [LocalSave names]) /\ ~ In "dataset" names.
Proof. exists [("state", PyTree None); ("dataset", OtherArgs false)]. split; [reflexivity|]. split; [cbn; auto|]. eexists. split; [reflexivity|]. cbn. intros [X|[X|[]]]; discriminate. Qed.
Print Assumptions C73_dataset_lost_refuted.

(** A delete succeeds exactly if every manager has the step, and then the step is gone everywhere and no other step is; with colocated workers it is refused. *)
Theorem C73_delete : forall colocated persistent local step,
  let out := delete colocated persistent local step in
  (fst out = Ok tt <-> colocated = false /\ In step local /\ forall l, persistent = Some l -> In step l) /\
  (fst out = Ok tt -> forall n, (In n (snd (snd out)) <-> In n local /\ n <> step) /\
     match persistent with None => fst (snd out) = None | Some l => exists l', fst (snd out) = Some l' /\ (In n l' <-> In n l /\ n <> step) end) /\
  (forall n, n <> step -> (In n (snd (snd out)) <-> In n local)).
Proof.
  assert (D : forall l step, (In step l /\ exists l', delete_from l step = Ok l' /\ forall n, In n l' <-> In n l /\ n <> step) \/ (~ In step l /\ delete_from l step = Err FileNotFoundError)).
  { intros l step. unfold delete_from. destruct (existsb (Nat.eqb step) l) eqn:E.
    - left. apply existsb_exists in E as (x & I & E). apply Nat.eqb_eq in E. subst x. split; auto. eexists. split; eauto. intros n. rewrite filter_In, negb_true_iff, Nat.eqb_neq. tauto.
    - right. split; auto. intros I. apply Bool.not_true_iff_false in E. apply E. apply existsb_exists. exists step. split; auto. apply Nat.eqb_refl. }
  intros colocated persistent local step out. unfold out, delete. clear out. destruct colocated; [cbn; split; [split; [discriminate|intros (X & _); discriminate]|split; [discriminate|tauto]]|].
  destruct persistent as [l|].
  - destruct (D l step) as [(I & l' & -> & E)|(N & ->)]; cbn [rmap].
    + destruct (D local step) as [(J & m & -> & F)|(N & ->)]; cbn [fst snd].
      * split; [split; auto; intros _; repeat split; auto; intros x X; injection X as <-; auto|]. split; [intros _ n; split; [apply F|exists l'; auto]|]. intros n X. rewrite F. tauto.
      * split; [split; [discriminate|intros (_ & X & _); contradiction]|]. split; [discriminate|tauto].
    + cbn [fst snd]. split; [split; [discriminate|intros (_ & _ & X); exfalso; apply N; auto]|]. split; [discriminate|tauto].
  - destruct (D local step) as [(J & m & -> & F)|(N & ->)]; cbn [fst snd].
    + split; [split; auto; intros _; repeat split; auto; discriminate|]. split; [intros _ n; split; [apply F|auto]|]. intros n X. rewrite F. tauto.
    + split; [split; [discriminate|intros (_ & X & _); contradiction]|]. split; [discriminate|tauto].
Qed.
Print Assumptions C73_delete.

Example C73_delete_example : delete false (Some [1; 2; 4]) [1; 2; 3; 4] 2 = (Ok tt, (Some [1; 4], [1; 3; 4])) /\ delete false None [1; 2] 1 = (Ok tt, (None, [2])).
Proof. vm_compute. auto. Qed.

(** With a persistent directory a step that was saved without a dataset cannot be deleted: the persistent manager does not have it and raises, before the local one is asked. *)
Theorem C73_delete_refuted : exists (args : list (string * @item_args nat)) names persistent local step, validate_args false (Some args) = Ok args /\ save true false true true args = (true, [LocalSave names]) /\
  In step local /\ delete false (Some persistent) local step = (Err FileNotFoundError, (Some persistent, local)).
Proof. exists [("state", PyTree None)], ["state"; "process_metadata"], [1], [1; 2], 2. split; [reflexivity|]. split; [reflexivity|]. split; [cbn; auto|reflexivity]. Qed.
Print Assumptions C73_delete_refuted.

(** A step that only the persistent manager has is deleted there, and an error is raised nevertheless. *)
Theorem C73_delete_error_refuted : exists persistent local step, delete false (Some persistent) local step = (Err FileNotFoundError, (Some [], local)) /\ In step persistent.
Proof. exists [1], [2], 1. split; [reflexivity|cbn; auto]. Qed.
Print Assumptions C73_delete_error_refuted.

(** ** Restoring *)

(** After a restart the devices have other ids; the tables say which are the same hardware, and there are as many as before. Then all items are restored: each array is what was saved, on the sharding asked for (or on the mesh of the user with
    the partition of the time of saving if none was), and the dataset comes from the persistent manager. *)
Theorem C73_restore : forall {H V G S D : Type} (split : @layout S -> G -> list V) join (e : @engine H V S D) before args out,
  fits split join -> right_ids e before -> ready e -> same_counts e -> e_sidecar e = false -> NoDup (map fst (e_local e)) -> NoDup (map fst args) ->
  Forall2 (restores split e before) args out -> restore_single_step join e args = Ok out.
Proof. intros. eapply restore_total; eauto. Qed.
Print Assumptions C73_restore.

(** What was device 0 is now device 1. *)
Definition now (i : Z) : string := if Z.eqb i 0 then "B" else "A".
Definition then_ (i : Z) : string := if Z.eqb i 0 then "A" else "B".
Definition d0 : device := mk_device 0 1.
Definition d1 : device := mk_device 1 0.
Definition user_mesh : mesh := mk_mesh [2] [d0; d1].
(* a leaf with the numbers 7 and 8, partition 5; A was the first device *)
Definition leaf1 : @leaf string part nat := mkLeaf (ArrayMeta (Some (NamedMeta 5))) (fun h => if (h =? "A")%string then Some (Part 7) else if (h =? "B")%string then Some (Part 8) else None).
Definition engine1 : @engine string part nat nat :=
  mkEngine false [d0; d1] now user_mesh true [[0]; [1]]%Z [0; 1]%Z [[1]; [0]]%Z [("state", [leaf1])] (Some (Ok 42)).
Definition args1 : list (string * @item_args nat) := [("state", PyTree (Some [ArrayArgs (Some (Jax (Named user_mesh 5))) None None])); ("dataset", OtherArgs false)].

Lemma engine1_ids : right_ids engine1 then_.
Proof. intros [|[|i]] [|[|j]] p c ps cs; cbn; intros A B C E; try (destruct i; discriminate); injection A as <-; injection C as <-; cbn in B, E; try discriminate; try (destruct j; discriminate); injection B as <-; injection E as <-; reflexivity. Qed.
Lemma engine1_ready : ready engine1.
Proof.
  split; [reflexivity|]. cbn [e_flag engine1]. split; [|split].
  - intros [|[|i]] ps; cbn; intros E _; [exists [1%Z]|exists [0%Z]|destruct i; discriminate]; injection E as <-; auto.
  - intros i [<-|[<-|[]]]; [exists [0%Z]|exists [1%Z]]; cbn; auto.
  - intros c (ps & [<-|[<-|[]]] & [<-|[]]); [exists d1|exists d0]; cbn; auto.
Qed.
Lemma engine1_stored : stored cut engine1 then_ "state" [(5, [7; 8])].
Proof. exists [leaf1]. split; [left; reflexivity|]. constructor; [|constructor]. split; [reflexivity|]. cbn. repeat constructor. Qed.

Example C73_restore_example : right_ids engine1 then_ /\ ready engine1 /\ same_counts engine1 /\
  Forall2 (restores cut engine1 then_) args1 [("state", Arrays [mkArray (Named user_mesh 5) [7; 8]]); ("dataset", Dataset 42)] /\
  restore_single_step paste engine1 args1 = Ok [("state", Arrays [mkArray (Named user_mesh 5) [7; 8]]); ("dataset", Dataset 42)] /\
  restore_single_step paste engine1 [("state", PyTree None)] = Ok [("state", Arrays [mkArray (Named user_mesh 5) [7; 8]])].
Proof.
  split; [exact engine1_ids|]. split; [exact engine1_ready|]. split; [vm_compute; auto|]. split; [|split; reflexivity].
  constructor; [|constructor; [|constructor]].
  - apply (restores_arrays cut engine1 then_ "state" (Some [ArrayArgs (Some (Jax (Named user_mesh 5))) None None]) [(5, [7; 8], Named user_mesh 5)]); [discriminate|exact engine1_stored|].
    constructor; [|constructor]. exists user_mesh, None, None. auto.
  - apply restores_dataset. reflexivity.
Qed.

(** No wrong array: whenever a restore succeeds, whatever else is asked for, an item that was saved is what was saved, on the sharding asked for. *)
Theorem C73_value : forall {H V G S D : Type} (split : @layout S -> G -> list V) join (e : @engine H V S D) before args out k o ts,
  fits split join -> right_ids e before -> e_sidecar e = false -> NoDup (map fst (e_local e)) -> NoDup (map fst args) ->
  restore_single_step join e args = Ok out -> In (k, PyTree o) args -> k <> "dataset" -> stored split e before k (map fst ts) -> wants (e_mesh e) o ts ->
  In (k, Arrays (map (fun t => mkArray (snd t) (snd (fst t))) ts)) out.
Proof. intros H V G S D split join e before args out k o ts J RI SD NL NA E I NE ST W. exact (restore_value split join e before args out k o ts J RI SD NL NA E I NE ST W). Qed.
Print Assumptions C73_value.

Example C73_value_example : restore_single_step paste engine1 args1 = Ok [("state", Arrays [mkArray (Named user_mesh 5) [7; 8]]); ("dataset", Dataset 42)] /\ In ("state", PyTree (Some [ArrayArgs (Some (Jax (Named user_mesh 5))) None None])) args1 /\
  stored cut engine1 then_ "state" [(5, [7; 8])] /\ @wants (list nat) nat user_mesh (Some [ArrayArgs (Some (Jax (Named user_mesh 5))) None None]) [(5, [7; 8], Named user_mesh 5)].
Proof. split; [reflexivity|]. split; [left; reflexivity|]. split; [exact engine1_stored|]. constructor; [|constructor]. exists user_mesh, None, None. auto. Qed.

(** In a sidecar the arrays are what was saved, and stay on the mesh that has the devices of the time of saving (the controller moves them on). *)
Theorem C73_sidecar : forall {H V G S D : Type} (split : @layout S -> G -> list V) join (e : @engine H V S D) before args out k o ts,
  fits split join -> right_ids e before -> same_counts e -> e_sidecar e = true -> NoDup (map fst (e_local e)) -> NoDup (map fst args) ->
  restore_single_step join e args = Ok out -> In (k, PyTree o) args -> k <> "dataset" -> stored split e before k (map fst ts) -> wants (e_mesh e) o ts ->
  exists m, shape m = shape (e_mesh e) /\ map (fun d => e_hw e (dev_id d)) (devices m) = map before (e_previous_ids e) /\
    In (k, Arrays (map (fun t => mkArray (Named m (fst (fst t))) (snd (fst t))) ts)) out.
Proof.
  intros H V G S D split join e before args out k o ts J RI SC SD NL NA E I NE ST W. destruct (restore_sidecar split join e before args out k o ts J RI SC SD NL NA E I NE ST W) as (m & CM & Q).
  exists m. destruct (mesh_hardware e before m RI CM). auto.
Qed.
Print Assumptions C73_sidecar.

Definition engine2 : @engine string part nat nat := mkEngine true [d0; d1] now user_mesh true [[0]; [1]]%Z [0; 1]%Z [[1]; [0]]%Z [("state", [leaf1])] None.
Example C73_sidecar_example : restore_single_step paste engine2 [("state", PyTree None)] = Ok [("state", Arrays [mkArray (Named (mk_mesh [2] [d1; d0]) 5) [7; 8]])] /\
  same_counts engine2 /\ map (fun d => now (dev_id d)) [d1; d0] = map then_ [0; 1]%Z.
Proof. vm_compute. auto. Qed.

(** Where the numbers of processes or devices have changed, the manager restores nothing; if all shardings are given the error is [ValueError]. *)
Theorem C73_mismatch : forall {H V G S D : Type} join (e : @engine H V S D) args, ~ same_counts e -> e_sidecar e = false ->
  (forall out : list (string * @item G S D), restore_single_step join e args <> Ok out) /\ ((forall k, ~ In (k, PyTree None) args) -> @restore_single_step H V G S D join e args = Err ValueError).
Proof.
  intros H V G S D join e args SC SD. assert (C : can_use_mesh_consistency (e_previous e) (e_current e) (e_previous_ids e) = false). { apply Bool.not_true_iff_false. intros C. apply SC. apply can_use_iff. auto. }
  unfold restore_single_step, restore_placement_plan. split.
  - intros out. destruct (materialize e args); cbn [rbind]; [|discriminate]. rewrite C, SD. discriminate.
  - intros N. replace (materialize e args) with (Ok args).
    + cbn [rbind]. rewrite C, SD. auto.
    + symmetry. unfold materialize. apply seq_ok. clear - N. induction args as [|[k a] l IH]; constructor; [|apply IH; intros k' I; apply (N k'); cbn; auto]. unfold materialize_item. cbn [snd]. destruct a as [|[l0|]|]; auto. exfalso. apply (N k). cbn. auto.
Qed.
Print Assumptions C73_mismatch.

Definition engine3 (sidecar : bool) : @engine string part nat nat := mkEngine sidecar [d0; d1] now user_mesh true [[0]]%Z [0; 1]%Z [[1]; [0]]%Z [("state", [leaf1])] None.
Example C73_mismatch_example : ~ same_counts (engine3 false) /\ @restore_single_step _ _ (list nat) _ _ paste (engine3 false) [("state", PyTree (Some [ArrayArgs (Some (Jax (Named user_mesh 5))) None None]))] = Err ValueError.
Proof. split; [intros (X & _); discriminate|reflexivity]. Qed.

(** A sidecar restores then with the shardings asked for: the array is what was saved if the devices asked for have its parts. *)
Theorem C73_elastic : forall {H V G S D : Type} (split : @layout S -> G -> list V) join (e : @engine H V S D) args out k l leaves ts,
  fits split join -> ~ same_counts e -> e_sidecar e = true -> NoDup (map fst (e_local e)) -> NoDup (map fst args) ->
  restore_single_step join e args = Ok out -> In (k, PyTree (Some l)) args -> k <> "dataset" -> In (k, leaves) (e_local e) ->
  Forall2 (fun a t => asks a (fst (fst t)) (Named (snd t) (fst (fst t)))) l ts -> Forall2 (fun lf t => in_place split e lf (fst (fst t)) (snd (fst t)) (snd t)) leaves ts ->
  In (k, Arrays (map (fun t => mkArray (Named (snd t) (fst (fst t))) (snd (fst t))) ts)) out.
Proof.
  intros H V G S D split join e args out k l leaves ts J SC SD NL NA E I NE IL W P.
  assert (C : can_use_mesh_consistency (e_previous e) (e_current e) (e_previous_ids e) = false). { apply Bool.not_true_iff_false. intros C. apply SC. apply can_use_iff. auto. }
  unfold restore_single_step, restore_placement_plan in E. destruct (materialize e args) as [a'|] eqn:MA; [|discriminate]. cbn [rbind] in E. rewrite C, SD in E. cbn [rbind fst] in E.
  destruct (impl_restore join e a') as [r|] eqn:IR; [|discriminate]. cbn [rbind] in E. destruct (add_dataset e a' r) as [r'|] eqn:AD; [|discriminate]. cbn [rbind] in E. injection E as <-.
  assert (IA : In (k, PyTree (Some l)) a'). { apply seq_ok in MA. destruct (f2_in _ _ _ _ MA I) as (x & J' & Q). cbn in Q. injection Q as <-. auto. }
  assert (R : read_item join e (k, PyTree (Some l)) = Ok (k, @Arrays G S D (map (fun t => mkArray (Named (snd t) (fst (fst t))) (snd (fst t))) ts))).
  { unfold read_item. cbn [fst snd]. rewrite (in_concat_dget (e_local e) k leaves NL IL). rewrite (forall2_length _ _ _ W), <- (forall2_length _ _ _ P), Nat.eqb_refl.
    replace (sequence _) with (Ok (map (fun t : S * G * mesh => mkArray (Named (snd t) (fst (fst t))) (snd (fst t))) ts)); auto. symmetry. apply seq_ok. apply (proj1 (f2_map_r _ _ _ _)).
    refine (combine_f2 (fun _ => True) _ _ _ _ _ _ _ W P). intros a lf t A B. cbn beta in *.
    destruct A as (m & m' & ax & -> & Q). injection Q as <-. cbn [fst snd asked rbind]. unfold read_leaf. cbn [layout_of devices_of].
    replace (sequence _) with (Ok (split (Grid (shape (snd t)) (fst (fst t))) (snd (fst t)))); [cbn [rbind]; rewrite J; auto|]. symmetry. apply seq_ok. revert B. apply f2_impl. intros d v _ _ ->. auto. }
  pose proof (impl_in join e _ _ _ _ IR IA R) as Q. apply in_concat_dget in Q; [|rewrite (impl_names join e _ _ IR), (materialize_names e _ _ MA); auto].
  rewrite <- (add_dataset_other e a' r r' k AD NE) in Q. apply (Parts_Proofs.dget_some_in String.eqb String.eqb_spec) in Q. auto.
Qed.
Print Assumptions C73_elastic.

Definition old_mesh : mesh := mk_mesh [2] [d1; d0].
Example C73_elastic_example : ~ same_counts (engine3 true) /\ in_place cut (engine3 true) leaf1 5 [7; 8] old_mesh /\
  restore_single_step paste (engine3 true) [("state", PyTree (Some [ArrayArgs (Some (Jax (Named old_mesh 5))) None None]))] = Ok [("state", Arrays [mkArray (Named old_mesh 5) [7; 8]])].
Proof. split; [intros (X & _); discriminate|]. split; [vm_compute; repeat constructor|reflexivity]. Qed.

(** The dataset of a successful restore is the one of the persistent manager. *)
Theorem C73_dataset : forall {H V G S D : Type} join (e : @engine H V S D) args out d, NoDup (map fst args) ->
  @restore_single_step H V G S D join e args = Ok out -> In "dataset" (map fst args) -> e_persistent e = Some d -> exists d', d = Ok d' /\ In ("dataset", Dataset d') out.
Proof.
  intros H V G S D join e args out d NA E I P. unfold restore_single_step in E. destruct (materialize e args) as [a'|] eqn:MA; [|discriminate]. cbn [rbind] in E. destruct (restore_placement_plan e a') as [[c b]|]; [|discriminate]. cbn [rbind fst] in E.
  destruct (impl_restore join e c) as [r|]; [|discriminate]. cbn [rbind] in E. destruct (add_dataset e a' r) as [r'|] eqn:AD; [|discriminate]. cbn [rbind] in E. rewrite <- (materialize_names e _ _ MA) in I, NA.
  unfold add_dataset in AD. rewrite P in AD. assert (HAS : has dataset_name a' = true). { unfold has. apply existsb_exists. apply in_map_iff in I as (x & A & B). exists x. split; auto. apply String.eqb_eq. auto. }
  rewrite HAS in AD. destruct d as [d'|]; [|discriminate]. cbn [rbind] in AD. injection AD as <-. exists d'. split; auto.
  assert (Q : dget String.eqb dataset_name (dput String.eqb dataset_name (@Dataset G S D d') r) = Some (Dataset d')). { rewrite (Parts_Proofs.dget_dput String.eqb String.eqb_spec), String.eqb_refl. auto. }
  destruct (e_sidecar e); [injection E as <-; apply (Parts_Proofs.dget_some_in String.eqb String.eqb_spec) in Q; auto|].
  unfold mesh_consistent_result in E. apply seq_ok in E. apply in_map_iff in I as ([k a] & A & B). cbn [fst] in A. subst k. destruct (f2_in _ _ _ _ E B) as (y & IY & R). unfold result_item in R. cbn [fst snd] in R. change "dataset" with dataset_name in R. rewrite Q in R.
  destruct a as [|[l|]|]; try discriminate; injection R as <-; auto.
Qed.
Print Assumptions C73_dataset.

Example C73_dataset_example : exists out, @restore_single_step _ _ (list nat) _ _ paste engine1 args1 = Ok out /\ In ("dataset", Dataset 42) out.
Proof. eexists. split; [reflexivity|]. cbn. auto. Qed.

(** How a leaf is placed for reading: a sharding of one device is kept, of a named one the partition, on the mesh to restore with; nothing else is accepted. *)
Theorem C73_leaf : forall {S : Type} m (a a' : @leaf_args S), replace_sharding m a = Ok a' <->
  (exists d, means a (Single d) /\ a' = a) \/ (exists m0 p s m' axes, means a (Named m0 p) /\ a = ArrayArgs s m' axes /\ a' = ArrayArgs (Some (Jax (Named m p))) m' axes).
Proof.
  intros S m a a'. unfold means. split.
  - destruct a as [[[s|s]|] m' axes|]; cbn [replace_sharding asked rbind]; try discriminate.
    + destruct s as [m0 p|d|]; intros E; try discriminate; injection E as <-; [right; exists m0, p; eauto 10|left; exists d; split; eauto].
    + destruct s as [m0 p|d|]; intros E; try discriminate; injection E as <-; [right; exists m0, p; do 3 eexists; split; [right; left|]; eauto|left; exists d; split; eauto].
    + destruct m' as [m0|]; [|discriminate]. destruct axes as [p|]; [|discriminate]. cbn [replace_sharding asked rbind]. intros E. injection E as <-. right. exists m0, p. do 3 eexists. split; [right; right; exists m0, p; auto|]. auto.
  - intros [(d & [(m' & axes & ->)|[(m' & axes & ->)|(m' & p & _ & X)]] & ->)|(m0 & p & s & m' & axes & [(m1 & ax & Q)|[(m1 & ax & Q)|(m1 & p1 & Q & X)]] & -> & ->)]; try discriminate; auto; injection Q as -> -> ->; auto.
    injection X as -> ->. auto.
Qed.
Print Assumptions C73_leaf.

Example C73_leaf_example : replace_sharding old_mesh (ArrayArgs (Some (Meta (Named user_mesh 5))) None None) = Ok (ArrayArgs (Some (Jax (Named old_mesh 5))) None None) /\
  replace_sharding old_mesh (ArrayArgs None (Some user_mesh) (Some 5)) = Ok (ArrayArgs (Some (Jax (Named old_mesh 5))) (Some user_mesh) (Some 5)) /\
  replace_sharding old_mesh (@ArrayArgs nat (Some (Jax (Single d0))) None None) = Ok (ArrayArgs (Some (Jax (Single d0))) None None) /\ replace_sharding old_mesh (@ArrayArgs nat None (Some user_mesh) None) = Err ValueError /\
  replace_sharding old_mesh (@PlainArgs nat) = Err AttributeError.
Proof. vm_compute. repeat split. Qed.

(** Without a step the latest is restored; an error if there is none. Arguments that are not accepted are refused first. *)
Theorem C73_latest : forall {H V G S D : Type} join (step_of : nat -> @engine H V S D) args,
  (forall latest step x, validate_args false args = Err x -> @restore H V G S D join step_of latest step args = Err x) /\
  (forall n latest, @restore H V G S D join step_of (Some n) None args = restore join step_of latest (Some n) args) /\
  (forall a, validate_args false args = Ok a -> @restore H V G S D join step_of None None args = Err FileNotFoundError) /\
  (forall latest n out, @restore H V G S D join step_of latest (Some n) args = Ok out -> exists a, args = Some a /\ In "state" (map fst a) /\ restore_single_step join (step_of n) a = Ok out).
Proof.
  intros. unfold restore. split; [intros latest step x ->; auto|]. split; [intros n latest; auto|]. split; [intros a ->; auto|]. intros latest n out E. destruct (validate_args false args) as [a|] eqn:V0; [|discriminate]. exists a.
  apply C73_validate in V0 as (-> & I & _). auto.
Qed.
Print Assumptions C73_latest.

Example C73_latest_example : restore paste (fun _ => engine1) (Some 3) None (Some args1) = Ok [("state", Arrays [mkArray (Named user_mesh 5) [7; 8]]); ("dataset", Dataset 42)] /\
  @restore _ _ (list nat) _ _ paste (fun _ => engine1) None None (Some args1) = Err FileNotFoundError /\ @restore _ _ (list nat) _ _ paste (fun _ => engine1) (Some 3) None (Some [("dataset", OtherArgs true)]) = Err ValueError.
Proof. vm_compute. repeat split. Qed.

(** ** What does not hold *)

(** A dataset is accepted as an argument of a restore without a persistent directory, all else is there, and the restore ends with [KeyError]. *)
Theorem C73_dataset_restore_refuted : exists (e : @engine string part nat nat) args, validate_args false (Some args) = Ok args /\ right_ids e then_ /\ ready e /\ same_counts e /\ e_persistent e = None /\
  @restore_single_step _ _ (list nat) _ _ paste e args = Err KeyError /\ (exists out, @restore_single_step _ _ (list nat) _ _ paste e (filter (fun x => negb (fst x =? "dataset")%string) args) = Ok out).
Proof.
  exists (mkEngine false [d0; d1] now user_mesh true [[0]; [1]]%Z [0; 1]%Z [[1]; [0]]%Z [("state", [leaf1])] None), args1. split; [reflexivity|]. split; [exact engine1_ids|]. split; [exact engine1_ready|]. split; [vm_compute; auto|]. split; [reflexivity|].
  split; [reflexivity|]. eexists. reflexivity.
Qed.
Print Assumptions C73_dataset_restore_refuted.

(** A dataset that is a tree is accepted and saved with the persistent manager, but a restore with [PyTreeRestore] looks for it in the local checkpoint, too, where it is not. *)
Theorem C73_dataset_tree_refuted : exists (e : @engine string part nat nat) args l, validate_args false (Some args) = Ok args /\ right_ids e then_ /\ ready e /\ same_counts e /\ e_persistent e = Some (Ok 42) /\
  args = [("state", PyTree None); ("dataset", PyTree l)] /\ (exists names, save true false true true args = (true, [LocalSave names; PersistentSave])) /\ @restore_single_step _ _ (list nat) _ _ paste e args = Err KeyError.
Proof.
  exists engine1, [("state", PyTree None); ("dataset", PyTree (Some []))], (Some []). split; [reflexivity|]. split; [exact engine1_ids|]. split; [exact engine1_ready|]. split; [vm_compute; auto|]. split; [reflexivity|]. split; [reflexivity|]. split; [eexists|]; reflexivity.
Qed.
Print Assumptions C73_dataset_tree_refuted.

(** The numbers of processes and devices are the same, but a process has fewer devices than before and another more: this is not noticed by the check that is there for it, and the restore ends with [IndexError]. In a sidecar, where it would be possible
    to go on without, it does as well. *)
Theorem C73_ragged_refuted : exists (e : bool -> @engine string part nat nat) args, (forall b, same_counts (e b) /\ e_sidecar (e b) = b /\ @restore_single_step _ _ (list nat) _ _ paste (e b) args = Err IndexError) /\
  validate_args false (Some args) = Ok args.
Proof.
  exists (fun b => mkEngine b [d0; d1; mk_device 2 1] now (mk_mesh [3] [d0; d1; mk_device 2 1]) true [[0]; [1; 2]]%Z [0; 1; 2]%Z [[0; 1]; [2]]%Z [("state", [leaf1])] None), [("state", PyTree None)]. split; [|reflexivity].
  intros b. split; [vm_compute; auto|]. split; reflexivity.
Qed.
Print Assumptions C73_ragged_refuted.

(** With a mesh and axes instead of a sharding the array is read, but it is left on the mesh with the devices of the time of saving, not on the one asked for. *)
Theorem C73_mesh_axes_refuted : exists (e : @engine string part nat nat) m, right_ids e then_ /\ ready e /\ same_counts e /\ e_sidecar e = false /\ stored cut e then_ "state" [(5, [7; 8])] /\
  restore_single_step paste e [("state", PyTree (Some [ArrayArgs None (Some (e_mesh e)) (Some 5)]))] = Ok [("state", Arrays [mkArray (Named m 5) [7; 8]])] /\ m <> e_mesh e.
Proof.
  exists engine1, old_mesh. split; [exact engine1_ids|]. split; [exact engine1_ready|]. split; [vm_compute; auto|]. split; [reflexivity|]. split; [exact engine1_stored|]. split; [reflexivity|]. discriminate.
Qed.
Print Assumptions C73_mesh_axes_refuted.

(** The metadata of a sharding is accepted when the arguments are placed, but at the end it is given to [jax.device_put] as it is. *)
Theorem C73_sharding_metadata_refuted : exists (e : @engine string part nat nat), right_ids e then_ /\ ready e /\ same_counts e /\ e_sidecar e = false /\ stored cut e then_ "state" [(5, [7; 8])] /\
  @restore_single_step _ _ (list nat) _ _ paste e [("state", PyTree (Some [ArrayArgs (Some (Meta (Named (e_mesh e) 5))) None None]))] = Err TypeError.
Proof. exists engine1. split; [exact engine1_ids|]. split; [exact engine1_ready|]. split; [vm_compute; auto|]. split; [reflexivity|]. split; [exact engine1_stored|reflexivity]. Qed.
Print Assumptions C73_sharding_metadata_refuted.

(** An array on one device is asked for from the device with the same id as when it was saved, not from the same hardware: after a restart with other ids it is not found, though the hardware that has it is there. *)
Theorem C73_single_refuted : exists (e : @engine string part nat nat) l d d', right_ids e then_ /\ ready e /\ same_counts e /\ e_local e = [("state", [l])] /\
  l_meta l = ArrayMeta (Some (SingleMeta d)) /\ l_parts l (then_ (dev_id d)) = Some (Whole [7; 8]) /\ cut One [7; 8] = [Whole [7; 8]] /\
  @restore_single_step _ _ (list nat) _ _ paste e [("state", PyTree None)] = Err FileNotFoundError /\ In d' (e_devices e) /\ read_leaf paste e (Single d') l = Ok (mkArray (Single d') [7; 8]).
Proof.
  set (l := mkLeaf (ArrayMeta (Some (SingleMeta (S := nat) d0))) (fun h => if (h =? "A")%string then Some (Whole [7; 8]) else None)).
  exists (mkEngine false [d0; d1] now user_mesh true [[0]; [1]]%Z [0; 1]%Z [[1]; [0]]%Z [("state", [l])] None), l, d0, d1. split; [exact engine1_ids|]. split; [exact engine1_ready|]. split; [vm_compute; auto|]. repeat split; cbn; auto.
Qed.
Print Assumptions C73_single_refuted.
