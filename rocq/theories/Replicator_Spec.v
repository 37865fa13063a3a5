(** Vocabulary of the statements about the manager of replicated local checkpoints. *)
From Coq Require Import List Bool Arith ZArith String.
From Verif Require Import Base Tree_Model Mesh_Model Mesh_Spec Replicator_Model.
Import ListNotations.
Open Scope list_scope.

Section Spec.
Context {H V G S D : Type}.
Variable split : @layout S -> G -> list V.
Variable join : @layout S -> list V -> option G.

(** What is cut can be put together again. *)
Definition fits : Prop := forall ly g, join ly (split ly g) = Some g.

(** The leaf was saved as the array [g] with the partition [p] on a mesh of the shape [sh] with the devices [ids], which were the hardware [before]: the hardware of the [i]-th device has the [i]-th part. *)
Definition saved_leaf (before : Z -> H) (ids : list Z) (sh : list nat) (l : @leaf H V S) (p : S) (g : G) : Prop :=
  l_meta l = ArrayMeta (Some (NamedMeta p)) /\ Forall2 (fun i v => l_parts l (before i) = Some v) ids (split (Grid sh p) g).

(** What is known about ids is right: with the tables, that they describe the same hardware; without, that ids have not changed. *)
Definition right_ids (e : @engine H V S D) (before : Z -> H) : Prop :=
  if e_flag e then same_hardware before (e_hw e) (e_previous e) (e_current e) else forall i, In i (e_previous_ids e) -> before i = e_hw e i.

(** There is a device for each that the mesh had, and there are as many as in the mesh now. *)
Definition ready (e : @engine H V S D) : Prop :=
  Datatypes.length (e_previous_ids e) = fold_right Nat.mul 1 (shape (e_mesh e)) /\
  if e_flag e then covers (e_current e) (e_previous e) /\ (forall i, In i (e_previous_ids e) -> listed (e_previous e) i) /\ (forall c, listed (e_current e) c -> exists d, In d (e_devices e) /\ dev_id d = c)
  else forall i, In i (e_previous_ids e) -> exists d, In d (e_devices e) /\ dev_id d = i.

(** As many processes, devices and places of the mesh as when the step was saved. *)
Definition same_counts (e : @engine H V S D) : Prop :=
  List.length (e_previous e) = List.length (e_current e) /\ List.length (List.concat (e_previous e)) = List.length (List.concat (e_current e)) /\
  List.length (e_previous_ids e) = List.length (List.concat (e_current e)).

(** The arguments of the leaf ask for this sharding, with this partition. *)
Definition asks (a : @leaf_args S) (p : S) (s : sharding) : Prop := exists m m' axes, a = ArrayArgs (Some (Jax (Named m p))) m' axes /\ s = Named m p.

(** The arguments ask for these shardings of these partitions: all given, or none, then on the mesh of the user. *)
Definition wants (g : mesh) (o : option (list (@leaf_args S))) (ts : list (S * G * @sharding S)) : Prop :=
  match o with
  | Some l => Forall2 (fun a t => asks a (fst (fst t)) (snd t)) l ts
  | None => Forall (fun t => snd t = Named g (fst (fst t))) ts
  end.

(** The item is in the local storage, with these partitions and arrays. *)
Definition stored (e : @engine H V S D) (before : Z -> H) (k : string) (pgs : list (S * G)) : Prop :=
  exists leaves, In (k, leaves) (e_local e) /\ Forall2 (fun l pg => saved_leaf before (e_previous_ids e) (shape (e_mesh e)) l (fst pg) (snd pg)) leaves pgs.

(** The arguments of the leaf stand for this sharding: given as such, by its metadata, or by a mesh and its axes. *)
Definition means (a : @leaf_args S) (s : @sharding S) : Prop :=
  (exists m axes, a = ArrayArgs (Some (Jax s)) m axes) \/ (exists m axes, a = ArrayArgs (Some (Meta s)) m axes) \/ (exists m p, a = ArrayArgs None (Some m) (Some p) /\ s = Named m p).

(** The hardware that the devices of the mesh are now has the parts of the array, in order. *)
Definition in_place (e : @engine H V S D) (l : @leaf H V S) (p : S) (g : G) (m : mesh) : Prop :=
  Forall2 (fun d v => l_parts l (e_hw e (dev_id d)) = Some v) (devices m) (split (Grid (shape m) p) g).

(** What is to come for an argument: the arrays that were saved, on the shardings asked for, or the dataset of the persistent manager. *)
Inductive restores (e : @engine H V S D) (before : Z -> H) : string * @item_args S -> string * @item G S D -> Prop :=
| restores_arrays : forall k o ts, k <> dataset_name -> stored e before k (map fst ts) -> wants (e_mesh e) o ts ->
    restores e before (k, PyTree o) (k, Arrays (map (fun t => mkArray (snd t) (snd (fst t))) ts))
| restores_dataset : forall d r, e_persistent e = Some (Ok d) -> restores e before (dataset_name, OtherArgs r) (dataset_name, Dataset d).

End Spec.
