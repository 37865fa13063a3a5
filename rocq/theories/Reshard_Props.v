(** C27: a resharded restore returns the stored values. *)
From Coq Require Import ZArith List Permutation Lia.
From Verif Require Import Base Nd_Model Fragment_Model Fragment_Spec Fragment_Proofs Slice_Model Replica_Model Replica_Spec Replica_Proofs
  Replica_Props Reshard_Model Reshard_Spec Reshard_Proofs.
Import ListNotations.
Local Open Scope Z_scope.

(** A stored 3 x 5 array in chunks of 2 x 2. *)
Definition ex_t : tensor Z := mk_t (mk_arr [3; 5] ex_G) 4 [Some (0, 2); Some (0, 2)].
(** Read as 4 x 4 in four quarters; devices 1 and 4 hold the same quarter. *)
Definition quarter (i j : Z) : list pslice :=
  [mk_ps (Some (2 * i)) (Some (2 * i + 2)) None; mk_ps (Some (2 * j)) (if j =? 1 then None else Some 2) None].
Definition ex_sg : sharding :=
  mk_sg [(0, quarter 0 0); (1, quarter 0 1); (2, quarter 1 0); (3, quarter 1 1); (4, quarter 0 1)] [1; 3; 4].
Definition values (r : result (list (Z * arr Z) * Z)) : list (Z * list Z) :=
  match r with Ok (l, _) => map (fun da => (fst da, map (aget (snd da)) (all_coords (ashape (snd da))))) l | Err _ => [] end.

Lemma ex_sg_ok : shards_into [4; 4] [2; 2] ex_sg.
Proof.
  split.
  - simpl. repeat constructor; simpl; intuition lia.
  - intros dev i H. repeat destruct H as [H|H]; try (injection H as <- <-); try destruct H;
      (split; [repeat constructor; simpl; lia|reflexivity]).
Qed.

(** One shard, requested with or without padding: the stored elements inside the
    stored array, zeros outside. *)
Theorem C27_shard : forall V zero (t : tensor V) shape idx cast (strict : bool), proper shape idx ->
  (if strict then ashape (t_data t) = shape else List.length (ashape (t_data t)) = List.length shape) ->
  exists a bytes, read_index zero t shape (map extent (box shape idx)) cast strict idx = Ok (a, bytes) /\
    ashape a = map extent (box shape idx) /\
    forall ks, inside (ashape a) ks -> exists v, expected zero (t_data t) (point (box shape idx) ks) v /\ aget a ks = casted cast v.
Proof. exact read_index_proper. Qed.
Print Assumptions C27_shard.

(** Row 3 is outside the stored array. *)
Example C27_shard_ex : proper [4; 4] (quarter 1 1) /\
  match read_index 0 ex_t [4; 4] [2; 2] (Some (Z.add 1000)) false (quarter 1 1) with
  | Ok (a, bytes) => map (aget a) (all_coords [2; 2]) = [1022; 1023; 1000; 1000] /\ bytes = 4 * (2 * 2)
  | Err _ => False end.
Proof. split; [repeat constructor; simpl; lia|]. vm_compute. split; reflexivity. Qed.

(** In strict mode another shape is an error; without it another rank is. *)
Theorem C27_strict : forall V zero (t : tensor V) shape new_shape idx cast,
  ashape (t_data t) <> shape -> read_index zero t shape new_shape cast true idx = Err ValueError.
Proof. exact strict_mismatch. Qed.
Print Assumptions C27_strict.

Theorem C27_rank : forall V zero (t : tensor V) shape new_shape idx cast, proper shape idx ->
  List.length (ashape (t_data t)) <> List.length shape -> read_index zero t shape new_shape cast false idx = Err ValueError.
Proof. exact rank_mismatch. Qed.
Print Assumptions C27_rank.

Example C27_strict_ex : read_index 0 ex_t [4; 4] [2; 2] None true (quarter 1 1) = Err ValueError /\
  read_index 0 ex_t [4] [2] None false [mk_ps (Some 2) (Some 4) None] = Err ValueError.
Proof. split; reflexivity. Qed.

(** The whole array: each device of the process gets its shard, once; each
    distinct box is read once, and the bytes reported are those of these reads. *)
Theorem C27_array : forall V zero (t : tensor V) shape d sg cast (strict : bool), shards_into shape d sg ->
  (if strict then ashape (t_data t) = shape else List.length (ashape (t_data t)) = List.length shape) ->
  exists arrs bytes boxes part, read_and_create zero t shape d sg cast strict = Ok (arrs, bytes) /\
    NoDup (map fst arrs) /\ (forall dev, In dev (map fst arrs) <-> addressable sg dev) /\
    (forall dev a, In (dev, a) arrs -> exists i, In (dev, i) (sg_indices sg) /\ ashape a = d /\
       forall ks, inside d ks -> exists v, expected zero (t_data t) (point (box shape i) ks) v /\ aget a ks = casted cast v) /\
    NoDup boxes /\
    (forall b, In b boxes <-> exists dev i, In (dev, i) (sg_indices sg) /\ In dev (sg_local sg) /\ b = box shape i) /\
    (forall b, In b boxes -> forall p, covers (part b) p <-> covers b p /\ inside (ashape (t_data t)) p) /\
    bytes = fold_right Z.add 0 (map (fun b => footprint t (Some (part b))) boxes).
Proof. exact read_and_create_bytes. Qed.
Print Assumptions C27_array.

Example C27_array_ex : shards_into [4; 4] [2; 2] ex_sg /\
  values (deserialize 0 ex_t (Some [4; 4]) (map (fun n => n / 2)) (fun _ => ex_sg) None false) =
    [(1, [2; 3; 12; 13]); (4, [2; 3; 12; 13]); (3, [22; 23; 0; 0])].
Proof. split; [exact ex_sg_ok|vm_compute; reflexivity]. Qed.

(** Every coordinate of a box of the process can be found again. *)
Theorem C27_assemble : forall V zero (t : tensor V) shape d sg cast (strict : bool) arrs bytes dev i p, shards_into shape d sg ->
  (if strict then ashape (t_data t) = shape else List.length (ashape (t_data t)) = List.length shape) ->
  read_and_create zero t shape d sg cast strict = Ok (arrs, bytes) ->
  In (dev, i) (sg_indices sg) -> In dev (sg_local sg) -> covers (box shape i) p ->
  exists a ks v, In (dev, a) arrs /\ inside (ashape a) ks /\ point (box shape i) ks = p /\ expected zero (t_data t) p v /\ aget a ks = casted cast v.
Proof. exact assemble. Qed.
Print Assumptions C27_assemble.

Example C27_assemble_ex : covers (box [4; 4] (quarter 0 1)) [1; 3].
Proof. do 2 (apply covers_cons; split; [apply selects_unit; [reflexivity|simpl; lia]|]). constructor. Qed.

(** Save on any topology, restore on any other: the fragments all processes
    write (C26), in whatever order they arrive, make the array; reading any
    sharding of it gives the values of the array that was saved. *)
Theorem C27_round_trip : forall V zero shape (G : list Z -> V) R d all c procs r fill fs' item chunks d' sg cast (strict : bool),
  sharded shape G R d all -> c_replica_id c = Some r -> 0 <= r < R -> c_global c = shape ->
  Permutation (c_indices c) (map sh_index all) -> Permutation (List.concat procs) all -> Forall (fun p => p <> []) procs ->
  (exists fs, save_all c procs = Ok fs /\ Permutation fs fs') ->
  shards_into shape d' sg ->
  exists a arrs bytes, write_fragments (mk_arr shape fill) fs' = Ok a /\ ashape a = shape /\
    read_and_create zero (mk_t a item chunks) shape d' sg cast strict = Ok (arrs, bytes) /\
    (forall dev, In dev (map fst arrs) <-> addressable sg dev) /\
    (forall dev x, In (dev, x) arrs -> exists i, In (dev, i) (sg_indices sg) /\ ashape x = d' /\
       forall ks, inside d' ks -> aget x ks = casted cast (G (point (box shape i) ks))).
Proof. exact round_trip. Qed.
Print Assumptions C27_round_trip.

(** The 4 x 6 array of C26, written by two processes in six pieces, read in
    columns of two. *)
Definition columns : sharding :=
  mk_sg [(7, [mk_ps None None None; mk_ps (Some 0) (Some 2) None]); (8, [mk_ps None None None; mk_ps (Some 2) (Some 4) None]);
         (9, [mk_ps None None None; mk_ps (Some 4) None None])] [8; 9].
Example C27_round_trip_ex : shards_into [4; 6] [4; 2] columns /\
  match save_all (ex_cfg true) ex_procs with
  | Ok fs => match write_fragments (mk_arr [4; 6] (fun _ => -1)) (rev fs) with
             | Ok a => values (read_and_create 0 (mk_t a 4 []) [4; 6] [4; 2] columns None true) =
                         [(8, [2; 3; 12; 13; 22; 23; 32; 33]); (9, [4; 5; 14; 15; 24; 25; 34; 35])]
             | Err _ => False end
  | Err _ => False end.
Proof.
  split; [|vm_compute; reflexivity]. split.
  - simpl. repeat constructor; simpl; intuition lia.
  - intros dev i H. repeat destruct H as [H|H]; try (injection H as <- <-); try destruct H; (split; [repeat constructor; simpl; lia|reflexivity]).
Qed.

(** The bytes reserved for a read are those of exactly the chunks it touches. *)
Theorem C27_footprint : forall V (t : tensor V) chunks d, t_chunks t = map Some chunks ->
  Forall (fun p => 1 <= snd p) chunks -> List.length chunks = List.length d -> Forall (fun s => sl_start s < sl_stop s) d ->
  exists h, unit_steps h /\ Forall (fun s => sl_start s <= sl_stop s) h /\ footprint t (Some d) = t_itemsize t * elements (map extent h) /\
    forall c, List.length c = List.length d ->
      (covers h c <-> Forall2 (fun p x => touched (fst (fst p)) (snd (fst p)) (sl_start (snd p)) (sl_stop (snd p)) x) (combine chunks d) c).
Proof. exact footprint_touched. Qed.
Print Assumptions C27_footprint.

Example C27_footprint_ex : footprint ex_t (Some [mk_sl 1 3 1; mk_sl 2 4 1]) = 4 * (4 * 2) /\ footprint ex_t None = 4 * (4 * 6).
Proof. split; vm_compute; reflexivity. Qed.

(** Nothing is read of a shard outside the stored array, yet bytes are reserved
    and reported for it if its origin is inside a chunk in every dimension. *)
Theorem C27_empty_footprint_refuted : exists (t : tensor Z) shape idx a bytes, proper shape idx /\
  (forall p, covers (box shape idx) p -> ~ inside (ashape (t_data t)) p) /\
  read_index 0 t shape (map extent (box shape idx)) None false idx = Ok (a, bytes) /\ bytes > 0.
Proof.
  exists (mk_t (mk_arr [3] ex_G) 4 [Some (0, 4)]), [10], [mk_ps (Some 5) (Some 10) None]. do 2 eexists.
  split; [repeat constructor; simpl; lia|]. split.
  - intros [|x p] C I; inversion C; subst. inversion I; subst. apply selects_unit in H2; auto. simpl in *. lia.
  - split; [reflexivity|]. vm_compute. reflexivity.
Qed.
Print Assumptions C27_empty_footprint_refuted.
