(** Model of replicas within a mesh of devices and of the mesh that is used to restore
    local checkpoints after a restart.
    Sources: checkpoint/orbax/checkpoint/_src/multihost/multislice.py ("MS"),
    _src/multihost/multihost.py ("MH"), experimental/emergency/multihost.py ("EH").
    Simplifications: a device is its id and the index of its process (MH l.502-507);
    replica ids and axes are not negative.  Not modelled: the mapping between runtime and
    distributed process ids (MH l.173-216, EH l.35-107, l.182-202) and the json files. *)
From Coq Require Import List Bool Arith ZArith.
From Verif Require Import Base.
Import ListNotations.

(** A device (MH l.502-507, EH l.158) *)
Record device : Type := mk_device { dev_id : Z; process : nat }.

(** A mesh: the shape of the array of devices and its elements, the last axis fastest
    (MS l.70, l.82, EH l.166) *)
Record mesh : Type := mk_mesh { shape : list nat; devices : list device }.

(** The number of elements of an array (EP l.100) *)
Definition size (s : list nat) : nat := fold_right Nat.mul 1 s.

(** The [i]-th row of an array whose rows have [n] elements (MS l.69) *)
Definition row {A : Type} (n i : nat) (a : list A) : list A := firstn n (skipn (i * n) a).

(** [np.take(a, r, axis)] (MS l.69-73) *)
Fixpoint take {A : Type} (s : list nat) (axis r : nat) (a : list A) : list A :=
  match s with
  | [] => a
  | n :: rest =>
    match axis with
    | O => row (size rest) r a
    | S ax => flat_map (fun i => take rest ax r (row (size rest) i a)) (seq 0 n)
    end
  end.

(** MS l.62-73 *)
Definition replica_devices (m : mesh) (replica_id axis : nat) : result (list device) :=
  match nth_error (shape m) axis with
  | None => Err ValueError
  | Some n => if replica_id <? n then Ok (take (shape m) axis replica_id (devices m)) else Err IndexError
  end.

(** MS l.76-82 *)
Definition replica_count (m : mesh) (axis : nat) : result nat :=
  if length (shape m) =? 1 then Ok 1
  else match nth_error (shape m) axis with Some n => Ok n | None => Err IndexError end.

(** MH l.510-512; a vectorized function refuses an array without elements *)
Definition unique_processes_from_devices (ds : list device) : result (list nat) :=
  match ds with [] => Err ValueError | _ => Ok (nodup Nat.eq_dec (map process ds)) end.

(** MS l.56-59 *)
Definition process_in_device_replica (p : nat) (ds : list device) : result bool :=
  rmap (existsb (Nat.eqb p)) (unique_processes_from_devices ds).

(** MS l.125-140 *)
Definition in_replica (p : nat) (m : mesh) (replica_id axis : nat) : result bool :=
  rbind (replica_devices m replica_id axis) (process_in_device_replica p).

(** The loops of MS l.43-53 and l.89-102: the first replica with the process. *)
Fixpoint first_replica (p : nat) (m : mesh) (axis : nat) (ids : list nat) : result (option nat) :=
  match ids with
  | [] => Ok None
  | r :: rest => rbind (in_replica p m r axis) (fun b => if b then Ok (Some r) else first_replica p m axis rest)
  end.

(** MS l.35-53 *)
Definition process_replica_id (p : nat) (m : mesh) (axis : nat) : result Z :=
  rbind (replica_count m axis) (fun n =>
  rmap (fun r => match r with Some r => Z.of_nat r | None => (-1)%Z end) (first_replica p m axis (seq 0 n))).

(** MS l.85-106; [p] is the own process *)
Definition local_replica_devices (p : nat) (m : mesh) (axis : nat) : result (list device) :=
  rbind (replica_count m axis) (fun n =>
  rbind (first_replica p m axis (seq 0 n)) (fun r =>
  match r with Some r => replica_devices m r axis | None => Err ValueError end)).

(** MS l.109-122; [first] is the element that iterating over a set yields first *)
Definition primary_process_in_replica (first : list nat -> nat) (m : mesh) (replica_id axis : nat) : result nat :=
  rbind (replica_devices m replica_id axis) (fun ds => rmap first (unique_processes_from_devices ds)).

(** MS l.389-402 *)
Definition get_primary_replica_ids_and_pids (m : mesh) (primary_replica_id axis : nat) : result (list Z * list nat) :=
  rbind (replica_devices m primary_replica_id axis) (fun ds =>
  rmap (pair (map dev_id ds)) (unique_processes_from_devices ds)).

(** The replicas with devices of the process (MS l.434-444) *)
Definition found_replica_ids (p : nat) (m : mesh) (axis n : nat) : result (list nat) :=
  rmap (fun l => map fst (filter snd l)) (sequence (map (fun r => rmap (pair r) (in_replica p m r axis)) (seq 0 n))).

(** The loop over the processes (MS l.433-448) *)
Fixpoint any_spans (m : mesh) (axis n : nat) (ps : list nat) : result bool :=
  match ps with
  | [] => Ok false
  | p :: r => rbind (found_replica_ids p m axis n) (fun l => if 1 <? length l then Ok true else any_spans m axis n r)
  end.

(** MS l.405-448 *)
Definition process_spans_multiple_replicas (m : mesh) (axis : nat) : result bool :=
  rbind (replica_count m axis) (fun n =>
  rbind (unique_processes_from_devices (devices m)) (any_spans m axis n)).

(** A dictionary, the entry written last in front (EH l.147, l.158) *)
Fixpoint lookup {A : Type} (k : Z) (d : list (Z * A)) : result A :=
  match d with
  | [] => Err KeyError
  | (x, v) :: r => if Z.eqb x k then Ok v else lookup k r
  end.

(** The inner loop of EH l.149-152 *)
Fixpoint map_row (previous current : list Z) (d : list (Z * Z)) : result (list (Z * Z)) :=
  match previous, current with
  | [], _ => Ok d
  | _, [] => Err IndexError
  | p :: ps, c :: cs => map_row ps cs ((p, c) :: d)
  end.

(** The outer loop of EH l.148-152; a row that is missing matters if there is an element to
    look up *)
Fixpoint device_id_across_restarts (previous current : list (list Z)) (d : list (Z * Z)) : result (list (Z * Z)) :=
  match previous with
  | [] => Ok d
  | ps :: pr => rbind (map_row ps (hd [] current) d) (device_id_across_restarts pr (tl current))
  end.

(** [np.array(l).reshape(shape)] (EH l.166-168, l.176-178) *)
Definition reshape (s : list nat) (l : list device) : result mesh :=
  if length l =? size s then Ok (mk_mesh s l) else Err ValueError.

(** [devices[device_ids.index(i)]] (EH l.172-175) *)
Fixpoint device_with_id (ds : list device) (i : Z) : result device :=
  match ds with
  | [] => Err ValueError
  | d :: r => if Z.eqb (dev_id d) i then Ok d else device_with_id r i
  end.

(** EH l.110-179; [use_distributed_id] is the flag of EH l.26-32 *)
Definition consistent_restore_mesh (use_distributed_id : bool) (ds : list device) (user_mesh : mesh)
    (previous_mesh_ids : list Z) (previous current : list (list Z)) : result mesh :=
  if use_distributed_id then
    rbind (device_id_across_restarts previous current []) (fun across =>
    let by_id := rev (map (fun d => (dev_id d, d)) ds) in
    rbind (sequence (map (fun i => rbind (lookup i across) (fun c => lookup c by_id)) previous_mesh_ids))
          (reshape (shape user_mesh)))
  else rbind (sequence (map (device_with_id ds) previous_mesh_ids)) (reshape (shape user_mesh)).

(** The loop of MH l.154-160 over the directory of the key-value store; the text of an empty
    list cannot be parsed *)
Fixpoint collect (ids : list (nat * list Z)) (results : list (option (list Z))) : result (list (option (list Z))) :=
  match ids with
  | [] => Ok results
  | (i, l) :: r =>
    match l with
    | [] => Err ValueError
    | _ => if i <? length results then collect r (set_nth i (Some l) results) else Err IndexError
    end
  end.

(** [assert None not in results] (MH l.161) *)
Fixpoint no_none {A : Type} (l : list (option A)) : result (list A) :=
  match l with
  | [] => Ok []
  | None :: _ => Err AssertionError
  | Some x :: r => rmap (cons x) (no_none r)
  end.

(** MH l.134-162: [ids] is what [key_value_dir_get] returns after the barrier *)
Definition distributed_to_device_ids (process_count : nat) (ids : list (nat * list Z)) : result (list (list Z)) :=
  rbind (collect ids (repeat None process_count)) no_none.

(** The processes that restore a local checkpoint from their storage: those of the replica
    of the restore mesh that has the id the own slice has in the global mesh
    (experimental/emergency/checkpoint_manager.py l.949-962) *)
Definition restoring_processes (restore_mesh : mesh) (slice_id axis : nat) : result (list nat) :=
  rbind (replica_devices restore_mesh slice_id axis) unique_processes_from_devices.
