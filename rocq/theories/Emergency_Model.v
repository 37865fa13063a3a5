(** Model of the emergency checkpoint manager: which steps the slices have, what is the
    latest step, who saves and from where all processes restore.
    Sources: checkpoint/orbax/checkpoint/experimental/emergency/checkpoint_manager.py ("EM"),
    experimental/emergency/path.py ("EP").
    Simplifications: a step in a directory is a number; the managers of the slices answer
    with a boolean whether they save (they are modelled in Manager_Model); what is read
    from persistent storage is the same for the whole of a call.  Not modelled: what is in
    a checkpoint (the broadcast is in Broadcast_Model, the restore mesh in Mesh_Model),
    the manager for the dataset (EM l.1387-1411, l.1449-1483), logging and statistics. *)
From Coq Require Import List Bool Arith ZArith.
From Verif Require Import Base Mesh_Model.
Import ListNotations.

(** Adding zero bytes up to the length (EP l.52-53) *)
Definition pad (n : nat) (bytes : list nat) : list nat := bytes ++ repeat 0 (n - length bytes).

(** EP l.31-74 with the encoded data of all processes: lengths and padded data are gathered,
    the data are cut into rows again and the padding is cut off *)
Definition exchange (encoded : list (list nat)) : list (list nat) :=
  let all_lens := map (@length nat) encoded in
  let max_len := fold_right max 0 all_lens in
  let all_padded_data := concat (map (pad max_len) encoded) in
  map (fun x => firstn (snd x) (row max_len (fst x) all_padded_data)) (enumerate all_lens).

(** [collections.Counter] (EP l.110) *)
Definition count (k : Z) (values : list Z) : nat := count_occ Z.eq_dec values k.

(** [d[k].extend(values)] for a defaultdict that keeps the order of insertion (EP l.102-107) *)
Fixpoint extend (k : Z) (values : list Z) (d : list (Z * list Z)) : list (Z * list Z) :=
  match d with
  | [] => [(k, values)]
  | (x, l) :: r => if Z.eqb x k then (x, l ++ values) :: r else (x, l) :: extend k values r
  end.

(** The loop of EP l.103-107 *)
Fixpoint group (m : mesh) (axis : nat) (per_process : list (nat * list Z)) (d : list (Z * list Z)) : result (list (Z * list Z)) :=
  match per_process with
  | [] => Ok d
  | (pid, values) :: r => rbind (process_replica_id pid m axis) (fun rid => group m axis r (extend rid values d))
  end.

(** The values that occur as often as a replica has processes (EP l.109-122) *)
Definition common_values (n : nat) (values : list Z) : result (list Z) :=
  let common := filter (fun k => count k values =? n) (nodup Z.eq_dec values) in
  if length values <? length common then Err AssertionError else Ok common.

(** EP l.77-124; [local_device_count] is that of the own process *)
Definition common_values_per_replica (m : mesh) (axis local_device_count : nat) (per_process : list (nat * list Z)) : result (list (Z * list Z)) :=
  rbind (replica_count m axis) (fun total =>
  let n := length (devices m) / total / local_device_count in
  rbind (group m axis per_process []) (fun d =>
  sequence (map (fun x => rmap (pair (fst x)) (common_values n (snd x))) d))).

(** [max(l) if l else None] (EM l.683-686) *)
Definition max_step (l : list Z) : option Z :=
  match l with [] => None | x :: r => Some (fold_left Z.max r x) end.

(** What a manager remembers (EM l.574-575) *)
Record cache : Type := mk_cache { local_latest : option Z; persistent_latest : option Z }.

(** EM l.689-704 *)
Definition latest_step (c : cache) : option Z :=
  match local_latest c, persistent_latest c with
  | None, p => p
  | l, None => l
  | Some l, Some p => Some (Z.max l p)
  end.

(** What happens to the processes in a call: a process returns, raises or waits for others
    that do not come (EM l.754, l.1053, l.1180) *)
Inductive outcome (A : Type) : Type :=
| Returns (a : A)
| Raises (e : err)
| Waits.
Arguments Returns {A} a.
Arguments Raises {A} e.
Arguments Waits {A}.

(** [last_checkpoint_step is not None and last_checkpoint_step >= step] (EM l.747) *)
Definition not_newer (step : Z) (c : cache) : bool :=
  match latest_step c with Some l => (step <=? l)%Z | None => false end.

(** EM l.731-754 on all processes, given what each remembers and whether the manager of its
    slice would save; the maximum needs all processes *)
Definition should_save (step : Z) (caches : list cache) (wants : list bool) : list (outcome bool) :=
  if existsb (not_newer step) caches then map (fun c => if not_newer step c then Returns false else Waits) caches
  else map (fun _ => Returns (existsb (fun b => b) wants)) caches.

(** EM l.762-842 on all processes: each has the answer of the manager of its slice, in the
    primary slice a persistent one and elsewhere a local one *)
Definition save (step : Z) (caches : list cache) (in_primary : list bool) (saved : list bool) : list (bool * cache) :=
  let persistent_saved := existsb (fun x => fst x && snd x) (combine in_primary saved) in
  let local_saved := existsb (fun x => negb (fst x) && snd x) (combine in_primary saved) in
  map (fun c => (persistent_saved || local_saved,
    mk_cache (if local_saved then Some step else local_latest c) (if persistent_saved then Some step else persistent_latest c))) caches.

(** [step in steps] (EM l.857) *)
Definition has_step (step : Z) (steps : list Z) : bool := existsb (Z.eqb step) steps.

(** EM l.852-859 *)
Fixpoint find_slice (step : Z) (per_slice : list (Z * list Z)) : Z :=
  match per_slice with
  | [] => (-1)%Z
  | (slice_id, steps) :: r => if has_step step steps then slice_id else find_slice step r
  end.

(** Where a checkpoint is read (EM l.1223-1230) *)
Inductive source : Type :=
| FromLocal (slice_id : Z)
| FromPersistent.

(** All processes meet before the broadcast; if one of them failed to find the step, the
    others wait (EM l.1053, l.1180) *)
Definition meet {A : Type} (l : list (result A)) : list (outcome A) :=
  if forallb (fun r => match r with Ok _ => true | Err _ => false end) l
  then map (fun r => match r with Ok a => Returns a | Err e => Raises e end) l
  else map (fun r => match r with Ok _ => Waits | Err e => Raises e end) l.

Section Cluster.
Variable m : mesh.
Variable axis : nat.
Variable local_device_count : nat.

(** EP l.127-157: the steps of all processes in the order of the processes *)
Definition get_per_replica_local_steps (local_steps : list (list Z)) : result (list (Z * list Z)) :=
  common_values_per_replica m axis local_device_count (enumerate local_steps).

(** EM l.642-687: the steps and what is remembered afterwards; without any process the union
    of no sets fails *)
Definition all_steps (local_steps : list (list Z)) (persistent_steps : list Z) : result (list Z * cache) :=
  rbind (get_per_replica_local_steps local_steps) (fun per_slice =>
  match per_slice with
  | [] => Err TypeError
  | _ =>
    let locals := nodup Z.eq_dec (flat_map snd per_slice) in
    Ok (nodup Z.eq_dec (locals ++ persistent_steps), mk_cache (max_step locals) (max_step persistent_steps))
  end).

(** The own slice (EM l.502-506) of each of the processes *)
Definition slice_ids (n : nat) : result (list Z) := sequence (map (fun p => process_replica_id p m axis) (seq 0 n)).

(** EM l.1222-1230 for a given step; a process of the restoring slice finds the step in its
    directory (l.938-940), the primary slice in the persistent one (l.1111-1113) *)
Definition restore_step (step : Z) (local_steps : list (list Z)) (persistent_steps : list Z) : result (list (outcome source)) :=
  rbind (get_per_replica_local_steps local_steps) (fun per_slice =>
  let r := find_slice step per_slice in
  rbind (slice_ids (length local_steps)) (fun ids =>
  if (-1 <? r)%Z then
    Ok (meet (map (fun x => if (fst x =? r)%Z && negb (has_step step (snd x)) then Err ValueError else Ok (FromLocal r)) (combine ids local_steps)))
  else
    rbind (sequence (map (fun p => in_replica p m 0 axis) (seq 0 (length local_steps)))) (fun primary =>
    Ok (meet (map (fun b : bool => if b && negb (has_step step persistent_steps) then Err ValueError else Ok FromPersistent) primary))))).

(** EM l.1209-1230 on processes that remember the same *)
Definition restore (step : option Z) (c : cache) (local_steps : list (list Z)) (persistent_steps : list Z) : result (Z * list (outcome source)) :=
  match match step with Some s => Some s | None => latest_step c end with
  | None => Err FileNotFoundError
  | Some s => rmap (pair s) (restore_step s local_steps persistent_steps)
  end.

End Cluster.
