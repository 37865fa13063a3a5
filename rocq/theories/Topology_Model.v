(** Model of the topology of workers of colocated checkpointing (which devices belong to which worker, the ranks of workers,
    the peers of a worker in the other slices, the renaming of device ids) and of the agreement of the workers on steps.
    Sources, under checkpoint/orbax/checkpoint: _src/multihost/pathways.py ("PW"), and in experimental/emergency/multi_tier_checkpointing:
    pathways_topology.py ("PT"), colocated_utils.py ("CU"), sidecar_worker_checkpoint_manager.py ("SW"), colocated_controller.py ("CC").
    Simplifications: the task and the slice that a device says it has (PW l.48-65) are given, as natural numbers, and so are ids of devices;
    numbers of steps fit in 32 bits; each worker answers each call with one value (CU l.206-236); clocks are given; jax.errors.JaxRuntimeError
    is a RuntimeError. Not modelled: arrays, shardings, transport, the colocated CPU devices, logging. *)
From Coq Require Import List Bool Arith ZArith.
From Verif Require Import Base Tree_Model.
Import ListNotations.

(** ** Sorting *)

(** Insert before the first element that is not smaller (used for [sorted], PT l.130, l.140, l.210, l.261, SW l.314) *)
Fixpoint insert_before {A : Type} (le : A -> A -> bool) (x : A) (l : list A) : list A :=
  match l with
  | [] => [x]
  | y :: r => if le x y then x :: l else y :: insert_before le x r
  end.

(** [sorted(l)]: stable (PT l.130, l.140, l.210, l.261, SW l.314) *)
Definition sort_list {A : Type} (le : A -> A -> bool) (l : list A) : list A := fold_right (insert_before le) [] l.

(** ** Devices and workers *)

(** A device: its id (PT l.140), its task (PW l.48-59) and its slice (PW l.62-65) *)
Record device : Type := mkDevice { d_id : nat; d_task : option nat; d_slice : option nat }.

(** Keys of workers (PW l.68) *)
Definition wkey : Type := list nat.

(** PW l.68-91 *)
Definition worker_key (d : device) : result wkey :=
  match d_task d, d_slice d with
  | Some t, Some s => Ok [t; s]
  | Some t, None => Ok [t]
  | None, Some _ => Err ValueError
  | None, None => Err ValueError
  end.

(** Equality of keys, as of tuples (PW l.112) *)
Definition wkey_eqb (a b : wkey) : bool := if list_eq_dec Nat.eq_dec a b then true else false.

(** The loop of PW l.109-112; [acc] is the dictionary so far *)
Fixpoint group_devices (ds : list device) (acc : dict wkey (list device)) : result (dict wkey (list device)) :=
  match ds with
  | [] => Ok acc
  | d :: r =>
    rbind (worker_key d) (fun k =>
    group_devices r (dput wkey_eqb k (match dget wkey_eqb k acc with Some l => l ++ [d] | None => [d] end) acc))
  end.

(** PW l.94-120 *)
Definition group_devices_by_worker (ds : list device) : result (dict wkey (list device)) := group_devices ds [].

(** PT l.32-44 *)
Definition worker_key_sort_key (k : wkey) : wkey :=
  match k with
  | [t; s] => [s; t]
  | _ => k
  end.

(** The order of tuples: the first difference decides, a beginning comes first (PT l.130-133) *)
Fixpoint tuple_leb (a b : wkey) : bool :=
  match a, b with
  | [], _ => true
  | _ :: _, [] => false
  | x :: a', y :: b' => if x <? y then true else if y <? x then false else tuple_leb a' b'
  end.

(** PT l.84-98 *)
Record worker : Type := mkWorker { w_rank : nat; w_key : wkey; w_device_ids : list nat; w_representative : option device }.

(** PT l.111-144; the list of devices of a worker has a first one *)
Definition from_devices (ds : list device) : result (list worker) :=
  rmap (fun groups =>
    map (fun x => match x with
         | (rank, (k, l)) => mkWorker rank k (sort_list Nat.leb (map d_id l)) (hd_error l)
         end)
        (enumerate (sort_list (fun a b => tuple_leb (worker_key_sort_key (fst a)) (worker_key_sort_key (fst b))) groups)))
    (group_devices_by_worker ds).

(** PT l.151-154, CU l.83-97 *)
Definition distributed_to_device_ids (ws : list worker) : list (list nat) := map w_device_ids ws.

(** PT l.47-81 *)
Definition remap_nested_device_ids (nested : list (list nat)) (source target : list nat) : result (list (list nat)) :=
  if negb (length source =? length target) then Err ValueError
  else
    let target_of := dict_of Nat.eqb (combine source target) in
    if existsb (existsb (fun i => match dget Nat.eqb i target_of with Some _ => false | None => true end)) nested then Err ValueError
    else sequence (map (fun row => sequence (map (fun i => match dget Nat.eqb i target_of with Some j => Ok j | None => Err KeyError end) row)) nested).

(** PT l.156-170 *)
Definition remap_distributed_device_ids (ws : list worker) (source target : list device) : result (list (list nat)) :=
  remap_nested_device_ids (distributed_to_device_ids ws) (map d_id source) (map d_id target).

(** ** Slices *)

(** The second number of a key (PT l.210, l.261) *)
Definition key_slice (k : wkey) : nat := nth 1 k 0.

(** The first number of a key (PT l.217, l.264) *)
Definition key_task (k : wkey) : nat := nth 0 k 0.

(** [sorted({...})] (PT l.210, l.261) *)
Definition sorted_set (l : list nat) : list nat := sort_list Nat.leb (nodup Nat.eq_dec l).

(** The slices of the keys (PT l.210, l.261) *)
Definition slices_of (ks : list wkey) : list nat := sorted_set (map key_slice ks).

(** [tasks_by_slice[s]] (PT l.216-218), as a sorted list without repetitions *)
Definition tasks_of (ks : list wkey) (s : nat) : list nat := sorted_set (map key_task (filter (fun k => key_slice k =? s) ks)).

(** Equality of sets given as sorted lists without repetitions (PT l.223) *)
Definition same_tasks (a b : list nat) : bool := if list_eq_dec Nat.eq_dec a b then true else false.

(** PT l.190-229 *)
Definition validate_num_slices (ws : list worker) (num_slices : Z) : result unit :=
  if (num_slices <=? 0)%Z then Err ValueError
  else if length ws =? 0 then Err ValueError
  else if negb (Z.of_nat (length ws) mod num_slices =? 0)%Z then Err ValueError
  else if (num_slices =? 1)%Z then Ok tt
  else
    let ks := map w_key ws in
    if existsb (fun k => negb (length k =? 2)) ks then Err ValueError
    else if negb (Z.of_nat (length (slices_of ks)) =? num_slices)%Z then Err ValueError
    else
      let expected := tasks_of ks (hd 0 (slices_of ks)) in
      if existsb (fun s => negb (same_tasks (tasks_of ks s) expected)) (slices_of ks) then Err ValueError
      else Ok tt.

(** PT l.256-272; a key that is not a pair cannot be unpacked (PT l.264) *)
Definition peer_ranks_by_worker_key (ws : list worker) : result (list (list nat)) :=
  let ranks := dict_of wkey_eqb (map (fun w => (w_key w, w_rank w)) ws) in
  let slices := slices_of (map w_key ws) in
  sequence (map (fun w =>
    match w_key w with
    | [t; s] =>
      sequence (map (fun s' => match dget wkey_eqb [t; s'] ranks with Some r => Ok r | None => Err KeyError end)
                    (filter (fun s' => negb (s' =? s)) slices))
    | _ => Err ValueError
    end) ws).

(** PT l.231-245 *)
Definition peer_ranks_by_worker_rank (ws : list worker) (num_slices : Z) : result (list (list nat)) :=
  rbind (validate_num_slices ws num_slices) (fun _ =>
  if (num_slices =? 1)%Z then Ok (map (fun _ => []) ws) else peer_ranks_by_worker_key ws).

(** ** Steps *)

(** CU l.32 *)
Definition no_step : Z := 0%Z.

(** CU l.33 *)
Definition max_tracked : nat := 128.

(** SW l.312-324 *)
Definition all_steps (steps : list Z) : list Z :=
  let local := sort_list Z.leb steps in
  let local := skipn (length local - max_tracked) local in
  local ++ repeat no_step (max_tracked - length local).

(** The set of steps that a worker has reported (CC l.856-862) *)
Definition reported (a : list Z) : list Z := filter (fun s => negb (s =? no_step)%Z) a.

(** [max(l)] of a list that is not empty (CC l.875) *)
Fixpoint maximum (l : list Z) : option Z :=
  match l with
  | [] => None
  | x :: r => Some (match maximum r with Some y => Z.max x y | None => x end)
  end.

(** What CC l.850-894 make of the answers of the workers *)
Definition latest_common (arrays : list (list Z)) : option Z :=
  match map reported arrays with
  | [] => None
  | first :: rest => maximum (filter (fun s => forallb (existsb (Z.eqb s)) rest) first)
  end.

(** The loop of CC l.838-906: [attempts] has the time at which each attempt begins, and the answers of the workers or the error; it
    goes on as long as the clock allows *)
Fixpoint latest_step (deadline : Z) (attempts : list (Z * result (list (list Z)))) : result (option Z) :=
  match attempts with
  | [] => Err RuntimeError
  | (now, answer) :: r =>
    if (now <? deadline)%Z then
      match answer with
      | Ok arrays => Ok (latest_common arrays)
      | Err RuntimeError => latest_step deadline r
      | Err e => Err e
      end
    else Err RuntimeError
  end.

(** CU l.192-203, for truth values; there is always one (CU l.216-222) *)
Definition unanimous (values : list bool) : result bool :=
  match values with
  | [] => Err ValueError
  | v :: r => if forallb (Bool.eqb v) r then Ok v else Err RuntimeError
  end.

(** SW l.251-261; [rcm] is what the local manager says *)
Definition worker_should_save (rcm : Z -> bool) (step : Z) : bool := if (step =? no_step)%Z then false else rcm step.

(** CC l.908-922 *)
Definition should_save (workers : list (Z -> bool)) (step : Z) : result bool :=
  if (step =? no_step)%Z then Ok false else unanimous (map (fun rcm => worker_should_save rcm step) workers).

(** What a worker has: its steps, whether it wants a step, and whether its local manager does save a step that it is given (SW l.231) *)
Record side : Type := mkSide { s_steps : list Z; s_wants : Z -> bool; s_saves : Z -> bool -> bool }.

(** SW l.197-249: the answer, and the worker afterwards *)
Definition worker_save (w : side) (step : Z) (force : bool) : bool * side :=
  if (step =? no_step)%Z then (false, w)
  else (true, if s_saves w step force then mkSide (step :: s_steps w) (s_wants w) (s_saves w) else w).

(** CC l.936-1021 without asynchronous checkpointing, without dataset and without a save before: the answer, and the workers afterwards.
    What is returned is the unanimous answer of the workers (CC l.1016) *)
Definition controller_save (ws : list side) (step : Z) (force : bool) : result bool * list side :=
  if (step =? no_step)%Z then (Ok false, ws)
  else
    let go := (unanimous (map (fun w => fst (worker_save w step force)) ws), map (fun w => snd (worker_save w step force)) ws) in
    if force then go
    else match should_save (map s_wants ws) step with
         | Ok true => go
         | Ok false => (Ok false, ws)
         | Err e => (Err e, ws)
         end.

(** SW l.263-302: the step that a worker restores; a negative one means its latest (SW l.290) *)
Definition worker_restore (steps : list Z) (step : Z) : result Z :=
  if (step =? no_step)%Z then Err ValueError
  else if (step <? 0)%Z then match maximum steps with Some s => Ok s | None => Err FileNotFoundError end
  else if existsb (Z.eqb step) steps then Ok step else Err FileNotFoundError.

(** CC l.1061-1070: the step that the workers are asked to restore *)
Definition resolve_step (step : option Z) (latest : result (option Z)) : result Z :=
  rbind (match step with
         | Some s => Ok s
         | None => rbind latest (fun l => match l with Some s => Ok s | None => Err FileNotFoundError end)
         end) (fun s =>
  if (s =? no_step)%Z then Err ValueError else Ok s).

(** CC l.1061-1070 and SW l.263-302: the steps that the workers restore *)
Definition controller_restore (step : option Z) (latest : result (option Z)) (workers : list (list Z)) : result (list Z) :=
  rbind (resolve_step step latest) (fun s => sequence (map (fun steps => worker_restore steps s) workers)).

(** The loop of CC l.97-109; an operation changes the state and may fail *)
Fixpoint run_ops {S : Type} (ops : list (S -> S * result unit)) (s : S) (first_error : option err) : S * result unit :=
  match ops with
  | [] => (s, match first_error with Some e => Err e | None => Ok tt end)
  | op :: r =>
    let '(s', outcome) := op s in
    run_ops r s' (match outcome with
                  | Ok _ => first_error
                  | Err e => match first_error with Some f => Some f | None => Some e end
                  end)
  end.

(** CC l.95-109 *)
Definition run_lifecycle_ops {S : Type} (ops : list (S -> S * result unit)) (s : S) : S * result unit := run_ops ops s None.
