(** Model of the batches that fit in a memory budget per worker.
    Source: checkpoint/orbax/checkpoint/_src/serialization/worker_memory_utils.py
    ("WMU").  The device-to-worker map (WMU l.171-176) is an argument; infos and
    args travel with the array and are left out, as is logging.  The generator is
    modelled by the list of what it yields. *)
From Coq Require Import ZArith List Bool.
From Verif Require Import Base.
Import ListNotations.
Local Open Scope Z_scope.

(** What is read of an array: bytes of a shard (WMU l.103-105), and device and
    replica id of each global shard (WMU l.106-110). *)
Record array : Type := mk_array { shard_bytes : Z; shards : list (Z * Z) }.

(** A dict from workers to bytes, or from devices to workers (WMU l.102, l.172). *)
Definition table : Type := list (Z * Z).

(** [d[k]], KeyError if absent (WMU l.109). *)
Fixpoint lookup (d : table) (k : Z) : result Z :=
  match d with
  | [] => Err KeyError
  | (k', v) :: r => if k' =? k then Ok v else lookup r k
  end.

(** [d[k]] for a defaultdict(int) (WMU l.128). *)
Fixpoint get0 (d : table) (k : Z) : Z :=
  match d with
  | [] => 0
  | (k', v) :: r => if k' =? k then v else get0 r k
  end.

(** [d[k] += x] for a defaultdict(int) (WMU l.110). *)
Fixpoint add_to (d : table) (k x : Z) : table :=
  match d with
  | [] => [(k, x)]
  | (k', v) :: r => if k' =? k then (k', v + x) :: r else (k', v) :: add_to r k x
  end.

(** The loop of WMU l.106-110. *)
Fixpoint estimate_loop (size : Z) (replica_id : option Z) (workers : table) (l : list (Z * Z)) (usage : table) : result table :=
  match l with
  | [] => Ok usage
  | (dev, rep) :: r =>
      if match replica_id with Some i => negb (rep =? i) | None => false end
      then estimate_loop size replica_id workers r usage
      else rbind (lookup workers dev) (fun w => estimate_loop size replica_id workers r (add_to usage w size))
  end.

(** WMU l.85-111 _estimate_worker_memory_usage *)
Definition estimate (replica_id : option Z) (workers : table) (a : array) : result table :=
  estimate_loop (shard_bytes a) replica_id workers (shards a) [].

(** WMU l.114-130 _increment_worker_memory_usage: only the workers already there. *)
Definition increment (replica_id : option Z) (workers : table) (a : array) (usage : table) : result table :=
  rmap (fun e => map (fun p => (fst p, snd p + get0 e (fst p))) usage) (estimate replica_id workers a).

(** WMU l.133-140 _is_array_under_memory_budget *)
Definition under_budget (budget : Z) (usage : table) : bool :=
  forallb (fun p => negb (budget <=? snd p)) usage.

(** [set(d.values())] (WMU l.184). *)
Fixpoint distinct (l : list Z) : list Z :=
  match l with
  | [] => []
  | x :: r => if existsb (Z.eqb x) r then distinct r else x :: distinct r
  end.

(** WMU l.183-184 _no_worker_memory_usage *)
Definition no_usage (workers : table) : table := map (fun w => (w, 0)) (distinct (map snd workers)).

(** The loop of WMU l.193-225 and the end, l.227-236. *)
Fixpoint batch_loop (budget : Z) (replica_id : option Z) (workers : table) (l : list array)
  (batch : list array) (usage : table) : result (list (list array)) :=
  match l with
  | [] => Ok (match batch with [] => [] | _ => [batch] end)
  | a :: r =>
      rbind (increment replica_id workers a usage) (fun inc =>
        if under_budget budget inc then batch_loop budget replica_id workers r (batch ++ [a]) inc
        else match batch with
             | [] => Err AssertionError
             | _ => rbind (increment replica_id workers a (no_usage workers)) (fun fresh =>
                    rmap (cons batch) (batch_loop budget replica_id workers r [a] fresh))
             end)
  end.

(** WMU l.152-236 next_memory_budgeted_batch; with a dispatcher all replicas
    count (WMU l.177-181).  Without parameters the result of zip cannot be unpacked. *)
Definition batches (params : list array) (budget : Z) (replica_id : option Z) (dispatcher : bool) (workers : table)
  : result (list (list array)) :=
  let rid := if dispatcher then None else replica_id in
  match params with
  | [] => Err ValueError
  | a :: r => rbind (estimate rid workers a) (fun u => batch_loop budget rid workers r [a] u)
  end.
