(** Model of the choice of the slices of a sharded array that a process writes.
    Source: checkpoint/orbax/checkpoint/_src/serialization/replica_slices.py ("RS").
    A jax.Array is given by what the code reads of it: global shape, item size,
    memory kind, the index of every device, and the addressable shards of the
    process.  Metrics and logging are left out; so are devices and copies. *)
From Coq Require Import ZArith List Bool.
From Verif Require Import Base Nd_Model Fragment_Model Slice_Model.
Import ListNotations.
Local Open Scope Z_scope.

Section Replica.
(** Elements of the arrays (RS l.73). *)
Variable V : Type.

(** jax.Shard (RS l.275-280, l.311-331): index, replica_id, data. *)
Record shard : Type := mk_shard { sh_index : list pslice; sh_replica : Z; sh_data : arr V }.

(** SliceArgs (RS l.43-53). *)
Record sargs : Type := mk_sargs { sa_start : Z; sa_limit : Z; sa_axis : nat }.

(** ReplicaSlice (RS l.56-79). *)
Record rslice : Type := mk_rslice { rs_index : list pslice; rs_data : arr V; rs_args : option sargs }.

(** ReplicaSlices (RS l.112-123). *)
Record rslices : Type := mk_rslices { r_global : list Z; r_local : list Z; r_list : list rslice }.

(** The [i]th element of a tuple (RS l.319). *)
Definition at_axis (i : nat) (l : list Z) : Z := nth i l 0.

(** jax.lax.slice_in_dim (RS l.102-107) for bounds inside the dimension. *)
Definition slice_in_dim (a : arr V) (start limit : Z) (axis : nat) : arr V :=
  mk_arr (set_nth axis (limit - start) (ashape a))
         (fun c => aget a (set_nth axis (at_axis axis c + start) c)).

(** RS l.86-107 data(); bounds outside the dimension are refused by lax with a
    TypeError. *)
Definition rs_value (r : rslice) : result (arr V) :=
  match rs_args r with
  | None => Ok (rs_data r)
  | Some s =>
      if (Nat.ltb (sa_axis s) (List.length (ashape (rs_data r))))
         && (0 <=? sa_start s) && (sa_start s <=? sa_limit s)
         && (sa_limit s <=? at_axis (sa_axis s) (ashape (rs_data r)))
      then Ok (slice_in_dim (rs_data r) (sa_start s) (sa_limit s) (sa_axis s))
      else Err TypeError
  end.

(** math.prod (RS l.138). *)
Definition prod (l : list Z) : Z := fold_right Z.mul 1 l.

(** One term of the sum of RS l.135-147. *)
Definition slice_nbytes (local_shape : list Z) (itemsize : Z) (r : rslice) : Z :=
  match rs_args r with
  | None => prod local_shape * itemsize
  | Some s => prod (set_nth (sa_axis s) (sa_limit s - sa_start s) local_shape) * itemsize
  end.

(** RS l.131-148 nbytes *)
Definition nbytes (rs : rslices) (itemsize : Z) : Z :=
  fold_right Z.add 0 (map (slice_nbytes (r_local rs) itemsize) (r_list rs)).

(** Equality of hashable indices (RS l.203-205). *)
Definition key_eqb (a b : list (Z * Z * Z)) : bool :=
  shape_eqb (map (fun t => fst (fst t)) a) (map (fun t => fst (fst t)) b)
  && shape_eqb (map (fun t => snd (fst t)) a) (map (fun t => snd (fst t)) b)
  && shape_eqb (map snd a) (map snd b).

(** [counts[k]] after the loop of RS l.204-205. *)
Definition count_key (k : list (Z * Z * Z)) (ks : list (list (Z * Z * Z))) : Z :=
  Z.of_nat (List.length (filter (key_eqb k) ks)).

(** RS l.174-208 _sharding_num_replicas; [indices] are the values of
    devices_indices_map.  [next] on an empty dict raises StopIteration. *)
Definition num_replicas (indices : list (list pslice)) (shape : list Z) : result Z :=
  rbind (sequence (map (fun i => to_hashable_index (NTuple (map ISlice i)) (Some shape)) indices))
    (fun ks => match ks with
               | [] => Err OtherError
               | k :: _ => if forallb (fun j => count_key j ks =? count_key k ks) ks
                           then Ok (count_key k ks) else Err AssertionError
               end).

(** [next(i for i, n in enumerate(shape) if n % count == 0)] (RS l.222-227). *)
Fixpoint first_divisible (shape : list Z) (count : Z) : option nat :=
  match shape with
  | [] => None
  | n :: r => if n mod count =? 0 then Some O else option_map S (first_divisible r count)
  end.

(** RS l.211-233 calculate_replica_parallel_axis_and_local_shape; [shape0] is
    the shape of the first addressable shard. *)
Definition parallel_axis (replicas : result Z) (shape0 : list Z) (max_replicas : option Z)
  : result (option (nat * list Z * Z)) :=
  rbind replicas (fun n =>
    let count := match max_replicas with Some m => Z.min n m | None => n end in
    if (prod shape0 =? 0) || (count <=? 1) then Ok None
    else match first_divisible shape0 count with
         | None => Ok None
         | Some axis => Ok (Some (axis, set_nth axis (at_axis axis shape0 / count) shape0, count))
         end).

(** The part of the arguments every process has in common (RS l.236-242, and
    the properties of the array read at RS l.216-217, l.305-307, l.354-356). *)
Record cfg : Type := mk_cfg {
  c_replica_id : option Z; c_parallel : bool; c_min_bytes : option Z; c_max_replicas : option Z;
  c_global : list Z; c_itemsize : Z; c_pinned : bool; c_indices : list (list pslice) }.

(** RS l.269-281 pick_single_replica *)
Definition pick_single (id : option Z) (shard0 : shard) (shards : list shard) : list rslice * list Z :=
  let target := match id with Some r => r | None => sh_replica shard0 end in
  (map (fun s => mk_rslice (sh_index s) (sh_data s) None)
       (filter (fun s => sh_replica s =? target) shards),
   ashape (sh_data shard0)).

(** [a[:i] + (x,) + a[i+1:]] (RS l.328). *)
Definition replace_at {A : Type} (i : nat) (x : A) (l : list A) : list A :=
  firstn i l ++ [x] ++ skipn (S i) l.

(** The slice of one shard (RS l.319-333); the assertions of RS l.312 and
    l.322-322. *)
Definition parallel_slice (shape0 local : list Z) (axis : nat) (s : shard) : result rslice :=
  let size := at_axis axis local in
  match nth_error (sh_index s) axis with
  | None => Err IndexError
  | Some z =>
      let start := match ps_start z with Some a => a | None => 0 end in
      if negb (match ps_step z with None => true | Some _ => false end) then Err AssertionError
      else if negb (match ps_stop z with None => true | Some b => b =? start + at_axis axis (ashape (sh_data s)) end)
      then Err AssertionError
      else
        let so := sh_replica s * size in
        let eo := so + size in
        Ok (mk_rslice (replace_at axis (mk_ps (Some (start + so)) (Some (start + eo)) None) (sh_index s))
                      (sh_data s) (Some (mk_sargs so eo axis)))
  end.

(** The loop of RS l.311-334. *)
Fixpoint parallel_slices (shape0 local : list Z) (axis : nat) (count : Z) (shards : list shard)
  : result (list rslice) :=
  match shards with
  | [] => Ok []
  | s :: r =>
      if negb (shape_eqb (ashape (sh_data s)) shape0) then Err AssertionError
      else if count <=? sh_replica s then parallel_slices shape0 local axis count r
      else rbind (parallel_slice shape0 local axis s) (fun x =>
           rbind (parallel_slices shape0 local axis count r) (fun xs => Ok (x :: xs)))
  end.

(** RS l.288-336 maybe_pick_replica_parallel *)
Definition maybe_parallel (c : cfg) (shard0 : shard) (shards : list shard)
  : result (option (list rslice * list Z)) :=
  match c_replica_id c with
  | None => Err ValueError
  | Some _ =>
      let shape0 := ashape (sh_data shard0) in
      rbind (parallel_axis (num_replicas (c_indices c) (c_global c)) shape0 (c_max_replicas c)) (fun o =>
      match o with
      | None => Ok None
      | Some (axis, local, count) =>
          if prod local * c_itemsize c <? match c_min_bytes c with Some b => b | None => 0 end
          then Ok None
          else rmap (fun l => Some (l, local)) (parallel_slices shape0 local axis count shards)
      end)
  end.

(** RS l.352-359: small pinned host arrays are not sliced. *)
Definition safe_to_slice (c : cfg) (shape0 : list Z) : bool :=
  negb (c_pinned c)
  || (Nat.leb 2 (List.length (c_global c)) && (prod shape0 mod 1024 =? 0) && (last shape0 0 mod 128 =? 0)).

(** RS l.236-389 get_replica_slices, for the addressable shards of one process. *)
Definition get_replica_slices (c : cfg) (shards : list shard) : result rslices :=
  match shards with
  | [] => Err IndexError
  | shard0 :: _ =>
      rbind (if c_parallel c && safe_to_slice c (ashape (sh_data shard0))
             then maybe_parallel c shard0 shards else Ok None)
        (fun o =>
           let p := match o with Some p => p | None => pick_single (c_replica_id c) shard0 shards end in
           Ok (mk_rslices (c_global c) (snd p) (fst p)))
  end.

(** RS l.474-491: the slices on the host; the data is cut and the arguments go. *)
Definition on_host (rs : rslices) : result rslices :=
  rmap (mk_rslices (r_global rs) (r_local rs))
       (sequence (map (fun r => rmap (fun v => mk_rslice (rs_index r) v None) (rs_value r)) (r_list rs))).

(** A resolved slice as a row of an NpIndex (RS l.157-161). *)
Definition row (s : pslice) : sl :=
  mk_sl (match ps_start s with Some a => a | None => 0 end)
        (match ps_stop s with Some b => b | None => 0 end)
        (match ps_step s with Some k => k | None => 1 end).

(** One fragment (RS l.157-163). *)
Definition to_fragment (global : list Z) (r : rslice) : result (frag V) :=
  rbind (resolve_slice (NTuple (map ISlice (rs_index r))) global) (fun idx =>
  rmap (fun v => mk_frag (map row idx) (Some v)) (rs_value r)).

(** FRAG l.635-650 validate_fragments_can_be_stacked, on concrete fragments. *)
Definition same_shapes (l : list (frag V)) : bool :=
  match l with
  | [] => false
  | f :: _ =>
      let sh g := match f_value g with Some v => Some (ashape v) | None => None end in
      forallb (fun g => match sh f, sh g with Some a, Some b => shape_eqb a b | _, _ => false end) l
  end.

(** RS l.150-170 to_fragments *)
Definition to_fragments (rs : rslices) : result (frags V) :=
  rbind (sequence (map (to_fragment (r_global rs)) (r_list rs))) (fun l =>
    match l with
    | [] => Ok (mk_frags (r_global rs) [])
    | f :: _ =>
        if negb (same_shapes l) then Err ValueError
        else if negb (forallb is_degenerate l) && negb (shape_eqb (r_local rs) (f_shape f)) then Err AssertionError
        else Ok (mk_frags (r_global rs) l)
    end).

(** What one process writes (RS l.392-491 and l.150-170; SER l.203). *)
Definition process_fragments (c : cfg) (shards : list shard) : result (frags V) :=
  rbind (get_replica_slices c shards) (fun rs => rbind (on_host rs) to_fragments).

(** What all processes write, each from its own shards (RS l.392-491). *)
Definition save_all (c : cfg) (procs : list (list shard)) : result (list (frag V)) :=
  rmap (fun l => List.concat (map fs_list l)) (sequence (map (process_fragments c) procs)).
End Replica.

Arguments mk_shard {V}. Arguments sh_index {V}. Arguments sh_replica {V}. Arguments sh_data {V}.
Arguments mk_rslice {V}. Arguments rs_index {V}. Arguments rs_data {V}. Arguments rs_args {V}.
Arguments mk_rslices {V}. Arguments r_global {V}. Arguments r_local {V}. Arguments r_list {V}.
Arguments slice_in_dim {V}. Arguments rs_value {V}. Arguments slice_nbytes {V}. Arguments nbytes {V}.
Arguments pick_single {V}. Arguments parallel_slice {V}. Arguments parallel_slices {V}.
Arguments maybe_parallel {V}. Arguments get_replica_slices {V}. Arguments on_host {V}.
Arguments to_fragment {V}. Arguments same_shapes {V}. Arguments to_fragments {V}.
Arguments process_fragments {V}. Arguments save_all {V}.
