(** Model of the broadcast of one replica to all: the leaves are taken in batches that fit in
    memory, the source replica's shards are put beside zeros of the others, and the sum over
    the replicas is taken.
    Source: checkpoint/orbax/checkpoint/_src/multihost/multislice.py ("MS").
    Simplifications: what the processes do together is one function of the inputs of all
    replicas; a replica has a shard at every place of its part of the mesh (the layout of the
    mesh is in Mesh_Model).  Of jax are modelled: make_array_from_single_device_arrays
    puts the buffers together unchanged, the sum starts with zero, and the dtype of a sum of
    integers is the widest one.  Integers are unbounded, floats are those of
    Coq.Floats.SpecFloat.  Not modelled: deletion of the inputs (MS l.373), logging. *)
From Coq Require Import List Bool Arith ZArith String SpecFloat.
From Verif Require Import Base.
Import ListNotations.

(** The dtypes that matter for a sum (MS l.303) *)
Inductive dtype : Type :=
| Bool
| Int (bits : nat)
| UInt (bits : nat)
| Float (prec emax : Z).

(** A number (MS l.303); false and true are zero and one *)
Inductive value : Type :=
| VInt (z : Z)
| VFloat (f : spec_float).

(** An entry of a partition spec (MS l.237): no axis, an axis or several *)
Inductive entry : Type :=
| NoAxis
| Axis (a : string)
| Axes (l : list string).

(** The part of a [jax.Array] that is used, with the input of every replica: at each place of
    the replica a shard (MS l.214, l.250-258) *)
Record array : Type := mk_array {
  dt : dtype;
  itemsize : nat;
  shard_shape : list nat;
  spec : list entry;
  inputs : list (list (list value))
}.

(** MS l.157-160 *)
Definition get_leaf_memory_per_device (a : array) : nat := fold_right Nat.mul 1 (shard_shape a) * itemsize a.

(** MS l.163-168; reducing nothing is an error *)
Definition tree_memory_per_device (tree : list array) : result nat :=
  match tree with
  | [] => Err TypeError
  | x :: r => Ok (fold_left (fun s y => s + get_leaf_memory_per_device y) r (get_leaf_memory_per_device x))
  end.

(** MS l.32 *)
Definition MEMORY_FACTOR : Z := 3.

(** MS l.171-190; the scaling factor is a fraction, [int] cuts off towards zero *)
Definition get_available_memory (total_device_memory : Z) (tree : list array) (num den : Z) : result Z :=
  if (den <? num)%Z then Err ValueError
  else rbind (tree_memory_per_device tree) (fun used =>
    Ok (Z.quot ((total_device_memory - Z.of_nat used) * num) (den * MEMORY_FACTOR))).

(** The inner loop (MS l.358-364): the leaves taken and those left *)
Fixpoint fill (limit : Z) (current : nat) (l : list array) : list array * list array :=
  match l with
  | [] => ([], [])
  | x :: r =>
    if (Z.of_nat (current + get_leaf_memory_per_device x) <=? limit)%Z
    then let (a, b) := fill limit (current + get_leaf_memory_per_device x) r in (x :: a, b)
    else ([], l)
  end.

(** MS l.344-364 *)
Definition next_batch (limit : Z) (l : list array) : list array * list array :=
  match l with
  | [] => ([], [])
  | x :: r => if (limit <? Z.of_nat (get_leaf_memory_per_device x))%Z then ([x], r) else fill limit 0 l
  end.

(** The outer loop (MS l.343-380), with fuel *)
Fixpoint loop (fuel : nat) (limit : Z) (l : list array) : list (list array) :=
  match fuel, l with
  | 0, _ => []
  | _, [] => []
  | S f, _ => let (a, b) := next_batch limit l in a :: loop f limit b
  end.

(** MS l.339-380: as many rounds as there are leaves are enough *)
Definition batches (limit : Z) (tree : list array) : list (list array) := loop (List.length tree) limit tree.

(** [jnp.zeros] (MS l.273) *)
Definition zero_of (d : dtype) : value := match d with Float _ _ => VFloat (S754_zero false) | _ => VInt 0 end.

(** The sum of two numbers of one dtype (MS l.303) *)
Definition add (d : dtype) (x y : value) : value :=
  match d, x, y with
  | Float p e, VFloat a, VFloat b => VFloat (SFadd p e a b)
  | _, VInt a, VInt b => VInt (a + b)
  | _, _, _ => VInt 0
  end.

(** The dtype of a sum (MS l.303): integers are promoted to the widest type available *)
Definition sum_dtype (x64 : bool) (d : dtype) : dtype :=
  let widest := if x64 then 64 else 32 in
  match d with
  | Bool => Int widest
  | Int b => Int (max b widest)
  | UInt b => UInt (max b widest)
  | Float p e => Float p e
  end.

(** [replica_axis_name not in sharding.spec] (MS l.231) *)
Definition names_axis (axis : string) (e : entry) : bool := match e with Axis a => String.eqb a axis | _ => false end.

(** The axes that an entry uses (MS l.243-246) *)
Definition axes_of (e : entry) : list string := match e with NoAxis => [] | Axis a => [a] | Axes l => l end.

(** A spec may use an axis only once (MS l.246) *)
Definition named_sharding (s : list entry) : result (list entry) :=
  if List.length (nodup string_dec (flat_map axes_of s)) =? List.length (flat_map axes_of s) then Ok s else Err ValueError.

(** One buffer (MS l.260-276): the shard of a source, and zeros elsewhere *)
Definition buffer (d : dtype) (source : bool) (shard : list value) : list value :=
  if source then shard else repeat (zero_of d) (List.length shard).

(** MS l.213-289: spec and buffers at each place of each replica *)
Definition globalize (axis : string) (sources : list (list bool)) (a : array) : result (list entry * list (list (list value))) :=
  if existsb (names_axis axis) (spec a) then Err AssertionError
  else rbind (named_sharding (Axis axis :: spec a)) (fun s =>
    Ok (s, map (fun x => map (fun y => buffer (dt a) (fst y) (snd y)) (combine (fst x) (snd x))) (combine sources (inputs a)))).

(** Sum of two shards, elementwise (MS l.303) *)
Definition add_shards (d : dtype) (x y : list value) : list value := map (fun z => add d (fst z) (snd z)) (combine x y).

(** The sum over the replicas at each place (MS l.303); the shards have [sizes] *)
Definition sum_replicas (d : dtype) (sizes : list nat) (l : list (list (list value))) : list (list value) :=
  fold_left (fun acc row => map (fun z => add_shards d (fst z) (snd z)) (combine acc row)) l (map (repeat (zero_of d)) sizes).

(** An array that all replicas have: dtype, spec and the shard at each place (MS l.296-307) *)
Record shared : Type := mk_shared { sh_dt : dtype; sh_spec : list entry; shards : list (list value) }.

(** MS l.292-307 *)
Definition merge (x64 : bool) (a : array) (g : list entry * list (list (list value))) : shared :=
  mk_shared (sum_dtype x64 (dt a)) (tl (fst g)) (sum_replicas (dt a) (map (@List.length value) (hd [] (snd g))) (snd g)).

(** MS l.365-378 for one batch *)
Definition broadcast_batch (x64 : bool) (axis : string) (sources : list (list bool)) (batch : list array) : result (list shared) :=
  sequence (map (fun a => rmap (merge x64 a) (globalize axis sources a)) batch).

(** MS l.310-386 with a given limit; the number of broadcasts is the number of batches *)
Definition broadcast_one_replica_to_all (x64 : bool) (axis : string) (sources : list (list bool)) (limit : Z) (tree : list array) : result (list shared * nat) :=
  rmap (fun out => (List.concat out, List.length out)) (sequence (map (broadcast_batch x64 axis sources) (batches limit tree))).

(** MS l.332-334: without a given limit, the memory of the own device decides *)
Definition limit_or_available (limit : option Z) (total_device_memory : Z) (tree : list array) (num den : Z) : result Z :=
  match limit with Some l => Ok l | None => get_available_memory total_device_memory tree num den end.
