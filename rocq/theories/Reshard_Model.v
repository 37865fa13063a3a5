(** Model of writing fragments to, and reading shards from, a stored array.
    Source: checkpoint/orbax/checkpoint/_src/serialization/serialization.py ("SER").
    TensorStore is trusted to index, intersect domains, read and write as its
    documentation says; reads and writes are modelled one after the other, the
    byte limiter is modelled separately (C28).  Devices are numbers; layouts and
    memory kinds are left out. *)
From Coq Require Import ZArith List Bool.
From Verif Require Import Base Nd_Model Fragment_Model Slice_Model Replica_Model.
Import ListNotations.
Local Open Scope Z_scope.

Section Reshard.
(** Elements, and the element np.zeros fills with (SER l.261). *)
Variable V : Type.
Variable zero : V.

(** What is used of a ts.TensorStore (SER l.216-224): contents, item size, and
    for each dimension origin and size of the read chunks (None: not finite). *)
Record tensor : Type := mk_t { t_data : arr V; t_itemsize : Z; t_chunks : list (option (Z * Z)) }.

(** [t[fragment.index].write(value)] (SER l.193): the index has to lie inside the
    array. *)
Definition ts_write (a : arr V) (f : frag V) : result (arr V) :=
  match f_value f with
  | None => Err AssertionError
  | Some v =>
      if all2 (fun n s => (0 <=? sl_start s) && (sl_start s <=? sl_stop s) && (sl_stop s <=? n)) (ashape a) (f_index f)
      then setitem a (f_index f) v else Err IndexError
  end.

(** SER l.188-205: all fragments, in some order. *)
Fixpoint write_fragments (a : arr V) (fs : list (frag V)) : result (arr V) :=
  match fs with
  | [] => Ok a
  | f :: r => rbind (ts_write a f) (fun b => write_fragments b r)
  end.

(** t.domain (SER l.219, l.301). *)
Definition domain_of (shape : list Z) : list sl := map (fun n => mk_sl 0 n 1) shape.

(** [interval[slice]] of TensorStore (SER l.290, l.300), step 1: no counting from
    the end, and the interval has to be contained. *)
Definition ts_slice (s : pslice) (n : Z) : result sl :=
  let a := match ps_start s with Some a => a | None => 0 end in
  let b := match ps_stop s with Some b => b | None => n end in
  if (0 <=? a) && (a <=? b) && (b <=? n) then Ok (mk_sl a b 1) else Err IndexError.

(** [ts.IndexTransform(input_shape=shape)[index].domain] (SER l.300); dimensions
    without a slice are taken as a whole. *)
Definition index_domain (shape : list Z) (idx : list pslice) : result (list sl) :=
  if (List.length shape <? List.length idx)%nat then Err IndexError
  else rmap (fun l => l ++ domain_of (skipn (List.length idx) shape)) (sequence (map2 ts_slice idx shape)).

(** [t.domain.intersect(requested)] (SER l.301); an empty intersection is an empty
    interval at the larger origin. *)
Definition intersect_dom (d e : list sl) : result (list sl) :=
  if negb (Nat.eqb (List.length d) (List.length e)) then Err ValueError
  else Ok (map2 (fun s t => let lo := Z.max (sl_start s) (sl_start t) in
                            mk_sl lo (Z.max lo (Z.min (sl_stop s) (sl_stop t))) 1) d e).

(** Containment of domains, checked when a store is indexed by one (SER l.262-264). *)
Definition contains (outer inner : list sl) : bool :=
  Nat.eqb (List.length outer) (List.length inner)
  && all2 (fun o i => (sl_stop i <=? sl_start i) || ((sl_start o <=? sl_start i) && (sl_stop i <=? sl_stop o))) outer inner.

(** Is the coordinate in the domain? (SER l.264) *)
Definition in_dom (d : list sl) (c : list Z) : bool :=
  all2 (fun s x => (sl_start s <=? x) && (x <? sl_stop s)) d c.

(** SER l.212-244 estimate_read_memory_footprint *)
Definition footprint (t : tensor) (dom : option (list sl)) : Z :=
  let d := match dom with Some d => d | None => domain_of (ashape (t_data t)) end in
  if existsb (fun c => match c with None => true | Some _ => false end) (t_chunks t)
  then prod (map (fun s => sl_stop s - sl_start s) d) * t_itemsize t
  else fold_left Z.mul
         (map2 (fun c s =>
            match c with
            | Some (co, cs) =>
                let lower := sl_start s - co in
                let upper := sl_start s + (sl_stop s - sl_start s) - co in
                let lower_aligned := lower / cs * cs in
                let upper_aligned := - (- upper / cs) * cs in
                upper_aligned - lower_aligned
            | None => 0
            end) (t_chunks t) d)
         (t_itemsize t).

(** SER l.247-269 _read_shard *)
Definition read_shard (t : tensor) (new_shape : list Z) (cast : option (V -> V)) (req res : list sl)
  : result (arr V) :=
  let origin := map sl_start req in
  if negb (Nat.eqb (List.length new_shape) (List.length origin)) then Err ValueError
  else if negb (contains (map2 (fun o n => mk_sl o (o + n) 1) origin new_shape) res) then Err IndexError
  else if negb (contains (domain_of (ashape (t_data t))) res) then Err IndexError
  else
    let out ks := let p := map2 Z.add origin ks in
                  if in_dom res p then aget (t_data t) p else zero in
    Ok (mk_arr new_shape (match cast with None => out | Some f => fun ks => f (out ks) end)).

(** SER l.272-335 _read_array_index_and_device_put, for one index: the shard and
    the bytes; an error of the read is wrapped in an Exception. *)
Definition read_index (t : tensor) (shape new_shape : list Z) (cast : option (V -> V)) (strict : bool)
  (idx : list pslice) : result (arr V * Z) :=
  if existsb (fun s => match ps_step s with None => false | Some k => negb (k =? 1) end) idx then Err ValueError
  else
    rbind (if strict then
             if shape_eqb (ashape (t_data t)) shape
             then rmap (fun d => (d, d)) (index_domain shape idx)
             else Err ValueError
           else rbind (index_domain shape idx) (fun req =>
                rmap (fun res => (req, res)) (intersect_dom (domain_of (ashape (t_data t))) req)))
      (fun p =>
         let bytes := footprint t (Some (snd p)) in
         match read_shard t new_shape cast (fst p) (snd p) with
         | Ok a => Ok (a, bytes)
         | Err _ => Err OtherError
         end).

(** A jax sharding: the index of each device, and the addressable devices
    (SER l.338-341, l.359-360). *)
Record sharding : Type := mk_sg { sg_indices : list (Z * list pslice); sg_local : list Z }.

(** One step of SER l.359-363: the devices by index, in order of appearance. *)
Fixpoint add_device (k : list (Z * Z * Z)) (d : Z) (m : list (list (Z * Z * Z) * list Z))
  : list (list (Z * Z * Z) * list Z) :=
  match m with
  | [] => [(k, [d])]
  | (k', ds) :: r => if key_eqb k' k then (k', ds ++ [d]) :: r else (k', ds) :: add_device k d r
  end.

(** SER l.356-363 *)
Fixpoint group_devices (shape : list Z) (sg : sharding) (l : list (Z * list pslice))
  (m : list (list (Z * Z * Z) * list Z)) : result (list (list (Z * Z * Z) * list Z)) :=
  match l with
  | [] => Ok m
  | (d, idx) :: r =>
      if existsb (Z.eqb d) (sg_local sg)
      then rbind (to_hashable_index (NTuple (map ISlice idx)) (Some shape)) (fun k =>
           group_devices shape sg r (add_device k d m))
      else group_devices shape sg r m
  end.

(** SER l.344-391 _read_and_create_array: the array on each addressable device,
    and the bytes read. *)
Definition read_and_create (t : tensor) (shape new_shape : list Z) (sg : sharding)
  (cast : option (V -> V)) (strict : bool) : result (list (Z * arr V) * Z) :=
  rbind (group_devices shape sg (sg_indices sg) []) (fun m =>
  rbind (sequence (map (fun kd => rmap (fun ab => (map (fun d => (d, fst ab)) (snd kd), snd ab))
                                       (read_index t shape new_shape cast strict (from_hashable_index (fst kd)))) m))
    (fun l => Ok (List.concat (map fst l), fold_left Z.add (map snd l) 0))).

(** SER l.394-449 async_deserialize; [shard_shape] is the sharding's. *)
Definition deserialize (t : tensor) (global : option (list Z)) (shard_shape : list Z -> list Z)
  (sg : list Z -> sharding) (cast : option (V -> V)) (strict : bool) : result (list (Z * arr V) * Z) :=
  let shape := match global with Some s => s | None => ashape (t_data t) end in
  read_and_create t shape (shard_shape shape) (sg shape) cast strict.
End Reshard.

Arguments mk_t {V}. Arguments t_data {V}. Arguments t_itemsize {V}. Arguments t_chunks {V}.
Arguments ts_write {V}. Arguments write_fragments {V}. Arguments footprint {V}.
Arguments read_shard {V}. Arguments read_index {V}. Arguments read_and_create {V}. Arguments deserialize {V}.
