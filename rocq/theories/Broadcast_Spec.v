(** Vocabulary of the statements about the broadcast of one replica to all. *)
From Coq Require Import List Bool Arith ZArith String SpecFloat.
From Verif Require Import Base Broadcast_Model.
Import ListNotations.

(** Bytes of a leaf on one device. *)
Definition bytes (a : array) : Z := Z.of_nat (fold_right Nat.mul 1 (shard_shape a) * itemsize a).

(** Bytes of several leaves. *)
Definition total (l : list array) : Z := fold_right Z.add 0%Z (map bytes l).

(** A division of the leaves into batches, none empty and each within the limit unless it is
    a single leaf beyond it. *)
Definition legal (limit : Z) (tree : list array) (p : list (list array)) : Prop :=
  List.concat p = tree /\ Forall (fun b => b <> [] /\ ((total b <= limit)%Z \/ exists x, b = [x] /\ (limit < bytes x)%Z)) p.

(** The number without the sign of a zero. *)
Definition unsigned (v : value) : value := match v with VFloat (S754_zero _) => VFloat (S754_zero false) | _ => v end.

(** A number of the dtype. *)
Definition typed (d : dtype) (v : value) : Prop :=
  match d with Float _ _ => exists f, v = VFloat f | _ => exists z, v = VInt z end.

(** The shard that replica [r] has at place [i]. *)
Definition shard_at (rows : list (list (list value))) (r i : nat) (s : list value) : Prop :=
  exists row, nth_error rows r = Some row /\ nth_error row i = Some s.

(** All replicas have shards of the same sizes at [places] places. *)
Definition uniform (a : array) (n places : nat) : Prop :=
  List.length (inputs a) = n /\ (forall row, In row (inputs a) -> List.length row = places) /\
  forall r q i s t, shard_at (inputs a) r i s -> shard_at (inputs a) q i t -> List.length s = List.length t.

(** Whether the device of replica [r] at place [i] is a source. *)
Definition is_source (sources : list (list bool)) (r i : nat) (b : bool) : Prop :=
  exists row, nth_error sources r = Some row /\ nth_error row i = Some b.

(** There is a flag for every place of every replica. *)
Definition flags (sources : list (list bool)) (n places : nat) : Prop :=
  List.length sources = n /\ forall row, In row sources -> List.length row = places.

(** The widest integers. *)
Definition kept (x64 : bool) (d : dtype) : Prop :=
  match d with
  | Float _ _ => True
  | Bool => False
  | Int b | UInt b => (if x64 then 64 else 32) <= b
  end.

(** The axes of the mesh that an entry of a spec stands for. *)
Definition used (e : entry) : list string := match e with NoAxis => [] | Axis a => [a] | Axes l => l end.

(** A spec that uses no axis twice, and not the axis of the replicas. *)
Definition proper_spec (axis : string) (s : list entry) : Prop := NoDup (axis :: flat_map used s).

(** An array that can be broadcast to [n] replicas. *)
Definition good (axis : string) (n places : nat) (a : array) : Prop :=
  proper_spec axis (spec a) /\ uniform a n places /\ forall r i s v, shard_at (inputs a) r i s -> In v s -> typed (dt a) v.

(** What the replicas have afterwards: at a place with one source its shard, at a place
    without source zeros. *)
Definition received (sources : list (list bool)) (n places : nat) (a : array) (sh : shared) : Prop :=
  sh_spec sh = spec a /\ List.length (shards sh) = places /\
  (forall q i s, shard_at (inputs a) q i s -> is_source sources q i true -> (forall r, is_source sources r i true -> r = q) ->
     nth_error (shards sh) i = Some (map unsigned s)) /\
  (forall q i s, shard_at (inputs a) q i s -> (forall r, ~ is_source sources r i true) ->
     nth_error (shards sh) i = Some (repeat (match dt a with Float _ _ => VFloat (S754_zero false) | _ => VInt 0 end) (List.length s))).
