(** What saving in the msgpack format is held to: written without the functions of the model that pack, chunk or restore. *)
From Coq Require Import List Bool Arith ZArith NArith String Permutation Sorting.Sorted.
From Verif Require Import Base Msgpack_Model.
Import ListNotations.
Local Open Scope nat_scope.

(** An array as numpy has them: as many elements as its shape says, each with the bytes of the dtype, and dimensions of 64 bits *)
Definition proper (a : array) : Prop :=
  List.length (a_elts a) = fold_right Nat.mul 1 (a_shape a) /\ Forall (fun e => List.length e = d_size (a_dtype a)) (a_elts a) /\ Forall (fun n => (Z.of_nat n < 2 ^ 64)%Z) (a_shape a).

(** A dtype that its name tells: no objects, no struct, in the byte order of the machine *)
Definition plain_dtype (names : string -> option dtype) (d : dtype) : Prop :=
  0 < d_size d /\ d_object d = false /\ d_aligned d = false /\ d_swapped d = false /\ names (d_name d) = Some d.

(** The bytes of an array *)
Definition bytes_of (a : array) : nat := List.length (a_elts a) * d_size (a_dtype a).

(** A tree that can be stored; [top] holds for what is reached from the root by dicts alone *)
Inductive storable (mx : nat) (fits : nat -> bool) (names : string -> option dtype) : bool -> val -> Prop :=
| s_none : forall top, storable mx fits names top VNone
| s_bool : forall top b, storable mx fits names top (VBool b)
| s_int : forall top z, (- 2 ^ 63 <= z < 2 ^ 64)%Z -> storable mx fits names top (VInt z)
| s_float : forall top f, storable mx fits names top (VFloat f)
| s_complex : forall top re im, storable mx fits names top (VComplex re im)
| s_str : forall top s, fits (String.length s) = true -> storable mx fits names top (VStr s)
| s_bytes : forall top b, fits (List.length b) = true -> storable mx fits names top (VBytes b)
| s_arr : forall (top : bool) j a, proper a -> plain_dtype names (a_dtype a) -> (if top then d_size (a_dtype a) <= mx else fits (bytes_of a) = true) -> storable mx fits names top (VArr j a)
| s_scalar : forall top a, proper a -> plain_dtype names (a_dtype a) -> fits (bytes_of a) = true -> storable mx fits names top (VScalar a)
| s_list : forall top l, Forall (storable mx fits names false) l -> storable mx fits names top (VList l)
| s_tuple : forall top n l, Forall (storable mx fits names false) l -> storable mx fits names top (VTuple n l)
| s_dict : forall (top : bool) d, (top = true -> ~ In (KStr "__msgpack_chunked_array__") (map fst d)) -> Forall (fun kv => exists s, fst kv = KStr s) d -> Forall (fun kv => storable mx fits names top (snd kv)) d -> storable mx fits names top (VDict d).

(** What comes back: arrays of numpy for those of jax, tuples for named tuples *)
Fixpoint plain (v : val) : val :=
  match v with
  | VArr _ a => VArr false a
  | VList l => VList (map plain l)
  | VTuple _ l => VTuple false (map plain l)
  | VDict d => VDict (map (fun kv => (fst kv, plain (snd kv))) d)
  | x => x
  end.

(** The order of keys *)
Definition key_before (x y : key * val) : Prop := match fst x, fst y with KStr a, KStr b => String.leb a b = true | KInt a, KInt b => (a <= b)%Z | _, _ => False end.

(** What comes back, with the keys of dicts in order *)
Inductive stored : val -> val -> Prop :=
| st_leaf : forall v, match v with VArr _ _ | VList _ | VTuple _ _ | VDict _ => False | _ => True end -> stored v v
| st_arr : forall j a, stored (VArr j a) (VArr false a)
| st_list : forall l r, Forall2 stored l r -> stored (VList l) (VList r)
| st_tuple : forall n l r, Forall2 stored l r -> stored (VTuple n l) (VTuple false r)
| st_dict : forall d d' e, Permutation d d' -> Forall2 (fun x y => fst x = fst y /\ stored (snd x) (snd y)) d' e -> StronglySorted key_before e -> stored (VDict d) (VDict e).

(** The byte strings of a message, by their length *)
Inductive sent : mval -> nat -> Prop :=
| sn_bin : forall b, sent (MBin b) (List.length b)
| sn_arr : forall l m n, In m l -> sent m n -> sent (MArr l) n
| sn_map : forall d k m n, In (k, m) d -> sent m n -> sent (MMap d) n
| sn_ext : forall c m n, sent m n -> sent (MExt c m) n.

(** Nested dicts of arrays *)
Inductive array_tree (mx : nat) : val -> Prop :=
| at_arr : forall j a, Forall (fun e => List.length e = d_size (a_dtype a)) (a_elts a) -> 0 < d_size (a_dtype a) <= mx -> array_tree mx (VArr j a)
| at_dict : forall d, Forall (fun kv => array_tree mx (snd kv)) d -> array_tree mx (VDict d).

(** A tree with a leaf that is never sent: something of another type, an integer of more than 64 bits, an array of objects *)
Inductive unfit : val -> Prop :=
| u_other : unfit VOther
| u_int : forall z, ~ (- 2 ^ 63 <= z < 2 ^ 64)%Z -> unfit (VInt z)
| u_arr : forall j a, d_object (a_dtype a) = true \/ d_aligned (a_dtype a) = true -> unfit (VArr j a)
| u_scalar : forall a, d_object (a_dtype a) = true \/ d_aligned (a_dtype a) = true -> unfit (VScalar a)
| u_list : forall l x, In x l -> unfit x -> unfit (VList l)
| u_tuple : forall n l x, In x l -> unfit x -> unfit (VTuple n l)
| u_dict : forall d k x, In (k, x) d -> unfit x -> unfit (VDict d).

(** Keys in order: texts among texts, numbers among numbers *)
Definition key_le (a b : key) : Prop := match a, b with KStr x, KStr y => String.leb x y = true | KInt x, KInt y => (x <= y)%Z | _, _ => False end.
