(** Model of the legacy msgpack format of checkpoints.
    Sources: checkpoint/orbax/checkpoint/msgpack_utils.py ("MP"), checkpoint/orbax/checkpoint/aggregate_handlers.py ("AG").
    The bytes that the msgpack library makes of a message are not modelled: a packed message is the message ([mval]), and an extension holds the message that its bytes are made of.
    What the library refuses is modelled: types other than its own, which go to the default function (MP l.216, [strict_types]), integers of more than 64 bits, byte strings that are too long ([fits]),
    and when unpacking map keys that are not strings ([strict_map_key], which is on unless it is turned off, MP l.232-233). Texts are byte strings, floats are numbers. *)
From Coq Require Import List Bool Arith ZArith NArith Ascii String.
From Verif Require Import Base StepName_Model.
Import ListNotations.
Local Open Scope string_scope.
Local Open Scope list_scope.
Local Open Scope nat_scope.

(** ** Values *)

(** A numpy dtype: its name, its size in bytes, is its byte order not that of the machine, has it objects, is it an aligned struct (MP l.41-44) *)
Record dtype : Type := mkD { d_name : string; d_size : nat; d_swapped : bool; d_object : bool; d_aligned : bool }.

(** An array: its shape, its dtype and its elements in C order, each as the bytes it has in the byte order of the machine (MP l.37-45) *)
Record array : Type := mkA { a_shape : list nat; a_dtype : dtype; a_elts : list (list nat) }.

(** Keys of a dict (MP l.216) *)
Inductive key : Type := KStr (s : string) | KInt (z : Z).

(** What a tree is made of: [VArr true] is a jax.Array and [VArr false] a numpy array, [VScalar] is a numpy scalar with its array of no dimensions, [VTuple true] a named tuple; [VOther] is anything else (MP l.77-99) *)
Inductive val : Type :=
| VNone | VBool (b : bool) | VInt (z : Z) | VFloat (f : N) | VComplex (re im : N) | VStr (s : string) | VBytes (b : list nat)
| VArr (jax : bool) (a : array) | VScalar (a : array) | VList (l : list val) | VTuple (named : bool) (l : list val) | VDict (d : list (key * val)) | VOther.

(** A message (MP l.216, l.232) *)
Inductive mval : Type :=
| MNil | MBool (b : bool) | MInt (z : Z) | MFloat (f : N) | MStr (s : string) | MBin (b : list nat) | MArr (l : list mval) | MMap (d : list (key * mval)) | MExt (code : nat) (m : mval).

(** ** Arrays as messages *)

(** The bytes of an array in C order, as they are in memory (MP l.44) *)
Definition tobytes (a : array) : list nat := List.concat (map (fun e => if d_swapped (a_dtype a) then rev e else e) (a_elts a)).

(** MP l.37-45; [fits] says which lengths of byte strings the library takes *)
Definition ndarray_to_bytes (fits : nat -> bool) (a : array) : result mval :=
  if d_object (a_dtype a) || d_aligned (a_dtype a) then Err ValueError
  else if fits (List.length (tobytes a))
  then Ok (MArr [MArr (map (fun n => MInt (Z.of_nat n)) (a_shape a)); MStr (d_name (a_dtype a)); MBin (tobytes a)])
  else Err ValueError.

(** Pieces of the same size (MP l.59-62) *)
Fixpoint pieces (fuel n : nat) (l : list nat) : list (list nat) :=
  match fuel with
  | O => []
  | S f => match l with [] => [] | _ => firstn n l :: pieces f n (skipn n l) end
  end.

(** [numpy.frombuffer] (MP l.59-62): elements of the size of the dtype, that must fill the buffer *)
Definition frombuffer (d : dtype) (b : list nat) : result (list (list nat)) :=
  if (d_size d =? 0) || negb (Nat.modulo (List.length b) (d_size d) =? 0) then Err ValueError
  else Ok (map (fun e => if d_swapped d then rev e else e) (pieces (List.length b) (d_size d) b)).

(** The number of elements of a shape (MP l.62) *)
Definition count (shape : list nat) : nat := fold_right Nat.mul 1 shape.

(** [reshape] (MP l.62, l.165) *)
Definition reshape (shape : list nat) (d : dtype) (elts : list (list nat)) : result array :=
  if count shape =? List.length elts then Ok (mkA shape d elts) else Err ValueError.

(** A shape of a message (MP l.58); numpy would work out one negative number in it, which the writer never writes: it is refused here (a simplification) *)
Definition shape_of (l : list mval) : result (list nat) := sequence (map (fun m => match m with MInt z => if (z <? 0)%Z then Err ValueError else Ok (Z.to_nat z) | _ => Err TypeError end) l).

(** MP l.48-62: [names] gives the dtype of a name *)
Definition ndarray_from_bytes (names : string -> option dtype) (m : mval) : result array :=
  match m with
  | MArr [MArr sh; MStr name; MBin b] =>
    match names name with
    | None => Err TypeError
    | Some d => rbind (frombuffer d b) (fun elts => rbind (shape_of sh) (fun shape => reshape shape d elts))
    end
  | _ => Err ValueError
  end.

(** ** Packing and unpacking *)

(** MP l.65-70 *)
Definition ndarray_code : nat := 1.
(** MP l.65-70 *)
Definition complex_code : nat := 2.
(** MP l.65-70 *)
Definition scalar_code : nat := 3.
(** MP l.65-70 *)
Definition tuple_code : nat := 4.

(** 64 bits, with or without a sign (MP l.216) *)
Definition int_fits (z : Z) : bool := ((- 2 ^ 63 <=? z) && (z <? 2 ^ 64))%Z.

(** MP l.73-100 with [packb] (MP l.216) *)
Fixpoint pack (fits : nat -> bool) (v : val) : result mval :=
  match v with
  | VNone => Ok MNil
  | VBool b => Ok (MBool b)
  | VInt z => if int_fits z then Ok (MInt z) else Err ValueError
  | VFloat f => Ok (MFloat f)
  | VComplex re im => Ok (MExt complex_code (MArr [MFloat re; MFloat im]))
  | VStr s => if fits (String.length s) then Ok (MStr s) else Err ValueError
  | VBytes b => if fits (List.length b) then Ok (MBin b) else Err ValueError
  | VArr _ a => rmap (MExt ndarray_code) (ndarray_to_bytes fits a)
  | VScalar a => rmap (MExt scalar_code) (ndarray_to_bytes fits a)
  | VList l => rmap MArr (sequence (map (pack fits) l))
  | VTuple _ l => rmap (fun r => MExt tuple_code (MArr r)) (sequence (map (pack fits) l))
  | VDict d => rmap MMap (sequence (map (fun kv => rmap (pair (fst kv)) (pack fits (snd kv))) d))
  | VOther => Err ValueError
  end.

(** MP l.103-119 with [unpackb] (MP l.114-116, l.232-233) *)
Fixpoint unpack (names : string -> option dtype) (m : mval) : result val :=
  match m with
  | MNil => Ok VNone
  | MBool b => Ok (VBool b)
  | MInt z => Ok (VInt z)
  | MFloat f => Ok (VFloat f)
  | MStr s => Ok (VStr s)
  | MBin b => Ok (VBytes b)
  | MArr l => rmap VList (sequence (map (unpack names) l))
  | MMap d => rmap VDict (sequence (map (fun kv => match fst kv with KStr s => rmap (pair (KStr s)) (unpack names (snd kv)) | KInt _ => Err ValueError end) d))
  | MExt code p =>
    if code =? ndarray_code then rmap (VArr false) (ndarray_from_bytes names p)
    else if code =? complex_code then match p with MArr (MFloat re :: MFloat im :: _) => Ok (VComplex re im) | _ => Err TypeError end
    else if code =? scalar_code then rmap VScalar (ndarray_from_bytes names p)
    else if code =? tuple_code then match p with MArr l => rmap (VTuple false) (sequence (map (unpack names) l)) | _ => Err TypeError end
    else Err ValueError
  end.

(** ** Chunks *)

(** MP l.132-142, the jax arrays of a dict become numpy arrays; lists and tuples are not looked at *)
Fixpoint convert (v : val) : val :=
  match v with
  | VDict d => VDict (map (fun kv => (fst kv, match snd kv with VArr _ a => VArr false a | VDict _ => convert (snd kv) | x => x end)) d)
  | VArr _ a => VArr false a
  | x => x
  end.

(** [str] of a number (MP l.145-146) *)
Definition num (i : nat) : string := string_of_list_ascii (dec (N.of_nat i)).

(** MP l.145 *)
Definition tuple_to_dict (l : list val) : val := VDict (combine (map (fun i => KStr (num i)) (seq 0 (List.length l))) l).

(** Equality of keys (MP l.146) *)
Definition key_eqb (a b : key) : bool := match a, b with KStr x, KStr y => String.eqb x y | KInt x, KInt y => Z.eqb x y | _, _ => false end.
(** MP l.146 *)
Fixpoint lookup (k : key) (d : list (key * val)) : option val := match d with [] => None | (k', v) :: r => if key_eqb k k' then Some v else lookup k r end.

(** MP l.146 *)
Definition dict_to_tuple (v : val) : result (list val) :=
  match v with
  | VDict d => sequence (map (fun i => match lookup (KStr (num i)) d with Some x => Ok x | None => Err KeyError end) (seq 0 (List.length d)))
  | _ => Err TypeError
  end.

(** MP l.152 *)
Definition marker : string := "__msgpack_chunked_array__".

(** Chunks of a flat array (MP l.154-155) *)
Fixpoint chunks (fuel n : nat) (d : dtype) (elts : list (list nat)) : list val :=
  match fuel with
  | O => []
  | S f => match elts with [] => [] | _ => VArr false (mkA [List.length (firstn n elts)] d (firstn n elts)) :: chunks f n d (skipn n elts) end
  end.

(** MP l.149-157; the division of floats is that of numbers *)
Definition chunk (mx : nat) (a : array) : val :=
  let n := Nat.max 1 (mx / d_size (a_dtype a)) in
  VDict [(KStr marker, VBool true); (KStr "shape", tuple_to_dict (map (fun k => VInt (Z.of_nat k)) (a_shape a))); (KStr "chunks", tuple_to_dict (chunks (List.length (a_elts a)) n (a_dtype a) (a_elts a)))].

(** The size of an array in bytes (MP l.173, l.178) *)
Definition nbytes (a : array) : nat := List.length (a_elts a) * d_size (a_dtype a).

(** MP l.168-180; jax arrays have been converted *)
Fixpoint chunk_leaves (mx : nat) (v : val) : val :=
  match v with
  | VDict d => VDict (map (fun kv => (fst kv, match snd kv with VArr false a => if mx <? nbytes a then chunk mx a else snd kv | VDict _ => chunk_leaves mx (snd kv) | x => x end)) d)
  | VArr false a => if mx <? nbytes a then chunk mx a else v
  | x => x
  end.

(** [numpy.concatenate] of arrays with one dimension and the same dtype (MP l.164) *)
Definition concatenate (l : list val) : result (dtype * list (list nat)) :=
  match l with
  | VArr _ a :: _ =>
    if forallb (fun v => match v with VArr _ b => (List.length (a_shape b) =? 1) && String.eqb (d_name (a_dtype b)) (d_name (a_dtype a)) | _ => false end) l
    then Ok (a_dtype a, List.concat (map (fun v => match v with VArr _ b => a_elts b | _ => [] end) l))
    else Err ValueError
  | _ => Err ValueError
  end.

(** The value of a name (MP l.163-164) *)
Definition field (name : string) (d : list (key * val)) : result val := match lookup (KStr name) d with Some x => Ok x | None => Err KeyError end.

(** MP l.160-165 *)
Definition unchunk (d : list (key * val)) : result val :=
  rbind (field "shape" d) (fun s => rbind (dict_to_tuple s) (fun dims =>
  rbind (field "chunks" d) (fun c => rbind (dict_to_tuple c) (fun l =>
  rbind (concatenate l) (fun e =>
  rbind (sequence (map (fun v => match v with VInt z => if (z <? 0)%Z then Err ValueError else Ok (Z.to_nat z) | _ => Err TypeError end) dims)) (fun shape =>
  rmap (VArr false) (reshape shape (fst e) (snd e)))))))).

(** Is this the dict of a chunked array (MP l.186, l.190) *)
Definition is_chunked (d : list (key * val)) : bool := match lookup (KStr marker) d with Some _ => true | None => false end.

(** MP l.183-194 *)
Fixpoint unchunk_leaves (v : val) : result val :=
  match v with
  | VDict d =>
    if is_chunked d then unchunk d
    else rmap VDict (sequence (map (fun kv => rmap (pair (fst kv)) (match snd kv with VDict e => if is_chunked e then unchunk e else unchunk_leaves (snd kv) | x => Ok x end)) d))
  | x => Ok x
  end.

(** ** Saving and restoring *)

(** [jax.tree.map] makes dicts with sorted keys, and needs keys that can be compared (MP l.213) *)
Definition key_leb (a b : key) : bool := match a, b with KStr x, KStr y => String.leb x y | KInt x, KInt y => (x <=? y)%Z | _, _ => false end.
(** MP l.213 *)
Fixpoint insert_key (x : key * val) (d : list (key * val)) : list (key * val) := match d with [] => [x] | y :: r => if key_leb (fst x) (fst y) then x :: d else y :: insert_key x r end.
(** MP l.213 *)
Definition sort_keys (d : list (key * val)) : list (key * val) := fold_right insert_key [] d.
(** All keys of one type (MP l.213) *)
Definition comparable (d : list (key * val)) : bool := forallb (fun kv => match fst kv with KStr _ => true | KInt _ => false end) d || forallb (fun kv => match fst kv with KStr _ => false | KInt _ => true end) d.

(** MP l.213 *)
Fixpoint copy (v : val) : result val :=
  match v with
  | VList l => rmap VList (sequence (map copy l))
  | VTuple n l => rmap (VTuple n) (sequence (map copy l))
  | VDict d => if comparable d then rmap (fun r => VDict (sort_keys r)) (sequence (map (fun kv => rmap (pair (fst kv)) (copy (snd kv))) d)) else Err ValueError
  | x => Ok x
  end.

(** MP l.197-216; [mx] is MAX_CHUNK_SIZE (MP l.129) *)
Definition serialize (mx : nat) (fits : nat -> bool) (in_place : bool) (v : val) : result mval :=
  rbind (if in_place then Ok v else copy v) (fun c => pack fits (chunk_leaves mx (convert c))).

(** MP l.219-234 *)
Definition restore (names : string -> option dtype) (m : mval) : result val := rbind (unpack names m) unchunk_leaves.

(** The tree of the caller afterwards: dicts are changed in place, of a tree that is an array itself only what is returned is changed (MP l.213-215) *)
Definition caller_after (mx : nat) (in_place : bool) (v : val) : val :=
  if in_place then match v with VDict _ => chunk_leaves mx (convert v) | x => x end else v.

(** ** The handler *)

(** AG l.71-94: only the primary host writes; [serializable] is the tree as nested dicts (AG l.84-86) *)
Definition handler_serialize (mx : nat) (fits : nat -> bool) (primary rich : bool) (serializable : val) (file : option mval) : result (option mval) :=
  if primary then if rich then Err NotImplementedError else rmap Some (serialize mx fits false serializable) else Ok file.

(** AG l.96-102 *)
Definition handler_deserialize (names : string -> option dtype) (file : option mval) : result val := match file with Some m => restore names m | None => Err FileNotFoundError end.
