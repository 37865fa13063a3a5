(** Model of the metadata of shardings: how the sharding of an array is written beside a checkpoint, read back, and chosen when arrays are restored; and of shardings that are made for given devices.
    Sources: checkpoint/orbax/checkpoint/_src/metadata/sharding.py ("SM"), checkpoint/orbax/checkpoint/_src/serialization/jax_array_handlers.py ("JH"),
    checkpoint/orbax/checkpoint/_src/serialization/tensorstore_utils.py ("TS"), checkpoint/orbax/checkpoint/_src/serialization/serialization.py ("SZ"),
    checkpoint/orbax/checkpoint/_src/handlers/standard_checkpoint_handler.py ("SH"), checkpoint/orbax/checkpoint/checkpoint_utils.py ("CU"),
    checkpoint/orbax/checkpoint/_src/arrays/sharding.py ("AR").
    Of jax are modelled: Mesh and NamedSharding refuse (ValueError) meshes whose names, shape, types and devices do not fit and specs with axes that are unknown or used twice; PartitionSpec turns sequences of names into tuples, and
    a sequence of one name into the name. A text of json is its value as read (tuples are lists then), or no json, or empty. Strings are their bytes in utf-8. The json driver of tensorstore reads and writes one member of the file.
    Simplifications: entries of other json types than the writer gives are OtherError. Not modelled: PartitionSpec.UNCONSTRAINED and unreduced axes, abstract meshes, layouts, the extension of specs for random keys (JH l.1048-1070), logging. *)
From Coq Require Import List Bool Arith ZArith String Ascii.
From Verif Require Import Base.
Import ListNotations.
Local Open Scope string_scope.
Local Open Scope list_scope.

(** ** What jax has *)

(** [jax.sharding.AxisType] (SM l.30) *)
Inductive axis_type : Type := Auto | Explicit | Manual.

(** A device: [id], [str(device)], the process that it belongs to (SM l.65-68, l.291, l.297) *)
Record device : Type := mkDevice { d_id : Z; d_str : string; d_process : nat }.

(** An element of a PartitionSpec (SM l.31) *)
Inductive elem : Type := ENone | EAxis (a : string) | EAxes (l : list string).

(** A mesh: its devices are in row-major order (SM l.197-203, l.212-216) *)
Record mesh : Type := mkMesh { m_names : list string; m_shape : list nat; m_types : list axis_type; m_devices : list device }.

(** A sharding with its memory kind, of one of the two supported classes or of another (SM l.338-347) *)
Inductive sharding : Type := SNamed (m : mesh) (spec : list elem) (memory : option string) | SSingle (d : device) (memory : option string) | SOther (n : nat).

(** What is there: [jax.devices()] and the number of this process (SM l.124, l.297) *)
Record env : Type := mkEnv { e_devices : list device; e_process : nat }.

(** The product of a shape (SM l.213) *)
Definition prod (shape : list nat) : nat := fold_right Nat.mul 1 shape.

(** Whether all are different (in the constructor of jax.sharding.Mesh, SM l.212) *)
Fixpoint distinct (l : list string) : bool := match l with [] => true | x :: l' => negb (existsb (String.eqb x) l') && distinct l' end.

(** [jax.sharding.Mesh] of devices reshaped (SM l.212-216); without types all axes are Auto *)
Definition make_mesh (devices : list device) (shape : list nat) (names : list string) (types : option (list axis_type)) : result mesh :=
  let types := match types with Some t => t | None => map (fun _ => Auto) names end in
  if Nat.eqb (List.length devices) (prod shape) && Nat.eqb (List.length names) (List.length shape) && Nat.eqb (List.length types) (List.length names) && distinct names
  then Ok (mkMesh names shape types devices) else Err ValueError.

(** The axes in an element (in the constructor of jax.sharding.NamedSharding, SM l.211) *)
Definition axes (e : elem) : list string := match e with ENone => [] | EAxis a => [a] | EAxes l => l end.

(** [jax.sharding.NamedSharding] (SM l.211-218, JH l.969) *)
Definition make_named (m : mesh) (spec : list elem) : result sharding :=
  let used := flat_map axes spec in
  if forallb (fun a => existsb (String.eqb a) (m_names m)) used && distinct used then Ok (SNamed m spec None) else Err ValueError.

(** ** Values of python and texts of json *)

(** The values that occur (SM l.252-262) *)
Inductive py : Type := PNone | PInt (z : Z) | PStr (s : string) | PList (l : list py) | PTuple (l : list py) | PDict (d : list (string * py)).

(** A text: empty, not json, or json with its value (SM l.262, l.352) *)
Inductive text : Type := Empty | Garbage | Json (v : py).

(** What [json.loads] gives for what [json.dumps] made of the value (SM l.262, l.352) *)
Fixpoint reload (v : py) : py :=
  match v with
  | PNone => PNone | PInt z => PInt z | PStr s => PStr s
  | PList l => PList (map reload l)
  | PTuple l => PList (map reload l)
  | PDict d => PDict (map (fun kv => (fst kv, reload (snd kv))) d)
  end.

(** [json.dumps] (SM l.262, l.323) *)
Definition dumps (v : py) : text := Json (reload v).

(** [json.loads]; JSONDecodeError is a ValueError (SM l.352) *)
Definition loads (t : text) : result py := match t with Json v => Ok v | _ => Err ValueError end.

(** [dict.get] (SM l.232, l.235) *)
Fixpoint get {A : Type} (k : string) (d : list (string * A)) : option A :=
  match d with [] => None | (k', v) :: d' => if String.eqb k k' then Some v else get k d' end.

(** ** Metadata *)

(** Nested sequences of DeviceMetadata (SM l.78) *)
Inductive nest : Type := Dev (id : Z) | Nest (l : list nest).

(** NamedShardingMetadata (SM l.182-191) *)
Record named : Type := mkNamed { n_shape : list nat; n_names : list string; n_spec : list py; n_types : option (list axis_type); n_mesh : option nest }.

(** The two classes of metadata (SM l.178-335) *)
Inductive meta : Type := MNamed (n : named) | MSingle (device_str : string).

(** [n] pieces of [k] elements (SM l.106) *)
Fixpoint pieces {A : Type} (k n : nat) (l : list A) : list (list A) :=
  match n with O => [] | S n' => firstn k l :: pieces k n' (skipn k l) end.

(** [devices.tolist()] as metadata: SM l.105-113 *)
Fixpoint nested (shape : list nat) (ids : list Z) : nest :=
  match shape with
  | [] => Dev (hd 0%Z ids)
  | n :: shape' => Nest (map (nested shape') (pieces (prod shape') n ids))
  end.

(** The ids in a mesh of devices in row-major order (SM l.213) *)
Fixpoint flat (n : nest) : list Z := match n with Dev i => [i] | Nest l => flat_map flat l end.

(** An element of a spec as a value (SM l.31, l.201) *)
Definition py_of_elem (e : elem) : py := match e with ENone => PNone | EAxis a => PStr a | EAxes l => PTuple (map PStr l) end.

(** SM l.193-203, l.287-291 and l.338-347 from_jax_sharding *)
Definition from_jax (s : sharding) : option meta :=
  match s with
  | SNamed m spec _ => Some (MNamed (mkNamed (m_shape m) (m_names m) (map py_of_elem spec) (Some (m_types m)) (Some (nested (m_shape m) (map d_id (m_devices m))))))
  | SSingle d _ => Some (MSingle (d_str d))
  | SOther _ => None
  end.

(** The names in a sequence (used in [jax.sharding.PartitionSpec], SM l.217) *)
Fixpoint strings (l : list py) : result (list string) :=
  match l with [] => Ok [] | PStr s :: l' => rmap (cons s) (strings l') | _ :: _ => Err OtherError end.

(** An element given to [jax.sharding.PartitionSpec] (SM l.217) *)
Definition elem_of_py (v : py) : result elem :=
  match v with
  | PNone => Ok ENone
  | PStr s => Ok (EAxis s)
  | PList l | PTuple l => rmap (fun names => match names with [a] => EAxis a | _ => EAxes names end) (strings l)
  | _ => Err OtherError
  end.

(** The device with the id, the last one of the list (SM l.123-136) *)
Definition device_of (e : env) (id : Z) : result device :=
  match find (fun d => Z.eqb (d_id d) id) (rev (e_devices e)) with Some d => Ok d | None => Err ValueError end.

(** [str.replace] for a pattern that is not empty (SM l.296, l.299) *)
Fixpoint replace_go (old new : string) (skip : nat) (s : string) : string :=
  match s with
  | EmptyString => EmptyString
  | String c s' =>
      match skip with
      | S k => replace_go old new k s'
      | O => if prefix old s then new ++ replace_go old new (Nat.pred (String.length old)) s' else String c (replace_go old new 0 s')
      end
  end.

(** The name of a device as it is compared (SM l.296, l.299, l.333-334) *)
Definition norm (s : string) : string := replace_go "TFRT_CPU_" "cpu:" 0 s.

(** SM l.205-218, l.293-304 to_jax_sharding *)
Definition to_jax (e : env) (m : meta) : result sharding :=
  match m with
  | MNamed n =>
      rbind (match n_mesh n with Some d => sequence (map (device_of e) (flat d)) | None => Ok (e_devices e) end) (fun devices =>
      rbind (make_mesh devices (n_shape n) (n_names n) (n_types n)) (fun mesh =>
      rbind (sequence (map elem_of_py (n_spec n))) (fun spec => make_named mesh spec)))
  | MSingle s =>
      match find (fun d => String.eqb (norm (d_str d)) (norm s)) (rev (filter (fun d => Nat.eqb (d_process d) (e_process e)) (e_devices e))) with
      | Some d => Ok (SSingle d None)
      | None => Err ValueError
      end
  end.

(** [str] of an axis type (SM l.30, l.258) *)
Definition axis_str (t : axis_type) : string := match t with Auto => "AxisType.Auto" | Explicit => "AxisType.Explicit" | Manual => "AxisType.Manual" end.

(** [_AXIS_TYPE_MAP] (SM l.30) *)
Definition axis_of (s : string) : result axis_type :=
  match find (fun t => String.eqb (axis_str t) s) [Auto; Explicit; Manual] with Some t => Ok t | None => Err KeyError end.

(** [dataclasses.asdict] of a mesh of devices (SM l.261) *)
Fixpoint py_of_nest (n : nest) : py := match n with Dev i => PDict [("id", PInt i)] | Nest l => PList (map py_of_nest l) end.

(** SM l.252-262, l.319-323 to_serialized_string *)
Definition to_string (m : meta) : text :=
  match m with
  | MNamed n => dumps (PDict (
      [("sharding_type", PStr "NamedSharding"); ("shape", PList (map (fun k => PInt (Z.of_nat k)) (n_shape n))); ("axis_names", PList (map PStr (n_names n)))] ++
      (match n_types n with Some t => [("axis_types", PList (map (fun a => PStr (axis_str a)) t))] | None => [] end) ++
      [("partition_spec", PTuple (n_spec n))] ++
      (match n_mesh n with Some d => [("device_mesh", PDict [("mesh", py_of_nest d)])] | None => [] end)))
  | MSingle s => dumps (PDict [("sharding_type", PStr "SingleDeviceSharding"); ("device_str", PStr s)])
  end.

(** SM l.80-88 DeviceMetadataMesh.from_dict on the nested sequences *)
Fixpoint nest_of_py (v : py) : result nest :=
  match v with
  | PDict d => match get "id" d with Some (PInt i) => Ok (Dev i) | _ => Err OtherError end
  | PList l => rmap Nest (sequence (map nest_of_py l))
  | _ => Err TypeError
  end.

(** A shape that was read (SM l.229) *)
Definition nats (l : list py) : result (list nat) :=
  sequence (map (fun v => match v with PInt z => if Z.leb 0 z then Ok (Z.to_nat z) else Err OtherError | _ => Err OtherError end) l).

(** The types of the axes that were read: [None] when there are none (SM l.231-233) *)
Definition read_types (d : list (string * py)) : result (option (list axis_type)) :=
  match get "axis_types" d with
  | None | Some PNone | Some (PList []) => Ok None
  | Some (PList l) => rbind (strings l) (fun names => rmap Some (sequence (map axis_of names)))
  | Some _ => Err OtherError
  end.

(** The mesh of devices that was read (SM l.235-238, l.82) *)
Definition read_mesh (d : list (string * py)) : result (option nest) :=
  match get "device_mesh" d with
  | None | Some PNone | Some (PDict []) => Ok None
  | Some (PDict dm) => match get "mesh" dm with Some v => rmap Some (nest_of_py v) | None => Err KeyError end
  | Some _ => Err OtherError
  end.

(** SM l.221-250 NamedShardingMetadata.from_deserialized_dict *)
Definition read_named (d : list (string * py)) : result meta :=
  match get "shape" d, get "axis_names" d, get "partition_spec" d with
  | Some shape, Some names, Some spec =>
      match shape, names, spec with
      | PList shape, PList names, PList spec =>
          rbind (nats shape) (fun shape => rbind (strings names) (fun names => rbind (read_types d) (fun types => rbind (read_mesh d) (fun dm =>
          Ok (MNamed (mkNamed shape names spec types dm))))))
      | _, _, _ => Err OtherError
      end
  | _, _, _ => Err ValueError
  end.

(** SM l.307-317 SingleDeviceShardingMetadata.from_deserialized_dict *)
Definition read_single (d : list (string * py)) : result meta :=
  match get "device_str" d with
  | Some (PStr s) => Ok (MSingle s)
  | None | Some PNone => Err ValueError
  | Some _ => Err OtherError
  end.

(** SM l.350-373 from_serialized_string *)
Definition from_string (t : text) : result meta :=
  rbind (loads t) (fun v =>
    match v with
    | PDict d =>
        match get "sharding_type" d with
        | None => Err KeyError
        | Some (PStr s) =>
            if String.eqb s "NamedSharding" then read_named d
            else if String.eqb s "SingleDeviceSharding" then read_single d
            else if String.eqb s "PositionalSharding" then Err ValueError
            else Err NotImplementedError
        | Some _ => Err NotImplementedError
        end
    | _ => Err TypeError
    end).

(** SM l.376-380 get_sharding_or_none: ValueErrors are logged *)
Definition get_or_none (e : env) (t : text) : result (option sharding) :=
  match rbind (from_string t) (to_jax e) with
  | Ok s => Ok (Some s)
  | Err ValueError => Ok None
  | Err x => Err x
  end.

(** ** The file of shardings *)

(** The alphabet of [base64.urlsafe_b64encode] (TS l.708) *)
Definition alphabet : string := "ABCDEFGHIJKLMNOPQRSTUVWXYZabcdefghijklmnopqrstuvwxyz0123456789-_".

(** The character for six bits, the highest first (TS l.708) *)
Definition char6 (a b c d e f : bool) : ascii :=
  let v (x : bool) : nat := if x then 1 else 0 in
  match String.get (v f + 2 * (v e + 2 * (v d + 2 * (v c + 2 * (v b + 2 * v a))))) alphabet with Some x => x | None => "="%char end.

(** [base64.urlsafe_b64encode] (TS l.708); the bits of an [Ascii] are given from the lowest to the highest *)
Fixpoint base64 (s : string) : string :=
  match s with
  | EmptyString => EmptyString
  | String (Ascii a0 a1 a2 a3 a4 a5 a6 a7) EmptyString => String (char6 a7 a6 a5 a4 a3 a2) (String (char6 a1 a0 false false false false) "==")
  | String (Ascii a0 a1 a2 a3 a4 a5 a6 a7) (String (Ascii b0 b1 b2 b3 b4 b5 b6 b7) EmptyString) =>
      String (char6 a7 a6 a5 a4 a3 a2) (String (char6 a1 a0 b7 b6 b5 b4) (String (char6 b3 b2 b1 b0 false false) "="))
  | String (Ascii a0 a1 a2 a3 a4 a5 a6 a7) (String (Ascii b0 b1 b2 b3 b4 b5 b6 b7) (String (Ascii c0 c1 c2 c3 c4 c5 c6 c7) s')) =>
      String (char6 a7 a6 a5 a4 a3 a2) (String (char6 a1 a0 b7 b6 b5 b4) (String (char6 b3 b2 b1 b0 c7 c6) (String (char6 c5 c4 c3 c2 c1 c0) (base64 s'))))
  end.

(** The file [_sharding]: the members by their keys, or no file (JH l.62, TS l.702-713) *)
Definition file : Type := option (list (string * text)).

(** Write one member; the file is made if it is not there (JH l.187-198) *)
Definition put (k : string) (t : text) (f : file) : file :=
  let d := match f with Some d => d | None => [] end in
  Some ((k, t) :: filter (fun kv => negb (String.eqb (fst kv) k)) d).

(** JH l.165-201 _async_serialize_shardings; only the primary host writes *)
Fixpoint write_shardings (primary : bool) (items : list (option sharding * string)) (f : file) : file :=
  match items with
  | [] => f
  | (s, name) :: items' =>
      let f' := match s with
        | None => f
        | Some s => if primary then match from_jax s with Some m => put (base64 name) (to_string m) f | None => f end else f
        end in
      write_shardings primary items' f'
  end.

(** Read one member; what is not there is read as empty (JH l.988-996, l.1399-1403) *)
Definition read_member (name : string) (f : file) : text :=
  match f with None => Empty | Some d => match get (base64 name) d with Some t => t | None => Empty end end.

(** ** Restoring *)

(** Restore arguments: ArrayRestoreArgs with mesh, axes and sharding (of jax or metadata), or others (JH l.963-974) *)
Inductive rarg : Type := RArray (m : option mesh) (spec : option (list elem)) (s : option (sharding + meta)) | RPlain.

(** One round of JH l.962-1005 *)
Definition deserialize_sharding (e : env) (f : file) (name : option string) (a : rarg) : result (option sharding) :=
  match a with
  | RArray (Some m) (Some spec) _ => rmap Some (make_named m spec)
  | RArray _ _ (Some (inr md)) => rmap Some (to_jax e md)
  | RArray _ _ (Some (inl s)) => Ok (Some s)
  | _ =>
      match f with
      | None => Err ValueError
      | Some _ =>
          match name with
          | None => Err ValueError
          | Some name => match read_member name f with Empty => Ok None | t => get_or_none e t end
          end
      end
  end.

(** JH l.955-1006 _deserialize_shardings with SZ l.413-417: an array without a sharding is refused *)
Definition restore_shardings (e : env) (f : file) (items : list (option string * rarg)) : result (list sharding) :=
  rbind (sequence (map (fun it => deserialize_sharding e f (fst it) (snd it)) items)) (fun l =>
  sequence (map (fun o => match o with Some s => Ok s | None => Err ValueError end) l)).

(** JH l.1353-1415: the shardings in ArrayHandler.metadata *)
Definition metadata (f : file) (names : list (option string)) : result (list (option meta)) :=
  match f with
  | None => Ok (map (fun _ => None) names)
  | Some _ => sequence (map (fun n =>
      match n with
      | None => Ok None
      | Some name => match read_member name f with Empty => Ok None | t => rmap Some (from_string t) end
      end) names)
  end.

(** A leaf of the metadata of a checkpoint: ArrayMetadata with its sharding, scalars, strings (SH l.350-365, CU l.536-551) *)
Inductive leaf : Type := LArray (s : option meta) | LScalar | LString.

(** A leaf of the target: jax.ShapeDtypeStruct, jax.Array, a leaf of metadata, numpy.ndarray, other standard types, str, placeholder, others (CU l.525-566) *)
Inductive target : Type := TStruct (s : option sharding) | TJax (s : sharding) | TMeta (l : leaf) | TNumpy | TScalar | TStr | TPlaceholder | TUnknown.

(** SH l.350-365 _get_sharding_from_metadata_leaf *)
Definition from_leaf (e : env) (fallback : option sharding) (l : leaf) : result (option (sharding + meta)) :=
  match l with
  | LArray (Some md) =>
      match to_jax e md with
      | Ok s => Ok (Some (inl s))
      | Err ValueError => match fallback with Some s => Ok (Some (inl s)) | None => Err ValueError end
      | Err x => Err x
      end
  | _ => Ok None
  end.

(** SH l.367-397 _get_sharding_for_target_leaf; the metadata are given by their paths; the metadata of a scalar have the attribute, without a sharding *)
Definition for_target (e : env) (fallback : option sharding) (saved : list (string * leaf)) (path : string) (t : target) : result (option (sharding + meta)) :=
  let from_saved := match get path saved with Some l => from_leaf e fallback l | None => Err ValueError end in
  match t with
  | TStruct (Some s) => Ok (Some (inl s))
  | TJax s => Ok (Some (inl s))
  | TMeta (LArray (Some md)) => Ok (Some (inr md))
  | TStruct None | TMeta (LArray None) | TMeta LScalar => from_saved
  | _ => Ok None
  end.

(** What a leaf is restored as: numpy, jax.Array with a sharding, a scalar, a string, nothing (CU l.525-566) *)
Inductive goal : Type := GNumpy | GJax (s : option (sharding + meta)) | GScalar | GString | GNothing.

(** CU l.525-566 _restore_args *)
Definition restore_args (t : target) (s : option (sharding + meta)) : result goal :=
  match t with
  | TStruct _ | TMeta (LArray _) => Ok (match s with None => GNumpy | Some _ => GJax s end)
  | TMeta LString | TStr => Ok GString
  | TMeta LScalar | TScalar => Ok GScalar
  | TNumpy => Ok GNumpy
  | TJax _ => Ok (GJax s)
  | TPlaceholder => Ok GNothing
  | TUnknown => Err ValueError
  end.

(** SH l.399-412 with a target; leaves are given by their paths *)
Definition args_for_target (e : env) (fallback : option sharding) (saved : list (string * leaf)) (tree : list (string * target)) : result (list goal) :=
  rbind (sequence (map (fun pt => for_target e fallback saved (fst pt) (snd pt)) tree)) (fun shs =>
  sequence (map (fun p => restore_args (snd (fst p)) (snd p)) (combine tree shs))).

(** SH l.399-412 without a target: the metadata are the target *)
Definition args_without_target (e : env) (fallback : option sharding) (saved : list (string * leaf)) : result (list goal) :=
  rbind (sequence (map (fun pl => from_leaf e fallback (snd pl)) saved)) (fun shs =>
  sequence (map (fun p => restore_args (TMeta (snd (fst p))) (snd p)) (combine saved shs))).

(** ** Shardings made for given devices *)

(** AR l.38-39 _partition_axis_name *)
Definition axis_name (offset : nat) : string := String (ascii_of_nat (97 + offset)) EmptyString.

(** One round of AR l.69-84: the dimension [i] with its size; [None] is the end of the loop. State: devices left, sizes of mesh axes, the axis of each dimension *)
Definition partition_step (size i : nat) (st : nat * list nat * list (nat * string)) : nat * list nat * list (nat * string) :=
  let '(rest, shape, parts) := st in
  if Nat.ltb size rest then st
  else let g := Nat.gcd size rest in
    if Nat.eqb g 1 then st
    else (Nat.div rest g, shape ++ [g], parts ++ [(i, axis_name (List.length shape))]).

(** AR l.69-84: the loop over the dimensions in the order given; it stops when one device is left *)
Fixpoint partition_loop (shape order : list nat) (st : nat * list nat * list (nat * string)) : nat * list nat * list (nat * string) :=
  match order with
  | [] => st
  | i :: order' => if Nat.eqb (fst (fst st)) 1 then st else partition_loop shape order' (partition_step (nth i shape 0) i st)
  end.

(** AR l.42-107 _construct_maximal_sharding; [order] is [np.argsort(shape)] reversed, [all] is [jax.device_count()] *)
Definition maximal (all : nat) (devices : list device) (shape order : list nat) : result sharding :=
  let replicated := rbind (make_mesh devices [List.length devices] ["a"] None) (fun m => make_named m []) in
  match shape with
  | [] => replicated
  | _ =>
      if Nat.ltb (fold_right Nat.max 0 shape) all then replicated
      else
        let '(rest, ms, parts) := partition_loop shape order (List.length devices, [], []) in
        let ms' := if Nat.ltb 1 rest then ms ++ [rest] else ms in
        let spec := map (fun i => match find (fun p => Nat.eqb (fst p) i) parts with Some p => EAxis (snd p) | None => ENone end) (seq 0 (List.length shape)) in
        rbind (make_mesh devices ms' (map axis_name (seq 0 (List.length ms'))) None) (fun m => make_named m spec)
  end.
