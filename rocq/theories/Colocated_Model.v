(** Model of the transport of values through colocated python: which CPU devices stand for ids, meshes and shardings moved to the CPU devices beside their devices, restore arguments and trees of specs moved so, zeros for a spec.
    Source: checkpoint/orbax/checkpoint/_src/multihost/colocated_transport.py ("CT").
    [cp.colocated_cpu_devices] is a function from devices to devices that is given from outside and applied to each device of a list or mesh. Shardings to and from their metadata are given from outside.
    Simplifications: the text of a device is ASCII; a pytree is the list of its leaves in order; the copy of an array by [jax.device_put] changes its sharding only; the devices of meshes are in row-major order.
    Not modelled: what jax's reducers write (a function given from outside), the lock of the PRNG wrapper (CT l.42-53), [make_scalar_array_like] (CT l.359-381), the cache of the map of devices (CT l.124), logging. *)
From Coq Require Import List Bool Arith NArith ZArith String Ascii.
From Verif Require Import Base StepName_Model Tree_Model.
Import ListNotations.
Local Open Scope string_scope.
Local Open Scope list_scope.
Local Open Scope nat_scope.

(** ** Devices *)

(** A device: the object itself (python compares devices by identity), its client, [id], platform, and [repr] (CT l.72, l.100, l.151) *)
Record dev : Type := mkDev { d_obj : nat; d_client : nat; d_id : N; d_platform : string; d_repr : list ascii }.

(** [existing != device] (CT l.151, l.162) *)
Definition dev_eqb (a b : dev) : bool := Nat.eqb (d_obj a) (d_obj b).

(** Whether it is a CPU (CT l.145, l.159, l.204) *)
Definition is_cpu (d : dev) : bool := String.eqb (d_platform d) "cpu".

(** The text before the id (CT l.36) *)
Definition marker : list ascii := list_ascii_of_string "PjRtIFRTDeviceId=".

(** The rest after a prefix, if the text has it (CT l.100) *)
Fixpoint after (p l : list ascii) : option (list ascii) :=
  match p, l with
  | [], _ => Some l
  | c :: p', x :: l' => if Ascii.eqb c x then after p' l' else None
  | _ :: _, [] => None
  end.

(** A digit (CT l.36) *)
Definition digit (c : ascii) : bool := match char_digit c with Some _ => true | None => false end.

(** The digits at the start (CT l.36) *)
Fixpoint lead (l : list ascii) : list ascii := match l with [] => [] | c :: l' => if digit c then c :: lead l' else [] end.

(** The group of a match at the start of the text (CT l.36, l.100) *)
Definition match_here (l : list ascii) : option (list ascii) :=
  match after marker l with
  | Some r => match lead r with [] => None | g => Some g end
  | None => None
  end.

(** [_PJRT_IFRT_DEVICE_ID_RE.search]: the group of the first match (CT l.100) *)
Fixpoint search (l : list ascii) : option (list ascii) :=
  match match_here l with
  | Some g => Some g
  | None => match l with [] => None | _ :: l' => search l' end
  end.

(** [_extract_pjrt_ifrt_device_id] (CT l.75-103) *)
Definition ifrt_id (d : dev) : option N := match search (d_repr d) with None => None | Some g => parse_digits 0 g end.

(** [_device_identity_key] is the same for both (CT l.70-72) *)
Definition same_key (a b : dev) : bool := Nat.eqb (d_client a) (d_client b) && N.eqb (d_id a) (d_id b) && String.eqb (d_platform a) (d_platform b).

(** [devices_by_key.setdefault(...)] for all devices (CT l.115-116, l.119-120) *)
Definition set_defaults (seen : list dev) (l : list dev) : list dev := fold_left (fun s d => if existsb (same_key d) s then s else s ++ [d]) l seen.

(** [_all_backend_devices]: of the default client, which is there if there are local devices, then of all backends (CT l.106-121) *)
Definition all_backend_devices (default : option (list dev)) (backends : list (list dev)) : list dev :=
  set_defaults (match default with Some l => set_defaults [] l | None => [] end) (List.concat backends).

(** The first loop of [_get_cpu_device_map] (CT l.144-156) *)
Fixpoint global_ids (m : dict N dev) (l : list dev) : result (dict N dev) :=
  match l with
  | [] => Ok m
  | d :: l' =>
      if negb (is_cpu d) then global_ids m l' else
      match ifrt_id d with
      | None => global_ids m l'
      | Some i =>
          match dget N.eqb i m with
          | Some e => if dev_eqb e d then global_ids (dput N.eqb i d m) l' else Err ValueError
          | None => global_ids (dput N.eqb i d m) l'
          end
      end
  end.

(** The second loop of [_get_cpu_device_map] (CT l.158-169) *)
Fixpoint local_ids (m : dict N dev) (l : list dev) : result (dict N dev) :=
  match l with
  | [] => Ok m
  | d :: l' =>
      if negb (is_cpu d) then local_ids m l' else
      match dget N.eqb (d_id d) m with
      | Some e => if dev_eqb e d then local_ids m l' else Err ValueError
      | None => local_ids (dput N.eqb (d_id d) d m) l'
      end
  end.

(** [_get_cpu_device_map] (CT l.125-171) *)
Definition cpu_device_map (l : list dev) : result (dict N dev) := rbind (global_ids [] l) (fun m => local_ids m l).

(** [resolve_colocated_cpu_devices] (CT l.174-197) *)
Definition resolve (l : list dev) (ids : list N) : result (list dev) :=
  rbind (cpu_device_map l) (fun m =>
    let missing := filter (fun i => match dget N.eqb i m with None => true | Some _ => false end) ids in
    match missing with
    | _ :: _ => Err ValueError
    | [] => sequence (map (fun i => match dget N.eqb i m with Some d => Ok d | None => Err KeyError end) ids)
    end).

(** ** Meshes, device lists and shardings *)

(** A mesh (CT l.200-211) *)
Record mesh : Type := mkMesh { m_names : list string; m_types : list nat; m_shape : list nat; m_devices : list dev }.

(** A sharding: of one device, named, or of another class (CT l.325-337) *)
Inductive sharding : Type := SSingle (d : dev) (memory : option string) | SNamed (m : mesh) (spec : list (list string)) (memory : option string) | SOther (n : nat).

(** [_to_serializable_cpu_device] (CT l.56-60) *)
Definition to_serializable (colo : dev -> dev) (d : dev) : dev := if is_cpu d then d else colo d.

(** [_normalize_device_list_to_colocated_cpu] (CT l.214-221) *)
Definition normalize_list (colo : dev -> dev) (l : list dev) : list dev := if forallb is_cpu l then l else map (to_serializable colo) l.

(** [_normalize_mesh_to_colocated_cpu] (CT l.200-211) *)
Definition normalize_mesh (colo : dev -> dev) (m : mesh) : mesh :=
  if forallb is_cpu (m_devices m) then m else mkMesh (m_names m) (m_types m) (m_shape m) (map (to_serializable colo) (m_devices m)).

(** [_normalize_single_device_sharding_to_colocated_cpu], of the device and the memory kind (CT l.224-232) *)
Definition normalize_single (colo : dev -> dev) (s : dev * option string) : dev * option string := if is_cpu (fst s) then s else (to_serializable colo (fst s), snd s).

(** The reducers of jax's serialization and the flag; [R] is what they give, and the lookup is that of jax or the one above (CT l.35, l.263-298) *)
Record hooks (R : Type) : Type := mkHooks { h_installed : bool; h_mesh : mesh -> R; h_list : list dev -> R; h_single : dev * option string -> R; h_map : list dev -> result (dict N dev) }.
Arguments mkHooks {R}.
Arguments h_installed {R}.
Arguments h_mesh {R}.
Arguments h_list {R}.
Arguments h_single {R}.
Arguments h_map {R}.

(** [install_pathways_colocated_serialization_patch] (CT l.235-298) *)
Definition install {R : Type} (colo : dev -> dev) (h : hooks R) : hooks R :=
  if h_installed h then h
  else mkHooks true (fun m => h_mesh h (normalize_mesh colo m)) (fun l => h_list h (normalize_list colo l)) (fun s => h_single h (normalize_single colo s)) cpu_device_map.

(** The loop of [unique_colocated_cpu_devices] (CT l.306-312) *)
Fixpoint unique_loop (seen : list N) (l : list dev) : list dev :=
  match l with
  | [] => []
  | d :: l' => if existsb (N.eqb (d_id d)) seen then unique_loop seen l' else d :: unique_loop (d_id d :: seen) l'
  end.

(** [unique_colocated_cpu_devices] (CT l.301-313) *)
Definition unique_colocated (colo : dev -> dev) (l : list dev) : list dev := unique_loop [] (map colo l).

(** [colocated_cpu_mesh] (CT l.316-318) *)
Definition cpu_mesh (colo : dev -> dev) (m : mesh) : mesh := mkMesh (m_names m) (m_types m) (m_shape m) (map colo (m_devices m)).

(** [colocated_cpu_sharding] (CT l.321-337) *)
Definition cpu_sharding (colo : dev -> dev) (s : sharding) : result sharding :=
  match s with
  | SSingle d k => Ok (SSingle (colo d) k)
  | SNamed m spec k => Ok (SNamed (cpu_mesh colo m) spec k)
  | SOther _ => Err TypeError
  end.

(** ** Restore arguments *)

(** The member [sharding] of restore arguments: a sharding, metadata, or another thing; [M] are the metadata (CT l.396-420) *)
Inductive shd (M : Type) : Type := DJax (s : sharding) | DMeta (m : M) | DOther.
Arguments DJax {M} s.
Arguments DMeta {M} m.
Arguments DOther {M}.

(** [ArrayRestoreArgs], with all its other members in [r_rest] (CT l.384-395) *)
Record rargs (M : Type) : Type := mkArgs { r_mesh : option mesh; r_sharding : option (shd M); r_rest : nat }.
Arguments mkArgs {M}.
Arguments r_mesh {M}.
Arguments r_sharding {M}.
Arguments r_rest {M}.

(** Metadata to shardings and back; [from_jax_sharding] is a method of the class of the metadata (CT l.408, l.418) *)
Record meta_ops (M : Type) : Type := mkMeta { to_jax : M -> result sharding; from_jax : M -> sharding -> M }.
Arguments mkMeta {M}.
Arguments to_jax {M}.
Arguments from_jax {M}.

(** [convert_array_restore_args] (CT l.384-423) *)
Definition convert_args {M : Type} (o : meta_ops M) (colo : dev -> dev) (a : rargs M) : result (rargs M) :=
  let a := match r_mesh a with Some m => mkArgs (Some (cpu_mesh colo m)) (r_sharding a) (r_rest a) | None => a end in
  match r_sharding a with
  | None => Ok a
  | Some (DJax s) => rmap (fun c => mkArgs (r_mesh a) (Some (DJax c)) (r_rest a)) (cpu_sharding colo s)
  | Some (DMeta m) => rbind (to_jax o m) (fun s => rmap (fun c => mkArgs (r_mesh a) (Some (DMeta (from_jax o m c))) (r_rest a)) (cpu_sharding colo s))
  | Some DOther => Err TypeError
  end.

(** [convert_single_replica_restore_args]: of the arguments and the sharding of a single replica (CT l.426-441) *)
Definition convert_single {M : Type} (o : meta_ops M) (colo : dev -> dev) (a : rargs M * option sharding) : result (rargs M * option sharding) :=
  rbind (match snd a with
         | None => Ok None
         | Some s => rbind (cpu_sharding colo s) (fun c => match c with SNamed _ _ _ => Ok (Some c) | _ => Err AssertionError end)
         end) (fun single => rmap (fun a' => (a', single)) (convert_args o colo (fst a))).

(** ** Trees *)

(** A leaf of a tree: a sharding, a spec (jax gives every spec a member [sharding], which may be None) with its weak type, restore arguments, an array with its value, another thing (CT l.447-461) *)
Inductive leaf (M : Type) : Type :=
  | LSharding (s : sharding)
  | LStruct (shape : list nat) (dtype : nat) (weak : bool) (s : option sharding)
  | LSingleArgs (a : rargs M * option sharding)
  | LArgs (a : rargs M)
  | LArray (shape : list nat) (value : nat) (s : sharding)
  | LOther (n : nat).
Arguments LSharding {M} s.
Arguments LStruct {M} shape dtype weak s.
Arguments LSingleArgs {M} a.
Arguments LArgs {M} a.
Arguments LArray {M} shape value s.
Arguments LOther {M} n.

(** [_transform_leaf_sharding]; an array is copied by [to_colocated_python] (CT l.447-461, l.340-356) *)
Definition transform_leaf {M : Type} (o : meta_ops M) (colo : dev -> dev) (x : leaf M) : result (leaf M) :=
  match x with
  | LSharding s => rmap LSharding (cpu_sharding colo s)
  | LStruct sh dt _ (Some s) => rmap (fun c => LStruct sh dt false (Some c)) (cpu_sharding colo s)
  | LStruct _ _ _ None => Err TypeError
  | LSingleArgs a => rmap LSingleArgs (convert_single o colo a)
  | LArgs a => rmap LArgs (convert_args o colo a)
  | LArray sh v s => rmap (LArray sh v) (cpu_sharding colo s)
  | LOther n => Ok (LOther n)
  end.

(** [transform_tree_shardings] (CT l.444-463) *)
Definition transform_tree {M : Type} (o : meta_ops M) (colo : dev -> dev) (t : list (leaf M)) : result (list (leaf M)) := sequence (map (transform_leaf o colo) t).

(** A final spec: with a sharding, or without the member [sharding] (CT l.472-480) *)
Inductive fspec : Type := FSharding (s : sharding) | FNone.

(** A value: an array with its sharding, or another value (CT l.473, l.480) *)
Inductive value : Type := VArray (v : nat) (s : sharding) | VOther (v : nat).

(** [_to_final_spec]: what is there only guards the log line (CT l.472-480) *)
Definition final_leaf (x : value) (f : fspec) : result value :=
  match f with
  | FSharding s => Ok (VArray (match x with VArray v _ => v | VOther v => v end) s)
  | FNone => Err AttributeError
  end.

(** [to_final_specs]; [jax.tree.map] of trees with other structures is a ValueError (CT l.466-482) *)
Definition to_final_specs (t : list value) (f : list fspec) : result (list value) :=
  if Nat.eqb (List.length t) (List.length f) then sequence (map (fun xf => final_leaf (fst xf) (snd xf)) (combine t f)) else Err ValueError.

(** ** Zeros *)

(** An element of an index: a slice with optional bounds or a number (CT l.508-514) *)
Inductive idx : Type := ISlice (start stop : option Z) | IInt (i : Z).

(** The loop of [_zeros] (CT l.507-514) *)
Fixpoint local_shape (index : list idx) (shape : list Z) : list Z :=
  match index, shape with
  | ISlice a b :: index', size :: shape' => ((match b with None => size | Some s => s end) - (match a with None => 0 | Some s => s end))%Z :: local_shape index' shape'
  | IInt _ :: index', _ :: shape' => 1%Z :: local_shape index' shape'
  | _, _ => []
  end.

(** [_zeros]: the shape of the zeros; no index is an AssertionError, a negative size an error of numpy (CT l.505-515) *)
Definition zeros (index : option (list idx)) (shape : list Z) : result (list Z) :=
  match index with
  | None => Err AssertionError
  | Some i => if forallb (Z.leb 0) (local_shape i shape) then Ok (local_shape i shape) else Err ValueError
  end.
