(** Model of the checkpoint manager for replicated local checkpoints: which arguments it accepts, what it saves where, and how it restores arrays on devices that have other ids than
    before, by way of a mesh with the devices of the time of saving.
    Source: checkpoint/orbax/checkpoint/experimental/emergency/multi_tier_checkpointing/replicator_checkpoint_manager.py ("RC"),
    checkpoint/orbax/checkpoint/experimental/emergency/mesh_consistency.py ("MC"), checkpoint/orbax/checkpoint/checkpoint_utils.py ("CU") and
    checkpoint/orbax/checkpoint/_src/handlers/composite_checkpoint_handler.py ("CH"), checkpoint/orbax/checkpoint/checkpoint_manager.py ("CM").
    The local storage of a step is what the hardware has: for each leaf and each device (as hardware, not by its id) a part of the array. A layout (a shape of a mesh and a partition, or one device) says
    how an array is cut into parts, one per place of the mesh; [join] puts parts together.
    Simplifications: trees are lists of leaves; the managers below (the local one and the persistent one) are what they store and what they answer; of the arguments only what decides the placement is kept;
    [jax.device_put] keeps the value and leaves an array where it is if there is no sharding for it.
    The items are read in the order of the arguments (the order only decides which error is raised first).
    Not modelled: barriers, garbage collection, dtypes, shapes and casts, metadata, the colocated controller (C71, C72), the checks of [PyTreeCheckpointHandler]. *)
From Coq Require Import List Bool Arith ZArith String.
From Verif Require Import Base Tree_Model Mesh_Model.
Import ListNotations.
Open Scope string_scope.
Open Scope list_scope.

Section Engine.

(** Hardware, parts of arrays, arrays, partitions ([PartitionSpec]), datasets (RC l.472-502, l.719) *)
Context {H V G S D : Type}.

(** ** Shardings and arguments *)

(** A sharding of jax: named, of one device, or other (RC l.488-494) *)
Inductive sharding : Type := Named (m : mesh) (s : S) | Single (d : device) | Unknown.

(** What may be in the field [sharding]: a sharding of jax, or the metadata of one, with the sharding that it stands for (RC l.476-477) *)
Inductive given : Type := Jax (s : sharding) | Meta (s : sharding).

(** [ArrayRestoreArgs] (the sharding, or the mesh and its axes), or [RestoreArgs], which has none of them (RC l.472-484) *)
Inductive leaf_args : Type := ArrayArgs (s : option given) (m : option mesh) (axes : option S) | PlainArgs.

(** The arguments of an item: not [CheckpointArgs], [PyTreeRestore] with [restore_args] or without, others, registered with the local handlers ([PyTreeSave], those of process metadata; RC l.308-323) or not
    (RC l.505-513, l.1012-1031) *)
Inductive item_args : Type := NotArgs | PyTree (l : option (list leaf_args)) | OtherArgs (registered : bool).

(** The metadata of a sharding (RC l.93-115), and of a leaf: not of an array, or with the metadata of a sharding *)
Inductive sharding_meta : Type := NamedMeta (s : S) | SingleMeta (d : device) | UnknownMeta.
(** RC l.93-115 *)
Inductive leaf_meta : Type := NotArray | ArrayMeta (s : option sharding_meta).

(** ** Checking of arguments *)

(** RC l.66 *)
Definition state_name : string := "state".
(** RC l.67 *)
Definition process_metadata_name : string := "process_metadata".
(** RC l.68 *)
Definition dataset_name : string := "dataset".

(** Whether the item with this name is there (RC l.990, l.995) *)
Definition has (k : string) (args : list (string * item_args)) : bool := existsb (fun x => fst x =? k)%string args.

(** Whether the handlers of the local checkpoints know the arguments (RC l.1022) *)
Definition supported (a : item_args) : bool := match a with PyTree _ => true | OtherArgs r => r | NotArgs => false end.

(** The loop of RC l.1011-1031 for one item; [local]: there is a local engine *)
Definition check_item (local : bool) (x : string * item_args) : result unit :=
  match snd x with
  | NotArgs => Err TypeError
  | a => if local && negb (supported a) && negb (fst x =? dataset_name)%string then Err ValueError else Ok tt
  end.

(** RC l.982-1032; [None]: the arguments are not [Composite] *)
Definition validate_args (colocated : bool) (args : option (list (string * item_args))) : result (list (string * item_args)) :=
  match args with
  | None => Err ValueError
  | Some args =>
    if negb (has state_name args) then Err ValueError
    else if has process_metadata_name args then Err ValueError
    else if colocated && existsb (fun x => negb ((fst x =? state_name) || (fst x =? dataset_name))%string) args then Err ValueError
    else rbind (sequence (map (check_item (negb colocated)) args)) (fun _ => Ok args)
  end.

(** ** Saving *)

(** What is handed to the local manager (the names of the items) and to the persistent one (RC l.426-443) *)
Inductive effect : Type := LocalSave (names : list string) | PersistentSave.

(** RC l.394-444; [should]: what [should_save] says, [saved]: what the local manager answers, [persistent]: there is a persistent manager *)
Definition save (should force saved persistent : bool) (args : list (string * item_args)) : bool * list effect :=
  if negb force && negb should then (false, [])
  else
    let names := filter (fun k => negb (k =? dataset_name)%string) (map fst args) in
    let local := LocalSave (names ++ [process_metadata_name]) in
    if negb saved then (false, [local])
    else (true, local :: if persistent && has dataset_name args then [PersistentSave] else []).

(** ** Deleting *)

(** A manager deletes one of its steps (CM l.1289-1303). *)
Definition delete_from (steps : list nat) (step : nat) : result (list nat) :=
  if existsb (Nat.eqb step) steps then Ok (filter (fun n => negb (Nat.eqb n step)) steps) else Err FileNotFoundError.

(** RC l.389-392, l.975-980: the steps of the persistent manager, if there is one, and of the local one; what comes back and what is left *)
Definition delete (colocated : bool) (persistent : option (list nat)) (local : list nat) (step : nat) : result unit * (option (list nat) * list nat) :=
  if colocated then (Err NotImplementedError, (persistent, local))
  else
    let first := match persistent with None => Ok None | Some l => rmap Some (delete_from l step) end in
    match first with
    | Err x => (Err x, (persistent, local))
    | Ok p => match delete_from local step with Err x => (Err x, (p, local)) | Ok l => (Ok tt, (p, l)) end
    end.

(** ** The storage *)

(** How an array is cut: over the places of a mesh of this shape, or not (RC l.495-500) *)
Inductive layout : Type := Grid (shape : list nat) (s : S) | One.

(** How parts are put together (MC l.92-98) *)
Variable join : layout -> list V -> option G.

(** A leaf in the local storage: its metadata, and what each piece of hardware has of it (MC l.92-98) *)
Record leaf : Type := mkLeaf { l_meta : leaf_meta; l_parts : H -> option V }.

(** An array: where it is and what it is (RC l.646-657) *)
Record array : Type := mkArray { a_sharding : sharding; a_value : G }.

(** A restored item (RC l.710-722) *)
Inductive item : Type := Arrays (l : list array) | Dataset (d : D).

(** The layout of a sharding (RC l.495-500) *)
Definition layout_of (s : sharding) : option layout :=
  match s with Named m p => Some (Grid (shape m) p) | Single _ => Some One | Unknown => None end.

(** The devices of a sharding (MC l.92-98) *)
Definition devices_of (s : sharding) : list device := match s with Named m _ => devices m | Single d => [d] | Unknown => [] end.

(** What is known when a step is restored: whether this is a sidecar, the devices and the hardware they are now, the mesh of the user, the flag that decides how ids are mapped, the process metadata of the step (the table and the ids of the mesh), the
    table now, the local items, and the dataset if there is a persistent manager (RC l.270-272, l.577-583, l.719) *)
Record engine : Type := mkEngine {
  e_sidecar : bool;
  e_devices : list device;
  e_hw : Z -> H;
  e_mesh : mesh;
  e_flag : bool;
  e_previous : list (list Z);
  e_previous_ids : list Z;
  e_current : list (list Z);
  e_local : list (string * list leaf);
  e_persistent : option (result D) }.

(** A leaf read with a sharding: each device of it reads what its hardware has (MC l.92-98) *)
Definition read_leaf (e : engine) (s : sharding) (l : leaf) : result array :=
  match layout_of s with
  | None => Err ValueError
  | Some ly =>
    rbind (sequence (map (fun d => match l_parts l (e_hw e (dev_id d)) with Some v => Ok v | None => Err FileNotFoundError end) (devices_of s)))
          (fun vs => match join ly vs with Some g => Ok (mkArray s g) | None => Err ValueError end)
  end.

(** The sharding that the arguments of a leaf ask for (RC l.475-487) *)
Definition asked (a : leaf_args) : result sharding :=
  match a with
  | PlainArgs => Err AttributeError
  | ArrayArgs (Some (Jax s)) _ _ => Ok s
  | ArrayArgs (Some (Meta s)) _ _ => Ok s
  | ArrayArgs None (Some m) (Some p) => Ok (Named m p)
  | ArrayArgs None _ _ => Err ValueError
  end.

(** An item read from the local storage (CH l.849-863): it must be there; with [restore_args] each leaf is read with its sharding.
    Without [restore_args] the engine does not read (RC l.519-551), and of others it only reads the process metadata by itself (RC l.553-575); leaves without a sharding are refused, whichever error is raised. *)
Definition read_item (e : engine) (x : string * item_args) : result (string * item) :=
  match dget String.eqb (fst x) (e_local e) with
  | None => Err KeyError
  | Some leaves =>
    match snd x with
    | PyTree (Some l) =>
      if Nat.eqb (List.length l) (List.length leaves) then
        rbind (sequence (map (fun al => rbind (asked (fst al)) (fun s => read_leaf e s (snd al))) (combine l leaves))) (fun arrays => Ok (fst x, Arrays arrays))
      else Err ValueError
    | _ => Err ValueError
    end
  end.

(** The local manager restores items (CH l.849-863). *)
Definition impl_restore (e : engine) (args : list (string * item_args)) : result (list (string * item)) := sequence (map (read_item e) args).

(** ** Restoring *)

(** RC l.71-115 *)
Definition restore_sharding_from_metadata (g : mesh) (m : leaf_meta) : result (option sharding) :=
  match m with
  | NotArray => Ok None
  | ArrayMeta None => Err ValueError
  | ArrayMeta (Some (NamedMeta s)) => Ok (Some (Named g s))
  | ArrayMeta (Some (SingleMeta d)) => Ok (Some (Single d))
  | ArrayMeta (Some UnknownMeta) => Err ValueError
  end.

(** RC l.541-544 with CU l.525-: [ArrayRestoreArgs] with the sharding for an array, [RestoreArgs] for others *)
Definition construct_restore_args (s : option sharding) : leaf_args := match s with Some s => ArrayArgs (Some (Jax s)) None None | None => PlainArgs end.

(** One item of RC l.526-550 *)
Definition materialize_item (e : engine) (x : string * item_args) : result (string * item_args) :=
  match snd x with
  | PyTree None =>
    match dget String.eqb (fst x) (e_local e) with
    | None => Err FileNotFoundError
    | Some leaves =>
      rbind (sequence (map (fun l => restore_sharding_from_metadata (e_mesh e) (l_meta l)) leaves)) (fun ss => Ok (fst x, PyTree (Some (map construct_restore_args ss))))
    end
  | _ => Ok x
  end.

(** RC l.519-551 *)
Definition materialize (e : engine) (args : list (string * item_args)) : result (list (string * item_args)) := sequence (map (materialize_item e) args).

(** The number of entries of a table (RC l.237-242) *)
Definition entries (t : list (list Z)) : nat := list_sum (map (@List.length Z) t).

(** RC l.221-248 *)
Definition can_use_mesh_consistency (previous current : list (list Z)) (previous_ids : list Z) : bool :=
  Nat.eqb (List.length previous) (List.length current) && Nat.eqb (entries previous) (entries current) && Nat.eqb (List.length previous_ids) (entries current).

(** RC l.472-500 *)
Definition replace_sharding (restore_mesh : mesh) (a : leaf_args) : result leaf_args :=
  rbind (asked a) (fun s =>
  match s with
  | Single _ => Ok a
  | Named _ p => match a with
                 | ArrayArgs _ m axes => Ok (ArrayArgs (Some (Jax (Named restore_mesh p))) m axes)
                 | PlainArgs => Err AttributeError
                 end
  | Unknown => Err ValueError
  end).

(** One item of RC l.504-513: only [PyTreeRestore] is kept *)
Definition consistent_item (restore_mesh : mesh) (x : string * item_args) : result (list (string * item_args)) :=
  match snd x with
  | PyTree None => Ok [x]
  | PyTree (Some l) => rbind (sequence (map (replace_sharding restore_mesh) l)) (fun l' => Ok [(fst x, PyTree (Some l'))])
  | _ => Ok []
  end.

(** RC l.446-517, MC l.86-146 *)
Definition mesh_consistent_args (e : engine) (args : list (string * item_args)) : result (list (string * item_args)) :=
  rbind (consistent_restore_mesh (e_flag e) (e_devices e) (e_mesh e) (e_previous_ids e) (e_previous e) (e_current e)) (fun m =>
  rbind (sequence (map (consistent_item m) args)) (fun ls => Ok (List.concat ls))).

(** RC l.577-624 *)
Definition restore_placement_plan (e : engine) (args : list (string * item_args)) : result (list (string * item_args) * bool) :=
  if can_use_mesh_consistency (e_previous e) (e_current e) (e_previous_ids e) then rbind (mesh_consistent_args e args) (fun l => Ok (l, true))
  else if e_sidecar e then Ok (args, false)
  else Err ValueError.

(** [arg.sharding] (RC l.651-653) *)
Definition field (a : leaf_args) : result (option given) := match a with ArrayArgs s _ _ => Ok s | PlainArgs => Err AttributeError end.

(** [jax.device_put] (MC l.155): to a sharding; not at all without one; what is not a sharding of jax is refused *)
Definition device_put (x : array) (s : option given) : result array :=
  match s with
  | None => Ok x
  | Some (Jax s) => Ok (mkArray s (a_value x))
  | Some (Meta _) => Err TypeError
  end.

(** One item of RC l.643-657 *)
Definition result_item (restored : list (string * item)) (x : string * item_args) : result (string * item) :=
  match dget String.eqb (fst x) restored with
  | None => Err KeyError
  | Some it =>
    match snd x with
    | PyTree (Some l) =>
      match it with
      | Arrays arrays => rbind (sequence (map field l)) (fun ss => rbind (sequence (map (fun y => device_put (fst y) (snd y)) (combine arrays ss))) (fun arrays' => Ok (fst x, Arrays arrays')))
      | Dataset _ => Err ValueError
      end
    | _ => Ok (fst x, it)
    end
  end.

(** RC l.626-663; the arguments are always [Composite] here (RC l.687-689), so that the result is, too *)
Definition mesh_consistent_result (args : list (string * item_args)) (restored : list (string * item)) : result (list (string * item)) := sequence (map (result_item restored) args).

(** RC l.710-722 *)
Definition add_dataset (e : engine) (args : list (string * item_args)) (restored : list (string * item)) : result (list (string * item)) :=
  match e_persistent e with
  | Some d => if has dataset_name args then rbind d (fun d => Ok (dput String.eqb dataset_name (Dataset d) restored)) else Ok restored
  | None => Ok restored
  end.

(** RC l.694-738 *)
Definition restore_single_step (e : engine) (args : list (string * item_args)) : result (list (string * item)) :=
  rbind (materialize e args) (fun args =>
  rbind (restore_placement_plan e args) (fun plan =>
  rbind (impl_restore e (fst plan)) (fun restored =>
  rbind (add_dataset e args restored) (fun restored =>
  if e_sidecar e then Ok restored else mesh_consistent_result args restored)))).

(** RC l.665-692, l.1105-1121: [step_of] is the engine at a step that exists, [latest] the latest step *)
Definition restore (step_of : nat -> engine) (latest : option nat) (step : option nat) (args : option (list (string * item_args))) : result (list (string * item)) :=
  rbind (validate_args false args) (fun args =>
  match step with
  | Some n => restore_single_step (step_of n) args
  | None => match latest with Some n => restore_single_step (step_of n) args | None => Err FileNotFoundError end
  end).

End Engine.
