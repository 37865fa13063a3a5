(** Model of the conversion of jax arrays to DTensors: the layout for a partition spec, the state of the DTensor system, the stack of meshes, the specs of a tree of arrays.
    Source: export/orbax/export/dtensor_utils.py ("DU").
    Of dtensor are modelled: [Mesh.dim_size] of an unknown axis is an error (OtherError here), [Layout] refuses (ValueError) an axis that is used twice, [initialize_accelerator_system] is a ValueError if the system is initialised already, and
    [shutdown_accelerator_system] if it is not.
    Simplifications: the stack is that of one thread; [with None] is a TypeError; meshes of the stack and of shardings are numbers (compared as meshes are). Not modelled: [jax_mesh_to_dtensor_mesh] (DU l.135-183), the packing of the local data. *)
From Coq Require Import List Bool Arith String.
From Verif Require Import Base.
Import ListNotations.
Local Open Scope string_scope.
Local Open Scope list_scope.
Local Open Scope nat_scope.

(** ** Layouts *)

(** The axes of the mesh with their sizes (DU l.199) *)
Definition dmesh : Type := list (string * nat).

(** [dmesh.dim_size(name)] (DU l.245, l.275) *)
Fixpoint dim_size (m : dmesh) (n : string) : result nat := match m with [] => Err OtherError | (a, k) :: m' => if String.eqb n a then Ok k else dim_size m' n end.

(** An element of a PartitionSpec: None, an axis, a tuple of axes, another thing, which is taken to be true (DU l.236-242) *)
Inductive elem : Type := ENone | EName (a : string) | ETuple (l : list string) | EBad.

(** [dim_sizes.count(1)] (DU l.246) *)
Definition ones (l : list nat) : nat := List.length (filter (Nat.eqb 1) l).

(** [max(...)] (DU l.262-264) *)
Definition maximum (l : list nat) : nat := fold_right Nat.max 0 l.

(** The name at [dim_sizes.index(max_dim_size)] (DU l.265-266) *)
Fixpoint pick (k : nat) (names : list string) (sizes : list nat) : result string :=
  match names, sizes with
  | n :: names', s :: sizes' => if Nat.eqb s k then Ok n else pick k names' sizes'
  | _, _ => Err ValueError
  end.

(** The axes whose size is not 1 (DU l.270) *)
Definition proper_axes (names : list string) (sizes : list nat) : list string := map fst (filter (fun p => negb (Nat.eqb (snd p) 1)) (combine names sizes)).

(** The one axis for a tuple of axes, and whether the array must be resharded (DU l.244-274) *)
Definition of_tuple (m : dmesh) (allow : bool) (l : list string) : result (string * bool) :=
  match l with
  | [] => Err AssertionError
  | [a] => Ok (a, false)
  | a :: _ =>
      rbind (sequence (map (dim_size m) l)) (fun sizes =>
        if Nat.ltb (ones sizes) (List.length l - 1) then
          if negb allow then Err ValueError else rmap (fun n => (n, true)) (pick (maximum sizes) l sizes)
        else match proper_axes l sizes with
             | [] => Ok (a, false)
             | [b] => Ok (b, false)
             | _ => Err AssertionError
             end)
  end.

(** The axis for an element; nothing for one that is false (DU l.237-274, l.283-284) *)
Definition axis_of (m : dmesh) (allow : bool) (e : elem) : result (option (string * bool)) :=
  match e with
  | ENone | EName "" | ETuple [] => Ok None
  | EName a => Ok (Some (a, false))
  | ETuple l => rmap Some (of_tuple m allow l)
  | EBad => Err TypeError
  end.

(** The entry of the layout for the element at a dimension; [shape] is the shape from this dimension on (DU l.275-284) *)
Definition entry (m : dmesh) (allow : bool) (shape : list nat) (e : elem) : result (option string * bool) :=
  rbind (axis_of m allow e) (fun o =>
    match o with
    | None => Ok (None, false)
    | Some (a, reshard) =>
        rbind (dim_size m a) (fun k =>
          match shape with
          | [] => Err IndexError
          | d :: _ => if Nat.eqb k 0 then Err ZeroDivisionError else if Nat.eqb (d mod k) 0 then Ok (Some a, reshard) else Err ValueError
          end)
    end).

(** The loop over the spec, and the dimensions that it does not name (DU l.236-286) *)
Fixpoint entries (m : dmesh) (allow : bool) (shape : list nat) (spec : list elem) : result (list (option string) * bool) :=
  match spec with
  | [] => Ok (map (fun _ => None) shape, false)
  | e :: spec' =>
      rbind (entry m allow shape e) (fun x => rmap (fun r => (fst x :: fst r, snd x || snd r)) (entries m allow (tl shape) spec'))
  end.

(** No axis is used twice (in [dtensor.Layout], DU l.287) *)
Fixpoint layout_ok (l : list (option string)) : bool :=
  match l with
  | [] => true
  | None :: l' => layout_ok l'
  | Some a :: l' => negb (existsb (fun o => match o with Some b => String.eqb a b | None => false end) l') && layout_ok l'
  end.

(** The layout as a PartitionSpec (DU l.295-298) *)
Definition as_spec (l : list (option string)) : list elem := map (fun o => match o with Some a => EName a | None => ENone end) l.

(** [jax_array_to_dtensor]: the layout, and the spec by which the packed local data are sharded: that of the array, or after resharding that of the layout (DU l.196-302) *)
Definition to_dtensor (m : dmesh) (allow has_mesh : bool) (shape : list nat) (spec : option (list elem)) : result (list (option string) * option (list elem)) :=
  rbind (match spec with None => Ok (map (fun _ => None) shape, false) | Some s => entries m allow shape s end) (fun r =>
    if negb (layout_ok (fst r)) then Err ValueError
    else if negb (snd r) then Ok (fst r, spec)
    else if has_mesh then Ok (fst r, Some (as_spec (fst r))) else Err TypeError).

(** ** The DTensor system *)

(** Whether TensorFlow's system is initialised, and the flag of the module (DU l.33, l.62) *)
Record system : Type := mkSystem { accelerators : bool; initialized : bool }.

(** The counts that are compared: clients and processes, local and global devices of both (DU l.58-60, l.67, l.74-77) *)
Record counts : Type := mkCounts { clients : nat; processes : nat; dt_local : nat; dt_global : nat; jax_local : nat; jax_global : nat }.

(** [initialize_dtensor]; it gives the state, also with an error (DU l.36-82) *)
Definition initialize (c : counts) (s : system) : system * result unit :=
  if accelerators s then (s, Err ValueError)
  else if negb (Nat.eqb (clients c) (processes c)) then (mkSystem true (initialized s), Err RuntimeError)
  else if negb (Nat.eqb (dt_local c) (jax_local c) && Nat.eqb (dt_global c) (jax_global c)) then (mkSystem true (initialized s), Err AssertionError)
  else (mkSystem true true, Ok tt).

(** [shutdown_dtensor] (DU l.107-132) *)
Definition shutdown (s : system) : system * result unit :=
  if negb (initialized s) then (s, Err RuntimeError)
  else if negb (accelerators s) then (s, Err ValueError)
  else (mkSystem false false, Ok tt).

(** A call of one of the two (DU l.36, l.107) *)
Inductive call : Type := CInit (c : counts) | CShutdown.
(** One call (DU l.36, l.107) *)
Definition step (s : system) (k : call) : system := fst (match k with CInit c => initialize c s | CShutdown => shutdown s end).
(** Many calls (DU l.36, l.107) *)
Definition calls (s : system) (l : list call) : system := fold_left step l s.

(** ** The stack of meshes *)

(** Code that runs with the stack: nothing, asking for the current mesh, an exception, an initialisation or a shutdown that succeeds, two parts, a block (DU l.322, l.363, l.387) *)
Inductive code : Type := Skip | Ask | Raise | Set_ (b : bool) | Seq (a b : code) | With (mesh : option nat) (body : code).

(** What a run gives: the answers, whether there was an exception, the flag, the stack, top first (DU l.312) *)
Record ran : Type := mkRan { answers : list (option nat); raised : bool; flag : bool; stack : list nat }.

(** [get_current_mesh] (DU l.387-389) *)
Definition current (st : list nat) : option nat := match st with [] => None | m :: _ => Some m end.

(** A run, with [maybe_enable_dtensor_export_on] for blocks (DU l.322-360) *)
Fixpoint run (c : code) (f : bool) (st : list nat) : ran :=
  match c with
  | Skip => mkRan [] false f st
  | Ask => mkRan [current st] false f st
  | Raise => mkRan [] true f st
  | Set_ b => mkRan [] false b st
  | Seq a b => let r := run a f st in if raised r then r else let q := run b (flag r) (stack r) in mkRan (answers r ++ answers q) (raised q) (flag q) (stack q)
  | With m body =>
      match m with
      | Some x => if f then let r := run body f (x :: st) in mkRan (answers r) (raised r) (flag r) (tl (stack r)) else run body f st
      | None => run body f st
      end
  end.

(** ** Specs of arrays *)

(** A leaf: without a sharding, with a named sharding of a mesh and a spec, with another sharding (DU l.409-429) *)
Inductive aleaf : Type := APlain | ANamed (mesh : nat) (spec : list elem) | AOther.

(** [get_pspec_from_jax_arrays], over the leaves in order (DU l.392-431) *)
Fixpoint get_pspecs (expected : option nat) (l : list aleaf) : result (list (list elem)) :=
  match l with
  | [] => Ok []
  | APlain :: l' => rmap (cons []) (get_pspecs expected l')
  | AOther :: _ => Err AssertionError
  | ANamed m s :: l' =>
      let x := match expected with None => m | Some x => x end in
      if Nat.eqb x m then rmap (cons s) (get_pspecs (Some x) l') else Err AssertionError
  end.
