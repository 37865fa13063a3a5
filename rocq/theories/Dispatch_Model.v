(** Model of the dispatch of functions to workers by colocated python.
    Source: checkpoint/orbax/checkpoint/_src/multihost/dispatchers.py ("DP"), over the model of colocated_transport.py.
    Of colocated python is assumed: it runs the function once with the arrays as they were given, and a result that has not the structure of the specs is an error (ValueError).
    Simplifications: a pytree is one leaf or a container of leaves; a value is a number; one worker stands for all, and the arrays of the function come back as they are; devices with equal ids stay in the order of their first use (python's order of a set is not said).
    Not modelled: shapes and dtypes, logging (DP l.97-106). *)
From Coq Require Import List Bool Arith NArith String.
From Verif Require Import Base Colocated_Model.
Import ListNotations.
Local Open Scope string_scope.
Local Open Scope list_scope.
Local Open Scope nat_scope.

(** A pytree: one leaf, or a container (DP l.122-130) *)
Inductive tree (A : Type) : Type := One (x : A) | Many (l : list A).
Arguments One {A} x.
Arguments Many {A} l.

(** The leaves (DP l.54, l.83) *)
Definition leaves {A : Type} (t : tree A) : list A := match t with One x => [x] | Many l => l end.

(** [bool(tree)]: an empty container is false (DP l.239) *)
Definition truthy {A : Type} (t : tree A) : bool := match t with Many [] => false | _ => true end.

(** The same structure (DP l.242-248) *)
Definition same_structure {A B : Type} (t : tree A) (u : tree B) : bool := match t, u with One _, One _ => true | Many l, Many m => Nat.eqb (List.length l) (List.length m) | _, _ => false end.

(** [jax.tree.map] (DP l.226-227, l.242) *)
Definition tmap {A B : Type} (f : A -> result B) (t : tree A) : result (tree B) := match t with One x => rmap One (f x) | Many l => rmap Many (sequence (map f l)) end.

(** An array: its value and its sharding (DP l.32-38) *)
Record arr : Type := mkArr { a_val : nat; a_sh : sharding }.

(** Is the device there already (DP l.46-50) *)
Definition has (d : dev) (l : list dev) : bool := existsb (dev_eqb d) l.

(** [devices.update(...)] (DP l.50, l.83) *)
Definition update (s l : list dev) : list dev := fold_left (fun s d => if has d s then s else s ++ [d]) l s.

(** [sharding.device_set]; that of other classes is given from outside (DP l.50, l.83) *)
Definition device_set (other : nat -> list dev) (s : sharding) : list dev := match s with SSingle d _ => [d] | SNamed m _ _ => m_devices m | SOther n => other n end.

(** Insert by id, after those with the same id (DP l.60, l.84) *)
Fixpoint insert (d : dev) (l : list dev) : list dev := match l with [] => [d] | x :: l' => if N.ltb (d_id d) (d_id x) then d :: l else x :: insert d l' end.

(** [sorted(list(devices), key=lambda d: d.id)] (DP l.60, l.84) *)
Definition sort_id (l : list dev) : list dev := fold_left (fun s d => insert d s) l [].

(** Replicated over devices: a mesh of one axis [d] and an empty spec (DP l.36-37, l.85-88) *)
Definition replicated (l : list dev) : sharding := SNamed (mkMesh ["d"] [0] [List.length l] l) [] None.

(** [get_dummy_input_array]; the value is True (DP l.32-38) *)
Definition dummy_input (l : list dev) : arr := mkArr 1 (replicated l).

(** Equality of lists of devices (DP l.46, l.52) *)
Fixpoint list_eqb (a b : list dev) : bool := match a, b with [], [] => true | x :: a', y :: b' => dev_eqb x y && list_eqb a' b' | _, _ => false end.

(** The devices of all specs that have a sharding (DP l.48-50) *)
Definition spec_devices (other : nat -> list dev) (l : list (option sharding)) : list dev := fold_left (fun s x => match x with Some sh => update s (device_set other sh) | None => s end) l [].

(** The different device lists of named shardings (DP l.51-52) *)
Definition device_lists (l : list (option sharding)) : list (list dev) :=
  fold_left (fun s x => match x with Some (SNamed m _ _) => if existsb (list_eqb (m_devices m)) s then s else s ++ [m_devices m] | _ => s end) l [].

(** [_get_dummy_input_array_from_result_specs]; [all] are [jax.devices()] (DP l.41-66) *)
Definition input_from_specs (other : nat -> list dev) (all : list dev) (specs : tree (option sharding)) : result arr :=
  match device_lists (leaves specs) with
  | [] => Ok (dummy_input (sort_id (match spec_devices other (leaves specs) with [] => update [] all | l => l end)))
  | [l] => Ok (dummy_input l)
  | _ => Err ValueError
  end.

(** The sharding of [_make_dummy_result_array] (DP l.82-88) *)
Definition dummy_sharding (other : nat -> list dev) (t : tree arr) : sharding := replicated (sort_id (spec_devices other (map (fun a => Some (a_sh a)) (leaves t)))).

(** [_transform_pytree_shardings] of a spec: without sharding it is a TypeError (DP l.242) *)
Definition cpu_spec (colo : dev -> dev) (s : option sharding) : result sharding := match s with Some x => cpu_sharding colo x | None => Err TypeError end.

(** [to_colocated_python] of an array (DP l.247) *)
Definition cpu_array (colo : dev -> dev) (a : arr) : result arr := rmap (mkArr (a_val a)) (cpu_sharding colo (a_sh a)).

(** [_to_final_specs] (DP l.248) *)
Definition final (t : tree arr) (specs : tree (option sharding)) : result (tree arr) :=
  let one (xf : arr * option sharding) := match snd xf with Some s => Ok (mkArr (a_val (fst xf)) s) | None => Err AttributeError end in
  match t, specs with
  | One x, One f => rmap One (one (x, f))
  | Many l, Many m => if Nat.eqb (List.length l) (List.length m) then rmap Many (sequence (map one (combine l m))) else Err ValueError
  | _, _ => Err ValueError
  end.

(** A call of the function: the arrays, if it gets them, the arguments, the keyword arguments (DP l.231-237) *)
Definition call (M : Type) : Type := option (tree arr) * list (leaf M) * list (leaf M).

(** [dispatch]: the calls of the function and the result (DP l.189-248) *)
Definition dispatch {M : Type} (o : meta_ops M) (other : nat -> list dev) (colo : dev -> dev) (all : list dev) (func : call M -> result (tree arr))
    (input : option (tree arr)) (specs : option (tree (option sharding))) (args kwargs : list (leaf M)) : list (call M) * result (tree arr) :=
  let prepared :=
    rbind (match input, specs with
           | Some t, _ => Ok t
           | None, None => Ok (One (dummy_input all))
           | None, Some s => rmap One (input_from_specs other all s)
           end) (fun inp =>
    rbind (transform_tree o colo args) (fun cargs =>
    rbind (transform_tree o colo kwargs) (fun ckwargs =>
    let specs' := match specs with
                  | Some s => if truthy s then s else One (Some (dummy_sharding other inp))
                  | None => One (Some (dummy_sharding other inp))
                  end in
    rbind (tmap (cpu_spec colo) specs') (fun cspecs =>
    rmap (fun cinp => (cinp, specs', (match input with Some _ => Some cinp | None => None end, cargs, ckwargs))) (tmap (cpu_array colo) inp))))) in
  match prepared with
  | Err e => ([], Err e)
  | Ok (cinp, specs', c) =>
      ([c], rbind (func c) (fun r =>
        let out := match specs with None => One (mkArr 1 (dummy_sharding other cinp)) | Some _ => r end in
        if same_structure out specs' then final out specs' else Err ValueError))
  end.
