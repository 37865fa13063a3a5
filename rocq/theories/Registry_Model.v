(** Model of the registries of handlers of checkpointables and of the choice of a handler for saving and loading, and
    of the registry of handlers of types.
    Sources: checkpoint/orbax/checkpoint/experimental/v1/_src/handlers/registration.py ("RG"),
    checkpoint/orbax/checkpoint/experimental/v1/_src/handlers/resolution.py ("RS"),
    checkpoint/orbax/checkpoint/experimental/v1/_src/saving/execution.py ("EX", the names of the handlers that are saved),
    checkpoint/orbax/checkpoint/_src/serialization/type_handler_registry.py ("TR").
    Simplifications: classes of handlers are numbers, and an instance is its class; what classes can do, whether they can be
    constructed without arguments and their names are given by a record; an instance counts as true; the errors AlreadyExistsError and
    NotHandleableError are ValueErrors and NoEntryError is a KeyError, as in Python; functions that say what can be handled do not fail.
    Not modelled: logging, the read-only registry. *)
From Coq Require Import List Bool Arith String.
From Verif Require Import Base Tree_Model.
Import ListNotations.

(** ** Handlers of checkpointables *)

(** What is known of the classes of handlers: the name (RG l.686), whether it can be constructed (RG l.509-510), whether it can save an object (RG l.597)
    or load with one, where [None] is undecided (RG l.680), and whether an object saves itself (RG l.607, l.703) *)
Record world (O : Type) : Type := mkWorld { w_typestr : nat -> string; w_constructible : nat -> bool; w_save : nat -> O -> bool; w_load : nat -> O -> option bool; w_stateful : O -> bool }.
Arguments mkWorld {O} _ _ _ _ _.
Arguments w_typestr {O} _ _.
Arguments w_constructible {O} _ _.
Arguments w_save {O} _ _ _.
Arguments w_load {O} _ _ _.
Arguments w_stateful {O} _ _.

(** RG l.208-211 *)
Record registry : Type := mkReg { r_entries : list (nat * option string); r_secondary : dict nat (list string) }.

(** An empty registry (RG l.205-215) *)
Definition empty : registry := mkReg [] [].

(** Whether an entry has a name (RG l.289, l.311) *)
Definition named (name : string) (e : nat * option string) : bool := match snd e with Some n => String.eqb n name | None => false end.

(** RG l.297-313 *)
Definition has (name : string) (r : registry) : bool := existsb (named name) (r_entries r).

(** RG l.272-295 *)
Definition get (name : string) (r : registry) : result nat :=
  match find (named name) (r_entries r) with Some e => Ok (fst e) | None => Err KeyError end.

(** RG l.321-326 *)
Definition secondary_of (h : nat) (r : registry) : list string :=
  match dget Nat.eqb h (r_secondary r) with Some l => l | None => [] end.

(** [if checkpointable_name] (RG l.257) *)
Definition truthy (name : option string) : bool := match name with Some n => negb (String.eqb n "") | None => false end.

(** RG l.217-270; [handler_type] is a type. *)
Definition add (h : nat) (name : option string) (secondary : option (list string)) (r : registry) : result registry :=
  if (if truthy name then match name with Some n => has n r | None => false end else existsb (fun e => Nat.eqb (fst e) h) (r_entries r)) then Err ValueError
  else Ok (mkReg (r_entries r ++ [(h, name)]) (match secondary with Some l => dput Nat.eqb h l (r_secondary r) | None => r_secondary r end)).

(** RG l.80-88 for the entries that remain *)
Fixpoint add_entries (l : list (nat * option string)) (other r : registry) : result registry :=
  match l with
  | [] => Ok r
  | (h, name) :: l' => rbind (add h name (Some (secondary_of h other)) r) (add_entries l' other)
  end.

(** RG l.75-88 *)
Definition add_all (r other : registry) : result registry := add_entries (r_entries other) other r.

(** RG l.407-449, where the global registry is given *)
Definition local_registry (global : registry) (other : option registry) (include_global : bool) : result registry :=
  rbind (if include_global then add_all empty global else Ok empty) (fun r =>
  match other with Some o => add_all r o | None => Ok r end).

(** RG l.502-516 *)
Definition construct {O : Type} (W : world O) (h : nat) : result nat := if w_constructible W h then Ok h else Err ValueError.

(** RG l.519-546: all are constructed first. *)
Definition possible_handlers {O : Type} (W : world O) (can : nat -> O -> bool) (c : option O) (r : registry) : result (list nat) :=
  rmap (fun l => map fst (filter (fun x => match snd x with None => match c with None => true | Some o => can (fst x) o end | Some _ => false end) l))
    (sequence (map (fun e => rmap (fun h => (h, snd e)) (construct W (fst e))) (r_entries r))).

(** [l[-1] if l else None] (RG l.602, l.731-732) *)
Definition last_of {A : Type} (l : list A) : option A := match rev l with [] => None | x :: _ => Some x end.

(** RG l.549-556 *)
Definition by_name {O : Type} (W : world O) (name : string) (r : registry) : result (option nat) :=
  if has name r then rbind (get name r) (fun h => rmap Some (construct W h)) else Ok None.

(** RG l.559-631 *)
Definition resolve_save {O : Type} (W : world O) (r : registry) (c : option O) (name : string) : result nat :=
  match c with
  | None => Err ValueError
  | Some o =>
    rbind (possible_handlers W (w_save W) c r) (fun hs =>
    match last_of hs, w_stateful W o with
    | Some h, true => Ok h
    | possible, _ =>
      if has name r then rbind (get name r) (construct W)
      else match possible with Some h => Ok h | None => Err KeyError end
    end)
  end.

(** [handler.is_abstract_handleable], as a condition (RG l.679-680) *)
Definition loads {O : Type} (W : world O) (h : nat) (o : O) : bool := match w_load W h o with Some b => b | None => false end.

(** Whether an entry is of a handler that has the name (RG l.686-688) *)
Definition matches {O : Type} (W : world O) (r : registry) (ts : string) (e : nat * option string) : bool :=
  String.eqb (w_typestr W (fst e)) ts || existsb (String.eqb ts) (secondary_of (fst e) r).

(** RG l.682-690 *)
Definition by_typestr {O : Type} (W : world O) (r : registry) (ts : option string) : result (option nat) :=
  match ts with
  | None => Ok None
  | Some s =>
    if String.eqb s "" then Ok None
    else match find (matches W r s) (rev (r_entries r)) with Some e => rmap Some (construct W (fst e)) | None => Ok None end
  end.

(** A handler if it can load, or nothing is given to load with (RG l.714-716, l.721-723) *)
Definition usable {O : Type} (W : world O) (a : option O) (h : option nat) : option nat :=
  match h, a with
  | Some x, None => Some x
  | Some x, Some o => if loads W x o then Some x else None
  | None, _ => None
  end.

(** RG l.634-743 *)
Definition resolve_load {O : Type} (W : world O) (r : registry) (a : option O) (name : string) (ts : option string) : result nat :=
  rbind (by_name W name r) (fun explicit =>
  rbind (by_typestr W r ts) (fun resolved =>
  match (match a with Some o => if w_stateful W o then usable W a resolved else None | None => None end) with
  | Some h => Ok h
  | None =>
    match usable W a explicit with
    | Some h => Ok h
    | None =>
      match usable W a resolved with
      | Some h => Ok h
      | None =>
        rbind (match a with None => Ok None | Some _ => rmap last_of (possible_handlers W (loads W) a r) end) (fun capable =>
        match capable, explicit with
        | Some h, _ => Ok h
        | None, Some h => Ok h
        | None, None => Err KeyError
        end)
      end
    end
  end)).

(** ** Several checkpointables *)

(** RS l.33-43 *)
Definition handlers_for_save {O : Type} (W : world O) (r : registry) (cs : list (string * option O)) : result (dict string nat) :=
  sequence (map (fun x => rmap (fun h => (fst x, h)) (resolve_save W r (snd x) (fst x))) cs).

(** EX l.141-146 *)
Definition saved_typestrs {O : Type} (W : world O) (hs : dict string nat) : dict string string := map (fun x => (fst x, w_typestr W (snd x))) hs.

(** "state" (RS l.27) *)
Definition state_key : string := "state".

(** RS l.46-104 *)
Definition single_for_load {O : Type} (W : world O) (r : registry) (name : string) (a : option O) (ts : option string) : result nat :=
  match resolve_load W r a name ts with
  | Err KeyError =>
    rbind (by_name W state_key r) (fun h => match h with Some x => Ok x | None => Err KeyError end)
  | x => x
  end.

(** The handlers that a checkpoint says: none, one or one for each name (RS l.193, l.204) *)
Inductive saved : Type := SNone | SOne (s : string) | SMany (d : dict string string).

(** RS l.188-197 *)
Definition saved_typestr (name : string) (m : saved) : option string := match m with SMany d => dget String.eqb name d | _ => None end.

(** RS l.200-206 *)
Definition saved_typestr_direct (m : saved) : option string := match m with SOne s => Some s | _ => None end.

(** RS l.107-149 *)
Definition handlers_for_load {O : Type} (W : world O) (r : registry) (a : list (string * option O)) (m : saved) : result (dict string nat) :=
  sequence (map (fun x => rmap (fun h => (fst x, h)) (single_for_load W r (fst x) (snd x) (saved_typestr (fst x) m))) a).

(** RS l.152-185 *)
Definition handler_direct {O : Type} (W : world O) (r : registry) (name : string) (a : option O) (m : saved) : result nat :=
  single_for_load W r name a (saved_typestr_direct m).

(** ** Handlers of types *)

(** TR l.63-66: types and handlers are numbers, and [typestr] gives the name of a handler. *)
Record tregistry : Type := mkT { t_types : list ((nat -> bool) * nat); t_strs : dict string nat }.

(** An empty registry (TR l.63-66) *)
Definition t_empty : tregistry := mkT [] [].

(** The first entry whose function holds (TR l.82-88) *)
Fixpoint first_index (ty : nat) (l : list ((nat -> bool) * nat)) : option nat :=
  match l with
  | [] => None
  | (f, _) :: r => if f ty then Some O else option_map S (first_index ty r)
  end.

(** TR l.71-116, with the function given (TR l.79-80) *)
Definition t_add (typestr : nat -> string) (ty h : nat) (func : nat -> bool) (override : bool) (t : tregistry) : result tregistry :=
  match first_index ty (t_types t) with
  | None =>
    if match dget String.eqb (typestr h) (t_strs t) with Some _ => negb override | None => false end then Err ValueError
    else Ok (mkT (t_types t ++ [(func, h)]) (dput String.eqb (typestr h) h (t_strs t)))
  | Some i =>
    if override then Ok (mkT (set_nth i (func, h) (t_types t)) (dput String.eqb (typestr h) h (t_strs t)))
    else Err ValueError
  end.

(** TR l.57-69: [sub] is [issubclass] (TR l.80). *)
Fixpoint t_create (typestr : nat -> string) (sub : nat -> nat -> bool) (l : list (nat * nat)) (t : tregistry) : result tregistry :=
  match l with
  | [] => Ok t
  | (ty, h) :: r => rbind (t_add typestr ty h (fun t' => sub t' ty) true t) (t_create typestr sub r)
  end.

(** The handler of a type (TR l.123-126) *)
Definition t_get (ty : nat) (t : tregistry) : result nat :=
  match find (fun e => fst e ty) (t_types t) with Some e => Ok (snd e) | None => Err ValueError end.

(** The handler of a name (TR l.119-121, l.126) *)
Definition t_get_str (s : string) (t : tregistry) : result nat :=
  match dget String.eqb s (t_strs t) with Some h => Ok h | None => Err ValueError end.

(** TR l.31-51: [empty_typestr] is that of a value that is supported as empty. *)
Definition param_typestr (typestr : nat -> string) (empty_typestr : option string) (ty : nat) (t : tregistry) : string :=
  match empty_typestr with
  | Some s => s
  | None => match t_get ty t with Ok h => typestr h | Err _ => "None"%string end
  end.
