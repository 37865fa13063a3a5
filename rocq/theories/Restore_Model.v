(** Model of restoring with transforms: which arrays of a checkpoint are read and with which arguments, and what is made of them.
    Sources: checkpoint/orbax/checkpoint/_src/handlers/pytree_checkpoint_handler.py ("PH"), checkpoint/orbax/checkpoint/_src/handlers/base_pytree_checkpoint_handler.py ("BP"),
    checkpoint/orbax/checkpoint/transform_utils.py ("XU"), checkpoint/orbax/checkpoint/utils.py ("UT").
    Trees are given by their flat dictionaries with the names joined by slashes (flattening and rebuilding are modelled in Tree_Model, applying the transforms to one key in Transform_Model). Reading an array is an
    oracle [store] of its name and the arguments, casting and sharding an aggregated value an oracle [cast].
    Simplifications: names have no slashes, there are no empty nodes, the transforms are a flat dictionary in its order. Functions of transforms get the flat dictionary as the tree.
    Not modelled: legacy_transform_fn, restore types, the layout of arrays (zarr3, ocdbt), byte limits, logging. *)
From Coq Require Import List Bool Arith String.
From Verif Require Import Base StepName_Model Tree_Model Transform_Model.
Import ListNotations.
Local Open Scope string_scope.
Local Open Scope list_scope.

(** ** What a checkpoint is made of *)

(** A leaf of the structure: an entry of the metadata (its array is stored by itself), or a value of the aggregate file (PH l.993-995) *)
Inductive entry (V : Type) : Type := EMeta | EValue (v : V).
Arguments EMeta {V}.
Arguments EValue {V} v.

(** A leaf of the aggregate file: a value, or a placeholder (UT l.78-83) *)
Inductive aggregated (V : Type) : Type := AValue (v : V) | APlaceholder.
Arguments AValue {V} v.
Arguments APlaceholder {V}.

(** A leaf after reading: the value that was read, the entry of the metadata that stays when the array is not read (PH l.724-727), or a value of the item (PH l.431-433) *)
Inductive got (V : Type) : Type := Read (v : V) | Unread | Given (v : V).
Arguments Read {V} v.
Arguments Unread {V}.
Arguments Given {V} v.

(** [value_fn] with one argument as in Transform, or with RestoreArgs too as in RestoreTransform (XU l.137) *)
Inductive valuefn (V A : Type) : Type := One (f : tree (got V) -> result (tree (got V))) | Two (f : tree (got V) -> A -> result (tree (got V))).
Arguments One {V A} f.
Arguments Two {V A} f.

(** A Transform or a RestoreTransform (XU l.113-139). An argument of an input can be None. *)
Record rtransform (V A : Type) : Type := mkT {
  t_original : option string;
  t_fallback : bool;
  t_value : option (valuefn V A);
  t_multi : option (string -> tree (got V) -> A -> result (tree (got V)));
  t_restore : bool;
  t_inputs : option (dict string (option A))
}.
Arguments mkT {V A} t_original t_fallback t_value t_multi t_restore t_inputs.
Arguments t_original {V A} r.
Arguments t_fallback {V A} r.
Arguments t_value {V A} r.
Arguments t_multi {V A} r.
Arguments t_restore {V A} r.
Arguments t_inputs {V A} r.

(** [re.fullmatch(pattern, key)]: a match is given by its [expand]; both may raise (PH l.154, l.160, l.168) *)
Definition matcher : Type := string -> string -> result (option (string -> result string)).

(** XU l.95-109, l.141-153: what is checked when a transform is made *)
Definition make_rtransform {V A : Type} (t : rtransform V A) : result (rtransform V A) :=
  rmap (fun _ => t)
    (rbind (post_init (mk_transform (t_original t) (t_fallback t) (match t_value t with Some _ => Some (fun x : tree (got V) => Ok x) | None => None end)
                                    (match t_multi t with Some _ => Some (fun (_ : string) (x : tree (got V)) => Ok x) | None => None end))) (fun _ =>
     rbind (if negb (is_none (t_original t)) then asserted (is_none (t_inputs t)) else Ok tt) (fun _ =>
     rbind (if t_fallback t then asserted (is_none (t_inputs t)) else Ok tt) (fun _ =>
     rbind (if negb (is_none (t_value t)) then asserted (is_none (t_inputs t)) else Ok tt) (fun _ =>
     if negb (is_none (t_inputs t)) then asserted (negb (is_none (t_multi t))) else Ok tt))))).

(** ** What is read, and how *)

(** [key in d] (PH l.284, l.318) *)
Definition has {X : Type} (k : string) (d : dict string X) : bool := negb (is_none (dget String.eqb k d)).

(** [d[key]] (PH l.170, l.291, l.337, l.345, l.382) *)
Definition item_at {X : Type} (k : string) (d : dict string X) : result X := match dget String.eqb k d with Some x => Ok x | None => Err KeyError end.

(** PH l.150-155: the argument of the first input that matches *)
Fixpoint find_input {A : Type} (fullmatch : matcher) (key : string) (inputs : dict string (option A)) : result (option (option A)) :=
  match inputs with
  | [] => Ok None
  | (pattern, a) :: rest => rbind (fullmatch pattern key) (fun m => match m with Some _ => Ok (Some a) | None => find_input fullmatch key rest end)
  end.

(** PH l.159-170: the arguments of the first output that a transform draws from the key *)
Fixpoint find_output {A : Type} (fullmatch : matcher) (key pattern : string) (original : option string) (args : dict string A) (outputs : list string) : result (option A) :=
  match outputs with
  | [] => Ok None
  | o :: rest =>
    rbind (fullmatch pattern o) (fun m =>
    match m with
    | None => find_output fullmatch key pattern original args rest
    | Some expand =>
      rbind (match original with None => Ok o | Some k => expand k end) (fun k =>
      if String.eqb k key then rmap Some (item_at o args) else find_output fullmatch key pattern original args rest)
    end)
  end.

(** PH l.119-171 *)
Fixpoint find_matching {V A : Type} (fullmatch : matcher) (key : string) (outputs : list string) (args : dict string A) (transforms : dict string (rtransform V A)) : result (option A) :=
  match transforms with
  | [] => Ok None
  | (pattern, t) :: rest =>
    match t_multi t with
    | Some _ =>
      if negb (t_restore t) then Err ValueError else
      match t_inputs t with
      | None => Err ValueError
      | Some inputs => rbind (find_input fullmatch key inputs) (fun r => match r with Some a => Ok a | None => find_matching fullmatch key outputs args rest end)
      end
    | None =>
      if negb (t_fallback t)
      then rbind (find_output fullmatch key pattern (t_original t) args outputs) (fun r => match r with Some a => Ok (Some a) | None => find_matching fullmatch key outputs args rest end)
      else find_matching fullmatch key outputs args rest
    end
  end.

(** PH l.174-182 *)
Fixpoint has_fallback {V A : Type} (fullmatch : matcher) (key : string) (transforms : dict string (rtransform V A)) (found : bool) : result bool :=
  match transforms with
  | [] => Ok found
  | (pattern, t) :: rest => rbind (fullmatch pattern key) (fun m => has_fallback fullmatch key rest (if negb (is_none m) && t_fallback t then true else found))
  end.

(** PH l.255-280: [skip_deserialize] of the parameter of a leaf *)
Definition skips {V : Type} (e : entry V) : bool := match e with EMeta => false | EValue _ => true end.

(** A parameter: whether its array is not read, and the arguments (PH l.250-251) *)
Definition param (A : Type) : Type := (bool * A)%type.

(** PH l.284-291: one leaf of a partial restore *)
Definition partial_param {V A : Type} (none : A) (item : list string) (args : dict string A) (x : string * entry V) : result (string * param A) :=
  if existsb (String.eqb (fst x)) item then rmap (fun a => (fst x, (skips (snd x), a))) (item_at (fst x) args) else Ok (fst x, (true, none)).

(** PH l.309-359: one leaf of the checkpoint when there are transforms *)
Definition transform_param {V A : Type} (fullmatch : matcher) (none : A) (default_to_original : bool) (item : list string) (args : dict string A) (transforms : dict string (rtransform V A))
  (x : string * entry V) : result (string * param A) :=
  rbind (find_matching fullmatch (fst x) item args transforms) (fun m =>
  match m with
  | Some a => Ok (fst x, (skips (snd x), a))
  | None =>
    if existsb (String.eqb (fst x)) item then
      rbind (has_fallback fullmatch (fst x) transforms false) (fun f =>
      if f then (if default_to_original then Ok (fst x, (true, none)) else rmap (fun a => (fst x, (skips (snd x), a))) (item_at (fst x) args))
      else (if default_to_original then rmap (fun a => (fst x, (skips (snd x), a))) (item_at (fst x) args) else Ok (fst x, (true, none))))
    else Ok (fst x, (true, none))
  end).

(** PH l.296-300: without transforms every leaf has its arguments; trees of other structure do not map together (ValueError, PH l.938-940) *)
Definition plain_params {V A : Type} (structure : dict string (entry V)) (args : dict string A) : result (dict string (param A)) :=
  if forallb (fun k => has k structure) (map fst args)
  then sequence (map (fun x => match dget String.eqb (fst x) args with Some a => Ok (fst x, (skips (snd x), a)) | None => Err ValueError end) structure)
  else Err ValueError.

(** PH l.185-368. [none] is RestoreArgs(). *)
Definition restore_parameters {V A W : Type} (fullmatch : matcher) (none : A) (partial default_to_original : bool) (item : option (dict string W)) (structure : dict string (entry V))
  (transforms : option (dict string (rtransform V A))) (args : option (dict string A)) : result (dict string (param A)) :=
  let args := match args with Some a => a | None => map (fun x => (fst x, none)) structure end in
  let outputs := match item with Some i => map fst i | None => [] end in
  if partial then sequence (map (partial_param none outputs args) structure)
  else match transforms with
       | None => plain_params structure args
       | Some ts =>
         if is_none item then Err ValueError
         else sequence (map (transform_param fullmatch none default_to_original outputs args ts) structure)
       end.

(** ** Reading and transforming *)

(** BP l.115, PH l.696-727: what a leaf is after reading *)
Definition read_leaf {V A : Type} (store : string -> A -> V) (cast : V -> A -> V) (key : string) (e : entry V) (p : param A) : got V :=
  match e with
  | EValue v => Read (cast v (snd p))
  | EMeta => if fst p then Unread else Read (store key (snd p))
  end.

(** PH l.681-728 *)
Fixpoint deserialize {V A : Type} (store : string -> A -> V) (cast : V -> A -> V) (structure : dict string (entry V)) (params : dict string (param A)) : dict string (got V) :=
  match structure, params with
  | (k, e) :: r, (_, p) :: ps => (k, read_leaf store cast k e p) :: deserialize store cast r ps
  | _, _ => []
  end.

(** PH l.371-390: the functions get the arguments of the output; a function of one value is called with one argument (XU l.249-279) *)
Definition wrap {V A : Type} (args : dict string A) (t : rtransform V A) : transform (got V) :=
  match t_multi t with
  | Some f => mk_transform None false None (Some (fun key tr => rbind (item_at key args) (fun a => f key tr a)))
  | None =>
    mk_transform (t_original t) (t_fallback t)
      (match t_value t with Some (One f) => Some f | Some (Two _) => Some (fun _ => Err TypeError) | None => None end) None
  end.

(** The flat dictionary as the tree that the functions get (XU l.157-294) *)
Definition as_tree {V : Type} (d : dict string (got V)) : tree (got V) := Node KDict (map (fun x => (DictKey (KStr (fst x)), Leaf (snd x))) d).

(** [apply_transformations] (PH l.431-433, XU l.157-294) *)
Definition apply_flat {V A : Type} (fullmatch : matcher) (default_to_original : bool) (restored : dict string (got V)) (transforms : dict string (rtransform V A)) (args : dict string A)
  (item : dict string V) : result (dict string (tree (got V))) :=
  sequence (map (new_value fullmatch default_to_original (as_tree restored) (map (fun x => (fst x, Leaf (snd x))) restored) (map (fun x => (fst x, wrap args (snd x))) transforms))
                (map (fun x => (fst x, Leaf (Given (snd x)))) item)).

(** PH l.393-434 *)
Definition transform_checkpoint {V A : Type} (fullmatch : matcher) (default_to_original : bool) (item : option (dict string V)) (restored : dict string (got V)) (args : option (dict string A))
  (transforms : option (dict string (rtransform V A))) : result (dict string (tree (got V))) :=
  match item with
  | None => match transforms with Some _ => Err ValueError | None => Ok (map (fun x => (fst x, Leaf (snd x))) restored) end
  | Some i =>
    match transforms with
    | None => sequence (map (fun x => rmap (fun g => (fst x, Leaf g)) (item_at (fst x) restored)) i)
    | Some ts => match args with None => Err ValueError | Some a => apply_flat fullmatch default_to_original restored ts a i end
    end
  end.

(** ** The structure of a checkpoint *)

(** PH l.1027-1038 *)
Definition aggregate_leaf {V : Type} (a : aggregated V) : entry V := match a with AValue v => EValue v | APlaceholder => EMeta end.

(** PH l.981-1090: the names of the metadata file, if there is one, and the aggregate file, if there is one *)
Definition internal_metadata {V : Type} (metadata : option (list string)) (aggregate : option (dict string (aggregated V))) : result (dict string (entry V)) :=
  match metadata, aggregate with
  | None, None => Err FileNotFoundError
  | None, Some a => Ok (map (fun x => (fst x, aggregate_leaf (snd x))) a)
  | Some m, None => Ok (map (fun k => (k, EMeta)) m)
  | Some m, Some a => Ok (map (fun k => (k, match dget String.eqb k a with Some v => aggregate_leaf v | None => EMeta end)) m)
  end.

(** UT l.107-109, PH l.850-855 *)
Definition can_ignore {V : Type} (aggregate : option (dict string (aggregated V))) : bool :=
  match aggregate with None => true | Some a => forallb (fun x => match snd x with APlaceholder => true | AValue _ => false end) a end.

(** What a restore does: it is left to the base handler with [partial_restore] (PH l.866-871), or gives a tree *)
Inductive outcome (V : Type) : Type := Delegated (partial : bool) | Restored (d : dict string (tree (got V))).
Arguments Delegated {V} partial.
Arguments Restored {V} d.

(** PH l.827-967 *)
Definition restore {V A : Type} (fullmatch : matcher) (none : A) (store : string -> A -> V) (cast : V -> A -> V) (exists_ : bool) (metadata : option (list string)) (aggregate : option (dict string (aggregated V)))
  (item : option (dict string V)) (args : option (dict string A)) (transforms : option (dict string (rtransform V A))) (default_to_original partial : bool) : result (outcome V) :=
  if negb exists_ then Err FileNotFoundError
  else if negb (is_none metadata) && can_ignore aggregate && is_none transforms then Ok (Delegated partial)
  else
    rbind (match internal_metadata metadata aggregate with
           | Err FileNotFoundError => match item with None => Err FileNotFoundError | Some i => Ok (map (fun x => (fst x, EMeta)) i) end
           | r => r
           end) (fun structure =>
    rbind (restore_parameters fullmatch none false default_to_original item structure transforms args) (fun params =>
    rmap Restored (transform_checkpoint fullmatch default_to_original item (deserialize store cast structure params) args transforms))).
