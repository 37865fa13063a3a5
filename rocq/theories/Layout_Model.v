(** Model of the layouts of checkpoints: what counts as a checkpoint, which version it has, which part of it is loaded
    if none is named, and loading, saving and the metadata by way of the handlers of its parts.
    Sources, all under checkpoint/orbax/checkpoint/experimental/v1/_src: layout/orbax_layout.py ("OL"), layout/orbax_v0_layout.py ("OV"),
    layout/registry.py ("LR"), layout/checkpoint_layout.py ("CL"), layout/safetensors_layout.py ("SL", only what is asked for the choice),
    loading/loading.py ("LO"), loading/validation.py ("LV"), saving/validation.py ("SV"), saving/execution.py ("EX"), metadata/loading.py ("ML"),
    training/checkpointer.py ("TC", the checks of what is to be saved) and saving/saving.py ("SA").
    Simplifications: names have one component, and a name is in a directory once; whether a path is temporary and whether its parent
    has checkpoint metadata are given; what a handler writes, reads and says of a directory are functions that may fail; the first part of
    loading does not fail; of the metadata of a checkpoint only the handlers are kept; InvalidLayoutError is a ValueError, NoEntryError a KeyError, as in Python,
    and NotADirectoryError is OtherError. Not modelled: barriers, timing, logging, abstract meshes, the types of leaves, atomicity of the writing. *)
From Coq Require Import List Bool Arith String.
From Verif Require Import Base Tree_Model Registry_Model.
From Verif Require Composite_Model.
Import ListNotations.
Open Scope string_scope.

(** ** Files *)

(** What is in a file: the handlers of checkpoint metadata (OL l.166-172), or something else *)
Inductive content : Type := CMeta (m : saved) | COther (n : nat).

(** Files and directories, the latter in the order of listing (OL l.71-73) *)
Inductive node : Type := File (c : content) | Dir (l : list (string * node)).

(** A path: its last name, whether the parent has checkpoint metadata (OV l.213), whether it is temporary (OL l.360, OV l.208) and what is there *)
Record place : Type := mkPlace { p_name : string; p_parent_meta : bool; p_temporary : bool; p_node : option node }.

(** The entries of a path; nothing is below a file or what does not exist (OL l.113, l.118, l.122). *)
Definition entries (p : place) : list (string * node) := match p_node p with Some (Dir l) => l | _ => [] end.

(** [path / name] (OL l.306) *)
Definition look (name : string) (l : list (string * node)) : option node := dget String.eqb name l.

(** [exists(path / name)] (OL l.113, l.118, l.122) *)
Definition holds (name : string) (l : list (string * node)) : bool := match look name l with Some _ => true | None => false end.

(** [exists(path / directory / name)] (OL l.128, OV l.228) *)
Definition child_holds (name : string) (x : node) : bool := match x with Dir l => holds name l | File _ => false end.

(** OL l.55 *)
Definition pytree_metadata_file : string := "_METADATA".
(** OL l.56 *)
Definition indicator_file : string := "orbax.checkpoint".
(** OL l.57 *)
Definition checkpoint_metadata_file : string := "_CHECKPOINT_METADATA".

(** CL l.34-37 *)
Definition reserved (name : string) : bool := String.eqb name "metrics" || String.eqb name "AUTO".

(** The names of the directories (OL l.137-146) *)
Definition existing_names (l : list (string * node)) : list string := map fst (filter (fun x => match snd x with Dir _ => true | File _ => false end) l).

(** OL l.162-172: without metadata, or with something else there, nothing is known. *)
Definition read_metadata (l : list (string * node)) : saved := match look checkpoint_metadata_file l with Some (File (CMeta m)) => m | _ => SNone end.

(** OL l.206-233 *)
Definition checkpointable_names (l : list (string * node)) : list string :=
  let names := filter (fun n => negb (reserved n)) (existing_names l) in
  if existsb (String.eqb state_key) names then state_key :: Composite_Model.sorted_names (filter (fun n => negb (String.eqb n state_key)) names)
  else Composite_Model.sorted_names names.

(** ** Validation *)

(** Errors that say that the layout is another (OL l.385-393, l.399-407, OV l.314-322, l.340-348) *)
Definition as_invalid (x : result unit) : result unit :=
  match x with
  | Err FileNotFoundError | Err ValueError | Err OtherError => Err ValueError
  | x => x
  end.

(** OL l.336-379 *)
Definition v1_check (p : place) : result unit :=
  match p_node p with
  | None => Err FileNotFoundError
  | Some (File _) => Err OtherError
  | Some (Dir l) =>
    if p_temporary p then Err ValueError
    else if negb (holds checkpoint_metadata_file l) then Err FileNotFoundError
    else if holds indicator_file l then Ok tt else Err FileNotFoundError
  end.

(** OL l.381-393 *)
Definition v1_validate_checkpointables (p : place) : result unit := as_invalid (v1_check p).

(** The directory of a tree is there and has metadata of a tree (OL l.309-313, OV l.268-272) *)
Definition is_pytree (name : string) (l : list (string * node)) : bool := match look name l with Some x => child_holds pytree_metadata_file x | None => false end.

(** OL l.287-334, l.395-407 *)
Definition v1_validate (p : place) (name : option string) : result unit :=
  as_invalid (match name with
  | None => Err ValueError
  | Some n => if is_pytree n (entries p) then Ok tt else Err FileNotFoundError
  end).

(** OV l.179-241 *)
Definition v0_check (p : place) : result unit :=
  match p_node p with
  | None => Err FileNotFoundError
  | Some (File _) => Err OtherError
  | Some (Dir l) =>
    if p_temporary p then Err ValueError
    else if p_parent_meta p then Err ValueError
    else if negb (holds checkpoint_metadata_file l) then
      if holds pytree_metadata_file l then Ok tt
      else if existsb (fun x => child_holds checkpoint_metadata_file (snd x)) l then Err ValueError else Ok tt
    else Ok tt
  end.

(** OV l.302-322 *)
Definition v0_validate_checkpointables (p : place) : result unit := as_invalid (v0_check p).

(** OV l.243-300, l.324-348 *)
Definition v0_validate (p : place) (name : option string) : result unit :=
  as_invalid (match name with
  | None => if holds pytree_metadata_file (entries p) then Ok tt else Err FileNotFoundError
  | Some n => if is_pytree n (entries p) then Ok tt else Err FileNotFoundError
  end).

(** The suffix of files (SL l.820, l.828) *)
Definition suffix : string := ".safetensors".

(** Whether a name ends so (SL l.820, l.828) *)
Definition has_suffix (name : string) : bool :=
  Nat.leb (String.length suffix) (String.length name) && String.eqb (substring (String.length name - String.length suffix) (String.length suffix) name) suffix.

(** SL l.817-837; a file that is only called as the suffix has none. *)
Definition st_validate_checkpointables (p : place) : result unit :=
  match p_node p with
  | Some (File _) => if has_suffix (p_name p) && negb (String.eqb (p_name p) suffix) then Ok tt else Err ValueError
  | Some (Dir l) => if existsb (fun x => has_suffix (fst x)) l then Ok tt else Err ValueError
  | None => Err ValueError
  end.

(** ** The choice of a layout *)

(** The layouts (LR l.35-38, l.75-76) *)
Inductive layout : Type := V1 | V0 | Safetensors.

(** What is asked for (LR l.63, l.74, l.76) *)
Inductive layout_enum : Type := ORBAX | SAFETENSORS | ROC.

(** OL l.63-68, LR l.58-89; support for the last is not linked. *)
Definition layout_class (e : layout_enum) (p : option place) : result layout :=
  match e with
  | ORBAX => match p with None => Ok V1 | Some q => if holds indicator_file (entries q) then Ok V1 else Ok V0 end
  | SAFETENSORS => Ok Safetensors
  | ROC => Err OtherError
  end.

(** LR l.116 *)
Definition validate_checkpointables (y : layout) (p : place) : result unit :=
  match y with V1 => v1_validate_checkpointables p | V0 => v0_validate_checkpointables p | Safetensors => st_validate_checkpointables p end.

(** LR l.179, l.197, l.206; SL l.845-847 *)
Definition validate (y : layout) (p : place) (name : option string) : result unit :=
  match y with V1 => v1_validate p name | V0 => v0_validate p name | Safetensors => Ok tt end.

(** LR l.92-125 *)
Definition get_layout (p : place) (e : layout_enum) : result layout :=
  rbind (layout_class e (Some p)) (fun y => rmap (fun _ => y) (validate_checkpointables y p)).

(** LR l.41-50, l.53-55 *)
Definition is_orbax_checkpoint (p : place) : bool :=
  existsb (fun y => match validate_checkpointables y p with Ok _ => true | Err _ => false end) [V1; V0].

(** LR l.176; OV l.76-89; SL l.839-843 *)
Definition names_of (y : layout) (p : place) : list string := match y with V1 | V0 => checkpointable_names (entries p) | Safetensors => [] end.

(** LR l.177-193: the first name that is valid; other errors than InvalidLayoutError do not occur. *)
Fixpoint first_valid (y : layout) (p : place) (names : list string) : option string :=
  match names with
  | [] => None
  | n :: r => match validate y p (Some n) with Ok _ => Some n | Err _ => first_valid y p r end
  end.

(** LR l.143-207 *)
Definition resolve (p : place) (e : layout_enum) (name : option string) : result (layout * option string) :=
  rbind (get_layout p e) (fun y =>
  if match name with Some n => String.eqb n "AUTO" | None => false end then
    match first_valid y p (names_of y p) with
    | Some n => Ok (y, Some n)
    | None =>
      match y with
      | V1 => Err ValueError
      | _ => match validate y p None with Ok _ => Ok (y, None) | Err _ => Err ValueError end
      end
    end
  else rmap (fun _ => (y, name)) (validate y p name)).

(** ** Loading and saving *)

(** What handlers do with directories: writing (OL l.530-535), reading (OL l.434-439, l.491-497) and saying what is there (OL l.575-577) *)
Record io (O : Type) : Type := mkIo { io_save : nat -> O -> result (list (string * node)); io_load : nat -> option O -> list (string * node) -> result O; io_meta : nat -> list (string * node) -> result O }.
Arguments mkIo {O} _ _ _.
Arguments io_save {O} _ _ _.
Arguments io_load {O} _ _ _ _.
Arguments io_meta {O} _ _ _.

(** What is read of a directory of a name, which fails if there is none (OL l.434, l.494, l.576) *)
Definition at_dir {A : Type} (f : list (string * node) -> result A) (name : string) (l : list (string * node)) : result A :=
  match look name l with Some (Dir d) => f d | _ => Err FileNotFoundError end.

(** OL l.409-439 *)
Definition v1_load {O : Type} (W : world O) (I : io O) (r : registry) (p : place) (name : option string) (a : option O) : result O :=
  match name with
  | None => Err ValueError
  | Some n =>
    rbind (handlers_for_load W r [(n, a)] (read_metadata (entries p))) (fun hs =>
    rbind (fetch String.eqb hs n) (fun h => at_dir (io_load I h a) n (entries p)))
  end.

(** OV l.350-398 *)
Definition v0_load {O : Type} (W : world O) (I : io O) (r : registry) (p : place) (name : option string) (a : option O) : result O :=
  match name with
  | None =>
    match read_metadata (entries p) with
    | SMany _ => Err ValueError
    | m => rbind (handler_direct W r (p_name p) a m) (fun h => io_load I h a (entries p))
    end
  | Some _ => v1_load W I r p name a
  end.

(** OL l.592-625: the first that fails is reported, as without a handler. *)
Fixpoint process_loads {O : Type} (I : io O) (l : list (string * node)) (hs : dict string nat) (a : list (string * option O)) : result (list (string * O)) :=
  match a with
  | [] => Ok []
  | (n, x) :: r =>
    rbind (fetch String.eqb hs n) (fun h =>
    match at_dir (io_load I h x) n l with
    | Ok v => rmap (fun t => (n, v) :: t) (process_loads I l hs r)
    | Err _ => Err KeyError
    end)
  end.

(** OL l.441-507 *)
Definition v1_load_checkpointables {O : Type} (W : world O) (I : io O) (r : registry) (p : place) (a : option (list (string * option O))) : result (list (string * O)) :=
  let l := entries p in
  let available := existing_names l in
  let a := match a with Some (x :: y) => x :: y | _ => map (fun n => (n, None)) (filter (fun n => negb (reserved n)) available) end in
  if existsb (fun x => negb (existsb (String.eqb (fst x)) available)) a then Err KeyError
  else rbind (handlers_for_load W r a (read_metadata l)) (fun hs => process_loads I l hs a).

(** OV l.121-136 *)
Definition is_direct (p : place) : bool :=
  match read_metadata (entries p) with SOne _ => true | _ => holds pytree_metadata_file (entries p) end.

(** OV l.400-426 *)
Definition v0_load_checkpointables {O : Type} (W : world O) (I : io O) (r : registry) (p : place) (a : option (list (string * option O))) : result (list (string * O)) :=
  if is_direct p then Err ValueError else v1_load_checkpointables W I r p a.

(** LV l.27-52 *)
Definition check_name (name : option string) : result unit :=
  match name with
  | None => Ok tt
  | Some n => if String.eqb n "AUTO" then Ok tt else if String.eqb n "" then Err ValueError else if reserved n then Err ValueError else Ok tt
  end.

(** LV l.55-85, SV l.47-59: none is the empty name, and none is reserved. *)
Definition check_names (names : list string) : result unit :=
  if existsb (fun n => String.eqb n "") names then Err ValueError else if existsb reserved names then Err ValueError else Ok tt.

(** LO l.103-212 *)
Definition load {O : Type} (W : world O) (I : io O) (r : registry) (p : place) (e : layout_enum) (flat : option O -> result O) (a : option O) (name : option string) : result O :=
  rbind (check_name name) (fun _ =>
  rbind (resolve p e name) (fun x =>
  match fst x with
  | V1 => v1_load W I r p (snd x) a
  | V0 => v0_load W I r p (snd x) a
  | Safetensors => flat a
  end)).

(** LO l.215-348; the other layout says that it does not do this. *)
Definition load_checkpointables {O : Type} (W : world O) (I : io O) (r : registry) (p : place) (e : layout_enum) (a : option (list (string * option O))) : result (list (string * O)) :=
  rbind (match a with Some l => check_names (map fst l) | None => Ok tt end) (fun _ =>
  rbind (get_layout p e) (fun y =>
  match y with
  | V1 => v1_load_checkpointables W I r p a
  | V0 => v0_load_checkpointables W I r p a
  | Safetensors => Err NotImplementedError
  end)).

(** What is in the directory after saving (OL l.509-548, EX l.141-146, l.191-202, l.384): a directory for every name, the indicator and the metadata.
    A name that is that of the metadata is in the way of the file; the indicator may be there. *)
Definition save_checkpointables {O : Type} (W : world O) (I : io O) (r : registry) (cs : list (string * option O)) : result (list (string * node)) :=
  rbind (match cs with [] => Err ValueError | _ => check_names (map fst cs) end) (fun _ =>
  rbind (handlers_for_save W r cs) (fun hs =>
  rbind (sequence (map (fun x => match snd (fst x) with Some o => rmap (fun d => (fst (fst x), Dir d)) (io_save I (snd (snd x)) o) | None => Err ValueError end) (combine cs hs))) (fun dirs =>
  if existsb (String.eqb checkpoint_metadata_file) (map fst cs) then Err OtherError
  else Ok ((dirs ++ (if existsb (String.eqb indicator_file) (map fst cs) then [] else [(indicator_file, File (COther 0))]) ++ [(checkpoint_metadata_file, File (CMeta (SMany (saved_typestrs W hs))))])%list)))).

(** EX l.66-85: the dictionary is changed in place. *)
Definition add_internal {O : Type} (cs : list (string * option O)) (metrics : option O) : list (string * option O) :=
  match metrics with Some m => dput String.eqb "metrics" (Some m) cs | None => cs end.

(** Saving by way of a checkpointer of a training (TC l.524-596, SA l.298-318), as far as it looks at what is to be saved:
    what it hands on, and what the dictionary of the caller is afterwards *)
Definition trainer_save {O : Type} (cs : list (string * option O)) (metrics : option O) : result (list (string * option O)) * list (string * option O) :=
  match (match cs with [] => Err ValueError | _ => check_names (map fst cs) end) with
  | Err e => (Err e, cs)
  | Ok _ => let d := add_internal cs metrics in (Ok d, d)
  end.

(** ** Metadata *)

(** OL l.550-590: what a handler cannot say is unknown. *)
Definition item_metadata {O : Type} (I : io O) (l : list (string * node)) (hs : dict string nat) : list (string * option O) :=
  map (fun x => (fst x, match at_dir (io_meta I (snd x)) (fst x) l with Ok m => Some m | Err _ => None end)) hs.

(** OL l.235-265 *)
Definition v1_checkpointables_metadata {O : Type} (W : world O) (I : io O) (r : registry) (p : place) : result (list (string * option O)) :=
  let l := entries p in
  rbind (handlers_for_load W r (map (fun n => (n, None)) (existing_names l)) (read_metadata l)) (fun hs =>
  Ok (filter (fun x => negb (String.eqb (fst x) "metrics")) (item_metadata I l hs))).

(** OL l.267-285 *)
Definition v1_metadata {O : Type} (W : world O) (I : io O) (r : registry) (p : place) (name : option string) : result (option O) :=
  match name with
  | None => Err ValueError
  | Some n =>
    rbind (v1_checkpointables_metadata W I r p) (fun d =>
    match dget String.eqb (if String.eqb n "" then state_key else n) d with Some m => Ok m | None => Err ValueError end)
  end.

(** OV l.138-161 *)
Definition v0_checkpointables_metadata {O : Type} (W : world O) (I : io O) (r : registry) (p : place) : result (list (string * option O)) :=
  if is_direct p then Err ValueError else v1_checkpointables_metadata W I r p.

(** OV l.91-119, l.163-177 *)
Definition v0_metadata {O : Type} (W : world O) (I : io O) (r : registry) (p : place) (name : option string) : result (option O) :=
  match name with
  | None =>
    if negb (is_direct p) then Err ValueError
    else rbind (handler_direct W r (p_name p) None (read_metadata (entries p))) (fun h => rmap Some (io_meta I h (entries p)))
  | Some _ => v1_metadata W I r p name
  end.

(** ML l.39-120 *)
Definition metadata {O : Type} (W : world O) (I : io O) (r : registry) (p : place) (e : layout_enum) (flat : result (option O)) (name : option string) : result (option O) :=
  rbind (check_name name) (fun _ =>
  rbind (resolve p e name) (fun x =>
  match fst x with
  | V1 => v1_metadata W I r p (snd x)
  | V0 => v0_metadata W I r p (snd x)
  | Safetensors => flat
  end)).

(** ML l.123-171 *)
Definition checkpointables_metadata {O : Type} (W : world O) (I : io O) (r : registry) (p : place) (e : layout_enum) : result (list (string * option O)) :=
  rbind (get_layout p e) (fun y =>
  rbind (match y with V1 => v1_checkpointables_metadata W I r p | V0 => v0_checkpointables_metadata W I r p | Safetensors => Err NotImplementedError end) (fun d =>
  rmap (fun _ => d) (check_names (map fst d)))).
