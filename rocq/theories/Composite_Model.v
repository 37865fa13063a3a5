(** Model of the handler that saves and restores several items, each with its own handler: the
    registries by which a handler is found for an item, and saving, finalization, restoring and
    metadata of all items of a checkpoint.
    Source: checkpoint/orbax/checkpoint/_src/handlers/composite_checkpoint_handler.py ("CC"),
    checkpoint/orbax/checkpoint/_src/handlers/handler_registration.py ("HR"),
    checkpoint/orbax/checkpoint/_src/handlers/handler_type_registry.py ("HT"),
    checkpoint/orbax/checkpoint/checkpoint_args.py ("CA"),
    checkpoint/orbax/checkpoint/_src/composite.py ("CO"),
    checkpoint/orbax/checkpoint/_src/path/atomicity.py ("AT"),
    checkpoint/orbax/checkpoint/_src/path/atomicity_types.py ("AY") and
    checkpoint/orbax/checkpoint/_src/checkpointers/checkpointer.py ("CK").
    Simplifications: handlers are compared by identity; a handler's save, finalize, restore or
    metadata, the creation of a directory and its commit are each one step, which happens or
    fails as a whole; the handlers saving in the background (CC l.703-704) take their steps one
    after another when they are gathered; a directory created in the background (CC l.680-687)
    exists before the handlers write; directories contain directories only, and that of the
    checkpoint exists; a wrapper of a handler without registered args (CC l.95-186) has the
    identity of the handler.
    Not modelled: the barriers between processes, [descriptor], snapshots, logging, times. *)
From Coq Require Import List Bool Arith NArith ZArith String Ascii.
From Verif Require Import Base Tree_Model.
Import ListNotations.
Open Scope string_scope.

(** ** Classes *)

(** Classes of handlers; the first two are CC l.95-122 and CC l.136-168 *)
Inductive hcls : Type := LegacyWrapper | AsyncLegacyWrapper | HC (n : N).

(** Classes of args; the first two are CC l.128-132 and CC l.174-178 *)
Inductive acls : Type := WrapperArgs | AsyncWrapperArgs | AC (n : N).

(** A handler object (CC l.78) *)
Record hnd : Type := mkH { h_id : N; h_cls : hcls }.

(** An object of args (CA l.27-72) *)
Record arg : Type := mkA { a_cls : acls; a_val : N }.

(** Facts about classes: whether it is an [AsyncCheckpointHandler] (CC l.703), whether it can be
    made without arguments (CC l.582-584, CC l.836), its [typestr()] if it has one (HT l.34-37)
    and its module and name (HT l.37, l.50-53) *)
Record env : Type := mkE {
  e_async : N -> bool; e_makes_handler : N -> bool; e_makes_args : N -> bool;
  e_typestr : N -> option string; e_qualname : N -> string }.

(** Equality of classes of handlers (CA l.161) *)
Definition hcls_eqb (a b : hcls) : bool :=
  match a, b with
  | LegacyWrapper, LegacyWrapper => true
  | AsyncLegacyWrapper, AsyncLegacyWrapper => true
  | HC m, HC n => N.eqb m n
  | _, _ => false
  end.

(** Equality of classes of args (CC l.250) *)
Definition acls_eqb (a b : acls) : bool :=
  match a, b with
  | WrapperArgs, WrapperArgs => true
  | AsyncWrapperArgs, AsyncWrapperArgs => true
  | AC m, AC n => N.eqb m n
  | _, _ => false
  end.

(** Identity of handlers (CC l.221) *)
Definition hnd_eqb (a b : hnd) : bool := N.eqb (h_id a) (h_id b) && hcls_eqb (h_cls a) (h_cls b).

(** [isinstance(handler, AsyncCheckpointHandler)] (CC l.136, l.184, l.703) *)
Definition is_async (E : env) (c : hcls) : bool :=
  match c with LegacyWrapper => false | AsyncLegacyWrapper => true | HC n => e_async E n end.

(** A class of handlers called without arguments gives a handler (CC l.98, l.141, l.582-584). *)
Definition makes_handler (E : env) (c : hcls) : bool :=
  match c with LegacyWrapper | AsyncLegacyWrapper => false | HC n => e_makes_handler E n end.

(** A class of args called without arguments gives args (CC l.130, l.176, l.836). *)
Definition makes_args (E : env) (c : acls) : bool :=
  match c with WrapperArgs | AsyncWrapperArgs => true | AC n => e_makes_args E n end.

(** [typestr()] (CC l.901) *)
Definition typestr (E : env) (c : hcls) : option string :=
  match c with
  | LegacyWrapper => Some "_LegacyCheckpointHandlerWrapper"
  | AsyncLegacyWrapper => Some "_AsyncLegacyCheckpointHandlerWrapper"
  | HC n => e_typestr E n
  end.

(** Module and name (HT l.37) *)
Definition qualname (E : env) (c : hcls) : string :=
  match c with
  | LegacyWrapper => "_LegacyCheckpointHandlerWrapper"
  | AsyncLegacyWrapper => "_AsyncLegacyCheckpointHandlerWrapper"
  | HC n => e_qualname E n
  end.

(** ** Global registries *)

(** CA l.74-78 and HT l.95 *)
Record globals : Type := mkG { g_save : dict acls hcls; g_restore : dict acls hcls; g_types : dict string hcls }.

(** HT l.32-81 *)
Definition add_type (E : env) (c : hcls) (d : dict string hcls) : result (dict string hcls) :=
  let s := match typestr E c with Some s => s | None => qualname E c end in
  match dget String.eqb s d with
  | Some c' =>
    if negb (String.eqb (qualname E c') (qualname E c)) then Err ValueError
    else if hcls_eqb c' c then Ok d else Ok (dput String.eqb s c d)
  | None => Ok (dput String.eqb s c d)
  end.

(** HT l.83-92, l.115-116 *)
Definition get_handler_type (G : globals) (s : option string) : result hcls :=
  match s with
  | None => Err KeyError
  | Some s => match dget String.eqb s (g_types G) with Some c => Ok c | None => Err KeyError end
  end.

(** CA l.83-123 *)
Definition register_with_handler (E : env) (a : acls) (c : hcls) (for_save for_restore : bool) (G : globals) : result globals :=
  if negb for_save && negb for_restore then Err ValueError
  else
    let sv := if for_save then dput acls_eqb a c (g_save G) else g_save G in
    let rs := if for_restore then dput acls_eqb a c (g_restore G) else g_restore G in
    rmap (fun t => mkG sv rs t) (add_type E c (g_types G)).

(** All registrations of a program (CA l.83-123), each a class of args, a class of handlers,
    [for_save] and [for_restore] *)
Fixpoint register_all (E : env) (l : list (acls * hcls * bool * bool)) (G : globals) : result globals :=
  match l with
  | [] => Ok G
  | (a, c, s, r) :: l' => rbind (register_with_handler E a c s r G) (register_all E l')
  end.

(** The registrations of the wrappers (CC l.125-127, l.171-173) *)
Definition wrappers : list (acls * hcls * bool * bool) :=
  [(WrapperArgs, LegacyWrapper, true, true); (AsyncWrapperArgs, AsyncLegacyWrapper, true, true)].

(** CA l.126-142 *)
Definition get_registered_handler_cls (G : globals) (a : acls) : result hcls :=
  match dget acls_eqb a (g_save G) with
  | Some c => Ok c
  | None => match dget acls_eqb a (g_restore G) with Some c => Ok c | None => Err ValueError end
  end.

(** The first class of args registered for a class of handlers (CA l.160-163, l.168-171) *)
Fixpoint first_for (c : hcls) (d : dict acls hcls) : option acls :=
  match d with
  | [] => None
  | (a, c') :: d' => if hcls_eqb c' c then Some a else first_for c d'
  end.

(** CA l.145-176 *)
Definition get_registered_args_cls (G : globals) (c : hcls) : result (acls * acls) :=
  match first_for c (g_save G) with
  | None => Err ValueError
  | Some s => match first_for c (g_restore G) with None => Err ValueError | Some r => Ok (s, r) end
  end.

(** CA l.179-186 *)
Definition has_registered_args (G : globals) (c : hcls) : bool :=
  match get_registered_args_cls G c with Ok _ => true | Err _ => false end.

(** ** Registries of handlers *)

(** HR l.33-35 *)
Definition registry : Type := dict (option string * acls) hnd.

(** Equality of keys (HR l.33-35) *)
Definition key_eqb (a b : option string * acls) : bool :=
  match fst a, fst b with
  | None, None => acls_eqb (snd a) (snd b)
  | Some x, Some y => String.eqb x y && acls_eqb (snd a) (snd b)
  | _, _ => false
  end.

(** HR l.246-262 *)
Definition has (item : option string) (a : acls) (r : registry) : bool :=
  match dget key_eqb (item, a) r with Some _ => true | None => false end.

(** HR l.220-244 *)
Definition get (item : option string) (a : acls) (r : registry) : result hnd :=
  match dget key_eqb (item, a) r with Some h => Ok h | None => Err KeyError end.

(** HR l.158-218, with a handler *)
Definition add (item : option string) (a : acls) (h : hnd) (r : registry) : result registry :=
  if has item a r then Err ValueError else Ok (dput key_eqb (item, a) h r).

(** The argument [handler] (HR l.162-164) *)
Inductive hspec : Type := NoHandler | HandlerType (c : hcls) | HandlerObject (h : hnd).

(** HR l.158-218, with any argument; [next] is the identity of the next object. *)
Definition add_any (E : env) (G : globals) (item : option string) (a : acls) (s : hspec) (next : N) (r : registry) : result registry :=
  if has item a r then Err ValueError
  else
    let make c := if makes_handler E c then add item a (mkH next c) r else Err ValueError in
    match s with
    | NoHandler => match get_registered_handler_cls G a with Ok c => make c | Err _ => Err ValueError end
    | HandlerType c => make c
    | HandlerObject h => add item a h r
    end.

(** HR l.145-156 *)
Fixpoint add_entries (l : list (option string * acls * hnd)) (r : registry) : result registry :=
  match l with
  | [] => Ok r
  | ((item, a), h) :: l' => rbind (add item a h r) (add_entries l')
  end.

(** HR l.277-288 *)
Fixpoint create_default (G : globals) (l : list (string * hnd)) (r : registry) : result registry :=
  match l with
  | [] => Ok r
  | (item, h) :: l' =>
    rbind (get_registered_args_cls G (h_cls h)) (fun x =>
    rbind (add (Some item) (fst x) h r) (fun r =>
    rbind (add (Some item) (snd x) h r) (create_default G l')))
  end.

(** [(item, handler) in l] (CC l.221) *)
Fixpoint has_pair (item : string) (h : hnd) (l : list (string * hnd)) : bool :=
  match l with
  | [] => false
  | (item', h') :: l' => (String.eqb item item' && hnd_eqb h h') || has_pair item h l'
  end.

(** CC l.205-223 *)
Definition unique_items (r : registry) : list (string * hnd) :=
  fold_left (fun acc x =>
    match fst (fst x) with
    | None => acc
    | Some item => if has_pair item (snd x) acc then acc else (acc ++ [(item, snd x)])%list
    end) r [].

(** ** The state *)

(** What is in the directory of an item: who saved it and with what, who finalized it, and
    whether it is committed (CC l.704-708, l.1050-1051). *)
Record content : Type := mkC { c_by : option (hnd * option arg); c_fin : list hnd; c_commit : bool }.

(** Steps that reach the file system (CC l.690-694, l.704-708, l.1050-1051, l.860, l.928) *)
Inductive event : Type :=
| ECreate (d : N) (item : string)
| ESave (h : hnd) (d : N) (item : string) (a : option arg)
| EFinalize (h : hnd) (d : N) (item : string)
| ECommit (d : N) (item : string)
| ERestore (h : hnd) (d : N) (item : string) (a : option arg)
| EMetadata (h : hnd) (d : N) (item : string).

(** [item_handlers] in the metadata file of a checkpoint (CC l.871-883) *)
Inductive saved : Type := SNone | SStr (s : string) | SDict (d : dict string (option string)).

(** A [CompositeCheckpointHandler] (CC l.372-378, l.410-511) in a world: the number of objects
    made, the directories of items and temporary items (by checkpoint and name), the metadata
    files of checkpoints, and all steps so far. [tmps] are the items of the current save and
    their checkpoint (CC l.372). *)
Record st : Type := mkSt {
  reg : registry; unreg : option (list string); deferred : option (list string);
  tmps : dict string N; next : N; disk : dict (N * string) content; meta : dict N saved; log : list event }.

(** Assignment to a part of the state (CC l.246-251) *)
Definition set_reg (x : registry) (s : st) : st := mkSt x (unreg s) (deferred s) (tmps s) (next s) (disk s) (meta s) (log s).
(** Assignment to a part of the state (CC l.595) *)
Definition set_unreg (x : option (list string)) (s : st) : st := mkSt (reg s) x (deferred s) (tmps s) (next s) (disk s) (meta s) (log s).
(** Assignment to a part of the state (CC l.614) *)
Definition set_deferred (x : option (list string)) (s : st) : st := mkSt (reg s) (unreg s) x (tmps s) (next s) (disk s) (meta s) (log s).
(** Assignment to a part of the state (CC l.676-678, l.1058) *)
Definition set_tmps (x : dict string N) (s : st) : st := mkSt (reg s) (unreg s) (deferred s) x (next s) (disk s) (meta s) (log s).
(** A new object is made (CC l.582-584). *)
Definition set_next (x : N) (s : st) : st := mkSt (reg s) (unreg s) (deferred s) (tmps s) x (disk s) (meta s) (log s).
(** The directories change (CC l.690-694). *)
Definition set_disk (x : dict (N * string) content) (s : st) : st := mkSt (reg s) (unreg s) (deferred s) (tmps s) (next s) x (meta s) (log s).
(** A metadata file is written (CK l.412-415). *)
Definition set_meta (x : dict N saved) (s : st) : st := mkSt (reg s) (unreg s) (deferred s) (tmps s) (next s) (disk s) x (log s).
(** One more step (CC l.690-694) *)
Definition set_log (x : list event) (s : st) : st := mkSt (reg s) (unreg s) (deferred s) (tmps s) (next s) (disk s) (meta s) x.

(** A method may raise after it changed the state (CC l.671). *)
Definition M (A : Type) : Type := st -> st * result A.

(** [return] (CC l.729) *)
Definition ret {A : Type} (x : A) : M A := fun s => (s, Ok x).

(** [raise] (CC l.568) *)
Definition raise {A : Type} (e : err) : M A := fun s => (s, Err e).

(** One statement after another (CC l.675-729) *)
Definition bind {A B : Type} (m : M A) (f : A -> M B) : M B :=
  fun s => match m s with (s', Ok x) => f x s' | (s', Err e) => (s', Err e) end.

(** A call of a function that does not change the state (CC l.233) *)
Definition lift {A : Type} (r : result A) : M A := fun s => (s, r).

(** Reading the state (CC l.539) *)
Definition asks {A : Type} (f : st -> A) : M A := fun s => (s, Ok (f s)).

(** Changing the state (CC l.595) *)
Definition modify (f : st -> st) : M unit := fun s => (f s, Ok tt).

(** A loop over a list (CC l.698) *)
Fixpoint for_each {A B : Type} (f : A -> M B) (l : list A) : M (list B) :=
  match l with
  | [] => ret []
  | x :: l' => bind (f x) (fun y => bind (for_each f l') (fun ys => ret (y :: ys)))
  end.

(** Equality of paths (AT l.164-167) *)
Definition path_eqb (a b : N * string) : bool := N.eqb (fst a) (fst b) && String.eqb (snd a) (snd b).

(** Removing a directory (AT l.139, l.552) *)
Definition drop (p : N * string) (d : dict (N * string) content) : dict (N * string) content :=
  filter (fun x => negb (path_eqb p (fst x))) d.

(** [item in l] (CC l.594, l.611) *)
Definition mem (x : string) (l : list string) : bool := existsb (String.eqb x) l.

(** [d.pop(k)] (CC l.1058) *)
Definition pop {V : Type} (k : string) (d : dict string V) : dict string V :=
  filter (fun x => negb (String.eqb k (fst x))) d.

(** [startswith('__')] (CO l.59) *)
Definition dunder (s : string) : bool := prefix "__" s.

(** CO l.51-65 *)
Definition composite {V : Type} (items : dict string V) : result (dict string V) :=
  if existsb (fun x => dunder (fst x)) items then Err ValueError else Ok items.

(** Insertion into a sorted list of items (CC l.659, l.852) *)
Fixpoint insert_name (x : string) (l : list string) : list string :=
  match l with
  | [] => [x]
  | y :: l' => if String.leb x y then x :: y :: l' else y :: insert_name x l'
  end.

(** [sorted(args.keys())] (CC l.659, l.852) *)
Definition sorted_names (l : list string) : list string := fold_right insert_name [] l.

(** The first handler of an item in a list (CC l.564-567) *)
Fixpoint find_item (item : string) (l : list (string * hnd)) : option hnd :=
  match l with
  | [] => None
  | (i, h) :: l' => if String.eqb item i then Some h else find_item item l'
  end.

(** [args[item_name]] (CO l.67-72) *)
Definition arg_of (item : string) (args : dict string (option arg)) : result (option arg) :=
  match dget String.eqb item args with Some a => Ok a | None => Err KeyError end.

Section Handler.

(** The classes (CC l.78), the global registries (CA l.74-78), the way temporary directories are
    made ([commit_file]: AT l.562-681, otherwise AT l.445-552) and the failures: the [n]th step
    fails if [fault n] is an error. *)
Variable E : env.
Variable G : globals.
Variable commit_file : bool.
Variable fault : nat -> option err.

(** A step that reaches the file system (CC l.704-708, l.860) *)
Definition act (e : event) (f : st -> st * result unit) : M unit := fun s =>
  let s' := set_log (log s ++ [e])%list s in
  match fault (List.length (log s)) with
  | Some x => (s', Err x)
  | None => f s'
  end.

(** AT l.164-167 and AT l.623-625; the suffix is AY l.30 *)
Definition tmp_name (item : string) : string :=
  if commit_file then item else item ++ ".orbax-checkpoint-tmp".

(** ** Construction *)

(** CC l.181-186 *)
Definition legacy_wrapper (h : hnd) : hnd :=
  mkH (h_id h) (if is_async E (h_cls h) then AsyncLegacyWrapper else LegacyWrapper).

(** CC l.226-251 *)
Definition add_from_global (h : hnd) (item : string) : M hnd :=
  bind (lift (get_registered_args_cls G (h_cls h))) (fun x =>
  bind (asks reg) (fun r =>
  bind (lift (add (Some item) (fst x) h r)) (fun r =>
  bind (modify (set_reg r)) (fun _ =>
  if acls_eqb (snd x) (fst x) then ret h
  else
    bind (lift (add (Some item) (snd x) h r)) (fun r =>
    bind (modify (set_reg r)) (fun _ => ret h)))))).

(** CC l.428-436: names without a handler *)
Definition names_without (names : list string) (hs : dict string (option hnd)) : list string :=
  filter (fun i => match dget String.eqb i hs with None => true | Some _ => false end) names.

(** CC l.439-465 *)
Definition add_item (x : string * option hnd) : M unit :=
  match snd x with
  | Some h =>
    if has_registered_args G (h_cls h) then bind (add_from_global h (fst x)) (fun _ => ret tt)
    else
      bind (asks reg) (fun r =>
      bind (lift (add (Some (fst x)) WrapperArgs (legacy_wrapper h) r)) (fun r => modify (set_reg r)))
  | None =>
    modify (fun s => set_unreg (match unreg s with Some l => Some (fst x :: l) | None => None end) s)
  end.

(** CC l.410-511; [s] is the world in which the handler is made. *)
Definition construct (names : list string) (hs : dict string (option hnd)) (registry : option registry) (s : st) : st * result unit :=
  let s := set_tmps [] s in
  match registry, names, hs with
  | Some r, [], [] =>
    match add_entries r [] with
    | Ok r => (set_reg r (set_unreg None (set_deferred (Some (map fst (unique_items r))) s)), Ok tt)
    | Err e => (s, Err e)
    end
  | Some _, _, _ => (s, Err ValueError)
  | None, [], [] => (set_reg [] (set_unreg None (set_deferred (Some []) s)), Ok tt)
  | None, _, _ =>
    bind (for_each add_item hs) (fun _ => ret tt)
         (set_reg [] (set_unreg (Some (names_without names hs)) (set_deferred None s)))
  end.

(** ** The handler of an item *)

(** CC l.513-532, as the dictionary made of it in CC l.794-796: the last handler of an item is
    kept. *)
Definition items_to_handlers (s : st) : dict string (option hnd) :=
  dict_of String.eqb
    (map (fun x => (fst x, Some (snd x))) (unique_items (reg s))
     ++ match unreg s with Some l => map (fun i => (i, None)) l | None => [] end)%list.

(** CC l.534-626 *)
Definition get_or_set_handler (item : string) (a : option arg) : M hnd :=
  bind (asks reg) (fun r =>
  match a with
  | None =>
    match find_item item (unique_items r) with
    | Some h => ret h
    | None => raise ValueError
    end
  | Some a =>
    if has (Some item) (a_cls a) r then lift (get (Some item) (a_cls a) r)
    else if has None (a_cls a) r then
      bind (lift (get None (a_cls a) r)) (fun h =>
      bind (lift (add (Some item) (a_cls a) h r)) (fun r =>
      bind (modify (set_reg r)) (fun _ => ret h)))
    else
      bind (lift (get_registered_handler_cls G (a_cls a))) (fun c =>
      if makes_handler E c then
        bind (asks next) (fun n =>
        bind (modify (set_next (n + 1))) (fun _ =>
        bind (asks unreg) (fun u =>
        match u with
        | Some l =>
          if mem item l then
            bind (modify (set_unreg (Some (filter (fun i => negb (String.eqb item i)) l)))) (fun _ =>
            add_from_global (mkH n c) item)
          else raise ValueError
        | None =>
          bind (asks deferred) (fun o =>
          match o with
          | None => raise AssertionError
          | Some l =>
            if mem item l then raise ValueError
            else bind (modify (set_deferred (Some (item :: l)))) (fun _ => add_from_global (mkH n c) item)
          end)
        end)))
      else raise TypeError)
  end).

(** ** Saving *)

(** AT l.104-161 *)
Definition create (d : N) (item : string) : M unit :=
  act (ECreate d item) (fun s =>
    (set_disk (dput path_eqb (d, tmp_name item) (mkC None [] false) (drop (d, tmp_name item) (disk s))) s, Ok tt)).

(** A handler's save (CC l.704, l.708) *)
Definition save_item (h : hnd) (d : N) (item : string) (a : option arg) : M unit :=
  act (ESave h d item a) (fun s => (set_disk (dput path_eqb (d, tmp_name item) (mkC (Some (h, a)) [] false) (disk s)) s, Ok tt)).

(** [asyncio.gather] (CC l.714-716): all save, and the first error is raised. *)
Fixpoint gather (l : list (M unit)) : M unit :=
  match l with
  | [] => ret tt
  | m :: l' => fun s =>
    match m s with
    | (s', Ok _) => gather l' s'
    | (s', Err e) => (fst (gather l' s'), Err e)
    end
  end.

(** CC l.698-712: what is left to be awaited for one item *)
Definition start_save (d : N) (args : dict string (option arg)) (item : string) : M (list (M unit)) :=
  bind (lift (arg_of item args)) (fun a =>
  bind (get_or_set_handler item a) (fun h =>
  if is_async E (h_cls h) then ret [save_item h d item a]
  else bind (save_item h d item a) (fun _ => ret []))).

(** CC l.648-669 and CC l.671-729 *)
Definition async_save (d : N) (args : dict string (option arg)) : M unit :=
  bind (lift (composite args)) (fun args =>
  let names := sorted_names (map fst args) in
  bind (modify (set_tmps (map (fun i => (i, d)) names))) (fun _ =>
  bind (for_each (create d) names) (fun _ =>
  bind (for_each (start_save d args) names) (fun ops => gather (List.concat ops))))).

(** ** Finalization *)

(** A handler's finalize (CC l.1050) *)
Definition finalize_item (h : hnd) (d : N) (item : string) : M unit :=
  act (EFinalize h d item) (fun s =>
    match dget path_eqb (d, tmp_name item) (disk s) with
    | Some c => (set_disk (dput path_eqb (d, tmp_name item) (mkC (c_by c) (c_fin c ++ [h])%list (c_commit c)) (disk s)) s, Ok tt)
    | None => (s, Err FileNotFoundError)
    end).

(** CC l.1051: AT l.544-552, which refuses to replace a directory, or AT l.677-681 *)
Definition commit (d : N) (item : string) : M unit :=
  act (ECommit d item) (fun s =>
    match dget path_eqb (d, tmp_name item) (disk s) with
    | Some c =>
      let c' := mkC (c_by c) (c_fin c) true in
      if commit_file then (set_disk (dput path_eqb (d, item) c' (disk s)) s, Ok tt)
      else
        match dget path_eqb (d, item) (disk s) with
        | Some _ => (set_disk (dput path_eqb (d, tmp_name item) c' (disk s)) s, Err OtherError)
        | None => (set_disk (dput path_eqb (d, item) c' (drop (d, tmp_name item) (disk s))) s, Ok tt)
        end
    | None => (s, Err FileNotFoundError)
    end).

(** CC l.1042-1058, for one item and handler *)
Definition finalize_one (x : string * hnd) : M unit :=
  bind (asks tmps) (fun t =>
  match dget String.eqb (fst x) t with
  | None => ret tt
  | Some d =>
    bind (finalize_item (snd x) d (fst x)) (fun _ =>
    bind (commit d (fst x)) (fun _ => modify (set_tmps (pop (fst x) t))))
  end).

(** CC l.1039-1058 *)
Definition finalize : M unit :=
  bind (asks tmps) (fun t =>
  match t with
  | [] => raise ValueError
  | _ => bind (asks reg) (fun r => bind (for_each finalize_one (unique_items r)) (fun _ => ret tt))
  end).

(** ** Metadata *)

(** CC l.760-761 *)
Definition existing_items (d : N) (s : st) : list string :=
  map (fun x => snd (fst x)) (filter (fun x => N.eqb d (fst (fst x))) (disk s)).

(** CC l.884-901, for one item *)
Definition handler_entry (ith : dict string (option hnd)) (item : string) (d : dict string (option string))
  : result (dict string (option string)) :=
  match dget String.eqb item ith with
  | Some (Some h) =>
    match dget String.eqb item d with
    | Some (Some _) => Ok d
    | _ => match typestr E (h_cls h) with Some t => Ok (dput String.eqb item (Some t) d) | None => Err AttributeError end
    end
  | _ => match dget String.eqb item d with None => Ok (dput String.eqb item None d) | Some _ => Ok d end
  end.

(** CC l.884-903 *)
Fixpoint handler_entries (ith : dict string (option hnd)) (items : list string) (d : dict string (option string))
  : result (dict string (option string)) :=
  match items with
  | [] => Ok d
  | i :: r => rbind (handler_entry ith i d) (handler_entries ith r)
  end.

(** CC l.865-903 *)
Definition get_item_handlers (sv : saved) (items : list string) (ith : dict string (option hnd)) : result (dict string (option string)) :=
  match sv with
  | SStr _ => Err ValueError
  | SDict d => handler_entries ith items d
  | SNone => handler_entries ith items []
  end.

(** What the metadata of an item is: of which handler and what content (CC l.928-930) *)
Definition item_meta : Type := option (hnd * content).

(** CC l.914-939, for one item *)
Definition get_item_metadata (d : N) (ith : dict string (option hnd)) (item : string) : M (string * item_meta) :=
  match dget String.eqb item ith with
  | Some (Some h) => fun s =>
    match act (EMetadata h d item) (fun s => match dget path_eqb (d, item) (disk s) with Some _ => (s, Ok tt) | None => (s, Err FileNotFoundError) end) s with
    | (s', Ok _) => (s', Ok (item, match dget path_eqb (d, item) (disk s') with Some c => Some (h, c) | None => None end))
    | (s', Err FileNotFoundError) => (s', Ok (item, None))
    | (s', Err e) => (s', Err e)
    end
  | _ => ret (item, None)
  end.

(** The metadata file (CC l.961-966) *)
Definition saved_metadata (d : N) (s : st) : saved :=
  match dget N.eqb d (meta s) with Some v => v | None => SNone end.

(** CC l.941-981 *)
Definition metadata_base (d : N) (items : list string) (with_items : bool) : M (dict string (option string) * option (dict string item_meta)) :=
  bind (asks items_to_handlers) (fun ith =>
  bind (asks (saved_metadata d)) (fun sv =>
  bind (if with_items
        then bind (for_each (get_item_metadata d ith) items) (fun l => bind (lift (composite l)) (fun l => ret (Some l)))
        else ret None) (fun im =>
  bind (lift (get_item_handlers sv items ith)) (fun ih => ret (ih, im))))).

(** CC l.983-994 *)
Definition metadata_from_temporary_paths (d : N) : M (dict string (option string)) :=
  bind (asks tmps) (fun t => bind (metadata_base d (map fst t) false) (fun x => ret (fst x))).

(** CC l.996-1037 *)
Definition metadata (d : N) : M (dict string (option string) * option (dict string item_meta)) :=
  bind (asks (existing_items d)) (fun ex =>
  bind (asks tmps) (fun t =>
  if existsb (fun x => mem (tmp_name (fst x)) ex) t then raise ValueError
  else metadata_base d ex true)).

(** CK l.376-415, the handlers of items: some errors are ignored. *)
Definition save_step_metadata (d : N) : M unit := fun s =>
  match metadata_from_temporary_paths d s with
  | (s', Ok ih) => (set_meta (dput N.eqb d (SDict ih) (meta s')) s', Ok tt)
  | (s', Err (FileNotFoundError | NotImplementedError | ValueError | TypeError)) => (s', Ok tt)
  | (s', Err e) => (s', Err e)
  end.

(** ** Restoring *)

(** What is restored: by which handler, with which args and from what (CC l.860-862) *)
Record restored : Type := mkR { r_by : hnd; r_arg : option arg; r_from : content }.

(** The class of the handler of an item for which no args are given (CC l.807-830) *)
Definition class_to_restore (d : N) (ith : dict string (option hnd)) (item : string) : M hcls :=
  match dget String.eqb item ith with
  | None =>
    bind (metadata d) (fun x =>
    match dget String.eqb item (fst x) with
    | None => raise ValueError
    | Some t => match get_handler_type G t with Ok c => ret c | Err KeyError => raise ValueError | Err e => raise e end
    end)
  | Some None => raise ValueError
  | Some (Some h) => ret (h_cls h)
  end.

(** CC l.802-843, for one item; the args made have no value. *)
Definition default_args (d : N) (ith : dict string (option hnd)) (item : string) : M (string * option arg) :=
  bind (class_to_restore d ith item) (fun c =>
  bind (lift (get_registered_args_cls G c)) (fun x =>
  if makes_args E (snd x) then ret (item, Some (mkA (snd x) 0)) else raise ValueError)).

(** CC l.852-862, for one item *)
Definition restore_item (d : N) (existing : list string) (args : dict string (option arg)) (item : string) : M (string * restored) :=
  bind (lift (arg_of item args)) (fun a =>
  if negb (mem item existing) then raise KeyError
  else
    bind (get_or_set_handler item a) (fun h =>
    bind (act (ERestore h d item a) (fun s => (s, Ok tt))) (fun _ =>
    bind (asks (fun s => dget path_eqb (d, item) (disk s))) (fun o =>
    match o with
    | Some c => ret (item, mkR h a c)
    | None => raise FileNotFoundError
    end)))).

(** CC l.763-863 *)
Definition restore (d : N) (args : option (dict string (option arg))) : M (dict string restored) :=
  bind (asks items_to_handlers) (fun ith =>
  bind (asks (existing_items d)) (fun ex =>
  bind (match args with
        | None | Some [] => bind (for_each (default_args d ith) ex) (fun l => lift (composite l))
        | Some l => lift (composite l)
        end) (fun args =>
  bind (for_each (restore_item d ex args) (sorted_names (map fst args))) (fun l => lift (composite l))))).

(** ** All that can happen *)

(** Calls of the methods of the handler (CC l.671, l.763, l.996, l.1039) and of CK l.376 *)
Inductive op : Type :=
| OSave (d : N) (args : dict string (option arg))
| OStepMetadata (d : N)
| OFinalize
| ORestore (d : N) (args : option (dict string (option arg)))
| OMetadata (d : N).

(** One call, whatever it returns or raises (CC l.671, l.763, l.996, l.1039, CK l.376) *)
Definition run_op (o : op) (s : st) : st :=
  match o with
  | OSave d args => fst (async_save d args s)
  | OStepMetadata d => fst (save_step_metadata d s)
  | OFinalize => fst (finalize s)
  | ORestore d args => fst (restore d args s)
  | OMetadata d => fst (metadata d s)
  end.

(** Many calls (CC l.671, l.763, l.996, l.1039, CK l.376) *)
Definition run (l : list op) (s : st) : st := fold_left (fun s o => run_op o s) l s.

End Handler.
