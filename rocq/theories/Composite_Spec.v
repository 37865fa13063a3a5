(** What is said about the handler of several items, without its registries' internals. *)
From Coq Require Import List Bool Arith NArith String Permutation Sorted.
From Verif Require Import Base Tree_Model Composite_Model.
Import ListNotations.
Open Scope string_scope.

(** The item that a step is about and the handler that takes it *)
Definition done_by (e : event) : option (string * hnd) :=
  match e with
  | ESave h _ i _ | EFinalize h _ i | ERestore h _ i _ | EMetadata h _ i => Some (i, h)
  | ECreate _ _ | ECommit _ _ => None
  end.

(** All steps about an item are taken by one handler. *)
Definition one_handler (l : list event) : Prop :=
  forall e e' i h h', In e l -> In e' l -> done_by e = Some (i, h) -> done_by e' = Some (i, h') -> h = h'.

(** A registry that names for every item one handler, and none for all items *)
Definition simple (r : registry) : Prop :=
  (forall a h, ~ In ((None, a), h) r) /\
  (forall i a a' h h', In ((Some i, a), h) r -> In ((Some i, a'), h') r -> h = h').

(** The item has the handler. *)
Definition has_handler (s : st) (i : string) (h : hnd) : Prop := exists a, In ((Some i, a), h) (reg s).

(** No step is about the item. *)
Definition untouched (l : list event) (i : string) : Prop := forall e h, In e l -> done_by e <> Some (i, h).

(** The items of a checkpoint and the content of each *)
Definition holds (s : st) (d : N) (i : string) (c : content) : Prop := dget path_eqb (d, i) (disk s) = Some c.

(** Nothing of that name is in the checkpoint. *)
Definition absent (s : st) (d : N) (i : string) : Prop := dget path_eqb (d, i) (disk s) = None.

(** Names of items that can be saved together, into a place where they are not yet: no name is
    that of another's temporary directory. *)
Definition savable (commit_file : bool) (s : st) (d : N) (names : list string) : Prop :=
  NoDup names /\
  (commit_file = false -> forall i, In i names -> absent s d i /\ forall j, In j names -> i <> tmp_name commit_file j).

(** What a program registers: no class of args twice, every class with args for saving and for
    restoring, and no two classes under one type string. *)
Definition type_string (E : env) (c : hcls) : string := match typestr E c with Some s => s | None => qualname E c end.

Definition well_registered (E : env) (l : list (acls * hcls * bool * bool)) : Prop :=
  NoDup (map (fun x => fst (fst (fst x))) l) /\
  (forall a c s r, In (a, c, s, r) l -> s || r = true) /\
  (forall a c s r a' c' s' r', In (a, c, s, r) l -> In (a', c', s', r') l -> type_string E c = type_string E c' -> c = c').

(** A list of names in order *)
Definition ordered (l : list string) : Prop := StronglySorted (fun a b => String.leb a b = true) l.

(** The names that a save, finalize or restore passes by, in order of its steps *)
Definition created (l : list event) : list string :=
  flat_map (fun e => match e with ECreate _ i => [i] | _ => [] end) l.
Definition restored_items (l : list event) : list string :=
  flat_map (fun e => match e with ERestore _ _ i _ => [i] | _ => [] end) l.

(** Calling [finalize] again and again *)
Fixpoint again {A : Type} (n : nat) (m : M A) (s : st) : st :=
  match n with O => s | S n => again n m (fst (m s)) end.

(** A call that saves into no checkpoint but others *)
Definition elsewhere (d : N) (o : op) : Prop := match o with OSave d' _ => d' <> d | _ => True end.

(** The item has a handler, and the args are those for saving or for restoring with it. *)
Definition fits (G : globals) (s : st) (i : string) (a : option arg) : Prop :=
  exists h, has_handler s i h /\
  match a with
  | None => True
  | Some b => exists sa ra, get_registered_args_cls G (h_cls h) = Ok (sa, ra) /\ (a_cls b = sa \/ a_cls b = ra)
  end.
