(** Model of the registry of leaf handlers of the new interface, and of the registry of the old interface that is made of it.
    Sources: checkpoint/orbax/checkpoint/experimental/v1/_src/serialization/registry.py ("LR"), checkpoint/orbax/checkpoint/experimental/v1/_src/serialization/protocol_utils.py ("PU"),
    checkpoint/orbax/checkpoint/experimental/v1/_src/serialization/compatibility.py ("CO"), checkpoint/orbax/checkpoint/experimental/v1/_src/handlers/pytree_handler.py ("PH").
    Types and handlers are numbers; what python says about them is an oracle. A TypeError of issubclass counts as "no" there (LR l.121-122, l.166-167, l.354-355).
    UnregisteredTypeError and AlreadyRegisteredTypeError are kinds of ValueError (LR l.33-38). Two handlers of one type that wrap it are not told apart. *)
From Coq Require Import List Bool Arith String.
From Verif Require Import Base Tree_Model Registry_Model.
Import ListNotations.
Local Open Scope string_scope.
Local Open Scope list_scope.
Local Open Scope nat_scope.

(** What python says of types: issubclass (LR l.164), is it a protocol (LR l.116), the members of a protocol (PU l.43), the annotations of a class and its attributes (PU l.52-56);
    and of handlers: the name of the class (LR l.337), its own typestr (CO l.452), can it be made (CO l.443-449) *)
Record pyworld : Type := mkW {
  p_sub : nat -> nat -> bool; p_proto : nat -> bool; p_members : nat -> list string; p_ann : nat -> list string; p_attr : nat -> string -> bool;
  p_name : nat -> string; p_typestr : nat -> string; p_new : nat -> bool
}.

(** PU l.23-60 *)
Definition sub_protocol (W : pyworld) (c p : nat) : bool := forallb (fun m => existsb (String.eqb m) (p_ann W c) || p_attr W c m) (p_members W p).

(** LR l.111-122 *)
Definition asub (W : pyworld) (a b : nat) : bool := if p_proto W b then sub_protocol W a b else p_sub W a b.

(** LR l.84-108 *)
Record entry : Type := mkE { e_leaf : nat; e_abs : nat; e_handler : nat; e_strs : option (list string); e_ls : nat; e_as : nat }.

(** ** Scores and order *)

(** The number of other types of the registry that a type is below (LR l.346-363) *)
Definition score (le : nat -> nat -> bool) (ty : nat) (l : list nat) : nat := List.length (filter (fun o => negb (ty =? o) && le ty o) l).

(** LR l.341-365 *)
Definition rescore (W : pyworld) (r : list entry) : list entry :=
  map (fun e => mkE (e_leaf e) (e_abs e) (e_handler e) (e_strs e) (score (p_sub W) (e_leaf e) (map e_leaf r)) (score (asub W) (e_abs e) (map e_abs r))) r.

(** Tuples are compared from the left (LR l.334-338) *)
Definition key_leb (W : pyworld) (a b : entry) : bool :=
  (e_ls a <? e_ls b) || ((e_ls a =? e_ls b) && ((e_as a <? e_as b) || ((e_as a =? e_as b) && String.leb (p_name W (e_handler a)) (p_name W (e_handler b))))).

(** Sorting keeps the order of equals (LR l.186-189, l.333-339) *)
Fixpoint insert_by (leb : entry -> entry -> bool) (x : entry) (l : list entry) : list entry := match l with [] => [x] | y :: r => if leb x y then x :: l else y :: insert_by leb x r end.
(** LR l.186-189, l.333-339 *)
Definition sort_by (leb : entry -> entry -> bool) (l : list entry) : list entry := fold_right (insert_by leb) [] l.

(** ** Registering *)

(** LR l.262-266 *)
Definition same_entry (leaf ab h : nat) (e : entry) : bool := (e_leaf e =? leaf) && (e_abs e =? ab) && (e_handler e =? h).

(** LR l.288-290, l.304, l.310 *)
Definition conflict (leaf ab h : nat) (e : entry) : bool := (e_leaf e =? leaf) || ((e_abs e =? ab) && negb (e_handler e =? h)).

(** Equality of secondary typestrs (LR l.267) *)
Definition strs_eqb (a b : option (list string)) : bool := match a, b with None, None => true | Some x, Some y => names_eqb x y | _, _ => false end.

(** LR l.261-282: the first exact duplicate gets the typestrs *)
Fixpoint update_strs (leaf ab h : nat) (strs : option (list string)) (r : list entry) : list entry :=
  match r with
  | [] => []
  | e :: t => if same_entry leaf ab h e then mkE (e_leaf e) (e_abs e) (e_handler e) strs (e_ls e) (e_as e) :: t else e :: update_strs leaf ab h strs t
  end.

(** LR l.226-339 *)
Definition add (W : pyworld) (leaf ab h : nat) (override : bool) (strs : option (list string)) (r : list entry) : result (list entry) :=
  if existsb (same_entry leaf ab h) r then
    Ok (if override && negb (match find (same_entry leaf ab h) r with Some e => strs_eqb (e_strs e) strs | None => true end) then update_strs leaf ab h strs r else r)
  else if negb override && existsb (conflict leaf ab h) r then Err ValueError
  else
    let kept := if override then filter (fun e => negb (conflict leaf ab h e)) r else r in
    Ok (sort_by (key_leb W) (rescore W (kept ++ [mkE leaf ab h strs 0 0]))).

(** A registration (LR l.226-233) *)
Record registration : Type := mkReg1 { g_leaf : nat; g_abs : nat; g_handler : nat; g_override : bool; g_strs : option (list string) }.

(** One registration after another; one that fails changes nothing (LR l.152-154, l.303-315) *)
Fixpoint run (W : pyworld) (l : list registration) (r : list entry) : list entry :=
  match l with
  | [] => r
  | g :: t => run W t (match add W (g_leaf g) (g_abs g) (g_handler g) (g_override g) (g_strs g) r with Ok r' => r' | Err _ => r end)
  end.

(** ** Looking up *)

(** LR l.156-178 *)
Definition get (W : pyworld) (t : nat) (r : list entry) : result nat :=
  match find (fun e => p_sub W t (e_leaf e)) (rev r) with Some e => Ok (e_handler e) | None => Err ValueError end.

(** LR l.188 *)
Definition abs_leb (a b : entry) : bool := e_as a <=? e_as b.

(** LR l.180-206 *)
Definition get_abstract (W : pyworld) (t : nat) (r : list entry) : result nat :=
  match find (fun e => asub W t (e_abs e)) (rev (sort_by abs_leb r)) with Some e => Ok (e_handler e) | None => Err ValueError end.

(** LR l.367-379 *)
Definition handleable (W : pyworld) (t : nat) (r : list entry) : bool := match get W t r with Ok _ => true | Err _ => false end.
(** LR l.381-393 *)
Definition abstract_handleable (W : pyworld) (t : nat) (r : list entry) : bool := match get_abstract W t r with Ok _ => true | Err _ => false end.

(** LR l.395-401 *)
Definition secondary (h : nat) (r : list entry) : list string :=
  match find (fun e => e_handler e =? h) r with Some e => match e_strs e with Some l => l | None => [] end | None => [] end.

(** LR l.208-224 *)
Definition get_all (r : list entry) : list (nat * nat * nat) := map (fun e => (e_leaf e, e_abs e, e_handler e)) r.

(** A leaf of a tree: a placeholder, a type, or something of a type (PH l.476-479, l.502-505) *)
Inductive leaf : Type := LPlaceholder | LType (t : nat) | LValue (t : nat).

(** PH l.472-494: [type_of_type] is the type of types *)
Definition validate_leaves (W : pyworld) (type_of_type : nat) (r : list entry) (l : list leaf) : result unit :=
  if forallb (fun x => match x with LPlaceholder => true | LType _ => handleable W type_of_type r | LValue t => handleable W t r end) l then Ok tt else Err ValueError.

(** PH l.496-521 *)
Definition validate_abstract_leaves (W : pyworld) (r : list entry) (l : list leaf) : result unit :=
  if forallb (fun x => match x with LPlaceholder => true | LType t | LValue t => abstract_handleable W t r end) l then Ok tt else Err ValueError.

(** ** The registry of the old interface *)

(** CO l.451-452 *)
Definition v0_typestr (W : pyworld) (r : list entry) (h : nat) : string := match secondary h r with s :: _ => s | [] => p_typestr W h end.

(** CO l.423-460 *)
Definition v0_registry (W : pyworld) (r : list entry) : result tregistry :=
  if forallb (fun x => p_new W (snd x)) (rev (get_all r))
  then t_create (v0_typestr W r) (p_sub W) (map (fun x => (fst (fst x), snd x)) (rev (get_all r))) t_empty
  else Err ValueError.

(** ** The standard registry *)

(** LR l.41-81: jax.Array, np.ndarray, int, float, bytes and str with their abstract types and handlers, by number *)
Definition standard_entries : list registration :=
  [ mkReg1 0 10 20 false (Some ["jax.Array"]); mkReg1 1 11 21 false (Some ["np.ndarray"]); mkReg1 2 2 22 false (Some ["scalar"]); mkReg1 3 3 22 false (Some ["scalar"]); mkReg1 4 4 22 false (Some ["scalar"]);
    mkReg1 5 5 23 false (Some ["string"]) ].

(** LR l.424-432 *)
Definition standard (W : pyworld) : list entry := run W standard_entries [].
