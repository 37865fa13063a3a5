(** Vocabulary of the statements about merging trees. *)
From Coq Require Import List Bool Arith NArith ZArith String Ascii.
From Verif Require Import Base StepName_Model Tree_Model Tree_Spec.
Import ListNotations.

(** What merging does not look into: a leaf or [None]. *)
Definition leaf_like {V : Type} (t : tree V) : Prop :=
  match t with Leaf _ => True | Node k _ => k = KNone end.

(** Nodes that are merged with each other: of the same type, or a list and a tuple. *)
Definition alike (k l : kind) : Prop :=
  k = l \/ (is_sequence k = true /\ is_sequence l = true).

(** The trees can be merged: where both have a node, the nodes are alike, and if they are not
    dictionaries they have the same keys. *)
Inductive compatible {V : Type} : tree V -> tree V -> Prop :=
| compatible_leaf : forall s t, leaf_like s \/ leaf_like t -> compatible s t
| compatible_node : forall k l cs ds, alike k l -> (k <> KDict -> map fst cs = map fst ds) ->
    (forall x c d, In (x, c) cs -> In (x, d) ds -> compatible c d) -> compatible (Node k cs) (Node l ds).

(** The trees have the same types where both have something. *)
Inductive same_shape {V : Type} : tree V -> tree V -> Prop :=
| same_leaf : forall v w, same_shape (Leaf v) (Leaf w)
| same_node : forall k cs ds, (k <> KDict -> map fst cs = map fst ds) ->
    (forall x c d, In (x, c) cs -> In (x, d) ds -> same_shape c d) -> same_shape (Node k cs) (Node k ds).

(** The named tuples of a class have the fields of the class. *)
Inductive classes {V : Type} (fields : string -> list key) : tree V -> Prop :=
| classes_leaf : forall v, classes fields (Leaf v)
| classes_node : forall k cs, (forall c, k = KNamed c -> map fst cs = fields c) ->
    (forall x c, In (x, c) cs -> classes fields c) -> classes fields (Node k cs).

(** The tree decides what is at the path: it has a leaf at it or above it, or something other
    than [None] at it. *)
Definition governs {V : Type} (t : tree V) (p : path) : Prop :=
  exists q r s, p = q ++ r /\ at_path t q s /\ ((exists v, s = Leaf v) \/ (r = [] /\ forall cs, s <> Node KNone cs)).

(** Two trees have a leaf or [None] under the same names. *)
Definition collide {V : Type} (s t : tree V) : Prop :=
  exists p q a b, at_path s p a /\ at_path t q b /\ leaf_like a /\ leaf_like b /\ tuple_path_from_keypath p = tuple_path_from_keypath q.

(** Every pair of an earlier and a later tree is related. *)
Fixpoint pairwise {A : Type} (R : A -> A -> Prop) (l : list A) : Prop :=
  match l with
  | [] => True
  | x :: r => (forall y, In y r -> R x y) /\ pairwise R r
  end.

(** A dictionary and a named tuple with leaves under names. *)
Definition dict_of {V : Type} (l : list (string * V)) : tree V := Node KDict (map (fun x => (DictKey (KStr (fst x)), Leaf (snd x))) l).

(** The named tuple. *)
Definition named_of {V : Type} (c : string) (l : list (string * V)) : tree V := Node (KNamed c) (map (fun x => (GetAttrKey (fst x), Leaf (snd x))) l).

(** A dictionary with the values of the second list, and those of the first whose names the second
    does not have. *)
Definition over {V : Type} (first second : list (string * V)) (m : tree V) : Prop :=
  exists items, m = dict_of items /\ NoDup (map fst items) /\
    forall s v, In (s, v) items <-> In (s, v) second \/ (In (s, v) first /\ ~ In s (map fst second)).
