(** Vocabulary of the statements about differences of trees. *)
From Coq Require Import List Bool Arith NArith ZArith String Ascii.
From Verif Require Import Base StepName_Model Tree_Model Tree_Spec Diff_Model.
Import ListNotations.

(** Node type, or [None] for a leaf. *)
Definition type_of {V : Type} (t : tree V) : option kind := match t with Leaf _ => None | Node k _ => Some k end.

(** Where two trees first differ, and how. *)
Inductive differs {V : Type} (eqv : V -> V -> bool) : tree V -> tree V -> path -> report V -> Prop :=
| differs_leaf : forall x y, eqv x y = false -> differs eqv (Leaf x) (Leaf y) [] (LeafDiff x y)
| differs_type : forall a b, type_of a <> type_of b -> differs eqv a b [] (TypeDiff (type_of a) (type_of b))
| differs_length : forall k cs ds, is_sequence k = true -> List.length cs <> List.length ds ->
    differs eqv (Node k cs) (Node k ds) [] (LengthDiff k (List.length cs) (List.length ds))
| differs_left : forall cs ds x c, In (x, c) cs -> ~ In x (map fst ds) -> differs eqv (Node KDict cs) (Node KDict ds) [x] (OnlyLeft c)
| differs_right : forall cs ds x d, In (x, d) ds -> ~ In x (map fst cs) -> differs eqv (Node KDict cs) (Node KDict ds) [x] (OnlyRight d)
| differs_child : forall k cs ds x c d p r, (is_sequence k = true -> List.length cs = List.length ds) ->
    In (x, c) cs -> In (x, d) ds -> differs eqv c d p r -> differs eqv (Node k cs) (Node k ds) (x :: p) r.

(** The result has the report at the path. *)
Inductive reported {V : Type} : diff V -> path -> report V -> Prop :=
| reported_here : forall r, reported (Report r) [] r
| reported_child : forall k cs x d p r, In (x, d) cs -> reported d p r -> reported (DiffNode k cs) (x :: p) r.

(** A class of named tuples determines the fields. *)
Inductive classed {V : Type} (fields : string -> list key) : tree V -> Prop :=
| classed_leaf : forall v, classed fields (Leaf v)
| classed_node : forall k cs, (forall c, k = KNamed c -> map fst cs = fields c) -> Forall (fun x => classed fields (snd x)) cs -> classed fields (Node k cs).

(** The shape of a result for [a] and [b]: entries of mappings that do not differ are left
    out, other nodes have an entry for each child, and something is reported in each. *)
Inductive fits {V : Type} : tree V -> tree V -> diff V -> Prop :=
| fits_none : forall a b, fits a b NoDiff
| fits_report : forall a b r, fits a b (Report r)
| fits_dict : forall cs ds l, l <> [] -> NoDup (map fst l) ->
    (forall x d, In (x, d) l -> d <> NoDiff /\ (In x (map fst cs) \/ In x (map fst ds))) ->
    (forall x c d e, In (x, c) cs -> In (x, d) ds -> In (x, e) l -> fits c d e) -> fits (Node KDict cs) (Node KDict ds) (DiffNode KDict l)
| fits_other : forall k cs ds l, k <> KDict -> map fst l = map fst cs -> map fst l = map fst ds -> (exists x, In x l /\ snd x <> NoDiff) ->
    (forall x c d e, In (x, c) cs -> In (x, d) ds -> In (x, e) l -> fits c d e) -> fits (Node k cs) (Node k ds) (DiffNode k l).
