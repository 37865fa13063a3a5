(** Vocabulary of the statements about trimming. *)
From Coq Require Import List Bool Arith NArith ZArith String Ascii.
From Verif Require Import Base StepName_Model Tree_Model Tree_Spec Parts_Model Trim_Model.
Import ListNotations.

(** Are the children of a template node of type [k] and a structure node of type [l]
    matched by name?  Otherwise they are matched by position. *)
Definition by_name (k l : kind) : bool :=
  match k, l with
  | KDict, _ | KNone, _ => true
  | KNamed _, KDict => true
  | _, _ => false
  end.

(** The name under which a child is found. *)
Definition called (k : kind) (x : key) : dkey :=
  match k, x with KDict, DictKey d => d | _, _ => KStr (str_name x) end.

(** How the path shown to the callback spells a child of a structure node that is matched
    by name. *)
Definition spelled (l : kind) (y : key) : dkey :=
  match l with KDict => called l y | _ => KStr (keystr y) end.

(** A structure node of this type can stand for a mapping. *)
Definition mappable (allow : bool) (l : kind) : bool :=
  match l with KList | KTuple => allow | _ => true end.

(** [pairs t s p q lp t' s']: the node [t'] at [p] in the template [t] is matched with the
    node [s'] at [q] in the structure [s]; the callback would be shown [lp]. *)
Inductive pairs {U V : Type} : tree U -> tree V -> path -> path -> list dkey -> tree U -> tree V -> Prop :=
| pairs_here : forall t s, pairs t s [] [] [] t s
| pairs_name : forall k cs l ds x c y d p q lp t' s', by_name k l = true -> In (x, c) cs -> In (y, d) ds -> called k x = called l y ->
    pairs c d p q lp t' s' -> pairs (Node k cs) (Node l ds) (x :: p) (y :: q) (spelled l y :: lp) t' s'
| pairs_position : forall k cs l ds i x c y d p q lp t' s', by_name k l = false -> nth_error cs i = Some (x, c) -> nth_error ds i = Some (y, d) ->
    pairs c d p q lp t' s' -> pairs (Node k cs) (Node l ds) (x :: p) (y :: q) (KInt (Z.of_nat i) :: lp) t' s'.

(** A child that the template has not, or a leaf where the template has [None]. *)
Inductive dropped_here {U V : Type} : tree U -> tree V -> path -> list dkey -> tree V -> Prop :=
| dropped_child : forall k cs l ds y d, by_name k l = true -> In (y, d) ds -> ~ In (called l y) (map (fun x => called k (fst x)) cs) ->
    dropped_here (Node k cs) (Node l ds) [y] [spelled l y] d
| dropped_leaf : forall (cs : list (key * tree U)) v, dropped_here (Node KNone cs) (Leaf v) [] [] (Leaf v).

(** The node [n] at [q] of the structure has no place in the template. *)
Definition dropped {U V : Type} (t : tree U) (s : tree V) (q : path) (lp : list dkey) (n : tree V) : Prop :=
  exists p q1 lp1 t' s' q2 lp2, pairs t s p q1 lp1 t' s' /\ dropped_here t' s' q2 lp2 n /\ q = q1 ++ q2 /\ lp = lp1 ++ lp2.

(** The structure can be trimmed to the template. *)
Inductive trims {U V : Type} (strict allow : bool) : tree U -> tree V -> Prop :=
| trims_leaf : forall u v, trims strict allow (Leaf u) (Leaf v)
| trims_leaf_none : forall u ds, trims strict allow (Leaf u) (Node KNone ds)
| trims_none : forall cs v, trims strict allow (Node KNone cs) (Leaf v)
| trims_name : forall k cs l ds, by_name k l = true -> mappable allow l = true ->
    (strict = true -> forall x c, In (x, c) cs -> exists y d, In (y, d) ds /\ called k x = called l y) ->
    (forall x c y d, In (x, c) cs -> In (y, d) ds -> called k x = called l y -> trims strict allow c d) ->
    trims strict allow (Node k cs) (Node l ds)
| trims_position : forall k cs l ds, by_name k l = false -> l <> KDict -> List.length cs = List.length ds ->
    (forall i x c y d, nth_error cs i = Some (x, c) -> nth_error ds i = Some (y, d) -> trims strict allow c d) ->
    trims strict allow (Node k cs) (Node l ds).

(** Every leaf of the template has a counterpart other than [None]. *)
Definition complete {U V : Type} (t : tree U) (s : tree V) : Prop :=
  forall p q lp u ds, ~ pairs t s p q lp (Leaf u) (Node KNone ds).

(** The errors of trimming. *)
Definition refused (e : err) : Prop := e = ValueError \/ e = TypeError.

(** The tree has no named tuples. *)
Definition plain {U : Type} (t : tree U) : Prop := forall p c cs, ~ at_path t p (Node (KNamed c) cs).
