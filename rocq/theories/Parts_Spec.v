(** Vocabulary of the statements about partial trees. *)
From Coq Require Import List Bool Arith NArith ZArith String Ascii.
From Verif Require Import Base StepName_Model Tree_Model Tree_Spec Parts_Model.
Import ListNotations.

(** The value a partial tree has at a path of names, if any. *)
Definition val_at {V : Type} (p : parts V) (k : list string) : option V := dget names_eqb k (present p).

(** [k] names a leaf of the tree. *)
Definition leaf_name {U : Type} (t : tree U) (k : list string) : Prop :=
  exists p u, at_path t p (Leaf u) /\ tuple_path_from_keypath p = k.

(** The partial trees that the operations produce. *)
Inductive made {V : Type} : parts V -> Prop :=
| made_init : forall (U : Type) (tmpl : tree U) value p, wf tmpl -> wf value -> init tmpl value = Ok p -> made p
| made_overlay : forall strict a b p, made a -> made b -> overlay strict a b = Ok p -> made p
| made_intersect : forall a b p, made a -> made b -> intersect a b = Ok p -> made p
| made_subtract : forall a b p, made a -> made b -> subtract a b = Ok p -> made p
| made_filter : forall a ks p, made a -> filter_values a ks = Ok p -> made p
| made_partition : forall (C : Type) ceqb (f : V -> C) a l c p, made a -> partition ceqb f a = Ok l -> In (c, p) l -> made p
| made_select : forall a path p, made a -> select a path = Ok p -> made p.

(** The name of a legacy key. *)
Definition tkey_name (k : tkey) : string := match k with TInt z => str_int z | TStr s => s end.

(** The legacy key [k] stands for the key [x]: an index or an integer key is itself, a
    string key or an attribute is its name. *)
Inductive stands_for : key -> tkey -> Prop :=
| for_index : forall i, stands_for (SequenceKey i) (TInt (Z.of_nat i))
| for_string : forall s, stands_for (DictKey (KStr s)) (TStr s)
| for_integer : forall z, stands_for (DictKey (KInt z)) (TInt z)
| for_attribute : forall s, stands_for (GetAttrKey s) (TStr s).
