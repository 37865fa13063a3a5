(** Vocabulary of the statements about the metadata of pytrees. *)
From Coq Require Import List Bool Arith NArith ZArith String Ascii.
From Verif Require Import Base StepName_Model Tree_Model Tree_Spec RichMeta_Model RichMeta_Spec TreeMeta_Model.
Import ListNotations.
Open Scope string_scope.

(** Lists and dictionaries with string keys, without empty ones. *)
Inductive plain {V : Type} : tree V -> Prop :=
| plain_leaf : forall v, plain (Leaf v)
| plain_list : forall cs, cs <> [] -> map fst cs = map SequenceKey (seq 0 (List.length cs)) ->
    Forall (fun x => plain (snd x)) cs -> plain (Node KList cs)
| plain_dict : forall cs, cs <> [] -> NoDup (map fst cs) -> (forall x, In x (map fst cs) -> exists s, x = DictKey (KStr s)) ->
    Forall (fun x => plain (snd x)) cs -> plain (Node KDict cs).

(** The entry is about the value at this path. *)
Definition describes (e : entry) (x : path * vmeta) : Prop :=
  value_metadata e = snd x /\
  Forall2 (fun n k => match k with
           | SequenceKey i => n = (string_of_list_ascii (dec (N.of_nat i)), SEQUENCE)
           | DictKey (KStr s) => n = (s, DICT)
           | _ => False
           end) (key_metadata e) (fst x).

(** One path goes on after the other. *)
Definition extends {A : Type} (p q : list A) : Prop := exists r, r <> [] /\ p = (q ++ r)%list.

(** The metadata says nothing about rich types. *)
Definition legacy (m : meta) : Prop := support_rich_types m = false \/ value_metadata_tree m = None.

(** The metadata of a value to be written. *)
Definition written (i : pinfo) (v : vmeta) : Prop :=
  value_typestr i = Some (value_type v) /\ write_shape v = info_shape i /\
  (skip_deserialize v = true <-> In (value_type v) ["List"; "NamedTuple"; "Tuple"; "Dict"; "None"]).

(** What is read of it later: an empty named tuple is None. *)
Definition reread_value (v : vmeta) : vmeta :=
  mkV (if value_type v =? "NamedTuple" then "None" else value_type v) (skip_deserialize v) (write_shape v).

Definition reread_entry (e : entry) : entry := mkE (keypath e) (key_metadata e) (reread_value (value_metadata e)).

(** Lists for sequences, dictionaries with string keys for dictionaries and named tuples, and
    related leaves. *)
Inductive simplified {A B : Type} (R : A -> B -> Prop) : tree A -> tree B -> Prop :=
| simplified_leaf : forall a b, R a b -> simplified R (Leaf a) (Leaf b)
| simplified_node : forall k cs ds,
    Forall2 (fun x y => fst y = (if is_sequence k then fst x else DictKey (KStr (str_name (fst x)))) /\ simplified R (snd x) (snd y)) cs ds ->
    simplified R (Node k cs) (Node (if is_sequence k then KList else KDict) ds).

(** The same tree with related leaves. *)
Inductive same_tree {A B : Type} (R : A -> B -> Prop) : tree A -> tree B -> Prop :=
| same_leaf : forall a b, R a b -> same_tree R (Leaf a) (Leaf b)
| same_node : forall k cs ds, Forall2 (fun x y => fst y = fst x /\ same_tree R (snd x) (snd y)) cs ds ->
    same_tree R (Node k cs) (Node k ds).

(** Entries of nested dictionaries. *)
Definition dict_entry (e : entry) (ks : list string) : Prop := key_metadata e = map (fun s => (s, DICT)) ks.

(** Formats agree. *)
Definition same_format (a b : meta) : Prop :=
  use_zarr3 a = use_zarr3 b /\ use_ocdbt a = use_ocdbt b /\ support_rich_types a = support_rich_types b /\
  store_array_data_equal_to_fill_value a = store_array_data_equal_to_fill_value b.

(** What stands for an empty node in the metadata shown to the user. *)
Definition empty_shown {A : Type} (ty : string) (rich : bool) (t : tree A) : Prop :=
  (ty = "List" /\ t = Node KList []) \/ (ty = "Tuple" /\ t = Node KTuple []) \/ (ty = "Dict" /\ t = Node KDict []) \/ (ty = "None" /\ t = Node KNone []) \/
  (ty = "NamedTuple" /\ t = if rich then Node (KNamed "OrbaxEmptyNamedTuple") [] else Node KNone []).

(** The metadata shown for one value: the answer of the handler of its type, for a value that is
    not stored what stands for it. *)
Definition shown_for {A : Type} (answer : string -> param -> A) (m : meta) (is_ocdbt : bool) (p : path) (v : vmeta) (t : tree shown) : Prop :=
  if skip_deserialize v then
    empty_shown (value_type v) (support_rich_types m) t \/
    (~ In (value_type v) ["List"; "NamedTuple"; "Tuple"; "Dict"; "None"] /\ t = Leaf (Plain (String.concat "." (map str_name p))))
  else t = Leaf (Handled (answer (value_type v)
         (mkParam (String.concat "." (map str_name p)) false (match use_ocdbt m with Some b => b | None => is_ocdbt end) (use_zarr3 m) (write_shape v)))).
