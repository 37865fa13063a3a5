(** Vocabulary of the statements about transformations. *)
From Coq Require Import List Bool Arith NArith ZArith String Ascii.
From Verif Require Import Base StepName_Model Tree_Model Tree_Spec Transform_Model.
Import ListNotations.

(** The key of a leaf: its names joined by slashes. *)
Definition key_of (p : path) : string := join "/" (tuple_path_from_keypath p).

(** The tree has the leaf [v] under the key [k]. *)
Definition leaf_under {V : Type} (t : tree V) (k : string) (v : V) : Prop := exists p, at_path t p (Leaf v) /\ key_of p = k.

(** No key has a slash, so that keys and paths correspond. *)
Definition slashless {V : Type} (t : tree V) : Prop := without "/"%char t.

Section Spec.
Context {V : Type} (fullmatch : string -> string -> result (option (string -> result string))) (default : bool) (original : tree V).

Definition matches (pattern key : string) : Prop := exists expand, fullmatch pattern key = Ok (Some expand).

(** A transform that leaves the new tree's value alone. *)
Definition keeps (t : transform V) : Prop := use_fallback t = true /\ default = true.

(** What a matching transform makes of a key. *)
Inductive yields (key pattern : string) (t : transform V) : tree V -> Prop :=
| yields_fallback : forall v, use_fallback t = true -> default = false -> leaf_under original key v -> yields key pattern t (Leaf v)
| yields_same : forall v w, use_fallback t = false -> multi_value_fn t = None -> original_key t = None -> leaf_under original key v ->
    (match value_fn t with None => w = Leaf v | Some f => f (Leaf v) = Ok w end) -> yields key pattern t w
| yields_renamed : forall expand k k' v w, use_fallback t = false -> multi_value_fn t = None -> original_key t = Some k -> fullmatch pattern key = Ok (Some expand) -> expand k = Ok k' ->
    leaf_under original k' v -> (match value_fn t with None => w = Leaf v | Some f => f (Leaf v) = Ok w end) -> yields key pattern t w
| yields_multi : forall f w, use_fallback t = false -> multi_value_fn t = Some f -> value_fn t = None -> f key original = Ok w -> yields key pattern t w.

(** The value chosen for a key whose value in the new tree is [v]: that of the last
    matching transform that does not keep it; without a matching transform the original
    one, if asked for and present. *)
Inductive chosen (ts : list (string * transform V)) (key : string) (v : tree V) : tree V -> Prop :=
| chosen_last : forall pre pattern t post w, ts = pre ++ (pattern, t) :: post -> matches pattern key -> yields key pattern t w ->
    (forall pattern' t', In (pattern', t') post -> matches pattern' key -> keeps t') -> chosen ts key v w
| chosen_kept : forall pattern t, In (pattern, t) ts -> matches pattern key -> (forall pattern' t', In (pattern', t') ts -> matches pattern' key -> keeps t') -> chosen ts key v v
| chosen_original : forall u, (forall pattern' t', In (pattern', t') ts -> ~ matches pattern' key) -> default = true -> leaf_under original key u -> chosen ts key v (Leaf u)
| chosen_new : (forall pattern' t', In (pattern', t') ts -> ~ matches pattern' key) -> (default = false \/ forall u, ~ leaf_under original key u) -> chosen ts key v v.

(** Every pattern can be tried and every matching transform has a value. *)
Definition applicable (ts : list (string * transform V)) (key : string) : Prop :=
  forall pattern t, In (pattern, t) ts -> exists m, fullmatch pattern key = Ok m /\ (m <> None -> keeps t \/ exists w, yields key pattern t w).
(** No function raises and every pattern can be tried. *)
Definition tame (ts : list (string * transform V)) (key : string) : Prop :=
  forall pattern t, In (pattern, t) ts ->
    (exists m, fullmatch pattern key = Ok m /\ forall expand k, m = Some expand -> exists k', expand k = Ok k') /\
    (forall f v, value_fn t = Some f -> exists w, f v = Ok w) /\
    (forall f, multi_value_fn t = Some f -> exists w, f key original = Ok w).
End Spec.

(** The transforms as they are tried. *)
Definition transforms_of {V : Type} (transformations : tree (transform V)) : list (string * transform V) :=
  transform_items (to_flat_dict_sep "/" false transformations).

(** Is one list of names the beginning of the other? *)
Definition extends (a b : list string) : Prop := exists c, b = a ++ c.

(** The value a tree has under a list of names. *)
Definition under {V : Type} (t : tree V) (k : list string) (v : V) : Prop := exists p, at_path t p (Leaf v) /\ tuple_path_from_keypath p = k.

(** The last of the trees that has a leaf there. *)
Inductive last_under {V : Type} : list (tree V) -> list string -> V -> Prop :=
| last_here : forall pre t post k v, under t k v -> (forall t' w, In t' post -> ~ under t' k w) -> last_under (pre ++ t :: post) k v.

(** All the trees have a leaf there. *)
Definition common {V : Type} (ts : list (tree V)) (k : list string) : Prop := forall t, In t ts -> exists v, under t k v.
