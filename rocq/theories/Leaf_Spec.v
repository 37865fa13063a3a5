(** What a registry of leaf handlers is held to: written without the functions of the model that look up or register. *)
From Coq Require Import List Bool Arith String.
From Verif Require Import Base Leaf_Model.
Import ListNotations.

(** Types that are ordered: being a subclass is passed on, and no two types are subclasses of each other *)
Definition ordered (le : nat -> nat -> bool) (l : list nat) : Prop :=
  (forall a b c, In a l -> In b l -> In c l -> le a b = true -> le b c = true -> le a c = true) /\ (forall a b, In a l -> In b l -> le a b = true -> le b a = true -> a = b).

(** What was registered, without the scores *)
Definition what (e : entry) : nat * nat * nat * option (list string) := (e_leaf e, e_abs e, e_handler e, e_strs e).
Definition whats (r : list entry) : list (nat * nat * nat * option (list string)) := map what r.
Definition asked (g : registration) : nat * nat * nat * option (list string) := (g_leaf g, g_abs g, g_handler g, g_strs g).

(** A registration that cannot stand beside another *)
Definition clash (leaf ab h : nat) (x : nat * nat * nat * option (list string)) : Prop :=
  let '(l, a, k, _) := x in l = leaf \/ (a = ab /\ k <> h).

(** Registrations that can stand beside each other *)
Definition compatible (l : list registration) : Prop :=
  NoDup (map g_leaf l) /\ (forall g g', In g l -> In g' l -> g_abs g = g_abs g' -> g_handler g = g_handler g').

(** Different handlers with different names *)
Definition named_apart (W : pyworld) (hs : list nat) : Prop := forall h k, In h hs -> In k hs -> p_name W h = p_name W k -> h = k.

(** [n] is the number of members of [l] for which [P] holds *)
Inductive counts {A : Type} (P : A -> Prop) : list A -> nat -> Prop :=
| counts_nil : counts P [] 0
| counts_yes : forall x l n, P x -> counts P l n -> counts P (x :: l) (S n)
| counts_no : forall x l n, ~ P x -> counts P l n -> counts P (x :: l) n.
