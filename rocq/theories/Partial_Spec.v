(** Vocabulary of the statements about checkpoints saved in parts. *)
From Coq Require Import List Bool Arith NArith ZArith String Ascii.
From Verif Require Import Base StepName_Model Tree_Model Tree_Spec RichMeta_Model RichMeta_Spec TreeMeta_Model TreeMeta_Spec.
Import ListNotations.
Open Scope string_scope.

(** Two keys that cannot both be in one tree. *)
Definition conflict (a b : list string) : Prop := a = b \/ extends a b \/ extends b a.

(** The key of a path. *)
Definition key_of (p : path) : list string := map str_name p.

(** The item has a value with this key. *)
Definition has_value (item : tree pinfo) (key : list string) : Prop :=
  exists p i, at_path item p (Leaf i) /\ key = key_of p.

(** The item has an empty list, tuple, dictionary or None with this key. *)
Definition has_empty (item : tree pinfo) (key : list string) : Prop :=
  exists p k, at_path item p (Node k []) /\ key = key_of p.

(** None of the values clashes with something saved before. *)
Definition allowed (before : list (tree pinfo)) (item : tree pinfo) : Prop :=
  forall a b old, has_value item a -> In old before -> has_value old b \/ has_empty old b -> ~ conflict a b.

(** The answers to the saves of a session and the items that were saved. *)
Inductive decided : list (tree pinfo) -> list (tree pinfo) -> list (result unit) -> list (tree pinfo) -> Prop :=
| decided_end : forall saved, decided saved [] [] saved
| decided_empty : forall saved k items rs all, decided saved items rs all ->
    decided saved (Node k [] :: items) (Err ValueError :: rs) all
| decided_saved : forall saved item items rs all, (forall k, item <> Node k []) -> allowed saved item ->
    decided (saved ++ [item])%list items rs all -> decided saved (item :: items) (Ok tt :: rs) all
| decided_refused : forall saved item items rs all, (forall k, item <> Node k []) -> ~ allowed saved item ->
    decided saved items rs all -> decided saved (item :: items) (Err OtherError :: rs) all.

(** An item that can be saved: a tree whose values have types. *)
Definition savable (item : tree pinfo) : Prop :=
  wf item /\ forall p i, at_path item p (Leaf i) -> value_typestr i <> None.

(** The metadata of what the item has at a path. *)
Definition describes_at (item : tree pinfo) (p : path) (w : vmeta) : Prop :=
  (exists i v, at_path item p (Leaf i) /\ written i v /\ w = reread_value v) \/
  (exists k ty, at_path item p (Node k []) /\ w = mkV ty true None /\
     ty = match k with KList => "List" | KTuple => "Tuple" | KDict => "Dict" | _ => "None" end).

(** Nothing is in two of the items. *)
Definition separate (items : list (tree pinfo)) : Prop :=
  forall l1 a l2 b l3 p v w, items = (l1 ++ a :: l2 ++ b :: l3)%list -> describes_at a p v -> describes_at b p w -> False.
