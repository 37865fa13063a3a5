(** Vocabulary of the statements about pytrees. *)
From Coq Require Import List Bool Arith NArith ZArith String Ascii Permutation.
From Verif Require Import Base StepName_Model Tree_Model.
Import ListNotations.

(** Trees that python and jax can build: the path elements fit the node type, keys are
    distinct, and a dictionary does not mix strings and integers. *)
Definition keys_fit (k : kind) (ks : list key) : Prop :=
  match k with
  | KDict => NoDup ks /\ ((forall x, In x ks -> exists s, x = DictKey (KStr s)) \/ (forall x, In x ks -> exists z, x = DictKey (KInt z)))
  | KList | KTuple => ks = map SequenceKey (seq 0 (List.length ks))
  | KNamed _ => NoDup ks /\ (forall x, In x ks -> exists s, x = GetAttrKey s)
  | KNone => ks = []
  end.

Inductive wf {V : Type} : tree V -> Prop :=
| wf_leaf : forall v, wf (Leaf v)
| wf_node : forall k cs, keys_fit k (map fst cs) -> Forall (fun x => wf (snd x)) cs -> wf (Node k cs).

(** Python equality: dictionaries are compared without regard to order. *)
Inductive peq {V : Type} : tree V -> tree V -> Prop :=
| peq_leaf : forall v, peq (Leaf v) (Leaf v)
| peq_node : forall k cs ds, Forall2 (fun x y => fst x = fst y /\ peq (snd x) (snd y)) cs ds -> peq (Node k cs) (Node k ds)
| peq_dict : forall cs cs' ds, Permutation cs cs' ->
    Forall2 (fun x y => fst x = fst y /\ peq (snd x) (snd y)) cs' ds -> peq (Node KDict cs) (Node KDict ds).

(** [s] is the subtree of [t] at path [p]. *)
Inductive at_path {V : Type} : tree V -> path -> tree V -> Prop :=
| at_here : forall t, at_path t [] t
| at_child : forall k cs x c p s, In (x, c) cs -> at_path c p s -> at_path (Node k cs) (x :: p) s.

(** What flattening counts as a leaf. *)
Definition is_leaf {V : Type} (keep : bool) (t : tree V) : Prop :=
  match t with Leaf _ => True | Node _ cs => keep = true /\ cs = [] end.

(** The tree has something that flattening counts as a leaf. *)
Fixpoint leafy {V : Type} (keep : bool) (t : tree V) : bool :=
  match t with
  | Leaf _ => true
  | Node _ [] => keep
  | Node _ cs => existsb (fun x => leafy keep (snd x)) cs
  end.

(** Only a tail of the list is [false]. *)
Fixpoint falling (l : list bool) : bool :=
  match l with
  | [] => true
  | true :: r => falling r
  | false :: r => forallb negb r
  end.

Definition is_sequence (k : kind) : bool :=
  match k with KList | KTuple => true | _ => false end.

(** No list or tuple has an item without leaves before an item with leaves. *)
Fixpoint dense {V : Type} (keep : bool) (t : tree V) : bool :=
  match t with
  | Leaf _ => true
  | Node k cs => forallb (fun x => dense keep (snd x)) cs &&
                 (negb (is_sequence k) || falling (map (fun x => leafy keep (snd x)) cs))
  end.

(** The serialized form: lists for sequences, dictionaries with string keys for
    dictionaries and named tuples; children without leaves are left out. *)
Fixpoint serialized {V : Type} (keep : bool) (t : tree V) : tree V :=
  match t with
  | Leaf v => Leaf v
  | Node k [] => Node k []
  | Node k cs =>
    let kept := filter (fun x => leafy keep (snd (snd x))) (order k (map_items (fun c => (serialized keep c, c)) cs)) in
    Node (if is_sequence k then KList else KDict)
         (map (fun x => (if is_sequence k then fst x else DictKey (KStr (str_name (fst x))), fst (snd x))) kept)
  end.

(** The nested dictionary with the same leaves under the same names. *)
Fixpoint as_dicts {V : Type} (keep : bool) (t : tree V) : tree V :=
  match t with
  | Leaf v => Leaf v
  | Node k [] => if keep then Node k [] else Node KDict []
  | Node k cs =>
    let kept := filter (fun x => leafy keep (snd (snd x))) (order k (map_items (fun c => (as_dicts keep c, c)) cs)) in
    Node KDict (map (fun x => (DictKey (KStr (str_name (fst x))), fst (snd x))) kept)
  end.

(** Nested dictionaries with string keys only. *)
Inductive string_dicts {V : Type} : tree V -> Prop :=
| sd_leaf : forall v, string_dicts (Leaf v)
| sd_node : forall cs, Forall (fun x => (exists s, fst x = DictKey (KStr s)) /\ string_dicts (snd x)) cs ->
    string_dicts (Node KDict cs).

(** The tree with the leaf at each path replaced. *)
Fixpoint with_leaves {V W : Type} (f : path -> tree W) (t : tree V) : tree W :=
  match t with
  | Leaf _ => f []
  | Node k cs => Node k ((fix go (l : list (key * tree V)) :=
      match l with [] => [] | (x, c) :: r => (x, with_leaves (fun p => f (x :: p)) c) :: go r end) cs)
  end.

(** No path element's name contains the character. *)
Fixpoint without {V : Type} (c : ascii) (t : tree V) : Prop :=
  match t with
  | Leaf _ => True
  | Node _ cs => (fix go (l : list (key * tree V)) :=
      match l with [] => True | (x, s) :: r => ~ In c (list_ascii_of_string (str_name x)) /\ without c s /\ go r end) cs
  end.
