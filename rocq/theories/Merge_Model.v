(** Model of merging trees.
    Source: checkpoint/orbax/checkpoint/_src/tree/structure_utils.py ("SU") and
    checkpoint/orbax/checkpoint/_src/tree/utils.py ("TU").
    Simplifications: leaves have one type (two leaves at one path are refused before their
    types are compared); a named tuple has no default values; making a dictionary from a
    list that is not empty fails (python accepts a list of pairs); [is_leaf] is the default.
    Not modelled: custom pytree nodes (SU l.576-590). *)
From Coq Require Import List Bool Arith NArith ZArith String Ascii.
From Verif Require Import Base StepName_Model Tree_Model Parts_Model.
Import ListNotations.

(** [t is None] (SU l.543, TU l.71) *)
Definition is_none {V : Type} (t : tree V) : bool :=
  match t with Node KNone _ => true | _ => false end.

(** TU l.70-71 *)
Definition is_leaf_node_or_none {V : Type} (t : tree V) : bool :=
  match t with Leaf _ => true | _ => is_none t end.

(** [type(t1) is type(t2)] (SU l.539) *)
Definition same_type {V : Type} (t1 t2 : tree V) : bool :=
  match t1, t2 with
  | Leaf _, Leaf _ => true
  | Node k _, Node l _ => kind_eqb k l
  | _, _ => false
  end.

(** The keys of [to_flat_dict(tree, is_leaf=is_leaf)] (SU l.522, TU l.257-294) *)
Fixpoint flat_keys {V : Type} (t : tree V) : list (list string) :=
  match t with
  | Leaf _ => [[]]
  | Node KNone _ => [[]]
  | Node k cs => flat_map (fun x => map (cons (str_name (fst x))) (snd x)) (order k (map_items flat_keys cs))
  end.

(** Equality of flattened keys (SU l.523) *)
Definition flat_key_eqb (a b : list string) : bool :=
  if list_eq_dec string_dec a b then true else false.

(** The loop of SU l.519-529 with the keys seen so far. *)
Fixpoint check_for_common_keys {V : Type} (seen_keys : list (list string)) (trees : list (tree V)) : result unit :=
  match trees with
  | [] => Ok tt
  | t :: r =>
    if existsb (fun k => existsb (flat_key_eqb k) seen_keys) (flat_keys t) then Err ValueError
    else check_for_common_keys (seen_keys ++ flat_keys t) r
  end.

(** The key in [_asdict()] (SU l.548-549) *)
Definition dict_key (k : key) : key :=
  match k with GetAttrKey s => DictKey (KStr s) | _ => k end.

(** [t._asdict()] or [t] itself (SU l.548-549): the items of a mapping *)
Definition as_mapping {A : Type} (cs : list (key * A)) : list (key * A) :=
  map (fun x => (dict_key (fst x), snd x)) cs.

(** [node_type(merged)] or [node_type( ** merged)], on failure the dictionary (SU l.556-561);
    [fields] are the fields of the named tuple. *)
Definition rebuild {V : Type} (k : kind) (fields : list key) (merged : list (key * tree V)) : tree V :=
  match k with
  | KNamed c =>
    if forallb (fun x => existsb (fun f => key_eqb (dict_key f) (fst x)) fields) merged then
      Node (KNamed c) (flat_map (fun f => match find_item (dict_key f) merged with Some v => [(f, v)] | None => [] end) fields)
    else Node KDict merged
  | _ => Node KDict merged
  end.

Section Merge.
Context {V : Type}.
(** The leaf that is a dictionary's key (met by zip at SU l.569) *)
Variable key_leaf : key -> V.
Variable overwrite : bool.

(** SU l.532-592 *)
Fixpoint recursive_merge (t1 t2 : tree V) {struct t1} : result (tree V) :=
  if negb (same_type t1 t2) && negb overwrite then Err ValueError
  else if is_leaf_node_or_none t1 || is_leaf_node_or_none t2 then Ok (if is_none t1 then t2 else t1)
  else
    match t1, t2 with
    | Node k1 cs, Node k2 ds =>
      let mapping_with (d2 : list (key * tree V)) :=
        rmap (rebuild k1 (map fst cs))
          ((fix go (l : list (key * tree V)) (merged : list (key * tree V)) : result (list (key * tree V)) :=
              match l with
              | [] => Ok merged
              | (x, v1) :: r =>
                match find_item (dict_key x) d2 with
                | Some v2 => rbind (recursive_merge v1 v2) (fun v => go r (put_item (dict_key x) v merged))
                | None => go r (put_item (dict_key x) v1 merged)
                end
              end) cs d2) in
      match k1 with
      | KDict | KNamed _ =>
        match k2 with
        | KDict | KNamed _ => mapping_with (as_mapping ds)
        | _ => match ds with [] => mapping_with [] | _ => Err TypeError end
        end
      | _ =>
        if negb (List.length cs =? List.length ds) then Err ValueError
        else
          let elements := match k2 with KDict => map (fun x => Leaf (key_leaf (fst x))) ds | _ => map snd ds end in
          rmap (Node k1)
            ((fix go (l : list (key * tree V)) (es : list (tree V)) : result (list (key * tree V)) :=
                match l, es with
                | (x, e1) :: r, e2 :: es' => rbind (recursive_merge e1 e2) (fun v => rmap (cons (x, v)) (go r es'))
                | _, _ => Ok []
                end) cs elements)
      end
    | _, _ => Ok t1
    end.

(** SU l.641-655 *)
Definition merge_trees (trees : list (tree V)) : result (tree V) :=
  match trees with
  | [] => Ok (Node KDict [])
  | t :: r =>
    let merged := fold_left (fun acc t => rbind acc (recursive_merge t)) r (Ok t) in
    if overwrite then merged else rbind (check_for_common_keys [] trees) (fun _ => merged)
  end.

End Merge.
