(** Model of pytrees and of the functions that flatten, name, serialize and rebuild them.
    Source: checkpoint/orbax/checkpoint/_src/tree/utils.py ("TU").
    The flattening of jax is outside the repository; its documented behaviour is
    modelled here: the children of a dictionary come in sorted key order, those of a
    list or tuple with their index, those of a named tuple with their attribute name,
    [None] is a node without children, and rebuilding a dictionary gives sorted keys.
    Not modelled: custom node types (whose children carry FlattenedIndexKey or
    attribute keys) and dictionary keys other than strings and integers; dictionaries
    that mix both (jax refuses to sort them) are excluded by [wf]. *)
From Coq Require Import List Bool Arith NArith ZArith String Ascii.
From Verif Require Import Base StepName_Model.
Import ListNotations.

(** ** Trees *)

(** Dictionary keys, as found in a DictKey (TU l.95). *)
Inductive dkey : Type :=
| KStr (s : string)
| KInt (z : Z).

(** Path elements of jax (TU l.93-98). *)
Inductive key : Type :=
| SequenceKey (i : nat)
| DictKey (k : dkey)
| GetAttrKey (s : string).

(** The node types met by TU l.57-102; [KNamed] carries the class. *)
Inductive kind : Type :=
| KDict
| KList
| KTuple
| KNamed (c : string)
| KNone.

(** A pytree (TU l.206-249): children with their path elements, those of a dictionary
    in insertion order. *)
Inductive tree (V : Type) : Type :=
| Leaf (v : V)
| Node (k : kind) (cs : list (key * tree V)).
Arguments Leaf {V} v.
Arguments Node {V} k cs.

(** A path as used at TU l.105. *)
Definition path : Type := list key.

(** Equality of python dictionary keys (TU l.192). *)
Definition dkey_eqb (a b : dkey) : bool :=
  match a, b with
  | KStr s, KStr t => String.eqb s t
  | KInt x, KInt y => Z.eqb x y
  | _, _ => false
  end.

(** Equality of path elements, as used by dictionaries of them (TU l.192). *)
Definition key_eqb (a b : key) : bool :=
  match a, b with
  | SequenceKey i, SequenceKey j => Nat.eqb i j
  | DictKey k, DictKey l => dkey_eqb k l
  | GetAttrKey s, GetAttrKey t => String.eqb s t
  | _, _ => false
  end.

(** [a <= b] for keys of one dictionary, in jax's flattening (used at TU l.223). *)
Definition dkey_leb (a b : dkey) : bool :=
  match a, b with
  | KStr s, KStr t => String.leb s t
  | KInt x, KInt y => Z.leb x y
  | KInt _, KStr _ => true
  | KStr _, KInt _ => false
  end.

(** The same on path elements (jax, used at TU l.223). *)
Definition key_leb (a b : key) : bool :=
  match a, b with
  | DictKey k, DictKey l => dkey_leb k l
  | _, _ => true
  end.

(** One step of sorting the items of a dictionary (jax, used at TU l.223). *)
Fixpoint insert_item {A : Type} (x : key * A) (l : list (key * A)) : list (key * A) :=
  match l with
  | [] => [x]
  | y :: r => if key_leb (fst x) (fst y) then x :: l else y :: insert_item x r
  end.

(** Sorting the items of a dictionary (jax, used at TU l.223). *)
Definition sort_items {A : Type} (l : list (key * A)) : list (key * A) :=
  fold_right insert_item [] l.

(** Children in jax's order (used at TU l.223): only dictionaries are sorted. *)
Definition order {A : Type} (k : kind) (l : list (key * A)) : list (key * A) :=
  match k with KDict => sort_items l | _ => l end.

(** Apply [f] to the child of each item (used for l.223-249 of TU). *)
Definition map_items {A B : Type} (f : A -> B) (l : list (key * A)) : list (key * B) :=
  map (fun x => (fst x, f (snd x))) l.

(** Put [k] in front of the path of each flattened item (TU l.223). *)
Definition under {A : Type} (k : key) (l : list (path * A)) : list (path * A) :=
  map (fun x => (k :: fst x, snd x)) l.

(** [jax.tree_util.tree_flatten_with_path(tree, is_leaf)] (TU l.223): with [keep],
    nodes without children are leaves ([is_empty_or_leaf], TU l.83-88), without it
    they vanish. *)
Fixpoint flatten {V : Type} (keep : bool) (t : tree V) : list (path * tree V) :=
  match t with
  | Leaf _ => [([], t)]
  | Node k [] => if keep then [([], t)] else []
  | Node k cs => flat_map (fun x => under (fst x) (snd x)) (order k (map_items (flatten keep) cs))
  end.

(** Evaluate the children in order (TU l.245). *)
Definition seq_items {A : Type} (l : list (key * result A)) : result (list (key * A)) :=
  sequence (map (fun x => rmap (fun a => (fst x, a)) (snd x)) l).

(** [jax.tree_util.tree_map_with_path(f, tree, is_leaf)] (TU l.245, l.377), the path so
    far being [p]. *)
Fixpoint map_with_path {V W : Type} (keep : bool) (f : path -> tree V -> result (tree W))
    (p : path) (t : tree V) {struct t} : result (tree W) :=
  match t with
  | Leaf _ => f p t
  | Node k [] => if keep then f p t else Ok (Node k [])
  | Node k cs =>
    rmap (Node k) (seq_items (order k
      ((fix go (l : list (key * tree V)) : list (key * result (tree W)) :=
          match l with
          | [] => []
          | (x, c) :: r => (x, map_with_path keep f (p ++ [x]) c) :: go r
          end) cs)))
  end.

(** Flattening and rebuilding sorts all dictionaries (jax, TU l.359). *)
Fixpoint norm {V : Type} (t : tree V) : tree V :=
  match t with
  | Leaf v => Leaf v
  | Node k cs => Node k (order k (map_items norm cs))
  end.

(** Hand out values to the leaves from left to right (jax, TU l.359). *)
Fixpoint fill {V W : Type} (t : tree V) (vs : list (tree W)) {struct t} : option (tree W * list (tree W)) :=
  match t with
  | Leaf _ => match vs with v :: r => Some (v, r) | [] => None end
  | Node k cs =>
    match (fix go (l : list (key * tree V)) (vs : list (tree W)) : option (list (key * tree W) * list (tree W)) :=
             match l with
             | [] => Some ([], vs)
             | (x, c) :: r =>
               match fill c vs with
               | None => None
               | Some (c', vs') => match go r vs' with None => None | Some (r', vs'') => Some ((x, c') :: r', vs'') end
               end
             end) cs vs with
    | None => None
    | Some (cs', vs') => Some (Node k cs', vs')
    end
  end.

(** [jax.tree.unflatten(jax.tree.structure(target), values)] (TU l.359) *)
Definition unflatten {V W : Type} (target : tree V) (vs : list (tree W)) : result (tree W) :=
  match fill (norm target) vs with
  | Some (t, []) => Ok t
  | _ => Err ValueError
  end.

(** ** Names *)

(** [str(z)] for an integer (TU l.96). *)
Definition str_int (z : Z) : string :=
  match z with
  | Zneg p => String "-"%char (string_of_list_ascii (dec (Npos p)))
  | _ => string_of_list_ascii (dec (Z.to_N z))
  end.

(** [str(key.key)] (TU l.96) *)
Definition str_dkey (k : dkey) : string :=
  match k with KStr s => s | KInt z => str_int z end.

(** The result of [get_key_name]: an integer or a string (TU l.91). *)
Inductive kname : Type :=
| NInt (i : nat)
| NStr (s : string).

(** TU l.91-102 *)
Definition get_key_name (k : key) : kname :=
  match k with
  | SequenceKey i => NInt i
  | DictKey k => NStr (str_dkey k)
  | GetAttrKey s => NStr s
  end.

(** [str(get_key_name(k))] (TU l.107, l.364) *)
Definition str_name (k : key) : string :=
  match get_key_name k with
  | NInt i => str_int (Z.of_nat i)
  | NStr s => s
  end.

(** TU l.105-107, l.362-364 *)
Definition tuple_path_from_keypath (p : path) : list string := map str_name p.

(** [sep.join(l)] (TU l.293, l.369) *)
Definition join (sep : string) (l : list string) : string := String.concat sep l.

(** TU l.367-369 *)
Definition param_name_from_keypath (p : path) : string := join "." (tuple_path_from_keypath p).

(** TU l.372-381 *)
Definition get_param_names {V : Type} (include_empty_nodes : bool) (item : tree V) : result (tree string) :=
  map_with_path include_empty_nodes (fun p _ => Ok (Leaf (param_name_from_keypath p))) [] item.

(** TU l.110-111 *)
Definition is_dict_key (k : key) : bool :=
  match k with SequenceKey _ => false | _ => true end.

(** ** Serialization *)

(** The entry of a dictionary (TU l.194). *)
Fixpoint find_item {A : Type} (k : key) (l : list (key * A)) : option A :=
  match l with
  | [] => None
  | (k', v) :: r => if key_eqb k k' then Some v else find_item k r
  end.

(** [d[k] = v] (TU l.174, l.193): a present key keeps its place. *)
Fixpoint put_item {A : Type} (k : key) (v : A) (l : list (key * A)) : list (key * A) :=
  match l with
  | [] => [(k, v)]
  | (k', v') :: r => if key_eqb k k' then (k', v) :: r else (k', v') :: put_item k v r
  end.

(** [type(key)], compared at TU l.170. *)
Definition same_class (a b : key) : bool :=
  match a, b with
  | SequenceKey _, SequenceKey _ | DictKey _, DictKey _ | GetAttrKey _, GetAttrKey _ => true
  | _, _ => false
  end.

(** The empty container for a key (TU l.158-164, l.181-187). *)
Definition container {V : Type} (k : key) : tree V :=
  if is_dict_key k then Node KDict [] else Node KList [].

(** The loop body over one path (TU l.168-201): insert [v] at [p] below [t].  Python
    changes the containers in place, the model returns the changed tree. *)
Fixpoint insert_at {V : Type} (t : tree V) (p : path) (v : tree V) : result (tree V) :=
  match p with
  | [] => Ok t
  | k :: rest =>
    match get_key_name k with
    | NStr name =>
      match t with
      | Node KDict cs =>
        let n := DictKey (KStr name) in
        match rest with
        | [] => Ok (Node KDict (put_item n v cs))
        | k2 :: _ =>
          let sub := match find_item n cs with Some s => s | None => container k2 end in
          rmap (fun s => Node KDict (put_item n s cs)) (insert_at sub rest v)
        end
      | _ => Err AssertionError
      end
    | NInt i =>
      match t with
      | Node KList cs =>
        if (List.length cs <? i)%nat then Err AssertionError
        else
          let n := SequenceKey i in
          match rest with
          | [] => Ok (if (i =? List.length cs)%nat then Node KList (cs ++ [(n, v)]) else t)
          | k2 :: _ =>
            if (i =? List.length cs)%nat
            then rmap (fun s => Node KList (cs ++ [(n, s)])) (insert_at (container k2) rest v)
            else match nth_error cs i with
                 | Some (_, s) => rmap (fun s' => Node KList (set_nth i (n, s') cs)) (insert_at s rest v)
                 | None => Err IndexError
                 end
          end
      | _ => Err AssertionError
      end
    end
  end.

(** The loop of TU l.166-201 after the first element fixed [outerkey]. *)
Fixpoint insert_all {V : Type} (outer : key) (t : tree V) (l : list (path * tree V)) : result (tree V) :=
  match l with
  | [] => Ok t
  | (p, v) :: r =>
    match p with
    | [] => insert_all outer t r
    | k :: _ =>
      if same_class k outer then rbind (insert_at t p v) (fun t' => insert_all outer t' r)
      else Err AssertionError
    end
  end.

(** TU l.131-203 *)
Definition from_flattened_with_keypath {V : Type} (l : list (path * tree V)) : result (tree V) :=
  match l with
  | [] => Err ValueError
  | ([], v) :: _ => Ok v
  | (k :: _, _) :: _ => insert_all k (container k) l
  end.

(** TU l.206-226 *)
Definition serialize_tree {V : Type} (keep_empty_nodes : bool) (t : tree V) : result (tree V) :=
  from_flattened_with_keypath (flatten keep_empty_nodes t).

(** [result[key_name]] for a dictionary, with the fallback to a string
    (TU l.237-240). *)
Definition dict_lookup {V : Type} (n : kname) (cs : list (key * tree V)) : result (tree V) :=
  match n with
  | NInt i =>
    match find_item (DictKey (KInt (Z.of_nat i))) cs with
    | Some v => Ok v
    | None => match find_item (DictKey (KStr (str_int (Z.of_nat i)))) cs with Some v => Ok v | None => Err KeyError end
    end
  | NStr s => match find_item (DictKey (KStr s)) cs with Some v => Ok v | None => Err KeyError end
  end.

(** TU l.390-422, for named tuples: [getattr] or [pytree[k]].  Other objects have
    neither: a leaf or [None] raises TypeError when subscripted; the model does not
    follow attributes of leaves. *)
Definition look_up_pytree_key {V : Type} (t : tree V) (k : key) : result (tree V) :=
  match k with
  | GetAttrKey _ =>
    match t with
    | Node _ cs => match find_item k cs with Some v => Ok v | None => Err KeyError end
    | Leaf _ => Err KeyError
    end
  | SequenceKey i =>
    match t with
    | Node (KNamed _) cs => match nth_error cs i with Some (_, v) => Ok v | None => Err KeyError end
    | _ => Err TypeError
    end
  | DictKey _ => Err TypeError
  end.

(** One step of TU l.235-242. *)
Definition lookup_step {V : Type} (t : tree V) (k : key) : result (tree V) :=
  match t with
  | Node KDict cs => dict_lookup (get_key_name k) cs
  | Node KList cs | Node KTuple cs =>
    match get_key_name k with
    | NInt i => match nth_error cs i with Some (_, v) => Ok v | None => Err IndexError end
    | NStr _ => Err TypeError
    end
  | _ => look_up_pytree_key t k
  end.

(** TU l.233-243 *)
Fixpoint reconstruct_from_keypath {V : Type} (serialized : tree V) (p : path) : result (tree V) :=
  match p with
  | [] => Ok serialized
  | k :: r => rbind (lookup_step serialized k) (fun s => reconstruct_from_keypath s r)
  end.

(** TU l.229-249 *)
Definition deserialize_tree {V W : Type} (serialized : tree W) (target : tree V) (keep_empty_nodes : bool) : result (tree W) :=
  map_with_path keep_empty_nodes (fun p _ => reconstruct_from_keypath serialized p) [] target.

(** ** Flat dictionaries *)

(** A dictionary with tuple or string keys in insertion order (TU l.291-293). *)
Definition dict (K V : Type) : Type := list (K * V).

(** [d[k] = v] for a flat dictionary (TU l.291, l.293) *)
Fixpoint dput {K V : Type} (eqb : K -> K -> bool) (k : K) (v : V) (d : dict K V) : dict K V :=
  match d with
  | [] => [(k, v)]
  | (k', v') :: r => if eqb k k' then (k', v) :: r else (k', v') :: dput eqb k v r
  end.

(** [d[k]] for a flat dictionary (TU l.358) *)
Fixpoint dget {K V : Type} (eqb : K -> K -> bool) (k : K) (d : dict K V) : option V :=
  match d with
  | [] => None
  | (k', v) :: r => if eqb k k' then Some v else dget eqb k r
  end.

(** Equality of tuples of strings (TU l.291). *)
Fixpoint names_eqb (a b : list string) : bool :=
  match a, b with
  | [], [] => true
  | x :: a', y :: b' => String.eqb x y && names_eqb a' b'
  | _, _ => false
  end.

(** A dictionary comprehension (TU l.291, l.293): later entries overwrite. *)
Definition dict_of {K V : Type} (eqb : K -> K -> bool) (l : list (K * V)) : dict K V :=
  fold_left (fun d x => dput eqb (fst x) (snd x) d) l [].

(** TU l.257-291, without a separator *)
Definition to_flat_dict {V : Type} (keep_empty_nodes : bool) (t : tree V) : dict (list string) (tree V) :=
  dict_of names_eqb (map (fun x => (tuple_path_from_keypath (fst x), snd x)) (flatten keep_empty_nodes t)).

(** TU l.257-294, with a separator *)
Definition to_flat_dict_sep {V : Type} (sep : string) (keep_empty_nodes : bool) (t : tree V) : dict string (tree V) :=
  dict_of String.eqb (map (fun x => (join sep (fst x), snd x)) (to_flat_dict keep_empty_nodes t)).

(** Put [c] in front of the first piece (used for TU l.340). *)
Definition cons_piece (c : ascii) (l : list string) : list string :=
  match l with [] => [String c EmptyString] | w :: r => String c w :: r end.

(** [s.split(sep)] for a non-empty separator (TU l.340); [skip] characters of a
    separator are still to be dropped. *)
Fixpoint split_from (sep : string) (skip : nat) (s : string) : list string :=
  match s with
  | EmptyString => [EmptyString]
  | String c r =>
    match skip with
    | S n => split_from sep n r
    | O => if String.prefix sep s then EmptyString :: split_from sep (String.length sep - 1) r
           else cons_piece c (split_from sep 0 r)
    end
  end.

(** [k.split(sep)] (TU l.340); an empty separator is refused by python. *)
Definition split (sep s : string) : result (list string) :=
  match sep with
  | EmptyString => Err ValueError
  | _ => Ok (split_from sep 0 s)
  end.

(** TU l.341-348: insert one value; a non-dictionary met on the way cannot be
    subscripted by a string. *)
Fixpoint insert_names {V : Type} (t : tree V) (names : list string) (v : tree V) : result (tree V) :=
  match names with
  | [] => Ok t
  | name :: rest =>
    match t with
    | Node KDict cs =>
      let n := DictKey (KStr name) in
      match rest with
      | [] => match find_item n cs with Some _ => Err AssertionError | None => Ok (Node KDict (put_item n v cs)) end
      | _ =>
        let sub := match find_item n cs with Some s => s | None => Node KDict [] end in
        rmap (fun s => Node KDict (put_item n s cs)) (insert_names sub rest v)
      end
    | _ => Err TypeError
    end
  end.

(** The loop of TU l.333-349. *)
Fixpoint insert_names_all {V : Type} (t : tree V) (l : list (list string * tree V)) : result (tree V) :=
  match l with
  | [] => Ok t
  | (k, v) :: r => rbind (insert_names t k v) (fun t' => insert_names_all t' r)
  end.

(** TU l.322-349, without a separator; [inplace] is not modelled *)
Definition from_flat_dict {V : Type} (d : dict (list string) (tree V)) : result (tree V) :=
  match dget names_eqb [] d with
  | Some v => if (List.length d =? 1)%nat then Ok v else Err ValueError
  | None => insert_names_all (Node KDict []) d
  end.

(** TU l.322-349, with a separator *)
Definition from_flat_dict_sep {V : Type} (sep : string) (d : dict string (tree V)) : result (tree V) :=
  rbind (sequence (map (fun x => rmap (fun n => (n, snd x)) (split sep (fst x))) d))
    (insert_names_all (Node KDict [])).

(** [d[k]] (TU l.358) *)
Definition fetch {K V : Type} (eqb : K -> K -> bool) (d : dict K V) (k : K) : result V :=
  match dget eqb k d with Some v => Ok v | None => Err KeyError end.

(** TU l.350-359, with a target and without a separator *)
Definition from_flat_dict_target {V W : Type} (d : dict (list string) (tree W)) (target : tree V) : result (tree W) :=
  rbind (sequence (map (fetch names_eqb d) (map fst (to_flat_dict false target)))) (unflatten target).

(** TU l.350-359, with a target and a separator *)
Definition from_flat_dict_target_sep {V W : Type} (sep : string) (d : dict string (tree W)) (target : tree V) : result (tree W) :=
  rbind (sequence (map (fetch String.eqb d) (map fst (to_flat_dict_sep sep false target)))) (unflatten target).
