(** Model of trees whose leaves may be missing.
    Sources: checkpoint/orbax/checkpoint/_src/tree/parts_of.py ("PO") and utils.py
    beside it ("TU").  Not modelled: logging (so also [verbose]) and the registration
    as a pytree node (PO l.309-334). *)
From Coq Require Import List Bool Arith NArith ZArith String Ascii.
From Verif Require Import Base StepName_Model Tree_Model.
Import ListNotations.

(** A value with placeholders (PO l.43): [None] is the placeholder. *)
Definition partial_tree (V : Type) : Type := tree (option V).

(** The same tree with other leaves (used for PO l.185). *)
Fixpoint tree_map {V W : Type} (f : V -> W) (t : tree V) : tree W :=
  match t with
  | Leaf v => Leaf (f v)
  | Node k cs => Node k (map_items (tree_map f) cs)
  end.

(** A treedef (PO l.112, l.120): node types and keys, dictionaries sorted by key. *)
Definition treedef : Type := tree unit.

(** [jax_tree_util.tree_flatten(template)[1]] (PO l.120) *)
Definition structure {V : Type} (t : tree V) : treedef := norm (tree_map (fun _ => tt) t).

(** Equality of node types (PO l.60). *)
Definition kind_eqb (a b : kind) : bool :=
  match a, b with
  | KDict, KDict | KList, KList | KTuple, KTuple | KNone, KNone => true
  | KNamed c, KNamed d => String.eqb c d
  | _, _ => false
  end.

(** [t0 != t1] for treedefs (PO l.60). *)
Fixpoint treedef_eqb (a b : treedef) : bool :=
  match a, b with
  | Leaf _, Leaf _ => true
  | Node k cs, Node l ds =>
    kind_eqb k l &&
    (fix go (cs ds : list (key * treedef)) : bool :=
       match cs, ds with
       | [], [] => true
       | (x, c) :: cs', (y, d) :: ds' => key_eqb x y && treedef_eqb c d && go cs' ds'
       | _, _ => false
       end) cs ds
  | _, _ => false
  end.

(** PO l.112-113 *)
Record parts (V : Type) : Type := mk_parts {
  template : treedef;
  present : dict (list string) V
}.
Arguments mk_parts {V} template present.
Arguments template {V} p.
Arguments present {V} p.

(** The entries that are not placeholders (PO l.121-125). *)
Fixpoint given {V : Type} (l : list (list string * partial_tree V)) : dict (list string) V :=
  match l with
  | [] => []
  | (k, Leaf (Some v)) :: r => (k, v) :: given r
  | _ :: r => given r
  end.

(** [k in d] (PO l.275, l.305) *)
Definition has {V : Type} (k : list string) (d : dict (list string) V) : bool :=
  match dget names_eqb k d with Some _ => true | None => false end.

(** PO l.115-134; [Error] is a ValueError *)
Definition init {U V : Type} (tmpl : tree U) (value : partial_tree V) : result (parts V) :=
  let present := given (to_flat_dict false value) in
  let template_paths := to_flat_dict false tmpl in
  if forallb (fun x => has (fst x) template_paths) present
  then Ok (mk_parts (structure tmpl) present)
  else Err ValueError.

(** PO l.136-141 *)
Definition empty {U V : Type} (tmpl : tree U) : result (parts V) := init tmpl (Node KTuple []).

(** PO l.143-157 *)
Definition from_structure {V : Type} (s : partial_tree V) : result (parts V) := init s s.

(** PO l.184-185: the template with a placeholder at each leaf *)
Definition get_template {V : Type} (p : parts V) : partial_tree V := tree_map (fun _ => None) (template p).

(** PO l.162-171 *)
Definition like {V W : Type} (existing : parts W) (value : partial_tree V) : result (parts V) :=
  init (get_template existing) value.

(** PO l.187-189 *)
Definition is_empty {V : Type} (p : parts V) : bool :=
  match present p with [] => true | _ => false end.

(** PO l.191-194: what is hashed *)
Definition structure_hash {V : Type} (p : parts V) : treedef * list (list string) := (template p, map fst (present p)).

(** PO l.196-209; [TreeNotCompleteError] is a ValueError *)
Definition full_structure {V : Type} (p : parts V) : result (tree V) :=
  match from_flat_dict_target (map (fun x => (fst x, Leaf (snd x))) (present p)) (get_template p) with
  | Err KeyError => Err ValueError
  | r => r
  end.

(** [d.update(e)] (PO l.216, l.269) *)
Definition update {V : Type} (d e : dict (list string) V) : dict (list string) V :=
  fold_left (fun d x => dput names_eqb (fst x) (snd x) d) e d.

(** PO l.211-218 *)
Definition unsafe_structure {V : Type} (p : parts V) : result (partial_tree V) :=
  let leaves := update (to_flat_dict false (get_template p)) (map (fun x => (fst x, Leaf (Some (snd x)))) (present p)) in
  from_flat_dict_target leaves (get_template p).

(** PO l.220-270 *)
Definition overlay {V : Type} (strict : bool) (a b : parts V) : result (parts V) :=
  if treedef_eqb (template a) (template b) then
    if strict && existsb (fun x => has (fst x) (present b)) (present a) then Err ValueError
    else Ok (mk_parts (template a) (update (present a) (present b)))
  else Err ValueError.

(** PO l.272-276 *)
Definition intersect {V : Type} (a b : parts V) : result (parts V) :=
  if treedef_eqb (template a) (template b)
  then Ok (mk_parts (template a) (filter (fun x => has (fst x) (present b)) (present a)))
  else Err ValueError.

(** PO l.301-307 *)
Definition subtract {V : Type} (a b : parts V) : result (parts V) :=
  if treedef_eqb (template a) (template b)
  then Ok (mk_parts (template a) (filter (fun x => negb (has (fst x) (present b))) (present a)))
  else Err ValueError.

(** [k in value_keys] (PO l.403) *)
Definition mem (k : list string) (l : list (list string)) : bool := existsb (names_eqb k) l.

(** PO l.395-406 *)
Definition filter_values {V : Type} (existing : parts V) (value_keys : list (list string)) : result (parts V) :=
  rmap (fun e : parts V => mk_parts (template e) (filter (fun x => mem (fst x) value_keys) (present existing)))
       (empty (get_template existing)).

(** The classes in order of first appearance with their paths (PO l.462-465). *)
Fixpoint add_class {C : Type} (ceqb : C -> C -> bool) (c : C) (k : list string) (l : list (C * list (list string))) : list (C * list (list string)) :=
  match l with
  | [] => [(c, [k])]
  | (c', ks) :: r => if ceqb c c' then (c', ks ++ [k]) :: r else (c', ks) :: add_class ceqb c k r
  end.

(** PO l.432-469 *)
Definition partition {V C : Type} (ceqb : C -> C -> bool) (classifier : V -> C) (s : parts V) : result (list (C * parts V)) :=
  let classes := fold_left (fun l x => add_class ceqb (classifier (snd x)) (fst x) l) (present s) [] in
  sequence (map (fun x => rmap (fun p => (fst x, p)) (filter_values s (snd x))) classes).

(** PO l.361-392; the values of all arguments at a path, with [None] for a placeholder;
    the result of [f] is a leaf or a placeholder *)
Definition map_leaves_with_path {V W : Type} (f : list string -> list (option V) -> option W) (x0 : parts V) (xs : list (parts V)) : result (parts W) :=
  if forallb (fun x => treedef_eqb (template x0) (template x)) xs then
    let f_ := fun p (_ : partial_tree V) =>
      let k := tuple_path_from_keypath p in
      Ok (Leaf (f k (map (fun x => dget names_eqb k (present x)) (x0 :: xs)))) in
    rbind (map_with_path false f_ [] (get_template x0)) (init (get_template x0))
  else Err ValueError.

(** A legacy tree key (TU l.425-432). *)
Inductive tkey : Type :=
| TInt (z : Z)
| TStr (s : string).

(** TU l.425-432 *)
Definition pytree_key_as_tree_key (k : key) : tkey :=
  match k with
  | SequenceKey i => TInt (Z.of_nat i)
  | DictKey (KStr s) => TStr s
  | DictKey (KInt z) => TInt z
  | GetAttrKey s => TStr s
  end.

(** [==] on legacy keys (TU l.490) *)
Definition tkey_eqb (a b : tkey) : bool :=
  match a, b with
  | TInt x, TInt y => Z.eqb x y
  | TStr s, TStr t => String.eqb s t
  | _, _ => false
  end.

(** The first child with the key (TU l.488-491). *)
Fixpoint find_child {V : Type} (k : tkey) (l : list (key * tree V)) : option (tree V) :=
  match l with
  | [] => None
  | (x, c) :: r => if tkey_eqb (pytree_key_as_tree_key x) k then Some c else find_child k r
  end.

(** TU l.473-495 *)
Fixpoint select_by_tree_path {V : Type} (t : tree V) (p : list tkey) : result (tree V) :=
  match p with
  | [] => Ok t
  | k :: rest =>
    match t with
    | Leaf _ => Err ValueError
    | Node kd cs => match find_child k (order kd cs) with Some c => select_by_tree_path c rest | None => Err ValueError end
    end
  end.

(** PO l.278-299 *)
Definition select {V : Type} (s : parts V) (p : list tkey) : result (parts V) :=
  rbind (unsafe_structure s) (fun value =>
  rbind (select_by_tree_path (get_template s) p) (fun ts =>
  rbind (select_by_tree_path value p) (fun vs => init ts vs))).
