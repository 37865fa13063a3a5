(** Model of the transformation of trees.
    Source: checkpoint/orbax/checkpoint/transform_utils.py ("XU").  Not modelled:
    [RestoreTransform] (XU l.113-153), logging, dictionary order of the result of
    [intersect_trees] without a target. *)
From Coq Require Import List Bool Arith NArith ZArith String Ascii.
From Verif Require Import Base StepName_Model Tree_Model.
Import ListNotations.

(** XU l.35-93.  The functions may raise; a value can be a tree. *)
Record transform (V : Type) : Type := mk_transform {
  original_key : option string;
  use_fallback : bool;
  value_fn : option (tree V -> result (tree V));
  multi_value_fn : option (string -> tree V -> result (tree V))
}.
Arguments mk_transform {V} original_key use_fallback value_fn multi_value_fn.
Arguments original_key {V} t.
Arguments use_fallback {V} t.
Arguments value_fn {V} t.
Arguments multi_value_fn {V} t.

(** [x is None] (XU l.96-109) *)
Definition is_none {A : Type} (x : option A) : bool := match x with None => true | Some _ => false end.

(** [assert] (XU l.97-109) *)
Definition asserted (b : bool) : result unit := if b then Ok tt else Err AssertionError.

(** XU l.95-109 *)
Definition post_init {V : Type} (t : transform V) : result unit :=
  rbind (if negb (is_none (original_key t))
         then rbind (asserted (negb (use_fallback t))) (fun _ => asserted (is_none (multi_value_fn t))) else Ok tt) (fun _ =>
  rbind (if use_fallback t
         then rbind (asserted (is_none (original_key t))) (fun _ => rbind (asserted (is_none (value_fn t))) (fun _ => asserted (is_none (multi_value_fn t)))) else Ok tt) (fun _ =>
  rbind (if negb (is_none (value_fn t))
         then rbind (asserted (negb (use_fallback t))) (fun _ => asserted (is_none (multi_value_fn t))) else Ok tt) (fun _ =>
  if negb (is_none (multi_value_fn t))
  then rbind (asserted (is_none (original_key t))) (fun _ => rbind (asserted (negb (use_fallback t))) (fun _ => asserted (is_none (value_fn t)))) else Ok tt))).

(** XU l.35, l.95: making a transform *)
Definition new_transform {V : Type} (t : transform V) : result (transform V) := rmap (fun _ => t) (post_init t).

(** The leaves of a flat dictionary of transforms (XU l.243). *)
Fixpoint transform_items {V : Type} (l : dict string (tree (transform V))) : dict string (transform V) :=
  match l with
  | [] => []
  | (k, Leaf t) :: r => (k, t) :: transform_items r
  | (_, Node _ _) :: r => transform_items r
  end.

(** XU l.249-279: what one key becomes.  [fullmatch] is [re.fullmatch(pattern, key)]; a
    match is given by its [expand]; both may raise. *)
Fixpoint transform_key {V : Type} (fullmatch : string -> string -> result (option (string -> result string)))
  (default_to_original : bool) (original_tree : tree V) (original : dict string (tree V)) (key : string)
  (transforms : dict string (transform V)) (value : tree V) (found : bool) : result (tree V * bool) :=
  match transforms with
  | [] => Ok (value, found)
  | (pattern, t) :: rest =>
    let continue := transform_key fullmatch default_to_original original_tree original key rest in
    rbind (fullmatch pattern key) (fun m =>
    match m with
    | None => continue value found
    | Some expand =>
      if use_fallback t then
        if negb default_to_original then
          match dget String.eqb key original with
          | None => Err ValueError
          | Some v => continue v true
          end
        else continue value true
      else if negb (is_none (multi_value_fn t) || is_none (value_fn t)) then Err ValueError
      else
        match multi_value_fn t with
        | None =>
          rbind (match original_key t with None => Ok key | Some k => expand k end) (fun k =>
          match dget String.eqb k original with
          | None => Err ValueError
          | Some v => rbind (match value_fn t with None => Ok v | Some f => f v end) (fun v' => continue v' true)
          end)
        | Some f => rbind (f key original_tree) (fun v => continue v true)
        end
    end)
  end.

(** XU l.248-287: the body of the loop over the keys of the new tree *)
Definition new_value {V : Type} (fullmatch : string -> string -> result (option (string -> result string)))
  (default_to_original : bool) (original_tree : tree V) (original : dict string (tree V)) (transforms : dict string (transform V))
  (item : string * tree V) : result (string * tree V) :=
  let key := fst item in
  rmap (fun o : tree V * bool =>
    if snd o then (key, fst o)
    else match dget String.eqb key original with
         | Some v => (key, if default_to_original then v else fst o)
         | None => (key, fst o)
         end)
    (transform_key fullmatch default_to_original original_tree original key transforms (snd item) false).

(** [not jax.tree.leaves(new_tree) and not new_tree] (XU l.238): a container without
    items. *)
Definition empty_tree {V : Type} (t : tree V) : bool :=
  match t with Node _ [] => true | _ => false end.

(** XU l.157-294.  Each key is looked at once, so the values can be computed one by one. *)
Definition apply_transformations {V : Type} (fullmatch : string -> string -> result (option (string -> result string)))
  (original_tree : tree V) (transformations : tree (transform V)) (new_tree : tree V) (default_to_original : bool) : result (tree V) :=
  if empty_tree new_tree then Ok (Node KDict []) else
  let original := to_flat_dict_sep "/" false original_tree in
  let new := to_flat_dict_sep "/" false new_tree in
  let transforms := transform_items (to_flat_dict_sep "/" false transformations) in
  rbind (sequence (map (new_value fullmatch default_to_original original_tree original transforms) new)) (fun new' =>
  from_flat_dict_target_sep "/" new' new_tree).

(** [d |= e] (XU l.312) *)
Definition ior {K V : Type} (eqb : K -> K -> bool) (d e : dict K V) : dict K V :=
  fold_left (fun d x => dput eqb (fst x) (snd x) d) e d.

(** [from_flat_dict(d, target=target)] (XU l.313, l.332) *)
Definition rebuild {V : Type} (d : dict (list string) (tree V)) (target : option (tree V)) : result (tree V) :=
  match target with
  | None => from_flat_dict d
  | Some t => from_flat_dict_target d t
  end.

(** XU l.297-313 *)
Definition merge_trees {V : Type} (trees : list (tree V)) (target : option (tree V)) : result (tree V) :=
  rebuild (fold_left (ior names_eqb) (map (to_flat_dict false) trees) []) target.

(** [k in t.keys()] (XU l.331) *)
Definition has_key {V : Type} (k : list string) (t : dict (list string) (tree V)) : bool := negb (is_none (dget names_eqb k t)).

(** XU l.316-334.  [set.intersection()] without arguments raises.  The entries are in the
    order of the last tree here; python takes the order of a set. *)
Definition intersect_trees {V : Type} (trees : list (tree V)) (target : option (tree V)) : result (tree V) :=
  match trees with
  | [] => Err TypeError
  | t0 :: _ =>
    let flat := map (to_flat_dict false) trees in
    rebuild (filter (fun x => forallb (has_key (fst x)) flat) (to_flat_dict false (List.last trees t0))) target
  end.
