(** Model of trimming a tree to a template.
    Sources: checkpoint/orbax/checkpoint/_src/tree/structure_utils.py ("SU") and
    parts_of.py beside it ("PO").  Not modelled: custom pytree nodes (SU l.437-467),
    subclasses of list, tuple and Mapping, templates whose leaves are byte strings or
    ranges.  The calls of the callback are collected in a list; without a callback the
    result is the same. *)
From Coq Require Import List Bool Arith NArith ZArith String Ascii.
From Verif Require Import Base StepName_Model Tree_Model Parts_Model.
Import ListNotations.

(** The calls of the callback (SU l.368-370, l.474): path and node. *)
Definition calls (V : Type) : Type := list (list dkey * tree V).

(** [jax.tree_util.keystr((k,))] (SU l.279); the repr of a string is its characters in
    quotes. *)
Definition keystr (k : key) : string :=
  match k with
  | SequenceKey i => ("[" ++ str_int (Z.of_nat i) ++ "]")%string
  | DictKey (KStr s) => ("['" ++ s ++ "']")%string
  | DictKey (KInt z) => ("[" ++ str_int z ++ "]")%string
  | GetAttrKey s => ("." ++ s)%string
  end.

(** The key of an entry of a mapping (SU l.364): sequences and named tuples have the
    cleaned key (SU l.278). *)
Definition entry_key (l : kind) (y : key) : dkey :=
  match l, y with
  | KDict, DictKey d => d
  | _, _ => KStr (str_name y)
  end.

(** SU l.323-346 with SU l.272-286: the entries of a structure that is matched with a
    mapping, and the original keys if it was converted. *)
Definition structure_dict {V : Type} (allow : bool) (s : tree V) : result (list (dkey * tree V) * option (list key)) :=
  match s with
  | Leaf _ => Err TypeError
  | Node KDict ds => Ok (map (fun x => (entry_key KDict (fst x), snd x)) ds, None)
  | Node KNone _ => Ok ([], None)
  | Node l ds =>
    let is_standard_sequence := match l with KList | KTuple => true | _ => false end in
    if allow || negb is_standard_sequence
    then Ok (map (fun x => (entry_key l (fst x), snd x)) ds, Some (map fst ds))
    else Err TypeError
  end.

(** SU l.289-303: a call with the original key put back.  [callback_path[t_len]] and
    [original_key_by_clean_key[clean_k]] can raise. *)
Definition restore {V : Type} (t_len : nat) (originals : list key) (e : list dkey * tree V) : result (list dkey * tree V) :=
  match nth_error (fst e) t_len with
  | None => Err IndexError
  | Some clean =>
    match find (fun k => dkey_eqb (KStr (str_name k)) clean) originals with
    | None => Err KeyError
    | Some k => Ok (set_nth t_len (KStr (keystr k)) (fst e), snd e)
    end
  end.

(** [jax.tree.map(lambda x: ..., template[k])] (SU l.360) *)
Definition placeholders {U V : Type} (t : tree U) : partial_tree V := norm (tree_map (fun _ => None) t).

(** What trimming returns (SU l.312), with the calls of the callback. *)
Definition trimmed (V : Type) : Type := (partial_tree V * calls V)%type.

(** [k in d] (SU l.353, l.365) *)
Definition key_in {A : Type} (k : dkey) (l : list (dkey * A)) : bool :=
  match dget dkey_eqb k l with Some _ => true | None => false end.

(** SU l.349-384: a mapping as template.  Each entry of the template comes with the
    function that trims a node to it. *)
Definition trim_mapping {U V : Type} (strict allow : bool) (template : list (dkey * (tree U * (list dkey -> tree V -> result (trimmed V)))))
  (path : list dkey) (s : tree V) : result (trimmed V) :=
  rbind (structure_dict allow s) (fun d =>
  let items := fst d in
  let missing := filter (fun x => negb (key_in (fst x) items)) template in
  if strict && negb (match missing with [] => true | _ => false end) then Err ValueError else
  let keep_items := filter (fun x => key_in (fst x) template) items in
  let drop_items := filter (fun x => negb (key_in (fst x) template)) items in
  rbind (sequence (map (fun x =>
    match dget dkey_eqb (fst x) template with
    | Some e => rmap (fun o => (fst x, o)) (snd e (path ++ [fst x]) (snd x))
    | None => Err KeyError
    end) keep_items)) (fun keep_dict =>
  let called := map (fun x => (path ++ [fst x], snd x)) drop_items ++ flat_map (fun x => snd (snd x)) keep_dict in
  let node := Node KDict (map (fun x => (DictKey (fst x), fst (snd x))) keep_dict ++
                          map (fun x => (DictKey (fst x), placeholders (fst (snd x)))) missing) in
  rmap (fun l => (node, l))
    (match snd d with
     | None => Ok called
     | Some originals => sequence (map (restore (List.length path) originals) called)
     end))).

(** The elements of an [abc.Sequence] (SU l.410-419): [None] has become the empty tuple;
    a leaf can be a sequence too (a string: its characters). *)
Definition elements {V : Type} (chars : V -> option (list V)) (s : tree V) : option (list (tree V)) :=
  match s with
  | Leaf v => option_map (map Leaf) (chars v)
  | Node KDict _ => None
  | Node KNone _ => Some []
  | Node _ ds => Some (map snd ds)
  end.

(** [type(template)] called with the fields (SU l.396). *)
Definition from_fields {V : Type} (c : string) (fields : list key) (d : tree V) : result (tree V) :=
  match d with
  | Node _ ds =>
    rmap (Node (KNamed c)) (sequence (map (fun f =>
      match find_item (DictKey (KStr (str_name f))) ds with Some v => Ok (f, v) | None => Err TypeError end) fields))
  | Leaf _ => Err TypeError
  end.

(** SU l.306-491 *)
Fixpoint tree_trim_at {U V : Type} (chars : V -> option (list V)) (strict allow : bool) (template : tree U) (path : list dkey) (s : tree V)
  {struct template} : result (trimmed V) :=
  let trim_elements := fix go (i : nat) (cs : list (key * tree U)) (es : list (tree V)) : result (list (key * partial_tree V) * calls V) :=
    match cs, es with
    | (x, c) :: cs', e :: es' =>
      rbind (tree_trim_at chars strict allow c (path ++ [KInt (Z.of_nat i)]) e) (fun o =>
      rmap (fun r => ((x, fst o) :: fst r, snd o ++ snd r)) (go (S i) cs' es'))
    | _, _ => Ok ([], [])
    end in
  let trim_sequence := fun k cs =>
    match elements chars s with
    | None => Err TypeError
    | Some es =>
      if List.length es =? List.length cs then rmap (fun r => (Node k (fst r), snd r)) (trim_elements 0%nat cs es) else Err ValueError
    end in
  let entries := fun k cs => map (fun x => (entry_key k (fst x), (snd x, tree_trim_at chars strict allow (snd x)))) cs in
  match template with
  | Node KDict cs => trim_mapping strict allow (entries KDict cs) path s
  | Node (KNamed c) cs =>
    match s with
    | Node KDict _ =>
      rbind (trim_mapping strict allow (entries (KNamed c) cs) path s) (fun o =>
      rmap (fun n => (n, snd o)) (from_fields c (map fst cs) (fst o)))
    | _ => trim_sequence (KNamed c) cs
    end
  | Node KNone _ =>
    match s with
    | Leaf v => Ok (Node KNone [], [(path, Leaf v)])
    | _ => rmap (fun o => (Node KNone [], snd o)) (trim_mapping (U := U) strict allow [] path s)
    end
  | Node k cs => trim_sequence k cs
  | Leaf _ =>
    match s with
    | Leaf v => Ok (Leaf (Some v), [])
    | Node KNone _ => Ok (Node KNone [], [])
    | _ => Err TypeError
    end
  end.

(** SU l.494-512 *)
Definition tree_trim_impl {U V : Type} (chars : V -> option (list V)) (strict allow : bool) (template : tree U) (s : tree V) : result (parts V * calls V) :=
  rbind (tree_trim_at chars strict allow template [] s) (fun o => rmap (fun p => (p, snd o)) (init template (fst o))).

(** SU l.219-269 with [strict]: the full structure *)
Definition tree_trim {U V : Type} (chars : V -> option (list V)) (allow : bool) (template : tree U) (s : tree V) : result (tree V * calls V) :=
  rbind (tree_trim_impl chars true allow template s) (fun o => rmap (fun t => (t, snd o)) (full_structure (fst o))).

(** SU l.219-269 without [strict] *)
Definition tree_trim_partial {U V : Type} (chars : V -> option (list V)) (allow : bool) (template : tree U) (s : tree V) : result (parts V * calls V) :=
  tree_trim_impl chars false allow template s.
