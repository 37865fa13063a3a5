(** Model of the metadata file of a pytree checkpoint.
    Source: checkpoint/orbax/checkpoint/_src/metadata/tree.py ("TM") and
    checkpoint/orbax/checkpoint/_src/metadata/empty_values.py ("EV"); values, JSON and trees are
    those of RichMeta_Model and Tree_Model.
    Simplifications: strings hold the code points 0 to 255; a JSON text is the JSON value it
    denotes, and the text of the rich tree inside it is kept beside the object ([d_rich]);
    custom metadata is a JSON value; [int(key_name)] reads plain decimal digits only; JSON of
    another shape than [to_json] writes is refused as TypeError.
    Not modelled: custom pytree nodes (their index keys behave as sequence keys here), logging,
    TM l.718-895 (an interface) and the accessors of TM l.1028-1100. *)
From Coq Require Import List Bool Arith NArith ZArith String Ascii.
From Verif Require Import Base StepName_Model Tree_Model Merge_Model RichMeta_Model.
Import ListNotations.
Open Scope string_scope.

(** ** repr *)

(** A hexadecimal digit in lower case (repr, used at TM l.196) *)
Definition hex (n : N) : ascii := if (n <? 10)%N then ascii_of_N (48 + n) else ascii_of_N (87 + n).

(** Printed as it is by repr (used at TM l.196) *)
Definition printable (c : ascii) : bool :=
  let n := N_of_ascii c in
  ((32 <=? n) && (n <=? 126) || (161 <=? n) && negb (n =? 173))%N.

(** One character inside quotes [q] (repr, used at TM l.196) *)
Definition repr_char (q c : ascii) : list ascii :=
  if Ascii.eqb c q || Ascii.eqb c "\"%char then ["\"%char; c]
  else if Ascii.eqb c "009"%char then ["\"%char; "t"%char]
  else if Ascii.eqb c "010"%char then ["\"%char; "n"%char]
  else if Ascii.eqb c "013"%char then ["\"%char; "r"%char]
  else if printable c then [c]
  else ["\"%char; "x"%char; hex (N_of_ascii c / 16); hex (N_of_ascii c mod 16)].

(** The quotes that repr chooses (used at TM l.196) *)
Definition quote_for (l : list ascii) : ascii :=
  if existsb (Ascii.eqb "'"%char) l && negb (existsb (Ascii.eqb """"%char) l) then """"%char else "'"%char.

(** [repr(s)] (used at TM l.196) *)
Definition repr (s : string) : list ascii :=
  let l := list_ascii_of_string s in
  let q := quote_for l in
  (q :: flat_map (repr_char q) l ++ [q])%list.

(** The items of a tuple with commas between them (TM l.196) *)
Fixpoint repr_items (l : list string) : list ascii :=
  match l with
  | [] => []
  | [s] => repr s
  | s :: r => (repr s ++ [","%char; " "%char] ++ repr_items r)%list
  end.

(** [str(tuple(l))] (TM l.196) *)
Definition str_tuple (l : list string) : string :=
  string_of_list_ascii
    match l with
    | [s] => ("("%char :: repr s ++ [","%char; ")"%char])%list
    | _ => ("("%char :: repr_items l ++ [")"%char])%list
    end.

(** ** Keys *)

(** TM l.70-81 *)
Inductive key_type : Type := SEQUENCE | DICT.

(** TM l.76-77 *)
Definition key_type_json (k : key_type) : json := Leaf (SInt (match k with SEQUENCE => 1 | DICT => 2 end)).

(** TM l.79-81 *)
Definition key_type_from_json (j : json) : result key_type :=
  match j with
  | Leaf (SInt 1) => Ok SEQUENCE
  | Leaf (SInt 2) => Ok DICT
  | _ => Err ValueError
  end.

(** TM l.84-91 *)
Definition get_key_metadata_type (k : key) : key_type :=
  match k with SequenceKey _ => SEQUENCE | _ => DICT end.

(** TM l.94-101 *)
Definition keypath_from_key_type (name : string) (k : key_type) : result key :=
  match k with
  | SEQUENCE =>
    match list_ascii_of_string name with
    | [] => Err ValueError
    | l => match parse_digits 0 l with Some n => Ok (SequenceKey (N.to_nat n)) | None => Err ValueError end
    end
  | DICT => Ok (DictKey (KStr name))
  end.

(** One level of a key (TM l.104-109) *)
Definition nested : Type := string * key_type.

(** TM l.111-115 *)
Definition nested_to_json (n : nested) : json :=
  pdict [("key", jstr (fst n)); ("key_type", key_type_json (snd n))].

(** TM l.117-124 *)
Definition nested_from_json (j : json) : result nested :=
  rbind (rbind (field "key" j) as_str) (fun s =>
  rbind (rbind (field "key_type" j) key_type_from_json) (fun k => Ok (s, k))).

(** TM l.146-153 *)
Definition key_build (p : path) : list nested := map (fun k => (str_name k, get_key_metadata_type k)) p.

(** ** Entries *)

(** TM l.156-162 *)
Record entry : Type := mkE { keypath : string; key_metadata : list nested; value_metadata : vmeta }.

(** The value of TM l.164-170; [keypath] is the key *)
Definition entry_json (e : entry) : json :=
  pdict [("key_metadata", plist (map nested_to_json (key_metadata e))); ("value_metadata", vm_to_json (value_metadata e))].

(** TM l.172-185 *)
Definition entry_from_json (k : string) (j : json) : result entry :=
  rbind (rbind (rbind (field "key_metadata" j) elements) (fun l => sequence (map nested_from_json l))) (fun ks =>
  rbind (field "value_metadata" j) (fun v =>
  rbind (vm_from_json v false) (fun v => Ok (mkE k ks v)))).

(** The metadata of a value; an empty node has no type string (TM l.198, l.283-288) *)
Definition leaf_meta (x : tree pinfo) : result vmeta :=
  match x with Leaf i => vm_build i | Node _ _ => Err AttributeError end.

(** TM l.187-199 *)
Definition entry_build (p : path) (i : tree pinfo) : result entry :=
  rbind (leaf_meta i) (fun v => Ok (mkE (str_tuple (map str_name p)) (key_build p) v)).

(** TM l.201-207 *)
Definition jax_keypath (e : entry) : result path :=
  sequence (map (fun n => keypath_from_key_type (fst n) (snd n)) (key_metadata e)).

(** ** The whole metadata *)

(** TM l.210-228; [custom_metadata] is null for None *)
Record meta : Type := mkM {
  entries : list entry;
  use_ocdbt : option bool;
  use_zarr3 : bool;
  custom_metadata : json;
  store_array_data_equal_to_fill_value : bool;
  support_rich_types : bool;
  value_metadata_tree : option (tree vmeta) }.

(** [jax.tree_util.tree_map(ValueMetadataEntry.build, param_infos, save_args)] (TM l.283-288) *)
Definition build_tree (t : tree pinfo) : result (tree vmeta) :=
  map_with_path true (fun _ x => rmap Leaf (leaf_meta x)) [] t.

(** TM l.248-302; [args] are the save arguments, of which only the number counts *)
Definition build (infos : tree pinfo) (args : option (tree unit)) (ocdbt : option bool) (zarr3 : bool)
    (custom : json) (store : bool) (rich : bool) : result meta :=
  let flat_infos := flatten true infos in
  let n := match args with None => List.length flat_infos | Some a => List.length (flatten true a) end in
  rbind (sequence (map (fun x => entry_build (fst x) (snd x)) (firstn n flat_infos))) (fun es =>
  rbind (if rich then rmap Some (build_tree infos) else Ok None) (fun t =>
  Ok (mkM es ocdbt zarr3 custom store rich t))).

(** A metadata file: the object and the rich tree inside it (TM l.377-399) *)
Record doc : Type := mkD { d_obj : list (string * json); d_rich : option json }.

(** [functools.reduce(operator.ior, [entry.to_json() ...], {})] (TM l.378-382, l.628-637) *)
Definition entries_json (l : list entry) : dict string json :=
  dict_of String.eqb (map (fun e => (keypath e, entry_json e)) l).

(** A flag that may be None as JSON (TM l.383) *)
Definition flag_json (o : option bool) : json := match o with None => Node KNone [] | Some b => Leaf (SBool b) end.

Section Classes.
(** As in RichMeta_Model, used at TM l.396 *)
Variables module_of qualname_of : string -> string.

(** TM l.304-403 *)
Definition to_json (m : meta) : result doc :=
  let obj := [("tree_metadata", pdict (entries_json (entries m)));
              ("use_ocdbt", flag_json (use_ocdbt m));
              ("use_zarr3", Leaf (SBool (use_zarr3 m)));
              ("store_array_data_equal_to_fill_value", Leaf (SBool (store_array_data_equal_to_fill_value m)));
              ("custom_metadata", custom_metadata m)] in
  match support_rich_types m, value_metadata_tree m with
  | true, Some t => rmap (fun j => mkD obj (Some j)) (dumps module_of qualname_of t)
  | _, _ => Ok (mkD obj None)
  end.

End Classes.

(** [json_dict.get(k, default)] (TM l.414-419) *)
Definition get (k : string) (d : list (string * json)) (default : json) : json :=
  match dget String.eqb k d with Some j => j | None => default end.

(** A flag that may be None (TM l.414) *)
Definition as_flag (j : json) : result (option bool) :=
  match j with Node KNone _ => Ok None | _ => rmap Some (as_bool j) end.

(** The items of a dictionary with string keys (TM l.422-424) *)
Definition items (j : json) : result (list (string * json)) :=
  match j with Node KDict cs => Ok (map (fun x => (str_name (fst x), snd x)) cs) | _ => Err TypeError end.

(** The metadata at the leaves of a tree that was read (TM l.434); python accepts any leaf *)
Fixpoint as_metas (t : tree lval) : result (tree vmeta) :=
  match t with
  | Leaf (LMeta v) => Ok (Leaf v)
  | Leaf (LScalar _) => Err AttributeError
  | Node k cs =>
    rmap (Node k) ((fix go (l : list (key * tree lval)) : result (list (key * tree vmeta)) :=
              match l with
              | [] => Ok []
              | (x, c) :: r => rbind (as_metas c) (fun j => rmap (cons (x, j)) (go r))
              end) cs)
  end.

(** TM l.405-448 *)
Definition from_json (d : doc) (rich : bool) : result meta :=
  rbind (as_flag (get "use_ocdbt" (d_obj d) (Node KNone []))) (fun ocdbt =>
  rbind (as_bool (get "use_zarr3" (d_obj d) (Leaf (SBool false)))) (fun zarr3 =>
  rbind (as_bool (get "store_array_data_equal_to_fill_value" (d_obj d) (Leaf (SBool false)))) (fun store =>
  rbind (match dget String.eqb "tree_metadata" (d_obj d) with Some j => items j | None => Err KeyError end) (fun es =>
  rbind (sequence (map (fun x => entry_from_json (fst x) (snd x)) es)) (fun es =>
  rbind (match rich, d_rich d with
         | true, Some j => rmap Some (rbind (loads j) as_metas)
         | _, _ => Ok None
         end) (fun t =>
  Ok (mkM es ocdbt zarr3 (get "custom_metadata" (d_obj d) (Node KNone [])) store rich t))))))).

(** ** The nested tree *)

(** Tuple comparison of key names cannot compare an integer with a string (TM l.469) *)
Fixpoint clash (a b : list kname) : bool :=
  match a, b with
  | NInt i :: a', NInt j :: b' => if (i =? j)%nat then clash a' b' else false
  | NStr s :: a', NStr t :: b' => if String.eqb s t then clash a' b' else false
  | NInt _ :: _, NStr _ :: _ | NStr _ :: _, NInt _ :: _ => true
  | _, _ => false
  end.

(** [a <= b] for tuples of key names that can be compared (TM l.469) *)
Fixpoint names_leb (a b : list kname) : bool :=
  match a, b with
  | [], _ => true
  | _ :: _, [] => false
  | NInt i :: a', NInt j :: b' => if (i =? j)%nat then names_leb a' b' else (i <? j)%nat
  | NStr s :: a', NStr t :: b' => if String.eqb s t then names_leb a' b' else String.leb s t
  | NInt _ :: _, NStr _ :: _ => true
  | NStr _ :: _, NInt _ :: _ => false
  end.

(** One step of a stable sort (TM l.469) *)
Fixpoint insert_by {A : Type} (x : list kname * A) (l : list (list kname * A)) : list (list kname * A) :=
  match l with
  | [] => [x]
  | y :: r => if names_leb (fst x) (fst y) then x :: l else y :: insert_by x r
  end.

(** [entries_with_keys.sort(key=lambda x: x[0])] (TM l.469): any sort compares some pair whose
    first different names are an integer and a string, if there is such a pair *)
Definition sort_by_keys {A : Type} (l : list (list kname * A)) : result (list (list kname * A)) :=
  if existsb (fun x => existsb (fun y => clash (fst x) (fst y)) l) l then Err TypeError
  else Ok (fold_right insert_by [] l).

(** Equality of key names (TM l.482) *)
Definition kname_eqb (a b : kname) : bool :=
  match a, b with NInt i, NInt j => (i =? j)%nat | NStr s, NStr t => String.eqb s t | _, _ => false end.

(** [len(b) > len(a) and b[:len(a)] == a] (TM l.482) *)
Fixpoint proper_prefix (a b : list kname) : bool :=
  match a, b with
  | [], _ :: _ => true
  | x :: a', y :: b' => kname_eqb x y && proper_prefix a' b'
  | _, _ => false
  end.

(** The loop of TM l.479-484 *)
Fixpoint filter_prefixes {A : Type} (l : list (list kname * A)) : list (list kname * A) :=
  match l with
  | x :: ((y :: _) as r) => if proper_prefix (fst x) (fst y) then filter_prefixes r else x :: filter_prefixes r
  | _ => l
  end.

(** TM l.450-489 *)
Definition as_nested_tree (m : meta) : result (tree vmeta) :=
  match support_rich_types m, value_metadata_tree m with
  | true, Some t => Ok t
  | _, _ =>
    rbind (sequence (map (fun e => rmap (fun p => (map get_key_name p, (p, value_metadata e))) (jax_keypath e)) (entries m))) (fun l =>
    rbind (sort_by_keys l) (fun s =>
    from_flattened_with_keypath (map (fun x => (fst (snd x), Leaf (snd (snd x)))) (filter_prefixes s))))
  end.

(** ** Merging *)

(** [bool(j)] (TM l.656, l.670): None, False, zero and empty things are false *)
Definition truthy {V : Type} (leaf : V -> bool) (t : tree V) : bool :=
  match t with Leaf v => leaf v | Node _ [] => false | Node _ _ => true end.

(** [bool] of a JSON scalar (TM l.656) *)
Definition scalar_truthy (s : scalar) : bool :=
  match s with SBool b => b | SInt z => negb (z =? 0)%Z | SStr s => negb (s =? "") end.

(** The loop of TM l.639-644 *)
Fixpoint merge_entries (overwrite : bool) (merged other : dict string json) : result (dict string json) :=
  match other with
  | [] => Ok merged
  | (k, v) :: r =>
    if negb overwrite && (match dget String.eqb k merged with Some _ => true | None => false end) then Err ValueError
    else merge_entries overwrite (dput String.eqb k v merged) r
  end.

(** Equality of the flags (TM l.603, l.606, l.610, l.617) *)
Definition flag_eqb (a b : option bool) : bool :=
  match a, b with Some x, Some y => Bool.eqb x y | None, None => true | _, _ => false end.

(** The leaf that stands for a key, see Merge_Model (merge_trees is called at TM l.651) *)
Definition key_scalar (k : key) : scalar := SStr (str_name k).

(** The same for trees of metadata (called at TM l.663) *)
Definition key_vmeta (k : key) : vmeta := mkV (str_name k) false None.

(** TM l.650-657 *)
Definition merge_custom (overwrite : bool) (a b : json) : result json :=
  if negb (is_none a) && negb (is_none b) then merge_trees key_scalar overwrite [a; b]
  else Ok (if truthy scalar_truthy a then a else b).

(** TM l.659-671; a leaf is an object and so true *)
Definition merge_value_trees (overwrite : bool) (a b : option (tree vmeta)) : result (option (tree vmeta)) :=
  match a, b with
  | Some s, Some t => rmap Some (merge_trees key_vmeta overwrite [s; t])
  | Some s, None => Ok (if truthy (fun _ => true) s then a else b)
  | None, _ => Ok b
  end.

(** TM l.586-681 *)
Definition merge (overwrite : bool) (a b : meta) : result meta :=
  if negb (Bool.eqb (use_zarr3 a) (use_zarr3 b)) then Err ValueError
  else if negb (flag_eqb (use_ocdbt a) (use_ocdbt b)) then Err ValueError
  else if negb (Bool.eqb (support_rich_types a) (support_rich_types b)) then Err ValueError
  else if negb (Bool.eqb (store_array_data_equal_to_fill_value a) (store_array_data_equal_to_fill_value b)) then Err ValueError
  else
    rbind (merge_entries overwrite (entries_json (entries a)) (entries_json (entries b))) (fun merged =>
    rbind (sequence (map (fun x => entry_from_json (fst x) (snd x)) merged)) (fun es =>
    rbind (merge_custom overwrite (custom_metadata a) (custom_metadata b)) (fun custom =>
    rbind (merge_value_trees overwrite (value_metadata_tree a) (value_metadata_tree b)) (fun t =>
    Ok (mkM es (use_ocdbt a) (use_zarr3 a) custom (store_array_data_equal_to_fill_value a) (support_rich_types a) t))))).

(** ** The metadata shown to the user *)

Section Custom.
(** What the handlers return for one value *)
Context {A : Type}.

(** A parameter as the handlers see it (TM l.538-546); its directory is not modelled *)
Record param : Type := mkParam { p_name : string; p_skip : bool; p_ocdbt : bool; p_zarr3 : bool; p_shape : option (list nat) }.

(** The metadata of a leaf: what the handler said or, for a value that is not stored, the name
    alone (TM l.561-563) *)
Inductive shown : Type :=
| Handled (a : A)
| Plain (name : string).

(** [type_handler_registry.get(restore_type)] and its [metadata] (TM l.569-571) *)
Variable registry : string -> result (list param -> result (list A)).

(** [batches[restore_type].append(x)] (TM l.565-566) *)
Fixpoint add_batch {B : Type} (ty : string) (x : B) (l : list (string * list B)) : list (string * list B) :=
  match l with
  | [] => [(ty, [x])]
  | (t, xs) :: r => if t =? ty then (t, (xs ++ [x])%list) :: r else (t, xs) :: add_batch ty x r
  end.

(** The value that stands for an empty node (TM l.557, EV l.103-131) *)
Definition empty_value (ty : string) (rich : bool) : tree shown :=
  if ty =? "List" then Node KList []
  else if ty =? "NamedTuple" then (if rich then Node (KNamed "OrbaxEmptyNamedTuple") [] else Node KNone [])
  else if ty =? "Tuple" then Node KTuple []
  else if ty =? "Dict" then Node KDict []
  else Node KNone [].

(** The batches of TM l.552-566: the values without a handler and the batches *)
Fixpoint batch (rich : bool) (l : list (list string * (param * string)))
    (flat : dict (list string) (tree shown)) (batches : list (string * list (list string * param)))
    : dict (list string) (tree shown) * list (string * list (list string * param)) :=
  match l with
  | [] => (flat, batches)
  | (k, (p, ty)) :: r =>
    if p_skip p then
      let v := if is_empty_typestr ty then empty_value ty rich else Leaf (Plain (p_name p)) in
      batch rich r (dput names_eqb k v flat) batches
    else batch rich r flat (add_batch ty (k, p) batches)
  end.

(** TM l.568-581: the answers of each handler are given to the keys of its batch *)
Fixpoint gather (batches : list (string * list (list string * param))) (flat : dict (list string) (tree shown))
    : result (dict (list string) (tree shown)) :=
  match batches with
  | [] => Ok flat
  | (ty, l) :: r =>
    rbind (registry ty) (fun h =>
    rbind (h (map snd l)) (fun vs =>
    gather r (fold_left (fun d x => dput names_eqb (fst x) (Leaf (Handled (snd x))) d) (combine (map fst l) vs) flat)))
  end.

(** TM l.491-584; [is_ocdbt] is what the directory looks like; leaves are metadata here, so the
    repair of TM l.521-531 is not needed, a tree without leaves stops it at TM l.519 *)
Definition as_custom_metadata (m : meta) (is_ocdbt : bool) : result (tree shown) :=
  let ocdbt := match use_ocdbt m with Some b => b | None => is_ocdbt end in
  rbind (as_nested_tree m) (fun ref =>
  match to_flat_dict false ref with
  | [] => Err OtherError
  | flat =>
    let params := flat_map (fun x => match snd x with
      | Leaf v => [(fst x, (mkParam (join "." (fst x)) (skip_deserialize v) ocdbt (use_zarr3 m) (write_shape v), value_type v))]
      | Node _ _ => []
      end) flat in
    let b := batch (support_rich_types m) params [] [] in
    rbind (gather (snd b) (fst b)) (fun d => from_flat_dict_target d ref)
  end).

End Custom.

(** ** The pytree of metadata *)

(** The type of the tree's outermost node (TM l.997); [Bare] is any other type *)
Inductive outer : Type := Outer (k : kind) | Bare.

(** The auxiliary data of a flattened TreeMetadata (TM l.996-1000): [a_tree] is gone after it was
    popped (TM l.1008-1009) *)
Record aux : Type := mkA { a_tree : option (outer * list key); a_custom : json; a_zarr3 : bool }.

(** TM l.974-1001 *)
Definition tree_flatten {V : Type} (t : tree V) (custom : json) (zarr3 : bool) : result (list (tree V) * aux) :=
  match t with
  | Node KNone _ => Err ValueError
  | Node k cs =>
    let ks := match k with
              | KDict => map fst cs
              | KNamed _ => map (fun x => DictKey (KStr (str_name (fst x)))) cs
              | _ => map SequenceKey (seq 0 (List.length cs))
              end in
    Ok (map snd cs, mkA (Some (Outer k, ks)) custom zarr3)
  | Leaf _ => Ok ([t], mkA (Some (Bare, [GetAttrKey "tree"])) custom zarr3)
  end.

(** [tree_type( ** {get_key_name(k): v ...})] (TM l.1015-1017): a later value of the same name
    replaces an earlier one; a named tuple has one value per field *)
Definition from_kwargs {V : Type} (k : kind) (l : list (key * tree V)) : result (tree V) :=
  let d := fold_left (fun d x => put_item (DictKey (KStr (str_name (fst x)))) (snd x) d) l [] in
  match k with
  | KNamed c =>
    if (List.length d =? List.length l)%nat then Ok (Node k (map (fun x => (GetAttrKey (str_name (fst x)), snd x)) l))
    else Err TypeError
  | _ => Ok (Node k d)
  end.

(** TM l.1003-1026: the auxiliary data is changed by taking the type and the keys out of it *)
Definition tree_unflatten {V : Type} (a : aux) (flat : list (tree V)) : result (tree V * aux) :=
  match a_tree a with
  | None => Err KeyError
  | Some (ty, ks) =>
    let a' := mkA None (a_custom a) (a_zarr3 a) in
    rmap (fun t => (t, a'))
      match ty with
      | Outer KDict => from_kwargs KDict (combine ks flat)
      | Outer (KNamed c) => from_kwargs (KNamed c) (combine ks flat)
      | Outer k => Ok (Node k (combine (map SequenceKey (seq 0 (List.length flat))) flat))
      | Bare => match flat with [t] => Ok t | _ => Err AssertionError end
      end
  end.
