(** Model of saving a checkpoint in parts: what each part may add and how the metadata of the parts
    becomes the metadata of the checkpoint.
    Source: checkpoint/orbax/checkpoint/_src/handlers/base_pytree_checkpoint_handler.py ("BP"),
    checkpoint/orbax/checkpoint/experimental/v1/_src/partial/saving.py ("PS"),
    checkpoint/orbax/checkpoint/experimental/v1/_src/partial/path.py ("PP"),
    checkpoint/orbax/checkpoint/_src/path/snapshot/snapshot.py ("SN"),
    checkpoint/orbax/checkpoint/_src/metadata/empty_values.py ("EV") and
    checkpoint/orbax/checkpoint/_src/serialization/type_handler_registry.py ("TR").
    Simplifications: saves follow one another, each one completed before the next starts (what
    happens otherwise is in PartialFs_Model); the pending directories are listed in the order of
    the saves; [ast.literal_eval] reads tuples of strings as [str] writes them, any other text
    gives no tuple; PartialSaveReplacementError is OtherError; the support of rich types is off
    (the default); a path is its last component.
    Not modelled: which handler writes a value, the files of the arrays, barriers between hosts. *)
From Coq Require Import List Bool Arith NArith ZArith String Ascii.
From Verif Require Import Base StepName_Model Tree_Model Merge_Model RichMeta_Model TreeMeta_Model.
Import ListNotations.
Open Scope string_scope.

(** ** Names *)

(** PP l.19 *)
Definition PARTIAL_SAVE_SUFFIX : string := ".partial_save".

(** PP l.22-28 without [allow_tmp_dir] *)
Definition is_partial_save_path (name : string) : bool :=
  let n := (String.length name - String.length PARTIAL_SAVE_SUFFIX)%nat in
  (String.length PARTIAL_SAVE_SUFFIX <=? String.length name)%nat &&
  (substring n (String.length PARTIAL_SAVE_SUFFIX) name =? PARTIAL_SAVE_SUFFIX).

(** PP l.31-32 *)
Definition add_partial_save_suffix (name : string) : string := name ++ PARTIAL_SAVE_SUFFIX.

(** PP l.35-36 *)
Definition remove_partial_save_suffix (name : string) : string :=
  if is_partial_save_path name then substring 0 (String.length name - String.length PARTIAL_SAVE_SUFFIX) name else name.

(** The final and the partial path of a finalization (PS l.558-563) *)
Definition session_paths (name : string) : string * string :=
  if is_partial_save_path name then (remove_partial_save_suffix name, name)
  else (name, add_partial_save_suffix name).

(** SN l.34-37 with [PENDING_DIR_SUFFIX] = ".pending"; time and identifier are oracles *)
Definition get_pending_dir_name (source_name : string) (time_ns : N) (uuid : string) : string :=
  source_name ++ ".pending" ++ "_" ++ string_of_list_ascii (dec time_ns) ++ "_" ++ uuid.

(** SN l.40-41 *)
Definition get_uuid_from_pending_dir_name (name : string) : string :=
  last (split_from "_" 0 name) "".

(** ** What a save may add *)

(** BP l.241-243, PS l.280-281 *)
Definition is_prefix (t1 t2 : list string) : bool :=
  (List.length t1 <? List.length t2)%nat && names_eqb (firstn (List.length t1) t2) t1.

(** [functools.reduce(merge_trees, internal_metas).tree_metadata_entries] (BP l.306-311) *)
Definition merged_metadata (metas : list meta) : result (list entry) :=
  match metas with
  | [] => Ok []
  | m :: r => rmap entries (fold_left (fun acc b => rbind acc (fun a => merge true a b)) r (Ok m))
  end.

(** The refusals of BP l.319-329 *)
Definition replaces (merged_tuples_set : list (list string)) (key : list string) : bool :=
  existsb (names_eqb key) merged_tuples_set ||
  existsb (fun mt => is_prefix key mt || is_prefix mt key) merged_tuples_set.

(** BP l.303-339; [flat_item] are the keys *)
Definition get_partial_save_additions (internal_metas : list meta) (flat_item : list (list string)) : result (list (list string)) :=
  rbind (merged_metadata internal_metas) (fun merged =>
  rbind (sequence (map (fun e => rmap tuple_path_from_keypath (jax_keypath e)) merged)) (fun tuples =>
  if existsb (replaces tuples) flat_item then Err OtherError else Ok flat_item)).

(** BP l.342-368; a request is its keys with their values *)
Definition filter_batch_requests {A : Type} (batch_requests : list (list (list string * A))) (additions : list (list string))
    : list (list (list string * A)) :=
  filter (fun r => negb (List.length r =? 0)%nat)
    (map (fun request => flat_map (fun x => flat_map (fun add =>
       if names_eqb add (firstn (List.length add) (fst x)) then [x] else []) additions) request) batch_requests).

(** The type of an empty node (EV l.54-76, TR l.31-51); a named tuple has no handler *)
Definition empty_typestr (k : kind) : string :=
  match k with KList => "List" | KTuple => "Tuple" | KDict => "Dict" | KNone => "None" | KNamed _ => "None" end.

(** BP l.553-587: every value and every empty node has its information *)
Fixpoint param_infos (t : tree pinfo) : tree pinfo :=
  match t with
  | Leaf i => Leaf i
  | Node k [] => Leaf (mkP (Some (empty_typestr k)) None)
  | Node k cs =>
    Node k ((fix go (l : list (key * tree pinfo)) : list (key * tree pinfo) :=
               match l with [] => [] | (x, c) :: r => (x, param_infos c) :: go r end) cs)
  end.

(** How the arrays are written: OCDBT, zarr3 (BP l.1189-1196) *)
Record format : Type := mkF { f_ocdbt : bool; f_zarr3 : bool }.

(** Classes have no names here: there are no rich types (BP l.1195) *)
Definition no_class (c : string) : string := c.

(** One save of [item] when the saves of [pending] are completed (BP l.644-647, l.589-599,
    l.693-696, l.1189-1196): the metadata of the save *)
Definition save_metadata (f : format) (pending : list doc) (item : tree pinfo) : result doc :=
  rbind (match item with Node _ [] => Err ValueError | _ => Ok tt end) (fun _ =>
  rbind (sequence (map (fun d => from_json d false) pending)) (fun metas =>
  rbind (get_partial_save_additions metas (map fst (to_flat_dict false item))) (fun _ =>
  rbind (build (param_infos item) None (Some (f_ocdbt f)) (f_zarr3 f) (Node KNone []) true false) (fun m =>
  to_json no_class no_class m)))).

(** The saves of a session, one after the other; a refused save changes nothing and the session
    goes on (BP l.693-696) *)
Fixpoint session (pending : list doc) (saves : list (format * tree pinfo)) : list doc * list (result unit) :=
  match saves with
  | [] => (pending, [])
  | (f, item) :: r =>
    match save_metadata f pending item with
    | Ok d => let (ds, l) := session (pending ++ [d])%list r in (ds, Ok tt :: l)
    | Err e => let (ds, l) := session pending r in (ds, Err e :: l)
    end
  end.

(** ** Keys written as text *)

(** The value of a hexadecimal digit (literal_eval, PS l.306) *)
Definition hex_value (c : ascii) : option N :=
  let n := N_of_ascii c in
  if (48 <=? n)%N && (n <=? 57)%N then Some (n - 48)%N
  else if (97 <=? n)%N && (n <=? 102)%N then Some (n - 87)%N
  else None.

(** The characters up to the quote [q] and what follows it (literal_eval, PS l.306) *)
Fixpoint literal_chars (q : ascii) (l : list ascii) : option (list ascii * list ascii) :=
  let put c o := match o with Some (s, r) => Some (c :: s, r) | None => None end in
  match l with
  | [] => None
  | c :: r =>
    if Ascii.eqb c q then Some ([], r)
    else if Ascii.eqb c "\"%char then
      match r with
      | d :: r' =>
        if Ascii.eqb d "t"%char then put "009"%char (literal_chars q r')
        else if Ascii.eqb d "n"%char then put "010"%char (literal_chars q r')
        else if Ascii.eqb d "r"%char then put "013"%char (literal_chars q r')
        else if Ascii.eqb d "x"%char then
          match r' with
          | h :: k :: r'' =>
            match hex_value h, hex_value k with
            | Some a, Some b => put (ascii_of_N (a * 16 + b)) (literal_chars q r'')
            | _, _ => None
            end
          | _ => None
          end
        else if Ascii.eqb d "\"%char || Ascii.eqb d "'"%char || Ascii.eqb d """"%char then put d (literal_chars q r')
        else None
      | [] => None
      end
    else if Ascii.eqb c "010"%char || Ascii.eqb c "013"%char || Ascii.eqb c "000"%char then None
    else put c (literal_chars q r)
  end.

(** A quoted string and what follows it (literal_eval, PS l.306) *)
Definition literal_string (l : list ascii) : option (string * list ascii) :=
  match l with
  | q :: r =>
    if Ascii.eqb q "'"%char || Ascii.eqb q """"%char then
      match literal_chars q r with Some (s, r') => Some (string_of_list_ascii s, r') | None => None end
    else None
  | [] => None
  end.

(** The items of a tuple up to the closing parenthesis at the end; [fuel] bounds their number
    (literal_eval, PS l.306) *)
Fixpoint literal_items (fuel : nat) (l : list ascii) : option (list string) :=
  match fuel with
  | O => None
  | S n =>
    match literal_string l with
    | Some (s, [c]) => if Ascii.eqb c ")"%char then Some [s] else None
    | Some (s, c :: d :: r) =>
      if Ascii.eqb c ","%char && Ascii.eqb d " "%char then
        match literal_items n r with Some ss => Some (s :: ss) | None => None end
      else None
    | _ => None
    end
  end.

(** [ast.literal_eval(k)] when it is a tuple (PS l.304-308): ["(s)"] is a string *)
Definition literal_tuple (k : string) : option (list string) :=
  match list_ascii_of_string k with
  | c :: r =>
    if Ascii.eqb c "("%char then
      match r with
      | [d] => if Ascii.eqb d ")"%char then Some [] else None
      | _ =>
        match literal_string r with
        | Some (s, [d; e]) => if Ascii.eqb d ","%char && Ascii.eqb e ")"%char then Some [s] else None
        | Some (s, d :: e :: r') =>
          if Ascii.eqb d ","%char && Ascii.eqb e " "%char then
            match literal_items (List.length r') r' with Some ss => Some (s :: ss) | None => None end
          else None
        | _ => None
        end
      end
    else None
  | [] => None
  end.

(** [k1] is removed because of [k2] (PS l.311-317) *)
Definition hides (k1 k2 : string) : bool :=
  match literal_tuple k1, literal_tuple k2 with
  | Some t1, Some t2 => is_prefix t1 t2
  | _, _ => String.prefix (k1 ++ ".") k2 || String.prefix (k1 ++ "/") k2
  end.

(** PS l.284-321; no key is removed because of itself, so the pairs of [permutations] may include
    equal keys *)
Definition filter_conflicting_keys (d : list (string * json)) : list (string * json) :=
  filter (fun x => negb (existsb (fun y => hides (fst x) (fst y)) d)) d.

(** ** The metadata of the checkpoint *)

(** [_merge_fn] of PS l.347-355 on two metadata files; the text of a rich tree is a leaf, so that
    of [src] wins *)
Definition merge_metadata_files (dst src : doc) : result doc :=
  rbind (merge_trees key_scalar true [pdict (d_obj dst); pdict (d_obj src)]) (fun t =>
  rbind (items t) (fun merged =>
  rbind (match dget String.eqb "tree_metadata" merged with
         | Some j => rmap (fun es => dput String.eqb "tree_metadata" (pdict (filter_conflicting_keys es)) merged) (items j)
         | None => Ok merged
         end) (fun merged =>
  Ok (mkD merged (match d_rich src with Some j => Some j | None => d_rich dst end))))).

(** The metadata files of the pending directories in their order (PS l.329-341, l.489-506): the
    first one is renamed, the others are merged into it *)
Definition merge_all_metadata (pending : list doc) : result doc :=
  match pending with
  | [] => Err FileNotFoundError
  | d :: r => fold_left (fun acc s => rbind acc (fun dst => merge_metadata_files dst s)) r (Ok d)
  end.

(** What a reader of the finalized checkpoint finds (PS l.344-357, l.596-597) *)
Definition finalized_tree (pending : list doc) : result (tree vmeta) :=
  rbind (merge_all_metadata pending) (fun d => rbind (from_json d false) as_nested_tree).

(** [_merge_fn] of PS l.452-453: the metadata of the checkpoint, with the user's custom metadata *)
Definition merge_checkpoint_metadata (dst src : json) : result json := merge_trees key_scalar true [dst; src].
