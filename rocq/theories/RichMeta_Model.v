(** Model of the metadata of one value and of the JSON form of a tree of such metadata that
    keeps tuples and named tuples.
    Source: checkpoint/orbax/checkpoint/_src/metadata/tree_rich_types.py ("RT"),
    checkpoint/orbax/checkpoint/_src/metadata/value_metadata_entry.py ("VE") and
    checkpoint/orbax/checkpoint/_src/metadata/empty_values.py ("EV").
    Simplifications: a JSON text is the JSON value it denotes (writing and reading the text are
    trusted to be inverse); shapes are lists of natural numbers; class names and field names are
    ASCII and field names are no keywords (a keyword is refused when the class is made).
    The trees written hold [ValueMetadataEntry] at all leaves and have no empty nodes, as the
    caller makes them; an empty node is refused here in all places.
    Not modelled: custom pytree nodes (RT l.130-140) and the cache of RT l.32. *)
From Coq Require Import List Bool Arith NArith ZArith String Ascii.
From Verif Require Import Base StepName_Model Tree_Model.
Import ListNotations.
Open Scope string_scope.

(** Scalars of JSON other than null (VE l.48-57, RT l.87-128) *)
Inductive scalar : Type :=
| SBool (b : bool)
| SInt (z : Z)
| SStr (s : string).

(** JSON values (VE l.48, RT l.236): null is [None], arrays are lists, objects are
    dictionaries with string keys. *)
Definition json : Type := tree scalar.

(** The list of these values (VE l.56, RT l.111-114) *)
Definition plist {A : Type} (l : list (tree A)) : tree A :=
  Node KList (combine (map SequenceKey (seq 0 (List.length l))) l).

(** The dictionary of these items (VE l.49-52, RT l.95-99) *)
Definition pdict {A : Type} (l : list (string * tree A)) : tree A :=
  Node KDict (map (fun x => (DictKey (KStr (fst x)), snd x)) l).

(** A string as a JSON value (VE l.50, RT l.96) *)
Definition jstr (s : string) : json := Leaf (SStr s).

(** [d[k]] (VE l.67, RT l.150); subscripting anything but a dictionary with a string is refused *)
Definition field {A : Type} (k : string) (t : tree A) : result (tree A) :=
  match t with
  | Node KDict cs => match find_item (DictKey (KStr k)) cs with Some v => Ok v | None => Err KeyError end
  | _ => Err TypeError
  end.

(** [k in d] (VE l.73, RT l.148) *)
Definition has {A : Type} (k : string) (t : tree A) : bool :=
  match t with
  | Node KDict cs => match find_item (DictKey (KStr k)) cs with Some _ => true | None => false end
  | _ => false
  end.

(** ** The metadata of one value *)

(** VE l.33-46 *)
Record vmeta : Type := mkV { value_type : string; skip_deserialize : bool; write_shape : option (list nat) }.

(** EV l.89-96 *)
Definition is_empty_typestr (s : string) : bool :=
  (s =? "List") || (s =? "NamedTuple") || (s =? "Tuple") || (s =? "Dict") || (s =? "None").

(** EV l.79-86 *)
Definition override_empty_value_typestr (s : string) (support_rich_types : bool) : string :=
  if negb support_rich_types && (s =? "NamedTuple") then "None" else s.

(** What [build] reads of a ParamInfo (VE l.79-95) *)
Record pinfo : Type := mkP { value_typestr : option string; info_shape : option (list nat) }.

(** VE l.78-95 *)
Definition vm_build (i : pinfo) : result vmeta :=
  match value_typestr i with
  | None => Err AssertionError
  | Some s => Ok (mkV s (is_empty_typestr s) (info_shape i))
  end.

(** A shape as a list of numbers (VE l.56) *)
Definition shape_json (s : list nat) : json := plist (map (fun n => Leaf (SInt (Z.of_nat n))) s).

(** VE l.48-57 *)
Definition vm_to_json (v : vmeta) : json :=
  pdict ([("value_type", jstr (value_type v)); ("skip_deserialize", Leaf (SBool (skip_deserialize v)))] ++
         match write_shape v with None => [] | Some s => [("write_shape", shape_json s)] end)%list.

(** A string read from JSON (VE l.67); other values are passed on by python and are refused here *)
Definition as_str (j : json) : result string :=
  match j with Leaf (SStr s) => Ok s | _ => Err TypeError end.

(** A boolean read from JSON (VE l.70); other values are passed on by python and are refused here *)
Definition as_bool (j : json) : result bool :=
  match j with Leaf (SBool b) => Ok b | _ => Err TypeError end.

(** One dimension read from JSON (VE l.72); other values are passed on by python and are refused
    here *)
Definition as_dim (j : json) : result nat :=
  match j with Leaf (SInt z) => if (z <? 0)%Z then Err TypeError else Ok (Z.to_nat z) | _ => Err TypeError end.

(** The elements of a list (VE l.72, RT l.159); python also iterates over other things *)
Definition elements {A : Type} (t : tree A) : result (list (tree A)) :=
  match t with Node KList cs => Ok (map snd cs) | _ => Err TypeError end.

(** VE l.59-76 *)
Definition vm_from_json (j : json) (support_rich_types : bool) : result vmeta :=
  rbind (rbind (field "value_type" j) as_str) (fun ty =>
  rbind (rbind (field "skip_deserialize" j) as_bool) (fun sk =>
  rbind (if has "write_shape" j
         then rmap Some (rbind (rbind (field "write_shape" j) elements) (fun l => sequence (map as_dim l)))
         else Ok None) (fun sh =>
  Ok (mkV (override_empty_value_typestr ty support_rich_types) sk sh)))).

(** ** Writing a tree *)

Section Classes.
(** [cls.__module__] and [cls.__qualname__] of a named tuple's class (RT l.76-78) *)
Variables module_of qualname_of : string -> string.

(** The name of a field (RT l.112-113) *)
Definition field_name (k : key) : string := str_name k.

(** RT l.87-128, l.236-241 with the key conversion of the writer: the children are written first *)
Fixpoint dumps (t : tree vmeta) : result json :=
  match t with
  | Leaf v => Ok (pdict [("category", jstr "custom"); ("clazz", jstr "ValueMetadataEntry"); ("data", vm_to_json v)])
  | Node _ [] => Err ValueError
  | Node k cs =>
    rbind ((fix go (l : list (key * tree vmeta)) : result (list (key * json)) :=
              match l with
              | [] => Ok []
              | (x, c) :: r => rbind (dumps c) (fun j => rmap (cons (x, j)) (go r))
              end) cs) (fun js =>
    match k with
    | KNamed c =>
      Ok (pdict [("category", jstr "namedtuple"); ("module", jstr (module_of c)); ("clazz", jstr (qualname_of c));
                 ("entries", plist (map (fun x => pdict [("key", jstr (field_name (fst x))); ("value", snd x)]) js))])
    | KTuple => Ok (pdict [("category", jstr "custom"); ("clazz", jstr "tuple"); ("entries", plist (map snd js))])
    | KDict => Ok (pdict (map (fun x => (str_name (fst x), snd x)) js))
    | KList => Ok (plist (map snd js))
    | KNone => Err ValueError
    end)
  end.

End Classes.

(** ** Reading a tree *)

(** Leaves of what the reader has built so far (RT l.143-178): JSON scalars and entries *)
Inductive lval : Type :=
| LScalar (s : scalar)
| LMeta (v : vmeta).

(** The JSON value of a tree in which nothing was converted (RT l.152) *)
Fixpoint as_json (t : tree lval) : result json :=
  match t with
  | Leaf (LScalar s) => Ok (Leaf s)
  | Leaf (LMeta _) => Err TypeError
  | Node k cs =>
    rmap (Node k) ((fix go (l : list (key * tree lval)) : result (list (key * json)) :=
              match l with
              | [] => Ok []
              | (x, c) :: r => rbind (as_json c) (fun j => rmap (cons (x, j)) (go r))
              end) cs)
  end.

(** [x == s] for a string [s] (RT l.149-165) *)
Definition is_text (t : tree lval) (s : string) : bool :=
  match t with Leaf (LScalar (SStr x)) => x =? s | _ => false end.

(** A string used in a class name (RT l.167-168, l.171) *)
Definition text (t : tree lval) : result string :=
  match t with Leaf (LScalar (SStr x)) => Ok x | _ => Err TypeError end.

(** [s.replace('.', '_')] (RT l.52) *)
Fixpoint undot (s : string) : string :=
  match s with
  | EmptyString => EmptyString
  | String c r => String (if Ascii.eqb c "."%char then "_"%char else c) (undot r)
  end.

(** RT l.49-52 *)
Definition valid_class_name (module class : string) (arity : nat) : string :=
  undot (module ++ "_" ++ class ++ "_" ++ str_int (Z.of_nat arity)).

(** A letter or an underscore (for RT l.53) *)
Definition letter (c : ascii) : bool :=
  let n := N_of_ascii c in
  ((65 <=? n) && (n <=? 90) || (97 <=? n) && (n <=? 122) || (n =? 95))%N.

(** A letter, a digit or an underscore (for RT l.53) *)
Definition letter_or_digit (c : ascii) : bool :=
  letter c || match char_digit c with Some _ => true | None => false end.

(** [s.isidentifier()] for ASCII names (for RT l.53) *)
Definition identifier (s : string) : bool :=
  match list_ascii_of_string s with
  | [] => false
  | c :: r => letter c && forallb letter_or_digit r
  end.

(** Names that occur once (for RT l.53) *)
Fixpoint distinct (l : list string) : bool :=
  match l with
  | [] => true
  | s :: r => negb (existsb (String.eqb s) r) && distinct r
  end.

(** The checks of [collections.namedtuple(name, fields)] (RT l.53): identifiers, no field
    starting with an underscore, no field twice *)
Definition namedtuple_ok (name : string) (fields : list string) : bool :=
  identifier name &&
  forallb (fun f => identifier f && negb (String.prefix "_" f)) fields &&
  distinct fields.

(** RT l.56-73 *)
Definition create_namedtuple (module class : string) (attrs : list (string * tree lval)) : result (tree lval) :=
  let name := valid_class_name module class (List.length attrs) in
  if namedtuple_ok name (map fst attrs)
  then Ok (Node (KNamed name) (map (fun x => (GetAttrKey (fst x), snd x)) attrs))
  else Err ValueError.

(** RT l.143-178, called by the reader on each object from the inside out and by itself on
    what was converted already; [fuel] bounds the depth *)
Fixpoint convert (fuel : nat) (obj : tree lval) : result (tree lval) :=
  match fuel with
  | O => Err OtherError
  | S n =>
    match obj with
    | Node KDict cs =>
      let plain := rmap (Node KDict) (seq_items (map (fun x => (fst x, convert n (snd x))) cs)) in
      match find_item (DictKey (KStr "category")) cs with
      | None => plain
      | Some cat =>
        if is_text cat "custom" then
          rbind (field "clazz" obj) (fun clazz =>
          if is_text clazz "ValueMetadataEntry" then
            rbind (rbind (field "data" obj) as_json) (fun d => rmap (fun v => Leaf (LMeta v)) (vm_from_json d true))
          else if is_text clazz "tuple" then
            rbind (rbind (field "entries" obj) elements) (fun es =>
            rmap (fun l => Node KTuple (combine (map SequenceKey (seq 0 (List.length l))) l)) (sequence (map (convert n) es)))
          else Err ValueError)
        else if is_text cat "namedtuple" then
          rbind (rbind (field "module" obj) text) (fun m =>
          rbind (rbind (field "clazz" obj) text) (fun c =>
          rbind (rbind (field "entries" obj) elements) (fun es =>
          rbind (sequence (map (fun e => rbind (rbind (field "key" e) text) (fun f =>
                                rbind (field "value" e) (fun v => rmap (fun x => (f, x)) (convert n v)))) es)) (fun attrs =>
          create_namedtuple m c attrs))))
        else plain
      end
    | _ => Ok obj
    end
  end.

(** How deep a tree is (bounds the recursion of RT l.143-178) *)
Fixpoint depth {A : Type} (t : tree A) : nat :=
  match t with
  | Leaf _ => 1
  | Node _ cs => S (fold_right Nat.max 0 (map (fun x => depth (snd x)) cs))
  end.

(** RT l.244-249: reading the values from the inside out, each object is converted *)
Fixpoint loads (j : json) : result (tree lval) :=
  match j with
  | Leaf s => Ok (Leaf (LScalar s))
  | Node k cs =>
    rbind ((fix go (l : list (key * json)) : result (list (key * tree lval)) :=
              match l with
              | [] => Ok []
              | (x, c) :: r => rbind (loads c) (fun j => rmap (cons (x, j)) (go r))
              end) cs) (fun ds =>
    match k with
    | KDict => convert (depth (Node k ds)) (Node k ds)
    | _ => Ok (Node k ds)
    end)
  end.
