(** Model of step directory names.
    Source: checkpoint/orbax/checkpoint/_src/path/step.py ("ST").
    Names are byte strings; python's [\d] and [str.isdigit] also accept
    non-ASCII digits, which are not modelled. *)
From Coq Require Import List Bool String Ascii ZArith NArith.
From Verif Require Import Base Atomic_Model Policy_Model.
Import ListNotations.
Local Open Scope string_scope.
Local Open Scope list_scope.

(** * Decimal numbers *)

(** The character of a digit, python [str] of an int (used by ST l.350-352). *)
Definition digit_char (d : N) : ascii := ascii_of_N (48 + d).

(** The value of a digit character, [None] for other characters ([\d] in ST
    l.44-50, l.375-379 and str.isdigit in ST l.767). *)
Definition char_digit (c : ascii) : option N :=
  let n := N_of_ascii c in
  if (48 <=? n)%N && (n <=? 57)%N then Some (n - 48)%N else None.

(** Decimal digits of [n], least significant first; [fuel] bounds the number of
    digits (python [str(int)], ST l.350-352). *)
Fixpoint digits_lsb (fuel : nat) (n : N) : list N :=
  match fuel with
  | O => [n]
  | S fuel' => if (n <? 10)%N then [n] else (n mod 10)%N :: digits_lsb fuel' (n / 10)%N
  end.

(** Python [str(n)] for a non-negative int (ST l.350-352). *)
Definition dec (n : N) : list ascii :=
  rev (map digit_char (digits_lsb (N.size_nat n) n)).

(** Python [int(s)] on a string of digits, most significant first (ST l.386,
    l.768-772); [None] if a character is not a digit. *)
Fixpoint parse_digits (acc : N) (l : list ascii) : option N :=
  match l with
  | [] => Some acc
  | c :: l' =>
      match char_digit c with
      | None => None
      | Some d => parse_digits (10 * acc + d)%N l'
      end
  end.

(** Every character is a digit, and there is one ([s.isdigit()], ST l.767). *)
Definition all_digits (l : list ascii) : bool :=
  match l with [] => false | _ => forallb (fun c => match char_digit c with Some _ => true | None => false end) l end.

(** * The standard format *)

(** ST l.312-342 _StandardNameFormat; temporary_path_cls / atomicity_options are
    the [proto] and [legacy] arguments below. *)
Record fmt : Type := mkFmt { step_prefix : option string; fixed_length : option Z }.

(** ST l.222-224 step_prefix_with_underscore *)
Definition prefix_with_underscore (p : option string) : string :=
  match p with None => "" | Some s => (s ++ "_")%string end.

(** ST l.349-352: [f'{step:0{w}d}'] or [f'{step}']; a negative width is an
    invalid format specification. *)
Definition format_step (w : option Z) (s : Z) : result string :=
  let sign := if (s <? 0)%Z then ["-"%char] else [] in
  let body := dec (Z.abs_N s) in
  match w with
  | None => Ok (string_of_list_ascii (sign ++ body))
  | Some w =>
      if (w <? 0)%Z then Err ValueError
      else
        let pad := (Z.to_nat w - List.length sign - List.length body)%nat in
        Ok (string_of_list_ascii (sign ++ repeat "0"%char pad ++ body))
  end.

(** ST l.347-355 build_name *)
Definition build_name (f : fmt) (s : Z) : result string :=
  rmap (fun t => (prefix_with_underscore (step_prefix f) ++ t)%string)
       (format_step (fixed_length f) s).

(** The regular expression pieces that a prefix turns into (ST l.380: the prefix
    is not escaped): one character or [.], possibly repeated. *)
Inductive quant : Type := QOne | QOpt | QStar | QPlus.
(** One character class of the pattern of ST l.380. *)
Inductive atom : Type := AChar (c : ascii) | AAny.

(** Characters with a special meaning in python regular expressions (ST l.380,
    re syntax), other than [. * + ?]. *)
Definition unmodelled_char (c : ascii) : bool :=
  existsb (Ascii.eqb c)
    ["\"; "["; "]"; "("; ")"; "{"; "}"; "^"; "$"; "|"]%char.
(** The quantifier characters of the pattern of ST l.380. *)
Definition quant_of (c : ascii) : option quant :=
  if Ascii.eqb c "*" then Some QStar
  else if Ascii.eqb c "+" then Some QPlus
  else if Ascii.eqb c "?" then Some QOpt else None.

(** Parse the prefix as a python regular expression (ST l.380 compiles it as
    part of name_regex).  [Err ValueError]: re.error (nothing to repeat, multiple
    repeat).  [Err OtherError]: a construct that is not modelled. *)
Fixpoint parse_prefix (l : list ascii) : result (list (atom * quant)) :=
  match l with
  | [] => Ok []
  | c :: l' =>
      if unmodelled_char c then Err OtherError
      else match quant_of c with
           | Some _ => Err ValueError
           | None =>
               let a := if Ascii.eqb c "." then AAny else AChar c in
               match l' with
               | [] => Ok [(a, QOne)]
               | q :: l'' =>
                   match quant_of q with
                   | Some k =>
                       match l'' with
                       | q2 :: _ => match quant_of q2 with
                                    | Some _ => Err OtherError  (* lazy/possessive/multiple *)
                                    | None => rmap (cons (a, k)) (parse_prefix l'')
                                    end
                       | [] => Ok [(a, k)]
                       end
                   | None => rmap (cons (a, QOne)) (parse_prefix l')
                   end
               end
           end
  end.

(** [.] matches everything but a newline (ST l.380). *)
Definition atom_match (a : atom) (c : ascii) : bool :=
  match a with AChar d => Ascii.eqb c d | AAny => negb (Ascii.eqb c "010") end.

(** Does the pattern match the whole character list (ST l.380-382)? *)
Fixpoint items_match (items : list (atom * quant)) (l : list ascii) : bool :=
  match items with
  | [] => match l with [] => true | _ => false end
  | (a, q) :: items' =>
      let fix star (l : list ascii) : bool :=
        items_match items' l ||
        match l with [] => false | c :: l' => atom_match a c && star l' end in
      match q with
      | QOne => match l with [] => false | c :: l' => atom_match a c && items_match items' l' end
      | QOpt => items_match items' l ||
                match l with [] => false | c :: l' => atom_match a c && items_match items' l' end
      | QStar => star l
      | QPlus => match l with [] => false | c :: l' => atom_match a c && star l' end
      end
  end.

(** ST l.374-379: the group for the step number. *)
Definition group_match (w : option Z) (g : list ascii) : bool :=
  all_digits g &&
  match g with
  | [] => false
  | c :: g' =>
      match w with
      | Some w =>
          if (0 <? w)%Z then
            if Ascii.eqb c "0" then Z.of_nat (List.length g) =? w
            else w <=? Z.of_nat (List.length g)
          else if Ascii.eqb c "0" then match g' with [] => true | _ => false end else true
      | None => if Ascii.eqb c "0" then match g' with [] => true | _ => false end else true
      end
  end%Z.

(** [$] also matches before a newline at the very end (ST l.380). *)
Definition strip_newline (l : list ascii) : list ascii :=
  match rev l with
  | c :: r => if Ascii.eqb c "010" then rev r else l
  | [] => l
  end.

(** Split at the last underscore; the step group contains no underscore, so this
    is the only way the pattern of ST l.380 can match. *)
Fixpoint split_last_underscore (l : list ascii) : option (list ascii * list ascii) :=
  match l with
  | [] => None
  | c :: l' =>
      match split_last_underscore l' with
      | Some (a, b) => Some (c :: a, b)
      | None => if Ascii.eqb c "_" then Some ([], l') else None
      end
  end.

(** ST l.373-386: the step number that the format reads from a name. *)
Definition recognise (f : fmt) (n : string) : result (option Z) :=
  let l := strip_newline (list_ascii_of_string n) in
  let number (g : list ascii) :=
    if group_match (fixed_length f) g
    then match parse_digits 0 g with Some v => Some (Z.of_N v) | None => None end
    else None in
  match step_prefix f with
  | None => Ok (number l)
  | Some p =>
      match parse_prefix (list_ascii_of_string p) with
      | Err e => Err e
      | Ok items =>
          match split_last_underscore l with
          | None => Ok None
          | Some (a, g) => Ok (if items_match items a then number g else None)
          end
      end
  end.

(** ST l.80-90 Metadata; the path is the name of the entry in the root. *)
Record metadata : Type := mkMeta { mstep : Z; mpath : string }.

(** ST l.357-388 _build_metadata. *)
Definition build_metadata (p : proto) (legacy : bool) (f : fmt) (r : root) (n : string)
    (known : option Z) : result (option metadata) :=
  if is_path_finalized p legacy n r then
    match known with
    | Some s => Ok (Some (mkMeta s n))   (* a finalized path exists *)
    | None => rmap (fun o => match o with Some s => Some (mkMeta s n) | None => None end)
                   (recognise f n)
    end
  else Ok None.

(** ST l.419-420 _glob_step_paths (the hierarchical-namespace branch is not
    modelled). *)
Definition glob_step_paths (f : fmt) (r : root) : list string :=
  filter (fun n => prefix (prefix_with_underscore (step_prefix f)) n) (map fst r).

(** ST l.198-219 build_step_metadatas.  Futures complete in any order; here in
    listing order, and the theorems are insensitive to the order. *)
Definition keep_some {A : Type} (l : list (option A)) : list A :=
  flat_map (fun o => match o with Some a => [a] | None => [] end) l.

(** ST l.544-557 find_all (base path exists, no broadcast). *)
Definition std_find_all (p : proto) (legacy : bool) (f : fmt) (r : root) : result (list metadata) :=
  rmap keep_some
    (sequence (map (fun n => build_metadata p legacy f r n None) (glob_step_paths f r))).

(** ST l.559-575 find_step. *)
Definition std_find_step (p : proto) (legacy : bool) (f : fmt) (r : root) (s : Z) : result metadata :=
  rbind (build_name f s) (fun n =>
  rbind (build_metadata p legacy f r n (Some s)) (fun o =>
  match o with Some m => Ok m | None => Err ValueError end)).

(** ST l.445-473 _get_broadcasted_step_list on the primary host: the recognised
    steps in ascending order, padded with -1 to the number of listed paths. *)
Definition padded_step_list (p : proto) (legacy : bool) (f : fmt) (r : root) : result (list Z) :=
  rmap (fun ms =>
          let steps := py_sorted (fun z => z) (map mstep ms) in
          steps ++ repeat (-1)%Z (List.length (glob_step_paths f r) - List.length steps))
       (std_find_all p legacy f r).

(** ST l.519-523: a python dict from path to step; later entries overwrite
    earlier ones but keep their position. *)
Fixpoint dict_set (n : string) (s : Z) (d : list (string * Z)) : list (string * Z) :=
  match d with
  | [] => [(n, s)]
  | (m, t) :: d' => if String.eqb n m then (m, s) :: d' else (m, t) :: dict_set n s d'
  end.

(** ST l.519-523: the dict comprehension over the broadcast steps. *)
Fixpoint paths_to_step (f : fmt) (steps : list Z) (d : list (string * Z)) : result (list (string * Z)) :=
  match steps with
  | [] => Ok d
  | s :: steps' =>
      if (0 <=? s)%Z
      then rbind (build_name f s) (fun n => paths_to_step f steps' (dict_set n s d))
      else paths_to_step f steps' d
  end.

(** ST l.475-542 _find_all_with_single_host_load_and_broadcast, as seen by every
    host: all hosts compute it from the list broadcast by process 0. *)
Definition broadcast_find_all (p : proto) (legacy : bool) (f : fmt) (r : root) : result (list metadata) :=
  rbind (padded_step_list p legacy f r) (fun steps =>
  rmap (map (fun e => mkMeta (snd e) (fst e))) (paths_to_step f steps [])).

(** * Composite formats *)

(** ST l.140-188 the NameFormat protocol, for a fixed root. *)
Record name_format : Type := mkNF {
  nf_build : Z -> result string;
  nf_find_all : root -> result (list metadata);
  nf_find_step : root -> Z -> result metadata }.

(** ST l.578-615 standard_name_format *)
Definition standard (p : proto) (legacy : bool) (f : fmt) : name_format :=
  mkNF (build_name f) (std_find_all p legacy f) (std_find_step p legacy f).

(** ST l.650-657: yield every metadata whose path was not yielded before. *)
Fixpoint dedup_paths (seen : list string) (ms : list metadata) : list metadata :=
  match ms with
  | [] => []
  | m :: ms' =>
      if existsb (String.eqb (mpath m)) seen then dedup_paths seen ms'
      else m :: dedup_paths (mpath m :: seen) ms'
  end.

(** ST l.650-657 find_all *)
Definition composite_find_all (fs : list name_format) (r : root) : result (list metadata) :=
  rmap (fun ls => dedup_paths [] (List.concat ls)) (sequence (map (fun f => nf_find_all f r) fs)).

(** ST l.659-677 find_step *)
Fixpoint composite_find_step (fs : list name_format) (r : root) (s : Z) : result metadata :=
  match fs with
  | [] => Err ValueError
  | f :: fs' => match nf_find_step f r s with Ok m => Ok m | Err _ => composite_find_step fs' r s end
  end.

(** ST l.618-648 _CompositeNameFormat; __post_init__ requires the write format
    (here: its index) to be among the read formats. *)
Definition composite (write : nat) (fs : list name_format) : result name_format :=
  match nth_error fs write with
  | None => Err ValueError
  | Some w => Ok (mkNF (nf_build w) (composite_find_all fs) (composite_find_step fs))
  end.

(** * Other queries *)

(** Lexicographic order on names (python str comparison, ST l.234). *)
Definition name_leb (a b : string) : bool := String.leb a b.

(** ST l.231-239: python [max] keeps the first maximum of the list. *)
Fixpoint max_step (best : metadata) (ms : list metadata) : metadata :=
  match ms with
  | [] => best
  | m :: ms' => if (mstep best <? mstep m)%Z then max_step m ms' else max_step best ms'
  end.

(** ST l.232-236 [sorted(..., key=name, reverse=True)] by insertion. *)
Fixpoint insert_name_desc (m : metadata) (l : list metadata) : list metadata :=
  match l with
  | [] => [m]
  | x :: l' => if name_leb (mpath m) (mpath x) then x :: insert_name_desc m l' else m :: l
  end.

(** ST l.227-239 latest_step_metadata *)
Definition latest_step_metadata (nf : name_format) (r : root) : result (option metadata) :=
  rmap (fun ms => match fold_left (fun acc m => insert_name_desc m acc) ms [] with
                  | [] => None
                  | m :: ms' => Some (max_step m ms')
                  end)
       (nf_find_all nf r).

(** ST l.242-257 step_metadata_of_checkpoint_path *)
Definition step_metadata_of_checkpoint_path (nf : name_format) (r : root) (n : string) : result metadata :=
  rbind (nf_find_all nf r) (fun ms =>
    match find (fun m => String.eqb (mpath m) n) ms with Some m => Ok m | None => Err ValueError end).

(** Length of the digit run at the start (ST l.50, l.771). *)
Fixpoint take_digits (l : list ascii) : list ascii :=
  match l with
  | [] => []
  | c :: l' => match char_digit c with Some _ => c :: take_digits l' | None => [] end
  end.

(** ST l.50, l.771-772: [re.match(r'.*?_*?(\d+)\.orbax-checkpoint-tmp', name)];
    the lazy prefix makes the group start at the first position where digits and
    the suffix follow. *)
Fixpoint tmp_group (l : list ascii) : option (list ascii) :=
  let g := take_digits l in
  let rest := skipn (List.length g) l in
  if match g with [] => false | _ => true end
     && prefix tmp_suffix (string_of_list_ascii rest)
  then Some g
  else match l with
       | [] => None
       | c :: l' => if Ascii.eqb c "010" then None else tmp_group l'
       end.

(** ST l.765-773 step_from_checkpoint_name *)
Definition step_from_checkpoint_name (n : string) : result Z :=
  let l := list_ascii_of_string n in
  let num g := match parse_digits 0 g with Some v => Ok (Z.of_N v) | None => Err ValueError end in
  if all_digits l then num l
  else
    match
      match split_last_underscore l with
      | Some (a, g) =>
          if all_digits g && match a with [] => false | _ => forallb (atom_match AAny) a end
          then Some g else None
      | None => None
      end
    with
    | Some g => num g
    | None => match tmp_group l with Some g => num g | None => Err ValueError end
    end.
