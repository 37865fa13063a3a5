(** Model of the transformations for model surgery: fusing, renaming, repeating, stacking and nesting
    the parameters of a flat dictionary.
    Source, all under checkpoint/orbax/checkpoint/experimental/model_surgery/transformations:
    checkpoint/orbax/checkpoint/experimental/model_surgery/transformations/fusing.py ("FU"),
    checkpoint/orbax/checkpoint/experimental/model_surgery/transformations/renaming.py ("RN"),
    checkpoint/orbax/checkpoint/experimental/model_surgery/transformations/repeating.py ("RP"),
    checkpoint/orbax/checkpoint/experimental/model_surgery/transformations/stacking.py ("SK") and
    checkpoint/orbax/checkpoint/experimental/model_surgery/transformations/nesting.py ("NE").
    Simplifications: an array is a shape and a function from indices to values; dtypes, devices and
    memory are not modelled, so that concatenating, repeating and stacking do the same on all of them;
    shapes that do not fit are a ValueError (jax also raises TypeError); regular expressions of the
    user are arguments; the parts of FU l.95 are not empty; digits are ASCII; counts are not negative;
    parameters are dictionaries.
    Not modelled: logging, target_sharding other than the callback of SK l.58-66. *)
From Coq Require Import List Bool Arith ZArith NArith String Ascii.
From Verif Require Import Base StepName_Model Policy_Model Tree_Model.
Import ListNotations.
Open Scope string_scope.

(** ** Lists *)

(** [l.insert(i, x)] for an index from 0 to the length (SK l.55, l.262) *)
Definition insert_at {A : Type} (i : nat) (x : A) (l : list A) : list A := (firstn i l ++ x :: skipn i l)%list.

(** [l] without its item [i] (SK l.283-288: what an index leaves) *)
Definition remove_at {A : Type} (i : nat) (l : list A) : list A := (firstn i l ++ skipn (S i) l)%list.

(** [l.insert(z, x)], where a negative index counts from the end and is clamped (SK l.55, l.262) *)
Definition py_insert {A : Type} (z : Z) (x : A) (l : list A) : list A :=
  insert_at (Z.to_nat (py_bound (Z.of_nat (List.length l)) z)) x l.

(** Which item of [n] an index means, a negative one counting from the end (FU l.58, RP l.47, SK l.60, l.284) *)
Definition norm_axis (z : Z) (n : nat) : option nat :=
  if (0 <=? z)%Z && (z <? Z.of_nat n)%Z then Some (Z.to_nat z)
  else if (z <? 0)%Z && (- Z.of_nat n <=? z)%Z then Some (Z.to_nat (z + Z.of_nat n))
  else None.

(** ** Arrays *)

(** An array (FU l.49): whether it is numpy's, its shape and its values *)
Record arr (V : Type) : Type := mkArr { a_np : bool; a_shape : list nat; a_at : list nat -> V }.
Arguments mkArr {V} _ _ _.
Arguments a_np {V} _.
Arguments a_shape {V} _.
Arguments a_at {V} _ _.

(** Equality of shapes (FU l.58, SK l.255) *)
Definition shape_eqb (a b : list nat) : bool := if list_eq_dec Nat.eq_dec a b then true else false.

(** The size along an axis (FU l.58) *)
Definition dim {V : Type} (ax : nat) (a : arr V) : nat := nth ax (a_shape a) 0.

(** Where an index falls among arrays that lie one after the other along an axis (FU l.58) *)
Fixpoint concat_at {V : Type} (d : V) (ax : nat) (l : list (arr V)) (idx : list nat) : V :=
  match l with
  | [] => d
  | a :: l' => if (nth ax idx 0 <? dim ax a)%nat then a_at a idx else concat_at d ax l' (set_nth ax (nth ax idx 0 - dim ax a) idx)
  end.

(** [concatenate(l, axis=axis)] (FU l.51-58) *)
Definition concatenate {V : Type} (d : V) (axis : Z) (l : list (arr V)) : result (arr V) :=
  match l with
  | [] => Err ValueError
  | a :: _ =>
    match norm_axis axis (List.length (a_shape a)) with
    | None => Err ValueError
    | Some ax =>
      if forallb (fun b => shape_eqb (set_nth ax 0 (a_shape b)) (set_nth ax 0 (a_shape a))) l
      then Ok (mkArr (a_np a) (set_nth ax (list_sum (map (dim ax) l)) (a_shape a)) (concat_at d ax l))
      else Err ValueError
    end
  end.

(** RP l.41-49 *)
Definition repeat_val {V : Type} (axis : Z) (count : nat) (a : arr V) : result (arr V) :=
  match norm_axis axis (List.length (a_shape a)) with
  | None => Err ValueError
  | Some ax => Ok (mkArr (a_np a) (set_nth ax (dim ax a * count) (a_shape a)) (fun idx => a_at a (set_nth ax (nth ax idx 0 / count) idx)))
  end.

(** [stack(l, axis)] (SK l.65, l.255) *)
Definition stack_arrays {V : Type} (d : V) (axis : Z) (l : list (arr V)) : result (arr V) :=
  match l with
  | [] => Err ValueError
  | a :: _ =>
    match norm_axis axis (S (List.length (a_shape a))) with
    | None => Err ValueError
    | Some ax =>
      if forallb (fun b => shape_eqb (a_shape b) (a_shape a)) l
      then Ok (mkArr (existsb a_np l) (insert_at ax (List.length l) (a_shape a))
                     (fun idx => match nth_error l (nth ax idx 0) with Some b => a_at b (remove_at ax idx) | None => d end))
      else Err ValueError
    end
  end.

(** ** Parameters *)

(** Parameters by name (FU l.105) *)
Definition params (V : Type) : Type := dict string (arr V).

(** The only argument (FU l.101-105, RN l.54-58, RP l.83-87, l.130-134, SK l.162-166) *)
Definition single {V : Type} (ps : list (params V)) : result (params V) :=
  match ps with [] => Err IndexError | [p] => Ok p | _ => Err ValueError end.

(** [del d[k]] (FU l.61) *)
Definition del {V : Type} (k : string) (d : params V) : result (params V) :=
  match dget String.eqb k d with Some _ => Ok (filter (fun x => negb (String.eqb k (fst x))) d) | None => Err KeyError end.

(** Deleting one after the other (FU l.60-61) *)
Fixpoint del_all {V : Type} (ks : list string) (d : params V) : result (params V) :=
  match ks with [] => Ok d | k :: r => rbind (del k d) (del_all r) end.

(** ** Fusing *)

(** FU l.42-62 *)
Definition fuse_keys {V : Type} (d0 : V) (ks : list string) (fused : string) (axis : Z) (d : params V) : result (params V) :=
  rbind (sequence (map (fetch String.eqb d) ks)) (fun vals =>
  rbind (concatenate d0 axis vals) (fun v =>
  rmap (fun d' => dput String.eqb fused v d') (del_all ks d))).

(** The first part that the text starts with (FU l.95-96) *)
Definition first_prefix (parts : list string) (s : string) : option string := find (fun p => String.prefix p s) parts.

(** [compiled_unique.search(key)] (FU l.111) *)
Fixpoint search_part (parts : list string) (s : string) : option string :=
  match first_prefix parts s with
  | Some p => Some p
  | None => match s with EmptyString => None | String _ r => search_part parts r end
  end.

(** [compiled_unique.sub(fused_unique_part, key)] (FU l.115): [skip] characters of a part are still to
    be dropped. *)
Fixpoint sub_part (parts : list string) (repl : string) (skip : nat) (s : string) : string :=
  match s with
  | EmptyString => EmptyString
  | String c r =>
    match skip with
    | S n => sub_part parts repl n r
    | O => match first_prefix parts s with
           | Some p => repl ++ sub_part parts repl (String.length p - 1) r
           | None => String c (sub_part parts repl 0 r)
           end
    end
  end.

(** The name that a key has after fusing, and its part (FU l.109-117); [matches] is the pattern. *)
Definition fuse_name (matches : string -> bool) (parts : list string) (repl key : string) : option (string * string) :=
  if matches key then
    match search_part parts key with
    | Some p => if existsb (String.eqb p) parts then Some (sub_part parts repl 0 key, p) else None
    | None => None
    end
  else None.

(** FU l.106-118 *)
Definition fuse_groups (matches : string -> bool) (parts : list string) (repl : string) (keys : list string) : dict string (dict string string) :=
  fold_left (fun g key =>
    match fuse_name matches parts repl key with
    | Some (fused, p) => dput String.eqb fused (dput String.eqb p key (match dget String.eqb fused g with Some u => u | None => [] end)) g
    | None => g
    end) keys [].

(** FU l.122-132 *)
Fixpoint fuse_all {V : Type} (d0 : V) (parts : list string) (axis : Z) (g : dict string (dict string string)) (d : params V) : result (params V) :=
  match g with
  | [] => Ok d
  | (fused, u) :: g' =>
    if (List.length u =? List.length parts)%nat
    then rbind (rbind (sequence (map (fetch String.eqb u) parts)) (fun ks => fuse_keys d0 ks fused axis d)) (fuse_all d0 parts axis g')
    else fuse_all d0 parts axis g' d
  end.

(** FU l.98-134 *)
Definition fuse_by_pattern {V : Type} (d0 : V) (matches : string -> bool) (parts : list string) (repl : string) (axis : Z) (ps : list (params V)) : result (params V) :=
  rbind (single ps) (fun d => fuse_all d0 parts axis (fuse_groups matches parts repl (map fst d)) d).

(** FU l.166-187 *)
Definition fuse_by_keys {V : Type} (d0 : V) (source : list string) (target : string) (axis : Z) (ps : list (params V)) : result (params V) :=
  rbind (single ps) (fun d =>
  if (List.length (filter (fun k => existsb (String.eqb k) (map fst d)) source) =? List.length source)%nat
  then fuse_keys d0 source target axis d else Ok d).

(** ** Renaming *)

(** RN l.51-65; a rule is what it makes of a name. *)
Definition rename_by_regex {V : Type} (rules : list (string -> string)) (ps : list (params V)) : result (params V) :=
  rmap (fun d => fold_left (fun r x => dput String.eqb (fold_left (fun n f => f n) rules (fst x)) (snd x) r) d []) (single ps).

(** ** Repeating *)

(** [result[k] = _repeat_val(result[k], ...)] if it is there (RP l.146-147) *)
Definition repeat_key {V : Type} (axis : Z) (count : nat) (k : string) (d : params V) : result (params V) :=
  match dget String.eqb k d with
  | Some a => rmap (fun b => dput String.eqb k b d) (repeat_val axis count a)
  | None => Ok d
  end.

(** One after the other (RP l.145-147) *)
Fixpoint repeat_keys {V : Type} (axis : Z) (count : nat) (ks : list string) (d : params V) : result (params V) :=
  match ks with [] => Ok d | k :: r => rbind (repeat_key axis count k d) (repeat_keys axis count r) end.

(** RP l.80-95 *)
Definition repeat_by_pattern {V : Type} (matches : string -> bool) (axis : Z) (count : nat) (ps : list (params V)) : result (params V) :=
  rbind (single ps) (fun d => repeat_keys axis count (filter matches (map fst d)) d).

(** RP l.127-149 *)
Definition repeat_by_keys {V : Type} (targets : list string) (axis : Z) (count : nat) (ps : list (params V)) : result (params V) :=
  rbind (single ps) (fun d => repeat_keys axis count targets d).

(** ** Stacking *)

(** Runs of digits (SK l.190) *)
Fixpoint runs (l : list ascii) : list (list ascii) :=
  match l with
  | [] => []
  | c :: l' =>
    match char_digit c with
    | None => runs l'
    | Some _ =>
      match l' with
      | c' :: _ => match char_digit c' with
                   | Some _ => match runs l' with r :: rs => (c :: r) :: rs | [] => [[c]] end
                   | None => [c] :: runs l'
                   end
      | [] => [[c]]
      end
    end
  end.

(** The index and the base of a key whose groups lie there (SK l.183-197) *)
Definition index_of (groups : list (option (nat * nat))) (key : string) : result (nat * string) :=
  match groups with
  | [Some (a, b)] =>
    match runs (list_ascii_of_string (substring a (b - a) key)) with
    | [r] => match parse_digits 0 r with
             | Some n => Ok (N.to_nat n, substring 0 a key ++ substring b (String.length key - b) key)
             | None => Err ValueError
             end
    | _ => Err AssertionError
    end
  | [None] => Err TypeError
  | _ => Err ValueError
  end.

(** What the loop collects (SK l.172-175) *)
Record collected (V : Type) : Type := mkCol { c_groups : dict string (dict nat (arr V)); c_unmatched : params V; c_delete : list string }.
Arguments mkCol {V} _ _ _.
Arguments c_groups {V} _.
Arguments c_unmatched {V} _.
Arguments c_delete {V} _.

(** SK l.177-204; [search] gives where the groups of a match lie. *)
Fixpoint collect {V : Type} (search : string -> option (list (option (nat * nat)))) (l : params V) (c : collected V) : result (collected V) :=
  match l with
  | [] => Ok c
  | (key, value) :: l' =>
    match search key with
    | None => collect search l' (mkCol (c_groups c) (dput String.eqb key value (c_unmatched c)) (c_delete c))
    | Some groups =>
      rbind (index_of groups key) (fun ib =>
      let g := match dget String.eqb (snd ib) (c_groups c) with Some g => g | None => [] end in
      match dget Nat.eqb (fst ib) g with
      | Some _ => Err AssertionError
      | None => collect search l' (mkCol (dput String.eqb (snd ib) (dput Nat.eqb (fst ib) value g) (c_groups c)) (c_unmatched c) (c_delete c ++ [key])%list)
      end)
    end
  end.

(** SK l.237-243: [mapping] has patterns and fillers. *)
Definition filler_of {V : Type} (mapping : list ((string -> bool) * V)) (default : option V) (base : string) : option V :=
  match find (fun x => fst x base) mapping with Some x => Some (snd x) | None => default end.

(** [sorted(idx_dict.keys())] (SK l.246) *)
Definition sorted_keys {A : Type} (d : dict nat A) : list nat := map Z.to_nat (py_sorted (fun z => z) (map (fun x => Z.of_nat (fst x)) d)).

(** SK l.245-255 *)
Definition stack_full {V : Type} (d0 : V) (axis : Z) (count : nat) (g : dict nat (arr V)) : result (arr V) :=
  if shape_eqb (sorted_keys g) (seq 0 count)
  then rbind (sequence (map (fetch Nat.eqb g) (seq 0 count))) (stack_arrays d0 axis)
  else Err ValueError.

(** Whether a shape can be broadcast to another; an array of more dimensions is refused (SK l.286, l.288). *)
Definition bcast_ok (from to : list nat) : bool :=
  (List.length from <=? List.length to)%nat &&
  forallb (fun x => (fst x =? snd x)%nat || (fst x =? 1)%nat) (combine from (skipn (List.length to - List.length from) to)).

(** The index that is read for an index that is written (SK l.286, l.288) *)
Definition bcast_idx (from idx : list nat) : list nat :=
  map (fun x => if (fst x =? 1)%nat then 0 else snd x) (combine from (skipn (List.length idx - List.length from) idx)).

(** SK l.273-288: numpy refuses an index that is too large, jax drops it. *)
Fixpoint fill {V : Type} (np : bool) (axis : Z) (count : nat) (shape : list nat) (g : dict nat (arr V)) (st : list nat -> V) : result (list nat -> V) :=
  match g with
  | [] => Ok st
  | (i, v) :: g' =>
    if (count <=? i)%nat then fill np axis count shape g' st
    else
      match norm_axis axis (List.length shape) with
      | None => Err IndexError
      | Some pos =>
        if np && (nth pos shape 0 <=? i)%nat then Err IndexError
        else if bcast_ok (a_shape v) (remove_at pos shape)
        then fill np axis count shape g' (fun idx => if (nth pos idx 0 =? i)%nat then a_at v (bcast_idx (a_shape v) (remove_at pos idx)) else st idx)
        else Err ValueError
      end
  end.

(** SK l.258-288 *)
Definition stack_padded {V : Type} (np : bool) (axis : Z) (count : nat) (filler : V) (g : dict nat (arr V)) : result (arr V) :=
  match g with
  | [] => Err OtherError
  | (_, rep) :: _ =>
    let shape := py_insert axis count (a_shape rep) in
    if (count <? List.length g)%nat then Err ValueError
    else rmap (mkArr np shape) (fill np axis count shape g (fun _ => filler))
  end.

(** SK l.218-222 *)
Definition count_of {V : Type} (expected : option nat) (g : dict string (dict nat (arr V))) : nat :=
  match expected with Some n => n | None => S (list_max (List.concat (map (fun x => map fst (snd x)) g))) end.

(** SK l.234-302: the groups one after the other *)
Fixpoint stack_groups {V : Type} (d0 : V) (np : bool) (axis : Z) (count : nat) (filler : string -> option V) (g : dict string (dict nat (arr V))) (r : params V) : result (params V) :=
  match g with
  | [] => Ok r
  | (base, idx_dict) :: g' =>
    rbind (match filler base with None => stack_full d0 axis count idx_dict | Some f => stack_padded np axis count f idx_dict end)
          (fun a => stack_groups d0 np axis count filler g' (dput String.eqb base a r))
  end.

(** SK l.159-304: the result, and the parameters afterwards; [size] gives the bytes of an array. *)
Definition stack {V : Type} (d0 : V) (size : arr V -> Z) (search : string -> option (list (option (nat * nat)))) (expected : option nat) (axis : Z)
    (mapping : list ((string -> bool) * V)) (default : option V) (inplace sort_by_size : bool) (ps : list (params V)) : result (params V) * list (params V) :=
  match single ps with
  | Err e => (Err e, ps)
  | Ok d =>
    match collect search d (mkCol [] [] []) with
    | Err e => (Err e, ps)
    | Ok c =>
      let left := if inplace then filter (fun x => negb (existsb (String.eqb (fst x)) (c_delete c))) d else d in
      match c_groups c with
      | [] => (Ok (c_unmatched c), [left])
      | (_, g0) :: _ =>
        let np := match g0 with (_, v) :: _ => a_np v | [] => false end in
        let bytes x := fold_left (fun n y => (n + size (snd y))%Z) (snd x) 0%Z in
        let order := if sort_by_size then py_sorted_rev bytes true (c_groups c) else c_groups c in
        (stack_groups d0 np axis (count_of expected (c_groups c)) (filler_of mapping default) order (c_unmatched c), [left])
      end
    end
  end.

(** The shape that is announced for streaming (SK l.49-56) *)
Definition stream_shape {V : Type} (axis : Z) (items : list (arr V)) : list nat :=
  match items with [] => [] | a :: _ => py_insert axis (List.length items) (a_shape a) end.

(** SK l.58-66: what is given for the indices of a shard; a slice is its start and stop, if any. *)
Definition stream_callback {V : Type} (d0 : V) (axis : Z) (items : list (arr V)) (indices : list (option (nat * nat))) : result (arr V) :=
  match norm_axis axis (List.length indices) with
  | None => Err IndexError
  | Some pos =>
    let n := List.length items in
    let ss := match nth pos indices None with Some (a, b) => (Nat.min a n, Nat.min b n) | None => (0, n) end in
    stack_arrays d0 axis (firstn (snd ss - fst ss) (skipn (fst ss) items))
  end.

(** ** Nesting *)

(** NE l.88-90 without a target: the tree, and what is left of the parameters if they are popped. *)
Fixpoint nest {V : Type} (sep : string) (t : tree V) (d : dict string (tree V)) : result (tree V) * dict string (tree V) :=
  match d with
  | [] => (Ok t, [])
  | (k, v) :: d' =>
    match rbind (split sep k) (fun n => insert_names t n v) with
    | Ok t' => nest sep t' d'
    | Err e => (Err e, d')
    end
  end.

(** NE l.79-87: what is missing is taken from the target. *)
Definition fill_missing {V : Type} (target p : dict string V) : dict string V :=
  fold_left (fun d x => match dget String.eqb (fst x) d with Some _ => d | None => dput String.eqb (fst x) (snd x) d end) target p.

(** NE l.61-90: the result, and the parameters afterwards *)
Definition unflatten_params {V : Type} (sep : string) (inplace : bool) (target : option (tree V)) (ps : list (dict string (tree V))) : result (tree V) * list (dict string (tree V)) :=
  match ps with
  | [p] =>
    match target with
    | None => let r := nest sep (Node KDict []) p in (fst r, if inplace then [snd r] else ps)
    | Some t =>
      let flat := to_flat_dict_sep sep false t in
      (from_flat_dict_target_sep sep (fill_missing flat p) t,
       if inplace then [filter (fun x => negb (existsb (String.eqb (fst x)) (map fst flat))) p] else ps)
    end
  | _ => (Err AssertionError, ps)
  end.
