(** N-dimensional arrays, as far as the modelled code uses numpy.
    Source of the uses: checkpoint/orbax/checkpoint/_src/arrays/fragments.py
    ("FRAG"), subchunking.py ("SUB"), numpy_utils.py ("NPU").

    An array is a shape together with its elements as a function of the
    coordinate; only coordinates inside the shape mean anything. dtypes are not
    modelled. *)
From Coq Require Import ZArith List Bool.
From Verif Require Import Base.
Import ListNotations.
Local Open Scope Z_scope.

(** A numpy array (FRAG l.117 [value]). *)
Record arr (V : Type) : Type := mk_arr { ashape : list Z; aget : list Z -> V }.
Arguments mk_arr {V}. Arguments ashape {V}. Arguments aget {V}.

(** One row (start, stop, step) of an NpIndex (FRAG l.102-105), or a concrete
    python slice. *)
Record sl : Type := mk_sl { sl_start : Z; sl_stop : Z; sl_step : Z }.

(** Pairwise application, stopping at the shorter list as [zip] does
    (FRAG l.595, NPU l.56). *)
Fixpoint map2 {A B C : Type} (f : A -> B -> C) (l1 : list A) (l2 : list B) : list C :=
  match l1, l2 with
  | x :: xs, y :: ys => f x y :: map2 f xs ys
  | _, _ => []
  end.

(** Pairwise test on lists of the same length, [(a < b).all()] (FRAG l.201). *)
Fixpoint all2 {A B : Type} (f : A -> B -> bool) (l1 : list A) (l2 : list B) : bool :=
  match l1, l2 with
  | x :: xs, y :: ys => f x y && all2 f xs ys
  | _, _ => true
  end.

(** Equality of shapes (tuples of ints; FRAG l.430). *)
Fixpoint shape_eqb (a b : list Z) : bool :=
  match a, b with
  | [], [] => true
  | x :: xs, y :: ys => (x =? y) && shape_eqb xs ys
  | _, _ => false
  end.

(** How numpy clips one slice with a positive step to a dimension of size [n]
    (the meaning of [a[slice]] at FRAG l.328 and l.446). *)
Definition clip (n : Z) (s : sl) : sl :=
  mk_sl (py_bound n (sl_start s)) (py_bound n (sl_stop s)) (sl_step s).

(** Number of elements selected by a clipped slice (FRAG l.328, l.446). *)
Definition sl_count (s : sl) : Z :=
  Z.max 0 ((sl_stop s - sl_start s + (sl_step s - 1)) / sl_step s).

(** [a[idx]] for a tuple of slices with positive steps (FRAG l.328, SUB l.294).
    Too many slices: IndexError. *)
Definition getitem {V : Type} (a : arr V) (idx : list sl) : result (arr V) :=
  if (List.length (ashape a) <? List.length idx)%nat then Err IndexError
  else
    let r := map2 clip (ashape a) idx in
    Ok (mk_arr (map sl_count r ++ skipn (List.length idx) (ashape a))
               (fun c => aget a (map2 (fun s x => sl_start s + x * sl_step s) r c
                                 ++ skipn (List.length idx) c))).

(** Does a clipped slice select position [x]? (FRAG l.446, l.586) *)
Definition hits (s : sl) (x : Z) : bool :=
  (sl_start s <=? x) && (x <? sl_stop s) && ((x - sl_start s) mod sl_step s =? 0).

(** [a[idx] = v] (FRAG l.446), one slice per dimension.  A value of another
    shape is refused; numpy would first try to broadcast it. *)
Definition setitem {V : Type} (a : arr V) (idx : list sl) (v : arr V) : result (arr V) :=
  if negb (Nat.eqb (List.length (ashape a)) (List.length idx)) then Err IndexError
  else
    let r := map2 clip (ashape a) idx in
    if negb (shape_eqb (map sl_count r) (ashape v)) then Err ValueError
    else Ok (mk_arr (ashape a)
               (fun c => if all2 hits r c
                         then aget v (map2 (fun s x => (x - sl_start s) / sl_step s) r c)
                         else aget a c)).

(** [a[idx] = x] for a scalar (FRAG l.586). *)
Definition setitem_all {V : Type} (a : arr V) (idx : list sl) (x : V) : result (arr V) :=
  if negb (Nat.eqb (List.length (ashape a)) (List.length idx)) then Err IndexError
  else
    let r := map2 clip (ashape a) idx in
    Ok (mk_arr (ashape a) (fun c => if all2 hits r c then x else aget a c)).

(** [range(start, stop, step)] (SUB l.274); a zero step raises ValueError. *)
Definition py_range (start stop step : Z) : result (list Z) :=
  if step =? 0 then Err ValueError
  else
    let n := if 0 <? step then (stop - start + (step - 1)) / step
             else (start - stop + (- step - 1)) / (- step) in
    Ok (map (fun k => start + Z.of_nat k * step) (seq 0 (Z.to_nat n))).

(** [itertools.product] (SUB l.279): the last component changes fastest. *)
Fixpoint cart {A : Type} (ls : list (list A)) : list (list A) :=
  match ls with
  | [] => [[]]
  | l :: rest => flat_map (fun x => map (cons x) (cart rest)) l
  end.

(** All coordinates of a shape, in memory order (what [np.all], FRAG l.587,
    runs over). *)
Definition all_coords (shape : list Z) : list (list Z) :=
  cart (map (fun n => map Z.of_nat (seq 0 (Z.to_nat n))) shape).
