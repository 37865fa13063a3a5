(** Model of N-dimensional python slices and their normal forms.
    Source: checkpoint/orbax/checkpoint/_src/arrays/numpy_utils.py ("NPU") and
    fragments.py ("FRAG").  Integers are unbounded; dimensions are not negative. *)
From Coq Require Import ZArith List Bool.
From Verif Require Import Base Nd_Model.
Import ListNotations.
Local Open Scope Z_scope.

(** [slice(start, stop, step)] (NPU l.31); None is Coq's None. *)
Record pslice : Type := mk_ps { ps_start : option Z; ps_stop : option Z; ps_step : option Z }.

(** An element of an index tuple: a slice or an integer (NPU l.53-55). *)
Inductive item : Type := ISlice (s : pslice) | IInt (x : Z).

(** NdSlice: a tuple or Ellipsis (NPU l.56). *)
Inductive ndslice : Type := NTuple (l : list item) | NEllipsis.

(** The builtin [slice.indices(n)] used at NPU l.54 (CPython
    _PySlice_GetLongIndices), negative steps included. *)
Definition indices (s : pslice) (n : Z) : result (Z * Z * Z) :=
  let step := match ps_step s with Some k => k | None => 1 end in
  if step =? 0 then Err ValueError
  else
    let lower := if step <? 0 then -1 else 0 in
    let upper := if step <? 0 then n - 1 else n in
    let adjust b := if b <? 0 then Z.max (b + n) lower else Z.min b upper in
    let start := match ps_start s with
                 | None => if step <? 0 then upper else lower | Some b => adjust b end in
    let stop := match ps_stop s with
                | None => if step <? 0 then lower else upper | Some b => adjust b end in
    Ok (start, stop, step).

(** A slice with three integers (NPU l.54-55). *)
Definition conc (a b k : Z) : pslice := mk_ps (Some a) (Some b) (Some k).

(** One element of NPU l.53-55 *)
Definition resolve_item (x : item) (n : Z) : result pslice :=
  match x with
  | ISlice s => rmap (fun t => conc (fst (fst t)) (snd (fst t)) (snd t)) (indices s n)
  | IInt i => Ok (conc i (i + 1) 1)
  end.

(** NPU l.39-56 resolve_slice *)
Definition resolve_slice (xs : ndslice) (shape : list Z) : result (list pslice) :=
  sequence (map2 resolve_item (match xs with NEllipsis => [] | NTuple l => l end) shape).

(** [x or None], [x or 1] for an optional integer (NPU l.32, l.106): zero and
    None are false. *)
Definition or_none (x : option Z) : option Z :=
  match x with Some 0 => None | y => y end.

(** [x if x != y else None] (NPU l.107-108). *)
Definition unless (y : Z) (x : option Z) : option Z :=
  match x with Some z => if z =? y then None else Some z | None => None end.

(** One element of NPU l.105-108; an integer has no attribute [start]. *)
Definition dissolve_item (x : item) (dim : Z) : result pslice :=
  match x with
  | ISlice s => Ok (mk_ps (or_none (ps_start s)) (unless dim (ps_stop s)) (unless 1 (ps_step s)))
  | IInt _ => Err AttributeError
  end.

(** Equality with [slice(None)] (NPU l.110). *)
Definition is_full_slice (s : pslice) : bool :=
  match s with mk_ps None None None => true | _ => false end.

(** The loop of NPU l.110-111, on the reversed tuple. *)
Fixpoint drop_full (l : list pslice) : list pslice :=
  match l with
  | s :: r => if is_full_slice s then drop_full r else l
  | [] => []
  end.

(** NPU l.83-112 dissolve_slice; Ellipsis cannot be zipped. *)
Definition dissolve_slice (xs : ndslice) (shape : list Z) (preserve_rank : bool) : result ndslice :=
  match xs with
  | NEllipsis => Err TypeError
  | NTuple l =>
      rmap (fun ys =>
              let zs := if preserve_rank then ys else rev (drop_full (rev ys)) in
              match zs with [] => NEllipsis | _ => NTuple (map ISlice zs) end)
           (sequence (map2 dissolve_item l shape))
  end.

(** [s.start if s.start >= 0 else dim + s.start] (NPU l.137-138); comparing None
    with a number raises TypeError. *)
Definition wrap (dim : Z) (x : option Z) : result (option Z) :=
  match x with
  | Some b => Ok (Some (if 0 <=? b then b else dim + b))
  | None => Err TypeError
  end.

(** NPU l.115-142 normalize_slice *)
Definition normalize_slice (xs : list pslice) (shape : list Z) : result (list pslice) :=
  sequence (map2 (fun s dim => rbind (wrap dim (ps_start s)) (fun a =>
                               rbind (wrap dim (ps_stop s)) (fun b =>
                               Ok (mk_ps a b (ps_step s))))) xs shape).

(** NPU l.29-36 int_tuple_from_slice *)
Definition int_tuple_from_slice (s : pslice) : result (Z * Z * Z) :=
  match ps_start s, ps_stop s, or_none (ps_step s) with
  | Some a, Some b, Some k => Ok (a, b, k)
  | Some a, Some b, None => Ok (a, b, 1)
  | _, _, _ => Err ValueError
  end.

(** An index tuple without integers, as [int_tuple_from_slice] needs it (NPU l.76). *)
Definition as_slices (xs : ndslice) : result (list pslice) :=
  match xs with
  | NEllipsis => Err TypeError
  | NTuple l => sequence (map (fun x => match x with ISlice s => Ok s | IInt _ => Err AttributeError end) l)
  end.

(** NPU l.59-76 to_hashable_index.  The empty shape is false, like None. *)
Definition to_hashable_index (idx : ndslice) (shape : option (list Z)) : result (list (Z * Z * Z)) :=
  rbind (match shape with
         | Some (n :: sh) => resolve_slice idx (n :: sh)
         | _ => as_slices idx
         end)
        (fun l => sequence (map int_tuple_from_slice l)).

(** NPU l.79-80 from_hashable_index *)
Definition from_hashable_index (idx : list (Z * Z * Z)) : list pslice :=
  map (fun t => conc (fst (fst t)) (snd (fst t)) (snd t)) idx.

(** NPU l.145-147 slice_shape *)
Definition ps_shape (xs : list pslice) : result (list Z) :=
  sequence (map (fun s => match ps_start s, ps_stop s, ps_step s with
                          | Some a, Some b, Some k => if k =? 0 then Err ZeroDivisionError else Ok ((b - a + (k - 1)) / k)
                          | _, _, _ => Err TypeError
                          end) xs).

(** FRAG l.590-598 normalize: None replaced by the full range. *)
Definition fill_none (idx : list pslice) (shape : list Z) : list pslice :=
  map2 (fun s dim => conc (match ps_start s with Some a => a | None => 0 end)
                          (match ps_stop s with Some b => b | None => dim end)
                          (match ps_step s with Some k => k | None => 1 end)) idx shape.
