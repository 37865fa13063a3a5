(** Model of fragments of arrays.
    Source: checkpoint/orbax/checkpoint/_src/arrays/fragments.py ("FRAG") and
    subchunking.py ("SUB").  Index rows are (start, stop, step) triples; type
    checks of the constructors are left out. *)
From Coq Require Import ZArith List Bool.
From Verif Require Import Base Nd_Model.
Import ListNotations.
Local Open Scope Z_scope.

Section Fragment.
(** Elements of the arrays (FRAG l.61). *)
Variable V : Type.

(** _GenericFragment (FRAG l.95-137): [value] is None for abstract fragments. *)
Record frag : Type := mk_frag { f_index : list sl; f_value : option (arr V) }.

(** FRAG l.144-146 *)
Definition f_start (f : frag) : list Z := map sl_start (f_index f).
(** FRAG l.148-150 *)
Definition f_stop (f : frag) : list Z := map sl_stop (f_index f).

(** NPU l.145-147 slice_shape *)
Definition slice_shape (idx : list sl) : list Z :=
  map (fun s => (sl_stop s - sl_start s + (sl_step s - 1)) / sl_step s) idx.

(** FRAG l.156-158 *)
Definition f_shape (f : frag) : list Z := slice_shape (f_index f).

(** FRAG l.164-166 *)
Definition is_degenerate (f : frag) : bool :=
  existsb (fun s => sl_stop s =? sl_start s) (f_index f).

(** Moving an index by a vector (FRAG l.171-177, l.267-273; ranks agree). *)
Definition offset_index (idx : list sl) (delta : list Z) : list sl :=
  map2 (fun s d => mk_sl (sl_start s + d) (sl_stop s + d) (sl_step s)) idx delta.

(** FRAG l.171-177 offset_by *)
Definition offset_by (f : frag) (delta : list Z) : frag :=
  mk_frag (offset_index (f_index f) delta) (f_value f).

(** slice_of_value (FRAG l.275-277 for abstract, l.320-328 for concrete
    fragments). *)
Definition slice_of_value (f : frag) (idx : list sl) : result (option (arr V)) :=
  match f_value f with
  | None => Ok None
  | Some v =>
      let g := offset_index idx (map Z.opp (f_start f)) in
      if existsb (fun s => sl_start s <? 0) g
         || negb (all2 (fun s n => sl_stop s <=? n) g (ashape v))
      then Err ValueError
      else rmap Some (getitem v g)
  end.

(** FRAG l.179-205 intersect.  Different ranks are refused here; numpy would
    broadcast a single row. *)
Definition intersect (f : frag) (idx : list sl) : result (option frag) :=
  if existsb (fun s => negb (sl_step s =? 1)) (f_index f)
     || existsb (fun s => negb (sl_step s =? 1)) idx
  then Err NotImplementedError
  else if negb (Nat.eqb (List.length (f_index f)) (List.length idx)) then Err ValueError
  else
    let out := map2 (fun s t => mk_sl (Z.max (sl_start s) (sl_start t))
                                      (Z.min (sl_stop s) (sl_stop t)) (sl_step s))
                    idx (f_index f) in
    if negb (forallb (fun s => sl_start s <? sl_stop s) out) then Ok None
    else rmap (fun v => Some (mk_frag out v)) (slice_of_value f out).

(** FRAG l.207-223 slice *)
Definition f_slice (f : frag) (idx : list sl) : result (option frag) :=
  rmap (option_map (fun g => offset_by g (map Z.opp (map sl_start idx)))) (intersect f idx).

(** _GenericFragments (FRAG l.350-364), without the dtype. *)
Record frags : Type := mk_frags { fs_shape : list Z; fs_list : list frag }.

(** [[f for f in xs if f is not None]] (FRAG l.470-474). *)
Fixpoint somes {A : Type} (l : list (option A)) : list A :=
  match l with
  | [] => []
  | Some x :: r => x :: somes r
  | None :: r => somes r
  end.

(** FRAG l.449-475 slice, for an index given as an NpIndex. *)
Definition fs_slice (fs : frags) (idx : list sl) : result frags :=
  if existsb (fun s => negb (sl_step s =? 1)) idx then Err NotImplementedError
  else if negb (Nat.eqb (List.length (fs_shape fs)) (List.length idx)) then Err ValueError
  else
    let shape := map2 (fun n s => Z.min n (sl_stop s) - sl_start s) (fs_shape fs) idx in
    if existsb (fun n => n <? 0) shape then Err ValueError
    else rmap (fun l => mk_frags shape (somes l))
              (sequence (map (fun f => f_slice f idx) (fs_list fs))).

(** The loop of _is_full (FRAG l.585-586). *)
Fixpoint mark (present : arr bool) (l : list frag) : result (arr bool) :=
  match l with
  | [] => Ok present
  | f :: r => rbind (setitem_all present (f_index f) true) (fun p => mark p r)
  end.

(** FRAG l.582-587 _is_full *)
Definition is_full (fs : frags) : result bool :=
  rmap (fun p => forallb (aget p) (all_coords (fs_shape fs)))
       (mark (mk_arr (fs_shape fs) (fun _ => false)) (fs_list fs)).

(** The assembling loop (FRAG l.445-446); fragments are concrete here. *)
Fixpoint fill (res : arr V) (l : list frag) : result (arr V) :=
  match l with
  | [] => Ok res
  | f :: r =>
      match f_value f with
      | Some v => rbind (setitem res (f_index f) v) (fun a => fill a r)
      | None => Err ValueError
      end
  end.

(** The fast path: the first non-degenerate fragment of the global shape
    (FRAG l.424-434). *)
Definition fast_path (fs : frags) : option frag :=
  find (fun f => shape_eqb (f_shape f) (fs_shape fs))
       (filter (fun f => negb (is_degenerate f)) (fs_list fs)).

(** FRAG l.412-447 __array__.  [junk]: what np.empty contains; [copy_false]: the
    argument copy is False. *)
Definition to_array (junk : list Z -> V) (copy_false : bool) (fs : frags) : result (arr V) :=
  if existsb (fun f => match f_value f with None => true | _ => false end) (fs_list fs)
  then Err ValueError
  else
    let nd := filter (fun f => negb (is_degenerate f)) (fs_list fs) in
    match fast_path fs with
    | Some f => match f_value f with Some v => Ok v | None => Err ValueError end
    | None =>
        if copy_false then Err ValueError
        else rbind (is_full fs) (fun full =>
             if negb full then Err ValueError
             else fill (mk_arr (fs_shape fs) junk) nd)
    end.

(** _ConcreteFragments._of (FRAG l.511-516): the fragments of an array. *)
Definition of_array (x : arr V) (indices : list (list sl)) : result frags :=
  rmap (mk_frags (ashape x))
       (sequence (map (fun i => rmap (fun v => mk_frag i (Some v)) (getitem x i)) indices)).

(** np.mod on two shapes (SUB l.226): [None] is the ValueError of shapes that do
    not broadcast; the remainder by zero is zero (with a warning). *)
Definition np_mod (a b : list Z) : option (list Z) :=
  let m x y := if y =? 0 then 0 else x mod y in
  if Nat.eqb (List.length a) (List.length b) then Some (map2 m a b)
  else match a, b with
       | [x], _ => Some (map (fun y => m x y) b)
       | _, [y] => Some (map (fun x => m x y) a)
       | _, _ => None
       end.

(** SUB l.220-229 validate_divisible_shapes *)
Definition validate_divisible_shapes (divided dividing : list Z) : bool :=
  match np_mod divided dividing with
  | Some m => negb (existsb (fun x => negb (x =? 0)) m)
  | None => false
  end.

(** SUB l.282-295: the piece that starts at [starts]. *)
Definition piece (f : frag) (target starts : list Z) : result frag :=
  let idx := map2 (fun s t => mk_sl s (s + t) 1) starts target in
  match f_value f with
  | None => Ok (mk_frag idx None)
  | Some v =>
      rmap (fun a => mk_frag idx (Some a))
           (getitem v (offset_index idx (map Z.opp (f_start f))))
  end.

(** SUB l.235-296 chunk_fragment *)
Definition chunk_fragment (f : frag) (target : list Z) : result (list frag) :=
  if shape_eqb (f_shape f) target then Ok [f]
  else if negb (Nat.eqb (List.length target) (List.length (f_shape f))) then Err ValueError
  else if negb (validate_divisible_shapes (f_shape f) target) then Err ValueError
  else
    rbind (sequence (map2 (fun s t => py_range (sl_start s) (sl_stop s) t) (f_index f) target))
      (fun ranges => sequence (map (piece f target) (cart ranges))).

(** SUB l.299-304 chunk_fragments *)
Definition chunk_fragments (fs : frags) (target : list Z) : result frags :=
  rmap (fun ls => mk_frags (fs_shape fs) (List.concat ls))
       (sequence (map (fun f => chunk_fragment f target) (fs_list fs))).
End Fragment.

Arguments mk_frag {V}. Arguments f_index {V}. Arguments f_value {V}.
Arguments mk_frags {V}. Arguments fs_shape {V}. Arguments fs_list {V}.
Arguments f_start {V}. Arguments f_stop {V}. Arguments f_shape {V}.
Arguments is_degenerate {V}. Arguments offset_by {V}. Arguments slice_of_value {V}.
Arguments intersect {V}. Arguments f_slice {V}. Arguments fs_slice {V}.
Arguments mark {V}. Arguments is_full {V}. Arguments fill {V}. Arguments fast_path {V}.
Arguments to_array {V}. Arguments of_array {V}. Arguments piece {V}.
Arguments chunk_fragment {V}. Arguments chunk_fragments {V}.
