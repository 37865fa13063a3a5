(** Model of the choice of a storage chunk shape,
    /repo/checkpoint/orbax/checkpoint/_src/arrays/subchunking.py ("SUB").

    The per-dimension divisor lists ([dim_factors]) are kept here with the
    largest divisor first, so that python's [l[-1]] is the head and [l.pop()]
    drops the head. *)
From Coq Require Import ZArith List Bool.
From Verif Require Import Base.
Import ListNotations.
Local Open Scope Z_scope.

(** [range(1, stop)] as a list (python built-in, used at SUB l.45-47). *)
Definition range1 (stop : Z) : list Z :=
  map (fun k => Z.of_nat k) (seq 1 (Z.to_nat (stop - 1))).

(** Insertion into a strictly increasing list, dropping duplicates: the
    building block of [sorted(set(...))] (SUB l.48). *)
Fixpoint insert_uniq (x : Z) (l : list Z) : list Z :=
  match l with
  | [] => [x]
  | y :: ys => if x <? y then x :: l else if x =? y then l else y :: insert_uniq x ys
  end.

(** [sorted(set(l))] (SUB l.48). *)
Definition sorted_set (l : list Z) : list Z := fold_right insert_uniq [] l.

(** [_find_divisors] (SUB l.43-48).  [math.ceil(math.sqrt(n))]
    is the exact ceiling of the square root; floating point rounding for sizes
    beyond 2^52 is not modelled. *)
Definition find_divisors (size : Z) : list Z :=
  let sqrt_divs := filter (fun i => size mod i =? 0) (range1 (Z.sqrt_up (size + 1))) in
  sorted_set (sqrt_divs ++ rev (map (fun d => size / d) sqrt_divs)).

(** The mutable local state of [choose_chunk_shape] (SUB l.95-104): remaining divisors per dimension (largest first), the
    element count of the current chunk and the sharded-dimension flags. *)
Record cstate : Type := mk_cstate {
  factors : list (list Z);
  total : Z;
  sharded : list bool
}.

(** The current size of one dimension, [dim_factors[i][-1]]
    (SUB l.101). *)
Definition cur (f : list Z) : Z := hd 0 f.

(** The current chunk shape (SUB l.101, 126 and 201). *)
Definition shape_of (st : cstate) : list Z := map cur (factors st).

(** [reduce_dim] (SUB l.106-112).  Popping the last remaining
    divisor makes [dim_factors[i][-1]] raise IndexError. *)
Definition reduce_dim (i : nat) (st : cstate) : result cstate :=
  match nth i (factors st) [] with
  | c :: n :: rest =>
      Ok (mk_cstate (set_nth i (n :: rest) (factors st))
                    (total st / c * n)
                    (set_nth i true (sharded st)))
  | _ => Err IndexError
  end.

(** The [while len(dim_factors[shard_axis]) > 1] loop (SUB l.122-123).  Every iteration shortens the list, so its length bounds
    the number of iterations. *)
Fixpoint exhaust_axis (fuel : nat) (i : nat) (st : cstate) : result cstate :=
  match fuel with
  | O => Ok st
  | S fuel' =>
      if (1 <? List.length (nth i (factors st) []))%nat
      then rbind (reduce_dim i st) (exhaust_axis fuel' i)
      else Ok st
  end.

(** The loop over the requested shard axes (SUB l.121-123). *)
Fixpoint exhaust_axes (axes : list nat) (st : cstate) : result cstate :=
  match axes with
  | [] => Ok st
  | i :: rest =>
      rbind (exhaust_axis (List.length (nth i (factors st) [])) i st) (exhaust_axes rest)
  end.

(** The candidate list of the round-robin loop (SUB l.165-168). *)
Definition candidates (axes : list nat) (st : cstate) : list nat :=
  filter (fun i => nth i (sharded st) false
                   && (1 <? List.length (nth i (factors st) []))%nat) axes.

(** [min(candidates, key=...)] (SUB l.174-177): the first
    candidate with the least ratio of its two largest divisors.  The key raises
    IndexError when the second divisor is missing. *)
Definition ratio (i : nat) (st : cstate) : result Z :=
  match nth i (factors st) [] with
  | c :: n :: _ => Ok (c / n)
  | _ => Err IndexError
  end.
(** [min] itself, given the best so far (SUB l.174-177). *)
Fixpoint min_ratio (best : nat) (bk : Z) (cs : list nat) (st : cstate) : result nat :=
  match cs with
  | [] => Ok best
  | i :: rest =>
      rbind (ratio i st) (fun k =>
        if k <? bk then min_ratio i k rest st else min_ratio best bk rest st)
  end.

(** [list.remove] (SUB l.179). *)
Fixpoint remove_first (i : nat) (l : list nat) : list nat :=
  match l with
  | [] => []
  | j :: js => if Nat.eqb i j then js else j :: remove_first i js
  end.

(** The inner round-robin loop (SUB l.171-179); the candidate
    list shrinks each time, so its length is enough fuel. *)
Fixpoint rr_inner (fuel : nat) (cs : list nat) (tgt : Z) (st : cstate) : result cstate :=
  match fuel, cs with
  | S fuel', c :: cs' =>
      if tgt <? total st then
        rbind (ratio c st) (fun k =>
        rbind (min_ratio c k cs' st) (fun i =>
        rbind (reduce_dim i st) (fun st' =>
          rr_inner fuel' (remove_first i cs) tgt st')))
      else Ok st
  | _, _ => Ok st
  end.

(** The outer round-robin loop (SUB l.160-179): repeat while a
    candidate was reduced and the chunk is still too large. *)
Fixpoint rr_outer (fuel : nat) (axes : list nat) (tgt : Z) (st : cstate) : result cstate :=
  match fuel with
  | O => Err RuntimeError
  | S fuel' =>
      if tgt <? total st then
        match candidates axes st with
        | [] => Ok st
        | cs => rbind (rr_inner (List.length cs) cs tgt st) (rr_outer fuel' axes tgt)
        end
      else Ok st
  end.

(** The choice of the dimension to reduce (SUB l.187-193): the
    first one with the strictly largest current size above 1 among the sharded
    dimensions; [None] stands for [dim_to_reduce = -1]. *)
Fixpoint pick_from (i : nat) (best : option nat) (size : Z)
    (fs : list (list Z)) (sh : list bool) : option nat :=
  match fs, sh with
  | f :: fs', b :: sh' =>
      if b && (size <? cur f)
      then pick_from (S i) (Some i) (cur f) fs' sh'
      else pick_from (S i) best size fs' sh'
  | _, _ => best
  end.
(** The call of the above at the head of the loop (SUB l.187-193). *)
Definition pick_dim (st : cstate) : option nat :=
  pick_from 0 None 1 (factors st) (sharded st).

(** The main loop (SUB l.183-199).  [fuel] bounds the number of
    iterations; the theorems show that the bound used below is never hit (a
    [RuntimeError] here would stand for non-termination). *)
Fixpoint target_loop (fuel : nat) (tgt : Z) (st : cstate) : result cstate :=
  match fuel with
  | O => Err RuntimeError
  | S fuel' =>
      if tgt <? total st then
        match pick_dim st with
        | Some i => rbind (reduce_dim i st) (target_loop fuel' tgt)
        | None =>
            target_loop fuel' tgt
              (mk_cstate (factors st) (total st) (map (fun _ => true) (factors st)))
        end
      else Ok st
  end.

(** Number of iterations granted to the loops (model-only; the loops of
    SUB l.160-199 carry no such bound). *)
Definition budget (st : cstate) : nat :=
  (2 + List.length (factors st) + fold_right (fun f n => List.length f + n) 0 (factors st))%nat.

(** [math.prod] (SUB l.104). *)
Definition prod (l : list Z) : Z := fold_right Z.mul 1 l.

(** Elementwise [np.array(global_shape) != np.array(write_shape)]
    (SUB l.95); the shapes have the same length here. *)
Definition differs (g w : list Z) : list bool :=
  map (fun p => negb (fst p =? snd p)) (combine g w).

(** [any(axis < 0 or axis >= rank for axis in shard_axes)] (SUB l.114). *)
Definition bad_axis (rank : nat) (a : Z) : bool := (a <? 0) || (Z.of_nat rank <=? a).

(** [choose_chunk_shape] (SUB l.51-217).  [itemsize] is
    [dtype.itemsize]; logging is omitted. *)
Definition choose_chunk_shape (global_shape write_shape : list Z) (itemsize : Z)
    (target_byte_size : option Z) (shard_axes : list Z) : result (list Z) :=
  if negb (Nat.eqb (List.length global_shape) (List.length write_shape))
  then Err ValueError
  else
    let ws := map (fun d => Z.max 1 d) write_shape in
    match target_byte_size, shard_axes with
    | None, [] => Ok ws
    | _, _ =>
        let st0 := mk_cstate (map (fun s => rev (find_divisors s)) ws)
                             (prod ws) (differs global_shape ws) in
        if existsb (bad_axis (List.length ws)) shard_axes then Err ValueError
        else
          let axes := map Z.to_nat shard_axes in
          rbind (exhaust_axes axes st0) (fun st1 =>
          match target_byte_size with
          | None => Ok (shape_of st1)
          | Some t =>
              if t <? itemsize then Err ValueError
              else if itemsize =? 0 then Err ZeroDivisionError
              else
                let tgt := t / itemsize in
                rbind (rr_outer (budget st1) axes tgt st1) (fun st2 =>
                rbind (target_loop (budget st2) tgt st2) (fun st3 =>
                Ok (shape_of st3)))
          end)
    end.
