(** Model of the comparison of trees.
    Source: checkpoint/orbax/checkpoint/_src/tree/structure_utils.py ("SU").
    Not modelled: an [is_leaf] argument, custom pytree nodes (SU l.151-182, other than
    [None]), subclasses of list, tuple and Mapping, and [format_tree_diff] (SU l.658-). *)
From Coq Require Import List Bool Arith NArith ZArith String Ascii.
From Verif Require Import Base StepName_Model Tree_Model Parts_Model.
Import ListNotations.

(** A [Diff] (SU l.51-53); in [TypeDiff], [None] stands for the type of a leaf. *)
Inductive report (V : Type) : Type :=
| LeafDiff (lhs rhs : V)
| TypeDiff (lhs rhs : option kind)
| LengthDiff (k : kind) (lhs rhs : nat)
| OnlyLeft (lhs : tree V)
| OnlyRight (rhs : tree V).
Arguments LeafDiff {V} lhs rhs.
Arguments TypeDiff {V} lhs rhs.
Arguments LengthDiff {V} k lhs rhs.
Arguments OnlyLeft {V} lhs.
Arguments OnlyRight {V} rhs.

(** The result (SU l.101-103): [None], a [Diff], or a node with results for children. *)
Inductive diff (V : Type) : Type :=
| NoDiff
| Report (r : report V)
| DiffNode (k : kind) (cs : list (key * diff V)).
Arguments NoDiff {V}.
Arguments Report {V} r.
Arguments DiffNode {V} k cs.

(** [d is None] (SU l.125, l.133) *)
Definition no_diff {V : Type} (d : diff V) : bool := match d with NoDiff => true | _ => false end.

(** SU l.125, l.133: [None] if all elements are [None] *)
Definition sequence_diff {V : Type} (k : kind) (l : list (key * diff V)) : diff V :=
  if forallb (fun x => no_diff (snd x)) l then NoDiff else DiffNode k l.

(** SU l.150: [diffs or None] *)
Definition mapping_diff {V : Type} (l : list (key * diff V)) : diff V :=
  match l with [] => NoDiff | _ => DiffNode KDict l end.

(** SU l.56-182 *)
Fixpoint tree_difference {V : Type} (leaves_equal : V -> V -> bool) (a b : tree V) : diff V :=
  match a, b with
  | Leaf x, Leaf y => if leaves_equal x y then NoDiff else Report (LeafDiff x y)
  | Leaf _, Node l _ => Report (TypeDiff None (Some l))
  | Node k _, Leaf _ => Report (TypeDiff (Some k) None)
  | Node k cs, Node l ds =>
    if negb (kind_eqb k l) then Report (TypeDiff (Some k) (Some l)) else
    let zipped := (fix go (cs ds : list (key * tree V)) : list (key * diff V) :=
      match cs, ds with
      | (x, c) :: cs', (_, d) :: ds' => (x, tree_difference leaves_equal c d) :: go cs' ds'
      | _, _ => []
      end) in
    match k with
    | KNamed _ => sequence_diff k (zipped cs ds)
    | KList | KTuple =>
      if negb (List.length cs =? List.length ds) then Report (LengthDiff k (List.length cs) (List.length ds))
      else sequence_diff k (zipped cs ds)
    | KDict =>
      let common := (fix go (cs : list (key * tree V)) : list (key * diff V) :=
        match cs with
        | [] => []
        | (x, c) :: cs' =>
          match find_item x ds with
          | Some d => let r := tree_difference leaves_equal c d in if no_diff r then go cs' else (x, r) :: go cs'
          | None => go cs'
          end
        end) cs in
      let lacks := fun (l : list (key * tree V)) x => match find_item x l with Some _ => false | None => true end in
      mapping_diff (common ++ map (fun x => (fst x, Report (OnlyLeft (snd x)))) (filter (fun x => lacks ds (fst x)) cs)
                           ++ map (fun x => (fst x, Report (OnlyRight (snd x)))) (filter (fun x => lacks cs (fst x)) ds))
    | KNone => NoDiff
    end
  end.
