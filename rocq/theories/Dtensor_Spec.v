(** What is meant by the properties of the conversion to DTensors. *)
From Coq Require Import List Bool Arith String.
From Verif Require Import Base Dtensor_Model.
Import ListNotations.
Local Open Scope string_scope.
Local Open Scope list_scope.
Local Open Scope nat_scope.

(** The size of an axis: the first of the name *)
Definition size_is (m : dmesh) (a : string) (k : nat) : Prop := exists l r, m = l ++ (a, k) :: r /\ ~ In a (map fst l).

(** The axes that shard a dimension *)
Definition axes (e : elem) : list string := match e with ENone | EBad => [] | EName a => if String.eqb a "" then [] else [a] | ETuple l => l end.

(** The axes of the element at a dimension; there are none beyond the end *)
Definition axes_at (spec : option (list elem)) (i : nat) : list string := match spec with None => [] | Some s => axes (nth i s ENone) end.

(** The axis of the layout at a dimension *)
Definition layout_at (l : list (option string)) (i : nat) : list string := match nth i l None with None => [] | Some a => [a] end.

(** Into how many parts axes of sizes [size] cut a dimension *)
Definition parts (size : string -> nat) (l : list string) : nat := fold_left (fun acc a => acc * size a) l 1.

(** Which part a device holds that is at [at_] on each axis: the first axis counts most *)
Definition part (size at_ : string -> nat) (l : list string) : nat := fold_left (fun acc a => acc * size a + at_ a) l 0.

(** Two of the axes have other sizes than 1 *)
Definition product_sharded (size : string -> nat) (l : list string) : Prop := exists x a y b z, l = x ++ a :: y ++ b :: z /\ size a <> 1 /\ size b <> 1.

(** Sizes as a mesh gives them *)
Definition sizes_of (m : dmesh) (size : string -> nat) : Prop := forall a k, size_is m a k -> size a = k.

(** What code sees of the current mesh, and whether it ends with an exception and with which flag *)
Fixpoint sees (c : code) (f : bool) (cur : option nat) : list (option nat) * bool * bool :=
  match c with
  | Skip => ([], false, f)
  | Ask => ([cur], false, f)
  | Raise => ([], true, f)
  | Set_ b => ([], false, b)
  | Seq a b => match sees a f cur with
               | (x, true, g) => (x, true, g)
               | (x, false, g) => match sees b g cur with (y, e, h) => (x ++ y, e, h) end
               end
  | With m body => sees body f (match m with Some x => if f then Some x else cur | None => cur end)
  end.
