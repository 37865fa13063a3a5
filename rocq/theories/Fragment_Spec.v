(** Independent vocabulary for C23 and C24: an index as the set of coordinates it
    selects, a fragment as a partial function on global coordinates. *)
From Coq Require Import ZArith List.
From Verif Require Import Base Nd_Model Fragment_Model.
Import ListNotations.
Local Open Scope Z_scope.

(** Position [x] is one of start, start+step, ... below stop. *)
Definition selects (s : sl) (x : Z) : Prop :=
  exists k, 0 <= k /\ x = sl_start s + k * sl_step s /\ x < sl_stop s.

(** The coordinate [c] is selected by the index. *)
Definition covers (idx : list sl) (c : list Z) : Prop := Forall2 selects idx c.

(** Coordinates of an array of the given shape. *)
Definition inside (shape c : list Z) : Prop := Forall2 (fun n x => 0 <= x < n) shape c.

(** The global coordinate of the element at position [ks] of the selection. *)
Fixpoint point (idx : list sl) (ks : list Z) : list Z :=
  match idx, ks with
  | s :: idx', k :: ks' => sl_start s + k * sl_step s :: point idx' ks'
  | _, _ => []
  end.

(** A global coordinate as seen from the start of an index. *)
Fixpoint relative (idx : list sl) (c : list Z) : list Z :=
  match idx, c with
  | s :: idx', x :: c' => x - sl_start s :: relative idx' c'
  | _, _ => []
  end.

(** Number of positions selected in one dimension. *)
Definition extent (s : sl) : Z := (sl_stop s - sl_start s + (sl_step s - 1)) / sl_step s.

(** The index lies inside an array of the given shape. *)
Definition within (shape : list Z) (idx : list sl) : Prop :=
  Forall2 (fun n s => 0 <= sl_start s /\ sl_start s <= sl_stop s /\ sl_stop s <= n /\ 1 <= sl_step s) shape idx.

Definition unit_steps (idx : list sl) : Prop := Forall (fun s => sl_step s = 1) idx.

Section Spec.
Variable V : Type.

(** The fragment has the value [v] for global coordinate [c]. *)
Definition holds (f : frag V) (c : list Z) (v : V) : Prop :=
  exists a ks, f_value f = Some a /\ inside (ashape a) ks /\ point (f_index f) ks = c /\ aget a ks = v.

(** Fragments as the library makes them: positive steps, no negative length,
    and a value of the shape of the index. *)
Definition well_formed (f : frag V) : Prop :=
  Forall (fun s => 1 <= sl_step s /\ sl_start s <= sl_stop s) (f_index f) /\
  (forall a, f_value f = Some a -> ashape a = map extent (f_index f)).

Definition concrete (f : frag V) : Prop := f_value f <> None.

(** The fragment lies inside the global shape. *)
Definition fits (shape : list Z) (f : frag V) : Prop :=
  Forall2 (fun n s => 0 <= sl_start s /\ sl_stop s <= n) shape (f_index f).

(** Two fragments have no coordinate in common. *)
Definition disjoint (f g : frag V) : Prop :=
  forall c, ~ (covers (f_index f) c /\ covers (f_index g) c).

(** [v] is the value at [c] of the last fragment of the list that has [c]. *)
Inductive last_holds : list (frag V) -> list Z -> V -> Prop :=
| LH_here : forall f r c v, holds f c v ->
    (forall g, In g r -> ~ covers (f_index g) c) -> last_holds (f :: r) c v
| LH_later : forall f r c v, last_holds r c v -> last_holds (f :: r) c v.

(** [ps] is the fragment [f] cut into pieces of shape [ts]: the pieces partition
    its coordinates and keep its values. *)
Definition chunked (f : frag V) (ts : list Z) (ps : list (frag V)) : Prop :=
  (forall p, In p ps -> well_formed p /\ unit_steps (f_index p) /\ map extent (f_index p) = ts /\ (concrete p <-> concrete f)) /\
  (forall c, covers (f_index f) c <-> exists p, In p ps /\ covers (f_index p) c) /\
  ForallOrdPairs disjoint ps /\
  (forall p c v, In p ps -> (holds p c v <-> holds f c v /\ covers (f_index p) c)).
End Spec.
Arguments chunked {V}.
Arguments holds {V}. Arguments well_formed {V}. Arguments concrete {V}. Arguments fits {V}.
Arguments disjoint {V}. Arguments last_holds {V}.
