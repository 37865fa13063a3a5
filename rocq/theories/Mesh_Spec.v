(** Vocabulary of the statements about meshes: indices of arrays and hardware. *)
From Coq Require Import List Bool Arith ZArith.
From Verif Require Import Base Mesh_Model.
Import ListNotations.

(** An index of an array: one number below the size for each axis. *)
Definition index_of (s idx : list nat) : Prop := Forall2 lt idx s.

(** The place of the element with this index when the last axis runs fastest. *)
Fixpoint place (s idx : list nat) : nat :=
  match s, idx with
  | _ :: rest, i :: is => i * fold_right Nat.mul 1 rest + place rest is
  | _, _ => 0
  end.

(** The mesh has the device at the index. *)
Definition has_at (m : mesh) (idx : list nat) (d : device) : Prop :=
  index_of (shape m) idx /\ nth_error (devices m) (place (shape m) idx) = Some d.

(** A mesh with as many devices as its shape says, at least one on each axis. *)
Definition proper (m : mesh) : Prop :=
  length (devices m) = fold_right Nat.mul 1 (shape m) /\ Forall (lt 0) (shape m).

(** The device is in the replica [r]: the index along the axis is [r]. *)
Definition in_slice (m : mesh) (axis r : nat) (d : device) : Prop :=
  exists idx, has_at m idx d /\ nth_error idx axis = Some r.

(** The process has a device in the replica. *)
Definition process_in (m : mesh) (axis r p : nat) : Prop := exists d, in_slice m axis r d /\ process d = p.

(** The two tables describe the same hardware: in the same row and column are ids of the
    same device, before ([hw_before]) and after ([hw_now]) the restart. *)
Definition same_hardware {H : Type} (hw_before hw_now : Z -> H) (previous current : list (list Z)) : Prop :=
  forall i j p c ps cs, nth_error previous i = Some ps -> nth_error ps j = Some p ->
    nth_error current i = Some cs -> nth_error cs j = Some c -> hw_before p = hw_now c.

(** The table has the id. *)
Definition listed (t : list (list Z)) (p : Z) : Prop := exists ps, In ps t /\ In p ps.

(** Each entry of the first table has a counterpart in the second. *)
Definition covers (current previous : list (list Z)) : Prop :=
  forall i ps, nth_error previous i = Some ps -> ps <> [] ->
    exists cs, nth_error current i = Some cs /\ length ps <= length cs.
