(** What C68 says, without the helpers of the model. *)
From Coq Require Import List Bool Arith ZArith String Sorted Permutation.
From Verif Require Import Base Tree_Model Safetensors_Model.
Import ListNotations.
Open Scope Z_scope.

(** The number of elements of an array *)
Fixpoint volume (shape : list Z) : Z := match shape with [] => 1 | n :: s => n * volume s end.

(** The place of an element when the elements of an array are one after the other, the last index fastest *)
Fixpoint row_major (shape idx : list Z) : Z :=
  match shape, idx with n :: s, i :: r => i * volume s + row_major s r | _, _ => 0 end.

(** Bounds that cut a part out of an array *)
Definition part_of (bounds : list (Z * Z)) (shape : list Z) : Prop := Forall2 (fun b n => 0 <= fst b /\ fst b <= snd b /\ snd b <= n) bounds shape.

(** An element of a part, by its index in the whole *)
Definition inside (idx : list Z) (bounds : list (Z * Z)) : Prop := Forall2 (fun i b => fst b <= i /\ i < snd b) idx bounds.

(** The shape of a part *)
Definition dims (bounds : list (Z * Z)) : list Z := map (fun b => snd b - fst b) bounds.

(** The index within a part *)
Fixpoint local (idx : list Z) (bounds : list (Z * Z)) : list Z :=
  match idx, bounds with i :: r, b :: bs => (i - fst b) :: local r bs | _, _ => [] end.

(** The addresses of [n] bytes from [a] on *)
Definition span (a n : Z) : list Z := map (fun i => a + Z.of_nat i) (seq 0 (Z.to_nat n)).

(** The addresses of runs, one after the other *)
Definition addresses (runs : list (Z * Z)) : list Z := flat_map (fun r => span (fst r) (snd r)) runs.

(** One run after the other, without a byte in common *)
Definition apart (a b : Z * Z) : Prop := fst a + snd a <= fst b.

(** The run of a number *)
Definition run_at (runs : list (Z * Z)) (i : nat) : Z * Z := nth i runs (0, 0).

(** What the runs of a block need *)
Definition needs (runs : list (Z * Z)) (b : block) : Z := fold_right Z.add 0 (map (fun i => snd (run_at runs i)) (b_members b)).

(** Runs of one length at one distance *)
Definition uniform (base stride len : Z) (n : nat) : list (Z * Z) := map (fun i => (base + Z.of_nat i * stride, len)) (seq 0 n).

(** A byte of a buffer that a read fills *)
Definition fills (r : read) (buf : nat) (p : Z) : Prop := r_buf r = buf /\ r_pos r <= p /\ p < r_pos r + r_len r.

(** Two reads fill no byte both. *)
Definition separate (a b : read) : Prop := forall buf p, fills a buf p -> fills b buf p -> False.

(** A read fits the view that it fills, and is in the file. *)
Definition sound {B : Type} (f : file B) (r : read) : Prop := 0 <= r_len r /\ r_dlen r = r_len r /\ 0 <= r_off r /\ r_off r + r_len r <= f_len f.

(** An entry of a header whose offsets agree with its shape *)
Definition truthful (i : info) : Prop :=
  0 <= i_begin i /\ Forall (fun n => 0 <= n) (i_shape i) /\ forall z, i_size i = Some z -> 0 <= z /\ i_end i = i_begin i + volume (i_shape i) * z.

(** Where a tensor is *)
Definition located {B : Type} (files : list (string * file B)) (name : string) (f : file B) (i : info) : Prop :=
  exists path, In (path, f) files /\ In (name, i) (f_header f).

(** A buffer has a part of a tensor. *)
Definition has_part {B : Type} (m : memory B) (buf : nat) (f : file B) (i : info) (z : Z) (bounds : list (Z * Z)) : Prop :=
  forall idx k, inside idx bounds -> 0 <= k < z ->
  m buf (row_major (dims bounds) (local idx bounds) * z + k) = f_at f (f_start f + i_begin i + row_major (i_shape i) idx * z + k).
