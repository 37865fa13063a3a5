(** C22: the chosen chunk shape always tiles the shard. *)
From Coq Require Import ZArith List Lia.
From Verif Require Import Base Chunk_Model Chunk_Spec Chunk_Proofs.
Import ListNotations.
Local Open Scope Z_scope.

(** Same rank, every dimension at least one and an exact divisor of the shard's. *)
Theorem C22_tiles : forall g w itemsize target axes c, 0 < itemsize ->
  choose_chunk_shape g w itemsize target axes = Ok c -> tiles c w.
Proof. exact choose_tiles. Qed.
Print Assumptions C22_tiles.

Example C22_tiles_ex :
  choose_chunk_shape [64; 12; 0] [16; 12; 0] 4 (Some 100) [] = Ok [2; 12; 1] /\ 0 < 4.
Proof. split; [vm_compute|]; reflexivity. Qed.

(** With a byte target the chunk fits into it. *)
Theorem C22_target : forall g w itemsize t axes c, 0 < itemsize ->
  choose_chunk_shape g w itemsize (Some t) axes = Ok c -> volume c * itemsize <= t.
Proof. exact choose_target. Qed.
Print Assumptions C22_target.

Example C22_target_ex :
  choose_chunk_shape [100; 90] [100; 90] 8 (Some 1000) [] = Ok [10; 10] /\ volume [10; 10] * 8 <= 1000.
Proof. split; [vm_compute; reflexivity|vm_compute; discriminate]. Qed.

(** Exactly the malformed requests are refused, always with ValueError; in
    particular the search always terminates. *)
Theorem C22_accepts : forall g w itemsize target axes, 0 < itemsize ->
  ((exists c, choose_chunk_shape g w itemsize target axes = Ok c) <-> acceptable g w itemsize target axes) /\
  (~ acceptable g w itemsize target axes ->
   choose_chunk_shape g w itemsize target axes = Err ValueError).
Proof. exact accept_iff. Qed.
Print Assumptions C22_accepts.

Example C22_accepts_ex :
  choose_chunk_shape [4; 4] [4; 4] 4 (Some 4) [1] = Ok [1; 1] /\
  choose_chunk_shape [4; 4] [4; 4] 4 (Some 3) [1] = Err ValueError /\
  choose_chunk_shape [4; 4] [4; 4] 4 None [-1] = Err ValueError /\
  choose_chunk_shape [4; 4] [4; 4] 4 None [2] = Err ValueError /\
  choose_chunk_shape [4] [4; 4] 4 None [] = Err ValueError.
Proof. repeat split; vm_compute; reflexivity. Qed.

(** Every requested axis ends up at size one ... *)
Theorem C22_axes : forall g w itemsize target axes c i, 0 < itemsize ->
  choose_chunk_shape g w itemsize target axes = Ok c -> named axes i -> dim c i = 1.
Proof. exact choose_axes. Qed.
Print Assumptions C22_axes.

Example C22_axes_ex :
  choose_chunk_shape [8; 6; 4] [8; 6; 4] 4 None [2; 0] = Ok [1; 6; 1] /\ named [2; 0] 0.
Proof. split; [vm_compute; reflexivity|right; left; reflexivity]. Qed.

(** ... and without a byte target the others are left alone. *)
Theorem C22_rest : forall g w itemsize axes c i, 0 < itemsize ->
  choose_chunk_shape g w itemsize None axes = Ok c -> (i < List.length w)%nat -> ~ named axes i ->
  dim c i = Z.max 1 (dim w i).
Proof. exact choose_rest_none. Qed.
Print Assumptions C22_rest.

Example C22_rest_ex :
  choose_chunk_shape [8; 6; 0] [8; 6; 0] 4 None [0] = Ok [1; 6; 1] /\ ~ named [0] 1.
Proof. split; [vm_compute; reflexivity|]. intros [H|[]]; discriminate. Qed.

(** A dimension that was neither requested nor already sharded is split only
    when every dimension that is already sharded has been split completely. *)
Theorem C22_priority : forall g w itemsize t axes c i j, 0 < itemsize ->
  choose_chunk_shape g w itemsize (Some t) axes = Ok c ->
  (i < List.length w)%nat -> (j < List.length w)%nat ->
  ~ named axes i -> dim g i = Z.max 1 (dim w i) -> dim c i <> Z.max 1 (dim w i) ->
  dim g j <> Z.max 1 (dim w j) -> dim c j = 1.
Proof. exact choose_priority. Qed.
Print Assumptions C22_priority.

Example C22_priority_ex :
  choose_chunk_shape [16; 9] [4; 9] 4 (Some 12) [] = Ok [1; 3].
Proof. vm_compute; reflexivity. Qed.

(** Nothing is split beyond need: either no dimension was split apart from the
    requested ones, or undoing the last split (going back to the next larger
    divisor) would exceed the target. *)
Theorem C22_needed : forall g w itemsize t axes c, 0 < itemsize ->
  choose_chunk_shape g w itemsize (Some t) axes = Ok c ->
  (forall i, (i < List.length w)%nat -> ~ named axes i -> dim c i = Z.max 1 (dim w i)) \/
  (exists i e, (i < List.length w)%nat /\ next_size (Z.max 1 (dim w i)) (dim c i) e /\
     volume (with_dim c i e) * itemsize > t).
Proof. exact choose_tight. Qed.
Print Assumptions C22_needed.

Example C22_needed_ex :
  choose_chunk_shape [12; 10] [12; 10] 1 (Some 37) [] = Ok [6; 5] /\
  volume (with_dim [6; 5] 1 10) * 1 > 37.
Proof. split; vm_compute; reflexivity. Qed.

(** For one-dimensional arrays the choice is the largest divisor that fits. *)
Theorem C22_one_dimension : forall g w itemsize t c e, 0 < itemsize ->
  choose_chunk_shape [g] [w] itemsize (Some t) [] = Ok [c] ->
  1 <= e -> (e | Z.max 1 w) -> e * itemsize <= t -> e <= c.
Proof. exact choose_one_dim. Qed.
Print Assumptions C22_one_dimension.

Example C22_one_dimension_ex : choose_chunk_shape [360] [360] 4 (Some 200) [] = Ok [45].
Proof. vm_compute; reflexivity. Qed.

(** The documentation says the chunk is "otherwise as large as possible"; in
    more than one dimension the greedy search misses larger ones. *)
Theorem C22_largest_refuted : exists g w itemsize t c c',
  0 < itemsize /\ choose_chunk_shape g w itemsize (Some t) [] = Ok c /\
  tiles c' w /\ volume c' * itemsize <= t /\ volume c < volume c'.
Proof.
  exists [5; 4], [5; 4], 1, 10, [1; 4], [5; 2].
  split; [lia|]. split; [vm_compute; reflexivity|]. split.
  - split; [reflexivity|]. intros [|[|i]] Hi; simpl in Hi; try lia; unfold dim; simpl;
      (split; [lia|]); [exists 1|exists 2]; reflexivity.
  - split; vm_compute; [discriminate|reflexivity].
Qed.
Print Assumptions C22_largest_refuted.

(** The documentation says a requested axis is "sharded at least once"; in fact
    it is always cut into single rows, even when the whole shard already fits
    the byte target, so that a megabyte vector is stored as single elements. *)
Theorem C22_axis_once_refuted : exists g w itemsize t axes c,
  0 < itemsize /\ volume w * itemsize <= t /\
  choose_chunk_shape g w itemsize (Some t) axes = Ok c /\ 1000 < volume w /\ volume c = 1.
Proof.
  exists [4096], [4096], 4, 1048576, [0], [1].
  split; [lia|]. split; [vm_compute; discriminate|]. split; [vm_compute; reflexivity|].
  split; vm_compute; reflexivity.
Qed.
Print Assumptions C22_axis_once_refuted.
