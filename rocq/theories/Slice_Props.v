(** C25: normal forms of N-dimensional slices select the same elements. *)
From Coq Require Import ZArith List Lia.
From Verif Require Import Base Nd_Model Slice_Model Slice_Spec Slice_Proofs.
Import ListNotations.
Local Open Scope Z_scope.

Definition ps := mk_ps.
(** a[-3:, ::2, :9] *)
Definition ex_slice : ndslice :=
  NTuple [ISlice (ps (Some (-3)) None None); ISlice (ps None None (Some 2)); ISlice (ps None (Some 9) None)].
Definition ex_shape : list Z := [5; 4; 6; 7].

Lemma ex_slice_ok : only_slices ex_slice /\ pos_steps ex_slice /\ Forall (fun n => 0 <= n) ex_shape /\
  (List.length (items ex_slice) <= List.length ex_shape)%nat.
Proof.
  split; [|split; [|split]].
  - repeat constructor; eauto.
  - repeat constructor; unfold pos_step; simpl; auto; lia.
  - repeat constructor; lia.
  - simpl; lia.
Qed.

(** resolve_slice: every element of [a[xs]] stays where it is, and each resulting
    slice consists of three integers within the bounds of the dimension. *)
Theorem C25_resolve : forall xs shape, only_slices xs -> pos_steps xs -> Forall (fun n => 0 <= n) shape ->
  (List.length (items xs) <= List.length shape)%nat ->
  exists ys, resolve_slice xs shape = Ok ys /\ List.length ys = List.length (items xs) /\
    Forall (fun p => exists a b k, fst p = mk_ps (Some a) (Some b) (Some k) /\ 0 <= a <= snd p /\ 0 <= b <= snd p /\ 0 < k)
           (combine ys shape) /\
    forall ks c, reads (items xs) shape ks c <-> reads (map ISlice ys) shape ks c.
Proof. exact resolve_reads. Qed.
Print Assumptions C25_resolve.

Example C25_resolve_ex : resolve_slice ex_slice ex_shape =
  Ok [ps (Some 2) (Some 5) (Some 1); ps (Some 0) (Some 4) (Some 2); ps (Some 0) (Some 6) (Some 1)] /\
  reads (items ex_slice) ex_shape [1; 1; 5; 6] [3; 2; 5; 6].
Proof.
  split; [reflexivity|]. simpl.
  repeat (apply R_slice; [split; [lia|left; vm_compute; repeat split; discriminate || reflexivity]|]).
  apply R_rest. repeat constructor; lia.
Qed.

(** With integers counted from the front in the tuple: the same coordinates are
    selected (the dimension is kept, with length one). *)
Theorem C25_resolve_integers : forall xs shape, pos_steps xs -> front_ints xs shape -> Forall (fun n => 0 <= n) shape ->
  (List.length (items xs) <= List.length shape)%nat ->
  exists ys, resolve_slice xs shape = Ok ys /\ Forall no_none ys /\ List.length ys = List.length (items xs) /\
    forall c, selected (items xs) shape c <-> selected (map ISlice ys) shape c.
Proof. exact resolve_selected. Qed.
Print Assumptions C25_resolve_integers.

Example C25_resolve_integers_ex :
  resolve_slice (NTuple [IInt 3; ISlice (ps None (Some (-1)) None)]) [5; 4] =
    Ok [ps (Some 3) (Some 4) (Some 1); ps (Some 0) (Some 3) (Some 1)] /\
  front_ints (NTuple [IInt 3; ISlice (ps None (Some (-1)) None)]) [5; 4].
Proof. split; [reflexivity|]. repeat constructor; simpl; lia. Qed.

(** Resolving a second time changes nothing. *)
Theorem C25_resolve_idempotent : forall xs shape ys, only_slices xs -> pos_steps xs -> Forall (fun n => 0 <= n) shape ->
  (List.length (items xs) <= List.length shape)%nat ->
  resolve_slice xs shape = Ok ys -> resolve_slice (NTuple (map ISlice ys)) shape = Ok ys.
Proof. exact resolve_idem. Qed.
Print Assumptions C25_resolve_idempotent.

(** dissolve_slice: the same elements; no zero start, no stop at the end of the
    dimension, no step of one is left; without preserve_rank the last slice is not
    a full one. *)
Theorem C25_dissolve : forall l shape preserve_rank, only_slices (NTuple l) -> pos_steps (NTuple l) ->
  Forall (fun n => 0 <= n) shape -> (List.length l <= List.length shape)%nat ->
  exists zs, dissolve_slice (NTuple l) shape preserve_rank =
               Ok (match zs with [] => NEllipsis | _ => NTuple (map ISlice zs) end) /\
    (List.length zs <= List.length l)%nat /\ (preserve_rank = true -> List.length zs = List.length l) /\
    (preserve_rank = false -> zs = [] \/ last zs (mk_ps (Some 0) None None) <> mk_ps None None None) /\
    Forall (fun p => no_redundant (fst p) (snd p)) (combine zs shape) /\
    forall ks c, reads l shape ks c <-> reads (map ISlice zs) shape ks c.
Proof. exact dissolve_reads. Qed.
Print Assumptions C25_dissolve.

Example C25_dissolve_ex :
  dissolve_slice (NTuple [ISlice (ps (Some 0) (Some 5) (Some 1)); ISlice (ps (Some 1) (Some 4) (Some 2)); ISlice (ps (Some 0) (Some 6) (Some 1))])
    ex_shape false = Ok (NTuple [ISlice (ps None None None); ISlice (ps (Some 1) None (Some 2))]) /\
  dissolve_slice (NTuple [ISlice (ps (Some 0) (Some 5) (Some 1))]) [5] false = Ok NEllipsis.
Proof. split; reflexivity. Qed.

(** Resolve undoes dissolve. *)
Theorem C25_resolve_undoes_dissolve : forall xs shape ys zs, only_slices xs -> pos_steps xs -> Forall (fun n => 0 <= n) shape ->
  (List.length (items xs) <= List.length shape)%nat ->
  resolve_slice xs shape = Ok ys -> dissolve_slice (NTuple (map ISlice ys)) shape true = Ok zs ->
  resolve_slice zs shape = Ok ys.
Proof. exact resolve_dissolve. Qed.
Print Assumptions C25_resolve_undoes_dissolve.

Example C25_resolve_undoes_dissolve_ex :
  rbind (dissolve_slice (NTuple (map ISlice [ps (Some 2) (Some 5) (Some 1); ps (Some 0) (Some 4) (Some 2)])) ex_shape true)
        (fun z => resolve_slice z ex_shape) = Ok [ps (Some 2) (Some 5) (Some 1); ps (Some 0) (Some 4) (Some 2)].
Proof. reflexivity. Qed.

(** normalize_slice, steps of any sign: bounds of at least -dim become
    non-negative ones selecting the same. *)
Theorem C25_normalize : forall xs shape,
  (List.length xs <= List.length shape)%nat ->
  Forall (fun p => exists a b k, fst p = mk_ps (Some a) (Some b) (Some k) /\ - snd p <= a /\ - snd p <= b) (combine xs shape) ->
  exists ys, normalize_slice xs shape = Ok ys /\ List.length ys = List.length xs /\
    Forall (fun s => exists a b k, s = mk_ps (Some a) (Some b) (Some k) /\ 0 <= a /\ 0 <= b) ys /\
    forall ks c, reads (map ISlice xs) shape ks c <-> reads (map ISlice ys) shape ks c.
Proof. exact normalize_reads. Qed.
Print Assumptions C25_normalize.

Example C25_normalize_ex :
  normalize_slice [ps (Some (-3)) (Some (-1)) (Some 1); ps (Some 3) (Some (-4)) (Some (-1))] [5; 4] =
  Ok [ps (Some 2) (Some 4) (Some 1); ps (Some 3) (Some 0) (Some (-1))].
Proof. reflexivity. Qed.

(** The normalize of fragments.py. *)
Theorem C25_fragments_normalize : forall xs shape, (List.length xs <= List.length shape)%nat -> Forall (fun n => 0 <= n) shape ->
  Forall pos_step xs -> Forall no_none (fill_none xs shape) /\
  forall ks c, reads (map ISlice xs) shape ks c <-> reads (map ISlice (fill_none xs shape)) shape ks c.
Proof. exact fill_none_reads. Qed.
Print Assumptions C25_fragments_normalize.

Example C25_fragments_normalize_ex :
  fill_none [ps None (Some 3) None; ps (Some 1) None (Some 2)] [5; 4] = [ps (Some 0) (Some 3) (Some 1); ps (Some 1) (Some 4) (Some 2)] /\
  Forall pos_step [ps None (Some 3) None; ps (Some 1) None (Some 2)].
Proof. split; [reflexivity|]. repeat constructor; unfold pos_step; simpl; auto; lia. Qed.

(** Hashable keys: taking the key of a slice against a non-empty shape never
    fails, and turning the key back gives the resolved slice. *)
Theorem C25_hashable : forall xs n shape, only_slices xs -> pos_steps xs -> Forall (fun n => 0 <= n) (n :: shape) ->
  (List.length (items xs) <= List.length (n :: shape))%nat ->
  exists t, to_hashable_index xs (Some (n :: shape)) = Ok t /\
    resolve_slice xs (n :: shape) = Ok (from_hashable_index t) /\
    forall ks c, reads (items xs) (n :: shape) ks c <-> reads (map ISlice (from_hashable_index t)) (n :: shape) ks c.
Proof. exact hashable_spec. Qed.
Print Assumptions C25_hashable.

(** And every key with non-zero steps is the key of what it turns into. *)
Theorem C25_hashable_back : forall t, Forall (fun x => snd x <> 0) t ->
  to_hashable_index (NTuple (map ISlice (from_hashable_index t))) None = Ok t.
Proof. exact from_to_hashable. Qed.
Print Assumptions C25_hashable_back.

Example C25_hashable_ex :
  to_hashable_index ex_slice (Some ex_shape) = Ok [(2, 5, 1); (0, 4, 2); (0, 6, 1)] /\
  to_hashable_index (NTuple (map ISlice (from_hashable_index [(2, 5, 1); (0, 4, 2)]))) None = Ok [(2, 5, 1); (0, 4, 2)].
Proof. split; reflexivity. Qed.

(** Two contiguous non-empty resolved indices that select the same coordinates
    are equal, hence have the same key: de-duplicating by key is exact. *)
Theorem C25_canonical : forall ys zs shape,
  List.length ys = List.length shape -> List.length zs = List.length shape ->
  Forall (fun p => exists a b, fst p = mk_ps (Some a) (Some b) (Some 1) /\ 0 <= a < b /\ b <= snd p) (combine ys shape) ->
  Forall (fun p => exists a b, fst p = mk_ps (Some a) (Some b) (Some 1) /\ 0 <= a < b /\ b <= snd p) (combine zs shape) ->
  (forall c, selected (map ISlice ys) shape c <-> selected (map ISlice zs) shape c) -> ys = zs.
Proof. exact canonical_list. Qed.
Print Assumptions C25_canonical.

Example C25_canonical_ex :
  Forall (fun p => exists a b, fst p = mk_ps (Some a) (Some b) (Some 1) /\ 0 <= a < b /\ b <= snd p)
    (combine [ps (Some 2) (Some 5) (Some 1); ps (Some 0) (Some 4) (Some 1)] [5; 4]).
Proof. repeat constructor; [exists 2, 5|exists 0, 4]; simpl; repeat split; lia. Qed.

(** slice_shape is the shape of [a[xs]], for resolved slices that do not end
    before they start. *)
Theorem C25_shape : forall ys shape, List.length ys = List.length shape ->
  Forall (fun p => exists a b k, fst p = mk_ps (Some a) (Some b) (Some k) /\ 0 <= a <= b /\ b <= snd p /\ 0 < k) (combine ys shape) ->
  exists out, ps_shape ys = Ok out /\
    forall ks, (exists c, reads (map ISlice ys) shape ks c) <-> Forall2 (fun n x => 0 <= x < n) out ks.
Proof. exact shape_reads. Qed.
Print Assumptions C25_shape.

Example C25_shape_ex : ps_shape [ps (Some 2) (Some 5) (Some 2); ps (Some 1) (Some 1) (Some 1)] = Ok [2; 0].
Proof. reflexivity. Qed.

(** An integer counted from the end is resolved to a slice that selects nothing:
    [-1] becomes [-1:0:1]. *)
Theorem C25_negative_integer_refuted : exists i n ys, resolve_slice (NTuple [IInt i]) [n] = Ok ys /\
  (exists c, selected [IInt i] [n] c) /\ ~ (exists c, selected (map ISlice ys) [n] c).
Proof.
  exists (-1), 5. eexists. split; [reflexivity|]. split.
  - exists [4], []. apply (R_int (-1) [] 5 [] [] []); [lia|]. apply R_rest. constructor.
  - intros (c & ks & R). simpl in R. apply reads_slice in R as (n & sh & k & ks' & x & c' & E & -> & -> & (A & B) & _).
    injection E as <- <-. cbn [ps_start ps_stop ps_step conc] in B.
    change (place 5 0 5 (-1)) with 4 in B. change (place 5 0 5 0) with 0 in B. lia.
Qed.
Print Assumptions C25_negative_integer_refuted.

(** With a negative step the resolved slice can select something else: [::-1]
    against length 5 becomes [4:-1:-1], which selects nothing. *)
Theorem C25_negative_step_resolve_refuted : exists s n ys, resolve_slice (NTuple [ISlice s]) [n] = Ok ys /\
  (exists c, selected [ISlice s] [n] c) /\ ~ (exists c, selected (map ISlice ys) [n] c).
Proof.
  exists (ps None None (Some (-1))), 5. eexists. split; [reflexivity|]. split.
  - exists [4], [0]. apply R_slice; [|apply R_rest; constructor]. unfold kth; simpl. lia.
  - intros (c & ks & R). simpl in R. apply reads_slice in R as (n & sh & k & ks' & x & c' & E & -> & -> & (A & B) & _).
    injection E as <- <-. cbn [ps_start ps_stop ps_step conc] in B.
    change (place 5 (-1) (5 - 1) 4) with 4 in B. change (place 5 (-1) (5 - 1) (-1)) with 4 in B. lia.
Qed.
Print Assumptions C25_negative_step_resolve_refuted.

(** dissolve_slice drops a start of zero also for a negative step: [0::-1] is one
    element, its result [::-1] the whole sequence reversed. *)
Theorem C25_negative_step_dissolve_refuted : exists s n zs, dissolve_slice (NTuple [ISlice s]) [n] true = Ok (NTuple zs) /\
  exists c, selected zs [n] c /\ ~ selected [ISlice s] [n] c.
Proof.
  exists (ps (Some 0) None (Some (-1))), 5. eexists. split; [reflexivity|]. exists [4]. split.
  - exists [0]. apply R_slice; [|apply R_rest; constructor]. unfold kth; simpl. lia.
  - intros (ks & R). apply reads_slice in R as (n & sh & k & ks' & x & c' & E & -> & E2 & (A & B) & _).
    injection E as <- <-. injection E2 as <- <-. cbn [ps_start ps_stop ps_step ps] in B.
    change (place 5 (-1) (5 - 1) 0) with 0 in B. lia.
Qed.
Print Assumptions C25_negative_step_dissolve_refuted.

(** An empty slice given backwards stays backwards when resolved, and slice_shape
    then reports a negative dimension. *)
Theorem C25_negative_shape_refuted : exists s n ys out, resolve_slice (NTuple [ISlice s]) [n] = Ok ys /\
  pos_step s /\ ps_shape ys = Ok out /\ exists d, In d out /\ d < 0.
Proof.
  exists (ps (Some 3) (Some 1) None), 5. eexists. eexists. split; [reflexivity|]. split; [exact I|].
  split; [reflexivity|]. exists (-2). split; [left; reflexivity|lia].
Qed.
Print Assumptions C25_negative_shape_refuted.

(** Keys are not canonical once steps are involved: [0:2:5] and [0:1:1] select the
    same elements of a sequence of length 5 under different keys. *)
Theorem C25_key_refuted : exists s t n k1 k2, 
  (forall c, selected [ISlice s] [n] c <-> selected [ISlice t] [n] c) /\
  to_hashable_index (NTuple [ISlice s]) (Some [n]) = Ok k1 /\
  to_hashable_index (NTuple [ISlice t]) (Some [n]) = Ok k2 /\ k1 <> k2.
Proof.
  exists (ps (Some 0) (Some 2) (Some 5)), (ps (Some 0) (Some 1) (Some 1)), 5. eexists. eexists.
  split; [|split; [reflexivity|split; [reflexivity|discriminate]]].
  assert (K : forall k x, kth (ps (Some 0) (Some 2) (Some 5)) 5 k x <-> kth (ps (Some 0) (Some 1) (Some 1)) 5 k x).
  { intros k x. unfold kth, ps. cbn [ps_start ps_stop ps_step].
    change (place 5 0 5 0) with 0. change (place 5 0 5 2) with 2. change (place 5 0 5 1) with 1. lia. }
  intros c. split; intros (ks & R); exists ks; apply reads_slice in R as (n & sh & k & ks' & x & c' & E & -> & -> & A & B);
    injection E as <- <-; apply R_slice; auto; apply K; auto.
Qed.
Print Assumptions C25_key_refuted.

(** Without a shape, slices with integer bounds are turned into triples that select
    the same (a missing step being one); a slice without a bound is refused. *)
Theorem C25_hashable_concrete : forall l,
  (Forall (fun s => ps_start s <> None /\ ps_stop s <> None /\ ps_step s <> Some 0) l ->
   exists t, to_hashable_index (NTuple (map ISlice l)) None = Ok t /\
     forall shape ks c, reads (map ISlice l) shape ks c <-> reads (map ISlice (from_hashable_index t)) shape ks c) /\
  (forall s, In s l -> ps_start s = None \/ ps_stop s = None -> to_hashable_index (NTuple (map ISlice l)) None = Err ValueError).
Proof. intros l. exact (conj (concrete_reads l) (not_concrete l)). Qed.
Print Assumptions C25_hashable_concrete.

Example C25_hashable_concrete_ex :
  to_hashable_index (NTuple (map ISlice [ps (Some 2) (Some 5) None; ps (Some 0) (Some (-1)) (Some 2)])) None = Ok [(2, 5, 1); (0, -1, 2)] /\
  to_hashable_index (NTuple (map ISlice [ps (Some 2) (Some 5) None; ps (Some 0) None None])) None = Err ValueError.
Proof. split; reflexivity. Qed.
