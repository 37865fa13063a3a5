(** Claims about the broadcast of one replica to all (C53). *)
From Coq Require Import List Bool Arith ZArith String SpecFloat Lia.
From Verif Require Import Base Broadcast_Model Broadcast_Spec Broadcast_Proofs.
Import ListNotations.
Local Open Scope string_scope.

(** A leaf of that many bytes. *)
Definition leaf (n : nat) : array := mk_array (Int 32) 1 [n] [Axis "data"] [].

(** Two replicas of two places; the second replica has the data. *)
Definition weights : array := mk_array (Int 32) 4 [2] [Axis "data"; NoAxis]
  [[[VInt 7; VInt 7]; [VInt 7; VInt 7]]; [[VInt 1; VInt (-2)]; [VInt 3; VInt 4]]].

Definition second_is_source : list (list bool) := [[false; false]; [true; true]].

(** ** Batches *)

(** The batches are the leaves in their order; none is empty and each is within the limit
    unless it is a single leaf beyond the limit. *)
Theorem C53_batches : forall limit tree, legal limit tree (batches limit tree).
Proof. apply batches_legal. Qed.
Print Assumptions C53_batches.

Example C53_batches_ex : batches 10 (map leaf [4; 6; 1; 20; 0; 3; 8]) = [map leaf [4; 6]; map leaf [1]; map leaf [20]; map leaf [0; 3]; map leaf [8]].
Proof. reflexivity. Qed.

(** There is no other such division into fewer batches. *)
Theorem C53_fewest : forall limit tree p, legal limit tree p -> List.length (batches limit tree) <= List.length p.
Proof. intros limit tree p L. apply (fewest limit p tree); auto. exists []. auto. Qed.
Print Assumptions C53_fewest.

Example C53_fewest_ex : legal 10 (map leaf [4; 6; 1]) [map leaf [4]; map leaf [6; 1]] /\ List.length (batches 10 (map leaf [4; 6; 1])) = 2.
Proof. split; [|reflexivity]. split; [reflexivity|]. repeat constructor; try discriminate; left; vm_compute; discriminate. Qed.

(** Finding: the number of batches depends on the memory of the own host or device (if no
    limit is given).  On hosts with different memory the batches differ, so that the
    processes run different programs on the same devices. *)
Theorem C53_limits_refuted : exists tree memory1 memory2 limit1 limit2,
  limit_or_available None memory1 tree 3 4 = Ok limit1 /\ limit_or_available None memory2 tree 3 4 = Ok limit2 /\
  hd [] (batches limit1 tree) <> hd [] (batches limit2 tree) /\ List.length (batches limit1 tree) <> List.length (batches limit2 tree).
Proof.
  exists (map leaf [8; 8]), 64%Z, 96%Z, 12%Z, 20%Z. split; [reflexivity|]. split; [reflexivity|]. split; vm_compute; discriminate.
Qed.
Print Assumptions C53_limits_refuted.

(** ** Memory *)

(** The estimated limit leaves room for three copies of a batch that is within it. *)
Theorem C53_memory : forall memory tree num den limit b, (0 <= num)%Z -> (0 < den)%Z -> (total tree <= memory)%Z ->
  get_available_memory memory tree num den = Ok limit -> (total b <= limit)%Z -> (total tree + 3 * total b <= memory)%Z.
Proof.
  intros memory tree num den limit b N D U E B. unfold get_available_memory in E. destruct (Z.ltb_spec den num) as [|L]; [discriminate|]. unfold tree_memory_per_device in E. destruct tree as [|x tree]; [discriminate|]. cbn [rbind] in E.
  assert (G : forall l s, Z.of_nat (fold_left (fun s y => s + get_leaf_memory_per_device y) l s) = (Z.of_nat s + total l)%Z).
  { clear. intros l. induction l as [|y l IH]; intros s; cbn [fold_left]; [cbn; lia|]. rewrite IH, Nat2Z.inj_add, bytes_eq, total_cons. lia. }
  rewrite G, bytes_eq, <- total_cons in E. set (used := total (x :: tree)) in *. injection E as <-. unfold MEMORY_FACTOR in B. rewrite Z.quot_div_nonneg in B by nia.
  assert (Q := Z.mul_div_le ((memory - used) * num) (den * 3) ltac:(lia)). set (k := ((memory - used) * num / (den * 3))%Z) in *. nia.
Qed.
Print Assumptions C53_memory.

Example C53_memory_ex : get_available_memory 100 (map leaf [10; 18]) 3 4 = Ok 18%Z /\ (28 + 3 * 18 <= 100)%Z.
Proof. split; [reflexivity|lia]. Qed.

(** Finding: a leaf beyond the limit is broadcast all the same, with a warning only. *)
Theorem C53_oversize_refuted : exists memory tree limit b, get_available_memory memory tree 3 4 = Ok limit /\ In b (batches limit tree) /\ (memory < total tree + 3 * total b)%Z.
Proof. exists 100%Z, (map leaf [60; 1]), 9%Z, (map leaf [60]). split; [reflexivity|]. split; [left; reflexivity|]. vm_compute. reflexivity. Qed.
Print Assumptions C53_oversize_refuted.

(** Finding: if no limit is given, an empty tree is an error; with a limit it is not. *)
Theorem C53_empty_refuted : forall x64 axis sources memory num den limit, (num <= den)%Z ->
  limit_or_available None memory [] num den = Err TypeError /\ broadcast_one_replica_to_all x64 axis sources limit [] = Ok ([], 0).
Proof. intros. split; [|reflexivity]. cbn. unfold get_available_memory. destruct (Z.ltb_spec den num); [lia|reflexivity]. Qed.
Print Assumptions C53_empty_refuted.

(** ** What the replicas receive *)

(** Whatever the limit: all leaves arrive, in their order, in the fewest batches.  At a
    place where one replica is the source, every replica gets the shard of the source (a
    negative zero becomes a positive one), whatever the inputs of the others; where nobody is
    the source they get zeros; the sharding is that of the input. *)
Theorem C53_broadcast : forall x64 axis sources n places limit tree, 0 < n -> flags sources n places -> (forall a, In a tree -> good axis n places a) ->
  exists out k, broadcast_one_replica_to_all x64 axis sources limit tree = Ok (out, k) /\ Forall2 (received sources n places) tree out /\
    k <= List.length tree /\ forall p, legal limit tree p -> k <= List.length p.
Proof.
  intros x64 axis sources n places limit tree NP FL G. unfold broadcast_one_replica_to_all. assert (L := batches_legal limit tree).
  destruct (sequence_concat (fun a => rmap (merge x64 a) (globalize axis sources a)) (received sources n places) (batches limit tree)) as (ms & E & F & LM).
  { rewrite (proj1 L). intros a I. destruct (merge_received x64 axis sources n places a (G a I) FL NP) as (sh & S & R & _). eauto. }
  unfold broadcast_batch. rewrite E. cbn [rmap]. exists (List.concat ms), (List.length ms). rewrite (proj1 L) in F. split; auto. split; auto. rewrite LM. split; [|intros p; apply C53_fewest].
  destruct L as (C & A). rewrite <- C at 2. clear - A. induction A as [|b l (N & _) A IH]; cbn; [lia|]. rewrite app_length. destruct b; [congruence|cbn; lia].
Qed.
Print Assumptions C53_broadcast.

Example C53_broadcast_ex :
  (good "replica" 2 2 weights /\ flags second_is_source 2 2) /\
  broadcast_one_replica_to_all false "replica" second_is_source 100 [weights; weights] =
    Ok (repeat (mk_shared (Int 32) [Axis "data"; NoAxis] [[VInt 1; VInt (-2)]; [VInt 3; VInt 4]]) 2, 1).
Proof.
  split; [|reflexivity]. split.
  - split; [repeat constructor; cbn; intuition discriminate|]. split.
    + split; [reflexivity|]. split; [intros row I; cbn in I; intuition subst; reflexivity|]. intros r q i s t (x & X1 & X2) (y & Y1 & Y2).
      assert (Z : forall row z, In row (inputs weights) -> In z row -> List.length z = 2) by (intros row z I J; cbn in I; intuition subst; cbn in J; intuition subst; reflexivity).
      rewrite (Z x s), (Z y t); eauto using nth_error_In.
    + intros r i s v (x & X1 & X2) I. cbn. apply nth_error_In in X1. apply nth_error_In in X2. cbn in X1. intuition subst; cbn in X2; intuition subst; cbn in I; intuition subst; eauto.
  - split; [reflexivity|]. intros row I. cbn in I. intuition subst; reflexivity.
Qed.

(** The broadcast works exactly if no spec uses the axis of the replicas or an axis twice. *)
Theorem C53_axis : forall x64 axis sources limit tree,
  (exists out, broadcast_one_replica_to_all x64 axis sources limit tree = Ok out) <-> forall a, In a tree -> proper_spec axis (spec a).
Proof.
  intros x64 axis sources limit tree. unfold broadcast_one_replica_to_all. assert (L := batches_legal limit tree). split.
  - intros (out & E). assert (SQ : forall {A B} (f : A -> result B) l m, sequence (map f l) = Ok m -> forall x, In x l -> exists y, f x = Ok y).
    { clear. intros A B f l. induction l as [|x l IH]; intros m E y I; [contradiction|]. cbn [map sequence] in E. destruct (f x) as [z|] eqn:X; [|discriminate]. destruct (sequence (map f l)) as [ms|] eqn:S; [|discriminate]. destruct I as [<-|I]; eauto. }
    intros a I. rewrite <- (proj1 L) in I. apply in_concat in I as (b & B & I). destruct (sequence (map (broadcast_batch x64 axis sources) (batches limit tree))) as [ms|] eqn:S; [|discriminate].
    destruct (SQ _ _ _ _ _ S b B) as (y & Y). destruct (SQ _ _ _ _ _ Y a I) as (z & Z). destruct (globalize axis sources a) as [g|] eqn:GL; [|discriminate]. apply (globalize_ok axis sources a). eauto.
  - intros P. destruct (sequence_concat (fun a => rmap (merge x64 a) (globalize axis sources a)) (fun _ _ => True) (batches limit tree)) as (ms & E & _ & _).
    { rewrite (proj1 L). intros a I. destruct (proj2 (globalize_ok axis sources a) (P a I)) as (g & ->). cbn. eauto. }
    unfold broadcast_batch. rewrite E. cbn. eauto.
Qed.
Print Assumptions C53_axis.

Example C53_axis_ex :
  broadcast_one_replica_to_all false "replica" [[true]] 10 [leaf 3; mk_array (Int 32) 4 [] [Axis "replica"] []] = Err AssertionError /\
  broadcast_one_replica_to_all false "replica" [[true]] 10 [leaf 3; mk_array (Int 32) 4 [] [Axes ["data"; "replica"]] []] = Err ValueError.
Proof. split; reflexivity. Qed.

(** Finding: the assertion that the axis of the replicas is not used looks at single axes
    only; a spec that uses it together with others is refused later with another error. *)
Theorem C53_assertion_refuted : exists axis sources s1 s2, ~ proper_spec axis s1 /\ ~ proper_spec axis s2 /\
  globalize axis sources (mk_array (Int 32) 4 [] s1 []) = Err AssertionError /\ globalize axis sources (mk_array (Int 32) 4 [] s2 []) = Err ValueError.
Proof.
  exists "replica", [], [Axis "replica"], [Axes ["data"; "replica"]].
  split; [intros N; inversion_clear N as [|? ? N1 N2]; apply N1; cbn; auto|]. split; [intros N; inversion_clear N as [|? ? N1 N2]; apply N1; cbn; auto|]. split; reflexivity.
Qed.
Print Assumptions C53_assertion_refuted.

(** ** Dtypes and zeros *)

(** The dtype is kept exactly for floats and the widest integers. *)
Theorem C53_dtype : forall x64 axis sources a sh, broadcast_one_replica_to_all x64 axis sources 0 [a] = Ok ([sh], 1) -> (sh_dt sh = dt a <-> kept x64 (dt a)).
Proof.
  intros x64 axis sources a sh E. unfold broadcast_one_replica_to_all in E.
  assert (B : batches 0 [a] = [[a]]). { unfold batches. cbn [List.length loop next_batch fill]. destruct (Z.ltb_spec 0 (Z.of_nat (get_leaf_memory_per_device a))) as [|L]; auto. destruct (Z.leb_spec (Z.of_nat (0 + get_leaf_memory_per_device a)) 0) as [|L2]; auto. cbn in L2. lia. }
  rewrite B in E. unfold broadcast_batch in E. cbn [map sequence] in E. destruct (globalize axis sources a) as [g|]; [|discriminate]. cbn [rmap sequence map List.concat app List.length] in E. injection E as <-. unfold merge. cbn [sh_dt].
  destruct (dt a) as [|b|b|p e]; cbn [sum_dtype kept]; split; intros H; try discriminate; try contradiction; auto; try (injection H as H); try (f_equal); destruct x64; lia.
Qed.
Print Assumptions C53_dtype.

Example C53_dtype_ex : broadcast_one_replica_to_all false "replica" [[true]; [false]] 0 [mk_array (Float 24 128) 4 [1] [] [[[VFloat S754_nan]]; [[VFloat S754_nan]]]] =
  Ok ([mk_shared (Float 24 128) [] [[VFloat S754_nan]]], 1).
Proof. reflexivity. Qed.

(** Finding: booleans and short integers come back as 32 or 64 bit integers. *)
Theorem C53_dtype_refuted : exists sources a b out1 out2, good "replica" 2 1 a /\ good "replica" 2 1 b /\ dt a = Bool /\ dt b = Int 8 /\
  broadcast_one_replica_to_all false "replica" sources 100 [a; b] = Ok ([out1; out2], 1) /\ sh_dt out1 = Int 32 /\ sh_dt out2 = Int 32.
Proof.
  exists [[true]; [false]], (mk_array Bool 1 [1] [] [[[VInt 1]]; [[VInt 0]]]), (mk_array (Int 8) 1 [1] [] [[[VInt 5]]; [[VInt 0]]]).
  assert (G : forall d x y, (d = Bool \/ d = Int 8) -> good "replica" 2 1 (mk_array d 1 [1] [] [[[VInt x]]; [[VInt y]]])).
  { intros d x y D. split; [repeat constructor; intros []|]. split.
    - split; [reflexivity|]. split; [intros row I; cbn in I; intuition subst; reflexivity|]. intros r q i s t (u & U1 & U2) (w & W1 & W2).
      assert (Z : forall row z, In row [[[VInt x]]; [[VInt y]]] -> In z row -> List.length z = 1) by (intros row z I J; cbn in I; intuition subst; cbn in J; intuition subst; reflexivity).
      rewrite (Z u s), (Z w t); eauto using nth_error_In.
    - intros r i s v (u & U1 & U2) I. apply nth_error_In in U1. apply nth_error_In in U2. cbn in U1. destruct D as [-> | ->]; cbn; intuition subst; cbn in U2; intuition subst; cbn in I; intuition subst; eauto. }
  eexists. eexists. split; [apply G; auto|]. split; [apply G; auto|]. repeat split; reflexivity.
Qed.
Print Assumptions C53_dtype_refuted.

(** Finding: negative zeros of the source arrive as positive ones. *)
Theorem C53_zero_refuted : exists sources a out, inputs a = [[[VFloat (S754_zero true)]]; [[VFloat (S754_zero false)]]] /\
  broadcast_one_replica_to_all false "replica" sources 100 [a] = Ok ([out], 1) /\ sources = [[true]; [false]] /\ shards out = [[VFloat (S754_zero false)]].
Proof. exists [[true]; [false]], (mk_array (Float 24 128) 4 [1] [] [[[VFloat (S754_zero true)]]; [[VFloat (S754_zero false)]]]). eexists. repeat split; reflexivity. Qed.
Print Assumptions C53_zero_refuted.

(** Finding: if two replicas are sources, the values are added without an error. *)
Theorem C53_sources_refuted : exists a out, inputs a = [[[VInt 5]]; [[VInt 5]]] /\
  broadcast_one_replica_to_all false "replica" [[true]; [true]] 100 [a] = Ok ([out], 1) /\ shards out = [[VInt 10]].
Proof. exists (mk_array (Int 32) 4 [1] [] [[[VInt 5]]; [[VInt 5]]]). eexists. repeat split; reflexivity. Qed.
Print Assumptions C53_sources_refuted.
