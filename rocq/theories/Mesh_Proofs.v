From Coq Require Import List Bool Arith ZArith Lia Permutation.
From Verif Require Import Base Mesh_Model Mesh_Spec.
Import ListNotations.

(* ---- arrays ---- *)
Lemma nth_firstn : forall {A} n (l : list A) j, nth_error (firstn n l) j = if j <? n then nth_error l j else None.
Proof.
  intros A n. induction n as [|n IH]; intros l j; cbn [firstn].
  - destruct j; auto.
  - destruct l as [|x l]; [destruct j; cbn [nth_error]; destruct (_ <? _); auto|]. destruct j as [|j]; cbn [nth_error]; auto. rewrite IH. auto.
Qed.

Lemma nth_skipn : forall {A} n (l : list A) j, nth_error (skipn n l) j = nth_error l (n + j).
Proof.
  intros A n. induction n as [|n IH]; intros l j; cbn [skipn]; auto. destruct l as [|x l]; [destruct j; auto|]. rewrite IH. auto.
Qed.

Lemma row_nth : forall {A} n i (a : list A) j, nth_error (row n i a) j = if j <? n then nth_error a (i * n + j) else None.
Proof. intros. unfold row. rewrite nth_firstn, nth_skipn. auto. Qed.

Lemma row_length : forall {A} n i (a : list A) m, i < m -> length a = m * n -> length (row n i a) = n.
Proof. intros A n i a m H E. unfold row. rewrite firstn_length, skipn_length, E. assert (S i * n <= m * n) by (apply Nat.mul_le_mono_r; lia). lia. Qed.

Lemma blocks_nth : forall {A B} k (f : A -> list B) l i j x, (forall y, In y l -> length (f y) = k) -> nth_error l i = Some x -> j < k ->
  nth_error (flat_map f l) (i * k + j) = nth_error (f x) j.
Proof.
  intros A B k f l. induction l as [|y l IH]; intros i j x L E J; [destruct i; discriminate|]. cbn [flat_map]. destruct i as [|i].
  - injection E as ->. cbn [Nat.mul]. rewrite nth_error_app1; auto. rewrite (L x) by (left; auto). auto.
  - cbn [nth_error] in E. assert (Ly := L y (or_introl eq_refl)). rewrite nth_error_app2 by lia. replace (S i * k + j - length (f y)) with (i * k + j) by lia.
    apply IH; auto. intros z I. apply L. right. auto.
Qed.

Lemma blocks_length : forall {A B} k (f : A -> list B) l, (forall y, In y l -> length (f y) = k) -> length (flat_map f l) = length l * k.
Proof.
  intros A B k f l. induction l as [|y l IH]; intros L; auto. cbn [flat_map length]. rewrite app_length, IH by (intros z I; apply L; right; auto). rewrite (L y) by (left; auto). lia.
Qed.

Lemma nth_seq : forall n i, i < n -> nth_error (seq 0 n) i = Some i.
Proof.
  intros n i H. assert (G : forall n s i, i < n -> nth_error (seq s n) i = Some (s + i)).
  { clear. intros n. induction n as [|n IH]; intros s i H; [lia|]. cbn [seq]. destruct i as [|i]; cbn [nth_error]; [f_equal; lia|]. rewrite IH by lia. f_equal. lia. }
  rewrite G by auto. auto.
Qed.

Lemma index_length : forall s idx, index_of s idx -> length idx = length s.
Proof. intros s idx H. unfold index_of in H. induction H; cbn; auto. Qed.

Lemma nth_ext_error : forall {A} (l m : list A), (forall j, nth_error l j = nth_error m j) -> l = m.
Proof.
  intros A l. induction l as [|x l IH]; intros [|y m] H; auto; try (specialize (H 0); discriminate H). assert (E := H 0). injection E as ->. f_equal. apply IH. intros j. exact (H (S j)).
Qed.

Lemma size_eq : forall s, size s = fold_right Nat.mul 1 s.
Proof. auto. Qed.

(* the shape without one axis *)
Definition del {A} (axis : nat) (s : list A) : list A := firstn axis s ++ skipn (S axis) s.

Lemma take_length : forall {A} s axis r (a : list A), axis < length s -> length a = size s -> (forall n, nth_error s axis = Some n -> r < n) ->
  length (take s axis r a) = size (del axis s).
Proof.
  intros A s. induction s as [|n rest IH]; intros axis r a L E R; [cbn in L; lia|]. cbn [take]. destruct axis as [|ax].
  - apply (row_length (size rest) r a n); auto.
  - cbn [length] in L. change (size (del (S ax) (n :: rest))) with (n * size (del ax rest)).
    rewrite (blocks_length (size (del ax rest))); [rewrite seq_length; auto|].
    intros i I. apply in_seq in I. apply IH; [lia| |exact R]. apply (row_length _ i a n); [lia|exact E].
Qed.

Lemma place_lt : forall s idx, index_of s idx -> place s idx < size s.
Proof.
  intros s idx H. unfold index_of in H. induction H as [|i n idx s I F IH]; [cbn; lia|]. cbn [place size fold_right]. fold (size s).
  change (fold_right Nat.mul 1 s) with (size s). assert (S i * size s <= n * size s) by (apply Nat.mul_le_mono_r; lia). lia.
Qed.

Lemma index_del : forall s pre r post, index_of s (pre ++ r :: post) -> index_of (del (length pre) s) (pre ++ post).
Proof.
  intros s pre. revert s. induction pre as [|i pre IH]; intros s r post H; inversion H; subst; cbn.
  - auto.
  - constructor; auto. apply (IH _ r). auto.
Qed.

Lemma take_nth : forall {A} s r (a : list A) pre post, index_of s (pre ++ r :: post) -> length a = size s ->
  nth_error (take s (length pre) r a) (place (del (length pre) s) (pre ++ post)) = nth_error a (place s (pre ++ r :: post)).
Proof.
  intros A s. induction s as [|n rest IH]; intros r a pre post I E; [destruct pre; inversion I|].
  destruct pre as [|i pre]; cbn [app] in I; inversion I as [|? ? ? ? I1 I2]; subst.
  - cbn [length take app place]. change (del 0 (n :: rest)) with rest. rewrite row_nth. assert (Q := place_lt _ _ I2). destruct (Nat.ltb_spec (place rest post) (size rest)); [|lia]. auto.
  - cbn [length take app place]. change (del (S (length pre)) (n :: rest)) with (n :: del (length pre) rest). cbn [place]. change (fold_right Nat.mul 1) with size.
    rewrite (blocks_nth (size (del (length pre) rest)) _ _ i _ i).
    + rewrite IH; auto; [|apply (row_length _ i a n); auto]. rewrite row_nth. assert (Q := place_lt _ _ I2). destruct (Nat.ltb_spec (place rest (pre ++ r :: post)) (size rest)); [|lia]. auto.
    + intros y J. apply in_seq in J. apply take_length.
      * clear - I2. apply index_length in I2. rewrite app_length in I2. cbn in I2. lia.
      * apply (row_length _ y a n); [lia|auto].
      * intros k K. clear - I2 K. revert rest I2 K. induction pre as [|x pre IH]; intros rest I2 K; inversion I2; subst; cbn in K; [congruence|eauto].
    + apply nth_seq. auto.
    + apply place_lt. apply (index_del _ _ r). auto.
Qed.

Lemma place_onto : forall s k, k < size s -> exists idx, index_of s idx /\ place s idx = k.
Proof.
  intros s. induction s as [|n rest IH]; intros k K.
  - exists []. split; [constructor|]. cbn in K. cbn. lia.
  - cbn [size fold_right] in K. change (fold_right Nat.mul 1 rest) with (size rest) in K. assert (P : size rest <> 0) by (intros Z; rewrite Z in K; lia).
    destruct (IH (k mod size rest)) as (idx & I & E); [apply Nat.mod_upper_bound; auto|]. exists (k / size rest :: idx). split.
    + constructor; auto. apply Nat.div_lt_upper_bound; auto. lia.
    + cbn [place]. change (fold_right Nat.mul 1 rest) with (size rest). rewrite E. rewrite (Nat.div_mod k (size rest)) at 3 by auto. lia.
Qed.

Lemma split_at : forall (idx : list nat) axis r, nth_error idx axis = Some r -> exists pre post, idx = pre ++ r :: post /\ length pre = axis.
Proof. intros idx axis r H. apply nth_error_split in H as (l1 & l2 & -> & <-). eauto. Qed.

Lemma index_insert : forall s axis r idx n, nth_error s axis = Some n -> r < n -> index_of (del axis s) idx -> index_of s (firstn axis idx ++ r :: skipn axis idx) /\ length (firstn axis idx) = axis.
Proof.
  intros s. induction s as [|m s IH]; intros axis r idx n E L I; [destruct axis; discriminate|]. destruct axis as [|axis].
  - injection E as ->. change (del 0 (n :: s)) with s in I. cbn. split; auto. constructor; auto.
  - change (del (S axis) (m :: s)) with (m :: del axis s) in I. inversion I as [|i ? idx' ? I1 I2]; subst. cbn [firstn skipn app length]. cbn [nth_error] in E. destruct (IH axis r idx' n E L I2) as (G1 & G2).
    split; [constructor; auto|]. lia.
Qed.

Lemma take_in : forall {A} s axis r (a : list A) n, nth_error s axis = Some n -> r < n -> length a = size s -> forall d,
  In d (take s axis r a) <-> exists idx, index_of s idx /\ nth_error idx axis = Some r /\ nth_error a (place s idx) = Some d.
Proof.
  intros A s axis r a n N R E d. assert (LX : axis < length s) by (apply nth_error_Some; congruence). split.
  - intros I. apply In_nth_error in I as (k & K). assert (KL : k < size (del axis s)).
    { rewrite <- (take_length s axis r a); auto; [apply nth_error_Some; congruence|]. intros m M. congruence. }
    destruct (place_onto _ _ KL) as (idx & I & P). destruct (index_insert s axis r idx n N R I) as (G & L). exists (firstn axis idx ++ r :: skipn axis idx). split; auto. split.
    + rewrite nth_error_app2 by lia. rewrite L, Nat.sub_diag. auto.
    + rewrite <- take_nth; auto. rewrite L, firstn_skipn, P. auto.
  - intros (idx & I & X & D). apply split_at in X as (pre & post & -> & <-). rewrite <- take_nth in D by auto. apply nth_error_In in D. auto.
Qed.

Lemma place_inj : forall s i j, index_of s i -> index_of s j -> place s i = place s j -> i = j.
Proof.
  intros s i j H. revert j. unfold index_of in H. induction H as [|x n i s X F IH]; intros j J E; inversion J as [|y ? j' ? Y F']; subst; auto.
  cbn [place] in E. change (fold_right Nat.mul 1 s) with (size s) in E. assert (P1 := place_lt _ _ F). assert (P2 := place_lt _ _ F').
  assert (x = y) by (destruct (Nat.lt_trichotomy x y) as [L|[L|L]]; auto; exfalso;
    [assert (S x * size s <= y * size s) by (apply Nat.mul_le_mono_r; lia)|assert (S y * size s <= x * size s) by (apply Nat.mul_le_mono_r; lia)]; lia).
  subst y. f_equal. apply IH; auto. lia.
Qed.

Lemma flat_map_swap : forall {A B C} (f : A -> B -> list C) la lb, Permutation (flat_map (fun x => flat_map (f x) lb) la) (flat_map (fun y => flat_map (fun x => f x y) la) lb).
Proof.
  intros A B C f la lb. induction la as [|x la IH].
  - cbn. induction lb; auto.
  - cbn [flat_map]. rewrite IH. clear IH. induction lb as [|y lb IH]; cbn [flat_map]; auto. rewrite <- IH. rewrite !app_assoc. apply Permutation_app_tail. rewrite <- !app_assoc. apply Permutation_app_head. apply Permutation_app_comm.
Qed.

Lemma rows_all : forall {A} n k (a : list A), length a = n * k -> flat_map (fun r => row k r a) (seq 0 n) = a.
Proof.
  intros A n k a E. apply nth_ext_error. intros j. destruct (Nat.lt_ge_cases j (n * k)) as [L|L].
  - assert (K : k <> 0) by (intros ->; lia). rewrite (Nat.div_mod j k) at 1 by auto. rewrite (Nat.mul_comm k).
    assert (D : j / k < n) by (apply Nat.div_lt_upper_bound; auto; lia). assert (M := Nat.mod_upper_bound j k K).
    rewrite (blocks_nth k _ _ (j / k) _ (j / k)); auto; [|intros y I; apply in_seq in I; apply (row_length k y a n); auto; lia|apply nth_seq; auto].
    rewrite row_nth. destruct (Nat.ltb_spec (j mod k) k); [|lia]. f_equal. rewrite (Nat.div_mod j k) at 3 by auto. lia.
  - rewrite (proj2 (nth_error_None a j)) by lia. apply nth_error_None. rewrite (blocks_length k); [rewrite seq_length; auto|]. intros y I. apply in_seq in I. apply (row_length k y a n); auto. lia.
Qed.

Lemma flat_map_perm : forall {A B} (f g : A -> list B) l, (forall x, In x l -> Permutation (f x) (g x)) -> Permutation (flat_map f l) (flat_map g l).
Proof. intros A B f g l. induction l as [|x l IH]; intros H; cbn [flat_map]; auto. apply Permutation_app; [apply H; left; auto|apply IH; intros y I; apply H; right; auto]. Qed.

Lemma take_partition : forall {A} s axis (a : list A) n, nth_error s axis = Some n -> length a = size s ->
  Permutation (flat_map (fun r => take s axis r a) (seq 0 n)) a.
Proof.
  intros A s. induction s as [|m rest IH]; intros axis a n N E; [destruct axis; discriminate|]. destruct axis as [|ax]; cbn [take].
  - injection N as ->. rewrite rows_all; auto.
  - cbn [nth_error] in N. rewrite (flat_map_swap (fun r i => take rest ax r (row (size rest) i a)) (seq 0 n) (seq 0 m)).
    transitivity (flat_map (fun r => row (size rest) r a) (seq 0 m)); [|rewrite rows_all; [auto|exact E]]. apply flat_map_perm. intros i I. apply in_seq in I. apply IH; auto. apply (row_length _ i a m); [lia|exact E].
Qed.

(* ---- replicas ---- *)
Lemma size_pos : forall s, Forall (lt 0) s -> 0 < size s.
Proof. intros s H. induction H as [|n s N H IH]; cbn; [lia|]. change (fold_right Nat.mul 1 s) with (size s). apply Nat.mul_pos_pos; auto. Qed.

Lemma skipn_skipn' : forall {A} n (l : list A), skipn 1 (skipn n l) = skipn (S n) l.
Proof. intros A n. induction n as [|n IH]; intros [|x l]; auto. cbn [skipn]. destruct n; apply (IH l). Qed.

Lemma del_pos : forall axis s, Forall (lt 0) s -> Forall (lt 0) (del axis s).
Proof. intros axis s H. unfold del. rewrite Forall_forall in *. intros x I. apply H. apply in_app_or in I as [I|I]; rewrite <- (firstn_skipn axis s); apply in_or_app; [left; auto|right]. rewrite <- (firstn_skipn 1 (skipn axis s)). apply in_or_app. right. rewrite skipn_skipn'. auto.
Qed.

Lemma replica_ok : forall m axis r n, proper m -> nth_error (shape m) axis = Some n -> r < n ->
  exists l, replica_devices m r axis = Ok l /\ l <> [] /\ (forall d, In d l <-> in_slice m axis r d) /\ l = take (shape m) axis r (devices m).
Proof.
  intros m axis r n (E & P) N R. unfold replica_devices. rewrite N. destruct (Nat.ltb_spec r n); [|lia]. eexists. split; [reflexivity|]. split; [|split; auto].
  - intros Z. apply (f_equal (@length _)) in Z. rewrite take_length in Z; auto; [|apply nth_error_Some; congruence|intros k K; congruence].
    assert (Q := size_pos _ (del_pos axis _ P)). cbn in Z. lia.
  - intros d. rewrite (take_in _ _ _ _ n); auto. unfold in_slice, has_at. split; intros (idx & W); exists idx; tauto.
Qed.

Lemma in_replica_ok : forall m axis r n p, proper m -> nth_error (shape m) axis = Some n -> r < n ->
  exists b, in_replica p m r axis = Ok b /\ (b = true <-> process_in m axis r p).
Proof.
  intros m axis r n p P N R. destruct (replica_ok m axis r n P N R) as (l & E & NE & I & _). unfold in_replica. rewrite E. cbn [rbind]. unfold process_in_device_replica, unique_processes_from_devices.
  destruct l as [|d l]; [congruence|]. eexists. split; [reflexivity|]. rewrite existsb_exists. unfold process_in. split.
  - intros (q & Q & X). apply Nat.eqb_eq in X as <-. apply nodup_In, in_map_iff in Q as (e & X & Q). exists e. split; auto. apply I. auto.
  - intros (e & J & X). exists p. split; [|apply Nat.eqb_refl]. apply nodup_In, in_map_iff. exists e. split; auto. apply I. auto.
Qed.

Lemma first_ok : forall m axis n p k s, proper m -> nth_error (shape m) axis = Some n -> s + k <= n ->
  (exists r, first_replica p m axis (seq s k) = Ok (Some r) /\ s <= r < s + k /\ process_in m axis r p /\ forall q, s <= q < r -> ~ process_in m axis q p) \/
  (first_replica p m axis (seq s k) = Ok None /\ forall q, s <= q < s + k -> ~ process_in m axis q p).
Proof.
  intros m axis n p k. induction k as [|k IH]; intros s P N L; cbn [seq first_replica].
  - right. split; auto. intros q Q. lia.
  - destruct (in_replica_ok m axis s n p P N) as (b & -> & B); [lia|]. cbn [rbind]. destruct b.
    + left. exists s. split; auto. split; [lia|]. split; [apply B; auto|]. intros q Q. lia.
    + assert (NS : ~ process_in m axis s p) by (intros Q; apply B in Q; discriminate).
      destruct (IH (S s)) as [(r & E & Q & X & Y)|(E & Y)]; auto; [lia| |].
      * left. exists r. split; auto. split; [lia|]. split; auto. intros q Z. destruct (Nat.eq_dec q s) as [->|]; auto. apply Y. lia.
      * right. split; auto. intros q Z. destruct (Nat.eq_dec q s) as [->|]; auto. apply Y. lia.
Qed.

Lemma in_some_slice : forall m axis n d, proper m -> nth_error (shape m) axis = Some n -> In d (devices m) -> exists r, r < n /\ in_slice m axis r d.
Proof.
  intros m axis n d (E & P) N I. apply In_nth_error in I as (k & K). assert (L : k < size (shape m)) by (unfold size; rewrite <- E; apply nth_error_Some; congruence).
  destruct (place_onto _ _ L) as (idx & X & Q). assert (G : exists r, nth_error idx axis = Some r /\ r < n).
  { clear - X N. unfold index_of in X. revert axis N. induction X as [|i k idx s I F IH]; intros axis N; destruct axis; try discriminate; cbn in *; [injection N as ->; eauto|eauto]. }
  destruct G as (r & G & R). exists r. split; auto. exists idx. split; auto. split; auto. rewrite Q. auto.
Qed.

Lemma slice_in : forall m axis r d, in_slice m axis r d -> In d (devices m).
Proof. intros m axis r d (idx & (_ & E) & _). eapply nth_error_In; eauto. Qed.

Lemma slice_bound : forall m axis r d n, in_slice m axis r d -> nth_error (shape m) axis = Some n -> r < n.
Proof.
  intros m axis r d n (idx & (X & _) & R) N. unfold index_of in X. revert axis R N. induction X as [|i k idx s I F IH]; intros axis R N; destruct axis; try discriminate; cbn in *; [congruence|eauto].
Qed.

Lemma count_ok : forall m axis n, nth_error (shape m) axis = Some n -> 2 <= length (shape m) -> replica_count m axis = Ok n.
Proof. intros m axis n N L. unfold replica_count. destruct (Nat.eqb_spec (length (shape m)) 1); [lia|]. rewrite N. auto. Qed.

Lemma found_ok : forall m axis n p, proper m -> nth_error (shape m) axis = Some n -> exists l, found_replica_ids p m axis n = Ok l /\ NoDup l /\ forall r, In r l <-> process_in m axis r p.
Proof.
  intros m axis n p P N. unfold found_replica_ids.
  assert (G : forall k s, s + k <= n -> exists l, sequence (map (fun r => rmap (pair r) (in_replica p m r axis)) (seq s k)) = Ok l /\ map fst l = seq s k /\ forall r b, In (r, b) l -> (b = true <-> process_in m axis r p)).
  { induction k as [|k IH]; intros s L; cbn [seq map sequence]; [exists []; split; [auto|split; [auto|intros r b []]]|].
    destruct (in_replica_ok m axis s n p P N) as (b & -> & B); [lia|]. cbn [rmap rbind]. destruct (IH (S s)) as (l & -> & F & I); [lia|]. cbn [rbind]. exists ((s, b) :: l). split; auto. split; [cbn; congruence|].
    intros r c [J|J]; [injection J as <- <-; auto|auto]. }
  destruct (G n 0) as (l & -> & F & I); [lia|]. cbn [rmap]. eexists. split; [reflexivity|]. split.
  - assert (ND : NoDup (map fst l)) by (rewrite F; apply seq_NoDup). clear - ND. induction l as [|[r b] l IH]; cbn; [constructor|]. cbn in ND. inversion_clear ND. destruct b; cbn; auto.
    constructor; auto. intros J. apply H. apply in_map_iff in J as (x & <- & J). apply filter_In in J as [J _]. apply in_map. auto.
  - intros r. rewrite in_map_iff. split.
    + intros ([r' b] & X & J). cbn in X. subst r'. apply filter_In in J as [J B]. cbn in B. apply (I _ _ J). auto.
    + intros Q. assert (R : r < n) by (destruct Q as (d & Q & _); eapply slice_bound; eauto). assert (J : In r (map fst l)) by (rewrite F; apply in_seq; lia).
      apply in_map_iff in J as ([r' b] & X & J). cbn in X. subst r'. exists (r, b). split; auto. apply filter_In. split; auto. apply (I _ _ J). auto.
Qed.

Lemma spans_ok : forall m axis n ps, proper m -> nth_error (shape m) axis = Some n ->
  exists b, any_spans m axis n ps = Ok b /\ (b = true <-> exists p r q, In p ps /\ r <> q /\ process_in m axis r p /\ process_in m axis q p).
Proof.
  intros m axis n ps P N. induction ps as [|p ps IH]; cbn [any_spans].
  - exists false. split; auto. split; [discriminate|]. intros (p & _ & _ & [] & _).
  - destruct (found_ok m axis n p P N) as (l & -> & ND & I). cbn [rbind]. destruct (Nat.ltb_spec 1 (length l)) as [L|L].
    + exists true. split; auto. split; auto. intros _. destruct l as [|r [|q l]]; cbn in L; try lia. exists p, r, q. split; [left; auto|]. split; [|split; apply I; cbn; auto].
      intros ->. inversion_clear ND. apply H. left. auto.
    + destruct IH as (b & -> & B). exists b. split; auto. rewrite B. split.
      * intros (p' & r & q & J & H). exists p', r, q. split; auto. right. auto.
      * intros (p' & r & q & [->|J] & NE & H1 & H2); [|exists p', r, q; auto]. exfalso. apply I in H1. apply I in H2. destruct l as [|x [|y l]]; cbn in L, H1, H2; try lia; intuition congruence.
Qed.

(* ---- restarts ---- *)
Lemma lookup_in : forall {A} k (d : list (Z * A)) v, lookup k d = Ok v -> In (k, v) d.
Proof. intros A k d v. induction d as [|[x w] d IH]; cbn [lookup]; [discriminate|]. destruct (Z.eqb_spec x k) as [->|]; [intros H; injection H as ->; left; auto|right; auto]. Qed.

Lemma lookup_err : forall {A} k (d : list (Z * A)) e, lookup k d = Err e -> e = KeyError /\ ~ In k (map fst d).
Proof. intros A k d e. induction d as [|[x w] d IH]; cbn [lookup map fst]; [intros H; injection H as <-; auto|]. destruct (Z.eqb_spec x k) as [->|]; [discriminate|]. intros H. destruct (IH H). split; auto. intros [|]; auto. Qed.

Lemma map_row_spec : forall ps cs d e, map_row ps cs d = Ok e -> length ps <= length cs /\ (forall x, In x e <-> In x d \/ In x (combine ps cs)) /\ map fst e = rev ps ++ map fst d.
Proof.
  intros ps. induction ps as [|p ps IH]; intros [|c cs] d e; cbn [map_row combine length]; try discriminate; intros H; try (injection H as <-; split; [lia|split; [intros x; cbn; tauto|auto]]).
  apply IH in H as (L & I & F). split; [lia|]. split; [intros x; rewrite I; cbn; tauto|]. rewrite F. cbn. rewrite <- app_assoc. auto.
Qed.

Lemma map_row_err : forall ps cs d e, map_row ps cs d = Err e -> e = IndexError /\ length cs < length ps.
Proof.
  intros ps. induction ps as [|p ps IH]; intros [|c cs] d e; cbn [map_row length]; try discriminate; intros H; try (injection H as <-; split; auto; lia). apply IH in H as [-> H]. split; auto. lia.
Qed.

Definition counterparts (previous current : list (list Z)) (p c : Z) : Prop :=
  exists i j ps cs, nth_error previous i = Some ps /\ nth_error ps j = Some p /\ nth_error current i = Some cs /\ nth_error cs j = Some c.

Lemma in_combine_nth : forall {A B} (l : list A) (m : list B) x y, In (x, y) (combine l m) -> exists j, nth_error l j = Some x /\ nth_error m j = Some y.
Proof.
  intros A B l. induction l as [|a l IH]; intros [|b m] x y; cbn [combine]; try contradiction. intros [H|H]; [injection H as -> ->; exists 0; auto|]. destruct (IH _ _ _ H) as (j & H1 & H2). exists (S j). auto.
Qed.

Lemma across_spec : forall previous current d e, device_id_across_restarts previous current d = Ok e -> covers current previous /\
  (forall x, In x e -> In x d \/ counterparts previous current (fst x) (snd x)) /\ (forall k, In k (map fst e) <-> In k (map fst d) \/ listed previous k).
Proof.
  intros previous. induction previous as [|ps previous IH]; intros current d e; cbn [device_id_across_restarts].
  - intros H. injection H as <-. split; [intros [|i] ps; discriminate|]. split; auto. intros k. split; auto. intros [H|(ps & [] & _)]; auto.
  - destruct (map_row ps (hd [] current) d) as [d'|er] eqn:E; [|discriminate]. cbn [rbind]. intros H. apply map_row_spec in E as (L & I & F). destruct (IH _ _ _ H) as (C & J & K). clear H. split; [|split].
    + intros [|i] qs; cbn [nth_error]; intros X NE.
      * injection X as <-. destruct current as [|cs current]; [destruct ps; [congruence|cbn in L; lia]|]. exists cs. auto.
      * destruct (C i qs X NE) as (cs & Y & Z). destruct current as [|c0 current]; [destruct i; discriminate|]. exists cs. auto.
    + intros [p c] X. cbn [fst snd]. apply J in X as [X|(i & j & qs & cs & X1 & X2 & X3 & X4)].
      * apply I in X as [X|X]; auto. right. apply in_combine_nth in X as (j & X1 & X2). destruct current as [|cs current]; [destruct j; discriminate|]. exists 0, j, ps, cs. auto.
      * right. destruct current as [|c0 current]; [destruct i; discriminate|]. exists (S i), j, qs, cs. auto.
    + intros k. rewrite K, F, in_app_iff, <- in_rev. unfold listed. split.
      * intros [[X|X]|(qs & X & Y)]; auto; right; [exists ps|exists qs]; cbn; auto.
      * intros [X|(qs & [->|X] & Y)]; auto. right. eauto.
Qed.

Lemma across_err : forall previous current d e, device_id_across_restarts previous current d = Err e -> e = IndexError /\ ~ covers current previous.
Proof.
  intros previous. induction previous as [|ps previous IH]; intros current d e; cbn [device_id_across_restarts]; [discriminate|].
  destruct (map_row ps (hd [] current) d) as [d'|er] eqn:E; cbn [rbind]; intros H.
  - apply IH in H as (-> & H). split; auto. intros C. apply H. intros i qs X NE. destruct (C (S i) qs X NE) as (cs & Y & Z). destruct current as [|c0 current]; [discriminate|]. exists cs. auto.
  - injection H as ->. apply map_row_err in E as (-> & L). split; auto. intros C. destruct (C 0 ps eq_refl) as (cs & Y & Z); [intros ->; cbn in L; lia|]. destruct current as [|c0 current]; [discriminate|]. cbn in Y, L. injection Y as ->. lia.
Qed.

Lemma sequence_ok : forall {A B} (f : A -> result B) l ys, sequence (map f l) = Ok ys <-> Forall2 (fun x y => f x = Ok y) l ys.
Proof.
  intros A B f l. induction l as [|x l IH]; intros ys; cbn [map sequence].
  - split; [intros H; injection H as <-; constructor|intros H; inversion H; auto].
  - split.
    + destruct (f x) as [y|] eqn:E; [|discriminate]. cbn [rbind]. destruct (sequence (map f l)) as [zs|] eqn:S; [|discriminate]. cbn [rbind]. intros H. injection H as <-. constructor; auto. apply IH. auto.
    + intros H. inversion H as [|? y ? zs E F]; subst. rewrite E. cbn [rbind]. apply IH in F as ->. auto.
Qed.

Lemma sequence_err : forall {A B} (f : A -> result B) l e, sequence (map f l) = Err e -> exists x, In x l /\ f x = Err e.
Proof.
  intros A B f l. induction l as [|x l IH]; intros e; cbn [map sequence]; [discriminate|]. destruct (f x) as [y|e'] eqn:E; cbn [rbind]; [|intros H; injection H as <-; exists x; cbn; auto].
  destruct (sequence (map f l)) as [zs|e'] eqn:S; cbn [rbind]; [discriminate|]. intros H. injection H as <-. destruct (IH _ eq_refl) as (z & I & Z). exists z. cbn. auto.
Qed.

Lemma by_id_in : forall ds c d, lookup c (rev (map (fun d => (dev_id d, d)) ds)) = Ok d -> In d ds /\ dev_id d = c.
Proof. intros ds c d H. apply lookup_in in H. apply in_rev, in_map_iff in H as (x & E & I). injection E as <- <-. auto. Qed.

Lemma by_id_err : forall ds c e, lookup c (rev (map (fun d => (dev_id d, d)) ds)) = Err e -> e = KeyError /\ forall d, In d ds -> dev_id d <> c.
Proof.
  intros ds c e H. apply lookup_err in H as [-> H]. split; auto. intros d I E. apply H. rewrite map_rev, <- in_rev, map_map. apply in_map_iff. exists d. auto.
Qed.

Lemma with_id_ok : forall ds i d, device_with_id ds i = Ok d -> In d ds /\ dev_id d = i.
Proof. intros ds i d. induction ds as [|x ds IH]; cbn [device_with_id]; [discriminate|]. destruct (Z.eqb_spec (dev_id x) i) as [E|]; [intros H; injection H as <-; cbn; auto|]. intros H. destruct (IH H). cbn. auto. Qed.

(* ---- the table of device ids ---- *)
Lemma nth_set : forall {A} i (v : A) l j, nth_error (set_nth i v l) j = if (i =? j) && (j <? length l) then Some v else nth_error l j.
Proof.
  intros A i v l. revert i. induction l as [|x l IH]; intros i j; cbn [set_nth length].
  - destruct i; rewrite andb_false_r; auto.
  - destruct i as [|i], j as [|j]; cbn [set_nth nth_error]; try reflexivity. rewrite IH. reflexivity.
Qed.

Lemma set_length : forall {A} i (v : A) l, length (set_nth i v l) = length l.
Proof. intros A i v l. revert i. induction l as [|x l IH]; intros [|i]; cbn [set_nth length]; auto. Qed.
