(** Proofs about slices (C25). *)
From Coq Require Import ZArith List Bool Lia.
From Verif Require Import Base Nd_Model Slice_Model Slice_Spec.
Import ListNotations.
Local Open Scope Z_scope.

Ltac spl := repeat match goal with |- _ /\ _ => split end.

(* ------------------------------------------------------------- one dimension *)
Lemma kth_same : forall s t n, 
  match ps_step s with Some d => d | None => 1 end = match ps_step t with Some d => d | None => 1 end ->
  (0 < match ps_step s with Some d => d | None => 1 end ->
     match ps_start s with Some a => place n 0 n a | None => 0 end = match ps_start t with Some a => place n 0 n a | None => 0 end /\
     match ps_stop s with Some b => place n 0 n b | None => n end = match ps_stop t with Some b => place n 0 n b | None => n end) ->
  (match ps_step s with Some d => d | None => 1 end < 0 ->
     match ps_start s with Some a => place n (-1) (n - 1) a | None => n - 1 end = match ps_start t with Some a => place n (-1) (n - 1) a | None => n - 1 end /\
     match ps_stop s with Some b => place n (-1) (n - 1) b | None => -1 end = match ps_stop t with Some b => place n (-1) (n - 1) b | None => -1 end) ->
  forall k x, kth s n k x <-> kth t n k x.
Proof.
  intros s t n E P N k x. unfold kth. rewrite <- E.
  destruct (Z.lt_trichotomy (match ps_step s with Some d => d | None => 1 end) 0) as [H|[H|H]].
  - destruct (N H) as [-> ->]. split; intros (A & [(B & _)|B]); try lia; split; auto.
  - split; intros (A & [(B & _)|(B & _)]); lia.
  - destruct (P H) as [-> ->]. split; intros (A & [B|(B & _)]); try lia; split; auto.
Qed.

Lemma place_id : forall n lo hi b, 0 <= b -> lo <= b <= hi -> place n lo hi b = b.
Proof. intros. unfold place. destruct (Z.ltb_spec b 0); lia. Qed.

Lemma place_range : forall n b, 0 <= n -> 0 <= place n 0 n b <= n.
Proof. intros. unfold place. lia. Qed.

Lemma indices_pos : forall s n, pos_step s -> 0 <= n ->
  indices s n = Ok (match ps_start s with Some a => place n 0 n a | None => 0 end,
                    match ps_stop s with Some b => place n 0 n b | None => n end,
                    match ps_step s with Some d => d | None => 1 end).
Proof.
  intros [st sp k] n P Hn. unfold indices, pos_step in *; simpl in *.
  assert (S : 0 < match k with Some d => d | None => 1 end) by (destruct k; lia).
  destruct (Z.eqb_spec (match k with Some d => d | None => 1 end) 0); [lia|].
  destruct (Z.ltb_spec (match k with Some d => d | None => 1 end) 0); [lia|].
  assert (A : forall b, (if b <? 0 then Z.max (b + n) 0 else Z.min b n) = place n 0 n b).
  { intros b. unfold place. destruct (Z.ltb_spec b 0); lia. }
  f_equal. f_equal. f_equal; [destruct st|destruct sp]; auto.
Qed.

Lemma resolve_item_pos : forall s n, pos_step s -> 0 <= n ->
  exists a b k, resolve_item (ISlice s) n = Ok (conc a b k) /\ 0 <= a <= n /\ 0 <= b <= n /\ 0 < k /\
    forall j x, kth s n j x <-> kth (conc a b k) n j x.
Proof.
  intros s n P Hn. simpl. rewrite indices_pos by auto. simpl. eexists _, _, _. split; [reflexivity|].
  pose proof (place_range n) as R. spl.
  - destruct (ps_start s); [apply R; auto|lia].
  - destruct (ps_start s); [apply R; auto|lia].
  - destruct (ps_stop s); [apply R; auto|lia].
  - destruct (ps_stop s); [apply R; auto|lia].
  - unfold pos_step in P. destruct (ps_step s); lia.
  - apply kth_same; simpl; auto.
    + intros _. split.
      * destruct (ps_start s) as [z|]; [pose proof (R z Hn); rewrite (place_id n 0 n (place n 0 n z)); auto; lia|rewrite place_id; auto; lia].
      * destruct (ps_stop s) as [z|]; [pose proof (R z Hn); rewrite (place_id n 0 n (place n 0 n z)); auto; lia|rewrite place_id; auto; lia].
    + unfold pos_step in P. destruct (ps_step s); lia.
Qed.

Lemma resolve_conc : forall a b k n, 0 <= a <= n -> 0 <= b <= n -> 0 < k ->
  resolve_item (ISlice (conc a b k)) n = Ok (conc a b k).
Proof.
  intros. simpl. rewrite indices_pos by (unfold pos_step; simpl; lia). simpl.
  rewrite !place_id by lia. auto.
Qed.

(* -------------------------------------------------------- several dimensions *)
Lemma reads_inside : forall l shape ks c, reads l shape ks c -> List.length c = List.length shape.
Proof. induction 1; simpl; auto. induction H; simpl; auto. Qed.

Lemma reads_nil : forall shape ks c, reads [] shape ks c <-> ks = c /\ Forall2 (fun n x => 0 <= x < n) shape c.
Proof. split. intros H. inversion H; auto. intros [-> H]. constructor; auto. Qed.

Lemma reads_slice : forall s l shape ks c, reads (ISlice s :: l) shape ks c <->
  exists n sh k ks' x c', shape = n :: sh /\ ks = k :: ks' /\ c = x :: c' /\ kth s n k x /\ reads l sh ks' c'.
Proof.
  split.
  - intros H. inversion H; subst. eexists _, _, _, _, _, _. spl; eauto.
  - intros (n & sh & k & ks' & x & c' & -> & -> & -> & A & B). constructor; auto.
Qed.

(** Rewriting slice by slice. *)
Lemma reads_map : forall (f : item -> Z -> result pslice) (P : pslice -> Prop) l shape,
  (List.length l <= List.length shape)%nat -> Forall (fun n => 0 <= n) shape ->
  Forall (fun x => exists s, x = ISlice s /\ P s) l ->
  (forall s n, P s -> 0 <= n -> exists t, f (ISlice s) n = Ok t /\ forall j x, kth s n j x <-> kth t n j x) ->
  exists ys, sequence (map2 f l shape) = Ok ys /\ List.length ys = List.length l /\
    forall ks c, reads l shape ks c <-> reads (map ISlice ys) shape ks c.
Proof.
  intros f P l. induction l as [|x l IH]; intros [|n shape] L D S H; simpl in *; try lia.
  - exists []. simpl. spl; auto. intros; tauto.
  - exists []. simpl. spl; auto. intros; tauto.
  - inversion D; subst. inversion S as [|? ? (s & -> & Ps) S']; subst.
    destruct (IH shape ltac:(lia) H3 S' H) as (ys & E & Ly & R).
    destruct (H s n Ps H2) as (t & Et & K). rewrite Et, E. simpl. exists (t :: ys). simpl. spl; auto.
    intros ks c. rewrite !reads_slice. split; intros (m & sh & k & ks' & y & c' & E1 & -> & -> & A & B);
      injection E1 as <- <-; exists n, shape, k, ks', y, c'; spl; auto; try (apply K; auto); apply R; auto.
Qed.

Definition shape_ok (shape : list Z) : Prop := Forall (fun n => 0 <= n) shape.

Lemma split_slices : forall xs, only_slices xs -> pos_steps xs -> Forall (fun x => exists s, x = ISlice s /\ pos_step s) (items xs).
Proof.
  intros xs. unfold only_slices, pos_steps. generalize (items xs). induction l; intros A B; constructor;
    inversion A as [|? ? (s & ->)]; subst; inversion B; subst; eauto.
Qed.

Lemma sequence_forall : forall {A B} (f : A -> Z -> result B) (Q : B -> Z -> Prop) l shape ys,
  sequence (map2 f l shape) = Ok ys -> (forall x n t, In x l -> In n shape -> f x n = Ok t -> Q t n) ->
  Forall (fun p => Q (fst p) (snd p)) (combine ys shape).
Proof.
  induction l as [|x l IH]; intros [|n shape] ys E H; simpl in *; try (injection E as <-; constructor).
  destruct (f x n) eqn:Ef; simpl in E; [|discriminate].
  destruct (sequence (map2 f l shape)) eqn:Es; simpl in E; [|discriminate]. injection E as <-. simpl. constructor.
  - simpl. eapply H; eauto.
  - apply IH; auto. intros; eapply H; eauto.
Qed.

Lemma sequence_len : forall {A B} (f : A -> Z -> result B) l shape ys,
  sequence (map2 f l shape) = Ok ys -> (List.length l <= List.length shape)%nat -> List.length ys = List.length l.
Proof.
  induction l as [|x l IH]; intros [|n shape] ys E H; simpl in *; try (injection E as <-; auto; fail); try lia.
  destruct (f x n); simpl in E; [|discriminate].
  destruct (sequence (map2 f l shape)) eqn:Es; simpl in E; [|discriminate]. injection E as <-. simpl. f_equal. eapply IH; eauto. lia.
Qed.

(** resolve_slice *)
Lemma resolve_reads : forall xs shape, only_slices xs -> pos_steps xs -> shape_ok shape ->
  (List.length (items xs) <= List.length shape)%nat ->
  exists ys, resolve_slice xs shape = Ok ys /\ List.length ys = List.length (items xs) /\
    Forall (fun p => exists a b k, fst p = conc a b k /\ 0 <= a <= snd p /\ 0 <= b <= snd p /\ 0 < k) (combine ys shape) /\
    forall ks c, reads (items xs) shape ks c <-> reads (map ISlice ys) shape ks c.
Proof.
  intros xs shape O P D L. unfold resolve_slice. fold (items xs).
  pose proof (split_slices xs O P) as S.
  destruct (reads_map resolve_item pos_step (items xs) shape L D S) as (ys & E & Ly & R).
  { intros s n Ps Hn. destruct (resolve_item_pos s n Ps Hn) as (a & b & k & E & _ & _ & _ & K). exists (conc a b k). auto. }
  exists ys. spl; auto.
  eapply (sequence_forall resolve_item (fun t n => exists a b k, t = conc a b k /\ 0 <= a <= n /\ 0 <= b <= n /\ 0 < k)); eauto.
  intros x n t Hx Hn E1. rewrite Forall_forall in S. destruct (S x Hx) as (s & -> & Ps).
  unfold shape_ok in D. rewrite Forall_forall in D.
  destruct (resolve_item_pos s n Ps (D n Hn)) as (a & b & k & E2 & ?). rewrite E2 in E1. injection E1 as <-.
  exists a, b, k. tauto.
Qed.

Lemma selected_cons_slice : forall s l n sh x c, selected (ISlice s :: l) (n :: sh) (x :: c) <-> (exists k, kth s n k x) /\ selected l sh c.
Proof.
  intros. unfold selected. split.
  - intros (ks & H). apply reads_slice in H as (n' & sh' & k & ks' & y & c' & E1 & -> & E2 & A & B).
    injection E1 as <- <-. injection E2 as <- <-. eauto.
  - intros [(k & K) (ks & R)]. exists (k :: ks). constructor; auto.
Qed.

Lemma selected_cons_int : forall i l n sh x c, selected (IInt i :: l) (n :: sh) (x :: c) <->
  (- n <= i < n /\ x = if i <? 0 then n + i else i) /\ selected l sh c.
Proof.
  intros. unfold selected. split.
  - intros (ks & H). inversion H; subst. eauto.
  - intros [(A & ->) (ks & R)]. exists ks. constructor; auto.
Qed.

Lemma kth_unit_int : forall i n x, 0 <= i < n -> ((exists k, kth (conc i (i + 1) 1) n k x) <-> x = i).
Proof.
  intros i n x H. unfold kth, conc; simpl. rewrite !place_id by lia. split.
  - intros (k & A & [(B & -> & C)|(B & _)]); lia.
  - intros ->. exists 0. split; [lia|]. left. lia.
Qed.

Lemma resolve_selected : forall xs shape, pos_steps xs -> front_ints xs shape -> shape_ok shape ->
  (List.length (items xs) <= List.length shape)%nat ->
  exists ys, resolve_slice xs shape = Ok ys /\ Forall no_none ys /\ List.length ys = List.length (items xs) /\
    forall c, selected (items xs) shape c <-> selected (map ISlice ys) shape c.
Proof.
  intros xs shape P F D L. unfold resolve_slice, pos_steps, front_ints in *. fold (items xs). revert shape F D L.
  induction P as [|x l Px P IH]; intros [|n shape] F D L; cbn [map2 combine] in *; try (simpl in L; lia).
  - exists []. simpl. spl; auto. intros; tauto.
  - exists []. simpl. spl; auto. intros; tauto.
  - inversion F as [|? ? Fx F']; subst. inversion D; subst.
    destruct (IH shape F' H2 ltac:(simpl in L; lia)) as (ys & E & NN & Ly & R).
    assert (X : exists t, resolve_item x n = Ok t /\ no_none t /\ forall c y, selected (x :: l) (n :: shape) (y :: c) <-> selected (ISlice t :: map ISlice ys) (n :: shape) (y :: c)).
    { destruct x as [s|i].
      - destruct (resolve_item_pos s n Px H1) as (a & b & k & E1 & _ & _ & _ & K). exists (conc a b k). spl; auto.
        + unfold no_none; simpl; spl; discriminate.
        + intros c y. rewrite !selected_cons_slice, R. split; intros [(j & A) B]; split; auto; exists j; apply K; auto.
      - simpl in Fx. exists (conc i (i + 1) 1). spl; auto.
        + unfold no_none; simpl; spl; discriminate.
        + intros c y. rewrite selected_cons_int, selected_cons_slice, kth_unit_int, R by auto.
          destruct (Z.ltb_spec i 0); [lia|]. intuition lia. }
    destruct X as (t & E1 & Nt & Q). cbn [sequence]. rewrite E1, E. cbn [rbind]. exists (t :: ys). spl; auto.
    + simpl. auto.
    + intros [|y c]; [|apply Q]. split; intros (ks & X); apply reads_inside in X; discriminate.
Qed.

(** Negative steps give a ValueError only for zero. *)

(** dissolve_slice *)
Lemma dissolve_item_pos : forall s n, pos_step s -> 0 <= n ->
  exists t, dissolve_item (ISlice s) n = Ok t /\ forall j x, kth s n j x <-> kth t n j x.
Proof.
  intros [st sp k] n P Hn. eexists. split; [reflexivity|]. unfold pos_step in P; simpl in *.
  apply kth_same; simpl.
  - destruct k as [k|]; simpl; auto. destruct (Z.eqb_spec k 1); auto.
  - intros _. split.
    + destruct st as [[| |]|]; simpl; auto. rewrite place_id; lia.
    + destruct sp as [b|]; simpl; auto. destruct (Z.eqb_spec b n); auto. subst. rewrite place_id; lia.
  - intros N. destruct k; lia.
Qed.

Lemma dissolve_no_redundant : forall s n t, dissolve_item (ISlice s) n = Ok t -> no_redundant t n.
Proof.
  intros [st sp k] n t E. injection E as <-. unfold no_redundant; simpl. spl.
  - destruct st as [[| |]|]; simpl; discriminate.
  - destruct sp as [b|]; simpl; [|discriminate]. destruct (Z.eqb_spec b n); congruence.
  - destruct k as [b|]; simpl; [|discriminate]. destruct (Z.eqb_spec b 1); congruence.
Qed.

Lemma kth_full : forall n k x, kth (mk_ps None None None) n k x <-> k = x /\ 0 <= x < n.
Proof. intros. unfold kth; simpl. lia. Qed.

Lemma full_slice_eq : forall s, is_full_slice s = true -> s = mk_ps None None None.
Proof. intros [[?|] [?|] [?|]] H; try discriminate. auto. Qed.

Lemma reads_full_tail : forall l m shape ks c, (List.length l + m <= List.length shape)%nat ->
  (reads (map ISlice (l ++ repeat (mk_ps None None None) m)) shape ks c <-> reads (map ISlice l) shape ks c).
Proof.
  induction l as [|s l IH]; intros m shape ks c L.
  - simpl app. revert shape ks c L. induction m as [|m IHm]; intros [|n shape] ks c L; simpl in *; try tauto; try lia.
    specialize (IHm shape). rewrite reads_slice, reads_nil. split.
    + intros (n' & sh & k & ks' & x & c' & E & -> & -> & A & B). injection E as <- <-.
      apply IHm in B; [|lia]. apply reads_nil in B as [-> B]. apply kth_full in A as [-> A]. split; auto.
    + intros [-> F]. inversion F; subst. exists n, shape, y, l', y, l'. spl; auto.
      * apply kth_full. auto.
      * apply IHm; [lia|]. apply reads_nil. auto.
  - simpl. destruct shape as [|n shape]; simpl in L; [lia|]. rewrite !reads_slice.
    split; intros (n' & sh & k & ks' & x & c' & E & -> & -> & A & B); injection E as <- <-;
      exists n, shape, k, ks', x, c'; spl; auto; apply (IH m); auto; lia.
Qed.

Lemma drop_full_spec : forall l, exists m, rev l = rev (drop_full l) ++ repeat (mk_ps None None None) m /\
  match drop_full l with [] => True | s :: _ => s <> mk_ps None None None end.
Proof.
  induction l as [|s l IH]; simpl.
  - exists 0%nat. auto.
  - destruct (is_full_slice s) eqn:E.
    + apply full_slice_eq in E. subst. destruct IH as (m & A & B). exists (S m). split; auto.
      rewrite A. rewrite <- app_assoc. f_equal. clear. induction m; simpl; auto. f_equal. auto.
    + exists 0%nat. simpl. rewrite app_nil_r. split; auto. intros ->. discriminate.
Qed.

Definition out_items (zs : list pslice) : ndslice := match zs with [] => NEllipsis | _ => NTuple (map ISlice zs) end.
Lemma out_items_items : forall zs, items (out_items zs) = map ISlice zs.
Proof. destruct zs; auto. Qed.

Lemma dissolve_reads : forall l shape pr, only_slices (NTuple l) -> pos_steps (NTuple l) -> shape_ok shape ->
  (List.length l <= List.length shape)%nat ->
  exists zs, dissolve_slice (NTuple l) shape pr = Ok (out_items zs) /\
    (List.length zs <= List.length l)%nat /\ (pr = true -> List.length zs = List.length l) /\
    (pr = false -> zs = [] \/ last zs (mk_ps (Some 0) None None) <> mk_ps None None None) /\
    Forall (fun p => no_redundant (fst p) (snd p)) (combine zs shape) /\
    forall ks c, reads l shape ks c <-> reads (map ISlice zs) shape ks c.
Proof.
  intros l shape pr O P D L. pose proof (split_slices _ O P) as S. simpl in S.
  destruct (reads_map dissolve_item pos_step l shape L D S dissolve_item_pos) as (ys & E & Ly & R).
  unfold dissolve_slice. rewrite E. cbn [rmap].
  assert (NR : Forall (fun p => no_redundant (fst p) (snd p)) (combine ys shape)).
  { eapply (sequence_forall dissolve_item no_redundant); eauto. intros x n t Hx Hn E1.
    rewrite Forall_forall in S. destruct (S x Hx) as (s & -> & _). eapply dissolve_no_redundant; eauto. }
  destruct pr.
  - exists ys. spl; auto; try lia; discriminate.
  - destruct (drop_full_spec (rev ys)) as (m & A & B). rewrite rev_involutive in A.
    exists (rev (drop_full (rev ys))). set (zs := rev (drop_full (rev ys))) in *.
    assert (Lz : (List.length zs + m = List.length ys)%nat) by (rewrite A, app_length, repeat_length; auto).
    spl; auto; try lia; try discriminate.
    + intros _. unfold zs. destruct (drop_full (rev ys)) as [|s r]; auto. right. simpl. rewrite last_last. auto.
    + rewrite A in NR. clear - NR. revert shape NR. generalize zs. intros l0. induction l0; intros [|n shape] NR; simpl in *; auto.
      inversion NR; subst; auto.
    + intros ks c. rewrite R, A. apply reads_full_tail. lia.
Qed.

(** Resolving, dissolving and resolving again. *)
Lemma resolve_dissolve_item : forall a b k n t, 0 <= a <= n -> 0 <= b <= n -> 0 < k ->
  dissolve_item (ISlice (conc a b k)) n = Ok t -> resolve_item (ISlice t) n = Ok (conc a b k).
Proof.
  intros a b k n t Ha Hb Hk E. injection E as <-.
  assert (P : pos_step (mk_ps (or_none (Some a)) (if b =? n then None else Some b) (if k =? 1 then None else Some k))).
  { unfold pos_step; simpl. destruct (k =? 1); auto. }
  simpl resolve_item. rewrite indices_pos; auto; try lia. cbn [rmap fst snd ps_start ps_stop ps_step]. f_equal.
  assert (X : match or_none (Some a) with Some a0 => place n 0 n a0 | None => 0 end = a).
  { destruct a; simpl; auto; rewrite place_id; lia. }
  assert (Y : match (if b =? n then None else Some b) with Some b0 => place n 0 n b0 | None => n end = b).
  { destruct (Z.eqb_spec b n); auto; rewrite place_id; lia. }
  assert (W : match (if k =? 1 then None else Some k) with Some d => d | None => 1 end = k).
  { destruct (Z.eqb_spec k 1); auto. }
  unfold or_none in X. rewrite X, Y, W. auto.
Qed.

Lemma resolve_dissolve_list : forall ys shape,
  Forall (fun p => exists a b k, fst p = conc a b k /\ 0 <= a <= snd p /\ 0 <= b <= snd p /\ 0 < k) (combine ys shape) ->
  (List.length ys <= List.length shape)%nat ->
  exists zs, sequence (map2 dissolve_item (map ISlice ys) shape) = Ok zs /\
    sequence (map2 resolve_item (map ISlice zs) shape) = Ok ys.
Proof.
  induction ys as [|y ys IH]; intros [|n shape] F L; simpl in *; try lia; try (exists []; split; reflexivity).
  inversion F as [|? ? (a & b & k & E & A & B & C) F']; subst. simpl in *. subst.
  destruct (IH shape F' ltac:(lia)) as (zs & E1 & E2).
  pose proof (resolve_dissolve_item a b k n _ A B C eq_refl) as X. simpl in X.
  rewrite E1. cbn [rbind]. eexists. split; [reflexivity|]. cbn [map map2 sequence].
  rewrite E2. simpl. rewrite X. auto.
Qed.

Lemma resolve_dissolve : forall xs shape ys zs, only_slices xs -> pos_steps xs -> shape_ok shape ->
  (List.length (items xs) <= List.length shape)%nat ->
  resolve_slice xs shape = Ok ys -> dissolve_slice (NTuple (map ISlice ys)) shape true = Ok zs ->
  resolve_slice zs shape = Ok ys.
Proof.
  intros xs shape ys zs O P D L E E1. destruct (resolve_reads xs shape O P D L) as (ys' & E' & Ly & F & _).
  rewrite E in E'. injection E' as <-.
  destruct (resolve_dissolve_list ys shape F ltac:(lia)) as (ds & E2 & E3).
  unfold dissolve_slice in E1. rewrite E2 in E1. cbn [rmap] in E1. injection E1 as <-.
  unfold resolve_slice. destruct ds; auto.
Qed.

Lemma resolve_idem : forall xs shape ys, only_slices xs -> pos_steps xs -> shape_ok shape ->
  (List.length (items xs) <= List.length shape)%nat ->
  resolve_slice xs shape = Ok ys -> resolve_slice (NTuple (map ISlice ys)) shape = Ok ys.
Proof.
  intros xs shape ys O P D L E. destruct (resolve_reads xs shape O P D L) as (ys' & E' & Ly & F & _).
  rewrite E in E'. injection E' as <-. unfold resolve_slice. clear - F Ly L.
  assert (L' : (List.length ys <= List.length shape)%nat) by lia. clear Ly L. revert shape F L'.
  induction ys as [|y ys IH]; intros [|n shape] F L; simpl in L; try lia; auto.
  inversion F as [|? ? (a & b & k & E & A & B & C) F']; subst. simpl in E, A, B. subst.
  cbn [map map2]. rewrite resolve_conc by auto. cbn [sequence rbind]. rewrite IH by (auto; lia). auto.
Qed.

(** normalize_slice *)
Lemma wrap_place : forall n b lo hi, - n <= b -> place n lo hi (if 0 <=? b then b else n + b) = place n lo hi b.
Proof.
  intros. unfold place. destruct (Z.leb_spec 0 b), (Z.ltb_spec b 0); try lia.
  destruct (Z.ltb_spec (n + b) 0); lia.
Qed.

Lemma normalize_reads : forall xs shape,
  (List.length xs <= List.length shape)%nat ->
  Forall (fun p => exists a b k, fst p = conc a b k /\ - snd p <= a /\ - snd p <= b) (combine xs shape) ->
  exists ys, normalize_slice xs shape = Ok ys /\ List.length ys = List.length xs /\
    Forall (fun s => exists a b k, s = conc a b k /\ 0 <= a /\ 0 <= b) ys /\
    forall ks c, reads (map ISlice xs) shape ks c <-> reads (map ISlice ys) shape ks c.
Proof.
  unfold normalize_slice. induction xs as [|x xs IH]; intros [|n shape] L F; simpl in L; try lia.
  - exists []. simpl. spl; auto. intros; tauto.
  - exists []. simpl. spl; auto. intros; tauto.
  - inversion F as [|? ? (a & b & k & E & A & B) F']; subst. simpl in E, A, B. subst.
    destruct (IH shape ltac:(lia) F') as (ys & E & Ly & G & R). cbn [map2 sequence]. rewrite E. simpl.
    eexists. split; [reflexivity|]. simpl. spl; auto.
    + constructor; auto. eexists _, _, _. split; [reflexivity|].
      split; [destruct (Z.leb_spec 0 a)|destruct (Z.leb_spec 0 b)]; lia.
    + intros ks c. rewrite !reads_slice. 
      assert (K : forall j x, kth (conc a b k) n j x <->
        kth (mk_ps (Some (if 0 <=? a then a else n + a)) (Some (if 0 <=? b then b else n + b)) (Some k)) n j x).
      { apply kth_same; simpl; auto; intros _; rewrite !wrap_place by auto; auto. }
      split; intros (m & sh & j & ks' & y & c' & E1 & -> & -> & X & Y);
        injection E1 as <- <-; exists n, shape, j, ks', y, c'; spl; auto; try (apply K; auto); apply R; auto.
Qed.

(** FRAG normalize *)
Lemma fill_none_reads : forall xs shape, (List.length xs <= List.length shape)%nat -> shape_ok shape ->
  Forall pos_step xs -> Forall no_none (fill_none xs shape) /\
  forall ks c, reads (map ISlice xs) shape ks c <-> reads (map ISlice (fill_none xs shape)) shape ks c.
Proof.
  unfold fill_none. induction xs as [|x xs IH]; intros [|n shape] L D P; simpl in L; try lia.
  - simpl. split; auto. intros; tauto.
  - simpl. split; auto. intros; tauto.
  - inversion D; subst. inversion P; subst. destruct (IH shape ltac:(lia) H2 H4) as [G R]. simpl. split.
    + constructor; auto. unfold no_none; simpl; spl; discriminate.
    + intros ks c. rewrite !reads_slice.
      assert (K : forall j y, kth x n j y <->
        kth (conc (match ps_start x with Some a => a | None => 0 end) (match ps_stop x with Some b => b | None => n end)
                  (match ps_step x with Some k => k | None => 1 end)) n j y).
      { apply kth_same; simpl; auto.
        - intros _. split; [destruct (ps_start x)|destruct (ps_stop x)]; auto; rewrite place_id; lia.
        - unfold pos_step in H3. destruct (ps_step x); lia. }
      split; intros (m & sh & j & ks' & y & c' & E1 & -> & -> & X & Y);
        injection E1 as <- <-; exists n, shape, j, ks', y, c'; spl; auto; try (apply K; auto); apply R; auto.
Qed.

(** Hashable form *)
Lemma tuple_conc : forall a b k, k <> 0 -> int_tuple_from_slice (conc a b k) = Ok (a, b, k).
Proof. intros a b k H. unfold int_tuple_from_slice, conc; simpl. destruct k; auto. lia. Qed.

Lemma hashable_back : forall ys, Forall (fun s => exists a b k, s = conc a b k /\ k <> 0) ys ->
  exists t, sequence (map int_tuple_from_slice ys) = Ok t /\ from_hashable_index t = ys.
Proof.
  intros ys H. induction H as [|s ys (a & b & k & -> & K) H IH]; simpl.
  - exists []. auto.
  - destruct IH as (t & E & F). rewrite E. destruct k; [lia| |]; simpl; eexists; (split; [reflexivity|]); simpl; rewrite F; auto.
Qed.

Lemma hashable_spec : forall xs n shape, only_slices xs -> pos_steps xs -> shape_ok (n :: shape) ->
  (List.length (items xs) <= List.length (n :: shape))%nat ->
  exists t, to_hashable_index xs (Some (n :: shape)) = Ok t /\
    resolve_slice xs (n :: shape) = Ok (from_hashable_index t) /\
    forall ks c, reads (items xs) (n :: shape) ks c <-> reads (map ISlice (from_hashable_index t)) (n :: shape) ks c.
Proof.
  intros xs n shape O P D L. destruct (resolve_reads xs (n :: shape) O P D L) as (ys & E & Ly & F & R).
  unfold to_hashable_index. rewrite E. cbn [rbind].
  destruct (hashable_back ys) as (t & E1 & E2).
  { apply Forall_forall. intros s Hs. clear - F Hs Ly L. revert F L. rewrite <- Ly. clear Ly. generalize (n :: shape) as sh.
    induction ys as [|y ys IH]; intros [|m sh] F L; simpl in *; try lia; try tauto.
    inversion F as [|? ? (a & b & k & E & A & B & C) F']; subst. simpl in E. destruct Hs as [->|Hs].
    - exists a, b, k. split; auto. lia.
    - eapply IH; eauto. lia. }
  exists t. rewrite E2. spl; auto.
Qed.

Lemma from_to_hashable : forall t, Forall (fun x => snd x <> 0) t ->
  to_hashable_index (NTuple (map ISlice (from_hashable_index t))) None = Ok t.
Proof.
  intros t H. unfold to_hashable_index, as_slices.
  assert (E : forall l, sequence (map (fun x => match x with ISlice s => Ok s | IInt _ => Err AttributeError end) (map ISlice l)) = Ok l).
  { induction l; simpl; auto. rewrite IHl. auto. }
  rewrite E. cbn [rbind]. induction H as [|[[a b] k] t Hx H IH]; simpl; auto.
  rewrite IH. simpl in Hx. destruct k; [lia| |]; auto.
Qed.

(** Keys of contiguous non-empty slices are canonical. *)
Lemma kth_contig : forall a b n, 0 <= a <= n -> 0 <= b <= n -> forall x, (exists k, kth (conc a b 1) n k x) <-> a <= x < b.
Proof.
  intros a b n Ha Hb x. unfold kth, conc; simpl. rewrite !place_id by lia. split.
  - intros (k & A & [B|B]); lia.
  - intros H. exists (x - a). split; [lia|]. left. lia.
Qed.

Lemma canonical_list : forall ys zs shape,
  List.length ys = List.length shape -> List.length zs = List.length shape ->
  Forall (fun p => exists a b, fst p = conc a b 1 /\ 0 <= a < b /\ b <= snd p) (combine ys shape) ->
  Forall (fun p => exists a b, fst p = conc a b 1 /\ 0 <= a < b /\ b <= snd p) (combine zs shape) ->
  (forall c, selected (map ISlice ys) shape c <-> selected (map ISlice zs) shape c) -> ys = zs.
Proof.
  assert (NE : forall ys shape, List.length ys = List.length shape ->
    Forall (fun p => exists a b, fst p = conc a b 1 /\ 0 <= a < b /\ b <= snd p) (combine ys shape) -> exists c, selected (map ISlice ys) shape c).
  { induction ys as [|y ys IH]; intros [|n shape] L F; simpl in L; try discriminate.
    - exists [], []. constructor. constructor.
    - inversion F as [|? ? (a & b & E & A & B) F']; subst. simpl in E, B. subst. destruct (IH shape ltac:(lia) F') as (c & S).
      exists (a :: c). apply selected_cons_slice. split; auto. apply kth_contig; lia. }
  induction ys as [|y ys IH]; intros [|z zs] [|n shape] L1 L2 F1 F2 H; simpl in L1, L2; try discriminate; auto.
  pose proof (NE (y :: ys) (n :: shape) L1 F1) as N1.
  inversion F1 as [|? ? (a & b & E & A & B) F1']; subst. simpl in E, B. subst.
  inversion F2 as [|? ? (a' & b' & E & A' & B') F2']; subst. simpl in E, B'. subst.
  cbn [map] in *.
  assert (Q : forall x c, (a <= x < b /\ selected (map ISlice ys) shape c) <-> (a' <= x < b' /\ selected (map ISlice zs) shape c)).
  { intros x c. specialize (H (x :: c)). rewrite !selected_cons_slice, !kth_contig in H by lia. auto. }
  destruct (NE ys shape ltac:(lia) F1') as (c0 & S0).
  assert (a = a' /\ b = b') as [-> ->].
  { pose proof (proj1 (Q a c0) ltac:(split; auto; lia)). pose proof (proj1 (Q (b - 1) c0) ltac:(split; auto; lia)).
    destruct (NE zs shape ltac:(lia) F2') as (c1 & S1).
    pose proof (proj2 (Q a' c1) ltac:(split; auto; lia)). pose proof (proj2 (Q (b' - 1) c1) ltac:(split; auto; lia)). lia. }
  f_equal. apply (IH zs shape); auto; try lia. intros c. specialize (Q a' c). assert (a' <= a' < b') by lia. tauto.
Qed.

(** Shapes *)
Lemma extent_kth : forall a b k n, 0 <= a <= b -> b <= n -> 0 < k ->
  forall j, (exists x, kth (conc a b k) n j x) <-> 0 <= j < (b - a + (k - 1)) / k.
Proof.
  intros a b k n Ha Hb Hk j. unfold kth, conc; simpl. rewrite !place_id by lia.
  assert (E : 0 <= j -> (j < (b - a + (k - 1)) / k <-> a + j * k < b)).
  { intros Hj. split; intros H.
    - assert (k * ((b - a + (k - 1)) / k) <= b - a + (k - 1)) by (apply Z.mul_div_le; lia). nia.
    - assert (j + 1 <= (b - a + (k - 1)) / k) by (apply Z.div_le_lower_bound; nia). lia. }
  split.
  - intros (x & A & [(B & -> & C)|B]); [|lia]. split; auto. apply E; auto.
  - intros [A B]. exists (a + j * k). split; auto. left. spl; auto. apply E; auto.
Qed.

Lemma shape_reads : forall ys shape, List.length ys = List.length shape ->
  Forall (fun p => exists a b k, fst p = conc a b k /\ 0 <= a <= b /\ b <= snd p /\ 0 < k) (combine ys shape) ->
  exists out, ps_shape ys = Ok out /\
    forall ks, (exists c, reads (map ISlice ys) shape ks c) <-> Forall2 (fun n x => 0 <= x < n) out ks.
Proof.
  unfold ps_shape. induction ys as [|y ys IH]; intros [|n shape] L F; simpl in L; try discriminate.
  - exists []. split; auto. intros ks. split.
    + intros (c & R). apply reads_nil in R as [-> R]. auto.
    + intros R. exists ks. apply reads_nil. auto.
  - inversion F as [|? ? (a & b & k & E & A & B & C) F']; subst. simpl in E, B. subst.
    destruct (IH shape ltac:(lia) F') as (out & E & R). cbn [map sequence]. rewrite E.
    unfold conc at 1 2 3. cbn [ps_start ps_stop ps_step]. destruct (Z.eqb_spec k 0); [lia|].
    cbn [rbind]. eexists. split; [reflexivity|]. intros ks. split.
    + intros (c & H). apply reads_slice in H as (n' & sh & j & ks' & x & c' & E1 & -> & -> & X & Y).
      injection E1 as <- <-. constructor; [|apply R; eauto]. apply (extent_kth a b k n); auto. eauto.
    + intros H. inversion H; subst. apply R in H4 as (c & H4). 
      apply (extent_kth a b k n) in H2 as (x & X); auto. exists (x :: c). constructor; auto.
Qed.

(** Without a shape *)
Definition concrete_slice (s : pslice) : Prop := ps_start s <> None /\ ps_stop s <> None /\ ps_step s <> Some 0.

Lemma as_slices_map : forall l, as_slices (NTuple (map ISlice l)) = Ok l.
Proof. intros l. unfold as_slices. rewrite map_map. induction l as [|s l IH]; simpl; auto. rewrite IH. auto. Qed.

Lemma tuple_of_concrete : forall s, concrete_slice s -> exists a b k, int_tuple_from_slice s = Ok (a, b, k) /\ forall n j x, kth s n j x <-> kth (conc a b k) n j x.
Proof.
  intros [[a|] [b|] st] (A & B & C); simpl in *; try congruence. unfold int_tuple_from_slice. simpl. destruct st as [k|].
  - destruct k; [congruence| |]; simpl; eexists _, _, _; split; try reflexivity; intros; reflexivity.
  - simpl. exists a, b, 1. split; auto. intros. reflexivity.
Qed.

Lemma concrete_reads : forall l, Forall concrete_slice l -> exists t, to_hashable_index (NTuple (map ISlice l)) None = Ok t /\
  forall shape ks c, reads (map ISlice l) shape ks c <-> reads (map ISlice (from_hashable_index t)) shape ks c.
Proof.
  intros l F. unfold to_hashable_index. rewrite as_slices_map. cbn [rbind]. induction F as [|s l C F (t & E & R)].
  - exists []. split; auto. intros. reflexivity.
  - destruct (tuple_of_concrete s C) as (a & b & k & E1 & K). cbn [map sequence]. rewrite E1, E. cbn [rbind]. eexists. split; [reflexivity|].
    intros shape ks c. cbn [from_hashable_index map fst snd]. rewrite !reads_slice.
    split; intros (m & sh & j & ks' & y & c' & E2 & E3 & E4 & X & Y); exists m, sh, j, ks', y, c'; spl; auto; try (apply K; auto); apply R; auto.
Qed.

Lemma not_concrete : forall l s, In s l -> ps_start s = None \/ ps_stop s = None -> to_hashable_index (NTuple (map ISlice l)) None = Err ValueError.
Proof.
  intros l s I N. unfold to_hashable_index. rewrite as_slices_map. cbn [rbind]. induction l as [|x l IH]; [contradiction|]. cbn [map sequence].
  assert (V : forall y e, int_tuple_from_slice y = Err e -> e = ValueError).
  { intros [[?|] [?|] st] e; unfold int_tuple_from_slice; simpl; destruct (or_none st); congruence. }
  destruct (int_tuple_from_slice x) as [p|e] eqn:E; [|apply V in E; subst; auto]. cbn [rbind]. destruct I as [->|I]; [|rewrite IH; auto].
  exfalso. unfold int_tuple_from_slice in E. destruct N as [N|N]; rewrite N in E; destruct (ps_start s); discriminate.
Qed.
