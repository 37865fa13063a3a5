(** Proofs about the choice of a chunk shape. *)
From Coq Require Import ZArith List Bool Lia Znumtheory Sorting.Sorted.
From Verif Require Import Base Chunk_Model Chunk_Spec.
Import ListNotations.
Local Open Scope Z_scope.

(* ---------------------------------------------------------------- lists *)
Lemma set_nth_length : forall {A} i (v : A) l, List.length (set_nth i v l) = List.length l.
Proof. intros A i v l; revert i; induction l; destruct i; simpl; auto. Qed.

Lemma nth_set_nth_eq : forall {A} i (v : A) l d, (i < List.length l)%nat -> nth i (set_nth i v l) d = v.
Proof. intros A i v l d; revert i; induction l; destruct i; simpl; intros; try lia; auto. apply IHl; lia. Qed.

Lemma nth_set_nth_neq : forall {A} i j (v : A) l d, i <> j -> nth j (set_nth i v l) d = nth j l d.
Proof.
  intros A i j v l d; revert i j; induction l; destruct i, j; simpl; intros; auto; try lia.
Qed.

Lemma map_set_nth : forall {A B} (f : A -> B) i v l, map f (set_nth i v l) = set_nth i (f v) (map f l).
Proof. intros A B f i v l; revert i; induction l; destruct i; simpl; auto. rewrite IHl; auto. Qed.

Lemma set_nth_with_dim : forall i v l, (i < List.length l)%nat -> set_nth i v l = with_dim l i v.
Proof.
  unfold with_dim. intros i v l; revert i; induction l; destruct i; simpl; intros; try lia; auto.
  f_equal. rewrite IHl by lia. reflexivity.
Qed.

Lemma set_nth_set_nth : forall {A} i (v u : A) l, set_nth i v (set_nth i u l) = set_nth i v l.
Proof. intros A i v u l; revert i; induction l; destruct i; simpl; auto. rewrite IHl; auto. Qed.

Lemma set_nth_self : forall {A} i (l : list A) d, (i < List.length l)%nat -> set_nth i (nth i l d) l = l.
Proof. intros A i l d; revert i; induction l; destruct i; simpl; intros; try lia; auto. rewrite IHl by lia; auto. Qed.

Lemma nth_map_in : forall {A B} (f : A -> B) i l d d', (i < List.length l)%nat -> nth i (map f l) d = f (nth i l d').
Proof. intros. rewrite nth_indep with (d' := f d') by (rewrite map_length; auto). apply map_nth. Qed.

Lemma prod_volume : forall l, prod l = volume l.
Proof. induction l; simpl; unfold prod in *; simpl; congruence. Qed.

Lemma prod_set_nth : forall i v l, (i < List.length l)%nat ->
  prod (set_nth i v l) * nth i l 1 = prod l * v.
Proof.
  intros i v l; revert i; induction l as [|a l IHl]; intros i Hi; simpl in Hi; [lia|].
  destruct i as [|i]; unfold prod in *; simpl. ring.
  specialize (IHl i ltac:(lia)). rewrite <- Z.mul_assoc, IHl. ring.
Qed.

Lemma prod_nth_dvd : forall i l, (i < List.length l)%nat -> (nth i l 1 | prod l).
Proof.
  intros i l; revert i; induction l; destruct i; unfold prod in *; simpl; intros; try lia.
  - apply Z.divide_factor_l.
  - apply Z.divide_mul_r. apply IHl; lia.
Qed.

(* ------------------------------------------------------------- divisors *)
Lemma In_insert_uniq : forall x y l, In x (insert_uniq y l) <-> x = y \/ In x l.
Proof.
  induction l as [|a l IH]; simpl. intuition.
  destruct (y <? a) eqn:E1; simpl. intuition.
  destruct (y =? a) eqn:E2; simpl.
  - apply Z.eqb_eq in E2; subst. intuition.
  - rewrite IH. intuition.
Qed.

Lemma In_sorted_set : forall x l, In x (sorted_set l) <-> In x l.
Proof.
  induction l; simpl. intuition. unfold sorted_set in *; simpl. rewrite In_insert_uniq, IHl. intuition.
Qed.

Lemma insert_uniq_sorted : forall x l, StronglySorted Z.lt l -> StronglySorted Z.lt (insert_uniq x l).
Proof.
  induction l as [|a l IH]; simpl; intros H. repeat constructor.
  inversion H; subst.
  destruct (x <? a) eqn:E1.
  - apply Z.ltb_lt in E1. constructor; auto. constructor; auto.
    eapply Forall_impl; [|eassumption]. simpl; intros; lia.
  - apply Z.ltb_ge in E1. destruct (x =? a) eqn:E2; auto.
    apply Z.eqb_neq in E2. constructor; auto.
    apply Forall_forall. intros y Hy. apply In_insert_uniq in Hy. destruct Hy; [subst; lia|].
    rewrite Forall_forall in H3; auto.
Qed.

Lemma sorted_set_sorted : forall l, StronglySorted Z.lt (sorted_set l).
Proof. induction l; unfold sorted_set; simpl. constructor. apply insert_uniq_sorted; auto. Qed.

Lemma In_range1 : forall x s, In x (range1 s) <-> 1 <= x < s.
Proof.
  unfold range1; intros. rewrite in_map_iff. split.
  - intros (k & <- & H). apply in_seq in H. lia.
  - intros. exists (Z.to_nat x). split. lia. apply in_seq. lia.
Qed.

Lemma below_sqrt : forall i n, 0 <= n -> 1 <= i -> (i < Z.sqrt_up (n + 1) <-> i * i <= n).
Proof.
  intros i n Hn Hi. pose proof (Z.sqrt_up_spec (n + 1) ltac:(lia)) as [H1 H2].
  split; intros.
  - assert (i <= Z.pred (Z.sqrt_up (n + 1))) by lia. nia.
  - destruct (Z_lt_le_dec i (Z.sqrt_up (n + 1))); auto. nia.
Qed.

Lemma find_divisors_spec : forall n d, 1 <= n -> (In d (find_divisors n) <-> 1 <= d /\ (d | n)).
Proof.
  intros n d Hn. unfold find_divisors. rewrite In_sorted_set, in_app_iff, <- in_rev, in_map_iff.
  assert (F : forall i, In i (filter (fun i => n mod i =? 0) (range1 (Z.sqrt_up (n + 1))))
              <-> 1 <= i /\ i * i <= n /\ (i | n)).
  { intros i. rewrite filter_In, In_range1, Z.eqb_eq. split.
    - intros ((A & B) & C). apply below_sqrt in B; try lia. repeat split; auto.
      apply Z.mod_divide; auto; lia.
    - intros (A & B & C). repeat split; auto. apply below_sqrt; lia. apply Z.mod_divide; auto; lia. }
  rewrite F. split.
  - intros [(A & B & C)|(x & <- & Hx)]; auto.
    apply F in Hx. destruct Hx as (A & B & (k & ->)).
    rewrite Z.div_mul by lia. split. nia. apply Z.divide_factor_l.
  - intros (A & (k & ->)). destruct (Z_le_gt_dec (d * d) (k * d)).
    + left. repeat split; auto. apply Z.divide_factor_r.
    + right. exists k. assert (1 <= k) by nia. split. rewrite Z.mul_comm, Z.div_mul; lia.
      apply F. repeat split; auto. nia. apply Z.divide_factor_l.
Qed.

(* ------------------------------------------------- one divisor list *)
Definition good (w : Z) (f : list Z) : Prop :=
  StronglySorted Z.gt f /\ f <> [] /\
  (forall x, In x f -> 1 <= x /\ (x | w)) /\
  (forall x, 1 <= x <= cur f -> (x | w) -> In x f).

Lemma sorted_rev : forall l, StronglySorted Z.lt l -> StronglySorted Z.gt (rev l).
Proof.
  assert (G : forall l a, StronglySorted Z.gt l -> (forall x, In x l -> x > a) -> StronglySorted Z.gt (l ++ [a])).
  { induction l; simpl; intros; [repeat constructor|].
    inversion H; subst. constructor. apply IHl; auto.
    apply Forall_app; split; auto. }
  induction l; simpl; intros; [constructor|]. inversion H; subst.
  apply G; auto. intros x Hx. apply in_rev in Hx. rewrite Forall_forall in H3. specialize (H3 _ Hx). lia.
Qed.

Lemma good_init : forall w, 1 <= w -> good w (rev (find_divisors w)) /\ cur (rev (find_divisors w)) = w.
Proof.
  intros w Hw.
  assert (S : StronglySorted Z.gt (rev (find_divisors w))).
  { apply sorted_rev. unfold find_divisors. apply sorted_set_sorted. }
  assert (M : forall x, In x (rev (find_divisors w)) <-> 1 <= x /\ (x | w)).
  { intros. rewrite <- in_rev. apply find_divisors_spec; auto. }
  assert (W : In w (rev (find_divisors w))). { apply M; split; auto. apply Z.divide_refl. }
  destruct (rev (find_divisors w)) as [|c r] eqn:E; [destruct W|].
  assert (c = w).
  { inversion S; subst. destruct W as [|W]; auto. rewrite Forall_forall in H2. specialize (H2 _ W).
    destruct (proj1 (M c) (or_introl eq_refl)) as [P Q]. apply Z.divide_pos_le in Q; lia. }
  split; auto. split; [auto|split; [discriminate|split]].
  - intros x Hx. apply M; auto.
  - intros x Hx D. apply M. split; auto. lia.
Qed.

Lemma good_tail : forall w c n r, good w (c :: n :: r) -> good w (n :: r) /\ next_size w n c /\ 1 <= n.
Proof.
  intros w c n r (S & _ & M & A). inversion S as [|? ? S' Fc]; subst.
  pose proof (Forall_inv Fc) as Hc. inversion S' as [|? ? S'' Fn]; subst.
  split; [|split].
  - split; [auto|split; [discriminate|split]].
    { intros x Hx. apply M. right; auto. }
    intros x Hx D. simpl in Hx. assert (Hx' : 1 <= x <= cur (c :: n :: r)) by (simpl; lia).
    destruct (A x Hx' D) as [->|H]; auto. lia.
  - repeat split. lia. apply M; left; auto.
    intros x Hx D. destruct (Z_le_gt_dec c x); auto.
    destruct (M n) as [N1 _]; [right; left; auto|].
    assert (Hx' : 1 <= x <= cur (c :: n :: r)) by (simpl; lia).
    destruct (A x Hx' D) as [->|[->|H]]; try lia.
    rewrite Forall_forall in Fn. specialize (Fn _ H). lia.
  - apply M. right; left; auto.
Qed.

Lemma good_cur : forall w f, good w f -> 1 <= cur f /\ (cur f | w).
Proof. intros w f (S & N & M & A). destruct f; [congruence|]. apply M. left; auto. Qed.

Lemma good_one : forall w f, good w f -> List.length f = 1%nat -> cur f = 1.
Proof.
  intros w f G L. pose proof (good_cur _ _ G) as [C _]. destruct G as (S & N & M & A).
  assert (In 1 f). { apply A. lia. apply Z.divide_1_l. }
  destruct f as [|c [|]]; simpl in *; try lia.
Qed.

Lemma good_two : forall w f, good w f -> 1 < cur f -> exists c n r, f = c :: n :: r.
Proof.
  intros w f (S & N & M & A) C. assert (I1 : In 1 f). { apply A. lia. apply Z.divide_1_l. }
  destruct f as [|c [|n r]]; simpl in *; eauto; try lia.
Qed.

(* ------------------------------------------------------- state invariant *)
Definition INV (ws : list Z) (st : cstate) : Prop :=
  List.length (factors st) = List.length ws /\
  List.length (sharded st) = List.length ws /\
  (forall i, (i < List.length ws)%nat -> good (nth i ws 1) (nth i (factors st) [])) /\
  total st = prod (shape_of st).

Lemma nth_shape : forall st i, (i < List.length (factors st))%nat ->
  nth i (shape_of st) 1 = cur (nth i (factors st) []).
Proof. intros. unfold shape_of. apply nth_map_in; auto. Qed.

Definition sumlen (st : cstate) : nat := fold_right (fun f n => List.length f + n)%nat 0%nat (factors st).

Lemma sumlen_set : forall (fs : list (list Z)) i c n r, (i < List.length fs)%nat -> nth i fs [] = c :: n :: r ->
  (S (fold_right (fun f n => List.length f + n) 0 (set_nth i (n :: r) fs)) =
   fold_right (fun f n => List.length f + n) 0 fs)%nat.
Proof.
  induction fs; destruct i; simpl; intros; try lia.
  - subst. simpl. lia.
  - specialize (IHfs i c n r ltac:(lia) H0). lia.
Qed.

Lemma reduce_ok : forall ws st i c n r,
  INV ws st -> (i < List.length ws)%nat -> nth i (factors st) [] = c :: n :: r ->
  exists st', reduce_dim i st = Ok st' /\ INV ws st' /\
    factors st' = set_nth i (n :: r) (factors st) /\
    sharded st' = set_nth i true (sharded st) /\
    shape_of st' = set_nth i n (shape_of st) /\
    (S (sumlen st') = sumlen st)%nat /\
    next_size (nth i ws 1) n c.
Proof.
  intros ws st i c n r (L1 & L2 & G & T) Hi E.
  unfold reduce_dim. rewrite E. eexists. split; [reflexivity|]. simpl.
  pose proof (G i Hi) as Gi. rewrite E in Gi. pose proof (good_tail _ _ _ _ Gi) as (Gt & NS & _).
  pose proof (good_cur _ _ Gi) as [C1 _]. simpl in C1.
  assert (SH : shape_of (mk_cstate (set_nth i (n :: r) (factors st)) (total st / c * n)
                           (set_nth i true (sharded st))) = set_nth i n (shape_of st)).
  { unfold shape_of; simpl. rewrite map_set_nth. reflexivity. }
  repeat match goal with |- _ /\ _ => split end; auto.
  - unfold INV. rewrite SH. simpl. rewrite !set_nth_length.
    repeat match goal with |- _ /\ _ => split end; auto.
    + intros j Hj. destruct (Nat.eq_dec i j).
      * subst. rewrite nth_set_nth_eq by lia. auto.
      * rewrite nth_set_nth_neq by auto. auto.
    + assert (NS' : nth i (shape_of st) 1 = c). { rewrite nth_shape by lia. rewrite E. reflexivity. }
      pose proof (prod_set_nth i n (shape_of st)) as P.
      pose proof (prod_nth_dvd i (shape_of st)) as D.
      assert (LS : (i < List.length (shape_of st))%nat). { unfold shape_of. rewrite map_length. lia. }
      specialize (P LS). specialize (D LS). rewrite NS' in *. rewrite T.
      destruct D as (k & D). rewrite D in *. rewrite Z.div_mul by lia. nia.
  - unfold sumlen; simpl. eapply sumlen_set; eauto. lia.
Qed.

Lemma exhaust_axis_ok : forall ws fuel st i,
  INV ws st -> (i < List.length ws)%nat -> (List.length (nth i (factors st) []) <= fuel)%nat ->
  exists st', exhaust_axis fuel i st = Ok st' /\ INV ws st' /\
    List.length (nth i (factors st') []) = 1%nat /\
    (forall j, j <> i -> nth j (factors st') [] = nth j (factors st) []) /\
    (forall j, j <> i -> nth j (sharded st') false = nth j (sharded st) false).
Proof.
  intros ws fuel. induction fuel; intros st i I Hi Hf.
  - destruct I as (_ & _ & G & _). specialize (G i Hi). destruct (nth i (factors st) []); simpl in *; [|lia].
    destruct G as (_ & G & _). congruence.
  - simpl. destruct (1 <? List.length (nth i (factors st) []))%nat eqn:E.
    + apply Nat.ltb_lt in E. destruct (nth i (factors st) []) as [|c [|n r]] eqn:F; simpl in *; try lia.
      destruct (reduce_ok _ _ _ _ _ _ I Hi F) as (st' & R & I' & F' & S' & _). rewrite R. simpl.
      assert (Li : (i < List.length (factors st))%nat). { destruct I as (L & _). lia. }
      destruct (IHfuel st' i I' Hi) as (st2 & R2 & I2 & O2 & N2 & M2).
      { rewrite F', nth_set_nth_eq by auto. simpl. lia. }
      exists st2. split; auto. split; auto. split; auto. split; intros j Hj.
      * rewrite N2, F', nth_set_nth_neq; auto.
      * rewrite M2, S', nth_set_nth_neq; auto.
    + apply Nat.ltb_ge in E. exists st. split; [auto|split; [auto|split; [|split; auto]]].
      destruct I as (_ & _ & G & _). specialize (G i Hi). destruct (nth i (factors st) []) as [|? [|]]; simpl in *; try lia; auto.
      destruct G as (_ & G & _). congruence.
Qed.

Lemma exhaust_axes_ok : forall ws axes st,
  INV ws st -> (forall i, In i axes -> (i < List.length ws)%nat) ->
  exists st', exhaust_axes axes st = Ok st' /\ INV ws st' /\
    (forall i, In i axes -> List.length (nth i (factors st') []) = 1%nat) /\
    (forall j, ~ In j axes -> nth j (factors st') [] = nth j (factors st) []) /\
    (forall j, ~ In j axes -> nth j (sharded st') false = nth j (sharded st) false).
Proof.
  intros ws axes. induction axes as [|a axes IH]; intros st I H; simpl.
  - exists st. split; [auto|split; [auto|split; [|split; auto]]]. intros ? [].
  - destruct (exhaust_axis_ok ws _ st a I (H a (or_introl eq_refl)) (le_n _)) as (s1 & R1 & I1 & O1 & N1 & M1).
    rewrite R1. simpl. destruct (IH s1 I1) as (s2 & R2 & I2 & O2 & N2 & M2). { intros; apply H; right; auto. }
    exists s2. split; auto. split; auto. split; [|split].
    + intros i [<-|Hi]; auto. destruct (in_dec Nat.eq_dec a axes); auto. rewrite N2; auto.
    + intros j Hj. rewrite N2, N1; auto.
    + intros j Hj. rewrite M2, M1; auto.
Qed.

(** The round-robin loop of lines 160-179 never does anything: every requested
    axis has already been reduced to a single divisor. *)
Lemma rr_dead : forall fuel axes tgt st,
  (forall i, In i axes -> List.length (nth i (factors st) []) = 1%nat) ->
  rr_outer (S fuel) axes tgt st = Ok st.
Proof.
  intros. simpl. destruct (tgt <? total st); auto.
  replace (candidates axes st) with (@nil nat); auto.
  unfold candidates. symmetry. induction axes as [|a axes IH]; simpl; auto.
  rewrite (H a) by (left; auto). rewrite andb_false_r. apply IH. intros; apply H; right; auto.
Qed.

(* --------------------------------------------------------- picking a dim *)
Lemma pick_from_some : forall fs sh i best size k,
  pick_from i best size fs sh = Some k ->
  best = Some k \/ (exists j, k = (i + j)%nat /\ (j < List.length fs)%nat /\ nth j sh false = true /\ size < cur (nth j fs [])).
Proof.
  induction fs as [|f fs IH]; intros sh i best size k H; simpl in H. auto.
  destruct sh as [|b sh]; auto.
  destruct (b && (size <? cur f)) eqn:E.
  - apply andb_true_iff in E as [Eb Es]. apply Z.ltb_lt in Es. apply IH in H as [H|(j & -> & Hj & A & B)].
    + injection H as <-. right. exists 0%nat. simpl. repeat split; auto; lia.
    + right. exists (S j). simpl. repeat split; auto; lia.
  - apply IH in H as [H|(j & -> & Hj & A & B)]; auto. right. exists (S j). simpl. repeat split; auto; lia.
Qed.

Lemma pick_from_none : forall fs sh i best size, List.length sh = List.length fs ->
  pick_from i best size fs sh = None ->
  best = None /\ (forall j, (j < List.length fs)%nat -> nth j sh false = true -> cur (nth j fs []) <= size).
Proof.
  induction fs as [|f fs IH]; intros sh i best size L H; simpl in *. split; auto; intros; lia.
  destruct sh as [|b sh]; try discriminate.
  destruct (b && (size <? cur f)) eqn:E.
  - apply IH in H as [H _]; [discriminate|simpl in L; lia].
  - apply IH in H as [H G]; [|simpl in L; lia]. split; auto. intros [|j] Hj Hb; simpl in *.
    + subst b. simpl in E. apply Z.ltb_ge in E. auto.
    + apply G; auto. lia.
Qed.

Lemma pick_some : forall ws st k, INV ws st -> pick_dim st = Some k ->
  (k < List.length ws)%nat /\ nth k (sharded st) false = true /\
  exists c n r, nth k (factors st) [] = c :: n :: r.
Proof.
  intros ws st k (L & L2 & G & _) H. apply pick_from_some in H as [H|(j & -> & Hj & A & B)]; [discriminate|].
  simpl. rewrite L in Hj. split; auto. split; auto. eapply good_two; eauto.
Qed.

Lemma pick_none : forall ws st, INV ws st -> pick_dim st = None ->
  forall j, (j < List.length ws)%nat -> nth j (sharded st) false = true -> cur (nth j (factors st) []) = 1.
Proof.
  intros ws st (L & L2 & G & _) H j Hj Hb.
  apply pick_from_none in H as [_ H]; [|lia]. specialize (H j ltac:(lia) Hb).
  pose proof (good_cur _ _ (G j Hj)). lia.
Qed.

Definition reset (st : cstate) : cstate :=
  mk_cstate (factors st) (total st) (map (fun _ => true) (factors st)).

Lemma INV_reset : forall ws st, INV ws st -> INV ws (reset st).
Proof. intros ws st (A & B & C & D). unfold INV; simpl. rewrite map_length. auto. Qed.

Lemma nth_reset : forall st j, (j < List.length (factors st))%nat -> nth j (sharded (reset st)) false = true.
Proof. intros. simpl. rewrite (nth_map_in _ _ _ _ []); auto. Qed.

Lemma prod_ones : forall l, (forall j, (j < List.length l)%nat -> nth j l 1 = 1) -> prod l = 1.
Proof.
  induction l; intros; auto. unfold prod in *; simpl. rewrite IHl.
  - specialize (H 0%nat). simpl in H. rewrite H; lia.
  - intros j Hj. apply (H (S j)). simpl. lia.
Qed.

(* ----------------------------------------------------------- main loop *)
Lemma target_loop_ok : forall ws (P : cstate -> Prop) tgt,
  1 <= tgt ->
  (forall st, P st -> INV ws st) ->
  (forall st i st' c n r, P st -> tgt < total st -> (i < List.length ws)%nat ->
     nth i (sharded st) false = true -> nth i (factors st) [] = c :: n :: r ->
     reduce_dim i st = Ok st' -> P st') ->
  (forall st, P st -> tgt < total st -> pick_dim st = None -> P (reset st)) ->
  forall fuel st, P st ->
    (sumlen st + (if forallb (fun b => b) (sharded st) then 0 else 1) < fuel)%nat ->
    exists st', target_loop fuel tgt st = Ok st' /\ P st' /\ total st' <= tgt.
Proof.
  intros ws P tgt Ht PI PR PN. induction fuel; intros st Pst F. lia.
  simpl. destruct (tgt <? total st) eqn:E.
  2:{ apply Z.ltb_ge in E. eauto. }
  apply Z.ltb_lt in E. pose proof (PI _ Pst) as I.
  destruct (pick_dim st) as [k|] eqn:K.
  - destruct (pick_some _ _ _ I K) as (Hk & B & c & n & r & Fk).
    destruct (reduce_ok _ _ _ _ _ _ I Hk Fk) as (st' & R & I' & F' & S' & _ & M & _).
    rewrite R. simpl. apply IHfuel. eapply PR; eauto.
    assert (forallb (fun b => b) (sharded st) = true -> forallb (fun b => b) (sharded st') = true).
    { intros A. rewrite S'. apply forallb_forall. intros x Hx.
      apply In_nth with (d := false) in Hx as (j & Hj & <-). destruct (Nat.eq_dec k j).
      - subst. apply nth_set_nth_eq. destruct I as (_ & L & _). lia.
      - rewrite nth_set_nth_neq by auto. rewrite forallb_forall in A. apply A.
        apply nth_In. rewrite set_nth_length in Hj. auto. }
    destruct (forallb (fun b => b) (sharded st)) eqn:A.
    + rewrite H by auto. lia.
    + destruct (forallb (fun b => b) (sharded st')); lia.
  - change (mk_cstate (factors st) (total st) (map (fun _ => true) (factors st))) with (reset st).
    pose proof I as (L & L2 & G & T).
    destruct (forallb (fun b => b) (sharded st)) eqn:A.
    + exfalso. assert (total st = 1); [|lia]. rewrite T. apply prod_ones. intros j Hj.
      assert (Hj' : (j < List.length ws)%nat). { unfold shape_of in Hj. rewrite map_length in Hj. lia. }
      rewrite nth_shape by lia. eapply pick_none; eauto.
      rewrite forallb_forall in A. apply A. apply nth_In. lia.
    + apply IHfuel. apply PN; auto.
      replace (forallb (fun b => b) (sharded (reset st))) with true. unfold sumlen in *; simpl in *. lia.
      symmetry. simpl. apply forallb_forall. intros x Hx. apply in_map_iff in Hx as (? & <- & _). auto.
Qed.

Lemma sumlen_budget : forall st, (sumlen st + (if forallb (fun b => b) (sharded st) then 0 else 1) < budget st)%nat.
Proof. intros. unfold budget, sumlen. destruct (forallb _ _); lia. Qed.

(* ------------------------------------------------------- the whole function *)
Definition st_init (g ws : list Z) : cstate :=
  mk_cstate (map (fun s => rev (find_divisors s)) ws) (prod ws) (differs g ws).

Definition clamp (w : list Z) : list Z := map (fun d => Z.max 1 d) w.

Lemma INV_init : forall g w, List.length g = List.length w -> INV (clamp w) (st_init g (clamp w)) /\
  shape_of (st_init g (clamp w)) = clamp w.
Proof.
  intros g w L.
  assert (S : shape_of (st_init g (clamp w)) = clamp w).
  { unfold shape_of, st_init; simpl. rewrite map_map. rewrite <- (map_id (clamp w)) at 2.
    apply map_ext_in. intros d Hd. unfold clamp in Hd. apply in_map_iff in Hd as (x & <- & _).
    apply good_init. lia. }
  split; auto. unfold INV. rewrite S. unfold st_init; simpl. unfold differs.
  assert (LC : List.length (clamp w) = List.length w) by (unfold clamp; apply map_length).
  rewrite !map_length, combine_length.
  repeat match goal with |- _ /\ _ => split end; auto; try lia.
  intros i Hi. rewrite (nth_map_in _ _ _ _ 1) by auto.
  unfold clamp in *. rewrite map_length in Hi. rewrite (nth_map_in _ _ _ _ 0) by auto. apply good_init. lia.
Qed.

Lemma bad_axes_spec : forall rank axes, existsb (bad_axis rank) axes = false <->
  (forall a, In a axes -> 0 <= a < Z.of_nat rank).
Proof.
  intros. split.
  - intros H a Ha. destruct (bad_axis rank a) eqn:E.
    + assert (existsb (bad_axis rank) axes = true) by (apply existsb_exists; eauto). congruence.
    + unfold bad_axis in E. apply orb_false_iff in E as [E1 E2]. lia.
  - intros H. destruct (existsb (bad_axis rank) axes) eqn:E; auto.
    apply existsb_exists in E as (a & Ha & E). specialize (H a Ha). unfold bad_axis in E.
    apply orb_true_iff in E as [E|E]; lia.
Qed.

Lemma dim_clamp : forall w i, (i < List.length w)%nat -> nth i (clamp w) 1 = Z.max 1 (dim w i).
Proof. intros. unfold clamp, dim. rewrite (nth_map_in _ _ _ _ 1) by auto. auto. Qed.

Lemma INV_tiles : forall w st, INV (clamp w) st -> tiles (shape_of st) w.
Proof.
  intros w st (L & L2 & G & T). unfold clamp in L; rewrite map_length in L. split.
  - unfold shape_of. rewrite map_length. auto.
  - intros i Hi. unfold dim at 1 2. rewrite nth_shape by lia.
    rewrite <- dim_clamp by auto. apply good_cur. apply G. unfold clamp. rewrite map_length. auto.
Qed.

(** Everything the loops guarantee, for a target. *)
Definition soft (g ws : list Z) (axes : list nat) (i : nat) : Prop :=
  nth i (differs g ws) false = true \/ In i axes.

Definition PRI (g ws : list Z) (axes : list nat) (st1 st : cstate) : Prop :=
  INV ws st /\
  (forall i, In i axes -> nth i (factors st) [] = nth i (factors st1) []) /\
  (forall i, (i < List.length ws)%nat -> cur (nth i (factors st) []) > 1 -> nth i (differs g ws) false = true -> nth i (sharded st) false = true) /\
  ((forall j, (j < List.length ws)%nat -> ~ soft g ws axes j ->
       nth j (sharded st) false = false /\ nth j (factors st) [] = nth j (factors st1) []) \/
   (forall i, (i < List.length ws)%nat -> soft g ws axes i -> cur (nth i (factors st) []) = 1)).

Definition TGT (ws : list Z) (tgt : Z) (st1 st : cstate) : Prop :=
  factors st = factors st1 \/
  exists i e, (i < List.length ws)%nat /\ next_size (nth i ws 1) (nth i (shape_of st) 1) e /\
    prod (with_dim (shape_of st) i e) > tgt.

Lemma target_run : forall g ws axes st1 tgt,
  INV ws st1 -> 1 <= tgt ->
  (forall i, In i axes -> List.length (nth i (factors st1) []) = 1%nat) ->
  (forall i, In i axes -> (i < List.length ws)%nat) ->
  (forall j, ~ In j axes -> nth j (sharded st1) false = nth j (differs g ws) false) ->
  exists st3, target_loop (budget st1) tgt st1 = Ok st3 /\
    PRI g ws axes st1 st3 /\ TGT ws tgt st1 st3 /\ total st3 <= tgt.
Proof.
  intros g ws axes st1 tgt I1 Ht O1 AX S1.
  destruct (target_loop_ok ws (fun st => PRI g ws axes st1 st /\ TGT ws tgt st1 st) tgt Ht) with (fuel := budget st1) (st := st1)
    as (st3 & R & (A & B) & C); eauto.
  - intros st ((I & _) & _). auto.
  - intros st i st' c n r ((I & K & D & Q) & T) Hgt Hi Hs Fi R.
    destruct (reduce_ok _ _ _ _ _ _ I Hi Fi) as (s' & R' & I' & F' & S' & SH & _ & NS).
    rewrite R in R'. injection R' as <-.
    assert (Lf : (i < List.length (factors st))%nat). { destruct I as (L & _). lia. }
    assert (Ls : (i < List.length (sharded st))%nat). { destruct I as (_ & L & _). lia. }
    assert (c > 1). { destruct NS as (NS & _). pose proof I as (_ & _ & G & _). specialize (G i Hi). rewrite Fi in G.
      apply good_tail in G as (_ & _ & G). lia. }
    assert (NI : ~ In i axes).
    { intros Ha. pose proof (K i Ha) as E. rewrite Fi in E. specialize (O1 i Ha). rewrite <- E in O1. simpl in O1. lia. }
    split; [split; [auto|split; [|split]]|].
    + intros j Hj. rewrite F', nth_set_nth_neq; auto. intros ->. contradiction.
    + intros j Hj Hc Hd. rewrite S'. destruct (Nat.eq_dec i j).
      * subst. apply nth_set_nth_eq; auto.
      * rewrite nth_set_nth_neq by auto. apply D; auto. rewrite F', nth_set_nth_neq in Hc; auto.
    + destruct Q as [Q|Q].
      * left. intros j Hj Hn. assert (i <> j). { intros ->. destruct (Q j Hj Hn). congruence. }
        rewrite F', S', !nth_set_nth_neq by auto. apply Q; auto.
      * right. intros j Hj Hn. assert (i <> j). { intros ->. specialize (Q j Hj Hn). rewrite Fi in Q. simpl in Q. lia. }
        rewrite F', nth_set_nth_neq by auto. apply Q; auto.
    + right. exists i, c. assert (LS : (i < List.length (shape_of st))%nat). { unfold shape_of. rewrite map_length. auto. }
      split; auto. split.
      * rewrite SH, nth_set_nth_eq by auto. auto.
      * rewrite <- set_nth_with_dim by (rewrite SH, set_nth_length; auto).
        rewrite SH, set_nth_set_nth.
        replace c with (nth i (shape_of st) 1). rewrite set_nth_self by auto.
        destruct I as (_ & _ & _ & T'). rewrite <- T'. lia.
        rewrite nth_shape by auto. rewrite Fi. auto.
  - intros st ((I & K & D & Q) & T) Hgt N. pose proof I as (L & L2 & G & _).
    split; [split; [apply INV_reset; auto|split; [|split]]|]; auto.
    + intros j Hj _ _. apply nth_reset. lia.
    + right. intros i Hi Hs. change (factors (reset st)) with (factors st).
      destruct (in_dec Nat.eq_dec i axes) as [Ha|Ha].
      * rewrite K by auto. pose proof I1 as (_ & _ & G1 & _). eapply good_one; eauto.
      * destruct Hs as [Hs|]; [|contradiction].
        destruct (Z_le_gt_dec (cur (nth i (factors st) [])) 1).
        -- pose proof (good_cur _ _ (G i Hi)). lia.
        -- eapply pick_none; eauto.
  - split; [|left; auto]. split; auto. split; auto. split.
    + intros i Hi Hc Hd. destruct (in_dec Nat.eq_dec i axes) as [Ha|Ha].
      * pose proof I1 as (_ & _ & G1 & _). rewrite (good_one _ _ (G1 i Hi)) in Hc; auto. lia.
      * rewrite S1; auto.
    + left. intros j Hj Hn. split; auto. rewrite S1.
      * destruct (nth j (differs g ws) false) eqn:E; auto. exfalso. apply Hn. left; auto.
      * intros Ha. apply Hn. right; auto.
  - apply sumlen_budget.
Qed.

(** The complete description of an accepted call. *)
Lemma choose_run : forall g w isz t axes,
  acceptable g w isz (Some t) axes -> 0 < isz ->
  exists st1 st3,
    choose_chunk_shape g w isz (Some t) axes = Ok (shape_of st3) /\
    INV (clamp w) st1 /\
    (forall i, In i (map Z.to_nat axes) -> List.length (nth i (factors st1) []) = 1%nat) /\
    (forall j, ~ In j (map Z.to_nat axes) -> nth j (factors st1) [] = nth j (factors (st_init g (clamp w))) []) /\
    PRI g (clamp w) (map Z.to_nat axes) st1 st3 /\ TGT (clamp w) (t / isz) st1 st3 /\ total st3 <= t / isz.
Proof.
  intros g w isz t axes (L & AX & HT) Hisz.
  destruct (INV_init g w L) as [I0 S0].
  assert (AXN : forall i, In i (map Z.to_nat axes) -> (i < List.length (clamp w))%nat).
  { intros i Hi. apply in_map_iff in Hi as (a & <- & Ha). specialize (AX a Ha). unfold clamp. rewrite map_length. lia. }
  destruct (exhaust_axes_ok (clamp w) (map Z.to_nat axes) (st_init g (clamp w)) I0 AXN) as (st1 & R1 & I1 & O1 & N1 & M1).
  assert (Hq : 1 <= t / isz). { apply Z.div_le_lower_bound; lia. }
  destruct (target_run g (clamp w) (map Z.to_nat axes) st1 (t / isz) I1 Hq O1 AXN M1) as (st3 & R3 & P3 & T3 & E3).
  exists st1, st3. split; [|split; [auto|split; [auto|split; [auto|split; auto]]]]. unfold choose_chunk_shape.
  rewrite L, Nat.eqb_refl. cbn [negb].
  change (map (fun d => Z.max 1 d) w) with (clamp w).
  change (mk_cstate (map (fun s => rev (find_divisors s)) (clamp w)) (prod (clamp w)) (differs g (clamp w))) with (st_init g (clamp w)).
  replace (existsb (bad_axis (List.length (clamp w))) axes) with false.
  2:{ symmetry. apply bad_axes_spec. unfold clamp. rewrite map_length. auto. }
  cbv zeta. rewrite R1. cbn [rbind].
  replace (t <? isz) with false by (symmetry; apply Z.ltb_ge; auto).
  replace (isz =? 0) with false by (symmetry; apply Z.eqb_neq; lia).
  replace (budget st1) with (S (pred (budget st1))) at 1 by (unfold budget; lia).
  rewrite rr_dead by auto. cbn [rbind]. rewrite R3. reflexivity.
Qed.

Lemma choose_run_none : forall g w isz axes,
  acceptable g w isz None axes ->
  exists st1,
    choose_chunk_shape g w isz None axes = Ok (shape_of st1) /\ INV (clamp w) st1 /\
    (forall i, In i (map Z.to_nat axes) -> List.length (nth i (factors st1) []) = 1%nat) /\
    (forall j, ~ In j (map Z.to_nat axes) -> nth j (factors st1) [] = nth j (factors (st_init g (clamp w))) []).
Proof.
  intros g w isz axes (L & AX & _).
  destruct (INV_init g w L) as [I0 S0].
  assert (AXN : forall i, In i (map Z.to_nat axes) -> (i < List.length (clamp w))%nat).
  { intros i Hi. apply in_map_iff in Hi as (a & <- & Ha). specialize (AX a Ha). unfold clamp. rewrite map_length. lia. }
  destruct (exhaust_axes_ok (clamp w) (map Z.to_nat axes) (st_init g (clamp w)) I0 AXN) as (st1 & R1 & I1 & O1 & N1 & M1).
  exists st1. split; [|split; [auto|split; auto]]. unfold choose_chunk_shape.
  rewrite L, Nat.eqb_refl. cbn [negb].
  change (map (fun d => Z.max 1 d) w) with (clamp w).
  change (mk_cstate (map (fun s => rev (find_divisors s)) (clamp w)) (prod (clamp w)) (differs g (clamp w))) with (st_init g (clamp w)).
  replace (existsb (bad_axis (List.length (clamp w))) axes) with false.
  2:{ symmetry. apply bad_axes_spec. unfold clamp. rewrite map_length. auto. }
  destruct axes as [|a axes].
  - simpl in R1. injection R1 as <-. rewrite S0. reflexivity.
  - cbv zeta. rewrite R1. reflexivity.
Qed.

Lemma In_named : forall axes i, (forall a, In a axes -> 0 <= a) -> (In i (map Z.to_nat axes) <-> named axes i).
Proof.
  intros. unfold named. rewrite in_map_iff. split.
  - intros (a & <- & Ha). rewrite Z2Nat.id; auto.
  - intros Hi. exists (Z.of_nat i). split; auto. lia.
Qed.

Lemma accept_iff : forall g w isz target axes, 0 < isz ->
  ((exists c, choose_chunk_shape g w isz target axes = Ok c) <-> acceptable g w isz target axes) /\
  (~ acceptable g w isz target axes -> choose_chunk_shape g w isz target axes = Err ValueError).
Proof.
  intros g w isz target axes Hisz.
  assert (REJ : ~ acceptable g w isz target axes -> choose_chunk_shape g w isz target axes = Err ValueError).
  { intros N. unfold choose_chunk_shape.
    destruct (Nat.eqb (List.length g) (List.length w)) eqn:L; [|reflexivity]. apply Nat.eqb_eq in L. cbn [negb].
    change (map (fun d => Z.max 1 d) w) with (clamp w).
    change (mk_cstate (map (fun s => rev (find_divisors s)) (clamp w)) (prod (clamp w)) (differs g (clamp w))) with (st_init g (clamp w)).
    cbv zeta.
    destruct (existsb (bad_axis (List.length (clamp w))) axes) eqn:B.
    { destruct axes; [discriminate|]. destruct target; reflexivity. }
    pose proof (proj1 (bad_axes_spec _ _) B) as B'. unfold clamp in B' at 1.
    assert (AX : forall a, In a axes -> 0 <= a < Z.of_nat (List.length w)).
    { intros a Ha. specialize (B' a Ha). rewrite map_length in B'. auto. }
    destruct target as [t|].
    2:{ exfalso. apply N. repeat split; auto; apply AX; auto. }
    destruct (INV_init g w L) as [I0 S0].
    destruct (exhaust_axes_ok (clamp w) (map Z.to_nat axes) (st_init g (clamp w)) I0) as (st1 & R1 & _).
    { intros i Hi. apply in_map_iff in Hi as (a & <- & Ha). specialize (AX a Ha). unfold clamp. rewrite map_length. lia. }
    rewrite R1. cbn [rbind]. destruct (t <? isz) eqn:E; auto. apply Z.ltb_ge in E.
    exfalso. apply N. repeat split; auto; apply AX; auto. }
  split; auto. split.
  - intros (c & E). destruct target as [t|].
    + destruct (Nat.eq_dec (List.length g) (List.length w)) as [L|L].
      2:{ rewrite REJ in E; [discriminate|]. intros (X & _). auto. }
      destruct (existsb (bad_axis (List.length w)) axes) eqn:B.
      { rewrite REJ in E; [discriminate|]. intros (_ & X & _). apply bad_axes_spec in X. congruence. }
      pose proof (proj1 (bad_axes_spec _ _) B) as AX.
      destruct (Z_le_gt_dec isz t). split; auto.
      rewrite REJ in E; [discriminate|]. intros (_ & _ & X). lia.
    + destruct (Nat.eq_dec (List.length g) (List.length w)) as [L|L].
      2:{ rewrite REJ in E; [discriminate|]. intros (X & _). auto. }
      destruct (existsb (bad_axis (List.length w)) axes) eqn:B.
      { rewrite REJ in E; [discriminate|]. intros (_ & X & _). apply bad_axes_spec in X. congruence. }
      pose proof (proj1 (bad_axes_spec _ _) B) as AX. split; auto.
  - intros A. destruct target as [t|].
    + destruct (choose_run g w isz t axes A Hisz) as (st1 & st3 & R & _). eauto.
    + destruct (choose_run_none g w isz axes A) as (st1 & R & _). eauto.
Qed.

Lemma choose_ok_acc : forall g w isz target axes c, 0 < isz ->
  choose_chunk_shape g w isz target axes = Ok c -> acceptable g w isz target axes.
Proof. intros. apply (proj1 (accept_iff g w isz target axes H)). eauto. Qed.

Lemma choose_tiles : forall g w isz target axes c, 0 < isz ->
  choose_chunk_shape g w isz target axes = Ok c -> tiles c w.
Proof.
  intros g w isz target axes c Hisz E. pose proof (choose_ok_acc _ _ _ _ _ _ Hisz E) as A.
  destruct target as [t|].
  - destruct (choose_run g w isz t axes A Hisz) as (st1 & st3 & R & _ & _ & _ & (I & _) & _).
    rewrite R in E. injection E as <-. apply INV_tiles; auto.
  - destruct (choose_run_none g w isz axes A) as (st1 & R & I & _).
    rewrite R in E. injection E as <-. apply INV_tiles; auto.
Qed.

Lemma choose_target : forall g w isz t axes c, 0 < isz ->
  choose_chunk_shape g w isz (Some t) axes = Ok c -> volume c * isz <= t.
Proof.
  intros g w isz t axes c Hisz E. pose proof (choose_ok_acc _ _ _ _ _ _ Hisz E) as A.
  destruct (choose_run g w isz t axes A Hisz) as (st1 & st3 & R & _ & _ & _ & (I & _) & _ & T).
  rewrite R in E. injection E as <-. destruct I as (_ & _ & _ & TT). rewrite TT, prod_volume in T.
  pose proof (Z.mul_div_le t isz Hisz). nia.
Qed.

Lemma length_clamp : forall w, List.length (clamp w) = List.length w.
Proof. intros; unfold clamp; apply map_length. Qed.

Lemma init_cur : forall g w j, List.length g = List.length w -> (j < List.length w)%nat ->
  cur (nth j (factors (st_init g (clamp w))) []) = Z.max 1 (dim w j).
Proof.
  intros g w j L Hj. destruct (INV_init g w L) as [(LF & _) S]. rewrite length_clamp in LF.
  rewrite <- nth_shape by lia. rewrite S. apply dim_clamp; auto.
Qed.

Lemma choose_axes : forall g w isz target axes c i, 0 < isz ->
  choose_chunk_shape g w isz target axes = Ok c -> named axes i -> dim c i = 1.
Proof.
  intros g w isz target axes c i Hisz E Hn. pose proof (choose_ok_acc _ _ _ _ _ _ Hisz E) as A.
  pose proof A as (L & AX & _). pose proof (AX _ Hn) as Hi.
  assert (Hi' : (i < List.length (clamp w))%nat) by (rewrite length_clamp; lia).
  apply In_named in Hn; [|intros a Ha; specialize (AX a Ha); lia].
  destruct target as [t|].
  - destruct (choose_run g w isz t axes A Hisz) as (st1 & st3 & R & I1 & O1 & _ & (I & K & _) & _).
    rewrite R in E. injection E as <-. unfold dim. pose proof I as (LF & _). rewrite nth_shape by lia.
    rewrite K by auto. destruct I1 as (_ & _ & G & _). eapply good_one; eauto.
  - destruct (choose_run_none g w isz axes A) as (st1 & R & I & O1 & _).
    rewrite R in E. injection E as <-. unfold dim. pose proof I as (LF & _ & G & _). rewrite nth_shape by lia.
    eapply good_one; eauto.
Qed.

Lemma choose_rest_none : forall g w isz axes c i, 0 < isz ->
  choose_chunk_shape g w isz None axes = Ok c -> (i < List.length w)%nat -> ~ named axes i ->
  dim c i = Z.max 1 (dim w i).
Proof.
  intros g w isz axes c i Hisz E Hi Hn. pose proof (choose_ok_acc _ _ _ _ _ _ Hisz E) as A.
  pose proof A as (L & AX & _).
  rewrite <- In_named in Hn by (intros a Ha; specialize (AX a Ha); lia).
  destruct (choose_run_none g w isz axes A) as (st1 & R & I & O1 & N1).
  rewrite R in E. injection E as <-. unfold dim at 1. pose proof I as (LF & _ & G & _). rewrite length_clamp in LF.
  rewrite nth_shape by lia. rewrite N1 by auto. apply init_cur; auto.
Qed.

Lemma differs_iff : forall g ws i, List.length g = List.length ws -> (i < List.length ws)%nat ->
  (nth i (differs g ws) false = true <-> dim g i <> nth i ws 1).
Proof.
  intros g ws i L Hi. unfold differs, dim.
  rewrite (nth_map_in _ _ _ _ (1, 1)) by (rewrite combine_length; lia).
  rewrite combine_nth by auto. simpl. rewrite negb_true_iff, Z.eqb_neq. tauto.
Qed.

Lemma choose_priority : forall g w isz t axes c i j, 0 < isz ->
  choose_chunk_shape g w isz (Some t) axes = Ok c ->
  (i < List.length w)%nat -> (j < List.length w)%nat ->
  ~ named axes i -> dim g i = Z.max 1 (dim w i) -> dim c i <> Z.max 1 (dim w i) ->
  dim g j <> Z.max 1 (dim w j) -> dim c j = 1.
Proof.
  intros g w isz t axes c i j Hisz E Hi Hj Hn Hg Hc Hd. pose proof (choose_ok_acc _ _ _ _ _ _ Hisz E) as A.
  pose proof A as (L & AX & _).
  rewrite <- In_named in Hn by (intros a Ha; specialize (AX a Ha); lia).
  destruct (choose_run g w isz t axes A Hisz) as (st1 & st3 & R & I1 & O1 & N1 & (I & K & D & Q) & _).
  rewrite R in E. injection E as <-. pose proof I as (LF & _). rewrite length_clamp in *.
  assert (NS : ~ soft g (clamp w) (map Z.to_nat axes) i).
  { intros [X|X]; auto. apply differs_iff in X; rewrite ?length_clamp; auto. rewrite dim_clamp in X; auto. }
  assert (SJ : soft g (clamp w) (map Z.to_nat axes) j).
  { left. apply differs_iff; rewrite ?length_clamp; auto. rewrite dim_clamp; auto. }
  unfold dim at 1. unfold dim at 1 in Hc. rewrite nth_shape in Hc by lia. rewrite nth_shape by lia.
  destruct Q as [Q|Q]; auto. exfalso. apply Hc. destruct (Q i Hi NS) as [_ ->].
  rewrite N1 by auto. apply init_cur; auto.
Qed.

Lemma choose_tight : forall g w isz t axes c, 0 < isz ->
  choose_chunk_shape g w isz (Some t) axes = Ok c ->
  (forall i, (i < List.length w)%nat -> ~ named axes i -> dim c i = Z.max 1 (dim w i)) \/
  (exists i e, (i < List.length w)%nat /\ next_size (Z.max 1 (dim w i)) (dim c i) e /\
     volume (with_dim c i e) * isz > t).
Proof.
  intros g w isz t axes c Hisz E. pose proof (choose_ok_acc _ _ _ _ _ _ Hisz E) as A.
  pose proof A as (L & AX & _).
  destruct (choose_run g w isz t axes A Hisz) as (st1 & st3 & R & I1 & O1 & N1 & (I & K & D & Q) & T & _).
  rewrite R in E. injection E as <-. pose proof I as (LF & _). rewrite length_clamp in *.
  destruct T as [T|(i & e & Hi & NS & V)].
  - left. intros i Hi Hn. rewrite <- In_named in Hn by (intros a Ha; specialize (AX a Ha); lia).
    unfold dim at 1. rewrite nth_shape by lia. rewrite T, N1 by auto. apply init_cur; auto.
  - right. exists i, e. rewrite length_clamp in Hi. split; auto. rewrite dim_clamp in NS by auto. split; auto.
    rewrite prod_volume in V. pose proof (Z.mul_succ_div_gt t isz Hisz). nia.
Qed.

Lemma choose_one_dim : forall g w isz t c e, 0 < isz ->
  choose_chunk_shape [g] [w] isz (Some t) [] = Ok [c] ->
  1 <= e -> (e | Z.max 1 w) -> e * isz <= t -> e <= c.
Proof.
  intros g w isz t c e Hisz E He D Ht.
  destruct (choose_tight _ _ _ _ _ _ Hisz E) as [T|(i & e' & Hi & (N1 & N2 & N3) & V)].
  - specialize (T 0%nat). unfold dim in T; simpl in T. rewrite T by (auto; lia).
    apply Z.divide_pos_le in D; lia.
  - destruct i; simpl in Hi; [|lia]. unfold dim, with_dim in *; simpl in *.
    destruct (Z_le_gt_dec e c); auto. specialize (N3 e ltac:(lia) D). nia.
Qed.
