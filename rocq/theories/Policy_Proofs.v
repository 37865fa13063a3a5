From Coq Require Import ZArith List Bool Lia Znumtheory Permutation Sorting.Sorted.
From Verif Require Import Base Policy_Model Policy_Spec.
Import ListNotations.
Local Open Scope Z_scope.

(** * Generic list facts *)

Lemma nth_error_repeat : forall (A : Type) (x : A) n i,
  (i < n)%nat -> nth_error (repeat x n) i = Some x.
Proof.
  induction n; intros i Hi; [lia|]. destruct i; simpl; auto. apply IHn; lia.
Qed.

Lemma kept_lt : forall l i, kept l i -> (i < length l)%nat.
Proof. unfold kept; intros. apply nth_error_Some. congruence. Qed.

Lemma py_repeat_len : forall (A : Type) (x : A) z,
  length (py_repeat x z) = Z.to_nat z.
Proof. intros; unfold py_repeat; apply repeat_length. Qed.

Lemma set_nth_length : forall (A : Type) (v : A) l i, length (set_nth i v l) = length l.
Proof. induction l; destruct i; simpl; auto. Qed.

Lemma set_nth_same : forall (A : Type) (v : A) l i,
  (i < length l)%nat -> nth_error (set_nth i v l) i = Some v.
Proof. induction l; destruct i; simpl; intros; try lia; auto. apply IHl; lia. Qed.

Lemma set_nth_other : forall (A : Type) (v : A) l i j,
  i <> j -> nth_error (set_nth i v l) j = nth_error l j.
Proof.
  induction l; destruct i, j; simpl; intros; auto; try congruence.
Qed.

Lemma filter_length_le : forall (A : Type) (f : A -> bool) l,
  (length (filter f l) <= length l)%nat.
Proof. induction l; simpl; auto. destruct (f a); simpl; lia. Qed.

(** * LatestN *)

Lemma latest_n_spec : forall n cs, 0 <= n ->
  one_per cs (latest_n (Some n) cs) /\
  forall i, (i < length cs)%nat ->
    (kept (latest_n (Some n) cs) i <-> count_after (fun _ => true) cs i < n).
Proof.
  intros n cs Hn. unfold one_per, latest_n.
  assert (Hc : forall i, (i < length cs)%nat ->
             count_after (fun _ : info => true) cs i = Z.of_nat (length cs) - Z.of_nat i - 1).
  { intros i Hi. unfold count_after.
    assert (E : forall l : list info, filter (fun _ => true) l = l)
      by (induction l; simpl; congruence).
    rewrite E, skipn_length. lia. }
  destruct (Z.of_nat (length cs) <=? n) eqn:E.
  - apply Z.leb_le in E. split.
    + rewrite py_repeat_len. lia.
    + intros i Hi. rewrite Hc by auto. unfold kept, py_repeat.
      rewrite nth_error_repeat by lia. split; intros; [lia|auto].
  - apply Z.leb_gt in E. split.
    + rewrite app_length, !py_repeat_len. lia.
    + intros i Hi. rewrite Hc by auto. unfold kept.
      destruct (Nat.lt_ge_cases i (Z.to_nat (Z.of_nat (length cs) - n))).
      * rewrite nth_error_app1 by (rewrite py_repeat_len; auto).
        unfold py_repeat. rewrite nth_error_repeat by auto.
        split; intros; [discriminate|lia].
      * rewrite nth_error_app2 by (rewrite py_repeat_len; auto).
        rewrite py_repeat_len. unfold py_repeat. rewrite nth_error_repeat by lia.
        split; intros; [lia|auto].
Qed.

Lemma latest_n_none : forall cs,
  one_per cs (latest_n None cs) /\
  forall i, (i < length cs)%nat -> kept (latest_n None cs) i.
Proof.
  intros cs. unfold one_per, latest_n. split.
  - rewrite py_repeat_len. lia.
  - intros i Hi. unfold kept, py_repeat. apply nth_error_repeat. lia.
Qed.

(** * The cap *)

Definition count_true (l : list bool) : nat := length (filter (fun b => b) l).

Definition ti_from (k : nat) (r : list bool) : list nat :=
  map fst (filter (fun p => snd p) (enumerate_from k r)).

Lemma ti_from_length : forall r k, length (ti_from k r) = count_true r.
Proof.
  unfold ti_from, count_true. intros r k. rewrite map_length.
  revert k. induction r as [|b r IH]; intros k; simpl; auto.
  destruct b; simpl; rewrite IH; auto.
Qed.

Lemma ti_from_ge : forall r k i, In i (ti_from k r) -> (k <= i)%nat.
Proof.
  unfold ti_from. induction r as [|b r IH]; simpl; intros k i H; [tauto|].
  destruct b; simpl in H.
  - destruct H as [H|H]; [lia|]. apply IH in H. lia.
  - apply IH in H. lia.
Qed.

Lemma firstn_In : forall (A : Type) n (l : list A) x, In x (firstn n l) -> In x l.
Proof.
  induction n; simpl; intros l x H; [tauto|]. destruct l; simpl in *; [tauto|].
  destruct H; auto.
Qed.

Lemma ti_from_firstn : forall r k p j,
  In (k + j)%nat (firstn p (ti_from k r)) <->
  (nth_error r j = Some true /\ (count_true (firstn j r) < p)%nat).
Proof.
  induction r as [|b r IH]; intros k p j.
  - simpl. rewrite firstn_nil. simpl. destruct j; simpl; split; try tauto;
    intros [H _]; discriminate.
  - destruct j as [|j].
    + rewrite Nat.add_0_r. simpl. unfold count_true; simpl.
      destruct b.
      * unfold ti_from; simpl. destruct p; simpl.
        -- split; [tauto|lia].
        -- split; intros; [split; [auto|lia]|left; auto].
      * unfold ti_from; simpl. fold (ti_from (S k) r). split.
        -- intros H. apply firstn_In in H. apply ti_from_ge in H. lia.
        -- intros [H _]. discriminate.
    + simpl nth_error. simpl firstn.
      replace (k + S j)%nat with (S k + j)%nat by lia.
      destruct b.
      * unfold ti_from; simpl. fold (ti_from (S k) r).
        destruct p as [|p]; simpl.
        -- split; [tauto|]. intros [_ H]. lia.
        -- specialize (IH (S k) p j). unfold count_true in *. simpl in *. split.
           ++ intros [H|H]; [lia|]. apply IH in H. destruct H; split; auto; lia.
           ++ intros [H1 H2]. right. apply IH. split; auto; lia.
      * exact (IH (S k) p j).
Qed.

Lemma clear_all_length : forall is r, length (clear_all is r) = length r.
Proof. induction is; simpl; intros; auto. rewrite IHis, set_nth_length. auto. Qed.

Lemma clear_all_nth : forall is r i,
  kept (clear_all is r) i <-> (kept r i /\ ~ In i is).
Proof.
  induction is as [|a is IH]; simpl; intros r i; [tauto|].
  rewrite IH. unfold kept. destruct (Nat.eq_dec a i) as [->|N].
  - split.
    + intros [H _]. exfalso.
      destruct (Nat.lt_ge_cases i (length r)) as [L|L].
      * rewrite set_nth_same in H by auto. discriminate.
      * assert (nth_error (set_nth i false r) i = None)
          by (apply nth_error_None; rewrite set_nth_length; auto). congruence.
    + intros [_ H]. exfalso; apply H; auto.
  - rewrite set_nth_other by auto. intuition.
Qed.

Lemma count_true_split : forall r i, nth_error r i = Some true ->
  (count_true r = count_true (firstn i r) + 1 + count_true (skipn (S i) r))%nat.
Proof.
  unfold count_true. induction r as [|b r IH]; intros i H; destruct i; simpl in *;
    try discriminate.
  - inversion H; subst. simpl. auto.
  - destruct b; simpl; rewrite (IH _ H); simpl; lia.
Qed.

Lemma cap_spec : forall m r, 1 <= m -> newest_only m r (apply_max_to_keep (Some m) r).
Proof.
  intros m r Hm. unfold newest_only, apply_max_to_keep.
  change (true_indices r) with (ti_from 0 r). rewrite ti_from_length.
  destruct (m <? Z.of_nat (count_true r)) eqn:E.
  - apply Z.ltb_lt in E. split; [apply clear_all_length|].
    intros i Hi. rewrite clear_all_nth. unfold py_upto, py_bound.
    destruct (- m <? 0) eqn:E2; [|lia]. rewrite ti_from_length.
    replace i with (0 + i)%nat at 2 by lia. rewrite ti_from_firstn.
    unfold kept, count_after. fold (count_true (skipn (S i) r)).
    split.
    + intros [H1 H2]. split; auto. pose proof (count_true_split _ _ H1).
      destruct (Z_lt_dec (Z.of_nat (count_true (skipn (S i) r))) m); auto.
      exfalso; apply H2; split; auto. lia.
    + intros [H1 H2]. split; auto. pose proof (count_true_split _ _ H1).
      intros [_ H3]. lia.
  - apply Z.ltb_ge in E. split; auto. intros i Hi. split.
    + intros H. split; auto. unfold kept in H. pose proof (count_true_split _ _ H).
      unfold count_after. fold (count_true (skipn (S i) r)). lia.
    + tauto.
Qed.

(** * EveryNSteps, exact *)

Lemma is_multiple_mod : forall n z, n <> 0 -> (z mod n =? 0) = is_multiple n z.
Proof.
  intros n z Hn. unfold is_multiple. destruct (Zdivide_dec n z) as [D|D].
  - apply Z.eqb_eq. apply Zdivide_mod. auto.
  - apply Z.eqb_neq. intro H. apply D. apply Zmod_divide; auto.
Qed.

Lemma count_after_map : forall (A : Type) (P : A -> bool) l i,
  count_after (fun b => b) (map P l) i = count_after P l i.
Proof.
  intros. unfold count_after. f_equal. rewrite skipn_map.
  generalize (skipn (S i) l). induction l0; simpl; auto.
  destruct (P a); simpl; auto.
Qed.

Lemma every_n_steps_exact_spec : forall n m cs, n <> 0 ->
  match m with None => True | Some k => 1 <= k end ->
  exists flags, every_n_steps n true m cs = Ok flags /\
    one_per cs flags /\
    forall i c, nth_error cs i = Some c ->
      (kept flags i <->
       (n | step c) /\
       match m with
       | None => True
       | Some k => count_after (fun c => is_multiple n (step c)) cs i < k
       end).
Proof.
  intros n m cs Hn Hm. unfold every_n_steps.
  rewrite (proj2 (Z.eqb_neq n 0)) by auto.
  eexists; split; [reflexivity|].
  assert (E : map (fun c => step c mod n =? 0) cs = map (fun c => is_multiple n (step c)) cs).
  { apply map_ext. intros. apply is_multiple_mod; auto. }
  rewrite E.
  assert (K : forall i c, nth_error cs i = Some c ->
     (kept (map (fun c => is_multiple n (step c)) cs) i <-> (n | step c))).
  { intros i c H. unfold kept. rewrite (map_nth_error _ _ _ H). unfold is_multiple.
    destruct (Zdivide_dec n (step c)); split; auto; try discriminate; try tauto. }
  destruct m as [k|].
  - destruct (cap_spec k (map (fun c => is_multiple n (step c)) cs) Hm) as [L C].
    split; [unfold one_per; rewrite L, map_length; auto|].
    intros i c H. rewrite C.
    + rewrite (K i c H). rewrite count_after_map. tauto.
    + rewrite map_length. apply nth_error_Some. congruence.
  - simpl. split; [unfold one_per; rewrite map_length; auto|].
    intros i c H. rewrite (K i c H). tauto.
Qed.

(** * Greedy spacing *)

Fixpoint greedy (gap last : Z) (keys : list Z) : list bool :=
  match keys with
  | [] => []
  | k :: ks => if gap <=? k - last then true :: greedy gap k ks else false :: greedy gap last ks
  end.

Lemma greedy_length : forall ks gap last, length (greedy gap last ks) = length ks.
Proof. induction ks; simpl; intros; auto. destruct (gap <=? a - last); simpl; auto. Qed.

Lemma every_n_seconds_greedy : forall cs n last,
  every_n_seconds_loop n last cs = greedy (seconds n) last (map time cs).
Proof.
  induction cs; simpl; intros; auto.
  destruct (seconds n <=? time a - last); rewrite IHcs; auto.
Qed.

Lemma every_n_steps_greedy : forall cs n last,
  every_n_steps_loop n (Some last) cs = greedy n last (map step cs).
Proof.
  induction cs; simpl; intros; auto.
  destruct (n <=? step a - last); rewrite IHcs; auto.
Qed.

Lemma greedy_first : forall ks gap last i ki,
  (forall q, (q < i)%nat -> ~ kept (greedy gap last ks) q) ->
  nth_error ks i = Some ki ->
  (kept (greedy gap last ks) i <-> gap <= ki - last).
Proof.
  induction ks as [|k ks IH]; intros gap last i ki Hq Hi; [destruct i; discriminate|].
  simpl in *. destruct (gap <=? k - last) eqn:E.
  - destruct i.
    + inversion Hi; subst. unfold kept; simpl. apply Z.leb_le in E. tauto.
    + exfalso. apply (Hq 0%nat); [lia|]. reflexivity.
  - destruct i.
    + inversion Hi; subst. unfold kept; simpl. apply Z.leb_gt in E.
      split; intros; [discriminate|lia].
    + unfold kept; simpl. apply IH; auto.
      intros q Hlt Hk. apply (Hq (S q)); [lia|]. exact Hk.
Qed.

Lemma greedy_later : forall ks gap last i p ki kp,
  last_kept_before (greedy gap last ks) p i ->
  nth_error ks i = Some ki -> nth_error ks p = Some kp ->
  (kept (greedy gap last ks) i <-> gap <= ki - kp).
Proof.
  induction ks as [|k ks IH]; intros gap last i p ki kp [Hpi [Hp Hq]] Hi Hp';
    [destruct i; discriminate|].
  destruct i; [lia|]. simpl in *.
  destruct p.
  - inversion Hp'; subst kp. destruct (gap <=? k - last) eqn:E; [|discriminate].
    unfold kept; simpl. apply greedy_first; auto.
    intros q Hlt Hk. apply (Hq (S q)); [lia|]. exact Hk.
  - destruct (gap <=? k - last) eqn:E; unfold kept; simpl;
      (eapply IH; eauto; repeat split; [lia|exact Hp|];
       intros q Hlt Hk; apply (Hq (S q)); [lia|exact Hk]).
Qed.

Lemma greedy_spec : forall gap k ks,
  greedy_spacing gap (k :: ks) (true :: greedy gap k ks).
Proof.
  intros. unfold greedy_spacing. simpl. rewrite greedy_length. repeat split.
  - destruct H as [Hpi [Hp Hq]]. intros Hk.
    destruct i; [lia|]. simpl in H0. unfold kept in Hk; simpl in Hk.
    destruct p; simpl in H1.
    + inversion H1; subst. eapply (proj1 (greedy_first ks gap kp i ki ltac:(
        intros q Hlt Hk'; apply (Hq (S q)); [lia|exact Hk']) H0)). exact Hk.
    + eapply greedy_later with (p := p) (i := i); eauto.
      repeat split; [lia|exact Hp|]. intros q Hlt Hk'. apply (Hq (S q)); [lia|exact Hk'].
  - destruct H as [Hpi [Hp Hq]]. intros Hg.
    destruct i; [lia|]. simpl in H0. unfold kept; simpl.
    destruct p; simpl in H1.
    + inversion H1; subst. eapply (proj2 (greedy_first ks gap kp i ki ltac:(
        intros q Hlt Hk'; apply (Hq (S q)); [lia|exact Hk']) H0)). exact Hg.
    + eapply greedy_later with (p := p) (i := i); eauto.
      repeat split; [lia|exact Hp|]. intros q Hlt Hk'. apply (Hq (S q)); [lia|exact Hk'].
Qed.

Lemma every_n_seconds_spec : forall n cs,
  greedy_spacing (seconds n) (map time cs) (every_n_seconds n cs).
Proof.
  intros n [|c cs].
  - simpl. unfold greedy_spacing. repeat split; simpl; try tauto;
      destruct i; discriminate.
  - simpl. rewrite every_n_seconds_greedy. apply greedy_spec.
Qed.

Lemma every_n_steps_spacing_spec : forall n m cs, n <> 0 ->
  match m with None => True | Some k => 1 <= k end ->
  exists all flags,
    every_n_steps n false m cs = Ok flags /\
    greedy_spacing n (map step cs) all /\
    match m with
    | None => flags = all
    | Some k => newest_only k all flags
    end.
Proof.
  intros n m cs Hn Hm. unfold every_n_steps. rewrite (proj2 (Z.eqb_neq n 0)) by auto.
  exists (every_n_steps_loop n None cs). eexists; split; [reflexivity|]. split.
  - destruct cs as [|c cs].
    + simpl. unfold greedy_spacing. repeat split; simpl; try tauto; destruct i; discriminate.
    + simpl. rewrite every_n_steps_greedy. apply greedy_spec.
  - destruct m as [k|]; simpl; auto. apply (cap_spec k _ Hm).
Qed.

(** * LatestDuration *)

Lemma first_within_spec : forall cs now d k,
  match first_within now d k cs with
  | None => forall j c, nth_error cs j = Some c -> d < now - time c
  | Some r => exists p c, (r = k + p)%nat /\ nth_error cs p = Some c /\ now - time c <= d /\
      forall j c', (j < p)%nat -> nth_error cs j = Some c' -> d < now - time c'
  end.
Proof.
  induction cs as [|c cs IH]; simpl; intros now d k.
  - intros j c' H. destruct j; discriminate.
  - destruct (now - time c <=? d) eqn:E.
    + apply Z.leb_le in E. exists 0%nat, c. repeat split; auto; try lia.
    + apply Z.leb_gt in E. specialize (IH now d (S k)).
      destruct (first_within now d (S k) cs).
      * destruct IH as (p & c' & H1 & H2 & H3 & H4). exists (S p), c'. repeat split; auto; try lia.
        intros j c'' Hj Hn. destruct j; simpl in Hn; [inversion Hn; subst; lia|].
        eapply H4; eauto. lia.
      * intros j c' Hn. destruct j; simpl in Hn; [inversion Hn; subst; lia|]. eauto.
Qed.

Lemma latest_duration_spec : forall d now cs,
  one_per cs (latest_duration d now cs) /\
  forall i, (i < length cs)%nat ->
    (kept (latest_duration d now cs) i <->
     exists j c, (j <= i)%nat /\ nth_error cs j = Some c /\ now - time c <= d).
Proof.
  intros d now cs. unfold latest_duration, one_per.
  destruct cs as [|c0 cs0]; [split; simpl; auto; intros; lia|].
  remember (c0 :: cs0) as cs. clear Heqcs.
  pose proof (first_within_spec cs now d 0) as F.
  destruct (first_within now d 0 cs) as [r|].
  - destruct F as (p & c & H1 & H2 & H3 & H4). simpl in H1. subst r.
    assert (Hp : (p < length cs)%nat) by (apply nth_error_Some; congruence).
    split; [rewrite app_length, !py_repeat_len; lia|].
    intros i Hi. unfold kept. destruct (Nat.lt_ge_cases i p) as [L|L].
    + rewrite nth_error_app1 by (rewrite py_repeat_len; lia).
      unfold py_repeat. rewrite nth_error_repeat by lia.
      split; [discriminate|]. intros (j & c' & Hj & Hn & Hd).
      specialize (H4 j c' ltac:(lia) Hn). lia.
    + rewrite nth_error_app2 by (rewrite py_repeat_len; lia).
      rewrite py_repeat_len. unfold py_repeat. rewrite nth_error_repeat by lia.
      split; auto. intros _. exists p, c. auto.
  - split; [rewrite py_repeat_len; lia|]. intros i Hi. unfold kept, py_repeat.
    rewrite nth_error_repeat by lia. split; [discriminate|].
    intros (j & c' & Hj & Hn & Hd). specialize (F j c' Hn). lia.
Qed.

Lemma latest_duration_chrono : forall d now cs,
  (forall i j ci cj, (i <= j)%nat -> nth_error cs i = Some ci -> nth_error cs j = Some cj ->
     time ci <= time cj) ->
  forall i c, nth_error cs i = Some c ->
    (kept (latest_duration d now cs) i <-> now - time c <= d).
Proof.
  intros d now cs Hs i c Hn. destruct (latest_duration_spec d now cs) as [_ H].
  rewrite H by (apply nth_error_Some; congruence). split.
  - intros (j & c' & Hj & Hn' & Hd). pose proof (Hs j i c' c Hj Hn' Hn). lia.
  - intros. exists i, c. auto.
Qed.

(** * AnyPreservationPolicy *)

Lemma or_rows_nth : forall a b i, length a = length b ->
  kept (map (fun p => fst p || snd p) (combine a b)) i <-> (kept a i \/ kept b i).
Proof.
  unfold kept. induction a as [|x a IH]; intros [|y b] i H; simpl in *; try discriminate.
  - destruct i; simpl; intuition discriminate.
  - destruct i; simpl.
    + destruct x, y; simpl; intuition congruence.
    + apply IH. lia.
Qed.

Lemma np_any_rows_spec : forall rows acc,
  (forall r, In r rows -> length r = length acc) ->
  exists flags, np_any_rows acc rows = Ok flags /\ length flags = length acc /\
    forall i, kept flags i <-> (kept acc i \/ exists r, In r rows /\ kept r i).
Proof.
  induction rows as [|r rows IH]; simpl; intros acc H.
  - exists acc. repeat split; auto. intros [?|(r & [] & _)]; auto.
  - rewrite (proj2 (Nat.eqb_eq _ _)) by (apply H; auto).
    assert (L : length (map (fun p : bool * bool => fst p || snd p) (combine acc r)) = length acc).
    { rewrite map_length, combine_length. rewrite (H r) by auto. lia. }
    destruct (IH (map (fun p => fst p || snd p) (combine acc r))) as (f & E & Lf & K).
    { intros r' Hr'. rewrite L. apply H; auto. }
    exists f. repeat split; auto; try congruence.
    + intros Hk. apply K in Hk. destruct Hk as [Hk|(r' & Hr & Hk)].
      * apply or_rows_nth in Hk; [|symmetry; auto]. destruct Hk; eauto.
      * eauto.
    + intros Hk. apply K. rewrite or_rows_nth by (symmetry; auto).
      destruct Hk as [Hk|(r' & [->|Hr] & Hk)]; eauto.
Qed.

Lemma sequence_ok : forall (ps : list policy) cs,
  (forall p, In p ps -> exists f, p cs = Ok f /\ one_per cs f) ->
  exists rows, sequence (map (fun p => p cs) ps) = Ok rows /\
    length rows = length ps /\
    (forall r, In r rows <-> exists p, In p ps /\ p cs = Ok r).
Proof.
  induction ps as [|p ps IH]; simpl; intros cs H.
  - exists []. repeat split; auto; simpl; try tauto. intros (p & [] & _).
  - destruct (H p (or_introl eq_refl)) as (f & E & L). rewrite E. simpl.
    destruct (IH cs) as (rows & E2 & L2 & K); [intros; apply H; auto|].
    rewrite E2. simpl. exists (f :: rows). repeat split; simpl; auto.
    + intros [<-|Hr]; eauto. apply K in Hr. destruct Hr as (q & Hq & Hr). eauto.
    + intros (q & [<-|Hq] & Hr); [left; congruence|right; apply K; eauto].
Qed.

Lemma any_preservation_spec : forall ps cs,
  ps <> [] ->
  (forall p, In p ps -> exists f, p cs = Ok f /\ one_per cs f) ->
  exists flags, any_preservation ps cs = Ok (DList flags) /\ one_per cs flags /\
    forall i, kept flags i <-> exists p f, In p ps /\ p cs = Ok f /\ kept f i.
Proof.
  intros ps cs Hne H. unfold any_preservation.
  destruct (sequence_ok ps cs H) as (rows & E & L & K). rewrite E. simpl.
  destruct rows as [|r rows]; [destruct ps; [tauto|discriminate]|].
  assert (LR : forall r', In r' (r :: rows) -> length r' = length cs).
  { intros r' Hr. apply K in Hr. destruct Hr as (p & Hp & Ep).
    destruct (H p Hp) as (f & Ef & Lf). rewrite Ep in Ef. inversion Ef; subst. exact Lf. }
  destruct (np_any_rows_spec rows r) as (f & Ef & Lf & Kf).
  { intros r' Hr. rewrite (LR r'), (LR r); simpl; auto. }
  rewrite Ef. simpl. exists f. repeat split; auto.
  - unfold one_per. rewrite Lf. apply LR; simpl; auto.
  - intros Hk. apply Kf in Hk. destruct Hk as [Hk|(r' & Hr & Hk)].
    + destruct (proj1 (K r) (or_introl eq_refl)) as (p & Hp & Ep). eauto.
    + destruct (proj1 (K r') (or_intror Hr)) as (p & Hp & Ep). eauto.
  - intros (p & f' & Hp & Ep & Hk). apply Kf.
    assert (Hin : In f' (r :: rows)) by (apply K; eauto).
    destruct Hin as [->|Hin]; eauto.
Qed.

Lemma any_preservation_monotone : forall ps qs cs f g,
  ps <> [] -> incl ps qs ->
  (forall p, In p qs -> exists f, p cs = Ok f /\ one_per cs f) ->
  any_preservation ps cs = Ok (DList f) ->
  any_preservation qs cs = Ok (DList g) ->
  forall i, kept f i -> kept g i.
Proof.
  intros ps qs cs f g Hne Hi H Ef Eg i Hk.
  destruct (any_preservation_spec ps cs Hne) as (f' & E1 & _ & K1).
  { intros; apply H; auto. }
  destruct (any_preservation_spec qs cs) as (g' & E2 & _ & K2); auto.
  { intros ->. destruct ps as [|p0 ps]; [tauto|]. destruct (Hi p0 (or_introl eq_refl)). }
  rewrite Ef in E1; inversion E1; subst f'. rewrite Eg in E2; inversion E2; subst g'.
  apply K1 in Hk. destruct Hk as (p & h & Hp & Ep & Hk). apply K2. exists p, h. auto.
Qed.

(** * Sorting *)

Section Sorting.
  Variable A : Type.
  Variable key : nat * A -> Z.

  Definition plt (a b : nat * A) : Prop := key a < key b \/ (key a = key b /\ (fst a < fst b)%nat).

  Definition pltb (a b : nat * A) : bool :=
    (key a <? key b) || ((key a =? key b) && Nat.ltb (fst a) (fst b)).

  Lemma pltb_spec : forall a b, pltb a b = true <-> plt a b.
  Proof.
    intros. unfold pltb, plt. rewrite orb_true_iff, andb_true_iff, Z.ltb_lt, Z.eqb_eq, Nat.ltb_lt. tauto.
  Qed.

  Lemma plt_irrefl : forall a, ~ plt a a.
  Proof. unfold plt; intros; lia. Qed.
  Lemma plt_asym : forall a b, plt a b -> ~ plt b a.
  Proof. unfold plt; intros; lia. Qed.
  Lemma plt_trans : forall a b c, plt a b -> plt b c -> plt a c.
  Proof. unfold plt; intros; lia. Qed.

  Lemma insert_perm : forall x l, Permutation (insert_by key x l) (x :: l).
  Proof.
    induction l; simpl; auto. destruct (key x <? key a); auto.
    rewrite IHl. apply perm_swap.
  Qed.

  Lemma insert_sorted : forall x l,
    StronglySorted plt l -> (forall y, In y l -> (fst y < fst x)%nat) ->
    StronglySorted plt (insert_by key x l).
  Proof.
    induction l as [|a l IH]; simpl; intros Hs Hf; [repeat constructor|].
    inversion Hs; subst. destruct (key x <? key a) eqn:E.
    - apply Z.ltb_lt in E. constructor; auto. constructor; [left; auto|].
      rewrite Forall_forall in *. intros y Hy. apply plt_trans with a; [left; auto|auto].
    - apply Z.ltb_ge in E. constructor; [apply IH; auto|].
      rewrite Forall_forall in *. intros y Hy.
      apply (Permutation_in _ (insert_perm x l)) in Hy. destruct Hy as [<-|Hy]; auto.
      unfold plt. specialize (Hf a (or_introl eq_refl)). lia.
  Qed.

  Definition increasing (l : list (nat * A)) : Prop :=
    StronglySorted (fun a b => (fst a < fst b)%nat) l.

  Lemma sorted_fold : forall l acc,
    StronglySorted plt acc -> increasing l ->
    (forall y x, In y acc -> In x l -> (fst y < fst x)%nat) ->
    StronglySorted plt (fold_left (fun acc x => insert_by key x acc) l acc) /\
    Permutation (fold_left (fun acc x => insert_by key x acc) l acc) (l ++ acc).
  Proof.
    induction l as [|x l IH]; simpl; intros acc Hs Hi Hf; [split; auto|].
    inversion Hi; subst. destruct (IH (insert_by key x acc)) as [S1 P1]; auto.
    - apply insert_sorted; auto.
    - intros y z Hy Hz. apply (Permutation_in _ (insert_perm x acc)) in Hy.
      destruct Hy as [<-|Hy]; auto. rewrite Forall_forall in H2. auto.
    - split; auto. rewrite P1, insert_perm. symmetry. apply Permutation_middle.
  Qed.

  Lemma sorted_spec : forall l, increasing l ->
    StronglySorted plt (py_sorted key l) /\ Permutation (py_sorted key l) l.
  Proof.
    intros l Hl. destruct (sorted_fold l []) as [S P]; auto.
    - constructor.
    - simpl; tauto.
    - rewrite app_nil_r in P. auto.
  Qed.

  Lemma sorted_suffix : forall s p x, StronglySorted plt s -> In x s -> (p <= length s)%nat ->
    (In x (skipn p s) <-> (length (filter (pltb x) s) < length s - p)%nat).
  Proof.
    induction s as [|a s IH]; intros p x Hs Hx Hp; [destruct Hx|].
    inversion Hs; subst. rewrite Forall_forall in H2.
    assert (NA : ~ In a s) by (intros Hin; apply (plt_irrefl a); auto).
    destruct p as [|p].
    - simpl skipn. split; auto. intros _.
      assert (LL : forall (f : nat * A -> bool) l y, In y l -> f y = false ->
                (length (filter f l) < length l)%nat).
      { intros f. induction l; simpl; intros y Hy Hf; [tauto|].
        destruct Hy as [->|Hy].
        - rewrite Hf. pose proof (filter_length_le _ f l). lia.
        - specialize (IHl y Hy Hf). destruct (f a0); simpl; lia. }
      specialize (LL (pltb x) (a :: s) x Hx).
      assert (pltb x x = false).
      { destruct (pltb x x) eqn:E; auto. apply pltb_spec in E. destruct (plt_irrefl _ E). }
      rewrite Nat.sub_0_r. apply LL. exact H.
    - simpl skipn. simpl in Hp. destruct Hx as [<-|Hx].
      + split; [intros Hin|].
        * exfalso. apply NA. rewrite <- (firstn_skipn p s). apply in_or_app; auto.
        * intros Hc. exfalso.
          assert (F : filter (pltb a) s = s).
          { clear - H2. induction s as [|b s IH]; simpl; auto.
            rewrite (proj2 (pltb_spec a b)) by (apply H2; simpl; auto).
            rewrite IH; auto. intros; apply H2; simpl; auto. }
          simpl in Hc. assert (pltb a a = false).
          { destruct (pltb a a) eqn:E; auto. apply pltb_spec in E. destruct (plt_irrefl _ E). }
          rewrite H, F in Hc. lia.
      + assert (pltb x a = false).
        { destruct (pltb x a) eqn:E; auto. apply pltb_spec in E. exfalso.
          apply (plt_asym a x); auto. }
        simpl. rewrite H. apply IH; auto. lia.
  Qed.
End Sorting.

Lemma filter_perm_length : forall (A : Type) (f : A -> bool) l l',
  Permutation l l' -> length (filter f l) = length (filter f l').
Proof.
  induction 1; simpl; auto; try congruence.
  - destruct (f x); simpl; auto.
  - destruct (f x), (f y); simpl; auto.
Qed.

Lemma enumerate_In : forall (A : Type) (l : list A) k i c,
  In (i, c) (enumerate_from k l) <-> ((k <= i)%nat /\ nth_error l (i - k) = Some c).
Proof.
  induction l as [|a l IH]; simpl; intros k i c.
  - split; [tauto|]. intros [_ H]. destruct (i - k)%nat; discriminate.
  - rewrite IH. split.
    + intros [H|[H1 H2]].
      * inversion H; subst. split; auto. rewrite Nat.sub_diag. auto.
      * split; [lia|]. replace (i - k)%nat with (S (i - S k)) by lia. auto.
    + intros [H1 H2]. destruct (Nat.eq_dec i k) as [->|N].
      * rewrite Nat.sub_diag in H2. simpl in H2. left. congruence.
      * right. split; [lia|]. replace (i - k)%nat with (S (i - S k)) in H2 by lia. auto.
Qed.

Lemma enumerate_increasing : forall (A : Type) (l : list A) k, increasing A (enumerate_from k l).
Proof.
  unfold increasing. induction l as [|a l IH]; simpl; intros k; constructor; auto.
  rewrite Forall_forall. intros [i c] H. apply enumerate_In in H. simpl. lia.
Qed.

Lemma filter_strongly : forall (A : Type) (R : A -> A -> Prop) f l,
  StronglySorted R l -> StronglySorted R (filter f l).
Proof.
  induction 1; simpl; [constructor|]. destruct (f a); auto. constructor; auto.
  rewrite Forall_forall in *. intros x Hx. apply filter_In in Hx. apply H0. tauto.
Qed.

Lemma filter_enumerate_length : forall (A : Type) (Q : nat * A -> bool) l k,
  length (filter Q (enumerate_from k l)) =
  length (filter (fun j => match nth_error l (j - k) with Some c => Q (j, c) | None => false end)
            (seq k (length l))).
Proof.
  induction l as [|a l IH]; simpl; intros k; auto.
  rewrite Nat.sub_diag. simpl.
  assert (E : filter (fun j => match nth_error (a :: l) (j - k) with Some c => Q (j, c) | None => false end)
                (seq (S k) (length l)) =
              filter (fun j => match nth_error l (j - S k) with Some c => Q (j, c) | None => false end)
                (seq (S k) (length l))).
  { apply filter_ext_in. intros j Hj. apply in_seq in Hj.
    replace (j - k)%nat with (S (j - S k)) by lia. reflexivity. }
  rewrite E. destruct (Q (k, a)); simpl; rewrite IH; auto.
Qed.

Lemma filter_filter : forall (A : Type) (f g : A -> bool) l,
  filter f (filter g l) = filter (fun x => g x && f x) l.
Proof.
  induction l; simpl; auto. destruct (g a); simpl; auto. destruct (f a); simpl; congruence.
Qed.

Definition has_m (ic : nat * info) : bool :=
  match metrics (snd ic) with Some _ => true | None => false end.

Definition skey (reverse : bool) (ic : nat * info) : Z :=
  if reverse then - metric_key ic else metric_key ic.

Lemma py_sorted_rev_key : forall reverse l,
  py_sorted_rev metric_key reverse l = py_sorted (skey reverse) l.
Proof. intros [] l; reflexivity. Qed.

Lemma preferred_count : forall reverse cs i c v,
  nth_error cs i = Some c -> metrics c = Some v ->
  Z.of_nat (length (filter (pltb info (skey reverse) (i, c)) (filter has_m (enumerate cs)))) =
  how_many_preferred reverse cs i.
Proof.
  intros reverse cs i c v Hn Hm. unfold how_many_preferred. f_equal.
  rewrite filter_filter. unfold enumerate. rewrite filter_enumerate_length.
  f_equal. apply filter_ext_in. intros j Hj. rewrite Nat.sub_0_r.
  unfold preferred. rewrite Hn. destruct (nth_error cs j) as [cj|] eqn:Ej; auto.
  unfold has_m, pltb, skey, metric_key. simpl. rewrite Hm.
  destruct (metrics cj) as [mj|]; auto. simpl.
  destruct reverse.
  - destruct (mj <? v) eqn:A, (-v <? - mj) eqn:B, (mj =? v) eqn:C, (- v =? - mj) eqn:D;
      simpl; auto; lia.
  - destruct (v <? mj) eqn:A, (mj =? v) eqn:C, (v =? mj) eqn:D; simpl; auto; lia.
Qed.

Lemma existsb_kept : forall (keep : list nat) n i, (i < n)%nat ->
  (kept (map (fun i => existsb (Nat.eqb i) keep) (seq 0 n)) i <-> In i keep).
Proof.
  intros keep n i Hi. unfold kept.
  rewrite (map_nth_error _ i _ (d := i)).
  - split.
    + intros H. inversion H as [H']. apply existsb_exists in H'. destruct H' as (x & Hx & E).
      apply Nat.eqb_eq in E. subst. auto.
    + intros H. f_equal. apply existsb_exists. exists i. split; auto. apply Nat.eqb_refl.
  - rewrite nth_error_nth' with (d := 0%nat) by (rewrite seq_length; auto).
    rewrite seq_nth by auto. auto.
Qed.

Lemma py_from_neg : forall (A : Type) (l : list A) n, 0 < n ->
  py_from l (- n) = skipn (length l - Z.to_nat n) l.
Proof.
  intros. unfold py_from, py_bound. destruct (- n <? 0) eqn:E; [|lia].
  f_equal. lia.
Qed.

Lemma map_fst_NoDup : forall (A : Type) (l : list (nat * A)), increasing A l -> NoDup (map fst l).
Proof.
  induction 1; simpl; constructor; auto. intro Hin. apply in_map_iff in Hin.
  destruct Hin as (x & E & Hx). rewrite Forall_forall in H0. specialize (H0 x Hx). lia.
Qed.

Section BestN.
  Variables (reverse : bool) (n : Z) (kw : bool) (cs : list info).
  Hypothesis Hn : 0 < n < Z.of_nat (length cs).

  Let withm := filter has_m (enumerate cs).
  Let sorted := py_sorted (skey reverse) withm.
  Let top := map fst (py_from sorted (- n)).

  Lemma withm_inc : increasing info withm.
  Proof. apply filter_strongly. apply enumerate_increasing. Qed.

  Lemma best_n_unfold : best_n reverse (Some n) kw cs =
    map (fun i => existsb (Nat.eqb i)
        (top ++ (if kw then map fst (filter (fun ic => match metrics (snd ic) with Some _ => false | None => true end) (enumerate cs)) else [])))
      (seq 0 (length cs)).
  Proof.
    unfold best_n. destruct (Z.of_nat (length cs) <=? n) eqn:E1; [lia|].
    destruct (n =? 0) eqn:E2; [lia|]. rewrite py_sorted_rev_key. reflexivity.
  Qed.

  Lemma top_In : forall i, In i top ->
    exists c v, nth_error cs i = Some c /\ metrics c = Some v.
  Proof.
    intros i H. unfold top in H. apply in_map_iff in H. destruct H as ([i' c] & E & H).
    simpl in E; subst i'. rewrite py_from_neg in H by lia.
    assert (Hs : In (i, c) sorted).
    { rewrite <- (firstn_skipn (length sorted - Z.to_nat n) sorted). apply in_or_app; auto. }
    apply (Permutation_in _ (proj2 (sorted_spec _ (skey reverse) withm withm_inc))) in Hs.
    apply filter_In in Hs. destruct Hs as [He Hm]. apply enumerate_In in He.
    rewrite Nat.sub_0_r in He. unfold has_m in Hm; simpl in Hm.
    destruct (metrics c) eqn:E; [|discriminate]. exists c, z. split; tauto.
  Qed.

  Lemma best_n_kept : forall i c, nth_error cs i = Some c ->
    (kept (best_n reverse (Some n) kw cs) i <->
     match metrics c with
     | None => kw = true
     | Some _ => how_many_preferred reverse cs i < n
     end).
  Proof.
    intros i c Hi. rewrite best_n_unfold.
    rewrite existsb_kept by (apply nth_error_Some; congruence).
    rewrite in_app_iff. destruct (metrics c) as [v|] eqn:Em.
    - rewrite <- (preferred_count reverse cs i c v Hi Em). fold withm.
      assert (Hw : In (i, c) withm).
      { apply filter_In. split; [apply enumerate_In; rewrite Nat.sub_0_r; split; auto; lia|].
        unfold has_m; simpl. rewrite Em. auto. }
      destruct (sorted_spec _ (skey reverse) withm withm_inc) as [HS HP].
      assert (HsI : In (i, c) sorted) by (apply (Permutation_in _ (Permutation_sym HP)); auto).
      rewrite <- (filter_perm_length _ _ _ _ HP).
      fold sorted in HS, HP |- *.
      assert (Q : In i top <-> In (i, c) (skipn (length sorted - Z.to_nat n) sorted)).
      { unfold top. rewrite py_from_neg by lia. split.
        - intros H. apply in_map_iff in H. destruct H as ([i' c'] & E & H). simpl in E; subst i'.
          assert (Hs' : In (i, c') sorted).
          { rewrite <- (firstn_skipn (length sorted - Z.to_nat n) sorted). apply in_or_app; auto. }
          apply (Permutation_in _ HP) in Hs'. apply filter_In in Hs'. destruct Hs' as [He _].
          apply enumerate_In in He. rewrite Nat.sub_0_r in He. destruct He as [_ He].
          rewrite Hi in He. inversion He; subst. auto.
        - intros H. apply in_map_iff. exists (i, c). auto. }
      rewrite Q. rewrite (sorted_suffix _ (skey reverse)) by (auto; lia).
      split.
      + intros [H|H]; [lia|]. destruct kw; [|destruct H].
        apply in_map_iff in H. destruct H as ([i' c'] & E & H). simpl in E; subst i'.
        apply filter_In in H. destruct H as [He Hm]. apply enumerate_In in He.
        rewrite Nat.sub_0_r in He. destruct He as [_ He]. rewrite Hi in He. inversion He; subst.
        simpl in Hm. rewrite Em in Hm. discriminate.
      + intros H. left.
        assert (LL : (length (filter (pltb info (skey reverse) (i, c)) sorted) < length sorted)%nat).
        { pose proof (proj1 (sorted_suffix _ (skey reverse) sorted 0 (i, c) HS HsI ltac:(lia))) as X.
          simpl in X. specialize (X HsI). lia. }
        lia.
    - split.
      + intros [H|H].
        * apply top_In in H. destruct H as (c' & v & H1 & H2). rewrite Hi in H1.
          inversion H1; subst. congruence.
        * destruct kw; auto.
      + intros ->. right. apply in_map_iff. exists (i, c). split; auto.
        apply filter_In. split; [apply enumerate_In; rewrite Nat.sub_0_r; split; auto; lia|].
        simpl. rewrite Em. auto.
  Qed.

  Lemma best_n_length : one_per cs (best_n reverse (Some n) kw cs).
  Proof. rewrite best_n_unfold. unfold one_per. rewrite map_length, seq_length. auto. Qed.

  Lemma best_n_count : exists L,
    NoDup L /\
    Z.of_nat (length L) = Z.min n (Z.of_nat (length (filter (fun c => match metrics c with Some _ => true | None => false end) cs))) /\
    forall i, In i L <-> (kept (best_n reverse (Some n) kw cs) i /\
                          exists c, nth_error cs i = Some c /\ has_metrics c).
  Proof.
    exists top. destruct (sorted_spec _ (skey reverse) withm withm_inc) as [HS HP].
    fold sorted in HS, HP. repeat split.
    - unfold top. rewrite py_from_neg by lia.
      assert (ND : NoDup (map fst sorted)).
      { apply Permutation_NoDup with (map fst withm).
        - apply Permutation_map. apply Permutation_sym; auto.
        - apply map_fst_NoDup. apply withm_inc. }
      rewrite <- skipn_map. revert ND. generalize (map fst sorted) (length sorted - Z.to_nat n)%nat.
      induction l as [|a l IH]; intros [|p] ND; simpl; auto. inversion ND; auto.
    - unfold top. rewrite map_length, py_from_neg, skipn_length by lia.
      assert (E : length sorted = length (filter (fun c => match metrics c with Some _ => true | None => false end) cs)).
      { rewrite (Permutation_length HP). unfold withm, enumerate. generalize 0%nat.
        clear. induction cs as [|c l IH]; simpl; intros k; auto.
        unfold has_m; simpl. destruct (metrics c); simpl; fold has_m; auto. }
      rewrite <- E. lia.
    - destruct (top_In _ H) as (c & v & H1 & H2). rewrite best_n_unfold.
      apply existsb_kept; [apply nth_error_Some; congruence|]. apply in_or_app; auto.
    - destruct (top_In _ H) as (c & v & H1 & H2). exists c. split; auto.
      unfold has_metrics; congruence.
    - intros [Hk (c & H1 & H2)]. rewrite best_n_unfold in Hk.
      rewrite existsb_kept in Hk by (apply nth_error_Some; congruence).
      apply in_app_or in Hk. destruct Hk as [Hk|Hk]; auto.
      exfalso. destruct kw; [|destruct Hk].
      apply in_map_iff in Hk. destruct Hk as ([i' c'] & E & H). simpl in E; subst i'.
      apply filter_In in H. destruct H as [He Hm]. apply enumerate_In in He.
      rewrite Nat.sub_0_r in He. destruct He as [_ He]. rewrite H1 in He. inversion He; subst.
      simpl in Hm. unfold has_metrics in H2. destruct (metrics c'); [discriminate|]. congruence.
  Qed.
End BestN.

Lemma best_n_all : forall reverse n kw cs,
  match n with None => True | Some k => Z.of_nat (length cs) <= k end ->
  one_per cs (best_n reverse n kw cs) /\
  forall i, (i < length cs)%nat -> kept (best_n reverse n kw cs) i.
Proof.
  intros reverse n kw cs Hn. unfold best_n.
  assert (E : match n with
     | None => py_repeat true (Z.of_nat (length cs))
     | Some n => if Z.of_nat (length cs) <=? n then py_repeat true (Z.of_nat (length cs)) else [] end
     = py_repeat true (Z.of_nat (length cs))).
  { destruct n; auto. rewrite (proj2 (Z.leb_le _ _)); auto. }
  destruct n as [n|].
  - destruct (Z.of_nat (length cs) <=? n) eqn:L; [|lia]. split.
    + unfold one_per. rewrite py_repeat_len. lia.
    + intros i Hi. unfold kept, py_repeat. apply nth_error_repeat. lia.
  - split.
    + unfold one_per. rewrite py_repeat_len. lia.
    + intros i Hi. unfold kept, py_repeat. apply nth_error_repeat. lia.
Qed.

Lemma best_n_zero : forall reverse kw cs,
  one_per cs (best_n reverse (Some 0) kw cs) /\
  forall i, ~ kept (best_n reverse (Some 0) kw cs) i.
Proof.
  intros reverse kw cs. unfold best_n.
  destruct (Z.of_nat (length cs) <=? 0) eqn:L.
  - destruct cs; [|discriminate L]. split; [reflexivity|]. intros i H. apply kept_lt in H. simpl in H. lia.
  - simpl. split.
    + unfold one_per. rewrite py_repeat_len. lia.
    + intros i H. pose proof (kept_lt _ _ H) as Hl. rewrite py_repeat_len in Hl.
      unfold kept, py_repeat in H. rewrite nth_error_repeat in H by lia. discriminate.
Qed.

(** * EveryNStepsClosest *)

Lemma nearest_round : forall n s, n <> 0 -> nearest n s (py_round_div s n).
Proof.
  assert (P : forall n s, 0 < n ->
     let k := (if 2 * (s mod n) <? n then s / n
               else if n <? 2 * (s mod n) then s / n + 1
               else if Z.even (s / n) then s / n else s / n + 1) in
     2 * Z.abs (s - k * n) < n \/ (2 * Z.abs (s - k * n) = n /\ Z.Even k)).
  { intros n s Hn. cbv zeta.
    pose proof (Z.div_mod s n ltac:(lia)) as DM. pose proof (Z.mod_pos_bound s n Hn) as MB.
    set (q := s / n) in *. set (r := s mod n) in *. clearbody q r.
    destruct (2 * r <? n) eqn:E1; [left; nia|].
    destruct (n <? 2 * r) eqn:E2.
    - left. replace (s - (q + 1) * n) with (r - n) by lia. lia.
    - right. assert (2 * r = n) by lia.
      destruct (Z.even q) eqn:Ev.
      + split; [replace (s - q * n) with r by lia; lia|]. apply Z.even_spec; auto.
      + split; [replace (s - (q + 1) * n) with (r - n) by lia; lia|].
        apply Z.even_spec. rewrite Z.even_add, Ev. auto. }
  intros n s Hn. unfold nearest, py_round_div.
  destruct (n <? 0) eqn:E.
  - pose proof (P (Z.abs n) (- s) ltac:(lia)) as Q. cbv zeta in Q |- *.
    set (k := if 2 * (- s mod Z.abs n) <? Z.abs n then _ else _) in *. clearbody k.
    replace (Z.abs (s - k * n)) with (Z.abs (- s - k * Z.abs n)); auto.
    rewrite (Z.abs_neq n) by lia. replace (- s - k * - n) with (- (s - k * n)) by lia.
    apply Z.abs_opp.
  - pose proof (P (Z.abs n) s ltac:(lia)) as Q. cbv zeta in Q |- *.
    set (k := if 2 * (s mod Z.abs n) <? Z.abs n then _ else _) in *. clearbody k.
    rewrite (Z.abs_eq n) in * by lia. auto.
Qed.

Lemma nearest_unique : forall n s k k', n <> 0 -> nearest n s k -> nearest n s k' -> k = k'.
Proof.
  assert (P : forall n s k k', n <> 0 -> nearest n s k -> nearest n s k' -> k < k' -> False).
  { intros n s k k' Hn H1 H2 Hlt.
    assert (A : 2 * Z.abs (s - k * n) <= Z.abs n) by (destruct H1 as [?|[? ?]]; lia).
    assert (B : 2 * Z.abs (s - k' * n) <= Z.abs n) by (destruct H2 as [?|[? ?]]; lia).
    set (a := s - k * n) in *. set (b := s - k' * n) in *.
    assert (D : a - b = (k' - k) * n) by (unfold a, b; lia).
    assert (k' - k = 1) by nia.
    assert (k' = k + 1) by lia. subst k'.
    replace (a - b) with n in D by nia.
    destruct H1 as [H1|[H1 E1]]; [lia|]. destruct H2 as [H2|[H2 E2]]; [lia|].
    destruct E1 as [x E1], E2 as [y E2]. lia. }
  intros n s k k' Hn H1 H2. destruct (Z.lt_trichotomy k k') as [L|[E|L]]; auto; exfalso.
  - eapply (P n s k k'); eauto.
  - eapply (P n s k' k); eauto.
Qed.

Lemma best_get_set_same : forall m k v, best_get k (best_set k v m) = Some v.
Proof.
  induction m as [|[k' v'] m IH]; simpl; intros; [rewrite Z.eqb_refl; auto|].
  destruct (k =? k') eqn:E; simpl; [rewrite Z.eqb_refl; auto|]. rewrite E. auto.
Qed.

Lemma best_get_set_other : forall m k k' v, k <> k' -> best_get k' (best_set k v m) = best_get k' m.
Proof.
  induction m as [|[k0 v0] m IH]; simpl; intros k k' v N.
  - destruct (k' =? k) eqn:E; auto. lia.
  - destruct (k =? k0) eqn:E; simpl.
    + apply Z.eqb_eq in E. subst. destruct (k' =? k0) eqn:E2; auto. lia.
    + destruct (k' =? k0); auto.
Qed.

Lemma best_set_keys : forall m k v x, In x (map fst (best_set k v m)) <-> (x = k \/ In x (map fst m)).
Proof.
  induction m as [|[k0 v0] m IH]; simpl; intros k v x; [intuition|].
  destruct (k =? k0) eqn:E; simpl.
  - apply Z.eqb_eq in E. subst. intuition.
  - rewrite IH. intuition.
Qed.

Lemma best_set_NoDup : forall m k v, NoDup (map fst m) -> NoDup (map fst (best_set k v m)).
Proof.
  induction m as [|[k0 v0] m IH]; simpl; intros k v H; [constructor; auto; constructor|].
  inversion H; subst. destruct (k =? k0) eqn:E; simpl.
  - apply Z.eqb_eq in E. subst. auto.
  - constructor; auto. rewrite best_set_keys. apply Z.eqb_neq in E. intuition.
Qed.

Lemma best_get_In : forall m k v, NoDup (map fst m) -> (best_get k m = Some v <-> In (k, v) m).
Proof.
  induction m as [|[k0 v0] m IH]; simpl; intros k v H; [split; [discriminate|tauto]|].
  inversion H; subst. destruct (k =? k0) eqn:E.
  - apply Z.eqb_eq in E. subst. split.
    + intros X; inversion X; auto.
    + intros [X|X]; [inversion X; auto|]. exfalso. apply H2. apply in_map_iff. exists (k0, v). auto.
  - rewrite IH by auto. split; auto. intros [X|X]; auto. inversion X. lia.
Qed.

Section Closest.
  Variable n : Z.
  Definition bucket (c : info) : Z := py_round_div (step c) n.
  Definition dist (c : info) : Z := Z.abs (step c - bucket c * n).

  Definition rep_in (l : list (nat * info)) (i : nat) (c : info) : Prop :=
    In (i, c) l /\ forall j cj, In (j, cj) l -> bucket cj = bucket c ->
      dist c < dist cj \/ (dist c = dist cj /\ (j <= i)%nat).

  Definition Inv (m : best_map) (l : list (nat * info)) : Prop :=
    NoDup (map fst m) /\
    forall k, match best_get k m with
              | None => forall i c, In (i, c) l -> bucket c <> k
              | Some (i, d) => exists c, rep_in l i c /\ bucket c = k /\ d = dist c
              end.

  Lemma closest_step_inv : forall m l i c,
    Inv m l -> (forall j cj, In (j, cj) l -> (j < i)%nat) ->
    Inv (closest_step n m (i, c)) (l ++ [(i, c)]).
  Proof.
    intros m l i c [ND HI] Hlt. unfold closest_step.
    fold (bucket c). fold (dist c).
    assert (Old : forall k, k <> bucket c ->
       match best_get k m with
              | None => forall i' c', In (i', c') (l ++ [(i, c)]) -> bucket c' <> k
              | Some (i', d) => exists c', rep_in (l ++ [(i, c)]) i' c' /\ bucket c' = k /\ d = dist c'
              end).
    { intros k Hk. specialize (HI k). destruct (best_get k m) as [[i' d]|].
      - destruct HI as (c' & [H1 H2] & H3 & H4). exists c'. repeat split; auto.
        + apply in_or_app; auto.
        + intros j cj Hj Hb. apply in_app_or in Hj. destruct Hj as [Hj|[Hj|[]]]; auto.
          inversion Hj; subst. exfalso. congruence.
      - intros i' c' H. apply in_app_or in H. destruct H as [H|[H|[]]]; eauto.
        inversion H; subst. auto. }
    pose proof (HI (bucket c)) as Hb.
    destruct (best_get (bucket c) m) as [[i0 d0]|] eqn:Eg.
    - destruct Hb as (c0 & [H1 H2] & H3 & H4). destruct (dist c <=? d0) eqn:Ed.
      + split; [apply best_set_NoDup; auto|]. intros k.
        destruct (Z.eq_dec (bucket c) k) as [<-|N].
        * rewrite best_get_set_same. exists c. repeat split; auto.
          -- apply in_or_app; simpl; auto.
          -- intros j cj Hj Hbj. apply in_app_or in Hj. destruct Hj as [Hj|[Hj|[]]].
             ++ specialize (Hlt _ _ Hj). specialize (H2 _ _ Hj ltac:(congruence)). lia.
             ++ inversion Hj; subst. right. auto.
        * rewrite best_get_set_other by auto. apply Old; auto.
      + split; auto. intros k. destruct (Z.eq_dec (bucket c) k) as [<-|N].
        * rewrite Eg. exists c0. repeat split; auto; [apply in_or_app; auto|].
          intros j cj Hj Hbj. apply in_app_or in Hj. destruct Hj as [Hj|[Hj|[]]]; auto.
          inversion Hj; subst. left. lia.
        * apply Old; auto.
    - split; [apply best_set_NoDup; auto|]. intros k.
      destruct (Z.eq_dec (bucket c) k) as [<-|N].
      + rewrite best_get_set_same. exists c. repeat split; auto.
        * apply in_or_app; simpl; auto.
        * intros j cj Hj Hbj. apply in_app_or in Hj. destruct Hj as [Hj|[Hj|[]]].
          -- exfalso. eapply Hb; eauto.
          -- inversion Hj; subst. right; auto.
      + rewrite best_get_set_other by auto. apply Old; auto.
  Qed.

  Lemma closest_fold_inv : forall l2 l1 m,
    Inv m l1 -> increasing info (l1 ++ l2) ->
    Inv (fold_left (closest_step n) l2 m) (l1 ++ l2).
  Proof.
    induction l2 as [|[i c] l2 IH]; simpl; intros l1 m HI Hinc.
    - rewrite app_nil_r. auto.
    - replace (l1 ++ (i, c) :: l2) with ((l1 ++ [(i, c)]) ++ l2) in *
        by (rewrite <- app_assoc; auto).
      apply IH; auto. apply closest_step_inv; auto.
      intros j cj Hj. clear - Hinc Hj. rewrite <- app_assoc in Hinc. simpl in Hinc.
      induction l1 as [|a l1 IH]; [destruct Hj|].
      simpl in Hinc. inversion Hinc; subst. destruct Hj as [->|Hj]; auto.
      rewrite Forall_forall in H2. specialize (H2 (i, c)). simpl in H2. apply H2.
      apply in_or_app; simpl; auto.
  Qed.
End Closest.

Lemma mark_all_length : forall is r, length (mark_all is r) = length r.
Proof. induction is; simpl; intros; auto. rewrite IHis, set_nth_length. auto. Qed.

Lemma mark_all_nth : forall is r i,
  kept (mark_all is r) i <-> (kept r i \/ (In i is /\ (i < length r)%nat)).
Proof.
  induction is as [|a is IH]; simpl; intros r i; [tauto|].
  rewrite IH, set_nth_length. unfold kept. destruct (Nat.eq_dec a i) as [->|N].
  - destruct (Nat.lt_ge_cases i (length r)) as [L|L].
    + rewrite set_nth_same by auto. intuition.
    + rewrite !(proj2 (nth_error_None _ _)) by (rewrite ?set_nth_length; auto).
      intuition; try discriminate; try lia.
  - rewrite set_nth_other by auto. intuition.
Qed.

Lemma closest_spec : forall n m cs, n <> 0 ->
  match m with None => True | Some k => 1 <= k end ->
  exists all flags,
    every_n_steps_closest n m cs = Ok flags /\
    one_per cs all /\
    (forall i, kept all i <-> ((S i = length cs)%nat \/ represents n cs i)) /\
    match m with None => flags = all | Some k => newest_only k all flags end.
Proof.
  intros n m cs Hn Hm. unfold every_n_steps_closest.
  rewrite (proj2 (Z.eqb_neq n 0)) by auto.
  destruct cs as [|c0 cs0].
  - exists [], []. repeat split; auto.
    + intros H. apply kept_lt in H. simpl in H. lia.
    + intros [H|(ci & k & H & _)]; [discriminate|destruct i; discriminate].
    + destruct m; auto. split; auto. intros i H. simpl in H. lia.
  - remember (c0 :: cs0) as cs eqn:Ecs.
    assert (Hlen : (0 < length cs)%nat) by (subst; simpl; lia). clear Ecs c0 cs0.
    set (best := fold_left (closest_step n) (enumerate cs) []).
    set (r0 := py_repeat false (Z.of_nat (length cs))).
    assert (HI : Inv n best (enumerate cs)).
    { unfold best. apply (closest_fold_inv n (enumerate cs) [] []).
      - split; [constructor|]. intros k i c [].
      - apply enumerate_increasing. }
    assert (Hr0 : length r0 = length cs) by (unfold r0; rewrite py_repeat_len; lia).
    eexists. eexists. split; [reflexivity|]. split; [|split].
    3: { destruct m as [k|]; [|simpl; reflexivity]. apply cap_spec. auto. }
    + unfold one_per. rewrite set_nth_length, mark_all_length. auto.
    + intros i.
      assert (R : In i (map (fun kv => fst (snd kv)) best) <-> represents n cs i).
      { destruct HI as [ND HI]. split.
        - intros H. apply in_map_iff in H. destruct H as ([k [i' d]] & E & H). simpl in E; subst i'.
          apply best_get_In in H; auto. specialize (HI k). rewrite H in HI.
          destruct HI as (c & [H1 H2] & H3 & H4).
          apply enumerate_In in H1. rewrite Nat.sub_0_r in H1. destruct H1 as [_ H1].
          exists c, k. split; auto. split; [rewrite <- H3; apply nearest_round; auto|].
          intros j cj Hj Hnear. cbv zeta.
          assert (Bj : bucket n cj = k).
          { eapply nearest_unique; eauto. apply nearest_round; auto. }
          specialize (H2 j cj). unfold dist in H2. rewrite Bj, H3 in H2. apply H2; auto.
          apply enumerate_In. rewrite Nat.sub_0_r. split; auto; lia.
        - intros (c & k & H1 & H2 & H3).
          assert (Bc : bucket n c = k).
          { eapply nearest_unique; eauto. apply nearest_round; auto. }
          assert (Hin : In (i, c) (enumerate cs)).
          { apply enumerate_In. rewrite Nat.sub_0_r. split; auto; lia. }
          specialize (HI k). destruct (best_get k best) as [[i' d]|] eqn:E.
          + destruct HI as (c' & [H4 H5] & H6 & H7).
            specialize (H5 i c Hin ltac:(congruence)).
            apply enumerate_In in H4. rewrite Nat.sub_0_r in H4. destruct H4 as [_ H4].
            specialize (H3 i' c' H4). cbv zeta in H3.
            assert (Nn : nearest n (step c') k) by (rewrite <- H6; apply nearest_round; auto).
            specialize (H3 Nn). unfold dist in H5. rewrite Bc, H6 in H5.
            assert (i = i') by lia. subst i'.
            apply in_map_iff. exists (k, (i, d)). split; auto. apply best_get_In; auto.
          + exfalso. eapply HI; eauto. }
      destruct (Nat.eq_dec i (length cs - 1)) as [->|N].
      * unfold kept. rewrite set_nth_same by (rewrite mark_all_length; lia).
        split; auto. intros _. left. lia.
      * unfold kept. rewrite set_nth_other by auto.
        fold (kept (mark_all (map (fun kv => fst (snd kv)) best) r0) i).
        rewrite mark_all_nth, R. split.
        -- intros [H|[H _]]; auto. pose proof (kept_lt _ _ H) as L. exfalso.
           unfold kept, r0, py_repeat in H. rewrite nth_error_repeat in H by lia. discriminate.
        -- intros [H|H]; [lia|]. right. split; auto. rewrite Hr0.
           destruct H as (c & k & H & _). apply nth_error_Some. congruence.
Qed.

(** At most [m] flags survive the cap. *)
Lemma newest_only_count : forall m all flags, 0 <= m -> newest_only m all flags ->
  Z.of_nat (length (filter (fun b => b) flags)) <= m.
Proof.
  intros m all flags Hm [HL HK].
  (* the flags that survive are among the last m true ones *)
  assert (G : forall f a, length f = length a ->
     (forall i, kept f i -> kept a i /\ count_after (fun b => b) a i < m) ->
     Z.of_nat (length (filter (fun b => b) f)) <= Z.min m (Z.of_nat (length (filter (fun b => b) a)))).
  { induction f as [|b f IH]; intros a L K; destruct a as [|x a]; simpl in L; try discriminate.
    - simpl. lia.
    - assert (IH' := IH a ltac:(lia) (fun i H => K (S i) H)).
      destruct b.
      + destruct (K 0%nat eq_refl) as [K1 K2]. unfold kept in K1. simpl in K1. inversion K1; subst.
        unfold count_after in K2. simpl in K2. simpl. lia.
      + simpl. destruct x; simpl; lia. }
  specialize (G flags all HL). transitivity (Z.min m (Z.of_nat (length (filter (fun b => b) all)))); [|lia].
  apply G. intros i Hk. apply HK; auto. rewrite <- HL. apply kept_lt; auto.
Qed.

(** * Save decision policies *)

Lemma fixed_interval_spec : forall n s prev c, n <> 0 ->
  exists b, fixed_interval n s prev c = Ok b /\ (b = true <-> (n | step s)).
Proof.
  intros. unfold fixed_interval. rewrite (proj2 (Z.eqb_neq n 0)) by auto.
  eexists; split; eauto. rewrite is_multiple_mod by auto. unfold is_multiple.
  destruct (Zdivide_dec n (step s)); intuition discriminate.
Qed.

Lemma specific_steps_spec : forall l s prev c,
  exists b, specific_steps l s prev c = Ok b /\ (b = true <-> In (step s) l).
Proof.
  intros. eexists; split; [reflexivity|]. rewrite existsb_exists. split.
  - intros (x & Hx & E). apply Z.eqb_eq in E. congruence.
  - intros H. exists (step s). split; auto. apply Z.eqb_refl.
Qed.

Lemma last_info_app : forall l p, last_info (l ++ [p]) = Some p.
Proof.
  intros [|a l] p; simpl; auto. f_equal. apply last_last.
Qed.

Lemma last_info_nil : forall l, last_info l = None -> l = [].
Proof. destruct l; simpl; intros; congruence. Qed.

Lemma continuous_local_spec : forall ms s prev c,
  continuous_local ms s prev c = true <->
  (saving_in_progress c = false /\
   (prev = [] \/ ms = None \/
    exists l p m, prev = l ++ [p] /\ ms = Some m /\ time s - time p >= m * 1000000)).
Proof.
  intros ms s prev c. unfold continuous_local. destruct (saving_in_progress c).
  - split; [discriminate|]. intros [H _]. discriminate.
  - destruct prev as [|a prev] using rev_ind.
    + simpl. split; auto.
    + rewrite last_info_app. destruct ms as [m|].
      * rewrite Z.leb_le. unfold seconds. split.
        -- intros H. split; auto. right; right. exists prev, a, m. repeat split; auto. lia.
        -- intros [_ [H|[H|(l & p & m' & E1 & E2 & H)]]]; try discriminate.
           ++ destruct prev; discriminate.
           ++ apply app_inj_tail in E1. destruct E1; subst. inversion E2; subst. lia.
      * split; auto.
Qed.

Lemma continuous_all_hosts_spec : forall ms s primary views prev c,
  nth_error views primary = Some (prev, c) ->
  exists b, (forall r, In r (continuous_all_hosts ms s primary views) -> r = Ok b) /\
    length (continuous_all_hosts ms s primary views) = length views /\
    (b = true <->
     (saving_in_progress c = false /\
      (prev = [] \/ ms = None \/
       exists l p m, prev = l ++ [p] /\ ms = Some m /\ time s - time p >= m * 1000000))).
Proof.
  intros ms s primary views prev c H. exists (continuous_local ms s prev c).
  unfold continuous_all_hosts. rewrite H. split; [|split].
  - intros r Hr. apply in_map_iff in Hr. destruct Hr as (x & E & _). auto.
  - apply map_length.
  - apply continuous_local_spec.
Qed.

Lemma any_save_spec : forall ps s prev c,
  (forall p, In p ps -> exists b, p s prev c = Ok b) ->
  exists b, any_save ps s prev c = Ok b /\
    (b = true <-> exists p, In p ps /\ p s prev c = Ok true).
Proof.
  induction ps as [|p ps IH]; simpl; intros s prev c H.
  - exists false. split; auto. split; [discriminate|]. intros (p & [] & _).
  - destruct (H p (or_introl eq_refl)) as [b E]. rewrite E. simpl. destruct b.
    + exists true. split; auto. split; auto. intros _. exists p; auto.
    + destruct (IH s prev c) as (b & E2 & K); [intros; apply H; auto|].
      exists b. split; auto. rewrite K. split.
      * intros (q & Hq & Eq). exists q; auto.
      * intros (q & [<-|Hq] & Eq); [congruence|]. exists q; auto.
Qed.

Lemma cap_zero_keeps_all : forall n exact cs,
  every_n_steps n exact (Some 0) cs = every_n_steps n exact None cs /\
  every_n_steps_closest n (Some 0) cs = every_n_steps_closest n None cs.
Proof.
  assert (H : forall r, apply_max_to_keep (Some 0) r = r).
  { intros r. unfold apply_max_to_keep, py_upto, py_bound. change (- 0 <? 0) with false. cbv iota.
    change (- (0)) with 0. rewrite Z.min_r by lia. simpl firstn. simpl clear_all.
    destruct (0 <? Z.of_nat (length (true_indices r))); auto. }
  intros n exact cs. unfold every_n_steps, every_n_steps_closest.
  destruct (n =? 0); auto. split.
  - f_equal. apply H.
  - destruct cs; auto. f_equal. apply H.
Qed.
