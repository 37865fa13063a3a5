(** Proofs about saves on all processes: safety in all runs. *)
From Coq Require Import List Bool Arith Lia.
From Verif Require Import Base SaveAll_Model SaveAll_Spec.
Import ListNotations.

Local Arguments Nat.ltb : simpl never.

Definition rank (p : phase) : nat :=
  match p with
  | AtPaths => 0 | AtPre => 1 | Check => 2 | Remove => 3 | AtRemoved => 4 | AtPost => 5 | Create => 6 | AtCreate => 7 | Background => 8 | Meta => 9 | AtSaved => 10 | Rename => 11
  | AtFinalize => 12 | Done => 13 | Failed _ => 14
  end.
Definition brank (b : barrier) : nat :=
  match b with BPaths => 0 | BPre => 1 | BRemoved => 4 | BPost => 5 | BCreate => 7 | BSaved => 10 | BFinalize => 12 | BCommit _ => 0 | BFinal _ => 0 end.
Definition srank (b : sub) : nat := match b with Idle => 0 | Write => 1 | AtCommit => 2 | Finalize => 3 | AtFinal => 4 | HDone => 5 | HFailed _ => 6 end.

Lemma barrier_eqb_refl : forall b, barrier_eqb b b = true.
Proof. intros []; cbn; auto using Nat.eqb_refl. Qed.
Lemma barrier_eqb_eq : forall a b, barrier_eqb a b = true -> a = b.
Proof. intros [] [] E; cbn in E; try discriminate; auto; apply Nat.eqb_eq in E; now subst. Qed.

(** What one event does: at most one process moves, or one handler of one process, or one barrier opens. *)
Inductive eff (c : config) (q : bool) (s : state) : state -> Prop :=
| E_open b : opened s b = false -> (forall i, i < c_n c -> at_barrier s b i = true) -> (b = BPaths -> c_inactive c = 0) ->
    eff c q s (mkState (phases s) (subs s) (fun x => barrier_eqb b x || opened s x) (final s) (tmp s))
| E_pass i p b : i < c_n c -> waits (phases s i) = Some b -> opened s b = true ->
    (phases s i = AtPaths /\ p = AtPre /\ paths_agree c = true \/ phases s i = AtPaths /\ p = Failed ValueError /\ paths_agree c = false \/ phases s i = AtPre /\ p = Check \/ phases s i = AtRemoved /\ p = AtPost \/ phases s i = AtPost /\ p = Create \/
     phases s i = AtSaved /\ p = Rename /\ i = c_primary c \/ phases s i = AtSaved /\ p = AtFinalize /\ i <> c_primary c \/ phases s i = AtFinalize /\ p = Done) ->
    eff c q s (set_phase s i p)
| E_check i p : i < c_n c -> phases s i = Check ->
    (final s <> None /\ c_overwrite c = false /\ p = Failed ValueError \/ final s <> None /\ c_overwrite c = true /\ i = c_primary c /\ p = Remove \/
     final s <> None /\ c_overwrite c = true /\ i <> c_primary c /\ (c_version c = V1 /\ p = AtRemoved \/ c_version c = V0 /\ p = AtPost) \/ final s = None /\ p = AtPost) ->
    eff c q s (set_phase s i p)
| E_remove i p : i < c_n c -> phases s i = Remove -> (c_version c = V1 /\ p = AtRemoved \/ c_version c = V0 /\ p = AtPost) -> eff c q s (set_phase (set_final s None) i p)
| E_create i : i < c_n c -> phases s i = Create -> i = c_primary c -> eff c q s (set_phase (set_tmp s (Some (mkTmp [] [] false))) i AtCreate)
| E_create_other i : i < c_n c -> phases s i = Create -> i <> c_primary c -> eff c q s (set_phase s i AtCreate)
| E_start i : i < c_n c -> phases s i = AtCreate -> opened s BCreate = true -> eff c q s (set_phase (start_subs c s i) i Background)
| E_done i p : i < c_n c -> phases s i = Background -> (forall h, h < length (c_handlers c) -> subs s i h = HDone) ->
    (i = c_primary c /\ p = Meta \/ i <> c_primary c /\ (c_version c = V1 /\ p = AtFinalize \/ c_version c = V0 /\ p = AtSaved)) -> eff c q s (set_phase s i p)
| E_bgfail i h e : i < c_n c -> phases s i = Background -> h < length (c_handlers c) -> subs s i h = HFailed e -> eff c q s (set_phase s i (Failed e))
| E_meta i t p : i < c_n c -> phases s i = Meta -> tmp s = Some t -> (c_version c = V1 /\ p = Rename \/ c_version c = V0 /\ p = AtSaved) ->
    eff c q s (set_phase (set_tmp s (Some (mkTmp (t_parts t) (t_final t) true))) i p)
| E_nofile i : i < c_n c -> (phases s i = Meta \/ phases s i = Rename) -> tmp s = None -> eff c q s (set_phase s i (Failed FileNotFoundError))
| E_rename i t t' : i < c_n c -> phases s i = Rename -> tmp s = Some t -> t_parts t' = t_parts t -> t_meta t' = t_meta t ->
    (c_version c = V1 /\ t_final t' = t_final t \/ c_version c = V0 /\ t_final t' = seq 0 (length (c_handlers c))) -> eff c q s (set_phase (set_final (set_tmp s None) (Some (New t'))) i AtFinalize)
| E_write i h k t r : i < c_n c -> nth_error (c_handlers c) h = Some k -> subs s i h = Write -> tmp s = Some t -> (k = Json -> i = c_primary c) ->
    (k = Tree /\ c_version c = V1 /\ r = AtCommit \/ (k <> Tree \/ c_version c = V0) /\ r = HDone) ->
    eff c q s (set_sub (set_tmp s (Some (mkTmp ((h, i) :: t_parts t) (t_final t) (t_meta t)))) i h r)
| E_nowrite i h k : i < c_n c -> nth_error (c_handlers c) h = Some k -> (subs s i h = Write /\ (k = Json -> i = c_primary c) \/ subs s i h = Finalize /\ i = c_primary c) -> tmp s = None -> eff c q s (set_sub s i h (HFailed FileNotFoundError))
| E_json i h : i < c_n c -> nth_error (c_handlers c) h = Some Json -> subs s i h = Write -> i <> c_primary c -> eff c q s (set_sub s i h HDone)
| E_commit i h k : i < c_n c -> nth_error (c_handlers c) h = Some k -> subs s i h = AtCommit -> opened s (BCommit h) = true -> eff c q s (set_sub s i h Finalize)
| E_fin i h k t : i < c_n c -> nth_error (c_handlers c) h = Some k -> subs s i h = Finalize -> i = c_primary c -> tmp s = Some t ->
    eff c q s (set_sub (set_tmp s (Some (mkTmp (t_parts t) (h :: t_final t) (t_meta t)))) i h AtFinal)
| E_fin_other i h k : i < c_n c -> nth_error (c_handlers c) h = Some k -> subs s i h = Finalize -> i <> c_primary c -> eff c q s (set_sub s i h AtFinal)
| E_end i h k : i < c_n c -> nth_error (c_handlers c) h = Some k -> subs s i h = AtFinal -> opened s (BFinal h) = true -> eff c q s (set_sub s i h HDone)
| E_fail i e : q = false -> i < c_n c -> rank (phases s i) < 13 -> eff c q s (set_phase s i (Failed e))
| E_subfail i h e : q = false -> i < c_n c -> h < length (c_handlers c) -> (subs s i h = Write \/ subs s i h = AtCommit \/ subs s i h = AtFinal) -> eff c q s (set_sub s i h (HFailed e)).


Lemma first_error_in : forall l e, first_error l = Some e -> In (HFailed e) l.
Proof. induction l as [| x l IH]; intros e E; [discriminate |]. cbn in E. destruct x; try (right; apply IH; exact E). injection E as ->. now left. Qed.

Lemma at_barrier_main : forall s b i, at_barrier s b i = true -> (forall h, b <> BCommit h) -> (forall h, b <> BFinal h) -> waits (phases s i) = Some b.
Proof.
  intros s b i E N1 N2. unfold at_barrier in E. destruct b; try (now destruct (N1 h)); try (now destruct (N2 h));
    destruct (waits (phases s i)) as [b' |]; try discriminate; apply barrier_eqb_eq in E; now subst.
Qed.
Lemma at_commit : forall s h i, at_barrier s (BCommit h) i = true -> subs s i h = AtCommit.
Proof. intros s h i E. cbn in E. destruct (subs s i h); cbn in E; try discriminate; auto. Qed.
Lemma at_final : forall s h i, at_barrier s (BFinal h) i = true -> subs s i h = AtFinal.
Proof. intros s h i E. cbn in E. destruct (subs s i h); cbn in E; try discriminate; auto. Qed.

Lemma is_primary_t : forall c i, is_primary c i = true <-> i = c_primary c.
Proof. intros; apply Nat.eqb_eq. Qed.
Lemma is_primary_f : forall c i, is_primary c i = false <-> i <> c_primary c.
Proof. intros; apply Nat.eqb_neq. Qed.

Lemma handlers_done_spec : forall c s i, handlers_done c s i = true <-> forall h, h < length (c_handlers c) -> subs s i h = HDone.
Proof.
  intros c s i. unfold handlers_done. rewrite forallb_forall. split.
  - intros A h L. specialize (A h). rewrite in_seq in A. specialize (A ltac:(lia)). destruct (subs s i h); try discriminate; auto.
  - intros A h I. apply in_seq in I. rewrite A; [reflexivity | lia].
Qed.

Lemma handler_error_spec : forall c s i e, handler_error c s i = Some e -> exists h, h < length (c_handlers c) /\ subs s i h = HFailed e.
Proof.
  intros c s i e E. apply first_error_in in E. apply in_map_iff in E as (h & E & I). apply in_seq in I. exists h. split; [lia | exact E].
Qed.

Lemma step_main_eff : forall c q s i s', i < c_n c -> step_main c s i = Some s' -> eff c q s s'.
Proof.
  intros c q s i s' L E. unfold step_main in E. destruct (phases s i) eqn:P.
  - destruct (opened s BPaths) eqn:O; [| discriminate]. injection E as <-. apply (E_pass c q s i _ BPaths); rewrite ?P; auto; destruct (paths_agree c); auto 12.
  - destruct (opened s BPre) eqn:O; [| discriminate]. injection E as <-. apply (E_pass c q s i _ BPre); rewrite ?P; auto; auto 12.
  - destruct (final s) eqn:F.
    + destruct (c_overwrite c) eqn:O; injection E as <-; apply E_check; auto.
      * right. destruct (is_primary c i) eqn:Qp; [apply is_primary_t in Qp; left | apply is_primary_f in Qp; right; left]; repeat split; auto; try congruence. destruct (c_version c); auto.
      * left. repeat split; auto; congruence.
    + injection E as <-. apply E_check; auto 10.
  - injection E as <-. apply E_remove; auto. destruct (c_version c); auto.
  - destruct (opened s BRemoved) eqn:O; [| discriminate]. injection E as <-. apply (E_pass c q s i _ BRemoved); rewrite ?P; auto; auto 12.
  - destruct (opened s BPost) eqn:O; [| discriminate]. injection E as <-. apply (E_pass c q s i _ BPost); rewrite ?P; auto; auto 12.
  - injection E as <-. destruct (is_primary c i) eqn:Qp; [apply is_primary_t in Qp; now apply E_create | apply is_primary_f in Qp; now apply E_create_other].
  - destruct (opened s BCreate) eqn:O; [| discriminate]. injection E as <-. now apply E_start.
  - destruct (handler_error c s i) as [e |] eqn:H.
    + injection E as <-. destruct (handler_error_spec _ _ _ _ H) as (h & L1 & S1). eapply E_bgfail; eauto.
    + destruct (handlers_done c s i) eqn:D; [| discriminate]. injection E as <-. apply E_done; auto; [now apply handlers_done_spec |].
      destruct (is_primary c i) eqn:Qp; [apply is_primary_t in Qp; auto | apply is_primary_f in Qp; right; split; auto]. destruct (c_version c); auto.
  - destruct (tmp s) as [t |] eqn:T; injection E as <-.
    + apply E_meta; auto. destruct (c_version c); auto.
    + apply E_nofile; auto.
  - destruct (opened s BSaved) eqn:O; [| discriminate]. injection E as <-. apply (E_pass c q s i _ BSaved); rewrite ?P; auto.
    destruct (is_primary c i) eqn:Qp; [apply is_primary_t in Qp | apply is_primary_f in Qp]; auto 12.
  - destruct (tmp s) as [t |] eqn:T; injection E as <-.
    + destruct (c_version c) eqn:V; eapply E_rename; eauto.
    + apply E_nofile; auto.
  - destruct (opened s BFinalize) eqn:O; [| discriminate]. injection E as <-. apply (E_pass c q s i _ BFinalize); rewrite ?P; auto; auto 12.
  - discriminate.
  - discriminate.
Qed.

Lemma step_sub_eff : forall c q s i h s', i < c_n c -> step_sub c s i h = Some s' -> eff c q s s'.
Proof.
  intros c q s i h s' L E. unfold step_sub in E. destruct (nth_error (c_handlers c) h) as [k |] eqn:K; [| discriminate].
  destruct (subs s i h) eqn:B; try discriminate.
  - assert (W : forall r, (k = Json -> i = c_primary c) -> (k = Tree /\ c_version c = V1 /\ r = AtCommit \/ (k <> Tree \/ c_version c = V0) /\ r = HDone) -> eff c q s (write_part s i h r)).
    { intros r J Q. unfold write_part. destruct (tmp s) as [t |] eqn:T; [eapply E_write; eauto | eapply E_nowrite; eauto]. }
    destruct k; injection E as <-.
    + apply W; [discriminate |]. destruct (c_version c); auto.
    + destruct (is_primary c i) eqn:Qp; [apply is_primary_t in Qp; apply W; auto; right; split; auto; left; discriminate | apply is_primary_f in Qp; now apply E_json].
    + apply W; [discriminate |]. right; split; auto; left; discriminate.
  - destruct (opened s (BCommit h)) eqn:O; [| discriminate]. injection E as <-. eapply E_commit; eauto.
  - destruct (is_primary c i) eqn:Qp; [apply is_primary_t in Qp | apply is_primary_f in Qp; injection E as <-; eapply E_fin_other; eauto].
    destruct (tmp s) as [t |] eqn:T; injection E as <-; [eapply E_fin; eauto | eapply E_nowrite; eauto].
  - destruct (opened s (BFinal h)) eqn:O; [| discriminate]. injection E as <-. eapply E_end; eauto.
Qed.

Lemma step_eff : forall c s e s', step c s e = Some s' -> eff c (quiet e) s s'.
Proof.
  intros c s e s' E. unfold step in E. destruct e.
  - unfold open_barrier in E. destruct (negb (opened s b)) eqn:O; [| discriminate]. destruct (forallb (at_barrier s b) (seq 0 (c_n c))) eqn:A; [| discriminate].
    cbn [andb] in E. destruct (match b with BPaths => c_inactive c =? 0 | _ => true end) eqn:I; [| discriminate]. injection E as <-. apply negb_true_iff in O.
    apply E_open; auto.
    + intros i L. rewrite forallb_forall in A. apply A. apply in_seq. lia.
    + intros ->. now apply Nat.eqb_eq.
  - destruct (Nat.ltb_spec i (c_n c)) as [L | L]; [| discriminate]. now apply (step_main_eff c _ s i).
  - destruct (Nat.ltb_spec i (c_n c)) as [L | L]; [| discriminate]. now apply (step_sub_eff c _ s i h).
  - destruct (Nat.ltb_spec i (c_n c)) as [L | L]; [| discriminate]. destruct (waits (phases s i)) as [b |] eqn:W; [| discriminate]. destruct (opened s b); [discriminate |].
    injection E as <-. apply E_fail; auto. destruct (phases s i); try discriminate; cbn; lia.
  - destruct (Nat.ltb_spec i (c_n c)) as [L | L]; [| discriminate]. destruct (Nat.ltb_spec h (length (c_handlers c))) as [L1 | L1]; [| discriminate]. cbn [andb] in E.
    destruct (sub_waits h (subs s i h)) as [b |] eqn:W; [| discriminate]. destruct (opened s b); [discriminate |]. injection E as <-. apply E_subfail; auto.
    destruct (subs s i h); try discriminate; auto.
  - destruct (Nat.ltb_spec i (c_n c)) as [L | L]; [| discriminate]. destruct (Nat.ltb_spec h (length (c_handlers c))) as [L1 | L1]; [| discriminate]. cbn [andb] in E.
    destruct (subs s i h) eqn:B; try discriminate. injection E as <-. apply E_subfail; auto.
  - destruct (Nat.ltb_spec i (c_n c)) as [L | L]; [| discriminate]. destruct (is_primary c i); [| discriminate]. cbn [andb] in E.
    destruct (phases s i) eqn:P; try discriminate; injection E as <-; apply E_fail; auto; rewrite P; cbn; lia.
Qed.

(** * Safety *)
Definition early (p : phase) : bool := rank p <? 7.
Definition late (p : phase) : bool := (7 <? rank p) && (rank p <? 14).

Record inv1 (c : config) (s : state) : Prop := mkInv1 {
  i_early : early (phases s (c_primary c)) = true -> tmp s = None /\ opened s BCreate = false /\ (final s = None \/ final s = Some Old);
  i_idle : opened s BCreate = false -> forall i h, subs s i h = Idle;
  i_commit0 : forall h, opened s (BCommit h) = true -> opened s BCreate = true;
  i_late : forall j, j < c_n c -> late (phases s j) = true -> opened s BCreate = true;
  i_new : forall t, final s = Some (New t) -> tmp s = None;
  i_prim : forall j, j < c_n c -> phases s j = Remove \/ phases s j = Meta \/ phases s j = Rename -> j = c_primary c;
  i_out : forall i h, length (c_handlers c) <= h -> subs s i h = Idle;
}.

Ltac upd := repeat match goal with
  | |- context [?a =? ?b] => destruct (Nat.eqb_spec a b); [subst a || subst b || idtac |]; cbn [andb orb] in *
  | H : context [?a =? ?b] |- _ => destruct (Nat.eqb_spec a b); [subst a || subst b || idtac |]; cbn [andb orb] in *
  end.

Lemma nth_lt : forall (A : Type) (l : list A) h k, nth_error l h = Some k -> h < length l.
Proof. intros A l h k E. apply nth_error_Some. congruence. Qed.

Lemma early_rank : forall p, early p = true <-> rank p < 7.
Proof. intros. apply Nat.ltb_lt. Qed.
Lemma late_rank : forall p, late p = true <-> 7 < rank p < 14.
Proof. intros. unfold late. rewrite andb_true_iff, !Nat.ltb_lt. lia. Qed.

(** The phases, the handlers and the barriers move forward. *)
Lemma eff_rank : forall c q s s' i, eff c q s s' -> rank (phases s i) <= rank (phases s' i).
Proof.
  intros c q s s' i E. destruct E; cbn; try lia; upd; cbn; try lia;
    repeat match goal with H : _ \/ _ |- _ => destruct H | H : _ /\ _ |- _ => destruct H end; subst; repeat match goal with H : phases s _ = _ |- _ => rewrite H; clear H end; cbn; lia.
Qed.
Lemma eff_srank : forall c q s s' i h, eff c q s s' -> (phases s i = AtCreate -> forall h, subs s i h = Idle) -> srank (subs s i h) <= srank (subs s' i h).
Proof.
  intros c q s s' i h E A. destruct E; cbn; try lia; upd; cbn; try lia;
    repeat match goal with H : _ \/ _ |- _ => destruct H | H : _ /\ _ |- _ => destruct H end; subst; repeat match goal with H : subs s _ _ = _ |- _ => rewrite H end; cbn; try lia.
  rewrite (A H0). cbn. lia.
Qed.
Lemma eff_opened : forall c q s s' b, eff c q s s' -> opened s b = true -> opened s' b = true.
Proof. intros c q s s' b E O. destruct E; cbn; auto. rewrite O. apply orb_true_r. Qed.

Ltac ors := repeat match goal with H : _ \/ _ |- _ => destruct H | H : _ /\ _ |- _ => destruct H | H : exists _, _ |- _ => destruct H end.

Lemma inv1_early : forall c q s s', sound c -> inv1 c s -> eff c q s s' -> early (phases s' (c_primary c)) = true -> tmp s' = None /\ opened s' BCreate = false /\ (final s' = None \/ final s' = Some Old).
Proof.
  intros c q s s' W I E A. pose proof (eff_rank _ _ _ _ (c_primary c) E) as R. apply early_rank in A.
  assert (A0 : early (phases s (c_primary c)) = true) by (apply early_rank; lia).
  destruct (i_early _ _ I A0) as (T & O & F). pose proof (i_idle _ _ I O) as D. apply early_rank in A0.
  destruct E; cbn in *; auto; try (rewrite D in *; ors; discriminate); try congruence.
  - split; [auto |]. split; [| auto]. rewrite O, orb_false_r. destruct (barrier_eqb b BCreate) eqn:B; [| reflexivity]. apply barrier_eqb_eq in B. subst b.
    specialize (H0 _ W). apply at_barrier_main in H0; try discriminate. destruct (phases s (c_primary c)); cbn in *; try discriminate; lia.
  - subst i. rewrite Nat.eqb_refl in A. cbn in A. lia.
Qed.

Lemma inv1_step : forall c q s s', sound c -> inv1 c s -> eff c q s s' -> inv1 c s'.
Proof.
  intros c q s s' W I E. constructor.
  - intros A. eapply inv1_early; eauto.
  - intros O i h. assert (O0 : opened s BCreate = false) by (destruct (opened s BCreate) eqn:X; [rewrite (eff_opened _ _ _ _ _ E X) in O; discriminate | reflexivity]).
    pose proof (i_idle _ _ I O0) as D. destruct E; cbn in *; auto; try (rewrite D in *; ors; discriminate); try congruence.
  - intros h O. destruct E; cbn in *; try (eapply i_commit0; eauto; fail). destruct (opened s BCreate) eqn:X; [apply orb_true_r |].
    apply orb_true_iff in O as [O | O]; [| pose proof (i_commit0 _ _ I h O); congruence]. apply barrier_eqb_eq in O. subst b. pose proof (i_idle _ _ I X) as D.
    specialize (H0 _ W). apply at_commit in H0. rewrite D in H0. discriminate.
  - intros j L A. destruct (opened s BCreate) eqn:X; [eapply eff_opened; eauto |]. exfalso.
    assert (N : forall k, k < c_n c -> ~ 7 < rank (phases s k) < 14) by (intros k Lk Q; apply late_rank in Q; apply (i_late _ _ I k Lk) in Q; congruence).
    apply late_rank in A. pose proof (N j L) as Nj. destruct E; cbn in *; upd; cbn in *; try lia; ors; subst; cbn in *; try lia; try congruence;
      repeat match goal with H : phases s _ = _ |- _ => rewrite H in *; clear H end; cbn in *; try lia.
  - intros t F. destruct E; cbn in *; auto; try (eapply i_new; eauto; fail); try discriminate; try (pose proof (i_new _ _ I t F); congruence).
    subst i. assert (early (phases s (c_primary c)) = true) by (rewrite H0; reflexivity). destruct (i_early _ _ I H1) as (_ & _ & [X | X]); congruence.
  - intros j L A. destruct E; cbn in *; try (apply (i_prim _ _ I j L A); fail); upd; try (apply (i_prim _ _ I _ L A); fail); ors; subst; try discriminate; auto; try (now apply (i_prim _ _ I)). apply (i_prim _ _ I); auto.
  - intros i h L. destruct E; cbn in *; try (apply (i_out _ _ I i h L); fail); upd; try (apply (i_out _ _ I _ _ L); fail);
      try (match goal with H : nth_error _ _ = Some _ |- _ => apply nth_lt in H end; lia); try lia.
    destruct (Nat.ltb_spec h (length (c_handlers c))); [lia | apply (i_out _ _ I _ _ L)].
Qed.

Lemma inv1_initial : forall c b, inv1 c (initial c b).
Proof.
  intros c b. constructor; cbn; auto; try discriminate.
  - intros _. destruct b; auto.
  - intros j L A. destruct (c_version c); discriminate.
  - intros j L A. destruct (c_version c); ors; discriminate.
Qed.

(** What has been written and not been lost *)
Definition data (s : state) : option tmpdir := match final s with Some (New t) => Some t | _ => tmp s end.
Definition has (s : state) (h i : nat) : Prop := exists t, data s = Some t /\ part_in t h i.
Definition has_final (s : state) (h : nat) : Prop := exists t, data s = Some t /\ In h (t_final t).
Definition has_meta (s : state) : Prop := exists t, data s = Some t /\ t_meta t = true.

Lemma not_new_data : forall s, (final s = None \/ final s = Some Old) -> data s = tmp s.
Proof. intros s [F | F]; unfold data; now rewrite F. Qed.

Lemma has_mono : forall c q s s' h i, sound c -> inv1 c s -> eff c q s s' -> has s h i -> has s' h i.
Proof.
  intros c q s s' h i W I E (t & D & P). unfold has, data in *. destruct E; cbn; try (exists t; now split).
  - assert (i0 = c_primary c) by (apply (i_prim _ _ I); auto). subst i0. assert (A : early (phases s (c_primary c)) = true) by (rewrite H0; reflexivity).
    destruct (i_early _ _ I A) as (T & _ & [F | F]); rewrite F, T in D; discriminate.
  - subst i0. assert (A : early (phases s (c_primary c)) = true) by (rewrite H0; reflexivity).
    destruct (i_early _ _ I A) as (T & _ & [F | F]); rewrite F, T in D; discriminate.
  - destruct (final s) as [[| u] |] eqn:F; [| pose proof (i_new _ _ I _ F); congruence |]; rewrite D in H1; injection H1 as ->; eexists; split; try reflexivity; exact P.
  - exists t'. split; [reflexivity |]. destruct (final s) as [[| u] |] eqn:F; [| pose proof (i_new _ _ I _ F); congruence |]; rewrite D in H1; injection H1 as ->; unfold part_in in *; congruence.
  - destruct (final s) as [[| u] |] eqn:F; [| pose proof (i_new _ _ I _ F); congruence |]; rewrite D in H2; injection H2 as ->; eexists; split; try reflexivity; right; exact P.
  - destruct (final s) as [[| u] |] eqn:F; [| pose proof (i_new _ _ I _ F); congruence |]; rewrite D in H3; injection H3 as ->; eexists; split; try reflexivity; exact P.
Qed.

Lemma has_final_mono : forall c q s s' h, sound c -> c_version c = V1 -> inv1 c s -> eff c q s s' -> has_final s h -> has_final s' h.
Proof.
  intros c q s s' h W V I E (t & D & P). unfold has_final, data in *. destruct E; cbn; try (exists t; now split).
  - assert (i = c_primary c) by (apply (i_prim _ _ I); auto). subst i. assert (A : early (phases s (c_primary c)) = true) by (rewrite H0; reflexivity).
    destruct (i_early _ _ I A) as (T & _ & [F | F]); rewrite F, T in D; discriminate.
  - subst i. assert (A : early (phases s (c_primary c)) = true) by (rewrite H0; reflexivity).
    destruct (i_early _ _ I A) as (T & _ & [F | F]); rewrite F, T in D; discriminate.
  - destruct (final s) as [[| u] |] eqn:F; [| pose proof (i_new _ _ I _ F); congruence |]; rewrite D in H1; injection H1 as ->; eexists; split; try reflexivity; exact P.
  - exists t'. split; [reflexivity |]. destruct H4 as [[_ Q] | [Q _]]; [| congruence]. destruct (final s) as [[| u] |] eqn:F; [| pose proof (i_new _ _ I _ F); congruence |]; rewrite D in H1; injection H1 as ->; congruence.
  - destruct (final s) as [[| u] |] eqn:F; [| pose proof (i_new _ _ I _ F); congruence |]; rewrite D in H2; injection H2 as ->; eexists; split; try reflexivity; exact P.
  - destruct (final s) as [[| u] |] eqn:F; [| pose proof (i_new _ _ I _ F); congruence |]; rewrite D in H3; injection H3 as ->; eexists; split; try reflexivity; right; exact P.
Qed.

Lemma has_meta_mono : forall c q s s', sound c -> inv1 c s -> eff c q s s' -> has_meta s -> has_meta s'.
Proof.
  intros c q s s' W I E (t & D & P). unfold has_meta, data in *. destruct E; cbn; try (exists t; now split).
  - assert (i = c_primary c) by (apply (i_prim _ _ I); auto). subst i. assert (A : early (phases s (c_primary c)) = true) by (rewrite H0; reflexivity).
    destruct (i_early _ _ I A) as (T & _ & [F | F]); rewrite F, T in D; discriminate.
  - subst i. assert (A : early (phases s (c_primary c)) = true) by (rewrite H0; reflexivity).
    destruct (i_early _ _ I A) as (T & _ & [F | F]); rewrite F, T in D; discriminate.
  - destruct (final s) as [[| u] |] eqn:F; [| pose proof (i_new _ _ I _ F); congruence |]; eexists; split; reflexivity.
  - exists t'. split; [reflexivity |]. destruct (final s) as [[| u] |] eqn:F; [| pose proof (i_new _ _ I _ F); congruence |]; rewrite D in H1; injection H1 as ->; congruence.
  - destruct (final s) as [[| u] |] eqn:F; [| pose proof (i_new _ _ I _ F); congruence |]; rewrite D in H2; injection H2 as ->; eexists; split; try reflexivity; exact P.
  - destruct (final s) as [[| u] |] eqn:F; [| pose proof (i_new _ _ I _ F); congruence |]; rewrite D in H3; injection H3 as ->; eexists; split; try reflexivity; exact P.
Qed.

(** Whether a handler of a process has written its part *)
Definition written (c : config) (i : nat) (k : kind) (b : sub) : Prop :=
  match k with Tree => srank b = 2 \/ srank b = 3 \/ srank b = 4 \/ b = HDone | Free => b = HDone | Json => b = HDone /\ i = c_primary c end.

Record inv2 (c : config) (s : state) : Prop := mkInv2 {
  i_kind : forall i h k, i < c_n c -> nth_error (c_handlers c) h = Some k -> k <> Tree \/ c_version c = V0 -> ~ 1 < srank (subs s i h) < 5;
  i_part : forall i h k, i < c_n c -> nth_error (c_handlers c) h = Some k -> written c i k (subs s i h) -> has s h i;
  i_past : forall i h, i < c_n c -> nth_error (c_handlers c) h = Some Tree -> c_version c = V1 -> subs s i h = Finalize \/ subs s i h = AtFinal \/ subs s i h = HDone -> opened s (BCommit h) = true;
  i_open : forall h i, opened s (BCommit h) = true -> nth_error (c_handlers c) h = Some Tree -> i < c_n c -> has s h i;
  i_fin : forall h, nth_error (c_handlers c) h = Some Tree -> c_version c = V1 -> subs s (c_primary c) h = AtFinal \/ subs s (c_primary c) h = HDone -> has_final s h;
  i_hdone : forall i h, i < c_n c -> h < length (c_handlers c) -> 8 < rank (phases s i) < 14 -> subs s i h = HDone;
  i_meta : 9 < rank (phases s (c_primary c)) < 14 -> has_meta s;
  i_saved : forall i h k, opened s BSaved = true -> nth_error (c_handlers c) h = Some k -> k <> Json -> i < c_n c -> has s h i;
  i_ren : c_version c = V0 -> 10 < rank (phases s (c_primary c)) < 14 -> opened s BSaved = true;
  i_complete : forall t, final s = Some (New t) -> complete c t;
  i_told : 11 < rank (phases s (c_primary c)) < 14 -> exists t, final s = Some (New t);
  i_end : opened s BFinalize = true -> exists t, final s = Some (New t)
}.

Lemma new_stays : forall c q s s' t, inv1 c s -> eff c q s s' -> final s = Some (New t) -> final s' = Some (New t).
Proof.
  intros c q s s' t I E F. destruct E; cbn; auto.
  - assert (i = c_primary c) by (apply (i_prim _ _ I); auto). subst i. assert (A : early (phases s (c_primary c)) = true) by (rewrite H0; reflexivity).
    destruct (i_early _ _ I A) as (T & _ & [G | G]); congruence.
  - pose proof (i_new _ _ I _ F). congruence.
Qed.

Lemma inv2_initial : forall c b, inv2 c (initial c b).
Proof.
  intros c b. constructor; cbn; auto; try discriminate; intros; try lia.
  - destruct k; cbn in *; ors; discriminate.
  - ors; discriminate.
  - ors; discriminate.
  - destruct (c_version c); cbn in *; lia.
  - destruct (c_version c); cbn in *; lia.
  - rewrite H in *; cbn in *; lia.
  - destruct b; discriminate.
  - destruct (c_version c); cbn in *; lia.
Qed.

Ltac kinds := repeat match goal with H : nth_error ?l ?h = Some ?a, G : nth_error ?l ?h = Some ?b |- _ => rewrite H in G; injection G as G; subst end.

Lemma inv2_step : forall c q s s', sound c -> inv1 c s -> inv2 c s -> eff c q s s' -> inv2 c s'.
Proof.
  intros c q s s' W I1 I2 E. pose proof (fun h i => has_mono c q s s' h i W I1 E) as M. pose proof (has_meta_mono c q s s' W I1 E) as MM.
  pose proof (fun h V => has_final_mono c q s s' h W V I1 E) as MF. pose proof (eff_opened c q s s') as MO.
  constructor.
  - intros i h k L K V. pose proof (i_kind _ _ I2 i h k L K V) as D. destruct E; cbn in *; auto; upd; auto; ors; subst; cbn; kinds; try lia; try congruence;
      repeat match goal with H : subs s _ _ = _ |- _ => rewrite H in *; clear H end; cbn in *; try lia.
    all: destruct (h <? length (c_handlers c)); cbn in *; lia.
  - intros i h k L K V. assert (Old : written c i k (subs s i h) -> has s' h i) by (intros V'; apply M; eapply i_part; eauto).
    pose proof (i_kind _ _ I2 i h k L K) as D. destruct E; cbn in V; try (apply Old; exact V); upd; try (apply Old; exact V).
    + destruct (h <? length (c_handlers c)); [destruct k; cbn in V; ors; discriminate | apply Old; exact V].
    + unfold has, data. cbn. destruct (final s) as [[| u] |] eqn:F; [| pose proof (i_new _ _ I1 _ F); congruence |]; eexists; (split; [reflexivity |]); now left.
    + destruct k; cbn in V; ors; discriminate.
    + kinds. cbn in V. now ors.
    + destruct k; [apply Old; cbn; rewrite H1; cbn; auto | cbn in V; ors; discriminate | cbn in V; ors; discriminate].
    + destruct k; [apply Old; cbn; rewrite H1; cbn; auto | cbn in V; ors; discriminate | cbn in V; ors; discriminate].
    + destruct k; [apply Old; cbn; rewrite H1; cbn; auto | cbn in V; ors; discriminate | cbn in V; ors; discriminate].
    + destruct k; [apply Old; cbn; rewrite H1; cbn; auto 6 | exfalso; apply D; [left; discriminate | rewrite H1; cbn; lia] | exfalso; apply D; [left; discriminate | rewrite H1; cbn; lia]].
    + destruct k; cbn in V; ors; discriminate.
  - intros i h L K V A. assert (Old : subs s i h = Finalize \/ subs s i h = AtFinal \/ subs s i h = HDone -> opened s' (BCommit h) = true) by (intros A'; apply MO; [exact E | eapply i_past; eauto]).
    destruct E; cbn in A; try (apply Old; exact A); upd; try (apply Old; exact A); try (apply Old; auto; fail).
    + destruct (h <? length (c_handlers c)); [ors; discriminate | apply Old; exact A].
    + kinds. ors; subst; try discriminate; try congruence.
    + ors; discriminate.
    + kinds. discriminate.
    + exact H2.
    + ors; discriminate.
  - intros h i O K L. destruct E; cbn in O; try (apply M; eapply i_open; eauto; fail). apply orb_true_iff in O as [O | O]; [| apply M; eapply i_open; eauto].
    apply barrier_eqb_eq in O. subst b. apply M. eapply i_part; eauto. specialize (H0 i L). apply at_commit in H0. rewrite H0. cbn. auto.
  - intros h K V A. assert (Old : subs s (c_primary c) h = AtFinal \/ subs s (c_primary c) h = HDone -> has_final s' h) by (intros A'; apply (MF h V); eapply i_fin; eauto).
    destruct E; cbn in A; try (apply Old; exact A); upd; try (apply Old; exact A); try (apply Old; auto; fail).
    + destruct (h <? length (c_handlers c)); [ors; discriminate | apply Old; exact A].
    + kinds. ors; subst; try discriminate; try congruence.
    + ors; discriminate.
    + congruence.
    + ors; discriminate.
    + unfold has_final, data. cbn. destruct (final s) as [[| u] |] eqn:F; [| pose proof (i_new _ _ I1 _ F); congruence |]; eexists; (split; [reflexivity |]); now left.
    + congruence.
    + ors; discriminate.
  - intros i h L Lh A. assert (Old : 8 < rank (phases s i) < 14 -> subs s i h = HDone) by (intros A'; eapply i_hdone; eauto).
    destruct E; cbn in *; try (apply Old; exact A); upd; cbn in A; try (apply Old; exact A); try lia; try (now apply Old); ors; subst; cbn in *; try lia;
      repeat match goal with H : phases s _ = _ |- _ => rewrite H in *; clear H end; cbn in *; try lia; try (apply Old; lia); auto;
      try (specialize (Old ltac:(lia)); congruence).
  - intros A. assert (Old : 9 < rank (phases s (c_primary c)) < 14 -> has_meta s') by (intros A'; apply MM; now apply (i_meta _ _ I2)).
    destruct E; cbn in A; try (apply Old; exact A); upd; cbn in A; try (apply Old; exact A); try lia; try congruence; ors; subst; cbn in *; try lia; try congruence;
      try (match goal with H : phases s _ = _ |- _ => rewrite H in *; clear H end; cbn in *; apply Old; lia).
    + unfold has_meta, data. cbn. destruct (final s) as [[| u] |] eqn:F; [| pose proof (i_new _ _ I1 _ F); congruence |]; eexists; split; reflexivity.
    + unfold has_meta, data. cbn. destruct (final s) as [[| u] |] eqn:F; [| pose proof (i_new _ _ I1 _ F); congruence |]; eexists; split; reflexivity.
  - intros i h k O K N L. destruct E; cbn in O; try (apply M; eapply i_saved; eauto; fail). apply orb_true_iff in O as [O | O]; [| apply M; eapply i_saved; eauto].
    apply barrier_eqb_eq in O. subst b. apply M. eapply i_part; eauto. specialize (H0 i L). apply at_barrier_main in H0; try discriminate.
    assert (P : phases s i = AtSaved) by (destruct (phases s i); cbn in H0; try discriminate; auto).
    assert (D : subs s i h = HDone) by (eapply i_hdone; eauto; [eapply nth_lt; eauto | rewrite P; cbn; lia]). rewrite D. destruct k; cbn; auto. congruence.
  - intros V A. assert (Old : 10 < rank (phases s (c_primary c)) < 14 -> opened s' BSaved = true) by (intros A'; apply MO; [exact E | now apply (i_ren _ _ I2)]).
    destruct E; cbn in A; try (apply Old; exact A); upd; cbn in A; try (apply Old; exact A); try lia; ors; subst; cbn in *; try lia; try congruence;
      try (match goal with H : phases s _ = _ |- _ => rewrite H in *; clear H end; cbn in *; apply Old; lia).
    rewrite H2 in H0. injection H0 as <-. exact H1.
  - intros t F. destruct E; cbn in F; try (eapply i_complete; eauto; fail); try discriminate. injection F as <-.
    assert (i = c_primary c) by (apply (i_prim _ _ I1); auto). subst i.
    assert (R : data s = Some t0) by (unfold data; destruct (final s) as [[| u] |] eqn:F; auto; pose proof (i_new _ _ I1 _ F); congruence).
    assert (HM : has_meta s) by (apply (i_meta _ _ I2); rewrite H0; cbn; lia).
    assert (DH : forall h, h < length (c_handlers c) -> subs s (c_primary c) h = HDone) by (intros h Lh; apply (i_hdone _ _ I2); auto; rewrite H0; cbn; lia).
    assert (PI : forall h i, has s h i -> part_in t' h i) by (intros h i (u & D & Pu); rewrite R in D; injection D as <-; unfold part_in in *; congruence).
    split; [destruct HM as (u & D & Mu); rewrite R in D; injection D as <-; congruence |].
    intros h k K. pose proof (nth_lt _ _ _ _ K) as Lh. split; [| split].
    + apply PI. apply (i_part _ _ I2 _ _ k); auto. rewrite (DH h Lh). destruct k; cbn; auto.
    + intros ->. destruct H4 as [[V Q] | [V Q]]; rewrite Q.
      * destruct (i_fin _ _ I2 h K V ltac:(right; auto)) as (u & D & Fu). rewrite R in D. injection D as <-. exact Fu.
      * apply in_seq. lia.
    + intros [-> | [-> V]] i Li; apply PI.
      * destruct (c_version c) eqn:V.
        -- apply (i_open _ _ I2); auto. apply (i_past _ _ I2 (c_primary c)); auto.
        -- apply (i_saved _ _ I2 i h Tree); auto; try discriminate. apply (i_ren _ _ I2); auto. rewrite H0. cbn. lia.
      * apply (i_saved _ _ I2 i h Free); auto; try discriminate. apply (i_ren _ _ I2); auto. rewrite H0. cbn. lia.
  - intros A. assert (Old : 11 < rank (phases s (c_primary c)) < 14 -> exists t, final s' = Some (New t))
      by (intros A'; destruct (i_told _ _ I2 A') as [t F]; exists t; eapply new_stays; eauto).
    destruct E; cbn in *; try (apply Old; exact A); upd; cbn in A; try (apply Old; exact A); try lia; ors; subst; cbn in *; try lia; try congruence; eauto;
      try (match goal with H : phases s _ = _ |- _ => rewrite H in *; clear H end; cbn in *; apply Old; lia).
  - intros O. assert (Old : opened s BFinalize = true -> exists t, final s' = Some (New t)) by (intros A'; destruct (i_end _ _ I2 A') as [t F]; exists t; eapply new_stays; eauto).
    destruct E; cbn in O; try (apply Old; exact O). apply orb_true_iff in O as [O | O]; [| apply Old; exact O].
    apply barrier_eqb_eq in O. subst b. cbn. apply (i_told _ _ I2). specialize (H0 _ W). apply at_barrier_main in H0; try discriminate.
    destruct (phases s (c_primary c)); cbn in *; try discriminate; lia.
Qed.

Lemma run_ind : forall c (q : event -> Prop) (I : state -> Prop), (forall s e s', q e -> I s -> step c s e = Some s' -> I s') ->
  forall es s s', (forall e, In e es -> q e) -> I s -> run c s es = Some s' -> I s'.
Proof.
  intros c q I St es. induction es as [| e es IH]; intros s s' Q H R; cbn in R; [congruence |]. destruct (step c s e) as [u |] eqn:E; [| discriminate].
  apply (IH u); auto; [intros x X; apply Q; now right |]. eapply St; eauto. apply Q. now left.
Qed.

Lemma reach_inv : forall c b s, sound c -> reaches c b s -> inv1 c s /\ inv2 c s.
Proof.
  intros c b s W (es & R). refine (run_ind c (fun _ => True) (fun s => inv1 c s /\ inv2 c s) _ es (initial c b) s _ _ R); auto.
  - intros u e u' _ [I1 I2] E. apply step_eff in E. split; [eapply inv1_step | eapply inv2_step]; eauto.
  - split; [apply inv1_initial | apply inv2_initial].
Qed.

(** The destination is what it was, nothing (if it may be overwritten), or a whole checkpoint. *)
Definition clean (c : config) (existed : bool) (s : state) : Prop :=
  final s = (if existed then Some Old else None) \/ (existed = true /\ c_overwrite c = true /\ final s = None) \/ exists t, final s = Some (New t).
Definition may_remove (c : config) (s : state) : Prop := forall i, i < c_n c -> phases s i = Remove -> c_overwrite c = true.

Lemma clean_step : forall c b q s s', may_remove c s -> clean c b s -> eff c q s s' -> may_remove c s' /\ clean c b s'.
Proof.
  intros c b q s s' Mr C E. split.
  - intros i L P. destruct E; cbn in P; try (eapply Mr; eauto; fail); upd; try (eapply Mr; eauto; fail); ors; subst; try discriminate; auto.
  - destruct E; cbn; auto; unfold clean in *; cbn in *; auto.
    + specialize (Mr i H H0). destruct b; auto.
    + eauto.
Qed.

Lemma reach_clean : forall c b s, reaches c b s -> clean c b s.
Proof.
  intros c b s (es & R). refine (proj2 (run_ind c (fun _ => True) (fun s => may_remove c s /\ clean c b s) _ es (initial c b) s _ _ R)); auto.
  - intros u e u' _ [I1 I2] E. apply step_eff in E. eapply clean_step; eauto.
  - split; [| left; reflexivity]. intros i L P. cbn in P. destruct (c_version c); discriminate.
Qed.

(** * Saves that are refused *)
Definition within (c : config) (b : bool) (m : nat) (s : state) : Prop :=
  (forall i, i < c_n c -> rank (phases s i) <= m \/ rank (phases s i) = 14) /\ final s = (if b then Some Old else None) /\ tmp s = None /\ opened s BCreate = false.

Definition refusal (c : config) (b : bool) (m : nat) : Prop :=
  m = 0 /\ c_version c = V1 /\ paths_agree c = false \/ m = 2 /\ (c_version c = V1 -> paths_agree c = true) /\ b = true /\ c_overwrite c = false.

Lemma paths_agree_spec : forall c, paths_agree c = true <-> forall i, i < c_n c -> c_path c i = c_path c 0.
Proof.
  intros c. unfold paths_agree. rewrite forallb_forall. split; intros A i H.
  - apply Nat.eqb_eq. apply A. apply in_seq. lia.
  - apply Nat.eqb_eq. apply A. apply in_seq in H. lia.
Qed.

Lemma refused_refusal : forall c b, refused c b -> exists m, refusal c b m.
Proof.
  intros c b [(V & i & L & N) | [B O]].
  - exists 0. left. repeat split; auto. destruct (paths_agree c) eqn:P; auto. exfalso. apply N. now apply (proj1 (paths_agree_spec c)).
  - destruct (c_version c) eqn:V.
    + destruct (paths_agree c) eqn:P; [exists 2; right; auto | exists 0; left; auto].
    + exists 2. right. repeat split; auto. congruence.
Qed.

Lemma within_step : forall c b m q s s', sound c -> refusal c b m -> inv1 c s -> within c b m s -> eff c q s s' -> within c b m s'.
Proof.
  intros c b m q s s' W R I (Rk & F & T & O) E. pose proof (i_idle _ _ I O) as D.
  assert (Hm : m = 0 \/ m = 2) by (destruct R as [[-> _] | [-> _]]; auto).
  destruct E; try (exfalso; match goal with L : ?j < c_n c, X : phases s ?j = _ |- _ => specialize (Rk j L); rewrite X in Rk end; cbn in Rk; destruct Hm; subst; lia);
    try (exfalso; rewrite D in *; ors; discriminate).
  - split; [exact Rk |]. repeat (split; [assumption |]). cbn. rewrite O, orb_false_r. destruct (barrier_eqb b0 BCreate) eqn:B; auto. apply barrier_eqb_eq in B. subst b0.
    specialize (H0 _ W). apply at_barrier_main in H0; try discriminate. specialize (Rk _ W). destruct (phases s (c_primary c)); cbn in *; try discriminate. destruct Hm; subst; lia.
  - split; [| repeat (split; [assumption |]); assumption]. intros j L. cbn. upd; [| now apply Rk]. specialize (Rk i H).
    destruct R as [(-> & V & P) | (-> & P & _)]; ors; subst; cbn; auto; try congruence;
      repeat match goal with H : phases s _ = _ |- _ => rewrite H in *; clear H end; cbn in *; lia.
  - split; [| repeat (split; [assumption |]); assumption]. intros j L. cbn. upd; [| now apply Rk]. specialize (Rk i H). rewrite H0 in Rk. cbn in Rk.
    destruct R as [(-> & V & P) | (-> & P & -> & Ov)]; [lia |]. ors; subst; cbn; auto; congruence.
  - exfalso. specialize (Rk i H). destruct H0 as [X | X]; rewrite X in Rk; cbn in Rk; destruct Hm; subst; lia.
  - split; [| repeat (split; [assumption |]); assumption]. intros j L. cbn. upd; [right; reflexivity | now apply Rk].
Qed.

Lemma within_initial : forall c b m, refusal c b m -> within c b m (initial c b).
Proof. intros c b m R. split; [| cbn; auto]. intros i L. cbn. destruct R as [(-> & V & P) | (-> & P & _)]; [rewrite V; cbn; lia | destruct (c_version c); cbn; lia]. Qed.

Lemma reach_within : forall c b m s, sound c -> refusal c b m -> reaches c b s -> within c b m s.
Proof.
  intros c b m s W Rf (es & R). refine (proj2 (run_ind c (fun _ => True) (fun s => inv1 c s /\ within c b m s) _ es (initial c b) s _ _ R)); auto.
  - intros u e u' _ [I1 I2] E. apply step_eff in E. split; [eapply inv1_step; eauto | eapply within_step; eauto].
  - split; [apply inv1_initial | now apply within_initial].
Qed.

(** * The number of steps *)
Definition sumf (f : nat -> nat) (n : nat) : nat := list_sum (map f (seq 0 n)).
Lemma sum_le : forall (A : Type) (f g : A -> nat) l, (forall x, In x l -> g x <= f x) -> list_sum (map g l) <= list_sum (map f l).
Proof. induction l as [| x l IH]; intros L; cbn; [lia |]. pose proof (L x (or_introl eq_refl)). specialize (IH (fun y I => L y (or_intror I))). unfold list_sum in *. lia. Qed.
Lemma sum_lt : forall (A : Type) (f g : A -> nat) l x, (forall x, In x l -> g x <= f x) -> In x l -> g x < f x -> list_sum (map g l) < list_sum (map f l).
Proof.
  induction l as [| y l IH]; intros x L I X; [destruct I |]. cbn. pose proof (L y (or_introl eq_refl)). pose proof (sum_le _ f g l (fun z J => L z (or_intror J))).
  destruct I as [-> | I]; [unfold list_sum in *; lia |]. specialize (IH x (fun z J => L z (or_intror J)) I X). unfold list_sum in *. lia.
Qed.
Lemma sum_bound : forall (A : Type) (f : A -> nat) m l, (forall x, In x l -> f x <= m) -> list_sum (map f l) <= length l * m.
Proof. induction l as [| x l IH]; intros L; cbn; [lia |]. pose proof (L x (or_introl eq_refl)). specialize (IH (fun y I => L y (or_intror I))). unfold list_sum in *. lia. Qed.

Definition barriers (c : config) : list barrier :=
  [BPaths; BPre; BRemoved; BPost; BCreate; BSaved; BFinalize] ++ map BCommit (seq 0 (length (c_handlers c))) ++ map BFinal (seq 0 (length (c_handlers c))).
Definition measure (c : config) (s : state) : nat :=
  sumf (fun i => 14 - rank (phases s i)) (c_n c) + sumf (fun i => sumf (fun h => 6 - srank (subs s i h)) (length (c_handlers c))) (c_n c) +
  list_sum (map (fun b => if opened s b then 0 else 1) (barriers c)).

Definition inv0 (c : config) (s : state) : Prop := forall i h, i < c_n c -> rank (phases s i) < 8 -> subs s i h = Idle.
Lemma inv0_step : forall c q s s', inv0 c s -> eff c q s s' -> inv0 c s'.
Proof.
  intros c q s s' I E j h L R. pose proof (eff_rank _ _ _ _ j E) as Rj. specialize (I j) as Ij. assert (D : forall h, subs s j h = Idle) by (intros; apply Ij; auto; lia).
  destruct E; cbn in *; auto; upd; auto; try (rewrite D in *; ors; discriminate); cbn in *; try lia.
Qed.

Lemma rank_le : forall p, rank p <= 14. Proof. intros []; cbn; lia. Qed.
Lemma srank_le : forall b, srank b <= 6. Proof. intros []; cbn; lia. Qed.

Lemma eff_strict : forall c q s s', sound c -> inv0 c s -> inv1 c s -> eff c q s s' ->
  (exists b, In b (barriers c) /\ opened s b = false /\ opened s' b = true) \/ (exists i, i < c_n c /\ rank (phases s i) < rank (phases s' i)) \/
  (exists i h, i < c_n c /\ h < length (c_handlers c) /\ srank (subs s i h) < srank (subs s' i h)).
Proof.
  intros c q s s' W I0 I1 E.
  assert (P : forall i p s1, i < c_n c -> rank (phases s i) < rank p -> exists j, j < c_n c /\ rank (phases s j) < rank (phases (set_phase s1 i p) j)).
  { intros i p s1 L R. exists i. split; auto. cbn. now rewrite Nat.eqb_refl. }
  assert (S1 : forall i h b s1, i < c_n c -> h < length (c_handlers c) -> srank (subs s i h) < srank b -> exists j k, j < c_n c /\ k < length (c_handlers c) /\ srank (subs s j k) < srank (subs (set_sub s1 i h b) j k)).
  { intros i h b s1 L Lh R. exists i, h. repeat split; auto. cbn. now rewrite !Nat.eqb_refl. }
  destruct E; try (right; left; apply P; auto; ors; subst; repeat match goal with H : phases s _ = _ |- _ => rewrite H; clear H end; cbn; lia);
    try (right; right; apply S1; auto; try (eapply nth_lt; eauto); ors; subst; repeat match goal with H : subs s _ _ = _ |- _ => rewrite H; clear H end; cbn; lia).
  left. exists b. split; [| cbn; now rewrite barrier_eqb_refl]. specialize (H0 _ W). unfold barriers. apply in_or_app. destruct b; cbn; auto 10; right; apply in_or_app.
  - left. apply in_map. apply in_seq. apply at_commit in H0. destruct (Nat.lt_ge_cases h (length (c_handlers c))); [lia |]. rewrite (i_out _ _ I1) in H0; auto. discriminate.
  - right. apply in_map. apply in_seq. apply at_final in H0. destruct (Nat.lt_ge_cases h (length (c_handlers c))); [lia |]. rewrite (i_out _ _ I1) in H0; auto. discriminate.
Qed.

Lemma eff_measure : forall c q s s', sound c -> inv0 c s -> inv1 c s -> eff c q s s' -> measure c s' < measure c s.
Proof.
  intros c q s s' W I0 I1 E. pose proof (fun i => eff_rank c q s s' i E) as R.
  assert (Sr : forall i h, i < c_n c -> srank (subs s i h) <= srank (subs s' i h)) by (intros i h L; eapply eff_srank; eauto; intros P k; apply I0; auto; rewrite P; cbn; lia).
  pose proof (fun b => eff_opened c q s s' b E) as O. unfold measure, sumf.
  assert (A : list_sum (map (fun i => 14 - rank (phases s' i)) (seq 0 (c_n c))) <= list_sum (map (fun i => 14 - rank (phases s i)) (seq 0 (c_n c)))) by (apply sum_le; intros x _; specialize (R x); lia).
  assert (B1 : forall i, In i (seq 0 (c_n c)) -> list_sum (map (fun h => 6 - srank (subs s' i h)) (seq 0 (length (c_handlers c)))) <= list_sum (map (fun h => 6 - srank (subs s i h)) (seq 0 (length (c_handlers c)))))
    by (intros i Ii; apply sum_le; intros h _; apply in_seq in Ii; specialize (Sr i h ltac:(lia)); lia).
  pose proof (sum_le _ _ _ _ B1) as B.
  assert (C1 : forall b, In b (barriers c) -> (if opened s' b then 0 else 1) <= (if opened s b then 0 else 1)) by (intros b _; destruct (opened s b) eqn:X; [now rewrite (O _ X) | destruct (opened s' b); lia]).
  pose proof (sum_le _ _ _ _ C1) as C.
  destruct (eff_strict _ _ _ _ W I0 I1 E) as [(b & Ib & O1 & O2) | [(i & L & Lt) | (i & h & L & Lh & Lt)]].
  - pose proof (sum_lt _ _ _ _ b C1 Ib) as X. cbv beta in X. rewrite O1, O2 in X. specialize (X ltac:(lia)). lia.
  - assert (X : list_sum (map (fun i => 14 - rank (phases s' i)) (seq 0 (c_n c))) < list_sum (map (fun i => 14 - rank (phases s i)) (seq 0 (c_n c)))).
    { apply (sum_lt _ _ _ _ i); [intros x _; specialize (R x); lia | apply in_seq; lia | pose proof (rank_le (phases s' i)); lia]. }
    lia.
  - assert (X : list_sum (map (fun i => list_sum (map (fun h => 6 - srank (subs s' i h)) (seq 0 (length (c_handlers c))))) (seq 0 (c_n c))) < list_sum (map (fun i => list_sum (map (fun h => 6 - srank (subs s i h)) (seq 0 (length (c_handlers c))))) (seq 0 (c_n c)))).
    { apply (sum_lt _ _ _ _ i B1); [apply in_seq; lia |]. apply (sum_lt _ _ _ _ h); [intros k _; specialize (Sr i k L); lia | apply in_seq; lia | pose proof (srank_le (subs s' i h)); lia]. }
    lia.
Qed.

Lemma run_measure : forall c es s s', sound c -> inv0 c s -> inv1 c s -> run c s es = Some s' -> length es + measure c s' <= measure c s.
Proof.
  intros c es. induction es as [| e es IH]; intros s s' W I0 I1 R; cbn in R; [injection R as <-; cbn; lia |].
  destruct (step c s e) as [u |] eqn:E; [| discriminate]. apply step_eff in E. pose proof (eff_measure _ _ _ _ W I0 I1 E).
  specialize (IH u s' W (inv0_step _ _ _ _ I0 E) (inv1_step _ _ _ _ W I1 E) R). cbn. lia.
Qed.

Lemma inv0_initial : forall c b, inv0 c (initial c b).
Proof. intros c b i h L R. reflexivity. Qed.

Lemma measure_initial : forall c b, measure c (initial c b) <= 14 * c_n c + 6 * (c_n c * length (c_handlers c)) + 2 * length (c_handlers c) + 7.
Proof.
  intros c b. unfold measure, sumf.
  pose proof (sum_bound _ (fun i => 14 - rank (phases (initial c b) i)) 14 (seq 0 (c_n c)) ltac:(intros; cbv beta; lia)) as A. rewrite seq_length in A.
  pose proof (sum_bound _ (fun i => list_sum (map (fun h => 6 - srank (subs (initial c b) i h)) (seq 0 (length (c_handlers c))))) (length (c_handlers c) * 6) (seq 0 (c_n c))) as B. rewrite seq_length in B.
  specialize (B ltac:(intros i _; pose proof (sum_bound _ (fun h => 6 - srank (subs (initial c b) i h)) 6 (seq 0 (length (c_handlers c))) ltac:(intros; cbv beta; lia)) as X; rewrite seq_length in X; exact X)).
  pose proof (sum_bound _ (fun x => if opened (initial c b) x then 0 else 1) 1 (barriers c) ltac:(intros x _; cbv beta; destruct (opened (initial c b) x); lia)) as C.
  unfold barriers in C at 2. rewrite !app_length, !map_length, !seq_length in C. cbn [length] in C. replace (c_n c * (length (c_handlers c) * 6)) with (6 * (c_n c * length (c_handlers c))) in B by ring. lia.
Qed.
