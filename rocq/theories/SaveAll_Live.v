(** Proofs about saves on all processes: in runs without timeouts and failures something can always happen until all processes have ended. *)
From Coq Require Import List Bool Arith Lia.
From Verif Require Import Base SaveAll_Model SaveAll_Spec SaveAll_Proofs.
Import ListNotations.

Local Arguments Nat.ltb : simpl never.

Definition relevant (c : config) (b : barrier) : Prop :=
  match b with BRemoved | BCommit _ | BFinal _ => False | BPaths => c_version c = V1 | BSaved => c_version c = V0 | _ => True end.
Definition main_barrier (b : barrier) : Prop := match b with BCommit _ | BFinal _ => False | _ => True end.

Record qinv (c : config) (existed : bool) (s : state) : Prop := mkQinv {
  q_nofail : forall i, i < c_n c -> rank (phases s i) < 14;
  q_past : forall i b, i < c_n c -> relevant c b -> brank b < rank (phases s i) -> opened s b = true;
  q_sfail : forall i h, i < c_n c -> srank (subs s i h) < 6;
  q_open : forall i b, i < c_n c -> main_barrier b -> opened s b = true -> brank b <= rank (phases s i);
  q_commit : forall i h, i < c_n c -> opened s (BCommit h) = true -> 2 <= srank (subs s i h);
  q_end : forall i h, i < c_n c -> nth_error (c_handlers c) h = Some Tree -> c_version c = V1 -> subs s i h = HDone -> opened s (BFinal h) = true;
  q_bg : forall i h, i < c_n c -> h < length (c_handlers c) -> phases s i = Background -> subs s i h <> Idle;
  q_tmp : 7 <= rank (phases s (c_primary c)) <= 11 -> tmp s <> None;
  q_ver : forall i, i < c_n c -> (c_version c = V0 -> rank (phases s i) <> 0 /\ rank (phases s i) <> 4) /\ (c_version c = V1 -> rank (phases s i) <> 10);
  q_rem : forall i, i < c_n c -> rank (phases s i) = 3 \/ rank (phases s i) = 4 -> c_overwrite c = true /\ existed = true;
  q_ex : existed = false -> final s = None \/ exists t, final s = Some (New t);
  q_new : forall t, final s = Some (New t) -> 12 <= rank (phases s (c_primary c));
  q_race : forall j, j < c_n c -> c_version c = V1 -> opened s BRemoved = false -> phases s j = AtPost -> final s = None
}.

Definition accepted (c : config) (existed : bool) : Prop := (c_version c = V1 -> paths_agree c = true) /\ (existed = true -> c_overwrite c = true).

Lemma check_final : forall c b s i, sound c -> accepted c b -> inv1 c s -> qinv c b s -> i < c_n c -> phases s i = Check -> final s <> None -> c_overwrite c = true /\ b = true.
Proof.
  intros c b s i W [A1 A2] I1 Q L P F. assert (b = true); [| split; auto]. destruct b; auto. exfalso. destruct (q_ex _ _ _ Q eq_refl) as [X | [t X]]; [congruence |].
  pose proof (q_new _ _ _ Q t X) as R. assert (O : opened s BCreate = true) by (apply (q_past _ _ _ Q (c_primary c)); [exact W | exact I | cbn; lia]).
  pose proof (q_open _ _ _ Q i BCreate L I O) as R2. rewrite P in R2. cbn in R2. lia.
Qed.

(** In a quiet run the directory is there for whoever writes. *)
Lemma write_tmp : forall c b s i h k, sound c -> accepted c b -> synchronized c -> inv0 c s -> inv1 c s -> inv2 c s -> qinv c b s -> i < c_n c -> nth_error (c_handlers c) h = Some k ->
  subs s i h = Write /\ (k = Json -> i = c_primary c) \/ subs s i h = Finalize /\ i = c_primary c -> tmp s <> None.
Proof.
  intros c b s i h k W A Sy I0 I1 I2 Q L K B. apply (q_tmp _ _ _ Q).
  assert (O : opened s BCreate = true). { destruct (opened s BCreate) eqn:O; auto. pose proof (i_idle _ _ I1 O i h). destruct B as [[B _] | [B _]]; congruence. }
  split; [apply (q_open _ _ _ Q _ BCreate W I O) |]. apply Nat.nlt_ge. intros R. pose proof (q_nofail _ _ _ Q _ W) as N.
  assert (D : forall j, j < c_n c -> 8 < rank (phases s j) -> subs s j h = HDone).
  { intros j Lj Rj. apply (i_hdone _ _ I2); auto; [eapply nth_lt; eauto |]. pose proof (q_nofail _ _ _ Q _ Lj). lia. }
  assert (NP : i <> c_primary c). { intros ->. specialize (D _ W ltac:(lia)). destruct B as [[B _] | [B _]]; congruence. }
  destruct B as [[B J] | [_ B]]; [| contradiction].
  destruct (c_version c) eqn:V.
  - assert (k = Tree). { destruct k; auto; [now specialize (J eq_refl) | exfalso]. destruct Sy as [Sy | Sy]; [congruence |]. apply Sy. eapply nth_error_In; eauto. }
    subst k. assert (Oc : opened s (BCommit h) = true) by (apply (i_past _ _ I2 (c_primary c)); auto; right; right; apply D; auto; lia).
    pose proof (q_commit _ _ _ Q i h L Oc) as X. rewrite B in X. cbn in X. lia.
  - assert (Os : opened s BSaved = true) by (apply (q_past _ _ _ Q (c_primary c)); [exact W | exact V | cbn; lia]).
    pose proof (q_open _ _ _ Q i BSaved L I Os) as X. cbn in X. specialize (D i L ltac:(lia)). congruence.
Qed.

Lemma waits_rank : forall p b, waits p = Some b -> main_barrier b /\ brank b = rank p.
Proof. intros [] b E; cbn in E; try discriminate; injection E as <-; cbn; auto. Qed.
Lemma rank_inj : forall p r, rank p = rank r -> rank p < 14 -> p = r.
Proof. intros [] [] E L; cbn in *; try reflexivity; try lia. Qed.
Lemma waits_inj : forall p r b, waits p = Some b -> rank r = rank p -> waits r = Some b.
Proof. intros p r b E R. rewrite (rank_inj p r) in E; auto. destruct p; cbn in *; try discriminate; lia. Qed.

Lemma qinv_initial : forall c b, qinv c b (initial c b).
Proof.
  intros c b. constructor; cbn; auto; try discriminate; intros; try (destruct (c_version c); cbn in *; ors; try lia; try discriminate; auto; fail).
  - destruct (c_version c) eqn:V; cbn in *; [lia |]. destruct b0; cbn in *; try lia; try contradiction; congruence.
  - destruct (c_version c); cbn; split; intros X; try discriminate; lia.
  - destruct b; [discriminate | auto].
  - destruct b; discriminate.
Qed.

Lemma qinv_step : forall c b s s', sound c -> accepted c b -> synchronized c -> inv0 c s -> inv1 c s -> inv2 c s -> qinv c b s -> eff c true s s' -> qinv c b s'.
Proof.
  intros c b s s' W A Sy I0 I1 I2 Q E.
  pose proof (fun i => eff_rank c true s s' i E) as R. pose proof (fun x => eff_opened c true s s' x E) as O.
  assert (Sr : forall i h, i < c_n c -> srank (subs s i h) <= srank (subs s' i h)) by (intros i h L; eapply eff_srank; eauto; intros P k; apply I0; auto; rewrite P; cbn; lia).
  assert (NF : forall i, i < c_n c -> rank (phases s' i) < 14).
  { intros i L. pose proof (q_nofail _ _ _ Q i L) as N. destruct E; cbn; auto; upd; auto; cbn; try lia; try discriminate.
    - destruct A as [A1 A2]. ors; subst; cbn; try lia. exfalso. assert (c_version c = V1); [| intuition congruence].
      destruct (c_version c) eqn:V; auto. destruct (q_ver _ _ _ Q i0 L) as [X _]. destruct (X V) as [Y _]. rewrite H2 in Y. now destruct Y.
    - destruct H1 as [(F & Ov & _) | H1]; [destruct (check_final c b s i0); auto; congruence |]. ors; subst; cbn; lia.
    - ors; subst; cbn; lia.
    - ors; subst; cbn; lia.
    - pose proof (q_sfail _ _ _ Q i0 h L) as X. rewrite H2 in X. cbn in X. lia.
    - ors; subst; cbn; lia.
    - exfalso. assert (i0 = c_primary c) by (apply (i_prim _ _ I1); auto; tauto). subst i0. apply (q_tmp _ _ _ Q); auto. destruct H0 as [X | X]; rewrite X; cbn; lia. }
  constructor.
  - exact NF.
  - intros i x L Rx B. pose proof (NF i L) as Ni. clear NF. assert (Old : brank x < rank (phases s i) -> opened s' x = true) by (intros B'; apply O; eapply q_past; eauto).
    destruct (Nat.lt_ge_cases (brank x) (rank (phases s i))) as [B0 | B0]; [now apply Old |].
    destruct E; cbn in B, Ni; try (apply Old; exact B); upd; cbn in B, Ni; try (apply Old; exact B); try lia; cbn.
    + ors; subst; cbn in *; repeat match goal with H : phases s _ = _ |- _ => rewrite H in *; clear H end; cbn in *; try (injection H0 as <-);
        destruct x; cbn in *; try lia; try contradiction; auto.
    + ors; subst; cbn in *; repeat match goal with H : phases s _ = _ |- _ => rewrite H in *; clear H end; cbn in *;
        destruct x; cbn in *; try lia; try contradiction; auto.
    + ors; subst; cbn in *; repeat match goal with H : phases s _ = _ |- _ => rewrite H in *; clear H end; cbn in *;
        destruct x; cbn in *; try lia; try contradiction; auto.
    + rewrite H0 in *. destruct x; cbn in *; try lia; contradiction.
    + rewrite H0 in *. destruct x; cbn in *; try lia; contradiction.
    + rewrite H0 in *. destruct x; cbn in *; try lia; try contradiction; auto.
    + ors; subst; cbn in *; repeat match goal with H : phases s _ = _ |- _ => rewrite H in *; clear H end; cbn in *;
        destruct x; cbn in *; try lia; try contradiction; congruence.
    + ors; subst; cbn in *; repeat match goal with H : phases s _ = _ |- _ => rewrite H in *; clear H end; cbn in *;
        destruct x; cbn in *; try lia; try contradiction; congruence.
    + rewrite H0 in *. destruct x; cbn in *; try lia; contradiction.
  - intros i h L. pose proof (q_sfail _ _ _ Q i h L) as X. destruct E; cbn; auto; upd; auto; try (cbn; lia); try discriminate.
    + destruct (h <? length (c_handlers c)); [cbn; lia | auto].
    + ors; subst; cbn; lia.
    + exfalso. eapply (write_tmp c b s i0 h0 k); eauto.
  - intros i x L Mx Ox. destruct E; cbn in Ox; try (etransitivity; [eapply q_open; eauto | apply R]; fail).
    apply orb_true_iff in Ox as [Ox | Ox]; [| etransitivity; [eapply q_open; eauto | apply R]]. apply barrier_eqb_eq in Ox. subst x.
    specialize (H0 i L). apply at_barrier_main in H0; [| intros h ->; exact Mx | intros h ->; exact Mx]. apply waits_rank in H0 as [_ H0]. cbn. lia.
  - intros i h L Ox. destruct E; cbn in Ox; try (etransitivity; [eapply q_commit; eauto | apply Sr; auto]; fail).
    apply orb_true_iff in Ox as [Ox | Ox]; [| etransitivity; [eapply q_commit; eauto | apply Sr; auto]]. apply barrier_eqb_eq in Ox. subst b0.
    specialize (H0 i L). apply at_commit in H0. cbn. rewrite H0. cbn. lia.
  - intros i h L K V D. assert (Old : subs s i h = HDone -> opened s' (BFinal h) = true) by (intros D'; apply O; eapply q_end; eauto).
    destruct E; cbn in D; try (apply Old; exact D); upd; try (apply Old; exact D); try discriminate.
    + destruct (h <? length (c_handlers c)); [discriminate | apply Old; exact D].
    + kinds. ors; subst; try discriminate; congruence.
    + kinds. discriminate.
    + exact H2.
  - intros i h L Lh P. assert (Old : phases s i = Background -> subs s' i h <> Idle).
    { intros P'. pose proof (q_bg _ _ _ Q i h L Lh P') as X. specialize (Sr i h L). intros Y. rewrite Y in Sr. destruct (subs s i h); cbn in Sr; try lia. now apply X. }
    destruct E; cbn in P; try (apply Old; exact P); upd; try (apply Old; exact P); ors; subst; try discriminate.
    cbn. rewrite Nat.eqb_refl. cbn. destruct (Nat.ltb_spec h (length (c_handlers c))); [discriminate | lia].
  - intros B. assert (Old : 7 <= rank (phases s (c_primary c)) <= 11 -> tmp s <> None) by (apply (q_tmp _ _ _ Q)).
    destruct E; cbn in *; try (apply Old; exact B); try discriminate; upd; cbn in B; try (apply Old; exact B); try lia; try congruence; ors; subst; cbn in *; try lia;
      repeat match goal with H : phases s _ = _ |- _ => rewrite H in *; clear H end; cbn in *; try (apply Old; lia).
    all: assert (i = c_primary c) by (apply (i_prim _ _ I1); auto); congruence.
  - intros i L. pose proof (q_ver _ _ _ Q i L) as [X Y]. split; intros V; [specialize (X V) | specialize (Y V)];
      destruct E; cbn; auto; upd; auto; cbn; try lia; ors; subst; cbn; try lia; try congruence;
      repeat match goal with H : phases s _ = _ |- _ => rewrite H in *; clear H end; cbn in *; try lia.
  - intros i L B. assert (Old : rank (phases s i) = 3 \/ rank (phases s i) = 4 -> c_overwrite c = true /\ b = true) by (apply (q_rem _ _ _ Q); auto).
    destruct E; cbn in B; try (apply Old; exact B); upd; cbn in B; try (apply Old; exact B); try lia.
    + ors; subst; cbn in *; lia.
    + destruct H1 as [(F & X & ->) | [(F & X & -> & ->) | [(F & X & N & Y) | (F & ->)]]]; try (eapply (check_final c b s); eauto; fail); cbn in B; lia.
    + apply Old. rewrite H0. auto.
    + ors; subst; cbn in *; lia.
    + ors; subst; cbn in *; lia.
  - intros B. destruct (q_ex _ _ _ Q B) as [X | [t X]]; destruct E; cbn; eauto.
  - intros t F. assert (Old : final s = Some (New t) -> 12 <= rank (phases s' (c_primary c))) by (intros F'; etransitivity; [eapply q_new; eauto | apply R]).
    destruct E; cbn in F; try (apply Old; exact F); try discriminate. assert (i = c_primary c) by (apply (i_prim _ _ I1); auto). subst i. cbn. rewrite Nat.eqb_refl. cbn. lia.
  - intros j L V Or P. assert (Or0 : opened s BRemoved = false) by (destruct (opened s BRemoved) eqn:X; auto; rewrite (O _ X) in Or; discriminate).
    assert (Old : phases s j = AtPost -> final s = None) by (intros P'; eapply q_race; eauto).
    destruct E; cbn in P; cbn; auto; upd; auto; ors; subst; try discriminate; try congruence.
    + rewrite H2 in H0. injection H0 as <-. congruence.
    + assert (i = c_primary c) by (apply (i_prim _ _ I1); auto). subst i. exfalso.
      assert (Oc : opened s BCreate = true) by (apply (q_past _ _ _ Q (c_primary c)); [exact W | exact I | rewrite H0; cbn; lia]).
      pose proof (q_open _ _ _ Q j BCreate L I Oc) as X. rewrite P in X. cbn in X. lia.
Qed.

Lemma reach_qinv : forall c b s, sound c -> accepted c b -> synchronized c -> reaches_quietly c b s -> inv0 c s /\ inv1 c s /\ inv2 c s /\ qinv c b s.
Proof.
  intros c b s W A Sy (es & Qs & R).
  refine (run_ind c (fun e => quiet e = true) (fun s => inv0 c s /\ inv1 c s /\ inv2 c s /\ qinv c b s) _ es (initial c b) s _ _ R).
  - intros u e u' Qe (I0 & I1 & I2 & Q) E. apply step_eff in E. rewrite Qe in E. split; [eapply inv0_step; eauto |]. split; [eapply inv1_step; eauto |]. split; [eapply inv2_step; eauto |].
    now apply (qinv_step c b u u' W A Sy I0 I1 I2 Q E).
  - apply forallb_forall. exact Qs.
  - split; [apply inv0_initial |]. split; [apply inv1_initial |]. split; [apply inv2_initial | apply qinv_initial].
Qed.

(** * Something can happen *)
Lemma least : forall (f : nat -> nat) n, 0 < n -> exists k, k < n /\ forall i, i < n -> f k <= f i.
Proof.
  intros f n. induction n as [| n IH]; intros L; [lia |]. destruct n as [| n].
  - exists 0. split; [lia |]. intros i Li. replace i with 0 by lia. lia.
  - destruct (IH ltac:(lia)) as (k & Lk & M). destruct (Nat.le_gt_cases (f k) (f (S n))) as [Le | Gt].
    + exists k. split; [lia |]. intros i Li. destruct (Nat.eq_dec i (S n)) as [-> | N]; [exact Le | apply M; lia].
    + exists (S n). split; [lia |]. intros i Li. destruct (Nat.eq_dec i (S n)) as [-> | N]; [lia |]. specialize (M i ltac:(lia)). lia.
Qed.

Lemma can_open : forall c s b, opened s b = false -> (forall i, i < c_n c -> at_barrier s b i = true) -> (b = BPaths -> c_inactive c = 0) -> goes_on c s.
Proof.
  intros c s b O A P. exists (Open b). eexists. split; [reflexivity |]. cbn. unfold open_barrier. rewrite O. cbn.
  replace (forallb (at_barrier s b) (seq 0 (c_n c))) with true by (symmetry; apply forallb_forall; intros i Ii; apply in_seq in Ii; apply A; lia).
  cbn. destruct b; try reflexivity. rewrite P; reflexivity.
Qed.

Lemma can_main : forall c s i, i < c_n c -> step_main c s i <> None -> goes_on c s.
Proof. intros c s i L N. destruct (step_main c s i) as [s' |] eqn:E; [| contradiction]. exists (Main i), s'. split; auto. cbn. apply Nat.ltb_lt in L. now rewrite L. Qed.
Lemma can_sub : forall c s i h, i < c_n c -> step_sub c s i h <> None -> goes_on c s.
Proof. intros c s i h L N. destruct (step_sub c s i h) as [s' |] eqn:E; [| contradiction]. exists (Sub i h), s'. split; auto. cbn. apply Nat.ltb_lt in L. now rewrite L. Qed.

Lemma at_main : forall s b i, main_barrier b -> waits (phases s i) = Some b -> at_barrier s b i = true.
Proof. intros s b i M E. unfold at_barrier. rewrite E. destruct b; try reflexivity; contradiction. Qed.

(** The process that is behind waits at a barrier that only those before it can have passed. *)
Lemma behind : forall c s k b, k < c_n c -> (forall i, i < c_n c -> rank (phases s k) <= rank (phases s i)) -> waits (phases s k) = Some b ->
  (forall i, i < c_n c -> brank b < rank (phases s i) -> opened s b = true) -> (b = BPaths -> c_inactive c = 0) -> (opened s b = true -> step_main c s k <> None) -> goes_on c s.
Proof.
  intros c s k b L M Wk P IA St. destruct (opened s b) eqn:O; [apply (can_main c s k L); auto |]. apply (can_open c s b O); auto.
  intros i Li. destruct (waits_rank _ _ Wk) as [Mb Rb]. apply at_main; auto. specialize (M i Li).
  destruct (Nat.eq_dec (rank (phases s i)) (rank (phases s k))) as [Eq | N]; [eapply waits_inj; eauto |]. specialize (P i Li ltac:(lia)). discriminate.
Qed.

Lemma not_done : forall c s i, handlers_done c s i = false -> exists h, h < length (c_handlers c) /\ subs s i h <> HDone.
Proof.
  intros c s i D. unfold handlers_done in D. assert (X : forall l, forallb (fun h => match subs s i h with HDone => true | _ => false end) l = false -> exists h, In h l /\ subs s i h <> HDone).
  { induction l as [| h l IH]; cbn; intros F; [discriminate |]. destruct (subs s i h) eqn:B; try (exists h; split; [now left | congruence]). destruct (IH F) as (g & I1 & N). exists g. split; auto. }
  destruct (X _ D) as (h & I1 & N). apply in_seq in I1. exists h. split; [lia | exact N].
Qed.

Theorem progress : forall c b s, sound c -> accepted c b -> synchronized c -> all_active c -> reaches_quietly c b s -> all_in c s Done \/ goes_on c s \/ split c b s.
Proof.
  intros c b s W A Sy Ac R. destruct (reach_qinv c b s W A Sy R) as (I0 & I1 & I2 & Q).
  destruct (least (fun i => rank (phases s i)) (c_n c)) as (k & L & M); [unfold sound in W; lia |]. cbv beta in M.
  assert (Bh : forall x, waits (phases s k) = Some x -> relevant c x -> (x = BPaths -> c_inactive c = 0) -> (opened s x = true -> step_main c s k <> None) -> goes_on c s).
  { intros x Wx Rx IA St. apply (behind c s k x L M Wx); auto. intros i Li Ri. apply (q_past _ _ _ Q i); auto. }
  destruct (phases s k) eqn:P; try (right; left; apply (can_main c s k L); unfold step_main; rewrite P; discriminate).
  - right; left. destruct (c_version c) eqn:V; [| destruct (q_ver _ _ _ Q k L) as [X _]; destruct (X V) as [Y _]; rewrite P in Y; cbn in Y; now destruct Y].
    apply (Bh BPaths); auto; [intros _; destruct Ac; congruence |]. intros O. unfold step_main. rewrite P, O. discriminate.
  - right; left. apply (Bh BPre); auto; [exact I | discriminate |]. intros O. unfold step_main. rewrite P, O. discriminate.
  - right; left; apply (can_main c s k L); unfold step_main; rewrite P; destruct (final s); [destruct (c_overwrite c) |]; discriminate.
  - right. destruct (opened s BRemoved) eqn:O; [left; apply (can_main c s k L); unfold step_main; rewrite P, O; discriminate |].
    assert (Rk : forall i, i < c_n c -> rank (phases s i) <= 5).
    { intros i Li. apply Nat.nlt_ge. intros Ri. assert (O5 : opened s BPost = true) by (apply (q_past _ _ _ Q i); auto; exact I).
      pose proof (q_open _ _ _ Q k BPost L I O5) as X. rewrite P in X. cbn in X. lia. }
    destruct (forallb (fun i => negb (rank (phases s i) =? 5)) (seq 0 (c_n c))) eqn:F.
    + left. apply (can_open c s BRemoved O); [| discriminate]. intros i Li. apply at_main; [exact I |]. rewrite forallb_forall in F. specialize (F i ltac:(apply in_seq; lia)).
      apply negb_true_iff, Nat.eqb_neq in F. specialize (M i Li). cbn in M. specialize (Rk i Li). apply (waits_inj AtRemoved); [reflexivity | cbn; lia].
    + right. assert (X : exists j, j < c_n c /\ phases s j = AtPost).
      { assert (Y : forall l, forallb (fun i => negb (rank (phases s i) =? 5)) l = false -> exists j, In j l /\ rank (phases s j) = 5).
        { induction l as [| j l IH]; cbn; intros F'; [discriminate |]. destruct (Nat.eqb_spec (rank (phases s j)) 5) as [E | E]; [exists j; auto | destruct (IH F') as (g & Ig & E'); exists g; auto]. }
        destruct (Y _ F) as (j & Ij & E). apply in_seq in Ij. exists j. split; [lia |]. apply (rank_inj _ AtPost); [exact E | rewrite E; lia]. }
      destruct X as (j & Lj & Pj). destruct (q_rem _ _ _ Q k L ltac:(rewrite P; cbn; auto)) as [Ov Ex].
      assert (V : c_version c = V1) by (destruct (c_version c) eqn:V; auto; destruct (q_ver _ _ _ Q k L) as [X _]; destruct (X V) as [_ Y]; rewrite P in Y; cbn in Y; now destruct Y).
      repeat split; auto; [eapply q_race; eauto | | exists k, j; auto].
      apply (i_early _ _ I1). apply early_rank. specialize (Rk _ W). lia.
  - right; left. apply (Bh BPost); auto; [exact I | discriminate |]. intros O. unfold step_main. rewrite P, O. discriminate.
  - right; left. apply (Bh BCreate); auto; [exact I | discriminate |]. intros O. unfold step_main. rewrite P, O. discriminate.
  - right; left. destruct (handlers_done c s k) eqn:D.
    { apply (can_main c s k L). unfold step_main. rewrite P, D. destruct (handler_error c s k); discriminate. }
    destruct (not_done c s k D) as (h & Lh & N).
    destruct (least (fun i => srank (subs s i h)) (c_n c)) as (m & Lm & Mm); [unfold sound in W; lia |]. cbv beta in Mm.
    assert (K : exists kd, nth_error (c_handlers c) h = Some kd) by (destruct (nth_error (c_handlers c) h) as [kd |] eqn:K; [eauto | apply nth_error_None in K; lia]). destruct K as [kd K].
    assert (Km : 1 < srank (subs s m h) < 5 -> kd = Tree /\ c_version c = V1).
    { intros X. destruct (c_version c) eqn:V; [| exfalso; apply (i_kind _ _ I2 m h kd Lm K); auto]. destruct kd; auto; exfalso; apply (i_kind _ _ I2 m h _ Lm K); auto; left; discriminate. }
    assert (Nk : srank (subs s m h) < 5). { specialize (Mm k L). pose proof (q_sfail _ _ _ Q k h L). destruct (subs s k h); cbn in *; try lia. now destruct N. }
    assert (Ni : forall i, i < c_n c -> subs s i h <> Idle).
    { intros i Li. destruct (Nat.eq_dec (rank (phases s i)) 8) as [E8 | N8].
      - apply (q_bg _ _ _ Q); auto. apply (rank_inj _ Background); [exact E8 | rewrite E8; lia].
      - specialize (M i Li). cbn in M. rewrite (i_hdone _ _ I2 i h Li Lh); [discriminate |]. pose proof (q_nofail _ _ _ Q i Li). lia. }
    destruct (subs s m h) eqn:B; cbn in Nk; try lia.
    + now destruct (Ni m Lm).
    + apply (can_sub c s m h Lm). unfold step_sub. rewrite K, B. destruct kd; discriminate.
    + destruct (Km ltac:(cbn; lia)) as [-> V]. destruct (opened s (BCommit h)) eqn:O; [apply (can_sub c s m h Lm); unfold step_sub; rewrite K, B, O; discriminate |].
      apply (can_open c s _ O); [| discriminate]. intros i Li. specialize (Mm i Li). cbn in Mm. pose proof (q_sfail _ _ _ Q i h Li).
      destruct (subs s i h) eqn:Bi; cbn in *; try lia; rewrite ?Bi; cbn; rewrite ?Nat.eqb_refl; auto; exfalso;
        assert (opened s (BCommit h) = true) by (apply (i_past _ _ I2 i h Li K V); rewrite Bi; auto); congruence.
    + apply (can_sub c s m h Lm). unfold step_sub. rewrite K, B. destruct (is_primary c m); [destruct (tmp s) |]; discriminate.
    + destruct (Km ltac:(cbn; lia)) as [-> V]. destruct (opened s (BFinal h)) eqn:O; [apply (can_sub c s m h Lm); unfold step_sub; rewrite K, B, O; discriminate |].
      apply (can_open c s _ O); [| discriminate]. intros i Li. specialize (Mm i Li). cbn in Mm. pose proof (q_sfail _ _ _ Q i h Li).
      destruct (subs s i h) eqn:Bi; cbn in *; try lia; rewrite ?Bi; cbn; rewrite ?Nat.eqb_refl; auto; exfalso.
      assert (opened s (BFinal h) = true) by (eapply q_end; eauto). congruence.
  - right; left; apply (can_main c s k L); unfold step_main; rewrite P; destruct (tmp s); discriminate.
  - right; left. assert (V : c_version c = V0) by (destruct (c_version c) eqn:V; auto; destruct (q_ver _ _ _ Q k L) as [_ X]; specialize (X V); rewrite P in X; cbn in X; now destruct X).
    apply (Bh BSaved); auto; [discriminate |]. intros O. unfold step_main. rewrite P, O. discriminate.
  - right; left; apply (can_main c s k L); unfold step_main; rewrite P; destruct (tmp s); discriminate.
  - right; left. apply (Bh BFinalize); auto; [exact I | discriminate |]. intros O. unfold step_main. rewrite P, O. discriminate.
  - left. intros i Li. specialize (M i Li). cbn in M. pose proof (q_nofail _ _ _ Q i Li). apply (rank_inj _ Done); cbn; lia.
  - pose proof (q_nofail _ _ _ Q k L) as X. rewrite P in X. cbn in X. lia.
Qed.

(** * Saves that are refused end, too *)
Record rinv (c : config) (m : nat) (s : state) : Prop := mkRinv {
  r_err : forall i e, i < c_n c -> phases s i = Failed e -> e = ValueError;
  r_past : forall i x, i < c_n c -> relevant c x -> brank x <= m -> brank x < rank (phases s i) -> opened s x = true;
  r_ver : forall i, i < c_n c -> c_version c = V0 -> rank (phases s i) <> 0
}.

Lemma rinv_step : forall c b m s s', sound c -> refusal c b m -> inv1 c s -> within c b m s -> rinv c m s -> eff c true s s' -> rinv c m s'.
Proof.
  intros c b m s s' W Rf I1 (Rk & F & T & O) [Re Rp Rv] E. pose proof (i_idle _ _ I1 O) as D. pose proof (fun x => eff_opened c true s s' x E) as MO. pose proof (fun i => eff_rank c true s s' i E) as MR.
  assert (Hm : m = 0 \/ m = 2) by (destruct Rf as [[-> _] | [-> _]]; auto).
  destruct E; try discriminate; try (exfalso; match goal with L : ?j < c_n c, X : phases s ?j = _ |- _ => specialize (Rk j L); rewrite X in Rk end; cbn in Rk; destruct Hm; subst; lia);
    try (exfalso; rewrite D in *; ors; discriminate).
  - constructor; cbn; auto. intros i x L Rx Bx R. rewrite (Rp i x); auto using orb_true_r.
  - constructor; cbn.
    + intros j e L. upd; [| now apply Re]. ors; subst; try discriminate; congruence.
    + intros j x L Rx Bx. upd; [| now apply Rp]. intros R. destruct (Nat.lt_ge_cases (brank x) (rank (phases s i))) as [B0 | B0]; [eapply Rp; eauto |].
      pose proof (Rk i H) as Ri.
      assert (P12 : phases s i = AtPaths \/ phases s i = AtPre) by (ors; auto; exfalso; repeat match goal with X : phases s i = _ |- _ => rewrite X in * end; cbn in *; lia).
      destruct P12 as [X | X]; rewrite X in *; cbn in *; injection H0 as <-.
      * destruct x; cbn in *; try lia; try contradiction; auto. exfalso. destruct Rf as [(-> & V & P) | (-> & P & _)]; [lia |].
        ors; subst; try discriminate; cbn in *; try lia. assert (V : c_version c = V1) by (destruct (c_version c) eqn:V; auto; specialize (Rv i H eq_refl); rewrite X in Rv; cbn in Rv; now destruct Rv).
        specialize (P V). congruence.
      * destruct x; cbn in *; try lia; try contradiction; auto.
    + intros j L V. upd; [| now apply Rv]. ors; subst; cbn; lia.
  - constructor; cbn.
    + intros j e L. upd; [| now apply Re]. ors; subst; try discriminate; congruence.
    + intros j x L Rx Bx. upd; [| now apply Rp]. intros R. eapply Rp; eauto. rewrite H0. cbn. specialize (Rk i H). rewrite H0 in Rk. cbn in Rk. destruct x; cbn in *; try lia; try contradiction; destruct Hm; subst; lia.
    + intros j L V. upd; [| now apply Rv]. ors; subst; cbn; lia.
  - exfalso. specialize (Rk i H). destruct H0 as [X | X]; rewrite X in Rk; cbn in Rk; destruct Hm; subst; lia.
Qed.

Lemma reach_rinv : forall c b m s, sound c -> refusal c b m -> reaches_quietly c b s -> inv1 c s /\ within c b m s /\ rinv c m s.
Proof.
  intros c b m s W Rf (es & Qs & R).
  refine (run_ind c (fun e => quiet e = true) (fun s => inv1 c s /\ within c b m s /\ rinv c m s) _ es (initial c b) s _ _ R).
  - intros u e u' Qe (I1 & Wi & Ri) E. apply step_eff in E. rewrite Qe in E. split; [eapply inv1_step; eauto |]. split; [eapply within_step; eauto | eapply rinv_step; eauto].
  - apply forallb_forall. exact Qs.
  - split; [apply inv1_initial |]. split; [now apply within_initial |]. constructor; cbn; intros; destruct (c_version c) eqn:V; cbn in *; try discriminate; try lia.
    destruct x; cbn in *; try lia; try contradiction; congruence.
Qed.

Theorem refused_progress : forall c b s, sound c -> refused c b -> all_active c -> reaches_quietly c b s -> all_in c s (Failed ValueError) \/ goes_on c s.
Proof.
  intros c b s W Rf Ac R. destruct (refused_refusal c b Rf) as (m & Rm). destruct (reach_rinv c b m s W Rm R) as (I1 & (Rk & F & T & O) & [Re Rp Rv]).
  assert (Hm : m = 0 \/ m = 2) by (destruct Rm as [[-> _] | [-> _]]; auto).
  destruct (least (fun i => rank (phases s i)) (c_n c)) as (k & L & M); [unfold sound in W; lia |]. cbv beta in M. pose proof (Rk k L) as Rkk.
  destruct (phases s k) eqn:P; cbn in Rkk; try (exfalso; destruct Hm; subst; lia).
  - right. assert (V : c_version c = V1) by (destruct (c_version c) eqn:V; auto; specialize (Rv k L eq_refl); rewrite P in Rv; cbn in Rv; now destruct Rv).
    apply (behind c s k BPaths L); rewrite ?P; auto; [intros i Li Ri; apply (Rp i); auto; cbn; lia | intros _; destruct Ac; congruence |]. intros X. unfold step_main. rewrite P, X. discriminate.
  - right. apply (behind c s k BPre L); rewrite ?P; auto; [| discriminate |].
    + intros i Li Ri. apply (Rp i); auto; [exact I | cbn; lia].
    + intros X. unfold step_main. rewrite P, X. discriminate.
  - right. apply (can_main c s k L). unfold step_main. rewrite P. destruct (final s); [destruct (c_overwrite c) |]; discriminate.
  - left. intros i Li. specialize (M i Li). cbn in M. destruct (phases s i) eqn:Pi; cbn in M; try lia. now rewrite (Re i e0 Li Pi).
Qed.

Lemma not_refused : forall c b, ~ refused c b -> accepted c b.
Proof.
  intros c b N. split.
  - intros V. apply paths_agree_spec. intros i L. destruct (Nat.eq_dec (c_path c i) (c_path c 0)) as [E | E]; auto. exfalso. apply N. left. eauto.
  - intros ->. destruct (c_overwrite c) eqn:O; auto. exfalso. apply N. right. auto.
Qed.

(** * After the race nothing comes back *)
Definition torn (c : config) (i j : nat) (s : state) : Prop :=
  (phases s i = AtRemoved \/ rank (phases s i) = 14) /\ (phases s j = AtPost \/ rank (phases s j) = 14) /\ opened s BRemoved = false /\ opened s BPost = false /\ opened s BFinalize = false /\
  (rank (phases s (c_primary c)) <= 5 \/ rank (phases s (c_primary c)) = 14) /\ final s = None /\
  (forall k, k < c_n c -> phases s k = Done -> False).

Lemma torn_step : forall c q i j s s', sound c -> inv1 c s -> i < c_n c -> j < c_n c -> torn c i j s -> eff c q s s' -> torn c i j s'.
Proof.
  intros c q i j s s' W I1 Li Lj (Pi & Pj & O1 & O2 & O3 & Pp & F & Nd) E.
  assert (F' : final s' = None).
  { destruct E; cbn; auto. assert (i0 = c_primary c) by (apply (i_prim _ _ I1); auto). subst i0. rewrite H0 in Pp. cbn in Pp. lia. }
  assert (Os : forall x, opened s x = false -> (x = BRemoved \/ x = BPost \/ x = BFinalize) -> opened s' x = false).
  { intros x Ox X. destruct E; cbn; auto. rewrite Ox, orb_false_r. destruct (barrier_eqb b x) eqn:B; auto. apply barrier_eqb_eq in B. subst b. exfalso.
    destruct X as [-> | [-> | ->]].
    - specialize (H0 j Lj). apply at_barrier_main in H0; try discriminate. destruct Pj as [Pj | Pj]; [rewrite Pj in H0; discriminate | destruct (phases s j); cbn in *; try discriminate; lia].
    - specialize (H0 i Li). apply at_barrier_main in H0; try discriminate. destruct Pi as [Pi | Pi]; [rewrite Pi in H0; discriminate | destruct (phases s i); cbn in *; try discriminate; lia].
    - specialize (H0 j Lj). apply at_barrier_main in H0; try discriminate. destruct Pj as [Pj | Pj]; [rewrite Pj in H0; discriminate | destruct (phases s j); cbn in *; try discriminate; lia]. }
  split; [| split; [| split; [| split; [| split; [| split; [| split]]]]]]; auto.
  - pose proof (eff_rank _ _ _ _ i E) as R. destruct Pi as [Pi | Pi]; [| right; pose proof (rank_le (phases s' i)); lia].
    destruct E; cbn; auto; upd; auto; ors; subst; try congruence; auto; rewrite Pi in *; try discriminate. all: injection H0 as <-; congruence.
  - pose proof (eff_rank _ _ _ _ j E) as R. destruct Pj as [Pj | Pj]; [| right; pose proof (rank_le (phases s' j)); lia].
    destruct E; cbn; auto; upd; auto; ors; subst; try congruence; auto; rewrite Pj in *; try discriminate. all: injection H0 as <-; congruence.
  - pose proof (eff_rank _ _ _ _ (c_primary c) E) as R. pose proof (rank_le (phases s' (c_primary c))). destruct Pp as [Pp | Pp]; [| lia].
    destruct E; cbn; auto; upd; auto; ors; subst; cbn; auto; try lia; repeat match goal with H : phases s _ = _ |- _ => rewrite H in *; clear H end; cbn in *; try lia.
    all: injection H1 as <-; congruence.
  - intros k Lk D. destruct E; cbn in D; try (eapply Nd; eauto; fail); upd; try (eapply Nd; eauto; fail); ors; subst; try discriminate.
    all: match goal with X : waits (phases _ _) = Some _, Y : phases _ _ = AtFinalize |- _ => rewrite Y in X; injection X as <- end; congruence.
Qed.

Theorem torn_for_ever : forall c b s es s', sound c -> ~ refused c b -> synchronized c -> reaches_quietly c b s -> split c b s -> run c s es = Some s' ->
  final s' = None /\ forall k, k < c_n c -> phases s' k <> Done.
Proof.
  intros c b s es s' W N Sy R (V & Ov & Ex & F & T & O & i & j & Li & Lj & Pi & Pj) Rn.
  destruct (reach_qinv c b s W (not_refused c b N) Sy R) as (I0 & I1 & I2 & Q).
  assert (O5 : opened s BPost = false). { destruct (opened s BPost) eqn:X; auto. pose proof (q_open _ _ _ Q i BPost Li I X) as Y. rewrite Pi in Y. cbn in Y. lia. }
  assert (O12 : opened s BFinalize = false). { destruct (opened s BFinalize) eqn:X; auto. pose proof (q_open _ _ _ Q i BFinalize Li I X) as Y. rewrite Pi in Y. cbn in Y. lia. }
  assert (Rk : forall k, k < c_n c -> rank (phases s k) <= 5).
  { intros k Lk. apply Nat.nlt_ge. intros Rk. assert (opened s BPost = true) by (apply (q_past _ _ _ Q k); auto; exact I). congruence. }
  assert (X : inv1 c s' /\ torn c i j s').
  { refine (run_ind c (fun _ => True) (fun s => inv1 c s /\ torn c i j s) _ es s s' _ _ Rn); auto.
    - intros u e u' _ [J1 J2] E. apply step_eff in E. split; [eapply inv1_step; eauto | eapply torn_step; eauto].
    - split; auto. unfold torn. split; auto. split; auto. split; auto. split; auto. split; auto. split; [left; now apply Rk |]. split; auto.
      intros k Lk D. specialize (Rk k Lk). rewrite D in Rk. cbn in Rk. lia. }
  destruct X as [_ (_ & _ & _ & _ & _ & _ & F' & D)]. split; [exact F' | intros k Lk Dk; eapply D; eauto].
Qed.
