(** Proofs for C31. *)
From Coq Require Import List Bool Arith Lia.
From Verif Require Import Base Commit_Model Commit_Spec.
Import ListNotations.

Ltac spl := repeat match goal with |- _ /\ _ => split end.

Lemma nth_set : forall (A : Type) (l : list A) i v j, nth_error (set_nth i v l) j = if Nat.eqb i j then match nth_error l j with Some _ => Some v | None => None end else nth_error l j.
Proof. induction l as [|x l IH]; intros [|i] v [|j]; simpl; auto. destruct (i =? j); auto. Qed.
Lemma len_set : forall (A : Type) (l : list A) i v, List.length (set_nth i v l) = List.length l.
Proof. induction l; destruct i; simpl; intros; auto. Qed.
Lemma in_snoc : forall (A : Type) (x y : A) l, In x (l ++ [y]) <-> In x l \/ x = y.
Proof. intros. rewrite in_app_iff. simpl. intuition. Qed.

Section C.
Variables (n : nat) (multi : bool) (primary : option nat).

Lemma play_app : forall a b st, play multi primary st (a ++ b) = match play multi primary st a with Some st' => play multi primary st' b | None => None end.
Proof. induction a; simpl; intros; auto. destruct (step multi primary st a); auto. Qed.

Lemma play_last : forall es ev st st', play multi primary st (es ++ [ev]) = Some st' -> exists s, play multi primary st es = Some s /\ step multi primary s ev = Some st'.
Proof. intros es ev st st' H. rewrite play_app in H. destruct (play multi primary st es) as [s|]; [|discriminate]. exists s. simpl in H. destruct (step multi primary s ev); auto. Qed.

Definition written (es : list event) : Prop := forall j, j < n -> In (Writes j (Ok tt)) es.
Definition renames (i : nat) (es : list event) : nat := List.length (filter (fun ev => match ev with Rename j => Nat.eqb i j | _ => false end) es).

(** What the phase of a host tells about the history. *)
Definition tells (i : nat) (p : phase) (bw bc : bool) (es : list event) : Prop :=
  match p with
  | Writing => (forall r, ~ In (Writes i r) es) /\ renames i es = 0
  | AtWrite => multi = true /\ In (Writes i (Ok tt)) es /\ renames i es = 0
  | Written | Calling => In (Writes i (Ok tt)) es /\ written es /\ renames i es = 0 /\ (multi = true -> bw = true) /\ (p = Calling -> is_primary primary i = true)
  | Renamed => written es /\ renames i es = 1 /\ is_primary primary i = true /\ (multi = true -> bw = true)
  | AtCommit => multi = true /\ written es /\ (is_primary primary i = true -> renames i es = 1) /\ (is_primary primary i = false -> renames i es = 0) /\ bw = true
  | Finished => written es /\ (is_primary primary i = true -> renames i es = 1) /\ (is_primary primary i = false -> renames i es = 0) /\ (multi = true -> bc = true /\ bw = true)
  | Failed e => renames i es <= 1 /\ (is_primary primary i = false -> renames i es = 0) /\ (renames i es = 1 -> written es)
  end.

Record inv (st : state) (es : list event) : Prop := mk_inv {
  v_len : List.length (phases st) = n;
  v_tells : forall i p, nth_error (phases st) i = Some p -> tells i p (write_open st) (commit_open st) es;
  v_write : write_open st = true -> written es;
  v_opened : write_open st = true <-> In OpenWrite es;
  v_commit : commit_open st = true -> forall i, i < n -> is_primary primary i = true -> renames i es = 1;
  v_in : forall i, n <= i -> renames i es = 0;
  v_fail : forall i e, In (Writes i (Err e)) es -> ~ In (Writes i (Ok tt)) es /\ i < n;
  v_gate : multi = true -> (exists i, In (Rename i) es) -> In OpenWrite es
}.

Lemma ren_app : forall i a b, renames i (a ++ b) = renames i a + renames i b.
Proof. intros. unfold renames. rewrite filter_app, app_length. auto. Qed.
Lemma ren_snoc : forall i es ev, (forall j, ev <> Rename j) -> renames i (es ++ [ev]) = renames i es.
Proof. intros i es ev H. rewrite ren_app. destruct ev; unfold renames at 2; simpl; try lia. exfalso; eapply H; eauto. Qed.

Lemma written_more : forall es ev, written es -> written (es ++ [ev]).
Proof. intros es ev W j L. apply in_snoc. auto. Qed.

Lemma ren_zero : forall es, (forall i, ~ In (Rename i) es) <-> forall i, renames i es = 0.
Proof.
  intros es. split.
  - intros H i. unfold renames. induction es as [|ev es IH]; auto. simpl. destruct ev; try (apply IH; intros j I; apply (H j); simpl; auto).
    exfalso. apply (H i0). simpl; auto.
  - intros H i I. specialize (H i). unfold renames in H. induction es as [|ev es IH]; [destruct I|]. simpl in H. destruct I as [->|I]; [rewrite Nat.eqb_refl in H; discriminate|].
    destruct ev; auto. destruct (Nat.eqb i i0); [discriminate|auto].
Qed.

(** Other hosts: only their own events matter for what they tell. *)
Definition about (ev : event) : option nat :=
  match ev with
  | Writes i _ | PassWrite i | Callback i | Rename i | CallbackEnds i _ | PassCommit i | TimesOut i => Some i
  | _ => None
  end.

Lemma tells_more : forall i p bw bc es ev bw' bc', tells i p bw bc es -> about ev <> Some i ->
  (bw = true -> bw' = true) -> (bc = true -> bc' = true) -> tells i p bw' bc' (es ++ [ev]).
Proof.
  intros i p bw bc es ev bw' bc' T N B1 B2.
  assert (R : renames i (es ++ [ev]) = renames i es).
  { rewrite ren_app. unfold renames at 2. simpl. destruct ev; simpl; try lia. destruct (Nat.eqb_spec i i0); [|simpl; lia]. subst. simpl in N. congruence. }
  assert (W : written es -> written (es ++ [ev])) by (apply written_more).
  assert (I1 : forall x, In x es -> In x (es ++ [ev])) by (intros; apply in_snoc; auto).
  destruct p; simpl in *; rewrite ?R; try (intuition; fail).
  destruct T as [T1 T2]. split; auto. intros r I. apply in_snoc in I as [I|I]; [eapply T1; eauto|]. subst ev. simpl in N. congruence.
Qed.

(** A step of one host. *)
Lemma inv_goto : forall st es ev i p q, inv st es -> about ev = Some i -> nth_error (phases st) i = Some p ->
  tells i q (write_open st) (commit_open st) (es ++ [ev]) ->
  (forall j, ev = Rename j -> p = Calling) ->
  (forall j r, ev = Writes j r -> p = Writing) ->
  inv (goto st i q) (es ++ [ev]).
Proof.
  intros st es ev i p q V A E T RC WC. pose proof (v_tells _ _ V i p E) as T0.
  assert (Li : i < n). { rewrite <- (v_len _ _ V). apply nth_error_Some. congruence. }
  assert (R : forall j, j <> i -> renames j (es ++ [ev]) = renames j es).
  { intros j N. rewrite ren_app. unfold renames at 2. simpl. destruct ev; simpl in *; try lia. destruct (Nat.eqb_spec j i0); [|simpl; lia]. congruence. }
  split; cbn [goto phases write_open commit_open].
  - rewrite len_set. apply (v_len _ _ V).
  - intros j x H. rewrite nth_set in H. destruct (Nat.eqb_spec i j).
    + subst j. rewrite E in H. injection H as <-. auto.
    + eapply tells_more; [apply (v_tells _ _ V j x H)|congruence|auto|auto].
  - intros H. apply written_more. apply (v_write _ _ V H).
  - rewrite in_snoc, (v_opened _ _ V). split; auto. intros [H|H]; auto. subst ev. discriminate.
  - intros H j Lj P. destruct (Nat.eq_dec j i) as [->|N]; [|rewrite R by auto; apply (v_commit _ _ V H); auto].
    pose proof (v_commit _ _ V H i Li P) as O. rewrite ren_app, O. unfold renames. simpl. destruct ev; simpl; auto.
    specialize (RC i0 eq_refl). subst p. simpl in T0. lia.
  - intros j Lj. rewrite R by lia. apply (v_in _ _ V j Lj).
  - intros j e I. rewrite in_snoc in *. destruct I as [I|I].
    + destruct (v_fail _ _ V j e I) as [X Y]. split; auto. intros [Z|Z]; auto. subst ev. specialize (WC _ _ eq_refl). simpl in A. injection A as ->. subst p. simpl in T0. destruct T0 as [T0 _]. eapply T0; eauto.
    + subst ev. simpl in A. injection A as ->. specialize (WC _ _ eq_refl). subst p. simpl in T0. destruct T0 as [T0 _]. split; auto. intros [Z|Z]; [eapply T0; eauto|discriminate].
  - intros M [j I]. rewrite in_snoc in *. destruct I as [I|I]; [left; apply (v_gate _ _ V M); eauto|]. subst ev. specialize (RC j eq_refl). subst p. simpl in T0. left. apply (v_opened _ _ V). tauto.
Qed.

Lemma all_written : forall st es, inv st es -> (forall i, i < n -> exists p, nth_error (phases st) i = Some p /\ p = AtWrite) -> written es.
Proof. intros st es V H j L. destruct (H j L) as (p & E & ->). pose proof (v_tells _ _ V j _ E) as T. simpl in T. tauto. Qed.

Lemma forallb_at : forall (f : phase -> bool) l i, forallb f l = true -> i < List.length l -> exists p, nth_error l i = Some p /\ f p = true.
Proof.
  intros f l i H L. destruct (nth_error l i) as [p|] eqn:E; [|apply nth_error_None in E; lia]. exists p. split; auto.
  rewrite forallb_forall in H. apply H. eapply nth_error_In; eauto.
Qed.

Lemma inv_initial : inv (initial n) [].
Proof.
  split; simpl; auto; try discriminate; try (intros; contradiction).
  - apply repeat_length.
  - intros i p E. assert (p = Writing). { apply nth_error_In in E. apply repeat_spec in E. auto. } subst. simpl. split; auto.
  - split; [discriminate|contradiction].
  - intros M [i []].
Qed.

Lemma inv_barrier : forall st es ev, inv st es -> about ev = None -> forall bw bc,
  (bw = true <-> In OpenWrite (es ++ [ev])) -> (write_open st = true -> bw = true) -> (commit_open st = true -> bc = true) ->
  (bw = true -> written es) -> (bc = true -> forall i, i < n -> is_primary primary i = true -> renames i es = 1) ->
  inv (mk_state (phases st) bw bc) (es ++ [ev]).
Proof.
  intros st es ev V A bw bc B0 B1 B2 B3 B4.
  assert (R : forall j, renames j (es ++ [ev]) = renames j es) by (intros; apply ren_snoc; intros k ->; discriminate).
  split; cbn [phases write_open commit_open].
  - apply (v_len _ _ V).
  - intros i p E. eapply tells_more; [apply (v_tells _ _ V i p E)|rewrite A; discriminate|auto|auto].
  - intros H. apply written_more. auto.
  - auto.
  - intros H j L P. rewrite R. auto.
  - intros j L. rewrite R. apply (v_in _ _ V j L).
  - intros j e I. rewrite in_snoc in *. destruct I as [I|I]; [|subst; discriminate]. destruct (v_fail _ _ V j e I) as [X Y]. split; auto. intros [Z|Z]; auto. subst; discriminate.
  - intros M [j I]. rewrite in_snoc in I. rewrite in_snoc. destruct I as [I|I]; [left; apply (v_gate _ _ V M); eauto|subst; discriminate].
Qed.

Lemma ren_self : forall i es, renames i (es ++ [Rename i]) = S (renames i es).
Proof. intros. rewrite ren_app. unfold renames at 2. simpl. rewrite Nat.eqb_refl. simpl. lia. Qed.

Hypothesis single : multi = false -> n = 1.

Lemma inv_step : forall st es ev st', inv st es -> step multi primary st ev = Some st' -> inv st' (es ++ [ev]).
Proof.
  intros st es ev st' V H. destruct ev as [i r| |i|i|i|i r| |i|i]; cbn [step] in H.
  - destruct (nth_error (phases st) i) as [p|] eqn:E; [|discriminate]. destruct p; try discriminate. injection H as <-.
    pose proof (v_tells _ _ V i _ E) as T. simpl in T. destruct T as [T1 T2].
    eapply inv_goto; eauto; try discriminate; try reflexivity.
    destruct r as [[]|e].
    + unfold after_writes. destruct (bool_dec multi true) as [M|M]; [rewrite M|apply not_true_is_false in M; rewrite M].
      * simpl. rewrite ren_snoc by discriminate. spl; auto. apply in_snoc; auto.
      * simpl. rewrite ren_snoc by discriminate. split; [apply in_snoc; auto|]. split; [|spl; auto; intros; congruence].
        intros j L. rewrite (single M) in L. assert (Li : i < n) by (rewrite <- (v_len _ _ V); apply nth_error_Some; congruence). rewrite (single M) in Li. apply in_snoc. right. f_equal. lia.
    + simpl. rewrite ren_snoc by discriminate. rewrite T2. spl; auto; discriminate.
  - destruct (multi && all_at_write (phases st)) eqn:B; [|discriminate]. apply andb_true_iff in B as [M B]. injection H as <-.
    apply inv_barrier; auto.
    + rewrite in_snoc. tauto.
    + intros _. eapply all_written; eauto. intros i L. rewrite <- (v_len _ _ V) in L. destruct (forallb_at _ _ i B L) as (p & E & F). exists p. split; auto. destruct p; congruence.
    + apply (v_commit _ _ V).
  - destruct (nth_error (phases st) i) as [p|] eqn:E; [|discriminate]. destruct p; try discriminate. destruct (write_open st) eqn:W; [|discriminate]. injection H as <-.
    pose proof (v_tells _ _ V i _ E) as T. simpl in T. destruct T as (T1 & T2 & T3).
    eapply inv_goto; eauto; try discriminate; try reflexivity.
    simpl. rewrite ren_snoc by discriminate. spl; auto; try discriminate; try (apply in_snoc; auto). apply written_more. apply (v_write _ _ V W).
  - destruct (nth_error (phases st) i) as [p|] eqn:E; [|discriminate]. destruct p; try discriminate. injection H as <-.
    pose proof (v_tells _ _ V i _ E) as T. simpl in T. destruct T as (T1 & T2 & T3 & T4 & _).
    eapply inv_goto; eauto; try discriminate; try reflexivity.
    destruct (is_primary primary i) eqn:P.
    + simpl. rewrite ren_snoc by discriminate. spl; auto; try (apply in_snoc; auto). apply written_more; auto.
    + unfold after_callback. destruct (bool_dec multi true) as [M|M]; [rewrite M|apply not_true_is_false in M; rewrite M]; simpl; rewrite ren_snoc by discriminate; rewrite P; spl; auto; try (intros; congruence); try (apply written_more; auto).
  - destruct (nth_error (phases st) i) as [p|] eqn:E; [|discriminate]. destruct p; try discriminate. injection H as <-.
    pose proof (v_tells _ _ V i _ E) as T. simpl in T. destruct T as (T1 & T2 & T3 & T4 & T5).
    eapply inv_goto; eauto; try discriminate; try reflexivity.
    simpl. rewrite ren_self, T3. spl; auto. apply written_more; auto.
  - destruct r as [u|e]; (destruct (nth_error (phases st) i) as [p|] eqn:E; [|discriminate]); destruct p; try discriminate; injection H as <-;
      pose proof (v_tells _ _ V i _ E) as T; simpl in T; (eapply inv_goto; eauto; try discriminate; try reflexivity).
    + destruct T as (T1 & T2 & T3 & T4). unfold after_callback. destruct (bool_dec multi true) as [M|M]; [rewrite M|apply not_true_is_false in M; rewrite M]; simpl; rewrite ren_snoc by discriminate; rewrite T3; spl; auto; try (intros; congruence); try (apply written_more; auto).
    + destruct T as (T1 & T2 & T3 & T4 & T5). simpl. rewrite ren_snoc by discriminate. rewrite T3. spl; auto. discriminate.
    + destruct T as (T1 & T2 & T3 & T4). simpl. rewrite ren_snoc by discriminate. rewrite T2. spl; auto. * congruence. * intros _. apply written_more; auto.
  - destruct (multi && all_at_commit (phases st)) eqn:B; [|discriminate]. apply andb_true_iff in B as [M B]. injection H as <-.
    apply inv_barrier; auto.
    + rewrite in_snoc, (v_opened _ _ V). split; auto. intros [?|?]; auto; discriminate.
    + apply (v_write _ _ V).
    + intros _ i L P. rewrite <- (v_len _ _ V) in L. destruct (forallb_at _ _ i B L) as (p & E & F). destruct p; try discriminate. pose proof (v_tells _ _ V i _ E) as T. simpl in T. tauto.
  - destruct (nth_error (phases st) i) as [p|] eqn:E; [|discriminate]. destruct p; try discriminate. destruct (commit_open st) eqn:W; [|discriminate]. injection H as <-.
    pose proof (v_tells _ _ V i _ E) as T. simpl in T. destruct T as (T1 & T2 & T3 & T4 & T5).
    eapply inv_goto; eauto; try discriminate; try reflexivity.
    simpl. rewrite ren_snoc by discriminate. spl; auto. apply written_more; auto.
  - destruct (nth_error (phases st) i) as [p|] eqn:E; [|discriminate]. destruct p; try discriminate; injection H as <-;
      pose proof (v_tells _ _ V i _ E) as T; simpl in T; (eapply inv_goto; eauto; try discriminate; try reflexivity); simpl; rewrite ren_snoc by discriminate.
    + destruct T as (T1 & T2 & T3). rewrite T3. spl; auto; try discriminate.
    + destruct T as (T1 & T2 & T3 & T4 & T5). spl; auto. * destruct (is_primary primary i); [rewrite T3|rewrite T4]; auto. * intros _. apply written_more; auto.
Qed.

Lemma inv_play : forall es st, play multi primary (initial n) es = Some st -> inv st es.
Proof.
  induction es as [|ev es IH] using rev_ind; intros st H.
  - injection H as <-. apply inv_initial.
  - apply play_last in H as (s & P & S). eapply inv_step; eauto.
Qed.

Lemma ren_in : forall i es, In (Rename i) es -> 1 <= renames i es.
Proof.
  intros i es I. unfold renames. induction es as [|ev es IH]; [destruct I|]. simpl. destruct I as [->|I]; [rewrite Nat.eqb_refl; simpl; lia|].
  apply IH in I. destruct ev; auto. destruct (Nat.eqb i i0); simpl; lia.
Qed.
Lemma in_ren : forall i es, renames i es <> 0 -> In (Rename i) es.
Proof.
  intros i es H. unfold renames in H. induction es as [|ev es IH]; [contradiction|]. simpl in *. destruct ev; auto.
  destruct (Nat.eqb_spec i i0); [subst; auto|auto].
Qed.

Lemma renamed_tells : forall st es i, inv st es -> In (Rename i) es -> i < n /\ written es /\ is_primary primary i = true /\ renames i es = 1.
Proof.
  intros st es i V I. apply ren_in in I. assert (L : i < n). { destruct (lt_dec i n); auto. pose proof (v_in _ _ V i ltac:(lia)). lia. }
  destruct (nth_error (phases st) i) as [p|] eqn:E; [|apply nth_error_None in E; rewrite (v_len _ _ V) in E; lia].
  pose proof (v_tells _ _ V i p E) as T. split; auto.
  destruct p; simpl in T; destruct (is_primary primary i) eqn:P; try (exfalso; lia); intuition; lia.
Qed.

(** ** Progress *)
Definition weight (p : phase) : nat :=
  match p with Writing => 7 | AtWrite => 6 | Written => 5 | Calling => 4 | Renamed => 3 | AtCommit => 2 | Finished => 0 | Failed _ => 0 end.
Definition total (st : state) : nat := fold_right Nat.add 0 (map weight (phases st)) + (if write_open st then 0 else 1) + (if commit_open st then 0 else 1).

Lemma sum_set : forall l i p q, nth_error l i = Some p -> weight q < weight p ->
  fold_right Nat.add 0 (map weight (set_nth i q l)) < fold_right Nat.add 0 (map weight l).
Proof.
  induction l as [|x l IH]; intros [|i] p q E L; simpl in *; try discriminate. - injection E as ->. lia. - specialize (IH i p q E L). lia.
Qed.

Lemma healthy_goto : forall st i q, healthy st -> (forall e, q <> Failed e) -> healthy (goto st i q).
Proof.
  intros st i q H N j [e E]. cbn [goto phases] in E. rewrite nth_set in E. destruct (Nat.eqb i j).
  - destruct (nth_error (phases st) j); [|discriminate]. injection E as ->. eapply N; eauto.
  - apply (H j). exists e. auto.
Qed.

Lemma find_not : forall (f : phase -> bool) l, forallb f l = false -> exists i p, nth_error l i = Some p /\ f p = false.
Proof.
  induction l as [|x l IH]; simpl; intros H; [discriminate|]. destruct (f x) eqn:F.
  - destruct (IH H) as (i & p & E & G). exists (S i), p. auto.
  - exists 0, x. auto.
Qed.

Lemma move : forall st i p q ev, nth_error (phases st) i = Some p -> healthy st -> (forall e, q <> Failed e) -> weight q < weight p ->
  step multi primary st ev = Some (goto st i q) -> exists ev st', step multi primary st ev = Some st' /\ healthy st' /\ total st' < total st.
Proof.
  intros st i p q ev E H N W S. exists ev, (goto st i q). spl; auto. - apply healthy_goto; auto.
  - unfold total. cbn [goto phases write_open commit_open]. pose proof (sum_set _ i p q E W). lia.
Qed.

Lemma next : forall st es, inv st es -> healthy st -> (exists i, i < n /\ ~ reports_success st i) ->
  exists ev st', step multi primary st ev = Some st' /\ healthy st' /\ total st' < total st.
Proof.
  intros st es V H (i0 & L0 & N0).
  assert (AC : after_callback multi = AtCommit \/ after_callback multi = Finished) by (unfold after_callback; destruct multi; auto).
  assert (AW : after_writes multi = AtWrite \/ after_writes multi = Written) by (unfold after_writes; destruct multi; auto).
  (* someone that can move by itself *)
  destruct (forallb (fun p => match p with AtWrite | AtCommit | Finished => true | _ => false end) (phases st)) eqn:F.
  2:{ apply find_not in F as (i & p & E & G). destruct p; try discriminate.
      - eapply (move st i _ (after_writes multi) (Writes i (Ok tt)) E); auto.
        + destruct AW as [->| ->]; discriminate. + destruct AW as [->| ->]; simpl; lia. + cbn [step]. rewrite E. auto.
      - eapply (move st i _ (if is_primary primary i then Calling else after_callback multi) (Callback i) E); auto.
        + destruct (is_primary primary i); [discriminate|destruct AC as [->| ->]; discriminate]. + destruct (is_primary primary i); [simpl; lia|destruct AC as [->| ->]; simpl; lia]. + cbn [step]. rewrite E. auto.
      - eapply (move st i _ Renamed (Rename i) E); auto. + discriminate. + cbn [step]. rewrite E. auto.
      - eapply (move st i _ (after_callback multi) (CallbackEnds i (Ok tt)) E); auto.
        + destruct AC as [->| ->]; discriminate. + destruct AC as [->| ->]; simpl; lia. + cbn [step]. rewrite E. auto.
      - exfalso. apply (H i). eexists; eauto. }
  (* open barriers *)
  destruct (write_open st) eqn:BW.
  - destruct (forallb (fun p => match p with AtWrite => false | _ => true end) (phases st)) eqn:F2.
    2:{ apply find_not in F2 as (i & p & E & G). destruct p; try discriminate.
        eapply (move st i _ Written (PassWrite i) E); auto. + discriminate. + cbn [step]. rewrite E, BW. auto. }
    destruct (commit_open st) eqn:BC.
    + destruct (forallb (fun p => match p with AtCommit => false | _ => true end) (phases st)) eqn:F3.
      2:{ apply find_not in F3 as (i & p & E & G). destruct p; try discriminate.
          eapply (move st i _ Finished (PassCommit i) E); auto. + discriminate. + simpl; lia. + cbn [step]. rewrite E, BC. auto. }
      exfalso. rewrite <- (v_len _ _ V) in L0. destruct (forallb_at _ _ i0 F L0) as (p & E & G). destruct (forallb_at _ _ i0 F2 L0) as (p2 & E2 & G2). destruct (forallb_at _ _ i0 F3 L0) as (p3 & E3 & G3).
      rewrite E in E2, E3. injection E2 as <-. injection E3 as <-. destruct p; try discriminate. apply N0. auto.
    + (* nobody is finished while the commit barrier is closed *)
      assert (M : multi = true /\ all_at_commit (phases st) = true).
      { assert (X : forall i p, nth_error (phases st) i = Some p -> multi = true -> p = AtCommit).
        { intros i p E M. assert (Li : i < List.length (phases st)) by (apply nth_error_Some; congruence).
          destruct (forallb_at _ _ i F Li) as (p1 & E1 & G1). destruct (forallb_at _ _ i F2 Li) as (p2 & E2 & G2). rewrite E in E1, E2. injection E1 as <-. injection E2 as <-.
          destruct p; try discriminate; auto. pose proof (v_tells _ _ V i _ E) as T. simpl in T. rewrite BC in T. exfalso. assert (false = true) by tauto. discriminate. }
        assert (M : multi = true).
        { rewrite <- (v_len _ _ V) in L0. destruct (forallb_at _ _ i0 F L0) as (p & E & G). destruct p; try discriminate.
          - pose proof (v_tells _ _ V i0 _ E) as T. simpl in T. tauto.
          - pose proof (v_tells _ _ V i0 _ E) as T. simpl in T. tauto.
          - exfalso. apply N0. auto. }
        split; auto. apply forallb_forall. intros p I. apply In_nth_error in I as [i E]. rewrite (X i p E M). auto. }
      exists OpenCommit, (mk_state (phases st) (write_open st) true). split. * cbn [step]. destruct M as [M1 M2]. rewrite M2, M1. simpl. reflexivity.
      * split. -- intros j [e E]. cbn [phases] in E. apply (H j). exists e; auto. -- unfold total; cbn [phases write_open commit_open]. rewrite BC, BW. cbv iota. lia.
  - assert (M : multi = true /\ all_at_write (phases st) = true).
    { assert (X : forall i p, nth_error (phases st) i = Some p -> multi = true -> p = AtWrite).
      { intros i p E M. assert (Li : i < List.length (phases st)) by (apply nth_error_Some; congruence).
        destruct (forallb_at _ _ i F Li) as (p1 & E1 & G1). rewrite E in E1. injection E1 as <-.
        destruct p; try discriminate; auto; exfalso; pose proof (v_tells _ _ V i _ E) as T; simpl in T.
        - destruct T as (_ & _ & _ & _ & T). congruence.
        - destruct T as (_ & _ & _ & T). destruct (T M). congruence. }
      assert (M : multi = true).
      { rewrite <- (v_len _ _ V) in L0. destruct (forallb_at _ _ i0 F L0) as (p & E & G). destruct p; try discriminate.
        - pose proof (v_tells _ _ V i0 _ E) as T. simpl in T. tauto.
        - pose proof (v_tells _ _ V i0 _ E) as T. simpl in T. tauto.
        - exfalso. apply N0. auto. }
      split; auto. apply forallb_forall. intros p I. apply In_nth_error in I as [i E]. rewrite (X i p E M). auto. }
    exists OpenWrite, (mk_state (phases st) true (commit_open st)). split. + cbn [step]. destruct M as [M1 M2]. rewrite M2, M1. simpl. reflexivity.
    + split. * intros j [e E]. cbn [phases] in E. apply (H j). exists e; auto. * unfold total; cbn [phases write_open commit_open]. rewrite BW. cbv iota. lia.
Qed.

Lemma finish : forall k st es, total st <= k -> inv st es -> healthy st ->
  exists more st', play multi primary st more = Some st' /\ inv st' (es ++ more) /\ forall i, i < n -> reports_success st' i.
Proof.
  induction k as [|k IH]; intros st es L V H;
    destruct (forallb (fun p => match p with Finished => true | _ => false end) (phases st)) eqn:F.
  1,3: exists [], st; rewrite app_nil_r; spl; auto; intros i Li; rewrite <- (v_len _ _ V) in Li;
    destruct (forallb_at _ _ i F Li) as (p & E & G); destruct p; try discriminate; exact E.
  all: assert (X : exists i, i < n /\ ~ reports_success st i) by
    (apply find_not in F as (i & p & E & G); exists i; split;
       [rewrite <- (v_len _ _ V); apply nth_error_Some; congruence|unfold reports_success; rewrite E; intros Y; injection Y as ->; discriminate]);
    destruct (next st es V H X) as (ev & st1 & S & H1 & L1).
  - lia.
  - destruct (IH st1 (es ++ [ev])) as (more & st' & P & V' & A); [lia|eapply inv_step; eauto|auto|].
    exists (ev :: more), st'. cbn [play]. rewrite S, <- app_assoc in *. spl; auto.
Qed.
End C.

Lemma primary_charge : forall p i, is_primary p i = true <-> in_charge p i.
Proof.
  intros [p|] i; unfold in_charge; simpl. - rewrite Nat.eqb_eq. split; [intros ->; auto|intros [H|H]; [discriminate|congruence]].
  - tauto.
Qed.

Lemma commit_after : forall n multi primary es st i, history n multi primary es st -> committed_by i es ->
  in_charge primary i /\ i < n /\ forall j, j < n -> In (Writes j (Ok tt)) es.
Proof.
  intros n multi primary es st i [S P] C. pose proof (inv_play n multi primary S es st P) as V.
  destruct (renamed_tells _ _ _ S _ _ _ V C) as (L & W & Q & _). spl; auto. apply primary_charge; auto.
Qed.

Lemma count_one : forall es p, (forall i, In (Rename i) es -> i = p) -> times_committed es = renames p es.
Proof.
  intros es p H. unfold times_committed, renames. induction es as [|ev es IH]; auto. simpl.
  assert (H' : forall i, In (Rename i) es -> i = p) by (intros; apply H; simpl; auto).
  destruct ev; auto. rewrite (H i (or_introl eq_refl)), Nat.eqb_refl. simpl. rewrite IH; auto.
Qed.

Lemma commit_once : forall n multi p es st, history n multi (Some p) es st -> times_committed es <= 1 /\ forall i, committed_by i es -> i = p.
Proof.
  intros n multi p es st [S P]. pose proof (inv_play n multi (Some p) S es st P) as V.
  assert (H : forall i, In (Rename i) es -> i = p).
  { intros i I. destruct (renamed_tells _ _ _ S _ _ _ V I) as (_ & _ & Q & _). simpl in Q. apply Nat.eqb_eq in Q. auto. }
  split; auto. rewrite (count_one es p H). destruct (Nat.eq_dec (renames p es) 0) as [E|N]; [lia|].
  apply in_ren in N. destruct (renamed_tells _ _ _ S _ _ _ V N) as (_ & _ & _ & E). lia.
Qed.

Lemma success_means : forall n multi primary es st i j, history n multi primary es st -> reports_success st i ->
  j < n -> in_charge primary j -> committed_by j es.
Proof.
  intros n multi primary es st i j [S P] R L C. pose proof (inv_play n multi primary S es st P) as V. apply primary_charge in C.
  pose proof (v_tells _ _ _ _ _ V i _ R) as T. simpl in T. destruct T as (_ & T1 & _ & T2). apply in_ren. destruct (bool_dec multi true) as [M|M].
  - destruct (T2 M) as [B _]. rewrite (v_commit _ _ _ _ _ V B j L C). lia.
  - apply not_true_is_false in M. assert (i < n) by (rewrite <- (v_len _ _ _ _ _ V); apply nth_error_Some; unfold reports_success in R; congruence).
    rewrite (S M) in *. assert (i = j) by lia. subst j. rewrite T1; auto.
Qed.

Lemma failed_writes : forall n multi primary es st i j e, history n multi primary es st -> In (Writes j (Err e)) es -> ~ committed_by i es.
Proof.
  intros n multi primary es st i j e [S P] F C. pose proof (inv_play n multi primary S es st P) as V.
  destruct (renamed_tells _ _ _ S _ _ _ V C) as (_ & W & _). destruct (v_fail _ _ _ _ _ V j e F) as [X L]. apply X. apply W. auto.
Qed.

Lemma dead_barrier : forall multi primary es st st', play multi primary st es = Some st' -> write_open st = false ->
  (exists j, reports_failure st j) -> write_open st' = false.
Proof.
  intros multi primary es. induction es as [|ev es IH]; intros st st' P W (j & e & E); [injection P as <-; auto|].
  cbn [play] in P. destruct (step multi primary st ev) as [s|] eqn:S; [|discriminate].
  assert (G : write_open s = false /\ nth_error (phases s) j = Some (Failed e)); [|destruct G; eapply IH; eauto; exists j, e; auto].
  assert (K : forall i p q, nth_error (phases st) i = Some p -> (forall e, p <> Failed e) -> nth_error (phases (goto st i q)) j = Some (Failed e)).
  { intros i p q Ei N. cbn [goto phases]. rewrite nth_set. destruct (Nat.eqb_spec i j); auto. subst. rewrite E in Ei. injection Ei as <-. exfalso. eapply N; eauto. }
  destruct ev as [i r| |i|i|i|i r| |i|i]; cbn [step] in S.
  2:{ destruct (multi && all_at_write (phases st)) eqn:B; [|discriminate]. apply andb_true_iff in B as [_ B]. unfold all_at_write in B. rewrite forallb_forall in B.
      apply nth_error_In in E. apply B in E. discriminate. }
  6:{ destruct (multi && all_at_commit (phases st)) eqn:B; [|discriminate]. injection S as <-. auto. }
  5:{ destruct r; (destruct (nth_error (phases st) i) as [p|] eqn:Ei; [|discriminate]); destruct p; try discriminate; injection S as <-; (split; [auto|eapply K; eauto; discriminate]). }
  all: (destruct (nth_error (phases st) i) as [p|] eqn:Ei; [|discriminate]); destruct p; try discriminate; try rewrite W in S; try discriminate;
    try (destruct (commit_open st); [|discriminate]); injection S as <-; (split; [auto|eapply K; eauto; discriminate]).
Qed.

Lemma early_timeout : forall n primary a b st i j, history n true primary (a ++ TimesOut j :: b) st -> ~ In OpenWrite a -> ~ committed_by i (a ++ TimesOut j :: b).
Proof.
  intros n primary a b st i j [S P] N C. pose proof (inv_play n true primary S _ st P) as V.
  assert (O : In OpenWrite (a ++ TimesOut j :: b)) by (apply (v_gate _ _ _ _ _ V eq_refl); exists i; auto).
  apply (v_opened _ _ _ _ _ V) in O.
  replace (a ++ TimesOut j :: b) with ((a ++ [TimesOut j]) ++ b) in P by (rewrite <- app_assoc; auto).
  rewrite play_app in P. destruct (play true primary (initial n) (a ++ [TimesOut j])) as [s|] eqn:Ps; [|discriminate].
  pose proof (inv_play n true primary S _ s Ps) as Vs.
  assert (W : write_open s = false).
  { destruct (write_open s) eqn:W; auto. apply (v_opened _ _ _ _ _ Vs) in W. apply in_snoc in W as [W|W]; [contradiction|discriminate]. }
  rewrite (dead_barrier true primary b s st P W) in O; [discriminate|].
  apply play_last in Ps as (s0 & _ & St). cbn [step] in St. exists j, TimeoutError.
  destruct (nth_error (phases s0) j) as [p|] eqn:E; [|discriminate]. destruct p; try discriminate; injection St as <-; cbn [goto phases]; rewrite nth_set, Nat.eqb_refl, E; auto.
Qed.

Lemma progress : forall n multi primary es st, history n multi primary es st -> healthy st ->
  exists more st', history n multi primary (es ++ more) st' /\ forall i, i < n -> reports_success st' i.
Proof.
  intros n multi primary es st [S P] H. pose proof (inv_play n multi primary S es st P) as V.
  destruct (finish n multi primary S (total st) st es (Nat.le_refl _) V H) as (more & st' & P' & _ & A).
  exists more, st'. split; auto. split; auto. rewrite play_app, P. auto.
Qed.
