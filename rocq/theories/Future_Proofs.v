(** Proofs for C32. *)
From Coq Require Import List Bool Arith ZArith Lia.
From Verif Require Import Base Future_Model Future_Spec.
Import ListNotations.

Ltac spl := repeat match goal with |- _ /\ _ => split end.

Lemma play_app : forall n a b st, play n st (a ++ b) = match play n st a with Some st' => play n st' b | None => None end.
Proof. induction a; simpl; intros; auto. destruct (step n st a); auto. Qed.
Lemma play_last : forall n es ev st st', play n st (es ++ [ev]) = Some st' -> exists s, play n st es = Some s /\ step n s ev = Some st'.
Proof. intros n es ev st st' H. rewrite play_app in H. destruct (play n st es) as [s|]; [|discriminate]. exists s. simpl in H. destruct (step n s ev); auto. Qed.
Lemma in_snoc : forall (A : Type) (x y : A) l, In x (l ++ [y]) <-> In x l \/ x = y.
Proof. intros. rewrite in_app_iff. simpl. intuition. Qed.
Lemma signals_app : forall a b, signals (a ++ b) = signals a + signals b.
Proof. induction a as [|ev a IH]; simpl; intros; auto. destruct ev as [| | | |[]| | | |]; simpl; rewrite IH; auto. Qed.

Definition ended (es : list event) : Prop := exists r, In (Ends r) es.
Definition normal (es : list event) : Prop := forall e, ~ In (Ends (Some (Ordinary e))) es.

(** The three ways to die that no early return explains. *)
Definition good (n : nat) (st : state) (es : list event) : Prop :=
  (completed es /\ signals es = n /\ exc st = None /\ (forall e, ~ In (Ends (Some e)) es)) \/
  (beyond_exception es /\ exc st = None /\ normal es) \/ exc st <> None.

Definition tells (n : nat) (st : state) (es : list event) : Prop :=
  match th st with
  | Start | Receiving | Ready | Target => ~ ended es /\ exc st = None /\ signals es = 0
  | Sending k => completed es /\ exc st = None /\ signals es + k = n /\ 0 < k /\ (forall e, ~ In (Ends (Some e)) es)
  | Caught e => exc st = None
  | Resending k => exc st = Some CancelledError
  | Dead => good n st es \/ (In Cancel es /\ exc st = None /\ ~ ended es)
  end.

Record inv (n : nat) (st : state) (es : list event) : Prop := mk_inv {
  v_tells : tells n st es;
  v_cancel : cancelled st = true <-> In Cancel es;
  v_look1 : wt st = Look1 -> alive st = false \/ In (Poll true) es;
  v_past : wt st = Look2 \/ wt st = Look3 \/ wt st = Returned -> In (Poll true) es \/ (th st = Dead /\ good n st es);
  v_dead : wt st = Look3 \/ wt st = Returned -> th st = Dead;
  v_ret : wt st = Returned -> exc st = None;
  v_raise : forall e, wt st = Raised e -> (e = CancelledError /\ (In Cancel es \/ exc st = Some CancelledError)) \/ (e = TimeoutError /\ In (Poll true) es) \/ exc st = Some e;
  v_err : forall e, In (Ends (Some (Ordinary e))) es -> (th st = Caught e /\ exc st = None) \/
     (exc st = Some e /\ th st = Dead) \/ ((In Cancel es \/ e = CancelledError) /\ exc st = Some CancelledError)
}.

Lemma inv_initial : forall n, inv n initial [].
Proof.
  intros n. split; simpl; try discriminate; try contradiction; auto.
  - unfold tells; simpl. spl; auto. intros [r []].
  - split; [discriminate|contradiction].
  - intros [H|[H|H]]; discriminate.
  - intros [H|H]; discriminate.
Qed.

(** A step of the thread. *)
Lemma inv_thread : forall n st es ev t x s, inv n st es -> th st <> Dead -> (forall b, ev <> Poll b) -> ev <> Cancel ->
  let st' := mk_state t x (cancelled st) s (wt st) in
  (exc st = x \/ exc st = None) ->
  tells n st' (es ++ [ev]) ->
  (forall e, In (Ends (Some (Ordinary e))) (es ++ [ev]) -> (t = Caught e /\ x = None) \/ (x = Some e /\ t = Dead) \/ ((In Cancel es \/ e = CancelledError) /\ x = Some CancelledError)) ->
  inv n st' (es ++ [ev]).
Proof.
  intros n st es ev t x s V ND NP NC st' X T E. destruct V.
  assert (C : In Cancel (es ++ [ev]) <-> In Cancel es) by (rewrite in_snoc; split; auto; intros [H|H]; auto; congruence).
  split; cbn [th exc cancelled sent wt st']; auto.
  - rewrite C. auto.
  - intros H. rewrite in_snoc. destruct (v_look2 H) as [A|A]; auto. unfold alive in A. destruct (th st); try discriminate. contradiction.
  - intros H. rewrite in_snoc. destruct (v_past0 H) as [A|[A _]]; auto. contradiction.
  - intros H. apply v_dead0 in H. contradiction.
  - intros H. assert (th st = Dead) by auto. contradiction.
  - intros e H. rewrite C, in_snoc. destruct (v_raise0 e H) as [[A [B|B]]|[[A B]|A]]; auto; destruct X as [X|X]; try congruence; rewrite <- X; auto.
  - intros e H. rewrite C. auto.
Qed.

Lemma ended_snoc : forall es ev, (forall r, ev <> Ends r) -> (ended (es ++ [ev]) <-> ended es).
Proof. intros es ev N. unfold ended. split; intros [r H]; exists r; [apply in_snoc in H as [H|H]; auto; symmetry in H; apply N in H; contradiction|apply in_snoc; auto]. Qed.

Lemma sig_snoc : forall es ev, (forall u, ev <> Signal (Ok u)) -> signals (es ++ [ev]) = signals es.
Proof. intros es ev N. rewrite signals_app. destruct ev as [| | | |[u|]| | | |]; simpl; try lia. exfalso; eapply N; eauto. Qed.

Lemma good_more : forall n st st' es ev, good n st es -> exc st' = exc st -> (forall r, ev <> Ends r) -> (forall u, ev <> Signal (Ok u)) -> good n st' (es ++ [ev]).
Proof.
  intros n st st' es ev G X N1 N2. unfold good in *. rewrite X, sig_snoc by auto. destruct G as [(A & B & C & D)|[(A & B & C)|A]]; auto.
  - left. spl; auto. + apply in_snoc; auto. + intros e H. apply in_snoc in H as [H|H]; [eapply D; eauto|]. symmetry in H. eapply N1; eauto.
  - right; left. spl; auto. + destruct A as [A|A]; [left|right]; apply in_snoc; auto.
    + intros e H. apply in_snoc in H as [H|H]; [eapply C; eauto|]. symmetry in H. eapply N1; eauto.
Qed.

Lemma tells_more : forall n st st' es ev, tells n st es -> th st' = th st -> exc st' = exc st -> (forall r, ev <> Ends r) -> (forall u, ev <> Signal (Ok u)) ->
  tells n st' (es ++ [ev]).
Proof.
  intros n st st' es ev T E X N1 N2. unfold tells in *. rewrite E, X, sig_snoc by auto.
  assert (EN := ended_snoc es ev N1).
  destruct (th st); try (rewrite EN; auto; fail); auto.
  - destruct T as (A & B & C & D & F). spl; auto. + apply in_snoc; auto. + intros e H. apply in_snoc in H as [H|H]; [eapply F; eauto|]. symmetry in H. eapply N1; eauto.
  - destruct T as [T|(A & B & C)]. + left. eapply good_more; eauto. + right. rewrite EN, in_snoc. auto.
Qed.

Lemma no_ends_err : forall es ev, (forall r, ev <> Ends r) -> forall e, In (Ends (Some (Ordinary e))) (es ++ [ev]) -> In (Ends (Some (Ordinary e))) es.
Proof. intros es ev N e H. apply in_snoc in H as [H|H]; auto. symmetry in H. apply N in H. contradiction. Qed.

Lemma not_yet : forall n st es, inv n st es -> (th st = Start \/ th st = Receiving \/ th st = Ready \/ th st = Target) -> ~ ended es /\ exc st = None /\ signals es = 0.
Proof. intros n st es V H. pose proof (v_tells _ _ _ V) as T. unfold tells in T. destruct H as [H|[H|[H|H]]]; rewrite H in T; auto. Qed.

Lemma inv_step : forall n st es ev st', inv n st es -> step n st ev = Some st' -> inv n st' (es ++ [ev]).
Proof.
  intros n st es ev st' V H. destruct ev as [|r| |r|r| | |b|]; cbn [step] in H.
  - unfold thread_step in H. destruct (th st) eqn:E; try discriminate. injection H as <-. destruct (not_yet _ _ _ V) as (A & B & C); auto.
    apply inv_thread; auto; try congruence; try discriminate.
    + unfold tells. cbn [th exc]. destruct (cancelled st) eqn:Cc.
      * right. rewrite ended_snoc, in_snoc by discriminate. spl; auto. left. apply (v_cancel _ _ _ V). auto.
      * rewrite ended_snoc, sig_snoc by discriminate. auto.
    + intros e I. exfalso. apply A. apply no_ends_err in I; [|discriminate]. eexists; eauto.
  - unfold thread_step in H. destruct r as [u|e0]; destruct (th st) eqn:E; try discriminate; injection H as <-; destruct (not_yet _ _ _ V) as (A & B & C); auto;
      (apply inv_thread; auto; try congruence; try discriminate).
    + unfold tells. cbn [th exc]. rewrite ended_snoc, sig_snoc by discriminate. auto.
    + intros e I. exfalso. apply A. apply no_ends_err in I; [|discriminate]. eexists; eauto.
    + intros e I. exfalso. apply A. apply no_ends_err in I; [|discriminate]. eexists; eauto.
  - unfold thread_step in H. destruct (th st) eqn:E; try discriminate. injection H as <-. destruct (not_yet _ _ _ V) as (A & B & C); auto.
    apply inv_thread; auto; try congruence; try discriminate.
    + unfold tells. cbn [th exc]. destruct (cancelled st) eqn:Cc.
      * right. rewrite ended_snoc, in_snoc by discriminate. spl; auto. left. apply (v_cancel _ _ _ V). auto.
      * rewrite ended_snoc, sig_snoc by discriminate. auto.
    + intros e I. exfalso. apply A. apply no_ends_err in I; [|discriminate]. eexists; eauto.
  - unfold thread_step in H. destruct r as [x|]; destruct (th st) eqn:E; try (destruct x; discriminate); try discriminate; destruct (not_yet _ _ _ V) as (A & B & C); auto.
    + assert (NO : forall e, In (Ends (Some (Ordinary e))) (es ++ [Ends (Some x)]) -> x = Ordinary e).
      { intros e I. apply in_snoc in I as [I|I]; [exfalso; apply A; eexists; eauto|congruence]. }
      destruct x as [e0| |]; injection H as <-; (apply inv_thread; auto; try congruence; try discriminate).
      * intros e I. apply NO in I. injection I as ->. auto.
      * unfold tells; cbn [th exc goto]. left. right; left. spl; auto. -- left. apply in_snoc; auto. -- intros e I. apply NO in I. discriminate.
      * intros e I. apply NO in I. discriminate.
      * unfold tells; cbn [th exc goto]. left. right; left. spl; auto. -- right. apply in_snoc; auto. -- intros e I. apply NO in I. discriminate.
      * intros e I. apply NO in I. discriminate.
    + injection H as <-.
      assert (NO : forall e, ~ In (Ends (Some e)) (es ++ [Ends None])).
      { intros e I. apply in_snoc in I as [I|I]; [apply A; eexists; eauto|congruence]. }
      apply inv_thread; auto; try congruence; try discriminate.
      * unfold tells; cbn [th exc goto]. unfold sending. destruct n as [|n].
        -- left. left. rewrite sig_snoc by discriminate. spl; auto. apply in_snoc; auto.
        -- rewrite sig_snoc by discriminate. spl; auto; try lia. apply in_snoc; auto.
      * intros e I. apply NO in I. contradiction.
  - unfold thread_step in H. destruct r as [u|e0]; destruct (th st) as [| | | |[|k]| |[|k]|] eqn:E; try discriminate; injection H as <-; pose proof (v_tells _ _ _ V) as T; unfold tells in T; rewrite E in T.
    + destruct T as (A & B & C & D & F). apply inv_thread; auto; try congruence; try discriminate.
      * unfold tells; cbn [th exc]. assert (SG : signals (es ++ [Signal (Ok u)]) = S (signals es)) by (rewrite signals_app; simpl; lia).
        assert (F' : forall e, ~ In (Ends (Some e)) (es ++ [Signal (Ok u)])) by (intros e I; apply in_snoc in I as [I|I]; [eapply F; eauto|discriminate]).
        assert (A' : completed (es ++ [Signal (Ok u)])) by (apply in_snoc; auto).
        unfold sending. destruct k as [|k]; [left; left; rewrite SG; spl; auto; lia|rewrite SG; spl; auto; lia].
      * intros e I. apply no_ends_err in I; [|discriminate]. exfalso. eapply F; eauto.
    + apply inv_thread; auto; try congruence; try discriminate.
      * unfold tells; cbn [th exc]. unfold resending. destruct k; auto. left. right; right. cbn [exc goto]. rewrite T. discriminate.
      * intros e I. apply no_ends_err in I; [|discriminate]. destruct (v_err _ _ _ V e I) as [[X _]|[[_ X]|X]]; try congruence. auto.
    + destruct T as (A & B & C & D & F). apply inv_thread; auto; try congruence; try discriminate.
      intros e I. apply no_ends_err in I; [|discriminate]. exfalso. eapply F; eauto.
    + apply inv_thread; auto; try congruence; try discriminate.
      * unfold tells; cbn [th exc goto]. left. right; right. cbn [exc goto]. rewrite T. discriminate.
      * intros e I. apply no_ends_err in I; [|discriminate]. destruct (v_err _ _ _ V e I) as [[X _]|[[_ X]|X]]; try congruence. auto.
  - unfold thread_step in H. destruct (th st) eqn:E; try discriminate. pose proof (v_tells _ _ _ V) as T; unfold tells in T; rewrite E in T.
    destruct (cancelled st || is_cancel e) eqn:CC; injection H as <-; apply inv_thread; auto; try congruence; try discriminate.
    + unfold tells; cbn [th exc]. unfold resending. destruct n; auto. left. right; right. discriminate.
    + intros e1 I. apply no_ends_err in I; [|discriminate]. destruct (v_err _ _ _ V e1 I) as [[X _]|[[_ X]|[_ X]]]; try congruence.
      rewrite E in X. injection X as <-. right; right. split; auto. apply orb_true_iff in CC as [CC|CC]; [left; apply (v_cancel _ _ _ V); auto|right; destruct e; try discriminate; auto].
    + unfold tells; cbn [th exc]. left. right; right. discriminate.
    + intros e1 I. apply no_ends_err in I; [|discriminate]. destruct (v_err _ _ _ V e1 I) as [[X _]|[[_ X]|[_ X]]]; try congruence.
      rewrite E in X. injection X as <-. auto.
  - injection H as <-. destruct V. split; cbn [th exc cancelled sent wt].
    + eapply tells_more; eauto; try discriminate.
    + split; auto. intros _. apply in_snoc; auto.
    + intros H. rewrite in_snoc. destruct (v_look2 H); auto.
    + intros H. rewrite in_snoc. destruct (v_past0 H) as [A|[A B]]; auto. right. split; auto. eapply good_more; eauto; discriminate.
    + auto.
    + auto.
    + intros e H. rewrite !in_snoc. destruct (v_raise0 e H) as [[A [B|B]]|[[A B]|A]]; auto.
    + intros e H. rewrite in_snoc. apply no_ends_err in H; [|discriminate]. destruct (v_err0 e H) as [A|[A|[A B]]]; auto. destruct A; auto 6.
  - unfold waiter_step in H. destruct (wt st) eqn:W; try discriminate. injection H as <-. destruct V. split; cbn [wgoto th exc cancelled sent wt].
    + eapply tells_more; eauto; try discriminate.
    + rewrite in_snoc, v_cancel0. split; auto. intros [H|H]; auto; discriminate.
    + intros H. rewrite in_snoc. change (alive st = false \/ In (Poll true) es \/ Poll true = Poll b). destruct (alive st); auto. destruct b; auto. discriminate.
    + intros H. exfalso. destruct (negb (alive st) || b); destruct H as [H|[H|H]]; discriminate.
    + intros H. exfalso. destruct (negb (alive st) || b); destruct H as [H|H]; discriminate.
    + intros H. exfalso. destruct (negb (alive st) || b); discriminate.
    + intros e H. exfalso. destruct (negb (alive st) || b); discriminate.
    + intros e H. rewrite in_snoc. apply no_ends_err in H; [|discriminate]. destruct (v_err0 e H) as [A|[A|[A B]]]; auto. destruct A; auto 6.
  - unfold waiter_step in H.
    assert (TM : forall w, tells n (wgoto st w) (es ++ [Look])) by (intros w; destruct V; eapply tells_more; eauto; discriminate).
    assert (GM : forall w, good n st es -> good n (wgoto st w) (es ++ [Look])) by (intros w G; eapply good_more; eauto; discriminate).
    assert (VC : cancelled st = true <-> In Cancel (es ++ [Look])). { rewrite in_snoc, (v_cancel _ _ _ V). split; auto. intros [X|X]; auto; discriminate. }
    assert (VE : forall e, In (Ends (Some (Ordinary e))) (es ++ [Look]) -> (th st = Caught e /\ exc st = None) \/ (exc st = Some e /\ th st = Dead) \/ ((In Cancel (es ++ [Look]) \/ e = CancelledError) /\ exc st = Some CancelledError)).
    { intros e I. rewrite in_snoc. apply no_ends_err in I; [|discriminate]. destruct (v_err _ _ _ V e I) as [A|[A|[A B]]]; auto. destruct A; auto 6. }
    pose proof (v_tells _ _ _ V) as T. unfold tells in T.
    destruct (wt st) eqn:W; try discriminate.
    + destruct (cancelled st || match exc st with Some e => is_cancel e | None => false end) eqn:B; injection H as <-.
      * split; cbn [wgoto th exc cancelled sent wt]; auto; try discriminate.
        -- intros [H|[H|H]]; discriminate.
        -- intros [H|H]; discriminate.
        -- intros e H. injection H as <-. left. split; auto. apply orb_true_iff in B as [B|B]; [left; apply VC; auto|right]. destruct (exc st) as [e|]; [|discriminate]. destruct e; try discriminate; auto.
      * apply orb_false_iff in B as [B _]. split; cbn [wgoto th exc cancelled sent wt]; auto; try discriminate.
        -- intros _. rewrite in_snoc. destruct (v_look1 _ _ _ V W) as [A|A]; auto. right. unfold alive in A. destruct (th st) eqn:E; try discriminate. split; auto.
           destruct T as [T|[T _]]; auto. apply (v_cancel _ _ _ V) in T. congruence.
        -- intros [H|H]; discriminate.
    + destruct (alive st) eqn:AL; injection H as <-; split; cbn [wgoto th exc cancelled sent wt]; auto; try discriminate.
      * intros [H|[H|H]]; discriminate.
      * intros [H|H]; discriminate.
      * intros e H. injection H as <-. right; left. split; auto. apply in_snoc. left. destruct (v_past _ _ _ V) as [A|[A _]]; auto. unfold alive in AL. rewrite A in AL. discriminate.
      * intros _. rewrite in_snoc. destruct (v_past _ _ _ V) as [A|[A B]]; auto.
      * intros _. unfold alive in AL. destruct (th st); try discriminate. auto.
    + pose proof (v_dead _ _ _ V (or_introl W)) as D. destruct (exc st) as [e0|] eqn:X; injection H as <-; split; cbn [wgoto th exc cancelled sent wt]; auto; try discriminate.
      * intros [H|[H|H]]; discriminate.
      * intros e H. injection H as <-. rewrite X. auto.
      * rewrite X; auto.
      * intros _. rewrite in_snoc. destruct (v_past _ _ _ V) as [A|[A B]]; auto.
      * rewrite X. auto.
Qed.

Lemma inv_play : forall n es st, history n es st -> inv n st es.
Proof.
  unfold history. induction es as [|ev es IH] using rev_ind; intros st H.
  - injection H as <-. apply inv_initial.
  - apply play_last in H as (s & P & S). eapply inv_step; eauto.
Qed.

Lemma returned_means : forall n es st, history n es st -> wt st = Returned ->
  (completed es /\ signals es = n) \/ beyond_exception es \/ raced es.
Proof.
  intros n es st H W. pose proof (inv_play _ _ _ H) as V. pose proof (v_tells _ _ _ V) as T. unfold tells in T. rewrite (v_dead _ _ _ V (or_intror W)) in T.
  pose proof (v_ret _ _ _ V W) as X.
  assert (G : good n st es -> (completed es /\ signals es = n) \/ beyond_exception es \/ raced es).
  { intros [(A & B & _)|[(A & _)|A]]; auto. contradiction. }
  destruct (v_past _ _ _ V) as [P|[_ P]]; auto. destruct T as [T|(A & _ & B)]; auto. right; right. unfold raced. spl; auto. intros r I. apply B. exists r; auto.
Qed.

Lemma error_raised : forall n es st e, history n es st -> In (Ends (Some (Ordinary e))) es ->
  wt st <> Returned /\ (forall x, wt st = Raised x -> ~ In Cancel es -> e <> CancelledError -> x = e \/ (x = TimeoutError /\ In (Poll true) es)).
Proof.
  intros n es st e H I. pose proof (inv_play _ _ _ H) as V. pose proof (v_err _ _ _ V e I) as E. split.
  - intros W. pose proof (v_dead _ _ _ V (or_intror W)). pose proof (v_ret _ _ _ V W). destruct E as [[A _]|[[A _]|[_ A]]]; congruence.
  - intros x W NC NE. destruct (v_raise _ _ _ V x W) as [[A [B|B]]|[[A B]|A]]; auto; try contradiction.
    + destruct E as [[_ C]|[[C _]|[[C|C] _]]]; try contradiction; congruence.
    + destruct E as [[_ C]|[[C _]|[[C|C] _]]]; try contradiction; try congruence. left. congruence.
Qed.

Lemma no_look : forall n es st, history n es st -> ~ In Look es -> wt st = Polling \/ wt st = Look1.
Proof.
  unfold history. induction es as [|ev es IH] using rev_ind; intros st H N.
  - injection H as <-. auto.
  - apply play_last in H as (s & P & S). assert (K : wt s = Polling \/ wt s = Look1) by (apply IH; auto; intros I; apply N; apply in_snoc; auto).
    assert (NL : ev <> Look) by (intros ->; apply N; apply in_snoc; auto).
    destruct ev; try contradiction; cbn [step] in S; unfold thread_step, waiter_step in S.
    all: repeat match type of S with context [match ?x with _ => _ end] => destruct x; try discriminate end; injection S as <-; cbn [wt goto wgoto]; auto.
    all: try (destruct K; congruence).
Qed.

Lemma cancel_raises : forall n es st, history n (es ++ [Look]) st -> ~ In Look es -> In Cancel es -> wt st = Raised CancelledError.
Proof.
  intros n es st H NL C. unfold history in H. apply play_last in H as (s & P & S). pose proof (inv_play _ _ _ P) as V.
  apply (v_cancel _ _ _ V) in C. destruct (no_look _ _ _ P NL) as [W|W]; cbn [step] in S; unfold waiter_step in S; rewrite W in S; [discriminate|].
  rewrite C in S. injection S as <-. auto.
Qed.

(** ** Chains *)
Lemma chain_loop_ok : forall start timeout fs now,
  (all_return start timeout fs now -> chain_loop start timeout fs now = (List.length fs, clock start timeout fs now, Ok tt)) /\
  (~ all_return start timeout fs now -> exists k t e, chain_loop start timeout fs now = (k, t, Err e)).
Proof.
  intros start timeout fs. induction fs as [|f fs IH]; intros now; cbn [all_return chain_loop clock List.length]; [split; [auto|tauto]|].
  unfold remaining. destruct timeout as [t|].
  - destruct (Z.leb_spec t (now - start)) as [L|L].
    + split. * intros (A & _). specialize (A t eq_refl). lia. * intros _. eauto.
    + destruct (f (Some (t - (now - start))%Z) now) as [[u|e] now'] eqn:F; cbn [fst snd].
      * destruct u. destruct (IH now') as [I1 I2]. split.
        -- intros (_ & _ & A). rewrite (I1 A). auto.
        -- intros N. destruct I2 as (k & t' & e & E). { intros A. apply N. spl; auto. intros t0 T. injection T as <-. auto. } rewrite E. eauto.
      * split; [intros (_ & A & _); discriminate|eauto].
  - destruct (f None now) as [[u|e] now'] eqn:F; cbn [fst snd].
    + destruct u. destruct (IH now') as [I1 I2]. split.
      * intros (_ & _ & A). rewrite (I1 A). auto.
      * intros N. destruct I2 as (k & t' & e & E). { intros A. apply N. spl; auto. discriminate. } rewrite E. eauto.
    + split; [intros (_ & A & _); discriminate|eauto].
Qed.

Lemma chain_ok : forall timeout fs cb now,
  (all_return now timeout fs now -> chain_result timeout fs cb now = (cb, true)) /\
  (~ all_return now timeout fs now -> exists e, chain_result timeout fs cb now = (Err e, false)).
Proof.
  intros timeout fs cb now. destruct (chain_loop_ok now timeout fs now) as [A B]. unfold chain_result. split.
  - intros H. rewrite (A H). auto.
  - intros H. destruct (B H) as (k & t & e & E). rewrite E. eauto.
Qed.

Lemma chain_first : forall start timeout a f b now, all_return start timeout a now -> forall e t,
  (forall u, timeout = Some u -> (clock start timeout a now - start < u)%Z) ->
  f (match timeout with None => None | Some u => Some (u - (clock start timeout a now - start))%Z end) (clock start timeout a now) = (Err e, t) ->
  chain_loop start timeout (a ++ f :: b) now = (S (List.length a), t, Err e).
Proof.
  intros start timeout a f b. induction a as [|g a IH]; intros now AR e t T F; cbn [all_return clock chain_loop app List.length] in *.
  - unfold remaining. destruct timeout as [u|].
    + specialize (T u eq_refl). destruct (Z.leb_spec u (now - start)); [lia|]. rewrite F. auto.
    + rewrite F. auto.
  - destruct AR as (A & B & C). unfold remaining. destruct timeout as [u|].
    + specialize (A u eq_refl). destruct (Z.leb_spec u (now - start)); [lia|]. destruct (g (Some (u - (now - start))%Z) now) as [r now'] eqn:G. cbn [fst snd] in *. subst r. rewrite (IH now' C e t); auto.
    + destruct (g None now) as [r now'] eqn:G. cbn [fst snd] in *. subst r. rewrite (IH now' C e t); auto.
Qed.

Lemma chain_error : forall timeout a f b cb now e t, all_return now timeout a now ->
  (forall u, timeout = Some u -> (clock now timeout a now - now < u)%Z) ->
  f (match timeout with None => None | Some u => Some (u - (clock now timeout a now - now))%Z end) (clock now timeout a now) = (Err e, t) ->
  chain_result timeout (a ++ f :: b) cb now = (Err e, false).
Proof. intros. unfold chain_result. erewrite chain_first; eauto. Qed.
