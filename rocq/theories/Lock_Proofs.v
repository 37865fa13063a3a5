(** Proofs for C34 and C49. *)
From Coq Require Import List Bool Arith Lia.
From Verif Require Import Base Lock_Model Lock_Spec.
Import ListNotations.

Ltac spl := repeat match goal with |- _ /\ _ => split end.

Lemma nth_set : forall (A : Type) (l : list A) i j v, nth_error (set_nth i v l) j = if Nat.eqb i j then (match nth_error l j with Some _ => Some v | None => None end) else nth_error l j.
Proof. induction l as [|a l IH]; intros i j v; destruct i, j; simpl; auto. destruct (Nat.eqb i j); auto. Qed.

Definition busy (p : phase) : nat := match p with Running => 0 | _ => 1 end.
Definition out (th : thread) : Prop := th = mk_thread Running 0.

(** ** Without timeouts *)
Record inv (st : state) : Prop := mk_inv {
  v_none : owner st = None -> forall u th, nth_error (threads st) u = Some th -> out th;
  v_some : forall t c, owner st = Some (t, c) -> exists th, nth_error (threads st) t = Some th /\ c = depth th + busy (ph th) /\ c > 0 /\
            forall u th', u <> t -> nth_error (threads st) u = Some th' -> out th';
  v_flag : forall t th, nth_error (threads st) t = Some th -> depth th > 0 \/ ph th = Assigned -> acquired st = true;
  v_got : forall t th b, nth_error (threads st) t = Some th -> ph th = Got b -> b = true
}.

Lemma inv_initial : forall n, inv (initial n).
Proof.
  intros n. assert (A : forall u th, nth_error (repeat (mk_thread Running 0) n) u = Some th -> out th) by (intros u th H; apply nth_error_In, repeat_spec in H; auto).
  split; simpl; auto; try discriminate.
  - intros t th H [D|D]; apply A in H; rewrite H in D; simpl in D; [lia|discriminate].
  - intros t th b H D; apply A in H; rewrite H in D; discriminate.
Qed.

(** The owner is the only thread that is not out. *)
Lemma not_out_owner : forall st t th, inv st -> nth_error (threads st) t = Some th -> ~ out th -> exists c, owner st = Some (t, c).
Proof.
  intros st t th V T N. destruct (owner st) as [[u c]|] eqn:O.
  - destruct (Nat.eq_dec t u) as [->|D]; eauto. destruct (v_some _ V u c O) as (x & _ & _ & _ & A). exfalso. apply N. eapply A; eauto.
  - exfalso. apply N. eapply v_none; eauto.
Qed.

Lemma inv_change : forall st t th th' o a, inv st -> nth_error (threads st) t = Some th ->
  (forall u x, u <> t -> nth_error (threads st) u = Some x -> out x) ->
  match o with None => out th' | Some (u, c) => u = t /\ c = depth th' + busy (ph th') /\ c > 0 end ->
  (depth th' > 0 \/ ph th' = Assigned -> a = true) -> (forall b, ph th' = Got b -> b = true) ->
  inv (set_thread st o a t th').
Proof.
  intros st t th th' o a V T A O F G.
  assert (N : forall u x, nth_error (set_nth t th' (threads st)) u = Some x -> (u = t /\ x = th') \/ (u <> t /\ nth_error (threads st) u = Some x)).
  { intros u x H. rewrite nth_set in H. destruct (Nat.eqb_spec t u) as [->|D]; auto. rewrite T in H. injection H as <-. auto. }
  split; cbn [set_thread owner acquired threads].
  - intros -> u x H. apply N in H as [[-> ->]|[D H]]; eauto.
  - intros u c ->. destruct O as (-> & C & P). exists th'. spl; auto.
    + rewrite nth_set, Nat.eqb_refl, T. auto.
    + intros w x D H. apply N in H as [[-> ->]|[_ H]]; [congruence|eauto].
  - intros u x H. apply N in H as [[-> ->]|[D H]]; auto. apply A in H; auto. rewrite H. simpl. intros [X|X]; [lia|discriminate].
  - intros u x b H. apply N in H as [[-> ->]|[D H]]; auto. apply A in H; auto. rewrite H. discriminate.
Qed.

Lemma inv_step : forall st e st', inv st -> step st e = Some st' ->
  match e with Acquire t => match owner st with Some (u, _) => u = t | None => True end | _ => True end -> inv st'.
Proof.
  intros st e st' V H Q. destruct e as [t|t|t|t]; cbn [step] in H; destruct (nth_error (threads st) t) as [[p d]|] eqn:T; try discriminate.
  - destruct p; try discriminate. destruct (owner st) as [[u c]|] eqn:O.
    + subst u. cbn [take] in H. rewrite Nat.eqb_refl in H. injection H as <-. destruct (v_some _ V t c O) as (th & T' & C & P & A). rewrite T in T'. injection T' as <-. simpl in C.
      eapply inv_change; eauto; simpl.
      * spl; auto; lia.
      * intros [X|X]; [|discriminate]. eapply (v_flag _ V); eauto.
      * intros b X. congruence.
    + cbn [take] in H. injection H as <-. pose proof (v_none _ V O) as A. pose proof (A _ _ T) as X. injection X as ->. eapply inv_change; eauto; simpl.
      * intros [X|X]; [lia|discriminate].
      * intros b X. congruence.
  - destruct p as [|ok|]; try discriminate. injection H as <-. destruct (not_out_owner _ _ _ V T) as (c & O); [intros X; discriminate|].
    destruct (v_some _ V t c O) as (th & T' & C & P & A). rewrite T in T'. injection T' as <-. simpl in C. pose proof (v_got _ V _ _ ok T eq_refl). subst ok.
    eapply inv_change; eauto; simpl; auto. rewrite O. spl; auto. discriminate.
  - destruct p as [|ok|]; try discriminate. injection H as <-. destruct (not_out_owner _ _ _ V T) as (c & O); [intros X; discriminate|].
    destruct (v_some _ V t c O) as (th & T' & C & P & A). rewrite T in T'. injection T' as <-. simpl in C. pose proof (v_flag _ V _ _ T (or_intror eq_refl)) as F.
    rewrite F. eapply inv_change; eauto; simpl; auto. rewrite O. spl; auto; lia. discriminate.
  - destruct p as [|ok|]; try discriminate. destruct d as [|d]; [discriminate|]. injection H as <-. destruct (not_out_owner _ _ _ V T) as (c & O); [intros X; discriminate|].
    destruct (v_some _ V t c O) as (th & T' & C & P & A). rewrite T in T'. injection T' as <-. simpl in C. assert (F : acquired st = true) by (eapply (v_flag _ V); eauto; simpl; lia).
    rewrite F. eapply inv_change; eauto; simpl; auto; [|discriminate]. rewrite O. cbn [release]. rewrite Nat.eqb_refl. destruct c as [|[|c]]; [lia| |spl; auto; lia]. unfold out. f_equal. lia.
Qed.

Lemma inv_play : forall es st st', inv st -> no_timeout st es -> play st es = Some st' -> inv st'.
Proof.
  induction es as [|e es IH]; simpl; intros st st' V Q H; [congruence|]. destruct Q as [Q1 Q2]. destruct (step st e) as [s|] eqn:S; [|discriminate]. apply (IH s); auto. eapply inv_step; eauto.
Qed.

Lemma works : forall n es st, run n es st -> no_timeout (initial n) es -> exclusive st /\ (all_out st -> free st).
Proof.
  intros n es st R Q. pose proof (inv_play _ _ _ (inv_initial n) Q R) as V. split.
  - intros t u (a & TA & DA) (b & TB & DB).
    destruct (not_out_owner _ _ _ V TA) as (c & O); [intros X; rewrite X in DA; simpl in DA; lia|].
    destruct (not_out_owner _ _ _ V TB) as (c' & O'); [intros X; rewrite X in DB; simpl in DB; lia|]. congruence.
  - intros A. unfold free. destruct (owner st) as [[t c]|] eqn:O; auto. destruct (v_some _ V t c O) as (th & T & C & P & _). apply A in T. subst th. simpl in C. lia.
Qed.

(** ** Entering in one step *)
Record ainv (st : state) : Prop := mk_ainv {
  a_run : forall t th, nth_error (threads st) t = Some th -> ph th = Running;
  a_in : forall t th, nth_error (threads st) t = Some th -> depth th > 0 -> exists c, owner st = Some (t, c) /\ depth th <= c
}.

Lemma ainv_change : forall st t th d o a, ainv st -> nth_error (threads st) t = Some th ->
  (d > 0 -> exists c, o = Some (t, c) /\ d <= c) ->
  (forall u x, u <> t -> nth_error (threads st) u = Some x -> depth x > 0 -> exists c, o = Some (u, c) /\ depth x <= c) ->
  ainv (mk_state o a (set_nth t (mk_thread Running d) (threads st))).
Proof.
  intros st t th d o a V T D A. split; cbn [owner threads].
  - intros u x H. rewrite nth_set in H. destruct (Nat.eqb t u); [destruct (nth_error (threads st) u); [injection H as <-; auto|discriminate]|]. eapply a_run; eauto.
  - intros u x H. rewrite nth_set in H. destruct (Nat.eqb_spec t u) as [->|N]; [rewrite T in H; injection H as <-; simpl; auto|]. eauto.
Qed.

Lemma set_set : forall (A : Type) (l : list A) i a b, set_nth i b (set_nth i a l) = set_nth i b l.
Proof. induction l; destruct i; simpl; intros; auto. f_equal; auto. Qed.

Lemma ainv_action : forall st a st', ainv st -> play st (as_events a) = Some st' -> ainv st'.
Proof.
  intros st a st' V H. destruct a as [t|t]; cbn [as_events play step] in H; destruct (nth_error (threads st) t) as [[p d]|] eqn:T; try discriminate; pose proof (a_run _ V _ _ T) as R; simpl in R; subst p.
  - destruct (take t (owner st)) as [o|] eqn:K; cbn [set_thread threads owner acquired] in H.
    + rewrite nth_set, Nat.eqb_refl, T in H. cbn [set_thread threads owner acquired] in H. rewrite !nth_set, Nat.eqb_refl, T in H. injection H as <-. unfold set_thread. cbn [threads]. rewrite !set_set.
      unfold take in K. destruct (owner st) as [[u c]|] eqn:O.
      * destruct (Nat.eqb_spec t u) as [->|N]; [|discriminate]. injection K as <-. eapply ainv_change; eauto.
        -- intros _. exists (S c). split; auto. destruct d as [|d]; [lia|]. destruct (a_in _ V _ _ T) as (c' & O' & L); [simpl; lia|]. simpl in L. rewrite O in O'. injection O' as <-. lia.
        -- intros w x N W D. destruct (a_in _ V _ _ W D) as (c' & O' & L). rewrite O in O'. congruence.
      * injection K as <-. eapply ainv_change; eauto.
        -- intros _. exists 1. split; auto. destruct d as [|d]; [lia|]. destruct (a_in _ V _ _ T) as (c' & O' & L); [simpl; lia|]. congruence.
        -- intros w x N W D. destruct (a_in _ V _ _ W D) as (c' & O' & L). congruence.
    + rewrite nth_set, Nat.eqb_refl, T in H. cbn [set_thread threads owner acquired] in H. rewrite !nth_set, Nat.eqb_refl, T in H. injection H as <-. unfold set_thread. cbn [threads]. rewrite !set_set.
      eapply ainv_change; eauto.
      * intros D. apply (a_in _ V _ _ T D).
      * intros w x N W D. apply (a_in _ V _ _ W D).
  - destruct d as [|d]; [discriminate|]. injection H as <-. unfold set_thread. destruct (a_in _ V _ _ T) as (c & O & L); [simpl; lia|]. simpl in L. rewrite O.
    eapply ainv_change; eauto.
    + intros D. destruct (acquired st); [|exists c; split; auto; lia]. cbn [release]. rewrite Nat.eqb_refl. destruct c as [|[|c]]; try lia. exists (S c). split; auto. lia.
    + intros w x N W D. destruct (a_in _ V _ _ W D) as (c' & O' & _). congruence.
Qed.

Lemma play_app : forall a b st, play st (a ++ b) = match play st a with Some st' => play st' b | None => None end.
Proof. induction a; simpl; intros; auto. destruct (step st a); auto. Qed.

Lemma exclusive_atomic : forall acts n st, run n (flat_map as_events acts) st -> exclusive st.
Proof.
  intros acts n st R. unfold run in R.
  assert (V : ainv st).
  { assert (V0 : ainv (initial n)).
    { assert (A : forall u th, nth_error (repeat (mk_thread Running 0) n) u = Some th -> out th) by (intros u th H; apply nth_error_In, repeat_spec in H; auto).
      split; simpl; intros t th H; apply A in H; rewrite H; auto. simpl. lia. }
    revert R V0. generalize (initial n). induction acts as [|a acts IH]; simpl; intros s R V; [congruence|].
    rewrite play_app in R. destruct (play s (as_events a)) as [s'|] eqn:P; [|discriminate]. apply (IH s'); auto. eapply ainv_action; eauto. }
  intros t u (a & TA & DA) (b & TB & DB). destruct (a_in _ V _ _ TA DA) as (c & O & _). destruct (a_in _ V _ _ TB DB) as (c' & O' & _). congruence.
Qed.

(** ** The list *)
Section Infos.
Variable info : Type.

Definition agrees (s : infos info) (select : info -> bool) : Prop :=
  match deleting info s with
  | None => True
  | Some (Looping _ i kept f) => f = select /\ i <= List.length (list_of info s) /\ kept = filter (fun x => negb (f x)) (firstn i (list_of info s))
  | Some (Replacing _ kept f) => f = select /\ kept = filter (fun x => negb (f x)) (list_of info s)
  end.

Lemma firstn_snoc : forall (A : Type) (l : list A) i x, nth_error l i = Some x -> firstn (S i) l = firstn i l ++ [x].
Proof. induction l as [|a l IH]; intros [|i] x H; simpl in *; try discriminate; [injection H as ->; auto|]. f_equal. apply IH; auto. Qed.

Lemma infos_ok : forall es s s' f, agrees s f -> calm info s es -> infos_play info s es = Some s' -> list_of info s' = should_be info (list_of info s) f es.
Proof.
  induction es as [|e es IH]; simpl; intros s s' f A C H; [congruence|]. destruct C as [C1 C2]. destruct (infos_step info s e) as [s1|] eqn:S; [|discriminate].
  unfold agrees in A. destruct e as [x|l|g| |]; cbn [infos_step] in S.
  - injection S as <-. apply (IH _ _ f) in H; auto. unfold agrees. cbn [deleting list_of]. destruct (deleting info s) as [[i kept g|kept g]|]; auto; [|contradiction].
    destruct A as (-> & L & K). rewrite app_length. simpl. spl; auto; [lia|]. rewrite firstn_app. replace (i - List.length (list_of info s)) with 0 by lia. simpl. rewrite app_nil_r. auto.
  - destruct (deleting info s) eqn:D; [discriminate|]. injection S as <-. apply (IH _ _ f) in H; auto.
  - destruct (deleting info s) eqn:D; [discriminate|]. injection S as <-. apply (IH _ _ g) in H; auto. unfold agrees. simpl. spl; auto; lia.
  - destruct (deleting info s) as [[i kept g|kept g]|] eqn:D; try discriminate. destruct A as (-> & L & K).
    destruct (nth_error (list_of info s) i) as [x|] eqn:N; injection S as <-; apply (IH _ _ f) in H; auto; unfold agrees; cbn [deleting list_of]; spl; auto.
    + assert (i < List.length (list_of info s)) by (apply nth_error_Some; congruence). lia.
    + rewrite (firstn_snoc _ _ _ _ N), filter_app, K. simpl. destruct (f x); simpl; auto. rewrite app_nil_r. auto.
    + apply nth_error_None in N. rewrite K. f_equal. apply firstn_all2. auto.
  - destruct (deleting info s) as [[i kept g|kept g]|] eqn:D; try discriminate. destruct A as (-> & K). injection S as <-. apply (IH _ _ f) in H; auto. simpl in H. congruence.
Qed.

Lemma infos_atomic : forall l f es s, infos_play info (start info l) es = Some s -> calm info (start info l) es ->
  list_of info s = should_be info l f es.
Proof. intros l f es s H C. apply (infos_ok es (start info l) s f); auto. unfold agrees. simpl. auto. Qed.

End Infos.
