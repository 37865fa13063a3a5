(** Proofs for C30. *)
From Coq Require Import List Bool Arith Lia.
From Verif Require Import Base Async_Model Async_Spec.
Import ListNotations.

Ltac spl := repeat match goal with |- _ /\ _ => split end.

Lemma nth_set : forall (A : Type) (l : list A) i v j, nth_error (set_nth i v l) j = if Nat.eqb i j then match nth_error l j with Some _ => Some v | None => None end else nth_error l j.
Proof.
  induction l as [|x l IH]; intros [|i] v [|j]; simpl; auto. - destruct (i =? j); auto.
Qed.
Lemma len_set : forall (A : Type) (l : list A) i v, List.length (set_nth i v l) = List.length l.
Proof. induction l; destruct i; simpl; intros; auto. Qed.

Lemma play_app : forall a b st, play st (a ++ b) = match play st a with Some st' => play st' b | None => None end.
Proof. induction a; simpl; intros; auto. destruct (step st a); auto. Qed.

Lemma play_last : forall es ev st st', play st (es ++ [ev]) = Some st' -> exists s, play st es = Some s /\ step s ev = Some st'.
Proof. intros es ev st st' H. rewrite play_app in H. destruct (play st es) as [s|]; [|discriminate]. exists s. simpl in H. destruct (step s ev); auto. Qed.

Lemma surf_app : forall i a b, surfacings i (a ++ b) = surfacings i a + surfacings i b.
Proof. induction a as [|[c []| | |] a IH]; simpl; intros; auto. rewrite IH. lia. Qed.

Lemma in_snoc : forall (A : Type) (x y : A) l, In x (l ++ [y]) <-> In x l \/ x = y.
Proof. intros. rewrite in_app_iff. simpl. intuition. Qed.

Record inv (st : state) (es : list event) : Prop := mk_inv {
  i_handle : forall i, handle st = Some i -> S i = List.length (threads st);
  i_alive : forall i t, nth_error (threads st) i = Some t -> t <> Dead -> handle st = Some i;
  i_exc : forall i e, exception st = Some (i, e) ->
    handle st = Some i /\ nth_error (threads st) i = Some Dead /\ In (Ends i (Err e)) es /\ e <> CancelledError /\ surfacings i es = 0;
  i_raised : forall i e, nth_error (threads st) i = Some (Raised e) -> In (Ends i (Err e)) es;
  i_storing : forall i e, nth_error (threads st) i = Some (Storing e) -> In (Ends i (Err e)) es /\ e <> CancelledError;
  i_fresh : forall i t, nth_error (threads st) i = Some t -> t <> Dead -> surfacings i es = 0 /\ forall e, exception st <> Some (i, e);
  i_dead : forall i, nth_error (threads st) i = Some Dead ->
    In (Ends i (Ok tt)) es \/ In (Ends i (Err CancelledError)) es \/ ((exists e, In (Ends i (Err e)) es) /\
      (cancelled i es \/ (exists e, exception st = Some (i, e)) \/ exists c e, In (Call c (Surfaced i e)) es));
  i_beyond : forall i, List.length (threads st) <= i -> surfacings i es = 0 /\ (forall r, ~ In (Ends i r) es) /\ ~ was_started i es;
  i_started : forall i, i < List.length (threads st) -> was_started i es;
  i_flag : cancel_requested st = true -> exists i, S i = List.length (threads st) /\ cancelled i es;
  i_once : forall i, surfacings i es <= 1;
  i_last : forall i, S i = List.length (threads st) -> exists a c b, es = a ++ Call c (Started i) :: b /\ no_start b;
  i_surf : forall c i e, In (Call c (Surfaced i e)) es -> In (Ends i (Err e)) es /\ e <> CancelledError
}.

Lemma inv_initial : inv initial [].
Proof.
  split; simpl; intros; try discriminate; try contradiction; try lia; auto.
  - destruct i; discriminate.
  - destruct i; discriminate.
  - destruct i; discriminate.
  - destruct i; discriminate.
  - destruct i; discriminate.
  - spl; auto. intros [c []].
Qed.

Lemma cancelled_more : forall i es x, cancelled i es -> cancelled i (es ++ x).
Proof.
  intros i es x (a & c & b & d & -> & N). exists a, c, b, (d ++ x). split; auto.
  rewrite <- app_assoc. simpl. rewrite <- app_assoc. auto.
Qed.

Lemma no_start_snoc : forall b ev, no_start b -> (forall c i, ev <> Call c (Started i)) -> no_start (b ++ [ev]).
Proof. intros b ev H N c i I. apply in_snoc in I as [I| I]; [eapply H; eauto|]. symmetry in I. eapply N; eauto. Qed.

(** What stays true whatever is appended, as long as it starts nothing. *)
Lemma last_more : forall i es ev, (exists a c b, es = a ++ Call c (Started i) :: b /\ no_start b) ->
  (forall c j, ev <> Call c (Started j)) -> exists a c b, es ++ [ev] = a ++ Call c (Started i) :: b /\ no_start b.
Proof.
  intros i es ev (a & c & b & -> & N) H. exists a, c, (b ++ [ev]). split; [rewrite <- app_assoc; auto|]. apply no_start_snoc; auto.
Qed.

Lemma started_snoc : forall i es ev, (forall c j, ev <> Call c (Started j)) -> (was_started i (es ++ [ev]) <-> was_started i es).
Proof.
  intros i es ev N. unfold was_started. split; intros [c H]; exists c.
  - apply in_snoc in H as [H|H]; auto. symmetry in H. apply N in H. contradiction.
  - apply in_snoc; auto.
Qed.

(** A step of thread [k] that changes it and perhaps stores an exception. *)
Ltac inx := repeat rewrite in_snoc in *.

Definition quiet (ev : event) : Prop := match ev with Call _ (Started _) | Call _ (Surfaced _ _) => False | _ => True end.

Lemma surf_quiet : forall i es ev, quiet ev -> surfacings i (es ++ [ev]) = surfacings i es.
Proof. intros i es ev Q. rewrite surf_app. destruct ev as [c []| | |]; simpl in *; try contradiction; lia. Qed.

Lemma quiet_start : forall ev, quiet ev -> forall c j, ev <> Call c (Started j).
Proof. intros ev Q c j ->. auto. Qed.

(** The call part: fields only. *)
Lemma inv_fields : forall st es ev h x f, inv st es -> quiet ev ->
  (forall i r, ev <> Ends i r) ->
  (h = handle st \/ (h = None /\ joinable st = true)) ->
  (x = exception st \/ (x = None /\ ((cancel_requested st = true) \/ exception st = None))) ->
  (h = None -> x = None) ->
  (f = true -> cancel_requested st = true \/ (ev = Call Cancel Returned /\ handle st <> None)) ->
  inv (mk_state (threads st) h x f) (es ++ [ev]).
Proof.
  intros st es ev h x f V Q NE Hh Hx Hhx Hf. destruct V. split; cbn [threads handle exception cancel_requested].
  - intros i E. destruct Hh as [->|[-> _]]; [auto|discriminate].
  - intros i t E N. destruct Hh as [->|[-> J]]; [eauto|]. unfold joinable in J. rewrite (i_alive0 i t E N), E in J. destruct t; congruence.
  - intros i e E. assert (h = handle st). { destruct Hh as [H|[H _]]; auto. rewrite (Hhx H) in E. discriminate. }
    subst h. destruct Hx as [->|[-> _]]; [|discriminate]. destruct (i_exc0 i e E) as (A & B & C & D & F). rewrite surf_quiet by auto. inx. spl; auto.
  - intros i e E. inx. auto.
  - intros i e E. inx. destruct (i_storing0 i e E). auto.
  - intros i t E N. destruct (i_fresh0 i t E N). rewrite surf_quiet by auto. split; auto. destruct Hx as [->|[-> _]]; auto; discriminate.
  - intros i E. inx. destruct (i_dead0 i E) as [H|[H|[(e & H1) H2]]]; auto. right; right. split; [exists e; inx; auto|].
    destruct H2 as [H2|[(e' & H2)|(c & e' & H2)]].
    + left. apply cancelled_more; auto.
    + destruct Hx as [->|[-> [H|H]]]; eauto; [|congruence]. left. apply cancelled_more.
      destruct (i_flag0 H) as (k & L & C). destruct (i_exc0 i e' H2) as (A & _). apply i_handle0 in A. assert (i = k) by lia. subst; auto.
    + right; right. exists c, e'. inx; auto.
  - intros i L. destruct (i_beyond0 i L) as (A & B & C). rewrite surf_quiet by auto. spl; auto.
    + intros r H. inx. destruct H as [H|H]; [eapply B; eauto|]. symmetry in H. eapply NE; eauto.
    + rewrite started_snoc; auto; apply quiet_start; auto.
  - intros i L. rewrite started_snoc; auto; apply quiet_start; auto.
  - intros E. destruct (Hf E) as [H|[H1 H2]].
    + destruct (i_flag0 H) as (k & L & C). exists k. split; auto. apply cancelled_more; auto.
    + destruct (handle st) as [k|] eqn:Ek; [|contradiction]. exists k. pose proof (i_handle0 k eq_refl). split; auto.
      destruct (i_last0 k H) as (a & c & b & -> & N). exists a, c, b, []. subst ev. rewrite <- app_assoc. auto.
  - intros i. rewrite surf_quiet; auto.
  - intros i L. apply last_more; auto; apply quiet_start; auto.
  - intros c i e H. inx. destruct H as [H|H]. + destruct (i_surf0 c i e H); auto. + subst ev. destruct Q.
Qed.

(** The call that raises. *)
Lemma inv_surface : forall st es c h i e, inv st es -> exception st = Some (i, e) ->
  (h = handle st \/ (h = None /\ joinable st = true)) ->
  inv (mk_state (threads st) h None (cancel_requested st)) (es ++ [Call c (Surfaced i e)]).
Proof.
  intros st es c h i e V X Hh. destruct V. destruct (i_exc0 i e X) as (A & B & C & D & F).
  assert (NS : forall c' j, Call c (Surfaced i e) <> Call c' (Started j)) by (intros; discriminate).
  split; cbn [threads handle exception cancel_requested].
  - intros k E. destruct Hh as [->|[-> _]]; [auto|discriminate].
  - intros k t E N. destruct Hh as [->|[-> J]]; [eauto|]. unfold joinable in J. rewrite (i_alive0 k t E N), E in J. destruct t; congruence.
  - intros; discriminate.
  - intros k e' E. inx. auto.
  - intros k e' E. inx. destruct (i_storing0 k e' E). auto.
  - intros k t E N. destruct (i_fresh0 k t E N) as [G _]. rewrite surf_app. simpl. destruct (Nat.eqb_spec k i).
    + subst. rewrite B in E. congruence.
    + split; [lia|discriminate].
  - intros k E. inx. destruct (i_dead0 k E) as [H|[H|[(e1 & H1) H2]]]; auto. right; right. split; [exists e1; inx; auto|].
    destruct H2 as [H2|[(e' & H2)|(c' & e' & H2)]].
    + left. apply cancelled_more; auto.
    + right; right. rewrite X in H2. injection H2 as -> ->. exists c, e'. inx; auto.
    + right; right. exists c', e'. inx; auto.
  - intros k L. destruct (i_beyond0 k L) as (A1 & B1 & C1). rewrite surf_app. simpl. apply i_handle0 in A. destruct (Nat.eqb_spec k i); [lia|].
    spl; [lia| |].
    + intros r H. inx. destruct H as [H|H]; [eapply B1; eauto|discriminate].
    + rewrite started_snoc; auto.
  - intros k L. rewrite started_snoc; auto.
  - intros E. destruct (i_flag0 E) as (k & L & C1). exists k. split; auto. apply cancelled_more; auto.
  - intros k. rewrite surf_app. simpl. destruct (Nat.eqb_spec k i); [subst; lia|]. specialize (i_once0 k). lia.
  - intros k L. apply last_more; auto.
  - intros c' k e' H. inx. destruct H as [H|H].
    + destruct (i_surf0 _ _ _ H); auto.
    + injection H as -> -> ->. auto.
Qed.

(** The call that starts a save, in a state without a thread. *)
Lemma inv_start : forall st es p, inv st es -> handle st = None -> exception st = None ->
  inv (start_async_commit st) (es ++ [Call p (Started (List.length (threads st)))]).
Proof.
  intros st es p V Hh Hx. destruct V. set (n := List.length (threads st)) in *.
  assert (ND : forall i t, nth_error (threads st) i = Some t -> t = Dead).
  { intros i t E. destruct t; auto; specialize (i_alive0 i _ E); rewrite Hh in i_alive0; exfalso; assert (None = Some i) by (apply i_alive0; discriminate); discriminate. }
  assert (SP : forall i t, nth_error (threads st ++ [Working]) i = Some t -> (nth_error (threads st) i = Some t /\ i < n) \/ (i = n /\ t = Working)).
  { intros i t E. destruct (lt_dec i n). - rewrite nth_error_app1 in E by auto. auto.
    - rewrite nth_error_app2 in E by (unfold n in *; lia). fold n in E. destruct (i - n) as [|k] eqn:K; simpl in E; [|destruct k; discriminate]. injection E as <-. right. split; auto. unfold n in *; lia. }
  unfold start_async_commit. fold n. rewrite Hx.
  split; cbn [threads handle exception cancel_requested]; try rewrite app_length; simpl List.length; fold n.
  - intros i E. injection E as <-. lia.
  - intros i t E N. apply SP in E as [[E _]|[-> _]]; auto. apply ND in E. contradiction.
  - intros; discriminate.
  - intros i e E. apply SP in E as [[E _]|[_ E]]; [apply ND in E; discriminate|discriminate].
  - intros i e E. apply SP in E as [[E _]|[_ E]]; [apply ND in E; discriminate|discriminate].
  - intros i t E N. rewrite surf_app. simpl. apply SP in E as [[E _]|[-> _]]; [apply ND in E; contradiction|].
    destruct (i_beyond0 n (Nat.le_refl _)) as (A & _). split; [lia|discriminate].
  - intros i E. apply SP in E as [[E _]|[_ E]]; [|discriminate]. inx.
    destruct (i_dead0 i E) as [H|[H|[(e1 & H1) H2]]]; auto. right; right. split; [exists e1; inx; auto|].
    destruct H2 as [H2|[(e' & H2)|(c & e' & H2)]].
    + left. apply cancelled_more; auto.
    + congruence.
    + right; right. exists c, e'. inx; auto.
  - intros i L. destruct (i_beyond0 i ltac:(lia)) as (A & B & C). rewrite surf_app. simpl. spl; [lia| |].
    + intros r H. inx. destruct H as [H|H]; [eapply B; eauto|discriminate].
    + intros [c H]. inx. destruct H as [H|H]; [apply C; exists c; auto|]. injection H as _ ->. lia.
  - intros i L. destruct (lt_dec i n).
    + destruct (i_started0 i l) as [c H]. exists c. inx; auto.
    + assert (i = n) by lia. subst i. exists p. inx; auto.
  - discriminate.
  - intros i. rewrite surf_app. simpl. specialize (i_once0 i). lia.
  - intros i L. assert (i = n) by lia. subst i. exists es, p, []. split; auto. intros c j [].
  - intros c i e H. inx. destruct H as [H|H]; [|discriminate]. destruct (i_surf0 _ _ _ H); auto.
Qed.

(** Thread steps. *)
Lemma inv_thread : forall st es ev k t0 t1 x, inv st es -> (forall c r, ev <> Call c r) ->
  nth_error (threads st) k = Some t0 -> t0 <> Dead ->
  (forall i r, ev = Ends i r -> i = k) ->
  (x = exception st \/ exists e, x = Some (k, e) /\ t1 = Dead /\ In (Ends k (Err e)) es /\ e <> CancelledError) ->
  (forall e, t1 = Raised e -> In (Ends k (Err e)) (es ++ [ev])) ->
  (forall e, t1 = Storing e -> In (Ends k (Err e)) (es ++ [ev]) /\ e <> CancelledError) ->
  (t1 = Dead -> In (Ends k (Ok tt)) (es ++ [ev]) \/ In (Ends k (Err CancelledError)) (es ++ [ev]) \/
     ((exists e, In (Ends k (Err e)) (es ++ [ev])) /\ (cancelled k es \/ exists e, x = Some (k, e)))) ->
  inv (mk_state (set_nth k t1 (threads st)) (handle st) x (cancel_requested st)) (es ++ [ev]).
Proof.
  intros st es ev k t0 t1 x V NC E0 ND EV Hx HR HS HD. destruct V.
  assert (Q : quiet ev) by (destruct ev; simpl; auto; exfalso; eapply NC; eauto).
  assert (Hk : handle st = Some k) by eauto. pose proof (i_handle0 k Hk) as Lk.
  assert (SP : forall i t, nth_error (set_nth k t1 (threads st)) i = Some t -> (i = k /\ t = t1) \/ (i <> k /\ nth_error (threads st) i = Some t)).
  { intros i t H. rewrite nth_set in H. destruct (Nat.eqb_spec k i). + subst. rewrite E0 in H. injection H as <-. auto. + auto. }
  assert (OD : forall i t, i <> k -> nth_error (threads st) i = Some t -> t = Dead).
  { intros i t N H. destruct t; auto; exfalso; apply N; assert (X : handle st = Some i) by (eapply i_alive0; [exact H|discriminate]); congruence. }
  assert (XN : exception st = None).
  { destruct (exception st) as [[i e]|] eqn:E; auto. destruct (i_exc0 i e eq_refl) as (A & B & _). rewrite Hk in A. injection A as <-. congruence. }
  split; cbn [threads handle exception cancel_requested]; try rewrite len_set.
  - auto.
  - intros i t E N. apply SP in E as [[-> _]|[Ni E]]; auto. eapply OD in E; eauto. contradiction.
  - intros i e E. destruct Hx as [->|(e' & -> & -> & I1 & I2)]; [congruence|]. injection E as <- <-. rewrite surf_quiet by auto.
    spl; auto. + rewrite nth_set, Nat.eqb_refl, E0. auto. + inx. auto. + eapply i_fresh0; eauto.
  - intros i e E. apply SP in E as [[-> E]|[Ni E]]; [apply HR; auto|]. eapply OD in E; eauto. discriminate.
  - intros i e E. apply SP in E as [[-> E]|[Ni E]]; [apply HS; auto|]. eapply OD in E; eauto. discriminate.
  - intros i t E N. rewrite surf_quiet by auto. apply SP in E as [[-> E]|[Ni E]]; [|eapply OD in E; eauto; contradiction].
    split; [eapply i_fresh0; eauto|]. intros e X. destruct Hx as [->|(e' & -> & -> & _)]; congruence.
  - intros i E. apply SP in E as [[-> E]|[Ni E]].
    + destruct (HD (eq_sym E)) as [H|[H|[H [H1|H1]]]]; auto; right; right; split; auto. left. apply cancelled_more; auto.
    + inx. destruct (i_dead0 i E) as [H|[H|[(e1 & H1) H2]]]; auto. right; right. split; [exists e1; inx; auto|].
      destruct H2 as [H2|[(e' & H2)|(c & e' & H2)]]; [left; apply cancelled_more; auto|congruence|right; right; exists c, e'; inx; auto].
  - intros i L. destruct (i_beyond0 i L) as (A & B & C). rewrite surf_quiet by auto. spl; auto.
    + intros r H. inx. destruct H as [H|H]; [eapply B; eauto|]. symmetry in H. apply EV in H. lia.
    + rewrite started_snoc; auto; apply quiet_start; auto.
  - intros i L. rewrite started_snoc; auto; apply quiet_start; auto.
  - intros E. destruct (i_flag0 E) as (j & L & C). exists j. split; auto. apply cancelled_more; auto.
  - intros i. rewrite surf_quiet; auto.
  - intros i L. apply last_more; auto; apply quiet_start; auto.
  - intros c i e H. inx. destruct H as [H|H]; [destruct (i_surf0 _ _ _ H); auto|]. exfalso. eapply NC; eauto.
Qed.

Lemma state_eta : forall st, mk_state (threads st) (handle st) (exception st) (cancel_requested st) = st.
Proof. destruct st; auto. Qed.

Lemma no_ends : forall c r, forall i r', Call c r <> Ends i r'.
Proof. discriminate. Qed.

(** After the wait that did not raise. *)
Definition after_wait (st : state) (f : bool) : state := mk_state (threads st) None None f.

Lemma wait_cases : forall st, match wait st with
  | (st', Some x) => exception st = Some x /\ cancel_requested st = false /\ st' = mk_state (threads st) None None false
  | (st', None) => (exception st = None \/ cancel_requested st = true) /\ exists f, st' = after_wait st f /\ (f = true -> cancel_requested st = true)
  end.
Proof.
  intros st. unfold wait, check_for_errors. cbn [exception cancel_requested threads handle]. destruct (exception st) as [x|] eqn:X.
  - destruct (cancel_requested st) eqn:F.
    + split; [auto|]. exists false. split; [reflexivity|auto].
    + auto.
  - split; [auto|]. exists (cancel_requested st). split; [reflexivity|auto].
Qed.

Lemma inv_wait : forall st es ev f, inv st es -> joinable st = true -> quiet ev -> (forall i r, ev <> Ends i r) ->
  (exception st = None \/ cancel_requested st = true) -> (f = true -> cancel_requested st = true) ->
  inv (after_wait st f) (es ++ [ev]).
Proof.
  intros st es ev f V J Q NE X F. apply inv_fields; auto. right. split; auto. tauto.
Qed.

Lemma wait_reachable : forall st es f, inv st es -> joinable st = true ->
  (exception st = None \/ cancel_requested st = true) -> (f = true -> cancel_requested st = true) ->
  inv (after_wait st f) es.
Proof.
  intros st es f V J X F. pose proof V as V'. destruct V'. split; cbn [after_wait threads handle exception cancel_requested]; auto; try discriminate.
  - intros i t E N. unfold joinable in J. rewrite (i_alive0 i t E N), E in J. destruct t; congruence.
  - intros i t E N. destruct (i_fresh0 i t E N). split; auto. discriminate.
  - intros i E. destruct (i_dead0 i E) as [H|[H|[H1 H2]]]; auto. right; right. split; auto.
    destruct H2 as [H2|[(e' & H2)|H2]]; auto. left. destruct X as [X|X]; [congruence|].
    destruct (i_flag0 X) as (k & L & C). destruct (i_exc0 i e' H2) as (A & _). apply i_handle0 in A. assert (i = k) by lia. subst; auto.
Qed.

Lemma inv_step : forall st es ev st', inv st es -> step st ev = Some st' -> inv st' (es ++ [ev]).
Proof.
  intros st es ev st' V H. destruct ev as [c r|i r|i|i]; cbn [step] in H.
  - destruct (run_call st c) as [[s' r']|] eqn:R; [|discriminate]. destruct (reply_dec r r'); [|discriminate]. injection H as <-. subst r'.
    assert (W : forall c', (if joinable st then let (st', x) := wait st in match x with Some (i, e) => Some (st', Surfaced i e) | None => 
         match c' with | Save (Ok _) => Some (start_async_commit st', Started (List.length (threads st'))) | Save (Err e) => Some (st', Refused e) | Restore => Some (st', Restored) | _ => Some (st', Returned) end end else None) = Some (s', r) -> inv s' (es ++ [Call c r])).
    { intros c' R'. destruct (joinable st) eqn:J; [|discriminate]. pose proof (wait_cases st) as WC. destruct (wait st) as [s1 [[i e]|]].
      - injection R' as <- <-. destruct WC as (X & F & ->). rewrite <- F. apply inv_surface; auto.
      - destruct WC as (X & f & -> & F). destruct c' as [[u|e]| | | | |]; injection R' as <- <-; try (apply inv_wait; simpl; auto; discriminate).
        apply (inv_start (after_wait st f)); auto. apply wait_reachable; auto. }
    destruct c; cbn [run_call] in R;
      [exact (W (Save prepared) R)|exact (W Restore R)|exact (W Wait R)| | |exact (W Close R)].
    + unfold check_for_errors in R. destruct (exception st) as [[i e]|] eqn:X.
      * destruct (cancel_requested st) eqn:F; cbv beta iota zeta in R; injection R as <- <-.
        -- apply inv_fields; simpl; auto; try discriminate.
        -- rewrite <- F. apply inv_surface; auto.
      * cbv beta iota zeta in R; injection R as <- <-. rewrite <- (state_eta st) at 1. apply inv_fields; simpl; auto; discriminate.
    + injection R as <- <-. unfold cancel. destruct (handle st) as [k|] eqn:Hk.
      * rewrite <- Hk. apply inv_fields; simpl; auto; try discriminate. 
        -- rewrite Hk. discriminate.
        -- intros _. right. split; auto. congruence.
      * rewrite <- (state_eta st) at 1. apply inv_fields; simpl; auto; try discriminate.
        intros _. destruct (exception st) as [[i e]|] eqn:X; auto. destruct V. destruct (i_exc0 i e X) as (A & _). congruence.
  - destruct r as [u|e].
    + destruct (nth_error (threads st) i) as [[]|] eqn:E; try discriminate. injection H as <-. unfold put. eapply inv_thread; eauto; try discriminate.
      * intros j r H. injection H as -> _. auto.
      * intros _. left. inx. destruct u. auto.
    + destruct (nth_error (threads st) i) as [[]|] eqn:E; try discriminate. injection H as <-. unfold put. eapply inv_thread; eauto; try discriminate.
      * intros j r H. injection H as -> _. auto.
      * intros e' H. injection H as ->. inx. auto.
  - destruct (nth_error (threads st) i) as [[|e| |]|] eqn:E; try discriminate. injection H as <-. unfold put. pose proof (i_raised _ _ V i e E) as I1.
    eapply inv_thread; eauto; try discriminate.
    + intros e' H. destruct (swallowed e (cancel_requested st)); discriminate.
    + intros e' H. destruct (swallowed e (cancel_requested st)) eqn:S; [discriminate|]. injection H as ->. inx. split; auto. intros ->. discriminate.
    + intros H. destruct (swallowed e (cancel_requested st)) eqn:S; [|discriminate]. inx. right.
      assert (e = CancelledError \/ cancel_requested st = true) by (destruct e; auto). destruct H0 as [->|F]; auto.
      right. split; [exists e; inx; auto|]. left. destruct (i_flag _ _ V F) as (k & L & C).
      assert (A : handle st = Some i) by (eapply (i_alive _ _ V); [exact E|discriminate]). apply (i_handle _ _ V) in A. assert (i = k) by lia. subst; auto.
  - destruct (nth_error (threads st) i) as [[| |e|]|] eqn:E; try discriminate. injection H as <-. destruct (i_storing _ _ V i e E) as [I1 I2].
    eapply inv_thread; eauto; try discriminate.
    + right. exists e. auto.
    + intros _. right; right. split; [exists e; inx; auto|]. right. eauto.
Qed.

Lemma inv_play : forall es st, play initial es = Some st -> inv st es.
Proof.
  induction es as [|ev es IH] using rev_ind; intros st H.
  - injection H as <-. apply inv_initial.
  - apply play_last in H as (s & P & S). eapply inv_step; eauto.
Qed.

Lemma possible_play : forall es, possible es -> exists st, play initial es = Some st.
Proof. unfold possible. intros es H. destruct (play initial es) as [st|]; [eauto|contradiction]. Qed.

Lemma possible_prefix : forall a b, possible (a ++ b) -> possible a.
Proof. unfold possible. intros a b H E. rewrite play_app, E in H. auto. Qed.

(** ** Overlap *)
Lemma no_overlap : forall es c r i, possible (es ++ [Call c r]) -> (r = Restored \/ exists k, r = Started k) ->
  was_started i es -> ended i es.
Proof.
  intros es c r i P R W. apply possible_play in P as [st P]. apply play_last in P as (s & P & S). pose proof (inv_play _ _ P) as V.
  cbn [step] in S. destruct (run_call s c) as [[s' r']|] eqn:RC; [|discriminate]. destruct (reply_dec r r'); [|discriminate]. subst r'.
  assert (J : joinable s = true).
  { destruct (joinable s) eqn:J; auto. exfalso. destruct c; cbn [run_call] in RC; rewrite ?J in RC; try discriminate.
    - unfold check_for_errors in RC. destruct (exception s) as [[]|]; [destruct (cancel_requested s)|]; cbv beta iota zeta in RC; injection RC as <- <-; destruct R as [R|[k R]]; discriminate.
    - injection RC as <- <-. destruct R as [R|[k R]]; discriminate. }
  destruct (lt_dec i (List.length (threads s))) as [L|L].
  - destruct (nth_error (threads s) i) as [t|] eqn:E; [|apply nth_error_None in E; lia].
    assert (t = Dead). { destruct t; auto; exfalso; unfold joinable in J; rewrite (i_alive _ _ V i _ E) in J by discriminate; rewrite E in J; discriminate. }
    subst t. destruct (i_dead _ _ V i E) as [H|[H|[(e & H) _]]]; eexists; eauto.
  - exfalso. destruct (i_beyond _ _ V i ltac:(lia)) as (_ & _ & N). auto.
Qed.

(** ** Once *)
Lemma once : forall es i, possible es -> surfacings i es <= 1.
Proof. intros es i P. apply possible_play in P as [st P]. apply (i_once _ _ (inv_play _ _ P)). Qed.

Lemma genuine : forall es c i e, possible es -> In (Call c (Surfaced i e)) es -> In (Ends i (Err e)) es /\ e <> CancelledError.
Proof. intros es c i e P. apply possible_play in P as [st P]. apply (i_surf _ _ (inv_play _ _ P)). Qed.

(** ** First *)
Lemma call_surfaces : forall st c r st', step st (Call c r) = Some st' -> waits c -> joinable st = true /\
  forall i e, exception st = Some (i, e) -> cancel_requested st = false -> r = Surfaced i e.
Proof.
  intros st c r st' S W. cbn [step] in S. destruct (run_call st c) as [[s' r']|] eqn:RC; [|discriminate]. destruct (reply_dec r r'); [|discriminate]. subst r'. clear S.
  destruct (joinable st) eqn:J; [|destruct c; try contradiction; cbn [run_call] in RC; rewrite J in RC; discriminate]. split; auto.
  intros i e X F. assert (WT : wait st = (mk_state (threads st) None None false, Some (i, e))).
  { unfold wait, check_for_errors. cbn [exception cancel_requested threads handle]. rewrite X, F. auto. }
  destruct c; try contradiction; cbn [run_call] in RC; rewrite J, WT in RC; injection RC as _ <-; auto.
Qed.

Definition seg (i : nat) (st : state) (es1 : list event) : Prop :=
  S i = List.length (threads st) /\ cancel_requested st = false /\
  (forall e, In (Ends i (Err e)) es1 -> e <> CancelledError ->
     nth_error (threads st) i = Some (Raised e) \/ nth_error (threads st) i = Some (Storing e) \/
     (nth_error (threads st) i = Some Dead /\ exception st = Some (i, e))) /\
  (In (Stores i) es1 -> nth_error (threads st) i = Some Dead).

Lemma seg_thread : forall i st es1 ev k t0 t1 x, seg i st es1 -> (forall c r, ev <> Call c r) ->
  nth_error (threads st) k = Some t0 -> t0 <> Dead -> handle st = Some k -> k = i ->
  (forall e, In (Ends i (Err e)) (es1 ++ [ev]) -> e <> CancelledError ->
     t1 = Raised e \/ t1 = Storing e \/ (t1 = Dead /\ x = Some (i, e))) ->
  (In (Stores i) (es1 ++ [ev]) -> t1 = Dead) ->
  seg i (mk_state (set_nth k t1 (threads st)) (handle st) x (cancel_requested st)) (es1 ++ [ev]).
Proof.
  intros i st es1 ev k t0 t1 x (L & F & A & B) NC E ND Hk -> HA HB. unfold seg; cbn [threads handle exception cancel_requested].
  rewrite len_set, nth_set, Nat.eqb_refl, E. spl; auto.
  - intros e I1 I2. destruct (HA e I1 I2) as [->|[->|[-> ->]]]; auto.
  - intros I1. rewrite (HB I1). auto.
Qed.

Lemma seg_step : forall i es0 st es1 ev st', inv st (es0 ++ es1) -> seg i st es1 -> step st ev = Some st' ->
  (forall c k, ev <> Call c (Started k)) -> (forall c k e, ev <> Call c (Surfaced k e)) -> (forall r, ev <> Call Cancel r) ->
  seg i st' (es1 ++ [ev]).
Proof.
  intros i es0 st es1 ev st' V G H N1 N2 N3. destruct ev as [c r|k r|k|k].
  - destruct G as (L & F & A & B). pose proof H as H0. cbn [step] in H. destruct (run_call st c) as [[s' r']|] eqn:RC; [|discriminate]. destruct (reply_dec r r'); [|discriminate]. injection H as <-. subst r'.
    assert (K : threads s' = threads st /\ cancel_requested s' = false /\ (exception s' = exception st)).
    { destruct c; cbn [run_call] in RC.
      1,2,3,6: destruct (joinable st) eqn:J; [|discriminate]; pose proof (wait_cases st) as WC; destruct (wait st) as [s1 [[j e]|]];
        [injection RC as <- <-; exfalso; eapply N2; eauto|]; destruct WC as (X & f & -> & Ff);
        assert (f = false) by (destruct f; auto; rewrite Ff in F by auto; discriminate); subst f;
        destruct X as [X|X]; [|congruence].
      - destruct prepared; [injection RC as <- <-; exfalso; eapply N1; eauto|]. injection RC as <- <-. rewrite X. simpl. auto.
      - injection RC as <- <-. rewrite X. simpl. auto.
      - injection RC as <- <-. rewrite X. simpl. auto.
      - injection RC as <- <-. rewrite X. simpl. auto.
      - unfold check_for_errors in RC. destruct (exception st) as [[j e]|] eqn:X; cbv beta iota zeta in RC.
        + rewrite F in RC. cbv beta iota zeta in RC. injection RC as <- <-. exfalso. eapply N2; eauto.
        + injection RC as <- <-. auto.
      - exfalso. eapply N3; eauto. }
    destruct K as (K1 & K2 & K3). unfold seg. rewrite K1, K2, K3. spl; auto.
    + intros e I1 I2. apply in_snoc in I1 as [I1|I1]; [auto|discriminate].
    + intros I1. apply in_snoc in I1 as [I1|I1]; [auto|discriminate].
  - assert (G' := G). destruct G' as (L & F & A & B). destruct r as [u|e0]; cbn [step] in H; destruct (nth_error (threads st) k) as [[]|] eqn:E; try discriminate; injection H as <-; unfold put;
      assert (Hk : handle st = Some k) by (eapply (i_alive _ _ V); [exact E|discriminate]); assert (k = i) by (apply (i_handle _ _ V) in Hk; lia); subst k;
      (eapply seg_thread; eauto; try discriminate).
    + intros e I1 I2. apply in_snoc in I1 as [I1|I1]; [|discriminate]. destruct (A e I1 I2) as [X|[X|[X _]]]; congruence.
    + intros e I1 I2. apply in_snoc in I1 as [I1|I1]; [destruct (A e I1 I2) as [X|[X|[X _]]]; congruence|]. injection I1 as ->. auto.
    + intros I1. apply in_snoc in I1 as [I1|I1]; [|discriminate]. rewrite (B I1) in E. discriminate.
  - assert (G' := G). destruct G' as (L & F & A & B). cbn [step] in H. destruct (nth_error (threads st) k) as [[|e0| |]|] eqn:E; try discriminate; injection H as <-; unfold put.
    assert (Hk : handle st = Some k) by (eapply (i_alive _ _ V); [exact E|discriminate]). assert (k = i) by (apply (i_handle _ _ V) in Hk; lia); subst k.
    eapply seg_thread; eauto; try discriminate.
    + intros e I1 I2. apply in_snoc in I1 as [I1|I1]; [|discriminate]. destruct (A e I1 I2) as [X|[X|[X _]]]; try congruence.
      rewrite E in X. injection X as <-. rewrite F. right; left. destruct e0; auto. contradiction.
    + intros I1. apply in_snoc in I1 as [I1|I1]; [|discriminate]. rewrite (B I1) in E. discriminate.
  - assert (G' := G). destruct G' as (L & F & A & B). cbn [step] in H. destruct (nth_error (threads st) k) as [[| |e0|]|] eqn:E; try discriminate; injection H as <-.
    assert (Hk : handle st = Some k) by (eapply (i_alive _ _ V); [exact E|discriminate]). assert (k = i) by (apply (i_handle _ _ V) in Hk; lia); subst k.
    eapply seg_thread; eauto; try discriminate.
    intros e I1 I2. apply in_snoc in I1 as [I1|I1]; [|discriminate]. destruct (A e I1 I2) as [X|[X|[X _]]]; try congruence.
    rewrite E in X. injection X as <-. auto.
Qed.

Lemma seg_play : forall i es0 st0 es1 st, play initial es0 = Some st0 -> seg i st0 [] -> play st0 es1 = Some st ->
  no_start es1 -> no_surfacing es1 -> no_cancel es1 -> seg i st es1.
Proof.
  intros i es0 st0 es1. induction es1 as [|ev es1 IH] using rev_ind; intros st P0 G P N1 N2 N3.
  - injection P as <-. auto.
  - apply play_last in P as (s & P & S).
    assert (G1 : seg i s es1).
    { apply IH; auto; intros c; intros; intro H; [eapply N1|eapply N2|eapply N3]; apply in_snoc; left; eauto. }
    eapply seg_step; eauto.
    + apply inv_play. rewrite play_app, P0. auto.
    + intros c k ->. eapply N1. apply in_snoc. eauto.
    + intros c k e ->. eapply N2. apply in_snoc. eauto.
    + intros r ->. eapply N3. apply in_snoc. eauto.
Qed.

Lemma started_state : forall st c i st', step st (Call c (Started i)) = Some st' ->
  seg i st' [] .
Proof.
  intros st c i st' S. cbn [step] in S. destruct (run_call st c) as [[s' r']|] eqn:RC; [|discriminate]. destruct (reply_dec (Started i) r'); [|discriminate]. subst r'. injection S as <-.
  assert (exists u s1, c = Save (Ok u) /\ s' = start_async_commit s1 /\ i = List.length (threads s1)).
  { destruct c; cbn [run_call] in RC.
    1,2,3,6: destruct (joinable st); [|discriminate]; destruct (wait st) as [s1 [[j e]|]]; [discriminate|].
    - destruct prepared as [u|]; [|discriminate]. injection RC as <- <-. exists u, s1. auto.
    - discriminate.
    - discriminate.
    - discriminate.
    - destruct (check_for_errors st) as [s1 [[]|]]; discriminate.
    - discriminate. }
  destruct H as (u & s1 & -> & -> & ->). unfold seg, start_async_commit; simpl. rewrite app_length. simpl. spl; try lia; try tauto.
Qed.

Lemma first : forall es0 c0 i es1 e c r,
  possible (es0 ++ Call c0 (Started i) :: es1 ++ [Call c r]) ->
  no_start es1 -> no_surfacing es1 -> no_cancel es1 -> In (Ends i (Err e)) es1 -> e <> CancelledError ->
  waits c \/ (c = Check /\ In (Stores i) es1) -> r = Surfaced i e.
Proof.
  intros es0 c0 i es1 e c r P N1 N2 N3 I1 I2 W.
  apply possible_play in P as [st P]. rewrite app_comm_cons, app_assoc in P. apply play_last in P as (s & P & S).
  replace (es0 ++ Call c0 (Started i) :: es1) with ((es0 ++ [Call c0 (Started i)]) ++ es1) in P by (rewrite <- app_assoc; auto).
  pose proof (inv_play _ _ P) as V. rewrite play_app in P. destruct (play initial (es0 ++ [Call c0 (Started i)])) as [s0|] eqn:P0; [|discriminate].
  pose proof P0 as P0'. apply play_last in P0' as (sp & _ & Sp). apply started_state in Sp.
  pose proof (seg_play _ _ _ _ _ P0 Sp P N1 N2 N3) as (L & F & A & B). specialize (A e I1 I2).
  destruct W as [W|[-> W]].
  - destruct (call_surfaces _ _ _ _ S W) as [J X]. apply X; auto. destruct A as [A|[A|[_ A]]]; auto; exfalso; unfold joinable in J;
      rewrite (i_alive _ _ V i _ A) in J by discriminate; rewrite A in J; discriminate.
  - specialize (B W). destruct A as [A|[A|[_ A]]]; try congruence. cbn [step run_call] in S. unfold check_for_errors in S. rewrite A, F in S.
    destruct (reply_dec r (Surfaced i e)); [auto|discriminate].
Qed.

(** ** A wait that returns *)
Lemma wait_means : forall es c r i, possible (es ++ [Call c r]) -> waits c -> (forall k e, r <> Surfaced k e) -> was_started i es ->
  In (Ends i (Ok tt)) es \/ In (Ends i (Err CancelledError)) es \/ cancelled i es \/ surfacings i es = 1.
Proof.
  intros es c r i P W R H. apply possible_play in P as [st P]. apply play_last in P as (s & P & S). pose proof (inv_play _ _ P) as V.
  destruct (call_surfaces _ _ _ _ S W) as [J X].
  assert (L : i < List.length (threads s)).
  { destruct (lt_dec i (List.length (threads s))); auto. exfalso. destruct (i_beyond _ _ V i ltac:(lia)) as (_ & _ & N). auto. }
  destruct (nth_error (threads s) i) as [t|] eqn:E; [|apply nth_error_None in E; lia].
  assert (t = Dead). { destruct t; auto; exfalso; unfold joinable in J; rewrite (i_alive _ _ V i _ E) in J by discriminate; rewrite E in J; discriminate. }
  subst t. destruct (i_dead _ _ V i E) as [D|[D|[_ [D|[(e & D)|(c' & e & D)]]]]]; auto.
  - destruct (cancel_requested s) eqn:F; [|exfalso; eapply R; eauto]. destruct (i_flag _ _ V F) as (k & L' & C).
    destruct (i_exc _ _ V i e D) as (A & _). apply (i_handle _ _ V) in A. assert (i = k) by lia. subst; auto.
  - right; right; right. pose proof (i_once _ _ V i). assert (1 <= surfacings i es); [|lia].
    clear - D. induction es as [|ev es IH]; [destruct D|]. destruct D as [->|D]; simpl; [rewrite Nat.eqb_refl; lia|]. apply IH in D. destruct ev as [c0 []| | |]; simpl; lia.
Qed.

(** ** Cancelling *)
Definition quelled (st : state) : Prop :=
  cancel_requested st = true \/ (exception st = None /\ forall i t, nth_error (threads st) i = Some t -> t = Dead).

Lemma quelled_step : forall st es ev st', inv st es -> quelled st -> step st ev = Some st' -> (forall c k, ev <> Call c (Started k)) ->
  quelled st' /\ forall c k e, ev <> Call c (Surfaced k e).
Proof.
  intros st es ev st' V Q H N1. destruct ev as [c r|k r|k|k].
  - cbn [step] in H. destruct (run_call st c) as [[s' r']|] eqn:RC; [|discriminate]. destruct (reply_dec r r'); [|discriminate]. injection H as <-. subst r'.
    assert (JD : joinable st = true -> forall i t, nth_error (threads st) i = Some t -> t = Dead).
    { intros J i t E. destruct t; auto; exfalso; unfold joinable in J; rewrite (i_alive _ _ V i _ E) in J by discriminate; rewrite E in J; discriminate. }
    destruct c; cbn [run_call] in RC.
    1,2,3,6: destruct (joinable st) eqn:J; [|discriminate]; specialize (JD eq_refl); pose proof (wait_cases st) as WC; destruct (wait st) as [s1 [[j e]|]];
        [destruct WC as (X & F & _); exfalso; destruct Q as [Q|[Q _]]; congruence|]; destruct WC as (X & f & -> & Ff).
    + destruct prepared; [injection RC as <- <-; exfalso; eapply N1; eauto|]. injection RC as <- <-. split; [right; split; auto|discriminate].
    + injection RC as <- <-. split; [right; split; auto|discriminate].
    + injection RC as <- <-. split; [right; split; auto|discriminate].
    + injection RC as <- <-. split; [right; split; auto|discriminate].
    + unfold check_for_errors in RC. destruct (exception st) as [[j e]|] eqn:X; cbv beta iota zeta in RC.
      * destruct Q as [Q|[Q _]]; [|congruence]. rewrite Q in RC. cbv beta iota zeta in RC. injection RC as <- <-. split; [|discriminate]. right. split; auto.
        cbn [threads]. destruct (i_exc _ _ V j e X) as (A & B & _). intros i t E. destruct t; auto; exfalso; assert (A' : handle st = Some i) by (eapply (i_alive _ _ V); [exact E|discriminate]); congruence.
      * injection RC as <- <-. split; [auto|discriminate].
    + injection RC as <- <-. split; [|discriminate]. unfold cancel. destruct (handle st); [left; auto|auto].
  - split; [|discriminate]. destruct r; cbn [step] in H; destruct (nth_error (threads st) k) as [[]|] eqn:E; try discriminate; injection H as <-;
      (destruct Q as [Q|[_ Q]]; [left; auto|apply Q in E; discriminate]).
  - split; [|discriminate]. cbn [step] in H; destruct (nth_error (threads st) k) as [[]|] eqn:E; try discriminate; injection H as <-;
      (destruct Q as [Q|[_ Q]]; [left; auto|apply Q in E; discriminate]).
  - split; [|discriminate]. cbn [step] in H; destruct (nth_error (threads st) k) as [[]|] eqn:E; try discriminate; injection H as <-;
      (destruct Q as [Q|[_ Q]]; [left; auto|apply Q in E; discriminate]).
Qed.

Lemma quell : forall es0 es1, possible (es0 ++ Call Cancel Returned :: es1) -> no_start es1 -> no_surfacing es1.
Proof.
  intros es0 es1 P N. apply possible_play in P as [st P].
  replace (es0 ++ Call Cancel Returned :: es1) with ((es0 ++ [Call Cancel Returned]) ++ es1) in P by (rewrite <- app_assoc; auto).
  assert (G : quelled st /\ no_surfacing es1).
  { revert st P N. induction es1 as [|ev es1 IH] using rev_ind; intros st P N.
    - rewrite app_nil_r in P. apply play_last in P as (s & P & S). split; [|intros c i e []]. cbn [step run_call] in S.
      destruct (reply_dec Returned Returned); [|discriminate]. injection S as <-. unfold cancel. destruct (handle s) as [k|] eqn:Hk; [left; auto|].
      pose proof (inv_play _ _ P) as V. right. split.
      + destruct (exception s) as [[i ex]|] eqn:X; auto. destruct (i_exc _ _ V i ex X) as (A & _). congruence.
      + intros i t E. destruct t; auto; exfalso; assert (A' : handle s = Some i) by (eapply (i_alive _ _ V); [exact E|discriminate]); congruence.
    - rewrite app_assoc in P. apply play_last in P as (s & P & S).
      assert (N' : no_start es1) by (intros c i H; eapply N; apply in_snoc; eauto).
      destruct (IH s P N') as [Q NS]. destruct (quelled_step s _ ev st (inv_play _ _ P) Q S) as [Q' NE].
      { intros c k ->. eapply N. apply in_snoc; auto. }
      split; auto. intros c i e H. apply in_snoc in H as [H|H]; [eapply NS; eauto|]. symmetry in H. eapply NE; eauto. }
  apply G.
Qed.

(** ** No deadlock *)
Lemma wait_ends : forall es, possible es -> exists more, (List.length more <= 3)%nat /\ (forall c r, ~ In (Call c r) more) /\
  forall c, waits c -> exists r, possible (es ++ more ++ [Call c r]).
Proof.
  intros es P. apply possible_play in P as [st P].
  assert (J : exists more st', List.length more <= 3 /\ (forall c r, ~ In (Call c r) more) /\ play st more = Some st' /\ joinable st' = true).
  { destruct (joinable st) eqn:J. { exists [], st. spl; auto. }
    unfold joinable in J. destruct (handle st) as [i|] eqn:Hh; [|discriminate].
    pose proof (i_handle _ _ (inv_play _ _ P) i Hh) as L. destruct (nth_error (threads st) i) as [t|] eqn:E; [|apply nth_error_None in E; lia].
    assert (JJ : forall x f, joinable (mk_state (set_nth i Dead (threads st)) (handle st) x f) = true).
    { intros. unfold joinable. cbn [handle threads]. rewrite Hh, nth_set, Nat.eqb_refl, E. auto. }
    destruct t; [| | |discriminate].
    - exists [Ends i (Ok tt)]. eexists. cbn [play step List.length]. rewrite E. spl; [lia| |reflexivity|apply JJ]. intros c r [H|[]]; discriminate.
    - destruct (swallowed e (cancel_requested st)) eqn:Sw.
      + exists [Looks i]. eexists. cbn [play step List.length]. rewrite E, Sw. spl; [lia| |reflexivity|apply JJ]. intros c r [H|[]]; discriminate.
      + exists [Looks i; Stores i]. eexists. cbn [play step List.length]. rewrite E, Sw. unfold put. cbn [threads handle cancel_requested]. rewrite nth_set, Nat.eqb_refl, E.
        spl; [lia| |reflexivity|]. * intros c r [H|[H|[]]]; discriminate. * unfold joinable; cbn [handle threads]. rewrite Hh, nth_set, Nat.eqb_refl, nth_set, Nat.eqb_refl, E. auto.
    - exists [Stores i]. eexists. cbn [play step List.length]. rewrite E. spl; [lia| |reflexivity|apply JJ]. intros c r [H|[]]; discriminate. }
  destruct J as (more & st' & L & N & P' & J). exists more. spl; auto. intros c W.
  assert (R : exists s r, run_call st' c = Some (s, r)).
  { destruct c; try contradiction; cbn [run_call]; rewrite J; destruct (wait st') as [s1 [[]|]]; try (destruct prepared); eauto. }
  destruct R as (s & r & R). exists r. unfold possible. rewrite play_app, P, play_app, P'. cbn [play step]. rewrite R. destruct (reply_dec r r); [discriminate|contradiction].
Qed.
