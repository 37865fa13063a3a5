From Coq Require Import List Bool Arith ZArith Lia.
From Verif Require Import Base Wait_Model Wait_Spec.
Import ListNotations.
Open Scope Z_scope.

Lemma fold_max_spec : forall l x,
  (fold_left Z.max l x = x \/ In (fold_left Z.max l x) l) /\ x <= fold_left Z.max l x /\ forall y, In y l -> y <= fold_left Z.max l x.
Proof.
  induction l as [|a l IH]; intros x; cbn.
  - repeat split; auto; [lia | intros y []].
  - destruct (IH (Z.max x a)) as (A & B & C). repeat split.
    + destruct A as [A|A]; [rewrite A|tauto]. destruct (Z.max_spec x a) as [[? ->]|[? ->]]; auto.
    + lia.
    + intros y [->|Hy]; [lia | auto].
Qed.

Lemma newest_some : forall l s, newest l = Some s <-> largest s l /\ l <> [].
Proof.
  intros [|x l] s; cbn.
  - split; [discriminate | intros [_ []]; reflexivity].
  - destruct (fold_max_spec l x) as (A & B & C). split.
    + intros [= <-]. split; [|discriminate]. split.
      * destruct A as [A|A]; [left; symmetry; exact A | right; exact A].
      * intros y [->|Hy]; auto.
    + intros [[H1 H2] _]. f_equal.
      assert (s <= fold_left Z.max l x) by (destruct H1 as [->|H1]; auto).
      assert (fold_left Z.max l x <= s). { apply H2. destruct A as [A|A]; [left; symmetry; exact A | right; exact A]. }
      lia.
Qed.

Lemma newest_none : forall l, newest l = None <-> l = [].
Proof. intros [|x l]; cbn; split; congruence. Qed.

Lemma reached_iff : forall s u, reached_desired_step (Some s) u = true <-> wanted u s.
Proof. intros s [u|]; cbn; [apply Z.leb_le | tauto]. Qed.

Lemma nothing_none : forall u l, newest l = None -> nothing_new u l.
Proof. intros u l H. apply newest_none in H; subst. intros x []. Qed.

Lemma nothing_some : forall u l s, newest l = Some s -> reached_desired_step (Some s) u = false -> nothing_new u l.
Proof.
  intros u l s H N x Hx W. apply newest_some in H as [[_ H] _].
  assert (reached_desired_step (Some s) u = true); [|congruence].
  apply reached_iff. specialize (H x Hx). destruct u as [u|]; cbn in *; [lia | exact I].
Qed.

Lemma has_iff : forall s l, has s l = true <-> In s l.
Proof.
  intros s l; unfold has. rewrite existsb_exists. split.
  - intros (x & Hx & E). apply Z.eqb_eq in E; subst; exact Hx.
  - intros H; exists s; split; [exact H | apply Z.eqb_refl].
Qed.

Lemma in_store_iff : forall s d, in_store s d = true <-> exists b, In (s, b) d.
Proof.
  intros s d; unfold in_store. rewrite existsb_exists. split.
  - intros ([x b] & Hx & E). apply Z.eqb_eq in E; cbn in E; subst; exists b; exact Hx.
  - intros [b H]; exists (s, b); split; [exact H | apply Z.eqb_refl].
Qed.

Lemma seen_app : forall w u a b, seen_nothing w u a -> seen_nothing w u b -> seen_nothing w u (a ++ b)%list.
Proof.
  intros w u a b A B k; specialize (A k); specialize (B k); rewrite !in_app_iff; tauto.
Qed.

Lemma seen_nil : forall w u, seen_nothing w u [].
Proof. intros w u k; split; intros []. Qed.

Lemma seen_missing : forall w u i, dir_exists (w i) = false -> seen_nothing w u [Missing i].
Proof. intros w u i H k; split; intros [E|[]]; congruence. Qed.

Lemma seen_listed : forall w u i, nothing_new u (steps (w i)) -> seen_nothing w u [Listed i].
Proof. intros w u i H k; split; intros [E|[]]; [discriminate|]. injection E as <-; exact H. Qed.

Lemma sleep_seen : forall w o stop i e es j u, sleep_and_maybe_exit w o stop i = (e, es, j) -> seen_nothing w u es.
Proof.
  intros w o stop i e es j u H k; unfold sleep_and_maybe_exit in H.
  destruct stop as [stop|]; [|injection H as <- <- <-; split; intros [E|[]]; discriminate].
  destruct (stop <? _); [destruct (negb _); [|destruct (answer _)]|]; injection H as <- <- <-; split; intros E;
    repeat (destruct E as [E|E]; [discriminate|]); destruct E.
Qed.

Lemma sleep_moment : forall w o stop i e es j, sleep_and_maybe_exit w o stop i = (e, es, j) -> (i <= j <= S (S i))%nat.
Proof.
  intros w o stop i e es j H; unfold sleep_and_maybe_exit in H.
  destruct stop as [stop|]; [|injection H as <- <- <-; lia].
  destruct (stop <? _); [destruct (negb _); [|destruct (answer _)]|]; injection H as <- <- <-; lia.
Qed.

Lemma sleep_exit : forall w o stop i es j, sleep_and_maybe_exit w o stop i = (true, es, j) ->
  exists s, stop = Some s /\ s < clock (w i) + seconds_to_sleep o /\
    (i < j)%nat /\ (has_timeout_fn o = true -> exists a, answer (w a) = true /\ (i < a < j)%nat /\ In (Asked a) es).
Proof.
  intros w o stop i es j H; unfold sleep_and_maybe_exit in H.
  destruct stop as [stop|]; [|discriminate]. exists stop.
  destruct (stop <? _) eqn:E; [|discriminate]. apply Z.ltb_lt in E.
  destruct (has_timeout_fn o); cbn in H.
  - destruct (answer _) eqn:A; [|discriminate]. injection H as <- <-.
    repeat split; auto. intros _; exists (S i); repeat split; auto; left; reflexivity.
  - injection H as <- <-. repeat split; auto; discriminate.
Qed.

Lemma last_look_in : forall w u log k s, last_look w u log k s -> (In s (steps (w k)) /\ forall x, In x (steps (w k)) -> x <= s) /\ wanted u s.
Proof. intros w u log k s H; destruct H as [before k s _ L W]; auto. Qed.

(** What a wait can end with. *)
Definition loop_end (w : nat -> view) (o : options) (stop : option Z) (i : nat) (d : store) (r : result Z) (d' : store) (log : list event) (j : nat) : Prop :=
  (r = Ok (-1) /\ d' = d /\ seen_nothing w (until_step o) log
   /\ exists s k, stop = Some s /\ (i <= k < j)%nat /\ s < clock (w k) + seconds_to_sleep o
      /\ (has_timeout_fn o = true -> exists a, answer (w a) = true /\ (k < a < j)%nat /\ In (Asked a) log))
  \/ (exists k s rr, last_look w (until_step o) log k s /\ (i < k < j)%nat /\ dir_exists (w (pred k)) = true
      /\ snapshot_checkpoint w o (S k) d s = (rr, d', j) /\ r = rmap (fun _ => s) rr /\ rr <> Ok false).

Lemma snapshot_moment : forall w o i d s rr d' j, snapshot_checkpoint w o i d s = (rr, d', j) -> (i < j)%nat /\ rr <> Ok false.
Proof.
  intros w o i d s rr d' j H; unfold snapshot_checkpoint in H.
  destruct (negb _); [injection H as <- <- <-; split; [lia|discriminate]|].
  destruct (negb _); [injection H as <- <- <-; split; [lia|discriminate]|].
  destruct (in_store _ _); [injection H as <- <- <-; split; [lia|discriminate]|].
  destruct (negb _); [injection H as <- <- <-; split; [lia|discriminate]|].
  destruct (copy_error _) as [e|]; injection H as <- <- <-; (split; [lia|]); [|discriminate].
  destruct (suppress _ e); discriminate.
Qed.

Lemma wait_loop_end : forall w o stop fuel i d log r d' log' j,
  seen_nothing w (until_step o) log ->
  wait_loop w o stop fuel i d log = Some (r, d', log', j) ->
  loop_end w o stop i d r d' log' j.
Proof.
  intros w o stop; induction fuel as [|f IH]; intros i d log r d' log' j S0 H; [discriminate|].
  cbn [wait_loop] in H.
  assert (SL : forall i' l, seen_nothing w (until_step o) l -> (i <= i')%nat ->
    (let '(exit, es, j) := sleep_and_maybe_exit w o stop i' in
     if exit then Some (Ok (-1), d, (l ++ es)%list, j) else wait_loop w o stop f j d (l ++ es)%list) = Some (r, d', log', j) ->
    loop_end w o stop i d r d' log' j).
  { intros i' l Sl Le E. destruct (sleep_and_maybe_exit w o stop i') as [[exit es] j'] eqn:Es.
    pose proof (sleep_seen _ _ _ _ _ _ _ (until_step o) Es) as Ss.
    pose proof (sleep_moment _ _ _ _ _ _ _ Es) as Sm.
    destruct exit.
    - injection E as <- <- <- <-. left. split; [reflexivity|]. split; [reflexivity|]. split; [apply seen_app; assumption|].
      destruct (sleep_exit _ _ _ _ _ _ Es) as (s & A & B & C & D). exists s, i'.
      repeat split; auto. intros Hf; destruct (D Hf) as (a & ? & ? & ?). exists a; repeat split; try tauto.
      apply in_or_app; auto.
    - apply IH in E; [|apply seen_app; assumption].
      destruct E as [(A & B & C & s & k & D & E & F & G)|(k & s & rr & A & B & C)]; [left|right].
      + split; [assumption|]. split; [assumption|]. split; [assumption|]. exists s, k. split; [assumption|]. split; [lia|]. split; assumption.
      + exists k, s, rr. split; [assumption|]. split; [lia | tauto]. }
  destruct (dir_exists (w i)) eqn:De; cbn [negb] in H.
  2:{ apply (SL (S i) (log ++ [Missing i])%list); auto. apply seen_app; [assumption | apply seen_missing; assumption]. }
  destruct (newest (steps (w (S i)))) as [s|] eqn:Nw.
  2:{ apply (SL (S (S i)) (log ++ [Listed (S i)])%list); auto. apply seen_app; [assumption | apply seen_listed, nothing_none; assumption]. }
  destruct (reached_desired_step (Some s) (until_step o)) eqn:Re.
  2:{ apply (SL (S (S i)) (log ++ [Listed (S i)])%list); auto. apply seen_app; [assumption | apply seen_listed; eapply nothing_some; eassumption]. }
  destruct (snapshot_checkpoint w o (S (S i)) d s) as [[rr d1] j1] eqn:Sn.
  pose proof (snapshot_moment _ _ _ _ _ _ _ _ Sn) as [Mo Nf].
  assert (LL : last_look w (until_step o) (log ++ [Listed (S i)])%list (S i) s).
  { constructor; [assumption | apply newest_some in Nw; tauto | apply reached_iff; assumption]. }
  right. destruct rr as [[|]|e].
  - injection H as <- <- <- <-. exists (S i), s, (Ok true). split; [assumption|]. split; [lia|]. auto.
  - congruence.
  - injection H as <- <- <- <-. exists (S i), s, (Err e). split; [assumption|]. split; [lia|]. auto.
Qed.

Lemma wait_loop_fuel : forall w o stop fuel n i d log x,
  wait_loop w o stop fuel i d log = Some x -> wait_loop w o stop (fuel + n) i d log = Some x.
Proof.
  intros w o stop; induction fuel as [|f IH]; intros n i d log x H; [discriminate|].
  cbn [wait_loop Nat.add] in *.
  destruct (negb (dir_exists (w i))).
  { destruct (sleep_and_maybe_exit w o stop (S i)) as [[[|] es] j]; auto. }
  destruct (newest _) as [s|].
  2:{ destruct (sleep_and_maybe_exit w o stop (S (S i))) as [[[|] es] j]; auto. }
  destruct (reached_desired_step _ _).
  2:{ destruct (sleep_and_maybe_exit w o stop (S (S i))) as [[[|] es] j]; auto. }
  destruct (snapshot_checkpoint _ _ _ _ _) as [[[[|]|e] d1] j1]; auto.
Qed.

(** The loop ends when from some moment on it must. *)
Lemma wait_loop_ends : forall w o stop N,
  (forall i, (N <= i)%nat -> (exists s, stop = Some s /\ s < clock (w i) + seconds_to_sleep o /\ (has_timeout_fn o = true -> answer (w i) = true))) ->
  forall f i d log, (N <= f + i)%nat -> wait_loop w o stop (S f) i d log <> None.
Proof.
  intros w o stop N H. induction f as [|f IH]; intros i d log L E.
  - assert (SL : forall i' l, (i <= i')%nat ->
      (let '(exit, es, j) := sleep_and_maybe_exit w o stop i' in
       if exit then Some (Ok (-1), d, (l ++ es)%list, j) else wait_loop w o stop 0 j d (l ++ es)%list) <> None).
    { intros i' l Le. unfold sleep_and_maybe_exit.
      destruct (H i') as (s & -> & A & B); [lia|]. apply Z.ltb_lt in A; rewrite A.
      destruct (has_timeout_fn o) eqn:Hf; cbn; [|discriminate].
      destruct (H (S i')) as (_ & _ & _ & C); [lia|]. rewrite (C eq_refl). discriminate. }
    cbn [wait_loop] in E.
    destruct (negb _). { exact (SL _ _ (Nat.le_succ_diag_r i) E). }
    destruct (newest _) as [s|]; [|refine (SL _ _ _ E); lia].
    destruct (reached_desired_step _ _); [|refine (SL _ _ _ E); lia].
    destruct (snapshot_checkpoint _ _ _ _ _) as [[[[|]|e] d1] j1] eqn:Sn; try discriminate.
    apply snapshot_moment in Sn. destruct Sn as [_ Sn]. exact (Sn eq_refl).
  - assert (SL : forall i' l, (i < i')%nat ->
      (let '(exit, es, j) := sleep_and_maybe_exit w o stop i' in
       if exit then Some (Ok (-1), d, (l ++ es)%list, j) else wait_loop w o stop (S f) j d (l ++ es)%list) <> None).
    { intros i' l Le. destruct (sleep_and_maybe_exit w o stop i') as [[exit es] j'] eqn:Es.
      apply sleep_moment in Es. destruct exit; [discriminate|]. apply IH; lia. }
    remember (S f) as g. cbn [wait_loop] in E.
    destruct (negb _). { refine (SL _ _ _ E); lia. }
    destruct (newest _) as [s|]; [|refine (SL _ _ _ E); lia].
    destruct (reached_desired_step _ _); [|refine (SL _ _ _ E); lia].
    destruct (snapshot_checkpoint _ _ _ _ _) as [[[[|]|e] d1] j1] eqn:Sn; try discriminate.
    apply snapshot_moment in Sn. destruct Sn as [_ Sn]. exact (Sn eq_refl).
Qed.

(** The loop ends when from some moment on there is a wanted step. *)
Lemma wait_loop_finds : forall w o stop N,
  (forall i, (N <= i)%nat -> dir_exists (w i) = true /\ exists s, In s (steps (w i)) /\ wanted (until_step o) s) ->
  forall f i d log, (N <= f + i)%nat -> wait_loop w o stop (S f) i d log <> None.
Proof.
  intros w o stop N H. induction f as [|f IH]; intros i d log L E.
  - cbn [wait_loop] in E. destruct (H i) as [De _]; [lia|]. rewrite De in E. cbn [negb] in E.
    destruct (H (S i)) as (_ & s & Hs & Ws); [lia|].
    destruct (newest (steps (w (S i)))) as [m|] eqn:Nw; [|apply newest_none in Nw; rewrite Nw in Hs; destruct Hs].
    destruct (reached_desired_step (Some m) (until_step o)) eqn:Re.
    2:{ exact (nothing_some _ _ _ Nw Re s Hs Ws). }
    destruct (snapshot_checkpoint _ _ _ _ _) as [[[[|]|e] d1] j1] eqn:Sn; try discriminate.
    apply snapshot_moment in Sn. destruct Sn as [_ Sn]. exact (Sn eq_refl).
  - assert (SL : forall i' l, (i < i')%nat ->
      (let '(exit, es, j) := sleep_and_maybe_exit w o stop i' in
       if exit then Some (Ok (-1), d, (l ++ es)%list, j) else wait_loop w o stop (S f) j d (l ++ es)%list) <> None).
    { intros i' l Le. destruct (sleep_and_maybe_exit w o stop i') as [[exit es] j'] eqn:Es.
      apply sleep_moment in Es. destruct exit; [discriminate|]. apply IH; lia. }
    remember (S f) as g. cbn [wait_loop] in E.
    destruct (negb _). { refine (SL _ _ _ E); lia. }
    destruct (newest _) as [s|]; [|refine (SL _ _ _ E); lia].
    destruct (reached_desired_step _ _); [|refine (SL _ _ _ E); lia].
    destruct (snapshot_checkpoint _ _ _ _ _) as [[[[|]|e] d1] j1] eqn:Sn; try discriminate.
    apply snapshot_moment in Sn. destruct Sn as [_ Sn]. exact (Sn eq_refl).
Qed.

Lemma int32_ok : forall z, -2147483648 <= z <= 2147483647 -> int32 z = Ok z.
Proof. intros z H; unfold int32. replace (_ && _) with true; [reflexivity|]. symmetry; apply andb_true_intro; split; apply Z.leb_le; lia. Qed.

Lemma int32_inv : forall z s, int32 z = Ok s -> s = z /\ -2147483648 <= z <= 2147483647.
Proof.
  intros z s; unfold int32. destruct (_ && _) eqn:E; [|discriminate]. intros [= <-].
  apply andb_true_iff in E as [A B]. apply Z.leb_le in A, B. auto.
Qed.

Lemma snapshot_store : forall w o i d s rr d' j, snapshot_checkpoint w o i d s = (rr, d', j) ->
  d' = d \/ exists b, d' = (s, b) :: d.
Proof.
  intros w o i d s rr d' j H; unfold snapshot_checkpoint in H.
  destruct (negb _); [injection H as <- <- <-; auto|].
  destruct (negb _); [injection H as <- <- <-; auto|].
  destruct (in_store _ _); [injection H as <- <- <-; auto|].
  destruct (negb _); [injection H as <- <- <-; auto|].
  destruct (copy_error _) as [e|]; injection H as <- <- <-; [|right; eauto].
  destruct (leaves_part _); [right; eauto | auto].
Qed.

(** Snapshots of a step that is there. *)
Lemma snapshot_good : forall w o i d s rr d' j, snapshot_checkpoint w o i d s = (rr, d', j) ->
  (forall k, (i <= k)%nat -> In s (findable (w k))) -> (forall k, copy_error (w k) = None) ->
  rr = Ok true /\ ((in_store s d = true /\ d' = d) \/ d' = (s, true) :: d).
Proof.
  intros w o i d s rr d' j H F C; unfold snapshot_checkpoint in H.
  rewrite !(proj2 (has_iff s _)) in H by (apply F; lia). cbn [negb] in H. rewrite C in H.
  destruct (in_store s d); injection H as <- <- <-; auto.
Qed.

Lemma snapshot_complete : forall w o i s rr d' j, snapshot_checkpoint w o i [] s = (rr, d', j) ->
  (rr = Ok true -> ignore_snapshot_errors o = false \/ (forall k, copy_error (w k) <> Some FileNotFoundError) -> d' = [(s, true)]).
Proof.
  intros w o i s rr d' j H R I; unfold snapshot_checkpoint in H; cbn [in_store existsb] in H.
  destruct (negb _); [congruence|]. destruct (negb _); [congruence|]. destruct (negb _); [congruence|].
  destruct (copy_error _) as [e|] eqn:C; [|congruence].
  destruct I as [I|I]; [rewrite I in H; destruct e; cbn in H; congruence|]. specialize (I (S (S (S i)))). rewrite C in I. destruct e; cbn in H; congruence.
Qed.

Lemma release_single : forall o d s, (d = [] \/ exists b, d = [(s, b)]) -> snd (release_snapshot o d s) = [].
Proof.
  intros o d s [->|[b ->]]; unfold release_snapshot; cbn; [reflexivity|]. rewrite Z.eqb_refl; reflexivity.
Qed.

(** The wait as a whole. *)
Definition stop_of (w : nat -> view) (o : options) (i : nat) : option Z :=
  match timeout o with None => None | Some t => Some (clock (w i) + t) end.

Lemma wait_inv : forall w o fuel i d r d' log j,
  wait_for_new_checkpoint w o fuel i d = Some (r, d', log, j) ->
  exists r0, loop_end w o (stop_of w o i) (S i) d r0 d' log j /\ r = rbind r0 int32.
Proof.
  intros w o fuel i d r d' log j H; unfold wait_for_new_checkpoint in H. fold (stop_of w o i) in H.
  destruct (wait_loop _ _ _ _ _ _ _) as [[[[r0 d0] l0] j0]|] eqn:E; [|discriminate].
  injection H as <- <- <- <-. exists r0; split; [|reflexivity].
  eapply wait_loop_end; [apply seen_nil | exact E].
Qed.

Lemma wait_ok : forall w o fuel i d s d' log j,
  small_steps w ->
  wait_for_new_checkpoint w o fuel i d = Some (Ok s, d', log, j) ->
  (s = -1 /\ d' = d /\ seen_nothing w (until_step o) log
   /\ exists t k, timeout o = Some t /\ (i < k < j)%nat /\ clock (w i) + t < clock (w k) + seconds_to_sleep o
      /\ (has_timeout_fn o = true -> exists a, answer (w a) = true /\ (k < a < j)%nat /\ In (Asked a) log))
  \/ (0 <= s /\ exists k, last_look w (until_step o) log k s /\ (S i < k < j)%nat /\ dir_exists (w (pred k)) = true
      /\ snapshot_checkpoint w o (S k) d s = (Ok true, d', j)).
Proof.
  intros w o fuel i d s d' log j Sm H.
  apply wait_inv in H as (r0 & [(A & B & C & st & k & D & E & F & G)|(k & s' & rr & A & B & De & C & D & Nf)] & R).
  - left. subst r0 d'. cbn in R. injection R as <-.
    unfold stop_of in D. destruct (timeout o) as [t|]; [|discriminate]. injection D as <-.
    split; [reflexivity|]. split; [reflexivity|]. split; [assumption|]. exists t, k. split; [reflexivity|]. split; [lia|]. split; assumption.
  - right. destruct rr as [[|]|e]; [|congruence|subst; discriminate].
    subst r0. cbn in R. symmetry in R. apply int32_inv in R as [<- R].
    split. { destruct (last_look_in _ _ _ _ _ A) as [[H1 _] _]. specialize (Sm _ _ H1); lia. }
    exists k. split; [assumption|]. split; [lia | tauto].
Qed.

(** The iterator. *)
Definition next_options (o : options) (c : option Z) : options :=
  mk_options (option_map (fun s => s + 1) c) (seconds_to_sleep o) (timeout o) (has_timeout_fn o) (ignore_snapshot_errors o).

Lemma iterate_chain : forall w o, small_steps w -> forall fuel wf i d c ys e d' j,
  iterate w o fuel wf i d c = (ys, e, d', j) -> chain w c i ys.
Proof.
  intros w o Sm. induction fuel as [|f IH]; intros wf i d c ys e d' j H; cbn [iterate] in H.
  { injection H as <- <- <- <-; exact I. }
  fold (next_options o c) in H.
  destruct (wait_for_new_checkpoint w (next_options o c) wf i d) as [[[[[s|e1] d1] log] j1]|] eqn:W.
  2,3: injection H as <- <- <- <-; exact I.
  apply wait_ok in W; [|assumption].
  destruct W as [(-> & -> & _ & t & k & _ & K & _)|(P & k & L & B & _)].
  - rewrite Z.eqb_refl in H.
    destruct (negb _); [injection H as <- <- <- <-; exact I|].
    destruct (answer _); [injection H as <- <- <- <-; exact I|].
    assert (Mono : forall ys i i' c, (i <= i')%nat -> chain w c i' ys -> chain w c i ys).
    { clear. intros [|y ys] i i' c Le; cbn; [auto|]. intros [(k & A & B) C]; split; [exists k; split; [exact A | lia] | exact C]. }
    eapply Mono; [|eapply IH; exact H]. lia.
  - replace (s =? -1) with false in H by (symmetry; apply Z.eqb_neq; lia).
    destruct (release_snapshot o d1 s) as [released d2].
    assert (Y : exists k, last_look w (option_map (fun s => s + 1) c) log k s /\ (i < k < j1)%nat).
    { exists k; split; [exact L | lia]. }
    destruct released; [|injection H as <- <- <- <-; split; [exact Y | exact I]].
    destruct (closes _); [injection H as <- <- <- <-; split; [exact Y | exact I]|].
    destruct (iterate w o f wf (S j1) d2 (Some s)) as [[[ys' e'] d3] k'] eqn:E.
    injection H as <- <- <- <-. split; [exact Y | eapply IH; exact E].
Qed.

Lemma chain_above : forall w ys c i y, chain w c i ys -> In y ys -> (forall s, c = Some s -> s < y_step y) /\ (i < y_moment y)%nat.
Proof.
  intros w. induction ys as [|y0 ys IH]; intros c i y H Hy; [destruct Hy|].
  destruct H as [(k & L & B) C].
  assert (Up : forall s, c = Some s -> s < y_step y0).
  { intros s ->. destruct (last_look_in _ _ _ _ _ L) as [_ Wa]; cbn in Wa; lia. }
  destruct Hy as [<-|Hy]; [split; [exact Up | lia]|].
  destruct (IH _ _ _ C Hy) as [A D]. specialize (A _ eq_refl).
  split; [intros s Hs; specialize (Up s Hs); lia | lia].
Qed.

Lemma chain_increasing : forall w ys c i, chain w c i ys -> increasing (map y_step ys) /\ increasing_nat (map y_moment ys).
Proof.
  intros w. induction ys as [|y ys IH]; intros c i H; cbn; [auto|].
  destruct H as [_ C]. destruct (IH _ _ C) as [A B]. repeat split; auto; intros z Hz; apply in_map_iff in Hz as (y' & <- & Hy').
  - destruct (chain_above _ _ _ _ _ C Hy') as [D _]. apply D; reflexivity.
  - destruct (chain_above _ _ _ _ _ C Hy') as [_ D]. lia.
Qed.

Lemma wait_store : forall w o fuel i r d' log j,
  wait_for_new_checkpoint w o fuel i [] = Some (r, d', log, j) ->
  (forall s, r = Ok s -> d' = [] \/ exists b, d' = [(s, b)]) /\ (List.length d' <= 1)%nat.
Proof.
  intros w o fuel i r d' log j H.
  apply wait_inv in H as (r0 & [(A & B & C)|(k & s' & rr & A & B & De & C & D & Nf)] & R).
  - subst. split; [auto | cbn; lia].
  - apply snapshot_store in C. subst r0. split.
    + intros s Hs. subst r. destruct rr; [|discriminate]. symmetry in Hs; apply eq_sym in Hs; cbn in Hs.
      apply int32_inv in Hs as [-> _]. exact C.
    + destruct C as [->|[b ->]]; cbn; lia.
Qed.

Lemma iterate_store : forall w o, small_steps w -> forall fuel wf i c ys e d' j,
  iterate w o fuel wf i [] c = (ys, e, d', j) ->
  ((forall x, e <> Raised x) -> d' = []) /\ (List.length d' <= 1)%nat
  /\ (forall y, In y ys -> (y_store y = [] \/ exists b, y_store y = [(y_step y, b)]) /\ (ignore_snapshot_errors o = false \/ (forall k, copy_error (w k) <> Some FileNotFoundError) -> y_store y = [(y_step y, true)])).
Proof.
  intros w o Sm. induction fuel as [|f IH]; intros wf i c ys e d' j H; cbn [iterate] in H.
  { injection H as <- <- <- <-; repeat split; auto; try (cbn; lia); destruct H. }
  fold (next_options o c) in H.
  destruct (wait_for_new_checkpoint w (next_options o c) wf i []) as [[[[[s|e1] d1] log] j1]|] eqn:W.
  3: injection H as <- <- <- <-; repeat split; auto; try (cbn; lia); destruct H.
  2: { injection H as <- <- <- <-. destruct (wait_store _ _ _ _ _ _ _ _ W) as [_ L]. repeat split; auto; [|destruct H..].
       intros N; exfalso; exact (N e1 eq_refl). }
  pose proof (wait_store _ _ _ _ _ _ _ _ W) as [St _]. specialize (St s eq_refl).
  apply wait_ok in W; [|assumption].
  destruct W as [(-> & -> & _)|(P & k & L & B & _ & Sn)].
  - rewrite Z.eqb_refl in H.
    destruct (negb _); [injection H as <- <- <- <-; repeat split; auto; try (cbn; lia); destruct H|].
    destruct (answer _); [injection H as <- <- <- <-; repeat split; auto; try (cbn; lia); destruct H|].
    eapply IH; exact H.
  - replace (s =? -1) with false in H by (symmetry; apply Z.eqb_neq; lia).
    pose proof (release_single o d1 s St) as Re.
    destruct (release_snapshot o d1 s) as [released d2]. cbn in Re; subst d2.
    assert (Y : (d1 = [] \/ exists b, d1 = [(s, b)]) /\ (ignore_snapshot_errors o = false \/ (forall k, copy_error (w k) <> Some FileNotFoundError) -> d1 = [(s, true)])).
    { split; [exact St|]. intros I.
      eapply snapshot_complete; [exact Sn | reflexivity | exact I]. }
    destruct released.
    2:{ injection H as <- <- <- <-. split; [auto|]. split; [cbn; lia|]. intros y [<-|[]]; exact Y. }
    destruct (closes _).
    { injection H as <- <- <- <-. split; [auto|]. split; [cbn; lia|]. intros y [<-|[]]; exact Y. }
    destruct (iterate w o f wf (S j1) [] (Some s)) as [[[ys' e'] d3] k'] eqn:E.
    injection H as <- <- <- <-. destruct (IH _ _ _ _ _ _ _ E) as (A1 & A2 & A3).
    split; [exact A1|]. split; [exact A2|]. intros y [<-|Hy]; [exact Y | exact (A3 y Hy)].
Qed.

Lemma iterate_moment : forall w o, small_steps w -> forall fuel wf i d c ys e d' j,
  iterate w o fuel wf i d c = (ys, e, d', j) -> (e = Waiting \/ (forall x, e <> Raised x) -> (i <= j)%nat) /\ 
  (e = Stopped -> timed_out w o i j /\ (has_timeout_fn o = true -> exists a b, (i < a < b)%nat /\ (S b = j)%nat /\ answer (w a) = true /\ answer (w b) = true)).
Proof.
  intros w o Sm. induction fuel as [|f IH]; intros wf i d c ys e d' j H; cbn [iterate] in H.
  { injection H as <- <- <- <-; split; [lia | discriminate]. }
  fold (next_options o c) in H.
  destruct (wait_for_new_checkpoint w (next_options o c) wf i d) as [[[[[s|e1] d1] log] j1]|] eqn:W.
  3: injection H as <- <- <- <-; split; [lia | discriminate].
  2: { injection H as <- <- <- <-. split; [|discriminate]. intros [N|N]; [discriminate | exfalso; exact (N e1 eq_refl)]. }
  apply wait_ok in W; [|assumption].
  destruct W as [(-> & -> & _ & t & k & T & K & Cl & An)|(P & k & L & B & _)].
  - rewrite Z.eqb_refl in H. cbn [timeout next_options seconds_to_sleep has_timeout_fn] in T, Cl, An.
    destruct (has_timeout_fn o) eqn:Hf; cbn [negb] in H.
    2:{ injection H as <- <- <- <-. split; [lia|]. intros _. split; [|discriminate]. exists t, i, k. repeat split; auto; lia. }
    destruct (An eq_refl) as (a & Aa & Ab & _).
    destruct (answer (w j1)) eqn:An2.
    { injection H as <- <- <- <-. split; [lia|]. intros _. split; [exists t, i, k; repeat split; auto; lia|].
      intros _; exists a, j1. repeat split; auto; lia. }
    destruct (IH _ _ _ _ _ _ _ _ H) as [A1 A2]. split; [intros Hx; specialize (A1 Hx); lia|].
    intros He; destruct (A2 He) as [(t' & x & y & X1 & X2 & X3 & X4) X5]. split.
    + exists t', x, y; repeat split; auto; lia.
    + intros _. destruct (X5 eq_refl) as (a' & b' & ? & ? & ? & ?). exists a', b'; repeat split; auto; lia.
  - replace (s =? -1) with false in H by (symmetry; apply Z.eqb_neq; lia).
    destruct (release_snapshot o d1 s) as [released d2].
    destruct released.
    2:{ injection H as <- <- <- <-. split; [lia | discriminate]. }
    destruct (closes _). { injection H as <- <- <- <-. split; [lia | discriminate]. }
    destruct (iterate w o f wf (S j1) d2 (Some s)) as [[[ys' e'] d3] k'] eqn:E.
    injection H as <- <- <- <-. destruct (IH _ _ _ _ _ _ _ _ E) as [A1 A2].
    split; [intros Hx; specialize (A1 Hx); lia|].
    intros He; destruct (A2 He) as [(t' & x & y & X1 & X2 & X3 & X4) X5]. split.
    + exists t', x, y; repeat split; auto; lia.
    + intros Hf. destruct (X5 Hf) as (a' & b' & ? & ? & ? & ?). exists a', b'; repeat split; auto; lia.
Qed.

Lemma wait_steady : forall w o fuel i d e d' log j, small_steps w -> steady w ->
  wait_for_new_checkpoint w o fuel i d <> Some (Err e, d', log, j).
Proof.
  intros w o fuel i d e d' log j Sm [Fi Co] H.
  apply wait_inv in H as (r0 & [(A & B & C)|(k & s' & rr & A & B & De & C & D & Nf)] & R).
  - subst r0; discriminate.
  - assert (In s' (steps (w k))) by apply (last_look_in _ _ _ _ _ A).
    apply snapshot_good in C; [|intros k' Hk; eapply (Fi k); [lia | assumption] | exact Co].
    destruct C as [-> _]. subst r0. cbn in R. rewrite int32_ok in R; [discriminate|]. specialize (Sm _ _ H); lia.
Qed.

Lemma iterate_steady : forall w o, small_steps w -> steady w -> forall fuel wf i c ys e d' j x,
  iterate w o fuel wf i [] c = (ys, e, d', j) -> e <> Raised x.
Proof.
  intros w o Sm Sd. induction fuel as [|f IH]; intros wf i c ys e d' j x H; cbn [iterate] in H.
  { injection H as <- <- <- <-; discriminate. }
  fold (next_options o c) in H.
  destruct (wait_for_new_checkpoint w (next_options o c) wf i []) as [[[[[s|e1] d1] log] j1]|] eqn:W.
  3: injection H as <- <- <- <-; discriminate.
  2: exfalso; eapply wait_steady; eassumption.
  apply wait_ok in W; [|assumption].
  destruct W as [(-> & -> & _ & t & k & T & K & Cl & An)|(P & k & L & B & _ & Sn)].
  - rewrite Z.eqb_refl in H.
    destruct (negb _); [injection H as <- <- <- <-; discriminate|].
    destruct (answer _); [injection H as <- <- <- <-; discriminate|]. eapply IH; exact H.
  - replace (s =? -1) with false in H by (symmetry; apply Z.eqb_neq; lia).
    destruct Sd as [Fi Co].
    assert (In s (steps (w k))) by apply (last_look_in _ _ _ _ _ L).
    apply snapshot_good in Sn; [|intros k' Hk; eapply (Fi k); [lia | assumption] | exact Co].
    destruct Sn as [_ [[X _]| ->]]; [discriminate|].
    unfold release_snapshot in H; cbn [in_store existsb fst] in H. rewrite Z.eqb_refl in H. cbn [orb filter fst] in H. rewrite Z.eqb_refl in H. cbn [negb] in H.
    destruct (closes _); [injection H as <- <- <- <-; discriminate|].
    destruct (iterate w o f wf (S j1) [] (Some s)) as [[[ys' e'] d3] k'] eqn:E.
    injection H as <- <- <- <-. eapply IH; exact E.
Qed.

Lemma wait_found : forall w o m N,
  (forall k, (N <= k)%nat -> dir_exists (w k) = true /\ In m (steps (w k))) -> wanted (until_step o) m ->
  forall i d, wait_for_new_checkpoint w o (S N) i d <> None.
Proof.
  intros w o m N Hm Wa i d. unfold wait_for_new_checkpoint.
  destruct (wait_loop w o _ (S N) (S i) d []) as [[[[? ?] ?] ?]|] eqn:E; [discriminate|].
  exfalso; revert E. apply (wait_loop_finds _ _ _ N); [|lia].
  intros k Hk; destruct (Hm k Hk) as [A B]. split; [exact A | exists m; auto].
Qed.

(** A step that stays is reached. *)
Lemma iterate_reaches : forall w o m N, small_steps w -> steady w -> timeout o = None ->
  (forall k, closes (w k) = false) ->
  (forall k, (N <= k)%nat -> dir_exists (w k) = true /\ In m (steps (w k))) ->
  forall f i c, (N <= f + i)%nat -> (forall s, c = Some s -> s < m) ->
  forall ys e d' j, iterate w o (S f) (S N) i [] c = (ys, e, d', j) -> exists y, In y ys /\ m <= y_step y.
Proof.
  intros w o m N Sm Sd To Cl Hm. induction f as [|f IH]; intros i c Le Lt ys e d' j H.
  2: remember (S f) as g eqn:Hg in H.
  all: cbn [iterate] in H; fold (next_options o c) in H.
  all: assert (Wn : wait_for_new_checkpoint w (next_options o c) (S N) i [] <> None).
  1,3: apply (wait_found w (next_options o c) m N); [exact Hm | destruct c as [c|]; cbn; [specialize (Lt c eq_refl); lia | exact I]].
  all: destruct (wait_for_new_checkpoint w (next_options o c) (S N) i []) as [[[[[s|e1] d1] log] j1]|] eqn:W; [| exfalso; eapply wait_steady; eassumption | congruence].
  all: apply wait_ok in W; [|assumption].
  all: destruct W as [(-> & -> & _ & t & k & T & K & _)|(P & k & L & B & De & Sn)]; [cbn in T; congruence|].
  all: replace (s =? -1) with false in H by (symmetry; apply Z.eqb_neq; lia).
  all: destruct Sd as [Fi Co].
  all: assert (Ins : In s (steps (w k)) /\ forall x, In x (steps (w k)) -> x <= s) by apply (last_look_in _ _ _ _ _ L).
  all: apply snapshot_good in Sn; [|intros k' Hk; eapply (Fi k); [lia | tauto] | exact Co].
  all: destruct Sn as [_ [[X _]| ->]]; [discriminate|].
  all: unfold release_snapshot in H; cbn [in_store existsb fst] in H; rewrite Z.eqb_refl in H; cbn [orb filter fst] in H; rewrite Z.eqb_refl in H; cbn [negb] in H.
  all: rewrite Cl in H.
  - destruct (iterate w o 0 (S N) (S j1) [] (Some s)) as [[[ys' e'] d3] k'] eqn:E.
    injection H as <- <- <- <-. eexists; split; [left; reflexivity|]. cbn.
    apply (proj2 Ins). apply (Hm k); lia.
  - subst g. destruct (iterate w o (S f) (S N) (S j1) [] (Some s)) as [[[ys' e'] d3] k'] eqn:E.
    injection H as <- <- <- <-.
    destruct (Z.le_gt_cases m s) as [Hms|Hms]; [eexists; split; [left; reflexivity | exact Hms]|].
    eapply IH in E as (y & Hy & My); [|lia | intros s' [= <-]; exact Hms].
    exists y; split; [right; exact Hy | exact My].
Qed.
