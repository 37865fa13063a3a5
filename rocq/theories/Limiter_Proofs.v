(** Proofs for C28. *)
From Coq Require Import ZArith List Bool Lia.
From Verif Require Import Base Limiter_Model Limiter_Spec.
Import ListNotations.
Local Open Scope Z_scope.

Ltac spl := repeat match goal with |- _ /\ _ => split end.

Lemma nth_split_set : forall {A} i (l : list A) t x, nth_error l i = Some t ->
  exists l1 l2, l = l1 ++ t :: l2 /\ List.length l1 = i /\ set_nth i x l = l1 ++ x :: l2.
Proof.
  intros A i. induction i; destruct l as [|a l]; simpl; intros t x H; try discriminate.
  - injection H as <-. exists [], l. auto.
  - destruct (IHi l t x H) as (l1 & l2 & -> & L & E). exists (a :: l1), l2. simpl. rewrite E. auto.
Qed.

Lemma flight_app : forall a b, in_flight (a ++ b) = in_flight a + in_flight b.
Proof. induction a; simpl; intros; auto. rewrite IHa. lia. Qed.

Lemma flight_notify : forall l, in_flight (map notify l) = in_flight l.
Proof. induction l as [|[n p] l IH]; simpl; auto. rewrite IH. destruct p; simpl; auto. Qed.

(** The invariant. *)
Definition ok_task (m avail : Z) (t : task) : Prop :=
  0 <= nbytes t /\
  match ph t with
  | Start => True
  | Waiting => avail <= nbytes t /\ nbytes t < m
  | Notified | Inside | Done | Raised => nbytes t < m
  | Rejected => m <= nbytes t
  | Cancelled => True
  | Broken => False
  end.

Definition inv (st : state) : Prop :=
  1 <= available st /\ available st + in_flight (tasks st) = max_bytes st /\
  Forall (ok_task (max_bytes st) (available st)) (tasks st).

Lemma flight_nonneg : forall m a l, Forall (ok_task m a) l -> 0 <= in_flight l.
Proof. intros m a l H. induction H as [|[n p] l [H _] F IH]; simpl in *; [lia|]. destruct p; lia. Qed.

Lemma ok_less : forall m a b t, b <= a -> ok_task m a t -> ok_task m b t.
Proof. intros m a b [n p] L [H K]. split; auto. simpl in *. destruct p; auto. lia. Qed.

Lemma ok_notify : forall m a b t, ok_task m a t -> ok_task m b (notify t).
Proof. intros m a b [n p] [H K]. unfold notify; simpl in *. destruct p; split; simpl; auto; lia. Qed.

Lemma inv_init : forall m sizes, 1 <= m -> Forall (fun n => 0 <= n) sizes -> inv (initial m sizes).
Proof.
  intros m sizes Hm F. unfold inv, initial; simpl. spl; auto.
  - assert (in_flight (map (fun n => mk_task n Start) sizes) = 0) by (clear; induction sizes; simpl; auto). lia.
  - induction F; simpl; constructor; auto. split; simpl; auto.
Qed.

Lemma try_inv : forall st i t, inv st -> nth_error (tasks st) i = Some t -> (ph t = Start \/ ph t = Notified) -> nbytes t < max_bytes st ->
  inv (try_reserve st i t).
Proof.
  intros [m a l] i [n p] (A & B & F) N P L. simpl in *. unfold try_reserve; simpl.
  destruct (Z.ltb_spec n a).
  - destruct (Z.leb_spec 0 (a - n)); [|lia].
    destruct (nth_split_set i l _ (mk_task n Inside) N) as (l1 & l2 & -> & _ & E). simpl. rewrite E. unfold inv; simpl.
    apply Forall_app in F as [F1 F2]. apply Forall_cons_iff in F2 as [[Hn _] F3]. simpl in Hn. rewrite flight_app in *. simpl in *.
    spl; try lia.
    + destruct P as [-> | ->]; simpl in *; lia.
    + apply Forall_app; split; [|constructor].
      * eapply Forall_impl; [|exact F1]. intros; eapply ok_less; eauto; lia.
      * split; simpl; auto.
      * eapply Forall_impl; [|exact F3]. intros; eapply ok_less; eauto; lia.
  - destruct (nth_split_set i l _ (mk_task n Waiting) N) as (l1 & l2 & -> & _ & E). simpl. rewrite E. unfold inv; simpl.
    apply Forall_app in F as [F1 F2]. apply Forall_cons_iff in F2 as [[Hn _] F3]. simpl in Hn. rewrite flight_app in *. simpl in *.
    spl; auto; try lia.
    + destruct P as [-> | ->]; simpl in *; lia.
    + apply Forall_app; split; auto. constructor; auto. split; simpl; auto; lia.
Qed.

Lemma map_notify_app : forall l1 t l2, map notify (l1 ++ t :: l2) = map notify l1 ++ notify t :: map notify l2.
Proof. intros. rewrite map_app. auto. Qed.

Lemma step_inv : forall st e st', inv st -> step st e = Some st' -> inv st' /\ max_bytes st' = max_bytes st.
Proof.
  intros st e st' I H. destruct e as [i|i ok|i]; simpl in H; destruct (nth_error (tasks st) i) as [t|] eqn:N; try discriminate.
  - destruct (ph t) eqn:P; try discriminate.
    + destruct (Z.leb_spec (max_bytes st) (nbytes t)); injection H as <-.
      * split; auto. destruct st as [m a l], t as [n p]. simpl in *. subst p. destruct I as (A & B & F). simpl in *.
        destruct (nth_split_set i l _ (mk_task n Rejected) N) as (l1 & l2 & -> & _ & E). rewrite E. unfold inv; simpl.
        apply Forall_app in F as [F1 F2]. apply Forall_cons_iff in F2 as [[Hn _] F3]. rewrite flight_app in *. simpl in *. spl; auto; try lia.
        apply Forall_app; split; auto. constructor; auto. split; simpl; auto.
      * split; [apply try_inv; auto|]. unfold try_reserve. destruct (nbytes t <? available st); auto.
    + injection H as <-. split; [apply try_inv; auto|unfold try_reserve; destruct (nbytes t <? available st); auto].
      destruct I as (A & B & F). rewrite Forall_forall in F. destruct (F t (nth_error_In _ _ N)) as [_ K]. rewrite P in K. auto.
  - destruct (ph t) eqn:P; try discriminate. injection H as <-.
    destruct st as [m a l], t as [n p]. simpl in *. subst p. destruct I as (A & B & F). simpl in *. unfold release; simpl.
    assert (Hle : a + n <= m).
    { destruct (nth_split_set i l _ (mk_task n Inside) N) as (l1 & l2 & -> & _ & _). apply Forall_app in F as [F1 F2]. apply Forall_cons_iff in F2 as [_ F2].
      rewrite flight_app in B. simpl in B. apply flight_nonneg in F1. apply flight_nonneg in F2. lia. }
    destruct (Z.leb_spec (a + n) m); [|lia]. split; auto.
    destruct (nth_split_set i (map notify l) (mk_task n Inside) (mk_task n (if ok then Done else Raised))) as (l1 & l2 & E1 & _ & E).
    { rewrite nth_error_map, N. auto. }
    rewrite E. assert (FN : Forall (ok_task m (a + n)) (map notify l)).
    { apply Forall_map. eapply Forall_impl; [|exact F]. intros; eapply ok_notify; eauto. }
    pose proof (flight_notify l) as EQ. rewrite E1 in *. unfold inv; simpl. rewrite flight_app in *. simpl in *.
    apply Forall_app in FN as [F1 F2]. apply Forall_cons_iff in F2 as [[Hn K] F3]. simpl in *.
    destruct (nth_split_set i l _ (mk_task n Inside) N) as (m1 & m2 & -> & _ & _). rewrite flight_app in *. simpl in *.
    spl; try lia.
    + destruct ok; lia.
    + apply Forall_app; split; auto. constructor; auto. split; simpl; auto. destruct ok; auto.
  - assert (X : inv (mk_state (max_bytes st) (available st) (set_nth i (mk_task (nbytes t) Cancelled) (tasks st))) \/ ph t = Inside).
    { destruct st as [m a l], t as [n p]. simpl in *. destruct I as (A & B & F). simpl in *.
      destruct (nth_split_set i l _ (mk_task n Cancelled) N) as (l1 & l2 & -> & _ & E). rewrite E.
      apply Forall_app in F as [F1 F2]. apply Forall_cons_iff in F2 as [[Hn _] F3]. rewrite flight_app in *. simpl in *.
      destruct p; auto; left; unfold inv; simpl; rewrite flight_app; simpl; (spl; auto; try lia; apply Forall_app; split; auto; constructor; auto; split; simpl; auto). }
    destruct (ph t); try discriminate; injection H as <-; split; auto; destruct X; auto; discriminate.
Qed.

Lemma play_inv : forall es st st', inv st -> play st es = Some st' -> inv st' /\ max_bytes st' = max_bytes st.
Proof.
  induction es as [|e es IH]; simpl; intros st st' I H.
  - injection H as <-. auto.
  - destruct (step st e) as [s|] eqn:E; [|discriminate]. destruct (step_inv _ _ _ I E) as [I' M]. destruct (IH _ _ I' H). split; auto. congruence.
Qed.

Lemma bound_ok : forall m sizes es st, 1 <= m -> Forall (fun n => 0 <= n) sizes -> play (initial m sizes) es = Some st ->
  available st + in_flight (tasks st) = m /\ 0 <= in_flight (tasks st) < m /\ (forall t, In t (tasks st) -> ph t <> Broken).
Proof.
  intros m sizes es st Hm F P. destruct (play_inv _ _ _ (inv_init m sizes Hm F) P) as [(A & B & C) M]. simpl in M. rewrite M in *.
  pose proof (flight_nonneg _ _ _ C). spl; auto; try lia.
  intros t Ht E. rewrite Forall_forall in C. destruct (C t Ht) as [_ K]. rewrite E in K. auto.
Qed.

(** Sizes do not change. *)
Lemma sizes_set : forall l i t p, nth_error l i = Some t -> map nbytes (set_nth i (mk_task (nbytes t) p) l) = map nbytes l.
Proof. intros l i t p N. destruct (nth_split_set i l t (mk_task (nbytes t) p) N) as (l1 & l2 & -> & _ & ->). rewrite !map_app. auto. Qed.

Lemma sizes_notify : forall l, map nbytes (map notify l) = map nbytes l.
Proof. intros. rewrite map_map. apply map_ext. intros [n p]; destruct p; auto. Qed.

Lemma sizes_notify_set : forall l i t p, nth_error l i = Some t -> map nbytes (set_nth i (mk_task (nbytes t) p) (map notify l)) = map nbytes l.
Proof.
  intros l i t p N. rewrite <- (sizes_notify l). rewrite <- (sizes_set (map notify l) i (notify t) p).
  - assert (nbytes (notify t) = nbytes t) by (destruct t as [n q]; destruct q; auto). rewrite H. auto.
  - rewrite nth_error_map, N. auto.
Qed.

Lemma step_sizes : forall st e st', step st e = Some st' -> map nbytes (tasks st') = map nbytes (tasks st).
Proof.
  intros st e st' H. destruct e as [i|i ok|i]; simpl in H; destruct (nth_error (tasks st) i) as [t|] eqn:N; try discriminate;
    destruct (ph t) eqn:P; try discriminate.
  all: repeat match goal with H : (if ?b then _ else _) = _ |- _ => destruct b end; injection H as <-; simpl; unfold try_reserve, release;
    repeat match goal with |- context [if ?b then mk_state _ _ _ else _] => destruct b end; simpl; auto using sizes_set, sizes_notify_set.
Qed.

Lemma play_sizes : forall es st st', play st es = Some st' -> map nbytes (tasks st') = map nbytes (tasks st).
Proof.
  induction es as [|e es IH]; simpl; intros st st' H. - injection H as <-. auto.
  - destruct (step st e) eqn:E; [|discriminate]. rewrite (IH _ _ H). eapply step_sizes; eauto.
Qed.

(** Who is rejected. *)
Lemma reject_now : forall st i t, nth_error (tasks st) i = Some t -> ph t = Start -> max_bytes st <= nbytes t ->
  exists st', step st (Run i) = Some st' /\ available st' = available st /\ nth_error (tasks st') i = Some (mk_task (nbytes t) Rejected).
Proof.
  intros st i t N P L. simpl. rewrite N, P. destruct (Z.leb_spec (max_bytes st) (nbytes t)); [|lia]. eexists. spl; eauto. simpl.
  destruct (nth_split_set i (tasks st) t (mk_task (nbytes t) Rejected) N) as (l1 & l2 & E1 & Li & ->). rewrite nth_error_app2 by lia. rewrite Li, Nat.sub_diag. auto.
Qed.

Lemma rejected_iff : forall m sizes es st t, 1 <= m -> Forall (fun n => 0 <= n) sizes -> play (initial m sizes) es = Some st ->
  In t (tasks st) -> (ph t = Rejected -> m <= nbytes t) /\ (m <= nbytes t -> ph t = Start \/ ph t = Rejected \/ ph t = Cancelled).
Proof.
  intros m sizes es st t Hm F P Ht. destruct (play_inv _ _ _ (inv_init m sizes Hm F) P) as [(A & B & C) M]. simpl in M. rewrite M in *.
  rewrite Forall_forall in C. destruct (C t Ht) as [_ K]. destruct (ph t); split; intros; auto; try discriminate; try lia; try contradiction.
Qed.

(** A reservation is returned whatever ends the body. *)
Lemma returned : forall m sizes es st i t ok, 1 <= m -> Forall (fun n => 0 <= n) sizes -> play (initial m sizes) es = Some st ->
  nth_error (tasks st) i = Some t -> ph t = Inside ->
  exists st', step st (End i ok) = Some st' /\ available st' = available st + nbytes t /\
    (forall u, In u (tasks st') -> ph u <> Waiting).
Proof.
  intros m sizes es st i t ok Hm F P N E. destruct (play_inv _ _ _ (inv_init m sizes Hm F) P) as [I M].
  destruct (step st (End i ok)) as [st'|] eqn:S; [|simpl in S; rewrite N, E in S; discriminate].
  pose proof S as S'. simpl in S'. rewrite N, E in S'. injection S' as <-. eexists. split; [reflexivity|].
  destruct (step_inv _ _ _ I S) as [(A & B & C) _]. unfold release in *.
  destruct (available st + nbytes t <=? max_bytes st); simpl in *.
  - split; auto. intros u Hu. destruct (nth_split_set i (map notify (tasks st)) (notify t) (mk_task (nbytes t) (if ok then Done else Raised))) as (l1 & l2 & E1 & _ & E2).
    { rewrite nth_error_map, N. auto. }
    rewrite E2 in Hu. apply in_app_or in Hu as [Hu|[<-|Hu]].
    + assert (X : In u (map notify (tasks st))) by (rewrite E1; apply in_or_app; auto). apply in_map_iff in X as ([n p] & <- & _). destruct p; discriminate.
    + destruct ok; discriminate.
    + assert (X : In u (map notify (tasks st))) by (rewrite E1; apply in_or_app; simpl; auto). apply in_map_iff in X as ([n p] & <- & _). destruct p; discriminate.
  - exfalso. destruct (nth_split_set i (tasks st) t (mk_task (nbytes t) Broken) N) as (l1 & l2 & E1 & _ & E2). rewrite E2 in C.
    apply Forall_app in C as [_ C]. inversion C as [|x y [_ K] _]; subst. auto.
Qed.

(** No deadlock: while a coroutine is not over, some coroutine can be resumed or
    is in its body. *)
Lemma flight_some : forall l, in_flight l <> 0 -> exists t, In t l /\ ph t = Inside.
Proof.
  induction l as [|t l IH]; simpl; intros H; [lia|]. destruct (ph t) eqn:P; try (destruct IH as (u & X & Y); [lia|exists u; auto]).
  exists t. auto.
Qed.

Lemma live : forall m sizes es st, 1 <= m -> Forall (fun n => 0 <= n) sizes -> play (initial m sizes) es = Some st ->
  (exists t, In t (tasks st) /\ ~ over t) ->
  exists i st', step st (Run i) = Some st' \/ step st (End i true) = Some st'.
Proof.
  intros m sizes es st Hm F P (t & Ht & NO). destruct (play_inv _ _ _ (inv_init m sizes Hm F) P) as [(A & B & C) M].
  rewrite Forall_forall in C. destruct (C t Ht) as [Hn K].
  assert (X : (exists u, In u (tasks st) /\ ph u = Inside) -> exists i st', step st (Run i) = Some st' \/ step st (End i true) = Some st').
  { intros (u & Hu & Pu). apply In_nth_error in Hu as [i Hi]. exists i. eexists. right. simpl. rewrite Hi, Pu. reflexivity. }
  unfold over in NO. destruct (ph t) eqn:E; try tauto.
  - apply In_nth_error in Ht as [i Hi]. exists i. simpl. rewrite Hi, E. destruct (max_bytes st <=? nbytes t); eauto.
  - apply X. apply flight_some. lia.
  - apply In_nth_error in Ht as [i Hi]. exists i. simpl. rewrite Hi, E. eauto.
  - apply X. eauto.
Qed.

Lemma waiting_reason : forall m sizes es st t, 1 <= m -> Forall (fun n => 0 <= n) sizes -> play (initial m sizes) es = Some st ->
  In t (tasks st) -> ph t = Waiting -> available st <= nbytes t /\ exists u, In u (tasks st) /\ ph u = Inside.
Proof.
  intros m sizes es st t Hm F P Ht E. destruct (play_inv _ _ _ (inv_init m sizes Hm F) P) as [(A & B & C) M].
  rewrite Forall_forall in C. destruct (C t Ht) as [Hn K]. rewrite E in K. split; [apply K|]. apply flight_some. lia.
Qed.

(** Every run ends. *)
Definition weight (n : nat) (p : phase) : nat :=
  match p with Start => n + 4 | Notified => n + 3 | Waiting => n + 2 | Inside => n + 1 | _ => 0 end.
Fixpoint total (n : nat) (l : list task) : nat :=
  match l with [] => 0 | t :: r => weight n (ph t) + total n r end.

Lemma total_app : forall n a b, total n (a ++ b) = (total n a + total n b)%nat.
Proof. induction a; simpl; intros; auto. rewrite IHa. lia. Qed.

Lemma total_notify : forall n l, (total n (map notify l) <= total n l + List.length l)%nat.
Proof. induction l as [|[k p] l IH]; simpl; auto. destruct p; simpl; lia. Qed.

Lemma set_len : forall {A} i (x : A) l, List.length (set_nth i x l) = List.length l.
Proof. induction i; destruct l; simpl; auto. Qed.

Lemma total_set : forall n l i t p, nth_error l i = Some t -> (weight n p < weight n (ph t))%nat ->
  (total n (set_nth i (mk_task (nbytes t) p) l) < total n l)%nat.
Proof.
  intros n l i t p N W. destruct (nth_split_set i l t (mk_task (nbytes t) p) N) as (l1 & l2 & -> & _ & ->). rewrite !total_app. simpl. lia.
Qed.

Lemma step_total : forall st e st', step st e = Some st' ->
  (total (List.length (tasks st)) (tasks st') < total (List.length (tasks st)) (tasks st))%nat /\ List.length (tasks st') = List.length (tasks st).
Proof.
  intros st e st' H. split; [|rewrite <- (map_length nbytes), (step_sizes _ _ _ H), map_length; auto].
  destruct e as [i|i ok|i]; simpl in H; destruct (nth_error (tasks st) i) as [t|] eqn:N; try discriminate; destruct (ph t) eqn:P; try discriminate.
  all: repeat match goal with H : (if ?b then _ else _) = _ |- _ => destruct b end; injection H as <-; simpl; unfold try_reserve, release.
  all: repeat match goal with |- context [if ?b then mk_state _ _ _ else _] => destruct b end; simpl.
  all: try (apply total_set; auto; rewrite P; simpl; try lia; match goal with |- context [if ?b then _ else _] => destruct b end; simpl; lia).
  set (k := List.length (tasks st)).
  destruct (nth_split_set i (map notify (tasks st)) (notify t) (mk_task (nbytes t) (if ok then Done else Raised))) as (l1 & l2 & E1 & _ & E2).
  { rewrite nth_error_map, N. auto. }
  rewrite E2. pose proof (total_notify k (tasks st)) as T. rewrite E1 in T. rewrite total_app in *. simpl in *.
  assert (W : weight k (ph (notify t)) = (k + 1)%nat) by (unfold notify; rewrite P, P; auto). rewrite W in T.
  assert (W2 : weight k (if ok then Done else Raised) = 0%nat) by (destruct ok; auto). rewrite W2. fold k in T. lia.
Qed.

Lemma play_total : forall es st st', play st es = Some st' -> (List.length es + total (List.length (tasks st)) (tasks st') <= total (List.length (tasks st)) (tasks st))%nat.
Proof.
  induction es as [|e es IH]; simpl; intros st st' H. - injection H as <-. lia.
  - destruct (step st e) as [s|] eqn:E; [|discriminate]. destruct (step_total _ _ _ E) as [T L]. specialize (IH _ _ H). rewrite L in IH. lia.
Qed.

Lemma bounded : forall m sizes es st, play (initial m sizes) es = Some st ->
  (List.length es <= List.length sizes * (List.length sizes + 4))%nat.
Proof.
  intros m sizes es st H. apply play_total in H. simpl in H. rewrite map_length in H.
  assert (T : total (List.length sizes) (map (fun n => mk_task n Start) sizes) = (List.length sizes * (List.length sizes + 4))%nat).
  { assert (X : forall k, total k (map (fun n => mk_task n Start) sizes) = (List.length sizes * (k + 4))%nat).
    { intros k. clear. induction sizes; simpl; auto. } apply X. }
  lia.
Qed.

Lemma config : forall c, (c = None -> get_byte_limiter c = Ok None) /\
  (forall n, c = Some n -> 0 < n -> get_byte_limiter c = Ok (Some n)) /\
  (forall n, c = Some n -> n <= 0 -> get_byte_limiter c = Err ValueError).
Proof.
  intros c. spl; [intros ->; auto|intros n -> H..]; unfold get_byte_limiter, limiter; destruct (Z.leb_spec n 0); auto; lia.
Qed.
