(** Proofs about the handoff of saves (C72) *)
From Coq Require Import List Bool Arith Lia.
From Verif Require Import Base Handoff_Model Handoff_Spec.
Import ListNotations.

(** ** Lists *)

Lemma put_length : forall {A} i (v : A) l, length (put i v l) = length l.
Proof. intros A i v l. revert i. induction l as [|x l IH]; intros [|i]; simpl; auto. Qed.

Lemma put_same : forall {A} i (v : A) l x, nth_error l i = Some x -> nth_error (put i v l) i = Some v.
Proof. intros A i v l. revert i. induction l as [|y l IH]; intros [|i] x H; simpl in *; try discriminate; eauto. Qed.

Lemma put_other : forall {A} i j (v : A) l, i <> j -> nth_error (put i v l) j = nth_error l j.
Proof. intros A i j v l. revert i j. induction l as [|y l IH]; intros [|i] [|j] H; simpl; auto; lia. Qed.

Lemma put_get : forall {A} i j (v x : A) l, nth_error (put i v l) j = Some x -> (i = j /\ x = v /\ j < length l) \/ (i <> j /\ nth_error l j = Some x).
Proof.
  intros A i j v x l H. destruct (Nat.eq_dec i j) as [->|N]; [|right; split; auto; rewrite put_other in H; auto]. left.
  assert (L : j < length l) by (rewrite <- (put_length j v l); apply nth_error_Some; congruence). apply nth_error_Some in L. destruct (nth_error l j) as [y|] eqn:E; [|congruence].
  rewrite (put_same _ _ _ _ E) in H. injection H as <-. repeat split; auto. apply nth_error_Some. congruence.
Qed.

(** ** The invariant *)

Definition rec_ok (r : record) : Prop :=
  (~ answered r -> r_done r = false /\ r_handoff_saved r = None /\ r_error r = None /\ r_saved r = None /\ r_persisted r = 0) /\
  (answered r -> r_done r = true /\ r_ready r = true /\ r_keepalive r = false /\
     match r_fate r with
     | Ok b => r_handoff_saved r = Some b /\ r_error r = None /\ (b = false \/ r_dataset r = false -> r_saved r = Some b)
     | Err e => r_handoff_saved r = None /\ r_error r = Some e /\ r_saved r = None /\ r_persisted r = 0
     end) /\
  (forall b, r_saved r = Some b -> r_fate r = Ok b /\ r_persisted r = times (r_dataset r) b) /\
  (r_thread r = TRelease -> r_ready r = true) /\ (r_thread r = TPublish -> r_ready r = true /\ r_keepalive r = false) /\
  (r_thread r = TNew \/ r_thread r = TWait \/ r_thread r = TRelease -> r_keepalive r = true) /\
  (r_persisted r <> 0 -> r_persisted r = 1 /\ r_fate r = Ok true /\ r_dataset r = true) /\
  (r_owner r = None -> r_saved r = None -> r_persisted r = 0).

Definition pc_ok (rs : list record) (c : nat) (q : pc) : Prop :=
  match q with
  | Idle | SaveCheck _ _ _ | FinRead _ | DrainRead _ | Publish _ _ _ | CheckRead => True
  | Acquire i _ | Check i => exists r, nth_error rs i = Some r
  | SavedCheck i _ => exists r, nth_error rs i = Some r /\ r_owner r = Some c /\ (r_saved r = None -> r_persisted r = 0)
  | Join i _ => exists r, nth_error rs i = Some r /\ r_owner r = Some c /\ r_persisted r = 0 /\ (r_fate r = Ok true -> r_dataset r = true -> r_saved r = None)
  | Done i p => exists r, nth_error rs i = Some r /\ r_owner r = Some c /\ r_persisted r = 0 /\ (r_fate r = Ok true -> r_dataset r = true -> r_saved r = None) /\ (waits p = true -> r_thread r = TEnd)
  | Persist i _ => exists r, nth_error rs i = Some r /\ r_owner r = Some c /\ r_persisted r = 0 /\ (r_dataset r = true -> r_saved r = None) /\ answered r /\ r_fate r = Ok true
  | SetSaved i b _ => exists r, nth_error rs i = Some r /\ r_owner r = Some c /\ answered r /\ r_fate r = Ok b /\ r_persisted r = times (r_dataset r) b
  | FinWait i b _ => exists r, nth_error rs i = Some r /\ r_saved r = Some b
  | FinClear i out _ => exists r b, nth_error rs i = Some r /\ r_saved r = Some b /\ (out = Ok (Some b) \/ b = true /\ out = Err OtherError)
  | Start i _ => exists r, nth_error rs i = Some r /\ r_thread r = TNew
  end.

Definition inv (s : state) : Prop :=
  (forall i r, nth_error (recs s) i = Some r -> rec_ok r) /\
  (forall c q, nth_error (callers s) c = Some q -> pc_ok (recs s) c q) /\
  (forall c c' i a a', nth_error (callers s) c = Some (Start i a) -> nth_error (callers s) c' = Some (Start i a') -> c = c') /\
  (forall i, pending s = Some i -> i < length (recs s)).

(** How a record may change for a caller that does not do it *)
Definition mono (c : nat) (r r' : record) : Prop :=
  r_dataset r' = r_dataset r /\ r_fate r' = r_fate r /\ (answered r -> answered r') /\ (r_thread r = TEnd -> r_thread r' = TEnd) /\
  (forall b, r_saved r = Some b -> r_saved r' = Some b) /\
  (r_owner r = Some c -> r_owner r' = Some c /\ r_persisted r' = r_persisted r /\ (r_fate r = Ok true -> r_dataset r = true -> r_saved r = None -> r_saved r' = None)) /\
  (r_thread r = TNew -> r_thread r' = TNew).

Lemma pc_ok_mono : forall rs i r r' c q, pc_ok rs c q -> nth_error rs i = Some r -> mono c r r' -> pc_ok (put i r' rs) c q.
Proof.
  intros rs i r r' c q H E (M1 & M2 & M3 & M4 & M5 & M6 & M7).
  assert (G : forall j x, nth_error rs j = Some x -> (i = j /\ x = r /\ nth_error (put i r' rs) j = Some r') \/ nth_error (put i r' rs) j = Some x).
  { intros j x X. destruct (Nat.eq_dec i j) as [<-|N]; [left; repeat split; [congruence|eapply put_same; eauto]|right; rewrite put_other; auto]. }
  destruct q; simpl in *; auto.
  - destruct H as [x X]. destruct (G _ _ X) as [(_ & _ & Y)|Y]; eauto.
  - destruct H as (x & X & A & B). destruct (G _ _ X) as [(_ & -> & Y)|Y]; [|eauto 6]. exists r'. destruct (M6 A) as (A' & P & S). repeat split; auto. intros N. rewrite P. apply B. destruct (r_saved r) as [b|] eqn:R; auto. rewrite (M5 b eq_refl) in N. discriminate.
  - destruct H as (x & X & A & B & C). destruct (G _ _ X) as [(_ & -> & Y)|Y]; [|eauto 8]. exists r'. destruct (M6 A) as (A' & P & S). rewrite M1, M2, P. repeat split; auto.
  - destruct H as (x & X & A & B & C & D). destruct (G _ _ X) as [(_ & -> & Y)|Y]; [|eauto 8]. exists r'. destruct (M6 A) as (A' & P & S). rewrite M1, M2, P. repeat split; auto.
  - destruct H as (x & X & A & B & C & D & F). destruct (G _ _ X) as [(_ & -> & Y)|Y]; [|eauto 9]. exists r'. destruct (M6 A) as (A' & P & S). rewrite M1, M2, P. repeat split; auto.
  - destruct H as (x & X & A & B & C & D). destruct (G _ _ X) as [(_ & -> & Y)|Y]; [|eauto 9]. exists r'. destruct (M6 A) as (A' & P & S). rewrite M1, M2, P. repeat split; auto.
  - destruct H as (x & X & A). destruct (G _ _ X) as [(_ & -> & Y)|Y]; eauto.
  - destruct H as (x & b & X & A & B). destruct (G _ _ X) as [(_ & -> & Y)|Y]; eauto 7.
  - destruct H as (x & X & A). destruct (G _ _ X) as [(_ & -> & Y)|Y]; eauto.
  - destruct H as [x X]. destruct (G _ _ X) as [(_ & _ & Y)|Y]; eauto.
Qed.

Lemma pc_ok_app : forall rs r c q, pc_ok rs c q -> pc_ok (rs ++ [r]) c q.
Proof.
  intros rs r c q H. assert (G : forall i x, nth_error rs i = Some x -> nth_error (rs ++ [r]) i = Some x). { intros i x X. rewrite nth_error_app1; auto. apply nth_error_Some. congruence. }
  destruct q; simpl in *; auto.
  1, 10: destruct H as (x & X); eauto.
  all: try (destruct H as (x & X & Y); exists x; split; [apply G; auto|auto]).
  destruct H as (x & b & X & Y). exists x, b. split; [apply G; auto|auto].
Qed.

Definition is_start (q : pc) : bool := match q with Start _ _ => true | _ => false end.

Lemma start_unique_put : forall cs c q, is_start q = false ->
  (forall c1 c2 i a a', nth_error cs c1 = Some (Start i a) -> nth_error cs c2 = Some (Start i a') -> c1 = c2) ->
  forall c1 c2 i a a', nth_error (put c q cs) c1 = Some (Start i a) -> nth_error (put c q cs) c2 = Some (Start i a') -> c1 = c2.
Proof.
  intros cs c q N U c1 c2 i a a' H1 H2. apply put_get in H1 as [(_ & <- & _)|[_ H1]]; [discriminate|]. apply put_get in H2 as [(_ & <- & _)|[_ H2]]; [discriminate|]. eauto.
Qed.

Lemma inv_at : forall s c q, inv s -> pc_ok (recs s) c q -> is_start q = false -> inv (at_pc s c q).
Proof.
  intros s c q (A & B & E & F) P N. split; [exact A|]. split; [|split; [|exact F]].
  - intros c' q' H. cbn in *. apply put_get in H as [(<- & -> & _)|[_ H]]; auto.
  - cbn. apply start_unique_put; auto.
Qed.

Lemma inv_with : forall s i r r' c q, inv s -> nth_error (recs s) i = Some r -> rec_ok r' ->
  (forall c' q', c' <> c -> nth_error (callers s) c' = Some q' -> pc_ok (put i r' (recs s)) c' q') -> pc_ok (put i r' (recs s)) c q -> is_start q = false ->
  inv (with_rec s i r' c q).
Proof.
  intros s i r r' c q (A & B & E & F) R K O P N. split; [|split; [|split]].
  - intros j x H. cbn in H. apply put_get in H as [(_ & -> & _)|[_ H]]; eauto.
  - intros c' q' H. cbn in *. apply put_get in H as [(<- & -> & _)|[NE H]]; auto.
  - cbn. apply start_unique_put; auto.
  - intros j J. cbn in *. rewrite put_length. auto.
Qed.

Lemma inv_mono : forall s i r r' c q, inv s -> nth_error (recs s) i = Some r -> rec_ok r' -> (forall c', c' <> c -> mono c' r r') -> pc_ok (put i r' (recs s)) c q -> is_start q = false ->
  inv (with_rec s i r' c q).
Proof.
  intros s i r r' c q I R K M P N. eapply inv_with; eauto. intros c' q' NE H. eapply pc_ok_mono; eauto. apply I. auto.
Qed.

Lemma inv_rec : forall s i r r', inv s -> nth_error (recs s) i = Some r -> rec_ok r' -> (forall c, mono c r r') -> inv (mkState (put i r' (recs s)) (pending s) (callers s)).
Proof.
  intros s i r r' (A & B & E & F) R K M. split; [|split; [|split]].
  - intros j x H. cbn in H. apply put_get in H as [(_ & -> & _)|[_ H]]; eauto.
  - intros c q H. cbn in *. eapply pc_ok_mono; eauto.
  - exact E.
  - intros j J. cbn in *. rewrite put_length. auto.
Qed.

(** ** Changes of records *)

Ltac rec_unfold := unfold rec_ok, mono, answered, set_ready, set_thread, release_keepalive, set_owner, set_saved, persist in *; cbn in *.

Lemma owner_ok : forall r o, rec_ok r -> (o = None -> r_saved r = None -> r_persisted r = 0) -> rec_ok (set_owner o r).
Proof. intros r o H K. rec_unfold. intuition. Qed.

Lemma owner_mono : forall r c c' o, r_owner r = Some c \/ r_owner r = None -> c' <> c -> mono c' r (set_owner o r).
Proof. intros r c c' o H N. rec_unfold. intuition congruence. Qed.

Lemma thread_ok : forall r r', rec_ok r -> thread_step r = Some r' -> rec_ok r' /\ forall c, mono c r r'.
Proof.
  intros [d f rd k t dn hs er sv ow ps] r' H S. unfold thread_step in S. cbn in S. destruct t; try discriminate S.
  - destruct rd; [|discriminate]. injection S as <-. split; rec_unfold; intuition congruence.
  - injection S as <-. split; rec_unfold; intuition congruence.
  - injection S as <-. unfold publish. cbn. unfold rec_ok, answered in H. cbn in H. destruct H as (H1 & _ & _ & _ & H5 & _ & _ & H8). destruct H1 as (-> & -> & -> & -> & ->); [intros [X|X]; discriminate|]. destruct (H5 eq_refl) as [-> ->].
    destruct f as [b|e]; [|split; rec_unfold; intuition congruence]. destruct b, d; cbn; split; rec_unfold; intuition (try congruence).
    all: match goal with H : Some _ = Some ?b |- _ => injection H as <- end; auto.
  - injection S as <-. split; rec_unfold; intuition congruence.
Qed.

Lemma drained_inv : forall s c i r r1 b p, inv s -> nth_error (recs s) i = Some r -> r_owner r = Some c -> rec_ok (set_owner None r1) ->
  (forall c', c' <> c -> mono c' r (set_owner None r1)) -> (waits p = true -> r_saved r1 = Some b) -> inv (fst (drained s c i r1 b p)).
Proof.
  intros s c i r r1 b p I R O K M W. destruct p as [w|a]; cbn [drained fst].
  - eapply inv_mono; eauto. cbn. auto.
  - eapply inv_mono; eauto. cbn. exists (set_owner None r1). split; [eapply put_same; eauto|]. cbn. auto.
Qed.

Lemma raised_inv : forall s c i r e, inv s -> nth_error (recs s) i = Some r -> r_owner r = Some c -> (r_saved r = None -> r_persisted r = 0) -> inv (fst (raised s c i r e)).
Proof.
  intros s c i r e I R O K. cbn [raised fst]. eapply inv_mono; eauto; [apply owner_ok; auto; eapply I; eauto|intros; eapply owner_mono; eauto|cbn; auto].
Qed.

Theorem go_inv : forall s c q fine s' es, inv s -> nth_error (callers s) c = Some q -> go s c q fine = Some (s', es) -> inv s'.
Proof.
  intros s c q fine s' es I Q H. pose proof I as (A & B & E & F). pose proof (B c q Q) as PQ. destruct q; cbn [go pc_ok] in *.
  - discriminate.
  - injection H as <- <-. apply inv_at; auto; destruct (pending s); cbn; auto.
  - destruct (pending s) as [i|] eqn:P.
    + injection H as <- <-. apply inv_at; auto. cbn. specialize (F i eq_refl). apply nth_error_Some in F. destruct (nth_error (recs s) i); [eauto|congruence].
    + destruct a; injection H as <- <-; apply inv_at; cbn; auto.
  - destruct (pending s) as [i|] eqn:P; injection H as <- <-; apply inv_at; cbn; auto. specialize (F i eq_refl). apply nth_error_Some in F. destruct (nth_error (recs s) i); [eauto|congruence].
  - destruct (nth_error (recs s) i) as [r|] eqn:R; [|discriminate]. destruct (r_owner r) eqn:O; [discriminate|]. injection H as <- <-. pose proof (A _ _ R) as K. eapply inv_mono; eauto.
    + apply owner_ok; auto. discriminate.
    + intros; eapply owner_mono; eauto.
    + cbn. eexists. split; [eapply put_same; eauto|]. cbn. split; auto. apply K. auto.
  - destruct PQ as (r & R & O & S). rewrite R in H. destruct (r_saved r) as [b|] eqn:SV.
    + injection H as H. assert (X : s' = fst (drained s c i r b p)) by (rewrite H; auto). subst s'. eapply drained_inv; eauto; [apply owner_ok; auto; [eapply A; eauto|congruence]|intros; eapply owner_mono; eauto].
    + injection H as <- <-. apply inv_at; auto. cbn. exists r. repeat split; auto.
  - destruct PQ as (r & R & O & P0 & S). rewrite R in H. destruct (waits p) eqn:W.
    + destruct (r_thread r) eqn:T; try discriminate H.
      * injection H as H1 H2. subst s'. change (inv (fst (raised s c i r RuntimeError))). apply raised_inv; auto.
      * injection H as <- <-. apply inv_at; auto. cbn. exists r. repeat split; auto.
    + destruct (alive (r_thread r)).
      * injection H as H. assert (X : s' = fst (drained s c i r false p)) by (rewrite H; auto). subst s'. eapply drained_inv; eauto; [apply owner_ok; auto; eapply A; eauto|intros; eapply owner_mono; eauto|congruence].
      * injection H as <- <-. apply inv_at; auto. cbn. exists r. repeat split; auto. congruence.
  - destruct PQ as (r & R & O & P0 & S & W). rewrite R in H. pose proof (A _ _ R) as K. destruct (r_done r) eqn:D.
    + assert (AN : answered r). { destruct K as (K1 & _). destruct (r_thread r) eqn:T; unfold answered in *; rewrite T in *; auto; destruct K1 as (X & _); try congruence; intros [Y|Y]; discriminate. }
      destruct (proj1 (proj2 K) AN) as (_ & RD & KA & FT). destruct (r_fate r) as [b|e] eqn:FE.
      * destruct FT as (HS & HE & SV). rewrite HE, HS in H. destruct b; injection H as <- <-; apply inv_at; auto; cbn; exists r; repeat split; auto. rewrite P0. unfold times. rewrite andb_false_r. auto.
      * destruct FT as (HS & HE & _). rewrite HE in H. injection H as H1 H2. subst s'. change (inv (fst (raised s c i r e))). apply raised_inv; auto.
    + injection H as H. assert (X : s' = fst (drained s c i r false p)) by (rewrite H; auto). subst s'. eapply drained_inv; eauto; [apply owner_ok; auto|intros; eapply owner_mono; eauto|].
      intros W'. specialize (W W'). exfalso. destruct (proj1 (proj2 K)) as (X & _); [right; auto|]. congruence.
  - destruct PQ as (r & R & O & P0 & S & AN & FE). rewrite R in H. pose proof (A _ _ R) as K. destruct (r_dataset r) eqn:D; [destruct fine|].
    + injection H as <- <-. eapply inv_mono; eauto.
      * specialize (S eq_refl). destruct (proj1 (proj2 K) AN) as (X1 & X2 & X3 & X4). rewrite FE in X4. destruct K as (_ & _ & _ & K4 & K5 & K6 & _). unfold rec_ok, answered, persist. cbn. rewrite P0, S, FE, D, O, X1, X2, X3.
        unfold answered in AN. destruct X4 as (Y1 & Y2 & Y3). rewrite Y1, Y2. intuition (try congruence).
      * intros c' N. unfold mono, persist, answered in *. cbn. intuition congruence.
      * cbn. exists (persist r). split; [eapply put_same; eauto|]. unfold persist, answered, times in *. cbn. rewrite P0, D. auto.
    + injection H as H1 H2. subst s'. change (inv (fst (raised s c i r OtherError))). apply raised_inv; auto.
    + injection H as <- <-. apply inv_at; auto. cbn. exists r. rewrite P0, D. repeat split; auto.
  - destruct PQ as (r & R & O & AN & FE & P0). rewrite R in H. pose proof (A _ _ R) as K. injection H as H. assert (X : s' = fst (drained s c i (set_saved b r) b p)) by (rewrite H; auto). subst s'. eapply drained_inv; eauto.
    + destruct (proj1 (proj2 K) AN) as (X1 & X2 & X3 & X4). rewrite FE in X4. destruct K as (_ & _ & _ & K4 & K5 & K6 & K7 & _). unfold rec_ok, answered, set_owner, set_saved. cbn. rewrite FE, X1, X2, X3. unfold answered in AN. destruct X4 as (Y1 & Y2 & Y3). rewrite Y1, Y2.
      rewrite FE in K7. intuition (try congruence).
    + intros c' N. destruct (proj1 (proj2 K) AN) as (_ & _ & _ & X4). pose proof (proj1 (proj2 (proj2 K))) as X5. unfold mono, set_owner, set_saved, answered. cbn. repeat split; auto; try congruence. intros b' Y. destruct (X5 b' Y) as [Z _]. congruence.
  - destruct PQ as (r & R & SV). rewrite R in H. injection H as <- <-. apply inv_at; auto. cbn. exists r, b. split; auto. split; auto. rewrite SV. destruct b; auto. destruct fine; auto.
  - destruct PQ as (r & b & R & SV & OUT). rewrite R in H. pose proof (A _ _ R) as K. assert (AN : answered r). { destruct (r_thread r) eqn:T; unfold answered; rewrite T; auto; exfalso; destruct (proj1 K) as (_ & _ & _ & Z & _); try congruence; unfold answered; rewrite T; intros [Y|Y]; discriminate. }
    destruct (proj1 (proj2 K) AN) as (X1 & X2 & X3 & X4). assert (EQ : release_keepalive r = r) by (destruct r; unfold release_keepalive; cbn in *; subst; auto). rewrite EQ in H.
    assert (PS : put i r (recs s) = recs s). { clear - R. revert i R. induction (recs s) as [|x l IH]; intros [|i] R; simpl in *; try discriminate; [congruence|]. f_equal. auto. } rewrite PS in H.
    assert (G : forall q, is_start q = false -> pc_ok (recs s) c q -> inv (mkState (recs s) (match pending s with Some j => if j =? i then None else pending s | None => None end) (put c q (callers s)))).
    { intros q NS PQ. pose proof (inv_at s c q I PQ NS) as (G1 & G2 & G3 & _). split; [exact G1|]. split; [exact G2|]. split; [exact G3|]. cbn. intros j. destruct (pending s) as [k|] eqn:PE; [|discriminate]. destruct (k =? i); [discriminate|]. intros J. apply F. auto. }
    destruct a as [|x y z], out as [o|e]; injection H as <- <-; apply G; cbn; auto.
  - injection H as <- <-. split; [|split; [|split]]; cbn.
    + intros i r R. destruct (Nat.lt_ge_cases i (length (recs s))) as [L|L]; [rewrite nth_error_app1 in R by auto; eauto|]. rewrite nth_error_app2 in R by auto. destruct (i - length (recs s)) as [|k]; cbn in R; [|destruct k; discriminate].
      injection R as <-. unfold rec_ok, fresh, answered. cbn. intuition (try congruence).
    + intros c' q' H. apply put_get in H as [(<- & -> & _)|[_ H]]; [|apply pc_ok_app; auto]. cbn. exists (fresh dataset fate). rewrite nth_error_app2, Nat.sub_diag by auto. auto.
    + intros c1 c2 i a a' H1 H2. assert (NEW : forall c' a0, nth_error (callers s) c' = Some (Start (length (recs s)) a0) -> False).
      { intros c' a0 X. apply B in X. cbn in X. destruct X as (r & R & _). assert (length (recs s) < length (recs s)) by (apply nth_error_Some; congruence). lia. }
      apply put_get in H1 as [(<- & H1 & _)|[_ H1]]; apply put_get in H2 as [(<- & H2 & _)|[_ H2]]; auto; try (injection H1 as -> ->); try (injection H2 as -> ->); try (exfalso; eauto; fail). eauto.
    + intros i J. injection J as <-. rewrite app_length. cbn. lia.
  - destruct PQ as (r & R & T). rewrite R in H. pose proof (A _ _ R) as K. assert (K' : rec_ok (set_thread TWait r)).
    { destruct K as (K1 & _ & K3 & _ & _ & K6 & K7 & K8). unfold answered in *. rewrite T in *. destruct K1 as (X1 & X2 & X3 & X4 & X5); [intros [Y|Y]; discriminate|]. unfold rec_ok, answered, set_thread. cbn. rewrite X1, X2, X3, X4, X5. intuition (try congruence). }
    assert (O : forall c' q', c' <> c -> nth_error (callers s) c' = Some q' -> pc_ok (put i (set_thread TWait r) (recs s)) c' q').
    { intros c' q' N X. destruct (is_start q') eqn:IS.
      - destruct q'; try discriminate IS. destruct (Nat.eq_dec i i0) as [<-|NI]; [destruct N; eauto|]. pose proof (B _ _ X) as (r0 & R0 & T0). cbn. exists r0. rewrite put_other; auto.
      - specialize (B _ _ X).
        assert (ST : forall j x, nth_error (recs s) j = Some x -> exists x', nth_error (put i (set_thread TWait r) (recs s)) j = Some x' /\ r_dataset x' = r_dataset x /\ r_fate x' = r_fate x /\ (answered x -> answered x') /\ (r_thread x = TEnd -> r_thread x' = TEnd) /\ r_saved x' = r_saved x /\ r_owner x' = r_owner x /\ r_persisted x' = r_persisted x).
        { intros j x Y. destruct (Nat.eq_dec i j) as [<-|NI].
          - assert (x = r) by congruence. subst x. exists (set_thread TWait r). split; [eapply put_same; eauto|]. unfold answered. cbn. rewrite T. repeat split; auto; intros; try discriminate. destruct H0; discriminate.
          - exists x. rewrite put_other by auto. repeat split; auto. }
        destruct q'; cbn [pc_ok] in *; auto; try discriminate IS.
        + destruct B as (x & Y). destruct (ST _ _ Y) as (x' & Y' & _). eauto.
        + destruct B as (x & Y & Z1 & Z2). destruct (ST _ _ Y) as (x' & Y' & E1 & E2 & E3 & E4 & E5 & E6 & E7). exists x'. rewrite E5, E6, E7. repeat split; auto.
        + destruct B as (x & Y & Z1 & Z2 & Z3). destruct (ST _ _ Y) as (x' & Y' & E1 & E2 & E3 & E4 & E5 & E6 & E7). exists x'. rewrite E1, E2, E5, E6, E7. repeat split; auto.
        + destruct B as (x & Y & Z1 & Z2 & Z3 & Z4). destruct (ST _ _ Y) as (x' & Y' & E1 & E2 & E3 & E4 & E5 & E6 & E7). exists x'. rewrite E1, E2, E5, E6, E7. repeat split; auto.
        + destruct B as (x & Y & Z1 & Z2 & Z3 & Z4 & Z5). destruct (ST _ _ Y) as (x' & Y' & E1 & E2 & E3 & E4 & E5 & E6 & E7). exists x'. rewrite E1, E2, E5, E6, E7. repeat split; auto.
        + destruct B as (x & Y & Z1 & Z2 & Z3 & Z4). destruct (ST _ _ Y) as (x' & Y' & E1 & E2 & E3 & E4 & E5 & E6 & E7). exists x'. rewrite E1, E2, E6, E7. repeat split; auto.
        + destruct B as (x & Y & Z1). destruct (ST _ _ Y) as (x' & Y' & E1 & E2 & E3 & E4 & E5 & E6 & E7). exists x'. rewrite E5. repeat split; auto.
        + destruct B as (x & b & Y & Z1 & Z2). destruct (ST _ _ Y) as (x' & Y' & E1 & E2 & E3 & E4 & E5 & E6 & E7). exists x', b. rewrite E5. repeat split; auto.
        + destruct B as (x & Y). destruct (ST _ _ Y) as (x' & Y' & _). eauto. }
    destruct asynchronous; injection H as <- <-; eapply inv_with; eauto; cbn; auto.
  - destruct (pending s) as [i|] eqn:P; injection H as <- <-; apply inv_at; cbn; auto. specialize (F i eq_refl). apply nth_error_Some in F. destruct (nth_error (recs s) i); [eauto|congruence].
  - destruct PQ as (r & R). rewrite R in H. injection H as <- <-. apply inv_at; cbn; auto.
Qed.

Theorem step_inv : forall s x s' es, inv s -> step s x = Some (s', es) -> inv s'.
Proof.
  intros s x s' es I H. destruct x as [c o|c fine|i|i]; cbn [step] in H.
  - destruct (nth_error (callers s) c) as [[]|]; try discriminate H. injection H as <- <-. apply inv_at; auto; destruct o; cbn; auto.
  - destruct (nth_error (callers s) c) as [q|] eqn:Q; [|discriminate]. eapply go_inv; eauto.
  - destruct (nth_error (recs s) i) as [r|] eqn:R; [|discriminate]. destruct (r_ready r) eqn:RD; [discriminate|]. injection H as <- <-. pose proof (proj1 I _ _ R) as K. eapply inv_rec; eauto; [|intros c]; rec_unfold; intuition (try congruence).
  - destruct (nth_error (recs s) i) as [r|] eqn:R; [|discriminate]. destruct (thread_step r) as [r'|] eqn:T; [|discriminate]. injection H as <- <-. destruct (thread_ok r r' (proj1 I _ _ R) T) as [K M]. eapply inv_rec; eauto.
Qed.

Lemma repeat_get : forall {A} (x y : A) n i, nth_error (repeat x n) i = Some y -> y = x.
Proof. intros A x y n i H. apply nth_error_In in H. apply repeat_spec in H. auto. Qed.

Lemma initial_inv : forall n, inv (initial n).
Proof.
  intros n. unfold inv, initial. cbn. split; [intros [|i]; discriminate|]. split; [|split].
  - intros c q H. apply repeat_get in H. subst q. cbn. auto.
  - intros c c' i a a' H. apply repeat_get in H. discriminate.
  - discriminate.
Qed.

Theorem reach_inv : forall ok n s, reach ok n s -> inv s.
Proof. intros ok n s H. induction H; [apply initial_inv|eapply step_inv; eauto]. Qed.

(** ** What the callers are told *)

Ltac onein X := first [destruct X; fail | destruct X as [X|[]]].

Ltac put_rec R := eexists; split; [eapply put_same; exact R|].

Theorem go_means : forall s c q fine s' es c' i out, inv s -> nth_error (callers s) c = Some q -> go s c q fine = Some (s', es) -> In (Returned c' (Some i) out) es ->
  c' = c /\ save_is s' i (fun r => means r (impatient q) out).
Proof.
  intros s c q fine s' es c' i out I Q H X. pose proof I as (A & B & E & F). pose proof (B c q Q) as PQ. unfold save_is. destruct q; cbn [go pc_ok] in *.
  - discriminate.
  - injection H as <- <-. destruct X.
  - destruct (pending s); [injection H as <- <-; destruct X|]. destruct a; injection H as <- <-; cbn in X; intuition discriminate.
  - destruct (pending s); injection H as <- <-; cbn in X; intuition discriminate.
  - destruct (nth_error (recs s) i0) as [r|]; [|discriminate]. destruct (r_owner r); [discriminate|]. injection H as <- <-. destruct X.
  - destruct PQ as (r & R & O & S). rewrite R in H. destruct (r_saved r) as [b|] eqn:SV; [|injection H as <- <-; destruct X].
    destruct p as [w|a]; cbn [drained] in H; injection H as <- <-; onein X. injection X as <- <- <-. split; auto. cbn [recs with_rec]. put_rec R.
    destruct (proj1 (proj2 (proj2 (A _ _ R))) b SV) as [FE PE]. unfold times in *. destruct b; cbn; auto. right. rewrite andb_false_r in PE. auto.
  - destruct PQ as (r & R & O & P0 & S). rewrite R in H. destruct (waits p) eqn:W.
    + destruct (r_thread r) eqn:T; try discriminate H; [|injection H as <- <-; destruct X]. cbn [raised] in H. injection H as <- <-. onein X. injection X as <- <- <-. split; auto. put_rec R. cbn. auto.
    + destruct p as [[]|a]; try discriminate W. destruct (alive (r_thread r)); [|injection H as <- <-; destruct X]. cbn [drained] in H. injection H as <- <-. onein X. injection X as <- <- <-. split; auto. put_rec R. cbn. auto.
  - destruct PQ as (r & R & O & P0 & S & W). rewrite R in H. pose proof (A _ _ R) as K. destruct (r_done r) eqn:D.
    + assert (AN : answered r). { destruct K as (K1 & _). destruct (r_thread r) eqn:T; unfold answered in *; rewrite T in *; auto; destruct K1 as (Z & _); try congruence; intros [Y|Y]; discriminate. }
      destruct (proj1 (proj2 K) AN) as (_ & RD & KA & FT). destruct (r_fate r) as [b|e] eqn:FE.
      * destruct FT as (HS & HE & SV). rewrite HE, HS in H. destruct b; injection H as <- <-; destruct X.
      * destruct FT as (HS & HE & _). rewrite HE in H. cbn [raised] in H. injection H as <- <-. onein X. injection X as <- <- <-. split; auto. put_rec R. unfold answered in *. cbn. auto.
    + destruct p as [w|a]; cbn [drained] in H; injection H as <- <-; onein X. injection X as <- <- <-. split; auto. put_rec R. cbn. left. cbn in W. destruct w; auto. exfalso. specialize (W eq_refl). destruct (proj1 (proj2 K)) as (Z & _); [right; auto|]. congruence.
  - destruct PQ as (r & R & O & P0 & S & AN & FE). rewrite R in H. destruct (r_dataset r) eqn:D; [destruct fine|]; try (injection H as <- <-; destruct X; fail).
    cbn [raised] in H. injection H as <- <-. onein X. injection X as <- <- <-. split; auto. put_rec R. cbn. auto.
  - destruct PQ as (r & R & O & AN & FE & P0). rewrite R in H. destruct p as [w|a]; cbn [drained] in H; injection H as <- <-; onein X. injection X as <- <- <-. split; auto. put_rec R. unfold times in *. destruct b; cbn; auto. right. rewrite andb_false_r in P0. auto.
  - destruct PQ as (r & R & SV). rewrite R in H. injection H as <- <-. destruct X.
  - destruct PQ as (r & b & R & SV & OUT). rewrite R in H. pose proof (A _ _ R) as K. destruct (proj1 (proj2 (proj2 K)) b SV) as [FE PE].
    assert (M : means (release_keepalive r) false out0). { unfold times in *. destruct OUT as [-> | [-> ->]]; [|cbn; auto]. destruct b; cbn; auto. right. rewrite andb_false_r in PE. auto. }
    destruct a as [|x y z], out0 as [o|e]; injection H as <- <-; try (destruct X; fail); onein X; injection X as <- <- <-; split; auto; cbn [recs]; put_rec R; auto.
  - injection H as <- <-. destruct X.
  - destruct PQ as (r & R & T). rewrite R in H. destruct asynchronous; injection H as <- <-; cbn in X; intuition discriminate.
  - destruct (pending s); injection H as <- <-; cbn in X; intuition discriminate.
  - destruct PQ as (r & R). rewrite R in H. injection H as <- <-. onein X. injection X as <- <- <-. split; auto. exists r. split; auto. pose proof (A _ _ R) as K. destruct (alive (r_thread r)) eqn:AL; [cbn; auto|]. destruct (r_error r) as [e|] eqn:ER; [|cbn; auto]. destruct (r_done r) eqn:D; cbn; auto. left.
    assert (AN : answered r). { destruct K as (K1 & _). destruct (r_thread r) eqn:T; unfold answered in *; rewrite T in *; auto; destruct K1 as (Z & _); try congruence; intros [Y|Y]; discriminate. }
    destruct (proj1 (proj2 K) AN) as (_ & _ & _ & FT). destruct (r_fate r) as [b|e']; [destruct FT as (_ & Z & _); congruence|]. destruct FT as (_ & Z & _). split; auto. congruence.
Qed.

Theorem step_means : forall s x s' es c i out, inv s -> step s x = Some (s', es) -> In (Returned c (Some i) out) es ->
  exists q, nth_error (callers s) c = Some q /\ save_is s' i (fun r => means r (impatient q) out).
Proof.
  intros s x s' es c i out I H X. destruct x as [c0 o|c0 fine|j|j]; cbn [step] in H.
  - destruct (nth_error (callers s) c0) as [[]|]; try discriminate H. injection H as <- <-. destruct X.
  - destruct (nth_error (callers s) c0) as [q|] eqn:Q; [|discriminate]. destruct (go_means _ _ _ _ _ _ _ _ _ I Q H X) as [-> M]. eauto.
  - destruct (nth_error (recs s) j) as [r|]; [|discriminate]. destruct (r_ready r); [discriminate|]. injection H as <- <-. destruct X.
  - destruct (nth_error (recs s) j) as [r|]; [|discriminate]. destruct (thread_step r); [|discriminate]. injection H as <- <-. destruct X.
Qed.

(** ** One saver *)

(** A caller is on its way to publish, after having finished the save [i] or with none to finish *)
Definition publishing (s : state) (q : pc) : Prop :=
  match q with
  | SaveCheck _ _ _ | FinRead (AfterPublish _ _ _) => True
  | Acquire i (ForFinish (AfterPublish _ _ _)) | SavedCheck i (ForFinish (AfterPublish _ _ _)) | Join i (ForFinish (AfterPublish _ _ _))
  | Done i (ForFinish (AfterPublish _ _ _)) | Persist i (ForFinish (AfterPublish _ _ _)) | SetSaved i _ (ForFinish (AfterPublish _ _ _))
  | FinWait i _ (AfterPublish _ _ _) | FinClear i _ (AfterPublish _ _ _) => pending s = Some i \/ pending s = None
  | Publish _ _ _ => pending s = None
  | _ => True
  end.

(** A caller that does not save *)
Definition quiet (q : pc) : Prop :=
  match q with
  | SaveCheck _ _ _ | FinRead (AfterPublish _ _ _) | Publish _ _ _ | Start _ _ => False
  | Acquire i (ForFinish (AfterPublish _ _ _)) | SavedCheck i (ForFinish (AfterPublish _ _ _)) | Join i (ForFinish (AfterPublish _ _ _))
  | Done i (ForFinish (AfterPublish _ _ _)) | Persist i (ForFinish (AfterPublish _ _ _)) | SetSaved i _ (ForFinish (AfterPublish _ _ _))
  | FinWait i _ (AfterPublish _ _ _) | FinClear i _ (AfterPublish _ _ _) => False
  | _ => True
  end.

Definition lone (s : state) : Prop :=
  (forall c q, nth_error (callers s) c = Some q -> publishing s q /\ (c <> 0 -> quiet q)) /\
  (forall i r, nth_error (recs s) i = Some r -> pending s <> Some i -> r_saved r <> None).

Lemma lone_at : forall s c q, lone s -> publishing s q -> (c <> 0 -> quiet q) -> lone (at_pc s c q).
Proof.
  intros s c q [L1 L2] P N. split; [|exact L2]. intros c' q' H. cbn in H. apply put_get in H as [(<- & -> & _)|[_ H]]; [split; auto|]. destruct (L1 _ _ H). split; auto.
Qed.

Lemma lone_with : forall s i r r' c q, lone s -> nth_error (recs s) i = Some r -> (r_saved r <> None -> r_saved r' <> None) -> publishing s q -> (c <> 0 -> quiet q) -> lone (with_rec s i r' c q).
Proof.
  intros s i r r' c q [L1 L2] R M P N. split.
  - intros c' q' H. cbn in H. apply put_get in H as [(<- & -> & _)|[_ H]]; [split; auto|]. destruct (L1 _ _ H). split; auto.
  - intros j x X NP. cbn in *. apply put_get in X as [(-> & -> & _)|[_ X]]; eauto.
Qed.

Lemma lone_rec : forall s i r r', lone s -> nth_error (recs s) i = Some r -> (r_saved r <> None -> r_saved r' <> None) -> lone (mkState (put i r' (recs s)) (pending s) (callers s)).
Proof.
  intros s i r r' [L1 L2] R M. split; [exact L1|]. intros j x X NP. cbn in *. apply put_get in X as [(-> & -> & _)|[_ X]]; eauto.
Qed.

Lemma lone_drained : forall s c i r r1 b p, lone s -> nth_error (recs s) i = Some r -> (r_saved r <> None -> r_saved r1 <> None) -> publishing s (SavedCheck i p) -> (c <> 0 -> quiet (SavedCheck i p)) -> lone (fst (drained s c i r1 b p)).
Proof.
  intros s c i r r1 b p L R M P N. destruct p as [w|a]; cbn [drained fst]; eapply lone_with; eauto.
Qed.

Lemma lone_raised : forall s c i r e, lone s -> nth_error (recs s) i = Some r -> lone (fst (raised s c i r e)).
Proof. intros s c i r e L R. cbn [raised fst]. eapply lone_with; eauto; cbn; auto. Qed.

Ltac fstH H s' := match type of H with
  | Some (?x) = Some (s', _) => let E := fresh in assert (E : s' = fst x) by (symmetry; exact (f_equal (fun o => match o with Some y => fst y | None => s' end) H)); subst s'
  end.

Theorem go_lone : forall s c q fine s' es, inv s -> lone s -> nth_error (callers s) c = Some q -> go s c q fine = Some (s', es) -> lone s'.
Proof.
  intros s c q fine s' es I L Q H. pose proof I as (A & B & E & F). pose proof (B c q Q) as PQ. pose proof L as [L1 L2]. destruct (L1 c q Q) as [PU QU].
  destruct q; cbn [go pc_ok] in *.
  - discriminate.
  - injection H as <- <-. destruct (pending s) as [i|] eqn:PE; apply lone_at; auto; intros N; destruct (QU N).
  - destruct (pending s) as [i|] eqn:PE; [|destruct a].
    + injection H as <- <-. apply lone_at; auto. destruct a; cbn; auto.
    + injection H as <- <-. apply lone_at; cbn; auto.
    + injection H as <- <-. apply lone_at; auto; intros N; destruct (QU N).
  - destruct (pending s) as [i|] eqn:PE; injection H as <- <-; apply lone_at; cbn; auto.
  - destruct (nth_error (recs s) i) as [r|] eqn:R; [|discriminate]. destruct (r_owner r); [discriminate|]. injection H as <- <-. eapply lone_with; eauto.
  - destruct PQ as (r & R & O & S). rewrite R in H. destruct (r_saved r) as [b|] eqn:SV.
    + fstH H s'. eapply lone_drained; eauto.
    + injection H as <- <-. apply lone_at; auto.
  - destruct PQ as (r & R & O & P0 & S). rewrite R in H. destruct (waits p) eqn:W.
    + destruct (r_thread r) eqn:T; try discriminate H; [fstH H s'; apply lone_raised; auto|injection H as <- <-; apply lone_at; auto].
    + destruct (alive (r_thread r)); [fstH H s'; eapply lone_drained; eauto|injection H as <- <-; apply lone_at; auto].
  - destruct PQ as (r & R & O & P0 & S & W). rewrite R in H. destruct (r_done r); [|fstH H s'; eapply lone_drained; eauto]. destruct (r_error r); [fstH H s'; apply lone_raised; auto|]. destruct (r_handoff_saved r) as [[]|]; [| |fstH H s'; apply lone_raised; auto]; injection H as <- <-; apply lone_at; auto.
  - destruct PQ as (r & R & O & P0 & S & AN & FE). rewrite R in H. destruct (r_dataset r) eqn:D; [destruct fine|].
    + injection H as <- <-. eapply lone_with; eauto.
    + fstH H s'. apply lone_raised; auto.
    + injection H as <- <-. apply lone_at; auto.
  - destruct PQ as (r & R & O & AN & FE & P0). rewrite R in H. fstH H s'. eapply lone_drained; eauto. cbn. discriminate.
  - destruct PQ as (r & R & SV). rewrite R in H. injection H as <- <-. apply lone_at; auto.
  - destruct PQ as (r & b & R & SV & OUT). rewrite R in H.
    assert (G : forall q, (pending s = Some i \/ pending s = None -> publishing (mkState (put i (release_keepalive r) (recs s)) (match pending s with Some j => if j =? i then None else pending s | None => None end) (callers s)) q) ->
      (q = Idle \/ pending s = Some i \/ pending s = None) -> (q = Idle \/ c = 0 ) -> lone (mkState (put i (release_keepalive r) (recs s)) (match pending s with Some j => if j =? i then None else pending s | None => None end) (put c q (callers s)))).
    { intros q G1 G2 G3. split.
      - intros c' q' H'. cbn in H'. apply put_get in H' as [(<- & -> & _)|[_ H']].
        + split; [|intros N; destruct G3 as [-> |]; [cbn; auto|lia]]. destruct G2 as [-> |G2]; [cbn; auto|]. specialize (G1 G2). destruct q; cbn in *; auto.
        + destruct (L1 _ _ H') as [P1 P2]. split; auto. clear - P1. assert (Z : forall j, pending s = Some j \/ pending s = None -> (match pending s with Some j => if j =? i then None else pending s | None => None end) = Some j \/ (match pending s with Some j => if j =? i then None else pending s | None => None end) = None).
          { intros j [-> | ->]; auto. destruct (j =? i); auto. }
          assert (Y : pending s = None -> (match pending s with Some j => if j =? i then None else pending s | None => None end) = None) by (intros ->; auto).
          destruct q'; cbn [publishing pending] in *; auto; destruct p as [|[]] || destruct a; auto.
      - intros j x X NP. cbn in *. apply put_get in X as [(-> & -> & _)|[NE X]]; [cbn; congruence|]. apply (L2 _ _ X). intros PE. rewrite PE in NP. destruct (j =? i) eqn:JI; [apply Nat.eqb_eq in JI; lia|congruence]. }
    destruct a as [|x y z], out as [o|e]; injection H as <- <-; apply G; auto; cbn [publishing]; auto; try (intros; exact Logic.I).
    + cbn [pending]. intros [-> | ->]; auto. rewrite Nat.eqb_refl. auto.
    + right. destruct (Nat.eq_dec c 0); auto. destruct (QU n).
  - injection H as <- <-. cbn in PU. destruct (Nat.eq_dec c 0) as [-> |N]; [|destruct (QU N)]. split.
    + intros c' q' H. cbn [callers] in H. apply put_get in H as [(<- & -> & _)|[NE H]]; [cbn; auto|]. destruct (L1 _ _ H) as [P1 P2]. split; auto. assert (QQ : quiet q') by (apply P2; auto). clear - QQ. destruct q'; cbn in *; auto; try destruct QQ; destruct p as [|[]] || destruct a; auto; destruct QQ.
    + intros i r R NP. cbn in *. destruct (Nat.lt_ge_cases i (length (recs s))) as [LT|GE]; [rewrite nth_error_app1 in R by auto; apply (L2 _ _ R); congruence|]. assert (i < length (recs s ++ [fresh dataset fate])) by (apply nth_error_Some; congruence). rewrite app_length in *. cbn in *. assert (i = length (recs s)) by lia. congruence.
  - destruct PQ as (r & R & T). rewrite R in H. destruct asynchronous; injection H as <- <-; eapply lone_with; eauto; cbn; auto.
  - destruct (pending s) as [i|] eqn:PE; injection H as <- <-; apply lone_at; cbn; auto.
  - destruct PQ as (r & R). rewrite R in H. injection H as <- <-. apply lone_at; cbn; auto.
Qed.

Theorem step_lone : forall s x s' es, inv s -> lone s -> one_saver x -> step s x = Some (s', es) -> lone s'.
Proof.
  intros s x s' es I L O H. destruct x as [c o|c fine|i|i]; cbn [step] in H.
  - destruct (nth_error (callers s) c) as [[]|]; try discriminate H. injection H as <- <-. apply lone_at; auto; destruct o; cbn in *; auto.
  - destruct (nth_error (callers s) c) as [q|] eqn:Q; [|discriminate]. eapply go_lone; eauto.
  - destruct (nth_error (recs s) i) as [r|] eqn:R; [|discriminate]. destruct (r_ready r); [discriminate|]. injection H as <- <-. eapply lone_rec; eauto.
  - destruct (nth_error (recs s) i) as [r|] eqn:R; [|discriminate]. destruct (thread_step r) as [r'|] eqn:T; [|discriminate]. injection H as <- <-. eapply lone_rec; eauto.
    destruct (r_saved r) as [b|] eqn:SV; [|congruence]. intros _. destruct (thread_ok r r' (proj1 I _ _ R) T) as [_ M]. destruct (M 0) as (_ & _ & _ & _ & M5 & _). rewrite (M5 b SV). discriminate.
Qed.

Theorem reach_lone : forall n s, reach one_saver n s -> lone s.
Proof.
  intros n s H. induction H; [|eapply step_lone; eauto; eapply reach_inv; eauto]. split; cbn; [|intros [|i]; discriminate]. intros c q H. apply repeat_get in H. subst q. cbn. auto.
Qed.

Lemma later_reach : forall ok n s s', reach ok n s -> later ok s s' -> reach ok n s'.
Proof. intros ok n s s' R L. induction L; auto. eapply ReachStep; eauto. Qed.

(** ** A failed handoff stays *)

Lemma fate_fixed : forall s x s' es i r, step s x = Some (s', es) -> nth_error (recs s) i = Some r -> exists r', nth_error (recs s') i = Some r' /\ r_fate r' = r_fate r /\ r_dataset r' = r_dataset r.
Proof.
  intros s x s' es i r H R.
  assert (P : forall j y y', nth_error (recs s) j = Some y -> r_fate y' = r_fate y -> r_dataset y' = r_dataset y -> exists r', nth_error (put j y' (recs s)) i = Some r' /\ r_fate r' = r_fate r /\ r_dataset r' = r_dataset r).
  { intros j y y' Y F D. destruct (Nat.eq_dec j i) as [-> |N]; [exists y'; split; [eapply put_same; eauto|split; congruence]|exists r; rewrite put_other; auto]. }
  assert (DR : forall j y b p c, nth_error (recs s) j = Some y -> exists r', nth_error (recs (fst (drained s c j y b p))) i = Some r' /\ r_fate r' = r_fate r /\ r_dataset r' = r_dataset r).
  { intros j y b p c Y. destruct p; cbn [drained fst with_rec recs]; eapply P; eauto. }
  assert (RA : forall j y e c, nth_error (recs s) j = Some y -> exists r', nth_error (recs (fst (raised s c j y e))) i = Some r' /\ r_fate r' = r_fate r /\ r_dataset r' = r_dataset r).
  { intros j y e c Y. cbn [raised fst with_rec recs]; eapply P; eauto. }
  destruct x as [c o|c fine|j|j]; cbn [step] in H.
  - destruct (nth_error (callers s) c) as [[]|]; try discriminate H. injection H as <- <-. eauto.
  - destruct (nth_error (callers s) c) as [q|] eqn:Q; [|discriminate]. destruct q; cbn [go] in H; try discriminate H;
      try match type of H with match nth_error (recs s) ?j with _ => _ end = _ => destruct (nth_error (recs s) j) as [y|] eqn:Y; [|discriminate] end.
    + injection H as <- <-. eauto.
    + destruct (pending s); [|destruct a]; injection H as <- <-; eauto.
    + destruct (pending s); injection H as <- <-; eauto.
    + destruct (r_owner y); [discriminate|]. injection H as <- <-. eapply P; eauto.
    + destruct (r_saved y); [fstH H s'; eauto|injection H as <- <-; eauto].
    + destruct (waits p); [destruct (r_thread y); try discriminate H|destruct (alive (r_thread y))]; try (fstH H s'; eauto; fail); injection H as <- <-; eauto.
    + destruct (r_done y); [destruct (r_error y); [|destruct (r_handoff_saved y) as [[]|]]|]; try (fstH H s'; eauto; fail); injection H as <- <-; eauto.
    + destruct (r_dataset y); [destruct fine|]; try (fstH H s'; eauto; fail); injection H as <- <-; eauto. eapply P; eauto.
    + fstH H s'. destruct p; cbn [drained fst with_rec recs]; eapply P; eauto.
    + injection H as <- <-. eauto.
    + destruct a, out; injection H as <- <-; cbn [recs]; eapply P; eauto.
    + injection H as <- <-. cbn [recs]. exists r. rewrite nth_error_app1; auto. apply nth_error_Some. congruence.
    + destruct asynchronous; injection H as <- <-; cbn [recs with_rec]; eapply P; eauto.
    + destruct (pending s); injection H as <- <-; eauto.
    + injection H as <- <-. eauto.
  - destruct (nth_error (recs s) j) as [y|] eqn:Y; [|discriminate]. destruct (r_ready y); [discriminate|]. injection H as <- <-. eapply P; eauto.
  - destruct (nth_error (recs s) j) as [y|] eqn:Y; [|discriminate]. destruct (thread_step y) as [y'|] eqn:T; [|discriminate]. injection H as <- <-. cbn [recs].
    eapply P; eauto; unfold thread_step, publish in T; destruct (r_thread y), (r_ready y), (r_fate y) eqn:FE; try discriminate T; injection T as <-; cbn; auto.
Qed.

(** How a step changes which save is pending, and how many there are *)
Lemma pending_step : forall s x s' es, step s x = Some (s', es) ->
  (pending s' = pending s /\ length (recs s') = length (recs s)) \/
  (exists c a d f, nth_error (callers s) c = Some (Publish a d f) /\ pending s' = Some (length (recs s)) /\ length (recs s') = S (length (recs s))) \/
  (exists c i out a, nth_error (callers s) c = Some (FinClear i out a) /\ pending s = Some i /\ pending s' = None /\ length (recs s') = length (recs s)).
Proof.
  intros s x s' es H.
  assert (DR : forall c j y b p, pending (fst (drained s c j y b p)) = pending s /\ length (recs (fst (drained s c j y b p))) = length (recs s)).
  { intros c j y b p. destruct p; cbn [drained fst with_rec recs pending]; rewrite put_length; auto. }
  assert (RA : forall c j y e, pending (fst (raised s c j y e)) = pending s /\ length (recs (fst (raised s c j y e))) = length (recs s)).
  { intros c j y e. cbn [raised fst with_rec recs pending]; rewrite put_length; auto. }
  destruct x as [c o|c fine|j|j]; cbn [step] in H.
  - destruct (nth_error (callers s) c) as [[]|]; try discriminate H. injection H as <- <-. auto.
  - destruct (nth_error (callers s) c) as [q|] eqn:Q; [|discriminate]. destruct q; cbn [go] in H; try discriminate H;
      try match type of H with match nth_error (recs s) ?j with _ => _ end = _ => destruct (nth_error (recs s) j) as [y|] eqn:Y; [|discriminate] end.
    + injection H as <- <-. auto.
    + destruct (pending s) eqn:PE; [|destruct a]; injection H as <- <-; cbn; auto.
    + destruct (pending s) eqn:PE; injection H as <- <-; cbn; auto.
    + destruct (r_owner y); [discriminate|]. injection H as <- <-. cbn. rewrite put_length. auto.
    + destruct (r_saved y); [fstH H s'; auto|injection H as <- <-; auto].
    + destruct (waits p); [destruct (r_thread y); try discriminate H|destruct (alive (r_thread y))]; try (fstH H s'; auto; fail); injection H as <- <-; auto.
    + destruct (r_done y); [destruct (r_error y); [|destruct (r_handoff_saved y) as [[]|]]|]; try (fstH H s'; auto; fail); injection H as <- <-; auto.
    + destruct (r_dataset y); [destruct fine|]; try (fstH H s'; auto; fail); injection H as <- <-; cbn; rewrite ?put_length; auto.
    + fstH H s'. auto.
    + injection H as <- <-. auto.
    + destruct (pending s) as [k|] eqn:PE; [destruct (k =? i) eqn:KI|].
      * apply Nat.eqb_eq in KI. subst k. right. right. exists c, i, out, a. destruct a, out; injection H as <- <-; cbn; rewrite put_length; auto.
      * left. destruct a, out; injection H as <- <-; cbn; rewrite put_length; auto.
      * left. destruct a, out; injection H as <- <-; cbn; rewrite put_length; auto.
    + injection H as <- <-. right. left. exists c, asynchronous, dataset, fate. cbn. rewrite app_length. cbn. repeat split; auto. lia.
    + destruct asynchronous; injection H as <- <-; cbn; rewrite put_length; auto.
    + destruct (pending s) eqn:PE; injection H as <- <-; cbn; auto.
    + injection H as <- <-. auto.
  - destruct (nth_error (recs s) j) as [y|] eqn:Y; [|discriminate]. destruct (r_ready y); [discriminate|]. injection H as <- <-. cbn. rewrite put_length. auto.
  - destruct (nth_error (recs s) j) as [y|] eqn:Y; [|discriminate]. destruct (thread_step y) as [y'|] eqn:T; [|discriminate]. injection H as <- <-. cbn. rewrite put_length. auto.
Qed.

Theorem failed_forever : forall n s s' i e, reach one_saver n s -> pending s = Some i -> save_is s i (fun r => r_fate r = Err e) -> later one_saver s s' ->
  pending s' = Some i /\ length (recs s') = length (recs s) /\ save_is s' i (fun r => r_fate r = Err e).
Proof.
  intros n s s' i e R P F L. induction L as [|s1 x s2 es L IH O H]; auto. destruct IH as (P1 & N1 & (r1 & R1 & F1)). pose proof (later_reach _ _ _ _ R L) as RE.
  destruct (fate_fixed _ _ _ _ _ _ H R1) as (r2 & R2 & F2 & _). destruct (pending_step _ _ _ _ H) as [[Z1 Z2]|[(c & a & d & f & Q & _ & _)|(c & j & out & a & Q & PJ & _)]].
  - rewrite Z1, Z2. repeat split; auto. exists r2. split; congruence.
  - exfalso. destruct (proj1 (reach_lone _ _ RE) _ _ Q) as [X _]. cbn in X. congruence.
  - exfalso. assert (j = i) by congruence. subst j. pose proof (reach_inv _ _ _ RE) as (A & B & _). specialize (B _ _ Q). cbn in B. destruct B as (r & b & R' & SV & _). assert (r = r1) by congruence. subst r. destruct (proj1 (proj2 (proj2 (A _ _ R1))) b SV). congruence.
Qed.

(** ** A save that nobody looks at any more *)

Definition about (q : pc) : option nat :=
  match q with
  | Acquire i _ | SavedCheck i _ | Join i _ | Done i _ | Persist i _ | SetSaved i _ _ | FinWait i _ _ | FinClear i _ _ | Check i => Some i
  | _ => None
  end.

Definition forgotten (s : state) (i : nat) : Prop := i < length (recs s) /\ pending s <> Some i /\ forall c q, nth_error (callers s) c = Some q -> about q <> Some i.

Lemma thread_persisted : forall r r', thread_step r = Some r' -> r_persisted r' = r_persisted r.
Proof. intros r r' T. unfold thread_step, publish in T. destruct (r_thread r), (r_ready r), (r_fate r); try discriminate T; injection T as <-; auto. Qed.

Lemma forgotten_step : forall s x s' es i, forgotten s i -> step s x = Some (s', es) ->
  forgotten s' i /\ forall r r', nth_error (recs s) i = Some r -> nth_error (recs s') i = Some r' -> r_persisted r' = r_persisted r.
Proof.
  intros s x s' es i (L & P & Q) H. split.
  - assert (L' : length (recs s) <= length (recs s') /\ pending s' <> Some i).
    { destruct (pending_step _ _ _ _ H) as [[Z1 Z2]|[(c & a & d & f & _ & Z1 & Z2)|(c & j & out & a & _ & _ & Z1 & Z2)]]; rewrite Z1, Z2; split; auto; try congruence. intros X. injection X as X. lia. }
    destruct L' as [L' P']. split; [lia|]. split; auto. intros c' q' X.
    assert (PUT : forall c q, (forall j, about q = Some j -> pending s = Some j \/ exists c0 q0, nth_error (callers s) c0 = Some q0 /\ about q0 = Some j) -> callers s' = put c q (callers s) -> about q' <> Some i).
    { intros c q AB CS. rewrite CS in X. apply put_get in X as [(_ & -> & _)|[_ X]]; [|eapply Q; eauto]. intros Y. destruct (AB _ Y) as [Z|(c0 & q0 & Z1 & Z2)]; [auto|eapply Q; eauto]. }
    assert (DR : forall c j y b p, nth_error (callers s) c <> None -> (exists q, nth_error (callers s) c = Some q /\ about q = Some j) -> s' = fst (drained s c j y b p) -> about q' <> Some i).
    { intros c j y b p _ (q0 & Q0 & A0) ->. destruct p; cbn [drained fst with_rec callers] in *; [eapply (PUT c Idle); auto; intros ?; discriminate|eapply (PUT c); [|reflexivity]; cbn; intros j' J; right; eexists; eexists; split; [exact Q0|congruence]]. }
    assert (RA : forall c j y e, s' = fst (raised s c j y e) -> about q' <> Some i).
    { intros c j y e ->. cbn [raised fst with_rec callers] in *. eapply (PUT c Idle); auto. intros ?; discriminate. }
    destruct x as [c o|c fine|j|j]; cbn [step] in H.
    + destruct (nth_error (callers s) c) as [[]|]; try discriminate H. injection H as <- <-. eapply (PUT c); [|reflexivity]. destruct o; cbn; discriminate.
    + destruct (nth_error (callers s) c) as [q|] eqn:QQ; [|discriminate].
      assert (SAME : forall q1, about q1 = about q \/ about q1 = None -> callers s' = put c q1 (callers s) -> about q' <> Some i).
      { intros q1 E CS. eapply PUT; [|exact CS]. intros j J. destruct E as [E|E]; [|congruence]. right. exists c, q. split; auto. congruence. }
      assert (NN : nth_error (callers s) c <> None) by congruence.
      destruct q; cbn [go] in H; try discriminate H;
        try match type of H with match nth_error (recs s) ?j with _ => _ end = _ => destruct (nth_error (recs s) j) as [y|] eqn:Y; [|discriminate] end.
      * injection H as <- <-. eapply SAME; [|reflexivity]. destruct (pending s); cbn; auto.
      * destruct (pending s) as [k|] eqn:PE; [|destruct a]; injection H as <- <-; [eapply PUT; [|reflexivity]; cbn; intros j J; left; congruence|eapply SAME; [|reflexivity]; cbn; auto|eapply SAME; [|reflexivity]; cbn; auto].
      * destruct (pending s) as [k|] eqn:PE; injection H as <- <-; [eapply PUT; [|reflexivity]; cbn; intros j J; left; congruence|eapply SAME; [|reflexivity]; cbn; auto].
      * destruct (r_owner y); [discriminate|]. injection H as <- <-. eapply SAME; [|reflexivity]. cbn; auto.
      * destruct (r_saved y); [fstH H s'; eapply (DR c i0 _ _ p NN); [eexists; split; [exact QQ|reflexivity]|reflexivity]|injection H as <- <-; eapply SAME; [|reflexivity]; cbn; auto].
      * destruct (waits p); [destruct (r_thread y); try discriminate H|destruct (alive (r_thread y))]; try (fstH H s'; eapply (DR c i0 _ _ p NN); [eexists; split; [exact QQ|reflexivity]|reflexivity]; fail); try (fstH H s'; eapply RA; reflexivity; fail); injection H as <- <-; eapply SAME; try reflexivity; cbn; auto.
      * destruct (r_done y); [destruct (r_error y); [|destruct (r_handoff_saved y) as [[]|]]|]; try (fstH H s'; eapply (DR c i0 _ _ p NN); [eexists; split; [exact QQ|reflexivity]|reflexivity]; fail); try (fstH H s'; eapply RA; reflexivity; fail); injection H as <- <-; eapply SAME; try reflexivity; cbn; auto.
      * destruct (r_dataset y); [destruct fine|]; try (fstH H s'; eapply RA; reflexivity; fail); injection H as <- <-; eapply SAME; try reflexivity; cbn; auto.
      * fstH H s'; eapply (DR c i0 _ _ p NN); [eexists; split; [exact QQ|reflexivity]|reflexivity].
      * injection H as <- <-; eapply SAME; try reflexivity; cbn; auto.
      * destruct a, out; injection H as <- <-; eapply SAME; try reflexivity; cbn; auto.
      * injection H as <- <-; eapply SAME; try reflexivity; cbn; auto.
      * destruct asynchronous; injection H as <- <-; eapply SAME; try reflexivity; cbn; auto.
      * destruct (pending s) as [k|] eqn:PE; injection H as <- <-; [eapply PUT; [|reflexivity]; cbn; intros j J; left; congruence|eapply SAME; [|reflexivity]; cbn; auto].
      * injection H as <- <-; eapply SAME; try reflexivity; cbn; auto.
    + destruct (nth_error (recs s) j) as [y|] eqn:Y; [|discriminate]. destruct (r_ready y); [discriminate|]. injection H as <- <-. eapply Q; eauto.
    + destruct (nth_error (recs s) j) as [y|] eqn:Y; [|discriminate]. destruct (thread_step y) as [y'|] eqn:T; [|discriminate]. injection H as <- <-. eapply Q; eauto.
  - intros r r' R R'.
    assert (PUT : forall j y y', nth_error (recs s) j = Some y -> r_persisted y' = r_persisted y -> nth_error (put j y' (recs s)) i = Some r' -> r_persisted r' = r_persisted r).
    { intros j y y' Y E X. apply put_get in X as [(-> & -> & _)|[_ X]]; congruence. }
    assert (DR : forall c j y b p, nth_error (recs s) j = Some y -> nth_error (recs (fst (drained s c j y b p))) i = Some r' -> r_persisted r' = r_persisted r).
    { intros c j y b p Y. destruct p; cbn [drained fst with_rec recs]; eapply PUT; eauto. }
    assert (RA : forall c j y e, nth_error (recs s) j = Some y -> nth_error (recs (fst (raised s c j y e))) i = Some r' -> r_persisted r' = r_persisted r).
    { intros c j y e Y. cbn [raised fst with_rec recs]; eapply PUT; eauto. }
    assert (SM : nth_error (recs s) i = Some r' -> r_persisted r' = r_persisted r) by congruence.
    destruct x as [c o|c fine|j|j]; cbn [step] in H.
    + destruct (nth_error (callers s) c) as [[]|]; try discriminate H. injection H as <- <-. auto.
    + destruct (nth_error (callers s) c) as [q|] eqn:QQ; [|discriminate]. pose proof (Q _ _ QQ) as NA. destruct q; cbn [go] in H; try discriminate H;
        try match type of H with match nth_error (recs s) ?j with _ => _ end = _ => destruct (nth_error (recs s) j) as [y|] eqn:Y; [|discriminate] end.
      * injection H as <- <-. auto.
      * destruct (pending s); [|destruct a]; injection H as <- <-; auto.
      * destruct (pending s); injection H as <- <-; auto.
      * destruct (r_owner y); [discriminate|]. injection H as <- <-. eapply (PUT i0 y); [exact Y| |exact R']; reflexivity.
      * destruct (r_saved y); [fstH H s'; eauto|injection H as <- <-; auto].
      * destruct (waits p); [destruct (r_thread y); try discriminate H|destruct (alive (r_thread y))]; try (fstH H s'; eauto; fail); injection H as <- <-; auto.
      * destruct (r_done y); [destruct (r_error y); [|destruct (r_handoff_saved y) as [[]|]]|]; try (fstH H s'; eauto; fail); injection H as <- <-; auto.
      * destruct (r_dataset y); [destruct fine|]; try (fstH H s'; eauto; fail); injection H as <- <-; auto. cbn in R', NA. rewrite put_other in R' by congruence. auto.
      * fstH H s'. destruct p; cbn [drained fst with_rec recs] in R'; apply (fun E => PUT i0 y _ Y E R'); reflexivity.
      * injection H as <- <-. auto.
      * destruct a, out; injection H as <- <-; cbn [recs] in R'; apply (fun E => PUT i0 y _ Y E R'); reflexivity.
      * injection H as <- <-. cbn [recs] in R'. rewrite nth_error_app1 in R' by auto. auto.
      * destruct asynchronous; injection H as <- <-; cbn [recs with_rec] in R'; apply (fun E => PUT i0 y _ Y E R'); reflexivity.
      * destruct (pending s); injection H as <- <-; auto.
      * injection H as <- <-. auto.
    + destruct (nth_error (recs s) j) as [y|] eqn:Y; [|discriminate]. destruct (r_ready y); [discriminate|]. injection H as <- <-. cbn [recs] in R'. eapply (PUT j y); [exact Y| |exact R']; try reflexivity.
    + destruct (nth_error (recs s) j) as [y|] eqn:Y; [|discriminate]. destruct (thread_step y) as [y'|] eqn:T; [|discriminate]. injection H as <- <-. cbn [recs] in R'. eapply (PUT j y); [exact Y| |exact R']; try reflexivity. apply thread_persisted. auto.
Qed.

Theorem forgotten_forever : forall s s' i r, forgotten s i -> nth_error (recs s) i = Some r -> later any s s' -> forgotten s' i /\ save_is s' i (fun r' => r_persisted r' = r_persisted r).
Proof.
  intros s s' i r F R L. induction L as [|s1 x s2 es L IH O H]; [split; auto; exists r; auto|]. destruct IH as (F1 & r1 & R1 & P1). destruct (forgotten_step _ _ _ _ _ F1 H) as [F2 K]. split; auto. destruct (fate_fixed _ _ _ _ _ _ H R1) as (r2 & R2 & _). exists r2. split; auto. rewrite (K _ _ R1 R2). auto.
Qed.

(** ** Nobody waits for ever *)

Definition holds (q : pc) : option nat :=
  match q with SavedCheck i _ | Join i _ | Done i _ | Persist i _ | SetSaved i _ _ => Some i | _ => None end.

Definition owned (s : state) : Prop := forall i r c, nth_error (recs s) i = Some r -> r_owner r = Some c -> exists q, nth_error (callers s) c = Some q /\ holds q = Some i.

Lemma owned_at : forall s c q q', owned s -> nth_error (callers s) c = Some q -> holds q = None \/ holds q' = holds q -> owned (at_pc s c q').
Proof.
  intros s c q q' O Q H i r c' R OW. cbn in *. destruct (O _ _ _ R OW) as (q0 & Q0 & H0). destruct (Nat.eq_dec c c') as [<-|N]; [|exists q0; rewrite put_other; auto].
  exists q'. split; [eapply put_same; eauto|]. assert (q0 = q) by congruence. subst q0. destruct H; congruence.
Qed.

Lemma owned_with : forall s c q q' i r r', owned s -> nth_error (callers s) c = Some q -> nth_error (recs s) i = Some r ->
  (r_owner r' = r_owner r /\ (holds q = None \/ holds q' = holds q)) \/ (r_owner r' = None /\ holds q = Some i) \/ (r_owner r' = Some c /\ holds q' = Some i /\ holds q = None) ->
  owned (with_rec s i r' c q').
Proof.
  intros s c q q' i r r' O Q R H j x c' X OW. cbn in *. apply put_get in X as [(-> & -> & _)|[NE X]].
  - destruct H as [[H1 H2]|[[H1 H2]|(H1 & H2 & H3)]].
    + rewrite H1 in OW. apply (owned_at s c q q' O Q H2 _ _ _ R OW).
    + congruence.
    + assert (c' = c) by congruence. subst c'. exists q'. split; auto. eapply put_same; eauto.
  - destruct (O _ _ _ X OW) as (q0 & Q0 & H0). destruct (Nat.eq_dec c c') as [<-|N]; [|exists q0; rewrite put_other; auto]. assert (q0 = q) by congruence. subst q0.
    exists q'. split; [eapply put_same; eauto|]. destruct H as [[H1 [H2|H2]]|[[H1 H2]|(H1 & H2 & H3)]]; congruence.
Qed.

Lemma owned_rec : forall s i r r', owned s -> nth_error (recs s) i = Some r -> r_owner r' = r_owner r -> owned (mkState (put i r' (recs s)) (pending s) (callers s)).
Proof. intros s i r r' O R E j x c X OW. cbn in *. apply put_get in X as [(-> & -> & _)|[_ X]]; [rewrite E in OW|]; eauto. Qed.

Lemma owned_drained : forall s c q i r r1 b p, owned s -> nth_error (callers s) c = Some q -> holds q = Some i -> nth_error (recs s) i = Some r -> owned (fst (drained s c i r1 b p)).
Proof. intros s c q i r r1 b p O Q H R. destruct p; cbn [drained fst]; eapply owned_with; eauto. Qed.

Lemma owned_raised : forall s c q i r e, owned s -> nth_error (callers s) c = Some q -> holds q = Some i -> nth_error (recs s) i = Some r -> owned (fst (raised s c i r e)).
Proof. intros s c q i r e O Q H R. cbn [raised fst]. eapply owned_with; eauto. Qed.

Lemma thread_owner : forall r r', thread_step r = Some r' -> r_owner r' = r_owner r.
Proof. intros r r' T. unfold thread_step, publish in T. destruct (r_thread r), (r_ready r), (r_fate r); try discriminate T; injection T as <-; auto. Qed.

Theorem step_owned : forall s x s' es, owned s -> step s x = Some (s', es) -> owned s'.
Proof.
  intros s x s' es O H. destruct x as [c o|c fine|j|j]; cbn [step] in H.
  - destruct (nth_error (callers s) c) as [[]|] eqn:Q; try discriminate H. injection H as <- <-. eapply owned_at; eauto.
  - destruct (nth_error (callers s) c) as [q|] eqn:Q; [|discriminate].
    assert (AT : forall q', holds q = None \/ holds q' = holds q -> owned (at_pc s c q')) by (intros; eapply owned_at; eauto).
    destruct q; cbn [go] in H; try discriminate H;
      try match type of H with match nth_error (recs s) ?j with _ => _ end = _ => destruct (nth_error (recs s) j) as [y|] eqn:Y; [|discriminate] end.
    + injection H as <- <-. apply AT. auto.
    + destruct (pending s) eqn:PE; [|destruct a]; injection H as <- <-; apply AT; auto.
    + destruct (pending s) eqn:PE; injection H as <- <-; apply AT; auto.
    + destruct (r_owner y); [discriminate|]. injection H as <- <-. eapply owned_with; eauto.
    + destruct (r_saved y); [fstH H s'; eapply owned_drained; eauto; reflexivity|injection H as <- <-; apply AT; auto].
    + destruct (waits p); [destruct (r_thread y); try discriminate H|destruct (alive (r_thread y))]; try (fstH H s'; eapply owned_drained; eauto; reflexivity); try (fstH H s'; eapply owned_raised; eauto; reflexivity); injection H as <- <-; apply AT; auto.
    + destruct (r_done y); [destruct (r_error y); [|destruct (r_handoff_saved y) as [[]|]]|]; try (fstH H s'; eapply owned_drained; eauto; reflexivity); try (fstH H s'; eapply owned_raised; eauto; reflexivity); injection H as <- <-; apply AT; auto.
    + destruct (r_dataset y); [destruct fine|]; try (fstH H s'; eapply owned_raised; eauto; reflexivity); injection H as <- <-; [eapply owned_with; eauto|apply AT; auto].
    + fstH H s'. eapply owned_drained; eauto; reflexivity.
    + injection H as <- <-. apply AT. auto.
    + assert (G : forall q', owned (with_rec s i (release_keepalive y) c q')) by (intros; eapply owned_with; eauto). destruct a, out; injection H as <- <-; apply G.
    + injection H as <- <-. intros i r c' R OW. cbn in *. destruct (Nat.lt_ge_cases i (length (recs s))) as [LT|GE].
      * rewrite nth_error_app1 in R by auto. apply (AT (Start (length (recs s)) asynchronous) (or_introl eq_refl) _ _ _ R OW).
      * rewrite nth_error_app2 in R by auto. destruct (i - length (recs s)) as [|k]; cbn in R; [|destruct k; discriminate]. injection R as <-. discriminate.
    + destruct asynchronous; injection H as <- <-; eapply owned_with; eauto.
    + destruct (pending s) eqn:PE; injection H as <- <-; apply AT; auto.
    + injection H as <- <-. apply AT; auto.
  - destruct (nth_error (recs s) j) as [y|] eqn:Y; [|discriminate]. destruct (r_ready y); [discriminate|]. injection H as <- <-. eapply owned_rec; eauto.
  - destruct (nth_error (recs s) j) as [y|] eqn:Y; [|discriminate]. destruct (thread_step y) as [y'|] eqn:T; [|discriminate]. injection H as <- <-. eapply owned_rec; eauto. apply thread_owner. auto.
Qed.

Theorem reach_owned : forall ok n s, reach ok n s -> owned s.
Proof. intros ok n s H. induction H; [|eapply step_owned; eauto]. intros [|i] r c R; discriminate. Qed.

Lemma holder_moves : forall s c q i, inv s -> nth_error (callers s) c = Some q -> holds q = Some i -> exists x, ongoing x /\ step s x <> None.
Proof.
  intros s c q i I Q H. pose proof (proj1 (proj2 I) _ _ Q) as P.
  assert (GO : go s c q true <> None -> exists x, ongoing x /\ step s x <> None). { intros G. exists (AGo c true). split; [exact Logic.I|]. cbn [step]. rewrite Q. auto. }
  destruct q; try discriminate H; cbn [pc_ok] in P; destruct P as (r & R & P).
  - apply GO. cbn [go]. rewrite R. destruct (r_saved r); discriminate.
  - destruct (waits p) eqn:W; [|apply GO; cbn [go]; rewrite R, W; destruct (alive (r_thread r)); discriminate].
    assert (TH : thread_step r <> None -> exists x, ongoing x /\ step s x <> None). { intros T. exists (AThread i0). split; [exact Logic.I|]. cbn [step]. rewrite R. destruct (thread_step r); congruence. }
    destruct (r_thread r) eqn:T; try (apply TH; unfold thread_step; rewrite T; discriminate).
    + apply GO. cbn [go]. rewrite R, W, T. discriminate.
    + destruct (r_ready r) eqn:RD; [apply TH; unfold thread_step; rewrite T, RD; discriminate|]. exists (AReady i0). split; [exact Logic.I|]. cbn [step]. rewrite R, RD. discriminate.
    + apply GO. cbn [go]. rewrite R, W, T. discriminate.
  - apply GO. cbn [go]. rewrite R. destruct (r_done r); [|discriminate]. destruct (r_error r); [discriminate|]. destruct (r_handoff_saved r) as [[]|]; discriminate.
  - apply GO. cbn [go]. rewrite R. destruct (r_dataset r); discriminate.
  - apply GO. cbn [go]. rewrite R. discriminate.
Qed.

Theorem no_deadlock : forall s c, inv s -> owned s -> busy s c -> exists x, ongoing x /\ step s x <> None.
Proof.
  intros s c I O (q & Q & N). pose proof (proj1 (proj2 I) _ _ Q) as P.
  assert (GO : go s c q true <> None -> exists x, ongoing x /\ step s x <> None). { intros G. exists (AGo c true). split; [exact Logic.I|]. cbn [step]. rewrite Q. auto. }
  destruct (holds q) as [i|] eqn:H; [eapply holder_moves; eauto|]. destruct q; try discriminate H; cbn [pc_ok] in P; try (apply GO; cbn [go]; discriminate).
  - congruence.
  - apply GO. cbn [go]. destruct (pending s); [|destruct a]; discriminate.
  - apply GO. cbn [go]. destruct (pending s); discriminate.
  - destruct P as (r & R). destruct (r_owner r) as [c'|] eqn:OW; [|apply GO; cbn [go]; rewrite R, OW; discriminate]. destruct (O _ _ _ R OW) as (q' & Q' & H'). eapply holder_moves; eauto.
  - destruct P as (r & R & _). apply GO. cbn [go]. rewrite R. discriminate.
  - destruct P as (r & b & R & _). apply GO. cbn [go]. rewrite R. discriminate.
  - destruct P as (r & R & _). apply GO. cbn [go]. rewrite R. destruct asynchronous; discriminate.
  - apply GO. cbn [go]. destruct (pending s); discriminate.
  - destruct P as (r & R). apply GO. cbn [go]. rewrite R. discriminate.
Qed.

Definition wt (t : thread) : nat := match t with TNew => 5 | TWait => 4 | TRelease => 3 | TPublish => 2 | TExit => 1 | TEnd => 0 end.
Definition wr (r : record) : nat := wt (r_thread r) + if r_ready r then 0 else 1.
Definition wa (a : after) : nat := match a with AfterReturn => 0 | AfterPublish _ _ _ => 20 end.
Definition wp (p : purpose) : nat := match p with ForDrain _ => 0 | ForFinish a => wa a end.
Definition wq (q : pc) : nat :=
  match q with
  | Idle => 0 | Check _ => 1 | CheckRead => 2
  | FinClear _ _ a => 1 + wa a | FinWait _ _ a => 2 + wa a
  | SetSaved _ _ p => 3 + wp p | Persist _ p => 4 + wp p | Done _ p => 5 + wp p | Join _ p => 6 + wp p | SavedCheck _ p => 7 + wp p | Acquire _ p => 8 + wp p
  | DrainRead _ => 9 | FinRead a => 9 + wa a | Start _ _ => 10 | Publish _ _ _ => 18 | SaveCheck _ _ _ => 30
  end.
Fixpoint total {A : Type} (f : A -> nat) (l : list A) : nat := match l with [] => 0 | x :: r => f x + total f r end.
Definition measure (s : state) : nat := total wr (recs s) + total wq (callers s).

Lemma total_put : forall {A} (f : A -> nat) l i x y, nth_error l i = Some x -> total f (put i y l) + f x = total f l + f y.
Proof. intros A f l. induction l as [|z l IH]; intros [|i] x y H; simpl in *; try discriminate; [injection H as <-; lia|]. specialize (IH _ _ y H). lia. Qed.

Lemma total_app : forall {A} (f : A -> nat) l x, total f (l ++ [x]) = total f l + f x.
Proof. intros A f l x. induction l as [|z l IH]; simpl; lia. Qed.

Theorem step_measure : forall s x s' es, inv s -> ongoing x -> step s x = Some (s', es) -> measure s' < measure s.
Proof.
  intros s x s' es I O H. unfold measure. destruct x as [c o|c fine|j|j]; cbn [step] in H.
  - destruct O.
  - destruct (nth_error (callers s) c) as [q|] eqn:Q; [|discriminate].
    assert (AT : forall q', wq q' < wq q -> total wr (recs (at_pc s c q')) + total wq (callers (at_pc s c q')) < total wr (recs s) + total wq (callers s)).
    { intros q' L. cbn [at_pc recs callers]. pose proof (total_put wq _ _ _ q' Q). lia. }
    assert (WR : forall i r r' q' p', nth_error (recs s) i = Some r -> wr r' <= wr r -> wq q' < wq q -> total wr (recs (mkState (put i r' (recs s)) p' (put c q' (callers s)))) + total wq (callers (mkState (put i r' (recs s)) p' (put c q' (callers s)))) < total wr (recs s) + total wq (callers s)).
    { intros i r r' q' p' R LR L. cbn [recs callers]. pose proof (total_put wq _ _ _ q' Q). pose proof (total_put wr _ _ _ r' R). lia. }
    assert (DR : forall i r b p, nth_error (recs s) i = Some r -> 3 + wp p <= wq q -> total wr (recs (fst (drained s c i r b p))) + total wq (callers (fst (drained s c i r b p))) < total wr (recs s) + total wq (callers s)).
    { intros i r b p R L. destruct p; cbn [drained fst with_rec]; eapply WR; eauto; cbn in *; lia. }
    assert (RA : forall i r e, nth_error (recs s) i = Some r -> 1 <= wq q -> total wr (recs (fst (raised s c i r e))) + total wq (callers (fst (raised s c i r e))) < total wr (recs s) + total wq (callers s)).
    { intros i r e R L. cbn [raised fst with_rec]. eapply WR; eauto; cbn in *; lia. }
    destruct q; cbn [go] in H; try discriminate H;
      try match type of H with match nth_error (recs s) ?j with _ => _ end = _ => destruct (nth_error (recs s) j) as [y|] eqn:Y; [|discriminate] end; cbn [wq] in *.
    + injection H as <- <-. apply AT. destruct (pending s); cbn; lia.
    + destruct (pending s) eqn:PE; [|destruct a]; injection H as <- <-; apply AT; cbn; lia.
    + destruct (pending s) eqn:PE; injection H as <- <-; apply AT; cbn; lia.
    + destruct (r_owner y); [discriminate|]. injection H as <- <-. unfold with_rec. eapply WR; eauto; cbn; lia.
    + destruct (r_saved y); [fstH H s'; apply DR; auto; lia|injection H as <- <-; apply AT; cbn; lia].
    + destruct (waits p); [destruct (r_thread y); try discriminate H|destruct (alive (r_thread y))]; try (fstH H s'; apply DR; auto; lia); try (fstH H s'; apply RA; auto; lia); injection H as <- <-; apply AT; cbn; lia.
    + destruct (r_done y); [destruct (r_error y); [|destruct (r_handoff_saved y) as [[]|]]|]; try (fstH H s'; apply DR; auto; lia); try (fstH H s'; apply RA; auto; lia); injection H as <- <-; apply AT; cbn; lia.
    + destruct (r_dataset y); [destruct fine|]; try (fstH H s'; apply RA; auto; lia); injection H as <- <-; [unfold with_rec; eapply WR; eauto; cbn; lia|apply AT; cbn; lia].
    + fstH H s'. destruct p; cbn [drained fst with_rec]; eapply WR; eauto; cbn in *; lia.
    + injection H as <- <-. apply AT. cbn. lia.
    + destruct a, out; injection H as <- <-; eapply WR; eauto; cbn; lia.
    + injection H as <- <-. cbn [recs callers]. rewrite total_app. pose proof (total_put wq _ _ _ (Start (length (recs s)) asynchronous) Q) as Z. cbn in *. lia.
    + pose proof (proj1 (proj2 I) _ _ Q) as (y0 & Y0 & TN). assert (y0 = y) by congruence. subst y0. destruct asynchronous; injection H as <- <-; cbn [with_rec recs callers]; pose proof (total_put wr _ _ _ (set_thread TWait y) Y) as Z1; [pose proof (total_put wq _ _ _ Idle Q) as Z2|pose proof (total_put wq _ _ _ (FinRead AfterReturn) Q) as Z2]; cbn in *; unfold wr in *; cbn in *; rewrite TN in *; cbn in *; lia.
    + destruct (pending s) eqn:PE; injection H as <- <-; apply AT; cbn; lia.
    + injection H as <- <-. apply AT; cbn; lia.
  - destruct (nth_error (recs s) j) as [y|] eqn:Y; [|discriminate]. destruct (r_ready y) eqn:RD; [discriminate|]. injection H as <- <-. cbn [recs callers]. pose proof (total_put wr _ _ _ (set_ready y) Y) as Z. unfold wr in *. rewrite RD in Z. cbn in Z. lia.
  - destruct (nth_error (recs s) j) as [y|] eqn:Y; [|discriminate]. destruct (thread_step y) as [y'|] eqn:T; [|discriminate]. injection H as <- <-. cbn [recs callers]. pose proof (total_put wr _ _ _ y' Y) as Z.
    assert (wr y' < wr y). { unfold thread_step, publish in T. unfold wr. destruct (r_thread y) eqn:TE, (r_ready y) eqn:RD, (r_fate y) eqn:FE; try discriminate T; injection T as <-; cbn; rewrite ?RD; lia. } lia.
Qed.

Theorem bounded : forall s l, inv s -> Forall ongoing l -> exec s l <> None -> length l <= measure s.
Proof.
  intros s l. revert s. induction l as [|x l IH]; intros s I F E; [simpl; lia|]. cbn [exec] in E. inversion F as [|y m F1 F2]; subst. destruct (step s x) as [[s1 es]|] eqn:S; [|congruence].
  pose proof (step_measure _ _ _ _ I F1 S). assert (length l <= measure s1). { apply IH; auto; [eapply step_inv; eauto|]. destruct (exec s1 l) as [[? ?]|]; congruence. } simpl. lia.
Qed.

Lemma all_idle_dec : forall l, (forall c q, nth_error l c = Some q -> q = Idle) \/ exists c q, nth_error l c = Some q /\ q <> Idle.
Proof.
  induction l as [|q l IH]; [left; intros [|c] q H; discriminate|]. destruct IH as [IH|(c & q' & H & N)]; [|right; exists (S c), q'; auto].
  destruct q; try (right; exists 0; eexists; split; [reflexivity|discriminate]). left. intros [|c] q' H; [injection H; auto|eauto].
Qed.

Theorem comes_to_rest : forall s, inv s -> owned s -> exists l s' es, Forall ongoing l /\ exec s l = Some (s', es) /\ forall c, ~ busy s' c.
Proof.
  intros s. remember (measure s) as m eqn:M. revert s M. induction m as [m IH] using lt_wf_ind. intros s M I O. destruct (all_idle_dec (callers s)) as [A|(c & q & Q & N)].
  - exists [], s, []. repeat split; auto. intros c (q & Q & N). apply N. eauto.
  - destruct (no_deadlock s c I O) as (x & OX & SX); [exists q; auto|]. destruct (step s x) as [[s1 e1]|] eqn:S; [|congruence]. pose proof (step_measure _ _ _ _ I OX S).
    destruct (IH (measure s1)) with (s := s1) as (l & s' & es & F & E & B); auto; try lia; [eapply step_inv; eauto|eapply step_owned; eauto|]. exists (x :: l), s', (e1 ++ es). cbn [exec]. rewrite S, E. auto.
Qed.

(** ** Threads are started, and calls are answered *)

Definition started (s : state) : Prop := forall i r, nth_error (recs s) i = Some r -> r_thread r = TNew -> exists c a, nth_error (callers s) c = Some (Start i a).

Lemma started_at : forall s c q q', started s -> nth_error (callers s) c = Some q -> is_start q = false -> started (at_pc s c q').
Proof.
  intros s c q q' S Q N i r R T. cbn in *. destruct (S _ _ R T) as (c0 & a & Q0). exists c0, a. rewrite put_other; auto. intros ->. rewrite Q in Q0. injection Q0 as ->. discriminate.
Qed.

Lemma started_with : forall s c q q' i r r' p, started s -> nth_error (callers s) c = Some q -> nth_error (recs s) i = Some r -> (is_start q = false /\ r_thread r' = r_thread r) \/ (r_thread r' = TWait /\ exists a, q = Start i a) ->
  started (mkState (put i r' (recs s)) p (put c q' (callers s))).
Proof.
  intros s c q q' i r r' p S Q R H j x X T. cbn in *. assert (OT : forall c0 a, nth_error (callers s) c0 = Some (Start j a) -> (c0 = c -> False) -> exists c1 a1, nth_error (put c q' (callers s)) c1 = Some (Start j a1)).
  { intros c0 a Q0 N. exists c0, a. rewrite put_other; auto. }
  apply put_get in X as [(-> & -> & _)|[NE X]].
  - destruct H as [[H1 H2]|[H1 _]]; [|congruence]. destruct (S _ _ R) as (c0 & a & Q0); [congruence|]. eapply OT; eauto. intros ->. rewrite Q in Q0. injection Q0 as ->. discriminate.
  - destruct (S _ _ X T) as (c0 & a & Q0). eapply OT; eauto. intros ->. rewrite Q in Q0. injection Q0 as ->. destruct H as [[H1 _]|[_ (a' & H1)]]; [discriminate|]. injection H1 as ? _. congruence.
Qed.

Theorem step_started : forall s x s' es, started s -> step s x = Some (s', es) -> started s'.
Proof.
  intros s x s' es S H. destruct x as [c o|c fine|j|j]; cbn [step] in H.
  - destruct (nth_error (callers s) c) as [[]|] eqn:Q; try discriminate H. injection H as <- <-. eapply started_at; eauto.
  - destruct (nth_error (callers s) c) as [q|] eqn:Q; [|discriminate].
    assert (AT : forall q', is_start q = false -> started (at_pc s c q')) by (intros; eapply started_at; eauto).
    assert (DR : forall i r r1 b p, nth_error (recs s) i = Some r -> r_thread r1 = r_thread r -> is_start q = false -> started (fst (drained s c i r1 b p))) by (intros i r r1 b p R T N; destruct p; cbn [drained fst]; eapply started_with; eauto).
    assert (RA : forall i r e, nth_error (recs s) i = Some r -> is_start q = false -> started (fst (raised s c i r e))) by (intros i r e R N; cbn [raised fst]; eapply started_with; eauto).
    destruct q; cbn [go] in H; try discriminate H;
      try match type of H with match nth_error (recs s) ?j with _ => _ end = _ => destruct (nth_error (recs s) j) as [y|] eqn:Y; [|discriminate] end.
    + injection H as <- <-. apply AT. auto.
    + destruct (pending s) eqn:PE; [|destruct a]; injection H as <- <-; apply AT; auto.
    + destruct (pending s) eqn:PE; injection H as <- <-; apply AT; auto.
    + destruct (r_owner y); [discriminate|]. injection H as <- <-. eapply started_with; eauto.
    + destruct (r_saved y); [fstH H s'; eapply DR; eauto|injection H as <- <-; apply AT; auto].
    + destruct (waits p); [destruct (r_thread y) eqn:T; try discriminate H|destruct (alive (r_thread y))]; try (fstH H s'; eapply DR; eauto; fail); try (fstH H s'; eapply RA; eauto; fail); injection H as <- <-; apply AT; auto.
    + destruct (r_done y); [destruct (r_error y); [|destruct (r_handoff_saved y) as [[]|]]|]; try (fstH H s'; eapply DR; eauto; fail); try (fstH H s'; eapply RA; eauto; fail); injection H as <- <-; apply AT; auto.
    + destruct (r_dataset y); [destruct fine|]; try (fstH H s'; eapply RA; eauto; fail); injection H as <- <-; [eapply started_with; eauto|apply AT; auto].
    + fstH H s'. eapply DR; eauto.
    + injection H as <- <-. apply AT. auto.
    + destruct a, out; injection H as <- <-; eapply started_with; eauto.
    + injection H as <- <-. intros i r R T. cbn in *. destruct (Nat.lt_ge_cases i (length (recs s))) as [LT|GE].
      * rewrite nth_error_app1 in R by auto. apply (AT (Start (length (recs s)) asynchronous) eq_refl _ _ R T).
      * assert (i < length (recs s ++ [fresh dataset fate])) by (apply nth_error_Some; congruence). rewrite app_length in *. cbn in *. assert (i = length (recs s)) by lia. subst i. exists c, asynchronous. eapply put_same; eauto.
    + destruct asynchronous; injection H as <- <-; eapply started_with; eauto.
    + destruct (pending s) eqn:PE; injection H as <- <-; apply AT; auto.
    + injection H as <- <-. apply AT; auto.
  - destruct (nth_error (recs s) j) as [y|] eqn:Y; [|discriminate]. destruct (r_ready y); [discriminate|]. injection H as <- <-. intros i r R T. cbn in *. apply put_get in R as [(-> & -> & _)|[_ R]]; eauto.
  - destruct (nth_error (recs s) j) as [y|] eqn:Y; [|discriminate]. destruct (thread_step y) as [y'|] eqn:T; [|discriminate]. injection H as <- <-. intros i r R TN. cbn in *. apply put_get in R as [(-> & -> & _)|[_ R]]; eauto.
    exfalso. unfold thread_step, publish in T. destruct (r_thread y), (r_ready y), (r_fate y); try discriminate T; injection T as <-; discriminate.
Qed.

Theorem reach_started : forall ok n s, reach ok n s -> started s.
Proof. intros ok n s H. induction H; [|eapply step_started; eauto]. intros [|i] r R; discriminate. Qed.

Theorem rest : forall ok n s, reach ok n s -> (forall x, ongoing x -> step s x = None) -> (forall c, ~ busy s c) /\ forall i r, nth_error (recs s) i = Some r -> r_thread r = TEnd.
Proof.
  intros ok n s R N. pose proof (reach_inv _ _ _ R) as I. pose proof (reach_owned _ _ _ R) as O. pose proof (reach_started _ _ _ R) as S.
  assert (B : forall c, ~ busy s c). { intros c B. destruct (no_deadlock s c I O B) as (x & OX & SX). apply SX. auto. } split; auto.
  intros i r RI. assert (RD : r_ready r = true). { specialize (N (AReady i) Logic.I). cbn [step] in N. rewrite RI in N. destruct (r_ready r); congruence. }
  specialize (N (AThread i) Logic.I). cbn [step] in N. rewrite RI in N. unfold thread_step in N. rewrite RD in N. destruct (r_thread r) eqn:T; try discriminate N; auto.
  destruct (S _ _ RI T) as (c & a & Q). destruct (B c). exists (Start i a). split; auto. discriminate.
Qed.

Theorem answered_call : forall s x s' es c, step s x = Some (s', es) -> busy s c -> ~ busy s' c -> exists e, In e es /\ ((exists i out, e = Returned c i out) \/ (exists i, e = Dispatched c i)).
Proof.
  intros s x s' es c H (q0 & Q0 & N0) NB.
  assert (SAME : nth_error (callers s') c = Some q0 -> False) by (intros X; apply NB; exists q0; auto).
  assert (PUT : forall c1 q1, callers s' = put c1 q1 (callers s) -> nth_error (callers s) c1 <> None -> c1 = c /\ q1 = Idle).
  { intros c1 q1 E NN. destruct (Nat.eq_dec c1 c) as [-> |NE]; [|exfalso; apply SAME; rewrite E, put_other; auto]. split; auto. destruct q1; auto; exfalso; apply NB; eexists; rewrite E; split; try (eapply put_same; eauto); discriminate. }
  destruct x as [c1 o|c1 fine|j|j]; cbn [step] in H.
  - destruct (nth_error (callers s) c1) as [[]|] eqn:Q; try discriminate H. injection H as <- <-. destruct (PUT c1 (begin o)) as [_ X]; auto; [congruence|]. destruct o; discriminate.
  - destruct (nth_error (callers s) c1) as [q|] eqn:Q; [|discriminate]. assert (NN : Some q <> None) by discriminate.
    assert (K : forall q1, callers s' = put c1 q1 (callers s) -> c1 = c /\ q1 = Idle) by (intros q1 E; apply PUT; auto; congruence).
    assert (NOT : forall q1, callers s' = put c1 q1 (callers s) -> q1 <> Idle -> False) by (intros q1 E D; destruct (K _ E); auto).
    assert (EV : forall i out, callers s' = put c1 Idle (callers s) -> es = [Returned c1 i out] -> exists e, In e es /\ ((exists i out, e = Returned c i out) \/ (exists i, e = Dispatched c i))).
    { intros i out E ->. destruct (K _ E) as [-> _]. eexists. split; [left; reflexivity|]. left. eauto. }
    assert (DR : forall j y b p, (s', es) = drained s c1 j y b p -> exists e, In e es /\ ((exists i out, e = Returned c i out) \/ (exists i, e = Dispatched c i))).
    { intros j y b p E. destruct p; cbn [drained] in E; injection E as -> ->; [eapply EV; reflexivity|exfalso; eapply NOT; [reflexivity|discriminate]]. }
    assert (RA : forall j y e, (s', es) = raised s c1 j y e -> exists e, In e es /\ ((exists i out, e = Returned c i out) \/ (exists i, e = Dispatched c i))).
    { intros j y e E. cbn [raised] in E; injection E as -> ->. eapply EV; reflexivity. }
    assert (INJ : forall (a b : state * list event), Some a = Some b -> b = a) by (intros a b E; injection E; auto).
    destruct q; cbn [go] in H; try discriminate H;
      try match type of H with match nth_error (recs s) ?j with _ => _ end = _ => destruct (nth_error (recs s) j) as [y|] eqn:Y; [|discriminate] end.
    + injection H as <- <-. exfalso. eapply NOT; [reflexivity|]. destruct (pending s); discriminate.
    + destruct (pending s) eqn:PE; [|destruct a]; injection H as <- <-; try (exfalso; eapply NOT; [reflexivity|discriminate]). eapply EV; reflexivity.
    + destruct (pending s) eqn:PE; injection H as <- <-; try (exfalso; eapply NOT; [reflexivity|discriminate]). eapply EV; reflexivity.
    + destruct (r_owner y); [discriminate|]. injection H as <- <-. exfalso; eapply NOT; [reflexivity|discriminate].
    + destruct (r_saved y); [apply INJ in H; eapply DR; eauto|injection H as <- <-; exfalso; eapply NOT; [reflexivity|discriminate]].
    + destruct (waits p); [destruct (r_thread y); try discriminate H|destruct (alive (r_thread y))]; try (apply INJ in H; eapply DR; eauto; fail); try (apply INJ in H; eapply RA; eauto; fail); injection H as <- <-; exfalso; eapply NOT; try reflexivity; discriminate.
    + destruct (r_done y); [destruct (r_error y); [|destruct (r_handoff_saved y) as [[]|]]|]; try (apply INJ in H; eapply DR; eauto; fail); try (apply INJ in H; eapply RA; eauto; fail); injection H as <- <-; exfalso; eapply NOT; try reflexivity; discriminate.
    + destruct (r_dataset y); [destruct fine|]; try (apply INJ in H; eapply RA; eauto; fail); injection H as <- <-; exfalso; eapply NOT; try reflexivity; discriminate.
    + apply INJ in H. eapply DR; eauto.
    + injection H as <- <-. exfalso; eapply NOT; try reflexivity; discriminate.
    + destruct a, out; injection H as <- <-; try (eapply EV; reflexivity); exfalso; eapply NOT; try reflexivity; discriminate.
    + injection H as <- <-. exfalso; eapply NOT; try reflexivity; discriminate.
    + destruct asynchronous; injection H as <- <-; [|exfalso; eapply NOT; try reflexivity; discriminate]. destruct (K Idle eq_refl) as [-> _]. eexists. split; [left; reflexivity|]. right. eauto.
    + destruct (pending s) eqn:PE; injection H as <- <-; try (exfalso; eapply NOT; [reflexivity|discriminate]). eapply EV; reflexivity.
    + injection H as <- <-. eapply EV; reflexivity.
  - destruct (nth_error (recs s) j) as [y|] eqn:Y; [|discriminate]. destruct (r_ready y); [discriminate|]. injection H as <- <-. destruct (SAME Q0).
  - destruct (nth_error (recs s) j) as [y|] eqn:Y; [|discriminate]. destruct (thread_step y) as [y'|] eqn:T; [|discriminate]. injection H as <- <-. destruct (SAME Q0).
Qed.

Lemma exec_reach : forall (ok : action -> Prop) n l s s' es, reach ok n s -> Forall ok l -> exec s l = Some (s', es) -> reach ok n s'.
Proof.
  intros ok n l. induction l as [|x l IH]; intros s s' es R F H; cbn [exec] in H; [injection H as <- <-; auto|]. inversion F as [|y m F1 F2]; subst. destruct (step s x) as [[s1 e1]|] eqn:S; [|discriminate]. destruct (exec s1 l) as [[s2 e2]|] eqn:E; [|discriminate]. injection H as <- <-. eapply IH; [|exact F2|exact E]. eapply ReachStep; eauto.
Qed.
