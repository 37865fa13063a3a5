(** Proofs about the helpers for coroutines. *)
From Coq Require Import List Bool Arith Lia.
From Verif Require Import Base Runner_Model Runner_Spec.
Import ListNotations.
Local Open Scope nat_scope.

Lemma mem_spec : forall i l, mem i l = true <-> In i l.
Proof. intros i l. unfold mem. rewrite existsb_exists. split; [intros (x & H & E); apply Nat.eqb_eq in E; now subst | intro H; exists i; split; [exact H | apply Nat.eqb_refl]]. Qed.

Lemma exec_app : forall l l' s, exec s (l ++ l') = match exec s l with Some s' => exec s' l' | None => None end.
Proof. induction l as [|e l IH]; intros l' s; cbn; [reflexivity|]. destruct (step s e); [apply IH | reflexivity]. Qed.

Lemma later_refl : forall s, later s s.
Proof. intro s. now exists []. Qed.

Lemma later_trans : forall a b c, later a b -> later b c -> later a c.
Proof. intros a b c [l H] [l' K]. exists (l ++ l'). now rewrite exec_app, H. Qed.

Lemma later_step : forall s e s' t, step s e = Some s' -> later s' t -> later s t.
Proof. intros s e s' t H [l K]. exists (e :: l). cbn. now rewrite H. Qed.

Definition creates (q : list cb) : Prop := forall x, In x q -> exists i, x = CCreate i.
Definition stops (q : list cb) : Prop := forall x, In x q -> x = CStop.

Definition good (s : runner) : Prop :=
  (forall i, In i (taken s) -> In (CCreate i) (queue s) \/ In i (pending s) \/ In i (finished s)) /\
  (closed s = false -> shut s = Idle /\ main s = NotCalled /\ creates (queue s)) /\
  (closed s = true -> shut s = Idle -> exists a b, queue s = a ++ CShut :: b /\ creates a /\ stops b) /\
  (closed s = true -> main s <> NotCalled) /\
  (shut s <> Idle -> stops (queue s)) /\
  (forall l, shut s = Gathering l -> forall i, In i (taken s) -> In i l \/ In i (finished s)) /\
  (shut s = Gathered -> forall i, In i (taken s) -> In i (finished s)) /\
  (main s = AwaitThread -> shut s = Gathered) /\
  (main s = Returned -> waits s = true -> shut s = Gathered).

Lemma good_new : good new.
Proof.
  unfold good, new; cbn. split; [intros i []|]. split; [intros _; repeat split; intros x []|]. repeat split; try discriminate; try congruence.
Qed.

Lemma good_step : forall s e s', good s -> step s e = Some s' -> good s'.
Proof.
  intros s e s' G. pose proof G as (G1 & G2 & G3 & G4 & G5 & G6 & G7 & G8 & G9). destruct e as [i | w c | | | p c | i | | | | ]; cbn [step].
  - destruct (fresh i s); [|discriminate]. unfold run_coroutine. destruct (closed s) eqn:C; intro H; injection H as <-; [exact G|]. destruct (G2 eq_refl) as (S & M & Q).
    unfold good; cbn. rewrite S, M in *. split; [|split; [|repeat split; discriminate || congruence]].
    + intros j Hj. apply in_app_iff in Hj as [Hj | [<- | []]]; [|left; apply in_app_iff; right; now left]. destruct (G1 j Hj) as [K | K]; [left; apply in_app_iff; now left | now right].
    + intros _. repeat split. intros x Hx. apply in_app_iff in Hx as [Hx | [<- | []]]; [now apply Q | now exists i].
  - intro H. injection H as <-. unfold shutdown. destruct (closed s) eqn:C; [exact G|]. destruct (G2 eq_refl) as (S & M & Q). unfold good; cbn. rewrite S in *. split; [|split; [discriminate|split; [|split; [destruct w; discriminate|]]]].
    + intros j Hj. destruct (G1 j Hj) as [K | K]; [left; apply in_app_iff; now left | now right].
    + intros _ _. exists (queue s), (if w then [] else [CStop]). split; [reflexivity|]. split; [exact Q|]. intros j X. destruct w; [destruct X | destruct X as [X | []]; congruence].
    + split; [congruence|]. split; [discriminate|]. split; [discriminate|]. split; [destruct w; discriminate|]. destruct w; [discriminate | intros _ X; discriminate].
  - destruct (running s) eqn:R; [|discriminate]. destruct (queue s) as [|[i | | ] q] eqn:Q; [discriminate| | | ]; intro H; injection H as <-; unfold good; cbn.
    + split; [|split; [|split; [|split; [exact G4|split; [|split; [exact G6|split; [exact G7|split; [exact G8|exact G9]]]]]]]].
      * intros j Hj. destruct (G1 j Hj) as [[K | K] | [K | K]]; [injection K as ->; right; left; apply in_app_iff; right; now left | now left | right; left; apply in_app_iff; now left | now right; right].
      * intro C. destruct (G2 C) as (S & M & X). repeat split; try assumption. intros x Hx. apply X. now right.
      * intros C S. destruct (G3 C S) as (a & b & E & A & B). destruct a as [|x a]; [discriminate|]; injection E as E1 E2. exists a, b. split; [exact E2|]. split; [|exact B]. intros y Hy. apply A. now right.
      * intros S x Hx. apply (G5 S x). now right.
    + assert (C : closed s = true) by (destruct (closed s) eqn:C; [reflexivity|]; destruct (G2 eq_refl) as (_ & _ & X); destruct (X CShut (or_introl eq_refl)) as [i X']; discriminate).
      assert (S : shut s = Idle) by (destruct (shut s); [reflexivity | | | ]; discriminate (G5 ltac:(discriminate) CShut (or_introl eq_refl))).
      destruct (G3 C S) as (a & b & E & A & B). destruct a as [|x a]; [injection E as E2 | injection E as E1 E2; destruct (A x (or_introl eq_refl)) as [i X]; congruence]. subst b.
      split; [|split; [congruence|split; [discriminate|split; [exact G4|split; [intros _; exact B|split; [discriminate|split; [discriminate|]]]]]]].
      * intros j Hj. destruct (G1 j Hj) as [[K | K] | K]; [discriminate | now left | now right].
      * split; [intro X; specialize (G8 X); congruence | intros X Y; specialize (G9 X Y); congruence].
    + split; [|split; [|split; [|split; [exact G4|split; [|split; [exact G6|split; [exact G7|split; [exact G8|exact G9]]]]]]]].
      * intros j Hj. destruct (G1 j Hj) as [[K | K] | K]; [discriminate | now left | now right].
      * intro C. destruct (G2 C) as (S & M & X). repeat split; try assumption. intros x Hx. apply X. now right.
      * intros C S. destruct (G3 C S) as (a & b & E & A & B). destruct a as [|x a]; [discriminate|]; injection E as E1 E2. exists a, b. split; [exact E2|]. split; [|exact B]. intros y Hy. apply A. now right.
      * intros S x Hx. apply (G5 S x). now right.
  - destruct (running s) eqn:R; [|discriminate]. destruct (shut s) eqn:S; try discriminate. intro H. injection H as <-. unfold good; cbn.
    assert (C : closed s = true) by (destruct (closed s); [reflexivity | destruct (G2 eq_refl); discriminate]).
    split; [exact G1|]. split; [congruence|]. split; [discriminate|]. split; [exact G4|]. split; [intros _; apply G5; discriminate|]. split; [|split; [discriminate|]].
    + intros l E i Hi. injection E as <-. destruct (G1 i Hi) as [K | K]; [discriminate (G5 ltac:(discriminate) _ K) | exact K].
    + split; [intro X; specialize (G8 X); discriminate | intros X Y; specialize (G9 X Y); discriminate].
  - destruct (running s && mem p (pending s) && fresh c s); [|discriminate]. intro H. injection H as <-. unfold good; cbn. split; [|split; [exact G2|split; [exact G3|split; [exact G4|split; [exact G5|split; [exact G6|split; [exact G7|split; [exact G8|exact G9]]]]]]]].
    intros j Hj. destruct (G1 j Hj) as [K | [K | K]]; [now left | right; left; apply in_app_iff; now left | now right; right].
  - destruct (running s && mem i (pending s)); [|discriminate]. intro H. injection H as <-. unfold good; cbn. split; [|split; [exact G2|split; [exact G3|split; [exact G4|split; [exact G5|split; [|split; [|split; [exact G8|exact G9]]]]]]]].
    + intros j Hj. destruct (G1 j Hj) as [K | [K | K]]; [now left | | now right; right; right]. destruct (Nat.eq_dec i j) as [-> | N]; [right; right; now left|]. right. left. apply filter_In. split; [exact K|]. now apply negb_true_iff, Nat.eqb_neq.
    + intros l E j Hj. destruct (G6 l E j Hj) as [K | K]; [now left | now right; right].
    + intros E j Hj. right. now apply G7.
  - destruct (running s) eqn:R; [|discriminate]. destruct (shut s) eqn:S; try discriminate. destruct (forallb _ l) eqn:F; [|discriminate]. intro H. injection H as <-. unfold good; cbn.
    assert (C : closed s = true) by (destruct (closed s); [reflexivity | destruct (G2 eq_refl); discriminate]).
    split; [exact G1|]. split; [congruence|]. split; [discriminate|]. split; [exact G4|]. split; [intros _; apply G5; discriminate|]. split; [discriminate|]. split; [|split; reflexivity].
    intros _ i Hi. destruct (G6 l eq_refl i Hi) as [K | K]; [|exact K]. rewrite forallb_forall in F. apply mem_spec, F, K.
  - destruct (main s) eqn:M; try discriminate. destruct (shut s) eqn:S; try discriminate. intro H. injection H as <-. unfold good; cbn.
    assert (C : closed s = true) by (destruct (closed s); [reflexivity | destruct (G2 eq_refl); discriminate]).
    split; [|split; [congruence|split; [discriminate|split; [discriminate|split; [|split; [discriminate|split; [exact G7|split; reflexivity]]]]]]].
    + intros i Hi. right. right. now apply G7.
    + intros _ x Hx. apply in_app_iff in Hx as [Hx | [<- | []]]; [|reflexivity]. now apply (G5 ltac:(discriminate)).
  - destruct (running s && stopping s); [|discriminate]. intro H. injection H as <-. exact G.
  - destruct (main s) eqn:M; try discriminate. destruct (running s); [discriminate|]. intro H. injection H as <-. unfold good; cbn.
    assert (C : closed s = true) by (destruct (closed s); [reflexivity | destruct (G2 eq_refl) as (_ & X & _); discriminate]).
    split; [exact G1|]. split; [congruence|]. split; [exact G3|]. split; [discriminate|]. split; [exact G5|]. split; [exact G6|]. split; [exact G7|]. split; [discriminate | intros _ _; now apply G8].
Qed.

Lemma good_exec : forall l s s', good s -> exec s l = Some s' -> good s'.
Proof. induction l as [|e l IH]; intros s s' G; cbn; [intro H; now injection H as <-|]. destruct (step s e) as [t|] eqn:E; [|discriminate]. apply IH. exact (good_step s e t G E). Qed.

Lemma reached_good : forall s, reached s -> good s.
Proof. intros s [l H]. exact (good_exec l new s good_new H). Qed.

Theorem shutdown_waits : forall s, reached s -> waits s = true -> main s = Returned -> forall i, In i (taken s) -> In i (finished s).
Proof. intros s R W M i Hi. destruct (reached_good s R) as (_ & _ & _ & _ & _ & _ & G7 & _ & G9). apply G7; [now apply G9 | exact Hi]. Qed.

(** ** Nothing happens on a loop that has ended *)

Lemma ended_step : forall s e s', running s = false -> step s e = Some s' -> running s' = false /\ pending s' = pending s /\ finished s' = finished s /\ asked s' = asked s.
Proof.
  intros s e s' R. destruct e as [i | w c | | | p c | i | | | | ]; cbn [step]; rewrite ?R; cbn; try discriminate.
  - destruct (fresh i s); [|discriminate]. unfold run_coroutine. destruct (closed s); intro H; injection H as <-; repeat split; assumption.
  - intro H. injection H as <-. unfold shutdown. destruct (closed s); repeat split; assumption.
  - destruct (main s); try discriminate. destruct (shut s); try discriminate. intro H. injection H as <-. repeat split; assumption.
  - destruct (main s); try discriminate. intro H. injection H as <-. repeat split.
Qed.

Lemma ended_exec : forall l s s', running s = false -> exec s l = Some s' -> pending s' = pending s /\ finished s' = finished s /\ asked s' = asked s.
Proof.
  induction l as [|e l IH]; intros s s' R; cbn; [intro H; injection H as <-; repeat split|]. destruct (step s e) as [t|] eqn:E; [|discriminate]. intro H. destruct (ended_step s e t R E) as (A & B & C & D).
  destruct (IH t s' A H) as (B' & C' & D'). now rewrite B', C', D'.
Qed.

(** ** Who is asked to cancel *)

Definition asked_ok (s : runner) : Prop := match shut s with Gathering l => asked s = if cancels s then l else [] | Gathered => True | _ => asked s = [] end.

Lemma asked_step : forall s e s', good s -> asked_ok s -> step s e = Some s' -> asked_ok s'.
Proof.
  intros s e s' G A. pose proof G as (G1 & G2 & G3 & G4 & G5 & _). unfold asked_ok in *. destruct e as [i | w c | | | p c | i | | | | ]; cbn [step].
  - destruct (fresh i s); [|discriminate]. unfold run_coroutine. destruct (closed s); intro H; injection H as <-; exact A.
  - intro H. injection H as <-. unfold shutdown. destruct (closed s) eqn:C; [exact A|]. destruct (G2 eq_refl) as (S & _). cbn. rewrite S in *. exact A.
  - destruct (running s); [|discriminate]. destruct (queue s) as [|[i | | ] q] eqn:Q; [discriminate| | | ]; intro H; injection H as <-; cbn; try exact A.
    destruct (shut s); try exact A; discriminate (G5 ltac:(discriminate) CShut (or_introl eq_refl)).
  - destruct (running s); [|discriminate]. destruct (shut s); try discriminate. intro H. injection H as <-. reflexivity.
  - destruct (running s && mem p (pending s) && fresh c s); [|discriminate]. intro H. injection H as <-. exact A.
  - destruct (running s && mem i (pending s)); [|discriminate]. intro H. injection H as <-. exact A.
  - destruct (running s); [|discriminate]. destruct (shut s); try discriminate. destruct (forallb _ l); [|discriminate]. intro H. injection H as <-. exact I.
  - destruct (main s); try discriminate. destruct (shut s) eqn:S; try discriminate. intro H. injection H as <-. cbn. exact I.
  - destruct (running s && stopping s); [|discriminate]. intro H. injection H as <-. exact A.
  - destruct (main s); try discriminate. destruct (running s); [discriminate|]. intro H. injection H as <-. exact A.
Qed.

Theorem asked_is : forall s, reached s -> match shut s with Gathering l => asked s = if cancels s then l else [] | Gathered => True | _ => asked s = [] end.
Proof.
  intros s [l H]. change (asked_ok s). assert (X : forall l a b, good a -> asked_ok a -> exec a l = Some b -> asked_ok b).
  { clear. induction l as [|e l IH]; intros a b G A; cbn; [intro H; now injection H as <-|]. destruct (step a e) as [t|] eqn:E; [|discriminate]. apply IH; [exact (good_step a e t G E) | exact (asked_step a e t G A E)]. }
  exact (X l new s good_new eq_refl H).
Qed.

(** ** The shutdown can always come to its end *)

Definition live (s : runner) : Prop :=
  (main s = AwaitTask -> running s = true /\ stopping s = false /\ ~ In CStop (queue s)) /\
  (main s = AwaitThread -> running s = false \/ stopping s = true \/ In CStop (queue s)) /\
  (running s = false -> stopping s = true) /\
  (closed s = false -> running s = true /\ stopping s = false /\ ~ In CStop (queue s)).

Lemma live_step : forall s e s', good s -> live s -> step s e = Some s' -> live s'.
Proof.
  intros s e s' G L. pose proof G as (G1 & G2 & G3 & G4 & G5 & _). pose proof L as (L1 & L2 & L3 & L4). destruct e as [i | w c | | | p c | i | | | | ]; cbn [step].
  - destruct (fresh i s); [|discriminate]. unfold run_coroutine. destruct (closed s) eqn:C; intro H; injection H as <-; [exact L|]. destruct (L4 eq_refl) as (R & T & N). destruct (G2 eq_refl) as (_ & M & _). unfold live; cbn. rewrite M.
    split; [discriminate|]. split; [discriminate|]. split; [exact L3|]. intros _. split; [exact R|]. split; [exact T|]. rewrite in_app_iff. intros [X | [X | []]]; [now apply N | discriminate].
  - intro H. injection H as <-. unfold shutdown. destruct (closed s) eqn:C; [exact L|]. destruct (L4 eq_refl) as (R & T & N). unfold live; cbn. split; [|split; [destruct w; discriminate|split; [exact L3|discriminate]]].
    destruct w; [|discriminate]. intros _. split; [exact R|]. split; [exact T|]. rewrite in_app_iff. intros [X | [X | []]]; [now apply N | discriminate].
  - destruct (running s) eqn:R; [|discriminate]. destruct (queue s) as [|[i | | ] q] eqn:Q; [discriminate| | | ]; intro H; injection H as <-; unfold live; cbn.
    + split; [intro M; destruct (L1 M) as (_ & T & N); split; [reflexivity|]; split; [exact T|]; intro X; apply N; now right|]. split; [intro M; destruct (L2 M) as [X | [X | [X | X]]]; [discriminate | now right; left | discriminate | now right; right]|].
      split; [discriminate|]. intro C. destruct (L4 C) as (_ & T & N). split; [reflexivity|]. split; [exact T|]. intro X. apply N. now right.
    + split; [intro M; destruct (L1 M) as (_ & T & N); split; [reflexivity|]; split; [exact T|]; intro X; apply N; now right|]. split; [intro M; destruct (L2 M) as [X | [X | [X | X]]]; [discriminate | now right; left | discriminate | now right; right]|].
      split; [discriminate|]. intro C. destruct (L4 C) as (_ & T & N). split; [reflexivity|]. split; [exact T|]. intro X. apply N. now right.
    + split; [intro M; destruct (L1 M) as (_ & T & N); exfalso; apply N; now left|]. split; [intros _; right; now left|]. split; [discriminate|]. intro C. destruct (L4 C) as (_ & T & N). exfalso. apply N. now left.
  - destruct (running s) eqn:R; [|discriminate]. destruct (shut s); try discriminate. intro H. injection H as <-. unfold live in *; cbn; rewrite R in L; exact L.
  - destruct (running s && mem p (pending s) && fresh c s); [|discriminate]. intro H. injection H as <-. exact L.
  - destruct (running s && mem i (pending s)); [|discriminate]. intro H. injection H as <-. exact L.
  - destruct (running s) eqn:R; [|discriminate]. destruct (shut s); try discriminate. destruct (forallb _ l); [|discriminate]. intro H. injection H as <-. unfold live in *; cbn; rewrite R in L; exact L.
  - destruct (main s) eqn:M; try discriminate. destruct (shut s) eqn:S; try discriminate. intro H. injection H as <-. unfold live; cbn. split; [discriminate|]. split; [intros _; right; right; apply in_app_iff; right; now left|]. split; [exact L3|].
    intro C. destruct (G2 C). congruence.
  - destruct (running s && stopping s) eqn:E; [|discriminate]. apply andb_true_iff in E as [R T]. intro H. injection H as <-. unfold live; cbn. split; [intro M; destruct (L1 M) as (_ & X & _); congruence|]. split; [intros _; now left|]. split; [intros _; exact T|].
    intro C. destruct (L4 C) as (_ & X & _). congruence.
  - destruct (main s) eqn:M; try discriminate. destruct (running s) eqn:R; [discriminate|]. intro H. injection H as <-. unfold live; cbn. split; [discriminate|]. split; [discriminate|]. split; [exact L3|]. intro C. destruct (G2 C) as (_ & X & _). congruence.
Qed.

Lemma reached_live : forall s, reached s -> live s.
Proof.
  intros s [l H]. assert (X : forall l a b, good a -> live a -> exec a l = Some b -> live b).
  { clear. induction l as [|e l IH]; intros a b G A; cbn; [intro H; now injection H as <-|]. destruct (step a e) as [t|] eqn:E; [|discriminate]. apply IH; [exact (good_step a e t G E) | exact (live_step a e t G A E)]. }
  apply (X l new s good_new); [|exact H]. unfold live, new; cbn. repeat split; try discriminate. intros [].
Qed.

Lemma reached_step : forall s e t, reached s -> step s e = Some t -> reached t.
Proof. intros s e t [l H] E. exists (l ++ [e]). rewrite exec_app, H. cbn. now rewrite E. Qed.

(** The thread ends and the call returns *)
Lemma thread_ends : forall n s, List.length (queue s) <= n -> reached s -> main s = AwaitThread -> exists t, later s t /\ main t = Returned.
Proof.
  assert (fin : forall s, running s = false -> main s = AwaitThread -> exists t, later s t /\ main t = Returned).
  { intros s R M. eexists. split; [eapply (later_step s EReturn); [cbn [step]; rewrite M, R; reflexivity | apply later_refl] | reflexivity]. }
  assert (stp : forall s, running s = true -> stopping s = true -> main s = AwaitThread -> exists t, later s t /\ main t = Returned).
  { intros s R T M. edestruct (fin (mkRunner (queue s) (pending s) (finished s) (taken s) (asked s) (closed s) (waits s) (cancels s) (shut s) (main s) (stopping s) false)) as (t & A & B); [reflexivity | exact M|].
    exists t. split; [|exact B]. refine (later_step s EExit _ t _ A). cbn [step]. now rewrite R, T. }
  induction n as [|n IH]; intros s Ln Re M; destruct (running s) eqn:R; try (now apply fin); destruct (stopping s) eqn:T; try (now apply stp);
    destruct (reached_live s Re) as (_ & L2 & _); destruct (L2 M) as [X | [X | X]]; try congruence.
  - destruct (queue s); [destruct X | cbn in Ln; lia].
  - destruct (queue s) as [|x q] eqn:Q; [destruct X|]. destruct (step s ECallback) as [t|] eqn:E; [|cbn [step] in E; rewrite R, Q in E; destruct x; discriminate].
    destruct (IH t) as (u & A & B).
    + cbn [step] in E. rewrite R, Q in E. cbn in Ln. destruct x; injection E as <-; cbn; lia.
    + exact (reached_step s ECallback t Re E).
    + cbn [step] in E. rewrite R, Q in E. destruct x; injection E as <-; exact M.
    + exists u. split; [exact (later_step s ECallback t u E A) | exact B].
Qed.

Definition gath (s : runner) : Prop := forall l, shut s = Gathering l -> forall i, In i l -> In i (pending s) \/ In i (finished s).

Lemma gath_step : forall s e s', gath s -> step s e = Some s' -> gath s'.
Proof.
  intros s e s' G. unfold gath in *. destruct e as [i | w c | | | p c | i | | | | ]; cbn [step].
  - destruct (fresh i s); [|discriminate]. unfold run_coroutine. destruct (closed s); intro H; injection H as <-; exact G.
  - intro H. injection H as <-. unfold shutdown. destruct (closed s); exact G.
  - destruct (running s); [|discriminate]. destruct (queue s) as [|[i | | ] q] eqn:Q; [discriminate| | | ]; intro H; injection H as <-; cbn; [|discriminate | exact G].
    intros l E j Hj. destruct (G l E j Hj) as [K | K]; [left; apply in_app_iff; now left | now right].
  - destruct (running s); [|discriminate]. destruct (shut s); try discriminate. intro H. injection H as <-. cbn. intros l E j Hj. injection E as <-. now left.
  - destruct (running s && mem p (pending s) && fresh c s); [|discriminate]. intro H. injection H as <-. cbn. intros l E j Hj. destruct (G l E j Hj) as [K | K]; [left; apply in_app_iff; now left | now right].
  - destruct (running s && mem i (pending s)); [|discriminate]. intro H. injection H as <-. cbn. intros l E j Hj. destruct (G l E j Hj) as [K | K]; [|now right; right]. destruct (Nat.eq_dec i j) as [-> | N]; [right; now left|].
    left. apply filter_In. split; [exact K|]. now apply negb_true_iff, Nat.eqb_neq.
  - destruct (running s); [|discriminate]. destruct (shut s); try discriminate. destruct (forallb _ l); [|discriminate]. intro H. injection H as <-. discriminate.
  - destruct (main s); try discriminate. destruct (shut s) eqn:S; try discriminate. intro H. injection H as <-. discriminate.
  - destruct (running s && stopping s); [|discriminate]. intro H. injection H as <-. exact G.
  - destruct (main s); try discriminate. destruct (running s); [discriminate|]. intro H. injection H as <-. exact G.
Qed.

Lemma reached_gath : forall s, reached s -> gath s.
Proof.
  intros s [l H]. assert (X : forall l a b, gath a -> exec a l = Some b -> gath b).
  { clear. induction l as [|e l IH]; intros a b A; cbn; [intro H; now injection H as <-|]. destruct (step a e) as [t|] eqn:E; [|discriminate]. apply IH. exact (gath_step a e t A E). }
  apply (X l new s); [|exact H]. intros l' E. discriminate.
Qed.

Definition returns (s : runner) : Prop := exists t, later s t /\ main t = Returned.

Lemma returns_step : forall s e t, step s e = Some t -> returns t -> returns s.
Proof. intros s e t H (u & A & B). exists u. split; [exact (later_step s e t u H A) | exact B]. Qed.

Lemma from_gathered : forall s, reached s -> main s = AwaitTask -> shut s = Gathered -> returns s.
Proof.
  intros s Re M S. destruct (step s EStop) as [t|] eqn:E; [|cbn [step] in E; rewrite M, S in E; discriminate]. apply (returns_step s EStop t E). apply (thread_ends (List.length (queue t)) t (le_n _)).
  - exact (reached_step s EStop t Re E).
  - cbn [step] in E. rewrite M, S in E. now injection E as <-.
Qed.

Lemma filter_shrinks : forall i (l : list nat), List.length (filter (fun j => negb (Nat.eqb i j)) l) <= List.length l.
Proof. intros i l. induction l as [|x l IH]; cbn; [lia|]. destruct (negb (Nat.eqb i x)); cbn; lia. Qed.

Lemma from_gathering : forall n s l, List.length (pending s) <= n -> reached s -> main s = AwaitTask -> shut s = Gathering l -> returns s.
Proof.
  induction n as [|n IH]; intros s l Ln Re M S; destruct (reached_live s Re) as (L1 & _); destruct (L1 M) as (R & _); destruct (pending s) as [|i q] eqn:P.
  1, 3: destruct (step s EGathered) as [t|] eqn:E; [apply (returns_step s EGathered t E), from_gathered; [exact (reached_step s EGathered t Re E) | | ]; cbn [step] in E; rewrite R, S in E; destruct (forallb _ l); try discriminate; injection E as <-; [exact M | reflexivity] |];
      cbn [step] in E; rewrite R, S in E; destruct (forallb _ l) eqn:F; [discriminate|]; rewrite <- not_true_iff_false, forallb_forall in F; exfalso; apply F; intros i Hi; apply mem_spec; destruct (reached_gath s Re l S i Hi) as [K | K]; [rewrite P in K; destruct K | exact K].
  - cbn in Ln. lia.
  - assert (E : step s (EFinish i) = Some (mkRunner (queue s) (filter (fun j => negb (Nat.eqb i j)) (pending s)) (i :: finished s) (taken s) (asked s) (closed s) (waits s) (cancels s) (shut s) (main s) (stopping s) (running s))).
    { cbn [step]. rewrite R, P. unfold mem. cbn [existsb]. now rewrite Nat.eqb_refl. }
    eapply (returns_step s (EFinish i)); [exact E|]. apply (IH _ l); [|exact (reached_step _ _ _ Re E) | exact M | exact S]. cbn [pending]. rewrite P. cbn [filter]. rewrite Nat.eqb_refl. cbn [negb]. pose proof (filter_shrinks i q). cbn in Ln. lia.
Qed.

Lemma from_made : forall s, reached s -> main s = AwaitTask -> shut s = Made -> returns s.
Proof.
  intros s Re M S. destruct (reached_live s Re) as (L1 & _). destruct (L1 M) as (R & _). destruct (step s ECapture) as [t|] eqn:E; [|cbn [step] in E; rewrite R, S in E; discriminate]. apply (returns_step s ECapture t E).
  apply (from_gathering (List.length (pending t)) t (pending t) (le_n _)); [exact (reached_step s ECapture t Re E) | | ]; cbn [step] in E; rewrite R, S in E; injection E as <-; [exact M | reflexivity].
Qed.

Lemma from_idle : forall n s, List.length (queue s) <= n -> reached s -> main s = AwaitTask -> closed s = true -> shut s = Idle -> returns s.
Proof.
  induction n as [|n IH]; intros s Ln Re M C S; destruct (reached_live s Re) as (L1 & _); destruct (L1 M) as (R & _ & N); destruct (reached_good s Re) as (_ & _ & G3 & _); destruct (G3 C S) as (a & b & Q & _ & _).
  - rewrite Q, app_length in Ln. cbn in Ln. lia.
  - destruct (queue s) as [|x q] eqn:Q'; [destruct a; discriminate|]. destruct (step s ECallback) as [t|] eqn:E; [|cbn [step] in E; rewrite R, Q' in E; destruct x; discriminate]. apply (returns_step s ECallback t E). pose proof (reached_step s ECallback t Re E) as Rt.
    cbn [step] in E. rewrite R, Q' in E. cbn in Ln. destruct x as [i | | ]; injection E as <-.
    + apply IH; cbn; [lia | exact Rt | exact M | exact C | exact S].
    + apply from_made; [exact Rt | exact M | reflexivity].
    + exfalso. apply N. now left.
Qed.

Theorem can_return : forall s, reached s -> closed s = true -> exists t, later s t /\ main t = Returned.
Proof.
  intros s Re C. destruct (main s) eqn:M.
  - destruct (reached_good s Re) as (_ & _ & _ & G4 & _). now destruct (G4 C).
  - destruct (shut s) eqn:S; [now apply (from_idle (List.length (queue s)) s (le_n _)) | now apply from_made | now apply (from_gathering (List.length (pending s)) s l (le_n _)) | now apply from_gathered].
  - now apply (thread_ends (List.length (queue s)) s (le_n _)).
  - exists s. split; [apply later_refl | exact M].
Qed.

(** ** Closed for ever *)

Lemma closed_step : forall s e t, closed s = true -> step s e = Some t -> closed t = true /\ waits t = waits s /\ cancels t = cancels s /\ taken t = taken s.
Proof.
  intros s e t C. destruct e as [i | w c | | | p c | i | | | | ]; cbn [step].
  - destruct (fresh i s); [|discriminate]. unfold run_coroutine. rewrite C. intro H. injection H as <-. repeat split; assumption.
  - intro H. injection H as <-. unfold shutdown. rewrite C. repeat split; assumption.
  - destruct (running s); [|discriminate]. destruct (queue s) as [|[i | | ] q]; [discriminate| | | ]; intro H; injection H as <-; repeat split; assumption.
  - destruct (running s); [|discriminate]. destruct (shut s); try discriminate. intro H. injection H as <-. repeat split; assumption.
  - destruct (running s && mem p (pending s) && fresh c s); [|discriminate]. intro H. injection H as <-. repeat split; assumption.
  - destruct (running s && mem i (pending s)); [|discriminate]. intro H. injection H as <-. repeat split; assumption.
  - destruct (running s); [|discriminate]. destruct (shut s); try discriminate. destruct (forallb _ l); [|discriminate]. intro H. injection H as <-. repeat split; assumption.
  - destruct (main s); try discriminate. destruct (shut s) eqn:S; try discriminate. intro H. injection H as <-. repeat split; assumption.
  - destruct (running s && stopping s); [|discriminate]. intro H. injection H as <-. repeat split; assumption.
  - destruct (main s); try discriminate. destruct (running s); [discriminate|]. intro H. injection H as <-. repeat split; assumption.
Qed.

Theorem closed_later : forall s t, closed s = true -> later s t -> closed t = true /\ waits t = waits s /\ cancels t = cancels s /\ taken t = taken s.
Proof.
  intros s t C [l H]. revert s C H. induction l as [|e l IH]; intros s C; cbn; [intro H; injection H as <-; repeat split; assumption|]. destruct (step s e) as [u|] eqn:E; [|discriminate]. intro H.
  destruct (closed_step s e u C E) as (C' & A & B & D). destruct (IH u C' H) as (C2 & A2 & B2 & D2). now rewrite A2, B2, D2.
Qed.

(** ** run_sync *)

Lemma body_result : forall n c me h, n <> Neither -> snd (fst (body n c me h)) = outcome_of c.
Proof.
  intros n c. induction c as [r | k IH | a IHa k IHk]; intros me h N; cbn [body outcome_of]; [reflexivity | | ].
  - specialize (IH me h N). destruct (body n k me h) as [[l r] h']. exact IH.
  - destruct n; [| | congruence]; specialize (IHa (S me) (Some (S me)) N); destruct (body _ a (S me) (Some (S me))) as [[l r] h']; cbn in IHa; rewrite <- IHa; destruct r as [v | e]; try reflexivity.
    + specialize (IHk me h N). destruct (body _ k me h) as [[l' r] h2]. exact IHk.
    + specialize (IHk me None N). destruct (body _ k me None) as [[l' r] h2]. exact IHk.
Qed.

Lemma body_uvloop : forall c me, Forall (fun b => b = true) (fst (fst (body Uvloop c me (Some me)))).
Proof.
  induction c as [r | k IH | a IHa k IHk]; intro me; cbn [body]; [constructor | | ].
  - specialize (IH me). destruct (body Uvloop k me (Some me)) as [[l r] h]. cbn in *. constructor; [apply Nat.eqb_refl | exact IH].
  - specialize (IHa (S me)). specialize (IHk me). destruct (body Uvloop a (S me) (Some (S me))) as [[l [v | e]] h]; [|exact IHa]. destruct (body Uvloop k me (Some me)) as [[l' r] h']. cbn in *. apply Forall_app. now split.
Qed.

Lemma body_flat : forall n c me, flat c -> Forall (fun b => b = true) (fst (fst (body n c me (Some me)))).
Proof.
  intros n c me. induction c as [r | k IH | a IHa k IHk]; cbn [body flat]; [constructor | | intros []].
  intro F. specialize (IH F). destruct (body n k me (Some me)) as [[l r] h]. cbn in *. constructor; [apply Nat.eqb_refl | exact IH].
Qed.
