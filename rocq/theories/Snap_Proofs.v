(** Proofs about the snapshots. *)
From Coq Require Import List Bool Arith Sorting.Sorted Lia.
From Verif Require Import Base Snap_Model Snap_Spec.
Import ListNotations.
Local Open Scope nat_scope.

Section Queue.
Context {S : Type}.
Implicit Types s t : snap S.

Definition good s : Prop := put s = map fst (handled s) ++ one (working s) ++ one (waiting s) /\ unfinished s = List.length (one (working s)) + List.length (one (waiting s)) /\ (working s <> None -> thread s = true).

Lemma good_step : forall s e t, good s -> step s e = Some t -> good t.
Proof.
  intros s e t (A & B & C). unfold good. destruct e as [i | | o | | r h]; cbn [step].
  - intro H. injection H as <-. unfold save. destruct (waiting s) as [w|] eqn:W; [rewrite W; now repeat split|]. cbn. rewrite A, B. cbn. rewrite app_nil_r, <- app_assoc. repeat split; [|exact C]. lia.
  - destruct (thread s) eqn:T; [|discriminate]. destruct (working s) as [k|] eqn:K; [discriminate|]. destruct (waiting s) as [w|] eqn:W; [|discriminate]. intro H. injection H as <-. cbn in *. now repeat split.
  - destruct (working s) as [k|] eqn:K; [|discriminate]. intro H. injection H as <-. cbn in *. rewrite map_app, <- app_assoc. cbn. repeat split; [exact A | lia | congruence].
  - destruct (loading s); [discriminate|]. destruct (latest s); [|discriminate]. intro H. injection H as <-. cbn. now repeat split.
  - destruct (loading s); [|discriminate]. intro H. injection H as <-. cbn. now repeat split.
Qed.

Lemma good_exec : forall l s t, good s -> exec s l = Some t -> good t.
Proof. induction l as [|e l IH]; intros s t G; cbn; [intro H; now injection H as <-|]. destruct (step s e) as [u|] eqn:E; [|discriminate]. apply IH. exact (good_step s e u G E). Qed.

Lemma good_start : good (@start S).
Proof. repeat split. Qed.

Lemma newest_snoc : forall (l : list (S * nat * ends)) o i k, newest l o -> newest (l ++ [(i, k)]) (match k with Ready => Some i | _ => o end).
Proof.
  intros l o i k N. assert (X : k <> Ready -> newest (l ++ [(i, k)]) o).
  { intro K. destruct o as [x|]; cbn in *.
    - destruct N as (a & b & -> & N). exists a, (b ++ [(i, k)]). split; [now rewrite <- app_assoc|]. intros j H. apply in_app_iff in H as [H | [H | []]]; [exact (N j H) | congruence].
    - intros j H. apply in_app_iff in H as [H | [H | []]]; [exact (N j H) | congruence]. }
  destruct k; [|apply X; discriminate | apply X; discriminate]. cbn. exists l, []. split; [reflexivity | intros j []].
Qed.

Lemma newest_step : forall s e t, (forall h, e <> ELoaded true h) -> newest (handled s) (latest s) -> step s e = Some t -> newest (handled t) (latest t).
Proof.
  intros s e t R N. destruct e as [i | | o | | r h]; cbn [step].
  - intro H. injection H as <-. unfold save. destruct (waiting s); exact N.
  - destruct (thread s); [|discriminate]. destruct (working s); [discriminate|]. destruct (waiting s); [|discriminate]. intro H. injection H as <-. exact N.
  - destruct (working s) as [k|]; [|discriminate]. intro H. injection H as <-. cbn [handled latest]. now apply newest_snoc.
  - destruct (loading s); [discriminate|]. destruct (latest s) eqn:L; [|discriminate]. intro H. injection H as <-. cbn [handled latest]. exact N.
  - destruct (loading s); [|discriminate]. intro H. injection H as <-. cbn [handled latest]. destruct r; [now destruct (R h) | exact N].
Qed.

Lemma newest_exec : forall l s t, no_resets l -> newest (handled s) (latest s) -> exec s l = Some t -> newest (handled t) (latest t).
Proof.
  induction l as [|e l IH]; intros s t R N; cbn; [intro H; now injection H as <-|]. destruct (step s e) as [u|] eqn:E; [|discriminate]. apply IH; [intros h K; apply (R h); now right|].
  apply (newest_step s e u); [|exact N | exact E]. intros h ->. apply (R h). now left.
Qed.

Lemma handled_step : forall s e t, step s e = Some t -> (exists m, handled t = handled s ++ m) /\ exists p, put t = put s ++ p.
Proof.
  intros s e t. destruct e as [i | | o | | r h]; cbn [step].
  - intro H. injection H as <-. unfold save. destruct (waiting s); cbn; split; try (exists []; now rewrite app_nil_r). now exists [i].
  - destruct (thread s); [|discriminate]. destruct (working s); [discriminate|]. destruct (waiting s); [|discriminate]. intro H. injection H as <-. cbn. split; exists []; now rewrite app_nil_r.
  - destruct (working s) as [k|]; [|discriminate]. intro H. injection H as <-. cbn. split; [now exists [(k, o)] | exists []; now rewrite app_nil_r].
  - destruct (loading s); [discriminate|]. destruct (latest s); [|discriminate]. intro H. injection H as <-. cbn. split; exists []; now rewrite app_nil_r.
  - destruct (loading s); [|discriminate]. intro H. injection H as <-. cbn. split; exists []; now rewrite app_nil_r.
Qed.

Lemma handled_exec : forall l s t, exec s l = Some t -> exists m, handled t = handled s ++ m.
Proof.
  induction l as [|e l IH]; intros s t; cbn; [intro H; injection H as <-; exists []; now rewrite app_nil_r|]. destruct (step s e) as [u|] eqn:E; [|discriminate]. intro H. destruct (IH u t H) as [m ->]. destruct (handled_step s e u E) as [[m' ->] _]. exists (m' ++ m). now rewrite app_assoc.
Qed.

Lemma ss_app : forall (a b : list nat), StronglySorted lt (a ++ b) -> StronglySorted lt a /\ forall x y, In x a -> In y b -> x < y.
Proof.
  induction a as [|z a IH]; intros b H; [split; [constructor | intros x y []]|]. cbn in H. inversion H as [|? ? H1 H2]; subst. destruct (IH b H1) as [A B]. rewrite Forall_forall in H2. split.
  - constructor; [exact A|]. apply Forall_forall. intros x Hx. apply H2, in_app_iff. now left.
  - intros x y [-> | Hx] Hy; [apply H2, in_app_iff; now right | now apply B].
Qed.

Lemma increasing : forall s t m x y, good t -> StronglySorted lt (map snd (put t)) -> handled t = handled s ++ m -> newest (handled s) (Some x) -> newest (handled t) (Some y) -> snd x <= snd y.
Proof.
  intros s t m x y (G & _) So E (a & b & Ea & Na) (c & d & Ec & Nc). rewrite G, map_app in So. apply ss_app in So as [So _]. rewrite map_map in So.
  assert (In (x, Ready) (c ++ [(y, Ready)])) as K.
  { assert (X : In (x, Ready) (handled t)) by (rewrite E, Ea; apply in_app_iff; left; apply in_app_iff; right; now left). rewrite Ec in X. apply in_app_iff in X as [X | [X | X]]; [apply in_app_iff; now left | apply in_app_iff; right; now left | now destruct (Nc x)]. }
  apply in_app_iff in K as [K | [K | []]]; [|injection K as ->; lia]. rewrite Ec, map_app in So. apply ss_app in So as [_ So]. apply Nat.lt_le_incl. apply (So (snd x) (snd y)); [change (snd x) with ((fun p : S * nat * ends => snd (fst p)) (x, Ready)); now apply in_map | now left].
Qed.

Lemma can_join : forall s, good s -> thread s = true -> exists l t, exec s l = Some t /\ joined t = true /\ put t = put s.
Proof.
  intros [la wa wo th un lo pu ha] (A & B & C) T. cbn in *. subst th un. destruct wo as [k|]; destruct wa as [w|].
  - exists [EEnd Ready; ETake; EEnd Ready]. eexists. split; [reflexivity|]. now split.
  - exists [EEnd Ready]. eexists. split; [reflexivity|]. now split.
  - exists [ETake; EEnd Ready]. eexists. split; [reflexivity|]. now split.
  - exists []. eexists. split; [reflexivity|]. now split.
Qed.

Lemma dead_exec : forall l s t, thread s = false -> working s = None -> waiting s <> None -> unfinished s <> 0 -> exec s l = Some t -> joined t = false /\ put t = put s /\ handled t = handled s.
Proof.
  induction l as [|e l IH]; intros s t T K W U; cbn [exec]; [intro H; injection H as <-; split; [unfold joined; now apply Nat.eqb_neq | now split]|]. destruct (step s e) as [u|] eqn:E; [|discriminate]. intro H.
  assert (X : thread u = false /\ working u = None /\ waiting u <> None /\ unfinished u <> 0 /\ put u = put s /\ handled u = handled s).
  { destruct e as [i | | o | | r h]; cbn [step] in E; rewrite ?T, ?K in E; try discriminate.
    - injection E as <-. unfold save. destruct (waiting s) eqn:W'; [|congruence]. repeat split; auto. congruence.
    - destruct (loading s); [discriminate|]. destruct (latest s); [|discriminate]. injection E as <-. cbn. now repeat split.
    - destruct (loading s); [|discriminate]. injection E as <-. cbn. now repeat split. }
  destruct X as (T' & K' & W' & U' & P & Ha). destruct (IH u t T' K' W' U' H) as (A & B & C). rewrite <- P, <- Ha. now repeat split.
Qed.
End Queue.

(** ** Arrays *)

Lemma firstn_plus : forall (A : Type) (a b : nat) (d : list A), firstn (a + b) d = firstn a d ++ firstn b (skipn a d).
Proof. intros A a. induction a as [|a IH]; intros b d; [reflexivity|]. destruct d as [|x d]; cbn; [now rewrite firstn_nil|]. now rewrite IH. Qed.

Lemma concat_parts : forall q (d : list nat) n, List.concat (map (fun i => firstn q (skipn (i * q) d)) (seq 0 n)) = firstn (n * q) d.
Proof.
  intros q d n. induction n as [|n IH]; [reflexivity|]. rewrite seq_S, map_app, concat_app, IH. cbn [map List.concat Nat.add]. rewrite app_nil_r, <- firstn_plus. f_equal. lia.
Qed.

Lemma split_all : forall n d, (exists q, List.length d = n * q) -> 0 < n -> List.concat (split n true d) = d.
Proof.
  intros n d [q E] H. unfold split, part. rewrite concat_parts. assert (D : List.length d / n = q) by (rewrite E, Nat.mul_comm; apply Nat.div_mul; lia). rewrite D, <- E. apply firstn_all.
Qed.

Lemma split_length : forall n b d, List.length (split n b d) = n.
Proof. intros. unfold split. now rewrite map_length, seq_length. Qed.

Definition chosen (alive : nat -> bool) (n : nat) (b : bool) (d : list nat) : list (list nat) := map snd (filter (fun p => alive (fst p)) (combine (seq 0 n) (split n b d))).

Lemma combine_map_r : forall (A B : Type) (f : A -> B) (l : list A), combine l (map f l) = map (fun i => (i, f i)) l.
Proof. intros A B f l. induction l as [|x l IH]; cbn; congruence. Qed.

Lemma chosen_is : forall alive n b d, chosen alive n b d = map (fun i => if b then part n i d else d) (filter alive (seq 0 n)).
Proof.
  intros alive n b d. unfold chosen, split. rewrite combine_map_r. generalize (seq 0 n). intro l. induction l as [|i l IH]; cbn; [reflexivity|]. destruct (alive i); cbn; now rewrite IH.
Qed.

Lemma active_spec : forall alive k d n b r m, (forall y, active alive (LArr k d (Named n b r) m) = Ok y -> (exists i, i < n /\ alive i = true) /\ exists d' c, y = LArr k d' (Named c b r) m /\ (b = false -> d' = d) /\ ((forall i, i < n -> alive i = true) -> (exists q, List.length d = n * q) -> d' = d)) /\
  ((exists i, i < n /\ alive i = true) -> exists y, active alive (LArr k d (Named n b r) m) = Ok y).
Proof.
  intros alive k d n b r m. cbn [active]. change (map snd (filter (fun p => alive (fst p)) (combine (seq 0 n) (split n b d)))) with (chosen alive n b d). pose proof (chosen_is alive n b d) as E. destruct (chosen alive n b d) as [|x l] eqn:C.
  - split; [discriminate|]. intros (i & Hi & A). exfalso. assert (X : In i (filter alive (seq 0 n))) by (apply filter_In; split; [apply in_seq; lia | exact A]). destruct (filter alive (seq 0 n)); [destruct X | discriminate].
  - split; [|intros _; eexists; reflexivity]. intros y H. injection H as <-. destruct (filter alive (seq 0 n)) as [|i f] eqn:F; [discriminate|]. split.
    + exists i. assert (X : In i (filter alive (seq 0 n))) by (rewrite F; now left). apply filter_In in X as [X A]. apply in_seq in X. split; [lia | exact A].
    + eexists. eexists. split; [reflexivity|]. split.
      * intros ->. injection E as -> _. reflexivity.
      * intros Al Q. destruct b; [|injection E as -> _; reflexivity]. cbn [concatenate]. rewrite E, <- F. replace (filter alive (seq 0 n)) with (seq 0 n).
        -- apply split_all; [exact Q|]. destruct n; [discriminate | lia].
        -- clear - Al. assert (X : forall l, (forall i, In i l -> alive i = true) -> filter alive l = l) by (induction l as [|j l IH]; intro H; cbn; [reflexivity|]; rewrite (H j (or_introl eq_refl)), IH; [reflexivity | intros i Hi; apply H; now right]). symmetry. apply X. intros i Hi. apply in_seq in Hi. apply Al. lia.
Qed.

Lemma seq_cons : forall (A : Type) (x : result A) l, sequence (x :: l) = match x with Ok y => match sequence l with Ok m => Ok (y :: m) | Err e => Err e end | Err e => Err e end.
Proof. intros A [y | e] l; cbn; [destruct (sequence l)|]; reflexivity. Qed.

Definition load3 (alive : nat -> bool) (x : leaf) (a : aleaf) : result (leaf * leaf) := rbind (active alive x) (fun y => rbind (move Pinned y a) (fun h => rmap (pair h) (move Device h a))).

Lemma load3_ok : forall alive x a, (forall h o, load3 alive x a = Ok (h, o) -> loadable alive x a /\ loaded alive x a h o) /\ (loadable alive x a -> exists h o, load3 alive x a = Ok (h, o)).
Proof.
  intros alive [k d [n b r | n] m | n] a; cbn [loadable loaded]; unfold load3.
  - destruct (active_spec alive k d n b r m) as [A B]. split.
    + intros h o H. destruct (active alive (LArr k d (Named n b r) m)) as [y|e]; cbn [rbind] in H; [|discriminate]. destruct (A y eq_refl) as (Al & d' & c & -> & P & Q). cbn [move] in H. destruct a as [s|]; cbn in H; [|discriminate]. injection H as <- <-. split; [split; [exact Al | now exists s]|].
      exists s, d'. now repeat split.
    + intros [Al [s ->]]. destruct (B Al) as [y E]. rewrite E. cbn [rbind]. destruct (A y E) as (_ & d' & c & -> & _). cbn. eauto.
  - split; [discriminate | intros []].
  - cbn. split; [intros h o H; injection H as <- <-; now repeat split | eauto].
Qed.

Lemma loads : forall alive t a, (forall h o, load alive (Some t) a = Ok (h, o) -> Forall2 (loadable alive) t a /\ List.length h = List.length t /\ List.length o = List.length t /\
    forall i x y hx ox, nth_error t i = Some x -> nth_error a i = Some y -> nth_error h i = Some hx -> nth_error o i = Some ox -> loaded alive x y hx ox) /\
  (Forall2 (loadable alive) t a -> exists h o, load alive (Some t) a = Ok (h, o)).
Proof.
  assert (pre : forall alive t a h o, load alive (Some t) a = Ok (h, o) <-> List.length t = List.length a /\ sequence (map (fun p => load3 alive (fst p) (snd p)) (combine t a)) = Ok (combine h o) /\ List.length h = List.length t /\ List.length o = List.length t).
  { intros alive t a. unfold load, map2.
    assert (len : forall (t : list leaf) u, sequence (map (active alive) t) = Ok u -> List.length u = List.length t).
    { clear. induction t as [|x t IH]; intro u; cbn [map]; [cbn; intro H; now injection H as <-|]. rewrite seq_cons. destruct (active alive x); [|discriminate]. destruct (sequence (map (active alive) t)); [|discriminate]. intro H. injection H as <-. cbn. now rewrite (IH _ eq_refl). }
    assert (len2 : forall (f : leaf -> aleaf -> result leaf) (t : list leaf) (a : list aleaf) (u : list leaf), List.length t = List.length a -> sequence (map (fun p => f (fst p) (snd p)) (combine t a)) = Ok u -> List.length u = List.length t).
    { clear. intro f. induction t as [|x t IH]; intros [|y a] u L; cbn [combine map]; try discriminate; [cbn; intro H; now injection H as <-|]. rewrite seq_cons. cbn [fst snd]. destruct (f x y); [|discriminate]. destruct (sequence _) as [m|] eqn:E; [|discriminate]. intro H. injection H as <-. cbn. injection L as L. now rewrite (IH a m L E). }
    assert (main : forall t a h o, List.length t = List.length a -> (exists t1, sequence (map (active alive) t) = Ok t1 /\ sequence (map (fun p => move Pinned (fst p) (snd p)) (combine t1 a)) = Ok h /\ sequence (map (fun p => move Device (fst p) (snd p)) (combine h a)) = Ok o) <->
      sequence (map (fun p => load3 alive (fst p) (snd p)) (combine t a)) = Ok (combine h o) /\ List.length h = List.length t /\ List.length o = List.length t).
    { clear t a len len2. induction t as [|x t IH]; intros [|y a] h o L; try discriminate.
      - cbn [map combine List.length]. split.
        + intros (t1 & A & B & C). cbn in A. injection A as <-. cbn in B. injection B as <-. cbn in C. injection C as <-. now repeat split.
        + intros (A & B & C). destruct h; [|discriminate]. destruct o; [|discriminate]. exists []. now repeat split.
      - injection L as L. cbn [map combine]. rewrite !seq_cons. cbn [fst snd]. split.
        + intros (t1 & A & B & C). unfold load3. destruct (active alive x) as [x1|]; [|discriminate]. destruct (sequence (map (active alive) t)) as [t1'|] eqn:T; [|discriminate]. injection A as <-. cbn [combine map] in B. rewrite seq_cons in B. cbn [fst snd] in B. destruct (move Pinned x1 y) as [hx|] eqn:M; [|discriminate].
          destruct (sequence (map (fun p => move Pinned (fst p) (snd p)) (combine t1' a))) as [h'|] eqn:H1; [|discriminate]. injection B as <-. cbn [combine map] in C. rewrite seq_cons in C. cbn [fst snd] in C. destruct (move Device hx y) as [ox|] eqn:M2; [|discriminate].
          destruct (sequence (map (fun p => move Device (fst p) (snd p)) (combine h' a))) as [o'|] eqn:O1; [|discriminate]. injection C as <-. cbn [rbind]. rewrite M. cbn [rbind]. rewrite M2. cbn [rmap].
          destruct (proj1 (IH a h' o' L) (ex_intro _ t1' (conj eq_refl (conj H1 O1)))) as (A & B & C). unfold load3 in A. rewrite A. cbn [combine List.length]. now rewrite B, C.
        + intros (A & B & C). destruct h as [|hx h]; [discriminate|]. destruct o as [|ox o]; [discriminate|]. injection B as B. injection C as C. cbn [combine] in A. destruct (load3 alive x y) as [p|] eqn:P; [|discriminate]. destruct (sequence (map (fun p => load3 alive (fst p) (snd p)) (combine t a))) as [r|] eqn:R; [|discriminate].
          injection A as -> ->. destruct (proj2 (IH a h o L)) as (t1 & T & H1 & O1); [now repeat split|]. unfold load3 in P. destruct (active alive x) as [x1|]; [|discriminate]. cbn [rbind] in P. destruct (move Pinned x1 y) as [h0|] eqn:M; [|discriminate]. cbn [rbind] in P. destruct (move Device h0 y) as [o0|] eqn:M2; [|discriminate]. injection P as <- <-.
          exists (x1 :: t1). rewrite T. split; [reflexivity|]. cbn [combine map]. rewrite !seq_cons. cbn [fst snd]. now rewrite M, H1, M2, O1. }
    intros h o. split.
    - intro H. destruct (sequence (map (active alive) t)) as [t1|] eqn:T; cbn [rbind] in H; [|discriminate]. destruct (Nat.eqb (List.length t1) (List.length a)) eqn:E; cbn [rbind] in H; [|discriminate]. apply Nat.eqb_eq in E.
      destruct (sequence (map (fun p => move Pinned (fst p) (snd p)) (combine t1 a))) as [h'|] eqn:H1; cbn [rbind] in H; [|discriminate]. destruct (Nat.eqb (List.length h') (List.length a)); cbn [rbind rmap] in H; [|discriminate].
      destruct (sequence (map (fun p => move Device (fst p) (snd p)) (combine h' a))) as [o'|] eqn:O1; cbn [rmap] in H; [|discriminate]. injection H as <- <-. pose proof (len t t1 T) as Lt. split; [congruence|]. apply main; [congruence|]. now exists t1.
    - intros (L & R). apply main in R; [|exact L]. destruct R as (t1 & T & H1 & O1). rewrite T. cbn [rbind]. pose proof (len t t1 T) as Lt. assert (E : Nat.eqb (List.length t1) (List.length a) = true) by (apply Nat.eqb_eq; congruence). rewrite E, H1. cbn [rbind].
      pose proof (len2 _ t1 a h ltac:(congruence) H1) as Lh. assert (E2 : Nat.eqb (List.length h) (List.length a) = true) by (apply Nat.eqb_eq; congruence). rewrite E2, O1. reflexivity. }
  intros alive t a. split.
  - intros h o H. apply pre in H as (L & E & Lh & Lo). split; [|split; [exact Lh | split; [exact Lo|]]].
    + clear Lh Lo. revert a L E. generalize (combine h o). clear h o. induction t as [|x t IH]; intros p [|y a] L E; try discriminate; constructor; cbn [combine map] in E; rewrite seq_cons in E; cbn [fst snd] in E; destruct (load3 alive x y) as [[h o]|] eqn:P; try discriminate.
      * destruct (load3_ok alive x y) as [A _]. now destruct (A h o P).
      * destruct (sequence _) as [r|] eqn:R; [|discriminate]. injection L as L. exact (IH r a L R).
    + revert a h o L E Lh Lo. induction t as [|x t IH]; intros [|y a] [|hx h] [|ox o] L E Lh Lo; try discriminate; intros i x' y' hx' ox'; [destruct i; discriminate|]. cbn [combine map] in E. rewrite seq_cons in E. cbn [fst snd] in E. destruct (load3 alive x y) as [[h0 o0]|] eqn:P; [|discriminate]. destruct (sequence _) as [r|] eqn:R; [|discriminate]. injection E as -> -> ->.
      destruct i as [|i]; cbn [nth_error].
      * intros A B C D. injection A as <-. injection B as <-. injection C as <-. injection D as <-. destruct (load3_ok alive x y) as [Q _]. now destruct (Q hx ox P).
      * injection L as L. injection Lh as Lh. injection Lo as Lo. exact (IH a h o L R Lh Lo i x' y' hx' ox').
  - intro F. assert (X : List.length t = List.length a /\ exists h o, sequence (map (fun p => load3 alive (fst p) (snd p)) (combine t a)) = Ok (combine h o) /\ List.length h = List.length t /\ List.length o = List.length t).
    { induction F as [|x y t a Hx F IH]; [split; [reflexivity|]; exists [], []; now repeat split|]. destruct IH as (L & h & o & E & Lh & Lo). split; [cbn; congruence|]. destruct (load3_ok alive x y) as [_ Q]. destruct (Q Hx) as (hx & ox & P). exists (hx :: h), (ox :: o). cbn [combine map]. rewrite seq_cons. cbn [fst snd]. rewrite P, E. cbn. repeat split; congruence. }
    destruct X as (L & h & o & E & Lh & Lo). exists h, o. apply pre. now repeat split.
Qed.

(** The worker is there as long as no error ended it *)
Definition alive_inv {S : Type} (s : snap S) : Prop := thread s = true <-> forall i, ~ In (i, Crashed) (handled s).

Lemma alive_step : forall (S : Type) (s t : snap S) e, alive_inv s -> step s e = Some t -> alive_inv t.
Proof.
  unfold alive_inv. intros S s t e A H. destruct e as [i | | o | | r h]; cbn in H.
  - injection H as <-. unfold save. destruct (waiting s); exact A.
  - destruct (thread s) eqn:T; [|discriminate]. destruct (working s); [discriminate|]. destruct (waiting s); [|discriminate]. injection H as <-. exact A.
  - destruct (working s) as [i|]; [|discriminate]. injection H as <-. cbn. destruct o.
    + rewrite A. split; intros B j J; [apply in_app_iff in J as [J|[J|[]]]; [now apply (B j) | discriminate] | apply (B j), in_app_iff; now left].
    + rewrite A. split; intros B j J; [apply in_app_iff in J as [J|[J|[]]]; [now apply (B j) | discriminate] | apply (B j), in_app_iff; now left].
    + split; [discriminate | intro B; exfalso; apply (B i), in_app_iff; right; now left].
  - destruct (loading s); [discriminate|]. destruct (latest s); [|discriminate]. injection H as <-. exact A.
  - destruct (loading s); [|discriminate]. injection H as <-. exact A.
Qed.

Lemma alive_exec : forall (S : Type) l (s t : snap S), alive_inv s -> exec s l = Some t -> alive_inv t.
Proof. intros S l. induction l as [|e l IH]; intros s t A H; cbn in H; [now injection H as <-|]. destruct (step s e) as [s'|] eqn:E; [|discriminate]. exact (IH s' t (alive_step S s s' e A E) H). Qed.
