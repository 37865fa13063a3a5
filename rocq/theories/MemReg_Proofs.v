(** Lemmas about the memory regulator. *)
From Coq Require Import List Bool ZArith QArith Lqa Lia.
From Verif Require Import Base MemReg_Model MemReg_Spec.
Import ListNotations.
Open Scope Q_scope.

Lemma Qlt_bool_spec : forall a b, if Qlt_bool a b then a < b else b <= a.
Proof.
  intros a b. unfold Qlt_bool. destruct (Qle_bool b a) eqn:E; cbn.
  - apply Qle_bool_iff. auto.
  - apply Qnot_le_lt. intros H. apply Qle_bool_iff in H. congruence.
Qed.

Ltac qb := repeat match goal with
  | |- context [Qlt_bool ?a ?b] => let H := fresh "QB" in assert (H := Qlt_bool_spec a b); destruct (Qlt_bool a b)
  | H0 : context [Qlt_bool ?a ?b] |- _ => let H := fresh "QB" in assert (H := Qlt_bool_spec a b); destruct (Qlt_bool a b)
  end.

Lemma clamp_nearest : forall low high x, low <= high -> nearest low high x (clamp low high x).
Proof.
  intros low high x H. unfold nearest, clamp, qmax, qmin. qb; first [left; split; lra|right; left; split; lra|right; right; split; lra].
Qed.

Lemma clamp_within : forall low high x, low <= high -> low <= clamp low high x <= high.
Proof. intros low high x H. destruct (clamp_nearest low high x H) as [[A B]|[[A B]|[A B]]]; lra. Qed.

Lemma nearest_eq : forall low high x y z, low <= high -> nearest low high x y -> nearest low high x z -> y == z.
Proof. intros low high x y z H [[A B]|[[A B]|[A B]]] [[A' B']|[[A' B']|[A' B']]]; lra. Qed.

Lemma nearest_mor : forall low high x x' y y', x == x' -> y == y' -> nearest low high x y -> nearest low high x' y'.
Proof. intros low high x x' y y' E E' [[A B]|[[A B]|[A B]]]; unfold nearest; [left|right; left|right; right]; split; lra. Qed.

Lemma gap_error : forall c m, error_gib c m == gap c m.
Proof. intros c m. unfold error_gib, gap. ring. Qed.

Lemma adj_base : forall c s m, adjustment c s m <= kp c * gap c m + ki c * integral s + kd c * (gap c m - prev_error s).
Proof. intros c s m. unfold adjustment, qmin. rewrite <- gap_error. qb; lra. Qed.

Lemma adj_exact : forall c s m, quiet m -> overflow m <= 0 -> adjustment c s m == kp c * gap c m + ki c * integral s + kd c * (gap c m - prev_error s).
Proof. intros c s m Q O. unfold adjustment, qmin, quiet, overflow in *. rewrite <- gap_error. qb; lra. Qed.

Lemma adj_surge : forall c s m, 0 < expected_surge_gib m -> adjustment c s m <= 0.
Proof. intros c s m H. unfold adjustment, qmin. qb; lra. Qed.

Lemma adj_over : forall c s m, 0 < overflow m -> adjustment c s m <= - overflow m.
Proof. intros c s m H. unfold adjustment, qmin, overflow in *. qb; lra. Qed.

Lemma step_ok : forall c s l m, min_memory_limit_gib c <= max_memory_limit_gib c ->
  let r := get_next_memory_limit c s l m in
  nearest (min_memory_limit_gib c) (max_memory_limit_gib c) (baseline l s + adjustment c s m - expected_surge_gib m) (fst r) /\
  nearest (min_memory_limit_gib c) (max_memory_limit_gib c) (baseline l s + adjustment c s m) (baseline (fst r) (snd r)).
Proof.
  intros c s l m H. cbn. unfold baseline. cbn. split; [apply clamp_nearest; auto|].
  eapply nearest_mor; [reflexivity| |apply clamp_nearest; auto]. ring.
Qed.

Lemma step_within : forall c s l m, min_memory_limit_gib c <= max_memory_limit_gib c -> within c (fst (get_next_memory_limit c s l m)).
Proof. intros c s l m H. cbn. apply clamp_within. auto. Qed.

Lemma step_integral : forall c s l m, -50 <= integral s <= 50 -> -50 <= integral (snd (get_next_memory_limit c s l m)) <= 50.
Proof. intros c s l m H. cbn. destruct (Qeq_bool (expected_surge_gib m) 0); auto. unfold integral_windup_limit. apply (clamp_within (-(50)) 50). lra. Qed.

Lemma quiet_bool : forall m, quiet m -> Qeq_bool (expected_surge_gib m) 0 = true.
Proof. intros m Q. apply Qeq_bool_iff. exact Q. Qed.

Lemma clamp_id : forall low high x, low <= x <= high -> clamp low high x == x.
Proof. intros low high x H. unfold clamp, qmax, qmin. qb; lra. Qed.

Lemma step_quiet : forall c s l m, quiet m -> -50 <= integral s + gap c m <= 50 ->
  integral (snd (get_next_memory_limit c s l m)) == integral s + gap c m /\ prev_error (snd (get_next_memory_limit c s l m)) == gap c m.
Proof.
  intros c s l m Q H. cbn. rewrite quiet_bool by auto. split; [|apply gap_error]. assert (E := gap_error c m). unfold integral_windup_limit. rewrite clamp_id; lra.
Qed.

Lemma step_free : forall c s l m, quiet m -> prev_expected_surge_gib (snd (get_next_memory_limit c s l m)) == 0.
Proof.
  intros c s l m Q. cbn. unfold quiet in Q. unfold clamp, qmax, qmin. qb; lra.
Qed.

Lemma make_spec : forall c, make c = if Qlt_bool 0 (max_memory_limit_gib c) && Qlt_bool 0 (min_memory_limit_gib c) && Qlt_bool (min_memory_limit_gib c) (max_memory_limit_gib c * target_ratio c) then Ok (mk_state 0 0 0) else Err ValueError.
Proof. intros c. unfold make, Qlt_bool. destruct (Qle_bool (max_memory_limit_gib c) 0), (Qle_bool (min_memory_limit_gib c) 0), (Qle_bool (max_memory_limit_gib c * target_ratio c) (min_memory_limit_gib c)); reflexivity. Qed.

Lemma made_limits : forall c s, make c = Ok s -> target_ratio c <= 1 -> min_memory_limit_gib c <= max_memory_limit_gib c.
Proof.
  intros c s M R. rewrite make_spec in M. assert (H1 := Qlt_bool_spec 0 (max_memory_limit_gib c)). assert (H2 := Qlt_bool_spec (min_memory_limit_gib c) (max_memory_limit_gib c * target_ratio c)).
  destruct (Qlt_bool 0 (max_memory_limit_gib c)); [|discriminate]. destruct (Qlt_bool 0 (min_memory_limit_gib c)); [|discriminate]. destruct (Qlt_bool (min_memory_limit_gib c) (max_memory_limit_gib c * target_ratio c)); [|discriminate].
  assert (max_memory_limit_gib c * target_ratio c <= max_memory_limit_gib c) by nra. lra.
Qed.

Lemma run_within : forall c ms s l, min_memory_limit_gib c <= max_memory_limit_gib c -> Forall (within c) (fst (run c s l ms)).
Proof. intros c ms. induction ms as [|m ms IH]; intros s l H; cbn [run fst]; constructor; [apply step_within; auto|apply IH; auto]. Qed.

Lemma run_integral : forall c ms s l, -50 <= integral s <= 50 -> -50 <= integral (snd (run c s l ms)) <= 50.
Proof. intros c ms. induction ms as [|m ms IH]; intros s l H; cbn [run snd]; auto. apply IH. apply step_integral. auto. Qed.

Lemma last_cons : forall (A : Type) (x y : A) l, last (x :: l) y = last l x.
Proof. intros A x y l. revert x. induction l as [|a l IH]; intros x; auto. cbn [last] in *. destruct l; auto. Qed.

(** ** Rising and falling *)

Lemma rises : forall c m n s l, min_memory_limit_gib c <= max_memory_limit_gib c -> 0 <= kp c -> 0 <= ki c -> 0 <= kd c -> quiet m -> overflow m <= 0 -> 0 <= gap c m ->
  0 <= integral s -> prev_error s <= gap c m -> prev_expected_surge_gib s == 0 ->
  last (fst (run c s l (repeat m n))) l == max_memory_limit_gib c \/ l + inject_Z (Z.of_nat n) * (kp c * gap c m) <= last (fst (run c s l (repeat m n))) l.
Proof.
  intros c m n. induction n as [|n IH]; intros s l LIM KP KI KD Q O G I E P.
  - right. cbn [repeat run fst last]. change (inject_Z (Z.of_nat 0)) with 0. lra.
  - cbn [repeat run fst]. rewrite last_cons. set (u := get_next_memory_limit c s l m).
    destruct (step_ok c s l m LIM) as [ST _]. fold u in ST. unfold baseline, quiet in *. assert (AD := adj_exact c s m Q O).
    assert (KG : 0 <= kp c * gap c m) by (apply Qmult_le_0_compat; auto). assert (KI' : 0 <= ki c * integral s) by (apply Qmult_le_0_compat; auto). assert (KD' : 0 <= kd c * (gap c m - prev_error s)) by (apply Qmult_le_0_compat; lra).
    assert (I' : 0 <= integral (snd u)). { unfold u. cbn. destruct (Qeq_bool (expected_surge_gib m) 0); auto. assert (X := gap_error c m). unfold clamp, qmax, qmin, integral_windup_limit. qb; lra. }
    assert (E' : prev_error (snd u) <= gap c m). { unfold u. cbn. rewrite quiet_bool by auto. rewrite gap_error. lra. }
    assert (P' : prev_expected_surge_gib (snd u) == 0) by (apply step_free; auto).
    destruct (IH (snd u) (fst u) LIM KP KI KD Q O G I' E' P') as [H|H]; [auto|].
    rewrite Nat2Z.inj_succ. unfold Z.succ. rewrite inject_Z_plus. change (inject_Z 1) with 1. set (N := inject_Z (Z.of_nat n)) in *.
    assert (NN : 0 <= N * (kp c * gap c m)). { apply Qmult_le_0_compat; auto. unfold N. change 0 with (inject_Z 0). rewrite <- Zle_Qle. lia. }
    assert (EQ : (N + 1) * (kp c * gap c m) == N * (kp c * gap c m) + kp c * gap c m) by ring.
    destruct ST as [[A B]|[[A B]|[A B]]]; [right; lra|right; lra|].
    left. assert (W : within c (last (fst (run c (snd u) (fst u) (repeat m n))) (fst u))).
    { assert (F := run_within c (repeat m n) (snd u) (fst u) LIM). destruct (fst (run c (snd u) (fst u) (repeat m n))) as [|x r] eqn:ER; [cbn [last]; unfold within; lra|].
      assert (IN : In (last (x :: r) (fst u)) (x :: r)). { clear. revert x. induction r as [|y r IH]; intros x; [left; auto|]. rewrite last_cons. right. specialize (IH y). rewrite last_cons in *. auto. }
      rewrite Forall_forall in F. auto. }
    unfold within in W. lra.
Qed.

Lemma falls : forall c m n s l, min_memory_limit_gib c <= max_memory_limit_gib c -> 0 <= kp c -> 0 <= ki c -> 0 <= kd c -> quiet m -> gap c m <= 0 ->
  integral s <= 0 -> gap c m <= prev_error s -> prev_expected_surge_gib s == 0 ->
  last (fst (run c s l (repeat m n))) l == min_memory_limit_gib c \/ last (fst (run c s l (repeat m n))) l <= l + inject_Z (Z.of_nat n) * (kp c * gap c m).
Proof.
  intros c m n. induction n as [|n IH]; intros s l LIM KP KI KD Q G I E P.
  - right. cbn [repeat run fst last]. change (inject_Z (Z.of_nat 0)) with 0. lra.
  - cbn [repeat run fst]. rewrite last_cons. set (u := get_next_memory_limit c s l m).
    destruct (step_ok c s l m LIM) as [ST _]. fold u in ST. unfold baseline, quiet in *. assert (AD := adj_base c s m).
    assert (KG : kp c * gap c m <= 0) by nra. assert (KI' : ki c * integral s <= 0) by nra. assert (KD' : kd c * (gap c m - prev_error s) <= 0) by nra.
    assert (I' : integral (snd u) <= 0). { unfold u. cbn. destruct (Qeq_bool (expected_surge_gib m) 0); auto. assert (X := gap_error c m). unfold clamp, qmax, qmin, integral_windup_limit. qb; lra. }
    assert (E' : gap c m <= prev_error (snd u)). { unfold u. cbn. rewrite quiet_bool by auto. rewrite gap_error. lra. }
    assert (P' : prev_expected_surge_gib (snd u) == 0) by (apply step_free; auto).
    destruct (IH (snd u) (fst u) LIM KP KI KD Q G I' E' P') as [H|H]; [auto|].
    rewrite Nat2Z.inj_succ. unfold Z.succ. rewrite inject_Z_plus. change (inject_Z 1) with 1. set (N := inject_Z (Z.of_nat n)) in *.
    assert (N0 : 0 <= N) by (unfold N; change 0 with (inject_Z 0); rewrite <- Zle_Qle; lia). assert (NN : N * (kp c * gap c m) <= 0) by nra.
    assert (EQ : (N + 1) * (kp c * gap c m) == N * (kp c * gap c m) + kp c * gap c m) by ring.
    destruct ST as [[A B]|[[A B]|[A B]]]; [|right; lra|right; lra].
    left. assert (W : within c (last (fst (run c (snd u) (fst u) (repeat m n))) (fst u))).
    { assert (F := run_within c (repeat m n) (snd u) (fst u) LIM). destruct (fst (run c (snd u) (fst u) (repeat m n))) as [|x r] eqn:ER; [cbn [last]; unfold within; lra|].
      assert (IN : In (last (x :: r) (fst u)) (x :: r)). { clear. revert x. induction r as [|y r IH]; intros x; [left; auto|]. rewrite last_cons. right. specialize (IH y). rewrite last_cons in *. auto. }
      rewrite Forall_forall in F. auto. }
    unfold within in W. lra.
Qed.

(** ** The controller *)

Lemma unsaturated_mor : forall c ms i i' e e' l l', i == i' -> e == e' -> l == l' -> unsaturated c i e l ms -> unsaturated c i' e' l' ms.
Proof.
  intros c ms. induction ms as [|m ms IH]; intros i i' e e' l l' I E L U; cbn [unsaturated] in *; auto. destruct U as (Q & O & W & B & U).
  split; auto. split; auto. assert (EQ : l + kp c * gap c m + ki c * i + kd c * (gap c m - e) == l' + kp c * gap c m + ki c * i' + kd c * (gap c m - e')) by (rewrite I, E, L; reflexivity).
  split; [unfold within in *; lra|]. split; [lra|]. eapply IH; [| | |exact U]; [lra|reflexivity|auto].
Qed.

Lemma sums_mor : forall l i i', i == i' -> sum_of_integrals i l == sum_of_integrals i' l.
Proof. intros l. induction l as [|x l IH]; intros i i' E; cbn [sum_of_integrals]; [reflexivity|]. rewrite (IH (i + x) (i' + x)); [lra|lra]. Qed.

Lemma pid : forall c ms s l, min_memory_limit_gib c <= max_memory_limit_gib c -> prev_expected_surge_gib s == 0 -> unsaturated c (integral s) (prev_error s) l ms ->
  last (fst (run c s l ms)) l == l + kp c * sum (map (gap c) ms) + ki c * sum_of_integrals (integral s) (map (gap c) ms) + kd c * (last (map (gap c) ms) (prev_error s) - prev_error s) /\
  integral (snd (run c s l ms)) == integral s + sum (map (gap c) ms).
Proof.
  intros c ms. induction ms as [|m ms IH]; intros s l LIM P U.
  - cbn. split; lra.
  - cbn [unsaturated] in U. destruct U as (Q & O & W & B & U). cbn [run fst snd map sum sum_of_integrals]. rewrite !last_cons.
    destruct (step_quiet c s l m Q B) as [I' E']. assert (P' := step_free c s l m Q). assert (ST := step_ok c s l m LIM). cbv zeta in ST. destruct ST as [ST _]. set (u := get_next_memory_limit c s l m) in *.
    assert (AD := adj_exact c s m Q O). unfold baseline, quiet, within in *.
    assert (L' : fst u == l + kp c * gap c m + ki c * integral s + kd c * (gap c m - prev_error s)) by (destruct ST as [[A X]|[[A X]|[A X]]]; lra).
    assert (U' : unsaturated c (integral (snd u)) (prev_error (snd u)) (fst u) ms) by (eapply unsaturated_mor; [| | |exact U]; lra).
    destruct (IH (snd u) (fst u) LIM P' U') as [H1 H2]. rewrite H1, H2. rewrite (sums_mor (map (gap c) ms) _ _ I'). rewrite I'. split; [|lra].
    assert (LE : last (map (gap c) ms) (prev_error (snd u)) == last (map (gap c) ms) (gap c m)) by (destruct (map (gap c) ms) as [|x r]; [exact E'|rewrite !last_cons; reflexivity]).
    rewrite LE, E', L'. ring.
Qed.

(** ** Bytes *)

Lemma int_of_floor : forall x, 0 <= x -> inject_Z (int_of x) <= x /\ x < inject_Z (int_of x) + 1.
Proof.
  intros [n d] H. unfold int_of, Qle, Qlt in *. cbn in *. rewrite Z.quot_div_nonneg by lia. assert (D := Z.div_mod n (Zpos d) ltac:(lia)). assert (M := Z.mod_pos_bound n (Zpos d) ltac:(lia)). nia.
Qed.

Lemma gib_pos : 0 < gib.
Proof. reflexivity. Qed.
