(** C42: the memory regulator. *)
From Coq Require Import List Bool ZArith QArith Lqa Lia.
From Verif Require Import Base MemReg_Model MemReg_Spec MemReg_Proofs.
Import ListNotations.
Open Scope Q_scope.

(** For the examples: the default configuration with 100 GiB, and measurements without
    and with a surge. *)
Definition ex_config : config := default_config 100.
Definition at_peak (p : Q) : measurement := mk_measurement p 0 100.
Definition with_surge (p s : Q) : measurement := mk_measurement p s 100.

(** Exactly these configurations are accepted. *)
Theorem C42_make : forall c, match make c with
  | Ok s => 0 < min_memory_limit_gib c /\ 0 < max_memory_limit_gib c /\ min_memory_limit_gib c < max_memory_limit_gib c * target_ratio c /\ s = mk_state 0 0 0
  | Err e => e = ValueError /\ ~ (0 < min_memory_limit_gib c /\ 0 < max_memory_limit_gib c /\ min_memory_limit_gib c < max_memory_limit_gib c * target_ratio c)
  end.
Proof.
  intros c. rewrite make_spec. assert (A := Qlt_bool_spec 0 (max_memory_limit_gib c)). assert (B := Qlt_bool_spec 0 (min_memory_limit_gib c)). assert (C := Qlt_bool_spec (min_memory_limit_gib c) (max_memory_limit_gib c * target_ratio c)).
  destruct (Qlt_bool 0 (max_memory_limit_gib c)), (Qlt_bool 0 (min_memory_limit_gib c)), (Qlt_bool (min_memory_limit_gib c) (max_memory_limit_gib c * target_ratio c)); cbn [andb]; repeat split; auto; intros (X & Y & Z); lra.
Qed.
Print Assumptions C42_make.

Example C42_make_ex : make ex_config = Ok (mk_state 0 0 0) /\ make (default_config (25 # 2)) = Err ValueError /\ make (default_config 0) = Err ValueError.
Proof. vm_compute. repeat split; reflexivity. Qed.

(** Whatever is measured and whatever the state and the current limit are, all limits
    lie between the configured ones, provided the target ratio is at most one. *)
Theorem C42_within : forall c s0, make c = Ok s0 -> target_ratio c <= 1 -> forall ms s limit, Forall (within c) (fst (run c s limit ms)).
Proof. intros c s0 M R ms s limit. apply run_within. eapply made_limits; eauto. Qed.
Print Assumptions C42_within.

Example C42_within_ex : target_ratio ex_config <= 1 /\
  map Qred (fst (run ex_config (mk_state 0 0 0) 10 [at_peak 20; at_peak 50; with_surge 70 30; at_peak 90; at_peak 130])) = [40; 103 # 2; 43 # 2; 46; 16] /\
  map Qred (fst (run ex_config (mk_state 0 0 0) 10 [at_peak 200; at_peak 0; at_peak 0; at_peak 0])) = [10; 119 # 2; 93; 100].
Proof. split; [discriminate|]. vm_compute. split; reflexivity. Qed.

(** The integral stays within the windup limit. *)
Theorem C42_integral : forall c s0 ms limit, make c = Ok s0 -> -50 <= integral (snd (run c s0 limit ms)) <= 50.
Proof. intros c s0 ms limit M. apply run_integral. assert (H := C42_make c). rewrite M in H. destruct H as (_ & _ & _ & ->). cbn. lra. Qed.
Print Assumptions C42_integral.

Example C42_integral_ex : Qred (integral (snd (run ex_config (mk_state 0 0 0) 10 [at_peak 20; at_peak 50]))) = 50.
Proof. vm_compute. reflexivity. Qed.

(** During a surge the history is left alone and the adjustment does not raise the
    limit: it is at most the limit without the room for surges, less the surge. *)
Theorem C42_surge : forall c s limit m, min_memory_limit_gib c <= max_memory_limit_gib c -> 0 < expected_surge_gib m ->
  let r := get_next_memory_limit c s limit m in
  integral (snd r) = integral s /\ prev_error (snd r) = prev_error s /\
  (fst r == min_memory_limit_gib c \/ fst r <= baseline limit s - expected_surge_gib m) /\
  (prev_expected_surge_gib s <= expected_surge_gib m -> min_memory_limit_gib c <= limit -> fst r <= limit).
Proof.
  intros c s limit m LIM SU r. destruct (step_ok c s limit m LIM) as [ST _]. fold r in ST. assert (AD := adj_surge c s m SU).
  assert (NQ : Qeq_bool (expected_surge_gib m) 0 = false) by (destruct (Qeq_bool (expected_surge_gib m) 0) eqn:E; auto; apply Qeq_bool_iff in E; lra).
  split; [unfold r; cbn; rewrite NQ; auto|]. split; [unfold r; cbn; rewrite NQ; auto|].
  unfold baseline in *. split.
  - destruct ST as [[A B]|[[A B]|[A B]]]; [auto|right; lra|right; lra].
  - intros P L. destruct ST as [[A B]|[[A B]|[A B]]]; lra.
Qed.
Print Assumptions C42_surge.

Example C42_surge_ex : let r := get_next_memory_limit ex_config (mk_state 10 5 0) 60 (with_surge 20 15) in Qred (fst r) = 45 /\ Qred (prev_expected_surge_gib (snd r)) = 15 /\ integral (snd r) = 10 /\ prev_error (snd r) = 5.
Proof. vm_compute. repeat split; reflexivity. Qed.

(** A usage over the memory there is lowers the limit by at least the overflow, unless
    it is at its minimum. *)
Theorem C42_over : forall c s limit m, min_memory_limit_gib c <= max_memory_limit_gib c -> 0 < overflow m ->
  let r := get_next_memory_limit c s limit m in
  (fst r == min_memory_limit_gib c \/ fst r <= baseline limit s - overflow m - expected_surge_gib m) /\
  (prev_expected_surge_gib s <= expected_surge_gib m -> min_memory_limit_gib c <= limit -> fst r <= limit /\ (min_memory_limit_gib c < limit -> fst r < limit)).
Proof.
  intros c s limit m LIM O r. destruct (step_ok c s limit m LIM) as [ST _]. fold r in ST. assert (AD := adj_over c s m O). unfold baseline in *. split.
  - destruct ST as [[A B]|[[A B]|[A B]]]; [auto|right; lra|right; lra].
  - intros P L. destruct ST as [[A B]|[[A B]|[A B]]]; lra.
Qed.
Print Assumptions C42_over.

Example C42_over_ex : Qred (fst (get_next_memory_limit ex_config (mk_state 50 (-200) 0) 60 (at_peak 105))) = 55.
Proof. vm_compute. reflexivity. Qed.

(** The limit without the room for surges follows the adjustments, so that after a surge
    the limit is what it would have been; the room kept is at most the surge. *)
Theorem C42_restored : forall c s limit m, min_memory_limit_gib c <= max_memory_limit_gib c ->
  let r := get_next_memory_limit c s limit m in
  nearest (min_memory_limit_gib c) (max_memory_limit_gib c) (baseline limit s + adjustment c s m) (baseline (fst r) (snd r)) /\
  (0 <= expected_surge_gib m -> 0 <= prev_expected_surge_gib (snd r) <= expected_surge_gib m) /\
  (quiet m -> prev_expected_surge_gib (snd r) == 0 /\ fst r == baseline (fst r) (snd r)).
Proof.
  intros c s limit m LIM r. destruct (step_ok c s limit m LIM) as [ST SB]. fold r in ST, SB. split; auto. unfold baseline in *. split.
  - intros SU. destruct ST as [[A B]|[[A B]|[A B]]], SB as [[A' B']|[[A' B']|[A' B']]]; lra.
  - intros Q. assert (F := step_free c s limit m Q). fold r in F. lra.
Qed.
Print Assumptions C42_restored.

Example C42_restored_ex :
  let quiet_run := run ex_config (mk_state 0 0 0) 40 [at_peak 80; at_peak 80] in
  let surge_run := run ex_config (mk_state 0 0 0) 40 [with_surge 80 25; at_peak 80] in
  map Qred (fst quiet_run) = [40; 40] /\ map Qred (fst surge_run) = [15; 40] /\
  map Qred (fst (run ex_config (mk_state 0 0 0) 40 [with_surge 80 60; at_peak 80])) = [10; 40].
Proof. vm_compute. repeat split; reflexivity. Qed.

(** As long as nothing saturates, it is a PID controller: the limit is the first one plus
    the weighted sum of the errors, of their integrals and of the change of the error. *)
Theorem C42_pid : forall c ms s limit, min_memory_limit_gib c <= max_memory_limit_gib c -> prev_expected_surge_gib s == 0 ->
  unsaturated c (integral s) (prev_error s) limit ms ->
  last (fst (run c s limit ms)) limit ==
    limit + kp c * sum (map (gap c) ms) + ki c * sum_of_integrals (integral s) (map (gap c) ms) + kd c * (last (map (gap c) ms) (prev_error s) - prev_error s) /\
  integral (snd (run c s limit ms)) == integral s + sum (map (gap c) ms).
Proof. exact pid. Qed.
Print Assumptions C42_pid.

Example C42_pid_ex : unsaturated ex_config 0 0 40 [at_peak 70; at_peak 78; at_peak 83] /\
  map Qred (fst (run ex_config (mk_state 0 0 0) 40 [at_peak 70; at_peak 78; at_peak 83])) = [45; 91 # 2; 222 # 5].
Proof. split; [|vm_compute; reflexivity]. cbn. unfold quiet, overflow, within, gap. cbn. repeat split; try reflexivity; vm_compute; discriminate. Qed.

(** With a steady usage below the target the limit rises to its maximum, by at least
    [kp] times the gap with each save. *)
Theorem C42_rises : forall c s0 limit m n, make c = Ok s0 -> target_ratio c <= 1 -> 0 <= kp c -> 0 <= ki c -> 0 <= kd c ->
  quiet m -> overflow m <= 0 -> 0 <= gap c m ->
  let final := last (fst (run c s0 limit (repeat m n))) limit in
  final == max_memory_limit_gib c \/ limit + inject_Z (Z.of_nat n) * (kp c * gap c m) <= final.
Proof.
  intros c s0 limit m n M R KP KI KD Q O G final. assert (LIM := made_limits c s0 M R). assert (H := C42_make c). rewrite M in H. destruct H as (_ & _ & _ & ->).
  apply rises; auto; cbn; lra.
Qed.
Print Assumptions C42_rises.

Example C42_rises_ex : gap ex_config (at_peak 60) == 20 /\ map Qred (fst (run ex_config (mk_state 0 0 0) 40 (repeat (at_peak 60) 6))) = [50; 59; 69; 159 # 2; 90; 100].
Proof. vm_compute. split; reflexivity. Qed.

(** With a steady usage above the target it falls to its minimum. *)
Theorem C42_falls : forall c s0 limit m n, make c = Ok s0 -> target_ratio c <= 1 -> 0 <= kp c -> 0 <= ki c -> 0 <= kd c ->
  quiet m -> gap c m <= 0 ->
  let final := last (fst (run c s0 limit (repeat m n))) limit in
  final == min_memory_limit_gib c \/ final <= limit + inject_Z (Z.of_nat n) * (kp c * gap c m).
Proof.
  intros c s0 limit m n M R KP KI KD Q G final. assert (LIM := made_limits c s0 M R). assert (H := C42_make c). rewrite M in H. destruct H as (_ & _ & _ & ->).
  apply falls; auto; cbn; lra.
Qed.
Print Assumptions C42_falls.

Example C42_falls_ex : map Qred (fst (run ex_config (mk_state 0 0 0) 40 (repeat (at_peak 100) 4))) = [30; 21; 11; 10].
Proof. vm_compute. reflexivity. Qed.

(** ** Bytes *)

(** The limit in bytes is that in GiB rounded down, for every state and profiler. *)
Theorem C42_bytes : forall c s0 s profiler b, make c = Ok s0 -> target_ratio c <= 1 ->
  let l := fst (get_next_memory_limit c s (inject_Z b / gib) (reading profiler)) in
  let r := update_limit_bytes c s profiler b in
  inject_Z (fst r) <= l * gib /\ l * gib < inject_Z (fst r) + 1 /\ (0 <= fst r)%Z /\
  inject_Z (fst r) <= max_memory_limit_gib c * gib /\ min_memory_limit_gib c * gib < inject_Z (fst r) + 1.
Proof.
  intros c s0 s profiler b M R l r. assert (LIM := made_limits c s0 M R). assert (W := step_within c s (inject_Z b / gib) (reading profiler) LIM). fold l in W.
  assert (H := C42_make c). rewrite M in H. destruct H as (P & _ & _ & _). unfold within in W. assert (G := gib_pos).
  assert (L0 : 0 <= l * gib) by (apply Qmult_le_0_compat; lra). destruct (int_of_floor (l * gib) L0) as [F1 F2].
  change (fst r) with (int_of (l * gib)).
  assert (X1 : l * gib <= max_memory_limit_gib c * gib) by (apply Qmult_le_compat_r; lra). assert (X2 : min_memory_limit_gib c * gib <= l * gib) by (apply Qmult_le_compat_r; lra).
  repeat split; auto; try lra. assert (Y : inject_Z 0 < inject_Z (int_of (l * gib) + 1)) by (rewrite inject_Z_plus; change (inject_Z 0) with 0; change (inject_Z 1) with 1; lra). rewrite <- Zlt_Qlt in Y. lia.
Qed.
Print Assumptions C42_bytes.

Example C42_bytes_ex : fst (update_limit_bytes ex_config (mk_state 0 0 0) (Some (at_peak (799 # 10))) 10737418241) = 10791105332%Z.
Proof. vm_compute. reflexivity. Qed.

Lemma auto_given : forall b, match auto (Some b) with
  | Ok (c, s, first) => (13421772800 < b)%Z /\ first = 10737418240%Z /\ forall ms, Forall (fun l => 10737418240 <= l <= b)%Z (fst (saves c s first ms))
  | Err e => e = ValueError /\ (b <= 13421772800)%Z
  end.
Proof.
  intros b. unfold auto. assert (M := C42_make (default_config (inject_Z b / gib))). set (c := default_config (inject_Z b / gib)) in *. assert (G := gib_pos).
  assert (MX : max_memory_limit_gib c * gib == inject_Z b) by (unfold c; cbn; field; discriminate).
  assert (TR : target_ratio c == 80 # 100) by reflexivity. assert (MI : min_memory_limit_gib c == 10) by reflexivity.
  destruct (make c) as [s|e] eqn:E; cbn [rmap].
  - destruct M as (M1 & M2 & M3 & ->). split; [|split; [reflexivity|]].
    + rewrite TR, MI in M3. assert (X : inject_Z 13421772800 < inject_Z b); [|rewrite <- Zlt_Qlt in X; auto]. rewrite <- MX. change (inject_Z 13421772800) with (13421772800 # 1). unfold gib in *. lra.
    + change (int_of (min_memory_limit_gib c * gib)) with 10737418240%Z. assert (R : target_ratio c <= 1) by (rewrite TR; unfold Qle; cbn; lia). assert (BY := fun s pr l => C42_bytes c _ s pr l E R). clearbody c.
      enough (GEN : forall ms s f, Forall (fun l => 10737418240 <= l <= b)%Z (fst (saves c s f ms))) by (intros ms; apply GEN). intros ms.
      induction ms as [|m ms IH]; intros s f; cbn [saves fst]; constructor; auto. assert (BB := BY s m f). cbv zeta in BB. destruct BB as (_ & _ & _ & B1 & B2). set (z := fst (update_limit_bytes c s m f)) in *. clearbody z. rewrite MX in B1. rewrite <- Zle_Qle in B1. split; auto.
      rewrite MI in B2. assert (EQ : 10 * gib == inject_Z 10737418240) by reflexivity. rewrite EQ in B2. assert (X : inject_Z 10737418240 < inject_Z (z + 1)) by (rewrite inject_Z_plus; exact B2). rewrite <- Zlt_Qlt in X. lia.
  - destruct M as [-> M]. split; auto. destruct (Z_le_gt_dec b 13421772800) as [L|L]; auto. exfalso. apply M. clear E M. clearbody c.
    assert (X : inject_Z 13421772800 < inject_Z b) by (rewrite <- Zlt_Qlt; lia). rewrite <- MX in X. change (inject_Z 13421772800) with (13421772800 # 1) in X. unfold gib in *. rewrite TR, MI. repeat split; try lra; reflexivity.
Qed.

(** The mode [auto] of the handler needs a maximum of more than 12.5 GiB; it starts at 10 GiB and all
    limits stay between 10 GiB and the given number of bytes. *)
Theorem C42_auto : forall o, match auto o with
  | Ok (c, s, first) => exists b, o = Some b /\ (13421772800 < b)%Z /\ first = 10737418240%Z /\ forall ms, Forall (fun l => 10737418240 <= l <= b)%Z (fst (saves c s first ms))
  | Err e => e = ValueError /\ forall b, o = Some b -> (b <= 13421772800)%Z
  end.
Proof.
  intros [b|]; [|split; [reflexivity|discriminate]]. assert (G := auto_given b). destruct (auto (Some b)) as [((c & s) & first)|e].
  - exists b. auto.
  - destruct G as (-> & G). split; [auto|]. intros x X. injection X as <-. auto.
Qed.
Print Assumptions C42_auto.

Example C42_auto_ex : match auto (Some 21474836480%Z) with
  | Ok (c, s, first) => fst (saves c s first [None; Some (mk_measurement 5 0 100); None]) = [10737418240; 21474836480; 16106127360]%Z
  | Err _ => False end /\ auto (Some 10737418240%Z) = Err ValueError /\ auto None = Err ValueError.
Proof. vm_compute. repeat split; reflexivity. Qed.

(** Without a profiler the limit stays where it starts. *)
Theorem C42_idle : forall b n, match auto (Some b) with Ok (c, s, first) => Forall (fun l => l = 10737418240%Z) (fst (saves c s first (repeat None n))) | Err _ => True end.
Proof.
  intros b n. unfold auto. assert (M := C42_make (default_config (inject_Z b / gib))). set (c := default_config (inject_Z b / gib)) in *.
  destruct (make c) as [s|e] eqn:E; cbn [rmap]; auto. assert (R : target_ratio c <= 1) by (unfold c, default_config, Qle; cbn; lia). assert (LIM := made_limits c s E R). destruct M as (_ & _ & _ & ->).
  assert (LO : min_memory_limit_gib c == 10) by reflexivity. change (int_of (min_memory_limit_gib c * gib)) with 10737418240%Z. clear E.
  assert (G : forall s, integral s == 0 -> prev_error s == 0 -> prev_expected_surge_gib s == 0 -> Forall (fun l => l = 10737418240%Z) (fst (saves c s 10737418240 (repeat None n)))).
  { clearbody c. induction n as [|n IH]; intros s I P S; cbn [repeat saves fst]; [constructor|].
    assert (Q0 : quiet (reading None)) by reflexivity. assert (O0 : overflow (reading None) <= 0) by (unfold overflow, Qle; cbn; lia). assert (GP : gap c (reading None) == 0) by (unfold gap; cbn; ring).
    assert (ST := step_ok c s (inject_Z 10737418240 / gib) (reading None) LIM). cbv zeta in ST. destruct ST as [ST _]. assert (AD := adj_exact c s (reading None) Q0 O0).
    assert (QU := step_quiet c s (inject_Z 10737418240 / gib) (reading None) Q0 ltac:(lra)). assert (FR := step_free c s (inject_Z 10737418240 / gib) (reading None) Q0).
    assert (GG : inject_Z 10737418240 / gib == 10) by reflexivity.
    assert (A0 : adjustment c s (reading None) == 0) by (rewrite AD, GP, I, P; ring). unfold update_limit_bytes. set (u := get_next_memory_limit c s (inject_Z 10737418240 / gib) (reading None)) in *. cbn [fst snd].
    assert (FU : fst u == 10). { unfold baseline, quiet in *. change (expected_surge_gib (reading None)) with 0 in ST. destruct ST as [[A B]|[[A B]|[A B]]]; lra. }
    assert (FI : int_of (fst u * gib) = 10737418240%Z).
    { assert (XE : fst u * gib == inject_Z 10737418240) by (rewrite FU; reflexivity). assert (L0 : 0 <= fst u * gib) by (rewrite XE; discriminate). destruct (int_of_floor _ L0) as [F1 F2].
      set (z := int_of (fst u * gib)) in *. clearbody z. rewrite XE in F1, F2. assert (F2' : inject_Z 10737418240 < inject_Z (z + 1)) by (rewrite inject_Z_plus; exact F2). rewrite <- Zle_Qle in F1. rewrite <- Zlt_Qlt in F2'. lia. }
    rewrite FI. constructor; auto. destruct QU as [QU1 QU2]. apply IH; auto; lra. }
  apply G; reflexivity.
Qed.
Print Assumptions C42_idle.

Example C42_idle_ex : match auto (Some 21474836480%Z) with Ok (c, s, first) => fst (saves c s first (repeat None 3)) = [10737418240; 10737418240; 10737418240]%Z | Err _ => False end.
Proof. vm_compute. reflexivity. Qed.

(** ** What does not hold *)

(** A target ratio above one is accepted; the lower limit can then be above the upper one,
    and the result is above the upper one. *)
Theorem C42_ratio_refuted : exists c s m limit, make c = Ok s /\ max_memory_limit_gib c < fst (get_next_memory_limit c s limit m).
Proof.
  exists (mk_config 10 2 15 (4 # 10) (5 # 100) (1 # 10)), (mk_state 0 0 0), (at_peak 50), 10. split; reflexivity.
Qed.
Print Assumptions C42_ratio_refuted.

(** A surge that is smaller than the previous one raises the limit, although a surge is
    going on. *)
Theorem C42_smaller_surge_refuted : exists c s m limit, make c = Ok s /\ 0 < expected_surge_gib m /\
  let first := get_next_memory_limit c s limit (with_surge 80 30) in fst first < fst (get_next_memory_limit c (snd first) (fst first) m).
Proof. exists ex_config, (mk_state 0 0 0), (with_surge 80 10), 60. split; [reflexivity|]. split; reflexivity. Qed.
Print Assumptions C42_smaller_surge_refuted.

(** After a surge the limit is raised even though the usage is over the memory there
    is. *)
Theorem C42_over_refuted : exists c s m limit, make c = Ok s /\ 0 < overflow m /\
  let first := get_next_memory_limit c s limit (with_surge 80 30) in fst first < fst (get_next_memory_limit c (snd first) (fst first) m).
Proof. exists ex_config, (mk_state 0 0 0), (at_peak 105), 60. split; [reflexivity|]. split; reflexivity. Qed.
Print Assumptions C42_over_refuted.

(** A negative surge is accepted and raises the limit by itself. *)
Theorem C42_negative_surge_refuted : exists c s m limit, make c = Ok s /\ gap c m <= 0 /\ limit < fst (get_next_memory_limit c s limit m).
Proof. exists ex_config, (mk_state 0 0 0), (with_surge 80 (-20)), 60. split; [reflexivity|]. split; [discriminate|reflexivity]. Qed.
Print Assumptions C42_negative_surge_refuted.
