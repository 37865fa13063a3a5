(** Property theorems C01-C08. *)
From Coq Require Import ZArith List Bool.
From Verif Require Import Base Policy_Model Policy_Spec Policy_Proofs.
Import ListNotations.
Local Open Scope Z_scope.

Definition ck (s : Z) : info := mkInfo s (s * 1000000) None.
Definition ckm (s m : Z) : info := mkInfo s (s * 1000000) (Some m).

(** ** C01 *)
Theorem C01_latest_n : forall n cs, 0 <= n ->
  one_per cs (latest_n (Some n) cs) /\
  forall i, (i < length cs)%nat ->
    (kept (latest_n (Some n) cs) i <-> count_after (fun _ => true) cs i < n).
Proof. exact latest_n_spec. Qed.
Print Assumptions C01_latest_n.

Example C01_latest_n_ex :
  latest_n (Some 2) [ck 1; ck 2; ck 3; ck 4] = [false; false; true; true] /\
  latest_n (Some 0) [ck 1; ck 2] = [false; false] /\
  latest_n (Some 5) [ck 1; ck 2] = [true; true].
Proof. vm_compute. auto. Qed.

Theorem C01_latest_n_none : forall cs,
  one_per cs (latest_n None cs) /\
  forall i, (i < length cs)%nat -> kept (latest_n None cs) i.
Proof. exact latest_n_none. Qed.
Print Assumptions C01_latest_n_none.

(** ** C02.  The full statement (all caps including 0) is false: with
    [max_to_keep = 0] nothing is capped. *)
Theorem C02_every_n_steps_exact_partial : forall n m cs, n <> 0 ->
  match m with None => True | Some k => 1 <= k end ->
  exists flags, every_n_steps n true m cs = Ok flags /\
    one_per cs flags /\
    forall i c, nth_error cs i = Some c ->
      (kept flags i <->
       (n | step c) /\
       match m with
       | None => True
       | Some k => count_after (fun c => is_multiple n (step c)) cs i < k
       end).
Proof. exact every_n_steps_exact_spec. Qed.
Print Assumptions C02_every_n_steps_exact_partial.

Example C02_every_n_steps_exact_ex :
  every_n_steps 2 true (Some 2) (map ck [0; 1; 2; 3; 4; 5; 6])
    = Ok [false; false; false; false; true; false; true] /\
  every_n_steps (-3) true None (map ck [3; 4; 6]) = Ok [true; false; true].
Proof. vm_compute. auto. Qed.

Theorem C02_zero_interval_rejected : forall exact m cs,
  every_n_steps 0 exact m cs = Err ValueError.
Proof. reflexivity. Qed.
Print Assumptions C02_zero_interval_rejected.

Theorem C02_cap_zero_refuted : exists n cs flags i c,
  n <> 0 /\ every_n_steps n true (Some 0) cs = Ok flags /\ nth_error cs i = Some c /\
  kept flags i /\ ~ count_after (fun c => is_multiple n (step c)) cs i < 0.
Proof.
  exists 2, [ck 2; ck 4], [true; true], 0%nat, (ck 2).
  repeat split; try discriminate; try reflexivity.
Qed.
Print Assumptions C02_cap_zero_refuted.

(** What [max_to_keep = 0] does in general: exactly what no cap does. *)
Theorem C02_cap_zero_keeps_all : forall n exact cs,
  every_n_steps n exact (Some 0) cs = every_n_steps n exact None cs /\
  every_n_steps_closest n (Some 0) cs = every_n_steps_closest n None cs.
Proof. exact cap_zero_keeps_all. Qed.
Print Assumptions C02_cap_zero_keeps_all.

(** ** C03 *)
Theorem C03_every_n_seconds : forall n cs,
  greedy_spacing (n * 1000000) (map time cs) (every_n_seconds n cs).
Proof. exact every_n_seconds_spec. Qed.
Print Assumptions C03_every_n_seconds.

Example C03_every_n_seconds_ex :
  every_n_seconds 10 (map ck [0; 4; 9; 10; 15; 21; 40])
    = [true; false; false; true; false; true; true].
Proof. vm_compute. auto. Qed.

(** Here too the cap [max_to_keep = 0] is excluded (see C02_cap_zero_refuted). *)
Theorem C03_every_n_steps_spacing : forall n m cs, n <> 0 ->
  match m with None => True | Some k => 1 <= k end ->
  exists all flags,
    every_n_steps n false m cs = Ok flags /\
    greedy_spacing n (map step cs) all /\
    match m with
    | None => flags = all
    | Some k => newest_only k all flags
    end.
Proof. exact every_n_steps_spacing_spec. Qed.
Print Assumptions C03_every_n_steps_spacing.

Example C03_every_n_steps_spacing_ex :
  every_n_steps 10 false None (map ck [1; 4; 11; 15; 20; 30]) = Ok [true; false; true; false; false; true] /\
  every_n_steps 10 false (Some 1) (map ck [1; 4; 11; 15; 20; 30]) = Ok [false; false; false; false; false; true].
Proof. vm_compute. auto. Qed.

(** ** C04 *)
Theorem C04_best_n : forall reverse n kw cs, 0 < n < Z.of_nat (length cs) ->
  forall i c, nth_error cs i = Some c ->
    (kept (best_n reverse (Some n) kw cs) i <->
     match metrics c with
     | None => kw = true
     | Some _ => how_many_preferred reverse cs i < n
     end).
Proof. exact best_n_kept. Qed.
Print Assumptions C04_best_n.

Theorem C04_best_n_one_per : forall reverse n kw cs, 0 < n < Z.of_nat (length cs) ->
  one_per cs (best_n reverse (Some n) kw cs).
Proof. exact best_n_length. Qed.
Print Assumptions C04_best_n_one_per.

(** Exactly min(n, number of checkpoints with metrics) are kept among those
    that carry metrics. *)
Theorem C04_best_n_count : forall reverse n kw cs, 0 < n < Z.of_nat (length cs) ->
  exists L,
    NoDup L /\
    Z.of_nat (length L) =
      Z.min n (Z.of_nat (length (filter (fun c => match metrics c with Some _ => true | None => false end) cs))) /\
    forall i, In i L <-> (kept (best_n reverse (Some n) kw cs) i /\
                          exists c, nth_error cs i = Some c /\ has_metrics c).
Proof. exact best_n_count. Qed.
Print Assumptions C04_best_n_count.

Example C04_best_n_ex :
  best_n false (Some 2) true [ckm 1 5; ckm 2 7; ck 3; ckm 4 5; ckm 5 1] = [false; true; true; true; false] /\
  best_n true (Some 2) false [ckm 1 5; ckm 2 7; ck 3; ckm 4 5; ckm 5 1] = [false; false; false; true; true].
Proof. vm_compute. auto. Qed.

Theorem C04_best_n_all : forall reverse n kw cs,
  match n with None => True | Some k => Z.of_nat (length cs) <= k end ->
  one_per cs (best_n reverse n kw cs) /\
  forall i, (i < length cs)%nat -> kept (best_n reverse n kw cs) i.
Proof. exact best_n_all. Qed.
Print Assumptions C04_best_n_all.

Theorem C04_best_n_zero : forall reverse kw cs,
  one_per cs (best_n reverse (Some 0) kw cs) /\
  forall i, ~ kept (best_n reverse (Some 0) kw cs) i.
Proof. exact best_n_zero. Qed.
Print Assumptions C04_best_n_zero.

(** ** C05 *)
Theorem C05_any_preservation_union : forall ps cs,
  ps <> [] ->
  (forall p, In p ps -> exists f, p cs = Ok f /\ one_per cs f) ->
  exists flags, any_preservation ps cs = Ok (DList flags) /\ one_per cs flags /\
    forall i, kept flags i <-> exists p f, In p ps /\ p cs = Ok f /\ kept f i.
Proof. exact any_preservation_spec. Qed.
Print Assumptions C05_any_preservation_union.

(** Adding, reordering or duplicating policies never loses a checkpoint. *)
Theorem C05_any_preservation_monotone : forall ps qs cs f g,
  ps <> [] -> incl ps qs ->
  (forall p, In p qs -> exists f, p cs = Ok f /\ one_per cs f) ->
  any_preservation ps cs = Ok (DList f) ->
  any_preservation qs cs = Ok (DList g) ->
  forall i, kept f i -> kept g i.
Proof. exact any_preservation_monotone. Qed.
Print Assumptions C05_any_preservation_monotone.

Example C05_any_preservation_ex :
  any_preservation [(fun cs => Ok (latest_n (Some 1) cs)); every_n_steps 4 true None]
      (map ck [2; 4; 6; 8; 9])
    = Ok (DList [false; true; false; true; true]).
Proof. vm_compute. auto. Qed.

(** An empty union is not "preserve nothing": it is not a list at all. *)
Theorem C05_empty_union_refuted : exists cs, forall flags,
  any_preservation [] cs <> Ok (DList flags).
Proof. exists [ck 1]. intros flags. discriminate. Qed.
Print Assumptions C05_empty_union_refuted.

(** ** C06 *)
Theorem C06_latest_duration : forall d now cs,
  one_per cs (latest_duration d now cs) /\
  forall i, (i < length cs)%nat ->
    (kept (latest_duration d now cs) i <->
     exists j c, (j <= i)%nat /\ nth_error cs j = Some c /\ now - time c <= d).
Proof. exact latest_duration_spec. Qed.
Print Assumptions C06_latest_duration.

Theorem C06_latest_duration_chronological : forall d now cs,
  (forall i j ci cj, (i <= j)%nat -> nth_error cs i = Some ci -> nth_error cs j = Some cj ->
     time ci <= time cj) ->
  forall i c, nth_error cs i = Some c ->
    (kept (latest_duration d now cs) i <-> now - time c <= d).
Proof. exact latest_duration_chrono. Qed.
Print Assumptions C06_latest_duration_chronological.

Example C06_latest_duration_ex :
  latest_duration 3000000 10000000 (map ck [5; 6; 7; 8]) = [false; false; true; true] /\
  latest_duration 1000000 90000000 (map ck [5; 6]) = [false; false].
Proof. vm_compute. auto. Qed.

(** ** C07 (caps of at least one; cap 0 behaves as in C02_cap_zero_refuted) *)
Theorem C07_every_n_steps_closest_partial : forall n m cs, n <> 0 ->
  match m with None => True | Some k => 1 <= k end ->
  exists all flags,
    every_n_steps_closest n m cs = Ok flags /\
    one_per cs all /\
    (forall i, kept all i <-> ((S i = length cs)%nat \/ represents n cs i)) /\
    match m with None => flags = all | Some k => newest_only k all flags end.
Proof. exact closest_spec. Qed.
Print Assumptions C07_every_n_steps_closest_partial.

Theorem C07_cap_bounds : forall m all flags, 0 <= m -> newest_only m all flags ->
  Z.of_nat (length (filter (fun b => b) flags)) <= m.
Proof. exact newest_only_count. Qed.
Print Assumptions C07_cap_bounds.

Example C07_every_n_steps_closest_ex :
  every_n_steps_closest 10 None (map ck [4; 9; 11; 18; 21; 26])
    = Ok [true; false; true; false; true; true] /\
  every_n_steps_closest 10 (Some 2) (map ck [4; 9; 11; 18; 21; 26])
    = Ok [false; false; false; false; true; true].
Proof. vm_compute. auto. Qed.

Theorem C07_cap_zero_refuted : exists n cs flags,
  0 < n /\ every_n_steps_closest n (Some 0) cs = Ok flags /\
  0 < Z.of_nat (length (filter (fun b => b) flags)).
Proof. exists 10, [ck 10; ck 20], [true; true]. repeat split; reflexivity. Qed.
Print Assumptions C07_cap_zero_refuted.

(** ** C08 *)
Theorem C08_fixed_interval : forall n s prev c, n <> 0 ->
  exists b, fixed_interval n s prev c = Ok b /\ (b = true <-> (n | step s)).
Proof. exact fixed_interval_spec. Qed.
Print Assumptions C08_fixed_interval.

Theorem C08_specific_steps : forall l s prev c,
  exists b, specific_steps l s prev c = Ok b /\ (b = true <-> In (step s) l).
Proof. exact specific_steps_spec. Qed.
Print Assumptions C08_specific_steps.

(** All hosts reach the primary host's decision, whatever their own view is. *)
Theorem C08_continuous : forall ms s primary views prev c,
  nth_error views primary = Some (prev, c) ->
  exists b, (forall r, In r (continuous_all_hosts ms s primary views) -> r = Ok b) /\
    length (continuous_all_hosts ms s primary views) = length views /\
    (b = true <->
     (saving_in_progress c = false /\
      (prev = [] \/ ms = None \/
       exists l p m, prev = l ++ [p] /\ ms = Some m /\ time s - time p >= m * 1000000))).
Proof. exact continuous_all_hosts_spec. Qed.
Print Assumptions C08_continuous.

Example C08_continuous_ex :
  continuous_all_hosts (Some 30) (ck 100) 0 [([ck 10; ck 70], mkCtx false false); ([], mkCtx true false)]
    = [Ok true; Ok true] /\
  continuous_all_hosts (Some 31) (ck 100) 0 [([ck 10; ck 70], mkCtx false false); ([], mkCtx true false)]
    = [Ok false; Ok false].
Proof. vm_compute. auto. Qed.

Theorem C08_preemption_initial : forall s prev c,
  (exists b, preemption_policy s prev c = Ok b /\ (b = true <-> preemption c = true)) /\
  (exists b, initial_save s prev c = Ok b /\ (b = true <-> prev = [])).
Proof.
  intros s prev c. split.
  - exists (preemption c). split; [reflexivity|tauto].
  - eexists; split; [reflexivity|]. destruct prev; split; congruence.
Qed.
Print Assumptions C08_preemption_initial.

Theorem C08_any_save : forall ps s prev c,
  (forall p, In p ps -> exists b, p s prev c = Ok b) ->
  exists b, any_save ps s prev c = Ok b /\
    (b = true <-> exists p, In p ps /\ p s prev c = Ok true).
Proof. exact any_save_spec. Qed.
Print Assumptions C08_any_save.

Example C08_any_save_ex :
  any_save [fixed_interval 5; specific_steps [7]; initial_save] (ck 7) [ck 3] (mkCtx false false) = Ok true /\
  any_save [fixed_interval 5; specific_steps [7]; initial_save] (ck 8) [ck 3] (mkCtx false false) = Ok false.
Proof. vm_compute. auto. Qed.
