(** Model of the preservation policies and save decision policies.
    Source: checkpoint/orbax/checkpoint/_src/checkpoint_managers/
    preservation_policy.py ("PP") and save_decision_policy.py ("SDP").
    Logging calls are omitted throughout. *)
From Coq Require Import ZArith List Bool.
From Verif Require Import Base.
Import ListNotations.
Local Open Scope Z_scope.

(** policy_checkpoint_info.py l.21-26 (PolicyCheckpointInfo).  [time] is in
    microseconds (python datetime resolution); [metrics] is the value that
    [get_metric_fn] returns for the metrics tree, [None] when the checkpoint has
    no metrics.  Metric values are totally ordered numbers (no NaN). *)
Record info : Type := mkInfo { step : Z; time : Z; metrics : option Z }.

(** PP l.121, SDP l.240: datetime.timedelta(seconds=s) in microseconds. *)
Definition seconds (s : Z) : Z := s * 1000000.

(** PP l.69-81 PreserveAll.should_preserve *)
Definition preserve_all (cs : list info) : list bool :=
  py_repeat true (Z.of_nat (length cs)).

(** PP l.84-101 LatestN.should_preserve *)
Definition latest_n (n : option Z) (cs : list info) : list bool :=
  let len := Z.of_nat (length cs) in
  match n with
  | None => py_repeat true len
  | Some n =>
      if len <=? n then py_repeat true len
      else py_repeat false (len - n) ++ py_repeat true n
  end.

(** PP l.119-127: the loop of EveryNSeconds; [last] is
    last_preserved_checkpoint.time. *)
Fixpoint every_n_seconds_loop (interval : Z) (last : Z) (cs : list info) : list bool :=
  match cs with
  | [] => []
  | c :: cs' =>
      if seconds interval <=? time c - last
      then true :: every_n_seconds_loop interval (time c) cs'
      else false :: every_n_seconds_loop interval last cs'
  end.

(** PP l.104-133 EveryNSeconds.should_preserve *)
Definition every_n_seconds (interval : Z) (cs : list info) : list bool :=
  match cs with
  | [] => []
  | c :: cs' => true :: every_n_seconds_loop interval (time c) cs'
  end.

(** PP l.156-165: the non-exact loop of EveryNSteps ([previous_step] is [None]
    only before the first element). *)
Fixpoint every_n_steps_loop (interval : Z) (prev : option Z) (cs : list info) : list bool :=
  match cs with
  | [] => []
  | c :: cs' =>
      match prev with
      | None => true :: every_n_steps_loop interval (Some (step c)) cs'
      | Some p =>
          if interval <=? step c - p
          then true :: every_n_steps_loop interval (Some (step c)) cs'
          else false :: every_n_steps_loop interval prev cs'
      end
  end.

(** PP l.168 and l.230: [i for i, val in enumerate(result) if val] *)
Definition true_indices (r : list bool) : list nat :=
  map fst (filter (fun p => snd p) (enumerate r)).

(** PP l.170-171 and l.232-233: [for i in is: result[i] = False] *)
Fixpoint clear_all (is : list nat) (r : list bool) : list bool :=
  match is with
  | [] => r
  | i :: is' => clear_all is' (set_nth i false r)
  end.

(** PP l.167-171 and l.229-233: the max_to_keep cap.  Note that python's
    [true_indices[: -0]] is the empty list. *)
Definition apply_max_to_keep (max_to_keep : option Z) (r : list bool) : list bool :=
  match max_to_keep with
  | None => r
  | Some m =>
      let ti := true_indices r in
      if m <? Z.of_nat (length ti) then clear_all (py_upto ti (- m)) r else r
  end.

(** PP l.136-179 EveryNSteps.should_preserve.  Coq's [Z.modulo] agrees with
    python's [%] (sign of the divisor). *)
Definition every_n_steps (interval : Z) (exact : bool) (max_to_keep : option Z)
    (cs : list info) : result (list bool) :=
  if interval =? 0 then Err ValueError
  else
    let r := if exact then map (fun c => step c mod interval =? 0) cs
             else every_n_steps_loop interval None cs in
    Ok (apply_max_to_keep max_to_keep r).

(** Python's [round(a / b)]: nearest integer, ties to even.  The model divides
    exactly; python divides in double precision, which gives the same integer
    for |a| < 2^52 (PP l.215). *)
Definition py_round_div (a b : Z) : Z :=
  let a' := if b <? 0 then - a else a in
  let b' := Z.abs b in
  let q := a' / b' in
  let r2 := 2 * (a' mod b') in
  if r2 <? b' then q
  else if b' <? r2 then q + 1
  else if Z.even q then q else q + 1.

(** PP l.212-213: the two dictionaries best_indices and best_diffs always have
    the same keys; modelled as one association list k -> (idx, diff). *)
Definition best_map : Type := list (Z * (nat * Z)).

(** [best_diffs[k]] / [k in best_diffs] (PP l.219). *)
Fixpoint best_get (k : Z) (m : best_map) : option (nat * Z) :=
  match m with
  | [] => None
  | (k', v) :: m' => if k =? k' then Some v else best_get k m'
  end.

(** [best_indices[k] = idx; best_diffs[k] = diff] (PP l.220-221). *)
Fixpoint best_set (k : Z) (v : nat * Z) (m : best_map) : best_map :=
  match m with
  | [] => [(k, v)]
  | (k', v') :: m' => if k =? k' then (k, v) :: m' else (k', v') :: best_set k v m'
  end.

(** PP l.214-221: one pass of the loop over enumerate(checkpoints). *)
Definition closest_step (interval : Z) (m : best_map) (ic : nat * info) : best_map :=
  let '(i, c) := ic in
  let k := py_round_div (step c) interval in
  let diff := Z.abs (step c - k * interval) in
  match best_get k m with
  | None => best_set k (i, diff) m
  | Some (_, d) => if diff <=? d then best_set k (i, diff) m else m
  end.

(** PP l.224-225 [for idx in best_indices.values(): result[idx] = True] *)
Fixpoint mark_all (is : list nat) (r : list bool) : list bool :=
  match is with
  | [] => r
  | i :: is' => mark_all is' (set_nth i true r)
  end.

(** PP l.182-241 EveryNStepsClosest.should_preserve *)
Definition every_n_steps_closest (interval : Z) (max_to_keep : option Z)
    (cs : list info) : result (list bool) :=
  if interval =? 0 then Err ValueError
  else match cs with
  | [] => Ok []
  | _ :: _ =>
      let best := fold_left (closest_step interval) (enumerate cs) [] in
      let r0 := py_repeat false (Z.of_nat (length cs)) in
      let r1 := mark_all (map (fun kv => fst (snd kv)) best) r0 in
      let r2 := set_nth (length cs - 1) true r1 in
      Ok (apply_max_to_keep max_to_keep r2)
  end.

(** PP l.244-265 CustomSteps.should_preserve (set membership). *)
Definition custom_steps (steps : list Z) (cs : list info) : list bool :=
  map (fun c => existsb (Z.eqb (step c)) steps) cs.

(** What a policy's should_preserve gives back.  [np.any(..., axis=0).tolist()]
    of an empty sequence of policies is the scalar [False], not a list (PP l.287). *)
Inductive decisions : Type :=
| DList (l : list bool)
| DScalar (b : bool).

(** A preservation policy (PreservationPolicy protocol, PP l.34-44): one decision
    per checkpoint, or an exception. *)
Definition policy : Type := list info -> result (list bool).

(** numpy: element-wise [or] of rows of equal length; rows of different length
    make [np.asarray] raise ValueError (PP l.283-287). *)
Fixpoint np_any_rows (acc : list bool) (rows : list (list bool)) : result (list bool) :=
  match rows with
  | [] => Ok acc
  | r :: rows' =>
      if Nat.eqb (length r) (length acc)
      then np_any_rows (map (fun p => fst p || snd p) (combine acc r)) rows'
      else Err ValueError
  end.

(** PP l.268-287 AnyPreservationPolicy.should_preserve *)
Definition any_preservation (ps : list policy) (cs : list info) : result decisions :=
  rbind (sequence (map (fun p => p cs) ps))
    (fun rows =>
       match rows with
       | [] => Ok (DScalar false)
       | r :: rows' => rmap DList (np_any_rows r rows')
       end).

(** Stable insertion used to model python's stable [sorted]: [x] is inserted
    after the elements whose key is <= its own (PP l.331). *)
Fixpoint insert_by {A : Type} (key : A -> Z) (x : A) (l : list A) : list A :=
  match l with
  | [] => [x]
  | y :: l' => if key x <? key y then x :: y :: l' else y :: insert_by key x l'
  end.

(** [sorted(l, key=key)]: stable ascending sort (PP l.331). *)
Definition py_sorted {A : Type} (key : A -> Z) (l : list A) : list A :=
  fold_left (fun acc x => insert_by key x acc) l [].

(** [sorted(l, key=key, reverse=b)]: python sorts descending but keeps the
    original order of equal elements (PP l.331-335). *)
Definition py_sorted_rev {A : Type} (key : A -> Z) (reverse : bool) (l : list A) : list A :=
  if reverse then py_sorted (fun x => - key x) l else py_sorted key l.

(** The key of PP l.333 for the (index, info) pairs that have metrics. *)
Definition metric_key (ic : nat * info) : Z :=
  match metrics (snd ic) with Some v => v | None => 0 end.

(** PP l.290-348 BestN.should_preserve.  [get_metric_fn] is already applied in
    [metrics]. *)
Definition best_n (reverse : bool) (n : option Z) (keep_without : bool)
    (cs : list info) : list bool :=
  let len := Z.of_nat (length cs) in
  match n with
  | None => py_repeat true len
  | Some n =>
      if len <=? n then py_repeat true len
      else if n =? 0 then py_repeat false len
      else
        let withm := filter (fun ic => match metrics (snd ic) with Some _ => true | None => false end)
                            (enumerate cs) in
        let without := filter (fun ic => match metrics (snd ic) with Some _ => false | None => true end)
                              (enumerate cs) in
        let sorted := py_sorted_rev metric_key reverse withm in
        let keep := map fst (py_from sorted (- n)) ++
                    (if keep_without then map fst without else []) in
        map (fun i => existsb (Nat.eqb i) keep) (seq 0 (length cs))
  end.

(** PP l.373-377: index of the first checkpoint inside the window. *)
Fixpoint first_within (now duration : Z) (i : nat) (cs : list info) : option nat :=
  match cs with
  | [] => None
  | c :: cs' => if now - time c <=? duration then Some i else first_within now duration (S i) cs'
  end.

(** PP l.351-389 LatestDuration.should_preserve; [now] is the clock reading. *)
Definition latest_duration (duration now : Z) (cs : list info) : list bool :=
  match cs with
  | [] => []
  | _ :: _ =>
      match first_within now duration 0 cs with
      | None => py_repeat false (Z.of_nat (length cs))
      | Some i => py_repeat false (Z.of_nat i) ++
                  py_repeat true (Z.of_nat (length cs) - Z.of_nat i)
      end
  end.

(** SDP l.32-56 DecisionContext (the multiprocessing options are represented by
    the explicit [primary] argument of [continuous_all_hosts]). *)
Record dctx : Type := mkCtx { saving_in_progress : bool; preemption : bool }.

(** SDP l.120-135 FixedIntervalPolicy.should_save; [x % 0] raises. *)
Definition fixed_interval (interval : Z) (s : info) (prev : list info) (c : dctx) : result bool :=
  if interval =? 0 then Err ZeroDivisionError else Ok (step s mod interval =? 0).

(** SDP l.164-179 SpecificStepsPolicy.should_save *)
Definition specific_steps (steps : list Z) (s : info) (prev : list info) (c : dctx) : result bool :=
  Ok (existsb (Z.eqb (step s)) steps).

(** [previous_steps[-1]] (SDP l.240) *)
Definition last_info (prev : list info) : option info :=
  match prev with [] => None | p :: ps => Some (last ps p) end.

(** SDP l.235-242 _get_should_save_result *)
Definition continuous_local (min_secs : option Z) (s : info) (prev : list info) (c : dctx) : bool :=
  if saving_in_progress c then false
  else match last_info prev, min_secs with
       | None, _ => true
       | Some _, None => true
       | Some p, Some m => seconds m <=? time s - time p
       end.

(** SDP l.228-272 ContinuousCheckpointingPolicy.should_save, run by all hosts.
    [views i] is what host [i] would pass (its previous steps and context); the
    primary host writes its decision under a key that is fresh for this
    operation, every host then reads that key.  A primary index outside the
    hosts leaves the key unset and every host times out. *)
Definition continuous_all_hosts (min_secs : option Z) (s : info) (primary : nat)
    (views : list (list info * dctx)) : list (result bool) :=
  let value := match nth_error views primary with
               | Some (prev, c) => Some (continuous_local min_secs s prev c)
               | None => None
               end in
  map (fun _ => match value with Some b => Ok b | None => Err TimeoutError end) views.

(** Single-host instance of the same policy (SDP l.228-272). *)
Definition continuous (min_secs : option Z) (s : info) (prev : list info) (c : dctx) : result bool :=
  match continuous_all_hosts min_secs s 0 [(prev, c)] with
  | r :: _ => r
  | [] => Err OtherError
  end.

(** SDP l.302-316 PreemptionCheckpointingPolicy.should_save *)
Definition preemption_policy (s : info) (prev : list info) (c : dctx) : result bool :=
  Ok (preemption c).

(** SDP l.339-353 InitialSavePolicy.should_save *)
Definition initial_save (s : info) (prev : list info) (c : dctx) : result bool :=
  Ok (match prev with [] => true | _ :: _ => false end).

(** The SaveDecisionPolicy protocol (SDP l.60-71). *)
Definition save_policy : Type := info -> list info -> dctx -> result bool.

(** SDP l.383-399 AnySavePolicy.should_save: [any] stops at the first True. *)
Fixpoint any_save (ps : list save_policy) (s : info) (prev : list info) (c : dctx) : result bool :=
  match ps with
  | [] => Ok false
  | p :: ps' => rbind (p s prev c) (fun b => if b then Ok true else any_save ps' s prev c)
  end.
