(** C57: jobs of the tiering service are claimed and owned one at a time.
    C58: the rows of assets, tier paths and jobs agree with each other. *)
From Coq Require Import List Bool Arith ZArith Lia Ascii String.
From Verif Require Import Base Backend_Model Tiering_Model Tiering_Spec Tiering_Proofs.
Import ListNotations.

(** A zone with a backend of each level and another zone; leases of 60, one active job per backend. *)
Definition za : str := list_ascii_of_string "z-a".
Definition zb : str := list_ascii_of_string "y-b".
Definition pa : str := list_ascii_of_string "/a".
Definition pb : str := list_ascii_of_string "/b".
Definition three : list backend :=
  [mkBackend 0 (Some za) None None Lustre pa; mkBackend 1 (Some za) None None Gcs pa; mkBackend 0 (Some zb) None None Lustre pa].
Definition g1 : config := mkConfig 100 60 1.

Definition written (a : nat) : list label := [Finalize a; Advance 0 true; Advance 0 true].
Definition taken (w : nat) (b : option nat) (t : Z) : list label := [Acquire w b t; Advance 0 true; Advance 0 true; Advance 0 true].

(** What is seen of a state in the examples *)
Definition seen (o : option conf) : option (list asset_state * list tier_state * list (request * job_status * option nat)) :=
  option_map (fun c => (map a_state (assets (cdb c)), map t_state (tiers (cdb c)), map (fun j => (j_type j, j_status j, j_worker j)) (jobs (cdb c)))) o.

(** ** C57 *)

(** A worker is given the oldest of the jobs it can claim, with a source if there is one; it leaves with
    nothing only if it cannot claim any. *)
Theorem C57_select : forall g c k ok w b now c', reachable g c -> nth_error (pend c) k = Some (PLock w b now) -> step g c (Advance k ok) = Some c' ->
  cdb c' = cdb c /\
  ((exists i j src, In (PClaim w b i now src (j_request j)) (pend c') /\ claimable c b now i j /\
      (forall i' j', claimable c b now i' j' -> (j_created j <= j_created j')%Z) /\
      match src with Some s => source_of c j s | None => forall s, ~ source_of c j s end) \/
   (forall i j, ~ claimable c b now i j)).
Proof.
  intros g c k ok w b now c' R P ST. cbn [step] in ST. rewrite P in ST. cbn [advance] in ST. destruct (rows_reach _ _ R) as (_ & RO).
  destruct (select_job (cdb c) b now (job_locked c)) as [[i j]|] eqn:E.
  - injection ST as <-. cbn [cdb pend]. split; auto. left. exists i, j, (find_source (cdb c) j). split; [apply in_or_app; right; left; reflexivity|].
    pose proof (select_spec _ _ _ _ _ E) as (J & M & NB & A & NL & _). split; [split; [auto|split; [auto|split; [auto|split; auto]]]|]. split.
    + intros i' j' (J' & M' & NB' & A' & NL'). eapply select_oldest; eauto.
    + destruct (find_source (cdb c) j) as [s|] eqn:S'; [apply source_ready; auto|]. intros s (t & x & T & N & X & XA & XS). apply N. eapply source_none; eauto.
  - injection ST as <-. cbn [cdb]. split; auto. right. intros i j (J & M & NB & A & NL). destruct (select_some _ _ _ _ _ J M NB A NL) as (i' & j' & X). congruence.
Qed.
Print Assumptions C57_select.

Example C57_select_ex : exists c, reachable g1 c /\ exists i j, claimable c (Some 1) 0 i j /\ j_type j = Copy /\
  pend c = [PLock 1 (Some 1) 0%Z] /\ option_map pend (step g1 c (Advance 0 true)) = Some [PClaim 1 (Some 1) 0 0%Z (Some 0) false].
Proof.
  destruct (run g1 (initial three 0) ([Reserve pa 0] ++ written 0 ++ [Acquire 1 (Some 1) 0%Z])) as [c|] eqn:E; [|vm_compute in E; discriminate].
  exists c. split; [eapply run_reachable; exact E|]. vm_compute in E. injection E as <-. exists 0. eexists.
  split; [|split; [|split; vm_compute; reflexivity]]; [split; [reflexivity|]|reflexivity]. split; [left; reflexivity|]. split; [|split].
  - intros i' j' J (S' & _). destruct i' as [|[|]]; try discriminate. injection J as <-. discriminate.
  - exists 1. eexists. split; [reflexivity|]. split; reflexivity.
  - intros (w & b & now & src & req & [X|[]]). discriminate.
Qed.

(** The claim gives the job and its target to the worker, for the time of the lease; nothing else
    changes, and nothing at all if the claim fails. *)
Theorem C57_claim : forall g c k ok w b i now src req c', reachable g c -> nth_error (pend c) k = Some (PClaim w b i now src req) -> step g c (Advance k ok) = Some c' ->
  cdb c' = cdb c \/
  ((exists j j', job_at c i j /\ may_take now j /\ job_at c' i j' /\ j_status j' = Processing /\ j_worker j' = Some w /\ j_exp j' = Some (now + lease g)%Z /\
     j_type j' = j_type j /\ j_target j' = j_target j /\ j_asset j' = j_asset j /\
     (forall t x, j_target j = Some t -> tier_at c' t x -> t_state x = InProgress) /\ In (PProcess w i src (j_request j)) (pend c') /\
     (forall s x, j_target j <> Some s -> (tier_at c' s x <-> tier_at c s x))) /\
   (forall i' j', i' <> i -> (job_at c' i' j' <-> job_at c i' j')) /\ assets (cdb c') = assets (cdb c)).
Proof.
  intros g c k ok w b i now src req c' R P ST. destruct (rows_reach _ _ R) as (OK & RO). cbn [step] in ST. rewrite P in ST. cbn [advance] in ST.
  destruct (ok_claim _ _ OK _ _ _ _ _ _ (nth_error_In _ _ P)) as (_ & j & J & M & _ & RQ).
  destruct (claim g (cdb c) w i now) as [d|] eqn:C; injection ST as <-; [right|left; reflexivity]. unfold job_at, tier_at in *. cbn [cdb pend]. unfold claim in C. rewrite J in C.
  apply commit_ok in C. destruct C as (-> & _). cbn [jobs tiers assets]. split; [|split; auto].
  - exists j. eexists. split; [exact J|]. split; [exact M|]. split; [apply upd_here; exact J|]. cbn. do 6 (split; [reflexivity|]).
    destruct (r_type _ RO _ _ J) as [(T & t0 & TG)|(T & TG)]; rewrite T, TG.
    + split; [|split; [apply in_or_app; right; left; subst req; reflexivity|]].
      * intros t x X Y. injection X as <-. rewrite nth_upd, Nat.eqb_refl in Y. destruct (nth_error (tiers (cdb c)) t0); [|discriminate]. cbn in Y. injection Y as <-. reflexivity.
      * intros s x N. rewrite nth_upd. destruct (Nat.eqb_spec t0 s); [congruence|tauto].
    + split; [discriminate|split; [apply in_or_app; right; left; subst req; reflexivity|tauto]].
  - intros i' j' N. rewrite nth_upd. destruct (Nat.eqb_spec i i'); [congruence|tauto].
Qed.
Print Assumptions C57_claim.

Example C57_claim_ex : exists c, reachable g1 c /\ pend c = [PClaim 1 (Some 1) 0 0%Z (Some 0) false] /\
  seen (Some c) = Some ([Stored], [Ready; Pending], [(Copy, Queued, None)]) /\
  seen (step g1 c (Advance 0 true)) = Some ([Stored], [Ready; InProgress], [(Copy, Processing, Some 1)]).
Proof.
  destruct (run g1 (initial three 0) ([Reserve pa 0] ++ written 0 ++ [Acquire 1 (Some 1) 0%Z; Advance 0 true])) as [c|] eqn:E; [|vm_compute in E; discriminate].
  exists c. split; [eapply run_reachable; exact E|]. vm_compute in E. injection E as <-. split; [|split]; vm_compute; reflexivity.
Qed.

(** A job that has ended is never touched again. *)
Theorem C57_final : forall g c c' i j, reachable g c -> job_at c i j -> ended j -> steps_where any_step g c c' -> job_at c' i j.
Proof.
  intros g c c' i j R J E S'. induction S' as [|c1 c2 l c3 S1 IH _ ST]; auto. eapply ended_stays; [|apply IH; eauto|exact E|exact ST].
  destruct R as (bs & t & R). exists bs, t. eapply steps_app; eauto.
Qed.
Print Assumptions C57_final.

(** A copy from start to end *)
Example C57_final_ex : exists c, reachable g1 c /\ (exists j, job_at c 0 j /\ ended j) /\
  seen (Some c) = Some ([Stored], [Ready; Ready], [(Copy, Completed, None)]).
Proof.
  destruct (run g1 (initial three 0) ([Reserve pa 0] ++ written 0 ++ taken 1 (Some 1) 0%Z ++ [Tick 7; Poll 1 0 7%Z Success])) as [c|] eqn:E; [|vm_compute in E; discriminate].
  exists c. split; [eapply run_reachable; exact E|]. vm_compute in E. injection E as <-. split; [|vm_compute; reflexivity]. eexists. split; [reflexivity|]. left. reflexivity.
Qed.

(** A job in work stays with its worker until that worker ends it, or until another one claims it with a
    clock past the end of the lease. *)
Theorem C57_owner : forall g c l c' i j w, reachable g c -> job_at c i j -> j_status j = Processing -> j_worker j = Some w -> step g c l = Some c' ->
  (exists j', job_at c' i j' /\ j_status j' = Processing /\ j_worker j' = Some w) \/
  (exists j', job_at c' i j' /\ ended j' /\ acts c l w i) \/
  (exists j' w' now e, job_at c' i j' /\ claims c l w' i now /\ j_worker j' = Some w' /\ j_exp j = Some e /\ (e < now <= clk c)%Z).
Proof. exact owner_keeps. Qed.
Print Assumptions C57_owner.

(** A second worker takes over when the lease has passed. *)
Example C57_owner_ex : exists c, reachable g1 c /\ pend c = [PClaim 2 (Some 1) 0 61%Z (Some 0) true] /\
  seen (Some c) = Some ([Stored], [Ready; InProgress], [(Copy, Processing, Some 1)]) /\
  seen (step g1 c (Advance 0 true)) = Some ([Stored], [Ready; InProgress], [(Copy, Processing, Some 2)]).
Proof.
  destruct (run g1 (initial three 0) ([Reserve pa 0] ++ written 0 ++ taken 1 (Some 1) 0%Z ++ [Tick 61; Acquire 2 (Some 1) 61%Z; Advance 0 true])) as [c|] eqn:E; [|vm_compute in E; discriminate].
  exists c. split; [eapply run_reachable; exact E|]. vm_compute in E. injection E as <-. split; [|split]; vm_compute; reflexivity.
Qed.

(** As long as no worker writes to a job whose lease has passed, no more than the permitted number of
    the jobs of a backend have a lease. *)
Theorem C57_capacity : forall g c b, reachable_where timely g c -> at_most (max_active g) c b (clk c).
Proof. intros g c b R. apply (capacity_reach g c R). Qed.
Print Assumptions C57_capacity.

(** Two assets to be copied to one backend, two workers: only one of them gets a job, until the first
    one has ended. *)
Definition two_assets : list label := [Reserve pa 0; Reserve pb 0] ++ written 0 ++ written 1 ++ taken 1 (Some 1) 0%Z.
Example C57_capacity_ex :
  (exists c, reachable_where timely g1 c /\ (exists j, job_at c 0 j /\ holds_lease (clk c) j /\ targets c 1 j) /\
    seen (Some c) = Some ([Stored; Stored], [Ready; Ready; InProgress; Pending], [(Copy, Processing, Some 1); (Copy, Queued, None)]) /\
    step g1 c (Acquire 2 (Some 1) (clk c)) = Some c) /\
  seen (run g1 (initial three 0) (two_assets ++ [Poll 1 0 0%Z Success] ++ taken 2 (Some 1) 0%Z)) =
    Some ([Stored; Stored], [Ready; Ready; Ready; InProgress], [(Copy, Completed, None); (Copy, Processing, Some 2)]).
Proof.
  split; [|vm_compute; reflexivity].
  destruct (run g1 (initial three 0) (two_assets ++ [Tick 50; Poll 1 0 50%Z InFlight; Tick 50])) as [c|] eqn:E; [|vm_compute in E; discriminate].
  exists c. split; [exists three, 0%Z; eapply (run_steps timely timely_b); [exact timely_b_ok| |exact E]; vm_compute; reflexivity|].
  vm_compute in E. injection E as <-. split; [|split; vm_compute; reflexivity]. eexists. split; [reflexivity|]. split.
  - split; [reflexivity|]. eexists. split; [reflexivity|]. cbn. lia.
  - exists 2. eexists. split; [reflexivity|]. split; reflexivity.
Qed.

(** The number of active jobs of a backend can exceed [max_active_jobs_per_backend]: a worker that comes
    late extends the lease of its job although it has passed (only the owner is looked at, JW l.258-262),
    after another worker has counted the active jobs and before that one claims its own. *)
Theorem C57_capacity_refuted : exists g c b, reachable g c /\ ~ at_most (max_active g) c b (clk c).
Proof.
  destruct (run g1 (initial three 0) (two_assets ++ [Tick 61; Acquire 2 (Some 1) 61%Z; Poll 1 0 61%Z InFlight; Advance 0 true; Advance 0 true])) as [c|] eqn:E; [|vm_compute in E; discriminate].
  exists g1, c, 1. split; [eapply run_reachable; exact E|]. vm_compute in E. injection E as <-. intros H.
  specialize (H [0; 1]). assert (X : 2 <= 1); [|lia]. apply H.
  - repeat constructor; cbn; intuition lia.
  - intros i [<-|[<-|[]]]; (eexists; split; [reflexivity|split; [split; [reflexivity|eexists; split; [reflexivity|cbn; lia]]|]]).
    + exists 2. eexists. split; [reflexivity|]. split; reflexivity.
    + exists 3. eexists. split; [reflexivity|]. split; reflexivity.
Qed.
Print Assumptions C57_capacity_refuted.

(** If moreover no claim starts while another one is under way, no two jobs of an asset have a lease. *)
Theorem C57_exclusive : forall g c, reachable_where timely_alone g c -> exclusive c (clk c).
Proof. intros g c R. apply (single_reach g c R). Qed.
Print Assumptions C57_exclusive.

(** A deletion waits for the copy of the same asset. *)
Definition copy_and_delete : list label := [Reserve pa 0] ++ written 0 ++ taken 1 (Some 1) 0%Z ++ [QueueDelete 0].
Example C57_exclusive_ex :
  (exists c, reachable_where timely_alone g1 c /\ (exists j, job_at c 0 j /\ holds_lease (clk c) j /\ j_asset j = 0) /\
    seen (Some c) = Some ([Stored], [Ready; InProgress], [(Copy, Processing, Some 1); (DeleteAll, Queued, None)]) /\
    step g1 c (Acquire 2 None (clk c)) = Some c) /\
  seen (run g1 (initial three 0) (copy_and_delete ++ [Poll 1 0 0%Z Failure] ++ taken 2 None 0%Z ++ [Delete 2 1 true])) =
    Some ([Deleted], [TDeleted; TDeleted], [(Copy, Failed, None); (DeleteAll, Completed, None)]).
Proof.
  split; [|vm_compute; reflexivity].
  destruct (run g1 (initial three 0) copy_and_delete) as [c|] eqn:E; [|vm_compute in E; discriminate].
  exists c. split.
  - exists three, 0%Z. eapply (run_steps timely_alone (fun c l => timely_b c l && alone_b c l)); [| |exact E].
    + intros c0 l H. apply andb_true_iff in H. destruct H. split; [apply timely_b_ok; auto|apply alone_b_ok; auto].
    + vm_compute. reflexivity.
  - vm_compute in E. injection E as <-. split; [|split; vm_compute; reflexivity]. eexists. split; [reflexivity|]. split; [|reflexivity].
    split; [reflexivity|]. eexists. split; [reflexivity|]. cbn. lia.
Qed.

(** Two jobs of one asset can be processed at the same time: each of two claims, of the copy and of the
    deletion, sees the other job still queued (the backend's row is locked only for jobs with a backend,
    DL l.301-306, and never the asset's). *)
Theorem C57_exclusive_claims_refuted : exists g c, reachable_where timely g c /\ ~ exclusive c (clk c).
Proof.
  destruct (run g1 (initial three 0) ([Reserve pa 0] ++ written 0 ++ [QueueDelete 0; Acquire 1 (Some 1) 0%Z; Acquire 2 None 0%Z; Advance 0 true; Advance 0 true; Advance 0 true; Advance 0 true])) as [c|] eqn:E; [|vm_compute in E; discriminate].
  exists g1, c. split; [exists three, 0%Z; eapply (run_steps timely timely_b); [exact timely_b_ok| |exact E]; vm_compute; reflexivity|].
  vm_compute in E. injection E as <-. intros H. assert (X : 0 = 1); [|discriminate].
  eapply H; [reflexivity|reflexivity| | |reflexivity]; (split; [reflexivity|]; eexists; split; [reflexivity|cbn; lia]).
Qed.
Print Assumptions C57_exclusive_claims_refuted.

(** The same happens when a worker extends its lease late, while the claim of another one is under way. *)
Theorem C57_exclusive_late_refuted : exists g c, reachable_where alone g c /\ ~ exclusive c (clk c).
Proof.
  destruct (run g1 (initial three 0) (copy_and_delete ++ [Tick 61; Acquire 2 None 61%Z; Advance 0 true; Poll 1 0 61%Z InFlight; Advance 0 true])) as [c|] eqn:E; [|vm_compute in E; discriminate].
  exists g1, c. split; [exists three, 0%Z; eapply (run_steps alone alone_b); [exact alone_b_ok| |exact E]; vm_compute; reflexivity|].
  vm_compute in E. injection E as <-. intros H. assert (X : 0 = 1); [|discriminate].
  eapply H; [reflexivity|reflexivity| | |reflexivity]; (split; [reflexivity|]; eexists; split; [reflexivity|cbn; lia]).
Qed.
Print Assumptions C57_exclusive_late_refuted.

(** A deletion can stay in work forever.  If marking its paths fails with an exception, the job is not
    put into the queue of deletions (JW l.356-357, l.138-139), but the polling loop of the same worker
    goes on to extend its lease (JW l.159-175): as long as it does so, no one ever ends the job. *)
Theorem C57_stuck_refuted : exists g c i, reachable g c /\ (exists j, job_at c i j /\ j_type j = DeleteAll /\ j_worker j = Some 1) /\
  forall c', steps_where (renewed i) g c c' -> exists j', job_at c' i j' /\ ~ ended j'.
Proof.
  destruct (run g1 (initial three 0) [Reserve pa 0; QueueDelete 0; Acquire 1 None 0%Z; Advance 0 true; Advance 0 true; Advance 0 false]) as [c|] eqn:E; [|vm_compute in E; discriminate].
  exists g1, c, 0. split; [eapply run_reachable; exact E|]. vm_compute in E. injection E as <-. split; [eexists; split; [reflexivity|split; reflexivity]|].
  intros c' S'. eapply (abandoned_forever _ _ _ 0 1) in S'.
  - destruct S' as ((j' & J' & _ & P & _) & _). exists j'. split; auto. unfold ended. rewrite P. intros [X|X]; discriminate.
  - split; [eexists; split; [reflexivity|split; [reflexivity|split; reflexivity]]|]. split; [intros p []|intros w []].
Qed.
Print Assumptions C57_stuck_refuted.

(** Such a continuation: a thousand times the worker polls its job, and another worker looks for work. *)
Example C57_stuck_ex : exists c c',
  run g1 (initial three 0) [Reserve pa 0; QueueDelete 0; Acquire 1 None 0%Z; Advance 0 true; Advance 0 true; Advance 0 false] = Some c /\
  steps_where (renewed 0) g1 c c' /\ clk c' = 30000%Z /\ seen (Some c') = Some ([ActiveWrite], [Pending], [(DeleteAll, Processing, Some 1)]).
Proof.
  destruct (run g1 (initial three 0) [Reserve pa 0; QueueDelete 0; Acquire 1 None 0%Z; Advance 0 true; Advance 0 true; Advance 0 false]) as [c|] eqn:E; [|vm_compute in E; discriminate].
  destruct (run g1 c (List.concat (map (fun n => [Tick 30; Poll 1 0 (Z.of_nat n * 30) InFlight; Acquire 2 None (Z.of_nat n * 30)]) (seq 1 1000)))) as [c'|] eqn:E'.
  2:{ exfalso. vm_compute in E. injection E as <-. vm_compute in E'. discriminate. }
  exists c, c'. split; auto. split; [eapply (run_steps (renewed 0)); [exact (renewed_b_ok 0)| |exact E']|];
    vm_compute in E; injection E as <-; [|vm_compute in E'; injection E' as <-; split]; vm_compute; reflexivity.
Qed.

(** ** C58 *)

(** One live asset per path, one active tier path per asset and backend, one pending deletion per asset *)
Theorem C58_unique : forall g c, reachable g c -> one_live_asset c /\ one_active_tier c /\ one_delete c.
Proof. intros g c R. split; [eapply one_live_reach; eauto|]. split; [eapply one_active_reach; eauto|eapply one_delete_reach; eauto]. Qed.
Print Assumptions C58_unique.

(** A second reservation finds the first asset, a second prefetch nothing to do, a second deletion is
    refused; after the deletion the path is free again. *)
Example C58_unique_ex :
  seen (run g1 (initial three 0) ([Reserve pa 0; Reserve pa 2; Reserve pb 0] ++ written 0 ++
         [Prefetch 0 2; Prefetch 0 2; Advance 0 true; Advance 0 true; Prefetch 0 2; QueueDelete 1; QueueDelete 1])) =
    Some ([Stored; ActiveWrite], [Ready; Pending; Pending; Pending], [(Copy, Queued, None); (Copy, Queued, None); (DeleteAll, Queued, None)]) /\
  seen (run g1 (initial three 0) ([Reserve pa 0; QueueDelete 0] ++ taken 1 None 0%Z ++ [Delete 1 0 true; Reserve pa 0])) =
    Some ([Deleted; ActiveWrite], [TDeleted; Pending], [(DeleteAll, Completed, None)]).
Proof. split; vm_compute; reflexivity. Qed.

(** A tier path has a time of readiness exactly if it is ready.  A job is a copy with a target of its
    own asset, which it shares with no other job and which is not ready before the job ends, or the
    deletion of an asset.  Copies wait until the asset is written. *)
Theorem C58_rows : forall g c, reachable g c ->
  (forall i t, tier_at c i t -> (t_ready t <> None <-> t_state t = Ready)) /\
  (forall i j, job_at c i j -> match j_type j with Copy => exists t x, j_target j = Some t /\ tier_at c t x /\ t_asset x = j_asset j /\ (~ ended j -> t_state x <> Ready)
                               | DeleteAll => j_target j = None | DeleteInstance => False end) /\
  (forall i i' j j' t, job_at c i j -> job_at c i' j' -> j_target j = Some t -> j_target j' = Some t -> i = i') /\
  (forall i t, tier_at c i t -> exists a, asset_at c (t_asset t) a /\ (a_state a = ActiveWrite -> forall n j, job_at c n j -> j_target j <> Some i)).
Proof.
  intros g c R. destruct (rows_reach _ _ R) as (OK & RO). split; [exact (r_ready _ RO)|]. split; [|split; [exact (r_inj _ RO)|]].
  - intros i j J. destruct (r_type _ RO _ _ J) as [(T & t & TG)|(T & TG)]; rewrite T; auto. destruct (r_same _ RO _ _ _ J TG) as (x & X & XA). exists t, x.
    split; auto. split; auto. split; auto. intros NE S'. apply (r_ready _ RO _ _ X) in S'. apply S'. eapply (r_open _ RO); eauto.
  - intros i t T. destruct (nth_error (assets (cdb c)) (t_asset t)) as [a|] eqn:A.
    + exists a. split; auto. intros W. eapply (r_write _ RO); eauto.
    + apply nth_error_None in A. pose proof (r_asset _ RO _ _ T). lia.
Qed.
Print Assumptions C58_rows.

Example C58_rows_ex : exists c, reachable g1 c /\ seen (Some c) = Some ([Stored], [Ready; Ready; TFailed], [(Copy, Completed, None); (Copy, Failed, None)]) /\
  map (fun t => (t_backend t, t_ready t, t_exp t)) (tiers (cdb c)) = [(0, Some 0%Z, None); (1, Some 3%Z, None); (2, None, Some 120%Z)].
Proof.
  destruct (run g1 (initial three 0) ([Reserve pa 0] ++ written 0 ++ [Prefetch 0 2; Advance 0 true] ++ taken 1 (Some 1) 0%Z ++ [Tick 3; Poll 1 0 3%Z Success] ++ taken 2 (Some 2) 3%Z ++ [Poll 2 1 3%Z Failure])) as [c|] eqn:E; [|vm_compute in E; discriminate].
  exists c. split; [eapply run_reachable; exact E|]. vm_compute in E. injection E as <-. split; vm_compute; reflexivity.
Qed.

(** The end of a job: a copy has completed exactly if its target is ready, and failed with it otherwise;
    after a completed deletion the asset and all of its tier paths are deleted. *)
Theorem C58_end : forall g c l c' i j j', reachable g c -> step g c l = Some c' -> job_at c i j -> ~ ended j -> job_at c' i j' -> ended j' ->
  match j_type j with
  | Copy => exists t x, j_target j = Some t /\ tier_at c' t x /\ ((j_status j' = Completed /\ t_state x = Ready) \/ (j_status j' = Failed /\ t_state x = TFailed))
  | _ => j_status j' = Completed ->
      (forall y, asset_at c' (j_asset j) y -> a_state y = Deleted) /\ (forall t y, tier_at c' t y -> t_asset y = j_asset j -> t_state y = TDeleted)
  end.
Proof. exact job_ends. Qed.
Print Assumptions C58_end.

Example C58_end_ex : exists c, reachable g1 c /\ seen (Some c) = Some ([Deleted; Stored], [DeleteInProcess; Ready; DeleteInProcess; InProgress], [(Copy, Failed, None); (Copy, Processing, Some 1); (DeleteAll, Processing, Some 2)]) /\
  seen (step g1 c (Poll 1 1 1%Z Success)) = Some ([Deleted; Stored], [DeleteInProcess; Ready; DeleteInProcess; Ready], [(Copy, Failed, None); (Copy, Completed, None); (DeleteAll, Processing, Some 2)]) /\
  seen (step g1 c (Poll 1 1 1%Z BadStatus)) = Some ([Deleted; Stored], [DeleteInProcess; Ready; DeleteInProcess; TFailed], [(Copy, Failed, None); (Copy, Failed, None); (DeleteAll, Processing, Some 2)]) /\
  seen (step g1 c (Delete 2 2 true)) = Some ([Deleted; Stored], [TDeleted; Ready; TDeleted; InProgress], [(Copy, Failed, None); (Copy, Processing, Some 1); (DeleteAll, Completed, None)]).
Proof.
  destruct (run g1 (initial three 0) (two_assets ++ [Poll 1 0 0%Z Failure; QueueDelete 0; Tick 1] ++ taken 1 (Some 1) 1%Z ++ taken 2 None 1%Z)) as [c|] eqn:E; [|vm_compute in E; discriminate].
  exists c. split; [eapply run_reachable; exact E|]. vm_compute in E. injection E as <-. split; [|split; [|split]]; vm_compute; reflexivity.
Qed.

(** The deletion of an asset touches no other asset. *)
Theorem C58_deletion : forall g c w i c', reachable g c -> step g c (Delete w i true) = Some c' ->
  forall j j', job_at c i j -> ~ ended j -> job_at c' i j' -> ended j' -> (exists y, asset_at c (j_asset j) y /\ exists s t, tier_at c s t /\ t_asset t = j_asset j) ->
  j_status j' = Completed /\ (exists y, asset_at c' (j_asset j) y /\ a_state y = Deleted) /\
  (forall s t, tier_at c' s t -> t_asset t = j_asset j -> t_state t = TDeleted /\ t_exp t = None) /\
  (forall s t, tier_at c' s t -> t_asset t <> j_asset j -> tier_at c s t) /\
  (forall a y, asset_at c' a y -> a <> j_asset j -> asset_at c a y).
Proof. exact deleted_all. Qed.
Print Assumptions C58_deletion.

Example C58_deletion_ex : exists c, reachable g1 c /\ queue c = [(2, 2)] /\
  seen (step g1 c (Delete 2 2 true)) = Some ([Deleted; Stored], [TDeleted; Ready; TDeleted; InProgress], [(Copy, Failed, None); (Copy, Processing, Some 1); (DeleteAll, Completed, None)]).
Proof.
  destruct (run g1 (initial three 0) (two_assets ++ [Poll 1 0 0%Z Failure; QueueDelete 0; Tick 1] ++ taken 1 (Some 1) 1%Z ++ taken 2 None 1%Z)) as [c|] eqn:E; [|vm_compute in E; discriminate].
  exists c. split; [eapply run_reachable; exact E|]. vm_compute in E. injection E as <-. split; vm_compute; reflexivity.
Qed.

(** A deleted asset stays deleted, unless a call that finalizes it is under way. *)
Theorem C58_deleted : forall g c l c' a x, step g c l = Some c' -> asset_at c a x -> a_state x = Deleted ->
  (exists x', asset_at c' a x' /\ a_state x' = Deleted) \/ exists k ok ts, l = Advance k ok /\ nth_error (pend c) k = Some (PFinalize a ts).
Proof. exact deleted_stays. Qed.
Print Assumptions C58_deleted.

Definition deleted_asset : list label := [Reserve pa 0; QueueDelete 0] ++ taken 1 None 0%Z ++ [Delete 1 0 true].
Example C58_deleted_ex : seen (run g1 (initial three 0) (deleted_asset ++ [KeepAlive 0; Finalize 0; Prefetch 0 1; QueueDelete 0; Reserve pa 1])) =
  Some ([Deleted; ActiveWrite], [TDeleted; Pending], [(DeleteAll, Completed, None)]).
Proof. vm_compute. reflexivity. Qed.

(** A keep-alive changes nothing but the time a tier path expires, and never to an earlier one; a path
    without such a time does not get one. *)
Theorem C58_keep_alive : forall g c t c' x, step g c (PrefetchKeepAlive t) = Some c' -> tier_at c t x ->
  assets (cdb c') = assets (cdb c) /\ jobs (cdb c') = jobs (cdb c) /\ (forall t' y, t' <> t -> (tier_at c' t' y <-> tier_at c t' y)) /\
  exists x', tier_at c' t x' /\ t_asset x' = t_asset x /\ t_backend x' = t_backend x /\ t_state x' = t_state x /\ t_ready x' = t_ready x /\
  match t_exp x with
  | None => t_exp x' = None
  | Some e => exists e', t_exp x' = Some e' /\ (e <= e')%Z /\ (e' = e \/ e' = (clk c + (keep_alive g + keep_alive g / 5))%Z)
  end.
Proof.
  intros g c t c' x ST X. destruct (keep_alive_longer _ _ _ _ _ ST X) as (A & B & D & x' & X' & F1 & F2 & F3 & F4 & F5). split; auto. split; auto. split; auto.
  exists x'. do 5 (split; auto). destruct (t_exp x) as [e|]; auto. destruct F5 as [F5|(F5 & L)].
  - exists e. split; [exact F5|]. split; [lia|auto].
  - eexists. split; [exact F5|]. split; [lia|]. right. reflexivity.
Qed.
Print Assumptions C58_keep_alive.

Example C58_keep_alive_ex : let ls := [Reserve pa 0] ++ written 0 ++ [Prefetch 0 2; Advance 0 true; Tick 10] in
  option_map (fun c => map t_exp (tiers (cdb c))) (run g1 (initial three 0) ls) = Some [None; None; Some 120%Z] /\
  option_map (fun c => map t_exp (tiers (cdb c))) (run g1 (initial three 0) (ls ++ [PrefetchKeepAlive 2; PrefetchKeepAlive 1])) = Some [None; None; Some 130%Z].
Proof. split; vm_compute; reflexivity. Qed.

(** The tier path of a deleted asset can become READY: a copy whose lease has passed is still completed
    by its worker (JW l.258-262 look only at the owner) after the asset was deleted. *)
Theorem C58_ready_refuted : exists g c a t, reachable g c /\ asset_at c (t_asset t) a /\ a_state a = Deleted /\ (exists i, tier_at c i t) /\ t_state t = Ready.
Proof.
  destruct (run g1 (initial three 0) (copy_and_delete ++ [Tick 61] ++ taken 2 None 61%Z ++ [Delete 2 1 true; Poll 1 0 61%Z Success])) as [c|] eqn:E; [|vm_compute in E; discriminate].
  exists g1, c. eexists. eexists. split; [eapply run_reachable; exact E|]. vm_compute in E. injection E as <-. split; [|split; [|split; [exists 1; reflexivity|reflexivity]]]; reflexivity.
Qed.
Print Assumptions C58_ready_refuted.

(** A deleted asset can become STORED again, with its tier paths READY though their data is gone: the
    state checked by Finalize is read without a lock and the deletion may take place before it is
    written (AS l.400-427). *)
Theorem C58_finalize_refuted : exists g c l c' a x x', reachable g c /\ step g c l = Some c' /\ asset_at c a x /\ a_state x = Deleted /\ asset_at c' a x' /\ a_state x' = Stored /\
  exists t, tier_at c' 0 t /\ t_asset t = a /\ t_state t = Ready.
Proof.
  destruct (run g1 (initial three 0) [Reserve pa 0; Finalize 0; QueueDelete 0; Acquire 1 None 0%Z; Advance 1 true; Advance 1 true; Advance 1 true; Delete 1 0 true]) as [c|] eqn:E; [|vm_compute in E; discriminate].
  destruct (step g1 c (Advance 0 true)) as [c'|] eqn:E'; [|exfalso; vm_compute in E; injection E as <-; vm_compute in E'; discriminate].
  exists g1, c, (Advance 0 true), c', 0. eexists. eexists. split; [eapply run_reachable; exact E|]. split; [exact E'|]. vm_compute in E. injection E as <-. vm_compute in E'. injection E' as <-.
  split; [reflexivity|]. split; [reflexivity|]. split; [reflexivity|]. split; [reflexivity|]. eexists. split; [reflexivity|]. split; reflexivity.
Qed.
Print Assumptions C58_finalize_refuted.

(** A copy can be queued for an asset whose deletion is pending: Prefetch looks for pending deletions
    and adds its job later, without a lock on the asset (AS l.645-692). *)
Theorem C58_prefetch_refuted : exists g c l c', reachable g c /\ step g c l = Some c' /\
  (exists j, job_at c 1 j /\ j_type j = DeleteAll /\ j_asset j = 0 /\ ~ ended j) /\
  List.length (jobs (cdb c)) = 2 /\ exists j, job_at c' 2 j /\ j_type j = Copy /\ j_asset j = 0.
Proof.
  destruct (run g1 (initial three 0) ([Reserve pa 0] ++ written 0 ++ [Prefetch 0 2; QueueDelete 0])) as [c|] eqn:E; [|vm_compute in E; discriminate].
  destruct (step g1 c (Advance 0 true)) as [c'|] eqn:E'; [|exfalso; vm_compute in E; injection E as <-; vm_compute in E'; discriminate].
  exists g1, c, (Advance 0 true), c'. split; [eapply run_reachable; exact E|]. split; [exact E'|]. vm_compute in E. injection E as <-. vm_compute in E'. injection E' as <-.
  split; [eexists; split; [reflexivity|]; split; [reflexivity|]; split; [reflexivity|]; intros [X|X]; discriminate|]. split; [reflexivity|].
  eexists. split; [reflexivity|]. split; reflexivity.
Qed.
Print Assumptions C58_prefetch_refuted.

(** A deletion that fails cannot be repeated: the asset is marked DELETED before its data is removed
    (AS l.843-867), the paths stay DELETE_IN_PROCESS, and another request for the deletion is answered
    with an error (SV l.510-523, AS l.809-813). *)
Theorem C58_failed_deletion_refuted : exists g c, reachable g c /\ (exists j, job_at c 0 j /\ j_type j = DeleteAll /\ j_status j = Failed /\ j_asset j = 0) /\
  (exists t, tier_at c 0 t /\ t_asset t = 0 /\ t_state t = DeleteInProcess) /\
  (forall now, exists e, queue_delete (cdb c) 0 now = Err e) /\ pend c = [] /\ queue c = [].
Proof.
  destruct (run g1 (initial three 0) ([Reserve pa 0; QueueDelete 0] ++ taken 1 None 0%Z ++ [Delete 1 0 false])) as [c|] eqn:E; [|vm_compute in E; discriminate].
  exists g1, c. split; [eapply run_reachable; exact E|]. vm_compute in E. injection E as <-.
  split; [eexists; split; [reflexivity|]; split; [reflexivity|]; split; reflexivity|]. split; [eexists; split; [reflexivity|]; split; reflexivity|].
  split; [intros now; eexists; reflexivity|]. split; reflexivity.
Qed.
Print Assumptions C58_failed_deletion_refuted.

(** Finalize can fail although the asset has become STORED: without a matching backend of level 1 the
    copy cannot be started, the client gets an error and a second call is refused (SV l.269-287,
    AS l.503-564). *)
Theorem C58_finalize_error_refuted : exists g c, reachable g c /\ pend c = [PTrigger 0 [0]] /\ (exists a, asset_at c 0 a /\ a_state a = Stored) /\
  (forall now, exists e, trigger_copy (cdb c) 0 [0] now = Err e) /\ exists e, finalize_read (cdb c) 0 = Err e.
Proof.
  destruct (run g1 (initial three 0) [Reserve pa 2; Finalize 0; Advance 0 true]) as [c|] eqn:E; [|vm_compute in E; discriminate].
  exists g1, c. split; [eapply run_reachable; exact E|]. vm_compute in E. injection E as <-. split; [reflexivity|]. split; [eexists; split; reflexivity|].
  split; [intros now; eexists; reflexivity|eexists; reflexivity].
Qed.
Print Assumptions C58_finalize_error_refuted.
