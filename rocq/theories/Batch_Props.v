(** C29: batches within a memory budget per worker. *)
From Coq Require Import ZArith List Bool Lia.
From Verif Require Import Base Batch_Model Batch_Spec Batch_Proofs.
Import ListNotations.
Local Open Scope Z_scope.

(** Four devices on two workers (devices 0, 1 on worker 7; 2, 3 on worker 8).
    [wide k]: one shard of k bytes on each device, two replicas. *)
Definition ex_workers : table := [(0, 7); (1, 7); (2, 8); (3, 8)].
Definition wide (k : Z) : array := mk_array k [(0, 0); (1, 0); (2, 1); (3, 1)].
Definition even (k : Z) : array := mk_array k [(0, 0); (1, 1); (2, 0); (3, 1)].
Definition on (k d : Z) : array := mk_array k [(d, 0)].

(** Whatever the sizes, the budget and the placement: no batch is empty and the
    batches are the arrays, in order, each once. *)
Theorem C29_cover : forall params budget rid dispatcher workers, params <> [] -> placed workers params ->
  exists bs, batches params budget rid dispatcher workers = Ok bs /\ List.concat bs = params /\ Forall (fun c => c <> []) bs.
Proof. exact batches_run. Qed.
Print Assumptions C29_cover.

Example C29_cover_ex : batches [even 30; even 20; even 60; even 200; even 1; even 1] 100 (Some 0) false ex_workers
  = Ok [[even 30; even 20]; [even 60]; [even 200]; [even 1; even 1]] /\
  batches [even 30; even 20; even 60; even 1] 100 (Some 0) true ex_workers = Ok [[even 30]; [even 20]; [even 60]; [even 1]].
Proof. split; vm_compute; reflexivity. Qed.

(** Every batch of more than one array stays below the budget on every worker,
    counting the shards of the replica that is saved, or of all replicas with a
    dispatcher.  Missing: in the first batch this only holds on the workers that
    the very first array uses. *)
Theorem C29_budget_partial : forall params budget rid dispatcher workers first rest c w, placed workers params ->
  batches params budget rid dispatcher workers = Ok (first :: rest) -> (1 < List.length c)%nat -> In w (map snd workers) ->
  let r := if dispatcher : bool then None else rid in
  In c rest \/ (c = first /\ forall a, hd_error params = Some a -> uses r workers a w) ->
  total r workers w c < budget.
Proof. exact batches_budget. Qed.
Print Assumptions C29_budget_partial.

Example C29_budget_ex : total (Some 0) ex_workers 7 [even 30; even 20] = 50 /\ total None ex_workers 7 [even 30; even 20] = 100 /\
  batches [even 30; even 19; even 49; even 1] 100 None true ex_workers = Ok [[even 30; even 19]; [even 49]; [even 1]].
Proof. repeat split; vm_compute; reflexivity. Qed.

(** The first batch is charged only on the workers that hold shards of the first
    array (the usage starts as the estimate for that array instead of from zero
    on all workers, and increments look only at the workers already there).  With
    a small first array on worker 7 and two arrays of 60 bytes on worker 8, all
    three go out in one batch: 120 bytes against a budget of 100. *)
Theorem C29_untracked_workers_refuted : exists params budget workers first rest w,
  placed workers params /\ batches params budget (Some 0) false workers = Ok (first :: rest) /\ (1 < List.length first)%nat /\
  In w (map snd workers) /\ Forall (fun a => need (Some 0) workers w a < budget) params /\
  budget < total (Some 0) workers w first.
Proof.
  exists [on 1 0; on 60 2; on 60 3], 100, ex_workers, [on 1 0; on 60 2; on 60 3], [], 8. repeat split.
  - intros a s [<-|[<-|[<-|[]]]] [<-|[]]; discriminate.
  - simpl; lia.
  - simpl; auto.
  - repeat constructor.
Qed.
Print Assumptions C29_untracked_workers_refuted.

(** A batch is closed only when the next array would reach the budget on some
    worker. *)
Theorem C29_maximal : forall params budget rid dispatcher workers bs pre b a c post, placed workers params ->
  batches params budget rid dispatcher workers = Ok bs -> bs = pre ++ b :: (a :: c) :: post ->
  exists w, budget <= total (if dispatcher : bool then None else rid) workers w (b ++ [a]).
Proof. exact batches_maximal. Qed.
Print Assumptions C29_maximal.

Example C29_maximal_ex : batches [even 30; even 69; even 1] 100 (Some 0) false ex_workers = Ok [[even 30; even 69]; [even 1]] /\
  total (Some 0) ex_workers 8 [even 30; even 69; even 1] = 100.
Proof. split; vm_compute; reflexivity. Qed.
