(** What is expected of the tiering service, stated on the rows of its tables. *)
From Coq Require Import List Bool Arith ZArith.
From Verif Require Import Base Backend_Model Tiering_Model.
Import ListNotations.

(** ** Executions *)

(** A sequence of steps each of which satisfies [P]. *)
Inductive steps_where (P : conf -> label -> Prop) (g : config) : conf -> conf -> Prop :=
| SW_refl c : steps_where P g c c
| SW_step c1 c2 l c3 : steps_where P g c1 c2 -> P c2 l -> step g c2 l = Some c3 -> steps_where P g c1 c3.

Definition reachable_where (P : conf -> label -> Prop) (g : config) (c : conf) : Prop :=
  exists bs t, steps_where P g (initial bs t) c.

Definition any_step (c : conf) (l : label) : Prop := True.
Definition reachable : config -> conf -> Prop := reachable_where any_step.

(** ** Rows *)

Definition job_at (c : conf) (i : nat) (j : job) : Prop := nth_error (jobs (cdb c)) i = Some j.
Definition tier_at (c : conf) (i : nat) (t : tier) : Prop := nth_error (tiers (cdb c)) i = Some t.
Definition asset_at (c : conf) (i : nat) (a : asset) : Prop := nth_error (assets (cdb c)) i = Some a.

(** The worker of a job has a lease at time [t]. *)
Definition holds_lease (t : Z) (j : job) : Prop :=
  j_status j = Processing /\ exists e, j_exp j = Some e /\ (t <= e)%Z.

(** A job that may be taken at time [t]: waiting, or left by its worker. *)
Definition may_take (t : Z) (j : job) : Prop :=
  j_status j = Queued \/ (j_status j = Processing /\ exists e, j_exp j = Some e /\ (e < t)%Z).

Definition ended (j : job) : Prop := j_status j = Completed \/ j_status j = Failed.

(** The target of a job is on backend [b]. *)
Definition targets (c : conf) (b : nat) (j : job) : Prop :=
  exists t x, j_target j = Some t /\ tier_at c t x /\ t_backend x = b.

(** The job is of the kind a worker asks for: on a backend, or without a target. *)
Definition asked (c : conf) (b : option nat) (j : job) : Prop :=
  match b with None => j_target j = None | Some b' => targets c b' j end.

(** Worker [w] takes a step that is about job [i]. *)
Definition acts (c : conf) (l : label) (w i : nat) : Prop :=
  match l with
  | Poll w' i' _ _ => w' = w /\ i' = i
  | Delete w' i' _ => w' = w /\ i' = i
  | Advance k _ => exists src req, nth_error (pend c) k = Some (PProcess w i src req)
  | _ => False
  end.

(** A step that commits a claim of job [i] by worker [w] whose clock was read as [now]. *)
Definition claims (c : conf) (l : label) (w i : nat) (now : Z) : Prop :=
  exists k ok b src req, l = Advance k ok /\ nth_error (pend c) k = Some (PClaim w b i now src req).

(** Another claim holds the row of job [i]. *)
Definition row_locked (c : conf) (i : nat) : Prop :=
  exists w b now src req, In (PClaim w b i now src req) (pend c).

(** ** Conditions under which leases exclude each other *)

(** A worker writes to a job it polls only while its lease lasts. *)
Definition timely (c : conf) (l : label) : Prop :=
  match l with
  | Poll w i now r => forall j, job_at c i j -> j_status j = Processing -> holds_lease (clk c) j
  | _ => True
  end.

(** No claim starts while another one is under way. *)
Definition alone (c : conf) (l : label) : Prop :=
  match l with
  | Acquire _ _ _ => forall p, In p (pend c) -> match p with PLock _ _ _ | PClaim _ _ _ _ _ _ => False | _ => True end
  | _ => True
  end.

Definition timely_alone (c : conf) (l : label) : Prop := timely c l /\ alone c l.

(** No more than [m] of the jobs whose target is on [b] have a lease at time [t]. *)
Definition at_most (m : nat) (c : conf) (b : nat) (t : Z) : Prop :=
  forall is, NoDup is -> (forall i, In i is -> exists j, job_at c i j /\ holds_lease t j /\ targets c b j) -> List.length is <= m.

(** No two jobs of one asset have a lease at time [t]. *)
Definition exclusive (c : conf) (t : Z) : Prop :=
  forall i i' j j', job_at c i j -> job_at c i' j' -> holds_lease t j -> holds_lease t j' -> j_asset j = j_asset j' -> i = i'.

(** Whoever looks for work sees a lease on job [i]. *)
Definition renewed (i : nat) (c : conf) (l : label) : Prop :=
  match l with
  | Acquire _ _ now => forall j, job_at c i j -> holds_lease now j
  | Advance k _ => match nth_error (pend c) k with Some (PLock _ _ now) => forall j, job_at c i j -> holds_lease now j | _ => True end
  | _ => True
  end.

(** ** Assets and tier paths *)

Definition is_live (a : asset) : Prop := a_state a = ActiveWrite \/ a_state a = Stored.
Definition is_active (t : tier) : Prop := t_state t = Pending \/ t_state t = InProgress \/ t_state t = Ready.

Definition one_live_asset (c : conf) : Prop :=
  forall i i' a a', asset_at c i a -> asset_at c i' a' -> is_live a -> is_live a' -> a_path a = a_path a' -> i = i'.

Definition one_active_tier (c : conf) : Prop :=
  forall i i' t t', tier_at c i t -> tier_at c i' t' -> is_active t -> is_active t' ->
    t_asset t = t_asset t' -> t_backend t = t_backend t' -> i = i'.

Definition one_delete (c : conf) : Prop :=
  forall i i' j j', job_at c i j -> job_at c i' j' -> j_type j = DeleteAll -> j_type j' = DeleteAll ->
    ~ ended j -> ~ ended j' -> j_asset j = j_asset j' -> i = i'.

(** Job [i] may be claimed by a worker that asks for [b] with its clock at [t]: it may be taken, no job
    of its asset has a lease, and no other claim holds its row. *)
Definition claimable (c : conf) (b : option nat) (t : Z) (i : nat) (j : job) : Prop :=
  job_at c i j /\ may_take t j /\ (forall i' j', job_at c i' j' -> holds_lease t j' -> j_asset j' <> j_asset j) /\ asked c b j /\ ~ row_locked c i.

(** [s] is where the data of job [j] can be copied from. *)
Definition source_of (c : conf) (j : job) (s : nat) : Prop :=
  exists t x, j_target j = Some t /\ s <> t /\ tier_at c s x /\ t_asset x = j_asset j /\ t_state x = Ready.
