(** Independent vocabulary for C14-C20, C46 and C47. *)
From Coq Require Import ZArith List Bool Permutation.
From Verif Require Import Base Policy_Model Manager_Model.
Import ListNotations.
Local Open Scope Z_scope.

(** The steps whose committed directory is in the root. *)
Definition committed_steps (d : fs) : list Z := map fst (committed d).

(** Step [s] is committed with contents [c], all files present. *)
Definition intact (d : fs) (s : Z) (c : ckpt) : Prop := In (s, c) (committed d) /\ c_whole c = true.

(** Any directory a program can start from: at most one directory per step,
    non-negative steps, and no step that has both a committed and a temporary
    directory. *)
Definition wf_fs (d : fs) : Prop :=
  NoDup (committed_steps d) /\
  (forall s, In s (committed_steps d) -> 0 <= s) /\
  (forall s, In s (tmps d) -> ~ In s (committed_steps d)).

Definition nonneg_call (c : call) : Prop :=
  match c with CSave a => 0 <= sv_step a | _ => True end.

Definition forced (c : call) : Prop :=
  match c with CSave a => sv_force a = true | _ => False end.

(** The call returned normally, or the deleter mode cannot fail. *)
Definition undisturbed (cfg : config) (c : call) (x : fs * mgr) : Prop :=
  o_mode cfg = Permanent \/ exists v, out_res (run_call cfg c (fst x) (snd x)) = Ok v.

(** All states of programs that start a manager on [d0], call it in any way,
    and are killed and restarted at any operation.  [unforced]: no forced saves. *)
Inductive reachable (cfg : config) (unforced : bool) (d0 : fs) : fs * mgr -> Prop :=
| R_init : reachable cfg unforced d0 (d0, init cfg d0)
| R_call : forall c x, reachable cfg unforced d0 x -> nonneg_call c -> undisturbed cfg c x ->
    (unforced = true -> ~ forced c) ->
    reachable cfg unforced d0 (after_call cfg c x)
| R_crash : forall c k cleanup x, reachable cfg unforced d0 x -> nonneg_call c ->
    (unforced = true -> ~ forced c) ->
    reachable cfg unforced d0 (after_crash cfg c k cleanup x).

(** The preservation policy, asked about the list [cs], says that step [t] must go. *)
Definition condemned (cfg : config) (cs : list info) (t : Z) : Prop :=
  exists flags i c, o_preserve cfg cs = Ok (DList flags) /\
    nth_error cs i = Some c /\ step c = t /\ nth_error flags i = Some false.

(** The list the policy is asked about when [a] is saved. *)
Definition with_new (a : save_args) (m : mgr) : list info :=
  cache m ++ [mkInfo (sv_step a) (sv_now a) (sv_metrics a)].

(** Directory contents after the first [k] operations of a call. *)
Definition crash_point (cfg : config) (c : call) (x : fs * mgr) (k : nat) : fs :=
  exec (firstn k (out_ops (run_call cfg c (fst x) (snd x)))) (fst x).

(** Number of steps in [l] that are greater than [s]. *)
Definition newer (l : list Z) (s : Z) : Z := Z.of_nat (length (filter (fun t => s <? t) l)).

(** The executions of a training job: a manager is started, asked to save
    (without force), restore and reload, and killed and restarted at any
    operation; steps are removed by the preservation policy only. *)
Inductive training (cfg : config) (d0 : fs) : fs * mgr -> Prop :=
| T_init : training cfg d0 (d0, init cfg d0)
| T_call : forall c x, training cfg d0 x -> nonneg_call c -> undisturbed cfg c x ->
    ~ forced c -> (forall s, c <> CDelete s) -> training cfg d0 (after_call cfg c x)
| T_crash : forall c k cleanup x, training cfg d0 x -> nonneg_call c ->
    ~ forced c -> (forall s, c <> CDelete s) -> training cfg d0 (after_crash cfg c k cleanup x).

(** The checkpoint with the greatest step is committed with all its files. *)
Definition newest_whole (d : fs) : Prop :=
  exists t c, intact d t c /\ forall t', In t' (committed_steps d) -> t' <= t.
