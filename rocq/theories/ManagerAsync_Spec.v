(** Vocabulary for the asynchronous manager (C14-C17). *)
From Coq Require Import ZArith List Bool.
From Verif Require Import Base Policy_Model Manager_Model Manager_Spec ManagerAsync_Model.
Import ListNotations.
Local Open Scope Z_scope.

(** No save is in flight: no finalize thread alive, no commit thread to join. *)
Definition settled (x : st) : Prop :=
  (forall s rm pc, a_fin x <> FRun s rm pc) /\ a_thread x = false.

(** Nothing is going on at all. *)
Definition quiet (x : st) : Prop := settled x /\ a_user x = UIdle.

(** The discipline "call wait_until_finished before anything but save": restore,
    check_for_errors, reload and delete start only when no save is in flight. *)
Definition careful (l : label) (x : st) : Prop :=
  match l with
  | LRestore _ | LCheck | LReload | LDelete _ => settled x
  | LSave a => 0 <= sv_step a
  | _ => True
  end.

(** Nothing fails: neither the blocking nor the background part of a save, nor
    the preservation policy, nor the removal of old steps. *)
Definition smooth (l : label) (x x' : st) (r : option (result value)) : Prop :=
  match l with
  | LWriteFail | LCommitFail _ | LCommitThenFail _ => False
  | LUser => forall a ops e, a_user x = UWrite a ops -> r <> Some (Err e)
  | LFin => forall s rm e, a_fin x' <> FRun s rm (PFinally (Some e))
  | _ => True
  end.

Definition unforced_label (l : label) : Prop := match l with LSave a => sv_force a = false | _ => True end.

(** States of careful programs, with crashes and restarts at any point (a
    restarted manager may first remove the temporary directories).  [ok]: only
    smooth steps. [u]: no forced saves. [del]: delete may be called. *)
Inductive areach (cfg : config) (ok u del : bool) (d0 : fs) : st -> Prop :=
| A_init : areach cfg ok u del d0 (ainit cfg d0)
| A_step : forall l x x' r, areach cfg ok u del d0 x -> astep cfg l x = Some (x', r) ->
    careful l x -> (ok = true -> smooth l x x' r) -> (u = true -> unforced_label l) ->
    (del = false -> forall s, l <> LDelete s) ->
    areach cfg ok u del d0 x'
| A_crash : forall x (cleanup : bool), areach cfg ok u del d0 x ->
    areach cfg ok u del d0 (ainit cfg (if cleanup then mkFs (committed (a_fs x)) [] (trash (a_fs x)) else a_fs x)).

(** Any schedule without crash, nothing forbidden: final state and results. *)
Fixpoint play (cfg : config) (ls : list label) (x : st) : option (st * list (result value)) :=
  match ls with
  | [] => Some (x, [])
  | l :: ls' =>
      match astep cfg l x with
      | None => None
      | Some (y, r) =>
          match play cfg ls' y with
          | None => None
          | Some (z, rs) => Some (z, match r with Some r => r :: rs | None => rs end)
          end
      end
  end.

(** The same policies with a decision policy that always says yes: whether a save
    happens is part of the schedule. *)
Definition always_save (cfg : config) : config :=
  mkCfg (o_read_only cfg) (o_track_best cfg) (o_reverse cfg) (o_prevent_write_metrics cfg)
    (o_check_progress cfg) (o_lightweight cfg) (o_mode cfg) (fun _ _ _ => Ok true) (o_preserve cfg).

(** Steps of the threads only, no new call, nothing fails. *)
Inductive threads_run (cfg : config) : st -> st -> Prop :=
| TR_refl : forall x, threads_run cfg x x
| TR_step : forall l x y z r, l = LUser \/ l = LCommit \/ l = LFin ->
    astep cfg l x = Some (y, r) -> smooth l x y r -> threads_run cfg y z -> threads_run cfg x z.

(** Careful steps taken while the finalize thread is alive, failures included. *)
Inductive during_save (cfg : config) : st -> st -> Prop :=
| DS_refl : forall x, during_save cfg x x
| DS_step : forall l x y z r s rm pc, a_fin x = FRun s rm pc -> astep cfg l x = Some (y, r) -> careful l x ->
    during_save cfg y z -> during_save cfg x z.

(** The user has not yet been told about the failure of the last save. *)
Definition unreported (x : st) : Prop := exists s e, a_fin x = FEnd s (Some e) true.
