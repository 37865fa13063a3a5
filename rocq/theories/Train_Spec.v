(** Vocabulary of C75: executions of a program that uses the Checkpointer of the newer interface. *)
From Coq Require Import ZArith List Bool.
From Verif Require Import Base Policy_Model Manager_Model Manager_Spec Train_Model.
Import ListNotations.
Local Open Scope Z_scope.

(** The states that can be reached when every step is as [P] demands. *)
Inductive run (o : options) (P : label -> st -> Prop) (x : st) : st -> Prop :=
| run_here : run o P x x
| run_step : forall y z l r, run o P x y -> P l y -> tstep o l y = Some (z, r) -> run o P x z.

(** No demands. *)
Definition any (_ : label) (_ : st) : Prop := True.

(** The thread has ended. *)
Definition over (f : fin) : Prop := exists e, f_pc f = PEnd e.

(** The caller begins a save when every thread that finalizes has at least looked which checkpointer it has to wait for, and reloads when all of them have ended. *)
Definition calm (l : label) (x : st) : Prop :=
  match l with
  | LUser => forall a, x_user x = UReady a -> forall f, In f (x_fins x) -> f_pc f <> PStart
  | LReload => forall f, In f (x_fins x) -> over f
  | _ => True
  end.

(** Only [save] is called, not [save_async]. *)
Definition synchronous (l : label) (_ : st) : Prop :=
  match l with LSave a => t_sync a = true | _ => True end.

(** [overwrite] is not given, and there is no directory of the step when the save begins to write. *)
Definition fresh (l : label) (x : st) : Prop :=
  match l with
  | LSave a => t_overwrite a = false
  | LUser => forall a, x_user x = UWaitSave a -> ~ In (t_step a) (committed_steps (x_fs x))
  | _ => True
  end.

(** All saves called are among [A]. *)
Definition only (A : call -> Prop) (l : label) (_ : st) : Prop := match l with LSave a => A a | _ => True end.

(** Both demands. *)
Definition both (P Q : label -> st -> Prop) (l : label) (x : st) : Prop := P l x /\ Q l x.

(** The preservation policy answers with a list for every list of checkpoints that is not empty. *)
Definition total_policy (o : options) : Prop := forall cs i, exists l, o_preserve (t_cfg o) (cs ++ [i]) = Ok (DList l).

(** The preservation policy answers with as many flags as there are checkpoints and keeps the last one. *)
Definition keeps_last (o : options) : Prop :=
  forall cs i, exists l, o_preserve (t_cfg o) (cs ++ [i]) = Ok (DList (l ++ [true])) /\ length l = length cs.

(** Directories of steps: one for a step, all with all their files. *)
Definition sound (d : fs) : Prop :=
  NoDup (committed_steps d) /\ forall s c, In (s, c) (committed d) -> c_whole c = true.

(** There is a checkpoint with all its files. *)
Definition some_intact (d : fs) : Prop := exists s c, intact d s c.

(** The number [i] of a save whose [save_async] returned: the thread that finalizes it, and its checkpointer. *)
Definition save_of (x : st) (i : nat) (f : fin) (j : job) : Prop :=
  exists w, nth_error (x_resps x) i = Some w /\ nth_error (x_fins x) (r_fin w) = Some f /\ nth_error (x_jobs x) (f_ck f) = Some j.

(** The response number [i] says that the save is done. *)
Definition says_done (x : st) (i : nat) : Prop := exists w, nth_error (x_resps x) i = Some w /\ r_pc w = WEnd (Ok true).

(** The step is in the list of checkpoints. *)
Definition listed (x : st) (s : Z) : Prop := In s (map step (x_cache x)).

(** The thread has not found out yet whether the save was committed, or the save failed and the caller has not been told. *)
Definition pending (f : fin) : Prop :=
  match f_pc f with PStart | PWait _ | PFinally (Some _) => True | PEnd (Some _) => f_told f = false | _ => False end.

(** The thread has ended, and if there was an exception then the caller has been told. *)
Definition settled (f : fin) : Prop := f_pc f = PEnd None \/ (exists e, f_pc f = PEnd (Some e)) /\ f_told f = true.

(** The caller's thread is deleting the step in order to overwrite it. *)
Definition deleting (x : st) (s : Z) : Prop := exists a ops, x_user x = UDelete a ops /\ t_step a = s.

(** No save of the same step began after the one that thread number [i] finalizes. *)
Definition newest (x : st) (i : nat) (f : fin) : Prop :=
  nth_error (x_fins x) i = Some f /\ forall i' f', nth_error (x_fins x) i' = Some f' -> f_step f' = f_step f -> (i' <= i)%nat.

(** Nothing goes on: the caller is outside of any call, no thread runs. *)
Definition at_rest (x : st) : Prop :=
  x_user x = UIdle /\ (forall f, In f (x_fins x) -> over f) /\ (forall w, In w (x_resps x) -> exists r, r_pc w = WEnd r) /\
  (forall j s c m, In j (x_jobs x) -> j_state j <> JRun s c m).

(** A label that is not a call. *)
Definition internal (l : label) : Prop :=
  match l with LSave _ | LWait | LClose | LResult _ | LLoad _ | LLatest | LReload => False | _ => True end.

(** [n] steps in a row, none of them a call. *)
Inductive goes_on (o : options) : nat -> st -> st -> Prop :=
| on_here : forall x, goes_on o 0 x x
| on_step : forall n x y z l r, internal l -> tstep o l x = Some (y, r) -> goes_on o n y z -> goes_on o (S n) x z.

(** Labels in a row, with what the calls return. *)
Fixpoint play (o : options) (ls : list label) (x : st) : option (st * list (result value)) :=
  match ls with
  | [] => Some (x, [])
  | l :: ls' =>
      match tstep o l x with
      | None => None
      | Some (y, r) => match play o ls' y with None => None | Some (z, rs) => Some (z, match r with Some v => v :: rs | None => rs end) end
      end
  end.
