(** Vocabulary for C21 and C48. *)
From Coq Require Import ZArith List Bool String.
From Verif Require Import Base Deleter_Model.
Import ListNotations.
Local Open Scope Z_scope.

(** The steps asked for in a history, in order. *)
Definition requested (ls : list tlabel) : list Z :=
  flat_map (fun l => match l with TLDelete s => [s] | _ => [] end) ls.

(** Number of calls of close. *)
Definition closes (ls : list tlabel) : nat :=
  List.length (filter (fun l => match l with TLClose => true | _ => false end) ls).

(** Histories: any interleaving of user and thread. *)
Inductive t_run {D} (del : nat -> Z -> D -> D * option err) : tst D -> list tlabel -> tst D -> Prop :=
| TR_nil : forall x, t_run del x [] x
| TR_snoc : forall x ls y l z r, t_run del x ls y -> t_step D del l y = Some (z, r) -> t_run del x (ls ++ [l]) z.

(** Result of close as an exception. *)
Definition raised (r : result unit) : option err := match r with Ok _ => None | Err e => Some e end.

(** The entry at a relative path; symbolic links are not followed. *)
Inductive at_path : entry -> list string -> entry -> Prop :=
| AP_here : forall e, at_path e [] e
| AP_in : forall es n e p e', In (n, e) es -> at_path e p e' -> at_path (EDir es) (n :: p) e'.

(** Histories of the parallel deleter. *)
Inductive p_run (k : nat) : pst -> pst -> Prop :=
| PR_refl : forall x, p_run k x x
| PR_step : forall x y l z, p_run k x y -> p_step k l y = Some z -> p_run k x z.

(** How often a path occurs below a directory (entries may share names). *)
Fixpoint occurrences (e : entry) (p : list string) : nat :=
  match p with
  | [] => if is_dir e then 0 else 1
  | n :: p' =>
      match e with
      | EDir es =>
          (fix go es := match es with
           | [] => 0
           | (m, e') :: es' => (if String.eqb n m then occurrences e' p' else 0) + go es'
           end) es
      | _ => 0
      end
  end%nat.
