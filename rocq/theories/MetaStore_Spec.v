(** What is said about the store of metadata files, without its stages and queues. *)
From Coq Require Import List Bool Arith NArith String.
From Verif Require Import Base Tree_Model MetaStore_Model.
Import ListNotations.
Open Scope string_scope.

Section Store.
Variable V : Type.

(** What the metadata file of a committed save says of a key: the time of the commit, otherwise
    the last that was handed over *)
Definition says (u : N -> V) (v : save V) (k : string) : option V :=
  if String.eqb k commit_key then Some (eval V u (sv_time V v))
  else
    match dget String.eqb k (sv_kw V v) with
    | Some x => Some (eval V u x)
    | None => option_map (eval V u) (dget String.eqb k (sv_init V v))
    end.

(** The directory has a metadata file that says of every key what it should. *)
Definition holds (s : st V) (d : N) (says : string -> option V) : Prop :=
  exists m, dget N.eqb d (fs V s) = Some (Whole V m) /\ forall k, dget String.eqb k m = says k.

(** The phase of a save *)
Definition is_in (s : st V) (j : nat) (p : phase) : Prop := exists v, nth_error (saves V s) j = Some v /\ sv_phase V v = p.

(** No error of a save's metadata was raised in another thread. *)
Definition not_stolen (s : st V) (j : nat) : Prop :=
  forall w id e t r, In (w, id, e) (raised V s) -> In ((id, Save j, t), r) (done V s) -> w = Save j.

(** Reading the metadata file did not fail in any update of the save. *)
Definition reads_fine (s : st V) (j : nat) : Prop :=
  forall id t r, In id (unread V s) -> ~ In ((id, Save j, t), r) (done V s).

(** The objects of users that the metadata of a save refers to *)
Definition refers (v : save V) (r : N) : Prop :=
  In (User V r) (sv_time V v :: map snd (sv_kw V v) ++ map snd (sv_init V v))%list.

(** Nothing else uses the directories of a save, and the objects it refers to are not changed. *)
Definition uses (v : save V) (d : N) : Prop := d = sv_tmp V v \/ d = sv_final V v.

Definition apart (l : list (save V)) (j : nat) (v : save V) (es : list (event V)) : Prop :=
  (forall i w, nth_error l i = Some w -> i <> j -> ~ uses v (sv_tmp V w) /\ ~ uses v (sv_final V w)) /\
  (forall e, In e es -> match e with
                        | ESubmit _ _ t | EBlocking _ t => ~ uses v (dir_of V t)
                        | EChange _ r _ => ~ refers v r
                        | _ => True
                        end).

(** Nothing is left to be done in the background. *)
Definition idle (s : st V) : Prop := current V s = None /\ queue V s = [].

(** The errors of the tasks that are done, in order *)
Definition failures (l : list (job V * result unit)) : list (nat * err) :=
  flat_map (fun x => match snd x with Err e => [(fst (fst (fst x)), e)] | Ok _ => [] end) l.

(** The errors raised, in order *)
Definition reported (s : st V) : list (nat * err) := map (fun x => (snd (fst x), snd x)) (raised V s).

(** The tasks submitted for a directory, in order *)
Definition for_dir (d : N) (es : list (event V)) : list (task V) :=
  flat_map (fun e => match e with ESubmit _ _ t => if N.eqb d (dir_of V t) then [t] else [] | _ => [] end) es.

(** What tasks one after another make of a file: the value of a key is that of the last update
    with the key, or that of the last write if there is no such update after it. *)
Fixpoint last_value (k : string) (old : option V) (l : list (task V)) (u : N -> V) : option V :=
  match l with
  | [] => old
  | TWrite _ _ m :: l' => last_value k (option_map (eval V u) (dget String.eqb k m)) l' u
  | TUpdate _ _ kw :: l' => last_value k (match dget String.eqb k kw with Some x => Some (eval V u x) | None => old end) l' u
  end.

(** Before anything is written *)
Definition before (f : option (file V)) (k : string) : option V :=
  match f with Some (Whole _ m) => dget String.eqb k m | _ => None end.

(** A task refers to an object of a user. *)
Definition mentions (t : task V) (r : N) : Prop :=
  In (User V r) (map snd (match t with TWrite _ _ m => m | TUpdate _ _ kw => kw end)).

(** Only tasks handed to this store by other threads than saves reach the directory, and the
    objects they refer to are not changed. *)
Definition left_to (l : list (save V)) (d : N) (es : list (event V)) : Prop :=
  (forall w, In w l -> sv_tmp V w <> d /\ sv_final V w <> d) /\
  (forall e, In e es -> match e with
                        | EBlocking _ t => dir_of V t <> d
                        | EChange _ r _ => forall t, In t (for_dir d es) -> ~ mentions t r
                        | _ => True
                        end).

(** The tasks of a directory that are done, in order *)
Definition finished (d : N) (s : st V) : list (task V) :=
  map (fun x => snd (fst x)) (filter (fun x => N.eqb d (dir_of V (snd (fst x)))) (done V s)).

(** None of them failed, nor the reading in one of them. *)
Definition well_done (d : N) (s : st V) : Prop :=
  forall id w t r, In ((id, w, t), r) (done V s) -> dir_of V t = d -> r = Ok tt /\ ~ In id (unread V s).

(** Every update names each key once. *)
Definition keys_once (l : list (task V)) : Prop :=
  Forall (fun t => match t with TWrite _ _ _ => True | TUpdate _ _ kw => NoDup (map fst kw) end) l.

(** Only saves, the background thread, and threads that wait *)
Definition only_saves (e : event V) : Prop := match e with EWork _ | ESave _ _ | EWait _ _ => True | _ => False end.

(** All saves start anew, in directories of their own; those to be made by the commit are not
    there. *)
Definition fresh (f : dict N (file V)) (l : list (save V)) : Prop :=
  (forall i w, nth_error l i = Some w -> sv_phase V w = P0 /\ (sv_tmp V w <> sv_final V w -> dget N.eqb (sv_final V w) f = None)) /\
  (forall i k v w, nth_error l i = Some v -> nth_error l k = Some w -> k <> i -> ~ uses v (sv_tmp V w) /\ ~ uses v (sv_final V w)).

End Store.
