(** What restoring with transforms should do. *)
From Coq Require Import List Bool Arith String.
From Verif Require Import Base StepName_Model Tree_Model Transform_Model Restore_Model.
Import ListNotations.

(** The output [o] is drawn from the key [key] of the checkpoint: a transform that matches it names that key. *)
Definition draws {V A : Type} (fullmatch : matcher) (ts : dict string (rtransform V A)) (o key : string) : Prop :=
  exists pattern t expand, In (pattern, t) ts /\ t_multi t = None /\ t_fallback t = false /\ fullmatch pattern o = Ok (Some expand)
    /\ match t_original t with None => key = o | Some r => expand r = Ok key end.

(** A function of a transform says that it needs the key, to be read with [a]. *)
Definition declares {V A : Type} (fullmatch : matcher) (ts : dict string (rtransform V A)) (key : string) (a : A) : Prop :=
  exists pattern t inputs r expand, In (pattern, t) ts /\ t_multi t <> None /\ t_inputs t = Some inputs /\ In (r, Some a) inputs /\ fullmatch r key = Ok (Some expand).

(** Every input of a function is given with arguments. *)
Definition inputs_given {V A : Type} (ts : dict string (rtransform V A)) : Prop :=
  forall pattern t inputs r, In (pattern, t) ts -> t_inputs t = Some inputs -> ~ In (r, None) inputs.

(** Functions look only at the inputs they name. *)
Definition functions_look_at_inputs {V A : Type} (fullmatch : matcher) (ts : dict string (rtransform V A)) : Prop :=
  forall pattern t f inputs, In (pattern, t) ts -> t_multi t = Some f -> t_inputs t = Some inputs ->
  forall d1 d2 : dict string (got V), map fst d1 = map fst d2 ->
  (forall r a key expand, In (r, a) inputs -> fullmatch r key = Ok (Some expand) -> dget String.eqb key d1 = dget String.eqb key d2) ->
  forall o a, f o (as_tree d1) a = f o (as_tree d2) a.

(** There are no functions among the transforms. *)
Definition no_functions {V A : Type} (ts : dict string (rtransform V A)) : Prop := forall pattern t, In (pattern, t) ts -> t_value t = None /\ t_multi t = None.

(** The value of a leaf of the checkpoint *)
Definition value_of {V A : Type} (store : string -> A -> V) (cast : V -> A -> V) (key : string) (e : entry V) (a : A) : V :=
  match e with EMeta => store key a | EValue v => cast v a end.

(** The checkpoint with everything read *)
Fixpoint whole {V A : Type} (store : string -> A -> V) (cast : V -> A -> V) (structure : dict string (entry V)) (params : dict string (param A)) : dict string (got V) :=
  match structure, params with
  | (k, e) :: r, (_, p) :: ps => (k, Read (value_of store cast k e (snd p))) :: whole store cast r ps
  | _, _ => []
  end.
