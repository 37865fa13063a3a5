(** What the validation of an exported model should do (C81), said without the functions of the model. *)
From Coq Require Import List Bool Arith ZArith NArith QArith Qabs String Ascii Permutation.
From Verif Require Import Base StepName_Model Tree_Model Validate_Model.
Import ListNotations.
Local Open Scope string_scope.
Local Open Scope list_scope.
Local Open Scope nat_scope.

(** Two numbers are close, as numpy and the names of the options say: [candidate] differs from [baseline] at most by [atol] and by the share [rtol] of the baseline *)
Definition close (atol rtol : Q) (candidate baseline : option Q) : Prop :=
  exists x y, candidate = Some x /\ baseline = Some y /\ (Qabs (x - y) <= atol + rtol * Qabs y)%Q.

(** Two trees of the same structure *)
Inductive alike : node -> node -> Prop :=
| al_leaf : forall t u, alike (NLeaf t) (NLeaf u)
| al_seq : forall l r, Forall2 alike l r -> alike (NSeq l) (NSeq r)
| al_dict : forall d e, Forall2 (fun x y => fst x = fst y /\ alike (snd x) (snd y)) d e -> alike (NDict d) (NDict e).

(** The answer for two tensors that are no floats: all elements differ, when they have the same shape *)
Inductive wholly_differ (bc : list nat * list Z -> list nat * list Z -> result bool) : (list nat * list Z) * (list nat * list Z) -> bool -> Prop :=
| wd_yes : forall s l r, (forall i x y, nth_error l i = Some x -> nth_error r i = Some y -> x <> y) -> wholly_differ bc ((s, l), (s, r)) true
| wd_no : forall s l r i x, nth_error l i = Some x -> nth_error r i = Some x -> wholly_differ bc ((s, l), (s, r)) false
| wd_bc : forall j t b, fst j <> fst t -> bc j t = Ok b -> wholly_differ bc (j, t) b.

(** Number of [true] *)
Inductive trues : list bool -> nat -> Prop :=
| tr_nil : trues [] 0
| tr_yes : forall l n, trues l n -> trues (true :: l) (S n)
| tr_no : forall l n, trues l n -> trues (false :: l) n.

(** Steps of one call of a bound function *)
Inductive infers (c : config) (f : node -> result node) (inputs : list node) : node -> Prop :=
| in_plain : forall x o, c_pre c = None -> inputs = [x] -> f x = Ok o -> c_post c = None -> infers c f inputs o
| in_post : forall x o q y, c_pre c = None -> inputs = [x] -> f x = Ok o -> c_post c = Some q -> c_passthrough c = false -> q [o] = Ok y -> infers c f inputs y
| in_pre : forall p j o, c_pre c = Some p -> c_passthrough c = false -> p inputs = Ok j -> f j = Ok o -> c_post c = None -> infers c f inputs o
| in_both : forall p j o q y, c_pre c = Some p -> c_passthrough c = false -> p inputs = Ok j -> f j = Ok o -> c_post c = Some q -> q [o] = Ok y -> infers c f inputs y
| in_pass : forall p j e o, c_pre c = Some p -> c_passthrough c = true -> p inputs = Ok (NSeq [j; e]) -> f j = Ok o -> c_post c = None -> infers c f inputs o
| in_pass_post : forall p j e o q y, c_pre c = Some p -> c_passthrough c = true -> p inputs = Ok (NSeq [j; e]) -> f j = Ok o -> c_post c = Some q -> q [o; e] = Ok y -> infers c f inputs y.

(** The config that stands for a key: the last with it *)
Definition last_with (configs : list config) (k : string) (c : config) : Prop := exists l r, configs = l ++ c :: r /\ In k (c_keys c) /\ forall c', In c' r -> ~ In k (c_keys c').

(** A config that is accepted *)
Definition good_config (c : config) : Prop :=
  c_keys c <> [] /\
  (c_data c <> [] -> c_pre c = None /\ c_pres c = [] /\ c_post c = None /\ c_posts c = [] /\ forall p, In p (c_data c) -> p_in p = true /\ p_out p = true) /\
  (c_pre c = None \/ c_pres c = []) /\ (c_post c = None \/ c_posts c = []).
