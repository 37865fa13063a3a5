(** What registries of handlers shall do *)
From Coq Require Import List Bool Arith String.
From Verif Require Import Base Tree_Model Registry_Model.
Import ListNotations.

(** The last that satisfies a condition *)
Definition last_such {A : Type} (P : A -> Prop) (l : list A) (x : A) : Prop := exists l1 l2, l = l1 ++ x :: l2 /\ P x /\ Forall (fun y => ~ P y) l2.

(** The first that satisfies a condition *)
Definition first_such {A : Type} (P : A -> Prop) (l : list A) (x : A) : Prop := exists l1 l2, l = l1 ++ x :: l2 /\ P x /\ Forall (fun y => ~ P y) l1.

(** A registry that was made by adding *)
Inductive built : registry -> Prop :=
| built_empty : built empty
| built_add : forall r h n s r', built r -> add h n s r = Ok r' -> built r'.

(** An entry for everything whose handler can do it *)
Definition capable (can : nat -> Prop) (e : nat * option string) : Prop := snd e = None /\ can (fst e).

(** The classes that were registered can be constructed. *)
Definition sane {O : Type} (W : world O) (r : registry) : Prop := Forall (fun e => w_constructible W (fst e) = true) (r_entries r).

(** The handler with which an object is saved *)
Inductive saves_with {O : Type} (W : world O) (r : registry) (o : O) (name : string) : nat -> Prop :=
| sw_stateful : forall h, w_stateful W o = true -> last_such (capable (fun x => w_save W x o = true)) (r_entries r) (h, None) -> saves_with W r o name h
| sw_named : forall h, w_stateful W o = false \/ (forall x, ~ last_such (capable (fun y => w_save W y o = true)) (r_entries r) x) ->
    first_such (fun e => snd e = Some name) (r_entries r) (h, Some name) -> saves_with W r o name h
| sw_last : forall h, (forall x, ~ In (x, Some name) (r_entries r)) -> last_such (capable (fun x => w_save W x o = true)) (r_entries r) (h, None) -> saves_with W r o name h.

(** The last handler that has a name, as its own or among the further ones *)
Definition known_as {O : Type} (W : world O) (r : registry) (ts : option string) (h : nat) : Prop :=
  exists s n, ts = Some s /\ s <> ""%string /\ last_such (fun e => w_typestr W (fst e) = s \/ In s (secondary_of (fst e) r)) (r_entries r) (h, n).

(** The handler of a name *)
Definition named_as (r : registry) (name : string) (h : nat) : Prop := first_such (fun e => snd e = Some name) (r_entries r) (h, Some name).

(** Nothing is given to load with, or the handler can load with it. *)
Definition fits {O : Type} (W : world O) (a : option O) (h : nat) : Prop := forall o, a = Some o -> w_load W h o = Some true.

(** The handler with which an object is loaded *)
Inductive loads_with {O : Type} (W : world O) (r : registry) (a : option O) (name : string) (ts : option string) : nat -> Prop :=
| lw_stateful : forall o h, a = Some o -> w_stateful W o = true -> known_as W r ts h -> w_load W h o = Some true -> loads_with W r a name ts h
| lw_named : forall h, (forall o x, a = Some o -> w_stateful W o = true -> known_as W r ts x -> w_load W x o <> Some true) ->
    named_as r name h -> fits W a h -> loads_with W r a name ts h
| lw_known : forall h, (forall x, named_as r name x -> ~ fits W a x) -> known_as W r ts h -> fits W a h -> loads_with W r a name ts h
| lw_last : forall o h, a = Some o -> (forall x, named_as r name x -> ~ fits W a x) -> (forall x, known_as W r ts x -> ~ fits W a x) ->
    last_such (capable (fun x => w_load W x o = Some true)) (r_entries r) (h, None) -> loads_with W r a name ts h
| lw_unfit : forall o h, a = Some o -> (forall x, known_as W r ts x -> ~ fits W a x) -> (forall x, ~ last_such (capable (fun y => w_load W y o = Some true)) (r_entries r) x) ->
    named_as r name h -> ~ fits W a h -> loads_with W r a name ts h.

(** A registry of types that was made by adding; [over] says whether anything was ever overridden. *)
Inductive t_built (typestr : nat -> string) : bool -> tregistry -> Prop :=
| tb_empty : forall over, t_built typestr over t_empty
| tb_add : forall over t ty h func o t', t_built typestr over t -> (o = true -> over = true) -> t_add typestr ty h func o t = Ok t' -> t_built typestr over t'.
