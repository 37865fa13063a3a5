(** What is said about the metadata of a step, without its processors. *)
From Coq Require Import List Bool Arith ZArith NArith String.
From Verif Require Import Base Tree_Model StepMeta_Model.
Import ListNotations.
Open Scope string_scope.

(** A dictionary whose keys are strings *)
Definition str_dict (x : pv) : Prop := exists d, x = VDict d /\ forall k v, In (k, v) d -> exists s, k = KStr s.

(** What may be the handlers, the metrics, a time, the custom metadata *)
Definition handlers_ok (x : pv) : Prop := x = VNone \/ (exists s, x = VStr s) \/ str_dict x.
Definition metrics_ok (x : pv) : Prop := truthy x = false \/ str_dict x.
Definition time_ok (x : pv) : Prop := x = VNone \/ (exists z, x = VInt z) \/ (exists b, x = VBool b).
Definition custom_ok (x : pv) : Prop := x = VNone \/ str_dict x.

(** What may be the performance metrics: statistics, or a dictionary *)
Definition performance_ok (x : pv) : Prop := x = VNone \/ (exists l, x = VStats l) \/ str_dict x.

Definition valid (m : meta) : Prop :=
  handlers_ok (item_handlers m) /\ metrics_ok (metrics m) /\ performance_ok (performance_metrics m) /\
  time_ok (init_timestamp_nsecs m) /\ time_ok (commit_timestamp_nsecs m) /\ custom_ok (custom_metadata m).

(** Statistics have all their fields. *)
Definition stats_whole (x : pv) : Prop := exists l, x = VStats l /\ map fst l = map fst stat_fields.

(** A float with a name, in a dictionary or in statistics *)
Definition has_float (x : pv) (n : string) (z : Z) : Prop :=
  (exists d, x = VDict d /\ In (KStr n, VFloat z) d) \/ (exists l, x = VStats l /\ In (n, VFloat z) l).

(** Statistics with the floats of others, and otherwise the defaults *)
Definition floats_of (x y : pv) : Prop :=
  exists l, y = VStats l /\ map fst l = map fst stat_fields /\
  forall n v, In (n, v) l -> (exists z, v = VFloat z /\ has_float x n z) \/ (In (n, v) stat_fields /\ forall z, ~ has_float x n z).

(** An empty dictionary instead of nothing *)
Definition or_empty (x : pv) : pv := match x with VDict _ => x | _ => VDict [] end.

(** What comes back: JSON of what was handed over *)
Definition comes_back (show_int show_float : Z -> string) (m m' : meta) : Prop :=
  json show_int show_float (item_handlers m) = Ok (item_handlers m') /\
  json show_int show_float (or_empty (metrics m)) = Ok (metrics m') /\
  floats_of (performance_metrics m) (performance_metrics m') /\
  init_timestamp_nsecs m' = init_timestamp_nsecs m /\ commit_timestamp_nsecs m' = commit_timestamp_nsecs m /\
  json show_int show_float (or_empty (custom_metadata m)) = Ok (custom_metadata m').

(** The names of the fields of a step's metadata *)
Definition names : list string := ["item_handlers"; "metrics"; "performance_metrics"; "init_timestamp_nsecs"; "commit_timestamp_nsecs"; "custom_metadata"].

(** The entries whose names are not among those *)
Definition unknown (names : list string) (d : list (key * pv)) : list (key * pv) :=
  filter (fun x => negb (existsb (fun n => key_eqb (KStr n) (fst x)) names)) d.

(** Unknown entries are taken only if there are no custom metadata; with an empty dictionary of them,
    one is taken. *)
Definition unknown_ok (names : list string) (d : list (key * pv)) : Prop :=
  unknown names d = [] \/ get "custom_metadata" d = VNone \/ (get "custom_metadata" d = VDict [] /\ exists x, unknown names d = [x]).

(** Every float among the performance metrics has a name that statistics have. *)
Definition floats_known (x : pv) : Prop := forall n z, has_float x n z -> In n (map fst stat_fields).

(** What a field may be, and what is stored for it *)
Definition field_ok (name : string) (x : pv) : Prop :=
  (name = "item_handlers" /\ handlers_ok x) \/ (name = "metrics" /\ metrics_ok x) \/ (name = "performance_metrics" /\ performance_ok x) \/
  ((name = "init_timestamp_nsecs" \/ name = "commit_timestamp_nsecs") /\ time_ok x) \/ (name = "custom_metadata" /\ custom_ok x).

Definition only_floats (x : pv) : pv :=
  match x with
  | VDict d => VDict (filter (fun y => match snd y with VFloat _ => true | _ => false end) d)
  | VStats l => VDict (map (fun y => (KStr (fst y), snd y)) (filter (fun y => match snd y with VFloat _ => true | _ => false end) l))
  | _ => VDict []
  end.

Definition stored (name : string) (x : pv) : pv :=
  if String.eqb name "performance_metrics" then only_floats x
  else if String.eqb name "metrics" || String.eqb name "custom_metadata" then or_empty x else x.

(** A value that JSON leaves as it is *)
Definition is_json (show_int show_float : Z -> string) (x : pv) : Prop := json show_int show_float x = Ok x.

(** The value of a field is what the update says, otherwise what it was. *)
Definition after (kw d : dict key pv) (name : string) : pv :=
  match dget key_eqb (KStr name) kw with Some x => x | None => get name d end.

(** What a checkpointer updates: the custom metadata and, if known, the handlers *)
Definition kw_of (c : pv) (h : option pv) : dict key pv := (KStr "custom_metadata", c) :: match h with Some x => [(KStr "item_handlers", x)] | None => [] end.

Definition or_none (h : option pv) : pv := match h with Some x => x | None => VNone end.

(** The names of the fields of the root's metadata *)
Definition root_names : list string := ["internal_metadata"; "custom_metadata"].
