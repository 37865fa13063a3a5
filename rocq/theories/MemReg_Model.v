(** Model of the memory regulator.
    Source: checkpoint/orbax/checkpoint/_src/serialization/memory_regulator.py ("MR") and
    checkpoint/orbax/checkpoint/_src/handlers/base_pytree_checkpoint_handler.py ("BPH").
    Floating-point numbers are modelled by rationals (exact arithmetic); NaN and infinity
    are not modelled.  Not modelled: logging, the profiler's own thread. *)
From Coq Require Import List Bool ZArith QArith.
From Verif Require Import Base.
Import ListNotations.
Open Scope Q_scope.

(** [a < b] (MR l.159-170, l.240, l.251) *)
Definition Qlt_bool (a b : Q) : bool := negb (Qle_bool b a).

(** Python's [min(a, b)]: the first of the smallest (MR l.233, l.245) *)
Definition qmin (a b : Q) : Q := if Qlt_bool b a then b else a.

(** Python's [max(a, b)]: the first of the largest (MR l.231, l.261) *)
Definition qmax (a b : Q) : Q := if Qlt_bool a b then b else a.

(** The fields given by the user (MR l.140-145) *)
Record config : Type := mk_config {
  max_memory_limit_gib : Q;
  target_ratio : Q;
  min_memory_limit_gib : Q;
  kp : Q;
  ki : Q;
  kd : Q
}.

(** The default values (MR l.141-145) *)
Definition default_config (max_memory_limit_gib : Q) : config :=
  mk_config max_memory_limit_gib (80 # 100) 10 (4 # 10) (5 # 100) (1 # 10).

(** The fields that change (MR l.147-149) *)
Record state : Type := mk_state { integral : Q; prev_error : Q; prev_expected_surge_gib : Q }.

(** MR l.157 *)
Definition integral_windup_limit : Q := 50.

(** MR l.152-176 *)
Definition make (c : config) : result state :=
  if Qle_bool (max_memory_limit_gib c) 0 then Err ValueError
  else if Qle_bool (min_memory_limit_gib c) 0 then Err ValueError
  else if Qle_bool (max_memory_limit_gib c * target_ratio c) (min_memory_limit_gib c) then Err ValueError
  else Ok (mk_state 0 0 0).

(** What is measured; the blocking time is not used (MR l.178-186) *)
Record measurement : Type := mk_measurement { peak_memory_usage_gib : Q; expected_surge_gib : Q; total_memory_gib : Q }.

(** [max(-limit, min(limit, x))] and [max(min_memory, min(max_memory, x))] (MR l.231-234,
    l.261-264, l.268-271) *)
Definition clamp (low high x : Q) : Q := qmax low (qmin high x).

(** MR l.216-218 *)
Definition error_gib (c : config) (m : measurement) : Q := total_memory_gib m * target_ratio c - peak_memory_usage_gib m.

(** MR l.219-255: the adjustment that is applied *)
Definition adjustment (c : config) (s : state) (m : measurement) : Q :=
  let err := error_gib c m in
  let max_error_gib := total_memory_gib m - peak_memory_usage_gib m in
  let p_term := kp c * err in
  let i_term := ki c * integral s in
  let d_term := kd c * (err - prev_error s) in
  let base_adjustment := p_term + i_term + d_term in
  let a := if Qlt_bool max_error_gib 0 then qmin max_error_gib base_adjustment else base_adjustment in
  if Qlt_bool 0 (expected_surge_gib m) then qmin 0 a else a.

(** MR l.178-275 *)
Definition get_next_memory_limit (c : config) (s : state) (current_limit_gib : Q) (m : measurement) : Q * state :=
  let err := error_gib c m in
  let quiet := Qeq_bool (expected_surge_gib m) 0 in
  let integral' := if quiet then clamp (- integral_windup_limit) integral_windup_limit (integral s + err) else integral s in
  let prev_error' := if quiet then err else prev_error s in
  let target_no_surge := current_limit_gib + prev_expected_surge_gib s + adjustment c s m in
  let clamped_no_surge := clamp (min_memory_limit_gib c) (max_memory_limit_gib c) target_no_surge in
  let target_with_surge := target_no_surge - expected_surge_gib m in
  let clamped_with_surge := clamp (min_memory_limit_gib c) (max_memory_limit_gib c) target_with_surge in
  (clamped_with_surge, mk_state integral' prev_error' (clamped_no_surge - clamped_with_surge)).

(** [1024**3] (MR l.284, l.292) *)
Definition gib : Q := 1073741824.

(** [int(x)] (MR l.292): towards zero *)
Definition int_of (x : Q) : Z := Z.quot (Qnum x) (Zpos (Qden x)).

(** What the registered profiler reports; without one everything is zero (MR l.88-109) *)
Definition reading (profiler : option measurement) : measurement :=
  match profiler with Some m => m | None => mk_measurement 0 0 0 end.

(** MR l.277-300 *)
Definition update_limit_bytes (c : config) (s : state) (profiler : option measurement) (current_limit_bytes : Z) : Z * state :=
  let r := get_next_memory_limit c s (inject_Z current_limit_bytes / gib) (reading profiler) in
  (int_of (fst r * gib), snd r).

(** The handler in mode [auto] (BPH l.456-470): the configuration, the state and the first
    limit in bytes *)
Definition auto (max_save_device_host_concurrent_bytes : option Z) : result (config * state * Z) :=
  match max_save_device_host_concurrent_bytes with
  | None => Err ValueError
  | Some b =>
    let c := default_config (inject_Z b / gib) in
    rmap (fun s => (c, s, int_of (min_memory_limit_gib c * gib))) (make c)
  end.

(** Saves one after the other (BPH l.655-664): each updates the limit that the next one starts
    from *)
Fixpoint saves (c : config) (s : state) (limit : Z) (ms : list (option measurement)) : list Z * state :=
  match ms with
  | [] => ([], s)
  | m :: r =>
    let u := update_limit_bytes c s m limit in
    let rest := saves c (snd u) (fst u) r in
    (fst u :: fst rest, snd rest)
  end.

(** The same in GiB (MR l.178-275), without rounding *)
Fixpoint run (c : config) (s : state) (limit : Q) (ms : list measurement) : list Q * state :=
  match ms with
  | [] => ([], s)
  | m :: r =>
    let u := get_next_memory_limit c s limit m in
    let rest := run c (snd u) (fst u) r in
    (fst u :: fst rest, snd rest)
  end.
