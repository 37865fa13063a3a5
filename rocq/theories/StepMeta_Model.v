(** Model of how the metadata of a step and of the root are made into dictionaries for JSON files and
    back, with validation, and of the life of a step's metadata from its first write to its commit.
    Source: checkpoint/orbax/checkpoint/_src/metadata/step_metadata_serialization.py ("SS"),
    checkpoint/orbax/checkpoint/_src/metadata/metadata_serialization_utils.py ("SU"),
    checkpoint/orbax/checkpoint/_src/metadata/root_metadata_serialization.py ("RS"),
    checkpoint/orbax/checkpoint/_src/logging/step_statistics.py ("ST"),
    checkpoint/orbax/checkpoint/_src/metadata/checkpoint.py ("MC"),
    checkpoint/orbax/checkpoint/_src/path/atomicity.py ("AT") and
    checkpoint/orbax/checkpoint/_src/checkpointers/checkpointer.py ("CK").
    Simplifications: floats are numbers that are only compared with zero; keys of dictionaries are
    equal if they are of the same type and value; how JSON shows numbers that are keys is an argument;
    no circular values, no subclasses; mappings are dictionaries; item metadata are not looked into
    (SU l.63-75).
    Not modelled: logging. *)
From Coq Require Import List Bool Arith ZArith NArith String.
From Verif Require Import Base Tree_Model.
Import ListNotations.
Open Scope string_scope.

(** Keys of Python dictionaries (SU l.57, l.86); [KOther] is what JSON does not take. *)
Inductive key : Type := KStr (s : string) | KInt (z : Z) | KBool (b : bool) | KNone | KFloat (z : Z) | KOther (n : N).

(** Python values (SU l.32-178); [VStats] are the fields of a [SaveStepStatistics], [VOther] is what
    JSON does not take. *)
Inductive pv : Type :=
| VNone | VBool (b : bool) | VInt (z : Z) | VFloat (z : Z) | VStr (s : string)
| VList (l : list pv) | VTuple (l : list pv) | VDict (d : list (key * pv)) | VStats (l : list (string * pv)) | VOther (n : N).

(** Equality of keys (SS l.126) *)
Definition key_eqb (a b : key) : bool :=
  match a, b with
  | KStr x, KStr y => String.eqb x y
  | KInt x, KInt y => Z.eqb x y
  | KBool x, KBool y => Bool.eqb x y
  | KNone, KNone => true
  | KFloat x, KFloat y => Z.eqb x y
  | KOther x, KOther y => N.eqb x y
  | _, _ => false
  end.

(** Whether a value counts as true (SU l.82, l.168) *)
Definition truthy (x : pv) : bool :=
  match x with
  | VNone => false
  | VBool b => b
  | VInt z | VFloat z => negb (Z.eqb z 0)
  | VStr s => negb (String.eqb s "")
  | VList l | VTuple l => negb (Nat.eqb (List.length l) 0)
  | VDict d => negb (Nat.eqb (List.length d) 0)
  | VStats _ | VOther _ => true
  end.

(** [isinstance(k, str)] (SU l.57) *)
Definition is_str (k : key) : bool := match k with KStr _ => true | _ => false end.

(** [isinstance(x, float)] (SU l.115) *)
Definition is_float (x : pv) : bool := match x with VFloat _ => true | _ => false end.

(** All keys are strings (SU l.57, l.86, l.110, l.163). *)
Definition str_keys {A : Type} (d : list (key * A)) : bool := forallb (fun x => is_str (fst x)) d.

(** ** JSON *)

Section Json.

(** How numbers that are keys are shown (MC l.181) *)
Variable show_int : Z -> string.
Variable show_float : Z -> string.

(** Keys in JSON text (MC l.181) *)
Definition show_key (k : key) : result string :=
  match k with
  | KStr s => Ok s
  | KInt z => Ok (show_int z)
  | KBool b => Ok (if b then "true" else "false")
  | KNone => Ok "null"
  | KFloat z => Ok (show_float z)
  | KOther _ => Err TypeError
  end.

(** A dictionary of what was read: of two entries with the same name the last counts (MC l.216). *)
Definition object (l : list (string * pv)) : pv := VDict (dict_of key_eqb (map (fun x => (KStr (fst x), snd x)) l)).

(** What is read is what was written, but for tuples and keys (MC l.181, l.216). *)
Fixpoint json (x : pv) : result pv :=
  match x with
  | VNone | VBool _ | VInt _ | VFloat _ | VStr _ => Ok x
  | VList l | VTuple l => rmap VList (sequence (map json l))
  | VDict d => rmap object (sequence (map (fun kv => match kv with (k, v) => rbind (show_key k) (fun k' => rmap (pair k') (json v)) end) d))
  | VStats _ | VOther _ => Err TypeError
  end.

(** ** Validation *)

(** SU l.43-60 *)
Definition validate_and_process_item_handlers (x : pv) : result pv :=
  match x with
  | VNone => Ok VNone
  | VDict d => if str_keys d then Ok x else Err ValueError
  | VStr _ => Ok x
  | _ => Err ValueError
  end.

(** SU l.78-95 *)
Definition validate_and_process_metrics (x add : pv) : result pv :=
  match (if truthy x then x else VDict []) with
  | VDict d =>
    if str_keys d then
      match add with
      | VNone => Ok (VDict d)
      | VDict a => if str_keys a then Ok (VDict (fold_left (fun m y => dput key_eqb (fst y) (snd y) m) a d)) else Err ValueError
      | _ => Err ValueError
      end
    else Err ValueError
  | _ => Err ValueError
  end.

(** SU l.98-116 *)
Definition validate_and_process_performance_metrics (x : pv) : result pv :=
  match x with
  | VNone => Ok (VDict [])
  | VDict d => if str_keys d then Ok (VDict (filter (fun y => is_float (snd y)) d)) else Err ValueError
  | VStats l => Ok (VDict (filter (fun y => is_float (snd y)) (map (fun y => (KStr (fst y), snd y)) l)))
  | _ => Err ValueError
  end.

(** SU l.119-138; truth values are integers. *)
Definition validate_and_process_timestamp (x : pv) : result pv :=
  match x with
  | VNone => Ok VNone
  | VInt _ | VBool _ => Ok x
  | _ => Err ValueError
  end.

(** SU l.141-164 *)
Definition validate_and_process_custom_metadata (x : pv) : result pv :=
  match x with
  | VNone => Ok (VDict [])
  | VDict d => if str_keys d then Ok x else Err ValueError
  | _ => Err ValueError
  end.

(** The fields of [InternalCheckpointMetadata] with their processors, in order (SS l.58-83) *)
Definition fields : list (string * (pv -> result pv)) :=
  [ ("item_handlers", validate_and_process_item_handlers);
    ("metrics", fun x => validate_and_process_metrics x VNone);
    ("performance_metrics", validate_and_process_performance_metrics);
    ("init_timestamp_nsecs", validate_and_process_timestamp);
    ("commit_timestamp_nsecs", validate_and_process_timestamp);
    ("custom_metadata", validate_and_process_custom_metadata) ].

(** The fields of [SaveStepStatistics] with their defaults (ST l.51-65) *)
Definition stat_fields : list (string * pv) :=
  [ ("step", VNone); ("event_type", VStr "save"); ("directory", VNone); ("reached_preemption", VBool false); ("preemption_received_at", VNone);
    ("synchronous", VBool false); ("wait_for_prev_start_time", VNone); ("wait_for_prev_duration_secs", VNone); ("time_between_consecutive_saves_sec", VNone);
    ("checkpointer_blocking_start_time", VNone); ("checkpointer_blocking_duration_secs", VNone); ("get_old_steps_start_time", VNone); ("get_old_steps_duration_secs", VNone);
    ("checkpoint_manager_blocking_start_time", VNone); ("checkpoint_manager_blocking_duration_secs", VNone) ].

(** [SaveStepStatistics] with keywords (SS l.116-118) *)
Definition mk_stats (d : list (key * pv)) : result pv :=
  if forallb (fun x => existsb (fun y => key_eqb (KStr (fst y)) (fst x)) stat_fields) d
  then Ok (VStats (map (fun y => (fst y, match dget key_eqb (KStr (fst y)) d with Some v => v | None => snd y end)) stat_fields))
  else Err TypeError.

(** ** The metadata of a step *)

(** SS l.35-83 *)
Record meta : Type := mkMeta { item_handlers : pv; metrics : pv; performance_metrics : pv; init_timestamp_nsecs : pv; commit_timestamp_nsecs : pv; custom_metadata : pv }.

(** The value of a field (SS l.88) *)
Definition getattr (m : meta) (name : string) : pv :=
  if String.eqb name "item_handlers" then item_handlers m
  else if String.eqb name "metrics" then metrics m
  else if String.eqb name "performance_metrics" then performance_metrics m
  else if String.eqb name "init_timestamp_nsecs" then init_timestamp_nsecs m
  else if String.eqb name "commit_timestamp_nsecs" then commit_timestamp_nsecs m
  else custom_metadata m.

(** SS l.85-90 *)
Definition serialize (m : meta) : result (dict key pv) :=
  sequence (map (fun f => rmap (pair (KStr (fst f))) (snd f (getattr m (fst f)))) fields).

(** SS l.106 *)
Definition get (name : string) (d : dict key pv) : pv := match dget key_eqb (KStr name) d with Some x => x | None => VNone end.

(** Whether a key is that of a field (SS l.126) *)
Definition known (names : list string) (k : key) : bool := existsb (fun n => key_eqb (KStr n) k) names.

(** SS l.125-129, SU l.167-178: [c] is the processed custom metadata, [d] the dictionary that is read.
    If [d] has a dictionary of custom metadata, [c] is that dictionary itself, so that what is put into
    [c] is put into [d]. *)
Fixpoint add_unknown (names : list string) (same : bool) (l : list (key * pv)) (c d : dict key pv) : result (dict key pv) * dict key pv :=
  match l with
  | [] => (Ok c, d)
  | (k, v) :: l' =>
    if known names k then add_unknown names same l' c d
    else if truthy (get "custom_metadata" d) then (Err ValueError, d)
    else
      let c' := dput key_eqb k v c in
      add_unknown names same l' c' (if same then dput key_eqb (KStr "custom_metadata") (VDict c') d else d)
  end.

(** Whether the processed custom metadata are the dictionary that is read (SU l.158-164) *)
Definition is_same (d : dict key pv) : bool := match get "custom_metadata" d with VDict _ => true | _ => false end.

(** SS l.92-130: the result, and the argument afterwards *)
Definition deserialize (x : pv) : result meta * pv :=
  match x with
  | VDict d =>
    match sequence (map (fun f => snd f (get (fst f) d)) fields) with
    | Ok [ih; mt; VDict pm; it; ct; cm] =>
      match mk_stats pm, cm with
      | Err e, _ => (Err e, x)
      | Ok st, VDict c =>
        match add_unknown (map fst fields) (is_same d) d c d with
        | (Err e, d') => (Err e, VDict d')
        | (Ok c', d') => (Ok (mkMeta ih mt st it ct (VDict c')), VDict d')
        end
      | Ok _, _ => (Err ValueError, x)
      end
    | Ok _ => (Err OtherError, x)
    | Err e => (Err e, x)
    end
  | _ => (Err ValueError, x)
  end.

(** [StepMetadata] (MC l.65-95) *)
Record step_meta : Type := mkStep { s_meta : meta; s_item_metadata : pv }.

(** SS l.132-151, l.232-240 *)
Definition deserialize_step (x item_metadata add : pv) : result step_meta :=
  rbind (fst (deserialize x)) (fun m =>
  rmap (fun mt => mkStep (mkMeta (item_handlers m) mt (performance_metrics m) (init_timestamp_nsecs m) (commit_timestamp_nsecs m) (custom_metadata m)) item_metadata)
       (validate_and_process_metrics (metrics m) add)).

(** SS l.153-165, l.199-202 *)
Definition serialize_step (m : step_meta) : result (dict key pv) := serialize (s_meta m).

(** SS l.205-229: the fields are processed in their order. *)
Definition serialize_for_update (kw : dict key pv) : result (dict key pv) :=
  if forallb (fun x => known (map fst fields) (fst x)) kw
  then sequence (flat_map (fun f => match dget key_eqb (KStr (fst f)) kw with Some x => [rmap (pair (KStr (fst f))) (snd f x)] | None => [] end) fields)
  else Err ValueError.

(** ** The metadata of the root *)

(** RS l.35-42 *)
Definition root_fields : list string := ["internal_metadata"; "custom_metadata"].

(** RS l.44-49, l.95-97 *)
Definition serialize_root (internal custom : pv) : result (dict key pv) :=
  rbind (validate_and_process_custom_metadata internal) (fun i =>
  rmap (fun c => [(KStr "internal_metadata", i); (KStr "custom_metadata", c)]) (validate_and_process_custom_metadata custom)).

(** RS l.51-83, l.100-102: the result, and the argument afterwards *)
Definition deserialize_root (x : pv) : result (pv * pv) * pv :=
  match x with
  | VDict d =>
    match validate_and_process_custom_metadata (get "internal_metadata" d), validate_and_process_custom_metadata (get "custom_metadata" d) with
    | Ok i, Ok (VDict c) =>
      match add_unknown root_fields (is_same d) d c d with
      | (Err e, d') => (Err e, VDict d')
      | (Ok c', d') => (Ok (i, VDict c'), VDict d')
      end
    | Err e, _ | _, Err e => (Err e, x)
    | Ok _, Ok _ => (Err OtherError, x)
    end
  | _ => (Err AssertionError, x)
  end.

(** ** Files *)

(** Writing and reading (MC l.173-235) *)
Definition written (d : dict key pv) : result pv := json (VDict d).

(** MC l.237-246: what is in the file after an update; [VNone] is a file that could not be read. That a
    non-empty file which is no dictionary is always refused is a simplification (a list of pairs is
    not). *)
Definition updated (file : pv) (kw : dict key pv) : result pv :=
  match file with
  | VDict d => written (fold_left (fun m x => dput key_eqb (fst x) (snd x) m) kw d)
  | _ => if truthy file then Err TypeError else written (fold_left (fun m x => dput key_eqb (fst x) (snd x) m) kw [])
  end.

(** The metadata with its defaults (MC l.85-95) *)
Definition new_meta (init : Z) : meta := mkMeta VNone (VDict []) (VStats stat_fields) (VInt init) VNone (VDict []).

(** A save: the first metadata (AT l.151-159), the update after the handlers saved (CK l.380-415) and
    the time of the commit (AT l.535-539) *)
Definition save_metadata (init : Z) (kw : dict key pv) (commit : Z) : result pv :=
  rbind (rbind (serialize (new_meta init)) written) (fun f0 =>
  rbind (serialize_for_update kw) (fun u =>
  rbind (updated f0 u) (fun f1 => updated f1 [(KStr "commit_timestamp_nsecs", VInt commit)]))).

End Json.
