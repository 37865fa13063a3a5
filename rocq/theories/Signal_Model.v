(** Model of the signalling store of a single-controller run and of the signals kept
    in it.
    Sources: checkpoint/orbax/checkpoint/_src/futures/signaling_client.py ("SC"),
    future.py ("FU") and synchronization.py ("SY") beside it.  The client of the
    distributed runtime (SC l.89-213) is not modelled. *)
From Coq Require Import List Bool Arith NArith String Ascii.
From Verif Require Import Base StepName_Model.
Import ListNotations.

(** The dictionary in insertion order (SC l.230). *)
Definition data : Type := list (string * string).

(** [self._data.get(key)] (SC l.277, l.285, l.297) *)
Fixpoint get (k : string) (d : data) : option string :=
  match d with
  | [] => None
  | (k', v) :: r => if String.eqb k k' then Some v else get k r
  end.

(** [self._data[key] = value] (SC l.255): a present key keeps its place. *)
Fixpoint put (k v : string) (d : data) : data :=
  match d with
  | [] => [(k, v)]
  | (k', v') :: r => if String.eqb k k' then (k, v) :: r else (k', v') :: put k v r
  end.

(** [del self._data[key]] (SC l.317, l.320) *)
Fixpoint del (k : string) (d : data) : data :=
  match d with
  | [] => []
  | (k', v') :: r => if String.eqb k k' then r else (k', v') :: del k r
  end.

(** [key.endswith("/")] (SC l.308, l.331) *)
Fixpoint ends_slash (k : string) : bool :=
  match k with
  | EmptyString => false
  | String c EmptyString => Ascii.eqb c "/"%char
  | String _ r => ends_slash r
  end.

(** The keys below a directory (SC l.311-315, l.333-337). *)
Definition below (k : string) (d : data) : list string :=
  filter (fun f => String.eqb k f || String.prefix k f) (map fst d).

(** SC l.234-258; the notification is in [step]. *)
Definition key_value_set (k v : string) (allow_overwrite : bool) (d : data) : result unit * data :=
  match get k d with
  | Some _ => if allow_overwrite then (Ok tt, put k v d) else (Err KeyError, d)
  | None => (Ok tt, put k v d)
  end.

(** SC l.287-297 *)
Definition key_value_try_get (k : string) (d : data) : option string := get k d.

(** SC l.299-320 *)
Definition key_value_delete (k : string) (d : data) : data :=
  if ends_slash k then fold_left (fun d x => del x d) (below k d) d
  else match get k d with Some _ => del k d | None => d end.

(** [self._data[k]] (SC l.338) *)
Definition fetch (d : data) (k : string) : result (string * string) :=
  match get k d with Some v => Ok (k, v) | None => Err KeyError end.

(** SC l.322-338, when nothing else happens meanwhile. *)
Definition key_value_dir_get (k : string) (d : data) : result (list (string * string)) :=
  if ends_slash k then sequence (map (fetch d) (below k d)) else Err ValueError.

(** ** Threads *)

(** Operations (SC l.234-357). *)
Inductive op : Type :=
| OSet (k v : string) (allow_overwrite : bool)
| OTryGet (k : string)
| ODelete (k : string)
| ODirGet (k : string)
| OBlockingGet (k : string)
| OBarrier (k : string).

(** What an operation gives back (SC l.234-357). *)
Inductive ret : Type :=
| RUnit (r : result unit)
| ROpt (o : option string)
| RVal (r : result string)
| RList (r : result (list (string * string))).

(** What a thread is doing: nothing, waiting on the condition (notified or not) at
    SC l.278, or fetching the values of the keys it has collected at SC l.338. *)
Inductive pending : Type :=
| Idle
| Waiting (k : string) (notified : bool)
| Fetching (k : string) (todo : list string) (got : list (string * string)).

(** The store, the threads, and the operations that ended with their results, in
    order (SC l.228-232). *)
Record state : Type := mk_state { store : data; threads : list pending; ended : list (op * ret) }.

(** A new client with [n] threads (SC l.228-232). *)
Definition initial (n : nat) : state := mk_state [] (repeat Idle n) [].

(** [notify_all] (SC l.258) *)
Definition notify (p : pending) : pending := match p with Waiting k _ => Waiting k true | _ => p end.

(** What a thread does next: it calls an operation, it comes out of [wait] (after a
    notification or after its time), it fetches one value (SC l.234-357). *)
Inductive event : Type :=
| Call (t : nat) (o : op)
| Wake (t : nat)
| Fetch (t : nat).

(** The operation of thread [t] ends (SC l.234-357). *)
Definition finish (st : state) (d : data) (ths : list pending) (t : nat) (o : op) (r : ret) : state :=
  mk_state d (set_nth t Idle ths) (ended st ++ [(o, r)]).

(** One step.  Everything between acquiring and releasing the lock is one step;
    collecting the keys in [key_value_dir_get], which takes no lock, is one step too,
    but each value is fetched in a step of its own (SC l.234-357).
    A thread woken without a notification raises if the key is still absent
    (SC l.280-283); one woken by a notification goes on waiting then. *)
Definition step (st : state) (e : event) : option state :=
  match e with
  | Call t o =>
      match nth_error (threads st) t with
      | Some Idle =>
          match o with
          | OSet k v w =>
              match key_value_set k v w (store st) with
              | (Ok _, d) => Some (finish st d (map notify (threads st)) t o (RUnit (Ok tt)))
              | (Err x, d) => Some (finish st d (threads st) t o (RUnit (Err x)))
              end
          | OTryGet k => Some (finish st (store st) (threads st) t o (ROpt (key_value_try_get k (store st))))
          | ODelete k => Some (finish st (key_value_delete k (store st)) (threads st) t o (RUnit (Ok tt)))
          | ODirGet k =>
              if ends_slash k
              then Some (mk_state (store st) (set_nth t (Fetching k (below k (store st)) []) (threads st)) (ended st))
              else Some (finish st (store st) (threads st) t o (RList (Err ValueError)))
          | OBlockingGet k =>
              match get k (store st) with
              | Some v => Some (finish st (store st) (threads st) t o (RVal (Ok v)))
              | None => Some (mk_state (store st) (set_nth t (Waiting k false) (threads st)) (ended st))
              end
          | OBarrier k => Some (finish st (store st) (threads st) t o (RUnit (Err NotImplementedError)))
          end
      | _ => None
      end
  | Wake t =>
      match nth_error (threads st) t with
      | Some (Waiting k notified) =>
          match get k (store st) with
          | Some v => Some (finish st (store st) (threads st) t (OBlockingGet k) (RVal (Ok v)))
          | None =>
              if notified then Some (mk_state (store st) (set_nth t (Waiting k false) (threads st)) (ended st))
              else Some (finish st (store st) (threads st) t (OBlockingGet k) (RVal (Err TimeoutError)))
          end
      | _ => None
      end
  | Fetch t =>
      match nth_error (threads st) t with
      | Some (Fetching k [] got) => Some (finish st (store st) (threads st) t (ODirGet k) (RList (Ok got)))
      | Some (Fetching k (x :: todo) got) =>
          match fetch (store st) x with
          | Ok kv => Some (mk_state (store st) (set_nth t (Fetching k todo (got ++ [kv])) (threads st)) (ended st))
          | Err e => Some (finish st (store st) (threads st) t (ODirGet k) (RList (Err e)))
          end
      | _ => None
      end
  end.

(** A run (SC l.234-357). *)
Fixpoint play (st : state) (es : list event) : option state :=
  match es with
  | [] => Some st
  | e :: r => match step st e with Some st' => play st' r | None => None end
  end.

(** ** Signals *)

(** SY l.29-48 *)
Inductive signal : Type := Contract | StepDirectory | ItemDirectory.

(** SY l.46-48 *)
Definition value (s : signal) : string :=
  match s with
  | Contract => "awaitable_signals_contract"
  | StepDirectory => "step_directory_creation"
  | ItemDirectory => "item_directory_creation"
  end.

(** [HandlerAwaitableSignal(value)] (FU l.101) *)
Definition of_value (v : string) : result signal :=
  if String.eqb v (value Contract) then Ok Contract
  else if String.eqb v (value StepDirectory) then Ok StepDirectory
  else if String.eqb v (value ItemDirectory) then Ok ItemDirectory
  else Err ValueError.

(** FU l.43, l.61, l.153 *)
Definition directory (operation_id : string) : string :=
  ("awaitable_signals_contract" ++ "_" ++ operation_id ++ "/")%string.

(** FU l.46-62 get_unique_awaitable_singal_key *)
Definition signal_key (s : signal) (operation_id : string) : string := (directory operation_id ++ value s)%string.

(** [str.split(',')] (FU l.102) *)
Fixpoint split_comma (s : string) : list string :=
  match s with
  | EmptyString => [EmptyString]
  | String c r =>
      if Ascii.eqb c ","%char then EmptyString :: split_comma r
      else match split_comma r with
           | [] => [String c EmptyString]
           | h :: t => String c h :: t
           end
  end.

(** [','.join(...)] (FU l.123-125) *)
Fixpoint join_comma (l : list string) : string :=
  match l with
  | [] => EmptyString
  | [a] => a
  | a :: r => (a ++ "," ++ join_comma r)%string
  end.

(** FU l.64-103 get_awaitable_signals_from_contract *)
Definition contract_signals (operation_id : string) (d : data) : result (list signal) :=
  match key_value_try_get (signal_key Contract operation_id) d with
  | None => Ok []
  | Some v => sequence (map of_value (split_comma v))
  end.

(** FU l.121-134: the new contract, given what was read. *)
Definition write_contract (operation_id : string) (current signals : list signal) (d : data) : data :=
  snd (key_value_set (signal_key Contract operation_id) (join_comma (map value (current ++ signals))) true d).

(** FU l.105-142 add_to_awaitable_signals_contract, undisturbed. *)
Definition add_contract (operation_id : string) (signals : list signal) (d : data) : result data :=
  match signals with
  | [] => Ok d
  | _ => match contract_signals operation_id d with
         | Ok current => Ok (write_contract operation_id current signals d)
         | Err e => Err e
         end
  end.

(** FU l.144-160 remove_all_awaitable_signals *)
Definition remove_signals (operation_id : string) (d : data) : data := key_value_delete (directory operation_id) d.

(** FU l.32 *)
Definition success : string := "signal_action_success".

(** FU l.267-289 set_signals *)
Definition set_signals (operation_id : string) (signals : list signal) (d : data) : data :=
  fold_left (fun d s => snd (key_value_set (signal_key s operation_id) success true d)) signals d.

(** FU l.242-264 wait_for_signals on a store that does not change: it comes back iff
    every key is there. *)
Definition signals_there (operation_id : string) (signals : list signal) (d : data) : bool :=
  forallb (fun s => match get (signal_key s operation_id) d with Some _ => true | None => false end) signals.

(** ** Operation ids *)

(** SY l.63-66 get_current_operation_id *)
Definition id_string (n : N) : string := string_of_list_ascii (dec n).

(** The counter's next value and [_operation_id] (SY l.54-55). *)
Record ids : Type := mk_ids { counter : N; current : N }.
(** SY l.54-55 *)
Definition ids_initial : ids := mk_ids 1 0.
(** SY l.60: the assignment. *)
Definition advance (g : ids) : ids := mk_ids (counter g + 1) (counter g).
(** SY l.57-61 next_operation_id, undisturbed. *)
Definition next_operation_id (g : ids) : N * ids := let g' := advance g in (current g', g').

(** The two lines of [next_operation_id] as steps of several threads: [Advance] is
    SY l.60, [Return t] is SY l.61 by thread [t]. *)
Inductive id_event : Type := Advance (t : nat) | Return (t : nat).
(** What the threads got, in order (SY l.57-61). *)
Fixpoint id_run (g : ids) (es : list id_event) : list (nat * N) :=
  match es with
  | [] => []
  | Advance _ :: r => id_run (advance g) r
  | Return t :: r => (t, current g) :: id_run g r
  end.
