(** Model of the controller's part of a colocated save: the handoff of the payload to the workers in a thread of its own, and the draining,
    finishing and checking of a pending save by several callers at the same time.
    Source: checkpoint/orbax/checkpoint/experimental/emergency/multi_tier_checkpointing/colocated_controller.py ("CC").
    What is done while [self._lock] is held (CC l.171) is one step, and so is each read and each write without it; steps of callers, of the threads
    of the handoffs and of the workers are interleaved in any order. What the workers will answer to a save is a part of the save from the beginning, and
    becomes ready at some time. The saving of the dataset by the persistent manager and the waiting for the workers may fail (with OtherError).
    Simplifications: of a save there are only whether it has a dataset, and the answer of the workers (CC l.245-253, the agreement is C71's); a caller asks whether a step is to be
    saved before it saves (CC l.957-967, also C71). Not modelled: the preparation of the state (CC l.984-994), the persistent manager itself, timing, logging. *)
From Coq Require Import List Bool Arith.
From Verif Require Import Base.
Import ListNotations.

(** ** The state *)

(** Where the thread of a handoff is: not started (CC l.198-206), waiting for the workers (CC l.237), before the release of the payload (CC l.255, l.218),
    before the publication (CC l.220, l.224), before its end, ended *)
Inductive thread : Type := TNew | TWait | TRelease | TPublish | TExit | TEnd.

(** A pending save (CC l.135-153). The first three say what the workers will answer and whether they have; [r_persisted] counts how often the dataset was saved. *)
Record record : Type := mkRecord {
  r_dataset : bool;
  r_fate : result bool;
  r_ready : bool;
  r_keepalive : bool;
  r_thread : thread;
  r_done : bool;
  r_handoff_saved : option bool;
  r_error : option err;
  r_saved : option bool;
  r_owner : option nat;
  r_persisted : nat }.

(** What follows when a pending save is finished: the caller returns, or it publishes its own save (CC l.972-1009; asynchronous?, dataset?, answer) *)
Inductive after : Type := AfterReturn | AfterPublish (asynchronous dataset : bool) (fate : result bool).

(** Why a save is drained: [drain] (CC l.270-276), waiting or not, or [finish] (CC l.345) *)
Inductive purpose : Type := ForDrain (wait : bool) | ForFinish (a : after).

(** Where a caller is: in [save] (CC l.972-1021), [finish] (CC l.341-355), [drain] and [_drain] (CC l.272-308) or [raise_on_handoff_error] (CC l.312-321) *)
Inductive pc : Type :=
| Idle
| SaveCheck (asynchronous dataset : bool) (fate : result bool)
| FinRead (a : after)
| DrainRead (wait : bool)
| Acquire (i : nat) (p : purpose)
| SavedCheck (i : nat) (p : purpose)
| Join (i : nat) (p : purpose)
| Done (i : nat) (p : purpose)
| Persist (i : nat) (p : purpose)
| SetSaved (i : nat) (b : bool) (p : purpose)
| FinWait (i : nat) (b : bool) (a : after)
| FinClear (i : nat) (out : result (option bool)) (a : after)
| Publish (asynchronous dataset : bool) (fate : result bool)
| Start (i : nat) (asynchronous : bool)
| CheckRead
| Check (i : nat).

(** The saves so far, which of them is pending (CC l.172), and the callers *)
Record state : Type := mkState { recs : list record; pending : option nat; callers : list pc }.

(** The calls: [save] (CC l.936-1021), [drain] (CC l.270-276), [finish] (CC l.339-361) and [raise_on_handoff_error] (CC l.310-321) *)
Inductive call : Type := CSave (asynchronous dataset : bool) (fate : result bool) | CDrain (wait : bool) | CFinish | CCheck.

(** The steps: a caller begins a call, a caller goes on ([fine]: what may fail (CC l.294, l.348) does not), the answer of the workers becomes ready (CC l.237), a thread goes on (CC l.209-228) *)
Inductive action : Type := ABegin (c : nat) (o : call) | AGo (c : nat) (fine : bool) | AReady (i : nat) | AThread (i : nat).

(** What the callers see: a call that concerned the save [i] (or none) has returned or raised, an asynchronous save has been dispatched (CC l.1021) *)
Inductive event : Type := Returned (c : nat) (i : option nat) (out : result (option bool)) | Dispatched (c i : nat).

(** No saves, and [n] callers with nothing to do (CC l.165-174) *)
Definition initial (n : nat) : state := mkState [] None (repeat Idle n).

(** [l[i] = v] (CC l.205 and others) *)
Fixpoint put {A : Type} (i : nat) (v : A) (l : list A) : list A :=
  match l, i with
  | [], _ => []
  | _ :: r, 0 => v :: r
  | x :: r, S i' => x :: put i' v r
  end.

(** ** Parts of steps *)

(** Whether a thread runs, as [is_alive] says (CC l.265) *)
Definition alive (t : thread) : bool := match t with TNew | TEnd => false | _ => true end.

(** CC l.278: whether the thread is waited for; [finish] does (CC l.345) *)
Definition waits (p : purpose) : bool := match p with ForDrain w => w | ForFinish _ => true end.

(** A pending save as CC l.1000-1008 make it, with its thread (CC l.198-206) *)
Definition fresh (dataset : bool) (fate : result bool) : record :=
  mkRecord dataset fate false true TNew false None None None None 0.

(** The answer is ready (CC l.237). *)
Definition set_ready (r : record) : record :=
  mkRecord (r_dataset r) (r_fate r) true (r_keepalive r) (r_thread r) (r_done r) (r_handoff_saved r) (r_error r) (r_saved r) (r_owner r) (r_persisted r).

(** The thread is at [t] (CC l.207, l.237). *)
Definition set_thread (t : thread) (r : record) : record :=
  mkRecord (r_dataset r) (r_fate r) (r_ready r) (r_keepalive r) t (r_done r) (r_handoff_saved r) (r_error r) (r_saved r) (r_owner r) (r_persisted r).

(** CC l.323-329 *)
Definition release_keepalive (r : record) : record :=
  mkRecord (r_dataset r) (r_fate r) (r_ready r) false (r_thread r) (r_done r) (r_handoff_saved r) (r_error r) (r_saved r) (r_owner r) (r_persisted r).

(** The lock of the draining is taken by [o] (CC l.280), or given back. *)
Definition set_owner (o : option nat) (r : record) : record :=
  mkRecord (r_dataset r) (r_fate r) (r_ready r) (r_keepalive r) (r_thread r) (r_done r) (r_handoff_saved r) (r_error r) (r_saved r) o (r_persisted r).

(** CC l.300-301 *)
Definition set_saved (b : bool) (r : record) : record :=
  mkRecord (r_dataset r) (r_fate r) (r_ready r) (r_keepalive r) (r_thread r) (r_done r) (r_handoff_saved r) (r_error r) (Some b) (r_owner r) (r_persisted r).

(** The dataset has been saved once more (CC l.1308-1326). *)
Definition persist (r : record) : record :=
  mkRecord (r_dataset r) (r_fate r) (r_ready r) (r_keepalive r) (r_thread r) (r_done r) (r_handoff_saved r) (r_error r) (r_saved r) (r_owner r) (S (r_persisted r)).

(** CC l.220-222 for an error, CC l.224-228 for an answer *)
Definition publish (r : record) : record :=
  match r_fate r with
  | Err e => mkRecord (r_dataset r) (r_fate r) (r_ready r) (r_keepalive r) TExit true (r_handoff_saved r) (Some e) (r_saved r) (r_owner r) (r_persisted r)
  | Ok b =>
    mkRecord (r_dataset r) (r_fate r) (r_ready r) (r_keepalive r) TExit true (Some b) (r_error r)
             (if negb b || negb (r_dataset r) then Some b else r_saved r) (r_owner r) (r_persisted r)
  end.

(** One step of a thread (CC l.209-257); it cannot go on before the workers have answered (CC l.237). *)
Definition thread_step (r : record) : option record :=
  match r_thread r with
  | TNew => None
  | TWait => if r_ready r then Some (set_thread TRelease r) else None
  | TRelease => Some (set_thread TPublish (release_keepalive r))
  | TPublish => Some (publish r)
  | TExit => Some (set_thread TEnd r)
  | TEnd => None
  end.

(** Caller [c] is at [q] (CC l.270-361). *)
Definition at_pc (s : state) (c : nat) (q : pc) : state := mkState (recs s) (pending s) (put c q (callers s)).

(** Save [i] is [r], and caller [c] is at [q] (CC l.270-361). *)
Definition with_rec (s : state) (i : nat) (r : record) (c : nat) (q : pc) : state := mkState (put i r (recs s)) (pending s) (put c q (callers s)).

(** The draining of [i] returns [b] and gives the lock back (CC l.280-308): back from [drain], or on in [finish] (CC l.345-347) *)
Definition drained (s : state) (c i : nat) (r : record) (b : bool) (p : purpose) : state * list event :=
  match p with
  | ForDrain _ => (with_rec s i (set_owner None r) c Idle, [Returned c (Some i) (Ok (Some b))])
  | ForFinish a => (with_rec s i (set_owner None r) c (FinWait i b a), [])
  end.

(** The draining of [i] raises [e] and gives the lock back; nothing of [finish] or [save] catches it (CC l.345 is before the [try] of CC l.346). *)
Definition raised (s : state) (c i : nat) (r : record) (e : err) : state * list event :=
  (with_rec s i (set_owner None r) c Idle, [Returned c (Some i) (Err e)]).

(** ** Steps *)

(** A call begins (CC l.936, l.270, l.339, l.310). *)
Definition begin (o : call) : pc :=
  match o with
  | CSave asynchronous dataset fate => SaveCheck asynchronous dataset fate
  | CDrain w => DrainRead w
  | CFinish => FinRead AfterReturn
  | CCheck => CheckRead
  end.

(** One step of caller [c] at [q] (CC l.270-361, l.972-1021); [None] if it has to wait *)
Definition go (s : state) (c : nat) (q : pc) (fine : bool) : option (state * list event) :=
  match q with
  | Idle => None
  (* CC l.972-977 *)
  | SaveCheck asynchronous dataset fate =>
    Some (at_pc s c (match pending s with Some _ => FinRead (AfterPublish asynchronous dataset fate) | None => Publish asynchronous dataset fate end), [])
  (* CC l.341-344 *)
  | FinRead a =>
    match pending s with
    | Some i => Some (at_pc s c (Acquire i (ForFinish a)), [])
    | None => match a with
              | AfterReturn => Some (at_pc s c Idle, [Returned c None (Ok None)])
              | AfterPublish asynchronous dataset fate => Some (at_pc s c (Publish asynchronous dataset fate), [])
              end
    end
  (* CC l.272-276 *)
  | DrainRead w =>
    match pending s with
    | Some i => Some (at_pc s c (Acquire i (ForDrain w)), [])
    | None => Some (at_pc s c Idle, [Returned c None (Ok (Some false))])
    end
  (* CC l.280 *)
  | Acquire i p =>
    match nth_error (recs s) i with
    | Some r => match r_owner r with
                | None => Some (with_rec s i (set_owner (Some c) r) c (SavedCheck i p), [])
                | Some _ => None
                end
    | None => None
    end
  (* CC l.281-282 *)
  | SavedCheck i p =>
    match nth_error (recs s) i with
    | Some r => match r_saved r with
                | Some b => Some (drained s c i r b p)
                | None => Some (at_pc s c (Join i p), [])
                end
    | None => None
    end
  (* CC l.261-266; a thread that was not started cannot be joined *)
  | Join i p =>
    match nth_error (recs s) i with
    | Some r =>
      if waits p then
        match r_thread r with
        | TNew => Some (raised s c i r RuntimeError)
        | TEnd => Some (at_pc s c (Done i p), [])
        | _ => None
        end
      else if alive (r_thread r) then Some (drained s c i r false p) else Some (at_pc s c (Done i p), [])
    | None => None
    end
  (* CC l.267-268, l.283-293 *)
  | Done i p =>
    match nth_error (recs s) i with
    | Some r =>
      if r_done r then
        match r_error r with
        | Some e => Some (raised s c i r e)
        | None => match r_handoff_saved r with
                  | None => Some (raised s c i r RuntimeError)
                  | Some true => Some (at_pc s c (Persist i p), [])
                  | Some false => Some (at_pc s c (SetSaved i false p), [])
                  end
        end
      else Some (drained s c i r false p)
    | None => None
    end
  (* CC l.294-299, l.1317-1326 *)
  | Persist i p =>
    match nth_error (recs s) i with
    | Some r =>
      if r_dataset r then
        if fine then Some (with_rec s i (persist r) c (SetSaved i true p), []) else Some (raised s c i r OtherError)
      else Some (at_pc s c (SetSaved i true p), [])
    | None => None
    end
  (* CC l.300-308 *)
  | SetSaved i b p =>
    match nth_error (recs s) i with
    | Some r => Some (drained s c i (set_saved b r) b p)
    | None => None
    end
  (* CC l.346-349 *)
  | FinWait i b a =>
    match nth_error (recs s) i with
    | Some r =>
      Some (at_pc s c (FinClear i (match r_saved r with
                                   | Some true => if fine then Ok (Some b) else Err OtherError
                                   | _ => Ok (Some b)
                                   end) a), [])
    | None => None
    end
  (* CC l.350-355, and on in [save] (CC l.977-1009) unless it raises *)
  | FinClear i out a =>
    match nth_error (recs s) i with
    | Some r =>
      let cleared q := mkState (put i (release_keepalive r) (recs s))
                               (match pending s with Some j => if j =? i then None else pending s | None => None end) (put c q (callers s)) in
      Some (match a, out with
            | AfterPublish asynchronous dataset fate, Ok _ => (cleared (Publish asynchronous dataset fate), [])
            | _, _ => (cleared Idle, [Returned c (Some i) out])
            end)
    | None => None
    end
  (* CC l.1000-1009, l.204-206 *)
  | Publish asynchronous dataset fate =>
    let i := length (recs s) in
    Some (mkState (recs s ++ [fresh dataset fate]) (Some i) (put c (Start i asynchronous) (callers s)), [])
  (* CC l.207, l.1010-1021 *)
  | Start i asynchronous =>
    match nth_error (recs s) i with
    | Some r =>
      if asynchronous then Some (with_rec s i (set_thread TWait r) c Idle, [Dispatched c i])
      else Some (with_rec s i (set_thread TWait r) c (FinRead AfterReturn), [])
    | None => None
    end
  (* CC l.312-315 *)
  | CheckRead =>
    match pending s with
    | Some i => Some (at_pc s c (Check i), [])
    | None => Some (at_pc s c Idle, [Returned c None (Ok None)])
    end
  (* CC l.316-321 *)
  | Check i =>
    match nth_error (recs s) i with
    | Some r =>
      Some (at_pc s c Idle, [Returned c (Some i) (if alive (r_thread r) then Ok None
                                                  else match r_error r with Some e => if r_done r then Err e else Ok None | None => Ok None end)])
    | None => None
    end
  end.

(** One step of the whole (CC l.156-361) *)
Definition step (s : state) (x : action) : option (state * list event) :=
  match x with
  | ABegin c o => match nth_error (callers s) c with Some Idle => Some (at_pc s c (begin o), []) | _ => None end
  | AGo c fine => match nth_error (callers s) c with Some q => go s c q fine | None => None end
  | AReady i =>
    match nth_error (recs s) i with
    | Some r => if r_ready r then None else Some (mkState (put i (set_ready r) (recs s)) (pending s) (callers s), [])
    | None => None
    end
  | AThread i =>
    match nth_error (recs s) i with
    | Some r => match thread_step r with
                | Some r' => Some (mkState (put i r' (recs s)) (pending s) (callers s), [])
                | None => None
                end
    | None => None
    end
  end.

(** The steps [l] one after the other, with what the callers see (CC l.156-361) *)
Fixpoint exec (s : state) (l : list action) : option (state * list event) :=
  match l with
  | [] => Some (s, [])
  | x :: r => match step s x with
              | Some (s', es) => match exec s' r with Some (s'', es') => Some (s'', es ++ es') | None => None end
              | None => None
              end
  end.

(** CC l.190-193 *)
Definition has_undrained_pending_save (s : state) : bool :=
  match pending s with
  | Some i => match nth_error (recs s) i with Some r => match r_saved r with None => true | Some _ => false end | None => false end
  | None => false
  end.
