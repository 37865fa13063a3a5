(** Model of the tiering service: its database, the calls of clients and the workers that claim and
    process jobs, as a transition system.
    Sources, in checkpoint/orbax/checkpoint/experimental/tiering_service: assets.py ("AS"), db_lib.py
    ("DL"), db_schema.py ("DS"), job_worker.py ("JW"), server.py ("SV").
    Simplifications: a row is named by its position in its table (uuids and automatic ids are unique and
    rows are never removed); times are whole numbers of microseconds; a worker (host name and process id)
    is a number; of [transfer_status] only the presence of a request id is kept; [last_updated_at],
    users, tags, storage paths and permissions are left out.  The database executes statements one after
    the other; a transaction that reads without locking and writes later is modelled in two steps, rows
    locked with FOR UPDATE stay locked until its end (PostgreSQL at its default isolation level; the
    code takes the statements for accepted as written).  The two unique indexes are checked at commit.
    All workers read the same clock, possibly some time before they use the reading.  [created_at] is the
    time of the statement that adds the row; the time to live of a copied tier path starts at the reading
    of the clock used for the poll; a deletion is dated at its end.  [prefetch_keep_alive] and
    [reserve_keep_alive] are single steps.  What is deleted physically is not modelled. *)
From Coq Require Import List Bool Arith ZArith.
From Verif Require Import Base Backend_Model.
Import ListNotations.

(** ** Tables *)

(** DS l.35-42 (the unspecified state is never stored by this code) *)
Inductive asset_state : Type := ActiveWrite | Stored | Deleted | Incomplete.
(** DS l.72-81 *)
Inductive tier_state : Type := Pending | InProgress | Ready | TFailed | TDeleted | DeleteInProcess.
(** DS l.53-60 *)
Inductive job_status : Type := Queued | Processing | Completed | Failed.
(** DS l.63-69 *)
Inductive request : Type := Copy | DeleteInstance | DeleteAll.

(** DS l.106-140 *)
Record asset : Type := mkAsset { a_path : str; a_state : asset_state; a_finalized : option Z; a_deleted : option Z; a_write_exp : option Z }.
(** DS l.328-360 *)
Record tier : Type := mkTier { t_asset : nat; t_backend : nat; t_state : tier_state; t_ready : option Z; t_exp : option Z }.
(** DS l.423-478 *)
Record job : Type := mkJob {
  j_asset : nat; j_type : request; j_status : job_status; j_target : option nat; j_request : bool;
  j_exp : option Z; j_worker : option nat; j_created : Z; j_done : option Z }.
(** The four tables (DS l.106, l.193, l.328, l.423) *)
Record db : Type := mkDb { backends : list backend; assets : list asset; tiers : list tier; jobs : list job }.

(** Keep-alive interval, lease and the bound on active jobs (JW l.117-124, SV l.196-198, AS l.314-316) *)
Record config : Type := mkConfig { keep_alive : Z; lease : Z; max_active : nat }.

(** A change of one row (AS l.376, JW l.551) *)
Definition upd {A : Type} (i : nat) (f : A -> A) (l : list A) : list A :=
  match nth_error l i with Some x => set_nth i (f x) l | None => l end.

(** Equality of states, as the queries use it (DS l.118-120, SV l.226) *)
Definition asset_state_eqb (a b : asset_state) : bool :=
  match a, b with ActiveWrite, ActiveWrite | Stored, Stored | Deleted, Deleted | Incomplete, Incomplete => true | _, _ => false end.
(** DS l.438-442 *)
Definition status_eqb (a b : job_status) : bool :=
  match a, b with Queued, Queued | Processing, Processing | Completed, Completed | Failed, Failed => true | _, _ => false end.
(** DS l.433-437 *)
Definition request_eqb (a b : request) : bool :=
  match a, b with Copy, Copy | DeleteInstance, DeleteInstance | DeleteAll, DeleteAll => true | _, _ => false end.

(** DS l.156-163: the states of live assets *)
Definition live (a : asset) : bool := match a_state a with ActiveWrite | Stored => true | _ => false end.
(** DS l.375-384: the states of active tier paths *)
Definition active (t : tier) : bool := match t_state t with Pending | InProgress | Ready => true | _ => false end.

(** No two rows of a table collide *)
(** DS l.152-164, l.370-385: a unique index *)
Fixpoint no_clash {A : Type} (clash : A -> A -> bool) (l : list A) : bool :=
  match l with [] => true | x :: l' => negb (existsb (clash x) l') && no_clash clash l' end.
(** DS l.152-164 *)
Definition asset_clash (a b : asset) : bool := live a && live b && str_eqb (a_path a) (a_path b).
(** DS l.370-385 *)
Definition tier_clash (t u : tier) : bool :=
  active t && active u && (t_asset t =? t_asset u) && (t_backend t =? t_backend u).

(** [session.commit()]: the unique indexes (AS l.328, l.427, l.692; DL l.461) *)
Definition commit (d : db) : result db :=
  if no_clash asset_clash (assets d) && no_clash tier_clash (tiers d) then Ok d else Err OtherError.

(** AS l.258-276 calculate_expires_at with the default ratio of one fifth *)
Definition expires_at (now interval : Z) : Z := now + (interval + interval / 5).

(** The tier paths of an asset, in the order of their ids (AS l.403, l.518) *)
Definition tiers_of (d : db) (a : nat) : list nat :=
  filter (fun i => match nth_error (tiers d) i with Some t => t_asset t =? a | None => false end) (seq 0 (List.length (tiers d))).

(** ** Calls of clients *)

(** AS l.279-353 create_or_fetch_asset: a new asset with one tier path, or the live one of this path. *)
Definition create_or_fetch (c : config) (d : db) (path : str) (b : nat) (now : Z) : db * result nat :=
  let n := List.length (assets d) in
  match commit (mkDb (backends d) (assets d ++ [mkAsset path ActiveWrite None None (Some (expires_at now (keep_alive c)))])
                     (tiers d ++ [mkTier n b Pending None None]) (jobs d)) with
  | Ok d' => (d', Ok n)
  | Err _ =>
      (d, match find (fun i => match nth_error (assets d) i with Some a => live a && str_eqb (a_path a) path | None => false end) (seq 0 n) with
          | Some i => Ok i
          | None => Err ValueError
          end)
  end.

(** AS l.356-378 reserve_keep_alive *)
Definition reserve_keep_alive (c : config) (d : db) (a : nat) (now : Z) : db :=
  mkDb (backends d) (upd a (fun x => mkAsset (a_path x) (a_state x) (a_finalized x) (a_deleted x) (Some (expires_at now (keep_alive c)))) (assets d))
       (tiers d) (jobs d).

(** SV l.219-251, AS l.400-415: the first half of Finalize reads the asset and its tier paths. *)
Definition finalize_read (d : db) (a : nat) : result (list nat) :=
  match nth_error (assets d) a with
  | None => Err KeyError
  | Some x =>
      if asset_state_eqb (a_state x) ActiveWrite
      then match tiers_of d a with [] => Err ValueError | ts => Ok ts end
      else Err ValueError
  end.

(** AS l.417-427: the second half writes. *)
Definition finalize_write (d : db) (a : nat) (ts : list nat) (now : Z) : result db :=
  commit (mkDb (backends d)
    (upd a (fun x => mkAsset (a_path x) Stored (Some now) (a_deleted x) None) (assets d))
    (fold_left (fun l i => upd i (fun t => mkTier (t_asset t) (t_backend t) Ready (Some now) (t_exp t)) l) ts (tiers d)) (jobs d)).

(** Equality of backends (AS l.533: the backend found, as a row) *)
Definition backend_eqb (a b : backend) : bool :=
  Z.eqb (level a) (level b) && opt_eqb (zone a) (zone b) && opt_eqb (region a) (region b)
  && (match multi_regions a, multi_regions b with Some x, Some y => strs_eqb x y | None, None => true | _, _ => false end)
  && type_eqb (btype a) (btype b) && str_eqb (bprefix a) (bprefix b).

(** AS l.517-521: the backend of level 0 of the asset *)
Definition level0_of (d : db) (ts : list nat) : option backend :=
  let bs := map (fun i => match nth_error (tiers d) i with Some t => nth_error (backends d) (t_backend t) | None => None end) ts in
  match find (fun o => match o with Some b => Z.eqb (level b) 0 | None => false end) bs with Some o => o | None => None end.

(** A new tier path with the job that copies to it (AS l.544-558, l.673-687) *)
Definition add_copy (d : db) (a b : nat) (exp : option Z) (now : Z) : result db :=
  commit (mkDb (backends d) (assets d) (tiers d ++ [mkTier a b Pending None exp])
    (jobs d ++ [mkJob a Copy Queued (Some (List.length (tiers d))) false None None now None])).

(** AS l.503-564 trigger_l0_to_l1_copy; [ts] are the tier paths read by Finalize. *)
Definition trigger_copy (d : db) (a : nat) (ts : list nat) (now : Z) : result db :=
  match level0_of d ts with
  | None => Err ValueError
  | Some b0 =>
      let l1 := find_backends_by_level (Some 1%Z) (backends d) in
      match find_matching_backend l1 b0 with
      | None => match l1 with [] => Ok d | _ => Err ValueError end
      | Some b1 =>
          match find (fun i => match nth_error (backends d) i with Some b => backend_eqb b b1 | None => false end) (seq 0 (List.length (backends d))) with
          | Some i => add_copy d a i None now
          | None => Err OtherError
          end
      end
  end.

(** A job that is queued or processing (AS l.576-579, l.601-604) *)
Definition unfinished (j : job) : bool := match j_status j with Queued | Processing => true | _ => false end.

(** AS l.567-583 is_delete_pending *)
Definition is_delete_pending (d : db) (a : nat) : bool :=
  existsb (fun j => (j_asset j =? a) && request_eqb (j_type j) DeleteAll && unfinished j) (jobs d).

(** AS l.586-608 is_tier_path_delete_pending *)
Definition is_tier_delete_pending (d : db) (a t : nat) : bool :=
  existsb (fun j => (j_asset j =? a) && (match j_target j with Some t' => t' =? t | None => false end)
                    && request_eqb (j_type j) DeleteInstance && unfinished j) (jobs d).

(** SV l.322-360, AS l.645-662: the first half of Prefetch reads; [Ok false]: the tier path is already
    there. *)
Definition prefetch_read (d : db) (a b : nat) : result bool :=
  match nth_error (assets d) a with
  | None => Err KeyError
  | Some x =>
      if negb (asset_state_eqb (a_state x) Stored) then Err KeyError
      else if existsb (fun t => (t_asset t =? a) && (t_backend t =? b) && active t) (tiers d) then Ok false
      else if is_delete_pending d a then Err ValueError
      else Ok true
  end.

(** AS l.666-707: the second half writes. *)
Definition prefetch_write (c : config) (d : db) (a b : nat) (now : Z) : result db :=
  add_copy d a b (Some (expires_at now (keep_alive c))) now.

(** AS l.710-787 prefetch_keep_alive; the result is the asset. *)
Definition prefetch_keep_alive (c : config) (d : db) (i : nat) (now : Z) : db * result (option nat) :=
  match nth_error (tiers d) i with
  | None => (d, Ok None)
  | Some t =>
      if (match t_state t with TFailed => true | _ => false end) then (d, Err RuntimeError)
      else if is_delete_pending d (t_asset t) then (d, Err ValueError)
      else if is_tier_delete_pending d (t_asset t) i then (d, Err ValueError)
      else match t_exp t with
           | None => (d, Ok (Some (t_asset t)))
           | Some e =>
               let n := expires_at now (keep_alive c) in
               if Z.ltb e n
               then (mkDb (backends d) (assets d) (upd i (fun t => mkTier (t_asset t) (t_backend t) (t_state t) (t_ready t) (Some n)) (tiers d)) (jobs d), Ok (Some (t_asset t)))
               else (d, Ok (Some (t_asset t)))
           end
  end.

(** SV l.510-523, AS l.790-828 queue_delete_asset_job, under the lock of the asset's row *)
Definition queue_delete (d : db) (a : nat) (now : Z) : result db :=
  match nth_error (assets d) a with
  | None => Err KeyError
  | Some x =>
      if negb (live x) then Err KeyError
      else if asset_state_eqb (a_state x) Deleted then Err ValueError
      else if is_delete_pending d a then Err ValueError
      else Ok (mkDb (backends d) (assets d) (tiers d) (jobs d ++ [mkJob a DeleteAll Queued None false None None now None]))
  end.

(** ** Deletion *)

(** AS l.836-838, l.864-866, l.900-902, l.920-922: a tier path leaves service *)
Definition leave (s : tier_state) (t : tier) : tier := mkTier (t_asset t) (t_backend t) s None None.

(** AS l.831-840 begin_delete_tier_path, l.907-924 complete_delete_tier_path *)
Definition delete_tier (s : tier_state) (d : db) (i : nat) : db := mkDb (backends d) (assets d) (upd i (leave s) (tiers d)) (jobs d).

(** AS l.843-867 begin_delete_asset, l.870-904 complete_delete_asset *)
Definition delete_asset (s : tier_state) (d : db) (a : nat) (now : Z) : db :=
  match nth_error (assets d) a with
  | None => d
  | Some _ =>
      mkDb (backends d) (upd a (fun x => mkAsset (a_path x) Deleted (a_finalized x) (Some now) (a_write_exp x)) (assets d))
           (map (fun t => if t_asset t =? a then leave s t else t) (tiers d)) (jobs d)
  end.

(** ** Claiming a job *)

(** [expiration_at >= now] of a processing job; a missing time compares as false (DL l.254-258, l.316-318) *)
Definition leased (now : Z) (j : job) : bool :=
  status_eqb (j_status j) Processing && (match j_exp j with Some e => Z.leb now e | None => false end).

(** [expiration_at < now] of a processing job (DL l.278-282, l.379-383) *)
Definition stale (now : Z) (j : job) : bool :=
  status_eqb (j_status j) Processing && (match j_exp j with Some e => Z.ltb e now | None => false end).

(** DL l.252-260, l.284: another job of the asset is being processed *)
Definition asset_busy (d : db) (now : Z) (a : nat) : bool := existsb (fun j => leased now j && (j_asset j =? a)) (jobs d).

(** The backend of the job's target (DL l.269-273) *)
Definition backend_of (d : db) (j : job) : option nat :=
  match j_target j with Some i => option_map t_backend (nth_error (tiers d) i) | None => None end.

(** DL l.262-265, l.347-350 *)
Definition on_backend (d : db) (b : option nat) (j : job) : bool :=
  match b with
  | None => match j_target j with None => true | Some _ => false end
  | Some b' => match backend_of d j with Some b'' => b'' =? b' | None => false end
  end.

(** DL l.274-286, l.375-387: the where clause *)
Definition eligible (d : db) (b : option nat) (now : Z) (j : job) : bool :=
  (status_eqb (j_status j) Queued || stale now j) && negb (asset_busy d now (j_asset j)) && on_backend d b j.

(** DL l.246-290 _has_eligible_jobs *)
Definition has_eligible (d : db) (b : option nat) (now : Z) : bool := existsb (eligible d b now) (jobs d).

(** DL l.309-325: the number of active jobs of a backend *)
Definition active_count (d : db) (b : nat) (now : Z) : nat :=
  List.length (filter (fun j => leased now j && (match backend_of d j with Some b' => b' =? b | None => false end)) (jobs d)).

(** [order_by(created_at.asc()).limit(1)] (DL l.388-389) *)
Fixpoint oldest (l : list (nat * job)) : option (nat * job) :=
  match l with
  | [] => None
  | (i, j) :: l' => match oldest l' with
                    | None => Some (i, j)
                    | Some (i', j') => if Z.leb (j_created j) (j_created j') then Some (i, j) else Some (i', j')
                    end
  end.

(** DL l.360-394: the job selected; rows locked by others are skipped *)
Definition select_job (d : db) (b : option nat) (now : Z) (locked : nat -> bool) : option (nat * job) :=
  oldest (filter (fun ij => eligible d b now (snd ij) && negb (locked (fst ij))) (enumerate (jobs d))).

(** DL l.396-411, l.461: the claim *)
Definition claim (c : config) (d : db) (w i : nat) (now : Z) : result db :=
  match nth_error (jobs d) i with
  | None => Err OtherError
  | Some j =>
      commit (mkDb (backends d) (assets d)
        (match j_type j, j_target j with
         | Copy, Some t => upd t (fun t => mkTier (t_asset t) (t_backend t) InProgress (t_ready t) (t_exp t)) (tiers d)
         | _, _ => tiers d
         end)
        (upd i (fun j => mkJob (j_asset j) (j_type j) Processing (j_target j) (j_request j) (Some (now + lease c)%Z) (Some w) (j_created j) (j_done j)) (jobs d)))
  end.

(** ** Processing a job *)

(** JW l.389-396 _find_source_tier_path *)
Definition find_source (d : db) (j : job) : option nat :=
  match j_target j with
  | None => None
  | Some t => find (fun i => negb (i =? t) && (match nth_error (tiers d) i with Some x => match t_ready x with Some _ => true | None => false end | None => false end))
                   (tiers_of d (j_asset j))
  end.

(** JW l.168-172, l.258-262, l.405-409, l.435-439, l.798-802: still processing and owned by the worker *)
Definition owned (d : db) (w i : nat) : bool :=
  match nth_error (jobs d) i with
  | Some j => status_eqb (j_status j) Processing && (match j_worker j with Some w' => w' =? w | None => false end)
  | None => false
  end.

(** JW l.551-555, l.581-585: the job ends *)
Definition finish (s : job_status) (now : Z) (j : job) : job :=
  mkJob (j_asset j) (j_type j) s (j_target j) (j_request j) None None (j_created j) (Some now).

(** JW l.540-572 _fail_job.  The new transfer status keeps a request id or not; finished jobs are not
    looked at again, so it is left as it is. *)
Definition fail_job (d : db) (i : nat) (now : Z) : db :=
  mkDb (backends d) (assets d)
    (match nth_error (jobs d) i with
     | Some j => match j_target j with
                 | Some t => upd t (fun t => mkTier (t_asset t) (t_backend t) TFailed (t_ready t) (t_exp t)) (tiers d)
                 | None => tiers d
                 end
     | None => tiers d
     end)
    (upd i (finish Failed now) (jobs d)).

(** JW l.398-416 _fail_job_by_id *)
Definition fail_by_id (d : db) (w i : nat) (now : Z) : db := if owned d w i then fail_job d i now else d.

(** JW l.574-610 _complete_job *)
Definition complete_job (d : db) (i : nat) (now : Z) : db :=
  mkDb (backends d) (assets d)
    (match nth_error (jobs d) i with
     | Some j => match j_type j, j_target j with
                 | Copy, Some t =>
                     upd t (fun x => mkTier (t_asset x) (t_backend x) Ready (Some now)
                        (match nth_error (backends d) (t_backend x) with
                         | Some b => if type_eqb (btype b) Lustre then Some (expires_at now 3600000000) else t_exp x
                         | None => t_exp x
                         end)) (tiers d)
                 | _, _ => tiers d
                 end
     | None => tiers d
     end)
    (upd i (finish Completed now) (jobs d)).

(** JW l.612-618 _extend_lease *)
Definition extend_lease (c : config) (d : db) (i : nat) (now : Z) : db :=
  mkDb (backends d) (assets d) (tiers d)
    (upd i (fun j => mkJob (j_asset j) (j_type j) (j_status j) (j_target j) (j_request j) (Some (now + lease c)%Z) (j_worker j) (j_created j) (j_done j)) (jobs d)).

(** What the storage client reports about a transfer (JW l.194, l.208-210) *)
Inductive report : Type := Success | Failure | InFlight | BadStatus | Unreachable.

(** JW l.226-239 _poll_single_job with l.159-224, l.241-334.  The worker reads the job before it asks the
    storage and again, locked, afterwards; a request id seen the first time is still there the second
    time, and one not seen makes the poll do nothing, as [Unreachable] does. *)
Definition poll (c : config) (d : db) (w i : nat) (now : Z) (r : report) : db :=
  match nth_error (jobs d) i with
  | None => d
  | Some j =>
      if negb (owned d w i) then d
      else match j_type j with
           | DeleteInstance | DeleteAll => extend_lease c d i now
           | Copy =>
               if negb (j_request j) then d
               else match r with
                    | Success => match commit (complete_job d i now) with Ok d' => d' | Err _ => d end
                    | Failure | BadStatus => fail_job d i now
                    | InFlight => extend_lease c d i now
                    | Unreachable => d
                    end
           end
  end.

(** JW l.418-472 _save_triggered_transfer_status *)
Definition save_triggered (d : db) (w i : nat) (ok : bool) (now : Z) : db :=
  if negb (owned d w i) then d
  else if ok then mkDb (backends d) (assets d) (tiers d)
                       (upd i (fun j => mkJob (j_asset j) (j_type j) (j_status j) (j_target j) true (j_exp j) (j_worker j) (j_created j) (j_done j)) (jobs d))
  else fail_job d i now.

(** Only a copy that is not yet triggered locks the row of its job (JW l.339-346, l.402-404, l.429-431);
    the row of a deletion's job is not looked at (JW l.629-651). *)
Definition locks_job (d : db) (i : nat) (req : bool) : bool :=
  negb req && (match nth_error (jobs d) i with Some j => request_eqb (j_type j) Copy | None => false end).

(** JW l.336-387 _process_job with l.474-517, l.620-651; [src] is the source and [req] the presence of a
    request id, both as read with the job when it was claimed (DL l.361-369); [ok] tells whether the
    transfer starts or the database answers.  No job is of another type than these three (l.358-387).  The second component: the job is put into the
    worker's queue of deletions. *)
Definition process (d : db) (w i : nat) (src : option nat) (req ok : bool) (now : Z) : db * bool :=
  match nth_error (jobs d) i with
  | None => (d, false)
  | Some j =>
      if req then (d, false)
      else match j_type j with
           | Copy =>
               match j_target j, src with
               | Some _, Some _ => (save_triggered d w i ok now, false)
               | _, _ => (fail_by_id d w i now, false)
               end
           | DeleteInstance | DeleteAll =>
               if negb ok then (d, false)
               else match j_target j with
                    | Some t => (delete_tier DeleteInProcess d t, true)
                    | None => (delete_asset DeleteInProcess d (j_asset j) now, true)
                    end
           end
  end.

(** JW l.668-694 _get_paths_to_delete *)
Definition paths_to_delete (d : db) (j : job) : list nat :=
  match j_target j with
  | Some t => match nth_error (tiers d) t with Some _ => [t] | None => [] end
  | None => tiers_of d (j_asset j)
  end.

(** JW l.813-837 _execute_delete_job with l.786-811; [ok]: the storage is emptied without an error. *)
Definition execute_delete (d : db) (w i : nat) (ok : bool) (now : Z) : db :=
  match nth_error (jobs d) i with
  | None => d
  | Some j =>
      match paths_to_delete d j with
      | [] => fail_by_id d w i now
      | ts =>
          if negb ok then fail_by_id d w i now
          else if negb (owned d w i) then d
          else
            let d' := match j_type j with
                      | DeleteAll => delete_asset TDeleted d (j_asset j) now
                      | _ => fold_left (delete_tier TDeleted) ts d
                      end in
            complete_job d' i now
      end
  end.

(** ** The service as a whole *)

(** A call or a worker's transaction between two statements (SV l.218-287, l.320-388; DL l.440-462;
    JW l.117-130). *)
Inductive pending : Type :=
| PFinalize (a : nat) (ts : list nat)
| PTrigger (a : nat) (ts : list nat)
| PPrefetch (a b : nat)
| PLock (w : nat) (b : option nat) (now : Z)
| PClaim (w : nat) (b : option nat) (i : nat) (now : Z) (src : option nat) (req : bool)
| PProcess (w i : nat) (src : option nat) (req : bool).

(** The database, the clock, what is under way, and the queues of deletions of the workers (JW l.357) *)
Record conf : Type := mkConf { cdb : db; clk : Z; pend : list pending; queue : list (nat * nat) }.

(** The backend's row is locked (DL l.301-306) *)
Definition backend_locked (c : conf) (b : nat) : bool :=
  existsb (fun p => match p with PLock _ (Some b') _ | PClaim _ (Some b') _ _ _ _ => b' =? b | _ => false end) (pend c).

(** The job's row is locked (DL l.390) *)
Definition job_locked (c : conf) (i : nat) : bool :=
  existsb (fun p => match p with PClaim _ _ i' _ _ _ => i' =? i | _ => false end) (pend c).

(** What happens next.  [Advance k]: the next statement of what is under way at place [k]; [Drop k]: it
    ends with an exception or with the process, and what it has not committed is rolled back; [Forget w]:
    worker [w] stops and loses its queue (SV l.99-551; DL l.414-465; JW l.112-157, l.336-387, l.653-666). *)
Inductive label : Type :=
| Tick (n : nat)
| Reserve (path : str) (b : nat)
| KeepAlive (a : nat)
| Finalize (a : nat)
| Prefetch (a b : nat)
| PrefetchKeepAlive (t : nat)
| QueueDelete (a : nat)
| Acquire (w : nat) (b : option nat) (now : Z)
| Advance (k : nat) (ok : bool)
| Drop (k : nat)
| Forget (w : nat)
| Poll (w i : nat) (now : Z) (r : report)
| Delete (w i : nat) (ok : bool).

(** Removal of what is at a place *)
(** SV l.285, DL l.462: it has ended *)
Definition remove_nth {A : Type} (k : nat) (l : list A) : list A := firstn k l ++ skipn (S k) l.

(** One statement after another (SV l.269-276, l.378-388; DL l.444-462; JW l.130) *)
Definition advance (g : config) (c : conf) (k : nat) (ok : bool) (p : pending) : option conf :=
  let d := cdb c in
  let rest := remove_nth k (pend c) in
  let ended := mkConf d (clk c) rest (queue c) in
  match p with
  | PFinalize a ts =>
      Some (match finalize_write d a ts (clk c) with
            | Ok d' => mkConf d' (clk c) (rest ++ [PTrigger a ts]) (queue c)
            | Err _ => ended
            end)
  | PTrigger a ts =>
      Some (match trigger_copy d a ts (clk c) with Ok d' => mkConf d' (clk c) rest (queue c) | Err _ => ended end)
  | PPrefetch a b =>
      Some (match prefetch_write g d a b (clk c) with Ok d' => mkConf d' (clk c) rest (queue c) | Err _ => ended end)
  | PLock w b now =>
      Some (match select_job d b now (job_locked c) with
            | Some (i, j) => mkConf d (clk c) (rest ++ [PClaim w b i now (find_source d j) (j_request j)]) (queue c)
            | None => ended
            end)
  | PClaim w b i now src req =>
      Some (match claim g d w i now with
            | Ok d' => mkConf d' (clk c) (rest ++ [PProcess w i src req]) (queue c)
            | Err _ => ended
            end)
  | PProcess w i src req =>
      if locks_job d i req && job_locked c i then None
      else let '(d', q) := process d w i src req ok (clk c) in
           Some (mkConf d' (clk c) rest (if q then queue c ++ [(w, i)] else queue c))
  end.

(** Removal of the first occurrence in a queue (JW l.657) *)
Fixpoint take (w i : nat) (q : list (nat * nat)) : option (list (nat * nat)) :=
  match q with
  | [] => None
  | (w', i') :: q' => if (w' =? w) && (i' =? i) then Some q' else option_map (cons (w', i')) (take w i q')
  end.

(** One step of the service; [None]: it cannot happen (a row is locked, the time has not come)
    (SV l.99-551; DL l.414-465; JW l.112-157, l.336-387, l.653-666). *)
Definition step (g : config) (c : conf) (l : label) : option conf :=
  let d := cdb c in
  let put d' := Some (mkConf d' (clk c) (pend c) (queue c)) in
  let start p := Some (mkConf d (clk c) (pend c ++ [p]) (queue c)) in
  match l with
  | Tick n => Some (mkConf d (clk c + Z.of_nat n)%Z (pend c) (queue c))
  | Reserve path b => put (fst (create_or_fetch g d path b (clk c)))
  | KeepAlive a => put (reserve_keep_alive g d a (clk c))
  | Finalize a => match finalize_read d a with Ok ts => start (PFinalize a ts) | Err _ => put d end
  | Prefetch a b => match prefetch_read d a b with Ok true => start (PPrefetch a b) | _ => put d end
  | PrefetchKeepAlive t => put (fst (prefetch_keep_alive g d t (clk c)))
  | QueueDelete a => match queue_delete d a (clk c) with Ok d' => put d' | Err _ => put d end
  | Acquire w b now =>
      if Z.ltb (clk c) now then None
      else if negb (has_eligible d b now) then put d
      else match b with
           | None => start (PLock w b now)
           | Some b' =>
               if backend_locked c b' then None
               else if active_count d b' now <? max_active g then start (PLock w b now) else put d
           end
  | Advance k ok => match nth_error (pend c) k with Some p => advance g c k ok p | None => None end
  | Drop k => Some (mkConf d (clk c) (remove_nth k (pend c)) (queue c))
  | Forget w => Some (mkConf d (clk c) (pend c) (filter (fun wi => negb (fst wi =? w)) (queue c)))
  | Poll w i now r => if Z.ltb (clk c) now || job_locked c i then None else put (poll g d w i now r)
  | Delete w i ok =>
      if job_locked c i then None
      else match take w i (queue c) with
           | Some q => Some (mkConf (execute_delete d w i ok (clk c)) (clk c) (pend c) q)
           | None => None
           end
  end.

(** The empty database with its backends (DL l.112-147) *)
Definition initial (bs : list backend) (now : Z) : conf := mkConf (mkDb bs [] [] []) now [] [].

(** A sequence of steps (SV l.99-551; JW l.112-157) *)
Fixpoint run (g : config) (c : conf) (ls : list label) : option conf :=
  match ls with
  | [] => Some c
  | l :: ls' => match step g c l with Some c' => run g c' ls' | None => None end
  end.
