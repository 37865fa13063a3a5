(** Model of the peer-to-peer checkpoint manager: what the processes have on their disks,
    the registry of peers, the choice of a step and of a source, and restoring.
    Sources: checkpoint/orbax/checkpoint/experimental/emergency/p2p/: peer_selector.py ("PS"),
    registry.py ("PR"), local.py ("PL"), utils.py ("PU"), service.py ("PV") and
    checkpoint_manager.py ("PC").
    Simplifications: a process is reached by its number; what a peer sends is in
    Transfer_Model, here a peer answers or not; the registry is a list of entries in the
    order of insertion.  Not modelled: the display of the topology (PS l.162-263),
    the data iterator, the persistent manager (a list of steps), logging. *)
From Coq Require Import List Bool Arith ZArith.
From Verif Require Import Base Mesh_Model.
Import ListNotations.

(** The processes of the devices in the order in which they first occur (PS l.75-81) *)
Fixpoint seen_procs (seen : list nat) (l : list device) : list nat :=
  match l with
  | [] => []
  | d :: r => if existsb (Nat.eqb (process d)) seen then seen_procs seen r else process d :: seen_procs (process d :: seen) r
  end.

(** Replica and relative id of a process (PS l.85) *)
Record spot : Type := mk_spot { replica : nat; relative : nat }.

(** [mapping[pid] = ...] (PS l.85); the order of a dictionary is that of first insertion *)
Fixpoint assign {A : Type} (p : nat) (x : A) (d : list (nat * A)) : list (nat * A) :=
  match d with
  | [] => [(p, x)]
  | (q, y) :: r => if q =? p then (q, x) :: r else (q, y) :: assign p x r
  end.

(** [mapping.get(pid)] (PS l.132) *)
Fixpoint find {A : Type} (p : nat) (d : list (nat * A)) : option A :=
  match d with
  | [] => None
  | (q, y) :: r => if q =? p then Some y else find p r
  end.

(** The loop over the processes of a replica (PS l.84-85) *)
Fixpoint map_replica (rid rel : nat) (procs : list nat) (d : list (nat * spot)) : list (nat * spot) :=
  match procs with
  | [] => d
  | p :: r => map_replica rid (S rel) r (assign p (mk_spot rid rel) d)
  end.

(** The loop over the replicas (PS l.65-85) *)
Fixpoint map_replicas (m : mesh) (axis : nat) (rids : list nat) (d : list (nat * spot)) : result (list (nat * spot)) :=
  match rids with
  | [] => Ok d
  | rid :: r => rbind (replica_devices m rid axis) (fun devs => map_replicas m axis r (map_replica rid 0 (seen_procs [] devs) d))
  end.

(** PS l.58-87 *)
Definition build_topology_map (m : mesh) (axis : nat) : result (list (nat * spot)) :=
  rbind (replica_count m axis) (fun n => map_replicas m axis (seq 0 n) []).

(** PeerDiscoveryInfo, with the process to be asked for its address; the index is that of the
    process that stored the steps (PC l.102-107, PS l.44) *)
Record peer : Type := mk_peer { address : nat; process_index : nat; steps : list Z; replica_id : Z }.

(** An entry of the registry: step, index and peer (PR l.32-35) *)
Record entry : Type := mk_entry { l_step : Z; l_index : nat; l_peer : peer }.

(** [self._store[step][peer.process_index] = peer] (PR l.49-51) *)
Fixpoint store (s : Z) (p : peer) (reg : list entry) : list entry :=
  match reg with
  | [] => [mk_entry s (process_index p) p]
  | e :: r => if Z.eqb (l_step e) s && (l_index e =? process_index p) then mk_entry s (l_index e) p :: r else e :: store s p r
  end.

(** PR l.40-51 *)
Definition register_peer (p : peer) (reg : list entry) : list entry := fold_left (fun r s => store s p r) (steps p) reg.

(** What a process has on its disk: a step and the process that stored it, if it can be told
    from the directory (PU l.40-58) *)
Record stored : Type := mk_stored { s_step : Z; s_owner : option nat }.

(** PU l.40-58 *)
Fixpoint detect_process_index (disk : list stored) (s : Z) : option nat :=
  match disk with
  | [] => None
  | x :: r => if Z.eqb (s_step x) s then s_owner x else detect_process_index r s
  end.

(** PL l.205-230; the disk is in the order of the steps *)
Definition scan_stored_steps (disk : list stored) : result (option nat * list Z) :=
  match disk with
  | [] => Ok (None, [])
  | x :: _ =>
    match detect_process_index disk (s_step (last disk x)) with
    | None => Err ValueError
    | Some i => Ok (Some i, map s_step disk)
    end
  end.

(** PL l.232-236 *)
Definition local_all_steps (me : nat) (disk : list stored) : result (list Z) :=
  rmap (fun x => match fst x with Some i => if i =? me then snd x else [] | None => [] end) (scan_stored_steps disk).

(** The replica of a peer is filled in from the topology (PS l.46-53) *)
Definition enrich (tmap : list (nat * spot)) (p : peer) : peer :=
  match find (process_index p) tmap with
  | Some pl => mk_peer (address p) (process_index p) (steps p) (Z.of_nat (replica pl))
  | None => p
  end.

(** What a process tells the others (PC l.90-107); without steps there is no index and nothing
    to register *)
Definition info (address : nat) (scan : option nat * list Z) : list peer :=
  match fst scan with Some i => [mk_peer address i (snd scan) (-1)] | None => [] end.

(** PS l.32-56: the registry from what all processes told *)
Definition make_registry (tmap : list (nat * spot)) (scans : list (option nat * list Z)) : list entry :=
  fold_left (fun reg p => register_peer (enrich tmap p) reg) (flat_map (fun x => info (fst x) (snd x)) (enumerate scans)) [].

(** PR l.61-65 *)
Definition get_shard_map (reg : list entry) (s : Z) : list entry := filter (fun e => Z.eqb (l_step e) s) reg.

(** PR l.53-59 *)
Definition get_peer (reg : list entry) (s : Z) (p : nat) : option peer :=
  match filter (fun e => l_index e =? p) (get_shard_map reg s) with
  | [] => None
  | e :: _ => Some (l_peer e)
  end.

(** PR l.67-68 *)
Definition iter_steps (reg : list entry) : list Z := nodup Z.eq_dec (map l_step reg).

(** [max(l) if l else None] (PS l.112) *)
Definition max_or_none (l : list Z) : option Z := match l with [] => None | x :: r => Some (fold_left Z.max r x) end.

(** Some process that holds the step has the relative id (PS l.103-107) *)
Definition has_relative (tmap : list (nat * spot)) (reg : list entry) (s : Z) (rel : nat) : bool :=
  existsb (fun e => match find (l_index e) tmap with Some pl => relative pl =? rel | None => false end) (get_shard_map reg s).

(** PS l.89-112 *)
Definition get_latest_complete_step (tmap : list (nat * spot)) (reg : list entry) : option Z :=
  match tmap with
  | [] => None
  | _ => max_or_none (filter (fun s => forallb (fun x => has_relative tmap reg s (relative (snd x))) tmap) (iter_steps reg))
  end.

(** Stable sort by the replica (PS l.156) *)
Fixpoint insert_peer (p : peer) (l : list peer) : list peer :=
  match l with
  | [] => [p]
  | q :: r => if Z.ltb (replica_id p) (replica_id q) then p :: l else q :: insert_peer p r
  end.

(** PS l.156 *)
Definition sort_peers (l : list peer) : list peer := fold_left (fun acc p => insert_peer p acc) l [].

(** The peers with the relative id of the target (PS l.141-149) *)
Definition candidates (tmap : list (nat * spot)) (reg : list entry) (s : Z) (rel : nat) : list peer :=
  map l_peer (filter (fun e => match find (l_index e) tmap with Some pl => relative pl =? rel | None => false end) (get_shard_map reg s)).

(** PS l.118-160 *)
Definition get_source_peer (tmap : list (nat * spot)) (reg : list entry) (s : Z) (target : nat) : option peer :=
  match get_peer reg s target with
  | Some p => Some p
  | None =>
    match find target tmap with
    | None => None
    | Some pl =>
      let c := sort_peers (candidates tmap reg s (relative pl)) in
      nth_error c (replica pl mod length c)
    end
  end.

(** ** Restoring *)

(** Where a process got its data (PC l.385, l.393, l.469) *)
Inductive origin : Type :=
| FromDisk
| FromPeer (address index : nat)
| FromPersistent.

(** How a restore ends for a process (PC l.477, l.479); it may wait for others without end *)
Inductive outcome : Type :=
| Returns (o : origin)
| Raises (e : err)
| Waits.

(** Where processes wait for all others: the barrier at the end of Checkpointer.restore
    (_src/checkpointers/checkpointer.py l.331-337, all processes as PL l.149-157 names none) and
    the vote on the fallback (PC l.460-462) *)
Inductive meeting : Type :=
| Barrier
| Vote.

(** PC l.460, l.463: whether two processes are at the same meeting *)
Definition same_meeting (a b : meeting) : bool :=
  match a, b with Barrier, Barrier => true | Vote, Vote => true | _, _ => false end.

(** The meetings of a process: the barrier only if its data is there (PL l.295; an error comes
    before it), the vote only with a persistent manager (PC l.457-462) *)
Definition course (votes : bool) (tried : option origin) : list meeting :=
  (match tried with Some _ => [Barrier] | None => [] end) ++ (if votes then [Vote] else []).

(** A process attends a meeting next (PC l.460) *)
Definition attends (e : meeting) (c : list meeting) : bool := match c with x :: _ => same_meeting e x | [] => false end.

(** Meetings take place as long as all come to the same one; what is left of the first process
    and of the others (PC l.460, _src/multihost/multihost.py l.398-407) *)
Fixpoint gather_with (first : list meeting) (others : list (list meeting)) : list (list meeting) :=
  match first with
  | [] => [] :: others
  | e :: r => if forallb (attends e) others then gather_with r (map (@tl meeting) others) else first :: others
  end.

(** PC l.460 *)
Definition gather (courses : list (list meeting)) : list (list meeting) :=
  match courses with [] => [] | c :: r => gather_with c r end.

Section Cluster.
(** The disks of all processes (PL l.205) *)
Variable disks : list (list stored).
(** Whether the connection from a process to a peer works (PV l.278) *)
Variable network : nat -> nat -> bool.

(** A peer sends a step only if the requested process stored it (PV l.205-216) *)
Definition serves (a : nat) (s : Z) (index : nat) : bool :=
  match nth_error disks a with
  | None => false
  | Some disk => match detect_process_index disk s with Some i => i =? index | None => false end
  end.

(** PC l.377-407 with PL l.271-282: from disk if the step is there, otherwise from a peer *)
Definition restore_from_local_or_p2p (tmap : list (nat * spot)) (reg : list entry) (me : nat) (disk : list stored) (s : Z) : result origin :=
  rbind (local_all_steps me disk) (fun mine =>
  if existsb (Z.eqb s) mine then
    match detect_process_index disk s with
    | Some i => if i =? me then Ok FromDisk else Err ValueError
    | None => Err ValueError
    end
  else
    match get_source_peer tmap reg s me with
    | None => Err FileNotFoundError
    | Some p => if network me (address p) && serves (address p) s (process_index p) then Ok (FromPeer (address p) (process_index p)) else Err FileNotFoundError
    end).

(** PC l.441-452: nothing is tried without a source *)
Definition try_restore (tmap : list (nat * spot)) (reg : list entry) (me : nat) (disk : list stored) (s : Z) : option origin :=
  match get_source_peer tmap reg s me with
  | None => None
  | Some _ => match restore_from_local_or_p2p tmap reg me disk s with Ok o => Some o | Err _ => None end
  end.

(** What all processes did up to the fallback (PC l.440-454); [tried] with [None] for a process that
    has nothing *)
Definition attempts (tmap : list (nat * spot)) (reg : list entry) (from_p2p : option Z) : list (option origin) :=
  map (fun x => match from_p2p with Some s => try_restore tmap reg (fst x) (snd x) s | None => None end) (enumerate disks).

(** What a process gets in the end when no other keeps it waiting (PC l.471-479) *)
Definition finish (o : option origin) : outcome := match o with Some x => Returns x | None => Raises FileNotFoundError end.

(** PC l.410-479 on all processes for a given registry; [persistent] are the steps of the
    persistent manager, if there is one.  The step is the same for all. *)
Definition restore (tmap : list (nat * spot)) (reg : list entry) (persistent : option (list Z)) (step : option Z) : option Z * list outcome :=
  let from_p2p := match step with Some s => Some s | None => get_latest_complete_step tmap reg end in
  let stored_steps := match persistent with Some l => l | None => [] end in
  let target := match from_p2p with Some s => Some s | None => max_or_none stored_steps end in
  match target with
  | None => (None, map (fun _ => Raises FileNotFoundError) disks)
  | Some s =>
    let tried := attempts tmap reg from_p2p in
    let left := gather (map (course (match persistent with Some _ => true | None => false end)) tried) in
    let needs_fallback := existsb (fun o => match o with None => true | Some _ => false end) tried in
    (Some s,
     map (fun x => match fst x with
       | _ :: _ => Waits
       | [] =>
         match persistent with
         | None => finish (snd x)
         | Some l => if needs_fallback then if existsb (Z.eqb s) l then Returns FromPersistent else Raises FileNotFoundError else finish (snd x)
         end
       end) (combine left tried))
  end.

(** PC l.90-117 on all processes and what follows: all tell what they have, and a process whose
    disk cannot be read fails *)
Definition sync_registry (m : mesh) (axis : nat) : result (list (nat * spot) * list entry) :=
  rbind (sequence (map scan_stored_steps disks)) (fun scans =>
  rbind (build_topology_map m axis) (fun tmap => Ok (tmap, make_registry tmap scans))).

End Cluster.

(** ** The step that is fetched in the background *)

(** State of one process: the step fetched at the start, whether that worked, and the steps in
    the restore directory (PC l.65-67, l.388) *)
Record fetched : Type := mk_fetched { bkg_step : Z; bkg_success : bool; restore_dir : list Z }.

(** At the start (PC l.127-148); [works] says for which steps a peer sends the data *)
Definition start (works : Z -> bool) (latest : option Z) (mine : list Z) : fetched :=
  match latest with
  | Some s => if existsb (Z.eqb s) mine then mk_fetched (-1) false [] else mk_fetched s (works s) (if works s then [s] else [])
  | None => mk_fetched (-1) false []
  end.

(** PC l.188-200 *)
Definition fetch (works : Z -> bool) (s : Z) (f : fetched) : bool * fetched :=
  if Z.eqb s (bkg_step f) then (bkg_success f, f)
  else (works s, mk_fetched (bkg_step f) (bkg_success f) (if works s then s :: restore_dir f else restore_dir f)).

(** PC l.387-407: the restore directory is removed afterwards *)
Definition restore_from_peers (works : Z -> bool) (s : Z) (f : fetched) : result Z * fetched :=
  let (ok, f') := fetch works s f in
  (if ok then if existsb (Z.eqb s) (restore_dir f') then Ok s else Err ValueError else Err FileNotFoundError,
   mk_fetched (bkg_step f') (bkg_success f') []).

(** Several restores (PC l.410) *)
Fixpoint restores (works : Z -> bool) (l : list Z) (f : fetched) : list (result Z) :=
  match l with
  | [] => []
  | s :: r => let (o, f') := restore_from_peers works s f in o :: restores works r f'
  end.
