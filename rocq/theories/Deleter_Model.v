(** Model of the background deleter and of the parallel removal of a directory.
    Source: checkpoint/orbax/checkpoint/_src/path/deleter.py ("DEL"). *)
From Coq Require Import ZArith List Bool String.
From Verif Require Import Base.
Import ListNotations.
Local Open Scope Z_scope.

(** * ThreadedCheckpointDeleter *)

Section Threaded.
(** State of the directory. *)
Variable D : Type.
(** StandardCheckpointDeleter.delete (DEL l.238-301), the [n]th time it is called
    with the given step: what it leaves and the exception it raises. *)
Variable del : nat -> Z -> D -> D * option err.

(** DEL l.374-376 StandardCheckpointDeleter.delete_steps, from call number [n] on. *)
Fixpoint delete_in_turn (n : nat) (ss : list Z) (d : D) : D * option err :=
  match ss with
  | [] => (d, None)
  | s :: ss' =>
      match del n s d with
      | (d', Some e) => (d', Some e)
      | (d', None) => delete_in_turn (S n) ss' d'
      end
  end.

(** The delete thread (DEL l.417-428): at the head of its loop, about to delete a
    step taken from the queue, or finished. *)
Inductive tpc : Type := TLoop | TDelete (s : Z) | TDead.

(** The user thread in close (DEL l.438-447): outside; between is_alive() and put;
    in join; after it, before the test of _exception. *)
Inductive cpc : Type := CIdle | CPut | CJoin | CRaise.

(** Queue, thread, _exception (DEL l.405-412), user thread, directory, number of
    calls of the standard deleter. *)
Record tst : Type := mkT {
  t_queue : list Z; t_pc : tpc; t_exc : option err; t_user : cpc; t_dir : D; t_calls : nat }.

(** DEL l.386-415 *)
Definition t_init (d : D) : tst := mkT [] TLoop None CIdle d 0.

(** What the user does: delete (DEL l.430), starting close (DEL l.438), the next
    step of close; and the thread's next step. *)
Inductive tlabel : Type := TLDelete (s : Z) | TLClose | TLUser | TLThread.

(** One step; [None] if not possible.  The second component is the result of close
    when it returns (DEL l.417-447). *)
Definition t_step (l : tlabel) (x : tst) : option (tst * option (result unit)) :=
  match l with
  | TLDelete s =>
      match t_user x with
      | CIdle => Some (mkT (t_queue x ++ [s]) (t_pc x) (t_exc x) CIdle (t_dir x) (t_calls x), None)
      | _ => None
      end
  | TLClose =>
      match t_user x with
      | CIdle =>
          Some (mkT (t_queue x) (t_pc x) (t_exc x)
                 (match t_pc x with TDead => CRaise | _ => CPut end) (t_dir x) (t_calls x), None)
      | _ => None
      end
  | TLUser =>
      match t_user x with
      | CIdle => None
      | CPut => Some (mkT (t_queue x ++ [-1]) (t_pc x) (t_exc x) CJoin (t_dir x) (t_calls x), None)
      | CJoin =>
          match t_pc x with
          | TDead => Some (mkT (t_queue x) TDead (t_exc x) CRaise (t_dir x) (t_calls x), None)
          | _ => None
          end
      | CRaise =>
          Some (mkT (t_queue x) (t_pc x) (t_exc x) CIdle (t_dir x) (t_calls x),
                Some (match t_exc x with Some e => Err e | None => Ok tt end))
      end
  | TLThread =>
      match t_pc x with
      | TLoop =>
          match t_queue x with
          | [] => None
          | s :: q =>
              Some (mkT q (if s <? 0 then TDead else TDelete s) (t_exc x) (t_user x) (t_dir x) (t_calls x), None)
          end
      | TDelete s =>
          let '(d', e) := del (t_calls x) s (t_dir x) in
          Some (mkT (t_queue x) (match e with Some _ => TDead | None => TLoop end)
                  (match e with Some e => Some e | None => t_exc x end) (t_user x) d' (S (t_calls x)), None)
      | TDead => None
      end
  end.
End Threaded.

Arguments t_queue {D}. Arguments t_pc {D}. Arguments t_exc {D}. Arguments t_user {D}.
Arguments t_dir {D}. Arguments t_calls {D}. Arguments mkT {D}. Arguments t_init {D}.

(** * _ParallelDirectoryDeleter *)

(** A directory entry: a file, a symbolic link (to anything), a directory
    (DEL l.101-105). *)
Inductive entry : Type := EFile | ELink | EDir (es : list (string * entry)).

(** _DeletionNode (DEL l.66-69): a directory and the names in it to unlink. *)
Record dnode : Type := mkDNode { dn_path : list string; dn_files : list string }.

(** DEL l.101-105: is_dir(follow_symlinks=False). *)
Definition is_dir (e : entry) : bool := match e with EDir _ => true | _ => false end.

(** DEL l.89-112 _dfs_scan: the nodes put into the queue, in order.  Scan errors
    (l.94-96) are not modelled: they skip a subtree. *)
Fixpoint dfs_scan (path : list string) (e : entry) : list dnode :=
  match e with
  | EDir es =>
      mkDNode path (map fst (filter (fun ne => negb (is_dir (snd ne))) es)) ::
      (fix go (es : list (string * entry)) : list dnode :=
         match es with
         | [] => []
         | (n, e) :: es' => (if is_dir e then dfs_scan (path ++ [n]) e else []) ++ go es'
         end) es
  | _ => []
  end.

(** Scheduler (DEL l.132-150): at get(timeout); after queue.Empty, before each of
    the three tests; leaving the [with] block, which waits for the pool. *)
Inductive spc : Type := SGet | STest1 | STest2 | STest3 | SShutdown | SEnd.

(** A worker in _process_node (DEL l.115-129): before the counter is raised;
    unlinking (files left); before the counter is lowered. *)
Inductive wstate : Type := WStart (n : dnode) | WUnlink (p : list string) (fs : list string) | WLower.

(** Nodes the scan has still to put, _scan_done, queue, scheduler, tasks submitted
    and not started, running tasks, counter, paths unlinked so far
    (DEL l.77-82, l.152-173). *)
Record pst : Type := mkP {
  p_scan : list dnode; p_scan_done : bool; p_queue : list dnode; p_sched : spc;
  p_pool : list dnode; p_workers : list wstate; p_active : Z; p_unlinked : list (list string) }.

(** DEL l.152-165: the state when the scheduler starts. *)
Definition p_init (root : list string) (e : entry) : pst :=
  mkP (dfs_scan root e) false [] SGet [] [] 0 [].

(** Steps: scan thread; scheduler; a worker picks the first submitted task; the
    [i]th worker does one step (DEL l.89-150). *)
Inductive plabel : Type := PScan | PSched | PStart | PWork (i : nat).

(** One step (DEL l.89-150).  A get that times out is the step SGet -> STest1,
    possible only with an empty queue.  [k]: max_workers. *)
Definition p_step (k : nat) (l : plabel) (x : pst) : option pst :=
  match l with
  | PScan =>
      match p_scan x with
      | n :: ns => Some (mkP ns (p_scan_done x) (p_queue x ++ [n]) (p_sched x) (p_pool x) (p_workers x) (p_active x) (p_unlinked x))
      | [] => if p_scan_done x then None
              else Some (mkP [] true (p_queue x) (p_sched x) (p_pool x) (p_workers x) (p_active x) (p_unlinked x))
      end
  | PSched =>
      let go s := Some (mkP (p_scan x) (p_scan_done x) (p_queue x) s (p_pool x) (p_workers x) (p_active x) (p_unlinked x)) in
      match p_sched x with
      | SGet =>
          match p_queue x with
          | n :: q => Some (mkP (p_scan x) (p_scan_done x) q SGet (p_pool x ++ [n]) (p_workers x) (p_active x) (p_unlinked x))
          | [] => go STest1
          end
      | STest1 => go (if p_scan_done x then STest2 else SGet)
      | STest2 => go (if p_active x =? 0 then STest3 else SGet)
      | STest3 => go (match p_queue x with [] => SShutdown | _ => SGet end)
      | SShutdown => match p_pool x, p_workers x with [], [] => go SEnd | _, _ => None end
      | SEnd => None
      end
  | PStart =>
      match p_pool x with
      | n :: ns =>
          if Nat.ltb (List.length (p_workers x)) k
          then Some (mkP (p_scan x) (p_scan_done x) (p_queue x) (p_sched x) ns (p_workers x ++ [WStart n]) (p_active x) (p_unlinked x))
          else None
      | [] => None
      end
  | PWork i =>
      match nth_error (p_workers x) i with
      | None => None
      | Some (WStart n) =>
          Some (mkP (p_scan x) (p_scan_done x) (p_queue x) (p_sched x) (p_pool x)
                 (set_nth i (WUnlink (dn_path n) (dn_files n)) (p_workers x)) (p_active x + 1) (p_unlinked x))
      | Some (WUnlink p (f :: fs)) =>
          Some (mkP (p_scan x) (p_scan_done x) (p_queue x) (p_sched x) (p_pool x)
                 (set_nth i (WUnlink p fs) (p_workers x)) (p_active x) (p_unlinked x ++ [p ++ [f]]))
      | Some (WUnlink p []) =>
          Some (mkP (p_scan x) (p_scan_done x) (p_queue x) (p_sched x) (p_pool x)
                 (set_nth i WLower (p_workers x)) (p_active x) (p_unlinked x))
      | Some WLower =>
          Some (mkP (p_scan x) (p_scan_done x) (p_queue x) (p_sched x) (p_pool x)
                 (firstn i (p_workers x) ++ skipn (S i) (p_workers x)) (p_active x - 1) (p_unlinked x))
      end
  end.
