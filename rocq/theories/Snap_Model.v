(** Model of the snapshots of a training state in pinned host memory.
    Source: checkpoint/orbax/checkpoint/experimental/v1/_src/training/pathways/snapshotter.py ("SN").
    Of pathwaysutils is assumed: [split_by_mesh_axis] gives one array for each position on the axis, the whole data if the array is replicated over the axis and its equal part if it is sharded over it, and [concatenate_by_mesh_axis] puts such arrays together again.
    Simplifications: one thread saves, so that a queue that is not full stays so until the item is put (SN l.97-112); the data of an array are a list, and an array is sharded over the replica axis along its only dimension or not at all; other axes do not change the data; a tree is the list of its leaves; [jax.device_put] takes any data to any sharding.
    Not modelled: logging, the conversion of keys to data and back apart from the mark of a key. *)
From Coq Require Import List Bool Arith.
From Verif Require Import Base.
Import ListNotations.
Local Open Scope nat_scope.

(** ** The queue and the worker *)

(** How a snapshot ends: its arrays are ready, an error that the worker expects (RuntimeError), another error (SN l.72-81) *)
Inductive ends : Type := Ready | Failed | Crashed.

(** The snapshotter: the latest snapshot, the item in the queue, the item of the worker, whether the worker's thread is there, unfinished tasks, the snapshot that is being loaded; all items that were put, and those the worker is done with. An item is a state and its step (SN l.59-66) *)
Record snap (S : Type) : Type := mkSnap { latest : option (S * nat); waiting : option (S * nat); working : option (S * nat); thread : bool; unfinished : nat; loading : option (S * nat); put : list (S * nat); handled : list (S * nat * ends) }.
Arguments mkSnap {S}.
Arguments latest {S}.
Arguments waiting {S}.
Arguments working {S}.
Arguments thread {S}.
Arguments unfinished {S}.
Arguments loading {S}.
Arguments put {S}.
Arguments handled {S}.

(** [__init__] (SN l.59-66) *)
Definition start {S : Type} : snap S := mkSnap None None None true 0 None [] [].

(** [save]: skipped when the queue is full (SN l.83-112) *)
Definition save {S : Type} (s : snap S) (i : S * nat) : snap S :=
  match waiting s with
  | Some _ => s
  | None => mkSnap (latest s) (Some i) (working s) (thread s) (1 + unfinished s) (loading s) (put s ++ [i]) (handled s)
  end.

(** What may happen: a save, the worker takes an item, the worker ends with it, a load reads the snapshot, a load ends (SN l.68-81, l.114-213) *)
Inductive event (S : Type) : Type := ESave (i : S * nat) | ETake | EEnd (o : ends) | ELoad | ELoaded (reset : bool) (host : S).
Arguments ESave {S} i.
Arguments ETake {S}.
Arguments EEnd {S} o.
Arguments ELoad {S}.
Arguments ELoaded {S} reset host.

(** One event, if it can happen; at the end of a load the snapshot is replaced by what was loaded, with the step that was read (SN l.68-81, l.136-139, l.209-211) *)
Definition step {S : Type} (s : snap S) (e : event S) : option (snap S) :=
  match e with
  | ESave i => Some (save s i)
  | ETake =>
      match thread s, working s, waiting s with
      | true, None, Some i => Some (mkSnap (latest s) None (Some i) true (unfinished s) (loading s) (put s) (handled s))
      | _, _, _ => None
      end
  | EEnd o =>
      match working s with
      | Some i => Some (mkSnap (match o with Ready => Some i | _ => latest s end) (waiting s) None (match o with Crashed => false | _ => thread s end) (unfinished s - 1) (loading s) (put s) (handled s ++ [(i, o)]))
      | None => None
      end
  | ELoad =>
      match loading s, latest s with
      | None, Some i => Some (mkSnap (latest s) (waiting s) (working s) (thread s) (unfinished s) (Some i) (put s) (handled s))
      | _, _ => None
      end
  | ELoaded reset host =>
      match loading s with
      | Some i => Some (mkSnap (if reset then Some (host, snd i) else latest s) (waiting s) (working s) (thread s) (unfinished s) None (put s) (handled s))
      | None => None
      end
  end.

(** Many events (SN l.68-213) *)
Fixpoint exec {S : Type} (s : snap S) (l : list (event S)) : option (snap S) := match l with [] => Some s | e :: l' => match step s e with Some s' => exec s' l' | None => None end end.

(** [join] returns (SN l.215-217) *)
Definition joined {S : Type} (s : snap S) : bool := Nat.eqb (unfinished s) 0.

(** ** The arrays *)

(** Memory (SN l.106, l.181, l.196) *)
Inductive memory : Type := Device | Pinned.

(** A sharding: named, with the number of replicas on the replica axis, whether the data are sharded over that axis, and what else there is; or of another class (SN l.150) *)
Inductive sharding : Type := Named (replicas : nat) (sharded : bool) (rest : nat) | Other (n : nat).

(** A leaf: an array or another thing (SN l.30-32, l.102-103) *)
Inductive leaf : Type := LArr (key : bool) (data : list nat) (s : sharding) (m : memory) | LElse (n : nat).

(** [_pin_leaf] (SN l.101-108) *)
Definition pin (x : leaf) : leaf := match x with LArr k d s _ => LArr k d s Pinned | LElse n => LElse n end.

(** The part of a list at a position, of parts of equal size (SN l.152-155) *)
Definition part (n i : nat) (d : list nat) : list nat := firstn (List.length d / n) (skipn (i * (List.length d / n)) d).

(** [split_by_mesh_axis]: the data of each position (SN l.152-155) *)
Definition split (n : nat) (sharded : bool) (d : list nat) : list (list nat) := map (fun i => if sharded then part n i d else d) (seq 0 n).

(** [concatenate_by_mesh_axis] (SN l.166-169) *)
Definition concatenate (sharded : bool) (l : list (list nat)) : list nat := if sharded then List.concat l else match l with [] => [] | d :: _ => d end.

(** [get_active_pytree]; [alive] tells for each position on the axis whether its arrays can be read (SN l.141-175) *)
Definition active (alive : nat -> bool) (x : leaf) : result leaf :=
  match x with
  | LElse n => Ok x
  | LArr k d (Other _) m => Err AttributeError
  | LArr k d (Named n sharded rest) m =>
      let l := map snd (filter (fun p => alive (fst p)) (combine (seq 0 n) (split n sharded d))) in
      match l with
      | [] => Err RuntimeError
      | _ => Ok (LArr k (concatenate sharded l) (Named (List.length l) sharded rest) m)
      end
  end.

(** The abstract leaf: with a sharding or without (SN l.177-198) *)
Inductive aleaf : Type := ASpec (s : sharding) | ANone.

(** [_device_put_pinned] and [_device_put_to_device] (SN l.177-198) *)
Definition move (m : memory) (x : leaf) (a : aleaf) : result leaf :=
  match x with
  | LElse n => Ok x
  | LArr k d _ _ => match a with ASpec s => Ok (LArr k d s m) | ANone => Err AttributeError end
  end.

(** [jax.tree.map] over two trees (SN l.187-191, l.201-205) *)
Definition map2 (f : leaf -> aleaf -> result leaf) (t : list leaf) (a : list aleaf) : result (list leaf) := if Nat.eqb (List.length t) (List.length a) then sequence (map (fun p => f (fst p) (snd p)) (combine t a)) else Err ValueError.

(** [load]: the state on the host, which becomes the snapshot, and the state that is given (SN l.136-213) *)
Definition load (alive : nat -> bool) (snapshot : option (list leaf)) (a : list aleaf) : result (list leaf * list leaf) :=
  match snapshot with
  | None => Err RuntimeError
  | Some t => rbind (sequence (map (active alive) t)) (fun t1 => rbind (map2 (move Pinned) t1 a) (fun t2 => rmap (pair t2) (map2 (move Device) t2 a)))
  end.
