(** What a save on all processes should do, in words of its own. *)
From Coq Require Import List Bool Arith.
From Verif Require Import Base SaveAll_Model.
Import ListNotations.

(** The primary host is one of the active processes. *)
Definition sound (c : config) : Prop := c_primary c < c_n c.

(** The part of a process for a handler is in the directory. *)
Definition part_in (t : tmpdir) (h i : nat) : Prop := In (h, i) (t_parts t).

(** A checkpoint that is whole: its metadata is there; of a tree there are the parts of all processes, and it has been finalized; of the others there is what the primary writes.
    The older save has also the parts of all processes of handlers without barriers. *)
Definition complete (c : config) (t : tmpdir) : Prop :=
  t_meta t = true /\
  forall h k, nth_error (c_handlers c) h = Some k ->
    part_in t h (c_primary c) /\
    (k = Tree -> In h (t_final t)) /\
    (k = Tree \/ (k = Free /\ c_version c = V0) -> forall i, i < c_n c -> part_in t h i).

(** The destination after [es] events from the beginning *)
Definition reaches (c : config) (existed : bool) (s : state) : Prop := exists es, run c (initial c existed) es = Some s.

(** Events in which nothing goes wrong by itself: no timeout and no failure of an operation *)
Definition quiet (e : event) : bool := match e with Open _ | Main _ | Sub _ _ => true | _ => false end.
Definition reaches_quietly (c : config) (existed : bool) (s : state) : Prop := exists es, forallb quiet es = true /\ run c (initial c existed) es = Some s.

(** Something can happen without a timeout. *)
Definition goes_on (c : config) (s : state) : Prop := exists e s', quiet e = true /\ step c s e = Some s'.

(** All processes have ended in the same way. *)
Definition all_in (c : config) (s : state) (p : phase) : Prop := forall i, i < c_n c -> phases s i = p.

(** The save is refused: the paths differ (checked by the newer save), or the destination exists and may not be overwritten. *)
Definition refused (c : config) (existed : bool) : Prop :=
  (c_version c = V1 /\ exists i, i < c_n c /\ c_path c i <> c_path c 0) \/ (existed = true /\ c_overwrite c = false).

(** A process has not gone past the check of the destination. *)
Definition before_changes (p : phase) : Prop := match p with AtPaths | AtPre | Check | Failed _ => True | _ => False end.

(** Every handler synchronizes what it writes, or the save does. *)
Definition synchronized (c : config) : Prop := c_version c = V0 \/ ~ In Free (c_handlers c).

(** All processes take part in collective operations. *)
Definition all_active (c : config) : Prop := c_version c = V0 \/ c_inactive c = 0.

(** The race of an overwriting save: one process has removed, or waits for the removal of, what was there; another saw nothing there. *)
Definition split (c : config) (existed : bool) (s : state) : Prop :=
  c_version c = V1 /\ c_overwrite c = true /\ existed = true /\ final s = None /\ tmp s = None /\ opened s BRemoved = false /\
  exists i j, i < c_n c /\ j < c_n c /\ phases s i = AtRemoved /\ phases s j = AtPost.
