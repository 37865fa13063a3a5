(** Vocabulary of the statements about the peer-to-peer manager: who holds what. *)
From Coq Require Import List Bool Arith ZArith.
From Verif Require Import Base Mesh_Model Peer_Model.
Import ListNotations.

(** The device at the position is the first one of its process. *)
Definition first_at (devs : list device) (j : nat) : bool :=
  match nth_error devs j with
  | Some d => negb (existsb (fun e => process e =? process d) (firstn j devs))
  | None => false
  end.

(** The number of processes that come before the position. *)
Definition rank (devs : list device) (j : nat) : nat := length (filter (first_at devs) (seq 0 j)).

(** The process is the [k]-th one of these devices. *)
Definition shard_of (devs : list device) (p k : nat) : Prop :=
  exists j d, nth_error devs j = Some d /\ process d = p /\ first_at devs j = true /\ rank devs j = k.

(** Two positions of the one list belong to one process if and only if they do so in the other. *)
Definition same_pattern (devs devs' : list device) : Prop :=
  length devs = length devs' /\
  forall i j d e d' e', nth_error devs i = Some d -> nth_error devs j = Some e -> nth_error devs' i = Some d' -> nth_error devs' j = Some e' ->
    (process d = process e <-> process d' = process e').

(** The process has the device at the position. *)
Definition has_position (devs : list device) (p j : nat) : Prop := exists d, nth_error devs j = Some d /\ process d = p.

(** The process [a] told that it has the step, stored by the process [i]. *)
Definition holds (scans : list (option nat * list Z)) (a i : nat) (s : Z) : Prop :=
  exists l, nth_error scans a = Some (Some i, l) /\ In s l.

(** ... and no process after it told so. *)
Definition last_holder (scans : list (option nat * list Z)) (a i : nat) (s : Z) : Prop :=
  holds scans a i s /\ forall b, a < b -> ~ holds scans b i s.

(** The step is held as stored by a process with this relative id. *)
Definition shard_held (tmap : list (nat * spot)) (scans : list (option nat * list Z)) (rel : nat) (s : Z) (i : nat) : Prop :=
  exists a sp, holds scans a i s /\ find i tmap = Some sp /\ relative sp = rel.

(** Every shard of the step is held somewhere. *)
Definition complete (tmap : list (nat * spot)) (scans : list (option nat * list Z)) (s : Z) : Prop :=
  forall p sp, find p tmap = Some sp -> exists i, shard_held tmap scans (relative sp) s i.

(** The disk of [a] has the step, stored by [i]. *)
Definition on_disk (disks : list (list stored)) (a i : nat) (s : Z) : Prop :=
  exists disk, nth_error disks a = Some disk /\ In (mk_stored s (Some i)) disk.

(** All that is on the disk was stored by one process. *)
Definition one_owner (disk : list stored) : Prop := exists i, Forall (fun x => s_owner x = Some i) disk.

(** Every shard of the step is on some disk. *)
Definition complete_on_disks (tmap : list (nat * spot)) (disks : list (list stored)) (s : Z) : Prop :=
  forall p sp, find p tmap = Some sp -> exists a i sp', on_disk disks a i s /\ find i tmap = Some sp' /\ relative sp' = relative sp.

(** What a process may restore: its own data, or what a process with the same relative id
    stored. *)
Definition rightful (tmap : list (nat * spot)) (disks : list (list stored)) (me : nat) (s : Z) (o : outcome) : Prop :=
  match o with
  | Returns FromDisk => on_disk disks me me s
  | Returns (FromPeer a i) => on_disk disks a i s /\ exists sp sp', find me tmap = Some sp /\ find i tmap = Some sp' /\ relative sp = relative sp'
  | _ => False
  end.

(** The restore ended with data. *)
Definition returned (o : outcome) : Prop := exists x, o = Returns x.

(** A mesh given by the processes of its devices. *)
Definition layout (s : list nat) (ps : list nat) : mesh := mk_mesh s (map (fun x => mk_device (Z.of_nat (fst x)) (snd x)) (enumerate ps)).
