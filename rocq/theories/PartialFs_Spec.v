(** What the files of a checkpoint saved in parts should look like. *)
From Coq Require Import List Bool Arith String Ascii.
From Verif Require Import Base PartialFs_Model.
Import ListNotations.
Open Scope string_scope.

Section Spec.
Context {J : Type}.
Notation node := (node J).

(** The data files below a node, one after another. *)
Fixpoint blobs (x : node) : list string :=
  match x with
  | File (Blob s) => [s]
  | File _ => []
  | Dir l => (fix go (l : list (string * node)) := match l with [] => [] | (_, c) :: r => (blobs c ++ go r)%list end) l
  end.

(** The data files of the children of a directory. *)
Definition blobs_in (l : list (string * node)) : list string := blobs (Dir l).

(** All data files of a session, wherever they are. *)
Definition all_blobs (s : session J) : list string :=
  (match s_partial s with
   | Some p => List.concat (map (fun x => blobs_in (snd x)) (pending p)) ++ blobs_in (merged p)
   | None => []
   end ++ match s_final s with Some l => blobs_in l | None => [] end)%list.

(** The file at a path. *)
Fixpoint find (q : list string) (x : node) : option (content J) :=
  match q, x with
  | [], File c => Some c
  | n :: r, Dir l => match look n l with Some y => find r y | None => None end
  | _, _ => None
  end.

(** A node that holds the data file [c] at [q]. *)
Definition has (q : list string) (c : string) (x : option node) : Prop :=
  exists y, x = Some y /\ find q y = Some (Blob c).

(** The indicator files of the saves are not data. *)
Definition marks_ok (s : session J) : Prop :=
  forall p x, s_partial s = Some p -> In x (pending p) -> forall n c, In (n, c) (snd x) ->
  n = "orbax.checkpoint" \/ n = "commit_success.txt" -> blobs c = [].

(** Where a file of a pending directory belongs: a directory written by one process gets the
    identifier of the save, without dashes, behind its name; everything else stays where it is. *)
Definition belongs (uuid : string) (items : list (string * node)) (q : list string) : list string :=
  match q with
  | n :: m :: r =>
    if match look n items with Some (Dir l) => existsb (fun x => fst x =? "_METADATA") l | _ => false end &&
       negb (existsb (String.eqb n) ["_CHECKPOINT_METADATA"; "orbax.checkpoint"; "commit_success.txt"]) &&
       (substring 0 14 m =? "ocdbt.process_")
    then n :: (m ++ string_of_list_ascii (filter (fun d => negb (Ascii.eqb d "-")) (list_ascii_of_string uuid))) :: r
    else q
  | _ => q
  end.

(** The same files at the same places. *)
Definition same (x y : option node) : Prop :=
  match x, y with
  | None, None => True
  | Some a, Some b => forall q, find q a = find q b
  | _, _ => False
  end.

(** No directory lists a name twice. *)
Inductive distinct : node -> Prop :=
| d_file c : distinct (File c)
| d_dir l : NoDup (map fst l) -> (forall x, In x l -> distinct (snd x)) -> distinct (Dir l).

(** The pytrees of the pending directories. *)
Definition pytree_in (items : list (string * node)) (n : string) : Prop :=
  n <> "_CHECKPOINT_METADATA" /\ n <> "orbax.checkpoint" /\ n <> "commit_success.txt" /\
  exists l, In (n, Dir l) items /\ exists m, In ("_METADATA", m) l.
End Spec.
