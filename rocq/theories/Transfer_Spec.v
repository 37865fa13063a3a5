(** Vocabulary of the statements about transfers: what arrives and where paths lead. *)
From Coq Require Import List Bool Arith ZArith String Permutation.
From Verif Require Import Base Transfer_Model.
Import ListNotations.

(** The bytes arrive in these pieces. *)
Definition arrive (bytes : list Z) (pieces : list (list Z)) : Prop := List.concat pieces = bytes /\ ~ In [] pieces.

(** Only some of the first bytes arrive before the connection ends. *)
Definition arrive_in_part (bytes : list Z) (pieces : list (list Z)) : Prop :=
  exists first rest, bytes = (first ++ rest)%list /\ rest <> [] /\ arrive first pieces.

(** Where a path leads: names are followed one after the other, links are replaced. *)
Inductive leads (link : list string -> option string) : list string -> list string -> list string -> Prop :=
| leads_end : forall d, leads link d [] d
| leads_same : forall d n r e, n = ""%string \/ n = "."%string -> leads link d r e -> leads link d (n :: r) e
| leads_up : forall d r e, leads link (removelast d) r e -> leads link d (".."%string :: r) e
| leads_down : forall d n r e, n <> ""%string -> n <> "."%string -> n <> ".."%string -> link (d ++ [n])%list = None -> leads link (d ++ [n])%list r e -> leads link d (n :: r) e
| leads_link : forall d n r t e, n <> ""%string -> n <> "."%string -> n <> ".."%string -> link (d ++ [n])%list = Some t ->
    leads link (if isabs t then [] else d) (split_path "" t ++ r)%list e -> leads link d (n :: r) e.

(** The path is in the directory or is the directory. *)
Definition within (base p : list string) : Prop := exists below, p = (base ++ below)%list.

(** A name that is neither empty nor a dot nor two dots. *)
Definition plain (n : string) : Prop := n <> ""%string /\ n <> "."%string /\ n <> ".."%string.

(** What the connection for one file brings: the bytes for its content, or for a file that is gone,
    all of them or only some. *)
Definition brings (file : string * list Z) (pieces : list (list Z)) : Prop :=
  exists content bytes, (content = Some (snd file) \/ content = None) /\ send_file content = Ok bytes /\ (arrive bytes pieces \/ arrive_in_part bytes pieces).

(** All bytes of the file arrive. *)
Definition brings_all (file : string * list Z) (pieces : list (list Z)) : Prop :=
  exists bytes, send_file (Some (snd file)) = Ok bytes /\ arrive bytes pieces.

(** Json of one number in one byte, zero being false, for the examples. *)
Definition byte_dumps (j : Z) : list Z := [j].

(** The other way. *)
Definition byte_loads (l : list Z) : decoded Z := match l with [j] => Json j | _ => NotJson end.

(** The connection that brings the whole content in one piece, for the examples. *)
Definition wire (c : list Z) : list (list Z) := match send_file (Some c) with Ok b => [b] | Err _ => [] end.
