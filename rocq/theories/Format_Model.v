(** Model of the recognition of checkpoints by the files of a directory.
    Source: checkpoint/orbax/checkpoint/_src/path/format_utils.py ("FU").
    Simplifications: a directory tree does not change while it is looked at; [read] tells whether the step metadata of a directory can be read; NotADirectoryError is OtherError. *)
From Coq Require Import List Bool String.
From Verif Require Import Base.
Import ListNotations.
Local Open Scope string_scope.
Local Open Scope list_scope.

(** A file or a directory with its entries (FU l.26-29, l.43-44) *)
Inductive node : Type := File | Dir (entries : list (string * node)).

(** [(path / name).exists()]; nothing exists below a file (FU l.29, l.33, l.38, l.44) *)
Definition exists_in (n : node) (name : string) : bool := match n with File => false | Dir l => existsb (fun e => String.eqb name (fst e)) l end.

(** [is_dir] (FU l.44, l.95) *)
Definition is_dir (n : node) : bool := match n with File => false | Dir _ => true end.

(** [is_ocdbt_checkpoint] (FU l.21, l.26-29) *)
Definition is_ocdbt_checkpoint (n : node) : bool := exists_in n "manifest.ocdbt".

(** [_has_msgpack_metadata_file] (FU l.23, l.32-33) *)
Definition has_msgpack_metadata_file (n : node) : bool := exists_in n "checkpoint".

(** [_has_pytree_metadata_file] (FU l.22, l.36-40) *)
Definition has_pytree_metadata_file (n : node) : bool := exists_in n "_METADATA" || has_msgpack_metadata_file n.

(** [_has_zarray_files]; a file cannot be listed (FU l.43-44) *)
Definition has_zarray_files (n : node) : result (list bool) :=
  match n with File => Err OtherError | Dir l => Ok (map (fun e => exists_in (snd e) ".zarray") (filter (fun e => is_dir (snd e)) l)) end.

(** [_has_tensorstore_data_files] (FU l.47-48) *)
Definition has_tensorstore_data_files (n : node) : result bool := if is_ocdbt_checkpoint n then Ok true else rmap (existsb (fun b => b)) (has_zarray_files n).

(** [is_pytree_checkpoint] (FU l.51-57) *)
Definition is_pytree_checkpoint (n : node) : result bool :=
  rbind (if has_pytree_metadata_file n then has_tensorstore_data_files n else Ok false) (fun a =>
    if a then Ok true else if has_msgpack_metadata_file n then rmap (forallb negb) (has_zarray_files n) else Ok false).

(** [is_orbax_checkpoint] (FU l.60-113) *)
Definition is_orbax_checkpoint (read : node -> bool) (path : option node) : result bool :=
  match path with
  | None => Err FileNotFoundError
  | Some File => Err OtherError
  | Some (Dir l) =>
      if read (Dir l) then Ok true
      else rbind (is_pytree_checkpoint (Dir l)) (fun a => if a then Ok true else rmap (existsb (fun b => b)) (sequence (map (fun e => is_pytree_checkpoint (snd e)) l)))
  end.
