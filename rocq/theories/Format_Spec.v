(** What is meant by the properties of the recognition of checkpoints. *)
From Coq Require Import List String.
From Verif Require Import Base Format_Model.
Import ListNotations.
Local Open Scope string_scope.

(** A directory has an entry of that name *)
Definition has (n : node) (name : string) : Prop := exists l x, n = Dir l /\ In (name, x) l.

(** What a tree looks like: an old checkpoint of one file, or the metadata of a tree beside arrays, in one database or in a directory for each *)
Definition looks (n : node) : Prop := has n "checkpoint" \/ has n "_METADATA" /\ (has n "manifest.ocdbt" \/ exists l name d, n = Dir l /\ In (name, d) l /\ has d ".zarray").
