(** What is meant by the properties of the removal of directories in Google Cloud Storage. *)
From Coq Require Import List Bool Arith String Ascii Permutation.
From Verif Require Import Base Gcs_Model.
Import ListNotations.
Local Open Scope string_scope.
Local Open Scope list_scope.

(** A part of a path: not empty, and without slash, question mark and number sign *)
Definition plain (s : string) : Prop := s <> EmptyString /\ forall c, In c (list_ascii_of_string s) -> c <> "/"%char /\ c <> "?"%char /\ c <> "#"%char.

(** The path of a directory in a bucket *)
Definition path_of (b : string) (cs : list string) : string := ("gs://" ++ b ++ "/" ++ String.concat "/" cs)%string.

(** The directory itself or something in it *)
Definition inside (p f : list string) : Prop := exists r, f = p ++ r.

(** Each folder has a name, and the folder that it is in is a folder too *)
Definition whole (b : bucket) : Prop := forall f, In f (folders b) -> f <> [] /\ forall x y r, f = (x :: r) ++ [y] -> In (x :: r) (folders b).

(** Any order of the elements *)
Definition any_order (order : list (list string) -> list (list string)) : Prop := forall l, Permutation (order l) l.
