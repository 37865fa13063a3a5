(** What is meant by the properties of the authentication. *)
From Coq Require Import List String Ascii.
From Verif Require Import Base Auth_Model.
Import ListNotations.
Local Open Scope string_scope.
Local Open Scope list_scope.

(** The last value of a name *)
Definition last_value (md : list (string * string)) (name value : string) : Prop := exists a b, md = a ++ (name, value) :: b /\ forall v, ~ In (name, v) b.

(** A text without the character *)
Definition without (c : ascii) (s : string) : Prop := ~ In c (list_ascii_of_string s).
