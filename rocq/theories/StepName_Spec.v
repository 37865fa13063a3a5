(** Independent vocabulary for C12, C13, C44 and C45. *)
From Coq Require Import List Bool String Ascii ZArith NArith.
From Verif Require Import Base Atomic_Model StepName_Model.
Import ListNotations.
Local Open Scope string_scope.
Local Open Scope list_scope.

(** Characters with a special meaning in python regular expressions. *)
Definition special : list ascii :=
  ["\"; "["; "]"; "("; ")"; "{"; "}"; "^"; "$"; "|"; "."; "*"; "+"; "?"]%char.

(** A prefix without pattern characters. *)
Definition plain_prefix (p : option string) : Prop :=
  forall s c, p = Some s -> In c (list_ascii_of_string s) -> ~ In c special.

Definition newline : ascii := "010"%char.

Definition ends_with_newline (n : string) : Prop :=
  exists l, list_ascii_of_string n = l ++ [newline].

Definition width_ok (f : fmt) : Prop :=
  match fixed_length f with None => True | Some w => (0 <= w)%Z end.

(** A string of decimal digits and the number it denotes. *)
Inductive denotes : list ascii -> N -> Prop :=
| den_nil : denotes [] 0
| den_snoc : forall l v d, denotes l v -> (d < 10)%N ->
    denotes (l ++ [ascii_of_N (48 + d)]) (10 * v + d).

(** Name of step [v]: the prefix, an underscore if there is a prefix, then the
    decimal digits of [v], zero-padded to the fixed length. *)
Definition name_of (f : fmt) (v : N) (n : string) : Prop :=
  exists ds,
    n = (match step_prefix f with None => "" | Some p => p ++ "_" end ++ string_of_list_ascii ds)%string /\
    ds <> [] /\ denotes ds v /\
    let w := match fixed_length f with Some w => Z.max 1 w | None => 1%Z end in
    (Z.of_nat (List.length ds) = w \/
     (w < Z.of_nat (List.length ds))%Z /\ forall ds', ds <> "0"%char :: ds').

(** No entry of the root ends in a newline. *)
Definition no_newline_names (r : root) : Prop :=
  forall n x, In (n, x) r -> ~ ends_with_newline n.
