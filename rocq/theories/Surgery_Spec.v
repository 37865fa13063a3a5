(** What is said about model surgery, without its loops. *)
From Coq Require Import List Bool Arith ZArith NArith String Ascii.
From Verif Require Import Base StepName_Model Tree_Model Surgery_Model.
Import ListNotations.
Open Scope string_scope.

(** [ax] is the axis that [z] means among [n]. *)
Definition is_axis (z : Z) (n ax : nat) : Prop := ax < n /\ (z = Z.of_nat ax \/ z = (Z.of_nat ax - Z.of_nat n)%Z).

(** An index lies in a shape. *)
Definition inside (shape idx : list nat) : Prop := Forall2 lt idx shape.

(** Shapes that differ at most at an axis *)
Definition but_at (ax : nat) (s t : list nat) : Prop := List.length s = List.length t /\ forall n, n <> ax -> nth n s 0 = nth n t 0.

(** Arrays that can be concatenated along an axis *)
Definition can_concat {V : Type} (axis : Z) (l : list (arr V)) : Prop :=
  l <> [] /\ forall a, In a l -> exists ax, is_axis axis (List.length (a_shape a)) ax /\ forall b, In b l -> but_at ax (a_shape b) (a_shape a).

(** [A] has the arrays one after the other along an axis. *)
Definition concat_of {V : Type} (axis : Z) (l : list (arr V)) (A : arr V) : Prop :=
  exists ax, is_axis axis (List.length (a_shape A)) ax /\ nth ax (a_shape A) 0 = list_sum (map (fun b => nth ax (a_shape b) 0) l) /\
  (forall b, In b l -> but_at ax (a_shape b) (a_shape A)) /\
  (forall l1 a l2 idx, l = (l1 ++ a :: l2)%list -> inside (a_shape a) idx ->
     a_at A (set_nth ax (list_sum (map (fun b => nth ax (a_shape b) 0) l1) + nth ax idx 0) idx) = a_at a idx).

(** The axis is one of the array's. *)
Definition repeatable {V : Type} (axis : Z) (a : arr V) : Prop := exists ax, is_axis axis (List.length (a_shape a)) ax.

(** [A] has every item of [a] along an axis [count] times. *)
Definition repeated {V : Type} (axis : Z) (count : nat) (a A : arr V) : Prop :=
  exists ax, is_axis axis (List.length (a_shape a)) ax /\ nth ax (a_shape A) 0 = nth ax (a_shape a) 0 * count /\ but_at ax (a_shape a) (a_shape A) /\
  (forall idx j, inside (a_shape a) idx -> j < count -> a_at A (set_nth ax (nth ax idx 0 * count + j) idx) = a_at a idx).

(** [A] has [count] items of one shape along a new axis; item [i] is [f i], and where there is none,
    the filler. *)
Definition stacked {V : Type} (axis : Z) (count : nat) (shape : list nat) (f : nat -> option (arr V)) (filler : option V) (A : arr V) : Prop :=
  exists ax, is_axis axis (S (List.length shape)) ax /\ a_shape A = (firstn ax shape ++ count :: skipn ax shape)%list /\
  forall i idx, i < count -> inside shape idx ->
    match f i with
    | Some a => a_shape a = shape /\ a_at A (firstn ax idx ++ i :: skipn ax idx)%list = a_at a idx
    | None => exists v, filler = Some v /\ a_at A (firstn ax idx ++ i :: skipn ax idx)%list = v
    end.

(** The arrays of some keys *)
Definition found {V : Type} (d : params V) (ks : list string) (vs : list (arr V)) : Prop := Forall2 (fun k v => dget String.eqb k d = Some v) ks vs.

(** ** Names of parts *)

(** [p] is the first part that the text starts with. *)
Definition starts (parts : list string) (s p : string) : Prop :=
  exists l1 l2, parts = (l1 ++ p :: l2)%list /\ String.prefix p s = true /\ forall q, In q l1 -> String.prefix q s = false.

(** No part starts the text. *)
Definition starts_not (parts : list string) (s : string) : Prop := forall q, In q parts -> String.prefix q s = false.

(** [p] is the leftmost part in the text. *)
Inductive leftmost (parts : list string) : string -> string -> Prop :=
| left_here : forall s p, starts parts s p -> leftmost parts s p
| left_later : forall c s p, starts_not parts (String c s) -> leftmost parts s p -> leftmost parts (String c s) p.

(** Every part in the text, from the left, is replaced. *)
Inductive replaced (parts : list string) (repl : string) : string -> string -> Prop :=
| rep_end : replaced parts repl "" ""
| rep_char : forall c s t, starts_not parts (String c s) -> replaced parts repl s t -> replaced parts repl (String c s) (String c t)
| rep_part : forall p s t, starts parts (p ++ s) p -> replaced parts repl s t -> replaced parts repl (p ++ s) (repl ++ t).

(** A key is to be fused, as part [p], into [g]. *)
Definition fuses (matches : string -> bool) (parts : list string) (repl key g p : string) : Prop :=
  matches key = true /\ leftmost parts key p /\ replaced parts repl key g.

(** All parts of [g] are there. *)
Definition complete (matches : string -> bool) (parts : list string) (repl : string) (keys : list string) (g : string) : Prop :=
  parts <> [] /\ forall p, In p parts -> exists k, In k keys /\ fuses matches parts repl k g p.

(** The arrays that are fused into [g], in the order of the parts *)
Definition pieces {V : Type} (matches : string -> bool) (parts : list string) (repl : string) (d : params V) (g : string) (vs : list (arr V)) : Prop :=
  Forall2 (fun p v => exists k, In (k, v) d /\ fuses matches parts repl k g p) parts vs.

(** No two keys are the same part of the same. *)
Definition unique_pieces (matches : string -> bool) (parts : list string) (repl : string) (keys : list string) : Prop :=
  forall k k' g p, In k keys -> In k' keys -> fuses matches parts repl k g p -> fuses matches parts repl k' g p -> k = k'.

(** ** Keys of stacks *)

(** A string of digits with its value *)
Definition numeral (s : string) (n : nat) : Prop := s <> "" /\ parse_digits 0 (list_ascii_of_string s) = Some (N.of_nat n).

(** No digit in the text *)
Definition no_digit (s : string) : Prop := forall c, In c (list_ascii_of_string s) -> char_digit c = None.

(** The key has the index [i] in its only group, and is [base] without that group. *)
Definition placed (search : string -> option (list (option (nat * nat)))) (key : string) (i : nat) (base : string) : Prop :=
  exists a b pre num post, search key = Some [Some (a, b)] /\ substring a (b - a) key = pre ++ num ++ post /\ no_digit pre /\ no_digit post /\ numeral num i /\
  base = substring 0 a key ++ substring b (String.length key - b) key.

(** The items of a base *)
Definition item_of {V : Type} (search : string -> option (list (option (nat * nat)))) (d : params V) (base : string) (i : nat) (v : arr V) : Prop :=
  exists k, In (k, v) d /\ placed search k i base.

(** Every match has an index, and no two of the same base have the same one. *)
Definition stackable {V : Type} (search : string -> option (list (option (nat * nat)))) (d : params V) : Prop :=
  (forall k v, In (k, v) d -> search k <> None -> exists i b, placed search k i b) /\
  (forall k v k' v' i b, In (k, v) d -> In (k', v') d -> placed search k i b -> placed search k' i b -> k = k').

(** How many items are stacked *)
Definition counts {V : Type} (search : string -> option (list (option (nat * nat)))) (d : params V) (expected : option nat) (count : nat) : Prop :=
  match expected with
  | Some n => count = n
  | None => (forall b i v, item_of search d b i v -> i < count) /\ exists b i v, item_of search d b i v /\ count = S i
  end.

(** The items of a base can be stacked: one shape and, without a filler, exactly the indices below
    [count]; with a filler only the axes from the front. *)
Definition fits {V : Type} (search : string -> option (list (option (nat * nat)))) (d : params V) (axis : Z) (count : nat) (filler : option V) (base : string) : Prop :=
  exists shape, (forall i v, item_of search d base i v -> a_shape v = shape) /\
  match filler with
  | None => (exists ax, is_axis axis (S (List.length shape)) ax) /\ forall i, (exists v, item_of search d base i v) <-> i < count
  | Some _ => (0 <= axis <= Z.of_nat (List.length shape))%Z /\ forall i v, item_of search d base i v -> i < count
  end.

(** Every base has the stack of its items; all else is what did not match. *)
Definition stack_result {V : Type} (search : string -> option (list (option (nat * nat)))) (d : params V) (axis : Z) (count : nat) (filler : string -> option V) (r : params V) : Prop :=
  (forall b i v, item_of search d b i v -> exists f A, (forall j w, f j = Some w <-> item_of search d b j w) /\ dget String.eqb b r = Some A /\ stacked axis count (a_shape v) f (filler b) A) /\
  (forall k, (forall i v, ~ item_of search d k i v) -> forall v, dget String.eqb k r = Some v <-> In (k, v) d /\ search k = None).
