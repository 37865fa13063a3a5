(** Vocabulary of the statements about the JSON form of metadata trees. *)
From Coq Require Import List Bool Arith NArith ZArith String Ascii.
From Verif Require Import Base StepName_Model Tree_Model Tree_Spec RichMeta_Model.
Import ListNotations.
Open Scope string_scope.

(** No node is without children. *)
Inductive full {V : Type} : tree V -> Prop :=
| full_leaf : forall v, full (Leaf v)
| full_node : forall k cs, cs <> [] -> Forall (fun x => full (snd x)) cs -> full (Node k cs).

(** The characters of identifiers. *)
Definition letters : list ascii := list_ascii_of_string "abcdefghijklmnopqrstuvwxyzABCDEFGHIJKLMNOPQRSTUVWXYZ_".
Definition digits : list ascii := list_ascii_of_string "0123456789".

Definition is_identifier (s : string) : Prop :=
  exists c r, s = String c r /\ In c letters /\ forall x, In x (list_ascii_of_string r) -> In x letters \/ In x digits.

Section Classes.
Variables module_of qualname_of : string -> string.

(** The class that stands for a named tuple's class after reading: module, class and number of
    fields, with underscores for dots. *)
Definition stand_in (c : string) (fields : nat) : string :=
  string_of_list_ascii (map (fun x => if Ascii.eqb x "." then "_"%char else x)
    (list_ascii_of_string (module_of c ++ "_" ++ qualname_of c ++ "_" ++ string_of_list_ascii (dec (N.of_nat fields))))).

(** The tree with stand-in classes and string keys. *)
Fixpoint reread (t : tree vmeta) : tree lval :=
  match t with
  | Leaf v => Leaf (LMeta v)
  | Node k cs =>
    Node (match k with KNamed c => KNamed (stand_in c (List.length cs)) | _ => k end)
         (map (fun x => (match k with KDict => DictKey (KStr (str_name (fst x))) | _ => fst x end, reread (snd x))) cs)
  end.

(** All stand-in classes can be made. *)
Inductive namable : tree vmeta -> Prop :=
| nam_leaf : forall v, namable (Leaf v)
| nam_node : forall k cs, Forall (fun x => namable (snd x)) cs ->
    (forall c, k = KNamed c -> is_identifier (stand_in c (List.length cs)) /\
       forall f x, In (GetAttrKey f, x) cs -> is_identifier f /\ forall r, f <> String "_" r) ->
    namable (Node k cs).

End Classes.
