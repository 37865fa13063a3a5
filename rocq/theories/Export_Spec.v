(** What the utilities for exports should do (C82), said without the functions of the model. *)
From Coq Require Import List Bool Arith NArith String Ascii.
From Verif Require Import Base StepName_Model Tree_Model Export_Model.
Import ListNotations.
Local Open Scope string_scope.
Local Open Scope list_scope.
Local Open Scope nat_scope.

(** The default of a parameter: none when no leaf has one, and the tree of the values when all leaves have one *)
Inductive default_of {V : Type} (p : ptree (sleaf V)) : option (ptree V) -> Prop :=
| do_none : (forall s v b, ~ In (SDef s v b) (pleaves p)) -> default_of p None
| do_some : forall t s v b, In (SDef s v b) (pleaves p) -> pmap (fun x => match x with SDef _ v _ => Some v | _ => None end) p = pmap Some t -> default_of p (Some t).

(** The arguments a call gives to the function: by position, else by name, else the default *)
Definition bound {V : Type} (params : list (text * option V)) (args : list V) (kwargs : dict text V) (out : list V) : Prop :=
  List.length out = List.length params /\ List.length args <= List.length params /\
  forall i n d x, nth_error params i = Some (n, d) -> nth_error out i = Some x ->
    match nth_error args i with
    | Some a => x = a /\ dget text_eqb n kwargs = None
    | None => dget text_eqb n kwargs = Some x \/ (dget text_eqb n kwargs = None /\ d = Some x)
    end.

(** A tensor after batching *)
Inductive batched (n : nat) : tens * bool -> tens -> Prop :=
| ba_same : forall x p, List.length x = n -> batched n (x, p) x
| ba_repeat : forall r, batched n ([r], false) (repeat r n).

(** The name of a key in a variable name *)
Definition shown (k : key) (t : text) : Prop := exists s, key_name k = Ok s /\ t = map (fun c => if Ascii.eqb c "~"%char then "_"%char else c) s.

(** Trees whose keys stay apart: no dots, and no two alike beside each other *)
Inductive apart {A : Type} : ptree A -> Prop :=
| ap_leaf : forall a, apart (PLeaf a)
| ap_node : forall l ns, Forall2 (fun kv n => shown (fst kv) n /\ ~ In "."%char n) l ns -> NoDup ns -> Forall (fun kv => apart (snd kv)) l -> apart (PNode l).

(** The text of a key: the number of a place or the name itself *)
Definition key_text (k : key) (n : text) : Prop := match k with KSeq i | KIndex i => n = dec (N.of_nat i) | KDict s | KAttr s => n = s | KOther => False end.

(** The letters in their two cases *)
Definition uppers : list ascii := list_ascii_of_string "ABCDEFGHIJKLMNOPQRSTUVWXYZ".
Definition lowers : list ascii := list_ascii_of_string "abcdefghijklmnopqrstuvwxyz".
