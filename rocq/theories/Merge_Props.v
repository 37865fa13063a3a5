(** C50: merging trees. *)
From Coq Require Import List Bool Arith NArith ZArith String Ascii Lia.
From Verif Require Import Base StepName_Model Tree_Model Tree_Spec Tree_Proofs Parts_Model Merge_Model Merge_Spec Merge_Proofs.
Import ListNotations.
Open Scope string_scope.

(** Notation for the examples. *)
Definition D {V : Type} (l : list (string * tree V)) : tree V := Node KDict (map (fun x => (DictKey (KStr (fst x)), snd x)) l).
Definition L {V : Type} (l : list (tree V)) : tree V := Node KList (combine (map SequenceKey (seq 0 (List.length l))) l).

Definition none : tree nat := Node KNone [].

Ltac wf_tac := unfold D, L, none; repeat match goal with
  | |- wf (Leaf _) => constructor
  | |- wf (Node _ _) => constructor
  | |- keys_fit KDict _ => split; [|left; intros ? HH; simpl in HH; repeat (destruct HH as [<-|HH]; [eexists; reflexivity|]); contradiction]
  | |- keys_fit _ _ => reflexivity
  | |- NoDup [] => constructor
  | |- NoDup (_ :: _) => constructor; [simpl; intuition discriminate|]
  | |- Forall _ [] => constructor
  | |- Forall _ (_ :: _) => constructor
  | |- _ => progress cbn [map fst snd combine List.length seq]
  end.

Definition key_value (k : key) : nat := match k with DictKey (KStr s) => 100 + String.length s | _ => 99 end.

Definition point (x y : tree nat) : tree nat := Node (KNamed "Point") [(GetAttrKey "x", x); (GetAttrKey "y", y)].

(** Without overwriting: trees that have a leaf or [None] under the same names are refused. *)
Theorem C50_conflict : forall {V : Type} (kl : key -> V) ts, Forall wf ts -> ts <> [] ->
  ~ pairwise (fun s t => ~ collide s t) ts -> merge_trees kl false ts = Err ValueError.
Proof.
  intros V kl ts W N P. destruct ts as [|t ts]; [congruence|]. unfold merge_trees.
  destruct (check_spec (t :: ts) []) as [(_ & Q & _)|(R & _)]; [eapply Forall_impl; [apply wf_keyed | exact W] | contradiction|].
  rewrite R. reflexivity.
Qed.
Print Assumptions C50_conflict.

Example C50_conflict_ex : merge_trees key_value false [D [("a", Leaf 1)]; D [("b", Leaf 2); ("a", none)]] = Err ValueError.
Proof. vm_compute. reflexivity. Qed.

(** Without overwriting: what succeeds is the union of the trees, and no two of them had
    anything under the same names. *)
Theorem C50_union : forall {V : Type} (kl : key -> V) fields ts m, Forall wf ts -> Forall (classes fields) ts -> ts <> [] ->
  merge_trees kl false ts = Ok m ->
  pairwise (fun s t => ~ collide s t) ts /\
  forall p s, leaf_like s -> (at_path m p s <-> exists t, In t ts /\ at_path t p s).
Proof.
  intros V kl fields ts m W C N H. destruct ts as [|t ts]; [congruence|]. unfold merge_trees in H.
  assert (K : Forall keyed (t :: ts)) by (eapply Forall_impl; [apply wf_keyed | exact W]).
  destruct (check_spec (t :: ts) [] K) as [(R & Q & _)|(R & _)]; rewrite R in H; [|discriminate]. cbn [rbind] in H.
  split; [exact Q|]. inversion_clear K as [|? ? K1 K2]. inversion_clear C as [|? ? C1 C2]. destruct Q as [Q1 Q2].
  intros p s Ls. apply (fold_ok_union kl fields ts t m); auto.
Qed.
Print Assumptions C50_union.

Example C50_union_ex :
  merge_trees key_value false [D [("a", Leaf 1); ("b", D [("c", Leaf 2)])]; D [("d", Leaf 3); ("b", D [("e", Leaf 4)])]; D [("b", D [("f", none)])]] =
  Ok (D [("a", Leaf 1); ("b", D [("c", Leaf 2); ("e", Leaf 4); ("f", none)]); ("d", Leaf 3)]).
Proof. vm_compute. reflexivity. Qed.

(** Without overwriting: trees of the same shape that do not collide are merged. *)
Theorem C50_merged : forall {V : Type} (kl : key -> V) ts, Forall wf ts -> pairwise (fun s t => same_shape t s) ts -> pairwise (fun s t => ~ collide s t) ts ->
  exists m, merge_trees kl false ts = Ok m.
Proof.
  intros V kl [|t ts] W S Q; [eexists; reflexivity|]. unfold merge_trees.
  assert (K : Forall keyed (t :: ts)) by (eapply Forall_impl; [apply wf_keyed | exact W]).
  destruct (check_spec (t :: ts) [] K) as [(R & _ & _)|(R & [(u & k & _ & _ & [])|B])]; [|contradiction].
  rewrite R. cbn [rbind]. inversion_clear K as [|? ? K1 K2]. destruct Q as [Q1 Q2]. destruct S as [S1 S2].
  destruct (fold_union kl ts t) as (m & E & _); auto. exists m. exact E.
Qed.
Print Assumptions C50_merged.

Example C50_merged_ex : same_shape (D [("a", D [("x", Leaf 1)])]) (D [("a", D [("y", Leaf 2)]); ("b", Leaf 3)]) /\
  merge_trees key_value false [D [("a", D [("y", Leaf 2)]); ("b", Leaf 3)]; D [("a", D [("x", Leaf 1)])]] = Ok (D [("a", D [("y", Leaf 2); ("x", Leaf 1)]); ("b", Leaf 3)]).
Proof.
  split; [|vm_compute; reflexivity]. apply same_node; [congruence|]. cbn. intros x c d [E|[]] [E'|[E'|[]]]; injection E as <- <-; inversion E'; subst.
  apply same_node; [congruence|]. cbn. intros x c d [E|[]] [E2|[]]; congruence.
Qed.

(** With overwriting: compatible trees are merged, and what is at a path comes from the last
    tree that has a leaf there, unless a later tree decides about the path. *)
Theorem C50_overwrite : forall {V : Type} (kl : key -> V) ts, Forall wf ts -> pairwise (fun s t => compatible t s) ts -> ts <> [] ->
  exists m, merge_trees kl true ts = Ok m /\
  forall p v, at_path m p (Leaf v) <->
    exists before t after, ts = (before ++ t :: after)%list /\ at_path t p (Leaf v) /\ forall u, In u after -> ~ governs u p.
Proof.
  intros V kl [|t ts] W C N; [congruence|]. unfold merge_trees.
  assert (K : Forall keyed (t :: ts)) by (eapply Forall_impl; [apply wf_keyed | exact W]).
  inversion_clear K as [|? ? K1 K2]. destruct C as [C1 C2].
  destruct (fold_overwrite kl ts t) as (m & E & _ & P); auto. exists m. split; [exact E|]. intros p v. rewrite P. apply decided_iff.
Qed.
Print Assumptions C50_overwrite.

Example C50_overwrite_ex : compatible (point none (L [Leaf 5; none])) (point (Leaf 1) (L [Leaf 2; Leaf 3])) /\
  merge_trees key_value true [point (Leaf 1) (L [Leaf 2; Leaf 3]); point none (L [Leaf 5; none])] = Ok (point (Leaf 1) (L [Leaf 5; Leaf 3])) /\
  merge_trees key_value true [D [("a", D [("b", Leaf 1)]); ("c", Leaf 2)]; D [("a", Leaf 3); ("d", Leaf 4)]] = Ok (D [("a", Leaf 3); ("c", Leaf 2); ("d", Leaf 4)]).
Proof.
  split; [|split; vm_compute; reflexivity]. apply compatible_node; [left; reflexivity | reflexivity|].
  cbn. intros x c d [E|[E|[]]] [E'|[E'|[]]]; injection E as <- <-; inversion E'; subst; [apply compatible_leaf; left; reflexivity|].
  apply compatible_node; [left; reflexivity | reflexivity|]. cbn.
  intros x c d [E|[E|[]]] [E2|[E2|[]]]; injection E as <- <-; inversion E2; subst; apply compatible_leaf; right; exact I.
Qed.

(** A tree merged into itself is unchanged, whatever it is. *)
Theorem C50_self : forall {V : Type} (kl : key -> V) (t : tree V), wf t -> merge_trees kl true [t; t] = Ok t.
Proof. intros V kl t W. unfold merge_trees. cbn [fold_left rbind]. apply merge_self. apply wf_keyed; exact W. Qed.
Print Assumptions C50_self.

Example C50_self_ex : merge_trees key_value true [point (Leaf 1) (D [("b", Leaf 2); ("a", L [none])]); point (Leaf 1) (D [("b", Leaf 2); ("a", L [none])])] = Ok (point (Leaf 1) (D [("b", Leaf 2); ("a", L [none])])).
Proof. vm_compute. reflexivity. Qed.

(** "Later values from [trees] will overwrite earlier values": not if the later value is
    [None]. *)
Theorem C50_none_refuted : exists (s t : tree nat), wf s /\ wf t /\ at_path t [DictKey (KStr "a")] none /\
  merge_trees key_value true [s; t] = Ok s /\ at_path s [DictKey (KStr "a")] (Leaf 1).
Proof.
  exists (D [("a", Leaf 1)]), (D [("a", none)]). split; [|split; [|split; [|split]]].
  - wf_tac.
  - wf_tac.
  - apply at_node. exists none. split; [left; reflexivity | constructor].
  - vm_compute; reflexivity.
  - apply at_node. exists (Leaf 1). split; [left; reflexivity | constructor].
Qed.
Print Assumptions C50_none_refuted.

(** With overwriting a later empty dictionary, which has no leaf at all, removes an earlier
    value. *)
Theorem C50_empty_refuted : exists (s t m : tree nat), flat_keys t = [] /\ merge_trees key_value true [s; t] = Ok m /\
  at_path s [DictKey (KStr "a")] (Leaf 1) /\ flat_keys m = [].
Proof.
  exists (D [("a", Leaf 1)]), (D [("a", D [])]), (D [("a", D [])]). split; [reflexivity|]. split; [vm_compute; reflexivity|]. split; [|reflexivity].
  apply at_node. exists (Leaf 1). split; [left; reflexivity | constructor].
Qed.
Print Assumptions C50_empty_refuted.

(** With overwriting a list put over a dictionary of the same length meets the keys of the
    dictionary instead of its values: where the list has [None], the key appears as a leaf of
    the result, a value that none of the trees had. *)
Theorem C50_key_refuted : exists (s t m : tree nat) p v, merge_trees key_value true [s; t] = Ok m /\ at_path m p (Leaf v) /\
  (forall q w, at_path s q (Leaf w) -> w <> v) /\ (forall q w, at_path t q (Leaf w) -> w <> v).
Proof.
  exists (D [("a", Leaf 1); ("bc", Leaf 2)]), (L [none; Leaf 3]), (L [Leaf 101; Leaf 3]), [SequenceKey 0], 101.
  split; [vm_compute; reflexivity|]. split; [apply at_node; exists (Leaf 101); split; [left; reflexivity | constructor]|].
  split; intros [|x q] w A; try (apply at_nil in A; discriminate); apply at_node in A as (c & I & A); cbn in I.
  - destruct I as [I|[I|[]]]; injection I as <- <-; apply at_leaf in A as [_ A]; injection A as ->; discriminate.
  - destruct I as [I|[I|[]]]; injection I as <- <-; [|apply at_leaf in A as [_ A]; injection A as ->; discriminate].
    destruct q as [|y q]; [apply at_nil in A; discriminate|]. apply at_node in A as (c & [] & _).
Qed.
Print Assumptions C50_key_refuted.

(** The documentation names differing types as an error only without overwriting; a dictionary
    cannot be put over a list that is not empty with overwriting either. *)
Theorem C50_types_refuted : exists (s t : tree nat) e, wf s /\ wf t /\ merge_trees key_value true [s; t] = Err e.
Proof.
  exists (L [Leaf 1]), (D [("a", Leaf 1)]), TypeError. split; [|split; [|vm_compute; reflexivity]].
  - wf_tac.
  - wf_tac.
Qed.
Print Assumptions C50_types_refuted.

(** Without overwriting, trees are refused although they have no path in common: the key [1]
    and the key ['1'] have the same name. *)
Theorem C50_name_refuted : exists (s t : tree nat), wf s /\ wf t /\ same_shape t s /\
  (forall p a b, at_path s p (Leaf a) -> at_path t p (Leaf b) -> False) /\ merge_trees key_value false [s; t] = Err ValueError.
Proof.
  exists (Node KDict [(DictKey (KInt 1), Leaf 1)]), (D [("1", Leaf 2)]). split; [|split; [|split; [|split]]].
  - apply wf_node; [split; [constructor; [intros H; destruct H | constructor] | right; intros x [<-|[]]; eexists; reflexivity]|]. constructor; [constructor | constructor].
  - wf_tac.
  - apply same_node; [congruence|]. cbn. intros x c d [E|[]] [E'|[]]; congruence.
  - intros [|x p] a b A B; [apply at_nil in A; discriminate|]. apply at_node in A as (c & [E|[]] & _). apply at_node in B as (d & [E'|[]] & _). cbn in E, E'. congruence.
  - vm_compute; reflexivity.
Qed.
Print Assumptions C50_name_refuted.

(** No trees make an empty dictionary. *)
Theorem C50_nothing : forall {V : Type} (kl : key -> V) ow, merge_trees kl ow [] = Ok (Node KDict []).
Proof. reflexivity. Qed.
Print Assumptions C50_nothing.

(** With overwriting: a dictionary put over a named tuple is merged with it under the names of the
    fields, into a dictionary. *)
Theorem C50_dict_over_named : forall {V : Type} (kl : key -> V) c cs ds, NoDup (map fst cs) -> NoDup (map fst ds) ->
  exists m, merge_trees kl true [named_of c ds; dict_of cs] = Ok m /\ over ds cs m.
Proof. intros V kl c cs ds Nc Nd. unfold merge_trees. cbn [fold_left rbind]. apply dict_over_named; auto. Qed.
Print Assumptions C50_dict_over_named.

(** With overwriting: a named tuple put over a dictionary stays one if it has a field for every key of
    the dictionary, otherwise a dictionary results. *)
Theorem C50_named_over_dict : forall {V : Type} (kl : key -> V) c cs ds, NoDup (map fst cs) -> NoDup (map fst ds) ->
  ((forall s, In s (map fst ds) -> In s (map fst cs)) -> merge_trees kl true [dict_of ds; named_of c cs] = Ok (named_of c cs)) /\
  (~ (forall s, In s (map fst ds) -> In s (map fst cs)) -> exists m, merge_trees kl true [dict_of ds; named_of c cs] = Ok m /\ over ds cs m).
Proof. intros V kl c cs ds Nc Nd. unfold merge_trees. cbn [fold_left rbind]. apply named_over_dict; auto. Qed.
Print Assumptions C50_named_over_dict.

Example C50_named_ex :
  merge_trees key_value true [named_of "Point" [("x", 1); ("y", 2)]; dict_of [("y", 5); ("z", 6)]] = Ok (dict_of [("x", 1); ("y", 5); ("z", 6)]) /\
  merge_trees key_value true [dict_of [("y", 5); ("z", 6)]; named_of "Point" [("x", 1); ("y", 2)]] = Ok (dict_of [("y", 2); ("z", 6); ("x", 1)]) /\
  merge_trees key_value true [dict_of [("y", 5)]; named_of "Point" [("x", 1); ("y", 2)]] = Ok (named_of "Point" [("x", 1); ("y", 2)]).
Proof. repeat split; vm_compute; reflexivity. Qed.
