(** C39: differences of trees. *)
From Coq Require Import List Bool Arith NArith ZArith String Ascii Permutation Lia.
From Verif Require Import Base StepName_Model Tree_Model Tree_Spec Tree_Proofs Tree_Props Parts_Model Diff_Model Diff_Spec Diff_Proofs.
Import ListNotations.
Open Scope string_scope.

(** No difference is found exactly between equal trees (mappings in any order). *)
Theorem C39_none : forall {V : Type} (eqv : V -> V -> bool) (a b : tree V) fields, (forall x y, eqv x y = true <-> x = y) ->
  wf a -> wf b -> classed fields a -> classed fields b -> (tree_difference eqv a b = NoDiff <-> peq a b).
Proof.
  intros V eqv a b fields EQ WA WB CA CB. rewrite (none_reports eqv a b fields WA WB CA CB). exact (none_peq eqv EQ a b fields WA WB CA CB).
Qed.
Print Assumptions C39_none.

Ltac cl_tac := unfold D, L, T; repeat match goal with
  | |- classed _ (Leaf _) => constructor
  | |- classed _ (Node _ _) => constructor; [intros ? HH; try discriminate HH; try (injection HH as <-; reflexivity)|]
  | |- Forall _ [] => constructor
  | |- Forall _ (_ :: _) => constructor
  | |- _ => progress cbn [map fst snd combine List.length seq]
  end.

Definition point (x y : tree nat) : tree nat := Node (KNamed "Point") [(GetAttrKey "x", x); (GetAttrKey "y", y)].
Definition fields (c : string) : list key := if String.eqb c "Point" then [GetAttrKey "x"; GetAttrKey "y"] else [].

Example C39_none_ex :
  let a := D [("p", point (Leaf 1) (L [])); ("q", L [Leaf 2; Node KNone []])] in
  let b := D [("q", L [Leaf 2; Node KNone []]); ("p", point (Leaf 1) (L []))] in
  wf a /\ wf b /\ classed fields a /\ classed fields b /\ a <> b /\ tree_difference Nat.eqb a b = NoDiff.
Proof.
  cbv zeta. unfold point. split; [wf_tac|split; [wf_tac|]].
  - split; [wf_tac|]. intros x [<-|[<-|[]]]; eauto.
  - split; [wf_tac|]. intros x [<-|[<-|[]]]; eauto.
  - split; [cl_tac|]. split; [cl_tac|]. split; [discriminate|vm_compute; auto].
Qed.

(** The reports are exactly the first places where the trees differ: unequal leaves,
    node types that differ, sequences whose lengths differ, entries of a mapping that the
    other one lacks. *)
Theorem C39_reports : forall {V : Type} (eqv : V -> V -> bool) (a b : tree V) fields p r, wf a -> wf b -> classed fields a -> classed fields b ->
  (reported (tree_difference eqv a b) p r <-> differs eqv a b p r).
Proof. intros V eqv a b fields p r WA WB CA CB. exact (reports eqv a b p r WA WB fields CA CB). Qed.
Print Assumptions C39_reports.

(** The example of the docstring, with leaves compared by type. *)
Example C39_reports_ex : tree_difference (fun _ _ => true)
    (D [("x", L [Leaf 1; Leaf 2; Leaf 3]); ("y", Leaf 7); ("z", D [("p", D []); ("q", Leaf 4); ("r", Leaf 6)])])
    (D [("x", L [Leaf 1; Leaf 3]); ("y", Leaf 7); ("z", D [("p", D []); ("q", Leaf 5); ("s", Leaf 6)])]) =
  DiffNode KDict [(DictKey (KStr "x"), Report (LengthDiff KList 3 2));
    (DictKey (KStr "z"), DiffNode KDict [(DictKey (KStr "r"), Report (OnlyLeft (Leaf 6))); (DictKey (KStr "s"), Report (OnlyRight (Leaf 6)))])] /\
  tree_difference Nat.eqb (point (Leaf 1) (T [Leaf 2; Leaf 3])) (point (L []) (T [Leaf 2; Leaf 4])) =
  DiffNode (KNamed "Point") [(GetAttrKey "x", Report (TypeDiff None (Some KList)));
    (GetAttrKey "y", DiffNode KTuple [(SequenceKey 0, NoDiff); (SequenceKey 1, Report (LeafDiff 3 4))])].
Proof. vm_compute. auto. Qed.

(** What each report says is true of the two trees. *)
Theorem C39_true : forall {V : Type} (eqv : V -> V -> bool) (a b : tree V) fields p r, wf a -> wf b -> classed fields a -> classed fields b ->
  reported (tree_difference eqv a b) p r ->
  match r with
  | LeafDiff x y => at_path a p (Leaf x) /\ at_path b p (Leaf y) /\ eqv x y = false
  | TypeDiff x y => exists s t, at_path a p s /\ at_path b p t /\ type_of s = x /\ type_of t = y /\ x <> y
  | LengthDiff k m n => exists cs ds, at_path a p (Node k cs) /\ at_path b p (Node k ds) /\ List.length cs = m /\ List.length ds = n /\ m <> n
  | OnlyLeft s => at_path a p s /\ exists q x ds, p = (q ++ [x])%list /\ at_path b q (Node KDict ds) /\ ~ In x (map fst ds)
  | OnlyRight t => at_path b p t /\ exists q x cs, p = (q ++ [x])%list /\ at_path a q (Node KDict cs) /\ ~ In x (map fst cs)
  end.
Proof.
  intros V eqv a b fields p r WA WB CA CB R. apply (reports eqv a b p r WA WB fields CA CB) in R. clear WA WB CA CB.
  induction R as [x y E|a b T|k cs ds S L|cs ds x c I N|cs ds x d I N|k cs ds x c d p r L I J R IH].
  - spl; auto; constructor.
  - exists a, b. spl; auto; constructor.
  - exists cs, ds. spl; auto; constructor.
  - split; [econstructor; [eauto|constructor]|]. exists [], x, ds. spl; auto. constructor.
  - split; [econstructor; [eauto|constructor]|]. exists [], x, cs. spl; auto. constructor.
  - destruct r as [u v|u v|kd m n|s|t].
    + destruct IH as (A & B & C). spl; auto; econstructor; eauto.
    + destruct IH as (s & t & A & B & C). exists s, t. spl; try apply C; econstructor; eauto.
    + destruct IH as (s & t & A & B & C). exists s, t. spl; try apply C; econstructor; eauto.
    + destruct IH as (A & q & y & es & -> & B & C). split; [econstructor; eauto|]. exists (x :: q), y, es. spl; auto. econstructor; eauto.
    + destruct IH as (A & q & y & es & -> & B & C). split; [econstructor; eauto|]. exists (x :: q), y, es. spl; auto. econstructor; eauto.
Qed.
Print Assumptions C39_true.

Example C39_true_ex : exists r, reported (tree_difference Nat.eqb (D [("a", L [Leaf 1])]) (D [("a", L [Leaf 2])])) [DictKey (KStr "a"); SequenceKey 0] r.
Proof. exists (LeafDiff 1 2). vm_compute. econstructor; [left; reflexivity|]. econstructor; [left; reflexivity|constructor]. Qed.

(** The result is a prefix of both trees: entries of mappings that do not differ are left
    out, elements of sequences that do not differ are [None], and no node is without a
    report. *)
Theorem C39_shape : forall {V : Type} (eqv : V -> V -> bool) (a b : tree V) fields, wf a -> wf b -> classed fields a -> classed fields b ->
  fits a b (tree_difference eqv a b) /\
  (tree_difference eqv a b <> NoDiff -> exists p r, reported (tree_difference eqv a b) p r).
Proof. intros V eqv a b fields WA WB CA CB. split; [exact (shape eqv a b fields WA WB CA CB)|exact (some_report eqv a b fields WA WB CA CB)]. Qed.
Print Assumptions C39_shape.

Example C39_shape_ex : tree_difference Nat.eqb (D [("a", L [Leaf 1; Leaf 5]); ("b", Leaf 1)]) (D [("a", L [Leaf 2; Leaf 5]); ("b", Leaf 1)]) =
  DiffNode KDict [(DictKey (KStr "a"), DiffNode KList [(SequenceKey 0, Report (LeafDiff 1 2)); (SequenceKey 1, NoDiff)])].
Proof. vm_compute. auto. Qed.
