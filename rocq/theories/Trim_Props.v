(** C40: trimming a tree to a template. *)
From Coq Require Import List Bool Arith NArith ZArith String Ascii Permutation Lia.
From Verif Require Import Base StepName_Model Tree_Model Tree_Spec Tree_Proofs Tree_Props Parts_Model Parts_Spec Parts_Proofs Trim_Model Trim_Spec Trim_Proofs.
Import ListNotations.
Open Scope string_scope.

(** No leaf is a sequence. *)
Definition none_chars {V : Type} (v : V) : option (list V) := None.

(** Strict trimming succeeds exactly when the node types are compatible, no template key
    is missing, sequences have the same length and no leaf of the template meets [None].
    The only errors are ValueError and TypeError. *)
Theorem C40_ok : forall {U V : Type} chars allow (t : tree U) (s : tree V), (forall v, chars v = None) -> wf t -> wf s ->
  ((exists o, tree_trim chars allow t s = Ok o) <-> trims true allow t s /\ complete t s) /\
  forall e, tree_trim chars allow t s = Err e -> refused e.
Proof.
  intros U V chars allow t s NC WT WS. assert (C := strict_ok chars NC allow t s WT WS). destruct (tree_trim chars allow t s) as [[r log]|e].
  - destruct C as (C1 & C2 & _). split; [split; eauto|]. intros e H. discriminate.
  - destruct C as (C1 & C2). split; [split; [intros (o & H); discriminate|intros H; contradiction]|]. intros e' H. injection H as <-. auto.
Qed.
Print Assumptions C40_ok.

(** Named tuples of the examples. *)
Definition N (c : string) (l : list (string * tree nat)) : tree nat := Node (KNamed c) (map (fun x => (GetAttrKey (fst x), snd x)) l).
Ltac named_tac := unfold N; repeat (wf_tac; try match goal with
  | |- keys_fit (KNamed _) _ => split; [|intros ? HH; simpl in HH; repeat (destruct HH as [<-|HH]; [eexists; reflexivity|]); contradiction]
  end).
Definition None_ : tree nat := Node KNone [].

Definition small : tree nat := D [("b", L [Leaf 0; Leaf 0]); ("a", Leaf 0); ("p", N "P" [("x", Leaf 0)])].
Definition large : tree nat := D [("c", Leaf 5); ("a", Leaf 1); ("b", T [Leaf 2; Leaf 3]); ("p", D [("y", Leaf 6); ("x", Leaf 7)])].

Lemma small_wf : wf small. Proof. unfold small. named_tac. Qed.
Lemma large_wf : wf large. Proof. unfold large. wf_tac. Qed.

Example C40_ok_ex : wf small /\ wf large /\
  tree_trim none_chars false small large =
    Ok (D [("a", Leaf 1); ("b", L [Leaf 2; Leaf 3]); ("p", N "P" [("x", Leaf 7)])], [([KStr "c"], Leaf 5); ([KStr "p"; KStr "y"], Leaf 6)]) /\
  tree_trim none_chars false small (D [("a", Leaf 1)]) = Err ValueError /\
  tree_trim none_chars false (D [("a", L [Leaf 0])]) (D [("a", L [Leaf 1; Leaf 2])]) = Err ValueError /\
  tree_trim none_chars false (D [("a", L [Leaf 0])]) (D [("a", D [("0", Leaf 1)])]) = Err TypeError /\
  tree_trim none_chars false (D [("a", Leaf 0)]) (D [("a", None_)]) = Err ValueError /\
  tree_trim none_chars false (D [("0", Leaf 0)]) (L [Leaf 1; Leaf 2]) = Err TypeError /\
  tree_trim none_chars true (D [("0", Leaf 0)]) (L [Leaf 1; Leaf 2]) = Ok (D [("0", Leaf 1)], [([KStr "[1]"], Leaf 2)]) /\
  tree_trim none_chars false (D [("x", Leaf 0)]) (N "P" [("x", Leaf 1); ("y", Leaf 2)]) = Ok (D [("x", Leaf 1)], [([KStr ".y"], Leaf 2)]) /\
  tree_trim none_chars false (D [("a", None_)]) large = Ok (D [("a", None_)],
    [([KStr "c"], Leaf 5); ([KStr "b"], T [Leaf 2; Leaf 3]); ([KStr "p"], D [("y", Leaf 6); ("x", Leaf 7)]); ([KStr "a"], Leaf 1)]).
Proof. split; [exact small_wf|]. split; [exact large_wf|]. vm_compute. repeat split. Qed.

(** The result has the template's structure, and its leaf at a path is the counterpart of
    the template's leaf at that path. *)
Theorem C40_result : forall {U V : Type} chars allow (t : tree U) (s : tree V) r log, (forall v, chars v = None) -> wf t -> wf s -> tree_trim chars allow t s = Ok (r, log) ->
  structure r = structure t /\ forall p v, at_path r p (Leaf v) <-> exists q lp u, pairs t s p q lp (Leaf u) (Leaf v).
Proof. intros U V chars allow t s r log NC WT WS H. assert (C := strict_ok chars NC allow t s WT WS). rewrite H in C. tauto. Qed.
Print Assumptions C40_result.

Example C40_result_ex : pairs small large [DictKey (KStr "b"); SequenceKey 1] [DictKey (KStr "b"); SequenceKey 1] [KStr "b"; KInt 1] (Leaf 0) (Leaf 3) /\
  pairs small large [DictKey (KStr "p"); GetAttrKey "x"] [DictKey (KStr "p"); DictKey (KStr "x")] [KStr "p"; KStr "x"] (Leaf 0) (Leaf 7).
Proof.
  split.
  - unfold small, large, D. eapply pairs_name; [reflexivity|left; reflexivity|right; right; left; reflexivity|reflexivity|].
    apply (pairs_position _ _ _ _ 1 (SequenceKey 1) (Leaf 0) (SequenceKey 1) (Leaf 3)); try reflexivity. constructor.
  - unfold small, large, D. eapply pairs_name; [reflexivity|right; right; left; reflexivity|right; right; right; left; reflexivity|reflexivity|].
    eapply (pairs_name _ _ KDict); [reflexivity|left; reflexivity|right; left; reflexivity|reflexivity|]. constructor.
Qed.

(** A leaf of the template has at most one counterpart, and a node of the structure is
    the counterpart of at most one node. *)
Theorem C40_pairs : forall {U V : Type} (t : tree U) (s : tree V) p q lp t' s' p2 q2 lp2 t2 s2, wf t -> wf s ->
  pairs t s p q lp t' s' -> pairs t s p2 q2 lp2 t2 s2 ->
  at_path t p t' /\ at_path s q s' /\ (p = p2 <-> q = q2).
Proof.
  intros U V t s p q lp t' s' p2 q2 lp2 t2 s2 WT WS P P2. destruct (pairs_at _ _ _ _ _ _ _ P). split; auto. split; auto. split; intros <-.
  - destruct (pairs_det _ _ _ _ _ _ _ P WT WS _ _ _ _ P2) as (-> & _). auto.
  - destruct (pairs_det_r _ _ _ _ _ _ _ P WT WS _ _ _ _ P2) as (-> & _). auto.
Qed.
Print Assumptions C40_pairs.

Example C40_pairs_ex : pairs small large [DictKey (KStr "a")] [DictKey (KStr "a")] [KStr "a"] (Leaf 0) (Leaf 1) /\ pairs small large [] [] [] small large.
Proof.
  split; [|constructor]. unfold small, large, D. eapply pairs_name; [reflexivity|right; left; reflexivity|right; left; reflexivity|reflexivity|]. constructor.
Qed.

(** Without named tuples the counterpart has the same path of names. *)
Theorem C40_same_path : forall {U V : Type} chars allow (t : tree U) (s : tree V) r log, (forall v, chars v = None) -> wf t -> wf s -> plain t -> plain s ->
  tree_trim chars allow t s = Ok (r, log) -> forall p v, at_path r p (Leaf v) -> exists q, at_path s q (Leaf v) /\ tuple_path_from_keypath q = tuple_path_from_keypath p.
Proof.
  intros U V chars allow t s r log NC WT WS PT PS H p v A. assert (C := strict_ok chars NC allow t s WT WS). rewrite H in C. destruct C as (C1 & _ & _ & C2 & _). apply C2 in A as (q & lp & u & P).
  exists q. split; [apply (pairs_at _ _ _ _ _ _ _ P)|]. symmetry. eapply plain_names; eauto.
Qed.
Print Assumptions C40_same_path.

Fixpoint plainb {V : Type} (t : tree V) : bool :=
  match t with
  | Leaf _ => true
  | Node (KNamed _) _ => false
  | Node _ cs => forallb (fun x => plainb (snd x)) cs
  end.

Lemma plainb_ok : forall {V : Type} (t : tree V), plainb t = true -> plain t.
Proof.
  intros V t H p c cs A. revert H. remember (Node (KNamed c) cs) as n eqn:E. induction A as [t|k ds x d p n I A IH]; intros H; subst; [discriminate|]. apply IH; auto.
  destruct k; try discriminate; cbn [plainb] in H; rewrite forallb_forall in H; apply (H (x, d) I).
Qed.

Definition small2 : tree nat := D [("a", Leaf 0); ("b", L [Leaf 0; Leaf 0])].
Definition large2 : tree nat := D [("c", Leaf 5); ("a", Leaf 1); ("b", T [Leaf 2; Leaf 3])].
Example C40_same_path_ex : wf small2 /\ wf large2 /\ plain small2 /\ plain large2 /\
  tree_trim none_chars false small2 large2 = Ok (D [("a", Leaf 1); ("b", L [Leaf 2; Leaf 3])], [([KStr "c"], Leaf 5)]).
Proof.
  split; [unfold small2; wf_tac|]. split; [unfold large2; wf_tac|]. split; [apply plainb_ok; reflexivity|]. split; [apply plainb_ok; reflexivity|]. vm_compute. reflexivity.
Qed.

(** Named tuples are matched by position whatever their fields are called: the result's
    leaf ["x"] can be the structure's leaf ["y"]. *)
Theorem C40_same_path_refuted : exists (t s r : tree nat) log p v, wf t /\ wf s /\ tree_trim none_chars false t s = Ok (r, log) /\
  at_path r p (Leaf v) /\ forall q, at_path s q (Leaf v) -> tuple_path_from_keypath q <> tuple_path_from_keypath p.
Proof.
  exists (N "P" [("x", Leaf 0); ("y", Leaf 0)]), (N "Q" [("y", Leaf 1); ("x", Leaf 2)]), (N "P" [("x", Leaf 1); ("y", Leaf 2)]), [], [GetAttrKey "x"], 1.
  split; [named_tac|]. split; [named_tac|]. split; [vm_compute; reflexivity|]. split.
  - unfold N. cbn [map fst snd]. apply at_child with (c := Leaf 1); [left; reflexivity|constructor].
  - intros q A. unfold N in A. cbn [map fst snd] in A. inversion A as [|? ? x c q' ? I A']; subst. destruct I as [I|[I|[]]]; injection I as <- <-; inversion A'; subst. discriminate.
Qed.
Print Assumptions C40_same_path_refuted.

(** A string of the structure is taken apart where the template has a list of the same
    length: the result's leaves are not leaves of the structure. *)
Definition characters (s : string) : option (list string) := Some (map (fun c => String c "") (list_ascii_of_string s)).

Theorem C40_string_refuted : exists (t : tree nat) (s r : tree string) log p v, wf t /\ wf s /\ tree_trim characters false t s = Ok (r, log) /\
  at_path r p (Leaf v) /\ forall q, ~ at_path s q (Leaf v).
Proof.
  exists (D [("a", L [Leaf 0; Leaf 0])]), (D [("a", Leaf "xy")]), (D [("a", L [Leaf "x"; Leaf "y"])]), [], [DictKey (KStr "a"); SequenceKey 1], "y".
  split; [wf_tac|]. split; [wf_tac|]. split; [vm_compute; reflexivity|]. split.
  - unfold D. cbn [map fst snd]. apply at_child with (c := L [Leaf "x"; Leaf "y"]); [left; reflexivity|]. apply at_child with (c := Leaf "y"); [right; left; reflexivity|constructor].
  - intros q A. unfold D in A. cbn [map fst snd] in A. inversion A as [|? ? x c q' ? I A']; subst. destruct I as [I|[]]. injection I as <- <-. inversion A'.
Qed.
Print Assumptions C40_string_refuted.

(** The callback is called once for each node of the structure that has no place in the
    template, with the node and its path. *)
Theorem C40_callback : forall {U V : Type} chars allow (t : tree U) (s : tree V) r log, (forall v, chars v = None) -> wf t -> wf s -> tree_trim chars allow t s = Ok (r, log) ->
  (forall lp n, In (lp, n) log <-> exists q, dropped t s q lp n) /\ NoDup (map fst log).
Proof.
  intros U V chars allow t s r log NC WT WS H. assert (C := strict_ok chars NC allow t s WT WS). rewrite H in C. split; [tauto|].
  unfold tree_trim, tree_trim_impl in H. destruct (tree_trim_at chars true allow t [] s) as [[n l]|] eqn:E; [|discriminate]. cbn [rbind fst snd] in H. destruct (init t n) as [P|]; [|discriminate]. cbn [rbind rmap fst snd] in H.
  destruct (full_structure P); [|discriminate]. cbn [rmap] in H. injection H as <- <-. apply (trim_once chars NC true allow t WT [] s (n, l) WS E).
Qed.
Print Assumptions C40_callback.

Example C40_callback_ex : dropped small large [DictKey (KStr "c")] [KStr "c"] (Leaf 5).
Proof.
  exists [], [], [], small, large, [DictKey (KStr "c")], [KStr "c"]. split; [constructor|]. split; [|auto]. apply (dropped_child KDict _ KDict _ (DictKey (KStr "c")) (Leaf 5)); [reflexivity|left; reflexivity|].
  cbn. intuition discriminate.
Qed.

(** After a success, each leaf of the structure is either taken over or lies in something
    the callback was told of, and not both. *)
Theorem C40_coverage : forall {U V : Type} chars allow (t : tree U) (s : tree V) r log, (forall v, chars v = None) -> wf t -> wf s -> tree_trim chars allow t s = Ok (r, log) ->
  forall q v, at_path s q (Leaf v) ->
    let kept := exists p lp u, pairs t s p q lp (Leaf u) (Leaf v) in
    let lost := exists q1 q2 lp n, q = (q1 ++ q2)%list /\ dropped t s q1 lp n /\ at_path n q2 (Leaf v) in
    (kept \/ lost) /\ ~ (kept /\ lost).
Proof.
  intros U V chars allow t s r log NC WT WS H q v A. assert (C := strict_ok chars NC allow t s WT WS). rewrite H in C. destruct C as (C1 & _). cbn zeta. split.
  - eapply covered; eauto.
  - intros ((p & lp & u & P) & (q1 & q2 & lp1 & n & E & D & _)). eapply not_both; eauto.
Qed.
Print Assumptions C40_coverage.

Example C40_coverage_ex : at_path large [DictKey (KStr "p"); DictKey (KStr "y")] (Leaf 6).
Proof. unfold large, D. eapply at_child; [right; right; right; left; reflexivity|]. eapply at_child; [left; reflexivity|constructor]. Qed.

(** Without [strict] keys may be missing: the result is a partial tree of the template
    with the counterparts there are. *)
Theorem C40_lenient : forall {U V : Type} chars allow (t : tree U) (s : tree V), (forall v, chars v = None) -> wf t -> wf s ->
  match tree_trim_partial chars allow t s with
  | Ok (P, log) => trims false allow t s /\ template P = structure t /\
      (forall p u v, at_path t p (Leaf u) -> (val_at P (tuple_path_from_keypath p) = Some v <-> exists q lp, pairs t s p q lp (Leaf u) (Leaf v))) /\
      (forall k v, val_at P k = Some v -> leaf_name t k) /\
      forall lp n, In (lp, n) log <-> exists q, dropped t s q lp n
  | Err e => refused e /\ ~ trims false allow t s
  end.
Proof.
  intros U V chars allow t s NC WT WS. assert (C := impl_ok chars NC false allow t s WT WS). unfold tree_trim_partial. destruct (tree_trim_impl chars false allow t s) as [[P log]|e]; tauto.
Qed.
Print Assumptions C40_lenient.

Example C40_lenient_ex : tree_trim_partial none_chars false small (D [("c", Leaf 5); ("p", N "P" [("x", Leaf 7)])]) =
    Ok (mk_parts (structure small) [(["p"; "x"], 7)], [([KStr "c"], Leaf 5)]) /\
  tree_trim_partial none_chars false small (D [("a", None_); ("b", T [Leaf 2; None_])]) = Ok (mk_parts (structure small) [(["b"; "0"], 2)], []) /\
  tree_trim_partial none_chars false small (D [("b", Leaf 1)]) = Err TypeError.
Proof. vm_compute. repeat split. Qed.

(** What can be trimmed strictly can be trimmed leniently, with the same leaves and the
    same calls. *)
Theorem C40_modes : forall {U V : Type} chars allow (t : tree U) (s : tree V) r log, (forall v, chars v = None) -> wf t -> wf s -> tree_trim chars allow t s = Ok (r, log) ->
  exists P log', tree_trim_partial chars allow t s = Ok (P, log') /\ (forall p v, at_path r p (Leaf v) <-> (exists u, at_path t p (Leaf u)) /\ val_at P (tuple_path_from_keypath p) = Some v) /\
  forall x, In x log <-> In x log'.
Proof.
  intros U V chars allow t s r log NC WT WS H. assert (C := strict_ok chars NC allow t s WT WS). rewrite H in C. destruct C as (C1 & C2 & C3 & C4 & C5). assert (C := impl_ok chars NC false allow t s WT WS). unfold tree_trim_partial.
  destruct (tree_trim_impl chars false allow t s) as [[P log']|e].
  - destruct C as (D1 & D2 & D3 & D4 & D5 & D6). exists P, log'. split; auto. split.
    + intros p v. rewrite C4. split.
      * intros (q & lp & u & X). destruct (pairs_at _ _ _ _ _ _ _ X) as [A _]. split; [eauto|]. apply (D4 p u v A). eauto.
      * intros ((u & A) & E). destruct (proj1 (D4 p u v A) E) as (q & lp & X). eauto.
    + intros [lp n]. rewrite C5, D6. tauto.
  - destruct C as [_ C]. exfalso. apply C. clear - C1. induction C1 as [u v|u ds|cs v|k cs l ds B M S1 H IH|k cs l ds B NL LE H IH]; [apply trims_leaf|apply trims_leaf_none|apply trims_none|apply trims_name|apply trims_position]; auto; intros; discriminate.
Qed.
Print Assumptions C40_modes.

Example C40_modes_ex : tree_trim_partial none_chars false small large =
  Ok (mk_parts (structure small) [(["a"], 1); (["b"; "0"], 2); (["b"; "1"], 3); (["p"; "x"], 7)], [([KStr "c"], Leaf 5); ([KStr "p"; KStr "y"], Leaf 6)]).
Proof. vm_compute. reflexivity. Qed.

(** Trimming a tree to itself keeps every leaf and drops nothing. *)
Theorem C40_self : forall {V : Type} chars allow (s : tree V), (forall v, chars v = None) -> wf s ->
  exists r, tree_trim chars allow s s = Ok (r, []) /\ structure r = structure s /\ forall p v, at_path r p (Leaf v) <-> at_path s p (Leaf v).
Proof.
  intros V chars allow s NC W. assert (C := strict_ok chars NC allow s s W W). destruct (tree_trim chars allow s s) as [[r log]|e].
  - destruct C as (C1 & C2 & C3 & C4 & C5). exists r. assert (E : log = []). { destruct log as [|[lp n] log]; auto. exfalso. destruct (proj1 (C5 lp n) (or_introl eq_refl)) as (q & D). eapply self_dropped; eauto. }
    subst log. split; auto. split; auto. intros p v. rewrite C4. split.
    + intros (q & lp & u & P). destruct (pairs_at _ _ _ _ _ _ _ P) as [A1 A2]. destruct (self_pairs s p _ W A1) as (lp' & P'). destruct (pairs_det _ _ _ _ _ _ _ P' W W _ _ _ _ P) as (-> & _ & _ & ->). auto.
    + intros A. destruct (self_pairs s p _ W A) as (lp' & P'). eauto.
  - destruct C as [_ C]. exfalso. apply C. split; [apply self_trims; auto|]. intros p q lp u ds P. destruct (pairs_at _ _ _ _ _ _ _ P) as [A1 _]. destruct (self_pairs s p _ W A1) as (lp' & P').
    destruct (pairs_det _ _ _ _ _ _ _ P' W W _ _ _ _ P) as (_ & _ & _ & H). discriminate.
Qed.
Print Assumptions C40_self.

Example C40_self_ex : wf large /\ tree_trim none_chars false large large = Ok (D [("a", Leaf 1); ("b", T [Leaf 2; Leaf 3]); ("c", Leaf 5); ("p", D [("x", Leaf 7); ("y", Leaf 6)])], []).
Proof. split; [exact large_wf|]. vm_compute. reflexivity. Qed.
