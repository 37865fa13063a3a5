(** C41: transformations, merges and intersections of trees. *)
From Coq Require Import List Bool Arith NArith ZArith String Ascii Permutation Lia.
From Verif Require Import Base StepName_Model Tree_Model Tree_Spec Tree_Proofs Tree_Props Parts_Model Parts_Proofs Trim_Proofs Transform_Model Transform_Spec Transform_Proofs.
Import ListNotations.
Open Scope string_scope.

(** Notation for the examples: patterns are [.*] or literal. *)
Definition ex_match (pattern key : string) : result (option (string -> result string)) :=
  if String.eqb pattern ".*" || String.eqb pattern "(.*)" then Ok (Some (fun s => if String.eqb s "x" then Ok ("x" ++ key) else Ok s))
  else if String.eqb pattern "(" then Err OtherError
  else Ok (if String.eqb pattern key then Some (fun s => Ok s) else None).
Definition rename {V : Type} (k : string) : transform V := mk_transform (Some k) false None None.
Definition fallback {V : Type} : transform V := mk_transform None true None None.
Definition plus (n : nat) : transform nat := mk_transform None false (Some (fun t => match t with Leaf v => Ok (Leaf (v + n)) | _ => Err TypeError end)) None.
Definition constant (n : nat) : transform nat := mk_transform None false None (Some (fun _ _ => Ok (Leaf n))).
Definition ts (l : list (string * transform nat)) : tree (transform nat) := D (map (fun x => (fst x, Leaf (snd x))) l).

Ltac slash_tac := unfold slashless, D, L, T; cbn; repeat match goal with |- _ /\ _ => split | |- True => exact I | |- ~ _ => intuition discriminate end.

(** The result has the structure of the new tree; the value at each leaf is the chosen
    one.  It is an error exactly if some pattern cannot be tried for some leaf or some
    matching transform has no value. *)
Theorem C41_applied : forall {V : Type} fullmatch default (original : tree V) transformations new,
  wf original -> slashless original -> wf new -> slashless new -> (forall k, new <> Node k []) ->
  match apply_transformations fullmatch original transformations new default with
  | Ok t => (forall p v, at_path new p (Leaf v) -> applicable fullmatch default original (transforms_of transformations) (key_of p)) /\
            exists f t', peq new t' /\ t = with_leaves f t' /\
              forall p v, at_path new p (Leaf v) -> chosen fullmatch default original (transforms_of transformations) (key_of p) (Leaf v) (f p)
  | Err e => exists p v, at_path new p (Leaf v) /\ ~ applicable fullmatch default original (transforms_of transformations) (key_of p)
  end.
Proof.
  intros V fullmatch default original transformations new W X W2 X2 N. assert (H := apply_ok fullmatch default original transformations new W X W2 X2 N).
  destruct (apply_transformations fullmatch original transformations new default) as [t|e].
  - destruct H as (A & f & E & C). split; auto. exists f, (norm new). spl; auto. apply peq_norm.
  - destruct H as (p & v & A & NA & _). eauto.
Qed.
Print Assumptions C41_applied.

Example C41_applied_ex :
  let original := D [("a", Leaf 1); ("b", D [("c", Leaf 5); ("d", L [Leaf 0; Leaf 7])]); ("f", Leaf 2)] in
  let new := D [("a1", Leaf 90); ("b", D [("c", Leaf 91)]); ("f", Leaf 92); ("g", Leaf 93); ("y", Leaf 94); ("z", L [Leaf 95])] in
  let t := ts [("a1", rename "a"); ("b/c", plus 10); ("y", rename "b/d/1"); ("z/0", constant 3)] in
  (wf original /\ slashless original /\ wf new /\ slashless new) /\
  apply_transformations ex_match original t new true = Ok (D [("a1", Leaf 1); ("b", D [("c", Leaf 15)]); ("f", Leaf 2); ("g", Leaf 93); ("y", Leaf 7); ("z", L [Leaf 3])]) /\
  apply_transformations ex_match original t new false = Ok (D [("a1", Leaf 1); ("b", D [("c", Leaf 15)]); ("f", Leaf 92); ("g", Leaf 93); ("y", Leaf 7); ("z", L [Leaf 3])]) /\
  apply_transformations ex_match original (ts [("g", rename "h")]) new true = Err ValueError /\
  apply_transformations ex_match original (ts [("g", fallback); ("f", fallback)]) new true = Ok (D [("a1", Leaf 90); ("b", D [("c", Leaf 5)]); ("f", Leaf 92); ("g", Leaf 93); ("y", Leaf 94); ("z", L [Leaf 95])]) /\
  apply_transformations ex_match original (ts [("f", fallback)]) new false = Ok (D [("a1", Leaf 90); ("b", D [("c", Leaf 91)]); ("f", Leaf 2); ("g", Leaf 93); ("y", Leaf 94); ("z", L [Leaf 95])]) /\
  apply_transformations ex_match original (ts [("g", fallback)]) new false = Err ValueError.
Proof. cbv zeta. split; [split; [wf_tac|split; [slash_tac|split; [wf_tac|slash_tac]]]|]. vm_compute. repeat split; reflexivity. Qed.

(** The chosen value is unique. *)
Theorem C41_unique : forall {V : Type} fullmatch default (original : tree V) ts key v w w', wf original -> slashless original ->
  chosen fullmatch default original ts key v w -> chosen fullmatch default original ts key v w' -> w = w'.
Proof. intros V fullmatch default original ts0 key v w w' W X. exact (chosen_det fullmatch default original W X ts0 key v w w'). Qed.
Print Assumptions C41_unique.

Example C41_unique_ex : chosen ex_match true (D [("a", Leaf 1)]) [(".*", rename "a"); ("b", constant 4)] "b" (Leaf 9) (Leaf 4).
Proof.
  apply (chosen_last ex_match true (D [("a", Leaf 1)]) _ "b" (Leaf 9) [(".*", rename "a")] "b" (constant 4) []); auto.
  - eexists. vm_compute. reflexivity.
  - eapply yields_multi; vm_compute; reflexivity.
  - intros ? ? [].
Qed.

(** If no function raises and every pattern is a regular expression, the only error is a
    ValueError. *)
Theorem C41_error : forall {V : Type} fullmatch default (original : tree V) transformations new e,
  wf original -> slashless original -> wf new -> slashless new ->
  (forall p v, at_path new p (Leaf v) -> tame fullmatch original (transforms_of transformations) (key_of p)) ->
  apply_transformations fullmatch original transformations new default = Err e -> e = ValueError.
Proof.
  intros V fullmatch default original transformations new e W X W2 X2 T E.
  destruct (empty_tree new) eqn:EM; [unfold apply_transformations in E; rewrite EM in E; discriminate|].
  assert (N : forall k, new <> Node k []) by (intros k ->; discriminate).
  assert (H := apply_ok fullmatch default original transformations new W X W2 X2 N). rewrite E in H. destruct H as (p & v & A & _ & H). eauto.
Qed.
Print Assumptions C41_error.

Example C41_error_ex : tame ex_match (D [("a", Leaf 1)]) (transforms_of (ts [("b", rename "c")])) "b" /\
  apply_transformations ex_match (D [("a", Leaf 1)]) (ts [("b", rename "c")]) (D [("b", Leaf 2)]) true = Err ValueError /\
  apply_transformations ex_match (D [("a", Leaf 1)]) (ts [("(", rename "c")]) (D [("b", Leaf 2)]) true = Err OtherError.
Proof.
  split; [|split; reflexivity]. intros pattern t [H|[]]. injection H as <- <-. split; [|split; discriminate]. eexists. split; [reflexivity|]. intros expand k E. injection E as <-. eauto.
Qed.

(** Without transformations the value is the original one if asked for and present, and
    else the new one. *)
Theorem C41_plain : forall {V : Type} fullmatch default (original new : tree V), wf original -> slashless original -> wf new -> slashless new -> (forall k, new <> Node k []) ->
  exists f t', peq new t' /\ apply_transformations fullmatch original (Node KDict []) new default = Ok (with_leaves f t') /\
    forall p v, at_path new p (Leaf v) ->
      (default = true -> forall u, leaf_under original (key_of p) u -> f p = Leaf u) /\
      (default = false \/ (forall u, ~ leaf_under original (key_of p) u) -> f p = Leaf v).
Proof.
  intros V fullmatch default original new W X W2 X2 N. assert (H := apply_ok fullmatch default original (Node KDict []) new W X W2 X2 N).
  destruct (apply_transformations fullmatch original (Node KDict []) new default) as [t|e].
  - destruct H as (A & f & E & C). exists f, (norm new). spl; [apply peq_norm|rewrite E; auto|].
    intros p v AP. specialize (C p v AP). change (transforms_of (Node KDict [])) with (@nil (string * transform V)) in C. split.
    + intros DF u U. inversion C as [pre pattern t0 post w E2|pattern t0 I|u' N' D' LU|N' [D'|D']]; subst; try (destruct pre; discriminate); try contradiction; try discriminate.
      * f_equal. exact (leaf_under_det original _ _ _ W X LU U).
      * exfalso. eapply D'; eauto.
    + intros DF. inversion C as [pre pattern t0 post w E2|pattern t0 I|u' N' D' LU|N' D']; subst; auto; try (destruct pre; discriminate); try contradiction. destruct DF as [DF|DF]; [congruence|]. exfalso. eapply DF; eauto.
  - destruct H as (p & v & A & NA & _). exfalso. apply NA. intros pattern t [].
Qed.
Print Assumptions C41_plain.

Example C41_plain_ex : apply_transformations ex_match (L [Leaf 1; Leaf 2]) (Node KDict []) (D [("0", Leaf 7); ("2", Leaf 8)]) true = Ok (D [("0", Leaf 1); ("2", Leaf 8)]).
Proof. vm_compute. reflexivity. Qed.

(** Which transforms can be made. *)
Theorem C41_transform : forall {V : Type} (t : transform V),
  new_transform t =
  if (if use_fallback t then is_none (original_key t) && is_none (value_fn t) && is_none (multi_value_fn t)
      else is_none (multi_value_fn t) || (is_none (original_key t) && is_none (value_fn t)))
  then Ok t else Err AssertionError.
Proof. intros V [[k|] [|] [f|] [m|]]; reflexivity. Qed.
Print Assumptions C41_transform.

Example C41_transform_ex : new_transform (rename "a" : transform nat) = Ok (rename "a") /\ new_transform (mk_transform (Some "a") true None None : transform nat) = Err AssertionError.
Proof. split; reflexivity. Qed.

(** A transform that can be made and matches lacks a value only if it refers to an
    absent key or one of its functions raises. *)
Theorem C41_absent : forall {V : Type} fullmatch default (original : tree V) key pattern expand t, wf original -> slashless original -> new_transform t = Ok t ->
  fullmatch pattern key = Ok (Some expand) -> (forall f v, value_fn t = Some f -> exists w, f v = Ok w) -> (forall f, multi_value_fn t = Some f -> exists w, f key original = Ok w) ->
  (forall k, original_key t = Some k -> exists k', expand k = Ok k') ->
  ((keeps default t \/ exists w, yields fullmatch default original key pattern t w) <->
   (multi_value_fn t = None -> (use_fallback t = false \/ default = false) ->
    exists k v, leaf_under original k v /\ match original_key t with None => k = key | Some k0 => expand k0 = Ok k end)).
Proof.
  intros V fullmatch default original key pattern expand t W X NT M VF MF EX. rewrite C41_transform in NT. unfold keeps. split.
  - intros [[U D0]|(w & Y)] MN C; [destruct C; congruence|]. inversion Y; subst; try congruence.
    + exists key, v. split; auto. rewrite H in NT. destruct (original_key t); [discriminate|auto].
    + exists key, v. split; auto. rewrite H1. auto.
    + exists k', v. split; auto. rewrite H1. congruence.
  - intros H. destruct (use_fallback t) eqn:U.
    + destruct default eqn:DF; [auto|]. destruct (original_key t) eqn:OK; [discriminate|]. destruct (value_fn t) eqn:VE; [discriminate|]. destruct (multi_value_fn t) eqn:ME; [discriminate|].
      destruct (H eq_refl (or_intror eq_refl)) as (k & v & LU & ->). right. exists (Leaf v). apply yields_fallback; auto.
    + right. destruct (multi_value_fn t) as [f|] eqn:ME.
      * destruct (MF f eq_refl) as (w & E). exists w. cbn in NT. destruct (original_key t); [discriminate|]. destruct (value_fn t) eqn:VE; [discriminate|]. eapply yields_multi; eauto.
      * destruct (H eq_refl (or_introl eq_refl)) as (k & v & LU & E).
        assert (Q : exists w, match value_fn t with None => w = Leaf v | Some f => f (Leaf v) = Ok w end) by (destruct (value_fn t) as [f|]; [exact (VF f (Leaf v) eq_refl)|eauto]).
        destruct Q as (w & Q). exists w. destruct (original_key t) as [k0|] eqn:OK; [eapply yields_renamed; eauto|subst k; eapply yields_same; eauto].
Qed.
Print Assumptions C41_absent.

Example C41_absent_ex : new_transform (rename "a" : transform nat) = Ok (rename "a") /\ leaf_under (D [("a", Leaf 1)]) "a" 1.
Proof. split; [reflexivity|]. exists [DictKey (KStr "a")]. split; [|reflexivity]. eapply at_child; [left; reflexivity|constructor]. Qed.

(** ** What does not hold *)

(** The last matching transform does not decide: if it is [use_fallback] and
    [default_to_original] is set, it leaves the value that an earlier transform put
    there instead of the value of [new_tree]. *)
Theorem C41_fallback_refuted : exists (original new : tree nat) transformations,
  wf original /\ slashless original /\ wf new /\ slashless new /\
  transforms_of transformations = [("(.*)", rename "a"); ("b", fallback)] /\
  new = D [("b", Leaf 2)] /\ apply_transformations ex_match original transformations new true = Ok (D [("b", Leaf 1)]).
Proof.
  exists (D [("a", Leaf 1)]), (D [("b", Leaf 2)]), (ts [("(.*)", rename "a"); ("b", fallback)]). spl; try (vm_compute; reflexivity); try wf_tac; slash_tac.
Qed.
Print Assumptions C41_fallback_refuted.

(** A transform whose original key is absent is an error even if a later one matches
    too and has a value. *)
Theorem C41_overridden_refuted : exists (original new : tree nat) transformations,
  wf original /\ slashless original /\ wf new /\ slashless new /\
  transforms_of transformations = [("(.*)", rename "absent"); ("b", rename "a")] /\
  apply_transformations ex_match original (ts [("b", rename "a")]) new true = Ok (D [("b", Leaf 1)]) /\
  apply_transformations ex_match original transformations new true = Err ValueError.
Proof.
  exists (D [("a", Leaf 1)]), (D [("b", Leaf 2)]), (ts [("(.*)", rename "absent"); ("b", rename "a")]). spl; try (vm_compute; reflexivity); try wf_tac; slash_tac.
Qed.
Print Assumptions C41_overridden_refuted.

(** The order of the transforms is that of the sorted patterns, not the one in which the
    user wrote them: here the pattern written last does not win. *)
Theorem C41_order_refuted : exists (original new : tree nat) transformations,
  wf original /\ slashless original /\ wf new /\ slashless new /\
  transformations = D [("b", Leaf (constant 5)); (".*", Leaf (constant 6))] /\
  apply_transformations ex_match original transformations new true = Ok (D [("b", Leaf 5)]).
Proof.
  exists (D [("a", Leaf 1)]), (D [("b", Leaf 2)]), (D [("b", Leaf (constant 5)); (".*", Leaf (constant 6))]). spl; try (vm_compute; reflexivity); try wf_tac; slash_tac.
Qed.
Print Assumptions C41_order_refuted.

(** An empty new tree gives an empty dictionary, whatever its structure was. *)
Theorem C41_empty_refuted : exists (original new : tree nat) t, wf new /\ apply_transformations ex_match original (Node KDict []) new true = Ok t /\ ~ peq new t.
Proof. exists (D [("a", Leaf 1)]), (L []), (Node KDict []). spl; [wf_tac|reflexivity|]. intros H. inversion H. Qed.
Print Assumptions C41_empty_refuted.

(** A slash in a key: two leaves of the new tree share a key and the tree cannot be built
    again; a leaf of the original tree under the same key is hidden. *)
Theorem C41_slash_refuted : exists (original new new2 : tree nat), wf original /\ wf new /\ wf new2 /\
  apply_transformations ex_match original (Node KDict []) new true = Err ValueError /\
  at_path original [DictKey (KStr "a"); DictKey (KStr "b")] (Leaf 1) /\ at_path new2 [DictKey (KStr "a"); DictKey (KStr "b")] (Leaf 3) /\
  apply_transformations ex_match original (Node KDict []) new2 true = Ok (D [("a", D [("b", Leaf 2)])]).
Proof.
  exists (D [("a/b", Leaf 2); ("a", D [("b", Leaf 1)])]), (D [("a/b", Leaf 8); ("a", D [("b", Leaf 9)])]), (D [("a", D [("b", Leaf 3)])]).
  spl; try (vm_compute; reflexivity); try wf_tac.
  - eapply at_child; [right; left; reflexivity|]. eapply at_child; [left; reflexivity|constructor].
  - eapply at_child; [left; reflexivity|]. eapply at_child; [left; reflexivity|constructor].
Qed.
Print Assumptions C41_slash_refuted.

(** ** Merging *)

(** The merged tree is a nested dictionary whose leaves are those of the last tree that
    has one there; it exists exactly if no leaf would be inside another. *)
Theorem C41_merge : forall {V : Type} (trees : list (tree V)), Forall wf trees ->
  match merge_trees trees None with
  | Ok t => string_dicts t /\ (forall k v, under t k v <-> last_under trees k v) /\
            (forall k v k' v', last_under trees k v -> last_under trees k' v' -> k <> k' -> ~ extends k k')
  | Err e => exists k v k' v', last_under trees k v /\ last_under trees k' v' /\ k <> k' /\ extends k k'
  end.
Proof.
  intros V trees F. unfold merge_trees, rebuild. assert (N := merged_nodup trees). assert (G := fun k w => merged_get trees k w F).
  set (d := fold_left (ior names_eqb) (map (to_flat_dict false) trees) []) in *. clearbody d.
  assert (IN : forall k w, In (k, w) d <-> exists v, w = Leaf v /\ last_under trees k v) by (intros k w; rewrite <- G; symmetry; apply (dget_in names_eqb names_eqb_spec); auto).
  assert (IL : forall k v, In (k, Leaf v) d <-> last_under trees k v) by (intros k v; rewrite IN; split; [intros (v' & E & H); injection E as <-; auto|eauto]).
  assert (H := from_flat_ok d N ltac:(intros k w I; apply IN in I as (v & -> & _); eauto)). destruct (from_flat_dict d) as [t|e].
  - destruct H as (S & U & C). split; auto. split; [intros k v; rewrite U; apply IL|]. intros k v k' v' A B. apply (C k v k' v'); apply IL; auto.
  - destruct H as (k & v & k' & v' & A & B & NE & EX). exists k, v, k', v'. spl; auto; apply IL; auto.
Qed.
Print Assumptions C41_merge.

Example C41_merge_ex :
  merge_trees [D [("a", Leaf 1); ("b", D [("c", Leaf 2)])]; D [("b", D [("d", Leaf 3)]); ("a", Leaf 4)]; L [Leaf 5]] None =
    Ok (D [("a", Leaf 4); ("b", D [("c", Leaf 2); ("d", Leaf 3)]); ("0", Leaf 5)]) /\
  merge_trees [D [("a", Leaf 1)]; D [("a", D [("b", Leaf 2)])]] None = Err TypeError /\
  merge_trees [D [("a", D [("b", Leaf 2)])]; D [("a", Leaf 1)]] None = Err AssertionError /\
  merge_trees [D [("a", Leaf 1)]; Leaf 2] None = Err ValueError /\
  last_under [D [("a", Leaf 1)]; D [("a", Leaf 2)]] ["a"] 2.
Proof.
  split; [reflexivity|]. split; [reflexivity|]. split; [reflexivity|]. split; [reflexivity|]. apply (last_here [D [("a", Leaf 1)]] (D [("a", Leaf 2)]) []); [|intros ? ? []].
  exists [DictKey (KStr "a")]. split; [|reflexivity]. eapply at_child; [left; reflexivity|constructor].
Qed.

(** With a target the result has its structure and the merged values; a value the trees
    do not have is an error. *)
Theorem C41_merge_target : forall {V : Type} (trees : list (tree V)) target, Forall wf trees -> wf target ->
  match merge_trees trees (Some target) with
  | Ok t => exists f t', peq target t' /\ t = with_leaves f t' /\ forall p v, at_path target p (Leaf v) -> exists u, f p = Leaf u /\ last_under trees (tuple_path_from_keypath p) u
  | Err e => e = KeyError /\ exists p v, at_path target p (Leaf v) /\ forall u, ~ last_under trees (tuple_path_from_keypath p) u
  end.
Proof.
  intros V trees target F W. unfold merge_trees, rebuild. assert (G := fun k w => merged_get trees k w F).
  set (d := fold_left (ior names_eqb) (map (to_flat_dict false) trees) []) in *. clearbody d.
  set (f := fun p => match dget names_eqb (tuple_path_from_keypath p) d with Some w => w | None => Node KNone [] end).
  assert (DEC : (exists p v, at_path target p (Leaf v) /\ dget names_eqb (tuple_path_from_keypath p) d = None) \/ (forall p v, at_path target p (Leaf v) -> dget names_eqb (tuple_path_from_keypath p) d = Some (f p))).
  { destruct (existsb (fun p => is_none (dget names_eqb (tuple_path_from_keypath p) d)) (map fst (flatten false target))) eqn:E.
    - apply existsb_exists in E as (p & I & E). apply leaf_in in I as (v & A). left. exists p, v. split; auto. destruct (dget names_eqb (tuple_path_from_keypath p) d); [discriminate|auto].
    - right. intros p v A. unfold f. destruct (dget names_eqb (tuple_path_from_keypath p) d) eqn:E2; auto. exfalso. assert (X : existsb (fun p => is_none (dget names_eqb (tuple_path_from_keypath p) d)) (map fst (flatten false target)) = true); [|congruence].
      apply existsb_exists. exists p. rewrite E2. split; auto. apply leaf_in. eauto. }
  destruct DEC as [(p & v & A & E)|H].
  - rewrite (target_missing d target p v W A E). split; auto. exists p, v. split; auto. intros u U. assert (E2 : dget names_eqb (tuple_path_from_keypath p) d = Some (Leaf u)) by (apply G; eauto). congruence.
  - rewrite (target_ok d target f W H). exists f, (norm target). spl; auto; [apply peq_norm|]. intros p v A. specialize (H p v A). apply G in H as (u & E & U). eauto.
Qed.
Print Assumptions C41_merge_target.

Example C41_merge_target_ex :
  merge_trees [D [("0", Leaf 1)]; D [("1", Leaf 2)]] (Some (L [Leaf 0; Leaf 0])) = Ok (L [Leaf 1; Leaf 2]) /\
  merge_trees [D [("0", Leaf 1)]] (Some (L [Leaf 0; Leaf 0])) = Err KeyError.
Proof. vm_compute. split; reflexivity. Qed.

(** ** Intersecting *)

(** The intersection has the leaves that all trees have, with the values of the last
    one. *)
Theorem C41_intersect : forall {V : Type} (trees : list (tree V)) last, Forall wf (trees ++ [last]) ->
  exists t, intersect_trees (trees ++ [last]) None = Ok t /\ string_dicts t /\ forall k v, under t k v <-> under last k v /\ common (trees ++ [last]) k.
Proof.
  intros V trees last F. assert (W : wf last) by (apply Forall_app in F as [_ F]; inversion F; auto).
  assert (EQ : intersect_trees (trees ++ [last]) None = from_flat_dict (filter (fun x => forallb (has_key (fst x)) (map (to_flat_dict false) (trees ++ [last]))) (to_flat_dict false last))).
  { unfold intersect_trees, rebuild. destruct (trees ++ [last])%list as [|t0 l] eqn:E; [destruct trees; discriminate|]. rewrite <- E. rewrite last_last. auto. }
  rewrite EQ. assert (G := fun k w => common_get (trees ++ [last]) last k w F W).
  set (d := filter (fun x => forallb (has_key (fst x)) (map (to_flat_dict false) (trees ++ [last]))) (to_flat_dict false last)) in *.
  assert (N : NoDup (map fst d)) by (unfold d; apply NoDup_map_filter; apply flat_nodup; auto). clearbody d.
  assert (IN : forall k w, In (k, w) d <-> exists v, w = Leaf v /\ under last k v /\ common (trees ++ [last]) k) by (intros k w; rewrite <- G; symmetry; apply (dget_in names_eqb names_eqb_spec); auto).
  assert (IL : forall k v, In (k, Leaf v) d <-> under last k v /\ common (trees ++ [last]) k) by (intros k v; rewrite IN; split; [intros (v' & E & H); injection E as <-; auto|eauto]).
  assert (H := from_flat_ok d N ltac:(intros k w I; apply IN in I as (v & -> & _); eauto)). destruct (from_flat_dict d) as [t|e].
  - destruct H as (S & U & C). exists t. spl; auto. intros k v. rewrite U. apply IL.
  - destruct H as (k & v & k' & v' & A & B & NE & EX). exfalso. apply NE. apply IL in A as [A _]. apply IL in B as [B _]. eapply under_prefix; eauto.
Qed.
Print Assumptions C41_intersect.

Example C41_intersect_ex :
  intersect_trees [D [("a", Leaf 1); ("b", D [("c", Leaf 2)])]; D [("b", D [("c", Leaf 5); ("d", Leaf 3)]); ("e", Leaf 4)]] None = Ok (D [("b", D [("c", Leaf 5)])]) /\
  intersect_trees [D [("a", Leaf 1)]; L [Leaf 1]] None = Ok (D []) /\ intersect_trees (@nil (tree nat)) None = Err TypeError.
Proof. vm_compute. repeat split; reflexivity. Qed.

(** Intersecting fails exactly if there are no trees (without a target). *)
Theorem C41_intersect_none : forall {V : Type} (trees : list (tree V)), Forall wf trees ->
  (intersect_trees trees None = Err TypeError <-> trees = []) /\ (trees <> [] -> exists t, intersect_trees trees None = Ok t).
Proof.
  intros V trees F. assert (C : trees = [] \/ exists l x, trees = (l ++ [x])%list) by (destruct trees as [|a r]; [auto|right; destruct (@exists_last _ (a :: r)) as (l & x & E); [discriminate|exists l, x; auto]]). destruct C as [->|(l & x & ->)].
  - split; [split; reflexivity|congruence].
  - destruct (C41_intersect l x F) as (t & E & _). rewrite E. split; [split; [discriminate|intros N; apply app_eq_nil in N as (_ & N); discriminate]|eauto].
Qed.
Print Assumptions C41_intersect_none.

Example C41_intersect_none_ex : intersect_trees (@nil (tree nat)) None = Err TypeError.
Proof. reflexivity. Qed.

(** With a target the result has its structure; a leaf that is not in all trees is an
    error. *)
Theorem C41_intersect_target : forall {V : Type} (trees : list (tree V)) last target, Forall wf (trees ++ [last]) -> wf target ->
  match intersect_trees (trees ++ [last]) (Some target) with
  | Ok t => exists f t', peq target t' /\ t = with_leaves f t' /\
      forall p v, at_path target p (Leaf v) -> common (trees ++ [last]) (tuple_path_from_keypath p) /\ exists u, f p = Leaf u /\ under last (tuple_path_from_keypath p) u
  | Err e => e = KeyError /\ exists p v, at_path target p (Leaf v) /\ ~ common (trees ++ [last]) (tuple_path_from_keypath p)
  end.
Proof.
  intros V trees last target F WT. assert (W : wf last) by (apply Forall_app in F as [_ F]; inversion F; auto).
  assert (EQ : intersect_trees (trees ++ [last]) (Some target) = from_flat_dict_target (filter (fun x => forallb (has_key (fst x)) (map (to_flat_dict false) (trees ++ [last]))) (to_flat_dict false last)) target).
  { unfold intersect_trees, rebuild. destruct (trees ++ [last])%list as [|t0 l] eqn:E; [destruct trees; discriminate|]. rewrite <- E. rewrite last_last. auto. }
  rewrite EQ. assert (G := fun k w => common_get (trees ++ [last]) last k w F W).
  set (d := filter (fun x => forallb (has_key (fst x)) (map (to_flat_dict false) (trees ++ [last]))) (to_flat_dict false last)) in *. clearbody d.
  set (f := fun p => match dget names_eqb (tuple_path_from_keypath p) d with Some w => w | None => Node KNone [] end).
  assert (DEC : (exists p v, at_path target p (Leaf v) /\ dget names_eqb (tuple_path_from_keypath p) d = None) \/ (forall p v, at_path target p (Leaf v) -> dget names_eqb (tuple_path_from_keypath p) d = Some (f p))).
  { destruct (existsb (fun p => is_none (dget names_eqb (tuple_path_from_keypath p) d)) (map fst (flatten false target))) eqn:E.
    - apply existsb_exists in E as (p & I & E). apply leaf_in in I as (v & A). left. exists p, v. split; auto. destruct (dget names_eqb (tuple_path_from_keypath p) d); [discriminate|auto].
    - right. intros p v A. unfold f. destruct (dget names_eqb (tuple_path_from_keypath p) d) eqn:E2; auto. exfalso. assert (X : existsb (fun p => is_none (dget names_eqb (tuple_path_from_keypath p) d)) (map fst (flatten false target)) = true); [|congruence].
      apply existsb_exists. exists p. rewrite E2. split; auto. apply leaf_in. eauto. }
  destruct DEC as [(p & v & A & E)|H].
  - rewrite (target_missing d target p v WT A E). split; auto. exists p, v. split; auto. intros C. destruct (C last) as (u & U); [apply in_or_app; right; left; auto|]. assert (E2 : dget names_eqb (tuple_path_from_keypath p) d = Some (Leaf u)) by (apply G; eauto). congruence.
  - rewrite (target_ok d target f WT H). exists f, (norm target). spl; auto; [apply peq_norm|]. intros p v A. specialize (H p v A). apply G in H as (u & E & U & C). eauto.
Qed.
Print Assumptions C41_intersect_target.

Example C41_intersect_target_ex :
  intersect_trees [L [Leaf 1; Leaf 2]; D [("1", Leaf 4); ("0", Leaf 3)]] (Some (T [Leaf 0])) = Ok (T [Leaf 3]) /\
  intersect_trees [L [Leaf 1]; D [("1", Leaf 4); ("0", Leaf 3)]] (Some (T [Leaf 0; Leaf 0])) = Err KeyError.
Proof. vm_compute. split; reflexivity. Qed.
