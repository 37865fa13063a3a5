(** C38: partial trees as partial maps. *)
From Coq Require Import List Bool Arith NArith ZArith String Ascii Permutation Lia.
From Verif Require Import Base StepName_Model Tree_Model Tree_Spec Tree_Proofs Tree_Props Parts_Model Parts_Spec Parts_Proofs.
Import ListNotations.
Open Scope string_scope.

(** A partial tree can be made exactly when each supplied leaf has the name of a leaf of
    the template, and then has just the supplied values. *)
Theorem C38_init : forall {U V : Type} (tmpl : tree U) (value : partial_tree V), wf tmpl -> wf value ->
  ((exists P, init tmpl value = Ok P) <-> (forall p v, at_path value p (Leaf (Some v)) -> leaf_name tmpl (tuple_path_from_keypath p))) /\
  ((forall P, init tmpl value <> Ok P) -> init tmpl value = Err ValueError) /\
  forall P, init tmpl value = Ok P -> template P = structure tmpl /\
    forall k v, val_at P k = Some v <-> exists p, at_path value p (Leaf (Some v)) /\ tuple_path_from_keypath p = k.
Proof.
  intros U V tmpl value W1 W2. destruct (init_spec tmpl value W1 W2) as (A & B & C). spl; auto. intros P H. destruct (C P H) as (? & ? & ?). auto.
Qed.
Print Assumptions C38_init.

(** The template of the examples: [{'x': 0, 'y': [0, 0]}]. *)
Definition tmpl : tree nat := D [("y", L [Leaf 0; Leaf 0]); ("x", Leaf 0)].
Definition part (ls : list (list string * nat)) : parts nat := mk_parts (structure tmpl) ls.
Definition value_a : partial_tree nat := D [("x", Leaf (Some 1)); ("y", L [Leaf None; Leaf (Some 2)])].
Definition value_b : partial_tree nat := D [("y", D [("0", Leaf (Some 3)); ("1", Leaf (Some 4))])].

Lemma tmpl_wf : wf tmpl. Proof. unfold tmpl. wf_tac. Qed.
Lemma value_a_wf : wf value_a. Proof. unfold value_a. wf_tac. Qed.
Lemma value_b_wf : wf value_b. Proof. unfold value_b. wf_tac. Qed.

Definition part_a : parts nat := part [(["x"], 1); (["y"; "1"], 2)].
Definition part_b : parts nat := part [(["y"; "0"], 3); (["y"; "1"], 4)].

Example C38_init_ex : init tmpl value_a = Ok part_a /\ init tmpl value_b = Ok part_b /\ init tmpl (D [("y", Leaf (Some 3))]) = Err ValueError.
Proof. vm_compute. auto. Qed.

Lemma part_a_made : made part_a.
Proof. exact (made_init _ tmpl value_a part_a tmpl_wf value_a_wf (proj1 C38_init_ex)). Qed.
Lemma part_b_made : made part_b.
Proof. exact (made_init _ tmpl value_b part_b tmpl_wf value_b_wf (proj1 (proj2 C38_init_ex))). Qed.

(** Only leaves of the template have values. *)
Theorem C38_domain : forall {V : Type} (P : parts V) k v, made P -> val_at P k = Some v -> leaf_name (template P) k.
Proof.
  intros V P k v M H. apply made_valid in M. unfold val_at in H. apply (dget_some_in names_eqb names_eqb_spec) in H. apply (in_map fst) in H. apply (v_keys _ M). auto.
Qed.
Print Assumptions C38_domain.

Example C38_domain_ex : made part_a /\ val_at part_a ["y"; "1"] = Some 2 /\ leaf_name (template part_a) ["y"; "1"].
Proof. split; [exact part_a_made|]. split; [vm_compute; auto|]. exact (C38_domain part_a ["y"; "1"] 2 part_a_made eq_refl). Qed.

(** Overlaying prefers the right operand. *)
Theorem C38_overlay : forall {V : Type} strict (a b P : parts V), made a -> made b -> overlay strict a b = Ok P ->
  template P = template a /\ forall k, val_at P k = match val_at b k with Some v => Some v | None => val_at a k end.
Proof. intros V strict a b P MA MB E. apply (overlay_valid strict a b P (made_valid _ MA) (made_valid _ MB) E). Qed.
Print Assumptions C38_overlay.

Example C38_overlay_ex : overlay false part_a part_b = Ok (part [(["x"], 1); (["y"; "1"], 4); (["y"; "0"], 3)]).
Proof. vm_compute. auto. Qed.

(** Overlaying succeeds exactly when the templates agree and, if strict, no leaf is on
    both sides. *)
Theorem C38_overlay_ok : forall {V : Type} strict (a b : parts V),
  ((exists P, overlay strict a b = Ok P) <-> template a = template b /\ (strict = true -> forall k, val_at a k = None \/ val_at b k = None)) /\
  ((forall P, overlay strict a b <> Ok P) -> overlay strict a b = Err ValueError).
Proof.
  intros V strict a b. split; [apply overlay_ok|]. unfold overlay. destruct (treedef_eqb _ _); auto. destruct (strict && _); auto. intros H. exfalso. eapply H; reflexivity.
Qed.
Print Assumptions C38_overlay_ok.

Example C38_overlay_ok_ex : overlay true part_a part_b = Err ValueError /\
  overlay true part_a (part [(["y"; "0"], 3)]) = Ok (part [(["x"], 1); (["y"; "1"], 2); (["y"; "0"], 3)]) /\
  overlay false part_a (mk_parts (structure (L [Leaf 0])) []) = Err ValueError.
Proof. vm_compute. auto. Qed.

(** Intersection and difference keep the left values that the right operand has or has
    not; they succeed exactly when the templates agree. *)
Theorem C38_intersect : forall {V : Type} (a b : parts V), made a ->
  ((exists P, intersect a b = Ok P) <-> template a = template b) /\
  ((forall P, intersect a b <> Ok P) -> intersect a b = Err ValueError) /\
  forall P, intersect a b = Ok P -> template P = template a /\ forall k, val_at P k = match val_at b k with Some _ => val_at a k | None => None end.
Proof.
  intros V a b MA. spl.
  - unfold intersect. destruct (treedef_eqb_spec (template a) (template b)); split; eauto; [intros (P & H); discriminate|contradiction].
  - unfold intersect. destruct (treedef_eqb _ _); auto. intros H. exfalso. eapply H; reflexivity.
  - intros P H. apply (intersect_valid a b P (made_valid _ MA) H).
Qed.
Print Assumptions C38_intersect.

Example C38_intersect_ex : intersect part_a part_b = Ok (part [(["y"; "1"], 2)]) /\ intersect part_a (mk_parts (structure (L [Leaf 0])) []) = Err ValueError.
Proof. vm_compute. auto. Qed.

Theorem C38_subtract : forall {V : Type} (a b : parts V), made a ->
  ((exists P, subtract a b = Ok P) <-> template a = template b) /\
  ((forall P, subtract a b <> Ok P) -> subtract a b = Err ValueError) /\
  forall P, subtract a b = Ok P -> template P = template a /\ forall k, val_at P k = match val_at b k with Some _ => None | None => val_at a k end.
Proof.
  intros V a b MA. spl.
  - unfold subtract. destruct (treedef_eqb_spec (template a) (template b)); split; eauto; [intros (P & H); discriminate|contradiction].
  - unfold subtract. destruct (treedef_eqb _ _); auto. intros H. exfalso. eapply H; reflexivity.
  - intros P H. apply (subtract_valid a b P (made_valid _ MA) H).
Qed.
Print Assumptions C38_subtract.

Example C38_subtract_ex : subtract part_a part_b = Ok (part [(["x"], 1)]) /\ subtract part_a (mk_parts (structure (L [Leaf 0])) []) = Err ValueError.
Proof. vm_compute. auto. Qed.

(** Intersection and difference split a tree into two disjoint parts whose strict overlay
    is the whole. *)
Theorem C38_split : forall {V : Type} (a b i d : parts V), made a -> made b -> intersect a b = Ok i -> subtract a b = Ok d ->
  exists P, overlay true i d = Ok P /\ template P = template a /\ forall k, val_at P k = val_at a k.
Proof.
  intros V a b i d MA MB EI ED. destruct (intersect_valid a b i (made_valid _ MA) EI) as (VI & TI & I). destruct (subtract_valid a b d (made_valid _ MA) ED) as (VD & TD & S).
  destruct (proj2 (overlay_ok true i d)) as (P & E).
  - split; [congruence|]. intros _ k. rewrite I, S. destruct (val_at b k); auto.
  - exists P. split; auto. destruct (overlay_valid true i d P VI VD E) as (_ & T & G). split; [congruence|]. intros k. rewrite G, S, I. destruct (val_at b k); auto. destruct (val_at a k); auto.
Qed.
Print Assumptions C38_split.

Example C38_split_ex : made part_a /\ made part_b /\ intersect part_a part_b = Ok (part [(["y"; "1"], 2)]) /\ subtract part_a part_b = Ok (part [(["x"], 1)]) /\
  overlay true (part [(["y"; "1"], 2)]) (part [(["x"], 1)]) = Ok (part [(["y"; "1"], 2); (["x"], 1)]).
Proof. split; [exact part_a_made|]. split; [exact part_b_made|]. vm_compute. auto. Qed.

(** Filtering keeps the values under the given names; it always succeeds. *)
Theorem C38_filter : forall {V : Type} (a : parts V) ks, made a -> exists P, filter_values a ks = Ok P /\ template P = template a /\
  forall k v, val_at P k = Some v <-> In k ks /\ val_at a k = Some v.
Proof.
  intros V a ks MA. destruct (filter_values_ok a ks (made_valid _ MA)) as (P & E & _ & T & G). exists P. spl; auto. intros k v. rewrite G. destruct (mem k ks) eqn:M.
  - apply mem_in in M. tauto.
  - split; [discriminate|]. intros [I _]. apply mem_in in I. congruence.
Qed.
Print Assumptions C38_filter.

Example C38_filter_ex : filter_values part_b [["y"; "1"]; ["x"]] = Ok (part [(["y"; "1"], 4)]).
Proof. vm_compute. auto. Qed.

(** Partitioning gives one part per class that occurs, with exactly the values of that
    class: the parts are disjoint and together are the whole. *)
Theorem C38_partition : forall {V C : Type} (ceqb : C -> C -> bool) (f : V -> C) (a : parts V), (forall x y, ceqb x y = true <-> x = y) -> made a ->
  exists l, partition ceqb f a = Ok l /\ NoDup (map fst l) /\
    (forall c, In c (map fst l) <-> exists k v, val_at a k = Some v /\ f v = c) /\
    forall c P, In (c, P) l -> template P = template a /\ forall k v, val_at P k = Some v <-> val_at a k = Some v /\ f v = c.
Proof.
  intros V C ceqb f a CS MA. destruct (partition_ok ceqb (fun x y => iff_reflect _ _ (iff_sym (CS x y))) f a (made_valid _ MA)) as (l & E & N & K & P). exists l. spl; auto.
  intros c Q I. destruct (P c Q I) as (_ & ? & ?). auto.
Qed.
Print Assumptions C38_partition.

Example C38_partition_ex : partition Bool.eqb Nat.even (part [(["x"], 1); (["y"; "1"], 2); (["y"; "0"], 3)]) =
  Ok [(false, part [(["x"], 1); (["y"; "0"], 3)]); (true, part [(["y"; "1"], 2)])].
Proof. vm_compute. auto. Qed.

(** The full structure is the template with its values if every leaf has one... *)
Theorem C38_full : forall {V : Type} (P : parts V) (f : path -> V), made P ->
  (forall p, at_path (template P) p (Leaf tt) -> val_at P (tuple_path_from_keypath p) = Some (f p)) ->
  full_structure P = Ok (with_leaves (fun p => Leaf (f p)) (template P)).
Proof. intros V P f M. exact (full_ok P f (made_valid _ M)). Qed.
Print Assumptions C38_full.

Example C38_full_ex : full_structure (part [(["x"], 1); (["y"; "1"], 4); (["y"; "0"], 3)]) = Ok (D [("x", Leaf 1); ("y", L [Leaf 3; Leaf 4])]).
Proof. vm_compute. auto. Qed.

(** ... and an error otherwise. *)
Theorem C38_full_missing : forall {V : Type} (P : parts V) p, made P -> at_path (template P) p (Leaf tt) -> val_at P (tuple_path_from_keypath p) = None ->
  full_structure P = Err ValueError.
Proof. intros V P p M. exact (full_missing P p (made_valid _ M)). Qed.
Print Assumptions C38_full_missing.

Example C38_full_missing_ex : val_at part_a ["y"; "0"] = None /\ full_structure part_a = Err ValueError.
Proof. vm_compute. auto. Qed.

(** The unchecked structure always exists, with placeholders for missing leaves. *)
Theorem C38_unsafe : forall {V : Type} (P : parts V), made P ->
  unsafe_structure P = Ok (with_leaves (fun p => Leaf (val_at P (tuple_path_from_keypath p))) (template P)).
Proof. intros V P M. exact (unsafe_ok P (made_valid _ M)). Qed.
Print Assumptions C38_unsafe.

Example C38_unsafe_ex : made part_a /\ unsafe_structure part_a = Ok (D [("x", Leaf (Some 1)); ("y", L [Leaf None; Leaf (Some 2)])]).
Proof. split; [exact part_a_made|]. vm_compute. auto. Qed.

(** Making a partial tree of the same template from the unchecked structure gives the
    same partial map back. *)
Theorem C38_like : forall {V : Type} (P : parts V) t, made P -> unsafe_structure P = Ok t ->
  exists Q, like P t = Ok Q /\ template Q = template P /\ forall k, val_at Q k = val_at P k.
Proof.
  intros V P t M E. pose proof (made_valid _ M) as VP. rewrite unsafe_ok in E by auto. injection E as <-.
  destruct (init_template P (fun p => val_at P (tuple_path_from_keypath p)) VP) as (Q & E1 & E2 & E3 & E4). exists Q. spl; auto.
  assert (G : forall k v, val_at Q k = Some v <-> val_at P k = Some v).
  { intros k v. rewrite E4. split; [intros (p & A & B & <-); auto|]. intros H. destruct (C38_domain P k v M H) as (p & [] & A & <-). eauto. }
  intros k. destruct (val_at P k) eqn:EP; [apply G; auto|]. destruct (val_at Q k) eqn:EQ; auto. apply G in EQ. congruence.
Qed.
Print Assumptions C38_like.

Example C38_like_ex : like part_a (D [("x", Leaf (Some 1)); ("y", L [Leaf None; Leaf (Some 2)])]) = Ok part_a.
Proof. vm_compute. auto. Qed.

(** Mapping applies the function at every leaf of the template to what the arguments
    have there; templates that differ are an error. *)
Theorem C38_map : forall {V W : Type} (f : list string -> list (option V) -> option W) (x0 : parts V) xs, made x0 ->
  ((forall x, In x xs -> template x = template x0) -> exists Q, map_leaves_with_path f x0 xs = Ok Q /\ template Q = template x0 /\
    forall k v, val_at Q k = Some v <-> leaf_name (template x0) k /\ f k (map (fun x => val_at x k) (x0 :: xs)) = Some v) /\
  forall x, In x xs -> template x <> template x0 -> map_leaves_with_path f x0 xs = Err ValueError.
Proof.
  intros V W f x0 xs M. split.
  - intros H. destruct (map_leaves_ok f x0 xs (made_valid _ M) H) as (Q & E & _ & T & G). exists Q. auto.
  - intros x. exact (map_leaves_error f x0 xs x).
Qed.
Print Assumptions C38_map.

Example C38_map_ex : map_leaves_with_path (fun _ l => match l with [Some a; Some b] => Some (a + b) | [Some a; None] => Some a | _ => None end) part_a [part_b] =
  Ok (part [(["x"], 1); (["y"; "1"], 6)]).
Proof. vm_compute. auto. Qed.

(** Selecting a subtree keeps the values under the path; a path that the template has not
    is an error. *)
Theorem C38_select : forall {V : Type} (P : parts V) ps, made P ->
  (forall ts, select_by_tree_path (template P) ps = Ok ts -> exists Q, select P ps = Ok Q /\ template Q = ts /\ forall k, val_at Q k = val_at P (map tkey_name ps ++ k)) /\
  (forall e, select_by_tree_path (template P) ps = Err e -> select P ps = Err ValueError).
Proof.
  intros V P ps M. split.
  - intros ts H. destruct (select_ok P ps ts (made_valid _ M) H) as (Q & E & _ & T & G). eauto.
  - intros e. exact (select_none P ps e (made_valid _ M)).
Qed.
Print Assumptions C38_select.

Example C38_select_ex : select part_a [TStr "y"] = Ok (mk_parts (structure (L [Leaf 0; Leaf 0])) [(["1"], 2)]) /\
  select part_a [TStr "y"; TInt 2] = Err ValueError /\ select part_a [TStr "y"; TStr "1"] = Err ValueError.
Proof. vm_compute. auto. Qed.

(** What selecting finds in a tree is the subtree at the path. *)
Theorem C38_select_path : forall {V : Type} (t : tree V) ps ts, wf t ->
  (select_by_tree_path t ps = Ok ts <-> exists p, at_path t p ts /\ Forall2 stands_for p ps).
Proof.
  assert (SF : forall x k, stands_for x k <-> pytree_key_as_tree_key x = k).
  { intros x k. split; [intros H; inversion_clear H; auto|]. intros <-. destruct x as [i|[z|s]|s]; constructor. }
  intros V t ps. revert t. induction ps as [|k ps IH]; intros t ts WF; cbn [select_by_tree_path].
  - split.
    + intros H. injection H as <-. exists []. split; constructor.
    + intros (p & A & E). inversion E; subst. inversion A; subst. auto.
  - destruct t as [v|kd cs]; [split; [discriminate|intros (p & A & E); inversion E; subst; inversion A]|].
    inversion_clear WF as [|? ? W1 W2]. rewrite Forall_forall in W2.
    assert (U : forall x c, In (x, c) (order kd cs) -> find_child (pytree_key_as_tree_key x) (order kd cs) = Some c).
    { intros x c I. assert (N : NoDup (map str_name (map fst (order kd cs)))) by (apply (names_nodup kd), order_fit; auto).
      clear - I N. induction (order kd cs) as [|[y d] l IHl]; [contradiction|]. cbn [map fst] in N. inversion_clear N as [|? ? N1 N2]. cbn [find_child].
      destruct (tkey_eqb_spec (pytree_key_as_tree_key y) (pytree_key_as_tree_key x)) as [E|NE].
      - destruct I as [I|I]; [congruence|]. exfalso. apply N1. rewrite str_tkey, E, <- str_tkey. apply in_map. apply (in_map fst) in I. auto.
      - destruct I as [I|I]; [congruence|auto]. }
    split.
    + destruct (find_child k (order kd cs)) as [c|] eqn:E; [|discriminate]. apply find_child_some in E as (x & I & E & _). rewrite order_in in I. intros H. apply (IH c) in H as (p & A & F); [|apply (W2 _ I)].
      exists (x :: p). split; [apply at_child with (c := c); auto|]. constructor; [apply SF|]; auto.
    + intros (p & A & E). inversion E as [|x ? q ? E1 E2]; subst. apply SF in E1 as <-. inversion A as [|? ? ? c ? ? I B]; subst.
      rewrite (U x c) by (rewrite order_in; auto). apply IH; [apply (W2 _ I)|]. eauto.
Qed.
Print Assumptions C38_select_path.

Example C38_select_path_ex : wf tmpl /\ select_by_tree_path tmpl [TStr "y"; TInt 1] = Ok (Leaf 0) /\
  select_by_tree_path (Node KDict [(DictKey (KInt 3), Leaf 7)]) [TInt 3] = Ok (Leaf 7).
Proof. split; [exact tmpl_wf|]. vm_compute. auto. Qed.

(** The structure hash looks at the order in which the values were put in, so that the
    same partial tree can have two hashes: overlaying disjoint parts in the two orders. *)
Theorem C38_structure_hash_refuted : exists (a b c d : parts nat), made a /\ made b /\ overlay true a b = Ok c /\ overlay true b a = Ok d /\
  template c = template d /\ (forall k, val_at c k = val_at d k) /\ structure_hash c <> structure_hash d.
Proof.
  exists (part [(["x"], 1)]), (part [(["y"; "1"], 2)]), (part [(["x"], 1); (["y"; "1"], 2)]), (part [(["y"; "1"], 2); (["x"], 1)]). spl; auto.
  - apply (made_init _ tmpl (D [("x", Leaf (Some 1))])); [exact tmpl_wf|wf_tac|vm_compute; auto].
  - apply (made_init _ tmpl (D [("y", D [("1", Leaf (Some 2))])])); [exact tmpl_wf|wf_tac|vm_compute; auto].
  - intros k. unfold val_at, part. cbn [present dget]. destruct (names_eqb_spec k ["x"]) as [E1|]; destruct (names_eqb_spec k ["y"; "1"]) as [E2|]; auto. congruence.
  - vm_compute. discriminate.
Qed.
Print Assumptions C38_structure_hash_refuted.
