(** C60: the JSON form of a tree of value metadata that keeps tuples and named tuples. *)
From Coq Require Import List Bool Arith NArith ZArith String Ascii.
From Verif Require Import Base StepName_Model Tree_Model Tree_Spec Tree_Proofs RichMeta_Model RichMeta_Spec RichMeta_Proofs.
Import ListNotations.
Open Scope string_scope.

(** The JSON form of one value's metadata can be read back; only the type of an empty named tuple
    is changed, and only without support for rich types. *)
Theorem C60_value : forall v rich, exists ty,
  vm_from_json (vm_to_json v) rich = Ok (mkV ty (skip_deserialize v) (write_shape v)) /\
  ty = (if (value_type v =? "NamedTuple") then (if rich then "NamedTuple" else "None") else value_type v).
Proof.
  intros v rich. exists (override_empty_value_typestr (value_type v) rich). split; [apply vm_round|].
  unfold override_empty_value_typestr. destruct (value_type v =? "NamedTuple") eqn:E; destruct rich; simpl; auto.
  apply String.eqb_eq in E. exact E.
Qed.
Print Assumptions C60_value.

Example C60_value_ex : vm_from_json (vm_to_json (mkV "jax.Array" false (Some [8; 4]))) false = Ok (mkV "jax.Array" false (Some [8; 4])) /\
  vm_from_json (vm_to_json (mkV "NamedTuple" true None)) false = Ok (mkV "None" true None).
Proof. split; vm_compute; reflexivity. Qed.

(** A tree is written just if it has no empty node (the caller puts a value's metadata in the
    place of each empty node). *)
Theorem C60_written : forall M Q t, wf t -> ((exists j, dumps M Q t = Ok j) <-> full t).
Proof. exact dumps_full. Qed.
Print Assumptions C60_written.

(** What was written is read back: the same structure with the same metadata at each leaf, a class
    made up for each named tuple and strings for all keys of dictionaries. *)
Theorem C60_round_trip : forall M Q t, wf t -> full t -> namable M Q t ->
  exists j, dumps M Q t = Ok j /\ loads j = Ok (reread M Q t).
Proof.
  intros M Q t W F N. exists (jof M Q t). split; [apply dumps_ok; auto|]. rewrite read_back by auto.
  apply namable_spec in N; auto. rewrite N. reflexivity.
Qed.
Print Assumptions C60_round_trip.

(** If some class cannot be made up the text is refused as a whole. *)
Theorem C60_refused : forall M Q t, wf t -> full t -> ~ namable M Q t ->
  exists j, dumps M Q t = Ok j /\ loads j = Err ValueError.
Proof.
  intros M Q t W F N. exists (jof M Q t). split; [apply dumps_ok; auto|]. rewrite read_back by auto.
  destruct (namableb M Q t) eqn:E; [|reflexivity]. exfalso. apply N. apply namable_spec; auto.
Qed.
Print Assumptions C60_refused.

Definition arr : vmeta := mkV "jax.Array" false (Some [2]).
Definition state : tree vmeta :=
  Node KDict [(DictKey (KStr "category"), Leaf arr);
              (DictKey (KStr "mu_nu"), Node (KNamed "MuNu") [(GetAttrKey "mu", Leaf arr); (GetAttrKey "nu", Node KTuple [(SequenceKey 0, Leaf arr)])])].
Definition mods (c : string) : string := "pkg.mod".
Definition same (c : string) : string := c.

Example C60_round_trip_ex : wf state /\ full state /\ namable mods same state /\
  rbind (dumps mods same state) loads =
  Ok (Node KDict [(DictKey (KStr "category"), Leaf (LMeta arr));
                  (DictKey (KStr "mu_nu"), Node (KNamed "pkg_mod_MuNu_2") [(GetAttrKey "mu", Leaf (LMeta arr)); (GetAttrKey "nu", Node KTuple [(SequenceKey 0, Leaf (LMeta arr))])])]).
Proof.
  assert (W : wf state).
  { constructor; simpl.
    - split; [repeat constructor; simpl; intuition discriminate|]. left. intros x [<-|[<-|[]]]; eauto.
    - repeat constructor; simpl; try (intuition discriminate). intros x [<-|[<-|[]]]; eauto. }
  split; [exact W|]. split; [repeat constructor; discriminate|]. split; [apply namable_spec; [exact W|reflexivity]|].
  vm_compute. reflexivity.
Qed.

(** A named tuple whose class is defined in a function has a name such as f.<locals>.C.  Saving
    works and writes it, but no class of that name can be made up: the metadata of such a checkpoint
    can never be read with rich types. *)
Theorem C60_local_refuted : exists M Q t, wf t /\ full t /\ exists j, dumps M Q t = Ok j /\ loads j = Err ValueError.
Proof.
  exists mods, (fun c => "f.<locals>.C"), (Node (KNamed "C") [(GetAttrKey "x", Leaf arr)]).
  split; [repeat constructor; simpl; try tauto; intros y [<-|[]]; eauto|]. split; [repeat constructor; discriminate|].
  eexists. split; vm_compute; reflexivity.
Qed.
Print Assumptions C60_local_refuted.

(** A field that the named tuple's own constructor renamed (namedtuple(..., rename=True) gives
    names such as _0) is refused on reading as well. *)
Theorem C60_renamed_refuted : exists t, wf t /\ full t /\ exists j, dumps mods same t = Ok j /\ loads j = Err ValueError.
Proof.
  exists (Node (KNamed "C") [(GetAttrKey "_0", Leaf arr)]).
  split; [repeat constructor; simpl; try tauto; intros y [<-|[]]; eauto|]. split; [repeat constructor; discriminate|].
  eexists. split; vm_compute; reflexivity.
Qed.
Print Assumptions C60_renamed_refuted.

(** The name of the made-up class is said to be unique; classes of different modules get the same
    name (a_b.c and a.b_c). *)
Theorem C60_unique_refuted : exists m c m' c' n, (m, c) <> (m', c') /\ valid_class_name m c n = valid_class_name m' c' n.
Proof. exists "a_b", "c", "a", "b_c", 2. split; [discriminate|vm_compute; reflexivity]. Qed.
Print Assumptions C60_unique_refuted.

(** Integer keys of a dictionary come back as strings. *)
Theorem C60_integer_keys_refuted : exists t, wf t /\ full t /\ namable mods same t /\ exists j t', dumps mods same t = Ok j /\ loads j = Ok t' /\
  exists p v, at_path t p (Leaf v) /\ ~ at_path t' p (Leaf (LMeta v)).
Proof.
  exists (Node KDict [(DictKey (KInt 7), Leaf arr)]).
  assert (W : wf (Node KDict [(DictKey (KInt 7), Leaf arr)])).
  { constructor; simpl; [|repeat constructor]. split; [repeat constructor; simpl; tauto|]. right. intros y [<-|[]]; eauto. }
  split; [exact W|]. split; [repeat constructor; discriminate|]. split; [apply namable_spec; [exact W|reflexivity]|].
  eexists; eexists. split; [vm_compute; reflexivity|]. split; [vm_compute; reflexivity|].
  exists [DictKey (KInt 7)], arr. split; [econstructor; [left; reflexivity|constructor]|].
  intros A. inversion A as [|? ? ? ? ? ? I _]; subst. destruct I as [E|[]]. discriminate E.
Qed.
Print Assumptions C60_integer_keys_refuted.
