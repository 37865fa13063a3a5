(** C35, C36 and C37: flattening, serializing and naming pytrees. *)
From Coq Require Import List Bool Arith NArith ZArith String Ascii Permutation Lia.
From Verif Require Import Base StepName_Model Tree_Model Tree_Spec Tree_Proofs.
Import ListNotations.
Open Scope string_scope.

(** Notation for the examples. *)
Definition D {V : Type} (l : list (string * tree V)) : tree V := Node KDict (map (fun x => (DictKey (KStr (fst x)), snd x)) l).
Definition L {V : Type} (l : list (tree V)) : tree V := Node KList (combine (map SequenceKey (seq 0 (List.length l))) l).
Definition T {V : Type} (l : list (tree V)) : tree V := Node KTuple (combine (map SequenceKey (seq 0 (List.length l))) l).

Ltac wf_tac := unfold D, L, T; repeat match goal with
  | |- wf (Leaf _) => constructor
  | |- wf (Node _ _) => constructor
  | |- keys_fit KDict _ => split; [|left; intros ? HH; simpl in HH; repeat (destruct HH as [<-|HH]; [eexists; reflexivity|]); contradiction]
  | |- keys_fit _ _ => reflexivity
  | |- NoDup [] => constructor
  | |- NoDup (_ :: _) => constructor; [simpl; intuition discriminate|]
  | |- Forall _ [] => constructor
  | |- Forall _ (_ :: _) => constructor
  | |- _ => progress cbn [map fst snd combine List.length seq]
  end.

(** ** C35 *)

(** Flattening a tree and rebuilding it gives the nested dictionary with the same
    leaves under the same names. *)
Theorem C35_rebuild : forall {V : Type} keep (t : tree V), wf t -> from_flat_dict (to_flat_dict keep t) = Ok (as_dicts keep t).
Proof. intros V keep t. exact (flat_round_trip keep t). Qed.
Print Assumptions C35_rebuild.

Example C35_rebuild_ex :
  from_flat_dict (to_flat_dict false (D [("b", L [Leaf 1; D []; Leaf 3]); ("a", Leaf 0)])) = Ok (D [("a", Leaf 0); ("b", D [("0", Leaf 1); ("2", Leaf 3)])]) /\
  from_flat_dict (to_flat_dict true (D [("b", L [Leaf 1; T []])])) = Ok (D [("b", D [("0", Leaf 1); ("1", T [])])]) /\
  from_flat_dict (to_flat_dict false (Leaf 7)) = Ok (Leaf 7).
Proof. vm_compute. auto. Qed.

(** Nested dictionaries with string keys come back as they were: with the empty nodes
    kept always, without them if there is none. *)
Theorem C35_round_trip : forall {V : Type} keep (t : tree V), wf t -> string_dicts t ->
  (keep = true \/ forall p k, ~ at_path t p (Node k [])) -> exists t', from_flat_dict (to_flat_dict keep t) = Ok t' /\ peq t t'.
Proof.
  intros V keep t W S E. exists (norm t). split; [|apply peq_norm]. rewrite flat_round_trip by auto. f_equal.
  destruct keep; [apply as_dicts_norm; auto|]. destruct E as [E|E]; [discriminate|]. apply string_dicts_leafy; auto.
Qed.
Print Assumptions C35_round_trip.

Example C35_round_trip_ex :
  from_flat_dict (to_flat_dict true (D [("b", D [("y", Leaf 1); ("x", D [])]); ("a", Leaf 0)])) = Ok (D [("a", Leaf 0); ("b", D [("x", D []); ("y", Leaf 1)])]).
Proof. vm_compute. auto. Qed.

(** The same through a separator of one character that no name contains; a tree that is
    a single leaf is excluded. *)
Theorem C35_separator : forall {V : Type} c keep (t : tree V), wf t -> without c t -> ~ is_leaf keep t ->
  from_flat_dict_sep (String c "") (to_flat_dict_sep (String c "") keep t) = Ok (as_dicts keep t).
Proof. intros V c keep t. exact (flat_sep_round_trip c keep t). Qed.
Print Assumptions C35_separator.

Example C35_separator_ex :
  to_flat_dict_sep "/" false (D [("b", L [Leaf 1; Leaf 3]); ("a", Leaf 0)]) = [("a", Leaf 0); ("b/0", Leaf 1); ("b/1", Leaf 3)] /\
  from_flat_dict_sep "/" [("a", Leaf 0); ("b/0", Leaf 1); ("b/1", Leaf 3)] = Ok (D [("a", Leaf 0); ("b", D [("0", Leaf 1); ("1", Leaf 3)])]).
Proof. vm_compute. auto. Qed.

(** With a separator of two characters the tree can come back different although no key
    contains the separator: [to_flat_dict({'a/': {'b': 0}}, sep='//')] has the key
    ['a///b'], which is split into ['a'] and ['/b']. *)
Theorem C35_long_separator_refuted : exists (sep : string) (t : tree nat), wf t /\ string_dicts t /\ ~ is_leaf true t /\
  (forall p s n, at_path t p s -> In n (tuple_path_from_keypath p) -> forall a b, n <> a ++ sep ++ b) /\
  exists t', from_flat_dict_sep sep (to_flat_dict_sep sep true t) = Ok t' /\ ~ peq t t'.
Proof.
  exists "//", (D [("a/", D [("b", Leaf 0)])]). spl.
  - wf_tac.
  - unfold D. repeat (constructor; simpl; eauto).
  - simpl. intros [_ H]. discriminate.
  - assert (H : forall n, n = "a/" \/ n = "b" -> forall a b, n <> a ++ "//" ++ b).
    { intros n [-> | ->] a b H.
      - destruct a as [|x a]; [discriminate|]. injection H as _ H. destruct a as [|y a]; [discriminate|]. injection H as _ H. destruct a; discriminate.
      - destruct a as [|x a]; [discriminate|]. injection H as _ H. destruct a; discriminate. }
    intros p s n A I. apply H. inversion A as [|? ? x c q ? J B]; subst; [contradiction|]. destruct J as [J|[]]. injection J as <- <-.
    inversion B as [|? ? x c q' ? J B']; subst; [destruct I as [<-|[]]; auto|]. destruct J as [J|[]]. injection J as <- <-.
    inversion B'; subst. destruct I as [<-|[<-|[]]]; auto.
  - exists (D [("a", D [("/b", Leaf 0)])]). split; [vm_compute; reflexivity|]. intros H. inversion H as [|? ? ? F|? cs' ? P F]; subst.
    + inversion F as [|? ? ? ? (E & _) _]; subst. discriminate.
    + apply Permutation_length_1_inv in P. subst. inversion F as [|? ? ? ? (E & _) _]; subst. discriminate.
Qed.
Print Assumptions C35_long_separator_refuted.

(** With a separator a single leaf does not come back: it turns into a dictionary. *)
Theorem C35_leaf_separator_refuted : exists (t : tree nat), wf t /\ exists t', from_flat_dict_sep "/" (to_flat_dict_sep "/" false t) = Ok t' /\ ~ peq t t'.
Proof. exists (Leaf 5). split; [constructor|]. exists (D [("", Leaf 5)]). split; [reflexivity|]. intros H. inversion H. Qed.
Print Assumptions C35_leaf_separator_refuted.

(** With a target the result is the target with each leaf replaced by the value stored
    under its path; an absent value is an error. *)
Theorem C35_target : forall {V W : Type} (d : dict (list string) (tree W)) (target : tree V), wf target ->
  (forall f, (forall p v, at_path target p (Leaf v) -> dget names_eqb (tuple_path_from_keypath p) d = Some (f p)) ->
     exists t', peq target t' /\ from_flat_dict_target d target = Ok (with_leaves f t')) /\
  (forall p v, at_path target p (Leaf v) -> dget names_eqb (tuple_path_from_keypath p) d = None -> from_flat_dict_target d target = Err KeyError).
Proof.
  intros V W d target WF. split.
  - intros f H. exists (norm target). split; [apply peq_norm|]. exact (target_ok d target f WF H).
  - intros p v. exact (target_missing d target p v WF).
Qed.
Print Assumptions C35_target.

Example C35_target_ex :
  from_flat_dict_target [(["b"; "1"], Leaf 30); (["a"], Leaf 10); (["b"; "0"], Leaf 20); (["c"], Leaf 1)] (D [("b", T [Leaf 1; Leaf 3; Node KNone []]); ("a", Leaf 0)]) =
    Ok (D [("a", Leaf 10); ("b", T [Leaf 20; Leaf 30; Node KNone []])]) /\
  from_flat_dict_target [(["a"], Leaf 10)] (D [("b", Leaf 1); ("a", Leaf 0)]) = Err KeyError.
Proof. vm_compute. auto. Qed.

(** The same with a separator, when no two leaves get the same joined name; that is so
    when no name contains the (one-character) separator. *)
Theorem C35_target_separator : forall {V W : Type} sep (d : dict string (tree W)) (target : tree V) f, wf target ->
  ((exists c, sep = String c "" /\ without c target) \/
   (forall p q v w, at_path target p (Leaf v) -> at_path target q (Leaf w) ->
      join sep (tuple_path_from_keypath p) = join sep (tuple_path_from_keypath q) -> p = q)) ->
  (forall p v, at_path target p (Leaf v) -> dget String.eqb (join sep (tuple_path_from_keypath p)) d = Some (f p)) ->
  exists t', peq target t' /\ from_flat_dict_target_sep sep d target = Ok (with_leaves f t').
Proof.
  intros V W sep d target f WF U H. exists (norm target). split; [apply peq_norm|]. apply target_sep_ok; auto.
  destruct U as [(c & -> & X)|U]; auto. intros p q v w A B. apply (sep_inj c false target WF X p q (Leaf v) (Leaf w)); simpl; auto.
Qed.
Print Assumptions C35_target_separator.

Example C35_target_separator_ex :
  from_flat_dict_target_sep "." [("b.1", Leaf 30); ("a", Leaf 10); ("b.0", Leaf 20)] (D [("b", T [Leaf 1; Leaf 3]); ("a", Leaf 0)]) =
    Ok (D [("a", Leaf 10); ("b", T [Leaf 20; Leaf 30])]).
Proof. vm_compute. auto. Qed.

(** When two leaves of the target get the same joined name, rebuilding a complete
    dictionary fails: there are fewer values than leaves. *)
Theorem C35_target_separator_refuted : exists (target : tree nat) (d : dict string (tree nat)), wf target /\
  (forall p v, at_path target p (Leaf v) -> dget String.eqb (join "." (tuple_path_from_keypath p)) d = Some (Leaf 1)) /\
  from_flat_dict_target_sep "." d target = Err ValueError.
Proof.
  exists (D [("a.b", Leaf 0); ("a", D [("b", Leaf 0)])]), [("a.b", Leaf 1)]. spl.
  - wf_tac.
  - intros p v A. inversion A as [|? ? x c q ? J B]; subst. destruct J as [J|[J|[]]]; injection J as <- <-.
    + inversion B; subst. reflexivity.
    + inversion B as [|? ? x c q' ? J B']; subst. destruct J as [J|[]]. injection J as <- <-. inversion B'; subst. reflexivity.
  - reflexivity.
Qed.
Print Assumptions C35_target_separator_refuted.

(** ** C36 *)

(** Exactly when serialization succeeds, and with what result: it fails for a tree
    without leaves, and if a list or tuple has an item without leaves before one with
    leaves. *)
Theorem C36_serialized : forall {V : Type} keep (t : tree V), wf t ->
  serialize_tree keep t =
    if leafy keep t then if dense keep t then Ok (serialized keep t) else Err AssertionError else Err ValueError.
Proof. intros V keep t. exact (serialize_ok keep t). Qed.
Print Assumptions C36_serialized.

Example C36_serialized_ex :
  serialize_tree false (T [Leaf 1; D [("y", Leaf 2); ("x", T [])]; L []]) = Ok (L [Leaf 1; D [("y", Leaf 2)]]) /\
  serialize_tree true (Node (KNamed "Point") [(GetAttrKey "v", T [Leaf 1]); (GetAttrKey "u", Node KNone [])]) = Ok (D [("v", L [Leaf 1]); ("u", Node KNone [])]) /\
  serialize_tree true (Node KDict [(DictKey (KInt 10), Leaf 1); (DictKey (KInt (-2)), Leaf 2)]) = Ok (D [("-2", Leaf 2); ("10", Leaf 1)]).
Proof. vm_compute. auto. Qed.

(** The serialized tree consists of lists, dictionaries, leaves and kept empty nodes. *)
Theorem C36_form : forall {V : Type} keep (t s : tree V), wf t -> serialize_tree keep t = Ok s ->
  forall p k cs, at_path s p (Node k cs) -> cs <> [] -> k = KList \/ k = KDict.
Proof.
  intros V keep t s W E. rewrite serialize_ok in E by auto. destruct (leafy keep t), (dense keep t); try discriminate. injection E as <-. exact (serialized_form keep t).
Qed.
Print Assumptions C36_form.

Example C36_form_ex : exists s, serialize_tree false (T [T [Leaf 1]; Leaf 2]) = Ok s /\ at_path s [SequenceKey 0] (L [Leaf 1]).
Proof. eexists. split; [vm_compute; reflexivity|]. eapply at_child; [left; reflexivity|constructor]. Qed.

(** Whenever serialization succeeds, deserializing with the original as target gives it
    back. *)
Theorem C36_round_trip : forall {V : Type} keep (t s : tree V), wf t -> serialize_tree keep t = Ok s ->
  exists t', deserialize_tree s t keep = Ok t' /\ peq t t'.
Proof. intros V keep t s W E. exists (norm t). split; [exact (round_trip keep t s W E)|apply peq_norm]. Qed.
Print Assumptions C36_round_trip.

Example C36_round_trip_ex :
  rbind (serialize_tree false (T [Leaf 1; D [("y", Leaf 2); ("x", T [])]; L []])) (fun s => deserialize_tree s (T [Leaf 1; D [("y", Leaf 2); ("x", T [])]; L []]) false) =
  Ok (T [Leaf 1; D [("x", T []); ("y", Leaf 2)]; L []]).
Proof. vm_compute. auto. Qed.

(** With the empty nodes kept, every tree makes the round trip. *)
Theorem C36_round_trip_keep : forall {V : Type} (t : tree V), wf t ->
  exists s t', serialize_tree true t = Ok s /\ deserialize_tree s t true = Ok t' /\ peq t t'.
Proof.
  intros V t W. assert (E := serialize_ok true t W). rewrite leafy_true, dense_true in E. exists (serialized true t), (norm t).
  spl; [exact E|exact (round_trip true t _ W E)|apply peq_norm].
Qed.
Print Assumptions C36_round_trip_keep.

Example C36_round_trip_keep_ex :
  rbind (serialize_tree true (L [Node KNone []; Leaf 1])) (fun s => deserialize_tree s (L [Node KNone []; Leaf 1]) true) = Ok (L [Node KNone []; Leaf 1]).
Proof. vm_compute. auto. Qed.

(** Nested dictionaries with the names of the keys, such as flattening and unflattening
    gives, are deserialized to the original as well: an index is then looked up by its
    string. *)
Theorem C36_dicts : forall {V : Type} keep (t s : tree V), wf t -> from_flat_dict (to_flat_dict keep t) = Ok s ->
  exists t', deserialize_tree s t keep = Ok t' /\ peq t t'.
Proof.
  intros V keep t s W E. rewrite flat_round_trip in E by auto. injection E as <-. exists (norm t).
  split; [|apply peq_norm]. unfold deserialize_tree. apply deserialize_dicts; auto.
Qed.
Print Assumptions C36_dicts.

Example C36_dicts_ex :
  rbind (from_flat_dict (to_flat_dict false (L [Node KNone []; Leaf 1]))) (fun s => deserialize_tree s (L [Node KNone []; Leaf 1]) false) = Ok (L [Node KNone []; Leaf 1]).
Proof. vm_compute. auto. Qed.

(** Without keeping empty nodes a list such as [[None, 1]] cannot be serialized: the
    index of the second item leaves a gap and [_extend_list] fails its assertion. *)
Theorem C36_gap_refuted : exists t : tree nat, wf t /\ leafy false t = true /\ serialize_tree false t = Err AssertionError.
Proof.
  exists (L [Node KNone []; Leaf 1]). spl; try reflexivity. wf_tac.
Qed.
Print Assumptions C36_gap_refuted.

(** ** C37 *)

(** Every leaf (and every empty node, if included) gets its name. *)
Theorem C37_names : forall {V : Type} keep (t : tree V), exists nt, get_param_names keep t = Ok nt /\
  forall p n, at_path nt p (Leaf n) <-> n = join "." (tuple_path_from_keypath p) /\ exists s, at_path t p s /\ is_leaf keep s.
Proof. intros V keep t. exact (param_names_ok keep t). Qed.
Print Assumptions C37_names.

Example C37_names_ex : get_param_names true (D [("w", L [Leaf 1; Node KNone []])]) = Ok (D [("w", L [Leaf "w.0"; Leaf "w.1"])]).
Proof. vm_compute. auto. Qed.

(** If no key contains a dot, different leaves have different names. *)
Theorem C37_distinct_partial : forall {V : Type} keep (t : tree V) nt p q n, wf t -> without "."%char t -> get_param_names keep t = Ok nt ->
  at_path nt p (Leaf n) -> at_path nt q (Leaf n) -> p = q.
Proof. intros V keep t nt p q n. exact (param_names_inj keep t nt p q n). Qed.
Print Assumptions C37_distinct_partial.

Example C37_distinct_ex : without "."%char (D [("w", L [Leaf 1; Leaf 2]); ("w0", Leaf 3)]) /\
  get_param_names false (D [("w", L [Leaf 1; Leaf 2]); ("w0", Leaf 3)]) = Ok (D [("w", L [Leaf "w.0"; Leaf "w.1"]); ("w0", Leaf "w0")]).
Proof. split; [|vm_compute; auto]. simpl. intuition discriminate. Qed.

(** A dot in a key lets two parameters share a name, so that one overwrites the other in
    storage: [{'a.b': x, 'a': {'b': y}}]. *)
Theorem C37_dot_refuted : exists (t : tree nat) nt p q n, wf t /\ get_param_names false t = Ok nt /\
  at_path nt p (Leaf n) /\ at_path nt q (Leaf n) /\ p <> q.
Proof.
  exists (D [("a.b", Leaf 0); ("a", D [("b", Leaf 1)])]), (D [("a", D [("b", Leaf "a.b")]); ("a.b", Leaf "a.b")]),
    [DictKey (KStr "a.b")], [DictKey (KStr "a"); DictKey (KStr "b")], "a.b". spl; try reflexivity.
  - wf_tac.
  - eapply at_child; [right; left; reflexivity|constructor].
  - eapply at_child; [left; reflexivity|]. eapply at_child; [left; reflexivity|constructor].
  - discriminate.
Qed.
Print Assumptions C37_dot_refuted.
