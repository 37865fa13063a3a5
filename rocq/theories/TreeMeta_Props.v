(** C59: the metadata file of a pytree checkpoint. *)
From Coq Require Import List Bool Arith NArith ZArith String Ascii Permutation.
From Verif Require Import Base StepName_Model Tree_Model Tree_Spec Tree_Proofs Merge_Model Merge_Proofs RichMeta_Model RichMeta_Spec RichMeta_Proofs TreeMeta_Model TreeMeta_Spec TreeMeta_Proofs.
Import ListNotations.
Open Scope string_scope.

(** Two different paths never share a key of the file, whatever characters are in the names. *)
Theorem C59_key : forall l l', str_tuple l = str_tuple l' -> l = l'.
Proof. exact str_tuple_inj. Qed.
Print Assumptions C59_key.

Example C59_key_ex : str_tuple ["a"; "it's"] = "('a', ""it's"")" /\ str_tuple ["a', 'b"] <> str_tuple ["a"; "b"] /\ str_tuple ["0"] = "('0',)".
Proof. split; [vm_compute; reflexivity|]. split; [vm_compute; discriminate|vm_compute; reflexivity]. Qed.

(** What is written for a tree is read back as lists and dictionaries with the same paths and, at
    each path, the metadata of the same value; the flags and the custom metadata come back. *)
Theorem C59_round_trip : forall M Q t ocdbt zarr3 custom store, wf t -> full t ->
  (forall p i, at_path t p (Leaf i) -> value_typestr i <> None) ->
  exists m d m' s s', build t None ocdbt zarr3 custom store false = Ok m /\ to_json M Q m = Ok d /\ from_json d false = Ok m' /\
  use_ocdbt m' = ocdbt /\ use_zarr3 m' = zarr3 /\ custom_metadata m' = custom /\ store_array_data_equal_to_fill_value m' = store /\
  support_rich_types m' = false /\
  simplified (fun i w => exists v, written i v /\ w = reread_value v) t s /\ peq s s' /\ as_nested_tree m' = Ok s'.
Proof.
  intros M Q t ocdbt zarr3 custom store W F T. destruct (round_trip_ok M Q t ocdbt zarr3 custom store W F T) as (m & d & m' & H1 & H2 & H3 & H4 & H5).
  exists m, d, m', (simp (fun i => reread_value (meta_of i)) t). eexists. split; [exact H1|]. split; [exact H2|]. split; [exact H3|]. rewrite H4. do 5 (split; [reflexivity|]). split; [|split; [|rewrite <- H4; exact H5]].
  - apply simp_simplified; auto. intros p i A. exists (meta_of i). split; [|reflexivity]. apply meta_written. apply (T p i A).
  - apply peq_norm.
Qed.
Print Assumptions C59_round_trip.

Definition arr (s : string) : pinfo := mkP (Some s) (Some [2]).
Definition state : tree pinfo :=
  Node KDict [(DictKey (KStr "params"), Node KTuple [(SequenceKey 0, Leaf (arr "jax.Array")); (SequenceKey 1, Leaf (arr "np.ndarray"))]);
              (DictKey (KStr "opt"), Node (KNamed "Adam") [(GetAttrKey "mu", Leaf (arr "jax.Array")); (GetAttrKey "none", Leaf (mkP (Some "None") None))])].
Definition mods (c : string) : string := "pkg.mod".
Definition same (c : string) : string := c.
Definition dk (s : string) : key := DictKey (KStr s).

Ltac paths H := repeat match type of H with
  | at_path (Leaf _) _ _ => inversion H; subst; clear H
  | at_path (Node _ _) [] (Leaf _) => inversion H
  | at_path (Node _ _) (_ :: _) _ => apply at_node in H; let c := fresh "c" in let I := fresh "I" in destruct H as (c & I & H); cbn [In] in I; repeat (destruct I as [I|I]); try contradiction; try discriminate I; inversion I; subst; clear I
  | at_path (Node _ _) ?p (Leaf _) => is_var p; destruct p; [inversion H|]
  end.

Lemma state_ok : wf state /\ full state /\ forall p i, at_path state p (Leaf i) -> value_typestr i <> None.
Proof.
  split; [|split].
  - constructor; simpl.
    + split; [repeat constructor; simpl; intuition discriminate|]. left. intros x [<-|[<-|[]]]; eauto.
    + repeat constructor; simpl; try (intuition discriminate). intros x [<-|[<-|[]]]; eauto.
  - constructor; [discriminate|]. constructor; [|constructor; [|constructor]]; (constructor; [discriminate|constructor; [constructor|constructor; [constructor|constructor]]]).
  - intros p i H. unfold state in H. paths H; discriminate.
Qed.

Example C59_round_trip_ex : (wf state /\ full state /\ forall p i, at_path state p (Leaf i) -> value_typestr i <> None) /\
  rbind (build state None (Some true) false (Node KNone []) false false) (fun m => rbind (to_json mods same m) (fun d => rbind (from_json d false) as_nested_tree)) =
  Ok (Node KDict [(dk "opt", Node KDict [(dk "mu", Leaf (mkV "jax.Array" false (Some [2]))); (dk "none", Leaf (mkV "None" true None))]);
                  (dk "params", Node KList [(SequenceKey 0, Leaf (mkV "jax.Array" false (Some [2]))); (SequenceKey 1, Leaf (mkV "np.ndarray" false (Some [2])))])]).
Proof. split; [exact state_ok|vm_compute; reflexivity]. Qed.

(** With rich types the tree itself comes back, with a class made up for each named tuple and
    strings for the keys of dictionaries. *)
Theorem C59_rich : forall M Q t ocdbt zarr3 custom store, wf t -> full t ->
  (forall p i, at_path t p (Leaf i) -> value_typestr i <> None) ->
  exists t' V, peq t t' /\ same_tree written t' V /\ (namable M Q V -> exists m d m' T,
    build t None ocdbt zarr3 custom store true = Ok m /\ to_json M Q m = Ok d /\ from_json d true = Ok m' /\
    use_ocdbt m' = ocdbt /\ use_zarr3 m' = zarr3 /\ custom_metadata m' = custom /\ store_array_data_equal_to_fill_value m' = store /\
    as_nested_tree m' = Ok T /\ same_tree (fun v w => w = LMeta v) T (reread M Q V)).
Proof. exact rich_ok. Qed.
Print Assumptions C59_rich.

Example C59_rich_ex : (wf state /\ full state /\ forall p i, at_path state p (Leaf i) -> value_typestr i <> None) /\
  rbind (build state None (Some true) false (Node KNone []) false true) (fun m => rbind (to_json mods same m) (fun d => rbind (from_json d true) as_nested_tree)) =
  Ok (Node KDict [(dk "opt", Node (KNamed "pkg_mod_Adam_2") [(GetAttrKey "mu", Leaf (mkV "jax.Array" false (Some [2]))); (GetAttrKey "none", Leaf (mkV "None" true None))]);
                  (dk "params", Node KTuple [(SequenceKey 0, Leaf (mkV "jax.Array" false (Some [2]))); (SequenceKey 1, Leaf (mkV "np.ndarray" false (Some [2])))])]).
Proof. split; [exact state_ok|vm_compute; reflexivity]. Qed.

(** Entries that describe the leaves of a tree of lists and dictionaries give this tree, in
    whatever order they are listed; entries for nodes above the leaves are ignored. *)
Theorem C59_tree : forall m l T, legacy m -> plain T -> Forall2 describes (entries m) l -> NoDup (map fst l) ->
  (forall p v, at_path T p (Leaf v) -> In (p, v) l) ->
  (forall p v, In (p, v) l -> at_path T p (Leaf v) \/ exists q w, at_path T q (Leaf w) /\ extends q p) ->
  exists T', as_nested_tree m = Ok T' /\ peq T T'.
Proof. intros m l T L P D N A E. exists (norm T). split; [apply (nested_ok m l T); auto|apply peq_norm]. Qed.
Print Assumptions C59_tree.

Definition v1 : vmeta := mkV "jax.Array" false None.
Definition v0 : vmeta := mkV "Dict" true None.
Definition de (ks : list string) (v : vmeta) : entry := mkE (str_tuple ks) (map (fun s => (s, DICT)) ks) v.
Definition legacy_meta (es : list entry) : meta := mkM es (Some true) false (Node KNone []) false false None.

Example C59_tree_ex : exists m l T, legacy m /\ plain T /\ Forall2 describes (entries m) l /\ NoDup (map fst l) /\
  (forall p v, at_path T p (Leaf v) -> In (p, v) l) /\
  (forall p v, In (p, v) l -> at_path T p (Leaf v) \/ exists q w, at_path T q (Leaf w) /\ extends q p) /\
  as_nested_tree m = Ok T.
Proof.
  exists (legacy_meta [mkE "x" [("b", DICT); ("0", SEQUENCE)] v1; mkE "y" [("a", DICT)] v1; mkE "z" [("b", DICT)] v0]),
         [([dk "b"; SequenceKey 0], v1); ([dk "a"], v1); ([dk "b"], v0)],
         (Node KDict [(dk "a", Leaf v1); (dk "b", Node KList [(SequenceKey 0, Leaf v1)])]).
  split; [left; reflexivity|]. split.
  { apply plain_dict; [discriminate| | |].
    - constructor; [intros [E|[]]; discriminate E|constructor; [intros []|constructor]].
    - intros x [<-|[<-|[]]]; eexists; reflexivity.
    - constructor; [constructor|constructor; [|constructor]]. apply plain_list; [discriminate|reflexivity|constructor; [constructor|constructor]]. }
  split. { repeat (constructor; [split; [reflexivity|repeat constructor]|]). constructor. }
  split. { constructor; [intros [E|[E|[]]]; discriminate E|constructor; [intros [E|[]]; discriminate E|constructor; [intros []|constructor]]]. }
  split. { intros p v H. paths H; cbn [In]; auto. }
  split; [|vm_compute; reflexivity].
  intros p v [E|[E|[E|[]]]]; injection E as <- <-.
  - left. apply at_node. eexists. split; [right; left; reflexivity|]. apply at_node. eexists. split; [left; reflexivity|constructor].
  - left. apply at_node. eexists. split; [left; reflexivity|constructor].
  - right. exists [dk "b"; SequenceKey 0], v1. split; [apply at_node; eexists; split; [right; left; reflexivity|]; apply at_node; eexists; split; [left; reflexivity|constructor]|].
    exists [SequenceKey 0]. split; [discriminate|reflexivity].
Qed.

(** For nested dictionaries any entries give a tree: its leaves are the entries that no other
    entry extends. *)
Theorem C59_nested : forall m, legacy m -> entries m <> [] -> (forall e, In e (entries m) -> exists ks, dict_entry e ks) ->
  NoDup (map key_metadata (entries m)) ->
  exists T, as_nested_tree m = Ok T /\
  forall p v, at_path T p (Leaf v) <-> exists e ks, In e (entries m) /\ dict_entry e ks /\ p = map (fun s => DictKey (KStr s)) ks /\ v = value_metadata e /\
    forall e' ks', In e' (entries m) -> dict_entry e' ks' -> ~ extends ks' ks.
Proof.
  intros m L NE DE ND.
  assert (DN : forall e ks, dict_entry e ks -> dict_names e = ks) by (intros e ks D; apply dict_entry_names; auto).
  assert (DD : forall e, In e (entries m) -> dict_entry e (dict_names e)) by (intros e I; destruct (DE e I) as (ks & D); rewrite (DN e ks D); auto).
  assert (N : NoDup (map dict_names (entries m))).
  { revert DD ND. clear. induction (entries m) as [|e l IH]; intros DD ND; cbn [map] in *; [constructor|]. inversion_clear ND as [|? ? N1 N2]. constructor; [|apply IH; auto; intros x X; apply DD; right; auto].
    intros I. apply N1. apply in_map_iff in I as (x & E & I). apply in_map_iff. exists x. split; auto. rewrite (DD x) by (right; auto). rewrite (DD e) by (left; auto). rewrite E. auto. }
  destruct (dicts_ok m L NE DE N) as (T & S & E & H). exists (norm T). split; auto. intros p v. rewrite norm_at_iff, H. split.
  - intros (e & I & -> & -> & X). exists e, (dict_names e). split; auto. split; auto. split; [reflexivity|]. split; auto. intros e' ks' I' D'. rewrite <- (DN e' ks' D'). auto.
  - intros (e & ks & I & D & -> & -> & X). exists e. rewrite (DN e ks D). split; auto. split; [reflexivity|]. split; auto. intros e' I'. apply (X e'); auto.
Qed.
Print Assumptions C59_nested.

Example C59_nested_ex : legacy (legacy_meta [de ["a"; "c"] v1; de ["b"] v1; de ["a"] v0]) /\
  as_nested_tree (legacy_meta [de ["a"; "c"] v1; de ["b"] v1; de ["a"] v0]) = Ok (Node KDict [(dk "a", Node KDict [(dk "c", Leaf v1)]); (dk "b", Leaf v1)]).
Proof. split; [left; reflexivity|vm_compute; reflexivity]. Qed.

(** ** Merging *)

(** What merging gives: the entries of the second metadata and those of the first that it does not
    have, in the common format; nothing is given if the formats differ or, without overwriting, if
    an entry is in both. *)
Theorem C59_merge : forall ow a b m, NoDup (map keypath (entries a)) -> NoDup (map keypath (entries b)) -> merge ow a b = Ok m ->
  same_format a b /\ same_format m a /\ (ow = false -> forall e, In e (entries b) -> ~ In (keypath e) (map keypath (entries a))) /\
  NoDup (map keypath (entries m)) /\
  (forall e, In e (entries m) <-> exists e0, e = reread_entry e0 /\ (In e0 (entries b) \/ (In e0 (entries a) /\ ~ In (keypath e0) (map keypath (entries b))))) /\
  (custom_metadata a = Node KNone [] -> custom_metadata m = custom_metadata b) /\
  (value_metadata_tree a = None -> value_metadata_tree m = value_metadata_tree b).
Proof.
  intros ow a b m NA NB E.
  assert (S : same_format a b) by (destruct (same_format_dec a b) as [S|S]; auto; rewrite format_spec in E by auto; discriminate).
  rewrite format_same in E by auto. rewrite !entries_json_eq in E by auto. change (fun e => (keypath e, entry_json e)) with ejson in E.
  assert (C : ow = true \/ forall e, In e (entries b) -> ~ In (keypath e) (map keypath (entries a))).
  { destruct ow; auto. right. intros e I K. rewrite (merge_entries_clash _ _ e I K) in E. discriminate. }
  destruct (merge_entries_ok ow (entries b) (entries a) NA NB C) as (l & El & NL & HL). rewrite El in E. cbn [rbind] in E. rewrite entries_back' in E. cbn [rbind] in E.
  destruct (merge_custom ow (custom_metadata a) (custom_metadata b)) as [c|] eqn:EC; [|discriminate]. cbn [rbind] in E.
  destruct (merge_value_trees ow (value_metadata_tree a) (value_metadata_tree b)) as [t|] eqn:ET; [|discriminate]. cbn [rbind] in E. injection E as <-.
  split; auto. split; [repeat split|]. split; [intros ->; destruct C as [C|C]; [discriminate|auto]|].
  cbn [entries custom_metadata value_metadata_tree]. split; [rewrite map_map; exact NL|]. split; [|split].
  - intros e. rewrite in_map_iff. split; intros (e0 & H1 & H2); exists e0; split; auto; apply HL; auto.
  - intros X. rewrite X in EC. cbn in EC. injection EC as <-. reflexivity.
  - intros X. rewrite X in ET. cbn in ET. injection ET as <-. reflexivity.
Qed.
Print Assumptions C59_merge.

(** Merging is refused with a ValueError if the formats differ and, without overwriting, if an entry
    is in both. *)
Theorem C59_merge_refused : forall ow a b, NoDup (map keypath (entries a)) -> NoDup (map keypath (entries b)) ->
  ~ same_format a b \/ (ow = false /\ exists e, In e (entries b) /\ In (keypath e) (map keypath (entries a))) -> merge ow a b = Err ValueError.
Proof.
  intros ow a b NA NB [S|(-> & e & I & K)]; [apply format_spec; auto|]. destruct (same_format_dec a b) as [S|S]; [|apply format_spec; auto].
  rewrite format_same by auto. rewrite !entries_json_eq by auto. change (fun e => (keypath e, entry_json e)) with ejson. rewrite (merge_entries_clash _ _ e I K). reflexivity.
Qed.
Print Assumptions C59_merge_refused.

(** It succeeds in all other cases in which at most one of the two has custom metadata and at most
    one a rich tree. *)
Theorem C59_merge_succeeds : forall ow a b, NoDup (map keypath (entries a)) -> NoDup (map keypath (entries b)) -> same_format a b ->
  (ow = true \/ forall e, In e (entries b) -> ~ In (keypath e) (map keypath (entries a))) ->
  (custom_metadata a = Node KNone [] \/ custom_metadata b = Node KNone []) -> (value_metadata_tree a = None \/ value_metadata_tree b = None) ->
  exists m, merge ow a b = Ok m.
Proof.
  intros ow a b NA NB S C CM VT. rewrite format_same by auto. rewrite !entries_json_eq by auto. change (fun e => (keypath e, entry_json e)) with ejson.
  destruct (merge_entries_ok ow (entries b) (entries a) NA NB C) as (l & El & _). rewrite El. cbn [rbind]. rewrite entries_back'. cbn [rbind].
  assert (X : exists c, merge_custom ow (custom_metadata a) (custom_metadata b) = Ok c).
  { unfold merge_custom. destruct CM as [->| ->]; [cbn; eauto|]. rewrite andb_false_r. eauto. }
  destruct X as (c & ->). cbn [rbind].
  assert (Y : exists t, merge_value_trees ow (value_metadata_tree a) (value_metadata_tree b) = Ok t).
  { unfold merge_value_trees. destruct VT as [->| ->]; [eauto|]. destruct (value_metadata_tree a); eauto. }
  destruct Y as (t & ->). eexists. reflexivity.
Qed.
Print Assumptions C59_merge_succeeds.

Definition ma : meta := legacy_meta [de ["a"] v1; de ["b"; "c"] v1].
Definition mb : meta := legacy_meta [de ["b"; "d"] v1; de ["a"] v0].

Example C59_merge_ex : NoDup (map keypath (entries ma)) /\ NoDup (map keypath (entries mb)) /\ same_format ma mb /\
  rmap entries (merge true ma mb) = Ok [de ["a"] v0; de ["b"; "c"] v1; de ["b"; "d"] v1] /\ merge false ma mb = Err ValueError.
Proof.
  split; [|split; [|split; [|split]]]; [| |repeat split|vm_compute; reflexivity|vm_compute; reflexivity];
  (constructor; [intros [E|[]]; vm_compute in E; discriminate E|constructor; [intros []|constructor]]).
Qed.

(** Without overwriting, a leaf of the first metadata is lost when the second one has values below
    it: the keys differ, so nothing is refused, and the tree shows the longer keys only. *)
Theorem C59_lost_leaf_refuted : exists a b m, merge false a b = Ok m /\
  (exists T, as_nested_tree a = Ok T /\ at_path T [dk "x"] (Leaf v1)) /\
  (exists T, as_nested_tree m = Ok T /\ ~ at_path T [dk "x"] (Leaf v1)).
Proof.
  exists (legacy_meta [de ["x"] v1]), (legacy_meta [de ["x"; "y"] v1]). eexists. split; [vm_compute; reflexivity|]. split; (eexists; split; [vm_compute; reflexivity|]).
  - apply at_node. eexists. split; [left; reflexivity|constructor].
  - intros A. paths A.
Qed.
Print Assumptions C59_lost_leaf_refuted.

(** With overwriting, a new leaf is not shown when the old metadata has values below it: the old
    values stay. *)
Theorem C59_hidden_leaf_refuted : exists a b m, merge true a b = Ok m /\
  (exists T, as_nested_tree b = Ok T /\ at_path T [dk "x"] (Leaf v1)) /\
  (exists T, as_nested_tree m = Ok T /\ ~ at_path T [dk "x"] (Leaf v1)).
Proof.
  exists (legacy_meta [de ["x"; "y"] v1]), (legacy_meta [de ["x"] v1]). eexists. split; [vm_compute; reflexivity|]. split; (eexists; split; [vm_compute; reflexivity|]).
  - apply at_node. eexists. split; [left; reflexivity|constructor].
  - intros A. paths A.
Qed.
Print Assumptions C59_hidden_leaf_refuted.

(** Merging a list with a dictionary at the same place succeeds, but the result cannot be shown as
    a tree. *)
Theorem C59_mixed_refuted : exists a b m, (exists T, as_nested_tree a = Ok T) /\ (exists T, as_nested_tree b = Ok T) /\
  merge false a b = Ok m /\ as_nested_tree m = Err TypeError.
Proof.
  exists (legacy_meta [mkE (str_tuple ["x"; "0"]) [("x", DICT); ("0", SEQUENCE)] v1]), (legacy_meta [de ["x"; "y"] v1]). eexists.
  split; [eexists; vm_compute; reflexivity|]. split; [eexists; vm_compute; reflexivity|]. split; vm_compute; reflexivity.
Qed.
Print Assumptions C59_mixed_refuted.

(** An empty dictionary as custom metadata is turned into nothing by merging. *)
Theorem C59_empty_custom_refuted : exists a b m, custom_metadata a = Node KDict [] /\ custom_metadata b = Node KNone [] /\ merge false a b = Ok m /\ custom_metadata m = Node KNone [].
Proof.
  exists (mkM [de ["x"] v1] (Some true) false (Node KDict []) false false None), (legacy_meta [de ["y"] v1]). eexists.
  split; [reflexivity|]. split; [reflexivity|]. split; vm_compute; reflexivity.
Qed.
Print Assumptions C59_empty_custom_refuted.

(** With rich types, when only one of the two has a tree, the entries of the other are in the merged
    metadata but are not shown. *)
Theorem C59_one_tree_refuted : exists a b m, same_format a b /\ merge false a b = Ok m /\
  (exists T, as_nested_tree b = Ok T /\ at_path T [dk "y"] (Leaf v1)) /\
  (exists T, as_nested_tree m = Ok T /\ ~ at_path T [dk "y"] (Leaf v1)).
Proof.
  exists (mkM [de ["x"] v1] (Some true) false (Node KNone []) false true (Some (Node KDict [(dk "x", Leaf v1)]))),
         (mkM [de ["y"] v1] (Some true) false (Node KNone []) false true None). eexists.
  split; [repeat split|]. split; [vm_compute; reflexivity|]. split; (eexists; split; [vm_compute; reflexivity|]).
  - apply at_node. eexists. split; [left; reflexivity|constructor].
  - intros A. paths A.
Qed.
Print Assumptions C59_one_tree_refuted.

(** ** The metadata shown to the user *)

(** Each leaf gets the answer of the handler of its type for this leaf, whatever other types and
    leaves there are and however the handlers are asked in batches; leaves that are not stored get
    what stands for them. *)
Theorem C59_custom : forall {A : Type} (registry : string -> result (list param -> result (list A))) answer m is_ocdbt ref,
  as_nested_tree m = Ok ref -> wf ref -> (exists p v, at_path ref p (Leaf v)) ->
  (forall p v, at_path ref p (Leaf v) -> skip_deserialize v = false -> exists h, registry (value_type v) = Ok h /\ forall ps, h ps = Ok (map (answer (value_type v)) ps)) ->
  exists f ref', peq ref ref' /\ as_custom_metadata registry m is_ocdbt = Ok (with_leaves f ref') /\
  forall p v, at_path ref p (Leaf v) -> shown_for answer m is_ocdbt p v (f p).
Proof.
  intros A registry answer m is_ocdbt ref E W X R. destruct (custom_ok registry answer m is_ocdbt ref E W X R) as (f & H1 & H2). exists f, (norm ref). split; [apply peq_norm|]. auto.
Qed.
Print Assumptions C59_custom.

Definition reg (ty : string) : result (list param -> result (list (string * string))) :=
  if ty =? "bad" then Err ValueError else Ok (fun ps => Ok (map (fun p => (ty, p_name p)) ps)).
Definition mixed : meta := legacy_meta [de ["a"; "x"] v1; de ["b"] (mkV "int" false None); de ["c"] v1; de ["d"] v0; de ["e"] (mkV "custom" true None)].

Example C59_custom_ex : (exists ref, as_nested_tree mixed = Ok ref /\ wf ref /\ forall p v, at_path ref p (Leaf v) -> skip_deserialize v = false ->
    exists h, reg (value_type v) = Ok h /\ forall ps, h ps = Ok (map (fun p => (value_type v, p_name p)) ps)) /\
  as_custom_metadata reg mixed true =
  Ok (Node KDict [(dk "a", Node KDict [(dk "x", Leaf (Handled ("jax.Array", "a.x")))]); (dk "b", Leaf (Handled ("int", "b"))); (dk "c", Leaf (Handled ("jax.Array", "c")));
                  (dk "d", Node KDict []); (dk "e", Leaf (Plain "e"))]).
Proof.
  split; [|vm_compute; reflexivity]. eexists. split; [vm_compute; reflexivity|]. split.
  - assert (N : forall l : list string, NoDup l -> NoDup (map dk l)) by (intros l H; apply FinFun.Injective_map_NoDup; [intros a b E; injection E; auto|auto]).
    assert (S : forall l : list string, (forall x, In x (map dk l) -> exists s, x = DictKey (KStr s))) by (intros l x X; apply in_map_iff in X as (s & <- & _); eexists; reflexivity).
    constructor; [split; [apply (N ["a"; "b"; "c"; "d"; "e"])|left; apply (S ["a"; "b"; "c"; "d"; "e"])]|].
    + repeat (constructor; [simpl; intuition discriminate|]). constructor.
    + constructor; [|repeat (constructor; [constructor|]); constructor]. constructor; [split; [apply (N ["x"])|left; apply (S ["x"])]|constructor; constructor].
      constructor; [intros []|constructor].
  - intros p v H S. paths H; try discriminate S; eexists; (split; [reflexivity|]); intros ps; reflexivity.
Qed.

(** ** The pytree of metadata *)

(** Flattening and unflattening gives the tree and all else back. *)
Theorem C59_unflatten : forall {V : Type} (t : tree V) custom zarr3, wf t -> (forall cs, t <> Node KNone cs) ->
  (forall cs, t = Node KDict cs -> forall x, In x (map fst cs) -> exists s, x = DictKey (KStr s)) ->
  exists l a a', tree_flatten t custom zarr3 = Ok (l, a) /\ tree_unflatten a l = Ok (t, a') /\ a_custom a' = custom /\ a_zarr3 a' = zarr3.
Proof. intros V t custom zarr3 W N D. destruct (unflatten_ok t custom zarr3 W N D) as (l & a & H1 & H2). exists l, a. eexists. split; [exact H1|]. split; [exact H2|]. auto. Qed.
Print Assumptions C59_unflatten.

Example C59_unflatten_ex : rbind (tree_flatten state (Node KNone []) true) (fun x => rmap fst (tree_unflatten (snd x) (fst x))) = Ok state.
Proof. vm_compute. reflexivity. Qed.

(** What describes the flattened tree is used up: unflattening a second time with it raises a
    KeyError, though jax hands the same description to each use of one tree structure. *)
Theorem C59_twice_refuted : exists (t : tree vmeta) l a a', tree_flatten t (Node KNone []) false = Ok (l, a) /\
  tree_unflatten a l = Ok (t, a') /\ tree_unflatten a' l = Err KeyError.
Proof. exists (Node KDict [(dk "x", Leaf v1)]). do 3 eexists. split; [reflexivity|]. split; vm_compute; reflexivity. Qed.
Print Assumptions C59_twice_refuted.

(** Integer keys of the outermost dictionary come back as strings, and two keys may become one. *)
Theorem C59_integer_keys_refuted : exists (t : tree vmeta) l a t' a', wf t /\ tree_flatten t (Node KNone []) false = Ok (l, a) /\
  tree_unflatten a l = Ok (t', a') /\ ~ at_path t' [DictKey (KInt 7)] (Leaf v1).
Proof.
  exists (Node KDict [(DictKey (KInt 7), Leaf v1)]). do 4 eexists. split.
  { constructor; [|constructor; [constructor|constructor]]. split; [constructor; [intros []|constructor]|right; intros x [<-|[]]; eexists; reflexivity]. }
  split; [reflexivity|]. split; [vm_compute; reflexivity|]. intros A. paths A.
Qed.
Print Assumptions C59_integer_keys_refuted.
