(** C61: a checkpoint saved in parts. *)
From Coq Require Import List Bool Arith NArith ZArith String Ascii.
From Verif Require Import Base StepName_Model Tree_Model Tree_Spec Merge_Model RichMeta_Model RichMeta_Spec TreeMeta_Model TreeMeta_Spec Partial_Model Partial_Spec Partial_Proofs.
Import ListNotations.
Open Scope string_scope.

Definition dk (s : string) : key := DictKey (KStr s).
Definition arr : tree pinfo := Leaf (mkP (Some "jax.Array") (Some [2])).
Definition num : tree pinfo := Leaf (mkP (Some "int") None).
Definition F : format := mkF true false.
Definition m_arr : vmeta := mkV "jax.Array" false (Some [2]).
Definition m_num : vmeta := mkV "int" false None.
Definition one (s : string) (t : tree pinfo) : tree pinfo := Node KDict [(dk s, t)].

(** The names of a session: whether the name of the checkpoint or of the session is given, the same
    checkpoint is finalized from the directory that the saves wrote to. *)
Theorem C61_paths : forall n, ~ (exists m, n = m ++ ".partial_save") ->
  session_paths n = (n, n ++ ".partial_save") /\ session_paths (n ++ ".partial_save") = (n, n ++ ".partial_save") /\
  add_partial_save_suffix n = n ++ ".partial_save".
Proof.
  intros n H. unfold session_paths. destruct (is_partial_save_path n) eqn:E; [apply is_partial_spec in E; contradiction|]. split; [reflexivity|]. change (n ++ ".partial_save") with (add_partial_save_suffix n).
  rewrite Partial_Proofs.suffix_added, Partial_Proofs.suffix_removed. auto.
Qed.
Print Assumptions C61_paths.

Example C61_paths_ex : ~ (exists m, "ckpt" = m ++ ".partial_save") /\ session_paths "ckpt.partial_save" = ("ckpt", "ckpt.partial_save").
Proof. split; [|vm_compute; reflexivity]. intros H. apply Partial_Proofs.is_partial_spec in H. vm_compute in H. discriminate. Qed.

(** FINDING: saving to a path whose own name ends with ".partial_save" adds the suffix once more,
    but finalizing the same path takes the suffix away: it looks for a session the saves did not
    write to and would finalize that one, under another name. *)
Theorem C61_paths_refuted : exists n, snd (session_paths n) <> add_partial_save_suffix n /\ fst (session_paths n) <> n.
Proof. exists "ckpt.partial_save". split; vm_compute; discriminate. Qed.
Print Assumptions C61_paths_refuted.

(** The identifier of a save is read back from the name of its directory. *)
Theorem C61_uuid : forall source t u, ~ In "_"%char (list_ascii_of_string u) -> get_uuid_from_pending_dir_name (get_pending_dir_name source t u) = u.
Proof. exact Partial_Proofs.uuid_ok. Qed.
Print Assumptions C61_uuid.

Example C61_uuid_ex : ~ In "_"%char (list_ascii_of_string "9f1c") /\ get_pending_dir_name "my_ckpt.partial_save" 1700 "9f1c" = "my_ckpt.partial_save.pending_1700_9f1c".
Proof. split; [vm_compute; intuition discriminate|vm_compute; reflexivity]. Qed.

(** Sorting the names of the saves sorts them by time, as long as the times have the same number
    of digits. *)
Theorem C61_order : forall source t1 t2 u1 u2, List.length (dec t1) = List.length (dec t2) -> (t1 < t2)%N ->
  String.compare (get_pending_dir_name source t1 u1) (get_pending_dir_name source t2 u2) = Lt.
Proof. exact Partial_Proofs.pending_order. Qed.
Print Assumptions C61_order.

Example C61_order_ex : List.length (dec 1700000000000000009) = List.length (dec 1700000000000000010) /\
  String.compare (get_pending_dir_name "c" 1700000000000000009 "ff") (get_pending_dir_name "c" 1700000000000000010 "00") = Lt.
Proof. vm_compute. auto. Qed.

(** The text of a key is read back as the key. *)
Theorem C61_literal : forall l, literal_tuple (str_tuple l) = Some l.
Proof. exact Partial_Proofs.literal_ok. Qed.
Print Assumptions C61_literal.

Example C61_literal_ex : literal_tuple "('a', ""it's"", '\n')" = Some ["a"; "it's"; String "010"%char ""] /\ literal_tuple "('a',)" = Some ["a"] /\
  literal_tuple "('a')" = None /\ literal_tuple "a.b" = None.
Proof. vm_compute. auto. Qed.

(** A key goes exactly when another key extends it. *)
Theorem C61_filter : forall (d : list (string * json)) k j, (forall x, In x d -> exists l, fst x = str_tuple l) ->
  (In (k, j) (filter_conflicting_keys d) <-> In (k, j) d /\ forall l l' j', k = str_tuple l -> In (str_tuple l', j') d -> ~ extends l' l).
Proof.
  intros d k j H. unfold filter_conflicting_keys. rewrite filter_In. split; intros [I G]; (split; [auto|]).
  - intros l l' j' -> I' E. apply negb_true_iff in G. assert (X : existsb (fun y => hides (str_tuple l) (fst y)) d = true); [|cbn [fst] in G; congruence].
    apply existsb_exists. exists (str_tuple l', j'). split; auto. cbn [fst]. unfold hides. rewrite !Partial_Proofs.literal_ok. apply Partial_Proofs.is_prefix_spec. auto.
  - apply negb_true_iff. destruct (existsb _ d) eqn:X; auto. apply existsb_exists in X as ([k' j'] & I' & X). cbn [fst] in X. destruct (H _ I) as (l & L). destruct (H _ I') as (l' & L'). cbn [fst] in L, L'. subst k k'.
    exfalso. apply (G l l' j' eq_refl I'). unfold hides in X. rewrite !Partial_Proofs.literal_ok in X. apply Partial_Proofs.is_prefix_spec in X. auto.
Qed.
Print Assumptions C61_filter.

Example C61_filter_ex : exists d : list (string * json), (forall x, In x d -> exists l, fst x = str_tuple l) /\
  map fst (filter_conflicting_keys d) = ["('ab',)"; "('a', 'b')"] /\ map fst d = ["('a',)"; "('ab',)"; "('a', 'b')"].
Proof.
  exists [(str_tuple ["a"], Leaf (SInt 1)); (str_tuple ["ab"], Leaf (SInt 2)); (str_tuple ["a"; "b"], Leaf (SInt 3))]. split; [|vm_compute; auto].
  intros x [<-|[<-|[<-|[]]]]; eexists; reflexivity.
Qed.

(** Every request for a value of the item is kept, once: the additions are the values of the item. *)
Theorem C61_requests : forall {A : Type} (item : tree pinfo) (requests : list (list (list string * A))), wf item ->
  (forall r x, In r requests -> In x r -> has_value item (fst x)) -> (forall r, In r requests -> r <> []) ->
  filter_batch_requests requests (map fst (to_flat_dict false item)) = requests.
Proof. intros A. exact Partial_Proofs.requests_ok. Qed.
Print Assumptions C61_requests.

Definition two : tree pinfo := Node KDict [(dk "a", Node KList [(SequenceKey 0, arr); (SequenceKey 1, num)]); (dk "a0", arr)].

Lemma two_wf : wf two.
Proof.
  constructor; [split; [constructor; [intros [E|[]]; discriminate E|constructor; [intros []|constructor]]|left; intros x [<-|[<-|[]]]; eexists; reflexivity]|].
  constructor; [|constructor; [constructor|constructor]]. constructor; [reflexivity|]. constructor; [constructor|constructor; [constructor|constructor]].
Qed.

Example C61_requests_ex : wf two /\ (forall r x, In r [[(["a"; "0"], 1); (["a0"], 2)]; [(["a"; "1"], 3)]] -> In x r -> has_value two (fst x)) /\
  filter_batch_requests [[(["a"; "0"], 1); (["a0"], 2)]; [(["a"; "1"], 3)]] [["a"; "0"]; ["a"; "1"]; ["a0"]] = [[(["a"; "0"], 1); (["a0"], 2)]; [(["a"; "1"], 3)]] /\
  map fst (to_flat_dict false two) = [["a"; "0"]; ["a"; "1"]; ["a0"]].
Proof.
  split; [exact two_wf|]. split; [|split; vm_compute; reflexivity]. intros r x [<-|[<-|[]]] X.
  - destruct X as [<-|[<-|[]]]; [exists [dk "a"; SequenceKey 0]|exists [dk "a0"]]; eexists; (split; [|reflexivity]).
    + eapply at_child; [left; reflexivity|]. eapply at_child; [left; reflexivity|]. constructor.
    + eapply at_child; [right; left; reflexivity|]. constructor.
  - destruct X as [<-|[]]. exists [dk "a"; SequenceKey 1]. eexists. split; [|reflexivity]. eapply at_child; [left; reflexivity|]. eapply at_child; [right; left; reflexivity|]. constructor.
Qed.

(** Which saves of a session are accepted: exactly those with something in them and no value whose
    key is, or extends, or is extended by a key of an earlier accepted save; the others leave the
    session as it was. *)
Theorem C61_session : forall f items, (forall t, In t items -> savable t) ->
  exists all, decided [] items (snd (session [] (map (pair f) items))) all.
Proof. intros f items H. destruct (Partial_Proofs.session_ok f items [] ltac:(intros t []) H) as (all & D & _). exists all. exact D. Qed.
Print Assumptions C61_session.

Definition s1 : tree pinfo := Node KDict [(dk "params", one "w" arr); (dk "step", num)].
Definition s2 : tree pinfo := one "params" (one "b" arr).
Definition s3 : tree pinfo := one "params" arr.

Lemma leaf_sav : forall i, value_typestr i <> None -> savable (Leaf i).
Proof. intros i N. split; [constructor|]. intros p j A. inversion A; subst. auto. Qed.

Lemma empty_sav : savable (Node KDict []).
Proof. split; [constructor; [split; [constructor|left; intros x []]|constructor]|]. intros p i A. inversion A; subst. contradiction. Qed.

Lemma one_sav : forall s t, savable t -> savable (one s t).
Proof.
  intros s t [W T]. split.
  - constructor; [split; [constructor; [intros []|constructor]|left; intros x [<-|[]]; eexists; reflexivity]|constructor; [exact W|constructor]].
  - intros p i A. destruct p as [|x p]; [inversion A|]. apply Merge_Proofs.at_node in A as (c & [I|[]] & A). injection I as <- <-. apply (T p i A).
Qed.

Lemma both_sav : forall s t s' t', s <> s' -> savable t -> savable t' -> savable (Node KDict [(dk s, t); (dk s', t')]).
Proof.
  intros s t s' t' N [W T] [W' T']. split.
  - constructor; [split; [constructor; [intros [E|[]]; apply N; cbn in E; unfold dk in E; congruence|constructor; [intros []|constructor]]|left; intros x [<-|[<-|[]]]; eexists; reflexivity]|constructor; [exact W|constructor; [exact W'|constructor]]].
  - intros p i A. destruct p as [|x p]; [inversion A|]. apply Merge_Proofs.at_node in A as (c & [I|[I|[]]] & A); injection I as <- <-; [apply (T p i A)|apply (T' p i A)].
Qed.

Lemma empty_sd : string_dicts (Node KDict [] : tree pinfo).
Proof. constructor. constructor. Qed.

Lemma one_sd : forall s t, string_dicts t -> string_dicts (one s t).
Proof. intros s t S. constructor. constructor; [split; [eexists; reflexivity|exact S]|constructor]. Qed.

Lemma both_sd : forall s (t : tree pinfo) s' t', string_dicts t -> string_dicts t' -> string_dicts (Node KDict [(dk s, t); (dk s', t')]).
Proof. intros s t s' t' S S'. constructor. constructor; [split; [eexists; reflexivity|exact S]|constructor; [split; [eexists; reflexivity|exact S']|constructor]]. Qed.

Lemma one_full : forall s t, full t -> full (one s t).
Proof. intros s t U. constructor; [discriminate|]. constructor; [exact U|constructor]. Qed.

Lemma s1_ok : savable s1 /\ full s1 /\ string_dicts s1.
Proof.
  split; [apply both_sav; [discriminate|apply one_sav|]; apply leaf_sav; discriminate|]. split; [|apply both_sd; [apply one_sd|]; constructor].
  constructor; [discriminate|]. constructor; [apply one_full; constructor|constructor; [constructor|constructor]].
Qed.

Lemma s2_ok : savable s2 /\ full s2 /\ string_dicts s2.
Proof. split; [apply one_sav, one_sav, leaf_sav; discriminate|]. split; [apply one_full, one_full; constructor|apply one_sd, one_sd; constructor]. Qed.

Lemma s3_ok : savable s3 /\ full s3 /\ string_dicts s3.
Proof. split; [apply one_sav, leaf_sav; discriminate|]. split; [apply one_full; constructor|apply one_sd; constructor]. Qed.

Example C61_session_ex : (forall t, In t [s1; s2; s3; Node KDict []; s2] -> savable t) /\
  snd (session [] (map (pair F) [s1; s2; s3; Node KDict []; s2])) = [Ok tt; Ok tt; Err OtherError; Err ValueError; Err OtherError].
Proof.
  split; [|vm_compute; reflexivity]. intros t [<-|[<-|[<-|[<-|[<-|[]]]]]]; try apply s1_ok; try apply s2_ok; try apply s3_ok. apply empty_sav.
Qed.

(** Saves of nested dictionaries in which nothing is saved twice: the finalized checkpoint has what
    the accepted saves had, an empty node only if nothing else is below it. *)
Theorem C61_finalized : forall f items rs all, decided [] items rs all -> all <> [] ->
  (forall t, In t items -> savable t /\ string_dicts t) -> separate all ->
  exists T, finalized_tree (fst (session [] (map (pair f) items))) = Ok T /\
  forall p w, at_path T p (Leaf w) <-> exists item, In item all /\ describes_at item p w /\
    forall other q v, In other all -> describes_at other q v -> ~ extends q p.
Proof.
  intros f items rs all D NE H S. destruct (Partial_Proofs.session_ok f items [] ltac:(intros t []) ltac:(intros t T; apply H; auto)) as (all' & D' & E & _).
  destruct (Partial_Proofs.decided_fun _ _ _ _ D _ _ D') as [_ <-]. cbn [map] in E. rewrite E. apply Partial_Proofs.finalized_ok; auto.
  destruct (Partial_Proofs.decided_order _ _ _ _ D) as [_ M]; [intros l1 a l2 b l3 x y X; destruct l1; discriminate|]. intros t T. destruct (M t T) as [[]|X]. auto.
Qed.
Print Assumptions C61_finalized.

(** Saves of nested dictionaries without empty nodes: the finalized checkpoint has exactly the
    values of the accepted saves. *)
Theorem C61_union : forall f items rs all, decided [] items rs all -> all <> [] ->
  (forall t, In t items -> savable t /\ full t /\ string_dicts t) ->
  exists T, finalized_tree (fst (session [] (map (pair f) items))) = Ok T /\
  forall p w, at_path T p (Leaf w) <-> exists item i v, In item all /\ at_path item p (Leaf i) /\ written i v /\ w = reread_value v.
Proof.
  intros f items rs all D NE H. destruct (Partial_Proofs.session_ok f items [] ltac:(intros t []) ltac:(intros t T; apply H; auto)) as (all' & D' & E & _).
  destruct (Partial_Proofs.decided_fun _ _ _ _ D _ _ D') as [_ <-]. cbn [map] in E. rewrite E. apply (Partial_Proofs.union_ok f items rs); auto.
Qed.
Print Assumptions C61_union.

Example C61_union_ex : (forall t, In t [s1; s2; s3] -> savable t /\ full t /\ string_dicts t) /\ decided [] [s1; s2; s3] [Ok tt; Ok tt; Err OtherError] [s1; s2] /\
  finalized_tree (fst (session [] (map (pair F) [s1; s2; s3]))) =
  Ok (Node KDict [(dk "params", Node KDict [(dk "b", Leaf m_arr); (dk "w", Leaf m_arr)]); (dk "step", Leaf m_num)]).
Proof.
  assert (H : forall t, In t [s1; s2; s3] -> savable t /\ full t /\ string_dicts t) by (intros t [<-|[<-|[<-|[]]]]; [apply s1_ok|apply s2_ok|apply s3_ok]).
  split; [exact H|]. split; [|vm_compute; reflexivity]. destruct (C61_session F [s1; s2; s3] ltac:(intros t T; apply H; auto)) as (all & D).
  assert (R : snd (session [] (map (pair F) [s1; s2; s3])) = [Ok tt; Ok tt; Err OtherError]) by (vm_compute; reflexivity). rewrite R in D.
  inversion D; subst. match goal with X : decided _ _ [Ok tt; _] _ |- _ => inversion X; subst end. match goal with X : decided _ _ [Err OtherError] _ |- _ => inversion X; subst end.
  match goal with X : decided _ [] [] _ |- _ => inversion X; subst end. exact D.
Qed.

Example C61_finalized_ex : exists a b, separate [a; b] /\ decided [] [a; b] [Ok tt; Ok tt] [a; b] /\
  finalized_tree (fst (session [] (map (pair F) [a; b]))) = Ok (Node KDict [(dk "a", Leaf (mkV "Dict" true None)); (dk "b", Leaf m_num)]).
Proof.
  exists (one "a" (Node KDict [])), (one "b" num). split; [|split; [|vm_compute; reflexivity]].
  - intros l1 a l2 b l3 p v w E A B.
    assert (X : l1 = [] /\ l2 = [] /\ l3 = [] /\ a = one "a" (Node KDict []) /\ b = one "b" num).
    { destruct l1 as [|? l1]; cbn [app] in E.
      - injection E as <- E. destruct l2 as [|? l2]; cbn [app] in E; [injection E as <- <-; auto|]. injection E as _ E. destruct l2; discriminate.
      - injection E as _ E. destruct l1 as [|? l1]; cbn [app] in E; injection E as _ E; [destruct l2|destruct l1]; discriminate. }
    destruct X as (_ & _ & _ & -> & ->).
    assert (P : exists q, p = dk "a" :: q). { destruct A as [(i & u & A & _)|(k & ty & A & _)]; (destruct p as [|x q]; [inversion A|]); apply Merge_Proofs.at_node in A as (c & [I|[]] & _); inversion I; eauto. }
    destruct P as (q & ->). destruct B as [(i & u & B & _)|(k & ty & B & _)]; apply Merge_Proofs.at_node in B as (c & [I|[]] & _); inversion I.
  - destruct (C61_session F [one "a" (Node KDict []); one "b" num]) as (all & D).
    { intros t [<-|[<-|[]]]; [apply one_sav, empty_sav|apply one_sav, leaf_sav; discriminate]. }
    assert (R : snd (session [] (map (pair F) [one "a" (Node KDict []); one "b" num])) = [Ok tt; Ok tt]) by (vm_compute; reflexivity). rewrite R in D.
    inversion D; subst. match goal with X : decided _ _ [Ok tt] _ |- _ => inversion X; subst end. match goal with X : decided _ [] [] _ |- _ => inversion X; subst end. exact D.
Qed.

(** FINDING: empty nodes of a save are not compared with the earlier saves, so a later empty
    dictionary replaces an earlier value although replacements are refused: the metadata of the
    finalized checkpoint says that there is an empty dictionary and the array, written before, cannot
    be reached any more. *)
Theorem C61_replaced_refuted : exists a b, (forall t, In t [a; b] -> savable t /\ string_dicts t) /\
  snd (session [] (map (pair F) [a; b])) = [Ok tt; Ok tt] /\ (exists i, at_path a [dk "w"] (Leaf i) /\ value_typestr i = Some "jax.Array") /\
  exists T, finalized_tree (fst (session [] (map (pair F) [a; b]))) = Ok T /\ forall v, at_path T [dk "w"] (Leaf v) -> value_type v = "Dict" /\ skip_deserialize v = true.
Proof.
  exists (one "w" arr), (Node KDict [(dk "w", Node KDict []); (dk "step", num)]). split; [|split; [vm_compute; reflexivity|]].
  - intros t [<-|[<-|[]]]; split.
    + apply one_sav, leaf_sav; discriminate.
    + apply one_sd; constructor.
    + apply both_sav; [discriminate|apply empty_sav|apply leaf_sav; discriminate].
    + apply both_sd; [apply empty_sd|constructor].
  - split; [eexists; split; [eapply at_child; [left; reflexivity|constructor]|reflexivity]|].
    eexists. split; [vm_compute; reflexivity|]. intros v A. apply Merge_Proofs.at_node in A as (c & [I|[I|[]]] & A); inversion I; subst; inversion A; subst; auto.
Qed.
Print Assumptions C61_replaced_refuted.

(** FINDING: an empty node below an earlier value removes that value from the metadata when the
    session is finalized: both saves are accepted and the array is lost. *)
Theorem C61_dropped_refuted : exists a b, (forall t, In t [a; b] -> savable t /\ string_dicts t) /\
  snd (session [] (map (pair F) [a; b])) = [Ok tt; Ok tt] /\ (exists i, at_path a [dk "w"] (Leaf i)) /\
  exists T, finalized_tree (fst (session [] (map (pair F) [a; b]))) = Ok T /\ forall v, ~ at_path T [dk "w"] (Leaf v).
Proof.
  exists (one "w" arr), (one "w" (one "cache" (Node KDict []))). split; [|split; [vm_compute; reflexivity|]].
  - intros t [<-|[<-|[]]]; split.
    + apply one_sav, leaf_sav; discriminate.
    + apply one_sd; constructor.
    + apply one_sav, one_sav, empty_sav.
    + apply one_sd, one_sd, empty_sd.
  - split; [eexists; eapply at_child; [left; reflexivity|constructor]|].
    eexists. split; [vm_compute; reflexivity|]. intros v A. apply Merge_Proofs.at_node in A as (c & [I|[]] & A); inversion I; subst; inversion A.
Qed.
Print Assumptions C61_dropped_refuted.

(** FINDING: an empty dictionary of an earlier save cannot be filled by a later one: the value below
    it is refused as a replacement, although nothing was saved there. *)
Theorem C61_filled_refuted : exists a b, (forall p i, ~ at_path a p (Leaf i)) /\
  snd (session [] (map (pair F) [a; b])) = [Ok tt; Err OtherError].
Proof.
  exists (one "cache" (Node KDict [])), (one "cache" (one "k" arr)). split; [|vm_compute; reflexivity].
  intros p i A. destruct p as [|x p]; [inversion A|]. apply Merge_Proofs.at_node in A as (c & [I|[]] & A); inversion I; subst. inversion A; subst; contradiction.
Qed.
Print Assumptions C61_filled_refuted.

(** FINDING: a list in one save and a dictionary in another may meet in one place, since only the
    names of the keys are compared; both saves are accepted and the metadata of the finalized
    checkpoint cannot be read as a tree. *)
Theorem C61_mixed_refuted : exists a b, snd (session [] (map (pair F) [a; b])) = [Ok tt; Ok tt] /\
  finalized_tree (fst (session [] (map (pair F) [a; b]))) = Err TypeError.
Proof. exists (one "layers" (Node KList [(SequenceKey 0, arr)])), (one "layers" (one "head" arr)). vm_compute. auto. Qed.
Print Assumptions C61_mixed_refuted.

(** FINDING: the format of a save is not compared with the one before it (the merge that compares
    formats needs two earlier saves): a save in zarr3 after one in zarr2 is accepted, the finalized
    checkpoint is marked as zarr3 throughout, and the array of the first save is looked for in the
    wrong format; only a third save is refused, whatever its format. *)
Theorem C61_format_refuted : exists a b c, snd (session [] [(mkF true false, a); (mkF true true, b); (mkF true true, c)]) = [Ok tt; Ok tt; Err ValueError] /\
  snd (session [] [(mkF true false, a); (mkF true true, b); (mkF true false, c)]) = [Ok tt; Ok tt; Err ValueError] /\
  exists m, rbind (merge_all_metadata (fst (session [] [(mkF true false, a); (mkF true true, b)]))) (fun d => from_json d false) = Ok m /\ use_zarr3 m = true /\
    exists e, In e (entries m) /\ map fst (key_metadata e) = ["a"].
Proof.
  exists (one "a" arr), (one "b" arr), (one "c" arr). split; [vm_compute; reflexivity|]. split; [vm_compute; reflexivity|]. eexists. split; [vm_compute; reflexivity|]. split; [reflexivity|].
  eexists. split; [left; reflexivity|reflexivity].
Qed.
Print Assumptions C61_format_refuted.

(** A value of the custom metadata that two saves have is the one of the later save; values under other names are kept. *)
Theorem C61_custom : forall a b c d,
  merge_checkpoint_metadata (pdict [("custom_metadata", pdict [("run", jstr a); ("user", jstr c)])]) (pdict [("custom_metadata", pdict [("run", jstr b); ("seed", jstr d)])]) =
  Ok (pdict [("custom_metadata", pdict [("run", jstr b); ("user", jstr c); ("seed", jstr d)])]).
Proof. intros a b c d. vm_compute. reflexivity. Qed.
Print Assumptions C61_custom.

(** FINDING: the custom metadata of the saves is merged as a tree: two saves with lists of different
    lengths under one name are accepted, but the merge fails, and with it every attempt to finalize
    the session. *)
Theorem C61_custom_refuted : exists a b, merge_checkpoint_metadata (pdict [("custom_metadata", pdict [("tags", a)])]) (pdict [("custom_metadata", pdict [("tags", b)])]) = Err ValueError.
Proof. exists (plist [jstr "x"]), (plist [jstr "x"; jstr "y"]). vm_compute. reflexivity. Qed.
Print Assumptions C61_custom_refuted.
