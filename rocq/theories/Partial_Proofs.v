(** Proofs about checkpoints saved in parts. *)
From Coq Require Import List Bool Arith NArith ZArith String Ascii Permutation Lia.
From Verif Require Import Base StepName_Model StepName_Proofs Tree_Model Tree_Spec Tree_Proofs Parts_Model Merge_Model Merge_Proofs RichMeta_Model RichMeta_Spec RichMeta_Proofs
  TreeMeta_Model TreeMeta_Spec TreeMeta_Proofs Partial_Model Partial_Spec.
Import ListNotations.
Open Scope string_scope.

(** ** Keys written as text *)

Lemma chars_one : forall q c r, is_quote q -> literal_chars q (repr_char q c ++ r) = match literal_chars q r with Some (s, t) => Some (c :: s, t) | None => None end.
Proof. intros q c r [->| ->]; destruct c as [[] [] [] [] [] [] [] []]; reflexivity. Qed.

Lemma chars_all : forall q l r, is_quote q -> literal_chars q (flat_map (repr_char q) l ++ q :: r) = Some (l, r).
Proof.
  intros q l r Q. induction l as [|c l IH]; cbn [flat_map].
  - cbn [app literal_chars]. rewrite Ascii.eqb_refl. reflexivity.
  - rewrite <- app_assoc, chars_one, IH by auto. reflexivity.
Qed.

Lemma string_ok : forall s r, literal_string (repr s ++ r) = Some (s, r).
Proof.
  intros s r. unfold repr. set (q := quote_for (list_ascii_of_string s)). assert (Q : is_quote q) by apply quote_quote. cbn [app literal_string].
  assert (E : Ascii.eqb q "'"%char || Ascii.eqb q """"%char = true) by (destruct Q as [->| ->]; reflexivity). rewrite E. rewrite <- app_assoc. cbn [app].
  rewrite chars_all by auto. rewrite string_of_list_ascii_of_string. reflexivity.
Qed.

Lemma repr_two : forall s r, exists q c u, (repr s ++ r)%list = q :: c :: u.
Proof.
  intros s r. unfold repr. cbn [app]. destruct (flat_map (repr_char (quote_for (list_ascii_of_string s))) (list_ascii_of_string s)) as [|c l]; cbn [app]; eauto.
Qed.

Lemma items_ok : forall l s n, (List.length l < n)%nat -> literal_items n (repr s ++ tail_items l) = Some (s :: l).
Proof.
  induction l as [|t l IH]; intros s [|n] L; cbn [List.length] in L; try lia; cbn [literal_items]; rewrite string_ok; cbn [tail_items].
  - reflexivity.
  - cbn [app]. assert (X : (Ascii.eqb ","%char ","%char && Ascii.eqb " "%char " "%char) = true) by reflexivity. rewrite X. rewrite IH by lia. reflexivity.
Qed.

Lemma tail_length : forall l, (List.length l < List.length (tail_items l))%nat.
Proof. induction l as [|s l IH]; cbn [tail_items List.length]; [lia|]. cbn [app List.length]. rewrite app_length. lia. Qed.

Theorem literal_ok : forall l, literal_tuple (str_tuple l) = Some l.
Proof.
  intros l. unfold literal_tuple, str_tuple. rewrite list_ascii_of_string_of_list_ascii. destruct l as [|s [|t l]].
  - reflexivity.
  - cbn [app]. assert (X : Ascii.eqb "("%char "("%char = true) by reflexivity. rewrite X. destruct (repr_two s [","%char; ")"%char]) as (q & c & u & E). rewrite E. rewrite <- E, string_ok. reflexivity.
  - cbv iota. rewrite repr_items_tail. assert (Y : Ascii.eqb "("%char "("%char = true) by reflexivity. rewrite Y. destruct (repr_two s (tail_items (t :: l))) as (q & c & u & E). rewrite E. rewrite <- E, string_ok.
    cbn [tail_items app]. destruct (repr_two t (tail_items l)) as (q' & c' & u' & E'). rewrite E'. rewrite <- E'.
    assert (Z : (Ascii.eqb ","%char ","%char && Ascii.eqb " "%char " "%char) = true) by reflexivity. rewrite Z. rewrite items_ok; [reflexivity|].
    rewrite app_length. assert (H := tail_length l). lia.
Qed.

(** ** Prefixes *)

Lemma is_prefix_spec : forall a b, is_prefix a b = true <-> extends b a.
Proof.
  intros a b. unfold is_prefix. rewrite andb_true_iff, Nat.ltb_lt. split.
  - intros [L E]. destruct (names_eqb_spec (firstn (List.length a) b) a) as [F|]; [|discriminate]. exists (skipn (List.length a) b). split.
    + intros S. assert (X := firstn_skipn (List.length a) b). rewrite S, app_nil_r in X. rewrite X in F. subst b. lia.
    + rewrite <- F at 1. symmetry. apply firstn_skipn.
  - intros (r & N & ->). rewrite app_length. split; [destruct r; [congruence|cbn [List.length]; lia]|].
    rewrite firstn_app, firstn_all, Nat.sub_diag, firstn_O, app_nil_r. destruct (names_eqb_spec a a); congruence.
Qed.

Lemma replaces_spec : forall l k, replaces l k = true <-> exists t, In t l /\ conflict k t.
Proof.
  intros l k. unfold replaces, conflict. rewrite orb_true_iff, !existsb_exists. split.
  - intros [(t & I & E)|(t & I & E)]; exists t; (split; [auto|]).
    + destruct (names_eqb_spec k t); [auto|discriminate].
    + rewrite orb_true_iff, !is_prefix_spec in E. tauto.
  - intros (t & I & C). destruct C as [->|C]; [left; exists t; split; auto; destruct (names_eqb_spec t t); congruence|]. right. exists t. split; auto.
    rewrite orb_true_iff, !is_prefix_spec. tauto.
Qed.

(** ** The information of an item *)

Definition infos_items (l : list (key * tree pinfo)) : list (key * tree pinfo) := map (fun x => (fst x, param_infos (snd x))) l.

Lemma infos_node : forall k cs, cs <> [] -> param_infos (Node k cs) = Node k (infos_items cs).
Proof.
  intros k cs N. destruct cs as [|[x d] cs]; [congruence|]. cbn [param_infos infos_items map fst snd]. apply (f_equal (fun l => Node k ((x, param_infos d) :: l))). clear N.
  induction cs as [|[y e] cs IH]; [reflexivity|]. cbn [map fst snd]. apply (f_equal (cons (y, param_infos e))). exact IH.
Qed.

Lemma infos_fst : forall cs, map fst (infos_items cs) = map fst cs.
Proof. intros cs. unfold infos_items. rewrite map_map. reflexivity. Qed.

Lemma infos_full : forall t, full (param_infos t).
Proof.
  intros t. induction t as [i|k cs F] using tree_ind'; [constructor|]. destruct cs as [|c cs]; [constructor|]. rewrite infos_node by discriminate.
  constructor; [discriminate|]. unfold infos_items. rewrite Forall_forall in *. intros x X. apply in_map_iff in X as (y & <- & Y). apply F. auto.
Qed.

Lemma infos_wf : forall t, wf t -> wf (param_infos t).
Proof.
  intros t. induction t as [i|k cs F] using tree_ind'; intros W; [auto|]. destruct cs as [|c cs]; [constructor|]. rewrite infos_node by discriminate.
  inversion_clear W as [|? ? K W']. constructor; [rewrite infos_fst; auto|]. unfold infos_items. rewrite Forall_forall in *. intros x X. apply in_map_iff in X as (y & <- & Y). apply F; auto.
Qed.

Lemma infos_at : forall t p i, at_path (param_infos t) p (Leaf i) <-> at_path t p (Leaf i) \/ (exists k, at_path t p (Node k []) /\ i = mkP (Some (empty_typestr k)) None).
Proof.
  intros t. induction t as [j|k cs F] using tree_ind'; intros p i.
  - cbn [param_infos]. split; auto. intros [A|(k & A & _)]; auto. inversion A.
  - destruct cs as [|c cs].
    + cbn [param_infos]. split.
      * intros A. inversion A. subst. right. exists k. split; [constructor|auto].
      * intros [A|(k' & A & ->)]; [inversion A; contradiction|]. inversion A; [constructor|contradiction].
    + rewrite infos_node by discriminate. remember (c :: cs) as l eqn:EL. assert (NL : l <> []) by (subst; discriminate). clear EL c cs. destruct p as [|x p].
      * split; [intros A; inversion A|]. intros [A|(k' & A & _)]; inversion A; subst; congruence.
      * rewrite !at_node. rewrite Forall_forall in F. split.
        -- intros (d & D & A). unfold infos_items in D. apply in_map_iff in D as ([y e] & E & D). cbn [fst snd] in E. injection E as -> <-.
           apply (F _ D) in A as [A|(k' & A & ->)]; [left; eauto|]. right. exists k'. split; auto. apply at_node. eauto.
        -- intros [(d & D & A)|(k' & A & ->)].
           ++ exists (param_infos d). split; [apply in_map_iff; exists (x, d); auto|]. apply (F _ D). auto.
           ++ apply at_node in A as (d & D & A). exists (param_infos d). split; [apply in_map_iff; exists (x, d); auto|]. apply (F _ D). right. eauto.
Qed.

Lemma infos_typed : forall t, savable t -> typed (param_infos t).
Proof. intros t [_ T] p i A. apply infos_at in A as [A|(k & _ & ->)]; [apply (T p i A)|discriminate]. Qed.

(** ** The metadata of one save *)

Definition entries_of (t : tree pinfo) : list entry := map built_entry (leaf_list (param_infos t)).

Definition file (f : format) (es : list entry) : doc :=
  mkD [("tree_metadata", pdict (map ejson es)); ("use_ocdbt", Leaf (SBool (f_ocdbt f))); ("use_zarr3", Leaf (SBool (f_zarr3 f)));
       ("store_array_data_equal_to_fill_value", Leaf (SBool true)); ("custom_metadata", Node KNone [])] None.

Definition read_meta (f : format) (es : list entry) : meta := mkM es (Some (f_ocdbt f)) (f_zarr3 f) (Node KNone []) true false None.

Lemma entries_of_keys : forall t, savable t -> NoDup (map keypath (entries_of t)).
Proof. intros t [W _]. apply keypaths_distinct; [apply infos_wf; auto|apply infos_full]. Qed.

Lemma built_file : forall f t, savable t ->
  rbind (build (param_infos t) None (Some (f_ocdbt f)) (f_zarr3 f) (Node KNone []) true false) (fun m => to_json no_class no_class m) = Ok (file f (entries_of t)).
Proof.
  intros f t S. unfold build. rewrite firstn_all. rewrite entries_built; [|apply infos_full|apply infos_typed; auto]. cbn [rbind]. unfold to_json. cbn [support_rich_types entries use_ocdbt use_zarr3 custom_metadata store_array_data_equal_to_fill_value flag_json].
  fold (entries_of t). rewrite entries_json_eq by (apply entries_of_keys; auto). reflexivity.
Qed.

Lemma file_read : forall f es, from_json (file f es) false = Ok (read_meta f (map reread_entry es)).
Proof.
  intros f es. unfold from_json, file. cbn [d_obj d_rich]. unfold get. cbn [dget String.eqb Ascii.eqb Bool.eqb as_flag as_bool rmap rbind]. rewrite items_pdict. cbn [rbind].
  change (map ejson es) with (map (fun e => (keypath e, entry_json e)) es). rewrite entries_back. reflexivity.
Qed.

(** ** Checking a save against the ones before *)

Definition good (e : entry) (n : list string) : Prop := exists p, n = map str_name p /\ keypath e = str_tuple n /\ key_metadata e = key_build p.

Lemma good_names : forall e n, good e n -> rmap tuple_path_from_keypath (jax_keypath e) = Ok n.
Proof.
  intros e n (p & -> & _ & K). destruct (describes_built p (mkP (Some "") None) (value_metadata e)) as [D _].
  assert (J := jax_keypath_ok _ _ D). unfold jax_keypath in *. cbn [key_metadata] in J. rewrite K, J. cbn [rmap rbind fst]. f_equal. unfold tuple_path_from_keypath. rewrite map_map.
  apply map_ext. intros [j|d|s]; reflexivity.
Qed.

Lemma good_reread : forall e n, good (reread_entry e) n <-> good e n.
Proof. intros e n. unfold good, reread_entry. cbn [keypath key_metadata]. reflexivity. Qed.

Lemma reread_key : forall e, keypath (reread_entry e) = keypath e.
Proof. reflexivity. Qed.

Lemma reread_keys : forall l, map keypath (map reread_entry l) = map keypath l.
Proof. intros l. rewrite map_map. apply map_ext. intros e. apply reread_key. Qed.

Definition all_good (l : list entry) : Prop := forall e, In e l -> exists n, good e n.

Definition keys_are (l : list entry) (K : list string -> Prop) : Prop := forall n, K n <-> exists e, In e l /\ good e n.

Lemma good_fun : forall e n m, good e n -> good e m -> n = m.
Proof. intros e n m A B. apply good_names in A, B. congruence. Qed.

Lemma good_key : forall e n, good e n -> keypath e = str_tuple n.
Proof. intros e n (p & _ & K & _). auto. Qed.

Lemma merge_read : forall f a b, NoDup (map keypath a) -> NoDup (map keypath b) -> all_good a -> all_good b ->
  exists l, merge true (read_meta f a) (read_meta f b) = Ok (read_meta f l) /\ NoDup (map keypath l) /\ all_good l /\
  forall n, (exists e, In e l /\ good e n) <-> (exists e, In e a /\ good e n) \/ (exists e, In e b /\ good e n).
Proof.
  intros f a b Na Nb Ga Gb. destruct (merge_entries_ok true b a Na Nb (or_introl eq_refl)) as (l & E & N & I). exists (map reread_entry l). split; [|split; [|split]].
  - rewrite format_same by (split; [auto|split; [auto|split; auto]]). unfold read_meta. cbn [entries custom_metadata value_metadata_tree]. rewrite !entries_json_eq by auto.
    change (map (fun e => (keypath e, entry_json e)) a) with (map ejson a). change (map (fun e => (keypath e, entry_json e)) b) with (map ejson b). rewrite E. cbn [rbind].
    change (map ejson l) with (map (fun e => (keypath e, entry_json e)) l). rewrite entries_back. reflexivity.
  - rewrite reread_keys. auto.
  - intros e H. apply in_map_iff in H as (e' & <- & H). apply I in H as [H|[H _]]; [destruct (Gb _ H) as (n & G)|destruct (Ga _ H) as (n & G)]; exists n; apply good_reread; auto.
  - intros n. split.
    + intros (e & H & G). apply in_map_iff in H as (e' & <- & H). apply good_reread in G. apply I in H as [H|[H _]]; eauto.
    + intros [(e & H & G)|(e & H & G)].
      * destruct (in_dec string_dec (keypath e) (map keypath b)) as [K|K].
        -- apply in_map_iff in K as (e' & K & H'). destruct (Gb _ H') as (n' & G'). exists (reread_entry e'). split; [apply in_map; apply I; auto|]. apply good_reread.
           rewrite (good_key _ _ G), (good_key _ _ G') in K. apply str_tuple_inj in K. subst n'. auto.
        -- exists (reread_entry e). split; [apply in_map; apply I; auto|]. apply good_reread; auto.
      * exists (reread_entry e). split; [apply in_map; apply I; auto|]. apply good_reread; auto.
Qed.

Lemma merged_read : forall f ls a, NoDup (map keypath a) -> all_good a -> (forall l, In l ls -> NoDup (map keypath l) /\ all_good l) ->
  exists l, fold_left (fun acc b => rbind acc (fun a => merge true a b)) (map (read_meta f) ls) (Ok (read_meta f a)) = Ok (read_meta f l) /\
  NoDup (map keypath l) /\ all_good l /\ forall n, (exists e, In e l /\ good e n) <-> exists l', In l' (a :: ls) /\ exists e, In e l' /\ good e n.
Proof.
  intros f ls. induction ls as [|b ls IH]; intros a Na Ga H.
  - exists a. split; [reflexivity|]. split; auto. split; auto. intros n. split; [intros X; exists a; split; [left; auto|auto]|]. intros (l' & [<-|[]] & X). auto.
  - destruct (H b (or_introl eq_refl)) as [Nb Gb]. destruct (merge_read f a b Na Nb Ga Gb) as (l & E & N & G & K). cbn [map fold_left rbind]. rewrite E.
    destruct (IH l N G) as (l2 & E2 & N2 & G2 & K2); [intros x X; apply H; right; auto|]. exists l2. split; auto. split; auto. split; auto. intros n. rewrite K2. split.
    + intros (l' & [<-|I] & X); [|exists l'; split; [right; right; auto|auto]]. apply K in X as [X|X]; [exists a; split; [left|]; auto|exists b; split; [right; left|]; auto].
    + intros (l' & [<-|[<-|I]] & X); [exists l; split; [left; auto|apply K; auto]|exists l; split; [left; auto|apply K; auto]|exists l'; split; [right; auto|auto]].
Qed.

Lemma sequence_good : forall l, all_good l -> exists ns, sequence (map (fun e => rmap tuple_path_from_keypath (jax_keypath e)) l) = Ok ns /\
  forall n, In n ns <-> exists e, In e l /\ good e n.
Proof.
  induction l as [|e l IH]; intros G; [exists []; split; [reflexivity|]; intros n; split; [intros []|intros (e & [] & _)]|].
  destruct IH as (ns & E & K); [intros x X; apply G; right; auto|]. destruct (G e (or_introl eq_refl)) as (n0 & G0). exists (n0 :: ns). split.
  - cbn [map sequence]. rewrite (good_names _ _ G0), E. reflexivity.
  - intros n. cbn [In]. rewrite K. split.
    + intros [<-|(x & X & H)]; [exists e; auto|exists x; auto].
    + intros (x & [->|X] & H); [left; apply (good_fun x); auto|right; eauto].
Qed.

Lemma additions_ok : forall f ls flat, (forall l, In l ls -> NoDup (map keypath l) /\ all_good l) ->
  exists ns, (forall n, In n ns <-> exists l, In l ls /\ exists e, In e l /\ good e n) /\
  get_partial_save_additions (map (read_meta f) ls) flat = if existsb (replaces ns) flat then Err OtherError else Ok flat.
Proof.
  intros f ls flat H. unfold get_partial_save_additions. destruct ls as [|a ls].
  - exists []. split; [intros n; split; [intros []|intros (l & [] & _)]|]. reflexivity.
  - destruct (H a (or_introl eq_refl)) as [Na Ga]. destruct (merged_read f ls a Na Ga) as (l & E & N & G & K); [intros x X; apply H; right; auto|].
    cbn [map merged_metadata]. rewrite E. cbn [rmap rbind]. cbn [read_meta entries]. destruct (sequence_good l G) as (ns & S & I). rewrite S. cbn [rbind].
    exists ns. split; [intros n; rewrite I; apply K|reflexivity].
Qed.

Lemma entry_good : forall t e, In e (entries_of t) -> exists n, good e n.
Proof.
  intros t e I. unfold entries_of in I. apply in_map_iff in I as ([p i] & <- & I). exists (map str_name p). exists p. auto.
Qed.

Lemma entries_keys : forall t n, (exists e, In e (entries_of t) /\ good e n) <-> has_value t n \/ has_empty t n.
Proof.
  intros t n. unfold entries_of. split.
  - intros (e & I & G). apply in_map_iff in I as ([p i] & <- & I). assert (n = map str_name p) as -> by (apply (good_fun (built_entry (p, i))); auto; exists p; auto).
    apply leaf_list_in in I. apply infos_at in I as [A|(k & A & _)]; [left; exists p, i; auto|right; exists p, k; auto].
  - intros H. assert (X : exists p i, at_path (param_infos t) p (Leaf i) /\ n = map str_name p).
    { destruct H as [(p & i & A & E)|(p & k & A & E)]; [exists p, i; split; auto; apply infos_at; auto|].
      exists p, (mkP (Some (empty_typestr k)) None). split; auto. apply infos_at. right. eauto. }
    destruct X as (p & i & A & ->). exists (built_entry (p, i)). split; [apply in_map; apply leaf_list_in; auto|exists p; auto].
Qed.

Lemma flat_keys_in : forall t n, wf t -> (In n (map fst (to_flat_dict false t)) <-> has_value t n).
Proof.
  intros t n W. rewrite to_flat_eq by auto. rewrite fst_named. rewrite in_map_iff. split.
  - intros (p & <- & I). apply leaf_in in I as (v & A). exists p, v. auto.
  - intros (p & i & A & ->). exists p. split; auto. apply leaf_in. eauto.
Qed.

Lemma files_read : forall f ls, sequence (map (fun d => from_json d false) (map (file f) ls)) = Ok (map (read_meta f) (map (map reread_entry) ls)).
Proof. intros f ls. induction ls as [|l ls IH]; [reflexivity|]. cbn [map sequence]. rewrite file_read. cbn [rbind]. rewrite IH. reflexivity. Qed.

Lemma save_ok : forall f saved item, (forall t, In t saved -> savable t) -> savable item ->
  (exists k, item = Node k [] /\ save_metadata f (map (file f) (map entries_of saved)) item = Err ValueError) \/
  ((forall k, item <> Node k []) /\ allowed saved item /\ save_metadata f (map (file f) (map entries_of saved)) item = Ok (file f (entries_of item))) \/
  ((forall k, item <> Node k []) /\ ~ allowed saved item /\ save_metadata f (map (file f) (map entries_of saved)) item = Err OtherError).
Proof.
  intros f saved item S SI. assert (D : (exists k, item = Node k []) \/ forall k, item <> Node k []) by (destruct item as [i|k [|c cs]]; [right; discriminate|left; eauto|right; discriminate]).
  destruct D as [(k & ->)|D]; [left; exists k; split; auto; reflexivity|]. right. unfold save_metadata.
  assert (R : match item with Node _ [] => Err ValueError | _ => Ok tt end = Ok tt) by (destruct item as [i|k [|c cs]]; auto; elim (D k); auto). rewrite R. cbn [rbind].
  rewrite files_read. cbn [rbind].
  destruct (additions_ok f (map (map reread_entry) (map entries_of saved)) (map fst (to_flat_dict false item))) as (ns & K & E).
  { intros l I. apply in_map_iff in I as (l' & <- & I). apply in_map_iff in I as (t & <- & I). split; [rewrite reread_keys; apply entries_of_keys; auto|].
    intros e H. apply in_map_iff in H as (e' & <- & H). destruct (entry_good _ _ H) as (n & G). exists n. apply good_reread; auto. }
  rewrite E. assert (KS : forall n, In n ns <-> exists old, In old saved /\ (has_value old n \/ has_empty old n)).
  { intros n. rewrite K. split.
    - intros (l & I & e & H & G). apply in_map_iff in I as (l' & <- & I). apply in_map_iff in I as (t & <- & I). exists t. split; auto. apply entries_keys.
      apply in_map_iff in H as (e' & <- & H). apply good_reread in G. eauto.
    - intros (t & I & H). apply entries_keys in H as (e & H & G). exists (map reread_entry (entries_of t)). split; [apply in_map; apply in_map; auto|]. exists (reread_entry e).
      split; [apply in_map; auto|apply good_reread; auto]. }
  destruct (existsb (replaces ns) (map fst (to_flat_dict false item))) eqn:X; [right|left]; (split; [auto|]); (split; [|try (cbn [rbind]; rewrite <- (built_file f item SI); reflexivity); try reflexivity]).
  - intros A. apply existsb_exists in X as (k & I & C). apply replaces_spec in C as (t & T & C). apply flat_keys_in in I; [|apply SI]. apply KS in T as (old & O & H). apply (A k t old); auto.
  - intros a b old V O H C. assert (Y : existsb (replaces ns) (map fst (to_flat_dict false item)) = true); [|congruence]. apply existsb_exists. exists a. split; [apply flat_keys_in; [apply SI|auto]|].
    apply replaces_spec. exists b. split; auto. apply KS. eauto.
Qed.

Theorem session_ok : forall f items saved, (forall t, In t saved -> savable t) -> (forall t, In t items -> savable t) ->
  exists all, decided saved items (snd (session (map (file f) (map entries_of saved)) (map (pair f) items))) all /\
  fst (session (map (file f) (map entries_of saved)) (map (pair f) items)) = map (file f) (map entries_of all) /\ (forall t, In t all -> savable t).
Proof.
  intros f items. induction items as [|item items IH]; intros saved S SI; [exists saved; split; [constructor|]; split; auto|]. cbn [map session].
  destruct (save_ok f saved item S (SI item (or_introl eq_refl))) as [(k & -> & E)|[(D & A & E)|(D & A & E)]]; rewrite E.
  - destruct (IH saved S) as (all & H1 & H2 & H3); [intros t T; apply SI; right; auto|]. exists all. destruct (session _ _) as [ds l]. split; [constructor; auto|]. split; auto.
  - destruct (IH (saved ++ [item])%list) as (all & H1 & H2 & H3); [intros t T; apply in_app_iff in T as [T|[<-|[]]]; auto; apply SI; left; auto|intros t T; apply SI; right; auto|].
    rewrite !map_app in H1, H2. cbn [map] in H1, H2. exists all. destruct (session _ _) as [ds l]. split; [apply decided_saved; auto|]. split; auto.
  - destruct (IH saved S) as (all & H1 & H2 & H3); [intros t T; apply SI; right; auto|]. exists all. destruct (session _ _) as [ds l]. split; [apply decided_refused; auto|]. split; auto.
Qed.

Lemma decided_fun : forall saved items rs all, decided saved items rs all -> forall rs' all', decided saved items rs' all' -> rs = rs' /\ all = all'.
Proof.
  intros saved items rs all D. induction D; intros rs' all' D'; inversion D'; subst; auto; try (exfalso; eauto; fail);
    try (match goal with H : forall k, Node _ [] <> Node k [] |- _ => exfalso; eapply H; reflexivity end); try contradiction;
    match goal with IH : forall rs' all', decided ?s ?i rs' all' -> _, H : decided ?s ?i _ _ |- _ => destruct (IH _ _ H) as [-> ->]; auto end.
Qed.

(** ** Merging the files *)

Lemma as_mapping_pdict : forall {A : Type} (l : list (string * tree A)), as_mapping (map (fun x => (DictKey (KStr (fst x)), snd x)) l) = map (fun x => (DictKey (KStr (fst x)), snd x)) l.
Proof. intros A l. unfold as_mapping. rewrite map_map. apply map_ext. intros [s t]. reflexivity. Qed.

Lemma gom_fresh : forall {V : Type} (rm : tree V -> tree V -> result (tree V)) (d2 : list (key * tree V)) (l : list (string * tree V)) merged,
  (forall x, In x l -> ~ In (DictKey (KStr (fst x))) (map fst d2)) -> NoDup (map fst merged ++ map (fun x => DictKey (KStr (fst x))) l)%list ->
  gom rm d2 (map (fun x => (DictKey (KStr (fst x)), snd x)) l) merged = Ok (merged ++ map (fun x => (DictKey (KStr (fst x)), snd x)) l)%list.
Proof.
  intros V rm d2 l. induction l as [|[s t] l IH]; intros merged H N; cbn [map gom fst snd]; [rewrite app_nil_r; auto|]. cbn [dict_key].
  assert (F : find_item (DictKey (KStr s)) d2 = None) by (apply Diff_Proofs.find_item_none; apply (H (s, t)); left; auto). rewrite F.
  cbn [map fst] in N. assert (N' := N). apply NoDup_remove_2 in N'. rewrite put_fresh by (intros I; apply N'; apply in_app_iff; auto). rewrite IH.
  - rewrite <- app_assoc. reflexivity.
  - intros x X. apply H. right; auto.
  - rewrite map_app. cbn [map fst]. rewrite <- app_assoc. exact N.
Qed.

Lemma merge_pdict : forall {V : Type} (kl : key -> V) (a b : list (string * tree V)), NoDup (map fst (a ++ b)) ->
  recursive_merge kl true (pdict b) (pdict a) = Ok (pdict (a ++ b)).
Proof.
  intros V kl a b N. unfold pdict. rewrite merge_node. cbn [kind_eqb negb andb is_leaf_node_or_none is_none orb]. rewrite as_mapping_pdict.
  assert (N2 : NoDup (map (fun x => DictKey (KStr (fst x))) (a ++ b))).
  { rewrite <- (map_map fst (fun s => DictKey (KStr s))). apply FinFun.Injective_map_NoDup; auto. intros x y E. congruence. }
  cbv zeta. rewrite gom_fresh.
  - cbn [rmap rbind rebuild]. rewrite map_app. reflexivity.
  - intros x X I. rewrite map_map in I. cbn [fst] in I. rewrite map_app in N2. clear - N2 X I. induction a as [|y a IH]; [contradiction|]. cbn [map app] in N2. inversion_clear N2 as [|? ? N3 N4].
    destruct I as [I|I]; [|auto]. apply N3. apply in_app_iff. right. rewrite I. apply in_map_iff. eauto.
  - rewrite map_map. cbn [fst]. rewrite <- map_app. exact N2.
Qed.

Definition hidden_in (l : list entry) (e : entry) : bool := existsb (fun e' => hides (keypath e) (keypath e')) l.
Definition tops (l : list entry) : list entry := filter (fun e => negb (hidden_in l e)) l.

Lemma existsb_map : forall {A B : Type} (f : A -> B) (g : B -> bool) l, existsb g (map f l) = existsb (fun x => g (f x)) l.
Proof. intros A B f g l. induction l as [|x l IH]; auto. cbn [map existsb]. rewrite IH. auto. Qed.

Lemma filter_map' : forall {A B : Type} (f : A -> B) (g : B -> bool) l, filter g (map f l) = map f (filter (fun x => g (f x)) l).
Proof. intros A B f g l. induction l as [|x l IH]; auto. cbn [map filter]. rewrite IH. destruct (g (f x)); auto. Qed.

Lemma filter_tops : forall l, filter_conflicting_keys (map ejson l) = map ejson (tops l).
Proof.
  intros l. unfold filter_conflicting_keys, tops, hidden_in. rewrite filter_map'. f_equal. apply filter_ext. intros e. rewrite existsb_map. reflexivity.
Qed.

Lemma merge_files : forall f a b, NoDup (map keypath (a ++ b)) -> merge_metadata_files (file f a) (file f b) = Ok (file f (tops (a ++ b))).
Proof.
  intros f a b N. assert (M : recursive_merge key_scalar true (pdict (map ejson b)) (pdict (map ejson a)) = Ok (pdict (map ejson (a ++ b)))).
  { rewrite map_app. apply merge_pdict. rewrite <- map_app, map_map. exact N. }
  unfold merge_metadata_files, file. cbn [d_obj d_rich]. remember (pdict (map ejson a)) as TA eqn:EA. remember (pdict (map ejson b)) as TB eqn:EB.
  unfold merge_trees. cbn [fold_left rbind]. unfold pdict at 1 2. rewrite merge_node. cbn [kind_eqb negb andb is_leaf_node_or_none is_none orb]. rewrite as_mapping_pdict. cbv zeta.
  cbn [map fst snd gom dict_key find_item key_eqb dkey_eqb String.eqb Ascii.eqb Bool.eqb put_item]. rewrite M. cbn [rbind].
  assert (IT := items_pdict (map ejson (a ++ b))). remember (pdict (map ejson (a ++ b))) as TC eqn:EC.
  cbn [recursive_merge same_type negb andb is_leaf_node_or_none is_none orb rbind map fst snd gom dict_key find_item key_eqb dkey_eqb String.eqb Ascii.eqb Bool.eqb put_item rmap rebuild str_name get_key_name dget kind_eqb].
  unfold items at 1. cbn [map fst snd str_name get_key_name str_dkey rbind dget String.eqb Ascii.eqb Bool.eqb]. rewrite IT. cbn [rmap rbind dput String.eqb Ascii.eqb Bool.eqb]. rewrite filter_tops. reflexivity.
Qed.

(** ** The longest keys *)

Lemma good_dict : forall e n, good e n -> dict_names e = n.
Proof. intros e n (p & -> & _ & K). unfold dict_names. rewrite K. unfold key_build. rewrite map_map. reflexivity. Qed.

Lemma hides_good : forall e e' n m, good e n -> good e' m -> (hides (keypath e) (keypath e') = true <-> extends m n).
Proof. intros e e' n m G G'. rewrite (good_key _ _ G), (good_key _ _ G'). unfold hides. rewrite !literal_ok. apply is_prefix_spec. Qed.

Definition top (l : list entry) (e : entry) : Prop := In e l /\ forall e', In e' l -> ~ extends (dict_names e') (dict_names e).

Lemma tops_in : forall l e, all_good l -> (In e (tops l) <-> top l e).
Proof.
  intros l e G. unfold tops, top. rewrite filter_In. split; intros [I H]; (split; [auto|]).
  - intros e' I' X. apply negb_true_iff in H. assert (Y : hidden_in l e = true); [|congruence]. unfold hidden_in. apply existsb_exists. exists e'. split; auto.
    destruct (G _ I) as (n & Gn). destruct (G _ I') as (m & Gm). rewrite (hides_good _ _ _ _ Gn Gm). rewrite <- (good_dict _ _ Gn), <- (good_dict _ _ Gm). auto.
  - apply negb_true_iff. destruct (hidden_in l e) eqn:X; auto. unfold hidden_in in X. apply existsb_exists in X as (e' & I' & X). exfalso. apply (H e' I').
    destruct (G _ I) as (n & Gn). destruct (G _ I') as (m & Gm). rewrite (hides_good _ _ _ _ Gn Gm) in X. rewrite (good_dict _ _ Gn), (good_dict _ _ Gm). auto.
Qed.

Lemma extends_trans : forall {A : Type} (a b c : list A), extends a b -> extends b c -> extends a c.
Proof. intros A a b c (r & N & ->) (s & M & ->). exists (s ++ r)%list. split; [destruct s; [congruence|discriminate]|symmetry; apply app_assoc]. Qed.

Lemma extends_length : forall {A : Type} (a b : list A), extends a b -> (List.length b < List.length a)%nat.
Proof. intros A a b (r & N & ->). rewrite app_length. destruct r; [congruence|cbn [List.length]; lia]. Qed.

Lemma extends_dec : forall a b : list string, extends a b \/ ~ extends a b.
Proof. intros a b. destruct (is_prefix b a) eqn:E; [left; apply is_prefix_spec; auto|right; intros H; apply is_prefix_spec in H; congruence]. Qed.

Lemma longest : forall l : list entry, exists n, forall e, In e l -> (List.length (dict_names e) <= n)%nat.
Proof.
  induction l as [|e l (n & H)]; [exists 0; intros e []|]. exists (Nat.max (List.length (dict_names e)) n). intros e' [<-|I]; [lia|]. specialize (H e' I). lia.
Qed.

Lemma above : forall l e, In e l -> exists e', top l e' /\ (e' = e \/ extends (dict_names e') (dict_names e)).
Proof.
  intros l e I. destruct (longest l) as (n & H). assert (G : forall k e, In e l -> (n - List.length (dict_names e) <= k)%nat -> exists e', top l e' /\ (e' = e \/ extends (dict_names e') (dict_names e))).
  { clear e I. induction k as [|k IH]; intros e I K.
    - exists e. split; [|auto]. split; auto. intros e' I' X. assert (Y := extends_length _ _ X). specialize (H e' I'). lia.
    - assert (D : (exists e', In e' l /\ extends (dict_names e') (dict_names e)) \/ forall e', In e' l -> ~ extends (dict_names e') (dict_names e)).
      { clear. induction l as [|x l [(e' & I & E)|N]]; [right; intros e' []|left; exists e'; split; [right|]; auto|]. destruct (extends_dec (dict_names x) (dict_names e)) as [E|E]; [left; exists x; split; [left|]; auto|].
        right. intros e' [<-|I']; auto. }
      destruct D as [(e' & I' & E)|N]; [|exists e; split; [split; auto|auto]]. destruct (IH e') as (e2 & T & R); auto; [assert (L := extends_length _ _ E); specialize (H e' I'); lia|].
      exists e2. split; auto. right. destruct R as [->|R]; auto. apply (extends_trans _ _ _ R E). }
  apply (G (n - List.length (dict_names e)) e I). lia.
Qed.

Definition same_tops (l m : list entry) : Prop := forall e, top l e <-> top m e.

Lemma tops_same : forall l, all_good l -> same_tops (tops l) l.
Proof.
  intros l G e. split.
  - intros [I H]. apply tops_in in I; auto.
  - intros T. split; [apply tops_in; auto|]. intros e' I'. apply tops_in in I' as [I' _]; auto. apply T; auto.
Qed.

Lemma same_tops_app : forall l m r, same_tops l m -> same_tops (l ++ r)%list (m ++ r)%list.
Proof.
  assert (G : forall l m r e, same_tops l m -> top (l ++ r)%list e -> top (m ++ r)%list e).
  { intros l m r e S [I H]. split.
    - apply in_app_iff in I as [I|I]; apply in_app_iff; auto. left. apply S. split; auto. intros e' I'. apply H. apply in_app_iff; auto.
    - intros e' I' X. apply in_app_iff in I' as [I'|I']; [|apply (H e'); auto; apply in_app_iff; auto]. destruct (above m e' I') as (e2 & T & R). apply S in T as [T _].
      apply (H e2); [apply in_app_iff; auto|]. destruct R as [->|R]; auto. apply (extends_trans _ _ _ R X). }
  intros l m r S e. split; apply G; auto. intros x. symmetry. apply S.
Qed.

Lemma same_tops_trans : forall l m r, same_tops l m -> same_tops m r -> same_tops l r.
Proof. intros l m r A B e. rewrite (A e). apply B. Qed.

Lemma tops_incl : forall l e, In e (tops l) -> In e l.
Proof. intros l e I. unfold tops in I. apply filter_In in I. tauto. Qed.

Lemma nodup_app_swap : forall {A : Type} (l m : list A), NoDup (l ++ m) -> NoDup l /\ NoDup m /\ (forall x, In x l -> ~ In x m).
Proof.
  intros A l m. induction l as [|x l IH]; cbn [app]; intros N; [split; [constructor|]; split; auto|]. inversion_clear N as [|? ? N1 N2]. destruct (IH N2) as (A1 & A2 & A3).
  split; [constructor; auto; intros I; apply N1; apply in_app_iff; auto|]. split; auto. intros y [<-|Y]; [intros I; apply N1; apply in_app_iff; auto|auto].
Qed.

Lemma merge_all_ok : forall f ls a, NoDup (map keypath (a ++ List.concat ls)) -> all_good (a ++ List.concat ls) ->
  exists l, fold_left (fun acc s => rbind acc (fun dst => merge_metadata_files dst s)) (map (file f) ls) (Ok (file f a)) = Ok (file f l) /\
  (forall e, In e l -> In e (a ++ List.concat ls)%list) /\ NoDup (map keypath l) /\ same_tops l (a ++ List.concat ls).
Proof.
  intros f ls. induction ls as [|b ls IH]; intros a N G; cbn [List.concat map fold_left] in *.
  - rewrite app_nil_r in *. exists a. split; [reflexivity|]. split; auto. split; auto. intros e. reflexivity.
  - rewrite app_assoc in N, G. assert (N' := N). rewrite map_app in N'. apply nodup_app_swap in N' as (N1 & N2 & N3).
    assert (G1 : all_good (a ++ b)) by (intros e I; apply G; apply in_app_iff; auto).
    cbn [rbind]. rewrite merge_files by auto. destruct (IH (tops (a ++ b))) as (l & E & I & NL & S).
    + rewrite map_app. apply NoDup_app_intro; auto; [apply NoDup_map_filter; auto|]. intros k K. apply N3. apply in_map_iff in K as (e & <- & K). apply in_map. apply tops_incl; auto.
    + intros e X. apply G. apply in_app_iff in X as [X|X]; apply in_app_iff; auto. left. apply tops_incl; auto.
    + exists l. split; auto. rewrite app_assoc. split; [|split; auto].
      * intros e X. apply I in X. apply in_app_iff in X as [X|X]; apply in_app_iff; auto. left. apply tops_incl; auto.
      * apply (same_tops_trans _ _ _ S). apply same_tops_app. apply tops_same; auto.
Qed.

(** ** The finalized checkpoint *)

Lemma written_meta : forall i v, written i v -> v = meta_of i.
Proof.
  intros i [ty sk sh] (E & S & K). cbn [value_type write_shape skip_deserialize] in *. unfold meta_of. rewrite E, S. f_equal.
  assert (M := meta_written i ltac:(congruence)). destruct M as (_ & _ & K'). unfold meta_of in K'. rewrite E in K'. cbn [value_type skip_deserialize] in K'.
  destruct sk, (is_empty_typestr ty); auto; exfalso; [assert (X : false = true) by tauto|assert (X : false = true) by tauto]; discriminate.
Qed.

Lemma describes_infos : forall t p w, savable t -> (describes_at t p w <-> exists i, at_path (param_infos t) p (Leaf i) /\ w = reread_value (meta_of i)).
Proof.
  intros t p w [W T]. split.
  - intros [(i & v & A & X & ->)|(k & ty & A & -> & ->)].
    + exists i. split; [apply infos_at; auto|]. rewrite (written_meta i v X). auto.
    + exists (mkP (Some (empty_typestr k)) None). split; [apply infos_at; right; eauto|]. destruct k; reflexivity.
  - intros (i & A & ->). apply infos_at in A as [A|(k & A & ->)].
    + left. exists i, (meta_of i). split; auto. split; auto. apply meta_written. apply (T p i A).
    + right. exists k. eexists. split; [exact A|]. split; [|reflexivity]. destruct k; reflexivity.
Qed.

Lemma dicts_path : forall t p s, string_dicts t -> @at_path pinfo t p s -> exists ks, p = dpath ks.
Proof.
  intros t p s S A. induction A as [t|k cs x c p s I A IH]; [exists []; auto|]. inversion S as [|? F]; subst. rewrite Forall_forall in F. destruct (F _ I) as [(n & E) S']. cbn [fst snd] in *.
  destruct (IH S') as (ks & ->). exists (n :: ks). subst x. reflexivity.
Qed.

Lemma dpath_names : forall ks, map str_name (dpath ks) = ks.
Proof. intros ks. unfold dpath. rewrite map_map. apply map_id. Qed.

Lemma entries_describe : forall t e, savable t -> string_dicts t -> In e (entries_of t) ->
  dict_entry e (dict_names e) /\ describes_at t (dpath (dict_names e)) (value_metadata (reread_entry e)).
Proof.
  intros t e S D I. unfold entries_of in I. apply in_map_iff in I as ([p i] & <- & I). apply leaf_list_in in I.
  assert (P : exists ks, p = dpath ks) by (apply infos_at in I as [A|(k & A & _)]; apply (dicts_path t p _ D A)). destruct P as (ks & ->).
  assert (N : dict_names (built_entry (dpath ks, i)) = ks).
  { rewrite (good_dict _ (map str_name (dpath ks))); [apply dpath_names|]. exists (dpath ks). auto. }
  rewrite N. split.
  - unfold dict_entry, built_entry. cbn [key_metadata fst]. unfold key_build, dpath. rewrite map_map. reflexivity.
  - apply describes_infos; auto. exists i. auto.
Qed.

Lemma describe_entries : forall t p w, savable t -> string_dicts t -> describes_at t p w ->
  exists e, In e (entries_of t) /\ p = dpath (dict_names e) /\ w = value_metadata (reread_entry e).
Proof.
  intros t p w S D H. apply describes_infos in H as (i & A & ->); auto. assert (P : exists ks, p = dpath ks) by (apply infos_at in A as [A|(k & A & _)]; apply (dicts_path t p _ D A)). destruct P as (ks & ->).
  exists (built_entry (dpath ks, i)). split; [apply in_map; apply leaf_list_in; auto|]. split; auto.
  rewrite (good_dict _ (map str_name (dpath ks))); [rewrite dpath_names; auto|]. exists (dpath ks). auto.
Qed.

Lemma separate_tail : forall a l, separate (a :: l) -> separate l.
Proof. intros a l S l1 x l2 y l3 p v w E. apply (S (a :: l1) x l2 y l3 p v w). rewrite E. reflexivity. Qed.

Lemma separate_keys : forall all, (forall t, In t all -> savable t /\ string_dicts t) -> separate all -> NoDup (map keypath (List.concat (map entries_of all))).
Proof.
  intros all. induction all as [|t all IH]; intros H S; cbn [map List.concat]; [constructor|]. rewrite map_app. apply NoDup_app_intro.
  - apply entries_of_keys. apply H. left; auto.
  - apply IH; [intros x X; apply H; right; auto|apply (separate_tail t); auto].
  - intros k K K'. apply in_map_iff in K as (e & <- & I). apply in_map_iff in K' as (e' & E & I'). apply in_concat in I' as (l & L & I'). apply in_map_iff in L as (t' & <- & T').
    destruct (H t (or_introl eq_refl)) as [S1 D1]. destruct (H t' (or_intror T')) as [S2 D2].
    destruct (entries_describe t e S1 D1 I) as [_ X]. destruct (entries_describe t' e' S2 D2 I') as [_ X'].
    destruct (entry_good _ _ I) as (n & G). destruct (entry_good _ _ I') as (n' & G'). rewrite (good_key _ _ G), (good_key _ _ G') in E. apply str_tuple_inj in E. subst n'.
    rewrite (good_dict _ _ G) in X. rewrite (good_dict _ _ G') in X'. apply in_split in T' as (l1 & l2 & ->).
    apply (S [] t l1 t' l2 _ _ _ eq_refl X X').
Qed.

Lemma top_reread : forall l e, top (map reread_entry l) e <-> exists e', e = reread_entry e' /\ top l e'.
Proof.
  intros l e. split.
  - intros [I H]. apply in_map_iff in I as (e' & <- & I). exists e'. split; auto. split; auto. intros e2 I2. apply (H (reread_entry e2)). apply in_map; auto.
  - intros (e' & -> & I & H). split; [apply in_map; auto|]. intros e2 I2. apply in_map_iff in I2 as (e3 & <- & I3). apply (H e3 I3).
Qed.

Theorem finalized_ok : forall f all, all <> [] -> (forall t, In t all -> savable t /\ string_dicts t) -> separate all ->
  exists T, finalized_tree (map (file f) (map entries_of all)) = Ok T /\
  forall p w, at_path T p (Leaf w) <-> exists item, In item all /\ describes_at item p w /\
    forall other q v, In other all -> describes_at other q v -> ~ extends q p.
Proof.
  intros f all NE H S. assert (NK := separate_keys all H S). assert (GA : all_good (List.concat (map entries_of all))).
  { intros e I. apply in_concat in I as (l & L & I). apply in_map_iff in L as (t & <- & L). apply (entry_good t); auto. }
  destruct all as [|t0 all]; [congruence|]. cbn [map List.concat] in *.
  destruct (merge_all_ok f (map entries_of all) (entries_of t0) NK GA) as (l & E & IN & NL & ST).
  unfold finalized_tree, merge_all_metadata. rewrite E. cbn [rbind]. rewrite file_read. cbn [rbind].
  assert (MEM : forall e, In e (entries_of t0 ++ List.concat (map entries_of all))%list <-> exists t, In t (t0 :: all) /\ In e (entries_of t)).
  { intros e. rewrite in_app_iff, in_concat. split.
    - intros [I|(x & X & I)]; [exists t0; split; [left|]; auto|]. apply in_map_iff in X as (t & <- & X). exists t. split; [right|]; auto.
    - intros (t & [<-|X] & I); [auto|right]. exists (entries_of t). split; auto. apply in_map; auto. }
  assert (DE : forall e, In e l -> exists ks, dict_entry e ks).
  { intros e I. apply IN, MEM in I as (t & X & I). destruct (H t X) as [S1 D1]. destruct (entries_describe t e S1 D1 I) as [D _]. eauto. }
  assert (GL : all_good l) by (intros e I; apply GA; apply IN; auto).
  destruct (dicts_ok (read_meta f (map reread_entry l))) as (T & SD & AS & AT).
  - left. reflexivity.
  - cbn [read_meta entries]. intros X. apply map_eq_nil in X. subst l.
    assert (Y : exists e, In e (entries_of t0)).
    { destruct (H t0 (or_introl eq_refl)) as [S1 D1]. unfold entries_of. assert (FL := infos_full t0). destruct (leaf_list (param_infos t0)) as [|x r] eqn:LL; [|exists (built_entry x); left; auto].
      exfalso. assert (Z : exists p i, at_path (param_infos t0) p (Leaf i)).
      { clear - FL. induction (param_infos t0) as [i|k cs F] using tree_ind'; [exists [], i; constructor|]. inversion_clear FL as [|? ? N FF]. destruct cs as [|[x c] cs]; [congruence|].
        inversion_clear F as [|? ? F1 F2]. inversion_clear FF as [|? ? G1 G2]. destruct (F1 G1) as (p & i & A). exists (x :: p), i. apply at_node. exists c. split; [left|]; auto. }
      destruct Z as (p & i & A). apply leaf_list_in in A. rewrite LL in A. contradiction. }
    destruct Y as (e & I). destruct (above (entries_of t0 ++ List.concat (map entries_of all)) e) as (e' & TP & _); [apply in_app_iff; auto|]. apply ST in TP as [[] _].
  - cbn [read_meta entries]. intros e I. apply in_map_iff in I as (e' & <- & I). destruct (DE e' I) as (ks & D). exists ks. exact D.
  - cbn [read_meta entries]. rewrite map_map. clear - NL GL. induction l as [|e l IH]; cbn [map] in *; [constructor|]. inversion_clear NL as [|? ? N1 N2]. constructor; [|apply IH; auto; intros x X; apply GL; right; auto].
    intros I. apply N1. apply in_map_iff in I as (e' & X & I). apply in_map_iff. exists e'. split; auto. destruct (GL e (or_introl eq_refl)) as (n & G). destruct (GL e' (or_intror I)) as (n' & G').
    rewrite (good_key _ _ G), (good_key _ _ G'). change (dict_names (reread_entry e')) with (dict_names e') in X. change (dict_names (reread_entry e)) with (dict_names e) in X.
    rewrite (good_dict _ _ G), (good_dict _ _ G') in X. congruence.
  - exists (norm T). split; auto. cbn [read_meta entries] in AT. intros p w. rewrite norm_at_iff. rewrite AT. clear AT AS SD T.
    transitivity (exists e, top (map reread_entry l) e /\ p = dpath (dict_names e) /\ w = value_metadata e).
    { unfold top. split; [intros (e & I & -> & -> & U); exists e; auto|intros (e & [I U] & -> & ->); exists e; auto]. }
    split.
    + intros (e & TP & -> & ->). apply top_reread in TP as (e' & -> & TP). apply ST in TP as [I U]. apply MEM in I as (t & X & I). destruct (H t X) as [S1 D1].
      exists t. split; auto. split; [apply (entries_describe t e' S1 D1 I)|]. intros other q v O DO EX. destruct (H other O) as [S2 D2]. apply describe_entries in DO as (e2 & I2 & -> & _); auto.
      apply extends_dpath in EX. apply (U e2); auto. apply MEM. eauto.
    + intros (t & X & DT & U). destruct (H t X) as [S1 D1]. apply describe_entries in DT as (e & I & -> & ->); auto. exists (reread_entry e). split; [|auto]. apply top_reread. exists e. split; auto.
      apply ST. split; [apply MEM; eauto|]. intros e' I' EX. apply MEM in I' as (t' & X' & I'). destruct (H t' X') as [S2 D2]. destruct (entries_describe t' e' S2 D2 I') as [_ DD].
      apply (U t' _ _ X' DD). apply dpath_extends; auto.
Qed.

(** ** All values of a session *)

Lemma sd_plain : forall t : tree pinfo, wf t -> full t -> string_dicts t -> plain t.
Proof.
  intros t. induction t as [i|k cs F] using tree_ind'; intros W U S; [constructor|]. inversion_clear W as [|? ? K W']. inversion_clear U as [|? ? N U']. inversion S as [|? S']; subst.
  rewrite Forall_forall in *. destruct K as [ND _]. constructor; auto.
  - intros x X. apply in_map_iff in X as (y & <- & Y). apply (S' y Y).
  - apply Forall_forall. intros x X. apply F; auto. apply (S' x X).
Qed.

Lemma full_no_empty : forall (t : tree pinfo) p k, full t -> ~ at_path t p (Node k []).
Proof.
  intros t p k U A. remember (Node k []) as s eqn:E. revert U. induction A as [t|l cs x c p s I A IH]; intros U; subst; inversion_clear U as [|? ? N U']; [congruence|].
  rewrite Forall_forall in U'. apply IH; auto. apply (U' _ I).
Qed.

Lemma describes_has : forall t p w, describes_at t p w -> has_value t (key_of p) \/ has_empty t (key_of p).
Proof. intros t p w [(i & v & A & _)|(k & ty & A & _)]; [left; exists p, i; auto|right; exists p, k; auto]. Qed.

Definition in_order (l : list (tree pinfo)) : Prop :=
  forall l1 a l2 b l3 x y, l = (l1 ++ a :: l2 ++ b :: l3)%list -> has_value b x -> has_value a y \/ has_empty a y -> ~ conflict x y.

Lemma in_order_app : forall l t, in_order l -> allowed l t -> in_order (l ++ [t])%list.
Proof.
  intros l t O A l1 a l2 b l3 x y E B H. destruct (exists_last (l := b :: l3)) as (r & z & R); [discriminate|].
  assert (Z : l = (l1 ++ a :: l2 ++ r)%list /\ t = z).
  { rewrite R in E. replace (l1 ++ a :: l2 ++ r ++ [z])%list with ((l1 ++ a :: l2 ++ r) ++ [z])%list in E by (rewrite <- !app_assoc; cbn [app]; rewrite <- !app_assoc; auto).
    apply app_inj_tail in E. auto. }
  destruct Z as [-> ->]. destruct r as [|b' r]; cbn [app] in R.
  - injection R as -> ->. apply (A x y a); auto. apply in_app_iff. right. left. auto.
  - injection R as <- ->. apply (O l1 a l2 b r x y); auto.
Qed.

Lemma decided_order : forall saved items rs all, decided saved items rs all -> in_order saved -> in_order all /\ forall t, In t all -> In t saved \/ In t items.
Proof.
  intros saved items rs all D. induction D as [saved|saved k items rs all D IH|saved item items rs all E A D IH|saved item items rs all E A D IH]; intros O.
  - auto.
  - destruct (IH O) as [H1 H2]. split; auto. intros t T. destruct (H2 t T); auto. right. right. auto.
  - destruct (IH (in_order_app _ _ O A)) as [H1 H2]. split; auto. intros t T. destruct (H2 t T) as [X|X]; [|right; right; auto]. apply in_app_iff in X as [X|[X|[]]]; auto. right. left. auto.
  - destruct (IH O) as [H1 H2]. split; auto. intros t T. destruct (H2 t T); auto. right. right. auto.
Qed.

Lemma two_of : forall {A : Type} (l : list A) a b, In a l -> In b l -> a = b \/ (exists l1 l2 l3, l = l1 ++ a :: l2 ++ b :: l3)%list \/ (exists l1 l2 l3, l = l1 ++ b :: l2 ++ a :: l3)%list.
Proof.
  intros A l a b I J. apply in_split in I as (l1 & l2 & ->). apply in_app_iff in J as [J|[J|J]].
  - right. right. apply in_split in J as (m1 & m2 & ->). exists m1, m2, l2. rewrite <- app_assoc. reflexivity.
  - auto.
  - right. left. apply in_split in J as (m1 & m2 & ->). exists l1, m1, m2. reflexivity.
Qed.

Theorem union_ok : forall f items rs all, decided [] items rs all -> all <> [] ->
  (forall t, In t items -> savable t /\ full t /\ string_dicts t) ->
  exists T, finalized_tree (map (file f) (map entries_of all)) = Ok T /\
  forall p w, at_path T p (Leaf w) <-> exists item i v, In item all /\ at_path item p (Leaf i) /\ written i v /\ w = reread_value v.
Proof.
  intros f items rs all D NE H. destruct (decided_order _ _ _ _ D) as [O M].
  { intros l1 a l2 b l3 x y E. destruct l1; discriminate. }
  assert (H' : forall t, In t all -> savable t /\ full t /\ string_dicts t) by (intros t T; destruct (M t T) as [[]|X]; auto).
  assert (HV : forall t p w, In t all -> describes_at t p w -> exists i v, at_path t p (Leaf i) /\ written i v /\ w = reread_value v).
  { intros t p w T [X|(k & ty & A & _)]; auto. exfalso. apply (full_no_empty t p k); auto. apply (H' t T). }
  destruct (finalized_ok f all NE) as (T & E & A).
  - intros t X. destruct (H' t X) as (A & _ & B). auto.
  - intros l1 a l2 b l3 p v w EQ X Y. apply (O l1 a l2 b l3 (key_of p) (key_of p) EQ); [|apply (describes_has _ _ _ X)|left; auto].
    apply HV in Y as (i & u & Y & _); [exists p, i; auto|]. rewrite EQ. apply in_app_iff. right. right. apply in_app_iff. right. left. auto.
  - exists T. split; auto. intros p w. rewrite A. split.
    + intros (item & I & X & _). destruct (HV _ _ _ I X) as (i & v & Y). exists item, i, v. auto.
    + intros (item & i & v & I & X & W & ->). exists item. split; auto. split; [left; eauto|]. intros other q u J Y EX. destruct (HV _ _ _ J Y) as (i' & v' & Y' & _).
      destruct (H' item I) as ([W1 _] & U1 & S1). destruct (H' other J) as ([W2 _] & U2 & S2).
      assert (EK : extends (key_of q) (key_of p)) by (destruct EX as (r & R & ->); exists (key_of r); split; [destruct r; [congruence|discriminate]|apply map_app]).
      destruct (two_of all item other I J) as [EQ|[(l1 & l2 & l3 & EQ)|(l1 & l2 & l3 & EQ)]].
      * subst other. apply (leaf_ends item p q i (Leaf i')); auto. apply sd_plain; auto.
      * apply (O l1 item l2 other l3 (key_of q) (key_of p) EQ); [exists q, i'; auto|left; exists p, i; auto|right; left; auto].
      * apply (O l1 other l2 item l3 (key_of p) (key_of q) EQ); [exists p, i; auto|left; exists q, i'; auto|right; right; auto].
Qed.

(** ** The requests *)

Lemma leaf_names_end : forall (t : tree pinfo) p q v s, wf t -> at_path t p (Leaf v) -> at_path t q s -> ~ extends (key_of q) (key_of p).
Proof.
  intros t p q v s W A. revert q s W. remember (Leaf v) as l eqn:E. induction A as [t|k cs x c p l I A IH]; intros q s W B (r & N & X).
  - subst t. inversion B; subst. cbn in X. congruence.
  - inversion_clear W as [|? ? K W']. destruct q as [|y q]; [discriminate|]. apply at_node in B as (d & J & B). cbn [key_of map app] in X. injection X as X1 X2.
    assert (y = x) by (apply (names_inj k (map fst cs) K); auto; [apply (in_map fst) in J; auto|apply (in_map fst) in I; auto]). subst y.
    assert (d = c).
    { assert (ND : NoDup (map fst cs)) by (apply (NoDup_map_inv str_name); apply (names_nodup k); auto). clear - ND I J. induction cs as [|z cs IH]; [contradiction|]. cbn [map] in ND. inversion_clear ND as [|? ? N1 N2].
      destruct I as [->|I], J as [J|J]; [congruence| | |auto]; exfalso; apply N1; [apply (in_map fst) in J; auto|subst z; apply (in_map fst) in I; auto]. }
    subst d. rewrite Forall_forall in W'. apply (IH E q s (W' _ I) B). exists r. auto.
Qed.

Lemma kept_once : forall {A : Type} (adds : list (list string)) (x : list string * A), NoDup adds -> In (fst x) adds -> (forall a, In a adds -> ~ extends (fst x) a) ->
  flat_map (fun add => if names_eqb add (firstn (List.length add) (fst x)) then [x] else []) adds = [x].
Proof.
  intros A adds x. assert (P : forall a, names_eqb a (firstn (List.length a) (fst x)) = true -> a = fst x \/ extends (fst x) a).
  { intros a E. destruct (names_eqb_spec a (firstn (List.length a) (fst x))) as [F|]; [|discriminate]. destruct (skipn (List.length a) (fst x)) as [|y r] eqn:R.
    - left. assert (Z := firstn_skipn (List.length a) (fst x)). rewrite R, app_nil_r in Z. congruence.
    - right. exists (y :: r). split; [discriminate|]. rewrite <- (firstn_skipn (List.length a) (fst x)), R. congruence. }
  assert (Z : forall l, ~ In (fst x) l -> (forall a, In a l -> ~ extends (fst x) a) -> flat_map (fun add => if names_eqb add (firstn (List.length add) (fst x)) then [x] else []) l = []).
  { induction l as [|a l IH]; intros N H; auto. cbn [flat_map]. destruct (names_eqb _ _) eqn:E; [exfalso; apply P in E as [E|E]; [apply N; left; auto|apply (H a); [left|]; auto]|].
    rewrite IH; auto; [intros I; apply N; right; auto|intros b I; apply H; right; auto]. }
  induction adds as [|a adds IH]; intros N I H; [contradiction|]. inversion_clear N as [|? ? N1 N2]. cbn [flat_map]. destruct I as [->|I].
  - rewrite firstn_all. destruct (names_eqb_spec (fst x) (fst x)); [|congruence]. rewrite Z; auto. intros b B. apply H. right; auto.
  - destruct (names_eqb a _) eqn:E; [exfalso; apply P in E as [E|E]; [apply N1; rewrite E; auto|apply (H a); [left|]; auto]|]. rewrite IH; auto. intros b B. apply H. right; auto.
Qed.

Theorem requests_ok : forall {A : Type} (item : tree pinfo) (requests : list (list (list string * A))), wf item ->
  (forall r x, In r requests -> In x r -> has_value item (fst x)) -> (forall r, In r requests -> r <> []) ->
  filter_batch_requests requests (map fst (to_flat_dict false item)) = requests.
Proof.
  intros A item requests W H N. unfold filter_batch_requests.
  assert (M : map (fun request => flat_map (fun x => flat_map (fun add => if names_eqb add (firstn (List.length add) (fst x)) then [x] else []) (map fst (to_flat_dict false item))) request) requests = requests).
  { rewrite <- (map_id requests) at 2. apply map_ext_in. intros r R. specialize (H r). induction r as [|x r IH]; [reflexivity|]. cbn [flat_map].
    assert (G : forall l : list (list string * A), (forall x, In x l -> has_value item (fst x)) ->
      flat_map (fun x => flat_map (fun add => if names_eqb add (firstn (List.length add) (fst x)) then [x] else []) (map fst (to_flat_dict false item))) l = l).
    { clear - W. induction l as [|x l IH]; intros H; [reflexivity|]. cbn [flat_map]. rewrite IH by (intros y Y; apply H; right; auto). rewrite kept_once; [reflexivity| | |].
      - rewrite to_flat_eq by auto. apply named_nodup; auto.
      - apply flat_keys_in; auto. apply H. left; auto.
      - intros a I. apply flat_keys_in in I as (p & i & P & ->); auto. destruct (H x (or_introl eq_refl)) as (q & j & Q & ->). apply (leaf_names_end item p q i (Leaf j)); auto. }
    apply (G (x :: r)). intros y Y. apply H; auto. }
  rewrite M. clear M H. induction requests as [|r requests IH]; [reflexivity|]. cbn [filter]. destruct r as [|x r]; [elim (N [] (or_introl eq_refl)); auto|]. cbn [List.length Nat.eqb negb]. f_equal. apply IH.
  intros s S. apply N. right; auto.
Qed.

(** ** Names *)

Lemma substring_app : forall a b, substring (String.length a) (String.length b) (a ++ b) = b.
Proof.
  intros a b. induction a as [|c a IH]; [|exact IH]. cbn [String.length append]. clear. induction b as [|c b IH]; auto. cbn [String.length substring]. f_equal. exact IH.
Qed.

Lemma substring_pre : forall a b, substring 0 (String.length a) (a ++ b) = a.
Proof. intros a b. induction a as [|c a IH]; cbn [String.length append substring]; [destruct b; auto|]. f_equal. exact IH. Qed.

Lemma length_app : forall a b, String.length (a ++ b) = (String.length a + String.length b)%nat.
Proof. intros a b. induction a as [|c a IH]; auto. cbn [append String.length]. rewrite IH. reflexivity. Qed.

Lemma suffix_added : forall n, is_partial_save_path (add_partial_save_suffix n) = true.
Proof.
  intros n. unfold is_partial_save_path, add_partial_save_suffix. rewrite length_app. replace (String.length n + String.length PARTIAL_SAVE_SUFFIX - String.length PARTIAL_SAVE_SUFFIX)%nat with (String.length n) by lia.
  rewrite substring_app, String.eqb_refl, andb_true_r. apply Nat.leb_le. lia.
Qed.

Lemma suffix_removed : forall n, remove_partial_save_suffix (add_partial_save_suffix n) = n.
Proof.
  intros n. unfold remove_partial_save_suffix. rewrite suffix_added. unfold add_partial_save_suffix. rewrite length_app.
  replace (String.length n + String.length PARTIAL_SAVE_SUFFIX - String.length PARTIAL_SAVE_SUFFIX)%nat with (String.length n) by lia. apply substring_pre.
Qed.

Lemma is_partial_spec : forall n, is_partial_save_path n = true <-> exists m, n = m ++ ".partial_save".
Proof.
  intros n. split; [|intros (m & ->); apply suffix_added]. unfold is_partial_save_path. rewrite andb_true_iff. intros [L E]. apply Nat.leb_le in L. apply String.eqb_eq in E.
  exists (substring 0 (String.length n - String.length PARTIAL_SAVE_SUFFIX) n). change ".partial_save" with PARTIAL_SAVE_SUFFIX. revert L E. generalize PARTIAL_SAVE_SUFFIX. intros s L E.
  assert (G : forall n a b, (a + b = String.length n)%nat -> n = substring 0 a n ++ substring a b n).
  { clear. induction n as [|c n IH]; intros a b E; cbn [String.length] in E; [destruct a, b; cbn; auto; lia|]. destruct a as [|a].
    - cbn [substring append]. destruct b as [|b]; [cbn in E; lia|]. f_equal. rewrite (IH 0 b) at 1 by lia. destruct n; reflexivity.
    - cbn [substring append]. f_equal. apply IH. lia. }
  transitivity (substring 0 (String.length n - String.length s) n ++ substring (String.length n - String.length s) (String.length s) n); [apply G; lia|rewrite E; reflexivity].
Qed.

Lemma compare_app : forall s a b, String.compare (s ++ a) (s ++ b) = String.compare a b.
Proof.
  induction s as [|c s IH]; intros a b; auto. cbn [append String.compare]. unfold Ascii.compare. rewrite N.compare_refl. apply IH.
Qed.

Lemma parse_bound : forall l acc n, parse_digits acc l = Some n -> (acc * 10 ^ N.of_nat (List.length l) <= n < (acc + 1) * 10 ^ N.of_nat (List.length l))%N.
Proof.
  induction l as [|c l IH]; intros acc n E; cbn [parse_digits] in E; [injection E as <-; cbn; lia|]. destruct (char_digit c) as [d|] eqn:D; [|discriminate]. apply IH in E.
  assert (X : (d < 10)%N). { unfold char_digit in D. destruct ((48 <=? N_of_ascii c)%N && (N_of_ascii c <=? 57)%N) eqn:B; [|discriminate]. injection D as <-. apply andb_true_iff in B as [B1 B2]. apply N.leb_le in B1, B2. lia. }
  cbn [List.length]. rewrite Nat2N.inj_succ, N.pow_succ_r'. nia.
Qed.

Lemma digit_order : forall c d a b, char_digit c = Some a -> char_digit d = Some b -> Ascii.compare c d = N.compare a b.
Proof.
  intros c d a b A B. unfold char_digit in *. destruct ((48 <=? N_of_ascii c)%N && (N_of_ascii c <=? 57)%N) eqn:X; [|discriminate]. destruct ((48 <=? N_of_ascii d)%N && (N_of_ascii d <=? 57)%N) eqn:Y; [|discriminate].
  injection A as <-. injection B as <-. apply andb_true_iff in X as [X1 X2], Y as [Y1 Y2]. apply N.leb_le in X1, X2, Y1, Y2. unfold Ascii.compare.
  destruct (N.compare_spec (N_of_ascii c) (N_of_ascii d)); symmetry; [apply N.compare_eq_iff|apply N.compare_lt_iff|apply N.compare_gt_iff]; lia.
Qed.

Lemma digits_order : forall l m acc a b r s, List.length l = List.length m -> parse_digits acc l = Some a -> parse_digits acc m = Some b -> (a < b)%N ->
  String.compare (string_of_list_ascii l ++ r) (string_of_list_ascii m ++ s) = Lt.
Proof.
  induction l as [|c l IH]; intros [|d m] acc a b r s L A B H; cbn [List.length] in L; try lia.
  - cbn [parse_digits] in *. injection A as <-. injection B as <-. lia.
  - cbn [parse_digits] in *. destruct (char_digit c) as [x|] eqn:X; [|discriminate]. destruct (char_digit d) as [y|] eqn:Y; [|discriminate]. cbn [string_of_list_ascii append String.compare].
    rewrite (digit_order _ _ _ _ X Y). destruct (N.compare_spec x y) as [->|G|G]; auto.
    + apply (IH m (10 * acc + y)%N a b); auto.
    + exfalso. apply parse_bound in A, B. assert (E : List.length l = List.length m) by lia. rewrite E in A. assert (P : (0 < 10 ^ N.of_nat (List.length m))%N) by (apply N.neq_0_lt_0; apply N.pow_nonzero; lia). nia.
Qed.

Theorem pending_order : forall s t1 t2 u1 u2, List.length (dec t1) = List.length (dec t2) -> (t1 < t2)%N ->
  String.compare (get_pending_dir_name s t1 u1) (get_pending_dir_name s t2 u2) = Lt.
Proof.
  intros s t1 t2 u1 u2 L H. unfold get_pending_dir_name. rewrite !compare_app. apply (digits_order _ _ 0%N t1 t2); auto; apply parse_dec.
Qed.

Lemma split_last : forall w r, lacks "_"%char r -> last (split_from "_" 0 (w ++ "_" ++ r)) "" = r.
Proof.
  intros w r L. assert (G : forall w, exists l, l <> [] /\ split_from "_" 0 (w ++ "_" ++ r) = (l ++ [r])%list).
  { clear w. induction w as [|c w IH].
    - exists [""]. split; [discriminate|]. assert (X := split_first "_"%char "" r). cbn [append] in X. cbn [append]. rewrite X by (intros []). rewrite split_piece by auto. reflexivity.
    - destruct IH as (l & N & E). cbn [append split_from]. change "_" with (String "_"%char "") at 1. rewrite prefix_one. cbn [append] in E. cbn [String.length Nat.sub]. rewrite E. destruct (Ascii.eqb "_"%char c).
      + exists ("" :: l). split; [discriminate|reflexivity].
      + destruct l as [|x l]; [congruence|]. exists (String c x :: l). split; [discriminate|reflexivity]. }
  destruct (G w) as (l & _ & E). rewrite E. apply last_last.
Qed.

Theorem uuid_ok : forall s t u, lacks "_"%char u -> get_uuid_from_pending_dir_name (get_pending_dir_name s t u) = u.
Proof.
  intros s t u L. unfold get_uuid_from_pending_dir_name, get_pending_dir_name.
  replace (s ++ ".pending" ++ "_" ++ string_of_list_ascii (dec t) ++ "_" ++ u) with ((s ++ ".pending" ++ "_" ++ string_of_list_ascii (dec t)) ++ "_" ++ u); [apply split_last; auto|].
  assert (A : forall a b c, (a ++ b) ++ c = a ++ b ++ c) by (induction a as [|x a IH]; intros b c; auto; cbn [append]; rewrite IH; auto). rewrite !A. reflexivity.
Qed.
