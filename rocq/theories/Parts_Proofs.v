(** Proofs about partial trees. *)
From Coq Require Import List Bool Arith NArith ZArith String Ascii Permutation Lia.
From Verif Require Import Base StepName_Model StepName_Proofs Tree_Model Tree_Spec Tree_Proofs Parts_Model Parts_Spec.
Import ListNotations.

(** ** Structures *)

Lemma tree_map_node : forall {V W : Type} (f : V -> W) k cs, tree_map f (Node k cs) = Node k (map_items (tree_map f) cs).
Proof. auto. Qed.

Lemma map_items_comp : forall {A B C : Type} (g : B -> C) (f : A -> B) l, map_items g (map_items f l) = map_items (fun x => g (f x)) l.
Proof. intros. unfold map_items. rewrite map_map. auto. Qed.

Lemma map_items_ext : forall {A B : Type} (f g : A -> B) l, Forall (fun x => f (snd x) = g (snd x)) l -> map_items f l = map_items g l.
Proof. intros A B f g l F. unfold map_items. apply map_ext_in. rewrite Forall_forall in F. intros x I. rewrite F; auto. Qed.

Lemma tree_map_comp : forall {A B C : Type} (g : B -> C) (f : A -> B) t, tree_map g (tree_map f t) = tree_map (fun x => g (f x)) t.
Proof.
  intros A B C g f t. induction t as [v|k cs F] using tree_ind'; auto. rewrite !tree_map_node. rewrite map_items_comp. f_equal. apply map_items_ext. auto.
Qed.

Lemma tree_map_norm : forall {A B : Type} (f : A -> B) t, norm (tree_map f t) = tree_map f (norm t).
Proof.
  intros A B f t. induction t as [v|k cs F] using tree_ind'; auto. rewrite norm_node, !tree_map_node. rewrite norm_node. rewrite order_map. rewrite !map_items_comp. f_equal.
  apply map_items_ext. rewrite Forall_forall in *. intros x I. rewrite order_in in I. auto.
Qed.

Lemma tree_map_unit : forall (t : treedef), tree_map (fun _ => tt) t = t.
Proof.
  intros t. induction t as [[]|k cs F] using tree_ind'; auto. rewrite tree_map_node. f_equal. unfold map_items. rewrite <- (map_id cs) at 2.
  apply map_ext_in. rewrite Forall_forall in F. intros x I. rewrite F by auto. symmetry. apply surjective_pairing.
Qed.

Lemma map_items_fst : forall {A B : Type} (f : A -> B) l, map fst (map_items f l) = map fst l.
Proof. intros. unfold map_items. rewrite map_map. auto. Qed.

Lemma wf_tree_map : forall {A B : Type} (f : A -> B) t, wf t -> wf (tree_map f t).
Proof.
  intros A B f t. induction t as [v|k cs F] using tree_ind'; intros W; [constructor|]. inversion_clear W as [|? ? W1 W2]. rewrite tree_map_node. constructor.
  - rewrite map_items_fst. auto.
  - rewrite Forall_forall in *. intros x I. unfold map_items in I. apply in_map_iff in I as (y & <- & I). simpl. auto.
Qed.

Lemma wf_norm : forall {A : Type} (t : tree A), wf t -> wf (norm t).
Proof.
  intros A t. induction t as [v|k cs F] using tree_ind'; intros W; [constructor|]. inversion_clear W as [|? ? W1 W2]. rewrite norm_node. constructor.
  - rewrite map_items_fst. apply order_fit. auto.
  - rewrite Forall_forall in *. intros x I. unfold map_items in I. apply in_map_iff in I as (y & <- & I). simpl. rewrite order_in in I. auto.
Qed.

Lemma key_leb_total : forall a b, key_leb a b = false -> key_leb b a = true.
Proof.
  intros [i|[s|x]|s] [j|[t|y]|t] H; simpl in *; auto; try discriminate.
  - destruct (String.leb_total s t); congruence.
  - apply Z.leb_gt in H. apply Z.leb_le. lia.
Qed.

Inductive asc {A : Type} : list (key * A) -> Prop :=
| asc_nil : asc []
| asc_one : forall x, asc [x]
| asc_cons : forall x y l, key_leb (fst x) (fst y) = true -> asc (y :: l) -> asc (x :: y :: l).

Lemma insert_asc : forall {A : Type} (x : key * A) l, asc l -> asc (insert_item x l).
Proof.
  intros A x l H. induction H as [|y|y z l L H IH]; cbn [insert_item]; [constructor| |].
  - destruct (key_leb (fst x) (fst y)) eqn:E; repeat constructor; auto. apply key_leb_total; auto.
  - destruct (key_leb (fst x) (fst y)) eqn:E; [repeat constructor; auto|]. cbn [insert_item] in IH. destruct (key_leb (fst x) (fst z)) eqn:E2; constructor; auto.
    apply key_leb_total; auto.
Qed.

Lemma sort_asc : forall {A : Type} (l : list (key * A)), asc (sort_items l).
Proof. intros A l. induction l as [|x l IH]; [constructor|]. simpl. apply insert_asc. auto. Qed.

Lemma asc_sort : forall {A : Type} (l : list (key * A)), asc l -> sort_items l = l.
Proof. intros A l H. induction H as [|y|y z l L H IH]; auto. simpl in *. rewrite IH. simpl. rewrite L. auto. Qed.

Lemma order_order : forall {A : Type} k (l : list (key * A)), order k (order k l) = order k l.
Proof. intros A [] l; simpl; auto. apply asc_sort, sort_asc. Qed.

Lemma norm_norm : forall {A : Type} (t : tree A), norm (norm t) = norm t.
Proof.
  intros A t. induction t as [v|k cs F] using tree_ind'; auto. rewrite norm_node. rewrite norm_node. rewrite order_map, order_order, map_items_comp. f_equal.
  apply map_items_ext. rewrite Forall_forall in *. intros x I. rewrite order_in in I. auto.
Qed.

Lemma at_map : forall {A B : Type} (f : A -> B) t p s, at_path (tree_map f t) p s <-> exists s', at_path t p s' /\ s = tree_map f s'.
Proof.
  intros A B f t. induction t as [v|k cs F] using tree_ind'; intros p s.
  - split; [intros H; inversion H; subst; exists (Leaf v); split; [constructor|auto]|intros (s' & H & ->)]. inversion H; subst. constructor.
  - rewrite tree_map_node. split.
    + intros H. inversion H as [|? ? x c q ? I B']; subst; [exists (Node k cs); split; [constructor|auto]|]. unfold map_items in I. apply in_map_iff in I as ((y & d) & E & I).
      injection E as <- <-. rewrite Forall_forall in F. apply (F (y, d) I) in B' as (s' & B' & ->). exists s'. split; auto. apply at_child with (c := d); auto.
    + intros (s' & H & ->). inversion H as [|? ? x c q ? I B']; subst; [constructor|]. apply at_child with (c := tree_map f c).
      * unfold map_items. apply in_map_iff. exists (x, c). auto.
      * rewrite Forall_forall in F. apply (F (x, c) I). eauto.
Qed.

Lemma at_norm_leaf : forall {A : Type} (t : tree A) p v, at_path (norm t) p (Leaf v) <-> at_path t p (Leaf v).
Proof.
  intros A t. induction t as [w|k cs F] using tree_ind'; intros p v; [reflexivity|]. rewrite norm_node. rewrite Forall_forall in F. split; intros H.
  - inversion H as [|? ? x c q ? I B]; subst. unfold map_items in I. apply in_map_iff in I as ((y & d) & E & I). injection E as <- <-. rewrite order_in in I.
    apply at_child with (c := d); auto. apply (F (y, d)); auto.
  - inversion H as [|? ? x c q ? I B]; subst. apply at_child with (c := norm c); [|apply (F (x, c)); auto].
    unfold map_items. apply in_map_iff. exists (x, c). rewrite order_in. auto.
Qed.

Lemma leaf_name_map : forall {A B : Type} (f : A -> B) t k, leaf_name (tree_map f t) k <-> leaf_name t k.
Proof.
  intros. split; intros (p & u & A0 & E).
  - apply at_map in A0 as (s' & A0 & E'). destruct s'; [|discriminate]. exists p, v. auto.
  - exists p, (f u). split; auto. apply at_map. exists (Leaf u). auto.
Qed.

Lemma leaf_name_norm : forall {A : Type} (t : tree A) k, leaf_name (norm t) k <-> leaf_name t k.
Proof. intros. unfold leaf_name. split; intros (p & u & A0 & E); exists p, u; split; auto; apply at_norm_leaf; auto. Qed.

Lemma leaf_name_structure : forall {A : Type} (t : tree A) k, leaf_name (structure t) k <-> leaf_name t k.
Proof. intros. unfold structure. rewrite leaf_name_norm. apply leaf_name_map. Qed.

Lemma kind_eqb_spec : forall a b, reflect (a = b) (kind_eqb a b).
Proof. intros [] []; simpl; try (constructor; congruence). destruct (String.eqb_spec c c0); constructor; congruence. Qed.

Lemma treedef_eqb_iff : forall a b, treedef_eqb a b = true <-> a = b.
Proof.
  intros a. induction a as [[]|k cs F] using tree_ind'; intros [[]|l ds]; try (cbn [treedef_eqb]; intuition congruence). cbn [treedef_eqb].
  destruct (kind_eqb_spec k l) as [<-|]; [|cbn [andb]; intuition congruence]. cbn [andb].
  match goal with |- ?f cs ds = true <-> _ => assert (G : f cs ds = true <-> cs = ds) end.
  { revert ds. induction F as [|[x c] cs F1 F2 IH]; intros [|[y d] ds]; try (intuition congruence).
    cbn [snd] in F1. destruct (key_eqb_spec x y) as [<-|]; [|cbn [andb]; intuition congruence]. cbn [andb]. rewrite andb_true_iff, F1, IH. intuition congruence. }
  rewrite G. intuition congruence.
Qed.

Lemma treedef_eqb_spec : forall a b, reflect (a = b) (treedef_eqb a b).
Proof. intros a b. apply iff_reflect. rewrite treedef_eqb_iff. tauto. Qed.

Lemma treedef_eqb_refl : forall a, treedef_eqb a a = true.
Proof. intros a. destruct (treedef_eqb_spec a a); congruence. Qed.

Lemma with_leaves_map : forall {A B C : Type} (g : A -> B) (f : path -> tree C) t, with_leaves f (tree_map g t) = with_leaves f t.
Proof.
  intros A B C g f t. revert f. induction t as [v|k cs F] using tree_ind'; intros f; auto. rewrite tree_map_node, !with_leaves_node. f_equal. unfold map_items. rewrite map_map. cbn [fst snd].
  apply map_ext_in. rewrite Forall_forall in F. intros x I. rewrite F; auto.
Qed.

(** ** Dictionaries *)

Lemma has_in : forall {V : Type} k (d : dict (list string) V), has k d = true <-> In k (map fst d).
Proof.
  intros V k d. unfold has. destruct (dget names_eqb k d) eqn:E.
  - split; auto. intros _. destruct (in_dec (list_eq_dec string_dec) k (map fst d)) as [I|N]; auto. apply (dget_none names_eqb names_eqb_spec) in N. congruence.
  - apply (dget_none names_eqb names_eqb_spec) in E. split; [discriminate|contradiction].
Qed.

Lemma dget_dput : forall {K V : Type} (eqb : K -> K -> bool) (S : forall a b, reflect (a = b) (eqb a b)) k k' (v : V) d,
  dget eqb k (dput eqb k' v d) = if eqb k k' then Some v else dget eqb k d.
Proof.
  intros K V eqb S k k' v d. induction d as [|[k2 w] d IH]; cbn [dput dget]; auto. destruct (S k' k2) as [<-|N]; cbn [dget].
  - destruct (S k k'); auto.
  - rewrite IH. destruct (S k k2) as [<-|N2]; auto. destruct (S k k'); congruence.
Qed.

Lemma dput_keys : forall {K V : Type} (eqb : K -> K -> bool) (S : forall a b, reflect (a = b) (eqb a b)) k (v : V) d x, In x (map fst (dput eqb k v d)) <-> x = k \/ In x (map fst d).
Proof.
  intros K V eqb S k v d x. induction d as [|[k2 w] d IH]; cbn [dput map fst In]; [intuition congruence|]. destruct (S k k2) as [<-|N]; cbn [map fst In]; [intuition congruence|].
  rewrite IH. intuition.
Qed.

Lemma dput_nodup : forall {K V : Type} (eqb : K -> K -> bool) (S : forall a b, reflect (a = b) (eqb a b)) k (v : V) d, NoDup (map fst d) -> NoDup (map fst (dput eqb k v d)).
Proof.
  intros K V eqb S k v d N. induction d as [|[k2 w] d IH]; cbn [dput map fst]; [repeat constructor; auto|]. cbn [map fst] in N. inversion_clear N as [|? ? N1 N2].
  destruct (S k k2) as [<-|NE]; cbn [map fst]; constructor; auto. intros H. apply (dput_keys eqb S) in H as [->|H]; congruence.
Qed.

Lemma dget_some_in : forall {K V : Type} (eqb : K -> K -> bool) (S : forall a b, reflect (a = b) (eqb a b)) k (v : V) d, dget eqb k d = Some v -> In (k, v) d.
Proof. intros K V eqb S k v d. induction d as [|[k2 w] d IH]; cbn [dget]; [discriminate|]. destruct (S k k2) as [<-|N]; intros H; [injection H as ->; left; auto|right; auto]. Qed.

Lemma update_get : forall {V : Type} k (e d : dict (list string) V), NoDup (map fst e) ->
  dget names_eqb k (update d e) = match dget names_eqb k e with Some v => Some v | None => dget names_eqb k d end.
Proof.
  intros V k e. unfold update. induction e as [|[k2 w] e IH]; intros d N; auto. cbn [fold_left fst snd]. cbn [map fst] in N. inversion_clear N as [|? ? N1 N2]. rewrite IH by auto.
  cbn [dget]. rewrite (dget_dput names_eqb names_eqb_spec). destruct (names_eqb_spec k k2) as [<-|NE]; auto.
  apply (dget_none names_eqb names_eqb_spec) in N1. rewrite N1. auto.
Qed.

Lemma update_nodup : forall {V : Type} (e d : dict (list string) V), NoDup (map fst d) -> NoDup (map fst (update d e)).
Proof. intros V e. unfold update. induction e as [|[k2 w] e IH]; intros d N; auto. cbn [fold_left fst snd]. apply IH. apply dput_nodup; auto. apply names_eqb_spec. Qed.

Lemma update_keys : forall {V : Type} k (e d : dict (list string) V), In k (map fst (update d e)) <-> In k (map fst d) \/ In k (map fst e).
Proof.
  intros V k e. unfold update. induction e as [|[k2 w] e IH]; intros d; cbn [fold_left map fst snd In]; [tauto|]. rewrite IH. rewrite (dput_keys names_eqb names_eqb_spec). intuition.
Qed.

Lemma filter_get : forall {V : Type} (f : list string -> bool) k (d : dict (list string) V),
  dget names_eqb k (filter (fun x => f (fst x)) d) = if f k then dget names_eqb k d else None.
Proof.
  intros V f k d. induction d as [|[k2 w] d IH]; cbn [filter dget fst]; [destruct (f k); auto|]. destruct (f k2) eqn:E; cbn [dget].
  - destruct (names_eqb_spec k k2) as [<-|N]; auto. rewrite E. auto.
  - rewrite IH. destruct (names_eqb_spec k k2) as [<-|N]; auto. rewrite E. auto.
Qed.

Lemma filter_keys : forall {V : Type} (f : list string * V -> bool) k (d : dict (list string) V), In k (map fst (filter f d)) -> In k (map fst d).
Proof. intros V f k d H. apply in_map_iff in H as (x & <- & H). apply filter_In in H as [H _]. apply in_map; auto. Qed.

Lemma given_in : forall {V : Type} k v (l : list (list string * partial_tree V)), In (k, v) (given l) <-> In (k, Leaf (Some v)) l.
Proof.
  intros V k v l. induction l as [|[k2 [[w|]|kd cs]] l IH]; cbn [given In]; [tauto| | |].
  - rewrite IH. split; intros [H|H]; auto; left; injection H as -> ->; auto.
  - rewrite IH. split; auto. intros [H|H]; [congruence|auto].
  - rewrite IH. split; auto. intros [H|H]; [congruence|auto].
Qed.

Lemma given_nodup : forall {V : Type} (l : list (list string * partial_tree V)), NoDup (map fst l) -> NoDup (map fst (given l)).
Proof.
  intros V l. induction l as [|[k2 [[w|]|kd cs]] l IH]; cbn [given map fst]; intros N; auto; inversion_clear N as [|? ? N1 N2]; auto. constructor; auto.
  intros H. apply N1. apply in_map_iff in H as ((k & v) & <- & H). apply given_in in H. apply (in_map fst) in H. auto.
Qed.

Lemma leaf_names : forall {V : Type} (t : tree V) k, wf t -> (In k (map fst (to_flat_dict false t)) <-> leaf_name t k).
Proof.
  intros V t k W. rewrite to_flat_eq by auto. rewrite fst_named. split.
  - intros I. apply in_map_iff in I as (p & <- & I). apply leaf_in in I as (v & A). exists p, v. auto.
  - intros (p & u & A & <-). apply in_map. apply leaf_in. eauto.
Qed.

(** ** The operations *)

Record valid {V : Type} (P : parts V) : Prop := {
  v_wf : wf (template P);
  v_norm : norm (template P) = template P;
  v_nodup : NoDup (map fst (present P));
  v_keys : forall k, In k (map fst (present P)) -> leaf_name (template P) k
}.

Lemma given_flat : forall {V : Type} (value : partial_tree V), wf value ->
  NoDup (map fst (given (to_flat_dict false value))) /\
  forall k v, dget names_eqb k (given (to_flat_dict false value)) = Some v <-> exists p, at_path value p (Leaf (Some v)) /\ tuple_path_from_keypath p = k.
Proof.
  intros V value W. rewrite to_flat_eq by auto. assert (N := given_nodup _ (named_nodup false value W)). split; auto. intros k v.
  rewrite (dget_in names_eqb names_eqb_spec) by auto. rewrite given_in. unfold named. rewrite in_map_iff. split.
  - intros ((p & s) & E & I). injection E as <- ->. apply flatten_spec in I as [A _]. eauto.
  - intros (p & A & <-). exists (p, Leaf (Some v)). split; auto. apply flatten_spec. simpl. auto.
Qed.

Theorem init_spec : forall {U V : Type} (tmpl : tree U) (value : partial_tree V), wf tmpl -> wf value ->
  ((exists P, init tmpl value = Ok P) <-> (forall p v, at_path value p (Leaf (Some v)) -> leaf_name tmpl (tuple_path_from_keypath p))) /\
  ((forall P, init tmpl value <> Ok P) -> init tmpl value = Err ValueError) /\
  forall P, init tmpl value = Ok P -> template P = structure tmpl /\ valid P /\
    forall k v, val_at P k = Some v <-> exists p, at_path value p (Leaf (Some v)) /\ tuple_path_from_keypath p = k.
Proof.
  intros U V tmpl value WT WV. destruct (given_flat value WV) as [N G]. unfold init.
  assert (B : forallb (fun x => has (fst x) (to_flat_dict false tmpl)) (given (to_flat_dict false value)) = true <->
    (forall p v, at_path value p (Leaf (Some v)) -> leaf_name tmpl (tuple_path_from_keypath p))).
  { rewrite forallb_forall. split.
    - intros H p v A. apply leaf_names; auto. apply has_in. assert (E : dget names_eqb (tuple_path_from_keypath p) (given (to_flat_dict false value)) = Some v) by (apply G; eauto).
      apply (dget_some_in names_eqb names_eqb_spec) in E. apply H in E. auto.
    - intros H [k v] I. cbn [fst]. apply has_in. apply leaf_names; auto. apply (dget_in names_eqb names_eqb_spec) in I; auto. apply G in I as (p & A & <-). eauto. }
  destruct (forallb _ _) eqn:E; (split; [|split]).
  - split; [intros _; apply B; auto|eauto].
  - intros H. exfalso. eapply H; reflexivity.
  - intros P H. injection H as <-. spl; auto. constructor; cbn [template present]; auto.
    + unfold structure. apply wf_norm, wf_tree_map; auto.
    + unfold structure. apply norm_norm.
    + intros k I. apply leaf_name_structure. apply in_map_iff in I as ((k' & v) & <- & I). apply (dget_in names_eqb names_eqb_spec) in I; auto. apply G in I as (p & A & <-).
      eapply (proj1 B); eauto.
  - split; [intros (P & H); discriminate|]. intros H. apply B in H. discriminate.
  - auto.
  - discriminate.
Qed.

Lemma overlay_valid : forall {V : Type} strict (a b P : parts V), valid a -> valid b -> overlay strict a b = Ok P -> valid P /\ template P = template a /\
  forall k, val_at P k = match val_at b k with Some v => Some v | None => val_at a k end.
Proof.
  intros V strict a b P VA VB E. unfold overlay in E. destruct (treedef_eqb_spec (template a) (template b)) as [T|]; [|discriminate].
  destruct (strict && _); [discriminate|]. injection E as <-. spl; auto.
  - constructor; cbn [template present]; try apply VA.
    + apply update_nodup, VA.
    + intros k I. apply update_keys in I as [I|I]; [apply VA; auto|]. rewrite T. apply VB; auto.
  - intros k. unfold val_at. cbn [present]. apply update_get, VB.
Qed.

Lemma overlay_ok : forall {V : Type} strict (a b : parts V),
  (exists P, overlay strict a b = Ok P) <-> template a = template b /\ (strict = true -> forall k, val_at a k = None \/ val_at b k = None).
Proof.
  intros V strict a b. unfold overlay. destruct (treedef_eqb_spec (template a) (template b)) as [T|T]; [|split; [intros (P & H); discriminate|intros [H _]; contradiction]].
  assert (B : existsb (fun x => has (fst x) (present b)) (present a) = false <-> forall k, val_at a k = None \/ val_at b k = None).
  { unfold val_at. split.
    - intros E k. destruct (dget names_eqb k (present b)) as [w|] eqn:EB; auto. left. apply (dget_none names_eqb names_eqb_spec). intros I. apply in_map_iff in I as (x & <- & I).
      assert (X : existsb (fun x => has (fst x) (present b)) (present a) = true); [|congruence]. apply existsb_exists. exists x. split; auto. unfold has. rewrite EB. auto.
    - intros H. destruct (existsb _ _) eqn:E; auto. apply existsb_exists in E as (x & I & E). destruct (H (fst x)) as [H'|H'].
      + apply (dget_none names_eqb names_eqb_spec) in H'. exfalso. apply H'. apply in_map; auto.
      + unfold has in E. rewrite H' in E. discriminate. }
  destruct strict; cbn [andb].
  - destruct (existsb _ _).
    + split; [intros (P & H); discriminate|]. intros [_ H]. assert (true = false) by (apply B; auto). discriminate.
    + split; eauto. intros _. split; auto. intros _. apply B. auto.
  - split; eauto. intros _. split; auto. discriminate.
Qed.

Lemma filtered_valid : forall {V : Type} (a : parts V) f, valid a -> valid (mk_parts (template a) (filter (fun x => f (fst x)) (present a))).
Proof.
  intros V a f VA. constructor; cbn [template present]; try apply VA.
  - apply NoDup_map_filter, VA.
  - intros k I. apply filter_keys in I. apply VA; auto.
Qed.

Lemma intersect_valid : forall {V : Type} (a b P : parts V), valid a -> intersect a b = Ok P -> valid P /\ template P = template a /\
  forall k, val_at P k = match val_at b k with Some _ => val_at a k | None => None end.
Proof.
  intros V a b P VA E. unfold intersect in E. destruct (treedef_eqb_spec (template a) (template b)) as [T|]; [|discriminate]. injection E as <-. spl; auto.
  - apply (filtered_valid a (fun k => has k (present b))); auto.
  - intros k. unfold val_at. cbn [present]. rewrite (filter_get (fun k => has k (present b))). unfold has. destruct (dget names_eqb k (present b)); auto.
Qed.

Lemma subtract_valid : forall {V : Type} (a b P : parts V), valid a -> subtract a b = Ok P -> valid P /\ template P = template a /\
  forall k, val_at P k = match val_at b k with Some _ => None | None => val_at a k end.
Proof.
  intros V a b P VA E. unfold subtract in E. destruct (treedef_eqb_spec (template a) (template b)) as [T|]; [|discriminate]. injection E as <-. spl; auto.
  - apply (filtered_valid a (fun k => negb (has k (present b)))); auto.
  - intros k. unfold val_at. cbn [present]. rewrite (filter_get (fun k => negb (has k (present b)))). unfold has. destruct (dget names_eqb k (present b)); auto.
Qed.

Lemma template_fix : forall {V W : Type} (P : parts V) (f : unit -> W), valid P -> structure (tree_map f (template P)) = template P.
Proof. intros V W P f VP. unfold structure. rewrite tree_map_comp. rewrite tree_map_unit. apply VP. Qed.

Lemma mem_in : forall k l, mem k l = true <-> In k l.
Proof.
  intros k l. unfold mem. rewrite existsb_exists. split; [intros (x & I & E); destruct (names_eqb_spec k x); congruence|].
  intros I. exists k. split; auto. destruct (names_eqb_spec k k); congruence.
Qed.

Lemma filter_values_ok : forall {V : Type} (a : parts V) ks, valid a -> exists P, filter_values a ks = Ok P /\ valid P /\ template P = template a /\
  forall k, val_at P k = if mem k ks then val_at a k else None.
Proof.
  intros V a ks VA. unfold filter_values, empty.
  destruct (init_spec (get_template a) (Node KTuple [] : partial_tree V)) as (I1 & _ & I3).
  - apply wf_tree_map, VA.
  - constructor; [reflexivity|constructor].
  - destruct (proj2 I1) as (E & HE).
    + intros p v A. inversion A; subst. contradiction.
    + rewrite HE. cbn [rmap]. destruct (I3 E HE) as (T & _ & _). rewrite T. unfold get_template. rewrite template_fix by auto.
      eexists. split; [reflexivity|]. spl; auto.
      * apply (filtered_valid a (fun k => mem k ks)); auto.
      * intros k. unfold val_at. cbn [present]. apply (filter_get (fun k => mem k ks)).
Qed.

Section Classes.
Context {V C : Type} (ceqb : C -> C -> bool) (CS : forall a b, reflect (a = b) (ceqb a b)) (f : V -> C).

Lemma add_class_in : forall c k l c' ks, NoDup (map fst l) ->
  (In (c', ks) (add_class ceqb c k l) <-> (c' <> c /\ In (c', ks) l) \/ (c' = c /\ exists ks0, ks = ks0 ++ [k] /\ (In (c, ks0) l \/ (ks0 = [] /\ ~ In c (map fst l))))).
Proof using CS.
  intros c k l c' ks. induction l as [|[c2 ks2] l IH]; intros N; cbn [add_class In map fst].
  - split.
    + intros [H|[]]. injection H as <- <-. right. split; auto. exists []. auto.
    + intros [[_ []]|(-> & ks0 & -> & [[]|[-> _]])]. auto.
  - cbn [map fst] in N. inversion_clear N as [|? ? N1 N2]. destruct (CS c c2) as [<-|NE]; cbn [In].
    + split.
      * intros [H|H]; [injection H as <- <-; right; split; auto; exists ks2; auto|]. left. split; auto. intros ->. apply N1. apply (in_map fst) in H. auto.
      * intros [[H1 [H2|H2]]|(-> & ks0 & -> & [[H|H]|[_ H]])]; auto; try congruence.
        -- left. congruence.
        -- apply (in_map fst) in H. contradiction.
        -- exfalso. apply H. auto.
    + rewrite IH by auto. split.
      * intros [H|[H|H]]; [injection H as <- <-; left; split; auto|left; tauto|right]. destruct H as (-> & ks0 & -> & H). split; auto. exists ks0. split; auto.
        destruct H as [H|[-> H]]; auto. right. split; auto. intros [H'|H']; congruence.
      * intros [[H1 [H2|H2]]|(-> & ks0 & -> & [[H|H]|[-> H]])]; auto; try congruence.
        -- right. right. split; auto. exists ks0. auto.
        -- right. right. split; auto. exists []. split; auto. right. split; auto.
Qed.

Lemma add_class_keys : forall c k l x, In x (map fst (add_class ceqb c k l)) <-> x = c \/ In x (map fst l).
Proof using CS.
  intros c k l x. induction l as [|[c2 ks2] l IH]; cbn [add_class map fst In]; [intuition congruence|]. destruct (CS c c2) as [<-|NE]; cbn [map fst In]; [intuition congruence|].
  rewrite IH. intuition.
Qed.

Lemma add_class_nodup : forall c k l, NoDup (map fst l) -> NoDup (map fst (add_class ceqb c k l)).
Proof using CS.
  intros c k l N. induction l as [|[c2 ks2] l IH]; cbn [add_class map fst]; [repeat constructor; auto|]. cbn [map fst] in N. inversion_clear N as [|? ? N1 N2].
  destruct (CS c c2) as [<-|NE]; cbn [map fst]; constructor; auto. intros H. apply add_class_keys in H as [->|H]; congruence.
Qed.

Definition good_classes (d : dict (list string) V) (l : list (C * list (list string))) : Prop :=
  NoDup (map fst l) /\ (forall c, In c (map fst l) <-> exists x, In x d /\ f (snd x) = c) /\
  (forall c ks k, In (c, ks) l -> (In k ks <-> exists v, In (k, v) d /\ f v = c)).

Lemma classes_ok : forall d, good_classes d (fold_left (fun l x => add_class ceqb (f (snd x)) (fst x) l) d []).
Proof using CS.
  intros d. induction d as [|[k v] d IH] using rev_ind.
  - split; [constructor|]. split; [|intros c ks k []]. intros c. split; [intros []|]. intros (x & [] & _).
  - rewrite fold_left_app. cbn [fold_left fst snd]. destruct IH as (N & K & P). remember (fold_left (fun l x => add_class ceqb (f (snd x)) (fst x) l) d []) as l eqn:E. clear E. unfold good_classes. spl.
    + apply add_class_nodup; auto.
    + intros c. rewrite add_class_keys. rewrite K. split.
      * intros [->|(x & I & <-)]; [exists (k, v); split; auto; apply in_or_app; right; left; auto|exists x; split; auto; apply in_or_app; auto].
      * intros (x & I & <-). apply in_app_or in I as [I|[<-|[]]]; eauto.
    + intros c ks k2 I. apply add_class_in in I; auto. destruct I as [[NE I]|(-> & ks0 & -> & I)].
      * rewrite (P c ks k2 I). split; intros (v2 & J & E2); exists v2; split; auto; [apply in_or_app; auto|]. apply in_app_or in J as [J|[J|[]]]; auto. congruence.
      * rewrite in_app_iff. cbn [In]. split.
        -- intros [J|[<-|[]]]; [|exists v; split; auto; apply in_or_app; right; left; auto]. destruct I as [I|[-> _]]; [|contradiction].
           apply (P _ _ _ I) in J as (v2 & J & E2). exists v2. split; auto. apply in_or_app. auto.
        -- intros (v2 & J & E2). apply in_app_or in J as [J|[J|[]]]; [|injection J as -> ->; auto]. left. destruct I as [I|[-> NI]].
           ++ apply (P _ _ _ I). eauto.
           ++ exfalso. apply NI. apply K. exists (k2, v2). auto.
Qed.
End Classes.

Lemma partition_ok : forall {V C : Type} (ceqb : C -> C -> bool) (CS : forall a b, reflect (a = b) (ceqb a b)) (f : V -> C) (a : parts V), valid a ->
  exists l, partition ceqb f a = Ok l /\ NoDup (map fst l) /\
    (forall c, In c (map fst l) <-> exists k v, val_at a k = Some v /\ f v = c) /\
    forall c P, In (c, P) l -> valid P /\ template P = template a /\ forall k v, val_at P k = Some v <-> val_at a k = Some v /\ f v = c.
Proof.
  intros V C ceqb CS f a VA. unfold partition. destruct (classes_ok ceqb CS f (present a)) as (N & K & P).
  remember (fold_left (fun l x => add_class ceqb (f (snd x)) (fst x) l) (present a) []) as cl eqn:EC. clear EC.
  assert (G : exists l, sequence (map (fun x => rmap (fun p => (fst x, p)) (filter_values a (snd x))) cl) = Ok l /\
    Forall2 (fun x y => fst x = fst y /\ valid (snd y) /\ template (snd y) = template a /\ forall k, val_at (snd y) k = if mem k (snd x) then val_at a k else None) cl l).
  { clear - VA. induction cl as [|[c ks] cl IH]; [exists []; split; [auto|constructor]|]. destruct (filter_values_ok a ks VA) as (Q & E & R). destruct IH as (l & E' & F).
    exists ((c, Q) :: l). cbn [map fst snd sequence]. rewrite E. cbn [rmap rbind]. rewrite E'. split; auto. }
  destruct G as (l & -> & F). exists l. split; auto.
  assert (FE : map fst l = map fst cl) by (clear - F; induction F as [|? ? ? ? (E & _) F IH]; cbn [map]; [auto|f_equal; auto]).
  assert (IN : forall k v, val_at a k = Some v <-> In (k, v) (present a)) by (intros; unfold val_at; apply (dget_in names_eqb names_eqb_spec); apply VA).
  rewrite FE. spl; auto.
  - intros c. rewrite K. split; [intros ((k & v) & I & E); exists k, v; rewrite IN; auto|intros (k & v & I & E); exists (k, v); rewrite IN in I; auto].
  - intros c Q I. assert (X : exists x, In x cl /\ fst x = c /\ valid Q /\ template Q = template a /\ forall k, val_at Q k = if mem k (snd x) then val_at a k else None).
    { clear - F I. induction F as [|x y cl l (E & R) F IH]; [contradiction|]. destruct I as [->|I].
      - exists x. split; [left; auto|]. split; auto.
      - destruct (IH I) as (z & Z & R'). exists z. split; [right; auto|auto]. }
    destruct X as ((c' & ks) & I' & <- & VQ & TQ & R). spl; auto. cbn [fst snd] in *. intros k v. rewrite R. split.
    + intros H. destruct (mem k ks) eqn:M; [|discriminate]. split; auto. apply mem_in in M. apply (P _ _ _ I') in M as (v2 & J & E2). apply IN in J. congruence.
    + intros [H E]. assert (M : mem k ks = true) by (apply mem_in; apply (P _ _ _ I'); exists v; rewrite <- IN; auto). rewrite M. auto.
Qed.

(** ** Values *)

Lemma dget_map : forall {A B : Type} (f : A -> B) k (d : dict (list string) A), dget names_eqb k (map (fun x => (fst x, f (snd x))) d) = option_map f (dget names_eqb k d).
Proof. intros A B f k d. induction d as [|[k2 w] d IH]; cbn [map dget fst snd option_map]; auto. destruct (names_eqb k k2); auto. Qed.

Lemma with_leaves_template : forall {V W X : Type} (f : path -> tree W) (g : unit -> X) (P : parts V), valid P -> with_leaves f (norm (tree_map g (template P))) = with_leaves f (template P).
Proof. intros. rewrite tree_map_norm, with_leaves_map. rewrite v_norm; auto. Qed.

Lemma template_leaf : forall {V X : Type} (g : unit -> X) (P : parts V) p v, at_path (tree_map g (template P)) p (Leaf v) -> at_path (template P) p (Leaf tt).
Proof. intros V X g P p v A. apply at_map in A as ([[]|] & A & E); [auto|discriminate]. Qed.

Theorem full_ok : forall {V : Type} (P : parts V) (f : path -> V), valid P ->
  (forall p, at_path (template P) p (Leaf tt) -> val_at P (tuple_path_from_keypath p) = Some (f p)) ->
  full_structure P = Ok (with_leaves (fun p => Leaf (f p)) (template P)).
Proof.
  intros V P f VP H. unfold full_structure, get_template. rewrite (target_ok _ _ (fun p => Leaf (f p))).
  - rewrite with_leaves_template by auto. auto.
  - apply wf_tree_map, VP.
  - intros p v A. apply template_leaf in A. rewrite (dget_map (@Leaf V)). unfold val_at in H. rewrite H by auto. auto.
Qed.

Theorem full_missing : forall {V : Type} (P : parts V) p, valid P -> at_path (template P) p (Leaf tt) -> val_at P (tuple_path_from_keypath p) = None ->
  full_structure P = Err ValueError.
Proof.
  intros V P p VP A H. unfold full_structure, get_template. rewrite (target_missing _ _ p None); auto.
  - apply wf_tree_map, VP.
  - apply at_map. exists (Leaf tt). auto.
  - rewrite (dget_map (@Leaf V)). unfold val_at in H. rewrite H. auto.
Qed.

Theorem unsafe_ok : forall {V : Type} (P : parts V), valid P ->
  unsafe_structure P = Ok (with_leaves (fun p => Leaf (val_at P (tuple_path_from_keypath p))) (template P)).
Proof.
  intros V P VP. unfold unsafe_structure, get_template. rewrite (target_ok _ _ (fun p => Leaf (val_at P (tuple_path_from_keypath p)))).
  - rewrite with_leaves_template by auto. auto.
  - apply wf_tree_map, VP.
  - intros p v A. assert (W : wf (tree_map (fun _ : unit => @None V) (template P))) by (apply wf_tree_map, VP).
    rewrite update_get by (rewrite map_map; cbn [fst]; apply VP). rewrite (dget_map (fun v => Leaf (Some v))). unfold val_at.
    destruct (dget names_eqb (tuple_path_from_keypath p) (present P)) eqn:E; cbn [option_map]; auto.
    rewrite to_flat_eq by auto. apply (dget_in names_eqb names_eqb_spec); [apply named_nodup; auto|]. unfold named. apply in_map_iff. exists (p, Leaf v). split.
    + cbn [fst snd]. apply at_map in A as ([[]|] & A & E'); [injection E' as ->; auto|discriminate].
    + apply flatten_spec. simpl. auto.
Qed.

Lemma with_leaves_ext : forall {V W : Type} (t : tree V) (f g : path -> tree W), (forall p, f p = g p) -> with_leaves f t = with_leaves g t.
Proof.
  intros V W t. induction t as [v|k cs F] using tree_ind'; intros f g H; [apply H|]. rewrite !with_leaves_node. f_equal. apply map_ext_in. rewrite Forall_forall in F.
  intros x I. f_equal. apply F; auto.
Qed.

Lemma mwp_with : forall {V W : Type} (g : path -> W) (t : tree V) p0,
  map_with_path false (fun p _ => Ok (Leaf (g p))) p0 t = Ok (with_leaves (fun q => Leaf (g (p0 ++ q))) (norm t)).
Proof.
  intros V W g t. induction t as [v|k cs F] using tree_ind'; intros p0; [simpl; rewrite app_nil_r; auto|].
  destruct cs as [|c cs]; [destruct k; reflexivity|]. set (l := c :: cs) in *. assert (N : l <> []) by discriminate. clearbody l. rewrite mwp_node by auto.
  rewrite norm_node, with_leaves_node. unfold seq_items.
  match goal with |- rmap _ ?s = _ => assert (G : s = Ok (map (fun x => (fst x, with_leaves (fun q => Leaf (g (p0 ++ fst x :: q))) (norm (snd x)))) (order k l))) end.
  { assert (F' : forall x, In x (order k l) -> forall p0, map_with_path false (fun p _ => Ok (Leaf (g p))) p0 (snd x) = Ok (with_leaves (fun q => Leaf (g (p0 ++ q))) (norm (snd x)))).
    { intros x I. rewrite order_in in I. rewrite Forall_forall in F. apply (F x I). }
    clear - F'. induction (order k l) as [|x m IH]; auto. cbn [map sequence fst snd]. rewrite F' by (left; auto). cbn [rmap rbind].
    rewrite IH by (intros; apply F'; right; auto). cbn [rbind]. do 3 f_equal. apply with_leaves_ext. intros p. rewrite <- app_assoc. auto. }
  rewrite G. cbn [rmap]. unfold map_items. rewrite map_map. auto.
Qed.

Lemma with_leaf : forall {V W : Type} (t : tree V) (h : path -> W) q w, at_path (with_leaves (fun p => Leaf (h p)) t) q (Leaf w) <-> w = h q /\ exists u, at_path t q (Leaf u).
Proof.
  intros V W t. induction t as [v|k cs F] using tree_ind'; intros h q w.
  - split; [intros A; inversion A; subst; split; auto; exists v; constructor|]. intros (-> & u & A). inversion A; subst. constructor.
  - rewrite with_leaves_node. rewrite Forall_forall in F. split.
    + intros A. inversion A as [|? ? x c p ? I B]; subst. apply in_map_iff in I as ((y & d) & E & I). cbn [fst snd] in E. injection E as <- <-.
      apply (F (y, d) I (fun p => h (y :: p))) in B as (-> & u & B). split; auto. exists u. apply at_child with (c := d); auto.
    + intros (-> & u & A). inversion A as [|? ? x c p ? I B]; subst. apply at_child with (c := with_leaves (fun p => Leaf (h (x :: p))) c).
      * apply in_map_iff. exists (x, c). auto.
      * apply (F (x, c) I (fun p => h (x :: p))). eauto.
Qed.

Lemma wf_with : forall {V W : Type} (t : tree V) (h : path -> W), wf t -> wf (with_leaves (fun p => Leaf (h p)) t).
Proof.
  intros V W t. induction t as [v|k cs F] using tree_ind'; intros h WF; [constructor|]. inversion_clear WF as [|? ? W1 W2]. rewrite with_leaves_node. constructor.
  - rewrite map_map. cbn [fst]. auto.
  - rewrite Forall_forall in *. intros x I. apply in_map_iff in I as (y & <- & I). cbn [snd]. apply (F y I (fun p => h (fst y :: p))). auto.
Qed.

Lemma init_template : forall {V W : Type} (P : parts V) (h : path -> option W), valid P -> exists Q, init (get_template P) (with_leaves (fun p => Leaf (h p)) (template P)) = Ok Q /\
  valid Q /\ template Q = template P /\ forall k v, val_at Q k = Some v <-> exists p, at_path (template P) p (Leaf tt) /\ h p = Some v /\ tuple_path_from_keypath p = k.
Proof.
  intros V W P h VP. destruct (init_spec (get_template P) (with_leaves (fun p => Leaf (h p)) (template P))) as (I1 & _ & I3).
  - apply wf_tree_map, VP.
  - apply wf_with, VP.
  - destruct (proj2 I1) as (Q & HQ).
    + intros p v A. apply with_leaf in A as (_ & [] & A). apply leaf_name_map. exists p, tt. auto.
    + exists Q. split; auto. destruct (I3 Q HQ) as (T & VQ & G). spl; auto.
      * rewrite T. apply template_fix. auto.
      * intros k v. rewrite G. split; intros (p & A & R).
        -- apply with_leaf in A as (E & [] & A). eauto.
        -- destruct R as (E & R). exists p. split; auto. apply with_leaf. eauto.
Qed.

Theorem map_leaves_ok : forall {V W : Type} (f : list string -> list (option V) -> option W) (x0 : parts V) xs, valid x0 ->
  (forall x, In x xs -> template x = template x0) -> exists Q, map_leaves_with_path f x0 xs = Ok Q /\ valid Q /\ template Q = template x0 /\
  forall k v, val_at Q k = Some v <-> leaf_name (template x0) k /\ f k (map (fun x => val_at x k) (x0 :: xs)) = Some v.
Proof.
  intros V W f x0 xs VX H. unfold map_leaves_with_path.
  assert (E : forallb (fun x => treedef_eqb (template x0) (template x)) xs = true).
  { apply forallb_forall. intros x I. rewrite (H x I). apply treedef_eqb_refl. }
  rewrite E. set (h := fun p => let k := tuple_path_from_keypath p in f k (map (fun x => dget names_eqb k (present x)) (x0 :: xs))).
  assert (M : map_with_path false (fun p (_ : partial_tree V) => Ok (Leaf (h p))) [] (get_template x0) = Ok (with_leaves (fun q => Leaf (h q)) (template x0))).
  { etransitivity; [apply (mwp_with h)|]. cbn [app]. unfold get_template. rewrite (with_leaves_template (fun q => Leaf (h q))) by auto. auto. }
  unfold h in M at 1. cbv zeta in *. rewrite M. cbn [rbind].
  destruct (init_template x0 h VX) as (Q & E1 & E2 & E3 & E4). exists Q. spl; auto.
  intros k v. rewrite E4. split.
  - intros (p & A & B & <-). split; auto. exists p, tt. auto.
  - intros ((p & [] & A & <-) & B). exists p. auto.
Qed.

Lemma map_leaves_error : forall {V W : Type} (f : list string -> list (option V) -> option W) (x0 : parts V) xs x, In x xs -> template x <> template x0 ->
  map_leaves_with_path f x0 xs = Err ValueError.
Proof.
  intros V W f x0 xs x I N. unfold map_leaves_with_path. destruct (forallb _ xs) eqn:E; auto. rewrite forallb_forall in E. apply E in I. destruct (treedef_eqb_spec (template x0) (template x)); congruence.
Qed.

(** ** Selection *)

Lemma str_tkey : forall x, str_name x = tkey_name (pytree_key_as_tree_key x).
Proof. intros [i|[s|z]|s]; auto. Qed.

Lemma tkey_eqb_spec : forall a b, reflect (a = b) (tkey_eqb a b).
Proof.
  intros [x|s] [y|t]; simpl; try (constructor; congruence).
  - destruct (Z.eqb_spec x y); constructor; congruence.
  - destruct (String.eqb_spec s t); constructor; congruence.
Qed.

Lemma find_child_some : forall {V : Type} k (l : list (key * tree V)) c, find_child k l = Some c -> exists x, In (x, c) l /\ pytree_key_as_tree_key x = k /\
  forall (W : Type) (g : key * tree V -> tree W), find_child k (map (fun y => (fst y, g y)) l) = Some (g (x, c)).
Proof.
  intros V k l c. induction l as [|[x d] l IH]; cbn [find_child]; [discriminate|]. destruct (tkey_eqb_spec (pytree_key_as_tree_key x) k) as [E|N].
  - intros H. injection H as ->. exists x. split; [left; auto|]. split; auto. intros W g. cbn [map find_child fst]. destruct (tkey_eqb_spec (pytree_key_as_tree_key x) k); congruence.
  - intros H. destruct (IH H) as (y & I & E & G). exists y. split; [right; auto|]. split; auto. intros W g. cbn [map find_child fst].
    destruct (tkey_eqb_spec (pytree_key_as_tree_key x) k); [congruence|]. apply G.
Qed.

Lemma select_at : forall {V : Type} ps (t ts : tree V), select_by_tree_path t ps = Ok ts -> exists p, at_path t p ts /\ tuple_path_from_keypath p = map tkey_name ps /\
  forall (W : Type) (f : path -> tree W), select_by_tree_path (with_leaves f t) ps = Ok (with_leaves (fun q => f (p ++ q)) ts).
Proof.
  intros V ps. induction ps as [|k ps IH]; intros t ts H; cbn [select_by_tree_path] in H.
  - injection H as <-. exists []. spl; auto. constructor.
  - destruct t as [v|kd cs]; [discriminate|]. destruct (find_child k (order kd cs)) as [c|] eqn:E; [|discriminate]. apply find_child_some in E as (x & I & E & G). rewrite order_in in I.
    destruct (IH _ _ H) as (p & A & N & S). exists (x :: p). spl.
    + apply at_child with (c := c); auto.
    + cbn [tuple_path_from_keypath map]. unfold tuple_path_from_keypath in *. cbn [map]. rewrite N. f_equal. rewrite str_tkey. congruence.
    + intros W f. rewrite with_leaves_node. cbn [select_by_tree_path]. rewrite (order_mapk (fun x => with_leaves (fun p => f (fst x :: p)) (snd x))). rewrite G. cbn [fst snd]. apply (S _ (fun p => f (x :: p))).
Qed.

Lemma select_err : forall {V : Type} ps (t : tree V) e, select_by_tree_path t ps = Err e -> e = ValueError.
Proof.
  intros V ps. induction ps as [|k ps IH]; intros t e H; cbn [select_by_tree_path] in H; [discriminate|]. destruct t; [congruence|].
  destruct (find_child k (order k0 cs)); [eauto|congruence].
Qed.

Lemma find_child_map : forall {V W : Type} (g : tree V -> tree W) k l, find_child k (map_items g l) = option_map g (find_child k l).
Proof. intros V W g k l. induction l as [|[x c] l IH]; auto. cbn [map_items map find_child fst snd]. unfold map_items in *. rewrite IH. destruct (tkey_eqb _ _); auto. Qed.

Lemma select_map : forall {V W : Type} (g : V -> W) ps t, select_by_tree_path (tree_map g t) ps = rmap (tree_map g) (select_by_tree_path t ps).
Proof.
  intros V W g ps. induction ps as [|k ps IH]; intros t; auto. destruct t as [v|kd cs]; auto. rewrite tree_map_node. cbn [select_by_tree_path]. rewrite order_map, find_child_map.
  destruct (find_child k (order kd cs)); cbn [option_map]; auto.
Qed.

Lemma sub_wf : forall {V : Type} (t : tree V) p s, at_path t p s -> wf t -> wf s.
Proof. intros V t p s A. induction A as [|k cs x c p s I A IH]; intros WF; auto. inversion_clear WF as [|? ? W1 W2]. rewrite Forall_forall in W2. apply IH. apply (W2 (x, c)). auto. Qed.

Lemma sub_norm : forall {V : Type} (t : tree V) p s, at_path t p s -> norm t = t -> norm s = s.
Proof.
  intros V t p s A. induction A as [|k cs x c p s I A IH]; intros N; auto. apply IH. rewrite norm_node in N. injection N as N. rewrite <- N in I. unfold map_items in I.
  apply in_map_iff in I as ((y & d) & E & I). injection E as _ <-. apply norm_norm.
Qed.

Lemma prefix_path : forall {V : Type} (t : tree V) p s, at_path t p s -> wf t -> forall p' u k, at_path t p' (Leaf u) -> tuple_path_from_keypath p' = tuple_path_from_keypath p ++ k ->
  exists q, p' = p ++ q /\ at_path s q (Leaf u) /\ tuple_path_from_keypath q = k.
Proof.
  intros V t p s A. induction A as [|kd cs x c p s I A IH]; intros WF p' u k A' E.
  - exists p'. auto.
  - inversion_clear WF as [|? ? W1 W2]. inversion A' as [|? ? x' c' p'' ? I' B]; subst. cbn [tuple_path_from_keypath map app] in E. unfold tuple_path_from_keypath in *. cbn [map app] in E. injection E as E1 E2.
    assert (x' = x) by (apply (names_inj kd (map fst cs)); auto; [apply (in_map fst) in I'; auto|apply (in_map fst) in I; auto]). subst x'.
    assert (c' = c).
    { assert (N := keys_nodup _ _ W1). clear - N I I'. induction cs as [|[y d] cs IH]; [contradiction|]. cbn [map fst] in N. inversion_clear N as [|? ? N1 N2].
      destruct I as [I|I]; destruct I' as [I'|I']; auto; try congruence.
      - injection I as -> ->. apply (in_map fst) in I'. contradiction.
      - injection I' as -> ->. apply (in_map fst) in I. contradiction. }
    subst c'. rewrite Forall_forall in W2. destruct (IH (W2 _ I) _ _ _ B E2) as (q & -> & Aq & Nq). exists q. auto.
Qed.

Theorem select_ok : forall {V : Type} (P : parts V) ps ts, valid P -> select_by_tree_path (template P) ps = Ok ts ->
  exists Q, select P ps = Ok Q /\ valid Q /\ template Q = ts /\ forall k, val_at Q k = val_at P (map tkey_name ps ++ k).
Proof.
  intros V P ps ts VP E. destruct (select_at _ _ _ E) as (p & A & N & S). unfold select. rewrite unsafe_ok by auto. cbn [rbind]. unfold get_template at 1. rewrite select_map, E. cbn [rmap rbind].
  rewrite S. cbn [rbind]. set (P0 := mk_parts ts [] : parts V).
  assert (V0 : valid P0).
  { constructor; cbn [P0 template present map]; [eapply sub_wf; eauto; apply VP|eapply sub_norm; eauto; apply VP|constructor|contradiction]. }
  destruct (init_template P0 (fun q => val_at P (tuple_path_from_keypath (p ++ q))) V0) as (Q & E1 & E2 & E3 & E4). exists Q. split; [exact E1|]. spl; auto.
  assert (NA : forall q, tuple_path_from_keypath (p ++ q) = map tkey_name ps ++ tuple_path_from_keypath q) by (intros q; rewrite <- N; unfold tuple_path_from_keypath; apply map_app).
  assert (G : forall k v, val_at Q k = Some v <-> val_at P (map tkey_name ps ++ k) = Some v).
  { intros k v. rewrite E4. split.
    - intros (q & Aq & Eq & <-). rewrite <- NA. auto.
    - intros H. assert (I := H). unfold val_at in I. apply (dget_some_in names_eqb names_eqb_spec) in I. apply (in_map fst) in I. apply VP in I as (p' & u & A' & N'). cbn [fst] in N'.
      rewrite <- N in N'. destruct (prefix_path _ _ _ A (v_wf _ VP) _ _ _ A' N') as (q & -> & Aq & <-). destruct u. exists q. spl; auto. rewrite NA. auto. }
  intros k. destruct (val_at Q k) as [v|] eqn:EV; [symmetry; apply G; auto|]. destruct (val_at P _) as [v|] eqn:EP; auto. apply G in EP. congruence.
Qed.

Theorem select_none : forall {V : Type} (P : parts V) ps e, valid P -> select_by_tree_path (template P) ps = Err e -> select P ps = Err ValueError.
Proof.
  intros V P ps e VP E. unfold select. rewrite unsafe_ok by auto. cbn [rbind]. unfold get_template at 1. rewrite select_map, E. cbn [rmap rbind]. rewrite (select_err _ _ _ E). auto.
Qed.

Theorem made_valid : forall {V : Type} (P : parts V), made P -> valid P.
Proof.
  intros V P H. induction H as [U tmpl value p W1 W2 E|s a b p A IA B IB E|a b p A IA B IB E|a b p A IA B IB E|a ks p A IA E|C ceqb f a l c p A IA E I|a ps p A IA E].
  - apply (init_spec tmpl value W1 W2). auto.
  - apply (overlay_valid s a b); auto.
  - apply (intersect_valid a b); auto.
  - apply (subtract_valid a b); auto.
  - destruct (filter_values_ok a ks IA) as (Q & E' & R). rewrite E in E'. injection E' as <-. apply R.
  - clear - IA E I. unfold partition in E. revert l E I. induction (fold_left _ _ _) as [|x cl IH]; intros l E I; cbn [map sequence] in E; [injection E as <-; contradiction|].
    destruct (filter_values_ok a (snd x) IA) as (Q & E' & R). rewrite E' in E. cbn [rmap rbind] in E. destruct (sequence _) as [l'|] eqn:EL in E; [|discriminate]. cbn [rbind] in E. injection E as <-.
    destruct I as [I|I]; [injection I as _ <-; apply R|eauto].
  - destruct (select_by_tree_path (template a) ps) as [ts|e] eqn:ES.
    + destruct (select_ok a ps ts IA ES) as (Q & E' & R). rewrite E in E'. injection E' as <-. apply R.
    + rewrite (select_none a ps e IA ES) in E. discriminate.
Qed.
