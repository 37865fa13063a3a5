(** Proofs about pytrees. *)
From Coq Require Import List Bool Arith NArith ZArith String Ascii Permutation Lia.
From Verif Require Import Base StepName_Model StepName_Proofs Tree_Model Tree_Spec.
Import ListNotations.

Ltac spl := repeat match goal with |- _ /\ _ => split end.

Lemma tree_ind' : forall {V : Type} (P : tree V -> Prop),
  (forall v, P (Leaf v)) -> (forall k cs, Forall (fun x => P (snd x)) cs -> P (Node k cs)) -> forall t, P t.
Proof.
  intros V P L N. fix F 1. intros [v|k cs]; [apply L|]. apply N. induction cs as [|[x c] r IH]; constructor; [simpl; apply F|exact IH].
Qed.

(** ** Keys *)

Lemma dkey_eqb_spec : forall a b, reflect (a = b) (dkey_eqb a b).
Proof.
  intros [s|x] [t|y]; simpl; try (constructor; congruence).
  - destruct (String.eqb_spec s t); constructor; congruence.
  - destruct (Z.eqb_spec x y); constructor; congruence.
Qed.

Lemma key_eqb_spec : forall a b, reflect (a = b) (key_eqb a b).
Proof.
  intros [i|k|s] [j|l|t]; simpl; try (constructor; congruence).
  - destruct (Nat.eqb_spec i j); constructor; congruence.
  - destruct (dkey_eqb_spec k l); constructor; congruence.
  - destruct (String.eqb_spec s t); constructor; congruence.
Qed.

Lemma key_eqb_refl : forall a, key_eqb a a = true.
Proof. intros a. destruct (key_eqb_spec a a); auto; congruence. Qed.

Lemma str_int_inj : forall a b, str_int a = str_int b -> a = b.
Proof.
  assert (M : forall n l, string_of_list_ascii (dec n) <> String "-"%char l).
  { intros n l H. apply (f_equal list_ascii_of_string) in H. rewrite las_sla in H. apply (dec_not_minus 0 n (list_ascii_of_string l)). auto. }
  assert (D : forall n m, string_of_list_ascii (dec n) = string_of_list_ascii (dec m) -> n = m).
  { intros n m H. apply (f_equal list_ascii_of_string) in H. rewrite !las_sla in H. apply dec_inj; auto. }
  intros [|p|p] [|q|q]; unfold str_int; intros H; auto;
    try (apply D in H; simpl in H; congruence); try (symmetry in H; apply M in H; contradiction); try (apply M in H; contradiction).
  injection H as H. apply D in H. congruence.
Qed.

(** Keys of one node have different names. *)
Lemma names_inj : forall k ks, keys_fit k ks -> forall x y, In x ks -> In y ks -> str_name x = str_name y -> x = y.
Proof.
  intros k ks F x y X Y E. destruct k; simpl in F.
  - destruct F as [_ [F|F]]; destruct (F x X) as (a & ->); destruct (F y Y) as (b & ->); unfold str_name in E; simpl in E; [congruence|].
    apply str_int_inj in E. congruence.
  - rewrite F in X, Y. apply in_map_iff in X as (a & <- & _). apply in_map_iff in Y as (b & <- & _). unfold str_name in E. simpl in E.
    apply str_int_inj in E. apply Nat2Z.inj in E. congruence.
  - rewrite F in X, Y. apply in_map_iff in X as (a & <- & _). apply in_map_iff in Y as (b & <- & _). unfold str_name in E. simpl in E.
    apply str_int_inj in E. apply Nat2Z.inj in E. congruence.
  - destruct F as [_ F]. destruct (F x X) as (a & ->); destruct (F y Y) as (b & ->). unfold str_name in E. simpl in E. congruence.
  - subst. contradiction.
Qed.

Lemma keys_nodup : forall k ks, keys_fit k ks -> NoDup ks.
Proof.
  assert (S : forall ks, ks = map SequenceKey (seq 0 (List.length ks)) -> NoDup ks).
  { intros ks E. rewrite E. apply FinFun.Injective_map_NoDup; [|apply seq_NoDup]. intros a b H. congruence. }
  intros [] ks F; simpl in F; try tauto; auto. subst. constructor.
Qed.

Lemma NoDup_map_inj_in : forall {A B : Type} (f : A -> B) l, (forall x y, In x l -> In y l -> f x = f y -> x = y) -> NoDup l -> NoDup (map f l).
Proof.
  intros A B f l. induction l as [|a l IH]; simpl; intros I N; constructor; inversion_clear N as [|? ? N1 N2].
  - intros H. apply in_map_iff in H as (x & E & H). apply N1. rewrite <- (I x a); auto.
  - apply IH; auto.
Qed.

Lemma names_nodup : forall k ks, keys_fit k ks -> NoDup (map str_name ks).
Proof. intros k ks F. apply NoDup_map_inj_in; [apply (names_inj k ks F)|apply (keys_nodup k ks F)]. Qed.

(** ** Sorting *)

Lemma insert_map : forall {A B : Type} (f : A -> B) x l, insert_item (fst x, f (snd x)) (map_items f l) = map_items f (insert_item x l).
Proof.
  intros A B f x l. induction l as [|y r IH]; simpl; auto. destruct (key_leb (fst x) (fst y)); simpl; auto. f_equal. apply IH.
Qed.

Lemma order_map : forall {A B : Type} (f : A -> B) k l, order k (map_items f l) = map_items f (order k l).
Proof.
  intros A B f [] l; simpl; auto. induction l as [|x l IH]; auto. simpl. unfold sort_items in *. rewrite IH. apply insert_map.
Qed.

Lemma insert_perm : forall {A : Type} x (l : list (key * A)), Permutation (insert_item x l) (x :: l).
Proof.
  intros A x l. induction l as [|y r IH]; simpl; auto. destruct (key_leb (fst x) (fst y)); auto. rewrite IH. constructor.
Qed.

Lemma order_perm : forall {A : Type} k (l : list (key * A)), Permutation (order k l) l.
Proof.
  intros A [] l; simpl; auto. induction l as [|x l IH]; simpl; auto. rewrite insert_perm. constructor; auto.
Qed.

Lemma order_in : forall {A : Type} k (l : list (key * A)) x, In x (order k l) <-> In x l.
Proof. intros. split; apply Permutation_in; [|apply Permutation_sym]; apply order_perm. Qed.

Lemma order_nil : forall {A : Type} k (l : list (key * A)), order k l = [] -> l = [].
Proof. intros A k l H. apply Permutation_nil. rewrite <- H. apply order_perm. Qed.

Lemma order_seq : forall {A : Type} k (l : list (key * A)), is_sequence k = true -> order k l = l.
Proof. intros A [] l H; simpl in *; congruence. Qed.

Lemma keys_fit_perm : forall k ks ks', Permutation ks ks' -> is_sequence k = false -> keys_fit k ks -> keys_fit k ks'.
Proof.
  intros k ks ks' P S F. destruct k; simpl in *; try discriminate.
  - destruct F as [N F]. split; [eapply Permutation_NoDup; eauto|].
    destruct F as [F|F]; [left|right]; intros x I; apply F; eapply Permutation_in; try apply Permutation_sym; eauto.
  - destruct F as [N F]. split; [eapply Permutation_NoDup; eauto|]. intros x I. apply F. eapply Permutation_in; try apply Permutation_sym; eauto.
  - subst. apply Permutation_nil; auto.
Qed.

Lemma order_fit : forall {A : Type} k (l : list (key * A)), keys_fit k (map fst l) -> keys_fit k (map fst (order k l)).
Proof.
  intros A k l F. destruct (is_sequence k) eqn:E; [rewrite order_seq; auto|].
  apply (keys_fit_perm k (map fst l)); auto. apply Permutation_map, Permutation_sym, order_perm.
Qed.

(** ** Flattening *)

Definition seen {V : Type} (keep : bool) (k : kind) (cs : list (key * tree V)) : list (key * tree V) :=
  filter (fun x => leafy keep (snd x)) (order k cs).

Lemma flat_map_map_items : forall {A B C : Type} (f : key * B -> list C) (g : A -> B) l,
  flat_map f (map_items g l) = flat_map (fun x => f (fst x, g (snd x))) l.
Proof. intros. induction l as [|x l IH]; simpl; auto. f_equal. auto. Qed.

Lemma flatten_node : forall {V : Type} keep k (cs : list (key * tree V)), cs <> [] ->
  flatten keep (Node k cs) = flat_map (fun x => under (fst x) (flatten keep (snd x))) (order k cs).
Proof.
  intros V keep k cs N. transitivity (flat_map (fun x => under (fst x) (snd x)) (order k (map_items (flatten keep) cs))).
  - destruct cs; [congruence|]. reflexivity.
  - rewrite order_map. rewrite flat_map_map_items. reflexivity.
Qed.

Lemma leafy_node : forall {V : Type} keep k (cs : list (key * tree V)), cs <> [] -> leafy keep (Node k cs) = existsb (fun x => leafy keep (snd x)) cs.
Proof. intros V keep k [|c cs] N; [congruence|]. reflexivity. Qed.

Lemma under_nil : forall {A : Type} k (l : list (path * A)), under k l = [] <-> l = [].
Proof. intros A k [|x l]; unfold under; simpl; split; intros; try discriminate; auto. Qed.

Lemma flatten_nil : forall {V : Type} keep (t : tree V), leafy keep t = false <-> flatten keep t = [].
Proof.
  intros V keep. apply tree_ind'; [simpl; intros; split; discriminate|]. intros k cs F. destruct cs as [|c cs].
  - simpl. destruct keep; split; auto; discriminate.
  - rewrite flatten_node, leafy_node by discriminate. rewrite Forall_forall in F. split; intros H.
    + assert (G : forall x, In x (order k (c :: cs)) -> flatten keep (snd x) = []).
      { intros x I. rewrite order_in in I. apply F; auto. destruct (leafy keep (snd x)) eqn:E; auto.
        assert (X : existsb (fun x => leafy keep (snd x)) (c :: cs) = true) by (apply existsb_exists; exists x; split; [exact I|exact E]). congruence. }
      induction (order k (c :: cs)) as [|x l IH]; auto. cbn [flat_map]. rewrite (G x) by (left; auto). cbn [under map app]. apply IH. intros y I. apply G. right. auto.
    + destruct (existsb _ _) eqn:E; auto. exfalso. apply existsb_exists in E as (x & I & L).
      assert (N : flatten keep (snd x) = []).
      { apply (under_nil (fst x)). rewrite <- (order_in k) in I. apply in_split in I as (a & b & EQ). rewrite EQ in H. rewrite flat_map_app in H.
        apply app_eq_nil in H as [_ H]. cbn [flat_map] in H. apply app_eq_nil in H. tauto. }
      apply F in N; auto. congruence.
Qed.

Lemma flat_seen : forall {V : Type} keep (l : list (key * tree V)),
  flat_map (fun x => under (fst x) (flatten keep (snd x))) l =
  flat_map (fun x => under (fst x) (flatten keep (snd x))) (filter (fun x => leafy keep (snd x)) l).
Proof.
  intros V keep l. induction l as [|x l IH]; simpl; auto. destruct (leafy keep (snd x)) eqn:E; simpl; [f_equal; auto|].
  apply flatten_nil in E. rewrite E. simpl. auto.
Qed.

Lemma flatten_seen : forall {V : Type} keep k (cs : list (key * tree V)), cs <> [] ->
  flatten keep (Node k cs) = flat_map (fun x => under (fst x) (flatten keep (snd x))) (seen keep k cs).
Proof. intros. rewrite flatten_node by auto. apply flat_seen. Qed.

Lemma filter_map_items : forall {A B : Type} (f : B -> bool) (g : A -> B) l,
  filter (fun x => f (snd x)) (map_items g l) = map_items g (filter (fun x => f (g (snd x))) l).
Proof. intros. induction l as [|x l IH]; simpl; auto. destruct (f (g (snd x))); simpl; auto. f_equal. auto. Qed.

Lemma serialized_node : forall {V : Type} keep k (cs : list (key * tree V)), cs <> [] ->
  serialized keep (Node k cs) = Node (if is_sequence k then KList else KDict)
    (map (fun x => (if is_sequence k then fst x else DictKey (KStr (str_name (fst x))), serialized keep (snd x))) (seen keep k cs)).
Proof.
  intros V keep k cs N. transitivity (Node (if is_sequence k then KList else KDict)
    (map (fun x => (if is_sequence k then fst x else DictKey (KStr (str_name (fst x))), fst (snd x)))
      (filter (fun x => leafy keep (snd (snd x))) (order k (map_items (fun c => (serialized keep c, c)) cs))))).
  { destruct cs; [congruence|]. reflexivity. }
  rewrite order_map. rewrite (filter_map_items (fun y => leafy keep (snd y))). unfold map_items. rewrite map_map. cbn [fst snd]. reflexivity.
Qed.

Lemma as_dicts_node : forall {V : Type} keep k (cs : list (key * tree V)), cs <> [] ->
  as_dicts keep (Node k cs) = Node KDict
    (map (fun x => (DictKey (KStr (str_name (fst x))), as_dicts keep (snd x))) (seen keep k cs)).
Proof.
  intros V keep k cs N. transitivity (Node KDict
    (map (fun x => (DictKey (KStr (str_name (fst x))), fst (snd x)))
      (filter (fun x => leafy keep (snd (snd x))) (order k (map_items (fun c => (as_dicts keep c, c)) cs))))).
  { destruct cs; [congruence|]. reflexivity. }
  rewrite order_map. rewrite (filter_map_items (fun y => leafy keep (snd y))). unfold map_items. rewrite map_map. cbn [fst snd]. reflexivity.
Qed.

Lemma leafless_dense : forall {V : Type} keep (t : tree V), leafy keep t = false -> dense keep t = true.
Proof.
  intros V keep. apply (tree_ind' (fun t : tree V => leafy keep t = false -> dense keep t = true)); [discriminate|]. intros k cs F L. destruct cs as [|c cs]; [simpl; rewrite orb_true_r; auto|].
  rewrite leafy_node in L by discriminate. cbn [dense]. assert (A : forall x, In x (c :: cs) -> leafy keep (snd x) = false).
  { intros x I. destruct (leafy keep (snd x)) eqn:E; auto. rewrite <- L. symmetry. apply existsb_exists. exists x; auto. }
  apply andb_true_iff. split.
  - apply forallb_forall. rewrite Forall_forall in F. intros x I. apply F; auto.
  - apply orb_true_iff. right. cbn [map]. rewrite (A c) by (left; auto). cbn [falling]. apply forallb_forall. intros b I.
    apply in_map_iff in I as (x & <- & I). rewrite A by (right; auto). auto.
Qed.

(** ** Serialization *)

Fixpoint ins_all {V : Type} (t : tree V) (l : list (path * tree V)) : result (tree V) :=
  match l with
  | [] => Ok t
  | (p, v) :: r => rbind (insert_at t p v) (fun t' => ins_all t' r)
  end.

Definition build {V : Type} (l : list (path * tree V)) : result (tree V) :=
  match l with
  | [] => Err ValueError
  | ([], v) :: _ => Ok v
  | (k :: _, _) :: _ => ins_all (container k) l
  end.

Lemma ins_all_app : forall {V : Type} (l m : list (path * tree V)) t, ins_all t (l ++ m) = rbind (ins_all t l) (fun t' => ins_all t' m).
Proof. intros V l. induction l as [|[p v] l IH]; intros; simpl; auto. destruct (insert_at t p v); simpl; auto. Qed.

(** Either a single value or only longer paths. *)
Definition shaped {V : Type} (l : list (path * tree V)) : Prop :=
  (exists v, l = [([], v)]) \/ (l <> [] /\ Forall (fun x => fst x <> []) l).

Lemma flatten_shaped : forall {V : Type} keep (t : tree V), leafy keep t = true -> shaped (flatten keep t).
Proof.
  intros V keep [v|k cs] L; [left; simpl; eauto|]. destruct cs as [|c cs].
  - simpl in L. subst. left. simpl. eauto.
  - right. split.
    + intros H. apply flatten_nil in H. congruence.
    + rewrite flatten_node by discriminate. apply Forall_forall. intros x I. apply in_flat_map in I as (y & _ & I).
      unfold under in I. apply in_map_iff in I as (z & <- & _). simpl. discriminate.
Qed.

Lemma find_app_fresh : forall {A : Type} k (l m : list (key * A)), ~ In k (map fst l) -> find_item k (l ++ m) = find_item k m.
Proof.
  intros A k l m N. induction l as [|[k' v] l IH]; simpl in *; auto. destruct (key_eqb_spec k k') as [<-|]; [exfalso; auto|]. apply IH. tauto.
Qed.

Lemma put_app_fresh : forall {A : Type} k v (l m : list (key * A)), ~ In k (map fst l) -> put_item k v (l ++ m) = l ++ put_item k v m.
Proof.
  intros A k v l m N. induction l as [|[k' w] l IH]; simpl in *; auto. destruct (key_eqb_spec k k') as [<-|]; [exfalso; auto|]. f_equal. apply IH. tauto.
Qed.

Lemma find_fresh : forall {A : Type} k (l : list (key * A)), ~ In k (map fst l) -> find_item k l = None.
Proof. intros A k l N. rewrite <- (app_nil_r l). rewrite find_app_fresh; auto. Qed.

Lemma put_fresh : forall {A : Type} k v (l : list (key * A)), ~ In k (map fst l) -> put_item k v l = l ++ [(k, v)].
Proof. intros A k v l N. rewrite <- (app_nil_r l) at 1. rewrite put_app_fresh; auto. Qed.

Lemma lift_dict : forall {V : Type} k n S (l : list (path * tree V)) T,
  get_key_name k = NStr n -> ~ In (DictKey (KStr n)) (map fst S) -> Forall (fun x => fst x <> []) l ->
  ins_all (Node KDict (S ++ [(DictKey (KStr n), T)])) (under k l) = rmap (fun s => Node KDict (S ++ [(DictKey (KStr n), s)])) (ins_all T l).
Proof.
  intros V k n S l. induction l as [|[p v] l IH]; intros T K N F; auto. inversion_clear F as [|? ? P F']. simpl in P.
  destruct p as [|k2 p]; [congruence|]. unfold under. cbn [map fst snd]. cbn [ins_all].
  remember (insert_at T (k2 :: p) v) as R eqn:ER. cbn [insert_at]. rewrite K. rewrite find_app_fresh by auto. cbn [find_item]. rewrite key_eqb_refl.
  cbn [insert_at] in ER. rewrite <- ER. clear ER. destruct R as [T'|e]; cbn [rmap rbind]; auto. rewrite put_app_fresh by auto. cbn [put_item]. rewrite key_eqb_refl.
  apply IH; auto.
Qed.

Lemma block_dict : forall {V : Type} k n S (l : list (path * tree V)),
  get_key_name k = NStr n -> ~ In (DictKey (KStr n)) (map fst S) -> shaped l ->
  ins_all (Node KDict S) (under k l) = rmap (fun s => Node KDict (S ++ [(DictKey (KStr n), s)])) (build l).
Proof.
  intros V k n S l K N [(v & ->)|[NE F]].
  - unfold under. cbn [map fst snd ins_all insert_at]. rewrite K. cbn [rbind]. rewrite put_fresh by auto. auto.
  - destruct l as [|[p v] l]; [congruence|]. inversion_clear F as [|? ? P F']. simpl in P. destruct p as [|k2 p]; [congruence|].
    cbn [build]. unfold under. cbn [map fst snd]. cbn [ins_all].
    remember (insert_at (container k2) (k2 :: p) v) as R eqn:ER. cbn [insert_at]. rewrite K. rewrite find_fresh by auto.
    cbn [insert_at] in ER. rewrite <- ER. clear ER. destruct R as [T'|e]; cbn [rmap rbind]; auto. rewrite put_fresh by auto.
    apply lift_dict; auto.
Qed.

Lemma nth_last : forall {A : Type} (l : list A) x, nth_error (l ++ [x]) (List.length l) = Some x.
Proof. intros. rewrite nth_error_app2 by auto. rewrite Nat.sub_diag. auto. Qed.

Lemma set_last : forall {A : Type} (l : list A) x y, set_nth (List.length l) y (l ++ [x]) = l ++ [y].
Proof. intros. induction l; simpl; auto. f_equal. auto. Qed.

Lemma lift_seq : forall {V : Type} S (l : list (path * tree V)) T, Forall (fun x => fst x <> []) l ->
  ins_all (Node KList (S ++ [(SequenceKey (List.length S), T)])) (under (SequenceKey (List.length S)) l) =
  rmap (fun s => Node KList (S ++ [(SequenceKey (List.length S), s)])) (ins_all T l).
Proof.
  intros V S l. induction l as [|[p v] l IH]; intros T F; auto. inversion_clear F as [|? ? P F']. simpl in P.
  destruct p as [|k2 p]; [congruence|]. unfold under. cbn [map fst snd]. cbn [ins_all].
  remember (insert_at T (k2 :: p) v) as R eqn:ER. cbn [insert_at get_key_name].
  assert (L : List.length (S ++ [(SequenceKey (List.length S), T)]) = Datatypes.S (List.length S)) by (rewrite app_length; simpl; lia).
  rewrite L. rewrite (proj2 (Nat.ltb_ge _ _)) by lia. rewrite (proj2 (Nat.eqb_neq _ _)) by lia. rewrite nth_last.
  cbn [insert_at] in ER. rewrite <- ER. clear ER. destruct R as [T'|e]; cbn [rmap rbind]; auto. rewrite set_last. apply IH; auto.
Qed.

Lemma block_seq : forall {V : Type} S (l : list (path * tree V)), shaped l ->
  ins_all (Node KList S) (under (SequenceKey (List.length S)) l) = rmap (fun s => Node KList (S ++ [(SequenceKey (List.length S), s)])) (build l).
Proof.
  intros V S l [(v & ->)|[NE F]].
  - unfold under. cbn [map fst snd ins_all insert_at get_key_name]. rewrite Nat.ltb_irrefl, Nat.eqb_refl. auto.
  - destruct l as [|[p v] l]; [congruence|]. inversion_clear F as [|? ? P F']. simpl in P. destruct p as [|k2 p]; [congruence|].
    cbn [build]. unfold under. cbn [map fst snd]. cbn [ins_all].
    remember (insert_at (container k2) (k2 :: p) v) as R eqn:ER. cbn [insert_at get_key_name]. rewrite Nat.ltb_irrefl, Nat.eqb_refl.
    cbn [insert_at] in ER. rewrite <- ER. clear ER. destruct R as [T'|e]; cbn [rmap rbind]; auto. apply lift_seq; auto.
Qed.

Lemma gap_seq : forall {V : Type} S i (l : list (path * tree V)), List.length S < i -> l <> [] ->
  ins_all (Node KList S) (under (SequenceKey i) l) = Err AssertionError.
Proof.
  intros V S i [|[p v] l] L N; [congruence|]. unfold under. cbn [map fst snd ins_all insert_at get_key_name].
  rewrite (proj2 (Nat.ltb_lt _ _)) by auto. auto.
Qed.

Definition built {V : Type} (keep : bool) (t : tree V) : Prop :=
  leafy keep t = true -> build (flatten keep t) = if dense keep t then Ok (serialized keep t) else Err AssertionError.

Lemma node_dict : forall {V : Type} keep (xs : list (key * tree V)) S,
  Forall (fun x => built keep (snd x) /\ leafy keep (snd x) = true /\ is_dict_key (fst x) = true) xs ->
  NoDup (map str_name (map fst xs)) -> (forall x, In x xs -> ~ In (DictKey (KStr (str_name (fst x)))) (map fst S)) ->
  ins_all (Node KDict S) (flat_map (fun x => under (fst x) (flatten keep (snd x))) xs) =
  if forallb (fun x => dense keep (snd x)) xs
  then Ok (Node KDict (S ++ map (fun x => (DictKey (KStr (str_name (fst x))), serialized keep (snd x))) xs)) else Err AssertionError.
Proof.
  intros V keep xs. induction xs as [|[k c] xs IH]; intros S F N Q.
  - simpl. rewrite app_nil_r. auto.
  - inversion_clear F as [|? ? (B & L & D) F']. cbn [fst snd] in B, L, D. cbn [map fst] in N. inversion_clear N as [|? ? N1 N2].
    cbn [flat_map fst snd]. rewrite ins_all_app. assert (K : get_key_name k = NStr (str_name k)) by (destruct k; try discriminate; auto).
    rewrite (block_dict k (str_name k)); auto; [|apply (Q (k, c)); left; auto|apply flatten_shaped; auto]. rewrite B by auto.
    cbn [forallb snd]. destruct (dense keep c); cbn [rmap rbind andb]; auto. rewrite IH; auto.
    + destruct (forallb _ xs); auto. rewrite <- app_assoc. auto.
    + intros y J. rewrite map_app, in_app_iff. intros [H|H]; [apply (Q y); auto; right; auto|]. simpl in H. destruct H as [H|[]].
      apply N1. injection H as H. rewrite H. apply in_map, in_map; auto.
Qed.

Lemma all_leafless : forall {V : Type} keep S i (cs : list (key * tree V)), List.length S < i -> map fst cs = map SequenceKey (seq i (List.length cs)) ->
  ins_all (Node KList S) (flat_map (fun x => under (fst x) (flatten keep (snd x))) cs) =
  if forallb negb (map (fun x => leafy keep (snd x)) cs) then Ok (Node KList S) else Err AssertionError.
Proof.
  intros V keep S i cs. revert i. induction cs as [|[k c] cs IH]; intros i L E; auto. cbn [map fst List.length seq] in E. injection E as -> E.
  cbn [flat_map fst snd map forallb]. rewrite ins_all_app. destruct (leafy keep c) eqn:LE.
  - rewrite gap_seq; auto. intros H. apply flatten_nil in H. congruence.
  - apply flatten_nil in LE. rewrite LE. cbn [under map ins_all rbind negb andb]. apply (IH (Datatypes.S i)); auto. 
Qed.

Lemma node_seq : forall {V : Type} keep (cs : list (key * tree V)) S,
  Forall (fun x => built keep (snd x)) cs -> map fst cs = map SequenceKey (seq (List.length S) (List.length cs)) ->
  ins_all (Node KList S) (flat_map (fun x => under (fst x) (flatten keep (snd x))) cs) =
  if forallb (fun x => dense keep (snd x)) cs && falling (map (fun x => leafy keep (snd x)) cs)
  then Ok (Node KList (S ++ map (fun x => (fst x, serialized keep (snd x))) (filter (fun x => leafy keep (snd x)) cs))) else Err AssertionError.
Proof.
  intros V keep cs. induction cs as [|[k c] cs IH]; intros S F E.
  - simpl. rewrite app_nil_r. auto.
  - inversion_clear F as [|? ? B F']. cbn [fst snd] in B. cbn [map fst List.length seq] in E. injection E as -> E.
    cbn [flat_map fst snd map forallb filter]. rewrite ins_all_app. destruct (leafy keep c) eqn:LE.
    + rewrite block_seq by (apply flatten_shaped; auto). rewrite B by auto. cbn [falling].
      destruct (dense keep c); cbn [rmap rbind andb]; auto. rewrite IH; auto; [|rewrite app_length; simpl; rewrite Nat.add_1_r; auto].
      destruct (_ && _); auto. rewrite <- app_assoc. auto.
    + rewrite (leafless_dense keep c LE). apply flatten_nil in LE. rewrite LE. cbn [under map ins_all rbind falling andb].
      rewrite (all_leafless keep S (Datatypes.S (List.length S))) by auto. destruct (forallb negb _) eqn:G; [|rewrite andb_false_r; auto].
      assert (X : forallb (fun x => dense keep (snd x)) cs = true /\ filter (fun x => leafy keep (snd x)) cs = []).
      { clear - G. induction cs as [|x cs IH]; auto. cbn [map forallb filter] in *. apply andb_true_iff in G as [G1 G2]. apply negb_true_iff in G1.
        rewrite G1. rewrite leafless_dense by auto. apply IH; auto. }
      destruct X as [-> ->]. simpl. rewrite app_nil_r. auto.
Qed.

Lemma forallb_seen : forall {V : Type} keep k (cs : list (key * tree V)),
  forallb (fun x => dense keep (snd x)) (seen keep k cs) = forallb (fun x => dense keep (snd x)) cs.
Proof.
  intros V keep k cs. apply eq_true_iff_eq. rewrite !forallb_forall. unfold seen. split; intros H x I.
  - destruct (leafy keep (snd x)) eqn:L; [|apply leafless_dense; auto]. apply H. apply filter_In. rewrite order_in. auto.
  - apply filter_In in I as [I _]. rewrite order_in in I. auto.
Qed.

Lemma seen_in : forall {V : Type} keep k (cs : list (key * tree V)) x, In x (seen keep k cs) <-> In x cs /\ leafy keep (snd x) = true.
Proof. intros. unfold seen. rewrite filter_In, order_in. reflexivity. Qed.

Lemma NoDup_map_filter : forall {A B : Type} (f : A -> B) g l, NoDup (map f l) -> NoDup (map f (filter g l)).
Proof.
  intros A B f g l. induction l as [|a l IH]; simpl; intros N; auto. inversion_clear N as [|? ? N1 N2]. destruct (g a); simpl; auto.
  constructor; auto. intros H. apply N1. apply in_map_iff in H as (x & E & H). apply filter_In in H as [H _]. rewrite <- E. apply in_map; auto.
Qed.

Lemma seen_names : forall {V : Type} keep k (cs : list (key * tree V)), keys_fit k (map fst cs) -> NoDup (map str_name (map fst (seen keep k cs))).
Proof.
  intros V keep k cs F. unfold seen. rewrite map_map. apply NoDup_map_filter. rewrite <- map_map. apply (names_nodup k). apply order_fit; auto.
Qed.

Lemma fit_dict_key : forall k ks x, keys_fit k ks -> In x ks -> is_dict_key x = negb (is_sequence k).
Proof.
  intros k ks x F I. destruct k; simpl in F.
  - destruct F as [_ [F|F]]; destruct (F x I) as (? & ->); auto.
  - rewrite F in I. apply in_map_iff in I as (? & <- & _). auto.
  - rewrite F in I. apply in_map_iff in I as (? & <- & _). auto.
  - destruct F as [_ F]. destruct (F x I) as (? & ->). auto.
  - subst. contradiction.
Qed.

Lemma fit_class : forall k ks x y, keys_fit k ks -> In x ks -> In y ks -> same_class x y = true.
Proof.
  intros k ks x y F I J. destruct k; simpl in F.
  - destruct F as [_ [F|F]]; destruct (F x I) as (? & ->); destruct (F y J) as (? & ->); auto.
  - rewrite F in I, J. apply in_map_iff in I as (? & <- & _). apply in_map_iff in J as (? & <- & _). auto.
  - rewrite F in I, J. apply in_map_iff in I as (? & <- & _). apply in_map_iff in J as (? & <- & _). auto.
  - destruct F as [_ F]. destruct (F x I) as (? & ->); destruct (F y J) as (? & ->); auto.
  - subst. contradiction.
Qed.

(** The paths of a node start with one of its keys. *)
Lemma flatten_heads : forall {V : Type} keep k (cs : list (key * tree V)) p v, cs <> [] -> In (p, v) (flatten keep (Node k cs)) ->
  exists x q, p = x :: q /\ In x (map fst cs).
Proof.
  intros V keep k cs p v N I. rewrite flatten_node in I by auto. apply in_flat_map in I as (y & Y & I). unfold under in I.
  apply in_map_iff in I as (z & E & _). injection E as <- _. exists (fst y), (fst z). split; auto. rewrite order_in in Y. apply in_map; auto.
Qed.

Lemma build_node : forall {V : Type} keep k (cs : list (key * tree V)), cs <> [] -> keys_fit k (map fst cs) -> leafy keep (Node k cs) = true ->
  build (flatten keep (Node k cs)) = ins_all (Node (if is_sequence k then KList else KDict) []) (flatten keep (Node k cs)).
Proof.
  intros V keep k cs N F L. destruct (flatten keep (Node k cs)) as [|[p v] l] eqn:E; [apply flatten_nil in E; congruence|].
  destruct (flatten_heads keep k cs p v N) as (x & q & -> & I); [rewrite E; left; auto|]. cbn [build]. f_equal. unfold container.
  rewrite (fit_dict_key k (map fst cs)) by auto. destruct (is_sequence k); auto.
Qed.

Theorem build_ok : forall {V : Type} keep (t : tree V), wf t -> built keep t.
Proof.
  intros V keep. apply (tree_ind' (fun t => wf t -> built keep t)); [intros v _ _; reflexivity|]. intros k cs IH W L. inversion_clear W as [|? ? F W'].
  destruct cs as [|c cs].
  { simpl in L. subst. simpl. rewrite orb_true_r. auto. }
  assert (N : c :: cs <> []) by discriminate. rewrite build_node by auto. rewrite serialized_node by auto.
  assert (B : Forall (fun x => built keep (snd x)) (c :: cs)).
  { rewrite Forall_forall in *. intros x I. apply IH; auto. }
  destruct (is_sequence k) eqn:SQ.
  - rewrite flatten_node by auto. rewrite order_seq by auto. rewrite node_seq; auto.
    + unfold seen. rewrite order_seq by auto. cbn [dense]. rewrite SQ. cbn [negb orb app]. reflexivity.
    + destruct k; try discriminate; cbn [keys_fit] in F; rewrite map_length in F; exact F.
  - rewrite flatten_seen by auto. rewrite node_dict.
    + rewrite forallb_seen. cbn [dense]. rewrite SQ. cbn [negb orb app]. rewrite andb_true_r. reflexivity.
    + apply Forall_forall. intros x I. apply seen_in in I as [I LX]. rewrite Forall_forall in B. spl; auto.
      rewrite (fit_dict_key k (map fst (c :: cs))); auto; [rewrite SQ; auto|apply in_map; auto].
    + apply seen_names; auto.
    + intros x _ H. exact H.
Qed.

Lemma insert_all_ok : forall {V : Type} outer (l : list (path * tree V)) t, (forall p v, In (p, v) l -> exists x q, p = x :: q /\ same_class x outer = true) ->
  insert_all outer t l = ins_all t l.
Proof.
  intros V outer l. induction l as [|[p v] l IH]; intros t H; auto. cbn [insert_all ins_all]. destruct (H p v) as (x & q & -> & S); [left; auto|].
  rewrite S. destruct (insert_at t (x :: q) v); cbn [rbind]; auto. apply IH. intros. apply (H p v0). right. auto.
Qed.

Theorem serialize_ok : forall {V : Type} keep (t : tree V), wf t ->
  serialize_tree keep t = if leafy keep t then if dense keep t then Ok (serialized keep t) else Err AssertionError else Err ValueError.
Proof.
  intros V keep t W. unfold serialize_tree. destruct (leafy keep t) eqn:L.
  - rewrite <- (build_ok keep t W L). destruct t as [v|k cs]; auto. destruct cs as [|c cs]; [simpl in L; subst; auto|].
    inversion_clear W as [|? ? F W']. assert (H := flatten_heads keep k (c :: cs)). destruct (flatten keep (Node k (c :: cs))) as [|[p v] l]; auto.
    destruct (H p v) as (x & q & -> & I); [discriminate|left; auto|]. cbn [from_flattened_with_keypath build]. apply insert_all_ok.
    intros p' v' J. destruct (H p' v') as (x' & q' & -> & I'); [discriminate|auto|]. exists x', q'. split; auto. eapply fit_class; eauto.
  - apply flatten_nil in L. rewrite L. auto.
Qed.

(** ** Deserialization *)

Lemma insert_mapk : forall {A B : Type} (g : key * A -> B) x l,
  insert_item (fst x, g x) (map (fun y => (fst y, g y)) l) = map (fun y => (fst y, g y)) (insert_item x l).
Proof. intros A B g x l. induction l as [|y r IH]; simpl; auto. destruct (key_leb (fst x) (fst y)); simpl; auto. f_equal. apply IH. Qed.

Lemma order_mapk : forall {A B : Type} (g : key * A -> B) k l, order k (map (fun y => (fst y, g y)) l) = map (fun y => (fst y, g y)) (order k l).
Proof. intros A B g [] l; simpl; auto. induction l as [|x l IH]; auto. simpl. unfold sort_items in *. rewrite IH. apply insert_mapk. Qed.

Lemma mwp_node : forall {V W : Type} keep (f : path -> tree V -> result (tree W)) p k cs, cs <> [] ->
  map_with_path keep f p (Node k cs) = rmap (Node k) (seq_items (map (fun x => (fst x, map_with_path keep f (p ++ [fst x]) (snd x))) (order k cs))).
Proof.
  intros V W keep f p k cs N. rewrite <- (order_mapk (fun x => map_with_path keep f (p ++ [fst x]) (snd x))).
  destruct cs as [|[x c] cs]; [congruence|]. cbn [map_with_path]. do 3 f_equal.
  match goal with |- ?l = ?r => change (l = r) end. cbn [map fst snd]. f_equal.
  induction cs as [|[y d] cs IH]; auto. cbn [map fst snd]. f_equal. apply IH. discriminate.
Qed.

Lemma seq_items_ok : forall {A B : Type} (h : key * A -> result B) (g : key * A -> B) l, (forall x, In x l -> h x = Ok (g x)) ->
  seq_items (map (fun x => (fst x, h x)) l) = Ok (map (fun x => (fst x, g x)) l).
Proof.
  intros A B h g l. unfold seq_items. induction l as [|x l IH]; intros H; auto. cbn [map fst snd sequence]. rewrite H by (left; auto). cbn [rmap rbind].
  rewrite IH by (intros; apply H; right; auto). auto.
Qed.

Lemma norm_node : forall {V : Type} k (cs : list (key * tree V)), norm (Node k cs) = Node k (map_items norm (order k cs)).
Proof. intros. cbn [norm]. rewrite order_map. auto. Qed.

Lemma reconstruct_app : forall {V : Type} p q (s : tree V), reconstruct_from_keypath s (p ++ q) = rbind (reconstruct_from_keypath s p) (fun s' => reconstruct_from_keypath s' q).
Proof. intros V p. induction p as [|k p IH]; intros; auto. cbn [app reconstruct_from_keypath]. destruct (lookup_step s k); cbn [rbind]; auto. Qed.

Lemma falling_nth : forall {A : Type} (f : A -> bool) l i a, falling (map f l) = true -> nth_error l i = Some a -> f a = true -> nth_error (filter f l) i = Some a.
Proof.
  intros A f l. induction l as [|b l IH]; intros i a F E T; [destruct i; discriminate|]. cbn [map falling filter] in *. destruct (f b) eqn:FB.
  - destruct i; auto. simpl. apply IH; auto.
  - exfalso. destruct i as [|i]; simpl in E; [congruence|]. apply nth_error_In in E. rewrite forallb_forall in F.
    specialize (F true). cbn in F. discriminate F. rewrite <- T. apply in_map; auto.
Qed.

Lemma find_mapped : forall {A B : Type} (f : key * A -> key) (g : key * A -> B) l x, NoDup (map f l) -> In x l ->
  find_item (f x) (map (fun y => (f y, g y)) l) = Some (g x).
Proof.
  intros A B f g l x. induction l as [|y l IH]; intros N I; [contradiction|]. cbn [map find_item] in *. inversion_clear N as [|? ? N1 N2].
  destruct (key_eqb_spec (f x) (f y)) as [E|E].
  - destruct I as [->|I]; auto. exfalso. apply N1. rewrite <- E. apply in_map; auto.
  - apply IH; auto. destruct I; congruence.
Qed.

Lemma lookup_child : forall {V : Type} keep k (cs : list (key * tree V)) x c, keys_fit k (map fst cs) -> dense keep (Node k cs) = true ->
  In (x, c) cs -> leafy keep c = true -> lookup_step (serialized keep (Node k cs)) x = Ok (serialized keep c).
Proof.
  intros V keep k cs x c F D I L. assert (N : cs <> []) by (intros ->; contradiction). rewrite serialized_node by auto.
  cbn [dense] in D. apply andb_true_iff in D as [_ D]. destruct (is_sequence k) eqn:SQ.
  - cbn [negb orb] in D. unfold seen. rewrite order_seq by auto. apply In_nth_error in I as (i & I).
    assert (X : x = SequenceKey i).
    { assert (E : nth_error (map fst cs) i = Some x) by (rewrite nth_error_map, I; auto).
      assert (Q : map fst cs = map SequenceKey (seq 0 (List.length (map fst cs)))) by (destruct k; try discriminate; exact F).
      rewrite Q in E. rewrite nth_error_map in E. destruct (nth_error (seq 0 (List.length (map fst cs))) i) as [j|] eqn:EJ; [|discriminate].
      injection E as <-. f_equal. assert (LT : i < List.length (map fst cs)) by (rewrite <- (seq_length (List.length (map fst cs)) 0); apply nth_error_Some; congruence).
      apply (nth_error_nth _ _ 0) in EJ. rewrite seq_nth in EJ by auto. auto. }
    subst x. cbn [lookup_step get_key_name]. rewrite nth_error_map.
    rewrite (falling_nth (fun x => leafy keep (snd x)) cs i (SequenceKey i, c)); auto.
  - assert (K : get_key_name x = NStr (str_name x)).
    { assert (DK : is_dict_key x = true) by (rewrite (fit_dict_key k (map fst cs)); [rewrite SQ; auto|auto|apply (in_map fst) in I; auto]).
      destruct x; try discriminate; auto. }
    cbn [lookup_step]. rewrite K. cbn [dict_lookup].
    assert (FM := find_mapped (fun y : key * tree V => DictKey (KStr (str_name (fst y)))) (fun y => serialized keep (snd y)) (seen keep k cs) (x, c)).
    cbn [fst snd] in FM. rewrite FM; auto.
    + assert (X := seen_names keep k cs F). rewrite map_map in X.
      rewrite <- (map_map (fun y : key * tree V => str_name (fst y)) (fun n => DictKey (KStr n))).
      apply FinFun.Injective_map_NoDup; auto. intros a b H. congruence.
    + apply seen_in. auto.
Qed.

Lemma leafless_norm : forall {V : Type} (f : path -> tree V -> result (tree V)) (t : tree V) p,
  leafy false t = false -> map_with_path false f p t = Ok (norm t).
Proof.
  intros V f t. induction t as [v|k cs F] using tree_ind'; [discriminate|]. intros p L. destruct cs as [|c cs]; [simpl; destruct k; auto|].
  rewrite mwp_node by discriminate. rewrite leafy_node in L by discriminate. rewrite Forall_forall in F.
  rewrite (seq_items_ok (fun x => map_with_path false f (p ++ [fst x]) (snd x)) (fun x => norm (snd x))); [rewrite norm_node; auto|].
  intros x I. rewrite order_in in I. apply F; auto. destruct (leafy false (snd x)) eqn:E; auto. rewrite <- L. symmetry. apply existsb_exists. exists x; auto.
Qed.

Lemma leafy_true : forall {V : Type} (t : tree V), leafy true t = true.
Proof.
  intros V t. induction t as [v|k cs F] using tree_ind'; auto. destruct cs as [|c cs]; auto. rewrite leafy_node by discriminate.
  inversion_clear F as [|? ? F1 _]. cbn [existsb]. rewrite F1. auto.
Qed.

Lemma deserialize_sub : forall {V : Type} keep (s0 t : tree V) p, wf t -> dense keep t = true ->
  (leafy keep t = true -> forall q, reconstruct_from_keypath s0 (p ++ q) = reconstruct_from_keypath (serialized keep t) q) ->
  map_with_path keep (fun p _ => reconstruct_from_keypath s0 p) p t = Ok (norm t).
Proof.
  intros V keep s0 t. induction t as [v|k cs F] using tree_ind'; intros p W D H.
  - cbn [map_with_path]. assert (X := H eq_refl []). rewrite app_nil_r in X. rewrite X. auto.
  - destruct cs as [|c cs].
    + cbn [map_with_path]. destruct keep; [|destruct k; auto]. assert (X := H eq_refl []). rewrite app_nil_r in X. rewrite X. destruct k; auto.
    + assert (N : c :: cs <> []) by discriminate. set (l := c :: cs) in *. clearbody l. inversion_clear W as [|? ? W1 W2].
      rewrite mwp_node by auto. rewrite (seq_items_ok (fun x => map_with_path keep _ (p ++ [fst x]) (snd x)) (fun x => norm (snd x))); [rewrite norm_node; auto|].
      intros x I. rewrite order_in in I. rewrite Forall_forall in F, W2. assert (D' := D). cbn [dense] in D'. apply andb_true_iff in D' as [D1 _]. rewrite forallb_forall in D1.
      apply F; auto. intros L q. assert (LN : leafy keep (Node k l) = true) by (rewrite leafy_node by auto; apply existsb_exists; exists x; auto).
      rewrite <- app_assoc. rewrite H by auto. cbn [app reconstruct_from_keypath].
      rewrite (lookup_child keep k l (fst x) (snd x)); auto. rewrite <- surjective_pairing. auto.
Qed.

Theorem round_trip : forall {V : Type} keep (t : tree V) s, wf t -> serialize_tree keep t = Ok s -> deserialize_tree s t keep = Ok (norm t).
Proof.
  intros V keep t s W E. rewrite serialize_ok in E by auto. destruct (leafy keep t); [|discriminate]. destruct (dense keep t) eqn:D; [|discriminate].
  injection E as <-. unfold deserialize_tree. apply deserialize_sub; auto.
Qed.

Lemma find_no_int : forall {A B : Type} (f : A -> string) (g : A -> B) l z, find_item (DictKey (KInt z)) (map (fun y => (DictKey (KStr (f y)), g y)) l) = None.
Proof. intros A B f g l z. induction l as [|y l IH]; auto. Qed.

Lemma lookup_dicts : forall {V : Type} keep k (cs : list (key * tree V)) x c, keys_fit k (map fst cs) ->
  In (x, c) cs -> leafy keep c = true -> lookup_step (as_dicts keep (Node k cs)) x = Ok (as_dicts keep c).
Proof.
  intros V keep k cs x c F I L. assert (N : cs <> []) by (intros ->; contradiction). rewrite as_dicts_node by auto.
  cbn [lookup_step].
  assert (FM : find_item (DictKey (KStr (str_name x))) (map (fun x => (DictKey (KStr (str_name (fst x))), as_dicts keep (snd x))) (seen keep k cs)) = Some (as_dicts keep c)).
  { assert (FM := find_mapped (fun y : key * tree V => DictKey (KStr (str_name (fst y)))) (fun y => as_dicts keep (snd y)) (seen keep k cs) (x, c)).
    cbn [fst snd] in FM. apply FM.
    - assert (X := seen_names keep k cs F). rewrite map_map in X.
      rewrite <- (map_map (fun y : key * tree V => str_name (fst y)) (fun n => DictKey (KStr n))).
      apply FinFun.Injective_map_NoDup; auto. intros a b H. congruence.
    - apply seen_in. auto. }
  destruct (get_key_name x) as [i|n] eqn:K; cbn [dict_lookup].
  - rewrite (find_no_int (fun y : key * tree V => str_name (fst y))).
    assert (E : str_int (Z.of_nat i) = str_name x) by (unfold str_name; rewrite K; reflexivity).
    rewrite E, FM. auto.
  - assert (E : n = str_name x) by (unfold str_name; rewrite K; reflexivity). rewrite E, FM. auto.
Qed.

Lemma deserialize_dicts : forall {V : Type} keep (s0 t : tree V) p, wf t ->
  (leafy keep t = true -> forall q, reconstruct_from_keypath s0 (p ++ q) = reconstruct_from_keypath (as_dicts keep t) q) ->
  map_with_path keep (fun p _ => reconstruct_from_keypath s0 p) p t = Ok (norm t).
Proof.
  intros V keep s0 t. induction t as [v|k cs F] using tree_ind'; intros p W H.
  - cbn [map_with_path]. assert (X := H eq_refl []). rewrite app_nil_r in X. rewrite X. auto.
  - destruct cs as [|c cs].
    + cbn [map_with_path]. destruct keep; [|destruct k; auto]. assert (X := H eq_refl []). rewrite app_nil_r in X. rewrite X. destruct k; auto.
    + assert (N : c :: cs <> []) by discriminate. set (l := c :: cs) in *. clearbody l. inversion_clear W as [|? ? W1 W2].
      rewrite mwp_node by auto. rewrite (seq_items_ok (fun x => map_with_path keep _ (p ++ [fst x]) (snd x)) (fun x => norm (snd x))); [rewrite norm_node; auto|].
      intros x I. rewrite order_in in I. rewrite Forall_forall in F, W2.
      apply F; auto. intros L q. assert (LN : leafy keep (Node k l) = true) by (rewrite leafy_node by auto; apply existsb_exists; exists x; auto).
      rewrite <- app_assoc. rewrite H by auto. cbn [app reconstruct_from_keypath].
      rewrite (lookup_dicts keep k l (fst x) (snd x)); auto. rewrite <- surjective_pairing. auto.
Qed.

Lemma forall2_map_items : forall {A : Type} (R : A -> A -> Prop) (f : A -> A) (l : list (key * A)), Forall (fun x => R (snd x) (f (snd x))) l ->
  Forall2 (fun x y => fst x = fst y /\ R (snd x) (snd y)) l (map_items f l).
Proof. intros A R f l F. induction F; simpl; constructor; auto. Qed.

Lemma peq_norm : forall {V : Type} (t : tree V), peq t (norm t).
Proof.
  intros V t. induction t as [v|k cs F] using tree_ind'; [constructor|]. rewrite norm_node.
  assert (G : Forall (fun x => peq (snd x) (norm (snd x))) (order k cs)).
  { rewrite Forall_forall in *. intros x I. rewrite order_in in I. auto. }
  destruct k; [|constructor; apply forall2_map_items; exact G..].
  eapply peq_dict; [apply Permutation_sym, (order_perm KDict)|]. apply forall2_map_items. exact G.
Qed.

Lemma dense_true : forall {V : Type} (t : tree V), dense true t = true.
Proof.
  intros V t. induction t as [v|k cs F] using tree_ind'; auto. cbn [dense]. apply andb_true_iff. split.
  - apply forallb_forall. rewrite Forall_forall in F. auto.
  - apply orb_true_iff. right. clear F. induction cs as [|x cs IH]; auto. cbn [map]. rewrite leafy_true. auto.
Qed.

(** ** Paths and names *)

Lemma flatten_spec : forall {V : Type} keep (t : tree V) p v, In (p, v) (flatten keep t) <-> at_path t p v /\ is_leaf keep v.
Proof.
  intros V keep t. induction t as [w|k cs F] using tree_ind'; intros p v.
  - simpl. split.
    + intros [H|[]]. injection H as <- <-. split; [constructor|simpl; auto].
    + intros [H _]. inversion H; subst; auto.
  - destruct cs as [|c cs].
    + simpl. destruct keep; simpl; split.
      * intros [H|[]]. injection H as <- <-. split; [constructor|simpl; auto].
      * intros [H _]. inversion H; subst; auto.
      * contradiction.
      * intros [H L]. inversion H; subst; [simpl in L; destruct L; discriminate|contradiction].
    + rewrite flatten_node by discriminate. rewrite in_flat_map. rewrite Forall_forall in F. split.
      * intros (x & I & J). rewrite order_in in I. unfold under in J. apply in_map_iff in J as ((q & w) & E & J). injection E as <- <-. apply F in J as [A L]; auto.
        split; auto. apply at_child with (c := snd x); auto. rewrite <- surjective_pairing. auto.
      * intros [H L]. inversion H as [|? ? x d q ? I A]; subst; [simpl in L; destruct L; discriminate|]. exists (x, d). rewrite order_in. split; auto.
        unfold under. cbn [fst snd]. apply in_map_iff. exists (q, v). split; auto. apply (F (x, d)); auto.
Qed.

Lemma names_path_inj : forall {V : Type} keep (t : tree V) p q v w, wf t -> at_path t p v -> is_leaf keep v -> at_path t q w -> is_leaf keep w ->
  tuple_path_from_keypath p = tuple_path_from_keypath q -> p = q /\ v = w.
Proof.
  intros V keep t p q v w W A. revert q w W. induction A as [t|k cs x c p s I A IH]; intros q w W L B M E.
  - destruct q; [|discriminate]. inversion B; subst; auto.
  - destruct q as [|y q]; [discriminate|]. inversion B as [|? ? y' d q' ? J B' E1 E2]; subst. cbn [tuple_path_from_keypath map] in E. injection E as E1 E2.
    inversion_clear W as [|? ? F W'].
    assert (X : x = y) by (apply (names_inj k (map fst cs)); auto; [apply (in_map fst) in I; auto|apply (in_map fst) in J; auto]). subst y.
    assert (Y : c = d).
    { assert (N := keys_nodup k _ F). clear - N I J. induction cs as [|[z e] cs IH]; [contradiction|]. cbn [map fst] in N. inversion_clear N as [|? ? N1 N2].
      destruct I as [I|I], J as [J|J]; try congruence; auto.
      - injection I as -> ->. apply (in_map fst) in J. contradiction.
      - injection J as -> ->. apply (in_map fst) in I. contradiction. }
    subst d. rewrite Forall_forall in W'. destruct (IH q w) as [-> ->]; auto. apply (W' (x, c)); auto.
Qed.

Definition named {V : Type} (l : list (path * tree V)) : list (list string * tree V) :=
  map (fun x => (tuple_path_from_keypath (fst x), snd x)) l.

Lemma NoDup_app_intro : forall {A : Type} (l m : list A), NoDup l -> NoDup m -> (forall x, In x l -> ~ In x m) -> NoDup (l ++ m).
Proof.
  intros A l. induction l as [|a l IH]; intros m N M D; auto. inversion_clear N as [|? ? N1 N2]. simpl. constructor.
  - rewrite in_app_iff. intros [H|H]; [auto|]. apply (D a); auto. left; auto.
  - apply IH; auto. intros x I. apply D. right; auto.
Qed.

Lemma named_nodup : forall {V : Type} keep (t : tree V), wf t -> NoDup (map fst (named (flatten keep t))).
Proof.
  intros V keep t. induction t as [v|k cs F] using tree_ind'; intros W.
  - simpl. constructor; auto. constructor.
  - destruct cs as [|c cs]; [simpl; destruct keep; simpl; repeat constructor; auto|].
    rewrite flatten_seen by discriminate. inversion_clear W as [|? ? W1 W2]. assert (N := seen_names keep k (c :: cs) W1).
    assert (G : forall x, In x (seen keep k (c :: cs)) -> NoDup (map fst (named (flatten keep (snd x))))).
    { intros x I. apply seen_in in I as [I _]. rewrite Forall_forall in F, W2. auto. }
    clear - N G. induction (seen keep k (c :: cs)) as [|x l IH]; [constructor|]. cbn [flat_map]. unfold named in *. rewrite !map_app.
    cbn [map] in N. inversion_clear N as [|? ? N1 N2]. apply NoDup_app_intro.
    + unfold under. rewrite !map_map. cbn [fst snd]. assert (X := G x (or_introl eq_refl)). rewrite map_map in X. cbn [fst] in X.
      rewrite <- (map_map (fun y : path * tree V => tuple_path_from_keypath (fst y)) (cons (str_name (fst x)))).
      apply FinFun.Injective_map_NoDup; auto. intros a b H. congruence.
    + apply IH; auto. intros y I. apply G. right; auto.
    + intros n I J. apply in_map_iff in I as ((n1 & v1) & E1 & I). apply in_map_iff in I as ((p1 & w1) & E2 & I). unfold under in I.
      apply in_map_iff in I as ((q1 & u1) & E3 & I). injection E3 as <- <-. injection E2 as <- <-. subst n.
      apply in_map_iff in J as ((n2 & v2) & E4 & J). apply in_map_iff in J as ((p2 & w2) & E5 & J). apply in_flat_map in J as (y & Y & J). unfold under in J.
      apply in_map_iff in J as ((q2 & u2) & E6 & J). injection E6 as <- <-. injection E5 as <- <-. cbn [fst tuple_path_from_keypath map] in E4.
      apply N1. injection E4 as E4 _. rewrite <- E4. apply in_map, in_map; auto.
Qed.

(** ** Flat dictionaries *)

Lemma names_eqb_spec : forall a b, reflect (a = b) (names_eqb a b).
Proof.
  induction a as [|x a IH]; intros [|y b]; simpl; try (constructor; congruence). destruct (String.eqb_spec x y); simpl; [|constructor; congruence].
  destruct (IH b); constructor; congruence.
Qed.

Section Dict.
Context {K V : Type} (eqb : K -> K -> bool) (eqb_spec : forall a b, reflect (a = b) (eqb a b)).

Lemma dput_fresh : forall k (v : V) d, ~ In k (map fst d) -> dput eqb k v d = d ++ [(k, v)].
Proof. intros k v d N. induction d as [|[k' w] d IH]; simpl in *; auto. destruct (eqb_spec k k') as [<-|]; [exfalso; auto|]. f_equal. apply IH. tauto. Qed.

Lemma dict_of_nodup : forall (l : list (K * V)), NoDup (map fst l) -> dict_of eqb l = l.
Proof.
  intros l N. unfold dict_of. assert (G : forall (d : dict K V), NoDup (map fst d ++ map fst l) -> fold_left (fun d x => dput eqb (fst x) (snd x) d) l d = d ++ l).
  { clear N. induction l as [|[k v] l IH]; intros d N; simpl; [rewrite app_nil_r; auto|]. rewrite dput_fresh.
    - rewrite IH; [rewrite <- app_assoc; auto|]. rewrite map_app, <- app_assoc. exact N.
    - intros H. apply NoDup_remove_2 in N. apply N. apply in_or_app. auto. }
  apply (G []). auto.
Qed.

Lemma dget_in : forall k (v : V) d, NoDup (map fst d) -> (dget eqb k d = Some v <-> In (k, v) d).
Proof.
  intros k v d N. induction d as [|[k' w] d IH]; simpl in *; [split; [discriminate|contradiction]|]. inversion_clear N as [|? ? N1 N2].
  destruct (eqb_spec k k') as [<-|NE].
  - split; intros H; [left; congruence|]. destruct H as [H|H]; [congruence|]. apply (in_map fst) in H. contradiction.
  - rewrite IH by auto. split; auto. intros [H|H]; [congruence|auto].
Qed.

Lemma dget_none : forall k (d : dict K V), dget eqb k d = None <-> ~ In k (map fst d).
Proof.
  intros k d. induction d as [|[k' w] d IH]; simpl; [tauto|]. destruct (eqb_spec k k') as [<-|NE]; [split; [discriminate|tauto]|].
  rewrite IH. intuition.
Qed.
End Dict.

Lemma to_flat_eq : forall {V : Type} keep (t : tree V), wf t -> to_flat_dict keep t = named (flatten keep t).
Proof. intros V keep t W. unfold to_flat_dict. apply dict_of_nodup; [apply names_eqb_spec|]. apply (named_nodup keep t W). Qed.

Definition nunder {V : Type} (n : string) (l : list (list string * tree V)) : list (list string * tree V) := map (fun x => (n :: fst x, snd x)) l.

Definition nshaped {V : Type} (l : list (list string * tree V)) : Prop :=
  (exists v, l = [([], v)]) \/ (l <> [] /\ Forall (fun x => fst x <> []) l).

Definition nbuild {V : Type} (l : list (list string * tree V)) : result (tree V) :=
  match l with
  | ([], v) :: _ => Ok v
  | _ => insert_names_all (Node KDict []) l
  end.

Lemma named_under : forall {V : Type} k (l : list (path * tree V)), named (under k l) = nunder (str_name k) (named l).
Proof. intros. unfold named, under, nunder. rewrite !map_map. auto. Qed.

Lemma named_shaped : forall {V : Type} keep (t : tree V), leafy keep t = true -> nshaped (named (flatten keep t)).
Proof.
  intros V keep t L. destruct (flatten_shaped keep t L) as [(v & ->)|[N F]]; [left; exists v; auto|right]. split.
  - destruct (flatten keep t); [congruence|]. discriminate.
  - apply Forall_forall. intros x I. unfold named in I. apply in_map_iff in I as (y & <- & I). rewrite Forall_forall in F. apply F in I. simpl.
    destruct y as [q w]. simpl in *. destruct q; [exfalso; apply I; reflexivity|discriminate].
Qed.

Lemma ina_app : forall {V : Type} (l m : list (list string * tree V)) t, insert_names_all t (l ++ m) = rbind (insert_names_all t l) (fun t' => insert_names_all t' m).
Proof. intros V l. induction l as [|[p v] l IH]; intros; simpl; auto. destruct (insert_names t p v); simpl; auto. Qed.

Lemma nlift : forall {V : Type} n S (l : list (list string * tree V)) T,
  ~ In (DictKey (KStr n)) (map fst S) -> Forall (fun x => fst x <> []) l ->
  insert_names_all (Node KDict (S ++ [(DictKey (KStr n), T)])) (nunder n l) = rmap (fun s => Node KDict (S ++ [(DictKey (KStr n), s)])) (insert_names_all T l).
Proof.
  intros V n S l. induction l as [|[p v] l IH]; intros T N F; auto. inversion_clear F as [|? ? P F']. simpl in P.
  destruct p as [|n2 p]; [congruence|]. unfold nunder. cbn [map fst snd]. cbn [insert_names_all].
  remember (insert_names T (n2 :: p) v) as R eqn:ER. cbn [insert_names]. rewrite find_app_fresh by auto. cbn [find_item]. rewrite key_eqb_refl.
  cbn [insert_names] in ER. rewrite <- ER. clear ER. destruct R as [T'|e]; cbn [rmap rbind]; auto. rewrite put_app_fresh by auto. cbn [put_item]. rewrite key_eqb_refl.
  apply IH; auto.
Qed.

Lemma nblock : forall {V : Type} n S (l : list (list string * tree V)),
  ~ In (DictKey (KStr n)) (map fst S) -> nshaped l ->
  insert_names_all (Node KDict S) (nunder n l) = rmap (fun s => Node KDict (S ++ [(DictKey (KStr n), s)])) (nbuild l).
Proof.
  intros V n S l N [(v & ->)|[NE F]].
  - unfold nunder. cbn [map fst snd insert_names_all insert_names nbuild]. rewrite find_fresh by auto. cbn [rbind]. rewrite put_fresh by auto. auto.
  - destruct l as [|[p v] l]; [congruence|]. inversion_clear F as [|? ? P F']. simpl in P. destruct p as [|n2 p]; [congruence|].
    cbn [nbuild]. unfold nunder. cbn [map fst snd]. cbn [insert_names_all].
    remember (insert_names (Node KDict []) (n2 :: p) v) as R eqn:ER. cbn [insert_names]. rewrite find_fresh by auto.
    cbn [insert_names] in ER. rewrite <- ER. clear ER. destruct R as [T'|e]; cbn [rmap rbind]; auto. rewrite put_fresh by auto.
    apply nlift; auto.
Qed.

Lemma nnode : forall {V : Type} keep (xs : list (key * tree V)) S,
  Forall (fun x => nbuild (named (flatten keep (snd x))) = Ok (as_dicts keep (snd x)) /\ leafy keep (snd x) = true) xs ->
  NoDup (map str_name (map fst xs)) -> (forall x, In x xs -> ~ In (DictKey (KStr (str_name (fst x)))) (map fst S)) ->
  insert_names_all (Node KDict S) (named (flat_map (fun x => under (fst x) (flatten keep (snd x))) xs)) =
  Ok (Node KDict (S ++ map (fun x => (DictKey (KStr (str_name (fst x))), as_dicts keep (snd x))) xs)).
Proof.
  intros V keep xs. induction xs as [|[k c] xs IH]; intros S F N Q.
  - simpl. rewrite app_nil_r. auto.
  - inversion_clear F as [|? ? (B & L) F']. cbn [fst snd] in B, L. cbn [map fst] in N. inversion_clear N as [|? ? N1 N2].
    cbn [flat_map fst snd]. unfold named in *. rewrite map_app. fold (@named V). rewrite ina_app. fold (named (under k (flatten keep c))). rewrite named_under.
    rewrite nblock; [|apply (Q (k, c)); left; auto|apply named_shaped; auto]. unfold named at 1. rewrite B. cbn [rmap rbind]. rewrite IH; auto.
    + rewrite <- app_assoc. auto.
    + intros y J. rewrite map_app, in_app_iff. intros [H|H]; [apply (Q y); auto; right; auto|]. simpl in H. destruct H as [H|[]].
      apply N1. injection H as H. rewrite H. apply in_map, in_map; auto.
Qed.

Lemma nbuild_node : forall {V : Type} keep k (cs : list (key * tree V)), cs <> [] ->
  nbuild (named (flatten keep (Node k cs))) = insert_names_all (Node KDict []) (named (flatten keep (Node k cs))).
Proof.
  intros V keep k cs N. assert (H := flatten_heads keep k cs). destruct (flatten keep (Node k cs)) as [|[p v] l]; auto.
  destruct (H p v) as (x & q & -> & _); auto. left; auto.
Qed.

Lemma nbuild_ok : forall {V : Type} keep (t : tree V), wf t -> nbuild (named (flatten keep t)) = Ok (as_dicts keep t).
Proof.
  intros V keep t. induction t as [v|k cs F] using tree_ind'; intros W; auto. destruct cs as [|c cs]; [simpl; destruct keep; auto|].
  assert (N : c :: cs <> []) by discriminate. set (l := c :: cs) in *. clearbody l. inversion_clear W as [|? ? W1 W2].
  rewrite nbuild_node by auto. rewrite flatten_seen by auto. rewrite as_dicts_node by auto. rewrite nnode; auto.
  - apply Forall_forall. intros x I. apply seen_in in I as [I L]. rewrite Forall_forall in F, W2. auto.
  - apply seen_names; auto.
Qed.

Theorem flat_round_trip : forall {V : Type} keep (t : tree V), wf t -> from_flat_dict (to_flat_dict keep t) = Ok (as_dicts keep t).
Proof.
  intros V keep t W. rewrite to_flat_eq by auto. rewrite <- nbuild_ok by auto. unfold from_flat_dict.
  destruct (leafy keep t) eqn:L; [|apply flatten_nil in L; rewrite L; auto]. destruct (named_shaped keep t L) as [(v & ->)|[N F]]; auto.
  assert (X : dget names_eqb [] (named (flatten keep t)) = None).
  { apply (dget_none names_eqb names_eqb_spec). intros I. apply in_map_iff in I as (x & E & I). rewrite Forall_forall in F. apply (F x); auto. }
  rewrite X. destruct (named (flatten keep t)) as [|[[|n p] v] l]; auto. inversion_clear F. simpl in *. congruence.
Qed.

Lemma order_seen_all : forall {V : Type} (k : kind) (cs : list (key * tree V)), seen true k cs = order k cs.
Proof.
  intros V k cs. unfold seen. induction (order k cs) as [|x l IH]; auto. simpl. rewrite leafy_true. f_equal. auto.
Qed.

Lemma as_dicts_norm : forall {V : Type} (t : tree V), string_dicts t -> as_dicts true t = norm t.
Proof.
  intros V t. induction t as [v|k cs F] using tree_ind'; intros D; auto. inversion_clear D as [|? D']. destruct cs as [|c cs]; auto.
  rewrite as_dicts_node by discriminate. rewrite norm_node. rewrite order_seen_all. f_equal. unfold map_items. apply map_ext_in. intros x I. rewrite order_in in I.
  rewrite Forall_forall in F, D'. destruct (D' x I) as ((s & E) & DS). rewrite E. rewrite F; auto.
Qed.

Lemma filter_all : forall {A : Type} (f : A -> bool) l, forallb f l = true -> filter f l = l.
Proof. intros A f l. induction l as [|a l IH]; simpl; intros H; auto. apply andb_true_iff in H as [-> H]. f_equal. auto. Qed.

Lemma string_dicts_leafy : forall {V : Type} (t : tree V), string_dicts t -> (forall p k, ~ at_path t p (Node k [])) -> as_dicts false t = norm t.
Proof.
  intros V t. induction t as [v|k cs F] using tree_ind'; intros D E; auto. destruct cs as [|c cs]; [exfalso; apply (E [] k); constructor|].
  inversion_clear D as [|? D']. set (l := c :: cs) in *. assert (N : l <> []) by discriminate. clearbody l.
  rewrite as_dicts_node by auto. rewrite norm_node. assert (A : forall x, In x l -> leafy false (snd x) = true).
  { intros x I. assert (G : forall p k, ~ at_path (snd x) p (Node k [])).
    { intros p k0 A. apply (E (fst x :: p) k0). apply at_child with (c := snd x); auto. rewrite <- surjective_pairing. auto. }
    clear - G. revert G. generalize (snd x). intros t. clear x. induction t as [v|k cs F] using tree_ind'; intros G; auto.
    destruct cs as [|c cs]; [exfalso; apply (G [] k); constructor|]. rewrite leafy_node by discriminate. inversion_clear F as [|? ? F1 _]. cbn [existsb].
    rewrite F1; auto. intros p k' A. apply (G (fst c :: p) k'). apply at_child with (c := snd c); auto. left. apply surjective_pairing. }
  f_equal. unfold map_items, seen. rewrite filter_all.
  - apply map_ext_in. intros x I. rewrite order_in in I. rewrite Forall_forall in F, D'. destruct (D' x I) as ((s & ES) & DS). rewrite ES. rewrite F; auto.
    intros p k0 A'. apply (E (fst x :: p) k0). apply at_child with (c := snd x); auto. rewrite <- surjective_pairing. auto.
  - apply forallb_forall. intros x I. rewrite order_in in I. auto.
Qed.

(** ** Separators *)

Definition lacks (c : ascii) (s : string) : Prop := ~ In c (list_ascii_of_string s).

Lemma prefix_one : forall c a s, String.prefix (String c "") (String a s) = Ascii.eqb c a.
Proof.
  intros c a s. cbn [String.prefix]. destruct (ascii_dec c a) as [->|N].
  - rewrite Ascii.eqb_refl. destruct s; auto.
  - destruct (Ascii.eqb_spec c a); congruence.
Qed.

Lemma split_piece : forall c w, lacks c w -> split_from (String c "") 0 w = [w].
Proof.
  intros c w. unfold lacks. induction w as [|a w IH]; intros L; auto. cbn [split_from]. rewrite prefix_one. simpl in L.
  destruct (Ascii.eqb_spec c a) as [->|N]; [exfalso; auto|]. rewrite IH by tauto. auto.
Qed.

Lemma split_first : forall c w r, lacks c w -> split_from (String c "") 0 (w ++ String c r) = w :: split_from (String c "") 0 r.
Proof.
  intros c w r. unfold lacks. induction w as [|a w IH]; intros L.
  - cbn [append]. cbn [split_from]. rewrite prefix_one. rewrite Ascii.eqb_refl. auto.
  - cbn [append]. cbn [split_from]. rewrite prefix_one. simpl in L. destruct (Ascii.eqb_spec c a) as [->|N]; [exfalso; auto|]. rewrite IH by tauto. auto.
Qed.

Lemma split_join : forall c l, l <> [] -> Forall (lacks c) l -> split_from (String c "") 0 (join (String c "") l) = l.
Proof.
  intros c l. unfold join. induction l as [|w l IH]; intros N F; [congruence|]. inversion_clear F as [|? ? F1 F2]. destruct l as [|x l].
  - cbn [String.concat]. apply split_piece; auto.
  - cbn [String.concat]. cbn [append]. rewrite split_first by auto. f_equal. apply IH; auto. discriminate.
Qed.

Lemma without_child : forall {V : Type} c k (cs : list (key * tree V)) x s, without c (Node k cs) -> In (x, s) cs -> lacks c (str_name x) /\ without c s.
Proof.
  intros V c k cs x s W I. cbn [without] in W. induction cs as [|[y d] cs IH]; [contradiction|]. destruct W as (W1 & W2 & W3).
  destruct I as [E|I]; [injection E as -> ->; auto|]. apply IH; auto.
Qed.

Lemma without_path : forall {V : Type} c (t : tree V) p s, at_path t p s -> without c t -> Forall (lacks c) (tuple_path_from_keypath p).
Proof.
  intros V c t p s A. induction A as [t|k cs x d p s I A IH]; intros W; [constructor|]. destruct (without_child c k cs x d W I) as [L W'].
  cbn [tuple_path_from_keypath map]. constructor; auto.
Qed.

Lemma nodup_inj_map : forall {A B C : Type} (f : A -> B) (g : A -> C) (l : list A), NoDup (map f l) -> (forall x y, In x l -> In y l -> g x = g y -> f x = f y) -> NoDup (map g l).
Proof.
  intros A B C f g l. induction l as [|a l IH]; simpl; intros N H; constructor; inversion_clear N as [|? ? N1 N2].
  - intros I. apply N1. apply in_map_iff in I as (x & E & I). rewrite <- (H x a); auto. apply in_map; auto.
  - apply IH; auto.
Qed.

Lemma to_flat_sep_eq : forall {V : Type} sep keep (t : tree V), wf t ->
  (forall p q v w, at_path t p v -> is_leaf keep v -> at_path t q w -> is_leaf keep w ->
     join sep (tuple_path_from_keypath p) = join sep (tuple_path_from_keypath q) -> p = q) ->
  to_flat_dict_sep sep keep t = map (fun x => (join sep (tuple_path_from_keypath (fst x)), snd x)) (flatten keep t).
Proof.
  intros V sep keep t W H. unfold to_flat_dict_sep. rewrite to_flat_eq by auto. unfold named. rewrite map_map. cbn [fst snd].
  apply dict_of_nodup; [apply String.eqb_spec|]. rewrite map_map. cbn [fst]. assert (N := named_nodup keep t W). unfold named in N. rewrite map_map in N. cbn [fst] in N.
  refine (nodup_inj_map _ _ _ N _). intros [p v] [q w] I J E. cbn [fst] in *. apply flatten_spec in I as [A L]. apply flatten_spec in J as [B M].
  rewrite (H p q v w); auto.
Qed.

Lemma sep_inj : forall {V : Type} c keep (t : tree V), wf t -> without c t ->
  forall p q v w, at_path t p v -> is_leaf keep v -> at_path t q w -> is_leaf keep w ->
     join (String c "") (tuple_path_from_keypath p) = join (String c "") (tuple_path_from_keypath q) -> p = q.
Proof.
  intros V c keep t W X p q v w A L B M E.
  assert (R : forall p' q' v' w', at_path t p' v' -> is_leaf keep v' -> at_path t q' w' -> p' = [] -> q' = []).
  { intros p' q' v' w' A' L' B' ->. inversion A'; subst. destruct v' as [?|k cs]; simpl in L'; [inversion B'; auto|]. destruct L' as [_ ->]. inversion B'; subst; auto. contradiction. }
  destruct p as [|x p]; [symmetry; apply (R [] q v w); auto|]. destruct q as [|y q]; [apply (R [] (x :: p) w v); auto|].
  apply (names_path_inj keep t (x :: p) (y :: q) v w); auto.
  apply (f_equal (split_from (String c "") 0)) in E. rewrite !split_join in E; auto; try discriminate; try (eapply without_path; eauto).
Qed.

Lemma sequence_ok : forall {A B : Type} (f : A -> result B) (g : A -> B) l, (forall x, In x l -> f x = Ok (g x)) -> sequence (map f l) = Ok (map g l).
Proof. intros A B f g l. induction l as [|x l IH]; intros H; auto. cbn [map sequence]. rewrite H by (left; auto). cbn [rbind]. rewrite IH by (intros; apply H; right; auto). auto. Qed.

Theorem flat_sep_round_trip : forall {V : Type} c keep (t : tree V), wf t -> without c t -> ~ is_leaf keep t ->
  from_flat_dict_sep (String c "") (to_flat_dict_sep (String c "") keep t) = Ok (as_dicts keep t).
Proof.
  intros V c keep t W X L. rewrite to_flat_sep_eq by (auto; apply sep_inj; auto). unfold from_flat_dict_sep. rewrite map_map. cbn [fst snd].
  rewrite (sequence_ok _ (fun x => (tuple_path_from_keypath (fst x), snd x))).
  - cbn [rbind]. fold (named (flatten keep t)). rewrite <- nbuild_ok by auto. destruct t as [v|k cs]; [simpl in L; tauto|].
    destruct cs as [|d cs]; [destruct keep; [simpl in L; tauto|auto]|]. symmetry. apply nbuild_node. discriminate.
  - intros [p v] I. cbn [fst snd]. unfold split. rewrite split_join; auto.
    + destruct p; [|discriminate]. apply flatten_spec in I as [A LV]. inversion A; subst. contradiction.
    + apply flatten_spec in I as [A LV]. eapply without_path; eauto.
Qed.

(** ** Targets *)

Fixpoint rpaths {V : Type} (t : tree V) : list path :=
  match t with
  | Leaf _ => [[]]
  | Node _ cs => flat_map (fun x => map (cons (fst x)) (snd x)) (map_items rpaths cs)
  end.

Lemma rpaths_norm : forall {V : Type} (t : tree V), map fst (flatten false t) = rpaths (norm t).
Proof.
  intros V t. induction t as [v|k cs F] using tree_ind'; auto. destruct cs as [|c cs]; [destruct k; auto|].
  rewrite flatten_node by discriminate. rewrite norm_node. cbn [rpaths]. unfold map_items. rewrite map_map. cbn [fst snd].
  assert (G : forall x, In x (order k (c :: cs)) -> map fst (flatten false (snd x)) = rpaths (norm (snd x))).
  { intros x I. rewrite order_in in I. rewrite Forall_forall in F. auto. }
  induction (order k (c :: cs)) as [|x l IH]; auto. cbn [flat_map map fst snd]. rewrite map_app. f_equal; [|apply IH; intros; apply G; right; auto].
  rewrite <- G by (left; auto). unfold under. rewrite !map_map. auto.
Qed.

Lemma with_leaves_node : forall {V W : Type} (f : path -> tree W) k (cs : list (key * tree V)),
  with_leaves f (Node k cs) = Node k (map (fun x => (fst x, with_leaves (fun p => f (fst x :: p)) (snd x))) cs).
Proof. intros V W f k cs. cbn [with_leaves]. f_equal. induction cs as [|[x c] cs IH]; auto. cbn [map fst snd]. f_equal. auto. Qed.

Lemma fill_with : forall {V W : Type} (t : tree V) (f : path -> tree W) rest, fill t (map f (rpaths t) ++ rest) = Some (with_leaves f t, rest).
Proof.
  intros V W t. induction t as [v|k cs F] using tree_ind'; intros f rest; auto. rewrite with_leaves_node. cbn [fill rpaths].
  match goal with |- match ?X with _ => _ end = _ => assert (E : X = Some (map (fun x => (fst x, with_leaves (fun p => f (fst x :: p)) (snd x))) cs, rest)) end; [|rewrite E; auto].
  unfold map_items. induction F as [|[x c] cs F1 F2 IH]; auto. cbn [map fst snd flat_map]. rewrite map_app, <- app_assoc. rewrite map_map. cbn [snd] in F1.
  rewrite (F1 (fun p => f (x :: p))). unfold path in *. rewrite IH. auto.
Qed.

Lemma fetch_all : forall {K V : Type} (eqb : K -> K -> bool) (d : dict K (tree V)) (f : path -> tree V) (g : path -> K) l,
  (forall p, In p l -> dget eqb (g p) d = Some (f p)) -> sequence (map (fetch eqb d) (map g l)) = Ok (map f l).
Proof. intros. rewrite map_map. apply sequence_ok. intros p I. unfold fetch. rewrite H by auto. auto. Qed.

Lemma fetch_missing : forall {K V : Type} (eqb : K -> K -> bool) (d : dict K V) k l, In k l -> dget eqb k d = None -> sequence (map (fetch eqb d) l) = Err KeyError.
Proof.
  intros K V eqb d k l. induction l as [|a l IH]; intros I E; [contradiction|]. cbn [map sequence]. unfold fetch at 1. destruct I as [->|I]; [rewrite E; auto|].
  destruct (dget eqb a d); auto. cbn [rbind]. rewrite IH; auto.
Qed.

Lemma leaf_in : forall {V : Type} (t : tree V) p, In p (map fst (flatten false t)) <-> exists v, at_path t p (Leaf v).
Proof.
  intros V t p. split.
  - intros I. apply in_map_iff in I as ((q & s) & <- & I). apply flatten_spec in I as [A L]. destruct s as [v|k cs]; [eauto|]. simpl in L. destruct L; discriminate.
  - intros (v & A). apply (in_map fst (flatten false t) (p, Leaf v)). apply flatten_spec. simpl. auto.
Qed.

Lemma fst_named : forall {V : Type} (l : list (path * tree V)), map fst (named l) = map tuple_path_from_keypath (map fst l).
Proof. intros. unfold named. rewrite !map_map. auto. Qed.

Lemma fst_joined : forall {V : Type} sep (l : list (path * tree V)),
  map fst (map (fun x => (join sep (tuple_path_from_keypath (fst x)), snd x)) l) = map (fun p => join sep (tuple_path_from_keypath p)) (map fst l).
Proof. intros. rewrite !map_map. auto. Qed.

Theorem target_ok : forall {V W : Type} (d : dict (list string) (tree W)) (target : tree V) (f : path -> tree W), wf target ->
  (forall p v, at_path target p (Leaf v) -> dget names_eqb (tuple_path_from_keypath p) d = Some (f p)) ->
  from_flat_dict_target d target = Ok (with_leaves f (norm target)).
Proof.
  intros V W d target f WF H. unfold from_flat_dict_target. rewrite to_flat_eq by auto. rewrite fst_named. rewrite (fetch_all names_eqb d f).
  - cbn [rbind]. unfold unflatten. rewrite rpaths_norm. rewrite <- (app_nil_r (map f _)). rewrite fill_with. auto.
  - intros p I. apply leaf_in in I as (v & A). eauto.
Qed.

Theorem target_missing : forall {V W : Type} (d : dict (list string) (tree W)) (target : tree V) p v, wf target ->
  at_path target p (Leaf v) -> dget names_eqb (tuple_path_from_keypath p) d = None -> from_flat_dict_target d target = Err KeyError.
Proof.
  intros V W d target p v WF A E. unfold from_flat_dict_target. rewrite to_flat_eq by auto. rewrite fst_named. rewrite (fetch_missing names_eqb d (tuple_path_from_keypath p)); auto. apply in_map. apply leaf_in. eauto.
Qed.

Theorem target_sep_ok : forall {V W : Type} sep (d : dict string (tree W)) (target : tree V) (f : path -> tree W), wf target ->
  (forall p q v w, at_path target p (Leaf v) -> at_path target q (Leaf w) ->
     join sep (tuple_path_from_keypath p) = join sep (tuple_path_from_keypath q) -> p = q) ->
  (forall p v, at_path target p (Leaf v) -> dget String.eqb (join sep (tuple_path_from_keypath p)) d = Some (f p)) ->
  from_flat_dict_target_sep sep d target = Ok (with_leaves f (norm target)).
Proof.
  intros V W sep d target f WF I H. unfold from_flat_dict_target_sep. rewrite to_flat_sep_eq; auto.
  - rewrite fst_joined. rewrite (fetch_all String.eqb d f).
    + cbn [rbind]. unfold unflatten. rewrite rpaths_norm. rewrite <- (app_nil_r (map f _)). rewrite fill_with. auto.
    + intros p J. apply leaf_in in J as (v & A). eauto.
  - intros p q v w A L B M E. destruct v as [v|? ?]; [|simpl in L; destruct L; discriminate]. destruct w as [w|? ?]; [|simpl in M; destruct M; discriminate]. eauto.
Qed.

(** ** Parameter names *)

Lemma mwp_names : forall {V W : Type} keep (g : path -> W) (t : tree V) p0, exists nt, map_with_path keep (fun p _ => Ok (Leaf (g p))) p0 t = Ok nt /\
  forall q n, at_path nt q (Leaf n) <-> n = g (p0 ++ q) /\ exists s, at_path t q s /\ is_leaf keep s.
Proof.
  intros V W keep g t. induction t as [v|k cs F] using tree_ind'; intros p0.
  - exists (Leaf (g p0)). split; auto. intros q n. split.
    + intros A. inversion A; subst. rewrite app_nil_r. split; auto. exists (Leaf v). split; [constructor|simpl; auto].
    + intros (-> & s & A & L). inversion A; subst. rewrite app_nil_r. constructor.
  - destruct cs as [|c cs].
    + destruct keep; cbn [map_with_path].
      * exists (Leaf (g p0)). split; auto. intros q n. split.
        -- intros A. inversion A; subst. rewrite app_nil_r. split; auto. exists (Node k []). split; [constructor|simpl; auto].
        -- intros (-> & s & A & L). inversion A; subst; [rewrite app_nil_r; constructor|contradiction].
      * exists (Node k []). split; auto. intros q n. split.
        -- intros A. inversion A; subst. contradiction.
        -- intros (-> & s & A & L). inversion A; subst; [simpl in L; destruct L; discriminate|contradiction].
    + set (l := c :: cs) in *. assert (N : l <> []) by discriminate. clearbody l. rewrite mwp_node by auto.
      assert (G : exists ns, seq_items (map (fun x => (fst x, map_with_path keep (fun p _ => Ok (Leaf (g p))) (p0 ++ [fst x]) (snd x))) (order k l)) = Ok ns /\
        Forall2 (fun x y => fst x = fst y /\ forall q n, at_path (snd y) q (Leaf n) <-> n = g (p0 ++ fst x :: q) /\ exists s, at_path (snd x) q s /\ is_leaf keep s) (order k l) ns).
      { assert (F' : forall x, In x (order k l) -> forall p0, exists nt, map_with_path keep (fun p _ => Ok (Leaf (g p))) p0 (snd x) = Ok nt /\
          forall q n, at_path nt q (Leaf n) <-> n = g (p0 ++ q) /\ exists s, at_path (snd x) q s /\ is_leaf keep s).
        { intros x I. rewrite order_in in I. rewrite Forall_forall in F. apply (F x I). }
        clear - F'. induction (order k l) as [|x m IH]; [exists []; split; [auto|constructor]|].
        destruct (F' x (or_introl eq_refl) (p0 ++ [fst x])) as (nt & E & P). destruct IH as (ns & E' & P'); [intros; apply F'; right; auto|].
        exists ((fst x, nt) :: ns). unfold seq_items in *. cbn [map fst snd sequence]. rewrite E. cbn [rmap rbind]. rewrite E'. split; auto. constructor; auto.
        split; auto. intros q n. cbn [snd]. rewrite P. rewrite <- app_assoc. reflexivity. }
      destruct G as (ns & E & P). rewrite E. cbn [rmap]. exists (Node k ns). split; auto.
      intros q n. split.
      * intros A. inversion A as [|? ? x c' q' ? I A']; subst. clear A E.
        assert (X : exists y, In y (order k l) /\ fst y = x /\ (n = g (p0 ++ fst y :: q') /\ exists s, at_path (snd y) q' s /\ is_leaf keep s)).
        { clear - P I A'. induction P as [|a b m ms [P1 P2] P3 IH]; [contradiction|]. destruct I as [->|I].
          - exists a. split; [left; auto|]. split; auto. apply P2; auto.
          - destruct (IH I) as (y & Y & R). exists y. split; [right; auto|auto]. }
        destruct X as (y & Y & <- & -> & s & B & L). split; auto. exists s. split; auto. rewrite order_in in Y. apply at_child with (c := snd y); auto. rewrite <- surjective_pairing. auto.
      * intros (-> & s & A & L). inversion A as [|? ? x c' q' ? I A']; subst; [destruct L; congruence|].
        assert (X : exists d, In (x, d) ns /\ at_path d q' (Leaf (g (p0 ++ x :: q')))).
        { rewrite <- (order_in k) in I. clear - P I A' L. induction P as [|a [b1 b2] m ms [P1 P2] P3 IH]; [contradiction|]. destruct I as [->|I].
          - cbn [fst snd] in *. subst b1. exists b2. split; [left; auto|]. apply P2. split; auto. exists s. auto.
          - destruct (IH I) as (d & D & R). exists d. split; [right; auto|auto]. }
        destruct X as (d & D & B). apply at_child with (c := d); auto.
Qed.

Theorem param_names_ok : forall {V : Type} keep (t : tree V), exists nt, get_param_names keep t = Ok nt /\
  forall p n, at_path nt p (Leaf n) <-> n = param_name_from_keypath p /\ exists s, at_path t p s /\ is_leaf keep s.
Proof. intros. apply (mwp_names keep param_name_from_keypath t []). Qed.

Theorem param_names_inj : forall {V : Type} keep (t : tree V) nt p q n, wf t -> without "."%char t -> get_param_names keep t = Ok nt ->
  at_path nt p (Leaf n) -> at_path nt q (Leaf n) -> p = q.
Proof.
  intros V keep t nt p q n W X E A B. destruct (param_names_ok keep t) as (nt' & E' & P). rewrite E in E'. injection E' as <-.
  apply P in A as (-> & s & A & L). apply P in B as (E2 & s' & B & L'). apply (sep_inj "."%char keep t W X p q s s'); auto.
Qed.

Lemma serialized_form : forall {V : Type} keep (t : tree V) p k cs, at_path (serialized keep t) p (Node k cs) -> cs <> [] -> k = KList \/ k = KDict.
Proof.
  intros V keep t. induction t as [v|k0 cs0 F] using tree_ind'; intros p k cs A N; [inversion A|]. destruct cs0 as [|c cs0].
  - inversion A; subst; [congruence|contradiction].
  - rewrite serialized_node in A by discriminate. inversion A as [t E1 E2 E3|k' cs' x d q s I B E1 E2 E3]; subst.
    + destruct (is_sequence k0); auto.
    + apply in_map_iff in I as (y & E & I). injection E as _ <-. apply seen_in in I as [I _]. rewrite Forall_forall in F. eapply F; eauto.
Qed.
