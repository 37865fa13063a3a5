(** Proofs about the JSON form of metadata trees. *)
From Coq Require Import List Bool Arith NArith ZArith String Ascii Lia.
From Verif Require Import Base StepName_Model StepName_Proofs Tree_Model Tree_Spec Tree_Proofs RichMeta_Model RichMeta_Spec.
Import ListNotations.
Open Scope string_scope.

Lemma go_eq : forall {A B : Type} (f : A -> result B) (l : list (key * A)),
  (fix go (l : list (key * A)) : result (list (key * B)) :=
     match l with [] => Ok [] | (x, c) :: r => rbind (f c) (fun j => rmap (cons (x, j)) (go r)) end) l
  = seq_items (map (fun x => (fst x, f (snd x))) l).
Proof.
  intros A B f l. induction l as [|[x c] r IH]; simpl; auto. rewrite IH. unfold seq_items. simpl.
  destruct (f c); simpl; auto.
Qed.

Lemma dumps_node : forall M Q k cs, cs <> [] -> dumps M Q (Node k cs) =
  rbind (seq_items (map (fun x => (fst x, dumps M Q (snd x))) cs)) (fun js =>
    match k with
    | KNamed c =>
      Ok (pdict [("category", jstr "namedtuple"); ("module", jstr (M c)); ("clazz", jstr (Q c));
                 ("entries", plist (map (fun x => pdict [("key", jstr (field_name (fst x))); ("value", snd x)]) js))])
    | KTuple => Ok (pdict [("category", jstr "custom"); ("clazz", jstr "tuple"); ("entries", plist (map snd js))])
    | KDict => Ok (pdict (map (fun x => (str_name (fst x), snd x)) js))
    | KList => Ok (plist (map snd js))
    | KNone => Err ValueError
    end).
Proof. intros M Q k cs H. rewrite <- go_eq. destruct cs; [contradiction|reflexivity]. Qed.

Lemma loads_node : forall k cs, loads (Node k cs) =
  rbind (seq_items (map (fun x => (fst x, loads (snd x))) cs)) (fun ds =>
    match k with KDict => convert (depth (Node k ds)) (Node k ds) | _ => Ok (Node k ds) end).
Proof. intros. rewrite <- go_eq. reflexivity. Qed.

Lemma as_json_node : forall k cs, as_json (Node k cs) = rmap (Node k) (seq_items (map (fun x => (fst x, as_json (snd x))) cs)).
Proof. intros. rewrite <- go_eq. reflexivity. Qed.

Lemma seq_items_all : forall {A B : Type} (f : A -> result B) (g : A -> B) (l : list (key * A)), Forall (fun x => f (snd x) = Ok (g (snd x))) l ->
  seq_items (map (fun x => (fst x, f (snd x))) l) = Ok (map (fun x => (fst x, g (snd x))) l).
Proof.
  intros A B f g l H. unfold seq_items. rewrite map_map. simpl. induction H as [|[x c] r E F IH]; simpl; auto. simpl in E. rewrite E. simpl.
  rewrite IH. reflexivity.
Qed.

Lemma depth_child : forall {A : Type} k (cs : list (key * tree A)) x, In x cs -> depth (snd x) < depth (Node k cs).
Proof.
  intros A k cs x I. simpl. apply Nat.lt_succ_r. induction cs as [|y r IH]; simpl in *; [tauto|].
  destruct I as [<-|I]; [lia|]. specialize (IH I). lia.
Qed.

(** ** Values without objects to convert *)

Fixpoint lift (j : json) : tree lval :=
  match j with Leaf s => Leaf (LScalar s) | Node k cs => Node k (map_items lift cs) end.

Inductive inert : json -> Prop :=
| in_leaf : forall s, inert (Leaf s)
| in_node : forall k cs, Forall (fun x => inert (snd x)) cs -> (k = KDict -> find_item (DictKey (KStr "category")) cs = None) -> inert (Node k cs).

Lemma find_map_items : forall {A B : Type} (f : A -> B) k l, find_item k (map_items f l) = option_map f (find_item k l).
Proof. intros A B f k l. induction l as [|[x c] r IH]; simpl; auto. destruct (key_eqb k x); auto. Qed.

Lemma convert_inert : forall j, inert j -> forall n, depth (lift j) <= n -> convert n (lift j) = Ok (lift j).
Proof.
  intros j. induction j as [s|k cs IH] using tree_ind'; intros I n L.
  - destruct n; [simpl in L; lia|reflexivity].
  - destruct n as [|n]; [simpl in L; lia|]. simpl lift. destruct k; try reflexivity.
    inversion I as [|? ? F C]; subst. simpl convert. rewrite find_map_items, (C eq_refl). simpl option_map. cbv iota.
    rewrite (seq_items_all (convert n) (fun x => x)).
    + simpl. f_equal. f_equal. rewrite <- (map_id (map_items lift cs)) at 2. apply map_ext. intros [? ?]; reflexivity.
    + apply Forall_forall. intros [x c] J. unfold map_items in J. apply in_map_iff in J. destruct J as ([y d] & E & J). inversion E; subst. simpl.
      rewrite Forall_forall in IH, F. apply (IH _ J); [apply (F _ J)|].
      assert (D : depth (snd (x, lift d)) < depth (lift (Node KDict cs))).
      { simpl lift. apply depth_child. unfold map_items. apply in_map_iff. exists (x, d). auto. }
      simpl snd in *. lia.
Qed.

Lemma loads_inert : forall j, inert j -> loads j = Ok (lift j).
Proof.
  intros j. induction j as [s|k cs IH] using tree_ind'; intros I; [reflexivity|].
  rewrite loads_node. inversion I as [|? ? F C]; subst. rewrite (seq_items_all loads lift).
  - destruct k; try reflexivity. exact (convert_inert (Node KDict cs) I _ (le_n _)).
  - rewrite Forall_forall in *. intros x J. apply (IH x J). apply (F x J).
Qed.

Lemma as_json_lift : forall j, as_json (lift j) = Ok j.
Proof.
  intros j. induction j as [s|k cs IH] using tree_ind'; [reflexivity|]. simpl lift. rewrite as_json_node.
  assert (E : seq_items (map (fun x => (fst x, as_json (snd x))) (map_items lift cs)) = Ok cs).
  { unfold seq_items. induction IH as [|[x c] r E F IH']; [reflexivity|]. simpl in E |- *. rewrite E. simpl. rewrite IH'. reflexivity. }
  rewrite E. reflexivity.
Qed.

Lemma combine_in_snd : forall {A B : Type} (l : list A) (m : list B) x, In x (combine l m) -> In (snd x) m.
Proof. intros A B l m [a b] H. apply in_combine_r in H. exact H. Qed.

Lemma vm_inert : forall v, inert (vm_to_json v).
Proof.
  intros [ty sk sh]. unfold vm_to_json. simpl. constructor.
  - apply Forall_forall. intros x I. apply in_map_iff in I. destruct I as ([n j] & <- & I). simpl.
    destruct I as [E|[E|I]]; try (inversion E; subst; constructor).
    destruct sh as [s|]; [|contradiction]. destruct I as [E|[]]. inversion E; subst. unfold shape_json, plist. constructor; [|discriminate].
    apply Forall_forall. intros x I. apply combine_in_snd in I. apply in_map_iff in I. destruct I as (d & <- & _). constructor.
  - intros _. destruct sh; reflexivity.
Qed.

Lemma map_snd_combine : forall {A B : Type} (l : list A) (m : list B), List.length l = List.length m -> map snd (combine l m) = m.
Proof. intros A B l. induction l as [|a l IH]; intros [|b m] H; simpl in *; try discriminate; auto. f_equal. apply IH. lia. Qed.

Lemma elements_plist : forall {A : Type} (l : list (tree A)), elements (plist l) = Ok l.
Proof. intros A l. unfold elements, plist. f_equal. apply map_snd_combine. rewrite map_length, seq_length. reflexivity. Qed.

Lemma dims_ok : forall s, sequence (map as_dim (map (fun n => Leaf (SInt (Z.of_nat n))) s)) = Ok s.
Proof.
  induction s as [|n s IH]; simpl; auto. rewrite IH. simpl.
  destruct (Z.ltb_spec (Z.of_nat n) 0); [lia|]. simpl. rewrite Nat2Z.id. reflexivity.
Qed.

Lemma vm_round : forall v rich, vm_from_json (vm_to_json v) rich = Ok (mkV (override_empty_value_typestr (value_type v) rich) (skip_deserialize v) (write_shape v)).
Proof.
  intros [ty sk [s|]] rich; [|reflexivity]. unfold vm_from_json, vm_to_json. cbn [value_type skip_deserialize write_shape app].
  assert (E : elements (shape_json s) = Ok (map (fun n => Leaf (SInt (Z.of_nat n))) s)) by apply elements_plist.
  revert E. generalize (shape_json s). intros j E. simpl. rewrite E. cbn [rbind]. rewrite dims_ok. reflexivity.
Qed.

Lemma override_rich : forall s, override_empty_value_typestr s true = s.
Proof. reflexivity. Qed.

(** ** Trees that were read *)

Section Read.
Variables M Q : string -> string.

Lemma find_reread : forall k (cs : list (key * tree vmeta)) key f t,
  find_item key (map (fun x => (f (fst x), reread M Q (snd x))) cs) = Some t -> k = KDict -> exists c, t = reread M Q c.
Proof.
  intros k cs key f t H _. induction cs as [|[x c] r IH]; simpl in H; [discriminate|].
  destruct (key_eqb key (f x)); [inversion H; eauto|auto].
Qed.

Lemma reread_text : forall t s, is_text (reread M Q t) s = false.
Proof. intros [v|k cs] s; reflexivity. Qed.

Lemma convert_reread : forall t n, depth (reread M Q t) <= n -> convert n (reread M Q t) = Ok (reread M Q t).
Proof.
  intros t. induction t as [v|k cs IH] using tree_ind'; intros n L.
  - destruct n; [simpl in L; lia|reflexivity].
  - destruct n as [|n]; [simpl in L; lia|]. simpl reread in *. destruct k; try reflexivity.
    set (ds := map (fun x => (DictKey (KStr (str_name (fst x))), reread M Q (snd x))) cs) in *.
    assert (P : rmap (Node KDict) (seq_items (map (fun x => (fst x, convert n (snd x))) ds)) = Ok (Node KDict ds)).
    { rewrite (seq_items_all (convert n) (fun x => x)).
      - simpl. f_equal. f_equal. rewrite <- (map_id ds) at 2. apply map_ext. intros [? ?]; reflexivity.
      - apply Forall_forall. intros x J. assert (D := depth_child KDict ds x J). unfold ds in J. apply in_map_iff in J.
        destruct J as (y & <- & J). simpl snd in *. rewrite Forall_forall in IH. apply (IH y J). lia. }
    simpl convert. destruct (find_item _ ds) as [cat|] eqn:E; [|exact P].
    unfold ds in E. apply (find_reread KDict cs _ (fun k => DictKey (KStr (str_name k)))) in E; [|reflexivity].
    destruct E as [c ->]. rewrite !reread_text. exact P.
Qed.


Fixpoint namableb (t : tree vmeta) : bool :=
  match t with
  | Leaf _ => true
  | Node k cs => forallb (fun x => namableb (snd x)) cs &&
                 match k with
                 | KNamed c => namedtuple_ok (valid_class_name (M c) (Q c) (List.length cs)) (map (fun x => str_name (fst x)) cs)
                 | _ => true
                 end
  end.

Definition judged {A : Type} (b : bool) (a : A) : result A := if b then Ok a else Err ValueError.

Lemma judged_all : forall {A B : Type} (f : A -> result B) (b : A -> bool) (g : A -> B) l, (forall x, In x l -> f x = judged (b x) (g x)) ->
  sequence (map f l) = judged (forallb b l) (map g l).
Proof.
  intros A B f b g l H. induction l as [|x l IH]; [reflexivity|]. simpl. rewrite (H x (or_introl eq_refl)).
  rewrite IH by (intros; apply H; right; auto). unfold judged. destruct (b x); simpl; auto. destruct (forallb b l); reflexivity.
Qed.


Lemma loads_plist : forall l, loads (plist l) = rmap plist (sequence (map loads l)).
Proof.
  intros l. unfold plist at 1. rewrite loads_node. unfold seq_items. rewrite map_map. cbn [fst snd].
  assert (G : forall i, sequence (map (fun x : key * tree scalar => rmap (fun a => (fst x, a)) (loads (snd x))) (combine (map SequenceKey (seq i (List.length l))) l))
              = rmap (fun r => combine (map SequenceKey (seq i (List.length r))) r) (sequence (map loads l))).
  { induction l as [|j l IH]; intros i; [reflexivity|]. simpl. destruct (loads j); simpl; auto. rewrite IH.
    destruct (sequence (map loads l)); reflexivity. }
  rewrite G. destruct (sequence (map loads l)); reflexivity.
Qed.

Lemma plist_items : forall {A : Type} (cs : list (key * tree A)), map fst cs = map SequenceKey (seq 0 (List.length cs)) -> cs = combine (map SequenceKey (seq 0 (List.length cs))) (map snd cs).
Proof.
  intros A cs H. rewrite <- H. clear H. induction cs as [|[x c] r IH]; simpl; auto. f_equal. exact IH.
Qed.

Definition jof (t : tree vmeta) : json := match dumps M Q t with Ok j => j | Err _ => Leaf (SBool false) end.

Lemma dumps_ok : forall t, wf t -> full t -> dumps M Q t = Ok (jof t).
Proof.
  intros t W F. unfold jof. assert (E : exists j, dumps M Q t = Ok j); [|destruct E as [j ->]; reflexivity].
  induction t as [v|k cs IH] using tree_ind'; [eexists; reflexivity|]. inversion F as [|? ? NE Fs]; subst. inversion W as [|? ? K Ws]; subst.
  rewrite (dumps_node M Q k cs NE).
  assert (S : exists js, seq_items (map (fun x => (fst x, dumps M Q (snd x))) cs) = Ok js).
  { clear NE F W K. induction cs as [|[x c] r IHr]; [eexists; reflexivity|]. inversion IH; inversion Fs; inversion Ws; subst. simpl in *.
    destruct IHr as [js E]; auto. unfold seq_items in *. simpl. match goal with H : _ -> _ -> exists j, _ = Ok j |- _ => destruct H as [j ->]; auto end. simpl. rewrite E. simpl. eauto. }
  destruct S as [js ->]. simpl. destruct k; eauto. simpl in K. destruct cs; [contradiction|discriminate].
Qed.

Lemma jof_node : forall k cs, wf (Node k cs) -> full (Node k cs) -> Ok (jof (Node k cs)) =
    match k with
    | KNamed c =>
      Ok (pdict [("category", jstr "namedtuple"); ("module", jstr (M c)); ("clazz", jstr (Q c));
                 ("entries", plist (map (fun x => pdict [("key", jstr (field_name (fst x))); ("value", jof (snd x))]) cs))])
    | KTuple => Ok (pdict [("category", jstr "custom"); ("clazz", jstr "tuple"); ("entries", plist (map (fun x => jof (snd x)) cs))])
    | KDict => Ok (pdict (map (fun x => (str_name (fst x), jof (snd x))) cs))
    | KList => Ok (plist (map (fun x => jof (snd x)) cs))
    | KNone => Err ValueError
    end.
Proof.
  intros k cs W F. rewrite <- dumps_ok by auto. inversion F as [|? ? NE Fs]; subst. inversion W as [|? ? K Ws]; subst.
  rewrite dumps_node by auto. rewrite (seq_items_all (dumps M Q) jof).
  - simpl. destruct k; rewrite ?map_map; reflexivity.
  - rewrite Forall_forall in *. intros x I. apply dumps_ok; auto.
Qed.

Lemma undot_list : forall s, undot s = string_of_list_ascii (map (fun x => if Ascii.eqb x "." then "_"%char else x) (list_ascii_of_string s)).
Proof. induction s as [|c s IH]; simpl; auto. rewrite IH. reflexivity. Qed.

Lemma stand_in_eq : forall c n, valid_class_name (M c) (Q c) n = stand_in M Q c n.
Proof.
  intros. unfold valid_class_name, stand_in. rewrite undot_list. unfold str_int.
  assert (E : Z.to_N (Z.of_nat n) = N.of_nat n) by lia. destruct (Z.of_nat n) eqn:Z; [|rewrite <- E; reflexivity|lia].
  rewrite <- E. reflexivity.
Qed.

Lemma loads_pair : forall k j r, loads j = Ok (reread M Q r) -> loads (pdict [("key", jstr k); ("value", j)]) = Ok (pdict [("key", Leaf (LScalar (SStr k))); ("value", reread M Q r)]).
Proof.
  intros k j r E. unfold pdict. rewrite loads_node. unfold seq_items. simpl map. rewrite E. cbn [rbind rmap sequence].
  change (find_item (DictKey (KStr "category")) [(DictKey (KStr "key"), Leaf (LScalar (SStr k))); (DictKey (KStr "value"), reread M Q r)]) with (@None (tree lval)).
  set (ds := [(DictKey (KStr "key"), Leaf (LScalar (SStr k))); (DictKey (KStr "value"), reread M Q r)]).
  remember (depth (Node KDict ds)) as n eqn:N. destruct n as [|n]; [discriminate|]. simpl convert.
  assert (D := depth_child KDict ds (DictKey (KStr "value"), reread M Q r) ltac:(right; left; reflexivity)). rewrite <- N in D. simpl snd in D.
  unfold seq_items. simpl. rewrite convert_reread by lia. destruct n; [destruct r; simpl in D; lia|]. reflexivity.
Qed.

Lemma loads_pair_err : forall k j e, loads j = Err e -> loads (pdict [("key", jstr k); ("value", j)]) = Err e.
Proof. intros k j e E. unfold pdict. rewrite loads_node. unfold seq_items. simpl map. rewrite E. reflexivity. Qed.

Lemma loads_entry : forall j d v, loads j = Ok d -> as_json d = Ok j -> vm_from_json j true = Ok v ->
  loads (pdict [("category", jstr "custom"); ("clazz", jstr "ValueMetadataEntry"); ("data", j)]) = Ok (Leaf (LMeta v)).
Proof.
  intros j d v E J V. unfold pdict. rewrite loads_node. unfold seq_items. simpl map. rewrite E. cbn [rbind rmap sequence].
  remember (depth _) as n eqn:N. destruct n; [discriminate|]. simpl. rewrite J. simpl. rewrite V. reflexivity.
Qed.

Lemma loads_tuple : forall js rs, sequence (map loads js) = Ok (map (reread M Q) rs) ->
  loads (pdict [("category", jstr "custom"); ("clazz", jstr "tuple"); ("entries", plist js)]) = Ok (Node KTuple (combine (map SequenceKey (seq 0 (List.length rs))) (map (reread M Q) rs))).
Proof.
  intros js rs E. unfold pdict. rewrite loads_node. unfold seq_items. cbn [map fst snd]. rewrite loads_plist, E. cbn [rbind rmap sequence jstr loads].
  assert (HE := elements_plist (map (reread M Q) rs)). remember (plist (map (reread M Q) rs)) as P eqn:HP.
  remember (depth _) as n eqn:N. destruct n; [discriminate|]. simpl convert. rewrite HE. cbn [rbind].
  assert (S : sequence (map (convert n) (map (reread M Q) rs)) = Ok (map (reread M Q) rs)).
  { assert (L : forall r, In r rs -> depth (reread M Q r) <= n).
    { intros r I. assert (D1 := depth_child KList (combine (map SequenceKey (seq 0 (List.length (map (reread M Q) rs)))) (map (reread M Q) rs))).
      destruct (In_nth_error _ _ I) as [i Hi].
      assert (I2 : In (SequenceKey i, reread M Q r) (combine (map SequenceKey (seq 0 (List.length (map (reread M Q) rs)))) (map (reread M Q) rs))).
      { clear - Hi. rewrite map_length. change i with (0 + i) at 1. revert i Hi. generalize 0 as s. induction rs as [|y l IH]; intros s [|i] Hi; simpl in *; try discriminate.
        - inversion Hi; subst. left. rewrite Nat.add_0_r. reflexivity.
        - right. replace (s + S i) with (S s + i) by lia. apply IH; auto. }
      specialize (D1 _ I2). simpl snd in D1.
      match type of N with S n = depth (Node KDict ?l) => assert (D2 := depth_child KDict l (DictKey (KStr "entries"), P) ltac:(right; right; left; reflexivity)) end.
      rewrite <- N in D2. simpl snd in D2. rewrite HP in D2. unfold plist in D2. lia. }
    clear - L. induction rs as [|r l IH]; [reflexivity|]. simpl. rewrite convert_reread by (apply L; left; auto). simpl. rewrite IH by (intros; apply L; right; auto). reflexivity. }
  rewrite S. simpl. rewrite map_length. reflexivity.
Qed.

Lemma loads_named : forall m c js fs, sequence (map loads js) = Ok (map (fun x => pdict [("key", Leaf (LScalar (SStr (fst x)))); ("value", reread M Q (snd x))]) fs) ->
  loads (pdict [("category", jstr "namedtuple"); ("module", jstr m); ("clazz", jstr c); ("entries", plist js)]) = create_namedtuple m c (map (fun x => (fst x, reread M Q (snd x))) fs).
Proof.
  intros m c js fs E. unfold pdict at 1. rewrite loads_node. unfold seq_items. cbn [map fst snd]. rewrite loads_plist, E. cbn [rbind rmap sequence jstr loads].
  set (es := map (fun x => pdict [("key", Leaf (LScalar (SStr (fst x)))); ("value", reread M Q (snd x))]) fs).
  assert (HE := elements_plist es). remember (plist es) as P eqn:HP.
  remember (depth _) as n eqn:N. destruct n; [discriminate|]. simpl convert. rewrite HE. cbn [rbind].
  assert (S : sequence (map (fun e => rbind (rbind (field "key" e) text) (fun f => rbind (field "value" e) (fun v => rmap (fun x => (f, x)) (convert n v)))) es) = Ok (map (fun x => (fst x, reread M Q (snd x))) fs)).
  { assert (L : forall r, In r fs -> depth (reread M Q (snd r)) <= n).
    { intros r I. assert (D1 := depth_child KList (combine (map SequenceKey (seq 0 (List.length es))) es)).
      assert (I0 : In (pdict [("key", Leaf (LScalar (SStr (fst r)))); ("value", reread M Q (snd r))]) es) by (unfold es; apply in_map_iff; eauto).
      destruct (In_nth_error _ _ I0) as [i Hi].
      assert (I2 : In (SequenceKey i, pdict [("key", Leaf (LScalar (SStr (fst r)))); ("value", reread M Q (snd r))]) (combine (map SequenceKey (seq 0 (List.length es))) es)).
      { clear - Hi. change i with (0 + i) at 1. revert i Hi. generalize 0 as s. induction es as [|y l IH]; intros s [|i] Hi; simpl in *; try discriminate.
        - inversion Hi; subst. left. rewrite Nat.add_0_r. reflexivity.
        - right. replace (s + S i) with (S s + i) by lia. apply IH; auto. }
      specialize (D1 _ I2). simpl snd in D1.
      match type of N with S n = depth (Node KDict ?l) => assert (D2 := depth_child KDict l (DictKey (KStr "entries"), P) ltac:(right; right; right; left; reflexivity)) end.
      rewrite <- N in D2. simpl snd in D2. rewrite HP in D2. unfold plist in D2.
      assert (D3 := depth_child KDict [(DictKey (KStr "key"), Leaf (LScalar (SStr (fst r)))); (DictKey (KStr "value"), reread M Q (snd r))] (DictKey (KStr "value"), reread M Q (snd r)) ltac:(right; left; reflexivity)).
      simpl snd in D3. unfold pdict in D1. cbn [map fst snd] in D1. lia. }
    unfold es. clear - L. induction fs as [|r l IH]; [reflexivity|]. simpl in *. rewrite convert_reread by (apply L; left; auto). simpl. rewrite IH by (intros; apply L; right; auto). reflexivity. }
  rewrite S. reflexivity.
Qed.

Theorem read_back : forall t, wf t -> full t -> loads (jof t) = judged (namableb t) (reread M Q t).
Proof.
  intros t. induction t as [v|k cs IH] using tree_ind'; intros W F.
  - apply (loads_entry (vm_to_json v) (lift (vm_to_json v))).
    + apply loads_inert, vm_inert.
    + apply as_json_lift.
    + rewrite vm_round. destruct v; reflexivity.
  - assert (JN := jof_node k cs W F). inversion F as [|? ? NE Fs]; subst. inversion W as [|? ? K Ws]; subst.
    assert (CH : forall x, In x cs -> loads (jof (snd x)) = judged (namableb (snd x)) (reread M Q (snd x))).
    { rewrite Forall_forall in *. intros x I. apply (IH x I); auto. } clear IH.
    simpl namableb. unfold judged at 1. destruct k; try discriminate JN; injection JN as JN'; rewrite JN'; clear JN'.
    + unfold pdict. rewrite map_map. cbn [fst snd]. rewrite loads_node.
      unfold seq_items. rewrite !map_map. cbn [fst snd].
      rewrite (judged_all _ (fun x => namableb (snd x)) (fun x => (DictKey (KStr (str_name (fst x))), reread M Q (snd x)))).
      * rewrite andb_true_r. unfold judged. destruct (forallb _ cs); [|reflexivity].
        exact (convert_reread (Node KDict cs) _ (le_n _)).
      * intros x I. rewrite (CH x I). unfold judged. destruct (namableb (snd x)); reflexivity.
    + rewrite loads_plist, map_map. rewrite (judged_all _ (fun x => namableb (snd x)) (fun x => reread M Q (snd x))) by auto.
      rewrite andb_true_r. unfold judged. destruct (forallb _ cs); [|reflexivity]. simpl. unfold plist. f_equal. f_equal. simpl in K.
      rewrite map_length in *. rewrite <- K. clear. induction cs as [|[x c] r IH]; simpl; auto. f_equal. exact IH.
    + rewrite andb_true_r. destruct (forallb (fun x => namableb (snd x)) cs) eqn:B.
      * rewrite (loads_tuple _ (map snd cs)).
        -- unfold judged. simpl. f_equal. f_equal. simpl in K. rewrite !map_length in *. rewrite <- K, map_map. clear. induction cs as [|[x c] r IH]; simpl; auto. f_equal. exact IH.
        -- rewrite !map_map. rewrite (judged_all _ (fun x => namableb (snd x)) (fun x => reread M Q (snd x))) by auto. rewrite B. reflexivity.
      * unfold pdict. rewrite loads_node. unfold seq_items. cbn [map fst snd]. rewrite loads_plist, map_map.
        rewrite (judged_all _ (fun x => namableb (snd x)) (fun x => reread M Q (snd x))) by auto. rewrite B. reflexivity.
    + destruct (forallb (fun x => namableb (snd x)) cs) eqn:B.
      * rewrite (loads_named _ _ _ (map (fun x => (field_name (fst x), snd x)) cs)).
        -- unfold create_namedtuple. rewrite !map_map, !map_length. cbn [fst snd andb]. unfold field_name, judged.
           destruct (namedtuple_ok _ _) eqn:O; [|reflexivity]. f_equal. simpl. rewrite stand_in_eq. f_equal. simpl in K. destruct K as [_ K].
           apply map_ext_in. intros [x t] I. simpl. f_equal. destruct (K x) as [f ->]; [apply in_map_iff; exists (x, t); auto|reflexivity].
        -- rewrite !map_map. cbn [fst snd]. rewrite (judged_all _ (fun x => namableb (snd x)) (fun x => pdict [("key", Leaf (LScalar (SStr (field_name (fst x))))); ("value", reread M Q (snd x))])).
           ++ rewrite B. reflexivity.
           ++ intros x I. specialize (CH x I). unfold judged in *. destruct (namableb (snd x)); [apply loads_pair; auto|apply loads_pair_err; auto].
      * unfold pdict. rewrite loads_node. unfold seq_items. cbn [map fst snd]. rewrite loads_plist, map_map.
        rewrite (judged_all _ (fun x => namableb (snd x)) (fun x => pdict [("key", Leaf (LScalar (SStr (field_name (fst x))))); ("value", reread M Q (snd x))])).
        -- rewrite B. reflexivity.
        -- intros x I. specialize (CH x I). unfold judged in *. destruct (namableb (snd x)); [apply loads_pair; auto|apply loads_pair_err; auto].
Qed.

Lemma letter_eq : forall c, letter c = existsb (Ascii.eqb c) letters.
Proof. intros [[] [] [] [] [] [] [] []]; reflexivity. Qed.

Lemma digit_eq : forall c, (match char_digit c with Some _ => true | None => false end) = existsb (Ascii.eqb c) digits.
Proof. intros [[] [] [] [] [] [] [] []]; reflexivity. Qed.

Lemma existsb_in : forall c l, existsb (Ascii.eqb c) l = true <-> In c l.
Proof.
  intros c l. rewrite existsb_exists. split.
  - intros (x & I & E). apply Ascii.eqb_eq in E. subst. exact I.
  - intros I. exists c. split; [exact I|apply Ascii.eqb_refl].
Qed.

Lemma identifier_spec : forall s, identifier s = true <-> is_identifier s.
Proof.
  intros [|c r]; unfold identifier, is_identifier; simpl.
  - split; [discriminate|]. intros (? & ? & E & _). discriminate.
  - rewrite andb_true_iff, letter_eq, existsb_in, forallb_forall. split.
    + intros [I F]. exists c, r. split; [reflexivity|]. split; [exact I|]. intros x J. specialize (F x J). unfold letter_or_digit in F.
      rewrite letter_eq, digit_eq, orb_true_iff, !existsb_in in F. exact F.
    + intros (c' & r' & E & I & F). inversion E; subst. split; [exact I|]. intros x J. unfold letter_or_digit.
      rewrite letter_eq, digit_eq, orb_true_iff, !existsb_in. exact (F x J).
Qed.

Lemma distinct_nodup : forall l, NoDup l -> distinct l = true.
Proof.
  intros l N. induction N as [|x l I N IH]; simpl; auto. rewrite IH, andb_true_r. apply negb_true_iff. apply not_true_is_false.
  intros E. apply existsb_exists in E. destruct E as (y & J & E). apply String.eqb_eq in E. subst. auto.
Qed.

Lemma underscore : forall f, negb (String.prefix "_" f) = true <-> forall r, f <> String "_" r.
Proof.
  intros [|c r]; [split; [discriminate|reflexivity]|]. rewrite prefix_one, negb_true_iff, Ascii.eqb_neq. split.
  - intros N r' E. inversion E. congruence.
  - intros H E. subst. apply (H r). reflexivity.
Qed.

Lemma namable_spec : forall t, wf t -> (namableb t = true <-> namable M Q t).
Proof.
  intros t. induction t as [v|k cs IH] using tree_ind'; intros W; [split; [constructor|reflexivity]|].
  inversion W as [|? ? K Ws]; subst. simpl. rewrite andb_true_iff, forallb_forall.
  assert (C : (forall x, In x cs -> namableb (snd x) = true) <-> Forall (fun x => namable M Q (snd x)) cs).
  { rewrite Forall_forall in *. split; intros H x I; apply (IH x I (Ws x I)); auto. } clear IH.
  assert (G : forall c, k = KNamed c ->
    (namedtuple_ok (valid_class_name (M c) (Q c) (List.length cs)) (map (fun x => str_name (fst x)) cs) = true <->
     is_identifier (stand_in M Q c (List.length cs)) /\ forall f x, In (GetAttrKey f, x) cs -> is_identifier f /\ forall r, f <> String "_" r)).
  { intros c ->. simpl in K. destruct K as [ND K]. unfold namedtuple_ok. rewrite stand_in_eq, !andb_true_iff, identifier_spec, forallb_forall.
    assert (D : distinct (map (fun x => str_name (fst x)) cs) = true).
    { apply distinct_nodup. rewrite <- (map_map fst str_name). apply (names_nodup (KNamed c)). split; auto. }
    rewrite D. split.
    - intros [[I F] _]. split; [exact I|]. intros f x J. assert (P : In f (map (fun x => str_name (fst x)) cs)) by (apply in_map_iff; exists (GetAttrKey f, x); auto).
      specialize (F f P). rewrite andb_true_iff, identifier_spec, underscore in F. exact F.
    - intros [I F]. split; [|reflexivity]. split; [exact I|]. intros f P. apply in_map_iff in P. destruct P as ([x t] & <- & J). simpl.
      destruct (K x) as [f ->]; [apply in_map_iff; exists (x, t); auto|]. rewrite andb_true_iff, identifier_spec, underscore. exact (F f t J). }
  split.
  - intros [A B]. constructor; [apply C; auto|]. intros c ->. apply (G c eq_refl). exact B.
  - intros N. inversion N as [|? ? A B]; subst. split; [apply C; auto|]. destruct k; auto. apply (G c eq_refl). apply (B c eq_refl).
Qed.

Lemma dumps_full : forall t, wf t -> ((exists j, dumps M Q t = Ok j) <-> full t).
Proof.
  intros t W. split; [|intros F; exists (jof t); apply dumps_ok; auto]. intros [j E]. revert j E.
  induction t as [v|k cs IH] using tree_ind'; intros j E; [constructor|]. inversion W as [|? ? K Ws]; subst.
  assert (NE : cs <> []) by (intros ->; discriminate E). constructor; [exact NE|]. rewrite dumps_node in E by auto.
  destruct (seq_items _) as [js|e] eqn:S; [|discriminate]. clear E NE. apply Forall_forall. intros x I. rewrite Forall_forall in IH, Ws.
  assert (X : exists j, dumps M Q (snd x) = Ok j).
  { clear - S I. unfold seq_items in S. rewrite map_map in S. cbn [fst snd] in S. revert js S. induction cs as [|y r IHr]; intros js S; [destruct I|].
    simpl in S. destruct (dumps M Q (snd y)) eqn:D; simpl in S; [|discriminate]. destruct (sequence _) eqn:R in S; [|discriminate].
    destruct I as [<-|I]; [eauto|]. eapply IHr; eauto. }
  destruct X as [j' X]. exact (IH x I (Ws x I) j' X).
Qed.

End Read.
