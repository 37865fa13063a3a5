(** Proofs about the topology of workers and the agreement on steps (C71) *)
From Coq Require Import List Bool Arith ZArith Lia Sorted Permutation.
From Verif Require Import Base Tree_Model Tree_Proofs Parts_Proofs Topology_Model Topology_Spec.
From Verif Require Surgery_Proofs.
Import ListNotations.

(** ** Sorting *)

Lemma insert_before_perm : forall {A} le (x : A) l, Permutation (insert_before le x l) (x :: l).
Proof. intros A le x l. induction l as [|y r IH]; simpl; auto. destruct (le x y); auto. rewrite IH. apply perm_swap. Qed.

Lemma sort_list_perm : forall {A} le (l : list A), Permutation (sort_list le l) l.
Proof. intros A le l. induction l as [|x r IH]; simpl; auto. rewrite insert_before_perm. constructor. exact IH. Qed.

Lemma sort_list_sorted : forall {A} (le : A -> A -> bool), (forall x y, le x y = false -> le y x = true) -> (forall x y z, le x y = true -> le y z = true -> le x z = true) ->
  forall l, StronglySorted (fun a b => le a b = true) (sort_list le l).
Proof.
  intros A le T R l. induction l as [|x r IH]; simpl; [constructor|]. fold (sort_list le r). revert IH. generalize (sort_list le r) as m. clear r.
  intros m. induction m as [|y m IH]; intros S; simpl; [repeat constructor|]. inversion_clear S as [|? ? S1 S2]. destruct (le x y) eqn:E.
  - constructor; [constructor; auto|]. constructor; auto. eapply Forall_impl; [|exact S2]. intros z Z. eauto.
  - constructor; auto. eapply Permutation_Forall; [apply Permutation_sym, insert_before_perm|]. constructor; auto.
Qed.

Lemma ss_unique : forall {A} (R : A -> A -> Prop), (forall x y, R x y -> R y x -> x = y) -> forall a b, StronglySorted R a -> StronglySorted R b -> Permutation a b -> a = b.
Proof.
  intros A R AS a. induction a as [|x a IH]; intros b SA SB P; [apply Permutation_nil in P; auto|]. destruct b as [|y b]; [apply Permutation_sym, Permutation_nil in P; discriminate|].
  inversion_clear SA as [|? ? SA1 SA2]. inversion_clear SB as [|? ? SB1 SB2]. rewrite Forall_forall in SA2, SB2.
  assert (E : x = y). { destruct (Permutation_in x P (or_introl eq_refl)) as [->|X]; auto. destruct (Permutation_in y (Permutation_sym P) (or_introl eq_refl)) as [->|Y]; auto. }
  subst y. f_equal. apply IH; auto. eapply Permutation_cons_inv; eauto.
Qed.

Lemma ss_strict_nodup : forall {A} (R : A -> A -> Prop), (forall x, ~ R x x) -> forall a, StronglySorted R a -> NoDup a.
Proof. intros A R I a S. induction S as [|x l S IH F]; constructor; auto. rewrite Forall_forall in F. intros H. exact (I x (F x H)). Qed.

Lemma ss_impl : forall {A} (R T : A -> A -> Prop) l, (forall x y, In x l -> In y l -> R x y -> T x y) -> StronglySorted R l -> StronglySorted T l.
Proof.
  intros A R T l H S. induction S as [|x l S IH F]; constructor.
  - apply IH. intros a b Ha Hb. apply H; right; auto.
  - rewrite Forall_forall in *. intros y Y. apply H; [left; auto|right; auto|]. auto.
Qed.

Lemma nat_sorted : forall l, StronglySorted le (sort_list Nat.leb l).
Proof.
  intros l. eapply ss_impl; [|apply (sort_list_sorted Nat.leb)].
  - intros x y _ _ H. apply Nat.leb_le; auto.
  - intros x y H. apply Nat.leb_gt in H. apply Nat.leb_le. lia.
  - intros x y z H1 H2. apply Nat.leb_le in H1, H2. apply Nat.leb_le. lia.
Qed.

Lemma ascending_iff : forall x y, ascending x y <-> y = sort_list Nat.leb x.
Proof.
  intros x y. split.
  - intros [P S]. apply (ss_unique le); [lia| |apply nat_sorted|].
    + apply Sorted_StronglySorted; auto. intros a b c. lia.
    + rewrite sort_list_perm. symmetry. auto.
  - intros ->. split; [symmetry; apply sort_list_perm|]. apply StronglySorted_Sorted, nat_sorted.
Qed.

(** ** Keys *)

Lemma wkey_spec : forall a b, reflect (a = b) (wkey_eqb a b).
Proof. intros a b. unfold wkey_eqb. destruct (list_eq_dec Nat.eq_dec a b); constructor; auto. Qed.

Lemma tuple_leb_total : forall a b, tuple_leb a b = false -> tuple_leb b a = true.
Proof.
  induction a as [|x a IH]; intros [|y b] H; simpl in *; auto; try discriminate.
  destruct (x <? y) eqn:E1; [discriminate|]. destruct (y <? x) eqn:E2; auto.
Qed.

Lemma tuple_leb_iff : forall a b, tuple_leb a b = true <-> tuple_lt a b \/ a = b.
Proof.
  induction a as [|x a IH]; intros b; simpl.
  - split; auto. intros _. destruct b; [right; auto|left; constructor].
  - destruct b as [|y b].
    + split; [discriminate|]. intros [H|H]; [inversion H|discriminate].
    + destruct (Nat.ltb_spec x y) as [L|L].
      * split; auto. intros _. left. constructor. auto.
      * destruct (Nat.ltb_spec y x) as [L2|L2].
        { split; [discriminate|]. intros [H|H]; [inversion H; subst; lia|]. injection H as -> ->. lia. }
        assert (x = y) by lia. subst y. rewrite IH. split.
        { intros [H|H]; [left; apply LtTail; auto|right; congruence]. }
        { intros [H|H]; [left; inversion H; subst; auto; lia|right; congruence]. }
Qed.

Lemma tuple_lt_irrefl : forall a, ~ tuple_lt a a.
Proof. intros a. induction a as [|x a IH]; intros H; inversion H; subst; auto; lia. Qed.

Lemma tuple_lt_trans : forall a b c, tuple_lt a b -> tuple_lt b c -> tuple_lt a c.
Proof.
  intros a b c H. revert c. induction H as [x l|x y a b H|x a b H IH]; intros c K; inversion K; subst; constructor; auto; lia.
Qed.

Lemma tuple_leb_trans : forall a b c, tuple_leb a b = true -> tuple_leb b c = true -> tuple_leb a c = true.
Proof. intros a b c. rewrite !tuple_leb_iff. intros [H1| ->] [H2| ->]; auto. left. eapply tuple_lt_trans; eauto. Qed.

Definition proper (k : wkey) : Prop := (exists t s, k = [t; s]) \/ (exists t, k = [t]).

Lemma place_iff : forall k p, place k p <-> proper k /\ p = worker_key_sort_key k.
Proof.
  intros k p. split.
  - intros H. inversion H; subst; split; auto; [left|right]; eauto.
  - intros [[(t & s & ->)|(t & ->)] ->]; constructor.
Qed.

Lemma sort_key_inj : forall a b, worker_key_sort_key a = worker_key_sort_key b -> a = b.
Proof.
  intros a b. destruct a as [|x [|y [|z a]]], b as [|x' [|y' [|z' b]]]; simpl; intros H; congruence.
Qed.

Lemma before_iff : forall a b, proper a -> proper b -> (before a b <-> tuple_lt (worker_key_sort_key a) (worker_key_sort_key b)).
Proof.
  intros a b PA PB. unfold before. split.
  - intros (p & q & H1 & H2 & H3). apply place_iff in H1 as [_ ->]. apply place_iff in H2 as [_ ->]. auto.
  - intros H. eexists. eexists. split; [apply place_iff; split; auto; reflexivity|]. split; [apply place_iff; split; auto; reflexivity|]. auto.
Qed.

Lemma before_irrefl : forall a, ~ before a a.
Proof. intros a (p & q & H1 & H2 & H3). apply place_iff in H1 as [_ ->]. apply place_iff in H2 as [_ ->]. exact (tuple_lt_irrefl _ H3). Qed.

Lemma before_asym : forall a b, before a b -> before b a -> a = b.
Proof.
  intros a b (p & q & H1 & H2 & H3) (q' & p' & H4 & H5 & H6). apply place_iff in H1 as [_ ->]. apply place_iff in H2 as [_ ->]. apply place_iff in H4 as [_ ->]. apply place_iff in H5 as [_ ->].
  destruct (tuple_lt_irrefl (worker_key_sort_key a)). eapply tuple_lt_trans; eauto.
Qed.

Lemma belongs_iff : forall d k, belongs d k <-> worker_key d = Ok k.
Proof.
  intros d k. unfold belongs, worker_key. split.
  - intros [(t & s & -> & -> & ->)|(t & -> & -> & ->)]; auto.
  - destruct (d_task d) as [t|], (d_slice d) as [s|]; intros H; try discriminate H; injection H as <-; [left|right]; eauto.
Qed.

Lemma known_iff : forall d, known d <-> exists k, worker_key d = Ok k.
Proof. intros [i [t|] [s|]]; unfold known, worker_key; cbn; split; intros [x H]; try discriminate; eauto. Qed.

Lemma worker_key_proper : forall d k, worker_key d = Ok k -> proper k.
Proof. intros [i [t|] [s|]] k; unfold worker_key; cbn; intros H; try discriminate H; injection H as <-; unfold proper; eauto. Qed.

(** ** Groups *)

Definition key_is (k : wkey) (d : device) : bool := match worker_key d with Ok k' => wkey_eqb k k' | Err _ => false end.

Lemma key_is_iff : forall k d, key_is k d = true <-> belongs d k.
Proof. intros k d. rewrite belongs_iff. unfold key_is. destruct (worker_key d) as [k'|e]; [|split; discriminate]. destruct (wkey_spec k k'); split; congruence. Qed.

Lemma members_iff : forall k ds ms, members k ds ms <-> ms = filter (key_is k) ds.
Proof.
  intros k ds. induction ds as [|d ds IH]; intros ms; simpl.
  - split; [intros H; inversion H; auto|intros ->; constructor].
  - destruct (key_is k d) eqn:E.
    + apply key_is_iff in E. split.
      * intros H. inversion H; subst; [|contradiction]. f_equal. apply IH. auto.
      * intros ->. constructor; auto. apply IH. auto.
    + assert (N : ~ belongs d k) by (intros H; apply key_is_iff in H; congruence). split.
      * intros H. inversion H; subst; [contradiction|]. apply IH. auto.
      * intros ->. constructor; auto. apply IH. auto.
Qed.

Lemma group_spec : forall ds acc g, NoDup (map fst acc) -> group_devices ds acc = Ok g ->
  NoDup (map fst g) /\ forall k, dget wkey_eqb k g = match dget wkey_eqb k acc with Some l => Some (l ++ filter (key_is k) ds) | None => match filter (key_is k) ds with [] => None | l => Some l end end.
Proof.
  induction ds as [|d ds IH]; intros acc g N H; cbn [group_devices] in H.
  - injection H as <-. split; auto. intros k. simpl. destruct (dget wkey_eqb k acc); auto. rewrite app_nil_r. auto.
  - destruct (worker_key d) as [k0|e] eqn:EK; [|discriminate]. cbn [rbind] in H. apply IH in H as [N2 H]; [|apply dput_nodup; auto; apply wkey_spec]. split; auto.
    intros k. rewrite H, (dget_dput _ wkey_spec). cbn [filter]. unfold key_is at 3 6. rewrite EK. destruct (wkey_spec k k0) as [->|NE]; [|reflexivity].
    destruct (dget wkey_eqb k0 acc) as [l|]; auto. rewrite <- app_assoc. auto.
Qed.

Lemma group_ok : forall ds acc, Forall known ds -> exists g, group_devices ds acc = Ok g.
Proof.
  induction ds as [|d ds IH]; intros acc F; cbn [group_devices]; [eauto|]. inversion_clear F as [|? ? K F']. apply known_iff in K as [k ->]. cbn [rbind]. auto.
Qed.

Lemma group_err : forall ds acc e, group_devices ds acc = Err e -> e = ValueError /\ ~ Forall known ds.
Proof.
  induction ds as [|d ds IH]; intros acc e H; cbn [group_devices] in H; [discriminate|]. destruct (worker_key d) as [k|e'] eqn:E; cbn [rbind] in H.
  - apply IH in H as [-> H]. split; auto. intros F. inversion F; auto.
  - injection H as <-. split; [unfold worker_key in E; destruct (d_task d), (d_slice d); congruence|]. intros F. inversion F as [|? ? K]; subst. apply known_iff in K as [k K]. congruence.
Qed.

Lemma group_in : forall ds g k l, group_devices_by_worker ds = Ok g -> (In (k, l) g <-> l = filter (key_is k) ds /\ l <> []).
Proof.
  intros ds g k l H. destruct (group_spec ds [] g (NoDup_nil _) H) as [N S]. specialize (S k). cbn in S. rewrite <- (dget_in wkey_eqb wkey_spec k l g N), S.
  destruct (filter (key_is k) ds); split; [discriminate|intros [-> X]; congruence|intros X; injection X as <-; split; congruence|intros [-> _]; auto].
Qed.

Lemma nth_enumerate_from : forall {A} (l : list A) k i, nth_error (enumerate_from k l) i = match nth_error l i with Some x => Some (k + i, x) | None => None end.
Proof.
  intros A l. induction l as [|x l IH]; intros k [|i]; simpl; auto; [rewrite Nat.add_0_r; auto|]. rewrite IH. destruct (nth_error l i); auto. do 2 f_equal. lia.
Qed.

Lemma map_enumerate_from : forall {A B} (f : A -> B) (l : list A) k, map (fun x => f (snd x)) (enumerate_from k l) = map f l.
Proof. intros A B f l. induction l as [|x l IH]; intros k; simpl; [auto|]. f_equal. apply IH. Qed.

Definition in_order (g : dict wkey (list device)) : dict wkey (list device) :=
  sort_list (fun a b => tuple_leb (worker_key_sort_key (fst a)) (worker_key_sort_key (fst b))) g.

Definition make (x : nat * (wkey * list device)) : worker :=
  match x with (rank, (k, l)) => mkWorker rank k (sort_list Nat.leb (map d_id l)) (hd_error l) end.

Lemma from_devices_eq : forall ds, from_devices ds = rmap (fun g => map make (enumerate (in_order g))) (group_devices_by_worker ds).
Proof. reflexivity. Qed.

Lemma make_keys : forall l k, map w_key (map make (enumerate_from k l)) = map fst l.
Proof. intros l. induction l as [|[x m] l IH]; intros k; simpl; [auto|]. f_equal. apply IH. Qed.

Lemma make_ids : forall l k, map w_device_ids (map make (enumerate_from k l)) = map (fun x => sort_list Nat.leb (map d_id (snd x))) l.
Proof. intros l. induction l as [|[x m] l IH]; intros k; simpl; [auto|]. f_equal. apply IH. Qed.

Lemma from_devices_topology : forall ds ws, from_devices ds = Ok ws -> topology ds ws.
Proof.
  intros ds ws H. rewrite from_devices_eq in H. destruct (group_devices_by_worker ds) as [g|e] eqn:EG; [|discriminate]. cbn [rmap] in H. injection H as <-.
  assert (I : forall k l, In (k, l) (in_order g) <-> l = filter (key_is k) ds /\ l <> []).
  { intros k l. rewrite <- (group_in ds g k l EG). unfold in_order. split; intros X; eapply Permutation_in; try exact X; [|apply Permutation_sym]; apply sort_list_perm. }
  assert (PR : forall k l, In (k, l) (in_order g) -> proper k).
  { intros k l X. apply I in X as [-> X]. destruct (filter (key_is k) ds) as [|d m] eqn:E; [congruence|]. assert (D : In d (filter (key_is k) ds)) by (rewrite E; left; auto).
    apply filter_In in D as [_ D]. apply key_is_iff, belongs_iff in D. eapply worker_key_proper; eauto. }
  split; [|split].
  - intros i w X. rewrite nth_error_map in X. unfold enumerate in X. rewrite nth_enumerate_from in X. destruct (nth_error (in_order g) i) as [[k l]|] eqn:E; [|discriminate]. cbn in X. injection X as <-.
    cbn [w_rank w_key w_device_ids w_representative]. split; auto. apply nth_error_In in E. apply I in E as [E NE]. exists l. split; [apply members_iff; auto|]. split; auto. split; [apply ascending_iff; auto|auto].
  - intros d D. destruct (group_spec ds [] g (NoDup_nil _) EG) as [N S].
    assert (K : exists k, worker_key d = Ok k).
    { destruct (worker_key d) as [k|e] eqn:E; eauto. exfalso. clear - EG D E. unfold group_devices_by_worker in EG. revert EG. generalize (@nil (wkey * list device)) as acc.
      induction ds as [|d0 ds IH]; intros acc H; [contradiction|]. cbn [group_devices] in H. destruct D as [<-|D]; [rewrite E in H; discriminate|].
      destruct (worker_key d0) as [k0|e0]; [|discriminate]. cbn [rbind] in H. eapply IH; eauto. }
    destruct K as [k K]. assert (D2 : In d (filter (key_is k) ds)) by (apply filter_In; split; auto; apply key_is_iff, belongs_iff; auto).
    assert (X : In (k, filter (key_is k) ds) (in_order g)) by (apply I; split; auto; intros Z; rewrite Z in D2; contradiction).
    apply In_nth_error in X as [i X]. exists (make (i, (k, filter (key_is k) ds))). split; [|cbn; apply belongs_iff; auto].
    apply in_map. apply (nth_error_In _ i). unfold enumerate. rewrite nth_enumerate_from, X. auto.
  - unfold enumerate. rewrite make_keys. destruct (group_spec ds [] g (NoDup_nil _) EG) as [N _].
    assert (N2 : NoDup (map fst (in_order g))). { eapply Permutation_NoDup; [|exact N]. apply Permutation_map, Permutation_sym, sort_list_perm. }
    assert (SS : StronglySorted (fun a b => tuple_leb (worker_key_sort_key (fst a)) (worker_key_sort_key (fst b)) = true) (in_order g)).
    { apply (sort_list_sorted (fun a b => tuple_leb (worker_key_sort_key (fst a)) (worker_key_sort_key (fst b)))); [intros x y; apply tuple_leb_total|intros x y z; apply tuple_leb_trans]. }
    revert PR N2 SS. generalize (in_order g) as l. clear. intros l PR N S. induction S as [|[k m] l S IH F]; simpl; constructor.
    + apply IH; [intros; eapply PR; right; eauto|]. inversion N; auto.
    + inversion_clear N as [|? ? N1 N2]. rewrite Forall_forall in *. intros k' K'. apply in_map_iff in K' as ([k2 m'] & <- & K'). cbn [fst]. specialize (F _ K'). cbn [fst] in F.
      apply before_iff; [eapply PR; left; eauto|eapply PR; right; eauto|]. apply tuple_leb_iff in F as [F|F]; auto. apply sort_key_inj in F. subst k2. destruct N1. apply in_map_iff. exists (k, m'). auto.
Qed.

Lemma topology_known : forall ds ws, topology ds ws -> Forall known ds.
Proof. intros ds ws (_ & H & _). apply Forall_forall. intros d D. destruct (H d D) as (w & _ & B). apply known_iff. apply belongs_iff in B. eauto. Qed.

Lemma topology_keys : forall ds ws k, topology ds ws -> (In k (map w_key ws) <-> exists d, In d ds /\ belongs d k).
Proof.
  intros ds ws k (H1 & H2 & H3). split.
  - intros H. apply in_map_iff in H as (w & <- & W). apply In_nth_error in W as [i W]. apply H1 in W as (_ & ms & M & NE & _). apply members_iff in M. destruct ms as [|d ms]; [congruence|].
    assert (D : In d (filter (key_is (w_key w)) ds)) by (rewrite <- M; left; auto). apply filter_In in D as [D1 D2]. exists d. split; auto. apply key_is_iff. auto.
  - intros (d & D & B). destruct (H2 d D) as (w & W & B2). apply in_map_iff. exists w. split; auto. apply belongs_iff in B, B2. congruence.
Qed.

Lemma topology_nodup : forall ds ws, topology ds ws -> NoDup (map w_key ws).
Proof. intros ds ws (_ & _ & H). exact (ss_strict_nodup before before_irrefl _ H). Qed.

Lemma key_is_perm : forall k ds ds', Permutation ds ds' -> Permutation (filter (key_is k) ds) (filter (key_is k) ds').
Proof.
  intros k ds ds' P. induction P as [|x l m P IH|x y l|l m n P1 IH1 P2 IH2]; simpl; auto.
  - destruct (key_is k x); auto.
  - destruct (key_is k x), (key_is k y); auto. apply perm_swap.
  - etransitivity; eauto.
Qed.

Lemma topology_keys_same : forall ds ds' ws ws', Permutation ds ds' -> topology ds ws -> topology ds' ws' -> map w_key ws = map w_key ws'.
Proof.
  intros ds ds' ws ws' P T T'. apply (ss_unique before before_asym); [apply T|apply T'|]. apply NoDup_Permutation; [eapply topology_nodup; eauto|eapply topology_nodup; eauto|].
  intros k. rewrite (topology_keys ds ws k T), (topology_keys ds' ws' k T'). split; intros (d & D & B); exists d; split; auto; eapply Permutation_in; try exact D; auto. symmetry. auto.
Qed.

Lemma topology_order : forall ds ds' ws ws', Permutation ds ds' -> topology ds ws -> topology ds' ws' ->
  map (fun w => (w_rank w, w_key w, w_device_ids w)) ws = map (fun w => (w_rank w, w_key w, w_device_ids w)) ws'.
Proof.
  intros ds ds' ws ws' P T T'. pose proof (topology_keys_same ds ds' ws ws' P T T') as K. destruct T as (T1 & _ & _). destruct T' as (T1' & _ & _).
  assert (L : length ws = length ws') by (rewrite <- (map_length w_key ws), K, map_length; auto).
  apply nth_ext with (d := (0, [], [])) (d' := (0, [], [])); [rewrite !map_length; auto|]. intros i I. rewrite map_length in I.
  destruct (nth_error ws i) as [w|] eqn:E; [|apply nth_error_None in E; lia]. destruct (nth_error ws' i) as [w'|] eqn:E'; [|apply nth_error_None in E'; lia].
  rewrite (nth_error_nth (map _ ws) i _ (map_nth_error _ _ _ E)), (nth_error_nth (map _ ws') i _ (map_nth_error _ _ _ E')).
  assert (KW : w_key w = w_key w'). { apply (map_nth_error w_key) in E, E'. rewrite K in E. congruence. }
  destruct (T1 _ _ E) as (-> & ms & M & _ & A & _). destruct (T1' _ _ E') as (-> & ms' & M' & _ & A' & _). apply members_iff in M, M'. apply ascending_iff in A, A'. rewrite A, A', KW. f_equal.
  apply (ss_unique le); [lia|apply nat_sorted|apply nat_sorted|]. rewrite !sort_list_perm. apply Permutation_map. subst ms ms'. rewrite KW. apply key_is_perm. auto.
Qed.

Lemma topology_unique : forall ds ws ws', topology ds ws -> topology ds ws' -> ws = ws'.
Proof.
  intros ds ws ws' T T'. pose proof (topology_keys_same ds ds ws ws' (Permutation_refl _) T T') as K. destruct T as (T1 & _ & _). destruct T' as (T1' & _ & _).
  assert (L : length ws = length ws') by (rewrite <- (map_length w_key ws), K, map_length; auto).
  apply nth_ext with (d := mkWorker 0 [] [] None) (d' := mkWorker 0 [] [] None); auto. intros i I.
  destruct (nth_error ws i) as [w|] eqn:E; [|apply nth_error_None in E; lia]. destruct (nth_error ws' i) as [w'|] eqn:E'; [|apply nth_error_None in E'; lia].
  rewrite (nth_error_nth _ _ _ E), (nth_error_nth _ _ _ E').
  assert (KW : w_key w = w_key w'). { apply (map_nth_error w_key) in E, E'. rewrite K in E. congruence. }
  destruct (T1 _ _ E) as (R & ms & M & _ & A & H). destruct (T1' _ _ E') as (R' & ms' & M' & _ & A' & H'). apply members_iff in M, M'. apply ascending_iff in A, A'.
  destruct w as [r k di rp], w' as [r' k' di' rp']. cbn in *. subst. auto.
Qed.

Theorem from_devices_iff : forall ds ws, from_devices ds = Ok ws <-> topology ds ws.
Proof.
  intros ds ws. split; [apply from_devices_topology|]. intros T. destruct (group_ok ds [] (topology_known ds ws T)) as [g G].
  assert (E : exists ws', from_devices ds = Ok ws'). { rewrite from_devices_eq. unfold group_devices_by_worker. rewrite G. cbn. eauto. }
  destruct E as [ws' E]. rewrite E. f_equal. apply (topology_unique ds); auto. apply from_devices_topology. auto.
Qed.

Theorem from_devices_total : forall ds, (Forall known ds -> exists ws, from_devices ds = Ok ws) /\ (~ Forall known ds -> from_devices ds = Err ValueError).
Proof.
  intros ds. split.
  - intros F. destruct (group_ok ds [] F) as [g G]. rewrite from_devices_eq. unfold group_devices_by_worker. rewrite G. cbn. eauto.
  - intros N. rewrite from_devices_eq. unfold group_devices_by_worker. destruct (group_devices ds []) as [g|e] eqn:G.
    + destruct N. apply (topology_known ds (map make (enumerate (in_order g)))). apply from_devices_topology. rewrite from_devices_eq. unfold group_devices_by_worker. rewrite G. auto.
    + apply group_err in G as [-> _]. auto.
Qed.

Lemma dput_concat : forall k d acc, Permutation (concat (map snd (dput wkey_eqb k (match dget wkey_eqb k acc with Some l => l ++ [d] | None => [d] end) acc))) (concat (map snd acc) ++ [d : device]).
Proof.
  intros k d acc. induction acc as [|[k' l] acc IH]; cbn [dput dget map snd concat]; auto. destruct (wkey_eqb k k').
  - cbn [map snd concat]. rewrite <- !app_assoc. apply Permutation_app_head. apply Permutation_app_comm.
  - cbn [map snd concat]. rewrite <- app_assoc. apply Permutation_app_head. exact IH.
Qed.

Lemma group_concat : forall ds acc g, group_devices ds acc = Ok g -> Permutation (concat (map snd g)) (concat (map snd acc) ++ ds).
Proof.
  induction ds as [|d ds IH]; intros acc g H; cbn [group_devices] in H; [injection H as <-; rewrite app_nil_r; auto|]. destruct (worker_key d) as [k|e]; [|discriminate]. cbn [rbind] in H.
  apply IH in H. rewrite H, dput_concat, <- app_assoc. auto.
Qed.

Lemma concat_perm : forall {A} (l m : list (list A)), Permutation l m -> Permutation (concat l) (concat m).
Proof.
  intros A l m P. induction P as [|x l m P IH|x y l|l m n P1 IH1 P2 IH2]; simpl; auto.
  - apply Permutation_app_head. auto.
  - rewrite !app_assoc. apply Permutation_app_tail, Permutation_app_comm.
  - etransitivity; eauto.
Qed.

Theorem partition : forall ds ws, from_devices ds = Ok ws -> Permutation (concat (distributed_to_device_ids ws)) (map d_id ds).
Proof.
  intros ds ws H. rewrite from_devices_eq in H. destruct (group_devices_by_worker ds) as [g|e] eqn:G; [|discriminate]. cbn [rmap] in H. injection H as <-. unfold distributed_to_device_ids, enumerate. rewrite make_ids.
  apply group_concat in G. cbn in G. rewrite <- G, concat_map, map_map.
  assert (Q : forall l : dict wkey (list device), Permutation (concat (map (fun x => sort_list Nat.leb (map d_id (snd x))) l)) (concat (map (fun x => map d_id (snd x)) l))).
  { intros l. induction l as [|x l IH]; simpl; auto. apply Permutation_app; auto. apply sort_list_perm. }
  rewrite Q. apply concat_perm. apply Permutation_map. apply sort_list_perm.
Qed.

(** ** Slices *)

Lemma sorted_set_in : forall l x, In x (sorted_set l) <-> In x l.
Proof. intros l x. unfold sorted_set. split; intros H; [apply (nodup_In Nat.eq_dec); eapply Permutation_in; [apply sort_list_perm|exact H]|]. eapply Permutation_in; [apply Permutation_sym, sort_list_perm|]. apply nodup_In. auto. Qed.

Lemma sorted_set_nodup : forall l, NoDup (sorted_set l).
Proof. intros l. eapply Permutation_NoDup; [apply Permutation_sym, sort_list_perm|]. apply NoDup_nodup. Qed.

Lemma sorted_set_sorted : forall l, StronglySorted lt (sorted_set l).
Proof.
  intros l. pose proof (nat_sorted (nodup Nat.eq_dec l)) as S. fold (sorted_set l) in S. pose proof (sorted_set_nodup l) as N. revert S N. generalize (sorted_set l) as m. clear l.
  intros m S. induction S as [|x m S IH F]; intros N; constructor; inversion_clear N as [|? ? N1 N2]; auto. rewrite Forall_forall in *. intros y Y. specialize (F y Y). assert (x <> y) by congruence. lia.
Qed.

Lemma lt_sorted_unique : forall a b, StronglySorted lt a -> StronglySorted lt b -> (forall x, In x a <-> In x b) -> a = b.
Proof.
  intros a b SA SB E. apply (ss_unique lt); auto; [intros; lia|]. apply NoDup_Permutation; auto; eapply (ss_strict_nodup lt); eauto; intros; lia.
Qed.

Lemma slices_in : forall ks s, In s (slices_of ks) <-> exists k, In k ks /\ key_slice k = s.
Proof. intros ks s. unfold slices_of. rewrite sorted_set_in, in_map_iff. split; intros (k & A & B); eauto. Qed.

Lemma tasks_in : forall ks s t, In t (tasks_of ks s) <-> exists k, In k ks /\ key_slice k = s /\ key_task k = t.
Proof.
  intros ks s t. unfold tasks_of. rewrite sorted_set_in, in_map_iff. split.
  - intros (k & A & B). apply filter_In in B as [B C]. apply Nat.eqb_eq in C. eauto.
  - intros (k & A & B & C). exists k. split; auto. apply filter_In. split; auto. apply Nat.eqb_eq. auto.
Qed.

Definition product (ts ss : list nat) : list wkey := flat_map (fun s => map (fun t => [t; s]) ts) ss.

Lemma product_in : forall ts ss k, In k (product ts ss) <-> exists t s, k = [t; s] /\ In t ts /\ In s ss.
Proof.
  intros ts ss k. unfold product. rewrite in_flat_map. split.
  - intros (s & S & K). apply in_map_iff in K as (t & <- & T). eauto.
  - intros (t & s & -> & T & S). exists s. split; auto. apply in_map_iff. eauto.
Qed.

Lemma product_length : forall ts ss, length (product ts ss) = length ss * length ts.
Proof. intros ts ss. unfold product. induction ss as [|s ss IH]; cbn [flat_map length Nat.mul]; auto. rewrite app_length, map_length. f_equal. exact IH. Qed.

Lemma product_nodup : forall ts ss, NoDup ts -> NoDup ss -> NoDup (product ts ss).
Proof.
  intros ts ss NT NS. unfold product. induction ss as [|s ss IH]; simpl; [constructor|]. inversion_clear NS as [|? ? N1 N2]. apply (proj2 (Surgery_Proofs.nodup_app_iff _ _)). split; [|split].
  - apply FinFun.Injective_map_NoDup; auto. intros a b E. congruence.
  - auto.
  - intros k K1 K2. apply in_map_iff in K1 as (t & <- & T). apply in_flat_map in K2 as (s' & S' & K2). apply in_map_iff in K2 as (t' & E & T'). injection E as _ ->. contradiction.
Qed.

Lemma product_sorted : forall ts ss, StronglySorted lt ts -> StronglySorted lt ss -> StronglySorted before (product ts ss).
Proof.
  intros ts ss ST SS. unfold product. induction SS as [|s ss SS IH F]; simpl; [constructor|]. clear SS.
  assert (G : forall l, StronglySorted lt l -> StronglySorted before (map (fun t => [t; s]) l ++ flat_map (fun s => map (fun t => [t; s]) ts) ss)).
  { intros l SL. induction SL as [|t l SL IHl FL]; simpl; auto. constructor; auto. rewrite Forall_forall in *. intros k K. apply in_app_or in K as [K|K].
    - apply in_map_iff in K as (t' & <- & T'). apply before_iff; [left; eauto|left; eauto|]. cbn. apply LtTail, LtHead. auto.
    - apply in_flat_map in K as (s' & S' & K). apply in_map_iff in K as (t' & <- & T'). apply before_iff; [left; eauto|left; eauto|]. cbn. apply LtHead. auto. }
  apply G. auto.
Qed.

Lemma product_nth : forall ts ss q r s t, nth_error ss q = Some s -> nth_error ts r = Some t -> nth_error (product ts ss) (q * length ts + r) = Some [t; s].
Proof.
  intros ts ss. unfold product. induction ss as [|s0 ss IH]; intros q r s t HS HT; [destruct q; discriminate|]. assert (R : r < length ts) by (apply nth_error_Some; congruence). destruct q as [|q]; simpl in *.
  - injection HS as ->. rewrite nth_error_app1 by (rewrite map_length; auto). erewrite map_nth_error; eauto.
  - rewrite nth_error_app2 by (rewrite map_length; lia). rewrite map_length. replace (length ts + q * length ts + r - length ts) with (q * length ts + r) by lia. apply IH; auto.
Qed.

Lemma grid_keys : forall ds ws ts ss, topology ds ws -> StronglySorted lt ts -> StronglySorted lt ss -> grid ts ss (map w_key ws) -> map w_key ws = product ts ss.
Proof.
  intros ds ws ts ss T ST SS G. apply (ss_unique before before_asym); [apply T|apply product_sorted; auto|]. apply NoDup_Permutation; [eapply topology_nodup; eauto|apply (ss_strict_nodup before before_irrefl), product_sorted; auto|].
  intros k. rewrite (G k), product_in. tauto.
Qed.

Lemma grid_sorted : forall ts ss ks, grid ts ss ks -> grid (sorted_set ts) (sorted_set ss) ks.
Proof. intros ts ss ks G k. rewrite (G k). split; intros (t & s & E & T & S); exists t, s; rewrite ?sorted_set_in in *; auto. Qed.

Lemma sorted_set_length : forall l, NoDup l -> length (sorted_set l) = length l.
Proof. intros l N. apply Permutation_length. apply NoDup_Permutation; auto; [apply sorted_set_nodup|]. intros x. apply sorted_set_in. Qed.

Lemma validate_parts : forall ws n, validate_num_slices ws n = Ok tt -> (n > 0)%Z /\ ws <> [] /\ (n = 1%Z \/ (1 < n)%Z /\ Z.of_nat (length (slices_of (map w_key ws))) = n /\
  exists ts, StronglySorted lt ts /\ ts <> [] /\ grid ts (slices_of (map w_key ws)) (map w_key ws)).
Proof.
  intros ws n H. unfold validate_num_slices in H. destruct (Z.leb_spec n 0); [discriminate|]. destruct (Nat.eqb_spec (length ws) 0) as [|NE]; [discriminate|].
  destruct (Z.of_nat (length ws) mod n =? 0)%Z; [|discriminate]. cbn [negb] in H. split; [lia|]. split; [intros ->; apply NE; auto|]. destruct (Z.eqb_spec n 1) as [E1|N1]; [auto|]. right. split; [lia|].
  destruct (existsb (fun k : list nat => negb (length k =? 2)) (map w_key ws)) eqn:EX; [discriminate|]. destruct (Z.eqb_spec (Z.of_nat (length (slices_of (map w_key ws)))) n) as [EL|]; [|discriminate]. cbn [negb] in H. split; auto.
  set (ks := map w_key ws) in *. match type of H with (if ?c then _ else _) = _ => destruct c eqn:ES; [discriminate|] end. clear H.
  assert (P2 : forall k, In k ks -> k = [key_task k; key_slice k]).
  { intros k K. destruct (Nat.eqb_spec (length k) 2) as [L|L].
    - destruct k as [|x [|y [|z k]]]; try discriminate L. auto.
    - exfalso. assert (B : existsb (fun k => negb (length k =? 2)) ks = true) by (apply existsb_exists; exists k; split; auto; apply Nat.eqb_neq in L; rewrite L; auto). congruence. }
  assert (TS : forall s, In s (slices_of ks) -> tasks_of ks s = tasks_of ks (hd 0 (slices_of ks))).
  { intros s S. destruct (same_tasks (tasks_of ks s) (tasks_of ks (hd 0 (slices_of ks)))) eqn:E; [unfold same_tasks in E; destruct list_eq_dec; congruence|].
    exfalso. assert (B : existsb (fun s => negb (same_tasks (tasks_of ks s) (tasks_of ks (hd 0 (slices_of ks))))) (slices_of ks) = true) by (apply existsb_exists; exists s; split; auto; rewrite E; auto). congruence. }
  exists (tasks_of ks (hd 0 (slices_of ks))). split; [apply sorted_set_sorted|]. assert (G : grid (tasks_of ks (hd 0 (slices_of ks))) (slices_of ks) ks).
  { intros k. split.
    - intros K. exists (key_task k), (key_slice k). split; auto. assert (S : In (key_slice k) (slices_of ks)) by (apply slices_in; eauto). split; auto. rewrite <- (TS _ S). apply tasks_in. eauto.
    - intros (t & s & -> & T & S). rewrite <- (TS _ S) in T. apply tasks_in in T as (k & K & <- & <-). rewrite <- P2; auto. }
  split; auto. intros E. destruct ws as [|w ws]; [apply NE; auto|]. assert (K : In (w_key w) ks) by (left; auto). apply G in K as (t & s & _ & T & _). rewrite E in T. contradiction.
Qed.

Theorem accepts : forall ds ws n, from_devices ds = Ok ws ->
  (validate_num_slices ws n = Ok tt <-> ws <> [] /\ (n = 1%Z \/ (1 < n)%Z /\ exists ts ss, NoDup ts /\ NoDup ss /\ Z.of_nat (length ss) = n /\ grid ts ss (map w_key ws))).
Proof.
  intros ds ws n H. apply from_devices_topology in H. split.
  - intros V. apply validate_parts in V as (P & NE & V). split; auto. destruct V as [V|(V & L & ts & ST & _ & G)]; auto. right. split; auto. exists ts, (slices_of (map w_key ws)).
    split; [apply (ss_strict_nodup lt); auto; intros; lia|]. split; [apply sorted_set_nodup|]. auto.
  - intros (NE & [-> |(L & ts & ss & NT & NS & LS & G)]).
    + unfold validate_num_slices. cbn [Z.leb]. destruct (Nat.eqb_spec (length ws) 0) as [E|_]; [destruct ws; [congruence|discriminate]|]. rewrite Z.mod_1_r. auto.
    + unfold validate_num_slices. destruct (Z.leb_spec n 0); [lia|]. destruct (Nat.eqb_spec (length ws) 0) as [E|_]; [destruct ws; [congruence|discriminate]|].
      assert (LW : length ws = length ss * length ts).
      { rewrite <- product_length, <- (map_length w_key ws). apply Permutation_length. apply NoDup_Permutation; [eapply topology_nodup; eauto|apply product_nodup; auto|]. intros k. rewrite (G k), product_in. tauto. }
      rewrite LW, Nat2Z.inj_mul, LS, Z.mul_comm, Z.mod_mul by lia. cbn [negb Z.eqb]. destruct (Z.eqb_spec n 1); [lia|]. set (ks := map w_key ws) in *.
      assert (SS : slices_of ks = sorted_set ss).
      { apply lt_sorted_unique; [apply sorted_set_sorted|apply sorted_set_sorted|]. intros s. rewrite slices_in, sorted_set_in. split.
        - intros (k & K & <-). apply G in K as (t & s & -> & T & S). auto.
        - intros S. assert (TN : ts <> []). { intros ->. destruct ws as [|w ws']; [congruence|]. assert (K : In (w_key w) ks) by (left; auto). apply G in K as (t & s' & _ & T & _). contradiction. }
          destruct ts as [|t ts]; [congruence|]. exists [t; s]. split; auto. apply G. exists t, s. split; auto. split; [left; auto|auto]. }
      assert (TS : forall s, In s (slices_of ks) -> tasks_of ks s = sorted_set ts).
      { intros s S. rewrite SS, sorted_set_in in S. apply lt_sorted_unique; [apply sorted_set_sorted|apply sorted_set_sorted|]. intros t. rewrite tasks_in, sorted_set_in. split.
        - intros (k & K & _ & <-). apply G in K as (t & s' & -> & T & _). auto.
        - intros T. exists [t; s]. split; auto. apply G. eauto. }
      assert (EX : existsb (fun k => negb (length k =? 2)) ks = false).
      { apply not_true_is_false. intros B. apply existsb_exists in B as (k & K & B). apply G in K as (t & s & -> & _). discriminate. }
      rewrite EX, SS, (sorted_set_length ss NS), LS, Z.eqb_refl. cbn [negb]. rewrite <- SS.
      assert (ES : existsb (fun s => negb (same_tasks (tasks_of ks s) (tasks_of ks (hd 0 (slices_of ks))))) (slices_of ks) = false).
      { apply not_true_is_false. intros B. apply existsb_exists in B as (s & S & B). rewrite (TS s S), (TS (hd 0 (slices_of ks))) in B.
        - unfold same_tasks in B. destruct list_eq_dec; [discriminate|congruence].
        - destruct (slices_of ks); [contradiction|left; auto]. }
      rewrite ES. auto.
Qed.

Theorem validate_error : forall ws n e, validate_num_slices ws n = Err e -> e = ValueError.
Proof.
  intros ws n e H. unfold validate_num_slices in H. repeat match type of H with (if ?c then _ else _) = _ => destruct c end; congruence.
Qed.

(** ** Peers *)

Lemma filter_map_swap : forall {A B} (f : B -> bool) (g : A -> B) l, filter f (map g l) = map g (filter (fun x => f (g x)) l).
Proof. intros A B f g l. induction l as [|x l IH]; simpl; auto. destruct (f (g x)); simpl; congruence. Qed.

Lemma list_as_nth : forall {A} (l : list A) d, l = map (fun i => nth i l d) (seq 0 (length l)).
Proof. intros A l d. induction l as [|x l IH]; simpl; auto. f_equal. rewrite <- seq_shift, map_map. exact IH. Qed.

Lemma filter_other : forall ss q s, NoDup ss -> nth_error ss q = Some s ->
  filter (fun s' => negb (s' =? s)) ss = map (fun i => nth i ss 0) (filter (fun q' => negb (q' =? q)) (seq 0 (length ss))).
Proof.
  intros ss q s N H. rewrite (list_as_nth ss 0) at 1. rewrite filter_map_swap. f_equal. apply filter_ext_in. intros i I. apply in_seq in I. f_equal.
  assert (Q : q < length ss) by (apply nth_error_Some; congruence). pose proof (nth_error_nth _ _ 0 H) as E. rewrite <- E.
  destruct (Nat.eqb_spec i q) as [->|NE]; [apply Nat.eqb_refl|]. apply Nat.eqb_neq. intros X. apply NE. apply (proj1 (NoDup_nth ss 0) N); auto. lia.
Qed.

Lemma sequence_map_all : forall {A B} (f : A -> result B) (g : A -> B) l, (forall x, In x l -> f x = Ok (g x)) -> sequence (map f l) = Ok (map g l).
Proof. intros A B f g l H. induction l as [|x l IH]; simpl; auto. rewrite (H x) by (left; auto). cbn [rbind]. rewrite IH by (intros; apply H; right; auto). auto. Qed.

Lemma ranks_dict : forall ds ws k, topology ds ws -> forall j, dget wkey_eqb k (dict_of wkey_eqb (map (fun w => (w_key w, w_rank w)) ws)) = Some j <-> exists w, nth_error ws j = Some w /\ w_key w = k.
Proof.
  intros ds ws k T j. pose proof (topology_nodup ds ws T) as N.
  assert (E : map fst (map (fun w => (w_key w, w_rank w)) ws) = map w_key ws) by (rewrite map_map; apply map_ext; auto).
  rewrite (dict_of_nodup wkey_eqb wkey_spec); [|rewrite E; auto]. rewrite (dget_in wkey_eqb wkey_spec); [|rewrite E; auto]. destruct T as (T1 & _). rewrite in_map_iff. split.
  - intros (w & X & W). injection X as <- <-. apply In_nth_error in W as [i W]. destruct (T1 _ _ W) as [-> _]. eauto.
  - intros (w & W & <-). destruct (T1 _ _ W) as [R _]. exists w. rewrite R. split; auto. eapply nth_error_In; eauto.
Qed.

Lemma div_parts : forall m n i, i < n * m -> i / m < n /\ i mod m < m /\ i = i / m * m + i mod m.
Proof.
  intros m n i H. assert (M : m <> 0) by (intros ->; lia). split; [apply Nat.div_lt_upper_bound; lia|]. split; [apply Nat.mod_upper_bound; auto|]. rewrite (Nat.div_mod i m M) at 1. lia.
Qed.

Theorem peers_exact : forall ds ws n, from_devices ds = Ok ws -> validate_num_slices ws n = Ok tt ->
  exists m, length ws = Z.to_nat n * m /\ peer_ranks_by_worker_rank ws n = Ok (map (same_task_ranks m (Z.to_nat n)) (seq 0 (length ws))).
Proof.
  intros ds ws n H V. apply from_devices_topology in H. unfold peer_ranks_by_worker_rank. rewrite V. cbn [rbind]. apply validate_parts in V as (P & NE & V). destruct (Z.eqb_spec n 1) as [-> |N1].
  - exists (length ws). split; [rewrite Nat.mul_1_l; auto|]. f_equal. change (Z.to_nat 1) with 1. transitivity (map (fun _ : nat => @nil nat) (seq 0 (length ws))).
    + rewrite (list_as_nth ws (mkWorker 0 [] [] None)) at 1. rewrite map_map. auto.
    + apply map_ext_in. intros i I. apply in_seq in I. unfold same_task_ranks. cbn [seq map filter Nat.mul Nat.add]. rewrite Nat.mod_small by lia. rewrite Nat.eqb_refl. auto.
  - destruct V as [V|(V & L & ts & ST & TN & G)]; [congruence|]. set (ss := slices_of (map w_key ws)) in *. assert (SS : StronglySorted lt ss) by apply sorted_set_sorted.
    pose proof (grid_keys ds ws ts ss H ST SS G) as K. set (m := length ts). assert (EN : Z.to_nat n = length ss) by lia. rewrite EN.
    assert (LW : length ws = length ss * m) by (rewrite <- (map_length w_key ws), K, product_length; auto). exists m. split; auto.
    unfold peer_ranks_by_worker_key. cbv zeta. fold ss. pose proof (fun k => ranks_dict ds ws k H) as RD. set (rk := dict_of wkey_eqb (map (fun w => (w_key w, w_rank w)) ws)) in *. rewrite (list_as_nth ws (mkWorker 0 [] [] None)) at 1. rewrite map_map. apply sequence_map_all. intros i I. apply in_seq in I. destruct I as [_ I]. cbn [Nat.add] in I.
    rewrite LW in I. destruct (div_parts m (length ss) i I) as (Q & R & EI). set (q := i / m) in *. set (r := i mod m) in *.
    destruct (nth_error ss q) as [s|] eqn:ES; [|apply nth_error_None in ES; lia]. destruct (nth_error ts r) as [t|] eqn:ET; [|apply nth_error_None in ET; unfold m in R; lia].
    assert (KI : forall q' s', nth_error ss q' = Some s' -> exists w, nth_error ws (q' * m + r) = Some w /\ w_key w = [t; s']).
    { intros q' s' E. pose proof (product_nth ts ss q' r s' t E ET) as X. rewrite <- K, nth_error_map in X. fold m in X. destruct (nth_error ws (q' * m + r)) as [w|]; [|discriminate]. exists w. split; auto. cbn in X. congruence. }
    destruct (KI q s ES) as (w & W & KW). rewrite <- EI in W. rewrite (nth_error_nth _ _ _ W), KW. rewrite (filter_other ss q s (sorted_set_nodup _) ES), map_map. unfold same_task_ranks. fold r.
    rewrite filter_map_swap. rewrite (filter_ext (fun x => negb (x * m + r =? i)) (fun q' => negb (q' =? q))).
    + apply sequence_map_all. intros q' Q'. apply filter_In in Q' as [Q' _]. apply in_seq in Q'. destruct (nth_error ss q') as [s'|] eqn:E'; [|apply nth_error_None in E'; lia].
      rewrite (nth_error_nth _ _ _ E'). destruct (KI q' s' E') as (w' & W' & KW'). rewrite (proj2 (RD [t; s'] (q' * m + r))); eauto.
    + intros q'. f_equal. destruct (Nat.eqb_spec q' q) as [->|NQ]; [apply Nat.eqb_eq; auto|]. apply Nat.eqb_neq. intros X. apply NQ. rewrite EI in X. assert (q' * m = q * m) by lia. apply Nat.mul_cancel_r in H0; auto. lia.
Qed.

Theorem peers_meaning : forall ds ws n ps i j p wi wj, (1 < n)%Z -> from_devices ds = Ok ws -> peer_ranks_by_worker_rank ws n = Ok ps -> nth_error ps i = Some p -> nth_error ws i = Some wi -> nth_error ws j = Some wj ->
  (In j p <-> exists t s s', w_key wi = [t; s] /\ w_key wj = [t; s'] /\ s <> s').
Proof.
  intros ds ws n ps i j p wi wj N H PR EP EI EJ. assert (V : validate_num_slices ws n = Ok tt). { unfold peer_ranks_by_worker_rank in PR. destruct (validate_num_slices ws n) as [[]|]; [auto|discriminate]. }
  destruct (peers_exact ds ws n H V) as (m & LW & E). rewrite PR in E. injection E as ->. apply from_devices_topology in H. apply validate_parts in V as (_ & _ & [V|(V & L & ts & ST & TN & G)]); [lia|].
  set (ss := slices_of (map w_key ws)) in *. assert (SS : StronglySorted lt ss) by apply sorted_set_sorted. pose proof (grid_keys ds ws ts ss H ST SS G) as K.
  assert (LW2 : length ws = length ss * length ts) by (rewrite <- (map_length w_key ws), K, product_length; auto).
  assert (EM : m = length ts). { replace (Z.to_nat n) with (length ss) in LW by lia. rewrite LW2 in LW. apply Nat.mul_cancel_l in LW; lia. } subst m.
  replace (Z.to_nat n) with (length ss) in * by lia. assert (NS : NoDup ss) by apply sorted_set_nodup. assert (NT : NoDup ts) by (apply (ss_strict_nodup lt); auto; intros; lia).
  assert (KI : forall x w, nth_error ws x = Some w -> exists s t, nth_error ss (x / length ts) = Some s /\ nth_error ts (x mod length ts) = Some t /\ w_key w = [t; s] /\ x = x / length ts * length ts + x mod length ts).
  { intros x w X. assert (LX : x < length ws) by (apply nth_error_Some; congruence). rewrite LW2 in LX. destruct (div_parts _ _ _ LX) as (Q & R & EX).
    destruct (nth_error ss (x / length ts)) as [s|] eqn:ES; [|apply nth_error_None in ES; lia]. destruct (nth_error ts (x mod length ts)) as [t|] eqn:ET; [|apply nth_error_None in ET; lia].
    exists s, t. split; auto. split; auto. split; auto. pose proof (product_nth ts ss _ _ s t ES ET) as Y. rewrite <- EX, <- K in Y. apply (map_nth_error w_key) in X. congruence. }
  destruct (KI i wi EI) as (s & t & S & T & KW & XI). destruct (KI j wj EJ) as (s' & t' & S' & T' & KW' & XJ).
  rewrite nth_error_map in EP. assert (LI : i < length ws) by (apply nth_error_Some; congruence). rewrite (nth_error_nth' (seq 0 (length ws)) 0) in EP by (rewrite seq_length; auto). rewrite seq_nth in EP by auto. cbn [option_map Nat.add] in EP. injection EP as <-.
  unfold same_task_ranks. rewrite filter_In, in_map_iff. split.
  - intros ((q & Q & I) & NE). apply negb_true_iff, Nat.eqb_neq in NE. assert (RJ : j mod length ts = i mod length ts).
    { rewrite <- Q. rewrite Nat.add_comm, Nat.mod_add by (destruct ts; [congruence|discriminate]). apply Nat.mod_mod. destruct ts; [congruence|discriminate]. }
    rewrite RJ in T'. assert (t' = t) by congruence. subst t'. exists t, s, s'. split; auto. split; auto. intros <-. apply NE. rewrite XI, XJ, RJ. f_equal. f_equal.
    apply (proj1 (NoDup_nth_error ss) NS); [apply nth_error_Some; congruence|congruence].
  - intros (t0 & s0 & s0' & E1 & E2 & E3). assert (t' = t) by congruence. assert (s <> s') by congruence. subst t'. assert (RJ : j mod length ts = i mod length ts).
    { apply (proj1 (NoDup_nth_error ts) NT); [apply nth_error_Some; congruence|congruence]. }
    split; [|apply negb_true_iff, Nat.eqb_neq; intros ->; congruence]. exists (j / length ts). rewrite <- RJ. split; [auto|]. apply in_seq. split; [lia|]. cbn. apply nth_error_Some. congruence.
Qed.

(** ** Renaming *)

Lemma combine_fst : forall {A B} (a : list A) (b : list B), length a = length b -> map fst (combine a b) = a.
Proof. intros A B a. induction a as [|x a IH]; intros [|y b] H; simpl in *; try discriminate; auto. f_equal. auto. Qed.

Lemma renamed_combine : forall s t i j, renamed s t i j <-> In (i, j) (combine s t).
Proof.
  intros s. unfold renamed. induction s as [|x s IH]; intros t i j.
  - split; [intros ([|p] & H & _); discriminate|intros []].
  - destruct t as [|y t]; [split; [intros (p & _ & H); destruct p; discriminate|intros []]|]. cbn [combine In]. rewrite <- IH. split.
    + intros ([|p] & A & B); cbn in A, B; [left; congruence|right; eauto].
    + intros [E|(p & A & B)]; [exists 0; injection E as -> ->; auto|exists (S p); auto].
Qed.

Lemma target_of : forall s t i j, length s = length t -> NoDup s -> (dget Nat.eqb i (dict_of Nat.eqb (combine s t)) = Some j <-> renamed s t i j).
Proof.
  intros s t i j L N. assert (N2 : NoDup (map fst (combine s t))) by (rewrite combine_fst; auto). rewrite (dict_of_nodup Nat.eqb Nat.eqb_spec _ N2), (dget_in Nat.eqb Nat.eqb_spec _ _ _ N2). symmetry. apply renamed_combine.
Qed.

Lemma sequence_f2 : forall {A B} (f : A -> result B) l m, sequence (map f l) = Ok m <-> Forall2 (fun x y => f x = Ok y) l m.
Proof.
  intros A B f l. induction l as [|x l IH]; intros m; simpl.
  - split; [intros H; injection H as <-; constructor|intros H; inversion H; auto].
  - destruct (f x) as [y|e] eqn:E; cbn [rbind].
    + destruct (sequence (map f l)) as [ys|e] eqn:S; cbn [rbind].
      * split; [intros H; injection H as <-; constructor; auto; apply IH; auto|]. intros H. inversion H as [|? y' ? m' H1 H2]; subst. apply IH in H2. congruence.
      * split; [discriminate|]. intros H. inversion H as [|? y' ? m' H1 H2]; subst. apply IH in H2. congruence.
    + split; [discriminate|]. intros H. inversion H; subst. congruence.
Qed.

Lemma forall2_iff : forall {A B} (P Q : A -> B -> Prop) l m, (forall x y, P x y <-> Q x y) -> (Forall2 P l m <-> Forall2 Q l m).
Proof. intros A B P Q l m E. split; intros H; induction H; constructor; auto; apply E; auto. Qed.

Lemma forall2_right : forall {A B} (P : A -> B -> Prop) l, (forall x, In x l -> exists y, P x y) -> exists m, Forall2 P l m.
Proof. intros A B P l. induction l as [|x l IH]; intros H; [exists []; constructor|]. destruct (H x (or_introl eq_refl)) as [y Y]. destruct IH as [m M]; [intros; apply H; right; auto|]. exists (y :: m). constructor; auto. Qed.

Theorem remap_iff : forall nested s t r, NoDup s -> (remap_nested_device_ids nested s t = Ok r <-> length s = length t /\ Forall2 (Forall2 (renamed s t)) nested r).
Proof.
  intros nested s t r N. unfold remap_nested_device_ids. destruct (Nat.eqb_spec (length s) (length t)) as [L|L]; cbn [negb]; [|split; [discriminate|tauto]].
  pose proof (fun i j => target_of s t i j L N) as TO. set (d := dict_of Nat.eqb (combine s t)) in *.
  assert (F : forall row r', sequence (map (fun i => match dget Nat.eqb i d with Some j => Ok j | None => Err KeyError end) row) = Ok r' <-> Forall2 (renamed s t) row r').
  { intros row r'. rewrite sequence_f2. apply forall2_iff. intros i j. rewrite <- TO. destruct (dget Nat.eqb i d); split; congruence. }
  match goal with |- context [existsb ?f nested] => destruct (existsb f nested) eqn:E end.
  - split; [discriminate|]. intros [_ H]. exfalso. apply existsb_exists in E as (row & R & E). apply existsb_exists in E as (i & I & E). destruct (Surgery_Proofs.f2_in_l _ _ _ row H R) as (r' & _ & H2).
    destruct (Surgery_Proofs.f2_in_l _ _ _ i H2 I) as (j & _ & J). apply TO in J. rewrite J in E. discriminate.
  - rewrite sequence_f2. split.
    + intros H. split; auto. eapply forall2_iff; [|exact H]. intros x y. symmetry. apply F.
    + intros [_ H]. eapply forall2_iff; [|exact H]. intros x y. apply F.
Qed.

Theorem remap_error : forall nested s t e, remap_nested_device_ids nested s t = Err e -> e = ValueError.
Proof.
  intros nested s t e H. unfold remap_nested_device_ids in H. destruct (negb (length s =? length t)); [congruence|]. set (d := dict_of Nat.eqb (combine s t)) in *.
  match type of H with (if existsb ?f nested then _ else _) = _ => destruct (existsb f nested) eqn:E end; [congruence|]. exfalso.
  assert (G : exists r, sequence (map (fun row => sequence (map (fun i => match dget Nat.eqb i d with Some j => Ok j | None => Err KeyError end) row)) nested) = Ok r).
  { destruct (forall2_right (fun row r' => sequence (map (fun i => match dget Nat.eqb i d with Some j => Ok j | None => Err KeyError end) row) = Ok r') nested) as [m M].
    - intros row R. destruct (forall2_right (fun i j => (match dget Nat.eqb i d with Some j => Ok j | None => Err KeyError end) = Ok j) row) as [m M].
      + intros i I. destruct (dget Nat.eqb i d) as [j|] eqn:D; eauto. exfalso. assert (B : existsb (existsb (fun i => match dget Nat.eqb i d with Some _ => false | None => true end)) nested = true).
        { apply existsb_exists. exists row. split; auto. apply existsb_exists. exists i. split; auto. rewrite D. auto. } congruence.
      + exists m. apply sequence_f2. exact M.
    - exists m. apply sequence_f2. exact M. }
  destruct G as [r G]. congruence.
Qed.

Theorem remap_back : forall nested s t r, NoDup s -> NoDup t -> remap_nested_device_ids nested s t = Ok r -> remap_nested_device_ids r t s = Ok nested.
Proof.
  intros nested s t r NS NT H. apply (remap_iff _ _ _ _ NS) in H as [L H]. apply (remap_iff _ _ _ _ NT). split; auto. clear L. induction H as [|x y l m H1 H2 IH]; constructor; auto. clear - H1.
  induction H1 as [|i j l m (p & A & B) H2 IH]; constructor; auto. exists p. auto.
Qed.

Lemma forall2_concat : forall {A B} (P : A -> B -> Prop) l m, Forall2 (Forall2 P) l m -> Forall2 P (concat l) (concat m).
Proof. intros A B P l m H. induction H as [|x y l m H1 H2 IH]; simpl; auto. apply Forall2_app; auto. Qed.

Theorem remap_disjoint : forall nested s t r, NoDup s -> NoDup t -> NoDup (concat nested) -> remap_nested_device_ids nested s t = Ok r -> NoDup (concat r).
Proof.
  intros nested s t r NS NT N H. apply (remap_iff _ _ _ _ NS) in H as [L H]. apply forall2_concat in H. eapply (Surgery_Proofs.f2_nodup _ _ _ _ N H).
  Unshelve. intros x x' y (p & A & B) (p' & A' & B'). assert (p = p') by (apply (proj1 (NoDup_nth_error t) NT); [apply nth_error_Some; congruence|congruence]). congruence.
Qed.

(** ** Steps *)

Lemma filter_perm : forall {A} (f : A -> bool) l m, Permutation l m -> Permutation (filter f l) (filter f m).
Proof.
  intros A f l m P. induction P as [|x l m P IH|x y l|l m n P1 IH1 P2 IH2]; simpl; auto.
  - destruct (f x); auto.
  - destruct (f x), (f y); auto. apply perm_swap.
  - etransitivity; eauto.
Qed.

Lemma filter_len : forall {A} (f : A -> bool) l, length (filter f l) <= length l.
Proof. intros A f l. induction l as [|x l IH]; simpl; auto. destruct (f x); simpl; lia. Qed.

Lemma skipn_greatest : forall L k s, StronglySorted Z.lt L -> (In s (skipn k L) <-> In s L /\ length (filter (fun x => (s <? x)%Z) L) < length L - k).
Proof.
  intros L. induction L as [|x L IH]; intros k s S; [destruct k; simpl; split; tauto|]. inversion_clear S as [|? ? S1 S2]. rewrite Forall_forall in S2. destruct k as [|k].
  - cbn [skipn]. split; [|tauto]. intros I. split; auto. rewrite Nat.sub_0_r. clear IH S1 S2. revert I. generalize (x :: L) as l. induction l as [|y l IHl]; intros I; [destruct I|]. destruct I as [<-|I].
    + cbn [filter length]. rewrite Z.ltb_irrefl. pose proof (filter_len (fun x => (y <? x)%Z) l). lia.
    + cbn [filter length]. specialize (IHl I). destruct (s <? y)%Z; cbn [length]; lia.
  - cbn [skipn length Nat.sub]. rewrite (IH k s S1). cbn [In filter]. split.
    + intros [I C]. split; auto. specialize (S2 s I). destruct (Z.ltb_spec s x); [lia|]. auto.
    + intros [[<-|I] C].
      * exfalso. rewrite Z.ltb_irrefl in C. assert (F : filter (fun y => (x <? y)%Z) L = L). { clear - S2. induction L as [|y L IH]; simpl; auto. destruct (Z.ltb_spec x y) as [_|Q]; [f_equal; apply IH; intros; apply S2; right; auto|]. specialize (S2 y (or_introl eq_refl)). lia. }
        rewrite F in C. lia.
      * split; auto. specialize (S2 s I). destruct (Z.ltb_spec s x); [lia|]. auto.
Qed.

Lemma z_sorted : forall l, NoDup l -> StronglySorted Z.lt (sort_list Z.leb l).
Proof.
  intros l N. assert (S : StronglySorted (fun a b => Z.leb a b = true) (sort_list Z.leb l)).
  { apply sort_list_sorted; [intros x y H; apply Z.leb_gt in H; apply Z.leb_le; lia|]. intros x y z A B. apply Z.leb_le in A, B. apply Z.leb_le. lia. }
  assert (N2 : NoDup (sort_list Z.leb l)) by (eapply Permutation_NoDup; [apply Permutation_sym, sort_list_perm|auto]). revert S N2. generalize (sort_list Z.leb l) as m. clear.
  intros m S. induction S as [|x m S IH F]; intros N; constructor; inversion_clear N as [|? ? N1 N2]; auto. rewrite Forall_forall in *. intros y Y. specialize (F y Y). apply Z.leb_le in F. assert (x <> y) by congruence. lia.
Qed.

Theorem reported_iff : forall steps s, NoDup steps -> (In s (reported (all_steps steps)) <-> visible steps s).
Proof.
  intros steps s N. unfold reported. rewrite filter_In. unfold all_steps. rewrite in_app_iff. rewrite (skipn_greatest _ _ _ (z_sorted steps N)).
  assert (PL : length (sort_list Z.leb steps) = length steps) by apply Permutation_length, sort_list_perm.
  rewrite (Permutation_length (filter_perm (fun x => (s <? x)%Z) _ _ (sort_list_perm Z.leb steps))), PL. unfold visible, no_step, max_tracked. split.
  - intros [[[I C]|I] NZ]; apply negb_true_iff, Z.eqb_neq in NZ.
    + split; [eapply Permutation_in; [apply sort_list_perm|exact I]|]. split; auto. lia.
    + apply repeat_spec in I. contradiction.
  - intros (I & NZ & C). split; [|apply negb_true_iff, Z.eqb_neq; auto]. left. split; [eapply Permutation_in; [apply Permutation_sym, sort_list_perm|exact I]|].
    assert (length (filter (fun x => (s <? x)%Z) steps) < length steps).
    { clear - I. induction steps as [|x steps IH]; [contradiction|]. cbn [filter length]. destruct I as [-> |I].
      - rewrite Z.ltb_irrefl. pose proof (filter_len (fun x => (s <? x)%Z) steps). lia.
      - specialize (IH I). destruct (s <? x)%Z; cbn [length]; lia. }
    lia.
Qed.

Lemma maximum_some : forall l s, maximum l = Some s <-> greatest (fun x => In x l) s.
Proof.
  intros l. unfold greatest. induction l as [|x l IH]; intros s; cbn [maximum].
  - split; [discriminate|intros [[] _]].
  - destruct (maximum l) as [y|] eqn:E.
    + destruct (proj1 (IH y) eq_refl) as [I M]. split.
      * intros H. injection H as <-. split; [destruct (Z.max_spec x y) as [[_ ->]|[_ ->]]; [right; auto|left; auto]|]. intros z [<-|Z]; [lia|]. specialize (M z Z). lia.
      * intros [I' M']. f_equal. pose proof (M' x (or_introl eq_refl)). pose proof (M' y (or_intror I)). destruct I' as [<-|I']; [lia|]. specialize (M s I'). lia.
    + assert (L : l = []). { destruct l; auto. simpl in E. discriminate. } subst l. split; [intros H; injection H as <-; split; [left; auto|intros z [<-|[]]; lia]|]. intros [[<-|[]] _]. auto.
Qed.

Lemma maximum_none : forall l, maximum l = None <-> l = [].
Proof. intros [|x l]; cbn [maximum]; split; congruence. Qed.

Lemma common_in : forall first rest s, In s (filter (fun s => forallb (existsb (Z.eqb s)) rest) first) <-> forall a, In a (first :: rest) -> In s a.
Proof.
  intros first rest s. rewrite filter_In, forallb_forall. split.
  - intros [I F] a [<-|A]; auto. apply F, existsb_exists in A as (x & X & E). apply Z.eqb_eq in E. subst. auto.
  - intros H. split; [apply H; left; auto|]. intros a A. apply existsb_exists. exists s. split; [apply H; right; auto|apply Z.eqb_refl].
Qed.

Lemma latest_common_iff : forall arrays s, latest_common arrays = Some s <-> arrays <> [] /\ greatest (fun x => forall a, In a arrays -> In x (reported a)) s.
Proof.
  intros arrays s. unfold latest_common. destruct arrays as [|a arrays]; cbn [map]; [split; [discriminate|intros [H _]; congruence]|].
  rewrite maximum_some. unfold greatest. assert (E : forall x, (forall b, In b (reported a :: map reported arrays) -> In x b) <-> (forall b, In b (a :: arrays) -> In x (reported b))).
  { intros x. split; intros H b B; [apply H; destruct B as [<-|B]; [left; auto|right; apply in_map; auto]|]. destruct B as [<-|B]; [apply H; left; auto|]. apply in_map_iff in B as (c & <- & C). apply H. right. auto. }
  rewrite common_in, E. split.
  - intros [I M]. split; [congruence|]. split; auto. intros s' S'. apply M. rewrite common_in. apply E. auto.
  - intros [_ [I M]]. split; auto. intros s' S'. apply M. apply E. rewrite <- common_in. auto.
Qed.

Theorem agreed_iff : forall ws s, Forall (@NoDup Z) ws -> (latest_common (map all_steps ws) = Some s <-> ws <> [] /\ greatest (fun x => forall st, In st ws -> visible st x) s).
Proof.
  intros ws s N. rewrite Forall_forall in N. rewrite latest_common_iff.
  assert (E : forall x, (forall a, In a (map all_steps ws) -> In x (reported a)) <-> (forall st, In st ws -> visible st x)).
  { intros x. split; intros H a A; [apply reported_iff; auto; apply H, in_map; auto|]. apply in_map_iff in A as (st & <- & A). apply reported_iff; auto. }
  unfold greatest. rewrite E. split; intros [NE [I M]]; (split; [destruct ws; [exfalso; auto|discriminate]|]); split; auto; intros s' S'; apply M, E; auto.
Qed.

Theorem agreed_none : forall ws, Forall (@NoDup Z) ws -> ws <> [] -> (latest_common (map all_steps ws) = None <-> ~ exists s, forall st, In st ws -> visible st s).
Proof.
  intros ws N NE. rewrite Forall_forall in N. unfold latest_common. destruct ws as [|w ws]; [congruence|]. cbn [map]. rewrite maximum_none. set (f := filter _ _).
  assert (E : forall x, In x f <-> forall st, In st (w :: ws) -> visible st x).
  { intros x. unfold f. rewrite common_in. split; intros H b B.
    - apply reported_iff; auto. apply H. destruct B as [<-|B]; [left; auto|right; rewrite map_map; apply (in_map (fun st => reported (all_steps st))); auto].
    - destruct B as [<-|B]; [apply reported_iff; [apply N; left; auto|apply H; left; auto]|]. rewrite map_map in B. apply in_map_iff in B as (st & <- & B). apply reported_iff; [apply N; right; auto|apply H; right; auto]. }
  split.
  - intros F [s H]. apply E in H. rewrite F in H. contradiction.
  - intros H. destruct f as [|x f']; auto. destruct H. exists x. apply E. left. auto.
Qed.

Theorem retry_ok : forall deadline l v, latest_step deadline l = Ok v <->
  exists pre now arrays post, l = pre ++ (now, Ok arrays) :: post /\ (now < deadline)%Z /\ Forall (fun x => (fst x < deadline)%Z /\ snd x = Err RuntimeError) pre /\ v = latest_common arrays.
Proof.
  intros deadline l. induction l as [|[now a] l IH]; intros v; cbn [latest_step].
  - split; [discriminate|]. intros (pre & now & arrays & post & E & _). destruct pre; discriminate.
  - destruct (Z.ltb_spec now deadline) as [L|L].
    + split.
      * intros H. assert (C : (exists arrays, a = Ok arrays) \/ a = Err RuntimeError) by (destruct a as [arrays|[]]; try discriminate H; eauto). destruct C as [[arrays ->]| ->].
        { injection H as <-. exists [], now, arrays, l. repeat split; auto. }
        { apply IH in H as (pre & n2 & arrays & post & -> & L2 & F & ->). exists ((now, Err RuntimeError) :: pre), n2, arrays, post. repeat split; auto. }
      * intros (pre & n2 & arrays & post & E & L2 & F & ->). destruct pre as [|[n3 a3] pre]; cbn [app] in E; [injection E as _ -> _; auto|]. injection E as <- <- ->. inversion_clear F as [|? ? [_ F1] F2]. cbn in F1. subst a. apply IH. exists pre, n2, arrays, post. auto.
    + split; [discriminate|]. intros (pre & n2 & arrays & post & E & L2 & F & ->). destruct pre as [|[n3 a3] pre]; cbn [app] in E; injection E as <- _; [lia|]. inversion_clear F as [|? ? [F1 _] _]. cbn in F1. lia.
Qed.

Theorem retry_gives_up : forall deadline l, Forall (fun x => (fst x < deadline)%Z -> snd x = Err RuntimeError) l -> latest_step deadline l = Err RuntimeError.
Proof.
  intros deadline l F. induction F as [|[now a] l H F IH]; cbn [latest_step]; auto. destruct (Z.ltb_spec now deadline) as [L|L]; auto. cbn in H. rewrite (H L). auto.
Qed.

Theorem unanimous_iff : forall l b, unanimous l = Ok b <-> l <> [] /\ Forall (eq b) l.
Proof.
  intros [|v l] b; cbn [unanimous]; [split; [discriminate|intros [H _]; congruence]|]. destruct (forallb (Bool.eqb v) l) eqn:E.
  - rewrite forallb_forall in E. split; [intros H; injection H as ->; split; [congruence|]; constructor; auto; apply Forall_forall; intros x X; apply eqb_prop, E; auto|].
    intros [_ H]. inversion H; subst. auto.
  - split; [discriminate|]. intros [_ H]. inversion_clear H as [|? ? -> F]. exfalso. rewrite (proj2 (forallb_forall _ _)) in E; [discriminate|]. rewrite Forall_forall in F. intros x X. rewrite (F x X). apply eqb_reflx.
Qed.

Theorem should_save_iff : forall ws step b, should_save ws step = Ok b <-> (step = 0%Z /\ b = false) \/ (step <> 0%Z /\ ws <> [] /\ Forall (fun rcm => rcm step = b) ws).
Proof.
  intros ws step b. unfold should_save, no_step. destruct (Z.eqb_spec step 0) as [->|N].
  - split; [intros H; injection H as <-; auto|intros [[_ ->]|[H _]]; [auto|destruct H; auto]].
  - rewrite unanimous_iff, Forall_forall. assert (W : forall rcm, worker_should_save rcm step = rcm step) by (intros rcm; unfold worker_should_save, no_step; apply Z.eqb_neq in N; rewrite N; auto). split.
    + intros [NE F]. right. split; auto. split; [intros ->; apply NE; auto|]. apply Forall_forall. intros rcm R. rewrite <- W. symmetry. apply F. apply (in_map (fun rcm => worker_should_save rcm step)). auto.
    + intros [[H _]|(_ & NE & F)]; [congruence|]. split; [destruct ws; [congruence|discriminate]|]. intros x X. apply in_map_iff in X as (rcm & <- & R). rewrite W. rewrite Forall_forall in F. symmetry. auto.
Qed.

Lemma worker_save_eq : forall w step force, step <> 0%Z -> worker_save w step force = (true, after_save w step force).
Proof. intros w step force N. unfold worker_save, no_step. apply Z.eqb_neq in N. rewrite N. auto. Qed.

Lemma all_true : forall ws step force, step <> 0%Z -> ws <> [] -> unanimous (map (fun w => fst (worker_save w step force)) ws) = Ok true.
Proof.
  intros ws step force N NE. apply unanimous_iff. split; [destruct ws; [congruence|discriminate]|]. apply Forall_forall. intros b B. apply in_map_iff in B as (w & <- & _). rewrite worker_save_eq; auto.
Qed.

Theorem save_result : forall ws step force r ws', ws <> [] -> controller_save ws step force = (r, ws') ->
  r = (if (step =? 0)%Z then Ok false else if force then Ok true else should_save (map s_wants ws) step) /\
  ws' = match r with Ok true => map (fun w => after_save w step force) ws | _ => ws end.
Proof.
  intros ws step force r ws' NE H. unfold controller_save in H. change no_step with 0%Z in H. destruct (Z.eqb_spec step 0) as [->|N]; [injection H as <- <-; auto|].
  rewrite (all_true ws step force N NE) in H. assert (E : map (fun w => snd (worker_save w step force)) ws = map (fun w => after_save w step force) ws) by (apply map_ext; intros w; rewrite worker_save_eq; auto). rewrite E in H.
  destruct force; [injection H as <- <-; auto|]. destruct (should_save (map s_wants ws) step) as [[]|e]; injection H as <- <-; auto.
Qed.

Theorem save_latest : forall ws step force ws', (0 < step)%Z -> (forall w, In w ws -> NoDup (s_steps w) /\ (forall x, In x (s_steps w) -> (x < step)%Z) /\ s_saves w step force = true) -> ws <> [] ->
  controller_save ws step force = (Ok true, ws') -> latest_common (map all_steps (map s_steps ws')) = Some step.
Proof.
  intros ws step force ws' P H NE S. apply (save_result _ _ _ _ _ NE) in S as [_ ->].
  assert (E : map s_steps (map (fun w => after_save w step force) ws) = map (fun w => step :: s_steps w) ws).
  { rewrite map_map. apply map_ext_in. intros w W. unfold after_save. destruct (H w W) as (_ & _ & ->). auto. }
  rewrite E. apply agreed_iff.
  - apply Forall_forall. intros st ST. apply in_map_iff in ST as (w & <- & W). destruct (H w W) as (N & B & _). constructor; auto. intros I. specialize (B step I). lia.
  - split; [destruct ws; [congruence|discriminate]|]. split.
    + intros st ST. apply in_map_iff in ST as (w & <- & W). destruct (H w W) as (N & B & _). split; [left; auto|]. split; [lia|]. cbn [filter]. rewrite Z.ltb_irrefl.
      assert (F : filter (fun x => (step <? x)%Z) (s_steps w) = []). { clear - B. induction (s_steps w) as [|x l IH]; simpl; auto. destruct (Z.ltb_spec step x) as [L|L]; [specialize (B x (or_introl eq_refl)); lia|]. apply IH. intros; apply B; right; auto. }
      rewrite F. cbn. lia.
    + intros s' S'. destruct ws as [|w ws]; [congruence|]. destruct (S' (step :: s_steps w) (or_introl eq_refl)) as (I & _). destruct (H w (or_introl eq_refl)) as (_ & B & _). destruct I as [<-|I]; [lia|]. specialize (B s' I). lia.
Qed.

Lemma restore_all : forall (ws : list (list Z)) s, (0 < s)%Z -> forall l, sequence (map (fun st => worker_restore st s) ws) = Ok l <-> (forall st, In st ws -> In s st) /\ l = repeat s (length ws).
Proof.
  intros ws s P. assert (W : forall st x, worker_restore st s = Ok x <-> In s st /\ x = s).
  { intros st x. unfold worker_restore, no_step. destruct (Z.eqb_spec s 0); [lia|]. destruct (Z.ltb_spec s 0); [lia|]. destruct (existsb (Z.eqb s) st) eqn:E.
    - apply existsb_exists in E as (y & Y & E). apply Z.eqb_eq in E. subst y. split; [intros H0; injection H0 as <-; auto|intros [_ ->]; auto].
    - split; [discriminate|]. intros [I _]. exfalso. rewrite (proj2 (existsb_exists _ _)) in E; [discriminate|]. exists s. split; auto. apply Z.eqb_refl. }
  intros l. rewrite sequence_f2. split.
  - intros H. induction H as [|st x ws l H1 H2 IH]; simpl; [split; [intros st []|auto]|]. apply W in H1 as [H1 ->]. destruct IH as [I ->]. split; auto. intros st' [<-|X]; auto.
  - intros [I ->]. induction ws as [|st ws IH]; simpl; constructor; [apply W; split; auto; apply I; left; auto|]. apply IH. intros; apply I; right; auto.
Qed.

Theorem restore_step : forall s lat ws l, (0 < s)%Z -> (controller_restore (Some s) lat ws = Ok l <-> (forall st, In st ws -> In s st) /\ l = repeat s (length ws)).
Proof. intros s lat ws l P. unfold controller_restore, resolve_step, no_step. cbn [rbind]. destruct (Z.eqb_spec s 0); [lia|]. cbn [rbind]. apply restore_all. auto. Qed.

Theorem restore_latest : forall ws, Forall (fun st => NoDup st /\ forall x, In x st -> (0 < x)%Z) ws -> ws <> [] ->
  match latest_common (map all_steps ws) with
  | Some s => controller_restore None (Ok (latest_common (map all_steps ws))) ws = Ok (repeat s (length ws)) /\ greatest (fun x => forall st, In st ws -> visible st x) s
  | None => controller_restore None (Ok (latest_common (map all_steps ws))) ws = Err FileNotFoundError
  end.
Proof.
  intros ws F NE. assert (N : Forall (@NoDup Z) ws) by (eapply Forall_impl; [|exact F]; cbn; tauto). rewrite Forall_forall in F. destruct (latest_common (map all_steps ws)) as [s|] eqn:E; [|reflexivity].
  apply (agreed_iff _ _ N) in E as [_ G]. split; auto. destruct G as [G _]. assert (P : (0 < s)%Z). { destruct ws as [|w ws]; [congruence|]. destruct (G w (or_introl eq_refl)) as [I _]. destruct (F w (or_introl eq_refl)) as [_ B]. auto. }
  unfold controller_restore, resolve_step, no_step. cbn [rbind]. destruct (Z.eqb_spec s 0); [lia|]. cbn [rbind]. apply restore_all; auto. split; auto. intros st ST. apply (G st ST).
Qed.

Lemma run_ops_runs : forall {S} (ops : list (S -> S * result unit)) s s' os, runs ops s s' os -> forall fe,
  run_ops ops s fe = (s', match fe with Some e => Err e | None => match find (fun o => match o with Err _ => true | Ok _ => false end) os with Some o => o | None => Ok tt end end).
Proof.
  intros S ops s s' os H. induction H as [s|op ops s s1 s2 o os E H IH]; intros fe; cbn [run_ops]; [destruct fe; auto|]. rewrite E, IH. destruct o as [[]|e]; cbn [find]; destruct fe; auto.
Qed.

Lemma runs_total : forall {S} (ops : list (S -> S * result unit)) s, exists s' os, runs ops s s' os.
Proof.
  intros S ops. induction ops as [|op ops IH]; intros s; [exists s, []; constructor|]. destruct (op s) as [s1 o] eqn:E. destruct (IH s1) as (s' & os & H). exists s', (o :: os). econstructor; eauto.
Qed.

Lemma filter_none : forall (i : nat) l, ~ In i l -> filter (fun j => negb (j =? i)) l = l.
Proof. intros i l. induction l as [|y l IH]; intros N; cbn [filter]; [auto|]. destruct (Nat.eqb_spec y i) as [->|]; [destruct N; left; auto|]. cbn [negb]. f_equal. apply IH. intros X. apply N. right. auto. Qed.

Lemma filter_one : forall (i : nat) l, NoDup l -> In i l -> length (filter (fun j => negb (j =? i)) l) = length l - 1.
Proof.
  intros i l. induction l as [|x l IH]; intros N I; [contradiction|]. inversion_clear N as [|? ? N1 N2]. cbn [filter length]. destruct (Nat.eqb_spec x i) as [->|NE]; cbn [negb].
  - rewrite (filter_none _ _ N1). lia.
  - destruct I as [I|I]; [congruence|]. cbn [length]. rewrite (IH N2 I). destruct l; [contradiction|]. cbn [length]. lia.
Qed.
