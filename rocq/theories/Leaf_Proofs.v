From Coq Require Import List Bool Arith String Lia Permutation Sorting.Sorted.
From Verif Require Import Base Tree_Model Registry_Model Leaf_Model Leaf_Spec StepName_Proofs Parts_Proofs.
Import ListNotations.
Local Open Scope list_scope.
Local Open Scope nat_scope.

(** ** Sorting *)
Lemma insert_perm : forall leb x l, Permutation (insert_by leb x l) (x :: l).
Proof.
  intros leb x l. induction l as [|y r IH]; cbn; [reflexivity|]. destruct (leb x y); [reflexivity|]. rewrite IH. apply perm_swap.
Qed.
Lemma sort_perm : forall leb l, Permutation (sort_by leb l) l.
Proof. intros leb l. induction l as [|y r IH]; cbn; [reflexivity|]. rewrite insert_perm. constructor. exact IH. Qed.

Definition kle (W : pyworld) (a b : entry) : Prop := key_leb W a b = true.

Lemma kle_iff : forall W a b, kle W a b <->
  e_ls a < e_ls b \/ (e_ls a = e_ls b /\ (e_as a < e_as b \/ (e_as a = e_as b /\ String.leb (p_name W (e_handler a)) (p_name W (e_handler b)) = true))).
Proof.
  intros W a b. unfold kle, key_leb. rewrite orb_true_iff, andb_true_iff, orb_true_iff, andb_true_iff, !Nat.ltb_lt, !Nat.eqb_eq. reflexivity.
Qed.
Lemma kle_trans : forall W a b c, kle W a b -> kle W b c -> kle W a c.
Proof.
  intros W a b c. rewrite !kle_iff. intros [H | [H [G | [G N]]]] [H' | [H' [G' | [G' N']]]]; try (left; lia); try (right; split; [lia|]; left; lia).
  right. split; [lia|]. right. split; [lia|]. eapply leb_trans; eassumption.
Qed.
Lemma kle_total : forall W a b, kle W a b \/ kle W b a.
Proof.
  intros W a b. rewrite !kle_iff. destruct (lt_eq_lt_dec (e_ls a) (e_ls b)) as [[L | L] | L]; [left; left; exact L| |right; left; exact L].
  destruct (lt_eq_lt_dec (e_as a) (e_as b)) as [[M | M] | M]; [left; right; split; [exact L|left; exact M]| |right; right; split; [lia|left; exact M]].
  destruct (String.leb_total (p_name W (e_handler a)) (p_name W (e_handler b))) as [N | N].
  - left. right. split; [exact L|]. right. split; [exact M|exact N].
  - right. right. split; [lia|]. right. split; [lia|exact N].
Qed.
Lemma kle_anti : forall W a b, kle W a b -> kle W b a -> p_name W (e_handler a) = p_name W (e_handler b).
Proof.
  intros W a b. rewrite !kle_iff. intros [H | [H [G | [G N]]]] [H' | [H' [G' | [G' N']]]]; try lia. apply String.leb_antisym; assumption.
Qed.

Lemma insert_key_sorted : forall W x l, StronglySorted (kle W) l -> StronglySorted (kle W) (insert_by (key_leb W) x l).
Proof.
  intros W x l. induction l as [|y r IH]; intros H; cbn; [repeat constructor|]. inversion H as [|? ? H1 H2]; subst. destruct (key_leb W x y) eqn:E.
  - constructor; [exact H|]. constructor; [exact E|]. eapply Forall_impl; [|exact H2]. intros z Hz. eapply kle_trans; [exact E|exact Hz].
  - constructor; [apply IH; exact H1|]. apply Forall_forall. intros z Hz. apply (Permutation_in _ (insert_perm _ _ _)) in Hz. destruct Hz as [<- | Hz].
    + destruct (kle_total W x y) as [K | K]; [unfold kle in K; congruence|exact K].
    + rewrite Forall_forall in H2. apply H2; exact Hz.
Qed.
Lemma sort_key_sorted : forall W l, StronglySorted (kle W) (sort_by (key_leb W) l).
Proof. intros W l. induction l as [|x r IH]; cbn; [constructor|]. apply insert_key_sorted. exact IH. Qed.

(** The order of [get_abstract] *)
Definition ale (W : pyworld) (a b : entry) : Prop := e_as a < e_as b \/ (e_as a = e_as b /\ kle W a b).
Lemma insert_abs_sorted : forall W x l, StronglySorted (ale W) l -> (forall y, In y l -> kle W x y) -> StronglySorted (ale W) (insert_by abs_leb x l).
Proof.
  intros W x l. induction l as [|y r IH]; intros H K; cbn; [repeat constructor|]. inversion H as [|? ? H1 H2]; subst. rewrite Forall_forall in H2. unfold abs_leb at 1. destruct (Nat.leb_spec (e_as x) (e_as y)) as [L | L].
  - constructor; [exact H|]. apply Forall_forall. intros z Hz. unfold ale. assert (A : e_as x <= e_as z).
    { destruct Hz as [<- | Hz]; [exact L|]. destruct (H2 z Hz) as [A | [A _]]; lia. }
    destruct (Nat.eq_dec (e_as x) (e_as z)) as [Q | Q]; [right; split; [exact Q|apply K; exact Hz]|left; lia].
  - constructor; [apply IH; [exact H1|intros z Hz; apply K; right; exact Hz]|]. apply Forall_forall. intros z Hz.
    apply (Permutation_in _ (insert_perm _ _ _)) in Hz. destruct Hz as [<- | Hz]; [left; exact L|apply H2; exact Hz].
Qed.
Lemma sort_abs_sorted : forall W l, StronglySorted (kle W) l -> StronglySorted (ale W) (sort_by abs_leb l).
Proof.
  intros W l. induction l as [|x r IH]; intros H; cbn; [constructor|]. inversion H as [|? ? H1 H2]; subst. rewrite Forall_forall in H2.
  apply insert_abs_sorted; [apply IH; exact H1|]. intros y Hy. apply H2. eapply Permutation_in; [apply sort_perm|exact Hy].
Qed.

(** The first of the reversed list is the greatest *)
Lemma find_rev : forall (R : entry -> entry -> Prop) f l, (forall a, R a a) -> StronglySorted R l ->
  match find f (rev l) with
  | Some e => In e l /\ f e = true /\ (forall x, In x l -> f x = true -> R x e)
  | None => forall x, In x l -> f x = false
  end.
Proof.
  intros R f l RR. induction l as [|x r IH] using rev_ind; intros H; cbn; [contradiction|]. rewrite rev_app_distr. cbn.
  assert (A : forall y, In y r -> R y x).
  { clear - H. induction r as [|z t IH]; cbn in *; [contradiction|]. inversion H as [|? ? H1 H2]; subst. intros y [<- | Hy]; [|apply IH; assumption].
    rewrite Forall_forall in H2. apply H2. apply in_or_app. right. left. reflexivity. }
  assert (B : StronglySorted R r).
  { clear - H. induction r as [|z t IH]; cbn in *; [constructor|]. inversion H as [|? ? H1 H2]; subst. constructor; [apply IH; exact H1|].
    rewrite Forall_forall in *. intros y Hy. apply H2. apply in_or_app. left. exact Hy. }
  specialize (IH B). destruct (f x) eqn:E.
  - split; [apply in_or_app; right; left; reflexivity|]. split; [exact E|]. intros y Hy _. apply in_app_or in Hy. destruct Hy as [Hy | [<- | []]]; [apply A; exact Hy|apply RR].
  - destruct (find f (rev r)) as [e|].
    + destruct IH as [I1 [I2 I3]]. split; [apply in_or_app; left; exact I1|]. split; [exact I2|]. intros y Hy F. apply in_app_or in Hy. destruct Hy as [Hy | [<- | []]]; [apply I3; assumption|congruence].
    + intros y Hy. apply in_app_or in Hy. destruct Hy as [Hy | [<- | []]]; [apply IH; exact Hy|exact E].
Qed.
Lemma kle_refl : forall W a, kle W a a.
Proof. intros W a. destruct (kle_total W a a); assumption. Qed.
Lemma ale_refl : forall W a, ale W a a.
Proof. intros. right. split; [reflexivity|apply kle_refl]. Qed.

(** ** Scores *)
Lemma filter_len_perm : forall {A} (f : A -> bool) l l', Permutation l l' -> List.length (filter f l) = List.length (filter f l').
Proof.
  intros A f l l' H. induction H as [|x l l' H IH|x y l|l1 l2 l3 H1 IH1 H2 IH2]; cbn; [reflexivity| | |congruence].
  - destruct (f x); cbn; congruence.
  - destruct (f x), (f y); reflexivity.
Qed.
Lemma score_perm : forall le ty l l', Permutation l l' -> score le ty l = score le ty l'.
Proof. intros. apply filter_len_perm. assumption. Qed.

Lemma filter_len_le : forall {A} (f g : A -> bool) l, (forall x, In x l -> f x = true -> g x = true) -> List.length (filter f l) <= List.length (filter g l).
Proof.
  intros A f g l. induction l as [|x r IH]; intros H; cbn; [lia|]. assert (IH' := IH (fun y Hy => H y (or_intror Hy))). specialize (H x (or_introl eq_refl)). destruct (f x); [rewrite (H eq_refl); cbn; lia|destruct (g x); cbn; lia].
Qed.
Lemma filter_len_lt : forall {A} (f g : A -> bool) l w, (forall x, In x l -> f x = true -> g x = true) -> In w l -> f w = false -> g w = true -> List.length (filter f l) < List.length (filter g l).
Proof.
  intros A f g l w. induction l as [|x r IH]; intros H I F G; [contradiction|]. assert (H' := fun y Hy => H y (or_intror Hy)). destruct I as [-> | I].
  - cbn. rewrite F, G. cbn. assert (K := filter_len_le f g r H'). lia.
  - assert (K := IH H' I F G). specialize (H x (or_introl eq_refl)). cbn. destruct (f x); [rewrite (H eq_refl); cbn; lia|destruct (g x); cbn; lia].
Qed.
Lemma score_lt : forall le l a b, ordered le l -> In a l -> In b l -> a <> b -> le a b = true -> score le b l < score le a l.
Proof.
  intros le l a b [T A] Ia Ib N L. unfold score. apply filter_len_lt with (w := b).
  - intros o Io H. apply andb_true_iff in H. destruct H as [H1 H2]. apply andb_true_iff. split; [|eapply T with (b := b); assumption].
    apply negb_true_iff, Nat.eqb_neq. intros <-. apply N. apply A; assumption.
  - exact Ib.
  - rewrite Nat.eqb_refl. reflexivity.
  - rewrite L, (proj2 (Nat.eqb_neq a b) N). reflexivity.
Qed.

Lemma counts_score : forall le ty l, counts (fun o => o <> ty /\ le ty o = true) l (score le ty l).
Proof.
  intros le ty l. unfold score. induction l as [|x r IH]; cbn; [constructor|]. destruct (Nat.eqb_spec ty x) as [E | E]; cbn.
  - apply counts_no; [|exact IH]. intros [H _]. congruence.
  - destruct (le ty x) eqn:L; cbn; [apply counts_yes|apply counts_no]; try exact IH; [split; [congruence|exact L]|intros [_ H]; congruence].
Qed.

(** ** The invariant *)
Record inv (W : pyworld) (r : list entry) : Prop := mkInv {
  i_leaf : NoDup (map e_leaf r);
  i_abs : forall e e', In e r -> In e' r -> e_abs e = e_abs e' -> e_handler e = e_handler e';
  i_ls : forall e, In e r -> e_ls e = score (p_sub W) (e_leaf e) (map e_leaf r);
  i_as : forall e, In e r -> e_as e = score (asub W) (e_abs e) (map e_abs r);
  i_sorted : StronglySorted (kle W) r
}.

Lemma inv_nil : forall W, inv W [].
Proof. intros W. constructor; cbn; try contradiction; constructor. Qed.

Lemma rescore_leafs : forall W r, map e_leaf (rescore W r) = map e_leaf r.
Proof. intros. unfold rescore. rewrite map_map. reflexivity. Qed.
Lemma rescore_abss : forall W r, map e_abs (rescore W r) = map e_abs r.
Proof. intros. unfold rescore. rewrite map_map. reflexivity. Qed.
Lemma rescore_whats : forall W r, whats (rescore W r) = whats r.
Proof. intros. unfold whats, rescore. rewrite map_map. reflexivity. Qed.

Lemma inv_rescore : forall W r, NoDup (map e_leaf r) -> (forall e e', In e r -> In e' r -> e_abs e = e_abs e' -> e_handler e = e_handler e') -> inv W (sort_by (key_leb W) (rescore W r)).
Proof.
  intros W r N A. assert (P := sort_perm (key_leb W) (rescore W r)). constructor.
  - apply (Permutation_NoDup (l := map e_leaf r)); [|exact N]. rewrite <- (rescore_leafs W r). apply Permutation_map. symmetry. exact P.
  - intros e e' I I'. apply (Permutation_in _ P) in I, I'. unfold rescore in I, I'. apply in_map_iff in I, I'. destruct I as [x [<- Ix]]. destruct I' as [x' [<- Ix']]. cbn. apply A; assumption.
  - intros e I. rewrite (score_perm _ _ _ (map e_leaf (rescore W r))); [|apply Permutation_map; exact P]. rewrite rescore_leafs.
    apply (Permutation_in _ P) in I. unfold rescore in I. apply in_map_iff in I. destruct I as [x [<- Ix]]. reflexivity.
  - intros e I. rewrite (score_perm _ _ _ (map e_abs (rescore W r))); [|apply Permutation_map; exact P]. rewrite rescore_abss.
    apply (Permutation_in _ P) in I. unfold rescore in I. apply in_map_iff in I. destruct I as [x [<- Ix]]. reflexivity.
  - apply sort_key_sorted.
Qed.

Lemma same_iff : forall l a h e, same_entry l a h e = true <-> e_leaf e = l /\ e_abs e = a /\ e_handler e = h.
Proof. intros. unfold same_entry. rewrite !andb_true_iff, !Nat.eqb_eq. tauto. Qed.
Lemma conflict_iff : forall l a h e, conflict l a h e = true <-> clash l a h (what e).
Proof. intros. unfold conflict, clash, what. rewrite orb_true_iff, andb_true_iff, negb_true_iff, !Nat.eqb_eq, Nat.eqb_neq. reflexivity. Qed.
Lemma noconflict_iff : forall l a h e, conflict l a h e = false <-> ~ clash l a h (what e).
Proof. intros. rewrite <- conflict_iff. destruct (conflict l a h e); split; congruence. Qed.

Definition unscored (e : entry) : nat * nat * nat * nat * nat := (e_leaf e, e_abs e, e_handler e, e_ls e, e_as e).
Lemma update_unscored : forall l a h s r, map unscored (update_strs l a h s r) = map unscored r.
Proof. intros. induction r as [|e t IH]; cbn; [reflexivity|]. destruct (same_entry l a h e); cbn; [reflexivity|rewrite IH; reflexivity]. Qed.

Lemma in_unscored : forall r r' e, map unscored r' = map unscored r -> In e r' -> exists x, In x r /\ unscored x = unscored e.
Proof. intros r r' e H I. apply (in_map unscored) in I. rewrite H in I. apply in_map_iff in I. destruct I as [x [E Ix]]. exists x. split; assumption. Qed.

Lemma inv_unscored : forall W r r', map unscored r' = map unscored r -> inv W r -> inv W r'.
Proof.
  intros W r r' H I. assert (L : map e_leaf r' = map e_leaf r).
  { assert (X := f_equal (map (fun x : nat * nat * nat * nat * nat => fst (fst (fst (fst x))))) H). rewrite !map_map in X. exact X. }
  assert (A : map e_abs r' = map e_abs r).
  { assert (X := f_equal (map (fun x : nat * nat * nat * nat * nat => snd (fst (fst (fst x))))) H). rewrite !map_map in X. exact X. }
  constructor.
  - rewrite L. apply (i_leaf W r I).
  - intros e e' Ie Ie' E. destruct (in_unscored r r' e H Ie) as [x [Ix Ex]]. destruct (in_unscored r r' e' H Ie') as [x' [Ix' Ex']]. unfold unscored in Ex, Ex'. injection Ex; injection Ex'; intros.
    assert (K := i_abs W r I x x' Ix Ix'). lia.
  - intros e Ie. destruct (in_unscored r r' e H Ie) as [x [Ix Ex]]. unfold unscored in Ex. injection Ex; intros E1 E2 E3 E4 E5. rewrite L, <- E5, <- E2. apply (i_ls W r I x Ix).
  - intros e Ie. destruct (in_unscored r r' e H Ie) as [x [Ix Ex]]. unfold unscored in Ex. injection Ex; intros E1 E2 E3 E4 E5. rewrite A, <- E1, <- E4. apply (i_as W r I x Ix).
  - assert (S0 := i_sorted W r I). clear I L A. revert r H S0. induction r' as [|e t IH]; intros r H S0; [constructor|].
    destruct r as [|x u]; [discriminate|]. cbn in H. injection H as E1 E2 E3 E4 E5 Ht. inversion S0 as [|? ? S1 S2]; subst. constructor; [eapply IH; eassumption|].
    apply Forall_forall. intros y Iy. destruct (in_unscored u t y Ht Iy) as [z [Iz Ez]]. rewrite Forall_forall in S2. assert (K := S2 z Iz). unfold unscored in Ez. injection Ez; intros F1 F2 F3 F4 F5.
    unfold kle, key_leb in *. rewrite E3, E4, E5, <- F1, <- F2, <- F3. exact K.
Qed.

Lemma add_inv : forall W l a h o s r r', inv W r -> add W l a h o s r = Ok r' -> inv W r'.
Proof.
  intros W l a h o s r r' I H. unfold add in H. destruct (existsb (same_entry l a h) r) eqn:X.
  { injection H as <-. match goal with |- inv W (if ?c then _ else _) => destruct c end; [|exact I]. eapply inv_unscored; [apply update_unscored|exact I]. }
  destruct (negb o && existsb (conflict l a h) r) eqn:C; [discriminate|]. injection H as <-.
  set (kept := if o then filter (fun e => negb (conflict l a h e)) r else r).
  assert (K : forall e, In e kept -> In e r /\ conflict l a h e = false).
  { intros e Ie. unfold kept in Ie. destruct o.
    - apply filter_In in Ie. destruct Ie as [Ie Q]. split; [exact Ie|apply negb_true_iff; exact Q].
    - split; [exact Ie|]. cbn in C. destruct (conflict l a h e) eqn:Q; [|reflexivity]. rewrite <- C. symmetry. apply existsb_exists. exists e. split; assumption. }
  assert (N : NoDup (map e_leaf kept)).
  { unfold kept. destruct o; [|apply (i_leaf W r I)]. assert (N := i_leaf W r I). clear - N. induction r as [|e t IH]; cbn in *; [constructor|]. inversion N as [|? ? N1 N2]; subst.
    destruct (negb (conflict l a h e)); cbn; [|apply IH; exact N2]. constructor; [|apply IH; exact N2]. intros Q. apply N1. apply in_map_iff in Q. destruct Q as [y [E Iy]]. apply filter_In in Iy. rewrite <- E. apply in_map. tauto. }
  apply inv_rescore.
  - rewrite map_app. cbn. apply (Permutation_NoDup (l := l :: map e_leaf kept)); [apply Permutation_cons_append|]. constructor; [|exact N].
    intros Q. apply in_map_iff in Q. destruct Q as [y [E Iy]]. destruct (K y Iy) as [_ Q]. apply noconflict_iff in Q. apply Q. left. exact E.
  - intros e e' Ie Ie' E. apply in_app_or in Ie, Ie'. destruct Ie as [Ie | [<- | []]], Ie' as [Ie' | [<- | []]]; cbn in *.
    + apply (i_abs W r I); [apply K| apply K|]; assumption.
    + destruct (K e Ie) as [_ Q]. apply noconflict_iff in Q. cbn in Q. destruct (Nat.eq_dec (e_handler e) h) as [Z | Z]; [exact Z|]. exfalso. apply Q. right. split; assumption.
    + destruct (K e' Ie') as [_ Q]. apply noconflict_iff in Q. cbn in Q. destruct (Nat.eq_dec (e_handler e') h) as [Z | Z]; [congruence|]. exfalso. apply Q. right. split; congruence.
    + reflexivity.
Qed.

Lemma run_inv : forall W l r, inv W r -> inv W (run W l r).
Proof.
  intros W l. induction l as [|g t IH]; intros r I; cbn; [exact I|]. apply IH. destruct (add W (g_leaf g) (g_abs g) (g_handler g) (g_override g) (g_strs g) r) eqn:E; [eapply add_inv; eassumption|exact I].
Qed.
Lemma reach_inv : forall W l, inv W (run W l []).
Proof. intros. apply run_inv. apply inv_nil. Qed.

(** ** Looking up *)
Lemma get_char : forall W r t, inv W r ->
  match get W t r with
  | Ok h => exists e, In e r /\ p_sub W t (e_leaf e) = true /\ e_handler e = h /\ (forall x, In x r -> p_sub W t (e_leaf x) = true -> kle W x e)
  | Err k => k = ValueError /\ forall x, In x r -> p_sub W t (e_leaf x) = false
  end.
Proof.
  intros W r t I. unfold get. assert (F := find_rev (kle W) (fun e => p_sub W t (e_leaf e)) r (kle_refl W) (i_sorted W r I)). destruct (find _ (rev r)) as [e|].
  - destruct F as [F1 [F2 F3]]. exists e. repeat split; assumption.
  - split; [reflexivity|exact F].
Qed.
Lemma get_abs_char : forall W r t, inv W r ->
  match get_abstract W t r with
  | Ok h => exists e, In e r /\ asub W t (e_abs e) = true /\ e_handler e = h /\ (forall x, In x r -> asub W t (e_abs x) = true -> ale W x e)
  | Err k => k = ValueError /\ forall x, In x r -> asub W t (e_abs x) = false
  end.
Proof.
  intros W r t I. unfold get_abstract. assert (P := sort_perm abs_leb r). assert (F := find_rev (ale W) (fun e => asub W t (e_abs e)) (sort_by abs_leb r) (ale_refl W) (sort_abs_sorted W r (i_sorted W r I))). destruct (find _ (rev _)) as [e|].
  - destruct F as [F1 [F2 F3]]. exists e. split; [apply (Permutation_in _ P); exact F1|]. split; [exact F2|]. split; [reflexivity|]. intros x Ix. apply F3. apply (Permutation_in _ (Permutation_sym P)). exact Ix.
  - split; [reflexivity|]. intros x Ix. apply F. apply (Permutation_in _ (Permutation_sym P)). exact Ix.
Qed.

Lemma none_iff : forall W r t, inv W r -> (exists k, get W t r = Err k) <-> (forall e, In e r -> p_sub W t (e_leaf e) = false).
Proof.
  intros W r t I. assert (G := get_char W r t I). destruct (get W t r) as [h|k].
  - destruct G as [e [A [B _]]]. split; [intros [k H]; discriminate|]. intros H. rewrite (H e A) in B. discriminate.
  - destruct G as [_ G]. split; [intros _; exact G|]. intros _. exists k. reflexivity.
Qed.
Lemma get_specific : forall W r t h, inv W r -> ordered (p_sub W) (map e_leaf r) -> get W t r = Ok h ->
  exists e, In e r /\ p_sub W t (e_leaf e) = true /\ e_handler e = h /\ (forall x, In x r -> p_sub W t (e_leaf x) = true -> p_sub W (e_leaf x) (e_leaf e) = true -> e_leaf x = e_leaf e).
Proof.
  intros W r t h I O H. assert (G := get_char W r t I). rewrite H in G. destruct G as [e [G1 [G2 [G3 G4]]]]. exists e. do 3 (split; [assumption|]). intros x Ix Hx L.
  destruct (Nat.eq_dec (e_leaf x) (e_leaf e)) as [E | E]; [exact E|]. exfalso. assert (S1 := score_lt _ _ _ _ O (in_map e_leaf _ _ Ix) (in_map e_leaf _ _ G1) E L).
  rewrite <- (i_ls W r I x Ix), <- (i_ls W r I e G1) in S1. assert (K := G4 x Ix Hx). apply kle_iff in K. lia.
Qed.
Lemma get_abs_specific : forall W r t h, inv W r -> ordered (asub W) (map e_abs r) -> get_abstract W t r = Ok h ->
  exists e, In e r /\ asub W t (e_abs e) = true /\ e_handler e = h /\ (forall x, In x r -> asub W t (e_abs x) = true -> asub W (e_abs x) (e_abs e) = true -> e_abs x = e_abs e).
Proof.
  intros W r t h I O H. assert (G := get_abs_char W r t I). rewrite H in G. destruct G as [e [G1 [G2 [G3 G4]]]]. exists e. do 3 (split; [assumption|]). intros x Ix Hx L.
  destruct (Nat.eq_dec (e_abs x) (e_abs e)) as [E | E]; [exact E|]. exfalso. assert (S1 := score_lt _ _ _ _ O (in_map e_abs _ _ Ix) (in_map e_abs _ _ G1) E L).
  rewrite <- (i_as W r I x Ix), <- (i_as W r I e G1) in S1. destruct (G4 x Ix Hx) as [K | [K _]]; lia.
Qed.

Lemma leaf_same : forall W r e e', inv W r -> In e r -> In e' r -> e_leaf e = e_leaf e' -> e = e'.
Proof.
  intros W r e e' I Ie Ie' E. assert (N := i_leaf W r I). clear I. induction r as [|x t IH]; [contradiction|]. cbn in N. inversion N as [|? ? N1 N2]; subst.
  destruct Ie as [-> | Ie], Ie' as [-> | Ie'].
  - reflexivity.
  - exfalso. apply N1. rewrite E. apply in_map. exact Ie'.
  - exfalso. apply N1. rewrite <- E. apply in_map. exact Ie.
  - apply IH; assumption.
Qed.
Lemma get_exact : forall W r e, inv W r -> ordered (p_sub W) (map e_leaf r) -> In e r -> p_sub W (e_leaf e) (e_leaf e) = true -> get W (e_leaf e) r = Ok (e_handler e).
Proof.
  intros W r e I O Ie R. destruct (get W (e_leaf e) r) as [h|k] eqn:G.
  - destruct (get_specific W r _ h I O G) as [x [X1 [X2 [<- X4]]]]. assert (E := X4 e Ie R X2). rewrite (leaf_same W r e x I Ie X1 E). reflexivity.
  - assert (C := get_char W r (e_leaf e) I). rewrite G in C. destruct C as [_ C]. rewrite (C e Ie) in R. discriminate.
Qed.
Lemma get_abs_exact : forall W r e, inv W r -> ordered (asub W) (map e_abs r) -> In e r -> asub W (e_abs e) (e_abs e) = true -> get_abstract W (e_abs e) r = Ok (e_handler e).
Proof.
  intros W r e I O Ie R. destruct (get_abstract W (e_abs e) r) as [h|k] eqn:G.
  - destruct (get_abs_specific W r _ h I O G) as [x [X1 [X2 [<- X4]]]]. assert (E := X4 e Ie R X2). f_equal. apply (i_abs W r I); [exact X1|exact Ie|congruence].
  - assert (C := get_abs_char W r (e_abs e) I). rewrite G in C. destruct C as [_ C]. rewrite (C e Ie) in R. discriminate.
Qed.

Lemma handleable_iff : forall W r t, handleable W t r = true <-> exists e, In e r /\ p_sub W t (e_leaf e) = true.
Proof.
  intros W r t. unfold handleable, get. destruct (find _ (rev r)) as [e|] eqn:F.
  - apply find_some in F. split; [intros _|reflexivity]. exists e. rewrite in_rev. exact F.
  - split; [discriminate|]. intros [e [Ie S1]]. assert (Q := find_none _ _ F e (proj1 (in_rev _ _) Ie)). cbn in Q. congruence.
Qed.
Lemma abstract_handleable_iff : forall W r t, abstract_handleable W t r = true <-> exists e, In e r /\ asub W t (e_abs e) = true.
Proof.
  intros W r t. unfold abstract_handleable, get_abstract. assert (P := sort_perm abs_leb r). destruct (find _ (rev _)) as [e|] eqn:F.
  - apply find_some in F. split; [intros _|reflexivity]. exists e. destruct F as [F1 F2]. split; [|exact F2]. apply (Permutation_in _ P). apply in_rev. exact F1.
  - split; [discriminate|]. intros [e [Ie S1]]. assert (Q := find_none _ _ F e (proj1 (in_rev _ _) (Permutation_in _ (Permutation_sym P) Ie))). cbn in Q. congruence.
Qed.

(** ** What registering does *)
Lemma add_new : forall W l a h o s r, existsb (same_entry l a h) r = false -> (o = true \/ existsb (conflict l a h) r = false) ->
  exists r', add W l a h o s r = Ok r' /\ Permutation (whats r') ((l, a, h, s) :: whats (filter (fun e => negb (conflict l a h e)) r)).
Proof.
  intros W l a h o s r X C. unfold add. rewrite X. assert (E : negb o && existsb (conflict l a h) r = false) by (destruct C as [-> | ->]; [reflexivity|apply andb_false_r]). rewrite E.
  eexists. split; [reflexivity|]. assert (K : (if o then filter (fun e => negb (conflict l a h e)) r else r) = filter (fun e => negb (conflict l a h e)) r).
  { destruct o; [reflexivity|]. cbn in E. clear - E. induction r as [|e t IH]; cbn in *; [reflexivity|]. apply orb_false_iff in E. destruct E as [E1 E2]. rewrite E1. cbn. rewrite <- IH; [reflexivity|exact E2]. }
  rewrite K. unfold whats at 1. rewrite (Permutation_map what (sort_perm _ _)). fold (whats (rescore W (filter (fun e => negb (conflict l a h e)) r ++ [mkE l a h s 0 0]))). rewrite rescore_whats. unfold whats. rewrite map_app. cbn.
  symmetry. apply Permutation_cons_append.
Qed.

Lemma whats_leafs : forall r, map e_leaf r = map (fun x : nat * nat * nat * option (list string) => fst (fst (fst x))) (whats r).
Proof. intros. unfold whats. rewrite map_map. reflexivity. Qed.
Lemma whats_abss : forall r, map e_abs r = map (fun x : nat * nat * nat * option (list string) => snd (fst (fst x))) (whats r).
Proof. intros. unfold whats. rewrite map_map. reflexivity. Qed.

Lemma run_compatible_gen : forall W l r, NoDup (map e_leaf r ++ map g_leaf l) ->
  (forall x y, In x (whats r ++ map asked l) -> In y (whats r ++ map asked l) -> snd (fst (fst x)) = snd (fst (fst y)) -> snd (fst x) = snd (fst y)) ->
  Permutation (whats (run W l r)) (whats r ++ map asked l).
Proof.
  intros W l. induction l as [|g t IH]; intros r N A; cbn; [rewrite app_nil_r; reflexivity|].
  assert (F : forall e, In e r -> e_leaf e <> g_leaf g).
  { intros e Ie E. cbn in N. apply NoDup_remove_2 in N. apply N. apply in_or_app. left. rewrite <- E. apply in_map. exact Ie. }
  assert (F2 : forall e, In e r -> e_abs e = g_abs g -> e_handler e = g_handler g).
  { intros e Ie E. apply (A (what e) (asked g)); [apply in_or_app; left; apply in_map; exact Ie|apply in_or_app; right; left; reflexivity|exact E]. }
  assert (NC : forall e, In e r -> conflict (g_leaf g) (g_abs g) (g_handler g) e = false).
  { intros e Ie. apply noconflict_iff. cbn. intros [E | [E Q]]; [exact (F e Ie E)|exact (Q (F2 e Ie E))]. }
  destruct (add_new W (g_leaf g) (g_abs g) (g_handler g) (g_override g) (g_strs g) r) as [r' [E P]].
  - destruct (existsb _ r) eqn:X; [|reflexivity]. apply existsb_exists in X. destruct X as [e [Ie X]]. apply same_iff in X. exfalso. apply (F e Ie). tauto.
  - right. destruct (existsb _ r) eqn:X; [|reflexivity]. apply existsb_exists in X. destruct X as [e [Ie X]]. rewrite (NC e Ie) in X. discriminate.
  - rewrite E. assert (Q : filter (fun e => negb (conflict (g_leaf g) (g_abs g) (g_handler g) e)) r = r).
    { clear - NC. induction r as [|e u IH]; cbn; [reflexivity|]. rewrite (NC e (or_introl eq_refl)). cbn. rewrite IH; [reflexivity|]. intros y Hy. apply NC. right. exact Hy. }
    rewrite Q in P. assert (P2 : Permutation (whats r' ++ map asked t) (whats r ++ asked g :: map asked t)).
    { rewrite P. apply Permutation_cons_app. reflexivity. }
    rewrite (IH r'); [exact P2| |].
    + apply (Permutation_NoDup (l := map e_leaf r ++ map g_leaf (g :: t))); [|exact N]. symmetry.
      assert (Z := Permutation_map (fun x : nat * nat * nat * option (list string) => fst (fst (fst x))) P2). rewrite !map_app, <- !whats_leafs in Z. cbn in Z. rewrite !map_map in Z. cbn in *. exact Z.
    + intros x y Ix Iy. apply A; eapply Permutation_in; [exact P2|exact Ix|exact P2|exact Iy].
Qed.
Lemma run_compatible : forall W l, compatible l -> Permutation (whats (run W l [])) (map asked l).
Proof.
  intros W l [N A]. apply (run_compatible_gen W l []); cbn; [exact N|]. intros x y Ix Iy. apply in_map_iff in Ix, Iy. destruct Ix as [g [<- Ig]]. destruct Iy as [g' [<- Ig']]. cbn. apply A; assumption.
Qed.

(** ** The order of registering *)
Lemma transport : forall W r r' e, inv W r -> inv W r' -> Permutation (whats r) (whats r') -> In e r -> exists e', In e' r' /\ e' = e.
Proof.
  intros W r r' e I I' P Ie. assert (Q := Permutation_in _ P (in_map what _ _ Ie)). apply in_map_iff in Q. destruct Q as [e' [E Ie']]. exists e'. split; [exact Ie'|].
  unfold what in E. injection E; intros E1 E2 E3 E4.
  assert (L : e_ls e' = e_ls e). { rewrite (i_ls W r' I' e' Ie'), (i_ls W r I e Ie), E4. apply score_perm. rewrite !whats_leafs. apply Permutation_map. symmetry. exact P. }
  assert (A : e_as e' = e_as e). { rewrite (i_as W r' I' e' Ie'), (i_as W r I e Ie), E3. apply score_perm. rewrite !whats_abss. apply Permutation_map. symmetry. exact P. }
  destruct e, e'; cbn in *; congruence.
Qed.
Lemma get_order : forall W r r' t, inv W r -> inv W r' -> Permutation (whats r) (whats r') -> named_apart W (map e_handler r) -> get W t r = get W t r'.
Proof.
  intros W r r' t I I' P N. assert (G := get_char W r t I). assert (G' := get_char W r' t I'). destruct (get W t r) as [h|k], (get W t r') as [h'|k'].
  - destruct G as [e [A [B [<- D]]]]. destruct G' as [e' [A' [B' [<- D']]]]. destruct (transport W r r' e I I' P A) as [? [T ->]]. destruct (transport W r' r e' I' I (Permutation_sym P) A') as [? [T' ->]].
    f_equal. apply N; [apply in_map; exact A|apply in_map; exact T'|]. apply kle_anti; [apply D'|apply D]; assumption.
  - destruct G as [e [A [B _]]]. destruct (transport W r r' e I I' P A) as [? [T ->]]. destruct G' as [_ G']. rewrite (G' e T) in B. discriminate.
  - destruct G' as [e [A [B _]]]. destruct (transport W r' r e I' I (Permutation_sym P) A) as [? [T ->]]. destruct G as [_ G]. rewrite (G e T) in B. discriminate.
  - destruct G as [-> _]. destruct G' as [-> _]. reflexivity.
Qed.
Lemma ale_anti : forall W a b, ale W a b -> ale W b a -> p_name W (e_handler a) = p_name W (e_handler b).
Proof. intros W a b [H | [H K]] [H' | [H' K']]; try lia. apply kle_anti; assumption. Qed.
Lemma get_abs_order : forall W r r' t, inv W r -> inv W r' -> Permutation (whats r) (whats r') -> named_apart W (map e_handler r) -> get_abstract W t r = get_abstract W t r'.
Proof.
  intros W r r' t I I' P N. assert (G := get_abs_char W r t I). assert (G' := get_abs_char W r' t I'). destruct (get_abstract W t r) as [h|k], (get_abstract W t r') as [h'|k'].
  - destruct G as [e [A [B [<- D]]]]. destruct G' as [e' [A' [B' [<- D']]]]. destruct (transport W r r' e I I' P A) as [? [T ->]]. destruct (transport W r' r e' I' I (Permutation_sym P) A') as [? [T' ->]].
    f_equal. apply N; [apply in_map; exact A|apply in_map; exact T'|]. apply (ale_anti W); [apply D'|apply D]; assumption.
  - destruct G as [e [A [B _]]]. destruct (transport W r r' e I I' P A) as [? [T ->]]. destruct G' as [_ G']. rewrite (G' e T) in B. discriminate.
  - destruct G' as [e [A [B _]]]. destruct (transport W r' r e I' I (Permutation_sym P) A) as [? [T ->]]. destruct G as [_ G]. rewrite (G e T) in B. discriminate.
  - destruct G as [-> _]. destruct G' as [-> _]. reflexivity.
Qed.

(** ** The old registry *)
Definition tfun (W : pyworld) (x : nat * nat) : (nat -> bool) * nat := (fun t' => p_sub W t' (fst x), snd x).

Lemma first_index_none : forall W ty l, (forall x, In x l -> p_sub W ty (fst x) = false) -> first_index ty (map (tfun W) l) = None.
Proof.
  intros W ty l. induction l as [|x r IH]; intros H; cbn; [reflexivity|]. rewrite (H x (or_introl eq_refl)), IH; [reflexivity|]. intros y Hy. apply H. right. exact Hy.
Qed.
Lemma create_types : forall W ts L seen t, t_types t = map (tfun W) seen -> (forall A ty h B, L = A ++ (ty, h) :: B -> forall x, In x (seen ++ A) -> p_sub W ty (fst x) = false) ->
  exists t', t_create ts (p_sub W) L t = Ok t' /\ t_types t' = map (tfun W) (seen ++ L).
Proof.
  intros W ts L. induction L as [|[ty h] r IH]; intros seen t T F; cbn; [exists t; rewrite app_nil_r; split; [reflexivity|exact T]|].
  unfold t_add. rewrite T, first_index_none; [|intros x Hx; apply (F [] ty h r eq_refl); rewrite app_nil_r; exact Hx].
  assert (E : match dget String.eqb (ts h) (t_strs t) with Some _ => negb true | None => false end = false) by (destruct (dget _ _ _); reflexivity). rewrite E. cbn.
  destruct (IH (seen ++ [(ty, h)]) (mkT (map (tfun W) seen ++ [(fun t' => p_sub W t' ty, h)]) (dput String.eqb (ts h) h (t_strs t)))) as [t' [E1 E2]].
  - cbn. rewrite map_app. reflexivity.
  - intros A ty' h' B -> x Ix. apply (F ((ty, h) :: A) ty' h' B eq_refl). rewrite <- app_assoc in Ix. exact Ix.
  - exists t'. split; [exact E1|]. rewrite E2, <- app_assoc. reflexivity.
Qed.
Lemma create_ok : forall ts sub L t, exists t', t_create ts sub L t = Ok t'.
Proof.
  intros ts sub L. induction L as [|[ty h] r IH]; intros t; cbn; [exists t; reflexivity|]. unfold t_add. destruct (first_index ty (t_types t)); cbn; [apply IH|].
  destruct (dget _ _ _); cbn; apply IH.
Qed.
Lemma create_strs : forall ts sub L t t' h, t_create ts sub L t = Ok t' -> (forall k, In k (map snd L) -> ts k = ts h -> k = h) ->
  (dget String.eqb (ts h) (t_strs t) = Some h \/ In h (map snd L)) -> dget String.eqb (ts h) (t_strs t') = Some h.
Proof.
  intros ts sub L. induction L as [|[ty k] r IH]; intros t t' h H N D; cbn in H.
  - injection H as <-. destruct D as [D | []]. exact D.
  - assert (S0 : exists t0, t_add ts ty k (fun t' => sub t' ty) true t = Ok t0 /\ t_strs t0 = dput String.eqb (ts k) k (t_strs t)).
    { unfold t_add. destruct (first_index ty (t_types t)); [eexists; split; reflexivity|]. clear D. destruct (dget _ (ts k) _); eexists; split; reflexivity. }
    destruct S0 as [t0 [E S0]]. rewrite E in H. cbn in H. apply (IH t0 t' h H); [intros q Hq; apply N; right; exact Hq|]. rewrite S0, (dget_dput String.eqb String.eqb_spec).
    destruct (String.eqb_spec (ts h) (ts k)) as [Q | Q].
    + left. f_equal. apply N; [left; reflexivity|congruence].
    + destruct D as [D | [D | D]]; [left; exact D|cbn in D; congruence|right; exact D].
Qed.

Lemma v0_list : forall r, map (fun x : nat * nat * nat => (fst (fst x), snd x)) (rev (get_all r)) = map (fun e => (e_leaf e, e_handler e)) (rev r).
Proof. intros. unfold get_all. rewrite <- map_rev, map_map. reflexivity. Qed.

Lemma sorted_split : forall (R : entry -> entry -> Prop) a x b y, StronglySorted R (a ++ x :: b) -> In y b -> R x y.
Proof.
  intros R a. induction a as [|z t IH]; cbn; intros x b y H I; inversion H as [|? ? H1 H2]; subst; [rewrite Forall_forall in H2; apply H2; exact I|eapply IH; eassumption].
Qed.

Lemma v0_agrees : forall W r t, inv W r -> ordered (p_sub W) (map e_leaf r) -> v0_registry W r = Ok t -> forall ty, t_get ty t = get W ty r.
Proof.
  intros W r t I O H ty. unfold v0_registry in H. destruct (forallb _ _); [|discriminate]. rewrite v0_list in H.
  destruct (create_types W (v0_typestr W r) (map (fun e => (e_leaf e, e_handler e)) (rev r)) [] t_empty) as [t' [E1 E2]].
  - reflexivity.
  - intros A l h B E x Ix. cbn in Ix. apply map_eq_app in E. destruct E as [r1 [r2 [E3 [<- E4]]]]. destruct r2 as [|e r2]; [discriminate|]. cbn in E4. injection E4 as <- <- _.
    apply in_map_iff in Ix. destruct Ix as [y [<- Iy]]. cbn. destruct (p_sub W (e_leaf e) (e_leaf y)) eqn:S1; [|reflexivity]. exfalso.
    assert (Q : r = rev r2 ++ e :: rev r1) by (rewrite <- (rev_involutive r), E3, rev_app_distr; cbn; rewrite <- app_assoc; reflexivity).
    assert (Ie : In e r) by (rewrite Q; apply in_or_app; right; left; reflexivity). assert (Iy' : In y r) by (rewrite Q; apply in_or_app; right; right; apply in_rev in Iy; exact Iy).
    assert (K : kle W e y). { assert (SS := i_sorted W r I). rewrite Q in SS. eapply sorted_split; [exact SS|]. apply in_rev in Iy. exact Iy. }
    assert (N : e_leaf e <> e_leaf y).
    { intros E. assert (ND := i_leaf W r I). rewrite Q, map_app in ND. cbn in ND. apply NoDup_remove_2 in ND. apply ND. apply in_or_app. right. rewrite E. apply in_map. apply in_rev in Iy. exact Iy. }
    assert (SC := score_lt _ _ _ _ O (in_map e_leaf _ _ Ie) (in_map e_leaf _ _ Iy') N S1). rewrite <- (i_ls W r I e Ie), <- (i_ls W r I y Iy') in SC. apply kle_iff in K. lia.
  - rewrite E1 in H. injection H as <-. unfold t_get, get. rewrite E2. cbn. rewrite map_map. cbn. clear. induction (rev r) as [|e u IH]; cbn; [reflexivity|]. destruct (p_sub W ty (e_leaf e)); [reflexivity|exact IH].
Qed.
Lemma v0_ok : forall W r, (forall e, In e r -> p_new W (e_handler e) = true) <-> exists t, v0_registry W r = Ok t.
Proof.
  intros W r. unfold v0_registry. destruct (forallb _ _) eqn:F.
  - split; [intros _; apply create_ok|]. intros _ e Ie. rewrite forallb_forall in F. apply (F (e_leaf e, e_abs e, e_handler e)). apply in_rev. rewrite rev_involutive. unfold get_all. apply in_map_iff. exists e. split; [reflexivity|exact Ie].
  - split; [|intros [t H]; discriminate]. intros H. exfalso. assert (G : forallb (fun x : nat * nat * nat => p_new W (snd x)) (rev (get_all r)) = true); [|congruence].
    apply forallb_forall. intros x Ix. apply in_rev in Ix. unfold get_all in Ix. apply in_map_iff in Ix. destruct Ix as [e [<- Ie]]. cbn. apply H. exact Ie.
Qed.
Lemma v0_named : forall W r t h, v0_registry W r = Ok t -> In h (map e_handler r) -> (forall k, In k (map e_handler r) -> v0_typestr W r k = v0_typestr W r h -> k = h) ->
  t_get_str (v0_typestr W r h) t = Ok h.
Proof.
  intros W r t h H I N. unfold v0_registry in H. destruct (forallb _ _); [|discriminate]. rewrite v0_list in H. unfold t_get_str.
  assert (IFF : forall k, In k (map snd (map (fun e => (e_leaf e, e_handler e)) (rev r))) <-> In k (map e_handler r)).
  { intros k. rewrite map_map. cbn. rewrite map_rev. symmetry. apply in_rev. }
  rewrite (create_strs _ _ _ _ _ h H); [reflexivity| |].
  - intros k Hk. apply N. apply IFF. exact Hk.
  - right. apply IFF. exact I.
Qed.
