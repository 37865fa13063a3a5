(** Proofs about the validation of an exported model. *)
From Coq Require Import List Bool Arith ZArith NArith QArith Qabs String Ascii Permutation Lia Sorted.
From Verif Require Import Base StepName_Model StepName_Proofs Tree_Model Tree_Proofs Parts_Proofs Msgpack_Proofs Validate_Model Validate_Spec.
Import ListNotations.
Local Open Scope string_scope.
Local Open Scope list_scope.
Local Open Scope nat_scope.

(** ** Structure *)

Lemma node_ind' (P : node -> Prop) (Hl : forall t, P (NLeaf t)) (Hs : forall l, Forall P l -> P (NSeq l)) (Hd : forall d, Forall (fun kv => P (snd kv)) d -> P (NDict d)) : forall n, P n.
Proof.
  fix IH 1. intros [t | l | d].
  - apply Hl.
  - apply Hs. induction l as [|x l IHl]; constructor; [apply IH | exact IHl].
  - apply Hd. induction d as [|x d IHd]; constructor; [apply IH | exact IHd].
Qed.

Lemma skel_alike : forall a b, skel_eqb (skel a) (skel b) = true <-> alike a b.
Proof.
  induction a as [t | l IH | d IH] using node_ind'; intros [u | r | e]; cbn [skel skel_eqb]; split; intro H; try discriminate; try (inversion H; fail); try (constructor; fail); try reflexivity.
  - apply al_seq. revert r H. induction IH as [|x l Hx Hl IHl]; intros [|y r] H; cbn in H; try discriminate; constructor.
    + apply andb_prop in H as [H1 H2]. apply Hx. exact H1.
    + apply andb_prop in H as [H1 H2]. apply IHl. exact H2.
  - inversion H as [|l' r' HF|]; subst. clear H. revert r HF. induction IH as [|x l Hx Hl IHl]; intros r HF; inversion HF; subst; cbn; [reflexivity|].
    apply andb_true_intro. split; [apply Hx; assumption | apply IHl; assumption].
  - apply al_dict. revert e H. induction IH as [|x d Hx Hd IHd]; intros [|y e] H; cbn in H; try discriminate; constructor.
    + apply andb_prop in H as [H1 H2]. apply andb_prop in H1 as [H0 H1]. apply String.eqb_eq in H0. split; [exact H0 | apply Hx; exact H1].
    + apply andb_prop in H as [H1 H2]. apply IHd. exact H2.
  - inversion H as [| |d' e' HF]; subst. clear H. revert e HF. induction IH as [|x d Hx Hd IHd]; intros e HF; inversion HF as [|a b l' r' [HA HB] HF']; subst; cbn; [reflexivity|].
    rewrite HA, String.eqb_refl. cbn. apply andb_true_intro. split; [apply Hx; assumption | apply IHd; assumption].
Qed.

Lemma insert_perm x d : Permutation (insert_item x d) (x :: d).
Proof. induction d as [|y d IH]; cbn; [reflexivity|]. destruct (String.leb (fst x) (fst y)); [reflexivity|]. rewrite IH. apply perm_swap. Qed.

Lemma sort_perm d : Permutation (sort_items d) d.
Proof. induction d as [|x d IH]; cbn; [reflexivity|]. rewrite insert_perm. now constructor. Qed.

Definition le_item (x y : string * node) : Prop := String.leb (fst x) (fst y) = true.

Lemma insert_sorted x d : StronglySorted le_item d -> StronglySorted le_item (insert_item x d).
Proof.
  induction 1 as [|y d Hs IH Hf]; cbn; [repeat constructor|].
  destruct (String.leb (fst x) (fst y)) eqn:E.
  - constructor; [constructor; assumption|]. constructor; [exact E|]. eapply Forall_impl; [|exact Hf]. intros z Hz. unfold le_item in *. eapply leb_trans; eassumption.
  - constructor; [exact IH|]. apply (Permutation_Forall (Permutation_sym (insert_perm x d))). constructor; [|exact Hf].
    unfold le_item. destruct (String.leb_total (fst x) (fst y)) as [H|H]; congruence.
Qed.

Lemma sort_sorted d : StronglySorted le_item (sort_items d).
Proof. induction d as [|x d IH]; cbn; [constructor | now apply insert_sorted]. Qed.

Lemma sorted_unique : forall d e, NoDup (map fst d) -> Permutation d e -> StronglySorted le_item d -> StronglySorted le_item e -> d = e.
Proof.
  induction d as [|x d IH]; intros e Hn Hp Hd He.
  - apply Permutation_nil in Hp. now subst.
  - destruct e as [|y e]; [apply Permutation_sym, Permutation_nil in Hp; discriminate|].
    inversion Hd as [|? ? Hd1 Hd2]; subst. inversion He as [|? ? He1 He2]; subst. inversion Hn as [|? ? Hn1 Hn2]; subst.
    assert (Hxy : x = y).
    { assert (Hx : In x (y :: e)) by (apply (Permutation_in _ Hp); now left).
      assert (Hy : In y (x :: d)) by (apply (Permutation_in _ (Permutation_sym Hp)); now left).
      destruct Hy as [Hy|Hy]; [exact Hy|]. destruct Hx as [Hx|Hx]; [now symmetry|].
      exfalso. rewrite Forall_forall in Hd2, He2. pose proof (Hd2 _ Hy) as A. pose proof (He2 _ Hx) as B. unfold le_item in A, B.
      apply Hn1. rewrite (String.leb_antisym _ _ A B). now apply in_map. }
    subst y. f_equal. apply IH; try assumption. eapply Permutation_cons_inv. exact Hp.
Qed.

Lemma norm_perm d e : NoDup (map fst d) -> Permutation d e -> norm (NDict d) = norm (NDict e).
Proof.
  intros Hn Hp. cbn. f_equal. apply sorted_unique; try apply sort_sorted.
  - eapply Permutation_NoDup; [apply Permutation_map, Permutation_sym, sort_perm|]. rewrite map_map. cbn. exact Hn.
  - rewrite !sort_perm. now apply Permutation_map.
Qed.

(** ** Floats *)

Lemma isclose_spec a b r t : isclose a b r t = true <-> close t r a b.
Proof.
  unfold isclose, close. destruct a as [x|], b as [y|]; split; try discriminate; try (intros (x' & y' & A & B & C); congruence).
  - intro H. apply Qle_bool_iff in H. now exists x, y.
  - intros (x' & y' & A & B & C). injection A as <-. injection B as <-. now apply Qle_bool_iff.
Qed.

Lemma allclose_spec : forall a b r t, List.length a = List.length b -> (allclose a b r t = true <-> Forall2 (close t r) a b).
Proof.
  induction a as [|x a IH]; intros [|y b] r t Hl; cbn in Hl; try discriminate.
  - split; intros; [constructor | reflexivity].
  - unfold allclose. cbn [combine forallb fst snd]. rewrite andb_true_iff, isclose_spec. split.
    + intros [A B]. constructor; [exact A|]. apply IH; [lia | exact B].
    + intro H. inversion H; subst. split; [assumption|]. apply IH; [lia | assumption].
Qed.

(** ** Other tensors *)

Lemma all_differ_spec bc j t b : all_differ bc j t = Ok b -> wholly_differ bc (j, t) b.
Proof.
  unfold all_differ. destruct j as [s l], t as [s' r]. cbn [fst snd]. destruct (list_eq_dec Nat.eq_dec s s') as [<- | Hs].
  - intro H. injection H as <-. destruct (forallb _ _) eqn:E.
    + constructor. revert r E. induction l as [|a l IH]; intros [|c r] E [|i] x y Hx Hy; cbn in *; try discriminate.
      * injection Hx as <-. injection Hy as <-. apply andb_prop in E as [E _]. apply negb_true_iff in E. now apply Z.eqb_neq.
      * apply andb_prop in E as [_ E]. eapply IH; eassumption.
    + assert (exists i x, nth_error l i = Some x /\ nth_error r i = Some x) as (i & x & A & B).
      { revert r E. induction l as [|a l IH]; intros [|c r] E; cbn in E; try discriminate.
        apply andb_false_iff in E as [E|E].
        - apply negb_false_iff, Z.eqb_eq in E. subst. now exists 0, c.
        - destruct (IH _ E) as (i & x & A & B). now exists (S i), x. }
      econstructor; eassumption.
  - intro H. now apply wd_bc.
Qed.

Lemma trues_filter l : trues l (List.length (filter (fun b => b) l)).
Proof. induction l as [|[] l IH]; cbn; constructor; exact IH. Qed.

Lemma trues_det l n m : trues l n -> trues l m -> n = m.
Proof. intro H. revert m. induction H; intros m Hm; inversion Hm; subst; auto. Qed.

Lemma ratio_spec o m t : ratio_ok o m t = true <-> (t = 0 /\ (0 <= o_ratio o)%Q) \/ (t <> 0 /\ (inject_Z (Z.of_nat m) / inject_Z (Z.of_nat t) <= o_ratio o)%Q).
Proof.
  unfold ratio_ok. rewrite Qle_bool_iff. destruct t as [|t]; split.
  - intro H. left. split; [reflexivity | exact H].
  - intros [[_ H]|[H _]]; [exact H | congruence].
  - intro H. right. split; [discriminate | exact H].
  - intros [[H _]|[_ H]]; [discriminate | exact H].
Qed.

Lemma seq_combine bc : forall (l r : list (list nat * list Z)) ds, sequence (map (fun p => all_differ bc (fst p) (snd p)) (combine l r)) = Ok ds -> Forall2 (wholly_differ bc) (combine l r) ds.
Proof.
  intros l r. generalize (combine l r) as ps. clear. induction ps as [|[j t] ps IH]; cbn; intros ds H.
  - injection H as <-. constructor.
  - destruct (all_differ bc j t) as [b|] eqn:E; cbn in H; [|discriminate]. destruct (sequence _) as [bs|] eqn:E2; cbn in H; [|discriminate].
    injection H as <-. constructor; [now apply all_differ_spec | now apply IH].
Qed.

Lemma report_inv bc o b c r : make_report bc o b c = Ok r ->
  Forall2 alike (map norm b) (map norm c) /\ List.length (floatings b) = List.length (floatings c) /\ List.length (discretes b) = List.length (discretes c) /\
  exists ds, Forall2 (wholly_differ bc) (combine (discretes b) (discretes c)) ds /\
    r = mkR (if List.length (floatings b) =? 0 then None else Some (List.length (floatings b), allclose (floatings c) (floatings b) (o_atol o) (o_rtol o))) (List.length (discretes b)) (List.length (filter (fun b => b) ds))
      (match (if List.length (floatings b) =? 0 then None else Some (List.length (floatings b), allclose (floatings c) (floatings b) (o_atol o) (o_rtol o))) with Some (_, c) => c | None => true end && ratio_ok o (List.length (filter (fun b => b) ds)) (List.length (discretes b))).
Proof.
  unfold make_report. destruct (skel_eqb _ _) eqn:E1; cbn [negb]; [|discriminate].
  destruct (List.length (floatings b) =? List.length (floatings c)) eqn:E2; cbn [negb]; [|discriminate].
  destruct (List.length (discretes b) =? List.length (discretes c)) eqn:E3; cbn [negb]; [|discriminate].
  apply Nat.eqb_eq in E2, E3. unfold structure in E1. apply skel_alike in E1. inversion E1 as [|? ? HF|]; subst.
  destruct (sequence _) as [ds|] eqn:E4; cbn [rbind]; [|discriminate]. intro H. injection H as <-.
  repeat (split; [assumption|]). exists ds. split; [|reflexivity]. now apply seq_combine.
Qed.

Lemma floats_pass a b rt at_ : List.length a = List.length b ->
  match (if List.length b =? 0 then None else Some (List.length b, allclose a b rt at_)) with Some (_, c) => c | None => true end = true <-> Forall2 (close at_ rt) a b.
Proof.
  intro Hl. destruct (List.length b =? 0) eqn:E.
  - apply Nat.eqb_eq in E. destruct b; [|discriminate]. destruct a; [|discriminate]. split; [constructor | reflexivity].
  - now apply allclose_spec.
Qed.

(** The exact condition of a pass *)
Lemma pass_exact bc o b c r : make_report bc o b c = Ok r ->
  exists ds, Forall2 (wholly_differ bc) (combine (discretes b) (discretes c)) ds /\ trues ds (r_mismatches r) /\ r_total r = List.length (discretes b) /\
    (r_pass r = true <-> Forall2 (close (o_rtol o) (o_atol o)) (floatings c) (floatings b) /\
       ((r_total r = 0 /\ (0 <= o_ratio o)%Q) \/ (r_total r <> 0 /\ (inject_Z (Z.of_nat (r_mismatches r)) / inject_Z (Z.of_nat (r_total r)) <= o_ratio o)%Q))).
Proof.
  intro H. apply report_inv in H as (_ & Hf & _ & ds & HF & ->). exists ds. cbn [r_mismatches r_total r_pass].
  split; [exact HF|]. split; [apply trues_filter|]. split; [reflexivity|].
  rewrite andb_true_iff, ratio_spec, floats_pass by lia. reflexivity.
Qed.

Lemma close_equal t t' x y : (t == t')%Q -> close t t' x y <-> close t' t x y.
Proof. intro E. unfold close. split; intros (a & b & A & B & C); exists a, b; (split; [exact A|]); (split; [exact B|]); rewrite E in *; exact C. Qed.

Lemma Forall2_iff {A B} (P R : A -> B -> Prop) : (forall a b, P a b <-> R a b) -> forall l r, Forall2 P l r <-> Forall2 R l r.
Proof. intros H l r. split; induction 1; constructor; auto; now apply H. Qed.

(** ** The same outputs *)

Lemma alike_refl n : alike n n.
Proof.
  induction n as [t | l IH | d IH] using node_ind'; constructor.
  - induction IH; constructor; auto.
  - induction IH; constructor; auto.
Qed.

Lemma same_leaves b c : map norm b = map norm c -> leaves b = leaves c.
Proof. intro H. unfold leaves. rewrite <- !(map_map norm flat). now rewrite H. Qed.

Lemma allclose_refl l rt at_ : (0 <= rt)%Q -> (0 <= at_)%Q -> (forall x, In x l -> x <> None) -> allclose l l rt at_ = true.
Proof.
  intros Hr Ha H. induction l as [|x l IH]; [reflexivity|]. unfold allclose. cbn [combine forallb fst snd]. apply andb_true_intro. split.
  - destruct x as [x|]; [|exfalso; apply (H None); [now left | reflexivity]]. unfold isclose. apply Qle_bool_iff.
    setoid_replace (x - x)%Q with 0%Q by ring. change (Qabs 0) with 0%Q. rewrite <- (Qplus_0_r 0). apply Qplus_le_compat; [exact Ha|]. apply Qmult_le_0_compat; [exact Hr | apply Qabs_nonneg].
  - apply IH. intros y Hy. apply H. now right.
Qed.

Lemma all_differ_same bc j : snd j <> [] -> all_differ bc j j = Ok false.
Proof.
  intro H. unfold all_differ. destruct (list_eq_dec Nat.eq_dec (fst j) (fst j)) as [_|N]; [|congruence].
  destruct (snd j) as [|x l]; [congruence|]. cbn. now rewrite Z.eqb_refl.
Qed.

Lemma same_pass bc o b c : map norm b = map norm c -> (0 <= o_atol o)%Q -> (0 <= o_rtol o)%Q -> (0 <= o_ratio o)%Q ->
  (forall x, In x (floatings b) -> x <> None) -> (forall j, In j (discretes b) -> snd j <> []) ->
  exists r, make_report bc o b c = Ok r /\ r_pass r = true /\ r_mismatches r = 0.
Proof.
  intros He Ha Hr Hq Hf Hd. pose proof (same_leaves _ _ He) as HL.
  assert (Hfl : floatings c = floatings b) by (unfold floatings; now rewrite HL).
  assert (Hdl : discretes c = discretes b) by (unfold discretes; now rewrite HL).
  unfold make_report. unfold structure. rewrite <- He. rewrite (proj2 (skel_alike _ _) (alike_refl _)). rewrite Hfl, Hdl, !Nat.eqb_refl. cbn [negb].
  assert (HS : sequence (map (fun p => all_differ bc (fst p) (snd p)) (combine (discretes b) (discretes b))) = Ok (repeat false (List.length (discretes b)))).
  { clear - Hd. induction (discretes b) as [|j l IH]; [reflexivity|]. cbn. rewrite all_differ_same by (apply Hd; now left). cbn.
    rewrite IH by (intros; apply Hd; now right). reflexivity. }
  rewrite HS. cbn [rbind]. eexists. split; [reflexivity|]. cbn [r_pass r_mismatches].
  assert (HM : List.length (filter (fun b => b) (repeat false (List.length (discretes b)))) = 0).
  { clear. induction (List.length (discretes b)) as [|n IH]; [reflexivity | exact IH]. }
  rewrite HM. split; [|reflexivity]. apply andb_true_intro. split.
  - destruct (_ =? 0); [reflexivity|]. now apply allclose_refl.
  - unfold ratio_ok. apply Qle_bool_iff. destruct (List.length (discretes b)); [exact Hq|]. eapply Qle_trans; [|exact Hq]. unfold Qdiv. rewrite Qmult_0_l. apply Qle_refl.
Qed.

(** ** Tensors with one element *)

Lemma one_element bc o b c r : make_report bc o b c = Ok r ->
  Forall2 (fun j t => fst j = fst t /\ List.length (snd j) = 1 /\ List.length (snd t) = 1) (discretes b) (discretes c) ->
  exists ds, trues ds (r_mismatches r) /\ Forall2 (fun p d => d = true <-> snd (fst p) <> snd (snd p)) (combine (discretes b) (discretes c)) ds.
Proof.
  intros H HF. apply report_inv in H as (_ & _ & _ & ds & HD & ->). exists ds. split; [apply trues_filter|]. cbn [r_mismatches].
  revert ds HD. induction HF as [|j t l m (A & B & C) HF IH]; intros ds HD; inversion HD as [|p d ps ds' H1 H2]; subst; constructor; [|now apply IH].
  cbn [fst snd]. inversion H1; subst; cbn [fst snd] in *.
  - split; [|reflexivity]. intros _ E. match goal with H : forall i x y, nth_error ?a i = _ -> nth_error ?b i = _ -> _ |- _ => rewrite E in H; destruct b as [|z b']; [discriminate|]; apply (H 0 z z); reflexivity end.
  - split; [discriminate|]. intro N. exfalso. apply N.
    repeat match goal with L : list Z |- _ => destruct L as [|? [|]]; try discriminate end. destruct i as [|[|i]]; cbn in *; congruence.
  - congruence.
Qed.

(** ** Serving configs *)

Lemma inference_spec c f inputs o : inference_fn c f inputs = Ok o <-> infers c f inputs o.
Proof.
  unfold inference_fn. split.
  - destruct (c_pre c) as [p|] eqn:Ep.
    + destruct (p inputs) as [j|] eqn:Ej; cbn [rbind]; [|discriminate]. destruct (c_passthrough c) eqn:Et.
      * destruct j as [|[|j [|e [|]]]|]; cbn [rbind]; try discriminate. cbn [fst snd]. destruct (f j) as [y|] eqn:Ef; cbn [rbind]; [|discriminate].
        destruct (c_post c) as [q|] eqn:Eq.
        -- intro H. eapply in_pass_post; eassumption.
        -- intro H. injection H as <-. eapply in_pass; eassumption.
      * cbn [rbind fst snd]. destruct (f j) as [y|] eqn:Ef; cbn [rbind]; [|discriminate]. destruct (c_post c) as [q|] eqn:Eq.
        -- intro H. eapply in_both; eassumption.
        -- intro H. injection H as <-. eapply in_pre; eassumption.
    + destruct inputs as [|x [|]]; cbn [rbind]; try discriminate. cbn [fst snd]. destruct (f x) as [y|] eqn:Ef; cbn [rbind]; [|discriminate].
      destruct (c_post c) as [q|] eqn:Eq.
      * destruct (c_passthrough c) eqn:Et; [discriminate|]. intro H. eapply in_post; try eassumption. reflexivity.
      * intro H. injection H as <-. eapply in_plain; try eassumption. reflexivity.
  - intro H. destruct H as [x o H1 H2 H3 H4 | x o q y H1 H2 H3 H4 H5 H6 | p j o H1 H2 H3 H4 H5 | p j o q y H1 H2 H3 H4 H5 H6 | p j e o H1 H2 H3 H4 H5 | p j e o q y H1 H2 H3 H4 H5 H6]; rewrite H1.
    + rewrite H2. cbn [rbind fst snd]. rewrite H3. cbn [rbind]. now rewrite H4.
    + rewrite H2. cbn [rbind fst snd]. rewrite H3. cbn [rbind]. now rewrite H4, H5.
    + rewrite H3. cbn [rbind]. rewrite H2. cbn [rbind fst snd]. rewrite H4. cbn [rbind]. now rewrite H5.
    + rewrite H3. cbn [rbind]. rewrite H2. cbn [rbind fst snd]. rewrite H4. cbn [rbind]. now rewrite H5.
    + rewrite H3. cbn [rbind]. rewrite H2. cbn [rbind fst snd]. rewrite H4. cbn [rbind]. now rewrite H5.
    + rewrite H3. cbn [rbind]. rewrite H2. cbn [rbind fst snd]. rewrite H4. cbn [rbind]. now rewrite H5.
Qed.

Lemma make_config_spec c : make_config c = Ok c <-> good_config c.
Proof.
  unfold make_config, good_config. destruct (c_keys c) as [|k ks]; cbn [nonempty negb].
  - split; [discriminate|]. intros (H & _). congruence.
  - destruct (c_data c) as [|p ps] eqn:Ed; cbn [nonempty].
    + destruct (c_pre c), (c_pres c), (c_post c), (c_posts c); cbn; split; intro H; try discriminate; try reflexivity;
        try (repeat split; try congruence; auto; fail);
        destruct H as (_ & _ & [|] & [|]); congruence.
    + destruct (c_pre c), (c_pres c), (c_post c), (c_posts c); cbn [some nonempty orb]; split; intro H; try discriminate;
        try (destruct H as (_ & H & _); destruct (H ltac:(discriminate)) as (? & ? & ? & ? & ?); discriminate).
      * destruct (forallb _ _) eqn:E; [|discriminate]. rewrite forallb_forall in E.
        split; [discriminate|]; split; [|auto]; intros _; repeat (split; [reflexivity|]); intros x Hx; apply andb_prop, E, Hx.
      * destruct H as (_ & H & _). destruct (H ltac:(discriminate)) as (_ & _ & _ & _ & HP).
        replace (forallb _ _) with true; [reflexivity|]. symmetry. apply forallb_forall. intros x Hx. destruct (HP x Hx) as [-> ->]. reflexivity.
Qed.

Lemma make_config_err c e : make_config c = Err e -> e = ValueError.
Proof. unfold make_config. repeat match goal with |- context[if ?b then _ else _] => destruct b end; congruence. Qed.

Lemma make_config_id c d : make_config c = Ok d -> d = c.
Proof. unfold make_config. repeat match goal with |- context[if ?b then _ else _] => destruct b end; congruence. Qed.

(** ** The manager *)

Lemma puts_get {A} (v : A) : forall ks d k, dget String.eqb k (fold_left (fun d k => dput String.eqb k v d) ks d) = if in_dec string_dec k ks then Some v else dget String.eqb k d.
Proof.
  induction ks as [|x ks IH]; intros d k; cbn [fold_left]; [reflexivity|]. rewrite IH. rewrite (dget_dput String.eqb String.eqb_spec).
  destruct (in_dec string_dec k ks) as [H|H]; destruct (in_dec string_dec k (x :: ks)) as [H'|H']; cbn in H'; try tauto; destruct (String.eqb_spec k x); destruct (String.eqb_spec x k); subst; try tauto; try congruence.
Qed.

Lemma puts_nodup {A} (v : A) : forall ks d, NoDup (map fst d) -> NoDup (map fst (fold_left (fun d k => dput String.eqb k v d) ks d)).
Proof. induction ks as [|x ks IH]; intros d H; cbn [fold_left]; [exact H|]. apply IH. now apply (dput_nodup String.eqb String.eqb_spec). Qed.

Lemma update_get {A} : forall (e d : dict string A) k, NoDup (map fst e) -> dget String.eqb k (update d e) = match dget String.eqb k e with Some v => Some v | None => dget String.eqb k d end.
Proof.
  unfold update. induction e as [|[x v] e IH]; intros d k Hn; cbn [fold_left fst snd]; [reflexivity|].
  inversion Hn as [|? ? Hx Hn']; subst. rewrite IH by exact Hn'. rewrite (dget_dput String.eqb String.eqb_spec).
  cbn [dget]. destruct (dget String.eqb k e) as [w|] eqn:E.
  - destruct (String.eqb_spec k x) as [-> | N]; [|destruct (String.eqb_spec x k); [congruence|reflexivity]].
    exfalso. apply Hx. apply (dget_some_in String.eqb String.eqb_spec) in E. apply in_map_iff. now exists (x, w).
  - destruct (String.eqb_spec k x); destruct (String.eqb_spec x k); subst; congruence || reflexivity.
Qed.

Lemma fold_err {A B} (f : A -> B -> result A) : forall l e, fold_left (fun r x => rbind r (fun a => f a x)) l (Err e) = Err e.
Proof. induction l as [|x l IH]; intro e; cbn; [reflexivity | apply IH]. Qed.

Lemma bind_get c m d : bind c m = Ok d -> exists f, get_infer_step c m = Ok f /\ NoDup (map fst d) /\
  forall k, dget String.eqb k d = if in_dec string_dec k (c_keys c) then Some (fun x => inference_fn c f [x]) else None.
Proof.
  unfold bind. destruct (get_infer_step c m) as [f|] eqn:E; cbn; [|discriminate]. intro H. injection H as <-. exists f.
  split; [reflexivity|]. split; [apply puts_nodup; constructor|]. intro k. now rewrite puts_get.
Qed.

Lemma baseline_get m : forall configs d0 d, fold_left (fun r c => rbind r (fun d => rmap (update d) (bind c m))) configs (Ok d0) = Ok d ->
  forall k, (exists c f, last_with configs k c /\ get_infer_step c m = Ok f /\ dget String.eqb k d = Some (fun x => inference_fn c f [x])) \/
            ((forall c, In c configs -> ~ In k (c_keys c)) /\ dget String.eqb k d = dget String.eqb k d0).
Proof.
  induction configs as [|c configs IH]; intros d0 d H k; cbn [fold_left rbind] in H.
  - injection H as <-. right. split; [intros ? []|reflexivity].
  - destruct (bind c m) as [e|err] eqn:E; cbn [rmap] in H.
    2: { rewrite (fold_err (fun d c => rmap (update d) (bind c m))) in H. discriminate. }
    destruct (IH _ _ H k) as [(c' & f & (l & r & Hc & Hk & Hr) & Hf & Hd) | (Hn & Hd)].
    + left. exists c', f. split; [|split; assumption]. exists (c :: l), r. split; [now rewrite Hc|]. split; assumption.
    + destruct (bind_get _ _ _ E) as (f & Hf & He & Hg). rewrite update_get in Hd by exact He. rewrite Hg in Hd.
      destruct (in_dec string_dec k (c_keys c)) as [Hk|Hk].
      * left. exists c, f. split; [|split; assumption]. exists [], configs. split; [reflexivity|]. split; assumption.
      * right. split; [|exact Hd]. intros c' [<-|Hc]; [exact Hk | now apply Hn].
Qed.

Lemma last_unique configs k c c' : last_with configs k c -> last_with configs k c' -> c = c'.
Proof.
  intros (l & r & E & Hk & Hr) (l' & r' & E' & Hk' & Hr'). subst configs.
  revert l' E'. induction l as [|x l IH]; intros [|y l'] E'; cbn in E'; injection E' as E1 E2; subst.
  - reflexivity.
  - exfalso. apply (Hr c'); [apply in_or_app; right; now left | exact Hk'].
  - exfalso. apply (Hr' c); [apply in_or_app; right; now left | exact Hk].
  - eapply IH. exact E2.
Qed.

Section Steps.
Context (fns : dict string (node -> result node)) (one : string -> (node -> result node) -> result report).

Lemma run_get : forall ks d0 d, fold_left (fun r k => rbind r (fun d => rbind (match dget String.eqb k fns with Some f => Ok f | None => Err KeyError end) (fun f => rmap (fun x => dput String.eqb k x d) (one k f)))) ks (Ok d0) = Ok d ->
  (NoDup (map fst d0) -> NoDup (map fst d)) /\ (forall k, In k (map fst d) <-> In k ks \/ In k (map fst d0)) /\
  forall k, (exists f x, In k ks /\ dget String.eqb k fns = Some f /\ one k f = Ok x /\ dget String.eqb k d = Some x) \/ (~ In k ks /\ dget String.eqb k d = dget String.eqb k d0).
Proof.
  induction ks as [|k0 ks IH]; intros d0 d H; cbn [fold_left rbind] in H.
  - injection H as <-. split; [tauto|]. split; [cbn; tauto|]. intro k. right. cbn. tauto.
  - destruct (dget String.eqb k0 fns) as [f|] eqn:Ef; cbn [rbind] in H.
    2: { rewrite (fold_err (fun d k => rbind (match dget String.eqb k fns with Some f => Ok f | None => Err KeyError end) (fun f => rmap (fun x => dput String.eqb k x d) (one k f)))) in H. discriminate. }
    destruct (one k0 f) as [x|] eqn:Ex; cbn [rmap] in H.
    2: { rewrite (fold_err (fun d k => rbind (match dget String.eqb k fns with Some f => Ok f | None => Err KeyError end) (fun f => rmap (fun x => dput String.eqb k x d) (one k f)))) in H. discriminate. }
    destruct (IH _ _ H) as (A & B & C). split; [|split].
    + intro N. apply A. now apply (dput_nodup String.eqb String.eqb_spec).
    + intro k. rewrite B, (dput_keys String.eqb String.eqb_spec). cbn. intuition congruence.
    + intro k. destruct (C k) as [(f' & x' & H1 & H2 & H3 & H4) | (H1 & H2)].
      * left. exists f', x'. cbn. tauto.
      * rewrite (dget_dput String.eqb String.eqb_spec) in H2. destruct (String.eqb_spec k k0) as [-> | N].
        -- left. exists f, x. cbn. tauto.
        -- right. cbn. intuition congruence.
Qed.
End Steps.

Lemma fold_left_ext {A B} (f g : A -> B -> A) : (forall a b, f a b = g a b) -> forall l a, fold_left f l a = fold_left g l a.
Proof. intros H. induction l as [|x l IH]; intro a; cbn; [reflexivity|]. rewrite H. apply IH. Qed.

Lemma rbind_rmap {A B C} (r : result A) (g : A -> result B) (h : B -> C) : rmap h (rbind r g) = rbind r (fun x => rmap h (g x)).
Proof. destruct r; reflexivity. Qed.

Lemma validate_get bc o configs m loaded inputs d : validate bc o configs m loaded inputs = Ok d ->
  NoDup (map fst d) /\ (forall k, In k (map fst d) <-> exists c, In c configs /\ In k (c_keys c)) /\
  forall k c, last_with configs k c -> exists f l r, get_infer_step c m = Ok f /\ inputs_of inputs k = Ok l /\
    validate_one bc o (fun x => inference_fn c f [x]) (candidate_fn loaded k) l = Ok r /\ dget String.eqb k d = Some r.
Proof.
  unfold validate. destruct (create_baseline_fns configs m) as [fns|] eqn:E; cbn [rbind]; [|discriminate]. intro H.
  rewrite (fold_left_ext _ (fun r k => rbind r (fun d => rbind (match dget String.eqb k fns with Some f => Ok f | None => Err KeyError end) (fun f => rmap (fun x => dput String.eqb k x d) ((fun k f => rbind (inputs_of inputs k) (fun l => validate_one bc o f (candidate_fn loaded k) l)) k f))))) in H.
  2: { intros [a|e] k; cbn [rbind]; [|reflexivity]. destruct (dget String.eqb k fns); cbn [rbind]; [|reflexivity]. now rewrite rbind_rmap. }
  apply run_get in H as (A & B & C). split; [apply A; constructor|]. split.
  - intro k. rewrite B. split.
    + intros [Hk|[]]. apply in_concat in Hk as (ks & Hks & Hk). apply in_map_iff in Hks as (c & <- & Hc). now exists c.
    + intros (c & Hc & Hk). left. apply in_concat. exists (c_keys c). split; [now apply in_map | exact Hk].
  - intros k c Hl. assert (Hk : In k (List.concat (map c_keys configs))).
    { destruct Hl as (l & r & -> & Hk & _). apply in_concat. exists (c_keys c). split; [apply in_map, in_or_app; right; now left | exact Hk]. }
    destruct (C k) as [(f & x & _ & Hf & Ho & Hd) | (N & _)]; [|tauto].
    destruct (baseline_get m configs [] fns E k) as [(c' & f' & Hl' & Hs & Hg) | (N & _)].
    2: { destruct Hl as (l & r & -> & Hk' & _). exfalso. apply (N c); [apply in_or_app; right; now left | exact Hk']. }
    rewrite (last_unique _ _ _ _ Hl Hl') in *. rewrite Hg in Hf. injection Hf as <-. destruct (inputs_of inputs k) as [l|] eqn:Ei; cbn [rbind] in Ho; [|discriminate].
    exists f', l, x. tauto.
Qed.

(** ** Jobs *)

Lemma validate_one_inv bc o f g inputs r : validate_one bc o f g inputs = Ok r ->
  inputs <> [] /\ exists b c b' c', Forall2 (fun x y => f x = Ok y) inputs b /\ Forall2 (fun x y => g x = Ok y) inputs c /\
    Forall2 (fun x y => convert x = Ok y) b b' /\ Forall2 (fun x y => convert x = Ok y) c c' /\ make_report bc o b' c' = Ok r.
Proof.
  assert (HS : forall (h : node -> result node) l r, sequence (map h l) = Ok r -> Forall2 (fun x y => h x = Ok y) l r).
  { intro h. induction l as [|x l IH]; intros s H; cbn in H; [injection H as <-; constructor|].
    destruct (h x) as [y|] eqn:E; cbn in H; [|discriminate]. destruct (sequence _) as [ys|] eqn:E2; cbn in H; [|discriminate].
    injection H as <-. constructor; auto. }
  unfold validate_one, calc_result. destruct inputs as [|x l]; [discriminate|].
  destruct (f x) as [y|] eqn:Ef; cbn [rbind]; [|discriminate].
  destruct (sequence (map f (x :: l))) as [b|] eqn:Eb; cbn [rbind]; [|discriminate].
  destruct (g x) as [z|] eqn:Eg; cbn [rbind]; [|discriminate].
  destruct (sequence (map g (x :: l))) as [c|] eqn:Ec; cbn [rbind]; [|discriminate].
  destruct (sequence (map convert b)) as [b'|] eqn:Eb'; cbn [rbind]; [|discriminate].
  destruct (sequence (map convert c)) as [c'|] eqn:Ec'; cbn [rbind]; [|discriminate].
  destruct (check_output b' c') as [[]|]; cbn [rbind]; [|discriminate]. intro H.
  split; [discriminate|]. exists b, c, b', c'. auto 8.
Qed.

Lemma seq_f2 (h : node -> result node) : forall l r, Forall2 (fun x y => h x = Ok y) l r -> sequence (map h l) = Ok r.
Proof. induction 1 as [|x y l r E H IH]; cbn; [reflexivity|]. rewrite E, IH. reflexivity. Qed.

Lemma faithful bc o f g inputs b b' d0 r0 :
  inputs <> [] -> (forall x, In x inputs -> g x = f x) -> Forall2 (fun x y => f x = Ok y) inputs b -> Forall2 (fun x y => convert x = Ok y) b b' -> b' = NDict d0 :: r0 -> (forall kv, In kv d0 -> exists t, snd kv = NLeaf t) ->
  (0 <= o_atol o)%Q -> (0 <= o_rtol o)%Q -> (0 <= o_ratio o)%Q -> (forall x, In x (floatings b') -> x <> None) -> (forall j, In j (discretes b') -> snd j <> []) ->
  exists r, validate_one bc o f g inputs = Ok r /\ r_pass r = true /\ r_mismatches r = 0.
Proof.
  intros Hi Hg Hf Hc Hb Hd Ha Hr Hq Hn He.
  assert (Hg' : Forall2 (fun x y => g x = Ok y) inputs b).
  { clear - Hg Hf. induction Hf as [|x y l r E H IH]; constructor; [rewrite Hg by (now left); exact E | apply IH; intros; apply Hg; now right]. }
  destruct (same_pass bc o b' b' eq_refl Ha Hr Hq Hn He) as (r & E & P). exists r. split; [|exact P].
  assert (CR : forall h, Forall2 (fun x y => h x = Ok y) inputs b -> calc_result h inputs = Ok b).
  { intros h H. unfold calc_result. destruct inputs as [|x l]; [congruence|]. rewrite (seq_f2 _ _ _ H). inversion H as [|? ? ? ? E1]; subst. rewrite E1. reflexivity. }
  unfold validate_one. rewrite (CR f Hf), (CR g Hg'). cbn [rbind]. rewrite (seq_f2 _ _ _ Hc). cbn [rbind].
  replace (check_output b' b') with (Ok tt); [exact E|]. unfold check_output. rewrite Hb at 1. rewrite Nat.eqb_refl. unfold is_flat_dict.
  replace (forallb _ d0) with true; [reflexivity|]. symmetry. apply forallb_forall. intros kv Hkv. destruct (Hd kv Hkv) as (t & ->). reflexivity.
Qed.
