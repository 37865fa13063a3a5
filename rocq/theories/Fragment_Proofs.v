(** Proofs about fragments (C23, C24). *)
From Coq Require FinFun.
From Coq Require Import ZArith List Bool Lia.
From Verif Require Import Base Nd_Model Fragment_Model Fragment_Spec.
Import ListNotations.
Local Open Scope Z_scope.

Ltac spl := repeat match goal with |- _ /\ _ => split end.

Lemma NoDup_app_intro_local : forall {A} (a b : list A), NoDup a -> NoDup b ->
  (forall x, In x a -> In x b -> False) -> NoDup (a ++ b).
Proof.
  intros A a b Ha Hb. induction Ha; simpl; intros H0; auto. constructor.
  - intros X. apply in_app_iff in X as [X|X]; [contradiction|]. apply (H0 x); simpl; auto.
  - apply IHHa. intros y X Y. apply (H0 y); simpl; auto.
Qed.

(* ------------------------------------------------------------ dimensions *)
Lemma extent_spec : forall s k, 1 <= sl_step s -> 0 <= k ->
  (k < extent s <-> sl_start s + k * sl_step s < sl_stop s).
Proof.
  intros [a b t] k; unfold extent; simpl; intros Ht Hk.
  assert (E : k + 1 <= (b - a + (t - 1)) / t <-> t * (k + 1) <= b - a + (t - 1)).
  { split; intros.
    - pose proof (Z.mul_div_le (b - a + (t - 1)) t ltac:(lia)). nia.
    - apply Z.div_le_lower_bound; lia. }
  split; intros; [assert (t * (k + 1) <= b - a + (t - 1)) by (apply E; lia)|assert (k + 1 <= (b - a + (t - 1)) / t) by (apply E; nia)]; nia.
Qed.

Lemma extent_nonneg : forall s, 1 <= sl_step s -> sl_start s <= sl_stop s -> 0 <= extent s.
Proof. intros. unfold extent. apply Z.div_pos; lia. Qed.

Lemma extent_unit : forall s, sl_step s = 1 -> extent s = sl_stop s - sl_start s.
Proof. intros s E. unfold extent. rewrite E. rewrite Z.div_1_r. lia. Qed.

Lemma selects_unit : forall s x, sl_step s = 1 -> (selects s x <-> sl_start s <= x < sl_stop s).
Proof.
  intros s x E. unfold selects. rewrite E. split.
  - intros (k & A & B & C). lia.
  - intros. exists (x - sl_start s). lia.
Qed.

Lemma hits_spec : forall s x, 1 <= sl_step s -> (hits s x = true <-> selects s x).
Proof.
  intros s x Ht. unfold hits, selects. rewrite !andb_true_iff, Z.leb_le, Z.ltb_lt, Z.eqb_eq. split.
  - intros ((A & B) & C). exists ((x - sl_start s) / sl_step s).
    pose proof (Z.div_mod (x - sl_start s) (sl_step s) ltac:(lia)). rewrite C in H.
    split. apply Z.div_pos; lia. nia.
  - intros (k & A & B & C). subst x. spl; try nia.
    replace (sl_start s + k * sl_step s - sl_start s) with (k * sl_step s) by lia.
    apply Z_mod_mult.
Qed.

Lemma selects_pos : forall s x, 1 <= sl_step s -> selects s x ->
  0 <= (x - sl_start s) / sl_step s < extent s /\
  sl_start s + (x - sl_start s) / sl_step s * sl_step s = x.
Proof.
  intros s x Ht (k & A & B & C). subst x.
  replace (sl_start s + k * sl_step s - sl_start s) with (k * sl_step s) by lia.
  rewrite Z.div_mul by lia. split; auto. split; auto. apply extent_spec; auto.
Qed.

(* ----------------------------------------------------- lists of dimensions *)
Definition okdims (idx : list sl) : Prop := Forall (fun s => 1 <= sl_step s /\ sl_start s <= sl_stop s) idx.

Lemma Forall2_len : forall {A B} (R : A -> B -> Prop) l1 l2, Forall2 R l1 l2 -> List.length l1 = List.length l2.
Proof. intros. induction H; simpl; auto. Qed.

Lemma Forall2_impl : forall {A B} (R Q : A -> B -> Prop), (forall a b, R a b -> Q a b) ->
  forall l1 l2, Forall2 R l1 l2 -> Forall2 Q l1 l2.
Proof. intros A B R Q I l1 l2 H. induction H; constructor; auto. Qed.

Lemma point_length : forall idx ks, List.length ks = List.length idx -> List.length (point idx ks) = List.length idx.
Proof. induction idx; destruct ks; simpl; intros; auto; discriminate. Qed.

Lemma inside_length : forall sh c, inside sh c -> List.length c = List.length sh.
Proof. intros. symmetry. eapply Forall2_len; eauto. Qed.

Lemma covers_length : forall sh c, covers sh c -> List.length c = List.length sh.
Proof. intros. symmetry. eapply Forall2_len; eauto. Qed.

(** Positions inside the extent are exactly the covered coordinates. *)
Lemma point_covers : forall idx ks, okdims idx -> inside (map extent idx) ks -> covers idx (point idx ks).
Proof.
  intros idx ks O H. revert ks H. induction O as [|s idx (Ht & _) O IH]; intros ks H; inversion H; subst; simpl; constructor.
  - exists y. split. lia. split; auto. apply extent_spec; lia.
  - apply IH; auto.
Qed.

Fixpoint position (idx : list sl) (c : list Z) : list Z :=
  match idx, c with
  | s :: idx', x :: c' => (x - sl_start s) / sl_step s :: position idx' c'
  | _, _ => []
  end.

Lemma position_spec : forall idx c, okdims idx -> covers idx c ->
  inside (map extent idx) (position idx c) /\ point idx (position idx c) = c.
Proof.
  intros idx c O H. revert O. induction H as [|s x idx c Hs H IH]; intros O; simpl.
  - split; [constructor|auto].
  - inversion O as [|? ? (Ht & _) O']; subst. destruct (IH O') as [A B]. apply selects_pos in Hs as [P Q]; auto.
    split. constructor; auto. rewrite B, Q. auto.
Qed.

Lemma position_point : forall idx ks, okdims idx -> List.length ks = List.length idx -> position idx (point idx ks) = ks.
Proof.
  intros idx ks O. revert ks. induction O as [|s idx (Ht & _) O IH]; destruct ks; simpl; intros; auto; try discriminate.
  replace (sl_start s + z * sl_step s - sl_start s) with (z * sl_step s) by lia.
  rewrite Z.div_mul by lia. rewrite IH; auto.
Qed.

Lemma point_inj : forall idx k1 k2, okdims idx -> List.length k1 = List.length idx -> List.length k2 = List.length idx ->
  point idx k1 = point idx k2 -> k1 = k2.
Proof. intros. rewrite <- (position_point idx k1), <- (position_point idx k2) by auto. congruence. Qed.

(* ---------------------------------------------------------- numpy indexing *)
Lemma py_bound_id : forall n a, 0 <= a <= n -> py_bound n a = a.
Proof. intros. unfold py_bound. destruct (Z.ltb_spec a 0); lia. Qed.

Lemma clip_within : forall shape idx, within shape idx -> map2 clip shape idx = idx.
Proof.
  intros. induction H as [|n [a b t] shape idx (A & B & C & D) H IH]; simpl in *; auto.
  rewrite IH. unfold clip; simpl. rewrite !py_bound_id by lia. auto.
Qed.

Lemma within_okdims : forall shape idx, within shape idx -> okdims idx.
Proof. intros. induction H as [|n s shape idx (A & B & C & D) H IH]; constructor; auto. Qed.

Lemma count_extent : forall idx, okdims idx -> map sl_count idx = map extent idx.
Proof.
  intros. apply map_ext_in. intros s Hs. unfold okdims in H. rewrite Forall_forall in H. destruct (H s Hs).
  unfold sl_count. pose proof (extent_nonneg s H0 H1). unfold extent in *. lia.
Qed.

Lemma map2_point : forall idx ks, map2 (fun s x => sl_start s + x * sl_step s) idx ks = point idx ks.
Proof. induction idx; destruct ks; simpl; auto. rewrite IHidx; auto. Qed.

Lemma map2_position : forall idx ks, map2 (fun s x => (x - sl_start s) / sl_step s) idx ks = position idx ks.
Proof. induction idx; destruct ks; simpl; auto. rewrite IHidx; auto. Qed.

Lemma all2_hits : forall idx c, okdims idx -> List.length c = List.length idx -> (all2 hits idx c = true <-> covers idx c).
Proof.
  intros idx c O. revert c. induction O as [|s idx (Ht & _) O IH]; destruct c; simpl; intros L; try discriminate.
  - split; auto. constructor.
  - rewrite andb_true_iff, hits_spec, IH by (auto; lia). split.
    + intros []. constructor; auto.
    + intros H. inversion H; subst; auto.
Qed.

Lemma shape_eqb_eq : forall a b, shape_eqb a b = true <-> a = b.
Proof.
  induction a; destruct b; simpl; split; intros; auto; try discriminate.
  - apply andb_true_iff in H as [A B]. apply Z.eqb_eq in A. apply IHa in B. congruence.
  - injection H as <- <-. rewrite Z.eqb_refl. simpl. apply IHa. auto.
Qed.

Lemma getitem_within : forall {V} (a : arr V) idx, within (ashape a) idx ->
  exists b, getitem a idx = Ok b /\ ashape b = map extent idx /\
    forall ks, List.length ks = List.length idx -> aget b ks = aget a (point idx ks).
Proof.
  intros V a idx W. unfold getitem. pose proof (Forall2_len _ _ _ W) as L.
  rewrite L, Nat.ltb_irrefl. rewrite clip_within by auto.
  eexists. split; [reflexivity|]. simpl. rewrite skipn_all2 by lia. rewrite app_nil_r.
  split. apply count_extent. eapply within_okdims; eauto.
  intros ks Lk. rewrite map2_point, skipn_all2 by lia. rewrite app_nil_r. auto.
Qed.

Lemma setitem_within : forall {V} (a v : arr V) idx, within (ashape a) idx -> ashape v = map extent idx ->
  exists b, setitem a idx v = Ok b /\ ashape b = ashape a /\
    forall c, List.length c = List.length idx ->
      (covers idx c -> aget b c = aget v (position idx c)) /\
      (~ covers idx c -> aget b c = aget a c).
Proof.
  intros V a v idx W E. pose proof (within_okdims _ _ W) as O. unfold setitem.
  rewrite (Forall2_len _ _ _ W), Nat.eqb_refl. cbn [negb]. rewrite clip_within by auto.
  rewrite count_extent, <- E by auto.
  replace (shape_eqb (ashape v) (ashape v)) with true by (symmetry; apply shape_eqb_eq; auto). cbn [negb].
  eexists. split; [reflexivity|]. split; [reflexivity|]. intros c Lc. simpl.
  pose proof (all2_hits idx c O Lc) as AH. rewrite map2_position.
  destruct (all2 hits idx c); split; intros H; auto.
  - exfalso. apply H. apply AH. auto.
  - apply AH in H. discriminate.
Qed.

Lemma setitem_all_within : forall {V} (a : arr V) idx x, within (ashape a) idx ->
  exists b, setitem_all a idx x = Ok b /\ ashape b = ashape a /\
    forall c, List.length c = List.length idx ->
      (covers idx c -> aget b c = x) /\ (~ covers idx c -> aget b c = aget a c).
Proof.
  intros V a idx x W. pose proof (within_okdims _ _ W) as O. unfold setitem_all.
  rewrite (Forall2_len _ _ _ W), Nat.eqb_refl. cbn [negb]. rewrite clip_within by auto.
  eexists. split; [reflexivity|]. split; [reflexivity|]. intros c Lc. simpl.
  pose proof (all2_hits idx c O Lc) as AH.
  destruct (all2 hits idx c); split; intros H; auto.
  - exfalso. apply H. apply AH. auto.
  - apply AH in H. discriminate.
Qed.

(* ---------------------------------------------------------------- holds *)
Section Frag.
Context {V : Type}.
Implicit Types f g : frag V.

Lemma wf_okdims : forall f, well_formed f -> okdims (f_index f).
Proof. intros f [H _]. exact H. Qed.

Lemma holds_covers : forall f c v, well_formed f -> holds f c v -> covers (f_index f) c.
Proof.
  intros f c v [O S] (a & ks & Ev & I & P & _). subst c. apply point_covers; auto.
  rewrite <- (S a Ev). auto.
Qed.

Lemma covers_holds : forall f a c, well_formed f -> f_value f = Some a -> covers (f_index f) c ->
  holds f c (aget a (position (f_index f) c)).
Proof.
  intros f a c [O S] Ev C. destruct (position_spec _ _ O C) as [A B].
  exists a, (position (f_index f) c). rewrite (S a Ev). auto.
Qed.

Lemma holds_fun : forall f c v w, well_formed f -> holds f c v -> holds f c w -> v = w.
Proof.
  intros f c v w [O S] (a & k1 & E1 & I1 & P1 & G1) (b & k2 & E2 & I2 & P2 & G2).
  rewrite E1 in E2. injection E2 as <-. rewrite (S a E1) in *.
  apply inside_length in I1, I2. rewrite map_length in *.
  rewrite <- G1, <- G2. f_equal. eapply point_inj; eauto; congruence.
Qed.

(* ------------------------------------------------------------ intersection *)
Definition meet (idx fi : list sl) : list sl :=
  map2 (fun s t => mk_sl (Z.max (sl_start s) (sl_start t))
                         (Z.min (sl_stop s) (sl_stop t)) (sl_step s)) idx fi.

Lemma existsb_step : forall idx, unit_steps idx -> existsb (fun s => negb (sl_step s =? 1)) idx = false.
Proof. intros idx H. induction H; simpl; auto. rewrite H, Z.eqb_refl. auto. Qed.

Lemma covers_cons : forall s idx x c, covers (s :: idx) (x :: c) <-> selects s x /\ covers idx c.
Proof. intros; split; intros H. inversion H; subst; auto. destruct H; constructor; auto. Qed.

Lemma covers_nil_r : forall s idx, ~ covers (s :: idx) [].
Proof. intros s idx H. inversion H. Qed.

Lemma meet_cons : forall s idx t fi, meet (s :: idx) (t :: fi) =
  mk_sl (Z.max (sl_start s) (sl_start t)) (Z.min (sl_stop s) (sl_stop t)) (sl_step s) :: meet idx fi.
Proof. reflexivity. Qed.

Lemma meet_covers : forall idx fi c, unit_steps idx -> unit_steps fi -> List.length fi = List.length idx ->
  (covers (meet idx fi) c <-> covers fi c /\ covers idx c).
Proof.
  intros idx fi c U. revert fi c. induction U as [|s idx Us U IH]; intros [|t fi] c U2 L; simpl in L; try discriminate.
  - split; [intros H; inversion H; split; constructor|intros [H _]; inversion H; constructor].
  - inversion U2; subst. injection L as L. destruct c as [|x c].
    { split; [intros H; inversion H|intros [H _]; inversion H]. }
    rewrite meet_cons, !covers_cons, IH by auto. rewrite !selects_unit by auto. simpl. intuition lia.
Qed.

Lemma meet_unit : forall idx fi, unit_steps idx -> unit_steps (meet idx fi).
Proof. intros idx fi U. revert fi. induction U; intros [|t fi]; simpl; constructor; auto; apply IHU. Qed.

Lemma meet_length : forall idx fi, List.length fi = List.length idx -> List.length (meet idx fi) = List.length idx.
Proof. induction idx; destruct fi; simpl; intros; auto; try discriminate; f_equal; try (apply IHidx; lia). Qed.

Lemma nonempty_covers : forall idx, unit_steps idx ->
  (forallb (fun s => sl_start s <? sl_stop s) idx = true <-> exists c, covers idx c).
Proof.
  intros idx U. induction U as [|s idx Us U IH]; simpl.
  - split; auto. intros _. exists []. constructor.
  - rewrite andb_true_iff, Z.ltb_lt. split.
    + intros [A B]. apply IH in B as (c & C). exists (sl_start s :: c). constructor; auto. apply selects_unit; auto. lia.
    + intros (c & C). inversion C; subst. apply selects_unit in H1; auto. split. lia. apply IH. eauto.
Qed.

Lemma meet_within : forall idx fi, unit_steps idx -> unit_steps fi -> okdims fi -> List.length fi = List.length idx ->
  forallb (fun s => sl_start s <? sl_stop s) (meet idx fi) = true ->
  within (map extent fi) (offset_index (meet idx fi) (map Z.opp (map sl_start fi))).
Proof.
  intros idx fi U. revert fi. induction U as [|s idx Us U IH]; intros [|t fi] U2 O L N; simpl in *; try discriminate; constructor.
  - apply andb_true_iff in N as [N _]. apply Z.ltb_lt in N. inversion U2; subst.
    rewrite extent_unit by auto. simpl. lia.
  - apply andb_true_iff in N as [_ N]. inversion U2; inversion O; subst. apply IH; auto.
Qed.

Lemma within_checks : forall sh idx, within sh idx ->
  existsb (fun s => sl_start s <? 0) idx = false /\ all2 (fun s n => sl_stop s <=? n) idx sh = true.
Proof.
  intros. induction H as [|n s sh idx (A & B & C & D) H [IH1 IH2]]; simpl; auto.
  rewrite IH1, IH2. split.
  - destruct (Z.ltb_spec (sl_start s) 0); auto; lia.
  - destruct (Z.leb_spec (sl_stop s) n); auto; lia.
Qed.

Lemma offset_length : forall idx d, List.length d = List.length idx -> List.length (offset_index idx d) = List.length idx.
Proof. unfold offset_index. induction idx; destruct d; simpl; intros; auto; try discriminate; f_equal; try (apply IHidx; lia). Qed.

Lemma offset_extent : forall idx d, List.length d = List.length idx -> map extent (offset_index idx d) = map extent idx.
Proof.
  unfold offset_index. induction idx; destruct d; simpl; intros; auto; try discriminate.
  rewrite IHidx by lia. f_equal. unfold extent; simpl. f_equal. lia.
Qed.

(** The position in the fragment of a position in the offset index. *)
Lemma point_offset : forall fi out ks, unit_steps fi -> unit_steps out ->
  List.length fi = List.length out -> List.length ks = List.length out ->
  point fi (point (offset_index out (map Z.opp (map sl_start fi))) ks) = point out ks.
Proof.
  unfold offset_index. induction fi as [|s fi IH]; intros [|t out] [|k ks] U1 U2 L1 L2; simpl in *; auto; try discriminate.
  inversion U1; inversion U2; subst. rewrite IH by (auto; lia). f_equal. rewrite H1, H5. lia.
Qed.

Lemma inside_point : forall sh idx ks, within sh idx -> inside (map extent idx) ks -> inside sh (point idx ks).
Proof.
  intros sh idx ks W. revert ks. induction W as [|n s sh idx (A & B & C & D) W IH]; intros ks H; inversion H; subst; simpl; constructor.
  - assert (sl_start s + y * sl_step s < sl_stop s). { apply extent_spec; lia. } nia.
  - apply IH; auto.
Qed.

Lemma unit_within_okdims : forall idx, unit_steps idx -> forallb (fun s => sl_start s <? sl_stop s) idx = true -> okdims idx.
Proof.
  intros idx U. induction U; simpl; intros N; constructor; auto.
  - apply andb_true_iff in N as [N _]. apply Z.ltb_lt in N. lia.
  - apply andb_true_iff in N as [_ N]. apply IHU; auto.
Qed.

(** Taking a sub-box of the value of a unit-step fragment. *)
Lemma sub_value : forall f a out b,
  well_formed f -> unit_steps (f_index f) -> f_value f = Some a -> unit_steps out -> okdims out ->
  List.length (f_index f) = List.length out ->
  (forall c, covers out c -> covers (f_index f) c) ->
  getitem a (offset_index out (map Z.opp (map sl_start (f_index f)))) = Ok b ->
  within (ashape a) (offset_index out (map Z.opp (map sl_start (f_index f)))) ->
  well_formed (mk_frag out (Some b)) /\
  (forall c v, holds (mk_frag out (Some b)) c v <-> holds f c v /\ covers out c).
Proof.
  intros f a out b WF U Ev Uo Oo L Sub G W.
  destruct (getitem_within _ _ W) as (b' & G' & Sb & Ab). rewrite G in G'. injection G' as <-.
  assert (Lo : List.length (map Z.opp (map sl_start (f_index f))) = List.length out) by (rewrite !map_length; auto).
  assert (WF' : well_formed (mk_frag out (Some b))).
  { split; simpl; auto. intros ? E. injection E as <-. rewrite Sb, offset_extent; auto. }
  split; auto. intros c v. split.
  - intros Hh. pose proof (holds_covers _ _ _ WF' Hh) as C. split; auto.
    destruct Hh as (b0 & ks & E & I & P & A). simpl in *. injection E as <-.
    exists a, (point (offset_index out (map Z.opp (map sl_start (f_index f)))) ks).
    assert (Lk : List.length ks = List.length out).
    { apply inside_length in I. rewrite Sb, map_length, offset_length in I; auto. }
    spl; auto.
    + apply inside_point; auto. rewrite <- Sb. auto.
    + rewrite point_offset; auto.
    + rewrite <- Ab; auto. rewrite offset_length; auto.
  - intros [Hh C]. pose proof (covers_holds (mk_frag out (Some b)) b c WF' eq_refl C) as Hb. simpl in Hb.
    replace v with (aget b (position out c)); auto.
    apply holds_fun with (f := f) (c := c); auto.
    destruct (position_spec _ _ Oo C) as [I P].
    exists a, (point (offset_index out (map Z.opp (map sl_start (f_index f)))) (position out c)).
    assert (Lk : List.length (position out c) = List.length out).
    { apply inside_length in I. rewrite map_length in I. auto. }
    spl; auto.
    + apply inside_point; auto. rewrite offset_extent; auto.
    + rewrite point_offset; auto.
    + rewrite <- Ab; auto. rewrite offset_length; auto.
Qed.

Lemma intersect_spec : forall f idx, well_formed f -> unit_steps (f_index f) -> unit_steps idx ->
  List.length (f_index f) = List.length idx ->
  exists r, intersect f idx = Ok r /\
  match r with
  | None => forall c, ~ (covers (f_index f) c /\ covers idx c)
  | Some g =>
      well_formed g /\ unit_steps (f_index g) /\ (concrete g <-> concrete f) /\
      (exists c, covers (f_index g) c) /\
      (forall c, covers (f_index g) c <-> covers (f_index f) c /\ covers idx c) /\
      (forall c v, holds g c v <-> holds f c v /\ covers idx c)
  end.
Proof.
  intros f idx WF U Ui L. unfold intersect. rewrite !existsb_step by auto. cbn [orb].
  rewrite L, Nat.eqb_refl. cbn [negb]. fold (meet idx (f_index f)).
  destruct (forallb (fun s => sl_start s <? sl_stop s) (meet idx (f_index f))) eqn:N; cbn [negb].
  2:{ eexists. split; [reflexivity|]. intros c C. apply meet_covers in C; auto.
      assert (exists c, covers (meet idx (f_index f)) c) by eauto.
      apply nonempty_covers in H; [congruence|]. apply meet_unit; auto. }
  pose proof (meet_unit idx (f_index f) Ui) as Um.
  pose proof (unit_within_okdims _ Um N) as Om.
  pose proof (proj1 (nonempty_covers _ Um) N) as NE.
  pose proof (meet_within idx (f_index f) Ui U (wf_okdims _ WF) L N) as W.
  unfold slice_of_value. destruct (f_value f) as [a|] eqn:Ev.
  - unfold f_start. destruct WF as [O S]. rewrite <- (S a Ev) in W.
    destruct (within_checks _ _ W) as [C1 C2]. rewrite C1, C2. cbn [orb negb].
    destruct (getitem_within _ _ W) as (b & G & Sb & Ab). rewrite G. cbn [rmap].
    eexists. split; [reflexivity|].
    destruct (sub_value f a (meet idx (f_index f)) b) as [WF' HH]; auto.
    { split; auto. } { rewrite meet_length; auto. } { intros c C. apply meet_covers in C as [C _]; auto. }
    spl; auto.
    + unfold concrete; rewrite Ev; simpl; split; congruence.
    + intros c. apply meet_covers; auto.
    + intros c v. rewrite HH, meet_covers by auto. split; intros H; spl; try apply H.
      destruct H. eapply holds_covers; eauto. split; auto.
  - cbn [rmap]. eexists. split; [reflexivity|]. cbv iota. spl; auto.
    + split; [exact Om|intros ? E; discriminate E].
    + unfold concrete; rewrite Ev; simpl; split; congruence.
    + intros c. apply meet_covers; auto.
    + intros c v. split; [intros (x & ? & E & _); discriminate|intros [(x & ? & E & _) _]; congruence].
Qed.

(* ------------------------------------------------------------------ slice *)
Lemma offset_covers : forall idx base c, List.length base = List.length idx -> List.length c = List.length idx ->
  (covers (offset_index idx (map Z.opp (map sl_start base))) (relative base c) <-> covers idx c).
Proof.
  unfold offset_index. induction idx as [|s idx IH]; intros [|t base] [|x c] L1 L2; simpl in *; try discriminate.
  - tauto.
  - assert (S : forall y, selects (mk_sl (sl_start s + - sl_start t) (sl_stop s + - sl_start t) (sl_step s)) (y - sl_start t) <-> selects s y).
    { intros y. unfold selects; simpl. split; intros (k & A & B & C); exists k; lia. }
    split; intros H; inversion H; subst; constructor; try (apply S; auto); apply (IH base c); auto; lia.
Qed.

Lemma relative_inj : forall base c1 c2, List.length c1 = List.length base -> List.length c2 = List.length base ->
  relative base c1 = relative base c2 -> c1 = c2.
Proof.
  induction base; destruct c1, c2; simpl; intros; auto; try discriminate.
  injection H1 as A B. f_equal. lia. eapply IHbase; eauto.
Qed.

Lemma relative_onto : forall base c, List.length c = List.length base -> exists c0, List.length c0 = List.length base /\ relative base c0 = c.
Proof.
  induction base; destruct c; simpl; intros; try discriminate.
  - exists []. auto.
  - destruct (IHbase c) as (c0 & A & B). lia. exists (z + sl_start a :: c0). simpl. rewrite A, B. split; auto. f_equal. lia.
Qed.

Lemma relative_length : forall base c, List.length c = List.length base -> List.length (relative base c) = List.length base.
Proof. induction base; destruct c; simpl; intros; auto; try discriminate; f_equal; try (apply IHbase; lia). Qed.

Lemma point_offset_rel : forall idx base ks, List.length base = List.length idx -> List.length ks = List.length idx ->
  point (offset_index idx (map Z.opp (map sl_start base))) ks = relative base (point idx ks).
Proof.
  unfold offset_index. induction idx; destruct base, ks; simpl; intros; auto; try discriminate.
  rewrite IHidx by lia. f_equal. lia.
Qed.

Lemma offset_okdims : forall idx d, okdims idx -> okdims (offset_index idx d).
Proof.
  unfold offset_index. intros idx d O. revert d. induction O as [|s idx (A & B) O IH]; intros [|x d]; simpl; constructor; auto.
  - simpl. lia.
  - apply IH.
Qed.

Lemma offset_spec : forall g base, well_formed g -> List.length base = List.length (f_index g) ->
  let h := offset_by g (map Z.opp (map sl_start base)) in
  well_formed h /\
  (forall c, List.length c = List.length base -> (covers (f_index h) (relative base c) <-> covers (f_index g) c)) /\
  (forall c v, List.length c = List.length base -> (holds h (relative base c) v <-> holds g c v)).
Proof.
  intros g base WF L h. subst h. unfold offset_by; simpl.
  assert (Ld : List.length (map Z.opp (map sl_start base)) = List.length (f_index g)) by (rewrite !map_length; auto).
  spl.
  - destruct WF as [O S]. split; simpl. apply offset_okdims; auto.
    intros a E. rewrite offset_extent; auto.
  - intros c Lc. apply offset_covers; auto. congruence.
  - intros c v Lc. destruct WF as [O S]. split; intros (a & ks & E & I & P & A); simpl in *; exists a, ks; spl; auto.
    + pose proof (inside_length _ _ I) as Lk. rewrite (S a E), map_length in Lk.
      rewrite point_offset_rel in P by auto. eapply relative_inj; eauto. rewrite point_length; congruence.
    + simpl. pose proof (inside_length _ _ I) as Lk. rewrite (S a E), map_length in Lk.
      rewrite point_offset_rel by auto. congruence.
Qed.

Lemma slice_spec : forall f idx, well_formed f -> unit_steps (f_index f) -> unit_steps idx ->
  List.length (f_index f) = List.length idx ->
  exists r, f_slice f idx = Ok r /\
  match r with
  | None => forall c, ~ (covers (f_index f) c /\ covers idx c)
  | Some h =>
      well_formed h /\ (concrete h <-> concrete f) /\
      List.length (f_index h) = List.length idx /\
      (exists c, covers (f_index h) c) /\
      (forall c, List.length c = List.length idx -> (covers (f_index h) (relative idx c) <-> covers (f_index f) c /\ covers idx c)) /\
      (forall c v, List.length c = List.length idx -> (holds h (relative idx c) v <-> holds f c v /\ covers idx c))
  end.
Proof.
  intros f idx WF U Ui L. unfold f_slice.
  destruct (intersect_spec f idx WF U Ui L) as (r & R & Sp). rewrite R. cbn [rmap].
  eexists. split; [reflexivity|]. destruct r as [g|]; simpl; auto.
  destruct Sp as (WFg & Ug & Cg & (c0 & NE) & Cov & Hol).
  assert (Lg : List.length (f_index g) = List.length idx).
  { rewrite <- (covers_length _ _ NE). apply Cov in NE as [_ NE]. apply covers_length; auto. }
  destruct (offset_spec g idx WFg) as (A & B & C); [congruence|].
  spl; auto.
  - unfold offset_by; simpl. rewrite offset_length; auto. rewrite !map_length; auto.
  - exists (relative idx c0). apply B; auto. rewrite (covers_length _ _ NE); auto.
  - intros c Lc. rewrite B, Cov by auto. tauto.
  - intros c v Lc. rewrite C, Hol by auto. tauto.
Qed.

(* ------------------------------------------------------- Fragments.slice *)
Lemma covers_dec : forall idx c, okdims idx -> {covers idx c} + {~ covers idx c}.
Proof.
  intros idx c O. destruct (Nat.eq_dec (List.length c) (List.length idx)) as [L|L].
  - pose proof (all2_hits idx c O L) as H. destruct (all2 hits idx c); [left; tauto|right]. intros C. apply H in C. discriminate.
  - right. intros C. apply L. apply covers_length; auto.
Qed.

Lemma somes_in : forall {A} (l : list (option A)) x, In x (somes l) <-> In (Some x) l.
Proof.
  induction l as [|[a|] l IH]; simpl; intros; rewrite ?IH; try tauto.
  - split; intros [H|H]; auto; left; congruence.
  - split; auto. intros [H|H]; auto. discriminate.
Qed.

Lemma last_holds_cons : forall f r c v, @last_holds V (f :: r) c v <->
  (holds f c v /\ (forall g, In g r -> ~ covers (f_index g) c)) \/ last_holds r c v.
Proof.
  intros; split; intros X.
  - inversion X; subst; auto.
  - destruct X as [[A B]|X]; [apply LH_here; auto|apply LH_later; auto].
Qed.

Lemma slice_list : forall idx l, unit_steps idx ->
  (forall f, In f l -> well_formed f /\ unit_steps (f_index f) /\ List.length (f_index f) = List.length idx) ->
  exists gl, sequence (map (fun f => f_slice f idx) l) = Ok gl /\
    (forall g, In g (somes gl) -> well_formed g /\ List.length (f_index g) = List.length idx /\
       (forall c, covers (f_index g) (relative idx c) -> List.length c = List.length idx -> covers idx c)) /\
    (forall c, covers idx c ->
       ((exists g, In g (somes gl) /\ covers (f_index g) (relative idx c)) <-> (exists f, In f l /\ covers (f_index f) c)) /\
       (forall v, last_holds (somes gl) (relative idx c) v <-> last_holds l c v)).
Proof.
  intros idx l Ui. induction l as [|f l IH]; intros H.
  - exists []. simpl. spl; auto. intros ? []. intros c _. split. split; intros (? & [] & _).
    intros v. split; intros X; inversion X.
  - destruct IH as (gl & E & A & B). { intros; apply H; right; auto. }
    destruct (H f (or_introl eq_refl)) as (WF & U & L).
    destruct (slice_spec f idx WF U Ui L) as (r & R & Sp). simpl. rewrite R, E. simpl.
    exists (r :: gl). split; auto. destruct r as [h|].
    + destruct Sp as (WFh & Ch & Lh & NE & Cov & Hol). simpl. split.
      * intros g [<-|Hg]; auto. spl; auto. intros c C Lc. apply Cov in C; tauto.
      * intros c C. pose proof (covers_length _ _ C) as Lc. destruct (B c C) as [B1 B2]. split.
        -- split.
           ++ intros (g & [<-|Hg] & Cg). exists f. split; auto. apply Cov in Cg; tauto.
              destruct (proj1 B1 (ex_intro _ g (conj Hg Cg))) as (f' & F1 & F2). eauto.
           ++ intros (g & [<-|Hg] & Cg). exists h. split; auto. apply Cov; auto.
              destruct (proj2 B1 (ex_intro _ g (conj Hg Cg))) as (f' & F1 & F2). eauto.
        -- intros v. rewrite !last_holds_cons, B2, Hol by auto. split; (intros [[X Y]|X]; [left|right; auto]).
           ++ split. tauto. intros g Hg Cg.
              destruct (proj2 B1 (ex_intro _ g (conj Hg Cg))) as (f' & F1 & F2). eapply Y; eauto.
           ++ split. tauto. intros g Hg Cg.
              destruct (proj1 B1 (ex_intro _ g (conj Hg Cg))) as (f' & F1 & F2). eapply Y; eauto.
    + simpl. split; auto. intros c C. destruct (B c C) as [B1 B2]. split.
      * rewrite B1. split; intros (g & Hg & Cg). eauto.
        destruct Hg as [<-|Hg]; [exfalso; eapply Sp; eauto|eauto].
      * intros v. rewrite B2. split; intros X. apply LH_later; auto.
        apply last_holds_cons in X as [[X _]|X]; auto. exfalso. apply (Sp c). split; auto. eapply holds_covers; eauto.
Qed.

Lemma fs_slice_ok : forall (fs : frags V) idx, unit_steps idx ->
  List.length (fs_shape fs) = List.length idx ->
  (forall f, In f (fs_list fs) -> well_formed f /\ unit_steps (f_index f) /\ List.length (f_index f) = List.length idx) ->
  (Forall2 (fun n s => sl_start s <= Z.min n (sl_stop s)) (fs_shape fs) idx ->
   exists gs, fs_slice fs idx = Ok gs /\
     Forall2 (fun ns m => m = Z.min (fst ns) (sl_stop (snd ns)) - sl_start (snd ns)) (combine (fs_shape fs) idx) (fs_shape gs) /\
     (forall g, In g (fs_list gs) -> well_formed g) /\
     (forall c, covers idx c -> forall v, last_holds (fs_list gs) (relative idx c) v <-> last_holds (fs_list fs) c v) /\
     (forall c g, List.length c = List.length idx -> In g (fs_list gs) -> covers (f_index g) (relative idx c) -> covers idx c)) /\
  (~ Forall2 (fun n s => sl_start s <= Z.min n (sl_stop s)) (fs_shape fs) idx -> fs_slice fs idx = Err ValueError).
Proof.
  intros [shape l] idx Ui L H. simpl in *. unfold fs_slice; simpl.
  rewrite existsb_step by auto. rewrite L, Nat.eqb_refl. cbn [negb].
  assert (EX : existsb (fun n => n <? 0) (map2 (fun n s => Z.min n (sl_stop s) - sl_start s) shape idx) = false <->
               Forall2 (fun n s => sl_start s <= Z.min n (sl_stop s)) shape idx).
  { clear - L. revert shape L. induction idx as [|s idx IH]; destruct shape; simpl; intros; try discriminate.
    - split; auto.
    - rewrite orb_false_iff, IH by lia. rewrite Z.ltb_ge. split.
      + intros []. constructor; auto. lia.
      + intros X. inversion X; subst. split; auto. lia. }
  destruct (existsb (fun n => n <? 0) (map2 (fun n s => Z.min n (sl_stop s) - sl_start s) shape idx)).
  - split; auto. intros X. apply EX in X. discriminate.
  - split; [|intros N; exfalso; apply N; apply EX; auto]. intros _.
    destruct (slice_list idx l Ui H) as (gl & E & A & B). rewrite E. simpl.
    eexists. split; [reflexivity|]. simpl. spl.
    + clear - L. revert shape L. induction idx as [|s idx IH]; destruct shape; simpl; intros; try discriminate; constructor; auto.
    + intros g Hg. apply A; auto.
    + intros c C v. apply B; auto.
    + intros c g Lc Hg C. eapply A; eauto.
Qed.

(* --------------------------------------------------------- coordinates *)
Lemma In_cart : forall {A} (ls : list (list A)) c, In c (cart ls) <-> Forall2 (fun x l => In x l) c ls.
Proof.
  induction ls as [|l ls IH]; simpl; intros c.
  - split; [intros [<-|[]]; constructor|intros H; inversion H; auto].
  - rewrite in_flat_map. split.
    + intros (x & Hx & Hc). apply in_map_iff in Hc as (c' & <- & Hc). constructor; auto. apply IH; auto.
    + intros H. inversion H; subst. exists x. split; auto. apply in_map. apply IH; auto.
Qed.

Lemma all_coords_in : forall sh c, In c (all_coords sh) <-> inside sh c.
Proof.
  intros sh c. unfold all_coords. rewrite In_cart. revert sh. induction c as [|x c IH]; intros [|n sh]; simpl.
  - split; constructor.
  - split; intros H; inversion H.
  - split; intros H; inversion H.
  - split; intros H; inversion H; subst; constructor.
    + apply in_map_iff in H3 as (k & <- & Hk). apply in_seq in Hk. lia.
    + apply IH; auto.
    + apply in_map_iff. exists (Z.to_nat x). split. lia. apply in_seq. lia.
    + apply IH; auto.
Qed.

(* --------------------------------------------------------------- assembly *)
Lemma fits_within : forall sh f, well_formed f -> fits sh f -> within sh (f_index f).
Proof.
  intros sh f [O _] F. unfold fits in F. unfold within. revert O. induction F as [|n s sh idx (A & B) F IH]; intros O; constructor.
  - inversion O; subst. lia.
  - inversion O; subst. apply IH; auto.
Qed.

Lemma degenerate_covers : forall f c, well_formed f -> is_degenerate f = true -> ~ covers (f_index f) c.
Proof.
  intros f c [O _] D C. unfold is_degenerate in D. apply existsb_exists in D as (s & Hs & E). apply Z.eqb_eq in E.
  unfold covers in C. clear - C Hs E O. induction C; [destruct Hs|]. inversion O; subst. destruct Hs as [->|Hs]; auto.
  destruct H as (k & A & B & D). nia.
Qed.

Lemma mark_spec : forall l p, (forall f, In f l -> within (ashape p) (f_index f)) ->
  exists q, mark p l = Ok q /\ ashape q = ashape p /\
    forall c, List.length c = List.length (ashape p) ->
      (aget q c = true <-> aget p c = true \/ exists f, In f l /\ covers (f_index f) c).
Proof.
  induction l as [|f l IH]; intros p H; simpl.
  - exists p. spl; auto. intros c _. split; auto. intros [X|(? & [] & _)]; auto.
  - pose proof (H f (or_introl eq_refl)) as W.
    destruct (setitem_all_within p (f_index f) true W) as (p1 & E & S1 & A1). rewrite E. simpl.
    destruct (IH p1) as (q & Q & S2 & A2). { intros; rewrite S1; apply H; right; auto. }
    exists q. rewrite S2, S1. spl; auto. intros c Lc. rewrite A2 by congruence.
    pose proof (Forall2_len _ _ _ W) as Lw. destruct (A1 c) as [B1 B2]; [congruence|].
    destruct (covers_dec (f_index f) c (within_okdims _ _ W)) as [C|C].
    + rewrite B1 by auto. split; intros _; eauto.
    + rewrite B2 by auto. split; intros [X|(g & X & Y)]; eauto. destruct X as [<-|X]; [contradiction|eauto].
Qed.

Lemma fill_spec : forall l a0, (forall f, In f l -> well_formed f /\ concrete f /\ fits (ashape a0) f) ->
  exists a, fill a0 l = Ok a /\ ashape a = ashape a0 /\
    forall c, List.length c = List.length (ashape a0) ->
      ((exists f, In f l /\ covers (f_index f) c) -> last_holds l c (aget a c)) /\
      (~ (exists f, In f l /\ covers (f_index f) c) -> aget a c = aget a0 c).
Proof.
  induction l as [|f l IH]; intros a0 H; simpl.
  - exists a0. spl; auto. intros c _. split; auto. intros (? & [] & _).
  - destruct (H f (or_introl eq_refl)) as (WF & Cn & Ft). pose proof (fits_within _ _ WF Ft) as W.
    destruct (f_value f) as [v|] eqn:Ev; [|contradiction].
    pose proof (proj2 WF v Ev) as Sv.
    destruct (setitem_within a0 v (f_index f) W Sv) as (a1 & E & S1 & A1). rewrite E. simpl.
    destruct (IH a1) as (a & Q & S2 & A2). { intros; rewrite S1; apply H; right; auto. }
    exists a. rewrite S2, S1. spl; auto. intros c Lc. destruct (A2 c) as [B1 B2]; [congruence|].
    pose proof (Forall2_len _ _ _ W) as Lw. destruct (A1 c) as [C1 C2]; [congruence|].
    assert (DX : (exists f0, In f0 l /\ covers (f_index f0) c) \/ ~ (exists f0, In f0 l /\ covers (f_index f0) c)).
    { assert (Hl : forall g, In g l -> well_formed g) by (intros; apply H; right; auto).
      clear - Hl. induction l as [|g l IHl]. right; intros (? & [] & _).
      destruct IHl as [(x & X & Y)|N]. { intros; apply Hl; right; auto. } left; exists x; split; auto; right; auto.
      destruct (covers_dec (f_index g) c (wf_okdims _ (Hl g (or_introl eq_refl)))).
      left; exists g; split; auto; left; auto. right. intros (x & [<-|X] & Y); auto. apply N; eauto. }
    destruct DX as [DX|DX].
    + split. intros _. apply LH_later. auto. intros N. exfalso. apply N. destruct DX as (x & X & Y). eauto.
    + rewrite B2 by auto. destruct (covers_dec (f_index f) c (wf_okdims _ WF)) as [C|C].
      * split; [|intros N; exfalso; apply N; eauto]. intros _. apply LH_here.
        -- rewrite C1 by auto. apply covers_holds; auto.
        -- intros g Hg Cg. apply DX. eauto.
      * rewrite C2 by auto. split; auto. intros (x & [<-|X] & Y). contradiction. exfalso; apply DX; eauto.
Qed.

Lemma last_holds_in : forall l c v, last_holds l c v -> exists f, In f l /\ @holds V f c v.
Proof. intros l c v H. induction H. exists f; simpl; auto. destruct IHlast_holds as (x & X & Y). exists x; simpl; auto. Qed.

Lemma last_holds_filter : forall (p : frag V -> bool) l c v,
  (forall f, In f l -> p f = false -> ~ covers (f_index f) c) ->
  last_holds (filter p l) c v -> last_holds l c v.
Proof.
  induction l as [|f l IH]; simpl; intros c v H X; auto.
  destruct (p f) eqn:E.
  - apply last_holds_cons in X as [[X Y]|X].
    + apply LH_here; auto. intros g Hg Cg. destruct (p g) eqn:Eg.
      * apply (Y g); auto. apply filter_In; auto.
      * apply (H g); auto.
    + apply LH_later. apply IH; auto.
  - apply LH_later. apply IH; auto.
Qed.

Lemma fast_path_holds : forall sh f a, well_formed f -> fits sh f -> is_degenerate f = false ->
  f_shape f = sh -> f_value f = Some a -> ashape a = sh /\ forall c, inside sh c -> holds f c (aget a c).
Proof.
  intros sh f a WF Ft D S Ev. pose proof (proj2 WF a Ev) as Sa.
  change (map extent (f_index f)) with (f_shape f) in Sa. split. congruence.
  intros c I. exists a, c. spl; auto. congruence.
  unfold is_degenerate in D. unfold f_shape in S. change (slice_shape (f_index f)) with (map extent (f_index f)) in S.
  pose proof (wf_okdims _ WF) as O. unfold fits in Ft. clear - I D S O Ft.
  revert c I S D O. induction Ft as [|n s sh idx (A & B) Ft IH]; intros c I S D O; inversion I; subst; simpl in *; auto.
  apply orb_false_iff in D as [D1 D2]. apply Z.eqb_neq in D1. injection S as S1 S2. inversion O as [|? ? (Ht & Hs) O']; subst.
  rewrite IH; auto. f_equal.
  destruct (Z.eq_dec (sl_step s) 1) as [E|E].
  - rewrite extent_unit in * by auto. nia.
  - assert (0 <= extent s - 1) by lia.
    assert (sl_start s + (extent s - 1) * sl_step s < sl_stop s) by (apply extent_spec; lia). nia.
Qed.

Lemma to_array_spec : forall junk (fs : frags V),
  (forall f, In f (fs_list fs) -> well_formed f /\ concrete f /\ fits (fs_shape fs) f) ->
  ((forall c, inside (fs_shape fs) c -> exists f, In f (fs_list fs) /\ covers (f_index f) c) ->
     exists a, to_array junk false fs = Ok a /\ ashape a = fs_shape fs /\
       (forall c, inside (fs_shape fs) c -> exists f, In f (fs_list fs) /\ holds f c (aget a c)) /\
       ((forall f, In f (fs_list fs) -> f_shape f <> fs_shape fs) ->
        forall c, inside (fs_shape fs) c -> last_holds (fs_list fs) c (aget a c))) /\
  (~ (forall c, inside (fs_shape fs) c -> exists f, In f (fs_list fs) /\ covers (f_index f) c) ->
     to_array junk false fs = Err ValueError).
Proof.
  intros junk [shape l] H. simpl in *. unfold to_array; simpl.
  replace (existsb (fun f => match f_value f with None => true | _ => false end) l) with false.
  2:{ symmetry. clear - H. induction l as [|f l IH]; simpl; auto. rewrite IH by (intros; apply H; right; auto).
      destruct (H f (or_introl eq_refl)) as (_ & C & _). unfold concrete in C. destruct (f_value f); auto. congruence. }
  destruct (fast_path (mk_frags shape l)) as [f|] eqn:FP.
  - unfold fast_path in FP. simpl in FP. apply find_some in FP as [In1 E]. apply filter_In in In1 as [In1 ND].
    apply negb_true_iff in ND. apply shape_eqb_eq in E. destruct (H f In1) as (WF & C & Ft).
    destruct (f_value f) as [a|] eqn:Ev; [|contradiction].
    destruct (fast_path_holds shape f a WF Ft ND E Ev) as [Sa Hf].
    split.
    + intros _. exists a. spl; auto.
      * intros c I. exists f. auto.
      * intros N. exfalso. eapply N; eauto.
    + intros N. exfalso. apply N. intros c I. exists f. split; auto. eapply holds_covers; eauto.
  - assert (NF : forall f, In f l -> is_degenerate f = false -> f_shape f <> shape).
    { intros f Hf D E. unfold fast_path in FP. simpl in FP.
      assert (X : In f (filter (fun f => negb (is_degenerate f)) l)) by (apply filter_In; rewrite D; auto).
      pose proof (find_none _ _ FP f X) as Y. simpl in Y. assert (shape_eqb (f_shape f) shape = true) by (apply shape_eqb_eq; auto). congruence. }
    unfold is_full; simpl.
    destruct (mark_spec l (mk_arr shape (fun _ => false))) as (q & Q & Sq & Aq).
    { intros f Hf. simpl. destruct (H f Hf) as (WF & _ & Ft). apply fits_within; auto. }
    rewrite Q. simpl in *.
    assert (FULL : forallb (aget q) (all_coords shape) = true <->
                   (forall c, inside shape c -> exists f, In f l /\ covers (f_index f) c)).
    { rewrite forallb_forall. split.
      - intros X c I. assert (Y : aget q c = true) by (apply X; apply all_coords_in; auto).
        apply Aq in Y as [Y|Y]; auto. discriminate. apply inside_length; auto.
      - intros X c I. apply all_coords_in in I. apply Aq; auto. apply inside_length; auto. }
    destruct (forallb (aget q) (all_coords shape)) eqn:FB; simpl.
    2:{ split; auto. intros X. apply FULL in X. discriminate. }
    split; [|intros N; exfalso; apply N; apply FULL; auto]. intros COV.
    destruct (fill_spec (filter (fun f => negb (is_degenerate f)) l) (mk_arr shape junk)) as (a & F & Sa & Aa).
    { intros f Hf. apply filter_In in Hf as [Hf _]. simpl. auto. }
    exists a. simpl in *.
    assert (LH : forall c, inside shape c -> last_holds l c (aget a c)).
    { intros c I. apply last_holds_filter with (p := fun f => negb (is_degenerate f)).
      - intros f Hf E. apply negb_false_iff in E. apply degenerate_covers; auto. apply H; auto.
      - apply Aa. apply inside_length; auto. destruct (COV c I) as (f & Hf & C). exists f. split; auto.
        apply filter_In. split; auto. destruct (is_degenerate f) eqn:D; auto. exfalso. eapply degenerate_covers; eauto. apply H; auto. }
    spl; auto. intros c I. apply last_holds_in. auto.
Qed.

Lemma of_array_spec : forall (x : arr V) indices, (forall i, In i indices -> within (ashape x) i) ->
  exists fs, of_array x indices = Ok fs /\ fs_shape fs = ashape x /\ map f_index (fs_list fs) = indices /\
    (forall f, In f (fs_list fs) -> well_formed f /\ concrete f /\ fits (ashape x) f /\
       forall c v, holds f c v -> v = aget x c).
Proof.
  intros x indices H. unfold of_array.
  assert (E : exists l, sequence (map (fun i => rmap (fun v => mk_frag i (Some v)) (getitem x i)) indices) = Ok l /\
     map f_index l = indices /\ (forall f, In f l -> well_formed f /\ concrete f /\ fits (ashape x) f /\
       forall c v, holds f c v -> v = aget x c)).
  { induction indices as [|i indices IH]; simpl.
    - exists []. spl; auto. intros ? [].
    - destruct IH as (l & E & M & A). { intros; apply H; right; auto. }
      pose proof (H i (or_introl eq_refl)) as W.
      destruct (getitem_within x i W) as (b & G & Sb & Ab). rewrite G, E. simpl.
      eexists. split; [reflexivity|]. simpl. rewrite M. split; auto.
      intros f [<-|Hf]; auto. spl; auto.
      + split; simpl. eapply within_okdims; eauto. intros a X. injection X as <-. auto.
      + unfold concrete; simpl; discriminate.
      + unfold fits; simpl. eapply Forall2_impl; [|exact W]. simpl. intros; lia.
      + intros c v (a & ks & X & I & P & Q). simpl in *. injection X as <-. subst c v.
        apply Ab. apply inside_length in I. rewrite Sb, map_length in I. auto. }
  destruct E as (l & E & M & A). rewrite E. simpl. eexists. split; [reflexivity|]. simpl. auto.
Qed.

Lemma array_roundtrip : forall junk (x : arr V) indices, (forall i, In i indices -> within (ashape x) i) ->
  (forall c, inside (ashape x) c -> exists i, In i indices /\ covers i c) ->
  exists fs a, of_array x indices = Ok fs /\ to_array junk false fs = Ok a /\
    ashape a = ashape x /\ forall c, inside (ashape x) c -> aget a c = aget x c.
Proof.
  intros junk x indices H C. destruct (of_array_spec x indices H) as (fs & E & S & M & A).
  destruct (to_array_spec junk fs) as [T _]. { intros f Hf. rewrite S. destruct (A f Hf) as (? & ? & ? & _). auto. }
  destruct T as (a & Ta & Sa & Ha & _).
  { rewrite S. intros c I. destruct (C c I) as (i & Hi & Ci). rewrite <- M in Hi. apply in_map_iff in Hi as (f & <- & Hf). eauto. }
  exists fs, a. rewrite S in *. spl; auto. intros c I. destruct (Ha c I) as (f & Hf & Hh). eapply A; eauto.
Qed.

(* ---------------------------------------------------------------- chunking *)
Definition starts (s : sl) (t : Z) : list Z :=
  map (fun k => sl_start s + Z.of_nat k * t) (seq 0 (Z.to_nat ((sl_stop s - sl_start s + (t - 1)) / t))).

Definition pidx (st t : list Z) : list sl := map2 (fun s t => mk_sl s (s + t) 1) st t.

Lemma py_range_pos : forall s t, 1 <= t -> py_range (sl_start s) (sl_stop s) t = Ok (starts s t).
Proof.
  intros s t Ht. unfold py_range, starts. destruct (Z.eqb_spec t 0); [lia|]. destruct (Z.ltb_spec 0 t); [auto|lia].
Qed.

Lemma starts_in : forall s t x, 1 <= t -> (In x (starts s t) <-> exists k, 0 <= k /\ x = sl_start s + k * t /\ x < sl_stop s).
Proof.
  intros [a b u] t x Ht. unfold starts; simpl. rewrite in_map_iff.
  pose proof (extent_spec (mk_sl a b t)) as E. unfold extent in E; simpl in E. split.
  - intros (k & <- & Hk). apply in_seq in Hk. exists (Z.of_nat k). spl; try lia. apply E; lia.
  - intros (k & A & -> & C). exists (Z.to_nat k). split. rewrite Z2Nat.id; lia. apply in_seq. apply E in C; lia.
Qed.

Lemma starts_nodup : forall s t, 1 <= t -> NoDup (starts s t).
Proof.
  intros s t Ht. unfold starts. generalize (Z.to_nat ((sl_stop s - sl_start s + (t - 1)) / t)) as n. intros n.
  apply FinFun.Injective_map_NoDup. intros x y E. nia. apply seq_NoDup.
Qed.

Definition okt (s : sl) (t : Z) : Prop := 1 <= t /\ (t | extent s).

Lemma start_step : forall s t x, sl_step s = 1 -> okt s t -> In x (starts s t) -> sl_start s <= x /\ x + t <= sl_stop s.
Proof.
  intros s t x U (Ht & (q & D)) I. apply starts_in in I as (k & A & -> & C); auto.
  rewrite extent_unit in D by auto. split. nia.
  assert (k < q) by nia. nia.
Qed.

Lemma seq_ranges : forall fi ts, Forall (fun t => 1 <= t) ts ->
  sequence (map2 (fun s t => py_range (sl_start s) (sl_stop s) t) fi ts) = Ok (map2 starts fi ts).
Proof.
  intros fi ts H. revert fi. induction H; intros [|s fi]; simpl; auto.
  rewrite py_range_pos by auto. simpl. rewrite IHForall. auto.
Qed.

Lemma pidx_unit : forall st ts, unit_steps (pidx st ts).
Proof. unfold pidx. induction st; destruct ts; simpl; constructor; auto. apply IHst. Qed.

Lemma pidx_okdims : forall st ts, Forall (fun t => 1 <= t) ts -> okdims (pidx st ts).
Proof.
  unfold pidx. intros st ts H. revert st. induction H; intros [|s st]; simpl; constructor.
  - simpl. lia.
  - apply IHForall.
Qed.

Lemma pidx_length : forall st ts, List.length st = List.length ts -> List.length (pidx st ts) = List.length ts.
Proof. unfold pidx. induction st; destruct ts; simpl; intros; auto; try discriminate; f_equal; try (apply IHst; lia). Qed.

Lemma pidx_extent : forall st ts, List.length st = List.length ts -> map extent (pidx st ts) = ts.
Proof.
  unfold pidx. induction st; destruct ts; simpl; intros; auto; try discriminate.
  rewrite IHst by lia. f_equal. rewrite extent_unit by auto. simpl. lia.
Qed.

Lemma cart_length : forall st fi ts, List.length ts = List.length fi -> In st (cart (map2 starts fi ts)) -> List.length st = List.length ts.
Proof.
  intros st fi ts L I. apply In_cart in I. apply Forall2_len in I. rewrite I.
  clear - L. revert ts L. induction fi; destruct ts; simpl; intros; auto; try discriminate.
Qed.

Lemma piece_geo : forall fi ts st, unit_steps fi -> Forall2 okt fi ts -> In st (cart (map2 starts fi ts)) ->
  (forall c, covers (pidx st ts) c -> covers fi c) /\
  within (map extent fi) (offset_index (pidx st ts) (map Z.opp (map sl_start fi))).
Proof.
  intros fi ts st U O I. apply In_cart in I. revert st U I. induction O as [|s t fi ts Hs O IH]; intros st U I; simpl in I; inversion I; subst; simpl.
  - split; auto. constructor.
  - inversion U; subst. destruct (IH l H4 H3) as [A B].
    destruct (start_step s t x H1 Hs H2) as [C D]. split.
    + intros [|y c] X; [inversion X|]. apply covers_cons in X as [X Y]. apply covers_cons. split; auto.
      apply selects_unit in X; auto. simpl in X. apply selects_unit; auto. lia.
    + constructor; auto. simpl. rewrite extent_unit by auto. destruct Hs. lia.
Qed.

Lemma cover_geo : forall fi ts c, unit_steps fi -> Forall2 okt fi ts -> covers fi c ->
  exists st, In st (cart (map2 starts fi ts)) /\ covers (pidx st ts) c.
Proof.
  intros fi ts c U O. revert c U. induction O as [|s t fi ts Hs O IH]; intros c U C.
  - inversion C; subst. exists []. simpl. split; auto; constructor.
  - destruct c as [|x c]; [inversion C|]. apply covers_cons in C as [X C]. inversion U; subst.
    destruct (IH c H2 C) as (st & I & Y). apply selects_unit in X; auto. destruct Hs as [Ht D].
    pose proof (Z.div_mod (x - sl_start s) t ltac:(lia)) as E. pose proof (Z.mod_pos_bound (x - sl_start s) t ltac:(lia)) as M.
    exists (sl_start s + (x - sl_start s) / t * t :: st). split.
    + apply In_cart. simpl. constructor.
      * apply starts_in; auto. exists ((x - sl_start s) / t). spl; auto. apply Z.div_pos; lia. nia.
      * apply In_cart; auto.
    + apply covers_cons. split; auto. apply selects_unit; auto. simpl. nia.
Qed.

Lemma unique_geo : forall fi ts st st' c, Forall2 okt fi ts ->
  In st (cart (map2 starts fi ts)) -> In st' (cart (map2 starts fi ts)) ->
  covers (pidx st ts) c -> covers (pidx st' ts) c -> st = st'.
Proof.
  intros fi ts st st' c O I I' C C'. apply In_cart in I, I'. revert st st' c I I' C C'.
  induction O as [|s t fi ts Hs O IH]; intros st st' c I I' C C'; simpl in *; inversion I; inversion I'; subst; auto.
  destruct c as [|y c]; [inversion C|]. simpl in C, C'. apply covers_cons in C as [X C]. apply covers_cons in C' as [X' C'].
  f_equal; [|eapply IH; eauto]. apply selects_unit in X, X'; auto. simpl in X, X'. destruct Hs as [Ht _].
  repeat match goal with Hx : In _ (starts _ _) |- _ => apply starts_in in Hx; [destruct Hx as (? & ? & -> & _)|auto] end.
  match goal with |- sl_start s + ?k * t = sl_start s + ?k' * t => assert (k = k') by nia; congruence end.
Qed.

Lemma cart_nodup : forall {A} (ls : list (list A)), Forall (@NoDup A) ls -> NoDup (cart ls).
Proof.
  intros A ls H. induction H as [|l ls Hl H IH]; simpl. repeat constructor; auto.
  induction Hl as [|x l Nx Hl IHl]; simpl. constructor.
  apply NoDup_app_intro_local; auto.
  - apply FinFun.Injective_map_NoDup; auto. intros a b E. congruence.
  - intros c I1 I2. apply in_map_iff in I1 as (c1 & <- & _). apply in_flat_map in I2 as (y & Hy & I2).
    apply in_map_iff in I2 as (c2 & E & _). injection E as -> _. contradiction.
Qed.

Lemma pairs_map : forall {A B} (R : B -> B -> Prop) (g : A -> B) l, NoDup l ->
  (forall x y, In x l -> In y l -> x <> y -> R (g x) (g y)) -> ForallOrdPairs R (map g l).
Proof.
  intros A B R g l N. induction N as [|x l Nx N IH]; simpl; intros H; constructor.
  - apply Forall_forall. intros b Hb. apply in_map_iff in Hb as (y & <- & Hy). apply H; auto. intros ->. contradiction.
  - apply IH. intros; apply H; auto.
Qed.

(** All pieces at once. *)
Lemma pieces_ok : forall f ts l, well_formed f -> unit_steps (f_index f) -> Forall2 okt (f_index f) ts ->
  (forall st, In st l -> In st (cart (map2 starts (f_index f) ts))) ->
  exists ps, sequence (map (piece f ts) l) = Ok ps /\
    Forall2 (fun st p => f_index p = pidx st ts /\ well_formed p /\ (concrete p <-> concrete f) /\
               forall c v, holds p c v <-> holds f c v /\ covers (pidx st ts) c) l ps.
Proof.
  intros f ts l WF U O. induction l as [|st l IH]; intros H; simpl.
  - exists []. split; auto.
  - destruct IH as (ps & E & F). { intros; apply H; right; auto. }
    pose proof (H st (or_introl eq_refl)) as I. destruct (piece_geo _ _ _ U O I) as [Sub W].
    assert (P1 : Forall (fun t => 1 <= t) ts). { clear - O. induction O as [|? ? ? ? [A _]]; constructor; auto. }
    pose proof (Forall2_len _ _ _ O) as L.
    assert (Ls : List.length st = List.length ts) by (eapply cart_length; eauto).
    assert (X : exists p, piece f ts st = Ok p /\ f_index p = pidx st ts /\ well_formed p /\ (concrete p <-> concrete f) /\
               forall c v, holds p c v <-> holds f c v /\ covers (pidx st ts) c).
    { unfold piece. fold (pidx st ts). destruct (f_value f) as [a|] eqn:Ev.
      - unfold f_start. rewrite <- (proj2 WF a Ev) in W. destruct (getitem_within _ _ W) as (b & G & Sb & Ab).
        rewrite G. simpl. eexists. split; [reflexivity|]. simpl. split; auto.
        destruct (sub_value f a (pidx st ts) b) as [WF' HH]; auto.
        + apply pidx_unit. + apply pidx_okdims; auto. + rewrite pidx_length; auto.
        + spl; auto. unfold concrete; rewrite Ev; simpl; split; congruence.
      - eexists. split; [reflexivity|]. simpl. spl; auto.
        + split. apply pidx_okdims; auto. intros ? X. discriminate X.
        + unfold concrete; rewrite Ev; simpl; split; congruence.
        + intros c v. split; [intros (x & ? & X & _); discriminate|intros [(x & ? & X & _) _]; congruence]. }
    destruct X as (p & E1 & X). rewrite E1, E. simpl. eexists. split; [reflexivity|]. constructor; auto.
Qed.

Lemma map_f_index : forall (Q : list Z -> frag V -> Prop) ts l ps,
  Forall2 (fun st p => f_index p = pidx st ts /\ Q st p) l ps -> map f_index ps = map (fun st => pidx st ts) l.
Proof. intros Q ts l ps H. induction H as [|? ? ? ? (A & _)]; simpl; auto. rewrite A, IHForall2. auto. Qed.

Lemma pairs_from_index : forall (R : list sl -> list sl -> Prop) (ps : list (frag V)),
  ForallOrdPairs R (map f_index ps) -> ForallOrdPairs (fun p q => R (f_index p) (f_index q)) ps.
Proof.
  intros R ps. induction ps; simpl; intros H; constructor; inversion H; subst; auto.
  apply Forall_forall. intros x Hx. rewrite Forall_forall in H2. apply H2. apply in_map; auto.
Qed.

Lemma np_mod_div : forall a b, List.length a = List.length b -> Forall (fun t => 1 <= t) b ->
  (validate_divisible_shapes a b = true <-> Forall2 (fun n t => (t | n)) a b).
Proof.
  intros a b L P. unfold validate_divisible_shapes, np_mod. rewrite L, Nat.eqb_refl.
  rewrite negb_true_iff. revert a L. induction P as [|t b Ht P IH]; intros [|n a] L; simpl in *; try discriminate.
  - split; auto.
  - rewrite orb_false_iff, IH by lia. destruct (Z.eqb_spec t 0); [lia|].
    rewrite negb_false_iff, Z.eqb_eq. split.
    + intros [A B]. constructor; auto. apply Z.mod_divide; auto.
    + intros H. inversion H; subst. split; auto. apply Z.mod_divide; auto.
Qed.

Lemma Forall2_in_r : forall {A B} (R : A -> B -> Prop) l1 l2 y, Forall2 R l1 l2 -> In y l2 -> exists x, In x l1 /\ R x y.
Proof. intros A B R l1 l2 y H. induction H; intros []; subst; [exists x; simpl; auto|]. destruct IHForall2 as (a & X & Y); auto. exists a; simpl; auto. Qed.
Lemma Forall2_in_l : forall {A B} (R : A -> B -> Prop) l1 l2 x, Forall2 R l1 l2 -> In x l1 -> exists y, In y l2 /\ R x y.
Proof. intros A B R l1 l2 y H. induction H; intros []; subst; [exists y0; simpl; auto|]. destruct IHForall2 as (a & X & Y); auto. exists a; simpl; auto. Qed.

Lemma chunk_spec : forall f ts, well_formed f -> unit_steps (f_index f) -> Forall (fun t => 1 <= t) ts ->
  (Forall2 (fun n t => (t | n)) (f_shape f) ts -> exists ps, chunk_fragment f ts = Ok ps /\ chunked f ts ps) /\
  (~ Forall2 (fun n t => (t | n)) (f_shape f) ts -> chunk_fragment f ts = Err ValueError).
Proof.
  intros f ts WF U P. unfold chunk_fragment.
  destruct (shape_eqb (f_shape f) ts) eqn:SE.
  { apply shape_eqb_eq in SE. split.
    - intros _. exists [f]. split; auto. unfold chunked. spl.
      + intros p [<-|[]]. spl; auto; tauto.
      + intros c. split. intros; exists f; simpl; auto. intros (p & [<-|[]] & C); auto.
      + repeat constructor.
      + intros p c v [<-|[]]. split; [|tauto]. intros X. split; auto. eapply holds_covers; eauto.
    - intros N. exfalso. apply N. rewrite SE. clear. induction ts; constructor; auto. apply Z.divide_refl. }
  destruct (Nat.eqb (List.length ts) (List.length (f_shape f))) eqn:LE; cbn [negb].
  2:{ apply Nat.eqb_neq in LE. split; auto. intros X. apply Forall2_len in X. congruence. }
  apply Nat.eqb_eq in LE. pose proof (np_mod_div (f_shape f) ts (eq_sym LE) P) as V1.
  destruct (validate_divisible_shapes (f_shape f) ts); cbn [negb].
  2:{ split; auto. intros X. apply V1 in X. discriminate. }
  split; [|intros N; exfalso; apply N; apply V1; auto]. intros DV.
  rewrite seq_ranges by auto. cbn [rbind].
  assert (O : Forall2 okt (f_index f) ts).
  { unfold f_shape in DV. change (slice_shape (f_index f)) with (map extent (f_index f)) in DV. clear - DV P.
    revert DV P. generalize (f_index f). intros l. revert ts. induction l; intros ts DV P; inversion DV; subst; constructor.
    - inversion P; subst. split; auto.
    - inversion P; subst. apply IHl; auto. }
  destruct (pieces_ok f ts (cart (map2 starts (f_index f) ts)) WF U O (fun _ x => x)) as (ps & E & F).
  exists ps. split; auto. unfold chunked. spl.
  - intros p Hp. destruct (Forall2_in_r _ _ _ _ F Hp) as (st & Hst & A & B & C & _). spl; auto.
    + rewrite A. apply pidx_unit.
    + unfold f_shape. rewrite A. apply pidx_extent. eapply cart_length; eauto. symmetry. eapply Forall2_len; eauto.
  - intros c. split.
    + intros C. destruct (cover_geo _ _ _ U O C) as (st & I & Y). destruct (Forall2_in_l _ _ _ _ F I) as (p & Hp & A & _).
      exists p. rewrite A. auto.
    + intros (p & Hp & C). destruct (Forall2_in_r _ _ _ _ F Hp) as (st & Hst & A & _). rewrite A in C.
      destruct (piece_geo _ _ _ U O Hst) as [Sub _]. auto.
  - unfold disjoint. apply pairs_from_index with (R := fun a b => forall c, ~ (covers a c /\ covers b c)).
    rewrite (map_f_index _ _ _ _ F). apply pairs_map.
    + apply cart_nodup. clear - P. revert P. generalize (f_index f). intros l0 P. revert l0. induction P; intros [|s l1]; simpl; constructor; auto.
      apply starts_nodup; auto.
    + intros x y Hx Hy N c [C1 C2]. apply N. eapply unique_geo; eauto.
  - intros p c v Hp. destruct (Forall2_in_r _ _ _ _ F Hp) as (st & Hst & A & _ & _ & B). rewrite A. apply B.
Qed.

(* -------------------------------------------------------- chunk_fragments *)
Lemma last_holds_app : forall (a b : list (frag V)) c v,
  last_holds (a ++ b) c v <-> last_holds b c v \/ ((forall g, In g b -> ~ covers (f_index g) c) /\ last_holds a c v).
Proof.
  induction a as [|f a IH]; simpl; intros b c v.
  - split; auto. intros [X|[_ X]]; auto. inversion X.
  - rewrite !last_holds_cons, IH. split.
    + intros [[A B]|[X|[X Y]]]; auto.
      * right. split; [|left; split; auto]; intros g Hg; apply B; apply in_app_iff; auto.
    + intros [X|[X [[A B]|Y]]]; auto.
      left. split; auto. intros g Hg. apply in_app_iff in Hg as [Hg|Hg]; auto.
Qed.

Lemma last_holds_disjoint : forall ps c v p, ForallOrdPairs (@disjoint V) ps -> (forall p, In p ps -> well_formed p) ->
  In p ps -> holds p c v -> last_holds ps c v.
Proof.
  intros ps c v p D WF. induction D as [|q ps F D IH]; intros I H; [destruct I|].
  destruct I as [->|I].
  - apply LH_here; auto. intros g Hg C. rewrite Forall_forall in F. apply (F g Hg c). split; auto.
    eapply holds_covers; eauto. apply WF; simpl; auto.
  - apply LH_later. apply IH; auto. intros; apply WF; simpl; auto.
Qed.

Lemma chunk_fragments_spec : forall (fs : frags V) ts, Forall (fun t => 1 <= t) ts ->
  (forall f, In f (fs_list fs) -> well_formed f /\ unit_steps (f_index f)) ->
  ((forall f, In f (fs_list fs) -> Forall2 (fun n t => (t | n)) (f_shape f) ts) ->
   exists gs, chunk_fragments fs ts = Ok gs /\ fs_shape gs = fs_shape fs /\
     (forall p, In p (fs_list gs) -> f_shape p = ts /\ well_formed p) /\
     (forall c, (exists p, In p (fs_list gs) /\ covers (f_index p) c) <-> (exists f, In f (fs_list fs) /\ covers (f_index f) c)) /\
     (forall c v, last_holds (fs_list gs) c v <-> last_holds (fs_list fs) c v)) /\
  ((exists f, In f (fs_list fs) /\ ~ Forall2 (fun n t => (t | n)) (f_shape f) ts) ->
   chunk_fragments fs ts = Err ValueError).
Proof.
  intros [shape l] ts P. simpl. unfold chunk_fragments; simpl. induction l as [|f l IH]; intros H.
  - simpl. split; [|intros (? & [] & _)]. intros _. eexists. split; [reflexivity|]. simpl. spl; auto.
    + intros ? []. + intros c; split; intros (? & [] & _). + intros; tauto.
  - destruct IH as [IHok IHno]. { intros; apply H; right; auto. }
    destruct (H f (or_introl eq_refl)) as [WF U]. destruct (chunk_spec f ts WF U P) as [Cok Cno].
    assert (DEC : Forall2 (fun n t => (t | n)) (f_shape f) ts \/ ~ Forall2 (fun n t => (t | n)) (f_shape f) ts).
    { clear. revert ts. generalize (f_shape f). induction l as [|n l IH]; destruct ts as [|t ts].
      - left; constructor. - right; intros X; inversion X. - right; intros X; inversion X.
      - destruct (IH ts) as [A|A]. destruct (Znumtheory.Zdivide_dec t n). left; constructor; auto.
        right; intros X; inversion X; auto. right; intros X; inversion X; auto. }
    simpl. split.
    + intros A. destruct (Cok (A f (or_introl eq_refl))) as (ps & E & Ca & Cb & Cc & Cd). rewrite E. cbn [rbind].
      destruct IHok as (gs & E2 & S2 & B1 & B2 & B3). { intros; apply A; right; auto. }
      destruct (sequence (map (fun f0 => chunk_fragment f0 ts) l)) as [ls|e]; simpl in *; [|discriminate].
      injection E2 as <-. simpl in *. eexists. split; [reflexivity|]. simpl. split; auto. spl.
      * intros p Hp. apply in_app_iff in Hp as [Hp|Hp]; auto. destruct (Ca p Hp) as (? & ? & ? & ?). auto.
      * intros c. split.
        -- intros (p & Hp & C). apply in_app_iff in Hp as [Hp|Hp].
           ++ exists f. split; auto. apply Cb. eauto.
           ++ destruct (proj1 (B2 c) (ex_intro _ p (conj Hp C))) as (g & X & Y). eauto.
        -- intros (g & [<-|Hg] & C).
           ++ apply Cb in C as (p & X & Y). exists p. split; auto. apply in_app_iff; auto.
           ++ destruct (proj2 (B2 c) (ex_intro _ g (conj Hg C))) as (p & X & Y). exists p. split; auto. apply in_app_iff; auto.
      * intros c v. rewrite last_holds_app, last_holds_cons, B3.
        assert (NC : (forall g, In g (List.concat ls) -> ~ covers (f_index g) c) <-> (forall g, In g l -> ~ covers (f_index g) c)).
        { split; intros X g Hg C.
          - destruct (proj2 (B2 c) (ex_intro _ g (conj Hg C))) as (p & Y & Z). eapply X; eauto.
          - destruct (proj1 (B2 c) (ex_intro _ g (conj Hg C))) as (p & Y & Z). eapply X; eauto. }
        rewrite NC. split.
        -- intros [X|[X Y]]; auto. left. split; auto. apply last_holds_in in Y as (p & Hp & Hh). apply Cd in Hh; tauto.
        -- intros [[X Y]|X]; auto. right. split; auto.
           assert (C : covers (f_index f) c) by (eapply holds_covers; eauto).
           apply Cb in C as (p & Hp & C). eapply last_holds_disjoint; eauto. intros q Hq; apply Ca; auto.
           apply Cd; auto.
    + intros (g & [<-|Hg] & N).
      * rewrite Cno; auto.
      * destruct DEC as [D|D].
        -- destruct (Cok D) as (ps & E & _). rewrite E. cbn [rbind].
           assert (X : rmap (fun ls => mk_frags shape (List.concat ls)) (sequence (map (fun f0 => chunk_fragment f0 ts) l)) = Err ValueError) by (apply IHno; eauto).
           destruct (sequence (map (fun f0 => chunk_fragment f0 ts) l)); simpl in *; congruence.
        -- rewrite Cno; auto.
Qed.
End Frag.
