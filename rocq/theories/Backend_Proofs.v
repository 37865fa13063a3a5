(** Lemmas for C56. *)
From Coq Require Import List Bool Arith ZArith Ascii Permutation Lia.
From Verif Require Import Base Backend_Model Backend_Spec.
Import ListNotations.

(** ** Strings *)
Lemma str_eqb_eq : forall a b, str_eqb a b = true <-> a = b.
Proof. intros. unfold str_eqb. destruct (list_eq_dec ascii_dec a b); split; intros; auto; discriminate. Qed.

Lemma startswith_spec : forall p s, startswith p s = true <-> exists t, s = p ++ t.
Proof.
  induction p as [|c p IH]; intros s; cbn.
  - split; eauto.
  - destruct s as [|d s]; [split; [discriminate|intros (t & X); discriminate]|].
    destruct (ascii_dec c d) as [->|N].
    + rewrite IH. split; intros (t & E); exists t; [subst; auto|injection E; auto].
    + split; [discriminate|]. intros (t & E). injection E. intros. congruence.
Qed.

Lemma endswith_spec : forall e s, endswith e s = true <-> exists t, s = t ++ e.
Proof.
  intros. unfold endswith. rewrite startswith_spec. split; intros (t & E).
  - exists (rev t). apply (f_equal (@rev _)) in E. rewrite rev_involutive, rev_app_distr, rev_involutive in E. auto.
  - exists (rev t). subst. rewrite rev_app_distr. auto.
Qed.

Lemma mem_in : forall s l, mem s l = true <-> In s l.
Proof.
  intros. unfold mem. rewrite existsb_exists. split.
  - intros (x & I & E). apply str_eqb_eq in E. subst. auto.
  - intros I. exists s. split; auto. apply str_eqb_eq. auto.
Qed.

Lemma opt_eqb_eq : forall a b, opt_eqb a b = true <-> a = b.
Proof.
  intros [a|] [b|]; cbn; try (split; intros; auto; discriminate). rewrite str_eqb_eq. split; intros X; [subst; auto|injection X; auto].
Qed.

(** ** Searching *)
Lemma find_first : forall A (f : A -> bool) (P : A -> Prop), (forall x, f x = true <-> P x) -> forall l,
  match find f l with Some x => first_of P l x | None => Forall (fun y => ~ P y) l end.
Proof.
  intros A f P H l. induction l as [|a l IH]; cbn; auto. destruct (f a) eqn:E.
  - exists [], l. repeat split; auto. apply H. auto.
  - assert (N : ~ P a) by (intros X; apply H in X; congruence). destruct (find f l).
    + destruct IH as (u & v & -> & Px & F). exists (a :: u), v. repeat split; auto.
    + auto.
Qed.

Lemma ranked_cons : forall A (f : A -> bool) P Ps l r, (forall x, f x = true <-> P x) ->
  ranked Ps l r -> ranked (P :: Ps) l (orelse (find f l) r).
Proof.
  intros A f P Ps l r H R. cbn. pose proof (find_first A f P H l) as F. destruct (find f l); cbn; eauto.
Qed.

Lemma ranked_skip : forall A (P : A -> Prop) Ps l r, (forall x, ~ P x) -> ranked Ps l r -> ranked (P :: Ps) l r.
Proof. intros. cbn. right. split; auto. apply Forall_forall. auto. Qed.

Lemma orelse_none : forall A (a : option A), orelse a None = a.
Proof. destruct a; auto. Qed.

Lemma orelse_assoc : forall A (a b c : option A), orelse (orelse a b) c = orelse a (orelse b c).
Proof. destruct a; auto. Qed.

Lemma in_zone_spec : forall z b, opt_eqb (zone b) (Some z) = true <-> in_zone z b.
Proof. intros. apply opt_eqb_eq. Qed.

Lemma region_named_spec : forall r b, region_named r b = true <-> names_region r b.
Proof.
  intros. unfold region_named, names_region. rewrite orb_true_iff, opt_eqb_eq. split; intros [X|X]; auto; right.
  - destruct (multi_regions b) as [rs|]; [|discriminate]. exists rs. rewrite mem_in in X. auto.
  - destruct X as (rs & -> & I). apply mem_in. auto.
Qed.

Lemma zone_prefixed_spec : forall z b, zone_prefixed z b = true <-> zone_begins z b.
Proof.
  intros. unfold zone_prefixed, zone_begins, names_region. rewrite orb_true_iff. split.
  - intros [X|X].
    + destruct (region b) as [r|]; [|discriminate]. apply startswith_spec in X as (t & ->). exists r, t. auto.
    + destruct (multi_regions b) as [rs|]; [|discriminate]. apply existsb_exists in X as (r & I & X). apply startswith_spec in X as (t & ->). exists r, t. eauto.
  - intros (r & t & [X|(rs & X & I)] & ->).
    + left. rewrite X. apply startswith_spec. eauto.
    + right. rewrite X. apply existsb_exists. exists r. split; auto. apply startswith_spec. eauto.
Qed.

Lemma closest : forall bs z r,
  ranked (match z, r with
          | Some z', None => [in_zone z'; zone_begins z']
          | Some z', Some r' => [in_zone z'; names_region r']
          | None, Some r' => [names_region r']
          | None, None => []
          end) bs (locate_closest_backend bs z r).
Proof.
  intros bs z r. unfold locate_closest_backend. destruct z as [z|], r as [r|]; rewrite ?orelse_none.
  - apply ranked_cons; [apply in_zone_spec|]. rewrite <- (orelse_none _ (find (region_named r) bs)). apply ranked_cons; [apply region_named_spec|reflexivity].
  - apply ranked_cons; [apply in_zone_spec|]. rewrite <- (orelse_none _ (find (zone_prefixed z) bs)). apply ranked_cons; [apply zone_prefixed_spec|reflexivity].
  - cbn [orelse]. rewrite <- (orelse_none _ (find (region_named r) bs)). apply ranked_cons; [apply region_named_spec|reflexivity].
  - reflexivity.
Qed.

(** ** Regions of zones *)
Lemma after_dash_spec : forall s, match after_dash s with
  | Some t => exists a, s = a ++ "-"%char :: t /\ ~ In "-"%char a
  | None => ~ In "-"%char s end.
Proof.
  induction s as [|c s IH]; cbn; auto. destruct (ascii_dec c "-") as [->|N].
  - exists []. auto.
  - destruct (after_dash s).
    + destruct IH as (a & -> & I). exists (c :: a). split; auto. intros [X|X]; auto.
    + intros [X|X]; auto.
Qed.

Lemma region_part_get : forall z, region_part z (get_region_from_zone z).
Proof.
  intros z. unfold get_region_from_zone. pose proof (after_dash_spec (rev z)) as H. destruct (after_dash (rev z)) as [t|].
  - destruct H as (a & E & I). left. exists (rev a). split; [|rewrite <- in_rev; auto].
    apply (f_equal (@rev _)) in E. rewrite rev_involutive, rev_app_distr in E. cbn in E. rewrite <- app_assoc in E. auto.
  - right. split; auto. rewrite in_rev. auto.
Qed.

Lemma split_last : forall (c : ascii) a b u v, a ++ c :: u = b ++ c :: v -> ~ In c u -> ~ In c v -> a = b /\ u = v.
Proof.
  induction a as [|x a IH]; intros b u v E U V; destruct b as [|y b]; cbn in E.
  - injection E. auto.
  - injection E as -> ->. exfalso. apply U. apply in_or_app. cbn. auto.
  - injection E as <- <-. exfalso. apply V. apply in_or_app. cbn. auto.
  - injection E as <- E. destruct (IH b u v E U V) as (-> & ->). auto.
Qed.

Lemma region_part_unique : forall z r r', region_part z r -> region_part z r' -> r = r'.
Proof.
  intros z r r' [(s & E & I)|(I & E)] [(s' & E' & I')|(I' & E')].
  - subst z. symmetry in E'. destruct (split_last _ _ _ _ _ E' I' I); auto.
  - exfalso. apply I'. rewrite E. apply in_or_app. cbn. auto.
  - exfalso. apply I. rewrite E'. apply in_or_app. cbn. auto.
  - congruence.
Qed.

Lemma region_part_iff : forall z r, get_region_from_zone z = r <-> region_part z r.
Proof. intros. split; [intros <-; apply region_part_get|]. intros H. eapply region_part_unique; eauto using region_part_get. Qed.

Lemma truthy_some : forall o s, truthy o = Some s <-> o = Some s /\ s <> [].
Proof. intros [[|c s']|] s; cbn; split; intros H; try discriminate; try (destruct H; congruence). split; auto. intros ->. discriminate. Qed.

Lemma truthy_list_some : forall o s, truthy_list o = Some s <-> o = Some s /\ s <> [].
Proof. intros [[|c s']|] s; cbn; split; intros H; try discriminate; try (destruct H; congruence). split; auto. intros ->. discriminate. Qed.

Lemma truthy_none : forall o, truthy o = None <-> ~ exists s, o = Some s /\ s <> [].
Proof.
  intros o. split.
  - intros H (s & X). apply truthy_some in X. congruence.
  - intros H. destruct (truthy o) eqn:E; auto. apply truthy_some in E. destruct H. eauto.
Qed.

Lemma truthy_list_none : forall o, truthy_list o = None <-> ~ exists s, o = Some s /\ s <> [].
Proof.
  intros o. split.
  - intros H (s & X). apply truthy_list_some in X. congruence.
  - intros H. destruct (truthy_list o) eqn:E; auto. apply truthy_list_some in E. destruct H. eauto.
Qed.

Lemma source_region_spec : forall src r, truthy (source_region src) = Some r <-> source_in src r.
Proof.
  intros src r. rewrite truthy_some. unfold source_region, source_in, has_zone. destruct (truthy (zone src)) as [z|] eqn:E.
  - apply truthy_some in E as (E & N). split.
    + intros (X & Y). injection X as X. split; auto. left. exists z. rewrite <- region_part_iff. auto.
    + intros (Y & [(z' & X & N' & P)|(X & _)]).
      * assert (z' = z) by congruence. subst. apply region_part_iff in P. subst. auto.
      * destruct X. eauto.
  - apply truthy_none in E. rewrite truthy_some. split.
    + intros ((X & Y) & _). auto.
    + intros (Y & [(z' & X & N' & P)|(X & Z)]); [destruct E; eauto|auto].
Qed.

Lemma zone_is_spec : forall z b, zone_is z b = true <-> zone b = Some z /\ z <> [].
Proof.
  intros. unfold zone_is. destruct (truthy (zone b)) as [z'|] eqn:E.
  - apply truthy_some in E as (E & N). rewrite str_eqb_eq. split; [intros <-; auto|]. intros (X & _). congruence.
  - apply truthy_none in E. split; [discriminate|]. intros X. destruct E. eauto.
Qed.

Lemma region_is_spec : forall r b, region_is r b = true <-> lies_in b r.
Proof.
  intros. unfold region_is, lies_in. rewrite orb_true_iff. apply or_iff_compat_r || idtac.
  assert (A : match truthy (region b) with Some r' => str_eqb r' r | None => false end = true <-> region b = Some r /\ r <> []).
  { destruct (truthy (region b)) as [r'|] eqn:E.
    - apply truthy_some in E as (E & N). rewrite str_eqb_eq. split; [intros <-; auto|]. intros (X & _). congruence.
    - apply truthy_none in E. split; [discriminate|]. intros X. destruct E. eauto. }
  assert (B : match truthy (zone b) with Some z => str_eqb (get_region_from_zone z) r | None => false end = true <-> exists z, zone b = Some z /\ z <> [] /\ region_part z r).
  { destruct (truthy (zone b)) as [z|] eqn:E.
    - apply truthy_some in E as (E & N). rewrite str_eqb_eq, region_part_iff. split; [eauto|]. intros (z' & X & _ & Y). congruence.
    - apply truthy_none in E. split; [discriminate|]. intros (z & X & Y & _). destruct E. eauto. }
  tauto.
Qed.

Lemma regions_have_spec : forall r b, regions_have r b = true <-> exists rs, multi_regions b = Some rs /\ In r rs.
Proof.
  intros. unfold regions_have. destruct (truthy_list (multi_regions b)) as [rs|] eqn:E.
  - apply truthy_list_some in E as (E & N). rewrite mem_in. split; [eauto|]. intros (l & X & I). congruence.
  - apply truthy_list_none in E. split; [discriminate|]. intros (l & X & I). destruct E. exists l. split; auto. intros ->. destruct I.
Qed.

Lemma overlaps_spec : forall rs b, overlaps rs b = true <->
  exists r, In r rs /\ (lies_in b r \/ exists l, multi_regions b = Some l /\ In r l).
Proof.
  intros rs b. unfold overlaps, lies_in. rewrite !orb_true_iff. split.
  - intros [[X|X]|X].
    + destruct (truthy (region b)) as [r|] eqn:E; [|discriminate]. apply truthy_some in E. apply mem_in in X. exists r. auto.
    + destruct (truthy (zone b)) as [z|] eqn:E; [|discriminate]. apply truthy_some in E as (E & N). apply mem_in in X. exists (get_region_from_zone z). split; auto. left. right. exists z. rewrite <- region_part_iff. auto.
    + destruct (truthy_list (multi_regions b)) as [l|] eqn:E; [|discriminate]. apply truthy_list_some in E as (E & N). apply existsb_exists in X as (r & I & M). apply mem_in in M. exists r. eauto.
  - intros (r & I & [[(X & N)|(z & X & N & P)]|(l & X & J)]).
    + left. left. destruct (truthy (region b)) as [r'|] eqn:E; [|apply truthy_none in E; destruct E; eauto]. apply truthy_some in E as (E & _). apply mem_in. congruence.
    + left. right. destruct (truthy (zone b)) as [z'|] eqn:E; [|apply truthy_none in E; destruct E; eauto]. apply truthy_some in E as (E & _). apply mem_in. apply region_part_iff in P. congruence.
    + right. destruct (truthy_list (multi_regions b)) as [l'|] eqn:E.
      * apply truthy_list_some in E as (E & _). apply existsb_exists. exists r. split; auto. apply mem_in. congruence.
      * apply truthy_list_none in E. destruct E. exists l. split; auto. intros ->. destruct J.
Qed.

Lemma matching : forall bs src, ranked [same_zone src; same_region src; covers src; shares src] bs (find_matching_backend bs src).
Proof.
  intros bs src. unfold find_matching_backend.
  assert (D : ranked [shares src] bs (match truthy_list (multi_regions src) with Some rs => find (overlaps rs) bs | None => None end)).
  { destruct (truthy_list (multi_regions src)) as [rs|] eqn:E.
    - apply truthy_list_some in E as (E & N). rewrite <- (orelse_none _ (find _ _)). apply ranked_cons; [|reflexivity].
      intros b. rewrite overlaps_spec. unfold shares. split.
      + intros (r & X). exists r, rs. tauto.
      + intros (r & rs' & X & I). exists r. assert (rs' = rs) by congruence. subst. auto.
    - apply truthy_list_none in E. apply ranked_skip; [|reflexivity]. intros b (r & rs & X & I & _). destruct E. exists rs. split; auto. intros ->. destruct I. }
  assert (C : ranked [same_region src; covers src; shares src] bs
    (orelse (match truthy (source_region src) with Some r => orelse (find (region_is r) bs) (find (regions_have r) bs) | None => None end)
      (match truthy_list (multi_regions src) with Some rs => find (overlaps rs) bs | None => None end))).
  { destruct (truthy (source_region src)) as [r|] eqn:E.
    - rewrite orelse_assoc. assert (U : forall r', source_in src r' -> r' = r) by (intros r' X; apply source_region_spec in X; congruence).
      apply source_region_spec in E. apply ranked_cons; [|apply ranked_cons; [|exact D]].
      + intros b. rewrite region_is_spec. unfold same_region. split; [eauto|]. intros (r' & X & Y). rewrite <- (U _ X). auto.
      + intros b. rewrite regions_have_spec. unfold covers. split; [intros (rs & X); exists r, rs; auto|]. intros (r' & rs & X & Y). rewrite <- (U _ X). eauto.
    - cbn [orelse]. assert (U : forall r', ~ source_in src r') by (intros r' X; apply source_region_spec in X; congruence).
      apply ranked_skip; [intros b (r & X & _); eapply U; eauto|]. apply ranked_skip; [intros b (r & rs & X & _); eapply U; eauto|]. exact D. }
  destruct (truthy (zone src)) as [z|] eqn:E.
  - apply truthy_some in E as (E & N). apply ranked_cons; [|exact C]. intros b. rewrite zone_is_spec. unfold same_zone. split.
    + intros (X & Y). eauto.
    + intros (z' & Y & X & X'). assert (z' = z) by congruence. subst. auto.
  - cbn [orelse]. apply truthy_none in E. apply ranked_skip; [|exact C]. intros b (z & X & Y & _). destruct E. eauto.
Qed.

(** ** Places *)
Lemma lstrip_spec : forall s, exists k, s = repeat "/"%char k ++ lstrip s /\ (forall t, lstrip s <> "/"%char :: t).
Proof.
  induction s as [|c s (k & E & N)]; cbn.
  - exists 0. split; auto. discriminate.
  - destruct (ascii_dec c "/") as [->|D].
    + exists (S k). cbn. rewrite <- E. auto.
    + exists 0. split; auto. intros t X. congruence.
Qed.

Lemma rev_repeat : forall A (x : A) k, rev (repeat x k) = repeat x k.
Proof. induction k; cbn; auto. rewrite IHk. symmetry. apply repeat_cons. Qed.

Lemma rstrip_spec : forall s, exists k, s = rstrip s ++ repeat "/"%char k /\ (forall t, rstrip s <> t ++ ["/"%char]).
Proof.
  intros s. unfold rstrip. destruct (lstrip_spec (rev s)) as (k & E & N). exists k. split.
  - apply (f_equal (@rev _)) in E. rewrite rev_involutive, rev_app_distr, rev_repeat in E. auto.
  - intros t X. apply (f_equal (@rev _)) in X. rewrite rev_involutive, rev_app_distr in X. exact (N _ X).
Qed.

Lemma lstrip_repeat : forall k s, (forall t, s <> "/"%char :: t) -> lstrip (repeat "/"%char k ++ s) = s.
Proof.
  induction k; intros s H; cbn; auto. destruct s as [|c s]; auto. cbn. destruct (ascii_dec c "/") as [->|]; auto. edestruct H; eauto.
Qed.

Lemma rstrip_repeat : forall k s, (forall t, s <> t ++ ["/"%char]) -> rstrip (s ++ repeat "/"%char k) = s.
Proof.
  intros k s H. unfold rstrip. rewrite rev_app_distr, rev_repeat, lstrip_repeat, rev_involutive; auto.
  intros t X. apply (f_equal (@rev _)) in X. rewrite rev_involutive in X. cbn in X. eapply H; eauto.
Qed.

Lemma no_trailing : forall s, s = [] \/ (exists t, s = t ++ ["/"%char]) \/ (forall t, s <> t ++ ["/"%char]).
Proof.
  intros s. destruct s as [|c s'] using rev_ind; auto. right. destruct (ascii_dec c "/") as [->|N]; eauto.
  right. intros t X. apply app_inj_tail in X as (_ & X). auto.
Qed.

Lemma rstrip_app : forall p t, (forall u, p <> u ++ ["/"%char]) -> under p (rstrip (p ++ "/"%char :: t)).
Proof.
  intros p t H. destruct (rstrip_spec t) as (k & E & N). destruct (rstrip t) as [|c r] eqn:R.
  - left. rewrite E. cbn [app]. change ("/"%char :: repeat "/"%char k) with (repeat "/"%char (S k)). apply rstrip_repeat. auto.
  - right. exists (c :: r). rewrite E. change (p ++ "/"%char :: (c :: r) ++ repeat "/"%char k) with (p ++ (("/"%char :: c :: r) ++ repeat "/"%char k)).
    rewrite app_assoc. apply rstrip_repeat. intros u X.
    destruct (@exists_last _ (c :: r)) as (w & x & W); [discriminate|]. rewrite W in X.
    change (p ++ "/"%char :: w ++ [x] = u ++ ["/"%char]) in X. rewrite app_comm_cons, app_assoc in X. apply app_inj_tail in X as (_ & ->). eapply N; eauto.
Qed.

Lemma base_under : forall prefix rel, let p := rstrip prefix in
  under p (if str_eqb rel p || startswith (p ++ ["/"%char]) rel then rel else p ++ ["/"%char] ++ lstrip rel).
Proof.
  intros prefix rel p. destruct (str_eqb rel p || startswith (p ++ ["/"%char]) rel) eqn:E.
  - apply orb_true_iff in E as [E|E]; [left; apply str_eqb_eq; auto|right]. apply startswith_spec in E as (t & ->). exists t. rewrite <- app_assoc. auto.
  - right. eexists. reflexivity.
Qed.

Lemma path_under : forall prefix rel u, under (rstrip prefix) (get_storage_path prefix rel u).
Proof.
  intros prefix rel u. unfold get_storage_path. pose proof (base_under prefix rel) as B. cbv zeta in B.
  destruct u as [u|]; auto. destruct (endswith _ _); auto.
  destruct (rstrip_spec prefix) as (k & _ & N). destruct B as [B|(t & B)]; rewrite B.
  - pose proof (rstrip_repeat 0 (rstrip prefix) N) as R. cbn [repeat] in R. rewrite app_nil_r in R. rewrite R. right. eauto.
  - destruct (rstrip_app (rstrip prefix) t N) as [R|(t' & R)]; rewrite R; right.
    + eauto.
    + exists (t' ++ "/"%char :: u). rewrite <- app_assoc. auto.
Qed.

Lemma path_last : forall prefix rel u, ~ In "/"%char u -> last_name (get_storage_path prefix rel (Some u)) u.
Proof.
  intros prefix rel u N. unfold get_storage_path. destruct (endswith _ _) eqn:E.
  - apply endswith_spec in E as (t & E). exists t. auto.
  - eexists. split; eauto.
Qed.

Lemma last_name_unique : forall s u v, last_name s u -> last_name s v -> u = v.
Proof. intros s u v (d & -> & U) (e & E & V). destruct (split_last _ _ _ _ _ E U V); auto. Qed.

Lemma get_under : forall prefix s, under (rstrip prefix) s -> get_storage_path prefix s None = s.
Proof.
  intros prefix s [->|(t & ->)]; unfold get_storage_path.
  - replace (str_eqb _ _) with true by (symmetry; apply str_eqb_eq; auto). auto.
  - replace (startswith _ _) with true; [rewrite orb_true_r; auto|]. symmetry. apply startswith_spec. exists t. rewrite <- app_assoc. auto.
Qed.

Lemma path_again : forall prefix rel u, (forall n, u = Some n -> ~ In "/"%char n) ->
  get_storage_path prefix (get_storage_path prefix rel u) u = get_storage_path prefix rel u.
Proof.
  intros prefix rel u N. pose proof (path_under prefix rel u) as P. pose proof (get_under _ _ P) as G.
  destruct u as [u|]; auto. destruct (path_last prefix rel u (N _ eq_refl)) as (d & E & _).
  remember (get_storage_path prefix rel (Some u)) as s. unfold get_storage_path in G |- *. rewrite G.
  replace (endswith _ _) with true; auto. symmetry. apply endswith_spec. eauto.
Qed.

(** ** Sorting *)
Lemma str_leb_total : forall a b, str_leb a b = true \/ str_leb b a = true.
Proof.
  induction a as [|c a IH]; intros [|d b]; cbn [str_leb]; auto. rewrite (Nat.eqb_sym (nat_of_ascii d)).
  destruct (nat_of_ascii c =? nat_of_ascii d) eqn:E; auto. apply Nat.eqb_neq in E. rewrite !Nat.ltb_lt. lia.
Qed.

Lemma ascii_nat : forall c d, nat_of_ascii c = nat_of_ascii d -> c = d.
Proof. intros c d H. rewrite <- (ascii_nat_embedding c), <- (ascii_nat_embedding d). congruence. Qed.

Lemma str_leb_antisym : forall a b, str_leb a b = true -> str_leb b a = true -> a = b.
Proof.
  induction a as [|c a IH]; intros [|d b]; cbn [str_leb]; intros H K; auto; try discriminate. rewrite (Nat.eqb_sym (nat_of_ascii d)) in K.
  destruct (nat_of_ascii c =? nat_of_ascii d) eqn:E.
  - apply Nat.eqb_eq in E. f_equal; auto using ascii_nat.
  - rewrite Nat.ltb_lt in *. lia.
Qed.

Lemma str_leb_trans : forall a b c, str_leb a b = true -> str_leb b c = true -> str_leb a c = true.
Proof.
  induction a as [|x a IH]; intros [|y b] [|z c]; cbn [str_leb]; intros H K; auto; try discriminate.
  destruct (nat_of_ascii x =? nat_of_ascii y) eqn:E, (nat_of_ascii y =? nat_of_ascii z) eqn:F, (nat_of_ascii x =? nat_of_ascii z) eqn:G;
    rewrite ?Nat.eqb_eq, ?Nat.eqb_neq, ?Nat.ltb_lt in *; try lia; eauto.
Qed.

Inductive asc : list str -> Prop :=
| asc_nil : asc []
| asc_cons : forall s l, Forall (fun t => str_leb s t = true) l -> asc l -> asc (s :: l).

Lemma insert_perm : forall s l, Permutation (insert_str s l) (s :: l).
Proof.
  induction l as [|t l IH]; cbn; auto. destruct (str_leb s t); auto. rewrite IH. apply perm_swap.
Qed.

Lemma insert_asc : forall s l, asc l -> asc (insert_str s l).
Proof.
  induction l as [|t l IH]; intros H; cbn.
  - constructor; auto.
  - inversion_clear H as [|? ? F A]. destruct (str_leb s t) eqn:E.
    + constructor; [|constructor; auto]. constructor; auto. eapply Forall_impl; [|exact F]. intros x X. eapply str_leb_trans; eauto.
    + constructor; auto. assert (T : str_leb t s = true) by (destruct (str_leb_total s t); congruence).
      eapply Permutation_Forall; [symmetry; apply insert_perm|]. constructor; auto.
Qed.

Lemma sorted_perm : forall l, Permutation (sorted l) l.
Proof. induction l; cbn; auto. rewrite insert_perm. auto. Qed.

Lemma sorted_asc : forall l, asc (sorted l).
Proof. induction l; cbn; [constructor|]. apply insert_asc. auto. Qed.

Lemma asc_unique : forall l l', asc l -> asc l' -> Permutation l l' -> l = l'.
Proof.
  induction l as [|s l IH]; intros l' A A' P.
  - apply Permutation_nil in P. auto.
  - destruct l' as [|t l']; [symmetry in P; apply Permutation_nil in P; discriminate|].
    inversion_clear A as [|? ? F B]. inversion_clear A' as [|? ? F' B'].
    assert (s = t).
    { assert (I : In s (t :: l')) by (eapply Permutation_in; eauto; cbn; auto).
      assert (J : In t (s :: l)) by (eapply Permutation_in; [symmetry; eauto|cbn; auto]).
      destruct I as [I|I]; auto. destruct J as [J|J]; auto. rewrite Forall_forall in F, F'. apply str_leb_antisym; auto. }
    subst t. f_equal. apply IH; auto. eapply Permutation_cons_inv; eauto.
Qed.

Lemma sorted_eq : forall l l', sorted l = sorted l' <-> Permutation l l'.
Proof.
  intros l l'. split; intros H.
  - rewrite <- (sorted_perm l), H. apply sorted_perm.
  - apply asc_unique; auto using sorted_asc. rewrite !sorted_perm. auto.
Qed.

Lemma strs_eqb_eq : forall a b, strs_eqb a b = true <-> a = b.
Proof. intros. unfold strs_eqb. destruct (list_eq_dec (list_eq_dec ascii_dec) a b); split; intros; auto; discriminate. Qed.

(** ** The table *)
Lemma duplicate_spec : forall A (eqb : A -> A -> bool), (forall x y, eqb x y = true <-> x = y) -> forall l,
  duplicate eqb l = false <-> forall i j x, i < j -> nth_error l i = Some (Some x) -> nth_error l j = Some (Some x) -> False.
Proof.
  intros A eqb H. induction l as [|o l IH]; cbn.
  - split; auto. intros _ i j x _ X. destruct i; discriminate.
  - assert (T : (forall i j x, i < j -> nth_error (o :: l) i = Some (Some x) -> nth_error (o :: l) j = Some (Some x) -> False) <->
      (forall x, o = Some x -> ~ In (Some x) l) /\ (forall i j x, i < j -> nth_error l i = Some (Some x) -> nth_error l j = Some (Some x) -> False)).
    { split.
      - intros K. split.
        + intros x -> I. apply In_nth_error in I as (j & E). apply (K 0 (S j) x); auto. lia.
        + intros i j x L X Y. apply (K (S i) (S j) x); auto. lia.
      - intros (K & M) [|i] [|j] x L X Y; try lia; cbn in X, Y.
        + injection X as ->. eapply K; eauto. eapply nth_error_In; eauto.
        + apply (M i j x); auto. lia. }
    rewrite T. destruct o as [x|].
    + rewrite orb_false_iff, IH. apply and_iff_compat_r. split.
      * intros E y Y I. injection Y as <-. assert (X : existsb (fun y => match y with Some y' => eqb x y' | None => false end) l = true).
        { apply existsb_exists. exists (Some x). split; auto. apply H. auto. } congruence.
      * intros K. destruct (existsb _ l) eqn:E; auto. apply existsb_exists in E as ([y|] & I & E); [|discriminate]. apply H in E. subst y. edestruct K; eauto.
    + rewrite IH. split; [split; [discriminate|auto]|tauto].
Qed.

Lemma type_eqb_eq : forall a b, type_eqb a b = true <-> a = b.
Proof. destruct a, b; cbn; split; intros; auto; discriminate. Qed.

Lemma duplicate_map : forall (A : Type) (eqb : A -> A -> bool) (f : backend -> option A), (forall x y, eqb x y = true <-> x = y) -> forall bs,
  duplicate eqb (map f bs) = false <-> forall i j b c x, i < j -> nth_error bs i = Some b -> nth_error bs j = Some c -> f b = Some x -> f c = Some x -> False.
Proof.
  intros A eqb f H bs. rewrite (duplicate_spec _ _ H). split.
  - intros K i j b c x L B C X Y. apply (K i j x L); rewrite nth_error_map; [rewrite B|rewrite C]; cbn; congruence.
  - intros K i j x L X Y. rewrite nth_error_map in X, Y. destruct (nth_error bs i) as [b|] eqn:B; [|discriminate]. destruct (nth_error bs j) as [c|] eqn:C; [|discriminate].
    injection X as X. injection Y as Y. eapply K; eauto.
Qed.

Lemma clash_sym : forall b c, clash b c -> clash c b.
Proof.
  intros b c [(z & N & X & Y)|[(z & N & X & Y)|(l & l' & N & X & Y & P)]]; unfold clash; eauto 10.
  right. right. exists l', l. repeat split; auto; [|symmetry; auto]. intros ->. symmetry in P. apply Permutation_nil in P. auto.
Qed.

Lemma validate_spec : forall bs, validate bs = Ok tt <-> distinct bs.
Proof.
  intros bs. destruct bs as [|b0 bs'] eqn:EB.
  - split; auto. intros _ i j b c _ X. destruct i; discriminate.
  - unfold validate. rewrite <- EB. 
    assert (T : negb (forallb (fun c => type_eqb (btype c) (btype b0)) bs') = false <-> (forall i j b c, nth_error bs i = Some b -> nth_error bs j = Some c -> btype b = btype c)).
    { rewrite negb_false_iff, forallb_forall. split.
      - intros H. assert (K : forall i b, nth_error bs i = Some b -> btype b = btype b0).
        { intros [|i] b X; subst bs; cbn in X; [congruence|]. apply type_eqb_eq, H. eapply nth_error_In; eauto. }
        intros i j b c X Y. rewrite (K _ _ X), (K _ _ Y). auto.
      - intros H c I. apply type_eqb_eq. apply In_nth_error in I as (j & E). apply (H (S j) 0 c b0); subst bs; auto. }
    pose proof (duplicate_map _ _ (fun c => truthy (zone c)) str_eqb_eq bs) as Z.
    pose proof (duplicate_map _ _ (fun c => truthy (region c)) str_eqb_eq bs) as R.
    pose proof (duplicate_map _ _ (fun c => option_map sorted (truthy_list (multi_regions c))) strs_eqb_eq bs) as M.
    cbv beta in Z, R, M.
    assert (D : distinct bs <->
      (forall i j b c, nth_error bs i = Some b -> nth_error bs j = Some c -> btype b = btype c) /\
      (forall i j b c x, i < j -> nth_error bs i = Some b -> nth_error bs j = Some c -> truthy (zone b) = Some x -> truthy (zone c) = Some x -> False) /\
      (forall i j b c x, i < j -> nth_error bs i = Some b -> nth_error bs j = Some c -> truthy (region b) = Some x -> truthy (region c) = Some x -> False) /\
      (forall i j b c x, i < j -> nth_error bs i = Some b -> nth_error bs j = Some c -> option_map sorted (truthy_list (multi_regions b)) = Some x -> option_map sorted (truthy_list (multi_regions c)) = Some x -> False)).
    { split.
      - intros H. split; [|split; [|split]].
        + intros i j b c B C. destruct (Nat.eq_dec i j) as [->|N]; [congruence|]. apply (H i j b c N B C).
        + intros i j b c x L B C X Y. apply truthy_some in X as (X & N). apply truthy_some in Y as (Y & _). apply (H i j b c ltac:(lia) B C). left. eauto.
        + intros i j b c x L B C X Y. apply truthy_some in X as (X & N). apply truthy_some in Y as (Y & _). apply (H i j b c ltac:(lia) B C). right. left. eauto.
        + intros i j b c x L B C X Y. apply (H i j b c ltac:(lia) B C). right. right.
          destruct (truthy_list (multi_regions b)) as [l|] eqn:E; [|discriminate]. destruct (truthy_list (multi_regions c)) as [l'|] eqn:F; [|discriminate].
          apply truthy_list_some in E as (E & N). apply truthy_list_some in F as (F & _). exists l, l'. repeat split; auto. apply sorted_eq. cbn in X, Y. congruence.
      - intros (H1 & H2 & H3 & H4).
        assert (K : forall i j b c, i < j -> nth_error bs i = Some b -> nth_error bs j = Some c -> ~ clash b c).
        { intros i j b c L B C [(z & N & X & Y)|[(z & N & X & Y)|(l & l' & N & X & Y & P)]].
          - apply (H2 i j b c z L B C); apply truthy_some; auto.
          - apply (H3 i j b c z L B C); apply truthy_some; auto.
          - apply (H4 i j b c (sorted l) L B C).
            + replace (truthy_list (multi_regions b)) with (Some l) by (symmetry; apply truthy_list_some; auto). auto.
            + replace (truthy_list (multi_regions c)) with (Some l').
              * cbn. f_equal. apply sorted_eq. symmetry. auto.
              * symmetry. apply truthy_list_some. split; auto. intros ->. symmetry in P. apply Permutation_nil in P. auto. }
        intros i j b c N B C. split; [eauto|]. destruct (Nat.lt_ge_cases i j) as [L|L]; [eauto|]. intros X. apply clash_sym in X. apply (K j i c b ltac:(lia) C B X). }
    rewrite D, <- T, <- Z, <- R, <- M.
    destruct (negb _); [split; [discriminate|intros (X & _); discriminate]|].
    destruct (duplicate str_eqb (map (fun c => truthy (zone c)) bs)); [split; [discriminate|intros (_ & X & _); discriminate]|].
    destruct (duplicate str_eqb (map (fun c => truthy (region c)) bs)); [split; [discriminate|intros (_ & _ & X & _); discriminate]|].
    destruct (duplicate strs_eqb _); [split; [discriminate|intros (_ & _ & _ & X); discriminate]|]. tauto.
Qed.

Lemma key_eqb_eq : forall a b, key_eqb a b = true <-> a = b.
Proof.
  intros (((l & z) & r) & rs) (((l' & z') & r') & rs'). cbn. rewrite !andb_true_iff, Z.eqb_eq, !opt_eqb_eq.
  assert (M : match rs, rs' with Some x, Some y => strs_eqb x y | None, None => true | _, _ => false end = true <-> rs = rs').
  { destruct rs, rs'; try (split; intros; auto; discriminate). rewrite strs_eqb_eq. split; intros X; [subst; auto|injection X; auto]. }
  rewrite M. split; [intros (((-> & ->) & ->) & ->); auto|]. intros X. injection X as -> -> -> ->. auto.
Qed.

Lemma regions_key : forall a b, option_map sorted (truthy_list a) = option_map sorted (truthy_list b) <-> Permutation (regions_of a) (regions_of b).
Proof.
  intros a b. unfold regions_of.
  assert (E : forall o, truthy_list o = match (match o with Some l => l | None => [] end) with [] => None | l => Some l end) by (intros [[|x l]|]; auto).
  rewrite !E. generalize (match a with Some l => l | None => [] end), (match b with Some l => l | None => [] end). intros l l'.
  destruct l as [|x l], l' as [|y l'].
  - split; auto.
  - split; [discriminate|]. intros P. apply Permutation_nil in P. discriminate.
  - split; [discriminate|]. intros P. symmetry in P. apply Permutation_nil in P. discriminate.
  - cbn [option_map]. split; intros P; [injection P as P; apply sorted_eq; auto|f_equal; apply sorted_eq; auto].
Qed.

Lemma key_located : forall b i,
  backend_key (level b) (zone b) (region b) (multi_regions b) = backend_key (i_level i) (loc_zone (i_loc i)) (loc_region (i_loc i)) (loc_regions (i_loc i)) <-> located b i.
Proof.
  intros b i. unfold backend_key, located.
  assert (L : regions_of (loc_regions (i_loc i)) = match i_loc i with AtRegions l => l | _ => [] end) by (destruct (i_loc i); auto).
  rewrite <- L, <- regions_key. unfold loc_zone, loc_region. split.
  - intros X. injection X as -> -> -> ->. auto.
  - intros (-> & -> & -> & ->). auto.
Qed.

Definition ikey (i : instance) : key := backend_key (i_level i) (loc_zone (i_loc i)) (loc_region (i_loc i)) (loc_regions (i_loc i)).

Lemma lookup_spec : forall table i, match lookup (ikey i) table with
  | Some b => In b table /\ located b i
  | None => forall b, In b table -> ~ located b i end.
Proof.
  intros table i. unfold lookup. destruct (find _ (rev table)) as [b|] eqn:E.
  - apply find_some in E as (I & E). apply key_eqb_eq, key_located in E. rewrite <- in_rev in I. auto.
  - intros b I L. rewrite in_rev in I. pose proof (find_none _ _ E b I) as X. apply key_located, key_eqb_eq in L. fold (ikey i) in L. cbv beta in X. congruence.
Qed.

Lemma verify_one_ok : forall table i, verify_one table i = Ok tt <->
  i_type i <> Unspecified /\ exists b, lookup (ikey i) table = Some b /\ btype b = i_type i /\ bprefix b = i_prefix i.
Proof.
  intros table i. unfold verify_one. fold (ikey i). destruct (type_eqb (i_type i) Unspecified) eqn:E.
  - apply type_eqb_eq in E. split; [discriminate|]. intros (N & _). contradiction.
  - assert (N : i_type i <> Unspecified) by (intros X; apply type_eqb_eq in X; congruence).
    destruct (lookup (ikey i) table) as [b|]; [|split; [discriminate|intros (_ & b & X & _); discriminate]].
    destruct (type_eqb (btype b) (i_type i)) eqn:T; cbn [negb].
    + apply type_eqb_eq in T. destruct (str_eqb (bprefix b) (i_prefix i)) eqn:P; cbn [negb].
      * apply str_eqb_eq in P. split; eauto.
      * split; [discriminate|]. intros (_ & b' & X & _ & Y). injection X as <-. apply str_eqb_eq in Y. congruence.
    + split; [discriminate|]. intros (_ & b' & X & Y & _). injection X as <-. apply type_eqb_eq in Y. congruence.
Qed.

Lemma seq_units : forall l, (exists x, sequence l = Ok x) <-> Forall (fun r => r = Ok tt) (l : list (result unit)).
Proof.
  induction l as [|r l IH]; cbn.
  - split; [auto|eauto].
  - split.
    + intros (x & E). destruct r as [[]|e]; cbn in E; [|discriminate]. constructor; auto. apply IH. destruct (sequence l); cbn in E; [eauto|discriminate].
    + intros F. inversion_clear F as [|? ? A B]. subst r. apply IH in B as (x & E). rewrite E. cbn. eauto.
Qed.

Lemma verify_ok : forall table config, verify table config = Ok tt <->
  List.length table = List.length config /\ forall i, In i config -> verify_one table i = Ok tt.
Proof.
  intros table config. unfold verify. destruct (List.length table =? List.length config) eqn:E; cbn [negb].
  - apply Nat.eqb_eq in E. pose proof (seq_units (map (verify_one table) config)) as S. split.
    + intros H. split; auto. destruct (sequence (map (verify_one table) config)) as [x|] eqn:Q; [|discriminate].
      assert (F : Forall (fun r => r = Ok tt) (map (verify_one table) config)) by (apply S; eauto). intros i I. rewrite Forall_forall in F. apply F. apply in_map. auto.
    + intros (_ & H). assert (F : Forall (fun r => r = Ok tt) (map (verify_one table) config)).
      { apply Forall_forall. intros r I. apply in_map_iff in I as (i & <- & I). auto. }
      apply S in F as (x & ->). auto.
  - apply Nat.eqb_neq in E. split; [discriminate|]. intros (X & _). contradiction.
Qed.

Lemma verify_sound : forall table config, verify table config = Ok tt ->
  List.length table = List.length config /\ forall i, In i config -> exists b, In b table /\ represents b i.
Proof.
  intros table config H. apply verify_ok in H as (L & H). split; auto. intros i I. apply H, verify_one_ok in I as (_ & b & E & T & P).
  pose proof (lookup_spec table i) as S. rewrite E in S. exists b. unfold represents. tauto.
Qed.

(** With equal lengths and no twins every row is found. *)
Lemma verify_covers : forall table config, verify table config = Ok tt -> no_twins config -> forall b, In b table -> exists i, In i config /\ represents b i.
Proof.
  intros table config H T.
  assert (G : forall conf k, List.length conf + k = List.length config -> skipn k config = conf ->
    exists ks, NoDup ks /\ List.length ks = List.length conf /\ forall n, In n ks -> exists b i, nth_error table n = Some b /\ In i conf /\ represents b i).
  { induction conf as [|i conf IH]; intros k L S.
    - exists []. repeat split; auto. constructor. intros n [].
    - assert (Nk : nth_error config k = Some i).
      { clear - S. revert k S. induction config as [|a c IHc]; intros [|k] S; cbn in S |- *; try discriminate; auto. injection S as <- _. auto. }
      assert (S' : skipn (Datatypes.S k) config = conf).
      { clear - S. revert k S. induction config as [|a c IHc]; intros [|k] S; cbn in S; try discriminate; [injection S as _ <-; reflexivity|apply (IHc k); exact S]. }
      destruct (IH (Datatypes.S k) ltac:(cbn in L; lia) S') as (ks & ND & LK & K).
      destruct (verify_sound _ _ H) as (_ & V). destruct (V i) as (b & I & R); [eapply nth_error_In; eauto|].
      apply In_nth_error in I as (n & E). exists (n :: ks). split; [|split; [cbn; congruence|]].
      + constructor; auto. intros X. destruct (K n X) as (b' & j & E' & J & R'). assert (b' = b) by congruence. subst b'.
        rewrite <- S' in J. apply In_nth_error in J as (m & M).
        assert (M' : nth_error config (Datatypes.S k + m) = Some j).
        { clear - M. revert M. generalize (Datatypes.S k). intros q. revert q. induction config as [|a c IHc]; intros [|q] M; cbn in M |- *; auto. destruct m; discriminate. }
        apply (T k (Datatypes.S k + m) i j ltac:(lia) Nk M'). exists b. destruct R, R'. auto.
      + intros n' [<-|X].
        * exists b, i. split; auto. split; [left; auto|exact R].
        * destruct (K n' X) as (b' & j & E' & J & R'). exists b', j. split; auto. split; auto. right. auto. }
  destruct (G config 0 ltac:(lia) eq_refl) as (ks & ND & LK & K). destruct (verify_sound _ _ H) as (L & _).
  intros b I. apply In_nth_error in I as (n & E).
  assert (IN : In n ks).
  { assert (INC : incl ks (seq 0 (List.length table))).
    { intros m X. destruct (K m X) as (b' & j & E' & _). apply in_seq. split; [lia|]. cbn. apply nth_error_Some. congruence. }
    apply (NoDup_length_incl ND) in INC; [|rewrite seq_length; lia]. apply INC. apply in_seq. cbn. split; [lia|]. apply nth_error_Some. congruence. }
  destruct (K n IN) as (b' & i & E' & J & R). assert (b' = b) by congruence. subst. eauto.
Qed.

(** ** Filling the table *)
Lemma row_located : forall i, located (row_of i) i.
Proof. intros i. unfold located, row_of. cbn. destruct (i_loc i); cbn; auto. Qed.

Lemma initialize_verify : forall config table, initialize [] config = Ok table -> Forall (fun i => somewhere (i_loc i)) config ->
  table = map row_of config /\ verify table config = Ok tt.
Proof.
  intros config table H W. unfold initialize in H. destruct (existsb _ config) eqn:U; [discriminate|].
  destruct (sequence _) as [x|] eqn:S; [|discriminate]. cbn [rbind] in H. destruct (forallb one_location (map row_of config)) eqn:O; [|discriminate]. injection H as <-.
  split; auto. apply verify_ok. rewrite map_length. split; auto. intros i I. apply verify_one_ok.
  split. { intros X. assert (Y : existsb (fun i => type_eqb (i_type i) Unspecified) config = true) by (apply existsb_exists; exists i; split; auto; apply type_eqb_eq; auto). congruence. }
  pose proof (lookup_spec (map row_of config) i) as L. destruct (lookup (ikey i) (map row_of config)) as [b|].
  - exists b. split; auto. destruct L as (J & L). apply in_map_iff in J as (j & <- & J).
    assert (SJ : somewhere (i_loc j)) by (rewrite Forall_forall in W; auto).
    assert (OJ : one_location (row_of j) = true) by (rewrite forallb_forall in O; apply O, in_map; auto).
    assert (V : distinct (filter (fun c => Z.eqb (level c) (level (row_of i))) (map row_of config))).
    { apply validate_spec. assert (F : Forall (fun r => r = Ok tt) (map (fun b => validate (filter (fun c => Z.eqb (level c) (level b)) (map row_of config))) (map row_of config))) by (apply seq_units; eauto).
      rewrite Forall_forall in F. apply F. apply in_map_iff. exists (row_of i). split; auto. apply in_map. auto. }
    assert (CL : clash (row_of j) (row_of i)).
    { destruct L as (_ & Z & R & M). unfold clash. cbn in *. unfold one_location in OJ. cbn in OJ. destruct (i_loc j) as [z|r|rs|], (i_loc i) as [z'|r'|rs'|]; cbn in *; try discriminate.
      - left. exists z. repeat split; auto.
      - right. left. exists r. repeat split; auto.
      - right. right. exists rs, rs'. auto.
      - symmetry in M. apply Permutation_nil in M. contradiction. }
    assert (Ii : In (row_of i) (filter (fun c => Z.eqb (level c) (level (row_of i))) (map row_of config))) by (apply filter_In; split; [apply in_map; auto|apply Z.eqb_refl]).
    assert (Ij : In (row_of j) (filter (fun c => Z.eqb (level c) (level (row_of i))) (map row_of config))).
    { apply filter_In; split; [apply in_map; auto|]. apply Z.eqb_eq. destruct L as (L & _). exact L. }
    apply In_nth_error in Ii as (m & Em). apply In_nth_error in Ij as (n & En). destruct (Nat.eq_dec n m) as [->|N].
    + assert (Q : row_of j = row_of i) by congruence. unfold row_of in Q |- *. cbn. injection Q. auto.
    + destruct (V n m _ _ N En Em) as (_ & X). contradiction.
  - exfalso. apply (L (row_of i)); [apply in_map; auto|apply row_located].
Qed.

Lemma one_location_row : forall i, one_location (row_of i) = true <-> i_loc i <> Nowhere.
Proof. intros i. unfold one_location, row_of. cbn. destruct (i_loc i); cbn; split; intros; auto; try discriminate; contradiction. Qed.

Lemma initialize_ok : forall config, (exists table, initialize [] config = Ok table) <->
  (forall i, In i config -> i_type i <> Unspecified /\ i_loc i <> Nowhere) /\
  (forall l, distinct (filter (fun b => Z.eqb (level b) l) (map row_of config))).
Proof.
  intros config. unfold initialize. split.
  - intros (table & H). destruct (existsb _ config) eqn:U; [discriminate|].
    destruct (sequence _) as [x|] eqn:S; [|discriminate]. cbn [rbind] in H. destruct (forallb one_location (map row_of config)) eqn:O; [|discriminate]. split.
    + intros i I. split.
      * intros X. assert (Y : existsb (fun i => type_eqb (i_type i) Unspecified) config = true) by (apply existsb_exists; exists i; split; auto; apply type_eqb_eq; auto). congruence.
      * apply one_location_row. rewrite forallb_forall in O. apply O, in_map. auto.
    + intros l. destruct (filter (fun b => Z.eqb (level b) l) (map row_of config)) as [|b bs] eqn:F; [intros i j b c _ X; destruct i; discriminate|].
      assert (I : In b (filter (fun b => Z.eqb (level b) l) (map row_of config))) by (rewrite F; left; auto).
      apply filter_In in I as (I & L). apply Z.eqb_eq in L. rewrite <- F. subst l. apply validate_spec.
      assert (G : Forall (fun r => r = Ok tt) (map (fun b => validate (filter (fun c => Z.eqb (level c) (level b)) (map row_of config))) (map row_of config))) by (apply seq_units; eauto).
      rewrite Forall_forall in G. apply G. apply in_map_iff. eauto.
  - intros (H & D). destruct (existsb _ config) eqn:U.
    + apply existsb_exists in U as (i & I & U). apply type_eqb_eq in U. destruct (H i I). contradiction.
    + destruct (proj2 (seq_units (map (fun b => validate (filter (fun c => Z.eqb (level c) (level b)) (map row_of config))) (map row_of config)))) as (x & ->).
      * apply Forall_forall. intros r I. apply in_map_iff in I as (b & <- & I). apply validate_spec. auto.
      * cbn [rbind]. replace (forallb one_location (map row_of config)) with true; eauto. symmetry. apply forallb_forall. intros b I. apply in_map_iff in I as (i & <- & I). apply one_location_row, H. auto.
Qed.
