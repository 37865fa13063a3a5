(** Proofs for C27. *)
From Coq Require Import ZArith List Bool Lia Permutation.
From Verif Require Import Base Nd_Model Fragment_Model Fragment_Spec Fragment_Proofs Slice_Model
  Replica_Model Replica_Spec Replica_Proofs Reshard_Model Reshard_Spec.
Import ListNotations.
Local Open Scope Z_scope.

Ltac spl := repeat match goal with |- _ /\ _ => split end.

(** A box inside the shape. *)
Definition good (shape : list Z) (b : list sl) : Prop :=
  Forall2 (fun s n => sl_step s = 1 /\ 0 <= sl_start s /\ sl_start s <= sl_stop s /\ sl_stop s <= n) b shape.

Lemma fine_good : forall shape idx, fine shape idx -> good shape (box shape idx).
Proof. intros shape idx F. unfold box, good. induction F as [|p n idx sh (St & A & B & C) F IH]; simpl; constructor; auto. Qed.

Lemma good_unit : forall shape b, good shape b -> unit_steps b.
Proof. intros shape b G. induction G as [|s n b sh (St & _) G IH]; constructor; auto. Qed.

Lemma good_len : forall shape b, good shape b -> List.length b = List.length shape.
Proof. intros. eapply Forall2_len; eauto. Qed.

(** Index tuples that TensorStore turns into the box. *)
Definition denotes (shape : list Z) (idx : list pslice) (b : list sl) : Prop :=
  List.length idx = List.length shape /\ sequence (map2 ts_slice idx shape) = Ok b /\
  existsb (fun s => match ps_step s with None => false | Some k => negb (k =? 1) end) idx = false.

Lemma fine_denotes : forall shape idx, fine shape idx -> denotes shape idx (box shape idx).
Proof.
  intros shape idx F. unfold denotes, box. induction F as [|p n idx sh (St & A & B & C) F (L & E & X)]; simpl; spl; auto.
  - unfold ts_slice at 1. unfold range_of in A, B, C. simpl in *.
    destruct (Z.leb_spec 0 match ps_start p with Some a => a | None => 0 end); [|lia].
    destruct (Z.leb_spec match ps_start p with Some a => a | None => 0 end match ps_stop p with Some b => b | None => n end); [|lia].
    destruct (Z.leb_spec match ps_stop p with Some b => b | None => n end n); [|lia]. simpl. rewrite E. reflexivity.
  - rewrite St. auto.
Qed.

Definition concs (b : list sl) : list pslice := map (fun r => conc (sl_start r) (sl_stop r) 1) b.

Lemma key_concs : forall b, from_hashable_index (keyof b) = concs b.
Proof. intros. unfold from_hashable_index, keyof, concs. rewrite map_map. auto. Qed.

Lemma concs_denotes : forall shape b, good shape b -> denotes shape (concs b) b.
Proof.
  intros shape b G. unfold denotes, concs. induction G as [|[a z k] n b sh (St & A & B & C) G (L & E & X)]; simpl in *; spl; auto.
  unfold ts_slice at 1. simpl.
  destruct (Z.leb_spec 0 a); [|lia]. destruct (Z.leb_spec a z); [|lia]. destruct (Z.leb_spec z n); [|lia]. simpl. rewrite E. subst. auto.
Qed.

Lemma denotes_domain : forall shape idx b, denotes shape idx b -> index_domain shape idx = Ok b.
Proof.
  intros shape idx b (L & E & _). unfold index_domain. rewrite L, Nat.ltb_irrefl, E, skipn_all. simpl. rewrite app_nil_r. auto.
Qed.

(** Reading. *)
Lemma origin_point : forall b ks, unit_steps b -> map2 Z.add (map sl_start b) ks = point b ks.
Proof.
  intros b ks U. revert ks. induction U as [|s b Us U IH]; intros [|k ks]; simpl; auto. rewrite Us, IH. f_equal. lia.
Qed.

Lemma contains_self : forall shape b, good shape b -> contains (map2 (fun o n => mk_sl o (o + n) 1) (map sl_start b) (map extent b)) b = true.
Proof.
  intros shape b G. unfold contains. apply andb_true_iff. induction G as [|s n b sh (St & A & B & C) G (L & E)]; simpl; auto. split; auto.
  apply andb_true_iff; split; auto. rewrite extent_unit by auto. apply orb_true_iff. right.
  apply andb_true_iff. split; apply Z.leb_le; lia.
Qed.

Lemma contains_dom : forall shape b, good shape b -> contains (domain_of shape) b = true.
Proof.
  intros shape b G. unfold contains, domain_of. apply andb_true_iff. induction G as [|s n b sh (St & A & B & C) G (L & E)]; simpl; auto. split; auto.
  apply andb_true_iff; split; auto. apply orb_true_iff. right. apply andb_true_iff. split; apply Z.leb_le; lia.
Qed.

Definition meets (tsh : list Z) (b : list sl) : list sl :=
  map2 (fun s t => let lo := Z.max (sl_start s) (sl_start t) in
                   mk_sl lo (Z.max lo (Z.min (sl_stop s) (sl_stop t))) 1) (domain_of tsh) b.

Lemma intersect_ok : forall shape tsh b, good shape b -> List.length tsh = List.length shape ->
  intersect_dom (domain_of tsh) b = Ok (meets tsh b).
Proof.
  intros shape tsh b G L. unfold intersect_dom. rewrite (good_len _ _ G). unfold domain_of at 1. rewrite map_length, L, Nat.eqb_refl. auto.
Qed.

Lemma meets_contained : forall shape tsh b, good shape b -> List.length tsh = List.length shape ->
  contains (map2 (fun o n => mk_sl o (o + n) 1) (map sl_start b) (map extent b)) (meets tsh b) = true /\
  contains (domain_of tsh) (meets tsh b) = true.
Proof.
  intros shape tsh b G. revert tsh. induction G as [|s n b sh (St & A & B & C) G IH]; intros [|m tsh] L; simpl in L; try discriminate; auto.
  injection L as L. destruct (IH tsh L) as [I1 I2]. unfold contains in *. cbn [map map2 meets domain_of List.length Nat.eqb all2].
  apply andb_true_iff in I1 as [I1 I3]. apply andb_true_iff in I2 as [I2 I4].
  unfold meets, domain_of in *. rewrite I1, I2, I3, I4. cbn [sl_start sl_stop]. rewrite extent_unit by auto. split.
  - apply andb_true_iff. split; auto. rewrite andb_true_r.
    destruct (Z.leb_spec (Z.max (Z.max 0 (sl_start s)) (Z.min m (sl_stop s))) (Z.max 0 (sl_start s))); cbn [orb]; auto.
    apply andb_true_iff. split; apply Z.leb_le; lia.
  - apply andb_true_iff. split; auto. rewrite andb_true_r.
    destruct (Z.leb_spec (Z.max (Z.max 0 (sl_start s)) (Z.min m (sl_stop s))) (Z.max 0 (sl_start s))); cbn [orb]; auto.
    apply andb_true_iff. split; apply Z.leb_le; lia.
Qed.

Lemma in_dom_good : forall shape b ks, good shape b -> inside (map extent b) ks -> in_dom b (point b ks) = true /\ inside shape (point b ks).
Proof.
  intros shape b ks G. revert ks. induction G as [|s n b sh (St & A & B & C) G IH]; intros ks I; inversion I as [|e k es ks' Hk I']; subst; simpl.
  - split; auto; try constructor.
  - destruct (IH ks' I') as [X Y]. rewrite extent_unit in Hk by auto. rewrite St. unfold in_dom in *. cbn [all2]. rewrite X. split.
    + rewrite andb_true_r. apply andb_true_iff. split; [apply Z.leb_le|apply Z.ltb_lt]; lia.
    + constructor; auto. lia.
Qed.

Lemma in_dom_meets : forall shape tsh b ks, good shape b -> List.length tsh = List.length shape -> inside (map extent b) ks ->
  (in_dom (meets tsh b) (point b ks) = true <-> inside tsh (point b ks)).
Proof.
  intros shape tsh b ks G. revert tsh ks. induction G as [|s n b sh (St & A & B & C) G IH]; intros [|m tsh] ks L I; simpl in L; try discriminate.
  - inversion I; subst. simpl. split; auto; try constructor.
  - inversion I as [|e k es ks' Hk I']; subst. injection L as L. specialize (IH tsh ks' L I'). rewrite extent_unit in Hk by auto.
    unfold meets, domain_of, in_dom in *. cbn [map map2 point all2 sl_start sl_stop]. rewrite andb_true_iff, IH, andb_true_iff, Z.leb_le, Z.ltb_lt, St.
    split.
    + intros [X Y]. constructor; auto. lia.
    + intros X. inversion X; subst. split; auto. lia.
Qed.

Section Read.
Variable V : Type.
Variable zero : V.

Lemma read_shard_ok : forall (t : tensor V) shape b res cast, good shape b ->
  contains (map2 (fun o n => mk_sl o (o + n) 1) (map sl_start b) (map extent b)) res = true ->
  contains (domain_of (ashape (t_data t))) res = true ->
  (forall ks, inside (map extent b) ks -> (in_dom res (point b ks) = true <-> inside (ashape (t_data t)) (point b ks))) ->
  exists a, read_shard zero t (map extent b) cast b res = Ok a /\ ashape a = map extent b /\
    forall ks, inside (map extent b) ks -> exists v, expected zero (t_data t) (point b ks) v /\ aget a ks = casted cast v.
Proof.
  intros t shape b res cast G C1 C2 H. unfold read_shard. rewrite !map_length, Nat.eqb_refl, C1, C2. cbn [negb].
  eexists. split; [reflexivity|]. split; [reflexivity|]. intros ks I. cbn [aget].
  exists (if in_dom res (point b ks) then aget (t_data t) (point b ks) else zero). split.
  - specialize (H ks I). destruct (in_dom res (point b ks)); split; intros X; auto.
    + exfalso. apply X. apply H. auto. + apply H in X. discriminate.
  - destruct cast; cbn [casted]; rewrite origin_point by (eapply good_unit; eauto); auto.
Qed.

Definition restricted (strict : bool) (tsh : list Z) (b : list sl) : list sl := if strict then b else meets tsh b.

Lemma read_index_ok : forall (t : tensor V) shape b idx cast (strict : bool), good shape b -> denotes shape idx b ->
  (if strict then ashape (t_data t) = shape else List.length (ashape (t_data t)) = List.length shape) ->
  exists a, read_index zero t shape (map extent b) cast strict idx = Ok (a, footprint t (Some (restricted strict (ashape (t_data t)) b))) /\
    ashape a = map extent b /\
    forall ks, inside (map extent b) ks -> exists v, expected zero (t_data t) (point b ks) v /\ aget a ks = casted cast v.
Proof.
  intros t shape b idx cast strict G D H. pose proof (denotes_domain _ _ _ D) as E. destruct D as (_ & _ & X).
  unfold read_index. rewrite X, E. destruct strict.
  - rewrite H, shape_eqb_refl. cbn [rmap rbind fst snd restricted].
    destruct (read_shard_ok t shape b b cast G) as (a & E1 & E2 & E3).
    + eapply contains_self; eauto. + rewrite H. apply contains_dom; auto.
    + intros ks I. destruct (in_dom_good _ _ _ G I) as [Y Z]. rewrite H. tauto.
    + exists a. rewrite E1. auto.
  - cbn [rbind]. rewrite (intersect_ok shape) by auto. cbn [rmap rbind fst snd restricted].
    destruct (meets_contained shape (ashape (t_data t)) b G H) as [C1 C2].
    destruct (read_shard_ok t shape b _ cast G C1 C2) as (a & E1 & E2 & E3).
    + intros ks I. apply (in_dom_meets shape); auto.
    + exists a. rewrite E1. auto.
Qed.

Lemma strict_mismatch : forall (t : tensor V) shape new_shape idx cast,
  ashape (t_data t) <> shape -> read_index zero t shape new_shape cast true idx = Err ValueError.
Proof.
  intros. unfold read_index. destruct (existsb _ idx); auto.
  destruct (shape_eqb (ashape (t_data t)) shape) eqn:E; auto. apply shape_eqb_eq in E. contradiction.
Qed.

Lemma rank_mismatch : forall (t : tensor V) shape new_shape idx cast, fine shape idx ->
  List.length (ashape (t_data t)) <> List.length shape -> read_index zero t shape new_shape cast false idx = Err ValueError.
Proof.
  intros t shape new_shape idx cast F N. unfold read_index. destruct (existsb _ idx); auto.
  rewrite (denotes_domain _ _ _ (fine_denotes _ _ F)). cbn [rbind]. unfold intersect_dom.
  rewrite box_length by auto. unfold domain_of. rewrite map_length. apply Nat.eqb_neq in N. rewrite N. auto.
Qed.

(* -------------------------------------------------------- all devices *)
Definition keyed (m : list (list (Z * Z * Z) * list Z)) (m' : list (list sl * list Z)) : Prop :=
  m = map (fun p => (keyof (fst p), snd p)) m'.

Fixpoint add_box (b : list sl) (d : Z) (m : list (list sl * list Z)) : list (list sl * list Z) :=
  match m with
  | [] => [(b, [d])]
  | (b', ds) :: r => if box_eqb b b' then (b', ds ++ [d]) :: r else (b', ds) :: add_box b d r
  end.

Lemma add_keyed : forall b d m', add_device (keyof b) d (map (fun p => (keyof (fst p), snd p)) m') =
  map (fun p => (keyof (fst p), snd p)) (add_box b d m').
Proof.
  induction m' as [|[b' ds] m' IH]; simpl; auto. rewrite key_eqb_box. destruct (box_eqb b b'); simpl; auto. rewrite IH. auto.
Qed.

Definition local (sg : sharding) (p : Z * list pslice) : bool := existsb (Z.eqb (fst p)) (sg_local sg).

Lemma group_ok : forall shape sg l m', (forall dev i, In (dev, i) l -> fine shape i) ->
  group_devices shape sg l (map (fun p => (keyof (fst p), snd p)) m') =
  Ok (map (fun p => (keyof (fst p), snd p))
       (fold_left (fun m q => add_box (box shape (snd q)) (fst q) m) (filter (local sg) l) m')).
Proof.
  intros shape sg l. induction l as [|[d i] l IH]; intros m' F; auto. cbn [group_devices filter]. unfold local at 1. cbn [fst].
  destruct (existsb (Z.eqb d) (sg_local sg)).
  - rewrite fine_key by (apply (F d); simpl; auto). cbn [rbind fold_left fst snd]. rewrite add_keyed. apply IH. intros; eapply F; simpl; eauto.
  - apply IH. intros; eapply F; simpl; eauto.
Qed.

(** The grouping: distinct boxes; a device is with its box. *)
Definition grouped (shape : list Z) (q : list (Z * list pslice)) (m : list (list sl * list Z)) : Prop :=
  NoDup (map fst m) /\
  (forall b ds, In (b, ds) m -> ds <> [] /\ (exists d i, In (d, i) q /\ b = box shape i) /\ forall d, In d ds -> exists i, In (d, i) q /\ b = box shape i) /\
  (forall d i, In (d, i) q -> exists ds, In (box shape i, ds) m /\ In d ds) /\
  Permutation (List.concat (map snd m)) (map fst q).

Lemma add_box_spec : forall b d m, unit_steps b -> (forall b' ds, In (b', ds) m -> unit_steps b') -> NoDup (map fst m) ->
  NoDup (map fst (add_box b d m)) /\
  (forall b', In b' (map fst (add_box b d m)) <-> b' = b \/ In b' (map fst m)) /\
  (forall b' ds, In (b', ds) (add_box b d m) -> (In (b', ds) m) \/ (b' = b /\ ds = [d]) \/ (b' = b /\ exists ds', In (b, ds') m /\ ds = ds' ++ [d])) /\
  (exists ds, In (b, ds) (add_box b d m) /\ In d ds) /\
  (forall b' ds e, In (b', ds) m -> In e ds -> exists ds', In (b', ds') (add_box b d m) /\ In e ds') /\
  Permutation (List.concat (map snd (add_box b d m))) (d :: List.concat (map snd m)).
Proof.
  intros b d m Ub. induction m as [|[c cs] m IH]; intros U N; simpl.
  - spl; auto.
    + constructor; auto.
    + intros b'. split; intros [X|X]; auto.
    + intros b' ds [E|[]]. injection E as <- <-. auto.
    + exists [d]. simpl; auto.
    + intros b' ds e [].
  - simpl in N. inversion N as [|x l N1 N2]; subst.
    assert (Uc : unit_steps c) by (eapply U; simpl; eauto).
    destruct (box_eqb b c) eqn:E.
    + apply box_eqb_eq in E; auto. subst c. simpl. spl; auto.
      * intros b'. split; intros [X|X]; auto.
      * intros b' ds [E|E]; [injection E as <- <-; right; right; split; auto; exists cs; auto|auto].
      * exists (cs ++ [d]). split; auto. apply in_or_app; simpl; auto.
      * intros b' ds e [E|E] He; [injection E as <- <-; exists (cs ++ [d]); split; auto; apply in_or_app; auto|exists ds; auto].
      * rewrite <- app_assoc. simpl. apply Permutation_sym, Permutation_middle.
    + assert (NE : b <> c). { intros ->. assert (box_eqb c c = true) by (apply box_eqb_eq; auto). congruence. }
      destruct IH as (A & B & C & (ds0 & D1 & D2) & F & P); auto. { intros; eapply U; simpl; eauto. }
      simpl. spl.
      * constructor; auto. intros X. apply B in X as [X|X]; auto.
      * intros b'. rewrite B. tauto.
      * intros b' ds [X|X]; [auto|]. apply C in X as [X|[X|(X & ds' & Y & Z)]]; auto. right; right; split; auto. exists ds'; auto.
      * exists ds0. auto.
      * intros b' ds e [X|X] He; [exists ds; auto|]. destruct (F b' ds e X He) as (ds' & Y & Z). exists ds'. auto.
      * rewrite P. apply Permutation_sym, Permutation_middle.
Qed.

Lemma grouped_step : forall shape q m d i, grouped shape q m -> grouped shape (q ++ [(d, i)]) (add_box (box shape i) d m).
Proof.
  intros shape q m d i (N & A & B & P).
  assert (U : forall b' ds, In (b', ds) m -> unit_steps b').
  { intros b' ds H. destruct (A b' ds H) as (_ & (d' & i' & _ & ->) & _). apply fine_unit. }
  destruct (add_box_spec (box shape i) d m (fine_unit _ _) U N) as (N' & K & C & D & F & P').
  split; [auto|split; [|split]].
  - intros b ds H. apply C in H as [H|[(-> & ->)|(-> & ds' & H & ->)]].
    + destruct (A b ds H) as (X & (d' & i' & Y & Z) & W). spl; auto.
      * exists d', i'. split; auto. apply in_or_app; auto.
      * intros e He. destruct (W e He) as (i2 & W1 & W2). exists i2. split; auto. apply in_or_app; auto.
    + spl. * discriminate. * exists d, i. split; auto. apply in_or_app; simpl; auto.
      * intros e [<-|[]]. exists i. split; auto. apply in_or_app; simpl; auto.
    + destruct (A _ ds' H) as (X & (d' & i' & Y & Z) & W). spl.
      * destruct ds'; discriminate.
      * exists d', i'. split; auto. apply in_or_app; auto.
      * intros e He. apply in_app_or in He as [He|[<-|[]]].
        -- destruct (W e He) as (i2 & W1 & W2). exists i2. split; auto. apply in_or_app; auto.
        -- exists i. split; auto. apply in_or_app; simpl; auto.
  - intros d' i' H. apply in_app_or in H as [H|[H|[]]].
    + destruct (B d' i' H) as (ds & X & Y). apply (F _ _ _ X Y).
    + injection H as <- <-. auto.
  - rewrite P', map_app. simpl. rewrite P. apply Permutation_cons_append.
Qed.

Lemma grouped_all : forall shape l q m, grouped shape q m ->
  grouped shape (q ++ l) (fold_left (fun m x => add_box (box shape (snd x)) (fst x) m) l m).
Proof.
  intros shape l. induction l as [|[d i] l IH]; intros q m G; simpl.
  - rewrite app_nil_r. auto.
  - replace (q ++ (d, i) :: l) with ((q ++ [(d, i)]) ++ l) by (rewrite <- app_assoc; auto). apply IH. apply grouped_step. auto.
Qed.

Lemma fold_add : forall l a, fold_left Z.add l a = a + fold_right Z.add 0 l.
Proof. induction l; simpl; intros; [lia|]. rewrite IHl. lia. Qed.

Lemma local_in : forall sg p, local sg p = true <-> In (fst p) (sg_local sg).
Proof.
  intros. unfold local. rewrite existsb_exists. split.
  - intros (x & H & E). apply Z.eqb_eq in E. subst. auto. - intros H. exists (fst p). split; auto. apply Z.eqb_refl.
Qed.

Lemma read_groups : forall (t : tensor V) shape d cast (strict : bool) (m : list (list sl * list Z)),
  (if strict then ashape (t_data t) = shape else List.length (ashape (t_data t)) = List.length shape) ->
  (forall b ds, In (b, ds) m -> good shape b /\ map extent b = d) ->
  exists l, sequence (map (fun kd => rmap (fun ab => (map (fun d => (d, fst ab)) (snd kd), snd ab))
                 (read_index zero t shape d cast strict (from_hashable_index (fst kd)))) (map (fun p => (keyof (fst p), snd p)) m)) = Ok l /\
    map (fun x => map fst (fst x)) l = map snd m /\
    map snd l = map (fun p => footprint t (Some (restricted strict (ashape (t_data t)) (fst p)))) m /\
    forall x dev a, In x l -> In (dev, a) (fst x) -> exists b ds, In (b, ds) m /\ In dev ds /\ ashape a = d /\
      forall ks, inside d ks -> exists v, expected zero (t_data t) (point b ks) v /\ aget a ks = casted cast v.
Proof.
  intros t shape d cast strict m H. induction m as [|[b ds] m IH]; intros G.
  - exists []. cbn [map sequence]. spl; auto. intros x dev a [].
  - destruct IH as (l & E & L1 & L2 & L3). { intros; eapply G; simpl; eauto. }
    destruct (G b ds) as [Gb Eb]. { simpl; auto. } subst d.
    destruct (read_index_ok t shape b (concs b) cast strict Gb (concs_denotes _ _ Gb) H) as (a & Ea & Sa & Va).
    cbn [map sequence fst snd]. rewrite key_concs, Ea, E. cbn [rmap rbind fst snd].
    eexists. split; [reflexivity|]. cbn [map fst snd]. spl.
    + rewrite L1. rewrite map_map. cbn [fst]. rewrite map_id. auto.
    + rewrite L2. auto.
    + intros x dev a' [<-|Hx] Hd.
      * cbn [fst] in Hd. apply in_map_iff in Hd as (e & X & He). injection X as <- <-. exists b, ds. spl; simpl; auto.
      * destruct (L3 x dev a' Hx Hd) as (b' & ds' & X & Y & Z). exists b', ds'. spl; simpl; auto; apply Z.
Qed.

Lemma read_and_create_ok : forall (t : tensor V) shape d sg cast (strict : bool), shards_into shape d sg ->
  (if strict then ashape (t_data t) = shape else List.length (ashape (t_data t)) = List.length shape) ->
  exists arrs bytes boxes, read_and_create zero t shape d sg cast strict = Ok (arrs, bytes) /\
    NoDup (map fst arrs) /\ (forall dev, In dev (map fst arrs) <-> addressable sg dev) /\
    (forall dev a, In (dev, a) arrs -> exists i, In (dev, i) (sg_indices sg) /\ ashape a = d /\
       forall ks, inside d ks -> exists v, expected zero (t_data t) (point (box shape i) ks) v /\ aget a ks = casted cast v) /\
    NoDup boxes /\
    (forall b, In b boxes <-> exists dev i, In (dev, i) (sg_indices sg) /\ In dev (sg_local sg) /\ b = box shape i) /\
    bytes = fold_right Z.add 0 (map (fun b => footprint t (Some (restricted strict (ashape (t_data t)) b))) boxes).
Proof.
  intros t shape d sg cast strict [ND F] H. unfold read_and_create.
  pose proof (group_ok shape sg (sg_indices sg) []) as E. cbn [map] in E. rewrite E by (intros; eapply F; eauto). clear E.
  set (q := filter (local sg) (sg_indices sg)).
  assert (Gr : grouped shape ([] ++ q) (fold_left (fun m x => add_box (box shape (snd x)) (fst x) m) q [])).
  { apply grouped_all. split; [constructor|split; [|split; [|constructor]]]; simpl; intros; contradiction. }
  simpl in Gr. set (m := fold_left (fun m x => add_box (box shape (snd x)) (fst x) m) q []) in *. destruct Gr as (N & A & B & P).
  assert (Gd : forall b ds, In (b, ds) m -> good shape b /\ map extent b = d).
  { intros b ds Hb. destruct (A b ds Hb) as (_ & (dev & i & X & ->) & _). apply filter_In in X as [X _]. destruct (F dev i X). split; auto. apply fine_good; auto. }
  destruct (read_groups t shape d cast strict m H Gd) as (l & E & L1 & L2 & L3). cbn [rbind]. rewrite E. cbn [rbind].
  exists (List.concat (map fst l)), (fold_left Z.add (map snd l) 0), (map fst m).
  assert (FST : map fst (List.concat (map fst l)) = List.concat (map snd m)).
  { rewrite <- L1. clear. induction l; simpl; auto. rewrite map_app, IHl. auto. }
  assert (NDq : NoDup (map fst q)).
  { unfold q. clear - ND. induction (sg_indices sg) as [|[d i] l IH]; simpl in *; auto. inversion ND; subst. destruct (local sg (d, i)); simpl; auto.
    constructor; auto. intros X. apply H1. apply in_map_iff in X as (y & <- & Y). apply filter_In in Y as [Y _]. apply in_map; auto. }
  spl; auto.
  - rewrite FST. eapply Permutation_NoDup; [apply Permutation_sym; exact P|auto].
  - intros dev. rewrite FST. split.
    + intros X. apply (Permutation_in _ P) in X. apply in_map_iff in X as (y & <- & Y). apply filter_In in Y as [Y Z].
      split; [apply in_map; auto|apply local_in; auto].
    + intros [X Y]. apply (Permutation_in _ (Permutation_sym P)). apply in_map_iff in X as (y & <- & X). apply in_map. apply filter_In. split; auto. apply local_in; auto.
  - intros dev a X. apply in_concat in X as (z & X & Y). apply in_map_iff in X as (w & <- & X).
    destruct (L3 w dev a X Y) as (b & ds & I1 & I2 & I3 & I4). destruct (A b ds I1) as (_ & _ & W). destruct (W dev I2) as (i & W1 & ->).
    apply filter_In in W1 as [W1 _]. exists i. spl; auto.
  - intros b. split.
    + intros X. apply in_map_iff in X as ([b' ds] & <- & X). destruct (A b' ds X) as (_ & (dev & i & Y & Z) & _). apply filter_In in Y as [Y W].
      exists dev, i. spl; auto. apply local_in in W. auto.
    + intros (dev & i & X & Y & ->). destruct (B dev i) as (ds & Z & _). { apply filter_In. split; auto. apply local_in; auto. } apply in_map_iff. exists (box shape i, ds); auto.
  - rewrite fold_add, L2, map_map. lia.
Qed.

(* ------------------------------------------------------------- writing *)
Lemma write_checks : forall shape idx, Forall2 (fun n s => 0 <= sl_start s /\ sl_stop s <= n) shape idx ->
  Forall (fun s => 1 <= sl_step s /\ sl_start s <= sl_stop s) idx ->
  all2 (fun n s => (0 <=? sl_start s) && (sl_start s <=? sl_stop s) && (sl_stop s <=? n)) shape idx = true /\ within shape idx.
Proof.
  intros shape idx H. induction H as [|n s sh idx (A & B) H IH]; intros O; simpl; [split; auto; constructor|].
  inversion O as [|x y (C & D) O']; subst. destruct (IH O') as [X Y]. rewrite X. split; [|constructor; auto].
  rewrite andb_true_r. apply andb_true_iff; split; [apply andb_true_iff; split|]; apply Z.leb_le; lia.
Qed.

Lemma write_ok : forall (fs : list (frag V)) a, (forall f, In f fs -> well_formed f /\ concrete f /\ fits (ashape a) f) ->
  exists b, write_fragments a fs = Ok b /\ ashape b = ashape a /\
    forall c, inside (ashape a) c ->
      ((exists f, In f fs /\ holds f c (aget b c)) \/ ((forall f, In f fs -> ~ covers (f_index f) c) /\ aget b c = aget a c)).
Proof.
  induction fs as [|f fs IH]; intros a H.
  - exists a. cbn [write_fragments]. spl; auto.
  - destruct (H f) as (W & C & Ft). { simpl; auto. }
    destruct (f_value f) as [v|] eqn:Ev; [|contradiction].
    destruct (write_checks _ _ Ft (proj1 W)) as [Ck Wi].
    assert (Sv : ashape v = map extent (f_index f)) by (apply W; auto).
    destruct (setitem_within a v (f_index f) Wi Sv) as (a1 & E & S1 & A1).
    destruct (IH a1) as (b & Eb & Sb & Hb). { intros g Hg. rewrite S1. apply H. simpl; auto. }
    exists b. cbn [write_fragments]. unfold ts_write. rewrite Ev, Ck, E. cbn [rbind]. rewrite Eb. spl; auto; [congruence|].
    intros c Ic. rewrite S1 in Hb. destruct (Hb c Ic) as [(g & X & Y)|(X & Y)].
    + left. exists g. simpl; auto.
    + assert (Lc : List.length c = List.length (f_index f)).
      { apply inside_length in Ic. rewrite Ic. eapply Forall2_len; eauto. }
      destruct (A1 c Lc) as [Y1 Y2].
      destruct (all2_hits (f_index f) c) as [Z1 Z2]; auto. { apply W. }
      destruct (all2 hits (f_index f) c).
      * left. exists f. split; [simpl; auto|]. rewrite Y, Y1 by auto. eapply covers_holds; eauto.
      * right. assert (NC : ~ covers (f_index f) c) by (intros Cc; apply Z2 in Cc; discriminate). split.
        -- intros g [<-|Hg]; auto.
        -- rewrite Y, Y2; auto.
Qed.

(** Save on one topology, restore on another. *)
Lemma round_trip : forall shape (G : list Z -> V) R d all c procs r fill fs' item chunks d' sg cast (strict : bool),
  sharded shape G R d all -> c_replica_id c = Some r -> 0 <= r < R -> c_global c = shape ->
  Permutation (c_indices c) (map sh_index all) -> Permutation (List.concat procs) all -> Forall (fun p => p <> []) procs ->
  (exists fs, save_all c procs = Ok fs /\ Permutation fs fs') ->
  shards_into shape d' sg ->
  exists a arrs bytes, write_fragments (mk_arr shape fill) fs' = Ok a /\ ashape a = shape /\
    read_and_create zero (mk_t a item chunks) shape d' sg cast strict = Ok (arrs, bytes) /\
    (forall dev, In dev (map fst arrs) <-> addressable sg dev) /\
    (forall dev x, In (dev, x) arrs -> exists i, In (dev, i) (sg_indices sg) /\ ashape x = d' /\
       forall ks, inside d' ks -> aget x ks = casted cast (G (point (box shape i) ks))).
Proof.
  intros shape G R d all c procs r fill fs' item chunks d' sg cast strict SD Er Hr Eg P Pp NE (fs & E & Pf) SI.
  destruct (save_all_once V shape G R d all c procs r SD Er Hr Eg P Pp NE) as (fs0 & E0 & J & F & _).
  rewrite E in E0. injection E0 as <-.
  assert (F' : forall f, In f fs' -> well_formed f /\ unit_steps (f_index f) /\ concrete f /\ fits shape f /\ forall p v, holds f p v -> v = G p).
  { intros f Hf. apply F. eapply Permutation_in; [apply Permutation_sym; eauto|auto]. }
  destruct (write_ok fs' (mk_arr shape fill)) as (a & Ea & Sa & Ha).
  { cbn [ashape]. intros f Hf. destruct (F' f Hf) as (X1 & X2 & X3 & X4 & X5). auto. }
  cbn [ashape] in *.
  assert (GA : forall p, inside shape p -> aget a p = G p).
  { intros p Ip. destruct (Ha p Ip) as [(f & Hf & Hh)|(NC & _)].
    - destruct (F' f Hf) as (X1 & X2 & X3 & X4 & X5). apply X5; auto.
    - exfalso. destruct (J p Ip) as (l1 & f & l2 & -> & Cf & _). apply (NC f); auto. eapply Permutation_in; eauto. apply in_or_app; simpl; auto. }
  destruct (read_and_create_ok (mk_t a item chunks) shape d' sg cast strict SI) as (arrs & bytes & boxes & E1 & N1 & A1 & V1 & _).
  { cbn [t_data]. destruct strict; auto. rewrite Sa. auto. }
  exists a, arrs, bytes. spl; auto. intros dev x Hx. destruct (V1 dev x Hx) as (i & Hi & Sx & Vx). exists i. spl; auto.
  intros ks I. destruct (Vx ks I) as (v & [Ev _] & ->). f_equal. cbn [t_data] in *. rewrite Sa in *.
  destruct SI as [_ SI]. destruct (SI dev i Hi) as [Pi Di]. rewrite <- Di in I.
  destruct (in_dom_good _ _ _ (fine_good _ _ Pi) I) as [_ Z]. rewrite (Ev Z). apply GA; auto.
Qed.
End Read.

(* ----------------------------------------------------------- footprint *)
Definition align_lo (co cs lo : Z) : Z := co + (lo - co) / cs * cs.
Definition align_hi (co cs hi : Z) : Z := co + - (- (hi - co) / cs) * cs.

Lemma align_spec : forall co cs lo hi x, 1 <= cs -> lo < hi ->
  (touched co cs lo hi x <-> align_lo co cs lo <= x < align_hi co cs hi).
Proof.
  intros co cs lo hi x Hc Hl. unfold align_lo, align_hi, touched.
  pose proof (Z.div_mod (lo - co) cs ltac:(lia)) as D1. pose proof (Z.mod_pos_bound (lo - co) cs ltac:(lia)) as M1.
  pose proof (Z.div_mod (- (hi - co)) cs ltac:(lia)) as D2. pose proof (Z.mod_pos_bound (- (hi - co)) cs ltac:(lia)) as M2.
  set (q1 := (lo - co) / cs) in *. set (q2 := - (hi - co) / cs) in *. split.
  - intros (y & k & Hy & Hx & Hyk). assert (q1 <= k) by nia. assert (k + 1 <= - q2) by nia. nia.
  - intros Hx. pose proof (Z.div_mod (x - co) cs ltac:(lia)) as D3. pose proof (Z.mod_pos_bound (x - co) cs ltac:(lia)) as M3.
    set (k := (x - co) / cs) in *. assert (q1 <= k) by nia. assert (k + 1 <= - q2) by nia.
    exists (Z.max lo (co + k * cs)), k. spl; try nia.
Qed.

Lemma fold_mul : forall l a, fold_left Z.mul l a = a * fold_right Z.mul 1 l.
Proof. induction l; simpl; intros; [lia|]. rewrite IHl. lia. Qed.

Definition hull (chunks : list (Z * Z)) (d : list sl) : list sl :=
  map2 (fun c s => mk_sl (align_lo (fst c) (snd c) (sl_start s)) (align_hi (fst c) (snd c) (sl_stop s)) 1) chunks d.

Lemma footprint_hull : forall V (t : tensor V) chunks d, t_chunks t = map Some chunks ->
  footprint t (Some d) = t_itemsize t * elements (map extent (hull chunks d)).
Proof.
  intros V t chunks d E. unfold footprint. rewrite E.
  replace (existsb _ (map Some chunks)) with false by (clear; induction chunks; auto).
  rewrite fold_mul. f_equal. unfold elements, hull. f_equal. clear. revert d.
  induction chunks as [|[co cs] chunks IH]; intros [|s d]; simpl; auto. rewrite IH. f_equal.
  rewrite extent_unit by auto. unfold align_lo, align_hi. cbn [sl_start sl_stop].
  replace (sl_start s + (sl_stop s - sl_start s) - co) with (sl_stop s - co) by lia. lia.
Qed.

Lemma hull_touched : forall chunks d c, Forall (fun p => 1 <= snd p) chunks -> List.length chunks = List.length d ->
  Forall (fun s => sl_start s < sl_stop s) d -> List.length c = List.length d ->
  (covers (hull chunks d) c <-> Forall2 (fun p x => touched (fst (fst p)) (snd (fst p)) (sl_start (snd p)) (sl_stop (snd p)) x) (combine chunks d) c).
Proof.
  induction chunks as [|[co cs] chunks IH]; intros [|s d] [|x c] Hc L N Lc; try discriminate.
  - simpl. split; constructor.
  - inversion Hc; inversion N; subst. cbn [hull map2 combine fst snd]. rewrite covers_cons. fold (hull chunks d). rewrite IH by (auto; simpl in *; lia).
    rewrite selects_unit by auto. cbn [sl_start sl_stop fst snd]. simpl in H1. rewrite <- align_spec by auto. split.
    + intros [A B]. constructor; auto. + intros X. inversion X; subst. auto.
Qed.

Lemma footprint_touched : forall V (t : tensor V) chunks d, t_chunks t = map Some chunks ->
  Forall (fun p => 1 <= snd p) chunks -> List.length chunks = List.length d -> Forall (fun s => sl_start s < sl_stop s) d ->
  exists h, unit_steps h /\ Forall (fun s => sl_start s <= sl_stop s) h /\ footprint t (Some d) = t_itemsize t * elements (map extent h) /\
    forall c, List.length c = List.length d ->
      (covers h c <-> Forall2 (fun p x => touched (fst (fst p)) (snd (fst p)) (sl_start (snd p)) (sl_stop (snd p)) x) (combine chunks d) c).
Proof.
  intros V t chunks d E Hc L N. exists (hull chunks d). spl.
  - clear. unfold hull. revert d. induction chunks; intros [|s d]; simpl; constructor; auto. apply IHchunks.
  - clear E. unfold hull. revert d L N. induction Hc as [|[co cs] chunks H Hc IH]; intros [|s d] L N; simpl; constructor; inversion N; subst; try (apply IH; auto; simpl in L; lia).
    simpl in *. destruct (align_spec co cs (sl_start s) (sl_stop s) (sl_start s) H H2) as [A _].
    pose proof (Z.div_mod (sl_start s - co) cs ltac:(lia)) as D1. pose proof (Z.mod_pos_bound (sl_start s - co) cs ltac:(lia)) as M1.
    assert (touched co cs (sl_start s) (sl_stop s) (sl_start s)). { exists (sl_start s), ((sl_start s - co) / cs). spl; nia. }
    apply A in H0. lia.
  - apply footprint_hull; auto.
  - intros c Lc. apply hull_touched; auto.
Qed.

Lemma assemble : forall V zero (t : tensor V) shape d sg cast (strict : bool) arrs bytes dev i p, shards_into shape d sg ->
  (if strict then ashape (t_data t) = shape else List.length (ashape (t_data t)) = List.length shape) ->
  read_and_create zero t shape d sg cast strict = Ok (arrs, bytes) ->
  In (dev, i) (sg_indices sg) -> In dev (sg_local sg) -> covers (box shape i) p ->
  exists a ks v, In (dev, a) arrs /\ inside (ashape a) ks /\ point (box shape i) ks = p /\ expected zero (t_data t) p v /\ aget a ks = casted cast v.
Proof.
  intros V zero t shape d sg cast strict arrs bytes dev i p SI H E Hi Hl C.
  destruct (read_and_create_ok V zero t shape d sg cast strict SI H) as (arrs' & bytes' & boxes & E1 & N1 & A1 & V1 & _).
  rewrite E in E1. injection E1 as <- <-.
  assert (X : In dev (map fst arrs)). { apply A1. split; auto. apply in_map_iff. exists (dev, i); auto. }
  apply in_map_iff in X as ([dev' a] & Y & X). simpl in Y. subst dev'.
  destruct (V1 dev a X) as (i' & Hi' & Sa & Va). destruct SI as [ND SI].
  assert (i' = i). { clear - ND Hi Hi'. induction (sg_indices sg) as [|[e j] l IH]; [destruct Hi|]. simpl in *. inversion ND; subst.
    destruct Hi as [Hi|Hi], Hi' as [Hi'|Hi']; try congruence; auto.
    - injection Hi as -> ->. exfalso. apply H1. apply in_map_iff. exists (dev, i'); auto.
    - injection Hi' as -> ->. exfalso. apply H1. apply in_map_iff. exists (dev, i); auto. }
  subst i'. destruct (SI dev i Hi) as [Pi Di].
  destruct (position_spec (box shape i) p) as [Q1 Q2]; auto. { apply (fine_okdims shape); auto. }
  rewrite Di in Q1. destruct (Va _ Q1) as (v & Ev & Gv). rewrite Q2 in Ev. exists a, (position (box shape i) p), v. rewrite Sa. spl; auto.
Qed.

Lemma read_index_proper : forall V zero (t : tensor V) shape idx cast (strict : bool), proper shape idx ->
  (if strict then ashape (t_data t) = shape else List.length (ashape (t_data t)) = List.length shape) ->
  exists a bytes, read_index zero t shape (map extent (box shape idx)) cast strict idx = Ok (a, bytes) /\
    ashape a = map extent (box shape idx) /\
    forall ks, inside (ashape a) ks -> exists v, expected zero (t_data t) (point (box shape idx) ks) v /\ aget a ks = casted cast v.
Proof.
  intros V zero t shape idx cast strict P H.
  destruct (read_index_ok V zero t shape (box shape idx) idx cast strict (fine_good _ _ P) (fine_denotes _ _ P) H) as (a & E & S & G).
  exists a. eexists. split; [exact E|]. split; auto. rewrite S. auto.
Qed.

Lemma covers_inside : forall shape b p, good shape b -> covers b p -> inside shape p.
Proof.
  intros shape b p G. revert p. induction G as [|s n b sh (St & A & B & C) G IH]; intros p H; inversion H; subst; constructor; try (apply IH; auto).
  apply selects_unit in H2; auto. lia.
Qed.

Lemma meets_covers : forall shape tsh b p, good shape b -> List.length tsh = List.length shape ->
  (covers (meets tsh b) p <-> covers b p /\ inside tsh p).
Proof.
  intros shape tsh b p G. revert tsh p. induction G as [|s n b sh (St & A & B & C) G IH]; intros [|m tsh] [|x p] L; simpl in L; try discriminate.
  - split; [split; constructor|intros; constructor].
  - split; [intros H; inversion H|intros [H _]; inversion H].
  - split; [intros H; inversion H|intros [H _]; inversion H].
  - injection L as L. unfold meets, domain_of in *. cbn [map map2]. rewrite !covers_cons, (IH tsh p L). rewrite !selects_unit by auto. cbn [sl_start sl_stop].
    split.
    + intros (X & Y & Z). spl; auto; try lia. constructor; auto. lia.
    + intros ((X & Y) & Z). inversion Z; subst. spl; auto; lia.
Qed.

Lemma read_and_create_bytes : forall V zero (t : tensor V) shape d sg cast (strict : bool), shards_into shape d sg ->
  (if strict then ashape (t_data t) = shape else List.length (ashape (t_data t)) = List.length shape) ->
  exists arrs bytes boxes part, read_and_create zero t shape d sg cast strict = Ok (arrs, bytes) /\
    NoDup (map fst arrs) /\ (forall dev, In dev (map fst arrs) <-> addressable sg dev) /\
    (forall dev a, In (dev, a) arrs -> exists i, In (dev, i) (sg_indices sg) /\ ashape a = d /\
       forall ks, inside d ks -> exists v, expected zero (t_data t) (point (box shape i) ks) v /\ aget a ks = casted cast v) /\
    NoDup boxes /\
    (forall b, In b boxes <-> exists dev i, In (dev, i) (sg_indices sg) /\ In dev (sg_local sg) /\ b = box shape i) /\
    (forall b, In b boxes -> forall p, covers (part b) p <-> covers b p /\ inside (ashape (t_data t)) p) /\
    bytes = fold_right Z.add 0 (map (fun b => footprint t (Some (part b))) boxes).
Proof.
  intros V zero t shape d sg cast strict SI H.
  destruct (read_and_create_ok V zero t shape d sg cast strict SI H) as (arrs & bytes & boxes & E1 & N1 & A1 & V1 & N2 & B1 & B2).
  exists arrs, bytes, boxes, (restricted strict (ashape (t_data t))). spl; auto.
  intros b Hb p. apply B1 in Hb as (dev & i & Hi & _ & ->). destruct (proj2 SI dev i Hi) as [Pi _]. pose proof (fine_good _ _ Pi) as G.
  destruct strict; cbn [restricted].
  - rewrite H. split; [|tauto]. intros C. split; auto. eapply covers_inside; eauto.
  - apply (meets_covers shape); auto.
Qed.
