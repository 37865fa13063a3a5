(** Proofs for C68. *)
From Coq Require Import List Bool Arith ZArith String Sorted Permutation Lia.
From Verif Require Import Base Policy_Model Tree_Model Safetensors_Model Safetensors_Spec.
From Verif Require Composite_Model Manager_Proofs Emergency_Proofs Parts_Proofs StepMeta_Proofs Tree_Proofs Composite_Proofs Surgery_Proofs.
Import ListNotations.
Open Scope Z_scope.

(** ** Ranges *)

Lemma zrange_nil : forall a b, b <= a -> zrange a b = [].
Proof. intros a b H. unfold zrange. replace (Z.to_nat (b - a)) with O by lia. reflexivity. Qed.

Lemma zrange_cons : forall a b, a < b -> zrange a b = a :: zrange (a + 1) b.
Proof.
  intros a b H. unfold zrange. replace (Z.to_nat (b - a)) with (S (Z.to_nat (b - (a + 1)))) by lia.
  simpl. f_equal; [lia|]. rewrite <- seq_shift, map_map. apply map_ext. intros i. lia.
Qed.

Lemma zrange_in : forall a b x, In x (zrange a b) <-> a <= x < b.
Proof.
  intros a b x. unfold zrange. rewrite in_map_iff. split.
  - intros [i [E I]]. apply in_seq in I. lia.
  - intros H. exists (Z.to_nat (x - a)). split; [lia|]. apply in_seq. lia.
Qed.

Lemma zrange_ind : forall (P : Z -> Prop) b, (forall a, b <= a -> P a) -> (forall a, a < b -> P (a + 1) -> P a) -> forall a, P a.
Proof.
  intros P b H0 H1. assert (forall n a, (Z.to_nat (b - a) <= n)%nat -> P a) as G.
  { induction n; intros a L; [apply H0; lia|]. destruct (Z_lt_le_dec a b) as [X|X]; [|auto]. apply H1; [exact X|]. apply IHn. lia. }
  intros a. apply (G (Z.to_nat (b - a))). lia.
Qed.

Lemma span_range : forall a n, span a n = zrange a (a + n).
Proof. intros. unfold span, zrange. repeat f_equal. lia. Qed.

Lemma zrange_app : forall b c a, a <= b -> b <= c -> zrange a b ++ zrange b c = zrange a c.
Proof.
  intros b c. apply (zrange_ind (fun a => a <= b -> b <= c -> zrange a b ++ zrange b c = zrange a c) b).
  - intros a H H1 H2. replace a with b by lia. rewrite (zrange_nil b b) by lia. reflexivity.
  - intros a H IH H1 H2. rewrite (zrange_cons a b), (zrange_cons a c) by lia. simpl. f_equal. apply IH; lia.
Qed.

Lemma zrange_len : forall a b, List.length (zrange a b) = Z.to_nat (b - a).
Proof. intros. unfold zrange. rewrite map_length, seq_length. reflexivity. Qed.

Lemma flat_span : forall base v b a, 0 <= v -> a <= b -> flat_map (fun c => span (base + c * v) v) (zrange a b) = span (base + a * v) ((b - a) * v).
Proof.
  intros base v b a V. revert a. apply (zrange_ind (fun a => a <= b -> flat_map (fun c => span (base + c * v) v) (zrange a b) = span (base + a * v) ((b - a) * v)) b).
  - intros a H H1. replace a with b by lia. rewrite zrange_nil by lia. simpl. replace ((b - b) * v) with 0 by lia. reflexivity.
  - intros a H IH _. rewrite zrange_cons by lia. simpl. rewrite IH by lia. rewrite !span_range.
    replace (base + (a + 1) * v) with (base + a * v + v) by ring.
    rewrite zrange_app by nia. f_equal. ring.
Qed.

Lemma flat_map_ext_in : forall {A B} (f g : A -> list B) l, (forall x, In x l -> f x = g x) -> flat_map f l = flat_map g l.
Proof. induction l as [|x l IH]; intros H; [reflexivity|]. simpl. rewrite (H x) by (left; reflexivity). f_equal. apply IH. intros y I. apply H. right. exact I. Qed.

Lemma flat_flat : forall {A B C} (f : A -> list B) (g : B -> list C) l, flat_map g (flat_map f l) = flat_map (fun x => flat_map g (f x)) l.
Proof. induction l as [|x l IH]; [reflexivity|]. simpl. rewrite flat_map_app, IH. reflexivity. Qed.

Lemma map_flat : forall {A B C} (f : A -> list B) (g : B -> C) l, map g (flat_map f l) = flat_map (fun x => map g (f x)) l.
Proof. induction l as [|x l IH]; [reflexivity|]. simpl. rewrite map_app, IH. reflexivity. Qed.

(** ** Runs *)

Fixpoint all_full (bounds : list (Z * Z)) (shape : list Z) : bool :=
  match bounds, shape with
  | b :: bs, n :: s => bound_eqb b (0, n) && all_full bs s
  | _, _ => true
  end.

Fixpoint runs_rec (z : Z) (shape : list Z) (bounds : list (Z * Z)) (base : Z) : list (Z * Z) :=
  match shape, bounds with
  | n :: s, (a, b) :: bs =>
    if all_full bs s then [(base + a * (volume s * z), (b - a) * (volume s * z))]
    else flat_map (fun c => runs_rec z s bs (base + c * (volume s * z))) (zrange a b)
  | _, _ => [(base, z)]
  end.

Fixpoint rowaddrs (z : Z) (shape : list Z) (bounds : list (Z * Z)) (base : Z) : list Z :=
  match shape, bounds with
  | n :: s, (a, b) :: bs => flat_map (fun c => rowaddrs z s bs (base + c * (volume s * z))) (zrange a b)
  | _, _ => span base z
  end.

Lemma bound_eqb_eq : forall a b, bound_eqb a b = true <-> a = b.
Proof.
  intros [a1 a2] [b1 b2]. unfold bound_eqb. simpl. rewrite andb_true_iff, !Z.eqb_eq. split; [intros [E1 E2]; subst; reflexivity|intros E; inversion E; auto].
Qed.

Lemma strides_fst : forall s z, fst (strides_acc s z) = volume s * z.
Proof. induction s as [|n s IH]; intros z; [cbn [strides_acc fst volume]; ring|]. cbn [strides_acc fst volume]. rewrite IH. ring. Qed.

Lemma strides_cons : forall n s z, byte_strides (n :: s) z = volume s * z :: byte_strides s z.
Proof. intros. unfold byte_strides. simpl. rewrite strides_fst. reflexivity. Qed.

Lemma full_le : forall l, (full_from l <= List.length l)%nat.
Proof. induction l as [|[b n] l IH]; simpl; [lia|]. destruct (bound_eqb b (0, n)); lia. Qed.

Lemma full_app : forall l b n, full_from (l ++ [(b, n)]) = if (full_from l =? List.length l)%nat then (if bound_eqb b (0, n) then S (List.length l) else List.length l) else full_from l.
Proof.
  induction l as [|[b' n'] l IH]; intros b n; simpl.
  - reflexivity.
  - destruct (bound_eqb b' (0, n')) eqn:E; [|simpl; reflexivity].
    rewrite IH. simpl. destruct (full_from l =? List.length l)%nat eqn:F; [|reflexivity].
    apply Nat.eqb_eq in F. destruct (bound_eqb b (0, n)); lia.
Qed.

Lemma full_all : forall bs s, List.length bs = List.length s -> (full_from (rev (combine bs s)) =? List.length s)%nat = all_full bs s.
Proof.
  induction bs as [|b bs IH]; intros [|n s] L; simpl in *; try discriminate; [reflexivity|].
  injection L as L. rewrite full_app, rev_length, combine_length, <- L, Nat.min_id. specialize (IH s L). rewrite <- L in IH. rewrite IH.
  destruct (all_full bs s) eqn:A; [destruct (bound_eqb b (0, n))|rewrite andb_false_r]; simpl.
  - apply Nat.eqb_eq. reflexivity.
  - apply Nat.eqb_neq. lia.
  - apply Nat.eqb_neq. pose proof (full_le (rev (combine bs s))) as F. rewrite rev_length, combine_length, <- L, Nat.min_id in F. lia.
Qed.

(** The runs before they are sorted *)
Definition raw (bounds : list (Z * Z)) (shape : list Z) (z base : Z) : list (Z * Z) :=
  let strides := byte_strides shape z in
  let full := full_from (rev (combine bounds shape)) in
  let boundary := (List.length shape - full - 1)%nat in
  let b := nth boundary bounds (0, 0) in
  let stride := nth boundary strides 0 in
  map (fun o => (add_coords (base + fst b * stride) o strides, (snd b - fst b) * stride)) (product (firstn boundary bounds)).

Lemma raw_rec : forall bounds shape z base, List.length bounds = List.length shape -> all_full bounds shape = false -> raw bounds shape z base = runs_rec z shape bounds base.
Proof.
  induction bounds as [|[a b] bs IH]; intros [|n s] z base L A; simpl in L; try discriminate. injection L as L.
  cbn [runs_rec]. unfold raw. cbn [combine rev]. rewrite full_app, rev_length, combine_length, L, Nat.min_id.
  rewrite (full_all bs s L). destruct (all_full bs s) eqn:AF.
  - assert (bound_eqb (a, b) (0, n) = false) as E by (simpl in A; rewrite AF, andb_true_r in A; exact A). rewrite E.
    replace (List.length (n :: s) - List.length s - 1)%nat with O by (cbn [List.length]; lia).
    rewrite strides_cons. simpl. reflexivity.
  - pose proof (full_all bs s L) as F0. rewrite AF in F0. apply Nat.eqb_neq in F0.
    pose proof (full_le (rev (combine bs s))) as F. rewrite rev_length, combine_length, L, Nat.min_id in F.
    replace (List.length (n :: s) - full_from (rev (combine bs s)) - 1)%nat with (S (List.length s - full_from (rev (combine bs s)) - 1)) by (cbn [List.length]; lia).
    set (k := (List.length s - full_from (rev (combine bs s)) - 1)%nat).
    rewrite strides_cons. cbn [nth firstn product]. rewrite map_flat. apply flat_map_ext_in. intros c _.
    rewrite <- (IH s z _ L AF). unfold raw. fold k. rewrite map_map. apply map_ext. intros o. cbn [add_coords].
    match goal with |- (add_coords ?x _ _, _) = (add_coords ?y _ _, _) => replace x with y by ring end. reflexivity.
Qed.

Lemma runs_within : forall shape bounds z base, 0 <= z -> part_of bounds shape ->
  0 <= volume shape /\ Forall (fun r => base <= fst r /\ 0 <= snd r /\ fst r + snd r <= base + volume shape * z) (runs_rec z shape bounds base).
Proof.
  intros shape bounds z base Z0 P. revert base. induction P as [|[a b] n bs s [H1 [H2 H3]] P IH]; intros base; cbn [runs_rec volume fst snd] in *.
  - split; [lia|]. constructor; [cbn [fst snd]; lia|constructor].
  - pose proof (proj1 (IH 0)) as V. assert (0 <= volume s * z) as V' by nia. split; [nia|].
    destruct (all_full bs s).
    + constructor; [|constructor]. simpl. set (v := volume s * z) in *. replace (n * volume s * z) with (n * v) by (unfold v; ring). nia.
    + apply Forall_flat_map. apply Forall_forall. intros c I. apply zrange_in in I.
      eapply Forall_impl; [|exact (proj2 (IH (base + c * (volume s * z))))]. simpl. intros [o l]. simpl.
      set (v := volume s * z) in *. replace (n * volume s * z) with (n * v) by (unfold v; ring). nia.
Qed.

Lemma ss_app : forall {A} (R : A -> A -> Prop) l1 l2, StronglySorted R l1 -> StronglySorted R l2 -> (forall x y, In x l1 -> In y l2 -> R x y) -> StronglySorted R (l1 ++ l2).
Proof.
  induction l1 as [|x l1 IH]; intros l2 S1 S2 H; [exact S2|]. inversion S1; subst. simpl. constructor.
  - apply IH; [assumption|exact S2|]. intros. apply H; [right|]; assumption.
  - apply Forall_app. split; [assumption|]. apply Forall_forall. intros y I. apply H; [left; reflexivity|exact I].
Qed.

Lemma runs_sorted : forall shape bounds z base, 0 <= z -> part_of bounds shape -> StronglySorted apart (runs_rec z shape bounds base).
Proof.
  intros shape bounds z base Z0 P. revert base. induction P as [|[a b] n bs s [H1 [H2 H3]] P IH]; intros base; simpl in *.
  - constructor; constructor.
  - destruct (all_full bs s); [constructor; constructor|].
    assert (forall c r, In r (runs_rec z s bs (base + c * (volume s * z))) -> base + c * (volume s * z) <= fst r /\ 0 <= snd r /\ fst r + snd r <= base + c * (volume s * z) + volume s * z) as W.
    { intros c r I. exact (proj1 (Forall_forall _ _) (proj2 (runs_within s bs z (base + c * (volume s * z)) Z0 P)) r I). }
    pose proof (proj1 (runs_within s bs z 0 Z0 P)) as V. clear H1 H3. revert a H2.
    apply (zrange_ind (fun a => a <= b -> StronglySorted apart (flat_map (fun c => runs_rec z s bs (base + c * (volume s * z))) (zrange a b))) b).
    + intros a L _. rewrite zrange_nil by exact L. constructor.
    + intros a L IHa _. rewrite zrange_cons by exact L. simpl. apply ss_app; [apply IH|apply IHa; lia|].
      intros x y Ix Iy. apply in_flat_map in Iy. destruct Iy as [c [Ic Iy]]. apply zrange_in in Ic.
      apply W in Ix. apply W in Iy. unfold apart. set (v := volume s * z) in *. assert (0 <= v) by (unfold v; nia). nia.
Qed.

Lemma insert_last : forall l x, Forall (fun y => run_leb y x = true) l -> insert_run x l = l ++ [x].
Proof. induction l as [|y l IH]; intros x F; [reflexivity|]. inversion F; subst. simpl. rewrite H1, IH by assumption. reflexivity. Qed.

Lemma sort_sorted : forall l, StronglySorted (fun a b => run_leb a b = true) l -> sort_runs l = l.
Proof.
  intros l S. unfold sort_runs. assert (forall acc, StronglySorted (fun a b => run_leb a b = true) (acc ++ l) -> fold_left (fun acc x => insert_run x acc) l acc = acc ++ l) as G.
  { clear S. induction l as [|x l IH]; intros acc S; simpl; [rewrite app_nil_r; reflexivity|].
    rewrite insert_last; [rewrite IH; [rewrite <- app_assoc; reflexivity|rewrite <- app_assoc; exact S]|].
    clear IH. induction acc as [|y acc IHa]; [constructor|]. simpl in S. inversion S; subst. constructor; [|apply IHa; assumption].
    apply Forall_app in H2. destruct H2 as [_ H2]. inversion H2; assumption. }
  apply (G [] S).
Qed.

Lemma ss_impl_in : forall {A} (R R' : A -> A -> Prop) l, (forall x y, In x l -> In y l -> R x y -> R' x y) -> StronglySorted R l -> StronglySorted R' l.
Proof.
  induction l as [|x l IH]; intros H S; [constructor|]. inversion S; subst. constructor.
  - apply IH; [|assumption]. intros a b Ia Ib. apply H; right; assumption.
  - apply Forall_forall. intros y I. apply H; [left; reflexivity|right; exact I|]. exact (proj1 (Forall_forall _ _) H3 y I).
Qed.

Lemma part_len : forall bounds shape, part_of bounds shape -> List.length bounds = List.length shape.
Proof. intros bounds shape P. induction P; simpl; congruence. Qed.

Lemma byte_runs_rec : forall bounds shape z base, 0 <= z -> part_of bounds shape -> byte_runs bounds shape z base = runs_rec z shape bounds base.
Proof.
  intros bounds shape z base Z0 P. pose proof (part_len _ _ P) as L. unfold byte_runs. destruct shape as [|n s]; [reflexivity|].
  rewrite (full_all bounds (n :: s) L). destruct (all_full bounds (n :: s)) eqn:A.
  - destruct bounds as [|[a b] bs]; [discriminate|]. simpl in A. apply andb_true_iff in A. destruct A as [A1 A2].
    rewrite bound_eqb_eq in A1. injection A1 as -> ->. cbn [runs_rec]. rewrite A2, strides_cons. simpl. f_equal. f_equal; ring.
  - fold (raw bounds (n :: s) z base). rewrite raw_rec by assumption. apply sort_sorted.
    eapply ss_impl_in; [|apply runs_sorted; assumption].
    intros x y Ix Iy R. pose proof (proj2 (runs_within _ _ z base Z0 P)) as W. rewrite Forall_forall in W. pose proof (W x Ix) as Wx. pose proof (W y Iy) as Wy.
    unfold apart in R. unfold run_leb. apply orb_true_iff. destruct (Z_lt_le_dec (fst x) (fst y)) as [Q|Q]; [left; apply Z.ltb_lt; exact Q|right].
    rewrite andb_true_iff, Z.eqb_eq, Z.leb_le. lia.
Qed.

Lemma full_addrs : forall shape bounds z base, 0 <= z -> part_of bounds shape -> all_full bounds shape = true -> rowaddrs z shape bounds base = span base (volume shape * z).
Proof.
  intros shape bounds z base Z0 P. revert base. induction P as [|[a b] n bs s [H1 [H2 H3]] P IH]; intros base A; cbn [rowaddrs all_full volume fst snd] in *.
  - f_equal. lia.
  - apply andb_true_iff in A. destruct A as [A1 A2]. rewrite bound_eqb_eq in A1. injection A1 as -> ->.
    rewrite (flat_map_ext_in _ (fun c => span (base + c * (volume s * z)) (volume s * z))) by (intros c _; apply IH; exact A2).
    pose proof (proj1 (runs_within s bs z 0 Z0 P)) as V. rewrite flat_span by nia. f_equal; ring.
Qed.

Lemma runs_addrs : forall shape bounds z base, 0 <= z -> part_of bounds shape -> addresses (runs_rec z shape bounds base) = rowaddrs z shape bounds base.
Proof.
  intros shape bounds z base Z0 P. revert base. induction P as [|[a b] n bs s [H1 [H2 H3]] P IH]; intros base; simpl in *.
  - apply app_nil_r.
  - destruct (all_full bs s) eqn:A.
    + rewrite (flat_map_ext_in _ (fun c => span (base + c * (volume s * z)) (volume s * z))) by (intros c _; apply full_addrs; assumption).
      pose proof (proj1 (runs_within s bs z 0 Z0 P)) as V. rewrite flat_span by nia. unfold addresses. simpl. apply app_nil_r.
    + unfold addresses. rewrite flat_flat. apply flat_map_ext_in. intros c _. apply IH.
Qed.

Lemma flat_len : forall {A} (f : Z -> list A) v b a, a <= b -> (forall c, a <= c < b -> Z.of_nat (List.length (f c)) = v) -> Z.of_nat (List.length (flat_map f (zrange a b))) = (b - a) * v.
Proof.
  intros A f v b. apply (zrange_ind (fun a => a <= b -> (forall c, a <= c < b -> Z.of_nat (List.length (f c)) = v) -> Z.of_nat (List.length (flat_map f (zrange a b))) = (b - a) * v) b).
  - intros a H H1 _. rewrite zrange_nil by lia. simpl. replace a with b by lia. ring.
  - intros a H IH _ F. rewrite zrange_cons by lia. simpl. rewrite app_length, Nat2Z.inj_add, IH; [|lia|intros; apply F; lia]. rewrite F by lia. ring.
Qed.

Lemma volume_dims : forall bounds shape, part_of bounds shape -> 0 <= volume (dims bounds).
Proof. intros bounds shape P. induction P as [|[a b] n bs s [H1 [H2 H3]] P IH]; simpl in *; [lia|]. nia. Qed.

Lemma rowaddrs_len : forall shape bounds z base, 0 <= z -> part_of bounds shape -> Z.of_nat (List.length (rowaddrs z shape bounds base)) = volume (dims bounds) * z.
Proof.
  intros shape bounds z base Z0 P. revert base. induction P as [|[a b] n bs s [H1 [H2 H3]] P IH]; intros base; cbn [rowaddrs volume dims map fst snd] in *.
  - rewrite span_range, zrange_len. lia.
  - rewrite (flat_len _ (volume (dims bs) * z)); [fold (dims bs); ring|lia|]. intros. apply IH.
Qed.

Lemma flat_nth : forall {A} (f : Z -> list A) v b i r a, (forall c, a <= c < b -> Z.of_nat (List.length (f c)) = v) -> a <= i -> i < b -> 0 <= r < v ->
  nth_error (flat_map f (zrange a b)) (Z.to_nat ((i - a) * v + r)) = nth_error (f i) (Z.to_nat r).
Proof.
  intros A f v b i r. apply (zrange_ind (fun a => (forall c, a <= c < b -> Z.of_nat (List.length (f c)) = v) -> a <= i -> i < b -> 0 <= r < v ->
  nth_error (flat_map f (zrange a b)) (Z.to_nat ((i - a) * v + r)) = nth_error (f i) (Z.to_nat r)) b).
  - intros. lia.
  - intros a H IH F L1 L2 R. rewrite zrange_cons by lia. simpl. pose proof (F a ltac:(lia)) as Fa.
    destruct (Z.eq_dec i a) as [->|N].
    + rewrite nth_error_app1 by nia. f_equal. f_equal. lia.
    + rewrite nth_error_app2 by nia. rewrite <- IH; [|intros; apply F; lia|lia|lia|lia]. f_equal. nia.
Qed.

Lemma row_major_bound : forall idx bounds shape, part_of bounds shape -> inside idx bounds -> 0 <= row_major (dims bounds) (local idx bounds) < volume (dims bounds).
Proof.
  intros idx bounds shape P I. revert shape P. induction I as [|i [a b] r bs [H1 H2] I IH]; intros shape P; simpl in *; [lia|].
  inversion P; subst. specialize (IH _ H5). fold (dims bs). simpl in *. nia.
Qed.

Lemma rowaddrs_nth : forall idx bounds shape z base k, 0 <= z -> part_of bounds shape -> inside idx bounds -> 0 <= k < z ->
  nth_error (rowaddrs z shape bounds base) (Z.to_nat (row_major (dims bounds) (local idx bounds) * z + k)) = Some (base + row_major shape idx * z + k).
Proof.
  intros idx bounds shape z base k Z0 P I K. revert base shape P. induction I as [|i [a b] r bs [H1 H2] I IH]; intros base shape P.
  - inversion P; subst. simpl. unfold span. rewrite nth_error_map, nth_error_nth' with (d := O) by (rewrite seq_length; lia).
    rewrite seq_nth by lia. simpl. f_equal. lia.
  - inversion P as [|? n ? s [P1 [P2 P3]] P']; subst. simpl in *. fold (dims bs).
    pose proof (row_major_bound _ _ _ P' I) as R.
    replace (((i - a) * volume (dims bs) + row_major (dims bs) (local r bs)) * z + k) with ((i - a) * (volume (dims bs) * z) + (row_major (dims bs) (local r bs) * z + k)) by ring.
    rewrite (flat_nth _ (volume (dims bs) * z)); [|intros; apply rowaddrs_len; assumption|lia|lia|nia].
    rewrite IH by assumption. f_equal. ring.
Qed.

(** ** Blocks *)

Definition off_le (a b : nat * (Z * Z)) : Prop := fst (snd a) <= fst (snd b).

(** A group of runs is a block. *)
Definition grouped (g : list (nat * (Z * Z))) (start stop : Z) : Prop :=
  (exists x, In x g /\ fst (snd x) = start) /\
  (exists x, In x g /\ fst (snd x) + snd (snd x) = stop) /\
  Forall (fun x => start <= fst (snd x) /\ fst (snd x) + snd (snd x) <= stop) g.

Definition total_of (g : list (nat * (Z * Z))) : Z := fold_right Z.add 0 (map (fun x => snd (snd x)) g).

Lemma total_app : forall g h, total_of (g ++ h) = total_of g + total_of h.
Proof. induction g as [|x g IH]; intros h; unfold total_of in *; simpl; [lia|]. rewrite IH. lia. Qed.

Lemma grouped_snoc : forall g start stop i o n, grouped g start stop -> start <= o -> 0 <= n -> grouped (g ++ [(i, (o, n))]) start (Z.max stop (o + n)).
Proof.
  intros g start stop i o n [[x [Ix Ex]] [[y [Iy Ey]] F]] S N. split; [|split].
  - exists x. split; [apply in_or_app; left; exact Ix|exact Ex].
  - destruct (Z_le_gt_dec stop (o + n)) as [L|L].
    + exists (i, (o, n)). split; [apply in_or_app; right; left; reflexivity|simpl; lia].
    + exists y. split; [apply in_or_app; left; exact Iy|lia].
  - apply Forall_app. split.
    + eapply Forall_impl; [|exact F]. simpl. intros a [A1 A2]. lia.
    + constructor; [simpl; lia|constructor].
Qed.

Lemma grouped_one : forall i o n, grouped [(i, (o, n))] o (o + n).
Proof. intros. split; [|split]; [exists (i, (o, n)); simpl; auto|exists (i, (o, n)); simpl; auto|constructor; [simpl; lia|constructor]]. Qed.

(** What a block is for a group: members, range, and the bound of what is read in vain *)
Definition block_ok (bound : Z -> Z -> Z -> Prop) (b : block) (g : list (nat * (Z * Z))) : Prop :=
  b_members b = map fst g /\ grouped g (b_start b) (b_end b) /\ bound (b_end b - b_start b) (total_of g) (Z.of_nat (List.length g)).

Lemma ploop_groups : forall (bound : Z -> Z -> Z -> Prop) fits gap,
  (forall n, 0 <= n -> bound n n 1) ->
  (forall size needed k n size', bound size needed k -> 0 <= n -> 0 <= gap -> size' <= size + gap + n -> bound size' (needed + n) (k + 1)) ->
  (forall size needed k, 1 <= k -> fits size needed = true -> bound size needed k) -> 0 <= gap ->
  forall l start stop needed g, Forall (fun x => 0 <= snd (snd x)) l -> StronglySorted off_le l -> Forall (fun x => start <= fst (snd x)) l ->
  grouped g start stop -> needed = total_of g -> bound (stop - start) needed (Z.of_nat (List.length g)) ->
  exists gs, List.concat gs = g ++ l /\ Forall2 (block_ok bound) (partition_loop fits gap l start stop needed (map fst g)) gs.
Proof.
  intros bound fits gap B1 B2 B3 G. induction l as [|[i [o n]] l IH]; intros start stop needed g N S L C E B.
  - exists [g]. simpl. rewrite app_nil_r. split; [reflexivity|]. constructor; [|constructor]. unfold block_ok. simpl. subst needed. auto.
  - inversion N as [|? ? N1 N2]; subst. inversion S as [|? ? S1 S2]; subst. inversion L as [|? ? L1 L2]; subst. simpl in N1, L1.
    cbn [partition_loop]. destruct ((o - stop <=? gap) || fits (Z.max stop (o + n) - start) (total_of g + n)) eqn:Q.
    + destruct (IH start (Z.max stop (o + n)) (total_of g + n) (g ++ [(i, (o, n))])) as [gs [G1 G2]]; try assumption.
      * apply grouped_snoc; assumption.
      * rewrite total_app. unfold total_of at 3. simpl. lia.
      * rewrite app_length, Nat2Z.inj_add. simpl (Z.of_nat (List.length [_])). apply orb_true_iff in Q. destruct Q as [Q|Q].
        -- apply Z.leb_le in Q. apply (B2 (stop - start)); [assumption|assumption|assumption|].
           lia.
        -- apply B3; [lia|exact Q].
      * exists gs. rewrite map_app in G2. simpl in G2. split; [rewrite G1, <- app_assoc; reflexivity|exact G2].
    + destruct (IH o (o + n) n [(i, (o, n))]) as [gs [G1 G2]]; try assumption.
      * apply grouped_one.
      * unfold total_of. simpl. lia.
      * simpl (Z.of_nat _). replace (o + n - o) with n by lia. apply B1. exact N1.
      * exists (g :: gs). split; [simpl; rewrite G1; reflexivity|]. constructor; [|exact G2]. unfold block_ok. simpl. auto.
Qed.

Lemma ploop_apart : forall fits gap, 0 <= gap -> forall l start stop needed mem, Forall (fun x => 0 <= snd (snd x)) l -> StronglySorted off_le l -> Forall (fun x => start <= fst (snd x)) l -> start <= stop ->
  Forall (fun b => start <= b_start b /\ b_start b <= b_end b) (partition_loop fits gap l start stop needed mem) /\
  StronglySorted (fun a b => b_end a + gap < b_start b) (partition_loop fits gap l start stop needed mem).
Proof.
  intros fits gap G. induction l as [|[i [o n]] l IH]; intros start stop needed mem N S L C.
  - simpl. split; [constructor; [simpl; lia|constructor]|constructor; constructor].
  - inversion N as [|? ? N1 N2]; subst. inversion S as [|? ? S1 S2]; subst. inversion L as [|? ? L1 L2]; subst. simpl in N1, L1.
    cbn [partition_loop]. destruct ((o - stop <=? gap) || fits (Z.max stop (o + n) - start) (needed + n)) eqn:Q.
    + apply IH; try assumption. lia.
    + apply orb_false_iff in Q. destruct Q as [Q _]. apply Z.leb_gt in Q.
      destruct (IH o (o + n) n [i]) as [F1 F2]; try assumption.
      * lia.
      * split.
        -- constructor; [simpl; lia|]. eapply Forall_impl; [|exact F1]. simpl. intros a. lia.
        -- constructor; [exact F2|]. eapply Forall_impl; [|exact F1]. simpl. intros a. lia.
Qed.

Lemma enum_sorted : forall runs : list (Z * Z), let l := py_sorted (fun x => fst (snd x)) (enumerate runs) in Permutation l (enumerate runs) /\ StronglySorted off_le l.
Proof.
  intros runs. simpl. split; [apply Manager_Proofs.py_sorted_perm|]. apply Manager_Proofs.py_sorted_sorted.
Qed.

Lemma enum_forall : forall (P : Z * Z -> Prop) (runs : list (Z * Z)), Forall P runs -> Forall (fun x => P (snd x)) (enumerate runs).
Proof.
  intros P runs F. apply Forall_forall. intros [i x] I. apply Emergency_Proofs.enum_in in I. apply nth_error_In in I. rewrite Forall_forall in F. apply F. exact I.
Qed.

Lemma partition_groups : forall (bound : Z -> Z -> Z -> Prop) fits gap runs,
  (forall n, 0 <= n -> bound n n 1) ->
  (forall size needed k n size', bound size needed k -> 0 <= n -> 0 <= gap -> size' <= size + gap + n -> bound size' (needed + n) (k + 1)) ->
  (forall size needed k, 1 <= k -> fits size needed = true -> bound size needed k) -> 0 <= gap ->
  Forall (fun r => 0 <= snd r) runs ->
  exists gs, Permutation (List.concat gs) (enumerate runs) /\ StronglySorted off_le (List.concat gs) /\ Forall2 (block_ok bound) (partition fits gap runs) gs.
Proof.
  intros bound fits gap runs B1 B2 B3 G N. destruct (enum_sorted runs) as [P S]. unfold partition.
  assert (Forall (fun x => 0 <= snd (snd x)) (py_sorted (fun x : nat * (Z * Z) => fst (snd x)) (enumerate runs))) as N'.
  { apply Forall_forall. intros x I. apply (Permutation_in x P) in I. exact (proj1 (Forall_forall _ _) (enum_forall _ _ N) x I). }
  destruct (py_sorted (fun x => fst (snd x)) (enumerate runs)) as [|[i [o n]] l].
  - exists []. simpl. split; [exact P|]. split; constructor.
  - inversion N' as [|? ? N1 N2]; subst. inversion S as [|? ? S1 S2]; subst. simpl in N1.
    destruct (ploop_groups bound fits gap B1 B2 B3 G l o (o + n) n [(i, (o, n))]) as [gs [G1 G2]]; try assumption.
    + apply grouped_one.
    + unfold total_of. simpl. lia.
    + simpl (Z.of_nat _). replace (o + n - o) with n by lia. apply B1. exact N1.
    + exists gs. rewrite G1. simpl. auto.
Qed.

Lemma partition_apart : forall fits gap runs, 0 <= gap -> Forall (fun r => 0 <= snd r) runs ->
  Forall (fun b => b_start b <= b_end b) (partition fits gap runs) /\ StronglySorted (fun a b => b_end a + gap < b_start b) (partition fits gap runs).
Proof.
  intros fits gap runs G N. destruct (enum_sorted runs) as [P S]. unfold partition.
  assert (Forall (fun x => 0 <= snd (snd x)) (py_sorted (fun x : nat * (Z * Z) => fst (snd x)) (enumerate runs))) as N'.
  { apply Forall_forall. intros x I. apply (Permutation_in x P) in I. exact (proj1 (Forall_forall _ _) (enum_forall _ _ N) x I). }
  destruct (py_sorted (fun x => fst (snd x)) (enumerate runs)) as [|[i [o n]] l]; [split; constructor|].
  inversion N' as [|? ? N1 N2]; subst. inversion S as [|? ? S1 S2]; subst. simpl in N1.
  destruct (ploop_apart fits gap G l o (o + n) n [i]) as [F1 F2]; try assumption.
  - lia.
  - split; [|exact F2]. eapply Forall_impl; [|exact F1]. simpl. intros a. lia.
Qed.

(** ** Chunks *)

Definition roff_le (a b : read) : Prop := r_off a <= r_off b.

Lemma write_below : forall s e r, r_off r + r_len r <= s -> write_of s e r = [].
Proof. intros s e r H. unfold write_of. replace (Z.max (r_off r) s <? Z.min (r_off r + r_len r) e) with false; [reflexivity|]. symmetry. apply Z.ltb_ge. lia. Qed.

Lemma write_above : forall s e r, e <= r_off r -> write_of s e r = [].
Proof. intros s e r H. unfold write_of. replace (Z.max (r_off r) s <? Z.min (r_off r + r_len r) e) with false; [reflexivity|]. symmetry. apply Z.ltb_ge. lia. Qed.

Lemma flat_nil : forall {A B} (f : A -> list B) l, Forall (fun x => f x = []) l -> flat_map f l = [].
Proof. intros A B f l F. induction F; simpl; [reflexivity|]. rewrite H, IHF. reflexivity. Qed.

Lemma until_all : forall s e l, StronglySorted roff_le l -> writes_until s e l = flat_map (write_of s e) l.
Proof.
  intros s e l S. induction S as [|r l S IH F]; [reflexivity|]. cbn [writes_until flat_map].
  destruct (e <=? r_off r) eqn:E; [|rewrite IH; reflexivity]. apply Z.leb_le in E.
  rewrite write_above by exact E. simpl. symmetry. apply flat_nil. eapply Forall_impl; [|exact F]. intros x. unfold roff_le. intros. apply write_above. lia.
Qed.

Lemma skip_split : forall s l, exists d, l = d ++ skip_below s l /\ Forall (fun r => r_off r + r_len r <= s) d.
Proof.
  induction l as [|r l IH]; [exists []; split; [reflexivity|constructor]|]. simpl. destruct (s <? r_off r + r_len r) eqn:E.
  - exists []. split; [reflexivity|constructor].
  - destruct IH as [d [E1 F]]. exists (r :: d). simpl. rewrite <- E1. split; [reflexivity|]. constructor; [apply Z.ltb_ge in E; exact E|exact F].
Qed.

Lemma ss_suffix : forall {A} (R : A -> A -> Prop) d l, StronglySorted R (d ++ l) -> StronglySorted R l.
Proof. induction d as [|x d IH]; intros l S; [exact S|]. inversion S; subst. apply IH. assumption. Qed.

Lemma chunk_loop_all : forall starts size stop d l, StronglySorted roff_le l -> StronglySorted Z.le starts -> (forall s, In s starts -> Forall (fun r => r_off r + r_len r <= s) d) ->
  chunk_loop starts size stop l = map (fun s => mkChunk s (Z.min (s + size) stop - s) (flat_map (write_of s (Z.min (s + size) stop)) (d ++ l))) starts.
Proof.
  induction starts as [|s starts IH]; intros size stop d l S T D; [reflexivity|]. inversion T as [|? ? T1 T2]; subst.
  cbn [chunk_loop map]. destruct (skip_split s l) as [d' [E F]].
  assert (StronglySorted roff_le (skip_below s l)) as S' by (rewrite E in S; exact (ss_suffix _ _ _ S)).
  assert (forall s', s <= s' -> Forall (fun r => r_off r + r_len r <= s') (d ++ d')) as DD.
  { intros s' L. apply Forall_app. split; (eapply Forall_impl; [|first [exact F|exact (D s (or_introl eq_refl))]]); simpl; intros; lia. }
  f_equal.
  - f_equal. rewrite until_all by exact S'. rewrite E at 2. rewrite app_assoc, flat_map_app, (flat_nil _ (d ++ d')); [reflexivity|].
    eapply Forall_impl; [|exact (DD s (Z.le_refl s))]. intros r H. apply write_below. exact H.
  - rewrite (IH size stop (d ++ d') (skip_below s l) S' T1).
    + rewrite <- app_assoc, <- E. reflexivity.
    + intros s' I. apply DD. rewrite Forall_forall in T2. apply T2. exact I.
Qed.

Lemma starts_sorted : forall start stop size, 0 < size -> StronglySorted Z.le (chunk_starts start stop size).
Proof.
  intros start stop size H. unfold chunk_starts. generalize (Z.to_nat ((stop - start + size - 1) / size)) as n. generalize O as k.
  intros k n. revert k. induction n as [|n IH]; intros k; simpl; [constructor|]. constructor; [apply IH|].
  apply Forall_forall. intros x I. apply in_map_iff in I. destruct I as [i [E I]]. apply in_seq in I. nia.
Qed.

Lemma starts_in : forall start stop size s, 0 < size -> start <= stop -> In s (chunk_starts start stop size) <-> exists i, 0 <= i /\ s = start + i * size /\ s < stop.
Proof.
  intros start stop size s H L. unfold chunk_starts. rewrite in_map_iff.
  assert (0 <= (stop - start + size - 1) / size) as Q by (apply Z.div_pos; lia). split.
  - intros [i [E I]]. apply in_seq in I. exists (Z.of_nat i). split; [lia|]. split; [lia|].
    assert (Z.of_nat i + 1 <= (stop - start + size - 1) / size) as I' by lia.
    assert (size * ((stop - start + size - 1) / size) <= stop - start + size - 1) as M by (apply Z.mul_div_le; lia). nia.
  - intros [i [I [E S]]]. exists (Z.to_nat i). split; [rewrite Z2Nat.id by lia; symmetry; exact E|]. apply in_seq. split; [lia|].
    assert (i < (stop - start + size - 1) / size) as G; [|lia]. apply Z.lt_le_trans with (i + 1); [lia|]. apply Z.div_le_lower_bound; [lia|]. nia.
Qed.

Lemma starts_cover : forall start stop size x, 0 < size -> start <= x < stop -> exists s, In s (chunk_starts start stop size) /\ s <= x < Z.min (s + size) stop.
Proof.
  intros start stop size x H X. exists (start + (x - start) / size * size). pose proof (Z.div_mod (x - start) size ltac:(lia)) as D. pose proof (Z.mod_pos_bound (x - start) size H) as M.
  assert (0 <= (x - start) / size) by (apply Z.div_pos; lia). split; [|nia]. apply starts_in; [exact H|lia|].
  exists ((x - start) / size). split; [assumption|]. split; [reflexivity|nia].
Qed.

(** ** What the chunks of reads are *)

Lemma members_reads : forall reads g, (forall x, In x g -> In x (enumerate (map (fun r => (r_off r, r_len r)) reads))) ->
  Forall2 (fun x r => nth_error reads (fst x) = Some r /\ snd x = (r_off r, r_len r)) g
    (flat_map (fun i => match nth_error reads i with Some r => [r] | None => [] end) (map fst g)).
Proof.
  intros reads. induction g as [|[i x] g IH]; intros H; [constructor|]. simpl.
  pose proof (H (i, x) (or_introl eq_refl)) as I. apply Emergency_Proofs.enum_in in I. rewrite nth_error_map in I.
  destruct (nth_error reads i) as [r|] eqn:E; [|discriminate]. simpl in I. injection I as I. simpl. constructor.
  - simpl. auto.
  - apply IH. intros y Iy. apply H. right. exact Iy.
Qed.

Lemma f2_sorted : forall {A B} (R : A -> B -> Prop) (S : A -> A -> Prop) (T : B -> B -> Prop) l m, Forall2 R l m -> (forall x x' y y', R x y -> R x' y' -> S x x' -> T y y') -> StronglySorted S l -> StronglySorted T m.
Proof.
  intros A B R S T l m F H. induction F as [|x y l m X F IH]; intros SS; [constructor|]. inversion SS as [|? ? S1 S2]; subst. constructor; [apply IH; exact S1|].
  clear IH SS S1. induction F as [|x' y' l m X' F IH]; [constructor|]. inversion S2; subst. constructor; [apply (H x x'); assumption|apply IH; assumption].
Qed.

Lemma ss_concat : forall {A} (R : A -> A -> Prop) gs g, StronglySorted R (List.concat gs) -> In g gs -> StronglySorted R g.
Proof.
  induction gs as [|h gs IH]; intros g S I; [destruct I|]. simpl in S. destruct I as [->|I]; [|apply IH; [exact (ss_suffix _ _ _ S)|exact I]].
  clear IH. induction g as [|x g IH]; [constructor|]. simpl in S. inversion S; subst. constructor; [apply IH; assumption|]. apply Forall_app in H2. exact (proj1 H2).
Qed.

Lemma f2_left : forall {A B} (R : A -> B -> Prop) l m x, Forall2 R l m -> In x l -> exists y, In y m /\ R x y.
Proof. intros A B R l m x F. induction F as [|a b l m X F IH]; intros I; [destruct I|]. destruct I as [<-|I]; [exists b; split; [left; reflexivity|exact X]|]. destruct (IH I) as [y [I' Y]]. exists y. split; [right; exact I'|exact Y]. Qed.

Lemma f2_right : forall {A B} (R : A -> B -> Prop) l m y, Forall2 R l m -> In y m -> exists x, In x l /\ R x y.
Proof. intros A B R l m y F. induction F as [|a b l m X F IH]; intros I; [destruct I|]. destruct I as [<-|I]; [exists a; split; [left; reflexivity|exact X]|]. destruct (IH I) as [x [I' Y]]. exists x. split; [right; exact I'|exact Y]. Qed.

(** A chunk, for the reads of its block *)
Definition chunk_of (size stop : Z) (ms : list read) (s : Z) : chunk :=
  mkChunk s (Z.min (s + size) stop - s) (flat_map (write_of s (Z.min (s + size) stop)) ms).

(** The blocks of a plan with the reads that they have *)
Lemma plan_blocks : forall reads ratio size cs, Forall (fun r => 0 <= r_len r) reads -> 0 < size -> plan_chunk_reads reads ratio size = Ok cs ->
  exists bs mss, Forall2 (fun b ms => (forall r, In r ms -> In r reads /\ b_start b <= r_off r /\ r_off r + r_len r <= b_end b) /\
                                      (exists r, In r ms /\ r_off r = b_start b) /\ (exists r, In r ms /\ r_off r + r_len r = b_end b)) bs mss /\
    (forall r, In r reads -> exists ms, In ms mss /\ In r ms) /\
    Forall (fun b => b_start b <= b_end b) bs /\ StronglySorted (fun a b => b_end a < b_start b) bs /\
    cs = flat_map (fun x => map (chunk_of size (b_end (fst x)) (snd x)) (chunk_starts (b_start (fst x)) (b_end (fst x)) size)) (combine bs mss).
Proof.
  intros reads ratio size cs N Z0 E. unfold plan_chunk_reads in E. set (runs := map (fun r => (r_off r, r_len r)) reads) in *.
  destruct (match ratio with Some q => Ok q | None => auto_ratio runs end) as [q|]; [|discriminate]. simpl in E.
  destruct (partition_runs q default_gap runs) as [bs|] eqn:P; [|discriminate]. simpl in E.
  destruct ((size =? 0) && negb (List.length bs =? 0)%nat); [discriminate|]. injection E as <-.
  assert (Forall (fun r => 0 <= snd r) runs) as N'.
  { apply Forall_forall. intros x I. apply in_map_iff in I. destruct I as [r [<- I]]. simpl. rewrite Forall_forall in N. apply N. exact I. }
  assert (bs = partition (within q) default_gap runs) as ->.
  { unfold partition_runs in P. destruct runs as [|r0 runs']; [injection P as <-; reflexivity|]. destruct (fst q <? snd q); [discriminate|]. injection P as <-. reflexivity. }
  clear P. destruct (partition_apart (within q) default_gap runs ltac:(unfold default_gap; lia) N') as [A1 A2].
  destruct (partition_groups (fun _ _ _ => True) (within q) default_gap runs (fun _ _ => I) (fun _ _ _ _ _ _ _ _ _ => I) (fun _ _ _ _ _ => I) ltac:(unfold default_gap; lia) N') as [gs [P [S F]]].
  set (bs := partition (within q) default_gap runs) in *.
  set (ms_of := fun mem => flat_map (fun i => match nth_error reads i with Some r => [r] | None => [] end) mem).
  exists bs, (map (fun b => ms_of (b_members b)) bs).
  assert (forall g, In g gs -> forall x, In x g -> In x (enumerate runs)) as Sub.
  { intros g I x Ix. apply (Permutation_in x P). apply in_concat. exists g. auto. }
  assert (forall b, In b bs -> exists g, In g gs /\ b_members b = map fst g /\ grouped g (b_start b) (b_end b) /\ Forall2 (fun x r => nth_error reads (fst x) = Some r /\ snd x = (r_off r, r_len r)) g (ms_of (b_members b))) as BG.
  { intros b I. destruct (f2_left _ _ _ _ F I) as [g [Ig [M [G _]]]]. exists g. split; [exact Ig|]. split; [exact M|]. split; [exact G|].
    rewrite M. apply members_reads. apply Sub. exact Ig. }
  split; [|split; [|split; [exact A1|split]]].
  - assert (forall l, incl l bs -> Forall2 (fun b ms => (forall r, In r ms -> In r reads /\ b_start b <= r_off r /\ r_off r + r_len r <= b_end b) /\
                                      (exists r, In r ms /\ r_off r = b_start b) /\ (exists r, In r ms /\ r_off r + r_len r = b_end b)) l (map (fun b => ms_of (b_members b)) l)) as G; [|apply G; apply incl_refl].
    induction l as [|b l IH]; intros I; [constructor|]. simpl. constructor; [|apply IH; intros y Iy; apply I; right; exact Iy].
    destruct (BG b (I b (or_introl eq_refl))) as [g [Ig [M [[[x [Ix Ex]] [[y [Iy Ey]] G]] F']]]]. split; [|split].
    + intros r Ir. destruct (f2_right _ _ _ _ F' Ir) as [u [Iu [U1 U2]]]. split; [exact (nth_error_In _ _ U1)|].
      rewrite Forall_forall in G. pose proof (G u Iu) as Q. rewrite U2 in Q. exact Q.
    + destruct (f2_left _ _ _ _ F' Ix) as [r [Ir [_ R]]]. exists r. split; [exact Ir|]. rewrite R in Ex. exact Ex.
    + destruct (f2_left _ _ _ _ F' Iy) as [r [Ir [_ R]]]. exists r. split; [exact Ir|]. rewrite R in Ey. exact Ey.
  - intros r I. apply In_nth_error in I. destruct I as [i I].
    assert (In (i, (r_off r, r_len r)) (enumerate runs)) as J. { apply Emergency_Proofs.enum_in. unfold runs. rewrite nth_error_map, I. reflexivity. }
    apply (Permutation_in _ (Permutation_sym P)) in J. apply in_concat in J. destruct J as [g [Ig J]].
    destruct (f2_right _ _ _ _ F Ig) as [b [Ib [M _]]]. exists (ms_of (b_members b)). split; [apply in_map_iff; exists b; auto|].
    unfold ms_of. apply in_flat_map. exists i. split; [rewrite M; apply in_map_iff; exists (i, (r_off r, r_len r)); auto|]. rewrite I. left. reflexivity.
  - eapply ss_impl_in; [|exact A2]. simpl. unfold default_gap. intros. lia.
  - assert (forall l, incl l bs -> flat_map (block_chunks size reads) l = flat_map (fun x => map (chunk_of size (b_end (fst x)) (snd x)) (chunk_starts (b_start (fst x)) (b_end (fst x)) size)) (combine l (map (fun b => ms_of (b_members b)) l))) as G; [|apply G; apply incl_refl].
    induction l as [|b l IH]; intros I; [reflexivity|]. simpl. rewrite IH by (intros y Iy; apply I; right; exact Iy). f_equal.
    unfold block_chunks. fold (ms_of (b_members b)). destruct (BG b (I b (or_introl eq_refl))) as [g [Ig [M [G F']]]].
    rewrite (chunk_loop_all _ _ _ []); [reflexivity| |apply starts_sorted; exact Z0|constructor].
    apply (f2_sorted _ off_le roff_le g _ F'); [|exact (ss_concat _ _ _ S Ig)].
    intros x x' y y' [_ R1] [_ R2] O. unfold off_le in O. unfold roff_le. rewrite R1, R2 in O. exact O.
Qed.

(** A write of a chunk for a read: the bytes from [lo] to [hi] *)
Definition serves (c : chunk) (w : write) (r : read) (lo hi : Z) : Prop :=
  r_off r <= lo /\ lo < hi /\ hi <= r_off r + r_len r /\ c_off c <= lo /\ hi <= c_off c + c_len c /\
  w = mkWrite (r_buf r) (r_pos r + Z.min (lo - r_off r) (r_dlen r)) (Z.min (hi - r_off r) (r_dlen r) - Z.min (lo - r_off r) (r_dlen r)) (lo - c_off c) (hi - c_off c).

Lemma combine_f2 : forall {A B} (R : A -> B -> Prop) l m x y, Forall2 R l m -> In (x, y) (combine l m) -> R x y /\ In x l /\ In y m.
Proof. intros A B R l m x y F. induction F as [|a b l m X F IH]; intros I; [destruct I|]. destruct I as [E|I]; [injection E as <- <-; auto with datatypes|]. destruct (IH I) as [U [V W]]. split; [exact U|]. split; right; assumption. Qed.

Lemma combine_right : forall {A B} (R : A -> B -> Prop) l m y, Forall2 R l m -> In y m -> exists x, In (x, y) (combine l m).
Proof. intros A B R l m y F. induction F as [|a b l m X F IH]; intros I; [destruct I|]. destruct I as [<-|I]; [exists a; left; reflexivity|]. destruct (IH I) as [x J]. exists x. right. exact J. Qed.

Lemma plan_serves : forall reads ratio size cs, Forall (fun r => 0 <= r_len r) reads -> 0 < size -> plan_chunk_reads reads ratio size = Ok cs ->
  (forall c, In c cs -> 0 < c_len c /\ c_len c <= size /\ (exists r, In r reads /\ r_off r <= c_off c) /\ (exists r, In r reads /\ c_off c + c_len c <= r_off r + r_len r)) /\
  (forall c w, In c cs -> In w (c_writes c) -> exists r lo hi, In r reads /\ serves c w r lo hi) /\
  (forall r x, In r reads -> r_off r <= x < r_off r + r_len r -> exists c w lo hi, In c cs /\ In w (c_writes c) /\ serves c w r lo hi /\ lo <= x < hi) /\
  StronglySorted (fun a b => c_off a + c_len a <= c_off b) cs.
Proof.
  intros reads ratio size cs N Z0 E. destruct (plan_blocks _ _ _ _ N Z0 E) as [bs [mss [F [C [A1 [A2 ->]]]]]].
  assert (forall c, In c (flat_map (fun x => map (chunk_of size (b_end (fst x)) (snd x)) (chunk_starts (b_start (fst x)) (b_end (fst x)) size)) (combine bs mss)) <->
    exists b ms s, In (b, ms) (combine bs mss) /\ In s (chunk_starts (b_start b) (b_end b) size) /\ c = chunk_of size (b_end b) ms s) as Ch.
  { intros c. rewrite in_flat_map. split.
    - intros [[b ms] [I J]]. apply in_map_iff in J. destruct J as [s [J K]]. exists b, ms, s. simpl in *. auto.
    - intros [b [ms [s [I [J K]]]]]. exists (b, ms). split; [exact I|]. simpl. apply in_map_iff. exists s. auto. }
  assert (forall b, In b bs -> b_start b <= b_end b) as LE by (rewrite Forall_forall in A1; exact A1).
  split; [|split; [|split]].
  - intros c I. apply Ch in I. destruct I as [b [ms [s [I [J ->]]]]]. simpl. destruct (combine_f2 _ _ _ _ _ F I) as [[G1 [[r [Ir Er]] [r' [Ir' Er']]]] [Ib _]].
    apply starts_in in J; [|exact Z0|apply LE; exact Ib]. destruct J as [i [Hi [Es Hs]]].
    split; [lia|]. split; [lia|]. split; [exists r; split; [exact (proj1 (G1 r Ir))|nia]|exists r'; split; [exact (proj1 (G1 r' Ir'))|lia]].
  - intros c w I W. apply Ch in I. destruct I as [b [ms [s [I [J ->]]]]]. simpl in W. apply in_flat_map in W. destruct W as [r [Ir W]].
    destruct (combine_f2 _ _ _ _ _ F I) as [[G1 _] _]. exists r. unfold write_of in W.
    destruct (Z.max (r_off r) s <? Z.min (r_off r + r_len r) (Z.min (s + size) (b_end b))) eqn:L; [|destruct W]. apply Z.ltb_lt in L.
    destruct W as [<-|[]]. exists (Z.max (r_off r) s), (Z.min (r_off r + r_len r) (Z.min (s + size) (b_end b))). split; [exact (proj1 (G1 r Ir))|].
    unfold serves. simpl. repeat (split; [lia|]). reflexivity.
  - intros r x I X. destruct (C r I) as [ms [Ims Ir]]. destruct (combine_right _ _ _ _ F Ims) as [b Ib].
    destruct (combine_f2 _ _ _ _ _ F Ib) as [[G1 _] _]. pose proof (G1 r Ir) as [_ [L1 L2]].
    destruct (starts_cover (b_start b) (b_end b) size x Z0 ltac:(lia)) as [s [Is Hs]].
    exists (chunk_of size (b_end b) ms s).
    assert (Z.max (r_off r) s < Z.min (r_off r + r_len r) (Z.min (s + size) (b_end b))) as L by lia.
    eexists. exists (Z.max (r_off r) s), (Z.min (r_off r + r_len r) (Z.min (s + size) (b_end b))).
    split; [apply Ch; exists b, ms, s; auto|]. split; [|split].
    + simpl. apply in_flat_map. exists r. split; [exact Ir|]. unfold write_of. apply Z.ltb_lt in L. rewrite L. left. reflexivity.
    + unfold serves. simpl. repeat (split; [lia|]). reflexivity.
    + lia.
  - clear C Ch N E. revert A1 A2 LE. induction F as [|b ms bs mss X F IH]; intros A1 A2 LE; [constructor|].
    inversion A1; subst. inversion A2 as [|? ? S1 S2]; subst. cbn [combine flat_map fst snd]. apply ss_app.
    + clear - Z0. unfold chunk_starts. generalize (Z.to_nat ((b_end b - b_start b + size - 1) / size)) as n. generalize O as k.
      intros k n. revert k. induction n as [|n IH]; intros k; simpl; [constructor|]. constructor; [apply IH|].
      apply Forall_forall. intros c I. rewrite map_map in I. apply in_map_iff in I. destruct I as [i [<- I]]. apply in_seq in I. simpl. nia.
    + apply IH; [assumption|assumption|]. intros y Iy. apply LE. right. exact Iy.
    + intros c c' I I'. apply in_map_iff in I. destruct I as [s [<- I]]. apply in_flat_map in I'. destruct I' as [[b' ms'] [J I']].
      apply in_map_iff in I'. destruct I' as [s' [<- I']]. simpl in *. destruct (combine_f2 _ _ _ _ _ F J) as [_ [Ib' _]].
      rewrite Forall_forall in S2. pose proof (S2 b' Ib') as Q. apply starts_in in I'; [|exact Z0|apply LE; right; exact Ib']. destruct I' as [i [Hi [Es Hs]]].
      pose proof (LE b (or_introl eq_refl)). nia.
Qed.

(** ** What the chunks leave *)

Definition wr_ok {B : Type} (f : file B) (c : chunk) (w : write) : Prop :=
  0 <= w_start w /\ w_start w <= w_stop w /\ w_stop w <= c_len c /\ c_off c + w_stop w <= f_len f /\ w_dlen w = w_stop w - w_start w.

Definition hit (w : write) (b : nat) (p : Z) : Prop := w_buf w = b /\ w_pos w <= p < w_pos w + w_dlen w.

Definition triples {B : Type} (cs : list (file B * chunk)) : list (file B * chunk * write) := flat_map (fun fc => map (fun w => (fst fc, snd fc, w)) (c_writes (snd fc))) cs.

Definition put {B : Type} (m : memory B) (t : file B * chunk * write) : memory B :=
  let w := snd t in store (w_buf w) (w_pos w) (w_dlen w) (fun i => f_at (fst (fst t)) (c_off (snd (fst t)) + w_start w + i)) m.

Lemma exec_writes_ok : forall {B : Type} (f : file B) c ws m, Forall (wr_ok f c) ws ->
  exec_writes f (c_off c) (Z.max 0 (Z.min (c_len c) (f_len f - c_off c))) ws m = Ok (fold_left put (map (fun w => (f, c, w)) ws) m).
Proof.
  intros B f c ws. induction ws as [|w ws IH]; intros m F; [reflexivity|]. inversion F as [|? ? [W1 [W2 [W3 [W4 W5]]]] F']; subst.
  cbn [exec_writes map fold_left]. unfold exec_write.
  replace (Z.min (w_stop w) (Z.max 0 (Z.min (c_len c) (f_len f - c_off c))) - Z.min (w_start w) (Z.max 0 (Z.min (c_len c) (f_len f - c_off c))) =? w_dlen w) with true by (symmetry; apply Z.eqb_eq; lia).
  cbn [rbind]. rewrite IH by exact F'. reflexivity.
Qed.

Lemma read_chunks_ok : forall {B : Type} (cs : list (file B * chunk)) m, (forall f c w, In (f, c) cs -> In w (c_writes c) -> wr_ok f c w) ->
  read_chunks cs m = Ok (fold_left put (triples cs) m).
Proof.
  induction cs as [|[f c] cs IH]; intros m H; [reflexivity|]. cbn [read_chunks]. unfold read_chunk. rewrite exec_writes_ok.
  - cbn [rbind]. unfold triples. cbn [flat_map fst snd]. rewrite fold_left_app. apply IH. intros f' c' w I. apply H. right. exact I.
  - apply Forall_forall. intros w I. apply H; [left; reflexivity|exact I].
Qed.

Lemma put_hit : forall {B : Type} (m : memory B) t b p, hit (snd t) b p -> put m t b p = f_at (fst (fst t)) (c_off (snd (fst t)) + w_start (snd t) + (p - w_pos (snd t))).
Proof.
  intros B m t b p [H1 H2]. unfold put, store. subst b. rewrite Nat.eqb_refl. replace (w_pos (snd t) <=? p) with true by (symmetry; apply Z.leb_le; lia).
  replace (p <? w_pos (snd t) + w_dlen (snd t)) with true by (symmetry; apply Z.ltb_lt; lia). reflexivity.
Qed.

Lemma put_miss : forall {B : Type} (m : memory B) t b p, ~ hit (snd t) b p -> put m t b p = m b p.
Proof.
  intros B m t b p H. unfold put, store. destruct (b =? w_buf (snd t))%nat eqn:E1; [|reflexivity].
  destruct (w_pos (snd t) <=? p) eqn:E2; [|reflexivity]. destruct (p <? w_pos (snd t) + w_dlen (snd t)) eqn:E3; [|reflexivity].
  exfalso. apply H. apply Nat.eqb_eq in E1. apply Z.leb_le in E2. apply Z.ltb_lt in E3. split; [congruence|lia].
Qed.

Lemma hit_dec : forall w b p, hit w b p \/ ~ hit w b p.
Proof.
  intros w b p. unfold hit. destruct (Nat.eq_dec (w_buf w) b) as [E|E]; [|right; tauto].
  destruct (Z_le_gt_dec (w_pos w) p); destruct (Z_lt_ge_dec p (w_pos w + w_dlen w)); first [left; split; [exact E|lia]|right; lia].
Qed.

Lemma fold_val : forall {B : Type} ts (m : memory B) b p v,
  (forall t, In t ts -> hit (snd t) b p -> f_at (fst (fst t)) (c_off (snd (fst t)) + w_start (snd t) + (p - w_pos (snd t))) = v) ->
  (m b p = v \/ exists t, In t ts /\ hit (snd t) b p) -> fold_left put ts m b p = v.
Proof.
  induction ts as [|t ts IH]; intros m b p v H E; simpl.
  - destruct E as [E|[t [[] _]]]. exact E.
  - apply IH; [intros; apply H; [right|]; assumption|]. destruct (hit_dec (snd t) b p) as [Q|Q].
    + left. rewrite put_hit by exact Q. apply H; [left; reflexivity|exact Q].
    + rewrite put_miss by exact Q. destruct E as [E|[t' [[->|I] T]]]; [left; exact E|contradiction|right; exists t'; auto].
Qed.

(** From where a byte of a buffer is read *)
Definition source {B : Type} (G : list (file B * list read)) (b : nat) (p : Z) (f : file B) (x : Z) : Prop :=
  exists rs r, In (f, rs) G /\ In r rs /\ fills r b p /\ x = r_off r + (p - r_pos r).

Lemma serves_hit : forall c w r lo hi b p, serves c w r lo hi -> r_dlen r = r_len r -> hit w b p ->
  fills r b p /\ c_off c + w_start w + (p - w_pos w) = r_off r + (p - r_pos r).
Proof.
  intros c w r lo hi b p [H1 [H2 [H3 [H4 [H5 ->]]]]] D [W1 W2]. simpl in *. unfold fills. split; [|lia]. split; [exact W1|]. lia.
Qed.

Lemma serves_cover : forall c w r lo hi b p, serves c w r lo hi -> r_dlen r = r_len r -> fills r b p -> lo <= r_off r + (p - r_pos r) < hi -> hit w b p.
Proof.
  intros c w r lo hi b p [H1 [H2 [H3 [H4 [H5 ->]]]]] D [W1 W2] X. simpl in *. unfold hit. simpl. split; [exact W1|]. lia.
Qed.

Lemma load_source : forall {B : Type} (G : list (file B * list read)) (ratio : option (Z * Z)) size css order m0,
  0 < size -> (forall f rs r, In (f, rs) G -> In r rs -> sound f r) ->
  Forall2 (fun g cs => exists l, plan_chunk_reads (snd g) ratio size = Ok l /\ cs = map (pair (fst g)) l) G css ->
  Permutation order (List.concat css) ->
  (forall b p f x f' x', source G b p f x -> source G b p f' x' -> f_at f x = f_at f' x') ->
  exists m, read_chunks order m0 = Ok m /\ (forall b p f x, source G b p f x -> m b p = f_at f x) /\ (forall b p, (forall f x, ~ source G b p f x) -> m b p = m0 b p).
Proof.
  intros B G ratio size css order m0 Z0 Sd F P U.
  assert (forall f c, In (f, c) order <-> exists rs l, In (f, rs) G /\ plan_chunk_reads rs ratio size = Ok l /\ In c l) as O.
  { intros f c. split.
    - intros I. apply (Permutation_in _ P) in I. apply in_concat in I. destruct I as [cs [I J]]. destruct (f2_right _ _ _ _ F I) as [[f' rs] [Ig [l [E ->]]]].
      apply in_map_iff in J. destruct J as [c' [J K]]. injection J as -> ->. exists rs, l. auto.
    - intros [rs [l [I [E J]]]]. apply (Permutation_in _ (Permutation_sym P)). destruct (f2_left _ _ _ _ F I) as [cs [Ic [l' [E' ->]]]]. simpl in E'. rewrite E in E'. injection E' as <-.
      apply in_concat. eexists. split; [exact Ic|]. apply in_map. exact J. }
  assert (forall f rs, In (f, rs) G -> Forall (fun r => 0 <= r_len r) rs) as N.
  { intros f rs I. apply Forall_forall. intros r Ir. exact (proj1 (Sd f rs r I Ir)). }
  assert (forall f c w, In (f, c) order -> In w (c_writes c) -> exists rs r lo hi, In (f, rs) G /\ In r rs /\ serves c w r lo hi) as W.
  { intros f c w I J. apply O in I. destruct I as [rs [l [I [E K]]]]. destruct (plan_serves _ _ _ _ (N f rs I) Z0 E) as [_ [Q _]].
    destruct (Q c w K J) as [r [lo [hi [Ir S]]]]. exists rs, r, lo, hi. auto. }
  assert (forall t b p, In t (triples order) -> hit (snd t) b p -> source G b p (fst (fst t)) (c_off (snd (fst t)) + w_start (snd t) + (p - w_pos (snd t)))) as T.
  { intros [[f c] w] b p I H. unfold triples in I. apply in_flat_map in I. destruct I as [[f' c'] [I J]]. apply in_map_iff in J. destruct J as [w' [J K]]. simpl in J, K. injection J as -> -> ->.
    destruct (W f c w I K) as [rs [r [lo [hi [Ig [Ir S]]]]]]. destruct (Sd f rs r Ig Ir) as [_ [D _]].
    destruct (serves_hit _ _ _ _ _ _ _ S D H) as [S1 S2]. simpl. exists rs, r. auto. }
  exists (fold_left put (triples order) m0). split; [|split].
  - apply read_chunks_ok. intros f c w I J. destruct (W f c w I J) as [rs [r [lo [hi [Ig [Ir [H1 [H2 [H3 [H4 [H5 ->]]]]]]]]]]].
    destruct (Sd f rs r Ig Ir) as [S1 [S2 [S3 S4]]]. unfold wr_ok. simpl. lia.
  - intros b p f x S. apply fold_val.
    + intros t I H. apply (U b p _ _ f x (T t b p I H) S).
    + right. destruct S as [rs [r [Ig [Ir [Fl ->]]]]]. destruct (f2_left _ _ _ _ F Ig) as [cs [Ic [l [E ->]]]]. simpl in E.
      destruct (plan_serves _ _ _ _ (N f rs Ig) Z0 E) as [_ [_ [Q _]]]. destruct (Sd f rs r Ig Ir) as [_ [D _]].
      assert (r_off r <= r_off r + (p - r_pos r) < r_off r + r_len r) as X by (destruct Fl as [_ Fl]; lia).
      destruct (Q r _ Ir X) as [c [w [lo [hi [Ic' [Iw [S L]]]]]]]. exists (f, c, w). split.
      * unfold triples. apply in_flat_map. exists (f, c). split; [apply O; exists rs, l; auto|]. simpl. apply in_map. exact Iw.
      * simpl. exact (serves_cover _ _ _ _ _ _ _ S D Fl L).
  - intros b p H. apply fold_val; [|left; reflexivity]. intros t I Hh. exfalso. exact (H _ _ (T t b p I Hh)).
Qed.

(** ** The reads of shards *)

Lemma numel_volume : forall s, numel s = volume s.
Proof. induction s as [|n s IH]; [reflexivity|]. unfold numel in *. simpl. rewrite IH. reflexivity. Qed.

Lemma span_len : forall a n, 0 <= n -> Z.of_nat (List.length (span a n)) = n.
Proof. intros. unfold span. rewrite map_length, seq_length. lia. Qed.

Lemma span_nth : forall a n p x, 0 <= p -> (nth_error (span a n) (Z.to_nat p) = Some x <-> p < n /\ x = a + p).
Proof.
  intros a n p x P. unfold span. rewrite nth_error_map. destruct (nth_error (seq 0 (Z.to_nat n)) (Z.to_nat p)) as [i|] eqn:E.
  - assert (Z.to_nat p < Z.to_nat n)%nat as L by (rewrite <- (seq_length (Z.to_nat n) 0); apply nth_error_Some; congruence).
    apply nth_error_nth with (d := O) in E. rewrite seq_nth in E by exact L. subst i. simpl. split; [intros H; injection H as <-; lia|intros [H1 ->]; f_equal; lia].
  - apply nth_error_None in E. rewrite seq_length in E. simpl. split; [discriminate|intros; lia].
Qed.

Lemma shard_src : forall buf total b p x runs wo, Forall (fun r => 0 <= snd r) runs ->
  (exists r, In r (shard_reads runs buf wo total) /\ fills r b p /\ x = r_off r + (p - r_pos r)) <-> (b = buf /\ wo <= p /\ nth_error (addresses runs) (Z.to_nat (p - wo)) = Some x).
Proof.
  intros buf total b p x. induction runs as [|[o n] runs IH]; intros wo F.
  - simpl. split; [intros [r [[] _]]|]. intros [_ [_ H]]. destruct (Z.to_nat (p - wo)); discriminate.
  - inversion F as [|? ? F1 F2]; subst. simpl in F1. cbn [shard_reads]. unfold addresses. cbn [flat_map fst snd]. fold (addresses runs).
    pose proof (span_len o n F1) as SL. specialize (IH (wo + n) F2). split.
    + intros [r [[<-|I] [Fl E]]].
      * unfold fills in Fl. simpl in *. destruct Fl as [Fl1 Fl2]. split; [congruence|]. split; [lia|]. rewrite nth_error_app1 by lia. apply span_nth; [lia|]. lia.
      * destruct (proj1 IH (ex_intro _ r (conj I (conj Fl E)))) as [E1 [E2 E3]]. split; [exact E1|]. split; [lia|].
        rewrite nth_error_app2 by lia. rewrite <- E3. f_equal. lia.
    + intros [-> [L H]]. destruct (Z_lt_le_dec (p - wo) n) as [Q|Q].
      * rewrite nth_error_app1 in H by lia. apply span_nth in H; [|lia]. destruct H as [H ->].
        eexists. split; [left; reflexivity|]. unfold fills. simpl. lia.
      * rewrite nth_error_app2 in H by lia. destruct (proj2 IH) as [r [I R]].
        { split; [reflexivity|]. split; [lia|]. rewrite <- H. f_equal. lia. }
        exists r. split; [right; exact I|exact R].
Qed.

Lemma addresses_len : forall runs, Forall (fun r => 0 <= snd r) runs -> Z.of_nat (List.length (addresses runs)) = fold_right Z.add 0 (map snd runs).
Proof.
  intros runs F. induction F as [|[o n] runs H F IH]; [reflexivity|]. unfold addresses in *. simpl in *. rewrite app_length, Nat2Z.inj_add, IH, span_len by exact H. reflexivity.
Qed.

Lemma sum_nonneg : forall runs : list (Z * Z), Forall (fun r => 0 <= snd r) runs -> 0 <= fold_right Z.add 0 (map snd runs).
Proof. intros runs F. induction F; simpl; lia. Qed.

Lemma shard_ok : forall buf total r runs wo, Forall (fun r => 0 <= snd r) runs -> 0 <= wo -> wo + fold_right Z.add 0 (map snd runs) <= total ->
  In r (shard_reads runs buf wo total) -> 0 <= r_len r /\ r_dlen r = r_len r /\ In (r_off r, r_len r) runs.
Proof.
  intros buf total r. induction runs as [|[o n] runs IH]; intros wo F W T I; [destruct I|]. inversion F as [|? ? F1 F2]; subst. simpl in F1, T. pose proof (sum_nonneg _ F2).
  cbn [shard_reads] in I. destruct I as [<-|I].
  - simpl. split; [exact F1|]. split; [lia|]. left. reflexivity.
  - destruct (IH (wo + n) F2 ltac:(lia) ltac:(lia) I) as [A [B C]]. split; [exact A|]. split; [exact B|]. right. exact C.
Qed.

(** What the runs of a part are, all together *)
Lemma part_runs : forall bounds shape z base, 0 <= z -> part_of bounds shape ->
  Forall (fun r => base <= fst r /\ 0 <= snd r /\ fst r + snd r <= base + volume shape * z) (byte_runs bounds shape z base) /\
  Z.of_nat (List.length (addresses (byte_runs bounds shape z base))) = volume (dims bounds) * z /\
  StronglySorted apart (byte_runs bounds shape z base) /\
  (forall idx k, inside idx bounds -> 0 <= k < z ->
    nth_error (addresses (byte_runs bounds shape z base)) (Z.to_nat (row_major (dims bounds) (local idx bounds) * z + k)) = Some (base + row_major shape idx * z + k)).
Proof.
  intros bounds shape z base Z0 P. rewrite (byte_runs_rec _ _ _ _ Z0 P). split; [exact (proj2 (runs_within _ _ z base Z0 P))|].
  rewrite (runs_addrs _ _ _ _ Z0 P). split; [apply rowaddrs_len; assumption|]. split; [apply runs_sorted; assumption|]. intros. apply rowaddrs_nth; assumption.
Qed.

Definition reads_src (rs : list read) (b : nat) (p x : Z) : Prop := exists r, In r rs /\ fills r b p /\ x = r_off r + (p - r_pos r).

Definition assigned (al : list (nat * (string * list Z))) (path : string) (b : nat) (p x : Z) : Prop :=
  exists addrs, In (b, (path, addrs)) al /\ 0 <= p /\ nth_error addrs (Z.to_nat p) = Some x.

Definition inside_file {B : Type} (f : file B) (lo hi : Z) : Prop := 0 <= lo /\ hi <= f_len f.

Fixpoint shard_assign (path : string) (shape : list Z) (z base : Z) (l : dict (list (Z * Z)) (list nat)) (buf : nat) : list (nat * (string * list Z)) :=
  match l with
  | [] => []
  | (bounds, _) :: r => (buf, (path, addresses (byte_runs bounds shape z base))) :: shard_assign path shape z base r (S buf)
  end.

Lemma shard_assign_keys : forall path shape z base l buf, map fst (shard_assign path shape z base l buf) = seq buf (List.length l).
Proof. induction l as [|[bs ds] l IH]; intros buf; simpl; [reflexivity|]. rewrite IH. reflexivity. Qed.

Lemma plan_shards_out : forall shape z base l buf, map fst (snd (plan_shards shape z base l buf)) = seq buf (List.length l) /\ map snd (snd (plan_shards shape z base l buf)) = map snd l.
Proof. induction l as [|[bs ds] l IH]; intros buf; [split; reflexivity|]. destruct (IH (S buf)) as [A B]. cbn [plan_shards]. cbv zeta. cbn [snd map fst List.length seq]. rewrite A, B. split; reflexivity. Qed.

Lemma plan_shards_src : forall path shape z base l buf, 0 <= z -> Forall (fun x => part_of (fst x) shape) l -> forall b p x,
  reads_src (fst (plan_shards shape z base l buf)) b p x <-> assigned (shard_assign path shape z base l buf) path b p x.
Proof.
  intros path shape z base l buf Z0 F b p x. revert buf. induction F as [|[bs ds] l P F IH]; intros buf.
  - split; [intros [r [[] _]]|intros [a [[] _]]].
  - cbn [plan_shards shard_assign]. cbv zeta. cbn [fst]. simpl in P. destruct (part_runs bs shape z base Z0 P) as [R1 _].
    assert (Forall (fun r => 0 <= snd r) (byte_runs bs shape z base)) as N by (eapply Forall_impl; [|exact R1]; simpl; intros; lia).
    pose proof (fun total => shard_src buf total b p x _ 0 N) as S. rewrite Z.sub_0_r in S. split.
    + intros [r [I [Fl E]]]. apply in_app_or in I. destruct I as [I|I].
      * destruct (proj1 (S _) (ex_intro _ r (conj I (conj Fl E)))) as [-> [L H]]. eexists. split; [left; reflexivity|]. auto.
      * destruct (proj1 (IH (Datatypes.S buf)) (ex_intro _ r (conj I (conj Fl E)))) as [a [Ia A]]. exists a. split; [right; exact Ia|exact A].
    + intros [a [[E|I] [L H]]].
      * injection E as -> <-. destruct (proj2 (S (numel (map (fun b => snd b - fst b) bs) * z)) (conj eq_refl (conj L H))) as [r [I Q]]. exists r. split; [apply in_or_app; left; exact I|exact Q].
      * destruct (proj2 (IH (Datatypes.S buf)) (ex_intro _ a (conj I (conj L H)))) as [r [Ir Q]]. exists r. split; [apply in_or_app; right; exact Ir|exact Q].
Qed.

Lemma plan_shards_sound : forall {B : Type} (f : file B) shape z base l buf, 0 <= z -> Forall (fun x => part_of (fst x) shape) l -> 0 <= base -> base + volume shape * z <= f_len f ->
  forall r, In r (fst (plan_shards shape z base l buf)) -> sound f r.
Proof.
  intros B f shape z base l buf Z0 F B0 BL r. revert buf. induction F as [|[bs ds] l P F IH]; intros buf I; [destruct I|].
  cbn [plan_shards] in I. cbv zeta in I. cbn [fst] in I. simpl in P. apply in_app_or in I. destruct I as [I|I]; [|apply (IH _ I)].
  destruct (part_runs bs shape z base Z0 P) as [R1 [R2 _]].
  assert (Forall (fun r => 0 <= snd r) (byte_runs bs shape z base)) as N by (eapply Forall_impl; [|exact R1]; simpl; intros; lia).
  rewrite addresses_len in R2 by exact N. rewrite numel_volume in I. fold (dims bs) in I.
  destruct (shard_ok buf (volume (dims bs) * z) r _ 0 N ltac:(lia) ltac:(lia) I) as [A [D C]]. rewrite Forall_forall in R1. pose proof (R1 _ C) as Q. simpl in Q. unfold sound. lia.
Qed.

Lemma bounds_eqb_spec : forall a b, reflect (a = b) (bounds_eqb a b).
Proof.
  intros a b. apply iff_reflect. revert b. induction a as [|x a IH]; intros [|y b]; simpl; try (split; congruence).
  rewrite andb_true_iff, bound_eqb_eq, <- IH. split; [intros E; injection E as -> ->; auto|intros [-> ->]; reflexivity].
Qed.

Lemma zs_eqb_eq : forall a b, zs_eqb a b = true <-> a = b.
Proof.
  induction a as [|x a IH]; intros [|y b]; simpl; try (split; congruence). rewrite andb_true_iff, Z.eqb_eq, IH. split; [intros [-> ->]; reflexivity|intros E; injection E as -> ->; auto].
Qed.

Lemma by_index_spec : forall this m,
  NoDup (map fst (by_index this m)) /\
  (forall b d, (exists ds, dget bounds_eqb b (by_index this m) = Some ds /\ In d ds) <-> In (d, (this, b)) m).
Proof.
  intros this m. unfold by_index.
  set (step := fun (d : dict (list (Z * Z)) (list nat)) (x : nat * (nat * list (Z * Z))) => if (fst (snd x) =? this)%nat then dput bounds_eqb (snd (snd x)) (match dget bounds_eqb (snd (snd x)) d with Some l => l | None => [] end ++ [fst x]) d else d).
  assert (forall acc, NoDup (map fst acc) -> NoDup (map fst (fold_left step m acc)) /\
    forall b d, (exists ds, dget bounds_eqb b (fold_left step m acc) = Some ds /\ In d ds) <-> In (d, (this, b)) m \/ (exists ds, dget bounds_eqb b acc = Some ds /\ In d ds)) as G.
  { induction m as [|[d0 [p0 b0]] m IH]; intros acc N; [simpl; split; [exact N|]; intros; tauto|]. cbn [fold_left].
    assert (NoDup (map fst (step acc (d0, (p0, b0))))) as N'.
    { unfold step. simpl. destruct (p0 =? this)%nat; [|exact N]. apply Parts_Proofs.dput_nodup; [exact bounds_eqb_spec|exact N]. }
    destruct (IH _ N') as [I1 I2]. split; [exact I1|]. intros b d. rewrite I2. clear I1 I2 IH N'. unfold step. simpl. destruct (p0 =? this)%nat eqn:E.
    - apply Nat.eqb_eq in E. subst p0. rewrite (Parts_Proofs.dget_dput bounds_eqb bounds_eqb_spec). destruct (bounds_eqb_spec b b0) as [->|NE].
      + split.
        * intros [H|[ds [H I]]]; [tauto|]. injection H as <-. apply in_app_or in I. destruct I as [I|[->|[]]]; [|tauto].
          destruct (dget bounds_eqb b0 acc) as [l|]; [right; exists l; auto|destruct I].
        * intros [[H|H]|[ds [H I]]]; [|tauto|].
          -- injection H as ->. right. eexists. split; [reflexivity|]. apply in_or_app. right. left. reflexivity.
          -- right. eexists. split; [reflexivity|]. rewrite H. apply in_or_app. left. exact I.
      + split; [tauto|]. intros [[H|H]|H]; [injection H as -> ->; contradiction|tauto|tauto].
    - apply Nat.eqb_neq in E. split; [tauto|]. intros [[H|H]|H]; [injection H as -> -> ->; contradiction|tauto|tauto]. }
  destruct (G [] (NoDup_nil _)) as [G1 G2]. split; [exact G1|]. intros b d. rewrite G2. simpl. split; [intros [H|[ds [H _]]]; [exact H|discriminate]|tauto].
Qed.

(** ** The index of the files *)

Lemma index_header_ok : forall path l d d', index_header path l d = Ok d' -> forall name e, dget String.eqb name d' = Some e <-> dget String.eqb name d = Some e \/ (fst e = path /\ In (name, snd e) l /\ dget String.eqb name d = None).
Proof.
  intros path. induction l as [|[n0 i0] l IH]; intros d d' E name e; cbn [index_header] in E.
  - injection E as <-. split; [tauto|]. intros [H|[_ [[] _]]]. exact H.
  - destruct (dget String.eqb n0 d) as [v|] eqn:D; [discriminate|]. rewrite (IH _ _ E). rewrite (Parts_Proofs.dget_dput String.eqb String.eqb_spec).
    destruct (String.eqb_spec name n0) as [->|NE].
    + rewrite D. split.
      * intros [H|[_ [_ H]]]; [injection H as <-; right; simpl; auto|discriminate].
      * intros [H|[H1 [[H2|H2] _]]]; [discriminate| |].
        -- injection H2 as ->. left. destruct e as [pe ie]. simpl in *. subst pe. reflexivity.
        -- exfalso. clear - E H2 D. assert (forall l' dd dd', index_header path l' dd = Ok dd' -> forall nm v i, dget String.eqb nm dd = Some v -> In (nm, i) l' -> False) as G.
           { induction l' as [|[a b] l' IH]; intros dd dd' E' nm v i H I; [destruct I|]. cbn [index_header] in E'. destruct (dget String.eqb a dd) eqn:Q; [discriminate|]. destruct I as [I|I].
             - injection I as -> ->. congruence.
             - apply (IH _ _ E' nm v i); [|exact I]. rewrite (Parts_Proofs.dget_dput String.eqb String.eqb_spec). destruct (String.eqb_spec nm a); [subst; congruence|exact H]. }
           apply (G _ _ _ E n0 (path, i0) (snd e)); [|exact H2]. rewrite (Parts_Proofs.dget_dput String.eqb String.eqb_spec), String.eqb_refl. reflexivity.
    + split; [intros [H|[H1 [H2 H3]]]; [tauto|right; simpl; auto]|]. intros [H|[H1 [[H2|H2] H3]]]; [tauto|injection H2 as -> ->; contradiction|tauto].
Qed.

Lemma index_files_ok : forall {B : Type} (l : list (string * file B)) d d', index_files l d = Ok d' -> forall name e, dget String.eqb name d' = Some e -> dget String.eqb name d = Some e \/ exists f, In (fst e, f) l /\ In (name, snd e) (f_header f).
Proof.
  induction l as [|[p f] l IH]; intros d d' E name e H; cbn [index_files] in E.
  - injection E as <-. left. exact H.
  - destruct (index_header p (f_header f) d) as [d1|] eqn:Q; [|discriminate]. simpl in E. destruct (IH _ _ E name e H) as [G|[f' [I J]]].
    + apply (index_header_ok _ _ _ _ Q) in G. destruct G as [G|[G1 [G2 _]]]; [left; exact G|]. right. exists f. split; [left; rewrite G1; reflexivity|exact G2].
    + right. exists f'. split; [right; exact I|exact J].
Qed.

Lemma fold_max : forall l a x, In x l \/ x <= a -> x <= fold_left Z.max l a.
Proof.
  induction l as [|y l IH]; intros a x H; simpl; [destruct H as [[]|H]; exact H|]. apply IH. destruct H as [[->|H]|H]; [right; lia|left; exact H|right; lia].
Qed.

Lemma check_length_ok : forall {B : Type} (f : file B), check_length f = Ok tt -> forall name i, In (name, i) (f_header f) -> f_start f + i_end i <= f_len f.
Proof.
  intros B f E name i I. unfold check_length in E.
  set (a := match f_header f with [] => 0 | x :: _ => i_end (snd x) end) in E.
  destruct (f_len f <? f_start f + fold_left Z.max (map (fun x => i_end (snd x)) (f_header f)) a) eqn:Q; [discriminate|]. apply Z.ltb_ge in Q.
  assert (i_end i <= fold_left Z.max (map (fun x => i_end (snd x)) (f_header f)) a) as G; [|lia].
  apply fold_max. left. apply in_map_iff. exists (name, i). auto.
Qed.

Lemma file_index_ok : forall {B : Type} (files : list (string * file B)) index, file_index files = Ok index ->
  (forall path f name i, In (path, f) files -> In (name, i) (f_header f) -> f_start f + i_end i <= f_len f) /\
  (forall name e, dget String.eqb name index = Some e -> exists f, In (fst e, f) files /\ In (name, snd e) (f_header f)).
Proof.
  intros B files index E. unfold file_index in E. destruct (sequence (map (fun x => check_length (snd x)) files)) as [us|] eqn:S; [|discriminate]. simpl in E. split.
  - intros path f name i I J. apply StepMeta_Proofs.seq_f2 in S. destruct (f2_left _ _ _ _ S I) as [[] [_ C]]. simpl in C. exact (check_length_ok f C name i J).
  - intros name e H. destruct (index_files_ok _ _ _ E name e H) as [G|G]; [discriminate|exact G].
Qed.

(** ** Loading *)

Lemma by_index_keys : forall this m b, In b (map fst (by_index this m)) -> exists d, In (d, (this, b)) m.
Proof.
  intros this m b. unfold by_index.
  set (step := fun (d : dict (list (Z * Z)) (list nat)) (x : nat * (nat * list (Z * Z))) => if (fst (snd x) =? this)%nat then dput bounds_eqb (snd (snd x)) (match dget bounds_eqb (snd (snd x)) d with Some l => l | None => [] end ++ [fst x]) d else d).
  assert (forall acc, In b (map fst (fold_left step m acc)) -> In b (map fst acc) \/ exists d, In (d, (this, b)) m) as G.
  { induction m as [|[d0 [p0 b0]] m IH]; intros acc H; [left; exact H|]. cbn [fold_left] in H. destruct (IH _ H) as [Q|[d Q]].
    - unfold step in Q. simpl in Q. destruct (p0 =? this)%nat eqn:E; [|left; exact Q]. apply Nat.eqb_eq in E. subst p0.
      apply (Parts_Proofs.dput_keys bounds_eqb bounds_eqb_spec) in Q. destruct Q as [->|Q]; [right; exists d0; left; reflexivity|left; exact Q].
    - right. exists d. right. exact Q. }
  intros H. destruct (G [] H) as [[]|Q]. exact Q.
Qed.

Definition name_ok {B : Type} (this : nat) (files : list (string * file B)) (abstract : option (dict string leaf)) (name path : string) (outs : list (nat * list nat)) (al : list (nat * (string * list Z))) : Prop :=
  exists f i z, In (path, f) files /\ In (name, i) (f_header f) /\ i_size i = Some z /\
  match abstract with
  | None => exists b, outs = [(b, [])] /\ al = [(b, (path, span (f_start f + i_begin i) (i_end i - i_begin i)))]
  | Some a => exists l b, dget String.eqb name a = Some l /\ l_shape l = i_shape i /\
      al = shard_assign path (l_shape l) z (f_start f + i_begin i) (by_index this (l_map l)) b /\
      outs = snd (plan_shards (l_shape l) z (f_start f + i_begin i) (by_index this (l_map l)) b)
  end.

Lemma seq_plus : forall a n m, seq a n ++ seq (a + n) m = seq a (n + m).
Proof. intros. symmetry. apply seq_app. Qed.

Section Load.
  Context {B : Type}.
  Variables (this : nat) (files : list (string * file B)) (index : dict string (string * info)) (abstract : option (dict string leaf)).
  Hypothesis Nf : NoDup (map fst files).
  Hypothesis Ilen : forall path f name i, In (path, f) files -> In (name, i) (f_header f) -> f_start f + i_end i <= f_len f.
  Hypothesis Iin : forall name e, dget String.eqb name index = Some e -> exists f, In (fst e, f) files /\ In (name, snd e) (f_header f).
  Hypothesis Fs : forall path f, In (path, f) files -> 0 <= f_start f.
  Hypothesis Parts : forall a name l d bounds, abstract = Some a -> dget String.eqb name a = Some l -> In (d, (this, bounds)) (l_map l) -> part_of bounds (l_shape l).

  Lemma plan_name_ok : forall name buf path rs outs next, (forall f i, located files name f i -> truthful i) ->
    plan_name this files index abstract name buf = Ok (path, rs, outs, next) ->
    exists al, name_ok this files abstract name path outs al /\ (buf <= next)%nat /\ map fst al = seq buf (next - buf) /\
      (forall b p x path', assigned al path' b p x <-> path' = path /\ reads_src rs b p x) /\
      (exists f, In (path, f) files /\ forall r, In r rs -> sound f r).
  Proof.
    intros name buf path rs outs next Tr E. unfold plan_name in E. unfold fetch at 1 in E.
    destruct (dget String.eqb name index) as [[p0 i]|] eqn:Di; [|discriminate]. cbn [rbind fst snd] in E.
    destruct (Iin _ _ Di) as [f [If Ih]]. cbn [fst snd] in If, Ih.
    assert (dget String.eqb p0 files = Some f) as Df by (apply (Tree_Proofs.dget_in String.eqb String.eqb_spec p0 f files Nf); exact If).
    unfold fetch at 1 in E. rewrite Df in E. cbn [rbind] in E.
    pose proof (Tr f i (ex_intro _ p0 (conj If Ih))) as [T1 [T2 T3]]. pose proof (Ilen _ _ _ _ If Ih) as Il. pose proof (Fs _ _ If) as F0.
    destruct abstract as [a|] eqn:Ab.
    - unfold fetch in E. destruct (dget String.eqb name a) as [l|] eqn:Da; [|discriminate]. cbn [rbind] in E.
      unfold plan_sharded in E. destruct (i_size i) as [z|] eqn:Sz; [|discriminate]. destruct (zs_eqb (l_shape l) (i_shape i)) eqn:Sh; [|discriminate].
      apply zs_eqb_eq in Sh. cbn [rmap rbind] in E. injection E as <- <- <- <-. destruct (T3 z eq_refl) as [Z0 Te].
      assert (Forall (fun x => part_of (fst x) (l_shape l)) (by_index this (l_map l))) as P.
      { apply Forall_forall. intros [bs ds] I. simpl. destruct (by_index_keys this (l_map l) bs) as [d Q]; [apply in_map_iff; exists (bs, ds); auto|]. exact (Parts a name l d bs eq_refl Da Q). }
      destruct (plan_shards_out (l_shape l) z (f_start f + i_begin i) (by_index this (l_map l)) buf) as [O1 O2].
      assert (List.length (snd (plan_shards (l_shape l) z (f_start f + i_begin i) (by_index this (l_map l)) buf)) = List.length (by_index this (l_map l))) as OL.
      { rewrite <- (map_length fst), O1. apply seq_length. }
      exists (shard_assign p0 (l_shape l) z (f_start f + i_begin i) (by_index this (l_map l)) buf). split; [|split; [|split; [|split]]].
      + exists f, i, z. repeat (split; [assumption|]). exists l, buf. auto.
      + lia.
      + rewrite shard_assign_keys, OL. f_equal. lia.
      + intros b p x path'. split.
        * intros [ad [I J]]. assert (path' = p0) as ->.
          { clear - I. revert I. generalize buf. generalize (by_index this (l_map l)) as q. induction q as [|[bs ds] q IH]; intros buf' I; simpl in I; [destruct I|]. destruct I as [I|I]; [congruence|exact (IH _ I)]. }
          split; [reflexivity|]. apply (plan_shards_src p0 _ _ _ _ _ Z0 P). exists ad. auto.
        * intros [-> H]. apply (plan_shards_src p0 _ _ _ _ _ Z0 P) in H. exact H.
      + exists f. split; [exact If|]. apply plan_shards_sound; [exact Z0|exact P|lia|]. rewrite Sh. lia.
    - unfold plan_whole in E. destruct (i_size i) as [z|] eqn:Sz; [|discriminate]. cbn [rmap rbind] in E. injection E as <- <- <- <-. destruct (T3 z eq_refl) as [Z0 Te].
      assert (0 <= volume (i_shape i)) as V by (clear - T2; induction T2; simpl; nia).
      exists [(buf, (p0, span (f_start f + i_begin i) (i_end i - i_begin i)))]. split; [|split; [|split; [|split]]].
      + exists f, i, z. repeat (split; [assumption|]). exists buf. auto.
      + lia.
      + replace (S buf - buf)%nat with 1%nat by lia. reflexivity.
      + intros b p x path'. split.
        * intros [ad [[I|[]] [P0 H]]]. injection I as -> -> <-. split; [reflexivity|]. apply span_nth in H; [|exact P0]. eexists. split; [left; reflexivity|]. unfold fills. simpl. lia.
        * intros [-> [r [[<-|[]] [[F1 F2] ->]]]]. simpl in *. eexists. split; [left; rewrite <- F1; reflexivity|]. split; [lia|]. apply span_nth; [lia|]. lia.
      + exists f. split; [exact If|]. intros r [<-|[]]. unfold sound. simpl. rewrite numel_volume. nia.
  Qed.

  Definition dsrc (D : dict string (list read)) (path : string) (b : nat) (p x : Z) : Prop := exists rs, dget String.eqb path D = Some rs /\ reads_src rs b p x.

  Definition dsound (D : dict string (list read)) : Prop := forall path rs, dget String.eqb path D = Some rs -> exists f, In (path, f) files /\ forall r, In r rs -> sound f r.

  Lemma plan_names_ok : forall names buf D out D' out', (forall name, In name names -> forall f i, located files name f i -> truthful i) ->
    plan_names this files index abstract names buf D out = Ok (D', out') -> NoDup (map fst D) -> dsound D ->
    exists ents n, map fst ents = names /\ out' = out ++ map (fun e => (fst e, fst (snd (snd e)))) ents /\
      (forall e, In e ents -> name_ok this files abstract (fst e) (fst (snd e)) (fst (snd (snd e))) (snd (snd (snd e)))) /\
      map fst (flat_map (fun e => snd (snd (snd e))) ents) = seq buf n /\
      (forall path b p x, dsrc D' path b p x <-> dsrc D path b p x \/ assigned (flat_map (fun e => snd (snd (snd e))) ents) path b p x) /\
      NoDup (map fst D') /\ dsound D'.
  Proof.
    induction names as [|name names IH]; intros buf D out D' out' Tr E N S.
    - cbn [plan_names] in E. injection E as <- <-. exists [], O. simpl. rewrite app_nil_r. split; [reflexivity|]. split; [reflexivity|]. split; [intros e []|]. split; [reflexivity|]. split; [|auto].
      intros path b p x. split; [tauto|]. intros [H|[ad [[] _]]]. exact H.
    - cbn [plan_names] in E. destruct (plan_name this files index abstract name buf) as [[[[path rs] outs] next]|] eqn:P; [|discriminate]. cbn [rbind fst snd] in E.
      destruct (plan_name_ok _ _ _ _ _ _ (Tr name (or_introl eq_refl)) P) as [al [A1 [A2 [A3 [A4 [f [A5 A6]]]]]]].
      set (D1 := dput String.eqb path (match dget String.eqb path D with Some l => l | None => [] end ++ rs) D) in E.
      assert (NoDup (map fst D1)) as N1 by (apply Parts_Proofs.dput_nodup; [exact String.eqb_spec|exact N]).
      assert (forall path' b p x, dsrc D1 path' b p x <-> dsrc D path' b p x \/ assigned al path' b p x) as H1.
      { intros path' b p x. rewrite A4. unfold dsrc, D1. setoid_rewrite (Parts_Proofs.dget_dput String.eqb String.eqb_spec). destruct (String.eqb_spec path' path) as [->|NE].
        - split.
          + intros [rs' [Q [r [I R]]]]. injection Q as <-. apply in_app_or in I. destruct I as [I|I]; [|right; split; [reflexivity|exists r; auto]].
            left. destruct (dget String.eqb path D) as [l|]; [|destruct I]. exists l. split; [reflexivity|]. exists r. auto.
          + intros [[rs' [Q [r [I R]]]]|[_ [r [I R]]]]; (eexists; split; [reflexivity|]); exists r; (split; [apply in_or_app|exact R]); [left; rewrite Q; exact I|right; exact I].
        - split; [tauto|]. intros [H|[H _]]; [exact H|contradiction]. }
      assert (dsound D1) as S1.
      { intros path' rs'. unfold D1. rewrite (Parts_Proofs.dget_dput String.eqb String.eqb_spec). destruct (String.eqb_spec path' path) as [->|NE]; [|apply S].
        intros Q. injection Q as <-. exists f. split; [exact A5|]. intros r I. apply in_app_or in I. destruct I as [I|I]; [|exact (A6 r I)].
        destruct (dget String.eqb path D) as [l|] eqn:Dl; [|destruct I]. destruct (S path l Dl) as [f' [If' Sf]].
        assert (f' = f) as <-; [|exact (Sf r I)].
        apply (Tree_Proofs.dget_in String.eqb String.eqb_spec path f' files Nf) in If'. apply (Tree_Proofs.dget_in String.eqb String.eqb_spec path f files Nf) in A5. congruence. }
      destruct (IH next D1 (out ++ [(name, outs)]) D' out' (fun nm I => Tr nm (or_intror I)) E N1 S1) as [ents [n [E1 [E2 [E3 [E4 [E5 [E6 E7]]]]]]]].
      exists ((name, (path, (outs, al))) :: ents), ((next - buf) + n)%nat. split; [simpl; rewrite E1; reflexivity|]. split; [rewrite E2, <- app_assoc; reflexivity|].
      split; [intros e [<-|I]; [exact A1|exact (E3 e I)]|]. cbn [flat_map fst snd]. split.
      + rewrite map_app, A3, E4. replace next with (buf + (next - buf))%nat at 2 by lia. apply seq_plus.
      + split; [|split; [exact E6|exact E7]]. intros path' b p x. rewrite E5, H1. unfold assigned. split.
        * intros [[H|[ad [I H]]]|[ad [I H]]]; [left; exact H|right; exists ad; split; [apply in_or_app; left; exact I|exact H]|right; exists ad; split; [apply in_or_app; right; exact I|exact H]].
        * intros [H|[ad [I H]]]; [tauto|]. apply in_app_or in I. destruct I as [I|I]; [left; right; exists ad; auto|right; exists ad; auto].
  Qed.

  Lemma plan_files_ok : forall ratio size D cs, NoDup (map fst D) -> plan_files files ratio size D = Ok cs ->
    exists G css, Forall2 (fun g cs => exists l, plan_chunk_reads (snd g) ratio size = Ok l /\ cs = map (pair (fst g)) l) G css /\ cs = List.concat css /\
      (forall f rs, In (f, rs) G <-> rs <> [] /\ exists path, In (path, rs) D /\ In (path, f) files).
  Proof.
    intros ratio size D cs _ E. unfold plan_files in E.
    match type of E with rmap _ ?s = _ => destruct s as [l|] eqn:Q; [|discriminate] end. simpl in E. injection E as <-.
    apply StepMeta_Proofs.seq_f2 in Q. induction Q as [|[path rs] c D l H Q IH].
    - exists [], []. split; [constructor|]. split; [reflexivity|]. intros f rs. split; [intros []|intros [_ [p [[] _]]]].
    - destruct IH as [G [css [G1 [G2 G3]]]]. simpl in H. destruct rs as [|r0 rs'].
      + injection H as <-. exists G, css. split; [exact G1|]. split; [exact G2|]. intros f rs. rewrite G3. split.
        * intros [X [p [Y Z]]]. split; [exact X|]. exists p. split; [right; exact Y|exact Z].
        * intros [X [p [[Y|Y] Z]]]; [congruence|]. split; [exact X|]. exists p. auto.
      + unfold fetch in H. destruct (dget String.eqb path files) as [f0|] eqn:Df; [|discriminate]. cbn [rbind] in H.
        destruct (plan_chunk_reads (r0 :: rs') ratio size) as [k|] eqn:K; [|discriminate]. cbn [rmap rbind] in H. injection H as <-.
        pose proof (proj1 (Tree_Proofs.dget_in String.eqb String.eqb_spec path f0 files Nf) Df) as If0.
        exists ((f0, r0 :: rs') :: G), (map (pair f0) k :: css). split; [constructor; [exists k; auto|exact G1]|]. split; [simpl; rewrite G2; reflexivity|].
        intros f rs. split.
        * intros [X|X]; [injection X as <- <-; split; [discriminate|]; exists path; split; [left; reflexivity|exact If0]|].
          apply G3 in X. destruct X as [X [p [Y Z]]]. split; [exact X|]. exists p. split; [right; exact Y|exact Z].
        * intros [X [p [[Y|Y] Z]]]; [|right; apply G3; split; [exact X|]; exists p; auto].
          injection Y as -> <-. left. f_equal.
          apply (Tree_Proofs.dget_in String.eqb String.eqb_spec p f files Nf) in Z. congruence.
  Qed.

End Load.

Lemma chunk_size_ok : forall a b size, chunk_size a b = Ok size -> 0 <= size.
Proof.
  intros a b size E. unfold chunk_size in E. cbv zeta in E.
  destruct ((match b with Some n => n | None => 128 * 1024 * 1024 end) <=? 0) eqn:Q1; [discriminate|]. apply Z.leb_gt in Q1.
  destruct ((match a with Some n => n | None => 2 * 1024 * 1024 * 1024 end) + 1 <=? 0) eqn:Q2; [discriminate|]. apply Z.leb_gt in Q2. injection E as <-.
  destruct a, b; lia.
Qed.

Lemma partition_nonempty : forall fits gap runs, runs <> [] -> partition fits gap runs <> [].
Proof.
  intros fits gap runs H. unfold partition. destruct (enum_sorted runs) as [P _]. destruct (py_sorted (fun x => fst (snd x)) (enumerate runs)) as [|[i [o n]] l].
  - apply Permutation_nil in P. destruct runs; [congruence|discriminate].
  - clear. generalize o at 1. generalize (o + n). generalize n. generalize [i]. induction l as [|[j [o' n']] l IH]; intros m a b c; [discriminate|].
    cbn [partition_loop]. destruct ((o' - b <=? gap) || fits (Z.max b (o' + n') - c) (a + n')); [apply IH|discriminate].
Qed.

Lemma plan_size : forall reads ratio size cs, 0 <= size -> reads <> [] -> plan_chunk_reads reads ratio size = Ok cs -> 0 < size.
Proof.
  intros reads ratio size cs Z0 N E. unfold plan_chunk_reads in E.
  destruct (match ratio with Some q => Ok q | None => auto_ratio (map (fun r => (r_off r, r_len r)) reads) end) as [q|]; [|discriminate]. simpl in E.
  destruct (partition_runs q default_gap (map (fun r => (r_off r, r_len r)) reads)) as [bs|] eqn:P; [|discriminate]. simpl in E.
  destruct (Z.eqb_spec size 0) as [->|X]; [|lia]. exfalso. unfold partition_runs in P.
  destruct (map (fun r => (r_off r, r_len r)) reads) as [|r0 rr] eqn:M; [destruct reads; [congruence|discriminate]|].
  destruct (fst q <? snd q); [discriminate|]. injection P as <-. destruct (partition (within q) default_gap (r0 :: rr)) eqn:Q; [|simpl in E; discriminate].
  apply (partition_nonempty (within q) default_gap (r0 :: rr)); [discriminate|exact Q].
Qed.

(** What a plan that was made leaves, in any order *)
Lemma load_ents : forall {B : Type} this nprocs (files : list (string * file B)) in_flight chunk_bytes ratio abstract cs out order m0,
  NoDup (map fst files) -> (forall path f, In (path, f) files -> 0 <= f_start f) ->
  (forall a name l d bounds, abstract = Some a -> dget String.eqb name a = Some l -> In (d, (this, bounds)) (l_map l) -> part_of bounds (l_shape l)) ->
  (forall name f i, In name (map fst out) -> located files name f i -> truthful i) ->
  plan_load this nprocs files in_flight chunk_bytes ratio abstract = Ok (cs, out) -> Permutation order cs ->
  exists m ents, read_chunks order m0 = Ok m /\ out = map (fun e => (fst e, fst (snd (snd e)))) ents /\
    (forall e, In e ents -> name_ok this files abstract (fst e) (fst (snd e)) (fst (snd (snd e))) (snd (snd (snd e)))) /\
    NoDup (map fst (flat_map (fun e => snd (snd (snd e))) ents)) /\
    (forall path f b p x, In (path, f) files -> assigned (flat_map (fun e => snd (snd (snd e))) ents) path b p x -> m b p = f_at f x) /\
    (match abstract with None => exists index, file_index files = Ok index /\ map fst out = map fst index | Some a => map fst out = Composite_Model.sorted_names (map fst a) end).
Proof.
  intros B this nprocs files in_flight chunk_bytes ratio abstract cs out order m0 Nf Fs Parts Tr E P. unfold plan_load in E.
  destruct (file_index files) as [index|] eqn:Fi; [|discriminate]. cbn [rbind] in E. destruct (file_index_ok _ _ Fi) as [Il Ii].
  destruct (chunk_size in_flight chunk_bytes) as [size|] eqn:Cs; [|discriminate]. cbn [rbind] in E. apply chunk_size_ok in Cs.
  match type of E with rbind ?n _ = _ => destruct n as [names|] eqn:Nm; [|discriminate] end. cbn [rbind] in E.
  destruct (plan_names this files index abstract names 0 [] []) as [[D out']|] eqn:Pn; [|discriminate]. cbn [rbind fst snd] in E.
  destruct (plan_files files ratio size D) as [cs'|] eqn:Pf; [|discriminate]. cbn [rmap rbind] in E. injection E as -> ->.
  assert (map fst out = names) as On.
  { clear - Pn. assert (forall names buf D0 o D1 o1, plan_names this files index abstract names buf D0 o = Ok (D1, o1) -> map fst o1 = map fst o ++ names) as G.
    { induction names0 as [|nm ns IH]; intros buf D0 o D1 o1 H; cbn [plan_names] in H; [injection H as _ <-; rewrite app_nil_r; reflexivity|].
      destruct (plan_name this files index abstract nm buf) as [pn|]; [|discriminate]. cbn [rbind] in H. rewrite (IH _ _ _ _ _ H), map_app, <- app_assoc. reflexivity. }
    apply (G _ _ _ _ _ _ Pn). }
  destruct (plan_names_ok this files index abstract Nf Il Ii Fs Parts names 0 [] [] D out) as [ents [n [E1 [E2 [E3 [E4 [E5 [E6 E7]]]]]]]]; try assumption.
  - intros name I f i L. apply (Tr name f i); [rewrite On; exact I|exact L].
  - constructor.
  - intros path rs H. discriminate.
  - simpl in E2. assert (NoDup (map fst (flat_map (fun e => snd (snd (snd e))) ents))) as Nb by (rewrite E4; apply seq_NoDup).
    destruct (plan_files_ok files Nf ratio size D cs E6 Pf) as [G [css [G1 [G2 G3]]]].
    assert (forall b p f x, source G b p f x <-> exists path, In (path, f) files /\ assigned (flat_map (fun e => snd (snd (snd e))) ents) path b p x) as Src.
    { intros b p f x. split.
      - intros [rs [r [I [Ir R]]]]. apply G3 in I. destruct I as [_ [path [I J]]]. exists path. split; [exact J|].
        assert (dsrc D path b p x) as Q. { exists rs. split; [apply (Tree_Proofs.dget_in String.eqb String.eqb_spec path rs D E6); exact I|exists r; auto]. }
        apply E5 in Q. destruct Q as [[rs' [Q _]]|Q]; [discriminate|exact Q].
      - intros [path [J Q]]. assert (dsrc D path b p x) as [rs [Q1 [r [Ir R]]]] by (apply E5; right; exact Q).
        exists rs, r. split; [|auto]. apply G3. split; [intros ->; destruct Ir|]. exists path. split; [|exact J].
        apply (Tree_Proofs.dget_in String.eqb String.eqb_spec path rs D E6). exact Q1. }
    assert (forall f rs r, In (f, rs) G -> In r rs -> sound f r) as Sd.
    { intros f rs r I Ir. apply G3 in I. destruct I as [_ [path [I J]]]. apply (Tree_Proofs.dget_in String.eqb String.eqb_spec path rs D E6) in I.
      destruct (E7 path rs I) as [f' [If' Sf]]. assert (f' = f) as <-; [|exact (Sf r Ir)].
      apply (Tree_Proofs.dget_in String.eqb String.eqb_spec path f' files Nf) in If'. apply (Tree_Proofs.dget_in String.eqb String.eqb_spec path f files Nf) in J. congruence. }
    assert (forall b p f x f' x', source G b p f x -> source G b p f' x' -> f_at f x = f_at f' x') as U.
    { intros b p f x f' x' S S'. apply Src in S. apply Src in S'. destruct S as [path [If [ad [I [_ H]]]]]. destruct S' as [path' [If' [ad' [I' [_ H']]]]].
      pose proof (proj2 (Tree_Proofs.dget_in Nat.eqb Nat.eqb_spec b (path, ad) _ Nb) I) as Q. pose proof (proj2 (Tree_Proofs.dget_in Nat.eqb Nat.eqb_spec b (path', ad') _ Nb) I') as Q'.
      rewrite Q in Q'. injection Q' as <- <-. rewrite H in H'. injection H' as <-.
      apply (Tree_Proofs.dget_in String.eqb String.eqb_spec path f files Nf) in If. apply (Tree_Proofs.dget_in String.eqb String.eqb_spec path f' files Nf) in If'. congruence. }
    assert (exists m, read_chunks order m0 = Ok m /\ (forall b p f x, source G b p f x -> m b p = f_at f x)) as [m [M1 M2]].
    { destruct G as [|g0 G'] eqn:EG.
      - inversion G1; subst css. simpl in G2. subst cs. apply Permutation_sym, Permutation_nil in P. subst order. exists m0. split; [reflexivity|]. intros b p f x [rs [r [[] _]]].
      - assert (0 < size) as Zs.
        { inversion G1 as [|? ? ? ? [l0 [L0 _]] _]; subst. destruct g0 as [f0 rs0]. apply (plan_size rs0 ratio size l0 Cs); [|exact L0].
          apply (proj1 (proj1 (G3 f0 rs0) (or_introl eq_refl))). }
        rewrite <- EG in *. destruct (load_source G ratio size css order m0 Zs Sd G1) as [m [M1 [M2 _]]]; [rewrite <- G2; exact P|exact U|]. exists m. auto. }
    exists m, ents. split; [exact M1|]. split; [exact E2|]. split; [exact E3|]. split; [exact Nb|]. split.
    + intros path f b p x I A. apply (M2 b p f x). apply Src. exists path. auto.
    + destruct abstract as [a|].
      * destruct (forallb _ a); [|discriminate]. injection Nm as <-. exact On.
      * destruct (1 <? nprocs)%nat; [discriminate|]. injection Nm as <-. exists index. auto.
Qed.

(** ** The index, the other way *)

Lemma index_header_fresh : forall path l d d', index_header path l d = Ok d' -> forall name v i, dget String.eqb name d = Some v -> In (name, i) l -> False.
Proof.
  intros path. induction l as [|[a b] l IH]; intros d d' E name v i H I; [destruct I|]. cbn [index_header] in E. destruct (dget String.eqb a d) eqn:Q; [discriminate|]. destruct I as [I|I].
  - injection I as -> ->. congruence.
  - apply (IH _ _ E name v i); [|exact I]. rewrite (Parts_Proofs.dget_dput String.eqb String.eqb_spec). destruct (String.eqb_spec name a); [subst; congruence|exact H].
Qed.

Lemma index_files_keep : forall {B : Type} (l : list (string * file B)) d d', index_files l d = Ok d' -> forall name e, dget String.eqb name d = Some e -> dget String.eqb name d' = Some e.
Proof.
  induction l as [|[p f] l IH]; intros d d' E name e H; cbn [index_files] in E; [injection E as <-; exact H|].
  destruct (index_header p (f_header f) d) as [d1|] eqn:Q; [|discriminate]. simpl in E. apply (IH _ _ E). apply (index_header_ok _ _ _ _ Q). left. exact H.
Qed.

Lemma index_files_all : forall {B : Type} (l : list (string * file B)) d d', index_files l d = Ok d' -> forall path f name i, In (path, f) l -> In (name, i) (f_header f) -> dget String.eqb name d' = Some (path, i).
Proof.
  induction l as [|[p f0] l IH]; intros d d' E path f name i I J; [destruct I|]. cbn [index_files] in E.
  destruct (index_header p (f_header f0) d) as [d1|] eqn:Q; [|discriminate]. simpl in E. destruct I as [I|I]; [|exact (IH _ _ E path f name i I J)].
  injection I as -> ->. apply (index_files_keep _ _ _ E). apply (index_header_ok _ _ _ _ Q). right. split; [reflexivity|]. split; [exact J|].
  destruct (dget String.eqb name d) as [v|] eqn:D; [|reflexivity]. exfalso. exact (index_header_fresh _ _ _ _ Q name v i D J).
Qed.

Lemma file_index_all : forall {B : Type} (files : list (string * file B)) index, file_index files = Ok index -> forall path f name i, In (path, f) files -> In (name, i) (f_header f) -> dget String.eqb name index = Some (path, i).
Proof.
  intros B files index E. unfold file_index in E. destruct (sequence (map (fun x => check_length (snd x)) files)) as [us|]; [|discriminate]. simpl in E. exact (index_files_all _ _ _ E).
Qed.

Lemma index_nodup : forall {B : Type} (l : list (string * file B)) d d', index_files l d = Ok d' -> NoDup (map fst d) -> NoDup (map fst d').
Proof.
  assert (forall path l d d', index_header path l d = Ok d' -> NoDup (map fst d) -> NoDup (map fst d')) as G.
  { intros path. induction l as [|[a b] l IH]; intros d d' E N; cbn [index_header] in E; [injection E as <-; exact N|]. destruct (dget String.eqb a d); [discriminate|].
    apply (IH _ _ E). apply Parts_Proofs.dput_nodup; [exact String.eqb_spec|exact N]. }
  intros B. induction l as [|[p f] l IH]; intros d d' E N; cbn [index_files] in E; [injection E as <-; exact N|].
  destruct (index_header p (f_header f) d) as [d1|] eqn:Q; [|discriminate]. simpl in E. apply (IH _ _ E). exact (G _ _ _ _ Q N).
Qed.

(** ** The shards of a name *)

Lemma shards_pair : forall path shape z base l buf bounds ds, In (bounds, ds) l ->
  exists b, In (b, ds) (snd (plan_shards shape z base l buf)) /\ In (b, (path, addresses (byte_runs bounds shape z base))) (shard_assign path shape z base l buf).
Proof.
  induction l as [|[bs' ds'] l IH]; intros buf bounds ds I; [destruct I|]. cbn [plan_shards shard_assign]. cbv zeta. cbn [snd]. destruct I as [E|I].
  - injection E as -> ->. exists buf. split; left; reflexivity.
  - destruct (IH (S buf) bounds ds I) as [b [I1 I2]]. exists b. split; right; assumption.
Qed.

Lemma shards_back : forall shape z base l buf b ds, In (b, ds) (snd (plan_shards shape z base l buf)) -> exists bounds, In (bounds, ds) l.
Proof.
  induction l as [|[bs' ds'] l IH]; intros buf b ds I; [destruct I|]. cbn [plan_shards] in I. cbv zeta in I. cbn [snd] in I. destruct I as [E|I].
  - injection E as _ ->. exists bs'. left. reflexivity.
  - destruct (IH _ _ _ I) as [bs Q]. exists bs. right. exact Q.
Qed.

(** ** Uniform plans *)

Lemma uniform_sorted : forall base stride len n, 0 <= len -> len <= stride -> StronglySorted (fun a b => run_leb a b = true) (uniform base stride len n).
Proof.
  intros base stride len n L S. unfold uniform. generalize O as k. induction n as [|n IH]; intros k; simpl; [constructor|]. constructor; [apply IH|].
  apply Forall_forall. intros x I. apply in_map_iff in I. destruct I as [i [<- I]]. apply in_seq in I. unfold run_leb. simpl. apply orb_true_iff.
  destruct (Z_lt_le_dec (base + Z.of_nat k * stride) (base + Z.of_nat i * stride)) as [Q|Q]; [left; apply Z.ltb_lt; exact Q|right]. rewrite andb_true_iff, Z.eqb_eq, Z.leb_le. nia.
Qed.

Lemma sorted_by_key : forall {A : Type} (key : A -> Z) l, StronglySorted (fun a b => key a <= key b) l -> py_sorted key l = l.
Proof.
  intros A key l S. unfold py_sorted.
  assert (forall x acc, Forall (fun y => key y <= key x) acc -> insert_by key x acc = acc ++ [x]) as I.
  { intros x. induction acc as [|y acc IH]; intros F; [reflexivity|]. inversion F; subst. simpl. replace (key x <? key y) with false by (symmetry; apply Z.ltb_ge; assumption). rewrite IH by assumption. reflexivity. }
  assert (forall acc, StronglySorted (fun a b => key a <= key b) (acc ++ l) -> fold_left (fun acc x => insert_by key x acc) l acc = acc ++ l) as G.
  { clear S. induction l as [|x l IH]; intros acc S; simpl; [rewrite app_nil_r; reflexivity|].
    rewrite I; [rewrite IH; rewrite <- app_assoc; [reflexivity|exact S]|].
    clear IH. induction acc as [|y acc IHa]; [constructor|]. simpl in S. inversion S; subst. constructor; [|apply IHa; assumption].
    apply Forall_app in H2. destruct H2 as [_ H2]. inversion H2; assumption. }
  apply (G [] S).
Qed.

Lemma auto_uniform : forall base stride len n k needed reads prev_end, 0 <= len -> len <= stride -> prev_end <= base + Z.of_nat k * stride ->
  let res := auto_loop (map (fun i => (base + Z.of_nat i * stride, len)) (seq k n)) needed reads prev_end in
  fst (fst res) = needed + Z.of_nat n * len /\ snd res = match n with O => prev_end | S _ => base + Z.of_nat (k + n - 1) * stride + len end.
Proof.
  intros base stride len. induction n as [|n IH]; intros k needed reads prev_end L S P; cbv zeta.
  - simpl. split; lia.
  - cbn [seq map auto_loop]. set (rd := if default_gap <? base + Z.of_nat k * stride - prev_end then reads + 1 else reads).
    rewrite (Z.max_r prev_end) by lia.
    destruct (IH (Datatypes.S k) (needed + len) rd (base + Z.of_nat k * stride + len) L S ltac:(nia)) as [A C]. cbv zeta in A, C. rewrite A, C. split; [nia|].
    destruct n; [replace (k + 1 - 1)%nat with k by lia; reflexivity|]. replace (Datatypes.S k + Datatypes.S n - 1)%nat with (k + Datatypes.S (Datatypes.S n) - 1)%nat by lia. reflexivity.
Qed.

Lemma enum_from_map : forall {A : Type} (g : nat -> A) n k, enumerate_from k (map g (seq k n)) = map (fun i => (i, g i)) (seq k n).
Proof. intros A g. induction n as [|n IH]; intros k; simpl; [reflexivity|]. rewrite IH. reflexivity. Qed.

Lemma uniform_loop : forall base stride len N q, 0 <= len -> len <= stride -> snd q = Z.of_nat N * len -> fst q = (Z.of_nat N - 1) * stride + len ->
  forall n k members, (1 <= k)%nat -> (k + n = N)%nat ->
  partition_loop (within q) default_gap (map (fun i => (i, (base + Z.of_nat i * stride, len))) (seq k n)) base (base + Z.of_nat (k - 1) * stride + len) (Z.of_nat k * len) members =
  [mkBlock base (base + Z.of_nat (N - 1) * stride + len) (members ++ seq k n)].
Proof.
  intros base stride len N q L S Q1 Q2. induction n as [|n IH]; intros k members K E.
  - simpl. rewrite app_nil_r. replace k with N by lia. reflexivity.
  - cbn [seq map partition_loop].
    replace (Z.max (base + Z.of_nat (k - 1) * stride + len) (base + Z.of_nat k * stride + len)) with (base + Z.of_nat (Datatypes.S k - 1) * stride + len) by nia.
    assert (within q (base + Z.of_nat (Datatypes.S k - 1) * stride + len - base) (Z.of_nat k * len + len) = true) as W.
    { unfold within. apply Z.leb_le. rewrite Q1, Q2. replace (Z.of_nat (Datatypes.S k - 1)) with (Z.of_nat k) by lia.
      assert (Z.of_nat k + 1 <= Z.of_nat N) as KN by lia. set (a := Z.of_nat k) in *. set (b := Z.of_nat N) in *.
      assert (0 <= (b - a - 1) * (stride - len) * len) as M by (apply Z.mul_nonneg_nonneg; [apply Z.mul_nonneg_nonneg|]; lia). nia. }
    rewrite W, orb_true_r. replace (Z.of_nat k * len + len) with (Z.of_nat (Datatypes.S k) * len) by lia.
    rewrite (IH (Datatypes.S k) (members ++ [k])) by lia. rewrite <- app_assoc. reflexivity.
Qed.

Lemma uniform_apart : forall base stride len n, 0 <= len -> len <= stride -> StronglySorted apart (uniform base stride len n).
Proof.
  intros base stride len n L S. unfold uniform. generalize O as k. induction n as [|n IH]; intros k; cbn [seq map]; [constructor|]. constructor; [apply IH|].
  apply Forall_forall. intros x I. apply in_map_iff in I. destruct I as [i [<- I]]. apply in_seq in I. unfold apart. cbn [fst snd]. nia.
Qed.


(** ** A plan is made *)

Lemma fold_max_le : forall l a x, Forall (fun y => y <= x) l -> a <= x -> fold_left Z.max l a <= x.
Proof. induction l as [|y l IH]; intros a x F A; simpl; [exact A|]. inversion F; subst. apply IH; [assumption|lia]. Qed.

Lemma check_length_accepts : forall {B : Type} (f : file B), f_start f <= f_len f -> (forall name i, In (name, i) (f_header f) -> f_start f + i_end i <= f_len f) -> check_length f = Ok tt.
Proof.
  intros B f S H. unfold check_length. cbv zeta. replace (f_len f <? _) with false; [reflexivity|]. symmetry. apply Z.ltb_ge.
  assert (fold_left Z.max (map (fun x => i_end (snd x)) (f_header f)) (match f_header f with [] => 0 | x :: _ => i_end (snd x) end) <= f_len f - f_start f); [|lia].
  apply fold_max_le.
  - apply Forall_forall. intros y I. apply in_map_iff in I. destruct I as [[nm i] [<- I]]. simpl. specialize (H nm i I). lia.
  - destruct (f_header f) as [|[nm i] r] eqn:E; [lia|]. simpl. specialize (H nm i (or_introl eq_refl)). lia.
Qed.

Lemma index_header_accepts : forall path l d, NoDup (map fst l) -> (forall name, In name (map fst l) -> dget String.eqb name d = None) ->
  exists d', index_header path l d = Ok d' /\ forall name, dget String.eqb name d' <> None -> dget String.eqb name d <> None \/ In name (map fst l).
Proof.
  intros path. induction l as [|[nm i] l IH]; intros d N F; cbn [index_header]; [exists d; auto|]. inversion N; subst. rewrite (F nm (or_introl eq_refl)).
  destruct (IH (dput String.eqb nm (path, i) d) H2) as [d' [E G]].
  - intros name I. rewrite (Parts_Proofs.dget_dput String.eqb String.eqb_spec). destruct (String.eqb_spec name nm) as [->|_]; [contradiction|]. apply F. right. exact I.
  - exists d'. split; [exact E|]. intros name Q. destruct (G name Q) as [R|R]; [|right; right; exact R].
    rewrite (Parts_Proofs.dget_dput String.eqb String.eqb_spec) in R. destruct (String.eqb_spec name nm) as [->|_]; [right; left; reflexivity|left; exact R].
Qed.

Lemma index_files_accepts : forall {B : Type} (l : list (string * file B)) d, NoDup (flat_map (fun x => map fst (f_header (snd x))) l) ->
  (forall name, In name (flat_map (fun x => map fst (f_header (snd x))) l) -> dget String.eqb name d = None) -> exists d', index_files l d = Ok d'.
Proof.
  intros B. induction l as [|[p f] l IH]; intros d N F; cbn [index_files]; [eauto|]. simpl in N. apply Surgery_Proofs.nodup_app_iff in N. destruct N as [N1 [N2 N3]].
  destruct (index_header_accepts p (f_header f) d N1) as [d' [E G]].
  - intros name I. apply F. simpl. apply in_or_app. left. exact I.
  - rewrite E. cbn [rbind]. apply IH; [exact N2|]. intros name I. destruct (dget String.eqb name d') eqn:Q; [|reflexivity]. exfalso.
    destruct (G name) as [R|R]; [congruence| |exact (N3 name R I)]. apply R. apply F. simpl. apply in_or_app. right. exact I.
Qed.

Lemma seq_accepts : forall {A C : Type} (g : A -> result C) l, (forall x, In x l -> exists y, g x = Ok y) -> exists ys, sequence (map g l) = Ok ys.
Proof.
  intros A C g. induction l as [|x l IH]; intros H; simpl; [eauto|]. destruct (H x (or_introl eq_refl)) as [y ->]. simpl. destruct IH as [ys ->]; [intros; apply H; right; assumption|]. simpl. eauto.
Qed.

Lemma plan_names_accepts : forall {B : Type} this (files : list (string * file B)) index abstract names buf D out,
  (forall name b, In name names -> exists p, plan_name this files index abstract name b = Ok p /\ dget String.eqb (fst (fst (fst p))) files <> None) ->
  (forall path, In path (map fst D) -> dget String.eqb path files <> None) ->
  exists D' out', plan_names this files index abstract names buf D out = Ok (D', out') /\ forall path, In path (map fst D') -> dget String.eqb path files <> None.
Proof.
  intros B this files index abstract. induction names as [|nm ns IH]; intros buf D out H HD; cbn [plan_names]; [eauto|].
  destruct (H nm buf (or_introl eq_refl)) as [p [E G]]. rewrite E. cbn [rbind]. cbv zeta. apply IH; [intros; apply H; right; assumption|].
  intros path I. apply (Parts_Proofs.dput_keys String.eqb String.eqb_spec) in I. destruct I as [->|I]; [exact G|exact (HD path I)].
Qed.

Lemma plan_chunk_accepts : forall reads q size, snd q <= fst q -> 0 < size -> exists cs, plan_chunk_reads reads (Some q) size = Ok cs.
Proof.
  intros reads q size Q S. unfold plan_chunk_reads. cbv zeta. cbn [rbind]. unfold partition_runs. replace (fst q <? snd q) with false by (symmetry; apply Z.ltb_ge; exact Q).
  replace (size =? 0) with false by (symmetry; apply Z.eqb_neq; lia). destruct (map _ reads); cbn [rbind andb]; eauto.
Qed.

Lemma plan_files_accepts : forall {B : Type} (files : list (string * file B)) q size D, snd q <= fst q -> 0 < size -> (forall path, In path (map fst D) -> dget String.eqb path files <> None) ->
  exists cs, plan_files files (Some q) size D = Ok cs.
Proof.
  intros B files q size D Q S H. unfold plan_files.
  match goal with |- context [sequence (map ?g D)] => destruct (seq_accepts g D) as [ys ->] end; [|simpl; eauto].
  intros [path rs] I. cbn [fst snd]. destruct rs as [|r rs]; [eauto|]. unfold fetch. destruct (dget String.eqb path files) as [f|] eqn:F; [|exfalso; apply (H path); [apply in_map_iff; exists (path, r :: rs); auto|exact F]].
  cbn [rbind]. destruct (plan_chunk_accepts (r :: rs) q size Q S) as [cs ->]. simpl. eauto.
Qed.
