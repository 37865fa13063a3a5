(** Proofs about replica slices (C26). *)
From Coq Require Import ZArith List Bool Lia Permutation.
From Verif Require Import Base Nd_Model Fragment_Model Fragment_Spec Fragment_Proofs Slice_Model Slice_Spec Slice_Proofs Replica_Model Replica_Spec.
Import ListNotations.
Local Open Scope Z_scope.

Ltac spl := repeat match goal with |- _ /\ _ => split end.

(* ---------------------------------------------------------------- just_one *)
Lemma just_one_perm : forall {A} (P : A -> Prop) l l', Permutation l l' -> just_one P l -> just_one P l'.
Proof.
  intros A P l l' H (l1 & x & l2 & -> & Px & N).
  assert (I : In x l') by (eapply Permutation_in; eauto; apply in_or_app; simpl; auto).
  apply in_split in I as (m1 & m2 & ->). apply Permutation_app_inv in H.
  exists m1, x, m2. spl; auto. intros y Hy. apply N. eapply Permutation_in; [apply Permutation_sym; exact H|auto].
Qed.

Lemma just_one_numbered : forall {A} (h : A -> Z) (q : A -> bool) t l,
  NoDup (map h (filter q l)) -> In t (map h (filter q l)) -> just_one (fun x => q x = true /\ h x = t) l.
Proof.
  intros A h q t. induction l as [|a l IH]; simpl; intros N I; [tauto|].
  destruct (q a) eqn:Qa; simpl in *.
  - inversion N as [|? ? Na N']; subst. destruct (Z.eq_dec (h a) t) as [E|E].
    + exists [], a, l. simpl. spl; auto. intros y Hy [Qy Hyt]. apply Na. rewrite E, <- Hyt. apply in_map. apply filter_In; auto.
    + destruct I as [I|I]; [contradiction|]. destruct (IH N' I) as (l1 & x & l2 & -> & P & Q).
      exists (a :: l1), x, l2. simpl. split; auto. split; auto. intros y [<-|Hy]; auto. intros [_ X]. contradiction.
  - destruct (IH N I) as (l1 & x & l2 & -> & P & Q). exists (a :: l1), x, l2. simpl. split; auto. split; auto.
    intros y [<-|Hy]; auto. intros [X _]. congruence.
Qed.

Lemma just_one_map_filter : forall {A B} (p : A -> bool) (g : A -> B) (Q : B -> Prop) l,
  just_one (fun s => p s = true /\ Q (g s)) l -> just_one Q (map g (filter p l)).
Proof.
  intros A B p g Q l (l1 & x & l2 & -> & [Px Qx] & N). rewrite filter_app, map_app. simpl. rewrite Px. simpl.
  exists (map g (filter p l1)), (g x), (map g (filter p l2)). spl; auto.
  intros y Hy Qy. rewrite <- map_app, <- filter_app in Hy. apply in_map_iff in Hy as (s & <- & Hs).
  apply filter_In in Hs as [Hs Ps]. apply (N s Hs). auto.
Qed.

Lemma just_one_iff : forall {A} (P Q : A -> Prop) l, (forall x, In x l -> (P x <-> Q x)) -> just_one P l -> just_one Q l.
Proof.
  intros A P Q l H (l1 & x & l2 & -> & Px & N). exists l1, x, l2. spl; auto.
  - apply H; auto. apply in_or_app; simpl; auto.
  - intros y Hy Qy. apply (N y Hy). apply H; auto. apply in_app_iff in Hy. apply in_or_app; simpl. tauto.
Qed.

(* ------------------------------------------------------------------- boxes *)
Definition fine (shape : list Z) (idx : list pslice) : Prop :=
  Forall2 (fun p n => ps_step p = None /\ 0 <= sl_start (range_of p n) /\
                      sl_start (range_of p n) <= sl_stop (range_of p n) /\ sl_stop (range_of p n) <= n) idx shape.

Lemma fine_resolve : forall shape idx, fine shape idx ->
  resolve_slice (NTuple (map ISlice idx)) shape = Ok (map (fun r => conc (sl_start r) (sl_stop r) 1) (box shape idx)).
Proof.
  intros shape idx H. unfold resolve_slice, box. induction H as [|p n idx shape (St & A & B & C) H IH]; auto.
  cbn [map map2 sequence]. rewrite IH. cbn [resolve_item].
  rewrite indices_pos. 2:{ unfold pos_step. rewrite St. auto. } 2:{ lia. }
  rewrite St. cbn [rmap rbind fst snd]. f_equal. f_equal. unfold range_of in *; simpl in *. unfold conc.
  destruct (ps_start p), (ps_stop p); rewrite ?place_id by lia; auto.
Qed.

Lemma fine_unit : forall shape idx, unit_steps (box shape idx).
Proof. intros. unfold box. revert shape. induction idx; intros [|n shape]; simpl; constructor; auto. apply IHidx. Qed.

Lemma fine_okdims : forall shape idx, fine shape idx -> okdims (box shape idx).
Proof. intros shape idx H. unfold box. induction H as [|p n idx shape (St & A & B & C) H IH]; simpl; constructor; auto. simpl in *. split; auto. lia. Qed.

Lemma fine_fits : forall shape idx, fine shape idx -> Forall2 (fun n s => 0 <= sl_start s /\ sl_stop s <= n) shape (box shape idx).
Proof. intros shape idx H. unfold box. induction H as [|p n idx shape (St & A & B & C) H IH]; simpl; constructor; auto. Qed.

Lemma box_length : forall shape idx, fine shape idx -> List.length (box shape idx) = List.length shape.
Proof. intros shape idx H. unfold box. induction H; simpl; auto. Qed.

Definition keyof (b : list sl) : list (Z * Z * Z) := map (fun r => (sl_start r, sl_stop r, 1)) b.

Lemma fine_key : forall shape idx, fine shape idx ->
  to_hashable_index (NTuple (map ISlice idx)) (Some shape) = Ok (keyof (box shape idx)).
Proof.
  intros shape idx H. unfold to_hashable_index. pose proof (fine_resolve shape idx H) as E.
  destruct shape as [|n shape].
  - inversion H; subst. reflexivity.
  - rewrite E. cbn [rbind]. generalize (box (n :: shape) idx). unfold keyof. induction l; simpl; auto.
    rewrite IHl. auto.
Qed.

Lemma map_row : forall b, unit_steps b -> map row (map (fun r => conc (sl_start r) (sl_stop r) 1) b) = b.
Proof.
  induction b as [|[a z k] b IH]; simpl; intros U; inversion U; subst; auto. rewrite IH by auto.
  unfold row, conc; simpl in *. subst. auto.
Qed.

Lemma shape_eqb_refl : forall a, shape_eqb a a = true.
Proof. intros. apply shape_eqb_eq. auto. Qed.

Lemma key_eqb_box : forall a b, key_eqb (keyof a) (keyof b) = box_eqb b a.
Proof.
  intros a b. unfold key_eqb, box_eqb, keyof. rewrite !map_map. simpl.
  assert (S : forall x y, shape_eqb x y = shape_eqb y x).
  { induction x; destruct y; simpl; auto. rewrite Z.eqb_sym, IHx. auto. }
  rewrite (S (map _ a) (map sl_start b)) at 1. rewrite (S (map _ a) (map sl_stop b)).
  assert (L : shape_eqb (map sl_start b) (map sl_start a) = true -> shape_eqb (map (fun _ : sl => 1) a) (map (fun _ => 1) b) = true).
  { clear. revert a. induction b as [|r b IHb]; intros [|r2 a]; simpl; intros X; try discriminate; auto. apply andb_true_iff in X as [_ X]. auto. }
  destruct (shape_eqb (map sl_start b) (map sl_start a)); simpl; auto. rewrite L; auto. apply andb_true_r.
Qed.

Lemma box_eqb_eq : forall a b, unit_steps a -> unit_steps b -> (box_eqb a b = true <-> a = b).
Proof.
  unfold box_eqb. intros a b Ua. revert b. induction Ua as [|[x y k] a Hx Ua IH]; intros [|[x' y' k'] b] Ub; simpl.
  - split; auto. - split; discriminate. - split; discriminate.
  - inversion Ub; subst. simpl in *. subst. specialize (IH b H2).
    rewrite !andb_true_iff, !Z.eqb_eq. rewrite andb_true_iff in IH. split.
    + intros [[-> A] [-> B]]. f_equal. apply IH; auto.
    + intros E. injection E as -> -> ->. spl; auto; apply IH; auto.
Qed.

(* ------------------------------------------------------- number of replicas *)
Lemma filter_perm : forall {A} (f : A -> bool) l l', Permutation l l' -> Permutation (filter f l) (filter f l').
Proof.
  intros A f l l' H. induction H; simpl; auto.
  - destruct (f x); auto.
  - destruct (f x), (f y); auto. apply perm_swap.
  - eapply perm_trans; eauto.
Qed.

Lemma filter_map : forall {A B} (f : B -> bool) (g : A -> B) l, filter f (map g l) = map g (filter (fun x => f (g x)) l).
Proof. induction l; simpl; auto. destruct (f (g a)); simpl; rewrite IHl; auto. Qed.

Lemma zseq_length : forall R, 0 <= R -> Z.of_nat (List.length (zseq R)) = R.
Proof. intros. unfold zseq. rewrite map_length, seq_length. lia. Qed.

Lemma in_zseq : forall R t, In t (zseq R) <-> 0 <= t < R.
Proof.
  intros. unfold zseq. rewrite in_map_iff. split.
  - intros (k & <- & H). apply in_seq in H. lia.
  - intros H. exists (Z.to_nat t). split; [lia|]. apply in_seq. lia.
Qed.

Lemma zseq_nodup : forall R, NoDup (zseq R).
Proof. intros. unfold zseq. apply FinFun.Injective_map_NoDup. intros x y E. lia. apply seq_NoDup. Qed.

Section Sharded.
Variable V : Type.
Variables (shape : list Z) (G : list Z -> V) (R : Z) (d : list Z) (all : list (shard V)).
Hypothesis SD : sharded shape G R d all.

Notation bx s := (box shape (sh_index s)).

Lemma in_fine : forall s, In s all -> fine shape (sh_index s).
Proof. intros. apply (sd_index _ _ _ _ _ SD); auto. Qed.

Lemma keys_list : forall l, (forall i, In i l -> fine shape i) ->
  sequence (map (fun i => to_hashable_index (NTuple (map ISlice i)) (Some shape)) l) = Ok (map (fun i => keyof (box shape i)) l).
Proof.
  induction l as [|i l IH]; intros H; auto. cbn [map sequence]. rewrite fine_key by (apply H; simpl; auto).
  rewrite IH by (intros; apply H; simpl; auto). auto.
Qed.

Lemma num_replicas_ok : forall idxs, Permutation idxs (map sh_index all) -> all <> [] ->
  num_replicas idxs shape = Ok R.
Proof.
  intros idxs P NE.
  assert (F : forall i, In i idxs -> exists s, In s all /\ i = sh_index s).
  { intros i Hi. apply (Permutation_in i P) in Hi. apply in_map_iff in Hi as (s & <- & Hs). eauto. }
  assert (K : forall s, In s all -> count_key (keyof (bx s)) (map (fun i => keyof (box shape i)) idxs) = R).
  { intros s Hs. unfold count_key. rewrite filter_map, map_length.
    rewrite (Permutation_length (filter_perm _ _ _ P)), filter_map, map_length.
    rewrite (filter_ext _ (fun t => box_eqb (bx t) (bx s))) by (intros; apply key_eqb_box).
    pose proof (Permutation_length (sd_numbered _ _ _ _ _ SD s Hs)) as L. rewrite map_length in L. rewrite L.
    apply zseq_length. pose proof (sd_replicas _ _ _ _ _ SD). lia. }
  unfold num_replicas. rewrite keys_list. 2:{ intros i Hi. destruct (F i Hi) as (s & Hs & ->). apply in_fine; auto. }
  cbn [rbind]. destruct idxs as [|i idxs].
  - apply Permutation_nil in P. destruct all; [contradiction|discriminate].
  - cbn [map]. destruct (F i (or_introl eq_refl)) as (s0 & H0 & E0). 
    pose proof (K s0 H0) as K0. cbn [map] in K0. rewrite <- E0 in K0. rewrite K0.
    match goal with |- (if ?b then _ else _) = _ => replace b with true end; auto.
    symmetry. apply forallb_forall. intros k Hk. change (keyof (box shape i) :: map (fun i0 => keyof (box shape i0)) idxs) with (map (fun i0 => keyof (box shape i0)) (i :: idxs)) in *.
    apply in_map_iff in Hk as (j & <- & Hj). destruct (F j Hj) as (s & Hs & ->). rewrite K; auto. apply Z.eqb_refl.
Qed.

Lemma replica_range : forall s, In s all -> 0 <= sh_replica s < R.
Proof.
  intros s Hs. apply in_zseq. eapply Permutation_in; [apply (sd_numbered _ _ _ _ _ SD s Hs)|].
  apply in_map. apply filter_In. split; auto. unfold box_eqb. rewrite !shape_eqb_refl. auto.
Qed.

(** For a coordinate and a replica number there is exactly one shard. *)
Lemma one_shard : forall c t, inside shape c -> 0 <= t < R ->
  just_one (fun s => covers (bx s) c /\ sh_replica s = t) all.
Proof.
  intros c t Ic Ht. destruct (sd_cover _ _ _ _ _ SD c Ic) as (s & Hs & C).
  pose proof (sd_numbered _ _ _ _ _ SD s Hs) as P.
  apply (just_one_iff (fun x => box_eqb (bx x) (bx s) = true /\ sh_replica x = t)).
  - intros x Hx. rewrite box_eqb_eq by apply fine_unit. split; intros [A B]; split; auto.
    + rewrite A. auto.
    + eapply (sd_apart _ _ _ _ _ SD); eauto.
  - apply just_one_numbered.
    + eapply Permutation_NoDup; [apply Permutation_sym; eauto|apply zseq_nodup].
    + eapply Permutation_in; [apply Permutation_sym; eauto|apply in_zseq; auto].
Qed.
End Sharded.

(* ------------------------------------------------------ cutting along an axis *)
Definition part (k : nat) (i size : Z) (b : list sl) : list sl :=
  set_nth k (let a := sl_start (nth k b (mk_sl 0 0 1)) in mk_sl (a + i * size) (a + (i * size + size)) 1) b.

Lemma replace_set : forall {A} k (x : A) l, (k < List.length l)%nat -> replace_at k x l = set_nth k x l.
Proof.
  unfold replace_at. induction k; destruct l; simpl; intros; auto; try lia. f_equal. apply IHk. lia.
Qed.

Lemma part_extent : forall k i size b, (k < List.length b)%nat -> map extent (part k i size b) = set_nth k size (map extent b).
Proof.
  unfold part. induction k; destruct b as [|r b]; simpl; intros; auto; try lia.
  - f_equal. rewrite extent_unit by auto. simpl. lia.
  - f_equal. apply IHk. lia.
Qed.

Lemma part_unit : forall k i size b, unit_steps b -> unit_steps (part k i size b).
Proof.
  unfold part. induction k; destruct b as [|r b]; simpl; intros U; inversion U; subst; constructor; auto. apply IHk; auto.
Qed.

Lemma part_okdims : forall k i size b, 0 <= size -> okdims b -> okdims (part k i size b).
Proof.
  unfold part. induction k; destruct b as [|r b]; simpl; intros Hs U; inversion U; subst; constructor; auto.
  - simpl. lia.
  - apply IHk; auto.
Qed.

Lemma part_sub : forall k i size count b c, unit_steps b -> (k < List.length b)%nat ->
  nth k (map extent b) 0 = size * count -> 1 <= size -> 0 <= i < count ->
  covers (part k i size b) c -> covers b c.
Proof.
  unfold part. induction k; destruct b as [|r b]; simpl; intros [|x c] U L E Hs Hi C; try lia; try (inversion C; fail).
  - apply covers_cons in C as [X C]. apply covers_cons. split; auto. inversion U; subst. rewrite extent_unit in E by auto.
    apply selects_unit in X; auto. apply selects_unit; auto. simpl in X. nia.
  - apply covers_cons in C as [X C]. apply covers_cons. inversion U; subst. split; auto. eapply IHk; eauto. lia.
Qed.

Lemma part_fits : forall k i size count b sh, unit_steps b -> (k < List.length b)%nat ->
  nth k (map extent b) 0 = size * count -> 1 <= size -> 0 <= i < count ->
  Forall2 (fun n s => 0 <= sl_start s /\ sl_stop s <= n) sh b ->
  Forall2 (fun n s => 0 <= sl_start s /\ sl_stop s <= n) sh (part k i size b).
Proof.
  unfold part. induction k; destruct b as [|r b]; simpl; intros sh U L E Hs Hi C; try lia; inversion C; subst; constructor; auto.
  - inversion U; subst. rewrite extent_unit in E by auto. simpl. nia.
  - inversion U; subst. eapply IHk; eauto. lia.
Qed.

(** The number of the part a coordinate is in. *)
Definition part_of (k : nat) (size : Z) (b : list sl) (c : list Z) : Z :=
  (nth k c 0 - sl_start (nth k b (mk_sl 0 0 1))) / size.

Lemma part_unique : forall k size count b c, unit_steps b -> (k < List.length b)%nat ->
  nth k (map extent b) 0 = size * count -> 1 <= size -> covers b c ->
  0 <= part_of k size b c < count /\
  forall i, covers (part k i size b) c <-> i = part_of k size b c.
Proof.
  unfold part, part_of. induction k; destruct b as [|r b]; simpl; intros [|x c] U L E Hs C; try lia; try (inversion C; fail).
  - apply covers_cons in C as [X C]. inversion U; subst. rewrite extent_unit in E by auto. apply selects_unit in X; auto.
    pose proof (Z.div_mod (x - sl_start r) size ltac:(lia)) as D. pose proof (Z.mod_pos_bound (x - sl_start r) size ltac:(lia)) as M.
    cbn [nth]. split.
    + split. apply Z.div_pos; lia. apply Z.div_lt_upper_bound; lia.
    + intros i. rewrite covers_cons, selects_unit by auto. simpl. split.
      * intros [A _]. nia.
      * intros ->. split; auto. nia.
  - apply covers_cons in C as [X C]. inversion U; subst. destruct (IHk size count b c) as [A B]; auto; try lia.
    split; auto. intros i. rewrite covers_cons, <- B. tauto.
Qed.

Lemma part_inside : forall k i size count d ks, (k < List.length d)%nat -> nth k d 0 = size * count -> 1 <= size -> 0 <= i < count ->
  inside (set_nth k size d) ks -> inside d (set_nth k (at_axis k ks + i * size) ks).
Proof.
  unfold inside, at_axis. induction k; destruct d as [|n d]; simpl; intros ks L E Hs Hi I; try lia; inversion I; subst; simpl; constructor; auto.
  - nia.
  - eapply IHk; eauto. lia.
Qed.

Lemma part_point : forall k i size b ks, unit_steps b -> (k < List.length b)%nat -> List.length ks = List.length b ->
  point (part k i size b) ks = point b (set_nth k (at_axis k ks + i * size) ks).
Proof.
  unfold part, at_axis. induction k; destruct b as [|r b]; destruct ks as [|x ks]; simpl; intros U L E; try lia; try discriminate.
  - inversion U; subst. f_equal. rewrite H1. lia.
  - inversion U; subst. f_equal. apply IHk; auto; lia.
Qed.

Lemma first_divisible_spec : forall sh count k, first_divisible sh count = Some k ->
  (k < List.length sh)%nat /\ nth k sh 0 mod count = 0.
Proof.
  induction sh as [|n sh IH]; simpl; intros count k H; [discriminate|].
  destruct (Z.eqb_spec (n mod count) 0).
  - injection H as <-. split; auto. lia.
  - destruct (first_divisible sh count) eqn:E; simpl in H; [|discriminate]. injection H as <-. destruct (IH _ _ E). split; auto. lia.
Qed.

Lemma prod_nz : forall sh k, prod sh <> 0 -> (k < List.length sh)%nat -> nth k sh 0 <> 0.
Proof.
  induction sh as [|n sh IH]; simpl; intros k H L; [lia|]. destruct k; [nia|]. apply IH; [nia|lia].
Qed.

Lemma set_nth_len : forall {A} i (x : A) l, List.length (set_nth i x l) = List.length l.
Proof. induction i; destruct l; simpl; auto. Qed.

Lemma set_nth_nth : forall i (x : Z) l, (i < List.length l)%nat -> nth i (set_nth i x l) 0 = x.
Proof. induction i; destruct l; simpl; intros; try lia; auto. apply IHi; lia. Qed.

Lemma set_set : forall {A} i (x y : A) l, set_nth i x (set_nth i y l) = set_nth i x l.
Proof. induction i; destruct l; simpl; auto. f_equal. apply IHi. Qed.

Lemma inside_length : forall sh c, inside sh c -> List.length c = List.length sh.
Proof. intros sh c H. induction H; simpl; auto. Qed.

(** The index of a part, as the code writes it. *)
Lemma part_index : forall k i size count shape idx z, fine shape idx -> nth_error idx k = Some z ->
  nth k (map extent (box shape idx)) 0 = size * count -> 1 <= size -> 0 <= i < count ->
  let a := match ps_start z with Some a => a | None => 0 end in
  let idx' := set_nth k (mk_ps (Some (a + i * size)) (Some (a + (i * size + size))) None) idx in
  fine shape idx' /\ box shape idx' = part k i size (box shape idx) /\
  ps_step z = None /\ (forall b, ps_stop z = Some b -> b = a + nth k (map extent (box shape idx)) 0).
Proof.
  unfold fine, box, part. induction k; intros i size count shape idx z F N E Hs Hi; destruct F as [|p n idx shape (St & A & B & C) F];
    try discriminate; cbn [nth_error] in N; cbn [map2 map nth] in *.
  - injection N as <-. rewrite extent_unit in E by auto. unfold range_of in *; simpl in *. spl; auto.
    + constructor; auto. simpl. spl; auto; try nia.
    + intros b Eb. rewrite extent_unit by auto. simpl. rewrite Eb in *. lia.
  - destruct (IHk i size count shape idx z F N E Hs Hi) as (X & Y & Z & W). cbn [set_nth map2]. spl; auto.
    cbn [set_nth]. f_equal. exact Y.
Qed.

Section Process.
Variable V : Type.
Variables (shape : list Z) (G : list Z -> V) (R : Z) (d : list Z) (all : list (shard V)).
Hypothesis SD : sharded shape G R d all.

Notation bx s := (box shape (sh_index s)).

Definition decision (c : cfg) : option (nat * Z) :=
  if c_parallel c && safe_to_slice c d then
    match parallel_axis (Ok R) d (c_max_replicas c) with
    | Ok (Some (axis, local, count)) =>
        if prod local * c_itemsize c <? match c_min_bytes c with Some b => b | None => 0 end then None
        else Some (axis, count)
    | _ => None
    end
  else None.

Definition size_of (k : nat) (count : Z) : Z := nth k d 0 / count.

Definition local_of (dec : option (nat * Z)) : list Z :=
  match dec with None => d | Some (k, count) => set_nth k (size_of k count) d end.

Definition index_of (dec : option (nat * Z)) (s : shard V) : list pslice :=
  match dec with
  | None => sh_index s
  | Some (k, count) =>
      let a := match nth_error (sh_index s) k with Some z => match ps_start z with Some a => a | None => 0 end | None => 0 end in
      let so := sh_replica s * size_of k count in
      set_nth k (mk_ps (Some (a + so)) (Some (a + (so + size_of k count))) None) (sh_index s)
  end.

Definition args_of (dec : option (nat * Z)) (s : shard V) : option sargs :=
  match dec with
  | None => None
  | Some (k, count) => let so := sh_replica s * size_of k count in Some (mk_sargs so (so + size_of k count) k)
  end.

Definition value_of (dec : option (nat * Z)) (s : shard V) : arr V :=
  match dec with
  | None => sh_data s
  | Some (k, count) => let so := sh_replica s * size_of k count in slice_in_dim (sh_data s) so (so + size_of k count) k
  end.

Definition writes (dec : option (nat * Z)) (target : Z) (s : shard V) : bool :=
  match dec with None => sh_replica s =? target | Some (_, count) => negb (count <=? sh_replica s) end.

Definition frag_box (dec : option (nat * Z)) (s : shard V) : list sl :=
  match dec with None => bx s | Some (k, count) => part k (sh_replica s) (size_of k count) (bx s) end.

Definition frag_of (dec : option (nat * Z)) (s : shard V) : frag V :=
  mk_frag (frag_box dec s) (Some (value_of dec s)).

Definition dec_ok (dec : option (nat * Z)) : Prop :=
  match dec with
  | None => True
  | Some (k, count) => (k < List.length d)%nat /\ nth k d 0 = size_of k count * count /\ 1 <= size_of k count /\ 2 <= count <= R
  end.

Lemma d_nonneg : all <> [] -> Forall (fun n => 0 <= n) d.
Proof.
  intros NE. destruct all as [|s l] eqn:E; [contradiction|].
  assert (Hs : In s (s :: l)) by (simpl; auto).
  destruct (sd_shape _ _ _ _ _ SD s Hs) as [X _]. pose proof (sd_index _ _ _ _ _ SD s Hs) as O.
  rewrite <- X. clear - O. unfold box. induction O as [|p n idx sh (St & A & B & C) O IH]; simpl; constructor; auto.
  rewrite extent_unit by auto. lia.
Qed.

Lemma decision_ok : forall c, all <> [] -> dec_ok (decision c).
Proof.
  intros c NE. unfold decision. destruct (c_parallel c && safe_to_slice c d); simpl; auto.
  unfold parallel_axis; cbn [rbind].
  set (count := match c_max_replicas c with Some m => Z.min R m | None => R end).
  destruct (Z.eqb_spec (prod d) 0); cbn [orb]; simpl; auto.
  destruct (Z.leb_spec count 1); simpl; auto.
  destruct (first_divisible d count) as [k|] eqn:FD; simpl; auto.
  destruct (prod (set_nth k (at_axis k d / count) d) * c_itemsize c <? _); simpl; auto.
  apply first_divisible_spec in FD as [L M]. pose proof (prod_nz d k n L) as NZ.
  pose proof (d_nonneg NE) as P. rewrite Forall_forall in P. specialize (P (nth k d 0) (nth_In _ _ L)).
  apply Z.div_exact in M; [|lia]. unfold size_of. spl; auto; try lia; try nia.
  unfold count. destruct (c_max_replicas c); lia.
Qed.

Lemma index_ok : forall dec s, dec_ok dec -> In s all -> writes dec (sh_replica s) s = true ->
  fine shape (index_of dec s) /\ box shape (index_of dec s) = frag_box dec s /\ map extent (frag_box dec s) = local_of dec /\
  ashape (value_of dec s) = local_of dec.
Proof.
  intros dec s D Hs W. pose proof (in_fine _ _ _ _ _ _ SD s Hs) as F. destruct (sd_shape _ _ _ _ _ SD s Hs) as [Ex Sh].
  destruct dec as [[k count]|]; simpl in *.
  - destruct D as (L & E & Sz & Cn). rewrite negb_true_iff, Z.leb_gt in W.
    pose proof (replica_range _ _ _ _ _ _ SD s Hs) as RR.
    assert (Lb : List.length (bx s) = List.length d) by (rewrite <- Ex, map_length; auto).
    destruct (nth_error (sh_index s) k) as [z|] eqn:N.
    2:{ apply nth_error_None in N. pose proof (Forall2_len _ _ _ F). rewrite box_length in Lb by auto. lia. }
    destruct (part_index k (sh_replica s) (size_of k count) count shape (sh_index s) z F N) as (X & Y & _ & _); auto; try (rewrite Ex; auto); try lia.
    spl; auto.
    + rewrite part_extent by lia. rewrite Ex. auto.
    + rewrite Sh. f_equal. lia.
  - spl; auto.
Qed.

Lemma value_ok : forall dec s, dec_ok dec -> In s all -> writes dec (sh_replica s) s = true ->
  rs_value (mk_rslice (index_of dec s) (sh_data s) (args_of dec s)) = Ok (value_of dec s).
Proof.
  intros [[k count]|] s D Hs W; simpl in *; auto. destruct D as (L & E & Sz & Cn). rewrite negb_true_iff, Z.leb_gt in W.
  pose proof (replica_range _ _ _ _ _ _ SD s Hs) as RR. destruct (sd_shape _ _ _ _ _ SD s Hs) as [Ex Sh].
  unfold rs_value; cbn [rs_args sa_axis sa_start sa_limit rs_data]. rewrite Sh.
  destruct (Nat.ltb_spec k (List.length d)); [|lia].
  destruct (Z.leb_spec 0 (sh_replica s * size_of k count)); [|nia].
  destruct (Z.leb_spec (sh_replica s * size_of k count) (sh_replica s * size_of k count + size_of k count)); [|lia].
  unfold at_axis. destruct (Z.leb_spec (sh_replica s * size_of k count + size_of k count) (nth k d 0)); [auto|nia].
Qed.

Lemma parallel_slice_ok : forall k count s, dec_ok (Some (k, count)) -> In s all -> sh_replica s < count ->
  parallel_slice d (local_of (Some (k, count))) k s = Ok (mk_rslice (index_of (Some (k, count)) s) (sh_data s) (args_of (Some (k, count)) s)).
Proof.
  intros k count s D Hs W. pose proof (in_fine _ _ _ _ _ _ SD s Hs) as F. destruct (sd_shape _ _ _ _ _ SD s Hs) as [Ex Sh].
  pose proof D as (L & E & Sz & Cn). pose proof (replica_range _ _ _ _ _ _ SD s Hs) as RR.
  assert (Lb : List.length (bx s) = List.length d) by (rewrite <- Ex, map_length; auto).
  unfold parallel_slice, index_of, args_of, local_of, at_axis. rewrite set_nth_nth by auto.
  assert (Ln : (k < List.length (sh_index s))%nat) by (pose proof (Forall2_len _ _ _ F); rewrite box_length in Lb by auto; lia).
  destruct (nth_error (sh_index s) k) as [z|] eqn:N; [|apply nth_error_None in N; lia].
  destruct (part_index k (sh_replica s) (size_of k count) count shape (sh_index s) z F N) as (X & Y & St & Sp); auto; try (rewrite Ex; auto); try lia.
  rewrite St. cbn [negb]. rewrite Ex in Sp. rewrite Sh.
  replace (match ps_stop z with Some b => b =? match ps_start z with Some a => a | None => 0 end + nth k d 0 | None => true end) with true.
  2:{ symmetry. destruct (ps_stop z) as [b|]; auto. apply Z.eqb_eq. apply Sp; auto. }
  cbn [negb]. rewrite replace_set by auto. auto.
Qed.

Lemma parallel_slices_ok : forall k count l, dec_ok (Some (k, count)) -> incl l all ->
  parallel_slices d (local_of (Some (k, count))) k count l =
  Ok (map (fun s => mk_rslice (index_of (Some (k, count)) s) (sh_data s) (args_of (Some (k, count)) s)) (filter (writes (Some (k, count)) 0) l)).
Proof.
  intros k count l D. induction l as [|s l IH]; intros I; auto.
  assert (Hs : In s all) by (apply I; simpl; auto). destruct (sd_shape _ _ _ _ _ SD s Hs) as [Ex Sh].
  cbn [parallel_slices]. rewrite Sh, shape_eqb_refl. cbn [negb]. rewrite IH by (intros x Hx; apply I; simpl; auto).
  cbn [filter writes]. destruct (Z.leb_spec count (sh_replica s)); cbn [negb]; auto.
  rewrite parallel_slice_ok by auto. auto.
Qed.

(** What one process decides to write. *)
Lemma get_ok : forall c proc r, c_replica_id c = Some r -> c_global c = shape ->
  Permutation (c_indices c) (map sh_index all) -> proc <> [] -> incl proc all ->
  get_replica_slices c proc = Ok (mk_rslices shape (local_of (decision c))
    (map (fun s => mk_rslice (index_of (decision c) s) (sh_data s) (args_of (decision c) s)) (filter (writes (decision c) r) proc))).
Proof.
  intros c proc r Er Eg P NE I.
  assert (NA : all <> []). { destruct proc as [|s p]; [contradiction|]. intros E. specialize (I s (or_introl eq_refl)). rewrite E in I. destruct I. }
  pose proof (decision_ok c NA) as D. unfold decision in *.
  destruct proc as [|s0 p]; [contradiction|]. set (proc := s0 :: p) in *.
  assert (H0 : In s0 all) by (apply I; simpl; auto). destruct (sd_shape _ _ _ _ _ SD s0 H0) as [_ Sh].
  unfold get_replica_slices. rewrite Eg. fold proc. unfold proc at 1. rewrite Sh.
  assert (SINGLE : mk_rslices shape (snd (pick_single (c_replica_id c) s0 proc)) (fst (pick_single (c_replica_id c) s0 proc)) =
    mk_rslices shape (local_of None) (map (fun s => mk_rslice (index_of None s) (sh_data s) (args_of None s)) (filter (writes None r) proc))).
  { unfold pick_single. rewrite Er. simpl snd. simpl fst. rewrite Sh. auto. }
  destruct (c_parallel c && safe_to_slice c d); cbn [rbind]; [|rewrite SINGLE; auto].
  unfold maybe_parallel. rewrite Er, Sh, Eg. rewrite (num_replicas_ok _ _ _ _ _ _ SD (c_indices c) P NA).
  destruct (parallel_axis (Ok R) d (c_max_replicas c)) as [[[[k local] count]|]|e] eqn:PA; cbn [rbind] in *.
  - destruct (prod local * c_itemsize c <? match c_min_bytes c with Some b => b | None => 0 end); cbn [rbind]; [rewrite <- Er, SINGLE; auto|].
    assert (EL : local = local_of (Some (k, count))).
    { unfold parallel_axis in PA. cbn [rbind] in PA. destruct ((prod d =? 0) || _) in PA; [discriminate|].
      destruct (first_divisible d _) in PA; [|discriminate]. injection PA as <- <- <-. reflexivity. }
    rewrite EL, parallel_slices_ok; auto.
  - rewrite <- Er, SINGLE; auto.
  - exfalso. unfold parallel_axis in PA. cbn [rbind] in PA. destruct ((prod d =? 0) || _) in PA; [discriminate|].
      destruct (first_divisible d _) in PA; discriminate.
Qed.

Lemma host_list : forall dec l, dec_ok dec -> incl l all -> (forall s, In s l -> writes dec (sh_replica s) s = true) ->
  sequence (map (fun x => rmap (fun v => mk_rslice (rs_index x) v None) (rs_value x))
              (map (fun s => mk_rslice (index_of dec s) (sh_data s) (args_of dec s)) l)) =
  Ok (map (fun s => mk_rslice (index_of dec s) (value_of dec s) None) l).
Proof.
  intros dec l D. induction l as [|s l IH]; intros I W; auto. cbn [map sequence].
  rewrite value_ok; auto; try (apply I; simpl; auto; fail); try (apply W; simpl; auto; fail). rewrite IH; auto.
  - intros x Hx; apply I; simpl; auto. - intros; apply W; simpl; auto.
Qed.

Lemma frag_list : forall dec l, dec_ok dec -> incl l all -> (forall s, In s l -> writes dec (sh_replica s) s = true) ->
  sequence (map (to_fragment shape) (map (fun s => mk_rslice (index_of dec s) (value_of dec s) None) l)) = Ok (map (frag_of dec) l).
Proof.
  intros dec l D. induction l as [|s l IH]; intros I W; auto. cbn [map sequence].
  destruct (index_ok dec s D) as (F & B & _); [apply I; simpl; auto|apply W; simpl; auto|].
  unfold to_fragment at 1. cbn [rs_index]. rewrite fine_resolve by auto. cbn [rbind]. rewrite map_row by apply fine_unit. rewrite B.
  unfold rs_value; cbn [rs_args rs_data rmap rbind]. rewrite IH; auto.
  - intros x Hx; apply I; simpl; auto. - intros; apply W; simpl; auto.
Qed.

Lemma writes_any : forall dec r s, writes dec r s = true -> writes dec (sh_replica s) s = true.
Proof. intros [[k n]|] r s H; simpl in *; auto. apply Z.eqb_refl. Qed.

Lemma process_frags : forall dec l, dec_ok dec -> incl l all -> (forall s, In s l -> writes dec (sh_replica s) s = true) ->
  rbind (on_host (mk_rslices shape (local_of dec) (map (fun s => mk_rslice (index_of dec s) (sh_data s) (args_of dec s)) l))) to_fragments =
  Ok (mk_frags shape (map (frag_of dec) l)).
Proof.
  intros dec l D I W. unfold on_host. cbn [r_global r_local r_list]. rewrite host_list by auto. cbn [rmap rbind].
  unfold to_fragments. cbn [r_global r_local r_list]. rewrite frag_list by auto. cbn [rbind].
  destruct l as [|s l]; auto.
  assert (SS : same_shapes (map (frag_of dec) (s :: l)) = true).
  { unfold same_shapes. cbn [map]. apply forallb_forall. intros g Hg. change (frag_of dec s :: map (frag_of dec) l) with (map (frag_of dec) (s :: l)) in Hg.
    apply in_map_iff in Hg as (t & <- & Ht). cbn [frag_of f_value].
    destruct (index_ok dec s D) as (_ & _ & _ & A); [apply I; simpl; auto|apply W; simpl; auto|].
    destruct (index_ok dec t D) as (_ & _ & _ & B); [apply I; auto|apply W; auto|]. rewrite A, B. apply shape_eqb_refl. }
  cbn [map] in *. rewrite SS. cbn [negb].
  destruct (index_ok dec s D) as (_ & _ & A & _); [apply I; simpl; auto|apply W; simpl; auto|].
  unfold f_shape at 1. cbn [frag_of f_index]. change (slice_shape (frag_box dec s)) with (map extent (frag_box dec s)). rewrite A, shape_eqb_refl. cbn [negb]. rewrite andb_false_r. auto.
Qed.

Lemma process_ok : forall c proc r, c_replica_id c = Some r -> c_global c = shape ->
  Permutation (c_indices c) (map sh_index all) -> proc <> [] -> incl proc all ->
  process_fragments c proc = Ok (mk_frags shape (map (frag_of (decision c)) (filter (writes (decision c) r) proc))).
Proof.
  intros c proc r Er Eg P NE I. unfold process_fragments. rewrite (get_ok c proc r) by auto. cbn [rbind].
  assert (NA : all <> []). { destruct proc as [|s p]; [contradiction|]. intros E. specialize (I s (or_introl eq_refl)). rewrite E in I. destruct I. }
  apply process_frags.
  - apply decision_ok; auto.
  - intros x Hx. apply filter_In in Hx as [Hx _]. auto.
  - intros s Hs. apply filter_In in Hs as [_ Hs]. eapply writes_any; eauto.
Qed.

(** A written fragment is inside the array and carries the array's values. *)
Lemma frag_good : forall dec s, dec_ok dec -> In s all -> writes dec (sh_replica s) s = true ->
  well_formed (frag_of dec s) /\ unit_steps (f_index (frag_of dec s)) /\ concrete (frag_of dec s) /\ fits shape (frag_of dec s) /\
  map extent (f_index (frag_of dec s)) = local_of dec /\
  (forall c v, holds (frag_of dec s) c v -> v = G c).
Proof.
  intros dec s D Hs W. pose proof (in_fine _ _ _ _ _ _ SD s Hs) as F.
  destruct (index_ok dec s D Hs W) as (Fi & Bi & Ex & Sv). pose proof (fine_okdims _ _ Fi) as O. rewrite Bi in O.
  pose proof (fine_fits _ _ Fi) as Ft. rewrite Bi in Ft. pose proof (fine_unit shape (index_of dec s)) as U. rewrite Bi in U.
  unfold frag_of. cbn [f_index f_value]. spl; auto.
  - split; auto. cbn [f_value]. intros a X. injection X as <-. rewrite Sv. auto.
  - discriminate.
  - intros c v (a & ks & X & I & Pt & Gv). cbn [f_value f_index] in *. injection X as <-. rewrite Sv in I. subst c v.
    destruct (sd_shape _ _ _ _ _ SD s Hs) as [Eb Sh].
    destruct dec as [[k count]|]; cbn [value_of frag_box local_of] in *.
    + pose proof D as (L & E & Sz & Cn). cbn [writes] in W. rewrite negb_true_iff, Z.leb_gt in W. pose proof (replica_range _ _ _ _ _ _ SD s Hs) as RR.
      unfold slice_in_dim; cbn [aget]. rewrite part_point.
      * apply (sd_data _ _ _ _ _ SD); auto. eapply part_inside; eauto. lia.
      * apply fine_unit.
      * rewrite <- Eb, map_length in L. auto.
      * apply inside_length in I. rewrite set_nth_len in I. rewrite <- Eb, map_length in I. auto.
    + apply (sd_data _ _ _ _ _ SD); auto.
Qed.

(** Each coordinate is in exactly one of the fragments written. *)
Lemma written_once : forall dec r c, dec_ok dec -> 0 <= r < R -> inside shape c ->
  just_one (fun s => writes dec r s = true /\ covers (f_index (frag_of dec s)) c) all.
Proof.
  intros dec r c D Hr Ic. destruct dec as [[k count]|].
  - destruct (sd_cover _ _ _ _ _ SD c Ic) as (s & Hs & C). pose proof D as (L & E & Sz & Cn).
    destruct (sd_shape _ _ _ _ _ SD s Hs) as [Ex Sh].
    destruct (part_unique k (size_of k count) count (bx s) c) as [A B]; auto; try apply fine_unit; try (rewrite Ex; auto).
    { rewrite <- Ex, map_length in L. auto. }
    apply (just_one_iff (fun x => covers (bx x) c /\ sh_replica x = part_of k (size_of k count) (bx s) c)).
    2:{ eapply one_shard; eauto. lia. }
    intros x Hx. destruct (sd_shape _ _ _ _ _ SD x Hx) as [Ex' Sh']. cbn [writes frag_of f_index frag_box]. split.
    + intros [Cx Ei]. rewrite (sd_apart _ _ _ _ _ SD x s c Hx Hs Cx C). split.
      * rewrite negb_true_iff, Z.leb_gt. lia.
      * apply B. auto.
    + intros [W Cx]. rewrite negb_true_iff, Z.leb_gt in W. pose proof (replica_range _ _ _ _ _ _ SD x Hx) as RR.
      assert (Cb : covers (bx x) c).
      { apply (part_sub k (sh_replica x) (size_of k count) count); auto; try apply fine_unit; try lia.
        - rewrite <- Ex', map_length in L. auto.
        - rewrite Ex'. auto. }
      split; auto. apply B. rewrite <- (sd_apart _ _ _ _ _ SD x s c Hx Hs Cb C). auto.
  - apply (just_one_iff (fun x => covers (bx x) c /\ sh_replica x = r)).
    + intros x Hx. cbn [writes frag_of f_index frag_box]. rewrite Z.eqb_eq. tauto.
    + eapply one_shard; eauto.
Qed.
End Process.

(** All processes together. *)
Lemma save_all_ok : forall V shape (G : list Z -> V) R d all c procs r, sharded shape G R d all ->
  c_replica_id c = Some r -> c_global c = shape -> Permutation (c_indices c) (map sh_index all) ->
  Permutation (List.concat procs) all -> Forall (fun p => p <> []) procs ->
  save_all c procs = Ok (map (frag_of V shape d (decision R d c)) (filter (writes V (decision R d c) r) (List.concat procs))).
Proof.
  intros V shape G R d all c procs r SD Er Eg P Pp NE.
  assert (I : forall p, In p procs -> incl p all).
  { intros p Hp x Hx. eapply Permutation_in; eauto. apply in_concat. eauto. }
  clear Pp. unfold save_all.
  assert (E : sequence (map (process_fragments c) procs) =
    Ok (map (fun p => mk_frags shape (map (frag_of V shape d (decision R d c)) (filter (writes V (decision R d c) r) p))) procs)).
  { induction NE as [|p procs Hp NE IH]; auto. cbn [map sequence]. rewrite (process_ok V shape G R d all SD c p r); auto.
    2:{ apply I; simpl; auto. } rewrite IH; auto. intros q Hq; apply I; simpl; auto. }
  rewrite E. cbn [rmap]. f_equal. rewrite map_map. cbn [fs_list]. clear. induction procs; simpl; auto.
  rewrite IHprocs, filter_app, map_app. auto.
Qed.

Lemma save_all_once : forall V shape (G : list Z -> V) R d all c procs r, sharded shape G R d all ->
  c_replica_id c = Some r -> 0 <= r < R -> c_global c = shape -> Permutation (c_indices c) (map sh_index all) ->
  Permutation (List.concat procs) all -> Forall (fun p => p <> []) procs ->
  exists fs, save_all c procs = Ok fs /\
    (forall p, inside shape p -> just_one (fun f => covers (f_index f) p) fs) /\
    (forall f, In f fs -> well_formed f /\ unit_steps (f_index f) /\ concrete f /\ fits shape f /\ forall p v, holds f p v -> v = G p) /\
    (exists local, forall f, In f fs -> map extent (f_index f) = local).
Proof.
  intros V shape G R d all c procs r SD Er Hr Eg P Pp NE. eexists. split; [eapply save_all_ok; eauto|].
  assert (DO : forall f s, In s (filter (writes V (decision R d c) r) (List.concat procs)) -> f = frag_of V shape d (decision R d c) s ->
     In s all /\ dec_ok R d (decision R d c) /\ writes V (decision R d c) (sh_replica s) s = true).
  { intros f s Hs _. apply filter_In in Hs as [Hs W]. apply (Permutation_in s Pp) in Hs. spl; auto.
    - eapply decision_ok; eauto. intros ->. destruct Hs.
    - eapply writes_any; eauto. }
  spl.
  - intros p Ip. apply just_one_map_filter. eapply just_one_perm; [apply Permutation_sym; exact Pp|].
    eapply written_once; eauto. eapply decision_ok; eauto. intros ->. destruct (sd_cover _ _ _ _ _ SD p Ip) as (s & [] & _).
  - intros f Hf. apply in_map_iff in Hf as (s & <- & Hs). destruct (DO _ s Hs eq_refl) as (A & B & C).
    destruct (frag_good V shape G R d all SD _ s B A C) as (H1 & H2 & H3 & H4 & H5 & H6). spl; auto.
  - exists (local_of d (decision R d c)). intros f Hf. apply in_map_iff in Hf as (s & <- & Hs). destruct (DO _ s Hs eq_refl) as (A & B & C).
    destruct (frag_good V shape G R d all SD _ s B A C) as (H1 & H2 & H3 & H4 & H5 & H6). auto.
Qed.

(** Sizes of what is written. *)
Lemma prod_pos : forall l, Forall (fun n => 0 <= n) l -> 0 <= prod l.
Proof. induction 1; simpl; [lia|]. unfold prod in *. simpl. nia. Qed.

Lemma prod_set : forall k size count (l : list Z), nth k l 0 = size * count -> (k < List.length l)%nat ->
  prod l = count * prod (set_nth k size l).
Proof.
  induction k; intros size count [|n l] E L; cbn [List.length nth] in *; try lia;
    unfold prod in *; cbn [set_nth fold_right].
  - rewrite E. ring.
  - rewrite (IHk size count l E) by lia. ring.
Qed.

Lemma volume_prod : forall V (f : frag V), volume f = prod (map extent (f_index f)).
Proof. reflexivity. Qed.

Lemma sum_const : forall {A} (h : A -> Z) n l, (forall x, In x l -> h x = n) ->
  fold_right Z.add 0 (map h l) = n * Z.of_nat (List.length l).
Proof.
  induction l as [|x l IH]; intros H. - simpl. lia.
  - cbn [map fold_right List.length]. rewrite IH by (intros; apply H; simpl; auto). rewrite (H x) by (simpl; auto). lia.
Qed.

Lemma nbytes_ok : forall V shape (G : list Z -> V) R d all c proc r rs fs, sharded shape G R d all ->
  c_replica_id c = Some r -> c_global c = shape -> Permutation (c_indices c) (map sh_index all) ->
  proc <> [] -> incl proc all ->
  get_replica_slices c proc = Ok rs -> process_fragments c proc = Ok fs ->
  nbytes rs (c_itemsize c) = fold_right Z.add 0 (map (fun f => volume f * c_itemsize c) (fs_list fs)).
Proof.
  intros V shape G R d all c proc r rs fs SD Er Eg P NE I E1 E2.
  rewrite (get_ok V shape G R d all SD c proc r) in E1 by auto. rewrite (process_ok V shape G R d all SD c proc r) in E2 by auto.
  injection E1 as <-. injection E2 as <-. unfold nbytes. cbn [r_local r_list fs_list].
  assert (NA : all <> []). { destruct proc as [|s p]; [contradiction|]. intros E. specialize (I s (or_introl eq_refl)). rewrite E in I. destruct I. }
  pose proof (decision_ok V shape G R d all SD c NA) as D. set (dec := decision R d c) in *.
  rewrite (sum_const _ (prod (local_of d dec) * c_itemsize c)).
  - rewrite (sum_const _ (prod (local_of d dec) * c_itemsize c)). + rewrite !map_length. auto.
    + intros f Hf. apply in_map_iff in Hf as (s & <- & Hs). apply filter_In in Hs as [Hs W]. rewrite volume_prod.
      destruct (frag_good V shape G R d all SD dec s D) as (_ & _ & _ & _ & X & _); auto. { eapply writes_any; eauto. } rewrite X. auto.
  - intros x Hx. apply in_map_iff in Hx as (s & <- & Hs). unfold slice_nbytes. cbn [rs_args]. destruct dec as [[k n]|]; cbn [args_of]; auto.
    cbn [sa_axis sa_limit sa_start]. cbn [local_of]. rewrite set_set. do 3 f_equal. lia.
Qed.

Lemma limits_ok : forall V shape (G : list Z -> V) R d all c proc r fs f, sharded shape G R d all ->
  c_replica_id c = Some r -> c_global c = shape -> Permutation (c_indices c) (map sh_index all) ->
  proc <> [] -> incl proc all -> process_fragments c proc = Ok fs -> In f (fs_list fs) ->
  (map extent (f_index f) = d \/
   (c_parallel c = true /\ forall b, c_min_bytes c = Some b -> b <= volume f * c_itemsize c)) /\
  (forall m, c_max_replicas c = Some m -> 1 <= m -> prod d <= m * volume f).
Proof.
  intros V shape G R d all c proc r fs f SD Er Eg P NE I E2 Hf.
  rewrite (process_ok V shape G R d all SD c proc r) in E2 by auto. injection E2 as <-. cbn [fs_list] in Hf.
  assert (NA : all <> []). { destruct proc as [|s p]; [contradiction|]. intros E. specialize (I s (or_introl eq_refl)). rewrite E in I. destruct I. }
  pose proof (decision_ok V shape G R d all SD c NA) as D. pose proof (d_nonneg V shape G R d all SD NA) as Dn.
  apply in_map_iff in Hf as (s & <- & Hs). apply filter_In in Hs as [Hs W].
  destruct (frag_good V shape G R d all SD (decision R d c) s D) as (_ & _ & _ & _ & X & _); auto. { eapply writes_any; eauto. }
  rewrite volume_prod. rewrite X. destruct (decision R d c) as [[k n]|] eqn:DE.
  2:{ cbn [local_of]. split; auto. intros m _ Hm. pose proof (prod_pos _ Dn). nia. }
  destruct D as (L & E & Sz & Cn).
  unfold decision in DE. destruct (c_parallel c) eqn:Ep; [|discriminate]. cbn [andb] in DE. destruct (safe_to_slice c d); [|discriminate].
  unfold parallel_axis in DE. cbn [rbind] in DE.
  destruct ((prod d =? 0) || _) in DE; [discriminate|]. destruct (first_divisible d _) as [k'|] in DE; [|discriminate].
  destruct (Z.ltb_spec (prod (set_nth k' (at_axis k' d / match c_max_replicas c with Some m => Z.min R m | None => R end) d) * c_itemsize c)
     match c_min_bytes c with Some b => b | None => 0 end) as [Hlt|Hle]; [discriminate|]. injection DE as -> <-.
  split.
  - right. split; auto. intros b Eb. rewrite Eb in Hle. exact Hle.
  - intros m Em Hm. cbn [local_of]. rewrite (prod_set k _ _ d E L).
    assert (0 <= prod (set_nth k (size_of d k match c_max_replicas c with Some m => Z.min R m | None => R end) d)).
    { apply prod_pos. clear - Dn Sz. revert k Sz. generalize (size_of d). intros g k. set (q := g k _). clearbody q.
      intros Hq. revert k g q Hq. clear - Dn. intros k _ q Hq. revert k. induction Dn; destruct k; simpl; constructor; auto. lia. }
    rewrite Em in *. nia.
Qed.

Lemma parallel_local : forall V (c : cfg) (proc : list (shard V)), c_replica_id c = None -> c_parallel c = true -> c_pinned c = false ->
  proc <> [] -> process_fragments c proc = Err ValueError.
Proof.
  intros V c [|s proc] E P N NE; [contradiction|]. unfold process_fragments, get_replica_slices, safe_to_slice, maybe_parallel.
  rewrite E, P, N. auto.
Qed.

(** Local checkpointing: every process writes what it has. *)
Lemma just_one_pos : forall {A} (P : A -> Prop) a x b, just_one P (a ++ x :: b) -> P x -> forall y, In y (a ++ b) -> ~ P y.
Proof.
  intros A P a. induction a as [|z a IH]; intros x b (l1 & u & l2 & E & Pu & N) Px y Hy; simpl in *.
  - destruct l1; simpl in E; injection E as -> ->; auto. exfalso. apply (N a). simpl; auto. auto.
  - destruct l1 as [|w l1]; simpl in E; injection E as -> E.
    + exfalso. apply (N x); auto. simpl. rewrite <- E. apply in_or_app; simpl; auto.
    + destruct Hy as [<-|Hy]. { apply N. simpl; auto. }
      apply (IH x b); auto. exists l1, u, l2. spl; auto. intros t Ht. apply N. simpl; auto.
Qed.

Lemma just_one_sub : forall {A} (P : A -> Prop) a p b, just_one P (a ++ p ++ b) -> (exists x, In x p /\ P x) -> just_one P p.
Proof.
  intros A P a p b J (x & Hx & Px). apply in_split in Hx as (p1 & p2 & ->). exists p1, x, p2. spl; auto.
  intros y Hy. apply (just_one_pos P (a ++ p1) x (p2 ++ b)); auto.
  - rewrite <- app_assoc in *. simpl in *. auto. - apply in_app_iff. apply in_app_iff in Hy as [Hy|Hy]; [left|right]; apply in_app_iff; auto.
Qed.

Lemma local_ok : forall V shape (G : list Z -> V) R d all c procs proc s0 rest, sharded shape G R d all ->
  c_replica_id c = None -> c_parallel c = false -> c_global c = shape ->
  Permutation (List.concat procs) all -> In proc procs -> proc = s0 :: rest ->
  (forall s, In s proc -> exists t, In t proc /\ box shape (sh_index t) = box shape (sh_index s) /\ sh_replica t = sh_replica s0) ->
  exists fs, process_fragments c proc = Ok fs /\
    (forall p s, In s proc -> inside shape p -> covers (box shape (sh_index s)) p -> just_one (fun f => covers (f_index f) p) (fs_list fs)) /\
    (forall f, In f (fs_list fs) -> well_formed f /\ unit_steps (f_index f) /\ concrete f /\ fits shape f /\ forall p v, holds f p v -> v = G p).
Proof.
  intros V shape G R d all c procs proc s0 rest SD Er Ep Eg Pp Hp E0 H.
  assert (I : incl proc all). { intros x Hx. eapply Permutation_in; eauto. apply in_concat. eauto. }
  assert (I0 : In s0 all) by (apply I; subst; simpl; auto). destruct (sd_shape _ _ _ _ _ SD s0 I0) as [_ Sh].
  assert (E : process_fragments c proc = Ok (mk_frags shape (map (frag_of V shape d None) (filter (writes V None (sh_replica s0)) proc)))).
  { unfold process_fragments, get_replica_slices. rewrite Ep, Eg. subst proc. cbn [andb rbind]. unfold pick_single. rewrite Er. cbn [fst snd]. rewrite Sh.
    apply (process_frags V shape G R d all SD None).
    - exact Logic.I. - intros x Hx. apply filter_In in Hx as [Hx _]. auto. - intros; cbn [writes]; apply Z.eqb_refl. }
  eexists. split; [exact E|]. cbn [fs_list]. split.
  - intros p s Hs Ip Cp. apply just_one_map_filter. destruct (in_split _ _ Hp) as (A & B & EP).
    apply (just_one_sub _ (List.concat A) proc (List.concat B)).
    + eapply just_one_perm.
      2:{ apply (written_once V shape G R d all SD None (sh_replica s0) p); auto. exact Logic.I. eapply replica_range; eauto. }
      apply Permutation_sym. rewrite EP, concat_app in Pp. simpl in Pp. exact Pp.
    + destruct (H s Hs) as (t & Ht & Bt & Rt). exists t. cbn [writes frag_of f_index frag_box]. spl; auto. apply Z.eqb_eq; auto. rewrite Bt; auto.
  - intros f Hf. apply in_map_iff in Hf as (s & <- & Hs). apply filter_In in Hs as [Hs W].
    destruct (frag_good V shape G R d all SD None s Logic.I (I s Hs)) as (H1 & H2 & H3 & H4 & H5 & H6). { cbn [writes]; apply Z.eqb_refl. } spl; auto.
Qed.
