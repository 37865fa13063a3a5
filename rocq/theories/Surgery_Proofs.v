(** Proofs about model surgery. *)
From Coq Require Import List Bool Arith ZArith NArith String Ascii Permutation Sorted Lia.
From Verif Require Import Base StepName_Model Policy_Model Tree_Model Tree_Spec Tree_Proofs Parts_Proofs Manager_Proofs ArrayMeta_Proofs Surgery_Model Surgery_Spec.
Import ListNotations.
Open Scope string_scope.

(** ** Lists *)

Lemma axis_spec : forall z n ax, norm_axis z n = Some ax <-> is_axis z n ax.
Proof.
  intros z n ax. unfold norm_axis, is_axis. destruct (Z.leb_spec 0 z); destruct (Z.ltb_spec z (Z.of_nat n)); cbn [andb].
  - split; [intros E; injection E as <-; lia|]. intros [L [->|E]]; f_equal; lia.
  - destruct (Z.ltb_spec z 0); cbn [andb]; [lia|]. split; [discriminate|lia].
  - destruct (Z.ltb_spec z 0); cbn [andb]; [|lia]. destruct (Z.leb_spec (- Z.of_nat n) z).
    + split; [intros E; injection E as <-; lia|]. intros [L [E|E]]; f_equal; lia.
    + split; [discriminate|lia].
  - destruct (Z.ltb_spec z 0); cbn [andb]; [|lia]. destruct (Z.leb_spec (- Z.of_nat n) z); [lia|]. split; [discriminate|lia].
Qed.

Lemma axis_none : forall z n, norm_axis z n = None <-> forall ax, ~ is_axis z n ax.
Proof.
  intros z n. destruct (norm_axis z n) as [ax|] eqn:E; split; intros H; try discriminate; auto.
  - exfalso. apply (H ax). apply axis_spec. auto.
  - intros ax A. apply axis_spec in A. congruence.
Qed.

Lemma axis_fun : forall z n a b, is_axis z n a -> is_axis z n b -> a = b.
Proof. intros z n a b A B. apply axis_spec in A. apply axis_spec in B. congruence. Qed.

Lemma setn_len : forall {A : Type} i (v : A) l, List.length (set_nth i v l) = List.length l.
Proof. intros A i v l. revert i. induction l as [|x l IH]; intros [|i]; cbn; auto. Qed.

Lemma setn_same : forall {A : Type} i (v : A) l d, i < List.length l -> nth i (set_nth i v l) d = v.
Proof. intros A i v l d. revert i. induction l as [|x l IH]; intros [|i] H; cbn in *; try lia; auto. apply IH. lia. Qed.

Lemma setn_other : forall {A : Type} i j (v : A) l d, i <> j -> nth i (set_nth j v l) d = nth i l d.
Proof. intros A i j v l d. revert i j. induction l as [|x l IH]; intros [|i] [|j] H; cbn; auto; try lia. Qed.

Lemma setn_twice : forall {A : Type} i (v w : A) l, set_nth i v (set_nth i w l) = set_nth i v l.
Proof. intros A i v w l. revert i. induction l as [|x l IH]; intros [|i]; cbn; auto. f_equal. auto. Qed.

Lemma setn_id : forall {A : Type} i (l : list A) d, set_nth i (nth i l d) l = l.
Proof. intros A i l d. revert i. induction l as [|x l IH]; intros [|i]; cbn; auto. f_equal. auto. Qed.

Lemma inside_len : forall s i, inside s i -> List.length i = List.length s.
Proof. intros s i H. induction H; cbn; congruence. Qed.

Lemma inside_nth : forall s i n, inside s i -> n < List.length s -> nth n i 0 < nth n s 0.
Proof. intros s i n H. revert n. induction H as [|x y i s L H IH]; intros [|n] K; cbn in *; try lia. apply IH. lia. Qed.

Lemma shape_spec : forall a b, shape_eqb a b = true <-> a = b.
Proof. intros a b. unfold shape_eqb. destruct (list_eq_dec Nat.eq_dec a b); split; auto; discriminate. Qed.

Lemma but_spec : forall ax s t, set_nth ax 0 s = set_nth ax 0 t <-> but_at ax s t.
Proof.
  intros ax s t. unfold but_at. split.
  - intros E. split; [rewrite <- (setn_len ax 0 s), E, setn_len; auto|]. intros n N. rewrite <- (setn_other n ax 0 s), E by auto. apply setn_other. auto.
  - intros [L H]. apply (nth_ext _ _ 0 0); [rewrite !setn_len; auto|]. intros n N. rewrite setn_len in N. destruct (Nat.eq_dec n ax) as [->|D].
    + rewrite !setn_same by lia. auto.
    + rewrite !setn_other by auto. auto.
Qed.

Lemma but_trans : forall ax s t u, but_at ax s t -> but_at ax t u -> but_at ax s u.
Proof. intros ax s t u [A B] [C D]. split; [congruence|]. intros n N. rewrite B, D; auto. Qed.

Lemma but_sym : forall ax s t, but_at ax s t -> but_at ax t s.
Proof. intros ax s t [A B]. split; [auto|]. intros n N. symmetry. auto. Qed.

Lemma but_set : forall ax s v, but_at ax s (set_nth ax v s).
Proof. intros ax s v. split; [rewrite setn_len; auto|]. intros n N. rewrite setn_other; auto. Qed.

(** ** Concatenating *)

Lemma concat_walk : forall {V : Type} (d : V) ax a l2 l1 idx, ax < List.length idx -> nth ax idx 0 < dim ax a ->
  concat_at d ax (l1 ++ a :: l2) (set_nth ax (list_sum (map (dim ax) l1) + nth ax idx 0) idx) = a_at a idx.
Proof.
  intros V d ax a l2 l1 idx L I. induction l1 as [|b l1 IH]; cbn [app concat_at map list_sum fold_right].
  - rewrite setn_same by auto. cbn [Nat.add]. destruct (Nat.ltb_spec (nth ax idx 0) (dim ax a)); [|lia]. rewrite setn_id. auto.
  - rewrite setn_same by auto. fold (list_sum (map (dim ax) l1)). destruct (Nat.ltb_spec (dim ax b + list_sum (map (dim ax) l1) + nth ax idx 0) (dim ax b)); [lia|]. rewrite setn_twice.
    replace (dim ax b + list_sum (map (dim ax) l1) + nth ax idx 0 - dim ax b) with (list_sum (map (dim ax) l1) + nth ax idx 0) by lia. exact IH.
Qed.

Lemma concat_spec : forall {V : Type} (d : V) axis l, (can_concat axis l /\ exists A, concatenate d axis l = Ok A /\ concat_of axis l A) \/ (~ can_concat axis l /\ concatenate d axis l = Err ValueError).
Proof.
  intros V d axis l. destruct l as [|a l]; [right; split; [intros [H _]; auto|reflexivity]|]. unfold concatenate.
  destruct (norm_axis axis (List.length (a_shape a))) as [ax|] eqn:X.
  - apply axis_spec in X. destruct (forallb (fun b => shape_eqb (set_nth ax 0 (a_shape b)) (set_nth ax 0 (a_shape a))) (a :: l)) eqn:F.
    + assert (B : forall b, In b (a :: l) -> but_at ax (a_shape b) (a_shape a)).
      { intros b I. rewrite forallb_forall in F. apply F in I. apply shape_spec in I. apply but_spec. auto. }
      left. split.
      * split; [discriminate|]. intros b I. exists ax. destruct (B b I) as [L _]. rewrite L. split; [auto|]. intros c J. eapply but_trans; [apply B; auto|]. apply but_sym. auto.
      * eexists. split; [reflexivity|]. exists ax. cbn [a_shape a_at]. rewrite setn_len. split; [auto|]. destruct X as [X _]. split; [apply setn_same; auto|]. split.
        -- intros b I. eapply but_trans; [apply B; auto|]. apply but_set.
        -- intros l1 b l2 idx E I. rewrite E. assert (J : In b (a :: l)) by (rewrite E; apply in_or_app; right; left; auto). destruct (B b J) as [L _].
           pose proof (inside_len _ _ I) as LI. apply concat_walk; [lia|]. unfold dim. apply inside_nth; [auto|lia].
    + right. split; [|auto]. intros [_ H]. destruct (H a (or_introl eq_refl)) as (ax' & A & B). pose proof (axis_fun _ _ _ _ X A) as <-.
      assert (T : forallb (fun b => shape_eqb (set_nth ax 0 (a_shape b)) (set_nth ax 0 (a_shape a))) (a :: l) = true); [|congruence].
      apply forallb_forall. intros b I. apply shape_spec. apply but_spec. auto.
  - right. split; [|auto]. intros [_ H]. destruct (H a (or_introl eq_refl)) as (ax' & A & B). apply axis_spec in A. congruence.
Qed.

(** ** Repeating *)

Lemma repeat_spec : forall {V : Type} axis count (a : arr V),
  ((exists ax, is_axis axis (List.length (a_shape a)) ax) /\ exists A, repeat_val axis count a = Ok A /\ repeated axis count a A) \/
  ((forall ax, ~ is_axis axis (List.length (a_shape a)) ax) /\ repeat_val axis count a = Err ValueError).
Proof.
  intros V axis count a. unfold repeat_val. destruct (norm_axis axis (List.length (a_shape a))) as [ax|] eqn:X.
  - apply axis_spec in X. left. split; [eauto|]. eexists. split; [reflexivity|]. exists ax. cbn [a_shape a_at]. split; [auto|]. pose proof X as [L _]. split; [apply setn_same; auto|]. split; [apply but_set|].
    intros idx j I J. pose proof (inside_len _ _ I) as LI. rewrite setn_same by lia. rewrite setn_twice. f_equal.
    replace ((nth ax idx 0 * count + j) / count) with (nth ax idx 0); [apply setn_id|]. rewrite Nat.div_add_l by lia. rewrite Nat.div_small by auto. lia.
  - right. split; [|auto]. apply axis_none. auto.
Qed.

(** ** Stacking *)

Lemma ins_nth : forall {A : Type} i (x : A) l d, i <= List.length l -> nth i (insert_at i x l) d = x.
Proof. intros A i x l d H. unfold insert_at. rewrite app_nth2; rewrite firstn_length_le by auto; [|lia]. rewrite Nat.sub_diag. auto. Qed.

Lemma ins_rem : forall {A : Type} i (x : A) l, i <= List.length l -> remove_at i (insert_at i x l) = l.
Proof.
  intros A i x l. unfold remove_at, insert_at. revert l. induction i as [|i IH]; intros l H; [reflexivity|]. destruct l as [|y l]; [cbn in H; lia|].
  cbn [firstn skipn app List.length] in *. f_equal. apply IH. lia.
Qed.

Lemma ins_len : forall {A : Type} i (x : A) l, List.length (insert_at i x l) = S (List.length l).
Proof. intros A i x l. unfold insert_at. rewrite app_length. cbn [List.length]. rewrite <- (firstn_skipn i l) at 3. rewrite app_length. lia. Qed.

Lemma stack_spec : forall {V : Type} (d : V) axis l a, In a l ->
  ((exists ax, is_axis axis (S (List.length (a_shape a))) ax) /\ (forall b, In b l -> a_shape b = a_shape a) /\
    exists A, stack_arrays d axis l = Ok A /\ stacked axis (List.length l) (a_shape a) (nth_error l) None A) \/
  (~ ((exists ax, is_axis axis (S (List.length (a_shape a))) ax) /\ (forall b, In b l -> a_shape b = a_shape a)) /\ stack_arrays d axis l = Err ValueError).
Proof.
  intros V d axis l a I. destruct l as [|a0 l]; [contradiction|]. unfold stack_arrays.
  destruct (forallb (fun b => shape_eqb (a_shape b) (a_shape a0)) (a0 :: l)) eqn:F.
  - assert (S0 : forall b, In b (a0 :: l) -> a_shape b = a_shape a0) by (intros b J; rewrite forallb_forall in F; apply F in J; apply shape_spec in J; auto).
    rewrite (S0 a I). destruct (norm_axis axis (S (List.length (a_shape a0)))) as [ax|] eqn:X.
    + apply axis_spec in X. left. split; [eauto|]. split; [auto|]. eexists. split; [reflexivity|]. exists ax. cbn [a_shape a_at]. split; [auto|]. split; [reflexivity|].
      intros i idx L J. destruct (nth_error (a0 :: l) i) as [b|] eqn:E.
      * split; [apply S0; eapply nth_error_In; eauto|]. change (firstn ax idx ++ i :: skipn ax idx)%list with (insert_at ax i idx).
        pose proof (inside_len _ _ J) as LJ. destruct X as [X _]. rewrite ins_nth by lia. rewrite E. rewrite ins_rem by lia. auto.
      * apply nth_error_None in E. lia.
    + right. split; [|auto]. intros [[ax A] _]. apply axis_spec in A. congruence.
  - right. split.
    + intros [_ B]. assert (T : forallb (fun b => shape_eqb (a_shape b) (a_shape a0)) (a0 :: l) = true); [|congruence]. apply forallb_forall. intros b J. apply shape_spec. rewrite (B b J), (B a0 (or_introl eq_refl)). auto.
    + destruct (norm_axis axis (S (List.length (a_shape a0)))); reflexivity.
Qed.

(** ** Dictionaries *)

Lemma dget_filter : forall {V : Type} k0 k (d : dict string V), dget String.eqb k (filter (fun x => negb (String.eqb k0 (fst x))) d) = if String.eqb k k0 then None else dget String.eqb k d.
Proof.
  intros V k0 k d. induction d as [|[k1 v1] d IH]; cbn [filter dget fst]; [destruct (String.eqb k k0); auto|].
  destruct (String.eqb_spec k0 k1) as [<-|N]; cbn [negb].
  - rewrite IH. destruct (String.eqb k k0); auto.
  - cbn [dget]. rewrite IH. destruct (String.eqb_spec k k1) as [E|D]; destruct (String.eqb_spec k k0) as [E'|D']; auto. congruence.
Qed.

Lemma del_all_spec : forall {V : Type} ks (d : params V),
  (NoDup ks /\ (forall k, In k ks -> dget String.eqb k d <> None) /\ exists d', del_all ks d = Ok d' /\ forall k, dget String.eqb k d' = if existsb (String.eqb k) ks then None else dget String.eqb k d) \/
  (~ (NoDup ks /\ (forall k, In k ks -> dget String.eqb k d <> None)) /\ del_all ks d = Err KeyError).
Proof.
  intros V ks. induction ks as [|k0 ks IH]; intros d; cbn [del_all].
  - left. split; [constructor|]. split; [intros k []|]. exists d. split; auto.
  - unfold del. destruct (dget String.eqb k0 d) as [v|] eqn:G; cbn [rbind].
    + destruct (IH (filter (fun x => negb (String.eqb k0 (fst x))) d)) as [(N & P & d' & E & H)|[H E]].
      * left. assert (NI : ~ In k0 ks) by (intros I; apply (P k0 I); rewrite dget_filter, String.eqb_refl; auto). split; [constructor; auto|]. split.
        -- intros k [<-|I]; [congruence|]. specialize (P k I). rewrite dget_filter in P. destruct (String.eqb k k0); congruence.
        -- exists d'. split; [auto|]. intros k. rewrite H, dget_filter. cbn [existsb]. destruct (String.eqb k k0); cbn [orb]; [destruct (existsb (String.eqb k) ks); auto|auto].
      * right. split; [|auto]. intros [N P]. apply H. inversion_clear N as [|? ? N1 N2]. split; [auto|]. intros k I. rewrite dget_filter. destruct (String.eqb_spec k k0) as [->|]; [contradiction|]. apply P. right. auto.
    + right. split; [|auto]. intros [_ P]. apply (P k0); [left; auto|auto].
Qed.

Lemma fetch_all : forall {K V : Type} (eqb : K -> K -> bool) (d : dict K V) ks,
  (exists vs, sequence (map (fetch eqb d) ks) = Ok vs /\ Forall2 (fun k v => dget eqb k d = Some v) ks vs) \/
  ((exists k, In k ks /\ dget eqb k d = None) /\ sequence (map (fetch eqb d) ks) = Err KeyError).
Proof.
  intros K V eqb d ks. induction ks as [|k ks IH]; cbn [map sequence]; [left; exists []; split; auto|]. unfold fetch at 1 3. destruct (dget eqb k d) as [v|] eqn:G; cbn [rbind].
  - destruct IH as [(vs & E & F)|[(k' & I & N) E]]; rewrite E; cbn [rbind]; [left; exists (v :: vs); split; auto|right; split; [exists k'; split; [right; auto|auto]|auto]].
  - right. split; [exists k; split; [left; auto|auto]|auto].
Qed.

Lemma f2_in_l : forall {A B : Type} (P : A -> B -> Prop) l m x, Forall2 P l m -> In x l -> exists y, In y m /\ P x y.
Proof. intros A B P l m x F. induction F as [|a b l m H F IH]; intros I; [contradiction|]. destruct I as [<-|I]; [exists b; split; [left; auto|auto]|]. destruct (IH I) as (y & J & Q). exists y. split; [right; auto|auto]. Qed.

Lemma f2_fun : forall {A B : Type} (P : A -> B -> Prop) l m m', (forall x y y', P x y -> P x y' -> y = y') -> Forall2 P l m -> Forall2 P l m' -> m = m'.
Proof. intros A B P l m m' H F. revert m'. induction F as [|a b l m Q F IH]; intros m' G; inversion G as [|? b' ? m2 Q' G' ]; subst; [auto|]. f_equal; [eapply H; eauto|auto]. Qed.

(** ** Fusing *)

Lemma found_fun : forall {V : Type} (d : params V) ks vs vs', found d ks vs -> found d ks vs' -> vs = vs'.
Proof. intros V d ks vs vs' F G. eapply f2_fun; [|exact F|exact G]. intros x y y' A B. cbn in A, B. congruence. Qed.

Lemma fuse_keys_spec : forall {V : Type} (d0 : V) ks f axis (d : params V),
  (NoDup ks /\ (exists vs A, found d ks vs /\ can_concat axis vs /\ concat_of axis vs A /\ exists d', fuse_keys d0 ks f axis d = Ok d' /\
     forall k, dget String.eqb k d' = if String.eqb k f then Some A else if existsb (String.eqb k) ks then None else dget String.eqb k d)) \/
  (~ (NoDup ks /\ exists vs, found d ks vs /\ can_concat axis vs) /\ exists e, fuse_keys d0 ks f axis d = Err e).
Proof.
  intros V d0 ks f axis d. unfold fuse_keys. destruct (fetch_all String.eqb d ks) as [(vs & E & F)|[(k & I & G) E]]; rewrite E; cbn [rbind].
  - destruct (concat_spec d0 axis vs) as [[C (A & EA & CA)]|[C EA]]; rewrite EA; cbn [rbind].
    + destruct (del_all_spec ks d) as [(N & P & d' & ED & H)|[H ED]]; rewrite ED; cbn [rmap].
      * left. split; [auto|]. exists vs, A. split; [auto|]. split; [auto|]. split; [auto|]. eexists. split; [reflexivity|]. intros k. rewrite (dget_dput String.eqb String.eqb_spec). destruct (String.eqb k f); auto.
      * right. split; [|eauto]. intros [N _]. apply H. split; [auto|]. intros k I G. destruct (f2_in_l _ _ _ _ F I) as (v & _ & Q). congruence.
    + right. split; [|eauto]. intros [_ (vs' & F' & C')]. rewrite (found_fun _ _ _ _ F' F) in C'. auto.
  - right. split; [|eauto]. intros [_ (vs & F & _)]. destruct (f2_in_l _ _ _ _ F I) as (v & _ & Q). congruence.
Qed.

Lemma exists_in : forall k l, existsb (String.eqb k) l = true <-> In k l.
Proof. intros k l. rewrite existsb_exists. split; [intros (x & I & E); apply String.eqb_eq in E; subst; auto|]. intros I. exists k. split; [auto|apply String.eqb_refl]. Qed.

Lemma dget_here : forall {V : Type} k (d : dict string V), dget String.eqb k d <> None <-> In k (map fst d).
Proof. intros V k d. destruct (dget String.eqb k d) eqn:G; split; intros H; try discriminate; try congruence.
  - apply (dget_some_in String.eqb String.eqb_spec) in G. apply (in_map fst) in G. auto.
  - apply (dget_none String.eqb String.eqb_spec) in G. contradiction. Qed.

Theorem by_keys : forall {V : Type} (d0 : V) source target axis (d : params V),
  ((exists k, In k source /\ ~ In k (map fst d)) /\ fuse_by_keys d0 source target axis [d] = Ok d) \/
  ((forall k, In k source -> In k (map fst d)) /\ NoDup source /\ exists vs A, found d source vs /\ can_concat axis vs /\ concat_of axis vs A /\ exists r, fuse_by_keys d0 source target axis [d] = Ok r /\
     forall k, dget String.eqb k r = if String.eqb k target then Some A else if existsb (String.eqb k) source then None else dget String.eqb k d) \/
  ((forall k, In k source -> In k (map fst d)) /\ ~ (NoDup source /\ exists vs, found d source vs /\ can_concat axis vs) /\ exists e, fuse_by_keys d0 source target axis [d] = Err e).
Proof.
  intros V d0 source target axis d. unfold fuse_by_keys. cbn [single rbind].
  assert (Q : forall l : list string, (List.length (filter (fun k => existsb (String.eqb k) (map fst d)) l) <= List.length l) /\
    ((List.length (filter (fun k => existsb (String.eqb k) (map fst d)) l) = List.length l) <-> forall k, In k l -> In k (map fst d))).
  { induction l as [|k l [IL IH]]; cbn [filter List.length]; [split; [auto|split; [intros _ k []|auto]]|]. destruct (existsb (String.eqb k) (map fst d)) eqn:E; cbn [List.length].
    - split; [lia|]. apply exists_in in E. split; [intros H k' [<-|I]; [auto|]; apply IH; [lia|auto]|]. intros H. f_equal. apply IH. intros k' I. apply H. right. auto.
    - split; [lia|]. split; [lia|]. intros H. exfalso. assert (T : existsb (String.eqb k) (map fst d) = true) by (apply exists_in; apply H; left; auto). congruence. }
  destruct (Nat.eqb_spec (List.length (filter (fun k => existsb (String.eqb k) (map fst d)) source)) (List.length source)) as [L|L].
  - pose proof (proj1 (proj2 (Q source)) L) as L'. right. destruct (fuse_keys_spec d0 source target axis d) as [(N & vs & A & F & C & CA & d' & E & H)|[H E]]; [left|right]; (split; [auto|]).
    + split; [auto|]. exists vs, A. eauto 10.
    + auto.
  - left. split; [|auto]. clear - L Q. assert (D : forall l : list string, (forall k, In k l -> In k (map fst d)) \/ exists k, In k l /\ ~ In k (map fst d)).
    { induction l as [|k l IH]; [left; intros k []|]. destruct (in_dec string_dec k (map fst d)) as [I|N]; [|right; exists k; split; [left; auto|auto]].
      destruct IH as [H|(k' & J & N)]; [left; intros k' [<-|J]; auto|right; exists k'; split; [right; auto|auto]]. }
    destruct (D source) as [H|H]; [|auto]. exfalso. apply L. exact (proj2 (proj2 (Q source)) H).
Qed.

(** *** Parts *)

Lemma first_some : forall parts s p, first_prefix parts s = Some p <-> starts parts s p.
Proof.
  intros parts s p. unfold first_prefix, starts. split.
  - induction parts as [|q parts IH]; cbn [find]; [discriminate|]. destruct (String.prefix q s) eqn:E.
    + intros H. injection H as <-. exists [], parts. split; [auto|]. split; [auto|]. intros q' [].
    + intros H. destruct (IH H) as (l1 & l2 & -> & P & N). exists (q :: l1), l2. split; [auto|]. split; [auto|]. intros q' [<-|I]; auto.
  - intros (l1 & l2 & -> & P & N). induction l1 as [|q l1 IH]; cbn [app find]; [rewrite P; auto|]. rewrite (N q (or_introl eq_refl)). apply IH. intros q' I. apply N. right. auto.
Qed.

Lemma first_none : forall parts s, first_prefix parts s = None <-> starts_not parts s.
Proof.
  intros parts s. unfold first_prefix, starts_not. split.
  - intros H q I. apply (find_none _ _ H q I).
  - intros H. induction parts as [|q parts IH]; cbn [find]; auto. rewrite (H q (or_introl eq_refl)). apply IH. intros q' I. apply H. right. auto.
Qed.

Lemma search_spec : forall parts s p, search_part parts s = Some p <-> leftmost parts s p.
Proof.
  intros parts s p. split.
  - induction s as [|c s IH]; cbn [search_part].
    + destruct (first_prefix parts "") eqn:E; [|discriminate]. intros H. injection H as ->. apply first_some in E. constructor. auto.
    + destruct (first_prefix parts (String c s)) eqn:E; intros H; [injection H as ->; apply first_some in E; constructor; auto|]. apply first_none in E. apply left_later; auto.
  - intros H. induction H as [s p H|c s p H L IH].
    + apply first_some in H. destruct s; cbn [search_part]; rewrite H; auto.
    + apply first_none in H. cbn [search_part]. rewrite H. auto.
Qed.

Lemma leftmost_in : forall parts s p, leftmost parts s p -> In p parts.
Proof. intros parts s p H. induction H as [s p (l1 & l2 & -> & _)|]; [apply in_or_app; right; left; auto|auto]. Qed.

Lemma prefix_app : forall p s, String.prefix p s = true <-> exists r, s = p ++ r.
Proof.
  intros p. induction p as [|c p IH]; intros s.
  - split; [intros _; exists s; auto|]. destruct s; auto.
  - destruct s as [|c' s]; [split; [discriminate|intros [r E]; discriminate]|]. simpl String.prefix. destruct (ascii_dec c c') as [->|N].
    + specialize (IH s). split.
      * intros H. apply IH in H as [r E]. exists r. rewrite E. auto.
      * intros [r E]. apply IH. exists r. injection E. auto.
    + split; [discriminate|]. intros [r E]. injection E as E _. congruence.
Qed.

Lemma sub_skip : forall parts repl q r, sub_part parts repl (String.length q) (q ++ r) = sub_part parts repl 0 r.
Proof. intros parts repl q. induction q as [|c q IH]; intros r; cbn [String.length append]; auto. cbn [sub_part]. apply IH. Qed.

Lemma sub_spec : forall parts repl s t, ~ In "" parts -> (sub_part parts repl 0 s = t <-> replaced parts repl s t).
Proof.
  intros parts repl s t NE. split.
  - intros <-. assert (G : forall n s, String.length s < n -> replaced parts repl s (sub_part parts repl 0 s)).
    { clear s. induction n as [|n IH]; intros s L; [lia|]. destruct s as [|c s]; cbn [sub_part]; [constructor|]. cbn [String.length] in L.
      destruct (first_prefix parts (String c s)) as [p|] eqn:E.
      - apply first_some in E. pose proof E as (l1 & l2 & EP & P & _). apply prefix_app in P as [r R]. destruct p as [|c' p]; [exfalso; apply NE; rewrite EP; apply in_or_app; right; left; auto|].
        cbn [append] in R. injection R as <- ->. cbn [String.length]. rewrite Nat.sub_succ, Nat.sub_0_r, sub_skip. change (String c (p ++ r)) with (String c p ++ r). apply rep_part; [exact E|]. apply IH.
        clear - L. assert (K : String.length (p ++ r) = String.length p + String.length r) by (clear; induction p; cbn; auto). lia.
      - apply first_none in E. apply rep_char; [auto|]. apply IH. lia. }
    apply (G (S (String.length s))). lia.
  - intros H. induction H as [|c s t N H IH|p s t P H IH]; cbn [sub_part]; auto.
    + apply first_none in N. rewrite N. rewrite IH. auto.
    + destruct p as [|c p]; [exfalso; destruct P as (l1 & l2 & EP & _); apply NE; rewrite EP; apply in_or_app; right; left; auto|]. apply first_some in P. cbn [append] in *. cbn [sub_part]. rewrite P.
      cbn [String.length]. rewrite Nat.sub_succ, Nat.sub_0_r, sub_skip, IH. auto.
Qed.

Lemma fname_spec : forall matches parts repl k g p, ~ In "" parts -> (fuse_name matches parts repl k = Some (g, p) <-> fuses matches parts repl k g p).
Proof.
  intros matches parts repl k g p NE. unfold fuse_name, fuses. destruct (matches k); [|split; [discriminate|intros [H _]; discriminate]].
  destruct (search_part parts k) as [q|] eqn:S0.
  - pose proof S0 as S1. apply search_spec in S1. pose proof (leftmost_in _ _ _ S1) as I. apply exists_in in I. rewrite I. split.
    + intros H. injection H as H <-. apply sub_spec in H; auto.
    + intros (_ & L & R). apply search_spec in L. apply sub_spec in R; auto. congruence.
  - split; [discriminate|]. intros (_ & L & _). apply search_spec in L. congruence.
Qed.

Lemma fuse_fun : forall matches parts repl k g p g' p', ~ In "" parts -> fuses matches parts repl k g p -> fuses matches parts repl k g' p' -> g = g' /\ p = p'.
Proof. intros matches parts repl k g p g' p' NE A B. apply fname_spec in A; auto. apply fname_spec in B; auto. rewrite A in B. injection B. auto. Qed.

(** *** The groups *)

Section Groups.
Context (fn : string -> option (string * string)).

Definition step (g : dict string (dict string string)) (key : string) : dict string (dict string string) :=
  match fn key with
  | Some (fused, p) => dput String.eqb fused (dput String.eqb p key (match dget String.eqb fused g with Some u => u | None => [] end)) g
  | None => g
  end.

Definition ginv (keys : list string) (G : dict string (dict string string)) : Prop :=
  (forall g u, dget String.eqb g G = Some u -> NoDup (map fst u) /\ forall p k, dget String.eqb p u = Some k -> In k keys /\ fn k = Some (g, p)) /\
  (forall k g p, In k keys -> fn k = Some (g, p) -> exists u, dget String.eqb g G = Some u /\ dget String.eqb p u <> None) /\
  NoDup (map fst G).

Lemma ginv_all : forall keys, ginv keys (fold_left step keys []).
Proof.
  intros keys. induction keys as [|key keys IH] using rev_ind.
  - split; [intros g u; discriminate|]. split; [intros k g p []|constructor].
  - rewrite fold_left_app. cbn [fold_left]. set (G := fold_left step keys []) in *. destruct IH as (I1 & I2 & I3). unfold step at 1. destruct (fn key) as [[f q]|] eqn:F.
    + set (u0 := match dget String.eqb f G with Some u => u | None => [] end).
      assert (U0 : NoDup (map fst u0) /\ forall p k, dget String.eqb p u0 = Some k -> In k keys /\ fn k = Some (f, p)).
      { unfold u0. destruct (dget String.eqb f G) as [u|] eqn:D; [apply I1; auto|]. split; [constructor|intros; discriminate]. }
      split; [|split].
      * intros g u. rewrite (dget_dput String.eqb String.eqb_spec). destruct (String.eqb_spec g f) as [->|N].
        -- intros E. injection E as <-. split; [apply (dput_nodup String.eqb String.eqb_spec); apply U0|]. intros p k. rewrite (dget_dput String.eqb String.eqb_spec). destruct (String.eqb_spec p q) as [->|N].
           ++ intros E. injection E as <-. split; [apply in_or_app; right; left; auto|auto].
           ++ intros E. apply U0 in E as [A B]. split; [apply in_or_app; left; auto|auto].
        -- intros E. apply I1 in E as [A B]. split; [auto|]. intros p k E. apply B in E as [C D]. split; [apply in_or_app; left; auto|auto].
      * intros k g p I E. rewrite (dget_dput String.eqb String.eqb_spec). destruct (String.eqb_spec g f) as [->|N].
        -- eexists. split; [reflexivity|]. rewrite (dget_dput String.eqb String.eqb_spec). destruct (String.eqb_spec p q) as [->|N]; [discriminate|]. apply in_app_or in I as [I|[<-|[]]].
           ++ destruct (I2 k f p I E) as (u & A & B). unfold u0. rewrite A. auto.
           ++ congruence.
        -- apply in_app_or in I as [I|[<-|[]]]; [apply (I2 k g p); auto|congruence].
      * apply (dput_nodup String.eqb String.eqb_spec). auto.
    + split; [|split; [|auto]].
      * intros g u E. apply I1 in E as [A B]. split; [auto|]. intros p k E. apply B in E as [C D]. split; [apply in_or_app; left; auto|auto].
      * intros k g p I E. apply in_app_or in I as [I|[<-|[]]]; [apply (I2 k g p); auto|congruence].
Qed.

Lemma ginv_some : forall keys g u, dget String.eqb g (fold_left step keys []) = Some u -> exists p, dget String.eqb p u <> None.
Proof.
  intros keys. induction keys as [|key keys IH] using rev_ind; [discriminate|]. intros g u. rewrite fold_left_app. cbn [fold_left]. unfold step at 1. destruct (fn key) as [[f q]|]; [|apply IH].
  rewrite (dget_dput String.eqb String.eqb_spec). destruct (String.eqb_spec g f) as [->|N]; [|apply IH]. intros E. injection E as <-. exists q. rewrite (dget_dput String.eqb String.eqb_spec), String.eqb_refl. discriminate.
Qed.

End Groups.

(** The groups one after the other, when their keys are known *)
Fixpoint fuse_list {V : Type} (d0 : V) (axis : Z) (cs : list (string * list string)) (d : params V) : result (params V) :=
  match cs with [] => Ok d | (f, ks) :: r => rbind (fuse_keys d0 ks f axis d) (fuse_list d0 axis r) end.

Definition whole (parts : list string) (G : dict string (dict string string)) : list (string * list string) :=
  flat_map (fun x => if (List.length (snd x) =? List.length parts)%nat
                     then match sequence (map (fetch String.eqb (snd x)) parts) with Ok ks => [(fst x, ks)] | Err _ => [] end else []) G.

Lemma all_list : forall {V : Type} (d0 : V) parts axis G (d : params V),
  (forall g u, In (g, u) G -> List.length u = List.length parts -> exists ks, sequence (map (fetch String.eqb u) parts) = Ok ks) ->
  fuse_all d0 parts axis G d = fuse_list d0 axis (whole parts G) d.
Proof.
  intros V d0 parts axis G. induction G as [|[f u] G IH]; intros d H; [reflexivity|]. cbn [fuse_all whole flat_map fst snd].
  assert (H' : forall g u, In (g, u) G -> List.length u = List.length parts -> exists ks, sequence (map (fetch String.eqb u) parts) = Ok ks) by (intros g v I; apply (H g v); right; auto).
  destruct (Nat.eqb_spec (List.length u) (List.length parts)) as [L|L]; [|cbn [app]; apply IH; auto].
  destruct (H f u (or_introl eq_refl) L) as (ks & E). rewrite E. cbn [rbind app fuse_list]. destruct (fuse_keys d0 ks f axis d) as [d'|]; cbn [rbind]; [apply IH; auto|reflexivity].
Qed.

Lemma nodup_app_iff : forall {A : Type} (l m : list A), NoDup (l ++ m)%list <-> NoDup l /\ NoDup m /\ forall x, In x l -> ~ In x m.
Proof.
  intros A l m. induction l as [|x l IH]; cbn [app].
  - split; [intros H; split; [constructor|split; [auto|intros x []]]|tauto].
  - rewrite !NoDup_cons_iff, IH, in_app_iff. split.
    + intros (N & L & M & D). split; [tauto|]. split; [auto|]. intros y [<-|I]; [tauto|auto].
    + intros ((N & L) & M & D). split; [intros [I|I]; [auto|apply (D x); [left; auto|auto]]|]. split; [auto|]. split; [auto|]. intros y I. apply D. right. auto.
Qed.

Lemma found_ext : forall {V : Type} (d d' : params V) ks vs, (forall k, In k ks -> dget String.eqb k d' = dget String.eqb k d) -> found d' ks vs -> found d ks vs.
Proof. intros V d d' ks vs H F. induction F as [|k v ks vs E F IH]; constructor; [rewrite <- H; [auto|left; auto]|]. apply IH. intros k' I. apply H. right. auto. Qed.

Lemma list_spec : forall {V : Type} (d0 : V) axis cs (d : params V),
  NoDup (map fst cs) -> NoDup (List.concat (map snd cs)) -> (forall f, In f (map fst cs) -> ~ In f (List.concat (map snd cs))) ->
  ((forall f ks, In (f, ks) cs -> exists vs, found d ks vs /\ can_concat axis vs) /\ exists r, fuse_list d0 axis cs d = Ok r /\
     (forall f ks, In (f, ks) cs -> exists vs A, found d ks vs /\ concat_of axis vs A /\ dget String.eqb f r = Some A) /\
     (forall k, ~ In k (map fst cs) -> dget String.eqb k r = if existsb (String.eqb k) (List.concat (map snd cs)) then None else dget String.eqb k d)) \/
  (~ (forall f ks, In (f, ks) cs -> exists vs, found d ks vs /\ can_concat axis vs) /\ exists e, fuse_list d0 axis cs d = Err e).
Proof.
  intros V d0 axis cs. induction cs as [|[f ks] cs IH]; intros d NF NK FR; cbn [fuse_list map List.concat fst snd] in *.
  - left. split; [intros f ks []|]. exists d. split; [auto|]. split; [intros f ks []|auto].
  - inversion_clear NF as [|? ? NF1 NF2]. apply nodup_app_iff in NK as (NK1 & NK2 & NK3).
    assert (FK : ~ In f ks /\ ~ In f (List.concat (map snd cs))) by (specialize (FR f (or_introl eq_refl)); rewrite in_app_iff in FR; tauto). destruct FK as [FK1 FK2].
    destruct (fuse_keys_spec d0 ks f axis d) as [(N & vs & A & F & C & CA & d' & E & H)|[H [e E]]]; rewrite E; cbn [rbind].
    + assert (SAME : forall k, In k (List.concat (map snd cs)) -> dget String.eqb k d' = dget String.eqb k d).
      { intros k I. rewrite H. destruct (String.eqb_spec k f) as [->|]; [contradiction|]. destruct (existsb (String.eqb k) ks) eqn:X; [|auto]. apply exists_in in X. exfalso. apply (NK3 k); auto. }
      assert (SUB : forall g l k, In (g, l) cs -> In k l -> In k (List.concat (map snd cs))) by (intros g l k I J; apply in_concat; exists l; split; [apply (in_map snd) in I; auto|auto]).
      destruct (IH d' NF2 NK2) as [[P (r & ER & R1 & R2)]|[P (e & ER)]].
      * intros g I. specialize (FR g (or_intror I)). rewrite in_app_iff in FR. tauto.
      * left. split.
        -- intros g l [X|I]; [injection X as <- <-; eauto|]. destruct (P g l I) as (ws & FW & CW). exists ws. split; [|auto]. apply (found_ext d d'); [|auto]. intros k J. apply SAME. eapply SUB; eauto.
        -- exists r. split; [auto|]. split.
           ++ intros g l [X|I].
              ** injection X as <- <-. exists vs, A. split; [auto|]. split; [auto|]. rewrite R2 by auto. destruct (existsb (String.eqb f) (List.concat (map snd cs))) eqn:X; [apply exists_in in X; contradiction|]. rewrite H, String.eqb_refl. auto.
              ** destruct (R1 g l I) as (ws & B & FW & CW & G). exists ws, B. split; [|auto]. apply (found_ext d d'); [|auto]. intros k J. apply SAME. eapply SUB; eauto.
           ++ intros k NI. rewrite R2; [|intros J; apply NI; right; exact J]. rewrite existsb_app, H. destruct (String.eqb_spec k f) as [->|NE]; [exfalso; apply NI; left; auto|].
              destruct (existsb (String.eqb k) ks); cbn [orb]; [destruct (existsb (String.eqb k) (List.concat (map snd cs))); auto|auto].
      * right. split; [|eauto]. intros Q. apply P. intros g l I. destruct (Q g l (or_intror I)) as (ws & FW & CW). exists ws. split; [|auto]. apply (found_ext d' d); [|auto].
        intros k J. symmetry. apply SAME. eapply SUB; eauto.
    + right. split; [|eauto]. intros Q. apply H. split; [auto|]. apply (Q f ks). left. auto.
Qed.

Lemma f2_map : forall {A B : Type} (P Q : A -> B -> Prop) l m, (forall x y, In x l -> P x y -> Q x y) -> Forall2 P l m -> Forall2 Q l m.
Proof. intros A B P Q l m H F. induction F as [|a b l m E F IH]; constructor; [apply H; [left; auto|auto]|]. apply IH. intros x y I. apply H. right. auto. Qed.

Lemma f2_comp : forall {A B C : Type} (P : A -> B -> Prop) (Q : B -> C -> Prop) l m n, Forall2 P l m -> Forall2 Q m n -> Forall2 (fun x z => exists y, P x y /\ Q y z) l n.
Proof. intros A B C P Q l m n F. revert n. induction F as [|a b l m E F IH]; intros n G; inversion_clear G as [|? c ? n' E' G']; constructor; eauto. Qed.

Lemma f2_nodup : forall {A B : Type} (P : A -> B -> Prop) l m, (forall x x' y, P x y -> P x' y -> x = x') -> NoDup l -> Forall2 P l m -> NoDup m.
Proof.
  intros A B P l m H N F. induction F as [|a b l m E F IH]; [constructor|]. inversion_clear N as [|? ? N1 N2]. constructor; [|auto]. intros I. apply N1.
  clear - H E F I. induction F as [|a' b' l m E' F IH]; [contradiction|]. destruct I as [<-|I]; [left; apply (H a' a b'); auto|right; auto].
Qed.

Lemma f2_in_r : forall {A B : Type} (P : A -> B -> Prop) l m y, Forall2 P l m -> In y m -> exists x, In x l /\ P x y.
Proof. intros A B P l m y F. induction F as [|a b l m H F IH]; intros I; [contradiction|]. destruct I as [<-|I]; [exists a; split; [left; auto|auto]|]. destruct (IH I) as (x & J & Q). exists x. split; [right; auto|auto]. Qed.

Section Pattern.
Context {V : Type} (d0 : V) (matches : string -> bool) (parts : list string) (repl : string) (axis : Z) (d : params V).
Hypothesis ND : NoDup (map fst d).
Hypothesis NP : NoDup parts.
Hypothesis NE : ~ In "" parts.
Hypothesis UQ : unique_pieces matches parts repl (map fst d).
Hypothesis FR : forall g, complete matches parts repl (map fst d) g -> ~ In g (map fst d).

Let fn := fuse_name matches parts repl.
Let G := fuse_groups matches parts repl (map fst d).

Lemma group_inv : ginv fn (map fst d) G.
Proof. exact (ginv_all fn (map fst d)). Qed.

Lemma part_in : forall k g p, fn k = Some (g, p) -> In p parts.
Proof. intros k g p E. apply fname_spec in E; auto. destruct E as (_ & L & _). eapply leftmost_in; eauto. Qed.

(** The whole groups are the complete ones. *)
Lemma whole_spec : forall g u, dget String.eqb g G = Some u ->
  (List.length u = List.length parts <-> forall p, In p parts -> dget String.eqb p u <> None).
Proof.
  intros g u E. destruct group_inv as (I1 & _ & _). destruct (I1 g u E) as [N U].
  assert (S0 : incl (map fst u) parts).
  { intros p I. apply dget_here in I. destruct (dget String.eqb p u) as [k|] eqn:D; [|congruence]. apply U in D as [_ D]. eapply part_in; eauto. }
  split.
  - intros L p I. apply dget_here. refine (NoDup_length_incl N _ S0 _ I). rewrite map_length. lia.
  - intros H. assert (incl parts (map fst u)) by (intros p I; apply dget_here; auto). apply (NoDup_incl_length NP) in H0. apply (NoDup_incl_length N) in S0. rewrite map_length in *. lia.
Qed.

Lemma whole_ok : forall g u, In (g, u) G -> List.length u = List.length parts -> exists ks, sequence (map (fetch String.eqb u) parts) = Ok ks.
Proof.
  intros g u I L. destruct group_inv as (I1 & _ & I3). apply (dget_in String.eqb String.eqb_spec) in I; auto. pose proof (proj1 (whole_spec g u I) L) as L'.
  destruct (fetch_all String.eqb u parts) as [(ks & E & _)|[(p & J & N) _]]; [eauto|]. exfalso. apply (L' p); auto.
Qed.

Lemma in_whole : forall g ks, In (g, ks) (whole parts G) <-> (exists u, dget String.eqb g G = Some u) /\ Forall2 (fun p k => In k (map fst d) /\ fn k = Some (g, p)) parts ks.
Proof.
  intros g ks. destruct group_inv as (I1 & I2 & I3). unfold whole. rewrite in_flat_map. split.
  - intros ([g' u] & I & J). cbn [fst snd] in J. apply (dget_in String.eqb String.eqb_spec) in I; auto. destruct (Nat.eqb_spec (List.length u) (List.length parts)) as [L|]; [|contradiction].
    destruct (fetch_all String.eqb u parts) as [(ks' & E & F)|[_ E]]; rewrite E in J; [|contradiction]. destruct J as [J|[]]. injection J as -> ->. split; [eauto|].
    eapply f2_map; [|exact F]. intros p k _ D. apply I1 in I as [_ I]. apply I. auto.
  - intros [[u D] F]. exists (g, u). split; [apply (dget_in String.eqb String.eqb_spec); auto|]. cbn [fst snd].
    assert (F' : Forall2 (fun p k => dget String.eqb p u = Some k) parts ks).
    { eapply f2_map; [|exact F]. intros p k _ [I E]. destruct (I2 k g p I E) as (u' & D' & Q). rewrite D in D'. injection D' as <-. destruct (dget String.eqb p u) as [k'|] eqn:X; [|congruence].
      f_equal. destruct (I1 g u D) as [_ U]. apply U in X as [J X]. apply (UQ k' k g p); auto; apply fname_spec; auto. }
    assert (L : List.length u = List.length parts).
    { refine (proj2 (whole_spec g u D) _). intros p I X. destruct (f2_in_l _ _ _ _ F' I) as (k & _ & Q). cbn in Q. congruence. }
    rewrite L, Nat.eqb_refl. destruct (fetch_all String.eqb u parts) as [(ks' & E & F2)|[(p & I & X) _]].
    + rewrite E. left. f_equal. eapply f2_fun; [|exact F2|exact F']. intros x y y' A B. cbn in A, B. congruence.
    + exfalso. destruct (f2_in_l _ _ _ _ F' I) as (k & _ & Q). cbn in Q. congruence.
Qed.

Lemma whole_complete : forall g, In g (map fst (whole parts G)) <-> complete matches parts repl (map fst d) g.
Proof.
  intros g. destruct group_inv as (I1 & I2 & I3). rewrite in_map_iff. split.
  - intros ([g' ks] & <- & I). cbn [fst]. apply in_whole in I as [[u D] F]. split.
    + intros E. destruct (ginv_some fn (map fst d) g' u D) as (p & X). destruct (dget String.eqb p u) as [k|] eqn:Y; [|congruence]. destruct (I1 g' u D) as [_ U]. apply U in Y as [_ Y].
      apply part_in in Y. rewrite E in Y. contradiction.
    + intros p I. destruct (f2_in_l _ _ _ _ F I) as (k & _ & J & E). exists k. split; [auto|]. apply fname_spec; auto.
  - intros [NN C]. assert (EP : exists p0, In p0 parts) by (clear - NN; destruct parts as [|p0 ps0]; [congruence|exists p0; left; auto]). destruct EP as [p0 I].
    assert (F : exists ks, Forall2 (fun p k => In k (map fst d) /\ fn k = Some (g, p)) parts ks).
    { clear - C NE. assert (H : forall l, incl l parts -> exists ks, Forall2 (fun p k => In k (map fst d) /\ fn k = Some (g, p)) l ks).
      { induction l as [|p l IH]; intros S0; [exists []; constructor|]. destruct IH as [ks F]; [intros x I; apply S0; right; auto|]. destruct (C p (S0 p (or_introl eq_refl))) as (k & I & Q).
        exists (k :: ks). constructor; [|auto]. split; [auto|]. unfold fn. apply fname_spec; auto. }
      apply H. apply incl_refl. }
    destruct F as [ks F]. exists (g, ks). split; [auto|]. apply in_whole. split; [|auto]. destruct (C p0 I) as (k & J & Q).
    apply fname_spec in Q; auto. destruct (I2 k g p0 J Q) as (u & D & _). eauto.
Qed.

Lemma whole_key : forall k, In k (List.concat (map snd (whole parts G))) <-> In k (map fst d) /\ exists g p, fuses matches parts repl k g p /\ complete matches parts repl (map fst d) g.
Proof.
  intros k. rewrite in_concat. split.
  - intros (ks & I & J). apply in_map_iff in I as ([g ks'] & <- & I). cbn [snd] in J. pose proof I as I'. apply in_whole in I as [_ F].
    destruct (f2_in_r _ _ _ _ F J) as (p & _ & K & E). split; [auto|]. exists g, p. split; [apply fname_spec; auto|]. apply whole_complete. apply (in_map fst) in I'. auto.
  - intros (I & g & p & Q & C). pose proof C as C'. apply whole_complete in C. apply in_map_iff in C as ([g' ks] & E & J). cbn [fst] in E. subst g'. exists ks. split; [apply (in_map snd) in J; auto|].
    apply in_whole in J as [_ F]. assert (IP : In p parts) by (destruct Q as (_ & L & _); eapply leftmost_in; eauto). destruct (f2_in_l _ _ _ _ F IP) as (k' & KI & KD & KE).
    apply fname_spec in KE; auto. replace k with k'; [auto|]. apply (UQ k' k g p); auto.
Qed.

Lemma whole_nodup : NoDup (map fst (whole parts G)) /\ NoDup (List.concat (map snd (whole parts G))).
Proof.
  destruct group_inv as (_ & _ & I3). assert (N1 : NoDup (map fst (whole parts G))).
  { clear - I3. induction G as [|[g u] G' IH]; [constructor|]. cbn [whole flat_map fst snd map] in *. inversion_clear I3 as [|? ? N1 N2]. rewrite map_app. apply nodup_app_iff. split; [|split; [auto|]].
    - destruct (List.length u =? List.length parts)%nat; [|constructor]. destruct (sequence (map (fetch String.eqb u) parts)); cbn [map]; constructor; [intros []|constructor].
    - intros x I J. assert (x = g). { destruct (List.length u =? List.length parts)%nat; [|contradiction]. destruct (sequence (map (fetch String.eqb u) parts)); [|contradiction]. destruct I as [<-|[]]. auto. } subst x.
      apply N1. apply in_map_iff in J as ([g' ks] & <- & J). apply in_flat_map in J as ([g2 u2] & A & B). cbn [fst snd] in *. destruct (List.length u2 =? List.length parts)%nat; [|contradiction].
      destruct (sequence (map (fetch String.eqb u2) parts)); [|contradiction]. destruct B as [B|[]]. injection B as <- _. apply (in_map fst) in A. auto. }
  split; [auto|]. assert (S0 : forall x, In x (whole parts G) -> Forall2 (fun p k => In k (map fst d) /\ fn k = Some (fst x, p)) parts (snd x)) by (intros [g ks] I; apply in_whole in I as [_ F]; auto).
  clear - N1 S0 NP. induction (whole parts G) as [|[g ks] cs IH]; [constructor|]. cbn [map List.concat fst snd] in *. inversion_clear N1 as [|? ? N2 N3]. apply nodup_app_iff. split; [|split].
  - eapply f2_nodup; [|exact NP|exact (S0 (g, ks) (or_introl eq_refl))]. cbn [fst snd]. intros x x' y [_ A] [_ B]. congruence.
  - apply IH; [auto|]. intros x I. apply S0. right. auto.
  - intros k I J. apply in_concat in J as (ks' & A & B). apply in_map_iff in A as ([g' ks2] & <- & A). cbn [snd] in B.
    assert (W : forall (g : string) ks, Forall2 (fun p k => In k (map fst d) /\ fn k = Some (g, p)) parts ks -> forall k, In k ks -> exists p, fn k = Some (g, p)).
    { intros h l F x I'. destruct (f2_in_r _ _ _ _ F I') as (p & _ & _ & E). eauto. }
    destruct (W g ks (S0 (g, ks) (or_introl eq_refl)) k I) as [p E]. destruct (W g' ks2 (S0 (g', ks2) (or_intror A)) k B) as [p' E']. rewrite E in E'. injection E' as <- _. apply N2. apply (in_map fst) in A. auto.
Qed.

Lemma found_pieces : forall g ks vs, In (g, ks) (whole parts G) -> found d ks vs -> pieces matches parts repl d g vs.
Proof.
  intros g ks vs I F. apply in_whole in I as [_ H]. eapply f2_map; [|exact (f2_comp _ _ _ _ _ H F)]. intros p v _ (k & [_ E] & D). exists k. split; [apply (dget_some_in String.eqb String.eqb_spec); auto|]. apply fname_spec; auto.
Qed.

Lemma pieces_found : forall g ks vs, In (g, ks) (whole parts G) -> pieces matches parts repl d g vs -> found d ks vs.
Proof.
  intros g ks vs I P. apply in_whole in I as [_ H]. unfold pieces in P.
  assert (W : forall l ks, Forall2 (fun p k => In k (map fst d) /\ fn k = Some (g, p)) l ks -> forall vs, Forall2 (fun p v => exists k, In (k, v) d /\ fuses matches parts repl k g p) l vs -> found d ks vs).
  { intros l ks' F. induction F as [|p k ps ks' [A B] F IH]; intros ws Q; inversion_clear Q as [|? v ? vs' (k' & I & Q0) Q1]; [constructor|]. constructor; [|apply IH; auto].
    apply (dget_in String.eqb String.eqb_spec); auto. replace k with k'; auto. apply (UQ k' k g p); auto; [apply (in_map fst) in I; auto|apply fname_spec; auto]. }
  exact (W parts ks H vs P).
Qed.

Lemma pattern_spec :
  ((forall g vs, complete matches parts repl (map fst d) g -> pieces matches parts repl d g vs -> can_concat axis vs) /\ exists r, fuse_by_pattern d0 matches parts repl axis [d] = Ok r /\
     (forall g, complete matches parts repl (map fst d) g -> exists vs A, pieces matches parts repl d g vs /\ concat_of axis vs A /\ dget String.eqb g r = Some A) /\
     (forall k g p, In k (map fst d) -> fuses matches parts repl k g p -> complete matches parts repl (map fst d) g -> dget String.eqb k r = None) /\
     (forall k, ~ complete matches parts repl (map fst d) k -> (forall g p, fuses matches parts repl k g p -> ~ complete matches parts repl (map fst d) g) -> dget String.eqb k r = dget String.eqb k d)) \/
  (~ (forall g vs, complete matches parts repl (map fst d) g -> pieces matches parts repl d g vs -> can_concat axis vs) /\ exists e, fuse_by_pattern d0 matches parts repl axis [d] = Err e).
Proof.
  unfold fuse_by_pattern. cbn [single rbind]. fold G. rewrite (all_list d0 parts axis G d whole_ok). destruct whole_nodup as [N1 N2].
  destruct (list_spec d0 axis (whole parts G) d N1 N2) as [[P (r & E & R1 & R2)]|[P [e E]]].
  - intros f I J. apply whole_complete in I. apply whole_key in J as [J _]. apply (FR f I J).
  - left. split.
    + intros g vs C Q. apply whole_complete in C. apply in_map_iff in C as ([g' ks] & X & I). cbn [fst] in X. subst g'. destruct (P g ks I) as (ws & F & CC). rewrite (found_fun _ _ _ _ (pieces_found g ks vs I Q) F). auto.
    + exists r. split; [auto|]. split; [|split].
      * intros g C. apply whole_complete in C. apply in_map_iff in C as ([g' ks] & X & I). cbn [fst] in X. subst g'. destruct (R1 g ks I) as (vs & A & F & CA & D). exists vs, A. split; [eapply found_pieces; eauto|auto].
      * intros k g p I Q C. rewrite R2; [|intros J; apply whole_complete in J; apply (FR k J I)]. assert (T : In k (List.concat (map snd (whole parts G)))) by (apply whole_key; eauto). apply exists_in in T. rewrite T. auto.
      * intros k NC NF. rewrite R2; [|intros J; apply whole_complete in J; auto]. destruct (existsb (String.eqb k) (List.concat (map snd (whole parts G)))) eqn:X; [|auto]. apply exists_in in X. apply whole_key in X as (_ & g & p & Q & C). exfalso. apply (NF g p Q C).
  - right. split; [|eauto]. intros Q. apply P. intros g ks I. assert (C : complete matches parts repl (map fst d) g) by (apply whole_complete; apply (in_map fst) in I; auto).
    assert (F : exists vs, found d ks vs).
    { apply in_whole in I as [_ H]. assert (W : forall k, In k ks -> dget String.eqb k d <> None) by (intros k J; destruct (f2_in_r _ _ _ _ H J) as (p & _ & A & _); apply dget_here; auto).
      clear - W. unfold found. induction ks as [|k ks IH]; [exists []; constructor|]. destruct IH as [vs F]; [intros x J; apply W; right; auto|]. specialize (W k (or_introl eq_refl)).
      destruct (dget String.eqb k d) as [v|] eqn:D; [|congruence]. exists (v :: vs). constructor; auto. }
    destruct F as [vs F]. exists vs. split; [auto|]. apply (Q g vs C). eapply found_pieces; eauto.
Qed.

End Pattern.

(** ** Renaming *)

Theorem rename_spec : forall {V : Type} rules (d : params V), exists r, rename_by_regex rules [d] = Ok r /\
  forall n v, dget String.eqb n r = Some v <-> exists l1 k l2, d = (l1 ++ (k, v) :: l2)%list /\ fold_left (fun n f => f n) rules k = n /\ forall x, In x l2 -> fold_left (fun n f => f n) rules (fst x) <> n.
Proof.
  intros V rules d. unfold rename_by_regex. cbn [single rmap]. eexists. split; [reflexivity|]. set (new := fun k => fold_left (fun n (f : string -> string) => f n) rules k).
  induction d as [|[k0 v0] d IH] using rev_ind; intros n v.
  - cbn. split; [discriminate|]. intros (l1 & k & l2 & E & _). destruct l1; discriminate.
  - rewrite fold_left_app. cbn [fold_left fst snd]. rewrite (dget_dput String.eqb String.eqb_spec). fold (new k0). destruct (String.eqb_spec n (new k0)) as [->|N].
    + split.
      * intros E. injection E as <-. exists d, k0, []. split; [auto|]. split; [auto|]. intros x [].
      * intros (l1 & k & l2 & E & Q & H). destruct l2 as [|x l2 _] using rev_ind.
        -- apply app_inj_tail in E as [_ E]. congruence.
        -- rewrite app_comm_cons, app_assoc in E. apply app_inj_tail in E as [_ <-]. exfalso. apply (H (k0, v0)); [apply in_or_app; right; left; auto|reflexivity].
    + rewrite IH. split; intros (l1 & k & l2 & E & Q & H).
      * exists l1, k, (l2 ++ [(k0, v0)])%list. split; [rewrite E, <- app_assoc; auto|]. split; [auto|]. intros x I. apply in_app_or in I as [I|[<-|[]]]; auto.
      * destruct l2 as [|x l2 _] using rev_ind.
        -- apply app_inj_tail in E as [_ E]. injection E as -> ->. exfalso. apply N. auto.
        -- rewrite app_comm_cons, app_assoc in E. apply app_inj_tail in E as [E _]. exists l1, k, l2. split; [auto|]. split; [auto|]. intros y I. apply H. apply in_or_app. left. auto.
Qed.

(** ** Repeating *)

Lemma dput_here : forall {V : Type} k (v : V) d, In k (map fst d) -> map fst (dput String.eqb k v d) = map fst d.
Proof. intros V k v d. induction d as [|[k' w] d IH]; cbn [map fst]; intros I; [contradiction|]. cbn [dput]. destruct (String.eqb_spec k k') as [->|N]; cbn [map fst]; [auto|]. f_equal. apply IH. destruct I; congruence. Qed.

Theorem repeat_keys_spec : forall {V : Type} axis count ks (d : params V), NoDup ks ->
  ((forall k a, In k ks -> dget String.eqb k d = Some a -> repeatable axis a) /\ exists r, repeat_keys axis count ks d = Ok r /\ map fst r = map fst d /\
     (forall k a, In k ks -> dget String.eqb k d = Some a -> exists A, dget String.eqb k r = Some A /\ repeated axis count a A) /\
     (forall k, ~ In k ks -> dget String.eqb k r = dget String.eqb k d)) \/
  (~ (forall k a, In k ks -> dget String.eqb k d = Some a -> repeatable axis a) /\ repeat_keys axis count ks d = Err ValueError).
Proof.
  intros V axis count ks. induction ks as [|k0 ks IH]; intros d N; cbn [repeat_keys].
  - left. split; [intros k a []|]. exists d. split; [auto|]. split; [auto|]. split; [intros k a []|auto].
  - inversion_clear N as [|? ? N1 N2]. unfold repeat_key. destruct (dget String.eqb k0 d) as [a0|] eqn:G; cbn [rbind].
    + destruct (repeat_spec axis count a0) as [[X (A & E & R)]|[X E]]; rewrite E; cbn [rmap rbind].
      * assert (OT : forall k, k <> k0 -> dget String.eqb k (dput String.eqb k0 A d) = dget String.eqb k d) by (intros k D; rewrite (dget_dput String.eqb String.eqb_spec); destruct (String.eqb_spec k k0); congruence).
        destruct (IH (dput String.eqb k0 A d) N2) as [(P & r & ER & K & R1 & R2)|[P ER]].
        -- left. split.
           ++ intros k a [<-|I] D; [rewrite G in D; injection D as <-; exact X|]. apply (P k a I). rewrite OT; auto. intros ->. contradiction.
           ++ exists r. split; [auto|]. split; [rewrite K; apply dput_here; apply dget_here; congruence|]. split.
              ** intros k a [<-|I] D; [|apply R1; [auto|rewrite OT; [auto|intros ->; contradiction]]]. rewrite G in D. injection D as <-. exists A. split; [|auto]. rewrite R2 by auto. rewrite (dget_dput String.eqb String.eqb_spec), String.eqb_refl. auto.
              ** intros k NI. rewrite R2; [apply OT; intros ->; apply NI; left; auto|]. intros I. apply NI. right. auto.
        -- right. split; [|auto]. intros Q. apply P. intros k a I D. apply (Q k a (or_intror I)). rewrite OT in D; auto. intros ->. contradiction.
      * right. split; [|auto]. intros Q. destruct (Q k0 a0 (or_introl eq_refl) G) as [ax A]. apply (X ax A).
    + destruct (IH d N2) as [(P & r & ER & K & R1 & R2)|[P ER]].
      * left. split; [intros k a [<-|I] D; [congruence|eauto]|]. exists r. split; [auto|]. split; [auto|]. split; [intros k a [<-|I] D; [congruence|eauto]|]. intros k NI. apply R2. intros I. apply NI. right. auto.
      * right. split; [|auto]. intros Q. apply P. intros k a I D. apply (Q k a (or_intror I) D).
Qed.

(** ** The index of a key *)

Lemma runs_none : forall l, runs l = [] <-> forall c, In c l -> char_digit c = None.
Proof.
  intros l. induction l as [|c l IH]; cbn [runs]; [split; [intros _ c []|auto]|]. destruct (char_digit c) eqn:D.
  - split; [|intros H; rewrite (H c (or_introl eq_refl)) in D; discriminate]. destruct l as [|c' l]; [discriminate|]. destruct (char_digit c'); [|discriminate]. destruct (runs (c' :: l)); discriminate.
  - rewrite IH. split; [intros H x [<-|I]; auto|]. intros H x I. apply H. right. auto.
Qed.

Lemma runs_one : forall l r, runs l = [r] <-> exists pre post, l = (pre ++ r ++ post)%list /\ r <> [] /\ (forall c, In c pre -> char_digit c = None) /\ (forall c, In c post -> char_digit c = None) /\ (forall c, In c r -> char_digit c <> None).
Proof.
  intros l. induction l as [|c l IH]; intros r.
  - split; [discriminate|]. intros (pre & post & E & N & _). destruct pre; [|discriminate]. destruct r; [congruence|discriminate].
  - destruct (char_digit c) as [n|] eqn:D.
    + split.
      * intros E. cbn [runs] in E. rewrite D in E. destruct l as [|c' l].
        -- injection E as <-. exists [], []. split; [auto|]. split; [discriminate|]. split; [intros x []|]. split; [intros x []|]. intros x [<-|[]]. congruence.
        -- destruct (char_digit c') as [n'|] eqn:D'.
           ++ destruct (runs (c' :: l)) as [|r' rs] eqn:R; [apply runs_none with (c := c') in R; [congruence|left; auto]|]. injection E as <- ->.
              destruct (proj1 (IH r') eq_refl) as (pre & post & E & NE & P & Q & S0). destruct pre as [|x pre]; [|injection E as -> _; rewrite (P x (or_introl eq_refl)) in D'; discriminate].
              cbn [app] in E. rewrite E. exists [], post. split; [reflexivity|]. split; [discriminate|]. split; [intros y []|]. split; [auto|]. intros y [<-|I]; [congruence|auto].
           ++ injection E as <- E. exists [], (c' :: l). split; [reflexivity|]. split; [discriminate|]. split; [intros y []|]. split; [apply runs_none; auto|]. intros y [<-|[]]. congruence.
      * intros (pre & post & E & NE & P & Q & S0). destruct pre as [|x pre]; [|injection E as <- _; rewrite (P c (or_introl eq_refl)) in D; discriminate]. cbn [app] in E. destruct r as [|x r]; [congruence|].
        injection E as <- E. cbn [runs]. rewrite D. destruct r as [|x r].
        -- cbn [app] in E. subst post. destruct l as [|c' l]; [auto|]. rewrite (Q c' (or_introl eq_refl)). f_equal. apply runs_none. auto.
        -- destruct l as [|c' l]; [discriminate|]. injection E as -> E. destruct (char_digit x) eqn:D'; [|exfalso; apply (S0 x); [right; left; auto|auto]].
           rewrite (proj2 (IH (x :: r))); [auto|]. exists [], post. split; [rewrite E; auto|]. split; [discriminate|]. split; [intros y []|]. split; [auto|]. intros y I. apply S0. right. auto.
    + cbn [runs]. rewrite D, IH. split; intros (pre & post & E & NE & P & Q & S0).
      * exists (c :: pre), post. split; [rewrite E; auto|]. split; [auto|]. split; [intros y [<-|I]; auto|auto].
      * destruct pre as [|x pre]; [cbn [app] in E; destruct r as [|x r]; [congruence|]; injection E as <- _; exfalso; apply (S0 c); [left; auto|auto]|]. injection E as <- E.
        exists pre, post. split; [auto|]. split; [auto|]. split; [intros y I; apply P; right; auto|auto].
Qed.

Lemma parse_all : forall l acc n, parse_digits acc l = Some n -> forall c, In c l -> char_digit c <> None.
Proof. intros l. induction l as [|c l IH]; intros acc n E x I; [contradiction|]. cbn [parse_digits] in E. destruct (char_digit c) eqn:D; [|discriminate]. destruct I as [<-|I]; [congruence|]. eapply IH; eauto. Qed.

Lemma las_cat : forall a b, list_ascii_of_string (a ++ b) = (list_ascii_of_string a ++ list_ascii_of_string b)%list.
Proof. intros a b. induction a; cbn; [auto|]. f_equal. auto. Qed.

Lemma las_inj : forall a b, list_ascii_of_string a = list_ascii_of_string b -> a = b.
Proof. intros a b E. rewrite <- (string_of_list_ascii_of_string a), E. apply string_of_list_ascii_of_string. Qed.

Lemma index_spec : forall search key gr i b, search key = Some gr -> (index_of gr key = Ok (i, b) <-> placed search key i b).
Proof.
  intros search key gr i b S0. unfold placed. split.
  - intros E. destruct gr as [|[[x y]|] [|g2 gr]]; try discriminate. cbn [index_of] in E. destruct (runs (list_ascii_of_string (substring x (y - x) key))) as [|r [|r2 rs]] eqn:R; try discriminate.
    destruct (parse_digits 0 r) as [n|] eqn:P; [|discriminate]. injection E as <- <-. apply runs_one in R as (pre & post & E & NE & A & B & _).
    exists x, y, (string_of_list_ascii pre), (string_of_list_ascii r), (string_of_list_ascii post). split; [auto|]. split; [|split; [|split; [|split]]].
    + apply las_inj. rewrite !las_cat, !list_ascii_of_string_of_list_ascii. auto.
    + unfold no_digit. rewrite list_ascii_of_string_of_list_ascii. auto.
    + unfold no_digit. rewrite list_ascii_of_string_of_list_ascii. auto.
    + split; [destruct r; [congruence|discriminate]|]. rewrite list_ascii_of_string_of_list_ascii, N2Nat.id. auto.
    + auto.
  - intros (x & y & pre & num & post & S1 & E & A & B & [NE P] & ->). rewrite S0 in S1. injection S1 as ->. cbn [index_of]. rewrite E.
    assert (R : runs (list_ascii_of_string (pre ++ num ++ post)) = [list_ascii_of_string num]).
    { apply runs_one. exists (list_ascii_of_string pre), (list_ascii_of_string post). rewrite !las_cat. split; [auto|]. split; [destruct num; [congruence|discriminate]|]. split; [auto|]. split; [auto|]. eapply parse_all; eauto. }
    rewrite R, P, Nat2N.id. auto.
Qed.

Lemma placed_fun : forall search k i b i' b', placed search k i b -> placed search k i' b' -> i = i' /\ b = b'.
Proof.
  intros search k i b i' b' A B. pose proof A as (x & y & _ & _ & _ & E & _). apply (index_spec search k _ i b E) in A. apply (index_spec search k _ i' b' E) in B. rewrite A in B. injection B. auto.
Qed.

Lemma placed_match : forall search k i b, placed search k i b -> search k <> None.
Proof. intros search k i b (x & y & _ & _ & _ & E & _). congruence. Qed.

(** ** Collecting *)

Section Collect.
Context {V : Type} (search : string -> option (list (option (nat * nat)))).

(** What is collected of [pre] *)
Definition cinv (pre : params V) (c : collected V) : Prop :=
  (forall b i v, (exists g, dget String.eqb b (c_groups c) = Some g /\ dget Nat.eqb i g = Some v) <-> item_of search pre b i v) /\
  (forall k v, dget String.eqb k (c_unmatched c) = Some v <-> In (k, v) pre /\ search k = None) /\
  c_delete c = map fst (filter (fun x => match search (fst x) with Some _ => true | None => false end) pre) /\
  NoDup (map fst (c_groups c)) /\ (forall b g, dget String.eqb b (c_groups c) = Some g -> NoDup (map fst g) /\ g <> []) /\
  stackable search pre.

Lemma item_snoc : forall (pre : params V) k v b i w, item_of search (pre ++ [(k, v)])%list b i w <-> item_of search pre b i w \/ (w = v /\ placed search k i b).
Proof.
  intros pre k v b i w. unfold item_of. split.
  - intros (k' & I & P). apply in_app_or in I as [I|[E|[]]]; [left; eauto|]. injection E as <- <-. right. auto.
  - intros [(k' & I & P)|[-> P]]; [exists k'; split; [apply in_or_app; auto|auto]|]. exists k. split; [apply in_or_app; right; left; auto|auto].
Qed.

Lemma collect_spec : forall (l pre : params V) c, NoDup (map fst (pre ++ l)%list) -> cinv pre c ->
  (exists c', collect search l c = Ok c' /\ cinv (pre ++ l)%list c') \/ (~ stackable search (pre ++ l)%list /\ exists e, collect search l c = Err e).
Proof.
  intros l. induction l as [|[k v] l IH]; intros pre c N C; cbn [collect].
  - left. exists c. rewrite app_nil_r. auto.
  - assert (EA : (pre ++ (k, v) :: l)%list = ((pre ++ [(k, v)]) ++ l)%list) by (rewrite <- app_assoc; auto). destruct C as (C1 & C2 & C3 & C4 & C5 & C6).
    assert (NK : ~ In k (map fst pre)).
    { rewrite map_app in N. apply nodup_app_iff in N as (_ & _ & N). intros I. apply (N k I). left. auto. }
    destruct (search k) as [gr|] eqn:S0.
    + destruct (index_of gr k) as [[i b]|e] eqn:X; cbn [rbind fst snd].
      * pose proof X as PL. apply (index_spec search k gr i b S0) in PL. set (g0 := match dget String.eqb b (c_groups c) with Some g => g | None => [] end).
        destruct (dget Nat.eqb i g0) as [w|] eqn:G.
        -- right. split; [|eauto]. intros [_ H]. assert (IT : item_of search pre b i w).
           { apply C1. unfold g0 in G. destruct (dget String.eqb b (c_groups c)) as [g|] eqn:D; [|discriminate]. eauto. }
           destruct IT as (k' & I & P). assert (k' = k). { apply (H k' w k v i b); auto; apply in_or_app; [left; auto|right; left; auto]. } subst k'. apply NK. apply (in_map fst) in I. auto.
        -- rewrite EA. apply IH; [rewrite <- EA; auto|]. split; [|split; [|split; [|split; [|split]]]]; cbn [c_groups c_unmatched c_delete].
           ++ intros b' i' v'. rewrite item_snoc, <- C1, (dget_dput String.eqb String.eqb_spec). destruct (String.eqb_spec b' b) as [->|NB].
              ** split.
                 --- intros (g & E & D). injection E as <-. rewrite (dget_dput Nat.eqb Nat.eqb_spec) in D. destruct (Nat.eqb_spec i' i) as [->|NI]; [injection D as <-; right; auto|]. left.
                     unfold g0 in D. destruct (dget String.eqb b (c_groups c)) as [g|]; [eauto|discriminate].
                 --- intros [(g & E & D)|[-> P]]; (eexists; split; [reflexivity|]); rewrite (dget_dput Nat.eqb Nat.eqb_spec).
                     +++ destruct (Nat.eqb_spec i' i) as [->|NI]; [unfold g0 in G; rewrite E in G; congruence|]. unfold g0. rewrite E. auto.
                     +++ destruct (placed_fun _ _ _ _ _ _ P PL) as [-> _]. rewrite Nat.eqb_refl. auto.
              ** split; [intros H; left; auto|]. intros [H|[-> P]]; [auto|]. destruct (placed_fun _ _ _ _ _ _ P PL) as [_ ->]. congruence.
           ++ intros k' v'. rewrite C2. split; [intros [I E]; split; [apply in_or_app; auto|auto]|]. intros [I E]. apply in_app_or in I as [I|[I|[]]]; [auto|]. injection I as <- <-. congruence.
           ++ rewrite filter_app, map_app, C3. cbn [filter fst map]. rewrite S0. auto.
           ++ apply (dput_nodup String.eqb String.eqb_spec). auto.
           ++ intros b' g. rewrite (dget_dput String.eqb String.eqb_spec). destruct (String.eqb_spec b' b) as [->|NB]; [|apply C5]. intros E. injection E as <-. split.
              ** apply (dput_nodup Nat.eqb Nat.eqb_spec). unfold g0. destruct (dget String.eqb b (c_groups c)) as [g|] eqn:D; [apply (C5 b g D)|constructor].
              ** destruct g0 as [|[x y] g0]; cbn [dput]; [discriminate|]. destruct (Nat.eqb i x); discriminate.
           ++ destruct C6 as [S1 S2]. split.
              ** intros k' v' I NS. apply in_app_or in I as [I|[I|[]]]; [eapply S1; eauto|]. injection I as <- <-. eauto.
              ** assert (NEW : forall k' v' i' b', In (k', v') pre -> placed search k' i' b' -> placed search k i' b' -> False).
                 { intros k' v' i' b' I P Q. destruct (placed_fun _ _ _ _ _ _ Q PL) as [-> ->]. assert (IT : item_of search pre b i v') by (exists k'; auto). apply C1 in IT as (g & E & D). unfold g0 in G. rewrite E in G. congruence. }
                 intros k1 v1 k2 v2 i' b' I J P Q. apply in_app_or in I as [I|[I|[]]]; apply in_app_or in J as [J|[J|[]]].
                 --- eapply S2; eauto.
                 --- injection J as <- <-. exfalso. eapply NEW; [exact I|exact P|exact Q].
                 --- injection I as <- <-. exfalso. eapply NEW; [exact J|exact Q|exact P].
                 --- congruence.
      * right. split; [|eauto]. intros [H _]. destruct (H k v) as (i & b & P); [apply in_or_app; right; left; auto|congruence|]. apply (index_spec search k gr i b S0) in P. congruence.
    + rewrite EA. apply IH; [rewrite <- EA; auto|]. split; [|split; [|split; [|split; [|split]]]]; cbn [c_groups c_unmatched c_delete]; auto.
      * intros b i w. rewrite item_snoc, C1. split; [auto|]. intros [H|[_ P]]; [auto|]. apply placed_match in P. congruence.
      * intros k' v'. rewrite (dget_dput String.eqb String.eqb_spec). destruct (String.eqb_spec k' k) as [->|NE].
        -- split; [intros E; injection E as <-; split; [apply in_or_app; right; left; auto|auto]|]. intros [I _]. apply in_app_or in I as [I|[I|[]]]; [apply (in_map fst) in I; contradiction|]. injection I as <-. auto.
        -- rewrite C2. split; [intros [I E]; split; [apply in_or_app; auto|auto]|]. intros [I E]. apply in_app_or in I as [I|[I|[]]]; [auto|]. injection I as <- <-. congruence.
      * rewrite filter_app, map_app, C3. cbn [filter fst map]. rewrite S0. cbn [map]. rewrite app_nil_r. auto.
      * destruct C6 as [S1 S2]. split.
        -- intros k' v' I NS. apply in_app_or in I as [I|[I|[]]]; [eapply S1; eauto|]. injection I as <- <-. congruence.
        -- intros k1 v1 k2 v2 i' b' I J P Q. apply in_app_or in I as [I|[I|[]]]; apply in_app_or in J as [J|[J|[]]].
           ++ eapply S2; eauto.
           ++ injection J as <- <-. apply placed_match in Q. congruence.
           ++ injection I as <- <-. apply placed_match in P. congruence.
           ++ congruence.
Qed.

Lemma cinv_nil : cinv [] (mkCol [] [] []).
Proof.
  split; [intros b i v; split; [intros (g & E & _); discriminate|intros (k & [] & _)]|]. split; [intros k v; split; [discriminate|intros [[] _]]|]. split; [auto|]. split; [constructor|].
  split; [intros b g; discriminate|]. split; [intros k v []|intros k v k' v' i b []].
Qed.

End Collect.

(** ** Stacks *)

Lemma ins_in : forall x l a, In a (insert_by (fun z => z) x l) -> a = x \/ In a l.
Proof. intros x l a. induction l as [|y l IH]; cbn [insert_by]; [intros [<-|[]]; auto|]. destruct (x <? y)%Z; cbn [In]; [intuition|]. intros [<-|I]; [auto|]. apply IH in I. intuition. Qed.

Lemma ins_sorted : forall x l, StronglySorted Z.le l -> StronglySorted Z.le (insert_by (fun z => z) x l).
Proof.
  intros x l H. induction H as [|y l S0 IH F]; cbn [insert_by]; [constructor; constructor|]. destruct (Z.ltb_spec x y).
  - constructor; [constructor; auto|]. constructor; [lia|]. eapply Forall_impl; [|exact F]. intros a A. cbn in A. lia.
  - constructor; [auto|]. apply Forall_forall. intros a I. rewrite Forall_forall in F. apply ins_in in I as [->|I]; [lia|auto].
Qed.

Lemma srt_sorted : forall l, StronglySorted Z.le (py_sorted (fun z => z) l).
Proof.
  intros l. unfold py_sorted. assert (G : forall l acc, StronglySorted Z.le acc -> StronglySorted Z.le (fold_left (fun acc x => insert_by (fun z => z) x acc) l acc)); [|apply G; constructor].
  clear l. induction l as [|x l IH]; intros acc S0; cbn [fold_left]; [auto|]. apply IH. apply ins_sorted. auto.
Qed.

Lemma sorted_perm_eq : forall l m, StronglySorted Z.le l -> StronglySorted Z.le m -> Permutation l m -> l = m.
Proof.
  intros l. induction l as [|x l IH]; intros m SL SM P; [apply Permutation_nil in P; auto|]. destruct m as [|y m]; [apply Permutation_sym, Permutation_nil in P; discriminate|].
  inversion_clear SL as [|? ? SL' FL]. inversion_clear SM as [|? ? SM' FM]. rewrite Forall_forall in FL, FM.
  assert (x = y). { assert (I : In x (y :: m)) by (apply (Permutation_in x P); left; auto). assert (J : In y (x :: l)) by (apply (Permutation_in y (Permutation_sym P)); left; auto).
    destruct I as [->|I]; [auto|]. destruct J as [->|J]; [auto|]. apply FM in I. apply FL in J. lia. }
  subst y. f_equal. apply IH; auto. eapply Permutation_cons_inv; eauto.
Qed.

Lemma seq_sorted : forall n a, StronglySorted Z.le (map Z.of_nat (seq a n)).
Proof. intros n. induction n as [|n IH]; intros a; cbn [seq map]; constructor; [auto|]. apply Forall_forall. intros z I. apply in_map_iff in I as (m & <- & I). apply in_seq in I. lia. Qed.

Lemma sorted_seq : forall {A : Type} (g : dict nat A) n, NoDup (map fst g) -> (sorted_keys g = seq 0 n <-> forall i, dget Nat.eqb i g <> None <-> i < n).
Proof.
  intros A g n N. unfold sorted_keys. assert (D : forall i, dget Nat.eqb i g <> None <-> In i (map fst g)).
  { intros i. destruct (dget Nat.eqb i g) eqn:G; split; intros H; try discriminate; try congruence; [apply (dget_some_in Nat.eqb Nat.eqb_spec) in G; apply (in_map fst) in G; auto|].
    apply (dget_none Nat.eqb Nat.eqb_spec) in G. contradiction. }
  set (zs := map (fun x => Z.of_nat (fst x)) g). assert (M : zs = map Z.of_nat (map fst g)) by (unfold zs; rewrite map_map; auto).
  assert (MID : forall l, map Z.to_nat (map Z.of_nat l) = l) by (intros l; rewrite map_map; erewrite map_ext; [apply map_id|]; intros x; apply Nat2Z.id).
  split.
  - intros E i. rewrite D. assert (P : Permutation (map fst g) (seq 0 n)).
    { rewrite <- E. rewrite <- (MID (map fst g)). apply Permutation_map. apply Permutation_sym. rewrite <- M. apply py_sorted_perm. }
    split; [intros I; apply (Permutation_in i P) in I; apply in_seq in I; lia|]. intros I. apply (Permutation_in i (Permutation_sym P)). apply in_seq. lia.
  - intros H. rewrite <- (MID (seq 0 n)). f_equal. apply sorted_perm_eq; [apply srt_sorted|apply seq_sorted|]. eapply perm_trans; [apply py_sorted_perm|]. rewrite M. apply Permutation_map.
    apply NoDup_Permutation; [auto|apply seq_NoDup|]. intros i. rewrite <- D, H, in_seq. lia.
Qed.

Lemma f2_nth : forall {A B : Type} (P : A -> B -> Prop) l m i y, Forall2 P l m -> nth_error m i = Some y -> exists x, nth_error l i = Some x /\ P x y.
Proof. intros A B P l m i y F. revert i. induction F as [|a b l m E F IH]; intros [|i] N; cbn in *; try discriminate; [injection N as <-; eauto|auto]. Qed.

Lemma f2_len : forall {A B : Type} (P : A -> B -> Prop) l m, Forall2 P l m -> List.length l = List.length m.
Proof. intros A B P l m F. induction F; cbn; auto. Qed.

(** Items of one shape that can be stacked *)
Definition even {V : Type} (axis : Z) (g : dict nat (arr V)) (shape : list nat) : Prop :=
  (forall i v, dget Nat.eqb i g = Some v -> a_shape v = shape) /\ exists ax, is_axis axis (S (List.length shape)) ax.

Lemma full_spec : forall {V : Type} (d0 : V) axis count (g : dict nat (arr V)), NoDup (map fst g) -> g <> [] ->
  (exists shape A, even axis g shape /\ (forall i, dget Nat.eqb i g <> None <-> i < count) /\ stack_full d0 axis count g = Ok A /\ stacked axis count shape (fun i => dget Nat.eqb i g) None A) \/
  (~ ((exists shape, even axis g shape) /\ (forall i, dget Nat.eqb i g <> None <-> i < count)) /\ exists e, stack_full d0 axis count g = Err e).
Proof.
  intros V d0 axis count g N NE. unfold stack_full. destruct (shape_eqb (sorted_keys g) (seq 0 count)) eqn:S0.
  - apply shape_spec in S0. pose proof (proj1 (sorted_seq g count N) S0) as H.
    destruct (fetch_all Nat.eqb g (seq 0 count)) as [(vs & E & F)|[(i & I & D) _]]; [|exfalso; apply in_seq in I; apply (proj2 (H i)); [lia|auto]]. rewrite E. cbn [rbind].
    pose proof (f2_len _ _ _ F) as LV. rewrite seq_length in LV.
    assert (NV : forall i, i < count -> exists v, nth_error vs i = Some v /\ dget Nat.eqb i g = Some v).
    { intros i L. destruct (nth_error vs i) as [v|] eqn:X; [|apply nth_error_None in X; lia]. exists v. split; [auto|]. destruct (f2_nth _ _ _ _ _ F X) as (j & Y & Q).
      pose proof (nth_error_nth _ _ 0 Y) as Z0. rewrite seq_nth in Z0 by auto. cbn in Z0. subst j. auto. }
    assert (IV : forall v, In v vs <-> exists i, dget Nat.eqb i g = Some v).
    { intros v. split; [intros I; destruct (f2_in_r _ _ _ _ F I) as (i & _ & Q); eauto|]. intros (i & Q). assert (L : i < count) by (apply H; congruence). destruct (NV i L) as (w & X & Y). rewrite Q in Y. injection Y as ->. eapply nth_error_In; eauto. }
    assert (HV : exists a, In a vs). { destruct g as [|[i v] g']; [congruence|]. exists v. apply IV. exists i. cbn [dget]. rewrite Nat.eqb_refl. auto. }
    destruct HV as [a IA]. destruct (stack_spec d0 axis vs a IA) as [(X & SH & A & EA & ST)|[X EA]].
    + left. exists (a_shape a), A. split; [split; [intros i v D; apply SH; apply IV; eauto|auto]|]. split; [auto|]. split; [auto|]. rewrite <- LV in ST. destruct ST as (ax & AX & SHA & Q). exists ax. split; [auto|]. split; [auto|].
      intros i idx L IN. specialize (Q i idx L IN). destruct (NV i L) as (v & Y & D). rewrite Y in Q. rewrite D. auto.
    + right. split; [|eauto]. intros [(shape & SH & AX) _]. apply X. destruct (proj1 (IV a) IA) as (i & D). rewrite (SH i a D). split; [auto|]. intros b IB. destruct (proj1 (IV b) IB) as (j & D'). apply (SH j b D').
  - right. split; [|eauto]. intros [_ H]. apply (sorted_seq g count N) in H. apply shape_spec in H. congruence.
Qed.

Lemma bcast_same : forall s idx, inside s idx -> bcast_idx s idx = idx.
Proof.
  intros s idx H. unfold bcast_idx. rewrite (inside_len _ _ H), Nat.sub_diag. cbn [skipn]. induction H as [|x y idx s L H IH]; cbn [combine map]; [auto|]. rewrite IH. f_equal. cbn [fst snd]. destruct (Nat.eqb_spec y 1); lia.
Qed.

Lemma bcast_refl : forall s, bcast_ok s s = true.
Proof.
  intros s. unfold bcast_ok. rewrite Nat.leb_refl, Nat.sub_diag. cbn [skipn andb]. induction s as [|x s IH]; cbn [combine forallb]; [auto|]. rewrite IH. cbn [fst snd]. rewrite Nat.eqb_refl. auto.
Qed.

Lemma fill_spec : forall {V : Type} np ax count shape (g : dict nat (arr V)) st, ax <= List.length shape -> NoDup (map fst g) ->
  (forall i v, dget Nat.eqb i g = Some v -> a_shape v = shape /\ i < count) ->
  exists st', fill np (Z.of_nat ax) count (insert_at ax count shape) g st = Ok st' /\
    forall idx, st' idx = match dget Nat.eqb (nth ax idx 0) g with Some v => a_at v (bcast_idx shape (remove_at ax idx)) | None => st idx end.
Proof.
  intros V np ax count shape g. induction g as [|[i v] g IH]; intros st L N H; cbn [fill]; [exists st; auto|]. cbn [map fst] in N. inversion_clear N as [|? ? N1 N2].
  destruct (H i v) as [SH LI]; [cbn [dget]; rewrite Nat.eqb_refl; auto|]. destruct (Nat.leb_spec count i); [lia|]. rewrite ins_len.
  assert (AX : norm_axis (Z.of_nat ax) (S (List.length shape)) = Some ax) by (apply axis_spec; split; [lia|auto]). rewrite AX, ins_nth by auto. destruct (Nat.leb_spec count i); [lia|]. rewrite andb_false_r.
  rewrite ins_rem by auto. rewrite SH, bcast_refl. edestruct IH as (st' & E & Q); [exact L|exact N2| |].
  - intros j w D. apply (H j w). cbn [dget]. destruct (Nat.eqb_spec j i) as [->|]; [|auto]. apply (dget_some_in Nat.eqb Nat.eqb_spec) in D. apply (in_map fst) in D. contradiction.
  - exists st'. split; [exact E|]. intros idx. rewrite Q. cbn [dget]. destruct (Nat.eqb_spec (nth ax idx 0) i) as [->|NI].
    + destruct (dget Nat.eqb i g) as [w|] eqn:D; [apply (dget_some_in Nat.eqb Nat.eqb_spec) in D; apply (in_map fst) in D; contradiction|]. auto.
    + destruct (dget Nat.eqb (nth ax idx 0) g); auto.
Qed.

Lemma padded_spec : forall {V : Type} np ax count f (g : dict nat (arr V)) shape, NoDup (map fst g) -> g <> [] -> ax <= List.length shape ->
  (forall i v, dget Nat.eqb i g = Some v -> a_shape v = shape /\ i < count) ->
  exists A, stack_padded np (Z.of_nat ax) count f g = Ok A /\ stacked (Z.of_nat ax) count shape (fun i => dget Nat.eqb i g) (Some f) A.
Proof.
  intros V np ax count f g shape N NE L H. destruct (fill_spec np ax count shape g (fun _ => f) L N H) as (st' & E & Q).
  assert (LG : List.length g <= count).
  { rewrite <- (map_length fst), <- (seq_length count 0). apply NoDup_incl_length; [auto|]. intros i I. apply in_map_iff in I as ([j v] & <- & I). cbn [fst]. apply (dget_in Nat.eqb Nat.eqb_spec) in I; auto. apply H in I as [_ I]. apply in_seq. lia. }
  destruct g as [|[i0 rep] g']; [congruence|]. unfold stack_padded. set (g := (i0, rep) :: g') in *. destruct (H i0 rep) as [SR _]; [unfold g; cbn [dget]; rewrite Nat.eqb_refl; auto|]. rewrite SR.
  assert (PI : py_insert (Z.of_nat ax) count shape = insert_at ax count shape).
  { unfold py_insert. f_equal. unfold py_bound. destruct (Z.ltb_spec (Z.of_nat ax) 0); lia. }
  rewrite PI. destruct (Nat.ltb_spec count (List.length g)); [lia|]. rewrite E. cbn [rmap]. eexists. split; [reflexivity|]. exists ax. cbn [a_shape a_at]. split; [split; [lia|auto]|]. split; [reflexivity|].
  intros i idx LI IN. pose proof (inside_len _ _ IN) as LL. rewrite Q. change (firstn ax idx ++ i :: skipn ax idx)%list with (insert_at ax i idx). rewrite ins_nth, ins_rem by lia.
  destruct (dget Nat.eqb i g) as [v|] eqn:D; [|exists f; auto]. split; [apply (H i v D)|]. rewrite bcast_same; auto.
Qed.

(** ** The groups one after the other *)

Section Stk.
Context {V : Type} (d0 : V) (np : bool) (axis : Z) (count : nat) (filler : string -> option V).

Definition stk (b : string) (g : dict nat (arr V)) : result (arr V) :=
  match filler b with None => stack_full d0 axis count g | Some f => stack_padded np axis count f g end.

Lemma groups_spec : forall G r, NoDup (map fst G) ->
  (exists r', stack_groups d0 np axis count filler G r = Ok r' /\ (forall b g, In (b, g) G -> exists A, stk b g = Ok A /\ dget String.eqb b r' = Some A) /\
     forall k, ~ In k (map fst G) -> dget String.eqb k r' = dget String.eqb k r) \/
  (exists b g e, In (b, g) G /\ stk b g = Err e /\ stack_groups d0 np axis count filler G r = Err e).
Proof.
  intros G. induction G as [|[b g] G IH]; intros r N; cbn [stack_groups].
  - left. exists r. split; [auto|]. split; [intros b g []|auto].
  - cbn [map fst] in N. inversion_clear N as [|? ? N1 N2]. fold (stk b g). destruct (stk b g) as [A|e] eqn:E; cbn [rbind].
    + destruct (IH (dput String.eqb b A r) N2) as [(r' & ER & P & Q)|(b' & g' & e & I & X & Y)].
      * left. exists r'. split; [auto|]. split.
        -- intros b' g' [I|I]; [|auto]. injection I as <- <-. exists A. split; [auto|]. rewrite Q by auto. rewrite (dget_dput String.eqb String.eqb_spec), String.eqb_refl. auto.
        -- intros k NI. rewrite Q; [|intros I; apply NI; right; auto]. rewrite (dget_dput String.eqb String.eqb_spec). destruct (String.eqb_spec k b) as [->|]; [exfalso; apply NI; left; auto|auto].
      * right. exists b', g', e. split; [right; auto|auto].
    + right. exists b, g, e. split; [left; auto|auto].
Qed.

End Stk.

Section Main.
Context {V : Type} (d0 : V) (size : arr V -> Z) (search : string -> option (list (option (nat * nat)))) (expected : option nat) (axis : Z)
  (mapping : list ((string -> bool) * V)) (default : option V) (inplace sort_by_size : bool) (d : params V).
Hypothesis ND : NoDup (map fst d).

Let st := stack d0 size search expected axis mapping default inplace sort_by_size [d].
Let filler := filler_of mapping default.

Lemma collect_all : (exists c, collect search d (mkCol [] [] []) = Ok c /\ cinv search d c) \/ (~ stackable search d /\ exists e, collect search d (mkCol [] [] []) = Err e).
Proof. exact (collect_spec search d [] (mkCol [] [] []) ND (cinv_nil search)). Qed.

Lemma left_over : forall c, cinv search d c -> filter (fun x => negb (existsb (String.eqb (fst x)) (c_delete c))) d = filter (fun x => match search (fst x) with None => true | Some _ => false end) d.
Proof.
  intros c (_ & _ & C3 & _). rewrite C3. apply filter_ext_in. intros [k v] I. cbn [fst]. destruct (search k) as [gr|] eqn:E.
  - assert (T : In k (map fst (filter (fun x => match search (fst x) with Some _ => true | None => false end) d))) by (apply in_map_iff; exists (k, v); split; [auto|]; apply filter_In; split; [auto|]; cbn [fst]; rewrite E; auto).
    apply exists_in in T. rewrite T. auto.
  - destruct (existsb (String.eqb k) _) eqn:X; [|auto]. apply exists_in in X. apply in_map_iff in X as ([k' v'] & <- & X). apply filter_In in X as [_ X]. cbn [fst] in *. rewrite E in X. discriminate.
Qed.

Lemma stack_left : (stackable search d -> snd st = [if inplace then filter (fun x => match search (fst x) with None => true | Some _ => false end) d else d]) /\
  (~ stackable search d -> snd st = [d] /\ exists e, fst st = Err e).
Proof.
  unfold st, stack. cbn [single]. destruct collect_all as [(c & E & C)|[X [e E]]]; rewrite E.
  - split; [|intros X; exfalso; apply X; apply C]. intros _. rewrite <- (left_over c C). destruct (c_groups c) as [|[b g] G]; auto.
  - split; [intros H; contradiction|]. intros _. cbn [fst snd]. split; [auto|eauto].
Qed.

(** The stack when something matches *)
Lemma stack_form : forall count, stackable search d -> (exists b i v, item_of search d b i v) -> counts search d expected count ->
  exists np c order, cinv search d c /\ Permutation order (c_groups c) /\ fst st = stack_groups d0 np axis count filler order (c_unmatched c).
Proof.
  intros count SB (b0 & i0 & v0 & IT) CT. unfold st, stack. cbn [single]. destruct collect_all as [(c & E & C)|[X _]]; [|contradiction]. rewrite E. pose proof C as (C1 & C2 & C3 & C4 & C5 & C6).
  pose proof (proj2 (C1 _ _ _) IT) as (g0 & DG & _).
  assert (CC : count_of expected (c_groups c) = count).
  { unfold count_of, counts in *. destruct expected as [n|]; [auto|]. destruct CT as [UP (b & i & v & IT' & ->)]. f_equal.
    assert (LM : forall j, In j (List.concat (map (fun x => map fst (snd x)) (c_groups c))) <-> exists b v, item_of search d b j v).
    { intros j. rewrite in_concat. split.
      - intros (l & I & J). apply in_map_iff in I as ([b1 g1] & <- & I). cbn [snd] in J. apply (dget_in String.eqb String.eqb_spec) in I; auto. destruct (C5 _ _ I) as [NG _].
        apply in_map_iff in J as ([j' w] & <- & J). cbn [fst]. apply (dget_in Nat.eqb Nat.eqb_spec) in J; auto. exists b1, w. apply C1. eauto.
      - intros (b1 & w & IT1). apply C1 in IT1 as (g & A & B). exists (map fst g). split.
        + apply (dget_some_in String.eqb String.eqb_spec) in A. apply (in_map (fun x => map fst (snd x))) in A. auto.
        + apply (dget_some_in Nat.eqb Nat.eqb_spec) in B. apply (in_map fst) in B. auto. }
    apply Nat.le_antisymm.
    - apply list_max_le. apply Forall_forall. intros j J. apply LM in J as (b1 & w & IT1). apply UP in IT1. lia.
    - assert (I : In i (List.concat (map (fun x => map fst (snd x)) (c_groups c)))) by (apply LM; eauto). pose proof (proj1 (list_max_le _ _) (le_n (list_max (List.concat (map (fun x => map fst (snd x)) (c_groups c)))))) as F.
      rewrite Forall_forall in F. apply F. auto. }
  destruct (c_groups c) as [|[b g] G] eqn:EG; [discriminate|]. rewrite <- EG in *. rewrite CC.
  exists (match g with (_, v) :: _ => a_np v | [] => false end), c, (if sort_by_size then py_sorted_rev (fun x => fold_left (fun n y => (n + size (snd y))%Z) (snd x) 0%Z) true (c_groups c) else c_groups c).
  split; [auto|]. split; [|reflexivity]. destruct sort_by_size; [|auto]. unfold py_sorted_rev. apply py_sorted_perm.
Qed.

Lemma stack_main : forall count, (exists b i v, item_of search d b i v) -> counts search d expected count -> stackable search d ->
  (forall b i v, item_of search d b i v -> fits search d axis count (filler b) b) -> exists r, fst st = Ok r /\ stack_result search d axis count filler r.
Proof.
  intros count EX CT SB FT. destruct (stack_form count SB EX CT) as (np & c & order & (C1 & C2 & C3 & C4 & C5 & C6) & PO & ->).
  assert (NO : NoDup (map fst order)) by (eapply Permutation_NoDup; [apply Permutation_map; apply Permutation_sym; exact PO|auto]).
  assert (IO : forall b g, In (b, g) order <-> dget String.eqb b (c_groups c) = Some g).
  { intros b g. rewrite (dget_in String.eqb String.eqb_spec) by auto. split; intros I; [eapply Permutation_in; eauto|eapply Permutation_in; [apply Permutation_sym; eauto|auto]]. }
  assert (GI : forall b g i v, dget String.eqb b (c_groups c) = Some g -> (dget Nat.eqb i g = Some v <-> item_of search d b i v)).
  { intros b g i v D. rewrite <- C1. split; [eauto|]. intros (g' & D' & Q). rewrite D in D'. injection D' as <-. auto. }
  assert (OKS : forall b g, In (b, g) order -> exists shape A, stk d0 np axis count filler b g = Ok A /\ stacked axis count shape (fun i => dget Nat.eqb i g) (filler b) A /\ forall i v, item_of search d b i v -> a_shape v = shape).
  { intros b g I. apply IO in I. destruct (C5 b g I) as [NG NE]. assert (IT : exists i v, dget Nat.eqb i g = Some v) by (destruct g as [|[i v] g]; [congruence|]; exists i, v; cbn [dget]; rewrite Nat.eqb_refl; auto).
    destruct IT as (i & v & D). assert (IT := D). apply (GI b g i v I) in IT. destruct (FT b i v IT) as (shape & SH & F). unfold stk. exists shape. destruct (filler b) as [f|].
    - destruct F as [AX LT]. destruct (padded_spec np (Z.to_nat axis) count f g shape NG NE) as (A & EA & ST); [lia| |].
      + intros j w DJ. apply (GI b g j w I) in DJ. split; [eapply SH; eauto|eapply LT; eauto].
      + rewrite Z2Nat.id in * by lia. exists A. auto.
    - destruct F as [AX LT]. assert (EV : even axis g shape /\ forall j, dget Nat.eqb j g <> None <-> j < count).
      { split; [split; [|auto]; intros j w DJ; apply (GI b g j w I) in DJ; eapply SH; eauto|]. intros j. rewrite <- LT. split.
        - intros NN. destruct (dget Nat.eqb j g) as [w|] eqn:DJ; [|congruence]. exists w. apply (GI b g j w I). auto.
        - intros (w & IT1). apply (GI b g j w I) in IT1. congruence. }
      destruct (full_spec d0 axis count g NG NE) as [(shape' & A & [SH' _] & _ & EA & ST)|[X _]]; [|exfalso; apply X; split; [exists shape; apply EV|apply EV]].
      assert (shape' = shape) by (rewrite <- (SH' i v D); eapply SH; eauto). subst shape'. exists A. auto. }
  destruct (groups_spec d0 np axis count filler order (c_unmatched c) NO) as [(r & ER & P & Q)|(b & g & e & I & X & _)]; [|destruct (OKS b g I) as (shape & A & E & _); congruence].
  exists r. split; [auto|]. split.
  - intros b i v IT. assert (IT' := IT). apply C1 in IT' as (g & D & _). assert (I := D). apply IO in I. destruct (OKS b g I) as (shape & A & EA & ST & SH). destruct (P b g I) as (A' & EA' & DA). rewrite EA in EA'. injection EA' as <-.
    exists (fun i => dget Nat.eqb i g), A. split; [intros j w; apply (GI b g j w D)|]. split; [auto|]. rewrite (SH i v IT). auto.
  - intros k NI v. rewrite Q; [apply C2|]. intros I. apply in_map_iff in I as ([b g] & <- & I). cbn [fst] in *. apply IO in I. destruct (C5 b g I) as [_ NE]. destruct g as [|[i w] g]; [congruence|].
    apply (NI i w). apply (GI b ((i, w) :: g) i w I). cbn [dget]. rewrite Nat.eqb_refl. auto.
Qed.

Lemma stack_exact : forall count r, (exists b i v, item_of search d b i v) -> counts search d expected count -> (forall b, filler b = None) -> fst st = Ok r ->
  stackable search d /\ forall b i v, item_of search d b i v -> fits search d axis count None b.
Proof.
  intros count r EX CT NF E. destruct collect_all as [(c0 & _ & C0)|[X _]]; [|destruct (proj2 stack_left X) as [_ [e Y]]; congruence]. assert (SB : stackable search d) by apply C0. split; [auto|].
  destruct (stack_form count SB EX CT) as (np & c & order & (C1 & C2 & C3 & C4 & C5 & C6) & PO & ES). rewrite E in ES.
  assert (NO : NoDup (map fst order)) by (eapply Permutation_NoDup; [apply Permutation_map; apply Permutation_sym; exact PO|auto]).
  destruct (groups_spec d0 np axis count filler order (c_unmatched c) NO) as [(r' & ER & P & Q)|(b & g & e & I & X & Y)]; [|congruence].
  intros b i v IT. apply C1 in IT as (g & D & DI). assert (I : In (b, g) order).
  { apply (Permutation_in _ (Permutation_sym PO)). apply (dget_in String.eqb String.eqb_spec); auto. }
  destruct (P b g I) as (A & EA & _). unfold stk in EA. rewrite NF in EA. destruct (C5 b g D) as [NG NE].
  assert (GI : forall i v, dget Nat.eqb i g = Some v <-> item_of search d b i v).
  { intros j w. rewrite <- C1. split; [eauto|]. intros (g' & D' & R). rewrite D in D'. injection D' as <-. auto. }
  destruct (full_spec d0 axis count g NG NE) as [(shape & A' & [SH AX] & CN & _)|[_ [e X]]]; [|congruence]. exists shape. split; [intros j w IT1; apply GI in IT1; eapply SH; eauto|]. split; [auto|].
  intros j. rewrite <- CN. split; [intros (w & IT1); apply GI in IT1; congruence|]. intros NN. destruct (dget Nat.eqb j g) as [w|] eqn:DJ; [|congruence]. exists w. apply GI. auto.
Qed.

Lemma stack_none : (forall k v, In (k, v) d -> search k = None) -> exists r, fst st = Ok r /\ (forall k, dget String.eqb k r = dget String.eqb k d) /\ snd st = [d].
Proof.
  intros H. assert (NIT : forall b i v, ~ item_of search d b i v) by (intros b i v (k & I & P); apply placed_match in P; apply P; eapply H; eauto).
  assert (SB : stackable search d) by (split; [intros k v I NS; exfalso; apply NS; eapply H; eauto|intros k v k' v' i b I _ P; apply placed_match in P; exfalso; apply P; eapply H; eauto]).
  pose proof (proj1 stack_left SB) as SL. unfold st, stack in *. cbn [single] in *. destruct collect_all as [(c & E & C)|[X _]]; [|contradiction]. rewrite E in *. destruct C as (C1 & C2 & C3 & C4 & C5 & C6).
  destruct (c_groups c) as [|[b g] G] eqn:EG.
  - exists (c_unmatched c). split; [auto|]. split.
    + intros k. destruct (dget String.eqb k d) as [v|] eqn:D.
      * apply C2. apply (dget_some_in String.eqb String.eqb_spec) in D. split; [auto|eapply H; eauto].
      * destruct (dget String.eqb k (c_unmatched c)) as [v|] eqn:U; [|auto]. apply C2 in U as [U _]. apply (dget_none String.eqb String.eqb_spec) in D. apply (in_map fst) in U. contradiction.
    + rewrite SL. destruct inplace; [|auto]. f_equal. clear - H. induction d as [|[k v] l IH]; [auto|]. cbn [filter fst]. rewrite (H k v) by (left; auto). f_equal. apply IH. intros k' v' I. apply (H k' v'). right. auto.
  - exfalso. destruct (C5 b g) as [_ NE]; [cbn [dget]; rewrite String.eqb_refl; auto|]. destruct g as [|[i w] g]; [congruence|]. apply (NIT b i w). apply C1. exists ((i, w) :: g). cbn [dget]. rewrite String.eqb_refl, Nat.eqb_refl. auto.
Qed.

End Main.

(** ** Streaming *)

Lemma nth_slice : forall {A : Type} a n (l : list A) i, i < n -> nth_error (firstn n (skipn a l)) i = nth_error l (a + i).
Proof.
  intros A a. induction a as [|a IH]; intros n l i L.
  - cbn [skipn Nat.add]. revert l i L. induction n as [|n IHn]; intros l i L; [lia|]. destruct l as [|x l]; [destruct i; auto|]. destruct i as [|i]; cbn; [auto|]. apply IHn. lia.
  - destruct l as [|x l]; [cbn [skipn]; rewrite firstn_nil; destruct i; auto|]. cbn [skipn Nat.add nth_error]. apply IH. auto.
Qed.

Theorem callback_spec : forall {V : Type} (d0 : V) ax (items : list (arr V)) shape indices a b,
  (forall x, In x items -> a_shape x = shape) -> ax <= List.length shape -> List.length indices = S (List.length shape) -> nth ax indices None = Some (a, b) -> a < b -> b <= List.length items ->
  exists A, stream_callback d0 (Z.of_nat ax) items indices = Ok A /\ stacked (Z.of_nat ax) (b - a) shape (fun i => nth_error items (a + i)) None A.
Proof.
  intros V d0 ax items shape indices a b SH L LI N AB BL. unfold stream_callback. rewrite LI. assert (AX : norm_axis (Z.of_nat ax) (S (List.length shape)) = Some ax) by (apply axis_spec; split; [lia|auto]).
  rewrite AX, N. cbn [fst snd]. rewrite !Nat.min_l by lia. set (sub := firstn (b - a) (skipn a items)). assert (LS : List.length sub = b - a) by (unfold sub; rewrite firstn_length, skipn_length; lia).
  assert (IS : forall x, In x sub -> In x items) by (intros x I; unfold sub in I; rewrite <- (firstn_skipn a items); apply in_or_app; right; rewrite <- (firstn_skipn (b - a) (skipn a items)); apply in_or_app; left; auto).
  assert (X : exists x, In x sub) by (destruct sub as [|x sub]; [cbn in LS; lia|exists x; left; auto]). destruct X as [x IX]. pose proof (SH x (IS x IX)) as SX.
  destruct (stack_spec d0 (Z.of_nat ax) sub x IX) as [(_ & _ & A & EA & ST)|[X _]].
  - exists A. split; [auto|]. rewrite SX, LS in ST. destruct ST as (ax' & P & Q & R). exists ax'. split; [auto|]. split; [auto|]. intros i idx LT IN. specialize (R i idx LT IN). unfold sub in R. rewrite nth_slice in R by auto. exact R.
  - exfalso. apply X. rewrite SX. split; [exists ax; apply axis_spec; auto|]. intros y I. rewrite (SH y (IS y I)). auto.
Qed.

(** ** Nesting *)

Lemma nest_flat : forall {V : Type} sep (p : dict string (tree V)) t, sep <> "" -> fst (nest sep t p) = rbind (sequence (map (fun x => rmap (fun n => (n, snd x)) (split sep (fst x))) p)) (insert_names_all t).
Proof.
  intros V sep p t NS. destruct sep as [|c s]; [congruence|]. unfold split.
  assert (S0 : forall p : dict string (tree V), sequence (map (fun x => rmap (fun n => (n, snd x)) (Ok (split_from (String c s) 0 (fst x)))) p) = Ok (map (fun x => (split_from (String c s) 0 (fst x), snd x)) p)).
  { induction p0 as [|x p0 IH]; [auto|]. cbn [map sequence rmap rbind]. cbn [rmap rbind] in IH. rewrite IH. auto. }
  rewrite S0. cbn [rbind]. clear S0. revert t. induction p as [|[k v] p IH]; intros t; [auto|]. cbn [nest map insert_names_all fst snd]. unfold split. cbn [rbind].
  destruct (insert_names t (split_from (String c s) 0 k) v); cbn [rbind fst]; auto.
Qed.

Lemma nest_left : forall {V : Type} sep (p : dict string (tree V)) t r, fst (nest sep t p) = Ok r -> snd (nest sep t p) = [].
Proof. intros V sep p. induction p as [|[k v] p IH]; intros t r; cbn [nest]; [auto|]. destruct (rbind (split sep k) (fun n => insert_names t n v)) as [t'|e]; [apply IH|discriminate]. Qed.

Lemma missing_spec : forall {V : Type} (flat p : dict string V) k, dget String.eqb k (fill_missing flat p) = match dget String.eqb k p with Some v => Some v | None => dget String.eqb k flat end.
Proof.
  intros V flat. induction flat as [|[k0 v0] flat IH]; intros p k; [cbn; destruct (dget String.eqb k p); auto|]. unfold fill_missing in *. cbn [fold_left fst snd]. rewrite IH. cbn [dget].
  destruct (dget String.eqb k0 p) as [w|] eqn:D.
  - destruct (dget String.eqb k p) eqn:E; [auto|]. destruct (String.eqb_spec k k0) as [->|]; [congruence|auto].
  - rewrite (dget_dput String.eqb String.eqb_spec). destruct (String.eqb_spec k k0) as [->|]; [rewrite D; auto|auto].
Qed.

Theorem target_fill : forall {V : Type} sep inplace (t : tree V) (p : dict string (tree V)) f, wf t ->
  (forall a b v w, at_path t a (Leaf v) -> at_path t b (Leaf w) -> join sep (tuple_path_from_keypath a) = join sep (tuple_path_from_keypath b) -> a = b) ->
  (forall a v, at_path t a (Leaf v) -> match dget String.eqb (join sep (tuple_path_from_keypath a)) p with Some x => f a = x | None => f a = Leaf v end) ->
  fst (unflatten_params sep inplace (Some t) [p]) = Ok (with_leaves f (norm t)).
Proof.
  intros V sep inplace t p f W U H. cbn [unflatten_params fst]. apply target_sep_ok; auto. intros a v A. rewrite missing_spec. specialize (H a v A). destruct (dget String.eqb (join sep (tuple_path_from_keypath a)) p) as [x|]; [congruence|].
  assert (U' : forall a b v w, at_path t a v -> is_leaf false v -> at_path t b w -> is_leaf false w -> join sep (tuple_path_from_keypath a) = join sep (tuple_path_from_keypath b) -> a = b).
  { intros a' b' v' w' A' LA B' LB. destruct v' as [v'|k cs]; [|destruct cs; cbn in LA; intuition discriminate]. destruct w' as [w'|k cs]; [|destruct cs; cbn in LB; intuition discriminate]. eapply U; eauto. }
  assert (N : NoDup (map fst (to_flat_dict_sep sep false t))) by (apply ArrayMeta_Proofs.dof_nodup; apply String.eqb_spec).
  apply (dget_in String.eqb String.eqb_spec); [auto|]. rewrite to_flat_sep_eq in * by auto. apply in_map_iff. exists (a, Leaf v). cbn [fst snd]. split; [f_equal; auto|]. apply flatten_spec. split; [auto|exact I].
Qed.

Theorem target_left : forall {V : Type} sep (t : tree V) (p : dict string (tree V)), wf t ->
  (forall a b v w, at_path t a (Leaf v) -> at_path t b (Leaf w) -> join sep (tuple_path_from_keypath a) = join sep (tuple_path_from_keypath b) -> a = b) ->
  exists p', snd (unflatten_params sep true (Some t) [p]) = [p'] /\ forall k v, In (k, v) p' <-> In (k, v) p /\ forall a w, at_path t a (Leaf w) -> k <> join sep (tuple_path_from_keypath a).
Proof.
  intros V sep t p W U. cbn [unflatten_params snd]. eexists. split; [reflexivity|]. intros k v. rewrite filter_In. cbn [fst].
  assert (U' : forall a b v w, at_path t a v -> is_leaf false v -> at_path t b w -> is_leaf false w -> join sep (tuple_path_from_keypath a) = join sep (tuple_path_from_keypath b) -> a = b).
  { intros a' b' v' w' A' LA B' LB. destruct v' as [v'|k' cs]; [|destruct cs; cbn in LA; intuition discriminate]. destruct w' as [w'|k' cs]; [|destruct cs; cbn in LB; intuition discriminate]. eapply U; eauto. }
  rewrite (to_flat_sep_eq sep false t W U'), map_map. cbn [fst]. split; intros [I H]; (split; [auto|]).
  - intros a w A ->. apply negb_true_iff in H. assert (T : In (join sep (tuple_path_from_keypath a)) (map (fun x => join sep (tuple_path_from_keypath (fst x))) (flatten false t))).
    { apply in_map_iff. exists (a, Leaf w). split; [auto|]. apply flatten_spec. split; [auto|exact Logic.I]. }
    apply exists_in in T. congruence.
  - apply negb_true_iff. destruct (existsb (String.eqb k) _) eqn:X; [|auto]. apply exists_in in X. apply in_map_iff in X as ([a w] & <- & J). cbn [fst] in *. apply flatten_spec in J as [A L].
    destruct w as [w|k' cs]; [|destruct cs; cbn in L; intuition discriminate]. exfalso. apply (H a w A). auto.
Qed.
