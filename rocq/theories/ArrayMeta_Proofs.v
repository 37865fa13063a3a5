(** Proofs about stored array metadata. *)
From Coq Require Import List Bool Arith NArith ZArith String Ascii Permutation Lia.
From Verif Require Import Base StepName_Model StepName_Spec StepName_Proofs Tree_Model ArrayMeta_Model ArrayMeta_Spec.
Import ListNotations.
Open Scope string_scope.

(** ** Dictionaries *)

Section Dict.
Context {K V : Type} (eqb : K -> K -> bool) (sp : forall a b, reflect (a = b) (eqb a b)).

Lemma dgp : forall k k' (v : V) d, dget eqb k (dput eqb k' v d) = if eqb k k' then Some v else dget eqb k d.
Proof.
  intros k k' v d. induction d as [|[j w] d IH]; cbn [dput dget]; auto.
  destruct (sp k' j) as [->|N]; cbn [dget].
  - destruct (sp k j); auto.
  - rewrite IH. destruct (sp k j) as [->|]; auto. destruct (sp j k'); congruence.
Qed.

Lemma dgin : forall k (v : V) d, dget eqb k d = Some v -> In (k, v) d.
Proof. intros k v d. induction d as [|[j w] d IH]; cbn [dget]; [discriminate|]. destruct (sp k j); [intros [= ->]; subst; left; auto|right; auto]. Qed.

Lemma dgnone : forall k (d : dict K V), dget eqb k d = None <-> ~ In k (map fst d).
Proof.
  intros k d. induction d as [|[j w] d IH]; cbn [dget map fst In]; [tauto|].
  destruct (sp k j); [split; [discriminate|intros N; elim N; auto]|]. rewrite IH. split; intros N; [intros [E|E]; auto|auto].
Qed.

Lemma dgsome : forall k (d : dict K V), In k (map fst d) -> exists v, dget eqb k d = Some v.
Proof. intros k d I. destruct (dget eqb k d) eqn:E; [eauto|]. apply dgnone in E. tauto. Qed.

Lemma dgnd : forall k (v : V) d, NoDup (map fst d) -> In (k, v) d -> dget eqb k d = Some v.
Proof.
  intros k v d N I. induction d as [|[j w] d IH]; [destruct I|]. cbn [map fst] in N. inversion_clear N as [|? ? N1 N2]. cbn [dget].
  destruct I as [[= -> ->]|I]; [destruct (sp k k); congruence|]. destruct (sp k j); [|auto]. subst. elim N1. apply in_map_iff. exists (j, v). auto.
Qed.

Lemma dpkeys : forall k (v : V) d x, In x (map fst (dput eqb k v d)) <-> x = k \/ In x (map fst d).
Proof.
  intros k v d x. induction d as [|[j w] d IH]; cbn [dput map fst In]; [split; intros [A|[]]; auto|].
  destruct (sp k j); cbn [map fst In]; [|rewrite IH]; subst; intuition congruence.
Qed.

Lemma dpnodup : forall k (v : V) d, NoDup (map fst d) -> NoDup (map fst (dput eqb k v d)).
Proof.
  intros k v d N. induction d as [|[j w] d IH]; cbn [dput map fst] in *; [constructor; auto; constructor|].
  inversion_clear N as [|? ? N1 N2]. destruct (sp k j); cbn [map fst]; constructor; auto. rewrite dpkeys. intros [E|E]; auto.
Qed.

(** A comprehension keeps the last value of each key. *)
Definition final (l : list (K * V)) (k : K) (v : V) : Prop := exists a b, l = (a ++ (k, v) :: b)%list /\ ~ In k (map fst b).

Lemma dof_fold : forall (l : list (K * V)) d k, dget eqb k (fold_left (fun d x => dput eqb (fst x) (snd x) d) l d) =
  match dget eqb k (fold_left (fun d x => dput eqb (fst x) (snd x) d) l []) with Some v => Some v | None => dget eqb k d end.
Proof.
  intros l. induction l as [|[j w] l IH] using rev_ind; intros d k; [reflexivity|].
  rewrite !fold_left_app. cbn [fold_left fst snd]. rewrite !dgp. destruct (eqb k j); auto.
Qed.

Lemma dof_app : forall (l : list (K * V)) j w k, dget eqb k (dict_of eqb (l ++ [(j, w)])%list) = if eqb k j then Some w else dget eqb k (dict_of eqb l).
Proof. intros. unfold dict_of. rewrite fold_left_app. cbn [fold_left fst snd]. apply dgp. Qed.

Lemma dof_final : forall (l : list (K * V)) k v, dget eqb k (dict_of eqb l) = Some v <-> final l k v.
Proof.
  intros l. induction l as [|[j w] l IH] using rev_ind; intros k v.
  - cbn. split; [discriminate|]. intros (a & b & E & _). destruct a; discriminate.
  - rewrite dof_app. destruct (sp k j) as [->|N].
    + split.
      * intros [= ->]. exists l, []. split; auto.
      * intros (a & b & E & I). destruct b as [|y b] using rev_ind; [apply app_inj_tail in E; destruct E as [_ [= ->]]; auto|].
        rewrite app_comm_cons, app_assoc in E. apply app_inj_tail in E. destruct E as [_ <-]. elim I. rewrite map_app, in_app_iff. right. left. reflexivity.
    + rewrite IH. split; intros (a & b & E & I).
      * exists a, (b ++ [(j, w)])%list. rewrite E, <- app_assoc. split; auto. rewrite map_app, in_app_iff. intros [A|[A|[]]]; auto.
      * destruct b as [|y b] using rev_ind; [apply app_inj_tail in E; destruct E as [_ [= -> ->]]; congruence|].
        rewrite app_comm_cons, app_assoc in E. apply app_inj_tail in E. destruct E as [-> <-]. exists a, b. split; auto. intros A. apply I. rewrite map_app, in_app_iff. auto.
Qed.

Lemma dof_keys : forall (l : list (K * V)) k, In k (map fst (dict_of eqb l)) <-> In k (map fst l).
Proof.
  intros l. induction l as [|[j w] l IH] using rev_ind; intros k; [reflexivity|].
  unfold dict_of. rewrite fold_left_app. cbn [fold_left fst snd]. rewrite dpkeys. fold (dict_of eqb l). rewrite IH, map_app, in_app_iff. cbn. intuition.
Qed.

Lemma dof_nodup : forall (l : list (K * V)), NoDup (map fst (dict_of eqb l)).
Proof.
  intros l. induction l as [|[j w] l IH] using rev_ind; [constructor|]. unfold dict_of. rewrite fold_left_app. cbn [fold_left fst snd]. apply dpnodup, IH.
Qed.

Lemma dof_id : forall (l : list (K * V)), NoDup (map fst l) -> dict_of eqb l = l.
Proof.
  intros l. induction l as [|[j w] l IH] using rev_ind; intros N; [reflexivity|].
  unfold dict_of. rewrite fold_left_app. cbn [fold_left fst snd]. fold (dict_of eqb l). rewrite map_app in N.
  assert (N1 : NoDup (map fst l)) by (clear -N; induction l as [|x l IH]; [constructor|]; cbn [map app] in N; inversion_clear N as [|? ? A B]; constructor; [rewrite in_app_iff in A; auto|apply IH; auto]).
  assert (N2 : ~ In j (map fst l)).
  { apply NoDup_remove_2 in N. rewrite app_nil_r in N. exact N. }
  rewrite IH by auto. clear -sp N2. induction l as [|[k v] l IH]; [reflexivity|]. cbn [dput app]. cbn [map fst In] in N2. destruct (sp j k); [subst; tauto|]. rewrite IH by tauto. reflexivity.
Qed.

(** The dictionary depends on the order of distinct keys only by its own order. *)
Lemma dof_perm : forall (l l' : list (K * V)), NoDup (map fst l) -> Permutation l l' -> forall k, dget eqb k l = dget eqb k l'.
Proof.
  intros l l' N P k. assert (N' : NoDup (map fst l')) by (eapply Permutation_NoDup; [apply Permutation_map; exact P|auto]).
  destruct (dget eqb k l) as [v|] eqn:E.
  - symmetry. apply dgnd; auto. apply (Permutation_in _ P), dgin, E.
  - symmetry. apply dgnone. apply dgnone in E. intros I. apply E. eapply Permutation_in; [apply Permutation_map, Permutation_sym, P|auto].
Qed.

End Dict.

Lemma dpcons : forall {V : Type} k (v : V) d x, NoDup (map fst d) ->
  (In x (dput String.eqb k v d) <-> x = (k, v) \/ (In x d /\ fst x <> k)).
Proof.
  intros V k v d x N. induction d as [|[j w] d IH]; cbn [dput In]; [split; [intros [A|[]]; auto|intros [A|[[] _]]; auto]|].
  cbn [map fst] in N. inversion_clear N as [|? ? N1 N2]. destruct (String.eqb_spec k j) as [->|D]; cbn [In].
  - split; [intros [A|A]; [auto|]; right; split; auto; intros E; apply N1; rewrite <- E; apply in_map; auto|].
    intros [A|[[A|A] B]]; auto. subst x. cbn in B. congruence.
  - rewrite IH by auto. split; [intros [A|[A|[A B]]]; auto; subst x; right; cbn; auto|intros [A|[[A|A] B]]; auto].
Qed.

(** ** Results *)

Lemma sequence_map_ok : forall {A B : Type} (f : A -> result B) g l, (forall x, In x l -> f x = Ok (g x)) -> sequence (map f l) = Ok (map g l).
Proof. intros A B f g l H. induction l as [|x l IH]; [reflexivity|]. cbn [map sequence]. rewrite (H x) by (left; auto). cbn. rewrite IH; [reflexivity|]. intros y I. apply H. right. auto. Qed.

(** ** JSON *)

Section JvInd.
Variable P : jv -> Prop.
Hypothesis HN : P JNull.
Hypothesis HB : forall b, P (JBool b).
Hypothesis HZ : forall z, P (JNum z).
Hypothesis HS : forall s, P (JStr s).
Hypothesis HL : forall l, (forall x, In x l -> P x) -> P (JList l).
Hypothesis HO : forall l, (forall k x, In (k, x) l -> P x) -> P (JObj l).
Hypothesis HM : forall n ws cs e, P e -> P (JMeta n ws cs e).

Fixpoint jv_rect_in (j : jv) : P j :=
  match j with
  | JNull => HN
  | JBool b => HB b
  | JNum z => HZ z
  | JStr s => HS s
  | JList l => HL l ((fix go (l : list jv) : forall x, In x l -> P x :=
      match l with
      | [] => fun x I => match I with end
      | y :: r => fun x I => match I with or_introl E => eq_ind y P (jv_rect_in y) x E | or_intror I' => go r x I' end
      end) l)
  | JObj l => HO l ((fix go (l : list (string * jv)) : forall k x, In (k, x) l -> P x :=
      match l with
      | [] => fun k x I => match I with end
      | (k', y) :: r => fun k x I =>
        match I with
        | or_introl E => eq_ind y P (jv_rect_in y) x (f_equal snd E)
        | or_intror I' => go r k x I'
        end
      end) l)
  | JMeta n ws cs e => HM n ws cs e (jv_rect_in e)
  end.
End JvInd.

Lemma shape_eqb_spec : forall a b, reflect (a = b) (shape_eqb a b).
Proof.
  intros a. induction a as [|x a IH]; intros [|y b]; cbn; try (constructor; congruence).
  destruct (Nat.eqb_spec x y) as [->|N]; cbn; [|constructor; congruence]. destruct (IH b); constructor; congruence.
Qed.

Lemma jv_eqb_eq : forall a b, jv_eqb a b = true <-> a = b.
Proof.
  intros a. induction a as [|x|x|x|l IH|l IH|n ws cs e IH] using jv_rect_in; intros b; destruct b as [|y|y|y|l'|l'|n' ws' cs' e']; cbn [jv_eqb];
    try (split; congruence).
  - rewrite eqb_true_iff. split; congruence.
  - rewrite Z.eqb_eq. split; congruence.
  - rewrite String.eqb_eq. split; congruence.
  - match goal with |- ?f l l' = true <-> _ => assert (R : f l l' = true <-> l = l') end.
    { revert l'. induction l as [|x l IHl]; intros [|y l']; try (split; congruence).
      rewrite andb_true_iff, (IH x (or_introl eq_refl)), (IHl (fun z I => IH z (or_intror I)) l').
      split; [intros [-> ->]; auto|intros [= -> ->]; auto]. }
    rewrite R. split; congruence.
  - match goal with |- ?f l l' = true <-> _ => assert (R : f l l' = true <-> l = l') end.
    { revert l'. induction l as [|[k x] l IHl]; intros [|[k' y] l']; try (split; congruence).
      rewrite !andb_true_iff, (IH k x (or_introl eq_refl)), (IHl (fun z w I => IH z w (or_intror I)) l'), String.eqb_eq.
      split; [intros [-> [-> ->]]; auto|intros [= -> -> ->]; auto]. }
    rewrite R. split; congruence.
  - rewrite !andb_true_iff, IH, String.eqb_eq. destruct (shape_eqb_spec ws ws'), (shape_eqb_spec cs cs'); split; intuition congruence.
Qed.

Lemma pure_list : forall l, pure (JList l) <-> forall x, In x l -> pure x.
Proof.
  intros l. split.
  - intros H x I n ws cs e J. apply (H n ws cs e). eapply inside_list; eauto.
  - intros H n ws cs e J. inversion J; subst. eapply H; eauto.
Qed.

Lemma pure_obj : forall l, pure (JObj l) <-> forall k x, In (k, x) l -> pure x.
Proof.
  intros l. split.
  - intros H k x I n ws cs e J. apply (H n ws cs e). eapply inside_obj; eauto.
  - intros H n ws cs e J. inversion J; subst. eapply H; eauto.
Qed.

Lemma pure_atom : forall j, match j with JNull | JBool _ | JNum _ | JStr _ => pure j | _ => True end.
Proof. intros [| | | | | |]; auto; intros n ws cs e J; inversion J. Qed.

Lemma plain_pure : forall j, plain j = true <-> pure j.
Proof.
  intros j. induction j as [|x|x|x|l IH|l IH|n ws cs e IH] using jv_rect_in; cbn [plain].
  1-4: split; auto; intros _; match goal with |- pure ?j => exact (pure_atom j) end.
  - rewrite forallb_forall, pure_list. split; intros H x I; apply IH; auto; apply H; auto.
  - rewrite forallb_forall, pure_obj. split.
    + intros H k x I. apply (IH k); auto. apply (H (k, x)); auto.
    + intros H [k x] I. cbn. apply (IH k); auto. apply (H k); auto.
  - split; [discriminate|]. intros H. elim (H n ws cs e). constructor.
Qed.

(** The two inner loops of [loads] *)
Definition loads_list : list jv -> result (list jv) :=
  fix go l := match l with [] => Ok [] | x :: r => rbind (loads x) (fun y => rmap (cons y) (go r)) end.
Definition loads_obj : list (string * jv) -> result (list (string * jv)) :=
  fix go l := match l with [] => Ok [] | (k, x) :: r => rbind (loads x) (fun y => rmap (cons (k, y)) (go r)) end.

Lemma loads_JList : forall l, loads (JList l) = rmap JList (loads_list l).
Proof. reflexivity. Qed.
Lemma loads_JObj : forall l, loads (JObj l) = rbind (loads_obj l) from_dict.
Proof. reflexivity. Qed.

Lemma reserved_list : forall l, reserved (JList l) <-> exists x, In x l /\ reserved x.
Proof.
  intros l. split.
  - intros (o & v & J & I). inversion J; subst. exists x. split; auto. exists o, v. auto.
  - intros (x & I & o & v & J & K). exists o, v. split; auto. eapply inside_list; eauto.
Qed.

Lemma reserved_obj : forall l, reserved (JObj l) <-> (exists v, In ("array_metadata", v) l) \/ exists k x, In (k, x) l /\ reserved x.
Proof.
  intros l. split.
  - intros (o & v & J & I). inversion J; subst; [left; eauto|]. right. exists k, x. split; auto. exists o, v. auto.
  - intros [(v & I)|(k & x & I & o & v & J & K)]; [exists l, v; split; auto; constructor|]. exists o, v. split; auto. eapply inside_obj; eauto.
Qed.

Lemma from_dict_free : forall l, ~ In "array_metadata" (map fst l) -> from_dict l = Ok (JObj l).
Proof. intros l N. unfold from_dict. rewrite (proj2 (dgnone String.eqb String.eqb_spec _ l) N). reflexivity. Qed.

(** Text without the reserved key is read as it is. *)
Lemma loads_free : forall j, pure j -> ~ reserved j -> loads j = Ok j.
Proof.
  intros j. induction j as [|x|x|x|l IH|l IH|n ws cs e IH] using jv_rect_in; intros Hp Hr; try reflexivity.
  - rewrite loads_JList. assert (E : loads_list l = Ok l).
    { rewrite pure_list in Hp. rewrite reserved_list in Hr. induction l as [|x l IHl]; [reflexivity|]. cbn [loads_list].
      rewrite (IH x); [|left; auto|apply Hp; left; auto|intros R; apply Hr; exists x; split; [left|]; auto]. cbn [rbind].
      rewrite IHl; [reflexivity|intros y I; apply IH; right; auto|intros y I; apply Hp; right; auto|intros (y & I & R); apply Hr; exists y; split; [right|]; auto]. }
    rewrite E. reflexivity.
  - rewrite loads_JObj. assert (E : loads_obj l = Ok l).
    { rewrite pure_obj in Hp. rewrite reserved_obj in Hr. assert (Hr' : ~ exists k x, In (k, x) l /\ reserved x) by tauto. clear Hr.
      induction l as [|[k x] l IHl]; [reflexivity|]. cbn [loads_obj].
      rewrite (IH k x); [|left; auto|eapply Hp; left; eauto|intros R; apply Hr'; exists k, x; split; [left|]; auto]. cbn [rbind].
      rewrite IHl; [reflexivity|intros y z I; apply (IH y); right; auto|intros y z I; eapply Hp; right; eauto|intros (y & z & I & R); apply Hr'; exists y, z; split; [right|]; auto]. }
    rewrite E. cbn [rbind]. apply from_dict_free. intros I. apply Hr. apply reserved_obj. left. apply in_map_iff in I. destruct I as [[k v] [E' I]]. cbn in E'. subst. eauto.
Qed.

Lemma from_dict_shape : forall l j, from_dict l = Ok j -> j = JObj l \/ exists n ws cs e, j = JMeta n ws cs e.
Proof.
  intros l j. unfold from_dict. destruct (dget String.eqb "array_metadata" l) as [m|]; [|intros [= <-]; auto].
  destruct (rbind (item "param_name" m) as_name) as [n|]; cbn [rbind]; [|discriminate].
  destruct (rbind (item "write_shape" m) as_shape) as [ws|]; cbn [rbind]; [|discriminate].
  destruct (rbind (item "chunk_shape" m) as_shape) as [cs|]; cbn [rbind]; [|discriminate].
  destruct (get_ext m) as [e|]; cbn [rbind]; [|discriminate]. intros [= <-]. right. eauto.
Qed.

Lemma loads_obj_keys : forall l l', loads_obj l = Ok l' -> map fst l' = map fst l.
Proof.
  intros l. induction l as [|[k x] l IH]; intros l'; cbn [loads_obj]; [intros [= <-]; auto|].
  destruct (loads x) as [y|]; cbn [rbind]; [|discriminate]. destruct (loads_obj l) as [l1|]; cbn [rmap]; [|discriminate]. intros [= <-]. cbn. f_equal. auto.
Qed.

(** Only text without the reserved key is read as itself. *)
Lemma loads_same : forall j, pure j -> loads j = Ok j -> ~ reserved j.
Proof.
  intros j. induction j as [|x|x|x|l IH|l IH|n ws cs e IH] using jv_rect_in; intros Hp E.
  1-4: intros (o & v & J & I); inversion J.
  - rewrite loads_JList in E. rewrite reserved_list. rewrite pure_list in Hp. intros (x & I & R). revert x I R.
    assert (E' : loads_list l = Ok l) by (destruct (loads_list l); cbn in E; congruence). clear E.
    induction l as [|y l IHl]; [intros x []|]. cbn [loads_list] in E'. destruct (loads y) as [y'|] eqn:Ey; cbn [rbind] in E'; [|discriminate].
    destruct (loads_list l) as [l'|] eqn:El; cbn [rmap] in E'; [|discriminate]. injection E' as -> ->.
    intros x [<-|I] R; [apply (IH y) in R; auto; [left; auto|apply Hp; left; auto]|].
    apply (IHl (fun z I => IH z (or_intror I)) (fun z I => Hp z (or_intror I)) eq_refl x I R).
  - rewrite loads_JObj in E. destruct (loads_obj l) as [l'|] eqn:El; cbn [rbind] in E; [|discriminate].
    assert (l' = l /\ ~ In "array_metadata" (map fst l)) as [-> N].
    { unfold from_dict in E. destruct (dget String.eqb "array_metadata" l') eqn:G.
      - destruct (from_dict_shape l' (JObj l)) as [A|(n & ws & cs & e & A)]; [unfold from_dict; rewrite G; auto| |discriminate].
        exfalso. clear A. destruct (rbind (item "param_name" j) as_name) as [n|]; cbn [rbind] in E; [|discriminate].
        destruct (rbind (item "write_shape" j) as_shape) as [ws|]; cbn [rbind] in E; [|discriminate].
        destruct (rbind (item "chunk_shape" j) as_shape) as [cs|]; cbn [rbind] in E; [|discriminate].
        destruct (get_ext j) as [e|]; cbn [rbind] in E; discriminate.
      - injection E as ->. split; auto. apply dgnone in G; auto. apply String.eqb_spec. }
    rewrite reserved_obj. intros [(v & I)|(k & x & I & R)]; [apply N; apply in_map_iff; exists ("array_metadata", v); auto|].
    clear N E. rewrite pure_obj in Hp. revert k x I R. induction l as [|[k y] l IHl]; [intros k x []|].
    cbn [loads_obj] in El. destruct (loads y) as [y'|] eqn:Ey; cbn [rbind] in El; [|discriminate].
    destruct (loads_obj l) as [l1|] eqn:El1; cbn [rmap] in El; [|discriminate]. injection El as -> ->.
    intros k' x [[= <- <-]|I] R; [apply (IH k y) in R; auto; [left; auto|apply (Hp k); left; auto]|].
    apply (IHl (fun z w I => IH z w (or_intror I)) (fun z w I => Hp z w (or_intror I)) eq_refl k' x I R).
  - elim (Hp n ws cs e). constructor.
Qed.

Lemma as_shape_nums : forall l, as_shape (nums l) = Ok l.
Proof.
  intros l. unfold as_shape, nums. rewrite map_map, (sequence_map_ok _ (fun n => n)); [rewrite map_id; auto|].
  intros n _. cbn. destruct (Z.leb_spec 0 (Z.of_nat n)); [rewrite Nat2Z.id; auto|lia].
Qed.

Lemma pure_nums : forall l, pure (nums l).
Proof. intros l. apply pure_list. intros x I. apply in_map_iff in I. destruct I as [n [<- _]]. apply (pure_atom (JNum _)). Qed.

Lemma free_nums : forall l, ~ reserved (nums l).
Proof. intros l R. apply reserved_list in R. destruct R as [x [I R]]. apply in_map_iff in I. destruct I as [n [<- _]]. destruct R as (o & v & J & _). inversion J. Qed.

Lemma loads_to_dict : forall m, loads (to_dict m) = rmap (JMeta (s_name m) (s_ws m) (s_cs m)) (loads (s_ext m)).
Proof.
  intros m. unfold to_dict. rewrite loads_JObj. cbn [loads_obj]. rewrite loads_JObj. cbn [loads_obj].
  rewrite (loads_free (nums (s_ws m))) by (apply pure_nums || apply free_nums).
  rewrite (loads_free (nums (s_cs m))) by (apply pure_nums || apply free_nums). cbn [loads rbind rmap].
  destruct (loads (s_ext m)) as [e|x]; cbn [rbind rmap]; [|reflexivity].
  rewrite from_dict_free by (cbn; intros [A|[A|[A|[A|[]]]]]; discriminate). cbn [rbind rmap].
  unfold from_dict. cbn [dget String.eqb Ascii.eqb Bool.eqb item rbind as_name get_ext].
  change (rbind (Ok (nums (s_ws m))) as_shape) with (as_shape (nums (s_ws m))).
  change (rbind (Ok (nums (s_cs m))) as_shape) with (as_shape (nums (s_cs m))).
  rewrite !as_shape_nums. reflexivity.
Qed.

(** What one entry becomes by writing and reading *)
Definition reload (m : sam) : result sam := rmap (mkS (s_name m) (s_ws m) (s_cs m)) (loads (s_ext m)).

Lemma deserialize_doc : forall l, deserialize (JObj [("array_metadatas", JList (map to_dict l))]) = sequence (map reload l).
Proof.
  intros l. unfold deserialize. rewrite loads_JObj. cbn [loads_obj]. rewrite loads_JList.
  assert (E : loads_list (map to_dict l) = sequence (map (fun m => rmap (JMeta (s_name m) (s_ws m) (s_cs m)) (loads (s_ext m))) l)).
  { induction l as [|m l IH]; [reflexivity|]. cbn [map sequence]. change (loads_list (to_dict m :: map to_dict l)) with (rbind (loads (to_dict m)) (fun y => rmap (cons y) (loads_list (map to_dict l)))).
    rewrite loads_to_dict, IH. destruct (loads (s_ext m)); cbn [rbind rmap]; [|reflexivity].
    destruct (sequence (map (fun m => rmap (JMeta (s_name m) (s_ws m) (s_cs m)) (loads (s_ext m))) l)); reflexivity. }
  rewrite E. clear E.
  assert (F : forall r, sequence (map (fun m => rmap (JMeta (s_name m) (s_ws m) (s_cs m)) (loads (s_ext m))) l) = Ok r -> sequence (map as_meta r) = sequence (map reload l)).
  { induction l as [|m l IH]; intros r; cbn [map sequence]; [intros [= <-]; reflexivity|].
    unfold reload at 1. destruct (loads (s_ext m)) as [e|]; cbn [rbind rmap]; [|discriminate].
    destruct (sequence (map (fun m => rmap (JMeta (s_name m) (s_ws m) (s_cs m)) (loads (s_ext m))) l)) as [r'|]; cbn [rbind rmap]; [|discriminate].
    intros [= <-]. cbn [map sequence as_meta rbind rmap]. rewrite (IH r' eq_refl). reflexivity. }
  assert (G : forall x, sequence (map (fun m => rmap (JMeta (s_name m) (s_ws m) (s_cs m)) (loads (s_ext m))) l) = Err x -> sequence (map reload l) = Err x).
  { induction l as [|m l IH]; intros x; cbn [map sequence]; [discriminate|].
    unfold reload at 1. destruct (loads (s_ext m)) as [e|]; cbn [rbind rmap]; [|congruence].
    destruct (sequence (map (fun m => rmap (JMeta (s_name m) (s_ws m) (s_cs m)) (loads (s_ext m))) l)) as [r'|]; cbn [rbind rmap]; [discriminate|].
    intros [= ->]. rewrite (IH (fun r H => ltac:(discriminate)) x eq_refl). reflexivity. }
  destruct (sequence (map (fun m => rmap (JMeta (s_name m) (s_ws m) (s_cs m)) (loads (s_ext m))) l)) as [r|x]; cbn [rmap rbind].
  - rewrite from_dict_free by (cbn; intros [A|[]]; discriminate). cbn [rbind dget String.eqb Ascii.eqb Bool.eqb]. apply F. reflexivity.
  - symmetry. apply G. reflexivity.
Qed.

Lemma plain_doc : forall l, plain (JObj [("array_metadatas", JList (map to_dict l))]) = true <-> Forall (fun m => pure (s_ext m)) l.
Proof.
  intros l. rewrite plain_pure, pure_obj, Forall_forall. split.
  - intros H m I. assert (P := H _ _ (or_introl eq_refl)). rewrite pure_list in P. specialize (P (to_dict m) (in_map _ _ _ I)).
    unfold to_dict in P. rewrite pure_obj in P. specialize (P _ _ (or_introl eq_refl)). rewrite pure_obj in P. apply (P "ext_metadata"). cbn. auto.
  - intros H k x [[= <- <-]|[]]. apply pure_list. intros x I. apply in_map_iff in I. destruct I as [m [<- I]].
    unfold to_dict. apply pure_obj. intros k x [[= <- <-]|[]]. apply pure_obj. cbn [In]. intros k x [[= <- <-]|[[= <- <-]|[[= <- <-]|[[= <- <-]|[]]]]].
    + apply (pure_atom (JStr _)).
    + apply pure_nums.
    + apply pure_nums.
    + auto.
Qed.

Lemma serialize_ok : forall l, Forall (fun m => pure (s_ext m)) l -> serialize l = Ok (JObj [("array_metadatas", JList (map to_dict l))]).
Proof. intros l H. unfold serialize, dumps. rewrite (proj2 (plain_doc l) H). reflexivity. Qed.

Lemma round_trip : forall l, Forall (fun m => pure (s_ext m)) l ->
  ((exists j, serialize l = Ok j /\ deserialize j = Ok l) <-> Forall (fun m => ~ reserved (s_ext m)) l).
Proof.
  intros l H. split.
  - intros (j & S & D). rewrite (serialize_ok l H) in S. injection S as <-. rewrite deserialize_doc in D.
    clear -H D. induction l as [|m l IH]; [constructor|]. inversion_clear H as [|? ? H1 H2]. cbn [map sequence] in D. unfold reload at 1 in D.
    destruct (loads (s_ext m)) as [e|] eqn:E; cbn [rmap rbind] in D; [|discriminate].
    destruct (sequence (map reload l)) as [l'|] eqn:El; cbn [rmap rbind] in D; [|discriminate]. injection D as A ->. constructor; [|auto].
    apply loads_same; auto. rewrite E, <- A. destruct m. cbn in *. reflexivity.
  - intros R. exists (JObj [("array_metadatas", JList (map to_dict l))]). split; [apply serialize_ok; auto|]. rewrite deserialize_doc.
    rewrite (sequence_map_ok _ (fun m => m)); [rewrite map_id; auto|]. intros m I. unfold reload.
    rewrite Forall_forall in H, R. rewrite loads_free; auto. destruct m. reflexivity.
Qed.

(** ** File names *)

Lemma prefix_app : forall p s, prefix p (p ++ s) = true.
Proof. intros p s. induction p as [|c p IH]; [destruct s; reflexivity|]. cbn. destruct (ascii_dec c c); [auto|congruence]. Qed.

Lemma substring_all : forall s, substring 0 (String.length s) s = s.
Proof. intros s. induction s as [|c s IH]; cbn; auto. f_equal. auto. Qed.

Lemma substring_app : forall p s, substring (String.length p) (String.length s) (p ++ s) = s.
Proof. intros p s. induction p as [|c p IH]; cbn; [apply substring_all|auto]. Qed.

Lemma length_append : forall a b, String.length (a ++ b) = String.length a + String.length b.
Proof. intros a b. induction a as [|c a IH]; cbn; auto. Qed.

Lemma removeprefix_app : forall p s, removeprefix p (p ++ s) = s.
Proof.
  intros p s. unfold removeprefix. rewrite prefix_app, length_append. replace (String.length p + String.length s - String.length p) with (String.length s) by lia. apply substring_app.
Qed.

Lemma index_name : forall p, get_process_index (file_name p) = Ok p.
Proof.
  intros p. unfold get_process_index, file_name. rewrite removeprefix_app, list_ascii_of_string_of_list_ascii.
  rewrite (proj2 (all_digits_spec (dec p))) by (split; [apply dec_nonempty|apply dec_digits]). rewrite parse_dec. reflexivity.
Qed.

Lemma file_name_inj : forall p q, file_name p = file_name q -> p = q.
Proof. intros p q E. assert (A := index_name p). rewrite E, index_name in A. congruence. Qed.

(** ** Writes *)

Definition doc (l : list sam) : jv := JObj [("array_metadatas", JList (map to_dict l))].

Lemma doc_back : forall l, Forall storable l -> deserialize (doc l) = Ok l.
Proof.
  intros l H. unfold doc. rewrite deserialize_doc, (sequence_map_ok _ (fun m => m)); [rewrite map_id; auto|].
  intros m I. rewrite Forall_forall in H. destruct (H m I) as (_ & P & R). unfold reload. rewrite loads_free; auto. destruct m. reflexivity.
Qed.

Lemma doc_ok : forall l, Forall storable l -> serialize l = Ok (doc l).
Proof. intros l H. apply serialize_ok. eapply Forall_impl; [|exact H]. intros m (_ & P & _). exact P. Qed.

Lemma by_app : forall p ws ws', by_process p (ws ++ ws') = (by_process p ws ++ by_process p ws')%list.
Proof. intros. unfold by_process. rewrite filter_app, map_app, concat_app. reflexivity. Qed.

Lemma by_one : forall p q ms, by_process p [(q, ms)] = if N.eqb q p then ms else [].
Proof. intros. unfold by_process. cbn. destruct (N.eqb q p); cbn; auto. apply app_nil_r. Qed.

Lemma by_none : forall p ws, ~ In p (map fst ws) -> by_process p ws = [].
Proof.
  intros p ws N. induction ws as [|[q ms] ws IH]; [reflexivity|]. change ((q, ms) :: ws) with ([(q, ms)] ++ ws)%list. rewrite by_app, by_one.
  cbn [map fst In] in N. destruct (N.eqb_spec q p); [subst; tauto|]. apply IH. tauto.
Qed.

Lemma by_storable : forall p ws, Forall (fun x => Forall storable (snd x)) ws -> Forall storable (by_process p ws).
Proof.
  intros p ws H. induction ws as [|[q ms] ws IH]; [constructor|]. inversion_clear H as [|? ? H1 H2]. change ((q, ms) :: ws) with ([(q, ms)] ++ ws)%list.
  rewrite by_app, by_one. apply Forall_app. split; [|auto]. destruct (N.eqb q p); [exact H1|constructor].
Qed.

(** The directory [f] holds what the writes [ws] wrote. *)
Definition holds (f : files) (ws : list (N * list sam)) : Prop :=
  NoDup (map fst f) /\
  forall n j, In (n, j) f <-> exists p, In p (map fst ws) /\ n = file_name p /\ j = doc (by_process p ws).

Lemma holds_get : forall f ws p, holds f ws ->
  dget String.eqb (file_name p) f = if in_dec N.eq_dec p (map fst ws) then Some (doc (by_process p ws)) else None.
Proof.
  intros f ws p [N H]. destruct (in_dec N.eq_dec p (map fst ws)) as [I|I].
  - apply dgnd; [apply String.eqb_spec|auto|]. apply H. exists p. auto.
  - apply dgnone; [apply String.eqb_spec|]. intros J. apply in_map_iff in J. destruct J as [[n j] [E J]]. cbn in E. subst n.
    apply H in J. destruct J as (q & Q & E & _). apply file_name_inj in E. subst. auto.
Qed.

Lemma write_step : forall prim f ws p ms, holds f ws -> Forall (fun x => Forall storable (snd x)) ws -> Forall storable ms ->
  exists f', write prim p ms (Some f) = Ok f' /\ holds f' (ws ++ [(p, ms)]).
Proof.
  intros prim f ws p ms H Hs Hm. assert (B : by_process p (ws ++ [(p, ms)]) = (by_process p ws ++ ms)%list) by (rewrite by_app, by_one, N.eqb_refl; auto).
  exists (dput String.eqb (file_name p) (doc (by_process p (ws ++ [(p, ms)]))) f). split.
  - unfold write. cbn [maybe_create_base_dir rbind]. rewrite (holds_get f ws p H). rewrite B.
    assert (S := by_storable p ws Hs). destruct (in_dec N.eq_dec p (map fst ws)) as [I|I].
    + rewrite doc_back by auto. cbn [rmap rbind]. rewrite doc_ok by (apply Forall_app; auto). reflexivity.
    + rewrite (by_none p ws I). cbn [rbind app]. rewrite doc_ok by auto. reflexivity.
  - destruct H as [N H]. split; [apply dpnodup; [apply String.eqb_spec|auto]|].
    intros n j. rewrite dpcons by auto. rewrite map_app. cbn [map fst]. split.
    + intros [[= -> ->]|[I D]].
      * exists p. split; [apply in_app_iff; right; left; auto|]. auto.
      * apply H in I. destruct I as (q & Q & -> & ->). exists q. cbn [fst] in D. split; [apply in_app_iff; auto|]. split; auto.
        rewrite by_app, by_one. destruct (N.eqb_spec p q); [subst; congruence|]. rewrite app_nil_r. reflexivity.
    + intros (q & Q & -> & ->). destruct (N.eq_dec q p) as [->|D]; [left; auto|]. right. cbn [fst]. split.
      * apply H. exists q. apply in_app_iff in Q. destruct Q as [Q|[Q|[]]]; [|congruence]. split; auto. split; auto.
        rewrite by_app, by_one. destruct (N.eqb_spec p q); [subst; congruence|]. rewrite app_nil_r. reflexivity.
      * intros E. apply file_name_inj in E. auto.
Qed.

Lemma run_step : forall prim ws f ws0, holds f ws0 -> Forall (fun x => Forall storable (snd x)) ws0 -> Forall (fun x => Forall storable (snd x)) ws ->
  exists f', run_writes prim ws (Some f) = Ok (Some f') /\ holds f' (ws0 ++ ws).
Proof.
  intros prim ws. induction ws as [|[p ms] ws IH]; intros f ws0 H H0 H1.
  - exists f. rewrite app_nil_r. split; auto.
  - inversion_clear H1 as [|? ? A B]. cbn in A. destruct (write_step prim f ws0 p ms H H0 A) as (f1 & W & H').
    cbn [run_writes]. rewrite W. cbn [rbind]. destruct (IH f1 (ws0 ++ [(p, ms)])%list H') as (f2 & R & H2); auto.
    { apply Forall_app. split; auto. }
    exists f2. rewrite <- app_assoc in H2. split; auto.
Qed.

Lemma holds_nil : holds [] [].
Proof. split; [constructor|]. intros n j. split; [intros []|intros (p & [] & _)]. Qed.

Lemma run_all : forall prim ws, Forall (fun x => Forall storable (snd x)) ws -> starts_primary prim ws -> ws <> [] ->
  exists f, run_writes prim ws None = Ok (Some f) /\ holds f ws.
Proof.
  intros prim ws H P NE. destruct ws as [|[p ms] ws]; [congruence|]. destruct (run_step prim ((p, ms) :: ws) [] [] holds_nil (Forall_nil _) H) as (f & R & H').
  exists f. split; auto. rewrite <- R. cbn [run_writes]. unfold write, maybe_create_base_dir, is_primary_host.
  destruct (P p ms ws eq_refl) as [->| ->]; [|rewrite N.eqb_refl]; reflexivity.
Qed.

Lemma run_refused : forall prim p ms ws, prim <> None -> prim <> Some p -> run_writes prim ((p, ms) :: ws) None = Err ValueError.
Proof.
  intros prim p ms ws A B. cbn [run_writes]. unfold write, maybe_create_base_dir, is_primary_host. destruct prim as [h|]; [|congruence].
  destruct (N.eqb_spec h p); [subst; congruence|]. reflexivity.
Qed.

Lemma run_holds : forall prim ws d, Forall (fun x => Forall storable (snd x)) ws -> run_writes prim ws None = Ok d ->
  match d with None => ws = [] | Some f => ws <> [] /\ holds f ws end.
Proof.
  intros prim ws d H R. destruct ws as [|[p ms] ws]; [injection R as <-; auto|].
  assert (P : starts_primary prim ((p, ms) :: ws)).
  { intros q ms' rest [= <- <- <-]. destruct prim as [h|]; [|auto]. destruct (N.eq_dec h p) as [->|N]; [auto|].
    rewrite run_refused in R; congruence. }
  destruct (run_all prim _ H P) as (f & R' & Hf); [discriminate|]. rewrite R in R'. injection R' as ->. split; [discriminate|auto].
Qed.

Lemma read_one_run : forall prim ws d p, Forall (fun x => Forall storable (snd x)) ws -> run_writes prim ws None = Ok d ->
  (In p (map fst ws) -> read_one d p = Ok (Some (by_process p ws))) /\ (~ In p (map fst ws) -> read_one d p = Ok None).
Proof.
  intros prim ws d p H R. assert (X := run_holds prim ws d H R). destruct d as [f|].
  - destruct X as [_ Hf]. unfold read_one. rewrite (holds_get f ws p Hf). destruct (in_dec N.eq_dec p (map fst ws)) as [I|I]; split; intros J; try tauto.
    rewrite doc_back by (apply by_storable; auto). reflexivity.
  - subst ws. cbn. split; [intros []|auto].
Qed.

Lemma perm_filter : forall {A : Type} (f : A -> bool) l l', Permutation l l' -> Permutation (filter f l) (filter f l').
Proof.
  intros A f l l' P. induction P; cbn [filter]; auto.
  - destruct (f x); auto.
  - destruct (f x), (f y); auto. constructor.
  - eapply Permutation_trans; eauto.
Qed.

Lemma filter_id : forall {A : Type} (f : A -> bool) l, (forall x, In x l -> f x = true) -> filter f l = l.
Proof. intros A f l H. induction l as [|x l IH]; [reflexivity|]. cbn. rewrite H by (left; auto). f_equal. apply IH. intros y I. apply H. right. auto. Qed.

Lemma filter_nil : forall {A : Type} (f : A -> bool) l, (forall x, In x l -> f x = false) -> filter f l = [].
Proof. intros A f l H. induction l as [|x l IH]; [reflexivity|]. cbn. rewrite H by (left; auto). apply IH. intros y I. apply H. right. auto. Qed.

(** What reading all files gives *)
Definition contents (ws : list (N * list sam)) (qs : list N) : dict N (list sam) := map (fun p => (p, by_process p ws)) qs.

Lemma read_back : forall f ws listing, holds f ws -> Forall (fun x => Forall storable (snd x)) ws -> lists listing f ->
  exists qs, NoDup qs /\ (forall p, In p qs <-> In p (map fst ws)) /\
    read_all listing = Ok (match qs with [] => None | _ => Some (contents ws qs) end).
Proof.
  intros f ws listing [N H] Hs (others & P & O).
  assert (F : Permutation (filter (fun x => prefix file_prefix (fst x)) listing) f).
  { eapply Permutation_trans; [apply perm_filter, P|]. rewrite filter_app, filter_id, filter_nil, app_nil_r; [auto| |].
    - intros [n j] I. apply (O n j I).
    - intros [n j] I. apply H in I. destruct I as (p & _ & -> & _). apply prefix_app. }
  unfold read_all. set (found := filter (fun x => prefix file_prefix (fst x)) listing) in *.
  assert (E : exists qs, found = map (fun p => (file_name p, doc (by_process p ws))) qs).
  { assert (A : forall x, In x found -> exists p, x = (file_name p, doc (by_process p ws))).
    { intros [n j] I. apply (Permutation_in _ F) in I. apply H in I. destruct I as (p & _ & -> & ->). eauto. }
    clear -A. induction found as [|x l IH]; [exists []; auto|]. destruct (A x (or_introl eq_refl)) as [p ->].
    destruct IH as [qs ->]; [intros y I; apply A; right; auto|]. exists (p :: qs). auto. }
  destruct E as [qs E]. exists qs.
  assert (Nq : NoDup qs).
  { apply (NoDup_map_inv file_name). apply (Permutation_map fst) in F. apply Permutation_sym in F. assert (N' := Permutation_NoDup F N). rewrite E, map_map in N'. exact N'. }
  split; [auto|]. split.
  - intros p. split.
    + intros I. assert (J : In (file_name p, doc (by_process p ws)) f) by (apply (Permutation_in _ F); rewrite E; apply in_map_iff; eauto).
      apply H in J. destruct J as (q & Q & En & _). apply file_name_inj in En. subst. auto.
    + intros I. assert (J : In (file_name p, doc (by_process p ws)) found) by (apply (Permutation_in _ (Permutation_sym F)); apply H; eauto).
      rewrite E in J. apply in_map_iff in J. destruct J as (q & Eq & Q). apply (f_equal fst) in Eq. cbn [fst] in Eq. apply file_name_inj in Eq. subst. auto.
  - rewrite E, map_map. cbn [fst snd]. rewrite (sequence_map_ok _ (fun p => (file_name p, by_process p ws))).
    2: { intros p _. rewrite doc_back by (apply by_storable; auto). reflexivity. }
    cbn [rbind]. rewrite map_map. cbn [fst snd]. rewrite (sequence_map_ok _ (fun p => (p, by_process p ws))).
    2: { intros p _. rewrite index_name. reflexivity. }
    cbn [rbind]. rewrite dof_id; [destruct qs; reflexivity|apply N.eqb_spec|]. rewrite map_map. cbn. rewrite map_id. auto.
Qed.

(** ** The check *)

Lemma cache_counts : forall l n m, dget String.eqb n (cache l) = Some m <-> counts l n m.
Proof.
  intros l n m. unfold cache. rewrite (dof_final String.eqb String.eqb_spec). unfold final, counts. split.
  - intros (a & b & E & I). apply map_eq_app in E. destruct E as (a' & b' & -> & Ea & Eb). destruct b' as [|m' b']; [discriminate|].
    cbn [map] in Eb. injection Eb as En -> Eb. exists a', b'. split; auto. split; auto. subst b. rewrite map_map in I. exact I.
  - intros (a & b & -> & E & I). exists (map (fun m => (s_name m, m)) a), (map (fun m => (s_name m, m)) b). rewrite map_app. cbn [map]. rewrite E. split; auto. rewrite map_map. exact I.
Qed.

Lemma cache_keys : forall l n, In n (map fst (cache l)) <-> In n (map s_name l).
Proof. intros l n. unfold cache. rewrite (dof_keys String.eqb String.eqb_spec), map_map. reflexivity. Qed.

Lemma counts_exists : forall l n, In n (map s_name l) -> exists m, counts l n m.
Proof. intros l n I. apply cache_keys in I. apply (dgsome String.eqb String.eqb_spec) in I. destruct I as [m E]. exists m. apply cache_counts, E. Qed.

Lemma counts_fun : forall l n m m', counts l n m -> counts l n m' -> m = m'.
Proof. intros l n m m' A B. apply cache_counts in A, B. congruence. Qed.

Lemma counts_in : forall l n m, counts l n m -> In m l /\ s_name m = n.
Proof. intros l n m (a & b & -> & E & _). split; auto. apply in_app_iff. right. left. auto. Qed.

Lemma stores_get : forall m l v, s_ext m = JObj l -> (stores_impl m v <-> get_impl l = v).
Proof.
  intros m l v E. unfold stores_impl, get_impl. fold RANDOM_KEY_IMPL. split.
  - intros (l' & E' & H). rewrite E in E'. injection E' as <-. destruct H as [(a & b & -> & N)|(-> & N)].
    + assert (G : dget String.eqb RANDOM_KEY_IMPL (a ++ (RANDOM_KEY_IMPL, v) :: b)%list = Some v); [|rewrite G; auto].
      clear -N. induction a as [|[k x] a IH]; [reflexivity|]. cbn [map fst In] in N. cbn [app dget]. destruct (String.eqb_spec RANDOM_KEY_IMPL k); [subst; tauto|]. tauto.
    + rewrite (proj2 (dgnone String.eqb String.eqb_spec RANDOM_KEY_IMPL l) N). reflexivity.
  - intros G. exists l. split; auto. destruct (dget String.eqb RANDOM_KEY_IMPL l) as [w|] eqn:D.
    + subst w. left. clear E. induction l as [|[k x] l IH]; [discriminate|]. cbn [dget] in D. destruct (String.eqb_spec RANDOM_KEY_IMPL k) as [<-|K].
      * injection D as ->. exists [], l. split; auto.
      * destruct (IH D) as (a & b & -> & N). exists ((k, x) :: a), b. split; auto. cbn. intros [A|A]; auto.
    + right. split; auto. apply (dgnone String.eqb String.eqb_spec). exact D.
Qed.

Lemma agree_checks : forall a b, typed a -> typed b ->
  (agree a b <-> s_cs a = s_cs b /\ s_ws a = s_ws b /\ isinstance_of (s_ext a) (s_ext b) = true /\ impl_differs (s_ext b) (s_ext a) = false).
Proof.
  intros a b Ta Tb. unfold agree. destruct Ta as [A|[la A]], Tb as [B|[lb B]].
  - rewrite A, B. cbn. split; [intros (X & Y & _ & _); auto|intros (X & Y & _ & _)]. repeat (split; [tauto|]).
    intros v. split; intros (l & E & _); congruence.
  - rewrite A, B. cbn. split; [intros (_ & _ & X & _)|intros (_ & _ & X & _)]; [destruct X as [X _]; specialize (X eq_refl); discriminate|discriminate].
  - rewrite A, B. cbn. split; [intros (_ & _ & X & _)|intros (_ & _ & X & _)]; [destruct X as [_ X]; specialize (X eq_refl); discriminate|discriminate].
  - assert (Eq : (forall v, stores_impl a v <-> stores_impl b v) <-> get_impl lb = get_impl la).
    { split.
      - intros H. apply (stores_get b lb _ B). apply H. apply (stores_get a la _ A). reflexivity.
      - intros H v. rewrite (stores_get a la _ A), (stores_get b lb _ B), H. reflexivity. }
    rewrite Eq, A, B. cbn [isinstance_of impl_differs]. rewrite negb_false_iff, jv_eqb_eq. split; [tauto|]. intros (X & Y & _ & Z). split; auto. split; auto. split; auto. split; congruence.
Qed.

Lemma metadata_ok : forall ref c, validate_metadata ref c = Ok tt <->
  forall n m, In (n, m) c -> exists r, dget String.eqb n ref = Some r /\ s_cs m = s_cs r /\ s_ws m = s_ws r /\
    isinstance_of (s_ext m) (s_ext r) = true /\ impl_differs (s_ext r) (s_ext m) = false.
Proof.
  intros ref c. induction c as [|[n m] c IH]; cbn [validate_metadata]; [split; [intros _ n m []|auto]|].
  destruct (dget String.eqb n ref) as [r|] eqn:G.
  2: { split; [discriminate|]. intros H. destruct (H n m (or_introl eq_refl)) as (r & E & _). congruence. }
  assert (K : forall X : Prop, ~ (s_cs m = s_cs r /\ s_ws m = s_ws r /\ isinstance_of (s_ext m) (s_ext r) = true /\ impl_differs (s_ext r) (s_ext m) = false) ->
    (forall n0 m0, In (n0, m0) ((n, m) :: c) -> exists r0, dget String.eqb n0 ref = Some r0 /\ s_cs m0 = s_cs r0 /\ s_ws m0 = s_ws r0 /\
      isinstance_of (s_ext m0) (s_ext r0) = true /\ impl_differs (s_ext r0) (s_ext m0) = false) -> X).
  { intros X N H. exfalso. destruct (H n m (or_introl eq_refl)) as (r' & E & Y). apply N. rewrite G in E. injection E as <-. exact Y. }
  destruct (shape_eqb_spec (s_cs m) (s_cs r)) as [E1|E1]; cbn [negb]; [|split; [discriminate|apply K; tauto]].
  destruct (shape_eqb_spec (s_ws m) (s_ws r)) as [E2|E2]; cbn [negb]; [|split; [discriminate|apply K; tauto]].
  destruct (isinstance_of (s_ext m) (s_ext r)) eqn:E3; cbn [negb]; [|split; [discriminate|apply K; intuition congruence]].
  destruct (impl_differs (s_ext r) (s_ext m)) eqn:E4; [split; [discriminate|apply K; intuition congruence]|].
  rewrite IH. split.
  - intros H n0 m0 [[= <- <-]|I]; [exists r; auto|apply H; auto].
  - intros H n0 m0 I. apply H. right. auto.
Qed.

Lemma metadata_err : forall ref c e, (forall n, In n (map fst c) -> In n (map fst ref)) -> validate_metadata ref c = Err e -> e = ValueError.
Proof.
  intros ref c e. induction c as [|[n m] c IH]; cbn [validate_metadata]; intros H; [discriminate|].
  destruct (dget String.eqb n ref) as [r|] eqn:G.
  2: { apply (dgnone String.eqb String.eqb_spec) in G. elim G. apply H. left. auto. }
  destruct (negb _); [congruence|]. destruct (negb _); [congruence|]. destruct (negb _); [congruence|]. destruct (impl_differs _ _); [congruence|].
  apply IH. intros k I. apply H. right. auto.
Qed.

Lemma keys_missing_spec : forall a b, keys_missing a b = false <-> forall n, In n (map fst a) -> In n (map fst b).
Proof.
  intros a b. unfold keys_missing. induction a as [|[n m] a IH]; cbn [existsb fst map In]; [split; [intros _ n []|auto]|].
  rewrite orb_false_iff, IH. destruct (dget String.eqb n b) eqn:G.
  - apply (dgin String.eqb String.eqb_spec) in G. apply (in_map fst) in G. cbn in G. split; [intros [_ H] k [<-|I]; auto|intros H; split; auto].
  - apply (dgnone String.eqb String.eqb_spec) in G. split; [intros [X _]; discriminate|intros H; elim G; auto].
Qed.

(** The checks of one process against the reference *)
Definition pair_checks (ref ms : list sam) : result unit :=
  rbind (validate_param_count ref ms) (fun _ =>
  rbind (validate_params (cache ref) (cache ms)) (fun _ => validate_metadata (cache ref) (cache ms))).

Lemma pair_err : forall ref ms e, pair_checks ref ms = Err e -> e = ValueError.
Proof.
  intros ref ms e. unfold pair_checks, validate_param_count, validate_params. destruct (Nat.eqb _ _); cbn [rbind]; [|congruence].
  destruct (keys_missing (cache ref) (cache ms)) eqn:A; cbn [rbind]; [congruence|]. destruct (keys_missing (cache ms) (cache ref)) eqn:B; cbn [rbind]; [congruence|].
  apply metadata_err. apply keys_missing_spec, B.
Qed.

Lemma pair_ok : forall ref ms, Forall typed ref -> Forall typed ms -> (pair_checks ref ms = Ok tt <-> same_metadata ref ms).
Proof.
  intros ref ms Tr Tm. rewrite Forall_forall in Tr, Tm. unfold pair_checks, validate_param_count, validate_params, same_metadata.
  destruct (Nat.eqb_spec (List.length ref) (List.length ms)) as [L|L]; cbn [rbind]; [|split; [discriminate|tauto]].
  assert (KA := keys_missing_spec (cache ref) (cache ms)). assert (KB := keys_missing_spec (cache ms) (cache ref)).
  destruct (keys_missing (cache ref) (cache ms)); cbn [rbind].
  { split; [discriminate|]. intros (_ & H & _). enough (true = false) by discriminate. apply KA. intros n. rewrite !cache_keys. apply H. }
  destruct (keys_missing (cache ms) (cache ref)); cbn [rbind].
  { split; [discriminate|]. intros (_ & H & _). enough (true = false) by discriminate. apply KB. intros n. rewrite !cache_keys. apply H. }
  assert (A := proj1 KA eq_refl). assert (B := proj1 KB eq_refl). clear KA KB.
  rewrite metadata_ok. split.
  - intros H. split; auto. split; [intros n; rewrite <- !cache_keys; split; auto|]. intros n r m Cr Cm.
    assert (G := proj2 (cache_counts _ _ _) Cm). apply (dgin String.eqb String.eqb_spec) in G. destruct (H n m G) as (r' & G' & X).
    assert (G2 := proj2 (cache_counts _ _ _) Cr). rewrite G2 in G'. injection G' as <-.
    assert (Y : agree m r) by (apply agree_checks; auto; [apply Tm|apply Tr]; eapply counts_in; eauto).
    destruct Y as (Y1 & Y2 & Y3 & Y4). split; [auto|]. split; [auto|]. split; [tauto|]. intros v. symmetry. apply Y4.
  - intros (_ & K & H) n m I. assert (Cm : counts ms n m).
    { apply cache_counts. apply (dgnd String.eqb String.eqb_spec); auto. apply dof_nodup. apply String.eqb_spec. }
    destruct (counts_exists ref n) as [r Cr]. { apply K. destruct (counts_in _ _ _ Cm) as [J <-]. apply in_map. auto. }
    exists r. split; [apply cache_counts; auto|]. apply agree_checks; [apply Tm|apply Tr|]; try (eapply counts_in; eauto).
    destruct (H n r m Cr Cm) as (Y1 & Y2 & Y3 & Y4). split; [auto|]. split; [auto|]. split; [tauto|]. intros v. symmetry. apply Y4.
Qed.

Lemma same_refl : forall l, same_metadata l l.
Proof. intros l. split; auto. split; [reflexivity|]. intros n m m' A B. rewrite (counts_fun _ _ _ _ A B). unfold agree. intuition. Qed.

Lemma agree_sym : forall a b, agree a b -> agree b a.
Proof. intros a b (A & B & C & D). split; auto. split; auto. split; [tauto|]. intros v. symmetry. apply D. Qed.

Lemma same_sym : forall l l', same_metadata l l' -> same_metadata l' l.
Proof. intros l l' (A & B & C). split; auto. split; [intros n; symmetry; auto|]. intros n m m' X Y. apply agree_sym. eapply C; eauto. Qed.

Lemma same_trans : forall a b c, same_metadata a b -> same_metadata b c -> same_metadata a c.
Proof.
  intros a b c (A1 & B1 & C1) (A2 & B2 & C2). split; [congruence|]. split; [intros n; rewrite B1; auto|].
  intros n m m' X Y. destruct (counts_exists b n) as [k K]. { apply B1. destruct (counts_in _ _ _ X) as [I <-]. apply in_map. auto. }
  destruct (C1 n m k X K) as (P1 & P2 & P3 & P4), (C2 n k m' K Y) as (Q1 & Q2 & Q3 & Q4).
  split; [congruence|]. split; [congruence|]. split; [tauto|]. intros v. rewrite P4. auto.
Qed.

Lemma rest_ok : forall r ref l, Forall typed ref -> (forall p ms, In (p, ms) l -> Forall typed ms) -> 
  (validate_rest r ref l = Ok tt <-> forall p ms, In (p, ms) l -> p <> r -> same_metadata ref ms).
Proof.
  intros r ref l Tr. induction l as [|[p ms] l IH]; intros T; cbn [validate_rest]; [split; [intros _ p ms []|auto]|].
  assert (T' : forall p ms, In (p, ms) l -> Forall typed ms) by (intros q x I; eapply T; right; eauto). specialize (IH T').
  destruct (N.eqb_spec p r) as [->|D].
  - rewrite IH. split; [intros H q x [[= <- <-]|I] N; [congruence|eauto]|intros H q x I N; eapply H; [right|]; eauto].
  - assert (P := pair_ok ref ms Tr (T p ms (or_introl eq_refl))). unfold pair_checks in P.
    destruct (validate_param_count ref ms) as [[]|]; cbn [rbind] in *.
    2: { split; [discriminate|]. intros H. apply P. eapply H; eauto. left. auto. }
    destruct (validate_params (cache ref) (cache ms)) as [[]|]; cbn [rbind] in *.
    2: { split; [discriminate|]. intros H. apply P. eapply H; eauto. left. auto. }
    destruct (validate_metadata (cache ref) (cache ms)) as [[]|]; cbn [rbind] in *.
    2: { split; [discriminate|]. intros H. apply P. eapply H; eauto. left. auto. }
    rewrite IH. split; [intros H q x [[= <- <-]|I] N; [tauto|eauto]|intros H q x I N; eapply H; [right|]; eauto].
Qed.

Lemma rest_err : forall r ref l e, validate_rest r ref l = Err e -> e = ValueError.
Proof.
  intros r ref l e. induction l as [|[p ms] l IH]; cbn [validate_rest]; [discriminate|]. destruct (N.eqb p r); auto.
  assert (P := pair_err ref ms). unfold pair_checks in P.
  destruct (validate_param_count ref ms) as [[]|]; cbn [rbind] in *; [|intros [= <-]; auto].
  destruct (validate_params (cache ref) (cache ms)) as [[]|]; cbn [rbind] in *; [|intros [= <-]; auto].
  destruct (validate_metadata (cache ref) (cache ms)) as [[]|]; cbn [rbind] in *; [auto|intros [= <-]; auto].
Qed.

Lemma validate_exact : forall pc d, NoDup (map fst d) -> (forall p l, In (p, l) d -> Forall typed l) -> d <> [] ->
  (validate_all_array_metadatas pc d = Ok tt <-> consistent pc d).
Proof.
  intros pc d N T NE. destruct d as [|[r ref] rest]; [congruence|]. cbn [validate_all_array_metadatas].
  destruct ref as [|m0 ref']; [split; [discriminate|intros (H & _); elim (H r []); [left|]; auto]|]. set (ref := m0 :: ref') in *.
  assert (Tr : Forall typed ref) by (apply (T r); left; auto).
  destruct rest as [|x rest'].
  - unfold validate_process_count, consistent. destruct (N.eqb_spec pc 1) as [->|D].
    + split; [intros _|auto]. split; [intros p l [[= <- <-]|[]]; discriminate|]. split; [intros p l q l' [[= <- <-]|[]] [[= <- <-]|[]]; apply same_refl|auto].
    + split; [discriminate|]. intros (_ & _ & H). elim D. apply H. reflexivity.
  - set (rest := x :: rest') in *. rewrite rest_ok by auto. cbn [map fst] in N. inversion_clear N as [|? ? N1 N2]. split.
    + intros H. assert (S : forall p l, In (p, l) ((r, ref) :: rest) -> same_metadata ref l).
      { intros p l [[= <- <-]|I]; [apply same_refl|]. apply (H p l); [right; auto|]. intros ->. apply N1. apply (in_map fst) in I. exact I. }
      split; [|split].
      * intros p l I ->. destruct (S p [] I) as (L & _). discriminate.
      * intros p l q l' I I'. eapply same_trans; [apply same_sym|]; eauto.
      * discriminate.
    + intros (_ & H & _) p ms I _. eapply (H r ref); [left; auto|eauto].
Qed.

Lemma validate_err : forall pc d e, d <> [] -> validate_all_array_metadatas pc d = Err e -> e = ValueError.
Proof.
  intros pc d e NE. destruct d as [|[r ref] rest]; [congruence|]. cbn [validate_all_array_metadatas]. destruct ref; [congruence|].
  destruct rest; [unfold validate_process_count; destruct (N.eqb pc 1); congruence|]. apply rest_err.
Qed.

Lemma consistent_perm : forall pc d d', Permutation d d' -> consistent pc d -> consistent pc d'.
Proof.
  intros pc d d' P (A & B & C). assert (I := fun x => Permutation_in (l := d') (l' := d) x (Permutation_sym P)). split; [|split].
  - intros p l H. apply (A p). auto.
  - intros p l q l' H H'. apply (B p l q l'); auto.
  - rewrite <- (Permutation_length P). auto.
Qed.

Lemma storable_typed : forall l, Forall storable l -> Forall typed l.
Proof. intros l H. eapply Forall_impl; [|exact H]. intros m (T & _). exact T. Qed.

Lemma contents_in : forall ws qs p l, In (p, l) (contents ws qs) <-> In p qs /\ l = by_process p ws.
Proof.
  intros ws qs p l. unfold contents. rewrite in_map_iff. split.
  - intros (q & [= -> <-] & I). auto.
  - intros [I ->]. exists p. auto.
Qed.

Lemma contents_keys : forall ws qs, map fst (contents ws qs) = qs.
Proof. intros. unfold contents. rewrite map_map. cbn. apply map_id. Qed.

Lemma read_all_run : forall prim ws f listing, Forall (fun x => Forall storable (snd x)) ws -> run_writes prim ws None = Ok (Some f) -> lists listing f ->
  exists r, read_all listing = Ok (Some r) /\ NoDup (map fst r) /\
    forall p l, In (p, l) r <-> In p (map fst ws) /\ l = by_process p ws.
Proof.
  intros prim ws f listing H R L. destruct (run_holds prim ws _ H R) as [NE Hf]. destruct (read_back f ws listing Hf H L) as (qs & N & I & E).
  exists (contents ws qs). split.
  - rewrite E. destruct qs as [|q qs]; [|reflexivity]. destruct ws as [|[p ms] ws]; [congruence|]. elim (proj2 (I p)). left. auto.
  - rewrite contents_keys. split; auto. intros p l. rewrite contents_in, I. reflexivity.
Qed.

Lemma finalize_exact : forall h ws f pc listing, Forall (fun x => Forall storable (snd x)) ws -> run_writes (Some h) ws None = Ok (Some f) -> lists listing f ->
  (finalize (Some h) h pc listing = Ok tt <->
     (forall p, In p (map fst ws) -> by_process p ws <> []) /\
     (forall p q, In p (map fst ws) -> In q (map fst ws) -> same_metadata (by_process p ws) (by_process q ws)) /\
     ((forall p q, In p (map fst ws) -> In q (map fst ws) -> p = q) -> pc = 1%N)).
Proof.
  intros h ws f pc listing H R L. destruct (read_all_run _ ws f listing H R L) as (r & E & N & I).
  assert (NEw : ws <> []) by (apply (run_holds _ ws _ H R)).
  assert (NE : r <> []). { intros ->. destruct ws as [|[p ms] ws]; [congruence|]. assert (J : In (p, by_process p ((p, ms) :: ws)) []) by (apply I; split; [left|]; auto). destruct J. }
  unfold finalize, is_primary_host. rewrite N.eqb_refl. unfold validate_listing. rewrite E. cbn [rbind].
  rewrite validate_exact; auto.
  2: { intros p l J. apply I in J. destruct J as [_ ->]. apply storable_typed, by_storable, H. }
  assert (One : List.length r = 1 <-> forall p q, In p (map fst ws) -> In q (map fst ws) -> p = q).
  { split.
    - intros Hl p q P Q. assert (P' : In (p, by_process p ws) r) by (apply I; auto). assert (Q' : In (q, by_process q ws) r) by (apply I; auto).
      destruct r as [|x [|y r]]; try discriminate. destruct P' as [->|[]], Q' as [E'|[]]. congruence.
    - intros Hl. destruct r as [|[p l] [|[q l'] r]]; [congruence|reflexivity|]. exfalso. cbn [map fst] in N. inversion_clear N as [|? ? N1 N2].
      apply N1. left. apply Hl; [apply (proj1 (I q l'))|apply (proj1 (I p l))]; cbn; auto. }
  unfold consistent. rewrite One. split.
  - intros (A & B & C). split; [intros p P; apply (A p); apply I; auto|]. split; [|auto]. intros p q P Q. apply (B p _ q _); apply I; auto.
  - intros (A & B & C). split; [intros p l J; apply I in J; destruct J as [J ->]; auto|]. split; [|auto].
    intros p l q l' J J'. apply I in J, J'. destruct J as [J ->], J' as [J' ->]. auto.
Qed.

(** ** Random keys *)

Lemma wrap_same : forall {D : Type} l l' n (v : D), same_metadata l l' -> Forall typed l -> Forall typed l' ->
  wrap_one (cache l) n v = wrap_one (cache l') n v.
Proof.
  intros D l l' n v (_ & K & A) T T'. rewrite Forall_forall in T, T'. unfold wrap_one. destruct (dget String.eqb n (cache l)) as [m|] eqn:G.
  - assert (C := proj1 (cache_counts _ _ _) G). assert (I := counts_in _ _ _ C). destruct (counts_exists l' n) as [m' C'].
    { apply K. destruct I as [I <-]. apply in_map. auto. }
    rewrite (proj2 (cache_counts _ _ _) C'). assert (I' := counts_in _ _ _ C'). destruct (A n m m' C C') as (_ & _ & E & S).
    destruct (T m (proj1 I)) as [X|[x X]], (T' m' (proj1 I')) as [Y|[y Y]]; rewrite X, Y.
    + reflexivity.
    + rewrite X, Y in E. destruct E as [E _]. specialize (E eq_refl). discriminate.
    + rewrite X, Y in E. destruct E as [_ E]. specialize (E eq_refl). discriminate.
    + assert (Q : get_impl x = get_impl y). { symmetry. apply (stores_get m' y _ Y). apply S. apply (stores_get m x _ X). reflexivity. }
      rewrite Q. reflexivity.
  - apply (dgnone String.eqb String.eqb_spec) in G. rewrite cache_keys, K, <- cache_keys in G. apply (dgnone String.eqb String.eqb_spec) in G. rewrite G. reflexivity.
Qed.

Lemma wrap_loop_same : forall {D : Type} l l' names (vs : list D), same_metadata l l' -> Forall typed l -> Forall typed l' ->
  wrap_loop (cache l) names vs = wrap_loop (cache l') names vs.
Proof.
  intros D l l' names. induction names as [|n ns IH]; intros [|v vs] S T T'; try reflexivity. cbn [wrap_loop].
  rewrite (wrap_same l l') by auto. rewrite (IH vs) by auto. reflexivity.
Qed.

Lemma restore_order : forall {D : Type} h ws f pc l0 l1 l2 names (vs : list D), Forall (fun x => Forall storable (snd x)) ws ->
  run_writes (Some h) ws None = Ok (Some f) -> lists l0 f -> lists l1 f -> lists l2 f ->
  finalize (Some h) h pc l0 = Ok tt -> restore l1 names vs = restore l2 names vs.
Proof.
  intros D h ws f pc l0 l1 l2 names vs H R L0 L1 L2 F. apply (finalize_exact h ws f pc l0 H R L0) in F. destruct F as (_ & S & _).
  unfold restore. destruct (read_all_run _ ws f l1 H R L1) as (r1 & -> & _ & I1), (read_all_run _ ws f l2 H R L2) as (r2 & -> & _ & I2). cbn [rbind].
  destruct r1 as [|[p1 m1] r1], r2 as [|[p2 m2] r2]; cbn [wrap_random_key_data]; [reflexivity| | |].
  - destruct (proj2 (I1 p2 m2)). apply I2. left. auto.
  - destruct (proj2 (I2 p1 m1)). apply I1. left. auto.
  - destruct (proj1 (I1 p1 m1) (or_introl eq_refl)) as [J1 ->], (proj1 (I2 p2 m2) (or_introl eq_refl)) as [J2 ->].
    apply wrap_loop_same; [auto|apply storable_typed, by_storable, H|apply storable_typed, by_storable, H].
Qed.

(** ** Batches *)

Lemma perm_partition : forall {A : Type} (f g h : A -> bool) l, (forall x, In x l -> (f x = true /\ g x = false /\ h x = false) \/ (f x = false /\ g x = true /\ h x = false) \/ (f x = false /\ g x = false /\ h x = true)) ->
  Permutation (filter f l ++ filter g l ++ filter h l) l.
Proof.
  intros A f g h l H. induction l as [|x l IH]; [constructor|]. assert (IH' := IH (fun y I => H y (or_intror I))). clear IH.
  cbn [filter]. destruct (H x (or_introl eq_refl)) as [(-> & -> & ->)|[(-> & -> & ->)|(-> & -> & ->)]].
  - constructor. auto.
  - apply Permutation_sym. eapply Permutation_trans; [constructor; apply Permutation_sym; exact IH'|]. apply Permutation_middle.
  - apply Permutation_sym. eapply Permutation_trans; [constructor; apply Permutation_sym; exact IH'|]. rewrite !app_assoc. apply Permutation_middle.
Qed.

Lemma plan_perm : forall {A : Type} limited prio split (ps : list A) batches, (forall l, List.concat (split l) = l) ->
  plan limited prio split ps = Ok batches -> Permutation (List.concat batches) ps.
Proof.
  intros A limited prio split ps batches S. unfold plan. destruct limited.
  - destruct (existsb _ ps) eqn:X; [discriminate|]. intros [= <-].
    set (a := filter (fun p => priority_eqb (prio p) SYNCHRONOUS) ps). set (b := filter (fun p => priority_eqb (prio p) ASYNCHRONOUS_PRIORITIZED) ps).
    set (c := filter (fun p => priority_eqb (prio p) ASYNCHRONOUS_DEPRIORITIZED) ps).
    assert (E : List.concat (match a with [] => [] | _ => [a] end ++ match (b ++ c)%list with [] => [] | _ => split (b ++ c)%list end)%list = (a ++ b ++ c)%list).
    { rewrite concat_app. f_equal.
      - destruct a; [reflexivity|]. cbn [List.concat]. apply app_nil_r.
      - destruct (b ++ c)%list eqn:E; [reflexivity|]. apply S. }
    assert (E' : forall l1 l2 : list A, match l1 with [] => [] | _ :: _ => [l1] end = match l1 with [] => [] | l => [l] end) by (intros [|]; reflexivity).
    match goal with |- Permutation ?x _ => replace x with (a ++ b ++ c)%list end.
    + apply perm_partition. intros x I. destruct (prio x) eqn:P; cbn; auto.
      assert (Z : existsb (fun p => priority_eqb (prio p) UNKNOWN) ps = true) by (apply existsb_exists; exists x; split; auto; rewrite P; reflexivity). congruence.
    + rewrite <- E. destruct a, (b ++ c)%list; reflexivity.
  - intros [= <-]. destruct ps; [constructor|]. cbn [List.concat]. rewrite app_nil_r. apply Permutation_refl.
Qed.

Lemma plan_err : forall {A : Type} limited prio split (ps : list A),
  (exists e, plan limited prio split ps = Err e) <-> limited = true /\ exists x, In x ps /\ prio x = UNKNOWN.
Proof.
  intros A limited prio split ps. unfold plan. destruct limited; [|split; [intros [e E]; discriminate|intros [E _]; discriminate]].
  destruct (existsb _ ps) eqn:X.
  - apply existsb_exists in X. destruct X as (x & I & E). split; [intros _|eauto]. split; auto. exists x. split; auto. destruct (prio x); auto; discriminate.
  - split; [intros [e E]; discriminate|]. intros (_ & x & I & E). assert (Z : existsb (fun p => priority_eqb (prio p) UNKNOWN) ps = true) by (apply existsb_exists; exists x; split; auto; rewrite E; reflexivity). congruence.
Qed.

(** The arrays to be copied at once are in the first batch, and the prioritized ones come before the others. *)
Lemma plan_order : forall {A : Type} prio split (ps : list A) batches, (forall l, List.concat (split l) = l) ->
  plan true prio split ps = Ok batches ->
  exists a b c, List.concat batches = (a ++ b ++ c)%list /\
    (forall x, In x a <-> In x ps /\ prio x = SYNCHRONOUS) /\
    (forall x, In x b <-> In x ps /\ prio x = ASYNCHRONOUS_PRIORITIZED) /\
    (forall x, In x c <-> In x ps /\ prio x = ASYNCHRONOUS_DEPRIORITIZED) /\
    (a <> [] -> exists rest, batches = a :: rest).
Proof.
  intros A prio split ps batches S. unfold plan. destruct (existsb _ ps) eqn:X; [discriminate|]. intros [= <-].
  set (a := filter (fun p => priority_eqb (prio p) SYNCHRONOUS) ps). set (b := filter (fun p => priority_eqb (prio p) ASYNCHRONOUS_PRIORITIZED) ps).
  set (c := filter (fun p => priority_eqb (prio p) ASYNCHRONOUS_DEPRIORITIZED) ps). exists a, b, c.
  assert (F : forall k x, In x (filter (fun p => priority_eqb (prio p) k) ps) <-> In x ps /\ prio x = k).
  { intros k x. rewrite filter_In. destruct (prio x), k; cbn; intuition congruence. }
  split; [|split; [apply F|split; [apply F|split; [apply F|]]]].
  - rewrite concat_app. f_equal.
    + destruct a; [reflexivity|]. cbn [List.concat]. apply app_nil_r.
    + destruct (b ++ c)%list; [reflexivity|]. apply S.
  - intros N. destruct a; [congruence|]. eexists. reflexivity.
Qed.

(** ** The round trip of random keys *)

Section Keys.
Context {D : Type}.
Implicit Types ps : list (param D).

Lemma ext_get : forall ps p, NoDup (map p_name ps) -> In p ps ->
  dget String.eqb (p_name p) (ext_of ps) = match p_value p with Key impl _ => Some (JObj [(RANDOM_KEY_IMPL, JStr impl)]) | Plain _ => None end.
Proof.
  intros ps. unfold ext_of. induction ps as [|x ps IH] using rev_ind; intros p N I; [destruct I|].
  rewrite fold_left_app. cbn [fold_left]. rewrite map_app in N. cbn [map] in N. assert (N' := NoDup_remove_1 _ _ _ N). assert (Nx := NoDup_remove_2 _ _ _ N).
  rewrite app_nil_r in N', Nx. apply in_app_iff in I.
  assert (Z : forall ps n, ~ In n (map p_name ps) -> dget String.eqb n (fold_left (fun d p => match p_value p with Key impl _ => dput String.eqb (p_name p) (JObj [(RANDOM_KEY_IMPL, JStr impl)]) d | Plain _ => d end) ps []) = None).
  { clear. intros ps. induction ps as [|x ps IH] using rev_ind; intros n H; [reflexivity|]. rewrite fold_left_app. cbn [fold_left].
    rewrite map_app, in_app_iff in H. cbn [map In] in H. destruct (p_value x); [apply IH; tauto|]. rewrite (dgp String.eqb String.eqb_spec).
    destruct (String.eqb_spec n (p_name x)); [subst; tauto|]. apply IH. tauto. }
  destruct I as [I|[->|[]]].
  - assert (Q : p_name p <> p_name x) by (intros E; apply Nx; rewrite <- E; apply in_map; auto).
    destruct (p_value x); [apply IH; auto|]. rewrite (dgp String.eqb String.eqb_spec). destruct (String.eqb_spec (p_name p) (p_name x)); [congruence|]. apply IH; auto.
  - destruct (p_value p); [apply Z; auto|]. rewrite (dgp String.eqb String.eqb_spec), String.eqb_refl. reflexivity.
Qed.

Lemma counts_nodup : forall l m, NoDup (map s_name l) -> In m l -> counts l (s_name m) m.
Proof.
  intros l m N I. apply in_split in I. destruct I as (a & b & ->). exists a, b. split; auto. split; auto.
  rewrite map_app in N. cbn [map] in N. apply NoDup_remove_2 in N. rewrite in_app_iff in N. tauto.
Qed.

Lemma saved_entries : forall ws p ps, saved_by ws p ps -> Permutation (by_process p ws) (map (metadata_of (ext_of ps)) ps).
Proof.
  intros ws p ps (limited & prio & split & batches & S & P & E). unfold by_process. rewrite E, <- concat_map.
  apply Permutation_map. eapply plan_perm; eauto.
Qed.

Lemma metadata_names : forall ext ps, map s_name (map (metadata_of ext) ps) = map p_name ps.
Proof. intros. rewrite map_map. apply map_ext. reflexivity. Qed.

Lemma values_in : forall ps ps' p, Permutation (values ps) (values ps') -> In p ps' -> exists p', In p' ps /\ p_name p' = p_name p /\ p_value p' = p_value p.
Proof.
  intros ps ps' p P I. apply (in_map (fun p => (p_name p, p_value p))) in I. apply (Permutation_in _ (Permutation_sym P)) in I.
  apply in_map_iff in I. destruct I as (p' & E & I). exists p'. split; auto. cbn in E. split; congruence.
Qed.

Lemma wrap_saved : forall ws q ps ps' p, saved_by ws q ps -> Permutation (values ps) (values ps') -> NoDup (map p_name ps') ->
  named_impls ps' -> In p ps' -> wrap_one (cache (by_process q ws)) (p_name p) (data_of (p_value p)) = Ok (p_value p).
Proof.
  intros ws q ps ps' p S P N NI I. assert (E := saved_entries ws q ps S).
  assert (N0 : NoDup (map p_name ps)).
  { assert (X : map p_name ps = map fst (values ps)) by (unfold values; rewrite map_map; reflexivity). rewrite X.
    apply (Permutation_NoDup (l := map fst (values ps'))); [apply Permutation_map, Permutation_sym, P|]. unfold values. rewrite map_map. exact N. }
  destruct (values_in ps ps' p P I) as (p0 & I0 & En & Ev). rewrite <- En, <- Ev.
  assert (C : counts (by_process q ws) (p_name p0) (metadata_of (ext_of ps) p0)).
  { apply counts_nodup with (m := metadata_of (ext_of ps) p0).
    - apply (Permutation_NoDup (l := map p_name ps)); auto. rewrite <- (metadata_names (ext_of ps)). apply Permutation_map, Permutation_sym, E.
    - apply (Permutation_in _ (Permutation_sym E)). apply in_map. auto. }
  unfold wrap_one. rewrite (proj2 (cache_counts _ _ _) C). unfold metadata_of. cbn [s_ext]. rewrite (ext_get ps p0 N0 I0).
  destruct (p_value p0) as [d|impl d] eqn:V; [reflexivity|]. cbn [get_impl dget]. unfold get_impl. cbn [dget]. rewrite String.eqb_refl. cbn [truthy].
  destruct (String.eqb_spec impl ""); [|reflexivity]. subst. elim (NI p d I). congruence.
Qed.

Lemma restore_keys : forall prim ws f listing ps, Forall (fun x => Forall storable (snd x)) ws ->
  run_writes prim ws None = Ok (Some f) -> lists listing f -> NoDup (map p_name ps) -> named_impls ps ->
  (forall q, In q (map fst ws) -> exists ps', saved_by ws q ps' /\ Permutation (values ps') (values ps)) ->
  restore listing (map p_name ps) (map (fun p => data_of (p_value p)) ps) = Ok (map p_value ps).
Proof.
  intros prim ws f listing ps H R L N NI S. unfold restore. destruct (read_all_run prim ws f listing H R L) as (r & -> & _ & I). cbn [rbind].
  assert (NEw : ws <> []) by (apply (run_holds _ ws _ H R)).
  destruct r as [|[q l] r].
  - destruct ws as [|[p ms] ws]; [congruence|]. destruct (proj2 (I p (by_process p ((p, ms) :: ws)))). split; [left|]; auto.
  - cbn [wrap_random_key_data]. destruct (proj1 (I q l) (or_introl eq_refl)) as [J ->]. destruct (S q J) as (ps' & Sq & P).
    assert (W : forall p, In p ps -> wrap_one (cache (by_process q ws)) (p_name p) (data_of (p_value p)) = Ok (p_value p)) by (intros p Ip; eapply wrap_saved; eauto).
    clear -W. induction ps as [|p ps IH]; [reflexivity|]. cbn [map wrap_loop]. rewrite W by (left; auto). cbn [rbind]. rewrite IH by (intros x Ix; apply W; right; auto). reflexivity.
Qed.

(** What the handler writes can be stored. *)
Lemma ext_values : forall ps n e, dget String.eqb n (ext_of ps) = Some e -> exists impl, e = JObj [(RANDOM_KEY_IMPL, JStr impl)].
Proof.
  intros ps. unfold ext_of. induction ps as [|x ps IH] using rev_ind; intros n e; [discriminate|]. rewrite fold_left_app. cbn [fold_left].
  destruct (p_value x); [apply IH|]. rewrite (dgp String.eqb String.eqb_spec). destruct (String.eqb n (p_name x)); [intros [= <-]; eauto|apply IH].
Qed.

Lemma metadata_storable : forall ps (p : param D), storable (metadata_of (ext_of ps) p).
Proof.
  intros ps p. unfold storable, typed, metadata_of. cbn [s_ext]. destruct (dget String.eqb (p_name p) (ext_of ps)) as [e|] eqn:G.
  - destruct (ext_values ps _ _ G) as [impl ->]. split; [eauto|]. split.
    + apply pure_obj. intros k x [[= <- <-]|[]]. apply (pure_atom (JStr impl)).
    + rewrite reserved_obj. intros [(v & [E|[]])|(k & x & [[= <- <-]|[]] & R)]; [discriminate|]. destruct R as (o & v & J & _). inversion J.
  - split; [auto|]. split; [apply (pure_atom JNull)|]. intros (o & v & J & _). inversion J.
Qed.

Lemma saved_storable : forall ws, (forall q, In q (map fst ws) -> exists ps : list (param D), saved_by ws q ps) -> Forall (fun x => Forall storable (snd x)) ws.
Proof.
  intros ws S. apply Forall_forall. intros [q ms] I. cbn [snd]. destruct (S q) as (ps & limited & prio & split & batches & _ & _ & E); [apply (in_map fst) in I; exact I|].
  assert (J : In ms (map snd (filter (fun x => N.eqb (fst x) q) ws))).
  { apply in_map_iff. exists (q, ms). split; auto. apply filter_In. split; auto. cbn. apply N.eqb_refl. }
  rewrite E in J. apply in_map_iff in J. destruct J as (b & <- & _). apply Forall_forall. intros m K. apply in_map_iff in K. destruct K as (p & <- & _). apply metadata_storable.
Qed.

End Keys.

(** ** Write shapes *)

Lemma seq_forall2 : forall {A B : Type} (f : A -> result B) (R : A -> B -> Prop) l, (forall x, In x l -> exists y, f x = Ok y /\ R x y) ->
  exists l', sequence (map f l) = Ok l' /\ Forall2 R l l'.
Proof.
  intros A B f R l H. induction l as [|x l IH]; [exists []; split; constructor|]. destruct (H x (or_introl eq_refl)) as (y & E & Y).
  destruct IH as (l' & E' & F); [intros z I; apply H; right; auto|]. exists (y :: l'). cbn [map sequence]. rewrite E. cbn [rbind]. rewrite E'. split; [reflexivity|constructor; auto].
Qed.

Lemma seq_err : forall {A B : Type} (f : A -> result B) e l, (exists x, In x l /\ f x = Err e) -> (forall x e', In x l -> f x = Err e' -> e' = e) ->
  sequence (map f l) = Err e.
Proof.
  intros A B f e l (x & I & E) U. induction l as [|y l IH]; [destruct I|]. cbn [map sequence]. destruct (f y) as [z|e'] eqn:Ey; cbn [rbind].
  - destruct I as [<-|I]; [congruence|]. rewrite IH; auto. intros w e' J. apply U. right. auto.
  - rewrite (U y e'); auto. left. auto.
Qed.

Lemma any_jax_spec : forall l, (forall i, In i l -> i_typestr i <> None) ->
  (exists b, any_jax_array l = Ok b /\ (b = true <-> exists i, In i l /\ i_typestr i = Some "jax.Array")).
Proof.
  intros l. induction l as [|i l IH]; intros H; [exists false; split; auto; split; [discriminate|intros (i & [] & _)]|].
  cbn [any_jax_array]. unfold represents_jax_array. destruct (i_typestr i) as [s|] eqn:E; [|elim (H i); [left|]; auto]. cbn [rbind].
  destruct (String.eqb_spec s "jax.Array") as [->|N].
  - exists true. split; auto. split; auto. intros _. exists i. split; [left|]; auto.
  - destruct IH as (b & Eb & Hb); [intros j J; apply H; right; auto|]. exists b. split; auto. rewrite Hb. split.
    + intros (j & J & K). exists j. split; [right|]; auto.
    + intros (j & [<-|J] & K); [congruence|]. exists j. auto.
Qed.

Section Shapes.
Variables (prim : option N) (ws : list (N * list sam)) (d : option files) (me : N) (infos : list pinfo).
Hypothesis Hs : Forall (fun x => Forall storable (snd x)) ws.
Hypothesis Hr : run_writes prim ws None = Ok d.
Hypothesis Ht : forall i, In i infos -> i_typestr i <> None.
Hypothesis Hp : prim = None \/ prim = Some me.

Lemma primary_me : is_primary_host prim me = true.
Proof. destruct Hp as [->| ->]; cbn; auto. apply N.eqb_refl. Qed.

Lemma shapes_written : In me (map fst ws) -> (forall i, In i infos -> i_typestr i = Some "jax.Array" -> In (i_name i) (map s_name (by_process me ws))) ->
  exists infos', get_param_infos_with_write_shape prim me d infos = Ok infos' /\
    Forall2 (fun i i' => i_name i' = i_name i /\ i_typestr i' = i_typestr i /\
      (i_typestr i = Some "jax.Array" -> exists m, counts (by_process me ws) (i_name i) m /\ i_ws i' = Some (s_ws m)) /\
      (i_typestr i <> Some "jax.Array" -> i' = i)) infos infos'.
Proof.
  intros W K. unfold get_param_infos_with_write_shape. rewrite primary_me. cbn [negb]. rewrite (proj1 (read_one_run prim ws d me Hs Hr) W). cbn [rbind].
  apply seq_forall2. intros i I. unfold update_param_info, represents_jax_array. destruct (i_typestr i) as [s|] eqn:E; [|elim (Ht i I E)]. cbn [rbind].
  destruct (String.eqb_spec s "jax.Array") as [->|N].
  - destruct (counts_exists _ _ (K i I E)) as [m C]. rewrite (proj2 (cache_counts _ _ _) C). eexists. split; [reflexivity|]. cbn. split; auto. split; auto. split; [eauto|congruence].
  - exists i. split; auto. split; auto. split; auto. split; [congruence|auto].
Qed.

Lemma shapes_missing : In me (map fst ws) -> (exists i, In i infos /\ i_typestr i = Some "jax.Array" /\ ~ In (i_name i) (map s_name (by_process me ws))) ->
  get_param_infos_with_write_shape prim me d infos = Err ValueError.
Proof.
  intros W (i & I & E & N). unfold get_param_infos_with_write_shape. rewrite primary_me. cbn [negb]. rewrite (proj1 (read_one_run prim ws d me Hs Hr) W). cbn [rbind].
  apply seq_err.
  - exists i. split; auto. unfold update_param_info, represents_jax_array. rewrite E. cbn [rbind]. rewrite String.eqb_refl.
    assert (G : dget String.eqb (i_name i) (cache (by_process me ws)) = None) by (apply (dgnone String.eqb String.eqb_spec); rewrite cache_keys; auto). rewrite G. reflexivity.
  - intros j e J. unfold update_param_info, represents_jax_array. destruct (i_typestr j) eqn:Ej; [|elim (Ht j J Ej)]. cbn [rbind].
    destruct (_ =? _); [|discriminate]. destruct (dget _ _ _); [discriminate|congruence].
Qed.

Lemma shapes_nothing : ~ In me (map fst ws) -> 
  get_param_infos_with_write_shape prim me d infos =
    (if existsb (fun i => match i_typestr i with Some s => s =? "jax.Array" | None => false end) infos then Err ValueError else Ok infos).
Proof.
  intros W. unfold get_param_infos_with_write_shape. rewrite primary_me. cbn [negb]. rewrite (proj2 (read_one_run prim ws d me Hs Hr) W). cbn [rbind].
  destruct (any_jax_spec infos Ht) as (b & -> & Hb). cbn [rbind].
  destruct (existsb _ infos) eqn:X.
  - apply existsb_exists in X. destruct X as (i & I & E). destruct (i_typestr i) as [s|] eqn:Ei; [|discriminate]. apply String.eqb_eq in E. subst s.
    rewrite (proj2 Hb) by eauto. reflexivity.
  - destruct b; [|reflexivity]. destruct (proj1 Hb eq_refl) as (i & I & E).
    assert (Z : existsb (fun i => match i_typestr i with Some s => s =? "jax.Array" | None => false end) infos = true) by (apply existsb_exists; exists i; rewrite E; split; auto; apply String.eqb_refl). congruence.
Qed.

End Shapes.
