(** Lemmas about registries of handlers *)
From Coq Require Import List Bool Arith String Lia.
From Verif Require Import Base Tree_Model Registry_Model Registry_Spec.
From Verif Require Tree_Proofs Parts_Proofs StepMeta_Proofs.
Import ListNotations.

Lemma find_first : forall {A : Type} (p : A -> bool) l x, find p l = Some x <-> first_such (fun y => p y = true) l x.
Proof.
  intros A p. induction l as [|a l IH]; intros x.
  - split; [discriminate|]. intros [l1 [l2 [E _]]]. destruct l1; discriminate.
  - simpl. destruct (p a) eqn:P.
    + split.
      * intros E. injection E as <-. exists [], l. split; [reflexivity|]. split; [exact P|constructor].
      * intros [l1 [l2 [E [Q F]]]]. destruct l1 as [|b l1]; [injection E as -> _; reflexivity|]. injection E as -> _. inversion F; subst. congruence.
    + rewrite IH. split; intros [l1 [l2 [E [Q F]]]].
      * exists (a :: l1), l2. split; [simpl; rewrite E; reflexivity|]. split; [exact Q|]. constructor; [congruence|exact F].
      * destruct l1 as [|b l1]; [injection E as -> _; congruence|]. injection E as -> E. inversion F; subst. exists l1, l2. auto.
Qed.

Lemma find_none_iff : forall {A : Type} (p : A -> bool) l, find p l = None <-> forall x, ~ first_such (fun y => p y = true) l x.
Proof.
  intros A p l. split; [intros E x H; apply find_first in H; congruence|]. intros H. destruct (find p l) as [x|] eqn:E; [|reflexivity]. exfalso. apply (H x). apply find_first. exact E.
Qed.

Lemma last_first : forall {A : Type} (P : A -> Prop) l x, last_such P l x <-> first_such P (rev l) x.
Proof.
  intros A P l x. split; intros [l1 [l2 [E [Q F]]]].
  - exists (rev l2), (rev l1). split; [rewrite E, rev_app_distr; simpl; rewrite <- app_assoc; reflexivity|]. split; [exact Q|]. apply Forall_rev. exact F.
  - exists (rev l2), (rev l1). split; [rewrite <- (rev_involutive l), E, rev_app_distr; simpl; rewrite <- app_assoc; reflexivity|]. split; [exact Q|]. apply Forall_rev. exact F.
Qed.

Lemma first_iff : forall {A : Type} (P Q : A -> Prop) l x, (forall y, P y <-> Q y) -> first_such P l x <-> first_such Q l x.
Proof.
  intros A P Q l x H. split; intros [l1 [l2 [E [R F]]]]; exists l1, l2; (split; [exact E|]); (split; [apply H; exact R|]);
    apply Forall_forall; intros y I; rewrite Forall_forall in F; specialize (F y I); rewrite H in *; assumption.
Qed.

Lemma last_iff : forall {A : Type} (P Q : A -> Prop) l x, (forall y, P y <-> Q y) -> last_such P l x <-> last_such Q l x.
Proof. intros A P Q l x H. rewrite !last_first. apply first_iff. exact H. Qed.

Lemma first_unique : forall {A : Type} (P : A -> Prop) l x y, first_such P l x -> first_such P l y -> x = y.
Proof.
  intros A P l x y [l1 [l2 [E1 [P1 F1]]]] [m1 [m2 [E2 [P2 F2]]]]. subst l. revert m1 m2 E2 F2. induction l1 as [|a l1 IH]; intros m1 m2 E2 F2.
  - destruct m1 as [|b m1]; [injection E2 as -> _; reflexivity|]. injection E2 as -> _. inversion F2; subst. contradiction.
  - inversion F1; subst. destruct m1 as [|b m1]; [injection E2 as -> _; contradiction|]. injection E2 as -> E2. inversion F2; subst. exact (IH H2 m1 m2 E2 H4).
Qed.

Lemma last_unique : forall {A : Type} (P : A -> Prop) l x y, last_such P l x -> last_such P l y -> x = y.
Proof. intros A P l x y. rewrite !last_first. apply first_unique. Qed.

Lemma last_of_filter : forall {A : Type} (p : A -> bool) l, last_of (filter p l) = find p (rev l).
Proof.
  intros A p l. unfold last_of. assert (forall m, rev (filter p m) = filter p (rev m)) as R.
  { induction m as [|a m IH]; [reflexivity|]. simpl. rewrite filter_app. simpl. destruct (p a); simpl; rewrite IH; [reflexivity|rewrite app_nil_r; reflexivity]. }
  rewrite R. generalize (rev l) as m. induction m as [|a m IH]; [reflexivity|]. simpl. destruct (p a); [reflexivity|exact IH].
Qed.

Lemma last_of_map : forall {A B : Type} (g : A -> B) l, last_of (map g l) = option_map g (last_of l).
Proof. intros A B g l. unfold last_of. rewrite <- map_rev. destruct (rev l); reflexivity. Qed.

(** ** Adding *)

Lemma named_iff : forall name e, named name e = true <-> snd e = Some name.
Proof. intros name [h [n|]]; unfold named; simpl; [rewrite String.eqb_eq; split; [intros ->; reflexivity|intros E; injection E as ->; reflexivity]|split; discriminate]. Qed.

Lemma has_iff : forall name r, has name r = true <-> exists h, In (h, Some name) (r_entries r).
Proof.
  intros name r. unfold has. rewrite existsb_exists. split.
  - intros [[h n] [I E]]. apply named_iff in E. simpl in E. subst n. exists h. exact I.
  - intros [h I]. exists (h, Some name). split; [exact I|]. apply named_iff. reflexivity.
Qed.

Lemma get_iff : forall name r h, get name r = Ok h <-> named_as r name h.
Proof.
  intros name r h. unfold get, named_as. split.
  - destruct (find (named name) (r_entries r)) as [[x n]|] eqn:E; [|discriminate]. intros Q. injection Q as <-. apply find_first in E.
    rewrite (first_iff _ (fun e => snd e = Some name)) in E by (intros; apply named_iff). destruct E as [l1 [l2 [E [P F]]]]. simpl in P. subst n. exists l1, l2. auto.
  - intros H. rewrite <- (first_iff (fun e => named name e = true)) in H by (intros; apply named_iff). apply find_first in H. rewrite H. reflexivity.
Qed.

Lemma has_get : forall name r, has name r = true -> exists h, get name r = Ok h.
Proof.
  intros name r H. unfold get. destruct (find (named name) (r_entries r)) as [e|] eqn:E; [eauto|]. exfalso. unfold has in H. apply existsb_exists in H. destruct H as [e [I Q]]. exact (eq_true_false_abs _ Q (find_none _ _ E e I)).
Qed.

Lemma has_false : forall name r, has name r = false <-> forall h, ~ named_as r name h.
Proof.
  intros name r. split.
  - intros H h [l1 [l2 [E _]]]. assert (has name r = true); [|congruence]. apply has_iff. exists h. rewrite E. apply in_or_app. right. left. reflexivity.
  - intros H. destruct (has name r) eqn:Q; [|reflexivity]. destruct (has_get _ _ Q) as [h G]. apply get_iff in G. exfalso. exact (H h G).
Qed.

(** What is registered is once under a name and once for everything. *)
Definition regular (r : registry) : Prop :=
  (forall l1 l2 h n, r_entries r = l1 ++ (h, Some n) :: l2 -> n <> ""%string -> forall x, ~ In (x, Some n) l1) /\
  (forall l1 l2 h n, r_entries r = l1 ++ (h, n) :: l2 -> n = None \/ n = Some ""%string -> ~ In h (map fst l1)) /\
  (forall h, dget Nat.eqb h (r_secondary r) <> None -> In h (map fst (r_entries r))).

Lemma truthy_iff : forall n, truthy n = true <-> exists s, n = Some s /\ s <> ""%string.
Proof.
  intros [s|]; simpl; [|split; [discriminate|intros [s [E _]]; discriminate]]. rewrite negb_true_iff. split.
  - intros H. exists s. split; [reflexivity|]. intros ->. discriminate.
  - intros [t [E N]]. injection E as <-. apply String.eqb_neq. exact N.
Qed.

Lemma truthy_false : forall n, truthy n = false <-> n = None \/ n = Some ""%string.
Proof.
  intros [s|]; simpl; [|split; auto]. rewrite negb_false_iff, String.eqb_eq. split; [intros ->; auto|]. intros [E|E]; [discriminate|injection E as ->; reflexivity].
Qed.

Lemma exists_fst : forall h (l : list (nat * option string)), existsb (fun e => Nat.eqb (fst e) h) l = true <-> In h (map fst l).
Proof.
  intros h l. rewrite existsb_exists, in_map_iff. split; intros [e [A B]].
  - apply Nat.eqb_eq in B. exists e. auto.
  - exists e. split; [exact B|]. apply Nat.eqb_eq. exact A.
Qed.

Lemma add_ok : forall h n s r r', add h n s r = Ok r' <->
  ((forall m, n = Some m -> m <> ""%string -> forall x, ~ In (x, Some m) (r_entries r)) /\ (n = None \/ n = Some ""%string -> ~ In h (map fst (r_entries r))) /\
   r' = mkReg (r_entries r ++ [(h, n)]) (match s with Some l => dput Nat.eqb h l (r_secondary r) | None => r_secondary r end)).
Proof.
  intros h n s r r'. unfold add. destruct (truthy n) eqn:T.
  - apply truthy_iff in T. destruct T as [m [-> M]]. destruct (has m r) eqn:H.
    + split; [discriminate|]. intros [A _]. apply has_iff in H. destruct H as [x I]. exfalso. exact (A m eq_refl M x I).
    + split.
      * intros E. injection E as <-. split; [|split; [|reflexivity]].
        -- intros k E _ x I. injection E as <-. assert (has m r = true) by (apply has_iff; eauto). congruence.
        -- intros [E|E]; [discriminate|injection E as ->; congruence].
      * intros [_ [_ ->]]. reflexivity.
  - apply truthy_false in T. destruct (existsb (fun e => Nat.eqb (fst e) h) (r_entries r)) eqn:X.
    + split; [discriminate|]. intros [_ [A _]]. apply exists_fst in X. exfalso. exact (A T X).
    + split.
      * intros E. injection E as <-. split; [|split; [|reflexivity]].
        -- intros m E M. exfalso. destruct T as [->| ->]; [discriminate|injection E as <-; congruence].
        -- intros _ I. apply exists_fst in I. congruence.
      * intros [_ [_ ->]]. reflexivity.
Qed.

Lemma add_err : forall h n s r e, add h n s r = Err e -> e = ValueError.
Proof. intros h n s r e. unfold add. destruct (if truthy n then _ else _); [intros E; injection E as <-; reflexivity|discriminate]. Qed.

Lemma split_snoc : forall {A : Type} (l : list A) x l1 y l2, l ++ [x] = l1 ++ y :: l2 -> (l1 = l /\ x = y /\ l2 = []) \/ exists l3, l2 = l3 ++ [x] /\ l = l1 ++ y :: l3.
Proof.
  intros A l x l1 y l2 E. destruct l2 as [|z l2] using rev_ind.
  - apply app_inj_tail in E. destruct E as [-> ->]. auto.
  - clear IHl2. right. exists l2. replace (l1 ++ y :: l2 ++ [z]) with ((l1 ++ y :: l2) ++ [z]) in E by (rewrite <- app_assoc; reflexivity). apply app_inj_tail in E. destruct E as [-> ->]. auto.
Qed.

Lemma regular_add : forall h n s r r', regular r -> add h n s r = Ok r' -> regular r'.
Proof.
  intros h n s r r' [R1 [R2 R3]] E. apply add_ok in E. destruct E as [A [B ->]]. unfold regular. cbn [r_entries r_secondary]. split; [|split].
  - intros l1 l2 x m E M y I. apply split_snoc in E. destruct E as [[-> [Q _]]|[l3 [-> E]]].
    + injection Q as -> ->. exact (A m eq_refl M y I).
    + exact (R1 l1 l3 x m E M y I).
  - intros l1 l2 x m E M I. apply split_snoc in E. destruct E as [[-> [Q _]]|[l3 [-> E]]].
    + injection Q as -> ->. exact (B M I).
    + exact (R2 l1 l3 x m E M I).
  - intros x Q. rewrite map_app, in_app_iff. simpl. destruct s as [l|]; [|left; exact (R3 x Q)].
    rewrite (Parts_Proofs.dget_dput Nat.eqb Nat.eqb_spec) in Q. destruct (Nat.eqb x h) eqn:X; [apply Nat.eqb_eq in X; auto|left; exact (R3 x Q)].
Qed.

Lemma built_regular : forall r, built r -> regular r.
Proof.
  intros r B. induction B as [|r h n s r' B IH E]; [|exact (regular_add _ _ _ _ _ IH E)].
  split; [|split]; [intros l1 l2 h n E; destruct l1; discriminate|intros l1 l2 h n E; destruct l1; discriminate|intros h H; exfalso; exact (H eq_refl)].
Qed.

(** Entries that can be added one after the other *)
Lemma add_entries_ok : forall other l r, 
  (forall l1 l2 h m, l = l1 ++ (h, Some m) :: l2 -> m <> ""%string -> forall x, ~ In (x, Some m) (r_entries r ++ l1)) ->
  (forall l1 l2 h n, l = l1 ++ (h, n) :: l2 -> n = None \/ n = Some ""%string -> ~ In h (map fst (r_entries r ++ l1))) ->
  exists r', add_entries l other r = Ok r' /\ r_entries r' = r_entries r ++ l /\ forall h, secondary_of h r' = if existsb (fun e => Nat.eqb (fst e) h) l then secondary_of h other else secondary_of h r.
Proof.
  intros other. induction l as [|[h n] l IH]; intros r A B; cbn [add_entries].
  - exists r. rewrite app_nil_r. auto.
  - assert (exists r1, add h n (Some (secondary_of h other)) r = Ok r1 /\ r1 = mkReg (r_entries r ++ [(h, n)]) (dput Nat.eqb h (secondary_of h other) (r_secondary r))) as [r1 [E ->]].
    { eexists. split; [|reflexivity]. apply add_ok. split; [|split; [|reflexivity]].
      - intros m -> M x. specialize (A [] l h m eq_refl M x). rewrite app_nil_r in A. exact A.
      - intros N. specialize (B [] l h n eq_refl N). rewrite app_nil_r in B. exact B. }
    rewrite E. cbn [rbind].
    destruct (IH (mkReg (r_entries r ++ [(h, n)]) (dput Nat.eqb h (secondary_of h other) (r_secondary r)))) as [r' [E1 [E2 E3]]].
    + intros l1 l2 x m El M y. cbn [r_entries]. rewrite <- app_assoc. apply (A ((h, n) :: l1) l2 x m); [rewrite El; reflexivity|exact M].
    + intros l1 l2 x m El M. cbn [r_entries]. rewrite <- app_assoc. apply (B ((h, n) :: l1) l2 x m); [rewrite El; reflexivity|exact M].
    + exists r'. split; [exact E1|]. split; [rewrite E2; cbn [r_entries]; rewrite <- app_assoc; reflexivity|]. intros x. rewrite E3. simpl. destruct (existsb (fun e => Nat.eqb (fst e) x) l); [rewrite orb_true_r; reflexivity|rewrite orb_false_r].
      unfold secondary_of at 1. cbn [r_secondary]. rewrite (Parts_Proofs.dget_dput Nat.eqb Nat.eqb_spec). destruct (Nat.eqb_spec x h) as [->|N]; [rewrite Nat.eqb_refl; reflexivity|]. destruct (Nat.eqb_spec h x) as [->|_]; [congruence|reflexivity].
Qed.

Lemma add_entries_split : forall other l r r', add_entries l other r = Ok r' -> forall l1 l2 h n, l = l1 ++ (h, n) :: l2 ->
  (forall m, n = Some m -> m <> ""%string -> forall x, ~ In (x, Some m) (r_entries r ++ l1)) /\ (n = None \/ n = Some ""%string -> ~ In h (map fst (r_entries r ++ l1))).
Proof.
  intros other. induction l as [|[h0 n0] l IH]; intros r r' E l1 l2 h n El; [destruct l1; discriminate|]. cbn [add_entries] in E.
  destruct (add h0 n0 (Some (secondary_of h0 other)) r) as [r1|] eqn:A; [|discriminate]. cbn [rbind] in E. apply add_ok in A. destruct A as [A1 [A2 ->]].
  destruct l1 as [|e l1].
  - injection El as -> -> ->. rewrite app_nil_r. split; [intros m M; exact (A1 m M)|exact A2].
  - injection El as <- El. specialize (IH _ _ E l1 l2 h n El). cbn [r_entries] in IH. rewrite <- app_assoc in IH. exact IH.
Qed.

Lemma add_entries_built : forall other l r r', built r -> add_entries l other r = Ok r' -> built r'.
Proof.
  intros other. induction l as [|[h n] l IH]; intros r r' B E; cbn [add_entries] in E; [injection E as <-; exact B|].
  destruct (add h n _ r) as [r1|] eqn:A; [|discriminate]. exact (IH r1 r' (built_add _ _ _ _ _ B A) E).
Qed.

Lemma add_entries_err : forall other l r e, add_entries l other r = Err e -> e = ValueError.
Proof.
  intros other. induction l as [|[h n] l IH]; intros r e E; cbn [add_entries] in E; [discriminate|].
  destruct (add h n _ r) as [r1|e1] eqn:A; cbn [rbind] in E; [exact (IH r1 e E)|]. injection E as <-. exact (add_err _ _ _ _ _ A).
Qed.

(** ** Choosing *)

Section Choice.
  Variable O : Type.
  Variable W : world O.

  Lemma seq_construct : forall (l : list (nat * option string)), Forall (fun e => w_constructible W (fst e) = true) l ->
    sequence (map (fun e => rmap (fun h => (h, snd e)) (construct W (fst e))) l) = Ok l.
  Proof.
    induction l as [|[h n] l IH]; intros F; [reflexivity|]. inversion F; subst. simpl. simpl in H1. unfold construct at 1. rewrite H1. simpl. rewrite (IH H2). reflexivity.
  Qed.

  Lemma possible_last : forall can (c : O) r, sane W r -> exists hs, possible_handlers W can (Some c) r = Ok hs /\
    forall h, last_of hs = Some h <-> last_such (capable (fun x => can x c = true)) (r_entries r) (h, None).
  Proof.
    intros can c r S. unfold possible_handlers. rewrite (seq_construct _ S). cbn [rmap rbind]. eexists. split; [reflexivity|]. intros h. rewrite last_of_map, last_of_filter.
    rewrite last_first. rewrite <- (first_iff (fun x : nat * option string => match snd x with None => can (fst x) c | Some _ => false end = true)).
    - rewrite <- find_first. destruct (find _ (rev (r_entries r))) as [[x n]|] eqn:F; simpl.
      + split.
        * intros E. injection E as <-. apply find_some in F. destruct F as [_ F]. simpl in F. destruct n; [discriminate|reflexivity].
        * intros E. injection E as -> ->. reflexivity.
      + split; discriminate.
    - intros [x n]. unfold capable. simpl. destruct n; split; try discriminate; [intros [E _]; discriminate|auto|intros [_ E]; exact E].
  Qed.

  Lemma capable_none : forall can (c : O) r hs, (forall h, last_of hs = Some h <-> last_such (capable (fun x => can x c = true)) (r_entries r) (h, None)) ->
    last_of hs = None -> forall x, ~ last_such (capable (fun y => can y c = true)) (r_entries r) x.
  Proof.
    intros can c r hs H N [x n] L. pose proof L as [l1 [l2 [_ [[P _] _]]]]. simpl in P. subst n. apply H in L. congruence.
  Qed.

  Lemma sane_named : forall r name h, sane W r -> named_as r name h -> construct W h = Ok h.
  Proof.
    intros r name h S [l1 [l2 [E _]]]. unfold sane in S. rewrite Forall_forall in S. unfold construct. assert (In (h, Some name) (r_entries r)) as I by (rewrite E; apply in_or_app; right; left; reflexivity). specialize (S _ I). simpl in S. rewrite S. reflexivity.
  Qed.

  Lemma by_name_iff : forall r name, sane W r -> exists o, by_name W name r = Ok o /\ forall h, o = Some h <-> named_as r name h.
  Proof.
    intros r name S. unfold by_name. destruct (has name r) eqn:H.
    - destruct (has_get _ _ H) as [h G]. rewrite G. cbn [rbind]. apply get_iff in G. rewrite (sane_named _ _ _ S G). exists (Some h). split; [reflexivity|]. intros x. split; [intros E; injection E as <-; exact G|].
      intros N. apply get_iff in G. apply get_iff in N. congruence.
    - exists None. split; [reflexivity|]. intros h. split; [discriminate|]. intros N. exfalso. exact (proj1 (has_false name r) H h N).
  Qed.

  Lemma matches_iff : forall r s e, matches W r s e = true <-> w_typestr W (fst e) = s \/ In s (secondary_of (fst e) r).
  Proof.
    intros r s e. unfold matches. rewrite orb_true_iff, String.eqb_eq, existsb_exists. split; (intros [H|H]; [left; exact H|right]).
    - destruct H as [x [I E]]. apply String.eqb_eq in E. subst x. exact I.
    - exists s. split; [exact H|apply String.eqb_refl].
  Qed.

  Lemma by_typestr_iff : forall r ts, sane W r -> exists o, by_typestr W r ts = Ok o /\ forall h, o = Some h <-> known_as W r ts h.
  Proof.
    intros r ts S. unfold by_typestr. destruct ts as [s|].
    2:{ exists None. split; [reflexivity|]. intros h. split; [discriminate|]. intros [s [n [E _]]]. discriminate. }
    destruct (String.eqb_spec s "") as [->|N].
    { exists None. split; [reflexivity|]. intros h. split; [discriminate|]. intros [s [n [E [Q _]]]]. injection E as <-. congruence. }
    assert (forall e, last_such (fun e => w_typestr W (fst e) = s \/ In s (secondary_of (fst e) r)) (r_entries r) e <-> find (matches W r s) (rev (r_entries r)) = Some e) as L.
    { intros e. rewrite last_first, find_first. apply first_iff. intros y. symmetry. apply matches_iff. }
    destruct (find (matches W r s) (rev (r_entries r))) as [[x n]|] eqn:F.
    - assert (construct W x = Ok x) as C.
      { apply find_some in F. destruct F as [I _]. apply in_rev in I. unfold sane in S. rewrite Forall_forall in S. unfold construct. specialize (S _ I). simpl in S. rewrite S. reflexivity. }
      simpl fst. rewrite C. exists (Some x). split; [reflexivity|]. intros h. split.
      + intros E. injection E as <-. exists s, n. split; [reflexivity|]. split; [exact N|]. apply L. reflexivity.
      + intros [s' [n' [E [_ Q]]]]. injection E as <-. apply L in Q. injection Q as -> _. reflexivity.
    - exists None. split; [reflexivity|]. intros h. split; [discriminate|]. intros [s' [n' [E [_ Q]]]]. injection E as <-. apply L in Q. discriminate.
  Qed.

  Lemma resolve_save_ok : forall r o name, sane W r -> forall h, resolve_save W r (Some o) name = Ok h <-> saves_with W r o name h.
  Proof.
    intros r o name S h. unfold resolve_save. destruct (possible_last (w_save W) o r S) as [hs [E L]]. rewrite E. cbn [rbind]. pose proof (capable_none (w_save W) o r hs L) as Nn.
    assert (forall x, (if has name r then rbind (get name r) (construct W) else x) = Ok h <-> named_as r name h \/ ((forall y, ~ named_as r name y) /\ x = Ok h)) as G.
    { intros x. destruct (has name r) eqn:H.
      - destruct (has_get _ _ H) as [k K]. rewrite K. cbn [rbind]. pose proof (proj1 (get_iff _ _ _) K) as Q. rewrite (sane_named _ _ _ S Q). split.
        + intros X. injection X as <-. left. exact Q.
        + intros [X|[X _]]; [|exfalso; exact (X k Q)]. apply get_iff in X. congruence.
      - pose proof (proj1 (has_false name r) H) as F. split; [auto|]. intros [X|[_ X]]; [exfalso; exact (F h X)|exact X]. }
    assert (forall y, named_as r name y -> exists x, In (x, Some name) (r_entries r)) as Ni.
    { intros y [l1 [l2 [Q _]]]. exists y. rewrite Q. apply in_or_app. right. left. reflexivity. }
    assert ((forall y, ~ named_as r name y) -> forall x, ~ In (x, Some name) (r_entries r)) as In1.
    { intros F x I. assert (has name r = true) as H by (apply has_iff; eauto). apply (has_false name r) in F. congruence. }
    destruct (last_of hs) as [k|] eqn:Lk.
    - pose proof (proj1 (L k) eq_refl) as Lp. destruct (w_stateful W o) eqn:St.
      + split.
        * intros X. injection X as <-. exact (sw_stateful W r o name k St Lp).
        * intros X. destruct X as [h' _ Q|h' [Q|Q] _|h' _ Q]; [apply L in Q; congruence|congruence|exfalso; exact (Q _ Lp)|apply L in Q; congruence].
      + rewrite G. split.
        * intros [X|[X Y]]; [apply sw_named; [left; exact St|exact X]|]. injection Y as <-. apply sw_last; [exact (In1 X)|exact Lp].
        * intros X. destruct X as [h' Q _|h' _ Q|h' Q1 Q2]; [congruence|left; exact Q|right]. split; [|apply L in Q2; congruence].
          intros y Y. destruct (Ni y Y) as [x I]. exact (Q1 x I).
    - assert ((if has name r then rbind (get name r) (construct W) else Err KeyError) = Ok h <-> saves_with W r o name h) as X.
      { rewrite G. split.
        - intros [X|[_ Y]]; [|discriminate]. apply sw_named; [right; exact (Nn eq_refl)|exact X].
        - intros X. destruct X as [h' _ Q|h' _ Q|h' _ Q]; [exfalso; exact (Nn eq_refl _ Q)|left; exact Q|exfalso; exact (Nn eq_refl _ Q)]. }
      destruct (w_stateful W o); exact X.
  Qed.

  Lemma usable_some : forall a x h, usable W a (Some x) = Some h <-> h = x /\ fits W a x.
  Proof.
    intros a x h. unfold usable, fits. destruct a as [o|].
    - unfold loads. destruct (w_load W x o) as [[|]|] eqn:E.
      + split; [intros Q; injection Q as <-; split; [reflexivity|intros o' Q; injection Q as <-; exact E]|intros [-> _]; reflexivity].
      + split; [discriminate|]. intros [_ Q]. specialize (Q o eq_refl). congruence.
      + split; [discriminate|]. intros [_ Q]. specialize (Q o eq_refl). congruence.
    - split; [intros Q; injection Q as <-; split; [reflexivity|discriminate]|intros [-> _]; reflexivity].
  Qed.

  Lemma usable_iff : forall a (P : nat -> Prop) x, (forall h, x = Some h <-> P h) -> (forall h, usable W a x = Some h <-> P h /\ fits W a h).
  Proof.
    intros a P [x|] H h.
    - rewrite usable_some. split; [intros [-> Q]; split; [apply H; reflexivity|exact Q]|intros [Q1 Q2]; apply H in Q1; injection Q1 as <-; auto].
    - split; [discriminate|]. intros [Q _]. apply H in Q. discriminate.
  Qed.

  Lemma usable_none : forall a (P : nat -> Prop) x, (forall h, x = Some h <-> P h) -> usable W a x = None -> forall h, P h -> ~ fits W a h.
  Proof. intros a P x H N h Q F. assert (usable W a x = Some h) by (apply (usable_iff a P x H); auto). congruence. Qed.

  Lemma fits_some : forall o h, fits W (Some o) h <-> w_load W h o = Some true.
  Proof. intros o h. unfold fits. split; [intros H; exact (H o eq_refl)|intros H x E; injection E as <-; exact H]. Qed.

  Lemma loads_iff : forall h o, loads W h o = true <-> w_load W h o = Some true.
  Proof. intros h o. unfold loads. destruct (w_load W h o) as [[|]|]; split; congruence. Qed.

  Lemma resolve_load_ok : forall r a name ts, sane W r -> forall h, resolve_load W r a name ts = Ok h <-> loads_with W r a name ts h.
  Proof.
    intros r a name ts S h. unfold resolve_load. destruct (by_name_iff r name S) as [ex [E1 X]]. destruct (by_typestr_iff r ts S) as [kn [E2 K]]. rewrite E1, E2. cbn [rbind].
    assert (forall x y, named_as r name x -> named_as r name y -> x = y) as Nu by (intros x y A B; apply X in A; apply X in B; congruence).
    assert (forall x y, known_as W r ts x -> known_as W r ts y -> x = y) as Ku by (intros x y A B; apply K in A; apply K in B; congruence).
    pose proof (usable_iff a _ _ X) as UX. pose proof (usable_iff a _ _ K) as UK. pose proof (usable_none a _ _ X) as NX. pose proof (usable_none a _ _ K) as NK.
    set (st := match a with Some o => if w_stateful W o then usable W a kn else None | None => None end).
    assert (forall x, st = Some x <-> exists o, a = Some o /\ w_stateful W o = true /\ known_as W r ts x /\ w_load W x o = Some true) as ST.
    { intros x. unfold st. destruct a as [o|]; [|split; [discriminate|intros [o [Q _]]; discriminate]]. destruct (w_stateful W o) eqn:Q.
      - rewrite UK, fits_some. split; [intros [A B]; exists o; auto|intros [o' [A [_ [B C]]]]; injection A as <-; auto].
      - split; [discriminate|]. intros [o' [A [B _]]]. injection A as <-. congruence. }
    destruct st as [x|] eqn:Est.
    { destruct (proj1 (ST x) eq_refl) as [o [-> [So [Kx Lx]]]]. split.
      - intros Q. injection Q as <-. exact (lw_stateful W r (Some o) name ts o x eq_refl So Kx Lx).
      - intros Q. f_equal. destruct Q as [o' y A B C D|y A B C|y A B C|o' y A B C D|o' y A B C D F].
        + exact (Ku _ _ Kx C).
        + exfalso. exact (A o x eq_refl So Kx Lx).
        + exact (Ku _ _ Kx B).
        + exfalso. apply (C x Kx). apply fits_some. exact Lx.
        + exfalso. apply (B x Kx). apply fits_some. exact Lx. }
    assert (forall o x, a = Some o -> w_stateful W o = true -> known_as W r ts x -> w_load W x o <> Some true) as NS.
    { intros o x A B C D. assert (@None nat = Some x); [|discriminate]. apply ST. exists o. auto. }
    destruct (usable W a ex) as [x|] eqn:Ux.
    { destruct (proj1 (UX x) eq_refl) as [Nx Fx]. split.
      - intros Q. injection Q as <-. exact (lw_named W r a name ts x NS Nx Fx).
      - intros Q. f_equal. destruct Q as [o' y A B C D|y A B C|y A B C|o' y A B C D|o' y A B C D F].
        + exfalso. exact (NS o' y A B C D).
        + exact (Nu _ _ Nx B).
        + exfalso. exact (A x Nx Fx).
        + exfalso. exact (B x Nx Fx).
        + exfalso. rewrite (Nu _ _ Nx D) in Fx. exact (F Fx). }
    specialize (NX eq_refl). destruct (usable W a kn) as [x|] eqn:Uk.
    { destruct (proj1 (UK x) eq_refl) as [Kx Fx]. split.
      - intros Q. injection Q as <-. exact (lw_known W r a name ts x NX Kx Fx).
      - intros Q. f_equal. destruct Q as [o' y A B C D|y A B C|y A B C|o' y A B C D|o' y A B C D F].
        + exact (Ku _ _ Kx C).
        + exfalso. exact (NX y B C).
        + exact (Ku _ _ Kx B).
        + exfalso. exact (C x Kx Fx).
        + exfalso. exact (B x Kx Fx). }
    specialize (NK eq_refl). destruct a as [o|].
    - destruct (possible_last (loads W) o r S) as [hs [Ep Lp]]. rewrite Ep. cbn [rmap rbind].
      assert (forall y, last_such (capable (fun x => loads W x o = true)) (r_entries r) y <-> last_such (capable (fun x => w_load W x o = Some true)) (r_entries r) y) as LL.
      { intros y. apply last_iff. intros z. unfold capable. rewrite loads_iff. reflexivity. }
      pose proof (capable_none (loads W) o r hs Lp) as Cn. destruct (last_of hs) as [x|] eqn:Lx.
      + pose proof (proj1 (LL _) (proj1 (Lp x) eq_refl)) as Lq. split.
        * intros Q. injection Q as <-. exact (lw_last W r (Some o) name ts o x eq_refl NX NK Lq).
        * intros Q. f_equal. destruct Q as [o' y A B C D|y A B C|y A B C|o' y A B C D|o' y A B C D F].
          -- exfalso. exact (NS o' y A B C D).
          -- exfalso. exact (NX y B C).
          -- exfalso. exact (NK y B C).
          -- injection A as <-. pose proof (last_unique _ _ _ _ Lq D) as Q. congruence.
          -- exfalso. injection A as <-. exact (C _ Lq).
      + assert (forall y, ~ last_such (capable (fun x => w_load W x o = Some true)) (r_entries r) y) as Ln.
        { intros y Q. apply LL in Q. exact (Cn eq_refl y Q). }
        destruct ex as [x|].
        * pose proof (proj1 (X x) eq_refl) as Nx. split.
          -- intros Q. injection Q as <-. exact (lw_unfit W r (Some o) name ts o x eq_refl NK Ln Nx (NX x Nx)).
          -- intros Q. f_equal. destruct Q as [o' y A B C D|y A B C|y A B C|o' y A B C D|o' y A B C D F].
             ++ exfalso. exact (NS o' y A B C D).
             ++ exfalso. exact (NX y B C).
             ++ exfalso. exact (NK y B C).
             ++ exfalso. injection A as <-. exact (Ln _ D).
             ++ exact (Nu _ _ Nx D).
        * split; [discriminate|]. intros Q. exfalso. destruct Q as [o' y A B C D|y A B C|y A B C|o' y A B C D|o' y A B C D F].
          -- exact (NS o' y A B C D).
          -- exact (NX y B C).
          -- exact (NK y B C).
          -- injection A as <-. exact (Ln _ D).
          -- apply X in D. discriminate.
    - cbn [rbind]. destruct ex as [x|]; [simpl in Ux; discriminate|]. destruct kn as [x|]; [simpl in Uk; discriminate|]. split; [discriminate|]. intros Q. exfalso.
      destruct Q as [o' y A B C D|y A B C|y A B C|o' y A B C D|o' y A B C D F]; try discriminate; [apply X in B; discriminate|apply K in B; discriminate].
  Qed.

  Lemma resolve_load_err : forall r a name ts e, sane W r -> resolve_load W r a name ts = Err e -> e = KeyError.
  Proof.
    intros r a name ts e S. unfold resolve_load. destruct (by_name_iff r name S) as [ex [E1 _]]. destruct (by_typestr_iff r ts S) as [kn [E2 _]]. rewrite E1, E2. cbn [rbind].
    destruct (match a with Some o => _ | None => _ end); [discriminate|]. destruct (usable W a ex); [discriminate|]. destruct (usable W a kn); [discriminate|].
    destruct a as [o|].
    - destruct (possible_last (loads W) o r S) as [hs [Ep _]]. rewrite Ep. cbn [rmap rbind]. destruct (last_of hs); [discriminate|]. destruct ex; [discriminate|]. intros Q. injection Q as <-. reflexivity.
    - cbn [rbind]. destruct ex; [discriminate|]. intros Q. injection Q as <-. reflexivity.
  Qed.

  Lemma resolve_save_err : forall r o name e, sane W r -> resolve_save W r (Some o) name = Err e -> e = KeyError.
  Proof.
    intros r o name e S. unfold resolve_save. destruct (possible_last (w_save W) o r S) as [hs [E L]]. rewrite E. cbn [rbind].
    assert (forall x, (if has name r then rbind (get name r) (construct W) else x) = Err e -> x = Err e) as G.
    { intros x. destruct (has name r) eqn:H; [|auto]. destruct (has_get _ _ H) as [k K]. rewrite K. cbn [rbind]. apply get_iff in K. rewrite (sane_named _ _ _ S K). discriminate. }
    destruct (last_of hs), (w_stateful W o); intros Q; try discriminate; apply G in Q; injection Q as <- || discriminate; reflexivity.
  Qed.

  (** The handler that saved is the last that is known by its name. *)
  Lemma known_self : forall r h n, In (h, n) (r_entries r) -> w_typestr W h <> ""%string ->
    (forall x m, In (x, m) (r_entries r) -> w_typestr W x = w_typestr W h \/ In (w_typestr W h) (secondary_of x r) -> x = h) -> known_as W r (Some (w_typestr W h)) h.
  Proof.
    intros r h n I N U. set (p := matches W r (w_typestr W h)).
    assert (exists e, find p (rev (r_entries r)) = Some e) as [[x m] F].
    { destruct (find p (rev (r_entries r))) as [e|] eqn:F; [eauto|]. exfalso. apply in_rev in I. pose proof (find_none _ _ F _ I) as Q.
      assert (p (h, n) = true) as P by (apply matches_iff; left; reflexivity). congruence. }
    assert (x = h) as ->.
    { apply find_some in F. destruct F as [J P]. apply in_rev in J. apply matches_iff in P. exact (U x m J P). }
    exists (w_typestr W h), m. split; [reflexivity|]. split; [exact N|]. rewrite last_first. apply find_first in F. apply (first_iff (fun e => p e = true)); [intros y; apply matches_iff|exact F].
  Qed.
End Choice.

(** ** Types *)

Lemma t_get_iff : forall ty t h, t_get ty t = Ok h <-> exists f, first_such (fun e => fst e ty = true) (t_types t) (f, h).
Proof.
  intros ty t h. unfold t_get. split.
  - destruct (find (fun e => fst e ty) (t_types t)) as [[f x]|] eqn:F; [|discriminate]. intros E. injection E as <-. exists f. apply find_first in F. exact F.
  - intros [f F]. apply find_first in F. rewrite F. reflexivity.
Qed.

Lemma first_index_none : forall ty l, first_index ty l = None <-> Forall (fun e => fst e ty = false) l.
Proof.
  intros ty. induction l as [|[f h] l IH]; simpl; [split; [constructor|reflexivity]|]. destruct (f ty) eqn:F.
  - split; [discriminate|]. intros Q. inversion Q; subst. simpl in H1. congruence.
  - destruct (first_index ty l); simpl.
    + split; [discriminate|]. intros Q. inversion Q; subst. apply IH in H2. discriminate.
    + split; [|reflexivity]. intros _. constructor; [exact F|]. apply IH. reflexivity.
Qed.

Lemma find_app_l : forall {A : Type} (p : A -> bool) l m x, find p l = Some x -> find p (l ++ m) = Some x.
Proof. intros A p. induction l as [|a l IH]; intros m x E; [discriminate|]. simpl in *. destruct (p a); [exact E|exact (IH m x E)]. Qed.

Lemma find_app_r : forall {A : Type} (p : A -> bool) l m, find p l = None -> find p (l ++ m) = find p m.
Proof. intros A p. induction l as [|a l IH]; intros m E; [reflexivity|]. simpl in *. destruct (p a); [discriminate|exact (IH m E)]. Qed.

Lemma set_nth_in : forall {A : Type} i (x : A) l y, In y (set_nth i x l) -> y = x \/ In y l.
Proof.
  intros A. induction i as [|i IH]; intros x [|a l] y I; simpl in I; [destruct I| |destruct I|].
  - destruct I as [<-|I]; [left; reflexivity|right; right; exact I].
  - destruct I as [<-|I]; [right; left; reflexivity|]. destruct (IH x l y I) as [->|J]; [left; reflexivity|right; right; exact J].
Qed.

(** Every handler's name is known, and names a handler of that name; without overriding, that very handler. *)
Lemma t_invariant : forall typestr over t, t_built typestr over t ->
  (forall f h, In (f, h) (t_types t) -> exists h', dget String.eqb (typestr h) (t_strs t) = Some h' /\ typestr h' = typestr h /\ (over = false -> h' = h)) /\
  (forall s h, dget String.eqb s (t_strs t) = Some h -> typestr h = s /\ (over = false -> exists f, In (f, h) (t_types t))).
Proof.
  intros typestr over t B. induction B as [over|over t ty h func o t' B [I1 I2] Ho E].
  - split; [intros f h []|discriminate].
  - unfold t_add in E. destruct (first_index ty (t_types t)) as [i|].
    + destruct o; [|discriminate]. injection E as <-. cbn [t_types t_strs]. split.
      * intros f x I. rewrite (Parts_Proofs.dget_dput String.eqb String.eqb_spec). destruct (String.eqb_spec (typestr x) (typestr h)) as [Q|Q].
        -- exists h. split; [reflexivity|]. split; [symmetry; exact Q|]. intros Z. specialize (Ho eq_refl). congruence.
        -- apply set_nth_in in I. destruct I as [I|I]; [injection I as -> ->; congruence|]. exact (I1 f x I).
      * intros s x D. rewrite (Parts_Proofs.dget_dput String.eqb String.eqb_spec) in D. split; [|intros Z; specialize (Ho eq_refl); congruence].
        destruct (String.eqb_spec s (typestr h)) as [->|Q]; [injection D as <-; reflexivity|]. exact (proj1 (I2 s x D)).
    + destruct (match dget String.eqb (typestr h) (t_strs t) with Some _ => negb o | None => false end) eqn:C; [discriminate|]. injection E as <-. cbn [t_types t_strs]. split.
      * intros f x I. rewrite (Parts_Proofs.dget_dput String.eqb String.eqb_spec). destruct (String.eqb_spec (typestr x) (typestr h)) as [Q|Q].
        -- exists h. split; [reflexivity|]. split; [symmetry; exact Q|]. intros Z. apply in_app_or in I. destruct I as [I|[I|[]]]; [|injection I as -> ->; reflexivity].
           exfalso. destruct (I1 f x I) as [h' [D [_ _]]]. rewrite Q in D. rewrite D in C. apply negb_false_iff in C. specialize (Ho C). congruence.
        -- apply in_app_or in I. destruct I as [I|[I|[]]]; [exact (I1 f x I)|injection I as -> ->; congruence].
      * intros s x D. rewrite (Parts_Proofs.dget_dput String.eqb String.eqb_spec) in D. destruct (String.eqb_spec s (typestr h)) as [->|Q].
        -- injection D as <-. split; [reflexivity|]. intros _. exists func. apply in_or_app. right. left. reflexivity.
        -- destruct (I2 s x D) as [J1 J2]. split; [exact J1|]. intros Z. destruct (J2 Z) as [f J]. exists f. apply in_or_app. left. exact J.
Qed.
