(** Proofs about differences of trees. *)
From Coq Require Import List Bool Arith NArith ZArith String Ascii Permutation Lia.
From Verif Require Import Base StepName_Model Tree_Model Tree_Spec Tree_Proofs Parts_Model Parts_Proofs Diff_Model Diff_Spec.
Import ListNotations.

Section Diff.
Context {V : Type} (eqv : V -> V -> bool).
Notation td := (tree_difference eqv).

Fixpoint zipd (cs ds : list (key * tree V)) : list (key * diff V) :=
  match cs, ds with
  | (x, c) :: cs', (_, d) :: ds' => (x, td c d) :: zipd cs' ds'
  | _, _ => []
  end.

Fixpoint commond (ds cs : list (key * tree V)) : list (key * diff V) :=
  match cs with
  | [] => []
  | (x, c) :: cs' =>
    match find_item x ds with
    | Some d => if no_diff (td c d) then commond ds cs' else (x, td c d) :: commond ds cs'
    | None => commond ds cs'
    end
  end.

Definition lacksd (l : list (key * tree V)) (x : key) : bool := match find_item x l with Some _ => false | None => true end.

Definition dict_items (cs ds : list (key * tree V)) : list (key * diff V) :=
  commond ds cs ++ map (fun x => (fst x, Report (OnlyLeft (snd x)))) (filter (fun x => lacksd ds (fst x)) cs)
                ++ map (fun x => (fst x, Report (OnlyRight (snd x)))) (filter (fun x => lacksd cs (fst x)) ds).

Lemma td_zip : forall k cs ds, is_sequence k = true ->
  td (Node k cs) (Node k ds) = if List.length cs =? List.length ds then sequence_diff k (zipd cs ds) else Report (LengthDiff k (List.length cs) (List.length ds)).
Proof.
  intros k cs ds S. cbn [tree_difference]. destruct (kind_eqb_spec k k); [|congruence]. cbn [negb].
  assert (Z : forall cs ds, (fix go (cs ds : list (key * tree V)) : list (key * diff V) :=
      match cs, ds with (x, c) :: cs', (_, d) :: ds' => (x, td c d) :: go cs' ds' | _, _ => [] end) cs ds = zipd cs ds) by (induction cs0 as [|[x c] cs0 IH]; intros [|[y d] ds0]; cbn [zipd]; auto; rewrite IH; auto).
  rewrite Z. destruct k; try discriminate; destruct (List.length cs =? List.length ds); auto.
Qed.

Lemma td_named : forall c cs ds, td (Node (KNamed c) cs) (Node (KNamed c) ds) = sequence_diff (KNamed c) (zipd cs ds).
Proof.
  intros n cs ds. cbn [tree_difference]. destruct (kind_eqb_spec (KNamed n) (KNamed n)); [|congruence]. reflexivity.
Qed.

Lemma td_dict : forall cs ds, td (Node KDict cs) (Node KDict ds) = mapping_diff (dict_items cs ds).
Proof.
  intros cs ds. cbn [tree_difference kind_eqb negb]. unfold dict_items. f_equal. f_equal.
  induction cs as [|[x c] cs IH]; cbn [commond]; auto. destruct (find_item x ds) as [d|]; auto. cbv zeta. destruct (no_diff (td c d)); auto. f_equal. auto.
Qed.

Lemma td_type : forall a b, type_of a <> type_of b -> td a b = Report (TypeDiff (type_of a) (type_of b)).
Proof.
  intros [x|k cs] [y|l ds] H; cbn [type_of] in *; auto; [congruence|]. cbn [tree_difference]. destruct (kind_eqb_spec k l); [congruence|]. auto.
Qed.

Lemma find_item_in : forall {A : Type} x (c : A) l, NoDup (map fst l) -> (find_item x l = Some c <-> In (x, c) l).
Proof.
  intros A x c l. induction l as [|[y d] l IH]; cbn [find_item map fst In]; intros N; [split; [discriminate|contradiction]|]. inversion_clear N as [|? ? N1 N2].
  destruct (key_eqb_spec x y) as [<-|NE].
  - split; [intros H; left; congruence|]. intros [H|H]; [congruence|]. apply (in_map fst) in H. contradiction.
  - rewrite IH by auto. split; auto. intros [H|H]; [congruence|auto].
Qed.

Lemma find_item_none : forall {A : Type} x (l : list (key * A)), find_item x l = None <-> ~ In x (map fst l).
Proof.
  intros A x l. induction l as [|[y d] l IH]; cbn [find_item map fst In]; [tauto|]. destruct (key_eqb_spec x y) as [<-|NE]; [split; [discriminate|tauto]|].
  rewrite IH. split; [intros H [E|I]; congruence|tauto].
Qed.

Lemma lacksd_spec : forall l x, lacksd l x = true <-> ~ In x (map fst l).
Proof. intros l x. unfold lacksd. rewrite <- find_item_none. destruct (find_item x l); split; congruence. Qed.

Lemma same_child : forall {A : Type} (l : list (key * A)) x c d, NoDup (map fst l) -> In (x, c) l -> In (x, d) l -> c = d.
Proof. intros A l x c d N I J. apply find_item_in in I, J; auto. congruence. Qed.

Lemma zipd_in : forall cs ds x r, map fst cs = map fst ds -> NoDup (map fst cs) ->
  (In (x, r) (zipd cs ds) <-> exists c d, In (x, c) cs /\ In (x, d) ds /\ r = td c d).
Proof.
  intros cs. induction cs as [|[y c] cs IH]; intros [|[z d] ds] x r E N; cbn [map fst] in E; try discriminate; cbn [zipd In].
  - split; [contradiction|]. intros (? & ? & [] & _).
  - injection E as <- E. cbn [map fst] in N. inversion_clear N as [|? ? N1 N2]. rewrite IH by auto. split.
    + intros [H|(c' & d' & I & J & ->)]; [injection H as <- <-; exists c, d; auto|exists c', d'; auto].
    + intros (c' & d' & [I|I] & [J|J] & ->).
      * left. congruence.
      * exfalso. apply N1. rewrite E. injection I as -> ->. apply (in_map fst) in J. auto.
      * exfalso. apply N1. injection J as -> ->. apply (in_map fst) in I. auto.
      * right. eauto.
Qed.

Lemma zipd_keys : forall cs ds, map fst cs = map fst ds -> map fst (zipd cs ds) = map fst cs.
Proof.
  intros cs. induction cs as [|[y c] cs IH]; intros [|[z d] ds] E; cbn [map fst] in E; try discriminate; auto. injection E as _ E. cbn [zipd map fst]. rewrite IH; auto.
Qed.

Lemma commond_in : forall ds cs x r, In (x, r) (commond ds cs) <-> exists c d, In (x, c) cs /\ find_item x ds = Some d /\ r = td c d /\ r <> NoDiff.
Proof.
  intros ds cs x r. induction cs as [|[y c] cs IH]; cbn [commond In]; [split; [contradiction|intros (? & ? & [] & _)]|].
  assert (ND : forall d : diff V, no_diff d = true <-> d = NoDiff) by (intros []; simpl; split; congruence).
  destruct (find_item y ds) as [d|] eqn:E; [destruct (no_diff (td c d)) eqn:E2|]; cbn [In]; rewrite IH.
  - apply ND in E2. split; [intros (c' & d' & I & J); exists c', d'; auto|]. intros (c' & d' & [I|I] & J & -> & K); [|exists c', d'; auto]. injection I as -> ->. rewrite E in J. congruence.
  - split; [intros [H|(c' & d' & I & J)]; [|exists c', d'; auto]|].
    + injection H as <- <-. exists c, d. spl; auto. intros H. apply ND in H. congruence.
    + intros (c' & d' & [I|I] & J & -> & K); [|right; exists c', d'; auto]. left. injection I as -> ->. congruence.
  - split; [intros (c' & d' & I & J); exists c', d'; auto|]. intros (c' & d' & [I|I] & J & -> & K); [|exists c', d'; auto]. injection I as -> ->. congruence.
Qed.

Lemma dict_items_in : forall cs ds x r, NoDup (map fst cs) -> NoDup (map fst ds) -> (In (x, r) (dict_items cs ds) <->
  (exists c d, In (x, c) cs /\ In (x, d) ds /\ r = td c d /\ r <> NoDiff) \/
  (exists c, In (x, c) cs /\ ~ In x (map fst ds) /\ r = Report (OnlyLeft c)) \/
  (exists d, In (x, d) ds /\ ~ In x (map fst cs) /\ r = Report (OnlyRight d))).
Proof.
  intros cs ds x r N M. unfold dict_items. rewrite !in_app_iff, commond_in.
  assert (A : forall (g : tree V -> report V) l m, In (x, r) (map (fun x => (fst x, Report (g (snd x)))) (filter (fun x => lacksd m (fst x)) l)) <->
    exists c, In (x, c) l /\ ~ In x (map fst m) /\ r = Report (g c)).
  { intros g l m. rewrite in_map_iff. split.
    - intros ((y & c) & E & I). injection E as -> <-. apply filter_In in I as [I J]. apply lacksd_spec in J. cbn [fst snd] in *. eauto.
    - intros (c & I & J & ->). exists (x, c). split; auto. apply filter_In. split; auto. apply lacksd_spec. auto. }
  rewrite (A (@OnlyLeft V)), (A (@OnlyRight V)).
  apply or_iff_compat_r. split; intros (c & d & I & J & K); exists c, d; rewrite find_item_in in * by auto; auto.
Qed.

Lemma reported_nodiff : forall p r, ~ reported (@NoDiff V) p r.
Proof. intros p r H. inversion H. Qed.

Lemma reported_seq : forall k (l : list (key * diff V)) p r, reported (sequence_diff k l) p r <-> exists x d q, p = x :: q /\ In (x, d) l /\ reported d q r.
Proof.
  intros k l p r. unfold sequence_diff. destruct (forallb _ l) eqn:E.
  - split; [intros H; inversion H|]. intros (x & d & q & -> & I & H). rewrite forallb_forall in E. apply E in I. destruct d; try discriminate. inversion H.
  - split; [intros H; inversion H; subst; do 3 eexists; eauto|]. intros (x & d & q & -> & I & H). econstructor; eauto.
Qed.

Lemma reported_map : forall (l : list (key * diff V)) p r, reported (mapping_diff l) p r <-> exists x d q, p = x :: q /\ In (x, d) l /\ reported d q r.
Proof.
  intros l p r. unfold mapping_diff. destruct l as [|y l].
  - split; [intros H; inversion H|]. intros (x & d & q & -> & [] & _).
  - split; [intros H; inversion H; subst; do 3 eexists; eauto|]. intros (x & d & q & -> & I & H). econstructor; eauto.
Qed.

Lemma zip_case : forall k cs ds p r, k <> KDict -> k <> KNone -> map fst cs = map fst ds -> NoDup (map fst cs) ->
  Forall (fun x => forall b p r, wf (snd x) -> wf b -> forall fields, classed fields (snd x) -> classed fields b -> (reported (td (snd x) b) p r <-> differs eqv (snd x) b p r)) cs ->
  Forall (fun x => wf (snd x)) cs -> Forall (fun x => wf (snd x)) ds ->
  forall fields, Forall (fun x => classed fields (snd x)) cs -> Forall (fun x => classed fields (snd x)) ds ->
  (reported (sequence_diff k (zipd cs ds)) p r <-> differs eqv (Node k cs) (Node k ds) p r).
Proof.
  intros k cs ds p r K1 K2 E N F W1 W2 fields C1 C2. rewrite reported_seq. rewrite Forall_forall in *.
  assert (LE : List.length cs = List.length ds) by (rewrite <- (map_length fst cs), E, map_length; auto). split.
  - intros (x & d & q & -> & I & H). apply zipd_in in I as (c & d' & I & J & ->); auto. apply differs_child with (c := c) (d := d'); auto.
    apply (F (x, c) I d' q r (W1 _ I) (W2 _ J) fields (C1 _ I) (C2 _ J)). auto.
  - intros H. inversion H as [|? ? T|? ? ? ? L| | |? ? ? x c d q ? L I J D]; subst; try congruence.
    + cbn [type_of] in T. congruence.
    + exists x, (td c d), q. split; auto. split; [apply zipd_in; eauto|]. apply (F (x, c) I d q r (W1 _ I) (W2 _ J) fields (C1 _ I) (C2 _ J)). auto.
Qed.

Theorem reports : forall (a b : tree V) p r, wf a -> wf b -> forall fields, classed fields a -> classed fields b ->
  (reported (td a b) p r <-> differs eqv a b p r).
Proof.
  intros a. induction a as [x|k cs F] using tree_ind'; intros b p r WA WB fields CA CB.
  - destruct b as [y|l ds].
    + cbn [tree_difference]. destruct (eqv x y) eqn:E.
      * split; [intros H; inversion H|]. intros H. inversion H as [|? ? T| | | |]; subst; [congruence|]. cbn [type_of] in T. congruence.
      * split; [intros H; inversion H; subst; constructor; auto|]. intros H. inversion H as [|? ? T| | | |]; subst; [constructor|]. cbn [type_of] in T. congruence.
    + rewrite td_type by discriminate. split; [intros H; inversion H; subst; apply differs_type; discriminate|]. intros H. inversion H; subst. constructor.
  - destruct b as [y|l ds].
    + rewrite td_type by discriminate. split; [intros H; inversion H; subst; apply differs_type; discriminate|]. intros H. inversion H; subst. constructor.
    + destruct (kind_eqb_spec k l) as [<-|NK].
      2:{ rewrite td_type by (cbn [type_of]; congruence). split; [intros H; inversion H; subst; apply differs_type; cbn [type_of]; congruence|]. intros H. inversion H; subst; try congruence. constructor. }
      inversion_clear WA as [|? ? WA1 WA2]. inversion_clear WB as [|? ? WB1 WB2]. inversion_clear CA as [|? ? CA1 CA2]. inversion_clear CB as [|? ? CB1 CB2].
      assert (N := keys_nodup _ _ WA1). assert (M := keys_nodup _ _ WB1).
      assert (SEQ : is_sequence k = true -> (reported (td (Node k cs) (Node k ds)) p r <-> differs eqv (Node k cs) (Node k ds) p r)).
      { intros S. rewrite td_zip by auto. destruct (Nat.eqb_spec (List.length cs) (List.length ds)) as [E|E].
        - apply zip_case with (fields := fields); auto; try (intros ->; discriminate).
          destruct k; try discriminate; cbn [keys_fit] in *; rewrite WA1, WB1, !map_length, E; auto.
        - split.
          + intros H. inversion H; subst. constructor; auto.
          + intros H. inversion H as [|? ? T|? ? ? ? L| | |? ? ? x c d q ? L I J D]; subst; try discriminate; [cbn [type_of] in T; congruence|constructor|]. exfalso. auto. }
      destruct k; auto.
      * rewrite td_dict, reported_map. rewrite Forall_forall in *. split.
        -- intros (x & d & q & -> & I & H). apply dict_items_in in I; auto. destruct I as [(c & d' & I & J & -> & _)|[(c & I & J & ->)|(d' & I & J & ->)]].
           ++ apply differs_child with (c := c) (d := d'); auto; [discriminate|]. apply (F (x, c) I d' q r (WA2 _ I) (WB2 _ J) fields (CA2 _ I) (CB2 _ J)). auto.
           ++ inversion H; subst. apply differs_left; auto.
           ++ inversion H; subst. apply differs_right; auto.
        -- intros H. inversion H as [|? ? T|? ? ? ? L|? ? x c I J|? ? x d I J|? ? ? x c d q ? L I J D]; subst; try discriminate.
           ++ cbn [type_of] in T. congruence.
           ++ exists x, (Report (OnlyLeft c)), []. split; auto. split; [apply dict_items_in; eauto 6|constructor].
           ++ exists x, (Report (OnlyRight d)), []. split; auto. split; [apply dict_items_in; eauto 6|constructor].
           ++ assert (R : reported (td c d) q r) by (apply (F (x, c) I d q r (WA2 _ I) (WB2 _ J) fields (CA2 _ I) (CB2 _ J)); auto).
              exists x, (td c d), q. split; auto. split; auto. apply dict_items_in; auto. left. exists c, d. spl; auto. intros E. rewrite E in R. inversion R.
      * rewrite td_named. apply zip_case with (fields := fields); auto; try discriminate. rewrite (CA1 c eq_refl), (CB1 c eq_refl). auto.
      * cbn [keys_fit] in *. apply map_eq_nil in WA1, WB1. subst. cbn [tree_difference kind_eqb negb]. split; [intros H; inversion H|].
        intros H. inversion H as [|? ? T|? ? ? ? L|? ? x c I J|? ? x d I J|? ? ? x c d q ? L I J D]; subst; try discriminate; [cbn [type_of] in T; congruence|contradiction].
Qed.

(** ** The shape of the result *)

Lemma shape : forall (a b : tree V) fields, wf a -> wf b -> classed fields a -> classed fields b -> fits a b (td a b).
Proof.
  intros a. induction a as [x|k cs F] using tree_ind'; intros b fields WA WB CA CB.
  - destruct b as [y|l ds]; [|constructor]. cbn [tree_difference]. destruct (eqv x y); constructor.
  - destruct b as [y|l ds]; [constructor|]. destruct (kind_eqb_spec k l) as [<-|NK]; [|rewrite td_type by (cbn [type_of]; congruence); constructor].
    inversion_clear WA as [|? ? WA1 WA2]. inversion_clear WB as [|? ? WB1 WB2]. inversion_clear CA as [|? ? CA1 CA2]. inversion_clear CB as [|? ? CB1 CB2].
    assert (N := keys_nodup _ _ WA1). assert (M := keys_nodup _ _ WB1). rewrite Forall_forall in *.
    assert (Z : map fst cs = map fst ds -> k <> KDict -> fits (Node k cs) (Node k ds) (sequence_diff k (zipd cs ds))).
    { intros E NK. unfold sequence_diff. destruct (forallb _ _) eqn:A; [constructor|]. apply fits_other; auto.
      - apply zipd_keys; auto.
      - rewrite zipd_keys; auto.
      - clear - A. induction (zipd cs ds) as [|[x d] l IH]; [discriminate|]. cbn [forallb snd] in A. destruct d; cbn [no_diff andb] in A.
        + destruct (IH A) as (z & I & H). exists z. split; auto. right. auto.
        + eexists. split; [left; reflexivity|discriminate].
        + eexists. split; [left; reflexivity|discriminate].
      - intros x c d e I J K. apply zipd_in in K as (c' & d' & I' & J' & ->); auto. rewrite (same_child cs x c c'), (same_child ds x d d') by auto.
        apply (F (x, c') I' d' fields (WA2 _ I') (WB2 _ J') (CA2 _ I') (CB2 _ J')). }
    assert (SEQ : is_sequence k = true -> fits (Node k cs) (Node k ds) (td (Node k cs) (Node k ds))).
    { intros S. rewrite td_zip by auto. destruct (Nat.eqb_spec (List.length cs) (List.length ds)) as [E|E]; [|constructor]. apply Z; [|intros ->; discriminate].
      destruct k; try discriminate; cbn [keys_fit] in *; rewrite WA1, WB1, !map_length, E; auto. }
    destruct k; auto.
    + rewrite td_dict. unfold mapping_diff. destruct (dict_items cs ds) as [|y l] eqn:E; [constructor|]. rewrite <- E. assert (NE : dict_items cs ds <> []) by congruence. clear E y l.
      apply fits_dict; auto.
      * unfold dict_items. rewrite !map_app. rewrite !map_map. cbn [fst]. apply NoDup_app_intro; [|apply NoDup_app_intro|].
        -- clear - N. induction cs as [|[x c] cs IH]; cbn [commond map fst]; [constructor|]. cbn [map fst] in N. inversion_clear N as [|? ? N1 N2].
           destruct (find_item x ds); auto. destruct (no_diff _); auto. cbn [map fst]. constructor; auto. intros I. apply in_map_iff in I as ((y & r) & E & I). cbn [fst] in E. subst y.
           apply commond_in in I as (c' & d' & I & _). apply (in_map fst) in I. contradiction.
        -- change (map (fun x : key * tree V => fst x)) with (map (@fst key (tree V))). apply NoDup_map_filter. auto.
        -- change (map (fun x : key * tree V => fst x)) with (map (@fst key (tree V))). apply NoDup_map_filter. auto.
        -- intros x I J. apply in_map_iff in I as (z & <- & I). apply in_map_iff in J as (w & E & J). apply filter_In in I as [I _]. apply filter_In in J as [J K]. apply lacksd_spec in K.
           apply K. rewrite E. apply in_map. auto.
        -- intros x I J. apply in_map_iff in I as ((y & r) & E & I). cbn [fst] in E. subst y. apply commond_in in I as (c & d & I & K & _). apply find_item_in in K; auto.
           apply in_app_or in J as [J|J]; apply in_map_iff in J as (w & <- & J); apply filter_In in J as [J L]; apply lacksd_spec in L; apply L.
           ++ apply (in_map fst) in K. auto.
           ++ apply (in_map fst) in I. auto.
      * intros x d I. apply dict_items_in in I; auto. destruct I as [(c & d' & I & J & -> & K)|[(c & I & J & ->)|(d' & I & J & ->)]].
        -- apply (in_map fst) in I. auto.
        -- apply (in_map fst) in I. split; [discriminate|auto].
        -- apply (in_map fst) in I. split; [discriminate|auto].
      * intros x c d e I J K. apply dict_items_in in K; auto. destruct K as [(c' & d' & I' & J' & -> & K)|[(c' & I' & J' & ->)|(d' & I' & J' & ->)]]; try constructor.
        rewrite (same_child cs x c c'), (same_child ds x d d') by auto. apply (F (x, c') I' d' fields (WA2 _ I') (WB2 _ J') (CA2 _ I') (CB2 _ J')).
    + rewrite td_named. apply Z; [|discriminate]. rewrite (CA1 c eq_refl), (CB1 c eq_refl). auto.
    + cbn [tree_difference kind_eqb negb]. constructor.
Qed.

Lemma some_report : forall (a b : tree V) fields, wf a -> wf b -> classed fields a -> classed fields b -> td a b <> NoDiff -> exists p r, reported (td a b) p r.
Proof.
  intros a. induction a as [x|k cs F] using tree_ind'; intros b fields WA WB CA CB.
  - destruct b as [y|l ds]; cbn [tree_difference]; [destruct (eqv x y); [congruence|]|]; intros _; eexists; eexists; constructor.
  - destruct b as [y|l ds]; [cbn [tree_difference]; intros _; eexists; eexists; constructor|].
    destruct (kind_eqb_spec k l) as [<-|NK]; [|rewrite td_type by (cbn [type_of]; congruence); eexists; eexists; constructor].
    inversion_clear WA as [|? ? WA1 WA2]. inversion_clear WB as [|? ? WB1 WB2]. inversion_clear CA as [|? ? CA1 CA2]. inversion_clear CB as [|? ? CB1 CB2].
    assert (N := keys_nodup _ _ WA1). assert (M := keys_nodup _ _ WB1). rewrite Forall_forall in *.
    assert (Z : map fst cs = map fst ds -> sequence_diff k (zipd cs ds) <> NoDiff -> exists p r, reported (sequence_diff k (zipd cs ds)) p r).
    { intros E H. assert (X : exists x d, In (x, d) (zipd cs ds) /\ d <> NoDiff).
      { unfold sequence_diff in H. destruct (forallb _ _) eqn:A; [congruence|]. clear - A. induction (zipd cs ds) as [|[x d] l IH]; [discriminate|]. cbn [forallb snd] in A. destruct d; cbn [no_diff andb] in A.
        - destruct (IH A) as (z & d & I & H). exists z, d. split; auto. right. auto.
        - eexists. eexists. split; [left; reflexivity|discriminate].
        - eexists. eexists. split; [left; reflexivity|discriminate]. }
      destruct X as (x & d & I & D). assert (I' := I). apply zipd_in in I as (c & d' & I & J & ->); auto.
      destruct (F (x, c) I d' fields (WA2 _ I) (WB2 _ J) (CA2 _ I) (CB2 _ J) D) as (p & r & R). exists (x :: p), r. apply reported_seq. exists x, (td c d'), p. auto. }
    assert (SEQ : is_sequence k = true -> td (Node k cs) (Node k ds) <> NoDiff -> exists p r, reported (td (Node k cs) (Node k ds)) p r).
    { intros S. rewrite td_zip by auto. destruct (Nat.eqb_spec (List.length cs) (List.length ds)) as [E|E]; [|intros _; eexists; eexists; constructor]. apply Z.
      destruct k; try discriminate; cbn [keys_fit] in *; rewrite WA1, WB1, !map_length, E; auto. }
    destruct k; auto.
    + rewrite td_dict. intros H. destruct (dict_items cs ds) as [|[x d] l] eqn:E; [contradiction|].
      assert (I : In (x, d) (dict_items cs ds)) by (rewrite E; left; auto). rewrite <- E. clear E H. assert (I0 := I). apply dict_items_in in I; auto.
      assert (R : exists p r, reported d p r).
      { destruct I as [(c & d' & I & J & -> & K)|[(c & I & J & ->)|(d' & I & J & ->)]]; try (eexists; eexists; constructor; fail).
        apply (F (x, c) I d' fields (WA2 _ I) (WB2 _ J) (CA2 _ I) (CB2 _ J) K). }
      destruct R as (p & r & R). exists (x :: p), r. apply reported_map. exists x, d, p. auto.
    + rewrite td_named. apply Z. rewrite (CA1 c eq_refl), (CB1 c eq_refl). auto.
Qed.

Theorem none_reports : forall (a b : tree V) fields, wf a -> wf b -> classed fields a -> classed fields b ->
  (td a b = NoDiff <-> forall p r, ~ differs eqv a b p r).
Proof.
  intros a b fields WA WB CA CB. split.
  - intros E p r D. apply (reports a b p r WA WB fields CA CB) in D. rewrite E in D. inversion D.
  - intros H. destruct (td a b) eqn:E; auto; exfalso.
    + destruct (some_report a b fields WA WB CA CB) as (p & r' & R); [congruence|]. apply (reports a b p r' WA WB fields CA CB) in R. eapply H; eauto.
    + destruct (some_report a b fields WA WB CA CB) as (p & r' & R); [congruence|]. apply (reports a b p r' WA WB fields CA CB) in R. eapply H; eauto.
Qed.

(** ** Equality *)

Lemma forall2_keys : forall (R : tree V -> tree V -> Prop) (cs ds : list (key * tree V)), Forall2 (fun x y => fst x = fst y /\ R (snd x) (snd y)) cs ds <->
  map fst cs = map fst ds /\ forall i x c y d, nth_error cs i = Some (x, c) -> nth_error ds i = Some (y, d) -> R c d.
Proof.
  intros R cs. induction cs as [|[x c] cs IH]; intros [|[y d] ds].
  - split; [intros _; split; auto; intros [|i]; discriminate|constructor].
  - split; [intros H; inversion H|intros [H _]; discriminate].
  - split; [intros H; inversion H|intros [H _]; discriminate].
  - split.
    + intros H. inversion H as [|? ? ? ? [E H1] H2]; subst. apply IH in H2 as [H2 H3]. cbn [map fst snd] in *. split; [congruence|]. intros [|i] x' c' y' d'; cbn [nth_error]; [|apply H3].
      intros A B. congruence.
    + intros [E H]. cbn [map fst] in E. injection E as -> E. constructor; [split; auto; cbn [snd]; eapply (H 0); reflexivity|]. apply IH. split; auto. intros i. apply (H (S i)).
Qed.

Lemma nth_same_key : forall (cs ds : list (key * tree V)) i x c y d, map fst cs = map fst ds -> nth_error cs i = Some (x, c) -> nth_error ds i = Some (y, d) -> x = y.
Proof.
  intros cs ds i x c y d E A B. apply (map_nth_error fst) in A, B. rewrite E in A. cbn [fst] in *. congruence.
Qed.

Theorem none_peq : (forall x y, eqv x y = true <-> x = y) -> forall (a b : tree V) fields, wf a -> wf b -> classed fields a -> classed fields b ->
  ((forall p r, ~ differs eqv a b p r) <-> peq a b).
Proof.
  intros EQ a. induction a as [x|k cs F] using tree_ind'; intros b fields WA WB CA CB.
  - destruct b as [y|l ds].
    + split.
      * intros H. assert (E : eqv x y = true) by (destruct (eqv x y) eqn:E; auto; exfalso; eapply H; constructor; eauto). apply EQ in E. subst. constructor.
      * intros H. inversion H; subst. intros p r D. inversion D as [? ? E|? ? T| | | |]; subst; [|cbn [type_of] in T; congruence]. assert (eqv y y = true) by (apply EQ; auto). congruence.
    + split; [intros H; exfalso; eapply H; apply differs_type; discriminate|intros H; inversion H].
  - destruct b as [y|l ds]; [split; [intros H; exfalso; eapply H; apply differs_type; discriminate|intros H; inversion H]|].
    destruct (kind_eqb_spec k l) as [<-|NK]; [|split; [intros H; exfalso; eapply H; apply differs_type; cbn [type_of]; congruence|intros H; inversion H; subst; congruence]].
    inversion_clear WA as [|? ? WA1 WA2]. inversion_clear WB as [|? ? WB1 WB2]. inversion_clear CA as [|? ? CA1 CA2]. inversion_clear CB as [|? ? CB1 CB2].
    assert (N := keys_nodup _ _ WA1). assert (M := keys_nodup _ _ WB1). rewrite Forall_forall in *. split.
    + intros H. assert (SUB : (is_sequence k = true -> List.length cs = List.length ds) -> forall x c d, In (x, c) cs -> In (x, d) ds -> peq c d).
      { intros L x c d I J. apply (F (x, c) I d fields (WA2 _ I) (WB2 _ J) (CA2 _ I) (CB2 _ J)). intros p r D. eapply H. eapply differs_child; eauto. }
      assert (LEN : is_sequence k = true -> List.length cs = List.length ds).
      { intros S. destruct (Nat.eq_dec (List.length cs) (List.length ds)); auto. exfalso. eapply H. apply differs_length; auto. }
      assert (KEYS : k <> KDict -> map fst cs = map fst ds).
      { intros NK. destruct k; cbn [keys_fit] in *; try congruence.
        - rewrite WA1, WB1, !map_length, LEN; auto.
        - rewrite WA1, WB1, !map_length, LEN; auto.
        - rewrite (CA1 c eq_refl), (CB1 c eq_refl). auto. }
      destruct (kind_eqb_spec k KDict) as [->|NK].
      * assert (KL : forall x, In x (map fst cs) <-> In x (map fst ds)).
        { intros x. split; intros I.
          - destruct (in_dec (fun a b => reflect_dec _ _ (key_eqb_spec a b)) x (map fst ds)) as [J|J]; auto. exfalso.
            apply in_map_iff in I as ((x' & c) & <- & I). eapply H. apply differs_left; eauto.
          - destruct (in_dec (fun a b => reflect_dec _ _ (key_eqb_spec a b)) x (map fst cs)) as [J|J]; auto. exfalso.
            apply in_map_iff in I as ((x' & c) & <- & I). eapply H. apply differs_right; eauto. }
        (* the children of a in the order of b *)
        set (pick := fun y : key * tree V => (fst y, match find_item (fst y) cs with Some c => c | None => snd y end)).
        assert (P1 : forall y, In y ds -> In (pick y) cs).
        { intros y I. unfold pick. apply (in_map fst) in I. apply KL in I. destruct (find_item (fst y) cs) as [c|] eqn:E; [apply find_item_in in E; auto|]. apply find_item_none in E. contradiction. }
        apply peq_dict with (cs' := map pick ds).
        -- apply NoDup_Permutation.
           ++ apply (NoDup_map_inv fst). auto.
           ++ apply (NoDup_map_inv fst). rewrite map_map. cbn [pick fst]. auto.
           ++ intros [x c]. split; [|intros I; apply in_map_iff in I as (y & <- & I); auto]. intros I. assert (J := I). apply (in_map fst) in J. apply KL in J. apply in_map_iff in J as (y & E & J).
              apply in_map_iff. exists y. split; auto. unfold pick. cbn [fst] in E. rewrite E. assert (I2 := I). apply find_item_in in I2; auto. rewrite I2. auto.
        -- apply forall2_keys. split; [rewrite map_map; cbn [pick fst]; auto|]. intros i x c y d A B. assert (J := nth_error_In _ _ B). rewrite (map_nth_error pick _ _ B) in A. injection A as E1 E2.
           apply (SUB LEN y); auto. apply P1 in J. unfold pick in J. cbn [fst snd] in *. rewrite E2 in J. auto.
      * apply peq_node. apply forall2_keys. split; auto. intros i x c y d A B. assert (x = y) by (apply (nth_same_key cs ds i x c y d); auto). subst y. apply (SUB LEN x); eapply nth_error_In; eauto.
    + intros H p r D.
      assert (SUB : forall x c d, In (x, c) cs -> In (x, d) ds -> peq c d -> forall p r, ~ differs eqv c d p r).
      { intros x c d I J P. apply (F (x, c) I d fields (WA2 _ I) (WB2 _ J) (CA2 _ I) (CB2 _ J)). auto. }
      assert (X : exists cs', Permutation cs cs' /\ Forall2 (fun x y => fst x = fst y /\ peq (snd x) (snd y)) cs' ds).
      { inversion H; subst; [exists cs; auto|exists cs'; auto]. }
      destruct X as (cs' & P & F2). apply forall2_keys in F2 as [K2 F2].
      assert (KL : forall x, In x (map fst cs) <-> In x (map fst ds)).
      { intros x. rewrite <- K2. split; apply Permutation_in; [|apply Permutation_sym]; apply Permutation_map; auto. }
      inversion D as [|? ? T|? ? ? ? L|? ? x c I J|? ? x d I J|? ? ? x c d q ? L I J D']; subst.
      * cbn [type_of] in T. congruence.
      * apply L. rewrite (Permutation_length P). rewrite <- (map_length fst cs'), K2, map_length. auto.
      * apply J. apply KL. apply (in_map fst) in I. auto.
      * apply J. apply KL. apply (in_map fst) in I. auto.
      * assert (I' := Permutation_in _ P I). apply In_nth_error in I' as (i & A).
        assert (B := map_nth_error fst _ _ A). rewrite K2 in B. cbn [fst] in B. rewrite nth_error_map in B. destruct (nth_error ds i) as [[y d2]|] eqn:E; [|discriminate]. cbn [option_map fst] in B. injection B as ->.
        assert (d2 = d) by (apply (same_child ds x); auto; eapply nth_error_In; eauto). subst d2. apply (SUB x c d I J (F2 i x c x d A E) q r D').
Qed.
End Diff.
