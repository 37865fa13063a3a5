(** Proofs for the synchronous manager. *)
From Coq Require Import ZArith List Bool Permutation Lia Sorted.
From Verif Require Import Base Policy_Model Policy_Spec Policy_Proofs Manager_Model Manager_Spec.
Import ListNotations.
Local Open Scope Z_scope.

(** * Directory lemmas *)

Lemma dremove_In : forall {A} s (d : list (Z * A)) t c, In (t, c) (dremove s d) <-> In (t, c) d /\ t <> s.
Proof.
  intros. unfold dremove. rewrite filter_In. simpl. destruct (Z.eqb_spec t s); simpl; intuition congruence.
Qed.

Lemma dremove_steps : forall {A} s (d : list (Z * A)),
  map fst (dremove s d) = filter (fun t => negb (t =? s)) (map fst d).
Proof. induction d as [|[t c] d IH]; simpl; auto. destruct (t =? s); simpl; congruence. Qed.

Lemma dremove_notin : forall {A} s (d : list (Z * A)), ~ In s (map fst d) -> dremove s d = d.
Proof.
  induction d as [|[t c] d IH]; simpl; intro H; auto.
  destruct (Z.eqb_spec t s); [intuition|]. simpl. f_equal. apply IH; intuition.
Qed.

Lemma dget_Some : forall s d c, NoDup (map fst d) -> (dget s d = Some c <-> In (s, c) d).
Proof.
  induction d as [|[t c'] d IH]; simpl; intros c ND; [split; [discriminate|tauto]|].
  inversion ND; subst. destruct (Z.eqb_spec s t).
  - subst. split; [intro H; inversion H; auto|]. intros [H|H]; [congruence|].
    exfalso. apply H1. apply (in_map fst) in H. auto.
  - rewrite IH by auto. split; [auto|]. intros [H|H]; [congruence|auto].
Qed.

Lemma dget_None : forall s d, dget s d = None <-> ~ In s (map fst d).
Proof.
  induction d as [|[t c'] d IH]; simpl; [tauto|].
  destruct (Z.eqb_spec s t); [subst; split; [discriminate|tauto]|]. rewrite IH. intuition congruence.
Qed.

Lemma existsb_In : forall s l, existsb (Z.eqb s) l = true <-> In s l.
Proof.
  intros. rewrite existsb_exists. split.
  - intros (x & H & E). apply Z.eqb_eq in E; subst; auto.
  - intro H. exists s. split; auto. apply Z.eqb_refl.
Qed.

Lemma existsb_notIn : forall s l, existsb (Z.eqb s) l = false <-> ~ In s l.
Proof. intros. rewrite <- existsb_In. destruct (existsb (Z.eqb s) l); intuition congruence. Qed.

Lemma NoDup_filter' : forall {A} (f : A -> bool) l, NoDup l -> NoDup (filter f l).
Proof. intros. apply NoDup_filter. auto. Qed.

Lemma exec_app : forall a b d, exec (a ++ b) d = exec b (exec a d).
Proof. intros. unfold exec. apply fold_left_app. Qed.

Definition op_step (o : op) : Z :=
  match o with
  | ODamage s | ORemove s | OMkTmp s | ORmTmp s | OCommit s _ | OTrash s | OTrashTmp s => s
  end.

Lemma apply_op_other : forall o d t c, op_step o <> t ->
  (In (t, c) (committed (apply_op o d)) <-> In (t, c) (committed d)).
Proof.
  intros o d t c H. destruct o; simpl in *; try tauto.
  - rewrite in_map_iff. split.
    + intros ((t' & c') & E & HI). simpl in E. destruct (Z.eqb_spec t' s); inversion E; subst; [congruence|auto].
    + intro HI. exists (t, c). simpl. destruct (Z.eqb_spec t s); [congruence|auto].
  - rewrite dremove_In. intuition.
  - unfold dput. rewrite in_app_iff, dremove_In. simpl. intuition congruence.
  - rewrite dremove_In. intuition.
Qed.

Lemma exec_other : forall ops d t c, (forall o, In o ops -> op_step o <> t) ->
  (In (t, c) (committed (exec ops d)) <-> In (t, c) (committed d)).
Proof.
  induction ops as [|o ops IH]; intros d t c H; simpl; [tauto|].
  unfold exec in *. simpl. rewrite IH by (intros; apply H; simpl; auto).
  apply apply_op_other. apply H; simpl; auto.
Qed.

(** * The deleter *)

Lemma delete_ops_touch : forall mode s d ops e, delete_ops mode s d = (ops, e) ->
  forall o, In o ops -> op_step o = s.
Proof.
  intros mode s d ops e H o Ho. unfold delete_ops in H.
  destruct (existsb (Z.eqb s) (tmps d)); [|destruct (dget s (committed d))]; destruct mode;
    try (destruct (existsb _ (trash d))); inversion H; subst; simpl in Ho; intuition (subst; auto).
Qed.

Lemma delete_steps_touch : forall mode ss d ops e, delete_steps_ops mode ss d = (ops, e) ->
  forall o, In o ops -> In (op_step o) ss.
Proof.
  induction ss as [|s ss IH]; intros d ops e H o Ho; simpl in H; [inversion H; subst; destruct Ho|].
  destruct (delete_ops mode s d) as [ops1 e1] eqn:E1.
  destruct e1; [inversion H; subst; simpl; left; symmetry; eapply delete_ops_touch; eauto|].
  destruct (delete_steps_ops mode ss (exec ops1 d)) as [ops2 e2] eqn:E2. inversion H; subst.
  apply in_app_iff in Ho. destruct Ho as [Ho|Ho].
  - simpl. left. symmetry. eapply delete_ops_touch; eauto.
  - simpl. right. eapply IH; eauto.
Qed.

Lemma damage_steps : forall s d, map fst (map (fun e : Z * ckpt => if fst e =? s then (fst e, damage (snd e)) else e) d) = map fst d.
Proof. intros. rewrite map_map. apply map_ext. intros [t c]. simpl. destruct (t =? s); auto. Qed.

Lemma dremove_damage : forall s (d : list (Z * ckpt)),
  dremove s (map (fun e => if fst e =? s then (fst e, damage (snd e)) else e) d) = dremove s d.
Proof.
  induction d as [|[t c] d IH]; simpl; auto. destruct (Z.eqb_spec t s); simpl.
  - subst. rewrite Z.eqb_refl. simpl. auto.
  - destruct (Z.eqb_spec t s); [congruence|]. simpl. congruence.
Qed.

Lemma delete_ops_effect : forall mode s d ops, wf_fs d -> delete_ops mode s d = (ops, None) ->
  committed (exec ops d) = dremove s (committed d) /\
  tmps (exec ops d) = filter (fun t => negb (t =? s)) (tmps d).
Proof.
  intros mode s d ops (ND & NN & DJ) H. unfold delete_ops in H.
  assert (FT : ~ In s (tmps d) -> filter (fun t => negb (t =? s)) (tmps d) = tmps d).
  { clear. induction (tmps d) as [|t l IH]; simpl; intro H; auto.
    destruct (Z.eqb_spec t s); [subst; intuition|]. simpl. f_equal. auto. }
  destruct (existsb (Z.eqb s) (tmps d)) eqn:ET.
  - apply existsb_In in ET. assert (X : committed d = dremove s (committed d)).
    { symmetry. apply dremove_notin. apply DJ. auto. }
    destruct mode; try (destruct (existsb _ (trash d))); inversion H; subst; simpl; auto.
  - apply existsb_notIn in ET. destruct (dget s (committed d)) eqn:EG.
    + destruct mode; try (destruct (existsb _ (trash d))); inversion H; subst; simpl;
        rewrite FT by auto; auto. split; auto. apply dremove_damage.
    + apply dget_None in EG. inversion H; subst. simpl. rewrite FT by auto. split; auto.
      symmetry. apply dremove_notin. auto.
Qed.

Lemma wf_remove : forall d d' s, wf_fs d -> committed d' = dremove s (committed d) ->
  tmps d' = filter (fun t => negb (t =? s)) (tmps d) -> wf_fs d'.
Proof.
  intros d d' s (ND & NN & DJ) HC HT. unfold wf_fs, committed_steps in *. rewrite HC, dremove_steps, HT.
  split; [apply NoDup_filter'; auto|]. split.
  - intros t H. apply filter_In in H. apply NN. tauto.
  - intros t H H'. apply filter_In in H. apply filter_In in H'. apply (DJ t); tauto.
Qed.

Lemma delete_ops_wf : forall mode s d ops, wf_fs d -> delete_ops mode s d = (ops, None) -> wf_fs (exec ops d).
Proof. intros. destruct (delete_ops_effect _ _ _ _ H H0). eapply wf_remove; eauto. Qed.

Lemma delete_steps_effect : forall mode ss d ops, wf_fs d -> delete_steps_ops mode ss d = (ops, None) ->
  wf_fs (exec ops d) /\
  forall t c, In (t, c) (committed (exec ops d)) <-> In (t, c) (committed d) /\ ~ In t ss.
Proof.
  induction ss as [|s ss IH]; intros d ops W H; simpl in H.
  - inversion H; subst. simpl. split; auto. intros. tauto.
  - destruct (delete_ops mode s d) as [ops1 e1] eqn:E1. destruct e1; [discriminate|].
    destruct (delete_steps_ops mode ss (exec ops1 d)) as [ops2 e2] eqn:E2.
    assert (e2 = None) by congruence. subst. inversion H; subst.
    destruct (IH _ _ (delete_ops_wf _ _ _ _ W E1) E2) as [W2 S2].
    rewrite exec_app. split; auto. intros t c. rewrite S2.
    destruct (delete_ops_effect _ _ _ _ W E1) as [C1 _]. rewrite C1, dremove_In. simpl. intuition.
Qed.

Lemma permanent_ok : forall ss d, exists ops, delete_steps_ops Permanent ss d = (ops, None).
Proof.
  induction ss as [|s ss IH]; intro d; simpl; [eauto|].
  unfold delete_ops. destruct (existsb (Z.eqb s) (tmps d)).
  - destruct (IH (exec [ORmTmp s] d)) as [o ->]. eauto.
  - destruct (dget s (committed d)).
    + destruct (IH (exec [ODamage s; ORemove s] d)) as [o ->]. eauto.
    + destruct (IH (exec [] d)) as [o ->]. eauto.
Qed.

Lemma permanent_ok1 : forall s d, exists ops, delete_ops Permanent s d = (ops, None).
Proof. intros. unfold delete_ops. destruct (existsb _ _); [eauto|]. destruct (dget _ _); eauto. Qed.

(** Every prefix of operations keeps the directory well formed as far as
    committed steps are concerned. *)
Definition ok_op (d : fs) (o : op) : Prop :=
  match o with
  | OMkTmp s => ~ In s (committed_steps d)
  | OCommit s _ => 0 <= s
  | _ => True
  end.

Lemma apply_op_wf : forall o d, wf_fs d -> ok_op d o -> wf_fs (apply_op o d).
Proof.
  intros o d (ND & NN & DJ) HO. unfold wf_fs, committed_steps in *.
  destruct o; simpl; simpl in HO.
  - rewrite damage_steps. auto.
  - rewrite dremove_steps. split; [apply NoDup_filter'; auto|]. split.
    + intros t H. apply filter_In in H. apply NN; tauto.
    + intros t H H'. apply filter_In in H'. apply (DJ t); tauto.
  - split; auto. split; auto. intros t [<-|H]; auto. apply filter_In in H. apply DJ; tauto.
  - split; auto. split; auto. intros t H. apply filter_In in H. apply DJ; tauto.
  - unfold dput. rewrite map_app, dremove_steps. simpl. split; [|split].
    + apply (Permutation_NoDup (l := s :: filter (fun t => negb (t =? s)) (map fst (committed d)))).
      * apply Permutation_cons_append.
      * constructor; [|apply NoDup_filter'; auto]. intro H. apply filter_In in H.
        destruct H as [_ H]. rewrite Z.eqb_refl in H. discriminate.
    + intros t H. apply in_app_iff in H. destruct H as [H|[H|[]]]; [|lia].
      apply filter_In in H. apply NN; tauto.
    + intros t H H'. apply filter_In in H. destruct H as [H1 H2].
      apply in_app_iff in H'. destruct H' as [H'|[H'|[]]].
      * apply filter_In in H'. apply (DJ t); tauto.
      * subst. rewrite Z.eqb_refl in H2. discriminate.
  - rewrite dremove_steps. split; [apply NoDup_filter'; auto|]. split.
    + intros t H. apply filter_In in H. apply NN; tauto.
    + intros t H H'. apply filter_In in H'. apply (DJ t); tauto.
  - split; auto. split; auto. intros t H. apply filter_In in H. apply DJ; tauto.
Qed.

Fixpoint ok_ops (d : fs) (ops : list op) : Prop :=
  match ops with
  | [] => True
  | o :: ops' => ok_op d o /\ ok_ops (apply_op o d) ops'
  end.

Lemma ok_ops_prefix : forall ops d k, wf_fs d -> ok_ops d ops -> wf_fs (exec (firstn k ops) d).
Proof.
  induction ops as [|o ops IH]; intros d k W H; [rewrite firstn_nil; auto|].
  destruct k; simpl; auto. destruct H. apply IH; auto. apply apply_op_wf; auto.
Qed.

Lemma ok_ops_app : forall a b d, ok_ops d (a ++ b) <-> ok_ops d a /\ ok_ops (exec a d) b.
Proof.
  induction a as [|o a IH]; intros b d; simpl; [tauto|]. rewrite IH. unfold exec. simpl. tauto.
Qed.

Lemma delete_ops_ok : forall mode s d ops e, delete_ops mode s d = (ops, e) -> ok_ops d ops.
Proof.
  intros mode s d ops e H. unfold delete_ops in H.
  destruct (existsb (Z.eqb s) (tmps d)); [|destruct (dget s (committed d))]; destruct mode;
    try (destruct (existsb _ (trash d))); inversion H; subst; simpl; auto.
Qed.

Lemma delete_steps_ok : forall mode ss d ops e, delete_steps_ops mode ss d = (ops, e) -> ok_ops d ops.
Proof.
  induction ss as [|s ss IH]; intros d ops e H; simpl in H; [inversion H; simpl; auto|].
  destruct (delete_ops mode s d) as [ops1 e1] eqn:E1. destruct e1.
  - inversion H; subst. eapply delete_ops_ok; eauto.
  - destruct (delete_steps_ops mode ss (exec ops1 d)) as [ops2 e2] eqn:E2. inversion H; subst.
    apply ok_ops_app. split; [eapply delete_ops_ok; eauto|eapply IH; eauto].
Qed.

Lemma write_ops_ok : forall s c ok d, wf_fs d -> 0 <= s -> ok_ops d (write_ops s c ok d).
Proof.
  intros s c ok d (ND & NN & DJ) Hs. unfold write_ops. destruct (dget s (committed d)) eqn:E.
  - simpl. unfold committed_steps. simpl. rewrite dremove_damage, dremove_steps.
    split; auto. split; auto. split; [|destruct ok; simpl; auto].
    intro H. apply filter_In in H. destruct H as [_ H]. rewrite Z.eqb_refl in H. discriminate.
  - apply dget_None in E. simpl. split; auto. destruct ok; simpl; auto.
Qed.

(** * Sorting *)

Lemma insert_by_perm : forall {A} (key : A -> Z) x l, Permutation (insert_by key x l) (x :: l).
Proof.
  induction l as [|y l IH]; simpl; auto. destruct (key x <? key y); auto.
  eapply perm_trans; [apply perm_skip, IH|apply perm_swap].
Qed.

Definition key_le {A} (key : A -> Z) (x y : A) : Prop := key x <= key y.

Lemma insert_by_sorted : forall {A} (key : A -> Z) x l,
  StronglySorted (key_le key) l -> StronglySorted (key_le key) (insert_by key x l).
Proof.
  induction l as [|y l IH]; simpl; intro H; [repeat constructor|].
  inversion H; subst. destruct (Z.ltb_spec (key x) (key y)).
  - constructor; auto. constructor; [unfold key_le; lia|]. rewrite Forall_forall in *.
    intros z Hz. specialize (H3 z Hz). unfold key_le in *. lia.
  - constructor; auto. rewrite Forall_forall in *. intros z Hz.
    apply (Permutation_in _ (insert_by_perm key x l)) in Hz. destruct Hz as [<-|Hz]; auto.
Qed.

Lemma py_sorted_gen : forall {A} (key : A -> Z) l acc, StronglySorted (key_le key) acc ->
  Permutation (fold_left (fun a x => insert_by key x a) l acc) (l ++ acc) /\
  StronglySorted (key_le key) (fold_left (fun a x => insert_by key x a) l acc).
Proof.
  induction l as [|x l IH]; intros acc H; simpl; [auto|].
  destruct (IH (insert_by key x acc)) as [P S]; [apply insert_by_sorted; auto|]. split; auto.
  eapply perm_trans; [exact P|]. eapply perm_trans; [apply Permutation_app_head, insert_by_perm|].
  symmetry. apply Permutation_middle.
Qed.

Lemma py_sorted_perm : forall {A} (key : A -> Z) l, Permutation (py_sorted key l) l.
Proof.
  intros. unfold py_sorted. eapply perm_trans; [apply py_sorted_gen; constructor|]. rewrite app_nil_r. auto.
Qed.

Lemma py_sorted_sorted : forall {A} (key : A -> Z) l, StronglySorted (key_le key) (py_sorted key l).
Proof. intros. apply py_sorted_gen. constructor. Qed.

(** * Loading *)

Lemma load_perm : forall skip d, (forall s, In s (committed_steps d) -> 0 <= s) ->
  Permutation (map step (load_infos skip d)) (committed_steps d).
Proof.
  intros skip d H. unfold load_infos, committed_steps.
  eapply perm_trans; [apply Permutation_map, py_sorted_perm|].
  rewrite map_map.
  replace (filter (fun e => 0 <=? fst e) (committed d)) with (committed d).
  - erewrite map_ext; [apply Permutation_refl|]. intros [t c]. destruct skip; reflexivity.
  - symmetry. unfold committed_steps in H. clear -H. induction (committed d) as [|[t c] l IH]; simpl; auto.
    assert (0 <= t) by (apply H; simpl; auto). destruct (Z.leb_spec 0 t); [|lia].
    f_equal. apply IH. intros. apply H. simpl. auto.
Qed.

Lemma load_sorted : forall skip d, NoDup (committed_steps d) ->
  (forall s, In s (committed_steps d) -> 0 <= s) ->
  StronglySorted Z.lt (map step (load_infos skip d)).
Proof.
  intros skip d ND NN.
  assert (N : NoDup (map step (load_infos skip d))).
  { eapply Permutation_NoDup; [symmetry; apply load_perm; auto|auto]. }
  pose proof (py_sorted_sorted step
    (map (fun e : Z * ckpt => if skip then mkInfo (fst e) datetime_min None
                   else mkInfo (fst e) (c_time (snd e)) (c_metrics (snd e)))
         (filter (fun e => 0 <=? fst e) (committed d)))) as S.
  fold (load_infos skip d) in S.
  induction S as [|x l S IH F]; simpl in *; constructor.
  - apply IH. inversion N; auto.
  - inversion N; subst. rewrite Forall_forall in *. intros y Hy. apply in_map_iff in Hy.
    destruct Hy as (z & <- & Hz). specialize (F z Hz). unfold key_le in F.
    assert (step x <> step z). { intro E. apply H1. rewrite E. apply in_map. auto. } lia.
Qed.

(** * Invariant *)

Definition Inv (x : fs * mgr) : Prop :=
  wf_fs (fst x) /\ Permutation (map step (cache (snd x))) (committed_steps (fst x)).

Lemma init_Inv : forall cfg d, wf_fs d -> Inv (d, init cfg d).
Proof. intros cfg d (ND & NN & DJ). split; [split; auto|]. simpl. apply load_perm. auto. Qed.

Lemma perm_of_In : forall l l' : list Z, NoDup l -> NoDup l' -> (forall x, In x l <-> In x l') -> Permutation l l'.
Proof. intros. apply NoDup_Permutation; auto. Qed.

Lemma Inv_In : forall x, Inv x -> forall s, In s (map step (cache (snd x))) <-> In s (committed_steps (fst x)).
Proof.
  intros x (_ & P) s. split; intro H; [eapply Permutation_in; eauto|].
  eapply Permutation_in; [symmetry; exact P|exact H].
Qed.

Lemma Inv_NoDup : forall x, Inv x -> NoDup (map step (cache (snd x))).
Proof. intros x ((ND & _) & P). eapply Permutation_NoDup; [symmetry; eauto|auto]. Qed.

Lemma make_Inv : forall d m, wf_fs d -> NoDup (map step (cache m)) ->
  (forall s, In s (map step (cache m)) <-> In s (committed_steps d)) -> Inv (d, m).
Proof. intros d m W N H. split; auto. simpl. apply perm_of_In; auto. apply W. Qed.

Lemma in_steps : forall d s, In s (committed_steps d) <-> exists c, In (s, c) (committed d).
Proof.
  intros. unfold committed_steps. rewrite in_map_iff. split.
  - intros ([t c] & E & H). simpl in E. subst. eauto.
  - intros (c & H). exists (s, c). auto.
Qed.

Lemma drop_steps_In : forall ss cs s, In s (map step (drop_steps ss cs)) <-> In s (map step cs) /\ ~ In s ss.
Proof.
  intros. unfold drop_steps. rewrite !in_map_iff. split.
  - intros (i & <- & H). apply filter_In in H. destruct H as [H1 H2]. split; [eauto|].
    rewrite <- existsb_In. destruct (existsb _ _); [discriminate|congruence].
  - intros ((i & <- & H) & N). exists i. split; auto. apply filter_In. split; auto.
    rewrite <- existsb_In in N. destruct (existsb _ _); [congruence|auto].
Qed.

Lemma NoDup_map_filter : forall {A B} (f : A -> B) p l, NoDup (map f l) -> NoDup (map f (filter p l)).
Proof.
  induction l as [|a l IH]; simpl; intro H; auto. inversion H; subst. destruct (p a); simpl; auto.
  constructor; auto. intro HI. apply H2. apply in_map_iff in HI. destruct HI as (x & E & HI).
  apply filter_In in HI. apply in_map_iff. exists x. tauto.
Qed.

Lemma steps_to_remove_In : forall cfg cs rm, steps_to_remove cfg cs = Ok rm ->
  forall t, In t rm <-> condemned cfg cs t.
Proof.
  intros cfg cs rm H t. unfold steps_to_remove in H. unfold condemned.
  destruct (o_preserve cfg cs) as [[flags|b]|e]; simpl in H; try discriminate. inversion H; subst.
  rewrite in_map_iff. split.
  - intros ([c f] & E & HI). apply filter_In in HI. destruct HI as [HI HF].
    apply In_nth_error in HI. destruct HI as [i HI]. exists flags, i, c. simpl in *. destruct f; [discriminate|].
    assert (X : forall (l : list info) (l' : list bool) i p, nth_error (combine l l') i = Some p ->
              nth_error l i = Some (fst p) /\ nth_error l' i = Some (snd p)).
    { induction l; intros l' j p; destruct l', j; simpl; try discriminate; auto.
      intro Hp. inversion Hp. auto. }
    apply X in HI. simpl in HI. tauto.
  - intros (flags' & i & c & E & H1 & H2 & H3). inversion E; subst flags'. exists (c, false). split; auto.
    apply filter_In. split; auto.
    assert (X : forall (l : list info) (l' : list bool) i a b, nth_error l i = Some a -> nth_error l' i = Some b ->
              In (a, b) (combine l l')).
    { induction l; intros l' j x y; destruct l', j; simpl; try discriminate.
      - intros A B. inversion A; inversion B; auto.
      - intros A B. right. eapply IHl; eauto. }
    eapply X; eauto.
Qed.

Lemma write_fresh : forall s c ok d, ~ In s (committed_steps d) ->
  write_ops s c ok d = [OMkTmp s] ++ (if ok then [OCommit s c] else []).
Proof. intros. unfold write_ops. rewrite (proj2 (dget_None s (committed d))); auto. Qed.

Lemma write_In : forall s c d, ~ In s (committed_steps d) ->
  forall t c', In (t, c') (committed (exec (write_ops s c true d) d)) <->
    In (t, c') (committed d) \/ (t = s /\ c' = c).
Proof.
  intros s c d H t c'. rewrite write_fresh by auto. simpl. unfold dput. rewrite in_app_iff, dremove_In. simpl.
  split.
  - intros [[H1 H2]|[E|[]]]; [auto|]. inversion E; auto.
  - intros [H1|[-> ->]]; auto. left. split; auto. intro; subst. apply H. apply in_steps. eauto.
Qed.

Lemma save_ops_ok : forall cfg a d m, wf_fs d -> 0 <= sv_step a ->
  ok_ops d (out_ops (save cfg a d m)).
Proof.
  intros cfg a d m W Hs. unfold save.
  assert (G : ok_ops d (out_ops (do_save cfg a d m))).
  { unfold do_save. destruct (existsb _ _); [simpl; auto|].
    destruct (negb (sv_write_ok a)); [simpl; apply write_ops_ok; auto|].
    destruct (steps_to_remove cfg _); [|simpl; apply write_ops_ok; auto].
    destruct (delete_steps_ops _ _ _) as [ops e] eqn:E. simpl. apply ok_ops_app.
    split; [apply write_ops_ok; auto|]. eapply delete_steps_ok; eauto. }
  destruct (sv_force a); auto. destruct (should_save _ _ _ _ _) as [[|]|]; simpl; auto.
Qed.

Lemma call_ops_ok : forall cfg c d m, wf_fs d -> nonneg_call c ->
  ok_ops d (out_ops (run_call cfg c d m)).
Proof.
  intros cfg c d m W H. destruct c; simpl in *; auto.
  - apply save_ops_ok; auto.
  - unfold delete. destruct (o_read_only cfg); simpl; auto. destruct (existsb _ _); simpl; auto.
    destruct (delete_ops _ _ _) as [ops e] eqn:E. destruct e; simpl; eapply delete_ops_ok; eauto.
  - unfold all_steps_call. destruct read; simpl; auto.
  - unfold restore. destruct (match s with Some s => Some s | None => latest_step m end); simpl; auto.
    destruct (dget _ _); simpl; auto. destruct (c_whole c); simpl; auto.
Qed.

Lemma crash_wf : forall cfg c x k, wf_fs (fst x) -> nonneg_call c -> wf_fs (crash_point cfg c x k).
Proof. intros. apply ok_ops_prefix; auto. apply call_ops_ok; auto. Qed.

(** What a save that goes through does. *)
Lemma do_save_spec : forall cfg a d m, Inv (d, m) -> 0 <= sv_step a ->
  (o_mode cfg = Permanent \/ exists v, out_res (do_save cfg a d m) = Ok v) ->
  Inv (exec (out_ops (do_save cfg a d m)) d, out_mgr (do_save cfg a d m)).
Proof.
  intros cfg a d m I Hs HU. pose proof (Inv_In _ I) as II. pose proof (Inv_NoDup _ I) as IN.
  destruct I as [W P]. simpl in *. unfold do_save in *.
  destruct (existsb (Z.eqb (sv_step a)) (all_steps m)) eqn:EX; [simpl; split; auto|].
  apply existsb_notIn in EX. unfold all_steps in EX.
  assert (NC : ~ In (sv_step a) (committed_steps d)) by (rewrite <- II; auto).
  destruct (sv_write_ok a) eqn:EW; simpl in *.
  2:{ rewrite write_fresh by auto. simpl. split; simpl; auto.
      apply (apply_op_wf (OMkTmp (sv_step a)) d W). simpl. auto. }
  set (w := write_ops (sv_step a) (ckpt_of cfg a) true d) in *.
  set (cs := cache m ++ [mkInfo (sv_step a) (sv_now a) (sv_metrics a)]) in *.
  assert (W1 : wf_fs (exec w d)).
  { replace w with (firstn (length w) w) by apply firstn_all. apply ok_ops_prefix; auto.
    apply write_ops_ok; auto. }
  assert (N1 : NoDup (map step cs)).
  { unfold cs. rewrite map_app. simpl. eapply Permutation_NoDup; [apply Permutation_cons_append|].
    constructor; auto. }
  assert (C1 : forall s, In s (map step cs) <-> In s (committed_steps (exec w d))).
  { intro s. rewrite in_steps. unfold w. setoid_rewrite (write_In _ _ _ NC). unfold cs.
    rewrite map_app, in_app_iff. simpl. rewrite II, in_steps. split.
    - intros [(c & H)|[H|[]]]; [exists c; auto|]. exists (ckpt_of cfg a). auto.
    - intros (c & [H|[H _]]); [left; eauto|auto]. }
  destruct (steps_to_remove cfg cs) as [rm|e] eqn:ER.
  2:{ simpl. apply make_Inv; auto. }
  destruct (delete_steps_ops (o_mode cfg) rm (exec w d)) as [ops e] eqn:ED. simpl in *.
  assert (E0 : e = None).
  { destruct HU as [HM|[v HV]]; [|destruct e; [discriminate|auto]].
    rewrite HM in ED. destruct (permanent_ok rm (exec w d)) as [o Ho]. congruence. }
  subst e. destruct (delete_steps_effect _ _ _ _ W1 ED) as [W2 C2].
  rewrite exec_app. apply make_Inv; auto.
  - simpl. apply NoDup_map_filter. auto.
  - intro s. simpl. rewrite drop_steps_In, C1, !in_steps. setoid_rewrite C2.
    split; [intros ((c & H) & N); exists c; auto|intros (c & H & N); split; eauto].
Qed.

Lemma call_Inv : forall cfg c x, Inv x -> nonneg_call c -> undisturbed cfg c x -> Inv (after_call cfg c x).
Proof.
  intros cfg c [d m] I HN HU. unfold after_call, undisturbed in *. simpl in *.
  destruct c; simpl in *.
  - unfold save in *. destruct (sv_force a); [apply do_save_spec; auto|].
    destruct (should_save _ _ _ _ _) as [[|]|]; [apply do_save_spec; auto|exact I|exact I].
  - unfold delete in *. destruct (o_read_only cfg); [exact I|].
    destruct (existsb _ _) eqn:EX; [|exact I].
    destruct (delete_ops (o_mode cfg) s d) as [ops e] eqn:ED.
    assert (E0 : e = None).
    { destruct HU as [HM|[v HV]]; [|destruct e; [discriminate|auto]].
      rewrite HM in ED. destruct (permanent_ok1 s d) as [o Ho]. congruence. }
    subst e. simpl. pose proof (Inv_In _ I) as II. pose proof (Inv_NoDup _ I) as IN. destruct I as [W P].
    simpl in *. destruct (delete_ops_effect _ _ _ _ W ED) as [C1 _].
    apply make_Inv; [eapply delete_ops_wf; eauto|apply NoDup_map_filter; auto|].
    intro t. simpl. rewrite drop_steps_In, II, !in_steps, C1. setoid_rewrite dremove_In. simpl.
    split; [intros ((c & H) & N); exists c; intuition|intros (c & H & N); split; [eauto|intuition]].
  - destruct I as [W P]. split; simpl; auto. apply load_perm. apply W.
  - unfold all_steps_call. destruct read; [|exact I]. destruct I as [W P]. split; simpl; auto.
    apply load_perm. apply W.
  - unfold restore. destruct (match s with Some s => Some s | None => latest_step m end); [|exact I].
    destruct (dget _ _); [|exact I]. destruct (c_whole c); exact I.
  - exact I.
Qed.

Lemma cleanup_wf : forall d, wf_fs d -> wf_fs (mkFs (committed d) [] (trash d)).
Proof. intros d (A & B & C). repeat split; auto. Qed.

Lemma reachable_Inv : forall cfg u d0 x, wf_fs d0 -> reachable cfg u d0 x -> Inv x.
Proof.
  intros cfg u d0 x W R. induction R.
  - apply init_Inv; auto.
  - apply call_Inv; auto.
  - unfold after_crash. assert (W' : wf_fs (crash_point cfg c x k)) by (apply crash_wf; auto; apply IHR).
    unfold crash_point in W'. destruct cleanup; apply init_Inv; auto. apply cleanup_wf. auto.
Qed.

(** * Order of the list *)

Lemma last_info_app : forall l x, last_info (l ++ [x]) = Some x.
Proof.
  intros. destruct l as [|y l]; simpl; auto. f_equal.
  destruct (l ++ [x]) eqn:E; [destruct l; discriminate|]. rewrite <- E. apply last_last.
Qed.

Lemma last_info_cases : forall l, (l = [] /\ last_info l = None) \/
  exists l' x, l = l' ++ [x] /\ last_info l = Some x.
Proof.
  intro l. destruct l as [|a l] using rev_ind; [left; auto|]. right. exists l, a. split; auto. apply last_info_app.
Qed.

Lemma sorted_app_last : forall (l : list Z) s, StronglySorted Z.lt l -> (forall t, In t l -> t < s) ->
  StronglySorted Z.lt (l ++ [s]).
Proof.
  induction l as [|a l IH]; intros s H G; simpl; [repeat constructor|]. inversion H; subst. constructor.
  - apply IH; auto. intros. apply G. simpl. auto.
  - rewrite Forall_forall in *. intros x Hx. apply in_app_iff in Hx. destruct Hx as [Hx|[<-|[]]]; auto.
    apply G. simpl. auto.
Qed.

Lemma sorted_last_max : forall (l : list Z) s, StronglySorted Z.lt (l ++ [s]) -> forall t, In t (l ++ [s]) -> t <= s.
Proof.
  induction l as [|a l IH]; simpl; intros s H t Ht; [destruct Ht as [->|[]]; lia|].
  inversion H; subst. destruct Ht as [<-|Ht]; [|apply IH; auto].
  rewrite Forall_forall in H3. specialize (H3 s). assert (a < s); [|lia]. apply H3. apply in_app_iff. simpl. auto.
Qed.

Lemma map_filter_sorted : forall p cs, StronglySorted Z.lt (map step cs) ->
  StronglySorted Z.lt (map step (filter p cs)).
Proof.
  induction cs as [|c cs IH]; simpl; intro H; auto. inversion H; subst. destruct (p c); simpl; auto.
  constructor; auto. rewrite Forall_forall in *. intros x Hx. apply H3. apply in_map_iff in Hx.
  destruct Hx as (y & <- & Hy). apply in_map. apply filter_In in Hy. tauto.
Qed.

Definition sorted_cache (x : fs * mgr) : Prop := StronglySorted Z.lt (map step (cache (snd x))).

Lemma latest_max : forall x, sorted_cache x ->
  match latest_step (snd x) with
  | None => cache (snd x) = []
  | Some l => In l (all_steps (snd x)) /\ forall t, In t (all_steps (snd x)) -> t <= l
  end.
Proof.
  intros [d m] S. unfold sorted_cache, latest_step, all_steps in *. simpl in *.
  destruct (last_info_cases (cache m)) as [[-> ->]|(l' & y & E & ->)]; auto.
  rewrite E in *. rewrite map_app in *. simpl in *. split; [apply in_app_iff; simpl; auto|].
  intros t Ht. eapply sorted_last_max; eauto.
Qed.

Lemma unforced_above : forall cfg a d m, sv_force a = false ->
  should_save cfg m (sv_now a) (sv_preempt a) (sv_step a) = Ok true -> sorted_cache (d, m) ->
  forall t, In t (all_steps m) -> t < sv_step a.
Proof.
  intros cfg a d m HF H S t Ht. pose proof (latest_max _ S) as L. simpl in L. unfold should_save in H.
  destruct (o_read_only cfg); [discriminate|]. destruct (latest_step m) as [l|].
  - destruct (Z.leb_spec (sv_step a) l); [discriminate|]. destruct L as [_ L]. specialize (L t Ht). lia.
  - unfold all_steps in Ht. rewrite L in Ht. destruct Ht.
Qed.

Lemma call_sorted : forall cfg c x, Inv x -> sorted_cache x -> ~ forced c -> sorted_cache (after_call cfg c x).
Proof.
  intros cfg c [d m] I S NF. unfold sorted_cache, after_call in *. simpl in *. destruct c; simpl in *.
  - unfold save. destruct (sv_force a) eqn:EF; [congruence|].
    destruct (should_save cfg m (sv_now a) (sv_preempt a) (sv_step a)) as [[|]|] eqn:ES; simpl; auto.
    pose proof (unforced_above cfg a d m EF ES S) as AB.
    unfold do_save. destruct (existsb _ _); simpl; auto.
    destruct (negb (sv_write_ok a)); simpl; auto.
    assert (X : StronglySorted Z.lt (map step (cache m ++ [mkInfo (sv_step a) (sv_now a) (sv_metrics a)]))).
    { rewrite map_app. simpl. apply sorted_app_last; auto. }
    destruct (steps_to_remove _ _); simpl; auto.
    destruct (delete_steps_ops _ _ _). simpl. apply map_filter_sorted. auto.
  - unfold delete. destruct (o_read_only cfg); auto. destruct (existsb _ _); auto.
    destruct (delete_ops _ _ _) as [ops [e|]]; simpl; auto. apply map_filter_sorted; auto.
  - apply load_sorted; apply I.
  - unfold all_steps_call. destruct read; simpl; auto. apply load_sorted; apply I.
  - unfold restore. destruct (match s with Some s => Some s | None => latest_step m end); auto.
    destruct (dget _ _); auto. destruct (c_whole c); auto.
  - auto.
Qed.

Lemma reachable_sorted : forall cfg d0 x, wf_fs d0 -> reachable cfg true d0 x -> sorted_cache x.
Proof.
  intros cfg d0 x W R. induction R.
  - apply load_sorted; apply W.
  - apply call_sorted; auto. eapply reachable_Inv; eauto.
  - unfold after_crash.
    assert (W' : wf_fs (crash_point cfg c x k)).
    { apply crash_wf; auto. apply (reachable_Inv _ _ _ _ W R). }
    unfold crash_point in W'.
    destruct cleanup; unfold sorted_cache; simpl; apply load_sorted; apply W'.
Qed.

(** ** C14 *)

Lemma steps_are_committed : forall cfg u d0 x, wf_fs d0 -> reachable cfg u d0 x ->
  Permutation (all_steps (snd x)) (committed_steps (fst x)) /\ NoDup (all_steps (snd x)).
Proof.
  intros. pose proof (reachable_Inv _ _ _ _ H H0) as I. split; [apply I|apply Inv_NoDup; auto].
Qed.

Lemma latest_is_greatest : forall cfg d0 x, wf_fs d0 -> reachable cfg true d0 x ->
  StronglySorted Z.lt (all_steps (snd x)) /\
  match latest_step (snd x) with
  | None => committed_steps (fst x) = []
  | Some l => In l (committed_steps (fst x)) /\ forall t, In t (committed_steps (fst x)) -> t <= l
  end.
Proof.
  intros cfg d0 x W R. pose proof (reachable_sorted _ _ _ W R) as S. split; [exact S|].
  pose proof (reachable_Inv _ _ _ _ W R) as I. pose proof (latest_max _ S) as L.
  pose proof (Inv_In _ I) as II. destruct (latest_step (snd x)).
  - destruct L as [L1 L2]. split; [apply II; auto|]. intros t Ht. apply L2. apply II. auto.
  - destruct I as [_ P]. rewrite L in P. simpl in P. apply Permutation_nil in P. auto.
Qed.

Lemma unforced_increasing : forall cfg d0 x a, wf_fs d0 -> reachable cfg true d0 x -> sv_force a = false ->
  out_res (run_call cfg (CSave a) (fst x) (snd x)) = Ok (VBool true) ->
  forall t, In t (committed_steps (fst x)) -> t < sv_step a.
Proof.
  intros cfg d0 [d m] a W R HF H t Ht. pose proof (reachable_sorted _ _ _ W R) as S.
  pose proof (Inv_In _ (reachable_Inv _ _ _ _ W R)) as II. simpl in *.
  unfold save in H. rewrite HF in H.
  destruct (should_save cfg m (sv_now a) (sv_preempt a) (sv_step a)) as [[|]|] eqn:ES; try discriminate.
  eapply unforced_above; eauto. apply II. auto.
Qed.

(** ** C15 *)

Lemma save_retention : forall cfg u d0 x a, wf_fs d0 -> reachable cfg u d0 x -> 0 <= sv_step a ->
  out_res (run_call cfg (CSave a) (fst x) (snd x)) = Ok (VBool true) ->
  let x' := after_call cfg (CSave a) x in
  (forall t c, In (t, c) (committed (fst x')) <->
     (In (t, c) (committed (fst x)) \/ (t = sv_step a /\ c = ckpt_of cfg a)) /\
     ~ condemned cfg (with_new a (snd x)) t) /\
  (forall t, In t (all_steps (snd x')) <->
     (In t (all_steps (snd x)) \/ t = sv_step a) /\ ~ condemned cfg (with_new a (snd x)) t).
Proof.
  intros cfg u d0 [d m] a W R Hs H. pose proof (reachable_Inv _ _ _ _ W R) as I.
  pose proof (Inv_In _ I) as II. destruct I as [WF P]. unfold after_call, run_call, with_new, all_steps in *. simpl in *.
  assert (E : out_res (do_save cfg a d m) = Ok (VBool true) /\ save cfg a d m = do_save cfg a d m).
  { unfold save in *. destruct (sv_force a); auto.
    destruct (should_save cfg m (sv_now a) (sv_preempt a) (sv_step a)) as [[|]|]; try discriminate; auto. }
  destruct E as [E1 E2]. rewrite E2. clear H E2. unfold do_save in *.
  destruct (existsb _ _) eqn:EX; [discriminate|]. apply existsb_notIn in EX. unfold all_steps in EX.
  assert (NC : ~ In (sv_step a) (committed_steps d)) by (rewrite <- II; auto).
  destruct (sv_write_ok a) eqn:EW; simpl in *; [|discriminate].
  set (w := write_ops (sv_step a) (ckpt_of cfg a) true d) in *.
  set (cs := cache m ++ [mkInfo (sv_step a) (sv_now a) (sv_metrics a)]) in *.
  destruct (steps_to_remove cfg cs) as [rm|e] eqn:ER; [|discriminate].
  pose proof (steps_to_remove_In _ _ _ ER) as RM.
  destruct (delete_steps_ops (o_mode cfg) rm (exec w d)) as [ops e] eqn:ED. simpl in *.
  destruct e; [discriminate|].
  assert (W1 : wf_fs (exec w d)).
  { replace w with (firstn (length w) w) by apply firstn_all. apply ok_ops_prefix; auto.
    apply write_ops_ok; auto. }
  destruct (delete_steps_effect _ _ _ _ W1 ED) as [W2 C2]. rewrite exec_app. split.
  - intros t c. rewrite C2. unfold w. rewrite (write_In _ _ _ NC). rewrite RM. tauto.
  - intro t. rewrite drop_steps_In, RM. unfold cs at 1. rewrite map_app, in_app_iff. simpl. intuition.
Qed.

(** With the default options. *)

Lemma default_condemned : forall cfg o cs n,
  o_preserve cfg = default_preserve o -> p_best o = false -> p_keep_seconds o = None ->
  p_max_to_keep o = Some n -> 0 <= n -> (forall p, p_keep_period o = Some p -> p <> 0) ->
  StronglySorted Z.lt (map step cs) ->
  forall t, In t (map step cs) ->
  (condemned cfg cs t <->
   ~ ((exists p, p_keep_period o = Some p /\ (p | t)) \/ newer (map step cs) t < n)).
Proof.
  intros cfg o cs n HP HB HS HM Hn HK SS t Ht.
  set (ps := (match p_keep_period o with Some p => [every_n_steps p true None] | None => [] end) ++
             [fun cs : list info => Ok (latest_n (Some n) cs)]).
  assert (EP : o_preserve cfg cs = any_preservation ps cs).
  { rewrite HP. unfold default_preserve, ps. rewrite HS, HB, HM. reflexivity. }
  assert (NE : ps <> []) by (unfold ps; destruct (p_keep_period o); discriminate).
  assert (KP : forall p, p_keep_period o = Some p -> exists f, every_n_steps p true None cs = Ok f /\
             one_per cs f /\ forall i c, nth_error cs i = Some c -> (kept f i <-> (p | step c))).
  { intros p E. destruct (every_n_steps_exact_spec p None cs (HK p E) I) as (f & F1 & F2 & F3).
    exists f. split; auto. split; auto. intros i c Hc. rewrite (F3 i c Hc). tauto. }
  destruct (latest_n_spec n cs Hn) as [LO LK].
  assert (ALL : forall p, In p ps -> exists f, p cs = Ok f /\ one_per cs f).
  { intros p Hp. unfold ps in Hp. apply in_app_iff in Hp. destruct Hp as [Hp|[<-|[]]].
    - destruct (p_keep_period o) as [q|]; [|destruct Hp]. destruct Hp as [<-|[]].
      destruct (KP q eq_refl) as (f & F1 & F2 & _). eauto.
    - eexists; split; [reflexivity|auto]. }
  destruct (any_preservation_spec ps cs NE ALL) as (flags & F1 & F2 & F3).
  assert (NW : forall i c, nth_error cs i = Some c -> newer (map step cs) (step c) = count_after (fun _ => true) cs i).
  { clear -SS. unfold newer, count_after. intros i c H. f_equal. revert i c H.
    induction cs as [|a cs IH]; intros i c H; [destruct i; discriminate|]. simpl in SS. inversion SS; subst.
    simpl. destruct i as [|i]; simpl in H.
    - inversion H; subst a. rewrite Z.ltb_irrefl. simpl.
      clear -H3. induction cs as [|b cs IH]; simpl in *; auto. inversion H3; subst.
      destruct (Z.ltb_spec (step c) (step b)); [simpl; f_equal; auto|lia].
    - rewrite Forall_forall in H3. assert (step a < step c).
      { apply H3. apply in_map. eapply nth_error_In; eauto. }
      destruct (Z.ltb_spec (step c) (step a)); [lia|]. erewrite IH; eauto. }
  assert (KT : forall i c, nth_error cs i = Some c ->
            (kept flags i <-> ((exists p, p_keep_period o = Some p /\ (p | step c)) \/ newer (map step cs) (step c) < n))).
  { intros i c Hc. assert (Hi : (i < length cs)%nat) by (apply nth_error_Some; congruence).
    rewrite F3, (NW i c Hc), <- (LK i Hi). split.
    - intros (p & f & Hp & Ef & Kf). unfold ps in Hp. apply in_app_iff in Hp. destruct Hp as [Hp|[<-|[]]].
      + destruct (p_keep_period o) as [q|]; [|destruct Hp]. destruct Hp as [<-|[]].
        destruct (KP q eq_refl) as (f' & G1 & G2 & G3). rewrite G1 in Ef. inversion Ef; subst f'.
        left. exists q. split; auto. apply (G3 i c Hc). auto.
      + inversion Ef; subst. auto.
    - intros [(p & E & D)|K].
      + destruct (KP p E) as (f & G1 & G2 & G3). exists (every_n_steps p true None), f.
        split; [unfold ps; rewrite E; simpl; auto|]. split; auto. apply (G3 i c Hc). auto.
      + exists (fun cs : list info => Ok (latest_n (Some n) cs)), (latest_n (Some n) cs).
        split; [unfold ps; apply in_app_iff; simpl; auto|]. auto. }
  unfold condemned. rewrite EP, F1. split.
  - intros (fl & i & c & E & Hc & <- & Hf). inversion E; subst fl. rewrite <- (KT i c Hc).
    unfold kept. congruence.
  - intro NK. apply in_map_iff in Ht. destruct Ht as (c & <- & Hc). apply In_nth_error in Hc.
    destruct Hc as [i Hc]. exists flags, i, c. repeat split; auto.
    rewrite <- (KT i c Hc) in NK. unfold kept in NK.
    assert (i < length flags)%nat by (rewrite F2; apply nth_error_Some; congruence).
    destruct (nth_error flags i) as [[|]|] eqn:E; [congruence|auto|]. apply nth_error_None in E. lia.
Qed.

Lemma newer_perm : forall l l' s, Permutation l l' -> newer l s = newer l' s.
Proof. intros. unfold newer. f_equal. apply filter_perm_length. auto. Qed.

Lemma default_retention : forall cfg o n d0 x a, wf_fs d0 -> reachable cfg true d0 x ->
  o_preserve cfg = default_preserve o -> p_best o = false -> p_keep_seconds o = None ->
  p_max_to_keep o = Some n -> 0 <= n -> (forall p, p_keep_period o = Some p -> p <> 0) ->
  0 <= sv_step a -> sv_force a = false ->
  out_res (run_call cfg (CSave a) (fst x) (snd x)) = Ok (VBool true) ->
  let old := committed_steps (fst x) in
  forall t, In t (committed_steps (fst (after_call cfg (CSave a) x))) <->
    (In t old \/ t = sv_step a) /\
    ((exists p, p_keep_period o = Some p /\ (p | t)) \/ newer (sv_step a :: old) t < n).
Proof.
  intros cfg o n d0 x a W R HP HB HS HM Hn HK Hs HF HR old t.
  destruct (save_retention cfg true d0 x a W R Hs HR) as [SR _].
  pose proof (reachable_Inv _ _ _ _ W R) as I. pose proof (Inv_In _ I) as II.
  pose proof (reachable_sorted _ _ _ W R) as S.
  assert (SS : StronglySorted Z.lt (map step (with_new a (snd x)))).
  { unfold with_new. rewrite map_app. simpl. apply sorted_app_last; auto. intros u Hu.
    eapply unforced_increasing; eauto. apply II. auto. }
  assert (PP : Permutation (map step (with_new a (snd x))) (sv_step a :: old)).
  { unfold with_new. rewrite map_app. simpl. eapply perm_trans; [symmetry; apply Permutation_cons_append|].
    apply perm_skip. apply I. }
  assert (DC : In t (sv_step a :: old) ->
    (condemned cfg (with_new a (snd x)) t <->
     ~ ((exists p, p_keep_period o = Some p /\ (p | t)) \/ newer (sv_step a :: old) t < n))).
  { intro Ht. rewrite <- (newer_perm _ _ _ PP). eapply default_condemned; eauto.
    eapply Permutation_in; [symmetry; eauto|auto]. }
  assert (DEC : {(exists p, p_keep_period o = Some p /\ (p | t)) \/ newer (sv_step a :: old) t < n} +
                {~ ((exists p, p_keep_period o = Some p /\ (p | t)) \/ newer (sv_step a :: old) t < n)}).
  { destruct (Z_lt_dec (newer (sv_step a :: old) t) n); [left; auto|].
    destruct (p_keep_period o) as [p|]; [|right; intros [(p & E & _)|L]; [discriminate|lia]].
    destruct (Znumtheory.Zdivide_dec p t); [left; left; eauto|].
    right. intros [(q & E & D)|L]; [inversion E; subst; contradiction|lia]. }
  assert (OLD : In t old <-> In t (sv_step a :: old) /\ (t <> sv_step a \/ In t old)).
  { simpl. split; [auto|]. intros [[H|H] [N|H']]; auto. congruence. }
  rewrite in_steps. setoid_rewrite SR. split.
  - intros (c & [H NC]). assert (Hin : In t old \/ t = sv_step a).
    { destruct H as [H|[H _]]; auto. left. apply in_steps. eauto. }
    split; auto. destruct DEC as [D|D]; auto. exfalso. apply NC. apply DC; auto. simpl. intuition.
  - intros [Hin K].
    assert (NC : ~ condemned cfg (with_new a (snd x)) t).
    { rewrite DC by (simpl; intuition). tauto. }
    destruct Hin as [Hin| ->].
    + apply in_steps in Hin. destruct Hin as [c Hc]. exists c. auto.
    + exists (ckpt_of cfg a). auto.
Qed.

Lemma newer_bound : forall (K L : list Z) n, 0 <= n -> NoDup K -> incl K L -> (forall t, In t K -> newer L t < n) ->
  Z.of_nat (length K) <= n.
Proof.
  intros K L n Hn ND HI HK. destruct K as [|k K]; [simpl; lia|].
  assert (M : exists m, In m (k :: K) /\ forall t, In t (k :: K) -> m <= t).
  { clear. revert k. induction K as [|b K IH]; intro k.
    - exists k. simpl. split; auto. intros t [->|[]]. lia.
    - destruct (IH b) as (m & H1 & H2). destruct (Z_le_dec k m).
      + exists k. split; [simpl; auto|]. intros t [->|Ht]; [lia|]. specialize (H2 t Ht). lia.
      + exists m. split; [simpl in *; tauto|]. intros t [->|Ht]; [lia|auto]. }
  destruct M as (m & Hm & Hmin).
  assert (X : (length (filter (fun t => (m <? t)%Z) (k :: K)) >= length (k :: K) - 1)%nat).
  { clear -ND Hm Hmin. revert Hm Hmin ND. generalize (k :: K). intros l Hm Hmin ND.
    assert (F : filter (fun t => negb (m <? t)) l = [m] \/ filter (fun t => negb (m <? t)) l = []).
    { clear Hm. induction l as [|a l IH]; simpl; auto. inversion ND; subst.
      destruct (Z.ltb_spec m a); simpl.
      - apply IH; auto. intros. apply Hmin. simpl; auto.
      - assert (a = m) by (specialize (Hmin a (or_introl eq_refl)); lia). subst a.
        left. f_equal. assert (G : forall t, In t l -> m < t).
        { intros t Ht. assert (m <= t) by (apply Hmin; simpl; auto). assert (t <> m) by (intro; subst; auto). lia. }
        clear -G. induction l as [|b l IH]; simpl; auto. assert (m < b) by (apply G; simpl; auto).
        destruct (Z.ltb_spec m b); [simpl; apply IH; intros; apply G; simpl; auto|lia]. }
    assert (T : (length (filter (fun t => (m <? t)%Z) l) + length (filter (fun t => negb (m <? t)%Z) l) = length l)%nat).
    { clear. induction l; simpl; auto. destruct (m <? a); simpl; lia. }
    destruct F as [F|F]; rewrite F in T; simpl in T; lia. }
  assert (Y : (length (filter (fun t => (m <? t)%Z) (k :: K)) <= length (filter (fun t => (m <? t)%Z) L))%nat).
  { apply NoDup_incl_length; [apply NoDup_filter'; auto|]. intros t Ht. apply filter_In in Ht.
    apply filter_In. split; [apply HI|]; tauto. }
  specialize (HK m Hm). unfold newer in HK. simpl length in *. lia.
Qed.

Lemma default_count : forall cfg o n p d0 x a, wf_fs d0 -> reachable cfg true d0 x ->
  o_preserve cfg = default_preserve o -> p_best o = false -> p_keep_seconds o = None ->
  p_max_to_keep o = Some n -> 0 <= n -> p_keep_period o = Some p -> p <> 0 ->
  0 <= sv_step a -> sv_force a = false ->
  out_res (run_call cfg (CSave a) (fst x) (snd x)) = Ok (VBool true) ->
  Z.of_nat (length (filter (fun t => negb (is_multiple p t))
              (committed_steps (fst (after_call cfg (CSave a) x))))) <= n.
Proof.
  intros cfg o n p d0 x a W R HP HB HS HM Hn HK Hp Hs HF HR.
  assert (HK' : forall q, p_keep_period o = Some q -> q <> 0) by (intros q E; rewrite HK in E; congruence).
  pose proof (default_retention cfg o n d0 x a W R HP HB HS HM Hn HK' Hs HF HR) as D. simpl in D.
  apply (newer_bound _ (sv_step a :: committed_steps (fst x))); auto.
  - apply NoDup_filter'. assert (I : Inv (after_call cfg (CSave a) x)).
    { apply call_Inv; [eapply reachable_Inv; eauto|simpl; auto|right; eauto]. }
    destruct I as [[ND _] _]. auto.
  - intros t Ht. apply filter_In in Ht. destruct Ht as [Ht _]. apply D in Ht. simpl. intuition.
  - intros t Ht. apply filter_In in Ht. destruct Ht as [Ht Hm]. apply D in Ht. destruct Ht as [_ [(q & E & Dv)|L]]; auto.
    rewrite HK in E. inversion E; subst q. unfold is_multiple in Hm. destruct (Znumtheory.Zdivide_dec p t); [discriminate|contradiction].
Qed.

Lemma default_new_survives : forall cfg o n d0 x a, wf_fs d0 -> reachable cfg true d0 x ->
  o_preserve cfg = default_preserve o -> p_best o = false -> p_keep_seconds o = None ->
  p_max_to_keep o = Some n -> 1 <= n -> (forall p, p_keep_period o = Some p -> p <> 0) ->
  0 <= sv_step a -> sv_force a = false ->
  out_res (run_call cfg (CSave a) (fst x) (snd x)) = Ok (VBool true) ->
  In (sv_step a) (committed_steps (fst (after_call cfg (CSave a) x))).
Proof.
  intros cfg o n d0 x a W R HP HB HS HM Hn HK Hs HF HR.
  apply (default_retention cfg o n d0 x a W R HP HB HS HM (ltac:(lia)) HK Hs HF HR). split; auto.
  right. assert (E : newer (sv_step a :: committed_steps (fst x)) (sv_step a) = 0); [|lia].
  unfold newer. simpl. rewrite Z.ltb_irrefl.
  assert (F : filter (fun t => sv_step a <? t) (committed_steps (fst x)) = []).
  { pose proof (unforced_increasing cfg d0 x a W R HF HR) as U.
    clear -U. induction (committed_steps (fst x)) as [|b l IH]; simpl; auto.
    assert (b < sv_step a) by (apply U; simpl; auto). destruct (Z.ltb_spec (sv_step a) b); [lia|].
    apply IH. intros. apply U. simpl. auto. }
  rewrite F. reflexivity.
Qed.

(** ** C16 *)

Lemma save_shape : forall cfg a d m, Inv (d, m) ->
  let ops := out_ops (run_call cfg (CSave a) d m) in
  ops = [] \/
  (~ In (sv_step a) (committed_steps d) /\
   (ops = [OMkTmp (sv_step a)] \/
    exists del, ops = OMkTmp (sv_step a) :: OCommit (sv_step a) (ckpt_of cfg a) :: del /\
      forall o, In o del -> condemned cfg (with_new a m) (op_step o))).
Proof.
  intros cfg a d m I. pose proof (Inv_In _ I) as II. simpl in *.
  assert (G : let ops := out_ops (do_save cfg a d m) in
    ops = [] \/ (~ In (sv_step a) (committed_steps d) /\
   (ops = [OMkTmp (sv_step a)] \/
    exists del, ops = OMkTmp (sv_step a) :: OCommit (sv_step a) (ckpt_of cfg a) :: del /\
      forall o, In o del -> condemned cfg (with_new a m) (op_step o)))).
  { unfold do_save. destruct (existsb _ _) eqn:EX; [left; auto|]. right.
    apply existsb_notIn in EX. unfold all_steps in EX.
    assert (NC : ~ In (sv_step a) (committed_steps d)) by (rewrite <- II; auto). split; auto.
    rewrite write_fresh by auto.
    destruct (sv_write_ok a); simpl; [|left; auto]. right.
    destruct (steps_to_remove cfg _) as [rm|e] eqn:ER; simpl; [|exists []; split; auto; intros o []].
    destruct (delete_steps_ops _ _ _) as [del e] eqn:ED. simpl. exists del. split; auto.
    intros o Ho. apply (steps_to_remove_In _ _ _ ER). eapply delete_steps_touch; eauto. }
  unfold save. destruct (sv_force a); auto. destruct (should_save _ _ _ _ _) as [[|]|]; auto; left; auto.
Qed.

Lemma firstn_In : forall {A} k (l : list A) x, In x (firstn k l) -> In x l.
Proof.
  induction k; intros l x H; simpl in H; [destruct H|]. destruct l; [destruct H|]. simpl in *. destruct H; auto.
Qed.

Lemma crash_keeps : forall cfg u d0 x a k, wf_fs d0 -> reachable cfg u d0 x ->
  forall t c, In (t, c) (committed (fst x)) -> ~ condemned cfg (with_new a (snd x)) t ->
    In (t, c) (committed (crash_point cfg (CSave a) x k)).
Proof.
  intros cfg u d0 [d m] a k W R t c Ht NC. pose proof (reachable_Inv _ _ _ _ W R) as I.
  unfold crash_point. simpl fst in *. simpl snd in *.
  destruct (save_shape cfg a d m I) as [E|[NS [E|(del & E & D)]]]; simpl in *; rewrite E.
  - rewrite firstn_nil. auto.
  - apply exec_other; auto. intros o Ho. apply firstn_In in Ho. destruct Ho as [<-|[]]. simpl.
    intro; subst. apply NS. apply in_steps. eauto.
  - apply exec_other; auto. intros o Ho. apply firstn_In in Ho.
    assert (NE : sv_step a <> t) by (intro; subst; apply NS; apply in_steps; eauto).
    destruct Ho as [<-|[<-|Ho]]; auto. intro; subst. auto.
Qed.

Lemma crash_commit_first : forall cfg u d0 x a k, wf_fs d0 -> reachable cfg u d0 x ->
  ~ condemned cfg (with_new a (snd x)) (sv_step a) ->
  forall t c, In (t, c) (committed (fst x)) -> ~ In (t, c) (committed (crash_point cfg (CSave a) x k)) ->
    intact (crash_point cfg (CSave a) x k) (sv_step a) (ckpt_of cfg a).
Proof.
  intros cfg u d0 [d m] a k W R NC t c Ht HN. pose proof (reachable_Inv _ _ _ _ W R) as I.
  unfold crash_point in *. simpl fst in *. simpl snd in *. unfold intact. split; [|reflexivity].
  destruct (save_shape cfg a d m I) as [E|[NS [E|(del & E & D)]]]; simpl in E; simpl run_call in *; rewrite E in *.
  - rewrite firstn_nil in HN. contradiction.
  - exfalso. apply HN. apply exec_other; auto. intros o Ho. apply firstn_In in Ho. destruct Ho as [<-|[]]. simpl.
    intro; subst. apply NS. apply in_steps. eauto.
  - destruct k as [|[|k]]; [contradiction|contradiction|].
    cbn [firstn]. change (exec (OMkTmp (sv_step a) :: OCommit (sv_step a) (ckpt_of cfg a) :: firstn k del) d)
      with (exec (firstn k del) (exec [OMkTmp (sv_step a); OCommit (sv_step a) (ckpt_of cfg a)] d)).
    apply exec_other.
    + intros o Ho. apply firstn_In in Ho. intro Eq. apply NC. rewrite <- Eq. auto.
    + simpl. unfold dput. apply in_app_iff. simpl. auto.
Qed.

Lemma crash_some_left : forall cfg u d0 x a k, wf_fs d0 -> reachable cfg u d0 x ->
  (forall t c, In (t, c) (committed (fst x)) -> c_whole c = true) ->
  committed (fst x) <> [] ->
  (exists t, In t (map step (with_new a (snd x))) /\ ~ condemned cfg (with_new a (snd x)) t) ->
  exists t c, intact (crash_point cfg (CSave a) x k) t c.
Proof.
  intros cfg u d0 x a k W R HW NE (t & Ht & NC). pose proof (reachable_Inv _ _ _ _ W R) as I.
  pose proof (Inv_In _ I) as II. unfold with_new in Ht. rewrite map_app, in_app_iff in Ht. simpl in Ht.
  destruct Ht as [Ht|[<-|[]]].
  - apply II in Ht. apply in_steps in Ht. destruct Ht as [c Hc]. exists t, c. split; [|eauto].
    eapply crash_keeps; eauto.
  - destruct (committed (fst x)) as [|[t0 c0] l] eqn:E; [congruence|].
    assert (H0 : In (t0, c0) (committed (fst x))) by (rewrite E; simpl; auto).
    assert (DEC : In (t0, c0) (committed (crash_point cfg (CSave a) x k)) \/
                  ~ In (t0, c0) (committed (crash_point cfg (CSave a) x k))).
    { assert (EQ : forall p q : Z * ckpt, {p = q} + {p <> q}).
      { repeat decide equality. }
      destruct (in_dec EQ (t0, c0) (committed (crash_point cfg (CSave a) x k))); auto. }
    destruct DEC as [Y|N].
    + exists t0, c0. split; auto. apply (HW t0). simpl. auto.
    + exists (sv_step a), (ckpt_of cfg a). eapply crash_commit_first; eauto.
Qed.

(** In rename mode a directory is whole or absent. *)
Lemma crash_never_damages : forall cfg u d0 x a k, wf_fs d0 -> reachable cfg u d0 x -> o_mode cfg = ToSubdir ->
  forall t c, In (t, c) (committed (crash_point cfg (CSave a) x k)) ->
    In (t, c) (committed (fst x)) \/ (t = sv_step a /\ c = ckpt_of cfg a).
Proof.
  intros cfg u d0 [d m] a k W R HM t c H. pose proof (reachable_Inv _ _ _ _ W R) as I.
  pose proof (Inv_In _ I) as II.
  unfold crash_point in *. simpl fst in *. simpl snd in *.
  assert (G : forall ops d', (forall o, In o ops -> match o with ODamage _ => False | OCommit s c' => s = sv_step a /\ c' = ckpt_of cfg a | _ => True end) ->
     (forall t c, In (t, c) (committed (exec ops d')) -> In (t, c) (committed d') \/ (t = sv_step a /\ c = ckpt_of cfg a))).
  { induction ops as [|o ops IH]; intros d' HO t' c' H'; simpl in H'; auto.
    unfold exec in H'. simpl in H'. apply IH in H'; [|intros; apply HO; simpl; auto].
    destruct H' as [H'|H']; auto. specialize (HO o (or_introl eq_refl)). destruct o; simpl in *; auto.
    - contradiction.
    - apply dremove_In in H'. tauto.
    - unfold dput in H'. apply in_app_iff in H'. rewrite dremove_In in H'. simpl in H'.
      destruct HO; subst. destruct H' as [H'|[E|[]]]; [tauto|]. inversion E; auto.
    - apply dremove_In in H'. tauto. }
  apply (G _ _) in H; auto. intros o Ho. apply firstn_In in Ho. simpl in Ho. clear G H k.
  assert (DO : forall ss d' o, In o (fst (delete_steps_ops ToSubdir ss d')) ->
     match o with ODamage _ => False | OCommit s c' => s = sv_step a /\ c' = ckpt_of cfg a | _ => True end).
  { induction ss as [|s ss IH]; intros d' o' Ho'; simpl in Ho'; [destruct Ho'|].
    destruct (delete_ops ToSubdir s d') as [o1 e1] eqn:E1.
    assert (X : forall o, In o o1 -> match o with ODamage _ => False | OCommit s c' => s = sv_step a /\ c' = ckpt_of cfg a | _ => True end).
    { unfold delete_ops in E1. intros z Hz. destruct (existsb (Z.eqb s) (tmps d')); [|destruct (dget s (committed d'))];
      try (destruct (existsb _ (trash d'))); inversion E1; subst; simpl in Hz; intuition (subst; simpl; auto). }
    destruct e1; simpl in Ho'; [apply X; auto|].
    destruct (delete_steps_ops ToSubdir ss (exec o1 d')) as [o2 e2] eqn:E2. simpl in Ho'.
    apply in_app_iff in Ho'. destruct Ho' as [Ho'|Ho']; [apply X; auto|].
    apply (IH (exec o1 d')). rewrite E2. auto. }
  assert (DS : In o (out_ops (do_save cfg a d m)) ->
     match o with ODamage _ => False | OCommit s c' => s = sv_step a /\ c' = ckpt_of cfg a | _ => True end).
  { unfold do_save. destruct (existsb _ _) eqn:EX; [simpl; tauto|].
    apply existsb_notIn in EX. unfold all_steps in EX.
    assert (NC : ~ In (sv_step a) (committed_steps d)) by (rewrite <- II; auto).
    rewrite write_fresh by auto.
    destruct (sv_write_ok a); simpl; [|intuition (subst; auto)].
    destruct (steps_to_remove cfg _) as [rm|e] eqn:ER; simpl; [|intuition (subst; auto)].
    rewrite HM. destruct (delete_steps_ops _ _ _) as [del e] eqn:ED. simpl.
    intros [<-|[<-|Hd]]; auto. eapply DO. rewrite ED. auto. }
  unfold save in Ho. destruct (sv_force a); [exact (DS Ho)|].
  destruct (should_save _ _ _ _ _) as [[|]|]; [exact (DS Ho)|destruct Ho|destruct Ho].
Qed.

(** ** C18, C19, C20 *)

Lemma save_noop : forall cfg d0 x a, wf_fs d0 -> reachable cfg true d0 x -> sv_force a = false ->
  (exists t, In t (committed_steps (fst x)) /\ sv_step a <= t) ->
  out_res (run_call cfg (CSave a) (fst x) (snd x)) = Ok (VBool false) /\
  after_call cfg (CSave a) x = x.
Proof.
  intros cfg d0 [d m] a W R HF (t & Ht & Hle). pose proof (latest_is_greatest _ _ _ W R) as [_ L].
  simpl in *.
  assert (E : save cfg a d m = mkOut [] m (Ok (VBool false))).
  { unfold save, should_save. rewrite HF. destruct (o_read_only cfg); auto.
    destruct (latest_step m) as [l|]; [|rewrite L in Ht; destruct Ht].
    destruct L as [_ L]. specialize (L t Ht). destruct (Z.leb_spec (sv_step a) l); [auto|lia]. }
  unfold after_call. simpl. rewrite E. auto.
Qed.

Lemma save_existing : forall cfg u d0 x a, wf_fs d0 -> reachable cfg u d0 x -> sv_force a = true ->
  In (sv_step a) (committed_steps (fst x)) ->
  out_res (run_call cfg (CSave a) (fst x) (snd x)) = Err StepAlreadyExistsError /\
  out_ops (run_call cfg (CSave a) (fst x) (snd x)) = [] /\
  cache (snd (after_call cfg (CSave a) x)) = cache (snd x).
Proof.
  intros cfg u d0 [d m] a W R HF Hin. pose proof (Inv_In _ (reachable_Inv _ _ _ _ W R)) as II. simpl in *.
  assert (E : save cfg a d m = mkOut [] (mkMgr (cache m) true) (Err StepAlreadyExistsError)).
  { unfold save. rewrite HF. unfold do_save. rewrite (proj2 (existsb_In _ _)); auto. apply II. auto. }
  unfold after_call. simpl. rewrite E. auto.
Qed.

Lemma read_only_no_ops : forall cfg c d m, o_read_only cfg = true -> ~ forced c ->
  out_ops (run_call cfg c d m) = [].
Proof.
  intros cfg c d m HR NF. destruct c; simpl in *; auto.
  - unfold save. destruct (sv_force a); [congruence|]. unfold should_save. rewrite HR. auto.
  - unfold delete. rewrite HR. auto.
  - unfold all_steps_call. destruct read; auto.
  - unfold restore. destruct (match s with Some s => Some s | None => latest_step m end); auto.
    destruct (dget _ _); auto. destruct (c_whole c); auto.
Qed.

Lemma delete_exact : forall cfg u d0 x s, wf_fs d0 -> reachable cfg u d0 x -> o_read_only cfg = false ->
  out_res (run_call cfg (CDelete s) (fst x) (snd x)) = Ok VUnit ->
  let x' := after_call cfg (CDelete s) x in
  In s (committed_steps (fst x)) /\
  (forall t c, In (t, c) (committed (fst x')) <-> In (t, c) (committed (fst x)) /\ t <> s) /\
  (forall t, In t (all_steps (snd x')) <-> In t (all_steps (snd x)) /\ t <> s).
Proof.
  intros cfg u d0 [d m] s W R HR H. pose proof (reachable_Inv _ _ _ _ W R) as I.
  pose proof (Inv_In _ I) as II. destruct I as [WF _]. unfold after_call. simpl in *. unfold delete in *.
  rewrite HR in *. destruct (existsb _ _) eqn:EX; [|discriminate]. apply existsb_In in EX. apply II in EX.
  destruct (delete_ops (o_mode cfg) s d) as [ops e] eqn:ED. destruct e; [discriminate|]. simpl.
  destruct (delete_ops_effect _ _ _ _ WF ED) as [C1 _]. split; auto. split.
  - intros t c. rewrite C1, dremove_In. tauto.
  - intro t. unfold all_steps. simpl. rewrite drop_steps_In. simpl. intuition.
Qed.

Lemma delete_listed_ok : forall cfg u d0 x s, wf_fs d0 -> reachable cfg u d0 x -> o_read_only cfg = false ->
  o_mode cfg = Permanent -> In s (committed_steps (fst x)) ->
  out_res (run_call cfg (CDelete s) (fst x) (snd x)) = Ok VUnit.
Proof.
  intros cfg u d0 [d m] s W R HR HM Hin. pose proof (Inv_In _ (reachable_Inv _ _ _ _ W R)) as II.
  simpl in *. unfold delete. rewrite HR. rewrite (proj2 (existsb_In _ _)) by (apply II; auto).
  rewrite HM. destruct (permanent_ok1 s d) as [o ->]. auto.
Qed.

Lemma delete_unlisted : forall cfg u d0 x s, wf_fs d0 -> reachable cfg u d0 x -> o_read_only cfg = false ->
  ~ In s (committed_steps (fst x)) ->
  out_res (run_call cfg (CDelete s) (fst x) (snd x)) = Err FileNotFoundError /\
  after_call cfg (CDelete s) x = x.
Proof.
  intros cfg u d0 [d m] s W R HR Hin. pose proof (Inv_In _ (reachable_Inv _ _ _ _ W R)) as II.
  unfold after_call. simpl in *. unfold delete. rewrite HR.
  assert (E : existsb (Z.eqb s) (all_steps m) = false).
  { apply existsb_notIn. intro X. apply Hin. apply II. auto. }
  rewrite E. auto.
Qed.

Lemma delete_keeps_data : forall cfg u d0 x s c, wf_fs d0 -> reachable cfg u d0 x ->
  o_read_only cfg = false -> o_mode cfg = ToSubdir ->
  In (s, c) (committed (fst x)) ->
  (forall e, In e (trash (fst x)) -> fst e <> s) ->
  out_res (run_call cfg (CDelete s) (fst x) (snd x)) = Ok VUnit /\
  In (s, Some c) (trash (fst (after_call cfg (CDelete s) x))).
Proof.
  intros cfg u d0 [d m] s c W R HR HM Hc HT. pose proof (reachable_Inv _ _ _ _ W R) as I.
  pose proof (Inv_In _ I) as II. destruct I as [WF _]. unfold after_call. simpl in *. unfold delete. rewrite HR.
  rewrite (proj2 (existsb_In _ _)) by (apply II, in_steps; eauto). rewrite HM. unfold delete_ops.
  assert (NT : existsb (Z.eqb s) (tmps d) = false).
  { apply existsb_notIn. intro X. destruct WF as (_ & _ & DJ). apply (DJ _ X). apply in_steps. eauto. }
  rewrite NT. rewrite (proj2 (dget_Some s (committed d) c (proj1 WF))) by auto.
  assert (NI : existsb (fun e : Z * option ckpt => fst e =? s) (trash d) = false).
  { destruct (existsb (fun e : Z * option ckpt => fst e =? s) (trash d)) eqn:E; auto. apply existsb_exists in E. destruct E as (e & He & Q).
    apply Z.eqb_eq in Q. destruct (HT e He Q). }
  rewrite NI. simpl. rewrite (proj2 (dget_Some s (committed d) c (proj1 WF))) by auto. auto.
Qed.

(** ** C46: best_step *)

Lemma insert_by_last : forall (key : info -> Z) x l, StronglySorted (key_le key) l ->
  last_info (insert_by key x l) =
  Some (match last_info l with None => x | Some y => if key x <? key y then y else x end).
Proof.
  intros key x l S. destruct (last_info_cases l) as [[-> ->]|(l' & y & -> & ->)]; [reflexivity|].
  destruct (Z.ltb_spec (key x) (key y)).
  - assert (E : exists l'', insert_by key x (l' ++ [y]) = l'' ++ [y]).
    { clear S. induction l' as [|b l' IH]; simpl.
      - destruct (Z.ltb_spec (key x) (key y)); [|lia]. exists [x]. auto.
      - destruct (key x <? key b); [exists (x :: b :: l'); auto|]. destruct IH as [l'' ->]. exists (b :: l''). auto. }
    destruct E as [l'' ->]. apply last_info_app.
  - assert (E : insert_by key x (l' ++ [y]) = (l' ++ [y]) ++ [x]).
    { induction l' as [|b l' IH]; simpl.
      - destruct (Z.ltb_spec (key x) (key y)); [lia|]. auto.
      - simpl in S. inversion S; subst. rewrite Forall_forall in H3.
        assert (key_le key b y) by (apply H3; apply in_app_iff; simpl; auto). unfold key_le in H0.
        destruct (Z.ltb_spec (key x) (key b)); [lia|]. f_equal. apply IH. auto. }
    rewrite E. apply last_info_app.
Qed.

Lemma sorted_last_gen : forall (key : info -> Z) l acc, StronglySorted (key_le key) acc ->
  forall b, last_info (fold_left (fun a x => insert_by key x a) l acc) = Some b ->
  (exists l1 l2, l = l1 ++ b :: l2 /\ (forall y, In y l1 -> key y <= key b) /\
     (forall y, In y l2 -> key y < key b) /\ (forall y, last_info acc = Some y -> key y <= key b)) \/
  (last_info acc = Some b /\ forall y, In y l -> key y < key b).
Proof.
  induction l as [|x l IH]; intros acc S b H; simpl in H; [right; split; auto; intros y []|].
  apply IH in H; [|apply insert_by_sorted; auto]. rewrite insert_by_last in H by auto.
  destruct H as [(l1 & l2 & -> & H1 & H2 & H3)|[H1 H2]].
  - left. exists (x :: l1), l2. split; auto. specialize (H3 _ eq_refl). split; [|split; auto].
    + intros y [<-|Hy]; auto. destruct (last_info acc) as [z|]; auto.
      destruct (Z.ltb_spec (key x) (key z)); lia.
    + intros y Hy. rewrite Hy in H3. destruct (Z.ltb_spec (key x) (key y)); lia.
  - inversion H1; subst b. destruct (last_info acc) as [z|] eqn:E.
    + destruct (Z.ltb_spec (key x) (key z)).
      * right. split; auto. intros y [<-|Hy]; auto.
      * left. exists [], l. split; auto. split; [intros y []|]. split; auto. intros y Ey. inversion Ey; subst. auto.
    + left. exists [], l. split; auto. split; [intros y []|]. split; auto. intros y Ey. discriminate.
Qed.

Lemma best_step_spec : forall cfg m s, o_track_best cfg = true -> best_step cfg m = Some s ->
  exists l1 b l2 v, cache m = l1 ++ b :: l2 /\ step b = s /\ metrics b = Some v /\
    (forall y w, In y l1 -> metrics y = Some w -> if o_reverse cfg then v <= w else w <= v) /\
    (forall y w, In y l2 -> metrics y = Some w -> if o_reverse cfg then v < w else w < v).
Proof.
  intros cfg m s HT H. unfold best_step in H. rewrite HT in H. unfold sort_by_metrics in H.
  set (hm := fun i : info => match metrics i with Some _ => true | None => false end) in *.
  set (k := fun i : info => match metrics i with Some v => v | None => 0 end) in *.
  assert (E : exists key : info -> Z, (forall i, key i = if o_reverse cfg then - k i else k i) /\
     py_sorted_rev k (o_reverse cfg) (filter hm (cache m)) = py_sorted key (filter hm (cache m))).
  { unfold py_sorted_rev. destruct (o_reverse cfg); eexists; (split; [|reflexivity]); auto. }
  destruct E as (key & HK & E). rewrite E in H. clear E. unfold py_sorted in H.
  destruct (last_info _) as [b|] eqn:EL; [|discriminate]. inversion H; subst s.
  apply sorted_last_gen in EL; [|constructor]. destruct EL as [(l1 & l2 & EL & H1 & H2 & _)|[EL _]]; [|discriminate].
  assert (X : forall l l1 l2, filter hm l = l1 ++ b :: l2 -> exists p q, l = p ++ b :: q /\ filter hm p = l1 /\ filter hm q = l2).
  { clear. induction l as [|a l IH]; intros l1 l2 H; simpl in H; [destruct l1; discriminate|].
    destruct (hm a) eqn:Ea.
    - destruct l1 as [|c l1]; simpl in H; inversion H; subst.
      + exists [], l. auto.
      + destruct (IH l1 l2 H2) as (p & q & -> & P1 & P2). exists (c :: p), q. simpl. rewrite Ea, P1. auto.
    - destruct (IH l1 l2 H) as (p & q & -> & P1 & P2). exists (a :: p), q. simpl. rewrite Ea, P1. auto. }
  assert (HB : hm b = true).
  { assert (Hin : In b (filter hm (cache m))) by (rewrite EL; apply in_app_iff; simpl; auto).
    apply filter_In in Hin. tauto. }
  destruct (X _ _ _ EL) as (p & q & EC & P1 & P2). clear X.
  unfold hm in HB. destruct (metrics b) as [v|] eqn:EB; [|discriminate].
  exists p, b, q, v. split; auto. split; auto. split; auto.
  assert (KB : k b = v) by (unfold k; rewrite EB; auto).
  split; intros y w Hy Hw.
  - assert (Hin : In y l1) by (rewrite <- P1; apply filter_In; split; auto; unfold hm; rewrite Hw; auto).
    specialize (H1 y Hin). rewrite !HK in H1. assert (k y = w) by (unfold k; rewrite Hw; auto).
    destruct (o_reverse cfg); lia.
  - assert (Hin : In y l2) by (rewrite <- P2; apply filter_In; split; auto; unfold hm; rewrite Hw; auto).
    specialize (H2 y Hin). rewrite !HK in H2. assert (k y = w) by (unfold k; rewrite Hw; auto).
    destruct (o_reverse cfg); lia.
Qed.

Lemma best_step_none : forall cfg m, o_track_best cfg = true ->
  (best_step cfg m = None <-> forall i, In i (cache m) -> metrics i = None).
Proof.
  intros cfg m HT. unfold best_step. rewrite HT. unfold sort_by_metrics.
  set (hm := fun i : info => match metrics i with Some _ => true | None => false end).
  set (k := fun i : info => match metrics i with Some v => v | None => 0 end).
  assert (P : Permutation (py_sorted_rev k (o_reverse cfg) (filter hm (cache m))) (filter hm (cache m))).
  { unfold py_sorted_rev. destruct (o_reverse cfg); apply py_sorted_perm. }
  destruct (last_info_cases (py_sorted_rev k (o_reverse cfg) (filter hm (cache m)))) as [[E ->]|(l & y & E & ->)].
  - split; auto. intros _ i Hi. rewrite E in P. apply Permutation_nil in P.
    destruct (metrics i) eqn:EM; auto. assert (X : In i (filter hm (cache m))).
    { apply filter_In. split; auto. unfold hm. rewrite EM. auto. }
    rewrite P in X. destruct X.
  - split; [discriminate|]. intro H. assert (X : In y (filter hm (cache m))).
    { eapply Permutation_in; [exact P|]. rewrite E. apply in_app_iff. simpl. auto. }
    apply filter_In in X. destruct X as [X1 X2]. unfold hm in X2. rewrite (H y X1) in X2. discriminate.
Qed.

(** ** C47: default cadence *)

Lemma default_cadence : forall cfg o m now pre s,
  o_decide cfg = default_decide o -> o_read_only cfg = false -> p_interval o <> 0 ->
  exists b, should_save cfg m now pre s = Ok b /\
    (b = true <->
     (forall l, latest_step m = Some l -> l < s) /\
     ((p_interval o | s) \/ (exists l, p_save_on o = Some l /\ In s l) \/ pre = true \/ cache m = [])).
Proof.
  intros cfg o m now pre s HD HR HI. unfold should_save. rewrite HR, HD.
  destruct (latest_step m) as [l|] eqn:EL.
  - destruct (Z.leb_spec s l).
    + exists false. split; auto. split; [discriminate|]. intros [H1 _]. specialize (H1 l eq_refl). lia.
    + unfold default_decide. destruct (any_save_spec
        ([fixed_interval (p_interval o)] ++
            (match p_save_on o with Some l => [specific_steps l] | None => [] end) ++
            [preemption_policy; initial_save]) (mkInfo s now None) (cache m)
            (mkCtx (if o_check_progress cfg then saving m else false) pre)) as (b & E & B).
      { intros p Hp. simpl in Hp. destruct Hp as [<-|Hp].
        - unfold fixed_interval. destruct (Z.eqb_spec (p_interval o) 0); [contradiction|]. eauto.
        - destruct (p_save_on o); simpl in Hp; intuition (subst; unfold specific_steps, preemption_policy, initial_save; eauto). }
      exists b. split; auto. rewrite B. split.
      * intros (p & Hp & Ep). split; [intros l' E'; inversion E'; subst; lia|]. simpl in Hp. destruct Hp as [<-|Hp].
        { destruct (fixed_interval_spec (p_interval o) (mkInfo s now None) (cache m) (mkCtx (if o_check_progress cfg then saving m else false) pre) HI) as (b' & E1 & E2).
          rewrite E1 in Ep. inversion Ep; subst. left. apply E2. auto. }
        destruct (p_save_on o) as [l'|]; simpl in Hp.
        { destruct Hp as [<-|[<-|[<-|[]]]].
          - right. left. exists l'. split; auto. unfold specific_steps in Ep. inversion Ep.
            apply existsb_In in H1. auto.
          - inversion Ep. auto.
          - unfold initial_save in Ep. destruct (cache m); [auto|discriminate]. }
        { destruct Hp as [<-|[<-|[]]].
          - inversion Ep. auto.
          - unfold initial_save in Ep. destruct (cache m); [auto|discriminate]. }
      * intros [_ [H1|[(l' & E1 & H1)|[H1|H1]]]].
        { exists (fixed_interval (p_interval o)). split; [simpl; auto|].
          destruct (fixed_interval_spec (p_interval o) (mkInfo s now None) (cache m) (mkCtx (if o_check_progress cfg then saving m else false) pre) HI) as (b' & E1 & E2).
          rewrite E1. f_equal. apply E2. auto. }
        { exists (specific_steps l'). rewrite E1. split; [simpl; auto|]. unfold specific_steps. f_equal.
          apply existsb_In. auto. }
        { exists preemption_policy. split; [|unfold preemption_policy; simpl; congruence].
          apply in_app_iff. right. apply in_app_iff. right. simpl. auto. }
        { unfold latest_step in EL. rewrite H1 in EL. discriminate. }
  - assert (EC : cache m = []).
    { unfold latest_step in EL. destruct (last_info_cases (cache m)) as [[E _]|(l & y & E & E2)]; auto.
      rewrite E2 in EL. discriminate. }
    rewrite EC. exists true. split.
    + unfold default_decide. simpl. unfold fixed_interval. destruct (Z.eqb_spec (p_interval o) 0); [contradiction|].
      simpl. destruct (s mod p_interval o =? 0); auto.
      destruct (p_save_on o); simpl; [destruct (existsb _ _); auto|]; destruct pre; auto.
    + split; auto. intros _. split; [discriminate|]. auto.
Qed.

(** ** C16 for whole training jobs *)

Lemma training_reachable : forall cfg d0 x, training cfg d0 x -> reachable cfg true d0 x.
Proof. intros cfg d0 x T. induction T; [apply R_init|apply R_call; auto|apply R_crash; auto]. Qed.

Lemma exec_steps_sub : forall ops d t, In t (committed_steps (exec ops d)) ->
  In t (committed_steps d) \/ exists c, In (OCommit t c) ops.
Proof.
  induction ops as [|o ops IH]; intros d t H; simpl in H; auto.
  unfold exec in H. simpl in H. apply IH in H. destruct H as [H|[c H]]; [|right; exists c; simpl; auto].
  assert (SUB : forall (f : Z * ckpt -> Z * ckpt) l, (forall e, fst (f e) = fst e) -> map fst (map f l) = map fst l).
  { intros f l E. rewrite map_map. apply map_ext. auto. }
  unfold committed_steps in *. destruct o; simpl in *; auto.
  - rewrite SUB in H; auto. intros e. destruct (fst e =? s); auto.
  - left. apply in_map_iff in H. destruct H as (e & <- & H). destruct e. apply dremove_In in H. apply in_map. tauto.
  - unfold dput in H. rewrite map_app, in_app_iff in H. destruct H as [H|[<-|[]]]; [|right; eauto].
    left. apply in_map_iff in H. destruct H as (e & <- & H). destruct e. apply dremove_In in H. apply in_map. tauto.
  - left. apply in_map_iff in H. destruct H as (e & <- & H). destruct e. apply dremove_In in H. apply in_map. tauto.
Qed.

Lemma delete_ops_no_commit : forall mode s d t c, ~ In (OCommit t c) (fst (delete_ops mode s d)).
Proof.
  intros mode s d t c. unfold delete_ops.
  destruct (existsb (Z.eqb s) (tmps d)); [|destruct (dget s (committed d))]; destruct mode; simpl;
    try destruct (existsb _ (trash d)); simpl; intuition discriminate.
Qed.

Lemma delete_steps_no_commit : forall mode ss d t c, ~ In (OCommit t c) (fst (delete_steps_ops mode ss d)).
Proof.
  induction ss as [|s ss IH]; intros d t c; simpl; auto.
  pose proof (delete_ops_no_commit mode s d t c) as X. destruct (delete_ops mode s d) as [o1 e1].
  destruct e1; simpl in *; auto. pose proof (IH (exec o1 d) t c) as Y.
  destruct (delete_steps_ops mode ss (exec o1 d)) as [o2 e2]. simpl in *. rewrite in_app_iff. tauto.
Qed.

Lemma save_commits : forall cfg a d m t c, In (OCommit t c) (out_ops (run_call cfg (CSave a) d m)) -> t = sv_step a.
Proof.
  intros cfg a d m t c. simpl.
  assert (DS : In (OCommit t c) (out_ops (do_save cfg a d m)) -> t = sv_step a).
  { assert (WO : forall ok, In (OCommit t c) (write_ops (sv_step a) (ckpt_of cfg a) ok d) -> t = sv_step a).
    { intros ok. unfold write_ops. destruct (dget _ _); destruct ok; simpl; intuition (try discriminate); congruence. }
    unfold do_save. destruct (existsb _ _); simpl; [tauto|].
    destruct (negb (sv_write_ok a)); simpl; [apply WO|].
    destruct (steps_to_remove _ _) as [rm|]; simpl; [|apply WO].
    pose proof (delete_steps_no_commit (o_mode cfg) rm (exec (write_ops (sv_step a) (ckpt_of cfg a) (sv_write_ok a) d) d) t c) as X.
    destruct (delete_steps_ops _ _ _) as [del e]. simpl in *. rewrite in_app_iff. intros [H|H]; [eauto|tauto]. }
  unfold save. destruct (sv_force a); auto. destruct (should_save _ _ _ _ _) as [[|]|]; simpl; tauto.
Qed.

Lemma save_newest_whole : forall cfg o n d0 x a k, wf_fs d0 -> reachable cfg true d0 x ->
  o_preserve cfg = default_preserve o -> p_best o = false -> p_keep_seconds o = None ->
  p_max_to_keep o = Some n -> 1 <= n -> (forall p, p_keep_period o = Some p -> p <> 0) ->
  sv_force a = false ->
  newest_whole (fst x) -> newest_whole (crash_point cfg (CSave a) x k).
Proof.
  intros cfg o n d0 [d m] a k W R HP HB HS HM Hn HK HF (t & c & [Hc Hw] & Hmax).
  pose proof (reachable_Inv _ _ _ _ W R) as I. pose proof (reachable_sorted _ _ _ W R) as S.
  pose proof (Inv_In _ I) as II. unfold crash_point. simpl fst in *. simpl snd in *.
  assert (SAME : committed (exec (firstn k (out_ops (run_call cfg (CSave a) d m))) d) = committed d ->
                 newest_whole (exec (firstn k (out_ops (run_call cfg (CSave a) d m))) d)).
  { intro E. exists t, c. unfold intact, committed_steps. rewrite E. auto. }
  destruct (save_shape cfg a d m I) as [E|[NS [E|(del & E & D)]]].
  - apply SAME. rewrite E, firstn_nil. reflexivity.
  - apply SAME. rewrite E. destruct k as [|[|k]]; reflexivity.
  - destruct k as [|[|k]]; [apply SAME; reflexivity|apply SAME; rewrite E; reflexivity|].
    assert (AB : forall t, In t (all_steps m) -> t < sv_step a).
    { simpl in E. unfold save in E. rewrite HF in E.
      destruct (should_save cfg m (sv_now a) (sv_preempt a) (sv_step a)) as [[|]|] eqn:ES; try discriminate.
      eapply unforced_above; eauto. }
    assert (NC : ~ condemned cfg (with_new a m) (sv_step a)).
    { rewrite (default_condemned cfg o (with_new a m) n HP HB HS HM (ltac:(lia)) HK).
      - intro X. apply X. right. unfold with_new, newer. rewrite map_app. simpl.
        rewrite filter_app. simpl. rewrite Z.ltb_irrefl, app_nil_r.
        assert (F : filter (fun t => sv_step a <? t) (map step (cache m)) = []).
        { clear -AB. unfold all_steps in AB. induction (map step (cache m)) as [|b l IH]; simpl; auto.
          assert (b < sv_step a) by (apply AB; simpl; auto). destruct (Z.ltb_spec (sv_step a) b); [lia|].
          apply IH. intros. apply AB. simpl. auto. }
        rewrite F. simpl. lia.
      - unfold with_new. rewrite map_app. simpl. apply sorted_app_last; auto.
      - unfold with_new. rewrite map_app. apply in_app_iff. simpl. auto. }
    exists (sv_step a), (ckpt_of cfg a). split; [split; [|reflexivity]|].
    + rewrite E. cbn [firstn].
      change (exec (OMkTmp (sv_step a) :: OCommit (sv_step a) (ckpt_of cfg a) :: firstn k del) d)
        with (exec (firstn k del) (exec [OMkTmp (sv_step a); OCommit (sv_step a) (ckpt_of cfg a)] d)).
      apply exec_other.
      * intros z Hz. apply firstn_In in Hz. intro Eq. apply NC. rewrite <- Eq. auto.
      * simpl. unfold dput. apply in_app_iff. simpl. auto.
    + intros t' Ht'. apply exec_steps_sub in Ht'. destruct Ht' as [Ht'|[c' Ht']].
      * apply II in Ht'. specialize (AB t' Ht'). lia.
      * apply firstn_In in Ht'. apply save_commits in Ht'. lia.
Qed.

Lemma other_calls_no_ops : forall cfg c d m, (forall s, c <> CDelete s) -> (forall a, c <> CSave a) ->
  out_ops (run_call cfg c d m) = [].
Proof.
  intros cfg c d m ND NS. destruct c; simpl; auto.
  - destruct (NS a); auto.
  - destruct (ND s); auto.
  - unfold all_steps_call. destruct read; auto.
  - unfold restore. destruct (match s with Some s => Some s | None => latest_step m end); auto.
    destruct (dget _ _); auto. destruct (c_whole c); auto.
Qed.

Lemma training_newest_whole : forall cfg o n d0 x, wf_fs d0 -> training cfg d0 x ->
  o_preserve cfg = default_preserve o -> p_best o = false -> p_keep_seconds o = None ->
  p_max_to_keep o = Some n -> 1 <= n -> (forall p, p_keep_period o = Some p -> p <> 0) ->
  newest_whole d0 ->
  newest_whole (fst x) /\
  (forall s, latest_step (snd x) = Some s -> exists c, In (s, c) (committed (fst x)) /\
     out_res (run_call cfg (CRestore None) (fst x) (snd x)) = Ok (VData (c_data c))) /\
  latest_step (snd x) <> None.
Proof.
  intros cfg o n d0 x W T HP HB HS HM Hn HK N0.
  assert (STEP : forall c k x, reachable cfg true d0 x -> ~ forced c -> (forall s, c <> CDelete s) ->
     newest_whole (fst x) -> newest_whole (crash_point cfg c x k)).
  { intros c k y R NF ND N. destruct c as [a|s| | |s|].
    - eapply save_newest_whole; eauto. simpl in NF. destruct (sv_force a); congruence.
    - destruct (ND s); auto.
    - unfold crash_point. rewrite other_calls_no_ops by congruence. rewrite firstn_nil. auto.
    - unfold crash_point. rewrite other_calls_no_ops by congruence. rewrite firstn_nil. auto.
    - unfold crash_point. rewrite other_calls_no_ops by congruence. rewrite firstn_nil. auto.
    - unfold crash_point. rewrite other_calls_no_ops by congruence. rewrite firstn_nil. auto. }
  assert (NW : newest_whole (fst x)).
  { induction T; auto.
    - pose proof (STEP c (length (out_ops (run_call cfg c (fst x) (snd x)))) x (training_reachable _ _ _ T) H1 H2 IHT) as X.
      unfold crash_point in X. rewrite firstn_all in X. exact X.
    - pose proof (STEP c k x (training_reachable _ _ _ T) H0 H1 IHT) as X.
      unfold after_crash. simpl. destruct cleanup; auto. }
  split; auto. apply training_reachable in T.
  pose proof (latest_is_greatest _ _ _ W T) as [_ L]. destruct NW as (t & c & [Hc Hw] & Hmax).
  assert (Ht : In t (committed_steps (fst x))) by (apply in_steps; eauto).
  destruct (latest_step (snd x)) as [l|] eqn:EL; [|rewrite L in Ht; destruct Ht].
  split; [|discriminate]. intros s Es. inversion Es; subst s. destruct L as [L1 L2].
  assert (l = t) by (apply Z.le_antisymm; [apply Hmax; auto|apply L2; auto]). subst l.
  exists c. split; auto. simpl. unfold restore. rewrite EL.
  destruct (reachable_Inv _ _ _ _ W T) as [WF _].
  rewrite (proj2 (dget_Some t (committed (fst x)) c (proj1 WF))) by auto. rewrite Hw. auto.
Qed.
