(** What survives on disk, and the statements about the list, for C75. *)
From Coq Require Import ZArith List Bool Lia Sorted Permutation.
From Verif Require Import Base Policy_Model Manager_Model Manager_Spec Manager_Proofs Train_Model Train_Spec Train_Proofs.
Import ListNotations.
Local Open Scope Z_scope.
Local Arguments Nat.pred : simpl never.
Local Arguments Nat.ltb : simpl never.

Definition good (d : fs) (J : list job) (F : list fin) : Prop :=
  some_intact d \/ exists i f c e, nth_error F i = Some f /\ nth_error J (f_ck f) = Some (mkJob (JDone (f_step f) c true) e).

Definition mk (p : op) : Prop := exists s, p = OMkTmp s.

Record einv (d0 : fs) (x : st) : Prop := mkEinv {
  e_run : forall i f, nth_error (x_fins x) i = Some f -> ~ waits (f_pc f) -> exists c ok e, nth_error (x_jobs x) (f_ck f) = Some (mkJob (JDone (f_step f) c ok) e);
  e_whole : forall k j c, nth_error (x_jobs x) k = Some j -> contents (j_state j) = Some c -> c_whole c = true;
  e_rm : forall i f, nth_error (x_fins x) i = Some f -> ~ In (f_step f) (f_rm f);
  e_own : forall i f c e, current x = Some (i, f) -> nth_error (x_jobs x) (f_ck f) = Some (mkJob (JDone (f_step f) c true) e) -> intact (x_fs x) (f_step f) c;
  e_del : forall i f ss ops, nth_error (x_fins x) i = Some f -> f_pc f = PDelete ss ops -> incl ss (f_rm f) /\ forall p, In p ops -> In (op_step p) (f_rm f);
  e_user : match x_user x with UDelete _ _ => False | UWrite a ops => (forall p, In p ops -> mk p) /\ ~ listed x (t_step a) | UReady a => t_overwrite a = false | _ => True end;
  e_some : good d0 (x_jobs x) (x_fins x) -> some_intact (x_fs x) }.

Definition moved' (x : st) (f f' : fin) : Prop :=
  f_step f' = f_step f /\ f_rm f' = f_rm f /\ f_ck f' = f_ck f /\
  (~ waits (f_pc f') -> exists c ok e, nth_error (x_jobs x) (f_ck f) = Some (mkJob (JDone (f_step f) c ok) e)) /\
  (forall ss ops, f_pc f' = PDelete ss ops -> incl ss (f_rm f) /\ forall p, In p ops -> In (op_step p) (f_rm f)).

Lemma eframe : forall d0 x y, einv d0 x -> committed (x_fs y) = committed (x_fs x) ->
  (forall k s c ok e, nth_error (x_jobs x) k = Some (mkJob (JDone s c ok) e) -> exists e', nth_error (x_jobs y) k = Some (mkJob (JDone s c ok) e')) ->
  (forall k s c e, nth_error (x_jobs y) k = Some (mkJob (JDone s c true) e) -> exists e', nth_error (x_jobs x) k = Some (mkJob (JDone s c true) e')) ->
  (forall k j c, nth_error (x_jobs y) k = Some j -> contents (j_state j) = Some c -> exists k' j', nth_error (x_jobs x) k' = Some j' /\ contents (j_state j') = Some c) ->
  length (x_fins y) = length (x_fins x) ->
  (forall i f', nth_error (x_fins y) i = Some f' -> exists f, nth_error (x_fins x) i = Some f /\ (f' = f \/ moved' x f f')) ->
  (match x_user y with UDelete _ _ => False | UWrite a ops => (forall p, In p ops -> mk p) /\ ~ listed y (t_step a) | UReady a => t_overwrite a = false | _ => True end) ->
  einv d0 y.
Proof.
  intros d0 x y E Efs JD JB JW L F Hu.
  assert (Ei : forall s c, intact (x_fs x) s c -> intact (x_fs y) s c) by (intros s c; unfold intact; now rewrite Efs).
  assert (Fs : forall f f', f' = f \/ moved' x f f' -> f_step f' = f_step f /\ f_rm f' = f_rm f /\ f_ck f' = f_ck f) by (intros f f' [->|[A [B [C _]]]]; auto).
  split.
  - intros i f' H W. destruct (F i f' H) as [f [Hf M]]. destruct (Fs f f' M) as [E1 [_ E3]]. rewrite E1, E3.
    assert (G : exists c ok e, nth_error (x_jobs x) (f_ck f) = Some (mkJob (JDone (f_step f) c ok) e)) by (destruct M as [->|M]; [now apply (e_run _ _ E i)|apply M; exact W]).
    destruct G as [c [ok [e G]]]. destruct (JD _ _ _ _ _ G) as [e' G']. eauto.
  - intros k j c Hj Hc. destruct (JW k j c Hj Hc) as [k' [j' [H1 H2]]]. now apply (e_whole _ _ E k' j').
  - intros i f' H. destruct (F i f' H) as [f [Hf M]]. destruct (Fs f f' M) as [E1 [E2 _]]. rewrite E1, E2. now apply (e_rm _ _ E i).
  - intros i f' c e Hc Hj. destruct (current_spec _ _ _ Hc) as [Hf' Ln]. destruct (F i f' Hf') as [f [Hf M]]. destruct (Fs f f' M) as [E1 [_ E3]]. rewrite E1, E3 in *.
    destruct (JB _ _ _ _ Hj) as [e' Hj']. apply Ei. apply (e_own _ _ E i f c e'); [|assumption]. apply (current_of x y i f' Hc); [congruence|assumption].
  - intros i f' ss ops H P. destruct (F i f' H) as [f [Hf M]]. destruct (Fs f f' M) as [_ [E2 _]]. rewrite E2. destruct M as [->|M]; [now apply (e_del _ _ E i)|]. now apply M.
  - exact Hu.
  - intros G. assert (S : some_intact (x_fs x)).
    { apply (e_some _ _ E). destruct G as [G|[i [f' [c [e [H1 H2]]]]]]; [now left|right]. destruct (F i f' H1) as [f [Hf M]]. destruct (Fs f f' M) as [E1 [_ E3]]. rewrite E1, E3 in H2.
      destruct (JB _ _ _ _ H2) as [e' H3]. eauto 6. }
    destruct S as [s [c S]]. exists s, c. now apply Ei.
Qed.

Lemma einv_init : forall o d, einv d (tinit o d).
Proof.
  intros o d. split; cbn; auto.
  - intros i f H. destruct i; discriminate.
  - intros [|[|k]] j c H; try discriminate. injection H as <-. discriminate.
  - intros i f H. destruct i; discriminate.
  - intros i f c e H. discriminate.
  - intros i f ss ops H. destruct i; discriminate.
  - intros [H|[i [f [c [e [H _]]]]]]; [exact H|destruct i; discriminate].
Qed.

Lemma running_current' : forall d0 x k s c m e, inv x -> einv d0 x -> nth_error (x_jobs x) k = Some (mkJob (JRun s c m) e) ->
  exists i f, current x = Some (i, f) /\ f_ck f = k /\ f_step f = s.
Proof.
  intros d0 x k s c m e I D H. assert (C := i_core _ I). destruct (k_own _ _ _ _ C k _ H) as [i [f [Hf Ek]]]; [discriminate|].
  assert (W : waits (f_pc f)).
  { destruct (f_pc f) eqn:P; cbn; auto; exfalso; destruct (e_run _ _ D i f Hf) as [c' [ok [e' H']]]; try (rewrite P; cbn; tauto); congruence. }
  assert (L : length (x_fins x) = S i).
  { apply (last_alive _ _ _ _ i f C Hf). intros [E|[[e' E] _]]; rewrite E in W; destruct W. }
  exists i, f. split; [|split; [exact Ek|]].
  - unfold current. rewrite L. change (Nat.pred (S i)) with i. now rewrite Hf.
  - destruct (k_job _ _ _ _ C i f Hf) as [j [Hj Ho]]. rewrite Ek, H in Hj. injection Hj as <-. cbn in Ho. congruence.
Qed.

Lemma einv_commit : forall d0 x k s c e ok e', inv x -> einv d0 x -> nth_error (x_jobs x) k = Some (mkJob (JRun s c true) e) ->
  einv d0 (set_job k (mkJob (JDone s c ok) e') (set_fs (apply_op (OCommit s c) (x_fs x)) x)).
Proof.
  intros d0 x k s c e ok e' I D Hk. destruct (running_current' d0 x k s c true e I D Hk) as [i [f [Hcur [Ek Es]]]].
  assert (Wc : c_whole c = true) by (apply (e_whole _ _ D k _ c Hk); reflexivity).
  split; cbn [set_job set_fs x_fs x_jobs x_fins x_user x_cache].
  - intros i0 f0 H N. destruct (e_run _ _ D i0 f0 H N) as [c0 [ok0 [e0 H0]]]. exists c0, ok0, e0. rewrite nth_set. destruct (Nat.eqb_spec k (f_ck f0)) as [->|_]; [congruence|exact H0].
  - intros k0 j c0 H Hc. rewrite nth_set in H. destruct (Nat.eqb_spec k k0) as [<-|_]; [|now apply (e_whole _ _ D k0 j)]. rewrite Hk in H. injection H as <-. cbn in Hc. congruence.
  - apply (e_rm _ _ D).
  - intros i0 f0 c0 e0 Hc Hj. change (current x = Some (i0, f0)) in Hc. rewrite Hcur in Hc. injection Hc as <- <-. rewrite nth_set, Ek, Nat.eqb_refl, Hk in Hj. injection Hj as _ <- _ _.
    rewrite Es. now apply intact_commit.
  - apply (e_del _ _ D).
  - apply (e_user _ _ D).
  - intros _. exists s, c. now apply intact_commit.
Qed.

Lemma einv_fin_op : forall d0 x i f ss p ops, inv x -> einv d0 x -> nth_error (x_fins x) i = Some f -> f_pc f = PDelete ss (p :: ops) ->
  einv d0 (move i f (PDelete ss ops) (set_fs (apply_op p (x_fs x)) x)).
Proof.
  intros d0 x i f ss p ops I D Hf P. destruct (e_del _ _ D i f ss _ Hf P) as [Hss Ht].
  assert (Nov : ~ over f) by (intros [e E]; congruence). assert (Hcur := alive_current x i f I Hf Nov). destruct (current_spec _ _ _ Hcur) as [_ Hlen].
  set (f' := mkFin (f_step f) (f_rm f) (f_ck f) (PDelete ss ops) (f_told f)).
  destruct (k_done _ _ _ _ (i_core _ I) i f Hf) as [c [e Hj]]; [rewrite P; exact Logic.I|].
  assert (Hi : intact (apply_op p (x_fs x)) (f_step f) c).
  { apply intact_op; [|now apply (e_own _ _ D i f c e)]. intro E. apply (e_rm _ _ D i f Hf). rewrite <- E. apply Ht. now left. }
  assert (Nf : forall i0 f0, nth_error (set_nth i f' (x_fins x)) i0 = Some f0 -> nth_error (x_fins x) i0 = Some f0 \/ i0 = i /\ f0 = f').
  { intros i0 f0 H. rewrite nth_set in H. destruct (Nat.eqb_spec i i0) as [<-|N]; [|auto]. rewrite Hf in H. injection H as <-. auto. }
  split; cbn [move set_fin set_fs x_fs x_jobs x_fins x_user x_cache].
  - intros i0 f0 H W. destruct (Nf i0 f0 H) as [H'|[-> ->]]; [now apply (e_run _ _ D i0)|]. cbn. eauto.
  - apply (e_whole _ _ D).
  - intros i0 f0 H. destruct (Nf i0 f0 H) as [H'|[-> ->]]; [now apply (e_rm _ _ D i0)|]. exact (e_rm _ _ D i f Hf).
  - intros i0 f0 c0 e0 Hc Hj0. destruct (current_spec _ _ _ Hc) as [H1 H2]. cbn in H1, H2. rewrite len_set, Hlen in H2. assert (i0 = i) by lia. subst i0.
    rewrite nth_set, Nat.eqb_refl, Hf in H1. injection H1 as <-. cbn in Hj0 |- *. assert (c0 = c) by congruence. now subst c0.
  - intros i0 f0 ss0 ops0 H P0. destruct (Nf i0 f0 H) as [H'|[-> ->]]; [now apply (e_del _ _ D i0)|]. cbn in P0. injection P0 as <- <-. split; [exact Hss|]. intros q Hq. apply Ht. now right.
  - apply (e_user _ _ D).
  - intros _. exists (f_step f), c. exact Hi.
Qed.

Lemma combine_snoc : forall {A B} (l : list A) (m : list B) a b, length m = length l -> combine (l ++ [a]) (m ++ [b]) = combine l m ++ [(a, b)].
Proof. intros A B l. induction l as [|x l IH]; intros [|y m] a b H; cbn in *; try discriminate; [reflexivity|]. rewrite IH; auto. Qed.

Lemma last_kept : forall o, keeps_last o -> forall cs i rm, ~ In (step i) (map step cs) -> steps_to_remove (t_cfg o) (cs ++ [i]) = Ok rm -> ~ In (step i) rm.
Proof.
  intros o K cs i rm N H Hin. destruct (K cs i) as [l [E El]]. unfold steps_to_remove in H. rewrite E in H. cbn in H. injection H as <-.
  apply in_map_iff in Hin. destruct Hin as [[c b] [Es Hin]]. apply filter_In in Hin. destruct Hin as [Hin Hb]. cbn in *. rewrite combine_snoc in Hin by exact El.
  apply in_app_iff in Hin. destruct Hin as [Hin|[Hin|[]]]; [|injection Hin as <- <-; discriminate]. apply in_combine_l in Hin. apply N. rewrite <- Es. now apply in_map.
Qed.

Lemma keeps_total : forall o, keeps_last o -> total_policy o.
Proof. intros o K cs i. destruct (K cs i) as [l [E _]]. eauto. Qed.

Lemma einv_wait : forall d0 x y e u, einv d0 x -> user_wait x = Some (y, e) ->
  (match u with UDelete _ _ => False | UWrite a ops => (forall p, In p ops -> mk p) /\ ~ listed y (t_step a) | UReady a => t_overwrite a = false | _ => True end) -> einv d0 (set_user u y).
Proof.
  intros d0 x y e u D H Hu. unfold user_wait in H.
  assert (Same : y = x -> einv d0 (set_user u y)) by (intros ->; apply (eframe d0 x); cbn; eauto).
  destruct (current x) as [[i f]|] eqn:Hc; [|injection H as <- <-; auto].
  destruct (f_pc f) eqn:P; try discriminate. destruct e0 as [er|]; [|injection H as <- <-; auto].
  destruct (f_told f) eqn:T; [injection H as <- <-; auto|]. injection H as <- <-. destruct (current_spec _ _ _ Hc) as [Hf Hlen].
  apply (eframe d0 x); auto; try (cbn; eauto; fail).
  - cbn. apply len_set.
  - intros i0 f' H. cbn in H. rewrite nth_set in H. destruct (Nat.eqb_spec i i0) as [<-|N]; [|eauto]. rewrite Hf in H. injection H as <-. exists f. split; [exact Hf|]. right.
    unfold moved'. cbn. rewrite ?P. split; [reflexivity|split; [reflexivity|split; [reflexivity|split]]].
    + intros _. apply (e_run _ _ D i f Hf). rewrite P. cbn. tauto.
    + intros ss ops E. discriminate.
Qed.

Lemma einv_launch : forall d0 o a x, keeps_last o -> inv x -> einv d0 x -> x_user x = UWrite a [] -> einv d0 (fst (launch o a x)).
Proof.
  intros d0 o a x K I D U. assert (Hi := i_idle _ I). assert (Hu := e_user _ _ D). rewrite U in Hi, Hu. destruct Hu as [_ Hnl]. unfold launch.
  destruct (total_rm o (keeps_total o K) (x_cache x) (mkInfo (t_step a) (t_now a) (t_metrics a))) as [rm Hrm]. rewrite Hrm.
  assert (Hk := last_kept o K (x_cache x) (mkInfo (t_step a) (t_now a) (t_metrics a)) rm Hnl Hrm). cbn in Hk.
  assert (Hck : forall i f, nth_error (x_fins x) i = Some f -> f_ck f <> x_ck x).
  { intros i f H E. destruct (k_job _ _ _ _ (i_core _ I) i f H) as [j [Hj Ho]]. rewrite E, Hi in Hj. injection Hj as <-. exact Ho. }
  set (nf := mkFin (t_step a) rm (x_ck x) PStart false).
  set (y := add_fin nf (set_cache (drop_steps rm (x_cache x ++ [mkInfo (t_step a) (t_now a) (t_metrics a)]))
    (set_user UIdle (set_cache (x_cache x ++ [mkInfo (t_step a) (t_now a) (t_metrics a)]) (set_job (x_ck x) (mkJob (JRun (t_step a) (ckpt_of a) (negb (t_async_dirs o))) None) x))))).
  assert (Hf : forall i f, nth_error (x_fins y) i = Some f -> nth_error (x_fins x) i = Some f \/ i = length (x_fins x) /\ f = nf).
  { intros i f H. cbn in H. rewrite nth_snoc in H. destruct (Nat.ltb_spec i (length (x_fins x))); [auto|]. destruct (Nat.eqb_spec i (length (x_fins x))) as [->|]; [|discriminate]. injection H as <-. auto. }
  assert (Hc : forall i f, current y = Some (i, f) -> i = length (x_fins x) /\ f = nf).
  { intros i f H. destruct (current_spec _ _ _ H) as [H1 H2]. destruct (Hf i f H1) as [H3|H3]; [|exact H3]. apply nth_lt in H3. cbn in H2. rewrite app_length in H2. cbn in H2. lia. }
  assert (G : einv d0 y).
  { split.
    - intros i f H W. destruct (Hf i f H) as [H'|[-> ->]]; [|elim W; exact Logic.I]. destruct (e_run _ _ D i f H' W) as [c [ok [e Hj]]]. exists c, ok, e. cbn. rewrite nth_set.
      destruct (Nat.eqb_spec (x_ck x) (f_ck f)) as [E|_]; [elim (Hck i f H'); congruence|exact Hj].
    - intros k j c H E. cbn in H. rewrite nth_set in H. destruct (Nat.eqb_spec (x_ck x) k) as [<-|_]; [|now apply (e_whole _ _ D k j)]. rewrite Hi in H. injection H as <-. cbn in E. now injection E as <-.
    - intros i f H. destruct (Hf i f H) as [H'|[-> ->]]; [now apply (e_rm _ _ D i)|exact Hk].
    - intros i f c e H Hj. destruct (Hc i f H) as [-> ->]. cbn in Hj. rewrite nth_set, Nat.eqb_refl, Hi in Hj. discriminate.
    - intros i f ss ops H P. destruct (Hf i f H) as [H'|[-> ->]]; [now apply (e_del _ _ D i)|discriminate].
    - exact Logic.I.
    - intros S. apply (e_some _ _ D). destruct S as [S|[i [f [c [e [H1 H2]]]]]]; [now left|right]. cbn in H2. rewrite nth_set in H2. destruct (Hf i f H1) as [H'|[-> ->]].
      + exists i, f, c, e. split; [exact H'|]. destruct (Nat.eqb_spec (x_ck x) (f_ck f)) as [E|_]; [elim (Hck i f H'); congruence|exact H2].
      + cbn in H2. rewrite Nat.eqb_refl, Hi in H2. discriminate. }
  destruct (t_sync a); cbn [fst]; [|exact G]. apply (eframe d0 y); cbn; eauto.
Qed.

Lemma einv_move : forall d0 x y i f p, einv d0 x -> nth_error (x_fins x) i = Some f ->
  x_fs y = x_fs x -> x_fins y = set_nth i (mkFin (f_step f) (f_rm f) (f_ck f) p (f_told f)) (x_fins x) -> x_cache y = x_cache x -> x_user y = x_user x ->
  (x_jobs y = x_jobs x \/ exists k j, nth_error (x_jobs x) k = Some j /\ x_jobs y = set_nth k (mkJob (j_state j) None) (x_jobs x)) ->
  (~ waits p -> exists c ok e, nth_error (x_jobs x) (f_ck f) = Some (mkJob (JDone (f_step f) c ok) e)) ->
  (forall ss ops, p = PDelete ss ops -> incl ss (f_rm f) /\ forall p, In p ops -> In (op_step p) (f_rm f)) -> einv d0 y.
Proof.
  intros d0 x y i f p D Hf E1 E2 E3 E4 E5 H1 H2.
  assert (J : (forall k s c ok e, nth_error (x_jobs x) k = Some (mkJob (JDone s c ok) e) -> exists e', nth_error (x_jobs y) k = Some (mkJob (JDone s c ok) e')) /\
    (forall k s c e, nth_error (x_jobs y) k = Some (mkJob (JDone s c true) e) -> exists e', nth_error (x_jobs x) k = Some (mkJob (JDone s c true) e')) /\
    (forall k j c, nth_error (x_jobs y) k = Some j -> contents (j_state j) = Some c -> exists k' j', nth_error (x_jobs x) k' = Some j' /\ contents (j_state j') = Some c)).
  { destruct E5 as [E5|[k [j [Hj E5]]]]; [rewrite E5; repeat split; eauto|]. now apply (jobs_clear x k j). }
  destruct J as [J1 [J2 J3]]. apply (eframe d0 x); auto.
  - now rewrite E1.
  - rewrite E2. apply len_set.
  - intros i0 f' H. rewrite E2, nth_set in H. destruct (Nat.eqb_spec i i0) as [<-|Ni]; [|eauto]. rewrite Hf in H. injection H as <-. exists f. split; [exact Hf|]. right. unfold moved'. cbn. auto.
  - rewrite E4. assert (U := e_user _ _ D). destruct (x_user x); auto. unfold listed in *. now rewrite E3.
Qed.

Lemma einv_fin : forall d0 o i x y, inv x -> einv d0 x -> fin_step o i x = Some y -> einv d0 y.
Proof.
  intros d0 o i x y I D H. unfold fin_step in H. destruct (nth_error (x_fins x) i) as [f|] eqn:Hf; [|discriminate]. assert (C := i_core _ I).
  destruct (f_pc f) as [|k| |ss ops|e|e] eqn:P.
  - injection H as <-. apply (einv_move d0 x _ i f (PWait (x_ck x))); auto; try discriminate. cbn. tauto.
  - destruct (nth_error (x_jobs x) k) as [j|] eqn:Hj; [|discriminate]. assert (Ek := k_wait _ _ _ _ C i f k Hf P).
    destruct (k_job _ _ _ _ C i f Hf) as [j' [Hj' Ho]]. rewrite Ek, Hj in Hj'. injection Hj' as <-.
    destruct j as [js ex]. cbn [j_state j_exc] in *. destruct js as [|s c m|s c ok]; [destruct Ho|discriminate|]. cbn in Ho. subst s. injection H as <-.
    apply (einv_move d0 x _ i f (match ex with Some e => PFinally (Some e) | None => PCheck end)); auto.
    + right. exists k, (mkJob (JDone (f_step f) c ok) ex). split; [exact Hj|reflexivity].
    + intros _. rewrite Ek, Hj. eauto.
    + intros ss ops E. destruct ex; discriminate.
  - injection H as <-. assert (R := e_run _ _ D i f Hf). rewrite P in R. cbn in R.
    apply (einv_move d0 x _ i f (PDelete (f_rm f) [])); auto; try (destruct (nth_error (x_jobs x) (x_ck x)); reflexivity).
    + destruct (nth_error (x_jobs x) (x_ck x)) as [j|] eqn:Hj; [right; exists (x_ck x), j; auto|left; reflexivity].
    + intros ss ops E. injection E as <- <-. split; [apply incl_refl|]. intros p [].
  - assert (R := e_run _ _ D i f Hf). rewrite P in R. cbn in R. destruct ops as [|p ops].
    + destruct ss as [|t ss].
      * injection H as <-. apply (einv_move d0 x _ i f (PFinally None)); auto. discriminate.
      * destruct (delete_ops (o_mode (t_cfg o)) t (x_fs x)) as [ops e] eqn:Ed. destruct (e_del _ _ D i f _ _ Hf P) as [Hss _]. destruct e as [e|]; injection H as <-.
        -- apply (einv_move d0 x _ i f (PFinally (Some e))); auto. discriminate.
        -- apply (einv_move d0 x _ i f (PDelete ss ops)); auto. intros ss' ops' E. injection E as <- <-. split; [intros s Hs; apply Hss; now right|].
           intros p Hp. rewrite (delete_ops_touch _ _ _ _ _ Ed p Hp). apply Hss. now left.
    + assert (Hy : y = move i f (PDelete ss ops) (set_fs (apply_op p (x_fs x)) x)) by (destruct ss; injection H as <-; reflexivity). subst y. now apply einv_fin_op.
  - injection H as <-. assert (R := e_run _ _ D i f Hf). rewrite P in R. cbn in R. apply (einv_move d0 x _ i f (PEnd e)); auto. discriminate.
  - discriminate.
Qed.

Lemma einv_step : forall d0 o l x y r, keeps_last o -> inv x -> einv d0 x -> both calm fresh l x -> tstep o l x = Some (y, r) -> einv d0 y.
Proof.
  intros d0 o l x y r K I D [Q Fr] H. assert (C := i_core _ I).
  assert (Go : forall u, (match u with UDelete _ _ => False | UWrite _ _ => False | UReady a => t_overwrite a = false | _ => True end) -> einv d0 (set_user u x)).
  { intros u Hu. apply (eframe d0 x); cbn; eauto. destruct u; auto. destruct Hu. }
  destruct l as [a| | |i|s| | | | |i|i|k|k|k e|k e]; cbn in H.
  - destruct (x_user x) eqn:U; try discriminate. injection H as H. unfold begin_save in H. cbn in Fr. rewrite Fr in H.
    destruct (checkpoints o x) as [cs|e]; [|injection H as <- <-; exact D]. destruct (existsb (Z.eqb (t_step a)) cs); injection H as <- <-; [exact D|now apply Go].
  - destruct (x_user x) eqn:U; try discriminate. injection H as <- <-. now apply Go.
  - destruct (x_user x) eqn:U; try discriminate. injection H as <- <-. now apply Go.
  - destruct (x_user x) eqn:U; try discriminate. destruct (Nat.ltb i (length (x_resps x))); [|discriminate]. injection H as <- <-. now apply Go.
  - destruct (x_user x) eqn:U; try discriminate. injection H as <- <-. exact D.
  - destruct (x_user x) eqn:U; try discriminate. injection H as <- <-. exact D.
  - destruct (x_user x) eqn:U; try discriminate. injection H as <- <-. apply (eframe d0 x); cbn; eauto. now rewrite U.
  - unfold user_step in H. assert (Hu := e_user _ _ D). destruct (x_user x) as [|a ops|a|a|a|a ops| | | |i] eqn:U; try discriminate.
    + destruct Hu.
    + injection H as <- <-. apply (eframe d0 x); auto.
      * intros k s c ok e E. exists e. cbn. rewrite nth_snoc. destruct (Nat.ltb_spec k (length (x_jobs x))) as [_|Hk]; [exact E|]. apply nth_lt in E. lia.
      * intros k s c e E. cbn in E. rewrite nth_snoc in E. destruct (Nat.ltb k (length (x_jobs x))); [eauto|]. destruct (Nat.eqb k (length (x_jobs x))); discriminate.
      * intros k j c E Ec. cbn in E. rewrite nth_snoc in E. destruct (Nat.ltb k (length (x_jobs x))); [eauto|]. destruct (Nat.eqb k (length (x_jobs x))); [|discriminate]. injection E as <-. discriminate.
      * intros i f' E. exists f'. auto.
      * exact Logic.I.
    + destruct (t_force a); [injection H as <- <-; now apply Go|]. destruct (should_save (t_cfg o) (as_mgr x) (t_now a) (t_preempt a) (t_step a)) as [[|]|]; injection H as <- <-; now apply Go.
    + destruct (user_wait x) as [[y' [e|]]|] eqn:W; [| |discriminate].
      * injection H as <- <-. now apply (einv_wait d0 x y' (Some e)).
      * destruct (user_wait_core x y' None I W) as [_ [_ [_ [_ [_ [Efs _]]]]]].
        destruct (existsb (Z.eqb (t_step a)) (map step (x_cache y'))) eqn:Ex; injection H as <- <-.
        -- apply (eframe d0 (set_user UIdle y')); cbn; eauto. now apply (einv_wait d0 x y' None).
        -- assert (G : (forall p, In p (blocking_ops o (t_step a) (x_fs y')) -> mk p) /\ ~ listed y' (t_step a)).
           { split; [|intro L; apply existsb_notIn in Ex; now apply Ex]. intros p Hp. unfold blocking_ops in Hp. rewrite Efs in Hp. cbn in Fr. specialize (Fr a U).
             assert (Eg : dget (t_step a) (committed (x_fs x)) = None) by (apply dget_None; exact Fr). rewrite Eg in Hp. cbn in Hp. destruct (t_async_dirs o); cbn in Hp; [destruct Hp|]. destruct Hp as [<-|[]]. exists (t_step a). reflexivity. }
           apply (eframe d0 (set_user (UWrite a (blocking_ops o (t_step a) (x_fs y'))) y')); cbn; eauto. now apply (einv_wait d0 x y' None).
    + destruct Hu as [Hmk Hnl]. destruct ops as [|p ops].
      * injection H as H. change y with (fst (y, r)). rewrite <- H. now apply einv_launch.
      * injection H as <- <-. destruct (Hmk p (or_introl eq_refl)) as [t ->]. apply (eframe d0 x); cbn; eauto. split; [|exact Hnl]. intros q Hq. apply Hmk. now right.
    + destruct (user_wait x) as [[y' e]|] eqn:W; [|discriminate]. injection H as <- <-. now apply (einv_wait d0 x y' e).
    + destruct (user_wait x) as [[y' [e|]]|] eqn:W; [| |discriminate]; injection H as <- <-; eapply (einv_wait d0 x y'); eauto; exact Logic.I.
    + destruct (nth_error (x_jobs x) (x_ck x)) as [j|] eqn:Hj; [|discriminate].
      assert (G : einv d0 (set_user UIdle (set_job (x_ck x) (mkJob (j_state j) None) x))).
      { destruct (jobs_clear x (x_ck x) j Hj (set_user UIdle (set_job (x_ck x) (mkJob (j_state j) None) x)) eq_refl) as [J1 [J2 J3]]. apply (eframe d0 x); auto.
        - intros i f' E. exists f'. auto. }
      destruct (j_state j); try discriminate; injection H as <- <-; exact G.
    + destruct (nth_error (x_resps x) i) as [w|]; [|discriminate]. destruct (r_pc w) as [| | | |[b|e]]; try discriminate; injection H as <- <-; now apply Go.
  - destruct (x_user x) as [|a ops|a|a|a|a ops| | | |i] eqn:U; try discriminate. destruct (forallb _ ops) eqn:Fa; [|discriminate]. injection H as <- <-. now apply Go.
  - destruct (fin_step o i x) as [z|] eqn:E; [|discriminate]. injection H as <- <-. now apply (einv_fin d0 o i x).
  - destruct (resp_step i x) as [z|] eqn:E; [|discriminate]. injection H as <- <-. destruct (resp_core i x z I E) as [_ [_ [E3 [E4 [E5 E6]]]]].
    assert (Hl := resp_listed i x z E).
    apply (eframe d0 x); auto; try (rewrite ?E4, ?E5, ?E6; eauto; fail).
    rewrite E3. assert (Hu := e_user _ _ D). destruct (x_user x); auto. destruct Hu as [U1 U2]. split; [exact U1|]. intro L. now apply U2, Hl.
  - destruct (nth_error (x_jobs x) k) as [[[|s c m|s c ok] e]|] eqn:Hk; try discriminate. destruct m; [discriminate|]. injection H as <- <-. apply (eframe d0 x); auto.
    + intros k0 s0 c0 ok0 e0 E. cbn. rewrite nth_set. destruct (Nat.eqb_spec k k0) as [<-|_]; [congruence|eauto].
    + intros k0 s0 c0 e0 E. cbn in E. rewrite nth_set in E. destruct (Nat.eqb_spec k k0) as [<-|_]; [|eauto]. rewrite Hk in E. discriminate.
    + intros k0 j0 c0 E Ec. cbn in E. rewrite nth_set in E. destruct (Nat.eqb_spec k k0) as [<-|_]; [|eauto]. rewrite Hk in E. injection E as <-. exists k, (mkJob (JRun s c false) e). auto.
    + intros i f' E. exists f'. auto.
    + apply (e_user _ _ D).
  - destruct (nth_error (x_jobs x) k) as [[[|s c m|s c ok] e]|] eqn:Hk; try discriminate. destruct m; [|discriminate]. destruct (can_commit s (x_fs x)); [|discriminate]. injection H as <- <-.
    now apply (einv_commit d0 x k s c e).
  - destruct (nth_error (x_jobs x) k) as [[[|s c m|s c ok] e0]|] eqn:Hk; try discriminate. injection H as <- <-. apply (eframe d0 x); auto.
    + intros k0 s0 c0 ok0 e1 E. cbn. rewrite nth_set. destruct (Nat.eqb_spec k k0) as [<-|_]; [congruence|eauto].
    + intros k0 s0 c0 e1 E. cbn in E. rewrite nth_set in E. destruct (Nat.eqb_spec k k0) as [<-|_]; [|eauto]. rewrite Hk in E. discriminate.
    + intros k0 j0 c0 E Ec. cbn in E. rewrite nth_set in E. destruct (Nat.eqb_spec k k0) as [<-|_]; [|eauto]. rewrite Hk in E. injection E as <-. exists k, (mkJob (JRun s c m) e0). auto.
    + intros i f' E. exists f'. auto.
    + apply (e_user _ _ D).
  - destruct (nth_error (x_jobs x) k) as [[[|s c m|s c ok] e0]|] eqn:Hk; try discriminate. destruct m; [|discriminate]. destruct (can_commit s (x_fs x)); [|discriminate]. injection H as <- <-.
    now apply (einv_commit d0 x k s c e0).
Qed.

(** * The statements *)

Lemma run_dinv : forall o x0 x, total_policy o -> o_mode (t_cfg o) = Permanent -> inv x0 -> dinv x0 -> run o calm x0 x -> inv x /\ dinv x.
Proof.
  intros o x0 x T M I D R. induction R as [|y z l r R IH Hl Hs]; [auto|]. destruct IH as [I' D']. split; [eapply inv_step; eauto|eapply dinv_step; eauto].
Qed.

Lemma run_einv : forall o d x, keeps_last o -> run o (both calm fresh) (tinit o d) x -> inv x /\ einv d x.
Proof.
  intros o d x K R. assert (T := keeps_total o K). induction R as [|y z l r R IH Hl Hs]; [split; [apply inv_init|apply einv_init]|].
  destruct IH as [I' D']. split; [eapply inv_step; eauto; apply Hl|eapply einv_step; eauto].
Qed.

Lemma result_told : forall o d x i f j, total_policy o -> run o calm (tinit o d) x -> says_done x i -> save_of x i f j ->
  (exists c, j_state j = JDone (f_step f) c true) \/ f_told f = true /\ exists e, f_pc f = PEnd (Some e).
Proof.
  intros o d x i f j T R [w [Hw Hd]] [w' [Hw' [Hf Hj]]]. assert (w' = w) by congruence. subst w'.
  assert (I := inv_run o calm _ x T (fun _ _ H => H) (inv_init o d) R). assert (C := i_core _ I).
  destruct (k_resp _ _ _ _ C i w Hw) as [_ Hr]. rewrite Hd in Hr. destruct Hr as [f' [Hf' S]]. assert (f' = f) by congruence. subst f'.
  destruct S as [E|[E Et]]; [|auto]. left. destruct (k_done _ _ _ _ C _ f Hf) as [c [e Hk]]; [rewrite E; exact Logic.I|]. exists c. assert (j = mkJob (JDone (f_step f) c true) e) by congruence. now subst j.
Qed.

Lemma listed_intact : forall o d x s, total_policy o -> o_mode (t_cfg o) = Permanent -> sound d -> run o calm (tinit o d) x -> listed x s ->
  (exists c, intact (x_fs x) s c) \/ (exists i f, current x = Some (i, f) /\ f_step f = s /\ pending f) \/ deleting x s.
Proof. intros o d x s T M S R. destruct (run_dinv o _ x T M (inv_init o d) (dinv_init o d S) R) as [_ D]. apply (d_listed _ D). Qed.

Lemma quiet_intact : forall o d x s, total_policy o -> o_mode (t_cfg o) = Permanent -> sound d -> run o calm (tinit o d) x ->
  x_user x = UIdle -> (forall f, In f (x_fins x) -> settled f) -> listed x s -> exists c, intact (x_fs x) s c /\ dget s (committed (x_fs x)) = Some c.
Proof.
  intros o d x s T M S R U F L. destruct (run_dinv o _ x T M (inv_init o d) (dinv_init o d S) R) as [_ D].
  assert (G : exists c, intact (x_fs x) s c).
  { destruct (d_listed _ D s L) as [G|[[i [f [H1 [H2 H3]]]]|[a [ops [H1 _]]]]]; [exact G| |congruence].
    destruct (current_spec _ _ _ H1) as [H4 _]. apply nth_error_In in H4. exfalso. unfold pending in H3. destruct (F f H4) as [E|[[e E] Et]]; rewrite E in H3; [exact H3|congruence]. }
  destruct G as [c [Hin W]]. exists c. split; [now split|]. apply dget_Some; [apply (d_nodup _ D)|exact Hin].
Qed.

Lemma checkpoints_steps : forall o x l, checkpoints o x = Ok l -> l = map step (py_sorted step (x_cache x)).
Proof.
  intros o x l H. unfold checkpoints in H. destruct (sequence _) as [is|e] eqn:E; [|discriminate]. injection H as <-. f_equal.
  revert is E. generalize (py_sorted step (x_cache x)). intros cs. induction cs as [|c cs IH]; intros is E; cbn in E; [congruence|].
  set (q := if time c =? datetime_min then rmap (fun _ => c) (t_min_timestamp o) else Ok c) in E.
  assert (Q : forall a, q = Ok a -> a = c) by (intros a; subst q; destruct (time c =? datetime_min); [destruct (t_min_timestamp o); cbn|]; congruence).
  destruct q as [a|e]; [|discriminate]. cbn in E. destruct (sequence _) as [is'|e]; [|discriminate]. cbn in E. injection E as <-. rewrite (Q a eq_refl), (IH is' eq_refl). reflexivity.
Qed.

Lemma latest_greatest : forall o x s, latest o x = Ok (Some s) -> listed x s /\ forall t, listed x t -> t <= s.
Proof.
  intros o x s H. unfold latest in H. destruct (checkpoints o x) as [l|e] eqn:E; [|discriminate]. apply checkpoints_steps in E. cbn in H.
  destruct l as [|s0 l]; [discriminate|]. injection H as H.
  assert (Hp : forall t, listed x t <-> In t (s0 :: l)).
  { intros t. rewrite E. unfold listed. split; apply Permutation_in; [apply Permutation_sym|]; apply Permutation_map, py_sorted_perm. }
  assert (Ss : StronglySorted Z.le (s0 :: l)).
  { rewrite E. generalize (py_sorted_sorted step (x_cache x)). generalize (py_sorted step (x_cache x)). clear. intros cs G. induction G as [|a k G IH F]; cbn; constructor; [exact IH|]. rewrite Forall_forall in *. intros z Hz. apply in_map_iff in Hz. destruct Hz as [b [<- Hb]]. now apply F. }
  assert (Hl : s = last (s0 :: l) s0) by (rewrite <- H; destruct l; reflexivity).
  destruct (exists_last (l := s0 :: l)) as [m [z Em]]; [discriminate|]. rewrite Em in *. rewrite last_last in Hl. subst z. split; [apply Hp, in_or_app; right; now left|].
  intros t Ht. apply Hp in Ht. apply in_app_iff in Ht. destruct Ht as [Ht|[<-|[]]]; [|lia]. clear - Ss Ht. induction m as [|a m IH]; [destruct Ht|]. cbn in Ss. inversion Ss as [|? ? S1 S2]; subst.
  destruct Ht as [<-|Ht]; [|auto]. rewrite Forall_forall in S2. apply S2, in_or_app. right. now left.
Qed.

Lemma quiet_latest : forall o d x s, total_policy o -> o_mode (t_cfg o) = Permanent -> sound d -> run o calm (tinit o d) x ->
  x_user x = UIdle -> (forall f, In f (x_fins x) -> settled f) -> latest o x = Ok (Some s) ->
  listed x s /\ (forall t, listed x t -> t <= s) /\ exists c, intact (x_fs x) s c /\ load o None x = Ok (c_data c).
Proof.
  intros o d x s T M S R U F L. destruct (latest_greatest o x s L) as [H1 H2]. split; [exact H1|split; [exact H2|]].
  destruct (quiet_intact o d x s T M S R U F H1) as [c [Hi Hg]]. exists c. split; [exact Hi|]. unfold load, resolve. rewrite L. cbn. rewrite Hg. destruct Hi as [_ W]. now rewrite W.
Qed.

Lemma quiet_contents : forall o d x i f c e, total_policy o -> o_mode (t_cfg o) = Permanent -> sound d -> run o calm (tinit o d) x ->
  x_user x = UIdle -> (forall f, In f (x_fins x) -> settled f) -> newest x i f -> nth_error (x_jobs x) (f_ck f) = Some (mkJob (JDone (f_step f) c true) e) ->
  listed x (f_step f) -> intact (x_fs x) (f_step f) c /\ forall l, checkpoints o x = Ok l -> load o (Some (f_step f)) x = Ok (c_data c).
Proof.
  intros o d x i f c e T M S R U F N J L. destruct (quiet_intact o d x _ T M S R U F L) as [c' [Hi Hg]]. destruct (run_dinv o _ x T M (inv_init o d) (dinv_init o d S) R) as [_ D].
  assert (c' = c) by (destruct Hi as [H1 H2]; now apply (d_same _ D i f c e)). subst c'. split; [exact Hi|]. intros l E. unfold load, resolve. rewrite E. cbn.
  assert (X : existsb (Z.eqb (f_step f)) l = true).
  { apply existsb_In. rewrite (checkpoints_steps _ _ _ E). revert L. unfold listed. apply Permutation_in, Permutation_map, Permutation_sym, py_sorted_perm. }
  rewrite X. cbn. rewrite Hg. destruct Hi as [_ W]. now rewrite W.
Qed.

Lemma survivor : forall o d x, keeps_last o -> run o (both calm fresh) (tinit o d) x ->
  some_intact d \/ (exists i f j c, save_of x i f j /\ j_state j = JDone (f_step f) c true) -> some_intact (x_fs x).
Proof.
  intros o d x K R H. destruct (run_einv o d x K R) as [I E]. apply (e_some _ _ E). destruct H as [H|[i [f [j [c [[w [H1 [H2 H3]]] H4]]]]]]; [now left|right].
  exists (r_fin w), f, c, (j_exc j). split; [exact H2|]. rewrite H3. destruct j. cbn in *. now subst.
Qed.

(** * Only [save] is called *)

Record sinv (x : st) : Prop := mkSinv {
  s_old : forall i f, nth_error (x_fins x) i = Some f -> (S i < length (x_fins x))%nat -> over f;
  s_user : match x_user x with
    | UResult i => (forall f, In f (x_fins x) -> over f) \/ exists w, nth_error (x_resps x) i = Some w /\ S (r_fin w) = length (x_fins x)
    | UDelete a _ | UReady a | UDecide a | UWaitSave a | UWrite a _ => t_sync a = true /\ forall f, In f (x_fins x) -> over f
    | _ => forall f, In f (x_fins x) -> over f
    end;
  s_resp : forall i w, nth_error (x_resps x) i = Some w -> (r_fin w < length (x_fins x))%nat /\
    (S (r_fin w) = length (x_fins x) -> match r_pc w with WJoin _ j => j = r_fin w | WEnd _ => forall f, nth_error (x_fins x) (r_fin w) = Some f -> over f | _ => True end) }.

Lemma sinv_init : forall o d, sinv (tinit o d).
Proof. intros o d. split; cbn; try tauto; intros i; destruct i; discriminate. Qed.

Lemma all_over : forall x i f, (forall j g, nth_error (x_fins x) j = Some g -> (S j < length (x_fins x))%nat -> over g) -> nth_error (x_fins x) i = Some f -> S i = length (x_fins x) -> over f ->
  forall g, In g (x_fins x) -> over g.
Proof.
  intros x i f O Hf L Hov g Hg. apply In_nth_error in Hg. destruct Hg as [j Hj]. assert (Lj := nth_lt _ _ _ Hj). destruct (Nat.eq_dec (S j) (length (x_fins x))) as [E|E].
  - assert (j = i) by lia. subst j. congruence.
  - apply (O j g Hj). lia.
Qed.

(** The threads that finalize keep their places, and those that have ended stay so. *)
Lemma sframe : forall x y, sinv x -> length (x_fins y) = length (x_fins x) -> x_resps y = x_resps x ->
  (forall i f', nth_error (x_fins y) i = Some f' -> exists f, nth_error (x_fins x) i = Some f /\ (over f -> over f')) ->
  match x_user y with
    | UResult i => (forall f, In f (x_fins y) -> over f) \/ exists w, nth_error (x_resps y) i = Some w /\ S (r_fin w) = length (x_fins y)
    | UDelete a _ | UReady a | UDecide a | UWaitSave a | UWrite a _ => t_sync a = true /\ forall f, In f (x_fins y) -> over f
    | _ => forall f, In f (x_fins y) -> over f
    end -> sinv y.
Proof.
  intros x y S L E F U. split.
  - intros i f' H Hl. destruct (F i f' H) as [f [Hf O]]. apply O. apply (s_old _ S i f Hf). lia.
  - exact U.
  - intros i w H. rewrite E in H. destruct (s_resp _ S i w H) as [H1 H2]. rewrite L. split; [exact H1|]. intros E1. specialize (H2 E1). destruct (r_pc w); auto.
    intros f' H3. destruct (F _ f' H3) as [f [Hf O]]. auto.
Qed.

Lemma wait_over : forall x y e, user_wait x = Some (y, e) -> x_resps y = x_resps x /\ length (x_fins y) = length (x_fins x) /\ x_user y = x_user x /\
  (forall i f', nth_error (x_fins y) i = Some f' -> exists f, nth_error (x_fins x) i = Some f /\ (over f -> over f')) /\ forall f, In f (x_fins x) -> over f -> True.
Proof.
  intros x y e H. unfold user_wait in H. assert (Same : y = x -> x_resps y = x_resps x /\ length (x_fins y) = length (x_fins x) /\ x_user y = x_user x /\
    (forall i f', nth_error (x_fins y) i = Some f' -> exists f, nth_error (x_fins x) i = Some f /\ (over f -> over f')) /\ forall f, In f (x_fins x) -> over f -> True) by (intros ->; repeat split; eauto).
  destruct (current x) as [[i f]|] eqn:Hc; [|injection H as <- <-; auto]. destruct (f_pc f) as [| | | | |[er|]] eqn:P; try discriminate; [|injection H as <- <-; auto].
  destruct (f_told f); [injection H as <- <-; auto|]. injection H as <- <-. destruct (current_spec _ _ _ Hc) as [Hf _]. cbn. split; [reflexivity|split; [apply len_set|split; [reflexivity|split; [|auto]]]].
  intros j f' H. rewrite nth_set in H. destruct (Nat.eqb_spec i j) as [<-|N]; [|eauto]. rewrite Hf in H. injection H as <-. exists f. split; [exact Hf|]. intros _. exists (Some er). reflexivity.
Qed.

Lemma in_over : forall (F G : list fin), (forall i f', nth_error G i = Some f' -> exists f, nth_error F i = Some f /\ (over f -> over f')) -> (forall f, In f F -> over f) -> forall f, In f G -> over f.
Proof. intros F G H O f Hf. apply In_nth_error in Hf. destruct Hf as [i Hi]. destruct (H i f Hi) as [g [Hg Og]]. apply Og, O. now apply nth_error_In in Hg. Qed.

Lemma sinv_step : forall o l x y r, sinv x -> synchronous l x -> tstep o l x = Some (y, r) -> calm l x /\ sinv y.
Proof.
  intros o l x y r S Sy H. assert (U := s_user _ S). split.
  { destruct l; cbn; auto.
    - cbn in H. destruct (x_user x); try discriminate. exact U.
    - intros a E f Hf P. rewrite E in U. destruct U as [_ U]. destruct (U f Hf) as [e E']. congruence. }
  assert (Same : forall i f', nth_error (x_fins x) i = Some f' -> exists f, nth_error (x_fins x) i = Some f /\ (over f -> over f')) by eauto.
  destruct l as [a| | |i|s| | | | |i|i|k|k|k e|k e]; cbn in H.
  - destruct (x_user x) eqn:E; try discriminate. injection H as H. cbn in Sy. unfold begin_save in H.
    assert (G : forall u d, (match u with UDelete b _ | UReady b => b = a | UIdle => True | _ => False end) -> sinv (set_user u (set_fs d x))).
    { intros u d Hu. apply (sframe x); auto. cbn. destruct u; try destruct Hu; auto. }
    assert (G0 : forall u, (match u with UDelete b _ | UReady b => b = a | UIdle => True | _ => False end) -> sinv (set_user u x)).
    { intros u Hu. apply (sframe x); auto. cbn. destruct u; try destruct Hu; auto. }
    destruct (t_overwrite a).
    + destruct (o_read_only (t_cfg o)); [injection H as <- <-; now apply G0|]. destruct (existsb (Z.eqb (t_step a)) (map step (x_cache x))); [|injection H as <- <-; now apply G0].
      destruct (delete_ops (o_mode (t_cfg o)) (t_step a) (x_fs x)) as [ops [e|]]; injection H as <- <-; [|now apply G0]. apply (sframe x); auto. cbn. now rewrite E.
    + destruct (checkpoints o x) as [cs|e]; [|injection H as <- <-; exact S]. destruct (existsb (Z.eqb (t_step a)) cs); injection H as <- <-; [exact S|now apply G0].
  - destruct (x_user x) eqn:E; try discriminate. injection H as <- <-. now apply (sframe x).
  - destruct (x_user x) eqn:E; try discriminate. injection H as <- <-. now apply (sframe x).
  - destruct (x_user x) eqn:E; try discriminate. destruct (Nat.ltb i (length (x_resps x))); [|discriminate]. injection H as <- <-. apply (sframe x); auto. cbn. auto.
  - destruct (x_user x) eqn:E; try discriminate. injection H as <- <-. exact S.
  - destruct (x_user x) eqn:E; try discriminate. injection H as <- <-. exact S.
  - destruct (x_user x) eqn:E; try discriminate. injection H as <- <-. apply (sframe x); auto. cbn. now rewrite E.
  - unfold user_step in H. destruct (x_user x) as [|a ops|a|a|a|a ops| | | |i] eqn:E; try discriminate.
    + destruct ops as [|p ops]; injection H as <- <-; apply (sframe x); auto.
    + injection H as <- <-. apply (sframe x); auto.
    + destruct (t_force a); [injection H as <- <-; now apply (sframe x)|].
      destruct (should_save (t_cfg o) (as_mgr x) (t_now a) (t_preempt a) (t_step a)) as [[|]|]; injection H as <- <-; apply (sframe x); auto; first [exact U|exact (proj2 U)].
    + destruct (user_wait x) as [[y' [e|]]|] eqn:W; [| |discriminate]; destruct (wait_over _ _ _ W) as [E1 [E2 [E3 [E4 _]]]]; assert (O := in_over _ _ E4 (proj2 U)).
      * injection H as <- <-. now apply (sframe x).
      * destruct (existsb (Z.eqb (t_step a)) (map step (x_cache y'))); injection H as <- <-; apply (sframe x); auto. cbn. split; [apply U|exact O].
    + destruct ops as [|p ops]; [|injection H as <- <-; now apply (sframe x)]. injection H as H. unfold launch in H. destruct (steps_to_remove _ _) as [rm|e]; [|injection H as <- <-; apply (sframe x); auto; first [exact U|exact (proj2 U)]].
      destruct U as [Ua Uo]. rewrite Ua in H. injection H as <- <-. split; cbn.
      * intros j f Hj Hl. rewrite app_length in Hl. cbn in Hl. rewrite nth_snoc in Hj. destruct (Nat.ltb_spec j (length (x_fins x))); [|lia]. apply Uo. now apply nth_error_In in Hj.
      * right. exists (mkResp (length (x_fins x)) WTest). rewrite app_length. cbn. split; [|lia]. now rewrite nth_snoc, Nat.ltb_irrefl, Nat.eqb_refl.
      * intros j w Hj. rewrite app_length. cbn. rewrite nth_snoc in Hj. destruct (Nat.ltb_spec j (length (x_resps x))) as [Hl|Hl].
        -- destruct (s_resp _ S j w Hj) as [H1 _]. split; lia.
        -- destruct (Nat.eqb j (length (x_resps x))); [|discriminate]. injection Hj as <-. cbn. split; [lia|auto].
    + destruct (user_wait x) as [[y' e]|] eqn:W; [|discriminate]. destruct (wait_over _ _ _ W) as [E1 [E2 [E3 [E4 _]]]]. injection H as <- <-. apply (sframe x); auto. exact (in_over (x_fins x) _ E4 U).
    + destruct (user_wait x) as [[y' [e|]]|] eqn:W; [| |discriminate]; destruct (wait_over _ _ _ W) as [E1 [E2 [E3 [E4 _]]]]; injection H as <- <-; apply (sframe x); auto; exact (in_over (x_fins x) _ E4 U).
    + destruct (nth_error (x_jobs x) (x_ck x)) as [j|]; [|discriminate]. destruct (j_state j); try discriminate; injection H as <- <-; now apply (sframe x).
    + destruct (nth_error (x_resps x) i) as [w|] eqn:Hw; [|discriminate].
      assert (G : forall q, r_pc w = WEnd q -> sinv (set_user UIdle x)).
      { intros q Hq. apply (sframe x); auto. cbn. destruct U as [U|[w' [Hw' L]]]; [exact U|]. assert (w' = w) by congruence. subst w'. destruct (s_resp _ S i w Hw) as [H1 H2]. specialize (H2 L). rewrite Hq in H2.
        destruct (nth_error (x_fins x) (r_fin w)) as [f|] eqn:Hf; [|apply nth_error_None in Hf; lia]. apply (all_over x (r_fin w) f); auto. apply (s_old _ S). }
      destruct (r_pc w) as [| | | |[b|e]] eqn:Pw; try discriminate; injection H as <- <-; eapply G; reflexivity.
  - destruct (x_user x) as [|a ops|a|a|a|a ops| | | |i] eqn:E; try discriminate. destruct (forallb _ ops); [|discriminate]. injection H as <- <-. apply (sframe x); auto; first [exact U|exact (proj2 U)].
  - destruct (fin_step o i x) as [z|] eqn:E; [|discriminate]. injection H as <- <-. unfold fin_step in E. destruct (nth_error (x_fins x) i) as [f|] eqn:Hf; [|discriminate].
    assert (G : forall p z, x_fins z = set_nth i (mkFin (f_step f) (f_rm f) (f_ck f) p (f_told f)) (x_fins x) -> x_resps z = x_resps x -> x_user z = x_user x -> ~ over f -> sinv z).
    { intros p z0 E1 E2 E3 N.
      assert (F4 : forall j f', nth_error (x_fins z0) j = Some f' -> exists g, nth_error (x_fins x) j = Some g /\ (over g -> over f')).
      { intros j f' Hj. rewrite E1, nth_set in Hj. destruct (Nat.eqb_spec i j) as [<-|_]; [|eauto]. rewrite Hf in Hj. injection Hj as <-. exists f. split; [exact Hf|]. intros O. elim (N O). }
      apply (sframe x); auto; [rewrite E1; apply len_set|]. rewrite E3, E2. assert (NO : (forall f, In f (x_fins x) -> over f) -> False) by (intros O; apply N, O; now apply nth_error_In in Hf).
      destruct (x_user x); try (destruct (NO U)); try (destruct U as [_ U]; destruct (NO U)). destruct U as [U|U]; [destruct (NO U)|]. right. rewrite E1, len_set. exact U. }
    assert (P : ~ over f) by (intros [e P]; rewrite P in E; discriminate).
    destruct (f_pc f) as [|k| |ss ops|e|e].
    + injection E as <-. now apply (G (PWait (x_ck x))).
    + destruct (nth_error (x_jobs x) k) as [j|]; [|discriminate]. destruct (j_state j); try discriminate; injection E as <-; eapply G; try reflexivity; exact P.
    + injection E as <-. destruct (nth_error (x_jobs x) (x_ck x)) as [j|]; eapply G; try reflexivity; exact P.
    + destruct ops as [|p ops].
      * destruct ss as [|t ss]; [injection E as <-; eapply G; try reflexivity; exact P|]. destruct (delete_ops _ t (x_fs x)) as [ops [e|]]; injection E as <-; eapply G; try reflexivity; exact P.
      * destruct ss; injection E as <-; eapply G; try reflexivity; exact P.
    + injection E as <-. eapply G; try reflexivity; exact P.
    + discriminate.
  - destruct (resp_step i x) as [z|] eqn:E; [|discriminate]. injection H as <- <-. unfold resp_step in E. destruct (nth_error (x_resps x) i) as [w|] eqn:Hw; [|discriminate].
    destruct (s_resp _ S i w Hw) as [Hlt Hr].
    assert (G : forall p cs, (Datatypes.S (r_fin w) = length (x_fins x) -> match p with WJoin _ j => j = r_fin w | WEnd _ => forall f, nth_error (x_fins x) (r_fin w) = Some f -> over f | _ => True end) ->
      sinv (set_resp i (mkResp (r_fin w) p) (set_cache cs x))).
    { intros p cs Hp. split; cbn.
      - apply (s_old _ S).
      - destruct (x_user x) as [| | | | | | | | |j] eqn:Eu; auto. destruct U as [U|[w' [Hw' L]]]; [auto|]. right. rewrite nth_set, Hw'. destruct (Nat.eqb_spec i j) as [->|_]; [|eauto].
        assert (w' = w) by congruence. subst w'. eauto.
      - intros j w' Hj. rewrite nth_set in Hj. destruct (Nat.eqb_spec i j) as [<-|_]; [|now apply (s_resp _ S j)]. rewrite Hw in Hj. injection Hj as <-. cbn. split; [exact Hlt|exact Hp]. }
    assert (G0 : forall p, (Datatypes.S (r_fin w) = length (x_fins x) -> match p with WJoin _ j => j = r_fin w | WEnd _ => forall f, nth_error (x_fins x) (r_fin w) = Some f -> over f | _ => True end) ->
      sinv (set_resp i (mkResp (r_fin w) p) x)) by (intros p Hp; exact (G p (x_cache x) Hp)).
    destruct (r_pc w) as [| |s|s j|q]; try discriminate.
    + destruct (current x) as [[j f]|] eqn:Hc.
      * destruct (current_spec _ _ _ Hc) as [Hf Hl]. destruct (f_pc f) as [| | | | |[e|]] eqn:P; injection E as <-; apply G0; auto. intros L f' Hf'. assert (r_fin w = j) by lia. assert (f' = f) by congruence. subst f'. exists None. exact P.
      * injection E as <-. apply current_none in Hc. rewrite Hc in Hlt. cbn in Hlt. lia.
    + destruct (current x) as [[j f]|]; [|discriminate]. injection E as <-. now apply G0.
    + destruct (current x) as [[j f]|] eqn:Hc; [|discriminate]. destruct (current_spec _ _ _ Hc) as [_ Hl]. injection E as <-. apply G0. intros L. lia.
    + destruct (nth_error (x_fins x) j) as [f|] eqn:Hf; [|discriminate]. destruct (f_pc f) as [| | | | |[e|]] eqn:P; try discriminate; injection E as <-.
      * apply (G (WEnd (Err e)) (drop_steps [s] (x_cache x))). intros L f' Hf'. rewrite (Hr L) in Hf. assert (f' = f) by congruence. subst f'. exists (Some e). exact P.
      * apply G0. intros L f' Hf'. rewrite (Hr L) in Hf. assert (f' = f) by congruence. subst f'. exists None. exact P.
  - destruct (nth_error (x_jobs x) k) as [[[|s c m|s c ok] e]|]; try discriminate. destruct m; [discriminate|]. injection H as <- <-. now apply (sframe x).
  - destruct (nth_error (x_jobs x) k) as [[[|s c m|s c ok] e]|]; try discriminate. destruct m; [|discriminate]. destruct (can_commit s (x_fs x)); [|discriminate]. injection H as <- <-. now apply (sframe x).
  - destruct (nth_error (x_jobs x) k) as [[[|s c m|s c ok] e0]|]; try discriminate. injection H as <- <-. now apply (sframe x).
  - destruct (nth_error (x_jobs x) k) as [[[|s c m|s c ok] e0]|]; try discriminate. destruct m; [|discriminate]. destruct (can_commit s (x_fs x)); [|discriminate]. injection H as <- <-. now apply (sframe x).
Qed.

Lemma sync_calm : forall o d x, run o synchronous (tinit o d) x -> run o calm (tinit o d) x /\ sinv x.
Proof.
  intros o d x R. induction R as [|y z l r R [IH IS] Hl Hs]; [split; [constructor|apply sinv_init]|].
  destruct (sinv_step o l y z r IS Hl Hs) as [Q S]. split; [eapply run_step; eauto|exact S].
Qed.

Definition ended (w : resp) : Prop := exists r, r_pc w = WEnd r.

Record qinv (x : st) : Prop := mkQinv {
  q_len : length (x_resps x) = length (x_fins x);
  q_num : forall k w, nth_error (x_resps x) k = Some w -> r_fin w = k;
  q_old : forall k w, nth_error (x_resps x) k = Some w -> (S k < length (x_resps x))%nat -> ended w;
  q_user : match x_user x with UResult i => (forall w, In w (x_resps x) -> ended w) \/ S i = length (x_resps x) | _ => forall w, In w (x_resps x) -> ended w end;
  q_done : forall k w b f, nth_error (x_resps x) k = Some w -> r_pc w = WEnd (Ok b) -> nth_error (x_fins x) k = Some f -> f_pc f = PEnd None }.

Lemma qinv_init : forall o d, qinv (tinit o d).
Proof. intros o d. split; cbn; auto; try tauto; intros k; destruct k; discriminate. Qed.

Lemma qframe : forall x y, qinv x -> x_resps y = x_resps x -> length (x_fins y) = length (x_fins x) ->
  (forall i f', nth_error (x_fins y) i = Some f' -> exists f, nth_error (x_fins x) i = Some f /\ (f_pc f = PEnd None -> f_pc f' = PEnd None)) ->
  (match x_user y with UResult i => (forall w, In w (x_resps x) -> ended w) \/ S i = length (x_resps x) | _ => forall w, In w (x_resps x) -> ended w end) -> qinv y.
Proof.
  intros x y Q E L F U. split; rewrite ?E, ?L.
  - apply (q_len _ Q).
  - apply (q_num _ Q).
  - apply (q_old _ Q).
  - exact U.
  - intros k w b f' Hw P Hf'. destruct (F k f' Hf') as [f [Hf G]]. apply G. now apply (q_done _ Q k w b).
Qed.

Lemma wait_ends : forall x y e, user_wait x = Some (y, e) ->
  (forall i f', nth_error (x_fins y) i = Some f' -> exists f, nth_error (x_fins x) i = Some f /\ (f_pc f = PEnd None -> f_pc f' = PEnd None)).
Proof.
  intros x y e H. unfold user_wait in H. assert (Same : y = x -> (forall i f', nth_error (x_fins y) i = Some f' -> exists f, nth_error (x_fins x) i = Some f /\ (f_pc f = PEnd None -> f_pc f' = PEnd None))) by (intros ->; eauto).
  destruct (current x) as [[i f]|] eqn:Hc; [|injection H as <- <-; auto]. destruct (f_pc f) as [| | | | |[er|]] eqn:P; try discriminate; [|injection H as <- <-; auto].
  destruct (f_told f); [injection H as <- <-; auto|]. injection H as <- <-. destruct (current_spec _ _ _ Hc) as [Hf _]. cbn.
  intros j f' H. rewrite nth_set in H. destruct (Nat.eqb_spec i j) as [<-|N]; [|eauto]. rewrite Hf in H. injection H as <-. exists f. split; [exact Hf|]. congruence.
Qed.

Lemma qinv_step : forall o l x y r, sinv x -> qinv x -> synchronous l x -> tstep o l x = Some (y, r) -> qinv y.
Proof.
  intros o l x y r S Q Sy H. assert (U := q_user _ Q).
  assert (Same : forall i f', nth_error (x_fins x) i = Some f' -> exists f, nth_error (x_fins x) i = Some f /\ (f_pc f = PEnd None -> f_pc f' = PEnd None)) by eauto.
  destruct l as [a| | |i|s| | | | |i|i|k|k|k e|k e]; cbn in H.
  - destruct (x_user x) eqn:E; try discriminate. injection H as H. unfold begin_save in H. destruct (t_overwrite a).
    + destruct (o_read_only (t_cfg o)); [injection H as <- <-; now apply (qframe x)|]. destruct (existsb (Z.eqb (t_step a)) (map step (x_cache x))); [|injection H as <- <-; now apply (qframe x)].
      destruct (delete_ops (o_mode (t_cfg o)) (t_step a) (x_fs x)) as [ops [e|]]; injection H as <- <-; apply (qframe x); auto. cbn. now rewrite E.
    + destruct (checkpoints o x) as [cs|e]; [|injection H as <- <-; exact Q]. destruct (existsb (Z.eqb (t_step a)) cs); injection H as <- <-; [exact Q|now apply (qframe x)].
  - destruct (x_user x) eqn:E; try discriminate. injection H as <- <-. now apply (qframe x).
  - destruct (x_user x) eqn:E; try discriminate. injection H as <- <-. now apply (qframe x).
  - destruct (x_user x) eqn:E; try discriminate. destruct (Nat.ltb i (length (x_resps x))); [|discriminate]. injection H as <- <-. apply (qframe x); auto. cbn. auto.
  - destruct (x_user x) eqn:E; try discriminate. injection H as <- <-. exact Q.
  - destruct (x_user x) eqn:E; try discriminate. injection H as <- <-. exact Q.
  - destruct (x_user x) eqn:E; try discriminate. injection H as <- <-. apply (qframe x); auto. cbn. now rewrite E.
  - unfold user_step in H. assert (Us := s_user _ S). destruct (x_user x) as [|a ops|a|a|a|a ops| | | |i] eqn:E; try discriminate.
    + destruct ops as [|p ops]; injection H as <- <-; now apply (qframe x).
    + injection H as <- <-. now apply (qframe x).
    + destruct (t_force a); [injection H as <- <-; now apply (qframe x)|].
      destruct (should_save (t_cfg o) (as_mgr x) (t_now a) (t_preempt a) (t_step a)) as [[|]|]; injection H as <- <-; now apply (qframe x).
    + destruct (user_wait x) as [[y' [e|]]|] eqn:W; [| |discriminate]; destruct (wait_over _ _ _ W) as [E1 [E2 [E3 _]]]; assert (E4 := wait_ends _ _ _ W).
      * injection H as <- <-. now apply (qframe x).
      * destruct (existsb (Z.eqb (t_step a)) (map step (x_cache y'))); injection H as <- <-; now apply (qframe x).
    + destruct ops as [|p ops]; [|injection H as <- <-; now apply (qframe x)]. injection H as H. unfold launch in H. destruct (steps_to_remove _ _) as [rm|e]; [|injection H as <- <-; now apply (qframe x)].
      destruct Us as [Ua _]. rewrite Ua in H. injection H as <- <-. assert (L := q_len _ Q). split; cbn.
      * rewrite !app_length. cbn. lia.
      * intros k w Hk. rewrite nth_snoc in Hk. destruct (Nat.ltb k (length (x_resps x))); [now apply (q_num _ Q)|]. destruct (Nat.eqb_spec k (length (x_resps x))) as [->|]; [|discriminate]. injection Hk as <-. cbn. congruence.
      * intros k w Hk Hl. rewrite app_length in Hl. cbn in Hl. rewrite nth_snoc in Hk. destruct (Nat.ltb_spec k (length (x_resps x))); [|lia]. apply U. now apply nth_error_In in Hk.
      * right. rewrite app_length. cbn. lia.
      * intros k w b f Hw P Hf. rewrite nth_snoc in Hw. rewrite nth_snoc in Hf. rewrite L in Hw. destruct (Nat.ltb k (length (x_fins x))); [now apply (q_done _ Q k w b)|]. destruct (Nat.eqb k (length (x_fins x))); [|discriminate]. injection Hw as <-. discriminate.
    + destruct (user_wait x) as [[y' e]|] eqn:W; [|discriminate]. destruct (wait_over _ _ _ W) as [E1 [E2 [E3 _]]]. assert (E4 := wait_ends _ _ _ W). injection H as <- <-. now apply (qframe x).
    + destruct (user_wait x) as [[y' [e|]]|] eqn:W; [| |discriminate]; destruct (wait_over _ _ _ W) as [E1 [E2 [E3 _]]]; assert (E4 := wait_ends _ _ _ W); injection H as <- <-; now apply (qframe x).
    + destruct (nth_error (x_jobs x) (x_ck x)) as [j|]; [|discriminate]. destruct (j_state j); try discriminate; injection H as <- <-; now apply (qframe x).
    + destruct (nth_error (x_resps x) i) as [w|] eqn:Hw; [|discriminate].
      assert (G : forall q, r_pc w = WEnd q -> qinv (set_user UIdle x)).
      { intros q Hq. apply (qframe x); auto. cbn. destruct U as [U|L]; [exact U|]. intros w' Hw'. apply In_nth_error in Hw'. destruct Hw' as [k Hk].
        destruct (Nat.eq_dec k i) as [->|N]; [exists q; congruence|]. apply (q_old _ Q k w' Hk). apply nth_lt in Hk. lia. }
      destruct (r_pc w) as [| | | |[b|e]] eqn:Pw; try discriminate; injection H as <- <-; eapply G; reflexivity.
  - destruct (x_user x) as [|a ops|a|a|a|a ops| | | |i] eqn:E; try discriminate. destruct (forallb _ ops); [|discriminate]. injection H as <- <-. now apply (qframe x).
  - destruct (fin_step o i x) as [z|] eqn:E; [|discriminate]. injection H as <- <-. unfold fin_step in E. destruct (nth_error (x_fins x) i) as [f|] eqn:Hf; [|discriminate].
    assert (P : f_pc f <> PEnd None) by (intros P; rewrite P in E; discriminate).
    assert (G : forall p z, x_fins z = set_nth i (mkFin (f_step f) (f_rm f) (f_ck f) p (f_told f)) (x_fins x) -> x_resps z = x_resps x -> x_user z = x_user x -> qinv z).
    { intros p z0 E1 E2 E3. apply (qframe x); auto; [rewrite E1; apply len_set| |now rewrite E3].
      intros j f' Hj. rewrite E1, nth_set in Hj. destruct (Nat.eqb_spec i j) as [<-|_]; [|eauto]. rewrite Hf in Hj. injection Hj as <-. exists f. split; [exact Hf|]. intros O. elim (P O). }
    destruct (f_pc f) as [|k| |ss ops|e|e].
    + injection E as <-. now apply (G (PWait (x_ck x))).
    + destruct (nth_error (x_jobs x) k) as [j|]; [|discriminate]. destruct (j_state j); try discriminate; injection E as <-; eapply G; reflexivity.
    + injection E as <-. destruct (nth_error (x_jobs x) (x_ck x)) as [j|]; eapply G; reflexivity.
    + destruct ops as [|p ops].
      * destruct ss as [|t ss]; [injection E as <-; eapply G; reflexivity|]. destruct (delete_ops _ t (x_fs x)) as [ops [e|]]; injection E as <-; eapply G; reflexivity.
      * destruct ss; injection E as <-; eapply G; reflexivity.
    + injection E as <-. eapply G; reflexivity.
    + discriminate.
  - destruct (resp_step i x) as [z|] eqn:E; [|discriminate]. injection H as <- <-. unfold resp_step in E. destruct (nth_error (x_resps x) i) as [w|] eqn:Hw; [|discriminate].
    assert (L := q_len _ Q). assert (Li := nth_lt _ _ _ Hw). assert (Nm := q_num _ Q i w Hw).
    assert (Last : r_pc w = r_pc w -> ~ ended w -> Datatypes.S i = length (x_resps x)).
    { intros _ N. destruct (Nat.eq_dec (Datatypes.S i) (length (x_resps x))) as [?|Ne]; [assumption|]. elim N. apply (q_old _ Q i w Hw). lia. }
    assert (G : forall p cs, ~ ended w -> (forall b, p = WEnd (Ok b) -> forall f, nth_error (x_fins x) i = Some f -> f_pc f = PEnd None) -> qinv (set_resp i (mkResp (r_fin w) p) (set_cache cs x))).
    { intros p cs N Hp. assert (Sl := Last eq_refl N). split; cbn.
      - rewrite len_set. exact L.
      - intros k w' Hk. rewrite nth_set in Hk. destruct (Nat.eqb_spec i k) as [<-|_]; [|now apply (q_num _ Q)]. rewrite Hw in Hk. injection Hk as <-. exact Nm.
      - intros k w' Hk Hl. rewrite len_set in Hl. rewrite nth_set in Hk. destruct (Nat.eqb_spec i k) as [<-|_]; [lia|]. now apply (q_old _ Q k w').
      - assert (Nu : ~ forall w, In w (x_resps x) -> ended w) by (intros A; apply N, A; now apply nth_error_In in Hw). rewrite len_set. destruct (x_user x); try (elim (Nu U)). destruct U as [U|U]; [elim (Nu U)|now right].
      - intros k w' b f Hk P Hf. rewrite nth_set in Hk. destruct (Nat.eqb_spec i k) as [<-|_]; [|now apply (q_done _ Q k w' b)]. rewrite Hw in Hk. injection Hk as <-. cbn in P. now apply (Hp b). }
    assert (G0 : forall p, ~ ended w -> (forall b, p = WEnd (Ok b) -> forall f, nth_error (x_fins x) i = Some f -> f_pc f = PEnd None) -> qinv (set_resp i (mkResp (r_fin w) p) x)) by (intros p N Hp; exact (G p (x_cache x) N Hp)).
    destruct (s_resp _ S i w Hw) as [_ Hr].
    assert (Ne : forall q, r_pc w = q -> (forall v, q <> WEnd v) -> ~ ended w) by (intros q Eq Nq [v Ev]; congruence).
    destruct (r_pc w) as [| |s|s j|q] eqn:Pw; try discriminate; assert (N := Ne _ eq_refl ltac:(discriminate)); assert (Sl := Last eq_refl N).
    + destruct (current x) as [[j f]|] eqn:Hc.
      * destruct (current_spec _ _ _ Hc) as [Hf Hl]. destruct (f_pc f) as [| | | | |[e|]] eqn:P; injection E as <-; apply G0; auto; try discriminate.
        intros b _ f' Hf'. assert (i = j) by lia. subst j. congruence.
      * injection E as <-. apply current_none in Hc. rewrite Hc in L. cbn in L. lia.
    + destruct (current x) as [[j f]|]; [|discriminate]. injection E as <-. apply G0; auto. discriminate.
    + destruct (current x) as [[j f]|]; [|discriminate]. injection E as <-. apply G0; auto. discriminate.
    + rewrite Nm in Hr. assert (j = i) by (apply Hr; lia). subst j.
      destruct (nth_error (x_fins x) i) as [f|] eqn:Hf; [|discriminate]. destruct (f_pc f) as [| | | | |[e|]] eqn:P; try discriminate; injection E as <-.
      * apply G; auto. discriminate.
      * apply G0; auto. intros b _ f' Hf'. congruence.
  - destruct (nth_error (x_jobs x) k) as [[[|s c m|s c ok] e]|]; try discriminate. destruct m; [discriminate|]. injection H as <- <-. now apply (qframe x).
  - destruct (nth_error (x_jobs x) k) as [[[|s c m|s c ok] e]|]; try discriminate. destruct m; [|discriminate]. destruct (can_commit s (x_fs x)); [|discriminate]. injection H as <- <-. now apply (qframe x).
  - destruct (nth_error (x_jobs x) k) as [[[|s c m|s c ok] e0]|]; try discriminate. injection H as <- <-. now apply (qframe x).
  - destruct (nth_error (x_jobs x) k) as [[[|s c m|s c ok] e0]|]; try discriminate. destruct m; [|discriminate]. destruct (can_commit s (x_fs x)); [|discriminate]. injection H as <- <-. now apply (qframe x).
Qed.

Lemma sync_result : forall o d x i f j, total_policy o -> run o synchronous (tinit o d) x -> says_done x i -> save_of x i f j -> exists c, j_state j = JDone (f_step f) c true.
Proof.
  intros o d x i f j T R [w [Hw Hd]] [w' [Hw' [Hf Hj]]]. assert (w' = w) by congruence. subst w'.
  assert (Q : qinv x).
  { clear - R. induction R as [|y z l r R IH Hl Hs]; [apply qinv_init|]. eapply qinv_step; eauto. now apply (sync_calm o d). }
  destruct (sync_calm o d x R) as [R' _]. assert (I := inv_run o calm _ x T (fun _ _ H => H) (inv_init o d) R').
  rewrite (q_num _ Q i w Hw) in Hf. assert (P := q_done _ Q i w true f Hw Hd Hf).
  destruct (k_done _ _ _ _ (i_core _ I) _ f Hf) as [c [e Hk]]; [rewrite P; exact Logic.I|]. exists c. assert (j = mkJob (JDone (f_step f) c true) e) by congruence. now subst j.
Qed.

Lemma quiet_sound : forall o d x, total_policy o -> o_mode (t_cfg o) = Permanent -> sound d -> run o calm (tinit o d) x -> x_user x = UIdle -> (forall f, In f (x_fins x) -> over f) -> sound (x_fs x).
Proof.
  intros o d x T M S R U F. destruct (run_dinv o _ x T M (inv_init o d) (dinv_init o d S) R) as [_ D]. split; [apply (d_nodup _ D)|].
  intros s c H. destruct (d_files _ D s c H) as [W|[X|[i [f [ss [ops [H1 H2]]]]]]]; [exact W|rewrite U in X; destruct X|]. destruct (F f (nth_error_In _ _ H1)) as [e E]. congruence.
Qed.
