(** Proofs for C21 and C48. *)
From Coq Require Import ZArith List Bool String Lia Permutation.
From Verif Require Import Base Deleter_Model Deleter_Spec.
Import ListNotations.
Local Open Scope Z_scope.

Local Ltac inv H := inversion H; subst; clear H.

Section Threaded.
Variable D : Type.
Variable del : nat -> Z -> D -> D * option err.

Lemma delete_in_turn_app : forall a b n d,
  delete_in_turn D del n (a ++ b) d =
  match delete_in_turn D del n a d with
  | (d', None) => delete_in_turn D del (n + List.length a) b d'
  | r => r
  end.
Proof.
  induction a as [|s a IH]; intros b n d; simpl; [rewrite Nat.add_0_r; auto|].
  destruct (del n s d) as [d' [e|]]; auto. rewrite IH. rewrite <- Nat.add_succ_comm. auto.
Qed.

Definition cur (x : tst D) : list Z := match t_pc x with TDelete s => [s] | _ => [] end.

(** What has been done is what a sequential deleter would have done. *)
Definition TI (d : D) (req : list Z) (x : tst D) : Prop :=
  exists pre, (req = pre ++ cur x ++ filter (fun s => 0 <=? s) (t_queue x)) /\
    delete_in_turn D del 0 pre d = (t_dir x, t_exc x) /\ (t_exc x = None -> t_calls x = List.length pre) /\
    (t_exc x <> None -> t_pc x = TDead).

Definition TP (n : nat) (x : tst D) : Prop :=
  match n with
  | O => t_user x = CIdle /\ (forall s, In s (t_queue x) -> 0 <= s) /\ (t_pc x = TDead -> t_exc x <> None)
  | S O =>
    match t_user x with
    | CPut => (forall s, In s (t_queue x) -> 0 <= s) /\ (t_pc x = TDead -> t_exc x <> None)
    | CJoin => if match t_pc x with TDead => true | _ => false end
               then t_exc x <> None \/ t_queue x = []
               else exists q, t_queue x = q ++ [-1] /\ forall s, In s q -> 0 <= s
    | CRaise => t_pc x = TDead /\ (t_exc x <> None \/ t_queue x = [])
    | CIdle => t_pc x = TDead
    end
  | _ => t_pc x = TDead /\ t_user x <> CPut
  end.

Lemma requested_app : forall a b, requested (a ++ b) = requested a ++ requested b.
Proof. intros. unfold requested. apply flat_map_app. Qed.

Lemma closes_app : forall a b, closes (a ++ b) = (closes a + closes b)%nat.
Proof. intros. unfold closes. rewrite filter_app, app_length. auto. Qed.

Lemma TI_step : forall d req l x y r, TI d req x -> t_step D del l x = Some (y, r) ->
  (forall s, In s (requested [l]) -> 0 <= s) -> TI d (req ++ requested [l]) y.
Proof.
  intros d req l x y r (pre & E & DT & NC & DD) HS HN. destruct l; simpl in *.
  - destruct (t_user x); inv HS. exists pre. simpl. rewrite filter_app. simpl.
    destruct (Z.leb_spec 0 s); [|specialize (HN s (or_introl eq_refl)); lia].
    unfold cur. simpl. rewrite <- !app_assoc. auto.
  - rewrite app_nil_r. destruct (t_user x); inv HS. exists pre. simpl. auto.
  - rewrite app_nil_r. destruct (t_user x); try discriminate.
    + inv HS. exists pre. simpl. rewrite filter_app. simpl. rewrite app_nil_r. auto.
    + destruct (t_pc x) eqn:EP; try discriminate. inv HS. exists pre. unfold cur in *. simpl. rewrite EP in *. auto.
    + inv HS. exists pre. simpl. auto.
  - rewrite app_nil_r. unfold cur in E. destruct (t_pc x) eqn:EP; try discriminate.
    + destruct (t_queue x) as [|s q] eqn:EQ; [discriminate|]. simpl in E. inv HS. exists pre. unfold cur. simpl.
      destruct (Z.ltb_spec s 0); destruct (Z.leb_spec 0 s); try lia; simpl in *;
      repeat split; auto. intro H1. specialize (DD H1). discriminate.
    + destruct (del (t_calls x) s (t_dir x)) as [d' e] eqn:ED. inv HS. exists (pre ++ [s]). unfold cur; simpl.
      assert (X : t_exc x = None).
      { destruct (t_exc x); auto. specialize (DD ltac:(discriminate)). discriminate. }
      specialize (NC X). split; [|split; [|split]].
      * destruct e; simpl; rewrite <- app_assoc; auto.
      * rewrite delete_in_turn_app, DT, X. simpl. rewrite <- NC, ED. destruct e; auto.
      * destruct e; [discriminate|]. intros _. rewrite app_length, NC. simpl. lia.
      * destruct e; auto. congruence.
Qed.

Lemma TP_step : forall d req n l x y r, TI d req x -> TP n x -> t_step D del l x = Some (y, r) ->
  (forall s, In s (requested [l]) -> 0 <= s) -> TP (n + closes [l]) y.
Proof.
  intros d req n l x y r (pre & E & DT & NC & DD) HP HS HN.
  destruct l; cbn in HN; unfold closes; cbn [filter List.length]; rewrite ?Nat.add_0_r, ?Nat.add_1_r; simpl in HS.
  - destruct (t_user x) eqn:EU; inv HS. destruct n as [|[|n]]; simpl in *.
    + destruct HP as (_ & HQ & HD). repeat split; auto. intros s' H. apply in_app_iff in H. simpl in H.
      destruct H as [H|[<-|[]]]; auto.
    + rewrite EU in HP. auto.
    + destruct HP. split; auto. congruence.
  - destruct (t_user x) eqn:EU; inv HS. destruct n as [|n]; simpl in *.
    + destruct HP as (_ & HQ & HD). destruct (t_pc x) eqn:EP; auto.
    + assert (EP : t_pc x = TDead) by (destruct n; [rewrite EU in HP|]; tauto). rewrite EP. split; auto. discriminate.
  - destruct (t_user x) eqn:EU; try discriminate.
    + inv HS. destruct n as [|[|n]]; simpl in *; rewrite ?EU in HP.
      * destruct HP as [H _]. discriminate.
      * destruct HP as [HQ HD]. destruct (t_pc x); auto; eauto.
      * destruct HP as [_ []]; auto.
    + destruct (t_pc x) eqn:EP; try discriminate. inv HS. destruct n as [|[|n]]; simpl in *; rewrite ?EU, ?EP in HP.
      * destruct HP as [H _]. discriminate.
      * auto.
      * split; auto; discriminate.
    + inv HS. destruct n as [|[|n]]; simpl in *; rewrite ?EU in HP.
      * destruct HP as [H _]. discriminate.
      * tauto.
      * split; [tauto|discriminate].
  - assert (XN : t_pc x <> TDead -> t_exc x = None).
    { intro H. destruct (t_exc x); auto. destruct H. apply DD. discriminate. }
    destruct (t_pc x) as [|s|] eqn:EP; try discriminate.
    + specialize (XN ltac:(discriminate)). destruct (t_queue x) as [|s q] eqn:EQ; [discriminate|]. inv HS.
      destruct n as [|[|n]]; simpl in *.
      * destruct HP as (HU & HQ & HD). rewrite EQ in HQ. assert (0 <= s) by (apply HQ; simpl; auto).
        destruct (Z.ltb_spec s 0); [lia|]. split; auto. split; [intros; apply HQ; simpl; auto|discriminate].
      * destruct (t_user x) eqn:EU; try (rewrite EP in HP); try discriminate; try (destruct HP; discriminate).
        -- rewrite EQ in HP. destruct HP as [HQ HD]. assert (0 <= s) by (apply HQ; simpl; auto). destruct (Z.ltb_spec s 0); [lia|].
           split; [intros; apply HQ; simpl; auto|discriminate].
        -- destruct HP as (q0 & HQ & HN'). rewrite EQ in HQ. destruct q0 as [|s0 q0]; simpl in HQ; inv HQ.
           ++ simpl. auto.
           ++ assert (0 <= s0) by (apply HN'; simpl; auto). destruct (Z.ltb_spec s0 0); [lia|].
              exists q0. split; auto. intros; apply HN'; simpl; auto.
      * destruct HP. congruence.
    + specialize (XN ltac:(discriminate)). destruct (del (t_calls x) s (t_dir x)) as [d' e] eqn:ED. inv HS.
      destruct n as [|[|n]]; simpl in *.
      * destruct HP as (HU & HQ & HD). repeat split; auto. destruct e; congruence.
      * destruct (t_user x) eqn:EU; try (rewrite EP in HP); try discriminate; try (destruct HP; discriminate).
        -- destruct HP as [HQ HD]. split; auto. destruct e; congruence.
        -- destruct e; auto. left. discriminate.
      * destruct HP. congruence.
Qed.

Lemma t_inv : forall d ls x, t_run del (t_init d) ls x -> (forall s, In s (requested ls) -> 0 <= s) ->
  TI d (requested ls) x /\ TP (closes ls) x.
Proof.
  intros d ls x R. remember (t_init d) as x0. induction R as [x|x ls y l z r R IH HS]; intro HN.
  - subst x. split.
    + exists []. simpl. repeat split; auto. congruence.
    + simpl. split; [auto|split; [intros s []|discriminate]].
  - subst x. rewrite requested_app in *. rewrite closes_app.
    specialize (IH eq_refl (fun s H => HN s (in_or_app _ _ s (or_introl H)))). destruct IH as [IT IP]. split.
    + eapply TI_step; eauto. intros; apply HN. apply in_or_app; auto.
    + eapply TP_step; eauto. intros; apply HN. apply in_or_app; auto.
Qed.

(** close returns: everything was done as by a sequential deleter. *)
Lemma close_sequential : forall d ls y l z r, t_run del (t_init d) ls y ->
  (forall s, In s (requested ls) -> 0 <= s) -> closes ls = 1%nat -> t_step D del l y = Some (z, Some r) ->
  delete_in_turn D del 0 (requested ls) d = (t_dir z, raised r).
Proof.
  intros d ls y l z r R HN HC HS. destruct (t_inv _ _ _ R HN) as [(pre & E & DT & NC & DD) HP]. rewrite HC in HP.
  destruct l; simpl in HS.
  - destruct (t_user y); inv HS.
  - destruct (t_user y); inv HS.
  - destruct (t_user y) eqn:EU; try discriminate; [destruct (t_pc y); inv HS|]. inv HS. simpl.
    simpl in HP. rewrite EU in HP. destruct HP as [EP HQ]. unfold cur in E. rewrite EP in E. simpl in E.
    rewrite E, delete_in_turn_app, DT. destruct (t_exc y) as [e|] eqn:EX; auto.
    destruct HQ as [HQ|HQ]; [congruence|]. rewrite HQ. simpl. auto.
  - destruct (t_pc y); try discriminate; [destruct (t_queue y); inv HS|]. destruct (del _ _ _). inv HS.
Qed.

(** At every moment a prefix of the requests has been carried out, in order. *)
Lemma prefix_done : forall d ls y, t_run del (t_init d) ls y -> (forall s, In s (requested ls) -> 0 <= s) ->
  exists pre suf, requested ls = pre ++ suf /\ delete_in_turn D del 0 pre d = (t_dir y, t_exc y).
Proof.
  intros d ls y R HN. destruct (t_inv _ _ _ R HN) as [(pre & E & DT & _) _]. eauto.
Qed.

(** While close waits, the thread can go on, and it ends after a bounded number of steps. *)
Definition left (x : tst D) : nat := (2 * List.length (t_queue x) + match t_pc x with TDelete _ => 1 | _ => 0 end)%nat.

Lemma close_not_stuck : forall d ls y, t_run del (t_init d) ls y -> (forall s, In s (requested ls) -> 0 <= s) ->
  closes ls = 1%nat -> t_user y = CJoin -> t_pc y <> TDead ->
  exists z, t_step D del TLThread y = Some (z, None) /\ (left z < left y)%nat.
Proof.
  intros d ls y R HN HC HU HP. destruct (t_inv _ _ _ R HN) as [_ TP']. rewrite HC in TP'. simpl in TP'. rewrite HU in TP'.
  simpl. destruct (t_pc y) eqn:EP; [| |congruence].
  - destruct TP' as (q & EQ & _). destruct (t_queue y) as [|s q'] eqn:E; [destruct q; discriminate|].
    eexists. split; [reflexivity|]. unfold left. simpl. rewrite E. simpl. destruct (s <? 0); lia.
  - destruct (del (t_calls y) s (t_dir y)) as [d' e]. eexists. split; [reflexivity|].
    unfold left. simpl. rewrite EP. destruct e; lia.
Qed.

Lemma close_returns : forall d ls y, t_run del (t_init d) ls y -> (forall s, In s (requested ls) -> 0 <= s) ->
  closes ls = 1%nat -> t_user y = CJoin ->
  exists n z r, (n <= left y)%nat /\ t_run del (t_init d) (ls ++ repeat TLThread n ++ [TLUser; TLUser]) z /\
    delete_in_turn D del 0 (requested ls) d = (t_dir z, raised r) /\ t_user z = CIdle.
Proof.
  intros d ls y. remember (left y) as m. revert ls y Heqm. induction m as [m IH] using lt_wf_ind.
  intros ls y Hm R HN HC HU.
  destruct (match t_pc y with TDead => true | _ => false end) eqn:ED.
  - assert (EP : t_pc y = TDead) by (destruct (t_pc y); congruence).
    exists 0%nat. pose (y1 := mkT (t_queue y) TDead (t_exc y) CRaise (t_dir y) (t_calls y)).
    assert (S1 : t_step D del TLUser y = Some (y1, None)) by (simpl; rewrite HU, EP; auto).
    assert (R1 : t_run del (t_init d) (ls ++ [TLUser]) y1) by (eapply TR_snoc; eauto).
    pose (z := mkT (t_queue y) TDead (t_exc y) CIdle (t_dir y) (t_calls y)).
    assert (S2 : t_step D del TLUser y1 = Some (z, Some (match t_exc y with Some e => Err e | None => Ok tt end))) by reflexivity.
    exists z. eexists. split; [lia|]. split; [|split].
    + simpl. replace (ls ++ [TLUser; TLUser]) with ((ls ++ [TLUser]) ++ [TLUser]) by (rewrite <- app_assoc; auto).
      eapply TR_snoc; eauto.
    + assert (E : requested (ls ++ [TLUser]) = requested ls) by (rewrite requested_app; simpl; apply app_nil_r).
      rewrite <- E. eapply close_sequential; eauto; rewrite ?E; auto. rewrite closes_app. simpl. unfold closes at 2. simpl. lia.
    + reflexivity.
  - destruct (close_not_stuck d ls y R HN HC HU) as (z & S & L); [destruct (t_pc y); congruence|].
    assert (E : requested (ls ++ [TLThread]) = requested ls) by (rewrite requested_app; simpl; apply app_nil_r).
    assert (UZ : t_user z = CJoin).
    { simpl in S. destruct (t_pc y); try discriminate; [destruct (t_queue y); inv S; auto|].
      destruct (del _ _ _). inv S. auto. }
    destruct (IH (left z) ltac:(lia) (ls ++ [TLThread]) z) as (n & w & r & Hn & Rw & Dw & Uw); auto.
    + eapply TR_snoc; eauto.
    + rewrite E. auto.
    + rewrite closes_app. unfold closes at 2. simpl. lia.
    + exists (Datatypes.S n), w, r. split; [lia|]. rewrite E in Dw. rewrite <- app_assoc in Rw. simpl in Rw. auto.
Qed.
End Threaded.

(** * Parallel removal *)

Definition node_files (n : dnode) : list (list string) := map (fun f => dn_path n ++ [f]) (dn_files n).

Definition worker_files (w : wstate) : list (list string) :=
  match w with
  | WStart n => node_files n
  | WUnlink p fs => map (fun f => p ++ [f]) fs
  | WLower => []
  end.

Definition owed (x : pst) : list (list string) :=
  p_unlinked x ++ flat_map worker_files (p_workers x) ++ flat_map node_files (p_pool x) ++
  flat_map node_files (p_queue x) ++ flat_map node_files (p_scan x).

Definition PI (all : list (list string)) (x : pst) : Prop :=
  Permutation (owed x) all /\ (p_scan_done x = true -> p_scan x = []) /\
  match p_sched x with
  | SGet | STest1 => True
  | STest2 | STest3 => p_scan_done x = true
  | SShutdown => p_scan_done x = true /\ p_queue x = []
  | SEnd => p_scan_done x = true /\ p_queue x = [] /\ p_pool x = [] /\ p_workers x = []
  end.

Lemma set_nth_split : forall {A} i (v w : A) l, nth_error l i = Some w ->
  exists l1 l2, l = l1 ++ w :: l2 /\ set_nth i v l = l1 ++ v :: l2 /\ firstn i l ++ skipn (S i) l = l1 ++ l2.
Proof.
  induction i as [|i IH]; intros v w l H; destruct l as [|x l]; simpl in *; try discriminate.
  - inv H. exists [], l. auto.
  - destruct (IH v w l H) as (l1 & l2 & E1 & E2 & E3). exists (x :: l1), l2. simpl. rewrite E2, <- E3. subst l. auto.
Qed.

Ltac perm := repeat rewrite flat_map_app; simpl; repeat rewrite <- app_assoc; simpl; rewrite ?app_nil_r.

Lemma PI_step : forall k all l x y, PI all x -> p_step k l x = Some y -> PI all y.
Proof.
  intros k all l x y (P & SD & SC) H. destruct l; simpl in H.
  - destruct (p_scan x) as [|n ns] eqn:E.
    + destruct (p_scan_done x) eqn:ED; [discriminate|]. inv H. unfold PI, owed in *; simpl. rewrite E in P. split; auto.
      split; auto. destruct (p_sched x); auto; try discriminate; destruct SC; discriminate.
    + inv H. unfold PI, owed in *; simpl in *.
      assert (ND : p_scan_done x = false) by (destruct (p_scan_done x); auto; specialize (SD eq_refl); discriminate).
      split; [|split].
      * rewrite E in P. simpl in P. revert P. perm. intro P'. exact P'.
      * congruence.
      * destruct (p_sched x); auto; try congruence; destruct SC; congruence.
  - assert (GO : forall s, PI all (mkP (p_scan x) (p_scan_done x) (p_queue x) s (p_pool x) (p_workers x) (p_active x) (p_unlinked x)) <->
       match s with
        | SGet | STest1 => True
        | STest2 | STest3 => p_scan_done x = true
        | SShutdown => p_scan_done x = true /\ p_queue x = []
        | SEnd => p_scan_done x = true /\ p_queue x = [] /\ p_pool x = [] /\ p_workers x = []
        end) by (intro s; unfold PI, owed in *; simpl; tauto).
    destruct (p_sched x) eqn:ES.
    + destruct (p_queue x) as [|n q] eqn:E.
      * inv H. apply GO. auto.
      * inv H. unfold PI, owed in *; simpl in *. split; auto. rewrite E in P. simpl in P. revert P. perm. intro P'. exact P'.
    + inv H. apply GO. destruct (p_scan_done x); auto.
    + inv H. apply GO. destruct (p_active x =? 0); auto.
    + inv H. apply GO. destruct (p_queue x); auto.
    + destruct (p_pool x) eqn:EP; [|discriminate]. destruct (p_workers x) eqn:EW; [|discriminate]. inv H. apply GO. tauto.
    + discriminate.
  - destruct (p_pool x) as [|n ns] eqn:E; [discriminate|]. destruct (Nat.ltb _ _); [|discriminate]. inv H.
    unfold PI, owed in *; simpl in *. rewrite E in P. simpl in P. split; [|split; auto].
    + revert P. perm. intro P'. exact P'.
    + destruct (p_sched x); auto. destruct SC as (_ & _ & X & _). congruence.
  - destruct (nth_error (p_workers x) i) as [w|] eqn:EN; [|discriminate].
    assert (SC' : forall ws : list wstate, match p_sched x with
        | SGet | STest1 => True
        | STest2 | STest3 => p_scan_done x = true
        | SShutdown => p_scan_done x = true /\ p_queue x = []
        | SEnd => p_scan_done x = true /\ p_queue x = [] /\ p_pool x = [] /\ ws = []
        end).
    { intro ws. destruct (p_sched x); auto. destruct SC as (? & ? & ? & X). rewrite X in EN. destruct i; discriminate. }
    destruct w as [n|p [|f fs]|].
    + destruct (set_nth_split i (WUnlink (dn_path n) (dn_files n)) _ _ EN) as (l1 & l2 & E1 & E2 & _).
      inv H. unfold PI, owed in *; simpl in *. split; [|split; [exact SD|apply SC']]. rewrite E2. rewrite E1 in P. revert P. perm. intro P'. exact P'.
    + destruct (set_nth_split i WLower _ _ EN) as (l1 & l2 & E1 & E2 & _).
      inv H. unfold PI, owed in *; simpl in *. split; [|split; [exact SD|apply SC']]. rewrite E2. rewrite E1 in P. revert P. perm. intro P'. exact P'.
    + destruct (set_nth_split i (WUnlink p fs) _ _ EN) as (l1 & l2 & E1 & E2 & _).
      inv H. unfold PI, owed in *; simpl in *. split; [|split; [exact SD|apply SC']]. rewrite E2. rewrite E1 in P. revert P. perm. intro P.
      rewrite <- app_assoc in P. eapply perm_trans; [|exact P]. apply Permutation_app_head. apply Permutation_middle.
    + destruct (set_nth_split i WLower _ _ EN) as (l1 & l2 & E1 & E2 & E3).
      inv H. unfold PI, owed in *; simpl in *. split; [|split; [exact SD|apply SC']].
      rewrite E3. rewrite E1 in P. revert P. perm. intro P'. exact P'.
Qed.

Lemma p_inv : forall k root e x, p_run k (p_init root e) x -> PI (flat_map node_files (dfs_scan root e)) x.
Proof.
  intros k root e x R. remember (p_init root e) as x0. induction R; subst.
  - unfold PI, owed, p_init; simpl. repeat split; auto. discriminate.
  - eapply PI_step; eauto.
Qed.

(** Strong induction on entries. *)
Lemma entry_ind' : forall P : entry -> Prop, P EFile -> P ELink ->
  (forall es, (forall n e, In (n, e) es -> P e) -> P (EDir es)) -> forall e, P e.
Proof.
  intros P HF HL HD. fix IH 1. intros [| |es]; [exact HF|exact HL|]. apply HD. induction es as [|[m e] es IHes]; intros n e0 H; [destruct H|].
  pose proof (IH e) as Pe. destruct H as [H|H]; [injection H as _ <-; exact Pe|exact (IHes n e0 H)].
Qed.

Fixpoint rel_files (e : entry) : list (list string) :=
  match e with
  | EDir es =>
      map (fun ne => [fst ne]) (filter (fun ne => negb (is_dir (snd ne))) es) ++
      flat_map (fun x => x) ((fix go es := match es with
         | [] => []
         | (n, e) :: es' => (if is_dir e then map (cons n) (rel_files e) else []) :: go es'
         end) es)
  | _ => []
  end.

Lemma scan_files : forall e root, flat_map node_files (dfs_scan root e) = map (app root) (rel_files e).
Proof.
  induction e as [| |es IH] using entry_ind'; intro root; simpl; auto.
  rewrite map_app. f_equal.
  - unfold node_files. simpl. rewrite !map_map. auto.
  - induction es as [|[n e] es IHes]; simpl; auto. rewrite flat_map_app, map_app, IHes by (intros; eapply IH; simpl; eauto).
    f_equal. destruct (is_dir e); auto. rewrite (IH n e) by (simpl; auto). rewrite map_map.
    apply map_ext. intro p. rewrite <- app_assoc. auto.
Qed.

Lemma rel_files_In : forall e p, is_dir e = true ->
  (In p (rel_files e) <-> exists e', at_path e p e' /\ is_dir e' = false).
Proof.
  induction e as [| |es IH] using entry_ind'; intros p HD; try discriminate. simpl. rewrite in_app_iff. split.
  - intros [H|H].
    + apply in_map_iff in H. destruct H as ([n e] & <- & H). apply filter_In in H. destruct H as [H1 H2]. simpl in *.
      exists e. split; [|destruct (is_dir e); auto; discriminate]. econstructor; eauto. constructor.
    + revert H IH. clear HD. intros H IH. induction es as [|[n e] es IHes]; simpl in H; [destruct H|].
      apply in_app_iff in H. destruct H as [H|H].
      * destruct (is_dir e) eqn:ED; [|destruct H]. apply in_map_iff in H. destruct H as (q & <- & H).
        apply (IH n e) in H; simpl; auto. destruct H as (e' & H1 & H2). exists e'. split; auto. econstructor; eauto. simpl; auto.
      * destruct IHes as (e' & H1 & H2); auto; [intros; eapply IH; simpl; eauto|].
        exists e'. split; auto. inv H1; [discriminate|]. econstructor; eauto. simpl; auto.
  - intros (e' & H1 & H2). inversion H1 as [e0 E0 E1 E2|es' n e p0 e'' HIn HAt E0 E1 E2]; subst; [discriminate|].
    destruct (is_dir e) eqn:ED.
    + right. assert (HI : In p0 (rel_files e)) by (apply (IH n e); auto; eauto). clear -HI HIn ED.
      induction es as [|[m e0] es IHes]; [destruct HIn|]. simpl. apply in_app_iff. destruct HIn as [H3|H3].
      * inv H3. rewrite ED. left. apply in_map. auto.
      * right. auto.
    + left. inversion HAt; subst; [|discriminate]. apply in_map_iff. exists (n, e'). split; auto. apply filter_In. simpl. rewrite H2. auto.
Qed.

Lemma parallel_complete : forall k root e x, is_dir e = true -> p_run k (p_init root e) x -> p_sched x = SEnd ->
  forall p, In p (p_unlinked x) <-> exists rel e', p = root ++ rel /\ at_path e rel e' /\ is_dir e' = false.
Proof.
  intros k root e x HD R HE p. destruct (p_inv _ _ _ _ R) as (P & SD & SC). rewrite HE in SC.
  destruct SC as (S1 & S2 & S3 & S4). unfold owed in P. rewrite S2, S3, S4, (SD S1) in P. simpl in P. rewrite app_nil_r in P.
  rewrite scan_files in P. split.
  - intro H. eapply Permutation_in in H; [|exact P]. apply in_map_iff in H. destruct H as (rel & <- & H).
    apply rel_files_In in H; auto. destruct H as (e' & H). eauto.
  - intros (rel & e' & -> & H). eapply Permutation_in; [symmetry; exact P|]. apply in_map. apply rel_files_In; eauto.
Qed.

Lemma parallel_inside : forall k root e x, is_dir e = true -> p_run k (p_init root e) x ->
  forall p, In p (p_unlinked x) -> exists rel e', p = root ++ rel /\ at_path e rel e' /\ is_dir e' = false.
Proof.
  intros k root e x HD R p H. destruct (p_inv _ _ _ _ R) as (P & _ & _). rewrite scan_files in P.
  assert (H' : In p (owed x)) by (unfold owed; apply in_or_app; auto). eapply Permutation_in in H'; [|exact P].
  apply in_map_iff in H'. destruct H' as (rel & <- & H'). apply rel_files_In in H'; auto. destruct H' as (e' & H'). eauto.
Qed.

Lemma parallel_not_stuck : forall k root e x, (1 <= k)%nat -> p_run k (p_init root e) x -> p_sched x <> SEnd ->
  exists l y, p_step k l x = Some y.
Proof.
  intros k root e x Hk R HE. destruct (p_sched x) eqn:ES; try congruence.
  - exists PSched. simpl. rewrite ES. destruct (p_queue x); eauto.
  - exists PSched. simpl. rewrite ES. eauto.
  - exists PSched. simpl. rewrite ES. eauto.
  - exists PSched. simpl. rewrite ES. eauto.
  - destruct (p_workers x) as [|w ws] eqn:EW.
    + destruct (p_pool x) as [|n ns] eqn:EP.
      * exists PSched. simpl. rewrite ES, EW, EP. eauto.
      * exists PStart. simpl. rewrite EP, EW. simpl. destruct k; [lia|]. simpl. eauto.
    + exists (PWork 0). simpl. rewrite EW. simpl. destruct w as [n|p [|f fs]|]; eauto.
Qed.

Definition path_dec : forall a b : list string, {a = b} + {a <> b} := list_eq_dec string_dec.
Arguments path_dec : simpl never.

Lemma count_map_inj : forall (f : list string -> list string) l p, (forall a b, f a = f b -> a = b) ->
  count_occ path_dec (map f l) (f p) = count_occ path_dec l p.
Proof.
  intros f l p Hf. induction l as [|a l IH]; simpl; auto.
  destruct (path_dec a p) as [E|E], (path_dec (f a) (f p)) as [E'|E']; subst; auto; try congruence. destruct E; auto.
Qed.

Lemma count_map_none : forall (f : list string -> list string) l p, (forall a, f a <> p) ->
  count_occ path_dec (map f l) p = 0%nat.
Proof.
  intros f l p Hf. induction l as [|a l IH]; simpl; auto. destruct (path_dec (f a) p) as [E|E]; auto. destruct (Hf a E).
Qed.

Lemma count_rel : forall e p, is_dir e = true -> count_occ path_dec (rel_files e) p = occurrences e p.
Proof.
  induction e as [| |es IH] using entry_ind'; intros p HD; try discriminate. simpl. rewrite count_occ_app. clear HD.
  destruct p as [|n p].
  - induction es as [|[m e] es IHes]; simpl; auto.
    assert (IHes' := IHes (fun n e H => IH n e (or_intror H))). clear IHes.
    rewrite count_occ_app. destruct (is_dir e); simpl.
    + rewrite count_map_none by discriminate. auto.
    + destruct (path_dec [m] []); [discriminate|]. auto.
  - induction es as [|[m e] es IHes]; simpl; auto.
    specialize (IHes (fun n e H => IH n e (or_intror H))). rewrite <- IHes. rewrite count_occ_app.
    destruct (String.eqb_spec n m) as [->|NE].
    + destruct (is_dir e) eqn:ED; simpl.
      * rewrite (count_map_inj (cons m)) by (intros a b E; congruence). rewrite (IH m e) by (simpl; auto). lia.
      * destruct p as [|q p].
        -- destruct (path_dec [m] [m]); [|congruence]. destruct e; try discriminate; simpl; lia.
        -- destruct (path_dec [m] (m :: q :: p)); [discriminate|]. destruct e; try discriminate; simpl; lia.
    + destruct (is_dir e) eqn:ED; simpl.
      * rewrite count_map_none by congruence. lia.
      * destruct (path_dec [m] (n :: p)); [congruence|]. lia.
Qed.

Lemma parallel_once : forall k root e x rel, is_dir e = true -> p_run k (p_init root e) x -> p_sched x = SEnd ->
  count_occ path_dec (p_unlinked x) (root ++ rel) = occurrences e rel.
Proof.
  intros k root e x rel HD R HE. destruct (p_inv _ _ _ _ R) as (P & SD & SC). rewrite HE in SC.
  destruct SC as (S1 & S2 & S3 & S4). unfold owed in P. rewrite S2, S3, S4, (SD S1) in P. simpl in P. rewrite app_nil_r in P.
  rewrite scan_files in P. rewrite (proj1 (Permutation_count_occ path_dec _ _) P).
  rewrite (count_map_inj (app root)) by (intros a b; apply app_inv_head). apply count_rel. auto.
Qed.

(** Workers at one time, and the counter of the active ones. *)
Lemma set_nth_length : forall {A} i (x : A) l, List.length (set_nth i x l) = List.length l.
Proof. induction i; destruct l; simpl; auto. Qed.

Lemma remove_nth_length : forall {A} i (l : list A) x, nth_error l i = Some x ->
  List.length l = S (List.length (firstn i l ++ skipn (S i) l)).
Proof. induction i; destruct l; simpl; intros; try discriminate; auto. f_equal. eapply IHi; eauto. Qed.

Lemma parallel_width : forall k root e x, p_run k (p_init root e) x -> (List.length (p_workers x) <= k)%nat.
Proof.
  intros k root e x H. remember (p_init root e) as i. induction H as [|x y l z H IH St]; subst.
  - simpl. lia.
  - specialize (IH eq_refl). destruct l; simpl in St.
    + destruct (p_scan y); [destruct (p_scan_done y)|]; inversion St; subst; auto.
    + destruct (p_sched y); try (inversion St; subst; auto; fail).
      * destruct (p_queue y); inversion St; subst; auto.
      * destruct (p_pool y), (p_workers y) eqn:W; inversion St; subst; simpl; lia.
    + destruct (p_pool y); [discriminate|]. destruct (Nat.ltb_spec (List.length (p_workers y)) k); inversion St; subst; simpl.
      rewrite app_length; simpl; lia.
    + destruct (nth_error (p_workers y) i) as [[n|p [|f fs]|]|] eqn:N; inversion St; subst; simpl; try rewrite set_nth_length; auto.
      apply remove_nth_length in N. simpl in N. lia.
Qed.

Definition busy (w : wstate) : Z := match w with WStart _ => 0 | _ => 1 end.
Definition busy_all (l : list wstate) : Z := fold_right (fun w a => busy w + a) 0 l.

Lemma busy_app : forall a b, busy_all (a ++ b) = busy_all a + busy_all b.
Proof. unfold busy_all. induction a; simpl; intros; auto. rewrite IHa. lia. Qed.

Lemma busy_set : forall i w l w0, nth_error l i = Some w0 -> busy_all (set_nth i w l) = busy_all l - busy w0 + busy w.
Proof.
  unfold busy_all. induction i; destruct l; simpl; intros wz H; try discriminate.
  - injection H as ->. lia.
  - rewrite (IHi _ _ _ H). lia.
Qed.

Lemma busy_remove : forall i l w0, nth_error l i = Some w0 ->
  busy_all (firstn i l ++ skipn (S i) l) = busy_all l - busy w0.
Proof.
  induction i; destruct l; simpl; intros wz H; try discriminate.
  - injection H as ->. lia.
  - specialize (IHi l wz H). simpl in IHi. rewrite IHi. lia.
Qed.

Lemma parallel_active : forall k root e x, p_run k (p_init root e) x -> p_active x = busy_all (p_workers x).
Proof.
  intros k root e x H. remember (p_init root e) as i. induction H as [|x y l z H IH St]; subst.
  - reflexivity.
  - specialize (IH eq_refl). destruct l; cbn [p_step] in St.
    + destruct (p_scan y); [destruct (p_scan_done y)|]; inversion St; subst; auto.
    + destruct (p_sched y); try (inversion St; subst; auto; fail).
      * destruct (p_queue y); inversion St; subst; auto.
      * destruct (p_pool y), (p_workers y) eqn:W; inversion St; subst; auto.
    + destruct (p_pool y); [discriminate|]. destruct (Nat.ltb (List.length (p_workers y)) k); inversion St; subst; simpl.
      rewrite busy_app, IH. simpl. lia.
    + destruct (nth_error (p_workers y) i) as [[n|p [|f fs]|]|] eqn:N; inversion St; subst; cbn [p_active p_workers];
        try rewrite (busy_set _ _ _ _ N); try (change (match p_workers y with [] => [] | _ :: l => skipn i l end) with (skipn (S i) (p_workers y)); rewrite (busy_remove _ _ _ N)); cbn [busy]; lia.
Qed.

Lemma busy_filter : forall l, busy_all l = Z.of_nat (List.length (filter (fun w => match w with WStart _ => false | _ => true end) l)).
Proof. unfold busy_all. induction l as [|[] l IH]; auto; cbn [fold_right filter List.length busy]; rewrite IH; lia. Qed.

Lemma parallel_counter : forall k root e x, p_run k (p_init root e) x ->
  p_active x = Z.of_nat (List.length (filter (fun w => match w with WStart _ => false | _ => true end) (p_workers x))).
Proof. intros. rewrite <- busy_filter. eapply parallel_active; eauto. Qed.
