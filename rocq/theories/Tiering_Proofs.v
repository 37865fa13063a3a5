(** Proofs about the tiering service. *)
From Coq Require Import List Bool Arith ZArith Lia Permutation.
From Verif Require Import Base Backend_Model Backend_Proofs Mesh_Proofs Peer_Proofs Tiering_Model Tiering_Spec.
Import ListNotations.

(** ** Lists *)

Lemma nth_upd : forall {A} i (f : A -> A) l k,
  nth_error (upd i f l) k = if i =? k then option_map f (nth_error l k) else nth_error l k.
Proof.
  intros. unfold upd. destruct (nth_error l i) as [x|] eqn:E.
  - rewrite nth_set. destruct (Nat.eqb_spec i k) as [->|N]; cbn [andb]; auto.
    assert (k < List.length l) by (apply nth_error_Some; congruence).
    apply Nat.ltb_lt in H. rewrite H, E. reflexivity.
  - destruct (Nat.eqb_spec i k) as [->|N]; auto. rewrite E. reflexivity.
Qed.

Lemma upd_length : forall {A} i (f : A -> A) l, List.length (upd i f l) = List.length l.
Proof.
  intros. unfold upd. destruct (nth_error l i); auto.
  revert i. induction l as [|x l IH]; intros [|i]; cbn; auto.
Qed.

Lemma remove_perm : forall {A} k (l : list A) p, nth_error l k = Some p -> Permutation l (p :: remove_nth k l).
Proof.
  unfold remove_nth. intros A k. induction k as [|k IH]; intros [|x l] p E; try discriminate; cbn [nth_error] in E.
  - injection E as ->. cbn. auto.
  - apply IH in E. change (firstn (S k) (x :: l) ++ skipn (S (S k)) (x :: l)) with (x :: (firstn k l ++ skipn (S k) l)).
    etransitivity; [apply perm_skip; exact E|]. apply perm_swap.
Qed.

Lemma remove_in : forall {A} k (l : list A) p, In p (remove_nth k l) -> In p l.
Proof.
  unfold remove_nth. intros A k l p I. apply in_app_or in I.
  rewrite <- (firstn_skipn k l). apply in_or_app. destruct I as [I|I]; auto. right.
  revert l I. induction k as [|k IH]; intros [|x l] I; auto; cbn in *; auto.
Qed.

Lemma flat_perm : forall {A B} (f : A -> list B) l l', Permutation l l' -> Permutation (flat_map f l) (flat_map f l').
Proof.
  intros A B f l l' P. induction P; cbn; auto.
  - apply Permutation_app_head. auto.
  - rewrite !app_assoc. apply Permutation_app_tail. apply Permutation_app_comm.
  - etransitivity; eauto.
Qed.

Lemma nodup_remove : forall {A B} (f : A -> list B) k l, NoDup (flat_map f l) -> NoDup (flat_map f (remove_nth k l)).
Proof.
  intros A B f k l N. destruct (nth_error l k) as [p|] eqn:E.
  - pose proof (flat_perm f _ _ (remove_perm k l p E)) as P. cbn in P.
    eapply Permutation_NoDup in N; [|exact P]. clear P.
    induction (f p) as [|x xs IH]; auto. inversion N; auto.
  - unfold remove_nth. apply nth_error_None in E. rewrite firstn_all2, skipn_all2, app_nil_r by lia. auto.
Qed.

Lemma enumerate_in : forall {A} (l : list A) i x, In (i, x) (enumerate l) <-> nth_error l i = Some x.
Proof.
  intros. unfold enumerate. split.
  - intros I. apply In_nth_error in I. destruct I as (k & E). rewrite enumerate_nth in E.
    destruct (nth_error l k) eqn:F; try discriminate. cbn in E. injection E as <- <-. auto.
  - intros E. apply (nth_error_In _ i). rewrite enumerate_nth, E. reflexivity.
Qed.

(** ** Reflection *)

Lemma status_eqb_eq : forall a b, status_eqb a b = true <-> a = b.
Proof. intros [] []; cbn; split; intros; auto; discriminate. Qed.

Lemma leased_spec : forall t j, leased t j = true <-> holds_lease t j.
Proof.
  intros. unfold leased, holds_lease. rewrite andb_true_iff, status_eqb_eq. destruct (j_exp j) as [e|].
  - rewrite Z.leb_le. split; [intros (H & L); split; eauto|intros (H & e' & E & L)]. injection E as ->. auto.
  - split; [intros (H & D); discriminate|intros (H & e' & E & L); discriminate].
Qed.

Lemma stale_spec : forall t j, stale t j = true <-> j_status j = Processing /\ exists e, j_exp j = Some e /\ (e < t)%Z.
Proof.
  intros. unfold stale. rewrite andb_true_iff, status_eqb_eq. destruct (j_exp j) as [e|].
  - rewrite Z.ltb_lt. split; [intros (H & L); split; eauto|intros (H & e' & E & L)]. injection E as ->. auto.
  - split; [intros (H & D); discriminate|intros (H & e' & E & L); discriminate].
Qed.

Lemma owned_spec : forall d w i, owned d w i = true <->
  exists j, nth_error (jobs d) i = Some j /\ j_status j = Processing /\ j_worker j = Some w.
Proof.
  intros. unfold owned. destruct (nth_error (jobs d) i) as [j|].
  - rewrite andb_true_iff, status_eqb_eq. destruct (j_worker j) as [w'|] eqn:W.
    + rewrite Nat.eqb_eq. split; [intros (H & ->); eauto|intros (j' & E & H & W')]. injection E as <-. rewrite W in W'. injection W' as ->. auto.
    + split; [intros (H & D); discriminate|intros (j' & E & H & W')]. injection E as <-. congruence.
  - split; [discriminate|intros (j & E & _); discriminate].
Qed.

Lemma backend_of_spec : forall c b j,
  (match backend_of (cdb c) j with Some b' => b' =? b | None => false end) = true <-> targets c b j.
Proof.
  intros. unfold backend_of, targets, tier_at. destruct (j_target j) as [t|].
  - destruct (nth_error (tiers (cdb c)) t) as [x|] eqn:E; cbn [option_map].
    + rewrite Nat.eqb_eq. split; [intros; exists t, x; auto|intros (t' & x' & T & X & B)]. injection T as <-. congruence.
    + split; [discriminate|intros (t' & x' & T & X & B)]. injection T as <-. congruence.
  - split; [discriminate|intros (t' & x' & T & X & B); discriminate].
Qed.

Lemma asked_spec : forall c b j, on_backend (cdb c) b j = true <-> asked c b j.
Proof.
  intros. unfold on_backend, asked. destruct b as [b|]; [apply backend_of_spec|].
  destruct (j_target j); split; intros; auto; discriminate.
Qed.

Lemma busy_spec : forall c t a, asset_busy (cdb c) t a = true <-> exists i j, job_at c i j /\ holds_lease t j /\ j_asset j = a.
Proof.
  intros. unfold asset_busy. rewrite existsb_exists. split.
  - intros (j & I & H). apply In_nth_error in I. destruct I as (i & E). apply andb_true_iff in H. destruct H as (L & A).
    apply leased_spec in L. apply Nat.eqb_eq in A. exists i, j. auto.
  - intros (i & j & E & L & A). exists j. split; [eapply nth_error_In; exact E|]. apply andb_true_iff. split; [apply leased_spec; auto|apply Nat.eqb_eq; auto].
Qed.

Lemma eligible_spec : forall c b t j, eligible (cdb c) b t j = true <->
  may_take t j /\ (forall i' j', job_at c i' j' -> holds_lease t j' -> j_asset j' <> j_asset j) /\ asked c b j.
Proof.
  intros. unfold eligible. rewrite !andb_true_iff, orb_true_iff, status_eqb_eq, stale_spec, asked_spec, negb_true_iff. unfold may_take. split.
  - intros ((M & B) & A). split; auto. split; auto. intros i' j' J L E. assert (X : asset_busy (cdb c) t (j_asset j) = true) by (apply busy_spec; eauto). congruence.
  - intros (M & B & A). split; auto. split; auto. destruct (asset_busy (cdb c) t (j_asset j)) eqn:X; auto.
    apply busy_spec in X. destruct X as (i' & j' & J & L & E). exfalso. eapply B; eauto.
Qed.

Lemma locked_spec : forall c i, job_locked c i = true <-> row_locked c i.
Proof.
  intros. unfold job_locked, row_locked. rewrite existsb_exists. split.
  - intros (p & I & H). destruct p; try discriminate. apply Nat.eqb_eq in H. subst. eauto 10.
  - intros (w & b & now & src & req & I). exists (PClaim w b i now src req). split; auto. apply Nat.eqb_refl.
Qed.

Lemma oldest_spec : forall l i j, oldest l = Some (i, j) ->
  In (i, j) l /\ forall i' j', In (i', j') l -> (j_created j <= j_created j')%Z.
Proof.
  induction l as [|[i0 j0] l IH]; intros i j E; [discriminate|]. cbn [oldest] in E.
  destruct (oldest l) as [[i1 j1]|] eqn:O.
  - specialize (IH _ _ eq_refl). destruct IH as (I & M). destruct (Z.leb_spec (j_created j0) (j_created j1)) as [L|L]; injection E as <- <-.
    + split; [left; auto|]. intros i' j' [X|X]; [injection X as <- <-; lia|]. specialize (M _ _ X). lia.
    + split; [right; auto|]. intros i' j' [X|X]; [injection X as <- <-; lia|]. eauto.
  - injection E as <- <-. split; [left; auto|]. intros i' j' [X|X]; [injection X as <- <-; lia|].
    destruct l as [|[a b] l]; [contradiction|]. exfalso. cbn [oldest] in O. destruct (oldest l) as [[? ?]|]; [destruct (Z.leb _ _)|]; discriminate.
Qed.

Lemma select_spec : forall c b t i j, select_job (cdb c) b t (job_locked c) = Some (i, j) ->
  job_at c i j /\ may_take t j /\ (forall i' j', job_at c i' j' -> holds_lease t j' -> j_asset j' <> j_asset j) /\ asked c b j /\ ~ row_locked c i /\
  (forall i' j', job_at c i' j' -> eligible (cdb c) b t j' = true -> ~ row_locked c i' -> (j_created j <= j_created j')%Z).
Proof.
  intros c b t i j E. unfold select_job in E. apply oldest_spec in E. destruct E as (I & M). apply filter_In in I. destruct I as (I & F).
  apply enumerate_in in I. apply andb_true_iff in F. cbn [fst snd] in F. destruct F as (F & L). apply eligible_spec in F. destruct F as (A & B & C).
  apply negb_true_iff in L. repeat apply conj; auto.
  - intros R. apply locked_spec in R. congruence.
  - intros i' j' J EL R. apply (M i'). apply filter_In. split; [apply enumerate_in; exact J|]. cbn [fst snd]. rewrite EL. cbn [andb].
    destruct (job_locked c i') eqn:X; auto. apply locked_spec in X. contradiction.
Qed.

(** ** What a step does *)

Definition claim_row (g : config) (w : nat) (now : Z) (j : job) : job :=
  mkJob (j_asset j) (j_type j) Processing (j_target j) (j_request j) (Some (now + lease g)%Z) (Some w) (j_created j) (j_done j).
Definition extend_row (g : config) (now : Z) (j : job) : job :=
  mkJob (j_asset j) (j_type j) (j_status j) (j_target j) (j_request j) (Some (now + lease g)%Z) (j_worker j) (j_created j) (j_done j).
Definition save_row (j : job) : job :=
  mkJob (j_asset j) (j_type j) (j_status j) (j_target j) true (j_exp j) (j_worker j) (j_created j) (j_done j).

Lemma take_some : forall w i q q', take w i q = Some q' -> In (w, i) q /\ incl q' q.
Proof.
  induction q as [|[w0 i0] q IH]; intros q' E; [discriminate|]. cbn [take] in E. destruct ((w0 =? w) && (i0 =? i)) eqn:B.
  - injection E as <-. apply andb_true_iff in B. destruct B as (B1 & B2). apply Nat.eqb_eq in B1, B2. subst. split; [left; auto|intros x; right; auto].
  - destruct (take w i q) as [q1|] eqn:T; [|discriminate]. injection E as <-. destruct (IH _ eq_refl) as (I & S). split; [right; auto|]. intros x [<-|X]; [left; auto|right; auto].
Qed.

Inductive change (g : config) (c : conf) (l : label) : db -> Prop :=
| CSame : change g c l (cdb c)
| CReserve path b d' :
    d' = mkDb (backends (cdb c)) (assets (cdb c) ++ [mkAsset path ActiveWrite None None (Some (expires_at (clk c) (keep_alive g)))])
              (tiers (cdb c) ++ [mkTier (List.length (assets (cdb c))) b Pending None None]) (jobs (cdb c)) ->
    commit d' = Ok d' -> change g c l d'
| CAlive a : change g c l (reserve_keep_alive g (cdb c) a (clk c))
| CFinal k ok a ts d' : l = Advance k ok -> nth_error (pend c) k = Some (PFinalize a ts) -> finalize_write (cdb c) a ts (clk c) = Ok d' -> change g c l d'
| CCopy k ok a b exp d' : l = Advance k ok ->
    (exists ts, nth_error (pend c) k = Some (PTrigger a ts)) \/ nth_error (pend c) k = Some (PPrefetch a b) ->
    add_copy (cdb c) a b exp (clk c) = Ok d' -> change g c l d'
| CTierAlive i n : l = PrefetchKeepAlive i ->
    change g c l (mkDb (backends (cdb c)) (assets (cdb c)) (upd i (fun t => mkTier (t_asset t) (t_backend t) (t_state t) (t_ready t) (Some n)) (tiers (cdb c))) (jobs (cdb c)))
| CDelete a d' : queue_delete (cdb c) a (clk c) = Ok d' -> change g c l d'
| CClaim k ok w b i now src req d' : l = Advance k ok -> nth_error (pend c) k = Some (PClaim w b i now src req) -> claim g (cdb c) w i now = Ok d' -> change g c l d'
| CExtend w i now r : l = Poll w i now r -> owned (cdb c) w i = true -> job_locked c i = false -> (now <= clk c)%Z -> change g c l (extend_lease g (cdb c) i now)
| CSave k ok w i src req : l = Advance k ok -> nth_error (pend c) k = Some (PProcess w i src req) -> owned (cdb c) w i = true -> job_locked c i = false ->
    change g c l (mkDb (backends (cdb c)) (assets (cdb c)) (tiers (cdb c)) (upd i save_row (jobs (cdb c))))
| CFail w i now : acts c l w i -> owned (cdb c) w i = true -> job_locked c i = false ->
    (forall w' i' t r, l = Poll w' i' t r -> exists j, nth_error (jobs (cdb c)) i = Some j /\ j_type j = Copy) -> change g c l (fail_job (cdb c) i now)
| CComplete w i now j d' : acts c l w i -> owned (cdb c) w i = true -> job_locked c i = false ->
    nth_error (jobs (cdb c)) i = Some j -> j_type j = Copy -> commit (complete_job (cdb c) i now) = Ok d' -> change g c l d'
| CBegin k ok w i src req j d' : l = Advance k ok -> nth_error (pend c) k = Some (PProcess w i src req) -> nth_error (jobs (cdb c)) i = Some j -> j_type j <> Copy ->
    d' = match j_target j with Some t => delete_tier DeleteInProcess (cdb c) t | None => delete_asset DeleteInProcess (cdb c) (j_asset j) (clk c) end -> change g c l d'
| CRemoved w i j d1 : acts c l w i -> owned (cdb c) w i = true -> job_locked c i = false -> nth_error (jobs (cdb c)) i = Some j ->
    d1 = match j_type j with DeleteAll => delete_asset TDeleted (cdb c) (j_asset j) (clk c) | _ => fold_left (delete_tier TDeleted) (paths_to_delete (cdb c) j) (cdb c) end ->
    (exists ok, l = Delete w i ok) -> In (w, i) (queue c) -> change g c l (complete_job d1 i (clk c)).

Lemma commit_ok : forall d d', commit d = Ok d' -> d' = d /\ commit d = Ok d.
Proof. intros d d' E. unfold commit in *. destruct (_ && _); [injection E as <-; auto|discriminate]. Qed.

Lemma fail_by_id_change : forall g c l w i now, acts c l w i -> job_locked c i = false ->
  (forall w' i' t r, l = Poll w' i' t r -> exists j, nth_error (jobs (cdb c)) i = Some j /\ j_type j = Copy) -> change g c l (fail_by_id (cdb c) w i now).
Proof. intros. unfold fail_by_id. destruct (owned (cdb c) w i) eqn:O; [eapply CFail; eauto|apply CSame]. Qed.

Lemma step_change : forall g c l c', step g c l = Some c' -> change g c l (cdb c') /\ (clk c <= clk c')%Z.
Proof.
  intros g c l c' E. destruct l; cbn [step] in E.
  - injection E as <-. cbn. split; [apply CSame|lia].
  - injection E as <-. cbn [cdb clk]. split; [|lia]. unfold create_or_fetch.
    match goal with |- context [commit ?d] => destruct (commit d) eqn:C end; cbn [fst]; [|apply CSame].
    apply commit_ok in C. destruct C as (-> & C). eapply CReserve; eauto.
  - injection E as <-. cbn [cdb clk]. split; [apply CAlive|lia].
  - destruct (finalize_read (cdb c) a); injection E as <-; cbn; split; try lia; apply CSame.
  - destruct (prefetch_read (cdb c) a b) as [[]|]; injection E as <-; cbn; split; try lia; apply CSame.
  - injection E as <-. cbn [cdb clk]. split; [|lia]. unfold prefetch_keep_alive.
    destruct (nth_error (tiers (cdb c)) t) as [x|]; [|apply CSame].
    destruct (t_state x); cbn [fst]; try apply CSame;
      (destruct (is_delete_pending (cdb c) (t_asset x)); [apply CSame|]; destruct (is_tier_delete_pending (cdb c) (t_asset x) t); [apply CSame|];
       destruct (t_exp x); [|apply CSame]; destruct (Z.ltb _ _); [apply CTierAlive; auto|apply CSame]).
  - destruct (queue_delete (cdb c) a (clk c)) eqn:Q; injection E as <-; cbn [cdb clk]; split; try lia; [eapply CDelete; eauto|apply CSame].
  - destruct (Z.ltb (clk c) now); [discriminate|]. destruct (negb _); [injection E as <-; cbn; split; [apply CSame|lia]|].
    destruct b as [b|]; [destruct (backend_locked c b); [discriminate|]; destruct (_ <? _)|]; injection E as <-; cbn; split; try lia; apply CSame.
  - destruct (nth_error (pend c) k) as [p|] eqn:P; [|discriminate]. destruct p; cbn [advance] in E.
    + destruct (finalize_write (cdb c) a ts (clk c)) eqn:F; injection E as <-; cbn [cdb clk]; split; try lia; [eapply CFinal; eauto|apply CSame].
    + unfold trigger_copy in E. destruct (level0_of (cdb c) ts) as [b0|]; [|injection E as <-; cbn; split; [apply CSame|lia]].
      destruct (find_matching_backend _ b0) as [b1|].
      * destruct (find _ _) as [i|]; [|injection E as <-; cbn; split; [apply CSame|lia]].
        destruct (add_copy (cdb c) a i None (clk c)) eqn:AC; injection E as <-; cbn [cdb clk]; split; try lia; [eapply CCopy; eauto|apply CSame].
      * destruct (find_backends_by_level _ _); injection E as <-; cbn; split; try lia; apply CSame.
    + unfold prefetch_write in E. destruct (add_copy _ _ _ _ _) eqn:AC; injection E as <-; cbn [cdb clk]; split; try lia; [eapply CCopy; eauto|apply CSame].
    + destruct (select_job _ _ _ _) as [[i j]|]; injection E as <-; cbn; split; try lia; apply CSame.
    + destruct (claim g (cdb c) w i now) eqn:CL; injection E as <-; cbn [cdb clk]; split; try lia; [eapply CClaim; eauto|apply CSame].
    + destruct (locks_job (cdb c) i req && job_locked c i) eqn:LK; [discriminate|].
      destruct (process (cdb c) w i src req ok (clk c)) as [d' q] eqn:PR. injection E as <-. cbn [cdb clk]. split; [|lia].
      unfold process in PR. destruct (nth_error (jobs (cdb c)) i) as [j|] eqn:J; [|injection PR as <- <-; apply CSame].
      destruct req; [injection PR as <- <-; apply CSame|]. unfold locks_job in LK. rewrite J in LK. cbn [negb andb] in LK.
      assert (AC : acts c (Advance k ok) w i) by (cbn; eauto).
      destruct (j_type j) eqn:T; cbn [request_eqb andb] in LK.
      * assert (FB : change g c (Advance k ok) (fail_by_id (cdb c) w i (clk c))) by (apply fail_by_id_change; auto; discriminate).
        destruct (j_target j); [destruct src|]; injection PR as <- <-; auto. unfold save_triggered.
        destruct (owned (cdb c) w i) eqn:O; cbn [negb]; [|apply CSame]. destruct ok; [eapply CSave; eauto|eapply CFail; eauto; discriminate].
      * destruct ok; cbn [negb] in PR; [|injection PR as <- <-; apply CSame].
        eapply CBegin; eauto; [congruence|]. destruct (j_target j); injection PR as <- <-; auto.
      * destruct ok; cbn [negb] in PR; [|injection PR as <- <-; apply CSame].
        eapply CBegin; eauto; [congruence|]. destruct (j_target j); injection PR as <- <-; auto.
  - injection E as <-. cbn. split; [apply CSame|lia].
  - injection E as <-. cbn. split; [apply CSame|lia].
  - destruct (Z.ltb_spec (clk c) now) as [L|L]; [discriminate|]. destruct (job_locked c i) eqn:LK; [discriminate|]. cbn [orb] in E. injection E as <-.
    cbn [cdb clk]. split; [|lia]. unfold poll. destruct (nth_error (jobs (cdb c)) i) as [j|] eqn:J; [|apply CSame].
    destruct (owned (cdb c) w i) eqn:O; cbn [negb]; [|apply CSame].
    assert (AC : acts c (Poll w i now r) w i) by (cbn; auto).
    destruct (j_type j) eqn:T; try (eapply CExtend; eauto; fail).
    destruct (j_request j); cbn [negb]; [|apply CSame]. destruct r; try apply CSame; try (eapply CFail; eauto; fail); try (eapply CExtend; eauto; fail).
    destruct (commit (complete_job (cdb c) i now)) eqn:C; [|apply CSame]. eapply CComplete; eauto.
  - destruct (job_locked c i) eqn:LK; [discriminate|]. destruct (take w i (queue c)) eqn:TK; [|discriminate]. apply take_some in TK. injection E as <-. cbn [cdb clk]. split; [|lia].
    assert (AC : acts c (Delete w i ok) w i) by (cbn; auto).
    unfold execute_delete. destruct (nth_error (jobs (cdb c)) i) as [j|] eqn:J; [|apply CSame].
    destruct (paths_to_delete (cdb c) j) as [|p ps] eqn:PD; [apply fail_by_id_change; auto; discriminate|].
    destruct ok; cbn [negb]; [|apply fail_by_id_change; auto; discriminate]. destruct (owned (cdb c) w i) eqn:O; cbn [negb]; [|apply CSame].
    eapply CRemoved; [exact AC|exact O|exact LK|exact J|rewrite PD; reflexivity|exists true; reflexivity|exact (proj1 TK)].
Qed.

(** What is under way after a step *)
Inductive arises (g : config) (c : conf) (l : label) (c' : conf) : pending -> Prop :=
| AFinalize a ts : l = Finalize a -> finalize_read (cdb c) a = Ok ts -> cdb c' = cdb c -> arises g c l c' (PFinalize a ts)
| ATrigger k ok a ts : l = Advance k ok -> nth_error (pend c) k = Some (PFinalize a ts) -> finalize_write (cdb c) a ts (clk c) = Ok (cdb c') -> arises g c l c' (PTrigger a ts)
| APrefetch a b : l = Prefetch a b -> prefetch_read (cdb c) a b = Ok true -> cdb c' = cdb c -> arises g c l c' (PPrefetch a b)
| ALock w b now : l = Acquire w b now -> (now <= clk c)%Z -> cdb c' = cdb c ->
    (forall b', b = Some b' -> backend_locked c b' = false /\ active_count (cdb c) b' now < max_active g) -> arises g c l c' (PLock w b now)
| AClaim k ok w b now i j : l = Advance k ok -> nth_error (pend c) k = Some (PLock w b now) -> cdb c' = cdb c ->
    select_job (cdb c) b now (job_locked c) = Some (i, j) -> arises g c l c' (PClaim w b i now (find_source (cdb c) j) (j_request j))
| AProcess k ok w b i now src req : l = Advance k ok -> nth_error (pend c) k = Some (PClaim w b i now src req) ->
    claim g (cdb c) w i now = Ok (cdb c') -> arises g c l c' (PProcess w i src req).

Definition rest_of (c : conf) (l : label) : list pending :=
  match l with Advance k _ | Drop k => remove_nth k (pend c) | _ => pend c end.

Lemma step_pend : forall g c l c', step g c l = Some c' ->
  pend c' = rest_of c l \/ exists p, pend c' = rest_of c l ++ [p] /\ arises g c l c' p.
Proof.
  intros g c l c' E. destruct l; cbn [step rest_of] in *; try (injection E as <-; left; reflexivity).
  - destruct (finalize_read (cdb c) a) eqn:F; injection E as <-; [right|left; auto]. eexists. split; [reflexivity|]. apply AFinalize; auto.
  - destruct (prefetch_read (cdb c) a b) as [[]|] eqn:F; injection E as <-; [right|left; auto|left; auto]. eexists. split; [reflexivity|]. apply APrefetch; auto.
  - destruct (queue_delete (cdb c) a (clk c)); injection E as <-; left; auto.
  - destruct (Z.ltb_spec (clk c) now) as [L|L]; [discriminate|]. destruct (negb _); [injection E as <-; left; auto|].
    destruct b as [b|].
    + destruct (backend_locked c b) eqn:BL; [discriminate|]. destruct (_ <? _) eqn:AC; injection E as <-; [right|left; auto].
      eexists. split; [reflexivity|]. apply ALock; auto. intros b' X. injection X as <-. split; auto. apply Nat.ltb_lt; auto.
    + injection E as <-. right. eexists. split; [reflexivity|]. apply ALock; auto. intros b' X. discriminate.
  - destruct (nth_error (pend c) k) as [p|] eqn:P; [|discriminate]. destruct p; cbn [advance] in E.
    + destruct (finalize_write (cdb c) a ts (clk c)) eqn:F; injection E as <-; [right|left; auto]. eexists. split; [reflexivity|]. eapply ATrigger; eauto.
    + destruct (trigger_copy _ _ _ _); injection E as <-; left; auto.
    + destruct (prefetch_write _ _ _ _ _); injection E as <-; left; auto.
    + destruct (select_job _ _ _ _) as [[i j]|] eqn:S'; injection E as <-; [right|left; auto]. eexists. split; [reflexivity|]. eapply AClaim; eauto.
    + destruct (claim g (cdb c) w i now) eqn:CL; injection E as <-; [right|left; auto]. eexists. split; [reflexivity|]. eapply AProcess; eauto.
    + destruct (_ && _); [discriminate|]. destruct (process _ _ _ _ _ _ _) as [d' q]. injection E as <-. left; auto.
  - destruct (_ || _); [discriminate|]. injection E as <-. left; auto.
  - destruct (job_locked c i); [discriminate|]. destruct (take w i (queue c)); [|discriminate]. injection E as <-. left; auto.
Qed.

Lemma rest_in : forall c l p, In p (rest_of c l) -> In p (pend c).
Proof. intros c l p I. destruct l; cbn [rest_of] in I; auto; eapply remove_in; eauto. Qed.

(** ** What a step does to the jobs *)

Inductive kind (g : config) (c : conf) (l : label) (i : nat) : (job -> job) -> Prop :=
| KClaim k ok w b now src req : l = Advance k ok -> nth_error (pend c) k = Some (PClaim w b i now src req) -> kind g c l i (claim_row g w now)
| KExtend w now r : l = Poll w i now r -> owned (cdb c) w i = true -> job_locked c i = false -> (now <= clk c)%Z -> kind g c l i (extend_row g now)
| KSave w : acts c l w i -> owned (cdb c) w i = true -> job_locked c i = false -> kind g c l i save_row
| KEnd w s now : acts c l w i -> owned (cdb c) w i = true -> job_locked c i = false -> s = Completed \/ s = Failed ->
    (forall w' i' t r, l = Poll w' i' t r -> exists j, nth_error (jobs (cdb c)) i = Some j /\ j_type j = Copy) -> kind g c l i (finish s now).

Definition fresh (j : job) : Prop := j_status j = Queued /\ j_request j = false /\ j_exp j = None /\ j_worker j = None.

Lemma delete_asset_jobs : forall s d a now, jobs (delete_asset s d a now) = jobs d.
Proof. intros. unfold delete_asset. destruct (nth_error (assets d) a); auto. Qed.

Lemma delete_tiers_jobs : forall s ts d, jobs (fold_left (delete_tier s) ts d) = jobs d.
Proof. induction ts as [|t ts IH]; intros d; cbn [fold_left]; auto. rewrite IH. reflexivity. Qed.

Lemma change_jobs : forall g c l d', change g c l d' ->
  jobs d' = jobs (cdb c) \/ (exists j, jobs d' = jobs (cdb c) ++ [j] /\ fresh j) \/ (exists i f, jobs d' = upd i f (jobs (cdb c)) /\ kind g c l i f).
Proof.
  intros g c l d' C. destruct C.
  - auto.
  - subst. auto.
  - auto.
  - unfold finalize_write in H1. apply commit_ok in H1. destruct H1 as (-> & _). auto.
  - unfold add_copy in H1. apply commit_ok in H1. destruct H1 as (-> & _). right; left. eexists. split; [reflexivity|]. repeat apply conj; reflexivity.
  - auto.
  - unfold queue_delete in H. destruct (nth_error (assets (cdb c)) a); [|discriminate]. destruct (negb _); [discriminate|]. destruct (asset_state_eqb _ _); [discriminate|].
    destruct (is_delete_pending _ _); [discriminate|]. injection H as <-. right; left. eexists. split; [reflexivity|]. repeat apply conj; reflexivity.
  - unfold claim in H1. destruct (nth_error (jobs (cdb c)) i) as [j|]; [|discriminate]. apply commit_ok in H1. destruct H1 as (-> & _).
    right; right. exists i. eexists. split; [reflexivity|]. eapply KClaim; eauto.
  - right; right. exists i. eexists. split; [reflexivity|]. eapply KExtend; eauto.
  - right; right. exists i. eexists. split; [reflexivity|]. eapply KSave; eauto. subst. cbn. eauto.
  - right; right. exists i. eexists. split; [reflexivity|]. eapply KEnd; eauto.
  - apply commit_ok in H4. destruct H4 as (-> & _). right; right. exists i. eexists. split; [reflexivity|]. eapply KEnd; eauto.
  - subst. left. destruct (j_target j); [reflexivity|apply delete_asset_jobs].
  - right; right. exists i, (finish Completed (clk c)). split; [|eapply KEnd; eauto; destruct H4 as (ok & ->); discriminate]. unfold complete_job. cbn [jobs]. subst d1.
    destruct (j_type j); rewrite ?delete_asset_jobs, ?delete_tiers_jobs; auto.
Qed.

(** A job keeps what it was made with. *)
Lemma kind_fixed : forall g c l i f j, kind g c l i f -> j_asset (f j) = j_asset j /\ j_type (f j) = j_type j /\ j_target (f j) = j_target j /\ j_created (f j) = j_created j.
Proof. intros g c l i f j K. destruct K; cbn; auto. Qed.

(** A row after a step: unchanged, changed in one way, or new. *)
Lemma job_after : forall g c l c' i j', step g c l = Some c' -> job_at c' i j' ->
  job_at c i j' \/ (i = List.length (jobs (cdb c)) /\ fresh j') \/ (exists j f, job_at c i j /\ j' = f j /\ kind g c l i f).
Proof.
  intros g c l c' i j' ST J. apply step_change in ST. destruct ST as (C & _). apply change_jobs in C. unfold job_at in *. destruct C as [C|[(j & C & F)|(i0 & f & C & K)]]; rewrite C in J.
  - auto.
  - destruct (Nat.lt_ge_cases i (List.length (jobs (cdb c)))) as [L|L].
    + rewrite nth_error_app1 in J by auto. auto.
    + rewrite nth_error_app2 in J by auto. destruct (i - List.length (jobs (cdb c))) as [|n] eqn:D; [|destruct n; discriminate].
      cbn in J. injection J as <-. right; left. split; [lia|auto].
  - rewrite nth_upd in J. destruct (Nat.eqb_spec i0 i) as [->|N]; [|auto]. destruct (nth_error (jobs (cdb c)) i) as [j|] eqn:E; [|discriminate].
    cbn in J. injection J as <-. right; right. exists j, f. auto.
Qed.

Lemma job_before : forall g c l c' i j, step g c l = Some c' -> job_at c i j ->
  job_at c' i j \/ (exists f, job_at c' i (f j) /\ kind g c l i f).
Proof.
  intros g c l c' i j ST J. apply step_change in ST. destruct ST as (C & _). apply change_jobs in C. unfold job_at in *. destruct C as [C|[(j0 & C & F)|(i0 & f & C & K)]]; rewrite C.
  - auto.
  - left. rewrite nth_error_app1; auto. apply nth_error_Some. congruence.
  - rewrite nth_upd. destruct (Nat.eqb_spec i0 i) as [->|N]; [|auto]. rewrite J. right. exists f. auto.
Qed.

(** ** What a step keeps of the tier paths *)

Definition kept (l l' : list tier) : Prop :=
  forall i t, nth_error l i = Some t -> exists t', nth_error l' i = Some t' /\ t_asset t' = t_asset t /\ t_backend t' = t_backend t.

Lemma kept_refl : forall l, kept l l.
Proof. intros l i t E. eauto. Qed.

Lemma kept_trans : forall a b c, kept a b -> kept b c -> kept a c.
Proof. intros a b c H1 H2 i t E. destruct (H1 _ _ E) as (t1 & E1 & A1 & B1). destruct (H2 _ _ E1) as (t2 & E2 & A2 & B2). exists t2. repeat apply conj; congruence. Qed.

Lemma kept_app : forall l x, kept l (l ++ x).
Proof. intros l x i t E. exists t. rewrite nth_error_app1; auto. apply nth_error_Some. congruence. Qed.

Lemma kept_upd : forall k f l, (forall t, t_asset (f t) = t_asset t /\ t_backend (f t) = t_backend t) -> kept l (upd k f l).
Proof.
  intros k f l F i t E. rewrite nth_upd. destruct (k =? i); [|eauto]. rewrite E. cbn. destruct (F t). eauto.
Qed.

Lemma kept_map : forall f l, (forall t, t_asset (f t) = t_asset t /\ t_backend (f t) = t_backend t) -> kept l (map f l).
Proof. intros f l F i t E. rewrite nth_error_map, E. cbn. destruct (F t). eauto. Qed.

Lemma kept_fold : forall f ts l, (forall t, t_asset (f t) = t_asset t /\ t_backend (f t) = t_backend t) ->
  kept l (fold_left (fun l i => upd i f l) ts l).
Proof. intros f ts. induction ts as [|t ts IH]; intros l F; cbn [fold_left]; [apply kept_refl|]. eapply kept_trans; [apply kept_upd; exact F|apply IH; auto]. Qed.

Lemma delete_tiers_fold : forall s ts d, tiers (fold_left (delete_tier s) ts d) = fold_left (fun l i => upd i (leave s) l) ts (tiers d).
Proof. induction ts as [|t ts IH]; intros d; cbn [fold_left]; auto. rewrite IH. reflexivity. Qed.

Lemma delete_asset_kept : forall s d a now, kept (tiers d) (tiers (delete_asset s d a now)).
Proof.
  intros. unfold delete_asset. destruct (nth_error (assets d) a); [|apply kept_refl]. cbn [tiers]. apply kept_map. intros t. destruct (_ =? _); auto.
Qed.

Lemma complete_kept : forall d i now, kept (tiers d) (tiers (complete_job d i now)).
Proof.
  intros. unfold complete_job. cbn [tiers]. destruct (nth_error (jobs d) i) as [j|]; [|apply kept_refl].
  destruct (j_type j); try apply kept_refl. destruct (j_target j); [|apply kept_refl]. apply kept_upd. auto.
Qed.

Lemma change_kept : forall g c l d', change g c l d' -> kept (tiers (cdb c)) (tiers d').
Proof.
  intros g c l d' C. destruct C; try apply kept_refl.
  - subst. apply kept_app.
  - unfold finalize_write in H1. apply commit_ok in H1. destruct H1 as (-> & _). apply kept_fold. auto.
  - unfold add_copy in H1. apply commit_ok in H1. destruct H1 as (-> & _). apply kept_app.
  - apply kept_upd. auto.
  - unfold queue_delete in H. destruct (nth_error (assets (cdb c)) a); [|discriminate]. destruct (negb _); [discriminate|]. destruct (asset_state_eqb _ _); [discriminate|].
    destruct (is_delete_pending _ _); [discriminate|]. injection H as <-. apply kept_refl.
  - unfold claim in H1. destruct (nth_error (jobs (cdb c)) i) as [j|]; [|discriminate]. apply commit_ok in H1. destruct H1 as (-> & _). cbn [tiers].
    destruct (j_type j); try apply kept_refl. destruct (j_target j); [|apply kept_refl]. apply kept_upd. auto.
  - unfold fail_job. cbn [tiers]. destruct (nth_error (jobs (cdb c)) i) as [j|]; [|apply kept_refl]. destruct (j_target j); [|apply kept_refl]. apply kept_upd. auto.
  - apply commit_ok in H4. destruct H4 as (-> & _). apply complete_kept.
  - subst. destruct (j_target j); [|apply delete_asset_kept]. apply kept_upd. auto.
  - eapply kept_trans; [|apply complete_kept]. subst. destruct (j_type j); try apply delete_asset_kept; rewrite delete_tiers_fold; apply kept_fold; auto.
Qed.

Lemma step_kept : forall g c l c', step g c l = Some c' -> kept (tiers (cdb c)) (tiers (cdb c')).
Proof. intros g c l c' ST. apply step_change in ST. eapply change_kept. apply ST. Qed.

(** ** Claims under way *)

Definition claimed_ids (ps : list pending) : list nat := flat_map (fun p => match p with PClaim _ _ i _ _ _ => [i] | _ => [] end) ps.
Definition locked_backends (ps : list pending) : list nat :=
  flat_map (fun p => match p with PLock _ (Some b) _ | PClaim _ (Some b) _ _ _ _ => [b] | _ => [] end) ps.

Record claims_ok (g : config) (c : conf) : Prop := mkClaimsOk {
  ok_ids : NoDup (claimed_ids (pend c));
  ok_backends : NoDup (locked_backends (pend c));
  ok_target : forall i j t, job_at c i j -> j_target j = Some t -> t < List.length (tiers (cdb c));
  ok_lock : forall w b now, In (PLock w b now) (pend c) -> (now <= clk c)%Z;
  ok_claim : forall w b i now src req, In (PClaim w b i now src req) (pend c) ->
    (now <= clk c)%Z /\ exists j, job_at c i j /\ may_take now j /\ asked c b j /\ j_request j = req }.

Lemma claimed_in : forall ps i, In i (claimed_ids ps) <-> exists w b now src req, In (PClaim w b i now src req) ps.
Proof.
  intros. unfold claimed_ids. rewrite in_flat_map. split.
  - intros (p & I & H). destruct p; cbn in H; try contradiction. destruct H as [<-|[]]. eauto 10.
  - intros (w & b & now & src & req & I). eexists. split; [exact I|]. cbn. auto.
Qed.

Lemma locked_in : forall c b, In b (locked_backends (pend c)) <-> backend_locked c b = true.
Proof.
  intros. unfold locked_backends, backend_locked. rewrite in_flat_map, existsb_exists. split.
  - intros (p & I & H). exists p. split; auto. destruct p as [| | |w [b'|] now|w [b'|] i now src req|]; cbn in H; try contradiction; destruct H as [<-|[]]; apply Nat.eqb_refl.
  - intros (p & I & H). exists p. split; auto. destruct p as [| | |w [b'|] now|w [b'|] i now src req|]; try discriminate; apply Nat.eqb_eq in H; subst; cbn; auto.
Qed.

Lemma asked_kept : forall c c' b j, kept (tiers (cdb c)) (tiers (cdb c')) -> asked c b j -> asked c' b j.
Proof.
  intros c c' b j K A. destruct b as [b|]; auto. destruct A as (t & x & T & X & B). destruct (K _ _ X) as (x' & X' & _ & B'). exists t, x'. repeat apply conj; auto. congruence.
Qed.

Lemma kind_locked : forall g c l i f, kind g c l i f -> job_locked c i = false \/ exists k ok w b now src req, l = Advance k ok /\ nth_error (pend c) k = Some (PClaim w b i now src req).
Proof. intros g c l i f K. destruct K; auto. right. eauto 10. Qed.

Lemma other_claim : forall g c l i f w b now src req, claims_ok g c -> kind g c l i f -> ~ In (PClaim w b i now src req) (rest_of c l).
Proof.
  intros g c l i f w b now src req OK K I. apply kind_locked in K. destruct K as [K|(k & ok & w' & b' & now' & src' & req' & -> & P)].
  - assert (X : job_locked c i = true) by (apply locked_spec; apply rest_in in I; unfold row_locked; eauto 10). congruence.
  - cbn [rest_of] in I. pose proof (ok_ids _ _ OK) as N. eapply Permutation_NoDup in N; [|apply flat_perm, remove_perm; exact P].
    cbn in N. inversion N as [|x xs NI _]; subst. apply NI. apply claimed_in. eauto 10.
Qed.

Lemma rest_nodup : forall {B} (f : pending -> list B) c l, NoDup (flat_map f (pend c)) -> NoDup (flat_map f (rest_of c l)).
Proof. intros. destruct l; cbn [rest_of]; auto; apply nodup_remove; auto. Qed.

Lemma job_same : forall g c l c' i j, step g c l = Some c' -> job_at c i j -> (forall f, ~ kind g c l i f) -> job_at c' i j.
Proof. intros g c l c' i j ST J N. destruct (job_before _ _ _ _ _ _ ST J) as [X|(f & X & K)]; auto. exfalso. eapply N; eauto. Qed.

Lemma nodup_snoc : forall {A} (l : list A) x, NoDup l -> ~ In x l -> NoDup (l ++ [x]).
Proof. intros. apply Permutation_NoDup with (x :: l); [apply Permutation_cons_append|constructor; auto]. Qed.

Lemma change_target : forall g c l d', change g c l d' -> claims_ok g c -> forall i j t, nth_error (jobs d') i = Some j -> j_target j = Some t -> t < List.length (tiers d').
Proof.
  intros g c l d' C OK i j t J T.
  assert (KE : List.length (tiers (cdb c)) <= List.length (tiers d')).
  { apply change_kept in C. destruct (Nat.le_gt_cases (List.length (tiers (cdb c))) (List.length (tiers d'))) as [|G]; auto.
    destruct (nth_error (tiers (cdb c)) (List.length (tiers d'))) eqn:E; [|apply nth_error_None in E; lia].
    destruct (C _ _ E) as (t' & E' & _). assert (List.length (tiers d') < List.length (tiers d')) by (apply nth_error_Some; congruence). lia. }
  assert (OLD : forall i j, job_at c i j -> j_target j = Some t -> t < List.length (tiers d')).
  { intros i0 j0 J0 T0. pose proof (ok_target _ _ OK _ _ _ J0 T0). lia. }
  pose proof C as C0. apply change_jobs in C. destruct C as [C|[(j0 & C & F)|(i0 & f & C & K)]]; rewrite C in J.
  - eapply OLD; eauto.
  - destruct (Nat.lt_ge_cases i (List.length (jobs (cdb c)))) as [L|L].
    + rewrite nth_error_app1 in J by auto. eapply OLD; eauto.
    + rewrite nth_error_app2 in J by auto. destruct (i - List.length (jobs (cdb c))) as [|n] eqn:D; [|destruct n; discriminate]. cbn in J. injection J as <-.
      assert (NE : jobs d' <> jobs (cdb c)) by (rewrite C; intros X; apply (f_equal (@List.length job)) in X; rewrite app_length in X; cbn in X; lia).
      assert (NU : forall k h, jobs d' <> upd k h (jobs (cdb c))) by (intros k h X; rewrite C in X; apply (f_equal (@List.length job)) in X; rewrite upd_length, app_length in X; cbn in X; lia).
      destruct C0; try (exfalso; apply NE; reflexivity); try (exfalso; eapply NU; reflexivity).
      * subst. exfalso. apply NE. reflexivity.
      * unfold finalize_write in H1. apply commit_ok in H1. destruct H1 as (-> & _). exfalso. apply NE. reflexivity.
      * unfold add_copy in H1. apply commit_ok in H1. destruct H1 as (-> & _). cbn [jobs tiers] in *. apply app_inv_head in C. injection C as <-. cbn in T. injection T as <-. rewrite app_length. cbn. lia.
      * unfold queue_delete in H. destruct (nth_error (assets (cdb c)) a); [|discriminate]. destruct (negb _); [discriminate|]. destruct (asset_state_eqb _ _); [discriminate|].
        destruct (is_delete_pending _ _); [discriminate|]. injection H as <-. cbn [jobs] in C. apply app_inv_head in C. injection C as <-. discriminate.
      * unfold claim in H1. destruct (nth_error (jobs (cdb c)) i0) as [j1|]; [|discriminate]. apply commit_ok in H1. destruct H1 as (-> & _). exfalso. eapply NU. reflexivity.
      * apply commit_ok in H4. destruct H4 as (-> & _). exfalso. eapply NU. reflexivity.
      * subst. exfalso. apply NE. match goal with |- jobs (match ?x with _ => _ end) = _ => destruct x end; [reflexivity|apply delete_asset_jobs].
      * exfalso. subst d1. eapply NU. unfold complete_job. cbn [jobs]. match goal with |- upd _ _ (jobs (match ?x with _ => _ end)) = _ => destruct x end; rewrite ?delete_asset_jobs, ?delete_tiers_jobs; reflexivity.
  - rewrite nth_upd in J. destruct (Nat.eqb_spec i0 i) as [->|N]; [|eapply OLD; eauto]. destruct (nth_error (jobs (cdb c)) i) as [j1|] eqn:E; [|discriminate].
    cbn in J. injection J as <-. apply (kind_fixed _ _ _ _ _ j1) in K. destruct K as (_ & _ & K & _). rewrite K in T. eapply OLD; eauto.
Qed.

Lemma claims_step : forall g c l c', claims_ok g c -> step g c l = Some c' -> claims_ok g c'.
Proof.
  intros g c l c' OK ST. pose proof (step_change _ _ _ _ ST) as (CH & TM). pose proof (step_kept _ _ _ _ ST) as KE.
  assert (OLD : forall w b i now src req, In (PClaim w b i now src req) (rest_of c l) ->
    (now <= clk c')%Z /\ exists j, job_at c' i j /\ may_take now j /\ asked c' b j /\ j_request j = req).
  { intros w b i now src req I. destruct (ok_claim _ _ OK _ _ _ _ _ _ (rest_in _ _ _ I)) as (L & j & J & M & A & R). split; [lia|].
    exists j. repeat apply conj; auto; [|eapply asked_kept; eauto]. eapply job_same; eauto. intros f K. eapply other_claim; eauto. }
  pose proof (rest_nodup (fun p => match p with PClaim _ _ i _ _ _ => [i] | _ => [] end) c l (ok_ids _ _ OK)) as N1.
  pose proof (rest_nodup (fun p => match p with PLock _ (Some b) _ | PClaim _ (Some b) _ _ _ _ => [b] | _ => [] end) c l (ok_backends _ _ OK)) as N2.
  pose proof (change_target _ _ _ _ CH OK) as TG.
  destruct (step_pend _ _ _ _ ST) as [P|(p & P & A)]; split; rewrite ?P; auto.
  - intros w b now I. apply rest_in in I. apply (ok_lock _ _ OK) in I. lia.
  - unfold claimed_ids. rewrite flat_map_app. destruct A; cbn [flat_map app]; rewrite ?app_nil_r; auto.
    apply select_spec in H2. destruct H2 as (_ & _ & _ & _ & NL & _). apply nodup_snoc; auto. intros I. apply NL. apply claimed_in in I.
    destruct I as (w' & b' & now' & src' & req' & I). unfold row_locked. apply rest_in in I. eauto 10.
  - unfold locked_backends. rewrite flat_map_app. destruct A; cbn [flat_map app]; rewrite ?app_nil_r; auto.
    + destruct b as [b|]; cbn [app]; rewrite ?app_nil_r; auto. apply nodup_snoc; auto. destruct (H2 b eq_refl) as (NL & _). intros I.
      assert (X : backend_locked c b = true); [|congruence]. apply locked_in. subst l. exact I.
    + destruct b as [b|]; cbn [app]; rewrite ?app_nil_r; auto. subst l. cbn [rest_of] in *.
      pose proof (ok_backends _ _ OK) as N. eapply Permutation_NoDup in N; [|apply flat_perm, remove_perm; exact H0]. cbn in N. inversion N; subst. apply nodup_snoc; auto.
  - intros w b now I. apply in_app_or in I. destruct I as [I|[I|[]]]; [apply rest_in in I; apply (ok_lock _ _ OK) in I; lia|]. subst p. inversion A; subst. lia.
  - intros w b i now src req I. apply in_app_or in I. destruct I as [I|[I|[]]]; [eapply OLD; eauto|]. subst p. inversion A; subst.
    assert (L : (now <= clk c)%Z) by (eapply (ok_lock _ _ OK); eapply nth_error_In; eauto). split; [lia|].
    apply select_spec in H8. destruct H8 as (J & M & _ & AS & _). exists j. unfold job_at. rewrite H7. repeat apply conj; auto.
    eapply asked_kept; eauto.
Qed.

Lemma claims_initial : forall g bs t, claims_ok g (initial bs t).
Proof.
  intros. split; cbn; try constructor; try contradiction. intros i j t' J. destruct i; discriminate.
Qed.

Lemma steps_inv : forall (P : conf -> label -> Prop) g (I : conf -> Prop),
  (forall bs t, I (initial bs t)) -> (forall c l c', I c -> P c l -> step g c l = Some c' -> I c') ->
  forall c, reachable_where P g c -> I c.
Proof. intros P g I B S c (bs & t & R). remember (initial bs t) as c0. induction R; subst; eauto. Qed.

Lemma reach_any : forall P g c, reachable_where P g c -> reachable g c.
Proof.
  intros P g c (bs & t & R). exists bs, t. induction R; [constructor|]. econstructor; eauto. exact I.
Qed.

Lemma claims_reach : forall g c, reachable g c -> claims_ok g c.
Proof. intros g c R. eapply (steps_inv any_step g); eauto; intros; [apply claims_initial|eapply claims_step; eauto]. Qed.

(** ** Leases *)

Lemma ended_stays : forall g c l c' i j, reachable g c -> job_at c i j -> ended j -> step g c l = Some c' -> job_at c' i j.
Proof.
  intros g c l c' i j R J E ST. apply claims_reach in R. eapply job_same; eauto. intros f K.
  assert (NP : j_status j <> Processing) by (destruct E; congruence).
  assert (OW : forall w, owned (cdb c) w i = true -> False).
  { intros w O. apply owned_spec in O. destruct O as (j0 & J0 & S0 & _). unfold job_at in J. rewrite J in J0. injection J0 as <-. auto. }
  destruct K; eauto. apply nth_error_In in H0. apply (ok_claim _ _ R) in H0. destruct H0 as (_ & j0 & J0 & M & _).
  unfold job_at in *. rewrite J in J0. injection J0 as <-. destruct E, M as [M|(M & _)]; congruence.
Qed.

Lemma owner_keeps : forall g c l c' i j w, reachable g c -> job_at c i j -> j_status j = Processing -> j_worker j = Some w -> step g c l = Some c' ->
  (exists j', job_at c' i j' /\ j_status j' = Processing /\ j_worker j' = Some w) \/
  (exists j', job_at c' i j' /\ ended j' /\ acts c l w i) \/
  (exists j' w' now e, job_at c' i j' /\ claims c l w' i now /\ j_worker j' = Some w' /\ j_exp j = Some e /\ (e < now <= clk c)%Z).
Proof.
  intros g c l c' i j w R J S W ST. apply claims_reach in R.
  assert (OW : forall w', owned (cdb c) w' i = true -> w' = w).
  { intros w' O. apply owned_spec in O. destruct O as (j0 & J0 & S0 & W0). unfold job_at in J. rewrite J in J0. injection J0 as <-. congruence. }
  destruct (job_before _ _ _ _ _ _ ST J) as [X|(f & X & K)]; [left; eauto|]. destruct K.
  - right; right. subst l. pose proof (nth_error_In _ _ H0) as I0. apply (ok_claim _ _ R) in I0. destruct I0 as (L & j0 & J0 & M & _).
    unfold job_at in J, J0. rewrite J in J0. injection J0 as <-. destruct M as [M|(_ & e & E & LT)]; [congruence|].
    exists (claim_row g w0 now j), w0, now, e. repeat apply conj; auto. unfold claims. eauto 10.
  - left. exists (extend_row g now j). cbn. auto.
  - left. exists (save_row j). cbn. auto.
  - right; left. exists (finish s now j). apply OW in H0. subst w0. repeat apply conj; auto.
Qed.

Lemma lease_mono : forall t t' j, (t' <= t)%Z -> holds_lease t j -> holds_lease t' j.
Proof. intros t t' j L (S & e & E & H). split; auto. exists e. split; auto. lia. Qed.

(** Where a lease after a step comes from *)
Lemma lease_after : forall g c l c' i j' t, timely c l -> step g c l = Some c' -> (t <= clk c)%Z -> job_at c' i j' -> holds_lease t j' ->
  (exists j, job_at c i j /\ holds_lease t j /\ j_asset j' = j_asset j /\ j_target j' = j_target j) \/
  (exists w now j k ok b src req, l = Advance k ok /\ nth_error (pend c) k = Some (PClaim w b i now src req) /\ job_at c i j /\ j_asset j' = j_asset j /\ j_target j' = j_target j).
Proof.
  intros g c l c' i j' t TM ST LT J' L. destruct (job_after _ _ _ _ _ _ ST J') as [J|[(_ & F & _)|(j & f & J & -> & K)]].
  - left. eauto.
  - destruct L as (S & _). congruence.
  - pose proof (kind_fixed _ _ _ _ _ j K) as (FA & _ & FT & _). destruct K.
    + right. exists w, now, j, k, ok, b, src, req. auto.
    + left. exists j. split; [auto|split; [|auto]]. subst l. cbn in TM. apply owned_spec in H0. destruct H0 as (j0 & J0 & S0 & _). unfold job_at in J. rewrite J in J0. injection J0 as <-.
      eapply lease_mono; [exact LT|]. eapply TM; eauto.
    + left. exists j. split; [auto|split; [exact L|auto]].
    + destruct L as (S & _). cbn in S. destruct H2; congruence.
Qed.

Lemma targets_back : forall g c l c' b i j j', claims_ok g c -> step g c l = Some c' -> job_at c i j -> j_target j' = j_target j -> targets c' b j' -> targets c b j.
Proof.
  intros g c l c' b i j j' OK ST J T (t & x & TT & X & B). rewrite T in TT. pose proof (ok_target _ _ OK _ _ _ J TT) as L.
  destruct (nth_error (tiers (cdb c)) t) as [y|] eqn:Y; [|apply nth_error_None in Y; lia].
  destruct (step_kept _ _ _ _ ST _ _ Y) as (y' & Y' & _ & B'). unfold tier_at in X. rewrite X in Y'. injection Y' as <-. exists t, y. repeat apply conj; auto. congruence.
Qed.

Definition below (m : nat) (c : conf) (b : nat) (t : Z) : Prop :=
  forall is, NoDup is -> (forall i, In i is -> exists j, job_at c i j /\ holds_lease t j /\ targets c b j) -> List.length is < m.

Lemma filter_index : forall {A} (f : A -> bool) (l : list A),
  List.length (filter (fun i => match nth_error l i with Some x => f x | None => false end) (seq 0 (List.length l))) = List.length (filter f l).
Proof.
  intros A f l. induction l as [|x l IH] using rev_ind; auto.
  rewrite app_length, Nat.add_1_r, seq_S, !filter_app, !app_length. cbn [plus filter]. rewrite nth_error_app2, Nat.sub_diag by lia. cbn [nth_error].
  f_equal; [|destruct (f x); auto]. rewrite <- IH. f_equal. apply filter_ext_in. intros i I. apply in_seq in I. rewrite nth_error_app1 by lia. reflexivity.
Qed.

Lemma count_below : forall c b t m, active_count (cdb c) b t < m -> below m c b t.
Proof.
  intros c b t m L is N H. unfold active_count in L. rewrite <- filter_index in L. eapply Nat.le_lt_trans; [|exact L]. apply NoDup_incl_length; auto.
  intros i I. destruct (H i I) as (j & J & HL & T). apply filter_In. unfold job_at in J. split.
  - apply in_seq. split; [lia|]. apply nth_error_Some. congruence.
  - rewrite J. apply andb_true_iff. split; [apply leased_spec; auto|apply backend_of_spec; auto].
Qed.

Definition lock_of (p : pending) : option (nat * Z) :=
  match p with PLock _ (Some b) now | PClaim _ (Some b) _ now _ _ => Some (b, now) | _ => None end.

Definition capacity (g : config) (c : conf) : Prop :=
  claims_ok g c /\ (forall b, at_most (max_active g) c b (clk c)) /\
  (forall p b now, In p (pend c) -> lock_of p = Some (b, now) -> below (max_active g) c b now /\ (now <= clk c)%Z).

Lemma lock_unique : forall g c k p q b now now', claims_ok g c -> nth_error (pend c) k = Some p -> lock_of p = Some (b, now) ->
  In q (remove_nth k (pend c)) -> lock_of q = Some (b, now') -> False.
Proof.
  intros g c k p q b now now' OK P LP I LQ. pose proof (ok_backends _ _ OK) as N. eapply Permutation_NoDup in N; [|apply flat_perm, remove_perm; exact P].
  assert (E : forall r n, lock_of r = Some (b, n) -> (match r with PLock _ (Some b) _ | PClaim _ (Some b) _ _ _ _ => [b] | _ => [] end) = [b]).
  { intros r n. destruct r as [| | |? [?|] ?|? [?|] ? ? ? ?|]; cbn; intros X; try discriminate; injection X as -> _; auto. }
  cbn [flat_map] in N. rewrite (E _ _ LP) in N. inversion N as [|x xs NI _]; subst. apply NI. apply in_flat_map. exists q. split; auto. rewrite (E _ _ LQ). cbn. auto.
Qed.

Lemma below_step : forall g c l c' b now, capacity g c -> timely c l -> step g c l = Some c' -> (now <= clk c)%Z -> below (max_active g) c b now ->
  (forall k ok p, l = Advance k ok -> nth_error (pend c) k = Some p -> forall n, (exists w i src req, p = PClaim w (Some b) i n src req) -> False) ->
  below (max_active g) c' b now.
Proof.
  intros g c l c' b now (OK & _ & _) TM ST LT BL NC is N H. apply BL; auto. intros i I. destruct (H i I) as (j' & J' & L & T).
  destruct (lease_after _ _ _ _ _ _ _ TM ST LT J' L) as [(j & J & LJ & _ & TJ)|(w & n & j & k & ok & b' & src & req & -> & P & J & _ & TJ)].
  - exists j. split; [auto|split; [auto|]]. eapply targets_back; eauto.
  - exfalso. assert (TB : targets c b j) by (eapply targets_back; eauto). pose proof (nth_error_In _ _ P) as IP. apply (ok_claim _ _ OK) in IP. destruct IP as (_ & j0 & J0 & _ & A & _).
    unfold job_at in J, J0. rewrite J in J0. injection J0 as <-. destruct b' as [b'|]; cbn in A.
    + assert (b' = b). { destruct A as (t1 & x1 & T1 & X1 & B1), TB as (t2 & x2 & T2 & X2 & B2). rewrite T1 in T2. injection T2 as <-. unfold tier_at in *. congruence. }
      subst b'. eapply NC; eauto 10.
    + destruct TB as (t2 & x2 & T2 & _). congruence.
Qed.

Lemma capacity_step : forall g c l c', capacity g c -> timely c l -> step g c l = Some c' -> capacity g c'.
Proof.
  intros g c l c' CP TM ST. pose proof CP as (OK & AM & LK). pose proof (step_change _ _ _ _ ST) as (_ & CLK). split; [eapply claims_step; eauto|]. split.
  - intros b is N H.
    assert (H' : forall i, In i is -> (exists j, job_at c i j /\ holds_lease (clk c) j /\ targets c b j) \/
      (exists w n k ok b' src req, l = Advance k ok /\ nth_error (pend c) k = Some (PClaim w b' i n src req) /\ exists j, job_at c i j /\ targets c b j)).
    { intros i I. destruct (H i I) as (j' & J' & L & T). apply (lease_mono _ (clk c)) in L; auto.
      destruct (lease_after _ _ _ _ _ _ _ TM ST (Z.le_refl _) J' L) as [(j & J & LJ & _ & TJ)|(w & n & j & k & ok & b' & src & req & -> & P & J & _ & TJ)].
      - left. exists j. split; [auto|split; [auto|]]. eapply targets_back; eauto.
      - right. exists w, n, k, ok, b', src, req. repeat apply conj; auto. exists j. split; auto. eapply targets_back; eauto. }
    assert (DC : (exists k ok w b' i n src req, l = Advance k ok /\ nth_error (pend c) k = Some (PClaim w b' i n src req)) \/
                 (forall k ok w b' i n src req, l = Advance k ok -> nth_error (pend c) k <> Some (PClaim w b' i n src req))).
    { destruct l; try (right; intros; discriminate). destruct (nth_error (pend c) k) as [p|] eqn:P.
      - destruct p; try (right; intros ? ? ? ? ? ? ? ? X Y; injection X as <- <-; congruence). left. do 8 eexists. split; [reflexivity|exact P].
      - right; intros ? ? ? ? ? ? ? ? X Y; injection X as <- <-; congruence. }
    destruct DC as [(k & ok & w & b' & i & n & src & req & -> & P)|NC].
    + assert (RS : forall x, In x is -> x <> i -> exists j, job_at c x j /\ holds_lease (clk c) j /\ targets c b j).
      { intros x I NE. destruct (H' x I) as [X|(w1 & n1 & k1 & ok1 & b1 & s1 & r1 & E & P1 & _)]; auto. injection E as <- <-. rewrite P in P1. injection P1. intros. congruence. }
      destruct (in_dec Nat.eq_dec i is) as [II|NI].
      * destruct (H' i II) as [(j & J & LJ & T)|(w1 & n1 & k1 & ok1 & b1 & s1 & r1 & E & P1 & j & J & T)].
        -- apply (AM b); auto. intros x I. destruct (Nat.eq_dec x i) as [->|NE]; eauto.
        -- injection E as <- <-. rewrite P in P1. injection P1 as <- <- <- <- <-.
           pose proof (ok_claim _ _ OK _ _ _ _ _ _ (nth_error_In _ _ P)) as (_ & j0 & J0 & _ & A & _). unfold job_at in J, J0. rewrite J in J0. injection J0 as <-.
           destruct b' as [b'|]; cbn in A; [|destruct T as (t2 & x2 & T2 & _); congruence].
           assert (b' = b). { destruct A as (t1 & x1 & T1 & X1 & B1), T as (t2 & x2 & T2 & X2 & B2). rewrite T1 in T2. injection T2 as <-. unfold tier_at in *. congruence. }
           subst b'. destruct (LK _ b n (nth_error_In _ _ P) eq_refl) as (BL & LN).
           apply in_split in II. destruct II as (l1 & l2 & ->). apply NoDup_remove in N. destruct N as (N & NI).
           assert (X : List.length (l1 ++ l2) < max_active g).
           { apply BL; auto. intros x I. destruct (RS x) as (jx & JX & LX & TX).
             - apply in_app_or in I. apply in_or_app. cbn. tauto.
             - intros ->. auto.
             - exists jx. split; [auto|split; [|auto]]. eapply lease_mono; eauto. }
           rewrite app_length in *. cbn [List.length]. lia.
      * apply (AM b); auto. intros x I. apply RS; auto. intros ->. auto.
    + apply (AM b); auto. intros x I. destruct (H' x I) as [X|(w1 & n1 & k1 & ok1 & b1 & s1 & r1 & E & P1 & _)]; auto. exfalso. eapply NC; eauto.
  - assert (OLD : forall p b now, In p (rest_of c l) -> lock_of p = Some (b, now) -> below (max_active g) c' b now /\ (now <= clk c')%Z).
    { intros p b now I L. destruct (LK _ _ _ (rest_in _ _ _ I) L) as (BL & LN). split; [|lia]. eapply below_step; eauto.
      intros k ok q -> P n (w & i & src & req & ->). cbn [rest_of] in I. eapply lock_unique; eauto. reflexivity. }
    destruct (step_pend _ _ _ _ ST) as [P|(p & P & A)]; rewrite P; auto.
    intros q b now I L. apply in_app_or in I. destruct I as [I|[<-|[]]]; [eapply OLD; eauto|]. destruct A; cbn in L; try discriminate.
    + destruct b0 as [b0|]; [|discriminate]. injection L as -> ->. destruct (H2 b eq_refl) as (_ & AC). split; [|lia].
      apply count_below. rewrite H1. exact AC.
    + destruct b0 as [b0|]; [|discriminate]. injection L as -> ->. destruct (LK _ b now (nth_error_In _ _ H0) eq_refl) as (BL & LN). split; [|lia].
      eapply below_step; eauto. intros k0 ok0 q E Q n (w0 & i0 & s0 & r0 & ->). subst l. injection E as <- <-. congruence.
Qed.

Lemma capacity_reach : forall g c, reachable_where timely g c -> capacity g c.
Proof.
  intros g c R. eapply (steps_inv timely g); eauto; [|intros; eapply capacity_step; eauto].
  intros bs t. split; [apply claims_initial|]. split; [|intros p b now []]. intros b is N H. destruct is as [|i is]; [cbn; lia|].
  destruct (H i (or_introl eq_refl)) as (j & J & _). unfold job_at in J. cbn in J. destruct i; discriminate.
Qed.

(** ** One lease for an asset *)

Definition claiming (ps : list pending) : list unit := flat_map (fun p => match p with PLock _ _ _ | PClaim _ _ _ _ _ _ => [tt] | _ => [] end) ps.

Definition single (g : config) (c : conf) : Prop :=
  claims_ok g c /\ exclusive c (clk c) /\ NoDup (claiming (pend c)) /\
  (forall w b i now src req, In (PClaim w b i now src req) (pend c) -> forall j, job_at c i j ->
     forall i' j', job_at c i' j' -> holds_lease now j' -> j_asset j' <> j_asset j).

Lemma claiming_alone : forall c k p q, NoDup (claiming (pend c)) -> nth_error (pend c) k = Some p -> claiming [p] <> [] -> In q (remove_nth k (pend c)) -> claiming [q] = [].
Proof.
  intros c k p q N P CP I. unfold claiming in *. eapply Permutation_NoDup in N; [|apply flat_perm, remove_perm; exact P].
  cbn [flat_map] in N, CP. rewrite app_nil_r in CP. cbn [flat_map]. rewrite app_nil_r.
  assert (X : (match p with PLock _ _ _ | PClaim _ _ _ _ _ _ => [tt] | _ => [] end) = [tt]) by (destruct p; auto; congruence).
  rewrite X in N. inversion N as [|x xs NI _]; subst. destruct q; auto; exfalso; apply NI; apply in_flat_map; eexists; (split; [exact I|cbn; auto]).
Qed.

Lemma single_step : forall g c l c', single g c -> timely_alone c l -> step g c l = Some c' -> single g c'.
Proof.
  intros g c l c' (OK & EX & ND & NB) (TM & AL) ST. pose proof (step_change _ _ _ _ ST) as (CH & CLK).
  split; [eapply claims_step; eauto|].
  assert (ORIG : forall i j' t, (t <= clk c)%Z -> job_at c' i j' -> holds_lease t j' -> (exists j, job_at c i j /\ holds_lease t j /\ j_asset j' = j_asset j) \/
     exists w now j k ok b src req, l = Advance k ok /\ nth_error (pend c) k = Some (PClaim w b i now src req) /\ job_at c i j /\ j_asset j' = j_asset j).
  { intros i j' t LT J' L. destruct (lease_after _ _ _ _ _ _ _ TM ST LT J' L) as [(j & J & LJ & A & _)|(w & n & j & k & ok & b' & src & req & E & P & J & A & _)]; [left|right]; eauto 12. }
  assert (CLAIM : forall w now k ok b src req i j i' j', l = Advance k ok -> nth_error (pend c) k = Some (PClaim w b i now src req) -> job_at c i j ->
     job_at c i' j' -> holds_lease (clk c) j' -> j_asset j' = j_asset j -> False).
  { intros w now k ok b src req i j i' j' E P J J' L A. pose proof (nth_error_In _ _ P) as IP. destruct (ok_claim _ _ OK _ _ _ _ _ _ IP) as (LN & _).
    eapply NB; eauto. eapply lease_mono; eauto. }
  split; [|split].
  - intros i i' j j' J J' L L' A. apply (lease_mono _ (clk c)) in L; auto. apply (lease_mono _ (clk c)) in L'; auto.
    destruct (ORIG _ _ _ (Z.le_refl _) J L) as [(j1 & J1 & L1 & A1)|(w & n & j1 & k & ok & b & s & r & E & P & J1 & A1)];
    destruct (ORIG _ _ _ (Z.le_refl _) J' L') as [(j2 & J2 & L2 & A2)|(w2 & n2 & j2 & k2 & ok2 & b2 & s2 & r2 & E2 & P2 & J2 & A2)].
    + eapply EX; eauto. congruence.
    + exfalso. apply (CLAIM w2 n2 k2 ok2 b2 s2 r2 i' j2 i j1); auto; congruence.
    + exfalso. apply (CLAIM w n k ok b s r i j1 i' j2); auto; congruence.
    + rewrite E in E2. injection E2 as <- <-. rewrite P in P2. injection P2. auto.
  - pose proof (rest_nodup (fun p => match p with PLock _ _ _ | PClaim _ _ _ _ _ _ => [tt] | _ => [] end) c l ND) as N1.
    destruct (step_pend _ _ _ _ ST) as [P|(p & P & A)]; rewrite P; auto. unfold claiming. rewrite flat_map_app.
    destruct A; cbn [flat_map app]; rewrite ?app_nil_r; auto.
    + apply nodup_snoc; auto. intros I. apply in_flat_map in I. destruct I as (q & I & Q). subst l. cbn in AL, I. apply AL in I. destruct q; cbn in Q; contradiction.
    + apply nodup_snoc; auto. intros I. apply in_flat_map in I. destruct I as (q & I & Q). subst l. cbn [rest_of] in I.
      pose proof (claiming_alone _ _ _ _ ND H0 ltac:(cbn; discriminate) I) as X. unfold claiming in X. cbn [flat_map] in X. rewrite app_nil_r in X. rewrite X in Q. contradiction.
  - assert (OLD : forall w b i now src req, In (PClaim w b i now src req) (rest_of c l) -> forall j, job_at c' i j ->
       forall i' j', job_at c' i' j' -> holds_lease now j' -> j_asset j' <> j_asset j).
    { intros w b i now src req I j J i' j' J' L A. pose proof (rest_in _ _ _ I) as I0. destruct (ok_claim _ _ OK _ _ _ _ _ _ I0) as (LN & j0 & J0 & _).
      assert (JS : job_at c' i j0) by (eapply job_same; eauto; intros f K; eapply other_claim; eauto). unfold job_at in J, JS. rewrite J in JS. injection JS as <-.
      destruct (ORIG _ _ _ LN J' L) as [(j1 & J1 & L1 & A1)|(w1 & n1 & j1 & k & ok & b1 & s1 & r1 & -> & P & J1 & A1)].
      - eapply (NB _ _ _ _ _ _ I0); eauto. congruence.
      - cbn [rest_of] in I. pose proof (claiming_alone _ _ _ _ ND P ltac:(cbn; discriminate) I) as X. discriminate. }
    destruct (step_pend _ _ _ _ ST) as [P|(p & P & A)]; rewrite P; auto.
    intros w b i now src req I j J i' j' J' L. apply in_app_or in I. destruct I as [I|[I|[]]]; [eapply OLD; eauto|]. subst p. inversion A; subst.
    apply select_spec in H8. destruct H8 as (J0 & _ & NBS & _). unfold job_at in *. rewrite H7 in *. rewrite J0 in J. injection J as <-. eapply NBS; eauto.
Qed.

Lemma single_reach : forall g c, reachable_where timely_alone g c -> single g c.
Proof.
  intros g c R. eapply (steps_inv timely_alone g); eauto; [|intros; eapply single_step; eauto].
  intros bs t. split; [apply claims_initial|]. split; [|split; [constructor|intros w b i now src req []]].
  intros i i' j j' J. unfold job_at in J. cbn in J. destruct i; discriminate.
Qed.

(** ** A deletion that nobody carries out *)

Definition abandoned (c : conf) (i w : nat) : Prop :=
  (exists j, job_at c i j /\ j_type j = DeleteAll /\ j_status j = Processing /\ j_worker j = Some w) /\
  (forall p, In p (pend c) -> match p with PClaim _ _ i' _ _ _ | PProcess _ i' _ _ => i' <> i | _ => True end) /\
  (forall w', ~ In (w', i) (queue c)).

Lemma queue_step : forall g c l c' w i, step g c l = Some c' -> In (w, i) (queue c') -> In (w, i) (queue c) \/
  exists src req, In (PProcess w i src req) (pend c) /\ exists j, job_at c i j /\ j_type j <> Copy.
Proof.
  intros g c l c' w i E I. destruct l; cbn [step] in E; try (injection E as <-; auto; fail).
  - destruct (finalize_read _ _); injection E as <-; auto.
  - destruct (prefetch_read _ _ _) as [[]|]; injection E as <-; auto.
  - destruct (queue_delete _ _ _); injection E as <-; auto.
  - destruct (Z.ltb _ _); [discriminate|]. destruct (negb _); [injection E as <-; auto|]. destruct b as [b|]; [destruct (backend_locked c b); [discriminate|]; destruct (_ <? _)|]; injection E as <-; auto.
  - destruct (nth_error (pend c) k) as [p|] eqn:P; [|discriminate]. destruct p; cbn [advance] in E.
    + destruct (finalize_write _ _ _ _); injection E as <-; auto.
    + destruct (trigger_copy _ _ _ _); injection E as <-; auto.
    + destruct (prefetch_write _ _ _ _ _); injection E as <-; auto.
    + destruct (select_job _ _ _ _) as [[? ?]|]; injection E as <-; auto.
    + destruct (claim _ _ _ _ _); injection E as <-; auto.
    + destruct (_ && _); [discriminate|]. destruct (process _ _ _ _ _ _ _) as [d' q] eqn:PR. injection E as <-. cbn [queue] in I. destruct q; auto.
      apply in_app_or in I. destruct I as [I|[I|[]]]; auto. injection I as <- <-. right. exists src, req. split; [eapply nth_error_In; eauto|].
      unfold process in PR. unfold job_at. destruct (nth_error (jobs (cdb c)) i0) as [j|]; [|discriminate]. exists j. split; auto. intros T. rewrite T in PR.
      destruct req; [discriminate|]. destruct (j_target j); [destruct src|]; discriminate.
  - injection E as <-. cbn [queue] in I. apply filter_In in I. tauto.
  - destruct (_ || _); [discriminate|]. injection E as <-. auto.
  - destruct (job_locked c i0); [discriminate|]. destruct (take w0 i0 (queue c)) as [q|] eqn:T; [|discriminate]. injection E as <-. cbn [queue] in I.
    apply take_some in T. left. apply T. auto.
Qed.

Lemma abandoned_step : forall g c l c' i w, abandoned c i w -> renewed i c l -> step g c l = Some c' -> abandoned c' i w.
Proof.
  intros g c l c' i w ((j & J & T & S & W) & NP & NQ) RN ST. split; [|split].
  - destruct (job_before _ _ _ _ _ _ ST J) as [X|(f & X & K)]; [eauto 6|]. destruct K.
    + apply nth_error_In in H0. apply NP in H0. congruence.
    + exists (extend_row g now j). cbn. auto.
    + exists (save_row j). cbn. auto.
    + exfalso. destruct l; cbn in H; try contradiction.
      * destruct H as (src & req & P). apply nth_error_In in P. apply NP in P. congruence.
      * destruct (H3 _ _ _ _ eq_refl) as (j0 & J0 & T0). unfold job_at in J. rewrite J in J0. injection J0 as <-. congruence.
      * destruct H as (-> & ->). cbn [step] in ST. destruct (job_locked c i); [discriminate|]. destruct (take w0 i (queue c)) eqn:TK; [|discriminate].
        apply take_some in TK. destruct TK as (TK & _). exact (NQ _ TK).
  - destruct (step_pend _ _ _ _ ST) as [P|(p & P & A)]; rewrite P; intros q I.
    + apply NP. eapply rest_in; eauto.
    + apply in_app_or in I. destruct I as [I|[<-|[]]]; [apply NP; eapply rest_in; eauto|]. destruct A; auto.
      * intros ->. subst l. cbn in RN. rewrite H0 in RN. apply select_spec in H2. destruct H2 as (J0 & M & _). destruct (RN _ J0) as (S1 & e & E1 & L1).
        destruct M as [M|(_ & e' & E2 & L2)]; [congruence|]. rewrite E1 in E2. injection E2 as <-. lia.
      * apply nth_error_In in H0. apply NP in H0. auto.
  - intros w' I. destruct (queue_step _ _ _ _ _ _ ST I) as [Q|(src & req & Q & _)]; [eapply NQ; eauto|]. apply NP in Q. congruence.
Qed.

Lemma abandoned_forever : forall g c c' i w, abandoned c i w -> steps_where (renewed i) g c c' -> abandoned c' i w.
Proof. intros g c c' i w A R. induction R as [|c1 c2 l c3 R IH PP ST]; auto. exact (abandoned_step _ _ _ _ _ _ (IH A) PP ST). Qed.

(** ** Unique indexes *)

Lemma no_clash_spec : forall {A} (f : A -> A -> bool) l, no_clash f l = true <->
  (forall i i' x x', i < i' -> nth_error l i = Some x -> nth_error l i' = Some x' -> f x x' = false).
Proof.
  intros A f l. induction l as [|y l IH]; cbn [no_clash].
  - split; auto. intros _ i i' x x' _ E. destruct i; discriminate.
  - rewrite andb_true_iff, negb_true_iff, IH. split.
    + intros (H1 & H2) i i' x x' L E E'. destruct i' as [|i']; [lia|]. cbn in E'. destruct i as [|i]; cbn in E.
      * injection E as <-. destruct (f y x') eqn:F; auto. assert (existsb (f y) l = true) by (apply existsb_exists; exists x'; split; auto; eapply nth_error_In; eauto). congruence.
      * eapply (H2 i i'); eauto. lia.
    + intros H. split.
      * destruct (existsb (f y) l) eqn:E; auto. apply existsb_exists in E. destruct E as (x & I & F). apply In_nth_error in I. destruct I as (n & I).
        rewrite (H 0 (S n) y x) in F; auto; try discriminate. lia.
      * intros i i' x x' L E E'. apply (H (S i) (S i')); auto. lia.
Qed.

Lemma no_clash_image : forall {A} (f : A -> A -> bool) (w : A -> A -> Prop) l l',
  (forall i x', nth_error l' i = Some x' -> exists x, nth_error l i = Some x /\ w x' x) ->
  (forall x' x y' y, w x' x -> w y' y -> f x' y' = true -> f x y = true) ->
  no_clash f l = true -> no_clash f l' = true.
Proof.
  intros A f w l l' IM MO N. rewrite no_clash_spec in *. intros i i' x' y' L E E'. destruct (IM _ _ E) as (x & X & WX), (IM _ _ E') as (y & Y & WY).
  destruct (f x' y') eqn:F; auto. rewrite <- (N i i' x y L X Y). symmetry. eapply MO; eauto.
Qed.

Definition asset_weaker (x' x : asset) : Prop := a_path x' = a_path x /\ (live x' = true -> live x = true).
Definition tier_weaker (x' x : tier) : Prop := t_asset x' = t_asset x /\ t_backend x' = t_backend x /\ (active x' = true -> active x = true).

Lemma asset_weaker_clash : forall x' x y' y, asset_weaker x' x -> asset_weaker y' y -> asset_clash x' y' = true -> asset_clash x y = true.
Proof.
  intros x' x y' y (P1 & L1) (P2 & L2) C. unfold asset_clash in *. rewrite !andb_true_iff in *. rewrite P1, P2 in C. destruct C as ((A & B) & D). auto.
Qed.

Lemma tier_weaker_clash : forall x' x y' y, tier_weaker x' x -> tier_weaker y' y -> tier_clash x' y' = true -> tier_clash x y = true.
Proof.
  intros x' x y' y (A1 & B1 & L1) (A2 & B2 & L2) C. unfold tier_clash in *. rewrite !andb_true_iff in *. rewrite A1, B1, A2, B2 in C. destruct C as (((A & B) & D) & E). auto.
Qed.

Definition unique (d : db) : Prop := no_clash asset_clash (assets d) = true /\ no_clash tier_clash (tiers d) = true.

Lemma commit_unique : forall d, commit d = Ok d -> unique d.
Proof. intros d C. unfold commit in C. destruct (_ && _) eqn:E; [|discriminate]. apply andb_true_iff in E. exact E. Qed.

Definition tiers_weaker (l' l : list tier) : Prop := forall i x', nth_error l' i = Some x' -> exists x, nth_error l i = Some x /\ tier_weaker x' x.

Lemma tw_refl : forall l, tiers_weaker l l.
Proof. intros l i x E. exists x. repeat split; auto. Qed.

Lemma tw_trans : forall a b c, tiers_weaker a b -> tiers_weaker b c -> tiers_weaker a c.
Proof.
  intros a b c H1 H2 i x E. destruct (H1 _ _ E) as (y & Y & (A & B & C)). destruct (H2 _ _ Y) as (z & Z & (A' & B' & C')). exists z.
  split; auto. split; [congruence|split; [congruence|auto]].
Qed.

Lemma tw_upd : forall k f l, (forall t, tier_weaker (f t) t) -> tiers_weaker (upd k f l) l.
Proof.
  intros k f l F i x E. rewrite nth_upd in E. destruct (k =? i).
  - destruct (nth_error l i) as [y|]; [|discriminate]. cbn in E. injection E as <-. eauto.
  - exists x. split; auto. repeat split; auto.
Qed.

Lemma tw_map : forall f l, (forall t, tier_weaker (f t) t) -> tiers_weaker (map f l) l.
Proof. intros f l F i x E. rewrite nth_error_map in E. destruct (nth_error l i) as [y|]; [|discriminate]. cbn in E. injection E as <-. eauto. Qed.

Lemma tw_fold : forall f ts l, (forall t, tier_weaker (f t) t) -> tiers_weaker (fold_left (fun l i => upd i f l) ts l) l.
Proof. intros f ts. induction ts as [|t ts IH]; intros l F; cbn [fold_left]; [apply tw_refl|]. eapply tw_trans; [apply IH; auto|apply tw_upd; auto]. Qed.

Lemma leave_weaker : forall s t, s = DeleteInProcess \/ s = TDeleted -> tier_weaker (leave s t) t.
Proof. intros s t H. split; [|split]; auto. unfold active. cbn. destruct H; subst; discriminate. Qed.

Lemma unique_tiers : forall d d', assets d' = assets d -> tiers_weaker (tiers d') (tiers d) -> unique d -> unique d'.
Proof. intros d d' A T (U1 & U2). split; [rewrite A; auto|]. eapply no_clash_image; [exact T|exact tier_weaker_clash|auto]. Qed.

Lemma delete_asset_unique : forall s d a now, s = DeleteInProcess \/ s = TDeleted -> unique d -> unique (delete_asset s d a now).
Proof.
  intros s d a now H (U1 & U2). unfold delete_asset. destruct (nth_error (assets d) a); [|split; auto]. split; cbn [assets tiers].
  - eapply no_clash_image; [|exact asset_weaker_clash|exact U1]. intros i x' E. rewrite nth_upd in E. destruct (a =? i).
    + destruct (nth_error (assets d) i) as [y|]; [|discriminate]. cbn in E. injection E as <-. exists y. split; auto. split; auto. unfold live. cbn. discriminate.
    + exists x'. split; auto. split; auto.
  - eapply no_clash_image; [|exact tier_weaker_clash|exact U2]. apply tw_map. intros t. destruct (_ =? _); [apply leave_weaker; auto|repeat split; auto].
Qed.

Lemma delete_tiers_assets : forall s ts d, assets (fold_left (delete_tier s) ts d) = assets d.
Proof. induction ts as [|t ts IH]; intros d; cbn [fold_left]; auto. rewrite IH. reflexivity. Qed.

(** ** What a step does to assets, new jobs and tier paths *)

Lemma queue_delete_ok : forall d a now d', queue_delete d a now = Ok d' -> is_delete_pending d a = false /\
  d' = mkDb (backends d) (assets d) (tiers d) (jobs d ++ [mkJob a DeleteAll Queued None false None None now None]).
Proof.
  intros d a now d' H. unfold queue_delete in H. destruct (nth_error (assets d) a); [|discriminate]. destruct (negb _); [discriminate|]. destruct (asset_state_eqb _ _); [discriminate|].
  destruct (is_delete_pending _ _); [discriminate|]. injection H as <-. auto.
Qed.

Definition copying (c : conf) (l : label) (a : nat) : Prop :=
  exists k ok, l = Advance k ok /\ ((exists ts, nth_error (pend c) k = Some (PTrigger a ts)) \/ exists b, nth_error (pend c) k = Some (PPrefetch a b)).

Lemma change_new : forall g c l d' j, change g c l d' -> jobs d' = jobs (cdb c) ++ [j] ->
  (exists a b exp, copying c l a /\ j_asset j = a /\ j_type j = Copy /\ j_target j = Some (List.length (tiers (cdb c))) /\
     tiers d' = tiers (cdb c) ++ [mkTier a b Pending None exp] /\ assets d' = assets (cdb c)) \/
  (j_type j = DeleteAll /\ j_target j = None /\ is_delete_pending (cdb c) (j_asset j) = false /\ tiers d' = tiers (cdb c) /\ assets d' = assets (cdb c)).
Proof.
  intros g c l d' j C E.
  assert (NE : jobs d' <> jobs (cdb c)) by (rewrite E; intros X; apply (f_equal (@List.length job)) in X; rewrite app_length in X; cbn in X; lia).
  assert (NU : forall k h, jobs d' <> upd k h (jobs (cdb c))) by (intros k h X; rewrite E in X; apply (f_equal (@List.length job)) in X; rewrite upd_length, app_length in X; cbn in X; lia).
  destruct C; try (exfalso; apply NE; reflexivity); try (exfalso; eapply NU; reflexivity).
  - subst. exfalso. apply NE. reflexivity.
  - unfold finalize_write in H1. apply commit_ok in H1. destruct H1 as (-> & _). exfalso. apply NE. reflexivity.
  - unfold add_copy in H1. apply commit_ok in H1. destruct H1 as (-> & _). cbn [jobs tiers assets] in *. apply app_inv_head in E. injection E as <-. left. exists a, b, exp.
    split; [|cbn; auto 10]. exists k, ok. split; auto. destruct H0 as [X|X]; eauto.
  - apply queue_delete_ok in H. destruct H as (N & ->). cbn [jobs tiers assets] in *. apply app_inv_head in E. injection E as <-. right. cbn. auto 10.
  - unfold claim in H1. destruct (nth_error (jobs (cdb c)) i) as [j1|]; [|discriminate]. apply commit_ok in H1. destruct H1 as (-> & _). exfalso. eapply NU. reflexivity.
  - apply commit_ok in H4. destruct H4 as (-> & _). exfalso. eapply NU. reflexivity.
  - subst. exfalso. apply NE. match goal with |- jobs (match ?x with _ => _ end) = _ => destruct x end; [reflexivity|apply delete_asset_jobs].
  - exfalso. subst d1. eapply NU. unfold complete_job. cbn [jobs]. match goal with |- upd _ _ (jobs (match ?x with _ => _ end)) = _ => destruct x end; rewrite ?delete_asset_jobs, ?delete_tiers_jobs; reflexivity.
Qed.

(** An asset after a step: new and being written, or as before up to its state, which does not become
    [ActiveWrite]. *)
Lemma asset_upd : forall k f l i x', (forall x, a_path (f x) = a_path x /\ (a_state (f x) = ActiveWrite -> a_state x = ActiveWrite)) ->
  nth_error (upd k f l) i = Some x' -> exists x, nth_error l i = Some x /\ a_path x' = a_path x /\ (a_state x' = ActiveWrite -> a_state x = ActiveWrite).
Proof.
  intros k f l i x' F E. rewrite nth_upd in E. destruct (k =? i); [|eauto]. destruct (nth_error l i) as [y|]; [|discriminate]. cbn in E. injection E as <-. exists y. destruct (F y). auto.
Qed.

Lemma delete_asset_assets : forall s d a now i x', nth_error (assets (delete_asset s d a now)) i = Some x' ->
  exists x, nth_error (assets d) i = Some x /\ a_path x' = a_path x /\ (a_state x' = ActiveWrite -> a_state x = ActiveWrite).
Proof.
  intros s d a now i x' E. unfold delete_asset in E. destruct (nth_error (assets d) a); [|eauto]. cbn [assets] in E. eapply asset_upd; [|exact E].
  intros y. cbn. split; auto. discriminate.
Qed.

Lemma delete_asset_length : forall s d a now, List.length (assets (delete_asset s d a now)) = List.length (assets d).
Proof. intros. unfold delete_asset. destruct (nth_error (assets d) a); auto. cbn [assets]. apply upd_length. Qed.

Lemma change_assets : forall g c l d', change g c l d' ->
  List.length (assets (cdb c)) <= List.length (assets d') /\
  forall i x', nth_error (assets d') i = Some x' ->
    (i = List.length (assets (cdb c)) /\ jobs d' = jobs (cdb c) /\ exists b, tiers d' = tiers (cdb c) ++ [mkTier i b Pending None None]) \/
    exists x, asset_at c i x /\ a_path x' = a_path x /\ (a_state x' = ActiveWrite -> a_state x = ActiveWrite).
Proof.
  intros g c l d' C. unfold asset_at. destruct C; try (split; [cbn; auto; fail|eauto]; fail).
  - subst d'. cbn [assets tiers jobs]. split; [rewrite app_length; lia|]. intros i x' E. destruct (Nat.lt_ge_cases i (List.length (assets (cdb c)))) as [L|L].
    + rewrite nth_error_app1 in E by auto. eauto.
    + rewrite nth_error_app2 in E by auto. destruct (i - List.length (assets (cdb c))) as [|n] eqn:D; [|destruct n; discriminate].
      left. assert (i = List.length (assets (cdb c))) as -> by lia. eauto.
  - unfold reserve_keep_alive. cbn [assets]. split; [rewrite upd_length; auto|]. intros i x' E. right. eapply asset_upd; [|exact E]. auto.
  - unfold finalize_write in H1. apply commit_ok in H1. destruct H1 as (-> & _). cbn [assets]. split; [rewrite upd_length; auto|].
    intros i x' E. right. eapply asset_upd; [|exact E]. cbn. split; auto. discriminate.
  - unfold add_copy in H1. apply commit_ok in H1. destruct H1 as (-> & _). cbn [assets]. split; [auto|eauto].
  - apply queue_delete_ok in H. destruct H as (_ & ->). cbn [assets]. split; [auto|eauto].
  - unfold claim in H1. destruct (nth_error (jobs (cdb c)) i) as [j1|]; [|discriminate]. apply commit_ok in H1. destruct H1 as (-> & _). cbn [assets]. split; [auto|eauto].
  - apply commit_ok in H4. destruct H4 as (-> & _). unfold complete_job. cbn [assets]. split; [auto|eauto].
  - subst. destruct (j_target j); [split; [auto|cbn; eauto]|]. split; [rewrite delete_asset_length; auto|]. intros n x' E. right. eapply delete_asset_assets; eauto.
  - unfold complete_job. cbn [assets]. subst d1. destruct (j_type j); rewrite ?delete_tiers_assets, ?delete_asset_length; (split; [auto|]); intros n x' E; right; eauto.
    eapply delete_asset_assets; eauto.
Qed.

(** ** The rows of jobs and tier paths *)

Record rows_ok (c : conf) : Prop := mkRowsOk {
  r_ready : forall i t, tier_at c i t -> (t_ready t <> None <-> t_state t = Ready);
  r_inj : forall i i' j j' t, job_at c i j -> job_at c i' j' -> j_target j = Some t -> j_target j' = Some t -> i = i';
  r_type : forall i j, job_at c i j -> (j_type j = Copy /\ exists t, j_target j = Some t) \/ (j_type j = DeleteAll /\ j_target j = None);
  r_open : forall i j t x, job_at c i j -> ~ ended j -> j_target j = Some t -> tier_at c t x -> t_ready x = None;
  r_final : forall a ts t, In (PFinalize a ts) (pend c) -> In t ts -> t < List.length (tiers (cdb c)) /\ forall i j, job_at c i j -> j_target j <> Some t;
  r_write : forall a x t y, asset_at c a x -> a_state x = ActiveWrite -> tier_at c t y -> t_asset y = a -> forall i j, job_at c i j -> j_target j <> Some t;
  r_asset : forall t y, tier_at c t y -> t_asset y < List.length (assets (cdb c));
  r_copy : forall a, (exists ts, In (PTrigger a ts) (pend c)) \/ (exists b, In (PPrefetch a b) (pend c)) -> exists x, asset_at c a x /\ a_state x <> ActiveWrite;
  r_same : forall i j t, job_at c i j -> j_target j = Some t -> exists x, tier_at c t x /\ t_asset x = j_asset j;
  r_fin : forall a ts, In (PFinalize a ts) (pend c) -> exists x, asset_at c a x;
  r_queue : forall w i j, In (w, i) (queue c) -> job_at c i j -> j_type j <> Copy;
  r_queued : forall w i, In (w, i) (queue c) -> exists j, job_at c i j }.

(** A tier path after a step *)
Inductive moved (g : config) (c : conf) (l : label) (d' : db) (i : nat) (t t' : tier) : Prop :=
| MSame : t_state t' = t_state t -> t_ready t' = t_ready t -> moved g c l d' i t t'
| MFinal k ok a ts : l = Advance k ok -> nth_error (pend c) k = Some (PFinalize a ts) -> In i ts -> t_state t' = Ready -> t_ready t' <> None -> moved g c l d' i t t'
| MOpen n j : job_at c n j -> j_target j = Some i -> ~ ended j -> t_state t' <> Ready -> t_ready t' = t_ready t -> moved g c l d' i t t'
| MDone n j j' : job_at c n j -> j_target j = Some i -> ~ ended j -> nth_error (jobs d') n = Some j' -> ended j' -> t_state t' = Ready -> t_ready t' <> None -> moved g c l d' i t t'
| MLeft : t_state t' <> Ready -> t_ready t' = None -> moved g c l d' i t t'.

Lemma fold_upd_nth : forall {A} (f : A -> A) ts l i x', (forall x, f (f x) = f x) -> nth_error (fold_left (fun l i => upd i f l) ts l) i = Some x' ->
  exists x, nth_error l i = Some x /\ (x' = x \/ (In i ts /\ x' = f x)).
Proof.
  intros A f ts. induction ts as [|t ts IH]; intros l i x' ID E; cbn [fold_left] in E; [eauto|]. apply IH in E; auto. destruct E as (x & E & H). rewrite nth_upd in E.
  destruct (Nat.eqb_spec t i) as [->|N].
  - destruct (nth_error l i) as [y|]; [|discriminate]. cbn in E. injection E as <-. exists y. split; auto. right. split; [left; auto|]. destruct H as [->|(_ & ->)]; auto.
  - exists x. split; auto. destruct H as [->|(I & ->)]; [auto|]. right. split; auto. right. auto.
Qed.

Lemma owned_open : forall c w i, owned (cdb c) w i = true -> exists j, job_at c i j /\ ~ ended j.
Proof.
  intros c w i O. apply owned_spec in O. destruct O as (j & J & S' & _). exists j. split; auto. unfold ended. rewrite S'. intros [X|X]; discriminate.
Qed.

Lemma upd_moved : forall g c l d' k f l0 i t', (forall t, nth_error l0 i = Some t -> k = i -> moved g c l d' i t (f t)) ->
  nth_error (upd k f l0) i = Some t' -> exists t, nth_error l0 i = Some t /\ moved g c l d' i t t'.
Proof.
  intros g c l d' k f l0 i t' F E. rewrite nth_upd in E. destruct (Nat.eqb_spec k i) as [X|X].
  - destruct (nth_error l0 i) as [y|]; [|discriminate]. cbn in E. injection E as <-. exists y. split; auto.
  - exists t'. split; auto. apply MSame; auto.
Qed.

Lemma delete_asset_moved : forall g c l d' s a now i t', s <> Ready -> nth_error (tiers (delete_asset s (cdb c) a now)) i = Some t' ->
  exists t, tier_at c i t /\ moved g c l d' i t t'.
Proof.
  intros g c l d' s a now i t' NS E. unfold delete_asset in E. unfold tier_at. destruct (nth_error (assets (cdb c)) a); [|exists t'; split; auto; apply MSame; auto].
  cbn [tiers] in E. rewrite nth_error_map in E. destruct (nth_error (tiers (cdb c)) i) as [y|]; [|discriminate]. cbn in E. injection E as <-. exists y. split; auto.
  destruct (_ =? _); [apply MLeft; auto|apply MSame; auto].
Qed.

Lemma change_moved : forall g c l d', claims_ok g c -> rows_ok c -> change g c l d' -> forall i t', nth_error (tiers d') i = Some t' ->
  (i = List.length (tiers (cdb c)) /\ t_state t' = Pending /\ t_ready t' = None /\ t_asset t' < List.length (assets d')) \/ exists t, tier_at c i t /\ moved g c l d' i t t'.
Proof.
  intros g c l d' OK RO C i t' E.
  assert (NEW : forall y, t_state y = Pending -> t_ready y = None -> t_asset y < List.length (assets d') -> nth_error (tiers (cdb c) ++ [y]) i = Some t' ->
    (i = List.length (tiers (cdb c)) /\ t_state t' = Pending /\ t_ready t' = None /\ t_asset t' < List.length (assets d')) \/ exists t, tier_at c i t /\ moved g c l d' i t t').
  { intros y S' R' A' E'. destruct (Nat.lt_ge_cases i (List.length (tiers (cdb c)))) as [L|L].
    - rewrite nth_error_app1 in E' by auto. right. exists t'. split; auto. apply MSame; auto.
    - rewrite nth_error_app2 in E' by auto. destruct (i - List.length (tiers (cdb c))) as [|n] eqn:D; [|destruct n; discriminate]. cbn in E'. injection E' as <-.
      left. split; [lia|auto]. }
  assert (SAME : nth_error (tiers (cdb c)) i = Some t' -> (i = List.length (tiers (cdb c)) /\ t_state t' = Pending /\ t_ready t' = None /\ t_asset t' < List.length (assets d')) \/ exists t, tier_at c i t /\ moved g c l d' i t t').
  { intros E'. right. exists t'. split; auto. apply MSame; auto. }
  destruct C; auto.
  - subst d'. eapply NEW; [| | |exact E]; auto. cbn. rewrite app_length. cbn. lia.
  - unfold finalize_write in H1. apply commit_ok in H1. destruct H1 as (-> & _). cbn [tiers] in E. apply fold_upd_nth in E; [|auto]. destruct E as (t & T & [->|(I & ->)]); auto.
    right. exists t. split; auto. eapply MFinal; eauto. cbn. discriminate.
  - unfold add_copy in H1. apply commit_ok in H1. destruct H1 as (-> & _). eapply NEW; [| | |exact E]; auto. cbn [assets t_asset].
    assert (X : exists x, asset_at c a x /\ a_state x <> ActiveWrite) by (apply (r_copy _ RO); destruct H0 as [(ts & P)|P]; apply nth_error_In in P; eauto).
    destruct X as (x & X & _). apply nth_error_Some. unfold asset_at in X. congruence.
  - right. eapply upd_moved; [|exact E]. intros t _ _. apply MSame; auto.
  - apply queue_delete_ok in H. destruct H as (_ & ->). auto.
  - unfold claim in H1. destruct (nth_error (jobs (cdb c)) i0) as [j|] eqn:J; [|discriminate]. apply commit_ok in H1. destruct H1 as (-> & _). cbn [tiers] in E.
    destruct (j_type j); auto. destruct (j_target j) as [t0|] eqn:TG; auto. right. eapply upd_moved; [|exact E]. intros t _ ->.
    destruct (ok_claim _ _ OK _ _ _ _ _ _ (nth_error_In _ _ H0)) as (_ & j1 & J1 & M & _). assert (j1 = j) as -> by (unfold job_at in J1; congruence).
    eapply MOpen; eauto; [|cbn; discriminate]. unfold ended. destruct M as [M|(M & _)]; rewrite M; intros [X|X]; discriminate.
  - unfold fail_job in E. cbn [tiers] in E. destruct (owned_open _ _ _ H0) as (j & J & NE). unfold job_at in J. rewrite J in E. destruct (j_target j) as [t0|] eqn:TG; auto.
    right. eapply upd_moved; [|exact E]. intros t _ ->. eapply MOpen; eauto. cbn. discriminate.
  - apply commit_ok in H4. destruct H4 as (-> & _). unfold complete_job in E. cbn [tiers] in E. rewrite H2, H3 in E. destruct (j_target j) as [t0|] eqn:TG; auto.
    right. eapply upd_moved; [|exact E]. intros t _ ->. destruct (owned_open _ _ _ H0) as (j1 & J1 & NE). assert (j1 = j) as -> by (unfold job_at in J1; congruence).
    eapply MDone with (n := i0) (j' := finish Completed now j); eauto; try (cbn; discriminate); [|left; reflexivity].
    unfold complete_job. cbn [jobs]. rewrite nth_upd, Nat.eqb_refl, H2. reflexivity.
  - subst d'. destruct (j_target j) as [t0|] eqn:TG.
    + right. unfold delete_tier in E. cbn [tiers] in E. eapply upd_moved; [|exact E]. intros t _ _. apply MLeft; auto. cbn. discriminate.
    + right. eapply delete_asset_moved; [|exact E]. discriminate.
  - right. pose proof (r_queue _ RO _ _ _ H5 H2) as NC. destruct (r_type _ RO _ _ H2) as [(T & _)|(T & _)]; [contradiction|]. rewrite T in H3. subst d1.
    unfold complete_job in E. cbn [tiers] in E. rewrite delete_asset_jobs, H2, T in E. eapply delete_asset_moved; [|exact E]. discriminate.
Qed.

Lemma tiers_of_in : forall d a i, In i (tiers_of d a) <-> exists t, nth_error (tiers d) i = Some t /\ t_asset t = a.
Proof.
  intros d a i. unfold tiers_of. rewrite filter_In. split.
  - intros (_ & H). destruct (nth_error (tiers d) i) as [t|]; [|discriminate]. apply Nat.eqb_eq in H. eauto.
  - intros (t & E & A). rewrite E. split; [|apply Nat.eqb_eq; auto]. apply in_seq. assert (i < List.length (tiers d)) by (apply nth_error_Some; congruence). lia.
Qed.

Lemma moved_back : forall g c l c' i t', claims_ok g c -> rows_ok c -> step g c l = Some c' -> tier_at c' i t' -> i < List.length (tiers (cdb c)) ->
  exists t, tier_at c i t /\ moved g c l (cdb c') i t t'.
Proof.
  intros g c l c' i t' OK RO ST T L. apply step_change in ST. destruct ST as (CH & _). destruct (change_moved _ _ _ _ OK RO CH _ _ T) as [(X & _)|H]; [lia|auto].
Qed.

Lemma job_origin : forall g c l c' i j', step g c l = Some c' -> job_at c' i j' ->
  (exists j, job_at c i j /\ j_type j' = j_type j /\ j_target j' = j_target j /\ j_asset j' = j_asset j) \/
  (i = List.length (jobs (cdb c)) /\ jobs (cdb c') = jobs (cdb c) ++ [j']).
Proof.
  intros g c l c' i j' ST J. pose proof ST as ST0. apply step_change in ST. destruct ST as (CH & _). apply change_jobs in CH. unfold job_at in *.
  destruct CH as [C|[(j & C & F)|(i0 & f & C & K)]]; rewrite C in J.
  - left. eauto.
  - destruct (Nat.lt_ge_cases i (List.length (jobs (cdb c)))) as [L|L]; [rewrite nth_error_app1 in J by auto; left; eauto|].
    rewrite nth_error_app2 in J by auto. destruct (i - List.length (jobs (cdb c))) as [|n] eqn:D; [|destruct n; discriminate]. cbn in J. injection J as <-. right. split; [lia|auto].
  - left. rewrite nth_upd in J. destruct (Nat.eqb_spec i0 i) as [->|N]; [|eauto]. destruct (nth_error (jobs (cdb c)) i) as [j|] eqn:E; [|discriminate]. cbn in J. injection J as <-.
    destruct (kind_fixed _ _ _ _ _ j K) as (A & B & T & _). exists j. auto.
Qed.

(** A job that is open after a step was open before it, or is new. *)
Lemma open_before : forall g c l c' i j j', claims_ok g c -> step g c l = Some c' -> job_at c i j -> job_at c' i j' -> ~ ended j' -> ~ ended j.
Proof.
  intros g c l c' i j j' OK ST J J' NE E. destruct (job_before _ _ _ _ _ _ ST J) as [X|(f & X & K)].
  - unfold job_at in *. congruence.
  - assert (ST1 : forall w, owned (cdb c) w i = true -> False).
    { intros w O. destruct (owned_open _ _ _ O) as (j1 & J1 & N1). unfold job_at in *. assert (j1 = j) as -> by congruence. auto. }
    destruct K; eauto. destruct (ok_claim _ _ OK _ _ _ _ _ _ (nth_error_In _ _ H0)) as (_ & j1 & J1 & M & _). unfold job_at in *. assert (j1 = j) as -> by congruence.
    destruct E as [E|E]; destruct M as [M|(M & _)]; congruence.
Qed.

Lemma lt_len : forall {A} (l : list A) i x, nth_error l i = Some x -> i < List.length l.
Proof. intros A l i x E. apply nth_error_Some. congruence. Qed.

Lemma rows_step : forall g c l c', claims_ok g c -> rows_ok c -> step g c l = Some c' -> rows_ok c'.
Proof.
  intros g c l c' OK RO ST. pose proof (step_change _ _ _ _ ST) as (CH & _). pose proof (step_kept _ _ _ _ ST) as KE.
  pose proof (change_assets _ _ _ _ CH) as (AL & AS). pose proof (change_moved _ _ _ _ OK RO CH) as MV.
  assert (NEWJ : forall j', jobs (cdb c') = jobs (cdb c) ++ [j'] ->
     (exists a b exp x, asset_at c a x /\ a_state x <> ActiveWrite /\ j_asset j' = a /\ j_type j' = Copy /\ j_target j' = Some (List.length (tiers (cdb c))) /\
       tiers (cdb c') = tiers (cdb c) ++ [mkTier a b Pending None exp] /\ assets (cdb c') = assets (cdb c)) \/
     (j_type j' = DeleteAll /\ j_target j' = None)).
  { intros j' E. destruct (change_new _ _ _ _ _ CH E) as [(a & b & exp & (k & ok & -> & P) & A & T & TG & TI & AA)|(T & TG & _)]; [left|auto].
    assert (X : exists x, asset_at c a x /\ a_state x <> ActiveWrite).
    { apply (r_copy _ RO). destruct P as [(ts & P)|(b' & P)]; apply nth_error_In in P; eauto. }
    destruct X as (x & X & NX). exists a, b, exp, x. auto 10. }
  assert (TI : forall t y', tier_at c' t y' -> t < List.length (tiers (cdb c)) -> exists y, tier_at c t y /\ t_asset y' = t_asset y).
  { intros t y' T L. destruct (nth_error (tiers (cdb c)) t) as [y|] eqn:Y; [|apply nth_error_None in Y; lia]. exists y. split; auto.
    destruct (KE _ _ Y) as (y1 & Y1 & A & _). unfold tier_at in T. congruence. }
  assert (NOJ : forall t i j, t < List.length (tiers (cdb c)) -> (forall i j, job_at c i j -> j_target j <> Some t) -> job_at c' i j -> j_target j <> Some t).
  { intros t i j L H J E. destruct (job_origin _ _ _ _ _ _ ST J) as [(j0 & J0 & _ & T0 & _)|(-> & N)]; [apply (H _ _ J0); congruence|].
    destruct (NEWJ _ N) as [(a & b & exp & x & _ & _ & _ & _ & TG & _)|(_ & TG)]; rewrite TG in E; [injection E as <-; lia|discriminate]. }
  assert (LT : List.length (tiers (cdb c)) <= List.length (tiers (cdb c'))).
  { destruct (Nat.le_gt_cases (List.length (tiers (cdb c))) (List.length (tiers (cdb c')))) as [|G]; auto.
    destruct (nth_error (tiers (cdb c)) (List.length (tiers (cdb c')))) eqn:E; [|apply nth_error_None in E; lia]. destruct (KE _ _ E) as (t' & E' & _). apply lt_len in E'. lia. }
  assert (CP : forall a x, asset_at c a x -> a_state x <> ActiveWrite -> exists x', asset_at c' a x' /\ a_state x' <> ActiveWrite).
  { intros a x X N. destruct (nth_error (assets (cdb c')) a) as [x'|] eqn:X'; [|apply nth_error_None in X'; apply lt_len in X; lia]. exists x'. split; auto.
    destruct (AS _ _ X') as [(E & _)|(x0 & X0 & _ & S')]; [apply lt_len in X; lia|]. unfold asset_at in *. assert (x0 = x) as -> by congruence. auto. }
  assert (FIN : forall a ts t, In (PFinalize a ts) (pend c) -> In t ts -> t < List.length (tiers (cdb c')) /\ forall i j, job_at c' i j -> j_target j <> Some t).
  { intros a ts t I IT. destruct (r_final _ RO _ _ _ I IT) as (L & H). split; [lia|]. intros i j J. eapply NOJ; eauto. }
  split.
  - (* ready *)
    intros i t' T. destruct (MV _ _ T) as [(_ & S' & R' & _)|(t & T0 & M)]; [rewrite S', R'; split; [congruence|discriminate]|].
    destruct M as [S' R'|k ok a ts ? ? ? S' R'|n j J TG NE S' R'|n j j' J TG NE J' EJ S' R'|S' R'].
    + rewrite S', R'. apply (r_ready _ RO _ _ T0).
    + split; auto.
    + split; [|contradiction]. rewrite R', (r_open _ RO _ _ _ _ J NE TG T0). congruence.
    + split; auto.
    + rewrite R'. split; [congruence|contradiction].
  - (* injective *)
    intros i i' j j' t J J' T T'.
    destruct (job_origin _ _ _ _ _ _ ST J) as [(j0 & J0 & _ & T0 & _)|(I & N)], (job_origin _ _ _ _ _ _ ST J') as [(j0' & J0' & _ & T0' & _)|(I' & N')].
    + apply (r_inj _ RO i i' j0 j0' t); congruence.
    + exfalso. destruct (NEWJ _ N') as [(a & b & exp & x & _ & _ & _ & _ & TG & _)|(_ & TG)]; rewrite TG in T'; [|discriminate]. injection T' as <-.
      rewrite T in T0. pose proof (ok_target _ _ OK _ _ _ J0 (eq_sym T0)). lia.
    + exfalso. destruct (NEWJ _ N) as [(a & b & exp & x & _ & _ & _ & _ & TG & _)|(_ & TG)]; rewrite TG in T; [|discriminate]. injection T as <-.
      rewrite T' in T0'. pose proof (ok_target _ _ OK _ _ _ J0' (eq_sym T0')). lia.
    + congruence.
  - (* type *)
    intros i j J. destruct (job_origin _ _ _ _ _ _ ST J) as [(j0 & J0 & B & T0 & _)|(I & N)].
    + rewrite B, T0. apply (r_type _ RO _ _ J0).
    + destruct (NEWJ _ N) as [(a & b & exp & x & _ & _ & _ & T & TG & _)|(T & TG)]; eauto.
  - (* open *)
    intros i j t x J NE TG X. destruct (job_origin _ _ _ _ _ _ ST J) as [(j0 & J0 & B & T0 & _)|(I & N)].
    + rewrite TG in T0. symmetry in T0. pose proof (open_before _ _ _ _ _ _ _ OK ST J0 J NE) as NE0. pose proof (ok_target _ _ OK _ _ _ J0 T0) as L.
      destruct (moved_back _ _ _ _ _ _ OK RO ST X L) as (x0 & X0 & M). pose proof (r_open _ RO _ _ _ _ J0 NE0 T0 X0) as NR.
      destruct M as [S' R'|k ok a ts LA P IT S' R'|n j1 J1 TG1 NE1 S' R'|n j1 j' J1 TG1 NE1 J' EJ S' R'|S' R']; try congruence.
      * exfalso. apply (proj2 (r_final _ RO _ _ _ (nth_error_In _ _ P) IT) _ _ J0). auto.
      * exfalso. assert (n = i) as -> by (eapply (r_inj _ RO); eauto). unfold job_at in J. assert (j' = j) as -> by congruence. auto.
    + destruct (NEWJ _ N) as [(a & b & exp & x0 & _ & _ & _ & T & TG1 & TI1 & _)|(T & TG1)]; [|congruence]. rewrite TG1 in TG. injection TG as <-.
      unfold tier_at in X. rewrite TI1, nth_error_app2, Nat.sub_diag in X by lia. cbn in X. injection X as <-. reflexivity.
  - (* finalize *)
    intros a ts t I IT. destruct (step_pend _ _ _ _ ST) as [P|(p & P & A)]; rewrite P in I.
    + apply rest_in in I. eauto.
    + apply in_app_or in I. destruct I as [I|[I|[]]]; [apply rest_in in I; eauto|]. subst p. inversion A; subst. unfold finalize_read in H2. unfold job_at. rewrite H3 in *.
      destruct (nth_error (assets (cdb c)) a) as [x|] eqn:X; [|discriminate]. destruct (asset_state_eqb (a_state x) ActiveWrite) eqn:W; [|discriminate].
      assert (TS : In t (tiers_of (cdb c) a)) by (destruct (tiers_of (cdb c) a); [discriminate|injection H2 as <-; auto]).
      apply tiers_of_in in TS. destruct TS as (y & Y & YA). split; [eapply lt_len; eauto|]. apply (r_write _ RO a x t y); auto. destruct (a_state x); auto; discriminate.
  - (* being written *)
    intros a x t y X W Y YA i j J. destruct (AS _ _ X) as [(E & EJ & (b & ET))|(x0 & X0 & _ & W0)].
    + destruct (Nat.lt_ge_cases t (List.length (tiers (cdb c)))) as [L|L].
      * exfalso. destruct (TI _ _ Y L) as (y0 & Y0 & A0). pose proof (r_asset _ RO _ _ Y0). lia.
      * unfold job_at in J. rewrite EJ in J. intros TG. pose proof (ok_target _ _ OK _ _ _ J TG). lia.
    + specialize (W0 W). destruct (Nat.lt_ge_cases t (List.length (tiers (cdb c)))) as [L|L].
      * destruct (TI _ _ Y L) as (y0 & Y0 & A0). eapply NOJ; eauto. apply (r_write _ RO a x0 t y0); auto. congruence.
      * intros TG. destruct (job_origin _ _ _ _ _ _ ST J) as [(j0 & J0 & _ & T0 & _)|(-> & N)]; [rewrite TG in T0; pose proof (ok_target _ _ OK _ _ _ J0 (eq_sym T0)); lia|].
        destruct (NEWJ _ N) as [(a1 & b & exp & x1 & X1 & NX & _ & _ & TG1 & TI1 & AA)|(_ & TG1)]; [|congruence]. rewrite TG1 in TG. injection TG as <-.
        unfold tier_at in Y. rewrite TI1, nth_error_app2, Nat.sub_diag in Y by lia. cbn in Y. injection Y as <-. cbn in YA. subst a1. unfold asset_at in *. congruence.
  - (* assets *)
    intros t y' Y. destruct (Nat.lt_ge_cases t (List.length (tiers (cdb c)))) as [L|L].
    + destruct (TI _ _ Y L) as (y & Y0 & E). pose proof (r_asset _ RO _ _ Y0). lia.
    + destruct (MV _ _ Y) as [(_ & _ & _ & X)|(t0 & T0 & _)]; auto. apply lt_len in T0. lia.
  - (* copy *)
    intros a H. destruct (step_pend _ _ _ _ ST) as [P|(p & P & A)]; rewrite P in H.
    + assert (X : exists x, asset_at c a x /\ a_state x <> ActiveWrite); [|destruct X as (x & X & N); eauto].
      apply (r_copy _ RO). destruct H as [(ts & I)|(b & I)]; apply rest_in in I; eauto.
    + assert (OLD : (exists ts, In (PTrigger a ts) (rest_of c l)) \/ (exists b, In (PPrefetch a b) (rest_of c l)) -> exists x, asset_at c' a x /\ a_state x <> ActiveWrite).
      { intros H'. assert (X : exists x, asset_at c a x /\ a_state x <> ActiveWrite); [|destruct X as (x & X & N); eauto].
        apply (r_copy _ RO). destruct H' as [(ts & I)|(b & I)]; apply rest_in in I; eauto. }
      destruct H as [(ts & I)|(b & I)]; apply in_app_or in I; destruct I as [I|[I|[]]]; eauto; subst p; inversion A; subst.
      * match goal with W : finalize_write _ _ _ _ = _, N : nth_error (pend c) _ = _ |- _ => unfold finalize_write in W; apply commit_ok in W; destruct W as (E & _); destruct (r_fin _ RO _ _ (nth_error_In _ _ N)) as (x & X) end. unfold asset_at in *. rewrite E. cbn [assets].
        rewrite nth_upd, Nat.eqb_refl, X. eexists. split; [reflexivity|]. cbn. discriminate.
      * match goal with W : prefetch_read _ _ _ = _, N : cdb c' = cdb c |- _ => rename W into PRR; rename N into SAM end.
        unfold prefetch_read in PRR. destruct (nth_error (assets (cdb c)) a) as [x|] eqn:X; [|discriminate]. destruct (asset_state_eqb (a_state x) Stored) eqn:W; [|discriminate].
        exists x. unfold asset_at. rewrite SAM. split; auto. destruct (a_state x); discriminate.
  - (* same asset *)
    intros i j t J TG. destruct (job_origin _ _ _ _ _ _ ST J) as [(j0 & J0 & _ & T0 & A0)|(-> & N)].
    + rewrite TG in T0. destruct (r_same _ RO _ _ _ J0 (eq_sym T0)) as (x & X & XA). destruct (KE _ _ X) as (x' & X' & XA' & _). exists x'. split; auto. congruence.
    + destruct (NEWJ _ N) as [(a1 & b & exp & x1 & X1 & NX & JA & _ & TG1 & TI1 & AA)|(_ & TG1)]; [|congruence]. rewrite TG1 in TG. injection TG as <-.
      eexists. unfold tier_at. rewrite TI1, nth_error_app2, Nat.sub_diag by lia. split; [reflexivity|]. cbn. auto.
  - (* finalize *)
    intros a ts I. assert (X : exists x, asset_at c a x).
    { destruct (step_pend _ _ _ _ ST) as [P|(p & P & A)]; rewrite P in I; [apply rest_in in I; apply (r_fin _ RO _ _ I)|].
      apply in_app_or in I. destruct I as [I|[I|[]]]; [apply rest_in in I; apply (r_fin _ RO _ _ I)|]. subst p. inversion A; subst. unfold finalize_read in H2. unfold asset_at.
      destruct (nth_error (assets (cdb c)) a) as [x|]; [eauto|discriminate]. }
    destruct X as (x & X). apply lt_len in X. unfold asset_at. destruct (nth_error (assets (cdb c')) a) as [x'|] eqn:X'; [eauto|]. apply nth_error_None in X'. lia.
  - (* queue *)
    intros w i j I J. assert (X : exists j0, job_at c i j0 /\ (forall j0, job_at c i j0 -> j_type j0 <> Copy)).
    { destruct (queue_step _ _ _ _ _ _ ST I) as [Q|(src & req & _ & j0 & J0 & T)].
      - destruct (r_queued _ RO _ _ Q) as (j0 & J0). exists j0. split; auto. intros j1. apply (r_queue _ RO _ _ _ Q).
      - exists j0. split; auto. intros j1 J1. unfold job_at in *. congruence. }
    destruct X as (j0 & J0 & X). destruct (job_origin _ _ _ _ _ _ ST J) as [(j1 & J1 & T1 & _)|(-> & _)]; [rewrite T1; auto|]. apply lt_len in J0. lia.
  - intros w i I. assert (X : exists j0, job_at c i j0).
    { destruct (queue_step _ _ _ _ _ _ ST I) as [Q|(src & req & _ & j0 & J0 & T)]; [apply (r_queued _ RO _ _ Q)|eauto]. }
    destruct X as (j0 & J0). destruct (job_before _ _ _ _ _ _ ST J0) as [X|(f & X & _)]; eauto.
Qed.

Lemma rows_initial : forall bs t, rows_ok (initial bs t).
Proof.
  intros bs t. split; unfold job_at, tier_at, asset_at, initial; cbn; intros; repeat match goal with H : nth_error [] ?i = Some _ |- _ => destruct i; discriminate H end; try contradiction.
  destruct H as [(? & [])|(? & [])].
Qed.

Lemma rows_reach : forall g c, reachable g c -> claims_ok g c /\ rows_ok c.
Proof.
  intros g c R. apply (steps_inv any_step g (fun c => claims_ok g c /\ rows_ok c)); auto.
  - intros. split; [apply claims_initial|apply rows_initial].
  - intros c1 l c2 (A & B) _ ST. split; [eapply claims_step; eauto|eapply rows_step; eauto].
Qed.

Lemma change_unique : forall g c l d', rows_ok c -> change g c l d' -> unique (cdb c) -> unique d'.
Proof.
  intros g c l d' RO C U. destruct C; auto.
  - apply commit_unique. auto.
  - destruct U as (U1 & U2). split; auto. unfold reserve_keep_alive. cbn [assets]. eapply no_clash_image; [|exact asset_weaker_clash|exact U1].
    intros i x' E. rewrite nth_upd in E. destruct (a =? i); [|exists x'; split; auto; split; auto].
    destruct (nth_error (assets (cdb c)) i) as [y|]; [|discriminate]. cbn in E. injection E as <-. exists y. split; auto. split; auto.
  - unfold finalize_write in H1. apply commit_ok in H1. destruct H1 as (-> & H1). apply commit_unique. auto.
  - unfold add_copy in H1. apply commit_ok in H1. destruct H1 as (-> & H1). apply commit_unique. auto.
  - eapply unique_tiers; [| |exact U]; auto. cbn [tiers]. apply tw_upd. intros t. repeat split; auto.
  - apply queue_delete_ok in H. destruct H as (_ & ->). exact U.
  - unfold claim in H1. destruct (nth_error (jobs (cdb c)) i) as [j|]; [|discriminate]. apply commit_ok in H1. destruct H1 as (-> & H1). apply commit_unique. auto.
  - eapply unique_tiers; [| |exact U]; auto. unfold fail_job. cbn [tiers]. destruct (nth_error (jobs (cdb c)) i) as [j|]; [|apply tw_refl]. destruct (j_target j); [|apply tw_refl].
    apply tw_upd. intros t. split; [|split]; auto. unfold active. cbn. discriminate.
  - apply commit_ok in H4. destruct H4 as (-> & H4). apply commit_unique. auto.
  - subst d'. destruct (j_target j).
    + eapply unique_tiers; [| |exact U]; auto. unfold delete_tier. cbn [tiers]. apply tw_upd. intros t. apply leave_weaker. auto.
    + apply delete_asset_unique; auto.
  - pose proof (r_queue _ RO _ _ _ H5 H2) as NC. destruct (r_type _ RO _ _ H2) as [(T & _)|(T & _)]; [contradiction|].
    rewrite T in H3. subst d1. apply (unique_tiers (delete_asset TDeleted (cdb c) (j_asset j) (clk c))); [reflexivity| |apply delete_asset_unique; auto].
    unfold complete_job. cbn [tiers]. rewrite delete_asset_jobs, H2, T. apply tw_refl.
Qed.

Lemma unique_reach : forall g c, reachable g c -> unique (cdb c).
Proof.
  intros g c R. apply (steps_inv any_step g (fun c => (claims_ok g c /\ rows_ok c) /\ unique (cdb c))); auto.
  - intros. split; [split; [apply claims_initial|apply rows_initial]|split; reflexivity].
  - intros c1 l c2 ((A & B) & U) _ ST. split; [split; [eapply claims_step; eauto|eapply rows_step; eauto]|]. eapply change_unique; eauto. eapply step_change; eauto.
Qed.

Lemma unique_index : forall {A} (f : A -> A -> bool) l i i' x x', (forall x y, f x y = f y x) -> no_clash f l = true ->
  nth_error l i = Some x -> nth_error l i' = Some x' -> f x x' = true -> i = i'.
Proof.
  intros A f l i i' x x' SY N E E' F. rewrite no_clash_spec in N. destruct (Nat.lt_trichotomy i i') as [L|[L|L]]; auto.
  - rewrite (N _ _ _ _ L E E') in F. discriminate.
  - rewrite SY, (N _ _ _ _ L E' E) in F. discriminate.
Qed.

Lemma str_eqb_sym : forall a b, str_eqb a b = str_eqb b a.
Proof. intros a b. destruct (str_eqb a b) eqn:E, (str_eqb b a) eqn:E'; auto; rewrite str_eqb_eq in *; subst; [rewrite <- E'|rewrite <- E]; rewrite ?(proj2 (str_eqb_eq _ _)); auto. Qed.

Lemma one_live_reach : forall g c, reachable g c -> one_live_asset c.
Proof.
  intros g c R i i' a a' A A' L L' P. destruct (unique_reach _ _ R) as (U & _). eapply (unique_index asset_clash); [|exact U|exact A|exact A'|].
  - intros x y. unfold asset_clash. rewrite str_eqb_sym. destruct (live x), (live y); auto.
  - unfold asset_clash, live. rewrite P, (proj2 (str_eqb_eq _ _) eq_refl). destruct L as [-> | ->], L' as [-> | ->]; reflexivity.
Qed.

Lemma one_active_reach : forall g c, reachable g c -> one_active_tier c.
Proof.
  intros g c R i i' t t' T T' L L' A B. destruct (unique_reach _ _ R) as (_ & U). eapply (unique_index tier_clash); [|exact U|exact T|exact T'|].
  - intros x y. unfold tier_clash. rewrite (Nat.eqb_sym (t_asset x)), (Nat.eqb_sym (t_backend x)). destruct (active x), (active y); auto.
  - unfold tier_clash, active. rewrite A, B, !Nat.eqb_refl. destruct L as [-> |[-> | ->]], L' as [-> |[-> | ->]]; reflexivity.
Qed.

Lemma unfinished_spec : forall j, unfinished j = true <-> ~ ended j.
Proof. intros j. unfold unfinished, ended. destruct (j_status j); split; auto; try discriminate; intros H; try (intros [X|X]; discriminate); exfalso; apply H; auto. Qed.

Lemma pending_spec : forall c a, is_delete_pending (cdb c) a = true <-> exists i j, job_at c i j /\ j_asset j = a /\ j_type j = DeleteAll /\ ~ ended j.
Proof.
  intros c a. unfold is_delete_pending. rewrite existsb_exists. split.
  - intros (j & I & H). apply In_nth_error in I. destruct I as (i & I). rewrite !andb_true_iff, Nat.eqb_eq, unfinished_spec in H. destruct H as ((A & T) & U). exists i, j.
    split; [auto|split; [auto|split; auto]]. destruct (j_type j); auto; discriminate.
  - intros (i & j & J & A & T & U). exists j. split; [eapply nth_error_In; eauto|]. rewrite A, T, Nat.eqb_refl, (proj2 (unfinished_spec j) U). reflexivity.
Qed.

Lemma one_delete_reach : forall g c, reachable g c -> one_delete c.
Proof.
  intros g c R. apply (steps_inv any_step g (fun c => claims_ok g c /\ one_delete c)); auto.
  - intros bs t. split; [apply claims_initial|]. intros i i' j j' J. unfold job_at in J. cbn in J. destruct i; discriminate.
  - intros c1 l c2 (OK & OD) _ ST. split; [eapply claims_step; eauto|]. pose proof (step_change _ _ _ _ ST) as (CH & _).
    assert (NEW : forall i' j j0 j', jobs (cdb c2) = jobs (cdb c1) ++ [j] -> j_type j = DeleteAll -> job_at c1 i' j0 -> job_at c2 i' j' -> j_type j0 = DeleteAll -> ~ ended j' -> j_asset j = j_asset j0 -> False).
    { intros i' j j0 j' N T J0 J' T0 NE A. destruct (change_new _ _ _ _ _ CH N) as [(a & b & exp & _ & _ & X & _)|(_ & _ & X & _)]; [congruence|].
      pose proof (open_before _ _ _ _ _ _ _ OK ST J0 J' NE). assert (is_delete_pending (cdb c1) (j_asset j) = true); [|congruence]. apply pending_spec. exists i', j0. auto. }
    intros i i' j j' J J' T T' NE NE' A.
    destruct (job_origin _ _ _ _ _ _ ST J) as [(j0 & J0 & T0 & _ & A0)|(I & N)], (job_origin _ _ _ _ _ _ ST J') as [(j0' & J0' & T0' & _ & A0')|(I' & N')].
    + apply (OD i i' j0 j0'); auto; try congruence; eapply open_before; eauto.
    + exfalso. eapply (NEW i j' j0 j); eauto; congruence.
    + exfalso. eapply (NEW i' j j0' j'); eauto; congruence.
    + congruence.
Qed.

(** ** The source of a copy *)

Lemma source_ready : forall c j s, rows_ok c -> find_source (cdb c) j = Some s ->
  exists t x, j_target j = Some t /\ s <> t /\ tier_at c s x /\ t_asset x = j_asset j /\ t_state x = Ready.
Proof.
  intros c j s RO E. unfold find_source in E. destruct (j_target j) as [t|]; [|discriminate]. apply find_some in E. destruct E as (I & E).
  apply andb_true_iff in E. destruct E as (N & E). apply tiers_of_in in I. destruct I as (x & X & A). rewrite X in E. exists t, x. split; auto. split.
  - intros ->. rewrite Nat.eqb_refl in N. discriminate.
  - split; auto. split; auto. apply (r_ready _ RO _ _ X). destruct (t_ready x); congruence.
Qed.

Lemma source_none : forall c j t, rows_ok c -> j_target j = Some t -> find_source (cdb c) j = None ->
  forall s x, tier_at c s x -> t_asset x = j_asset j -> t_state x = Ready -> s = t.
Proof.
  intros c j t RO T E s x X A S'. unfold find_source in E. rewrite T in E. destruct (Nat.eq_dec s t) as [|N]; auto. exfalso.
  eapply find_none in E; [|apply tiers_of_in; exists x; split; [exact X|exact A]]. cbn beta in E. unfold tier_at in X. rewrite X in E.
  apply (r_ready _ RO _ _ X) in S'. destruct (Nat.eqb_spec s t); [contradiction|]. destruct (t_ready x); [discriminate|congruence].
Qed.

(** ** What the end of a job leaves behind *)

Lemma deleted_all : forall g c w i c', reachable g c -> step g c (Delete w i true) = Some c' ->
  forall j j', job_at c i j -> ~ ended j -> job_at c' i j' -> ended j' -> (exists y, asset_at c (j_asset j) y /\ exists s t, tier_at c s t /\ t_asset t = j_asset j) ->
  j_status j' = Completed /\ (exists y, asset_at c' (j_asset j) y /\ a_state y = Deleted) /\
  (forall s t, tier_at c' s t -> t_asset t = j_asset j -> t_state t = TDeleted /\ t_exp t = None) /\
  (forall s t, tier_at c' s t -> t_asset t <> j_asset j -> tier_at c s t) /\
  (forall a y, asset_at c' a y -> a <> j_asset j -> asset_at c a y).
Proof.
  intros g c w i c' R ST j j' J NE J' E (y & Y & s0 & t0 & TT & TA). destruct (rows_reach _ _ R) as (OK & RO). cbn [step] in ST.
  destruct (job_locked c i); [discriminate|]. destruct (take w i (queue c)) as [q|] eqn:TK; [|discriminate]. injection ST as <-. apply take_some in TK. destruct TK as (IQ & _).
  pose proof (r_queue _ RO _ _ _ IQ J) as NC. destruct (r_type _ RO _ _ J) as [(X & _)|(T & TN)]; [contradiction|].
  unfold job_at, asset_at, tier_at in *. cbn [cdb] in *. unfold execute_delete in *. rewrite J in *. unfold paths_to_delete in *. rewrite TN in *.
  destruct (tiers_of (cdb c) (j_asset j)) as [|p ps] eqn:TO.
  { exfalso. assert (X : In s0 (tiers_of (cdb c) (j_asset j))) by (apply tiers_of_in; eauto). rewrite TO in X. exact X. }
  cbn [negb] in *. destruct (owned (cdb c) w i) eqn:O; cbn [negb] in *; [|congruence]. rewrite T in *. unfold complete_job in *. rewrite delete_asset_jobs in *. cbn [jobs assets tiers] in *.
  rewrite J, T. rewrite nth_upd, Nat.eqb_refl, J in J'. cbn in J'. injection J' as <-. split; [reflexivity|]. unfold delete_asset. rewrite Y. cbn [assets tiers].
  split; [|split; [|split]].
  - eexists. rewrite nth_upd, Nat.eqb_refl, Y. split; [reflexivity|]. reflexivity.
  - intros s t X A. rewrite nth_error_map in X. destruct (nth_error (tiers (cdb c)) s) as [t1|]; [|discriminate]. cbn in X. injection X as <-.
    destruct (Nat.eqb_spec (t_asset t1) (j_asset j)); [|contradiction]. cbn. auto.
  - intros s t X A. rewrite nth_error_map in X. destruct (nth_error (tiers (cdb c)) s) as [t1|]; [|discriminate]. cbn in X. injection X as <-.
    destruct (Nat.eqb_spec (t_asset t1) (j_asset j)); [contradiction|]. auto.
  - intros a z X A. rewrite nth_upd in X. destruct (Nat.eqb_spec (j_asset j) a); [congruence|]. auto.
Qed.

Lemma upd_other : forall {A} k (f : A -> A) l i x, k <> i -> nth_error (upd k f l) i = Some x -> nth_error l i = Some x.
Proof. intros A k f l i x N E. rewrite nth_upd in E. destruct (Nat.eqb_spec k i); [contradiction|auto]. Qed.

Lemma upd_here : forall {A} i (f : A -> A) l x, nth_error l i = Some x -> nth_error (upd i f l) i = Some (f x).
Proof. intros A i f l x E. rewrite nth_upd, Nat.eqb_refl, E. reflexivity. Qed.

Lemma delete_asset_gone : forall s d a now, (forall t y, nth_error (tiers d) t = Some y -> t_asset y < List.length (assets d)) ->
  (forall y, nth_error (assets (delete_asset s d a now)) a = Some y -> a_state y = Deleted) /\
  (forall t y, nth_error (tiers (delete_asset s d a now)) t = Some y -> t_asset y = a -> t_state y = s).
Proof.
  intros s d a now RA. unfold delete_asset. destruct (nth_error (assets d) a) as [x|] eqn:X; cbn [assets tiers].
  - split.
    + intros y Y. rewrite (upd_here _ _ _ _ X) in Y. injection Y as <-. reflexivity.
    + intros t y Y A. rewrite nth_error_map in Y. destruct (nth_error (tiers d) t) as [z|]; [|discriminate]. cbn in Y. injection Y as <-.
      destruct (Nat.eqb_spec (t_asset z) a); [reflexivity|contradiction].
  - split; [intros y Y; congruence|]. intros t y Y A. apply RA in Y. apply nth_error_None in X. lia.
Qed.

Lemma job_ends : forall g c l c' i j j', reachable g c -> step g c l = Some c' -> job_at c i j -> ~ ended j -> job_at c' i j' -> ended j' ->
  match j_type j with
  | Copy => exists t x, j_target j = Some t /\ tier_at c' t x /\ ((j_status j' = Completed /\ t_state x = Ready) \/ (j_status j' = Failed /\ t_state x = TFailed))
  | _ => j_status j' = Completed ->
      (forall y, asset_at c' (j_asset j) y -> a_state y = Deleted) /\ (forall t y, tier_at c' t y -> t_asset y = j_asset j -> t_state y = TDeleted)
  end.
Proof.
  intros g c l c' i j j' R ST J NE J' E. destruct (rows_reach _ _ R) as (OK & RO). apply step_change in ST. destruct ST as (CH & _).
  assert (OLD : nth_error (jobs (cdb c)) i = Some j' -> False) by (intros X; unfold job_at in J; assert (j' = j) as -> by congruence; auto).
  assert (APP : forall x, nth_error (jobs (cdb c) ++ [x]) i = Some j' -> False) by (intros x X; rewrite nth_error_app1 in X; [auto|eapply lt_len; exact J]).
  assert (UPD : forall k f, (forall x, ended (f x) -> ended x) -> nth_error (upd k f (jobs (cdb c))) i = Some j' -> False).
  { intros k f F X. destruct (Nat.eq_dec k i) as [->|N]; [|apply upd_other in X; auto]. rewrite (upd_here _ _ _ _ J) in X. injection X as <-. auto. }
  unfold job_at, tier_at, asset_at in *. remember (cdb c') as d' eqn:D. clear D. destruct CH; try (exfalso; exact (OLD J')).
  - subst d'. exfalso. auto.
  - unfold finalize_write in H1. apply commit_ok in H1. destruct H1 as (-> & _). exfalso. auto.
  - unfold add_copy in H1. apply commit_ok in H1. destruct H1 as (-> & _). exfalso. eapply APP; eauto.
  - apply queue_delete_ok in H. destruct H as (_ & ->). exfalso. eapply APP; eauto.
  - unfold claim in H1. destruct (nth_error (jobs (cdb c)) i0) as [j1|]; [|discriminate]. apply commit_ok in H1. destruct H1 as (-> & _). exfalso.
    eapply UPD; [|exact J']. intros x [X|X]; discriminate.
  - exfalso. eapply UPD; [|exact J']. auto.
  - exfalso. eapply UPD; [|exact J']. auto.
  - unfold fail_job in *. cbn [jobs tiers assets] in *. destruct (Nat.eq_dec i0 i) as [->|N]; [|apply upd_other in J'; auto; contradiction]. rewrite (upd_here _ _ _ _ J) in J'. injection J' as <-.
    rewrite J. destruct (r_type _ RO _ _ J) as [(T & t & TG)|(T & TG)]; rewrite T; [|discriminate]. exists t. rewrite TG.
    destruct (nth_error (tiers (cdb c)) t) as [x|] eqn:X; [|apply nth_error_None in X; pose proof (ok_target _ _ OK _ _ _ J TG); lia].
    eexists. split; [reflexivity|]. rewrite (upd_here _ _ _ _ X). split; [reflexivity|]. right. split; reflexivity.
  - apply commit_ok in H4. destruct H4 as (-> & _). unfold complete_job in *. cbn [jobs tiers assets] in *. destruct (Nat.eq_dec i0 i) as [->|N]; [|apply upd_other in J'; auto; contradiction].
    rewrite (upd_here _ _ _ _ J) in J'. injection J' as <-. rewrite J in H2. injection H2 as <-. rewrite J, H3.
    destruct (r_type _ RO _ _ J) as [(T & t & TG)|(T & TG)]; [|congruence]. exists t. rewrite TG.
    destruct (nth_error (tiers (cdb c)) t) as [x|] eqn:X; [|apply nth_error_None in X; pose proof (ok_target _ _ OK _ _ _ J TG); lia].
    eexists. split; [reflexivity|]. rewrite (upd_here _ _ _ _ X). split; [reflexivity|]. left. split; reflexivity.
  - subst d'. exfalso. destruct (j_target j0); [auto|]. rewrite delete_asset_jobs in J'. auto.
  - pose proof (r_queue _ RO _ _ _ H5 H2) as NC. destruct (r_type _ RO _ _ H2) as [(T & _)|(T & _)]; [contradiction|]. rewrite T in H3. subst d1.
    unfold complete_job in *. cbn [jobs tiers assets] in *. rewrite delete_asset_jobs in *. destruct (Nat.eq_dec i0 i) as [->|N]; [|apply upd_other in J'; auto; contradiction].
    rewrite J in H2. injection H2 as <-. rewrite T. intros _. rewrite J, T. apply delete_asset_gone. apply (r_asset _ RO).
Qed.

Lemma deleted_stays : forall g c l c' a x, step g c l = Some c' -> asset_at c a x -> a_state x = Deleted ->
  (exists x', asset_at c' a x' /\ a_state x' = Deleted) \/ exists k ok ts, l = Advance k ok /\ nth_error (pend c) k = Some (PFinalize a ts).
Proof.
  intros g c l c' a x ST X D. apply step_change in ST. destruct ST as (CH & _). unfold asset_at in *. remember (cdb c') as d' eqn:E. clear E.
  assert (UPD : forall k f, (a_state x = Deleted -> a_state (f x) = Deleted) -> exists x', nth_error (upd k f (assets (cdb c))) a = Some x' /\ a_state x' = Deleted).
  { intros k f F. rewrite nth_upd. destruct (k =? a); [rewrite X; cbn; eauto|eauto]. }
  assert (DEL : forall s k now, exists x', nth_error (assets (delete_asset s (cdb c) k now)) a = Some x' /\ a_state x' = Deleted).
  { intros s k now. unfold delete_asset. destruct (nth_error (assets (cdb c)) k); [|eauto]. cbn [assets]. apply UPD. auto. }
  destruct CH; eauto.
  - subst d'. left. exists x. cbn [assets]. split; auto. rewrite nth_error_app1; auto. eapply lt_len; eauto.
  - left. apply UPD. auto.
  - destruct (Nat.eq_dec a0 a) as [->|N]; [right; eauto|]. unfold finalize_write in H1. apply commit_ok in H1. destruct H1 as (-> & _). cbn [assets]. left. exists x. split; auto.
    rewrite nth_upd. destruct (Nat.eqb_spec a0 a); [contradiction|auto].
  - unfold add_copy in H1. apply commit_ok in H1. destruct H1 as (-> & _). eauto.
  - apply queue_delete_ok in H. destruct H as (_ & ->). eauto.
  - unfold claim in H1. destruct (nth_error (jobs (cdb c)) i) as [j1|]; [|discriminate]. apply commit_ok in H1. destruct H1 as (-> & _). eauto.
  - apply commit_ok in H4. destruct H4 as (-> & _). eauto.
  - subst d'. destruct (j_target j); eauto.
  - unfold complete_job. cbn [assets]. subst d1. destruct (j_type j); rewrite ?delete_tiers_assets; eauto.
Qed.

Lemma keep_alive_longer : forall g c t c' x, step g c (PrefetchKeepAlive t) = Some c' -> tier_at c t x ->
  assets (cdb c') = assets (cdb c) /\ jobs (cdb c') = jobs (cdb c) /\ (forall t' y, t' <> t -> (tier_at c' t' y <-> tier_at c t' y)) /\
  exists x', tier_at c' t x' /\ t_asset x' = t_asset x /\ t_backend x' = t_backend x /\ t_state x' = t_state x /\ t_ready x' = t_ready x /\
  match t_exp x with
  | None => t_exp x' = None
  | Some e => t_exp x' = Some e \/ (t_exp x' = Some (expires_at (clk c) (keep_alive g)) /\ (e < expires_at (clk c) (keep_alive g))%Z)
  end.
Proof.
  intros g c t c' x ST X. cbn [step] in ST. injection ST as <-. unfold tier_at in *. cbn [cdb]. unfold prefetch_keep_alive. rewrite X.
  assert (SAME : assets (cdb c) = assets (cdb c) /\ jobs (cdb c) = jobs (cdb c) /\ (forall t' y, t' <> t -> (nth_error (tiers (cdb c)) t' = Some y <-> nth_error (tiers (cdb c)) t' = Some y)) /\
    exists x', nth_error (tiers (cdb c)) t = Some x' /\ t_asset x' = t_asset x /\ t_backend x' = t_backend x /\ t_state x' = t_state x /\ t_ready x' = t_ready x /\
    match t_exp x with None => t_exp x' = None | Some e => t_exp x' = Some e \/ (t_exp x' = Some (expires_at (clk c) (keep_alive g)) /\ (e < expires_at (clk c) (keep_alive g))%Z) end).
  { split; auto. split; auto. split; [tauto|]. exists x. destruct (t_exp x); auto 10. }
  destruct (match t_state x with TFailed => true | _ => false end); [exact SAME|]. destruct (is_delete_pending _ _); [exact SAME|]. destruct (is_tier_delete_pending _ _ _); [exact SAME|].
  destruct (t_exp x) as [e|] eqn:EX; [|exact SAME]. destruct (Z.ltb_spec e (expires_at (clk c) (keep_alive g))) as [L|L]; [|exact SAME]. cbn [fst assets jobs tiers].
  split; auto. split; auto. split.
  - intros t' y N. rewrite nth_upd. destruct (Nat.eqb_spec t t'); [congruence|tauto].
  - rewrite (upd_here _ _ _ _ X). eexists. split; [reflexivity|]. cbn. auto 10.
Qed.

(** ** Runs *)

Lemma steps_app : forall (P : conf -> label -> Prop) g c1 c2 c3, steps_where P g c1 c2 -> steps_where P g c2 c3 -> steps_where P g c1 c3.
Proof. intros P g c1 c2 c3 R1 R2. induction R2 as [|a b l d R IH PP ST]; auto. exact (SW_step _ _ _ _ _ _ (IH R1) PP ST). Qed.

Lemma run_steps : forall (P : conf -> label -> Prop) (f : conf -> label -> bool) g, (forall c l, f c l = true -> P c l) ->
  forall ls c c', (fix ok c ls := match ls with [] => true | l :: ls' => f c l && match step g c l with Some c1 => ok c1 ls' | None => true end end) c ls = true ->
  run g c ls = Some c' -> steps_where P g c c'.
Proof.
  intros P f g F. induction ls as [|l ls IH]; intros c c' O R; cbn [run] in R.
  - injection R as <-. constructor.
  - apply andb_true_iff in O. destruct O as (O & O'). destruct (step g c l) as [c1|] eqn:ST; [|discriminate].
    eapply steps_app; [|apply IH; eauto]. econstructor; [constructor|apply F; exact O|exact ST].
Qed.

Definition timely_b (c : conf) (l : label) : bool :=
  match l with
  | Poll w i now r => match nth_error (jobs (cdb c)) i with Some j => negb (status_eqb (j_status j) Processing) || leased (clk c) j | None => true end
  | _ => true
  end.
Definition alone_b (c : conf) (l : label) : bool :=
  match l with
  | Acquire _ _ _ => forallb (fun p => match p with PLock _ _ _ | PClaim _ _ _ _ _ _ => false | _ => true end) (pend c)
  | _ => true
  end.

Lemma timely_b_ok : forall c l, timely_b c l = true -> timely c l.
Proof.
  intros c l H. destruct l; cbn; auto. cbn in H. intros j J S'. unfold job_at in J. rewrite J, S' in H. cbn in H. apply leased_spec. exact H.
Qed.

Lemma alone_b_ok : forall c l, alone_b c l = true -> alone c l.
Proof. intros c l H. destruct l; cbn; auto. cbn in H. rewrite forallb_forall in H. intros p I. apply H in I. destruct p; auto; discriminate. Qed.

Lemma renewed_b_ok : forall i c l, match l with
    | Acquire _ _ now => match nth_error (jobs (cdb c)) i with Some j => leased now j | None => true end
    | Advance k _ => match nth_error (pend c) k with Some (PLock _ _ now) => match nth_error (jobs (cdb c)) i with Some j => leased now j | None => true end | _ => true end
    | _ => true
    end = true -> renewed i c l.
Proof.
  intros i c l H. destruct l; cbn; auto.
  - intros j J. unfold job_at in J. rewrite J in H. apply leased_spec. exact H.
  - destruct (nth_error (pend c) k) as [[]|]; auto. intros j J. unfold job_at in J. rewrite J in H. apply leased_spec. exact H.
Qed.

Lemma run_reachable : forall g bs t ls c, run g (initial bs t) ls = Some c -> reachable g c.
Proof.
  intros g bs t ls c R. exists bs, t. eapply (run_steps any_step (fun _ _ => true)); [exact (fun _ _ _ => I)| |exact R].
  clear R. generalize (initial bs t). induction ls as [|l ls IH]; intros c0; auto. cbn [andb]. destruct (step g c0 l); auto.
Qed.

Lemma select_oldest : forall c b t i j, select_job (cdb c) b t (job_locked c) = Some (i, j) ->
  forall i' j', job_at c i' j' -> may_take t j' -> (forall i2 j2, job_at c i2 j2 -> holds_lease t j2 -> j_asset j2 <> j_asset j') -> asked c b j' -> ~ row_locked c i' -> (j_created j <= j_created j')%Z.
Proof.
  intros c b t i j E i' j' J M NB A NL. apply select_spec in E. destruct E as (_ & _ & _ & _ & _ & O). apply (O i'); auto. apply eligible_spec. auto.
Qed.

Lemma select_some : forall c b t i j, job_at c i j -> may_take t j -> (forall i2 j2, job_at c i2 j2 -> holds_lease t j2 -> j_asset j2 <> j_asset j) -> asked c b j -> ~ row_locked c i ->
  exists i' j', select_job (cdb c) b t (job_locked c) = Some (i', j').
Proof.
  intros c b t i j J M NB A NL. unfold select_job.
  assert (I : In (i, j) (filter (fun ij => eligible (cdb c) b t (snd ij) && negb (job_locked c (fst ij))) (enumerate (jobs (cdb c))))).
  { apply filter_In. split; [apply enumerate_in; exact J|]. cbn [fst snd]. rewrite (proj2 (eligible_spec c b t j)); auto. cbn [andb].
    destruct (job_locked c i) eqn:X; auto. apply locked_spec in X. contradiction. }
  destruct (filter _ _) as [|[i0 j0] l]; [contradiction|]. cbn [oldest]. destruct (oldest l) as [[i1 j1]|]; [destruct (Z.leb _ _)|]; eauto.
Qed.
