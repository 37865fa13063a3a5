(** Proofs for the asynchronous manager. *)
From Coq Require Import ZArith List Bool Permutation Lia Sorted.
From Verif Require Import Base Policy_Model Policy_Spec Policy_Proofs Manager_Model Manager_Spec Manager_Proofs
  ManagerAsync_Model ManagerAsync_Spec.
Import ListNotations.
Local Open Scope Z_scope.

(** * Refinement of the synchronous manager by careful, smooth runs *)

Definition wok (a : save_args) : save_args :=
  mkSave (sv_step a) (sv_data a) (sv_now a) (sv_metrics a) (sv_force a) (sv_preempt a) true.

Definition allowed (u : bool) (cfg : config) (a : save_args) (cs : list info) : Prop :=
  0 <= sv_step a /\ (u = true -> sv_force a = false) /\
  (sv_force a = true \/
   (o_read_only cfg = false /\ forall l, latest_step (mkMgr cs false) = Some l -> l < sv_step a)).

Definition fin_idle (f : fin) : Prop := f = FNone \/ exists s b, f = FEnd s None b.

Definition phase_user (u : bool) (cfg : config) (x : st) : Prop :=
  match a_user x with
  | UIdle | UWait => True
  | UWaitSave a => allowed u cfg a (a_cache x)
  | _ => False
  end.

(** No save in flight. *)
Definition rel_idle (cfg : config) (u : bool) (x : st) (y : fs * mgr) : Prop :=
  fin_idle (a_fin x) /\ a_thread x = false /\ a_exc x = None /\ (forall s c, a_job x <> JRun s c) /\
  a_cache x = cache (snd y) /\
  match a_user x with
  | UIdle | UWait => a_fs x = fst y
  | UWaitSave a => a_fs x = fst y /\ allowed u cfg a (a_cache x)
  | UJoinSave a => a_fs x = fst y /\ allowed u cfg a (a_cache x) /\ ~ In (sv_step a) (map step (a_cache x))
  | UWrite a ops => allowed u cfg a (a_cache x) /\ ~ In (sv_step a) (map step (a_cache x)) /\
      exists done, blocking_ops (sv_step a) (fst y) = done ++ ops /\ a_fs x = exec done (fst y)
  | URestore s w => a_fs x = fst y /\ (w = WTest \/ w = WCheck)
  end.

(** The save of [a] in flight. *)
Definition rel_flight (cfg : config) (u : bool) (x : st) (y : fs * mgr) (a : save_args) (rm : list Z) (pc : fpc) : Prop :=
  let s := sv_step a in
  let cs := cache (snd y) ++ [mkInfo s (sv_now a) (sv_metrics a)] in
  let w := write_ops s (ckpt_of cfg a) true (fst y) in
  let del := delete_steps_ops (o_mode cfg) rm (exec w (fst y)) in
  a_fin x = FRun s rm pc /\ a_exc x = None /\
  allowed u cfg a (cache (snd y)) /\ ~ In s (map step (cache (snd y))) /\
  steps_to_remove cfg cs = Ok rm /\
  a_cache x = drop_steps rm cs /\ phase_user u cfg x /\
  match pc with
  | PWait p =>
      (a_thread x = match p with WCheck => false | _ => true end) /\
      ((a_job x = JRun s (ckpt_of cfg a) /\ p <> WCheck /\ a_fs x = exec (blocking_ops s (fst y)) (fst y)) \/
       (a_job x = JDone /\ a_fs x = exec w (fst y)))
  | PFinal => a_thread x = false /\ a_job x = JDone /\ a_fs x = exec w (fst y)
  | PDelete ss pend => a_thread x = false /\ a_job x = JDone /\
      exists done, a_fs x = exec done (exec w (fst y)) /\
        fst del = done ++ pend ++ fst (delete_steps_ops (o_mode cfg) ss (exec pend (a_fs x))) /\
        snd del = snd (delete_steps_ops (o_mode cfg) ss (exec pend (a_fs x)))
  | PFinally e => a_thread x = false /\ a_job x = JDone /\ e = None /\ snd del = None /\
      a_fs x = exec (fst del) (exec w (fst y))
  end.

Definition rel (cfg : config) (u : bool) (x : st) (y : fs * mgr) : Prop :=
  rel_idle cfg u x y \/ exists a rm pc, rel_flight cfg u x y a rm pc.

Lemma write_split : forall s c d, write_ops s c true d = blocking_ops s d ++ [OCommit s c].
Proof. intros. unfold write_ops, blocking_ops. rewrite <- app_assoc. reflexivity. Qed.

Lemma allowed_save : forall cfg u a d m, allowed u cfg a (cache m) ->
  save (always_save cfg) (wok a) d m = do_save (always_save cfg) (wok a) d m.
Proof.
  intros cfg u a d m (_ & _ & H). unfold save. simpl. destruct (sv_force a); auto.
  destruct H as [H|[HR H]]; [discriminate|]. unfold should_save. simpl. rewrite HR.
  change (latest_step m) with (latest_step (mkMgr (cache m) false)).
  destruct (latest_step _) as [l|] eqn:E; auto. specialize (H l eq_refl).
  destruct (Z.leb_spec (sv_step a) l); [lia|auto].
Qed.

Lemma flight_save : forall cfg u a d m rm, allowed u cfg a (cache m) -> ~ In (sv_step a) (map step (cache m)) ->
  steps_to_remove cfg (cache m ++ [mkInfo (sv_step a) (sv_now a) (sv_metrics a)]) = Ok rm ->
  let w := write_ops (sv_step a) (ckpt_of cfg a) true d in
  let del := delete_steps_ops (o_mode cfg) rm (exec w d) in
  run_call (always_save cfg) (CSave (wok a)) d m =
  mkOut (w ++ fst del) (mkMgr (drop_steps rm (cache m ++ [mkInfo (sv_step a) (sv_now a) (sv_metrics a)])) false)
    (match snd del with Some e => Err e | None => Ok (VBool true) end).
Proof.
  intros cfg u a d m rm AL NI ST w del. simpl run_call. rewrite (allowed_save cfg u) by auto. unfold do_save. simpl.
  rewrite (proj2 (existsb_notIn _ _)) by auto.
  change (steps_to_remove (always_save cfg)) with (steps_to_remove cfg). rewrite ST.
  change (ckpt_of (always_save cfg) (wok a)) with (ckpt_of cfg a). fold w. fold del. destruct del. reflexivity.
Qed.

Lemma exec_cons : forall o ops d, exec (o :: ops) d = exec ops (apply_op o d).
Proof. reflexivity. Qed.

Lemma load_idle : forall cfg u d y, fst y = d -> cache (snd y) = cache (init cfg d) -> rel_idle cfg u (ainit cfg d) y.
Proof.
  intros. unfold rel_idle, ainit, fin_idle. simpl. repeat split; auto. intros s c; discriminate.
Qed.

(** The directory in a related state is a crash point of the synchronous save. *)
Lemma rel_crash_point : forall cfg u x y, rel cfg u x y ->
  (exists a k, 0 <= sv_step a /\ (u = true -> sv_force a = false) /\ allowed u cfg a (cache (snd y)) /\
     a_fs x = crash_point (always_save cfg) (CSave (wok a)) y k) \/ a_fs x = fst y.
Proof.
  intros cfg u x y [I|(a & rm & pc & FE & EX & AL & NI & ST & CA & PU & PC)].
  - destruct I as (_ & _ & _ & _ & CA & US). destruct (a_user x); try (right; tauto).
    left. destruct US as (AL & NI & done & E & F). rewrite CA in *.
    exists a, (length done). split; [apply AL|]. split; [apply AL|]. split; auto.
    unfold crash_point. simpl run_call. rewrite (allowed_save cfg u) by auto.
    unfold do_save. simpl. rewrite (proj2 (existsb_notIn _ _)) by auto.
    change (ckpt_of (always_save cfg) (wok a)) with (ckpt_of cfg a).
    assert (G : forall tl, firstn (length done) ((blocking_ops (sv_step a) (fst y) ++ [OCommit (sv_step a) (ckpt_of cfg a)]) ++ tl) = done).
    { intro tl. rewrite E, <- !app_assoc. rewrite firstn_app, firstn_all, Nat.sub_diag. simpl. apply app_nil_r. }
    rewrite write_split.
    destruct (steps_to_remove _ _) as [rm|]; simpl.
    + destruct (delete_steps_ops _ _ _). simpl. rewrite G. auto.
    + specialize (G []). rewrite app_nil_r in G. rewrite G. auto.
  - left. pose proof (flight_save cfg u a (fst y) (snd y) rm AL NI ST) as FS. simpl in FS.
    assert (K : exists k, a_fs x = exec (firstn k (write_ops (sv_step a) (ckpt_of cfg a) true (fst y) ++
       fst (delete_steps_ops (o_mode cfg) rm (exec (write_ops (sv_step a) (ckpt_of cfg a) true (fst y)) (fst y))))) (fst y)).
    { set (w := write_ops (sv_step a) (ckpt_of cfg a) true (fst y)) in *.
      assert (FW : forall tl, firstn (length w) (w ++ tl) = w).
      { intro tl. rewrite firstn_app, firstn_all, Nat.sub_diag. simpl. apply app_nil_r. }
      destruct pc as [p| |ss pend|e].
      - destruct PC as (_ & [(_ & _ & F)|(_ & F)]).
        + exists (length (blocking_ops (sv_step a) (fst y))). unfold w. rewrite write_split, <- !app_assoc.
          rewrite firstn_app, firstn_all, Nat.sub_diag. simpl. rewrite app_nil_r. auto.
        + exists (length w). rewrite FW. auto.
      - exists (length w). rewrite FW. tauto.
      - destruct PC as (_ & _ & done & F & E & _). exists (length (w ++ done)). rewrite E, app_assoc.
        rewrite firstn_app, firstn_all, Nat.sub_diag. simpl. rewrite app_nil_r, exec_app. auto.
      - destruct PC as (_ & _ & _ & _ & F). eexists. rewrite firstn_all. rewrite exec_app. auto. }
    destruct K as [k K]. exists a, k. split; [apply AL|]. split; [apply AL|]. split; auto.
    unfold crash_point. simpl run_call in *. rewrite FS. auto.
Qed.

Ltac inv H := inversion H; subst; clear H.
Ltac spl := repeat match goal with |- _ /\ _ => split end.

Lemma user_step_idle : forall cfg u x x' r y, rel_idle cfg u x y -> user_step cfg x = Some (x', r) ->
  smooth LUser x x' r -> rel cfg u x' y.
Proof.
  intros cfg u x x' r y (FI & TH & EX & JB & CA & US) H SM. unfold user_step in H.
  assert (MW : manager_wait x = Some (x, None)).
  { unfold manager_wait. destruct FI as [->|(s & b & ->)]; auto. }
  destruct (a_user x) eqn:EU.
  - discriminate.
  - rewrite MW in H. destruct US as [F AL]. left. simpl in H.
    destruct (existsb _ _) eqn:EB; inv H; unfold rel_idle; simpl; spl; auto.
    apply existsb_notIn in EB. auto.
  - rewrite MW in H. inv H. left. unfold rel_idle; simpl; spl; auto.
  - destruct US as (F & AL & NI).
    assert (H' : Some (set_user (UWrite a (blocking_ops (sv_step a) (a_fs x))) (set_exc None (set_thread false x)), None) = Some (x', r)).
    { rewrite EX in H. destruct (a_job x) eqn:EJ; auto. destruct (JB s c); auto. }
    inv H'. left. unfold rel_idle; simpl; spl; auto.
    exists []. rewrite F. auto.
  - destruct US as (AL & NI & done & E & F). destruct ops as [|o ops].
    + destruct (launch cfg a x) as [x1 r1] eqn:EL. inv H. unfold launch in EL.
      rewrite app_nil_r in E. subst done.
      destruct (steps_to_remove cfg _) as [rm|e] eqn:ER; inv EL.
      * right. exists a, rm, (PWait WTest). unfold rel_flight; simpl. rewrite <- CA.
        spl; auto; [exact I|]. left. spl; auto. discriminate.
      * exfalso. eapply SM; eauto.
    + inv H. left. unfold rel_idle; simpl; spl; auto.
      exists (done ++ [o]). rewrite <- app_assoc. split; auto. rewrite exec_app, F. auto.
  - destruct US as (F & [->| ->]); simpl in H.
    + rewrite TH in H. inv H. left. unfold rel_idle; simpl; spl; auto.
    + rewrite EX in H. inv H. left. unfold rel_idle; simpl; spl; auto.
Qed.

Lemma user_step_flight : forall cfg u x x' r y a rm pc, rel_flight cfg u x y a rm pc ->
  user_step cfg x = Some (x', r) -> False.
Proof.
  intros cfg u x x' r y a rm pc (FE & _ & _ & _ & _ & _ & PU & _) H. unfold user_step, phase_user in *.
  assert (MW : manager_wait x = None) by (unfold manager_wait; rewrite FE; auto). rewrite MW in H.
  destruct (a_user x); try discriminate; contradiction.
Qed.

Lemma latest_saving : forall cs b b', latest_step (mkMgr cs b) = latest_step (mkMgr cs b').
Proof. reflexivity. Qed.

Lemma call_save_allowed : forall cfg u a x, (u = true -> sv_force a = false) -> 0 <= sv_step a ->
  sv_force a = true \/ should_save cfg (as_mgr x) (sv_now a) (sv_preempt a) (sv_step a) = Ok true ->
  allowed u cfg a (a_cache x).
Proof.
  intros cfg u a x HU H0 [H|H]; split; auto; split; auto.
  right. unfold should_save in H. destruct (o_read_only cfg); [discriminate|]. split; auto.
  intros l El. change (latest_step (as_mgr x)) with (latest_step (mkMgr (a_cache x) false)) in H. rewrite El in H.
  destruct (Z.leb_spec (sv_step a) l); [discriminate|lia].
Qed.

Lemma fin_step_flight : forall cfg u x x' y a rm pc, rel_flight cfg u x y a rm pc ->
  fin_step cfg x = Some x' -> smooth LFin x x' None ->
  (exists pc', rel_flight cfg u x' y a rm pc') \/
  (pc = PFinally None /\ snd (delete_steps_ops (o_mode cfg) rm (exec (write_ops (sv_step a) (ckpt_of cfg a) true (fst y)) (fst y))) = None /\
   rel_idle cfg u x' (after_call (always_save cfg) (CSave (wok a)) y)).
Proof.
  intros cfg u x x' y a rm pc (FE & EX & AL & NI & ST & CA & PU & PC) H SM. unfold fin_step in H. rewrite FE in H.
  simpl in SM.
  destruct pc as [p| |ss pend|e].
  - left. destruct PC as (TH & PC). destruct p; simpl in H.
    + rewrite TH in H. inv H. exists (PWait WLoad). unfold rel_flight; simpl. repeat (split; [auto; fail|]). auto.
      destruct PC as [(J & N & F)|PC]; [left; repeat split; auto; discriminate|right; auto].
    + rewrite TH in H. inv H. exists (PWait WJoin). unfold rel_flight; simpl. repeat (split; [auto; fail|]).
      destruct PC as [(J & N & F)|PC]; [left; repeat split; auto; discriminate|right; auto].
    + destruct PC as [(J & N & F)|(J & F)]; rewrite J in H; [discriminate|]. inv H.
      exists (PWait WCheck). unfold rel_flight; simpl. repeat (split; [auto; fail|]). right. auto.
    + rewrite EX in H. inv H. exists PFinal. unfold rel_flight; simpl. repeat (split; [auto; fail|]).
      destruct PC as [(J & N & F)|(J & F)]; [contradiction|]. auto.
  - left. inv H. exists (PDelete rm []). destruct PC as (TH & J & F). unfold rel_flight; simpl.
    repeat (split; [auto; fail|]). exists []. rewrite F. auto.
  - left. destruct PC as (TH & J & done & F & E1 & E2). destruct pend as [|o pend].
    + destruct ss as [|t ss].
      * inv H. exists (PFinally None). unfold rel_flight; simpl. repeat (split; [auto; fail|]).
        simpl in E1, E2. rewrite app_nil_r in E1. spl; auto. rewrite E1. auto.
      * destruct (delete_ops (o_mode cfg) t (a_fs x)) as [ops e] eqn:ED.
        cbn [exec fold_left] in E1, E2. unfold exec in E1, E2. cbn [fold_left] in E1, E2.
        cbn [delete_steps_ops] in E1, E2. rewrite ED in E1, E2. destruct e as [e|]; inv H.
        -- exfalso. eapply SM. simpl. reflexivity.
        -- exists (PDelete ss ops). unfold rel_flight; simpl. repeat (split; [auto; fail|]).
           exists done. split; auto. destruct (delete_steps_ops (o_mode cfg) ss (exec ops (a_fs x))) as [o2 e2].
           simpl in *. auto.
    + assert (H' : set_fin (FRun (sv_step a) rm (PDelete ss pend)) (set_fs (apply_op o (a_fs x)) x) = x')
        by (destruct ss; congruence).
      clear H. subst x'. exists (PDelete ss pend). unfold rel_flight; simpl. spl; auto.
      exists (done ++ [o]). rewrite exec_app, F. split; auto.
      rewrite exec_cons in E1, E2. rewrite <- F, <- app_assoc. auto.
  - right. destruct PC as (TH & J & -> & SD & F). inv H. split; auto. split; auto.
    unfold after_call. rewrite (flight_save cfg u a (fst y) (snd y) rm AL NI ST).
    unfold rel_idle; simpl. split; [right; eauto|]. repeat (split; [auto; fail|]).
    split; [rewrite J; discriminate|]. split; auto.
    unfold phase_user in PU. rewrite exec_app. destruct (a_user x); try contradiction; auto.
Qed.

Section Refine.
Variable cfg : config.
Variables u del : bool.
Variable d0 : fs.
Variable P : fs * mgr -> Prop.
Hypothesis P_init : P (d0, init (always_save cfg) d0).
Hypothesis P_save : forall a y, P y -> 0 <= sv_step a -> (u = true -> sv_force a = false) ->
  undisturbed (always_save cfg) (CSave (wok a)) y -> P (after_call (always_save cfg) (CSave (wok a)) y).
Hypothesis P_reload : forall y, P y -> P (after_call (always_save cfg) CReload y).
Hypothesis P_delete : forall s y, del = true -> P y -> undisturbed (always_save cfg) (CDelete s) y ->
  P (after_call (always_save cfg) (CDelete s) y).
Hypothesis P_crash_save : forall a k cleanup y, P y -> 0 <= sv_step a -> (u = true -> sv_force a = false) ->
  P (after_crash (always_save cfg) (CSave (wok a)) k cleanup y).
Hypothesis P_crash_idle : forall cleanup y, P y -> P (after_crash (always_save cfg) CClose 0 cleanup y).

Lemma areach_rel : forall x, areach cfg true u del d0 x -> exists y, P y /\ rel cfg u x y.
Proof.
  intros x R. induction R as [|l x x' r R IH H CF SM UL ND|x cleanup R IH].
  - exists (d0, init (always_save cfg) d0). split; [apply P_init|]. left. apply load_idle; auto.
  - destruct IH as (y & Ry & Rel). specialize (SM eq_refl).
    assert (STAY : rel cfg u x' y -> exists y, P y /\ rel cfg u x' y) by eauto.
    destruct l.
    + (* save call *)
      simpl in H. destruct (a_user x) eqn:EU; try discriminate. simpl in CF, UL.
      assert (G : sv_force a = true \/ should_save cfg (as_mgr x) (sv_now a) (sv_preempt a) (sv_step a) = Ok true ->
              rel cfg u (set_user (UWaitSave a) x) y).
      { intro G0. assert (AL := call_save_allowed cfg u a x UL CF G0).
        destruct Rel as [(FI & TH & EX & JB & CA & US)|(a0 & rm & pc & FE & EX & AL0 & NI & ST & CA & PU & PC)].
        - left. rewrite EU in US. unfold rel_idle; simpl. spl; auto.
        - right. exists a0, rm, pc. unfold rel_flight; simpl. spl; auto. }
      destruct (sv_force a) eqn:EF; [inv H; apply STAY, G; auto|].
      destruct (should_save cfg _ _ _ _) as [[|]|]; inv H; apply STAY; auto.
    + simpl in H. destruct (a_user x) eqn:EU; try discriminate. inv H. apply STAY.
      destruct Rel as [(FI & TH & EX & JB & CA & US)|(a0 & rm & pc & FE & EX & AL0 & NI & ST & CA & PU & PC)].
      * left. rewrite EU in US. unfold rel_idle; simpl. spl; auto.
      * right. exists a0, rm, pc. unfold rel_flight; simpl. spl; auto.
    + simpl in H. destruct (a_user x) eqn:EU; try discriminate. inv H. apply STAY. simpl in CF. destruct CF as [NF TF].
      destruct Rel as [(FI & TH & EX & JB & CA & US)|(a0 & rm & pc & FE & _)]; [|destruct (NF _ _ _ FE)].
      left. rewrite EU in US. unfold rel_idle; simpl. spl; auto.
    + simpl in H. destruct (a_user x) eqn:EU; try discriminate. inv H. apply STAY. simpl in CF. destruct CF as [NF TF].
      destruct Rel as [(FI & TH & EX & JB & CA & US)|(a0 & rm & pc & FE & _)]; [|destruct (NF _ _ _ FE)].
      left. rewrite EU in US. unfold rel_idle; simpl. rewrite EU. spl; auto.
    + (* reload *)
      simpl in H. destruct (a_user x) eqn:EU; try discriminate. inv H. simpl in CF. destruct CF as [NF TF].
      destruct Rel as [(FI & TH & EX & JB & CA & US)|(a0 & rm & pc & FE & _)]; [|destruct (NF _ _ _ FE)].
      rewrite EU in US. exists (after_call (always_save cfg) CReload y). split.
      * apply P_reload; auto.
      * left. unfold rel_idle; simpl. rewrite EU. spl; auto; try (rewrite US; auto).
    + (* delete *)
      simpl in H. destruct (a_user x) eqn:EU; try discriminate. inv H. simpl in CF. destruct CF as [NF TF].
      destruct Rel as [(FI & TH & EX & JB & CA & US)|(a0 & rm & pc & FE & _)]; [|destruct (NF _ _ _ FE)].
      rewrite EU in US.
      assert (OUT : out_ops (delete cfg s (a_fs x) (as_mgr x)) = out_ops (delete (always_save cfg) s (fst y) (snd y)) /\
                    cache (out_mgr (delete cfg s (a_fs x) (as_mgr x))) = cache (out_mgr (delete (always_save cfg) s (fst y) (snd y))) /\
                    out_res (delete cfg s (a_fs x) (as_mgr x)) = out_res (delete (always_save cfg) s (fst y) (snd y))).
      { rewrite US. unfold delete, all_steps. simpl. rewrite CA. destruct (o_read_only cfg); simpl; auto.
        destruct (existsb _ _); simpl; auto. destruct (delete_ops _ _ _) as [ops [e|]]; simpl; auto. }
      destruct OUT as (O1 & O2 & O3).
      assert (DOK : (exists v, out_res (delete (always_save cfg) s (fst y) (snd y)) = Ok v) \/
                    (out_ops (delete (always_save cfg) s (fst y) (snd y)) = [] /\
                     out_mgr (delete (always_save cfg) s (fst y) (snd y)) = snd y)).
      { unfold delete. simpl. destruct (o_read_only cfg); simpl; auto.
        destruct (existsb _ _); simpl; auto. unfold delete_ops.
        destruct (existsb (Z.eqb s) (tmps (fst y))); [|destruct (dget s (committed (fst y)))]; destruct (o_mode cfg); simpl;
          try destruct (existsb _ (trash (fst y))); simpl; eauto. }
      destruct DOK as [OK|[E1 E2]].
      * exists (after_call (always_save cfg) (CDelete s) y). split.
        -- apply P_delete; auto; [|right; auto]. destruct del; auto. destruct (ND eq_refl s); auto.
        -- left. unfold rel_idle; simpl. rewrite EU. spl; auto; try (rewrite O1, US; auto).
      * apply STAY. left. unfold rel_idle; simpl. rewrite EU, O1, O2, E1, E2. spl; auto.
    + (* user step *)
      simpl in H. destruct Rel as [I|(a0 & rm & pc & F)].
      * apply STAY. eapply user_step_idle; eauto.
      * exfalso. eapply user_step_flight; eauto.
    + destruct SM.
    + (* commit *)
      assert (H' : match a_job x with
          | JRun s c => if existsb (Z.eqb s) (tmps (a_fs x))
              then Some (set_job JDone (set_fs (apply_op (OCommit s c) (a_fs x)) x), None) else None
          | _ => None end = Some (x', r)) by (simpl in H; destruct (a_user x); auto).
      clear H. destruct Rel as [(FI & TH & EX & JB & CA & US)|(a0 & rm & pc & FE & EX & AL0 & NI & ST & CA & PU & PC)].
      * destruct (a_job x) eqn:EJ; try discriminate. destruct (JB s c); auto.
      * destruct (a_job x) eqn:EJ; try discriminate.
        destruct pc as [p| |ss pend|e]; try (destruct PC as (_ & J & _); discriminate).
        destruct PC as (TH & [(J & NP & F)|(J & F)]); [|discriminate]. inv J.
        destruct (existsb _ _); [|discriminate]. inv H'. apply STAY. right. exists a0, rm, (PWait p).
        unfold rel_flight; simpl. spl; auto. right. split; auto.
        rewrite write_split, exec_app, F. reflexivity.
    + destruct SM.
    + destruct SM.
    + (* finalize *)
      assert (H' : match fin_step cfg x with Some x' => Some (x', None) | None => None end = Some (x', r))
        by (simpl in H; destruct (a_user x); auto).
      destruct (fin_step cfg x) as [x1|] eqn:EF; [|discriminate]. inv H'.
      destruct Rel as [(FI & _)|(a0 & rm & pc & F)].
      * exfalso. unfold fin_step in EF. destruct FI as [E|(s & b & E)]; rewrite E in EF; discriminate.
      * destruct (fin_step_flight _ _ _ _ _ _ _ _ F EF SM) as [(pc' & F')|(-> & SD & I)].
        -- apply STAY. right. eauto.
        -- destruct F as (FE & EX & AL0 & NI & ST & CA & PU & PC).
           eexists. split; [|left; exact I].
           apply P_save; auto; try (apply AL0).
           ++ right. rewrite (flight_save cfg u a0 (fst y) (snd y) rm AL0 NI ST). simpl. rewrite SD. eauto.
  - destruct IH as (y & Ry & Rel). apply rel_crash_point in Rel.
    destruct Rel as [(a & k & H0 & HU & AL & F)|F].
    + exists (after_crash (always_save cfg) (CSave (wok a)) k cleanup y). split.
      * apply P_crash_save; auto.
      * left. unfold crash_point in F. unfold after_crash. rewrite <- F. destruct cleanup; apply load_idle; auto.
    + exists (after_crash (always_save cfg) CClose 0 cleanup y). split.
      * apply P_crash_idle; auto.
      * left. unfold after_crash. simpl. rewrite <- F. destruct cleanup; apply load_idle; auto.
Qed.

End Refine.

Lemma areach_reachable : forall cfg u del d0 x, areach cfg true u del d0 x ->
  exists y, reachable (always_save cfg) u d0 y /\ rel cfg u x y.
Proof.
  intros cfg u del d0 x R. apply areach_rel with (del := del) (d0 := d0); auto.
  - apply R_init.
  - intros. apply R_call; auto. intro Hu. simpl. rewrite H1 by auto. discriminate.
  - intros. apply R_call; simpl; auto. right. eexists. reflexivity.
  - intros. apply R_call; simpl; auto.
  - intros. apply R_crash; auto. intro Hu. simpl. rewrite H1 by auto. discriminate.
  - intros. apply R_crash; simpl; auto.
Qed.

Lemma areach_training : forall cfg d0 x, areach cfg true true false d0 x ->
  exists y, training (always_save cfg) d0 y /\ rel cfg true x y.
Proof.
  intros cfg d0 x R. apply areach_rel with (del := false) (d0 := d0); auto.
  - apply T_init.
  - intros. apply T_call; auto; [|discriminate]. simpl. rewrite H1 by auto. discriminate.
  - intros. apply T_call; simpl; auto; [|discriminate]. right. eexists. reflexivity.
  - intros. discriminate.
  - intros. apply T_crash; auto; [|discriminate]. simpl. rewrite H1 by auto. discriminate.
  - intros. apply T_crash; simpl; auto. discriminate.
Qed.

(** ** Consequences *)

Lemma rel_quiet : forall cfg u x y, rel cfg u x y -> quiet x -> a_fs x = fst y /\ a_cache x = cache (snd y).
Proof.
  intros cfg u x y [(FI & TH & EX & JB & CA & US)|(a & rm & pc & FE & _)] [[NF _] EU].
  - rewrite EU in US. auto.
  - destruct (NF _ _ _ FE).
Qed.

Lemma async_refines : forall cfg u del d0 x, areach cfg true u del d0 x -> quiet x ->
  exists m, reachable (always_save cfg) u d0 (a_fs x, m) /\ cache m = a_cache x.
Proof.
  intros cfg u del d0 x R Q. destruct (areach_reachable _ _ _ _ _ R) as ([d m] & Ry & Rel).
  destruct (rel_quiet _ _ _ _ Rel Q) as [E1 E2]. simpl in *. subst. eauto.
Qed.

Lemma async_list_is_disk : forall cfg u del d0 x, wf_fs d0 -> areach cfg true u del d0 x -> quiet x ->
  Permutation (map step (a_cache x)) (committed_steps (a_fs x)) /\ NoDup (map step (a_cache x)).
Proof.
  intros cfg u del d0 x W R Q. destruct (async_refines _ _ _ _ _ R Q) as (m & Ry & <-).
  apply (steps_are_committed _ _ _ _ W Ry).
Qed.

(** Every directory state of an asynchronous run is a crash point of a
    synchronous one. *)
Lemma async_crash_points : forall cfg u del d0 x, areach cfg true u del d0 x ->
  exists y c k, reachable (always_save cfg) u d0 y /\ nonneg_call c /\ (u = true -> ~ forced c) /\
    a_fs x = crash_point (always_save cfg) c y k.
Proof.
  intros cfg u del d0 x R. destruct (areach_reachable _ _ _ _ _ R) as (y & Ry & Rel). exists y.
  destruct (rel_crash_point _ _ _ _ Rel) as [(a & k & H0 & HU & _ & F)|F].
  - exists (CSave (wok a)), k. repeat split; auto. intro Hu. simpl. rewrite (HU Hu). discriminate.
  - exists CClose, 0%nat. repeat split; simpl; auto.
Qed.

Lemma async_newest_whole : forall cfg o n d0 x, wf_fs d0 -> areach cfg true true false d0 x ->
  o_preserve cfg = default_preserve o -> p_best o = false -> p_keep_seconds o = None ->
  p_max_to_keep o = Some n -> 1 <= n -> (forall p, p_keep_period o = Some p -> p <> 0) ->
  newest_whole d0 -> newest_whole (a_fs x).
Proof.
  intros cfg o n d0 x W R HP HB HS HM Hn HK N0. destruct (areach_training _ _ _ R) as (y & T & Rel).
  assert (HP' : o_preserve (always_save cfg) = default_preserve o) by exact HP.
  destruct (training_newest_whole _ o n d0 y W T HP' HB HS HM Hn HK N0) as [NW _].
  destruct (rel_crash_point _ _ _ _ Rel) as [(a & k & H0 & HU & _ & F)|F]; rewrite F; auto.
  eapply save_newest_whole; eauto. apply training_reachable; auto.
Qed.

(** ** One asynchronous save, waited for, is one synchronous save *)

Lemma rel_idle_self : forall cfg u del d0 x, areach cfg true u del d0 x -> quiet x ->
  rel_idle cfg u x (a_fs x, mkMgr (a_cache x) false).
Proof.
  intros cfg u del d0 x R [[NF TH] EU]. destruct (areach_reachable _ _ _ _ _ R) as (y & _ & [I|(a & rm & pc & FE & _)]).
  - destruct I as (FI & _ & EX & JB & CA & US). unfold rel_idle. rewrite EU. simpl. spl; auto.
  - destruct (NF _ _ _ FE).
Qed.

Definition one_save (cfg : config) (u : bool) (a : save_args) (y : fs * mgr) (x : st) : Prop :=
  (rel_idle cfg u x y /\ (a_user x = UWaitSave a \/ a_user x = UJoinSave a \/ exists ops, a_user x = UWrite a ops)) \/
  (exists rm pc, rel_flight cfg u x y a rm pc /\ a_user x = UIdle) \/
  (rel_idle cfg u x y /\ a_user x = UIdle /\ In (sv_step a) (map step (cache (snd y)))  /\ allowed u cfg a (cache (snd y))) \/
  (rel_idle cfg u x (after_call (always_save cfg) (CSave (wok a)) y) /\ a_user x = UIdle).

Lemma commit_flight : forall cfg u x x' r y a rm pc, rel_flight cfg u x y a rm pc ->
  astep cfg LCommit x = Some (x', r) -> rel_flight cfg u x' y a rm pc /\ a_user x' = a_user x.
Proof.
  intros cfg u x x' r y a rm pc (FE & EX & AL & NI & ST & CA & PU & PC) H.
  assert (H' : match a_job x with
          | JRun s c => if existsb (Z.eqb s) (tmps (a_fs x))
              then Some (set_job JDone (set_fs (apply_op (OCommit s c) (a_fs x)) x), None) else None
          | _ => None end = Some (x', r)) by (simpl in H; destruct (a_user x); auto).
  destruct (a_job x) eqn:EJ; try discriminate.
  destruct pc as [p| |ss pend|e]; try (destruct PC as (_ & J & _); discriminate).
  destruct PC as (TH & [(J & NP & F)|(J & F)]); [|discriminate]. inv J.
  destruct (existsb _ _); [|discriminate]. inv H'. split; auto.
  unfold rel_flight; simpl. spl; auto. right. split; auto. rewrite write_split, exec_app, F. reflexivity.
Qed.

Lemma one_save_step : forall cfg u a y l x x' r, one_save cfg u a y x -> l = LUser \/ l = LCommit \/ l = LFin ->
  astep cfg l x = Some (x', r) -> smooth l x x' r -> one_save cfg u a y x'.
Proof.
  intros cfg u a y l x x' r H HL HS SM.
  destruct HL as [->|[->| ->]].
  - (* LUser *)
    assert (HS' : user_step cfg x = Some (x', r)) by (simpl in HS; destruct (a_user x); auto). clear HS.
    destruct H as [[I U]|[(rm & pc & F & U)|[(I & U & _)|(I & U)]]].
    + pose proof I as (FI & TH & EX & JB & CA & US). unfold user_step in HS'.
      assert (MW : manager_wait x = Some (x, None)).
      { unfold manager_wait. destruct FI as [->|(s & b & ->)]; auto. }
      destruct U as [U|[U|(ops & U)]]; rewrite U in *.
      * rewrite MW in HS'. simpl in HS'. destruct (existsb _ _) eqn:EB; inv HS'.
        -- right. right. left. apply existsb_In in EB. rewrite <- CA. destruct US.
           split; [|split; auto]. unfold rel_idle; simpl; spl; auto.
        -- left. split; [|simpl; auto]. apply existsb_notIn in EB. destruct US.
           unfold rel_idle; simpl; spl; auto.
      * assert (H' : Some (set_user (UWrite a (blocking_ops (sv_step a) (a_fs x))) (set_exc None (set_thread false x)), None) = Some (x', r)).
        { rewrite EX in HS'. destruct (a_job x) eqn:EJ; auto. destruct (JB s c); auto. }
        inv H'. left. split; [|simpl; eauto]. destruct US as (F & AL & NI). unfold rel_idle; simpl; spl; auto.
        exists []. rewrite F. auto.
      * pose proof (user_step_idle cfg u x x' r y I) as US'. unfold user_step in US'. rewrite U in US'.
        specialize (US' HS' SM). destruct ops as [|o ops].
        -- destruct (launch cfg a x) as [x1 r1] eqn:EL. inv HS'. unfold launch in EL.
           destruct (steps_to_remove cfg _) as [rm|e] eqn:ER; inv EL.
           ++ right. left. destruct US' as [(FI' & _)|(a' & rm' & pc' & F')].
              ** simpl in FI'. destruct FI' as [E|(s & b & E)]; discriminate.
              ** exists rm, (PWait WTest). split; auto. destruct US as (AL & NI & done & E & F).
                 rewrite app_nil_r in E. subst done.
                 unfold rel_flight; simpl. rewrite <- CA. spl; auto; [exact Logic.I|]. left. spl; auto. discriminate.
           ++ exfalso. simpl in SM. eapply SM; eauto.
        -- inv HS'. left. destruct US as (AL & NI & done & E & F). split; [|simpl; eauto].
           unfold rel_idle; simpl; spl; auto. exists (done ++ [o]). rewrite <- app_assoc. split; auto.
           rewrite exec_app, F. auto.
    + unfold user_step in HS'. rewrite U in HS'. discriminate.
    + unfold user_step in HS'. rewrite U in HS'. discriminate.
    + unfold user_step in HS'. rewrite U in HS'. discriminate.
  - assert (NR : forall y, rel_idle cfg u x y -> False).
    { intros y' (FI & TH & EX & JB & _). assert (HS' : match a_job x with
          | JRun s c => if existsb (Z.eqb s) (tmps (a_fs x))
              then Some (set_job JDone (set_fs (apply_op (OCommit s c) (a_fs x)) x), None) else None
          | _ => None end = Some (x', r)) by (simpl in HS; destruct (a_user x); auto).
      destruct (a_job x) eqn:EJ; try discriminate. destruct (JB s c); auto. }
    destruct H as [[I U]|[(rm & pc & F & U)|[(I & U & _)|(I & U)]]]; try (destruct (NR _ I)).
    right. left. destruct (commit_flight _ _ _ _ _ _ _ _ _ F HS) as [F' U']. exists rm, pc. split; auto. congruence.
  - assert (HS' : match fin_step cfg x with Some x' => Some (x', None) | None => None end = Some (x', r))
      by (simpl in HS; destruct (a_user x); auto).
    destruct (fin_step cfg x) as [x1|] eqn:EF; [|discriminate]. inv HS'.
    assert (NR : forall y, rel_idle cfg u x y -> False).
    { intros y' (FI & _). unfold fin_step in EF. destruct FI as [E|(s & b & E)]; rewrite E in EF; discriminate. }
    destruct H as [[I U]|[(rm & pc & F & U)|[(I & U & _)|(I & U)]]]; try (destruct (NR _ I)).
    assert (U' : a_user x' = UIdle).
    { rewrite <- U. unfold fin_step in EF. destruct F as (FE & _). rewrite FE in EF.
      destruct pc as [p| |ss pend|e].
      - destruct (wait_step p x) as [[x2 [w'|[e|]]]|] eqn:EW; inv EF; simpl;
        unfold wait_step in EW; destruct p; try (destruct (a_thread x)); try destruct (a_job x); inv EW; auto.
      - inv EF. auto.
      - destruct ss; destruct pend; try (destruct (delete_ops _ _ _) as [? [?|]]); inv EF; auto.
      - inv EF. auto. }
    destruct (fin_step_flight _ _ _ _ _ _ _ _ F EF SM) as [(pc' & F')|(-> & SD & I)].
    + right. left. eauto.
    + right. right. right. auto.
Qed.

Lemma async_save_is_sync : forall cfg u del d0 x a x1 x2, areach cfg true u del d0 x -> quiet x ->
  0 <= sv_step a -> (u = true -> sv_force a = false) ->
  astep cfg (LSave a) x = Some (x1, None) -> threads_run cfg x1 x2 -> quiet x2 ->
  let y := after_call (always_save cfg) (CSave (wok a)) (a_fs x, mkMgr (a_cache x) false) in
  a_fs x2 = fst y /\ a_cache x2 = cache (snd y).
Proof.
  intros cfg u del d0 x a x1 x2 R Q H0 HU HS T Q2 y.
  pose proof (rel_idle_self _ _ _ _ _ R Q) as I. destruct Q as [SE EU].
  assert (O : one_save cfg u a (a_fs x, mkMgr (a_cache x) false) x1).
  { left. simpl in HS. rewrite EU in HS.
    assert (G : sv_force a = true \/ should_save cfg (as_mgr x) (sv_now a) (sv_preempt a) (sv_step a) = Ok true).
    { destruct (sv_force a); auto. destruct (should_save _ _ _ _ _) as [[|]|]; auto; inv HS. }
    assert (X : x1 = set_user (UWaitSave a) x).
    { destruct (sv_force a); [congruence|]. destruct (should_save _ _ _ _ _) as [[|]|]; congruence. }
    subst x1. split; [|simpl; auto]. destruct I as (FI & TH & EX & JB & CA & US). rewrite EU in US.
    unfold rel_idle; simpl; spl; auto. eapply call_save_allowed; eauto. }
  clear HS R I. induction T as [x0|l x0 y0 z0 r0 HL HA SM T IH].
  - destruct Q2 as [[NF _] EU2]. destruct O as [[I U]|[(rm & pc & F & U)|[(I & U & HI & AL)|(I & U)]]].
    + rewrite EU2 in U. destruct U as [U|[U|(ops & U)]]; discriminate.
    + destruct F as (FE & _). destruct (NF _ _ _ FE).
    + destruct I as (FI & TH & EX & JB & CA & US). rewrite U in US. subst y. unfold after_call.
      simpl run_call. rewrite (allowed_save cfg u) by auto. unfold do_save. simpl.
      rewrite (proj2 (existsb_In _ _)) by auto. simpl. auto.
    + destruct I as (FI & TH & EX & JB & CA & US). rewrite U in US. auto.
  - apply IH; auto. eapply one_save_step; eauto.
Qed.

(** ** Careful runs with failures *)

Definition cw (d : fs) (s : Z) : Prop := exists c, intact d s c.

Definition user_free (x : st) : Prop :=
  match a_user x with UIdle | UWait | UWaitSave _ => True | _ => False end.

Definition job_ok (x : st) : Prop :=
  forall s c, a_job x = JRun s c -> a_thread x = true /\ c_whole c = true /\ a_exc x = None /\
    ~ In s (committed_steps (a_fs x)).

Definition K (x : st) : Prop :=
  job_ok x /\
  match a_fin x with
  | FRun s rm pc => user_free x /\
      match pc with
      | PWait p => a_thread x = match p with WCheck => false | _ => true end /\
          ((exists c, a_job x = JRun s c) \/ (a_job x = JDone /\ (a_exc x <> None \/ cw (a_fs x) s)))
      | PFinal => a_thread x = false /\ a_exc x = None /\ cw (a_fs x) s
      | PDelete ss pend => a_thread x = false /\ a_exc x = None /\ incl ss rm /\
          (forall o, In o pend -> In (op_step o) rm) /\ (In s rm \/ cw (a_fs x) s)
      | PFinally e => a_thread x = false /\ a_exc x = None /\ (e = None -> In s rm \/ cw (a_fs x) s)
      end
  | _ => (a_thread x = false -> a_exc x = None) /\
      match a_user x with
      | UWrite a ops => a_thread x = false /\ (forall o, In o ops -> op_step o = sv_step a) /\
          ~ In (sv_step a) (committed_steps (exec ops (a_fs x)))
      | URestore s w => a_thread x = false /\ (w = WTest \/ w = WCheck)
      | _ => True
      end
  end.

Lemma K_init : forall cfg d, K (ainit cfg d).
Proof. intros. split; simpl; auto. intros s c H. discriminate. Qed.

Lemma cw_other : forall o d s, op_step o <> s -> cw d s -> cw (apply_op o d) s.
Proof.
  intros o d s H (c & Hc & Hw). exists c. split; auto. apply apply_op_other; auto.
Qed.

Lemma cw_commit : forall s c d, c_whole c = true -> cw (apply_op (OCommit s c) d) s.
Proof. intros. exists c. split; auto. simpl. unfold dput. apply in_app_iff. simpl. auto. Qed.

Lemma blocking_removes : forall s d, ~ In s (committed_steps (exec (blocking_ops s d) d)).
Proof.
  intros s d. unfold blocking_ops, committed_steps. destruct (dget s (committed d)) eqn:E; simpl.
  - rewrite dremove_steps. rewrite filter_In. rewrite Z.eqb_refl. simpl. intros [_ H]; discriminate.
  - apply dget_None. auto.
Qed.

Lemma blocking_touch : forall s d o, In o (blocking_ops s d) -> op_step o = s.
Proof. intros s d o. unfold blocking_ops. destruct (dget s (committed d)); simpl; intuition (subst; auto). Qed.

(** What a step can do to the finalize thread's precondition. *)
Lemma K_fin : forall cfg x x', K x -> fin_step cfg x = Some x' -> K x'.
Proof.
  intros cfg x x' [JO H] HF. unfold fin_step in HF. destruct (a_fin x) as [|s rm pc|] eqn:EF; try discriminate.
  destruct H as [UF H]. unfold user_free in UF. destruct pc as [p| |ss pend|e].
  - destruct H as [TH H]. destruct p; simpl in HF; try rewrite TH in HF.
    + inv HF. split; [exact JO|]. simpl. split; auto.
    + inv HF. split; [exact JO|]. simpl. split; auto.
    + destruct H as [[c J]|[J H]]; rewrite J in HF; [discriminate|]. inv HF. split.
      * intros s0 c0 E. simpl in *. rewrite J in E. discriminate.
      * simpl. split; auto.
    + destruct H as [[c J]|[J H]].
      * destruct (JO _ _ J) as (X & _). congruence.
      * assert (JO' : forall f, job_ok (set_fin f (set_exc None x))).
        { intros f s0 c0 E. simpl in E. rewrite J in E. discriminate. }
        destruct (a_exc x) as [e|] eqn:EE; inv HF; (split; [apply JO'|]); simpl; (split; [exact UF|]); spl; auto.
        -- intro; discriminate.
        -- destruct H; congruence.
  - inv HF. destruct H as (TH & EX & C). split.
    + intros s0 c0 E. simpl in *. destruct (JO _ _ E) as (X & _). congruence.
    + simpl. split; auto. spl; auto; [apply incl_refl|]. intros o [].
  - destruct H as (TH & EX & IN & TO & C). destruct pend as [|o pend].
    + destruct ss as [|t ss].
      * inv HF. split; [exact JO|]. simpl. split; auto.
      * destruct (delete_ops (o_mode cfg) t (a_fs x)) as [ops [e|]] eqn:ED; inv HF; (split; [exact JO|]); simpl;
        (split; [auto|]); spl; auto; try discriminate.
        -- intros z Hz. apply IN. simpl. auto.
        -- intros o Ho. rewrite (delete_ops_touch _ _ _ _ _ ED o Ho). apply IN. simpl. auto.
    + assert (H' : set_fin (FRun s rm (PDelete ss pend)) (set_fs (apply_op o (a_fs x)) x) = x')
        by (destruct ss; congruence). clear HF. subst x'. split.
      * intros s0 c0 E. simpl in *. destruct (JO _ _ E) as (X & _). congruence.
      * simpl. split; auto. spl; auto; [intros; apply TO; simpl; auto|].
        destruct C as [C|C]; auto. destruct (in_dec Z.eq_dec s rm); auto. right. apply cw_other; auto.
        intro E. apply n. rewrite <- E. apply TO. simpl. auto.
  - inv HF. destruct H as (TH & EX & C). split; [exact JO|]. simpl. split; auto.
    destruct (a_user x); auto; contradiction.
Qed.

Lemma K_user : forall cfg x x' r, K x -> user_step cfg x = Some (x', r) -> K x'.
Proof.
  intros cfg x x' r [JO H] HS. unfold user_step in HS.
  assert (NF : forall s rm pc, a_user x <> UIdle -> a_fin x = FRun s rm pc -> False).
  { intros s rm pc NU FE. rewrite FE in H. destruct H as [UF _]. unfold user_free in UF.
    assert (MW : manager_wait x = None) by (unfold manager_wait; rewrite FE; auto). rewrite MW in HS.
    destruct (a_user x); try discriminate; try contradiction. }
  assert (H' : a_user x <> UIdle -> (a_thread x = false -> a_exc x = None) /\
      match a_user x with
      | UWrite a ops => a_thread x = false /\ (forall o, In o ops -> op_step o = sv_step a) /\
          ~ In (sv_step a) (committed_steps (exec ops (a_fs x)))
      | URestore s w => a_thread x = false /\ (w = WTest \/ w = WCheck)
      | _ => True
      end).
  { intro NU. destruct (a_fin x) eqn:EF; auto. exfalso. eapply NF; eauto. }
  assert (FF : forall f, (forall s rm pc, f <> FRun s rm pc) ->
     forall y, a_fin y = f -> job_ok y -> (a_thread y = false -> a_exc y = None) ->
     match a_user y with
      | UWrite a ops => a_thread y = false /\ (forall o, In o ops -> op_step o = sv_step a) /\
          ~ In (sv_step a) (committed_steps (exec ops (a_fs y)))
      | URestore s w => a_thread y = false /\ (w = WTest \/ w = WCheck)
      | _ => True
      end -> K y).
  { intros f NR y E J T U. split; auto. rewrite E. destruct f; auto. destruct (NR s rm pc); auto. }
  assert (MW : a_user x <> UIdle -> exists y e, manager_wait x = Some (y, e) /\ a_fs y = a_fs x /\ a_job y = a_job x /\
     a_thread y = a_thread x /\ a_exc y = a_exc x /\ a_user y = a_user x /\ a_saving y = a_saving x /\ (forall s rm pc, a_fin y <> FRun s rm pc)).
  { intro NU. unfold manager_wait. destruct (a_fin x) eqn:EF.
    - exists x, None. rewrite EF. spl; auto. discriminate.
    - exfalso. eapply NF; eauto.
    - destruct e as [e|]; [destruct should_raise|]; eexists; eexists; (split; [reflexivity|]); simpl; rewrite ?EF; spl; auto; discriminate. }
  assert (JO' : forall y, a_fs y = a_fs x -> a_job y = a_job x -> a_thread y = a_thread x -> a_exc y = a_exc x -> job_ok y).
  { intros y E1 E2 E3 E4 s c E. rewrite E1, E3, E4. rewrite E2 in E. apply JO. auto. }
  destruct (a_user x) eqn:EU; try discriminate; specialize (H' ltac:(discriminate)); specialize (MW ltac:(discriminate));
    destruct H' as [TE H'].
  - destruct MW as (y & e & EM & E1 & E2 & E3 & E4 & E5 & _ & E6). rewrite EM in HS. destruct e.
    + inv HS. eapply FF; [exact E6|reflexivity|apply JO'; simpl; auto|simpl; rewrite E3, E4; exact TE|simpl; auto].
    + simpl in HS. destruct (existsb _ _); inv HS;
        (eapply FF; [exact E6|reflexivity|apply JO'; simpl; auto|simpl; rewrite E3, E4; exact TE|simpl; auto]).
  - destruct MW as (y & e & EM & E1 & E2 & E3 & E4 & E5 & _ & E6). rewrite EM in HS. inv HS.
    eapply FF; [exact E6|reflexivity|apply JO'; simpl; auto|simpl; rewrite E3, E4; exact TE|simpl; auto].
  - assert (NFR : forall s rm pc, a_fin x <> FRun s rm pc) by (intros s rm pc E; eapply NF; eauto; discriminate).
    assert (NJ : forall s c, a_job x <> JRun s c).
    { intros s c E. rewrite E in HS. discriminate. }
    assert (HS' : match a_exc x with
          | Some e => Some (set_user UIdle (set_exc None (set_thread false x)), Some (Err e))
          | None => Some (set_user (UWrite a (blocking_ops (sv_step a) (a_fs x))) (set_exc None (set_thread false x)), None)
          end = Some (x', r)) by (destruct (a_job x); auto; discriminate). clear HS.
    destruct (a_exc x); inv HS'; (eapply FF; [exact NFR|reflexivity|intros s' c' E; destruct (NJ s' c'); exact E|simpl; auto|simpl; auto]).
    spl; auto; [apply blocking_touch|apply blocking_removes].
  - assert (NFR : forall s rm pc, a_fin x <> FRun s rm pc) by (intros s rm pc E; eapply NF; eauto; discriminate).
    destruct H' as (TH & TO & NC). destruct ops as [|o ops].
    + destruct (launch cfg a x) as [x1 r1] eqn:EL. inv HS. unfold launch in EL.
      destruct (steps_to_remove cfg _) as [rm|e] eqn:ER; inv EL.
      * split.
        -- intros s c E. simpl in *. inv E. spl; auto.
        -- simpl. split; [exact Logic.I|]. split; auto. left. eauto.
      * eapply FF; [exact NFR|reflexivity| |simpl; discriminate|simpl; auto].
        intros s c E. simpl in *. inv E. spl; auto.
    + inv HS. eapply FF; [exact NFR|reflexivity| |simpl; auto|simpl].
      * intros s c E. simpl in *. destruct (JO _ _ E) as (X & _). congruence.
      * spl; auto. intros; apply TO; simpl; auto.
  - assert (NFR : forall s rm pc, a_fin x <> FRun s rm pc) by (intros s' rm pc E; eapply NF; eauto; discriminate).
    destruct H' as (TH & [->| ->]); simpl in HS.
    + rewrite TH in HS. inv HS. eapply FF; [exact NFR|reflexivity|exact JO|simpl; auto|simpl; auto].
    + rewrite (TE TH) in HS. inv HS. eapply FF; [exact NFR|reflexivity| |simpl; auto|simpl; auto].
      intros s' c' E. simpl in *. destruct (JO _ _ E) as (X & _). congruence.
Qed.

Lemma K_job : forall x s c e, K x -> a_job x = JRun s c ->
  K (set_job JDone (set_exc e (set_fs (apply_op (OCommit s c) (a_fs x)) x))) /\
  (forall e', K (set_job JDone (set_exc (Some e') x))).
Proof.
  intros x s c e [JO H] J. destruct (JO _ _ J) as (TH & CWH & EX & NC). split.
  - split; [intros s' c' E; discriminate|]. simpl. destruct (a_fin x) as [|s0 rm pc|].
    + split; [congruence|]. destruct H as [_ H]. destruct (a_user x); auto; destruct H; congruence.
    + destruct H as [UF H]. split; [exact UF|]. destruct pc as [p| |ss pend|e0]; try (destruct H as (X & _); congruence).
      destruct H as (T & [[c0 J0]|[J0 _]]); [|congruence]. rewrite J in J0. inv J0. split; auto. right. split; auto.
      right. apply cw_commit. auto.
    + split; [congruence|]. destruct H as [_ H]. destruct (a_user x); auto; destruct H; congruence.
  - intro e'. split; [intros s' c' E; discriminate|]. simpl. destruct (a_fin x) as [|s0 rm pc|].
    + split; [congruence|]. destruct H as [_ H]. destruct (a_user x); auto.
    + destruct H as [UF H]. split; [exact UF|]. destruct pc as [p| |ss pend|e0]; try (destruct H as (X & _); congruence).
      destruct H as (T & [[c0 J0]|[J0 _]]); [|congruence]. split; auto. right. split; auto. left. discriminate.
    + split; [congruence|]. destruct H as [_ H]. destruct (a_user x); auto.
Qed.

Lemma settled_idle : forall x, K x -> settled x -> (a_exc x = None) /\ (forall s c, a_job x <> JRun s c).
Proof.
  intros x [JO H] [NF TH]. split.
  - destruct (a_fin x) eqn:E; try apply H; auto. destruct (NF s rm pc); auto.
  - intros s c J. destruct (JO _ _ J) as (X & _). congruence.
Qed.

Lemma K_step : forall cfg l x x' r, K x -> astep cfg l x = Some (x', r) -> careful l x -> K x'.
Proof.
  intros cfg l x x' r HK H CF.
  assert (UF : forall u', K x -> a_user x = UIdle -> match u' with UWaitSave _ | UWait => True | _ => False end -> K (set_user u' x)).
  { intros u' [JO H0] EU HU. split; [exact JO|]. simpl. destruct (a_fin x).
    - split; [apply H0|]. destruct u'; auto; contradiction.
    - destruct H0 as [_ H0]. split; auto. unfold user_free. simpl. destruct u'; auto.
    - split; [apply H0|]. destruct u'; auto; contradiction. }
  assert (SE : forall y, settled x -> a_user x = UIdle -> a_fin y = a_fin x -> a_thread y = false -> a_exc y = None ->
     a_job y = a_job x -> match a_user y with UIdle => True | URestore _ w => w = WTest | _ => False end -> K y).
  { intros y S EU E1 E2 E3 E4 E5. destruct (settled_idle _ HK S) as [_ NJ]. split.
    - intros s c J. rewrite E4 in J. destruct (NJ _ _ J).
    - rewrite E1. destruct S as [NF _]. destruct (a_fin x) eqn:EF.
      + split; auto. destruct (a_user y); auto; contradiction.
      + destruct (NF s rm pc); auto.
      + split; auto. destruct (a_user y); auto; contradiction. }
  destruct l.
  - simpl in H. destruct (a_user x) eqn:EU; try discriminate.
    destruct (sv_force a); [inv H; apply UF; simpl; auto|].
    destruct (should_save _ _ _ _ _) as [[|]|]; inv H; auto; apply UF; simpl; auto.
  - simpl in H. destruct (a_user x) eqn:EU; try discriminate. inv H. apply UF; simpl; auto.
  - simpl in H, CF. destruct (a_user x) eqn:EU; try discriminate. inv H. destruct (settled_idle _ HK CF).
    apply SE; simpl; auto. apply CF.
  - simpl in H, CF. destruct (a_user x) eqn:EU; try discriminate. inv H. destruct (settled_idle _ HK CF).
    apply SE; simpl; auto; [apply CF|]. rewrite EU. auto.
  - simpl in H, CF. destruct (a_user x) eqn:EU; try discriminate. inv H. destruct (settled_idle _ HK CF).
    apply SE; simpl; auto; [apply CF|]. rewrite EU. auto.
  - simpl in H, CF. destruct (a_user x) eqn:EU; try discriminate. inv H. destruct (settled_idle _ HK CF).
    apply SE; simpl; auto; [apply CF|]. rewrite EU. auto.
  - assert (H' : user_step cfg x = Some (x', r)) by (simpl in H; destruct (a_user x); auto). eapply K_user; eauto.
  - simpl in H. destruct (a_user x) eqn:EU; try discriminate. inv H. destruct HK as [JO H0]. split; [exact JO|].
    simpl. destruct (a_fin x).
    + split; [apply H0|auto].
    + destruct H0 as [UF0 _]. unfold user_free in UF0. rewrite EU in UF0. destruct UF0.
    + split; [apply H0|auto].
  - assert (H' : match a_job x with
          | JRun s c => if existsb (Z.eqb s) (tmps (a_fs x))
              then Some (set_job JDone (set_fs (apply_op (OCommit s c) (a_fs x)) x), None) else None
          | _ => None end = Some (x', r)) by (simpl in H; destruct (a_user x); auto).
    destruct (a_job x) eqn:EJ; try discriminate. destruct (existsb _ _); [|discriminate]. inv H'.
    destruct (K_job x s c (a_exc x) HK EJ) as [X _]. exact X.
  - assert (H' : match a_job x with
          | JRun s c => Some (set_job JDone (set_exc (Some e) x), None)
          | _ => None end = Some (x', r)) by (simpl in H; destruct (a_user x); auto).
    destruct (a_job x) eqn:EJ; try discriminate. inv H'.
    destruct (K_job x s c (a_exc x) HK EJ) as [_ X]. apply X.
  - assert (H' : match a_job x with
          | JRun s c => if existsb (Z.eqb s) (tmps (a_fs x))
              then Some (set_job JDone (set_exc (Some e) (set_fs (apply_op (OCommit s c) (a_fs x)) x)), None) else None
          | _ => None end = Some (x', r)) by (simpl in H; destruct (a_user x); auto).
    destruct (a_job x) eqn:EJ; try discriminate. destruct (existsb _ _); [|discriminate]. inv H'.
    destruct (K_job x s c (Some e) HK EJ) as [X _]. exact X.
  - assert (H' : match fin_step cfg x with Some x' => Some (x', None) | None => None end = Some (x', r))
      by (simpl in H; destruct (a_user x); auto).
    destruct (fin_step cfg x) as [x1|] eqn:EF; [|discriminate]. inv H'. eapply K_fin; eauto.
Qed.

Lemma areach_K : forall cfg ok u del d0 x, areach cfg ok u del d0 x -> K x.
Proof.
  intros cfg ok u del d0 x R. induction R; [apply K_init|eapply K_step; eauto|apply K_init].
Qed.

Lemma gone_touches : forall o d t c, In (t, c) (committed d) -> ~ In (t, c) (committed (apply_op o d)) -> op_step o = t.
Proof.
  intros o d t c H N. destruct (Z.eq_dec (op_step o) t) as [E|E]; auto. destruct N. apply apply_op_other; auto.
Qed.

Lemma careful_loss : forall cfg ok u del d0 l x x' r t c, areach cfg ok u del d0 x ->
  astep cfg l x = Some (x', r) -> careful l x ->
  In (t, c) (committed (a_fs x)) -> ~ In (t, c) (committed (a_fs x')) ->
  l = LDelete t \/
  (exists a ops, a_user x = UWrite a ops /\ sv_step a = t) \/
  (exists s rm pc, a_fin x = FRun s rm pc /\ In t rm /\ (In s rm \/ exists c', intact (a_fs x) s c')).
Proof.
  intros cfg ok u del d0 l x x' r t c R H CF HC NC. pose proof (areach_K _ _ _ _ _ _ R) as [JO HK].
  assert (SAME : a_fs x' = a_fs x -> False) by (intro E; rewrite E in NC; auto).
  destruct l.
  - simpl in H. destruct (a_user x); try discriminate. destruct (sv_force a); [inv H; destruct (SAME eq_refl)|].
    destruct (should_save _ _ _ _ _) as [[|]|]; inv H; destruct (SAME eq_refl).
  - simpl in H. destruct (a_user x); inv H; destruct (SAME eq_refl).
  - simpl in H. destruct (a_user x); inv H; destruct (SAME eq_refl).
  - simpl in H. destruct (a_user x); inv H; destruct (SAME eq_refl).
  - simpl in H. destruct (a_user x); inv H; destruct (SAME eq_refl).
  - simpl in H. destruct (a_user x); try discriminate. inv H. left. f_equal. simpl in NC.
    destruct (Z.eq_dec s t); auto. exfalso. apply NC.
    apply (exec_other (out_ops (delete cfg s (a_fs x) (as_mgr x)))); auto.
    intros o Ho E. apply n. rewrite <- E. unfold delete in Ho.
    destruct (o_read_only cfg); [destruct Ho|]. destruct (existsb _ _); [|destruct Ho].
    destruct (delete_ops (o_mode cfg) s (a_fs x)) as [ops e] eqn:ED. destruct e; simpl in Ho; symmetry; eapply delete_ops_touch; eauto.
  - assert (H' : user_step cfg x = Some (x', r)) by (simpl in H; destruct (a_user x); auto). clear H.
    right. left. unfold user_step in H'. destruct (a_user x) eqn:EU; try discriminate.
    + exfalso. apply SAME. unfold manager_wait in H'. destruct (a_fin x) as [| |? [|] [|]]; try discriminate; simpl in H';
      try (destruct (existsb _ _)); inv H'; auto.
    + exfalso. apply SAME. unfold manager_wait in H'. destruct (a_fin x) as [| |? [|] [|]]; try discriminate; inv H'; auto.
    + exfalso. apply SAME. destruct (a_job x); try discriminate; destruct (a_exc x); inv H'; auto.
    + destruct ops as [|o ops].
      * exfalso. apply SAME. unfold launch in H'. destruct (steps_to_remove _ _); inv H'; auto.
      * inv H'. exists a, (o :: ops). split; auto. simpl in NC. apply gone_touches in NC; auto. rewrite <- NC.
        destruct (a_fin x); simpl in HK; rewrite ?EU in HK.
        -- symmetry. apply HK. simpl. auto.
        -- destruct HK as [UF _]. unfold user_free in UF. rewrite EU in UF. destruct UF.
        -- symmetry. apply HK. simpl. auto.
    + exfalso. apply SAME. destruct w; simpl in H'; try destruct (a_thread x); try destruct (a_job x); try destruct (a_exc x); inv H'; auto.
  - simpl in H. destruct (a_user x); inv H; destruct (SAME eq_refl).
  - assert (H' : match a_job x with
          | JRun s c => if existsb (Z.eqb s) (tmps (a_fs x))
              then Some (set_job JDone (set_fs (apply_op (OCommit s c) (a_fs x)) x), None) else None
          | _ => None end = Some (x', r)) by (simpl in H; destruct (a_user x); auto).
    destruct (a_job x) eqn:EJ; try discriminate. destruct (existsb _ _); [|discriminate]. inv H'.
    exfalso. apply (gone_touches (OCommit s c0) (a_fs x)) in NC; auto. simpl in NC. subst s.
    destruct (JO _ _ EJ) as (_ & _ & _ & N). apply N. apply in_map_iff. exists (t, c). auto.
  - assert (H' : match a_job x with
          | JRun s c => Some (set_job JDone (set_exc (Some e) x), None)
          | _ => None end = Some (x', r)) by (simpl in H; destruct (a_user x); auto).
    destruct (a_job x) eqn:EJ; try discriminate. inv H'. destruct (SAME eq_refl).
  - assert (H' : match a_job x with
          | JRun s c => if existsb (Z.eqb s) (tmps (a_fs x))
              then Some (set_job JDone (set_exc (Some e) (set_fs (apply_op (OCommit s c) (a_fs x)) x)), None) else None
          | _ => None end = Some (x', r)) by (simpl in H; destruct (a_user x); auto).
    destruct (a_job x) eqn:EJ; try discriminate. destruct (existsb _ _); [|discriminate]. inv H'.
    exfalso. apply (gone_touches (OCommit s c0) (a_fs x)) in NC; auto. simpl in NC. subst s.
    destruct (JO _ _ EJ) as (_ & _ & _ & N). apply N. apply in_map_iff. exists (t, c). auto.
  - assert (H' : match fin_step cfg x with Some x' => Some (x', None) | None => None end = Some (x', r))
      by (simpl in H; destruct (a_user x); auto).
    destruct (fin_step cfg x) as [x1|] eqn:EF; [|discriminate]. inv H'. right. right.
    unfold fin_step in EF. destruct (a_fin x) as [|s rm pc|] eqn:FE; try discriminate.
    destruct HK as [UF HK]. exists s, rm, pc. split; auto. destruct pc as [p| |ss pend|e].
    + exfalso. apply SAME. destruct p; simpl in EF; try destruct (a_thread x); try destruct (a_job x); try destruct (a_exc x); inv EF; auto.
    + exfalso. apply SAME. inv EF. auto.
    + destruct HK as (_ & _ & _ & TO & C). destruct pend as [|o pend].
      * exfalso. apply SAME. destruct ss; [|destruct (delete_ops _ _ _) as [? [|]]]; inv EF; auto.
      * assert (E : set_fin (FRun s rm (PDelete ss pend)) (set_fs (apply_op o (a_fs x)) x) = x') by (destruct ss; congruence).
        subst x'. simpl in NC. apply gone_touches in NC; auto. split; [rewrite <- NC; apply TO; simpl; auto|exact C].
    + exfalso. apply SAME. inv EF. auto.
Qed.

(** A failed background save. *)
Definition doomed (s : Z) (rm : list Z) (e : err) (d : fs) (x : st) : Prop :=
  a_fs x = d /\ a_job x = JDone /\
  ((exists p, a_fin x = FRun s rm (PWait p) /\ a_exc x = Some e) \/
   a_fin x = FRun s rm (PFinally (Some e)) \/ a_fin x = FEnd s (Some e) true).

Lemma doomed_step : forall cfg s rm e d l x x' r s' rm' pc', K x -> doomed s rm e d x -> a_fin x = FRun s' rm' pc' ->
  astep cfg l x = Some (x', r) -> careful l x -> doomed s rm e d x'.
Proof.
  intros cfg s rm e d l x x' r s' rm' pc' [JO HK] (ED & EJ & F) FE H CF.
  rewrite FE in HK. destruct HK as [UF HK]. unfold user_free in UF.
  assert (NS : settled x -> False) by (intros [NF _]; eapply NF; eauto).
  assert (DF : forall y, a_fs y = a_fs x -> a_job y = a_job x -> a_fin y = a_fin x -> a_exc y = a_exc x -> doomed s rm e d y).
  { intros y E1 E2 E3 E4. unfold doomed. rewrite E1, E2, E3, E4. auto. }
  destruct l.
  - simpl in H. destruct (a_user x); try discriminate. destruct (sv_force a); [inv H; apply DF; auto|].
    destruct (should_save _ _ _ _ _) as [[|]|]; inv H; apply DF; auto.
  - simpl in H. destruct (a_user x); inv H; apply DF; auto.
  - destruct (NS CF).
  - destruct (NS CF).
  - destruct (NS CF).
  - destruct (NS CF).
  - assert (H' : user_step cfg x = Some (x', r)) by (simpl in H; destruct (a_user x); auto). exfalso.
    unfold user_step, manager_wait in H'. rewrite FE in H'. destruct (a_user x); try discriminate; contradiction.
  - simpl in H. destruct (a_user x); inv H; contradiction.
  - exfalso. simpl in H. rewrite EJ in H. destruct (a_user x); discriminate.
  - exfalso. simpl in H. rewrite EJ in H. destruct (a_user x); discriminate.
  - exfalso. simpl in H. rewrite EJ in H. destruct (a_user x); discriminate.
  - assert (H' : match fin_step cfg x with Some x' => Some (x', None) | None => None end = Some (x', r))
      by (simpl in H; destruct (a_user x); auto).
    destruct (fin_step cfg x) as [x1|] eqn:EF; [|discriminate]. inv H'. unfold fin_step in EF.
    destruct F as [(p & F & EX)|[F|F]]; rewrite F in *; [| |discriminate].
    + inv FE. destruct HK as [TH _]. destruct p; simpl in EF; try rewrite TH in EF; try rewrite EJ in EF; try rewrite EX in EF;
      inv EF; unfold doomed; simpl; spl; auto; eauto 6.
    + inv EF. unfold doomed; simpl; auto.
Qed.

Lemma failed_save : forall cfg ok u del d0 x s rm p e y, areach cfg ok u del d0 x ->
  a_fin x = FRun s rm (PWait p) -> a_exc x = Some e -> during_save cfg x y ->
  a_fs y = a_fs x /\ ((forall s' rm' pc', a_fin y <> FRun s' rm' pc') -> a_fin y = FEnd s (Some e) true).
Proof.
  intros cfg ok u del d0 x s rm p e y R FE EX DS. pose proof (areach_K _ _ _ _ _ _ R) as HK.
  assert (D : doomed s rm e (a_fs x) x).
  { unfold doomed. split; auto. split; [|left; eauto]. destruct HK as [JO HK]. rewrite FE in HK.
    destruct HK as (_ & _ & [[c J]|[J _]]); auto. destruct (JO _ _ J) as (_ & _ & X & _). congruence. }
  assert (G : exists d, d = a_fs x) by eauto. destruct G as [d G]. rewrite <- G in *. clear FE EX R G.
  induction DS as [x0|l x0 y0 z0 r s0 rm0 pc0 F0 HA CF DS IH].
  - destruct D as (E & J & F). split; auto. intro NF. destruct F as [(q & F & _)|[F|F]]; auto; exfalso; eapply NF; eauto.
  - apply IH; [eapply K_step; eauto|eapply doomed_step; eauto].
Qed.

Lemma report : forall cfg x s e, a_fin x = FEnd s (Some e) true -> a_user x = UIdle ->
  exists y z, astep cfg LWaitCall x = Some (y, None) /\ astep cfg LUser y = Some (z, Some (Err e)) /\
    a_fs z = a_fs x /\ ~ In s (map step (a_cache z)) /\
    (forall t, t <> s -> (In t (map step (a_cache z)) <-> In t (map step (a_cache x)))) /\ ~ unreported z.
Proof.
  intros cfg x s e F U. exists (set_user UWait x). eexists. split; [simpl; rewrite U; auto|]. split.
  - simpl. unfold user_step, manager_wait. simpl. rewrite F. reflexivity.
  - simpl. spl; auto.
    + rewrite drop_steps_In. simpl. tauto.
    + intros t NT. rewrite drop_steps_In. simpl. intuition.
    + intros (s' & e' & E). simpl in E. discriminate.
Qed.

(** Everything listed is on disk, except the step in flight and the one whose
    failure is not yet reported. *)
Definition pending (x : st) (t : Z) : Prop :=
  (exists rm pc, a_fin x = FRun t rm pc) \/ (exists e, a_fin x = FEnd t (Some e) true).

Definition L (x : st) : Prop :=
  (forall t, In t (map step (a_cache x)) -> In t (committed_steps (a_fs x)) \/ pending x t) /\
  (forall s rm pc, a_fin x = FRun s rm pc -> forall t, In t rm -> ~ In t (map step (a_cache x))) /\
  ((forall s rm pc, a_fin x <> FRun s rm pc) -> a_thread x = false) /\
  (forall a, (a_user x = UJoinSave a \/ exists ops, a_user x = UWrite a ops) ->
     ~ In (sv_step a) (map step (a_cache x)) /\ ~ unreported x).

Lemma load_sub : forall skip d t, In t (map step (load_infos skip d)) -> In t (committed_steps d).
Proof.
  intros skip d t H. unfold load_infos in H.
  eapply Permutation_in in H; [|apply Permutation_map, py_sorted_perm]. rewrite map_map in H.
  apply in_map_iff in H. destruct H as ([t' c] & E & H). apply filter_In in H. apply in_steps. exists c.
  destruct skip; simpl in E; subst; apply H.
Qed.

Lemma op_keeps_step : forall o d t, op_step o <> t -> In t (committed_steps d) -> In t (committed_steps (apply_op o d)).
Proof. intros o d t H. rewrite !in_steps. intros [c Hc]. exists c. apply apply_op_other; auto. Qed.

Lemma exec_keeps_step : forall ops d t, (forall o, In o ops -> op_step o <> t) -> In t (committed_steps d) ->
  In t (committed_steps (exec ops d)).
Proof. intros ops d t H. rewrite !in_steps. intros [c Hc]. exists c. apply exec_other; auto. Qed.

Lemma L_same : forall x y, L x -> a_fs y = a_fs x -> a_cache y = a_cache x -> a_fin y = a_fin x ->
  (a_thread y = a_thread x \/ a_thread y = false) ->
  (forall a, (a_user y = UJoinSave a \/ exists ops, a_user y = UWrite a ops) -> 
     (a_user x = UJoinSave a \/ exists ops, a_user x = UWrite a ops)) -> L y.
Proof.
  intros x y (L1 & L2 & L3 & L4) E1 E2 E3 E4 E5. unfold L, pending, unreported. rewrite E1, E2, E3. spl; auto.
  - intro N. destruct E4 as [E4|E4]; rewrite E4; auto.
Qed.

Lemma L_commit : forall x y s c, K x -> L x -> a_job x = JRun s c -> a_fs y = apply_op (OCommit s c) (a_fs x) ->
  a_cache y = a_cache x -> a_fin y = a_fin x -> a_thread y = a_thread x -> a_user y = a_user x -> L y.
Proof.
  intros x y s c HK (L1 & L2 & L3 & L4) J E1 E2 E3 E4 E5. unfold L, pending, unreported. rewrite E1, E2, E3, E4, E5. spl; auto.
  intros t Ht. destruct (L1 t Ht) as [H|H]; auto. left. destruct (Z.eq_dec s t) as [->|NE].
  - apply in_steps. exists c. simpl. unfold dput. apply in_app_iff. simpl. auto.
  - apply op_keeps_step; auto.
Qed.

Lemma L_fin : forall cfg x x', K x -> L x -> fin_step cfg x = Some x' -> L x'.
Proof.
  intros cfg x x' [JO HK] (L1 & L2 & L3 & L4) HF. unfold fin_step in HF.
  destruct (a_fin x) as [|s rm pc|] eqn:FE; try discriminate.
  destruct HK as [UF HK]. unfold user_free in UF. specialize (L2 s rm pc eq_refl).
  assert (UU : forall y, a_user y = a_user x -> forall a, (a_user y = UJoinSave a \/ exists ops, a_user y = UWrite a ops) ->
     ~ In (sv_step a) (map step (a_cache y)) /\ ~ unreported y).
  { intros y E a Ha. rewrite E in Ha. destruct Ha as [Ha|[ops Ha]]; rewrite Ha in UF; destruct UF. }
  assert (GO : forall y pc', a_fin y = FRun s rm pc' -> a_cache y = a_cache x -> a_user y = a_user x -> a_fs y = a_fs x -> L y).
  { intros y pc' E1 E2 E3 E4. unfold L, pending. rewrite E1, E2, E4. spl; auto.
    - intros t Ht. destruct (L1 t Ht) as [H|[(rm0 & pc0 & H)|(e & H)]]; auto.
      + rewrite FE in H. inv H. right. left. eauto.
      + rewrite FE in H. discriminate.
    - intros s0 rm0 pc0 E t Ht. inv E. auto.
    - intros N. destruct (N s rm pc'); auto.
    - intros a Ha. rewrite <- E2. apply UU; auto. }
  destruct pc as [p| |ss pend|e].
  - destruct p; simpl in HF; try destruct (a_thread x) eqn:TH; try destruct (a_job x); try destruct (a_exc x); inv HF;
    (eapply GO; [reflexivity|reflexivity|reflexivity|reflexivity]).
  - inv HF. eapply GO; reflexivity.
  - destruct pend as [|o pend].
    + destruct ss; [|destruct (delete_ops _ _ _) as [? [|]]]; inv HF; (eapply GO; reflexivity).
    + assert (E : set_fin (FRun s rm (PDelete ss pend)) (set_fs (apply_op o (a_fs x)) x) = x') by (destruct ss; congruence).
      subst x'. destruct HK as (_ & _ & _ & TO & _). unfold L, pending; simpl. spl.
      * intros t Ht. destruct (L1 t Ht) as [H|[(rm0 & pc0 & H)|(e & H)]].
        -- left. apply op_keeps_step; auto. intro E. apply (L2 t); auto. rewrite <- E. apply TO. simpl. auto.
        -- rewrite FE in H. inv H. right. left. eauto.
        -- rewrite FE in H. discriminate.
      * intros s0 rm0 pc0 E t Ht. inv E. auto.
      * intros N. destruct (N s rm (PDelete ss pend)); auto.
      * intros a Ha. destruct Ha as [Ha|[ops0 Ha]]; rewrite Ha in UF; destruct UF.
  - inv HF. destruct HK as (TH & EX & C). unfold L, pending; simpl. spl.
    + intros t Ht. destruct (L1 t Ht) as [H|[(rm0 & pc0 & H)|(e0 & H)]]; auto.
      * rewrite FE in H. inv H. destruct e as [e|]; [right; right; eauto|]. left.
        destruct (C eq_refl) as [C'|(c & C' & _)]; [destruct (L2 t C' Ht)|]. apply in_steps. eauto.
      * rewrite FE in H. discriminate.
    + discriminate.
    + auto.
    + intros a Ha. destruct Ha as [Ha|[ops0 Ha]]; rewrite Ha in UF; destruct UF.
Qed.

Lemma L_user : forall cfg x x' r, (forall cs, exists rm, steps_to_remove cfg cs = Ok rm) ->
  K x -> L x -> user_step cfg x = Some (x', r) -> L x'.
Proof.
  intros cfg x x' r TP HK HL HS. pose proof HL as (L1 & L2 & L3 & L4).
  assert (WAIT : forall y e, manager_wait x = Some (y, e) -> a_fs y = a_fs x /\ a_thread y = a_thread x /\
     (forall s rm pc, a_fin y <> FRun s rm pc) /\ ~ unreported y /\ a_thread x = false /\
     (forall t, In t (map step (a_cache y)) -> In t (committed_steps (a_fs x)))).
  { intros y e M. unfold manager_wait in M. destruct (a_fin x) as [|s rm pc|s [e0|] b] eqn:FE; try discriminate.
    - inv M. spl; auto; try (rewrite FE; discriminate).
      + intros (s & e & E). congruence.
      + apply L3. rewrite ?FE. discriminate.
      + intros t Ht. destruct (L1 t Ht) as [H|[(rm0 & pc0 & H)|(e0 & H)]]; auto; congruence.
    - destruct b; inv M; simpl; spl; auto; try (rewrite ?FE; discriminate).
      + intros (s' & e' & E). simpl in E. discriminate.
      + apply L3. rewrite ?FE. discriminate.
      + intros t Ht. apply drop_steps_In in Ht. simpl in Ht. destruct Ht as [Ht NT].
        destruct (L1 t Ht) as [H|[(rm0 & pc0 & H)|(e1 & H)]]; auto; rewrite FE in H; [discriminate|].
        inv H. destruct NT; auto.
      + intros (s' & e' & E). congruence.
      + apply L3. rewrite ?FE. discriminate.
      + intros t Ht. destruct (L1 t Ht) as [H|[(rm0 & pc0 & H)|(e1 & H)]]; auto; congruence.
    - inv M. spl; auto; try (rewrite FE; discriminate).
      + intros (s' & e & E). congruence.
      + apply L3. rewrite ?FE. discriminate.
      + intros t Ht. destruct (L1 t Ht) as [H|[(rm0 & pc0 & H)|(e0 & H)]]; auto; congruence. }
  assert (LW : forall y z e, manager_wait x = Some (y, e) -> a_fs z = a_fs y -> a_thread z = a_thread y -> a_fin z = a_fin y ->
     a_cache z = a_cache y -> (forall a, a_user z = UJoinSave a \/ (exists ops, a_user z = UWrite a ops) ->
        ~ In (sv_step a) (map step (a_cache y))) -> L z).
  { intros y z e M E1 E2 E3 E4 E5. destruct (WAIT y e M) as (W1 & W2 & W3 & W4 & W5 & W6).
    unfold L, pending, unreported. rewrite E1, E3, E4. spl.
    - intros t Ht. left. rewrite W1. auto.
    - intros s rm pc E. destruct (W3 _ _ _ E).
    - intros _. congruence.
    - intros a Ha. split; auto. }
  unfold user_step in HS. destruct (a_user x) eqn:EU; try discriminate.
  - destruct (manager_wait x) as [[y [e|]]|] eqn:EM; try discriminate.
    + inv HS. eapply LW; eauto. simpl. intros a0 [Ha|[ops Ha]]; discriminate.
    + destruct (existsb _ _) eqn:EB; inv HS.
      * eapply LW; eauto. simpl. intros a0 [Ha|[ops Ha]]; discriminate.
      * eapply LW; eauto. simpl in *. apply existsb_notIn in EB. intros a0 [Ha|[ops Ha]]; inv Ha; auto.
  - destruct (manager_wait x) as [[y e]|] eqn:EM; try discriminate. inv HS.
    eapply LW; eauto. simpl. intros a0 [Ha|[ops Ha]]; discriminate.
  - assert (HS' : match a_exc x with
          | Some e => Some (set_user UIdle (set_exc None (set_thread false x)), Some (Err e))
          | None => Some (set_user (UWrite a (blocking_ops (sv_step a) (a_fs x))) (set_exc None (set_thread false x)), None)
          end = Some (x', r)) by (destruct (a_job x); auto; discriminate).
    destruct (a_exc x); inv HS'; (eapply L_same; [exact HL| | | | |]; simpl; auto).
    + intros a0 [Ha|[ops Ha]]; discriminate.
    + intros a0 [Ha|[ops Ha]]; inv Ha. auto.
  - destruct (L4 a (or_intror (ex_intro _ ops eq_refl))) as [N4 U4].
    assert (NFR : forall s rm pc, a_fin x <> FRun s rm pc).
    { intros s rm pc E. destruct HK as [_ HK]. rewrite E in HK. destruct HK as [UF _]. unfold user_free in UF.
      rewrite EU in UF. destruct UF. }
    destruct ops as [|o ops].
    + destruct (TP (a_cache x ++ [mkInfo (sv_step a) (sv_now a) (sv_metrics a)])) as [rm ER].
      unfold launch in HS. rewrite ER in HS. inv HS. unfold L, pending; simpl. spl.
      * intros t Ht. apply drop_steps_In in Ht. destruct Ht as [Ht _]. rewrite map_app, in_app_iff in Ht.
        destruct Ht as [Ht|[E|[]]].
        -- destruct (L1 t Ht) as [H|[(rm0 & pc0 & H)|(e0 & H)]]; auto; [destruct (NFR _ _ _ H)|].
           destruct U4. exists t, e0. auto.
        -- simpl in E. subst t. right. left. eauto.
      * intros s0 rm0 pc0 E t Ht. inv E. rewrite drop_steps_In. tauto.
      * intros N. destruct (N (sv_step a) rm (PWait WTest)); auto.
      * intros a0 [Ha|[ops Ha]]; discriminate.
    + inv HS. destruct HK as [_ HK].
      assert (OS : op_step o = sv_step a).
      { destruct (a_fin x) eqn:FE; try (destruct (NFR s rm pc); auto; fail); rewrite EU in HK; apply HK; simpl; auto. }
      unfold L, pending; simpl. spl; auto.
      * intros t Ht. destruct (L1 t Ht) as [H|H]; auto. left. apply op_keeps_step; auto. intro E. apply N4. congruence.
      * intros a0 [Ha|[ops0 Ha]]; inv Ha. split; auto.
  - destruct w; simpl in HS; try destruct (a_thread x) eqn:TH; try destruct (a_job x); try destruct (a_exc x); inv HS;
    (eapply L_same; [exact HL| | | | |]; simpl; auto; intros a0 [Ha|[ops Ha]]; discriminate).
Qed.

Lemma L_step : forall cfg l x x' r, (forall cs, exists rm, steps_to_remove cfg cs = Ok rm) ->
  K x -> L x -> astep cfg l x = Some (x', r) -> careful l x -> L x'.
Proof.
  intros cfg l x x' r TP HK HL H CF. pose proof HL as (L1 & L2 & L3 & L4).
  destruct l.
  - simpl in H. destruct (a_user x) eqn:EU; try discriminate.
    destruct (sv_force a); [|destruct (should_save _ _ _ _ _) as [[|]|]]; inv H; auto;
    (eapply L_same; [exact HL| | | | |]; simpl; auto; intros a0 [Ha|[ops Ha]]; discriminate).
  - simpl in H. destruct (a_user x) eqn:EU; try discriminate. inv H.
    eapply L_same; [exact HL| | | | |]; simpl; auto; intros a0 [Ha|[ops Ha]]; discriminate.
  - simpl in H. destruct (a_user x) eqn:EU; try discriminate. inv H.
    eapply L_same; [exact HL| | | | |]; simpl; auto; intros a0 [Ha|[ops Ha]]; discriminate.
  - simpl in H. destruct (a_user x) eqn:EU; try discriminate. inv H.
    eapply L_same; [exact HL| | | | |]; simpl; auto.
  - simpl in H, CF. destruct (a_user x) eqn:EU; try discriminate. inv H. destruct CF as [NF TH].
    unfold L, pending; simpl. spl; auto.
    + intros t Ht. left. eapply load_sub; eauto.
    + intros s rm pc E. destruct (NF _ _ _ E).
    + rewrite EU. intros a0 [Ha|[ops Ha]]; discriminate.
  - simpl in H, CF. destruct (a_user x) eqn:EU; try discriminate. inv H. destruct CF as [NF TH].
    unfold L, pending; simpl. spl; auto.
    + intros t Ht. unfold delete, all_steps in *. simpl in *. destruct (o_read_only cfg); [exact (L1 t Ht)|].
      destruct (existsb _ _) eqn:EB; [|exact (L1 t Ht)].
      destruct (delete_ops (o_mode cfg) s (a_fs x)) as [ops [e|]] eqn:ED; simpl in *.
      * destruct (L1 t Ht) as [H|H]; auto. left.
        assert (ops = []) as -> by (unfold delete_ops in ED; destruct (existsb (Z.eqb s) (tmps (a_fs x)));
          [|destruct (dget s (committed (a_fs x)))]; destruct (o_mode cfg); try destruct (existsb _ (trash (a_fs x))); inv ED; auto).
        exact H.
      * apply drop_steps_In in Ht. simpl in Ht. destruct Ht as [Ht NT]. destruct (L1 t Ht) as [H|H]; auto. left.
        apply exec_keeps_step; auto. intros o Ho E. apply NT. left. rewrite <- E. symmetry. eapply delete_ops_touch; eauto.
    + intros s0 rm pc E. destruct (NF _ _ _ E).
    + rewrite EU. intros a0 [Ha|[ops Ha]]; discriminate.
  - assert (H' : user_step cfg x = Some (x', r)) by (simpl in H; destruct (a_user x); auto). eapply L_user; eauto.
  - simpl in H. destruct (a_user x) eqn:EU; try discriminate. inv H.
    eapply L_same; [exact HL| | | | |]; simpl; auto; intros a0 [Ha|[ops0 Ha]]; discriminate.
  - assert (H' : match a_job x with
          | JRun s c => if existsb (Z.eqb s) (tmps (a_fs x))
              then Some (set_job JDone (set_fs (apply_op (OCommit s c) (a_fs x)) x), None) else None
          | _ => None end = Some (x', r)) by (simpl in H; destruct (a_user x); auto).
    destruct (a_job x) eqn:EJ; try discriminate. destruct (existsb _ _); [|discriminate]. inv H'.
    eapply L_commit; eauto.
  - assert (H' : match a_job x with
          | JRun s c => Some (set_job JDone (set_exc (Some e) x), None)
          | _ => None end = Some (x', r)) by (simpl in H; destruct (a_user x); auto).
    destruct (a_job x) eqn:EJ; try discriminate. inv H'.
    eapply L_same; [exact HL| | | | |]; simpl; auto.
  - assert (H' : match a_job x with
          | JRun s c => if existsb (Z.eqb s) (tmps (a_fs x))
              then Some (set_job JDone (set_exc (Some e) (set_fs (apply_op (OCommit s c) (a_fs x)) x)), None) else None
          | _ => None end = Some (x', r)) by (simpl in H; destruct (a_user x); auto).
    destruct (a_job x) eqn:EJ; try discriminate. destruct (existsb _ _); [|discriminate]. inv H'.
    eapply L_commit; eauto.
  - assert (H' : match fin_step cfg x with Some x' => Some (x', None) | None => None end = Some (x', r))
      by (simpl in H; destruct (a_user x); auto).
    destruct (fin_step cfg x) as [x1|] eqn:EF; [|discriminate]. inv H'. eapply L_fin; eauto.
Qed.

Lemma L_init : forall cfg d, L (ainit cfg d).
Proof.
  intros. unfold L, pending; simpl. spl; auto; try discriminate.
  - intros t Ht. left. eapply load_sub; eauto.
  - intros a [Ha|[ops Ha]]; discriminate.
Qed.

Lemma areach_L : forall cfg ok u del d0 x, (forall cs, exists rm, steps_to_remove cfg cs = Ok rm) ->
  areach cfg ok u del d0 x -> L x.
Proof.
  intros cfg ok u del d0 x TP R. induction R; [apply L_init| |apply L_init].
  eapply L_step; eauto. eapply areach_K; eauto.
Qed.

Lemma listed_on_disk : forall cfg ok u del d0 x, (forall cs, exists rm, steps_to_remove cfg cs = Ok rm) ->
  areach cfg ok u del d0 x -> settled x -> ~ unreported x ->
  incl (map step (a_cache x)) (committed_steps (a_fs x)).
Proof.
  intros cfg ok u del d0 x TP R [NF _] NU t Ht.
  pose proof (areach_L _ _ _ _ _ _ TP R) as HL. destruct HL as (L1 & _). destruct (L1 t Ht) as [H|[(rm & pc & H)|(e & H)]]; auto.
  - destruct (NF _ _ _ H).
  - destruct NU. exists t, e. auto.
Qed.
