(** Nothing gets stuck, and every execution comes to rest, for C75. *)
From Coq Require Import ZArith List Bool Lia.
From Verif Require Import Base Policy_Model Manager_Model Manager_Spec Manager_Proofs Train_Model Train_Spec Train_Proofs.
Import ListNotations.
Local Open Scope Z_scope.
Local Arguments Nat.pred : simpl never.
Local Arguments Nat.ltb : simpl never.

Record winv (x : st) : Prop := mkWinv {
  w_ck : (x_ck x < length (x_jobs x))%nat;
  w_wait : forall i f k, nth_error (x_fins x) i = Some f -> f_pc f = PWait k -> (k < length (x_jobs x))%nat;
  w_resp : x_resps x <> [] -> x_fins x <> [];
  w_join : forall i w s j, nth_error (x_resps x) i = Some w -> r_pc w = WJoin s j -> (j < length (x_fins x))%nat;
  w_user : forall i, x_user x = UResult i -> (i < length (x_resps x))%nat }.

Lemma winv_init : forall o d, winv (tinit o d).
Proof. intros o d. split; cbn; try lia; try discriminate; try congruence; intros i; destruct i; discriminate. Qed.

Lemma len_nil : forall {A} (l m : list A), length l = length m -> m <> [] -> l <> [].
Proof. intros A [|a l] [|b m] H N; try discriminate; congruence. Qed.

Lemma wframe : forall x y, winv x -> x_ck y = x_ck x -> length (x_jobs y) = length (x_jobs x) -> length (x_fins y) = length (x_fins x) -> length (x_resps y) = length (x_resps x) ->
  (forall i f' k, nth_error (x_fins y) i = Some f' -> f_pc f' = PWait k -> (k < length (x_jobs x))%nat) ->
  (forall i w s j, nth_error (x_resps y) i = Some w -> r_pc w = WJoin s j -> (j < length (x_fins x))%nat) ->
  (forall i, x_user y = UResult i -> (i < length (x_resps x))%nat) -> winv y.
Proof.
  intros x y W E1 E2 E3 E4 H1 H2 H3. split.
  - rewrite E1, E2. apply (w_ck _ W).
  - rewrite E2. exact H1.
  - intros N. apply (len_nil _ (x_fins x)); [exact E3|]. apply (w_resp _ W). apply (len_nil _ (x_resps y)); auto.
  - rewrite E3. exact H2.
  - rewrite E4. exact H3.
Qed.

Lemma wuser : forall x y, winv x -> x_ck y = x_ck x -> length (x_jobs y) = length (x_jobs x) -> x_fins y = x_fins x -> x_resps y = x_resps x ->
  (forall i, x_user y = UResult i -> (i < length (x_resps x))%nat) -> winv y.
Proof.
  intros x y W E1 E2 E3 E4 H. apply (wframe x); auto; try (rewrite ?E3, ?E4; reflexivity); rewrite ?E3, ?E4.
  - apply (w_wait _ W).
  - apply (w_join _ W).
Qed.

Lemma wfin : forall x y i f p, winv x -> nth_error (x_fins x) i = Some f -> x_ck y = x_ck x -> length (x_jobs y) = length (x_jobs x) ->
  x_fins y = set_nth i (mkFin (f_step f) (f_rm f) (f_ck f) p (f_told f)) (x_fins x) -> x_resps y = x_resps x -> x_user y = x_user x ->
  (forall k, p = PWait k -> (k < length (x_jobs x))%nat) -> winv y.
Proof.
  intros x y i f p W Hf E1 E2 E3 E4 E5 H. apply (wframe x); auto.
  - rewrite E3. apply len_set.
  - now rewrite E4.
  - intros j f' k Hj P. rewrite E3, nth_set in Hj. destruct (Nat.eqb_spec i j) as [<-|_]; [|now apply (w_wait _ W j f')]. rewrite Hf in Hj. injection Hj as <-. now apply H.
  - rewrite E4. apply (w_join _ W).
  - rewrite E5. apply (w_user _ W).
Qed.

Lemma wwait : forall x y e u b, winv x -> user_wait x = Some (y, e) -> (forall i, u <> UResult i) -> winv (set_user u (set_saving b y)).
Proof.
  intros x y e u b W H Hu. unfold user_wait in H. assert (Same : y = x -> winv (set_user u (set_saving b y))) by (intros ->; apply (wuser x); auto; intros i E; elim (Hu i E)).
  destruct (current x) as [[i f]|] eqn:Hc; [|injection H as <- <-; auto]. destruct (f_pc f) as [| | | | |[er|]] eqn:P; try discriminate; [|injection H as <- <-; auto].
  destruct (f_told f); [injection H as <- <-; auto|]. injection H as <- <-. destruct (current_spec _ _ _ Hc) as [Hf _]. apply (wframe x); auto; cbn.
  - apply len_set.
  - intros j f' k Hj E. rewrite nth_set in Hj. destruct (Nat.eqb_spec i j) as [<-|_]; [|now apply (w_wait _ W j f')]. rewrite Hf in Hj. injection Hj as <-. discriminate.
  - apply (w_join _ W).
  - intros j E. elim (Hu j E).
Qed.

Lemma set_saving_same : forall y, set_saving (x_saving y) y = y.
Proof. intros []. reflexivity. Qed.

Lemma winv_step : forall o l x y r, winv x -> tstep o l x = Some (y, r) -> winv y.
Proof.
  intros o l x y r W H.
  assert (U : forall z, x_ck z = x_ck x -> length (x_jobs z) = length (x_jobs x) -> x_fins z = x_fins x -> x_resps z = x_resps x -> (forall i, x_user z = UResult i -> (i < length (x_resps x))%nat) -> winv z) by (intros; now apply (wuser x)).
  assert (UW : forall z e u, user_wait x = Some (z, e) -> (forall i, u <> UResult i) -> winv (set_user u z)) by (intros z e u Hz Hu; rewrite <- (set_saving_same z); now apply (wwait x z e)).
  destruct l as [a| | |i|s| | | | |i|i|k|k|k e|k e]; cbn in H.
  - destruct (x_user x) eqn:E; try discriminate. injection H as H. unfold begin_save in H. destruct (t_overwrite a).
    + destruct (o_read_only (t_cfg o)); [injection H as <- <-; now apply U|]. destruct (existsb _ _); [|injection H as <- <-; now apply U].
      destruct (delete_ops _ (t_step a) (x_fs x)) as [ops [e|]]; injection H as <- <-; [|now apply U]. apply U; auto. cbn. rewrite E. discriminate.
    + destruct (checkpoints o x) as [cs|e]; [|injection H as <- <-; exact W]. destruct (existsb _ cs); injection H as <- <-; [exact W|now apply U].
  - destruct (x_user x); try discriminate. injection H as <- <-. now apply U.
  - destruct (x_user x); try discriminate. injection H as <- <-. now apply U.
  - destruct (x_user x); try discriminate. destruct (Nat.ltb_spec i (length (x_resps x))); [|discriminate]. injection H as <- <-. apply U; auto. cbn. congruence.
  - destruct (x_user x); try discriminate. injection H as <- <-. exact W.
  - destruct (x_user x); try discriminate. injection H as <- <-. exact W.
  - destruct (x_user x) eqn:E; try discriminate. injection H as <- <-. apply U; auto. cbn. rewrite E. discriminate.
  - unfold user_step in H. destruct (x_user x) as [|a ops|a|a|a|a ops| | | |i] eqn:E; try discriminate.
    + destruct ops as [|p ops]; injection H as <- <-; now apply U.
    + injection H as <- <-. split; cbn.
      * rewrite app_length. cbn. lia.
      * intros j f k Hj P. rewrite app_length. cbn. assert (G := w_wait _ W j f k Hj P). lia.
      * apply (w_resp _ W).
      * apply (w_join _ W).
      * discriminate.
    + destruct (t_force a); [injection H as <- <-; now apply U|]. destruct (should_save _ _ _ _ _) as [[|]|]; injection H as <- <-; now apply U.
    + destruct (user_wait x) as [[y' [e|]]|] eqn:V; [| |discriminate]; [injection H as <- <-; now apply (UW y' (Some e))|].
      destruct (existsb _ _); injection H as <- <-; apply (wwait x y' None); auto; discriminate.
    + destruct ops as [|p ops]; [|injection H as <- <-; now apply U]. injection H as H. unfold launch in H. destruct (steps_to_remove _ _) as [rm|e]; [|injection H as <- <-; apply U; auto; [apply len_set|discriminate]].
      set (nf := mkFin (t_step a) rm (x_ck x) PStart false) in H.
      assert (G : forall z, x_ck z = x_ck x -> length (x_jobs z) = length (x_jobs x) -> x_fins z = x_fins x ++ [nf] -> x_resps z = x_resps x ++ [mkResp (length (x_fins x)) WTest] ->
        (forall i, x_user z = UResult i -> i = length (x_resps x)) -> winv z).
      { intros z E1 E2 E3 E4 E5. split.
        - rewrite E1, E2. apply (w_ck _ W).
        - intros j f k Hj P. rewrite E2. rewrite E3, nth_snoc in Hj. destruct (Nat.ltb j (length (x_fins x))); [now apply (w_wait _ W j f)|]. destruct (Nat.eqb j (length (x_fins x))); [|discriminate]. injection Hj as <-. discriminate.
        - intros _. rewrite E3. destruct (x_fins x); discriminate.
        - intros j w s k Hj P. rewrite E3, app_length. cbn. rewrite E4, nth_snoc in Hj. destruct (Nat.ltb j (length (x_resps x))); [assert (Q := w_join _ W j w s k Hj P); lia|]. destruct (Nat.eqb j (length (x_resps x))); [|discriminate]. injection Hj as <-. discriminate.
        - intros j Hj. rewrite (E5 j Hj), E4, app_length. cbn. lia. }
      destruct (t_sync a); injection H as <- <-; apply G; auto; try (apply len_set); cbn; try discriminate; congruence.
    + destruct (user_wait x) as [[y' e]|] eqn:V; [|discriminate]. injection H as <- <-. now apply (UW y' e).
    + destruct (user_wait x) as [[y' [e|]]|] eqn:V; [| |discriminate]; injection H as <- <-; now apply (UW y' _ _ eq_refl).
    + destruct (nth_error (x_jobs x) (x_ck x)) as [j|]; [|discriminate]. destruct (j_state j); try discriminate; injection H as <- <-; apply U; auto; try (apply len_set); discriminate.
    + destruct (nth_error (x_resps x) i) as [w|]; [|discriminate]. destruct (r_pc w) as [| | | |[b|e]]; try discriminate; injection H as <- <-; now apply U.
  - destruct (x_user x) eqn:E; try discriminate. destruct (forallb _ _); [|discriminate]. injection H as <- <-. now apply U.
  - destruct (fin_step o i x) as [z|] eqn:E; [|discriminate]. injection H as <- <-. unfold fin_step in E. destruct (nth_error (x_fins x) i) as [f|] eqn:Hf; [|discriminate].
    destruct (f_pc f) as [|k| |ss ops|e|e].
    + injection E as <-. apply (wfin x _ i f (PWait (x_ck x))); auto. intros k Ek. injection Ek as <-. apply (w_ck _ W).
    + destruct (nth_error (x_jobs x) k) as [j|]; [|discriminate].
      destruct (j_state j); try discriminate; injection E as <-; eapply (wfin x _ i f (match j_exc j with Some e => PFinally (Some e) | None => PCheck end)); auto; try apply len_set; destruct (j_exc j); discriminate.
    + injection E as <-. apply (wfin x _ i f (PDelete (f_rm f) [])); auto; try discriminate; destruct (nth_error (x_jobs x) (x_ck x)); auto. apply len_set.
    + destruct ops as [|p ops].
      * destruct ss as [|t ss]; [injection E as <-; apply (wfin x _ i f (PFinally None)); auto; discriminate|].
        destruct (delete_ops _ t (x_fs x)) as [ops [e|]]; injection E as <-; [apply (wfin x _ i f (PFinally (Some e)))|apply (wfin x _ i f (PDelete ss ops))]; auto; discriminate.
      * destruct ss as [|t ss]; injection E as <-; [apply (wfin x _ i f (PDelete [] ops))|apply (wfin x _ i f (PDelete (t :: ss) ops))]; auto; discriminate.
    + injection E as <-. apply (wfin x _ i f (PEnd e)); auto. discriminate.
    + discriminate.
  - destruct (resp_step i x) as [z|] eqn:E; [|discriminate]. injection H as <- <-. unfold resp_step in E. destruct (nth_error (x_resps x) i) as [w|] eqn:Hw; [|discriminate].
    assert (G : forall p cs, (forall s j, p = WJoin s j -> (j < length (x_fins x))%nat) -> winv (set_resp i (mkResp (r_fin w) p) (set_cache cs x))).
    { intros p cs Hp. apply (wframe x); auto; cbn.
      - apply len_set.
      - apply (w_wait _ W).
      - intros j w' s k Hj P. rewrite nth_set in Hj. destruct (Nat.eqb_spec i j) as [<-|_]; [|now apply (w_join _ W j w' s)]. rewrite Hw in Hj. injection Hj as <-. now apply (Hp s).
      - apply (w_user _ W). }
    assert (G0 : forall p, (forall s j, p = WJoin s j -> (j < length (x_fins x))%nat) -> winv (set_resp i (mkResp (r_fin w) p) x)) by (intros p Hp; exact (G p (x_cache x) Hp)).
    destruct (r_pc w) as [| |s|s j|q]; try discriminate.
    + destruct (current x) as [[j f]|]; [destruct (f_pc f) as [| | | | |[]]|]; injection E as <-; apply G0; discriminate.
    + destruct (current x) as [[j f]|]; [|discriminate]. injection E as <-. apply G0. discriminate.
    + destruct (current x) as [[j f]|] eqn:Hc; [|discriminate]. injection E as <-. apply G0. intros s' j' Ej. injection Ej as _ <-. destruct (current_spec _ _ _ Hc). lia.
    + destruct (nth_error (x_fins x) j) as [f|]; [|discriminate]. destruct (f_pc f) as [| | | | |[e|]]; try discriminate; injection E as <-; [apply G|apply G0]; discriminate.
  - destruct (nth_error (x_jobs x) k) as [[[|s c m|s c ok] e]|]; try discriminate. destruct m; [discriminate|]. injection H as <- <-. apply U; auto; [apply len_set|apply (w_user _ W)].
  - destruct (nth_error (x_jobs x) k) as [[[|s c m|s c ok] e]|]; try discriminate. destruct m; [|discriminate]. destruct (can_commit s (x_fs x)); [|discriminate]. injection H as <- <-. apply U; auto; [apply len_set|apply (w_user _ W)].
  - destruct (nth_error (x_jobs x) k) as [[[|s c m|s c ok] e0]|]; try discriminate. injection H as <- <-. apply U; auto; [apply len_set|apply (w_user _ W)].
  - destruct (nth_error (x_jobs x) k) as [[[|s c m|s c ok] e0]|]; try discriminate. destruct m; [|discriminate]. destruct (can_commit s (x_fs x)); [|discriminate]. injection H as <- <-. apply U; auto; [apply len_set|apply (w_user _ W)].
Qed.

Lemma winv_run : forall o P d x, run o P (tinit o d) x -> winv x.
Proof. intros o P d x R. induction R; [apply winv_init|eapply winv_step; eauto]. Qed.

(** * Something can happen *)

Lemma find_in : forall {A} (p : A -> bool) (l : list A), (exists i a, nth_error l i = Some a /\ p a = true) \/ forall a, In a l -> p a = false.
Proof.
  intros A p l. induction l as [|a l IH]; [right; intros a []|]. destruct (p a) eqn:E; [left; exists 0%nat, a; auto|].
  destruct IH as [[i [b [H1 H2]]]|IH]; [left; exists (S i), b; auto|right]. intros b [<-|H]; auto.
Qed.

Lemma progress : forall o x, winv x -> at_rest x \/ exists l y r, internal l /\ tstep o l x = Some (y, r).
Proof.
  intros o x W.
  destruct (find_in (fun j => match j_state j with JRun _ _ _ => true | _ => false end) (x_jobs x)) as [[k [j [Hj Pj]]]|NJ].
  { right. destruct j as [[|s c m|] e]; try discriminate. exists (LCommitFail k OtherError). cbn. rewrite Hj. eexists _, _. split; [exact Logic.I|reflexivity]. }
  assert (NJ' : forall k j, nth_error (x_jobs x) k = Some j -> forall s c m, j_state j <> JRun s c m).
  { intros k j Hj s c m E. apply nth_error_In in Hj. specialize (NJ j Hj). now rewrite E in NJ. }
  destruct (find_in (fun f => match f_pc f with PEnd _ => false | _ => true end) (x_fins x)) as [[i [f [Hf Pf]]]|NF].
  { right. exists (LFin i). cbn. assert (G : exists y, fin_step o i x = Some y).
    { unfold fin_step. rewrite Hf. destruct (f_pc f) as [|k| |ss ops|e|e] eqn:P; eauto; [| |discriminate].
      - destruct (nth_error (x_jobs x) k) as [j|] eqn:Hj; [|apply nth_error_None in Hj; assert (L := w_wait _ W i f k Hf P); lia]. specialize (NJ' k j Hj). destruct (j_state j); eauto. elim (NJ' s c made eq_refl).
      - destruct ss as [|t ss], ops as [|p ops]; eauto. destruct (delete_ops (o_mode (t_cfg o)) t (x_fs x)) as [q [e|]]; eauto. }
    destruct G as [y G]. rewrite G. eauto. }
  assert (NF' : forall f, In f (x_fins x) -> over f) by (intros f Hf; specialize (NF f Hf); unfold over; destruct (f_pc f); try discriminate; eauto).
  destruct (find_in (fun w => match r_pc w with WEnd _ => false | _ => true end) (x_resps x)) as [[i [w [Hw Pw]]]|NR].
  { right. exists (LResp i). cbn. assert (Ne : x_fins x <> []) by (apply (w_resp _ W); intro E; rewrite E in Hw; destruct i; discriminate).
    destruct (current x) as [[j f]|] eqn:Hc; [|apply current_none in Hc; congruence].
    assert (G : exists y, resp_step i x = Some y).
    { unfold resp_step. rewrite Hw, Hc. destruct (r_pc w) as [| |s|s k|q] eqn:P; eauto; [| |discriminate].
      - destruct (f_pc f) as [| | | | |[]]; eauto.
      - assert (L := w_join _ W i w s k Hw P). destruct (nth_error (x_fins x) k) as [g|] eqn:Hg; [|apply nth_error_None in Hg; lia]. destruct (NF' g (nth_error_In _ _ Hg)) as [e E]. rewrite E. destruct e; eauto. }
    destruct G as [y G]. rewrite G. eauto. }
  assert (NR' : forall w, In w (x_resps x) -> exists r, r_pc w = WEnd r) by (intros w Hw; specialize (NR w Hw); destruct (r_pc w); try discriminate; eauto).
  assert (Wt : exists y e, user_wait x = Some (y, e)).
  { unfold user_wait. destruct (current x) as [[i f]|] eqn:Hc; [|eauto]. destruct (current_spec _ _ _ Hc) as [Hf _]. destruct (NF' f (nth_error_In _ _ Hf)) as [[e|] E]; rewrite E; [destruct (f_told f)|]; eauto. }
  destruct Wt as [yw [ew Wt]].
  destruct (x_user x) as [|a ops|a|a|a|a ops| | | |i] eqn:U.
  { left. split; [exact U|split; [exact NF'|split; [exact NR'|]]]. intros j s c m Hj. apply In_nth_error in Hj. destruct Hj as [k Hk]. now apply (NJ' k j). }
  all: right; exists LUser; cbn; unfold user_step; rewrite U, ?Wt.
  - destruct ops; eexists _, _; split; try exact Logic.I; reflexivity.
  - eexists _, _. split; [exact Logic.I|reflexivity].
  - destruct (t_force a); [|destruct (should_save _ _ _ _ _) as [[|]|]]; eexists _, _; split; try exact Logic.I; reflexivity.
  - destruct ew; [|destruct (existsb _ _)]; eexists _, _; split; try exact Logic.I; reflexivity.
  - destruct ops; [destruct (launch o a x) as [q1 q2]|]; eexists _, _; split; try exact Logic.I; reflexivity.
  - eexists _, _. split; [exact Logic.I|reflexivity].
  - destruct ew; eexists _, _; split; try exact Logic.I; reflexivity.
  - destruct (nth_error (x_jobs x) (x_ck x)) as [j|] eqn:Hj; [|apply nth_error_None in Hj; assert (L := w_ck _ W); lia]. specialize (NJ' _ j Hj).
    destruct (j_state j); [| |]; try (eexists _, _; split; [exact Logic.I|reflexivity]). elim (NJ' s c made eq_refl).
  - assert (L := w_user _ W i U). destruct (nth_error (x_resps x) i) as [w|] eqn:Hw; [|apply nth_error_None in Hw; lia]. destruct (NR' w (nth_error_In _ _ Hw)) as [[b|e] E]; rewrite E; eexists _, _; split; try exact Logic.I; reflexivity.
Qed.

(** * Every execution ends *)

Definition w_fin (f : fin) : nat :=
  match f_pc f with PStart => 5 + 4 * length (f_rm f) | PWait _ => 4 + 4 * length (f_rm f) | PCheck => 3 + 4 * length (f_rm f)
  | PDelete ss ops => 2 + 4 * length ss + length ops | PFinally _ => 1 | PEnd _ => 0 end%nat.
Definition w_job (j : job) : nat := match j_state j with JRun _ _ false => 2 | JRun _ _ true => 1 | _ => 0 end%nat.
Definition w_rsp (w : resp) : nat := match r_pc w with WTest => 4 | WStep => 3 | WGet _ => 2 | WJoin _ _ => 1 | WEnd _ => 0 end%nat.
Definition w_usr (n : nat) (u : upc) : nat :=
  let b := (16 + 4 * n)%nat in
  match u with UIdle => 0 | UResult _ | UWait | UCloseLast => 1 | UClose => 2 | UWrite _ ops => 1 + length ops + b | UWaitSave _ => 5 + b | UDecide _ => 6 + b | UReady _ => 7 + b | UDelete _ ops => 8 + length ops + b end%nat.
Definition sum {A} (w : A -> nat) (l : list A) : nat := fold_right (fun a n => w a + n)%nat 0%nat l.
Definition mu (x : st) : nat := (sum w_fin (x_fins x) + sum w_job (x_jobs x) + sum w_rsp (x_resps x) + w_usr (length (x_cache x)) (x_user x))%nat.

Lemma sum_set : forall {A} (w : A -> nat) l i a b, nth_error l i = Some a -> (sum w (set_nth i b l) + w a = sum w l + w b)%nat.
Proof. unfold sum. intros A w l. induction l as [|x l IH]; intros [|i] a b H; cbn in *; try discriminate; [injection H as ->; lia|]. specialize (IH i a b H). lia. Qed.

Lemma sum_set_le : forall {A} (w : A -> nat) l i b, (sum w (set_nth i b l) <= sum w l + w b)%nat.
Proof. unfold sum. intros A w l. induction l as [|x l IH]; intros [|i] b; cbn; try lia. specialize (IH i b). lia. Qed.

Lemma sum_app : forall {A} (w : A -> nat) l m, sum w (l ++ m) = (sum w l + sum w m)%nat.
Proof. unfold sum. intros A w l m. induction l as [|x l IH]; cbn; [reflexivity|]. rewrite IH. lia. Qed.

Lemma sum_one : forall {A} (w : A -> nat) a, sum w [a] = w a.
Proof. intros A w a. unfold sum. cbn. lia. Qed.

Local Arguments sum : simpl never.

Lemma drop_len : forall ss cs, (length (drop_steps ss cs) <= length cs)%nat.
Proof. intros ss cs. unfold drop_steps. induction cs as [|c cs IH]; cbn; [lia|]. destruct (negb _); cbn; lia. Qed.

Lemma w_usr_mono : forall n m u, (n <= m)%nat -> (w_usr n u <= w_usr m u)%nat.
Proof. intros n m u H. destruct u; cbn; lia. Qed.

Lemma rm_len : forall cfg cs rm, steps_to_remove cfg cs = Ok rm -> (length rm <= length cs)%nat.
Proof.
  intros cfg cs rm H. unfold steps_to_remove in H. destruct (o_preserve cfg cs) as [[l|b]|e]; try discriminate. cbn in H. injection H as <-. rewrite map_length.
  assert (G : forall {A} (p : A -> bool) (m : list A), (length (filter p m) <= length m)%nat) by (intros A p m; induction m as [|a m IH]; cbn; [lia|destruct (p a); cbn; lia]).
  etransitivity; [apply G|]. rewrite combine_length. lia.
Qed.

Lemma blocking_len : forall o s d, (length (blocking_ops o s d) <= 3)%nat.
Proof. intros o s d. unfold blocking_ops. destruct (dget s (committed d)), (t_async_dirs o); cbn; lia. Qed.

Lemma delete_len : forall m s d ops e, delete_ops m s d = (ops, e) -> (length ops <= 2)%nat.
Proof.
  intros m s d ops e H. unfold delete_ops in H. destruct (existsb (Z.eqb s) (tmps d)); [|destruct (dget s (committed d))]; destruct m; try (destruct (existsb _ (trash d))); inversion H; subst; cbn; lia.
Qed.

Lemma w_same : forall J k j, nth_error J k = Some j -> sum w_job (set_nth k (mkJob (j_state j) None) J) = sum w_job J.
Proof. intros J k j H. assert (G := sum_set w_job J k j (mkJob (j_state j) None) H). assert (E : w_job (mkJob (j_state j) None) = w_job j) by reflexivity. lia. Qed.

Lemma wait_mu : forall x y e, user_wait x = Some (y, e) -> sum w_fin (x_fins y) = sum w_fin (x_fins x) /\ x_jobs y = x_jobs x /\ x_resps y = x_resps x /\ (length (x_cache y) <= length (x_cache x))%nat.
Proof.
  intros x y e H. unfold user_wait in H. assert (Same : y = x -> sum w_fin (x_fins y) = sum w_fin (x_fins x) /\ x_jobs y = x_jobs x /\ x_resps y = x_resps x /\ (length (x_cache y) <= length (x_cache x))%nat) by (intros ->; auto).
  destruct (current x) as [[i f]|] eqn:Hc; [|injection H as <- <-; auto]. destruct (f_pc f) as [| | | | |[er|]] eqn:P; try discriminate; [|injection H as <- <-; auto].
  destruct (f_told f); [injection H as <- <-; auto|]. injection H as <- <-. destruct (current_spec _ _ _ Hc) as [Hf _]. cbn. repeat split; [|apply drop_len].
  assert (G := sum_set w_fin (x_fins x) i f (mkFin (f_step f) (f_rm f) (f_ck f) (PEnd (Some er)) true) Hf). assert (E1 : w_fin f = 0%nat) by (unfold w_fin; now rewrite P). assert (E2 : w_fin (mkFin (f_step f) (f_rm f) (f_ck f) (PEnd (Some er)) true) = 0%nat) by reflexivity. lia.
Qed.

Lemma mu_decr : forall o l x y r, internal l -> tstep o l x = Some (y, r) -> (mu y < mu x)%nat.
Proof.
  intros o l x y r Il H. unfold mu. destruct l as [a| | |i|s| | | | |i|i|k|k|k e|k e]; try (destruct Il; fail); cbn in H.
  - unfold user_step in H. destruct (x_user x) as [|a ops|a|a|a|a ops| | | |i] eqn:E; try discriminate.
    + destruct ops as [|p ops]; injection H as <- <-; cbn [x_fins x_jobs x_resps x_cache x_user set_user set_fs set_cache].
      * assert (L := drop_len [t_step a] (x_cache x)). cbn. lia.
      * cbn. lia.
    + injection H as <- <-. cbn. rewrite sum_app, sum_one. cbn. lia.
    + destruct (t_force a); [injection H as <- <-; cbn; lia|]. destruct (should_save _ _ _ _ _) as [[|]|]; injection H as <- <-; cbn; lia.
    + destruct (user_wait x) as [[y' [e|]]|] eqn:V; [| |discriminate]; destruct (wait_mu _ _ _ V) as [E1 [E2 [E3 E4]]].
      * injection H as <- <-. cbn. rewrite E1, E2, E3. lia.
      * destruct (existsb _ _); injection H as <- <-; cbn [x_fins x_jobs x_resps x_cache x_user set_user set_saving]; rewrite E1, E2, E3; [cbn; lia|]. assert (B := blocking_len o (t_step a) (x_fs y')). cbn. lia.
    + destruct ops as [|p ops]; [|injection H as <- <-; cbn; lia]. injection H as H. unfold launch in H.
      assert (J := sum_set_le w_job (x_jobs x) (x_ck x) (mkJob (JRun (t_step a) (ckpt_of a) (negb (t_async_dirs o))) None)).
      assert (J2 : (w_job (mkJob (JRun (t_step a) (ckpt_of a) (negb (t_async_dirs o))) None) <= 2)%nat) by (unfold w_job; cbn; destruct (negb (t_async_dirs o)); lia).
      destruct (steps_to_remove _ _) as [rm|e] eqn:Er.
      * apply rm_len in Er. rewrite app_length in Er. cbn in Er. destruct (t_sync a); injection H as <- <-; cbn [x_fins x_jobs x_resps x_cache x_user set_user set_cache set_job add_fin]; rewrite !sum_app, !sum_one; cbn [w_fin w_rsp w_usr f_pc r_pc f_rm length]; lia.
      * injection H as <- <-. cbn [x_fins x_jobs x_resps x_cache x_user set_user set_cache set_job w_usr length]. lia.
    + destruct (user_wait x) as [[y' e]|] eqn:V; [|discriminate]. destruct (wait_mu _ _ _ V) as [E1 [E2 [E3 E4]]]. injection H as <- <-. cbn. rewrite E1, E2, E3. lia.
    + destruct (user_wait x) as [[y' [e|]]|] eqn:V; [| |discriminate]; destruct (wait_mu _ _ _ V) as [E1 [E2 [E3 E4]]]; injection H as <- <-; cbn; rewrite E1, E2, E3; lia.
    + destruct (nth_error (x_jobs x) (x_ck x)) as [j|] eqn:Hj; [|discriminate]. assert (S := w_same _ _ _ Hj). destruct (j_state j) eqn:Ej; try discriminate; injection H as <- <-; cbn; rewrite S; lia.
    + destruct (nth_error (x_resps x) i) as [w|]; [|discriminate]. destruct (r_pc w) as [| | | |[b|e]]; try discriminate; injection H as <- <-; cbn; lia.
  - destruct (x_user x) eqn:E; try discriminate. destruct (forallb _ _); [|discriminate]. injection H as <- <-. cbn. lia.
  - destruct (fin_step o i x) as [z|] eqn:E; [|discriminate]. injection H as <- <-. unfold fin_step in E. destruct (nth_error (x_fins x) i) as [f|] eqn:Hf; [|discriminate].
    assert (G : forall p z, x_fins z = set_nth i (mkFin (f_step f) (f_rm f) (f_ck f) p (f_told f)) (x_fins x) -> sum w_job (x_jobs z) = sum w_job (x_jobs x) -> x_resps z = x_resps x -> x_cache z = x_cache x -> x_user z = x_user x ->
      (w_fin (mkFin (f_step f) (f_rm f) (f_ck f) p (f_told f)) < w_fin f)%nat -> (mu z < mu x)%nat).
    { intros p z0 E1 E2 E3 E4 E5 L. unfold mu. rewrite E1, E2, E3, E4, E5. assert (S := sum_set w_fin (x_fins x) i f (mkFin (f_step f) (f_rm f) (f_ck f) p (f_told f)) Hf). lia. }
    fold (mu z). fold (mu x). destruct (f_pc f) as [|k| |ss ops|e|e] eqn:P.
    + injection E as <-. apply (G (PWait (x_ck x))); auto. unfold w_fin. rewrite P. cbn. lia.
    + destruct (nth_error (x_jobs x) k) as [j|] eqn:Hj; [|discriminate]. assert (S := w_same _ _ _ Hj).
      destruct (j_state j) eqn:Ej; try discriminate; injection E as <-; apply (G (match j_exc j with Some e => PFinally (Some e) | None => PCheck end)); auto; unfold w_fin; rewrite P; cbn; destruct (j_exc j); lia.
    + injection E as <-. apply (G (PDelete (f_rm f) [])); auto; try (destruct (nth_error (x_jobs x) (x_ck x)); reflexivity).
      * destruct (nth_error (x_jobs x) (x_ck x)) as [j|] eqn:Hj; [|reflexivity]. cbn. now apply w_same.
      * unfold w_fin. rewrite P. cbn. lia.
    + destruct ops as [|p ops].
      * destruct ss as [|t ss]; [injection E as <-; apply (G (PFinally None)); auto; unfold w_fin; rewrite P; cbn; lia|].
        destruct (delete_ops _ t (x_fs x)) as [ops [e|]] eqn:Ed; injection E as <-; [apply (G (PFinally (Some e)))|apply (G (PDelete ss ops))]; auto; unfold w_fin; rewrite P; cbn; [lia|]. apply delete_len in Ed. lia.
      * destruct ss; injection E as <-; eapply G; try reflexivity; unfold w_fin; rewrite P; cbn; lia.
    + injection E as <-. apply (G (PEnd e)); auto. unfold w_fin. rewrite P. cbn. lia.
    + discriminate.
  - destruct (resp_step i x) as [z|] eqn:E; [|discriminate]. injection H as <- <-. unfold resp_step in E. destruct (nth_error (x_resps x) i) as [w|] eqn:Hw; [|discriminate].
    assert (G : forall p cs, (length cs <= length (x_cache x))%nat -> (w_rsp (mkResp (r_fin w) p) < w_rsp w)%nat -> (mu (set_resp i (mkResp (r_fin w) p) (set_cache cs x)) < mu x)%nat).
    { intros p cs L1 L2. unfold mu. cbn [x_fins x_jobs x_resps x_cache x_user set_resp set_cache]. assert (S := sum_set w_rsp (x_resps x) i w (mkResp (r_fin w) p) Hw). assert (M := w_usr_mono _ _ (x_user x) L1). lia. }
    assert (G0 : forall p, (w_rsp (mkResp (r_fin w) p) < w_rsp w)%nat -> (mu (set_resp i (mkResp (r_fin w) p) x) < mu x)%nat) by (intros p L; exact (G p (x_cache x) (le_n _) L)).
    fold (mu z). fold (mu x). destruct (r_pc w) as [| |s|s j|q] eqn:P; try discriminate.
    + destruct (current x) as [[j f]|]; [destruct (f_pc f) as [| | | | |[]]|]; injection E as <-; apply G0; unfold w_rsp; rewrite P; cbn; lia.
    + destruct (current x) as [[j f]|]; [|discriminate]. injection E as <-. apply G0. unfold w_rsp. rewrite P. cbn. lia.
    + destruct (current x) as [[j f]|]; [|discriminate]. injection E as <-. apply G0. unfold w_rsp. rewrite P. cbn. lia.
    + destruct (nth_error (x_fins x) j) as [f|]; [|discriminate]. destruct (f_pc f) as [| | | | |[e|]]; try discriminate; injection E as <-; [apply G; [apply drop_len|]|apply G0]; unfold w_rsp; rewrite P; cbn; lia.
  - destruct (nth_error (x_jobs x) k) as [[[|s c m|s c ok] e]|] eqn:Hk; try discriminate. destruct m; [discriminate|]. injection H as <- <-. cbn.
    assert (S := sum_set w_job (x_jobs x) k _ (mkJob (JRun s c true) e) Hk). cbn in S. lia.
  - destruct (nth_error (x_jobs x) k) as [[[|s c m|s c ok] e]|] eqn:Hk; try discriminate. destruct m; [|discriminate]. destruct (can_commit s (x_fs x)); [|discriminate]. injection H as <- <-. cbn.
    assert (S := sum_set w_job (x_jobs x) k _ (mkJob (JDone s c true) e) Hk). cbn in S. lia.
  - destruct (nth_error (x_jobs x) k) as [[[|s c m|s c ok] e0]|] eqn:Hk; try discriminate. injection H as <- <-. cbn.
    assert (S := sum_set w_job (x_jobs x) k _ (mkJob (JDone s c false) (Some e)) Hk). assert (E1 : (1 <= w_job (mkJob (JRun s c m) e0))%nat) by (destruct m; cbn; lia). assert (E2 : w_job (mkJob (JDone s c false) (Some e)) = 0%nat) by reflexivity. lia.
  - destruct (nth_error (x_jobs x) k) as [[[|s c m|s c ok] e0]|] eqn:Hk; try discriminate. destruct m; [|discriminate]. destruct (can_commit s (x_fs x)); [|discriminate]. injection H as <- <-. cbn.
    assert (S := sum_set w_job (x_jobs x) k _ (mkJob (JDone s c false) (Some e)) Hk). cbn in S. lia.
Qed.

Lemma bounded : forall o x n y, goes_on o n x y -> (n <= mu x)%nat.
Proof. intros o x n y H. induction H as [x|n x y z l r Il Hs H IH]; [lia|]. assert (D := mu_decr o l x y r Il Hs). lia. Qed.

Lemma comes_to_rest : forall o x, winv x -> exists n y, goes_on o n x y /\ at_rest y.
Proof.
  intros o x. remember (mu x) as m eqn:Em. revert x Em. induction m as [m IH] using lt_wf_ind. intros x Em W.
  destruct (progress o x W) as [R|[l [y [r [Il Hs]]]]]; [exists 0%nat, x; split; [constructor|exact R]|].
  destruct (IH (mu y)) with (x := y) as [n [z [G R]]]; [subst; eapply mu_decr; eauto|reflexivity|eapply winv_step; eauto|].
  exists (S n), z. split; [econstructor; eauto|exact R].
Qed.

(** * What is on disk was there or was saved *)

Section Written.
Variable A : call -> Prop.
Variable d0 : fs.

Definition made (s : Z) (c : ckpt) : Prop := exists a, A a /\ t_step a = s /\ c_data c = t_data a /\ c_metrics c = t_metrics a.
Definition no_commit (ops : list op) : Prop := forall s c, ~ In (OCommit s c) ops.
Definition v_job (j : job) : Prop := match j_state j with JIdle => True | JRun s c _ => made s c | JDone s c _ => made s c end.
Definition v_fin (f : fin) : Prop := match f_pc f with PDelete _ ops => no_commit ops | _ => True end.
Definition v_user (u : upc) : Prop :=
  match u with UDelete a ops => A a /\ no_commit ops | UReady a => A a | UDecide a => A a | UWaitSave a => A a | UWrite a ops => A a /\ no_commit ops | _ => True end.
Definition v_fs (d : fs) : Prop := forall s c, In (s, c) (committed d) -> c_whole c = true -> In (s, c) (committed d0) \/ made s c.
Record vinv (x : st) : Prop := {
  v_disk : v_fs (x_fs x); v_jobs : Forall v_job (x_jobs x); v_fins : Forall v_fin (x_fins x); v_usr : v_user (x_user x) }.

Lemma v_set : forall {B} (P : B -> Prop) l i b, Forall P l -> P b -> Forall P (set_nth i b l).
Proof.
  intros B P l i b F Hb. apply Forall_forall. intros c Hc. apply In_nth_error in Hc. destruct Hc as [j Hj]. rewrite nth_set in Hj. rewrite Forall_forall in F.
  destruct (Nat.eqb i j); [destruct (nth_error l j); [injection Hj as <-; exact Hb|discriminate]|]. apply F. eapply nth_error_In; eauto.
Qed.

Lemma v_op : forall p d, v_fs d -> (forall s c, p = OCommit s c -> made s c) -> v_fs (apply_op p d).
Proof.
  intros p d V N s c H W. apply files_op in H. destruct p as [t|t|t|t|t e|t|t]; try (now apply V).
  - destruct H as [[_ H]|[_ H]]; [congruence|now apply V].
  - destruct H as [[-> ->]|[_ H]]; [right; now apply N|now apply V].
Qed.

Lemma v_exec : forall ops d, no_commit ops -> v_fs d -> v_fs (exec ops d).
Proof.
  induction ops as [|p ops IH]; intros d N V; [exact V|]. cbn. apply IH; [intros s c H; apply (N s c); now right|]. apply v_op; [exact V|]. intros s c ->. elim (N s c). now left.
Qed.

Lemma v_cons : forall p ops, no_commit (p :: ops) -> no_commit ops /\ forall s c, p = OCommit s c -> made s c.
Proof. intros p ops N. split; [intros s c H; apply (N s c); now right|]. intros s c ->. elim (N s c). now left. Qed.

Lemma v_delete : forall m s d ops e, delete_ops m s d = (ops, e) -> no_commit ops.
Proof.
  intros m s d ops e H t c Hin. unfold delete_ops in H.
  destruct m, (existsb (Z.eqb s) (tmps d)), (dget s (committed d)), (existsb (fun e => fst e =? s)%Z (trash d)); cbn in H; inversion H; subst; cbn in Hin; intuition discriminate.
Qed.

Lemma v_blocking : forall o s d, no_commit (blocking_ops o s d).
Proof. intros o s d t c H. unfold blocking_ops in H. apply in_app_iff in H. destruct (dget s (committed d)), (t_async_dirs o); cbn in H; intuition discriminate. Qed.

Lemma v_wait : forall x y e, vinv x -> user_wait x = Some (y, e) -> v_fs (x_fs y) /\ Forall v_job (x_jobs y) /\ Forall v_fin (x_fins y).
Proof.
  intros x y e [V1 V2 V3 V4] H. unfold user_wait in H. destruct (current x) as [[i f]|] eqn:E; [|injection H as <- <-; auto].
  destruct (f_pc f) as [| | | | |[e'|]] eqn:P; try discriminate; [|injection H as <- <-; auto]. destruct (f_told f); injection H as <- <-; auto. cbn. split; [auto|split; [auto|]].
  apply v_set; auto; try exact I.
Qed.

Lemma vinv_user : forall x u, v_fs (x_fs x) -> Forall v_job (x_jobs x) -> Forall v_fin (x_fins x) -> v_user u -> vinv (set_user u x).
Proof. intros x u H1 H2 H3 H4. now split. Qed.

Lemma vinv_step : forall o l x y r, (forall a, l = LSave a -> A a) -> vinv x -> tstep o l x = Some (y, r) -> vinv y.
Proof.
  intros o l x y r HA V H. assert (V0 := V). destruct V as [V1 V2 V3 V4].
  assert (J : forall k j, nth_error (x_jobs x) k = Some j -> v_job j) by (intros k j Hj; rewrite Forall_forall in V2; apply V2; eapply nth_error_In; eauto).
  destruct l as [a| | |i|s| | | | |i|i|k|k|k e|k e]; cbn in H.
  - specialize (HA a eq_refl). destruct (x_user x) eqn:E; try discriminate. injection H as H. unfold begin_save in H. destruct (t_overwrite a).
    + destruct (o_read_only (t_cfg o)); [injection H as <- <-; now split|]. destruct (existsb _ _); [|injection H as <- <-; now split].
      destruct (delete_ops _ (t_step a) (x_fs x)) as [ops [e|]] eqn:D; injection H as <- <-; apply v_delete in D; [split; cbn; auto; [now apply v_exec|now rewrite E]|now split].
    + destruct (checkpoints o x) as [cs|e]; [|injection H as <- <-; exact V0]. destruct (existsb _ cs); injection H as <- <-; [exact V0|now split].
  - destruct (x_user x); try discriminate. injection H as <- <-. now split.
  - destruct (x_user x); try discriminate. injection H as <- <-. now split.
  - destruct (x_user x); try discriminate. destruct (Nat.ltb i (length (x_resps x))); [|discriminate]. injection H as <- <-. now split.
  - destruct (x_user x); try discriminate. injection H as <- <-. exact V0.
  - destruct (x_user x); try discriminate. injection H as <- <-. exact V0.
  - destruct (x_user x) eqn:E; try discriminate. injection H as <- <-. split; auto. cbn. now rewrite E.
  - unfold user_step in H. destruct (x_user x) as [|a ops|a|a|a|a ops| | | |i] eqn:E; try discriminate; cbn in V4.
    + destruct V4 as [Va Vo]. destruct ops as [|p ops]; injection H as <- <-; [now split|]. apply v_cons in Vo. destruct Vo as [Vo Vp]. split; cbn; auto. now apply v_op.
    + injection H as <- <-. split; cbn; auto. apply Forall_app. split; [auto|]. constructor; [exact I|constructor].
    + destruct (t_force a); [injection H as <- <-; now split|]. destruct (should_save _ _ _ _ _) as [[|]|]; injection H as <- <-; now split.
    + destruct (user_wait x) as [[y' [e|]]|] eqn:W; [| |discriminate]; apply v_wait in W as [W1 [W2 W3]]; auto; [injection H as <- <-; now split|].
      destruct (existsb _ _); injection H as <- <-; [now split|]. split; cbn; auto. split; [auto|apply v_blocking].
    + destruct V4 as [Va Vo]. destruct ops as [|p ops]; [|apply v_cons in Vo as [Vo Vp]; injection H as <- <-; split; cbn; auto; now apply v_op].
      injection H as H. unfold launch in H.
      assert (Vj : Forall v_job (set_nth (x_ck x) (mkJob (JRun (t_step a) (ckpt_of a) (negb (t_async_dirs o))) None) (x_jobs x))) by (apply v_set; [auto|]; exists a; repeat split; auto).
      destruct (steps_to_remove _ _) as [rm|e]; [|injection H as <- <-; now split].
      assert (Vf : Forall v_fin (x_fins x ++ [mkFin (t_step a) rm (x_ck x) PStart false])) by (apply Forall_app; split; [auto|constructor; [exact I|constructor]]).
      destruct (t_sync a); injection H as <- <-; now split.
    + destruct (user_wait x) as [[y' e]|] eqn:W; [|discriminate]. apply v_wait in W as [W1 [W2 W3]]; auto. injection H as <- <-. now split.
    + destruct (user_wait x) as [[y' [e|]]|] eqn:W; [| |discriminate]; apply v_wait in W as [W1 [W2 W3]]; auto; injection H as <- <-; now split.
    + destruct (nth_error (x_jobs x) (x_ck x)) as [j|] eqn:Hj; [|discriminate]. apply J in Hj. unfold v_job in Hj. destruct (j_state j) eqn:Ej; try discriminate; injection H as <- <-; split; cbn; auto; apply v_set; auto.
    + destruct (nth_error (x_resps x) i) as [w|]; [|discriminate]. destruct (r_pc w) as [| | | |[b|e]]; try discriminate; injection H as <- <-; now split.
  - destruct (x_user x) eqn:E; try discriminate. destruct (forallb _ _); [|discriminate]. injection H as <- <-. now split.
  - destruct (fin_step o i x) as [z|] eqn:E; [|discriminate]. injection H as <- <-. unfold fin_step in E. destruct (nth_error (x_fins x) i) as [f|] eqn:Hf; [|discriminate].
    assert (Vf : v_fin f) by (rewrite Forall_forall in V3; apply V3; eapply nth_error_In; eauto). unfold v_fin in Vf.
    destruct (f_pc f) as [|k| |ss ops|e|e].
    + injection E as <-. split; cbn; auto. apply v_set; auto; try exact I.
    + destruct (nth_error (x_jobs x) k) as [j|] eqn:Hj; [|discriminate]. apply J in Hj. unfold v_job in Hj.
      destruct (j_state j) eqn:Ej; try discriminate; injection E as <-; (split; cbn; auto; apply v_set; auto; unfold v_fin; cbn; destruct (j_exc j); exact I).
    + injection E as <-. destruct (nth_error (x_jobs x) (x_ck x)) as [j|] eqn:Hj; [apply J in Hj|]; split; cbn; auto; apply v_set; auto; try (intros t c []).
    + destruct ops as [|p ops].
      * destruct ss as [|t ss]; [injection E as <-; split; cbn; auto; apply v_set; auto; try exact I|].
        destruct (delete_ops _ t (x_fs x)) as [ops [e|]] eqn:D; apply v_delete in D; injection E as <-; split; cbn; auto; apply v_set; auto; try exact I.
      * apply v_cons in Vf as [Vo Vp]. destruct ss as [|t ss]; injection E as <-; split; cbn; auto; try (now apply v_op); apply v_set; auto.
    + injection E as <-. split; cbn; auto. apply v_set; auto; try exact I.
    + discriminate.
  - destruct (resp_step i x) as [z|] eqn:E; [|discriminate]. injection H as <- <-. unfold resp_step in E. destruct (nth_error (x_resps x) i) as [w|] eqn:Hw; [|discriminate].
    destruct (r_pc w) as [| |s|s j|q]; try discriminate.
    + destruct (current x) as [[j f]|]; [destruct (f_pc f) as [| | | | |[]]|]; injection E as <-; now split.
    + destruct (current x) as [[j f]|]; [|discriminate]. injection E as <-. now split.
    + destruct (current x) as [[j f]|] eqn:Hc; [|discriminate]. injection E as <-. now split.
    + destruct (nth_error (x_fins x) j) as [f|]; [|discriminate]. destruct (f_pc f) as [| | | | |[e|]]; try discriminate; injection E as <-; now split.
  - destruct (nth_error (x_jobs x) k) as [[[|s c m|s c ok] e]|] eqn:Hj; try discriminate. apply J in Hj. cbn in Hj. destruct m; [discriminate|]. injection H as <- <-. split; cbn; auto. now apply v_set.
  - destruct (nth_error (x_jobs x) k) as [[[|s c m|s c ok] e]|] eqn:Hj; try discriminate. apply J in Hj. cbn in Hj. destruct m; [|discriminate]. destruct (can_commit s (x_fs x)); [|discriminate]. injection H as <- <-.
    split; cbn; auto; [|now apply v_set]. apply (v_op (OCommit s c)); auto. intros s' c' Es. injection Es as <- <-. exact Hj.
  - destruct (nth_error (x_jobs x) k) as [[[|s c m|s c ok] e0]|] eqn:Hj; try discriminate. apply J in Hj. cbn in Hj. injection H as <- <-. split; cbn; auto. now apply v_set.
  - destruct (nth_error (x_jobs x) k) as [[[|s c m|s c ok] e0]|] eqn:Hj; try discriminate. apply J in Hj. cbn in Hj. destruct m; [|discriminate]. destruct (can_commit s (x_fs x)); [|discriminate]. injection H as <- <-.
    split; cbn; auto; [|now apply v_set]. apply (v_op (OCommit s c)); auto. intros s' c' Es. injection Es as <- <-. exact Hj.
Qed.

Lemma vinv_run : forall o x, run o (only A) (tinit o d0) x -> vinv x.
Proof.
  intros o x R. remember (tinit o d0) as z eqn:Ez. induction R; subst.
  - split; cbn; [intros s c H W; now left|constructor; [exact I|constructor]|constructor|exact I].
  - eapply vinv_step; eauto. intros a ->. assumption.
Qed.
End Written.

Lemma disk_written : forall A o d x s c, run o (only A) (tinit o d) x -> intact (x_fs x) s c -> In (s, c) (committed d) \/ exists a, A a /\ t_step a = s /\ c_data c = t_data a /\ c_metrics c = t_metrics a.
Proof. intros A o d x s c R [H W]. apply vinv_run in R. now apply (v_disk _ _ _ R). Qed.

Lemma load_written : forall A o d x s z, run o (only A) (tinit o d) x -> load o (Some s) x = Ok z -> (exists c, In (s, c) (committed d) /\ c_data c = z) \/ exists a, A a /\ t_step a = s /\ t_data a = z.
Proof.
  intros A o d x s z R H. unfold load in H. destruct (resolve o (Some s) x) as [t|e] eqn:E; [|discriminate]. cbn in H.
  assert (t = s) as ->. { cbn in E. destruct (checkpoints o x) as [l|]; [|discriminate]. cbn in E. destruct (existsb (Z.eqb s) l); [now injection E as <-|discriminate]. }
  destruct (dget s (committed (x_fs x))) as [c|] eqn:D; [|discriminate]. destruct (c_whole c) eqn:W; [|discriminate]. injection H as <-.
  destruct (disk_written A o d x s c R) as [H|[a [H1 [H2 [H3 _]]]]].
  - split; [|exact W]. clear - D. induction (committed (x_fs x)) as [|[t e] l IH]; [discriminate|]. cbn in D. destruct (Z.eqb_spec s t) as [->|_]; [injection D as ->; now left|right; auto].
  - left. eauto.
  - right. exists a. auto.
Qed.
