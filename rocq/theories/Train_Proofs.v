(** Proofs for C75. *)
From Coq Require Import ZArith List Bool Lia Arith.
From Verif Require Import Base Policy_Model Manager_Model Manager_Spec Manager_Proofs Train_Model Train_Spec.
Import ListNotations.
Local Open Scope Z_scope.
Local Arguments Nat.pred : simpl never.
Local Arguments Nat.ltb : simpl never.

(** * Lists *)

Lemma nth_set : forall {A} (l : list A) i v j, nth_error (set_nth i v l) j = if Nat.eqb i j then match nth_error l j with Some _ => Some v | None => None end else nth_error l j.
Proof. intros A l. induction l as [|x l IH]; intros [|i] v [|j]; cbn; try reflexivity; try (destruct (Nat.eqb i j); reflexivity). apply IH. Qed.

Lemma len_set : forall {A} (l : list A) i v, length (set_nth i v l) = length l.
Proof. intros A l. induction l as [|x l IH]; intros [|i] v; cbn; try reflexivity. now rewrite IH. Qed.

Lemma nth_snoc : forall {A} (l : list A) v j, nth_error (l ++ [v]) j = if Nat.ltb j (length l) then nth_error l j else if Nat.eqb j (length l) then Some v else None.
Proof.
  intros A l v j. destruct (Nat.ltb_spec j (length l)) as [H|H].
  - now apply nth_error_app1.
  - rewrite nth_error_app2 by lia. destruct (Nat.eqb_spec j (length l)) as [->|N].
    + now rewrite Nat.sub_diag.
    + destruct (j - length l)%nat as [|[|n]] eqn:E; [lia|reflexivity|reflexivity].
Qed.

Lemma nth_lt : forall {A} (l : list A) i v, nth_error l i = Some v -> (i < length l)%nat.
Proof. intros A l i v H. apply nth_error_Some. now rewrite H. Qed.

(** * The threads *)

Definition of_step (s : Z) (j : jstate) : Prop := match j with JRun t _ _ | JDone t _ _ => t = s | JIdle => False end.
Definition donepc (p : fpc) : Prop := match p with PCheck | PDelete _ _ | PFinally None | PEnd None => True | _ => False end.
Definition failedpc (p : fpc) : Prop := match p with PFinally (Some _) | PEnd (Some _) => True | _ => False end.

Record core (ck : nat) (J : list job) (F : list fin) (R : list resp) : Prop := mkCore {
  k_ck : (ck < length J)%nat;
  k_old : forall i f, nth_error F i = Some f -> (S i < length F)%nat -> settled f;
  k_job : forall i f, nth_error F i = Some f -> exists j, nth_error J (f_ck f) = Some j /\ of_step (f_step f) (j_state j);
  k_start : forall i f, nth_error F i = Some f -> f_pc f = PStart -> f_ck f = ck;
  k_wait : forall i f k, nth_error F i = Some f -> f_pc f = PWait k -> f_ck f = k;
  k_done : forall i f, nth_error F i = Some f -> donepc (f_pc f) -> exists c e, nth_error J (f_ck f) = Some (mkJob (JDone (f_step f) c true) e);
  k_exc : forall k s c e, nth_error J k = Some (mkJob (JDone s c false) e) -> e <> None \/ exists i f, nth_error F i = Some f /\ f_ck f = k /\ failedpc (f_pc f);
  k_own : forall k j, nth_error J k = Some j -> j_state j <> JIdle -> exists i f, nth_error F i = Some f /\ f_ck f = k;
  k_inj : forall i f i' f', nth_error F i = Some f -> nth_error F i' = Some f' -> f_ck f = f_ck f' -> i = i';
  k_resp : forall i w, nth_error R i = Some w -> (r_fin w < length F)%nat /\
    match r_pc w with
    | WJoin _ j => (r_fin w <= j < length F)%nat
    | WEnd (Ok _) => exists f, nth_error F (r_fin w) = Some f /\ settled f
    | _ => True
    end }.

Lemma core_init : core 0 [mkJob JIdle None] [] [].
Proof.
  split; cbn; try lia; intros;
    try match goal with H : nth_error [] ?i = Some _ |- _ => destruct i; discriminate end.
  - destruct k as [|[|k]]; discriminate.
  - destruct k as [|[|k]]; try discriminate. injection H as <-. now elim H0.
Qed.

Lemma core_swap : forall ck J F R, core ck J F R -> (forall f, In f F -> f_pc f <> PStart) -> core (length J) (J ++ [mkJob JIdle None]) F R.
Proof.
  intros ck J F R [C1 C2 C3 C4 C5 C6 C7 C8 C9 C10] NS. split.
  - rewrite app_length; cbn; lia.
  - exact C2.
  - intros i f Hf. destruct (C3 i f Hf) as [j [Hj Hs]]. exists j. split; [|exact Hs].
    rewrite nth_error_app1 by (eapply nth_lt; eauto). exact Hj.
  - intros i f Hf Hp. elim (NS f). eapply nth_error_In; eauto. exact Hp.
  - exact C5.
  - intros i f Hf Hd. destruct (C6 i f Hf Hd) as [c [e He]]. exists c, e. rewrite nth_error_app1 by (eapply nth_lt; eauto). exact He.
  - intros k s c e. rewrite nth_snoc. destruct (Nat.ltb k (length J)); [apply C7|]. destruct (Nat.eqb k (length J)); [|discriminate]. intros [=].
  - intros k j. rewrite nth_snoc. destruct (Nat.ltb k (length J)); [apply C8|]. destruct (Nat.eqb k (length J)); [|discriminate]. intros [= <-] H. now elim H.
  - exact C9.
  - exact C10.
Qed.

(** A change of one thread that finalizes. *)
Lemma core_fin : forall ck J F R i f f', core ck J F R -> nth_error F i = Some f ->
  f_step f' = f_step f -> f_ck f' = f_ck f -> (settled f -> settled f') ->
  (f_pc f' = PStart -> f_pc f = PStart) -> (forall k, f_pc f' = PWait k -> f_pc f = PWait k \/ f_ck f = k) ->
  (donepc (f_pc f') -> exists c e, nth_error J (f_ck f) = Some (mkJob (JDone (f_step f) c true) e)) ->
  (failedpc (f_pc f) -> failedpc (f_pc f')) ->
  core ck J (set_nth i f' F) R.
Proof.
  intros ck J F R i f f' [C1 C2 C3 C4 C5 C6 C7 C8 C9 C10] Hf Es Ec St Sp Sw Sd Sf.
  assert (G : forall k g, nth_error (set_nth i f' F) k = Some g -> (k = i /\ g = f') \/ (k <> i /\ nth_error F k = Some g)).
  { intros k g. rewrite nth_set. destruct (Nat.eqb_spec i k) as [<-|N]; [rewrite Hf; intros [= <-]; now left|intros; right; split; [congruence|assumption]]. }
  split.
  - exact C1.
  - intros k g Hg. rewrite len_set. intro Hl. destruct (G k g Hg) as [[-> ->]|[_ Hg']]; [apply St; now apply (C2 i)|now apply (C2 k)].
  - intros k g Hg. destruct (G k g Hg) as [[-> ->]|[_ Hg']]; [rewrite Ec, Es; now apply (C3 i)|now apply (C3 k)].
  - intros k g Hg Hp. destruct (G k g Hg) as [[-> ->]|[_ Hg']]; [rewrite Ec; apply (C4 i); auto|now apply (C4 k)].
  - intros k g m Hg Hp. destruct (G k g Hg) as [[-> ->]|[_ Hg']]; [rewrite Ec; destruct (Sw m Hp) as [H|H]; [now apply (C5 i)|exact H]|now apply (C5 k)].
  - intros k g Hg Hp. destruct (G k g Hg) as [[-> ->]|[_ Hg']]; [rewrite Ec, Es; auto|now apply (C6 k)].
  - intros k s c e He. destruct (C7 k s c e He) as [H|[n [g [Hg [Hk Hp]]]]]; [now left|right].
    destruct (Nat.eq_dec n i) as [->|N].
    + assert (g = f) by congruence. subst g. exists i, f'. rewrite nth_set, Nat.eqb_refl, Hf. repeat split; [congruence|auto].
    + exists n, g. rewrite nth_set. destruct (Nat.eqb_spec i n); [congruence|]. auto.
  - intros k j Hj Hn. destruct (C8 k j Hj Hn) as [n [g [Hg Hk]]]. destruct (Nat.eq_dec n i) as [->|N].
    + assert (g = f) by congruence. subst g. exists i, f'. rewrite nth_set, Nat.eqb_refl, Hf. split; [reflexivity|congruence].
    + exists n, g. rewrite nth_set. destruct (Nat.eqb_spec i n); [congruence|]. auto.
  - intros a g b h Ha Hb E. destruct (G a g Ha) as [[-> ->]|[_ Ha']]; destruct (G b h Hb) as [[-> ->]|[_ Hb']].
    + reflexivity.
    + apply (C9 i f b h); [assumption|assumption|congruence].
    + apply (C9 a g i f); [assumption|assumption|congruence].
    + now apply (C9 a g b h).
  - intros k w Hw. rewrite len_set. destruct (C10 k w Hw) as [H1 H2]. split; [exact H1|].
    destruct (r_pc w) as [| |s|s j|[b|e]]; try exact H2. destruct H2 as [g [Hg Hs]].
    destruct (Nat.eq_dec (r_fin w) i) as [E|N].
    + rewrite E in *. assert (g = f) by congruence. subst g. exists f'. rewrite nth_set, Nat.eqb_refl, Hf. auto.
    + exists g. rewrite nth_set. destruct (Nat.eqb_spec i (r_fin w)); [congruence|auto].
Qed.

(** A change of one checkpointer that keeps what was committed. *)
Lemma core_job : forall ck J F R k j j', core ck J F R -> nth_error J k = Some j ->
  (forall s, of_step s (j_state j) -> of_step s (j_state j')) ->
  (forall s c, j_state j = JDone s c true -> j_state j' = JDone s c true) ->
  (j_state j' <> JIdle -> j_state j <> JIdle) ->
  (forall s c, j_state j' = JDone s c false -> j_exc j' = None -> exists i f, nth_error F i = Some f /\ f_ck f = k /\ failedpc (f_pc f)) ->
  core ck (set_nth k j' J) F R.
Proof.
  intros ck J F R k j j' [C1 C2 C3 C4 C5 C6 C7 C8 C9 C10] Hj Ho Ht Hi Hx. split; try assumption.
  - now rewrite len_set.
  - intros i f Hf. destruct (C3 i f Hf) as [g [Hg Hs]]. rewrite nth_set. destruct (Nat.eqb_spec k (f_ck f)) as [E|N].
    + rewrite Hg. exists j'. split; [reflexivity|]. apply Ho. congruence.
    + eauto.
  - intros i f Hf Hd. destruct (C6 i f Hf Hd) as [c [e He]]. rewrite nth_set. destruct (Nat.eqb_spec k (f_ck f)) as [E|N].
    + rewrite He. assert (Ej : j = mkJob (JDone (f_step f) c true) e) by congruence. assert (E1 := Ht (f_step f) c). rewrite Ej in E1. specialize (E1 eq_refl).
      exists c, (j_exc j'). destruct j' as [a b]; cbn in *. congruence.
    + eauto.
  - intros m s c e. rewrite nth_set. destruct (Nat.eqb_spec k m) as [<-|N].
    + rewrite Hj. intros [= E]. subst j'. cbn in Hx. destruct e as [e|]; [left; discriminate|right]. now apply (Hx s c).
    + apply C7.
  - intros m g. rewrite nth_set. destruct (Nat.eqb_spec k m) as [<-|N].
    + rewrite Hj. intros [= <-] H. apply (C8 k j Hj). auto.
    + apply C8.
Qed.

Lemma core_launch : forall ck J F R s rm c m, core ck J F R -> nth_error J ck = Some (mkJob JIdle None) -> (forall f, In f F -> settled f) ->
  core ck (set_nth ck (mkJob (JRun s c m) None) J) (F ++ [mkFin s rm ck PStart false]) (R ++ [mkResp (length F) WTest]).
Proof.
  intros ck J F R s rm c m [C1 C2 C3 C4 C5 C6 C7 C8 C9 C10] Hi Hs.
  assert (NC : forall i f, nth_error F i = Some f -> f_ck f <> ck).
  { intros i f Hf E. destruct (C3 i f Hf) as [j [Hj Ho]]. rewrite E, Hi in Hj. injection Hj as <-. exact Ho. }
  assert (G : forall k g, nth_error (F ++ [mkFin s rm ck PStart false]) k = Some g -> (k = length F /\ g = mkFin s rm ck PStart false) \/ nth_error F k = Some g).
  { intros k g. rewrite nth_snoc. destruct (Nat.ltb k (length F)); [now right|]. destruct (Nat.eqb_spec k (length F)); [|discriminate]. intros [= <-]. now left. }
  assert (Old : forall k g, nth_error F k = Some g -> nth_error (F ++ [mkFin s rm ck PStart false]) k = Some g).
  { intros k g H. rewrite nth_error_app1; [exact H|eapply nth_lt; eauto]. }
  split.
  - now rewrite len_set.
  - intros k g Hg. rewrite app_length; cbn [length]. intro Hl. destruct (G k g Hg) as [[-> ->]|H]; [lia|]. apply Hs. eapply nth_error_In; eauto.
  - intros k g Hg. rewrite nth_set. destruct (G k g Hg) as [[-> ->]|H].
    + cbn. rewrite Nat.eqb_refl, Hi. eexists. split; [reflexivity|reflexivity].
    + destruct (Nat.eqb_spec ck (f_ck g)) as [E|N]; [elim (NC k g H); auto|]. now apply (C3 k).
  - intros k g Hg Hp. destruct (G k g Hg) as [[-> ->]|H]; [reflexivity|]. now apply (C4 k).
  - intros k g n Hg Hp. destruct (G k g Hg) as [[-> ->]|H]; [discriminate|]. now apply (C5 k).
  - intros k g Hg Hp. destruct (G k g Hg) as [[-> ->]|H]; [elim Hp|]. rewrite nth_set. destruct (Nat.eqb_spec ck (f_ck g)) as [E|N]; [elim (NC k g H); auto|]. now apply (C6 k).
  - intros k t d e. rewrite nth_set. destruct (Nat.eqb_spec ck k) as [<-|N].
    + rewrite Hi. intros [=].
    + intro H. destruct (C7 k t d e H) as [H'|[i [f [H1 H2]]]]; [now left|right; exists i, f; auto].
  - intros k j. rewrite nth_set. destruct (Nat.eqb_spec ck k) as [<-|N].
    + intros _ _. exists (length F), (mkFin s rm ck PStart false). rewrite nth_snoc, Nat.ltb_irrefl, Nat.eqb_refl. now split.
    + intros H H'. destruct (C8 k j H H') as [i [f [H1 H2]]]. exists i, f; auto.
  - intros a g b h Ha Hb E. destruct (G a g Ha) as [[-> ->]|Ha']; destruct (G b h Hb) as [[-> ->]|Hb'].
    + reflexivity.
    + cbn in E. elim (NC b h Hb'). auto.
    + cbn in E. elim (NC a g Ha'). auto.
    + now apply (C9 a g b h).
  - intros k w. rewrite app_length; cbn [length]. rewrite nth_snoc. destruct (Nat.ltb k (length R)).
    + intro Hw. destruct (C10 k w Hw) as [H1 H2]. split; [lia|]. destruct (r_pc w) as [| |t|t j|[b|e]]; try exact H2; [lia|].
      destruct H2 as [f [Hf Hf']]. exists f. auto.
    + destruct (Nat.eqb k (length R)); [|discriminate]. intros [= <-]. cbn. split; [lia|exact I].
Qed.

Lemma core_resp : forall ck J F R i w p, core ck J F R -> nth_error R i = Some w ->
  match p with WJoin _ j => (r_fin w <= j < length F)%nat | WEnd (Ok _) => exists f, nth_error F (r_fin w) = Some f /\ settled f | _ => True end ->
  core ck J F (set_nth i (mkResp (r_fin w) p) R).
Proof.
  intros ck J F R i w p [C1 C2 C3 C4 C5 C6 C7 C8 C9 C10] Hw Hp. split; try assumption.
  intros k v. rewrite nth_set. destruct (Nat.eqb_spec i k) as [<-|N]; [|apply C10].
  rewrite Hw. intros [= <-]. cbn. split; [now apply (C10 i)|exact Hp].
Qed.

(** The core of a state, with the caller's thread. *)
Record inv (x : st) : Prop := mkInv {
  i_core : core (x_ck x) (x_jobs x) (x_fins x) (x_resps x);
  i_idle : match x_user x with UDecide _ | UWaitSave _ | UWrite _ _ => nth_error (x_jobs x) (x_ck x) = Some (mkJob JIdle None) | _ => True end;
  i_settled : match x_user x with UWrite _ _ | UCloseLast => forall f, In f (x_fins x) -> settled f | _ => True end }.

Lemma current_spec : forall x i f, current x = Some (i, f) -> nth_error (x_fins x) i = Some f /\ length (x_fins x) = S i.
Proof.
  intros x i f. unfold current. destruct (nth_error (x_fins x) (Nat.pred (length (x_fins x)))) as [g|] eqn:E; [|discriminate].
  intros [= <- <-]. split; [exact E|]. apply nth_lt in E. lia.
Qed.

Lemma current_none : forall x, current x = None -> x_fins x = [].
Proof.
  intros x. unfold current. destruct (nth_error (x_fins x) (Nat.pred (length (x_fins x)))) as [g|] eqn:E; [discriminate|].
  intros _. apply nth_error_None in E. destruct (x_fins x); [reflexivity|]. cbn in E. lia.
Qed.

Lemma settled_all : forall ck J F R f, core ck J F R -> nth_error F (Nat.pred (length F)) = Some f -> settled f -> forall g, In g F -> settled g.
Proof.
  intros ck J F R f C Hl Hs g Hg. apply In_nth_error in Hg. destruct Hg as [i Hi]. assert (Hlt := nth_lt _ _ _ Hi).
  destruct (Nat.eq_dec (S i) (length F)) as [E|N].
  - replace (Nat.pred (length F)) with i in Hl by lia. assert (g = f) by congruence. now subst.
  - apply (k_old _ _ _ _ C i); [assumption|lia].
Qed.

(** After a wait of the caller. *)
Lemma user_wait_core : forall x y e, inv x -> user_wait x = Some (y, e) ->
  core (x_ck y) (x_jobs y) (x_fins y) (x_resps y) /\ (forall f, In f (x_fins y) -> settled f) /\
  x_ck y = x_ck x /\ x_jobs y = x_jobs x /\ x_user y = x_user x /\ x_fs y = x_fs x /\ x_saving y = x_saving x /\ x_resps y = x_resps x.
Proof.
  intros x y e [C _ _]. unfold user_wait. destruct (current x) as [[i f]|] eqn:E.
  - apply current_spec in E. destruct E as [E L].
    assert (El : nth_error (x_fins x) (Nat.pred (length (x_fins x))) = Some f) by (rewrite L; exact E).
    destruct (f_pc f) as [| | | | |[e'|]] eqn:P; try discriminate.
    + destruct (f_told f) eqn:T.
      * intros [= <- <-]. split; [assumption|split; [|repeat split]]. apply (settled_all _ _ _ _ f C El). right. eauto.
      * intros [= <- <-]. cbn. assert (C' : core (x_ck x) (x_jobs x) (set_nth i (mkFin (f_step f) (f_rm f) (f_ck f) (f_pc f) true) (x_fins x)) (x_resps x)).
        { rewrite P. apply (core_fin _ _ _ _ i f); try reflexivity; try assumption; cbn.
          all: try (intros []; fail); try discriminate; auto.
          intros [H|[_ H]]; [rewrite P in H; discriminate|congruence]. }
        rewrite P in C'. split; [assumption|split; [|repeat split]].
        apply (settled_all _ _ _ _ (mkFin (f_step f) (f_rm f) (f_ck f) (PEnd (Some e')) true) C').
        -- rewrite len_set, nth_set, L. change (Nat.pred (S i)) with i. rewrite Nat.eqb_refl, E. reflexivity.
        -- right. cbn. eauto.
    + intros [= <- <-]. split; [assumption|split; [|repeat split]]. apply (settled_all _ _ _ _ f C El). now left.
  - intros [= <- <-]. split; [assumption|split; [|repeat split]]. rewrite (current_none _ E). intros f [].
Qed.

Lemma inv_init : forall o d, inv (tinit o d).
Proof. intros o d. split; cbn; auto. apply core_init. Qed.

Lemma total_rm : forall o, total_policy o -> forall cs i, exists rm, steps_to_remove (t_cfg o) (cs ++ [i]) = Ok rm.
Proof. intros o T cs i. destruct (T cs i) as [l E]. unfold steps_to_remove. rewrite E. cbn. eauto. Qed.

Lemma last_alive : forall ck J F R i f, core ck J F R -> nth_error F i = Some f -> ~ settled f -> length F = S i.
Proof.
  intros ck J F R i f C Hf N. assert (H := nth_lt _ _ _ Hf). destruct (Nat.eq_dec (S i) (length F)) as [E|E]; [auto|].
  elim N. apply (k_old _ _ _ _ C i); [assumption|lia].
Qed.

(** An exception of a checkpointer may be forgotten when its save has been finalized or has settled. *)
Lemma core_clear : forall ck J F R k j, core ck J F R -> nth_error J k = Some j ->
  (forall i f, nth_error F i = Some f -> f_ck f = k -> donepc (f_pc f) \/ failedpc (f_pc f)) ->
  core ck (set_nth k (mkJob (j_state j) None) J) F R.
Proof.
  intros ck J F R k j C Hj Hf. apply (core_job _ _ _ _ k j); try assumption; cbn; auto.
  intros s c E _. destruct (k_own _ _ _ _ C k j Hj) as [i [f [H1 H2]]]; [now rewrite E|].
  destruct (Hf i f H1 H2) as [D|D]; [|eauto].
  destruct (k_done _ _ _ _ C i f H1 D) as [c' [e' E']]. rewrite H2, Hj in E'. injection E' as ->. discriminate.
Qed.

Ltac sp := split; [|split; [reflexivity|split; [reflexivity|split; [reflexivity|split]]]].

Lemma fin_core : forall o i x y, inv x -> fin_step o i x = Some y ->
  core (x_ck y) (x_jobs y) (x_fins y) (x_resps y) /\ x_ck y = x_ck x /\ x_user y = x_user x /\ x_resps y = x_resps x /\
  (forall f, nth_error (x_fins x) i = Some f -> ~ settled f) /\
  (nth_error (x_jobs x) (x_ck x) = Some (mkJob JIdle None) -> nth_error (x_jobs y) (x_ck x) = Some (mkJob JIdle None)).
Proof.
  intros o i x y [C _ _]. unfold fin_step. destruct (nth_error (x_fins x) i) as [f|] eqn:E; [|discriminate].
  assert (NSt : forall p, f_pc f = p -> (forall e, p <> PEnd e) -> ~ settled f).
  { intros p Hp Hn [H|[[e H] _]]; rewrite Hp in H; now apply Hn in H. }
  assert (Hmv : forall J' p, core (x_ck x) J' (x_fins x) (x_resps x) -> (forall e, f_pc f <> PEnd e) -> (p = PStart -> f_pc f = PStart) ->
    (forall k, p = PWait k -> f_ck f = k) -> (donepc p -> exists c e, nth_error J' (f_ck f) = Some (mkJob (JDone (f_step f) c true) e)) -> (failedpc (f_pc f) -> failedpc p) ->
    core (x_ck x) J' (set_nth i (mkFin (f_step f) (f_rm f) (f_ck f) p (f_told f)) (x_fins x)) (x_resps x)).
  { intros J' p C' Hn H1 H2 H3 H4. apply (core_fin _ _ _ _ i f); try reflexivity; try assumption; cbn; auto.
    intros [H|[[e H] _]]; now apply Hn in H. }
  destruct (f_pc f) as [|k| |ss ops|e|e] eqn:P; try discriminate.
  - intros [= <-]. cbn. sp; [|intros g [= <-]; now apply (NSt _ eq_refl)|auto].
    apply Hmv; try discriminate; auto; try (intros []; fail). intros k [= <-]. now apply (k_start _ _ _ _ C i).
  - assert (Ek := k_wait _ _ _ _ C i f k E P). subst k.
    destruct (nth_error (x_jobs x) (f_ck f)) as [j|] eqn:Hj; [|discriminate].
    destruct (k_job _ _ _ _ C i f E) as [j' [Hj' Ho]]. assert (j' = j) by congruence. subst j'.
    destruct (j_state j) as [|s c m|s c ok] eqn:Ej; [elim Ho|discriminate|]. cbn in Ho. subst s. intros [= <-]. cbn.
    assert (Hnid : f_ck f = x_ck x -> nth_error (x_jobs x) (x_ck x) <> Some (mkJob JIdle None)).
    { intros Eq H. rewrite <- Eq, Hj in H. injection H as ->. discriminate. }
    destruct (j_exc j) as [e|] eqn:Ex.
    + sp; [|intros g [= <-]; now apply (NSt _ eq_refl)|].
      2:{ intro H. rewrite nth_set. destruct (Nat.eqb_spec (f_ck f) (x_ck x)) as [Eq|N]; [elim (Hnid Eq H)|exact H]. }
      (* first the thread, then the exception *)
      assert (C2 : core (x_ck x) (x_jobs x) (set_nth i (mkFin (f_step f) (f_rm f) (f_ck f) (PFinally (Some e)) (f_told f)) (x_fins x)) (x_resps x)).
      { apply Hmv; try discriminate; auto; try (intros []; fail). }
      rewrite <- Ej. apply core_clear; try assumption.
      intros n g. rewrite nth_set. destruct (Nat.eqb_spec i n) as [<-|N].
      * rewrite E. intros [= <-] _. right. exact I.
      * intros Hg Hgk. elim N. now apply (k_inj _ _ _ _ C i f n g).
    + assert (ok = true).
      { destruct ok; [reflexivity|]. assert (Hj2 : nth_error (x_jobs x) (f_ck f) = Some (mkJob (JDone (f_step f) c false) None)) by (rewrite Hj; destruct j; cbn in *; congruence).
        destruct (k_exc _ _ _ _ C _ _ _ _ Hj2) as [H|[n [g [H1 [H2 H3]]]]]; [now elim H|].
        assert (i = n) by (now apply (k_inj _ _ _ _ C i f n g)). subst n. assert (g = f) by congruence. subst g. rewrite P in H3. elim H3. }
      subst ok. assert (Hs : set_nth (f_ck f) (mkJob (JDone (f_step f) c true) None) (x_jobs x) = x_jobs x).
      { clear -Hj Ej Ex. apply nth_error_split in Hj. destruct Hj as [a [b [-> <-]]]. destruct j as [js je]. cbn in *. subst.
        induction a as [|h a IH]; [reflexivity|]. cbn. now rewrite IH. }
      rewrite Hs. sp; [|intros g [= <-]; now apply (NSt _ eq_refl)|auto].
      apply Hmv; try discriminate; auto; try (intros []; fail). intros _. exists c, None. rewrite Hj. destruct j; cbn in *; congruence.
  - intros [= <-].
    assert (D : exists c e, nth_error (x_jobs x) (f_ck f) = Some (mkJob (JDone (f_step f) c true) e)) by (apply (k_done _ _ _ _ C i); [assumption|now rewrite P]).
    destruct D as [c [e D]].
    destruct (nth_error (x_jobs x) (x_ck x)) as [j|] eqn:Hj.
    + cbn. assert (C' : core (x_ck x) (set_nth (x_ck x) (mkJob (j_state j) None) (x_jobs x)) (x_fins x) (x_resps x)).
      { apply core_clear; try assumption. intros n g Hg Hgk. destruct (Nat.eq_dec n i) as [->|N].
        - assert (g = f) by congruence. subst g. left. now rewrite P.
        - assert (L := last_alive _ _ _ _ _ _ C E (NSt _ eq_refl ltac:(discriminate))). assert (S := k_old _ _ _ _ C n g Hg).
          assert (Hlt := nth_lt _ _ _ Hg). destruct S as [S|[[e' S] _]]; [lia| |]; rewrite S; cbn; tauto. }
      sp; [|intros g [= <-]; now apply (NSt _ eq_refl)|intros [= ->]; cbn].
      * apply Hmv; try discriminate; auto; try (intros []; fail). intros _. rewrite nth_set. destruct (Nat.eqb_spec (x_ck x) (f_ck f)) as [Eq|N]; [|eauto].
        rewrite D. assert (j = mkJob (JDone (f_step f) c true) e) by congruence. subst j. cbn. eauto.
      * rewrite nth_set, Nat.eqb_refl, Hj. reflexivity.
    + cbn. sp; [|intros g [= <-]; now apply (NSt _ eq_refl)|discriminate].
      apply Hmv; try discriminate; eauto; try (intros []; fail).
  - assert (D : exists c e, nth_error (x_jobs x) (f_ck f) = Some (mkJob (JDone (f_step f) c true) e)) by (apply (k_done _ _ _ _ C i); [assumption|now rewrite P]).
    destruct ops as [|p ops].
    + destruct ss as [|t ss].
      * intros [= <-]. cbn. sp; [|intros g [= <-]; now apply (NSt _ eq_refl)|auto]. apply Hmv; try discriminate; auto; try (intros []; fail).
      * destruct (delete_ops (o_mode (t_cfg o)) t (x_fs x)) as [ops [e|]]; intros [= <-]; cbn; (sp; [|intros g [= <-]; now apply (NSt _ eq_refl)|auto]); apply Hmv; try discriminate; auto; try (intros []; fail).
    + intro Hy. assert (Hy' : Some (move i f (PDelete ss ops) (set_fs (apply_op p (x_fs x)) x)) = Some y) by (destruct ss; exact Hy). injection Hy' as <-.
      cbn. sp; [|intros g [= <-]; now apply (NSt _ eq_refl)|auto]. apply Hmv; try discriminate; auto; try (intros []; fail).
  - intros [= <-]. cbn. sp; [|intros g [= <-]; now apply (NSt _ eq_refl)|auto].
    apply Hmv; try discriminate; auto; try (intros []; fail). destruct e as [e|]; [intros []|]. intros _. apply (k_done _ _ _ _ C i); [assumption|now rewrite P].
Qed.

Lemma resp_core : forall i x y, inv x -> resp_step i x = Some y ->
  core (x_ck y) (x_jobs y) (x_fins y) (x_resps y) /\ x_ck y = x_ck x /\ x_user y = x_user x /\ x_jobs y = x_jobs x /\ x_fins y = x_fins x /\ x_fs y = x_fs x.
Proof.
  intros i x y [C _ _]. unfold resp_step. destruct (nth_error (x_resps x) i) as [w|] eqn:E; [|discriminate].
  destruct (k_resp _ _ _ _ C i w E) as [Hr Hp].
  assert (Hset : forall j f, nth_error (x_fins x) j = Some f -> (r_fin w <= j)%nat -> f_pc f = PEnd None -> exists g, nth_error (x_fins x) (r_fin w) = Some g /\ settled g).
  { intros j f Hf Hle P. destruct (nth_error (x_fins x) (r_fin w)) as [g|] eqn:G; [|apply nth_error_None in G; lia]. exists g. split; [reflexivity|].
    destruct (Nat.eq_dec (r_fin w) j) as [Eq|N]; [rewrite Eq in G; assert (g = f) by congruence; subst; now left|].
    apply (k_old _ _ _ _ C (r_fin w)); [assumption|]. apply nth_lt in Hf. lia. }
  destruct (r_pc w) as [| |s|s j|r] eqn:P; try discriminate.
  - destruct (current x) as [[j f]|] eqn:Ec.
    + apply current_spec in Ec. destruct Ec as [Ef L].
      destruct (f_pc f) as [| | | | |[e|]] eqn:Q; intros [= <-]; cbn; (split; [apply (core_resp _ _ _ _ _ _ _ C E); auto|repeat split]).
      apply (Hset j f); [assumption|lia|assumption].
    + apply current_none in Ec. rewrite Ec in Hr. cbn in Hr. lia.
  - destruct (current x) as [[j f]|] eqn:Ec; [|discriminate]. intros [= <-]. cbn. split; [now apply (core_resp _ _ _ _ _ _ _ C E)|repeat split].
  - destruct (current x) as [[j f]|] eqn:Ec; [|discriminate]. apply current_spec in Ec. destruct Ec as [Ef L]. intros [= <-]. cbn. split; [apply (core_resp _ _ _ _ _ _ _ C E); lia|repeat split].
  - destruct (nth_error (x_fins x) j) as [f|] eqn:Ef; [|discriminate].
    destruct (f_pc f) as [| | | | |[e|]] eqn:Q; try discriminate; intros [= <-]; cbn; (split; [apply (core_resp _ _ _ _ _ _ _ C E); auto|repeat split]).
    apply (Hset j f); [assumption|lia|assumption].
Qed.

Lemma inv_step : forall o l x y r, total_policy o -> inv x -> calm l x -> tstep o l x = Some (y, r) -> inv y.
Proof.
  intros o l x y r T I Q H. assert (C := i_core _ I).
  destruct l as [a| | |i|s| | | | |i|i|k|k|k e|k e]; cbn in H.
  - destruct (x_user x) eqn:U; try discriminate. injection H as H. unfold begin_save in H.
    assert (G : forall u d, match u with UIdle | UDelete _ _ | UReady _ => True | _ => False end -> inv (set_user u (set_fs d x))).
    { intros u d Hu. split; cbn; auto; destruct u; try elim Hu; exact Logic.I. }
    assert (G0 : inv x) by exact I.
    assert (G1 : forall d, inv (set_fs d x)) by (intro d; split; cbn; rewrite ?U; auto).
    assert (G2 : forall u, match u with UIdle | UDelete _ _ | UReady _ => True | _ => False end -> inv (set_user u x)).
    { intros u Hu. split; cbn; auto; destruct u; try elim Hu; exact Logic.I. }
    destruct (t_overwrite a).
    + destruct (o_read_only (t_cfg o)); [injection H as <- _; now apply G2|]. destruct (existsb _ _); [|injection H as <- _; now apply G2].
      destruct (delete_ops _ _ _) as [ops [e|]]; injection H as <- _; [apply G1|now apply G2].
    + destruct (checkpoints o x) as [l|e]; [destruct (existsb _ _)|]; injection H as <- _; auto.
  - destruct (x_user x) eqn:U; try discriminate. injection H as <- <-. split; cbn; auto.
  - destruct (x_user x) eqn:U; try discriminate. injection H as <- <-. split; cbn; auto.
  - destruct (x_user x) eqn:U; try discriminate. destruct (Nat.ltb i (length (x_resps x))); [|discriminate]. injection H as <- <-. split; cbn; auto.
  - destruct (x_user x) eqn:U; try discriminate. injection H as <- <-. exact I.
  - destruct (x_user x) eqn:U; try discriminate. injection H as <- <-. exact I.
  - destruct (x_user x) eqn:U; try discriminate. injection H as <- <-. split; cbn; rewrite ?U; auto.
  - unfold user_step in H. destruct (x_user x) as [|a ops|a|a|a|a ops| | | |i] eqn:U; try discriminate.
    + destruct ops; injection H as <- <-; split; cbn; auto.
    + injection H as <- <-. cbn in Q. split; cbn; auto.
      * apply core_swap with (ck := x_ck x); [exact C|]. intros f Hf. now apply (Q a).
      * rewrite nth_snoc, Nat.ltb_irrefl, Nat.eqb_refl. reflexivity.
    + assert (Hi := i_idle _ I). rewrite U in Hi.
      destruct (t_force a); [|destruct (should_save _ _ _ _ _) as [[|]|]]; injection H as <- <-; split; cbn; auto.
    + assert (Hi := i_idle _ I). rewrite U in Hi.
      destruct (user_wait x) as [[z [e|]]|] eqn:W; try discriminate.
      * injection H as <- <-. destruct (user_wait_core _ _ _ I W) as [C' _]. split; cbn; auto.
      * destruct (user_wait_core _ _ _ I W) as [C' [S [E1 [E2 _]]]].
        destruct (existsb _ _); injection H as <- <-; split; cbn; auto. congruence.
    + assert (Hi := i_idle _ I). assert (Hs := i_settled _ I). rewrite U in Hi, Hs.
      destruct ops as [|p ops].
      * unfold launch in H. destruct (total_rm o T (x_cache x) (mkInfo (t_step a) (t_now a) (t_metrics a))) as [rm E]. rewrite E in H.
        assert (C' := core_launch _ _ _ _ (t_step a) rm (ckpt_of a) (negb (t_async_dirs o)) C Hi Hs).
        destruct (t_sync a); injection H as <- <-; split; cbn; auto.
      * injection H as <- <-. split; cbn; auto.
    + destruct (user_wait x) as [[z e]|] eqn:W; try discriminate. injection H as <- <-. destruct (user_wait_core _ _ _ I W) as [C' _]. split; cbn; auto.
    + destruct (user_wait x) as [[z [e|]]|] eqn:W; try discriminate; injection H as <- <-; destruct (user_wait_core _ _ _ I W) as [C' [S _]]; split; cbn; auto.
    + assert (Hs := i_settled _ I). rewrite U in Hs. destruct (nth_error (x_jobs x) (x_ck x)) as [j|] eqn:Hj; [|discriminate].
      destruct (j_state j) as [|s c m|s c ok] eqn:Ej; try discriminate; injection H as <- <-; (split; cbn; auto);
        rewrite <- Ej; apply core_clear; try assumption; intros n g Hg _; destruct (Hs g) as [S|[[e' S] _]]; try (eapply nth_error_In; eauto); rewrite S; cbn; tauto.
    + destruct (nth_error (x_resps x) i) as [w|]; [|discriminate]. destruct (r_pc w) as [| |s|s j|[b|e]]; try discriminate; injection H as <- <-; split; cbn; auto.
  - destruct (x_user x) eqn:U; try discriminate. destruct (forallb _ _); [|discriminate]. injection H as <- <-. split; cbn; auto.
  - destruct (fin_step o i x) as [z|] eqn:F; [|discriminate]. injection H as <- <-.
    destruct (fin_core _ _ _ _ I F) as [C' [E1 [E2 [E3 [N K]]]]]. assert (Hi := i_idle _ I). assert (Hs := i_settled _ I).
    split; [exact C'| |]; rewrite E2.
    + destruct (x_user x); auto; rewrite E1; auto.
    + assert (F' := F). unfold fin_step in F'. destruct (nth_error (x_fins x) i) as [f|] eqn:Ef; [|discriminate].
      assert (Hf := nth_error_In _ _ Ef). destruct (x_user x); auto; elim (N f eq_refl); auto.
  - destruct (resp_step i x) as [z|] eqn:F; [|discriminate]. injection H as <- <-.
    destruct (resp_core _ _ _ I F) as [C' [E1 [E2 [E3 [E4 _]]]]]. assert (Hi := i_idle _ I). assert (Hs := i_settled _ I).
    split; [exact C'| |]; rewrite E2, ?E1, ?E3, ?E4; assumption.
  - destruct (nth_error (x_jobs x) k) as [[[|s c []|] e]|] eqn:Hj; try discriminate. injection H as <- <-.
    assert (Hi := i_idle _ I). assert (Hs := i_settled _ I). split; cbn; auto.
    + apply (core_job _ _ _ _ k _ _ C Hj); cbn; auto; discriminate.
    + rewrite nth_set. destruct (Nat.eqb_spec k (x_ck x)) as [->|]; [|exact Hi]. destruct (x_user x); auto; congruence.
  - destruct (nth_error (x_jobs x) k) as [[[|s c []|] e]|] eqn:Hj; try discriminate. destruct (can_commit s (x_fs x)); [|discriminate]. injection H as <- <-.
    assert (Hi := i_idle _ I). assert (Hs := i_settled _ I). split; cbn; auto.
    + apply (core_job _ _ _ _ k _ _ C Hj); cbn; auto; discriminate.
    + rewrite nth_set. destruct (Nat.eqb_spec k (x_ck x)) as [->|]; [|exact Hi]. destruct (x_user x); auto; congruence.
  - destruct (nth_error (x_jobs x) k) as [[[|s c m|] e']|] eqn:Hj; try discriminate. injection H as <- <-.
    assert (Hi := i_idle _ I). assert (Hs := i_settled _ I). split; cbn; auto.
    + apply (core_job _ _ _ _ k _ _ C Hj); cbn; auto; discriminate.
    + rewrite nth_set. destruct (Nat.eqb_spec k (x_ck x)) as [->|]; [|exact Hi]. destruct (x_user x); auto; congruence.
  - destruct (nth_error (x_jobs x) k) as [[[|s c []|] e']|] eqn:Hj; try discriminate. destruct (can_commit s (x_fs x)); [|discriminate]. injection H as <- <-.
    assert (Hi := i_idle _ I). assert (Hs := i_settled _ I). split; cbn; auto.
    + apply (core_job _ _ _ _ k _ _ C Hj); cbn; auto; discriminate.
    + rewrite nth_set. destruct (Nat.eqb_spec k (x_ck x)) as [->|]; [|exact Hi]. destruct (x_user x); auto; congruence.
Qed.

Lemma inv_run : forall o (P : label -> st -> Prop) x y, total_policy o -> (forall l z, P l z -> calm l z) -> inv x -> run o P x y -> inv y.
Proof. intros o P x y T HP I R. induction R as [|y z l r R IH Hl Hs]; [exact I|]. eapply inv_step; eauto. Qed.

(** * The files *)

Definition waits (p : fpc) : Prop := match p with PStart | PWait _ => True | _ => False end.
Definition del_shape (t : Z) (ops : list op) : Prop := ops = [] \/ ops = [ORmTmp t] \/ ops = [ODamage t; ORemove t] \/ ops = [ORemove t].
Definition write_shape (t : Z) (ops : list op) : Prop :=
  exists a b, ops = a ++ b /\ (a = [] \/ a = [ODamage t; ORemove t] \/ a = [ORemove t]) /\ (b = [] \/ b = [OMkTmp t]).
Definition user_removing (u : upc) (s : Z) : Prop := match u with UDelete _ (ORemove t :: _) | UWrite _ (ORemove t :: _) => t = s | _ => False end.
Definition removing (x : st) (s : Z) : Prop :=
  user_removing (x_user x) s \/ exists i f ss ops, nth_error (x_fins x) i = Some f /\ f_pc f = PDelete ss (ORemove s :: ops).
Definition contents (j : jstate) : option ckpt := match j with JRun _ c _ | JDone _ c _ => Some c | JIdle => None end.

Record dinv (x : st) : Prop := mkDinv {
  d_nodup : NoDup (committed_steps (x_fs x));
  d_run : forall i f, nth_error (x_fins x) i = Some f -> ~ waits (f_pc f) -> exists c ok e, nth_error (x_jobs x) (f_ck f) = Some (mkJob (JDone (f_step f) c ok) e);
  d_told : forall i f, nth_error (x_fins x) i = Some f -> f_told f = true -> exists e, f_pc f = PEnd (Some e);
  d_whole : forall k j c, nth_error (x_jobs x) k = Some j -> contents (j_state j) = Some c -> c_whole c = true;
  d_listed : forall s, listed x s -> (exists c, intact (x_fs x) s c) \/ (exists i f, current x = Some (i, f) /\ f_step f = s /\ pending f) \/ deleting x s;
  d_own : forall i f c e, current x = Some (i, f) -> nth_error (x_jobs x) (f_ck f) = Some (mkJob (JDone (f_step f) c true) e) -> listed x (f_step f) ->
    intact (x_fs x) (f_step f) c \/ deleting x (f_step f);
  d_same : forall i f c e, newest x i f -> nth_error (x_jobs x) (f_ck f) = Some (mkJob (JDone (f_step f) c true) e) ->
    forall c', In (f_step f, c') (committed (x_fs x)) -> c_whole c' = true -> c' = c;
  d_rm : forall i f s, current x = Some (i, f) -> ~ over f -> listed x s -> ~ In s (f_rm f);
  d_del : forall i f ss ops, nth_error (x_fins x) i = Some f -> f_pc f = PDelete ss ops -> incl ss (f_rm f) /\ exists t, (ops <> [] -> In t (f_rm f)) /\ del_shape t ops;
  d_user : match x_user x with UDelete a ops => del_shape (t_step a) ops | UWrite a ops => write_shape (t_step a) ops /\ ~ listed x (t_step a) | _ => True end;
  d_files : forall s c, In (s, c) (committed (x_fs x)) -> c_whole c = true \/ removing x s }.

Lemma current_of : forall x y i f', current y = Some (i, f') -> length (x_fins y) = length (x_fins x) -> forall f, nth_error (x_fins x) i = Some f -> current x = Some (i, f).
Proof.
  intros x y i f' H L f Hf. apply current_spec in H. destruct H as [_ Hl]. unfold current. rewrite <- L, Hl.
  change (Nat.pred (S i)) with i. now rewrite Hf.
Qed.

Definition moved (x y : st) (f f' : fin) : Prop :=
  f_step f' = f_step f /\ f_rm f' = f_rm f /\ f_ck f' = f_ck f /\
  (~ waits (f_pc f') -> exists c ok e, nth_error (x_jobs x) (f_ck f) = Some (mkJob (JDone (f_step f) c ok) e)) /\
  (f_told f' = true -> exists e, f_pc f' = PEnd (Some e)) /\
  (pending f -> listed y (f_step f) -> pending f' \/ exists c e, nth_error (x_jobs x) (f_ck f) = Some (mkJob (JDone (f_step f) c true) e)) /\
  (~ over f' -> ~ over f) /\
  (forall ss ops, f_pc f' = PDelete ss ops -> incl ss (f_rm f) /\ exists t, (ops <> [] -> In t (f_rm f)) /\ del_shape t ops) /\
  (forall ss s ops, f_pc f = PDelete ss (ORemove s :: ops) -> f_pc f' = f_pc f).

Lemma dframe : forall x y, dinv x -> committed (x_fs y) = committed (x_fs x) ->
  (forall k s c ok e, nth_error (x_jobs x) k = Some (mkJob (JDone s c ok) e) -> exists e', nth_error (x_jobs y) k = Some (mkJob (JDone s c ok) e')) ->
  (forall k s c e, nth_error (x_jobs y) k = Some (mkJob (JDone s c true) e) -> exists e', nth_error (x_jobs x) k = Some (mkJob (JDone s c true) e')) ->
  (forall k j c, nth_error (x_jobs y) k = Some j -> contents (j_state j) = Some c -> exists k' j', nth_error (x_jobs x) k' = Some j' /\ contents (j_state j') = Some c) ->
  length (x_fins y) = length (x_fins x) ->
  (forall i f', nth_error (x_fins y) i = Some f' -> exists f, nth_error (x_fins x) i = Some f /\ (f' = f \/ moved x y f f')) ->
  (forall s, listed y s -> listed x s) ->
  (forall s, deleting x s -> deleting y s \/ ~ listed y s) ->
  (match x_user y with UDelete a ops => del_shape (t_step a) ops | UWrite a ops => write_shape (t_step a) ops /\ ~ listed y (t_step a) | _ => True end) ->
  (forall s, user_removing (x_user x) s -> user_removing (x_user y) s) ->
  dinv y.
Proof.
  intros x y D Efs JD JB JW L F Hl Hd Hu Hr.
  assert (Ei : forall s c, intact (x_fs x) s c -> intact (x_fs y) s c) by (intros s c; unfold intact; now rewrite Efs).
  assert (Fsame : forall f f', f' = f \/ moved x y f f' -> f_step f' = f_step f /\ f_rm f' = f_rm f /\ f_ck f' = f_ck f).
  { intros f f' [->|[A [B [C _]]]]; auto. }
  split.
  - unfold committed_steps. rewrite Efs. apply (d_nodup _ D).
  - intros i f' Hf W. destruct (F i f' Hf) as [f [H1 H2]]. destruct (Fsame f f' H2) as [E1 [_ E3]]. rewrite E1, E3.
    assert (G : exists c ok e, nth_error (x_jobs x) (f_ck f) = Some (mkJob (JDone (f_step f) c ok) e)).
    { destruct H2 as [->|M]; [now apply (d_run _ D i)|]. apply M. exact W. }
    destruct G as [c [ok [e G]]]. destruct (JD _ _ _ _ _ G) as [e' G']. eauto.
  - intros i f' Hf W. destruct (F i f' Hf) as [f [H1 [->|M]]]; [now apply (d_told _ D i)|]. apply M. exact W.
  - intros k j c Hj Hc. destruct (JW k j c Hj Hc) as [k' [j' [H1 H2]]]. now apply (d_whole _ D k' j').
  - intros s Hs. destruct (d_listed _ D s (Hl s Hs)) as [H|[[i [f [H1 [H2 H3]]]]|H]].
    + left. destruct H as [c H]. eauto.
    + assert (Hc := current_spec _ _ _ H1). destruct Hc as [Hf Ln].
      destruct (nth_error (x_fins y) i) as [f'|] eqn:Hf'; [|apply nth_error_None in Hf'; lia].
      assert (Hcy : current y = Some (i, f')) by (apply (current_of y x i f H1); [congruence|assumption]).
      destruct (F i f' Hf') as [f0 [Hf0 H4]]. assert (f0 = f) by congruence. subst f0.
      destruct H4 as [->|M]; [right; left; exists i, f; auto|].
      destruct M as [M1 [_ [M3 [_ [_ [M6 _]]]]]]. subst s. destruct (M6 H3 Hs) as [Hp|[c [e Hj]]].
      * right; left. exists i, f'. auto.
      * destruct (d_own _ D i f c e H1 Hj (Hl _ Hs)) as [Hi|Hi]; [left; eauto|]. destruct (Hd _ Hi) as [H|H]; [auto|elim (H Hs)].
    + destruct (Hd s H) as [H'|H']; [auto|elim (H' Hs)].
  - intros i f' c e Hc Hj Hs. destruct (current_spec _ _ _ Hc) as [Hf' Ln]. destruct (F i f' Hf') as [f [Hf M]]. destruct (Fsame f f' M) as [E1 [_ E3]]. rewrite E1, E3 in *.
    destruct (JB _ _ _ _ Hj) as [e' Hj']. assert (Hcx : current x = Some (i, f)) by (apply (current_of x y i f' Hc); [congruence|assumption]).
    destruct (d_own _ D i f c e' Hcx Hj' (Hl _ Hs)) as [H|H]; [left; now apply Ei|]. destruct (Hd _ H) as [H'|H']; [auto|elim (H' Hs)].
  - intros i f' c e [Hf' Hn] Hj. destruct (F i f' Hf') as [f [Hf M]]. destruct (Fsame f f' M) as [E1 [_ E3]]. rewrite E1, E3 in *.
    destruct (JB _ _ _ _ Hj) as [e' Hj']. rewrite Efs. apply (d_same _ D i f c e'); [|assumption]. split; [exact Hf|]. intros i0 f0 H0 E0.
    destruct (nth_error (x_fins y) i0) as [f0'|] eqn:Hf0; [|apply nth_error_None in Hf0; apply nth_lt in H0; lia].
    destruct (F i0 f0' Hf0) as [f1 [Hf1 M1]]. assert (f1 = f0) by congruence. subst f1. destruct (Fsame f0 f0' M1) as [E4 _]. apply (Hn i0 f0' Hf0). congruence.
  - intros i f' s Hc Hn Hs. destruct (current_spec _ _ _ Hc) as [Hf' Ln]. destruct (F i f' Hf') as [f [Hf M]]. destruct (Fsame f f' M) as [_ [E2 _]]. rewrite E2.
    assert (Hcx : current x = Some (i, f)) by (apply (current_of x y i f' Hc); [congruence|assumption]).
    apply (d_rm _ D i f s Hcx); [|now apply Hl]. destruct M as [->|M]; [exact Hn|]. apply M. exact Hn.
  - intros i f' ss ops Hf' P. destruct (F i f' Hf') as [f [Hf M]]. destruct (Fsame f f' M) as [_ [E2 _]]. rewrite E2.
    destruct M as [->|M]; [now apply (d_del _ D i)|]. destruct M as [_ [_ [_ [_ [_ [_ [_ [M8 _]]]]]]]]. now apply M8.
  - exact Hu.
  - rewrite Efs. intros s c H. destruct (d_files _ D s c H) as [W|[R|[i [f [ss [ops [Hf P]]]]]]]; [now left|right; left; auto|].
    right; right. destruct (nth_error (x_fins y) i) as [f'|] eqn:Hf'; [|apply nth_error_None in Hf'; apply nth_lt in Hf; lia].
    destruct (F i f' Hf') as [f0 [Hf0 M]]. assert (f0 = f) by congruence. subst f0. exists i, f', ss, ops. split; [assumption|].
    destruct M as [->|M]; [exact P|]. destruct M as [_ [_ [_ [_ [_ [_ [_ [_ M9]]]]]]]]. rewrite (M9 ss s ops P). exact P.
Qed.

(** One operation on a directory. *)
Lemma nodup_op : forall p d, NoDup (committed_steps d) -> NoDup (committed_steps (apply_op p d)).
Proof.
  intros p d H. unfold committed_steps in *. destruct p as [s|s|s|s|s c|s|s]; cbn; try exact H.
  - rewrite damage_steps. exact H.
  - now apply NoDup_map_filter.
  - unfold dput. rewrite map_app. cbn [map fst]. apply (NoDup_Add (Add_app s (map fst (dremove s (committed d))) [])). rewrite app_nil_r.
    split; [now apply NoDup_map_filter|]. rewrite in_map_iff. intros [[t e] [E Hin]]. apply dremove_In in Hin. cbn in E. tauto.
  - now apply NoDup_map_filter.
Qed.

Lemma intact_op : forall p d s c, op_step p <> s -> intact d s c -> intact (apply_op p d) s c.
Proof. intros p d s c N [H W]. split; [|exact W]. now apply apply_op_other. Qed.

Lemma files_op : forall p d s c, In (s, c) (committed (apply_op p d)) ->
  match p with
  | ODamage t => s = t /\ c_whole c = false \/ s <> t /\ In (s, c) (committed d)
  | ORemove t => s <> t /\ In (s, c) (committed d)
  | OCommit t e => s = t /\ c = e \/ s <> t /\ In (s, c) (committed d)
  | OTrash t => In (s, c) (committed d)
  | _ => In (s, c) (committed d)
  end.
Proof.
  intros p d s c H. destruct p as [t|t|t|t|t e|t|t]; cbn in H; try exact H.
  - apply in_map_iff in H. destruct H as [[a b] [E H]]. cbn in E. destruct (Z.eqb_spec a t); injection E as E1 E2; subst; auto.
  - apply dremove_In in H. tauto.
  - unfold dput in H. apply in_app_iff in H. destruct H as [H|[[= <- <-]|[]]]; [apply dremove_In in H; tauto|tauto].
  - apply dremove_In in H. tauto.
Qed.

Lemma intact_commit : forall s c d, c_whole c = true -> intact (apply_op (OCommit s c) d) s c.
Proof. intros s c d W. split; [|exact W]. cbn. unfold dput. apply in_app_iff. right. now left. Qed.

Lemma delete_shape : forall s d ops e, delete_ops Permanent s d = (ops, e) -> e = None /\ del_shape s ops.
Proof.
  intros s d ops e H. unfold delete_ops in H. unfold del_shape. destruct (existsb (Z.eqb s) (tmps d)); [injection H as <- <-; auto|].
  destruct (dget s (committed d)); injection H as <- <-; auto.
Qed.

Lemma blocking_shape : forall o s d, write_shape s (blocking_ops o s d).
Proof.
  intros o s d. unfold blocking_ops. exists (match dget s (committed d) with Some _ => [ODamage s; ORemove s] | None => [] end), (if t_async_dirs o then [] else [OMkTmp s]).
  split; [reflexivity|]. split; [destruct (dget s (committed d)); auto|destruct (t_async_dirs o); auto].
Qed.

Lemma shape_head : forall t p ops, del_shape t (p :: ops) -> del_shape t ops /\ op_step p = t /\ (p = ODamage t -> ops = [ORemove t]) /\ (p = ODamage t \/ p = ORemove t \/ p = ORmTmp t).
Proof. intros t p ops [H|[H|[H|H]]]; inversion H; subst; unfold del_shape; cbn; repeat split; auto; try discriminate; tauto. Qed.

Lemma write_head : forall t p ops, write_shape t (p :: ops) -> write_shape t ops /\ op_step p = t /\ (p = ODamage t -> exists r, ops = ORemove t :: r) /\ (p = ODamage t \/ p = ORemove t \/ p = OMkTmp t).
Proof.
  intros t p ops [a [b [E [Ha Hb]]]]. destruct Ha as [->|[->| ->]]; cbn in E.
  - destruct Hb as [->| ->]; [discriminate|]. injection E as -> ->. repeat split; auto; try discriminate. exists [], []. auto.
  - injection E as -> ->. repeat split; auto; [|eauto]. exists [ORemove t], b. auto.
  - injection E as -> ->. repeat split; auto; try discriminate. exists [], b. auto.
Qed.

Lemma dinv_init : forall o d, sound d -> dinv (tinit o d).
Proof.
  intros o d [N W]. split; cbn; auto.
  - intros i f H. destruct i; discriminate.
  - intros i f H. destruct i; discriminate.
  - intros [|[|k]] j c H; try discriminate. injection H as <-. discriminate.
  - intros s H. left. unfold listed in H. cbn in H. unfold load_infos in H. apply in_map_iff in H. destruct H as [i [<- Hi]].
    apply (Permutation.Permutation_in _ (py_sorted_perm step _)) in Hi. apply in_map_iff in Hi. destruct Hi as [[s c] [E Hi]]. apply filter_In in Hi. destruct Hi as [Hi _].
    exists c. split; [|now apply (W s)]. destruct (o_lightweight (t_cfg o)); subst i; exact Hi.
  - intros i f c e H. discriminate.
  - intros i f c e [H _]. destruct i; discriminate.
  - intros i f s H. discriminate.
  - intros i f ss ops H. destruct i; discriminate.
  - intros s c H. left. now apply (W s).
Qed.

Lemma current_newest : forall x i f, current x = Some (i, f) -> newest x i f.
Proof. intros x i f H. destruct (current_spec _ _ _ H) as [H1 H2]. split; [exact H1|]. intros i' f' H3 _. apply nth_lt in H3. lia. Qed.

Lemma unsettled : forall f, ~ over f -> ~ settled f.
Proof. intros f N [H|[[e H] _]]; apply N; unfold over; eauto. Qed.

Lemma running_current : forall x k s c m e, inv x -> dinv x -> nth_error (x_jobs x) k = Some (mkJob (JRun s c m) e) ->
  exists i f, current x = Some (i, f) /\ f_ck f = k /\ f_step f = s /\ waits (f_pc f).
Proof.
  intros x k s c m e I D H. assert (C := i_core _ I). destruct (k_own _ _ _ _ C k _ H) as [i [f [Hf Ek]]]; [discriminate|].
  assert (W : waits (f_pc f)).
  { destruct (f_pc f) eqn:P; cbn; auto; exfalso; destruct (d_run _ D i f Hf) as [c' [ok [e' H']]]; try (rewrite P; cbn; tauto); congruence. }
  assert (L : length (x_fins x) = S i).
  { apply (last_alive _ _ _ _ i f C Hf). intros [E|[[e' E] _]]; rewrite E in W; destruct W. }
  exists i, f. split; [|split; [exact Ek|split; [|exact W]]].
  - unfold current. rewrite L. change (Nat.pred (S i)) with i. now rewrite Hf.
  - destruct (k_job _ _ _ _ C i f Hf) as [j [Hj Ho]]. rewrite Ek, H in Hj. injection Hj as <-. cbn in Ho. congruence.
Qed.

Lemma alive_current : forall x i f, inv x -> nth_error (x_fins x) i = Some f -> ~ over f -> current x = Some (i, f).
Proof.
  intros x i f I Hf N. assert (L := last_alive _ _ _ _ i f (i_core _ I) Hf (unsettled _ N)). unfold current. rewrite L. change (Nat.pred (S i)) with i. now rewrite Hf.
Qed.

Lemma same_fins : forall x y, x_fins y = x_fins x ->
  forall i f', nth_error (x_fins y) i = Some f' -> exists f, nth_error (x_fins x) i = Some f /\ (f' = f \/ moved x y f f').
Proof. intros x y E i f' H. rewrite E in H. eauto. Qed.

Lemma jobs_clear : forall x k j, nth_error (x_jobs x) k = Some j -> forall y, x_jobs y = set_nth k (mkJob (j_state j) None) (x_jobs x) ->
  (forall k s c ok e, nth_error (x_jobs x) k = Some (mkJob (JDone s c ok) e) -> exists e', nth_error (x_jobs y) k = Some (mkJob (JDone s c ok) e')) /\
  (forall k s c e, nth_error (x_jobs y) k = Some (mkJob (JDone s c true) e) -> exists e', nth_error (x_jobs x) k = Some (mkJob (JDone s c true) e')) /\
  (forall k j c, nth_error (x_jobs y) k = Some j -> contents (j_state j) = Some c -> exists k' j', nth_error (x_jobs x) k' = Some j' /\ contents (j_state j') = Some c).
Proof.
  intros x k j Hj y E. rewrite E. destruct j as [a b]. cbn [j_state] in *. repeat split.
  - intros k' s c ok e H. rewrite nth_set. destruct (Nat.eqb_spec k k') as [<-|N]; [|eauto]. rewrite Hj in *. injection H as -> ->. eauto.
  - intros k' s c e H. rewrite nth_set in H. destruct (Nat.eqb_spec k k') as [<-|N]; [|eauto]. rewrite Hj in *. injection H as -> _. eauto.
  - intros k' j' c H Hc. rewrite nth_set in H. destruct (Nat.eqb_spec k k') as [<-|N]; [|eauto]. rewrite Hj in *. injection H as <-. cbn in Hc. exists k, (mkJob a b). auto.
Qed.

(** Only the caller's thread and the list change, and the list loses elements. *)
Lemma dinv_user : forall x y, dinv x -> x_fs y = x_fs x -> x_jobs y = x_jobs x -> x_fins y = x_fins x -> (forall s, listed y s -> listed x s) ->
  (forall s, deleting x s -> deleting y s \/ ~ listed y s) ->
  (match x_user y with UDelete a ops => del_shape (t_step a) ops | UWrite a ops => write_shape (t_step a) ops /\ ~ listed y (t_step a) | _ => True end) ->
  (forall s, user_removing (x_user x) s -> user_removing (x_user y) s) -> dinv y.
Proof.
  intros x y D E1 E2 E3 H1 H2 H3 H4. apply (dframe x y D); auto; try (rewrite E2; eauto; fail).
  - now rewrite E1.
  - now rewrite E3.
  - now apply same_fins.
Qed.

(** An operation of the caller's thread. *)
Lemma dinv_user_op : forall x p u, dinv x -> (forall s, op_step p = s -> listed x s -> deleting (set_user u x) s) ->
  (forall s, deleting x s -> deleting (set_user u x) s) ->
  (match u with UDelete a ops => del_shape (t_step a) ops | UWrite a ops => write_shape (t_step a) ops /\ ~ listed x (t_step a) | _ => True end) ->
  (forall s, user_removing (x_user x) s -> p = ORemove s) -> (forall t, p = ODamage t -> user_removing u t) ->
  (forall t c, p <> OCommit t c) ->
  dinv (set_user u (set_fs (apply_op p (x_fs x)) x)).
Proof.
  intros x p u D H1 H2 H3 H4 H5 H6.
  assert (Hdel : forall s, deleting (set_user u x) s -> deleting (set_user u (set_fs (apply_op p (x_fs x)) x)) s) by (intros s H; exact H).
  split; cbn [x_fs x_jobs x_fins x_user x_cache set_user set_fs].
  - apply nodup_op, (d_nodup _ D).
  - apply (d_run _ D).
  - apply (d_told _ D).
  - apply (d_whole _ D).
  - intros s Hs. change (listed x s) in Hs. destruct (Z.eq_dec (op_step p) s) as [E|E]; [right; right; apply Hdel; auto|].
    destruct (d_listed _ D s Hs) as [[c H]|[H|H]]; [left; exists c; now apply intact_op|right; left; exact H|right; right; apply Hdel; auto].
  - intros i f c e Hc Hj Hs. change (listed x (f_step f)) in Hs. destruct (Z.eq_dec (op_step p) (f_step f)) as [E|E]; [right; apply Hdel; auto|].
    destruct (d_own _ D i f c e Hc Hj Hs) as [H|H]; [left; now apply intact_op|right; apply Hdel; auto].
  - intros i f c e Hc Hj c' Hin W. apply files_op in Hin. destruct p as [t|t|t|t|t c0|t|t]; try (now apply (d_same _ D i f c e Hc Hj)).
    + destruct Hin as [[_ H]|[_ H]]; [congruence|now apply (d_same _ D i f c e Hc Hj)].
    + now elim (H6 t c0).
  - apply (d_rm _ D).
  - apply (d_del _ D).
  - exact H3.
  - intros s c Hin. apply files_op in Hin.
    assert (G : In (s, c) (committed (x_fs x)) -> p <> ORemove s -> c_whole c = true \/ removing (set_user u (set_fs (apply_op p (x_fs x)) x)) s).
    { intros H N. destruct (d_files _ D s c H) as [W|[R|R]]; [auto|elim (N (H4 s R))|right; right; exact R]. }
    destruct p as [t|t|t|t|t c0|t|t]; try (apply G; [exact Hin|discriminate]).
    + destruct Hin as [[-> _]|[_ H]]; [right; left; cbn; now apply H5|apply G; [exact H|discriminate]].
    + destruct Hin as [N H]. apply G; [exact H|congruence].
    + now elim (H6 t c0).
Qed.

(** An operation of the thread that finalizes. *)
Lemma dinv_fin_op : forall x i f ss p ops, inv x -> dinv x -> nth_error (x_fins x) i = Some f -> f_pc f = PDelete ss (p :: ops) ->
  dinv (move i f (PDelete ss ops) (set_fs (apply_op p (x_fs x)) x)).
Proof.
  intros x i f ss p ops I D Hf P. destruct (d_del _ D i f ss _ Hf P) as [Hss [t [Ht Hsh]]]. destruct (shape_head _ _ _ Hsh) as [Hsh' [Hst [Hdam Hp]]].
  assert (Hrm : In t (f_rm f)) by (apply Ht; discriminate).
  assert (Nov : ~ over f) by (intros [e E]; congruence). assert (Hcur := alive_current x i f I Hf Nov). destruct (current_spec _ _ _ Hcur) as [_ Hlen].
  set (f' := mkFin (f_step f) (f_rm f) (f_ck f) (PDelete ss ops) (f_told f)).
  assert (Hcy : forall i0 f0, current (move i f (PDelete ss ops) (set_fs (apply_op p (x_fs x)) x)) = Some (i0, f0) -> i0 = i /\ f0 = f').
  { intros i0 f0 H. destruct (current_spec _ _ _ H) as [H1 H2]. cbn in H1, H2. rewrite len_set, Hlen in H2. assert (i0 = i) by lia. subst i0.
    rewrite nth_set, Nat.eqb_refl, Hf in H1. split; [reflexivity|]. injection H1 as <-. reflexivity. }
  assert (Hun : forall s, listed x s -> op_step p <> s) by (intros s Hs E; apply (d_rm _ D i f s Hcur Nov Hs); congruence).
  assert (Nf : forall i0 f0, nth_error (set_nth i f' (x_fins x)) i0 = Some f0 -> nth_error (x_fins x) i0 = Some f0 \/ i0 = i /\ f0 = f').
  { intros i0 f0 H. rewrite nth_set in H. destruct (Nat.eqb_spec i i0) as [<-|N]; [|auto]. rewrite Hf in H. injection H as <-. auto. }
  split; cbn [move set_fin set_fs x_fs x_jobs x_fins x_user x_cache].
  - apply nodup_op, (d_nodup _ D).
  - intros i0 f0 H W. destruct (Nf i0 f0 H) as [H'|[-> ->]]; [now apply (d_run _ D i0)|]. apply (d_run _ D i f Hf). rewrite P. cbn. tauto.
  - intros i0 f0 H W. destruct (Nf i0 f0 H) as [H'|[-> ->]]; [now apply (d_told _ D i0)|]. cbn in W. destruct (d_told _ D i f Hf W) as [e E]. congruence.
  - apply (d_whole _ D).
  - intros s Hs. change (listed x s) in Hs. destruct (d_listed _ D s Hs) as [[c H]|[H|H]].
    + left. exists c. apply intact_op; auto.
    + exfalso. destruct H as [i0 [f0 [H1 [H2 H3]]]]. assert (f0 = f) by congruence. subst f0. unfold pending in H3. now rewrite P in H3.
    + right; right; exact H.
  - intros i0 f0 c e Hc Hj Hs. destruct (Hcy _ _ Hc) as [-> ->]. cbn in Hj, Hs |- *. change (listed x (f_step f)) in Hs.
    destruct (d_own _ D i f c e Hcur Hj Hs) as [H|H]; [left; apply intact_op; auto|right; exact H].
  - intros i0 f0 c e [Hf0 Hn] Hj c' Hin W. cbn in Hf0, Hn. apply files_op in Hin.
    assert (G : In (f_step f0, c') (committed (x_fs x)) -> c' = c).
    { intros Hin'. assert (Hn' : forall i' f1, nth_error (x_fins x) i' = Some f1 -> f_step f1 = f_step f0 -> (i' <= i0)%nat).
      { intros i' f1 H1 E1. destruct (Nat.eq_dec i i') as [->|Ni]; [|apply (Hn i' f1); [rewrite nth_set; now destruct (Nat.eqb_spec i i'); [congruence|]|exact E1]].
        apply (Hn i' f'); [now rewrite nth_set, Nat.eqb_refl, Hf|]. cbn. congruence. }
      destruct (Nf i0 f0 Hf0) as [H0|[-> ->]]; [apply (d_same _ D i0 f0 c e); [now split|exact Hj|exact Hin'|exact W]|].
      apply (d_same _ D i f c e); [now split|exact Hj|exact Hin'|exact W]. }
    destruct Hp as [->|[->| ->]]; cbn in Hin.
    + destruct Hin as [[_ H]|[_ H]]; [congruence|auto].
    + destruct Hin as [_ H]. auto.
    + auto.
  - intros i0 f0 s Hc N Hs. destruct (Hcy _ _ Hc) as [-> ->]. cbn. now apply (d_rm _ D i f s Hcur).
  - intros i0 f0 ss0 ops0 H P0. destruct (Nf i0 f0 H) as [H'|[-> ->]]; [now apply (d_del _ D i0)|]. cbn in P0. injection P0 as <- <-. split; [exact Hss|]. exists t. auto.
  - apply (d_user _ D).
  - intros s c Hin. apply files_op in Hin.
    assert (G : In (s, c) (committed (x_fs x)) -> p <> ORemove s -> c_whole c = true \/ removing (move i f (PDelete ss ops) (set_fs (apply_op p (x_fs x)) x)) s).
    { intros H N. destruct (d_files _ D s c H) as [W|[R|[i0 [f0 [ss0 [ops0 [H1 H2]]]]]]]; [auto|right; left; exact R|].
      destruct (Nat.eq_dec i0 i) as [->|Ni]; [exfalso; assert (f0 = f) by congruence; subst f0; rewrite P in H2; congruence|].
      right; right. exists i0, f0, ss0, ops0. split; [|exact H2]. cbn. rewrite nth_set. now destruct (Nat.eqb_spec i i0); [congruence|]. }
    destruct Hp as [->|[->| ->]]; cbn in Hin.
    + destruct Hin as [[-> _]|[_ H]]; [|apply G; [exact H|discriminate]]. right; right. exists i, f', ss, []. split; [|cbn; now rewrite (Hdam eq_refl)].
      cbn. now rewrite nth_set, Nat.eqb_refl, Hf.
    + destruct Hin as [N H]. apply G; [exact H|congruence].
    + apply G; [exact Hin|discriminate].
Qed.

(** The commit of a save. *)
Lemma dinv_commit : forall x k s c e ok e', inv x -> dinv x -> nth_error (x_jobs x) k = Some (mkJob (JRun s c true) e) ->
  dinv (set_job k (mkJob (JDone s c ok) e') (set_fs (apply_op (OCommit s c) (x_fs x)) x)).
Proof.
  intros x k s c e ok e' I D Hk. destruct (running_current x k s c true e I D Hk) as [i [f [Hcur [Ek [Es W]]]]].
  assert (Wc : c_whole c = true) by (apply (d_whole _ D k _ c Hk); reflexivity).
  split; cbn [set_job set_fs x_fs x_jobs x_fins x_user x_cache].
  - apply nodup_op, (d_nodup _ D).
  - intros i0 f0 H N. destruct (d_run _ D i0 f0 H N) as [c0 [ok0 [e0 H0]]]. exists c0, ok0, e0. rewrite nth_set.
    destruct (Nat.eqb_spec k (f_ck f0)) as [->|_]; [congruence|exact H0].
  - apply (d_told _ D).
  - intros k0 j c0 H Hc. rewrite nth_set in H. destruct (Nat.eqb_spec k k0) as [<-|_]; [|now apply (d_whole _ D k0 j)]. rewrite Hk in H. injection H as <-. cbn in Hc. congruence.
  - intros s0 Hs. change (listed x s0) in Hs. destruct (Z.eq_dec s s0) as [<-|N]; [left; exists c; now apply intact_commit|].
    destruct (d_listed _ D s0 Hs) as [[c0 H]|[H|H]]; [left; exists c0; now apply intact_op|right; left; exact H|right; right; exact H].
  - intros i0 f0 c0 e0 Hc Hj Hs. change (current x = Some (i0, f0)) in Hc. rewrite Hcur in Hc. injection Hc as <- <-. rewrite nth_set, Ek, Nat.eqb_refl, Hk in Hj. injection Hj as _ <- _ _.
    left. rewrite Es. now apply intact_commit.
  - intros i0 f0 c0 e0 [Hf0 Hn] Hj c' Hin W'. cbn in Hf0, Hn. apply files_op in Hin. destruct (current_spec _ _ _ Hcur) as [Hf Hlen]. destruct (Nat.eq_dec i0 i) as [->|Ni].
    + assert (f0 = f) by congruence. subst f0. rewrite nth_set, Ek, Nat.eqb_refl, Hk in Hj. injection Hj as _ <- _ _. destruct Hin as [[_ H]|[N _]]; [exact H|congruence].
    + destruct Hin as [[E _]|[_ H]]; [exfalso; assert (L := Hn i f Hf (eq_trans Es (eq_sym E))); apply nth_lt in Hf0; lia|].
      apply (d_same _ D i0 f0 c0 e0); [now split| |exact H|exact W']. rewrite nth_set in Hj. destruct (Nat.eqb_spec k (f_ck f0)) as [E|_]; [|exact Hj].
      exfalso. apply Ni. apply (k_inj _ _ _ _ (i_core _ I) i0 f0 i f Hf0 Hf). congruence.
  - apply (d_rm _ D).
  - apply (d_del _ D).
  - apply (d_user _ D).
  - intros s0 c0 Hin. apply files_op in Hin. destruct Hin as [[_ ->]|[_ H]]; [auto|]. exact (d_files _ D s0 c0 H).
Qed.

(** A wait in the caller's thread. *)
Lemma dinv_wait : forall x y e u, dinv x -> user_wait x = Some (y, e) -> (forall a ops, x_user x <> UDelete a ops) -> (forall a ops, x_user x <> UWrite a ops) ->
  (match u with UDelete _ _ => False | UWrite a ops => write_shape (t_step a) ops /\ ~ listed y (t_step a) | _ => True end) -> dinv (set_user u y).
Proof.
  intros x y e u D H N1 N2 Hu. unfold user_wait in H.
  assert (Hr : forall s, user_removing (x_user x) s -> user_removing u s) by (intros s Hr; unfold user_removing in Hr; destruct (x_user x) eqn:U; try destruct Hr; [elim (N1 a ops eq_refl)|elim (N2 a ops eq_refl)]).
  assert (Hd : forall s z, deleting x s -> deleting (set_user u z) s \/ ~ listed (set_user u z) s) by (intros s z [a [ops [E _]]]; elim (N1 a ops E)).
  assert (Same : y = x -> dinv (set_user u y)).
  { intros ->. apply (dinv_user x); cbn; auto; [intros s Hs; apply Hd; exact Hs|]. destruct u; auto. destruct Hu. }
  destruct (current x) as [[i f]|] eqn:Hc; [|injection H as <- <-; auto].
  destruct (f_pc f) eqn:P; try discriminate. destruct e0 as [er|]; [|injection H as <- <-; auto].
  destruct (f_told f) eqn:T; [injection H as <- <-; auto|]. injection H as <- <-. destruct (current_spec _ _ _ Hc) as [Hf Hlen].
  apply (dframe x); auto; try (cbn; eauto; fail).
  - cbn. apply len_set.
  - intros i0 f' H. cbn in H. rewrite nth_set in H. destruct (Nat.eqb_spec i i0) as [<-|N]; [|eauto]. rewrite Hf in H. injection H as <-. exists f. split; [exact Hf|]. right.
    unfold moved. cbn. rewrite P. split; [reflexivity|split; [reflexivity|split; [reflexivity|split; [|split; [|split; [|split; [|split]]]]]]].
    + intros _. apply (d_run _ D i f Hf). rewrite P. cbn. tauto.
    + eauto.
    + intros _ L. unfold listed in L. cbn in L. apply drop_steps_In in L. destruct L as [_ L]. elim L. now left.
    + intros Nv [e0 E]. apply Nv. unfold over. cbn. eauto.
    + intros ss ops E. discriminate.
    + discriminate.
  - intros s L. unfold listed in *. cbn in L. apply drop_steps_In in L. tauto.
  - cbn. destruct u; auto. destruct Hu.
Qed.

(** A save begins in the background. *)
Lemma dinv_launch : forall o a x, total_policy o -> inv x -> dinv x -> x_user x = UWrite a [] -> dinv (fst (launch o a x)).
Proof.
  intros o a x T I D U. assert (Hi := i_idle _ I). assert (Hs := i_settled _ I). rewrite U in Hi, Hs. unfold launch.
  destruct (total_rm o T (x_cache x) (mkInfo (t_step a) (t_now a) (t_metrics a))) as [rm Hrm]. rewrite Hrm.
  assert (Hp : forall i f, nth_error (x_fins x) i = Some f -> exists e, f_pc f = PEnd e).
  { intros i f H. apply nth_error_In in H. destruct (Hs f H) as [E|[[e E] _]]; eauto. }
  assert (Hck : forall i f, nth_error (x_fins x) i = Some f -> f_ck f <> x_ck x).
  { intros i f H E. destruct (k_job _ _ _ _ (i_core _ I) i f H) as [j [Hj Ho]]. rewrite E, Hi in Hj. injection Hj as <-. exact Ho. }
  set (nf := mkFin (t_step a) rm (x_ck x) PStart false).
  set (y := add_fin nf (set_cache (drop_steps rm (x_cache x ++ [mkInfo (t_step a) (t_now a) (t_metrics a)]))
    (set_user UIdle (set_cache (x_cache x ++ [mkInfo (t_step a) (t_now a) (t_metrics a)]) (set_job (x_ck x) (mkJob (JRun (t_step a) (ckpt_of a) (negb (t_async_dirs o))) None) x))))).
  assert (Hf : forall i f, nth_error (x_fins y) i = Some f -> nth_error (x_fins x) i = Some f \/ i = length (x_fins x) /\ f = nf).
  { intros i f H. cbn in H. rewrite nth_snoc in H. destruct (Nat.ltb_spec i (length (x_fins x))); [auto|]. destruct (Nat.eqb_spec i (length (x_fins x))) as [->|]; [|discriminate]. injection H as <-. auto. }
  assert (Hl : forall s, listed y s -> (listed x s \/ s = t_step a) /\ ~ In s rm).
  { intros s H. unfold listed, y in H. cbn in H. apply drop_steps_In in H. destruct H as [H N]. rewrite map_app, in_app_iff in H. cbn in H. split; [|exact N]. destruct H as [H|[H|[]]]; auto. }
  assert (Hc : forall i f, current y = Some (i, f) -> i = length (x_fins x) /\ f = nf).
  { intros i f H. destruct (current_spec _ _ _ H) as [H1 H2]. destruct (Hf i f H1) as [H3|H3]; [|exact H3]. apply nth_lt in H3. cbn in H2. rewrite app_length in H2. cbn in H2. lia. }
  assert (Hcy : current y = Some (length (x_fins x), nf)).
  { unfold current. cbn. rewrite app_length. cbn. replace (Nat.pred (length (x_fins x) + 1)) with (length (x_fins x)) by lia. now rewrite nth_snoc, Nat.ltb_irrefl, Nat.eqb_refl. }
  assert (G : dinv y).
  { split.
    - apply (d_nodup _ D).
    - intros i f H W. destruct (Hf i f H) as [H'|[-> ->]]; [|elim W; exact Logic.I]. destruct (d_run _ D i f H' W) as [c [ok [e Hj]]]. exists c, ok, e. cbn. rewrite nth_set.
      destruct (Nat.eqb_spec (x_ck x) (f_ck f)) as [E|_]; [elim (Hck i f H'); congruence|exact Hj].
    - intros i f H W. destruct (Hf i f H) as [H'|[-> ->]]; [now apply (d_told _ D i)|discriminate].
    - intros k j c H E. cbn in H. rewrite nth_set in H. destruct (Nat.eqb_spec (x_ck x) k) as [<-|_]; [|now apply (d_whole _ D k j)]. rewrite Hi in H. injection H as <-. cbn in E. now injection E as <-.
    - intros s H. destruct (Hl s H) as [[L|L] _]; [|right; left; exists (length (x_fins x)), nf; rewrite Hcy; cbn; auto]. destruct (d_listed _ D s L) as [G|[[i [f [H1 [H2 H3]]]]|[b [ops [H1 _]]]]].
      + left. exact G.
      + exfalso. destruct (current_spec _ _ _ H1) as [H4 _]. apply nth_error_In in H4. unfold pending in H3. destruct (Hs f H4) as [E|[[e E] Et]]; rewrite E in H3; [exact H3|congruence].
      + congruence.
    - intros i f c e H Hj. destruct (Hc i f H) as [-> ->]. cbn in Hj. rewrite nth_set, Nat.eqb_refl, Hi in Hj. discriminate.
    - intros i f c e [H Hn] Hj. destruct (Hf i f H) as [H'|[-> ->]]; [|cbn in Hj; rewrite nth_set, Nat.eqb_refl, Hi in Hj; discriminate].
      apply (d_same _ D i f c e).
      + split; [exact H'|]. intros i' f' H1 E1. apply (Hn i' f'); [|exact E1]. cbn. rewrite nth_snoc. destruct (Nat.ltb_spec i' (length (x_fins x))); [exact H1|apply nth_lt in H1; lia].
      + cbn in Hj. rewrite nth_set in Hj. destruct (Nat.eqb_spec (x_ck x) (f_ck f)) as [E|_]; [elim (Hck i f H'); congruence|exact Hj].
    - intros i f s H _ L. destruct (Hc i f H) as [-> ->]. cbn. now apply Hl.
    - intros i f ss ops H P. destruct (Hf i f H) as [H'|[-> ->]]; [|discriminate]. destruct (Hp i f H') as [e E]. congruence.
    - exact Logic.I.
    - intros s c H. destruct (d_files _ D s c H) as [W|[R|[i [f [ss [ops [H1 H2]]]]]]]; [auto|rewrite U in R; destruct R|]. destruct (Hp i f H1) as [e E]. congruence. }
  destruct (t_sync a); cbn [fst]; [|exact G]. apply (dinv_user y); cbn; auto. intros s [b [ops [E _]]]. discriminate.
Qed.

(** A thread that finalizes goes on without touching files. *)
Lemma dinv_move : forall x y i f p, dinv x -> nth_error (x_fins x) i = Some f -> ~ over f ->
  x_fs y = x_fs x -> x_fins y = set_nth i (mkFin (f_step f) (f_rm f) (f_ck f) p (f_told f)) (x_fins x) -> x_cache y = x_cache x -> x_user y = x_user x ->
  (x_jobs y = x_jobs x \/ exists k j, nth_error (x_jobs x) k = Some j /\ x_jobs y = set_nth k (mkJob (j_state j) None) (x_jobs x)) ->
  (~ waits p -> exists c ok e, nth_error (x_jobs x) (f_ck f) = Some (mkJob (JDone (f_step f) c ok) e)) ->
  (pending f -> pending (mkFin (f_step f) (f_rm f) (f_ck f) p (f_told f)) \/ exists c e, nth_error (x_jobs x) (f_ck f) = Some (mkJob (JDone (f_step f) c true) e)) ->
  (forall ss ops, p = PDelete ss ops -> incl ss (f_rm f) /\ exists t, (ops <> [] -> In t (f_rm f)) /\ del_shape t ops) ->
  (forall ss q ops, f_pc f <> PDelete ss (q :: ops)) -> dinv y.
Proof.
  intros x y i f p D Hf N E1 E2 E3 E4 E5 H1 H2 H3 H4.
  assert (Hl : forall s, listed y s -> listed x s) by (intros s; unfold listed; now rewrite E3).
  assert (Ht : f_told f = false) by (destruct (f_told f) eqn:T; [destruct (d_told _ D i f Hf T) as [e E]; elim N; exists (Some e); exact E|reflexivity]).
  assert (J : (forall k s c ok e, nth_error (x_jobs x) k = Some (mkJob (JDone s c ok) e) -> exists e', nth_error (x_jobs y) k = Some (mkJob (JDone s c ok) e')) /\
    (forall k s c e, nth_error (x_jobs y) k = Some (mkJob (JDone s c true) e) -> exists e', nth_error (x_jobs x) k = Some (mkJob (JDone s c true) e')) /\
    (forall k j c, nth_error (x_jobs y) k = Some j -> contents (j_state j) = Some c -> exists k' j', nth_error (x_jobs x) k' = Some j' /\ contents (j_state j') = Some c)).
  { destruct E5 as [E5|[k [j [Hj E5]]]]; [rewrite E5; repeat split; eauto|]. now apply (jobs_clear x k j). }
  destruct J as [J1 [J2 J3]]. apply (dframe x); auto.
  - now rewrite E1.
  - rewrite E2. apply len_set.
  - intros i0 f' H. rewrite E2, nth_set in H. destruct (Nat.eqb_spec i i0) as [<-|Ni]; [|eauto]. rewrite Hf in H. injection H as <-. exists f. split; [exact Hf|]. right.
    unfold moved. cbn [f_step f_rm f_ck f_pc f_told]. split; [reflexivity|split; [reflexivity|split; [reflexivity|split; [|split; [|split; [|split; [|split]]]]]]]; auto.
    + congruence.
    + intros ss s ops E. elim (H4 _ _ _ E).
  - intros s [a [ops [E Es]]]. left. exists a, ops. split; [congruence|exact Es].
  - rewrite E4. assert (U := d_user _ D). destruct (x_user x); auto. destruct U as [U1 U2]. split; [exact U1|]. intro L. now apply U2, Hl.
  - now rewrite E4.
Qed.

Lemma dinv_fin : forall o i x y, o_mode (t_cfg o) = Permanent -> inv x -> dinv x -> fin_step o i x = Some y -> dinv y.
Proof.
  intros o i x y M I D H. unfold fin_step in H. destruct (nth_error (x_fins x) i) as [f|] eqn:Hf; [|discriminate]. assert (C := i_core _ I).
  destruct (f_pc f) as [|k| |ss ops|e|e] eqn:P.
  - injection H as <-. apply (dinv_move x _ i f (PWait (x_ck x))); auto; try (cbn; rewrite ?P; try tauto; try discriminate; fail); try (intros [e E]; congruence); try congruence.
  - destruct (nth_error (x_jobs x) k) as [j|] eqn:Hj; [|discriminate]. assert (Ek := k_wait _ _ _ _ C i f k Hf P).
    destruct (k_job _ _ _ _ C i f Hf) as [j' [Hj' Ho]]. rewrite Ek, Hj in Hj'. injection Hj' as <-.
    destruct j as [js ex]. cbn [j_state j_exc] in *. destruct js as [|s c m|s c ok]; [destruct Ho|discriminate|]. cbn in Ho. subst s. injection H as <-.
    apply (dinv_move x _ i f (match ex with Some e => PFinally (Some e) | None => PCheck end)); auto; try (intros [e E]; congruence); try congruence.
    + right. exists k, (mkJob (JDone (f_step f) c ok) ex). split; [exact Hj|reflexivity].
    + intros _. rewrite Ek, Hj. eauto.
    + intros _. destruct ex as [e|]; [left; exact Logic.I|]. right. destruct ok; [rewrite Ek; eauto|].
      exfalso. destruct (k_exc _ _ _ _ C k _ _ _ Hj) as [E|[i' [f' [H1 [H2 H3]]]]]; [congruence|]. assert (i' = i) by (apply (k_inj _ _ _ _ C i' f' i f); congruence). subst i'. rewrite Hf in H1. injection H1 as <-. now rewrite P in H3.
    + intros ss ops E. destruct ex; discriminate.
  - injection H as <-. assert (R := d_run _ D i f Hf). rewrite P in R. cbn in R.
    apply (dinv_move x _ i f (PDelete (f_rm f) [])); auto; try (intros [e E]; congruence); try congruence; try (destruct (nth_error (x_jobs x) (x_ck x)); reflexivity).
    + destruct (nth_error (x_jobs x) (x_ck x)) as [j|] eqn:Hj; [right; exists (x_ck x), j; auto|left; reflexivity].
    + intros E. unfold pending in E. rewrite P in E. destruct E.
    + intros ss ops E. injection E as <- <-. split; [apply incl_refl|]. exists 0. split; [congruence|now left].
  - assert (R := d_run _ D i f Hf). rewrite P in R. cbn in R. assert (Np : pending f -> False) by (unfold pending; now rewrite P).
    destruct ops as [|p ops].
    + destruct ss as [|t ss].
      * injection H as <-. apply (dinv_move x _ i f (PFinally None)); auto; try (intros [e E]; congruence); try congruence; try tauto.
      * destruct (delete_ops (o_mode (t_cfg o)) t (x_fs x)) as [ops e] eqn:Ed. rewrite M in Ed. destruct (delete_shape _ _ _ _ Ed) as [-> Hsh]. injection H as <-.
        destruct (d_del _ D i f _ _ Hf P) as [Hss _].
        apply (dinv_move x _ i f (PDelete ss ops)); auto; try (intros [e E]; congruence); try congruence; try tauto.
        intros ss' ops' E. injection E as <- <-. split; [intros s Hs; apply Hss; now right|]. exists t. split; [|exact Hsh]. intros _. apply Hss. now left.
    + assert (Hy : y = move i f (PDelete ss ops) (set_fs (apply_op p (x_fs x)) x)) by (destruct ss; injection H as <-; reflexivity). subst y. now apply dinv_fin_op.
  - injection H as <-. assert (R := d_run _ D i f Hf). rewrite P in R. cbn in R. apply (dinv_move x _ i f (PEnd e)); auto; try (intros [e' E]; congruence); try congruence.
    + intros E. left. unfold pending in *. rewrite P in E. cbn. destruct e; [|destruct E].
      destruct (f_told f) eqn:T; [|reflexivity]. destruct (d_told _ D i f Hf T) as [e' E']. congruence.
  - discriminate.
Qed.

Lemma resp_listed : forall i x z, resp_step i x = Some z -> forall s, listed z s -> listed x s.
Proof.
  intros i x z E. intros s. unfold resp_step in E. destruct (nth_error (x_resps x) i) as [w|]; [|discriminate]. unfold listed.
      destruct (r_pc w) as [| |t|t j|q]; try discriminate.
      - destruct (current x) as [[i' f]|]; [destruct (f_pc f) as [| | | | |[]]|]; injection E as <-; cbn; auto.
      - destruct (current x) as [[i' f]|]; [|discriminate]. injection E as <-. cbn. auto.
      - destruct (current x) as [[i' f]|]; [|discriminate]. injection E as <-. cbn. auto.
      - destruct (nth_error (x_fins x) j) as [f|]; [|discriminate]. destruct (f_pc f) as [| | | | |[]]; try discriminate; injection E as <-; cbn; auto. rewrite drop_steps_In. tauto.
Qed.

Lemma dinv_step : forall o l x y r, total_policy o -> o_mode (t_cfg o) = Permanent -> inv x -> dinv x -> calm l x -> tstep o l x = Some (y, r) -> dinv y.
Proof.
  intros o l x y r T M I D Q H. assert (C := i_core _ I).
  assert (Idle : forall u, x_user x = UIdle -> (match u with UDelete a ops => del_shape (t_step a) ops | UWrite _ _ => False | _ => True end) -> dinv (set_user u x)).
  { intros u U Hu. apply (dinv_user x); auto.
    - intros s [a [ops [E _]]]. congruence.
    - cbn. destruct u; auto. destruct Hu.
    - intros s E. rewrite U in E. destruct E. }
  assert (Quit : forall u, (forall a ops, x_user x <> UDelete a ops) -> (forall a ops, x_user x = UWrite a ops -> forall s, ~ user_removing (x_user x) s) ->
    (match u with UDelete a ops => False | UWrite _ _ => False | _ => True end) -> dinv (set_user u x)).
  { intros u N1 N2 Hu. apply (dinv_user x); auto.
    - intros s [a [ops [E _]]]. elim (N1 _ _ E).
    - cbn. destruct u; auto; destruct Hu.
    - intros s E. destruct (x_user x) eqn:U; cbn in E; try destruct E; [elim (N1 a ops eq_refl)|elim (N2 a ops eq_refl s E)]. }
  destruct l as [a| | |i|s| | | | |i|i|k|k|k e|k e]; cbn in H.
  - destruct (x_user x) eqn:U; try discriminate. injection H as H. unfold begin_save in H.
    assert (S1 : dinv (set_user (UReady a) x)) by (apply Idle; auto).
    destruct (t_overwrite a).
    + destruct (o_read_only (t_cfg o)); [injection H as <- <-; exact S1|]. destruct (existsb (Z.eqb (t_step a)) (map step (x_cache x))); [|injection H as <- <-; exact S1].
      destruct (delete_ops (o_mode (t_cfg o)) (t_step a) (x_fs x)) as [ops e] eqn:Ed. rewrite M in Ed. destruct (delete_shape _ _ _ _ Ed) as [-> Hsh]. injection H as <- <-. apply Idle; auto.
    + destruct (checkpoints o x) as [cs|e]; [|injection H as <- <-; exact D]. destruct (existsb (Z.eqb (t_step a)) cs); injection H as <- <-; [exact D|exact S1].
  - destruct (x_user x) eqn:U; try discriminate. injection H as <- <-. now apply Idle.
  - destruct (x_user x) eqn:U; try discriminate. injection H as <- <-. now apply Idle.
  - destruct (x_user x) eqn:U; try discriminate. destruct (Nat.ltb i (length (x_resps x))); [|discriminate]. injection H as <- <-. now apply Idle.
  - destruct (x_user x) eqn:U; try discriminate. injection H as <- <-. exact D.
  - destruct (x_user x) eqn:U; try discriminate. injection H as <- <-. exact D.
  - destruct (x_user x) eqn:U; try discriminate. injection H as <- <-. cbn in Q.
    assert (W : forall s c, In (s, c) (committed (x_fs x)) -> c_whole c = true).
    { intros s c Hin. destruct (d_files _ D s c Hin) as [W|[R|[i [f [ss [ops [H1 H2]]]]]]]; [exact W|rewrite U in R; destruct R|].
      destruct (Q f (nth_error_In _ _ H1)) as [e E]. congruence. }
    assert (L : forall s, listed (set_cache (load_infos false (x_fs x)) x) s -> exists c, intact (x_fs x) s c).
    { intros s Hs. unfold listed in Hs. cbn in Hs. unfold load_infos in Hs. apply in_map_iff in Hs. destruct Hs as [j [<- Hj]].
      apply (Permutation.Permutation_in _ (py_sorted_perm step _)) in Hj. apply in_map_iff in Hj. destruct Hj as [[s c] [E Hj]]. apply filter_In in Hj. destruct Hj as [Hj _].
      subst j. exists c. split; [exact Hj|now apply (W s)]. }
    split.
    + apply (d_nodup _ D).
    + apply (d_run _ D).
    + apply (d_told _ D).
    + apply (d_whole _ D).
    + intros s Hs. left. cbn. now apply L.
    + intros i f c e Hc Hj Hs. left. cbn. destruct (L _ Hs) as [c' [H1 H2]]. rewrite <- (d_same _ D i f c e (current_newest _ _ _ Hc) Hj c' H1 H2). now split.
    + apply (d_same _ D).
    + intros i f s Hc N. elim N. destruct (current_spec _ _ _ Hc) as [Hf _]. apply Q. cbn in Hf. now apply nth_error_In in Hf.
    + apply (d_del _ D).
    + cbn. now rewrite U.
    + intros s c Hin. left. now apply (W s).
  - unfold user_step in H. destruct (x_user x) as [|a ops|a|a|a|a ops| | | |i] eqn:U; try discriminate.
    + assert (Hsh := d_user _ D). rewrite U in Hsh. destruct ops as [|p ops].
      * injection H as <- <-. apply (dinv_user x); auto; cbn.
        -- intros s Hs. unfold listed in *. cbn in Hs. apply drop_steps_In in Hs. tauto.
        -- intros s [b [ops [E Es]]]. right. intro Hs. unfold listed in Hs. cbn in Hs. apply drop_steps_In in Hs. destruct Hs as [_ Hs]. apply Hs. left. rewrite U in E. congruence.
        -- exact Logic.I.
        -- intros s E. rewrite U in E. destruct E.
      * injection H as <- <-. destruct (shape_head _ _ _ Hsh) as [Hsh' [Hst [Hdam Hp]]]. apply dinv_user_op; auto.
        -- intros s E _. exists a, ops. split; [reflexivity|congruence].
        -- intros s [b [ops' [E Es]]]. exists a, ops. rewrite U in E. split; [reflexivity|congruence].
        -- intros s E. rewrite U in E. cbn in E. destruct p; try destruct E. congruence.
        -- intros t ->. cbn in Hst. subst t. rewrite (Hdam eq_refl). reflexivity.
        -- intros t c ->. destruct Hp as [E|[E|E]]; discriminate.
    + injection H as <- <-. apply (dframe x); auto.
      * intros k s c ok e E. exists e. cbn. rewrite nth_snoc. destruct (Nat.ltb_spec k (length (x_jobs x))) as [_|Hk]; [exact E|]. apply nth_lt in E. lia.
      * intros k s c e E. cbn in E. rewrite nth_snoc in E. destruct (Nat.ltb k (length (x_jobs x))); [eauto|]. destruct (Nat.eqb k (length (x_jobs x))); discriminate.
      * intros k j c E Ec. cbn in E. rewrite nth_snoc in E. destruct (Nat.ltb k (length (x_jobs x))); [eauto|]. destruct (Nat.eqb k (length (x_jobs x))); [|discriminate]. injection E as <-. discriminate.
      * intros i f' E. exists f'. auto.
      * intros s [b [ops' [E Es]]]. congruence.
      * exact Logic.I.
      * intros s E. rewrite U in E. destruct E.
    + assert (G : forall u, (match u with UDelete a ops => False | UWrite _ _ => False | _ => True end) -> dinv (set_user u x)) by (intros u Hu; apply Quit; auto; discriminate).
      destruct (t_force a); [injection H as <- <-; now apply G|]. destruct (should_save (t_cfg o) (as_mgr x) (t_now a) (t_preempt a) (t_step a)) as [[|]|]; injection H as <- <-; now apply G.
    + destruct (user_wait x) as [[y' [e|]]|] eqn:W; [| |discriminate].
      * injection H as <- <-. apply (dinv_wait x y' (Some e)); auto; congruence.
      * destruct (existsb (Z.eqb (t_step a)) (map step (x_cache y'))) eqn:Ex; injection H as <- <-.
        -- apply (dinv_user (set_user UIdle y')); cbn; auto. apply (dinv_wait x y' None); auto; congruence.
        -- apply (dinv_user (set_user (UWrite a (blocking_ops o (t_step a) (x_fs y'))) y')); cbn; auto.
           ++ apply (dinv_wait x y' None); auto; try congruence. split; [apply blocking_shape|]. intro L. apply existsb_notIn in Ex. now apply Ex.
           ++ split; [apply blocking_shape|]. intro L. apply existsb_notIn in Ex. now apply Ex.
    + assert (Hsh := d_user _ D). rewrite U in Hsh. destruct Hsh as [Hsh Hnl]. destruct ops as [|p ops].
      * injection H as H. change y with (fst (y, r)). rewrite <- H. now apply dinv_launch.
      * injection H as <- <-. destruct (write_head _ _ _ Hsh) as [Hsh' [Hst [Hdam Hp]]]. apply dinv_user_op; auto.
        -- intros s E L. elim Hnl. congruence.
        -- intros s [b [ops' [E Es]]]. congruence.
        -- intros s E. rewrite U in E. cbn in E. destruct p; try destruct E. congruence.
        -- intros t ->. cbn in Hst. subst t. destruct (Hdam eq_refl) as [r0 ->]. reflexivity.
        -- intros t c ->. destruct Hp as [E|[E|E]]; discriminate.
    + destruct (user_wait x) as [[y' e]|] eqn:W; [|discriminate]. injection H as <- <-. apply (dinv_wait x y' e); auto; congruence.
    + destruct (user_wait x) as [[y' [e|]]|] eqn:W; [| |discriminate]; injection H as <- <-; eapply (dinv_wait x y'); eauto; congruence.
    + destruct (nth_error (x_jobs x) (x_ck x)) as [j|] eqn:Hj; [|discriminate].
      assert (G : dinv (set_user UIdle (set_job (x_ck x) (mkJob (j_state j) None) x))).
      { destruct (jobs_clear x (x_ck x) j Hj (set_user UIdle (set_job (x_ck x) (mkJob (j_state j) None) x)) eq_refl) as [J1 [J2 J3]]. apply (dframe x); auto.
        - intros i f' E. exists f'. auto.
        - intros s [b [ops' [E Es]]]. congruence.
        - exact Logic.I.
        - intros s E. rewrite U in E. destruct E. }
      destruct (j_state j); try discriminate; injection H as <- <-; exact G.
    + destruct (nth_error (x_resps x) i) as [w|]; [|discriminate]. destruct (r_pc w) as [| | | |[b|e]]; try discriminate; injection H as <- <-; apply Quit; auto; discriminate.
  - destruct (x_user x) as [|a ops|a|a|a|a ops| | | |i] eqn:U; try discriminate. destruct (forallb _ ops) eqn:Fa; [|discriminate]. injection H as <- <-. apply Quit; auto.
    + discriminate.
    + intros b ops' E s R. injection E as -> ->. cbn in R. destruct ops' as [|[]]; try destruct R. discriminate.
  - destruct (fin_step o i x) as [z|] eqn:E; [|discriminate]. injection H as <- <-. now apply (dinv_fin o i x).
  - destruct (resp_step i x) as [z|] eqn:E; [|discriminate]. injection H as <- <-. destruct (resp_core i x z I E) as [_ [_ [E3 [E4 [E5 E6]]]]].
    assert (Hl : forall s, listed z s -> listed x s).
    { now apply (resp_listed i). }
    apply (dinv_user x); auto.
    + intros s [a [ops [F Fs]]]. left. exists a, ops. split; congruence.
    + rewrite E3. assert (Hu := d_user _ D). destruct (x_user x); auto. destruct Hu as [U1 U2]. split; [exact U1|]. intro L. now apply U2, Hl.
    + now rewrite E3.
  - destruct (nth_error (x_jobs x) k) as [[[|s c m|s c ok] e]|] eqn:Hk; try discriminate. destruct m; [discriminate|]. injection H as <- <-. apply (dframe x); auto.
    + intros k0 s0 c0 ok0 e0 E. cbn. rewrite nth_set. destruct (Nat.eqb_spec k k0) as [<-|_]; [congruence|eauto].
    + intros k0 s0 c0 e0 E. cbn in E. rewrite nth_set in E. destruct (Nat.eqb_spec k k0) as [<-|_]; [|eauto]. rewrite Hk in E. discriminate.
    + intros k0 j0 c0 E Ec. cbn in E. rewrite nth_set in E. destruct (Nat.eqb_spec k k0) as [<-|_]; [|eauto]. rewrite Hk in E. injection E as <-. exists k, (mkJob (JRun s c false) e). auto.
    + intros i f' E. exists f'. auto.
    + apply (d_user _ D).
  - destruct (nth_error (x_jobs x) k) as [[[|s c m|s c ok] e]|] eqn:Hk; try discriminate. destruct m; [|discriminate]. destruct (can_commit s (x_fs x)); [|discriminate]. injection H as <- <-.
    now apply (dinv_commit x k s c e).
  - destruct (nth_error (x_jobs x) k) as [[[|s c m|s c ok] e0]|] eqn:Hk; try discriminate. injection H as <- <-. apply (dframe x); auto.
    + intros k0 s0 c0 ok0 e1 E. cbn. rewrite nth_set. destruct (Nat.eqb_spec k k0) as [<-|_]; [congruence|eauto].
    + intros k0 s0 c0 e1 E. cbn in E. rewrite nth_set in E. destruct (Nat.eqb_spec k k0) as [<-|_]; [|eauto]. rewrite Hk in E. discriminate.
    + intros k0 j0 c0 E Ec. cbn in E. rewrite nth_set in E. destruct (Nat.eqb_spec k k0) as [<-|_]; [|eauto]. rewrite Hk in E. injection E as <-. exists k, (mkJob (JRun s c m) e0). auto.
    + intros i f' E. exists f'. auto.
    + apply (d_user _ D).
  - destruct (nth_error (x_jobs x) k) as [[[|s c m|s c ok] e0]|] eqn:Hk; try discriminate. destruct m; [|discriminate]. destruct (can_commit s (x_fs x)); [|discriminate]. injection H as <- <-.
    now apply (dinv_commit x k s c e0).
Qed.
