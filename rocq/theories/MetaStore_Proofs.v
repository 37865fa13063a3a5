(** Proofs about the store of metadata files. *)
From Coq Require Import List Bool Arith NArith String Lia Sorted.
From Verif Require Import Base Tree_Model Tree_Proofs Parts_Proofs MetaStore_Model MetaStore_Spec.
Import ListNotations.
Open Scope string_scope.

Lemma Nspec : forall a b, reflect (a = b) (N.eqb a b).
Proof. exact N.eqb_spec. Qed.

Lemma Sspec : forall a b, reflect (a = b) (String.eqb a b).
Proof. exact String.eqb_spec. Qed.

Lemma dget_filter : forall {A : Type} d e (l : dict N A), d <> e -> dget N.eqb d (filter (fun x => negb (N.eqb e (fst x))) l) = dget N.eqb d l.
Proof.
  intros A d e l H. induction l as [|[k v] l IH]; auto. cbn [filter fst dget]. destruct (Nspec e k) as [<-|K]; cbn [negb].
  - rewrite IH. destruct (Nspec d e); congruence.
  - cbn [dget]. rewrite IH. auto.
Qed.

Lemma nth_set : forall {A : Type} (l : list A) i j v, nth_error (set_nth i v l) j = if Nat.eqb i j then (match nth_error l i with Some _ => Some v | None => None end) else nth_error l j.
Proof.
  intros A l. induction l as [|x l IH]; intros [|i] [|j] v; cbn [set_nth nth_error Nat.eqb]; auto.
  destruct (Nat.eqb i j); auto.
Qed.

Section Store.
Variable V : Type.
Variable serializable : V -> bool.
Variable fault : nat -> option err.

Notation advance := (advance V serializable fault).
Notation step := (step V serializable fault).
Notation run := (run V serializable fault).
Notation work := (work V serializable fault).
Notation exec := (exec V serializable fault).
Notation blocking := (blocking V serializable fault).
Notation st := (st V).

(** ** What the operations leave alone *)

Definition cur (s : st) : list (job V) := match current V s with Some (j, _) => [j] | None => [] end.
Definition jobs (s : st) : list (job V) := (map fst (done V s) ++ cur s ++ queue V s)%list.

(** All but files, steps and failed reads *)
Definition same (s s' : st) : Prop :=
  users V s' = users V s /\ queue V s' = queue V s /\ current V s' = current V s /\ done V s' = done V s /\ pend V s' = pend V s /\
  next V s' = next V s /\ raised V s' = raised V s /\ saves V s' = saves V s.

Lemma same_refl : forall s, same s s.
Proof. intros s. unfold same. auto 10. Qed.

Lemma same_trans : forall a b c, same a b -> same b c -> same a c.
Proof. intros a b c (A1 & A2 & A3 & A4 & A5 & A6 & A7 & A8) (B1 & B2 & B3 & B4 & B5 & B6 & B7 & B8). unfold same. repeat split; congruence. Qed.

Lemma same_tick : forall s, same s (tick V s).
Proof. intros s. unfold same. cbn. auto 10. Qed.

Lemma advance_same : forall id t g s, same s (fst (advance id t g s)).
Proof.
  intros id t g s. unfold MetaStore_Model.advance.
  destruct g as [| |m|m].
  - destruct (fault (clock V s)); [apply same_tick|]. destruct (dget N.eqb (dir_of V t) (fs V s)) as [[| |]|]; apply same_tick.
  - destruct (fault (clock V s)); [|apply same_tick]. unfold same. cbn. auto 10.
  - destruct (dumps V serializable (users V s) m); [|apply same_tick]. destruct (fault (clock V s)); [apply same_tick|].
    destruct (dget N.eqb (dir_of V t) (fs V s)); [|apply same_tick]. unfold same. cbn. auto 10.
  - destruct (fault (clock V s)); [apply same_tick|]. destruct (dget N.eqb (dir_of V t) (fs V s)); [|apply same_tick]. unfold same. cbn. auto 10.
Qed.

Lemma advance_fs : forall id t g s d, d <> dir_of V t -> dget N.eqb d (fs V (fst (advance id t g s))) = dget N.eqb d (fs V s).
Proof.
  intros id t g s d H. unfold MetaStore_Model.advance.
  destruct g as [| |m|m].
  - destruct (fault (clock V s)); auto. destruct (dget N.eqb (dir_of V t) (fs V s)) as [[| |]|]; auto.
  - destruct (fault (clock V s)); auto.
  - destruct (dumps V serializable (users V s) m); auto. destruct (fault (clock V s)); auto.
    destruct (dget N.eqb (dir_of V t) (fs V s)); auto. cbn [fst fs set_fs]. rewrite (dget_dput N.eqb Nspec). destruct (Nspec d (dir_of V t)); congruence.
  - destruct (fault (clock V s)); auto. destruct (dget N.eqb (dir_of V t) (fs V s)); auto. cbn [fst fs set_fs]. rewrite (dget_dput N.eqb Nspec). destruct (Nspec d (dir_of V t)); congruence.
Qed.

Lemma advance_unread : forall id t g s, exists l, unread V (fst (advance id t g s)) = (unread V s ++ l)%list /\ Forall (eq id) l.
Proof.
  intros id t g s. assert (N : exists l, unread V s = (unread V s ++ l)%list /\ Forall (eq id) l) by (exists []; rewrite app_nil_r; auto).
  unfold MetaStore_Model.advance.
  destruct g as [| |m|m].
  - destruct (fault (clock V s)); auto. destruct (dget N.eqb (dir_of V t) (fs V s)) as [[| |]|]; auto.
  - destruct (fault (clock V s)); auto. exists [id]. cbn. auto.
  - destruct (dumps V serializable (users V s) m); auto. destruct (fault (clock V s)); auto.
    destruct (dget N.eqb (dir_of V t) (fs V s)); auto.
  - destruct (fault (clock V s)); auto. destruct (dget N.eqb (dir_of V t) (fs V s)); auto.
Qed.

Lemma exec_same : forall f id t g s, same s (fst (exec f id t g s)) /\ (forall d, d <> dir_of V t -> dget N.eqb d (fs V (fst (exec f id t g s))) = dget N.eqb d (fs V s)) /\
  exists l, unread V (fst (exec f id t g s)) = (unread V s ++ l)%list /\ Forall (eq id) l.
Proof.
  intros f id t. induction f as [|f IH]; intros g s; cbn [MetaStore_Model.exec].
  - split; [apply same_refl|]. split; auto. exists []. rewrite app_nil_r. auto.
  - pose proof (advance_same id t g s) as A. pose proof (advance_fs id t g s) as B. pose proof (advance_unread id t g s) as (l & C & C').
    destruct (advance id t g s) as [s' [g'|r]]; cbn [fst] in *; [|eauto]. destruct (IH g' s') as (X & Y & l' & Z & Z').
    split; [eapply same_trans; eauto|]. split; [intros d D; rewrite Y, B; auto|]. exists (l ++ l')%list. rewrite Z, C, app_assoc. split; auto. apply Forall_app. auto.
Qed.

(** ** Order and errors *)

Definition id_of (j : job V) : nat := fst (fst j).

(** The futures are numbered in order; [pend] are the last of them; those before are done and
    their errors raised, in order. *)
Record Ord (s : st) : Prop := mkOrd {
  o_sorted : StronglySorted lt (map id_of (jobs s));
  o_bound : Forall (fun j => id_of j < next V s) (jobs s);
  o_unread : Forall (fun i => i < next V s) (unread V s);
  o_pend : exists a b, done V s = (a ++ b)%list /\ map id_of (jobs s) = (map (fun x => id_of (fst x)) a ++ pend V s)%list /\
           reported V s = failures V a }.

Lemma sorted_app1 : forall l n, StronglySorted lt l -> Forall (fun i => i < n) l -> StronglySorted lt (l ++ [n]).
Proof.
  intros l n S F. induction S as [|x l S IH Hx]; cbn; [constructor; constructor|]. inversion_clear F as [|? ? F1 F2]. constructor; auto.
  apply Forall_app. auto.
Qed.

Lemma jobs_submit : forall w t s, jobs (submit V w t s) = (jobs s ++ [(next V s, w, t)])%list.
Proof. intros w t s. unfold jobs, cur. cbn. rewrite !app_assoc. auto. Qed.

Lemma ord_submit : forall w t s, Ord s -> Ord (submit V w t s).
Proof.
  intros w t s [S B U (a & b & D & P & R)]. constructor.
  - rewrite jobs_submit, map_app. cbn [map id_of fst]. apply sorted_app1; auto. apply Forall_map. auto.
  - rewrite jobs_submit. apply Forall_app. split; [|constructor; [cbn; lia|constructor]]. eapply Forall_impl; [|exact B]. intros j H. unfold id_of in *. cbn in *. lia.
  - eapply Forall_impl; [|exact U]. intros j H. cbn in *. lia.
  - exists a, b. split; auto. split; auto. rewrite jobs_submit, map_app, P. cbn. rewrite app_assoc. auto.
Qed.

Lemma jobs_work : forall s, jobs (work s) = jobs s.
Proof.
  intros s. unfold jobs, cur, MetaStore_Model.work. destruct (current V s) as [[j g]|] eqn:C.
  - pose proof (advance_same (fst (fst j)) (snd j) g s) as A. destruct (advance (fst (fst j)) (snd j) g s) as [s' [g'|r]]; cbn [fst] in A;
    destruct A as (A1 & A2 & A3 & A4 & A5 & A6 & A7 & A8); cbn; rewrite ?A2, ?A4; auto. rewrite map_app. cbn. rewrite <- app_assoc. auto.
  - destruct (queue V s) as [|j q] eqn:Q; rewrite ?C, ?Q; auto.
Qed.

Lemma work_rest : forall s, pend V (work s) = pend V s /\ next V (work s) = next V s /\ raised V (work s) = raised V s /\ saves V (work s) = saves V s /\ users V (work s) = users V s /\
  (exists l, done V (work s) = (done V s ++ l)%list) /\
  (exists l, unread V (work s) = (unread V s ++ l)%list /\ Forall (fun i => exists j, In j (jobs s) /\ id_of j = i) l).
Proof.
  intros s. unfold MetaStore_Model.work. destruct (current V s) as [[j g]|] eqn:C.
  - pose proof (advance_same (fst (fst j)) (snd j) g s) as A. pose proof (advance_unread (fst (fst j)) (snd j) g s) as (l & U & UF).
    assert (F : Forall (fun i => exists j, In j (jobs s) /\ id_of j = i) l).
    { eapply Forall_impl; [|exact UF]. intros i <-. exists j. split; auto. unfold jobs, cur. rewrite C. apply in_or_app. right. left. auto. }
    destruct (advance (fst (fst j)) (snd j) g s) as [s' [g'|r]]; cbn [fst] in A, U; destruct A as (A1 & A2 & A3 & A4 & A5 & A6 & A7 & A8); cbn; rewrite ?A1, ?A4, ?A5, ?A6, ?A7, ?A8.
    + do 5 (split; [auto|]). split; [exists []; rewrite app_nil_r; auto|eauto].
    + do 5 (split; [auto|]). split; eauto.
  - destruct (queue V s) as [|j q] eqn:Q; cbn; do 5 (split; [auto|]); (split; exists []; rewrite app_nil_r; auto).
Qed.

Lemma ord_work : forall s, Ord s -> Ord (work s).
Proof.
  intros s [S B U (a & b & D & P & R)]. destruct (work_rest s) as (W1 & W2 & W3 & W4 & W5 & (l & W6) & (l' & W7 & W8)). constructor; rewrite ?jobs_work, ?W2; auto.
  - rewrite W7. apply Forall_app. split; auto. eapply Forall_impl; [|exact W8]. intros i (j & J & <-). rewrite Forall_forall in B. apply B. auto.
  - exists a, (b ++ l)%list. rewrite W6, D, app_assoc. rewrite W1. split; auto. split; auto. unfold reported. rewrite W3. auto.
Qed.

Lemma result_in : forall l id r, result_of V id l = Some r -> exists j, In (j, r) l /\ id_of j = id.
Proof.
  induction l as [|[j r'] l IH]; intros id r H; cbn [result_of] in H; [discriminate|]. destruct (Nat.eqb_spec id (fst (fst j))) as [->|N].
  - injection H as <-. exists j. split; [left; auto|auto].
  - destruct (IH _ _ H) as (j' & I & E). exists j'. split; [right; auto|auto].
Qed.

Lemma sorted_nodup : forall l, StronglySorted lt l -> NoDup l.
Proof. intros l S. induction S as [|x l S IH H]; constructor; auto. intros I. rewrite Forall_forall in H. specialize (H x I). lia. Qed.

Lemma result_here : forall a j r b, NoDup (map (fun x => id_of (fst x)) (a ++ (j, r) :: b)) -> result_of V (id_of j) (a ++ (j, r) :: b) = Some r.
Proof.
  intros a j r b. induction a as [|[j' r'] a IH]; intros N; cbn [app result_of].
  - unfold id_of at 1. rewrite Nat.eqb_refl. auto.
  - cbn [app map fst] in N. inversion_clear N as [|? ? N1 N2]. destruct (Nat.eqb_spec (id_of j) (fst (fst j'))) as [E|E]; [|auto].
    exfalso. apply N1. rewrite map_app. apply in_or_app. right. left. unfold id_of in *. cbn. auto.
Qed.

Lemma wait_spec : forall b a p rest, NoDup (map (fun x => id_of (fst x)) (a ++ b)) -> (map (fun x => id_of (fst x)) b ++ rest)%list = p -> (forall i, In i rest -> ~ In i (map (fun x => id_of (fst x)) (a ++ b))) ->
  forall p' o, wait_loop V (a ++ b) p = Some (p', o) ->
  match o with
  | None => p' = [] /\ rest = [] /\ failures V b = []
  | Some (id, e) => exists c x d, b = (c ++ x :: d)%list /\ id_of (fst x) = id /\ snd x = Err e /\ failures V c = [] /\ p' = (map (fun x => id_of (fst x)) d ++ rest)%list
  end.
Proof.
  induction b as [|[j r] b IH]; intros a p rest N <- R p' o H.
  - cbn [map app] in H. destruct rest as [|i rest]; cbn [wait_loop] in H.
    + injection H as <- <-. auto.
    + exfalso. destruct (result_of V i (a ++ [])) eqn:E; [|discriminate]. apply result_in in E as (j & I & <-). apply (R (id_of j)); [left; auto|]. apply (in_map (fun x => id_of (fst x))) in I. auto.
  - cbn [map app fst] in H. cbn [wait_loop] in H. rewrite (result_here a j r b N) in H. destruct r as [[]|e].
    + specialize (IH (a ++ [(j, Ok tt)])%list (map (fun x => id_of (fst x)) b ++ rest)%list rest). rewrite <- app_assoc in IH. specialize (IH N eq_refl R p' o H).
      destruct o as [[id e]|].
      * destruct IH as (c & x & d & -> & I & X & F & P). exists ((j, Ok tt) :: c), x, d. cbn. auto.
      * cbn. auto.
    + injection H as <- <-. exists [], (j, Err e), b. cbn. auto.
Qed.

Lemma failures_app : forall a b, failures V (a ++ b) = (failures V a ++ failures V b)%list.
Proof. intros. unfold failures. apply flat_map_app. Qed.

Lemma done_ids : forall s, map id_of (jobs s) = (map (fun x => id_of (fst x)) (done V s) ++ map id_of (cur s ++ queue V s))%list.
Proof. intros s. unfold jobs. rewrite map_app, map_map. auto. Qed.

(** What waiting does *)
Lemma wait_cases : forall w s s' r, Ord s -> wait V w s = Some (s', r) ->
  match r with
  | Ok _ => s' = set_pend V [] s /\ cur s = [] /\ queue V s = [] /\ reported V s = failures V (done V s)
  | Err e => exists id p j a b c, s' = set_raised V (raised V s ++ [(w, id, e)])%list (set_pend V p s) /\ done V s = (a ++ (j, Err e) :: b)%list /\ id_of j = id /\
             reported V s = failures V a /\ map id_of (jobs s) = (map (fun x => id_of (fst x)) (a ++ [(j, Err e)]) ++ p)%list /\ c = tt
  end.
Proof.
  intros w s s' r [S B U (a & b & D & P & R)] H. unfold wait in H. pose proof (sorted_nodup _ S) as ND. rewrite done_ids in ND. rewrite done_ids in P. rewrite D in P, H.
  rewrite map_app, <- app_assoc in P. apply app_inv_head in P.
  assert (ND' : NoDup (map (fun x => id_of (fst x)) (a ++ b))) by (rewrite <- D; apply NoDup_app_remove_r in ND || (clear - ND; induction (map (fun x => id_of (fst x)) (done V s)) as [|x l IH]; [constructor|]; cbn in ND; inversion_clear ND as [|? ? N1 N2]; constructor; [intros I; apply N1; apply in_or_app; auto|auto]); auto).
  assert (RN : forall i, In i (map id_of (cur s ++ queue V s)) -> ~ In i (map (fun x => id_of (fst x)) (a ++ b))).
  { rewrite <- D. clear - ND. intros i I J. induction (map (fun x => id_of (fst x)) (done V s)) as [|x l IH]; [destruct J|]. cbn in ND. inversion_clear ND as [|? ? N1 N2]. destruct J as [->|J]; auto. apply N1. apply in_or_app. auto. }
  destruct (wait_loop V (a ++ b) (pend V s)) as [[p' o]|] eqn:L; [|discriminate].
  pose proof (wait_spec b a (pend V s) (map id_of (cur s ++ queue V s)) ND' P RN p' o L) as Wt.
  destruct o as [[id e]|]; injection H as <- <-.
  - destruct Wt as (c & x & d & -> & I & X & F & ->). destruct x as [j rj]. cbn in I, X. subst rj. exists id, (map (fun x => id_of (fst x)) d ++ map id_of (cur s ++ queue V s))%list, j, (a ++ c)%list, d, tt.
    split; auto. split; [rewrite D, <- app_assoc; auto|]. split; auto. split; [rewrite failures_app, F, app_nil_r; auto|]. split; auto.
    rewrite done_ids, D. rewrite !map_app. cbn. rewrite <- !app_assoc. cbn. auto.
  - destruct Wt as (-> & E & F). rewrite map_app in E. apply app_eq_nil in E as [E1 E2]. apply map_eq_nil in E1, E2. split; auto. split; auto. split; auto.
    rewrite D, failures_app, F, app_nil_r. auto.
Qed.

Lemma ord_wait : forall w s s' r, Ord s -> wait V w s = Some (s', r) -> Ord s'.
Proof.
  intros w s s' r O H. pose proof (wait_cases w s s' r O H) as C. destruct O as [S B U (a & b & D & P & R)]. destruct r as [[]|e].
  - destruct C as (-> & C1 & C2 & C3). constructor; auto. exists (done V s), []. rewrite app_nil_r. split; auto. split; auto. rewrite done_ids. unfold cur in *. cbn. rewrite C1, C2. auto.
  - destruct C as (id & p & j & a' & b' & c & -> & C1 & C2 & C3 & C4 & _). constructor; auto. exists (a' ++ [(j, Err e)])%list, b'. cbn.
    split; [rewrite C1, <- app_assoc; auto|]. split; auto. unfold reported in *. cbn. rewrite map_app, C3, failures_app. cbn. rewrite <- C2. auto.
Qed.

Lemma ord_same : forall s s', same s s' -> (exists l, unread V s' = (unread V s ++ l)%list /\ Forall (fun i => i < next V s) l) -> Ord s -> Ord s'.
Proof.
  intros s s' (A1 & A2 & A3 & A4 & A5 & A6 & A7 & A8) (l & U & F) [S B U' P]. assert (J : jobs s' = jobs s) by (unfold jobs, cur; rewrite A2, A3, A4; auto).
  constructor; rewrite ?J, ?A6; auto; [rewrite U; apply Forall_app; auto|]. unfold reported. rewrite A4, A5, A7. auto.
Qed.

Lemma ord_phase : forall j p s, Ord s -> Ord (set_phase V j p s).
Proof. intros j p s [S B U P]. constructor; auto. Qed.

Lemma ord_fs : forall f s, Ord s -> Ord (set_fs V f s).
Proof. intros f s [S B U P]. constructor; auto. Qed.

Lemma ord_blocking : forall t s, Ord s -> Ord (fst (blocking t s)).
Proof.
  intros t s O. unfold MetaStore_Model.blocking. destruct (exec_same 4 (next V s) t (start V t) (set_next V (S (next V s)) s)) as (A & _ & l & U & F).
  eapply ord_same; [exact A|exists l; split; [exact U|eapply Forall_impl; [|exact F]; intros i <-; cbn; lia]|].
  destruct O as [S B U' P]. constructor; auto; cbn; (eapply Forall_impl; [|eassumption]); intros i; cbn; lia.
Qed.

Lemma ord_step : forall e s, Ord s -> Ord (step e s).
Proof.
  intros e s O. destruct e as [|j|j|n|n t|t|r v]; cbn [MetaStore_Model.step].
  - apply ord_work; auto.
  - unfold save_step. destruct (nth_error (saves V s) j) as [v|]; auto.
    assert (Wt : forall p, Ord match wait V (Save j) s with None => s | Some (s', Ok _) => set_phase V j p s' | Some (s', Err _) => set_phase V j PFailed s' end).
    { intros p. destruct (wait V (Save j) s) as [[s' [[]|e]]|] eqn:W; auto; apply ord_phase; eapply ord_wait; eauto. }
    destruct (sv_phase V v); auto.
    + apply ord_phase. apply ord_submit. apply ord_fs. auto.
    + apply ord_phase. apply ord_submit. auto.
    + apply ord_phase. apply ord_submit. auto.
    + unfold rename. destruct (N.eqb (sv_tmp V v) (sv_final V v)); [apply ord_phase; auto|].
      destruct (dget N.eqb (sv_tmp V v) (fs V s)); [|apply ord_phase; auto]. destruct (dget N.eqb (sv_final V v) (fs V s)); apply ord_phase; auto. apply ord_fs. auto.
  - destruct (nth_error (saves V s) j) as [v|]; auto. destruct (sv_phase V v); auto; apply ord_phase; auto.
  - destruct (wait V (Other n) s) as [[s' r]|] eqn:W; auto. eapply ord_wait; eauto.
  - apply ord_submit; auto.
  - apply ord_blocking; auto.
  - destruct O as [S B U P]. constructor; auto.
Qed.

Lemma ord_begin : forall f u l, Ord (begin V f u l).
Proof. intros. constructor; cbn; try constructor. exists [], []. auto. Qed.

Lemma run_snoc : forall es e s, run (es ++ [e]) s = step e (run es s).
Proof. intros. unfold MetaStore_Model.run. rewrite fold_left_app. auto. Qed.

Lemma ord_run : forall es s, Ord s -> Ord (run es s).
Proof. intros es. induction es as [|e es IH] using rev_ind; intros s O; auto. rewrite run_snoc. apply ord_step. auto. Qed.


(** ** Following the file of one directory *)

Definition ev (u : N -> V) (m : dict string (val V)) : dict string V := map (fun x => (fst x, eval V u (snd x))) m.

Definition content (f : file V) : dict string V := match f with Whole _ m => m | _ => [] end.

(** What a task makes of a file *)
Definition eff (u : N -> V) (f : file V) (t : task V) : file V :=
  Whole V (ev u (match t with TWrite _ _ m => m | TUpdate _ _ kw => merge V (content f) kw end)).

Definition refs (m : dict string (val V)) (R : N -> Prop) : Prop := forall k r, In (k, User V r) m -> R r.
Definition trefs (t : task V) (R : N -> Prop) : Prop := match t with TWrite _ _ m => refs m R | TUpdate _ _ kw => refs kw R end.

Lemma ev_refs : forall u u' m (R : N -> Prop), refs m R -> (forall r, R r -> u r = u' r) -> ev u m = ev u' m.
Proof.
  intros u u' m R H A. unfold ev. apply map_ext_in. intros [k [v|r]] I; cbn; auto. rewrite (A r); auto. eapply H; eauto.
Qed.

Lemma dput_in : forall {A} k (v : A) m k' v', In (k', v') (dput String.eqb k v m) -> v' = v \/ In (k', v') m.
Proof.
  intros A k v m. induction m as [|[k0 v0] m IH]; intros k' v' I; cbn [dput] in I.
  - destruct I as [I|[]]. injection I as <- <-. auto.
  - destruct (String.eqb k k0).
    + destruct I as [I|I]; [injection I as <- <-; auto|right; right; auto].
    + destruct I as [I|I]; [right; left; auto|]. destruct (IH _ _ I); auto. right; right; auto.
Qed.

Lemma merge_refs : forall old kw R, refs kw R -> refs (merge V old kw) R.
Proof.
  intros old kw R H. unfold merge.
  assert (G : forall m, refs m R -> refs kw R -> refs (fold_left (fun m x => dput String.eqb (fst x) (snd x) m) kw m) R).
  { clear H. induction kw as [|[k v] kw IH]; intros m Hm Hk; cbn [fold_left]; auto. apply IH; [|intros k' r I; eapply Hk; right; eauto].
    intros k' r I. apply dput_in in I as [I|I]; [|eapply Hm; eauto]. cbn in I. eapply Hk. left. rewrite <- I. eauto. }
  apply G; auto. intros k r I. apply in_map_iff in I as ([a b] & E & _). discriminate.
Qed.

Section Dir.
Variable d : N.
Variable u : N -> V.
Variable R : N -> Prop.
Variable f0 : file V.

Definition on (j : job V) : bool := N.eqb d (dir_of V (snd j)).
Definition dones (s : st) : list (task V) := map snd (filter on (map fst (done V s))).
Definition now (s : st) : file V := fold_left (eff u) (dones s) f0.

Definition clean (s : st) : Prop := forall j r, In (j, r) (done V s) -> dir_of V (snd j) = d -> r = Ok tt /\ ~ In (id_of j) (unread V s).

Definition Trk (s : st) : Prop :=
  clean s ->
  match current V s with
  | Some (j, g) =>
    if on j then
      match g with
      | SExists _ | SRead _ => dget N.eqb d (fs V s) = Some (now s) /\ (exists kw, snd j = TUpdate V d kw)
      | SOpen _ m => dget N.eqb d (fs V s) = Some (now s) /\ (~ In (id_of j) (unread V s) -> Whole V (ev u m) = eff u (now s) (snd j) /\ refs m R)
      | SFill _ m => dget N.eqb d (fs V s) = Some (Broken V) /\ (~ In (id_of j) (unread V s) -> Whole V m = eff u (now s) (snd j))
      end
    else dget N.eqb d (fs V s) = Some (now s)
  | None => dget N.eqb d (fs V s) = Some (now s)
  end.

Definition Frz (s : st) : Prop := (forall r, R r -> users V s r = u r) /\ (forall j, In j (jobs s) -> dir_of V (snd j) = d -> trefs (snd j) R).

Lemma on_spec : forall j, reflect (dir_of V (snd j) = d) (on j).
Proof. intros j. unfold on. destruct (Nspec d (dir_of V (snd j))) as [E|E]; constructor; auto. Qed.

(** Whatever leaves the file, the one at work and those done alone *)
Lemma trk_frame : forall s s', Trk s -> dget N.eqb d (fs V s') = dget N.eqb d (fs V s) -> current V s' = current V s -> done V s' = done V s ->
  (exists l, unread V s' = (unread V s ++ l)%list) -> Trk s'.
Proof.
  intros s s' T F C D (l & U) K.
  assert (K' : clean s). { intros j r I E. rewrite <- D in I. destruct (K j r I E) as [K1 K2]. split; auto. intros I'. apply K2. rewrite U. apply in_or_app. auto. }
  specialize (T K'). unfold now, dones in *. rewrite C, D, F. destruct (current V s) as [[j g]|]; auto. destruct (on j); auto.
  destruct g; auto; destruct T as [T1 T2]; (split; [auto|]); intros N; apply T2; intros I; apply N; rewrite U; apply in_or_app; auto.
Qed.

Lemma dumps_ev : forall w m m', dumps V serializable w m = Ok m' -> m' = ev w m.
Proof. intros w m m' H. unfold dumps in H. destruct (forallb _ m); [injection H as <-; auto|discriminate]. Qed.

Lemma now_snoc : forall s s' j r, done V s' = (done V s ++ [(j, r)])%list -> now s' = if on j then eff u (now s) (snd j) else now s.
Proof.
  intros s s' j r D. unfold now, dones. rewrite D, !map_app, filter_app. cbn [map filter fst]. rewrite map_app, fold_left_app. destruct (on j); auto.
Qed.

Lemma clean_back : forall s s' l l', done V s' = (done V s ++ l)%list -> unread V s' = (unread V s ++ l')%list -> clean s' -> clean s.
Proof.
  intros s s' l l' D U K j r I E. destruct (K j r) as [K1 K2]; auto; [rewrite D; apply in_or_app; auto|]. split; auto. intros I'. apply K2. rewrite U. apply in_or_app. auto.
Qed.

Lemma read_now : forall s f, dget N.eqb d (fs V s) = Some f -> match read V s d with Some m => m | None => [] end = content f.
Proof. intros s f H. unfold read. rewrite H. destruct f; auto. Qed.

Lemma trk_work : forall s, Frz s -> Trk s -> Trk (work s).
Proof.
  intros s [F1 F2] T K. destruct (work_rest s) as (_ & _ & _ & _ & _ & (l & D) & (l' & U & _)). pose proof (clean_back s (work s) l l' D U K) as K0. specialize (T K0).
  revert K D U. unfold MetaStore_Model.work. destruct (current V s) as [[j g]|] eqn:C.
  - assert (J : In j (jobs s)) by (unfold jobs, cur; rewrite C; apply in_or_app; right; left; auto).
    destruct (on_spec j) as [E|E].
    + specialize (F2 j J E).
      destruct g as [| |m|m]; unfold MetaStore_Model.advance; fold (id_of j).
      * destruct T as (T1 & kw & T2). rewrite T2 in F2. rewrite T2. cbn [dir_of kw_of]. destruct (fault (clock V s)) as [e|].
        { cbn. intros K. exfalso. destruct (K j (Err e)); [apply in_or_app; right; left; auto|rewrite T2; auto|discriminate]. }
        rewrite T1. unfold trefs in F2. destruct (now s) as [| |m] eqn:N0; cbn; intros K _ _; unfold now, dones in *; cbn; (destruct (on_spec j) as [_|X]; [|rewrite T2 in X; cbn in X; congruence]); rewrite ?N0, ?T2.
        { split; auto. intros _. split; auto. apply merge_refs; auto. }
        { eauto. }
        { eauto. }
      * destruct T as (T1 & kw & T2). rewrite T2 in F2. rewrite T2. cbn [dir_of kw_of]. unfold trefs in F2. destruct (fault (clock V s)) as [e|]; cbn; intros K _ _; unfold now, dones in *; cbn; (destruct (on_spec j) as [_|X]; [|rewrite T2 in X; cbn in X; congruence]).
        { split; auto. intros X. exfalso. apply X. apply in_or_app. right. left. auto. }
        { split; auto. intros _. rewrite (read_now s _ T1), T2. split; auto. apply merge_refs; auto. }
      * destruct (dumps V serializable (users V s) m) as [m'|e] eqn:Dm.
        2: { cbn. intros K. exfalso. destruct (K j (Err e)); [apply in_or_app; right; left; auto|auto|discriminate]. }
        apply dumps_ev in Dm. rewrite E. destruct (fault (clock V s)) as [e|].
        { cbn. intros K. exfalso. destruct (K j (Err e)); [apply in_or_app; right; left; auto|auto|discriminate]. }
        destruct (dget N.eqb d (fs V s)) as [f|] eqn:G.
        2: { cbn. intros K. exfalso. destruct (K j (Err FileNotFoundError)); [apply in_or_app; right; left; auto|auto|discriminate]. }
        cbn. intros K _ _. unfold now, dones in *. cbn. destruct (on_spec j) as [_|X]; [|congruence]. rewrite (dget_dput N.eqb Nspec), N.eqb_refl. split; auto. intros X. destruct T as [T1 T]. destruct (T X) as (T2 & T3).
        rewrite <- T2, Dm. f_equal. eapply ev_refs; eauto.
      * rewrite E. destruct (fault (clock V s)) as [e|].
        { cbn. intros K. exfalso. destruct (K j (Err e)); [apply in_or_app; right; left; auto|auto|discriminate]. }
        destruct (dget N.eqb d (fs V s)) as [f|] eqn:G.
        2: { cbn. intros K. exfalso. destruct (K j (Err FileNotFoundError)); [apply in_or_app; right; left; auto|auto|discriminate]. }
        cbn [fst]. intros K _ _. cbn [current set_current set_done set_fs]. rewrite (now_snoc s _ j (Ok tt)); [|reflexivity]. destruct (on_spec j) as [_|X]; [|congruence].
        destruct (K j (Ok tt)) as [_ K2]; [cbn; apply in_or_app; right; left; auto|auto|]. destruct T as [T1 T2]. specialize (T2 K2). cbn. rewrite (dget_dput N.eqb Nspec), N.eqb_refl, T2. auto.
    + pose proof (advance_fs (fst (fst j)) (snd j) g s d (fun X => E (eq_sym X))) as AF. pose proof (advance_same (fst (fst j)) (snd j) g s) as A.
      destruct (advance (fst (fst j)) (snd j) g s) as [s' [g'|r]]; cbn [fst] in A, AF; destruct A as (A1 & A2 & A3 & A4 & A5 & A6 & A7 & A8).
      * intros K D' U'. cbn [current set_current]. destruct (on_spec j) as [X|_]; [congruence|]. unfold now, dones. cbn. rewrite AF, A4. auto.
      * intros K D' U'. cbn [current set_current]. rewrite (now_snoc s _ j r); [|reflexivity]. destruct (on_spec j) as [X|_]; [congruence|]. cbn. rewrite AF. auto.
  - destruct (queue V s) as [|j q] eqn:Q; [intros; rewrite C; auto|]. intros K D' U'. cbn [current set_current set_queue]. unfold now, dones in *. cbn [done fs unread set_current set_queue].
    destruct (on_spec j) as [E|E]; [|auto]. unfold start. assert (J : In j (jobs s)) by (unfold jobs; rewrite Q; apply in_or_app; right; apply in_or_app; right; left; auto).
    specialize (F2 j J E). destruct (snd j) as [d' m|d' kw] eqn:T2; cbn in E; subst d'; [|eauto]. split; auto.
Qed.

Lemma frz_work : forall s, Frz s -> Frz (work s).
Proof. intros s [F1 F2]. destruct (work_rest s) as (_ & _ & _ & _ & W & _). split; [rewrite W; auto|rewrite jobs_work; auto]. Qed.

Lemma trk_idle : forall s, Trk s -> clean s -> (forall j, In j (cur s) -> dir_of V (snd j) <> d) -> dget N.eqb d (fs V s) = Some (now s).
Proof.
  intros s T K C. specialize (T K). unfold cur in C. destruct (current V s) as [[j g]|]; auto. destruct (on_spec j) as [E|E]; auto. exfalso. apply (C j); [left; auto|auto].
Qed.

Lemma trk_read : forall s, Trk s -> clean s -> dget N.eqb d (fs V s) = Some (now s) \/ dget N.eqb d (fs V s) = Some (Broken V).
Proof.
  intros s T K. specialize (T K). destruct (current V s) as [[j g]|]; auto. destruct (on_spec j) as [E|E]; auto.
  destruct g; [left; apply T|left; apply T|left; apply T; auto|right; apply T; auto].
Qed.

End Dir.


(** ** One save *)

Section OneSave.
Variable l : list (save V).
Variable j : nat.
Variable v : save V.
Variable u : N -> V.
Hypothesis Hj : nth_error l j = Some v.
Hypothesis Hp : sv_phase V v = P0.
Hypothesis Ho : forall i w, nth_error l i = Some w -> i <> j -> ~ uses V v (sv_tmp V w) /\ ~ uses V v (sv_final V w).

Definition alike (a b : save V) : Prop :=
  sv_tmp V b = sv_tmp V a /\ sv_final V b = sv_final V a /\ sv_init V b = sv_init V a /\ sv_kw V b = sv_kw V a /\ sv_time V b = sv_time V a.

Lemma alike_refl : forall a, alike a a.
Proof. intros a. unfold alike. auto. Qed.

Notation tmp := (sv_tmp V v).
Definition tW := TWrite V (sv_tmp V v) (sv_init V v).
Definition tU := TUpdate V (sv_tmp V v) (sv_kw V v).
Definition tC := TUpdate V (sv_tmp V v) [(commit_key, sv_time V v)].
Definition mine (s : st) : list (task V) := map snd (filter (on tmp) (jobs s)).
Notation T := (Trk tmp u (refers V v) (NoFile V)).
Definition good (s : st) : Prop := not_stolen V s j /\ reads_fine V s j.
Definition none_left (s : st) : Prop := forall x, In x (cur s ++ queue V s) -> dir_of V (snd x) <> tmp.
Definition all_ok (s : st) : Prop := forall x r, In (x, r) (done V s) -> dir_of V (snd x) = tmp -> r = Ok tt.
Definition final_ok (s : st) : Prop := dget N.eqb (sv_final V v) (fs V s) = Some (fold_left (eff u) [tW; tU; tC] (NoFile V)).

Definition Ph (p : phase) (s : st) : Prop :=
  (forall id e, In (Save j, id, e) (raised V s) -> p = PFailed) /\
  match p with
  | P0 => mine s = []
  | P1 => mine s = [tW] /\ T s
  | P2 | P3 => mine s = [tW; tU] /\ T s
  | P4 => mine s = [tW; tU; tC] /\ T s
  | P5 => mine s = [tW; tU; tC] /\ T s /\ (good s -> none_left s /\ all_ok s)
  | PDone => good s -> final_ok s /\ none_left s
  | PFailed => True
  end.

Definition owned (s : st) : Prop := forall x, In x (jobs s) ->
  (snd (fst x) = Save j /\ dir_of V (snd x) = tmp) \/ (snd (fst x) <> Save j /\ ~ uses V v (dir_of V (snd x))).

Record SI (s : st) : Prop := mkSI {
  si_ord : Ord s;
  si_saves : forall i w', nth_error (saves V s) i = Some w' -> exists w, nth_error l i = Some w /\ alike w w';
  si_own : owned s;
  si_users : forall r, refers V v r -> users V s r = u r;
  si_phase : exists v', nth_error (saves V s) j = Some v' /\ alike v v' /\ Ph (sv_phase V v') s }.

Lemma good_back : forall s s' a b c, raised V s' = (raised V s ++ a)%list -> done V s' = (done V s ++ b)%list -> unread V s' = (unread V s ++ c)%list -> good s' -> good s.
Proof.
  intros s s' a b c A B C [G1 G2]. split.
  - intros w id e t r I D. apply (G1 w id e t r); [rewrite A|rewrite B]; apply in_or_app; auto.
  - intros id t r I D. apply (G2 id t r); [rewrite C|rewrite B]; apply in_or_app; auto.
Qed.

(** What does not reach the save *)
Lemma ph_frame : forall p s s' a c, Ph p s -> mine s' = mine s -> (forall e, uses V v e -> dget N.eqb e (fs V s') = dget N.eqb e (fs V s)) ->
  current V s' = current V s -> done V s' = done V s -> (none_left s -> none_left s') -> unread V s' = (unread V s ++ c)%list ->
  raised V s' = (raised V s ++ a)%list -> (forall id e, ~ In (Save j, id, e) a) -> Ph p s'.
Proof.
  intros p s s' a c [P1' P2'] M F C D N U A A'.
  assert (G : good s' -> good s) by (eapply (good_back s s' a [] c); eauto; rewrite app_nil_r; auto).
  assert (K : T s -> T s') by (intros X; eapply trk_frame; eauto; apply F; left; auto).
  split.
  - intros id e I. rewrite A in I. apply in_app_or in I as [I|I]; eauto. destruct (A' _ _ I).
  - destruct p; rewrite ?M; auto; try (destruct P2'; auto; fail).
    + destruct P2' as (B1 & B2 & B3). split; auto. split; auto. intros G'. destruct (B3 (G G')) as [B4 B5]. split; auto. unfold all_ok. rewrite D. auto.
    + intros G'. destruct (P2' (G G')) as [B1 B2]. split; auto. unfold final_ok. rewrite F; [auto|right; auto].
Qed.

Lemma mine_snoc : forall s s' x, jobs s' = (jobs s ++ [x])%list -> mine s' = (mine s ++ (if on tmp x then [snd x] else []))%list.
Proof. intros s s' x J. unfold mine. rewrite J, filter_app, map_app. cbn [filter]. destruct (on tmp x); auto. Qed.

Lemma mine_in : forall s x, In x (jobs s) -> dir_of V (snd x) = tmp -> In (snd x) (mine s).
Proof. intros s x I E. unfold mine. apply in_map. apply filter_In. split; auto. destruct (on_spec tmp x); auto. Qed.

Lemma set_phase_nth : forall i p s k w, nth_error (saves V (set_phase V i p s)) k = Some w ->
  exists w0, nth_error (saves V s) k = Some w0 /\ alike w0 w /\ (if Nat.eqb i k then sv_phase V w = p else w = w0).
Proof.
  intros i p s k w. unfold set_phase. cbn [saves set_saves]. destruct (nth_error (saves V s) i) as [w0|] eqn:E.
  - rewrite nth_set, E. destruct (Nat.eqb_spec i k) as [<-|N].
    + intros H. injection H as <-. exists w0. split; auto. split; [unfold alike; auto|auto].
    + intros H. exists w. split; auto. split; [apply alike_refl|auto].
  - intros H. exists w. split; auto. split; [apply alike_refl|]. destruct (Nat.eqb_spec i k) as [<-|N]; [congruence|auto].
Qed.

Lemma alike_trans : forall a b c, alike a b -> alike b c -> alike a c.
Proof. intros a b c (A1 & A2 & A3 & A4 & A5) (B1 & B2 & B3 & B4 & B5). unfold alike. repeat split; congruence. Qed.

(** The phase of the save changes *)
Lemma si_mine : forall p s s' v1, Ord s' -> saves V s' = saves V s -> nth_error (saves V s) j = Some v1 ->
  (forall i w', nth_error (saves V s) i = Some w' -> exists w, nth_error l i = Some w /\ alike w w') ->
  owned s' -> (forall r, refers V v r -> users V s' r = u r) -> Ph p s' -> SI (set_phase V j p s').
Proof.
  intros p s s' v1 O S E Sv Ow Us P. constructor; auto.
  - apply ord_phase. auto.
  - intros i w' H. destruct (set_phase_nth _ _ _ _ _ H) as (w0 & H0 & A & _). rewrite S in H0. destruct (Sv _ _ H0) as (w & Hw & A'). exists w. split; auto. eapply alike_trans; eauto.
  - exists (mkSave V (sv_tmp V v1) (sv_final V v1) (sv_init V v1) (sv_kw V v1) (sv_time V v1) p). unfold set_phase. cbn [saves set_saves]. rewrite S, E, nth_set, E, Nat.eqb_refl. split; auto.
    destruct (Sv _ _ E) as (w & Hw & A). replace w with v in * by congruence. split; [exact A|]. exact P.
Qed.

(** It does not *)
Lemma si_other : forall s s' a c, SI s -> Ord s' -> (forall i w', nth_error (saves V s') i = Some w' -> exists w0, nth_error (saves V s) i = Some w0 /\ alike w0 w' /\ (i = j -> w' = w0)) ->
  (exists v1, nth_error (saves V s') j = Some v1) -> (forall r, refers V v r -> users V s' r = u r) ->
  (exists new, jobs s' = (jobs s ++ new)%list /\ queue V s' = (queue V s ++ new)%list /\ forall x, In x new -> snd (fst x) <> Save j /\ ~ uses V v (dir_of V (snd x))) ->
  (forall e, uses V v e -> dget N.eqb e (fs V s') = dget N.eqb e (fs V s)) ->
  current V s' = current V s -> done V s' = done V s -> unread V s' = (unread V s ++ c)%list ->
  raised V s' = (raised V s ++ a)%list -> (forall id e, ~ In (Save j, id, e) a) -> SI s'.
Proof.
  intros s s' a c [O Sv Ow Us (v' & Hv & Av & P)] O' Sv' (v1 & E) Us' (new & J & Q & N) F C D U A A'. constructor; auto.
  - intros i w' H. destruct (Sv' _ _ H) as (w0 & H0 & B & _). destruct (Sv _ _ H0) as (w & Hw & B'). exists w. split; auto. eapply alike_trans; eauto.
  - intros x I. rewrite J in I. apply in_app_or in I as [I|I]; auto.
  - destruct (Sv' _ _ E) as (w0 & H0 & _ & X). rewrite (X eq_refl) in E. replace w0 with v' in * by congruence. exists v'. split; auto. split; auto.
    eapply ph_frame; eauto.
    + unfold mine. rewrite J, filter_app, map_app. assert (Z : filter (on tmp) new = []).
      { clear - N. induction new as [|x new IH]; auto. cbn [filter]. destruct (on_spec tmp x) as [X|X]; [|apply IH; intros y I; apply N; right; auto]. destruct (N x (or_introl eq_refl)) as [_ N']. exfalso. apply N'. left. auto. }
      rewrite Z, app_nil_r. auto.
    + intros L x I. unfold cur in *. rewrite C, Q, app_assoc in I. apply in_app_or in I as [I|I]; [apply L; auto|]. destruct (N x I) as [_ N']. intros X'. apply N'. left. auto.
Qed.

Lemma si_saves_refl : forall s i w', nth_error (saves V s) i = Some w' -> exists w0, nth_error (saves V s) i = Some w0 /\ alike w0 w' /\ (i = j -> w' = w0).
Proof. intros s i w' H. exists w'. split; auto. split; [apply alike_refl|auto]. Qed.

Lemma frz_si : forall s, owned s -> (forall r, refers V v r -> users V s r = u r) -> (forall t, In t (mine s) -> In t [tW; tU; tC]) -> Frz tmp u (refers V v) s.
Proof.
  intros s Ow Us M. split; auto. intros x I E. pose proof (M _ (mine_in s x I E)) as Z. unfold refers.
  destruct Z as [Z|[Z|[Z|[]]]]; rewrite <- Z; cbn [trefs tW tU tC]; intros k r K; apply (in_map snd) in K; cbn [snd] in K.
  - right. apply in_or_app. right. auto.
  - right. apply in_or_app. left. auto.
  - destruct K as [K|[]]. left. auto.
Qed.

Lemma si_work : forall s, SI s -> SI (work s).
Proof.
  intros s [O Sv Ow Us (v' & Hv & Av & P)]. destruct (work_rest s) as (W1 & W2 & W3 & W4 & W5 & (lw & W6) & (lu & W7 & W8)).
  constructor; rewrite ?W4, ?W5; auto.
  - apply ord_work; auto.
  - unfold owned. rewrite jobs_work. auto.
  - exists v'. split; auto. split; auto. destruct P as [PA PB]. split; [rewrite W3; auto|].
    assert (M : mine (work s) = mine s) by (unfold mine; rewrite jobs_work; auto).
    assert (G : good (work s) -> good s) by (apply (good_back s (work s) [] lw lu); auto; rewrite app_nil_r; auto).
    assert (Tw : (forall t, In t (mine s) -> In t [tW; tU; tC]) -> T s -> T (work s)) by (intros X; apply trk_work; apply frz_si; auto).
    assert (NL : none_left s -> none_left (work s) /\ (all_ok s -> all_ok (work s)) /\ (forall e, uses V v e -> dget N.eqb e (fs V (work s)) = dget N.eqb e (fs V s))).
    { clear - Ow. intros L. unfold MetaStore_Model.work. destruct (current V s) as [[x g]|] eqn:C.
      - assert (X : dir_of V (snd x) <> tmp) by (apply L; unfold cur; rewrite C; left; auto).
        assert (X' : ~ uses V v (dir_of V (snd x))).
        { destruct (Ow x) as [[_ Y]|[_ Y]]; [|congruence|exact Y]. unfold jobs, cur. rewrite C. apply in_or_app. right. left. auto. }
        pose proof (advance_fs (fst (fst x)) (snd x) g s) as AF. pose proof (advance_same (fst (fst x)) (snd x) g s) as A.
        destruct (advance (fst (fst x)) (snd x) g s) as [s' [g'|r]]; cbn [fst] in A, AF; destruct A as (A1 & A2 & A3 & A4 & A5 & A6 & A7 & A8); unfold none_left, all_ok, cur in *; rewrite C in L; cbn.
        + rewrite A2, A4. split; auto. split; auto. intros e I. apply AF. intros ->. auto.
        + rewrite A2. split; [intros y I; apply L; right; auto|]. split; [|intros e I; apply AF; intros ->; auto].
          intros K y r' I E. apply in_app_or in I as [I|[I|[]]]; [eapply K; eauto|]. injection I as <- <-. congruence.
      - destruct (queue V s) as [|x q] eqn:Q; [unfold none_left, all_ok in *; auto|]. unfold none_left, all_ok, cur in *. rewrite C, Q in L. cbn. auto. }
    destruct (sv_phase V v'); rewrite ?M; auto.
    + destruct PB as [PB PC]. split; auto. apply Tw; auto. rewrite PB. cbn. tauto.
    + destruct PB as [PB PC]. split; auto. apply Tw; auto. rewrite PB. cbn. tauto.
    + destruct PB as [PB PC]. split; auto. apply Tw; auto. rewrite PB. cbn. tauto.
    + destruct PB as [PB PC]. split; auto. apply Tw; auto. rewrite PB. cbn. tauto.
    + destruct PB as (PB & PC & PD). split; auto. split; [apply Tw; auto; rewrite PB; cbn; tauto|]. intros G'. destruct (PD (G G')) as [L K]. destruct (NL L) as (L' & K' & _). auto.
    + intros G'. destruct (PB (G G')) as [F L]. destruct (NL L) as (L' & _ & F'). split; auto. unfold final_ok. rewrite F'; [auto|right; auto].
Qed.

Lemma owned_snoc : forall s s' x, jobs s' = (jobs s ++ [x])%list -> owned s -> snd (fst x) = Save j -> dir_of V (snd x) = tmp -> owned s'.
Proof. intros s s' x J Ow A B y I. rewrite J in I. apply in_app_or in I as [I|[<-|[]]]; auto. Qed.

Lemma good_ok : forall s, owned s -> good s -> reported V s = failures V (done V s) -> (forall id e, ~ In (Save j, id, e) (raised V s)) -> all_ok s.
Proof.
  intros s Ow [G1 G2] Rp N x r I E. destruct r as [[]|e]; auto. exfalso. destruct x as [[id w] t]. cbn in E.
  assert (X : In (id, e) (failures V (done V s))). { unfold failures. apply in_flat_map. exists (id, w, t, Err e). split; auto. left. auto. }
  rewrite <- Rp in X. unfold reported in X. apply in_map_iff in X as ([[w' id'] e'] & Y & Z). cbn in Y. injection Y as -> ->.
  destruct (Ow (id, w, t)) as [[A B]|[A B]].
  - unfold jobs. apply in_or_app. left. apply in_map_iff. exists (id, w, t, Err e). auto.
  - cbn in A. subst w. rewrite (G1 w' id e t (Err e) Z I) in Z. eapply N; eauto.
  - apply B. cbn. left. auto.
Qed.

Lemma dones_mine : forall s, none_left s -> dones tmp s = mine s.
Proof.
  intros s L. unfold dones, mine, jobs. rewrite filter_app. rewrite map_app. replace (filter (on tmp) (cur s ++ queue V s)) with (@nil (job V)); [rewrite app_nil_r; auto|].
  unfold none_left in L. induction (cur s ++ queue V s)%list as [|x q IH]; auto. cbn [filter]. destruct (on_spec tmp x) as [X|X]; [exfalso; apply (L x); [left|]; auto|]. apply IH. intros y I. apply L. right. auto.
Qed.

Lemma clean_si : forall s, owned s -> good s -> all_ok s -> clean tmp s.
Proof.
  intros s Ow [G1 G2] K x r I E. split; [eapply K; eauto|]. intros Y. destruct x as [[id w] t]. destruct (Ow (id, w, t)) as [[A B]|[A B]].
  - unfold jobs. apply in_or_app. left. apply in_map_iff. exists (id, w, t, r). auto.
  - cbn in A. subst w. eapply G2; eauto.
  - apply B. left. auto.
Qed.

Lemma si_step_mine : forall s, SI s -> SI (save_step V j s).
Proof.
  intros s I0. destruct I0 as [O Sv Ow Us (v' & Hv & Av & P)] eqn:E0. clear E0. unfold save_step. rewrite Hv.
  assert (Wt : forall p, (forall s1, s1 = set_pend V [] s -> cur s = [] -> queue V s = [] -> reported V s = failures V (done V s) -> Ph p s1) ->
    SI (match wait V (Save j) s with None => s | Some (s1, Ok _) => set_phase V j p s1 | Some (s1, Err _) => set_phase V j PFailed s1 end)).
  { intros p H. destruct (wait V (Save j) s) as [[s1 r]|] eqn:W; auto. pose proof (ord_wait _ _ _ _ O W) as O1. pose proof (wait_cases _ _ _ _ O W) as C. destruct r as [[]|e].
    - destruct C as (-> & C1 & C2 & C3). eapply si_mine; eauto.
    - destruct C as (id & q & x & a & b & c & -> & _). eapply si_mine with (s := s); eauto. split; auto. }
  destruct Av as (V1 & V2 & V3 & V4 & V5). destruct P as [PA PB].
  destruct (sv_phase V v') eqn:Ep; rewrite ?V1, ?V2, ?V3, ?V4, ?V5; auto.
  - eapply si_mine with (s := s); eauto.
    + apply ord_submit. apply ord_fs. auto.
    + eapply owned_snoc; [apply jobs_submit| |auto|auto]. auto.
    + split; [intros id e I; specialize (PA id e I); discriminate|].
      split.
      * rewrite (mine_snoc (mkdir V tmp s) _ (next V (mkdir V tmp s), Save j, TWrite V tmp (sv_init V v))); [|apply jobs_submit]. change (mine (mkdir V tmp s)) with (mine s). rewrite PB. unfold on. cbn. rewrite N.eqb_refl. auto.
      * intros K. assert (Z : forall x, In x (jobs s) -> dir_of V (snd x) <> tmp) by (intros x I E; pose proof (mine_in s x I E) as Z; rewrite PB in Z; destruct Z).
        assert (Y : now tmp u (NoFile V) (submit V (Save j) (TWrite V tmp (sv_init V v)) (mkdir V tmp s)) = NoFile V).
        { unfold now, dones. cbn [done submit set_next set_pend set_queue mkdir set_fs]. replace (filter (on tmp) (map fst (done V s))) with (@nil (job V)); auto.
          assert (Z' : forall x, In x (map fst (done V s)) -> dir_of V (snd x) <> tmp) by (intros x I; apply Z; unfold jobs; apply in_or_app; auto). clear - Z'.
          induction (map fst (done V s)) as [|x q IH]; auto. cbn [filter]. destruct (on_spec tmp x) as [X|X]; [exfalso; apply (Z' x); [left|]; auto|]. apply IH. intros y I. apply Z'. right. auto. }
        assert (X : dget N.eqb tmp (fs V (submit V (Save j) (TWrite V tmp (sv_init V v)) (mkdir V tmp s))) = Some (NoFile V)) by (cbn; rewrite (dget_dput N.eqb Nspec), N.eqb_refl; auto).
        rewrite Y, X. cbn [current submit set_next set_pend set_queue mkdir set_fs]. destruct (current V s) as [[x g]|] eqn:C; auto. destruct (on_spec tmp x) as [E|E]; auto.
        exfalso. apply (Z x); auto. unfold jobs, cur. rewrite C. apply in_or_app. right. left. auto.
  - destruct PB as [PB PC]. eapply si_mine with (s := s); eauto.
    + apply ord_submit. auto.
    + eapply owned_snoc; [apply jobs_submit| |auto|auto]. auto.
    + split; [intros id e I; specialize (PA id e I); discriminate|]. split.
      * rewrite (mine_snoc s _ _ (jobs_submit _ _ _)), PB. unfold on. cbn. rewrite N.eqb_refl. auto.
      * eapply trk_frame; eauto. exists []. rewrite app_nil_r. auto.
  - destruct PB as [PB PC]. apply Wt. intros s1 -> C1 C2 C3. split; [intros id e I; specialize (PA id e I); discriminate|]. split; [exact PB|]. eapply trk_frame; eauto. exists []. rewrite app_nil_r. auto.
  - destruct PB as [PB PC]. eapply si_mine with (s := s); eauto.
    + apply ord_submit. auto.
    + eapply owned_snoc; [apply jobs_submit| |auto|auto]. auto.
    + split; [intros id e I; specialize (PA id e I); discriminate|]. split.
      * rewrite (mine_snoc s _ _ (jobs_submit _ _ _)), PB. unfold on. cbn. rewrite N.eqb_refl. auto.
      * eapply trk_frame; eauto. exists []. rewrite app_nil_r. auto.
  - destruct PB as [PB PC]. apply Wt. intros s1 -> C1 C2 C3. split; [intros id e I; specialize (PA id e I); discriminate|]. split; [exact PB|]. split; [eapply trk_frame; eauto; exists []; rewrite app_nil_r; auto|].
    intros G. split; [intros x I; unfold cur in *; cbn in I; rewrite C1, C2 in I; destruct I|]. apply good_ok; auto. intros id e I. specialize (PA id e I). discriminate.
  - destruct PB as (PB & PC & PD).
    assert (PA' : forall p id e, In (Save j, id, e) (raised V s) -> p = PFailed) by (intros p id e I; specialize (PA id e I); discriminate).
    assert (Fin : good s -> dget N.eqb tmp (fs V s) = Some (fold_left (eff u) [tW; tU; tC] (NoFile V)) /\ none_left s).
    { intros G. destruct (PD G) as [L K]. split; auto. rewrite <- PB, <- (dones_mine s L). apply (trk_idle tmp u (refers V v) (NoFile V)); auto; [apply clean_si; auto|]. intros x I. apply L. apply in_or_app. auto. }
    unfold rename. destruct (Nspec tmp (sv_final V v)) as [E|E].
    + eapply si_mine with (s := s); eauto. split; [apply PA'|]. intros G. destruct (Fin G) as [F L]. split; auto. unfold final_ok. rewrite <- E. auto.
    + destruct (dget N.eqb tmp (fs V s)) as [f|] eqn:X; [destruct (dget N.eqb (sv_final V v) (fs V s)) as [f'|] eqn:Y|].
      * eapply si_mine with (s := s); eauto. split; auto.
      * eapply si_mine with (s := s); eauto; [apply ord_fs; auto|]. split; [apply PA'|]. intros G. destruct (Fin G) as [F L]. split; auto. unfold final_ok. cbn. rewrite (dget_dput N.eqb Nspec), N.eqb_refl. auto.
      * eapply si_mine with (s := s); eauto. split; auto.
Qed.


(** What the event of another leaves alone *)
Definition harmless (e : event V) : Prop :=
  match e with
  | ESubmit _ _ t | EBlocking _ t => ~ uses V v (dir_of V t)
  | EChange _ r _ => ~ refers V v r
  | _ => True
  end.

Lemma phase_other : forall i p s, i <> j -> forall k w', nth_error (saves V (set_phase V i p s)) k = Some w' ->
  exists w0, nth_error (saves V s) k = Some w0 /\ alike w0 w' /\ (k = j -> w' = w0).
Proof.
  intros i p s N k w' H. destruct (set_phase_nth _ _ _ _ _ H) as (w0 & H0 & A & B). exists w0. split; auto. split; auto. intros ->. destruct (Nat.eqb_spec i j); [congruence|auto].
Qed.

Lemma phase_j : forall i p s v1, nth_error (saves V s) j = Some v1 -> i <> j -> nth_error (saves V (set_phase V i p s)) j = Some v1.
Proof. intros i p s v1 H N. unfold set_phase. cbn. destruct (nth_error (saves V s) i); auto. rewrite nth_set. destruct (Nat.eqb_spec i j); [congruence|auto]. Qed.

Lemma si_step_other : forall i s, i <> j -> SI s -> SI (save_step V i s).
Proof.
  intros i s N I. pose proof I as [O Sv Ow Us (v' & Hv & Av & P)]. unfold save_step. destruct (nth_error (saves V s) i) as [w'|] eqn:E; auto.
  destruct (Sv _ _ E) as (w & Hw & Aw). destruct (Ho i w Hw N) as [Ho1 Ho2]. destruct Aw as (W1 & W2 & W3 & W4 & W5).
  assert (Wt : forall p, SI (match wait V (Save i) s with None => s | Some (s1, Ok _) => set_phase V i p s1 | Some (s1, Err _) => set_phase V i PFailed s1 end)).
  { intros p. destruct (wait V (Save i) s) as [[s1 r]|] eqn:W; auto. pose proof (ord_wait _ _ _ _ O W) as O1. pose proof (wait_cases _ _ _ _ O W) as C. destruct r as [[]|e].
    - destruct C as (-> & _). eapply (si_other s _ [] []); eauto; try (cbn; rewrite app_nil_r; auto; fail).
      + apply ord_phase. auto.
      + intros k w0 H. eapply (phase_other i p (set_pend V [] s)); eauto.
      + exists v'. apply phase_j; auto.
      + exists []. rewrite !app_nil_r. split; [auto|split; [auto|intros x []]].
    - destruct C as (id & q & x & a & b & c & -> & _). eapply (si_other s _ [(Save i, id, e)] []); eauto; try (cbn; rewrite app_nil_r; auto; fail).
      + apply ord_phase. auto.
      + intros k w0 H. eapply (phase_other i PFailed (set_raised V _ (set_pend V q s))); eauto.
      + exists v'. apply phase_j; auto.
      + exists []. rewrite !app_nil_r. split; [auto|split; [auto|intros y []]].
      + intros id' e' [X|[]]. injection X as X _ _. congruence. }
  assert (Sb : forall p t s1, s1 = s \/ s1 = mkdir V (sv_tmp V w) s -> ~ uses V v (dir_of V t) -> SI (set_phase V i p (submit V (Save i) t s1))).
  { intros p t s1 H1 H2. eapply (si_other s _ [] []); eauto; try (destruct H1 as [-> | ->]; cbn; rewrite ?app_nil_r; auto; fail).
    - apply ord_phase. apply ord_submit. destruct H1 as [-> | ->]; auto. apply ord_fs. auto.
    - intros k w0 H. destruct H1 as [-> | ->]; [eapply (phase_other i p (submit V (Save i) t s))|eapply (phase_other i p (submit V (Save i) t (mkdir V (sv_tmp V w) s)))]; eauto.
    - exists v'. apply phase_j; auto. destruct H1 as [-> | ->]; auto.
    - exists [(next V s, Save i, t)]. split; [|split].
      + unfold jobs, cur. destruct H1 as [-> | ->]; cbn; rewrite !app_assoc; auto.
      + destruct H1 as [-> | ->]; auto.
      + intros x [<-|[]]. cbn. split; [congruence|auto].
    - intros e Ue. destruct H1 as [-> | ->]; auto. cbn. rewrite (dget_dput N.eqb Nspec). destruct (Nspec e (sv_tmp V w)) as [->|X]; [contradiction|auto]. }
  assert (Fl : forall p f, (forall e, uses V v e -> dget N.eqb e f = dget N.eqb e (fs V s)) -> SI (set_phase V i p (set_fs V f s))).
  { intros p f H. eapply (si_other s _ [] []); eauto; try (cbn; rewrite app_nil_r; auto; fail).
    + apply ord_phase. apply ord_fs. auto.
    + intros k w0 H'. eapply (phase_other i p (set_fs V f s)); eauto.
    + exists v'. apply phase_j; auto.
    + exists []. rewrite !app_nil_r. split; [auto|split; [auto|intros x []]]. }
  assert (Fe : forall p, SI (set_phase V i p s)) by (intros p; specialize (Fl p (fs V s) (fun e _ => eq_refl)); destruct s; auto).
  destruct (sv_phase V w'); rewrite ?W1, ?W2, ?W3, ?W4, ?W5; auto.
  unfold rename. destruct (N.eqb (sv_tmp V w) (sv_final V w)); auto. destruct (dget N.eqb (sv_tmp V w) (fs V s)); auto. destruct (dget N.eqb (sv_final V w) (fs V s)); auto.
  apply Fl. intros e Ue. rewrite (dget_dput N.eqb Nspec). destruct (Nspec e (sv_final V w)) as [->|X]; [contradiction|]. apply dget_filter. intros ->. auto.
Qed.

Lemma si_step : forall e s, harmless e -> SI s -> SI (step e s).
Proof.
  intros e s H I. pose proof I as [O Sv Ow Us (v' & Hv & Av & P)]. pose proof (ord_step e s O) as O'. destruct e as [|i|i|n|n t|t|r x]; cbn [MetaStore_Model.step] in *.
  - apply si_work. auto.
  - destruct (Nat.eq_dec i j) as [->|N]; [apply si_step_mine|apply si_step_other]; auto.
  - destruct (Nat.eq_dec i j) as [->|N].
    + rewrite Hv. destruct (sv_phase V v'); auto; eapply si_mine with (s := s); eauto; split; auto.
    + destruct (nth_error (saves V s) i) as [w|] eqn:E; auto. assert (X : SI (set_phase V i PFailed s)).
      { eapply (si_other s _ [] []); eauto; try (cbn; rewrite app_nil_r; auto; fail).
        + apply ord_phase. auto.
        + intros k w0 H'. eapply (phase_other i PFailed s); eauto.
        + exists v'. apply phase_j; auto.
        + exists []. rewrite !app_nil_r. split; [auto|split; [auto|intros y []]]. }
      destruct (sv_phase V w); auto.
  - destruct (wait V (Other n) s) as [[s1 r]|] eqn:W; auto. pose proof (wait_cases _ _ _ _ O W) as C. destruct r as [[]|e].
    + destruct C as (-> & _). eapply (si_other s _ [] []); eauto; try (cbn; rewrite app_nil_r; auto; fail).
      * intros k w0 H'. apply si_saves_refl. auto.
      * exists []. rewrite !app_nil_r. split; [auto|split; [auto|intros x []]].
    + destruct C as (id & q & x & a & b & c & -> & _). eapply (si_other s _ [(Other n, id, e)] []); eauto; try (cbn; rewrite app_nil_r; auto; fail).
      * intros k w0 H'. apply si_saves_refl. auto.
      * exists []. rewrite !app_nil_r. split; [auto|split; [auto|intros y []]].
      * intros id' e' [X|[]]. discriminate.
  - eapply (si_other s _ [] []); eauto; try (cbn; rewrite app_nil_r; auto; fail).
    + intros k w0 H'. apply si_saves_refl. auto.
    + exists [(next V s, Other n, t)]. split; [apply jobs_submit|]. split; auto. intros x [<-|[]]. cbn. split; [discriminate|auto].
  - unfold MetaStore_Model.blocking in *. destruct (exec_same 4 (next V s) t (start V t) (set_next V (S (next V s)) s)) as ((A1 & A2 & A3 & A4 & A5 & A6 & A7 & A8) & F & lu & Un & Uf).
    eapply (si_other s _ [] lu); eauto.
    + intros k w0 H'. rewrite A8 in H'. apply si_saves_refl. auto.
    + rewrite A8. eauto.
    + rewrite A1. auto.
    + exists []. unfold jobs, cur. rewrite A2, A3, A4. rewrite !app_nil_r. split; [auto|split; [auto|intros x []]].
    + intros e Ue. apply F. intros ->. auto.
    + rewrite A7, app_nil_r. auto.
  - eapply (si_other s _ [] []); eauto; try (cbn; rewrite app_nil_r; auto; fail).
    + intros k w0 H'. apply si_saves_refl. auto.
    + intros r' R'. cbn. destruct (Nspec r r') as [<-|X]; [contradiction|auto].
    + exists []. rewrite !app_nil_r. split; [auto|split; [auto|intros y []]].
Qed.

Lemma si_begin : forall f, SI (begin V f u l).
Proof.
  intros f. constructor; auto.
  - apply ord_begin.
  - intros i w H. exists w. split; auto. apply alike_refl.
  - intros x [].
  - exists v. split; auto. split; [apply alike_refl|]. rewrite Hp. split; [intros id e []|auto].
Qed.

Lemma si_run : forall es f, (forall e, In e es -> harmless e) -> SI (run es (begin V f u l)).
Proof.
  intros es f. induction es as [|e es IH] using rev_ind; intros H; [apply si_begin|]. rewrite run_snoc. apply si_step; [apply H; apply in_or_app; right; left; auto|].
  apply IH. intros e' I. apply H. apply in_or_app. auto.
Qed.

End OneSave.

(** ** Keys *)

Lemma dget_ev : forall w m k, dget String.eqb k (ev w m) = option_map (eval V w) (dget String.eqb k m).
Proof. intros w m k. induction m as [|[k' x] m IH]; auto. cbn [ev map dget fst snd]. destruct (String.eqb k k'); auto. Qed.

Lemma dget_merge : forall w old kw k, NoDup (map fst kw) -> dget String.eqb k (ev w (merge V old kw)) =
  match dget String.eqb k kw with Some x => Some (eval V w x) | None => dget String.eqb k old end.
Proof.
  intros w old kw k N. rewrite dget_ev. unfold merge.
  assert (B : forall l (m : dict string (val V)), NoDup (map fst l) -> dget String.eqb k (fold_left (fun m x => dput String.eqb (fst x) (snd x) m) l m) = match dget String.eqb k l with Some x => Some x | None => dget String.eqb k m end).
  { clear. induction l as [|[k' x] l IH]; intros m N; auto. cbn [map fst] in N. inversion_clear N as [|? ? N1 N2]. cbn [fold_left fst snd dget]. rewrite IH; auto. rewrite (dget_dput String.eqb Sspec).
    destruct (Sspec k k') as [->|X]; auto. destruct (dget String.eqb k' l) as [y|] eqn:E; auto. exfalso. apply N1. apply (dget_some_in String.eqb Sspec) in E. apply (in_map fst) in E. auto. }
  rewrite B; auto. destruct (dget String.eqb k kw); auto. clear. induction old as [|[k' x] old IH]; auto. cbn [map dget fst snd]. destruct (String.eqb k k'); auto.
Qed.

Lemma says_fold : forall w v, NoDup (map fst (sv_kw V v)) -> exists m, fold_left (eff w) [tW v; tU v; tC v] (NoFile V) = Whole V m /\ forall k, dget String.eqb k m = says V w v k.
Proof.
  intros w v N. eexists. split; [reflexivity|]. intros k. cbn [fold_left eff tW tU tC content]. rewrite dget_merge; [|constructor; [auto|constructor]]. cbn [dget]. unfold says.
  destruct (String.eqb k commit_key); auto. rewrite dget_merge; auto. destruct (dget String.eqb k (sv_kw V v)); auto. apply dget_ev.
Qed.


(** ** Tasks of any threads on one directory *)

Lemma for_dir_snoc : forall d es e, for_dir V d (es ++ [e]) = (for_dir V d es ++ for_dir V d [e])%list.
Proof. intros. unfold for_dir. apply flat_map_app. Qed.

Record DI (d : N) (u : N -> V) (R : N -> Prop) (f0 : file V) (l : list (save V)) (ts : list (task V)) (s : st) : Prop := mkDI {
  di_trk : Trk d u R f0 s;
  di_frz : Frz d u R s;
  di_jobs : map snd (filter (on d) (jobs s)) = ts;
  di_saves : forall i w', nth_error (saves V s) i = Some w' -> exists w, nth_error l i = Some w /\ alike w w' }.

Section AnyDir.
Variable d : N.
Variable u : N -> V.
Variable R : N -> Prop.
Variable f0 : file V.
Variable l : list (save V).
Hypothesis Hl : forall w, In w l -> sv_tmp V w <> d /\ sv_final V w <> d.

Notation D := (DI d u R f0 l).

Lemma di_frame : forall s s' ts c, D ts s -> dget N.eqb d (fs V s') = dget N.eqb d (fs V s) -> current V s' = current V s -> done V s' = done V s ->
  unread V s' = (unread V s ++ c)%list -> (forall r, R r -> users V s' r = u r) ->
  (forall i w', nth_error (saves V s') i = Some w' -> exists w, nth_error (saves V s) i = Some w /\ alike w w') ->
  forall new, queue V s' = (queue V s ++ new)%list -> (forall x, In x new -> dir_of V (snd x) = d -> trefs (snd x) R) ->
  D (ts ++ map snd (filter (on d) new)) s'.
Proof.
  intros s s' ts c [T [F1 F2] J S] Fs C Dn U Us Sv new Q N.
  assert (JJ : jobs s' = (jobs s ++ new)%list) by (unfold jobs, cur; rewrite Dn, C, Q, !app_assoc; auto).
  constructor.
  - eapply trk_frame; eauto.
  - split; auto. intros x I E. rewrite JJ in I. apply in_app_or in I as [I|I]; auto.
  - rewrite JJ, filter_app, map_app. apply (f_equal2 (@app (task V))); [exact J|reflexivity].
  - intros i w' H. destruct (Sv _ _ H) as (w & H1 & A). destruct (S _ _ H1) as (w1 & H2 & A'). exists w1. split; auto. eapply alike_trans; eauto.
Qed.

Lemma di_frame0 : forall s s' ts c, D ts s -> dget N.eqb d (fs V s') = dget N.eqb d (fs V s) -> current V s' = current V s -> done V s' = done V s ->
  unread V s' = (unread V s ++ c)%list -> (forall r, R r -> users V s' r = u r) ->
  (forall i w', nth_error (saves V s') i = Some w' -> exists w, nth_error (saves V s) i = Some w /\ alike w w') ->
  queue V s' = queue V s -> D ts s'.
Proof.
  intros s s' ts c I Fs C Dn U Us Sv Q. rewrite <- (app_nil_r ts). change (@nil (task V)) with (map snd (filter (on d) [])). eapply di_frame; eauto; [rewrite app_nil_r; auto|intros x []].
Qed.

Lemma saves_id : forall s i (w' : save V), nth_error (saves V s) i = Some w' -> exists w, nth_error (saves V s) i = Some w /\ alike w w'.
Proof. intros s i w' H. exists w'. split; auto. apply alike_refl. Qed.

Lemma saves_phase : forall k p s i (w' : save V), nth_error (saves V (set_phase V k p s)) i = Some w' -> exists w, nth_error (saves V s) i = Some w /\ alike w w'.
Proof. intros k p s i w' H. destruct (set_phase_nth _ _ _ _ _ H) as (w0 & H0 & A & _). eauto. Qed.

Lemma wait_shape : forall w s s' r, wait V w s = Some (s', r) -> exists p q, s' = set_raised V q (set_pend V p s).
Proof.
  intros w s s' r H. unfold wait in H. destruct (wait_loop V (done V s) (pend V s)) as [[p [[id e]|]]|]; [| |discriminate]; injection H as <- <-; [eauto|].
  exists p, (raised V s). destruct s; auto.
Qed.

Lemma di_step : forall e s ts, D ts s ->
  match e with EBlocking _ t => dir_of V t <> d | EChange _ r _ => ~ R r | ESubmit _ _ t => dir_of V t = d -> trefs t R | _ => True end ->
  D (ts ++ for_dir V d [e]) (step e s).
Proof.
  intros e s ts I H. pose proof I as [T [F1 F2] J Sv0].
  destruct e as [|i|i|n|n t|t|r x]; cbn [for_dir flat_map app]; rewrite ?app_nil_r; cbn [MetaStore_Model.step].
  - destruct (work_rest s) as (W1 & W2 & W3 & W4 & W5 & W6 & W7). constructor.
    + apply trk_work; auto. split; auto.
    + apply frz_work. split; auto.
    + rewrite jobs_work. auto.
    + rewrite W4. auto.
  - unfold save_step. destruct (nth_error (saves V s) i) as [w'|] eqn:E; auto. destruct (Sv0 _ _ E) as (w & Hw & (W1 & W2 & W3 & W4 & W5)). destruct (Hl w (nth_error_In _ _ Hw)) as [L1 L2].
    assert (Wt : forall p, D ts (match wait V (Save i) s with None => s | Some (s1, Ok _) => set_phase V i p s1 | Some (s1, Err _) => set_phase V i PFailed s1 end)).
    { intros p. destruct (wait V (Save i) s) as [[s1 r]|] eqn:W; auto. destruct (wait_shape _ _ _ _ W) as (a & b & ->).
      destruct r; (eapply (di_frame0 s _ ts []); eauto; [cbn; rewrite app_nil_r; auto|]; intros k w0 H'; apply saves_phase in H'; auto). }
    assert (Sb : forall p m s1, s1 = s \/ s1 = mkdir V (sv_tmp V w) s -> dir_of V m <> d -> D ts (set_phase V i p (submit V (Save i) m s1))).
    { intros p m s1 H1 H2. rewrite <- (app_nil_r ts). replace (@nil (task V)) with (map snd (filter (on d) [(next V s, Save i, m)])).
      2: { cbn [filter]. destruct (on_spec d (next V s, Save i, m)); auto. contradiction. }
      eapply (di_frame s _ ts []); eauto; try (destruct H1 as [-> | ->]; cbn; rewrite ?app_nil_r; auto; fail).
      - destruct H1 as [-> | ->]; auto. cbn. rewrite (dget_dput N.eqb Nspec). destruct (Nspec d (sv_tmp V w)); congruence.
      - intros k w0 H'. apply saves_phase in H'. destruct H1 as [-> | ->]; auto.
      - intros x [<-|[]] E'. contradiction. }
    assert (Fl : forall p f, dget N.eqb d f = dget N.eqb d (fs V s) -> D ts (set_phase V i p (set_fs V f s))).
    { intros p f H'. eapply (di_frame0 s _ ts []); eauto; [cbn; rewrite app_nil_r; auto|]. intros k w0 H2; apply saves_phase in H2; auto. }
    assert (Fe : forall p, D ts (set_phase V i p s)) by (intros p; specialize (Fl p (fs V s) eq_refl); destruct s; auto).
    destruct (sv_phase V w'); rewrite ?W1, ?W2, ?W3, ?W4, ?W5; auto.
    unfold rename. destruct (N.eqb (sv_tmp V w) (sv_final V w)); auto. destruct (dget N.eqb (sv_tmp V w) (fs V s)); auto. destruct (dget N.eqb (sv_final V w) (fs V s)); auto.
    apply Fl. rewrite (dget_dput N.eqb Nspec). destruct (Nspec d (sv_final V w)) as [X|X]; [congruence|]. apply dget_filter. auto.
  - destruct (nth_error (saves V s) i) as [w|] eqn:E; auto. assert (X : D ts (set_phase V i PFailed s)).
    { eapply (di_frame0 s _ ts []); eauto; [cbn; rewrite app_nil_r; auto|]. intros k w0 H2; apply saves_phase in H2; auto. }
    destruct (sv_phase V w); auto.
  - destruct (wait V (Other n) s) as [[s1 r]|] eqn:W; auto. destruct (wait_shape _ _ _ _ W) as (a & b & ->).
    eapply (di_frame0 s _ ts []); eauto; [cbn; rewrite app_nil_r; auto|]. intros k w0 H'. apply saves_id. auto.
  - replace (if N.eqb d (dir_of V t) then [t] else []) with (map snd (filter (on d) [(next V s, Other n, t)])) by (cbn [filter]; unfold on; cbn [snd]; destruct (N.eqb d (dir_of V t)); auto).
    eapply (di_frame s _ ts []); eauto; [cbn; rewrite app_nil_r; auto| |].
    + intros k w0 H'. apply saves_id. auto.
    + intros x [<-|[]]. auto.
  - unfold MetaStore_Model.blocking. destruct (exec_same 4 (next V s) t (start V t) (set_next V (S (next V s)) s)) as ((A1 & A2 & A3 & A4 & A5 & A6 & A7 & A8) & F & lu & Un & Uf).
    eapply (di_frame0 s _ ts lu); eauto.
    + rewrite A1. auto.
    + intros k w0 H'. rewrite A8 in H'. apply saves_id. auto.
  - eapply (di_frame0 s _ ts []); eauto; try (cbn; rewrite app_nil_r; auto; fail).
    + intros r' R'. cbn. destruct (Nspec r r') as [<-|X]; [contradiction|auto].
    + intros k w0 H'. apply saves_id. auto.
Qed.

Lemma di_begin : forall f, dget N.eqb d f = Some f0 -> D [] (begin V f u l).
Proof.
  intros f H. constructor; auto.
  - intros K. cbn. auto.
  - split; auto. intros x [].
  - intros i w Hw. exists w. split; auto. apply alike_refl.
Qed.

Lemma di_run : forall es f, dget N.eqb d f = Some f0 ->
  (forall e, In e es -> match e with EBlocking _ t => dir_of V t <> d | EChange _ r _ => ~ R r | ESubmit _ _ t => dir_of V t = d -> trefs t R | _ => True end) ->
  D (for_dir V d es) (run es (begin V f u l)).
Proof.
  intros es f F. induction es as [|e es IH] using rev_ind; intros H; [apply di_begin; auto|]. rewrite run_snoc, for_dir_snoc. apply di_step; [|apply H; apply in_or_app; right; left; auto].
  apply IH. intros e' I. apply H. apply in_or_app. auto.
Qed.

End AnyDir.

Lemma last_fold : forall u k ts f, Forall (fun t => NoDup (map fst (kw_of V t))) ts ->
  dget String.eqb k (content (fold_left (eff u) ts f)) = last_value V k (dget String.eqb k (content f)) ts u.
Proof.
  intros u k ts. induction ts as [|t ts IH]; intros f F; auto. inversion_clear F as [|? ? F1 F2]. cbn [fold_left]. rewrite IH; auto. destruct t as [d m|d kw]; cbn [last_value eff content].
  - rewrite dget_ev. auto.
  - cbn in F1. rewrite dget_merge; auto.
Qed.

Lemma before_content : forall k (f : file V), before V (Some f) k = dget String.eqb k (content f).
Proof. intros k [| |m]; auto. Qed.

(** ** Steps left *)

Definition left_of (g : stage V) : nat := match g with SExists _ => 4 | SRead _ => 3 | SOpen _ _ => 2 | SFill _ _ => 1 end.
Definition todo (s : st) : nat := 5 * List.length (queue V s) + match current V s with Some (_, g) => left_of g | None => 0 end.

Lemma advance_less : forall id t g s g' s', advance id t g s = (s', inl g') -> left_of g' < left_of g.
Proof.
  intros id t g s g' s'. unfold MetaStore_Model.advance. destruct g as [| |m|m].
  - destruct (fault (clock V s)); [discriminate|]. destruct (dget N.eqb (dir_of V t) (fs V s)) as [[| |]|]; intros H; injection H as _ <-; cbn; lia.
  - destruct (fault (clock V s)); intros H; injection H as _ <-; cbn; lia.
  - destruct (dumps V serializable (users V s) m); [|discriminate]. destruct (fault (clock V s)); [discriminate|]. destruct (dget N.eqb (dir_of V t) (fs V s)); [|discriminate]. intros H; injection H as _ <-; cbn; lia.
  - destruct (fault (clock V s)); [discriminate|]. destruct (dget N.eqb (dir_of V t) (fs V s)); discriminate.
Qed.

Lemma todo_work : forall s, todo s = 0 \/ todo (work s) < todo s.
Proof.
  intros s. unfold todo, MetaStore_Model.work. destruct (current V s) as [[j g]|] eqn:C.
  - right. pose proof (advance_same (fst (fst j)) (snd j) g s) as A. destruct (advance (fst (fst j)) (snd j) g s) as [s' [g'|r]] eqn:E; cbn [fst] in A; destruct A as (A1 & A2 & A3 & A4 & _); cbn [queue current set_current set_done]; rewrite A2.
    + apply advance_less in E. lia.
    + destruct g; cbn; lia.
  - destruct (queue V s) as [|j q] eqn:Q; [left; auto|]. right. cbn [queue current set_current set_queue List.length]. destruct (snd j); cbn; lia.
Qed.

Lemma idle_todo : forall s, idle V s <-> todo s = 0.
Proof.
  intros s. unfold idle, todo. destruct (current V s) as [[j g]|], (queue V s) as [|x q]; cbn [List.length]; split; intros H; auto; try (destruct H; discriminate); try lia; destruct g; cbn in H; lia.
Qed.

Lemma drain : forall n s, todo s <= n -> idle V (run (repeat (EWork V) n) s).
Proof.
  induction n as [|n IH]; intros s H; [change (idle V s); apply idle_todo; lia|]. cbn [repeat MetaStore_Model.run fold_left]. apply (IH (work s)). destruct (todo_work s) as [Z|Z]; [|lia].
  apply idle_todo in Z as [Z1 Z2]. unfold MetaStore_Model.work. rewrite Z1, Z2. unfold todo. rewrite Z1, Z2. cbn. lia.
Qed.


(** ** Which directories are there *)

Definition ex (s : st) (d : N) : bool := match dget N.eqb d (fs V s) with Some _ => true | None => false end.

Lemma ex_dput : forall s s' d f, fs V s' = dput N.eqb d f (fs V s) -> ex s d = true -> forall e, ex s' e = ex s e.
Proof. intros s s' d f H E e. unfold ex in *. rewrite H, (dget_dput N.eqb Nspec). destruct (Nspec e d) as [->|X]; auto. Qed.

Lemma ex_advance : forall id t g s e, ex (fst (advance id t g s)) e = ex s e.
Proof.
  intros id t g s e. unfold MetaStore_Model.advance. destruct g as [| |m|m].
  - destruct (fault (clock V s)); auto. destruct (dget N.eqb (dir_of V t) (fs V s)) as [[| |]|]; auto.
  - destruct (fault (clock V s)); auto.
  - destruct (dumps V serializable (users V s) m); auto. destruct (fault (clock V s)); auto. destruct (dget N.eqb (dir_of V t) (fs V s)) eqn:E; auto. eapply ex_dput; [reflexivity|]. unfold ex. rewrite E. auto.
  - destruct (fault (clock V s)); auto. destruct (dget N.eqb (dir_of V t) (fs V s)) eqn:E; auto. eapply ex_dput; [reflexivity|]. unfold ex. rewrite E. auto.
Qed.

Lemma ex_exec : forall f id t g s e, ex (fst (exec f id t g s)) e = ex s e.
Proof.
  induction f as [|f IH]; intros id t g s e; auto. cbn [MetaStore_Model.exec]. pose proof (ex_advance id t g s e) as A. destruct (advance id t g s) as [s' [g'|r]]; cbn [fst] in *; auto. rewrite IH. auto.
Qed.

Lemma ex_work : forall s e, ex (work s) e = ex s e.
Proof.
  intros s e. unfold MetaStore_Model.work. destruct (current V s) as [[j g]|].
  - pose proof (ex_advance (fst (fst j)) (snd j) g s e) as A. destruct (advance (fst (fst j)) (snd j) g s) as [s' [g'|r]]; auto.
  - destruct (queue V s); auto.
Qed.

Section Why.
Variable l : list (save V).
Variable j : nat.
Variable v : save V.
Variable u : N -> V.
Hypothesis Hj : nth_error l j = Some v.
Hypothesis Ho : forall i w, nth_error l i = Some w -> i <> j -> ~ uses V v (sv_tmp V w) /\ ~ uses V v (sv_final V w).
Notation SI := (SI l j v u).

(** The events of others *)
Lemma quiet_step : forall e s, SI s -> harmless v e -> e <> ESave V j -> e <> EFail V j ->
  nth_error (saves V (step e s)) j = nth_error (saves V s) j /\ (exists a, raised V (step e s) = (raised V s ++ a)%list) /\ forall d, uses V v d -> ex (step e s) d = ex s d.
Proof.
  intros e s I H N1 N2. pose proof I as [O Sv Ow Us (v' & Hv & Av & P)].
  assert (Z : exists a, raised V s = (raised V s ++ a)%list) by (exists []; rewrite app_nil_r; auto).
  destruct e as [|i|i|n|n t|t|r x]; cbn [MetaStore_Model.step] in *.
  - destruct (work_rest s) as (W1 & W2 & W3 & W4 & W5 & _). rewrite W3, W4. split; auto. split; auto. intros d _. apply ex_work.
  - assert (N : i <> j) by congruence. unfold save_step. destruct (nth_error (saves V s) i) as [w'|] eqn:E; auto.
    destruct (Sv _ _ E) as (w & Hw & (W1 & W2 & W3 & W4 & W5)). destruct (Ho i w Hw N) as [Ho1 Ho2].
    assert (Ph : forall p s1, saves V s1 = saves V s -> nth_error (saves V (set_phase V i p s1)) j = nth_error (saves V s) j).
    { intros p s1 S1. rewrite Hv. apply phase_j; auto. rewrite S1. auto. }
    assert (Wt : forall p, let s2 := match wait V (Save i) s with None => s | Some (s1, Ok _) => set_phase V i p s1 | Some (s1, Err _) => set_phase V i PFailed s1 end in
      nth_error (saves V s2) j = nth_error (saves V s) j /\ (exists a, raised V s2 = (raised V s ++ a)%list) /\ forall d, uses V v d -> ex s2 d = ex s d).
    { intros p. destruct (wait V (Save i) s) as [[s1 r]|] eqn:W; auto. pose proof (wait_cases _ _ _ _ O W) as C. destruct r as [[]|e]; cbn.
      - destruct C as (-> & _). split; [apply (Ph p (set_pend V [] s)); auto|]. auto.
      - destruct C as (id & q & x & a & b & c & -> & _). split; [eapply (Ph PFailed); reflexivity|]. cbn. eauto. }
    assert (Fe : forall d f, d <> sv_tmp V w -> d <> sv_final V w -> dget N.eqb d (dput N.eqb (sv_final V w) f (filter (fun x => negb (N.eqb (sv_tmp V w) (fst x))) (fs V s))) = dget N.eqb d (fs V s)).
    { intros d f D1 D2. rewrite (dget_dput N.eqb Nspec). destruct (Nspec d (sv_final V w)); [congruence|]. apply dget_filter. auto. }
    destruct (sv_phase V w'); rewrite ?W1, ?W2, ?W3, ?W4, ?W5; auto; try (apply Wt); try (split; [apply Ph; auto|]; split; [auto|]; auto; fail).
    + split; [apply Ph; auto|]. split; auto. intros d Ud. unfold ex. cbn. rewrite (dget_dput N.eqb Nspec). destruct (Nspec d (sv_tmp V w)) as [->|X]; [contradiction|auto].
    + unfold rename. destruct (N.eqb (sv_tmp V w) (sv_final V w)); [split; [apply Ph; auto|]; auto|]. destruct (dget N.eqb (sv_tmp V w) (fs V s)); [|split; [apply Ph; auto|]; auto].
      destruct (dget N.eqb (sv_final V w) (fs V s)); [split; [apply Ph; auto|]; auto|]. split; [apply Ph; auto|]. split; auto. intros d Ud. unfold ex. cbn [fs set_phase set_saves set_fs]. rewrite Fe; auto; intros ->; auto.
  - assert (N : i <> j) by congruence. destruct (nth_error (saves V s) i) as [w|] eqn:E; auto.
    assert (X : nth_error (saves V (set_phase V i PFailed s)) j = nth_error (saves V s) j) by (rewrite Hv; apply phase_j; auto).
    destruct (sv_phase V w); auto.
  - destruct (wait V (Other n) s) as [[s1 r]|] eqn:W; auto. pose proof (wait_cases _ _ _ _ O W) as C. destruct r as [[]|e].
    + destruct C as (-> & _). auto.
    + destruct C as (id & q & x & a & b & c & -> & _). cbn. split; auto. split; eauto.
  - auto.
  - unfold MetaStore_Model.blocking. destruct (exec_same 4 (next V s) t (start V t) (set_next V (S (next V s)) s)) as ((A1 & A2 & A3 & A4 & A5 & A6 & A7 & A8) & _).
    rewrite A7, A8. split; auto. split; auto. intros d _. rewrite ex_exec. auto.
  - auto.
Qed.

Definition Why (s : st) : Prop := exists v', nth_error (saves V s) j = Some v' /\
  match sv_phase V v' with
  | P0 => sv_tmp V v <> sv_final V v -> ex s (sv_final V v) = false
  | PDone => True
  | PFailed => exists id e, In (Save j, id, e) (raised V s)
  | _ => ex s (sv_tmp V v) = true /\ (sv_tmp V v <> sv_final V v -> ex s (sv_final V v) = false)
  end.

Lemma why_mine : forall p s s', nth_error (saves V s') j <> None ->
  match p with
  | P0 => sv_tmp V v <> sv_final V v -> ex s (sv_final V v) = false
  | PDone => True
  | PFailed => exists id e, In (Save j, id, e) (raised V s)
  | _ => ex s (sv_tmp V v) = true /\ (sv_tmp V v <> sv_final V v -> ex s (sv_final V v) = false)
  end -> fs V s' = fs V s -> raised V s' = raised V s -> Why (set_phase V j p s').
Proof.
  intros p s s' H M F Rs. unfold Why, set_phase, ex in *. cbn [saves set_saves fs raised]. destruct (nth_error (saves V s') j) as [w|] eqn:E; [|congruence].
  eexists. rewrite nth_set, Nat.eqb_refl, E. split; [reflexivity|]. cbn [sv_phase]. rewrite F, Rs. auto.
Qed.

Lemma why_step : forall e s, SI s -> harmless v e -> e <> EFail V j -> Why s -> Why (step e s).
Proof.
  intros e s I H N W. assert (X : e = ESave V j \/ e <> ESave V j).
  { destruct e as [|i|i|n|n t|t|r x]; try (right; discriminate). destruct (Nat.eq_dec i j) as [->|Y]; [auto|right; congruence]. }
  destruct X as [->|X].
  - pose proof I as [O Sv Ow Us (v' & Hv & (V1 & V2 & V3 & V4 & V5) & P)]. destruct W as (v1 & Hv1 & Z). replace v1 with v' in * by congruence. clear Hv1.
    assert (Some' : nth_error (saves V s) j <> None) by congruence.
    cbn [MetaStore_Model.step]. unfold save_step. rewrite Hv.
    assert (Wt : forall p, p <> P0 -> p <> PDone -> p <> PFailed -> ex s (sv_tmp V v) = true -> (sv_tmp V v <> sv_final V v -> ex s (sv_final V v) = false) -> (Why s) ->
      Why (match wait V (Save j) s with None => s | Some (s1, Ok _) => set_phase V j p s1 | Some (s1, Err _) => set_phase V j PFailed s1 end)).
    { intros p Q1 Q2 Q3 E1 E2 E3. destruct (wait V (Save j) s) as [[s1 r]|] eqn:W; auto. pose proof (wait_cases _ _ _ _ O W) as C. destruct r as [[]|e].
      - destruct C as (-> & _). apply (why_mine p s); auto. destruct p; auto; congruence.
      - destruct C as (id & q & x & a & b & c & -> & _). eapply (why_mine PFailed (set_raised V _ s)); [exact Some'| |reflexivity|reflexivity]. exists id, e. cbn. apply in_or_app. right. left. auto. }
    destruct (sv_phase V v') eqn:Ep; rewrite ?V1, ?V2, ?V3, ?V4, ?V5.
    + eapply (why_mine P1 (mkdir V (sv_tmp V v) s)); auto. unfold ex in *. cbn. rewrite !(dget_dput N.eqb Nspec), N.eqb_refl. split; auto. intros Y. destruct (Nspec (sv_final V v) (sv_tmp V v)); [congruence|auto].
    + apply (why_mine P2 s); auto.
    + destruct Z as [Z1 Z2]. apply Wt; auto; try discriminate. exists v'. rewrite Ep. auto.
    + apply (why_mine P4 s); auto.
    + destruct Z as [Z1 Z2]. apply Wt; auto; try discriminate. exists v'. rewrite Ep. auto.
    + destruct Z as [Z1 Z2]. unfold rename. destruct (Nspec (sv_tmp V v) (sv_final V v)) as [E|E]; [apply (why_mine PDone s); auto|]. specialize (Z2 E). unfold ex in Z1, Z2.
      destruct (dget N.eqb (sv_tmp V v) (fs V s)) as [f|]; [|discriminate]. destruct (dget N.eqb (sv_final V v) (fs V s)); [discriminate|]. eapply (why_mine PDone (set_fs V _ s)); auto.
    + exists v'. rewrite Ep. auto.
    + exists v'. rewrite Ep. auto.
  - destruct (quiet_step e s I H X N) as (Q1 & (a & Q2) & Q3). destruct W as (v' & Hv & Z). exists v'. rewrite Q1, Q2. split; auto.
    assert (A1 : ex (step e s) (sv_tmp V v) = ex s (sv_tmp V v)) by (apply Q3; left; auto). assert (A2 : ex (step e s) (sv_final V v) = ex s (sv_final V v)) by (apply Q3; right; auto).
    rewrite A1, A2. destruct (sv_phase V v'); auto. destruct Z as (id & er & Z). exists id, er. apply in_or_app. auto.
Qed.

End Why.

Lemma why_run : forall l j v u es f, nth_error l j = Some v -> sv_phase V v = P0 ->
  (forall i w, nth_error l i = Some w -> i <> j -> ~ uses V v (sv_tmp V w) /\ ~ uses V v (sv_final V w)) ->
  (sv_tmp V v <> sv_final V v -> dget N.eqb (sv_final V v) f = None) -> (forall e, In e es -> harmless v e /\ e <> EFail V j) -> Why j v (run es (begin V f u l)).
Proof.
  intros l j v u es f Hj Hp Ho F. induction es as [|e es IH] using rev_ind; intros H.
  - exists v. split; auto. rewrite Hp. intros N. unfold ex. cbn. rewrite F; auto.
  - rewrite run_snoc. assert (H' : forall e', In e' es -> harmless v e' /\ e' <> EFail V j) by (intros e' I; apply H; apply in_or_app; auto).
    destruct (H e) as [H1 H2]; [apply in_or_app; right; left; auto|].
    eapply why_step; eauto. apply si_run; auto. intros e' I. apply H'. auto.
Qed.

(** ** Without failures *)

Lemma saves_step : forall e s i w', nth_error (saves V (step e s)) i = Some w' -> exists w, nth_error (saves V s) i = Some w /\ alike w w'.
Proof.
  intros e s. assert (Id : forall i w', nth_error (saves V s) i = Some w' -> exists w, nth_error (saves V s) i = Some w /\ alike w w') by (intros i w' H; apply saves_id; auto).
  assert (Ph : forall k p s1, saves V s1 = saves V s -> forall i w', nth_error (saves V (set_phase V k p s1)) i = Some w' -> exists w, nth_error (saves V s) i = Some w /\ alike w w').
  { intros k p s1 S1 i w' H. apply saves_phase in H. rewrite S1 in H. auto. }
  destruct e as [|k|k|n|n t|t|r x]; cbn [MetaStore_Model.step]; auto.
  - destruct (work_rest s) as (_ & _ & _ & W & _). rewrite W. auto.
  - unfold save_step. destruct (nth_error (saves V s) k) as [w|]; auto.
    assert (Wt : forall p i w', nth_error (saves V (match wait V (Save k) s with None => s | Some (s1, Ok _) => set_phase V k p s1 | Some (s1, Err _) => set_phase V k PFailed s1 end)) i = Some w' -> exists w, nth_error (saves V s) i = Some w /\ alike w w').
    { intros p. destruct (wait V (Save k) s) as [[s1 [[]|e]]|] eqn:W; [| |apply Id]; destruct (wait_shape _ _ _ _ W) as (a & b & ->); (eapply Ph; reflexivity). }
    destruct (sv_phase V w); try (exact Id); try (apply Wt); try (eapply Ph; reflexivity). unfold rename. destruct (N.eqb (sv_tmp V w) (sv_final V w)); [eapply Ph; reflexivity|]. destruct (dget N.eqb (sv_tmp V w) (fs V s)); [|eapply Ph; reflexivity]. destruct (dget N.eqb (sv_final V w) (fs V s)); eapply Ph; reflexivity.
  - destruct (nth_error (saves V s) k) as [w|]; auto. destruct (sv_phase V w); try (exact Id); eapply Ph; reflexivity.
  - destruct (wait V (Other n) s) as [[s1 r]|] eqn:W; auto. destruct (wait_shape _ _ _ _ W) as (a & b & ->); auto.
  - unfold MetaStore_Model.blocking. destruct (exec_same 4 (next V s) t (start V t) (set_next V (S (next V s)) s)) as ((_ & _ & _ & _ & _ & _ & _ & A) & _). rewrite A. auto.
Qed.

Lemma saves_run : forall es s i w', nth_error (saves V (run es s)) i = Some w' -> exists w, nth_error (saves V s) i = Some w /\ alike w w'.
Proof.
  intros es s. induction es as [|e es IH] using rev_ind; [apply saves_id|]. intros i w' H. rewrite run_snoc in H. apply saves_step in H as (w & H & A). apply IH in H as (w0 & H & A'). exists w0. split; auto. eapply alike_trans; eauto.
Qed.

Section NoFault.
Hypothesis Hf : forall n, fault n = None.
Hypothesis Hs : forall x, serializable x = true.

Lemma dumps_all : forall w m, dumps V serializable w m = Ok (ev w m).
Proof.
  intros w m. unfold dumps. replace (forallb _ m) with true; auto. symmetry. apply forallb_forall. auto.
Qed.

Lemma advance_fine : forall id t g s, unread V (fst (advance id t g s)) = unread V s /\ (ex s (dir_of V t) = true -> forall r, snd (advance id t g s) = inr r -> r = Ok tt).
Proof.
  intros id t g s. unfold MetaStore_Model.advance, ex. rewrite Hf, ?dumps_all. destruct g as [| |m|m].
  - destruct (dget N.eqb (dir_of V t) (fs V s)) as [[| |]|]; cbn; split; auto; discriminate.
  - cbn. split; auto. discriminate.
  - rewrite dumps_all. destruct (dget N.eqb (dir_of V t) (fs V s)); cbn; split; auto; try discriminate.
  - destruct (dget N.eqb (dir_of V t) (fs V s)); cbn; split; auto; try discriminate. intros _ r H. congruence.
Qed.

Lemma exec_fine : forall f id t g s, unread V (fst (exec f id t g s)) = unread V s.
Proof.
  induction f as [|f IH]; intros id t g s; auto. cbn [MetaStore_Model.exec]. destruct (advance_fine id t g s) as [A _]. destruct (advance id t g s) as [s' [g'|r]]; cbn [fst] in *; auto. rewrite IH. auto.
Qed.

Lemma work_fine : forall s, unread V (work s) = unread V s /\ ((forall x, In x (cur s) -> ex s (dir_of V (snd x)) = true) -> forall x r, In (x, r) (done V (work s)) -> In (x, r) (done V s) \/ r = Ok tt).
Proof.
  intros s. unfold MetaStore_Model.work, cur. destruct (current V s) as [[j g]|].
  - destruct (advance_fine (fst (fst j)) (snd j) g s) as [A B]. pose proof (advance_same (fst (fst j)) (snd j) g s) as C.
    destruct (advance (fst (fst j)) (snd j) g s) as [s' [g'|r]]; cbn [fst snd] in *; destruct C as (_ & _ & _ & C & _); cbn; (split; [auto|]); intros H x r' I.
    + rewrite C in I. auto.
    + apply in_app_or in I as [I|[I|[]]]; auto. injection I as <- <-. right. apply B; auto.
  - destruct (queue V s); split; auto.
Qed.

Lemma step_unread : forall e s, unread V (step e s) = unread V s.
Proof.
  intros e s. destruct e as [|i|i|n|n t|t|r x]; cbn [MetaStore_Model.step]; auto.
  - apply work_fine.
  - unfold save_step. destruct (nth_error (saves V s) i) as [w|]; auto.
    assert (Wt : forall p, unread V (match wait V (Save i) s with None => s | Some (s1, Ok _) => set_phase V i p s1 | Some (s1, Err _) => set_phase V i PFailed s1 end) = unread V s).
    { intros p. destruct (wait V (Save i) s) as [[s1 [[]|e]]|] eqn:W; auto; destruct (wait_shape _ _ _ _ W) as (a & b & ->); auto. }
    destruct (sv_phase V w); auto; try apply Wt. unfold rename. destruct (N.eqb _ _); auto. destruct (dget N.eqb (sv_tmp V w) (fs V s)); auto. destruct (dget N.eqb (sv_final V w) (fs V s)); auto.
  - destruct (nth_error (saves V s) i) as [w|]; auto. destruct (sv_phase V w); auto.
  - destruct (wait V (Other n) s) as [[s1 r]|] eqn:W; auto. destruct (wait_shape _ _ _ _ W) as (a & b & ->); auto.
  - unfold MetaStore_Model.blocking. rewrite exec_fine. auto.
Qed.

Lemma run_unread : forall es f u l, unread V (run es (begin V f u l)) = [].
Proof. intros es f u l. induction es as [|e es IH] using rev_ind; auto. rewrite run_snoc, step_unread. auto. Qed.

Lemma step_done : forall e s, e <> EWork V -> done V (step e s) = done V s.
Proof.
  intros e s N. destruct e as [|i|i|n|n t|t|r x]; cbn [MetaStore_Model.step]; auto; [congruence| | | |].
  - unfold save_step. destruct (nth_error (saves V s) i) as [w|]; auto.
    assert (Wt : forall p, done V (match wait V (Save i) s with None => s | Some (s1, Ok _) => set_phase V i p s1 | Some (s1, Err _) => set_phase V i PFailed s1 end) = done V s).
    { intros p. destruct (wait V (Save i) s) as [[s1 [[]|e]]|] eqn:W; auto; destruct (wait_shape _ _ _ _ W) as (a & b & ->); auto. }
    destruct (sv_phase V w); auto; try apply Wt. unfold rename. destruct (N.eqb _ _); auto. destruct (dget N.eqb (sv_tmp V w) (fs V s)); auto. destruct (dget N.eqb (sv_final V w) (fs V s)); auto.
  - destruct (nth_error (saves V s) i) as [w|]; auto. destruct (sv_phase V w); auto.
  - destruct (wait V (Other n) s) as [[s1 r]|] eqn:W; auto. destruct (wait_shape _ _ _ _ W) as (a & b & ->); auto.
  - unfold MetaStore_Model.blocking. destruct (exec_same 4 (next V s) t (start V t) (set_next V (S (next V s)) s)) as ((_ & _ & _ & A & _) & _). rewrite A. auto.
Qed.

(** One directory *)
Lemma fine_dir : forall d u R f0 l es f, (forall w, In w l -> sv_tmp V w <> d /\ sv_final V w <> d) -> dget N.eqb d f = Some f0 ->
  (forall e, In e es -> match e with EBlocking _ t => dir_of V t <> d | EChange _ r _ => ~ R r | ESubmit _ _ t => dir_of V t = d -> trefs t R | _ => True end) ->
  clean d (run es (begin V f u l)).
Proof.
  intros d u R f0 l es f Hl F H x r I E. rewrite run_unread. split; [|intros []]. revert x r I E. induction es as [|e es IH] using rev_ind; [intros x r []|].
  assert (H' : forall e, In e es -> match e with EBlocking _ t => dir_of V t <> d | EChange _ r _ => ~ R r | ESubmit _ _ t => dir_of V t = d -> trefs t R | _ => True end) by (intros e' I; apply H; apply in_or_app; auto).
  specialize (IH H'). destruct (di_run d u R f0 l Hl es f F H') as [T _ _ _]. intros x r I E. rewrite run_snoc in I.
  assert (X : e = EWork V \/ e <> EWork V) by (destruct e; auto; right; discriminate). destruct X as [->|X]; [|rewrite step_done in I; eauto].
  cbn [MetaStore_Model.step] in I. set (s := run es (begin V f u l)) in *.
  assert (K : clean d s) by (intros y r' I' E'; split; [eapply IH; eauto|unfold s; rewrite run_unread; intros []]).
  assert (Ex : ex s d = true) by (unfold ex; destruct (trk_read d u R f0 s T K) as [-> | ->]; auto).
  unfold MetaStore_Model.work in I. destruct (current V s) as [[y g]|] eqn:C.
  - destruct (advance_fine (fst (fst y)) (snd y) g s) as [_ B]. pose proof (advance_same (fst (fst y)) (snd y) g s) as C'.
    destruct (advance (fst (fst y)) (snd y) g s) as [s' [g'|r']]; cbn [fst snd] in *; destruct C' as (_ & _ & _ & C' & _); cbn in I; rewrite ?C' in I; [eauto|].
    apply in_app_or in I as [I|[I|[]]]; [eauto|]. injection I as -> ->. apply B; auto. rewrite E. auto.
  - destruct (queue V s); eauto.
Qed.

(** Saves and nothing else *)
Definition plain (e : event V) : Prop := match e with EWork _ | ESave _ _ | EWait _ _ => True | _ => False end.

Lemma plain_run : forall l u es f, (forall i w, nth_error l i = Some w -> sv_phase V w = P0 /\ (sv_tmp V w <> sv_final V w -> dget N.eqb (sv_final V w) f = None)) ->
  (forall i k v w, nth_error l i = Some v -> nth_error l k = Some w -> k <> i -> ~ uses V v (sv_tmp V w) /\ ~ uses V v (sv_final V w)) ->
  Forall plain es -> let s := run es (begin V f u l) in
  (forall x r, In (x, r) (done V s) -> r = Ok tt) /\ raised V s = [] /\ (forall x, In x (jobs s) -> exists i v, nth_error l i = Some v /\ snd (fst x) = Save i /\ dir_of V (snd x) = sv_tmp V v).
Proof.
  intros l u es f H1 H2. induction es as [|e es IH] using rev_ind; intros P; cbv zeta; [split; [intros x r []|split; [auto|intros x []]]|].
  apply Forall_app in P as [P1 P2]. inversion_clear P2 as [|? ? P3 _]. destruct (IH P1) as (A & B & C). clear IH. rewrite run_snoc.
  assert (S : forall i v, nth_error l i = Some v -> SI l i v u (run es (begin V f u l)) /\ Why i v (run es (begin V f u l))).
  { intros i v Hi. destruct (H1 i v Hi) as [Q1 Q2]. assert (G : forall e, In e es -> harmless v e /\ e <> EFail V i).
    { intros e' I. rewrite Forall_forall in P1. specialize (P1 e' I). destruct e'; cbn in *; try contradiction; split; auto; discriminate. }
    split; [apply si_run; auto; try (intros k w Hk Nk; apply (H2 i k v w Hi Hk Nk)); intros e' I; apply G; auto|]. apply (why_run l); auto. intros k w Hk Nk. apply (H2 i k v w Hi Hk Nk). }
  pose proof (run_unread es f u l) as U. set (s := run es (begin V f u l)) in *.
  assert (O : Ord s) by (apply ord_run; apply ord_begin).
  assert (Cu : forall x, In x (cur s) -> ex s (dir_of V (snd x)) = true).
  { intros x I. destruct (C x) as (i & v & Hi & X1 & X2); [unfold jobs; apply in_or_app; right; apply in_or_app; auto|]. rewrite X2. destruct (S i v Hi) as ([O' Sv Ow Us (v' & Hv & Av & Ph1 & Ph2)] & (v1 & Hv1 & W)).
    replace v1 with v' in * by congruence. assert (M : In (snd x) (mine v s)) by (apply mine_in; auto; unfold jobs; apply in_or_app; right; apply in_or_app; auto).
    destruct (sv_phase V v'); try (apply W); [rewrite Ph2 in M; destruct M| |].
    - exfalso. destruct Ph2 as [_ L]; [|apply (L x); [apply in_or_app; auto|auto]]. split; [intros w id er t r I' _; rewrite B in I'; destruct I'|intros id t r I' _; rewrite U in I'; destruct I'].
    - destruct W as (id & e' & W). rewrite B in W. destruct W. }
  assert (Fa : failures V (done V s) = []).
  { unfold failures. clear - A. induction (done V s) as [|[x r] q IHq]; auto. cbn [flat_map snd fst]. rewrite (A x r (or_introl eq_refl)). apply IHq. intros y r' I. apply (A y r'). right. auto. }
  assert (Wt : forall w s1 r, wait V w s = Some (s1, r) -> r = Ok tt /\ s1 = set_pend V [] s).
  { intros w s1 r W. pose proof (wait_cases _ _ _ _ O W) as X. destruct r as [[]|er]; [destruct X as (-> & _); auto|]. destruct X as (id & q & y & a & b & c & _ & D & _). exfalso.
    assert (Y : Err er = @Ok unit tt) by (apply (A y); rewrite D; apply in_or_app; right; left; auto). discriminate. }
  destruct e as [|i|i|n|n t|t|r x]; cbn in P3; try contradiction; cbn [MetaStore_Model.step].
  - destruct (work_rest s) as (W1 & W2 & W3 & W4 & W5 & _). rewrite W3, jobs_work. split; auto. intros x r I. destruct (work_fine s) as [_ Wf]. destruct (Wf Cu x r I); eauto.
  - pose proof (step_done (ESave V i) s ltac:(discriminate)) as Dn. cbn [MetaStore_Model.step] in Dn. rewrite Dn. clear Dn. split; auto. unfold save_step. destruct (nth_error (saves V s) i) as [v'|] eqn:E; auto.
    destruct (saves_run es _ i v' E) as (v & Hi & (V1 & V2 & V3 & V4 & V5)). cbn [saves begin] in Hi.
    assert (Sb : forall p t s1, saves V s1 = saves V s -> raised V s1 = raised V s -> jobs s1 = jobs s -> dir_of V t = sv_tmp V v ->
      raised V (set_phase V i p (submit V (Save i) t s1)) = [] /\ forall x, In x (jobs (set_phase V i p (submit V (Save i) t s1))) -> exists i v, nth_error l i = Some v /\ snd (fst x) = Save i /\ dir_of V (snd x) = sv_tmp V v).
    { intros p t s1 X1 X2 X3 X4. split; [cbn; rewrite X2; auto|]. change (jobs (set_phase V i p (submit V (Save i) t s1))) with (jobs (submit V (Save i) t s1)). rewrite jobs_submit, X3. intros x I. apply in_app_or in I as [I|[<-|[]]]; auto. exists i, v. auto. }
    assert (W2 : forall p, let s2 := match wait V (Save i) s with None => s | Some (s1, Ok _) => set_phase V i p s1 | Some (s1, Err _) => set_phase V i PFailed s1 end in
      raised V s2 = [] /\ forall x, In x (jobs s2) -> exists i v, nth_error l i = Some v /\ snd (fst x) = Save i /\ dir_of V (snd x) = sv_tmp V v).
    { intros p. destruct (wait V (Save i) s) as [[s1 r]|] eqn:W; auto. destruct (Wt _ _ _ W) as [-> ->]. cbn. auto. }
    destruct (sv_phase V v'); rewrite ?V1, ?V2, ?V3, ?V4, ?V5; auto; try (apply W2).
    unfold rename. destruct (N.eqb _ _); auto. destruct (dget N.eqb (sv_tmp V v) (fs V s)); auto. destruct (dget N.eqb (sv_final V v) (fs V s)); auto.
  - pose proof (step_done (EWait V n) s ltac:(discriminate)) as Dn. cbn [MetaStore_Model.step] in Dn. rewrite Dn. clear Dn. split; auto. destruct (wait V (Other n) s) as [[s1 r]|] eqn:W; auto. destruct (Wt _ _ _ W) as [_ ->]. auto.
Qed.

End NoFault.

(** ** The blocking store *)

Lemma exec_S : forall f id t g s, exec (S f) id t g s = match advance id t g s with (s', inl g') => exec f id t g' s' | (s', inr r) => (s', r) end.
Proof. auto. Qed.

Lemma blocking_eff : forall t s s' f, blocking t s = (s', Ok tt) -> unread V s' = unread V s -> dget N.eqb (dir_of V t) (fs V s) = Some f ->
  dget N.eqb (dir_of V t) (fs V s') = Some (eff (users V s) f t).
Proof.
  intros t s s' f H U F. unfold MetaStore_Model.blocking in H.
  assert (W : forall n id m s0 s1, exec (2 + n) id t (SOpen V m) s0 = (s1, Ok tt) -> dget N.eqb (dir_of V t) (fs V s1) = Some (Whole V (ev (users V s0) m)) /\ unread V s1 = unread V s0).
  { intros n id m s0 s1 E. cbn [Nat.add MetaStore_Model.exec MetaStore_Model.advance] in E. destruct (dumps V serializable (users V s0) m) as [m'|e] eqn:D; [|discriminate]. apply dumps_ev in D. subst m'.
    destruct (fault (clock V s0)); [discriminate|]. destruct (dget N.eqb (dir_of V t) (fs V s0)); [|discriminate]. cbn [MetaStore_Model.exec MetaStore_Model.advance] in E.
    destruct (fault _); [discriminate|]. cbn [fs set_fs] in E. rewrite (dget_dput N.eqb Nspec), N.eqb_refl in E. injection E as <-. cbn. rewrite (dget_dput N.eqb Nspec), N.eqb_refl. auto. }
  destruct t as [d m|d kw]; cbn [start dir_of] in *.
  - apply (W 2) in H as [H _]. exact H.
  - assert (R : forall id s0, unread V s' = unread V s0 -> dget N.eqb d (fs V s0) = Some f -> exec 3 id (TUpdate V d kw) (SRead V) s0 = (s', Ok tt) ->
      dget N.eqb d (fs V s') = Some (Whole V (ev (users V s0) (merge V (content f) kw)))).
    { clear H U F s. intros id s U F H. rewrite exec_S in H. cbn [MetaStore_Model.advance dir_of kw_of] in H. destruct (fault (clock V s)) as [e|]; apply (W 0) in H as [H H'].
      - cbn in H'. rewrite U in H'. exfalso. clear - H'. assert (L := f_equal (@List.length nat) H'). rewrite app_length in L. cbn in L. lia.
      - rewrite (read_now d s f F) in H. exact H. }
    rewrite exec_S in H. cbn [MetaStore_Model.advance dir_of] in H. destruct (fault _) as [e|]; [discriminate|]. cbn [fs set_next kw_of] in H. rewrite F in H. destruct f as [| |m].
    + apply (W 1) in H as [H _]. exact H.
    + apply R in H; auto.
    + apply R in H; auto.
Qed.

Lemma blocking_frame : forall t s s' r, blocking t s = (s', r) -> users V s' = users V s /\ (forall d, d <> dir_of V t -> dget N.eqb d (fs V s') = dget N.eqb d (fs V s)) /\ exists l, unread V s' = (unread V s ++ l)%list.
Proof.
  intros t s s' r H. unfold MetaStore_Model.blocking in H. destruct (exec_same 4 (next V s) t (start V t) (set_next V (S (next V s)) s)) as ((A & _) & F & lu & Un & _). rewrite H in *. cbn [fst] in *. eauto.
Qed.

Lemma unread_three : forall (a b c : list nat) x y z, b = (a ++ x)%list -> c = (b ++ y)%list -> a = (c ++ z)%list -> b = a /\ c = b.
Proof.
  intros a b c x y z -> -> H. assert (L := f_equal (@List.length nat) H). rewrite !app_length in L. destruct x, y; cbn in L; try lia. rewrite !app_nil_r. auto.
Qed.

Lemma blocking_save_ok : forall v s s', blocking_save V serializable fault v s = (s', Ok tt) -> unread V s' = unread V s ->
  dget N.eqb (sv_final V v) (fs V s') = Some (fold_left (eff (users V s)) [tW v; tU v; tC v] (NoFile V)).
Proof.
  intros v s s' H U. unfold blocking_save in H.
  destruct (blocking (TWrite V (sv_tmp V v) (sv_init V v)) (mkdir V (sv_tmp V v) s)) as [s1 [[]|e]] eqn:B1; [|discriminate].
  destruct (blocking (TUpdate V (sv_tmp V v) (sv_kw V v)) s1) as [s2 [[]|e]] eqn:B2; [|discriminate].
  destruct (blocking (TUpdate V (sv_tmp V v) [(commit_key, sv_time V v)]) s2) as [s3 [[]|e]] eqn:B3; [|discriminate].
  destruct (blocking_frame _ _ _ _ B1) as (U1 & _ & l1 & E1). destruct (blocking_frame _ _ _ _ B2) as (U2 & _ & l2 & E2). destruct (blocking_frame _ _ _ _ B3) as (U3 & _ & l3 & E3). cbn in U1, E1.
  assert (E : unread V s3 = unread V s).
  { unfold rename in H. destruct (N.eqb _ _); [injection H as <-; auto|]. destruct (dget N.eqb (sv_tmp V v) (fs V s3)); [|discriminate]. destruct (dget N.eqb (sv_final V v) (fs V s3)); [discriminate|]. injection H as <-. auto. }
  assert (L : l1 = [] /\ l2 = [] /\ l3 = []).
  { rewrite E3, E2, E1 in E. assert (L := f_equal (@List.length nat) E). rewrite !app_length in L. destruct l1, l2, l3; cbn in L; try lia. auto. }
  destruct L as (-> & -> & ->). rewrite app_nil_r in E1, E2, E3.
  assert (F0 : dget N.eqb (sv_tmp V v) (fs V (mkdir V (sv_tmp V v) s)) = Some (NoFile V)) by (cbn; rewrite (dget_dput N.eqb Nspec), N.eqb_refl; auto).
  pose proof (blocking_eff _ _ _ _ B1 E1 F0) as F1. pose proof (blocking_eff _ _ _ _ B2 E2 F1) as F2. pose proof (blocking_eff _ _ _ _ B3 E3 F2) as F3. cbn [dir_of] in F3. rewrite U2, U1 in F3. cbn [users mkdir set_fs] in F3.
  unfold rename in H. destruct (Nspec (sv_tmp V v) (sv_final V v)) as [X|X].
  - injection H as <-. rewrite <- X. exact F3.
  - rewrite F3 in H. destruct (dget N.eqb (sv_final V v) (fs V s3)); [discriminate|]. injection H as <-. cbn [fs set_fs]. rewrite (dget_dput N.eqb Nspec), N.eqb_refl. auto.
Qed.

Lemma blocking_save_err : forall v s s' e, blocking_save V serializable fault v s = (s', Err e) -> sv_tmp V v <> sv_final V v -> dget N.eqb (sv_final V v) (fs V s') = dget N.eqb (sv_final V v) (fs V s).
Proof.
  intros v s s' e H N. unfold blocking_save in H.
  destruct (blocking (TWrite V (sv_tmp V v) (sv_init V v)) (mkdir V (sv_tmp V v) s)) as [s1 r1] eqn:B1.
  destruct (blocking_frame _ _ _ _ B1) as (_ & F1 & _). cbn [dir_of] in F1. assert (G1 : dget N.eqb (sv_final V v) (fs V s1) = dget N.eqb (sv_final V v) (fs V s)).
  { rewrite F1; [|congruence]. cbn. rewrite (dget_dput N.eqb Nspec). destruct (Nspec (sv_final V v) (sv_tmp V v)); [congruence|auto]. }
  destruct r1 as [[]|e1]; [|injection H as <- _; auto].
  destruct (blocking (TUpdate V (sv_tmp V v) (sv_kw V v)) s1) as [s2 r2] eqn:B2. destruct (blocking_frame _ _ _ _ B2) as (_ & F2 & _). cbn [dir_of] in F2.
  assert (G2 : dget N.eqb (sv_final V v) (fs V s2) = dget N.eqb (sv_final V v) (fs V s)) by (rewrite F2; [auto|congruence]).
  destruct r2 as [[]|e2]; [|injection H as <- _; auto].
  destruct (blocking (TUpdate V (sv_tmp V v) [(commit_key, sv_time V v)]) s2) as [s3 r3] eqn:B3. destruct (blocking_frame _ _ _ _ B3) as (_ & F3 & _). cbn [dir_of] in F3.
  assert (G3 : dget N.eqb (sv_final V v) (fs V s3) = dget N.eqb (sv_final V v) (fs V s)) by (rewrite F3; [auto|congruence]).
  destruct r3 as [[]|e3]; [|injection H as <- _; auto].
  unfold rename in H. destruct (N.eqb _ _); [discriminate|]. destruct (dget N.eqb (sv_tmp V v) (fs V s3)); [destruct (dget N.eqb (sv_final V v) (fs V s3)) eqn:Z; [|discriminate]|]; injection H as <- _; congruence.
Qed.

(** ** Words of the specification *)

Lemma finished_dones : forall d s, finished V d s = dones d s.
Proof.
  intros d s. unfold finished, dones, on. induction (done V s) as [|[x r] q IH]; auto. cbn [filter map fst snd]. destruct (N.eqb d (dir_of V (snd x))); cbn [map fst snd]; rewrite IH; auto.
Qed.

Lemma well_done_clean : forall d s, well_done V d s <-> clean d s.
Proof.
  intros d s. split; intros H.
  - intros [[id w] t] r I E. apply (H id w t r I E).
  - intros id w t r I E. apply (H (id, w, t) r I E).
Qed.

Lemma trefs_mentions : forall (t : task V) (R : N -> Prop), (forall r, mentions V t r -> R r) -> trefs t R.
Proof. intros [d m|d m] R H k r I; apply H; unfold mentions; apply (in_map snd) in I; auto. Qed.

Lemma left_to_ok : forall l d es, left_to V l d es ->
  let R := fun r => exists t, In t (for_dir V d es) /\ mentions V t r in
  forall e, In e es -> match e with EBlocking _ t => dir_of V t <> d | EChange _ r _ => ~ R r | ESubmit _ _ t => dir_of V t = d -> trefs t R | _ => True end.
Proof.
  intros l d es [_ H] R e I. specialize (H e I). destruct e as [|i|i|n|n t|t|r x]; auto.
  - intros E. apply trefs_mentions. intros r M. exists t. split; auto. unfold for_dir. apply in_flat_map. exists (ESubmit V n t). split; auto. cbn. rewrite E, N.eqb_refl. left. auto.
  - intros (t & T1 & T2). eapply H; eauto.
Qed.

Lemma keys_kw : forall ts, keys_once V ts -> Forall (fun t => NoDup (map fst (kw_of V t))) ts.
Proof. intros ts H. eapply Forall_impl; [|exact H]. intros [d m|d kw] K; cbn; [constructor|auto]. Qed.

Lemma wait_some : forall w s, Ord s -> idle V s -> wait V w s <> None.
Proof.
  intros w s [So B U (a & b & D & P & Rp)] [I1 I2]. unfold wait.
  assert (Q : forall i, In i (pend V s) -> exists x r, In (x, r) (done V s) /\ id_of x = i).
  { intros i I. assert (J : In i (map id_of (jobs s))) by (rewrite P; apply in_or_app; auto). unfold jobs, cur in J. rewrite I1, I2 in J. cbn in J. rewrite app_nil_r in J. apply in_map_iff in J as (x & X1 & X2).
    apply in_map_iff in X2 as ([y r] & Y1 & Y2). cbn in Y1. subst y. eauto. }
  assert (L : forall p, (forall i, In i p -> In i (pend V s)) -> wait_loop V (done V s) p <> None).
  { induction p as [|i p IH]; intros H; [discriminate|]. cbn [wait_loop]. destruct (Q i (H i (or_introl eq_refl))) as (x & r & X1 & X2).
    assert (Z : result_of V i (done V s) <> None).
    { clear - X1 X2. induction (done V s) as [|[y r'] q IHq]; [destruct X1|]. cbn [result_of]. destruct (Nat.eqb_spec i (fst (fst y))) as [E|E]; [discriminate|]. destruct X1 as [X1|X1]; [|auto]. injection X1 as -> ->. unfold id_of in X2. congruence. }
    destruct (result_of V i (done V s)) as [[[]|e]|]; [apply IH; intros k K; apply H; right; auto|discriminate|congruence]. }
  specialize (L (pend V s) (fun i I => I)). destruct (wait_loop V (done V s) (pend V s)) as [[p [[id e]|]]|]; congruence.
Qed.

End Store.
