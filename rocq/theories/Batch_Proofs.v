(** Proofs for C29. *)
From Coq Require Import ZArith List Bool Lia.
From Verif Require Import Base Batch_Model Batch_Spec.
Import ListNotations.
Local Open Scope Z_scope.

Ltac spl := repeat match goal with |- _ /\ _ => split end.

Lemma lookup_belongs : forall d k, lookup d k = match belongs d k with Some w => Ok w | None => Err KeyError end.
Proof. induction d as [|[a b] d IH]; simpl; intros; auto. destruct (Z.eqb_spec a k), (Z.eq_dec a k); auto; contradiction. Qed.

Lemma get_add : forall d k x j, get0 (add_to d k x) j = get0 d j + (if k =? j then x else 0).
Proof.
  induction d as [|[a b] d IH]; simpl; intros.
  - destruct (Z.eqb_spec k j); lia.
  - destruct (Z.eqb_spec a k); simpl.
    + subst. destruct (Z.eqb_spec k j); lia.
    + rewrite IH. destruct (Z.eqb_spec a j); auto. destruct (Z.eqb_spec k j); lia.
Qed.

Lemma keys_add : forall d k x j, In j (map fst (add_to d k x)) <-> j = k \/ In j (map fst d).
Proof.
  induction d as [|[a b] d IH]; simpl; intros.
  - intuition congruence.
  - destruct (Z.eqb_spec a k); simpl. + subst. intuition congruence. + rewrite IH. intuition congruence.
Qed.

Lemma nodup_add : forall d k x, NoDup (map fst d) -> NoDup (map fst (add_to d k x)).
Proof.
  induction d as [|[a b] d IH]; simpl; intros k x N. - constructor; auto.
  - inversion N; subst. destruct (Z.eqb_spec a k); simpl; [constructor; auto|]. constructor; auto. rewrite keys_add. intros [X|X]; auto.
Qed.

Section B.
Variables (rid : option Z) (workers : table).

Lemma estimate_ok : forall size l u, (forall s, In s l -> belongs workers (fst s) <> None) ->
  exists e, estimate_loop size rid workers l u = Ok e /\
    (forall w, get0 e w = get0 u w + size * Z.of_nat (List.length (filter (counted rid workers w) l))) /\
    (forall w, In w (map fst e) <-> In w (map fst u) \/ exists s, In s l /\ counted rid workers w s = true) /\
    (NoDup (map fst u) -> NoDup (map fst e)).
Proof.
  intros size l. induction l as [|[dev rep] l IH]; intros u P.
  - exists u. simpl. spl; auto. + intros; lia. + intros w. split; auto. intros [H|(s & [] & _)]; auto.
  - assert (P' : forall s, In s l -> belongs workers (fst s) <> None) by (intros; apply P; simpl; auto).
    cbn [estimate_loop].
    destruct (match rid with Some i => negb (rep =? i) | None => false end) eqn:E.
    + destruct (IH u P') as (e & Ee & G & K & N). exists e. spl; auto.
      * intros w. rewrite G. cbn [filter]. replace (counted rid workers w (dev, rep)) with false; auto.
        unfold counted. destruct rid as [i|]; [|discriminate]. cbn [snd]. apply negb_true_iff in E. rewrite E. auto.
      * intros w. rewrite K. split; intros [H|(s & X & Y)]; auto; right.
        -- exists s. simpl; auto.
        -- destruct X as [<-|X]; [|exists s; auto]. exfalso. unfold counted in Y. destruct rid as [i|]; [|discriminate]. cbn [snd] in Y. apply negb_true_iff in E. rewrite E in Y. discriminate.
    + rewrite lookup_belongs. specialize (P (dev, rep) (or_introl eq_refl)). cbn [fst] in P. destruct (belongs workers dev) as [v|] eqn:Bv; [|contradiction]. cbn [rbind].
      destruct (IH (add_to u v size) P') as (e & Ee & G & K & N). exists e.
      assert (C : forall w, counted rid workers w (dev, rep) = (v =? w)).
      { intros w. unfold counted. cbn [fst snd]. rewrite Bv. destruct rid as [i|]; auto. apply negb_false_iff in E. rewrite E. auto. }
      spl; auto.
      * intros w. rewrite G, get_add. cbn [filter]. rewrite C. destruct (v =? w); cbn [List.length]; lia.
      * intros w. rewrite K, keys_add. split.
        -- intros [[->|H]|(s & X & Y)]; auto; right. ++ exists (dev, rep). split; [simpl; auto|]. rewrite C. apply Z.eqb_refl. ++ exists s; simpl; auto.
        -- intros [H|(s & [<-|X] & Y)]; auto. ++ rewrite C in Y. apply Z.eqb_eq in Y. auto. ++ right. exists s; auto.
      * intros X. apply N. apply nodup_add; auto.
Qed.

Lemma increment_ok : forall a u, (forall s, In s (shards a) -> belongs workers (fst s) <> None) ->
  exists v, increment rid workers a u = Ok v /\ map fst v = map fst u /\
    forall w x, In (w, x) v <-> exists y, In (w, y) u /\ x = y + need rid workers w a.
Proof.
  intros a u P. unfold increment, estimate. destruct (estimate_ok (shard_bytes a) (shards a) [] P) as (e & E & G & _). rewrite E. cbn [rmap].
  eexists. split; [reflexivity|]. split; [rewrite map_map; auto|]. intros w x. rewrite in_map_iff. split.
  - intros ([w' y] & H & I). injection H as <- <-. exists y. split; auto. rewrite G. auto.
  - intros (y & I & ->). exists (w, y). split; auto. cbn [fst snd]. rewrite G. auto.
Qed.

(** The usage table says the truth about the workers in it. *)
Definition exact (batch : list array) (u : table) : Prop := forall w x, In (w, x) u -> x = total rid workers w batch.

Lemma total_snoc : forall w b a, total rid workers w (b ++ [a]) = total rid workers w b + need rid workers w a.
Proof. intros. unfold total. rewrite map_app. induction b; simpl in *; lia. Qed.

Lemma under_spec : forall budget u, under_budget budget u = true <-> forall w x, In (w, x) u -> x < budget.
Proof.
  intros. unfold under_budget. rewrite forallb_forall. split.
  - intros H w x I. specialize (H (w, x) I). cbn [snd] in H. apply negb_true_iff, Z.leb_gt in H. auto.
  - intros H [w x] I. cbn [snd]. apply negb_true_iff, Z.leb_gt. eauto.
Qed.

Lemma not_under : forall budget u, under_budget budget u = false -> exists w x, In (w, x) u /\ budget <= x.
Proof.
  intros budget u H. induction u as [|[w x] u IH]; [discriminate|]. unfold under_budget in *. cbn [forallb snd] in H.
  destruct (Z.leb_spec budget x). - exists w, x. simpl; auto.
  - destruct IH as (w' & x' & I & L); auto. exists w', x'. simpl; auto.
Qed.

Lemma in_distinct : forall l x, In x (distinct l) <-> In x l.
Proof.
  induction l as [|a l IH]; intros x; simpl; [tauto|]. destruct (existsb (Z.eqb a) l) eqn:E.
  - rewrite IH. split; auto. intros [<-|H]; auto. apply existsb_exists in E as (y & H & Y). apply Z.eqb_eq in Y. subst. auto.
  - simpl. rewrite IH. tauto.
Qed.

Lemma belongs_in : forall (t : table) d w, belongs t d = Some w -> In w (map snd t).
Proof. induction t as [|[a b] t IH]; simpl; intros d w H; [discriminate|]. destruct (Z.eq_dec a d); [injection H as <-; auto|right; eauto]. Qed.

(** [tracked] is what the usage table knows of; a batch of several arrays is below
    the budget there. *)
Definition low (budget : Z) (tracked : Z -> Prop) (b : list array) : Prop :=
  (1 < List.length b)%nat -> forall w, tracked w -> total rid workers w b < budget.

(** The next array would not have fitted. *)
Fixpoint greedy (budget : Z) (bs : list (list array)) : Prop :=
  match bs with
  | b :: (a :: _) :: _ => exists w, budget <= total rid workers w (b ++ [a])
  | _ => True
  end /\ match bs with [] => True | _ :: r => greedy budget r end.

Lemma loop_ok : forall budget l batch u, placed workers l -> batch <> [] -> exact batch u ->
  low budget (fun w => In w (map fst u)) batch ->
  exists b bs, batch_loop budget rid workers l batch u = Ok (b :: bs) /\
    batch ++ l = b ++ List.concat bs /\ b <> [] /\ Forall (fun c => c <> []) bs /\
    low budget (fun w => In w (map fst u)) b /\
    Forall (low budget (fun w => In w (map snd workers))) bs /\
    greedy budget (b :: bs) /\ exists r, b = batch ++ r.
Proof.
  intros budget l. induction l as [|a l IH]; intros batch u P NE EX LO.
  - exists batch, []. cbn [batch_loop List.concat greedy]. destruct batch; [contradiction|]. spl; auto. exists []. rewrite app_nil_r. auto.
  - assert (Pa : forall s, In s (shards a) -> belongs workers (fst s) <> None) by (intros; eapply P; simpl; eauto).
    assert (Pl : placed workers l) by (intros x s Hx; apply P; simpl; auto).
    destruct (increment_ok a u Pa) as (v & Ev & Kv & Vv). cbn [batch_loop]. rewrite Ev. cbn [rbind].
    assert (EX' : exact (batch ++ [a]) v).
    { intros w x I. apply Vv in I as (y & I & ->). rewrite total_snoc. f_equal. auto. }
    destruct (under_budget budget v) eqn:U.
    + destruct (IH (batch ++ [a]) v) as (b & bs & E & C & N1 & N2 & L1 & L2 & Gr & (r & Er)); auto.
      * destruct batch; discriminate.
      * intros _ w I. apply in_map_iff in I as ([w' x] & X & I). simpl in X. subst w'.
        rewrite <- (EX' w x I). rewrite under_spec in U. eauto. 
      * exists b, bs. rewrite Kv in L1. rewrite <- app_assoc in C. spl; auto. exists ([a] ++ r). rewrite Er, <- app_assoc. auto.
    + destruct batch as [|x0 batch]; [contradiction|]. set (bt := x0 :: batch) in *.
      destruct (increment_ok a (no_usage workers) Pa) as (f & Ef & Kf & Vf). rewrite Ef. cbn [rbind].
      destruct (IH [a] f) as (b & bs & E & C & N1 & N2 & L1 & L2 & Gr & (r & Er)); auto.
      * discriminate.
      * intros w x I. apply Vf in I as (y & I & ->). unfold no_usage in I. apply in_map_iff in I as (z & X & _). injection X as <- <-.
        unfold total; simpl. lia.
      * intros X. simpl in X. lia.
      * rewrite E. cbn [rmap rbind]. exists bt, (b :: bs). spl; auto.
        -- simpl. rewrite <- C. auto.
        -- constructor; auto. intros X w Hw. apply L1; auto. rewrite Kf. unfold no_usage. rewrite map_map. cbn [fst]. rewrite map_id. apply in_distinct. auto.
        -- cbn [greedy]. simpl in Er. subst b. split; [|exact Gr].
           apply not_under in U as (w & x & I & L). exists w. rewrite <- (EX' w x I). auto.
        -- exists []. rewrite app_nil_r. auto.
Qed.

Lemma uses_worker : forall a w, uses rid workers a w -> In w (map snd workers).
Proof.
  intros a w (s & _ & C). unfold counted in C. apply andb_true_iff in C as [_ C].
  destruct (belongs workers (fst s)) as [v|] eqn:B; [|discriminate]. apply Z.eqb_eq in C. subst. eapply belongs_in; eauto.
Qed.

Lemma need_zero : forall a w, ~ uses rid workers a w -> need rid workers w a = 0.
Proof.
  intros a w N. unfold need. assert (filter (counted rid workers w) (shards a) = []).
  { destruct (filter (counted rid workers w) (shards a)) as [|s l] eqn:E; auto. exfalso. apply N. exists s.
    assert (In s (filter (counted rid workers w) (shards a))) by (rewrite E; simpl; auto). apply filter_In in H. auto. }
  rewrite H. simpl. lia.
Qed.

Lemma total_outside : forall b w, ~ In w (map snd workers) -> total rid workers w b = 0.
Proof.
  intros b w N. unfold total. induction b; simpl; auto. rewrite IHb, need_zero; auto. intros U. apply N. eapply uses_worker; eauto.
Qed.
End B.

Lemma batches_ok : forall params budget rid dispatcher workers, params <> [] -> placed workers params ->
  let r := if dispatcher : bool then None else rid in
  exists b bs, batches params budget rid dispatcher workers = Ok (b :: bs) /\
    List.concat (b :: bs) = params /\ Forall (fun c => c <> []) (b :: bs) /\
    (forall c w, In c bs -> (1 < List.length c)%nat -> In w (map snd workers) -> total r workers w c < budget) /\
    (forall a w, hd_error params = Some a -> (1 < List.length b)%nat -> uses r workers a w -> total r workers w b < budget) /\
    greedy r workers budget (b :: bs).
Proof.
  intros params budget rid dispatcher workers NE P r. destruct params as [|a l]; [contradiction|].
  unfold batches. fold r. unfold estimate.
  destruct (estimate_ok r workers (shard_bytes a) (shards a) []) as (u & E & G & K & N). { intros s Hs. eapply P; simpl; eauto. }
  rewrite E. cbn [rbind].
  assert (Pl : placed workers l) by (intros x s Hx; apply P; simpl; auto).
  destruct (loop_ok r workers budget l [a] u Pl) as (b & bs & E1 & C & N1 & N2 & L1 & L2 & Gr & _).
  - discriminate.
  - intros w x I. assert (X : get0 u w = x).
    { specialize (N (NoDup_nil _)). clear - N I. induction u as [|[k y] u IH]; [destruct I|]. simpl in *. inversion N; subst.
      destruct I as [I|I]; [injection I as -> ->; rewrite Z.eqb_refl; auto|]. destruct (Z.eqb_spec k w); auto. subst. exfalso. apply H1. apply in_map_iff. exists (w, x); auto. }
    rewrite <- X, G. unfold total, need; simpl. lia.
  - intros X. simpl in X. lia.
  - exists b, bs. spl; auto.
    + intros c w Hc Lc Hw. rewrite Forall_forall in L2. apply (L2 c Hc); auto.
    + intros a' w Ha Lb U. injection Ha as <-. apply L1; auto. apply K. right. auto.
Qed.

Lemma greedy_pairs : forall r workers budget bs, greedy r workers budget bs -> forall pre b a c post,
  bs = pre ++ b :: (a :: c) :: post -> exists w, budget <= total r workers w (b ++ [a]).
Proof.
  intros r workers budget bs. induction bs as [|x bs IH]; intros G pre b a c post E; [destruct pre; discriminate|].
  destruct G as [G1 G2]. destruct pre as [|y pre].
  - injection E as -> ->. auto.
  - injection E as -> E. eapply IH; eauto.
Qed.

Lemma batches_run : forall params budget rid dispatcher workers, params <> [] -> placed workers params ->
  exists bs, batches params budget rid dispatcher workers = Ok bs /\ List.concat bs = params /\ Forall (fun c => c <> []) bs.
Proof.
  intros. destruct (batches_ok params budget rid dispatcher workers H H0) as (b & bs & E & C & N & _). eauto.
Qed.

Lemma batches_maximal : forall params budget rid dispatcher workers bs pre b a c post, placed workers params ->
  batches params budget rid dispatcher workers = Ok bs -> bs = pre ++ b :: (a :: c) :: post ->
  exists w, budget <= total (if dispatcher : bool then None else rid) workers w (b ++ [a]).
Proof.
  intros params budget rid dispatcher workers bs pre b a c post P E S.
  assert (NE : params <> []) by (intros ->; discriminate).
  destruct (batches_ok params budget rid dispatcher workers NE P) as (b0 & bs0 & E0 & _ & _ & _ & _ & G).
  rewrite E in E0. injection E0 as ->. eapply greedy_pairs; eauto.
Qed.

Lemma batches_budget : forall params budget rid dispatcher workers first rest c w, placed workers params ->
  batches params budget rid dispatcher workers = Ok (first :: rest) -> (1 < List.length c)%nat -> In w (map snd workers) ->
  let r := if dispatcher : bool then None else rid in
  In c rest \/ (c = first /\ forall a, hd_error params = Some a -> uses r workers a w) ->
  total r workers w c < budget.
Proof.
  intros params budget rid dispatcher workers first rest c w P E L W r H.
  assert (NE : params <> []) by (intros ->; discriminate).
  destruct (batches_ok params budget rid dispatcher workers NE P) as (b0 & bs0 & E0 & _ & _ & R & F & _).
  rewrite E in E0. injection E0 as <- <-. fold r in R, F. destruct H as [H|[-> H]]; auto.
  destruct params as [|a l]; [contradiction|]. apply (F a w); auto.
Qed.
