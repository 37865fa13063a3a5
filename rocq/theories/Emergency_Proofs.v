From Coq Require Import List Bool Arith ZArith Lia Permutation.
From Verif Require Import Base Mesh_Model Mesh_Spec Mesh_Proofs Mesh_Props Emergency_Model Emergency_Spec.
Import ListNotations.

(* ---- counting ---- *)
Lemma sum_zero : forall {A} (f : A -> nat) l, (forall x, In x l -> f x = 0) -> list_sum (map f l) = 0.
Proof. intros A f l. induction l as [|x l IH]; intros H; cbn; auto. rewrite H by (left; auto). apply IH. intros y I. apply H. right. auto. Qed.

Lemma sum_one : forall (f : nat -> nat) l r, NoDup l -> In r l -> (forall x, In x l -> x <> r -> f x = 0) -> list_sum (map f l) = f r.
Proof.
  intros f l r ND I Z. induction l as [|x l IH]; [contradiction|]. inversion_clear ND as [|? ? N1 N2]. cbn. destruct I as [->|I].
  - rewrite sum_zero; [lia|]. intros y J. apply Z; [right; auto|]. intros ->. contradiction.
  - rewrite (Z x) by (try (left; auto); intros ->; contradiction). apply IH; auto. intros y J. apply Z. right. auto.
Qed.

Lemma sum_const : forall {A} (f : A -> nat) l k, (forall x, In x l -> f x = k) -> list_sum (map f l) = length l * k.
Proof. intros A f l k. induction l as [|x l IH]; intros H; auto. change (list_sum (map f (x :: l))) with (f x + list_sum (map f l)). rewrite H by (left; auto). rewrite IH; [cbn; lia|]. intros y I. apply H. right. auto. Qed.

Lemma filter_flat : forall {A B} (f : B -> bool) (g : A -> list B) l, length (filter f (flat_map g l)) = list_sum (map (fun x => length (filter f (g x))) l).
Proof. intros A B f g l. induction l as [|x l IH]; cbn; auto. rewrite filter_app, app_length, IH. auto. Qed.

Lemma filter_perm : forall {A} (f : A -> bool) l m, Permutation l m -> length (filter f l) = length (filter f m).
Proof. intros A f l m H. induction H; cbn; auto; [destruct (f x); cbn; auto|destruct (f x), (f y); auto|congruence]. Qed.

Lemma count_total : forall (u l : list nat), NoDup u -> (forall x, In x l -> In x u) -> length l = list_sum (map (count_occ Nat.eq_dec l) u).
Proof.
  intros u l ND. induction l as [|a l IH]; intros S.
  - cbn. symmetry. apply sum_zero. auto.
  - cbn [length]. rewrite IH by (intros x I; apply S; right; auto). assert (I : In a u) by (apply S; left; auto). clear - ND I.
    assert (EQ : forall y, count_occ Nat.eq_dec (a :: l) y = (if Nat.eq_dec a y then 1 else 0) + count_occ Nat.eq_dec l y) by (intros y; cbn; destruct (Nat.eq_dec a y); auto).
    induction u as [|x u IHu]; [contradiction|]. inversion_clear ND as [|? ? N1 N2]. change (S (count_occ Nat.eq_dec l x + list_sum (map (count_occ Nat.eq_dec l) u)) = count_occ Nat.eq_dec (a :: l) x + list_sum (map (count_occ Nat.eq_dec (a :: l)) u)). rewrite EQ. destruct (Nat.eq_dec a x) as [<-|NE].
    + replace (map (count_occ Nat.eq_dec (a :: l)) u) with (map (count_occ Nat.eq_dec l) u); [lia|].
      apply map_ext_in. intros y J. rewrite EQ. destruct (Nat.eq_dec a y) as [<-|]; auto. contradiction.
    + destruct I as [->|I]; [congruence|]. rewrite <- (IHu N2 I). lia.
Qed.

Lemma count_filter : forall l p, count_occ Nat.eq_dec (map process l) p = length (filter (fun e => process e =? p) l).
Proof. intros l p. induction l as [|d l IH]; cbn; auto. destruct (Nat.eq_dec (process d) p) as [->|N]; [rewrite Nat.eqb_refl; cbn; auto|]. destruct (Nat.eqb_spec (process d) p); [contradiction|auto]. Qed.

Lemma size_del : forall s axis n, nth_error s axis = Some n -> size s = n * size (del axis s).
Proof.
  intros s. induction s as [|m s IH]; intros axis n E; [destruct axis; discriminate|]. destruct axis as [|axis].
  - injection E as ->. auto.
  - cbn [nth_error] in E. change (size (del (S axis) (m :: s))) with (m * size (del axis s)). change (size (m :: s)) with (m * size s). rewrite (IH _ _ E). lia.
Qed.

Lemma filter_all : forall {A} (f g : A -> bool) l, length (filter (fun x => f x && g x) l) = length (filter f l) <-> forall x, In x l -> f x = true -> g x = true.
Proof.
  intros A f g l. induction l as [|x l IH]; [cbn; split; auto; intros _ x []|]. assert (LE : forall l, length (filter (fun x => f x && g x) l) <= length (filter f l)).
  { clear. intros l. induction l as [|x l IH]; cbn; auto. destruct (f x), (g x); cbn; lia. }
  cbn [filter]. destruct (f x) eqn:F; cbn [andb].
  - destruct (g x) eqn:G; cbn [length].
    + rewrite Nat.succ_inj_wd, IH. split; intros H y; [intros [<-|I]; auto|intros I; apply H; right; auto].
    + split; [intros H; specialize (LE l); lia|]. intros H. rewrite (H x) in G; [discriminate|left; auto|auto].
  - rewrite IH. split; intros H y; [intros [<-|I]; [congruence|auto]|intros I; apply H; right; auto].
Qed.

Lemma enum_from_fst : forall {A} (l : list A) k, map fst (enumerate_from k l) = seq k (length l).
Proof. intros A l. induction l as [|x l IH]; intros k; cbn; auto. rewrite IH. auto. Qed.

Lemma enum_from_in : forall {A} (l : list A) k i x, In (i, x) (enumerate_from k l) <-> k <= i /\ nth_error l (i - k) = Some x.
Proof.
  intros A l. induction l as [|y l IH]; intros k i x; cbn [enumerate_from].
  - split; [intros []|]. intros [_ H]. destruct (i - k); discriminate.
  - cbn [In]. rewrite IH. split.
    + intros [H|[L H]]; [injection H as <- <-; split; [lia|]; rewrite Nat.sub_diag; auto|]. split; [lia|]. replace (i - k) with (S (i - S k)) by lia. auto.
    + intros [L H]. destruct (Nat.eq_dec i k) as [->|N]; [left; rewrite Nat.sub_diag in H; cbn in H; congruence|]. right. split; [lia|]. replace (i - k) with (S (i - S k)) in H by lia. auto.
Qed.

Lemma enum_in : forall {A} (l : list A) i x, In (i, x) (enumerate l) <-> nth_error l i = Some x.
Proof. intros. unfold enumerate. rewrite enum_from_in, Nat.sub_0_r. split; [tauto|]. split; auto. lia. Qed.

Lemma enum_fst : forall {A} (l : list A), map fst (enumerate l) = seq 0 (length l).
Proof. intros. apply enum_from_fst. Qed.

(* ---- exchange ---- *)
Lemma exchange_id : forall e, exchange e = e.
Proof.
  intros e. unfold exchange. set (mx := fold_right max 0 (map (@length nat) e)).
  assert (LE : forall b, In b e -> length b <= mx).
  { subst mx. clear. intros b. induction e as [|x e IH]; cbn; [intros []|]. intros [->|I]; [lia|]. specialize (IH I). lia. }
  assert (PL : forall b, In b e -> length (pad mx b) = mx) by (intros b I; unfold pad; rewrite app_length, repeat_length; specialize (LE b I); lia).
  apply nth_ext_error. intros i. destruct (nth_error e i) as [b|] eqn:E.
  - assert (I : In b e) by (eapply nth_error_In; eauto).
    rewrite nth_error_map. assert (EN : nth_error (enumerate (map (@length nat) e)) i = Some (i, length b)).
    { assert (G : forall l k i (x : nat), nth_error l i = Some x -> nth_error (enumerate_from k l) i = Some (k + i, x)).
      { clear. intros l. induction l as [|y l IH]; intros k [|i] x; cbn; try discriminate; intros H; [injection H as ->; rewrite Nat.add_0_r; auto|]. rewrite (IH (S k) i x H). f_equal. f_equal. lia. }
      unfold enumerate. rewrite (G _ 0 i (length b)); auto. rewrite nth_error_map, E. auto. }
    rewrite EN. cbn [option_map fst snd]. f_equal. apply nth_ext_error. intros j. rewrite nth_firstn, row_nth. destruct (Nat.ltb_spec j (length b)) as [J|J].
    + assert (JM : j < mx) by (specialize (LE b I); lia). destruct (Nat.ltb_spec j mx); [|lia]. rewrite <- flat_map_concat_map, (blocks_nth mx _ e i j b); auto. unfold pad. rewrite nth_error_app1; auto.
    + symmetry. apply nth_error_None. auto.
  - apply nth_error_None in E. apply nth_error_None. rewrite map_length. unfold enumerate. assert (L := f_equal (@length nat) (enum_from_fst (map (@length nat) e) 0)). rewrite map_length, seq_length, map_length in L. lia.
Qed.

(* ---- the replica of a process ---- *)
Definition rid (m : mesh) (axis p : nat) : Z := match process_replica_id p m axis with Ok z => z | Err _ => (-2)%Z end.

Lemma rid_ok : forall m axis n k p, even m axis n k -> process_replica_id p m axis = Ok (rid m axis p) /\ (forall r, rid m axis p = Z.of_nat r <-> process_in m axis r p) /\
  (rid m axis p = (-1)%Z <-> forall d, In d (devices m) -> process d <> p) /\ (-1 <= rid m axis p)%Z.
Proof.
  intros m axis n k p (P & N & L & K & S & C). unfold rid. destruct (C51_replica_id m axis n p P N L) as [(r & -> & I & _)|(-> & F)]; (split; [auto|]); (split; [|split]); try lia.
  - intros q. split; [intros E; apply Nat2Z.inj in E as <-; auto|]. intros Q. rewrite (S p r q); auto.
  - split; [lia|]. intros F. destruct I as (d & I & E). exfalso. apply (F d); auto. eapply slice_in; eauto.
  - intros r. split; [lia|]. intros (d & I & E). exfalso. apply (F d); auto. eapply slice_in; eauto.
  - split; auto.
Qed.

Lemma slice_processes : forall m axis n k N r, even m axis n k -> numbered m N -> r < n ->
  length (filter (fun p => (rid m axis p =? Z.of_nat r)%Z) (seq 0 N)) = length (devices m) / n / k.
Proof.
  intros m axis n k N r EV NU R. assert (EV' := EV). destruct EV' as (P & NS & L & K & S & C).
  set (u := filter _ _). assert (UI : forall p, In p u <-> process_in m axis r p).
  { intros p. subst u. rewrite filter_In, in_seq, Z.eqb_eq. destruct (rid_ok m axis n k p EV) as (_ & I & _). rewrite I. split; [tauto|]. intros Q. split; auto. split; [lia|]. apply NU. destruct Q as (d & Q & E). exists d. split; auto. eapply slice_in; eauto. }
  destruct (replica_ok m axis r n P NS R) as (l & _ & _ & LI & EL).
  assert (CN : forall p, In p u -> count_occ Nat.eq_dec (map process l) p = k).
  { intros p I. apply UI in I. destruct I as (d & I & <-). rewrite count_filter. rewrite <- (C d) by (eapply slice_in; eauto).
    rewrite (filter_perm _ _ _ (Permutation_sym (take_partition (shape m) axis (devices m) n NS (proj1 P)))), filter_flat. symmetry. rewrite EL.
    apply (sum_one (fun x => length (filter (fun e => process e =? process d) (take (shape m) axis x (devices m)))) (seq 0 n) r); [apply seq_NoDup|apply in_seq; lia|].
    intros q Q NE. apply in_seq in Q. remember (filter (fun e => process e =? process d) (take (shape m) axis q (devices m))) as f0 eqn:F. destruct f0 as [|e f]; auto. exfalso. assert (J : In e (e :: f)) by (left; auto). rewrite F in J. apply filter_In in J as (J & X). apply Nat.eqb_eq in X.
    destruct (replica_ok m axis q n P NS) as (lq & _ & _ & LQ & ELQ); [lia|]. rewrite <- ELQ in J. apply LQ in J. apply NE. apply (S (process d)); [exists e; auto|exists d; auto]. }
  assert (T : length (map process l) = list_sum (map (count_occ Nat.eq_dec (map process l)) u)).
  { apply count_total; [subst u; apply NoDup_filter, seq_NoDup|]. intros p I. apply in_map_iff in I as (d & <- & I). apply UI. exists d. split; auto. apply LI. auto. }
  rewrite (sum_const _ u k CN), map_length in T. assert (LL : length l = size (del axis (shape m))).
  { rewrite EL. apply take_length; [apply nth_error_Some; congruence|apply P|intros x X; congruence]. }
  destruct P as (PE & PP). change (fold_right Nat.mul 1 (shape m)) with (size (shape m)) in PE. rewrite PE, (size_del _ _ _ NS).
  rewrite (Nat.mul_comm n), Nat.div_mul by lia. rewrite <- LL, T, Nat.div_mul by lia. auto.
Qed.

(* ---- grouping ---- *)
Definition values_of (k : Z) (d : list (Z * list Z)) : list Z := flat_map (fun x => if (fst x =? k)%Z then snd x else []) d.

Lemma extend_values : forall k v d j, NoDup (map fst d) -> values_of j (extend k v d) = values_of j d ++ (if (k =? j)%Z then v else []).
Proof.
  intros k v d j. induction d as [|[x l] d IH]; intros ND; cbn [extend].
  - cbn. rewrite !app_nil_r. auto.
  - cbn [map fst] in ND. inversion_clear ND as [|? ? N1 N2]. destruct (Z.eqb_spec x k) as [->|NE].
    + unfold values_of. cbn [flat_map fst snd]. destruct (Z.eqb_spec k j) as [->|NJ]; [|rewrite app_nil_r; auto]. assert (Z : values_of j d = []).
      { clear - N1. unfold values_of. induction d as [|[y l] d IH]; auto. cbn [flat_map fst snd]. cbn in N1. destruct (Z.eqb_spec y j) as [->|]; [exfalso; apply N1; left; auto|]. apply IH. tauto. }
      unfold values_of in Z. rewrite Z, !app_nil_r. auto.
    + unfold values_of in *. cbn [flat_map fst snd]. rewrite IH, app_assoc; auto.
Qed.

Lemma extend_keys : forall k v d, (forall j, In j (map fst (extend k v d)) <-> In j (map fst d) \/ j = k) /\ (NoDup (map fst d) -> NoDup (map fst (extend k v d))).
Proof.
  intros k v d. induction d as [|[x l] d (IH1 & IH2)]; cbn [extend].
  - split; [cbn; intuition|]. intros _. cbn. constructor; auto. constructor.
  - destruct (Z.eqb_spec x k) as [->|NE]; cbn [map fst].
    + split; auto. intros j. cbn. intuition.
    + split; [intros j; cbn [In]; rewrite IH1; tauto|]. intros ND. inversion_clear ND as [|? ? N1 N2]. constructor; auto. rewrite IH1. intros [|]; auto.
Qed.

Lemma group_ok : forall m axis n k pp d, even m axis n k -> NoDup (map fst d) -> exists e, group m axis pp d = Ok e /\ NoDup (map fst e) /\
  (forall j, values_of j e = values_of j d ++ flat_map (fun x => if (rid m axis (fst x) =? j)%Z then snd x else []) pp) /\
  (forall j, In j (map fst e) <-> In j (map fst d) \/ exists x, In x pp /\ rid m axis (fst x) = j).
Proof.
  intros m axis n k pp. induction pp as [|[p v] pp IH]; intros d EV ND; cbn [group].
  - exists d. split; auto. split; auto. split; [intros j; cbn; rewrite app_nil_r; auto|]. intros j. split; auto. intros [|(x & [] & _)]; auto.
  - destruct (rid_ok m axis n k p EV) as (-> & _). cbn [rbind]. destruct (extend_keys (rid m axis p) v d) as (X1 & X2). destruct (IH (extend (rid m axis p) v d) EV (X2 ND)) as (e & -> & NE & V & KE).
    exists e. split; auto. split; auto. split.
    + intros j. rewrite V, extend_values by auto. cbn [flat_map fst snd]. rewrite app_assoc. auto.
    + intros j. rewrite KE, X1. split; [intros [[|]|(x & I & E)]; auto; right|intros [|(x & [<-|I] & E)]; auto].
      * exists (p, v). split; [left; auto|cbn; auto].
      * exists x. split; [right; auto|auto].
      * right. exists x. auto.
Qed.

Lemma common_ok : forall n values, common_values n values = Ok (filter (fun k => count k values =? n) (nodup Z.eq_dec values)).
Proof.
  intros n values. unfold common_values. destruct (Nat.ltb_spec (length values) (length (filter (fun k => count k values =? n) (nodup Z.eq_dec values)))) as [L|]; auto. exfalso.
  assert (G : forall l (f : Z -> bool), length (filter f l) <= length l) by (clear; intros l f; induction l as [|x l IH]; cbn; auto; destruct (f x); cbn; lia).
  specialize (G (nodup Z.eq_dec values) (fun k => count k values =? n)). assert (Q := NoDup_incl_length (NoDup_nodup Z.eq_dec values) (fun x I => proj1 (nodup_In Z.eq_dec values x) I)). lia.
Qed.

Lemma common_in : forall n values k, 0 < n -> In k (filter (fun k => count k values =? n) (nodup Z.eq_dec values)) <-> count k values = n.
Proof.
  intros n values k P. rewrite filter_In, nodup_In, Nat.eqb_eq. split; [tauto|]. intros E. split; auto. unfold count in E. apply (count_occ_In Z.eq_dec). lia.
Qed.

Lemma count_values : forall m axis r steps s, distinct steps ->
  count s (flat_map (fun x => if (rid m axis (fst x) =? r)%Z then snd x else []) (enumerate steps)) =
  length (filter (fun x => (rid m axis (fst x) =? r)%Z && has_step s (snd x)) (enumerate steps)).
Proof.
  intros m axis r steps s D. assert (D' : forall x, In x (enumerate steps) -> NoDup (snd x)).
  { intros [i l] I. apply enum_in in I. apply D. eapply nth_error_In; eauto. }
  clear D. induction (enumerate steps) as [|[i l] e IH]; auto. cbn [flat_map filter fst snd]. unfold count in *. rewrite count_occ_app, IH by (intros x I; apply D'; right; auto).
  destruct (Z.eqb_spec (rid m axis i) r) as [E|NE]; cbn [andb]; auto. assert (ND : NoDup l) by (apply (D' (i, l)); left; auto). destruct (has_step s l) eqn:H.
  - apply existsb_exists in H as (y & Y & X). apply Z.eqb_eq in X as <-. cbn [length]. rewrite (proj1 (NoDup_count_occ' Z.eq_dec l) ND s Y). auto.
  - rewrite (proj1 (count_occ_not_In Z.eq_dec l s)); auto. intros I. assert (has_step s l = true) by (apply existsb_exists; exists s; split; auto; apply Z.eqb_refl). congruence.
Qed.

Lemma has_in : forall s l, has_step s l = true <-> In s l.
Proof. intros s l. unfold has_step. rewrite existsb_exists. split; [intros (x & I & E); apply Z.eqb_eq in E as <-; auto|]. intros I. exists s. split; auto. apply Z.eqb_refl. Qed.

Lemma enum_filter : forall m axis r steps, length (filter (fun x : nat * list Z => (rid m axis (fst x) =? r)%Z) (enumerate steps)) = length (filter (fun p => (rid m axis p =? r)%Z) (seq 0 (length steps))).
Proof.
  intros m axis r steps. rewrite <- (enum_fst steps). induction (enumerate steps) as [|x e IH]; auto. cbn [filter map]. destruct (rid m axis (fst x) =? r)%Z; cbn [length]; auto.
Qed.

Lemma replica_nonempty : forall m axis n r, proper m -> nth_error (shape m) axis = Some n -> r < n -> exists p, process_in m axis r p.
Proof. intros m axis n r P N R. destruct (replica_ok m axis r n P N R) as (l & _ & NE & I & _). destruct l as [|d l]; [congruence|]. exists (process d). exists d. split; auto. apply I. left. auto. Qed.

Lemma per_replica : forall m axis n k steps, even m axis n k -> numbered m (length steps) -> distinct steps ->
  exists ps, get_per_replica_local_steps m axis k steps = Ok ps /\ NoDup (map fst ps) /\ (forall j, In j (map fst ps) <-> exists r, r < n /\ j = Z.of_nat r) /\
  forall r l s, In (Z.of_nat r, l) ps -> (In s l <-> complete m axis steps r s).
Proof.
  intros m axis n k steps EV NU D. assert (EV' := EV). destruct EV' as (P & NS & L & K & S & C). unfold get_per_replica_local_steps, common_values_per_replica.
  rewrite (count_ok m axis n NS L). cbn [rbind]. destruct (group_ok m axis n k (enumerate steps) [] EV) as (e & -> & ND & V & KE); [constructor|]. cbn [rbind].
  assert (Q : sequence (map (fun x : Z * list Z => rmap (pair (fst x)) (common_values (length (devices m) / n / k) (snd x))) e) = Ok (map (fun x => (fst x, filter (fun j => count j (snd x) =? length (devices m) / n / k) (nodup Z.eq_dec (snd x)))) e)).
  { clear. induction e as [|x e IH]; cbn [map sequence]; auto. rewrite common_ok, IH. auto. }
  rewrite Q. eexists. split; [reflexivity|]. rewrite map_map. cbn [fst]. split; auto. assert (KEYS : forall j, In j (map fst e) <-> exists r, r < n /\ j = Z.of_nat r).
  { intros j. rewrite KE. split.
    - intros [[]|([p v] & I & <-)]. cbn [fst]. apply enum_in in I. assert (PL : p < length steps) by (apply nth_error_Some; congruence). apply NU in PL. destruct PL as (d & DI & DE).
      destruct (in_some_slice m axis n d P NS DI) as (r & R & SL). exists r. split; auto. apply (rid_ok m axis n k p EV). exists d. auto.
    - intros (r & R & ->). right. destruct (replica_nonempty m axis n r P NS R) as (p & PI). assert (PL : p < length steps) by (apply NU; destruct PI as (d & PI & E); exists d; split; auto; eapply slice_in; eauto).
      apply nth_error_Some in PL. destruct (nth_error steps p) as [v|] eqn:E; [|congruence]. exists (p, v). split; [apply enum_in; auto|]. apply (rid_ok m axis n k p EV). auto. }
  split; auto. intros r l s I. apply in_map_iff in I as ([j v] & E & I). cbn [fst snd] in E. injection E as -> <-.
  assert (R : r < n). { apply (in_map fst) in I. apply KEYS in I as (q & Q1 & Q2). cbn in Q2. apply Nat2Z.inj in Q2 as <-. auto. }
  assert (VE : v = flat_map (fun x => if (rid m axis (fst x) =? Z.of_nat r)%Z then snd x else []) (enumerate steps)).
  { specialize (V (Z.of_nat r)). cbn in V. rewrite <- V. clear - ND I. unfold values_of. induction e as [|[x l] e IH]; [contradiction|]. cbn [map fst] in ND. inversion_clear ND as [|? ? N1 N2]. cbn [flat_map fst snd]. destruct I as [E|I].
    - injection E as -> ->. rewrite Z.eqb_refl. replace (flat_map _ e) with (@nil Z); [rewrite app_nil_r; auto|]. clear - N1. induction e as [|[y l'] e IH]; auto. cbn [flat_map fst snd]. cbn in N1. destruct (Z.eqb_spec y (Z.of_nat r)) as [->|]; [exfalso; apply N1; left; auto|]. apply IH. tauto.
    - destruct (Z.eqb_spec x (Z.of_nat r)) as [->|]; [exfalso; apply N1; apply (in_map fst) in I; auto|]. apply IH; auto. }
  assert (NP := slice_processes m axis n k (length steps) r EV NU R).
  assert (POS : 0 < length (devices m) / n / k).
  { rewrite <- NP. destruct (replica_nonempty m axis n r P NS R) as (p & PI). assert (J : In p (filter (fun p => (rid m axis p =? Z.of_nat r)%Z) (seq 0 (length steps)))).
    { apply filter_In. split; [apply in_seq; split; [lia|]; apply NU; destruct PI as (d & PI & E); exists d; split; auto; eapply slice_in; eauto|]. apply Z.eqb_eq. apply (rid_ok m axis n k p EV). auto. }
    destruct (filter _ _); [contradiction|cbn; lia]. }
  rewrite common_in by auto. rewrite VE, count_values by auto. rewrite <- NP, <- enum_filter, filter_all. unfold complete. split.
  - intros H p PI. assert (PL : p < length steps) by (apply NU; destruct PI as (d & PI & E); exists d; split; auto; eapply slice_in; eauto).
    apply nth_error_Some in PL. destruct (nth_error steps p) as [w|] eqn:E; [|congruence]. exists w. split; auto. apply has_in. apply (H (p, w)); [apply enum_in; auto|]. apply Z.eqb_eq. apply (rid_ok m axis n k p EV). auto.
  - intros H [p w] J X. cbn [fst snd] in *. apply Z.eqb_eq in X. apply (rid_ok m axis n k p EV) in X. destruct (H p X) as (w' & E & IN). apply enum_in in J. rewrite J in E. injection E as <-. apply has_in. auto.
Qed.

(* ---- steps ---- *)
Lemma fold_max : forall l x, In (fold_left Z.max l x) (x :: l) /\ forall y, In y (x :: l) -> (y <= fold_left Z.max l x)%Z.
Proof.
  intros l. induction l as [|z l IH]; intros x; cbn [fold_left].
  - split; [left; auto|]. intros y [->|[]]. lia.
  - destruct (IH (Z.max x z)) as (I & M). split.
    + destruct I as [I|I]; [|right; right; auto]. rewrite <- I. destruct (Z.max_spec x z) as [[_ ->]|[_ ->]]; [right; left; auto|left; auto].
    + intros y [->|[->|J]]; [assert (Q := M (Z.max y z) (or_introl eq_refl)); lia|assert (Q := M (Z.max x y) (or_introl eq_refl)); lia|apply M; right; auto].
Qed.

Lemma max_step_spec : forall l, greatest (fun s => In s l) (max_step l).
Proof. intros [|x l]; cbn [max_step greatest]; [auto|]. apply fold_max. Qed.

Lemma find_slice_spec : forall s ps, (forall j, In j (map fst ps) -> (-1 < j)%Z) ->
  ((-1 < find_slice s ps)%Z /\ exists l, In (find_slice s ps, l) ps /\ In s l) \/ (find_slice s ps = (-1)%Z /\ forall j l, In (j, l) ps -> ~ In s l).
Proof.
  intros s ps H. induction ps as [|[j l] ps IH]; cbn [find_slice]; [right; split; auto|]. destruct (has_step s l) eqn:E.
  - left. split; [apply H; left; auto|]. exists l. split; [left; auto|]. apply has_in. auto.
  - destruct IH as [(A & l' & I & B)|(A & B)]; [intros i I; apply H; right; auto| |].
    + left. split; auto. exists l'. split; auto. right. auto.
    + right. split; auto. intros i l' [X|I]; [|eauto]. injection X as <- <-. intros J. apply has_in in J. congruence.
Qed.

Lemma slice_ids_ok : forall m axis n k N, even m axis n k -> slice_ids m axis N = Ok (map (rid m axis) (seq 0 N)).
Proof.
  intros m axis n k N EV. unfold slice_ids. apply sequence_ok. induction (seq 0 N) as [|p l IH]; cbn; constructor; auto. apply (rid_ok m axis n k p EV).
Qed.

Lemma meet_all : forall {A} (l : list (result A)) a, (forall r, In r l -> r = Ok a) -> meet l = map (fun _ => Returns a) l.
Proof.
  intros A l a H. unfold meet. replace (forallb _ l) with true.
  - apply map_ext_in. intros r I. rewrite (H r I). auto.
  - symmetry. apply forallb_forall. intros r I. rewrite (H r I). auto.
Qed.
