(** Proofs about the peer-to-peer manager. *)
From Coq Require Import List Bool Arith ZArith Lia Permutation.
From Verif Require Import Base Mesh_Model Mesh_Spec Mesh_Proofs Peer_Model Peer_Spec.
Import ListNotations.

(** ** The topology *)

Lemma seen_app : forall l seen d, seen_procs seen (l ++ [d]) = seen_procs seen l ++ (if existsb (fun q => q =? process d) (seen ++ map process l) then [] else [process d]).
Proof.
  induction l as [|x l IH]; intros seen d.
  - cbn. rewrite app_nil_r. replace (existsb (Nat.eqb (process d)) seen) with (existsb (fun q => q =? process d) seen); [reflexivity|].
    induction seen as [|y seen IH]; cbn; auto. rewrite IH, Nat.eqb_sym. auto.
  - cbn [seen_procs app map]. destruct (existsb (Nat.eqb (process x)) seen) eqn:E.
    + rewrite IH. f_equal. replace (existsb (fun q => q =? process d) (seen ++ process x :: map process l)) with (existsb (fun q => q =? process d) (seen ++ map process l)); auto.
      rewrite !existsb_app. cbn. apply existsb_exists in E as (y & I & Y). apply Nat.eqb_eq in Y as <-.
      destruct (process x =? process d) eqn:X; cbn; auto. replace (existsb (fun q => q =? process d) seen) with true; auto.
      symmetry. apply existsb_exists. eauto.
    + rewrite IH. cbn [app]. do 2 f_equal. replace (existsb (fun q => q =? process d) (process x :: seen ++ map process l)) with (existsb (fun q => q =? process d) (seen ++ process x :: map process l)); auto.
      rewrite !existsb_app. cbn. rewrite existsb_app. destruct (process x =? process d), (existsb (fun q => q =? process d) seen); auto.
Qed.

Lemma existsb_map' : forall {A B} (f : A -> B) g l, existsb g (map f l) = existsb (fun x => g (f x)) l.
Proof. induction l; cbn; congruence. Qed.

Lemma first_at_app : forall l d j, j < length l -> first_at (l ++ [d]) j = first_at l j.
Proof. intros l d j L. unfold first_at. rewrite nth_error_app1 by auto. rewrite firstn_app. replace (j - length l) with 0 by lia. rewrite app_nil_r. auto. Qed.

Lemma rank_app : forall l d j, j <= length l -> rank (l ++ [d]) j = rank l j.
Proof. intros l d j L. unfold rank. f_equal. apply filter_ext_in. intros i I. apply in_seq in I. apply first_at_app. lia. Qed.

Lemma rank_length : forall l, rank l (length l) = length (seen_procs [] l).
Proof.
  induction l as [|d l IH] using rev_ind; auto. rewrite app_length. cbn [length]. unfold rank. rewrite Nat.add_1_r, seq_S, filter_app, app_length.
  fold (rank (l ++ [d]) (length l)). rewrite rank_app, IH, seen_app, app_length by auto. f_equal. cbn [filter plus].
  unfold first_at. rewrite nth_error_app2, Nat.sub_diag by auto. cbn [nth_error]. rewrite firstn_app, Nat.sub_diag, firstn_all, app_nil_r. cbn [app]. rewrite existsb_map'.
  destruct (existsb _ l); reflexivity.
Qed.

Lemma first_not : forall l j d, nth_error l j = Some d -> first_at l j = true -> forall i e, i < j -> nth_error l i = Some e -> process e <> process d.
Proof.
  intros l j d N F i e L E X. unfold first_at in F. rewrite N in F. apply negb_true_iff in F. assert (W : existsb (fun e => process e =? process d) (firstn j l) = true); [|congruence].
  apply existsb_exists. exists e. split; [|apply Nat.eqb_eq; auto]. apply nth_error_In with i. rewrite nth_firstn. destruct (Nat.ltb_spec i j); [auto|lia].
Qed.

Lemma seen_shard : forall l p k, nth_error (seen_procs [] l) k = Some p <-> shard_of l p k.
Proof.
  induction l as [|d l IH] using rev_ind; intros p k.
  - unfold shard_of. split; [destruct k; discriminate|]. intros (j & d & N & _). destruct j; discriminate.
  - rewrite seen_app. cbn [app]. rewrite existsb_map'. set (b := existsb _ l).
    assert (Q : shard_of (l ++ [d]) p k <-> shard_of l p k \/ (b = false /\ p = process d /\ k = length (seen_procs [] l))).
    { unfold shard_of. split.
      - intros (j & e & N & P & F & R). destruct (Nat.lt_ge_cases j (length l)) as [L|L].
        + left. exists j, e. rewrite nth_error_app1 in N by auto. rewrite first_at_app in F by auto. rewrite rank_app in R by lia. auto.
        + right. assert (LL : j < length (l ++ [d])) by (apply nth_error_Some; congruence). rewrite app_length in LL. cbn in LL. replace j with (length l) in * by lia.
          rewrite nth_error_app2, Nat.sub_diag in N by auto. injection N as <-. rewrite rank_app, rank_length in R by auto.
          split; [|auto]. unfold first_at in F. rewrite nth_error_app2, Nat.sub_diag in F by auto. cbn [nth_error] in F. rewrite firstn_app, Nat.sub_diag, firstn_all, app_nil_r in F. apply negb_true_iff in F. auto.
      - intros [(j & e & N & P & F & R)|(B & -> & ->)].
        + assert (L : j < length l) by (apply nth_error_Some; congruence). exists j, e. rewrite nth_error_app1, first_at_app, rank_app by lia. auto.
        + exists (length l), d. rewrite nth_error_app2, Nat.sub_diag by auto. split; [reflexivity|]. split; [reflexivity|]. rewrite rank_app, rank_length by auto. split; [|auto].
          unfold first_at. rewrite nth_error_app2, Nat.sub_diag by auto. cbn [nth_error]. rewrite firstn_app, Nat.sub_diag, firstn_all, app_nil_r. fold b. rewrite B. auto. }
    rewrite Q, <- IH. destruct b.
    + rewrite app_nil_r. split; [auto|]. intros [H|(X & _)]; [auto|discriminate].
    + split.
      * intros N. destruct (Nat.lt_ge_cases k (length (seen_procs [] l))) as [L|L]; [rewrite nth_error_app1 in N by auto; auto|].
        right. rewrite nth_error_app2 in N by auto. destruct (k - length (seen_procs [] l)) as [|u] eqn:U; [|destruct u; discriminate]. cbn in N. injection N as <-. repeat split. lia.
      * intros [N|(_ & -> & ->)]; [rewrite nth_error_app1; auto; apply nth_error_Some; congruence|]. rewrite nth_error_app2, Nat.sub_diag by auto. reflexivity.
Qed.

Lemma seen_nodup : forall l, NoDup (seen_procs [] l).
Proof.
  induction l as [|d l IH] using rev_ind; [constructor|]. rewrite seen_app. cbn [app]. rewrite existsb_map'. destruct (existsb _ l) eqn:B; [rewrite app_nil_r; auto|].
  apply Permutation_NoDup with (process d :: seen_procs [] l); [apply Permutation_cons_append|]. constructor; auto. intros I. apply In_nth_error in I as (k & N).
  apply seen_shard in N as (j & e & N & P & _). assert (W : existsb (fun x => process x =? process d) l = true); [|congruence].
  apply existsb_exists. exists e. split; [apply nth_error_In with j; auto|apply Nat.eqb_eq; auto].
Qed.

Lemma seen_in : forall l p, In p (seen_procs [] l) <-> In p (map process l).
Proof.
  induction l as [|d l IH] using rev_ind; intros p; [reflexivity|]. rewrite seen_app, map_app. cbn [app]. rewrite !in_app_iff, existsb_map', IH.
  destruct (existsb _ l) eqn:B; [|reflexivity]. cbn. split; [intros [H|[]]; auto|]. intros [H|[<-|[]]]; auto. left. apply existsb_exists in B as (e & I & E). apply Nat.eqb_eq in E as <-. apply in_map. auto.
Qed.

Lemma find_assign : forall {A} p q (x : A) d, find q (assign p x d) = if p =? q then Some x else find q d.
Proof.
  intros A p q x d. induction d as [|(r & y) d IH]; cbn.
  - destruct (p =? q); auto.
  - destruct (Nat.eqb_spec r p) as [->|N]; cbn.
    + destruct (p =? q); auto.
    + rewrite IH. destruct (Nat.eqb_spec r q) as [->|]; auto. destruct (Nat.eqb_spec p q); [congruence|auto].
Qed.

Lemma keys_assign : forall {A} p (x : A) d, NoDup (map fst d) -> NoDup (map fst (assign p x d)).
Proof.
  intros A p x d H. induction d as [|(r & y) d IH]; cbn; [constructor; auto; constructor|]. inversion_clear H. destruct (Nat.eqb_spec r p) as [->|N]; cbn; constructor; auto.
  intros I. apply H0. clear - I N. induction d as [|(q & z) d IH]; cbn in *; [destruct I; auto; congruence|]. destruct (q =? p) eqn:E; cbn in I; destruct I as [I|I]; auto.
Qed.

Lemma map_replica_find : forall procs rid rel d p, NoDup procs ->
  (forall k, nth_error procs k = Some p -> find p (map_replica rid rel procs d) = Some (mk_spot rid (rel + k))) /\ (~ In p procs -> find p (map_replica rid rel procs d) = find p d).
Proof.
  induction procs as [|q procs IH]; intros rid rel d p H; cbn [map_replica].
  - split; [intros k N; destruct k; discriminate|auto].
  - inversion_clear H. destruct (IH rid (S rel) (assign q (mk_spot rid rel) d) p H1) as (I1 & I2). split.
    + intros [|k] N; cbn in N.
      * injection N as ->. rewrite I2 by auto. rewrite find_assign, Nat.eqb_refl, Nat.add_0_r. auto.
      * rewrite (I1 k N). f_equal. f_equal. lia.
    + intros N. rewrite I2 by (cbn in N; tauto). rewrite find_assign. destruct (Nat.eqb_spec q p) as [->|]; auto. cbn in N. tauto.
Qed.

Lemma map_replica_keys : forall procs rid rel d, NoDup (map fst d) -> NoDup (map fst (map_replica rid rel procs d)).
Proof. induction procs; cbn; auto. intros. apply IHprocs, keys_assign. auto. Qed.

Lemma find_in : forall {A} p (x : A) d, NoDup (map fst d) -> (find p d = Some x <-> In (p, x) d).
Proof.
  intros A p x d. induction d as [|(q & y) d IH]; cbn; intros H; [split; [discriminate|tauto]|]. inversion_clear H. specialize (IH H1). destruct (Nat.eqb_spec q p) as [->|N].
  - split; [intros X; injection X as ->; auto|]. intros [X|X]; [congruence|]. elim H0. change p with (fst (p, x)). apply in_map. auto.
  - rewrite IH. split; auto. intros [X|X]; [congruence|auto].
Qed.

Lemma process_in_devs : forall m axis r n devs p, proper m -> nth_error (shape m) axis = Some n -> replica_devices m r axis = Ok devs -> (process_in m axis r p <-> In p (map process devs)).
Proof.
  intros m axis r n devs p P N E. assert (R : r < n) by (unfold replica_devices in E; rewrite N in E; destruct (Nat.ltb_spec r n); [auto|discriminate]).
  destruct (replica_ok m axis r n P N R) as (l & E2 & _ & I & _). rewrite E in E2. injection E2 as <-. rewrite in_map_iff. unfold process_in. split; intros (d & X & Y); exists d; [split; [auto|apply I; auto]|split; [apply I; auto|auto]].
Qed.

Lemma map_replicas_ok : forall m axis n k s d, proper m -> nth_error (shape m) axis = Some n -> s + k <= n -> NoDup (map fst d) ->
  exists tmap, map_replicas m axis (seq s k) d = Ok tmap /\ NoDup (map fst tmap) /\
    forall p, (forall r, s <= r < s + k -> ~ process_in m axis r p) /\ find p tmap = find p d \/
      (exists r j devs, s <= r < s + k /\ replica_devices m r axis = Ok devs /\ shard_of devs p j /\ (forall q, r < q < s + k -> ~ process_in m axis q p) /\ find p tmap = Some (mk_spot r j)).
Proof.
  intros m axis n k. induction k as [|k IH]; intros s d P N L D; cbn [seq map_replicas].
  - exists d. split; [reflexivity|]. split; [auto|]. intros p. left. split; [intros; lia|auto].
  - destruct (replica_ok m axis s n P N ltac:(lia)) as (devs & E & _). rewrite E. cbn [rbind].
    destruct (IH (S s) (map_replica s 0 (seen_procs [] devs) d) P N ltac:(lia) (map_replica_keys _ _ _ _ D)) as (tmap & T & K & F). exists tmap. split; [auto|]. split; [auto|]. intros p.
    destruct (map_replica_find (seen_procs [] devs) s 0 d p (seen_nodup devs)) as (M1 & M2). destruct (F p) as [(A & B)|(r & j & devs' & R & E' & S & A & B)].
    + destruct (in_dec Nat.eq_dec p (seen_procs [] devs)) as [I|I].
      * right. apply In_nth_error in I as (j & J). exists s, j, devs. split; [lia|]. split; [auto|]. split; [apply seen_shard; auto|]. split; [intros q Q; apply A; lia|]. rewrite B, (M1 j J). reflexivity.
      * left. rewrite B, M2 by auto. split; [|auto]. intros r R. destruct (Nat.eq_dec r s) as [->|]; [|apply A; lia]. rewrite (process_in_devs m axis s n devs p P N E), <- seen_in. auto.
    + right. exists r, j, devs'. split; [lia|]. repeat (split; auto). intros q Q. apply A. lia.
Qed.

Lemma topology : forall m axis n, proper m -> nth_error (shape m) axis = Some n -> 2 <= length (shape m) ->
  exists tmap, build_topology_map m axis = Ok tmap /\ NoDup (map fst tmap) /\
    (forall p r k, find p tmap = Some (mk_spot r k) <-> (exists devs, replica_devices m r axis = Ok devs /\ shard_of devs p k) /\ forall q, r < q -> ~ process_in m axis q p) /\
    (forall p r, find p tmap = None -> ~ process_in m axis r p).
Proof.
  intros m axis n P N L. unfold build_topology_map. rewrite (count_ok m axis n N L). cbn [rbind]. destruct (map_replicas_ok m axis n n 0 [] P N ltac:(lia) ltac:(constructor)) as (tmap & T & K & F).
  exists tmap. split; [auto|]. split; [auto|]. split; [|intros p r X (d & I & Y); destruct (F p) as [(A & _)|(? & ? & ? & _ & _ & _ & _ & B)]; [|congruence]; apply (A r); [split; [lia|]; apply (slice_bound m axis r d n I N)|exists d; auto]].
  intros p r k. split.
  - intros X. destruct (F p) as [(_ & B)|(r' & j & devs & R & E & S & A & B)]; [cbn in B; congruence|]. rewrite B in X. injection X as <- <-. split; [eauto|]. intros q Q (d & I & Y). apply (A q).
    + split; [auto|]. apply (slice_bound m axis q d n I N).
    + exists d. auto.
  - intros ((devs & E & S) & A). assert (PI : process_in m axis r p) by (apply (process_in_devs m axis r n devs p P N E); rewrite <- seen_in; apply nth_error_In with k, seen_shard; auto).
    assert (R : r < n) by (destruct PI as (d & I & _); apply (slice_bound m axis r d n I N)).
    destruct (F p) as [(B & _)|(r' & j & devs' & R' & E' & S' & A' & B)]; [elim (B r); auto; lia|].
    assert (r' = r) as ->. { destruct (Nat.lt_trichotomy r r') as [G|[G|G]]; auto; [elim (A r' G)|elim (A' r); [lia|auto]]. apply (process_in_devs m axis r' n devs' p P N E'). rewrite <- seen_in. apply nth_error_In with j, seen_shard. auto. }
    rewrite E in E'. injection E' as <-. apply seen_shard in S, S'. rewrite B. do 2 f_equal. apply (NoDup_nth_error (seen_procs [] devs)); [apply seen_nodup|apply nth_error_Some; congruence|congruence].
Qed.

Lemma distinct : forall m axis n tmap p q sp, proper m -> nth_error (shape m) axis = Some n -> 2 <= length (shape m) -> build_topology_map m axis = Ok tmap ->
  find p tmap = Some sp -> find q tmap = Some sp -> p = q.
Proof.
  intros m axis n tmap p q [r k] P N L T A B. destruct (topology m axis n P N L) as (t & E & _ & F & _). rewrite T in E. injection E as <-.
  apply F in A as ((d & D & S) & _). apply F in B as ((d' & D' & S') & _). rewrite D in D'. injection D' as <-. apply seen_shard in S, S'. congruence.
Qed.

(** ** The registry *)

Definition key (e : entry) : Z * nat := (l_step e, l_index e).

Lemma store_key : forall s p reg, incl (map key (store s p reg)) ((s, process_index p) :: map key reg).
Proof. intros s p reg. induction reg as [|e reg IH]; cbn; [intros x [<-|[]]; cbn; auto|]. destruct (Z.eqb_spec (l_step e) s), (Nat.eqb_spec (l_index e) (process_index p)); cbn; intros x [<-|I]; cbn; auto; try (apply IH in I; cbn in I; tauto).
  unfold key. cbn. rewrite e1. auto. Qed.

Lemma store_nodup : forall s p reg, NoDup (map key reg) -> NoDup (map key (store s p reg)).
Proof.
  intros s p reg H. induction reg as [|e reg IH]; cbn; [constructor; auto; constructor|]. inversion_clear H. destruct (Z.eqb_spec (l_step e) s) as [E1|N1], (Nat.eqb_spec (l_index e) (process_index p)) as [E2|N2]; cbn; constructor; auto; try (intros I; apply store_key in I; cbn in I; destruct I as [I|I]; [unfold key in I; congruence|auto]).
  unfold key at 1. cbn. intros I. apply H0. unfold key at 1. rewrite E1. auto.
Qed.

Lemma store_in : forall s p reg e, NoDup (map key reg) -> (In e (store s p reg) <-> e = mk_entry s (process_index p) p \/ In e reg /\ key e <> (s, process_index p)).
Proof.
  intros s p reg e. induction reg as [|x reg IH]; cbn; intros H; [intuition|]. inversion_clear H. specialize (IH H1). destruct (Z.eqb_spec (l_step x) s) as [E1|N1], (Nat.eqb_spec (l_index x) (process_index p)) as [E2|N2]; cbn; try (rewrite IH; unfold key; split; [intros [<-|[->|(A & B)]]; auto; right; split; auto; congruence|intros [->|([<-|A] & B)]; auto]).
  rewrite E2. split.
  - intros [<-|I]; auto. right. split; auto. intros X. apply H0. replace (key x) with (key e) by (unfold key in *; congruence). apply in_map. auto.
  - intros [->|([<-|I] & B)]; auto. unfold key in B. congruence.
Qed.

Lemma register_nodup : forall p reg, NoDup (map key reg) -> NoDup (map key (register_peer p reg)).
Proof. intros p. unfold register_peer. induction (steps p) as [|s l IH]; cbn; auto. intros. apply IH, store_nodup. auto. Qed.

Lemma register_in : forall p reg e, NoDup (map key reg) -> (In e (register_peer p reg) <-> (exists s, In s (steps p) /\ e = mk_entry s (process_index p) p) \/ In e reg /\ ~ (l_index e = process_index p /\ In (l_step e) (steps p))).
Proof.
  intros p. unfold register_peer. induction (steps p) as [|s l IH]; cbn; intros reg e H.
  - split; [intros I; right; split; auto; tauto|]. intros [(s & [] & _)|(I & _)]. auto.
  - rewrite IH by (apply store_nodup; auto). rewrite store_in by auto. split.
    + intros [(s' & I & ->)|([->|(I & K)] & B)].
      * left. exists s'. auto.
      * left. exists s. auto.
      * right. split; auto. intros (X & [Y|Y]); [|tauto]. apply K. unfold key. congruence.
    + intros [(s' & [<-|I] & ->)|(I & B)].
      * destruct (in_dec Z.eq_dec s l) as [J|J]; [left; eauto|]. right. split; auto. cbn. tauto.
      * left. eauto.
      * right. split; [right; split; auto; unfold key; intros X; injection X as X1 X2; apply B; auto|]. intros (X & Y). apply B. auto.
Qed.

Lemma enumerate_app : forall {A} (l : list A) k x, enumerate_from k (l ++ [x]) = enumerate_from k l ++ [(k + length l, x)].
Proof. induction l as [|y l IH]; intros k x; cbn; [rewrite Nat.add_0_r; auto|]. rewrite IH. do 3 f_equal. f_equal. lia. Qed.

Lemma enrich_index : forall tmap p, process_index (enrich tmap p) = process_index p /\ address (enrich tmap p) = address p /\ steps (enrich tmap p) = steps p.
Proof. intros tmap p. unfold enrich. destruct (find _ tmap); auto. Qed.

Lemma made_in : forall tmap scans e, NoDup (map key (make_registry tmap scans)) /\
  (In e (make_registry tmap scans) <-> exists a l, nth_error scans a = Some (Some (l_index e), l) /\ In (l_step e) l /\ l_peer e = enrich tmap (mk_peer a (l_index e) l (-1)) /\ forall b, a < b -> ~ holds scans b (l_index e) (l_step e)).
Proof.
  intros tmap scans e. induction scans as [|x scans (IH1 & IH2)] using rev_ind.
  - cbn. split; [constructor|]. split; [tauto|]. intros (a & l & N & _). destruct a; discriminate.
  - unfold make_registry in *. unfold enumerate in *. rewrite enumerate_app, flat_map_app, fold_left_app. cbn [flat_map plus]. rewrite app_nil_r. unfold info at 1 3. cbn [fst snd].
    set (reg := fold_left _ (flat_map _ _) _) in *. destruct x as ([i|] & l0); cbn [fst snd fold_left].
    + destruct (enrich_index tmap (mk_peer (length scans) i l0 (-1))) as (X1 & X2 & X3). cbn in X1, X2, X3. split; [apply register_nodup; auto|]. rewrite register_in by auto. rewrite X1, X3. split.
      * intros [(s & I & ->)|(I & B)].
        -- exists (length scans), l0. rewrite nth_error_app2, Nat.sub_diag by auto. cbn. repeat (split; auto). intros b G (l & N & _). assert (W : b < length (scans ++ [(Some i, l0)])) by (apply nth_error_Some; congruence). rewrite app_length in W. cbn in W. lia.
        -- apply IH2 in I as (a & l & N & I & X & Y). assert (L : a < length scans) by (apply nth_error_Some; congruence). exists a, l. rewrite nth_error_app1 by auto. repeat (split; auto).
           intros b G (l' & M & J). destruct (Nat.lt_ge_cases b (length scans)) as [Q|Q]; [rewrite nth_error_app1 in M by auto; apply (Y b G); exists l'; auto|]. assert (W : b < length (scans ++ [(Some i, l0)])) by (apply nth_error_Some; congruence). rewrite app_length in W. cbn in W. replace b with (length scans) in * by lia.
           rewrite nth_error_app2, Nat.sub_diag in M by auto. injection M as -> ->. apply B. auto.
      * intros (a & l & N & I & X & Y). destruct (Nat.lt_ge_cases a (length scans)) as [Q|Q].
        -- right. rewrite nth_error_app1 in N by auto. split.
           ++ apply IH2. exists a, l. repeat (split; auto). intros b L (l' & M & J). apply (Y b L). exists l'. rewrite nth_error_app1; auto. apply nth_error_Some. congruence.
           ++ intros (U & V). apply (Y (length scans) Q). exists l0. rewrite nth_error_app2, Nat.sub_diag by auto. subst i. auto.
        -- left. assert (W : a < length (scans ++ [(Some i, l0)])) by (apply nth_error_Some; congruence). rewrite app_length in W. cbn in W. replace a with (length scans) in * by lia. rewrite nth_error_app2, Nat.sub_diag in N by auto. injection N as -> ->.
           exists (l_step e). split; auto. destruct e; cbn in *. congruence.
    + split; auto. rewrite IH2. split.
      * intros (a & l & N & I & X & Y). assert (L : a < length scans) by (apply nth_error_Some; congruence). exists a, l. rewrite nth_error_app1 by auto. repeat (split; auto).
        intros b G (l' & M & J). apply (Y b G). exists l'. split; auto. destruct (Nat.lt_ge_cases b (length scans)) as [Q|Q]; [rewrite nth_error_app1 in M by auto; auto|]. rewrite nth_error_app2 in M by auto. destruct (b - length scans) as [|[|]]; discriminate.
      * intros (a & l & N & I & X & Y). destruct (Nat.lt_ge_cases a (length scans)) as [Q|Q]; [|rewrite nth_error_app2 in N by auto; destruct (a - length scans) as [|[|]]; discriminate].
        rewrite nth_error_app1 in N by auto. exists a, l. repeat (split; auto). intros b L (l' & M & J). apply (Y b L). exists l'. rewrite nth_error_app1; auto. apply nth_error_Some. congruence.
Qed.

Lemma last_exists : forall scans i s, (exists a, holds scans a i s) -> exists a, last_holder scans a i s.
Proof.
  intros scans i s (a & H). assert (D : forall n, (exists b, n <= b /\ last_holder scans b i s) \/ (forall b, n <= b -> ~ holds scans b i s)).
  { assert (W : forall k n, length scans <= n + k -> (exists b, n <= b /\ last_holder scans b i s) \/ (forall b, n <= b -> ~ holds scans b i s)).
    { induction k as [|k IH]; intros n L.
      - right. intros b G (l & N & _). assert (b < length scans) by (apply nth_error_Some; congruence). lia.
      - destruct (IH (S n) ltac:(lia)) as [(b & G & B)|B]; [left; exists b; split; [lia|auto]|].
        destruct (nth_error scans n) as [([j|] & l)|] eqn:E.
        + destruct (Nat.eq_dec j i) as [->|]; [destruct (in_dec Z.eq_dec s l) as [I|I]|].
          * left. exists n. split; auto. split; [exists l; auto|]. intros b G. apply B. lia.
          * right. intros b G (l' & N & J). destruct (Nat.eq_dec b n) as [->|]; [rewrite E in N; injection N as <-; auto|]. apply (B b); [lia|exists l'; auto].
          * right. intros b G (l' & N & J). destruct (Nat.eq_dec b n) as [->|]; [rewrite E in N; congruence|]. apply (B b); [lia|exists l'; auto].
        + right. intros b G (l' & N & J). destruct (Nat.eq_dec b n) as [->|]; [rewrite E in N; congruence|]. apply (B b); [lia|exists l'; auto].
        + right. intros b G (l' & N & J). destruct (Nat.eq_dec b n) as [->|]; [rewrite E in N; congruence|]. apply (B b); [lia|exists l'; auto]. }
    intros n. apply (W (length scans) n). lia. }
  destruct (D 0) as [(b & _ & B)|B]; [eauto|]. elim (B a); auto. lia.
Qed.

(** The entries of a step in terms of holders. *)
Lemma made_entry : forall tmap scans s i, (exists e, In e (make_registry tmap scans) /\ l_step e = s /\ l_index e = i) <-> exists a, holds scans a i s.
Proof.
  intros tmap scans s i. split.
  - intros (e & I & <- & <-). apply made_in in I as (a & l & N & J & _). exists a, l. auto.
  - intros H. apply last_exists in H as (a & (l & N & J) & B). exists (mk_entry s i (enrich tmap (mk_peer a i l (-1)))). split; [|auto]. apply made_in. exists a, l. cbn. auto.
Qed.

Lemma made_peer : forall tmap scans e, In e (make_registry tmap scans) -> process_index (l_peer e) = l_index e /\ last_holder scans (address (l_peer e)) (l_index e) (l_step e) /\
  forall sp, find (l_index e) tmap = Some sp -> replica_id (l_peer e) = Z.of_nat (replica sp).
Proof.
  intros tmap scans e I. apply made_in in I as (a & l & N & J & X & Y). destruct (enrich_index tmap (mk_peer a (l_index e) l (-1))) as (X1 & X2 & X3). rewrite X, X1, X2. cbn. split; [auto|]. split; [split; [exists l; auto|auto]|].
  intros sp F. unfold enrich. cbn. rewrite F. auto.
Qed.

Lemma same_key : forall tmap scans e e', In e (make_registry tmap scans) -> In e' (make_registry tmap scans) -> l_step e = l_step e' -> l_index e = l_index e' -> e = e'.
Proof.
  intros tmap scans e e' I I' S X. destruct (made_in tmap scans e) as (D & _). revert D I I'. generalize (make_registry tmap scans) as l. induction l as [|y l IH]; cbn; [tauto|]. intros D. inversion_clear D. intros [<-|I] [<-|I']; auto.
  - elim H. replace (key y) with (key e') by (unfold key; congruence). apply in_map. auto.
  - elim H. replace (key y) with (key e) by (unfold key; congruence). apply in_map. auto.
Qed.

Lemma get_peer_spec : forall tmap scans s i p, get_peer (make_registry tmap scans) s i = Some p -> exists e, In e (make_registry tmap scans) /\ l_step e = s /\ l_index e = i /\ l_peer e = p.
Proof.
  intros tmap scans s i p H. unfold get_peer, get_shard_map in H. destruct (filter _ (filter _ _)) as [|e r] eqn:E; [discriminate|]. injection H as <-.
  assert (I : In e (e :: r)) by (cbn; auto). rewrite <- E in I. apply filter_In in I as (I & A). apply filter_In in I as (I & B). exists e. apply Nat.eqb_eq in A. apply Z.eqb_eq in B. auto.
Qed.

Lemma get_peer_none : forall tmap scans s i, get_peer (make_registry tmap scans) s i = None <-> forall a, ~ holds scans a i s.
Proof.
  intros tmap scans s i. unfold get_peer, get_shard_map. destruct (filter _ (filter _ _)) as [|e r] eqn:E.
  - split; auto. intros _ a H. assert (W : exists a, holds scans a i s) by eauto. apply (made_entry tmap) in W as (e & I & A & B).
    assert (I2 : In e []); [|destruct I2]. rewrite <- E. apply filter_In. split; [apply filter_In; split; auto; apply Z.eqb_eq; auto|apply Nat.eqb_eq; auto].
  - split; [discriminate|]. intros H. assert (I : In e (e :: r)) by (cbn; auto). rewrite <- E in I. apply filter_In in I as (I & A). apply filter_In in I as (I & B). apply Nat.eqb_eq in A. apply Z.eqb_eq in B.
    destruct (made_entry tmap scans s i) as (W & _). destruct W as (a & W); [exists e; auto|]. elim (H a W).
Qed.

Lemma has_relative_spec : forall tmap scans s rel, has_relative tmap (make_registry tmap scans) s rel = true <-> exists i, shard_held tmap scans rel s i.
Proof.
  intros tmap scans s rel. unfold has_relative, get_shard_map. rewrite existsb_exists. split.
  - intros (e & I & F). apply filter_In in I as (I & B). apply Z.eqb_eq in B. destruct (find (l_index e) tmap) as [sp|] eqn:E; [|discriminate]. apply Nat.eqb_eq in F.
    destruct (made_entry tmap scans s (l_index e)) as (W & _). destruct W as (a & W); [exists e; auto|]. exists (l_index e), a, sp. auto.
  - intros (i & a & sp & H & F & R). destruct (made_entry tmap scans s i) as (_ & W). destruct W as (e & I & A & B); [eauto|]. exists e. split; [apply filter_In; split; auto; apply Z.eqb_eq; auto|]. rewrite B, F. apply Nat.eqb_eq. auto.
Qed.

Lemma fold_max_spec : forall l x, (In (fold_left Z.max l x) (x :: l)) /\ forall y, In y (x :: l) -> (y <= fold_left Z.max l x)%Z.
Proof.
  induction l as [|z l IH]; intros x; cbn [fold_left].
  - split; [cbn; auto|]. intros y [->|[]]. lia.
  - destruct (IH (Z.max x z)) as (A & B). split.
    + destruct A as [A|A]; [|cbn; auto]. rewrite <- A. destruct (Z.max_spec x z) as [(_ & ->)|(_ & ->)]; cbn; auto.
    + intros y [->|[->|I]]; [specialize (B (Z.max y z)); cbn in B; lia|specialize (B (Z.max x y)); cbn in B; lia|]. apply B. cbn. auto.
Qed.

Lemma max_spec : forall l s, max_or_none l = Some s <-> In s l /\ forall y, In y l -> (y <= s)%Z.
Proof.
  intros [|x l] s; cbn [max_or_none]; [split; [discriminate|intros ([] & _)]|]. destruct (fold_max_spec l x) as (A & B). split.
  - intros X. injection X as <-. auto.
  - intros (I & M). f_equal. apply B in I. apply M in A. lia.
Qed.

Lemma max_none : forall l, max_or_none l = None <-> l = [].
Proof. intros [|x l]; cbn; split; auto; discriminate. Qed.

Lemma complete_in : forall tmap scans s, NoDup (map fst tmap) -> tmap <> [] ->
  (In s (filter (fun s => forallb (fun x => has_relative tmap (make_registry tmap scans) s (relative (snd x))) tmap) (iter_steps (make_registry tmap scans))) <-> complete tmap scans s).
Proof.
  intros tmap scans s D NE. rewrite filter_In, forallb_forall. unfold iter_steps. rewrite nodup_In, in_map_iff. split.
  - intros (_ & F) p sp E. apply find_in in E; auto. apply F in E. cbn in E. apply has_relative_spec in E. auto.
  - intros C. split.
    + destruct tmap as [|(p & sp) t] eqn:T; [congruence|]. destruct (C p sp) as (i & a & sp' & H & _); [cbn; rewrite Nat.eqb_refl; auto|].
      destruct (made_entry tmap scans s i) as (_ & W). destruct W as (e & I & A & B); [eauto|]. exists e. rewrite <- T. auto.
    + intros (p & sp) I. cbn. apply has_relative_spec. apply (C p). apply find_in; auto.
Qed.

Lemma latest : forall tmap scans, NoDup (map fst tmap) -> tmap <> [] ->
  (forall s, get_latest_complete_step tmap (make_registry tmap scans) = Some s <-> complete tmap scans s /\ forall s', complete tmap scans s' -> (s' <= s)%Z) /\
  (get_latest_complete_step tmap (make_registry tmap scans) = None <-> forall s, ~ complete tmap scans s).
Proof.
  intros tmap scans D NE. assert (C := fun s => complete_in tmap scans s D NE). unfold get_latest_complete_step. destruct tmap as [|x t] eqn:T; [congruence|]. rewrite <- T in *. split.
  - intros s. rewrite max_spec, C. split; intros (A & B); split; auto; intros y Y; apply B, C; auto.
  - rewrite max_none. split.
    + intros E s H. apply C in H. rewrite E in H. auto.
    + intros H. destruct (filter _ _) as [|s l] eqn:E; auto. elim (H s). apply (proj1 (C s)). cbn. auto.
Qed.

(** ** The source *)

Lemma insert_perm : forall p l, Permutation (insert_peer p l) (p :: l).
Proof. intros p l. induction l as [|q l IH]; cbn; auto. destruct (replica_id p <? replica_id q)%Z; auto. rewrite IH. apply perm_swap. Qed.

Lemma sort_perm_gen : forall l acc, Permutation (fold_left (fun acc p => insert_peer p acc) l acc) (l ++ acc).
Proof. induction l as [|p l IH]; intros acc; cbn; auto. rewrite IH. rewrite (insert_perm p acc). symmetry. apply Permutation_middle. Qed.

Lemma sort_perm : forall l, Permutation (sort_peers l) l.
Proof. intros l. unfold sort_peers. rewrite sort_perm_gen, app_nil_r. auto. Qed.

Fixpoint ascending (l : list peer) : Prop := match l with [] => True | p :: r => (forall q, In q r -> (replica_id p <= replica_id q)%Z) /\ ascending r end.

Lemma insert_ascending : forall p l, ascending l -> ascending (insert_peer p l).
Proof.
  intros p l. induction l as [|q l IH]; cbn; [intros; split; [intros q []|auto]|]. intros (A & B). destruct (Z.ltb_spec (replica_id p) (replica_id q)) as [L|L].
  - cbn. split; [|auto]. intros r [->|I]; [lia|]. apply A in I. lia.
  - cbn. split; [|auto]. intros r I. apply (Permutation_in _ (insert_perm p l)) in I as [->|I]; auto.
Qed.

Lemma sort_ascending : forall l, ascending (sort_peers l).
Proof.
  intros l. unfold sort_peers. assert (W : forall acc, ascending acc -> ascending (fold_left (fun acc p => insert_peer p acc) l acc)); [|apply W; cbn; auto].
  induction l as [|p l IH]; intros acc H; cbn; auto. apply IH, insert_ascending. auto.
Qed.

Lemma ascending_nth : forall l k p, ascending l -> NoDup (map replica_id l) -> nth_error l k = Some p -> length (filter (fun q => Z.ltb (replica_id q) (replica_id p)) l) = k.
Proof.
  induction l as [|x l IH]; intros k p A D N; [destruct k; discriminate|]. destruct A as (A & B). cbn in D. inversion_clear D. cbn [filter]. destruct k as [|k]; cbn in N.
  - injection N as ->. rewrite Z.ltb_irrefl. assert (E : filter (fun q => (replica_id q <? replica_id p)%Z) l = []); [|rewrite E; auto]. clear - A. induction l as [|y l IH]; auto. cbn. destruct (Z.ltb_spec (replica_id y) (replica_id p)); [specialize (A y (or_introl eq_refl)); lia|]. apply IH. intros q I. apply A. cbn. auto.
  - assert (I : In p l) by (apply nth_error_In with k; auto). specialize (A p I). destruct (Z.ltb_spec (replica_id x) (replica_id p)); [cbn; f_equal; auto|]. elim H. replace (replica_id x) with (replica_id p) by lia. apply in_map. auto.
Qed.

Lemma candidate_in : forall tmap scans s rel p, In p (candidates tmap (make_registry tmap scans) s rel) <->
  exists e sp, In e (make_registry tmap scans) /\ l_step e = s /\ l_peer e = p /\ find (l_index e) tmap = Some sp /\ relative sp = rel.
Proof.
  intros tmap scans s rel p. unfold candidates, get_shard_map. rewrite in_map_iff. split.
  - intros (e & X & I). apply filter_In in I as (I & F). apply filter_In in I as (I & B). apply Z.eqb_eq in B. destruct (find (l_index e) tmap) as [sp|] eqn:E; [|discriminate]. apply Nat.eqb_eq in F. exists e, sp. auto.
  - intros (e & sp & I & S & X & F & R). exists e. split; auto. apply filter_In. split; [apply filter_In; split; auto; apply Z.eqb_eq; auto|]. rewrite F. apply Nat.eqb_eq. auto.
Qed.

Lemma source_sound : forall tmap scans s t p, get_source_peer tmap (make_registry tmap scans) s t = Some p ->
  last_holder scans (address p) (process_index p) s /\
  (process_index p = t \/ (forall a, ~ holds scans a t s) /\ exists sp sp', find t tmap = Some sp /\ find (process_index p) tmap = Some sp' /\ relative sp = relative sp').
Proof.
  intros tmap scans s t p H. unfold get_source_peer in H. destruct (get_peer _ s t) as [q|] eqn:G.
  - injection H as ->. apply get_peer_spec in G as (e & I & <- & <- & <-). destruct (made_peer tmap scans e I) as (A & B & _). rewrite A. auto.
  - assert (G2 := proj1 (get_peer_none tmap scans s t) G). clear G. rename G2 into G. destruct (find t tmap) as [sp|] eqn:F; [|discriminate]. apply nth_error_In in H. apply (Permutation_in _ (sort_perm _)) in H. apply candidate_in in H as (e & sp' & I & <- & <- & F' & R).
    destruct (made_peer tmap scans e I) as (A & B & _). rewrite A. split; [auto|]. right. split; auto. exists sp, sp'. auto.
Qed.

Lemma source_none : forall tmap scans s t, get_source_peer tmap (make_registry tmap scans) s t = None <->
  (forall a, ~ holds scans a t s) /\ (find t tmap = None \/ exists sp, find t tmap = Some sp /\ forall i, ~ shard_held tmap scans (relative sp) s i).
Proof.
  intros tmap scans s t. unfold get_source_peer. destruct (get_peer _ s t) as [q|] eqn:G.
  - split; [discriminate|]. intros (N & _). assert (N2 := proj2 (get_peer_none tmap scans s t) N). congruence.
  - assert (G2 := proj1 (get_peer_none tmap scans s t) G). clear G. rename G2 into G. destruct (find t tmap) as [sp|] eqn:F.
    + set (c := sort_peers _). split.
      * intros N. split; auto. right. exists sp. split; auto. intros i (a & sp' & H & F' & R). destruct (made_entry tmap scans s i) as (_ & W). destruct W as (e & I & A & B); [eauto|].
        assert (J : In (l_peer e) c). { apply (Permutation_in _ (Permutation_sym (sort_perm _))). apply candidate_in. exists e, sp'. rewrite B. auto. }
        apply nth_error_None in N. destruct c; [destruct J|]. assert (U := Nat.mod_upper_bound (replica sp) (length (p :: c))). cbn [length] in *. lia.
      * intros (_ & [X|(sp0 & X & H)]); [discriminate|]. injection X as <-. destruct c as [|p c'] eqn:E; [destruct (replica sp mod _); auto|]. assert (J : In p c) by (rewrite E; cbn; auto). subst c. apply (Permutation_in _ (sort_perm _)) in J.
        apply candidate_in in J as (e & sp' & I & A & _ & F' & R). destruct (made_entry tmap scans s (l_index e)) as (W & _). destruct W as (a & W); [exists e; auto|]. elim (H (l_index e)). exists a, sp'. auto.
    + split; auto.
Qed.

Lemma candidates_nodup : forall tmap scans s rel, (forall p q sp, find p tmap = Some sp -> find q tmap = Some sp -> p = q) -> NoDup (map replica_id (candidates tmap (make_registry tmap scans) s rel)) /\ NoDup (map process_index (candidates tmap (make_registry tmap scans) s rel)).
Proof.
  intros tmap scans s rel INJ. unfold candidates, get_shard_map. set (f := fun e => match find (l_index e) tmap with Some pl => relative pl =? rel | None => false end).
  assert (W : forall l, incl l (make_registry tmap scans) -> NoDup (map key l) -> NoDup (map replica_id (map l_peer (filter f (filter (fun e => (l_step e =? s)%Z) l)))) /\ NoDup (map process_index (map l_peer (filter f (filter (fun e => (l_step e =? s)%Z) l))))).
  { induction l as [|e l IH]; intros IN D; cbn; [split; constructor|]. cbn in D. inversion_clear D. assert (IN' : incl l (make_registry tmap scans)) by (intros x X; apply IN; cbn; auto). destruct (IH IN' H0) as (A & B).
    destruct (Z.eqb_spec (l_step e) s) as [S|S]; auto. cbn. destruct (f e) eqn:F; auto. cbn.
    assert (Q : forall e', In e' (filter f (filter (fun e => (l_step e =? s)%Z) l)) -> l_index e' <> l_index e).
    { intros e' I X. apply filter_In in I as (I & _). apply filter_In in I as (I & T). apply Z.eqb_eq in T. apply H. replace (key e) with (key e') by (unfold key; congruence). apply in_map. auto. }
    destruct (made_peer tmap scans e (IN e ltac:(cbn; auto))) as (P1 & _ & P3).
    split; constructor; auto; intros I; apply in_map_iff in I as (p & X & I); apply in_map_iff in I as (e' & <- & I); assert (I0 := I); apply filter_In in I as (I & F'); apply filter_In in I as (I & _); destruct (made_peer tmap scans e' (IN' e' I)) as (P1' & _ & P3').
    - unfold f in F, F'. destruct (find (l_index e) tmap) as [sp|] eqn:E; [|discriminate]. destruct (find (l_index e') tmap) as [sp'|] eqn:E'; [|discriminate]. apply Nat.eqb_eq in F, F'. rewrite (P3 _ eq_refl), (P3' _ eq_refl) in X. apply Nat2Z.inj in X.
      apply (Q e' I0). apply (INJ _ _ sp'); auto. rewrite E. f_equal. destruct sp, sp'; cbn in *. congruence.
    - apply (Q e' I0). congruence. }
  apply W; [apply incl_refl|]. apply (made_in tmap scans (mk_entry 0 0 (mk_peer 0 0 [] 0))).
Qed.

(** The choice: as many holders in replicas before the chosen one as the replica of the target, modulo the
    number of holders. *)
Lemma spread : forall tmap scans s t p sp is, (forall p q sp, find p tmap = Some sp -> find q tmap = Some sp -> p = q) ->
  get_source_peer tmap (make_registry tmap scans) s t = Some p -> process_index p <> t -> find t tmap = Some sp ->
  NoDup is -> (forall i, In i is <-> shard_held tmap scans (relative sp) s i) ->
  exists sp', find (process_index p) tmap = Some sp' /\
    length (filter (fun i => match find i tmap with Some x => replica x <? replica sp' | None => false end) is) = replica sp mod length is.
Proof.
  intros tmap scans s t p sp is INJ G NT F ND IS. unfold get_source_peer in G. destruct (get_peer _ s t) as [q|] eqn:GP.
  - injection G as ->. apply get_peer_spec in GP as (e & I & _ & X & <-). destruct (made_peer tmap scans e I) as (A & _). congruence.
  - rewrite F in G. set (c := candidates tmap (make_registry tmap scans) s (relative sp)) in *. cbn zeta in G.
    destruct (candidates_nodup tmap scans s (relative sp) INJ) as (D1 & D2). fold c in D1, D2.
    assert (PM : Permutation (map process_index c) is).
    { apply NoDup_Permutation; auto. intros i. rewrite IS, in_map_iff. split.
      - intros (q & <- & I). apply candidate_in in I as (e & sp' & I & S & <- & F' & R). destruct (made_peer tmap scans e I) as (A & (B & _) & _). exists (address (l_peer e)), sp'. rewrite A, <- S. auto.
      - intros (a & sp' & H & F' & R). destruct (made_entry tmap scans s i) as (_ & W). destruct W as (e & I & A & B); [eauto|]. exists (l_peer e). destruct (made_peer tmap scans e I) as (P1 & _). split; [congruence|]. apply candidate_in. exists e, sp'. rewrite B. auto. }
    assert (PS := sort_perm c). assert (LEN : length (sort_peers c) = length is) by (rewrite (Permutation_length PS), <- (Permutation_length PM), map_length; auto).
    assert (IP : In p c) by (apply (Permutation_in _ PS); eapply nth_error_In; eauto).
    assert (RP : forall q, In q c -> exists sp', find (process_index q) tmap = Some sp' /\ replica_id q = Z.of_nat (replica sp')).
    { intros q I. apply candidate_in in I as (e & sp' & I & S & <- & F' & R). destruct (made_peer tmap scans e I) as (A & _ & B). exists sp'. rewrite A. auto. }
    destruct (RP p IP) as (sp' & Fp & Rp). exists sp'. split; auto.
    rewrite <- LEN. rewrite <- (ascending_nth _ (replica sp mod length (sort_peers c)) p (sort_ascending c)); auto.
    2: { apply Permutation_NoDup with (map replica_id c); auto. apply Permutation_map, Permutation_sym. auto. }
    assert (W : forall l, incl l c -> length (filter (fun q => (replica_id q <? replica_id p)%Z) l) = length (filter (fun i => match find i tmap with Some x => replica x <? replica sp' | None => false end) (map process_index l))).
    { induction l as [|q l IH]; auto. intros IN. cbn [filter map]. destruct (RP q (IN q ltac:(cbn; auto))) as (x & Fx & Rx). rewrite Fx, Rx, Rp. specialize (IH ltac:(intros y Y; apply IN; cbn; auto)).
      destruct (Z.ltb_spec (Z.of_nat (replica x)) (Z.of_nat (replica sp'))), (Nat.ltb_spec (replica x) (replica sp')); try lia; cbn [length]; rewrite ?Rp in IH; rewrite ?IH; auto. }
    assert (FP : forall {A} (f : A -> bool) l l', Permutation l l' -> length (filter f l) = length (filter f l')).
    { intros A f l l' H. induction H; cbn; auto; [destruct (f x); cbn; auto|destruct (f x), (f y); cbn; auto|congruence]. }
    rewrite (FP _ _ _ _ PS), (W c (incl_refl c)). symmetry. apply FP. auto.
Qed.

(** ** Positions *)

Lemma rank_pattern : forall devs devs' j, same_pattern devs devs' -> first_at devs j = first_at devs' j.
Proof.
  intros devs devs' j (L & P). unfold first_at. destruct (nth_error devs j) as [d|] eqn:D.
  - destruct (nth_error devs' j) as [d'|] eqn:D'; [|apply nth_error_None in D'; assert (j < length devs) by (apply nth_error_Some; congruence); lia]. f_equal.
    apply eq_true_iff_eq. rewrite !existsb_exists. split; intros (e & I & E); apply Nat.eqb_eq in E; apply In_nth_error in I as (i & I); rewrite nth_firstn in I; destruct (Nat.ltb_spec i j); try discriminate.
    + destruct (nth_error devs' i) as [e'|] eqn:E'; [|apply nth_error_None in E'; assert (i < length devs) by (apply nth_error_Some; congruence); lia].
      exists e'. split; [apply nth_error_In with i; rewrite nth_firstn; destruct (Nat.ltb_spec i j); [auto|lia]|]. apply Nat.eqb_eq. apply (P i j e d e' d'); auto.
    + destruct (nth_error devs i) as [e'|] eqn:E'; [|apply nth_error_None in E'; assert (i < length devs') by (apply nth_error_Some; congruence); lia].
      exists e'. split; [apply nth_error_In with i; rewrite nth_firstn; destruct (Nat.ltb_spec i j); [auto|lia]|]. apply Nat.eqb_eq. apply (P i j e' d e d'); auto.
  - destruct (nth_error devs' j) as [d'|] eqn:D'; auto. apply nth_error_None in D. assert (j < length devs') by (apply nth_error_Some; congruence). lia.
Qed.

Lemma rank_mono : forall devs i j, i < j -> first_at devs i = true -> rank devs i < rank devs j.
Proof.
  intros devs i j L F. unfold rank. replace j with (i + (1 + (j - i - 1))) by lia. rewrite seq_app, filter_app, app_length. cbn [seq plus]. cbn [filter]. rewrite F. cbn [length]. lia.
Qed.

Lemma same_positions : forall devs devs' p q k, same_pattern devs devs' -> shard_of devs p k -> shard_of devs' q k -> forall j, has_position devs p j <-> has_position devs' q j.
Proof.
  intros devs devs' p q k PT (i & d & D & <- & F & R) (i' & d' & D' & <- & F' & R') j. assert (RK : forall x, rank devs x = rank devs' x). { intros x. unfold rank. f_equal. apply filter_ext. intros y. apply rank_pattern. auto. }
  assert (i = i') as <-. { rewrite <- (rank_pattern devs devs') in F' by auto. rewrite <- RK in R'. destruct (Nat.lt_trichotomy i i') as [L|[L|L]]; auto; [assert (Q := rank_mono devs i i' L F)|assert (Q := rank_mono devs i' i L F')]; lia. }
  destruct PT as (L & P). unfold has_position. split; intros (e & E & X).
  - destruct (nth_error devs' j) as [e'|] eqn:E'; [|apply nth_error_None in E'; assert (j < length devs) by (apply nth_error_Some; congruence); lia]. exists e'. split; auto. apply (P j i e d e' d'); auto.
  - destruct (nth_error devs j) as [e'|] eqn:E'; [|apply nth_error_None in E'; assert (j < length devs') by (apply nth_error_Some; congruence); lia]. exists e'. split; auto. apply (P j i e' d e d'); auto.
Qed.

(** ** Restoring *)

Lemma gather_same : forall c n, gather (repeat c n) = repeat [] n.
Proof.
  intros c [|n]; auto. cbn. revert n. induction c as [|e c IH]; intros n; cbn.
  - clear. f_equal. 
  - assert (F : forallb (attends e) (repeat (e :: c) n) = true). { apply forallb_forall. intros x I. apply repeat_spec in I as ->. cbn. destruct e; auto. }
    rewrite F. assert (M : map (@tl meeting) (repeat (e :: c) n) = repeat c n). { clear. induction n; cbn; congruence. } rewrite M. apply IH.
Qed.

Definition is_some (o : option origin) : bool := match o with Some _ => true | None => false end.

Lemma map_repeat : forall {A B} (f : A -> B) y l, (forall x, In x l -> f x = y) -> map f l = repeat y (length l).
Proof. intros A B f y l. induction l as [|x l IH]; cbn; auto. intros H. rewrite H by auto. f_equal. auto. Qed.

Lemma gather_mixed : forall v tried, In None tried -> (exists x, In (Some x) tried) -> gather (map (course v) tried) = map (course v) tried.
Proof.
  intros v [|t rest] N (x & S); [destruct N|]. cbn [map gather]. destruct t as [y|].
  - destruct N as [N|N]; [discriminate|]. cbn [course app gather_with]. replace (forallb (attends Barrier) (map (course v) rest)) with false; auto. symmetry. apply not_true_iff_false. intros F. rewrite forallb_forall in F. specialize (F (course v None) (in_map _ _ _ N)). destruct v; discriminate.
  - destruct S as [S|S]; [discriminate|]. destruct v; cbn [course app gather_with]; auto. replace (forallb (attends Vote) (map (course true) rest)) with false; auto. symmetry. apply not_true_iff_false. intros F. rewrite forallb_forall in F. specialize (F _ (in_map (course true) _ _ S)). discriminate.
Qed.

Lemma combine_repeat : forall {A B} (x : A) (l : list B) n, n = length l -> combine (repeat x n) l = map (pair x) l.
Proof. intros A B x l. induction l as [|y l IH]; intros n ->; cbn; auto. f_equal. auto. Qed.

Lemma combine_self : forall {A B} (f : A -> B) l, combine (map f l) l = map (fun x => (f x, x)) l.
Proof. intros A B f l. induction l; cbn; congruence. Qed.

Definition from_storage (persistent : option (list Z)) (s : Z) : outcome :=
  match persistent with Some l => if existsb (Z.eqb s) l then Returns FromPersistent else Raises FileNotFoundError | None => Raises FileNotFoundError end.

Definition source_step (tmap : list (nat * spot)) (reg : list entry) (step : option Z) : option Z := match step with Some s => Some s | None => get_latest_complete_step tmap reg end.

Lemma restore_cases : forall disks network tmap reg persistent step s, 
  match source_step tmap reg step with Some x => Some x | None => max_or_none (match persistent with Some l => l | None => [] end) end = Some s ->
  let tried := attempts disks network tmap reg (source_step tmap reg step) in
  exists outs, restore disks network tmap reg persistent step = (Some s, outs) /\
  ((~ In None tried /\ outs = map finish tried) \/
   ((forall x, ~ In (Some x) tried) /\ outs = repeat (from_storage persistent s) (length disks)) \/
   (In None tried /\ (exists x, In (Some x) tried) /\ outs = map (fun o => if (match persistent with Some _ => true | None => is_some o end) then Waits else Raises FileNotFoundError) tried)).
Proof.
  intros disks network tmap reg persistent step s E tried. unfold restore. fold (source_step tmap reg step). rewrite E. fold tried. eexists. split; [reflexivity|].
  set (v := match persistent with Some _ => true | None => false end). set (nf := existsb _ tried).
  assert (LT : length tried = length disks). { unfold tried, attempts. rewrite map_length. unfold enumerate. generalize 0 as k. induction disks as [|d ds IH]; intros k; cbn; auto. }
  destruct (in_dec (fun a b : option origin => ltac:(repeat decide equality)) None tried) as [N|N].
  - assert (NF : nf = true) by (apply existsb_exists; exists None; auto). rewrite NF. destruct (existsb is_some tried) eqn:S.
    + right. right. apply existsb_exists in S as ([x|] & S & W); [|discriminate]. split; auto. split; [eauto|]. rewrite gather_mixed by eauto. rewrite combine_self, map_map. apply map_ext_in. intros o I. unfold v. destruct o, persistent; reflexivity.
    + right. left. assert (SN : forall x, ~ In (Some x) tried). { intros x I. assert (existsb is_some tried = true); [|congruence]. apply existsb_exists. exists (Some x). auto. } split; auto.
      rewrite (map_repeat (course v) (course v None)) by (intros [x|] I; [elim (SN x I)|auto]). rewrite gather_same, combine_repeat, map_map by auto. rewrite <- LT. apply map_repeat. intros [x|] I; [elim (SN x I)|]. cbn. destruct persistent; auto.
  - left. split; auto. assert (NF : nf = false). { apply not_true_iff_false. intros X. apply existsb_exists in X as ([x|] & I & W); [discriminate|auto]. } rewrite NF.
    rewrite (map_repeat (course v) (Barrier :: if v then [Vote] else [])) by (intros [x|] I; [auto|elim (N I)]). rewrite gather_same, combine_repeat, map_map by auto. apply map_ext. intros o. cbn. destruct persistent; auto.
Qed.

Lemma detect_owned : forall disk i s, Forall (fun x => s_owner x = Some i) disk -> (In s (map s_step disk) -> detect_process_index disk s = Some i) /\ (~ In s (map s_step disk) -> detect_process_index disk s = None).
Proof.
  intros disk i s F. induction disk as [|x disk IH]; cbn; [tauto|]. apply Forall_cons_iff in F as (X & F). destruct (Z.eqb_spec (s_step x) s) as [E|E]; [tauto|]. destruct (IH F) as (A & B). split; [intros [H|H]; [congruence|auto]|tauto].
Qed.

Lemma scan_owned : forall disk i, Forall (fun x => s_owner x = Some i) disk -> scan_stored_steps disk = Ok (match disk with [] => (None, []) | _ => (Some i, map s_step disk) end).
Proof.
  intros disk i F. destruct disk as [|x disk]; auto. unfold scan_stored_steps. destruct (detect_owned (x :: disk) i (s_step (last (x :: disk) x)) F) as (A & _). rewrite A; auto. apply in_map. clear. generalize x at 1 3. induction disk as [|y l IH]; intros z; cbn; auto. right. apply (IH y).
Qed.

Lemma owned_in : forall disk i j s, Forall (fun x => s_owner x = Some i) disk -> (In (mk_stored s (Some j)) disk <-> j = i /\ In s (map s_step disk)).
Proof.
  intros disk i j s F. rewrite Forall_forall in F. split.
  - intros I. split; [specialize (F _ I); cbn in F; congruence|]. change s with (s_step (mk_stored s (Some j))). apply in_map. auto.
  - intros (-> & I). apply in_map_iff in I as ([s' o] & <- & I). specialize (F _ I). cbn in *. congruence.
Qed.

Lemma Forall2_nth : forall {A B} (R : A -> B -> Prop) l m, Forall2 R l m -> length l = length m /\ forall k x y, nth_error l k = Some x -> nth_error m k = Some y -> R x y.
Proof.
  intros A B R l m H. induction H as [|x y l m HR H (L & N)]; cbn; [split; auto; intros [|]; discriminate|]. split; [auto|]. intros [|k] a b X Y; cbn in *; [congruence|eauto].
Qed.

Lemma holds_disk : forall disks scans, Forall one_owner disks -> sequence (map scan_stored_steps disks) = Ok scans -> length scans = length disks /\ forall a i s, holds scans a i s <-> on_disk disks a i s.
Proof.
  intros disks scans O S. apply sequence_ok in S. destruct (Forall2_nth _ _ _ S) as (L & N). split; auto. intros a i s. rewrite Forall_forall in O. split.
  - intros (l & X & I). destruct (nth_error disks a) as [disk|] eqn:D; [|apply nth_error_None in D; assert (a < length scans) by (apply nth_error_Some; congruence); lia].
    exists disk. split; auto. specialize (N a disk _ D X). destruct (O disk (nth_error_In _ _ D)) as (j & F). rewrite (scan_owned disk j F) in N. apply (owned_in disk j); auto. destruct disk as [|y disk]; [congruence|]. injection N as -> <-. auto.
  - intros (disk & D & I). destruct (nth_error scans a) as [y|] eqn:X; [|apply nth_error_None in X; assert (a < length disks) by (apply nth_error_Some; congruence); lia].
    specialize (N a disk y D X). destruct (O disk (nth_error_In _ _ D)) as (j & F). rewrite (scan_owned disk j F) in N. apply (owned_in disk j) in I as (-> & I); auto. destruct disk as [|z disk]; [destruct I|]. injection N as <-. exists (map s_step (z :: disk)). auto.
Qed.

Lemma sync_ok : forall disks m axis n, proper m -> nth_error (shape m) axis = Some n -> 2 <= length (shape m) -> Forall one_owner disks ->
  exists tmap scans, sequence (map scan_stored_steps disks) = Ok scans /\ build_topology_map m axis = Ok tmap /\ sync_registry disks m axis = Ok (tmap, make_registry tmap scans).
Proof.
  intros disks m axis n P N L O. destruct (topology m axis n P N L) as (tmap & T & _). unfold sync_registry. rewrite T. destruct (sequence (map scan_stored_steps disks)) as [scans|e] eqn:S; [exists tmap, scans; auto|].
  apply sequence_err in S as (disk & I & E). rewrite Forall_forall in O. destruct (O disk I) as (i & F). rewrite (scan_owned disk i F) in E. discriminate.
Qed.

Lemma serve_ok : forall disks a i s, Forall one_owner disks -> on_disk disks a i s -> serves disks a s i = true.
Proof.
  intros disks a i s O (disk & D & I). unfold serves. rewrite D. rewrite Forall_forall in O. destruct (O disk (nth_error_In _ _ D)) as (j & F). destruct (proj1 (owned_in disk j i s F) I) as (EQ & I2). rewrite EQ. destruct (detect_owned disk j s F) as (A & _). rewrite A by auto. apply Nat.eqb_refl.
Qed.

Lemma enumerate_nth : forall {A} (l : list A) k a, nth_error (enumerate_from k l) a = option_map (pair (k + a)) (nth_error l a).
Proof. induction l as [|x l IH]; intros k [|a]; cbn; auto; [rewrite Nat.add_0_r; auto|]. rewrite IH. destruct (nth_error l a); cbn; auto. do 2 f_equal. lia. Qed.

Lemma nth_attempts : forall disks network tmap reg s a, nth_error (attempts disks network tmap reg (Some s)) a = option_map (fun disk => try_restore disks network tmap reg a disk s) (nth_error disks a).
Proof. intros. unfold attempts. rewrite nth_error_map. unfold enumerate. rewrite enumerate_nth. destruct (nth_error disks a); auto. Qed.

Lemma try_ok : forall disks network tmap scans s me disk sp, Forall one_owner disks -> sequence (map scan_stored_steps disks) = Ok scans -> (forall a b, network a b = true) ->
  complete tmap scans s -> nth_error disks me = Some disk -> find me tmap = Some sp ->
  exists o, try_restore disks network tmap (make_registry tmap scans) me disk s = Some o /\ rightful tmap disks me s (Returns o).
Proof.
  intros disks network tmap scans s me disk sp O S NW C D F. destruct (holds_disk disks scans O S) as (_ & H). unfold try_restore. destruct (get_source_peer tmap (make_registry tmap scans) s me) as [p|] eqn:G.
  - assert (O' := O). rewrite Forall_forall in O'. destruct (O' disk (nth_error_In _ _ D)) as (i & OW). unfold restore_from_local_or_p2p, local_all_steps. rewrite (scan_owned disk i OW). cbn [rmap rbind].
    assert (P : exists o, (match get_source_peer tmap (make_registry tmap scans) s me with None => Err FileNotFoundError | Some p => if network me (address p) && serves disks (address p) s (process_index p) then Ok (FromPeer (address p) (process_index p)) else Err FileNotFoundError end) = Ok o /\ rightful tmap disks me s (Returns o)).
    { rewrite G, NW. destruct (source_sound tmap scans s me p G) as ((A & _) & B). apply H in A. rewrite (serve_ok disks _ _ s O A). cbn. eexists. split; [reflexivity|]. cbn. split; auto. destruct B as [->|(_ & x & y & X & Y & R)]; eauto. }
    destruct disk as [|x disk].
    + cbn. destruct P as (o & -> & R). eauto.
    + cbn [fst snd]. destruct (Nat.eqb_spec i me) as [->|].
      * destruct (existsb (Z.eqb s) (map s_step (x :: disk))) eqn:E.
        -- apply existsb_exists in E as (y & I & Y). apply Z.eqb_eq in Y as <-. destruct (detect_owned (x :: disk) me s OW) as (A & _). rewrite A by auto. rewrite Nat.eqb_refl. eexists. split; [reflexivity|]. cbn [rightful]. exists (x :: disk). split; auto. apply (owned_in (x :: disk) me); auto.
        -- destruct P as (o & -> & R). eauto.
      * cbn [existsb]. destruct P as (o & -> & R). eauto.
  - exfalso. apply source_none in G as (_ & [X|(sp0 & X & Y)]); [congruence|]. rewrite F in X. injection X as <-. destruct (C me sp F) as (i & I). apply (Y i I).
Qed.

Lemma complete_disks : forall tmap disks scans s, Forall one_owner disks -> sequence (map scan_stored_steps disks) = Ok scans -> (complete_on_disks tmap disks s <-> complete tmap scans s).
Proof.
  intros tmap disks scans s O S. destruct (holds_disk disks scans O S) as (_ & H). unfold complete_on_disks, complete, shard_held. split.
  - intros C p sp F. destruct (C p sp F) as (a & i & sp' & A & B & R). exists i, a, sp'. split; [apply H; auto|auto].
  - intros C p sp F. destruct (C p sp F) as (i & a & sp' & A & B & R). exists a, i, sp'. split; [apply H; auto|auto].
Qed.

(** ** Fetching in the background *)

Lemma restores_others : forall works l f, (forall s, In s l -> s <> bkg_step f) -> restores works l f = map (fun s => if works s then Ok s else Err FileNotFoundError) l.
Proof.
  intros works l. induction l as [|s l IH]; intros f H; auto. cbn [restores map]. unfold restore_from_peers, fetch. destruct (Z.eqb_spec s (bkg_step f)) as [E|E]; [elim (H s); cbn; auto|].
  rewrite IH by (cbn; intros x X; apply H; cbn; auto). f_equal. destruct (works s); auto. cbn [restore_dir existsb]. rewrite Z.eqb_refl. auto.
Qed.
