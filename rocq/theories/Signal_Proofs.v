(** Proofs for C33. *)
From Coq Require Import List Bool Arith NArith String Ascii Lia.
From Verif Require Import Base StepName_Model StepName_Proofs Signal_Model Signal_Spec.
Import ListNotations.

Ltac spl := repeat match goal with |- _ /\ _ => split end.

(** ** Strings *)
Lemma app_nil : forall s, (s ++ "")%string = s.
Proof. induction s; simpl; congruence. Qed.
Lemma app_assoc' : forall a b c, ((a ++ b) ++ c)%string = (a ++ b ++ c)%string.
Proof. induction a; simpl; intros; congruence. Qed.
Lemma app_inv_l : forall a b c, (a ++ b)%string = (a ++ c)%string -> b = c.
Proof. induction a; simpl; intros b c H; auto. injection H; auto. Qed.

Lemma prefix_spec : forall k f, String.prefix k f = true <-> begins k f.
Proof.
  induction k as [|c k IH]; intros f.
  - split; [intros _; exists f; auto|destruct f; auto].
  - destruct f as [|c' f]; [split; [discriminate|intros [r H]; discriminate]|].
    cbn [String.prefix]. destruct (ascii_dec c c') as [->|N].
    + rewrite IH. split; intros [r H]; exists r; simpl; [congruence|injection H; auto].
    + split; [discriminate|]. intros [r H]. simpl in H. congruence.
Qed.

Lemma ends_slash_spec : forall k, ends_slash k = true <-> is_directory k.
Proof.
  induction k as [|c k IH].
  - split; [discriminate|]. intros [r H]. destruct r; discriminate.
  - destruct k as [|c' k].
    + cbn [ends_slash]. rewrite Ascii.eqb_eq. split; [intros ->; exists ""%string; auto|]. intros [r H]. destruct r as [|d r]; simpl in H; [congruence|]. destruct r; discriminate.
    + cbn [ends_slash] in *. rewrite IH. split; intros [r H].
      * exists (String c r). simpl. rewrite <- H. auto.
      * destruct r as [|d r]; simpl in H; [discriminate|]. exists r. congruence.
Qed.

Lemma las_app' : forall a b, list_ascii_of_string (a ++ b)%string = (list_ascii_of_string a ++ list_ascii_of_string b)%list.
Proof. exact las_app. Qed.

(** ** The dictionary *)
Lemma get_in : forall d k, get k d <> None <-> In k (map fst d).
Proof.
  induction d as [|[k' v] d IH]; intros k; simpl; [tauto|]. destruct (String.eqb_spec k k') as [->|N].
  - split; auto. discriminate.
  - rewrite IH. split; auto. intros [H|H]; auto. congruence.
Qed.
Lemma get_none : forall d k, get k d = None <-> ~ In k (map fst d).
Proof. intros d k. rewrite <- get_in. destruct (get k d); split; try tauto; try congruence. intros H. exfalso. apply H. discriminate. Qed.

Lemma get_put : forall d k v x, get x (put k v d) = if String.eqb x k then Some v else get x d.
Proof.
  induction d as [|[k' v'] d IH]; intros k v x; simpl; auto.
  destruct (String.eqb_spec k k') as [->|N]; simpl.
  - destruct (String.eqb x k'); auto.
  - rewrite IH. destruct (String.eqb_spec x k') as [->|M]; auto. destruct (String.eqb_spec k' k); congruence.
Qed.
Lemma put_keys : forall d k v x, In x (map fst (put k v d)) <-> x = k \/ In x (map fst d).
Proof. intros d k v x. rewrite <- !get_in, get_put. destruct (String.eqb_spec x k); split; auto; try tauto; try discriminate. Qed.
Lemma nodup_put : forall d k v, NoDup (map fst d) -> NoDup (map fst (put k v d)).
Proof.
  induction d as [|[k' v'] d IH]; intros k v ND; simpl; [repeat constructor; auto|]. inversion ND; subst.
  destruct (String.eqb_spec k k') as [->|N]; simpl; auto. constructor; auto. rewrite put_keys. intros [H|H]; auto.
Qed.
Lemma get_del : forall d k x, NoDup (map fst d) -> get x (del k d) = if String.eqb x k then None else get x d.
Proof.
  induction d as [|[k' v'] d IH]; intros k x ND; simpl; [destruct (String.eqb x k); auto|]. inversion ND as [|? ? NI ND']; subst.
  destruct (String.eqb_spec k k') as [->|N]; simpl.
  - destruct (String.eqb_spec x k') as [->|M]; auto. apply get_none; auto.
  - rewrite IH by auto. destruct (String.eqb_spec x k') as [->|M]; auto. destruct (String.eqb_spec k' k); congruence.
Qed.
Lemma del_keys : forall d k x, In x (map fst (del k d)) -> In x (map fst d).
Proof. induction d as [|[k' v'] d IH]; simpl; intros k x H; auto. destruct (String.eqb k k'); simpl in *; auto. destruct H; eauto. Qed.
Lemma nodup_del : forall d k, NoDup (map fst d) -> NoDup (map fst (del k d)).
Proof.
  induction d as [|[k' v'] d IH]; intros k ND; simpl; auto. inversion ND; subst. destruct (String.eqb k k'); simpl; auto. constructor; auto. intros H. apply del_keys in H. auto.
Qed.
Lemma nodup_dels : forall ks d, NoDup (map fst d) -> NoDup (map fst (fold_left (fun d x => del x d) ks d)).
Proof. induction ks; simpl; intros; auto. apply IHks. apply nodup_del; auto. Qed.
Lemma get_dels : forall ks d x, NoDup (map fst d) -> get x (fold_left (fun d x => del x d) ks d) = if existsb (String.eqb x) ks then None else get x d.
Proof.
  induction ks as [|k ks IH]; simpl; intros d x ND; auto. rewrite IH by (apply nodup_del; auto). rewrite get_del by auto. destruct (String.eqb x k), (existsb (String.eqb x) ks); auto.
Qed.

Lemma below_spec : forall k d x, In x (below k d) <-> In x (map fst d) /\ begins k x.
Proof.
  intros k d x. unfold below. rewrite filter_In, orb_true_iff, prefix_spec. split; intros [A B]; split; auto. destruct B as [B|B]; auto. apply String.eqb_eq in B as ->. exists ""%string. rewrite app_nil. auto.
Qed.
Lemma existsb_eq : forall x l, existsb (String.eqb x) l = true <-> In x l.
Proof. intros x l. rewrite existsb_exists. split; [intros (y & A & B); apply String.eqb_eq in B as ->; auto|]. intros H. exists x. rewrite String.eqb_refl. auto. Qed.

Lemma nodup_delete : forall k d, NoDup (map fst d) -> NoDup (map fst (key_value_delete k d)).
Proof. intros k d ND. unfold key_value_delete. destruct (ends_slash k); [apply nodup_dels; auto|]. destruct (get k d); auto. apply nodup_del; auto. Qed.

Lemma delete_dir : forall k d x, NoDup (map fst d) -> is_directory k ->
  (begins k x -> get x (key_value_delete k d) = None) /\ (~ begins k x -> get x (key_value_delete k d) = get x d).
Proof.
  intros k d x ND D. apply ends_slash_spec in D. unfold key_value_delete. rewrite D, get_dels by auto. split; intros B.
  - destruct (existsb (String.eqb x) (below k d)) eqn:E; auto. apply get_none. intros I.
    assert (In x (below k d)) by (apply below_spec; auto). apply existsb_eq in H. congruence.
  - destruct (existsb (String.eqb x) (below k d)) eqn:E; auto. apply existsb_eq, below_spec in E as [_ E]. contradiction.
Qed.

Lemma delete_key : forall k d, NoDup (map fst d) -> ~ is_directory k -> updated (view d) k None (view (key_value_delete k d)).
Proof.
  intros k d ND D. unfold updated, view, key_value_delete. destruct (ends_slash k) eqn:E; [apply ends_slash_spec in E; contradiction|].
  destruct (get k d) eqn:G; split; auto.
  - rewrite get_del, String.eqb_refl; auto.
  - intros x N. rewrite get_del by auto. destruct (String.eqb_spec x k); congruence.
Qed.

Lemma nodup_set : forall k v w d, NoDup (map fst d) -> NoDup (map fst (snd (key_value_set k v w d))).
Proof. intros k v w d ND. unfold key_value_set. destruct (get k d); [destruct w|]; simpl; auto; apply nodup_put; auto. Qed.

Lemma set_does : forall k v w d, does (view d) (OSet k v w) (RUnit (fst (key_value_set k v w d))) (view (snd (key_value_set k v w d))).
Proof.
  intros k v w d. unfold key_value_set.
  assert (U : updated (view d) k (Some v) (view (put k v d))). { split; unfold view; [rewrite get_put, String.eqb_refl; auto|]. intros x N. rewrite get_put. destruct (String.eqb_spec x k); congruence. }
  destruct (get k d) as [o|] eqn:G; [destruct w|]; simpl.
  - constructor; auto.
  - constructor. unfold view. congruence.
  - constructor; auto.
Qed.

(** ** Histories *)
Lemma does_ext : forall m1 o r m2 m, does m1 o r m2 -> (forall k, m1 k = m k) -> exists m3, does m o r m3 /\ forall k, m2 k = m3 k.
Proof.
  intros m1 o r m2 m D E. inversion D; subst.
  - exists m2. split; auto. constructor; [rewrite <- E; auto|]. destruct H0 as [A B]. split; auto. intros x N. rewrite <- E. auto.
  - exists m. split; auto. constructor. rewrite <- E. auto.
  - exists m. split; auto. rewrite E. constructor.
  - exists m2. split; auto. constructor; auto. destruct H0 as [A B]. split; auto. intros x N. rewrite <- E. auto.
  - exists m2. split; auto. apply does_delete_directory; auto. intros x N. rewrite <- E. auto.
  - exists m. split; auto. constructor; auto. intros x v. rewrite <- E. auto.
  - exists m. split; auto. constructor; auto.
  - exists m. split; auto. constructor. rewrite <- E. auto.
  - exists m. split; auto. constructor. rewrite <- E. auto.
  - exists m. split; auto. constructor.
Qed.

Lemma legal_snoc : forall m h m1 o r m2, legal m h m1 -> does m1 o r m2 -> legal m (h ++ [(o, r)]) m2.
Proof.
  intros m h m1 o r m2 L. revert m2. induction L as [m m' E|m o' r' ma h mb D' L IH]; intros m2 D; simpl.
  - destruct (does_ext _ _ _ _ m D) as (m3 & D3 & E3); auto. econstructor; eauto. constructor. auto.
  - econstructor; eauto.
Qed.

Lemma legal_ext : forall m h m1 m2, legal m h m1 -> (forall k, m2 k = m1 k) -> legal m h m2.
Proof. intros m h m1 m2 L E. induction L; [constructor; intros; rewrite E; auto|econstructor; eauto]. Qed.

(** ** Threads *)
Lemma len_set : forall (A : Type) (l : list A) i v, List.length (set_nth i v l) = List.length l.
Proof. induction l; destruct i; simpl; auto. Qed.
Lemma nth_set : forall (A : Type) (l : list A) i j v, nth_error (set_nth i v l) j = if Nat.eqb i j then (match nth_error l j with Some _ => Some v | None => None end) else nth_error l j.
Proof. induction l as [|a l IH]; intros i j v; destruct i, j; simpl; auto. destruct (Nat.eqb i j); auto. Qed.
Lemma play_app : forall a b st, play st (a ++ b) = match play st a with Some st' => play st' b | None => None end.
Proof. induction a; simpl; intros; auto. destruct (step st a); auto. Qed.
Lemma play_last : forall es e st st', play st (es ++ [e]) = Some st' -> exists s, play st es = Some s /\ step s e = Some st'.
Proof. intros es e st st' H. rewrite play_app in H. destruct (play st es) as [s|]; [|discriminate]. exists s. simpl in H. destruct (step s e); auto. Qed.

(** What a thread in the middle of something knows. *)
Definition knows (d : data) (p : pending) : Prop :=
  match p with
  | Idle => True
  | Waiting k n => n = false -> get k d = None
  | Fetching k todo got => is_directory k /\ exists done, below k d = done ++ todo /\ Forall2 (fun x kv => fetch d x = Ok kv) done got
  end.
Definition knows_wait (d : data) (p : pending) : Prop := match p with Waiting k n => n = false -> get k d = None | _ => True end.

Lemma set_nth_all : forall (P : pending -> Prop) t p l, (forall q, In q l -> P q) -> P p -> forall q, In q (set_nth t p l) -> P q.
Proof. intros P t p l. revert t. induction l as [|a l IH]; intros t A B q I; destruct t; simpl in *; auto; destruct I as [<-|I]; auto. eapply IH; eauto. Qed.
Lemma nth_set_all : forall (P : pending -> Prop) t p l, (forall q, In q l -> P q) -> P p -> forall q, In q (set_nth t p l) -> P q.
Proof. exact set_nth_all. Qed.

Lemma fetch_list : forall d ks got, Forall2 (fun x kv => fetch d x = Ok kv) ks got -> map fst got = ks /\ forall x v, In (x, v) got <-> In x ks /\ get x d = Some v.
Proof.
  intros d ks got F. induction F as [|x [y v] ks got E F [IH1 IH2]]; simpl; [split; auto; intros; tauto|].
  unfold fetch in E. destruct (get x d) as [w|] eqn:G; [|discriminate]. injection E as -> ->. split; [congruence|].
  intros z u. rewrite IH2. split.
  - intros [H|[A B]]; auto. injection H as -> ->. auto.
  - intros [[->|A] B]; auto. left. congruence.
Qed.

Lemma below_nodup : forall k d, NoDup (map fst d) -> NoDup (below k d).
Proof. intros. unfold below. apply NoDup_filter. auto. Qed.

Lemma fetched_does : forall d k got, NoDup (map fst d) -> is_directory k -> Forall2 (fun x kv => fetch d x = Ok kv) (below k d) got ->
  does (view d) (ODirGet k) (RList (Ok got)) (view d).
Proof.
  intros d k got ND D F. destruct (fetch_list _ _ _ F) as [A B]. constructor; auto.
  - rewrite A. apply below_nodup; auto.
  - intros x v. rewrite B, below_spec. unfold view. split; [tauto|]. intros [G Bg]. spl; auto. apply get_in. congruence.
Qed.

Record inv (st : state) : Prop := mk_inv {
  v_nodup : NoDup (map fst (store st));
  v_wait : forall p, In p (threads st) -> knows_wait (store st) p
}.

Lemma notify_wait : forall d ths p, In p (map notify ths) -> knows_wait d p.
Proof. intros d ths p H. apply in_map_iff in H as (q & <- & _). destruct q; simpl; auto. discriminate. Qed.

Lemma del_wait : forall d k p, NoDup (map fst d) -> knows_wait d p -> knows_wait (key_value_delete k d) p.
Proof.
  intros d k p ND H. destruct p as [|x n|]; simpl in *; auto. intros N. specialize (H N). apply get_none. intros I. apply get_none in H. apply H.
  unfold key_value_delete in I. assert (G : forall ks d, In x (map fst (fold_left (fun d x => del x d) ks d)) -> In x (map fst d)).
  { induction ks; simpl; intros; auto. apply IHks in H0. eapply del_keys; eauto. }
  destruct (ends_slash k); [apply G in I; auto|]. destruct (get k d); auto. eapply del_keys; eauto.
Qed.

Lemma inv_step : forall st e st', inv st -> step st e = Some st' -> inv st'.
Proof.
  intros st e st' [ND W] H. destruct e as [t o|t|t]; cbn [step] in H.
  - destruct (nth_error (threads st) t) as [[| |]|] eqn:T; try discriminate. destruct o as [k v w|k|k|k|k|k].
    + pose proof (nodup_set k v w (store st) ND) as ND'. unfold key_value_set in *. destruct (get k (store st)); [destruct w|]; injection H as <-; split; cbn [finish store threads snd] in *; auto; intros p I; eapply set_nth_all; eauto; simpl; auto; intros q J; eapply notify_wait; eauto.
    + injection H as <-. split; auto. cbn [finish store threads]. apply set_nth_all; simpl; auto.
    + injection H as <-. split; cbn [finish store threads]; [apply nodup_delete; auto|]. apply set_nth_all; simpl; auto. intros q J. apply del_wait; auto.
    + destruct (ends_slash k); injection H as <-; split; auto; cbn [finish store threads]; apply set_nth_all; simpl; auto.
    + destruct (get k (store st)) eqn:G; injection H as <-; split; auto; cbn [finish store threads]; apply set_nth_all; simpl; auto.
    + injection H as <-. split; auto. cbn [finish store threads]. apply set_nth_all; simpl; auto.
  - destruct (nth_error (threads st) t) as [[|k n|]|] eqn:T; try discriminate. destruct (get k (store st)) eqn:G; [|destruct n]; injection H as <-; split; auto; cbn [finish store threads]; apply set_nth_all; simpl; auto.
  - destruct (nth_error (threads st) t) as [[| |k [|x todo] got]|] eqn:T; try discriminate.
    + injection H as <-; split; auto; cbn [finish store threads]; apply set_nth_all; simpl; auto.
    + destruct (fetch (store st) x); injection H as <-; split; auto; cbn [finish store threads]; apply set_nth_all; simpl; auto.
Qed.

Lemma inv_initial : forall n, inv (initial n).
Proof. intros n. split; simpl; [constructor|]. intros p I. apply repeat_spec in I as ->. simpl. auto. Qed.

Lemma inv_play : forall es st st', inv st -> play st es = Some st' -> inv st'.
Proof. induction es as [|e es IH]; simpl; intros st st' V H; [congruence|]. destruct (step st e) eqn:S; [|discriminate]. apply (IH s); auto. eapply inv_step; eauto. Qed.

Lemma no_lost_wakeup : forall n es st t k, run n es st -> nth_error (threads st) t = Some (Waiting k false) -> view (store st) k = None.
Proof. intros n es st t k R H. pose proof (inv_play _ _ _ (inv_initial n) R) as [_ W]. apply nth_error_In in H. apply (W _ H). auto. Qed.

(** ** Linearization *)
Definition all_know (st : state) : Prop := forall p, In p (threads st) -> knows (store st) p.

Lemma knows_same : forall d d' p, d' = d -> knows d p -> knows d' p.
Proof. intros; subst; auto. Qed.

Lemma none_fetching_in : forall st p, none_fetching st -> In p (threads st) -> forall k todo got, p <> Fetching k todo got.
Proof. intros st p N I k todo got ->. apply In_nth_error in I as (t & T). eapply N; eauto. Qed.

Lemma lin_step : forall st e st', inv st -> all_know st -> step st e = Some st' ->
  match e with Call _ (OSet _ _ _) | Call _ (ODelete _) => none_fetching st | _ => True end ->
  all_know st' /\ ((ended st' = ended st /\ store st' = store st) \/ exists o r, ended st' = ended st ++ [(o, r)] /\ does (view (store st)) o r (view (store st'))).
Proof.
  intros st e st' V K H Q. pose proof (inv_step _ _ _ V H) as V'. destruct V as [ND W]. unfold all_know in *. destruct e as [t o|t|t]; cbn [step] in H.
  - destruct (nth_error (threads st) t) as [[| |]|] eqn:T; try discriminate. destruct o as [k v w|k|k|k|k|k].
    + assert (NF : forall ths, (forall p, In p ths -> forall k todo got, p <> Fetching k todo got) -> forall d, (forall p, In p (set_nth t Idle ths) -> knows_wait d p) -> forall p, In p (set_nth t Idle ths) -> knows d p).
      { intros ths NF d KW p I. assert (forall k todo got, p <> Fetching k todo got) by (revert p I; apply (set_nth_all (fun p => forall k todo got, p <> Fetching k todo got)); auto; discriminate). specialize (KW p I). destruct p; simpl in *; auto. exfalso; eapply H0; eauto. }
      pose proof (set_does k v w (store st)) as SD. destruct V' as [_ W'].
      destruct (key_value_set k v w (store st)) as [[u|x] d] eqn:E; injection H as <-; cbn [finish store threads ended fst snd] in *; split.
      * apply NF; auto. intros p I. apply in_map_iff in I as (q & <- & J). pose proof (none_fetching_in _ _ Q J). destruct q; simpl; try discriminate. auto.
      * right. destruct u. eauto.
      * apply NF; auto. intros p I. eapply none_fetching_in; eauto.
      * right. eauto.
    + injection H as <-; cbn [finish store threads ended]. split; [apply set_nth_all; simpl; auto|]. right. do 2 eexists. split; eauto. constructor.
    + injection H as <-; cbn [finish store threads ended] in *. destruct V' as [_ W']. cbn [store threads] in W'. split.
      * intros p I. assert (forall k todo got, p <> Fetching k todo got) by (revert p I; apply (set_nth_all (fun p => forall k todo got, p <> Fetching k todo got)); [intros q J; eapply none_fetching_in; eauto|discriminate]). specialize (W' p I). destruct p; simpl in *; auto. exfalso; eapply H; eauto.
      * right. do 2 eexists. split; eauto. destruct (ends_slash k) eqn:E.
        -- apply ends_slash_spec in E. apply does_delete_directory; auto; intros x B; apply (delete_dir k (store st) x ND E); auto.
        -- assert (~ is_directory k) by (rewrite <- ends_slash_spec; congruence). apply does_delete; auto. apply delete_key; auto.
    + destruct (ends_slash k) eqn:E; injection H as <-; cbn [finish store threads ended] in *.
      * split; [|auto]. apply set_nth_all; auto. simpl. split; [apply ends_slash_spec; auto|]. exists []. auto.
      * split; [apply set_nth_all; simpl; auto|]. right. do 2 eexists. split; eauto. constructor. rewrite <- ends_slash_spec. congruence.
    + destruct (get k (store st)) eqn:G; injection H as <-; cbn [finish store threads ended] in *; (split; [apply set_nth_all; simpl; auto|]).
      * right. do 2 eexists. split; eauto. constructor. auto.
      * auto.
    + injection H as <-; cbn [finish store threads ended]. split; [apply set_nth_all; simpl; auto|]. right. do 2 eexists. split; eauto. constructor.
  - destruct (nth_error (threads st) t) as [[|k n|]|] eqn:T; try discriminate. destruct (get k (store st)) eqn:G; [|destruct n]; injection H as <-; cbn [finish store threads ended] in *; (split; [apply set_nth_all; simpl; auto|]); auto; right; do 2 eexists; split; eauto; constructor; auto.
  - destruct (nth_error (threads st) t) as [[| |k [|x todo] got]|] eqn:T; try discriminate; pose proof (K _ (nth_error_In _ _ T)) as (D & done & B & F).
    + injection H as <-; cbn [finish store threads ended] in *. split; [apply set_nth_all; simpl; auto|]. right. do 2 eexists. split; eauto. rewrite app_nil_r in B. subst done. apply fetched_does; auto.
    + assert (IB : In x (below k (store st))) by (rewrite B; apply in_or_app; simpl; auto).
      apply below_spec in IB as [IB _]. apply get_in in IB.
      destruct (fetch (store st) x) as [kv|er] eqn:FE; injection H as <-; cbn [finish store threads ended] in *.
      * split; [|auto]. apply set_nth_all; auto. simpl. split; auto. exists (done ++ [x]). rewrite <- app_assoc. split; auto. apply Forall2_app; auto.
      * exfalso. unfold fetch in FE. destruct (get x (store st)); [discriminate|]. apply IB; auto.
Qed.

Lemma lin_play : forall es st st' m h, inv st -> all_know st -> quiet st es -> play st es = Some st' ->
  ended st = h -> legal m h (view (store st)) -> legal m (ended st') (view (store st')).
Proof.
  induction es as [|e es IH]; simpl; intros st st' m h V K Q H E L; [injection H as <-; congruence|].
  destruct (step st e) as [s|] eqn:S; [|discriminate]. destruct Q as [Q1 Q2].
  destruct (lin_step _ _ _ V K S Q1) as [K' D]. apply (IH s st' m (ended s)); eauto using inv_step.
  destruct D as [[D1 D2]|(o & r & D1 & D2)].
  - rewrite D1, D2, E. auto.
  - rewrite D1, E. eapply legal_snoc; eauto.
Qed.

Lemma linearizable : forall n es st, run n es st -> quiet (initial n) es -> legal empty (ended st) (view (store st)).
Proof.
  intros n es st R Q. eapply lin_play; eauto.
  - apply inv_initial.
  - intros p I. simpl in I. apply repeat_spec in I as ->. simpl. auto.
  - simpl. constructor. auto.
Qed.

(** Without listing of directories a run is quiet. *)
Lemma no_listing_quiet : forall es st, none_fetching st -> (forall e, In e es -> ~ lists_directory e) -> quiet st es.
Proof.
  induction es as [|e es IH]; simpl; intros st N A; auto. split; [destruct e as [t []| |]; auto|]. destruct (step st e) as [s|] eqn:S; auto. apply IH; auto.
  assert (NP : forall ths t p, (forall t k todo got, nth_error ths t <> Some (Fetching k todo got)) -> (forall k todo got, p <> Fetching k todo got) -> forall t' k todo got, nth_error (set_nth t p ths) t' <> Some (Fetching k todo got)).
  { intros ths t p B C t' k todo got X. rewrite nth_set in X. destruct (Nat.eqb t t'); [|eapply B; eauto]. destruct (nth_error ths t'); [|discriminate]. injection X as X. eapply C; eauto. }
  unfold none_fetching in *. destruct e as [t o|t|t]; cbn [step] in S.
  - destruct (nth_error (threads st) t) as [[| |]|] eqn:T; try discriminate. destruct o as [k v w|k|k|k|k|k].
    + destruct (key_value_set k v w (store st)) as [[u|x] d]; injection S as <-; cbn [finish threads]; apply NP; auto; try discriminate.
      intros t' k' todo got X. rewrite nth_error_map in X. destruct (nth_error (threads st) t') as [q|] eqn:Y; [|discriminate]. simpl in X. destruct q; try discriminate. eapply N; eauto.
    + injection S as <-; cbn [finish threads]; apply NP; auto; discriminate.
    + injection S as <-; cbn [finish threads]; apply NP; auto; discriminate.
    + destruct (ends_slash k) eqn:E; [exfalso; eapply A; [left; reflexivity|]; exists t, k; split; auto; apply ends_slash_spec; auto|]. injection S as <-; cbn [finish threads]; apply NP; auto; discriminate.
    + destruct (get k (store st)); injection S as <-; cbn [finish threads]; apply NP; auto; discriminate.
    + injection S as <-; cbn [finish threads]; apply NP; auto; discriminate.
  - destruct (nth_error (threads st) t) as [[|k n|]|] eqn:T; try discriminate. destruct (get k (store st)); [|destruct n]; injection S as <-; cbn [finish threads]; apply NP; auto; discriminate.
  - destruct (nth_error (threads st) t) as [[| |k [|x todo] got]|] eqn:T; try discriminate; exfalso; eapply N; eauto.
Qed.

Lemma linearizable_no_listing : forall n es st, run n es st -> (forall e, In e es -> ~ lists_directory e) -> legal empty (ended st) (view (store st)).
Proof.
  intros n es st R A. eapply linearizable; eauto. apply no_listing_quiet; auto.
  intros t k todo got X. simpl in X. apply nth_error_In, repeat_spec in X. discriminate.
Qed.

Lemma dir_get_never_key_error : forall m k m', ~ does m (ODirGet k) (RList (Err KeyError)) m'.
Proof. intros m k m' D. inversion D. Qed.

(** The undisturbed function. *)
Lemma fetch_all : forall d ks, (forall x, In x ks -> get x d <> None) -> exists got, sequence (map (fetch d) ks) = Ok got /\ Forall2 (fun x kv => fetch d x = Ok kv) ks got.
Proof.
  induction ks as [|x ks IH]; intros A; [exists []; split; auto|]. destruct IH as (got & S & F); [intros; apply A; simpl; auto|].
  destruct (get x d) as [v|] eqn:G; [|exfalso; apply (A x); simpl; auto]. exists ((x, v) :: got). simpl. unfold fetch at 1. rewrite G. simpl. rewrite S. split; auto. constructor; auto. unfold fetch. rewrite G. auto.
Qed.

Lemma dir_get_does : forall d k, NoDup (map fst d) -> does (view d) (ODirGet k) (RList (key_value_dir_get k d)) (view d).
Proof.
  intros d k ND. unfold key_value_dir_get. destruct (ends_slash k) eqn:E.
  - destruct (fetch_all d (below k d)) as (got & S & F). { intros x I. apply below_spec in I as [I _]. apply get_in; auto. }
    rewrite S. apply fetched_does; auto. apply ends_slash_spec; auto.
  - constructor. rewrite <- ends_slash_spec. congruence.
Qed.

(** ** Signals *)
Lemma directory_is : forall i, is_directory (directory i).
Proof. intros i. exists ("awaitable_signals_contract" ++ "_" ++ i)%string. unfold directory. simpl. auto. Qed.

Lemma key_begins : forall s i, begins (directory i) (signal_key s i).
Proof. intros. exists (value s). auto. Qed.

Lemma app_slash : forall i j s t, ~ In "/"%char i -> ~ In "/"%char j -> (i ++ "/"%char :: s = j ++ "/"%char :: t)%list -> i = j.
Proof.
  induction i as [|a i IH]; intros [|b j] s t NI NJ H; simpl in *; auto.
  - injection H as H _. exfalso. auto.
  - injection H as H _. exfalso. auto.
  - injection H as -> H. f_equal. eapply IH; eauto.
Qed.

Lemma key_elsewhere : forall i j x, no_slash i -> no_slash j -> i <> j -> ~ begins (directory i) (directory j ++ x)%string.
Proof.
  intros i j x NI NJ N [r H]. apply N. unfold directory in H. rewrite !app_assoc' in H. apply app_inv_l in H. rewrite ?app_assoc' in H.
  apply (app_inv_l "_"%string) in H. rewrite ?app_assoc' in H.
  apply (f_equal list_ascii_of_string) in H. rewrite !las_app' in H. simpl in H. symmetry in H. apply app_slash in H; auto.
  rewrite <- (string_of_list_ascii_of_string i), <- (string_of_list_ascii_of_string j). congruence.
Qed.

Lemma remove_own : forall i d x, NoDup (map fst d) -> begins (directory i) x -> view (remove_signals i d) x = None.
Proof. intros i d x ND B. unfold view, remove_signals. apply delete_dir; auto. apply directory_is. Qed.
Lemma remove_other : forall i j d s, NoDup (map fst d) -> no_slash i -> no_slash j -> i <> j ->
  view (remove_signals i d) (signal_key s j) = view d (signal_key s j).
Proof. intros i j d s ND NI NJ N. unfold view, remove_signals. apply delete_dir; auto. - apply directory_is. - apply key_elsewhere; auto. Qed.

Lemma remove_contract : forall i j d, NoDup (map fst d) -> no_slash i -> no_slash j -> i <> j -> contract_signals j (remove_signals i d) = contract_signals j d.
Proof. intros. unfold contract_signals, key_value_try_get. pose proof (remove_other i j d Contract) as R. unfold view in R. rewrite R; auto. Qed.

Lemma id_no_slash : forall n, no_slash (id_string n).
Proof.
  intros n. unfold no_slash, id_string. rewrite las_sla. intros I. pose proof (dec_digits n) as F. rewrite Forall_forall in F. apply F in I. destruct I as [d I]. vm_compute in I. discriminate.
Qed.
Lemma id_inj : forall a b, id_string a = id_string b -> a = b.
Proof. intros a b H. unfold id_string in H. apply dec_inj. rewrite <- (las_sla (dec a)), <- (las_sla (dec b)). congruence. Qed.

Lemma remove_ids : forall a b d s, NoDup (map fst d) -> a <> b ->
  view (remove_signals (id_string a) d) (signal_key s (id_string b)) = view d (signal_key s (id_string b)) /\
  view (remove_signals (id_string a) d) (signal_key s (id_string a)) = None.
Proof.
  intros a b d s ND N. split.
  - apply remove_other; auto using id_no_slash. intros H. apply N, id_inj; auto.
  - apply remove_own; auto. apply key_begins.
Qed.

(** *** Contract *)
Definition no_comma (s : string) : Prop := ~ In ","%char (list_ascii_of_string s).

Lemma split_one : forall s, no_comma s -> split_comma s = [s].
Proof.
  induction s as [|c s IH]; intros N; simpl; auto. destruct (Ascii.eqb_spec c ","%char) as [->|M]; [exfalso; apply N; simpl; auto|].
  rewrite IH; auto. intros I. apply N. simpl. auto.
Qed.
Lemma split_app : forall a b, no_comma a -> split_comma (a ++ "," ++ b)%string = a :: split_comma b.
Proof.
  induction a as [|c a IH]; intros b N; [simpl; auto|]. cbn [append split_comma]. destruct (Ascii.eqb_spec c ","%char) as [->|M]; [exfalso; apply N; simpl; auto|].
  change (a ++ String "," b)%string with (a ++ "," ++ b)%string. rewrite IH; auto. intros I. apply N. simpl. auto.
Qed.
Lemma split_join : forall l, l <> [] -> (forall s, In s l -> no_comma s) -> split_comma (join_comma l) = l.
Proof.
  induction l as [|a l IH]; intros NE NC; [congruence|]. destruct l as [|b l].
  - simpl. apply split_one. apply NC. simpl; auto.
  - change (join_comma (a :: b :: l)) with (a ++ "," ++ join_comma (b :: l))%string. rewrite split_app by (apply NC; simpl; auto). rewrite IH; auto; [discriminate|intros; apply NC; simpl in *; auto].
Qed.

Lemma value_no_comma : forall s, no_comma (value s).
Proof. intros s. unfold no_comma. destruct s; simpl; intros H; repeat destruct H as [H|H]; try discriminate; auto. Qed.
Lemma of_value_value : forall s, of_value (value s) = Ok s.
Proof. destruct s; reflexivity. Qed.
Lemma parse_values : forall l, sequence (map of_value (map value l)) = Ok l.
Proof. induction l as [|s l IH]; simpl; auto. rewrite of_value_value. simpl. rewrite IH. auto. Qed.

Lemma write_read : forall i cur sigs d, sigs <> [] -> contract_signals i (write_contract i cur sigs d) = Ok (cur ++ sigs).
Proof.
  intros i cur sigs d NE. unfold contract_signals, write_contract, key_value_try_get, key_value_set.
  assert (G : forall d, get (signal_key Contract i) (put (signal_key Contract i) (join_comma (map value (cur ++ sigs))) d) = Some (join_comma (map value (cur ++ sigs)))) by (intros; rewrite get_put, String.eqb_refl; auto).
  assert (P : sequence (map of_value (split_comma (join_comma (map value (cur ++ sigs))))) = Ok (cur ++ sigs)).
  { rewrite split_join, parse_values; auto.
    - destruct cur, sigs; simpl; try discriminate. congruence.
    - intros s I. apply in_map_iff in I as (x & <- & _). apply value_no_comma. }
  destruct (get (signal_key Contract i) d); simpl; rewrite G; auto.
Qed.

Lemma contract_add : forall i sigs d cur, contract_signals i d = Ok cur -> exists d', add_contract i sigs d = Ok d' /\ contract_signals i d' = Ok (cur ++ sigs).
Proof.
  intros i sigs d cur H. unfold add_contract. destruct sigs as [|s sigs]; [exists d; rewrite app_nil_r; auto|]. rewrite H. eexists; split; eauto. apply write_read. discriminate.
Qed.

Lemma key_neq : forall i j s t, no_slash i -> no_slash j -> i <> j -> signal_key s i <> signal_key t j.
Proof. intros i j s t NI NJ N H. apply (key_elsewhere i j (value t)); auto. exists (value s). unfold signal_key in H. auto. Qed.

Lemma set_other : forall k v w d x, x <> k -> get x (snd (key_value_set k v w d)) = get x d.
Proof. intros k v w d x N. unfold key_value_set. destruct (get k d); [destruct w|]; simpl; auto; rewrite get_put; destruct (String.eqb_spec x k); congruence. Qed.

Lemma contract_add_other : forall i j sigs d d', no_slash i -> no_slash j -> i <> j -> add_contract i sigs d = Ok d' -> contract_signals j d' = contract_signals j d.
Proof.
  intros i j sigs d d' NI NJ N H. unfold add_contract in H. destruct sigs as [|s sigs]; [congruence|]. destruct (contract_signals i d); [|discriminate]. injection H as <-.
  unfold contract_signals, key_value_try_get, write_contract. rewrite set_other; auto. apply not_eq_sym, key_neq; auto.
Qed.

(** *** Sending and receiving *)
Lemma value_inj : forall s t, value s = value t -> s = t.
Proof. destruct s, t; simpl; intros H; auto; discriminate. Qed.

Lemma signals_get : forall sigs i d s, get (signal_key s i) (set_signals i sigs d) = if existsb (fun t => String.eqb (signal_key s i) (signal_key t i)) sigs then Some success else get (signal_key s i) d.
Proof.
  unfold set_signals. induction sigs as [|t sigs IH]; intros i d s; cbn [fold_left existsb]; auto. rewrite IH.
  assert (G : get (signal_key s i) (snd (key_value_set (signal_key t i) success true d)) = if String.eqb (signal_key s i) (signal_key t i) then Some success else get (signal_key s i) d).
  { unfold key_value_set. destruct (get (signal_key t i) d); cbn [snd]; rewrite get_put; auto. }
  rewrite G. destruct (String.eqb (signal_key s i) (signal_key t i)); cbn [orb]; match goal with |- context [if ?b then _ else _] => destruct b end; auto.
Qed.

Lemma key_inj : forall i s t, signal_key s i = signal_key t i -> s = t.
Proof. intros i s t H. apply app_inv_l in H. apply value_inj; auto. Qed.

Lemma signals_set : forall i sigs d s, view (set_signals i sigs d) (signal_key s i) = Some success \/ (~ In s sigs /\ view (set_signals i sigs d) (signal_key s i) = view d (signal_key s i)).
Proof.
  intros i sigs d s. unfold view. rewrite signals_get. destruct (existsb (fun t => String.eqb (signal_key s i) (signal_key t i)) sigs) eqn:E; auto. right. split; auto. intros I.
  assert (X : existsb (fun t => String.eqb (signal_key s i) (signal_key t i)) sigs = true) by (apply existsb_exists; exists s; split; auto; apply String.eqb_refl). congruence.
Qed.

Lemma waits_end : forall i sigs recv d, (forall s, In s recv -> In s sigs \/ view d (signal_key s i) <> None) -> signals_there i recv (set_signals i sigs d) = true.
Proof.
  intros i sigs recv d A. unfold signals_there. apply forallb_forall. intros s I. destruct (signals_set i sigs d s) as [E|[N E]]; unfold view in E; rewrite E; auto.
  destruct (A s I) as [X|X]; [contradiction|]. unfold view in X. destruct (get (signal_key s i) d); auto.
Qed.

Lemma waits_only : forall i sigs d s, signals_there i [s] (set_signals i sigs d) = true -> view d (signal_key s i) = None -> In s sigs.
Proof.
  intros i sigs d s H N. unfold signals_there in H. simpl in H. rewrite signals_get in H.
  destruct (existsb (fun t => String.eqb (signal_key s i) (signal_key t i)) sigs) eqn:E.
  - apply existsb_exists in E as (t & I & E). apply String.eqb_eq in E. apply key_inj in E as ->. auto.
  - unfold view in N. rewrite N in H. discriminate.
Qed.

Lemma waits_other : forall i j sigs d s, no_slash i -> no_slash j -> i <> j -> view (set_signals i sigs d) (signal_key s j) = view d (signal_key s j).
Proof.
  intros i j sigs d s NI NJ N. unfold view, set_signals. revert d. induction sigs as [|t sigs IH]; intros d; simpl; auto. rewrite IH, set_other; auto. apply not_eq_sym, key_neq; auto.
Qed.

(** ** Operation ids *)
Lemma ids_fresh : forall ts g, (current g < counter g)%N -> (forall t n, In (t, n) (id_run g (flat_map (fun t => [Advance t; Return t]) ts)) -> (counter g <= n)%N) /\
  NoDup (map snd (id_run g (flat_map (fun t => [Advance t; Return t]) ts))).
Proof.
  induction ts as [|t ts IH]; intros g L; simpl; [split; [contradiction|constructor]|].
  destruct (IH (advance g)) as [A B]; [simpl; lia|]. split.
  - intros t' n [H|H]; [injection H as <- <-; lia|]. apply A in H. simpl in H. lia.
  - constructor; auto. intros I. apply in_map_iff in I as ([t' n] & E & I). apply A in I. simpl in *. subst n. lia.
Qed.

(** ** A listing that no order explains *)
Definition last_set (k : string) (o : option string) (e : op * ret) : option string :=
  match e with (OSet k' v _, _) => if String.eqb k k' then Some v else o | _ => o end.

Lemma legal_sets : forall m h m1, legal m h m1 -> (forall e, In e h -> exists k v w, e = (OSet k v w, RUnit (Ok tt))) ->
  forall k, m1 k = fold_left (last_set k) h (m k).
Proof.
  intros m h m1 L. induction L as [m m' E|m o r ma h mb D L IH]; intros A k; simpl; auto.
  rewrite IH by (intros; apply A; simpl; auto). f_equal. destruct (A (o, r)) as (k' & v & w & E); [simpl; auto|]. injection E as -> ->.
  inversion D as [? ? ? ? _ [U1 U2]| | | | | | | | |]; subst. simpl. destruct (String.eqb_spec k k') as [->|N]; auto.
Qed.

Lemma legal_mid : forall m h1 o r h2 m', legal m (h1 ++ (o, r) :: h2) m' -> exists m1 m2, legal m h1 m1 /\ does m1 o r m2.
Proof.
  intros m h1. revert m. induction h1 as [|[o1 r1] h1 IH]; simpl; intros m o r h2 m' L; inversion L; subst.
  - exists m, m1. split; auto. constructor. auto.
  - match goal with X : legal _ (_ ++ _) _ |- _ => destruct (IH _ _ _ _ _ X) as (a & b & A & B) end. exists a, b. split; auto. econstructor; eauto.
Qed.

Definition torn_sets : list (op * ret) :=
  [(OSet "d/a" "1" false, RUnit (Ok tt)); (OSet "d/b" "2" false, RUnit (Ok tt));
   (OSet "d/a" "2" true, RUnit (Ok tt)); (OSet "d/b" "3" true, RUnit (Ok tt))]%string.

Lemma torn_illegal : forall h1 h2 m, h1 ++ h2 = torn_sets ->
  ~ legal empty (h1 ++ (ODirGet "d/", RList (Ok [("d/a", "1"); ("d/b", "3")]))%string :: h2) m.
Proof.
  intros h1 h2 m E L. apply legal_mid in L as (m1 & m2 & L & D). inversion D as [| | | | |? ? _ _ S| | | |]; subst.
  destruct (S "d/a" "1")%string as [SA _]. destruct (S "d/b" "3")%string as [SB _].
  destruct SA as [SA _]; [simpl; auto|]. destruct SB as [SB _]; [simpl; auto|].
  assert (A : forall e, In e h1 -> exists k v w, e = (OSet k v w, RUnit (Ok tt))).
  { intros e I. assert (J : In e torn_sets) by (rewrite <- E; apply in_or_app; auto). simpl in J. repeat destruct J as [<-|J]; eauto. contradiction. }
  rewrite (legal_sets _ _ _ L A) in SA, SB. unfold torn_sets in E.
  destruct h1 as [|e1 h1]; [discriminate|]. injection E as ? E; subst.
  destruct h1 as [|e2 h1]; [discriminate|]. injection E as ? E; subst.
  destruct h1 as [|e3 h1]; [discriminate|]. injection E as ? E; subst.
  destruct h1 as [|e4 h1]; [discriminate|]. injection E as ? E; subst.
  destruct h1; [|discriminate]. discriminate.
Qed.
