(** Proofs about the metadata of a step. *)
From Coq Require Import List Bool Arith ZArith NArith String Lia.
From Verif Require Import Base Tree_Model Tree_Proofs Parts_Proofs ArrayMeta_Proofs StepMeta_Model StepMeta_Spec.
Import ListNotations.
Open Scope string_scope.

Lemma key_spec : forall a b, reflect (a = b) (key_eqb a b).
Proof.
  intros [s|z|b| |z|n] [s'|z'|b'| |z'|n']; cbn [key_eqb]; try (constructor; congruence).
  - destruct (String.eqb_spec s s'); constructor; congruence.
  - destruct (Z.eqb_spec z z'); constructor; congruence.
  - destruct b, b'; constructor; congruence.
  - destruct (Z.eqb_spec z z'); constructor; congruence.
  - destruct (N.eqb_spec n n'); constructor; congruence.
Qed.

(** An induction principle that reaches into the lists *)
Lemma pv_rec_in : forall (P : pv -> Prop), P VNone -> (forall b, P (VBool b)) -> (forall z, P (VInt z)) -> (forall z, P (VFloat z)) -> (forall s, P (VStr s)) ->
  (forall l, Forall P l -> P (VList l)) -> (forall l, Forall P l -> P (VTuple l)) -> (forall d, Forall (fun x => P (snd x)) d -> P (VDict d)) ->
  (forall l, P (VStats l)) -> (forall n, P (VOther n)) -> forall x, P x.
Proof.
  intros P H0 H1 H2 H3 H4 H5 H6 H7 H8 H9. fix IH 1. intros [|b|z|z|s|l|l|d|l|n]; [exact H0|apply H1|apply H2|apply H3|apply H4| | | |apply H8|apply H9].
  - apply H5. induction l as [|x l IHl]; constructor; [apply IH|apply IHl].
  - apply H6. induction l as [|x l IHl]; constructor; [apply IH|apply IHl].
  - apply H7. induction d as [|[k v] d IHd]; constructor; [apply IH|apply IHd].
Qed.

Lemma seq_f2 : forall {A B : Type} (f : A -> result B) l ys, sequence (map f l) = Ok ys <-> Forall2 (fun x y => f x = Ok y) l ys.
Proof.
  intros A B f l. induction l as [|x l IH]; intros ys; cbn [map sequence].
  - split; intros H; [injection H as <-; constructor|inversion H; auto].
  - split.
    + destruct (f x) as [y|e] eqn:F; cbn [rbind]; [|discriminate]. destruct (sequence (map f l)) as [zs|e] eqn:Q; cbn [rbind]; [|discriminate].
      intros H. injection H as <-. constructor; [auto|]. apply IH. auto.
    + intros H. inversion H as [|? y ? zs F T]; subst. rewrite F. cbn [rbind]. apply IH in T. rewrite T. reflexivity.
Qed.

(** ** The processors *)

Lemma strk : forall {A : Type} (d : list (key * A)), str_keys d = true <-> forall k v, In (k, v) d -> exists s, k = KStr s.
Proof.
  intros A d. unfold str_keys. rewrite forallb_forall. split.
  - intros H k v I. specialize (H _ I). cbn in H. destruct k; try discriminate. eauto.
  - intros H [k v] I. destruct (H _ _ I) as [s ->]. reflexivity.
Qed.

Lemma strd : forall d, str_keys d = true <-> str_dict (VDict d).
Proof. intros d. rewrite strk. unfold str_dict. split; [intros H; exists d; auto|intros (d' & E & H); injection E as <-; auto]. Qed.

Ltac nope := let H := fresh in intros H; unfold handlers_ok, metrics_ok, time_ok, custom_ok, performance_ok, str_dict in H; cbn in H;
  repeat match goal with X : _ \/ _ |- _ => destruct X | X : exists _, _ |- _ => destruct X | X : _ /\ _ |- _ => destruct X end; try discriminate.

Lemma ih_spec : forall x, (handlers_ok x /\ validate_and_process_item_handlers x = Ok x) \/ (~ handlers_ok x /\ validate_and_process_item_handlers x = Err ValueError).
Proof.
  intros x. destruct x as [|b|z|z|s|l|l|d|l|n]; cbn [validate_and_process_item_handlers]; try (right; split; [nope|reflexivity]).
  - left. split; [left; auto|auto].
  - left. split; [right; left; eauto|auto].
  - destruct (str_keys d) eqn:K; [left|right]; (split; [|auto]).
    + right. right. apply strd. auto.
    + intros [H|[[s H]|H]]; try discriminate. apply strd in H. congruence.
Qed.

Lemma mt_spec : forall x, (metrics_ok x /\ validate_and_process_metrics x VNone = Ok (or_empty x)) \/ (~ metrics_ok x /\ validate_and_process_metrics x VNone = Err ValueError).
Proof.
  intros x. unfold validate_and_process_metrics, metrics_ok. destruct (truthy x) eqn:T.
  - destruct x as [|b|z|z|s|l|l|d|l|n]; try (right; split; [nope; congruence|reflexivity]).
    destruct (str_keys d) eqn:K; [left|right]; (split; [|auto]).
    + right. apply strd. auto.
    + intros [H|H]; [congruence|]. apply strd in H. congruence.
  - left. split; [auto|]. destruct x as [|b|z|z|s|l|l|d|l|n]; try reflexivity. destruct d; [reflexivity|discriminate].
Qed.

Lemma tm_spec : forall x, (time_ok x /\ validate_and_process_timestamp x = Ok x) \/ (~ time_ok x /\ validate_and_process_timestamp x = Err ValueError).
Proof.
  intros x. destruct x as [|b|z|z|s|l|l|d|l|n]; cbn [validate_and_process_timestamp]; try (right; split; [nope|reflexivity]); left; (split; [|auto]); unfold time_ok; eauto.
Qed.

Lemma cu_spec : forall x, (custom_ok x /\ validate_and_process_custom_metadata x = Ok (or_empty x)) \/ (~ custom_ok x /\ validate_and_process_custom_metadata x = Err ValueError).
Proof.
  intros x. destruct x as [|b|z|z|s|l|l|d|l|n]; cbn [validate_and_process_custom_metadata]; try (right; split; [nope|reflexivity]).
  - left. split; [left; auto|auto].
  - destruct (str_keys d) eqn:K; [left|right]; (split; [|auto]).
    + right. apply strd. auto.
    + intros [H|H]; [discriminate|]. apply strd in H. congruence.
Qed.

Lemma filter_map : forall {A B : Type} (f : A -> B) p l, filter p (map f l) = map f (filter (fun x => p (f x)) l).
Proof. intros A B f p l. induction l as [|x l IH]; cbn [map filter]; auto. destruct (p (f x)); cbn [map]; congruence. Qed.

Lemma pm_spec : forall x, (performance_ok x /\ validate_and_process_performance_metrics x = Ok (only_floats x)) \/ (~ performance_ok x /\ validate_and_process_performance_metrics x = Err ValueError).
Proof.
  intros x. destruct x as [|b|z|z|s|l|l|d|l|n]; cbn [validate_and_process_performance_metrics]; try (right; split; [nope|reflexivity]).
  - left. split; [left; auto|auto].
  - destruct (str_keys d) eqn:K; [left|right]; (split; [|auto]).
    + right. right. apply strd. auto.
    + intros [H|[[l H]|H]]; try discriminate. apply strd in H. congruence.
  - left. split; [right; left; eauto|]. rewrite filter_map. reflexivity.
Qed.

Lemma fld_spec : forall f x, In f fields -> (field_ok (fst f) x /\ snd f x = Ok (stored (fst f) x)) \/ (~ field_ok (fst f) x /\ snd f x = Err ValueError).
Proof.
  intros f x I. cbn [fields In] in I. unfold field_ok.
  destruct I as [<-|[<-|[<-|[<-|[<-|[<-|[]]]]]]]; cbn [fst snd].
  - destruct (ih_spec x) as [[H E]|[H E]]; [left|right]; (split; [|exact E]); intuition discriminate.
  - destruct (mt_spec x) as [[H E]|[H E]]; [left|right]; (split; [|exact E]); intuition discriminate.
  - destruct (pm_spec x) as [[H E]|[H E]]; [left|right]; (split; [|exact E]); intuition discriminate.
  - destruct (tm_spec x) as [[H E]|[H E]]; [left|right]; (split; [|exact E]); intuition discriminate.
  - destruct (tm_spec x) as [[H E]|[H E]]; [left|right]; (split; [|exact E]); intuition discriminate.
  - destruct (cu_spec x) as [[H E]|[H E]]; [left|right]; (split; [|exact E]); intuition discriminate.
Qed.

(** ** Statistics *)

Lemma stat_nodup : NoDup (map fst stat_fields).
Proof. cbn. repeat (constructor; [cbn; intuition discriminate|]). constructor. Qed.

Lemma only_dict : forall x, exists d, only_floats x = VDict d.
Proof. intros []; cbn; eauto. Qed.

(** The floats of [x] as a dictionary *)
Lemma only_in : forall x d, performance_ok x -> only_floats x = VDict d ->
  (forall k v, In (k, v) d <-> exists n z, k = KStr n /\ v = VFloat z /\ has_float x n z).
Proof.
  intros x d P E k v. destruct x as [|b|z|z|s|l|l|d0|l|n]; cbn [only_floats] in E; injection E as <-;
    try (split; [intros []|]; intros (n' & z' & _ & _ & [(d1 & X & _)|(l1 & X & _)]); discriminate).
  - destruct P as [P|[[l P]|P]]; try discriminate. destruct P as (d1 & X & S). injection X as <-. rewrite filter_In. split.
    + intros [I F]. destruct (S _ _ I) as [n ->]. cbn in F. destruct v; try discriminate. exists n, z. split; [auto|]. split; [auto|]. left. eauto.
    + intros (n & z & -> & -> & [(d1 & X & I)|(l1 & X & _)]); [|discriminate]. injection X as <-. split; auto.
  - rewrite in_map_iff. split.
    + intros ([n w] & X & I). cbn in X. injection X as <- <-. apply filter_In in I as [I F]. cbn in F. destruct w; try discriminate. exists n, z. split; [auto|]. split; [auto|]. right. eauto.
    + intros (n & z & -> & -> & [(d1 & X & _)|(l1 & X & I)]); [discriminate|]. injection X as <-. exists (n, VFloat z). split; [auto|]. apply filter_In. split; auto.
Qed.

Lemma mk_spec : forall x d, performance_ok x -> only_floats x = VDict d ->
  (floats_known x /\ exists y, mk_stats d = Ok y /\ floats_of x y) \/ (~ floats_known x /\ mk_stats d = Err TypeError).
Proof.
  intros x d P E. pose proof (only_in x d P E) as I. unfold mk_stats.
  destruct (forallb (fun y => existsb (fun z => key_eqb (KStr (fst z)) (fst y)) stat_fields) d) eqn:F.
  - left. split.
    + intros n z H. rewrite forallb_forall in F. assert (J : In (KStr n, VFloat z) d) by (apply I; eauto). apply F in J. apply existsb_exists in J as ([n' w] & J & K).
      cbn in K. destruct (String.eqb_spec n' n) as [->|]; [|discriminate]. apply (in_map fst) in J. exact J.
    + eexists. split; [reflexivity|]. unfold floats_of. eexists. split; [reflexivity|]. split; [rewrite map_map; apply map_ext; auto|].
      intros n v J. apply in_map_iff in J as ([n' w] & X & J). cbn [fst snd] in X. injection X as <- <-.
      destruct (dget key_eqb (KStr n') d) as [u|] eqn:G.
      * left. apply (dget_some_in key_eqb key_spec) in G. apply I in G as (m & z & M & -> & H). injection M as <-. eauto.
      * right. split; [auto|]. intros z H. apply (dget_none key_eqb key_spec) in G. apply G. apply in_map_iff. exists (KStr n', VFloat z). split; [auto|]. apply I. eauto.
  - right. split; [|auto]. intros K. assert (T : forallb (fun y => existsb (fun z => key_eqb (KStr (fst z)) (fst y)) stat_fields) d = true); [|congruence].
    apply forallb_forall. intros [k v] J. apply I in J as (n & z & -> & -> & H). apply K in H. apply in_map_iff in H as ([n' w] & <- & H).
    apply existsb_exists. exists (n', w). split; [auto|]. cbn. apply String.eqb_refl.
Qed.

(** ** Unknown names *)

Lemma addu_none : forall ns same l c d, unknown ns l = [] -> add_unknown ns same l c d = (Ok c, d).
Proof.
  intros ns same l. induction l as [|[k v] l IH]; intros c d H; cbn [add_unknown]; auto. unfold unknown in H. cbn [filter fst] in H. unfold known.
  destruct (existsb (fun n => key_eqb (KStr n) k) ns); cbn [negb] in H; [apply IH; exact H|discriminate].
Qed.

Lemma addu_new : forall ns l c d, truthy (get "custom_metadata" d) = false ->
  add_unknown ns false l c d = (Ok (fold_left (fun m x => dput key_eqb (fst x) (snd x) m) (unknown ns l) c), d).
Proof.
  intros ns l. induction l as [|[k v] l IH]; intros c d H; cbn [add_unknown]; auto. unfold known, unknown. cbn [filter fst].
  destruct (existsb (fun n => key_eqb (KStr n) k) ns); cbn [negb]; [apply IH; auto|]. rewrite H. apply IH; auto.
Qed.

Lemma addu_full : forall ns same l c d, truthy (get "custom_metadata" d) = true -> unknown ns l <> [] -> add_unknown ns same l c d = (Err ValueError, d).
Proof.
  intros ns same l c d H. induction l as [|[k v] l IH]; intros N; [contradiction|]. cbn [add_unknown]. unfold known. unfold unknown in N. cbn [filter fst] in N.
  destruct (existsb (fun n => key_eqb (KStr n) k) ns); cbn [negb] in N; [apply IH; exact N|]. rewrite H. reflexivity.
Qed.

Lemma get_dput : forall n k v d, get n (dput key_eqb k v d) = if key_eqb (KStr n) k then v else get n d.
Proof. intros n k v d. unfold get. rewrite (dget_dput key_eqb key_spec). destruct (key_eqb (KStr n) k); auto. Qed.

Lemma addu_one : forall ns l d x r, get "custom_metadata" d = VDict [] -> unknown ns l = x :: r ->
  add_unknown ns true l [] d = ((match r with [] => Ok [x] | _ => Err ValueError end), dput key_eqb (KStr "custom_metadata") (VDict [x]) d).
Proof.
  intros ns l d x r G. induction l as [|[k v] l IH]; intros U; [discriminate|]. cbn [add_unknown]. unfold known. unfold unknown in U. cbn [filter fst] in U.
  destruct (existsb (fun n => key_eqb (KStr n) k) ns); cbn [negb] in U; [apply IH; exact U|]. assert (U1 : (k, v) = x) by (apply (f_equal (hd x)) in U; exact U).
  apply (f_equal (@tl _)) in U. cbn [tl] in U. change (unknown ns l = r) in U. subst x. rewrite G. cbn [truthy List.length Nat.eqb negb dput].
  destruct r as [|y r].
  - rewrite addu_none; [reflexivity|exact U].
  - rewrite addu_full; [reflexivity| |rewrite U; discriminate]. rewrite get_dput. cbn. reflexivity.
Qed.

(** What is done about unknown names; [c] is [or_empty] of the custom metadata. *)
Lemma addu_spec : forall ns d c, custom_ok (get "custom_metadata" d) -> or_empty (get "custom_metadata" d) = VDict c -> NoDup (map fst d) ->
  (unknown_ok ns d /\ fst (add_unknown ns (is_same d) d c d) = Ok (match unknown ns d with [] => c | u => u end)) \/
  (~ unknown_ok ns d /\ fst (add_unknown ns (is_same d) d c d) = Err ValueError).
Proof.
  intros ns d c C E N. unfold unknown_ok. destruct (unknown ns d) as [|x r] eqn:U.
  - left. split; [auto|]. rewrite addu_none by auto. reflexivity.
  - unfold is_same. destruct C as [C|C].
    + rewrite C in *. cbn in E. injection E as <-. left. split; [auto|]. rewrite addu_new by (rewrite C; reflexivity). cbn [fst]. f_equal. rewrite U.
      change (dict_of key_eqb (x :: r) = x :: r). apply (dict_of_nodup key_eqb key_spec). rewrite <- U. unfold unknown. clear - N. induction d as [|[k v] d IH]; cbn [filter map fst]; [constructor|].
      cbn [map fst] in N. inversion_clear N as [|? ? N1 N2]. specialize (IH N2). destruct (negb (existsb (fun n => key_eqb (KStr n) k) ns)); [|auto]. cbn [map fst]. constructor; [|auto].
      intros H. apply N1. apply in_map_iff in H as (y & <- & H). apply filter_In in H as [H _]. apply in_map. auto.
    + destruct C as (c0 & C & _). rewrite C in *. cbn in E. injection E as ->. destruct c as [|p c].
      * rewrite (addu_one ns d d x r C U). cbn [fst]. destruct r as [|y r]; [left|right]; (split; [|auto]); [right; right; eauto|].
        intros [H|[H|[_ [z H]]]]; discriminate.
      * right. split; [intros [H|[H|[H _]]]; discriminate|]. rewrite addu_full; [reflexivity|rewrite C; reflexivity|rewrite U; discriminate].
Qed.

(** ** Deserializing *)

Definition parts_ok (d : dict key pv) : Prop :=
  handlers_ok (get "item_handlers" d) /\ metrics_ok (get "metrics" d) /\ performance_ok (get "performance_metrics" d) /\
  time_ok (get "init_timestamp_nsecs" d) /\ time_ok (get "commit_timestamp_nsecs" d) /\ custom_ok (get "custom_metadata" d).

Lemma ds_fields : forall d, (parts_ok d /\ sequence (map (fun f => snd f (get (fst f) d)) fields) =
     Ok [get "item_handlers" d; or_empty (get "metrics" d); only_floats (get "performance_metrics" d); get "init_timestamp_nsecs" d; get "commit_timestamp_nsecs" d; or_empty (get "custom_metadata" d)]) \/
  (~ parts_ok d /\ sequence (map (fun f => snd f (get (fst f) d)) fields) = Err ValueError).
Proof.
  intros d. unfold parts_ok. cbn [map fields fst snd sequence].
  destruct (ih_spec (get "item_handlers" d)) as [[H1 E1]|[H1 E1]]; rewrite E1; cbn [rbind]; [|right; split; [tauto|auto]].
  destruct (mt_spec (get "metrics" d)) as [[H2 E2]|[H2 E2]]; rewrite E2; cbn [rbind]; [|right; split; [tauto|auto]].
  destruct (pm_spec (get "performance_metrics" d)) as [[H3 E3]|[H3 E3]]; rewrite E3; cbn [rbind]; [|right; split; [tauto|auto]].
  destruct (tm_spec (get "init_timestamp_nsecs" d)) as [[H4 E4]|[H4 E4]]; rewrite E4; cbn [rbind]; [|right; split; [tauto|auto]].
  destruct (tm_spec (get "commit_timestamp_nsecs" d)) as [[H5 E5]|[H5 E5]]; rewrite E5; cbn [rbind]; [|right; split; [tauto|auto]].
  destruct (cu_spec (get "custom_metadata" d)) as [[H6 E6]|[H6 E6]]; rewrite E6; cbn [rbind]; [|right; split; [tauto|auto]].
  left. split; [tauto|auto].
Qed.

Lemma or_dict : forall x, exists d, or_empty x = VDict d.
Proof. intros []; cbn; eauto. Qed.

Lemma ds_spec : forall d, NoDup (map fst d) ->
  (parts_ok d /\ floats_known (get "performance_metrics" d) /\ unknown_ok names d /\
    exists st, floats_of (get "performance_metrics" d) st /\ fst (deserialize (VDict d)) =
      Ok (mkMeta (get "item_handlers" d) (or_empty (get "metrics" d)) st (get "init_timestamp_nsecs" d) (get "commit_timestamp_nsecs" d)
            (match unknown names d with [] => or_empty (get "custom_metadata" d) | u => VDict u end))) \/
  (~ (parts_ok d /\ floats_known (get "performance_metrics" d) /\ unknown_ok names d) /\ exists e, fst (deserialize (VDict d)) = Err e /\ (e = ValueError \/ e = TypeError)).
Proof.
  intros d N. cbn [deserialize]. destruct (ds_fields d) as [[P E]|[P E]]; rewrite E; cbn [fst]; [|right; split; [tauto|eauto]].
  destruct (only_dict (get "performance_metrics" d)) as [pm EP]. destruct (or_dict (get "custom_metadata" d)) as [c EC]. rewrite EP, EC.
  pose proof P as (_ & _ & P3 & _ & _ & P6). destruct (mk_spec _ _ P3 EP) as [[K (st & M & F)]|[K M]]; rewrite M; cbn [fst]; [|right; split; [tauto|eauto]].
  change (map fst fields) with names. destruct (addu_spec names d c P6 EC N) as [[U A]|[U A]]; destruct (add_unknown names (is_same d) d c d) as [r d'] eqn:X; cbn [fst] in A; subst r; cbn [fst].
  - left. split; [auto|]. split; [auto|]. split; [auto|]. exists st. split; [auto|]. destruct (unknown names d); reflexivity.
  - right. split; [tauto|eauto].
Qed.

Lemma ds_unchanged : forall d, unknown names d = [] \/ get "custom_metadata" d = VNone -> snd (deserialize (VDict d)) = VDict d.
Proof.
  intros d U. cbn [deserialize]. destruct (ds_fields d) as [[P E]|[P E]]; rewrite E; cbn [snd]; auto.
  destruct (only_dict (get "performance_metrics" d)) as [pm EP]. destruct (or_dict (get "custom_metadata" d)) as [c EC]. rewrite EP, EC.
  destruct (mk_stats pm); auto. change (map fst fields) with names. destruct U as [U|U].
  - rewrite addu_none by auto. reflexivity.
  - unfold is_same. rewrite U. rewrite addu_new by (rewrite U; reflexivity). reflexivity.
Qed.

Lemma ds_keeps : forall d n, n <> "custom_metadata" -> forall d', snd (deserialize (VDict d)) = VDict d' -> get n d' = get n d.
Proof.
  intros d n D d' E. cbn [deserialize] in E. destruct (ds_fields d) as [[P X]|[P X]]; rewrite X in E; cbn [snd] in E; [|congruence].
  destruct (only_dict (get "performance_metrics" d)) as [pm EP]. destruct (or_dict (get "custom_metadata" d)) as [c EC]. rewrite EP, EC in E.
  destruct (mk_stats pm); [|cbn in E; congruence].
  assert (G : forall ns same l c d, get n (snd (add_unknown ns same l c d)) = get n d).
  { clear - D. intros ns same l. induction l as [|[k v] l IH]; intros c d; cbn [add_unknown]; auto. destruct (known ns k); [auto|]. destruct (truthy _); [auto|]. rewrite IH. destruct same; [|auto].
    rewrite get_dput. cbn [key_eqb]. destruct (String.eqb_spec n "custom_metadata"); [contradiction|auto]. }
  specialize (G (map fst fields) (is_same d) d c d). destruct (add_unknown (map fst fields) (is_same d) d c d) as [[r|e] d2]; cbn [snd] in *; injection E as <-; exact G.
Qed.

(** ** Serializing *)

Definition entries (m : meta) : dict key pv :=
  [ (KStr "item_handlers", item_handlers m); (KStr "metrics", or_empty (metrics m)); (KStr "performance_metrics", only_floats (performance_metrics m));
    (KStr "init_timestamp_nsecs", init_timestamp_nsecs m); (KStr "commit_timestamp_nsecs", commit_timestamp_nsecs m); (KStr "custom_metadata", or_empty (custom_metadata m)) ].

Lemma ser_spec : forall m, (valid m /\ serialize m = Ok (entries m)) \/ (~ valid m /\ serialize m = Err ValueError).
Proof.
  intros m. unfold valid, serialize, getattr. cbn [map fields fst snd sequence]. cbn [String.eqb Ascii.eqb Bool.eqb].
  destruct (ih_spec (item_handlers m)) as [[H1 E1]|[H1 E1]]; rewrite E1; cbn [rbind rmap]; [|right; split; [tauto|auto]].
  destruct (mt_spec (metrics m)) as [[H2 E2]|[H2 E2]]; rewrite E2; cbn [rbind rmap]; [|right; split; [tauto|auto]].
  destruct (pm_spec (performance_metrics m)) as [[H3 E3]|[H3 E3]]; rewrite E3; cbn [rbind rmap]; [|right; split; [tauto|auto]].
  destruct (tm_spec (init_timestamp_nsecs m)) as [[H4 E4]|[H4 E4]]; rewrite E4; cbn [rbind rmap]; [|right; split; [tauto|auto]].
  destruct (tm_spec (commit_timestamp_nsecs m)) as [[H5 E5]|[H5 E5]]; rewrite E5; cbn [rbind rmap]; [|right; split; [tauto|auto]].
  destruct (cu_spec (custom_metadata m)) as [[H6 E6]|[H6 E6]]; rewrite E6; cbn [rbind rmap]; [|right; split; [tauto|auto]].
  left. split; [tauto|auto].
Qed.

(** ** JSON *)

Section Json.

Variables show_int show_float : Z -> string.
Notation json := (json show_int show_float).

(** Entry by entry *)
Definition entry_json (x y : key * pv) : Prop := fst x = fst y /\ json (snd x) = Ok (snd y).

Definition pair_json (kv : key * pv) : result (string * pv) := match kv with (k, v) => rbind (show_key show_int show_float k) (fun k' => rmap (pair k') (json v)) end.

Lemma json_dict : forall d, json (VDict d) = rmap object (sequence (map pair_json d)).
Proof. reflexivity. Qed.

Lemma f2_keys : forall d d', Forall2 entry_json d d' -> map fst d' = map fst d.
Proof. intros d d' H. induction H as [|x y d d' [E _] H IH]; cbn [map]; congruence. Qed.

Lemma object_id : forall l, NoDup (map fst (map (fun x : string * pv => (KStr (fst x), snd x)) l)) -> object l = VDict (map (fun x => (KStr (fst x), snd x)) l).
Proof. intros l N. unfold object. rewrite (dict_of_nodup key_eqb key_spec); auto. Qed.

Lemma jdict : forall d f, str_keys d = true -> NoDup (map fst d) -> (json (VDict d) = Ok f <-> exists d', f = VDict d' /\ Forall2 entry_json d d').
Proof.
  intros d f S N. rewrite json_dict. split.
  - destruct (sequence (map pair_json d)) as [l|e] eqn:Q; cbn [rmap]; [|discriminate]. intros H. injection H as <-. apply seq_f2 in Q.
    assert (F : Forall2 entry_json d (map (fun x => (KStr (fst x), snd x)) l)).
    { clear N. induction Q as [|[k v] [s w] d l E Q IH]; cbn [map]; constructor.
      - cbn [str_keys forallb fst] in S. apply andb_true_iff in S as [S1 S2]. destruct k as [s0| | | | |]; try discriminate. cbn in E. destruct (json v) as [w'|e] eqn:J; [|discriminate].
        cbn in E. injection E as <- <-. split; auto.
      - apply IH. cbn [str_keys forallb fst] in S. apply andb_true_iff in S as [S1 S2]. exact S2. }
    eexists. split; [|exact F]. apply object_id. rewrite (f2_keys _ _ F). auto.
  - intros (d' & -> & F).
    assert (G : exists l, sequence (map pair_json d) = Ok l /\ d' = map (fun x => (KStr (fst x), snd x)) l).
    { clear N. induction F as [|[k v] [k' w] d d' [E J] F IH]; [exists []; split; auto|]. cbn [str_keys forallb fst] in S. apply andb_true_iff in S as [S1 S2].
      destruct (IH S2) as (l & Q & ->). cbn [fst snd] in E, J. subst k'. destruct k as [s0| | | | |]; try discriminate. exists ((s0, w) :: l). split; [|reflexivity].
      cbn [map sequence pair_json show_key rbind]. rewrite J. cbn [rmap rbind]. rewrite Q. reflexivity. }
    destruct G as (l & Q & ->). rewrite Q. cbn [rmap]. f_equal. apply object_id. rewrite (f2_keys _ _ F). auto.
Qed.

Lemma fold_in : forall {V : Type} (l d : dict key V) k v, In (k, v) (fold_left (fun m x => dput key_eqb (fst x) (snd x) m) l d) -> In (k, v) l \/ In (k, v) d.
Proof.
  intros V l. induction l as [|[k0 v0] l IH]; intros d k v H; cbn [fold_left fst snd] in H; [auto|]. apply IH in H as [H|H]; [left; right; auto|].
  assert (G : In (k, v) (dput key_eqb k0 v0 d) -> (k, v) = (k0, v0) \/ In (k, v) d).
  { clear. induction d as [|[k1 v1] d IH]; cbn [dput In]; [intuition|]. destruct (key_spec k0 k1) as [<-|]; cbn [In]; intuition. }
  apply G in H as [H|H]; [left; left; auto|auto].
Qed.

Lemma fold_nodup : forall {V : Type} (l d : dict key V), NoDup (map fst d) -> NoDup (map fst (fold_left (fun m x => dput key_eqb (fst x) (snd x) m) l d)).
Proof. intros V l. induction l as [|[k v] l IH]; intros d N; cbn [fold_left]; auto. apply IH. apply (dput_nodup key_eqb key_spec). auto. Qed.

Lemma fold_get : forall {V : Type} (l d : dict key V) k, NoDup (map fst l) ->
  dget key_eqb k (fold_left (fun m x => dput key_eqb (fst x) (snd x) m) l d) = match dget key_eqb k l with Some v => Some v | None => dget key_eqb k d end.
Proof.
  intros V l. induction l as [|[k0 v0] l IH]; intros d k N; cbn [fold_left fst snd dget]; auto. cbn [map fst] in N. inversion_clear N as [|? ? N1 N2].
  rewrite IH by auto. rewrite (dget_dput key_eqb key_spec). destruct (key_spec k k0) as [->|D]; [|auto].
  apply (dget_none key_eqb key_spec) in N1. rewrite N1. auto.
Qed.

(** What JSON gives is a dictionary with strings as names, each once. *)
Lemma object_shape : forall l, exists d, object l = VDict d /\ str_keys d = true /\ NoDup (map fst d) /\ forall k v, In (k, v) d -> exists s, k = KStr s /\ In (s, v) l.
Proof.
  intros l. unfold object, dict_of. eexists. split; [reflexivity|].
  assert (G : forall k v, In (k, v) (fold_left (fun m x => dput key_eqb (fst x) (snd x) m) (map (fun x : string * pv => (KStr (fst x), snd x)) l) []) -> exists s, k = KStr s /\ In (s, v) l).
  { intros k v I. apply fold_in in I as [I|[]]. apply in_map_iff in I as ([s w] & E & I). cbn in E. injection E as <- <-. eauto. }
  split; [|split; [apply fold_nodup; constructor|exact G]]. apply strk. intros k v I. destruct (G k v I) as (s & -> & _). eauto.
Qed.

(** What was read is read again as it is. *)
Lemma json_again : forall x y, json x = Ok y -> json y = Ok y.
Proof.
  intros x. induction x as [| | | | |l IH|l IH|d IH| |] using pv_rec_in; intros y H; cbn in H; try discriminate; try (injection H as <-; reflexivity).
  1,2: destruct (sequence (map json l)) as [l'|e] eqn:Q; cbn [rmap] in H; [|discriminate]; injection H as <-; cbn [StepMeta_Model.json];
    apply seq_f2 in Q; assert (G : sequence (map json l') = Ok l'); [|rewrite G; reflexivity];
    apply seq_f2; clear - Q IH; induction Q as [|a b l l' E Q IHQ]; constructor; [inversion_clear IH; auto|apply IHQ; inversion_clear IH; auto].
  change (rmap object (sequence (map pair_json d)) = Ok y) in H. destruct (sequence (map pair_json d)) as [l|e] eqn:Q; cbn [rmap] in H; [|discriminate]. injection H as <-.
  destruct (object_shape l) as (d' & -> & S & N & I). apply jdict; auto. exists d'. split; [auto|]. apply seq_f2 in Q.
  assert (G : forall s v, In (s, v) l -> json v = Ok v).
  { clear - Q IH. induction Q as [|[k v] [s w] d l E Q IHQ]; intros s' v' J; [contradiction|]. inversion_clear IH as [|? ? A B]. destruct J as [J|J]; [|eauto].
    injection J as -> ->. unfold pair_json in E. destruct (show_key show_int show_float k); [|discriminate]. cbn [rbind] in E. destruct (json v) as [w|] eqn:J; [|discriminate]. cbn in E. injection E as _ <-. apply A. auto. }
  clear - I G. induction d' as [|[k v] d' IH]; constructor.
  - split; [auto|]. cbn [snd]. destruct (I k v (or_introl eq_refl)) as (s & _ & J). eauto.
  - apply IH. intros k' v' J. apply (I k' v'). right. auto.
Qed.

Lemma json_str_dict : forall x y, str_dict x -> json x = Ok y -> str_dict y.
Proof.
  intros x y (d & -> & S) H. rewrite json_dict in H. destruct (sequence (map pair_json d)) as [l|e] eqn:Q; [|discriminate]. cbn [rmap] in H. injection H as <-.
  destruct (object_shape l) as (d' & -> & S' & _). apply strd. auto.
Qed.

Lemma str_or : forall x, custom_ok x -> str_dict (or_empty x).
Proof. intros x [->|H]; [exists []; split; [auto|intros k v []]|]. destruct H as (d & -> & S). exists d. auto. Qed.

Lemma str_or_m : forall x, metrics_ok x -> str_dict (or_empty x).
Proof.
  intros x [T|H].
  - destruct x as [|b|z|z|s|l|l|d|l|n]; try (exists []; split; [reflexivity|intros k v []]); try discriminate. destruct d; [|discriminate]. exists []; split; [auto|intros k v []].
  - destruct H as (d & -> & S). exists d. auto.
Qed.

Lemma json_handlers : forall x y, handlers_ok x -> json x = Ok y -> handlers_ok y.
Proof.
  intros x y [->|[[s ->]|H]] J; [injection J as <-; left; auto|injection J as <-; right; left; eauto|]. right. right. eapply json_str_dict; eauto.
Qed.

Lemma json_time : forall x y, time_ok x -> json x = Ok y -> y = x.
Proof. intros x y [->|[[z ->]|[b ->]]] J; injection J as <-; auto. Qed.

Lemma or_str : forall x, str_dict x -> or_empty x = x.
Proof. intros x (d & -> & _). auto. Qed.

Lemma f2_json_id : forall d, (forall k v, In (k, v) d -> json v = Ok v) -> Forall2 entry_json d d.
Proof. intros d H. induction d as [|[k v] d IH]; constructor; [split; [auto|apply (H k v); left; auto]|]. apply IH. intros k' v' I. apply (H k' v'). right. auto. Qed.

(** The floats of whole statistics pass through JSON as they are. *)
Lemma only_json : forall x, stats_whole x -> json (only_floats x) = Ok (only_floats x).
Proof.
  intros x W. assert (P : performance_ok x) by (destruct W as (l & -> & _); right; left; eauto). destruct (only_dict x) as [d E]. pose proof (only_in x d P E) as I.
  rewrite E. apply jdict.
  - apply strk. intros k v J. apply I in J as (n & z & -> & _). eauto.
  - destruct W as (l & -> & M). cbn in E. injection E as <-. rewrite map_map. cbn [fst]. assert (N : NoDup (map fst l)) by (rewrite M; apply stat_nodup). clear - N.
    induction l as [|[n v] l IH]; cbn [filter map fst]; [constructor|]. cbn [map fst] in N. inversion_clear N as [|? ? N1 N2]. specialize (IH N2). destruct v; cbn [snd]; auto. cbn [map fst]. constructor; [|auto].
    intros H. apply N1. apply in_map_iff in H as ([n' w] & X & H). cbn in X. injection X as ->. apply filter_In in H as [H _]. apply (in_map fst) in H. auto.
  - exists d. split; [auto|]. apply f2_json_id. intros k v J. apply I in J as (n & z & _ & -> & _). reflexivity.
Qed.

Definition entries_of (a b c d e f : pv) : dict key pv :=
  [ (KStr "item_handlers", a); (KStr "metrics", b); (KStr "performance_metrics", c); (KStr "init_timestamp_nsecs", d); (KStr "commit_timestamp_nsecs", e); (KStr "custom_metadata", f) ].

Lemma entries_nodup : forall a b c d e f, NoDup (map fst (entries_of a b c d e f)).
Proof. intros. cbn. repeat (constructor; [cbn; intuition discriminate|]). constructor. Qed.

(** Writing six entries *)
Lemma written_spec : forall a b c d e f r,
  written show_int show_float (entries_of a b c d e f) = Ok r <->
  exists a' b' c' d' e' f', r = VDict (entries_of a' b' c' d' e' f') /\ json a = Ok a' /\ json b = Ok b' /\ json c = Ok c' /\ json d = Ok d' /\ json e = Ok e' /\ json f = Ok f'.
Proof.
  intros a b c d e f r. unfold written. rewrite (jdict (entries_of a b c d e f) r eq_refl (entries_nodup a b c d e f)). split.
  - intros (d0 & -> & F). unfold entries_of in F.
    do 6 match goal with X : Forall2 _ (_ :: _) _ |- _ => inversion X as [|? [? ?] ? ? [? ?] ?]; clear X; subst end.
    match goal with X : Forall2 _ [] _ |- _ => inversion X; clear X; subst end. cbn [fst snd] in *. subst. do 6 eexists. split; [reflexivity|]. tauto.
  - intros (a' & b' & c' & d' & e' & f' & -> & A & B & C & X & E & F). eexists. split; [reflexivity|]. unfold entries_of. repeat (constructor; [split; auto|]). constructor.
Qed.

Lemma floats_only_has : forall x, performance_ok x -> forall n z, has_float (only_floats x) n z <-> has_float x n z.
Proof.
  intros x P n z. destruct (only_dict x) as [d E]. pose proof (only_in x d P E) as I. rewrite E. split.
  - intros [(d0 & X & J)|(l & X & _)]; [|discriminate]. injection X as <-. apply I in J as (n' & z' & A & B & H). injection A as <-. injection B as <-. auto.
  - intros H. left. exists d. split; [auto|]. apply I. eauto.
Qed.

Lemma floats_of_only : forall x y, performance_ok x -> floats_of (only_floats x) y -> floats_of x y.
Proof.
  intros x y P (l & -> & M & H). exists l. split; [auto|]. split; [auto|]. intros n v I. destruct (H n v I) as [(z & -> & F)|[F G]].
  - left. exists z. split; [auto|]. apply floats_only_has; auto.
  - right. split; [auto|]. intros z K. apply (G z). apply floats_only_has; auto.
Qed.

Lemma whole_known : forall x, stats_whole x -> floats_known x.
Proof. intros x (l & -> & M) n z [(d & X & _)|(l' & X & I)]; [discriminate|]. injection X as <-. rewrite <- M. apply (in_map fst) in I. auto. Qed.

Lemma only_ok : forall x, performance_ok x -> performance_ok (only_floats x).
Proof.
  intros x P. destruct (only_dict x) as [d E]. rewrite E. right. right. exists d. split; [auto|]. intros k v I. apply (only_in x d P E) in I as (n & z & -> & _). eauto.
Qed.

(** Reading six entries *)
Lemma read_spec : forall a b c d e f, handlers_ok a -> metrics_ok b -> performance_ok c -> floats_known c -> time_ok d -> time_ok e -> custom_ok f ->
  exists st, floats_of c st /\ deserialize (VDict (entries_of a b c d e f)) = (Ok (mkMeta a (or_empty b) st d e (or_empty f)), VDict (entries_of a b c d e f)).
Proof.
  intros a b c d e f A B C K X E F. destruct (ds_spec _ (entries_nodup a b c d e f)) as [(_ & _ & _ & st & G & H)|[H _]].
  - exists st. split; [exact G|]. rewrite (surjective_pairing (deserialize _)). rewrite H, ds_unchanged by (left; reflexivity). reflexivity.
  - exfalso. apply H. split; [unfold parts_ok; cbn; tauto|]. split; [exact K|]. left. reflexivity.
Qed.

Lemma metrics_str : forall x, str_dict x -> metrics_ok x.
Proof. intros x H. right. auto. Qed.

Theorem round_trip : forall m d f, stats_whole (performance_metrics m) -> serialize m = Ok d -> written show_int show_float d = Ok f ->
  exists m', deserialize f = (Ok m', f) /\ comes_back show_int show_float m m'.
Proof.
  intros m d f W S J. destruct (ser_spec m) as [[V E]|[_ E]]; [|congruence]. rewrite E in S. injection S as <-. destruct V as (V1 & V2 & V3 & V4 & V5 & V6).
  apply written_spec in J as (a & b & c & i & k & u & -> & A & B & C & I & K & U). rewrite (only_json _ W) in C. injection C as <-.
  pose proof (json_time _ _ V4 I) as ->. pose proof (json_time _ _ V5 K) as ->.
  pose proof (json_str_dict _ _ (str_or_m _ V2) B) as SB. pose proof (json_str_dict _ _ (str_or _ V6) U) as SU.
  destruct (read_spec a b (only_floats (performance_metrics m)) (init_timestamp_nsecs m) (commit_timestamp_nsecs m) u) as (st & F & R); auto.
  - eapply json_handlers; eauto.
  - apply metrics_str. auto.
  - apply only_ok. auto.
  - intros n z H. apply (whole_known _ W n z). apply floats_only_has; auto.
  - right. auto.
  - eexists. split; [exact R|]. unfold comes_back. cbn [item_handlers metrics performance_metrics init_timestamp_nsecs commit_timestamp_nsecs custom_metadata].
    rewrite (or_str _ SB), (or_str _ SU). split; [auto|]. split; [auto|]. split; [apply floats_of_only; auto|]. auto.
Qed.

(** Floats in whole statistics: taking those of [x], and again *)
Lemma only_twice : forall x y, stats_whole x -> floats_of x y -> only_floats y = only_floats x.
Proof.
  intros x y (l & -> & M) (l' & -> & M' & H). cbn [only_floats]. f_equal. f_equal.
  assert (HH : forall n v, In (n, v) l' -> (exists z, v = VFloat z /\ In (n, VFloat z) l) \/ (In (n, v) stat_fields /\ forall z, ~ In (n, VFloat z) l)).
  { intros n v I. destruct (H n v I) as [(z & E & [(d & X & _)|(l1 & X & J)])|[E F]]; [discriminate| |].
    - injection X as <-. left. eauto.
    - right. split; [auto|]. intros z J. apply (F z). right. eauto. }
  assert (D : forall n v, In (n, v) stat_fields -> forall z, v <> VFloat z).
  { clear. intros n v I z. cbn in I. repeat destruct I as [I|I]; try contradiction; injection I as _ <-; discriminate. }
  assert (N : NoDup (map fst l)) by (rewrite M; apply stat_nodup). clear H. assert (MM : map fst l' = map fst l) by congruence. clear M M'.
  revert l' MM HH. induction l as [|[n v] l IH]; intros [|[n' v'] l'] MM HH; try discriminate; [reflexivity|]. cbn [map fst] in MM, N. injection MM as -> MM. inversion_clear N as [|? ? N1 N2].
  cbn [filter snd]. assert (T : filter (fun y : string * pv => match snd y with VFloat _ => true | _ => false end) l' = filter (fun y => match snd y with VFloat _ => true | _ => false end) l).
  { apply IH; auto. intros n' w I. destruct (HH n' w (or_intror I)) as [(z & -> & [J|J])|[J K]].
    - injection J as <- _. exfalso. apply N1. rewrite <- MM. apply (in_map fst) in I. auto.
    - left. eauto.
    - right. split; [auto|]. intros z J'. apply (K z). right. auto. }
  rewrite T. destruct (HH n v' (or_introl eq_refl)) as [(z & -> & [J|J])|[J K]].
  - injection J as ->. reflexivity.
  - exfalso. apply N1. apply (in_map fst) in J. auto.
  - assert (F' : forall z, v' <> VFloat z) by (intros z; eapply D; eauto). assert (F : forall z, v <> VFloat z) by (intros z ->; apply (K z); left; auto).
    destruct v; try (exfalso; eapply F; reflexivity); destruct v'; try (exfalso; eapply F'; reflexivity); reflexivity.
Qed.

Theorem stable : forall m d f m', stats_whole (performance_metrics m) -> serialize m = Ok d -> written show_int show_float d = Ok f -> fst (deserialize f) = Ok m' ->
  exists d', serialize m' = Ok d' /\ written show_int show_float d' = Ok f.
Proof.
  intros m d f m' W S J R. destruct (round_trip m d f W S J) as (m2 & R2 & C). rewrite R2 in R. injection R as ->. destruct C as (C1 & C2 & C3 & C4 & C5 & C6).
  destruct (ser_spec m) as [[V E]|[_ E]]; [|congruence]. rewrite E in S. injection S as <-. destruct V as (V1 & V2 & V3 & V4 & V5 & V6).
  pose proof (json_str_dict _ _ (str_or_m _ V2) C2) as SB. pose proof (json_str_dict _ _ (str_or _ V6) C6) as SU.
  destruct (ser_spec m') as [[_ E']|[NV _]].
  - exists (entries m'). split; [auto|]. apply written_spec in J as (a & b & c & i & k & u & -> & A & B & C & I & K & U).
    apply written_spec. exists a, b, c, i, k, u. split; [auto|]. rewrite A in C1. injection C1 as ->. rewrite B in C2. injection C2 as ->. rewrite U in C6. injection C6 as ->.
    split; [eapply json_again; eauto|]. split; [rewrite (or_str _ SB); eapply json_again; eauto|]. split; [rewrite (only_twice _ _ W C3); auto|].
    rewrite C4, C5. split; [auto|]. split; [auto|]. rewrite (or_str _ SU). eapply json_again; eauto.
  - exfalso. apply NV. unfold valid. rewrite C4, C5. split; [eapply json_handlers; eauto|]. split; [right; auto|]. split; [destruct C3 as (l & -> & _); right; left; eauto|].
    split; [auto|]. split; [auto|]. right. auto.
Qed.

(** ** Updating *)

Lemma f2_get : forall d d' k, Forall2 entry_json d d' -> match dget key_eqb k d with Some v => exists w, dget key_eqb k d' = Some w /\ json v = Ok w | None => dget key_eqb k d' = None end.
Proof.
  intros d d' k F. induction F as [|[k1 v1] [k2 v2] d d' [E J] F IH]; cbn [dget]; auto. cbn [fst snd] in E, J. subst k2. destruct (key_eqb k k1); [eauto|exact IH].
Qed.

Lemma f2_mono : forall (kw d : dict key pv), str_keys kw = true -> str_keys d = true -> str_keys (fold_left (fun m x => dput key_eqb (fst x) (snd x) m) kw d) = true.
Proof. intros kw d A B. apply strk. intros k v I. rewrite strk in A, B. apply fold_in in I as [I|I]; eauto. Qed.

Theorem update_spec : forall d kw f, str_keys d = true -> str_keys kw = true -> NoDup (map fst d) -> NoDup (map fst kw) -> updated show_int show_float (VDict d) kw = Ok f ->
  exists d', f = VDict d' /\ str_keys d' = true /\ NoDup (map fst d') /\ forall n, json (after kw d n) = Ok (get n d').
Proof.
  intros d kw f SD SK ND NK H. unfold updated, written in H. apply jdict in H as (d' & -> & F); [|apply f2_mono; auto|apply fold_nodup; auto].
  exists d'. pose proof (f2_keys _ _ F) as EK. split; [auto|]. split; [|split].
  - apply strk. intros k v I. apply (in_map fst) in I. rewrite EK in I. cbn [fst] in I. apply in_map_iff in I as ([k' v'] & X & I). cbn [fst] in X. subst k'. pose proof (f2_mono kw d SK SD) as G. rewrite strk in G. eauto.
  - rewrite EK. apply fold_nodup; auto.
  - intros n. pose proof (f2_get _ _ (KStr n) F) as G. rewrite fold_get in G by auto. unfold after, get.
    destruct (dget key_eqb (KStr n) kw) as [v|]; [destruct G as (w & -> & J); auto|]. destruct (dget key_eqb (KStr n) d) as [v|]; [destruct G as (w & -> & J); auto|]. rewrite G. reflexivity.
Qed.

Theorem update_works : forall d kw, str_keys d = true -> str_keys kw = true -> NoDup (map fst d) -> NoDup (map fst kw) -> is_json show_int show_float (VDict d) ->
  (forall k v, In (k, v) kw -> exists w, json v = Ok w) -> exists f, updated show_int show_float (VDict d) kw = Ok f.
Proof.
  intros d kw SD SK ND NK JD JK. unfold is_json in JD. apply jdict in JD as (d0 & E & F); auto. injection E as <-.
  unfold updated, written. set (g := fold_left (fun m x => dput key_eqb (fst x) (snd x) m) kw d).
  assert (G : forall k v, In (k, v) g -> exists w, json v = Ok w).
  { intros k v I. apply fold_in in I as [I|I]; [eauto|]. assert (Q : forall a b : dict key pv, Forall2 entry_json a b -> In (k, v) a -> exists w, json v = Ok w).
    { clear. intros a b Q. induction Q as [|x y a b [_ E] Q IH]; intros I; [contradiction|]. destruct I as [->|I]; eauto. } eapply Q; eauto. }
  assert (H : exists g', Forall2 entry_json g g').
  { clear - G. induction g as [|[k v] g IH]; [exists []; constructor|]. destruct (G k v (or_introl eq_refl)) as [w J]. destruct IH as [g' H]; [intros; eapply G; right; eauto|]. exists ((k, w) :: g'). constructor; [split; auto|auto]. }
  destruct H as [g' H]. exists (VDict g'). apply jdict; [apply f2_mono; auto|apply fold_nodup; auto|eauto].
Qed.

End Json.

(** ** Keywords for an update *)

Lemma sfu_fields : forall kw fs u, NoDup (map fst fs) ->
  (forall f x, In f fs -> exists P : Prop, (P /\ snd f x = Ok (stored (fst f) x)) \/ (~ P /\ snd f x = Err ValueError)) ->
  sequence (flat_map (fun f : string * (pv -> result pv) => match dget key_eqb (KStr (fst f)) kw with Some x => [rmap (pair (KStr (fst f))) (snd f x)] | None => [] end) fs) = Ok u ->
  (forall f x, In f fs -> dget key_eqb (KStr (fst f)) kw = Some x -> snd f x = Ok (stored (fst f) x)) /\
  (forall k, dget key_eqb k u = match k with KStr n => if existsb (String.eqb n) (map fst fs) then option_map (stored n) (dget key_eqb k kw) else None | _ => None end).
Proof.
  intros kw fs. induction fs as [|[n p] fs IH]; intros u N H E.
  - cbn in E. injection E as <-. split; [intros f x []|]. intros [s| | | | |]; reflexivity.
  - cbn [map fst] in N. inversion_clear N as [|? ? N1 N2]. cbn [flat_map fst snd] in E.
    assert (H' : forall f x, In f fs -> exists P : Prop, (P /\ snd f x = Ok (stored (fst f) x)) \/ (~ P /\ snd f x = Err ValueError)) by (intros f x I; apply H; right; auto).
    destruct (dget key_eqb (KStr n) kw) as [x|] eqn:G; cbn [app] in E.
    + cbn [sequence] in E. destruct (H (n, p) x (or_introl eq_refl)) as (P & [[_ X]|[_ X]]); cbn [fst snd] in X; rewrite X in E; cbn [rmap rbind] in E; [|discriminate].
      destruct (sequence _) as [u'|e] eqn:Q in E; cbn [rbind] in E; [|discriminate]. injection E as <-. destruct (IH u' N2 H' Q) as [A B]. split.
      * intros f y [<-|I] Y; [cbn [fst snd] in *; congruence|auto].
      * intros k. cbn [dget]. destruct (key_spec k (KStr n)) as [->|D].
        -- cbn [map fst existsb]. rewrite String.eqb_refl, G. reflexivity.
        -- rewrite B. destruct k as [s| | | | |]; auto. cbn [map fst existsb]. destruct (String.eqb_spec s n) as [->|]; [congruence|]. reflexivity.
    + destruct (IH u N2 H' E) as [A B]. split.
      * intros f y [<-|I] Y; [cbn [fst snd] in *; congruence|auto].
      * intros k. rewrite B. destruct k as [s| | | | |]; auto. cbn [map fst existsb]. destruct (String.eqb_spec s n) as [->|]; cbn [orb]; [|reflexivity]. rewrite G. destruct (existsb _ _); reflexivity.
Qed.

Lemma sfu_works : forall kw fs, (forall f x, In f fs -> dget key_eqb (KStr (fst f)) kw = Some x -> exists y, snd f x = Ok y) ->
  exists u, sequence (flat_map (fun f : string * (pv -> result pv) => match dget key_eqb (KStr (fst f)) kw with Some x => [rmap (pair (KStr (fst f))) (snd f x)] | None => [] end) fs) = Ok u.
Proof.
  intros kw fs. induction fs as [|[n p] fs IH]; intros H; [exists []; auto|]. destruct IH as [u Q]; [intros f x I; apply H; right; auto|]. cbn [flat_map fst snd].
  destruct (dget key_eqb (KStr n) kw) as [x|] eqn:G; cbn [app]; [|eauto]. destruct (H (n, p) x (or_introl eq_refl) G) as [y Y]. cbn [snd] in Y. cbn [sequence]. rewrite Y. cbn [rmap rbind]. rewrite Q. cbn [rbind]. eauto.
Qed.

Lemma fields_nodup : NoDup (map fst fields).
Proof. cbn. repeat (constructor; [cbn; intuition discriminate|]). constructor. Qed.

Lemma fields_spec : forall f x, In f fields -> exists P : Prop, (P /\ snd f x = Ok (stored (fst f) x)) \/ (~ P /\ snd f x = Err ValueError).
Proof. intros f x I. exists (field_ok (fst f) x). apply fld_spec. auto. Qed.

Theorem kw_spec : forall kw, NoDup (map fst kw) ->
  ((forall k v, In (k, v) kw -> exists n, k = KStr n /\ In n names /\ field_ok n v) <-> exists u, serialize_for_update kw = Ok u).
Proof.
  intros kw N. unfold serialize_for_update. split.
  - intros H. assert (K : forallb (fun x => known (map fst fields) (fst x)) kw = true).
    { apply forallb_forall. intros [k v] I. destruct (H k v I) as (n & -> & J & _). unfold known. apply existsb_exists. exists n. split; [exact J|]. cbn. apply String.eqb_refl. }
    rewrite K. apply sfu_works. intros f x I G. apply (dget_some_in key_eqb key_spec) in G. destruct (H _ _ G) as (n & E & _ & F). injection E as E. destruct (fld_spec f x I) as [[_ X]|[X _]]; [eauto|].
    exfalso. apply X. rewrite E. auto.
  - intros [u E] k v I. destruct (forallb _ kw) eqn:K; [|discriminate]. rewrite forallb_forall in K. specialize (K _ I). cbn [fst] in K. unfold known in K. apply existsb_exists in K as (n & J & K).
    destruct (key_spec (KStr n) k) as [<-|]; [|discriminate]. exists n. split; [auto|]. split; [exact J|].
    destruct (sfu_fields kw fields u fields_nodup fields_spec E) as [A _]. apply in_map_iff in J as (f & <- & J). apply (dget_in key_eqb key_spec) in I; [|auto].
    specialize (A f v J I). destruct (fld_spec f v J) as [[X _]|[_ X]]; [auto|congruence].
Qed.

Theorem kw_value : forall kw u, serialize_for_update kw = Ok u -> forall n, dget key_eqb (KStr n) u = option_map (stored n) (dget key_eqb (KStr n) kw).
Proof.
  intros kw u E n. unfold serialize_for_update in E. destruct (forallb _ kw) eqn:K; [|discriminate]. destruct (sfu_fields kw fields u fields_nodup fields_spec E) as [_ B]. rewrite B.
  destruct (existsb (String.eqb n) (map fst fields)) eqn:X; [auto|]. destruct (dget key_eqb (KStr n) kw) as [v|] eqn:G; [|auto]. exfalso.
  apply (dget_some_in key_eqb key_spec) in G. rewrite forallb_forall in K. specialize (K _ G). cbn [fst] in K. unfold known in K. apply existsb_exists in K as (m & J & K). cbn in K.
  assert (T : existsb (String.eqb n) (map fst fields) = true); [|congruence]. apply existsb_exists. exists m. split; [auto|]. destruct (String.eqb_spec m n) as [->|]; [apply String.eqb_refl|discriminate].
Qed.

(** ** The life of a step's metadata *)

Section Life.

Variables show_int show_float : Z -> string.
Notation json := (json show_int show_float).

Lemma first_file : forall init, rbind (serialize (new_meta init)) (written show_int show_float) = Ok (VDict (entries_of VNone (VDict []) (VDict []) (VInt init) VNone (VDict []))).
Proof. reflexivity. Qed.

Lemma kw_life : forall c h, serialize_for_update (kw_of c h) =
  rbind (match h with Some x => rmap (fun y => [(KStr "item_handlers", y)]) (validate_and_process_item_handlers x) | None => Ok [] end) (fun a =>
  rmap (fun y => (a ++ [(KStr "custom_metadata", y)])%list) (validate_and_process_custom_metadata c)).
Proof.
  intros c [x|]; unfold serialize_for_update, kw_of; cbn -[validate_and_process_item_handlers validate_and_process_custom_metadata].
  - destruct (validate_and_process_item_handlers x); cbn [rmap rbind]; [|auto]. destruct (validate_and_process_custom_metadata c); reflexivity.
  - destruct (validate_and_process_custom_metadata c); reflexivity.
Qed.

Lemma life_spec : forall init c h commit f, save_metadata show_int show_float init (kw_of c h) commit = Ok f <->
  handlers_ok (or_none h) /\ custom_ok c /\ exists h' c', json (or_none h) = Ok h' /\ json (or_empty c) = Ok c' /\
  f = VDict (entries_of h' (VDict []) (VDict []) (VInt init) (VInt commit) c').
Proof.
  intros init c h commit f. unfold save_metadata. rewrite first_file. cbn [rbind]. rewrite kw_life.
  assert (T : forall hh, handlers_ok hh -> custom_ok c ->
    (rbind (written show_int show_float (entries_of hh (VDict []) (VDict []) (VInt init) VNone (or_empty c))) (fun f1 => updated show_int show_float f1 [(KStr "commit_timestamp_nsecs", VInt commit)]) = Ok f <->
     exists h' c', json hh = Ok h' /\ json (or_empty c) = Ok c' /\ f = VDict (entries_of h' (VDict []) (VDict []) (VInt init) (VInt commit) c'))).
  { intros hh H C. split.
    - destruct (written _ _ _) as [f1|e] eqn:W; cbn [rbind]; [|discriminate]. apply written_spec in W as (a & b & p & d & e & u & -> & A & B & P & D & E & U).
      injection B as <-. injection P as <-. injection D as <-. injection E as <-. intros X. exists a, u. split; [auto|]. split; [auto|].
      change (written show_int show_float (entries_of a (VDict []) (VDict []) (VInt init) (VInt commit) u) = Ok f) in X.
      apply written_spec in X as (a2 & b2 & p2 & d2 & e2 & u2 & -> & A2 & B2 & P2 & D2 & E2 & U2). injection B2 as <-. injection P2 as <-. injection D2 as <-. injection E2 as <-.
      rewrite (json_again _ _ _ _ A) in A2. rewrite (json_again _ _ _ _ U) in U2. injection A2 as <-. injection U2 as <-. reflexivity.
    - intros (h' & c' & A & U & ->).
      assert (W : written show_int show_float (entries_of hh (VDict []) (VDict []) (VInt init) VNone (or_empty c)) = Ok (VDict (entries_of h' (VDict []) (VDict []) (VInt init) VNone c')))
        by (apply written_spec; do 6 eexists; repeat (split; [first [reflexivity|eassumption]|]); auto).
      rewrite W. cbn [rbind]. change (written show_int show_float (entries_of h' (VDict []) (VDict []) (VInt init) (VInt commit) c') = Ok (VDict (entries_of h' (VDict []) (VDict []) (VInt init) (VInt commit) c'))).
      apply written_spec. exists h', (VDict []), (VDict []), (VInt init), (VInt commit), c'. pose proof (json_again _ _ _ _ A). pose proof (json_again _ _ _ _ U). tauto. }
  destruct h as [x|]; cbn [or_none].
  - destruct (ih_spec x) as [[H E]|[H E]]; rewrite E; cbn [rmap rbind]; [|split; [discriminate|tauto]].
    destruct (cu_spec c) as [[C EC]|[C EC]]; rewrite EC; cbn [rmap rbind]; [|split; [discriminate|tauto]].
    specialize (T x H C). change (updated show_int show_float (VDict (entries_of VNone (VDict []) (VDict []) (VInt init) VNone (VDict []))) ([(KStr "item_handlers", x)] ++ [(KStr "custom_metadata", or_empty c)])%list)
      with (written show_int show_float (entries_of x (VDict []) (VDict []) (VInt init) VNone (or_empty c))). rewrite T. tauto.
  - assert (H : handlers_ok VNone) by (left; auto). cbn [rbind].
    destruct (cu_spec c) as [[C EC]|[C EC]]; rewrite EC; cbn [rmap rbind]; [|split; [discriminate|tauto]].
    specialize (T VNone H C). change (updated show_int show_float (VDict (entries_of VNone (VDict []) (VDict []) (VInt init) VNone (VDict []))) ([] ++ [(KStr "custom_metadata", or_empty c)])%list)
      with (written show_int show_float (entries_of VNone (VDict []) (VDict []) (VInt init) VNone (or_empty c))). rewrite T. tauto.
Qed.

Theorem life_read : forall init c h commit f, save_metadata show_int show_float init (kw_of c h) commit = Ok f ->
  exists m, deserialize f = (Ok m, f) /\ json (or_none h) = Ok (item_handlers m) /\ json (or_empty c) = Ok (custom_metadata m) /\
  init_timestamp_nsecs m = VInt init /\ commit_timestamp_nsecs m = VInt commit /\ metrics m = VDict [] /\ performance_metrics m = VStats stat_fields.
Proof.
  intros init c h commit f H. apply life_spec in H as (H & C & h' & c' & A & U & ->).
  pose proof (json_str_dict _ _ _ _ (str_or _ C) U) as SU. exists (mkMeta h' (VDict []) (VStats stat_fields) (VInt init) (VInt commit) c').
  split; [|repeat (split; [first [assumption|reflexivity]|]); reflexivity].
  destruct (read_spec h' (VDict []) (VDict []) (VInt init) (VInt commit) c') as (st & F & R).
  - eapply json_handlers; eauto.
  - left. auto.
  - right. right. exists []. split; [auto|intros k v []].
  - intros n z [(d & X & I)|(l & X & _)]; [injection X as <-; contradiction|discriminate].
  - right. left. eauto.
  - right. left. eauto.
  - right. auto.
  - rewrite (or_str _ SU) in R. rewrite R. f_equal. f_equal. f_equal. clear - R F.
    destruct F as (l & -> & M & F). f_equal.
    assert (G : forall n v, In (n, v) l -> In (n, v) stat_fields).
    { intros n v I. destruct (F n v I) as [(z & _ & [(d & X & J)|(l' & X & _)])|[I' _]]; [injection X as <-; contradiction|discriminate|auto]. }
    clear F R. pose proof stat_nodup as N. revert l M G. induction stat_fields as [|[n v] r IH]; intros [|[n' v'] l] M G; try discriminate; auto.
    cbn [map fst] in M, N. inversion_clear N as [|? ? N1 N2]. injection M as -> M. f_equal.
    + destruct (G n v' (or_introl eq_refl)) as [E|E]; [auto|]. exfalso. apply N1. apply (in_map fst) in E. auto.
    + apply IH; auto. intros n' w I. destruct (G n' w (or_intror I)) as [E|E]; [|auto]. injection E as <- <-. exfalso. apply N1. rewrite <- M. apply (in_map fst) in I. auto.
Qed.

End Life.

(** ** Metrics that are added *)

Lemma added : forall x im a s, NoDup (map fst a) -> deserialize_step x im (VDict a) = Ok s ->
  exists m d d', fst (deserialize x) = Ok m /\ or_empty (metrics m) = VDict d /\ metrics (s_meta s) = VDict d' /\
    (forall k, dget key_eqb k d' = match dget key_eqb k a with Some v => Some v | None => dget key_eqb k d end) /\
    s_item_metadata s = im /\ item_handlers (s_meta s) = item_handlers m /\ performance_metrics (s_meta s) = performance_metrics m /\
    init_timestamp_nsecs (s_meta s) = init_timestamp_nsecs m /\ commit_timestamp_nsecs (s_meta s) = commit_timestamp_nsecs m /\ custom_metadata (s_meta s) = custom_metadata m.
Proof.
  intros x im a s N H. unfold deserialize_step in H. destruct (fst (deserialize x)) as [m|e]; cbn [rbind] in H; [|discriminate].
  destruct (validate_and_process_metrics (metrics m) (VDict a)) as [mt|e] eqn:V; cbn [rmap] in H; [|discriminate]. injection H as <-.
  destruct (or_dict (metrics m)) as [d D]. exists m, d. unfold validate_and_process_metrics in V.
  assert (E : (if truthy (metrics m) then metrics m else VDict []) = VDict d).
  { destruct (truthy (metrics m)) eqn:T.
    - destruct (metrics m); try discriminate. exact D.
    - destruct (metrics m) as [| | | | | | |d0| |]; cbn in D; try (injection D as <-; reflexivity). destruct d0; [injection D as <-; reflexivity|discriminate]. }
  rewrite E in V. destruct (str_keys d); [|discriminate]. destruct (str_keys a); [|discriminate]. injection V as <-. eexists. cbn [s_meta metrics s_item_metadata item_handlers performance_metrics init_timestamp_nsecs commit_timestamp_nsecs custom_metadata].
  split; [auto|]. split; [auto|]. split; [reflexivity|]. split; [|auto 10]. intros k. apply fold_get. auto.
Qed.

(** ** The root *)

Lemma root_ser : forall i c, (custom_ok i /\ custom_ok c /\ serialize_root i c = Ok [(KStr "internal_metadata", or_empty i); (KStr "custom_metadata", or_empty c)]) \/
  (~ (custom_ok i /\ custom_ok c) /\ serialize_root i c = Err ValueError).
Proof.
  intros i c. unfold serialize_root. destruct (cu_spec i) as [[H E]|[H E]]; rewrite E; cbn [rbind]; [|right; split; [tauto|auto]].
  destruct (cu_spec c) as [[H' E']|[H' E']]; rewrite E'; cbn [rmap]; [left|right]; (split; [tauto|]); auto.
Qed.

Lemma root_ds : forall d, NoDup (map fst d) ->
  (custom_ok (get "internal_metadata" d) /\ custom_ok (get "custom_metadata" d) /\ unknown_ok root_names d /\
     fst (deserialize_root (VDict d)) = Ok (or_empty (get "internal_metadata" d), match unknown root_names d with [] => or_empty (get "custom_metadata" d) | u => VDict u end)) \/
  (~ (custom_ok (get "internal_metadata" d) /\ custom_ok (get "custom_metadata" d) /\ unknown_ok root_names d) /\ fst (deserialize_root (VDict d)) = Err ValueError).
Proof.
  intros d N. cbn [deserialize_root].
  destruct (cu_spec (get "internal_metadata" d)) as [[H E]|[H E]]; rewrite E; [|right; split; [tauto|auto]].
  destruct (cu_spec (get "custom_metadata" d)) as [[H' E']|[H' E']]; rewrite E'; [|right; split; [tauto|auto]].
  destruct (or_dict (get "custom_metadata" d)) as [c C]. rewrite C. change root_fields with root_names.
  destruct (addu_spec root_names d c H' C N) as [[U A]|[U A]]; destruct (add_unknown _ (is_same d) d c d) as [r d'] eqn:X; cbn [fst] in A; subst r; cbn [fst].
  - left. split; [auto|]. split; [auto|]. split; [auto|]. destruct (unknown _ d); reflexivity.
  - right. split; [tauto|auto].
Qed.

Theorem root_round_trip : forall si sf i c d f, serialize_root i c = Ok d -> written si sf d = Ok f ->
  exists i' c', fst (deserialize_root f) = Ok (i', c') /\ json si sf (or_empty i) = Ok i' /\ json si sf (or_empty c) = Ok c'.
Proof.
  intros si sf i c d f S W. destruct (root_ser i c) as [(HI & HC & E)|[_ E]]; [|congruence]. rewrite E in S. injection S as <-.
  assert (N : forall a b : pv, NoDup (map fst [(KStr "internal_metadata", a); (KStr "custom_metadata", b)])) by (intros; cbn; repeat (constructor; [cbn; intuition discriminate|]); constructor).
  unfold written in W. apply jdict in W as (d' & -> & F); [|reflexivity|apply N].
  do 2 match goal with X : Forall2 _ (_ :: _) _ |- _ => inversion X as [|? [? ?] ? ? [? ?] ?]; clear X; subst end.
  match goal with X : Forall2 _ [] _ |- _ => inversion X; clear X; subst end. cbn [fst snd] in *. subst.
  match goal with |- context [VDict [(_, ?a); (_, ?b)]] => rename a into i'; rename b into c' end. exists i', c'.
  match goal with X : json si sf (or_empty i) = Ok i' |- _ => pose proof (json_str_dict _ _ _ _ (str_or _ HI) X) as SI end.
  match goal with X : json si sf (or_empty c) = Ok c' |- _ => pose proof (json_str_dict _ _ _ _ (str_or _ HC) X) as SC end.
  split; [|auto]. destruct (root_ds _ (N i' c')) as [(_ & _ & _ & R)|[R _]].
  - rewrite R. cbn. rewrite (or_str _ SI), (or_str _ SC). reflexivity.
  - exfalso. apply R. cbn. split; [right; auto|]. split; [right; auto|]. left. reflexivity.
Qed.
