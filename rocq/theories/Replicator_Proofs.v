(** Proofs about the manager of replicated local checkpoints. *)
From Coq Require Import List Bool Arith ZArith String Lia.
From Verif Require Import Base Tree_Model Mesh_Model Mesh_Spec Mesh_Proofs Mesh_Props Replicator_Model Replicator_Spec.
From Verif Require Tree_Proofs Parts_Proofs.
Import ListNotations.
Open Scope list_scope.

Lemma seq_ok : forall {A B} (f : A -> result B) l ys, sequence (map f l) = Ok ys <-> Forall2 (fun x y => f x = Ok y) l ys.
Proof. intros A B f l ys. exact (Mesh_Proofs.sequence_ok f l ys). Qed.

Lemma f2_impl : forall {A B} (P Q : A -> B -> Prop) l m, (forall x y, In x l -> In y m -> P x y -> Q x y) -> Forall2 P l m -> Forall2 Q l m.
Proof. intros A B P Q l m H F. induction F; constructor; [apply H; cbn; auto|apply IHF; intros; apply H; cbn; auto]. Qed.

Lemma f2_map_l : forall {A B C} (P : B -> C -> Prop) (f : A -> B) l m, Forall2 (fun x y => P (f x) y) l m <-> Forall2 P (map f l) m.
Proof. intros A B C P f l m. split; intros F. - induction F; cbn; auto. - remember (map f l) as l' eqn:E. revert l E. induction F; intros [|a l'']; cbn; intros E; inversion E; subst; auto. Qed.

Lemma f2_map_r : forall {A B C} (P : A -> C -> Prop) (f : B -> C) l m, Forall2 (fun x y => P x (f y)) l m <-> Forall2 P l (map f m).
Proof. intros A B C P f l m. split; intros F. - induction F; cbn; auto. - remember (map f m) as m' eqn:E. revert m E. induction F; intros [|a m'']; cbn; intros E; inversion E; subst; auto. Qed.

Lemma f2_in : forall {A B} (P : A -> B -> Prop) l m x, Forall2 P l m -> In x l -> exists y, In y m /\ P x y.
Proof. intros A B P l m x F. induction F; intros []; [subst; eexists; split; [left; auto|auto]|]. destruct (IHF H0) as (z & I & Q). exists z. cbn; auto. Qed.

Lemma f2_choose : forall {A B} (P : A -> B -> Prop) l, (forall x, In x l -> exists y, P x y) -> exists m, Forall2 P l m.
Proof. intros A B P l. induction l; intros H; [exists []; constructor|]. destruct (H a) as (y & Q); cbn; auto. destruct IHl as (m & F); [intros; apply H; cbn; auto|]. exists (y :: m). auto. Qed.

Lemma f2_combine : forall {A B} (P : A -> B -> Prop) l m, Forall2 P l m -> Forall (fun x => P (fst x) (snd x)) (combine l m) /\ List.length l = List.length m.
Proof. intros A B P l m F. induction F; cbn; [auto|]. destruct IHF. split; [constructor; auto|lia]. Qed.

Lemma combine_f2 : forall {A B C} (P : A -> Prop) (Q : A -> C -> Prop) (R : B -> C -> Prop) (T : A * B -> C -> Prop) l m n,
  (forall x y z, Q x z -> R y z -> T (x, y) z) -> Forall2 Q l n -> Forall2 R m n -> Forall2 T (combine l m) n.
Proof. intros A B C P Q R T l m n H F. revert m. induction F; intros m G; inversion G; subst; cbn; auto. Qed.

Lemma forall2_eq : forall {A} (l m : list A), Forall2 eq l m -> l = m.
Proof. intros A l m F. induction F; subst; auto. Qed.

Lemma forall2_length : forall {A B} (P : A -> B -> Prop) l m, Forall2 P l m -> List.length l = List.length m.
Proof. intros A B P l m F. induction F; cbn; auto. Qed.

Lemma entries_concat : forall t, entries t = List.length (List.concat t).
Proof. induction t as [|r t IH]; auto. unfold entries in *. change (list_sum (map (@List.length Z) (r :: t))) with (List.length r + list_sum (map (@List.length Z) t)). cbn [List.concat]. rewrite app_length, IH. auto. Qed.

Section Proofs.
Context {H V G S D : Type}.
Variable split : @layout S -> G -> list V.
Variable join : @layout S -> list V -> option G.
Notation engine := (@engine H V S D).
Notation args := (list (string * @item_args S)).

Lemma can_use_iff : forall e : engine, can_use_mesh_consistency (e_previous e) (e_current e) (e_previous_ids e) = true <-> same_counts e.
Proof.
  intros e. unfold can_use_mesh_consistency, same_counts. rewrite !andb_true_iff, !Nat.eqb_eq, !entries_concat. tauto.
Qed.

(** The mesh to restore with has the hardware of the mesh before. *)
Lemma mesh_hardware : forall (e : engine) before m, right_ids e before -> consistent_restore_mesh (e_flag e) (e_devices e) (e_mesh e) (e_previous_ids e) (e_previous e) (e_current e) = Ok m ->
  shape m = shape (e_mesh e) /\ map (fun d => e_hw e (dev_id d)) (devices m) = map before (e_previous_ids e).
Proof.
  intros e before m R E. unfold right_ids in R. destruct (e_flag e) eqn:F.
  - destruct (C51_consistent before (e_hw e) _ _ _ _ _ _ R E) as (A & B & _). auto.
  - unfold consistent_restore_mesh in E. destruct (sequence _) as [l|] eqn:Q; [|discriminate]. cbn [rbind] in E. unfold reshape in E. destruct (_ =? _)%nat; [|discriminate]. injection E as <-. cbn [shape devices]. split; auto.
    apply Mesh_Proofs.sequence_ok in Q. revert R. induction Q as [|i d ids l E Q IH]; intros R; cbn; auto. f_equal.
    + rewrite R by (cbn; auto). f_equal. clear - E. induction (e_devices e) as [|x r IH]; cbn in E; [discriminate|]. destruct (Z.eqb_spec (dev_id x) i); auto. injection E as <-. auto.
    + apply IH. intros j J. apply R. cbn; auto.
Qed.

Lemma mesh_made : forall e : engine, ready e -> exists m, consistent_restore_mesh (e_flag e) (e_devices e) (e_mesh e) (e_previous_ids e) (e_previous e) (e_current e) = Ok m.
Proof.
  intros e (L & R). destruct (e_flag e).
  - destruct R as (A & B & C). apply C51_makes; auto.
  - unfold consistent_restore_mesh. assert (Q : exists l, sequence (map (device_with_id (e_devices e)) (e_previous_ids e)) = Ok l).
    { destruct (f2_choose (fun i d => device_with_id (e_devices e) i = Ok d) (e_previous_ids e)) as (l & F); [|exists l; apply seq_ok; auto].
      intros i I. destruct (R i I) as (d & J & E). clear - J E. induction (e_devices e) as [|x r IH]; [destruct J|]. cbn. destruct (Z.eqb_spec (dev_id x) i); eauto. destruct J as [->|J]; [contradiction|auto]. }
    destruct Q as (l & Q). rewrite Q. cbn [rbind]. apply seq_ok in Q. apply forall2_length in Q. unfold reshape. rewrite <- Q, L. unfold size. rewrite Nat.eqb_refl. eauto.
Qed.

Definition staged (rm : mesh) (ts : list (S * G * @sharding S)) : list (@array G S) := map (fun t => mkArray (Named rm (fst (fst t))) (snd (fst t))) ts.
Definition final (ts : list (S * G * @sharding S)) : list (@array G S) := map (fun t => mkArray (snd t) (snd (fst t))) ts.

Lemma read_named : forall (e : engine) before m l p g, fits split join -> shape m = shape (e_mesh e) -> map (fun d => e_hw e (dev_id d)) (devices m) = map before (e_previous_ids e) ->
  saved_leaf split before (e_previous_ids e) (shape (e_mesh e)) l p g -> read_leaf join e (Named m p) l = Ok (mkArray (Named m p) g).
Proof.
  intros e before m l p g J SH HW (_ & F). unfold read_leaf. cbn [layout_of devices_of]. rewrite SH.
  replace (sequence _) with (Ok (split (Grid (shape (e_mesh e)) p) g)); [cbn [rbind]; rewrite J; auto|]. symmetry.
  rewrite <- (map_map (fun d => e_hw e (dev_id d)) (fun h => match l_parts l h with Some v => Ok v | None => Err FileNotFoundError end)), HW, map_map.
  apply seq_ok. revert F. apply f2_impl. intros i v _ _ ->. auto.
Qed.

(** ** One item *)

Lemma item_stage : forall (e : engine) before m k l ts, fits split join -> shape m = shape (e_mesh e) -> map (fun d => e_hw e (dev_id d)) (devices m) = map before (e_previous_ids e) ->
  NoDup (map fst (e_local e)) -> stored split e before k (map fst ts) -> wants (e_mesh e) (Some l) ts ->
  exists l', consistent_item m (k, PyTree (Some l)) = Ok [(k, PyTree (Some l'))] /\ read_item join e (k, PyTree (Some l')) = Ok (k, @Arrays G S D (staged m ts)) /\
    forall restored : list (string * @item G S D), dget String.eqb k restored = Some (Arrays (staged m ts)) -> result_item restored (k, PyTree (Some l)) = Ok (k, Arrays (final ts)).
Proof.
  intros e before m k l ts J SH HW ND (leaves & I & F) W. cbn [wants] in W.
  assert (R : exists l', sequence (map (replace_sharding m) l) = Ok l' /\ Forall2 (fun a t => asked a = Ok (Named m (fst (fst t)))) l' ts).
  { clear - W. induction W as [|a t l ts (m0 & m' & ax & -> & E) W (l' & Q & F)]; [exists []; split; auto; constructor|].
    exists (ArrayArgs (Some (Jax (Named m (fst (fst t))))) m' ax :: l'). split; [|constructor; auto]. cbn [map sequence replace_sharding asked rbind]. rewrite Q. auto. }
  destruct R as (l' & R & A). exists l'. split; [|split].
  - cbn [consistent_item snd fst]. rewrite R. auto.
  - unfold read_item. cbn [fst snd]. rewrite (proj2 (Tree_Proofs.dget_in String.eqb String.eqb_spec k leaves (e_local e) ND) I).
    assert (L : List.length l' = List.length leaves). { apply forall2_length in A. apply forall2_length in F. rewrite map_length in F. congruence. }
    rewrite L, Nat.eqb_refl. replace (sequence _) with (Ok (staged m ts)); auto. symmetry. apply seq_ok. unfold staged. apply (proj1 (f2_map_r _ _ _ _)).
    apply (combine_f2 (fun _ => True) (fun a t => asked a = Ok (Named m (fst (fst t)))) (fun lf t => saved_leaf split before (e_previous_ids e) (shape (e_mesh e)) lf (fst (fst t)) (snd (fst t)))); auto.
    + intros a lf t E L'. cbn [fst snd]. rewrite E. cbn [rbind]. apply (read_named e before); auto.
    + apply (proj2 (f2_map_r _ _ _ _)) in F. exact F.
  - intros restored E. unfold result_item. cbn [fst snd]. rewrite E.
    assert (Q : sequence (map field l) = Ok (map (fun t => Some (Jax (snd t))) ts)).
    { apply seq_ok. apply (proj1 (f2_map_r _ _ _ _)). revert W. apply f2_impl. intros a t _ _ (m0 & m' & ax & -> & ->). auto. }
    rewrite Q. cbn [rbind]. replace (sequence _) with (Ok (final ts)); auto. symmetry. apply seq_ok. unfold final. apply (proj1 (f2_map_r _ _ _ _)).
    clear. unfold staged. induction ts; cbn; constructor; auto.
Qed.

Lemma item_materialize : forall (e : engine) before k o ts, NoDup (map fst (e_local e)) -> stored split e before k (map fst ts) -> wants (e_mesh e) o ts ->
  exists l, materialize_item e (k, PyTree o) = Ok (k, PyTree (Some l)) /\ wants (e_mesh e) (Some l) ts.
Proof.
  intros e before k [l|] ts ND (leaves & I & F) W; [exists l; auto|]. exists (map (fun t => ArrayArgs (Some (Jax (Named (e_mesh e) (fst (fst t))))) None None) ts).
  cbn [materialize_item snd fst]. rewrite (proj2 (Tree_Proofs.dget_in String.eqb String.eqb_spec k leaves (e_local e) ND) I). split.
  - replace (sequence _) with (Ok (map (fun t => Some (Named (e_mesh e) (fst (fst t)))) ts)).
    + cbn [rbind]. rewrite map_map. auto.
    + symmetry. apply seq_ok. apply (proj1 (f2_map_r _ _ _ _)). apply (proj2 (f2_map_r _ _ _ _)) in F. revert F. apply f2_impl. intros lf t _ _ (M & _). cbn. rewrite M. auto.
  - cbn [wants]. apply (proj1 (f2_map_l _ _ _ _)). cbn [wants] in W. clear - W. induction W; constructor; auto. exists (e_mesh e), None, None. auto.
Qed.

(** ** The whole *)

Lemma in_concat_dget : forall {A} (l : list (string * A)) k v, NoDup (map fst l) -> In (k, v) l -> dget String.eqb k l = Some v.
Proof. intros A l k v N I. apply (proj2 (Tree_Proofs.dget_in String.eqb String.eqb_spec k v l N) I). Qed.

Lemma materialize_names : forall (e : engine) (a a' : args), materialize e a = Ok a' -> map fst a' = map fst a.
Proof.
  intros e a a' E. apply seq_ok in E. induction E as [|x y l m E F IH]; cbn; auto. f_equal; auto.
  unfold materialize_item in E. destruct x as [k b]. cbn [snd fst] in *. destruct b as [|[l0|]|r]; try (injection E as <-; auto).
  destruct (dget _ _ _); [|discriminate]. destruct (sequence _); cbn [rbind] in E; [injection E as <-|discriminate]; auto.
Qed.

Lemma consistent_item_names : forall m (x : string * @item_args S) c, consistent_item m x = Ok c -> c = [] \/ exists a, c = [(fst x, a)].
Proof.
  intros m [k a] c E. unfold consistent_item in E. cbn [snd fst] in *. destruct a as [|[l|]|r]; try (injection E as <-; eauto).
  destruct (sequence _); cbn [rbind] in E; [injection E as <-|discriminate]; eauto.
Qed.

Lemma consistent_names : forall m (a : args) cl, Forall2 (fun x c => consistent_item m x = Ok c) a cl -> NoDup (map fst a) -> NoDup (map fst (List.concat cl)).
Proof.
  intros m a cl F. assert (SUB : forall k, In k (map fst (List.concat cl)) -> In k (map fst a)).
  { induction F as [|x c a cl E F IH]; cbn; auto. intros k. rewrite map_app, in_app_iff. intros [I|I]; auto. apply consistent_item_names in E as [-> | (b & ->)]; [destruct I|]. destruct I as [<-|[]]. auto. }
  revert SUB. induction F as [|x c a cl E F IH]; cbn; intros SUB N; [constructor|]. inversion N as [|? ? NI N']; subst.
  assert (SUB' : forall k, In k (map fst (List.concat cl)) -> In k (map fst a)).
  { clear - F. induction F as [|x c a cl E F IH]; cbn; auto. intros k. rewrite map_app, in_app_iff. intros [I|I]; auto. apply consistent_item_names in E as [-> | (b & ->)]; [destruct I|]. destruct I as [<-|[]]. auto. }
  apply consistent_item_names in E as [-> | (b & ->)]; cbn; auto. constructor; auto.
Qed.

Lemma read_item_name : forall (e : engine) x y, read_item join e x = Ok y -> fst y = fst x.
Proof.
  intros e [k a] y E. unfold read_item in E. cbn [fst snd] in *. destruct (dget _ _ _); [|discriminate]. destruct a as [|[l0|]|]; try discriminate. destruct (_ =? _)%nat; [|discriminate].
  destruct (sequence _); cbn [rbind] in E; [injection E as <-|discriminate]; auto.
Qed.

Lemma impl_names : forall (e : engine) a r, impl_restore join e a = Ok r -> map fst r = map fst a.
Proof. intros e a r E. apply seq_ok in E. induction E as [|x y l m E F IH]; cbn; auto. f_equal; auto. apply (read_item_name e); auto. Qed.

Lemma impl_in : forall (e : engine) a r x y, impl_restore join e a = Ok r -> In x a -> read_item join e x = Ok y -> In y r.
Proof. intros e a r x y E I R. apply seq_ok in E. destruct (f2_in _ _ _ x E I) as (z & J & Q). rewrite R in Q. injection Q as <-. auto. Qed.

Lemma dget_dput_ne : forall {A} k k' (v : A) d, k <> k' -> dget String.eqb k (dput String.eqb k' v d) = dget String.eqb k d.
Proof. intros A k k' v d N. rewrite (Parts_Proofs.dget_dput String.eqb String.eqb_spec). destruct (String.eqb_spec k k'); [contradiction|auto]. Qed.

Lemma add_dataset_other : forall (e : engine) a (r r' : list (string * @item G S D)) k, add_dataset e a r = Ok r' -> k <> dataset_name -> dget String.eqb k r' = dget String.eqb k r.
Proof.
  intros e a r r' k E N. unfold add_dataset in E. destruct (e_persistent e) as [d|]; [|injection E as <-; auto]. destruct (has _ _); [|injection E as <-; auto].
  destruct d; cbn [rbind] in E; [injection E as <-|discriminate]. apply dget_dput_ne; auto.
Qed.

(** What is read for an item, when all goes well *)
Lemma staged_item : forall (e : engine) before (a a' cargs : args) r r' k o ts, fits split join -> right_ids e before -> NoDup (map fst (e_local e)) -> NoDup (map fst a) ->
  materialize e a = Ok a' -> mesh_consistent_args e a' = Ok cargs -> impl_restore join e cargs = Ok r -> add_dataset e a' r = Ok r' ->
  In (k, PyTree o) a -> k <> dataset_name -> stored split e before k (map fst ts) -> wants (e_mesh e) o ts ->
  exists m l, consistent_restore_mesh (e_flag e) (e_devices e) (e_mesh e) (e_previous_ids e) (e_previous e) (e_current e) = Ok m /\ In (k, PyTree (Some l)) a' /\
    dget String.eqb k r' = Some (Arrays (staged m ts)) /\ result_item r' (k, PyTree (Some l)) = Ok (k, Arrays (final ts)).
Proof.
  intros e before a a' cargs r r' k o ts J RI NL NA MA MC IR AD I NE ST W.
  destruct (item_materialize e before k o ts NL ST W) as (l & ML & WL).
  pose proof (materialize_names e a a' MA) as NM. apply seq_ok in MA. destruct (f2_in _ _ _ _ MA I) as (x & IX & QX). rewrite ML in QX. injection QX as <-.
  unfold mesh_consistent_args in MC. destruct (consistent_restore_mesh _ _ _ _ _ _) as [m|] eqn:CM; [|discriminate]. cbn [rbind] in MC.
  destruct (sequence _) as [cl|] eqn:CL; [|discriminate]. cbn [rbind] in MC. injection MC as <-. apply seq_ok in CL.
  destruct (mesh_hardware e before m RI CM) as (SH & HW). destruct (item_stage e before m k l ts J SH HW NL ST WL) as (l' & C & R & F).
  assert (IC : In (k, PyTree (Some l')) (List.concat cl)). { destruct (f2_in _ _ _ _ CL IX) as (c & JC & QC). rewrite C in QC. injection QC as <-. apply in_concat. eexists; split; [eauto|cbn; auto]. }
  assert (NC : NoDup (map fst (List.concat cl))). { apply (consistent_names m a'); auto. rewrite NM. auto. }
  pose proof (impl_in e _ r _ _ IR IC R) as IR'. apply in_concat_dget in IR'; [|rewrite (impl_names e _ _ IR); auto].
  assert (G1 : dget String.eqb k r' = Some (Arrays (staged m ts))). { rewrite (add_dataset_other e a' r r' k AD NE). auto. }
  exists m, l. auto.
Qed.

Lemma inv_step : forall (e : engine) a out, restore_single_step join e a = Ok out -> same_counts e ->
  exists a' cargs r r', materialize e a = Ok a' /\ mesh_consistent_args e a' = Ok cargs /\ impl_restore join e cargs = Ok r /\ add_dataset e a' r = Ok r' /\
    if e_sidecar e then out = r' else mesh_consistent_result a' r' = Ok out.
Proof.
  intros e a out E C. unfold restore_single_step in E. destruct (materialize e a) as [a'|] eqn:MA; [|discriminate]. cbn [rbind] in E. unfold restore_placement_plan in E. apply can_use_iff in C. rewrite C in E.
  destruct (mesh_consistent_args e a') as [cargs|] eqn:MC; [|discriminate]. cbn [rbind fst] in E. destruct (impl_restore join e cargs) as [r|] eqn:IR; [|discriminate]. cbn [rbind] in E.
  destruct (add_dataset e a' r) as [r'|] eqn:AD; [|discriminate]. cbn [rbind] in E. exists a', cargs, r, r'. repeat split; auto. destruct (e_sidecar e); [injection E as <-|]; auto.
Qed.

Lemma materialize_total : forall (e : engine) before (a : args) out, NoDup (map fst (e_local e)) -> Forall2 (restores split e before) a out -> exists a', materialize e a = Ok a' /\ Forall2 (restores split e before) a' out /\
  Forall (fun x => exists l, snd x = PyTree (Some l) \/ exists r, snd x = OtherArgs r) a'.
Proof.
  intros e before a out NL F. unfold materialize. induction F as [|x y a out R F (a' & E & F' & X)]; [exists []; cbn; auto|]. inversion R as [k o ts NE ST W|d r P]; subst.
  - destruct (item_materialize e before k o ts NL ST W) as (l & ML & WL). exists ((k, PyTree (Some l)) :: a'). cbn [map sequence]. rewrite ML, E. cbn [rbind]. split; auto. split; constructor; auto.
    + constructor; auto. + exists l. auto.
  - exists ((dataset_name, OtherArgs r) :: a'). cbn [map sequence materialize_item snd]. rewrite E. cbn [rbind]. split; auto. split; constructor; auto. cbn. exists []. eauto.
Qed.

Lemma restore_total : forall (e : engine) before (a : args) out, fits split join -> right_ids e before -> ready e -> same_counts e -> e_sidecar e = false -> NoDup (map fst (e_local e)) -> NoDup (map fst a) ->
  Forall2 (restores split e before) a out -> restore_single_step join e a = Ok out.
Proof.
  intros e before a out J RI RD SC SD NL NA F. destruct (materialize_total e before a out NL F) as (a' & MA & F' & X). unfold restore_single_step. rewrite MA. cbn [rbind]. unfold restore_placement_plan.
  rewrite (proj2 (can_use_iff e) SC). pose proof (materialize_names e a a' MA) as NM. destruct (mesh_made e RD) as (m & CM). unfold mesh_consistent_args. rewrite CM. cbn [rbind].
  destruct (mesh_hardware e before m RI CM) as (SH & HW).
  assert (Q : exists cl r, Forall2 (fun x c => consistent_item m x = Ok c) a' cl /\ impl_restore join e (List.concat cl) = Ok r).
  { clear - F' X J SH HW NL. induction F' as [|x y a' out R F IH]; [exists [], []; split; auto|]. inversion X as [|? ? X1 X2]; subst. destruct (IH X2) as (cl & r & F1 & E1). inversion R as [k o ts NE ST W|d r0 P]; subst.
    - cbn [snd] in X1. destruct X1 as (l & [X1|(r0 & X1)]); [|discriminate]. injection X1 as ->. destruct (item_stage e before m k l ts J SH HW NL ST W) as (l' & C & RR & _).
      exists ([(k, PyTree (Some l'))] :: cl), ((k, Arrays (staged m ts)) :: r). split; [constructor; auto|]. cbn [List.concat app]. unfold impl_restore in *. cbn [map sequence]. rewrite RR, E1. auto.
    - exists ([] :: cl), r. split; [constructor; auto|]. auto. }
  destruct Q as (cl & r & CL & IR). rewrite (proj2 (seq_ok _ _ _) CL). cbn [rbind fst]. rewrite IR. cbn [rbind].
  assert (AD : exists r', add_dataset e a' r = Ok r' /\ forall d b, In (dataset_name, OtherArgs b) a' -> e_persistent e = Some (Ok d) -> dget String.eqb dataset_name r' = Some (Dataset d)).
  { unfold add_dataset. destruct (e_persistent e) as [d|] eqn:P.
    - destruct (has dataset_name a') eqn:HA.
      + assert (Q : exists d', d = Ok d').
        { unfold has in HA. apply existsb_exists in HA as (x & I & EQ). apply String.eqb_eq in EQ. destruct (f2_in _ _ _ _ F' I) as (y & _ & R). inversion R as [k o ts NE ST W|d' r0 P']; subst; cbn [fst] in EQ; [contradiction|]. rewrite P in P'. injection P' as ->. eauto. }
        destruct Q as (d' & ->). cbn [rbind]. eexists. split; eauto. intros d b I Q. injection Q as <-. rewrite (Parts_Proofs.dget_dput String.eqb String.eqb_spec), String.eqb_refl. auto.
      + eexists. split; eauto. intros d0 b I _. exfalso. assert (T : has dataset_name a' = true). { apply existsb_exists. eexists; split; eauto. } congruence.
    - eexists. split; eauto. discriminate. }
  destruct AD as (r' & AD & DS). rewrite AD. cbn [rbind]. rewrite SD. unfold mesh_consistent_result. apply seq_ok.
  assert (MC : mesh_consistent_args e a' = Ok (List.concat cl)). { unfold mesh_consistent_args. rewrite CM. cbn [rbind]. rewrite (proj2 (seq_ok _ _ _) CL). auto. }
  assert (MA' : materialize e a' = Ok a').
  { clear - X. unfold materialize. apply seq_ok. induction X as [|[k b] l (l0 & X) Y]; constructor; auto. cbn [snd] in X. destruct X as [-> | (r & ->)]; auto. }
  revert F'. apply f2_impl. intros x y I _ R. inversion R as [k o ts NE ST W|d r0 P]; subst.
  - rewrite Forall_forall in X. destruct (X _ I) as (l & [X1|(r0 & X1)]); [|discriminate]. cbn [snd] in X1. injection X1 as ->.
    assert (NA' : NoDup (map fst a')) by (rewrite NM; auto).
    destruct (staged_item e before a' a' (List.concat cl) r r' k (Some l) ts J RI NL NA' MA' MC IR AD I NE ST W) as (m0 & l0 & CM0 & I0 & _ & R0).
    assert (l0 = l). { apply in_concat_dget in I; auto. apply in_concat_dget in I0; auto. congruence. } subst l0. exact R0.
  - unfold result_item. cbn [fst snd]. rewrite (DS d r0 I P). auto.
Qed.

Lemma restore_value : forall (e : engine) before (a : args) out k o ts, fits split join -> right_ids e before -> e_sidecar e = false -> NoDup (map fst (e_local e)) -> NoDup (map fst a) ->
  restore_single_step join e a = Ok out -> In (k, PyTree o) a -> k <> dataset_name -> stored split e before k (map fst ts) -> wants (e_mesh e) o ts -> In (k, Arrays (final ts)) out.
Proof.
  intros e before a out k o ts J RI SD NL NA E I NE ST W.
  assert (SC : same_counts e).
  { apply can_use_iff. destruct (can_use_mesh_consistency _ _ _) eqn:C; auto. exfalso. unfold restore_single_step in E. destruct (materialize e a); [|discriminate]. cbn [rbind] in E. unfold restore_placement_plan in E. rewrite C, SD in E. discriminate. }
  destruct (inv_step e a out E SC) as (a' & cargs & r & r' & MA & MC & IR & AD & L). rewrite SD in L.
  destruct (staged_item e before a a' cargs r r' k o ts J RI NL NA MA MC IR AD I NE ST W) as (m & l & CM & I' & _ & R). apply seq_ok in L. destruct (f2_in _ _ _ _ L I') as (y & IY & Q). rewrite R in Q. injection Q as <-. auto.
Qed.

Lemma restore_sidecar : forall (e : engine) before (a : args) out k o ts, fits split join -> right_ids e before -> same_counts e -> e_sidecar e = true -> NoDup (map fst (e_local e)) -> NoDup (map fst a) ->
  restore_single_step join e a = Ok out -> In (k, PyTree o) a -> k <> dataset_name -> stored split e before k (map fst ts) -> wants (e_mesh e) o ts ->
  exists m, consistent_restore_mesh (e_flag e) (e_devices e) (e_mesh e) (e_previous_ids e) (e_previous e) (e_current e) = Ok m /\ In (k, Arrays (staged m ts)) out.
Proof.
  intros e before a out k o ts J RI SC SD NL NA E I NE ST W. destruct (inv_step e a out E SC) as (a' & cargs & r & r' & MA & MC & IR & AD & L). rewrite SD in L. subst out.
  destruct (staged_item e before a a' cargs r r' k o ts J RI NL NA MA MC IR AD I NE ST W) as (m & l & CM & I' & Q & _). exists m. split; auto. apply (Parts_Proofs.dget_some_in String.eqb String.eqb_spec) in Q. auto.
Qed.

End Proofs.
