(** Proofs about the handler of several items. *)
From Coq Require Import List Bool Arith NArith String Permutation Sorted Lia.
From Verif Require Import Base Tree_Model Tree_Proofs Parts_Proofs Composite_Model Composite_Spec.
From Verif Require StepName_Proofs.
Import ListNotations.
Open Scope string_scope.

(** ** Equalities *)

Lemma hcls_spec : forall a b, reflect (a = b) (hcls_eqb a b).
Proof.
  intros [| |m] [| |n]; cbn; try (constructor; congruence).
  destruct (N.eqb_spec m n); constructor; congruence.
Qed.

Lemma acls_spec : forall a b, reflect (a = b) (acls_eqb a b).
Proof.
  intros [| |m] [| |n]; cbn; try (constructor; congruence).
  destruct (N.eqb_spec m n); constructor; congruence.
Qed.

Lemma hnd_spec : forall a b, reflect (a = b) (hnd_eqb a b).
Proof.
  intros [i c] [j d]. unfold hnd_eqb. cbn. destruct (N.eqb_spec i j); cbn; [|constructor; congruence].
  destruct (hcls_spec c d); constructor; congruence.
Qed.

Lemma key_spec : forall a b, reflect (a = b) (key_eqb a b).
Proof.
  intros [[x|] a] [[y|] b]; unfold key_eqb; cbn; try (constructor; congruence).
  - destruct (String.eqb_spec x y); cbn; [|constructor; congruence]. destruct (acls_spec a b); constructor; congruence.
  - destruct (acls_spec a b); constructor; congruence.
Qed.

Lemma path_spec : forall a b, reflect (a = b) (path_eqb a b).
Proof.
  intros [d x] [e y]. unfold path_eqb. cbn. destruct (N.eqb_spec d e); cbn; [|constructor; congruence].
  destruct (String.eqb_spec x y); constructor; congruence.
Qed.

Lemma mem_spec : forall x l, reflect (In x l) (mem x l).
Proof.
  intros x l. destruct (mem x l) eqn:E; constructor.
  - apply existsb_exists in E. destruct E as (y & I & H). apply String.eqb_eq in H. congruence.
  - intros I. assert (H : mem x l = true) by (apply existsb_exists; exists x; split; [auto|apply String.eqb_refl]). congruence.
Qed.

Lemma dget_app : forall {K V : Type} (eqb : K -> K -> bool) k (d l : dict K V),
  dget eqb k (d ++ l)%list = match dget eqb k d with Some v => Some v | None => dget eqb k l end.
Proof. intros. induction d as [|[k' v] d IH]; cbn; [auto|]. destruct (eqb k k'); auto. Qed.

Lemma has_in : forall k r, has (fst k) (snd k) r = true <-> In k (map fst r).
Proof.
  intros [i a] r. unfold has. cbn. destruct (dget key_eqb (i, a) r) eqn:E.
  - split; auto. intros _. apply (dget_some_in key_eqb key_spec) in E. apply (in_map fst) in E. exact E.
  - split; [discriminate|]. intros I. apply (dget_none key_eqb key_spec) in E. tauto.
Qed.

Lemma add_ok : forall i a h r r', add i a h r = Ok r' -> r' = (r ++ [((i, a), h)])%list /\ ~ In (i, a) (map fst r).
Proof.
  intros i a h r r' A. unfold add in A. destruct (has i a r) eqn:H; [discriminate|].
  assert (N : ~ In (i, a) (map fst r)) by (intros I; apply (has_in (i, a)) in I; cbn in I; congruence).
  injection A as <-. split; auto. apply (dput_fresh key_eqb key_spec). auto.
Qed.

Lemma add_new : forall i a h r, ~ In (i, a) (map fst r) -> add i a h r = Ok (r ++ [((i, a), h)])%list.
Proof.
  intros i a h r N. unfold add. destruct (has i a r) eqn:H; [apply (has_in (i, a)) in H; tauto|]. f_equal. apply (dput_fresh key_eqb key_spec). auto.
Qed.

Lemma get_ok : forall i a r h, get i a r = Ok h -> In ((i, a), h) r.
Proof. intros i a r h. unfold get. destruct (dget _ _ _) eqn:E; [|discriminate]. intros [= <-]. apply (dget_some_in key_eqb key_spec) in E. auto. Qed.

(** ** Unique items *)

Definition ustep (acc : list (string * hnd)) (x : option string * acls * hnd) : list (string * hnd) :=
  match fst (fst x) with
  | None => acc
  | Some item => if has_pair item (snd x) acc then acc else (acc ++ [(item, snd x)])%list
  end.

Lemma has_pair_spec : forall i h l, reflect (In (i, h) l) (has_pair i h l).
Proof.
  intros i h l. induction l as [|[j k] l IH]; cbn; [constructor; tauto|].
  destruct (String.eqb_spec i j) as [<-|N], (hnd_spec h k) as [<-|N']; cbn [andb orb].
  - apply ReflectT. left. reflexivity.
  - destruct IH; constructor; [right; auto|]. intros [[= ?]|?]; [congruence|tauto].
  - destruct IH; constructor; [right; auto|]. intros [[= ?]|?]; [congruence|tauto].
  - destruct IH; constructor; [right; auto|]. intros [[= ?]|?]; [congruence|tauto].
Qed.

Lemma unique_app : forall r r', exists l, unique_items (r ++ r')%list = (unique_items r ++ l)%list.
Proof.
  intros r r'. unfold unique_items. change (fun acc x => _) with ustep. rewrite fold_left_app. generalize (fold_left ustep r []). clear r.
  induction r' as [|[[[i|] a] h] r' IH]; intros acc; cbn.
  - exists []. rewrite app_nil_r. auto.
  - destruct (has_pair i h acc).
    + apply IH.
    + destruct (IH (acc ++ [(i, h)])%list) as [l ->]. rewrite <- app_assoc. eauto.
  - apply IH.
Qed.

Lemma unique_in : forall r i h, In (i, h) (unique_items r) <-> exists a, In ((Some i, a), h) r.
Proof.
  intros r i h. unfold unique_items. change (fun acc x => _) with ustep.
  enough (K : forall acc, In (i, h) (fold_left ustep r acc) <-> In (i, h) acc \/ exists a, In ((Some i, a), h) r).
  { rewrite K. cbn. split; [intros [[]|?]; auto|auto]. }
  induction r as [|[[o a] k] r IH]; intros acc; cbn.
  - split; [auto|]. intros [?|[? []]]; auto.
  - rewrite IH. unfold ustep. cbn. destruct o as [j|]; cbn.
    + destruct (has_pair_spec j k acc) as [I|I].
      * split; [intros [?|[b ?]]; eauto|]. intros [?|[b [[= <- <- <-]|?]]]; eauto.
      * rewrite in_app_iff. cbn. split.
        { intros [[?|[[= <- <-]|[]]]|[b ?]]; eauto. }
        { intros [?|[b [[= <- <- <-]|?]]]; eauto. }
    + split; [intros [?|[b ?]]; eauto|]. intros [?|[b [[=]|?]]]; eauto.
Qed.

Lemma unique_nodup : forall r, NoDup (unique_items r).
Proof.
  intros r. unfold unique_items. change (fun acc x => _) with ustep.
  enough (K : forall acc, NoDup acc -> NoDup (fold_left ustep r acc)) by (apply K; constructor).
  induction r as [|[[o a] k] r IH]; intros acc N; cbn; auto. apply IH. unfold ustep. cbn. destruct o as [j|]; auto.
  destruct (has_pair_spec j k acc) as [I|I]; auto. apply (Permutation_NoDup (l := (j, k) :: acc)); [apply Permutation_cons_append|constructor; auto].
Qed.

Lemma unique_items_nodup : forall r, simple r -> NoDup (map fst (unique_items r)).
Proof.
  intros r [_ S]. assert (N := unique_nodup r). assert (K : forall i h h', In (i, h) (unique_items r) -> In (i, h') (unique_items r) -> h = h').
  { intros i h h' A B. apply unique_in in A, B. destruct A as [a A], B as [b B]. eauto. }
  induction (unique_items r) as [|[i h] l IH]; cbn; [constructor|]. inversion N; subst. constructor.
  - intros I. apply in_map_iff in I. destruct I as ([j k] & E & I). cbn in E. subst j. rewrite (K i h k) in H1; [tauto|left; auto|right; auto].
  - apply IH; auto. intros j a b A B. apply (K j); right; auto.
Qed.

Lemma find_item_in : forall i l h, find_item i l = Some h -> In (i, h) l.
Proof. intros i l h. induction l as [|[j k] l IH]; cbn; [discriminate|]. destruct (String.eqb_spec i j); [intros [= <-]; subst; auto|auto]. Qed.

Lemma find_item_none : forall i l, find_item i l = None -> forall h, ~ In (i, h) l.
Proof. intros i l. induction l as [|[j k] l IH]; cbn; [auto|]. destruct (String.eqb_spec i j); [discriminate|]. intros H h [[= <- <-]|I]; [congruence|]. eapply IH; eauto. Qed.

Lemma find_item_app : forall i l l' h, find_item i l = Some h -> find_item i (l ++ l')%list = Some h.
Proof. intros i l l' h. induction l as [|[j k] l IH]; cbn; [discriminate|]. destruct (String.eqb i j); auto. Qed.

Lemma items_in : forall s i h, dget String.eqb i (items_to_handlers s) = Some (Some h) -> has_handler s i h.
Proof.
  intros s i h D. unfold items_to_handlers in D.
  assert (K : forall l d, dget String.eqb i (fold_left (fun d x => dput String.eqb (fst x) (snd x) d) l d) = Some (Some h) ->
    In (i, Some h) l \/ dget String.eqb i d = Some (Some h)).
  { clear. induction l as [|[j v] l IH]; intros d; cbn; [auto|]. intros D. apply IH in D. destruct D as [?|D]; [auto|].
    rewrite (dget_dput String.eqb String.eqb_spec) in D. destruct (String.eqb_spec i j); [injection D as ->; subst; auto|auto]. }
  unfold dict_of in D. apply K in D. destruct D as [I|D]; [|discriminate]. apply in_app_iff in I. destruct I as [I|I].
  - apply in_map_iff in I. destruct I as ([j k] & [= -> ->] & I). apply unique_in in I. exact I.
  - destruct (unreg s); [|destruct I]. apply in_map_iff in I. destruct I as (? & [=] & _).
Qed.

(** ** Entries of the registry stay *)

Section Handler.
Variable E : env.
Variable G : globals.
Variable cf : bool.
Variable fault : nat -> option err.

Definition ext (s s' : st) : Prop := exists l, reg s' = (reg s ++ l)%list.

Lemma ext_refl : forall s, ext s s.
Proof. intros s. exists []. rewrite app_nil_r. auto. Qed.

Lemma ext_same : forall s s', reg s' = reg s -> ext s s'.
Proof. intros s s' H. exists []. rewrite app_nil_r. auto. Qed.

Lemma ext_trans : forall a b c, ext a b -> ext b c -> ext a c.
Proof. intros a b c [l H] [l' H']. exists (l ++ l')%list. rewrite H', H, <- app_assoc. auto. Qed.

Definition grows {A : Type} (m : M A) : Prop := forall s, ext s (fst (m s)).

Lemma grows_ret : forall A (x : A), grows (ret x).
Proof. intros A x s. apply ext_refl. Qed.
Lemma grows_raise : forall A e, grows (@raise A e).
Proof. intros A e s. apply ext_refl. Qed.
Lemma grows_lift : forall A (r : result A), grows (lift r).
Proof. intros A r s. apply ext_refl. Qed.
Lemma grows_asks : forall A (f : st -> A), grows (asks f).
Proof. intros A f s. apply ext_refl. Qed.
Lemma grows_modify : forall f, (forall s, reg (f s) = reg s) -> grows (modify f).
Proof. intros f H s. apply ext_same. apply H. Qed.
Lemma grows_bind : forall A B (m : M A) (f : A -> M B), grows m -> (forall x, grows (f x)) -> grows (bind m f).
Proof.
  intros A B m f H K s. unfold bind. specialize (H s). destruct (m s) as [s' [x|e]]; cbn in *; auto. eapply ext_trans; [exact H|apply K].
Qed.
Lemma grows_each : forall A B (f : A -> M B) l, (forall x, grows (f x)) -> grows (for_each f l).
Proof. intros A B f l H. induction l as [|x l IH]; cbn; [apply grows_ret|]. apply grows_bind; auto. intros y. apply grows_bind; auto. intros ys. apply grows_ret. Qed.
Lemma grows_act : forall e f, (forall s, reg (fst (f s)) = reg s) -> grows (act fault e f).
Proof. intros e f H s. unfold act. destruct (fault _); cbn; [apply ext_same; auto|]. apply ext_same. rewrite H. auto. Qed.

Lemma add_from_global_inv : forall h i s, exists l r, add_from_global G h i s = (set_reg (reg s ++ l)%list s, r) /\
  (forall x, In x l -> exists a, x = ((Some i, a), h)) /\ (forall k, r = Ok k -> k = h /\ l <> []).
Proof.
  intros h i s. unfold add_from_global, bind, lift, asks, modify, ret. assert (Z : s = set_reg (reg s ++ [])%list s) by (rewrite app_nil_r; destruct s; auto).
  destruct (get_registered_args_cls G (h_cls h)) as [[a b]|e].
  2: { exists [], (Err e). split; [rewrite <- Z; auto|]. split; [intros ? []|discriminate]. }
  cbn [fst snd]. destruct (add (Some i) a h (reg s)) as [r|e] eqn:A1.
  2: { exists [], (Err e). split; [rewrite <- Z; auto|]. split; [intros ? []|discriminate]. }
  apply add_ok in A1. destruct A1 as [-> _]. destruct (acls_eqb b a).
  { exists [((Some i, a), h)], (Ok h). split; auto. split; [intros x [<-|[]]; eauto|intros k [= <-]; split; [auto|discriminate]]. }
  destruct (add (Some i) b h _) as [r|e] eqn:A2.
  - apply add_ok in A2. destruct A2 as [-> _]. exists [((Some i, a), h); ((Some i, b), h)], (Ok h). rewrite <- app_assoc. split; auto.
    split; [intros x [<-|[<-|[]]]; eauto|intros k [= <-]; split; [auto|discriminate]].
  - exists [((Some i, a), h)], (Err e). split; auto. split; [intros x [<-|[]]; eauto|discriminate].
Qed.

Lemma grows_add : forall h i, grows (add_from_global G h i).
Proof. intros h i s. destruct (add_from_global_inv h i s) as (l & r & -> & _). exists l. auto. Qed.

Lemma get_eq : forall i a s, get_or_set_handler E G i (Some a) s =
  match dget key_eqb (Some i, a_cls a) (reg s) with
  | Some h => (s, Ok h)
  | None =>
    match dget key_eqb (None, a_cls a) (reg s) with
    | Some h => (set_reg (reg s ++ [((Some i, a_cls a), h)])%list s, Ok h)
    | None =>
      match get_registered_handler_cls G (a_cls a) with
      | Err e => (s, Err e)
      | Ok c =>
        if makes_handler E c then
          let s1 := set_next (next s + 1) s in
          match unreg s with
          | Some l =>
            if mem i l then add_from_global G (mkH (next s) c) i (set_unreg (Some (filter (fun j => negb (String.eqb i j)) l)) s1)
            else (s1, Err ValueError)
          | None =>
            match deferred s with
            | None => (s1, Err AssertionError)
            | Some l => if mem i l then (s1, Err ValueError) else add_from_global G (mkH (next s) c) i (set_deferred (Some (i :: l)) s1)
            end
          end
        else (s, Err TypeError)
      end
    end
  end.
Proof.
  intros i a s. unfold get_or_set_handler, bind at 1, asks at 1. unfold has, get. destruct (dget key_eqb (Some i, a_cls a) (reg s)) eqn:D; [reflexivity|].
  destruct (dget key_eqb (None, a_cls a) (reg s)).
  - unfold bind, lift, modify, ret. rewrite add_new; [reflexivity|]. apply (dget_none key_eqb key_spec) in D. auto.
  - unfold bind at 1, lift at 1. destruct (get_registered_handler_cls G (a_cls a)) as [c|e]; [|reflexivity]. destruct (makes_handler E c); [|reflexivity].
    unfold bind at 1, asks at 1. unfold bind at 1, modify at 1. unfold bind at 1, asks at 1. change (unreg (set_next (next s + 1) s)) with (unreg s).
    destruct (unreg s) as [l|].
    + destruct (mem i l); reflexivity.
    + unfold bind at 1, asks at 1. change (deferred (set_next (next s + 1) s)) with (deferred s). destruct (deferred s) as [l|]; [|reflexivity]. destruct (mem i l); reflexivity.
Qed.

Lemma get_none : forall i s, get_or_set_handler E G i None s =
  (s, match find_item i (unique_items (reg s)) with Some h => Ok h | None => Err ValueError end).
Proof. intros i s. unfold get_or_set_handler, bind, asks. destruct (find_item _ _); reflexivity. Qed.

Lemma grows_get : forall i a, grows (get_or_set_handler E G i a).
Proof.
  intros i [a|] s; [|rewrite get_none; apply ext_refl]. rewrite get_eq. destruct (dget _ _ _) as [h|]; [apply ext_refl|]. destruct (dget _ _ _) as [h|]; [eexists; reflexivity|].
  destruct (get_registered_handler_cls G (a_cls a)) as [c|e]; [|apply ext_refl]. destruct (makes_handler E c); [|apply ext_refl]. cbv zeta.
  destruct (unreg s) as [l|].
  - destruct (mem i l); [|apply ext_same; auto]. apply (ext_trans s (set_unreg (Some (filter (fun j => negb (String.eqb i j)) l)) (set_next (next s + 1) s))); [apply ext_same; auto|apply grows_add].
  - destruct (deferred s) as [l|]; [|apply ext_same; auto]. destruct (mem i l); [apply ext_same; auto|].
    apply (ext_trans s (set_deferred (Some (i :: l)) (set_next (next s + 1) s))); [apply ext_same; auto|apply grows_add].
Qed.

Lemma grows_gather : forall l, (forall m, In m l -> grows m) -> grows (gather l).
Proof.
  induction l as [|m l IH]; intros H; cbn; [apply grows_ret|]. intros s. assert (K := H m (or_introl eq_refl) s). destruct (m s) as [s' [x|e]]; cbn in *.
  - eapply ext_trans; [exact K|]. apply IH. auto.
  - eapply ext_trans; [exact K|]. apply IH. auto.
Qed.

Lemma grows_create : forall d i, grows (create cf fault d i).
Proof. intros d i. apply grows_act. auto. Qed.
Lemma grows_save : forall h d i a, grows (save_item cf fault h d i a).
Proof. intros h d i a. apply grows_act. auto. Qed.

Lemma grows_start : forall d args i, grows (start_save E G cf fault d args i).
Proof.
  intros d args i. apply grows_bind; [apply grows_lift|]. intros a. apply grows_bind; [apply grows_get|]. intros h.
  destruct (is_async E (h_cls h)); [apply grows_ret|]. apply grows_bind; [apply grows_save|]. intros _. apply grows_ret.
Qed.

Lemma start_ops : forall d args i s s' ops, start_save E G cf fault d args i s = (s', Ok ops) ->
  forall m, In m ops -> exists h a, m = save_item cf fault h d i a.
Proof.
  intros d args i s s' ops H m I. unfold start_save, bind, lift in H. destruct (arg_of i args) as [a|e]; [|discriminate].
  destruct (get_or_set_handler E G i a s) as [s1 [h|e]]; [|discriminate]. destruct (is_async E (h_cls h)).
  - injection H as _ <-. destruct I as [<-|[]]. eauto.
  - destruct (save_item cf fault h d i a s1) as [s2 [x|e]]; [|discriminate]. injection H as _ <-. destruct I.
Qed.

Lemma each_ops : forall d args l s s' ops, for_each (start_save E G cf fault d args) l s = (s', Ok ops) ->
  forall m, In m (List.concat ops) -> exists i h a, m = save_item cf fault h d i a.
Proof.
  intros d args l. induction l as [|i l IH]; intros s s' ops H m I; cbn in H.
  - injection H as _ <-. destruct I.
  - unfold bind in H. destruct (start_save E G cf fault d args i s) as [s1 [o|e]] eqn:S; [|discriminate].
    destruct (for_each _ l s1) as [s2 [os|e]] eqn:F; [|discriminate]. injection H as _ <-. cbn in I. apply in_app_iff in I. destruct I as [I|I].
    + exists i. eapply start_ops; eauto.
    + eapply IH; eauto.
Qed.

Lemma grows_async_save : forall d args, grows (async_save E G cf fault d args).
Proof.
  intros d args. apply grows_bind; [apply grows_lift|]. intros args'. apply grows_bind; [apply grows_modify; auto|]. intros _.
  apply grows_bind; [apply grows_each; intros; apply grows_create|]. intros _. intros s. unfold bind.
  assert (K := grows_each _ _ (start_save E G cf fault d args') (sorted_names (map fst args')) (grows_start d args') s).
  destruct (for_each _ _ s) as [s' [ops|e]] eqn:F; cbn in *; auto. eapply ext_trans; [exact K|]. apply grows_gather.
  intros m I. destruct (each_ops _ _ _ _ _ _ F m I) as (i & h & a & ->). apply grows_save.
Qed.

Lemma grows_finalize_item : forall h d i, grows (finalize_item cf fault h d i).
Proof. intros h d i. apply grows_act. intros s. destruct (dget _ _ _); auto. Qed.
Lemma grows_commit : forall d i, grows (commit cf fault d i).
Proof. intros d i. apply grows_act. intros s. destruct (dget _ _ _); auto. destruct cf; auto. destruct (dget _ _ _); auto. Qed.

Lemma grows_finalize : grows (finalize cf fault).
Proof.
  apply grows_bind; [apply grows_asks|]. intros [|x t]; [apply grows_raise|]. apply grows_bind; [apply grows_asks|]. intros r.
  apply grows_bind; [|intros; apply grows_ret]. apply grows_each. intros [i h]. apply grows_bind; [apply grows_asks|]. intros t'.
  destruct (dget _ _ t'); [|apply grows_ret]. apply grows_bind; [apply grows_finalize_item|]. intros _. apply grows_bind; [apply grows_commit|]. intros _.
  apply grows_modify. auto.
Qed.

Lemma grows_item_metadata : forall d ith i, grows (get_item_metadata fault d ith i).
Proof.
  intros d ith i. unfold get_item_metadata. destruct (dget String.eqb i ith) as [[h|]|]; try apply grows_ret. intros s.
  assert (K := grows_act (EMetadata h d i) (fun s => match dget path_eqb (d, i) (disk s) with Some _ => (s, Ok tt) | None => (s, Err FileNotFoundError) end)).
  specialize (K ltac:(intros s'; cbv beta; destruct (dget path_eqb (d, i) (disk s')); auto) s). destruct (act _ _ _ s) as [s' [x|[]]]; auto.
Qed.

Lemma grows_metadata_base : forall d l b, grows (metadata_base E fault d l b).
Proof.
  intros d l b. apply grows_bind; [apply grows_asks|]. intros ith. apply grows_bind; [apply grows_asks|]. intros sv. apply grows_bind.
  - destruct b; [|apply grows_ret]. apply grows_bind; [apply grows_each; intros; apply grows_item_metadata|]. intros x. apply grows_bind; [apply grows_lift|]. intros; apply grows_ret.
  - intros im. apply grows_bind; [apply grows_lift|]. intros; apply grows_ret.
Qed.

Lemma grows_metadata : forall d, grows (metadata E cf fault d).
Proof.
  intros d. apply grows_bind; [apply grows_asks|]. intros ex. apply grows_bind; [apply grows_asks|]. intros t.
  destruct (existsb _ t); [apply grows_raise|apply grows_metadata_base].
Qed.

Lemma grows_step : forall d, grows (save_step_metadata E fault d).
Proof.
  intros d s. unfold save_step_metadata. assert (K : grows (metadata_from_temporary_paths E fault d)).
  { apply grows_bind; [apply grows_asks|]. intros t. apply grows_bind; [apply grows_metadata_base|]. intros; apply grows_ret. }
  specialize (K s). destruct (metadata_from_temporary_paths E fault d s) as [s' [x|[]]]; cbn in *; auto.
Qed.

Lemma grows_restore : forall d args, grows (restore E G cf fault d args).
Proof.
  intros d args. apply grows_bind; [apply grows_asks|]. intros ith. apply grows_bind; [apply grows_asks|]. intros ex. apply grows_bind.
  - assert (K : grows (bind (for_each (default_args E G cf fault d ith) ex) (fun l => lift (composite l)))).
    { apply grows_bind; [|intros; apply grows_lift]. apply grows_each. intros i. apply grows_bind.
      - unfold class_to_restore. destruct (dget String.eqb i ith) as [[h|]|]; [apply grows_ret|apply grows_raise|]. apply grows_bind; [apply grows_metadata|].
        intros x. destruct (dget String.eqb i (fst x)); [|apply grows_raise]. destruct (get_handler_type G o) as [c|[]]; try apply grows_raise. apply grows_ret.
      - intros c. apply grows_bind; [apply grows_lift|]. intros x. destruct (makes_args E (snd x)); [apply grows_ret|apply grows_raise]. }
    destruct args as [[|x l]|]; auto. apply grows_lift.
  - intros l. apply grows_bind; [|intros; apply grows_lift]. apply grows_each. intros i. apply grows_bind; [apply grows_lift|]. intros a.
    destruct (negb _); [apply grows_raise|]. apply grows_bind; [apply grows_get|]. intros h. apply grows_bind; [apply grows_act; auto|]. intros _.
    apply grows_bind; [apply grows_asks|]. intros o. destruct o; [apply grows_ret|apply grows_raise].
Qed.

Lemma run_ext : forall l s, ext s (run E G cf fault l s).
Proof.
  intros l. unfold run. induction l as [|o l IH]; intros s; cbn [fold_left]; [apply ext_refl|]. eapply ext_trans; [|apply IH].
  destruct o; cbn [run_op]; [apply grows_async_save|apply grows_step|apply grows_finalize|apply grows_restore|apply grows_metadata].
Qed.

Lemma ext_get : forall s s' k h, ext s s' -> dget key_eqb k (reg s) = Some h -> dget key_eqb k (reg s') = Some h.
Proof. intros s s' k h [l ->] H. rewrite dget_app, H. auto. Qed.

Lemma ext_has : forall s s' i h, ext s s' -> has_handler s i h -> has_handler s' i h.
Proof. intros s s' i h [l H] [a I]. exists a. rewrite H. apply in_or_app. auto. Qed.

Lemma ext_find : forall s s' i h, ext s s' -> find_item i (unique_items (reg s)) = Some h -> find_item i (unique_items (reg s')) = Some h.
Proof. intros s s' i h [l ->] H. destruct (unique_app (reg s) l) as [l' ->]. apply find_item_app. auto. Qed.


(** ** One handler for an item *)

Definition Inv (s : st) : Prop :=
  simple (reg s) /\
  match unreg s, deferred s with
  | Some l, None => forall i h, In i l -> ~ has_handler s i h
  | None, Some l => forall i h, has_handler s i h -> In i l
  | _, _ => False
  end /\
  (forall e i h, In e (log s) -> done_by e = Some (i, h) -> has_handler s i h).

Definition core (s s' : st) : Prop := reg s' = reg s /\ unreg s' = unreg s /\ deferred s' = deferred s /\ log s' = log s.

Lemma core_refl : forall s, core s s.
Proof. intros s. unfold core. auto. Qed.

Lemma inv_core : forall s s', core s s' -> Inv s -> Inv s'.
Proof.
  intros s s' (R & U & D & L) (S & M & H). unfold Inv, has_handler in *. rewrite R, U, D, L. auto.
Qed.

Lemma inv_one : forall s i h h', Inv s -> has_handler s i h -> has_handler s i h' -> h = h'.
Proof. intros s i h h' ((_ & S) & _) [a A] [b B]. eauto. Qed.

Lemma inv_act : forall e f s, Inv s -> (forall i h, done_by e = Some (i, h) -> has_handler s i h) -> (forall s, core s (fst (f s))) ->
  Inv (fst (act fault e f s)).
Proof.
  intros e f s (S & M & H) K F. assert (I : Inv (set_log (log s ++ [e])%list s)).
  { split; [auto|]. split; [auto|]. cbn. intros e' i h J D. apply in_app_iff in J. destruct J as [J|[<-|[]]]; [eapply H; eauto|apply K; auto]. }
  unfold act. destruct (fault _); [exact I|]. eapply inv_core; [apply F|exact I].
Qed.

Lemma simple_add : forall r i h l, simple r -> (forall x, In x l -> exists a, x = ((Some i, a), h)) ->
  (forall a h', In ((Some i, a), h') r -> h' = h) -> simple (r ++ l)%list.
Proof.
  intros r i h l [N S] L K. split.
  - intros a h' I. apply in_app_iff in I. destruct I as [I|I]; [eapply N; eauto|]. destruct (L _ I) as [b [=]].
  - intros j a a' k k' I I'. apply in_app_iff in I, I'. destruct I as [I|I], I' as [I'|I'].
    + eapply S; eauto.
    + destruct (L _ I') as [b [= <- <- <-]]. eapply K; eauto.
    + destruct (L _ I) as [b [= <- <- <-]]. symmetry. eapply K; eauto.
    + destruct (L _ I) as [b [= _ _ <-]]. destruct (L _ I') as [b' [= _ _ <-]]. auto.
Qed.

Lemma inv_add : forall h i s, Inv s -> (forall k, ~ has_handler s i k) ->
  match unreg s, deferred s with Some l, None => ~ In i l | None, Some l => In i l | _, _ => False end ->
  Inv (fst (add_from_global G h i s)) /\ (forall s' k, add_from_global G h i s = (s', Ok k) -> k = h /\ has_handler s' i h).
Proof.
  intros h i s (S & M & H) N U. destruct (add_from_global_inv h i s) as (l & r & -> & L & R). cbn [fst]. split.
  - split; [|split].
    + cbn. eapply simple_add; eauto. intros a h' I. elim (N h'). exists a. auto.
    + cbn. destruct (unreg s) as [u|], (deferred s) as [d|]; auto.
      * intros j k J [a I]. cbn in I. apply in_app_iff in I. destruct I as [I|I]; [apply (M j k J); exists a; auto|]. destruct (L _ I) as [b [= -> _ _]]. auto.
      * intros j k [a I]. cbn in I. apply in_app_iff in I. destruct I as [I|I]; [apply (M j k); exists a; auto|]. destruct (L _ I) as [b [= -> _ _]]. auto.
    + cbn. intros e j k I D. destruct (H e j k I D) as [a J]. exists a. cbn. apply in_or_app. auto.
  - intros s' k [= <- Rk]. destruct (R _ Rk) as [-> NE]. split; auto. destruct l as [|x l]; [congruence|]. destruct (L x) as [a ->]; [left; auto|].
    exists a. cbn. apply in_or_app. right. left. auto.
Qed.

Lemma inv_get : forall i a s, Inv s ->
  Inv (fst (get_or_set_handler E G i a s)) /\ (forall s' h, get_or_set_handler E G i a s = (s', Ok h) -> has_handler s' i h).
Proof.
  intros i a s I. assert (I' := I). destruct I' as (S & M & H). destruct a as [a|].
  2: { rewrite get_none. split; auto. intros s' h [= <- Q]. destruct (find_item i (unique_items (reg s))) as [k|] eqn:F; [|discriminate]. injection Q as <-.
       apply find_item_in, unique_in in F. exact F. }
  rewrite get_eq. destruct (dget key_eqb (Some i, a_cls a) (reg s)) as [k|] eqn:D.
  { split; auto. intros s' h [= <- <-]. exists (a_cls a). apply (dget_some_in key_eqb key_spec) in D. auto. }
  destruct (dget key_eqb (None, a_cls a) (reg s)) as [k|] eqn:D2.
  { apply (dget_some_in key_eqb key_spec) in D2. destruct S as [N _]. elim (N _ _ D2). }
  destruct (get_registered_handler_cls G (a_cls a)) as [c|e]; [|split; [auto|discriminate]].
  destruct (makes_handler E c); [|split; [auto|discriminate]]. cbv zeta.
  assert (I1 : Inv (set_next (next s + 1) s)) by (apply (inv_core s); [unfold core; auto|auto]).
  destruct (unreg s) as [l|] eqn:U.
  - destruct (mem_spec i l) as [Y|Y]; [|split; [auto|discriminate]]. destruct (deferred s) as [d|] eqn:Dd; [destruct M|].
    set (s1 := set_unreg _ _). assert (J : Inv s1).
    { split; [auto|]. split; [|auto]. cbn. rewrite Dd. intros j k J K. apply filter_In in J. destruct J as [J _]. eapply M; eauto. }
    destruct (inv_add (mkH (next s) c) i s1 J) as [A B].
    + intros k K. eapply M; eauto.
    + cbn. rewrite Dd. intros K. apply filter_In in K. destruct K as [_ K]. rewrite String.eqb_refl in K. discriminate.
    + split; auto. intros s' h Q. apply B in Q. destruct Q as [-> Q]. auto.
  - destruct (deferred s) as [l|] eqn:Dd; [|destruct M]. destruct (mem_spec i l) as [Y|Y]; [split; [auto|discriminate]|].
    set (s1 := set_deferred _ _). assert (J : Inv s1).
    { split; [auto|]. split; [|auto]. cbn. rewrite U. intros j k K. right. eapply M; eauto. }
    destruct (inv_add (mkH (next s) c) i s1 J) as [A B].
    + intros k K. apply Y. eapply M; eauto.
    + cbn. rewrite U. left. auto.
    + split; auto. intros s' h Q. apply B in Q. destruct Q as [-> Q]. auto.
Qed.

Definition stays {A : Type} (m : M A) : Prop := forall s, Inv s -> Inv (fst (m s)).

Lemma stays_ret : forall A (x : A), stays (ret x).
Proof. intros A x s I. exact I. Qed.
Lemma stays_raise : forall A e, stays (@raise A e).
Proof. intros A e s I. exact I. Qed.
Lemma stays_lift : forall A (r : result A), stays (lift r).
Proof. intros A r s I. exact I. Qed.
Lemma stays_asks : forall A (f : st -> A), stays (asks f).
Proof. intros A f s I. exact I. Qed.
Lemma stays_modify : forall f, (forall s, core s (f s)) -> stays (modify f).
Proof. intros f H s I. eapply inv_core; [apply H|auto]. Qed.
Lemma stays_bind : forall A B (m : M A) (f : A -> M B), stays m -> (forall x, stays (f x)) -> stays (bind m f).
Proof. intros A B m f H K s I. unfold bind. specialize (H s I). destruct (m s) as [s' [x|e]]; cbn in *; auto. apply K. auto. Qed.
Lemma stays_each : forall A B (f : A -> M B) l, (forall x, stays (f x)) -> stays (for_each f l).
Proof. intros A B f l H. induction l as [|x l IH]; cbn; [apply stays_ret|]. apply stays_bind; auto. intros y. apply stays_bind; auto. intros ys. apply stays_ret. Qed.
Lemma stays_act : forall e f, done_by e = None -> (forall s, core s (fst (f s))) -> stays (act fault e f).
Proof. intros e f D F s I. apply inv_act; auto. rewrite D. discriminate. Qed.

(* Statements that hold of all later states *)
Definition grown (P : st -> Prop) : Prop := forall s s', ext s s' -> P s -> P s'.

Definition under {A : Type} (P : st -> Prop) (m : M A) : Prop := forall s, Inv s -> P s -> Inv (fst (m s)).

Lemma under_each : forall A B P (f : A -> M B) l, grown P -> (forall x, grows (f x)) -> (forall x, In x l -> under P (f x)) -> under P (for_each f l).
Proof.
  intros A B P f l Gr W H. induction l as [|x l IH]; cbn; [intros s I _; exact I|]. intros s I Q. unfold bind.
  assert (K := H x (or_introl eq_refl) s I Q). assert (W' := W x s). destruct (f x s) as [s1 [y|e]]; cbn in *; auto.
  assert (K2 := IH (fun x J => H x (or_intror J)) s1 K (Gr _ _ W' Q)). destruct (for_each f l s1) as [s2 [ys|e]]; auto.
Qed.

Lemma under_gather : forall P l, grown P -> (forall m, In m l -> grows m) -> (forall m, In m l -> under P m) -> under P (gather l).
Proof.
  intros P l Gr. induction l as [|m l IH]; cbn; intros W H; [intros s I _; exact I|]. intros s I Q.
  assert (K := H m (or_introl eq_refl) s I Q). assert (W' := W m (or_introl eq_refl) s). destruct (m s) as [s1 [y|e]]; cbn in *.
  - apply IH; auto. eapply Gr; eauto.
  - apply IH; auto. eapply Gr; eauto.
Qed.

Lemma grown_has : forall i h, grown (fun s => has_handler s i h).
Proof. intros i h s s' X H. eapply ext_has; eauto. Qed.

Lemma save_inv : forall h d i a s, Inv s -> has_handler s i h -> Inv (fst (save_item cf fault h d i a s)).
Proof. intros h d i a s I H. apply inv_act; auto. - intros j k [= <- <-]. auto. - intros. unfold core. auto. Qed.

Lemma start_inv : forall d args i s, Inv s -> Inv (fst (start_save E G cf fault d args i s)) /\
  (forall s' ops, start_save E G cf fault d args i s = (s', Ok ops) -> forall m, In m ops -> exists h a, m = save_item cf fault h d i a /\ has_handler s' i h).
Proof.
  intros d args i s I. unfold start_save, bind, lift. destruct (arg_of i args) as [a|e]; [|split; [auto|discriminate]].
  destruct (inv_get i a s I) as [A B]. destruct (get_or_set_handler E G i a s) as [s1 [h|e]]; [|split; [auto|discriminate]]. cbn [fst] in A. specialize (B s1 h eq_refl).
  destruct (is_async E (h_cls h)).
  - split; [auto|]. intros s' ops [= <- <-] m [<-|[]]. eauto.
  - assert (K := save_inv h d i a s1 A B). destruct (save_item cf fault h d i a s1) as [s2 [x|e]]; (split; [auto|]); [|discriminate]. intros s' ops [= <- <-] m [].
Qed.

Lemma each_inv : forall d args l s, Inv s -> Inv (fst (for_each (start_save E G cf fault d args) l s)) /\
  (forall s' ops, for_each (start_save E G cf fault d args) l s = (s', Ok ops) ->
   forall m, In m (List.concat ops) -> exists i h a, In i l /\ m = save_item cf fault h d i a /\ has_handler s' i h).
Proof.
  intros d args l. induction l as [|i l IH]; intros s I; cbn [for_each].
  - split; [auto|]. intros s' ops [= <- <-] m [].
  - unfold bind. destruct (start_inv d args i s I) as [A B]. destruct (start_save E G cf fault d args i s) as [s1 [o|e]]; [|split; [auto|discriminate]]. cbn [fst] in A.
    destruct (IH s1 A) as [C D]. assert (X := grows_each _ _ (start_save E G cf fault d args) l (grows_start d args) s1).
    destruct (for_each _ l s1) as [s2 [os|e]]; cbn [fst] in *; [|split; [auto|discriminate]]. split; [exact C|]. intros s' ops [= <- <-] m J. cbn in J. apply in_app_iff in J.
    destruct J as [J|J].
    + destruct (B s1 o eq_refl m J) as (h & a & -> & H). exists i, h, a. split; [left; auto|]. split; auto. eapply ext_has; eauto.
    + destruct (D s2 os eq_refl m J) as (j & h & a & Y & -> & H). exists j, h, a. split; [right; auto|]. auto.
Qed.

Lemma stays_async_save : forall d args, stays (async_save E G cf fault d args).
Proof.
  intros d args. apply stays_bind; [apply stays_lift|]. intros args'. apply stays_bind; [apply stays_modify; intros; unfold core; auto|]. intros _.
  apply stays_bind. { apply stays_each. intros i. apply stays_act; auto. intros. unfold core. auto. }
  intros _ s I. unfold bind. destruct (each_inv d args' (sorted_names (map fst args')) s I) as [A B].
  destruct (for_each _ _ s) as [s1 [ops|e]]; cbn [fst] in *; auto.
  apply (under_gather (fun s => forall m, In m (List.concat ops) -> exists i h a, m = save_item cf fault h d i a /\ has_handler s i h)); auto.
  - intros a b X Q m J. destruct (Q m J) as (i & h & y & -> & H). exists i, h, y. split; auto. eapply ext_has; eauto.
  - intros m J. destruct (B s1 ops eq_refl m J) as (i & h & a & _ & -> & _). apply grows_save.
  - intros m J t It Q. destruct (Q m J) as (i & h & a & -> & H). apply save_inv; auto.
  - intros m J. destruct (B s1 ops eq_refl m J) as (i & h & a & _ & ? & ?). eauto.
Qed.

Lemma finalize_one_inv : forall i h s, Inv s -> has_handler s i h -> Inv (fst (finalize_one cf fault (i, h) s)).
Proof.
  intros i h s I H. unfold finalize_one, bind at 1, asks at 1. cbn [fst snd]. destruct (dget String.eqb i (tmps s)) as [d|]; [|exact I].
  unfold bind at 1. assert (A : Inv (fst (finalize_item cf fault h d i s))).
  { apply inv_act; auto. - intros j k [= <- <-]. auto. - intros s'. destruct (dget path_eqb (d, tmp_name cf i) (disk s')); unfold core; auto. }
  destruct (finalize_item cf fault h d i s) as [s1 [x|e]]; auto. cbn [fst] in A. unfold bind at 1. assert (B : Inv (fst (commit cf fault d i s1))).
  { apply inv_act; auto. - discriminate. - intros s'. destruct (dget path_eqb (d, tmp_name cf i) (disk s')); [|unfold core; auto]. destruct cf; [unfold core; auto|].
    destruct (dget path_eqb (d, i) (disk s')); unfold core; auto. }
  destruct (commit cf fault d i s1) as [s2 [y|e]]; [|exact B]. cbn [fst] in B. apply (inv_core s2); [unfold core; auto|exact B].
Qed.

Lemma grows_finalize_one : forall x, grows (finalize_one cf fault x).
Proof.
  intros [i h]. apply grows_bind; [apply grows_asks|]. intros t'.
  destruct (dget _ _ t'); [|apply grows_ret]. apply grows_bind; [apply grows_finalize_item|]. intros _. apply grows_bind; [apply grows_commit|]. intros _.
  apply grows_modify. auto.
Qed.

Lemma stays_finalize : stays (finalize cf fault).
Proof.
  apply stays_bind; [apply stays_asks|]. intros [|x t]; [apply stays_raise|]. intros s I. unfold bind, asks.
  assert (K : Inv (fst (for_each (finalize_one cf fault) (unique_items (reg s)) s))).
  { apply (under_each _ _ (fun s' => ext s s')); auto.
    - intros a b X Y. eapply ext_trans; eauto.
    - apply grows_finalize_one.
    - intros [i h] J s' I' X. apply finalize_one_inv; auto. eapply ext_has; eauto. apply unique_in in J. exact J.
    - apply ext_refl. }
  destruct (for_each _ _ s) as [s1 [y|e]]; auto.
Qed.

Lemma under_item_metadata : forall d ith i, under (fun s => forall i h, dget String.eqb i ith = Some (Some h) -> has_handler s i h) (get_item_metadata fault d ith i).
Proof.
  intros d ith i s I Q. unfold get_item_metadata. destruct (dget String.eqb i ith) as [[h|]|] eqn:D; try exact I.
  assert (K : Inv (fst (act fault (EMetadata h d i) (fun s => match dget path_eqb (d, i) (disk s) with Some _ => (s, Ok tt) | None => (s, Err FileNotFoundError) end) s))).
  { apply inv_act; auto. - intros j k [= <- <-]. auto. - intros s'. destruct (dget path_eqb (d, i) (disk s')); unfold core; auto. }
  destruct (act _ _ _ s) as [s' [x|[]]]; auto.
Qed.

Lemma grown_ith : forall ith, grown (fun s => forall i h, dget String.eqb i ith = Some (Some h) -> has_handler s i h).
Proof. intros ith a b X Q i h D. eapply ext_has; eauto. Qed.

Lemma stays_metadata_base : forall d l b, stays (metadata_base E fault d l b).
Proof.
  intros d l b s I. unfold metadata_base, bind at 1, asks at 1. unfold bind at 1, asks at 1.
  assert (K : forall m, (match m with (s1, Ok _) | (s1, Err _) => Inv s1 end) ->
    Inv (fst (match m with (s', Ok x) => (fun im : option (dict string item_meta) => bind (lift (get_item_handlers E (saved_metadata d s) l (items_to_handlers s))) (fun ih => ret (ih, im))) x s' | (s', Err e) => (s', Err e) end))).
  { intros [s1 [x|e]] J; auto. unfold bind, lift. destruct (get_item_handlers _ _ _ _); auto. }
  apply K. destruct b; [|exact I]. unfold bind at 1.
  assert (J : Inv (fst (for_each (get_item_metadata fault d (items_to_handlers s)) l s))).
  { eapply (under_each _ _ _ _ _ (grown_ith (items_to_handlers s))); auto.
    - intros; apply grows_item_metadata.
    - intros; apply under_item_metadata.
    - intros i h D. apply items_in. auto. }
  destruct (for_each _ l s) as [s1 [x|e]]; auto. unfold bind, lift. destruct (composite x); auto.
Qed.

Lemma stays_metadata : forall d, stays (metadata E cf fault d).
Proof.
  intros d. apply stays_bind; [apply stays_asks|]. intros ex. apply stays_bind; [apply stays_asks|]. intros t.
  destruct (existsb _ t); [apply stays_raise|apply stays_metadata_base].
Qed.

Lemma stays_step : forall d, stays (save_step_metadata E fault d).
Proof.
  intros d s I. unfold save_step_metadata. assert (K : stays (metadata_from_temporary_paths E fault d)).
  { apply stays_bind; [apply stays_asks|]. intros t. apply stays_bind; [apply stays_metadata_base|]. intros; apply stays_ret. }
  specialize (K s I). destruct (metadata_from_temporary_paths E fault d s) as [s' [x|[]]]; cbn in *; auto.
Qed.

Lemma stays_restore_item : forall d ex args i, stays (restore_item E G fault d ex args i).
Proof.
  intros d ex args i. apply stays_bind; [apply stays_lift|]. intros a. destruct (negb _); [apply stays_raise|]. intros s I. unfold bind at 1.
  destruct (inv_get i a s I) as [A B]. destruct (get_or_set_handler E G i a s) as [s1 [h|e]]; auto. cbn [fst] in A. specialize (B s1 h eq_refl).
  unfold bind at 1. assert (C : Inv (fst (act fault (ERestore h d i a) (fun s => (s, Ok tt)) s1))).
  { apply inv_act; auto. - intros j k [= <- <-]. auto. - intros. apply core_refl. }
  destruct (act _ _ _ s1) as [s2 [x|e]]; auto. cbn [fst] in C. unfold bind, asks. destruct (dget _ _ _); auto.
Qed.

Lemma stays_default_args : forall d ith i, stays (default_args E G cf fault d ith i).
Proof.
  intros d ith i. apply stays_bind.
  - unfold class_to_restore. destruct (dget String.eqb i ith) as [[h|]|]; [apply stays_ret|apply stays_raise|]. apply stays_bind; [apply stays_metadata|].
    intros x. destruct (dget String.eqb i (fst x)); [|apply stays_raise]. destruct (get_handler_type G o) as [c|[]]; try apply stays_raise. apply stays_ret.
  - intros c. apply stays_bind; [apply stays_lift|]. intros x. destruct (makes_args E (snd x)); [apply stays_ret|apply stays_raise].
Qed.

Lemma stays_restore : forall d args, stays (restore E G cf fault d args).
Proof.
  intros d args. apply stays_bind; [apply stays_asks|]. intros ith. apply stays_bind; [apply stays_asks|]. intros ex. apply stays_bind.
  - assert (K : stays (bind (for_each (default_args E G cf fault d ith) ex) (fun l => lift (composite l)))).
    { apply stays_bind; [|intros; apply stays_lift]. apply stays_each. intros i. apply stays_default_args. }
    destruct args as [[|x l]|]; auto. apply stays_lift.
  - intros l. apply stays_bind; [|intros; apply stays_lift]. apply stays_each. intros i. apply stays_restore_item.
Qed.

Lemma run_inv : forall l s, Inv s -> Inv (run E G cf fault l s).
Proof.
  intros l. unfold run. induction l as [|o l IH]; intros s I; cbn [fold_left]; [auto|]. apply IH.
  destruct o; cbn [run_op]; [apply stays_async_save|apply stays_step|apply stays_finalize|apply stays_restore|apply stays_metadata]; auto.
Qed.

Lemma inv_one_handler : forall s, Inv s -> one_handler (log s).
Proof. intros s (S & M & H) e e' i h h' I I' D D'. eapply (inv_one s i); [split; [exact S|split; eauto]| |]; eauto. Qed.

(** ** Construction *)

Lemma add_entries_ok : forall l r r', add_entries l r = Ok r' -> r' = (r ++ l)%list.
Proof.
  induction l as [|[[i a] h] l IH]; intros r r'; cbn; [intros [= <-]; rewrite app_nil_r; auto|]. unfold rbind. destruct (add i a h r) as [r1|e] eqn:A; [|discriminate].
  intros Q. apply IH in Q. apply add_ok in A. destruct A as [-> _]. rewrite <- app_assoc in Q. auto.
Qed.

Lemma each_item_inv : forall hs s l, Inv s -> deferred s = None -> unreg s = Some l -> NoDup (map fst hs) ->
  (forall i h, In i (map fst hs) -> ~ has_handler s i h) -> (forall i h, In (i, Some h) hs -> ~ In i l) ->
  Inv (fst (for_each (add_item E G) hs s)).
Proof.
  induction hs as [|[i o] hs IH]; intros s l I D U N F K; cbn [for_each]; [exact I|]. unfold bind at 1. inversion N as [|? ? N1 N2]; subst.
  destruct o as [h|]; unfold add_item at 1; cbn [fst snd].
  - destruct (has_registered_args G (h_cls h)).
    + assert (A := inv_add h i s I (fun k => F i k (or_introl eq_refl))). rewrite U, D in A. destruct (A (K i h (or_introl eq_refl))) as [B _].
      unfold bind at 1. destruct (add_from_global_inv h i s) as (l' & r & Q & L & R). rewrite Q in *. cbn [fst] in B. destruct r as [k|e]; [|exact B]. unfold ret at 1.
      specialize (IH (set_reg (reg s ++ l')%list s) l B D U N2).
      assert (J : Inv (fst (for_each (add_item E G) hs (set_reg (reg s ++ l')%list s)))).
      { apply IH; [|intros j k' J; eapply K; right; eauto]. intros j k' J [a W]. cbn in W. apply in_app_iff in W. destruct W as [W|W].
        - apply (F j k' (or_intror J)). exists a. auto.
        - destruct (L _ W) as [b [= -> _ _]]. auto. }
      unfold bind; destruct (for_each _ hs _) as [s2 [y|e]]; exact J.
    + unfold bind at 1, asks at 1. unfold bind at 1, lift at 1. destruct (add (Some i) WrapperArgs (legacy_wrapper E h) (reg s)) as [r|e] eqn:A; [|exact I].
      apply add_ok in A. destruct A as [-> _]. unfold modify at 1. set (s1 := set_reg _ s). assert (I1 : Inv s1).
      { destruct I as (S & M & H). split; [|split].
        - cbn. eapply simple_add; eauto; [intros x [<-|[]]; eauto|]. intros a k J. elim (F i k (or_introl eq_refl)). exists a. auto.
        - cbn. rewrite U, D in *. intros j k J [a W]. cbn in W. apply in_app_iff in W. destruct W as [W|[[= -> _ _]|[]]]; [apply (M j k J); exists a; auto|].
          apply (K j h (or_introl eq_refl) J).
        - cbn. intros e j k J W. destruct (H e j k J W) as [a Z]. exists a. cbn. apply in_or_app. auto. }
      assert (J : Inv (fst (for_each (add_item E G) hs s1))).
      { apply (IH s1 l I1 D U N2); [|intros j k' J; eapply K; right; eauto]. intros j k' J [a W]. cbn in W. apply in_app_iff in W. destruct W as [W|[[= -> _ _]|[]]]; auto.
        apply (F j k' (or_intror J)). exists a. auto. }
      unfold bind. destruct (for_each _ hs _) as [s2 [y|e]]; exact J.
  - unfold modify at 1. rewrite U. set (s1 := set_unreg _ s). assert (I1 : Inv s1).
    { destruct I as (S & M & H). split; [auto|]. split; [|auto]. cbn. rewrite U, D in *. intros j k [<-|J]; [apply (F i k); left; auto|apply (M j k J)]. }
    assert (J : Inv (fst (for_each (add_item E G) hs s1))).
    { apply (IH s1 (i :: l) I1 D eq_refl N2).
      - intros j k J. apply (F j k). right; auto.
      - intros j k J [->|J']; [|eapply K; [right; eauto|auto]]. apply N1. apply in_map_iff. exists (j, Some k). auto. }
    unfold bind. destruct (for_each _ hs _) as [s2 [y|e]]; exact J.
Qed.

Lemma construct_inv : forall names hs r s s', construct E G names hs r s = (s', Ok tt) -> NoDup (map fst hs) -> log s = [] ->
  match r with Some r => simple r | None => True end -> Inv s'.
Proof.
  intros names hs r s s' Cn N L R.
  assert (Z : simple []) by (split; [intros a h []|intros i a a' h h' []]).
  assert (Gen : bind (for_each (add_item E G) hs) (fun _ => ret tt)
     (set_reg [] (set_unreg (Some (names_without names hs)) (set_deferred None (set_tmps [] s)))) = (s', Ok tt) -> Inv s').
  { clear Cn R. set (s0 := set_reg _ _). intros Q. assert (J : Inv (fst (for_each (add_item E G) hs s0))).
    { apply (each_item_inv hs s0 (names_without names hs)); auto.
      - split; [exact Z|]. split; [cbn; intros i h _ [a []]|]. cbn. rewrite L. intros e i h [].
      - intros i h _ [a []].
      - intros i h I J. apply filter_In in J. destruct J as [_ J]. destruct (dget String.eqb i hs) eqn:D; [discriminate|].
        apply (dget_none String.eqb String.eqb_spec) in D. apply D. apply in_map_iff. exists (i, Some h). auto. }
    unfold bind in Q. destruct (for_each _ hs s0) as [s1 [x|e]]; [|discriminate]. injection Q as <-. exact J. }
  unfold construct in Cn. destruct r as [r|].
  - destruct names, hs; try discriminate Cn. destruct (add_entries r []) as [r'|e] eqn:A; [|discriminate]. apply add_entries_ok in A. cbn in A. subst r'. injection Cn as <-.
    split; [auto|]. split; [cbn|cbn; rewrite L; intros e i h []]. intros i h H. apply in_map_iff. exists (i, h). split; auto. apply unique_in. exact H.
  - destruct names; [destruct hs|].
    + injection Cn as <-. split; [auto|]. split; [cbn; intros i h [a []]|cbn; rewrite L; intros e i h []].
    + apply Gen. exact Cn.
    + apply Gen. exact Cn.
Qed.


(** ** What is on disk *)

Lemma sorted_perm : forall l, Permutation (sorted_names l) l.
Proof.
  assert (I : forall x l, Permutation (insert_name x l) (x :: l)).
  { intros x l. induction l as [|y l IH]; cbn; [auto|]. destruct (String.leb x y); auto. eapply perm_trans; [apply perm_skip; exact IH|apply perm_swap]. }
  induction l as [|x l IH]; cbn; [auto|]. eapply perm_trans; [apply I|]. apply perm_skip. exact IH.
Qed.

Lemma dget_drop : forall p q d, dget path_eqb p (drop q d) = if path_eqb q p then None else dget path_eqb p d.
Proof.
  intros p q d. unfold drop. induction d as [|[k c] d IH]; cbn; [destruct (path_eqb q p); auto|]. cbn. destruct (path_spec q k) as [<-|Q]; cbn.
  - rewrite IH. destruct (path_spec q p) as [<-|Q]; auto. destruct (path_spec p q); [congruence|auto].
  - destruct (path_spec p k) as [->|P]; [|exact IH]. destruct (path_spec q k); [congruence|auto].
Qed.

Lemma dget_put : forall p q (c : content) d, dget path_eqb p (dput path_eqb q c d) = if path_eqb p q then Some c else dget path_eqb p d.
Proof. intros. apply (dget_dput path_eqb path_spec). Qed.

Lemma path_refl : forall p, path_eqb p p = true.
Proof. intros p. destruct (path_spec p p); auto. Qed.
Lemma path_ne : forall p q, p <> q -> path_eqb p q = false.
Proof. intros p q H. destruct (path_spec p q); auto. congruence. Qed.

Lemma append_inj : forall a b t, (a ++ t = b ++ t)%string -> a = b.
Proof.
  assert (L : forall a t, String.length (a ++ t) = (String.length a + String.length t)%nat).
  { induction a; cbn; intros; [auto|]. rewrite IHa. auto. }
  induction a as [|x a IH]; intros [|y b] t H; auto.
  - exfalso. assert (K := f_equal String.length H). cbn in K. rewrite L in K. lia.
  - exfalso. assert (K := f_equal String.length H). cbn in K. rewrite L in K. lia.
  - cbn in H. injection H as -> H. f_equal. eapply IH; eauto.
Qed.

Lemma tmp_inj : forall i j, tmp_name cf i = tmp_name cf j -> i = j.
Proof. intros i j. unfold tmp_name. destruct cf; auto. apply append_inj. Qed.

Lemma act_ok : forall e f s s', act fault e f s = (s', Ok tt) -> f (set_log (log s ++ [e])%list s) = (s', Ok tt).
Proof. intros e f s s'. unfold act. destruct (fault _); [discriminate|auto]. Qed.

Lemma get_frame : forall i a s, let s' := fst (get_or_set_handler E G i a s) in
  disk s' = disk s /\ tmps s' = tmps s /\ log s' = log s /\ meta s' = meta s.
Proof.
  intros i a s. assert (A : forall h i s, let s' := fst (add_from_global G h i s) in disk s' = disk s /\ tmps s' = tmps s /\ log s' = log s /\ meta s' = meta s).
  { intros h j t. destruct (add_from_global_inv h j t) as (l & r & -> & _). cbn. auto. }
  destruct a as [a|]; [|rewrite get_none; cbn; auto]. rewrite get_eq. destruct (dget _ _ _); [cbn; auto|]. destruct (dget _ _ _); [cbn; auto|].
  destruct (get_registered_handler_cls _ _); [|cbn; auto]. destruct (makes_handler _ _); [|cbn; auto]. cbv zeta. destruct (unreg s).
  - destruct (mem i l); [|cbn; auto]. match goal with |- context [add_from_global G ?h ?j ?t] => exact (A h j t) end.
  - destruct (deferred s) as [l|]; [|cbn; auto]. destruct (mem i l); [cbn; auto|]. match goal with |- context [add_from_global G ?h ?j ?t] => exact (A h j t) end.
Qed.

Lemma create_ok : forall d i s s', create cf fault d i s = (s', Ok tt) ->
  reg s' = reg s /\ tmps s' = tmps s /\ meta s' = meta s /\
  (forall p, dget path_eqb p (disk s') = if path_eqb p (d, tmp_name cf i) then Some (mkC None [] false) else dget path_eqb p (disk s)).
Proof.
  intros d i s s' H. apply act_ok in H. injection H as <-. split; [auto|]. split; [auto|]. split; [auto|]. intros p. cbn. rewrite dget_put, dget_drop.
  destruct (path_spec p (d, tmp_name cf i)) as [P|P]; auto. rewrite path_ne; auto.
Qed.

Lemma creates_ok : forall d l s s' x, for_each (create cf fault d) l s = (s', Ok x) ->
  reg s' = reg s /\ tmps s' = tmps s /\ meta s' = meta s /\
  (forall p, (forall i, In i l -> p <> (d, tmp_name cf i)) -> dget path_eqb p (disk s') = dget path_eqb p (disk s)).
Proof.
  intros d l. induction l as [|i l IH]; intros s s' x; cbn [for_each]; [intros [= <- <-]; auto|]. unfold bind.
  destruct (create cf fault d i s) as [s1 [y|e]] eqn:C; [|discriminate]. destruct y. apply create_ok in C. destruct C as (R & T & Mt & D).
  destruct (for_each _ l s1) as [s2 [ys|e]] eqn:F; [|discriminate]. intros [= <- <-]. destruct (IH _ _ _ F) as (R' & T' & M' & D').
  split; [congruence|]. split; [congruence|]. split; [congruence|]. intros p P. rewrite D'; [|intros j J; apply P; right; auto]. rewrite D. rewrite path_ne; auto. apply P. left. auto.
Qed.

Lemma save_ok : forall h d i a s s', save_item cf fault h d i a s = (s', Ok tt) ->
  reg s' = reg s /\ tmps s' = tmps s /\ meta s' = meta s /\
  (forall p, dget path_eqb p (disk s') = if path_eqb p (d, tmp_name cf i) then Some (mkC (Some (h, a)) [] false) else dget path_eqb p (disk s)).
Proof. intros h d i a s s' H. apply act_ok in H. injection H as <-. split; [auto|]. split; [auto|]. split; [auto|]. intros p. cbn. apply dget_put. Qed.

Definition pend : Type := (string * (hnd * option arg))%type.
Definition pend_op (d : N) (x : pend) : M unit := save_item cf fault (fst (snd x)) d (fst x) (snd (snd x)).
Definition saved_as (d : N) (s : st) (i : string) (h : hnd) (a : option arg) : Prop :=
  dget path_eqb (d, tmp_name cf i) (disk s) = Some (mkC (Some (h, a)) [] false).

Lemma start_ok : forall d args i s s' ops, start_save E G cf fault d args i s = (s', Ok ops) -> Inv s -> exists a h,
  arg_of i args = Ok a /\ has_handler s' i h /\ tmps s' = tmps s /\ meta s' = meta s /\
  (forall p, p <> (d, tmp_name cf i) -> dget path_eqb p (disk s') = dget path_eqb p (disk s)) /\
  (ops = map (pend_op d) [(i, (h, a))] \/ (ops = map (pend_op d) [] /\ saved_as d s' i h a)).
Proof.
  intros d args i s s' ops H I. unfold start_save, bind, lift in H. destruct (arg_of i args) as [a|e]; [|discriminate]. exists a.
  destruct (inv_get i a s I) as [_ B]. destruct (get_frame i a s) as (D & T & _ & Mt). destruct (get_or_set_handler E G i a s) as [s1 [h|e]]; [|discriminate].
  cbn [fst] in *. specialize (B s1 h eq_refl). exists h. split; auto. destruct (is_async E (h_cls h)).
  - injection H as <- <-. split; [auto|]. split; [auto|]. split; [auto|]. split; [intros; rewrite D; auto|]. left. reflexivity.
  - destruct (save_item cf fault h d i a s1) as [s2 [[]|e]] eqn:S; [|discriminate]. injection H as <- <-. apply save_ok in S. destruct S as (R & T' & M' & D').
    split; [unfold has_handler; rewrite R; auto|]. split; [congruence|]. split; [congruence|]. split; [intros p P; rewrite D', path_ne, D; auto|]. right. split; auto.
    unfold saved_as. rewrite D', path_refl. auto.
Qed.

Lemma starts_ok : forall d args l s s' ops, for_each (start_save E G cf fault d args) l s = (s', Ok ops) -> Inv s -> NoDup l -> exists pl,
  List.concat ops = map (pend_op d) pl /\ NoDup (map fst pl) /\ incl (map fst pl) l /\ Inv s' /\ tmps s' = tmps s /\ meta s' = meta s /\
  (forall p, (forall i, In i l -> p <> (d, tmp_name cf i)) -> dget path_eqb p (disk s') = dget path_eqb p (disk s)) /\
  (forall i, In i l -> exists a h, arg_of i args = Ok a /\ has_handler s' i h /\ (In (i, (h, a)) pl \/ (~ In i (map fst pl) /\ saved_as d s' i h a))).
Proof.
  intros d args l. induction l as [|i l IH]; intros s s' ops; cbn [for_each].
  - intros [= <- <-] I _. exists []. cbn. split; [auto|]. split; [constructor|]. split; [intros x []|]. split; [auto|]. split; [auto|]. split; [auto|]. split; [auto|]. intros i [].
  - unfold bind. destruct (start_save E G cf fault d args i s) as [s1 [o|e]] eqn:S; [|discriminate].
    destruct (for_each _ l s1) as [s2 [os|e]] eqn:F; [|discriminate]. intros [= <- <-] I N. inversion N as [|? ? N1 N2]; subst.
    assert (I1 : Inv s1). { destruct (start_inv d args i s I) as [K _]. rewrite S in K. exact K. }
    destruct (start_ok _ _ _ _ _ _ S I) as (a & h & A & H & T & Mt & D & O). destruct (IH _ _ _ F I1 N2) as (pl & C & Np & In' & I2 & T2 & M2 & D2 & K).
    assert (X := grows_each _ _ (start_save E G cf fault d args) l (grows_start d args) s1). rewrite F in X. cbn [fst] in X.
    assert (Same : dget path_eqb (d, tmp_name cf i) (disk s2) = dget path_eqb (d, tmp_name cf i) (disk s1)).
    { apply D2. intros j J [= Q]. apply tmp_inj in Q. subst. auto. }
    assert (NI : ~ In i (map fst pl)) by (intros J; apply N1; apply In'; auto).
    assert (Dall : forall p, (forall j, In j (i :: l) -> p <> (d, tmp_name cf j)) -> dget path_eqb p (disk s2) = dget path_eqb p (disk s)).
    { intros p P. rewrite D2; [|intros j J; apply P; right; auto]. apply D. apply P. left. auto. }
    destruct O as [-> | [-> O]].
    + exists ((i, (h, a)) :: pl). cbn [List.concat map]. rewrite C. split; [reflexivity|]. split; [constructor; auto|]. split; [intros x [<-|J]; [left; auto|right; auto]|].
      split; [auto|]. split; [congruence|]. split; [congruence|]. split; [auto|]. intros j [<-|J].
      * exists a, h. split; auto. split; [eapply ext_has; eauto|]. left. left. auto.
      * destruct (K j J) as (b & k & B & Hk & Z). exists b, k. split; auto. split; auto. destruct Z as [Z|[Z1 Z2]]; [left; right; auto|]. right. split; auto. cbn. intros [<-|W]; auto.
    + exists pl. cbn [List.concat map]. rewrite C. split; [reflexivity|]. split; [auto|]. split; [intros x J; right; auto|]. split; [auto|]. split; [congruence|]. split; [congruence|].
      split; [auto|]. intros j [<-|J].
      * exists a, h. split; auto. split; [eapply ext_has; eauto|]. right. split; auto. unfold saved_as. rewrite Same. exact O.
      * destruct (K j J) as (b & k & B & Hk & Z). exists b, k. auto.
Qed.

Lemma gather_ok : forall d pl s s', gather (map (pend_op d) pl) s = (s', Ok tt) -> NoDup (map fst pl) ->
  reg s' = reg s /\ tmps s' = tmps s /\ meta s' = meta s /\
  (forall p, (forall i, In i (map fst pl) -> p <> (d, tmp_name cf i)) -> dget path_eqb p (disk s') = dget path_eqb p (disk s)) /\
  (forall i h a, In (i, (h, a)) pl -> saved_as d s' i h a).
Proof.
  intros d pl. induction pl as [|[i [h a]] pl IH]; intros s s'; cbn [map gather].
  - intros [= <-] _. split; [auto|]. split; [auto|]. split; [auto|]. split; [auto|]. intros i h a [].
  - unfold pend_op at 1. cbn [fst snd]. destruct (save_item cf fault h d i a s) as [s1 [[]|e]] eqn:S; [|intros [=]]. intros Q N. inversion N as [|? ? N1 N2]; subst.
    apply save_ok in S. destruct S as (R & T & Mt & D). destruct (IH _ _ Q N2) as (R' & T' & M' & D' & K).
    split; [congruence|]. split; [congruence|]. split; [congruence|]. split.
    + intros p P. rewrite D'; [|intros j J; apply P; right; auto]. rewrite D, path_ne; auto. apply P. left. auto.
    + intros j k b [[= <- <- <-]|J]; [|apply K; auto]. unfold saved_as. rewrite D'; [rewrite D, path_refl; auto|]. intros j J [= W]. apply tmp_inj in W. subst. auto.
Qed.

Lemma async_save_ok : forall d args s s', async_save E G cf fault d args s = (s', Ok tt) -> Inv s -> NoDup (map fst args) ->
  Inv s' /\ tmps s' = map (fun i => (i, d)) (sorted_names (map fst args)) /\ meta s' = meta s /\
  (forall p, (forall i, In i (map fst args) -> p <> (d, tmp_name cf i)) -> dget path_eqb p (disk s') = dget path_eqb p (disk s)) /\
  (forall i a, In (i, a) args -> exists h, has_handler s' i h /\ saved_as d s' i h a).
Proof.
  intros d args s s' H I N. assert (I' : Inv s') by (assert (K := stays_async_save d args s I); rewrite H in K; exact K).
  unfold async_save, bind at 1, lift in H. destruct (composite args) as [args'|e] eqn:C; [|discriminate].
  assert (args' = args) as -> by (unfold composite in C; destruct (existsb _ _); congruence). clear C. unfold bind at 1, modify at 1 in H.
  set (names := sorted_names (map fst args)) in *. set (s0 := set_tmps _ s) in H. assert (I0 : Inv s0) by (apply (inv_core s); [unfold core; auto|auto]).
  assert (P : Permutation names (map fst args)) by apply sorted_perm.
  assert (Nn : NoDup names) by (eapply Permutation_NoDup; [apply Permutation_sym; exact P|auto]).
  assert (In_ : forall i, In i names <-> In i (map fst args)) by (intros i; split; apply Permutation_in; auto; apply Permutation_sym; auto).
  unfold bind at 1 in H. assert (I1 : Inv (fst (for_each (create cf fault d) names s0))).
  { apply stays_each; auto. intros i. apply stays_act; auto. intros; unfold core; auto. }
  destruct (for_each (create cf fault d) names s0) as [s1 [x|e]] eqn:Cr; [|discriminate]. apply creates_ok in Cr. destruct Cr as (R1 & T1 & M1 & D1). cbn [fst] in I1.
  unfold bind in H. destruct (for_each (start_save E G cf fault d args) names s1) as [s2 [ops|e]] eqn:St; [|discriminate].
  destruct (starts_ok _ _ _ _ _ _ St I1 Nn) as (pl & Cc & Np & Inc & I2 & T2 & M2 & D2 & K). rewrite Cc in H. destruct (gather_ok _ _ _ _ H Np) as (R3 & T3 & M3 & D3 & K3).
  split; [auto|]. split; [rewrite T3, T2, T1; reflexivity|]. split; [rewrite M3, M2, M1; reflexivity|]. split.
  - intros p Q. rewrite D3; [|intros i J; apply Q, In_, Inc; auto]. rewrite D2; [|intros i J; apply Q, In_; auto]. rewrite D1; [reflexivity|]. intros i J; apply Q, In_; auto.
  - intros i a J. destruct (K i) as (b & h & A & Hh & Z). { apply In_. apply in_map_iff. exists (i, a). auto. }
    assert (b = a) as ->. { unfold arg_of in A. apply (dget_in String.eqb String.eqb_spec i a args N) in J. rewrite J in A. congruence. }
    exists h. split; [unfold has_handler; rewrite R3; exact Hh|]. destruct Z as [Z|[Z1 Z2]]; [apply K3; auto|].
    unfold saved_as. rewrite D3; [exact Z2|]. intros j W [= Y]. apply tmp_inj in Y. subst. auto.
Qed.


(** ** Finalization *)

Section Finalization.
Variable d : N.
Variable names : list string.
Variable argsof : string -> option arg.
Hypothesis apart : cf = false -> forall i j, In i names -> In j names -> i <> tmp_name cf j.

Definition pending (s : st) (i : string) (c : content) : Prop :=
  dget String.eqb i (tmps s) = Some d /\ dget path_eqb (d, tmp_name cf i) (disk s) = Some c /\ (cf = false -> dget path_eqb (d, i) (disk s) = None).
Definition finished (s : st) (i : string) (c : content) : Prop :=
  dget String.eqb i (tmps s) = None /\ dget path_eqb (d, i) (disk s) = Some c /\ (cf = false -> dget path_eqb (d, tmp_name cf i) (disk s) = None).

Definition FI (K : nat -> Prop) (s : st) : Prop :=
  (forall i d', dget String.eqb i (tmps s) = Some d' -> d' = d /\ In i names) /\
  (forall i, In i names -> exists h n, K n /\ has_handler s i h /\
     (pending s i (mkC (Some (h, argsof i)) (repeat h n) false) \/ finished s i (mkC (Some (h, argsof i)) (repeat h (S n)) true))).

Lemma dget_pop : forall V i j (t : dict string V), dget String.eqb i (pop j t) = if String.eqb j i then None else dget String.eqb i t.
Proof.
  intros V i j t. unfold pop. induction t as [|[k v] t IH]; cbn; [destruct (String.eqb j i); auto|]. destruct (String.eqb_spec j k) as [<-|Q]; cbn.
  - rewrite IH. destruct (String.eqb_spec j i) as [<-|Q]; auto. destruct (String.eqb_spec i j); [congruence|auto].
  - destruct (String.eqb_spec i k) as [->|P]; [|exact IH]. destruct (String.eqb_spec j k); [congruence|auto].
Qed.

Inductive outcome (s : st) (i : string) (h : hnd) (c : content) : st -> result unit -> Prop :=
| out_fault1 : forall s' e, fault (List.length (log s)) <> None -> reg s' = reg s -> tmps s' = tmps s -> meta s' = meta s ->
    log s' = (log s ++ [EFinalize h d i])%list ->
    (forall p, dget path_eqb p (disk s') = dget path_eqb p (disk s)) -> outcome s i h c s' (Err e)
| out_fault2 : forall s' e, fault (S (List.length (log s))) <> None -> reg s' = reg s -> tmps s' = tmps s -> meta s' = meta s ->
    log s' = (log s ++ [EFinalize h d i; ECommit d i])%list ->
    (forall p, dget path_eqb p (disk s') = if path_eqb p (d, tmp_name cf i) then Some (mkC (c_by c) (c_fin c ++ [h])%list (c_commit c)) else dget path_eqb p (disk s)) ->
    outcome s i h c s' (Err e)
| out_ok : forall s', reg s' = reg s -> tmps s' = pop i (tmps s) -> meta s' = meta s ->
    (forall p, dget path_eqb p (disk s') = if path_eqb p (d, i) then Some (mkC (c_by c) (c_fin c ++ [h])%list true)
                                           else if path_eqb p (d, tmp_name cf i) then None else dget path_eqb p (disk s)) ->
    outcome s i h c s' (Ok tt).

Lemma tmp_ne : cf = false -> forall i, tmp_name cf i <> i.
Proof.
  intros F i H. unfold tmp_name in H. rewrite F in H.
  assert (L : forall a t, String.length (a ++ t) = (String.length a + String.length t)%nat) by (induction a; cbn; intros; auto).
  apply (f_equal String.length) in H. rewrite L in H. cbn in H. lia.
Qed.

Lemma finalize_one_outcome : forall s i h c, pending s i c -> outcome s i h c (fst (finalize_one cf fault (i, h) s)) (snd (finalize_one cf fault (i, h) s)).
Proof.
  intros s i h c (T & D & F). destruct (finalize_one cf fault (i, h) s) as [s' r] eqn:Q. cbn [fst snd]. revert Q.
  unfold finalize_one, bind at 1, asks at 1. cbn [fst snd]. rewrite T. unfold bind at 1. unfold finalize_item, act at 1.
  destruct (fault (List.length (log s))) as [e|] eqn:F1.
  { intros [= <- <-]. apply out_fault1; auto. congruence. }
  cbn [disk set_log]. rewrite D. unfold bind at 1. unfold commit, act at 1. cbn [set_disk set_log log disk]. rewrite app_length. cbn [List.length]. rewrite Nat.add_1_r.
  destruct (fault (S (List.length (log s)))) as [e|] eqn:F2.
  { intros [= <- <-]. apply out_fault2; auto; [congruence|cbn; rewrite <- app_assoc; auto|]. intros p. cbn. apply dget_put. }
  rewrite dget_put, path_refl. cbn [c_by c_fin]. assert (C : cf = true \/ cf = false) by (destruct cf; auto). destruct C as [C|C].
  - rewrite C. intros [= <- <-]. apply out_ok; auto. intros p. cbn. rewrite !dget_put. unfold tmp_name. rewrite C. destruct (path_spec p (d, i)); auto.
  - assert (Ne := tmp_ne C i). rewrite dget_put. rewrite path_ne by (intros [= Q]; auto). rewrite F by auto.
    replace (if cf then _ else _) with (set_disk (dput path_eqb (d, i) (mkC (c_by c) (c_fin c ++ [h])%list true) (drop (d, tmp_name cf i)
      (dput path_eqb (d, tmp_name cf i) (mkC (c_by c) (c_fin c ++ [h])%list (c_commit c)) (disk s))))
      (set_log ((log s ++ [EFinalize h d i]) ++ [ECommit d i])%list (set_disk (dput path_eqb (d, tmp_name cf i) (mkC (c_by c) (c_fin c ++ [h])%list (c_commit c)) (disk s)) (set_log (log s ++ [EFinalize h d i])%list s))), Ok tt) by (rewrite C; reflexivity).
    intros [= <- <-]. apply out_ok; auto. intros p. cbn. rewrite dget_put, dget_drop, dget_put.
    destruct (path_spec p (d, i)); auto. destruct (path_spec p (d, tmp_name cf i)) as [->|Q]; [rewrite path_refl; auto|]. rewrite path_ne; auto.
Qed.

Lemma names_apart : forall i j, In i names -> In j names -> i <> j -> tmp_name cf i <> j.
Proof.
  intros i j I J N H. assert (C : cf = true \/ cf = false) by (destruct cf; auto). destruct C as [C|C].
  - unfold tmp_name in H. rewrite C in H. auto.
  - apply (apart C j i); auto.
Qed.

Lemma FI_step : forall K s i h, FI K s -> has_handler s i h -> Inv s ->
  let x := finalize_one cf fault (i, h) s in
  match snd x with
  | Ok _ => FI K (fst x) /\ dget String.eqb i (tmps (fst x)) = None
  | Err _ => ((forall n, K n -> K (S n)) -> FI K (fst x)) /\ exists k, List.length (log s) <= k < List.length (log (fst x)) /\ fault k <> None
  end /\ reg (fst x) = reg s /\ (forall j, dget String.eqb j (tmps s) = None -> dget String.eqb j (tmps (fst x)) = None) /\
  (forall p, (forall j, In j names -> p <> (d, j) /\ p <> (d, tmp_name cf j)) -> dget path_eqb p (disk (fst x)) = dget path_eqb p (disk s)) /\
  List.length (log s) <= List.length (log (fst x)).
Proof.
  intros K s i h W H I. cbv zeta. assert (W' := W). destruct W' as [T A].
  destruct (dget String.eqb i (tmps s)) as [d'|] eqn:Di.
  2: { assert (finalize_one cf fault (i, h) s = (s, Ok tt)) as ->. { unfold finalize_one, bind at 1, asks at 1. cbn [fst snd]. rewrite Di. auto. } cbn [fst snd]. auto 8. }
  destruct (T _ _ Di) as [-> Ni]. destruct (A i Ni) as (h' & n & Kn & Hh & Z). assert (h' = h) as -> by (eapply inv_one; eauto). destruct Z as [Z|(Z & _)]; [|congruence].
  assert (O := finalize_one_outcome s i h _ Z).
  assert (Lg : List.length (log s) <= List.length (log (fst (finalize_one cf fault (i, h) s)))).
  { clear. unfold finalize_one, bind at 1, asks at 1. cbn [fst snd]. destruct (dget String.eqb i (tmps s)) as [d'|]; [|auto].
    assert (Act : forall e f t, (forall u, log (fst (f u)) = log u) -> List.length (log t) <= List.length (log (fst (act fault e f t)))).
    { intros e f t Hf. unfold act. destruct (fault _); cbn; rewrite ?Hf; cbn; rewrite app_length; lia. }
    unfold bind at 1. assert (L1 : List.length (log s) <= List.length (log (fst (finalize_item cf fault h d' i s)))).
    { apply Act. intros u. destruct (dget _ _ _); auto. }
    destruct (finalize_item cf fault h d' i s) as [s1 [x|e]]; auto. cbn [fst] in L1. unfold bind at 1.
    assert (L2 : List.length (log s1) <= List.length (log (fst (commit cf fault d' i s1)))).
    { apply Act. intros u. destruct (dget _ _ _); auto. destruct cf; auto. destruct (dget _ _ _); auto. }
    destruct (commit cf fault d' i s1) as [s2 [y|e]]; cbn in *; lia. }
  destruct (finalize_one cf fault (i, h) s) as [s' r]. cbn [fst snd] in *. destruct Z as (Z1 & Z2 & Z3).
  inversion O as [? e F1 R Tm Mt L D|? e F2 R Tm Mt L D|? R Tm Mt D]; subst.
  - split; [|split; [auto|split; [rewrite Tm; auto|split; auto]]]. split.
    + intros _. split; [rewrite Tm; auto|]. intros j J. destruct (A j J) as (k & m & Km & Hk & Y). exists k, m. split; auto. split; [unfold has_handler; rewrite R; auto|].
      unfold pending, finished in *. rewrite Tm, !D. auto.
    + exists (List.length (log s)). split; auto. rewrite L, app_length. cbn. lia.
  - split; [|split; [auto|split; [rewrite Tm; auto|split; [|auto]]]].
    2: { intros p P. rewrite D, path_ne; auto. apply (P i Ni). }
    split.
    + intros Cl. split; [rewrite Tm; auto|]. intros j J. destruct (String.eqb_spec j i) as [->|Q].
      * exists h, (S n). split; auto. split; [unfold has_handler; rewrite R; auto|]. left. unfold pending. rewrite Tm. split; auto. rewrite D, path_refl. split.
        -- cbn [c_by c_fin c_commit]. f_equal. f_equal. change [h] with (repeat h 1). rewrite <- repeat_app, Nat.add_1_r. auto.
        -- intros C. rewrite D, path_ne; auto. intros [= Y]. revert Y. apply not_eq_sym, tmp_ne. auto.
      * destruct (A j J) as (k & m & Km & Hk & Y). exists k, m. split; auto. split; [unfold has_handler; rewrite R; auto|].
        unfold pending, finished in *. rewrite Tm, !D. rewrite (path_ne (d, tmp_name cf j) (d, tmp_name cf i)) by (intros [= X]; apply tmp_inj in X; auto).
        rewrite (path_ne (d, j) (d, tmp_name cf i)); auto. intros [= X]. symmetry in X. revert X. apply names_apart; auto.
    + exists (S (List.length (log s))). split; auto. rewrite L, app_length. cbn. lia.
  - split; [|split; [auto|split; [|split; [|auto]]]].
    2: { intros j J. rewrite Tm, dget_pop, J. destruct (String.eqb i j); auto. }
    2: { intros p P. rewrite D. destruct (P i Ni). rewrite !path_ne; auto. }
    split; [|rewrite Tm, dget_pop, String.eqb_refl; auto]. split.
    + intros j d'. rewrite Tm, dget_pop. destruct (String.eqb i j); [discriminate|]. auto.
    + intros j J. destruct (String.eqb_spec j i) as [->|Q].
      * exists h, n. split; auto. split; [unfold has_handler; rewrite R; auto|]. right. unfold finished. rewrite Tm, dget_pop, String.eqb_refl. split; auto. rewrite !D, !path_refl. split.
        -- cbn [c_by c_fin]. f_equal. f_equal. change [h] with (repeat h 1). rewrite <- repeat_app, Nat.add_1_r. auto.
        -- intros C. rewrite path_ne; auto. intros [= Y]. revert Y. apply tmp_ne. auto.
      * destruct (A j J) as (k & m & Km & Hk & Y). exists k, m. split; auto. split; [unfold has_handler; rewrite R; auto|].
        unfold pending, finished in *. rewrite Tm, dget_pop, !D. destruct (String.eqb_spec i j) as [->|_]; [congruence|].
        rewrite (path_ne (d, tmp_name cf j) (d, tmp_name cf i)) by (intros [= X]; apply tmp_inj in X; auto).
        rewrite (path_ne (d, j) (d, i)) by congruence.
        rewrite (path_ne (d, tmp_name cf j) (d, i)) by (intros [= X]; revert X; apply names_apart; auto).
        rewrite (path_ne (d, j) (d, tmp_name cf i)); auto. intros [= X]. symmetry in X. revert X. apply names_apart; auto.
Qed.

Lemma FI_each : forall K l s, FI K s -> Inv s -> (forall i h, In (i, h) l -> has_handler s i h) ->
  let x := for_each (finalize_one cf fault) l s in
  match snd x with
  | Ok _ => FI K (fst x) /\ forall i h, In (i, h) l -> dget String.eqb i (tmps (fst x)) = None
  | Err _ => ((forall n, K n -> K (S n)) -> FI K (fst x)) /\ exists k, List.length (log s) <= k < List.length (log (fst x)) /\ fault k <> None
  end /\ reg (fst x) = reg s /\ (forall j, dget String.eqb j (tmps s) = None -> dget String.eqb j (tmps (fst x)) = None) /\
  (forall p, (forall j, In j names -> p <> (d, j) /\ p <> (d, tmp_name cf j)) -> dget path_eqb p (disk (fst x)) = dget path_eqb p (disk s)) /\
  List.length (log s) <= List.length (log (fst x)).
Proof.
  intros K l. induction l as [|[i h] l IH]; intros s W I Hl; cbn [for_each].
  - cbn. split; [split; [auto|intros i h []]|]. auto.
  - unfold bind. assert (H := Hl i h (or_introl eq_refl)). assert (S := FI_step K s i h W H I). assert (I1 := finalize_one_inv i h s I H). cbv zeta in *.
    destruct (finalize_one cf fault (i, h) s) as [s1 [x|e]]; cbn [fst snd] in *.
    2: { exact S. }
    destruct S as ((W1 & T1) & R1 & M1 & P1 & L1). assert (Hl' : forall i h, In (i, h) l -> has_handler s1 i h).
    { intros j k J. unfold has_handler. rewrite R1. apply Hl. right. auto. }
    specialize (IH s1 W1 I1 Hl'). destruct (for_each (finalize_one cf fault) l s1) as [s2 [y|e]]; unfold ret; cbn [fst snd] in *; destruct IH as (A & R2 & M2 & P2 & L2).
    + split; [|split; [congruence|split; [auto|split; [intros p P; rewrite P2, P1; auto|lia]]]]. destruct A as [A B]. split; auto. intros j k [[= -> ->]|J]; auto. eapply B; eauto.
    + split; [|split; [congruence|split; [auto|split; [intros p P; rewrite P2, P1; auto|lia]]]]. destruct A as [A (k & B & C)]. split; auto. exists k. split; auto. lia.
Qed.

Lemma finalize_eq : forall s, tmps s <> [] -> finalize cf fault s =
  match for_each (finalize_one cf fault) (unique_items (reg s)) s with (s1, Ok _) => (s1, Ok tt) | (s1, Err e) => (s1, Err e) end.
Proof. intros s N. unfold finalize, bind, asks, ret. destruct (tmps s); [congruence|]. reflexivity. Qed.

Lemma FI_finalize : forall K s, FI K s -> Inv s -> tmps s <> [] ->
  let x := finalize cf fault s in
  match snd x with
  | Ok _ => FI K (fst x) /\ tmps (fst x) = []
  | Err _ => ((forall n, K n -> K (S n)) -> FI K (fst x)) /\ exists k, List.length (log s) <= k < List.length (log (fst x)) /\ fault k <> None
  end /\ reg (fst x) = reg s /\
  (forall p, (forall j, In j names -> p <> (d, j) /\ p <> (d, tmp_name cf j)) -> dget path_eqb p (disk (fst x)) = dget path_eqb p (disk s)).
Proof.
  intros K s W I N. rewrite (finalize_eq s N).
  assert (A := FI_each K (unique_items (reg s)) s W I (fun i h J => proj1 (unique_in (reg s) i h) J)). cbv zeta in *.
  destruct (for_each (finalize_one cf fault) (unique_items (reg s)) s) as [s1 [x|e]]; unfold ret; cbn [fst snd] in *; destruct A as (A & R & _ & P & _).
  - split; [|split; auto]. destruct A as [W1 A]. split; auto. destruct (tmps s1) as [|[i v] t1] eqn:T1; auto. exfalso.
    destruct W1 as [W1 W2]. destruct (W1 i v) as [-> Ni]. { rewrite T1. cbn. rewrite String.eqb_refl. auto. }
    destruct (W2 i Ni) as (h & n & _ & Hh & _). unfold has_handler in Hh. rewrite R in Hh. assert (Q := A i h (proj2 (unique_in (reg s) i h) Hh)). cbn in Q. rewrite String.eqb_refl in Q. discriminate.
  - split; auto.
Qed.

Lemma FI_again : forall bound, (forall k, bound <= k -> fault k = None) -> forall n s, FI (fun _ => True) s -> Inv s -> bound < n + List.length (log s) -> n <> 0 ->
  let s' := again n (finalize cf fault) s in
  FI (fun _ => True) s' /\ tmps s' = [] /\
  (forall p, (forall j, In j names -> p <> (d, j) /\ p <> (d, tmp_name cf j)) -> dget path_eqb p (disk s') = dget path_eqb p (disk s)).
Proof.
  intros bound B n. assert (Stop : forall n s, tmps s = [] -> again n (finalize cf fault) s = s).
  { clear n. induction n as [|n IH]; intros s T; cbn; auto. unfold finalize at 1, bind at 1, asks at 1. rewrite T. cbn. auto. }
  induction n as [|n IH]; intros s W I L N; cbv zeta; [congruence|]. destruct (tmps s) as [|t0 t] eqn:T.
  { rewrite Stop by auto. auto. }
  cbn [again]. assert (A := FI_finalize (fun _ => True) s W I). assert (I1 := stays_finalize s I). cbv zeta in A. rewrite T in A. specialize (A ltac:(discriminate)).
  destruct (finalize cf fault s) as [s1 [x|e]]; cbn [fst snd] in *; destruct A as (A & R & P).
  - destruct A as [A T1]. rewrite Stop by auto. auto.
  - destruct A as [A (k & C & F)]. specialize (A (fun _ _ => Logic.I)). assert (k < bound). { destruct (Nat.lt_ge_cases k bound); auto. rewrite B in F; auto. congruence. }
    destruct n as [|n]; [exfalso; cbn in L; lia|]. destruct (IH s1 A I1) as (A1 & A2 & A3); [lia|discriminate|]. split; auto. split; auto. intros p Q. rewrite A3, P; auto.
Qed.

End Finalization.

Lemma saved_FI : forall d args s s', async_save E G cf fault d args s = (s', Ok tt) -> Inv s -> savable cf s d (map fst args) ->
  FI d (map fst args) (fun i => match dget String.eqb i args with Some a => a | None => None end) (eq 0) s'.
Proof.
  intros d args s s' H I [N Sv]. destruct (async_save_ok d args s s' H I N) as (I' & T & _ & D & K). split.
  - intros i d' Q. rewrite T in Q. apply (dget_some_in String.eqb String.eqb_spec) in Q. apply in_map_iff in Q. destruct Q as (j & [= -> ->] & J). split; auto.
    eapply Permutation_in; [apply sorted_perm|exact J].
  - intros i J. apply in_map_iff in J. destruct J as ([i' a] & <- & J). destruct (K i' a J) as (h & Hh & Sa). exists h, 0. split; auto. split; auto. left. cbn [fst].
    assert (dget String.eqb i' args = Some a) as -> by (apply (dget_in String.eqb String.eqb_spec i' a args N); auto). split; [|split].
    + rewrite T. apply (dget_in String.eqb String.eqb_spec).
      * rewrite map_map, map_id. eapply Permutation_NoDup; [apply Permutation_sym, sorted_perm|auto].
      * apply in_map_iff. exists i'. split; auto. eapply Permutation_in; [apply Permutation_sym, sorted_perm|]. apply in_map_iff. exists (i', a). auto.
    + exact Sa.
    + intros C. rewrite D.
      * apply (Sv C). apply in_map_iff. exists (i', a). auto.
      * intros j Jj [= Q]. revert Q. apply (Sv C); auto. apply in_map_iff. exists (i', a). auto.
Qed.

(** ** Relations that all operations keep *)

Section Walk.
Variable rel : st -> st -> Prop.
Hypothesis rel_refl : forall s, rel s s.
Hypothesis rel_trans : forall a b c, rel a b -> rel b c -> rel a c.
Hypothesis rel_same : forall s s', reg s' = reg s -> unreg s' = unreg s -> deferred s' = deferred s -> next s' = next s -> disk s' = disk s -> tmps s' = tmps s -> rel s s'.
Hypothesis rel_get : forall i a s, rel s (fst (get_or_set_handler E G i a s)).

Definition walks {A : Type} (m : M A) : Prop := forall s, rel s (fst (m s)).

Lemma walks_ret : forall A (x : A), walks (ret x).
Proof. intros A x s. apply rel_refl. Qed.
Lemma walks_raise : forall A e, walks (@raise A e).
Proof. intros A e s. apply rel_refl. Qed.
Lemma walks_lift : forall A (r : result A), walks (lift r).
Proof. intros A r s. apply rel_refl. Qed.
Lemma walks_asks : forall A (f : st -> A), walks (asks f).
Proof. intros A f s. apply rel_refl. Qed.
Lemma walks_bind : forall A B (m : M A) (f : A -> M B), walks m -> (forall x, walks (f x)) -> walks (bind m f).
Proof.
  intros A B m f H K s. unfold bind. specialize (H s). destruct (m s) as [s' [x|e]]; cbn in *; auto. eapply rel_trans; [exact H|apply K].
Qed.
Lemma walks_each : forall A B (f : A -> M B) l, (forall x, walks (f x)) -> walks (for_each f l).
Proof. intros A B f l H. induction l as [|x l IH]; cbn; [apply walks_ret|]. apply walks_bind; [apply H|]. intros y. apply walks_bind; [apply IH|]. intros ys. apply walks_ret. Qed.
Lemma walks_quiet : forall e f, (forall s, fst (f s) = s) -> walks (act fault e f).
Proof. intros e f H s. unfold act. destruct (fault _); cbn; [apply rel_same; auto|]. rewrite H. apply rel_same; auto. Qed.
Lemma walks_gather : forall l, (forall m, In m l -> walks m) -> walks (gather l).
Proof.
  induction l as [|m l IH]; intros H; cbn; [apply walks_ret|]. intros s. assert (K := H m (or_introl eq_refl) s). destruct (m s) as [s' [x|e]]; cbn in *.
  - eapply rel_trans; [exact K|]. apply IH. auto.
  - eapply rel_trans; [exact K|]. apply IH. auto.
Qed.

Lemma walks_async_save : forall d args, (forall l, walks (modify (set_tmps (map (fun i => (i, d)) l)))) -> (forall i, walks (create cf fault d i)) ->
  (forall h i a, walks (save_item cf fault h d i a)) -> walks (async_save E G cf fault d args).
Proof.
  intros d args Ht Hc Hs. assert (St : forall args i, walks (start_save E G cf fault d args i)).
  { intros args' i. apply walks_bind; [apply walks_lift|]. intros a. apply walks_bind; [intros s; apply rel_get|]. intros h.
    destruct (is_async E (h_cls h)); [apply walks_ret|]. apply walks_bind; [apply Hs|]. intros _. apply walks_ret. }
  apply walks_bind; [apply walks_lift|]. intros args'. apply walks_bind; [apply Ht|]. intros _.
  apply walks_bind; [apply walks_each; intros; apply Hc|]. intros _. intros s. unfold bind.
  assert (K := walks_each _ _ (start_save E G cf fault d args') (sorted_names (map fst args')) (St args') s).
  destruct (for_each _ _ s) as [s' [ops|e]] eqn:F; cbn in *; auto. eapply rel_trans; [exact K|]. apply walks_gather.
  intros m I. destruct (each_ops _ _ _ _ _ _ F m I) as (i & h & a & ->). apply Hs.
Qed.

Lemma walks_finalize : (forall x, walks (finalize_one cf fault x)) -> walks (finalize cf fault).
Proof.
  intros Hf. apply walks_bind; [apply walks_asks|]. intros [|x t]; [apply walks_raise|]. apply walks_bind; [apply walks_asks|]. intros r.
  apply walks_bind; [|intros; apply walks_ret]. apply walks_each. apply Hf.
Qed.

Lemma walks_item_metadata : forall d ith i, walks (get_item_metadata fault d ith i).
Proof.
  intros d ith i. unfold get_item_metadata. destruct (dget String.eqb i ith) as [[h|]|]; try apply walks_ret. intros s.
  assert (K := walks_quiet (EMetadata h d i) (fun s => match dget path_eqb (d, i) (disk s) with Some _ => (s, Ok tt) | None => (s, Err FileNotFoundError) end)).
  specialize (K ltac:(intros s'; cbv beta; destruct (dget path_eqb (d, i) (disk s')); auto) s). destruct (act _ _ _ s) as [s' [x|[]]]; auto.
Qed.

Lemma walks_metadata_base : forall d l b, walks (metadata_base E fault d l b).
Proof.
  intros d l b. apply walks_bind; [apply walks_asks|]. intros ith. apply walks_bind; [apply walks_asks|]. intros sv. apply walks_bind.
  - destruct b; [|apply walks_ret]. apply walks_bind; [apply walks_each; intros; apply walks_item_metadata|]. intros x. apply walks_bind; [apply walks_lift|]. intros; apply walks_ret.
  - intros im. apply walks_bind; [apply walks_lift|]. intros; apply walks_ret.
Qed.

Lemma walks_metadata : forall d, walks (metadata E cf fault d).
Proof.
  intros d. apply walks_bind; [apply walks_asks|]. intros ex. apply walks_bind; [apply walks_asks|]. intros t.
  destruct (existsb _ t); [apply walks_raise|apply walks_metadata_base].
Qed.

Lemma walks_step : forall d, walks (save_step_metadata E fault d).
Proof.
  intros d s. unfold save_step_metadata. assert (K : walks (metadata_from_temporary_paths E fault d)).
  { apply walks_bind; [apply walks_asks|]. intros t. apply walks_bind; [apply walks_metadata_base|]. intros; apply walks_ret. }
  specialize (K s). destruct (metadata_from_temporary_paths E fault d s) as [s' [x|[]]]; cbn in *; auto.
  eapply rel_trans; [exact K|]. apply rel_same; auto.
Qed.

Lemma walks_default_args : forall d ith i, walks (default_args E G cf fault d ith i).
Proof.
  intros d ith i. apply walks_bind.
  - unfold class_to_restore. destruct (dget String.eqb i ith) as [[h|]|]; [apply walks_ret|apply walks_raise|]. apply walks_bind; [apply walks_metadata|].
    intros x. destruct (dget String.eqb i (fst x)); [|apply walks_raise]. destruct (get_handler_type G o) as [c|[]]; try apply walks_raise. apply walks_ret.
  - intros c. apply walks_bind; [apply walks_lift|]. intros x. destruct (makes_args E (snd x)); [apply walks_ret|apply walks_raise].
Qed.

Lemma walks_restore : forall d args, walks (restore E G cf fault d args).
Proof.
  intros d args. apply walks_bind; [apply walks_asks|]. intros ith. apply walks_bind; [apply walks_asks|]. intros ex. apply walks_bind.
  - assert (K : walks (bind (for_each (default_args E G cf fault d ith) ex) (fun l => lift (composite l)))).
    { apply walks_bind; [|intros; apply walks_lift]. apply walks_each. intros i. apply walks_default_args. }
    destruct args as [[|x l]|]; [exact K|apply walks_lift|exact K].
  - intros l. apply walks_bind; [|intros; apply walks_lift]. apply walks_each. intros i. apply walks_bind; [apply walks_lift|]. intros a.
    destruct (negb _); [apply walks_raise|]. apply walks_bind; [intros s; apply rel_get|]. intros h. apply walks_bind; [apply walks_quiet; auto|]. intros _.
    apply walks_bind; [apply walks_asks|]. intros o. destruct o; [apply walks_ret|apply walks_raise].
Qed.
End Walk.

(** ** A checkpoint that nothing writes to *)

Definition off_tmps (d : N) (s : st) : Prop := forall i d', In (i, d') (tmps s) -> d' <> d.
Definition off (d : N) (s s' : st) : Prop := off_tmps d s -> off_tmps d s' /\ forall i, dget path_eqb (d, i) (disk s') = dget path_eqb (d, i) (disk s).

Lemma off_refl : forall d s, off d s s.
Proof. intros d s T. auto. Qed.
Lemma off_trans : forall d a b c, off d a b -> off d b c -> off d a c.
Proof. intros d a b c H K T. destruct (H T) as [T1 A]. destruct (K T1) as [T2 B]. split; auto. intros i. rewrite B. auto. Qed.

Lemma act_off : forall d e f, (forall s, off d s (fst (f s))) -> forall s, off d s (fst (act fault e f s)).
Proof.
  intros d e f H s. unfold act. destruct (fault _); cbn [fst]; [intros T; auto|]. intros T. apply (H (set_log (log s ++ [e])%list s)). exact T.
Qed.

Lemma finalize_one_off : forall d x s, off d s (fst (finalize_one cf fault x s)).
Proof.
  intros d [i h] s T. destruct (finalize_one cf fault (i, h) s) as [s' r] eqn:Q. cbn [fst]. revert Q.
  unfold finalize_one, bind at 1, asks at 1. cbn [fst snd]. destruct (dget String.eqb i (tmps s)) as [d'|] eqn:Di; [|intros [= <- <-]; auto].
  assert (Nd : d' <> d) by (apply (dget_some_in String.eqb String.eqb_spec) in Di; eapply T; eauto).
  assert (A : off d s (fst (finalize_item cf fault h d' i s))).
  { apply act_off. intros t T'. destruct (dget path_eqb (d', tmp_name cf i) (disk t)); cbn [fst]; [|auto]. split; auto. intros j. cbn. rewrite dget_put, path_ne; auto. congruence. }
  unfold bind at 1. destruct (finalize_item cf fault h d' i s) as [s1 [x|e]]; cbn [fst] in A; [|intros [= <- <-]; exact (A T)].
  destruct (A T) as [T1 B]. assert (C : off d s1 (fst (commit cf fault d' i s1))).
  { apply act_off. intros t T'. destruct (dget path_eqb (d', tmp_name cf i) (disk t)); cbn [fst]; [|auto]. assert (Q : cf = true \/ cf = false) by (destruct cf; auto).
    destruct Q as [-> | ->].
    - split; auto. intros j. cbn. rewrite dget_put, path_ne; auto. congruence.
    - destruct (dget path_eqb (d', i) (disk t)); (split; [auto|]); intros j; cbn; rewrite dget_put, path_ne; auto; try congruence. rewrite dget_drop, path_ne; auto. congruence. }
  unfold bind. destruct (commit cf fault d' i s1) as [s2 [y|e]]; cbn [fst] in C; destruct (C T1) as [T2 B2]; intros [= <- <-].
  - split; [|intros j; rewrite B2, B; auto]. intros j k J. unfold pop in J. cbn in J. apply filter_In in J. destruct J as [J _]. eapply T; eauto.
  - split; [auto|]. intros j; rewrite B2, B; auto.
Qed.

Lemma run_off : forall d l s, Forall (elsewhere d) l -> off d s (run E G cf fault l s).
Proof.
  intros d l. assert (Sm : forall s s', reg s' = reg s -> unreg s' = unreg s -> deferred s' = deferred s -> next s' = next s -> disk s' = disk s -> tmps s' = tmps s -> off d s s').
  { intros s s' _ _ _ _ D T. unfold off, off_tmps. rewrite D, T. auto. }
  assert (Gt : forall i a s, off d s (fst (get_or_set_handler E G i a s))).
  { intros i a s. destruct (get_frame i a s) as (D & T & _ & _). unfold off, off_tmps. rewrite D, T. auto. }
  unfold run. induction l as [|o l IH]; intros s F; cbn [fold_left]; [apply off_refl|]. inversion F as [|? ? Fo Fl]; subst. eapply off_trans; [|apply IH; auto].
  destruct o as [d' args|d'| |d' args|d']; cbn [run_op elsewhere] in *.
  - apply (walks_async_save (off d) (off_refl d) (off_trans d) Gt).
    + intros l' t T. split; [|auto]. intros i k J. cbn in J. apply in_map_iff in J. destruct J as (? & [= _ <-] & _). auto.
    + intros i. intros t. apply act_off. intros t' T. split; auto. intros j. cbn. rewrite dget_put, path_ne by congruence. rewrite dget_drop, path_ne; auto. congruence.
    + intros h i a. intros t. apply act_off. intros t' T. split; auto. intros j. cbn. rewrite dget_put, path_ne; auto. congruence.
  - apply (walks_step (off d) (off_refl d) (off_trans d) Sm).
  - apply (walks_finalize (off d) (off_refl d) (off_trans d)). intros x t. apply finalize_one_off.
  - apply (walks_restore (off d) (off_refl d) (off_trans d) Sm Gt).
  - apply (walks_metadata (off d) (off_refl d) (off_trans d) Sm).
Qed.

(** ** Restoring *)

Lemma restore_item_ok : forall d ex args i s s' j r, restore_item E G fault d ex args i s = (s', Ok (j, r)) -> Inv s ->
  j = i /\ arg_of i args = Ok (r_arg r) /\ has_handler s' i (r_by r) /\ dget path_eqb (d, i) (disk s) = Some (r_from r) /\ disk s' = disk s /\ Inv s'.
Proof.
  intros d ex args i s s' j r H I. assert (Is : Inv s') by (assert (K := stays_restore_item d ex args i s I); rewrite H in K; exact K).
  unfold restore_item, bind at 1, lift in H. destruct (arg_of i args) as [a|e]; [|discriminate]. destruct (negb _); [discriminate|].
  unfold bind at 1 in H. destruct (inv_get i a s I) as [_ B]. destruct (get_frame i a s) as (D & _). destruct (get_or_set_handler E G i a s) as [s1 [h|e]]; [|discriminate]. cbn [fst] in D.
  specialize (B s1 h eq_refl). unfold bind at 1 in H. destruct (act fault (ERestore h d i a) (fun s => (s, Ok tt)) s1) as [s2 [[]|e]] eqn:A; [|discriminate].
  apply act_ok in A. injection A as <-. unfold bind, asks, ret, raise in H. cbn [disk set_log] in H. rewrite D in H. destruct (dget path_eqb (d, i) (disk s)) as [c|]; [|discriminate].
  injection H as <- <- <-. cbn. rewrite D. auto 6.
Qed.

Lemma restores_ok : forall d ex args l s s' out, for_each (restore_item E G fault d ex args) l s = (s', Ok out) -> Inv s ->
  map fst out = l /\ disk s' = disk s /\ Inv s' /\
  forall i r, In (i, r) out -> arg_of i args = Ok (r_arg r) /\ has_handler s' i (r_by r) /\ dget path_eqb (d, i) (disk s) = Some (r_from r).
Proof.
  intros d ex args l. induction l as [|i l IH]; intros s s' out; cbn [for_each].
  - intros [= <- <-] I. cbn. split; [auto|]. split; [auto|]. split; [auto|]. intros i r [].
  - unfold bind. destruct (restore_item E G fault d ex args i s) as [s1 [[j r]|e]] eqn:R; [|discriminate].
    destruct (for_each _ l s1) as [s2 [os|e]] eqn:F; [|discriminate]. intros [= <- <-] I. destruct (restore_item_ok _ _ _ _ _ _ _ _ R I) as (-> & A & H & D & Dd & I1).
    destruct (IH _ _ _ F I1) as (M & D2 & I2 & K). assert (X : ext s1 s2).
    { assert (W : grows (for_each (restore_item E G fault d ex args) l)); [|specialize (W s1); rewrite F in W; exact W]. apply grows_each. intros j.
      apply grows_bind; [apply grows_lift|]. intros a. destruct (negb _); [apply grows_raise|]. apply grows_bind; [apply grows_get|]. intros h'.
      apply grows_bind; [apply grows_act; auto|]. intros _. apply grows_bind; [apply grows_asks|]. intros o. destruct o; [apply grows_ret|apply grows_raise]. }
    cbn [map fst]. split; [congruence|]. split; [congruence|]. split; [auto|]. intros j r' [[= <- <-]|J].
    + split; auto. split; auto. eapply ext_has; eauto.
    + destruct (K j r' J) as (A' & H' & D'). rewrite Dd in D'. auto.
Qed.

Lemma restore_ok : forall d args s s' out, restore E G cf fault d (Some args) s = (s', Ok out) -> args <> [] -> Inv s ->
  map fst out = sorted_names (map fst args) /\ disk s' = disk s /\ Inv s' /\
  forall i r, In (i, r) out -> dget String.eqb i args = Some (r_arg r) /\ has_handler s' i (r_by r) /\ dget path_eqb (d, i) (disk s) = Some (r_from r).
Proof.
  intros d args s s' out H N I. unfold restore, bind at 1, asks at 1 in H. unfold bind at 1, asks at 1 in H. destruct args as [|x l]; [congruence|].
  unfold bind at 1, lift at 1 in H. destruct (composite (x :: l)) as [args|e] eqn:C; [|discriminate].
  assert (args = x :: l) as -> by (unfold composite in C; destruct (existsb _ _); congruence). unfold bind in H.
  destruct (for_each (restore_item E G fault d (existing_items d s) (x :: l)) (sorted_names (map fst (x :: l))) s) as [s1 [o|e]] eqn:F; [|discriminate].
  unfold lift in H. destruct (composite o) as [o'|e] eqn:C'; [|discriminate]. assert (o' = o) as -> by (unfold composite in C'; destruct (existsb _ _); congruence).
  injection H as <- <-. destruct (restores_ok _ _ _ _ _ _ _ F I) as (M & D & I1 & K). split; auto. split; auto. split; auto. intros i r J. destruct (K i r J) as (A & B & Cc).
  split; auto. unfold arg_of in A. destruct (dget String.eqb i (x :: l)); congruence.
Qed.

(** ** Which args are accepted *)

Definition DInv (s : st) : Prop :=
  unreg s = None /\ (exists l, deferred s = Some l /\ forall i h, has_handler s i h -> In i l) /\ simple (reg s) /\
  (forall i h, has_handler s i h -> exists sa ra, get_registered_args_cls G (h_cls h) = Ok (sa, ra) /\
     dget key_eqb (Some i, sa) (reg s) = Some h /\ dget key_eqb (Some i, ra) (reg s) = Some h /\
     (forall a k, In ((Some i, a), k) (reg s) -> a = sa \/ a = ra) /\
     (exists a, get_registered_handler_cls G a = Ok (h_cls h)) /\ makes_handler E (h_cls h) = true).

Lemma dinv_same : forall s s', reg s' = reg s -> unreg s' = unreg s -> deferred s' = deferred s -> DInv s -> DInv s'.
Proof. intros s s' R U D H. unfold DInv, has_handler in *. rewrite R, U, D. exact H. Qed.

Lemma no_none : forall s, DInv s -> forall a, dget key_eqb (None, a) (reg s) = None.
Proof.
  intros s (_ & _ & [N _] & _) a. destruct (dget key_eqb (None, a) (reg s)) as [k|] eqn:D; auto. apply (dget_some_in key_eqb key_spec) in D. elim (N _ _ D).
Qed.

Lemma no_item : forall s i, (forall h, ~ has_handler s i h) -> forall a, dget key_eqb (Some i, a) (reg s) = None.
Proof. intros s i N a. destruct (dget key_eqb (Some i, a) (reg s)) as [k|] eqn:D; auto. apply (dget_some_in key_eqb key_spec) in D. elim (N k). exists a. auto. Qed.

Lemma add_global_ok : forall s i h sa ra, (forall k, ~ has_handler s i k) -> get_registered_args_cls G (h_cls h) = Ok (sa, ra) ->
  add_from_global G h i s = (set_reg (reg s ++ (((Some i, sa), h) :: if acls_eqb ra sa then [] else [((Some i, ra), h)]))%list s, Ok h).
Proof.
  intros s i h sa ra N A. unfold add_from_global, bind, lift, asks, modify, ret. rewrite A. cbn [fst snd].
  assert (NI : forall a, ~ In (Some i, a) (map fst (reg s))).
  { intros a J. apply in_map_iff in J. destruct J as ([k v] & Q & J). cbn in Q. subst k. apply (N v). exists a. auto. }
  rewrite add_new; auto. destruct (acls_spec ra sa) as [Q|Q]; [reflexivity|]. rewrite add_new.
  - rewrite <- app_assoc. reflexivity.
  - rewrite map_app. intros J. apply in_app_iff in J. destruct J as [J|[[= J]|[]]]; [eapply NI; eauto|auto].
Qed.

Lemma dinv_add : forall s i h sa ra a l, DInv s -> (forall k, ~ has_handler s i k) -> get_registered_args_cls G (h_cls h) = Ok (sa, ra) ->
  get_registered_handler_cls G a = Ok (h_cls h) -> makes_handler E (h_cls h) = true -> deferred s = Some l ->
  DInv (set_reg (reg s ++ (((Some i, sa), h) :: if acls_eqb ra sa then [] else [((Some i, ra), h)]))%list (set_deferred (Some (i :: l)) (set_next (next s + 1) s))).
Proof.
  intros s i h sa ra a l (U & (l' & D & L) & S & P) N A Ha Mk Dl. rewrite Dl in D. injection D as <-. set (new := _ :: _). set (s1 := set_reg _ _).
  assert (W : forall x, In x new -> exists b, x = ((Some i, b), h) /\ (b = sa \/ b = ra)).
  { intros x [<-|J]; eauto. destruct (acls_eqb ra sa); [destruct J|]. destruct J as [<-|[]]. eauto. }
  assert (Hs : forall j k, has_handler s1 j k -> (j = i /\ k = h) \/ has_handler s j k).
  { intros j k [b J]. cbn in J. apply in_app_iff in J. destruct J as [J|J]; [right; exists b; auto|]. destruct (W _ J) as (b' & [= -> _ ->] & _). auto. }
  assert (Lk : forall j b k, dget key_eqb (Some j, b) (reg s) = Some k -> dget key_eqb (Some j, b) (reg s ++ new)%list = Some k).
  { intros j b k H. rewrite dget_app, H. auto. }
  split; [exact U|]. split; [|split].
  - exists (i :: l). split; [reflexivity|]. intros j k H. destruct (Hs j k H) as [[-> _]|K]; [left; auto|right; eapply L; eauto].
  - cbn. eapply simple_add; eauto; [intros x J; destruct (W x J) as (b & -> & _); eauto|]. intros b k J. elim (N k). exists b. auto.
  - intros j k H. destruct (Hs j k H) as [[-> ->]|K].
    + exists sa, ra. split; auto. cbn [reg set_reg s1]. split; [|split; [|split; [|eauto]]].
      * rewrite dget_app, no_item; auto. unfold new. cbn [dget]. destruct (key_spec (Some i, sa) (Some i, sa)); [auto|congruence].
      * rewrite dget_app, no_item; auto. unfold new. cbn [dget]. destruct (key_spec (Some i, ra) (Some i, sa)); [auto|]. destruct (acls_spec ra sa); [congruence|]. cbn [dget].
        destruct (key_spec (Some i, ra) (Some i, ra)); [auto|congruence].
      * intros b k' J. apply in_app_iff in J. destruct J as [J|J]; [elim (N k'); exists b; auto|]. destruct (W _ J) as (b' & [= -> _] & Z). auto.
    + destruct (P j k K) as (sa' & ra' & A' & B & C & Ex & F). exists sa', ra'. split; auto. split; [apply Lk; auto|]. split; [apply Lk; auto|]. split; auto.
      intros b k' J. cbn in J. apply in_app_iff in J. destruct J as [J|J]; [eapply Ex; eauto|]. destruct (W _ J) as (b' & [= -> _ _] & _). elim (N k). exact K.
Qed.

Lemma dinv_get : forall i a s, DInv s -> DInv (fst (get_or_set_handler E G i a s)).
Proof.
  intros i a s I. destruct a as [a|]; [|rewrite get_none; exact I]. rewrite get_eq. destruct (dget key_eqb (Some i, a_cls a) (reg s)); [exact I|].
  rewrite (no_none s I). destruct (get_registered_handler_cls G (a_cls a)) as [c|e] eqn:R; [|exact I]. destruct (makes_handler E c) eqn:Mk; [|exact I]. cbv zeta.
  assert (I' := I). destruct I' as (U & (l & D & L) & S & P). rewrite U, D. destruct (mem_spec i l) as [Y|Y]; [apply (dinv_same s); auto|].
  assert (N : forall k, ~ has_handler s i k) by (intros k K; apply Y; eapply L; eauto).
  destruct (get_registered_args_cls G c) as [[sa ra]|e] eqn:A.
  - rewrite (add_global_ok _ i (mkH (next s) c) sa ra); [|intros k [b J]; apply (N k); exists b; exact J|exact A]. cbn [fst reg set_deferred set_next].
    eapply dinv_add; eauto.
  - unfold add_from_global, bind at 1, lift at 1. cbn [h_cls]. rewrite A. cbn [fst]. split; [exact U|]. split; [|split; [exact S|exact P]].
    exists (i :: l). split; [reflexivity|]. intros j k K. right. eapply L. exact K.
Qed.

Definition drel (s s' : st) : Prop := DInv s -> DInv s'.

Lemma drel_same : forall s s', reg s' = reg s -> unreg s' = unreg s -> deferred s' = deferred s -> drel s s'.
Proof. intros s s' R U D I. apply (dinv_same s); auto. Qed.

Lemma run_dinv : forall l s, DInv s -> DInv (run E G cf fault l s).
Proof.
  intros l. assert (Rf : forall s, drel s s) by (intros s I; exact I). assert (Tr : forall a b c, drel a b -> drel b c -> drel a c) by (unfold drel; auto).
  assert (Sm : forall s s', reg s' = reg s -> unreg s' = unreg s -> deferred s' = deferred s -> next s' = next s -> disk s' = disk s -> tmps s' = tmps s -> drel s s').
  { intros s s' R U D _ _ _. apply drel_same; auto. }
  assert (Ac : forall e f, (forall s, core s (fst (f s))) -> forall s, drel s (fst (act fault e f s))).
  { intros e f F s. unfold act. destruct (fault _); [apply drel_same; auto|]. destruct (F (set_log (log s ++ [e])%list s)) as (R & U & D & _). apply drel_same; auto. }
  assert (Gt := dinv_get). assert (K : forall o s, drel s (run_op E G cf fault o s)).
  { intros o s. destruct o as [d args|d| |d args|d]; cbn [run_op].
    - apply (walks_async_save drel Rf Tr Gt).
      + intros l' t. apply drel_same; auto.
      + intros i t. apply Ac. intros; unfold core; auto.
      + intros h i a t. apply Ac. intros; unfold core; auto.
    - apply (walks_step drel Rf Tr Sm).
    - apply (walks_finalize drel Rf Tr). intros [i h] t. apply (walks_bind drel Tr); [intros u; apply Rf|]. intros tm. destruct (dget String.eqb (fst (i, h)) tm); [|intros u; apply Rf].
      apply (walks_bind drel Tr).
      + intros u. apply Ac. intros v. destruct (dget _ _ _); unfold core; auto.
      + intros _. apply (walks_bind drel Tr).
        * intros u. apply Ac. intros v. destruct (dget _ _ _); [|unfold core; auto]. destruct cf; [unfold core; auto|]. destruct (dget _ _ _); unfold core; auto.
        * intros _ u. apply drel_same; auto.
    - apply (walks_restore drel Rf Tr Sm Gt).
    - apply (walks_metadata drel Rf Tr Sm). }
  unfold run. induction l as [|o l IH]; intros s I; cbn [fold_left]; [auto|]. apply IH. apply K. auto.
Qed.

Lemma construct_dinv : forall s s', construct E G [] [] None s = (s', Ok tt) -> DInv s'.
Proof.
  intros s s' [= <-]. split; [auto|]. split; [exists []; split; [auto|intros i h [a []]]|]. split; [split; [intros a h []|intros i a a' h h' []]|]. intros i h [a []].
Qed.

Lemma route_known : forall s i h a, DInv s -> has_handler s i h -> exists sa ra, get_registered_args_cls G (h_cls h) = Ok (sa, ra) /\
  forall k, snd (get_or_set_handler E G i (Some a) s) = Ok k <-> k = h /\ (a_cls a = sa \/ a_cls a = ra).
Proof.
  intros s i h a I H. assert (I' := I). destruct I' as (U & (l & D & L) & S & P). destruct (P i h H) as (sa & ra & A & B & C & Ex & _). exists sa, ra. split; auto. intros k.
  rewrite get_eq. destruct (dget key_eqb (Some i, a_cls a) (reg s)) as [k'|] eqn:Q.
  - cbn [snd]. apply (dget_some_in key_eqb key_spec) in Q. assert (k' = h) as -> by (destruct H as [b J]; destruct S as [_ S]; eauto).
    split; [intros [= <-]; split; auto; eapply Ex; eauto|]. intros [-> _]. auto.
  - assert (NI : ~ (a_cls a = sa \/ a_cls a = ra)) by (intros [Z|Z]; rewrite Z in Q; congruence). rewrite (no_none s I).
    destruct (get_registered_handler_cls G (a_cls a)) as [c|e]; [|split; [discriminate|tauto]]. destruct (makes_handler E c); [|split; [discriminate|tauto]]. cbv zeta. rewrite U, D.
    destruct (mem_spec i l) as [Y|Y]; [split; [discriminate|tauto]|]. elim Y. eapply L; eauto.
Qed.

Lemma route_new : forall s i a l, DInv s -> deferred s = Some l -> ~ In i l -> forall k,
  snd (get_or_set_handler E G i (Some a) s) = Ok k <->
  exists c, get_registered_handler_cls G (a_cls a) = Ok c /\ makes_handler E c = true /\ has_registered_args G c = true /\ k = mkH (next s) c.
Proof.
  intros s i a l I D' Y k. assert (I' := I). destruct I' as (U & (l' & D & L) & S & P). rewrite D in D'. injection D' as ->.
  assert (N : forall k, ~ has_handler s i k) by (intros h K; apply Y; eapply L; eauto).
  rewrite get_eq, (no_item s i N), (no_none s I). destruct (get_registered_handler_cls G (a_cls a)) as [c|e] eqn:R.
  2: { split; [discriminate|]. intros (c & [=] & _). }
  destruct (makes_handler E c) eqn:Mk.
  2: { split; [discriminate|]. intros (c' & [= <-] & Z & _). congruence. }
  cbv zeta. rewrite U, D. destruct (mem_spec i l) as [Y'|_]; [contradiction|]. unfold has_registered_args. destruct (get_registered_args_cls G c) as [[sa ra]|e] eqn:A.
  - rewrite (add_global_ok _ i (mkH (next s) c) sa ra); [|intros h [b J]; apply (N h); exists b; exact J|exact A]. cbn [snd]. split.
    + intros [= <-]. exists c. rewrite A. auto.
    + intros (c' & [= <-] & _ & _ & ->). auto.
  - unfold add_from_global, bind at 1, lift at 1. cbn [h_cls]. rewrite A. cbn [snd]. split; [discriminate|]. intros (c' & [= <-] & _ & Z & _). rewrite A in Z. discriminate.
Qed.

Lemma route_none : forall s i, snd (get_or_set_handler E G i None s) = match find_item i (unique_items (reg s)) with Some h => Ok h | None => Err ValueError end.
Proof. intros s i. rewrite get_none. auto. Qed.

(** ** Restoring succeeds *)

Lemma get_fits : forall s i a, DInv s -> fits G s i a -> exists h, get_or_set_handler E G i a s = (s, Ok h).
Proof.
  intros s i a I (h & H & F). destruct a as [b|].
  - destruct F as (sa & ra & A & F). destruct I as (U & (l & D & L) & S & P). destruct (P i h H) as (sa' & ra' & A' & B & C & _). rewrite A in A'. injection A' as <- <-.
    exists h. rewrite get_eq. destruct F as [-> | ->]; [rewrite B|rewrite C]; auto.
  - rewrite get_none. destruct (find_item i (unique_items (reg s))) as [k|] eqn:Q; [eauto|]. elim (find_item_none _ _ Q h). apply unique_in. exact H.
Qed.

Lemma existing_in : forall d s i c, dget path_eqb (d, i) (disk s) = Some c -> mem i (existing_items d s) = true.
Proof.
  intros d s i c H. apply (dget_some_in path_eqb path_spec) in H. destruct (mem_spec i (existing_items d s)) as [Y|Y]; auto. elim Y. unfold existing_items.
  apply in_map_iff. exists ((d, i), c). split; auto. apply filter_In. split; auto. cbn. apply N.eqb_refl.
Qed.

Lemma restores_succeed : forall d args l s, (forall k, fault k = None) -> DInv s ->
  (forall i, In i l -> exists a c, arg_of i args = Ok a /\ fits G s i a /\ dget path_eqb (d, i) (disk s) = Some c) ->
  forall ex, (forall i, In i l -> mem i ex = true) -> exists s' out, for_each (restore_item E G fault d ex args) l s = (s', Ok out) /\ map fst out = l.
Proof.
  intros d args l. induction l as [|i l IH]; intros s F I H ex Hx; cbn [for_each]; [eexists; eexists; split; [reflexivity|reflexivity]|]. destruct (H i (or_introl eq_refl)) as (a & c & A & Ft & D).
  destruct (get_fits s i a I Ft) as [h Gt].
  assert (R : restore_item E G fault d ex args i s = (set_log (log s ++ [ERestore h d i a])%list s, Ok (i, mkR h a c))).
  { unfold restore_item, bind, lift, asks, act, ret. rewrite A, (Hx i (or_introl eq_refl)). cbn [negb]. rewrite Gt, F. cbn [disk set_log]. rewrite D. reflexivity. }
  destruct (IH (set_log (log s ++ [ERestore h d i a])%list s) F) with (ex := ex) as (s' & out & Q & Mq).
  - apply (dinv_same s); auto.
  - intros j J. apply (H j). right. auto.
  - intros j J. apply Hx. right. auto.
  - exists s', ((i, mkR h a c) :: out). unfold bind. rewrite R, Q. split; [reflexivity|]. cbn. congruence.
Qed.

Lemma restore_succeeds : forall d args s, (forall k, fault k = None) -> DInv s -> args <> [] -> NoDup (map fst args) -> (forall i, In i (map fst args) -> dunder i = false) ->
  (forall i a, In (i, a) args -> fits G s i a /\ exists c, dget path_eqb (d, i) (disk s) = Some c) ->
  exists s' out, restore E G cf fault d (Some args) s = (s', Ok out).
Proof.
  intros d args s F I N Nd Du H. assert (Cm : forall V (l : dict string V), (forall i, In i (map fst l) -> dunder i = false) -> composite l = Ok l).
  { intros V l Q. unfold composite. destruct (existsb _ l) eqn:X; auto. apply existsb_exists in X. destruct X as (x & J & X). rewrite Q in X; [discriminate|]. apply in_map. auto. }
  destruct (restores_succeed d args (sorted_names (map fst args)) s F I) with (ex := existing_items d s) as (s' & out & Q & Mq).
  - intros i J. apply (Permutation_in _ (sorted_perm _)) in J. apply in_map_iff in J. destruct J as ([j a] & <- & J). destruct (H j a J) as [Ft [c D]]. exists a, c. split; auto.
    unfold arg_of. cbn. assert (dget String.eqb j args = Some a) as -> by (apply (dget_in String.eqb String.eqb_spec j a args Nd); auto). auto.
  - intros i J. apply (Permutation_in _ (sorted_perm _)) in J. apply in_map_iff in J. destruct J as ([j a] & <- & J). destruct (H j a J) as [_ [c D]]. eapply existing_in; eauto.
  - exists s', out. unfold restore, bind at 1, asks at 1. unfold bind at 1, asks at 1. destruct args as [|x l]; [congruence|]. unfold bind at 1, lift at 1. rewrite Cm by auto.
    unfold bind. rewrite Q. unfold lift. rewrite Cm; auto. intros i J. apply Du. rewrite Mq in J. apply (Permutation_in _ (sorted_perm _)) in J. auto.
Qed.

(** ** The order of the items *)

Lemma sorted_sorted : forall l, ordered (sorted_names l).
Proof.
  assert (A : forall x l, ordered l -> ordered (insert_name x l)).
  { intros x l H. induction H as [|y l H IH F]; cbn; [constructor; [constructor|constructor]|]. destruct (String.leb x y) eqn:Q.
    - constructor; [constructor; auto|]. constructor; auto. eapply Forall_impl; [|exact F]. intros z Z. eapply StepName_Proofs.leb_trans; eauto.
    - constructor; auto. assert (T : String.leb y x = true) by (destruct (String.leb_total x y); congruence).
      assert (Pm : forall l, Permutation (insert_name x l) (x :: l)).
      { clear. induction l as [|z l IH]; cbn; [auto|]. destruct (String.leb x z); auto. eapply perm_trans; [apply perm_skip; exact IH|apply perm_swap]. }
      apply Forall_forall. intros z Z. apply (Permutation_in _ (Pm l)) in Z. destruct Z as [<-|Z]; auto. rewrite Forall_forall in F. auto. }
  induction l as [|x l IH]; cbn; [constructor|]. apply A. exact IH.
Qed.

Lemma ordered_unique : forall l l', ordered l -> ordered l' -> Permutation l l' -> l = l'.
Proof.
  induction l as [|x l IH]; intros l' O O' P. { apply Permutation_nil in P. auto. }
  destruct l' as [|y l']; [apply Permutation_sym, Permutation_nil in P; discriminate|]. inversion O as [|? ? O1 F1]; inversion O' as [|? ? O2 F2]; subst. rewrite Forall_forall in F1, F2.
  assert (x = y) as ->.
  { assert (X : In x (y :: l')) by (eapply Permutation_in; [exact P|left; auto]). assert (Y : In y (x :: l)) by (eapply Permutation_in; [apply Permutation_sym; exact P|left; auto]).
    destruct X as [X|X]; auto. destruct Y as [Y|Y]; auto. apply String.leb_antisym; auto. }
  f_equal. apply IH; auto. apply Permutation_cons_inv in P. auto.
Qed.

Lemma each_ext : forall A B (f g : A -> M B) l, (forall x s, In x l -> f x s = g x s) -> forall s, for_each f l s = for_each g l s.
Proof.
  intros A B f g l. induction l as [|x l IH]; intros H s; cbn [for_each]; [auto|]. unfold bind. rewrite (H x s (or_introl eq_refl)). destruct (g x s) as [s1 [y|e]]; auto.
  rewrite IH; auto. intros z t J. apply H. right. auto.
Qed.

Lemma perm_names : forall V (l l' : dict string V), Permutation l l' -> sorted_names (map fst l) = sorted_names (map fst l').
Proof.
  intros V l l' P. apply ordered_unique; try apply sorted_sorted. eapply perm_trans; [apply sorted_perm|]. eapply perm_trans; [apply Permutation_map; exact P|].
  apply Permutation_sym, sorted_perm.
Qed.

Lemma perm_arg : forall args args' i, Permutation args args' -> NoDup (map fst args) -> arg_of i args = arg_of i args'.
Proof.
  intros args args' i P N. assert (N' : NoDup (map fst args')) by (eapply Permutation_NoDup; [apply Permutation_map; exact P|auto]). unfold arg_of.
  destruct (dget String.eqb i args) as [a|] eqn:D.
  - apply (dget_in String.eqb String.eqb_spec i a args N) in D. apply (Permutation_in _ P) in D. apply (dget_in String.eqb String.eqb_spec i a args' N') in D. rewrite D. auto.
  - destruct (dget String.eqb i args') as [b|] eqn:D'; auto. exfalso. apply (dget_in String.eqb String.eqb_spec i b args' N') in D'.
    apply (Permutation_in _ (Permutation_sym P)) in D'. apply (dget_in String.eqb String.eqb_spec i b args N) in D'. congruence.
Qed.

Lemma perm_composite : forall V (l l' : dict string V), Permutation l l' -> (composite l = Ok l /\ composite l' = Ok l') \/ (exists e, composite l = Err e /\ composite l' = Err e).
Proof.
  intros V l l' P. unfold composite. assert (Q : existsb (fun x => dunder (fst x)) l = existsb (fun x => dunder (fst x)) l').
  { apply eq_true_iff_eq. rewrite !existsb_exists. split; intros (x & J & X); exists x; (split; [|auto]); [apply (Permutation_in _ P)|apply (Permutation_in _ (Permutation_sym P))]; auto. }
  rewrite <- Q. destruct (existsb _ l); eauto.
Qed.

Lemma perm_save : forall d args args' s, Permutation args args' -> NoDup (map fst args) -> async_save E G cf fault d args s = async_save E G cf fault d args' s.
Proof.
  intros d args args' s P N. unfold async_save, bind at 1 5, lift. destruct (perm_composite _ _ _ P) as [[-> ->]|(e & -> & ->)]; [|auto]. rewrite (perm_names _ _ _ P).
  unfold bind. cbn [modify]. destruct (for_each (create cf fault d) _ _) as [s1 [x|e]]; auto.
  rewrite (each_ext _ _ (start_save E G cf fault d args) (start_save E G cf fault d args')); auto. intros i t J. unfold start_save. rewrite (perm_arg _ _ i P N). auto.
Qed.

Lemma perm_restore : forall d args args' s, Permutation args args' -> NoDup (map fst args) -> restore E G cf fault d (Some args) s = restore E G cf fault d (Some args') s.
Proof.
  intros d args args' s P N. destruct args as [|x l]; [apply Permutation_nil in P; subst; auto|]. destruct args' as [|x' l']; [apply Permutation_sym, Permutation_nil in P; discriminate|].
  unfold restore, bind, asks, lift. destruct (perm_composite _ _ _ P) as [[-> ->]|(e & -> & ->)]; [|auto]. rewrite (perm_names _ _ _ P).
  rewrite (each_ext _ _ (restore_item E G fault d (existing_items d s) (x :: l)) (restore_item E G fault d (existing_items d s) (x' :: l'))); auto.
  intros i t J. unfold restore_item. rewrite (perm_arg _ _ i P N). auto.
Qed.

(** ** Another handler restores *)

Lemma get_first : forall c d a, first_for c d = Some a -> In (a, c) d.
Proof. intros c d a. induction d as [|[b c'] d IH]; cbn; [discriminate|]. destruct (hcls_spec c' c) as [->|Q]; [intros [= ->]; auto|auto]. Qed.

Lemma dput_in : forall K V (eqb : K -> K -> bool) (spec : forall a b, reflect (a = b) (eqb a b)) k (v : V) d x, In x (dput eqb k v d) -> x = (k, v) \/ In x d.
Proof.
  intros K V eqb spec k v d x. induction d as [|[k' v'] d IH]; cbn; [intros [<-|[]]; auto|]. destruct (spec k k') as [<-|Q]; cbn; [intros [<-|H]; auto|]. intros [H|H]; auto. destruct (IH H); auto.
Qed.

Definition gok (l : list (acls * hcls * bool * bool)) (g : globals) : Prop :=
  (forall a c, In (a, c) (g_save g) -> exists s r, In (a, c, s, r) l) /\ (forall a c, In (a, c) (g_restore g) -> exists s r, In (a, c, s, r) l) /\
  (forall t c, In (t, c) (g_types g) -> t = type_string E c /\ exists a s r, In (a, c, s, r) l).

Lemma register_all_gok : forall l l0 g g', register_all E l g = Ok g' -> well_registered E (l0 ++ l)%list -> gok l0 g ->
  (forall a c s r, In (a, c, s, r) l0 -> dget String.eqb (type_string E c) (g_types g) = Some c) ->
  gok (l0 ++ l)%list g' /\ (forall a c s r, In (a, c, s, r) (l0 ++ l)%list -> dget String.eqb (type_string E c) (g_types g') = Some c).
Proof.
  induction l as [|[[[a c] sv] rs] l IH]; intros l0 g g' H W Ok0 T.
  - cbn in H. injection H as <-. rewrite app_nil_r. auto.
  - cbn [register_all] in H. unfold rbind in H. destruct (register_with_handler E a c sv rs g) as [g1|e] eqn:R; [|discriminate].
    replace (l0 ++ (a, c, sv, rs) :: l)%list with ((l0 ++ [(a, c, sv, rs)]) ++ l)%list in * by (rewrite <- app_assoc; auto).
    assert (Inc : forall x, In x l0 -> In x (l0 ++ [(a, c, sv, rs)])%list) by (intros; apply in_or_app; auto).
    assert (Inn : In (a, c, sv, rs) (l0 ++ [(a, c, sv, rs)])%list) by (apply in_or_app; right; left; auto).
    assert (Same : forall x y s r x' s' r', In (x, y, s, r) (l0 ++ [(a, c, sv, rs)])%list -> forall y', In (x', y', s', r') (l0 ++ [(a, c, sv, rs)])%list -> type_string E y = type_string E y' -> y = y').
    { intros. destruct W as (_ & _ & W). eapply W; [apply in_or_app; left; eassumption|apply in_or_app; left; eassumption|auto]. }
    destruct Ok0 as (O1 & O2 & O3). apply (IH _ g1 g' H W).
    + unfold register_with_handler in R. destruct (negb sv && negb rs); [discriminate|]. unfold rmap in R. destruct (add_type E c (g_types g)) as [t|e] eqn:At; [|discriminate]. injection R as <-. split; [|split]; cbn [g_save g_restore g_types].
      * intros x y J. destruct sv; [apply (dput_in _ _ acls_eqb acls_spec) in J; destruct J as [[= -> ->]|J]; [eauto|]|]; destruct (O1 x y J) as (s & r & Z); eauto.
      * intros x y J. destruct rs; [apply (dput_in _ _ acls_eqb acls_spec) in J; destruct J as [[= -> ->]|J]; [eauto|]|]; destruct (O2 x y J) as (s & r & Z); eauto.
      * intros x y J. unfold add_type in At. fold (type_string E c) in At.
        assert (K : t = g_types g \/ t = dput String.eqb (type_string E c) c (g_types g)).
        { destruct (dget String.eqb (type_string E c) (g_types g)) as [c'|]; [|right; congruence]. destruct (negb _); [discriminate|]. destruct (hcls_eqb c' c); [left|right]; congruence. }
        destruct K as [-> | ->]; [|apply (dput_in _ _ String.eqb String.eqb_spec) in J; destruct J as [[= -> ->]|J]; [eauto 6|]]; destruct (O3 x y J) as (Z & b & s & r & Z'); eauto 6.
    + unfold register_with_handler in R. destruct (negb sv && negb rs); [discriminate|]. unfold rmap in R. destruct (add_type E c (g_types g)) as [t|e] eqn:At; [|discriminate]. injection R as <-. cbn [g_types].
      unfold add_type in At. fold (type_string E c) in At. intros x y s r J.
      assert (K : dget String.eqb (type_string E c) t = Some c /\ forall u, u <> type_string E c -> dget String.eqb u t = dget String.eqb u (g_types g)).
      { assert (Put : dget String.eqb (type_string E c) (dput String.eqb (type_string E c) c (g_types g)) = Some c /\
          forall u, u <> type_string E c -> dget String.eqb u (dput String.eqb (type_string E c) c (g_types g)) = dget String.eqb u (g_types g)).
        { split; [|intros u U]; rewrite (dget_dput String.eqb String.eqb_spec); [rewrite String.eqb_refl; auto|]. destruct (String.eqb_spec u (type_string E c)); [congruence|auto]. }
        destruct (dget String.eqb (type_string E c) (g_types g)) as [c'|] eqn:D; [|injection At as <-; exact Put]. destruct (negb _); [discriminate|].
        destruct (hcls_spec c' c) as [->|Q]; injection At as <-; [auto|exact Put]. }
      destruct K as [K1 K2]. destruct (String.eqb_spec (type_string E y) (type_string E c)) as [Q|Q].
      * rewrite Q, K1. f_equal. symmetry. eapply Same; eauto.
      * rewrite K2 by auto. apply in_app_iff in J. destruct J as [J|[[= -> -> -> ->]|[]]]; [eapply T; eauto|congruence].
Qed.

Definition coherent : Prop :=
  (forall c sa ra, get_registered_args_cls G c = Ok (sa, ra) -> get_registered_handler_cls G ra = Ok c) /\
  (forall a c, get_registered_handler_cls G a = Ok c -> dget String.eqb (type_string E c) (g_types G) = Some c).

Lemma registered_coherent : forall l, register_all E l (mkG [] [] []) = Ok G -> well_registered E l -> coherent /\
  (forall a c, get_registered_handler_cls G a = Ok c -> exists s r, In (a, c, s, r) l).
Proof.
  intros l H W. destruct (register_all_gok l [] (mkG [] [] []) G H W) as [(O1 & O2 & O3) T]; [split; [intros a c []|split; [intros a c []|intros t c []]]|intros a c s r []|]. cbn [app] in *.
  assert (Inl : forall a c, get_registered_handler_cls G a = Ok c -> exists s r, In (a, c, s, r) l).
  { intros a c Q. unfold get_registered_handler_cls in Q. destruct (dget acls_eqb a (g_save G)) eqn:D.
    - injection Q as ->. apply (dget_some_in acls_eqb acls_spec) in D. auto.
    - destruct (dget acls_eqb a (g_restore G)) eqn:D'; [|discriminate]. injection Q as ->. apply (dget_some_in acls_eqb acls_spec) in D'. auto. }
  split; [|exact Inl]. split; [|intros a c Q; destruct (Inl a c Q) as (s & r & J); eapply T; eauto].
  intros c sa ra A. unfold get_registered_args_cls in A. destruct (first_for c (g_save G)); [|discriminate]. destruct (first_for c (g_restore G)) as [b|] eqn:F; [|discriminate]. injection A as -> ->.
  apply get_first in F. destruct (O2 _ _ F) as (s & r & J). destruct (get_registered_handler_cls G ra) as [c'|e] eqn:Q.
  - f_equal. destruct (Inl _ _ Q) as (s' & r' & J'). destruct W as (N & _). 
    assert (Z : forall (k : acls) x y, In x l -> In y l -> fst (fst (fst x)) = k -> fst (fst (fst y)) = k -> x = y).
    { clear - N. induction l as [|z l IH]; [intros k x y []|]. cbn in N. inversion N as [|? ? N1 N2]; subst. intros k x y [<-|X] [<-|Y] Kx Ky; auto.
      - elim N1. rewrite Kx, <- Ky. apply (in_map (fun x => fst (fst (fst x)))). auto.
      - elim N1. rewrite Ky, <- Kx. apply (in_map (fun x => fst (fst (fst x)))). auto.
      - eapply IH; eauto. }
    assert (K := Z ra _ _ J' J eq_refl eq_refl). congruence.
  - exfalso. unfold get_registered_handler_cls in Q. destruct (dget acls_eqb ra (g_save G)); [discriminate|]. destruct (dget acls_eqb ra (g_restore G)) eqn:D; [discriminate|].
    apply (dget_none acls_eqb acls_spec) in D. apply D. apply in_map_iff. exists (ra, c). auto.
Qed.

Lemma existing_iff : forall d s i, In i (existing_items d s) <-> exists c, dget path_eqb (d, i) (disk s) = Some c.
Proof.
  intros d s i. split.
  - unfold existing_items. intros J. apply in_map_iff in J. destruct J as ([[d' j] c] & <- & J). apply filter_In in J. destruct J as [J Q]. cbn in *. apply N.eqb_eq in Q. subst d'.
    destruct (dget path_eqb (d, j) (disk s)) as [c'|] eqn:D; [eauto|]. exfalso. apply (dget_none path_eqb path_spec) in D. apply D. apply in_map_iff. exists ((d, j), c). auto.
  - intros [c D]. apply existing_in in D. destruct (mem_spec i (existing_items d s)); [auto|discriminate].
Qed.

Lemma items_of : forall s i h, DInv s -> has_handler s i h -> dget String.eqb i (items_to_handlers s) = Some (Some h).
Proof.
  intros s i h I H. assert (I' := I). destruct I' as (U & _ & S & _). destruct (dget String.eqb i (items_to_handlers s)) as [[k|]|] eqn:D.
  - apply items_in in D. destruct S as [_ S]. destruct H as [a A], D as [b B]. repeat f_equal. eapply S; eauto.
  - exfalso. unfold items_to_handlers in D. rewrite U, app_nil_r in D. rewrite (dict_of_nodup String.eqb String.eqb_spec) in D.
    + apply (dget_some_in String.eqb String.eqb_spec) in D. apply in_map_iff in D. destruct D as (? & [=] & _).
    + rewrite map_map. cbn. apply unique_items_nodup. auto.
  - exfalso. unfold items_to_handlers in D. rewrite U, app_nil_r in D. rewrite (dict_of_nodup String.eqb String.eqb_spec) in D.
    + apply (dget_none String.eqb String.eqb_spec) in D. apply D. rewrite map_map. cbn. apply in_map_iff. exists (i, h). split; auto. apply unique_in. exact H.
    + rewrite map_map. cbn. apply unique_items_nodup. auto.
Qed.

Lemma entries_written : forall ith items d0,
  (forall i, In i items -> exists h t, dget String.eqb i ith = Some (Some h) /\ typestr E (h_cls h) = Some t) ->
  (forall i v, dget String.eqb i d0 = Some v -> exists h, dget String.eqb i ith = Some (Some h) /\ v = typestr E (h_cls h)) ->
  exists d', handler_entries E ith items d0 = Ok d' /\
  (forall i v, dget String.eqb i d' = Some v -> exists h, dget String.eqb i ith = Some (Some h) /\ v = typestr E (h_cls h)) /\
  (forall i, In i items \/ dget String.eqb i d0 <> None -> dget String.eqb i d' <> None).
Proof.
  intros ith items. induction items as [|i l IH]; intros d0 H P; cbn [handler_entries].
  - exists d0. split; auto. split; auto. intros i [[]|J]; auto.
  - destruct (H i (or_introl eq_refl)) as (h & t & Hi & Ht). assert (St : exists d1, handler_entry E ith i d0 = Ok d1 /\
      (forall j v, dget String.eqb j d1 = Some v -> exists h, dget String.eqb j ith = Some (Some h) /\ v = typestr E (h_cls h)) /\
      (forall j, j = i \/ dget String.eqb j d0 <> None -> dget String.eqb j d1 <> None)).
    { unfold handler_entry. rewrite Hi, Ht. destruct (dget String.eqb i d0) as [[v|]|] eqn:D.
      - exists d0. split; auto. split; auto. intros j [->|J]; congruence.
      - exfalso. destruct (P _ _ D) as (h' & Q & Z). rewrite Hi in Q. injection Q as <-. congruence.
      - exists (dput String.eqb i (Some t) d0). split; auto. split; intros j.
        + intros v. rewrite (dget_dput String.eqb String.eqb_spec). destruct (String.eqb_spec j i) as [->|Q]; [intros [= <-]; exists h; auto|apply P].
        + rewrite (dget_dput String.eqb String.eqb_spec). destruct (String.eqb_spec j i) as [->|Q]; [congruence|]. intros [J|J]; congruence. }
    destruct St as (d1 & -> & P1 & K1). unfold rbind. destruct (IH d1 (fun j J => H j (or_intror J)) P1) as (d' & Q & P' & K'). exists d'. split; auto. split; auto.
    intros j [[<-|J]|J]; apply K'; auto.
Qed.

Lemma step_written : forall d s, DInv s -> saved_metadata d s = SNone ->
  (forall i, In i (map fst (tmps s)) -> exists h t, has_handler s i h /\ typestr E (h_cls h) = Some t) ->
  exists ih, save_step_metadata E fault d s = (set_meta (dput N.eqb d (SDict ih) (meta s)) s, Ok tt) /\
  forall i, In i (map fst (tmps s)) -> exists h, has_handler s i h /\ dget String.eqb i ih = Some (typestr E (h_cls h)).
Proof.
  intros d s I Sn H. destruct (entries_written (items_to_handlers s) (map fst (tmps s)) []) as (ih & Q & P & K).
  - intros i J. destruct (H i J) as (h & t & Hh & T). exists h, t. split; auto. apply items_of; auto.
  - intros i v [=].
  - exists ih. split.
    + unfold save_step_metadata, metadata_from_temporary_paths, metadata_base, bind, asks, lift, ret. rewrite Sn. unfold get_item_handlers. rewrite Q. reflexivity.
    + intros i J. destruct (dget String.eqb i ih) as [v|] eqn:D; [|elim (K i (or_introl J)); auto]. destruct (P _ _ D) as (h & Hh & ->). exists h. split; auto. apply items_in. auto.
Qed.

(* the metadata that a handler without items reads *)
Lemma fresh_entries : forall items d0, exists d', handler_entries E [] items d0 = Ok d' /\ forall i v, dget String.eqb i d0 = Some v -> dget String.eqb i d' = Some v.
Proof.
  induction items as [|i l IH]; intros d0; cbn [handler_entries]; [eauto|]. unfold handler_entry, rbind. cbn [dget]. destruct (dget String.eqb i d0) eqn:D; [apply IH|].
  destruct (IH (dput String.eqb i None d0)) as (d' & Q & K). exists d'. split; auto. intros j v J. apply K. rewrite (dget_dput String.eqb String.eqb_spec).
  destruct (String.eqb_spec j i) as [->|Z]; [congruence|auto].
Qed.

Lemma fresh_metadata : forall d s ih, reg s = [] -> unreg s = None -> tmps s = [] -> saved_metadata d s = SDict ih -> (forall i, In i (existing_items d s) -> dunder i = false) ->
  exists ih' im, metadata E cf fault d s = (s, Ok (ih', im)) /\ forall i v, dget String.eqb i ih = Some v -> dget String.eqb i ih' = Some v.
Proof.
  intros d s ih R U T Sv Du. destruct (fresh_entries (existing_items d s) ih) as (ih' & Q & K).
  assert (F : forall l t, for_each (get_item_metadata fault d []) l t = (t, Ok (map (fun i => (i, None)) l))).
  { induction l as [|i l IH]; intros t; cbn [for_each map]; [auto|]. unfold bind. cbn [get_item_metadata dget]. unfold ret at 1. rewrite IH. reflexivity. }
  assert (Cm : forall V (v : V), composite (map (fun i => (i, v)) (existing_items d s)) = Ok (map (fun i => (i, v)) (existing_items d s))).
  { intros V v. unfold composite. destruct (existsb _ _) eqn:X; auto. apply existsb_exists in X. destruct X as (x & J & X). apply in_map_iff in J. destruct J as (i & <- & J). cbn [fst] in X. rewrite (Du i J) in X. discriminate. }
  exists ih', (Some (map (fun i => (i, None)) (existing_items d s))). split; auto. unfold metadata, bind at 1, asks at 1. unfold bind at 1, asks at 1. rewrite T. cbn [existsb].
  unfold metadata_base, bind at 1, asks at 1. unfold bind at 1, asks at 1. assert (items_to_handlers s = []) as -> by (unfold items_to_handlers; rewrite R, U; reflexivity).
  unfold bind, lift, ret. rewrite F. erewrite Cm. rewrite Sv. unfold get_item_handlers. rewrite Q. reflexivity.
Qed.

Section Fresh.
Variable cls : string -> hcls.
Variable ra : string -> acls.
Variable sa : string -> acls.
Variable ex : list string.
Hypothesis coh : coherent.
Hypothesis regs : forall i, In i ex -> get_registered_args_cls G (cls i) = Ok (sa i, ra i).
Hypothesis makes : forall i, In i ex -> makes_handler E (cls i) = true.
Hypothesis no_fault : forall k, fault k = None.

Definition fresh_ok (s : st) : Prop := DInv s /\ exists l, deferred s = Some l /\ forall i, In i ex -> In i l -> exists h, has_handler s i h /\ h_cls h = cls i.

Lemma fresh_get : forall i s, fresh_ok s -> In i ex -> exists s' h, get_or_set_handler E G i (Some (mkA (ra i) 0)) s = (s', Ok h) /\ h_cls h = cls i /\ fresh_ok s' /\ disk s' = disk s.
Proof.
  intros i s (I & l & D & K) J. destruct (mem_spec i l) as [Y|Y].
  - destruct (K i J Y) as (h & Hh & C). destruct (get_fits s i (Some (mkA (ra i) 0)) I) as [k Q].
    { exists h. split; auto. exists (sa i), (ra i). rewrite C. split; auto. }
    exists s, k. split; auto. split; [|split; [exact (conj I (ex_intro _ l (conj D K)))|auto]]. destruct (route_known s i h (mkA (ra i) 0) I Hh) as (? & ? & _ & Rk).
    destruct (proj1 (Rk k)) as [-> _]; [rewrite Q; auto|auto].
  - assert (I' := I). destruct I' as (U & (l' & D' & L) & S & P). rewrite D in D'. injection D' as <-. assert (N : forall k, ~ has_handler s i k) by (intros h Z; apply Y; eapply L; eauto).
    assert (Hc : get_registered_handler_cls G (ra i) = Ok (cls i)) by (destruct coh as [C _]; eapply C; eauto).
    assert (Z := dinv_get i (Some (mkA (ra i) 0)) s I). assert (Fr := get_frame i (Some (mkA (ra i) 0)) s). revert Z Fr. rewrite get_eq, (no_item s i N), (no_none s I). cbn [a_cls]. rewrite Hc, (makes i J). cbv zeta. rewrite U, D.
    destruct (mem_spec i l) as [Y'|_]; [contradiction|]. rewrite (add_global_ok _ i (mkH (next s) (cls i)) (sa i) (ra i)); [|intros h [b Z]; apply (N h); exists b; exact Z|apply regs; auto].
    cbn [fst]. intros Z (Dk & _). eexists. exists (mkH (next s) (cls i)). split; [reflexivity|]. split; [auto|]. split; [|exact Dk]. split; [exact Z|].
    exists (i :: l). split; [reflexivity|]. intros j Jj [<-|W].
    + exists (mkH (next s) (cls i)). split; auto. exists (sa i). cbn. apply in_or_app. right. left. auto.
    + destruct (K j Jj W) as (h & [b Hh] & C). exists h. split; auto. exists b. cbn. apply in_or_app. left. exact Hh.
Qed.

Lemma fresh_restores : forall d l args s, fresh_ok s -> incl l ex -> (forall i, In i l -> arg_of i args = Ok (Some (mkA (ra i) 0))) ->
  (forall i, In i l -> exists c, dget path_eqb (d, i) (disk s) = Some c) ->
  exists s' out, for_each (restore_item E G fault d ex args) l s = (s', Ok out) /\ map fst out = l /\
  forall i r, In (i, r) out -> h_cls (r_by r) = cls i /\ dget path_eqb (d, i) (disk s) = Some (r_from r).
Proof.
  intros d l args. induction l as [|i l IH]; intros s F Inc A D; cbn [for_each].
  - exists s, []. split; [auto|]. split; [auto|]. intros i r [].
  - assert (J : In i ex) by (apply Inc; left; auto). destruct (fresh_get i s F J) as (s1 & h & Gt & C & F1 & D1). destruct (D i (or_introl eq_refl)) as [c Dc].
    set (s2 := set_log (log s1 ++ [ERestore h d i (Some (mkA (ra i) 0))])%list s1).
    assert (R : restore_item E G fault d ex args i s = (s2, Ok (i, mkR h (Some (mkA (ra i) 0)) c))).
    { unfold restore_item, bind, lift, asks, act, ret. rewrite (A i (or_introl eq_refl)). destruct (mem_spec i ex) as [_|Z]; [|contradiction]. cbn [negb]. rewrite Gt, no_fault. cbn [disk set_log].
      rewrite D1, Dc. reflexivity. }
    destruct (IH s2) as (s' & out & Q & Mq & K).
    + destruct F1 as (I1 & l1 & Z1 & Z2). split; [apply (dinv_same s1); auto|]. exists l1. auto.
    + intros j Z. apply Inc. right. auto.
    + intros j Z. apply A. right. auto.
    + intros j Z. cbn. rewrite D1. apply D. right. auto.
    + exists s', ((i, mkR h (Some (mkA (ra i) 0)) c) :: out). unfold bind. rewrite R, Q. split; [reflexivity|]. split; [cbn; congruence|]. intros j r [[= <- <-]|Z]; [auto|].
      destruct (K j r Z) as [K1 K2]. cbn in K2. rewrite D1 in K2. auto.
Qed.
End Fresh.

Lemma fresh_restore : forall d s ih cls sa ra, coherent -> (forall k, fault k = None) -> reg s = [] -> unreg s = None -> deferred s = Some [] -> tmps s = [] -> saved_metadata d s = SDict ih ->
  (forall i, In i (existing_items d s) -> dunder i = false /\ get_registered_args_cls G (cls i) = Ok (sa i, ra i) /\ makes_handler E (cls i) = true /\ makes_args E (ra i) = true /\
     exists t, dget String.eqb i ih = Some (Some t) /\ dget String.eqb t (g_types G) = Some (cls i)) ->
  exists s' out, restore E G cf fault d None s = (s', Ok out) /\ (forall i, In i (existing_items d s) -> In i (map fst out)) /\
  forall i r, In (i, r) out -> In i (existing_items d s) /\ h_cls (r_by r) = cls i /\ dget path_eqb (d, i) (disk s) = Some (r_from r).
Proof.
  intros d s ih cls sa ra Coh NF R U D T Sv H. set (ex := existing_items d s) in *.
  assert (Def : forall i, In i ex -> default_args E G cf fault d [] i s = (s, Ok (i, Some (mkA (ra i) 0)))).
  { intros i J. destruct (H i J) as (_ & A & _ & Mk & t & Ht & Hc). destruct (fresh_metadata d s ih R U T Sv (fun j Z => proj1 (H j Z))) as (ih' & im & Q & K).
    unfold default_args, bind at 1, class_to_restore. cbn [dget]. unfold bind at 1. rewrite Q. cbn [fst]. rewrite (K _ _ Ht). cbn [get_handler_type]. rewrite Hc. unfold ret at 1.
    unfold bind, lift. rewrite A. cbn [snd]. rewrite Mk. reflexivity. }
  assert (Each : for_each (default_args E G cf fault d []) ex s = (s, Ok (map (fun i => (i, Some (mkA (ra i) 0))) ex))).
  { clear - Def. revert Def. generalize ex. intros l Def. induction l as [|i l IH]; cbn [for_each map]; [auto|]. unfold bind. rewrite (Def i (or_introl eq_refl)), IH; [reflexivity|]. intros j J. apply Def. right. auto. }
  assert (Cm : forall V (l : dict string V), (forall i, In i (map fst l) -> In i ex) -> composite l = Ok l).
  { intros V l Q. unfold composite. destruct (existsb _ l) eqn:X; auto. apply existsb_exists in X. destruct X as (x & J & X). rewrite (proj1 (H _ (Q _ (in_map fst _ _ J)))) in X. discriminate. }
  set (args := map (fun i => (i, Some (mkA (ra i) 0))) ex) in *.
  assert (Nm : map fst args = ex) by (unfold args; rewrite map_map; apply map_id).
  destruct (fresh_restores cls ra sa ex Coh (fun i J => proj1 (proj2 (H i J))) (fun i J => proj1 (proj2 (proj2 (H i J)))) NF d (sorted_names (map fst args)) args s) as (s' & out & Q & Mq & K).
  - split; [|exists []; split; [auto|intros i _ []]]. split; [auto|]. split; [exists []; split; [auto|]|].
    + intros i h [a J]. rewrite R in J. destruct J.
    + split; [rewrite R; split; [intros a h []|intros i a a' h h' []]|]. intros i h [a J]. rewrite R in J. destruct J.
  - intros i J. apply (Permutation_in _ (sorted_perm _)) in J. rewrite Nm in J. auto.
  - intros i J. apply (Permutation_in _ (sorted_perm _)) in J. rewrite Nm in J. unfold arg_of. assert (dget String.eqb i args = Some (Some (mkA (ra i) 0))) as ->; [|auto].
    unfold args. clear - J. induction ex as [|j l IH]; [destruct J|]. cbn. destruct (String.eqb_spec i j) as [->|Q]; auto. destruct J as [->|J]; [congruence|auto].
  - intros i J. apply (Permutation_in _ (sorted_perm _)) in J. rewrite Nm in J. apply existing_iff. exact J.
  - assert (Mo : forall i, In i (map fst out) <-> In i ex).
    { intros i. rewrite Mq, <- Nm. split; apply Permutation_in; [|apply Permutation_sym]; apply sorted_perm. }
    exists s', out. split; [|split].
    + unfold restore, bind at 1, asks at 1. assert (items_to_handlers s = []) as -> by (unfold items_to_handlers; rewrite R, U; reflexivity). unfold bind at 1, asks at 1. fold ex. unfold bind at 1.
      unfold bind at 1. rewrite Each. fold args. unfold lift. rewrite Cm by (intros i; rewrite Nm; auto). unfold bind. rewrite Q. rewrite Cm; auto. intros i; apply Mo.
    + intros i J. apply Mo. auto.
    + intros i r J. split; [|apply K; auto]. apply Mo. apply in_map_iff. exists (i, r). auto.
Qed.

(** ** Together *)

Lemma committed : forall d args s s1 s2, Inv s -> async_save E G cf fault d args s = (s1, Ok tt) -> savable cf s d (map fst args) -> finalize cf fault s1 = (s2, Ok tt) ->
  Inv s2 /\ tmps s2 = [] /\
  (forall i a, In (i, a) args -> exists h, has_handler s1 i h /\ has_handler s2 i h /\ holds s2 d i (mkC (Some (h, a)) [h] true) /\ (cf = false -> absent s2 d (tmp_name cf i))) /\
  (forall d' i, (forall j, In j (map fst args) -> (d', i) <> (d, j) /\ (d', i) <> (d, tmp_name cf j)) -> dget path_eqb (d', i) (disk s2) = dget path_eqb (d', i) (disk s)).
Proof.
  intros d args s s1 s2 I A Sv F. assert (W := saved_FI d args s s1 A I Sv). assert (Sv' := Sv). destruct Sv' as [N Sp].
  destruct (async_save_ok d args s s1 A I N) as (I1 & T1 & _ & D1 & _).
  assert (Ap : cf = false -> forall i j, In i (map fst args) -> In j (map fst args) -> i <> tmp_name cf j) by (intros C i j J J'; apply (Sp C); auto).
  assert (Ne : tmps s1 <> []). { intros Z. unfold finalize, bind, asks in F. rewrite Z in F. discriminate. }
  assert (X := FI_finalize d (map fst args) _ Ap (eq 0) s1 W I1 Ne). assert (I2 := stays_finalize s1 I1). cbv zeta in X. rewrite F in X, I2. cbn [fst snd] in X, I2.
  destruct X as ((W2 & T2) & R2 & P2). split; auto. split; auto. split.
  - intros i a J. destruct W2 as [_ W2]. destruct (W2 i) as (h & n & <- & Hh & Z). { apply in_map_iff. exists (i, a). auto. }
    assert (dget String.eqb i args = Some a) as Q by (apply (dget_in String.eqb String.eqb_spec i a args N); auto). rewrite Q in Z. exists h. split; [unfold has_handler in *; rewrite <- R2; auto|]. split; auto.
    destruct Z as [(Z & _)|(_ & Z & Z')]; [rewrite T2 in Z; discriminate|]. auto.
  - intros d' i H. rewrite P2; auto. apply D1. intros j J. apply H. auto.
Qed.

Lemma finalizes : forall d args s s1, Inv s -> async_save E G cf fault d args s = (s1, Ok tt) -> savable cf s d (map fst args) -> args <> [] -> (forall k, fault k = None) ->
  exists s2, finalize cf fault s1 = (s2, Ok tt).
Proof.
  intros d args s s1 I A Sv Na F. assert (W := saved_FI d args s s1 A I Sv). destruct Sv as [N Sp].
  destruct (async_save_ok d args s s1 A I N) as (I1 & T1 & _ & D1 & _).
  assert (Ap : cf = false -> forall i j, In i (map fst args) -> In j (map fst args) -> i <> tmp_name cf j) by (intros C i j J J'; apply (Sp C); auto).
  assert (Ne : tmps s1 <> []).
  { rewrite T1. assert (P := sorted_perm (map fst args)). destruct args as [|[i a] l]; [congruence|]. destruct (sorted_names (map fst ((i, a) :: l))); [|discriminate]. apply Permutation_nil in P. discriminate. }
  assert (X := FI_finalize d (map fst args) _ Ap (eq 0) s1 W I1 Ne). cbv zeta in X. destruct (finalize cf fault s1) as [s2 [[]|e]]; [eauto|]. cbn [fst snd] in X. destruct X as ((_ & k & _ & Z) & _). congruence.
Qed.

Lemma finalized_again : forall d args s s1 bound n, Inv s -> async_save E G cf fault d args s = (s1, Ok tt) -> savable cf s d (map fst args) ->
  (forall k, bound <= k -> fault k = None) -> bound < n ->
  let s2 := again n (finalize cf fault) s1 in
  tmps s2 = [] /\ (forall i a, In (i, a) args -> exists h m, has_handler s2 i h /\ holds s2 d i (mkC (Some (h, a)) (repeat h (S m)) true)) /\
  (forall d' i, (forall j, In j (map fst args) -> (d', i) <> (d, j) /\ (d', i) <> (d, tmp_name cf j)) -> dget path_eqb (d', i) (disk s2) = dget path_eqb (d', i) (disk s)).
Proof.
  intros d args s s1 bound n I A Sv B L. assert (W := saved_FI d args s s1 A I Sv). destruct Sv as [N Sp].
  destruct (async_save_ok d args s s1 A I N) as (I1 & T1 & _ & D1 & _).
  assert (Ap : cf = false -> forall i j, In i (map fst args) -> In j (map fst args) -> i <> tmp_name cf j) by (intros C i j J J'; apply (Sp C); auto).
  assert (W' : FI d (map fst args) (fun i => match dget String.eqb i args with Some a => a | None => None end) (fun _ => True) s1).
  { destruct W as [Wa Wb]. split; auto. intros i J. destruct (Wb i J) as (h & m & _ & Z). exists h, m. auto. }
  destruct (FI_again d (map fst args) _ Ap bound B n s1 W' I1) as (W2 & T2 & P2); [lia|lia|]. cbv zeta. split; auto. split.
  - intros i a J. destruct W2 as [_ W2]. destruct (W2 i) as (h & m & _ & Hh & Z). { apply in_map_iff. exists (i, a). auto. }
    assert (dget String.eqb i args = Some a) as Q by (apply (dget_in String.eqb String.eqb_spec i a args N); auto). rewrite Q in Z. exists h, m. split; auto.
    destruct Z as [(Z & _)|(_ & Z & _)]; [rewrite T2 in Z; discriminate|]. auto.
  - intros d' i H. rewrite P2; auto. apply D1. intros j J. apply H. auto.
Qed.

Lemma round_trip : forall d args s s1 s2 ops args' s3 out, Inv s -> async_save E G cf fault d args s = (s1, Ok tt) -> savable cf s d (map fst args) -> finalize cf fault s1 = (s2, Ok tt) ->
  Forall (elsewhere d) ops -> args' <> [] -> restore E G cf fault d (Some args') (run E G cf fault ops s2) = (s3, Ok out) ->
  map fst out = sorted_names (map fst args') /\
  forall i r a, In (i, r) out -> In (i, a) args -> dget String.eqb i args' = Some (r_arg r) /\ r_from r = mkC (Some (r_by r, a)) [r_by r] true.
Proof.
  intros d args s s1 s2 ops args' s3 out I A Sv F El Ne R. destruct (committed d args s s1 s2 I A Sv F) as (I2 & T2 & K & _).
  assert (I3 := run_inv ops s2 I2). destruct (restore_ok _ _ _ _ _ R Ne I3) as (Mo & D & I4 & Q). split; auto. intros i r a J Ja. destruct (Q i r J) as (Qa & Qh & Qd).
  split; auto. destruct (K i a Ja) as (h & _ & Hh & Hd & _). unfold holds in Hd.
  assert (To : off_tmps d s2) by (intros j d' Z; rewrite T2 in Z; destruct Z). destruct (run_off d ops s2 El To) as [_ Of]. rewrite Of, Hd in Qd.
  assert (h = r_by r) as <-; [|congruence]. apply (inv_one s3 i); auto. apply (ext_has (run E G cf fault ops s2)); [|apply (ext_has s2); auto; apply run_ext].
  assert (Z := grows_restore d (Some args') (run E G cf fault ops s2)). rewrite R in Z. exact Z.
Qed.

Lemma restores : forall d args s s1 s2 ops args', Inv s -> DInv s -> async_save E G cf fault d args s = (s1, Ok tt) -> savable cf s d (map fst args) -> finalize cf fault s1 = (s2, Ok tt) ->
  Forall (elsewhere d) ops -> (forall k, fault k = None) -> args' <> [] -> NoDup (map fst args') -> incl (map fst args') (map fst args) ->
  (forall i a, In (i, a) args' -> fits G s2 i a) ->
  exists s3 out, restore E G cf fault d (Some args') (run E G cf fault ops s2) = (s3, Ok out).
Proof.
  intros d args s s1 s2 ops args' I Di A Sv F El NF Ne N Inc Ft. destruct (committed d args s s1 s2 I A Sv F) as (I2 & T2 & K & _).
  assert (D2 : DInv s2). { assert (Z := run_dinv [OSave d args; OFinalize] s Di). unfold run in Z. cbn [fold_left run_op] in Z. rewrite A in Z. cbn [fst] in Z. rewrite F in Z. exact Z. }
  assert (D3 := run_dinv ops s2 D2). apply restore_succeeds; auto.
  - intros i J. apply Inc in J. unfold async_save, bind at 1, lift in A. unfold composite in A. destruct (existsb (fun x => dunder (fst x)) args) eqn:X; [discriminate|].
    apply in_map_iff in J. destruct J as (x & <- & J). destruct (dunder (fst x)) eqn:Q; auto. assert (Z : existsb (fun x => dunder (fst x)) args = true) by (apply existsb_exists; eauto). congruence.
  - intros i a J. split.
    + destruct (Ft i a J) as (h & Hh & Z). exists h. split; auto. apply (ext_has s2); auto. apply run_ext.
    + assert (Ji : In i (map fst args)) by (apply Inc; apply in_map_iff; exists (i, a); auto). apply in_map_iff in Ji. destruct Ji as ([i' b] & <- & Jb). destruct (K _ _ Jb) as (h & _ & _ & Hd & _).
      assert (To : off_tmps d s2) by (intros j d' Z; rewrite T2 in Z; destruct Z). destruct (run_off d ops s2 El To) as [_ Of]. cbn [fst]. rewrite Of. eauto.
Qed.

Lemma register_restore_in : forall l g g' a c, register_all E l g = Ok g' -> In (a, c) (g_restore g') -> In (a, c) (g_restore g) \/ exists sv, In (a, c, sv, true) l.
Proof.
  induction l as [|[[[b k] sv] rs] l IH]; intros g g' a c H J; cbn [register_all] in H; [injection H as <-; auto|]. unfold rbind in H.
  destruct (register_with_handler E b k sv rs g) as [g1|e] eqn:R; [|discriminate]. destruct (IH _ _ _ _ H J) as [Z|[sv' Z]]; [|right; exists sv'; right; auto].
  unfold register_with_handler in R. destruct (negb sv && negb rs); [discriminate|]. unfold rmap in R. destruct (add_type _ _ _); [|discriminate]. injection R as <-. cbn in Z.
  destruct rs; [|auto]. apply (dput_in _ _ acls_eqb acls_spec) in Z. destruct Z as [[= -> ->]|Z]; [right; exists sv; left; auto|auto].
Qed.

Lemma registered_restore : forall l, register_all E l (mkG [] [] []) = Ok G -> well_registered E l -> forall a c, In (a, c) (g_restore G) -> exists sv, In (a, c, sv, true) l.
Proof. intros l H _ a c J. destruct (register_restore_in _ _ _ _ _ H J) as [[]|Z]; auto. Qed.

Lemma typestr_string : forall c t, typestr E c = Some t -> type_string E c = t.
Proof. intros c t H. unfold type_string. rewrite H. auto. Qed.

Lemma another : forall l d args s s1, register_all E l (mkG [] [] []) = Ok G -> well_registered E l ->
  (forall a c sv rs, In (a, c, sv, rs) l -> typestr E c <> None) -> (forall a c sv rs, In (a, c, sv, rs) l -> rs = true -> makes_args E a = true) ->
  Inv s -> DInv s -> (forall k, fault k = None) -> args <> [] -> NoDup (map fst args) -> (forall i, absent s d i) -> saved_metadata d s = SNone ->
  (cf = false -> forall i j, In i (map fst args) -> In j (map fst args) -> i <> tmp_name cf j) ->
  async_save E G cf fault d args s = (s1, Ok tt) ->
  exists s2 s3 s4 s5 out, save_step_metadata E fault d s1 = (s2, Ok tt) /\ finalize cf fault s2 = (s3, Ok tt) /\ construct E G [] [] None s3 = (s4, Ok tt) /\ restore E G cf fault d None s4 = (s5, Ok out) /\
  (forall i, In i (map fst out) <-> In i (map fst args)) /\
  (forall i r a, In (i, r) out -> In (i, a) args -> exists h, has_handler s1 i h /\ h_cls (r_by r) = h_cls h /\ r_from r = mkC (Some (h, a)) [h] true).
Proof.
  intros l d args s s1 Rg Wr Ty Mk I Di NF Ne N Ab Sn Ap A. destruct (registered_coherent l Rg Wr) as [Coh Inl].
  assert (Sv : savable cf s d (map fst args)) by (split; auto).
  assert (D1 : DInv s1). { assert (Z := run_dinv [OSave d args] s Di). unfold run in Z. cbn [fold_left run_op] in Z. rewrite A in Z. exact Z. }
  destruct (async_save_ok d args s s1 A I N) as (I1 & T1 & M1 & Dk1 & K1).
  assert (Names : forall i, In i (map fst (tmps s1)) <-> In i (map fst args)).
  { intros i. rewrite T1, map_map, map_id. split; apply Permutation_in; [|apply Permutation_sym]; apply sorted_perm. }
  assert (Hnd : forall i h, has_handler s1 i h -> exists a c' sv rs, In (a, h_cls h, sv, rs) l /\ typestr E (h_cls h) = Some c').
  { intros i h Hh. destruct D1 as (_ & _ & _ & P). destruct (P i h Hh) as (sa & ra & _ & _ & _ & _ & (a & Ha) & _). destruct (Inl _ _ Ha) as (sv & rs & J). assert (Z := Ty _ _ _ _ J). destruct (typestr E (h_cls h)) eqn:Q; [|congruence]. eauto 8. }
  destruct (step_written d s1 D1) as (ih & Q2 & K2).
  - unfold saved_metadata in *. rewrite M1. exact Sn.
  - intros i J. apply Names in J. apply in_map_iff in J. destruct J as ([i' a] & <- & J). destruct (K1 _ _ J) as (h & Hh & _). destruct (Hnd _ _ Hh) as (_ & t & _ & _ & _ & Z). exists h, t. auto.
  - destruct (finalizes d args s s1 I A Sv Ne NF) as [s3' F3]. set (s2 := set_meta _ s1) in Q2.
    assert (Cm : forall m t, finalize cf fault (set_meta m t) = (set_meta m (fst (finalize cf fault t)), snd (finalize cf fault t))).
    { intros m t. assert (Fo : forall x t, finalize_one cf fault x (set_meta m t) = (set_meta m (fst (finalize_one cf fault x t)), snd (finalize_one cf fault x t))).
      { intros [i h] t'. unfold finalize_one, finalize_item, commit, act, bind, asks, modify, ret. cbn [fst snd tmps set_meta]. destruct (dget String.eqb i (tmps t')) as [d'|]; [|reflexivity].
        cbn [log set_meta]. destruct (fault (List.length (log t'))); [reflexivity|]. cbn [disk set_log set_meta]. destruct (dget path_eqb (d', tmp_name cf i) (disk t')); [|reflexivity].
        cbn [log set_meta set_disk set_log]. destruct (fault _); [reflexivity|]. cbn [disk set_log set_meta set_disk]. destruct (dget path_eqb (d', tmp_name cf i) (dput _ _ _ _)); [|reflexivity].
        destruct cf; [reflexivity|]. destruct (dget path_eqb (d', i) _); reflexivity. }
      assert (Fe : forall l t, for_each (finalize_one cf fault) l (set_meta m t) = (set_meta m (fst (for_each (finalize_one cf fault) l t)), snd (for_each (finalize_one cf fault) l t))).
      { induction l0 as [|x l0 IH]; intros t'; cbn [for_each]; [reflexivity|]. unfold bind. rewrite Fo. destruct (finalize_one cf fault x t') as [t1 [y|e]]; cbn [fst snd]; [|reflexivity]. rewrite IH.
        destruct (for_each (finalize_one cf fault) l0 t1) as [t2 [y'|e]]; reflexivity. }
      unfold finalize, bind, asks, ret. cbn [tmps set_meta reg]. destruct (tmps t); [reflexivity|]. rewrite Fe. destruct (for_each _ _ t) as [t1 [y|e]]; reflexivity. }
    assert (F3' : finalize cf fault s2 = (set_meta (dput N.eqb d (SDict ih) (meta s1)) s3', Ok tt)) by (unfold s2; rewrite Cm, F3; reflexivity).
    set (s3 := set_meta _ s3') in F3'. destruct (committed d args s s1 s3' I A Sv F3) as (I3 & T3 & K3 & P3).
    set (s4 := set_reg [] (set_unreg None (set_deferred (Some []) (set_tmps [] s3)))).
    assert (Md : meta s3' = meta s1).
    { assert (Fo : forall x t, meta (fst (finalize_one cf fault x t)) = meta t).
      { intros [i h] t'. unfold finalize_one, finalize_item, commit, act, bind, asks, modify, ret. cbn [fst snd tmps]. destruct (dget String.eqb i (tmps t')) as [d'|]; [|reflexivity].
        destruct (fault (List.length (log t'))); [reflexivity|]. cbn [disk set_log]. destruct (dget path_eqb (d', tmp_name cf i) (disk t')); [|reflexivity].
        cbn [log set_disk set_log]. destruct (fault _); [reflexivity|]. cbn [disk set_log set_disk]. destruct (dget path_eqb (d', tmp_name cf i) (dput _ _ _ _)); [|reflexivity].
        destruct cf; [reflexivity|]. destruct (dget path_eqb (d', i) _); reflexivity. }
      assert (Fe : forall l t, meta (fst (for_each (finalize_one cf fault) l t)) = meta t).
      { induction l0 as [|x l0 IH]; intros t'; cbn [for_each]; [reflexivity|]. unfold bind. assert (Z := Fo x t'). destruct (finalize_one cf fault x t') as [t1 [y|e]]; cbn [fst snd] in *; auto.
        assert (Z' := IH t1). destruct (for_each (finalize_one cf fault) l0 t1) as [t2 [y'|e]]; cbn in *; congruence. }
      assert (Z : meta (fst (finalize cf fault s1)) = meta s1); [|rewrite F3 in Z; exact Z]. unfold finalize, bind, asks, ret. destruct (tmps s1); [reflexivity|].
      assert (Z := Fe (unique_items (reg s1)) s1). destruct (for_each _ _ s1) as [t1 [y|e]]; exact Z. }
    assert (Ex : forall i, In i (existing_items d s4) <-> In i (map fst args)).
    { intros i. rewrite existing_iff. cbn. split.
      - intros [c Dc]. destruct (mem_spec i (map fst args)) as [Y|Y]; auto. exfalso.
        assert (Z : cf = false -> forall j, In j (map fst args) -> i = tmp_name cf j -> False).
        { intros C j J ->. apply in_map_iff in J. destruct J as ([j' a] & <- & J). destruct (K3 _ _ J) as (h & _ & _ & _ & W). unfold absent in W. cbn [fst] in Dc. rewrite (W C) in Dc. discriminate. }
        rewrite P3 in Dc; [unfold absent in Ab; rewrite Ab in Dc; discriminate|]. intros j J. split; intros [= W].
        + subst. auto.
        + assert (C : cf = true \/ cf = false) by (destruct cf; auto). destruct C as [C|C]; [|eapply Z; eauto]. unfold tmp_name in W. rewrite C in W. subst. auto.
      - intros J. apply in_map_iff in J. destruct J as ([j a] & <- & J). destruct (K3 _ _ J) as (h & _ & _ & W & _). eauto. }
    assert (Cls : exists cls, forall i, In i (map fst args) -> exists h, has_handler s1 i h /\ cls i = h_cls h).
    { exists (fun i => match find_item i (unique_items (reg s1)) with Some h => h_cls h | None => LegacyWrapper end). intros i J. apply in_map_iff in J. destruct J as ([j a] & <- & J).
      destruct (K1 _ _ J) as (h & Hh & _). cbn [fst]. exists h. split; auto. destruct (find_item j (unique_items (reg s1))) as [k|] eqn:Fi.
      - apply find_item_in, unique_in in Fi. f_equal. eapply (inv_one s1); eauto.
      - elim (find_item_none _ _ Fi h). apply unique_in. exact Hh. }
    destruct Cls as [cls Cls].
    set (sa := fun i => match get_registered_args_cls G (cls i) with Ok x => fst x | Err _ => WrapperArgs end). set (ra := fun i => match get_registered_args_cls G (cls i) with Ok x => snd x | Err _ => WrapperArgs end).
    destruct (fresh_restore d s4 ih cls sa ra Coh NF) as (s5 & out & R & O1 & O2); auto.
    + unfold saved_metadata. cbn. rewrite (dget_dput N.eqb N.eqb_spec), N.eqb_refl. auto.
    + intros i J. apply Ex in J. destruct (Cls i J) as (h & Hh & Ch). destruct D1 as (_ & _ & _ & P). destruct (P i h Hh) as (sa' & ra' & Ha & _ & _ & _ & (b & Hb) & Mh).
      split; [|split; [|split; [|split]]].
      * unfold async_save, bind at 1, lift in A. unfold composite in A. destruct (existsb (fun x => dunder (fst x)) args) eqn:X; [discriminate|].
        apply in_map_iff in J. destruct J as (x & <- & J). destruct (dunder (fst x)) eqn:Q; auto. assert (Z : existsb (fun x => dunder (fst x)) args = true) by (apply existsb_exists; eauto). congruence.
      * unfold sa, ra. rewrite Ch, Ha. auto.
      * rewrite Ch. auto.
      * unfold ra. rewrite Ch, Ha. cbn [snd]. unfold get_registered_args_cls in Ha. destruct (first_for _ (g_save G)); [|discriminate]. destruct (first_for _ (g_restore G)) as [w|] eqn:Fr; [|discriminate]. injection Ha as -> ->.
        apply get_first in Fr. destruct (registered_restore l Rg Wr _ _ Fr) as (sv & Jl). eapply Mk; eauto.
      * destruct (K2 i) as (k & Hk & Dk). { apply Names. auto. } assert (k = h) as -> by (eapply (inv_one s1); eauto). destruct (Hnd _ _ Hh) as (_ & t & _ & _ & _ & Z). exists t. rewrite Z in Dk. split; auto.
        rewrite <- (typestr_string _ _ Z), Ch. destruct Coh as [_ C2]. eapply C2; eauto.
    + exists s2, s3, s4, s5, out. split; [exact Q2|]. split; [exact F3'|]. split; [reflexivity|]. split; [exact R|]. split.
      * intros i. rewrite <- Ex. split; [|apply O1]. intros J. apply in_map_iff in J. destruct J as ([j r] & <- & J). apply (O2 j r J).
      * intros i r a J Ja. destruct (O2 i r J) as (_ & Cr & Dr). destruct (K3 i a Ja) as (h & Hh & _ & Hd & _). exists h. split; auto. destruct (Cls i) as (k & Hk & Ck). { apply in_map_iff. exists (i, a). auto. }
        assert (k = h) as -> by (eapply (inv_one s1); eauto). split; [congruence|]. unfold holds in Hd. cbn in Dr. rewrite Hd in Dr. congruence.
Qed.

End Handler.
