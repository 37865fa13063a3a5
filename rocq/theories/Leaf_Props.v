(** C79: the registry of leaf handlers. *)
From Coq Require Import List Bool Arith String Lia Permutation.
From Verif Require Import Base Tree_Model Registry_Model Leaf_Model Leaf_Spec Tree_Proofs Leaf_Proofs.
Import ListNotations.
Local Open Scope string_scope.
Local Open Scope list_scope.
Local Open Scope nat_scope.

(** ** A world for the examples: 0 to 5 are jax.Array, np.ndarray, int, float, bytes and str; 6 is bool, 7 np.float32, 8 jax.ShapeDtypeStruct; 10 is AbstractShardedArray and 11 AbstractArray *)
Definition array_attrs (a : string) : bool := existsb (String.eqb a) ["shape"; "dtype"].
Definition ex_world : pyworld :=
  mkW (fun a b => (a =? b) || ((a =? 6) && (b =? 2)))
      (fun t => (t =? 10) || (t =? 11))
      (fun t => if t =? 10 then ["shape"; "dtype"; "sharding"] else if t =? 11 then ["shape"; "dtype"] else [])
      (fun _ => [])
      (fun t a => match t with 0 | 8 | 10 => array_attrs a || String.eqb a "sharding" | 1 | 11 => array_attrs a | _ => false end)
      (fun h => match h with 20 => "ArrayLeafHandler" | 21 => "NumpyLeafHandler" | 22 => "ScalarLeafHandler" | _ => "StringLeafHandler" end)
      (fun h => match h with 20 => "a" | 21 => "n" | 22 => "s" | _ => "t" end)
      (fun _ => true).

Ltac in_cases := cbn; intros; repeat match goal with H : _ \/ _ |- _ => destruct H | H : False |- _ => destruct H end; subst; cbn in *; try discriminate; try reflexivity.

Example ex_ordered : ordered (p_sub ex_world) (map e_leaf (standard ex_world)).
Proof. replace (map e_leaf (standard ex_world)) with [1; 2; 3; 4; 5; 0] by (vm_compute; reflexivity). split; [intros a b c|intros a b]; in_cases. Qed.
Example ex_ordered_abs : ordered (asub ex_world) (map e_abs (standard ex_world)).
Proof. replace (map e_abs (standard ex_world)) with [11; 2; 3; 4; 5; 10] by (vm_compute; reflexivity). split; [intros a b c|intros a b]; in_cases. Qed.

(** ** Looking up *)

(** The handler that is found was registered for a type that the leaf's type is a subclass of, and no more special type that fits is registered *)
Theorem C79_specific : forall W l t h, ordered (p_sub W) (map e_leaf (run W l [])) -> get W t (run W l []) = Ok h ->
  exists e, In e (run W l []) /\ p_sub W t (e_leaf e) = true /\ e_handler e = h /\
    (forall x, In x (run W l []) -> p_sub W t (e_leaf x) = true -> p_sub W (e_leaf x) (e_leaf e) = true -> e_leaf x = e_leaf e).
Proof. intros W l t h O. apply get_specific; [apply reach_inv|exact O]. Qed.
Print Assumptions C79_specific.
Example C79_specific_ex : get ex_world 6 (run ex_world (standard_entries ++ [mkReg1 6 6 30 false None]) []) = Ok 30 /\ get ex_world 6 (standard ex_world) = Ok 22.
Proof. vm_compute. split; reflexivity. Qed.

(** A type that is registered gets the handler it was registered with *)
Theorem C79_exact : forall W l e, ordered (p_sub W) (map e_leaf (run W l [])) -> In e (run W l []) -> p_sub W (e_leaf e) (e_leaf e) = true -> get W (e_leaf e) (run W l []) = Ok (e_handler e).
Proof. intros W l e O. apply get_exact; [apply reach_inv|exact O]. Qed.
Print Assumptions C79_exact.
Example C79_exact_ex : In (mkE 2 2 22 (Some ["scalar"]) 0 0) (standard ex_world) /\ get ex_world 2 (standard ex_world) = Ok 22.
Proof. vm_compute. split; [tauto|reflexivity]. Qed.

(** There is no handler exactly if no registered type fits *)
Theorem C79_missing : forall W l t, (exists k, get W t (run W l []) = Err k) <-> (forall e, In e (run W l []) -> p_sub W t (e_leaf e) = false).
Proof.
  intros W l t. apply none_iff. apply reach_inv.
Qed.
Print Assumptions C79_missing.
Theorem C79_missing_error : forall W l t k, get W t (run W l []) = Err k \/ get_abstract W t (run W l []) = Err k -> k = ValueError.
Proof.
  intros W l t k [H | H].
  - assert (G := get_char W (run W l []) t (reach_inv W l)). rewrite H in G. apply G.
  - assert (G := get_abs_char W (run W l []) t (reach_inv W l)). rewrite H in G. apply G.
Qed.
Print Assumptions C79_missing_error.
Example C79_missing_ex : get ex_world 12 (standard ex_world) = Err ValueError.
Proof. vm_compute. reflexivity. Qed.

(** The same of abstract types *)
Theorem C79_abstract : forall W l t h, ordered (asub W) (map e_abs (run W l [])) -> get_abstract W t (run W l []) = Ok h ->
  exists e, In e (run W l []) /\ asub W t (e_abs e) = true /\ e_handler e = h /\
    (forall x, In x (run W l []) -> asub W t (e_abs x) = true -> asub W (e_abs x) (e_abs e) = true -> e_abs x = e_abs e).
Proof. intros W l t h O. apply get_abs_specific; [apply reach_inv|exact O]. Qed.
Print Assumptions C79_abstract.
Example C79_abstract_ex : get_abstract ex_world 8 (standard ex_world) = Ok 20 /\ get_abstract ex_world 1 (standard ex_world) = Ok 21 /\ asub ex_world 8 11 = true.
Proof. vm_compute. repeat split; reflexivity. Qed.
Theorem C79_abstract_exact : forall W l e, ordered (asub W) (map e_abs (run W l [])) -> In e (run W l []) -> asub W (e_abs e) (e_abs e) = true -> get_abstract W (e_abs e) (run W l []) = Ok (e_handler e).
Proof. intros W l e O. apply get_abs_exact; [apply reach_inv|exact O]. Qed.
Print Assumptions C79_abstract_exact.
Theorem C79_abstract_missing : forall W l t, (exists k, get_abstract W t (run W l []) = Err k) <-> (forall e, In e (run W l []) -> asub W t (e_abs e) = false).
Proof.
  intros W l t. assert (G := get_abs_char W (run W l []) t (reach_inv W l)). destruct (get_abstract W t (run W l [])) as [h|k].
  - destruct G as [e [A [B _]]]. split; [intros [k H]; discriminate|]. intros H. rewrite (H e A) in B. discriminate.
  - destruct G as [_ G]. split; [intros _; exact G|]. intros _. exists k. reflexivity.
Qed.
Print Assumptions C79_abstract_missing.
Example C79_abstract_missing_ex : get_abstract ex_world 7 (standard ex_world) = Err ValueError.
Proof. vm_compute. reflexivity. Qed.

(** Being a sub-protocol: every member is annotated in the class itself or an attribute of it; other types are compared as classes *)
Theorem C79_protocol : forall W a b, asub W a b = true <-> (if p_proto W b then forall m, In m (p_members W b) -> In m (p_ann W a) \/ p_attr W a m = true else p_sub W a b = true).
Proof.
  intros W a b. unfold asub, sub_protocol. destruct (p_proto W b); [|reflexivity]. rewrite forallb_forall. split; intros H m Hm; specialize (H m Hm).
  - apply orb_true_iff in H. destruct H as [H | H]; [left|right; exact H]. apply existsb_exists in H. destruct H as [x [Ix E]]. apply String.eqb_eq in E. subst. exact Ix.
  - apply orb_true_iff. destruct H as [H | H]; [left|right; exact H]. apply existsb_exists. exists m. split; [exact H|apply String.eqb_refl].
Qed.
Print Assumptions C79_protocol.
Example C79_protocol_ex : asub ex_world 10 11 = true /\ asub ex_world 11 10 = false /\ asub ex_world 6 2 = true.
Proof. vm_compute. repeat split; reflexivity. Qed.

(** ** Trees *)
Theorem C79_leaves : forall W tt0 r l, validate_leaves W tt0 r l = Ok tt <->
  (forall x, In x l -> match x with LPlaceholder => True | LType _ => exists e, In e r /\ p_sub W tt0 (e_leaf e) = true | LValue t => exists e, In e r /\ p_sub W t (e_leaf e) = true end).
Proof.
  intros W tt0 r l. unfold validate_leaves. destruct (forallb _ l) eqn:F.
  - split; [intros _|reflexivity]. rewrite forallb_forall in F. intros x Ix. specialize (F x Ix). destruct x; [exact I|apply handleable_iff; exact F|apply handleable_iff; exact F].
  - split; [discriminate|]. intros H. exfalso. match type of F with ?b = false => assert (G : b = true); [|congruence] end. apply forallb_forall. intros x Ix. specialize (H x Ix). destruct x; [reflexivity|apply handleable_iff; exact H|apply handleable_iff; exact H].
Qed.
Print Assumptions C79_leaves.
Theorem C79_abstract_leaves : forall W r l, validate_abstract_leaves W r l = Ok tt <->
  (forall x, In x l -> match x with LPlaceholder => True | LType t | LValue t => exists e, In e r /\ asub W t (e_abs e) = true end).
Proof.
  intros W r l. unfold validate_abstract_leaves. destruct (forallb _ l) eqn:F.
  - split; [intros _|reflexivity]. rewrite forallb_forall in F. intros x Ix. specialize (F x Ix). destruct x; [exact I|apply abstract_handleable_iff; exact F|apply abstract_handleable_iff; exact F].
  - split; [discriminate|]. intros H. exfalso. match type of F with ?b = false => assert (G : b = true); [|congruence] end. apply forallb_forall. intros x Ix. specialize (H x Ix). destruct x; [reflexivity|apply abstract_handleable_iff; exact H|apply abstract_handleable_iff; exact H].
Qed.
Print Assumptions C79_abstract_leaves.
Theorem C79_leaves_error : forall W tt0 r l k, validate_leaves W tt0 r l = Err k \/ validate_abstract_leaves W r l = Err k -> k = ValueError.
Proof. intros W tt0 r l k. unfold validate_leaves, validate_abstract_leaves. intros [H | H]; destruct (forallb _ l); congruence. Qed.
Print Assumptions C79_leaves_error.
Example C79_leaves_ex : validate_leaves ex_world 99 (standard ex_world) [LPlaceholder; LValue 6; LValue 0] = Ok tt /\ validate_leaves ex_world 99 (standard ex_world) [LType 2] = Err ValueError /\
  validate_abstract_leaves ex_world (standard ex_world) [LType 2; LValue 8; LPlaceholder] = Ok tt.
Proof. vm_compute. repeat split; reflexivity. Qed.

(** If the validation passes, every leaf that is not a placeholder gets a handler *)
Theorem C79_validated : forall W tt0 l xs t, validate_leaves W tt0 (run W l []) xs = Ok tt -> In (LValue t) xs -> exists h, get W t (run W l []) = Ok h.
Proof.
  intros W tt0 l xs t H I. assert (G := proj1 (C79_leaves W tt0 _ xs) H _ I). cbn in G. destruct (get W t (run W l [])) as [h|k] eqn:E; [exists h; reflexivity|].
  exfalso. destruct G as [e [A B]]. rewrite (proj1 (C79_missing W l t) (ex_intro _ k E) e A) in B. discriminate.
Qed.
Print Assumptions C79_validated.
Theorem C79_abstract_validated : forall W l xs t, validate_abstract_leaves W (run W l []) xs = Ok tt -> In (LValue t) xs \/ In (LType t) xs -> exists h, get_abstract W t (run W l []) = Ok h.
Proof.
  intros W l xs t H I. assert (G : exists e, In e (run W l []) /\ asub W t (e_abs e) = true) by (destruct I as [I | I]; exact (proj1 (C79_abstract_leaves W _ xs) H _ I)). destruct (get_abstract W t (run W l [])) as [h|k] eqn:E; [exists h; reflexivity|].
  exfalso. destruct G as [e [A B]]. rewrite (proj1 (C79_abstract_missing W l t) (ex_intro _ k E) e A) in B. discriminate.
Qed.
Print Assumptions C79_abstract_validated.

(** ** Registering *)

(** However it came about: no leaf type has two entries, and no abstract type two handlers *)
Theorem C79_distinct : forall W l, NoDup (map e_leaf (run W l [])) /\ (forall e e', In e (run W l []) -> In e' (run W l []) -> e_abs e = e_abs e' -> e_handler e = e_handler e').
Proof. intros W l. split; [apply (i_leaf W _ (reach_inv W l))|apply (i_abs W _ (reach_inv W l))]. Qed.
Print Assumptions C79_distinct.

(** The scores are always those of the registry as it is *)
Theorem C79_scores : forall W l e, In e (run W l []) ->
  counts (fun o => o <> e_leaf e /\ p_sub W (e_leaf e) o = true) (map e_leaf (run W l [])) (e_ls e) /\
  counts (fun o => o <> e_abs e /\ asub W (e_abs e) o = true) (map e_abs (run W l [])) (e_as e).
Proof. intros W l e I. rewrite (i_ls W _ (reach_inv W l) e I), (i_as W _ (reach_inv W l) e I). split; apply counts_score. Qed.
Print Assumptions C79_scores.
Example C79_scores_ex : In (mkE 6 6 30 None 1 1) (run ex_world (standard_entries ++ [mkReg1 6 6 30 false None]) []) /\ In (mkE 0 10 20 (Some ["jax.Array"]) 0 1) (standard ex_world).
Proof. vm_compute. split; tauto. Qed.

(** A registration is refused exactly if it clashes, is not an override, and is not there already *)
Theorem C79_refused : forall W lf ab h o s r, (exists k, add W lf ab h o s r = Err k) <->
  o = false /\ (exists x, In x (whats r) /\ clash lf ab h x) /\ (forall x, In x (whats r) -> fst x <> (lf, ab, h)).
Proof.
  intros W lf ab h o s r. unfold add. destruct (existsb (same_entry lf ab h) r) eqn:X.
  - split; [intros [k H]; discriminate|]. intros [_ [_ H]]. exfalso. apply existsb_exists in X. destruct X as [e [Ie X]]. apply same_iff in X. destruct X as [<- [<- <-]]. apply (H (what e)); [apply in_map; exact Ie|reflexivity].
  - assert (NX : forall x, In x (whats r) -> fst x <> (lf, ab, h)).
    { intros x Ix E. apply in_map_iff in Ix. destruct Ix as [e [<- Ie]]. cbn in E. injection E as E1 E2 E3. assert (Q : existsb (same_entry lf ab h) r = true); [|congruence]. apply existsb_exists. exists e. split; [exact Ie|]. apply same_iff. tauto. }
    destruct o; cbn; [split; [intros [k H]; discriminate|intros [H _]; discriminate]|]. destruct (existsb (conflict lf ab h) r) eqn:C.
    + split; [intros _|intros _; exists ValueError; reflexivity]. split; [reflexivity|]. split; [|exact NX]. apply existsb_exists in C. destruct C as [e [Ie C]]. exists (what e). split; [apply in_map; exact Ie|apply conflict_iff; exact C].
    + split; [intros [k H]; discriminate|]. intros [_ [[x [Ix K]] _]]. exfalso. apply in_map_iff in Ix. destruct Ix as [e [<- Ie]]. assert (Q : existsb (conflict lf ab h) r = true); [|congruence]. apply existsb_exists. exists e. split; [exact Ie|apply conflict_iff; exact K].
Qed.
Print Assumptions C79_refused.
Theorem C79_refused_error : forall W lf ab h o s r k, add W lf ab h o s r = Err k -> k = ValueError.
Proof. intros W lf ab h o s r k. unfold add. destruct (existsb (same_entry lf ab h) r); [discriminate|]. destruct (negb o && _); [congruence|discriminate]. Qed.
Print Assumptions C79_refused_error.
Example C79_refused_ex : add ex_world 2 2 30 false None (standard ex_world) = Err ValueError /\ add ex_world 12 11 30 false None (standard ex_world) = Err ValueError.
Proof. vm_compute. split; reflexivity. Qed.

(** A new registration is there afterwards, and of the others exactly those that do not clash with it *)
Theorem C79_added : forall W lf ab h o s r r', (forall x, In x (whats r) -> fst x <> (lf, ab, h)) -> add W lf ab h o s r = Ok r' ->
  forall x, In x (whats r') <-> x = (lf, ab, h, s) \/ (In x (whats r) /\ ~ clash lf ab h x).
Proof.
  intros W lf ab h o s r r' NX H x. assert (X : existsb (same_entry lf ab h) r = false).
  { destruct (existsb _ r) eqn:X; [|reflexivity]. apply existsb_exists in X. destruct X as [e [Ie X]]. apply same_iff in X. destruct X as [<- [<- <-]]. exfalso. apply (NX (what e)); [apply in_map; exact Ie|reflexivity]. }
  assert (C : o = true \/ existsb (conflict lf ab h) r = false).
  { unfold add in H. rewrite X in H. destruct o; [left; reflexivity|right]. destruct (existsb (conflict lf ab h) r); [discriminate|reflexivity]. }
  destruct (add_new W lf ab h o s r X C) as [r2 [E P]]. rewrite E in H. injection H as <-. split; intros Q.
  - apply (Permutation_in _ P) in Q. destruct Q as [<- | Q]; [left; reflexivity|right]. apply in_map_iff in Q. destruct Q as [e [<- Ie]]. apply filter_In in Ie. destruct Ie as [Ie K]. split; [apply in_map; exact Ie|]. apply noconflict_iff. apply negb_true_iff. exact K.
  - apply (Permutation_in _ (Permutation_sym P)). destruct Q as [-> | [Q K]]; [left; reflexivity|right]. apply in_map_iff in Q. destruct Q as [e [<- Ie]]. apply in_map. apply filter_In. split; [exact Ie|]. apply negb_true_iff, noconflict_iff. exact K.
Qed.
Print Assumptions C79_added.
Example C79_added_ex : exists r', add ex_world 2 2 30 true (Some ["mine"]) (standard ex_world) = Ok r' /\ get ex_world 6 r' = Ok 30 /\ get ex_world 3 r' = Ok 22 /\ List.length r' = 6.
Proof. eexists. split; [vm_compute; reflexivity|]. vm_compute. repeat split; reflexivity. Qed.

(** A registration that is there already changes nothing, or with an override its typestrs *)
Theorem C79_duplicate : forall W lf ab h s r, (exists x, In x (whats r) /\ fst x = (lf, ab, h)) -> add W lf ab h false s r = Ok r.
Proof.
  intros W lf ab h s r [x [Ix E]]. unfold add. assert (X : existsb (same_entry lf ab h) r = true); [|rewrite X; reflexivity].
  apply in_map_iff in Ix. destruct Ix as [e [<- Ie]]. cbn in E. injection E as E1 E2 E3. apply existsb_exists. exists e. split; [exact Ie|]. apply same_iff. tauto.
Qed.
Print Assumptions C79_duplicate.
Theorem C79_updated : forall W l lf ab h s, let r := run W l [] in (exists x, In x (whats r) /\ fst x = (lf, ab, h)) ->
  exists r', add W lf ab h true s r = Ok r' /\ (forall x, In x (whats r') <-> x = (lf, ab, h, s) \/ (In x (whats r) /\ fst (fst (fst x)) <> lf)).
Proof.
  intros W l lf ab h s r [x [Ix E]]. assert (I := reach_inv W l). fold r in I. clearbody r. unfold add. assert (X : existsb (same_entry lf ab h) r = true).
  { apply in_map_iff in Ix. destruct Ix as [e [<- Ie]]. cbn in E. injection E as E1 E2 E3. apply existsb_exists. exists e. split; [exact Ie|]. apply same_iff. tauto. }
  rewrite X. eexists. split; [reflexivity|]. intros y. cbn [andb]. assert (N := i_leaf W r I). clear I Ix E x.
  destruct (find (same_entry lf ab h) r) as [e|] eqn:F; [|exfalso; apply existsb_exists in X; destruct X as [e [Ie X]]; rewrite (find_none _ _ F e Ie) in X; discriminate].
  destruct (strs_eqb (e_strs e) s) eqn:Q; cbn [negb].
  - assert (E : e_strs e = s). { destruct (e_strs e) as [a|], s as [b|]; cbn in Q; try discriminate; [|reflexivity]. assert (Z := names_eqb_spec a b). rewrite Q in Z. inversion Z as [Z0|]. rewrite Z0. reflexivity. }
    apply find_some in F. destruct F as [Ie Se]. apply same_iff in Se. destruct Se as [<- [<- <-]]. split.
    + intros Iy. destruct (Nat.eq_dec (fst (fst (fst y))) (e_leaf e)) as [L | L]; [left|right; split; assumption]. apply in_map_iff in Iy. destruct Iy as [e' [<- Ie']]. cbn in L.
      assert (e' = e); [|subst; unfold what; reflexivity]. clear - N Ie Ie' L. induction r as [|z t IH]; [contradiction|]. cbn in N. inversion N as [|? ? N1 N2]; subst. destruct Ie as [-> | Ie], Ie' as [-> | Ie'].
      * reflexivity.
      * exfalso. apply N1. rewrite <- L. apply in_map. exact Ie'.
      * exfalso. apply N1. rewrite L. apply in_map. exact Ie.
      * apply IH; assumption.
    + intros [-> | [Iy _]]; [|exact Iy]. rewrite <- E. apply (in_map what). exact Ie.
  - clear F Q e. induction r as [|z t IH]; [discriminate|]. cbn [update_strs]. cbn in N. inversion N as [|? ? N1 N2]; subst. cbn in X. destruct (same_entry lf ab h z) eqn:Z.
    + apply same_iff in Z. destruct Z as [<- [<- <-]]. cbn. split.
      * intros [<- | Iy]; [left; reflexivity|right]. split; [right; exact Iy|]. intros L. apply N1. apply in_map_iff in Iy. destruct Iy as [e' [<- Ie']]. cbn in L. rewrite <- L. apply in_map. exact Ie'.
      * intros [-> | [[<- | Iy] L]]; [left; reflexivity|cbn in L; congruence|right; exact Iy].
    + cbn in X. specialize (IH X N2). cbn. fold (whats t) in *. fold (whats (update_strs lf ab h s t)) in *. assert (ZL : e_leaf z <> lf).
      { intros <-. apply N1. apply existsb_exists in X. destruct X as [e' [Ie' X]]. apply same_iff in X. destruct X as [X _]. rewrite <- X. apply in_map. exact Ie'. }
      rewrite IH. split.
      * intros [<- | [-> | [Iy L]]]; [right; split; [left; reflexivity|exact ZL]|left; reflexivity|right; split; [right; exact Iy|exact L]].
      * intros [-> | [[<- | Iy] L]]; [right; left; reflexivity|left; reflexivity|right; right; split; assumption].
Qed.
Print Assumptions C79_updated.
Example C79_updated_ex : exists r', add ex_world 2 2 22 true (Some ["new"]) (standard ex_world) = Ok r' /\ In (2, 2, 22, Some ["new"]) (whats r') /\ In (3, 3, 22, Some ["scalar"]) (whats r').
Proof. eexists. split; [vm_compute; reflexivity|]. vm_compute. tauto. Qed.

(** After a registration its type gets its handler, and so does its abstract type *)
Theorem C79_registered : forall W l lf ab h o s r', add W lf ab h o s (run W l []) = Ok r' ->
  (ordered (p_sub W) (map e_leaf r') -> p_sub W lf lf = true -> get W lf r' = Ok h) /\ (ordered (asub W) (map e_abs r') -> asub W ab ab = true -> get_abstract W ab r' = Ok h).
Proof.
  intros W l lf ab h o s r' H. assert (I := add_inv W lf ab h o s _ r' (reach_inv W l) H). assert (E : exists e, In e r' /\ e_leaf e = lf /\ e_abs e = ab /\ e_handler e = h).
  { unfold add in H. destruct (existsb (same_entry lf ab h) (run W l [])) eqn:X.
    - injection H as <-. match goal with |- context[if ?c then _ else _] => assert (U : map unscored (if c then update_strs lf ab h s (run W l []) else run W l []) = map unscored (run W l [])) by (destruct c; [apply update_unscored|reflexivity]); revert U; generalize (if c then update_strs lf ab h s (run W l []) else run W l []) end.
      intros r2 U. apply existsb_exists in X. destruct X as [e [Ie X]]. apply same_iff in X. destruct (in_unscored r2 (run W l []) e (eq_sym U) Ie) as [x [Ix Ex]]. exists x. unfold unscored in Ex. injection Ex; intros. split; [exact Ix|]. repeat split; intuition congruence.
    - destruct (negb o && _); [discriminate|]. injection H as <-. match goal with |- exists e, In e (sort_by ?k (rescore W ?q)) /\ _ => assert (In (lf, ab, h, s) (whats (sort_by k (rescore W q)))) as Q end.
      { unfold whats. apply (Permutation_in _ (Permutation_sym (Permutation_map what (sort_perm _ _)))). match goal with |- In _ (map what (rescore W ?q)) => change (In (lf, ab, h, s) (whats (rescore W q))) end. rewrite rescore_whats. unfold whats. rewrite map_app. apply in_or_app. right. left. reflexivity. }
      apply in_map_iff in Q. destruct Q as [e [E Ie]]. unfold what in E. injection E; intros. exists e. repeat split; assumption. }
  destruct E as [e [Ie [<- [<- <-]]]]. split; intros O R; [apply get_exact|apply get_abs_exact]; assumption.
Qed.
Print Assumptions C79_registered.

(** ** The order of registering does not matter, if handlers can be told apart by their names *)
Theorem C79_order : forall W l l' t, compatible l -> Permutation l l' -> named_apart W (map g_handler l) ->
  get W t (run W l []) = get W t (run W l' []) /\ get_abstract W t (run W l []) = get_abstract W t (run W l' []).
Proof.
  intros W l l' t C P N. assert (C' : compatible l').
  { destruct C as [C1 C2]. split; [eapply Permutation_NoDup; [apply Permutation_map; exact P|exact C1]|]. intros g g' Ig Ig'. apply C2; eapply Permutation_in; [symmetry; exact P|exact Ig|symmetry; exact P|exact Ig']. }
  assert (Q := run_compatible W l C). assert (Q' := run_compatible W l' C'). assert (R : Permutation (whats (run W l [])) (whats (run W l' []))) by (rewrite Q, Q'; apply Permutation_map; exact P).
  assert (N' : named_apart W (map e_handler (run W l []))).
  { intros h k Ih Ik. assert (Z : forall q, In q (map e_handler (run W l [])) -> In q (map g_handler l)); [|apply N; apply Z; assumption].
    intros q Iq. apply in_map_iff in Iq. destruct Iq as [e [<- Ie]]. assert (T := Permutation_in _ Q (in_map what _ _ Ie)). apply in_map_iff in T. destruct T as [g [T Ig]]. unfold what, asked in T. injection T; intros. rewrite <- H0. apply in_map. exact Ig. }
  split; [apply get_order|apply get_abs_order]; try assumption; apply reach_inv.
Qed.
Print Assumptions C79_order.
Example C79_order_ex : compatible standard_entries /\ named_apart ex_world (map g_handler standard_entries).
Proof.
  split; [split|].
  - cbn. repeat constructor; cbn; intuition discriminate.
  - intros g g'. cbn. intros H H'. repeat (destruct H as [<- | H]); try contradiction; repeat (destruct H' as [<- | H']); try contradiction; cbn; congruence.
  - intros h k. cbn. intros H H'. repeat (destruct H as [<- | H]); try contradiction; repeat (destruct H' as [<- | H']); try contradiction; cbn; congruence.
Qed.

(** Registrations that can stand beside each other are all there *)
Theorem C79_all : forall W l, compatible l -> Permutation (whats (run W l [])) (map asked l).
Proof. exact run_compatible. Qed.
Print Assumptions C79_all.

(** The standard registry, whatever python says of types *)
Theorem C79_standard : forall W t, let std := [(0, 20); (1, 21); (2, 22); (3, 22); (4, 22); (5, 23)] in
  (forall h, get W t (standard W) = Ok h -> exists ty, In (ty, h) std /\ p_sub W t ty = true) /\ ((exists k, get W t (standard W) = Err k) <-> forall ty h, In (ty, h) std -> p_sub W t ty = false).
Proof.
  intros W t std. unfold standard. assert (P := C79_all W standard_entries (proj1 C79_order_ex)). assert (V := reach_inv W standard_entries). revert P V. generalize (run W standard_entries []). intros r P V.
  assert (IFF : forall ty h, In (ty, h) std <-> exists e, In e r /\ e_leaf e = ty /\ e_handler e = h).
  { intros ty h. transitivity (exists x, In x (map asked standard_entries) /\ fst (fst (fst x)) = ty /\ snd (fst x) = h).
    - replace std with (map (fun x : nat * nat * nat * option (list string) => (fst (fst (fst x)), snd (fst x))) (map asked standard_entries)) by reflexivity. rewrite in_map_iff. split; intros [x [I J]].
      + exists x. injection I as I1 I2. repeat split; assumption.
      + exists x. destruct J as [<- <-]. split; [reflexivity|exact I].
    - split.
      + intros [x [I [<- <-]]]. apply (Permutation_in _ (Permutation_sym P)) in I. apply in_map_iff in I. destruct I as [e [<- Ie]]. exists e. repeat split; assumption.
      + intros [e [Ie [<- <-]]]. exists (what e). split; [apply (Permutation_in _ P); apply in_map; exact Ie|split; reflexivity]. }
  split.
  - intros h H. assert (G := get_char W r t V). rewrite H in G. destruct G as [e [A [B [C _]]]]. exists (e_leaf e). split; [|exact B]. apply IFF. exists e. split; [exact A|split; [reflexivity|exact C]].
  - rewrite (none_iff W r t V). split.
    + intros H ty h I. apply IFF in I. destruct I as [e [Ie [<- _]]]. apply H. exact Ie.
    + intros H e Ie. apply (H _ (e_handler e)). apply IFF. exists e. split; [exact Ie|split; reflexivity].
Qed.
Print Assumptions C79_standard.

(** ** The registry of the old interface *)

(** It can be made exactly if each handler can be made *)
Theorem C79_v0_made : forall W r, (exists t, v0_registry W r = Ok t) <-> (forall e, In e r -> p_new W (e_handler e) = true).
Proof. intros. symmetry. apply v0_ok. Qed.
Print Assumptions C79_v0_made.

(** It gives each type the same handler *)
Theorem C79_v0 : forall W l t, ordered (p_sub W) (map e_leaf (run W l [])) -> v0_registry W (run W l []) = Ok t -> forall ty, t_get ty t = get W ty (run W l []).
Proof. intros W l t O. apply v0_agrees; [apply reach_inv|exact O]. Qed.
Print Assumptions C79_v0.

(** What a handler saved it is given to restore, if no other has its typestr *)
Theorem C79_v0_typestr : forall W l t ty h, ordered (p_sub W) (map e_leaf (run W l [])) -> v0_registry W (run W l []) = Ok t -> t_get ty t = Ok h ->
  (forall k, In k (map e_handler (run W l [])) -> v0_typestr W (run W l []) k = v0_typestr W (run W l []) h -> k = h) -> t_get_str (v0_typestr W (run W l []) h) t = Ok h.
Proof.
  intros W l t ty h O H G N. apply v0_named; [exact H| |exact N]. rewrite (C79_v0 W l t O H) in G. assert (C := get_char W (run W l []) ty (reach_inv W l)). rewrite G in C. destruct C as [e [Ie [_ [<- _]]]]. apply in_map. exact Ie.
Qed.
Print Assumptions C79_v0_typestr.
Example C79_v0_ex : exists t, v0_registry ex_world (standard ex_world) = Ok t /\ t_get 6 t = Ok 22 /\ t_get 0 t = Ok 20 /\ v0_typestr ex_world (standard ex_world) 22 = "scalar" /\ t_get_str "scalar" t = Ok 22 /\ t_get_str "string" t = Ok 23.
Proof. eexists. split; [vm_compute; reflexivity|]. vm_compute. repeat split; reflexivity. Qed.

(** Its typestr is the first that any entry of the handler gives, if they all give the same; and the handler's own if they give none *)
Theorem C79_typestr : forall W r h s, In h (map e_handler r) -> (forall e, In e r -> e_handler e = h -> e_strs e = s) ->
  secondary h r = match s with Some l => l | None => [] end /\ v0_typestr W r h = match s with Some (x :: _) => x | _ => p_typestr W h end.
Proof.
  intros W r h s I H. assert (E : secondary h r = match s with Some l => l | None => [] end).
  { unfold secondary. destruct (find _ r) as [e|] eqn:F.
    - apply find_some in F. destruct F as [Ie F]. apply Nat.eqb_eq in F. rewrite (H e Ie F). reflexivity.
    - exfalso. apply in_map_iff in I. destruct I as [e [E Ie]]. assert (Q := find_none _ _ F e Ie). cbn in Q. apply Nat.eqb_neq in Q. congruence. }
  split; [exact E|]. unfold v0_typestr. rewrite E. destruct s as [[|x q]|]; reflexivity.
Qed.
Print Assumptions C79_typestr.

(** ** What does not hold *)

(** Between two types that fit and are not related, the number of their registered bases decides: registering a handler for a base of one of them gives the leaf to another handler, that is neither the new one nor the one before. *)
Theorem C79_stable_refuted : exists W l g t h h', ordered (p_sub W) (map e_leaf (run W (l ++ [g]) [])) /\ compatible (l ++ [g]) /\ get W t (run W l []) = Ok h /\ get W t (run W (l ++ [g]) []) = Ok h' /\ h <> h' /\ h' <> g_handler g.
Proof.
  exists (mkW (fun a b => (a =? b) || existsb (fun p => (fst p =? a) && (snd p =? b)) [(3, 0); (3, 1); (3, 2); (0, 2)]) (fun _ => false) (fun _ => []) (fun _ => []) (fun _ _ => false)
    (fun h => match h with 20 => "A" | 21 => "B" | _ => "C" end) (fun _ => "") (fun _ => true)), [mkReg1 0 0 20 false None; mkReg1 1 1 21 false None], (mkReg1 2 2 22 false None), 3, 21, 20.
  match goal with |- ordered _ ?l /\ _ => replace l with [1; 2; 0] by (vm_compute; reflexivity) end.
  split; [split; [intros a b c|intros a b]; in_cases|]. split; [split; [cbn; repeat constructor; cbn; intuition discriminate|intros g g'; cbn; intros H H'; repeat (destruct H as [<- | H]); try contradiction; repeat (destruct H' as [<- | H']); try contradiction; cbn; congruence]|].
  vm_compute. repeat split; congruence.
Qed.
Print Assumptions C79_stable_refuted.

(** An override for one leaf type removes the entries of others that share its abstract type, and these are not handled any more. *)
Theorem C79_override_refuted : exists W l g t, g_leaf g <> t /\ g_override g = true /\ (exists h, get W t (run W l []) = Ok h) /\ get W t (run W (l ++ [g]) []) = Err ValueError.
Proof.
  exists ex_world, standard_entries, (mkReg1 12 11 30 true None), 1. split; [discriminate|]. split; [reflexivity|]. split; [exists 21; vm_compute; reflexivity|vm_compute; reflexivity].
Qed.
Print Assumptions C79_override_refuted.

(** New typestrs for a registration are not the typestrs of its handler: another entry of the handler comes first, as int, float and bytes share one. *)
Theorem C79_typestrs_refuted : exists W l lf ab h s r', add W lf ab h true (Some [s]) (run W l []) = Ok r' /\ In (lf, ab, h, Some [s]) (whats r') /\ secondary h r' = secondary h (run W l []) /\ secondary h r' <> [s].
Proof. exists ex_world, standard_entries, 3, 3, 22, "new". eexists. split; [vm_compute; reflexivity|]. vm_compute. split; [tauto|]. split; [reflexivity|discriminate]. Qed.
Print Assumptions C79_typestrs_refuted.

(** A registration that is there already but with other typestrs is accepted without an override, and the typestrs are dropped. *)
Theorem C79_dropped_refuted : exists W l lf ab h s r', add W lf ab h false (Some [s]) (run W l []) = Ok r' /\ ~ In (lf, ab, h, Some [s]) (whats r').
Proof. exists ex_world, standard_entries, 5, 5, 23, "new". eexists. split; [vm_compute; reflexivity|]. vm_compute. intuition discriminate. Qed.
Print Assumptions C79_dropped_refuted.

(** Two protocols with the same members: an abstract type that is registered gets the handler of the other. *)
Theorem C79_same_members_refuted : exists W l e, compatible l /\ In e (run W l []) /\ asub W (e_abs e) (e_abs e) = true /\ get_abstract W (e_abs e) (run W l []) <> Ok (e_handler e).
Proof.
  exists (mkW Nat.eqb (fun t => 10 <=? t) (fun _ => ["shape"]) (fun _ => ["shape"]) (fun _ _ => false) (fun h => match h with 20 => "A" | _ => "B" end) (fun _ => "") (fun _ => true)),
    [mkReg1 0 10 20 false None; mkReg1 1 11 21 false None], (mkE 0 10 20 None 0 1).
  split; [split; [cbn; repeat constructor; cbn; intuition discriminate|intros g g'; cbn; intros H H'; repeat (destruct H as [<- | H]); try contradiction; repeat (destruct H' as [<- | H']); try contradiction; cbn; congruence]|].
  vm_compute. split; [tauto|]. split; [reflexivity|discriminate].
Qed.
Print Assumptions C79_same_members_refuted.

(** Only the annotations of the class itself count: a protocol that adds an attribute to another is not a sub-protocol of it, nor of itself, and though registered it is not handled. *)
Theorem C79_inherited_refuted : exists W p q h, p_proto W p = true /\ p_proto W q = true /\ p_sub W q p = true /\ p_members W p = p_ann W p /\ p_members W q = p_ann W q ++ p_members W p /\ asub W q p = false /\
  In (0, q, h, None) (whats (run W [mkReg1 0 q h false None] [])) /\ get_abstract W q (run W [mkReg1 0 q h false None] []) = Err ValueError.
Proof.
  exists (mkW (fun a b => (a =? b) || ((a =? 11) && (b =? 10))) (fun t => 10 <=? t) (fun t => if t =? 10 then ["shape"] else ["sharding"; "shape"]) (fun t => if t =? 10 then ["shape"] else ["sharding"]) (fun _ _ => false) (fun _ => "") (fun _ => "") (fun _ => true)), 10, 11, 20.
  vm_compute. repeat split; try reflexivity. left. reflexivity.
Qed.
Print Assumptions C79_inherited_refuted.

(** Handlers of the same name: the order of registering decides. *)
Theorem C79_names_refuted : exists W l l' t, compatible l /\ Permutation l l' /\ ordered (p_sub W) (map g_leaf l) /\ get W t (run W l []) <> get W t (run W l' []).
Proof.
  exists (mkW (fun a b => (a =? b) || (a =? 3)) (fun _ => false) (fun _ => []) (fun _ => []) (fun _ _ => false) (fun _ => "H") (fun _ => "") (fun _ => true)),
    [mkReg1 0 0 20 false None; mkReg1 1 1 21 false None], [mkReg1 1 1 21 false None; mkReg1 0 0 20 false None], 3.
  split; [split; [cbn; repeat constructor; cbn; intuition discriminate|intros g g'; cbn; intros H H'; repeat (destruct H as [<- | H]); try contradiction; repeat (destruct H' as [<- | H']); try contradiction; cbn; congruence]|].
  split; [apply perm_swap|]. split; [split; [intros a b c|intros a b]; in_cases|]. vm_compute. discriminate.
Qed.
Print Assumptions C79_names_refuted.

(** Two handlers with the same first typestr: what one saved is restored by the other. *)
Theorem C79_clash_refuted : exists W l t ty h k, compatible l /\ ordered (p_sub W) (map e_leaf (run W l [])) /\ v0_registry W (run W l []) = Ok t /\ t_get ty t = Ok h /\ t_get_str (v0_typestr W (run W l []) h) t = Ok k /\ h <> k.
Proof.
  exists ex_world, [mkReg1 2 2 22 false (Some ["scalar"]); mkReg1 6 6 23 false (Some ["scalar"])]. eexists. exists 6, 23, 22.
  split; [split; [cbn; repeat constructor; cbn; intuition discriminate|intros g g'; cbn; intros H H'; repeat (destruct H as [<- | H]); try contradiction; repeat (destruct H' as [<- | H']); try contradiction; cbn; congruence]|].
  match goal with |- ordered _ ?l /\ _ => replace l with [2; 6] by (vm_compute; reflexivity) end. split; [split; [intros a b c|intros a b]; in_cases|].
  split; [vm_compute; reflexivity|]. vm_compute. repeat split; congruence.
Qed.
Print Assumptions C79_clash_refuted.

(** The comment on the standard registry names np.number; such a scalar has no handler there. *)
Theorem C79_number_refuted : exists W t, (forall ty, p_sub W t ty = true <-> ty = t) /\ ~ In t (map e_leaf (standard W)) /\ get W t (standard W) = Err ValueError.
Proof.
  exists ex_world, 7. split; [|vm_compute; split; [intuition discriminate|reflexivity]]. intros ty. cbn. rewrite orb_false_r. destruct ty as [|[|[|[|[|[|[|[|ty]]]]]]]]; cbn; split; intros H; congruence.
Qed.
Print Assumptions C79_number_refuted.
