(** Lemmas on layouts *)
From Coq Require Import List Bool Arith String Lia Permutation Sorted.
From Verif Require Import Base Tree_Model Registry_Model Registry_Spec Registry_Proofs Registry_Props Layout_Model Layout_Spec.
From Verif Require Composite_Model Composite_Proofs Tree_Proofs Parts_Proofs StepMeta_Proofs Surgery_Proofs.
Import ListNotations.
Open Scope string_scope.

Lemma look_in : forall n x l, NoDup (map fst l) -> (look n l = Some x <-> In (n, x) l).
Proof.
  intros n x l N. unfold look. split; [apply (Parts_Proofs.dget_some_in String.eqb String.eqb_spec)|apply (Tree_Proofs.dget_in String.eqb String.eqb_spec n x l N)].
Qed.

Lemma holds_iff : forall n l, holds n l = true <-> there n l.
Proof.
  intros n l. unfold holds, there, look. induction l as [|[k v] l IH]; simpl; [split; [discriminate|intros [x []]]|].
  destruct (String.eqb_spec n k) as [->|M]; [split; [eauto|reflexivity]|]. rewrite IH. split; intros [x Q]; exists x; [auto|destruct Q as [Q|Q]; [congruence|exact Q]].
Qed.

Lemma holds_false : forall n l, holds n l = false <-> ~ there n l.
Proof. intros n l. rewrite <- holds_iff. destruct (holds n l); split; congruence. Qed.

Lemma reserved_iff : forall n, reserved n = true <-> n = "metrics" \/ n = "AUTO".
Proof. intros n. unfold reserved. rewrite orb_true_iff, !String.eqb_eq. reflexivity. Qed.

Lemma existing_iff : forall n l, In n (existing_names l) <-> exists d, In (n, Dir d) l.
Proof.
  intros n l. unfold existing_names. rewrite in_map_iff. split.
  - intros [[k x] [E I]]. simpl in E. subst k. apply filter_In in I. destruct I as [I F]. simpl in F. destruct x as [c|d]; [discriminate|]. exists d. exact I.
  - intros [d I]. exists (n, Dir d). split; [reflexivity|]. apply filter_In. auto.
Qed.

Lemma sorted_ordered : forall l, StronglySorted (fun a b => String.leb a b = true) (Composite_Model.sorted_names l).
Proof. exact Composite_Proofs.sorted_sorted. Qed.

Lemma names_in : forall l n, In n (checkpointable_names l) <-> reserved n = false /\ exists d, In (n, Dir d) l.
Proof.
  intros l n. unfold checkpointable_names. set (names := filter _ (existing_names l)).
  assert (In n names <-> reserved n = false /\ exists d, In (n, Dir d) l) as N.
  { unfold names. rewrite filter_In, existing_iff, negb_true_iff. tauto. }
  assert (forall k, In n (Composite_Model.sorted_names k) <-> In n k) as S by (intros k; split; apply Permutation_in; [|apply Permutation_sym]; apply Composite_Proofs.sorted_perm).
  destruct (existsb (String.eqb state_key) names) eqn:X; [|rewrite S; exact N]. simpl. rewrite S, filter_In, negb_true_iff, String.eqb_neq, <- N.
  apply existsb_exists in X. destruct X as [s [I E]]. apply String.eqb_eq in E. subst s. split; [intros [<-|[Q _]]; assumption|].
  intros Q. destruct (string_dec n state_key) as [->|M]; auto.
Qed.

Lemma names_order : forall l pre n post, checkpointable_names l = (pre ++ n :: post)%list -> n <> "state" -> forall m, In m (checkpointable_names l) -> ~ In m pre -> String.leb n m = true.
Proof.
  intros l pre n post E N m I J. unfold checkpointable_names in *. set (names := filter _ (existing_names l)) in *.
  assert (forall k pre, Composite_Model.sorted_names k = (pre ++ n :: post)%list -> In m (Composite_Model.sorted_names k) -> ~ In m pre -> String.leb n m = true) as S.
  { intros k q Ek Ik Jk. pose proof (sorted_ordered k) as O. rewrite Ek in O, Ik. clear Ek E I J pre. induction q as [|y q IH].
    - simpl in O, Ik. inversion O as [|? ? O1 O2]; subst. destruct Ik as [->|Ik]; [destruct (String.leb_total m m); assumption|]. rewrite Forall_forall in O2. exact (O2 m Ik).
    - simpl in O, Ik. inversion O; subst. destruct Ik as [->|Ik]; [exfalso; apply Jk; left; reflexivity|]. apply IH; auto. intros Q. apply Jk. right. exact Q. }
  destruct (existsb (String.eqb state_key) names); [|exact (S names pre E I J)]. destruct pre as [|s pre]; simpl in E; injection E as E1 E2; [exfalso; apply N; symmetry; exact E1|]. subst s.
  destruct I as [I|I]; [subst m; exfalso; apply J; left; reflexivity|]. apply (S _ pre E2 I). intros Q. apply J. right. exact Q.
Qed.

Lemma names_state : forall l pre n post, checkpointable_names l = (pre ++ n :: post)%list -> n <> "state" -> In "state" (checkpointable_names l) -> In "state" pre.
Proof.
  intros l pre n post E N I. unfold checkpointable_names in *. set (names := filter _ (existing_names l)) in *.
  destruct (existsb (String.eqb state_key) names) eqn:X.
  - destruct pre as [|s pre]; simpl in E; injection E as E1 E2; [exfalso; apply N; symmetry; exact E1|]. left. symmetry. exact E1.
  - exfalso. apply (Permutation_in _ (Composite_Proofs.sorted_perm _)) in I. assert (existsb (String.eqb state_key) names = true); [|congruence]. apply existsb_exists. exists "state". split; [exact I|reflexivity].
Qed.

Lemma names_first_state : forall l pre post, checkpointable_names l = (pre ++ "state" :: post)%list -> pre = [] \/ In "state" pre.
Proof.
  intros l pre post E. unfold checkpointable_names in E. set (names := filter _ (existing_names l)) in *.
  destruct (existsb (String.eqb state_key) names) eqn:X.
  - destruct pre as [|s pre]; [left; reflexivity|]. simpl in E. injection E as E1 E2. right. left. symmetry. exact E1.
  - exfalso. assert (In "state" (Composite_Model.sorted_names names)) as I by (rewrite E; apply in_or_app; right; left; reflexivity).
    apply (Permutation_in _ (Composite_Proofs.sorted_perm _)) in I. assert (existsb (String.eqb state_key) names = true); [|congruence]. apply existsb_exists. exists "state". split; [exact I|reflexivity].
Qed.

Lemma pytree_iff : forall l n, NoDup (map fst l) -> (is_pytree n l = true <-> exists d, In (n, Dir d) l /\ there "_METADATA" d).
Proof.
  intros l n N. unfold is_pytree. destruct (look n l) as [x|] eqn:L.
  - apply (look_in n x l N) in L. destruct x as [c|d]; simpl.
    + split; [discriminate|]. intros [d [I _]]. exfalso. apply (look_in _ _ _ N) in L. apply (look_in _ _ _ N) in I. congruence.
    + rewrite holds_iff. split; [intros T; exists d; split; [exact L|exact T]|]. intros [d' [I T]]. apply (look_in _ _ _ N) in L. apply (look_in _ _ _ N) in I. rewrite L in I. injection I as <-. exact T.
  - split; [discriminate|]. intros [d [I _]]. apply (look_in _ _ _ N) in I. congruence.
Qed.

Lemma candidate_iff : forall l n, NoDup (map fst l) -> (candidate l n <-> In n (checkpointable_names l) /\ is_pytree n l = true).
Proof.
  intros l n N. rewrite names_in, (pytree_iff l n N). unfold candidate. split.
  - intros [A [B [d [I T]]]]. split; [split; [|exists d; exact I]|exists d; auto]. destruct (reserved n) eqn:R; [|reflexivity]. apply reserved_iff in R. destruct R; contradiction.
  - intros [[R _] [d [I T]]]. assert (~ (n = "metrics" \/ n = "AUTO")) as Q by (rewrite <- reserved_iff; congruence). split; [intros X; apply Q; auto|]. split; [intros X; apply Q; auto|]. exists d. auto.
Qed.

(** The first that is valid *)
Lemma first_valid_iff : forall y p names, y <> Safetensors ->
  match first_valid y p names with
  | Some n => exists pre post, names = (pre ++ n :: post)%list /\ is_pytree n (entries p) = true /\ forall m, In m pre -> is_pytree m (entries p) = false
  | None => forall m, In m names -> is_pytree m (entries p) = false
  end.
Proof.
  intros y p names Y. induction names as [|n r IH]; simpl; [intros m []|].
  assert ((exists u, validate y p (Some n) = Ok u) <-> is_pytree n (entries p) = true) as V.
  { destruct y; [| |contradiction]; simpl; unfold v1_validate, v0_validate; destruct (is_pytree n (entries p)); simpl; split; eauto; try discriminate; intros [u Q]; discriminate. }
  destruct (validate y p (Some n)) as [u|e].
  - exists [], r. split; [reflexivity|]. split; [apply V; eauto|intros m []].
  - assert (is_pytree n (entries p) = false) as F by (destruct (is_pytree n (entries p)); [destruct (proj2 V eq_refl); discriminate|reflexivity]).
    destruct (first_valid y p r) as [k|].
    + destruct IH as [pre [post [-> [A B]]]]. exists (n :: pre), post. split; [reflexivity|]. split; [exact A|]. intros m [<-|I]; auto.
    + intros m [<-|I]; auto.
Qed.

Lemma chosen_first : forall y p l, y <> Safetensors -> entries p = l -> NoDup (map fst l) -> forall n, first_valid y p (checkpointable_names l) = Some n <-> chosen l n.
Proof.
  intros y p l Y El N n. pose proof (first_valid_iff y p (checkpointable_names l) Y) as F. rewrite El in F. split.
  - intros E. rewrite E in F. destruct F as [pre [post [A [B C]]]].
    assert (candidate l n) as Cn by (apply (candidate_iff l n N); split; [rewrite A; apply in_or_app; right; left; reflexivity|exact B]).
    split; [exact Cn|]. destruct (string_dec n "state") as [->|M]; [left; reflexivity|]. right. split.
    + intros Cs. apply (candidate_iff l _ N) in Cs. destruct Cs as [I P]. pose proof (names_state l pre n post A M I) as J. rewrite (C _ J) in P. discriminate.
    + intros m Cm. apply (candidate_iff l _ N) in Cm. destruct Cm as [I P]. apply (names_order l pre n post A M m I). intros J. rewrite (C _ J) in P. discriminate.
  - intros [Cn H]. destruct (first_valid y p (checkpointable_names l)) as [k|].
    + f_equal. destruct F as [pre [post [A [B C]]]].
      assert (candidate l k) as Ck by (apply (candidate_iff l k N); split; [rewrite A; apply in_or_app; right; left; reflexivity|exact B]).
      apply (candidate_iff l n N) in Cn. destruct Cn as [In_ Pn]. assert (~ In n pre) as J by (intros J; rewrite (C _ J) in Pn; discriminate).
      destruct (string_dec k "state") as [->|M].
      * destruct H as [->|[H _]]; [reflexivity|contradiction].
      * destruct H as [->|[H1 H2]]; [exfalso; exact (J (names_state l pre k post A M In_))|].
        pose proof (names_order l pre k post A M n In_ J) as O1. pose proof (H2 k Ck) as O2. apply String.leb_antisym; assumption.
    + exfalso. apply (candidate_iff l n N) in Cn. destruct Cn as [I P]. rewrite (F n I) in P. discriminate.
Qed.

Lemma chosen_none : forall y p l, y <> Safetensors -> entries p = l -> NoDup (map fst l) -> (first_valid y p (checkpointable_names l) = None <-> forall n, ~ candidate l n).
Proof.
  intros y p l Y El N. pose proof (first_valid_iff y p (checkpointable_names l) Y) as F. rewrite El in F. split.
  - intros E n Cn. rewrite E in F. apply (candidate_iff l n N) in Cn. destruct Cn as [I P]. rewrite (F n I) in P. discriminate.
  - intros H. destruct (first_valid y p (checkpointable_names l)) as [k|] eqn:E; [|reflexivity]. apply (chosen_first y p l Y El N) in E. exfalso. exact (H k (proj1 E)).
Qed.

(** ** Which layout *)

Lemma v1_iff : forall p, v1_validate_checkpointables p = Ok tt <-> new_checkpoint p.
Proof.
  intros p. unfold v1_validate_checkpointables, v1_check, new_checkpoint. destruct (p_node p) as [[c|l]|]; simpl; try (split; [discriminate|intros [l [Q _]]; discriminate]).
  destruct (p_temporary p); simpl; [split; [discriminate|intros [k [_ [Q _]]]; discriminate]|].
  destruct (holds checkpoint_metadata_file l) eqn:A; simpl.
  - destruct (holds indicator_file l) eqn:B; simpl.
    + split; [|reflexivity]. intros _. exists l. split; [reflexivity|]. split; [reflexivity|]. split; apply holds_iff; assumption.
    + split; [discriminate|]. intros [k [Q [_ [_ T]]]]. injection Q as <-. apply holds_iff in T. unfold indicator_file in B. congruence.
  - split; [discriminate|]. intros [k [Q [_ [T _]]]]. injection Q as <-. apply holds_iff in T. unfold checkpoint_metadata_file in A. congruence.
Qed.

Lemma v0_iff : forall p, v0_validate_checkpointables p = Ok tt <-> old_checkpoint p.
Proof.
  intros p. unfold v0_validate_checkpointables, v0_check, old_checkpoint. destruct (p_node p) as [[c|l]|]; simpl; try (split; [discriminate|intros [l [Q _]]; discriminate]).
  destruct (p_temporary p); simpl; [split; [discriminate|intros [k [_ [Q _]]]; discriminate]|].
  destruct (p_parent_meta p); simpl; [split; [discriminate|intros [k [_ [_ [Q _]]]]; discriminate]|].
  destruct (holds checkpoint_metadata_file l) eqn:A; simpl.
  { split; [|reflexivity]. intros _. exists l. repeat (split; [reflexivity|]). left. apply holds_iff. exact A. }
  destruct (holds pytree_metadata_file l) eqn:B; simpl.
  { split; [|reflexivity]. intros _. exists l. repeat (split; [reflexivity|]). right. left. apply holds_iff. exact B. }
  destruct (existsb (fun x => child_holds checkpoint_metadata_file (snd x)) l) eqn:C; simpl.
  - split; [discriminate|]. intros [k [Q [_ [_ T]]]]. injection Q as <-. destruct T as [T|[T|T]]; [apply holds_iff in T; unfold checkpoint_metadata_file in A; congruence|apply holds_iff in T; unfold pytree_metadata_file in B; congruence|].
    apply existsb_exists in C. destruct C as [[n x] [I H]]. simpl in H. destruct x as [c|d]; [discriminate|]. simpl in H. apply holds_iff in H. exfalso. exact (T n d I H).
  - split; [|reflexivity]. intros _. exists l. repeat (split; [reflexivity|]). right. right. intros n d I T.
    assert (existsb (fun x => child_holds checkpoint_metadata_file (snd x)) l = true); [|congruence]. apply existsb_exists. exists (n, Dir d). split; [exact I|]. simpl. apply holds_iff. exact T.
Qed.

Lemma invalid_err : forall x e, as_invalid x = Err e -> (forall e', x = Err e' -> e' = FileNotFoundError \/ e' = ValueError \/ e' = OtherError) -> e = ValueError.
Proof. intros x e E H. destruct x as [u|e']; [discriminate|]. destruct (H e' eq_refl) as [-> | [-> | ->]]; simpl in E; congruence. Qed.

Lemma v1_err : forall p e, v1_validate_checkpointables p = Err e -> e = ValueError.
Proof.
  intros p e E. apply (invalid_err (v1_check p) e E). intros e' H. unfold v1_check in H. destruct (p_node p) as [[c|l]|]; try (injection H as <-; auto).
  destruct (p_temporary p); [injection H as <-; auto|]. destruct (holds checkpoint_metadata_file l); simpl in H; [destruct (holds indicator_file l); [discriminate|injection H as <-; auto]|injection H as <-; auto].
Qed.

Lemma v0_err : forall p e, v0_validate_checkpointables p = Err e -> e = ValueError.
Proof.
  intros p e E. apply (invalid_err (v0_check p) e E). intros e' H. unfold v0_check in H. destruct (p_node p) as [[c|l]|]; try (injection H as <-; auto).
  destruct (p_temporary p); [injection H as <-; auto|]. destruct (p_parent_meta p); [injection H as <-; auto|]. destruct (holds checkpoint_metadata_file l); simpl in H; [discriminate|].
  destruct (holds pytree_metadata_file l); [discriminate|]. destruct (existsb _ l); [injection H as <-; auto|discriminate].
Qed.

Lemma validate_err : forall y p n e, validate y p n = Err e -> e = ValueError.
Proof.
  intros [| |] p n e; simpl; [| |discriminate].
  - unfold v1_validate. intros E. apply (invalid_err _ e E). intros e' H. destruct n as [n|]; [|injection H as <-; auto]. destruct (is_pytree n (entries p)); [discriminate|injection H as <-; auto].
  - unfold v0_validate. intros E. apply (invalid_err _ e E). intros e' H. destruct n as [n|]; [destruct (is_pytree n (entries p))|destruct (holds pytree_metadata_file (entries p))]; try discriminate; injection H as <-; auto.
Qed.

Lemma entries_dir : forall p l, p_node p = Some (Dir l) -> entries p = l.
Proof. intros p l E. unfold entries. rewrite E. reflexivity. Qed.

(** ** What is saved *)

Lemma check_names_ok : forall names, check_names names = Ok tt <-> ~ In "" names /\ forall n, In n names -> reserved n = false.
Proof.
  intros names. unfold check_names. destruct (existsb (fun n => String.eqb n "") names) eqn:A.
  - split; [discriminate|]. intros [N _]. apply existsb_exists in A. destruct A as [n [I E]]. apply String.eqb_eq in E. subst n. contradiction.
  - assert (~ In "" names) as N. { intros I. assert (existsb (fun n => String.eqb n "") names = true); [|congruence]. apply existsb_exists. exists "". auto. }
    destruct (existsb reserved names) eqn:B.
    + split; [discriminate|]. intros [_ H]. apply existsb_exists in B. destruct B as [n [I E]]. rewrite (H n I) in E. discriminate.
    + split; [|reflexivity]. intros _. split; [exact N|]. intros n I. destruct (reserved n) eqn:R; [|reflexivity]. assert (existsb reserved names = true); [|congruence]. apply existsb_exists. exists n. auto.
Qed.

Lemma combine_f2 : forall (A B : Type) (P : A -> B -> Prop) l m, Forall2 P l m -> forall (C : Type) (f : A * B -> result C) k, sequence (map f (combine l m)) = Ok k ->
  Forall2 (fun x y => exists z, P x z /\ f (x, z) = Ok y /\ In z m) l k.
Proof.
  intros A B P l m F. induction F as [|x y l m Pxy F IH]; intros C f k E.
  - simpl in E. injection E as <-. constructor.
  - simpl in E. destruct (f (x, y)) as [z|e] eqn:Q; [|discriminate]. simpl in E. destruct (sequence (map f (combine l m))) as [k'|e] eqn:Q2; [|discriminate]. simpl in E. injection E as <-.
    constructor; [exists y; split; [exact Pxy|]; split; [exact Q|left; reflexivity]|]. specialize (IH C f k' Q2). clear - IH. induction IH as [|a b l k [z [P1 [P2 P3]]] _ IH]; constructor; [exists z; split; [exact P1|]; split; [exact P2|right; exact P3]|exact IH].
Qed.

Lemma save_parts : forall (O : Type) (W : world O) (I : io O) r cs d, save_checkpointables W I r cs = Ok d ->
  cs <> [] /\ check_names (map fst cs) = Ok tt /\ ~ In checkpoint_metadata_file (map fst cs) /\ exists hs dirs,
  Forall2 (fun c h => fst h = fst c /\ exists o, snd c = Some o /\ resolve_save W r (Some o) (fst c) = Ok (snd h)) cs hs /\
  Forall2 (fun c x => fst x = fst c /\ exists o h y, snd c = Some o /\ resolve_save W r (Some o) (fst c) = Ok h /\ io_save I h o = Ok y /\ snd x = Dir y) cs dirs /\
  d = (dirs ++ (if existsb (String.eqb indicator_file) (map fst cs) then [] else [(indicator_file, File (COther 0))]) ++ [(checkpoint_metadata_file, File (CMeta (SMany (saved_typestrs W hs))))])%list.
Proof.
  intros O W I r cs d E. unfold save_checkpointables in E.
  destruct (match cs with [] => Err ValueError | _ => check_names (map fst cs) end) as [u|e] eqn:C; [|discriminate]. cbn [rbind] in E.
  assert (cs <> [] /\ check_names (map fst cs) = Ok tt) as [C1 C2] by (destruct cs; [discriminate|]; split; [discriminate|]; destruct u; exact C).
  split; [exact C1|]. split; [exact C2|]. clear C C2. destruct (handlers_for_save W r cs) as [hs|e] eqn:H; [|discriminate]. cbn [rbind] in E.
  match type of E with rbind ?x _ = _ => destruct x as [dirs|e] eqn:S; [|discriminate] end. cbn [rbind] in E.
  destruct (existsb (String.eqb checkpoint_metadata_file) (map fst cs)) eqn:X; [discriminate|]. split.
  { intros Q. assert (existsb (String.eqb checkpoint_metadata_file) (map fst cs) = true); [|congruence]. apply existsb_exists. exists checkpoint_metadata_file. auto. }
  exists hs, dirs. unfold handlers_for_save in H. apply StepMeta_Proofs.seq_f2 in H.
  assert (Forall2 (fun (c : string * option O) (h : string * nat) => fst h = fst c /\ exists o, snd c = Some o /\ resolve_save W r (Some o) (fst c) = Ok (snd h)) cs hs) as F.
  { clear - H. induction H as [|[n c] [n' h] l m P F IH]; constructor; [|exact IH]. simpl in *. destruct (resolve_save W r c n) as [h'|] eqn:Q; [|discriminate]. simpl in P. injection P as <- <-. split; [reflexivity|]. destruct c as [o|]; [|discriminate]. exists o. auto. }
  split; [exact F|]. split; [|injection E as <-; reflexivity].
  pose proof (combine_f2 _ _ _ cs hs F _ _ dirs S) as G. clear - G. induction G as [|[n c] [n' x] l m [[n2 h] [[P1 [o [P2 P3]]] [P4 _]]] _ IH]; constructor; [|exact IH].
  simpl in *. subst n2 c. destruct (io_save I h o) as [y|] eqn:Q; [|discriminate]. simpl in P4. injection P4 as <- <-. split; [reflexivity|]. exists o, h, y. auto.
Qed.

Lemma f2_in_l : forall (A B : Type) (P : A -> B -> Prop) l m x, Forall2 P l m -> In x l -> exists y, In y m /\ P x y.
Proof. intros A B P l m x F. induction F as [|a b l m Pab F IH]; intros I; [destruct I|]. destruct I as [->|I]; [exists b; split; [left; reflexivity|exact Pab]|]. destruct (IH I) as [y [J Q]]. exists y. split; [right; exact J|exact Q]. Qed.

Lemma f2_in_r : forall (A B : Type) (P : A -> B -> Prop) l m y, Forall2 P l m -> In y m -> exists x, In x l /\ P x y.
Proof. intros A B P l m y F. induction F as [|a b l m Pab F IH]; intros I; [destruct I|]. destruct I as [->|I]; [exists a; split; [left; reflexivity|exact Pab]|]. destruct (IH I) as [x [J Q]]. exists x. split; [right; exact J|exact Q]. Qed.

Lemma f2_names : forall (A B C : Type) (P : A * B -> A * C -> Prop) l m, (forall x y, P x y -> fst y = fst x) -> Forall2 P l m -> map fst m = map fst l.
Proof. intros A B C P l m H F. induction F as [|a b l m Pab F IH]; [reflexivity|]. simpl. f_equal; [exact (H _ _ Pab)|exact IH]. Qed.

Lemma saved_facts : forall (O : Type) (W : world O) (I : io O) r cs d l, NoDup (map fst cs) -> save_checkpointables W I r cs = Ok d -> Permutation l d ->
  NoDup (map fst l) /\
  (forall n x, In (n, Dir x) l <-> exists o h, In (n, Some o) cs /\ resolve_save W r (Some o) n = Ok h /\ io_save I h o = Ok x) /\
  there indicator_file l /\ there checkpoint_metadata_file l /\
  (exists ts, read_metadata l = SMany ts /\ forall n o h, In (n, Some o) cs -> resolve_save W r (Some o) n = Ok h -> dget String.eqb n ts = Some (w_typestr W h)) /\
  (forall n, In n (map fst cs) -> n <> "" /\ reserved n = false).
Proof.
  intros O W I r cs d l N E P. destruct (save_parts O W I r cs d E) as [_ [C [M [hs [dirs [F1 [F2 Ed]]]]]]]. apply check_names_ok in C. destruct C as [C1 C2].
  assert (map fst dirs = map fst cs) as Nd by (apply (f2_names _ _ _ _ _ _ (fun x y H => proj1 H) F2)).
  assert (map fst hs = map fst cs) as Nh by (apply (f2_names _ _ _ _ _ _ (fun x y H => proj1 H) F1)).
  assert (forall x, In x l <-> In x d) as L by (intros x; split; apply Permutation_in; [|apply Permutation_sym]; exact P).
  assert (NoDup (map fst d)) as Nn.
  { rewrite Ed. rewrite !map_app, Nd. apply Surgery_Proofs.nodup_app_iff. split; [exact N|]. destruct (existsb (String.eqb indicator_file) (map fst cs)) eqn:X; cbn [map fst app].
    - split; [constructor; [intros []|constructor]|]. intros x Ix [Q|[]]. subst x. exact (M Ix).
    - split; [constructor; [intros [Q|[]]; discriminate|constructor; [intros []|constructor]]|]. intros x Ix [Q|[Q|[]]]; subst x; [|exact (M Ix)].
      assert (existsb (String.eqb indicator_file) (map fst cs) = true); [|congruence]. apply existsb_exists. exists indicator_file. auto. }
  assert (NoDup (map fst l)) as Nl by (eapply Permutation_NoDup; [apply Permutation_sym, Permutation_map; exact P|exact Nn]).
  assert (forall n x, In (n, Dir x) d <-> In (n, Dir x) dirs) as Dd.
  { intros n x. rewrite Ed, !in_app_iff. split; [|auto]. intros [Q|[Q|Q]]; [exact Q| |].
    - destruct (existsb (String.eqb indicator_file) (map fst cs)); [destruct Q|destruct Q as [Q|[]]; discriminate].
    - destruct Q as [Q|[]]; discriminate. }
  split; [exact Nl|]. split; [|split; [|split; [|split]]].
  - intros n x. rewrite L, Dd. split.
    + intros Q. destruct (f2_in_r _ _ _ _ _ _ F2 Q) as [[n' c] [J [Q1 [o [h [y [Q2 [Q3 [Q4 Q5]]]]]]]]]. simpl in *. subst n' c. injection Q5 as <-. exists o, h. auto.
    + intros [o [h [J [Q1 Q2]]]]. destruct (f2_in_l _ _ _ _ _ _ F2 J) as [[n' z] [K [Q3 [o' [h' [y [Q4 [Q5 [Q6 Q7]]]]]]]]]. simpl in *. subst n' z. injection Q4 as <-. rewrite Q1 in Q5. injection Q5 as <-. rewrite Q2 in Q6. injection Q6 as <-. exact K.
  - destruct (existsb (String.eqb indicator_file) (map fst cs)) eqn:X.
    + apply existsb_exists in X. destruct X as [s [X1 X2]]. apply String.eqb_eq in X2. subst s. rewrite <- Nd in X1. apply in_map_iff in X1. destruct X1 as [[n z] [X1 X2]]. simpl in X1. subst n. exists z. apply L. rewrite Ed. apply in_or_app. left. exact X2.
    + exists (File (COther 0)). apply L. rewrite Ed. apply in_or_app. right. left. reflexivity.
  - exists (File (CMeta (SMany (saved_typestrs W hs)))). apply L. rewrite Ed. apply in_or_app. right. apply in_or_app. right. left. reflexivity.
  - exists (saved_typestrs W hs). split.
    + unfold read_metadata. assert (look checkpoint_metadata_file l = Some (File (CMeta (SMany (saved_typestrs W hs))))) as ->; [|reflexivity]. apply (look_in _ _ _ Nl). apply L. rewrite Ed. apply in_or_app. right. apply in_or_app. right. left. reflexivity.
    + intros n o h J Q. destruct (f2_in_l _ _ _ _ _ _ F1 J) as [[n' h'] [K [Q1 [o' [Q2 Q3]]]]]. simpl in *. subst n'. injection Q2 as <-. rewrite Q in Q3. injection Q3 as <-.
      apply (Tree_Proofs.dget_in String.eqb String.eqb_spec).
      * unfold saved_typestrs. rewrite map_map. simpl. change (NoDup (map fst hs)). rewrite Nh. exact N.
      * unfold saved_typestrs. apply in_map_iff. exists (n, h). auto.
  - intros n J. split; [intros ->; exact (C1 J)|exact (C2 n J)].
Qed.

(** The handler that loads a part is the one that saved it. *)
Lemma same_handler : forall (O : Type) (W : world O) (I : io O) r cs d l n o h a, sane W r -> apart W r -> plain W r cs -> NoDup (map fst cs) -> save_checkpointables W I r cs = Ok d -> Permutation l d ->
  In (n, Some o) cs -> resolve_save W r (Some o) n = Ok h -> fits W a h -> single_for_load W r n a (saved_typestr n (read_metadata l)) = Ok h.
Proof.
  intros O W I r cs d l n o h a S A Pl N E P J R F. destruct (saved_facts O W I r cs d l N E P) as [_ [_ [_ [_ [[ts [Rm T]] _]]]]]. rewrite Rm. simpl. rewrite (T n o h J R).
  assert (exists k, In (h, k) (r_entries r)) as [k K].
  { apply (resolve_save_ok O W r o n S) in R. destruct R as [h _ [l1 [l2 [El _]]]|h _ [l1 [l2 [El _]]]|h _ [l1 [l2 [El _]]]]; eexists; rewrite El; apply in_or_app; right; left; reflexivity. }
  destruct (A h) as [A1 A2]; [apply in_map_iff; exists (h, k); auto|].
  unfold single_for_load. rewrite (C69_same O W r o n h a S R A1 A2 (Pl n o J) F). reflexivity.
Qed.

(** Loading of parts whose handlers are known *)
Lemma loads_known : forall (O : Type) (W : world O) (I : io O) r l a m, NoDup (map fst a) ->
  forall f : string -> option O -> nat, (forall n x, In (n, x) a -> single_for_load W r n x (saved_typestr n m) = Ok (f n x)) ->
  rbind (handlers_for_load W r a m) (fun hs => process_loads I l hs a) =
  sequence (map (fun x => match at_dir (io_load I (f (fst x) (snd x)) (snd x)) (fst x) l with Ok v => Ok (fst x, v) | Err _ => Err KeyError end) a).
Proof.
  intros O W I r l a m N f H. set (hs := map (fun x => (fst x, f (fst x) (snd x))) a).
  assert (handlers_for_load W r a m = Ok hs) as ->.
  { unfold handlers_for_load, hs. clear N. induction a as [|[n x] a IH]; [reflexivity|]. cbn [map sequence fst snd]. rewrite (H n x (or_introl eq_refl)). cbn [rmap rbind]. rewrite IH; [reflexivity|]. intros k y K. apply H. right. exact K. }
  cbn [rbind]. assert (forall n x, In (n, x) a -> fetch String.eqb hs n = Ok (f n x)) as F.
  { intros n x K. unfold fetch. assert (dget String.eqb n hs = Some (f n x)) as ->; [|reflexivity]. apply (Tree_Proofs.dget_in String.eqb String.eqb_spec).
    - unfold hs. rewrite map_map. simpl. exact N.
    - unfold hs. apply in_map_iff. exists (n, x). auto. }
  clearbody hs. clear N H. induction a as [|[n x] a IH]; [reflexivity|]. cbn [process_loads map sequence fst snd]. rewrite (F n x (or_introl eq_refl)). cbn [rbind].
  destruct (at_dir (io_load I (f n x) x) n l) as [v|e]; [|reflexivity]. rewrite IH; [|intros k y K; apply F; right; exact K].
  unfold rbind, rmap. destruct (sequence _); reflexivity.
Qed.
