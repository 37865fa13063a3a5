(** Proofs about the utilities for exports. *)
From Coq Require Import List Bool Arith NArith String Ascii Lia.
From Verif Require Import Base StepName_Model Tree_Model Parts_Proofs Export_Model Export_Spec.
Import ListNotations.
Local Open Scope string_scope.
Local Open Scope list_scope.
Local Open Scope nat_scope.

Lemma text_eqb_spec a b : reflect (a = b) (text_eqb a b).
Proof. unfold text_eqb. destruct (list_eq_dec ascii_dec a b); constructor; assumption. Qed.

Lemma ptree_ind' {A} (P : ptree A -> Prop) (Hl : forall a, P (PLeaf a)) (Hn : forall l, Forall (fun kv => P (snd kv)) l -> P (PNode l)) : forall t, P t.
Proof. fix IH 1. intros [a | l]; [apply Hl|]. apply Hn. induction l as [|x l IHl]; constructor; [apply IH | exact IHl]. Qed.

(** ** Defaults *)

Lemma existsb_def {V} (l : list (sleaf V)) : existsb is_def l = true <-> exists s v b, In (SDef s v b) l.
Proof.
  rewrite existsb_exists. split.
  - intros ([ | s v b | ] & H & E); try discriminate. now exists s, v, b.
  - intros (s & v & b & H). now exists (SDef s v b).
Qed.

Lemma existsb_spec' {V} (l : list (sleaf V)) : existsb is_spec l = true <-> exists s, In (SSpec s) l.
Proof.
  rewrite existsb_exists. split.
  - intros ([ s | | ] & H & E); try discriminate. now exists s.
  - intros (s & H). now exists (SSpec s).
Qed.

Definition val {V} (x : sleaf V) : option V := match x with SDef _ v _ => Some v | _ => None end.

Lemma values_ok {V} : forall (p : ptree (sleaf V)) t, values p = Ok t <-> pmap val p = pmap Some t.
Proof.
  induction p as [a | l IH] using ptree_ind'; intro t.
  - destruct a as [s | s v b | ]; cbn; split; intro H; try discriminate; destruct t; cbn in *; try discriminate; congruence.
  - cbn [values pmap]. split.
    + destruct (sequence _) as [r|] eqn:E; cbn; [|discriminate]. intro H. injection H as <-. cbn [pmap]. f_equal.
      revert r E. induction IH as [|[k x] l Hx Hl IHl]; intros r E; cbn in E; [injection E as <-; reflexivity|].
      destruct (values x) as [y|] eqn:Ex; cbn in E; [|discriminate]. destruct (sequence _) as [r'|] eqn:Er; cbn in E; [|discriminate].
      injection E as <-. cbn. f_equal; [f_equal; now apply Hx | now apply IHl].
    + destruct t as [|r]; cbn [pmap]; intro H; [discriminate|]. injection H as H.
      cut (sequence (map (fun kv => rmap (pair (fst kv)) (values (snd kv))) l) = Ok r); [intros ->; reflexivity|].
      revert r H. induction IH as [|[k x] l Hx Hl IHl]; intros [|[k' y] r] H; cbn in H; try discriminate; [reflexivity|].
      cbn [fst snd] in *. assert (H1 : k = k') by congruence. assert (H2 : pmap val x = pmap Some y) by congruence. assert (H3 : map (fun kv => (fst kv, pmap val (snd kv))) l = map (fun kv => (fst kv, pmap Some (snd kv))) r) by congruence.
      subst k'. cbn. rewrite (proj2 (Hx y) H2). cbn. rewrite (IHl r H3). reflexivity.
Qed.

Lemma values_err {V} : forall (p : ptree (sleaf V)) e, values p = Err e -> e = AttributeError.
Proof.
  induction p as [a | l IH] using ptree_ind'; intro e; cbn [values].
  - destruct a; congruence.
  - destruct (sequence _) as [r|e'] eqn:E; cbn; [discriminate|]. intro H. injection H as <-. revert e' E.
    induction IH as [|[k x] l Hx Hl IHl]; intros e' E; cbn in E; [discriminate|]. destruct (values x) as [y|e''] eqn:Ex; cbn in E.
    + destruct (sequence _) as [r'|] eqn:Er; cbn in E; [discriminate|]. injection E as <-. now apply IHl.
    + injection E as <-. now apply Hx.
Qed.

Lemma leaves_pmap {A B} (f : A -> B) : forall t, pleaves (pmap f t) = map f (pleaves t).
Proof.
  induction t as [a | l IH] using ptree_ind'; [reflexivity|]. cbn [pmap pleaves]. induction IH as [|x l Hx Hl IHl]; [reflexivity|].
  cbn. rewrite map_app, <- IHl. f_equal. exact Hx.
Qed.

Lemma all_values {V} (p : ptree (sleaf V)) t : pmap val p = pmap Some t -> forall x, In x (pleaves p) -> exists s v b, x = SDef s v b.
Proof.
  intros H x Hx. pose proof (f_equal pleaves H) as E. rewrite !leaves_pmap in E.
  assert (Hv : In (val x) (map Some (pleaves t))) by (rewrite <- E; now apply in_map).
  apply in_map_iff in Hv as (v & Hv & _). destruct x as [s | s w b | ]; try discriminate. now exists s, w, b.
Qed.

Lemma get_default_ok {V} (p : ptree (sleaf V)) d : get_default p = Ok d <-> default_of p d.
Proof.
  unfold get_default. destruct (existsb is_def (pleaves p)) eqn:E; cbn [negb].
  - apply existsb_def in E as (s & v & b & E). destruct (existsb is_spec (pleaves p)) eqn:E2.
    + split; [discriminate|]. intro H. exfalso. apply existsb_spec' in E2 as (s' & E2). destruct H as [H | t s0 v0 b0 H0 H1].
      * eapply H. exact E.
      * destruct (all_values p t H1 _ E2) as (? & ? & ? & ?). discriminate.
    + split.
      * destruct (values p) as [t|] eqn:Ev; cbn; [|discriminate]. intro H. injection H as <-. eapply do_some; [exact E|]. apply values_ok. exact Ev.
      * intro H. destruct H as [H | t s0 v0 b0 H0 H1]; [exfalso; eapply H; exact E|]. now rewrite (proj2 (values_ok p t) H1).
  - split.
    + intro H. injection H as <-. constructor. intros s v b H. assert (existsb is_def (pleaves p) = true) by (apply existsb_def; now exists s, v, b). congruence.
    + intro H. destruct H as [H | t s0 v0 b0 H0 H1]; [reflexivity|]. assert (existsb is_def (pleaves p) = true) by (apply existsb_def; now exists s0, v0, b0). congruence.
Qed.

Lemma get_default_mixed {V} (p : ptree (sleaf V)) s v b s' : In (SDef s v b) (pleaves p) -> In (SSpec s') (pleaves p) -> get_default p = Err ValueError.
Proof.
  intros H H'. unfold get_default. rewrite (proj2 (existsb_def _)) by (now exists s, v, b). rewrite (proj2 (existsb_spec' _)) by (now exists s'). reflexivity.
Qed.

Lemma signature_spec {V} : forall (l : list (option V)) seen, signature_ok seen l = false <->
  (seen = true /\ In None l) \/ exists i j v, i < j /\ nth_error l i = Some (Some v) /\ nth_error l j = Some None.
Proof.
  induction l as [|[v|] l IH]; intro seen; cbn [signature_ok].
  - split; [discriminate|]. intros [[_ []] | (i & j & v & _ & H & _)]. destruct i; discriminate.
  - rewrite IH. split.
    + intros [[_ H] | (i & j & w & A & B & C)].
      * right. apply In_nth_error in H as (j & H). exists 0, (S j), v. split; [lia|]. split; [reflexivity | exact H].
      * right. exists (S i), (S j), w. split; [lia|]. split; assumption.
    + intros [[_ [H|H]] | (i & j & w & A & B & C)]; [discriminate | left; now split |].
      destruct j as [|j]; [lia|]. cbn in C. left. split; [reflexivity|]. eapply nth_error_In. exact C.
  - rewrite andb_false_iff, negb_false_iff, IH. split.
    + intros [-> | [[H _] | (i & j & w & A & B & C)]]; [left; split; [reflexivity | now left] | discriminate |].
      right. exists (S i), (S j), w. split; [lia|]. split; assumption.
    + intros [[-> _] | (i & j & w & A & B & C)]; [now left|]. right. right. destruct i as [|i]; [discriminate|]. destruct j as [|j]; [lia|].
      exists i, j, w. split; [lia|]. split; assumption.
Qed.

Lemma bind_spec {V} : forall (params : list (text * option V)) args kwargs out, bind_args params args kwargs = Ok out <-> bound params args kwargs out.
Proof.
  induction params as [|[n d] r IH]; intros args kwargs out; cbn [bind_args].
  - destruct args as [|a args].
    + split; [intro H; injection H as <- | intros (H & _)].
      * split; [reflexivity|]. split; [cbn; lia|]. intros [|i] ? ? ? H; discriminate.
      * destruct out; [reflexivity | discriminate].
    + split; [discriminate|]. intros (_ & H & _). cbn in H. lia.
  - assert (HC : forall args' x out', (bound ((n, d) :: r) args' kwargs (x :: out') <-> bound r (tl args') kwargs out' /\ match args' with a :: _ => x = a /\ dget text_eqb n kwargs = None | [] => dget text_eqb n kwargs = Some x \/ (dget text_eqb n kwargs = None /\ d = Some x) end)).
    { intros args' x out'. split.
      - intros (A & B & C). split.
        + cbn in A, B. split; [lia|]. split; [destruct args'; cbn in *; lia|]. intros i n' d' y H1 H2. specialize (C (S i) n' d' y H1 H2). destruct args' as [|a args']; cbn in *; [destruct i; exact C | exact C].
        + specialize (C 0 n d x eq_refl eq_refl). destruct args'; exact C.
      - intros ((A & B & C) & D). split; [cbn; lia|]. split; [destruct args'; cbn in *; lia|]. intros [|i] n' d' y H1 H2; cbn in H1, H2.
        + injection H1 as <- <-. injection H2 as <-. destruct args'; exact D.
        + specialize (C i n' d' y H1 H2). destruct args' as [|a args']; cbn in *; [destruct i; exact C | exact C]. }
    destruct args as [|a args].
    + destruct (dget text_eqb n kwargs) as [v|] eqn:E.
      * split.
        -- destruct (bind_args r [] kwargs) as [o|] eqn:Eb; cbn; [|discriminate]. intro H. injection H as <-. apply HC. split; [now apply IH | now left].
        -- intro H. destruct out as [|x out]; [destruct H as (H & _); discriminate|]. apply HC in H as (H & H'). cbn [tl] in H. rewrite (proj2 (IH _ _ _) H). cbn. destruct H' as [H' | [H' _]]; congruence.
      * destruct d as [v|].
        -- split.
           ++ destruct (bind_args r [] kwargs) as [o|] eqn:Eb; cbn; [|discriminate]. intro H. injection H as <-. apply HC. split; [now apply IH | now right].
           ++ intro H. destruct out as [|x out]; [destruct H as (H & _); discriminate|]. apply HC in H as (H & H'). cbn [tl] in H. rewrite (proj2 (IH _ _ _) H). cbn. destruct H' as [H' | [_ H']]; congruence.
        -- split; [discriminate|]. intro H. destruct out as [|x out]; [destruct H as (H & _); discriminate|]. apply HC in H as (_ & H'). destruct H' as [H' | [_ H']]; congruence.
    + destruct (dget text_eqb n kwargs) as [v|] eqn:E.
      * split; [discriminate|]. intro H. destruct out as [|x out]; [destruct H as (H & _); discriminate|]. apply HC in H as (_ & _ & H'). congruence.
      * split.
        -- destruct (bind_args r args kwargs) as [o|] eqn:Eb; cbn; [|discriminate]. intro H. injection H as <-. apply HC. split; [now apply IH | now split].
        -- intro H. destruct out as [|x out]; [destruct H as (H & _); discriminate|]. apply HC in H as (H & -> & _). cbn [tl] in H. now rewrite (proj2 (IH _ _ _) H).
Qed.

Lemma get_defaults_ok {V} : forall (sig : list (ptree (sleaf V))) ds, get_defaults sig = Ok ds <-> Forall2 default_of sig ds.
Proof.
  unfold get_defaults. induction sig as [|p sig IH]; intro ds; cbn.
  - split; [intro H; injection H as <-; constructor | intro H; inversion H; reflexivity].
  - split.
    + destruct (get_default p) as [d|] eqn:E; cbn; [|discriminate]. destruct (sequence _) as [r|] eqn:Er; cbn; [|discriminate]. intro H. injection H as <-.
      constructor; [now apply get_default_ok | now apply IH].
    + intro H. inversion H as [|? ? ? r H1 H2]; subst. rewrite (proj2 (get_default_ok _ _) H1). cbn. rewrite (proj2 (IH _) H2). reflexivity.
Qed.

Lemma with_default {V B} (f : list (ptree V) -> result B) names sig ds : Forall2 default_of sig ds ->
  (forall i j v, i < j -> nth_error ds i = Some (Some v) -> nth_error ds j <> Some None) ->
  exists g, with_default_args f names sig = Ok g /\
    forall args kwargs y, g args kwargs = Ok y <-> (forall k v, In (k, v) kwargs -> In k (map fst (combine names ds))) /\ exists out, bound (combine names ds) args kwargs out /\ f out = Ok y.
Proof.
  intros H Ho. unfold with_default_args. rewrite (proj2 (get_defaults_ok _ _) H). cbn [rbind].
  assert (HS : signature_ok false ds = true).
  { destruct (signature_ok false ds) eqn:E; [reflexivity|]. apply signature_spec in E as [[E _] | (i & j & v & A & B' & C)]; [discriminate|]. exfalso. eapply Ho; eassumption. }
  rewrite HS, orb_true_r. eexists. split; [reflexivity|]. intros args kwargs y. cbn beta.
  match goal with |- context[if ?b then _ else _] => destruct b eqn:E end.
  - split; [discriminate|]. intros (HK & _). apply existsb_exists in E as ([k v] & Hk & E). cbn in E. apply negb_true_iff in E.
    assert (existsb (text_eqb k) (map fst (combine names ds)) = true); [|congruence]. apply existsb_exists. exists k. split; [eapply HK; exact Hk|]. destruct (text_eqb_spec k k); congruence.
  - split.
    + destruct (bind_args _ _ _) as [out|] eqn:Eb; cbn; [|discriminate]. intro Hf. split; [|exists out; split; [now apply bind_spec | exact Hf]].
      intros k v Hk. destruct (existsb (text_eqb k) (map fst (combine names ds))) eqn:Ek.
      * apply existsb_exists in Ek as (k' & Hk' & Ek). destruct (text_eqb_spec k k'); [now subst | discriminate].
      * assert (existsb (fun kv => negb (existsb (text_eqb (fst kv)) (map fst (combine names ds)))) kwargs = true); [|congruence]. apply existsb_exists. exists (k, v). split; [exact Hk|]. cbn. now rewrite Ek.
    + intros (_ & out & Hb & Hf). rewrite (proj2 (bind_spec _ _ _ _) Hb). exact Hf.
Qed.

Lemma with_default_order {V B} (f : list (ptree V) -> result B) names sig ds i j v : Forall2 default_of sig ds -> i < j -> nth_error ds i = Some (Some v) -> nth_error ds j = Some None -> with_default_args f names sig = Err ValueError.
Proof.
  intros H A B' C. unfold with_default_args. rewrite (proj2 (get_defaults_ok _ _) H). cbn [rbind].
  assert (HS : signature_ok false ds = false) by (apply signature_spec; right; now exists i, j, v). rewrite HS, orb_false_r.
  destruct (forallb _ ds) eqn:E; [|reflexivity]. rewrite forallb_forall in E. apply nth_error_In in B'. apply E in B'. discriminate.
Qed.

(** ** Batching *)

Lemma primary_in : forall l n, primary_size l = Some n -> exists x, In (x, true) l /\ List.length x = n.
Proof.
  induction l as [|[x p] l IH]; intros n H; cbn in H; [discriminate|]. destruct p.
  - injection H as <-. exists x. split; [now left | reflexivity].
  - destruct (IH _ H) as (y & A & B). exists y. split; [now right | exact B].
Qed.

Lemma primary_none : forall l, primary_size l = None -> forall x, ~ In (x, true) l.
Proof. induction l as [|[x p] l IH]; intros H y; [intros []|]. cbn in H. destruct p; [discriminate|]. intros [E|E]; [congruence | now apply (IH H y)]. Qed.

Lemma batch_one_ok n p o : batch_one n p = Ok o -> batched n p o.
Proof.
  destruct p as [x []]; unfold batch_one; cbn [fst snd].
  - destruct (n =? List.length x) eqn:E; [|discriminate]. apply Nat.eqb_eq in E. intro H. injection H as <-. now constructor.
  - unfold repeat_to_batch. destruct x as [|r [|r' x]].
    + destruct (_ =? n) eqn:E; [|discriminate]. apply Nat.eqb_eq in E. intro H. injection H as <-. now constructor.
    + intro H. injection H as <-. constructor.
    + destruct (_ =? n) eqn:E; [|discriminate]. apply Nat.eqb_eq in E. intro H. injection H as <-. now constructor.
Qed.

Lemma batched_length n p o : batched n p o -> List.length o = n.
Proof. destruct 1; [assumption | apply repeat_length]. Qed.

Lemma seq_batch n : forall l outs, sequence (map (batch_one n) l) = Ok outs -> Forall2 (batched n) l outs.
Proof.
  induction l as [|p l IH]; intros outs H; cbn in H; [injection H as <-; constructor|].
  destruct (batch_one n p) as [o|] eqn:E; cbn in H; [|discriminate]. destruct (sequence _) as [r|] eqn:Er; cbn in H; [|discriminate]. injection H as <-.
  constructor; [now apply batch_one_ok | now apply IH].
Qed.

Lemma auto_batch_ok flags args outs : auto_batch flags args = Ok outs ->
  List.length args = List.length flags /\ exists n, (exists x, In (x, true) (combine args flags) /\ List.length x = n) /\ Forall2 (batched n) (combine args flags) outs /\ Forall (fun o => List.length o = n) outs.
Proof.
  unfold auto_batch. destruct (_ =? _) eqn:E; cbn [negb]; [|discriminate]. apply Nat.eqb_eq in E.
  destruct (primary_size _) as [n|] eqn:Ep; [|discriminate]. intro H. apply seq_batch in H. split; [exact E|]. exists n. split; [now apply primary_in|]. split; [exact H|].
  clear - H. induction H; constructor; auto. eapply batched_length. eassumption.
Qed.

Lemma auto_batch_complete flags (args : list tens) n : List.length args = List.length flags -> In true flags ->
  (forall x p, In (x, p) (combine args flags) -> List.length x = n \/ (p = false /\ List.length x = 1)) -> exists outs, auto_batch flags args = Ok outs.
Proof.
  intros Hl Ht Hn. unfold auto_batch. replace (negb _) with false by (rewrite Hl, Nat.eqb_refl; reflexivity). destruct (primary_size _) as [m|] eqn:E.
  - destruct (primary_in _ _ E) as (x & Hx & <-). destruct (Hn _ _ Hx) as [-> | [H _]]; [|discriminate].
    clear E Hx. revert Hn. generalize (combine args flags) as l. clear. induction l as [|[x p] l IH]; intro Hn; [eexists; reflexivity|].
    destruct IH as (outs & IH); [intros; apply Hn; now right|]. cbn [map sequence].
    assert (exists o, batch_one n (x, p) = Ok o) as (o & ->).
    { destruct (Hn x p (or_introl eq_refl)) as [H | [-> H]]; unfold batch_one; cbn [fst snd].
      - destruct p; [rewrite H, Nat.eqb_refl; eexists; reflexivity|]. unfold repeat_to_batch. destruct x as [|r [|r' x]]; try (eexists; reflexivity); rewrite H, Nat.eqb_refl; eexists; reflexivity.
      - destruct x as [|r [|r' x]]; try discriminate. eexists. reflexivity. }
    cbn. rewrite IH. eexists. reflexivity.
  - exfalso. apply In_nth_error in Ht as (i & Ht). assert (Hi : i < List.length args) by (rewrite Hl; apply nth_error_Some; congruence).
    destruct (nth_error args i) as [x|] eqn:Ex; [|apply nth_error_None in Ex; lia]. eapply (primary_none _ E x).
    clear - Ht Ex. revert flags i Ht Ex. induction args as [|a args IH]; intros [|f flags] [|i] Ht Ex; cbn in *; try discriminate.
    + left. congruence.
    + right. eapply IH; eassumption.
Qed.

Lemma primaries_ok {V} : forall (l : list (sleaf V)) flags, primaries l = Ok flags <-> Forall2 (fun x b => match x with SSpec _ => b = true | SDef _ _ p => b = p | SOther => False end) l flags.
Proof.
  induction l as [|x l IH]; intro flags; cbn [primaries].
  - split; [intro H; injection H as <-; constructor | intro H; inversion H; reflexivity].
  - split.
    + destruct x as [s | s v p | ]; try discriminate; destruct (primaries l) as [r|] eqn:E; cbn; try discriminate; intro H; injection H as <-; constructor; try reflexivity; now apply IH.
    + intro H. inversion H as [|? b ? r H1 H2]; subst. apply IH in H2. destruct x; try contradiction; subst; rewrite H2; reflexivity.
Qed.

(** ** Files *)

Lemma strip_app p q : strip p (p ++ q) = Some q.
Proof. induction p as [|a p IH]; cbn; [reflexivity|]. destruct (ascii_dec a a); [exact IH | congruence]. Qed.

Lemma strip_some : forall p q r, strip p q = Some r -> q = p ++ r.
Proof.
  induction p as [|a p IH]; intros q r H; cbn [strip] in H; [injection H as ->; reflexivity|].
  destruct q as [|b q]; [discriminate|]. destruct (ascii_dec a b) as [-> | N]; [|discriminate]. cbn. f_equal. now apply IH.
Qed.

Lemma unsuffix_app k : unsuffix (k ++ suffix) = Some k.
Proof. unfold unsuffix. rewrite rev_app_distr, strip_app. cbn. now rewrite rev_involutive. Qed.

Lemma dput_absent {V} k (v : V) : forall d, dget text_eqb k d = None -> dput text_eqb k v d = d ++ [(k, v)].
Proof. induction d as [|[k' w] d IH]; cbn [dget dput app]; intro H; [reflexivity|]. destruct (text_eqb k k'); [discriminate|]. now rewrite IH. Qed.

Lemma dget_app {V} k (d e : dict text V) : dget text_eqb k (d ++ e) = match dget text_eqb k d with Some v => Some v | None => dget text_eqb k e end.
Proof. induction d as [|[k' w] d IH]; cbn; [reflexivity|]. destruct (text_eqb k k'); [reflexivity | exact IH]. Qed.

Lemma dget_none {V} k (d : dict text V) : dget text_eqb k d = None <-> ~ In k (map fst d).
Proof.
  induction d as [|[k' w] d IH]; cbn; [tauto|]. destruct (text_eqb_spec k k') as [-> | N]; [split; [discriminate | tauto]|]. rewrite IH. intuition congruence.
Qed.

(** A directory by its full path, without a slash at the end *)
Definition absolute (dir : text) : Prop := exists r c, dir = "/"%char :: r ++ [c] /\ c <> "/"%char.

Lemma join_base dir x : absolute dir -> (forall y, x <> "/"%char :: y) -> join dir x = dir ++ "/"%char :: x.
Proof.
  intros (r & c & -> & Hc) Hx. unfold join.
  assert (HR : rev ("/"%char :: r ++ [c]) = c :: rev ("/"%char :: r)) by (cbn; rewrite rev_app_distr; reflexivity).
  assert (HM : (match rev ("/"%char :: r ++ [c]) with [] => x | "/"%char :: _ => ("/"%char :: r ++ [c]) ++ x | _ => ("/"%char :: r ++ [c]) ++ "/"%char :: x end) = ("/"%char :: r ++ [c]) ++ "/"%char :: x).
  { rewrite HR. destruct c as [[] [] [] [] [] [] [] []]; try reflexivity. now contradiction Hc. }
  destruct x as [|a x]; [exact HM|]. destruct a as [[] [] [] [] [] [] [] []]; try exact HM. exfalso. now apply (Hx x).
Qed.

Lemma join_abs dir x : join dir ("/"%char :: x) = "/"%char :: x.
Proof. reflexivity. Qed.

Lemma key_start k : ~ In "/"%char k -> forall y, k ++ suffix <> "/"%char :: y.
Proof. intros H y E. destruct k as [|c k]; cbn in E; [discriminate|]. injection E as -> _. apply H. now left. Qed.

Definition at_ (dir k : text) : text := dir ++ "/"%char :: k ++ suffix.

Lemma join_twice dir k : absolute dir -> ~ In "/"%char k -> join dir (join dir (k ++ suffix)) = at_ dir k.
Proof. intros Ha Hk. rewrite (join_base dir (k ++ suffix) Ha (key_start k Hk)). destruct Ha as (r & c & -> & _). apply join_abs. Qed.

Lemma parent_slash p x : ~ In "/"%char x -> parent (p ++ "/"%char :: x) = p.
Proof.
  intro Hx. unfold parent. rewrite rev_app_distr. cbn [rev]. rewrite <- app_assoc. cbn [app].
  assert (H : forall y z, ~ In "/"%char y -> (fix drop (l : list ascii) : list ascii := match l with [] => [] | "/"%char :: r => r | _ :: r => drop r end) (y ++ "/"%char :: z) = z).
  { induction y as [|c y IH]; intros z Hy; [reflexivity|]. cbn [app]. assert (Hc : c <> "/"%char) by (intros ->; apply Hy; now left).
    specialize (IH z (fun h => Hy (or_intror h))). destruct c as [[] [] [] [] [] [] [] []]; try exact IH. now contradiction Hc. }
  rewrite H; [apply rev_involutive|]. intro Hi. apply Hx. now apply in_rev.
Qed.

Lemma suffix_no_slash : ~ In "/"%char suffix.
Proof. cbn. intuition discriminate. Qed.

Lemma no_slash_app k : ~ In "/"%char k -> ~ In "/"%char (k ++ suffix).
Proof. intros H Hi. apply in_app_or in Hi as [Hi|Hi]; [now apply H | now apply suffix_no_slash]. Qed.

Lemma at_inj dir k k' : at_ dir k = at_ dir k' -> k = k'.
Proof. unfold at_. intro H. apply app_inv_head in H. injection H as H. now apply app_inv_tail in H. Qed.

Definition entries (dir : text) (m : dict text N) : fs := map (fun kv => (at_ dir (fst kv), Some (snd kv))) m.

Lemma save_all_ok flat dir : absolute dir -> forall m d, dget text_eqb dir d = Some None -> NoDup (map fst m) -> (forall k, In k (map fst m) -> ~ In "/"%char k) -> (forall k, In k (map fst m) -> dget text_eqb (at_ dir k) d = None) ->
  save_all flat dir m d = (d ++ entries dir m, Ok tt).
Proof.
  intro Ha. induction m as [|[k v] m IH]; intros d Hd Hn Hs Hf; cbn [save_all].
  - cbn. now rewrite app_nil_r.
  - assert (Hk : ~ In "/"%char k) by (apply Hs; now left). rewrite (join_twice dir k Ha Hk). unfold save_one. rewrite (Hf k (or_introl eq_refl)). unfold write.
    assert (HP : parent (at_ dir k) = dir) by (apply parent_slash; now apply no_slash_app). rewrite HP, Hd, orb_true_r.
    rewrite (dput_absent _ _ _ (Hf k (or_introl eq_refl))). inversion Hn as [|? ? Hn1 Hn2]; subst. rewrite IH.
    + cbn [entries map fst snd]. now rewrite <- app_assoc.
    + rewrite dget_app, Hd. reflexivity.
    + exact Hn2.
    + intros; apply Hs; now right.
    + intros k' Hk'. rewrite dget_app, (Hf k' (or_intror Hk')). cbn. destruct (text_eqb_spec (at_ dir k') (at_ dir k)) as [E|]; [|reflexivity]. apply at_inj in E. subst. contradiction.
Qed.

Lemma child_at dir k : absolute dir -> ~ In "/"%char k -> child dir (at_ dir k) = Some (k ++ suffix).
Proof.
  intros Ha Hk. unfold child. rewrite (join_base dir [] Ha) by discriminate. unfold at_. replace (dir ++ "/"%char :: k ++ suffix) with ((dir ++ ["/"%char]) ++ k ++ suffix) by (now rewrite <- app_assoc).
  rewrite strip_app. destruct (k ++ suffix) as [|c n] eqn:E; [destruct k; discriminate|]. rewrite <- E.
  destruct (existsb (Ascii.eqb "/"%char) (k ++ suffix)) eqn:Ex; [|reflexivity]. apply existsb_exists in Ex as (x & Hx & Ex). apply Ascii.eqb_eq in Ex. subst x. exfalso. eapply no_slash_app; eassumption.
Qed.

Lemma child_dir dir : absolute dir -> child dir dir = None.
Proof.
  intro Ha. unfold child. rewrite (join_base dir [] Ha) by discriminate. destruct (strip (dir ++ ["/"%char]) dir) as [r|] eqn:E; [|reflexivity].
  apply strip_some in E. apply (f_equal (@List.length ascii)) in E. rewrite !app_length in E. cbn in E. lia.
Qed.

Lemma listdir_ok dir m d : absolute dir -> (forall p, In p (map fst d) -> child dir p = None) -> (forall k, In k (map fst m) -> ~ In "/"%char k) ->
  listdir dir (d ++ [(dir, None)] ++ entries dir m) = map (fun kv => fst kv ++ suffix) m.
Proof.
  intros Ha Hd Hs. unfold listdir. rewrite !map_app, !concat_app.
  assert (H1 : List.concat (map (fun e : text * option N => match child dir (fst e) with Some n => [n] | None => [] end) d) = []).
  { clear - Hd. induction d as [|e d IH]; [reflexivity|]. cbn. rewrite (Hd (fst e)) by (now left). apply IH. intros; apply Hd; now right. }
  rewrite H1. cbn [map List.concat fst app]. rewrite (child_dir dir Ha). cbn [app].
  induction m as [|[k v] m IH]; [reflexivity|]. cbn. rewrite (child_at dir k Ha) by (apply Hs; now left). cbn. f_equal. apply IH. intros; apply Hs; now right.
Qed.

Lemma get_entry dir m d k v : ~ In (at_ dir k) (map fst d) -> NoDup (map fst m) -> In (k, v) m -> dget text_eqb (at_ dir k) (d ++ entries dir m) = Some (Some v).
Proof.
  intros Hd Hn Hi. rewrite dget_app. rewrite (proj2 (dget_none _ _) Hd). clear Hd. induction m as [|[k' v'] m IH]; [destruct Hi|]. cbn.
  inversion Hn as [|? ? Hn1 Hn2]; subst. destruct (text_eqb_spec (at_ dir k) (at_ dir k')) as [E | N].
  - apply at_inj in E. subst k'. destruct Hi as [E|Hi]; [congruence|]. exfalso. apply Hn1. apply in_map_iff. now exists (k, v).
  - destruct Hi as [E|Hi]; [congruence|]. now apply IH.
Qed.

Lemma load_fold dir d : absolute dir -> forall m m0, NoDup (map fst (m0 ++ m)) -> (forall k, In k (map fst m) -> ~ In "/"%char k) -> (forall k v, In (k, v) m -> dget text_eqb (at_ dir k) d = Some (Some v)) ->
  fold_left (fun r n => rbind r (fun m => match unsuffix n with None => Ok m | Some k => rmap (fun v => dput text_eqb k v m) (load_one d (join dir n)) end)) (map (fun kv => fst kv ++ suffix) m) (Ok m0) = Ok (m0 ++ m).
Proof.
  intro Ha. induction m as [|[k v] m IH]; intros m0 Hn Hs Hg; cbn [map fold_left fst rbind]; [now rewrite app_nil_r|].
  assert (Hk : ~ In "/"%char k) by (apply Hs; now left).
  rewrite unsuffix_app. rewrite (join_base dir _ Ha (key_start k Hk)). change (dir ++ "/"%char :: k ++ suffix) with (at_ dir k). unfold load_one at 2. rewrite (Hg k v (or_introl eq_refl)). cbn [rmap].
  rewrite dput_absent.
  - rewrite IH; [now rewrite <- app_assoc | now rewrite <- app_assoc | intros; apply Hs; now right | intros; apply Hg; now right].
  - apply dget_none. rewrite map_app in Hn. cbn in Hn. apply NoDup_remove_2 in Hn. intro Hi. apply Hn. apply in_or_app. now left.
Qed.

Lemma round_trip flat dir m d : absolute dir -> m <> [] -> NoDup (map fst m) -> (forall k, In k (map fst m) -> ~ In "/"%char k) ->
  dget text_eqb dir d = None -> (forall p, In p (map fst d) -> child dir p = None) ->
  exists d', save_map flat dir m d = (d', Ok tt) /\ load_map dir d' = Ok m /\ forall p, In p (map fst d) -> dget text_eqb p d' = dget text_eqb p d.
Proof.
  intros Ha Hm Hn Hs Hd Hc. assert (HF : forall k, In k (map fst m) -> ~ In (at_ dir k) (map fst (d ++ [(dir, None)]))).
  { intros k Hk Hi. rewrite map_app in Hi. apply in_app_or in Hi as [Hi | [Hi|[]]].
    - apply Hc in Hi. rewrite (child_at dir k Ha) in Hi by (now apply Hs). discriminate.
    - cbn in Hi. pose proof (child_at dir k Ha (Hs k Hk)) as X. rewrite <- Hi, (child_dir dir Ha) in X. discriminate. }
  exists ((d ++ [(dir, None)]) ++ entries dir m). split; [|split].
  - unfold save_map. rewrite Hd. rewrite (dput_absent _ _ _ Hd). apply save_all_ok; try assumption.
    + rewrite dget_app, Hd. cbn. destruct (text_eqb_spec dir dir); [reflexivity | congruence].
    + intros k Hk. apply dget_none. now apply HF.
  - unfold load_map. rewrite !dget_app, Hd. cbn [dget]. destruct (text_eqb_spec dir dir) as [_|N]; [|congruence].
    rewrite <- app_assoc. rewrite (listdir_ok dir m d Ha Hc Hs). rewrite (load_fold dir _ Ha m []); [|exact Hn|exact Hs|].
    + cbn. destruct m; [congruence | reflexivity].
    + intros k v Hi. rewrite app_assoc. apply get_entry; [|exact Hn|exact Hi]. apply HF. apply in_map_iff. now exists (k, v).
  - intros p Hp. rewrite !dget_app. destruct (dget text_eqb p d) eqn:E; [reflexivity|]. apply dget_none in E. contradiction.
Qed.

(** ** Names *)

Lemma no_tilde_dotted : forall l, no_tilde (dotted l) = dotted (map no_tilde l).
Proof.
  induction l as [|x [|y l] IH]; [reflexivity | reflexivity|]. cbn [dotted map] in *. unfold no_tilde at 1. rewrite map_app. cbn [map]. f_equal. cbn. f_equal. exact IH.
Qed.

Lemma dot_split : forall x y r s, ~ In "."%char x -> ~ In "."%char y -> x ++ "."%char :: r = y ++ "."%char :: s -> x = y /\ r = s.
Proof.
  induction x as [|a x IH]; intros [|b y] r s Hx Hy E; cbn in E.
  - split; congruence.
  - injection E as <- _. exfalso. apply Hy. now left.
  - injection E as -> _. exfalso. apply Hx. now left.
  - injection E as -> E. destruct (IH y r s) as [-> ->]; [intro; apply Hx; now right | intro; apply Hy; now right | exact E|]. now split.
Qed.

Lemma dotted_inj : forall l l', l <> [] -> l' <> [] -> Forall (fun x => ~ In "."%char x) l -> Forall (fun x => ~ In "."%char x) l' -> dotted l = dotted l' -> l = l'.
Proof.
  induction l as [|x l IH]; intros [|y l'] H1 H2 F1 F2 E; try congruence. inversion F1 as [|? ? Fx Fl]; subst. inversion F2 as [|? ? Fy Fl']; subst.
  destruct l as [|x2 l]; destruct l' as [|y2 l'].
  - cbn in E. congruence.
  - exfalso. change (dotted (y :: y2 :: l')) with (y ++ "."%char :: dotted (y2 :: l')) in E. cbn [dotted] in E. subst x. apply Fx. apply in_or_app. right. now left.
  - exfalso. change (dotted (x :: x2 :: l)) with (x ++ "."%char :: dotted (x2 :: l)) in E. cbn [dotted] in E. subst y. apply Fy. apply in_or_app. right. now left.
  - change (dotted (x :: x2 :: l)) with (x ++ "."%char :: dotted (x2 :: l)) in E. change (dotted (y :: y2 :: l')) with (y ++ "."%char :: dotted (y2 :: l')) in E.
    apply dot_split in E as [-> E]; try assumption. f_equal. apply IH; try assumption; discriminate.
Qed.

Definition sname (k : key) : text := match key_name k with Ok s => no_tilde s | Err _ => [] end.

Lemma shown_sname k n : shown k n -> n = sname k /\ exists s, key_name k = Ok s.
Proof. intros (s & H & ->). unfold sname. rewrite H. split; [reflexivity | now exists s]. Qed.

Lemma NoDup_concat_map {A B} (f : A -> list B) : forall l, (forall x, In x l -> NoDup (f x)) -> NoDup l -> (forall x y b, In x l -> In y l -> In b (f x) -> In b (f y) -> x = y) -> NoDup (List.concat (map f l)).
Proof.
  induction l as [|x l IH]; intros H1 H2 H3; cbn; [constructor|]. inversion H2 as [|? ? Hx Hl]; subst.
  assert (HL : NoDup (List.concat (map f l))) by (apply IH; [intros; apply H1; now right | assumption | intros; eapply H3; try eassumption; now right]).
  assert (HX : NoDup (f x)) by (apply H1; now left).
  assert (HD : forall b, In b (f x) -> ~ In b (List.concat (map f l))).
  { intros b Hb Hc. apply in_concat in Hc as (bs & Hbs & Hc). apply in_map_iff in Hbs as (y & <- & Hy). apply Hx. rewrite (H3 x y b); try assumption; [now left | now right]. }
  clear - HL HX HD. induction HX as [|b r Hb Hr IHr]; cbn; [exact HL|]. constructor.
  - intro Hi. apply in_app_or in Hi as [Hi|Hi]; [contradiction|]. apply (HD b); [now left | exact Hi].
  - apply IHr. intros c Hc. apply HD. now right.
Qed.

Lemma apart_paths {A} : forall t : ptree A, apart t -> NoDup (map (map sname) (paths t)) /\ (forall p, In p (paths t) -> Forall (fun k => (exists s, key_name k = Ok s) /\ ~ In "."%char (sname k)) p) /\ match t with PLeaf _ => paths t = [[]] | PNode _ => forall p, In p (paths t) -> p <> [] end.
Proof.
  induction t as [a | l IH] using ptree_ind'; intro H.
  - cbn. split; [repeat constructor; intros []|]. split; [|reflexivity]. intros p [<-|[]]. constructor.
  - inversion H as [|? ns HF HN HA]; subst. cbn [paths].
    assert (HK : Forall (fun kv => (exists s, key_name (fst kv) = Ok s) /\ ~ In "."%char (sname (fst kv))) l).
    { clear - HF. induction HF as [|kv n l ns [Hs Hd] HF IHF]; constructor; [|exact IHF]. apply shown_sname in Hs as [-> Hs]. now split. }
    assert (HNs : ns = map (fun kv => sname (fst kv)) l).
    { clear - HF. induction HF as [|kv n l ns [Hs Hd] HF IHF]; [reflexivity|]. cbn. apply shown_sname in Hs as [-> _]. now f_equal. }
    assert (HP : forall kv, In kv l -> NoDup (map (map sname) (paths (snd kv))) /\ forall p, In p (paths (snd kv)) -> Forall (fun k => (exists s, key_name k = Ok s) /\ ~ In "."%char (sname k)) p).
    { intros kv Hkv. rewrite Forall_forall in IH, HA. destruct (IH kv Hkv (HA kv Hkv)) as (X & Y & _). now split. }
    split; [|split].
    + rewrite concat_map, map_map. apply NoDup_concat_map.
      * intros kv Hkv. rewrite map_map. cbn. destruct (HP kv Hkv) as [X _]. rewrite <- (map_map (map sname) (cons (sname (fst kv)))). apply FinFun.Injective_map_NoDup; [|exact X]. intros u v E. congruence.
      * rewrite HNs in HN. clear - HN. induction l as [|x l IHl]; [constructor|]. cbn in HN. inversion HN as [|? ? N1 N2]; subst. constructor; [|now apply IHl]. intro Hi. apply N1. apply in_map_iff. now exists x.
      * intros x y b Hx Hy Hbx Hby. rewrite map_map in Hbx, Hby. apply in_map_iff in Hbx as (p & Hp & _). apply in_map_iff in Hby as (q & Hq & _). cbn in Hp, Hq. assert (E : sname (fst x) = sname (fst y)) by congruence.
        rewrite HNs in HN. clear - HN Hx Hy E. induction l as [|z l IHl]; [destruct Hx|]. cbn in HN. inversion HN as [|? ? N1 N2]; subst. destruct Hx as [<-|Hx], Hy as [<-|Hy]; [reflexivity| | |now apply IHl].
        -- exfalso. apply N1. rewrite E. apply in_map_iff. now exists y.
        -- exfalso. apply N1. rewrite <- E. apply in_map_iff. now exists x.
    + intros p Hp. apply in_concat in Hp as (ps & Hps & Hp). apply in_map_iff in Hps as (kv & <- & Hkv). apply in_map_iff in Hp as (q & <- & Hq). constructor.
      * rewrite Forall_forall in HK. now apply HK.
      * destruct (HP kv Hkv) as [_ Y]. now apply Y.
    + intros p Hp. apply in_concat in Hp as (ps & Hps & Hp). apply in_map_iff in Hps as (kv & <- & Hkv). apply in_map_iff in Hp as (q & <- & Hq). discriminate.
Qed.

Lemma param_name_ok p : Forall (fun k => exists s, key_name k = Ok s) p -> param_name p = Ok (dotted (map sname p)).
Proof.
  intro H. unfold param_name. assert (E : exists l, sequence (map key_name p) = Ok l /\ map no_tilde l = map sname p).
  { induction H as [|k p (s & Hs) Hp IH]; [now exists []|]. destruct IH as (l & E & M). exists (s :: l). cbn. rewrite Hs. cbn. rewrite E. cbn. split; [reflexivity|]. f_equal; [|exact M]. unfold sname. now rewrite Hs. }
  destruct E as (l & -> & M). cbn. now rewrite no_tilde_dotted, M.
Qed.

Lemma names_apart {A} (t : ptree A) : apart t -> exists names, param_names t = Ok names /\ NoDup names /\ List.length names = List.length (paths t).
Proof.
  intro H. destruct (apart_paths t H) as (HN & HF & HE).
  assert (E : sequence (map param_name (paths t)) = Ok (map dotted (map (map sname) (paths t)))).
  { rewrite map_map. clear HN HE. induction (paths t) as [|p ps IH]; [reflexivity|]. cbn. rewrite param_name_ok.
    - cbn. rewrite IH; [reflexivity|]. intros; apply HF; now right.
    - eapply Forall_impl; [|apply HF; now left]. intros k [Hk _]. exact Hk. }
  exists (map dotted (map (map sname) (paths t))). split; [exact E|]. split; [|now rewrite !map_length].
  destruct t as [a|l]; [rewrite HE; repeat constructor; intros []|].
  assert (HG : forall q, In q (map (map sname) (paths (PNode l))) -> q <> [] /\ Forall (fun x => ~ In "."%char x) q).
  { intros q Hq. apply in_map_iff in Hq as (p & <- & Hp). split; [specialize (HE p Hp); destruct p; [congruence | discriminate]|].
    specialize (HF p Hp). clear - HF. induction HF as [|k p [_ Hk] Hp IH]; constructor; assumption. }
  clear - HN HG. induction HN as [|q qs Hq Hqs IH]; [constructor|]. cbn. constructor.
  - intro Hi. apply in_map_iff in Hi as (q' & E & Hq'). destruct (HG q (or_introl eq_refl)) as [A1 A2]. destruct (HG q' (or_intror Hq')) as [B1 B2]. apply dotted_inj in E; try assumption. now subst.
  - apply IH. intros; apply HG; now right.
Qed.

(** ** Platforms *)

Lemma platforms_ok ks l : lowering_platforms (Some ks) (PMany l) = Ok (Some (map lower l)) <-> forall p, In p l -> exists k, In k ks /\ lower p = lower k.
Proof.
  cbn. destruct (forallb _ _) eqn:E.
  - split; [|reflexivity]. intros _ p Hp. rewrite forallb_forall in E. specialize (E (lower p) (in_map _ _ _ Hp)). apply existsb_exists in E as (x & Hx & E). apply in_map_iff in Hx as (k & <- & Hk). exists k. split; [exact Hk|]. destruct (text_eqb_spec (lower p) (lower k)); [assumption | discriminate].
  - split; [discriminate|]. intro H. assert (forallb (fun p => existsb (text_eqb p) (map lower ks)) (map lower l) = true); [|congruence].
    apply forallb_forall. intros x Hx. apply in_map_iff in Hx as (p & <- & Hp). destruct (H p Hp) as (k & Hk & E'). apply existsb_exists. exists (lower k). split; [now apply in_map|]. rewrite E'. destruct (text_eqb_spec (lower k) (lower k)); congruence.
Qed.

Lemma paths_pmap {A B} (f : A -> B) : forall t, paths (pmap f t) = paths t.
Proof.
  induction t as [a | l IH] using ptree_ind'; [reflexivity|]. cbn [pmap paths]. f_equal. rewrite map_map. cbn. induction IH as [|x l Hx Hl IHl]; [reflexivity|]. cbn. rewrite Hx. f_equal. exact IHl.
Qed.
