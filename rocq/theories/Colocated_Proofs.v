(** Proofs about the transport through colocated python. *)
From Coq Require Import List Bool Arith NArith ZArith String Ascii Lia Permutation.
From Verif Require Import Base StepName_Model StepName_Proofs Tree_Model Parts_Proofs Colocated_Model Colocated_Spec.
Import ListNotations.
Local Open Scope string_scope.
Local Open Scope list_scope.
Local Open Scope nat_scope.

(** ** Texts *)

Lemma digit_numeral : forall c, digit c = true <-> numeral c.
Proof. intro c. unfold numeral. destruct c as [[|] [|] [|] [|] [|] [|] [|] [|]]; vm_compute; split; intro H; try discriminate H; try reflexivity; try (repeat (first [left; reflexivity | right])); exfalso; repeat (destruct H as [H | H]; [discriminate H|]); exact H. Qed.

Lemma after_spec : forall p l r, after p l = Some r <-> l = p ++ r.
Proof.
  induction p as [|c p IH]; intros l r; cbn [after app]; [split; [intro H; injection H as ->; reflexivity | intros ->; reflexivity]|]. destruct l as [|x l]; [split; discriminate|].
  destruct (Ascii.eqb_spec c x) as [<- | N]; [rewrite IH; split; [intros ->; reflexivity | intro H; injection H as ->; reflexivity]|]. split; [discriminate|]. intro H. injection H as H1 H2. congruence.
Qed.

Lemma lead_digits : forall g post, Forall is_digit g -> (match post with [] => True | c :: _ => ~ numeral c end) -> lead (g ++ post) = g.
Proof.
  induction g as [|c g IH]; intros post F P; cbn [lead app].
  - destruct post as [|c post]; [reflexivity|]. cbn [lead]. destruct (digit c) eqn:E; [|reflexivity]. apply digit_numeral in E. contradiction.
  - inversion_clear F as [|? ? [d Hd] F']. unfold digit. rewrite Hd. now rewrite IH.
Qed.

Lemma match_here_none : forall l, match_here l = None <-> ~ exists c post, l = marker ++ c :: post /\ numeral c.
Proof.
  intro l. unfold match_here. destruct (after marker l) as [r|] eqn:E.
  - apply after_spec in E. subst l. destruct r as [|c r]; cbn [lead].
    + split; [|reflexivity]. intros _ (c & post & H & _). apply app_inv_head in H. discriminate.
    + destruct (digit c) eqn:D; split; try discriminate; try reflexivity.
      * intro H. exfalso. apply H. exists c, r. split; [reflexivity|]. now apply digit_numeral.
      * intros _ (c' & post & H & N). apply app_inv_head in H. injection H as <- <-. apply digit_numeral in N. congruence.
  - split; [|reflexivity]. intros _ (c & post & H & N). assert (after marker l = Some (c :: post)) by now apply after_spec. congruence.
Qed.

Lemma search_none : forall l, search l = None <-> ~ has_id l.
Proof.
  induction l as [|x l IH].
  - split; [|reflexivity]. intros _ (pre & c & post & H & _). destruct pre; discriminate.
  - change (search (x :: l)) with (match match_here (x :: l) with Some g => Some g | None => search l end). destruct (match_here (x :: l)) as [g|] eqn:E.
    + split; [discriminate|]. intro H. exfalso. assert (N : ~ exists c post, x :: l = marker ++ c :: post /\ numeral c).
      { intros (c & post & H1 & H2). apply H. exists [], c, post. split; [exact H1 | exact H2]. }
      apply match_here_none in N. congruence.
    + rewrite IH. pose proof (proj1 (match_here_none (x :: l)) E) as N. split.
      * intros H (pre & c & post & H1 & H2). destruct pre as [|y pre]; [apply N; exists c, post; split; [exact H1 | exact H2]|]. injection H1 as -> H1. apply H. exists pre, c, post. split; [exact H1 | exact H2].
      * intros H (pre & c & post & H1 & H2). apply H. exists (x :: pre), c, post. split; [now rewrite H1 | exact H2].
Qed.

Lemma parse_lead : forall l acc, exists n, parse_digits acc (lead l) = Some n.
Proof. induction l as [|c l IH]; intros acc; cbn [lead]; [now exists acc|]. unfold digit. destruct (char_digit c) as [d|] eqn:E; [|now exists acc]. cbn [parse_digits]. rewrite E. apply IH. Qed.

Lemma search_parse : forall l g, search l = Some g -> exists n, parse_digits 0 g = Some n.
Proof.
  assert (M : forall l g, match_here l = Some g -> exists n, parse_digits 0 g = Some n).
  { intros l g. unfold match_here. destruct (after marker l) as [r|]; [|discriminate]. destruct (lead r) as [|c g'] eqn:E; [discriminate|]. intro H. injection H as <-. rewrite <- E. apply parse_lead. }
  induction l as [|x l IH]; intro g.
  - cbn. discriminate.
  - change (search (x :: l)) with (match match_here (x :: l) with Some g => Some g | None => search l end). destruct (match_here (x :: l)) as [g'|] eqn:E; [|apply IH]. intro H. injection H as ->. now apply (M (x :: l)).
Qed.

Lemma search_at : forall pre n post, (forall a b, b <> [] -> pre = a ++ b -> forall r, b ++ marker ++ dec n ++ post <> marker ++ r) ->
  (match post with [] => True | c :: _ => ~ numeral c end) -> search (pre ++ marker ++ dec n ++ post) = Some (dec n).
Proof.
  induction pre as [|x pre IH]; intros n post H P.
  - assert (E : match_here (marker ++ dec n ++ post) = Some (dec n)).
    { unfold match_here. rewrite (proj2 (after_spec marker _ _) eq_refl). rewrite (lead_digits (dec n) post (dec_digits n) P). destruct (dec n) eqn:E; [now apply dec_nonempty in E | reflexivity]. }
    cbn [app]. destruct (marker ++ dec n ++ post) as [|y l] eqn:L; [cbn in L; discriminate|].
    change (search (y :: l)) with (match match_here (y :: l) with Some g => Some g | None => search l end). now rewrite E.
  - cbn [app]. change (search (x :: pre ++ marker ++ dec n ++ post)) with (match match_here (x :: pre ++ marker ++ dec n ++ post) with Some g => Some g | None => search (pre ++ marker ++ dec n ++ post) end).
    destruct (match_here (x :: pre ++ marker ++ dec n ++ post)) as [g|] eqn:E.
    + exfalso. unfold match_here in E. destruct (after marker (x :: pre ++ marker ++ dec n ++ post)) as [r|] eqn:A; [|discriminate]. apply after_spec in A. apply (H [] (x :: pre)) with (r := r); [discriminate | reflexivity | exact A].
    + apply IH; [|exact P]. intros a b Hb Hp r. apply (H (x :: a) b Hb). now rewrite Hp.
Qed.

(** ** Devices *)

Lemma same_key_spec : forall a b, same_key a b = true <-> alike a b.
Proof. intros a b. unfold same_key, alike. rewrite !andb_true_iff, Nat.eqb_eq, N.eqb_eq, String.eqb_eq. tauto. Qed.

Definition first_of (l : list dev) (d : dev) : Prop := exists a b, l = a ++ d :: b /\ forall x, In x a -> ~ alike x d.

Lemma set_defaults_app : forall l l' s, set_defaults s (l ++ l') = set_defaults (set_defaults s l) l'.
Proof. intros. unfold set_defaults. apply fold_left_app. Qed.

Lemma alike_refl : forall d, alike d d.
Proof. now repeat split. Qed.

Lemma alike_sym : forall a b, alike a b -> alike b a.
Proof. intros a b (H1 & H2 & H3). now repeat split. Qed.

Lemma alike_trans : forall a b c, alike a b -> alike b c -> alike a c.
Proof. intros a b c (H1 & H2 & H3) (H4 & H5 & H6). repeat split; congruence. Qed.

Lemma set_defaults_snoc : forall l d, set_defaults [] (l ++ [d]) = if existsb (same_key d) (set_defaults [] l) then set_defaults [] l else set_defaults [] l ++ [d].
Proof. intros. now rewrite set_defaults_app. Qed.

Lemma set_defaults_all : forall l d, In d l -> exists x, In x (set_defaults [] l) /\ alike d x.
Proof.
  induction l as [|y l IH] using rev_ind; intros d H; [destruct H|]. rewrite set_defaults_snoc. apply in_app_iff in H as [H | [-> | []]].
  - destruct (IH d H) as (x & Hx & A). exists x. split; [|exact A]. destruct (existsb _ _); [exact Hx | apply in_app_iff; now left].
  - destruct (existsb (same_key d) (set_defaults [] l)) eqn:E.
    + apply existsb_exists in E as (x & Hx & A). apply same_key_spec in A. now exists x.
    + exists d. split; [apply in_app_iff; right; now left | apply alike_refl].
Qed.

Lemma first_of_app : forall l y d, first_of (l ++ [y]) d <-> first_of l d \/ (d = y /\ forall x, In x l -> ~ alike x d).
Proof.
  intros l y d. split.
  - intros (a & b & H & N). destruct b as [|z b] using rev_ind.
    + apply app_inj_tail in H as [-> ->]. right. split; [reflexivity | exact N].
    + clear IHb. rewrite app_comm_cons, app_assoc in H. apply app_inj_tail in H as [-> ->]. left. now exists a, b.
  - intros [(a & b & -> & N) | [-> N]]; [exists a, (b ++ [y]) | exists l, []]; (split; [|exact N]); [now rewrite <- app_assoc | reflexivity].
Qed.

Lemma set_defaults_first : forall l d, In d (set_defaults [] l) <-> first_of l d.
Proof.
  induction l as [|y l IH] using rev_ind; intro d.
  - cbn. split; [tauto|]. intros (a & b & H & _). destruct a; discriminate.
  - rewrite set_defaults_snoc, first_of_app, <- IH. destruct (existsb (same_key y) (set_defaults [] l)) eqn:E.
    + split; [now left|]. intros [H | [-> N]]; [exact H|]. exfalso. apply existsb_exists in E as (x & Hx & A). apply same_key_spec in A. apply IH in Hx as (a & b & -> & _). apply (N x); [apply in_app_iff; right; now left | now apply alike_sym].
    + rewrite in_app_iff. cbn [In]. split; (intros [H | H]; [now left|]).
      * destruct H as [<- | []]. right. split; [reflexivity|]. intros x Hx A. destruct (set_defaults_all l x Hx) as (z & Hz & A2). assert (existsb (same_key y) (set_defaults [] l) = true); [|congruence].
        apply existsb_exists. exists z. split; [exact Hz|]. apply same_key_spec. apply (alike_trans y x z); [now apply alike_sym | exact A2].
      * destruct H as [-> _]. right. now left.
Qed.

Lemma sub_refl : forall (A : Type) (l : list A), sub l l.
Proof. induction l; constructor; assumption. Qed.

Lemma sub_nil_l : forall (A : Type) (l : list A), sub [] l.
Proof. induction l; constructor; assumption. Qed.

Lemma sub_app : forall (A : Type) (a b c d : list A), sub a b -> sub c d -> sub (a ++ c) (b ++ d).
Proof. intros A a b c d H K. induction H; cbn; [exact K | now constructor | now constructor]. Qed.

Lemma set_defaults_sub : forall l, sub (set_defaults [] l) l.
Proof.
  induction l as [|y l IH] using rev_ind; [constructor|]. rewrite set_defaults_snoc. destruct (existsb _ _).
  - rewrite <- (app_nil_r (set_defaults [] l)). apply sub_app; [exact IH | apply sub_nil_l].
  - apply sub_app; [exact IH | apply sub_refl].
Qed.

Lemma all_backend_eq : forall o bs, all_backend_devices o bs = set_defaults [] (match o with Some l => l | None => [] end ++ List.concat bs).
Proof. intros [l|] bs; unfold all_backend_devices; [now rewrite set_defaults_app | reflexivity]. Qed.

(** ** The map of CPU devices *)

Definition holds (m : dict N dev) (S : N -> dev -> Prop) : Prop := forall i d, dget N.eqb i m = Some d <-> S i d.

Definition conflict (S : N -> dev -> Prop) : Prop := exists i a b, S i a /\ S i b /\ dev_eqb a b = false.

Lemma dev_eqb_refl : forall d, dev_eqb d d = true.
Proof. intro d. apply Nat.eqb_refl. Qed.

Lemma holds_ext : forall m (S S' : N -> dev -> Prop), (forall i d, S i d <-> S' i d) -> holds m S -> holds m S'.
Proof. intros m S S' E H i d. rewrite <- E. apply H. Qed.

Lemma conflict_mono : forall (S S' : N -> dev -> Prop), (forall i d, S i d -> S' i d) -> conflict S -> conflict S'.
Proof. intros S S' E (i & a & b & H1 & H2 & H3). exists i, a, b. repeat split; auto. Qed.

Lemma holds_put : forall m (S : N -> dev -> Prop) i d, holds m S -> (dget N.eqb i m = None \/ dget N.eqb i m = Some d) -> holds (dput N.eqb i d m) (fun j e => S j e \/ (j = i /\ e = d)).
Proof.
  intros m S i d H K j e. rewrite (dget_dput N.eqb N.eqb_spec). destruct (N.eqb_spec j i) as [-> | N].
  - split; [intro X; injection X as <-; right; now split|]. intros [X | [_ ->]]; [|reflexivity]. apply H in X. destruct K as [K | K]; congruence.
  - rewrite (H j e). split; [now left|]. intros [X | [X _]]; [exact X | contradiction].
Qed.

Definition globals (l : list dev) (i : N) (d : dev) : Prop := In d l /\ is_cpu d = true /\ ifrt_id d = Some i.
Definition locals (l : list dev) (i : N) (d : dev) : Prop := In d l /\ is_cpu d = true /\ d_id d = i.

Lemma global_ids_spec : forall L, objects L -> forall l m (S : N -> dev -> Prop), (forall d, In d l -> In d L) -> (forall i d, S i d -> In d L) -> holds m S ->
  match global_ids m l with Ok m' => holds m' (fun i d => S i d \/ globals l i d) | Err e => e = ValueError /\ conflict (fun i d => S i d \/ globals l i d) end.
Proof.
  intros L O. induction l as [|d l IH]; intros m S HL HS H.
  - cbn. revert H. apply holds_ext. intros i d. unfold globals. cbn. tauto.
  - cbn [global_ids]. assert (HL' : forall x, In x l -> In x L) by (intros x Hx; apply HL; now right).
    assert (X : forall i e, (S i e \/ globals l i e) -> (S i e \/ globals (d :: l) i e)) by (intros i e; unfold globals; cbn [In]; tauto).
    assert (SKIP : (forall i, ~ (is_cpu d = true /\ ifrt_id d = Some i)) -> match global_ids m l with Ok m' => holds m' (fun i e => S i e \/ globals (d :: l) i e) | Err e => e = ValueError /\ conflict (fun i e => S i e \/ globals (d :: l) i e) end).
    { intro N. specialize (IH m S HL' HS H). destruct (global_ids m l) as [m'|e].
      - revert IH. apply holds_ext. intros i e. split; [apply X|]. unfold globals. cbn [In]. intros [K | ([-> | K] & K2)]; [now left | exfalso; now apply (N i) | right; now split].
      - destruct IH as [-> C]. split; [reflexivity|]. revert C. now apply conflict_mono. }
    destruct (is_cpu d) eqn:C; cbn [negb]; [|apply SKIP; intros i [K _]; discriminate]. destruct (ifrt_id d) as [i|] eqn:I; [|apply SKIP; intros i [_ K]; discriminate]. clear SKIP.
    assert (PUT : (dget N.eqb i m = None \/ dget N.eqb i m = Some d) -> match global_ids (dput N.eqb i d m) l with Ok m' => holds m' (fun i e => S i e \/ globals (d :: l) i e) | Err e => e = ValueError /\ conflict (fun i e => S i e \/ globals (d :: l) i e) end).
    { intro K. specialize (IH (dput N.eqb i d m) (fun j e => S j e \/ (j = i /\ e = d)) HL'). cbv beta in IH.
      assert (HS' : forall j e, S j e \/ (j = i /\ e = d) -> In e L) by (intros j e [K2 | [_ ->]]; [now apply (HS j) | apply HL; now left]).
      specialize (IH HS' (holds_put m S i d H K)).
      assert (Y : forall j e, ((S j e \/ (j = i /\ e = d)) \/ globals l j e) <-> (S j e \/ globals (d :: l) j e)).
      { intros j e. unfold globals. cbn [In]. split.
        - intros [[K2 | [-> ->]] | K2]; [now left | right; repeat split; auto | right; tauto].
        - intros [K2 | ([-> | K2] & K3 & K4)]; [now left; left | left; right; split; congruence | right; now repeat split]. }
      destruct (global_ids (dput N.eqb i d m) l) as [m'|e].
      - revert IH. now apply holds_ext.
      - destruct IH as [-> C2]. split; [reflexivity|]. revert C2. apply conflict_mono. intros j e. apply Y. }
    destruct (dget N.eqb i m) as [e|] eqn:G; [|apply PUT; now left]. destruct (dev_eqb e d) eqn:E.
    + apply PUT. right. f_equal. apply O; [apply (HS i); now apply H | apply HL; now left | now apply Nat.eqb_eq].
    + split; [reflexivity|]. exists i, e, d. repeat split; [left; now apply H | right; repeat split; auto; now left | exact E].
Qed.

Lemma local_ids_spec : forall L, objects L -> forall l m (S : N -> dev -> Prop), (forall d, In d l -> In d L) -> (forall i d, S i d -> In d L) -> holds m S ->
  match local_ids m l with Ok m' => holds m' (fun i d => S i d \/ locals l i d) | Err e => e = ValueError /\ conflict (fun i d => S i d \/ locals l i d) end.
Proof.
  intros L O. induction l as [|d l IH]; intros m S HL HS H.
  - cbn. revert H. apply holds_ext. intros i d. unfold locals. cbn. tauto.
  - cbn [local_ids]. assert (HL' : forall x, In x l -> In x L) by (intros x Hx; apply HL; now right).
    assert (X : forall i e, (S i e \/ locals l i e) -> (S i e \/ locals (d :: l) i e)) by (intros i e; unfold locals; cbn [In]; tauto).
    assert (SKIP : (forall i, is_cpu d = true /\ d_id d = i -> S i d) -> match local_ids m l with Ok m' => holds m' (fun i e => S i e \/ locals (d :: l) i e) | Err e => e = ValueError /\ conflict (fun i e => S i e \/ locals (d :: l) i e) end).
    { intro N. specialize (IH m S HL' HS H). destruct (local_ids m l) as [m'|e].
      - revert IH. apply holds_ext. intros i e. split; [apply X|]. unfold locals. cbn [In]. intros [K | ([<- | K] & K2)]; [now left | left; now apply N | right; now split].
      - destruct IH as [-> C]. split; [reflexivity|]. revert C. now apply conflict_mono. }
    destruct (is_cpu d) eqn:C; cbn [negb]; [|apply SKIP; intros i [K _]; discriminate].
    destruct (dget N.eqb (d_id d) m) as [e|] eqn:G.
    + destruct (dev_eqb e d) eqn:E.
      * apply SKIP. intros i [_ <-]. apply H. rewrite G. f_equal. apply O; [apply (HS (d_id d)); now apply H | apply HL; now left | now apply Nat.eqb_eq].
      * split; [reflexivity|]. exists (d_id d), e, d. repeat split; [left; now apply H | right; repeat split; auto; now left | exact E].
    + clear SKIP. specialize (IH (dput N.eqb (d_id d) d m) (fun j e => S j e \/ (j = d_id d /\ e = d)) HL'). cbv beta in IH.
      assert (HS' : forall j e, S j e \/ (j = d_id d /\ e = d) -> In e L) by (intros j e [K2 | [_ ->]]; [now apply (HS j) | apply HL; now left]).
      specialize (IH HS' (holds_put m S (d_id d) d H (or_introl G))).
      assert (Y : forall j e, ((S j e \/ (j = d_id d /\ e = d)) \/ locals l j e) <-> (S j e \/ locals (d :: l) j e)).
      { intros j e. unfold locals. cbn [In]. split.
        - intros [[K2 | [-> ->]] | K2]; [now left | right; repeat split; auto | right; tauto].
        - intros [K2 | ([-> | K2] & K3 & K4)]; [now left; left | left; right; split; congruence | right; now repeat split]. }
      destruct (local_ids (dput N.eqb (d_id d) d m) l) as [m'|e].
      * revert IH. now apply holds_ext.
      * destruct IH as [-> C2]. split; [reflexivity|]. revert C2. apply conflict_mono. intros j e. apply Y.
Qed.

Lemma is_cpu_spec : forall d, is_cpu d = true <-> d_platform d = "cpu".
Proof. intro d. apply String.eqb_eq. Qed.

Lemma stands_iff : forall l i d, (globals l i d \/ locals l i d) <-> In d l /\ stands i d.
Proof. intros l i d. unfold globals, locals, stands. rewrite is_cpu_spec. tauto. Qed.

Lemma map_spec : forall l, objects l -> match cpu_device_map l with Ok m => holds m (fun i d => In d l /\ stands i d) | Err e => e = ValueError /\ conflict (fun i d => In d l /\ stands i d) end.
Proof.
  intros l O. unfold cpu_device_map. pose proof (global_ids_spec l O l [] (fun _ _ => False) (fun d H => H)) as G. cbv beta in G.
  specialize (G (fun i d H => match H with end)). assert (H0 : holds [] (fun _ _ => False)) by (intros i d; cbn; split; [discriminate | tauto]). specialize (G H0).
  destruct (global_ids [] l) as [m|e]; cbn [rbind].
  - pose proof (local_ids_spec l O l m (fun i d => False \/ globals l i d) (fun d H => H)) as K. cbv beta in K.
    assert (HS : forall i d, False \/ globals l i d -> In d l) by (intros i d [[] | [H _]]; exact H). specialize (K HS G). destruct (local_ids m l) as [m'|e].
    + revert K. apply holds_ext. intros i d. rewrite <- stands_iff. tauto.
    + destruct K as [-> K]. split; [reflexivity|]. revert K. apply conflict_mono. intros i d. rewrite <- stands_iff. tauto.
  - destruct G as [-> G]. split; [reflexivity|]. revert G. apply conflict_mono. intros i d. rewrite <- stands_iff. tauto.
Qed.

Lemma conflict_not_clear : forall l, conflict (fun i d => In d l /\ stands i d) -> ~ clear l.
Proof. intros l (i & a & b & [H1 H2] & [H3 H4] & E) C. specialize (C i a b H1 H3 H2 H4). apply Nat.eqb_eq in C. unfold dev_eqb in E. congruence. Qed.

Lemma holds_clear : forall l m, holds m (fun i d => In d l /\ stands i d) -> clear l.
Proof. intros l m H i a b Ha Hb Sa Sb. assert (X : dget N.eqb i m = Some a) by (apply H; now split). assert (Y : dget N.eqb i m = Some b) by (apply H; now split). congruence. Qed.

Lemma sequence_get : forall (m : dict N dev) ids, (forall i, In i ids -> dget N.eqb i m <> None) ->
  exists ds, sequence (map (fun i => match dget N.eqb i m with Some d => Ok d | None => Err KeyError end) ids) = Ok ds /\ Forall2 (fun i d => dget N.eqb i m = Some d) ids ds.
Proof.
  intros m. induction ids as [|i ids IH]; intro H; cbn; [exists []; split; [reflexivity | constructor]|]. destruct (dget N.eqb i m) as [d|] eqn:E; [|exfalso; apply (H i); [now left | exact E]].
  destruct IH as (ds & -> & F); [intros j Hj; apply H; now right|]. exists (d :: ds). split; [reflexivity | now constructor].
Qed.

Lemma Forall2_fun : forall (A B : Type) (f : A -> option B) l x y, Forall2 (fun a b => f a = Some b) l x -> Forall2 (fun a b => f a = Some b) l y -> x = y.
Proof. intros A B f l x y H. revert y. induction H; intros y' K; inversion_clear K; [reflexivity|]. f_equal; [congruence | auto]. Qed.

Lemma filter_nil : forall (A : Type) (f : A -> bool) l, filter f l = [] <-> forall x, In x l -> f x = false.
Proof.
  intros A f. induction l as [|x l IH]; cbn [filter In]; [split; [tauto | reflexivity]|]. destruct (f x) eqn:E; split.
  - discriminate.
  - intro H. specialize (H x (or_introl eq_refl)). congruence.
  - intros H y [<- | Hy]; [exact E | now apply IH].
  - intro H. apply IH. intros y Hy. apply H. now right.
Qed.

Lemma Forall2_impl' : forall (A B : Type) (P Q : A -> B -> Prop) l m, (forall a b, P a b -> Q a b) -> Forall2 P l m -> Forall2 Q l m.
Proof. intros A B P Q l m H F. induction F; constructor; auto. Qed.

Lemma Forall2_in_l : forall (A B : Type) (P : A -> B -> Prop) l m a, Forall2 P l m -> In a l -> exists b, P a b.
Proof. intros A B P l m a F. induction F; intros []; [subst; eauto | auto]. Qed.

Lemma resolve_spec : forall l ids, objects l -> (forall ds, resolve l ids = Ok ds <-> clear l /\ Forall2 (fun i d => In d l /\ stands i d) ids ds) /\ (forall e, resolve l ids = Err e -> e = ValueError).
Proof.
  intros l ids O. unfold resolve. pose proof (map_spec l O) as M. destruct (cpu_device_map l) as [m|e]; cbn [rbind].
  - destruct (filter _ ids) as [|x r] eqn:F.
    + assert (K : forall i, In i ids -> dget N.eqb i m <> None) by (intros i Hi X; pose proof (proj1 (filter_nil _ _ ids) F i Hi) as Y; cbv beta in Y; rewrite X in Y; discriminate).
      destruct (sequence_get m ids K) as (ds & -> & FD). split; [|discriminate]. intro ds'. split.
      * intro X. injection X as <-. split; [now apply (holds_clear l m)|]. revert FD. apply Forall2_impl'. intros a b. apply M.
      * intros [_ X]. f_equal. apply (Forall2_fun _ _ (fun i => dget N.eqb i m) ids); [exact FD|]. revert X. apply Forall2_impl'. intros a b. apply M.
    + split; [|intros e X; congruence]. intro ds. split; [discriminate|]. intros [_ X]. exfalso.
      assert (Hx : In x (filter (fun i => match dget N.eqb i m with None => true | Some _ => false end) ids)) by (rewrite F; now left). apply filter_In in Hx as [Hx Y].
      destruct (Forall2_in_l _ _ _ _ _ _ X Hx) as [d Hd]. apply M in Hd. rewrite Hd in Y. discriminate.
  - destruct M as [-> C]. split; [|intros e X; congruence]. intro ds. split; [discriminate|]. intros [X _]. exfalso. now apply (conflict_not_clear l).
Qed.

(** ** Unique devices *)

Lemma existsb_id : forall i seen, existsb (N.eqb i) seen = true <-> In i seen.
Proof. intros i seen. rewrite existsb_exists. split; [intros (x & H & E); apply N.eqb_eq in E; now subst | intro H; exists i; split; [exact H | apply N.eqb_refl]]. Qed.

Lemma unique_in : forall l seen d, In d (unique_loop seen l) -> ~ In (d_id d) seen.
Proof.
  induction l as [|x l IH]; intros seen d; cbn [unique_loop]; [intros []|]. destruct (existsb (N.eqb (d_id x)) seen) eqn:E; [apply IH|]. intros [-> | H].
  - intro K. apply existsb_id in K. congruence.
  - apply IH in H. intro K. apply H. now right.
Qed.

Lemma unique_nodup : forall l seen, NoDup (map d_id (unique_loop seen l)).
Proof.
  induction l as [|x l IH]; intro seen; cbn [unique_loop]; [constructor|]. destruct (existsb _ seen); [apply IH|]. cbn [map]. constructor; [|apply IH].
  intro H. apply in_map_iff in H as (d & E & H). apply unique_in in H. apply H. left. congruence.
Qed.

Lemma unique_first : forall l seen d, In d (unique_loop seen l) <-> exists a b, l = a ++ d :: b /\ ~ In (d_id d) seen /\ forall x, In x a -> d_id x <> d_id d.
Proof.
  induction l as [|y l IH]; intros seen d; cbn [unique_loop].
  - split; [intros [] | intros (a & b & H & _); destruct a; discriminate].
  - destruct (existsb (N.eqb (d_id y)) seen) eqn:E.
    + apply existsb_id in E. rewrite IH. split; intros (a & b & H & N1 & N2).
      * exists (y :: a), b. split; [now rewrite H|]. split; [exact N1|]. intros x [<- | Hx]; [intro K; apply N1; congruence | now apply N2].
      * destruct a as [|z a]; injection H as -> ->; [contradiction|]. exists a, b. repeat split; auto. intros x Hx. apply N2. now right.
    + assert (E' : ~ In (d_id y) seen) by (intro K; apply existsb_id in K; congruence). cbn [In]. rewrite IH. split.
      * intros [-> | (a & b & -> & N1 & N2)]; [exists [], l; repeat split; auto; intros x []|]. exists (y :: a), b. split; [reflexivity|]. split; [intro K; apply N1; now right|]. intros x [<- | Hx]; [intro K; apply N1; now left | now apply N2].
      * intros (a & b & H & N1 & N2). destruct a as [|z a]; injection H as -> ->; [now left|]. right. exists a, b. split; [reflexivity|]. split; [|intros x Hx; apply N2; now right].
        intros [K | K]; [apply (N2 z); [now left | exact K] | contradiction].
Qed.

Lemma unique_sub : forall l seen, sub (unique_loop seen l) l.
Proof. induction l as [|x l IH]; intro seen; cbn [unique_loop]; [constructor|]. destruct (existsb _ seen); constructor; apply IH. Qed.

Lemma unique_all : forall l seen d, In d l -> ~ In (d_id d) seen -> In (d_id d) (map d_id (unique_loop seen l)).
Proof.
  induction l as [|x l IH]; intros seen d H N; [destruct H|]. cbn [unique_loop]. destruct (existsb (N.eqb (d_id x)) seen) eqn:E.
  - destruct H as [-> | H]; [apply existsb_id in E; contradiction | now apply IH].
  - cbn [map In]. destruct (N.eq_dec (d_id x) (d_id d)) as [e | ne]; [now left|]. right. destruct H as [-> | H]; [contradiction|]. apply IH; [exact H|]. intros [K | K]; contradiction.
Qed.

(** ** Normalised lists *)

Lemma normalize_list_map : forall colo l, normalize_list colo l = map (to_serializable colo) l.
Proof.
  intros colo l. unfold normalize_list. destruct (forallb is_cpu l) eqn:E; [|reflexivity]. rewrite forallb_forall in E. symmetry. rewrite <- (map_id l) at 2. apply map_ext_in. intros d H. unfold to_serializable. now rewrite (E d H).
Qed.

Lemma normalize_mesh_map : forall colo m, normalize_mesh colo m = mkMesh (m_names m) (m_types m) (m_shape m) (map (to_serializable colo) (m_devices m)).
Proof.
  intros colo m. rewrite <- normalize_list_map. unfold normalize_mesh, normalize_list. destruct (forallb is_cpu (m_devices m)); [now destruct m | reflexivity].
Qed.

Lemma to_serializable_cpu : forall colo d, (forall x, is_cpu (colo x) = true) -> is_cpu (to_serializable colo d) = true.
Proof. intros colo d H. unfold to_serializable. destruct (is_cpu d) eqn:E; [exact E | apply H]. Qed.

Lemma to_serializable_twice : forall colo d, (forall x, is_cpu (colo x) = true) -> to_serializable colo (to_serializable colo d) = to_serializable colo d.
Proof. intros colo d H. unfold to_serializable at 1. now rewrite to_serializable_cpu. Qed.

(** ** Trees *)

Lemma sequence_forall2 : forall (A B : Type) (f : A -> result B) l ys, sequence (map f l) = Ok ys <-> Forall2 (fun x y => f x = Ok y) l ys.
Proof.
  intros A B f. induction l as [|x l IH]; intro ys; cbn.
  - split; [intro H; injection H as <-; constructor | intro H; now inversion H].
  - destruct (f x) as [y|e] eqn:E; cbn.
    + destruct (sequence (map f l)) as [zs|e] eqn:E2; cbn.
      * split; [intro H; injection H as <-; constructor; [exact E | now apply IH] | intro H; inversion_clear H as [|? ? ? ? K1 K2]; apply IH in K2; congruence].
      * split; [discriminate | intro H; inversion_clear H as [|? ? ? ? K1 K2]; apply IH in K2; congruence].
    + split; [discriminate | intro H; inversion_clear H as [|? ? ? ? K1 K2]; congruence].
Qed.

(** ** Zeros *)

Lemma local_shape_within : forall index shape, Forall2 within index shape -> Forall2 (fun xs n => (0 <= n)%Z /\ exists base, forall p, takes (fst xs) (snd xs) p <-> (base <= p < base + n)%Z) (combine index shape) (local_shape index shape).
Proof.
  intros index shape F. induction F as [|x size index shape W F IH]; [constructor|]. destruct x as [a b | i]; cbn [local_shape combine]; constructor; try exact IH; cbn [fst snd within] in *.
  - split; [lia|]. exists (match a with None => 0 | Some s => s end)%Z. intro p. unfold takes. destruct a as [a|], b as [b|]; lia.
  - split; [lia|]. exists i. intro p. unfold takes. lia.
Qed.

Lemma local_shape_nonneg : forall index shape, Forall2 within index shape -> forallb (Z.leb 0) (local_shape index shape) = true.
Proof.
  intros index shape F. induction F as [|x size index shape W F IH]; [reflexivity|]. destruct x as [a b | i]; cbn [local_shape forallb within] in *; rewrite IH, andb_true_r; apply Z.leb_le; lia.
Qed.
