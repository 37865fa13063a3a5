(** Proofs about the metadata of pytrees. *)
From Coq Require Import List Bool Arith NArith ZArith String Ascii Permutation Sorted Lia.
From Verif Require Import Base StepName_Model StepName_Proofs Tree_Model Tree_Spec Tree_Proofs Merge_Model Merge_Proofs RichMeta_Model RichMeta_Spec RichMeta_Proofs TreeMeta_Model TreeMeta_Spec.
Import ListNotations.
Open Scope string_scope.

(** ** repr *)

Definition unhex (c : ascii) : N := let n := N_of_ascii c in if (n <? 58)%N then (n - 48)%N else (n - 87)%N.

Definition unescape (l : list ascii) : option (ascii * list ascii) :=
  match l with
  | c :: r =>
    if Ascii.eqb c "\"%char then
      match r with
      | d :: r' =>
        if Ascii.eqb d "t"%char then Some ("009"%char, r')
        else if Ascii.eqb d "n"%char then Some ("010"%char, r')
        else if Ascii.eqb d "r"%char then Some ("013"%char, r')
        else if Ascii.eqb d "x"%char then
          match r' with h :: k :: r'' => Some (ascii_of_N (unhex h * 16 + unhex k), r'') | _ => None end
        else Some (d, r')
      | [] => None
      end
    else Some (c, r)
  | [] => None
  end.

Definition is_quote (q : ascii) : Prop := q = "'"%char \/ q = """"%char.

Lemma unescape_ok : forall q c r, is_quote q -> unescape (repr_char q c ++ r) = Some (c, r).
Proof.
  intros q c r [->| ->]; destruct c as [[] [] [] [] [] [] [] []]; reflexivity.
Qed.

Lemma repr_char_head : forall q c, is_quote q -> exists d l, repr_char q c = d :: l /\ d <> q.
Proof.
  intros q c [->| ->]; destruct c as [[] [] [] [] [] [] [] []]; eexists; eexists; (split; [reflexivity|discriminate]).
Qed.

Lemma chars_inj : forall q l l' r r', is_quote q ->
  (flat_map (repr_char q) l ++ q :: r = flat_map (repr_char q) l' ++ q :: r')%list -> l = l' /\ r = r'.
Proof.
  intros q l. induction l as [|c l IH]; intros [|c' l'] r r' Q E; cbn [flat_map app] in E.
  - injection E as E. auto.
  - destruct (repr_char_head q c' Q) as (d & m & H & N). rewrite H in E. injection E as E _. congruence.
  - destruct (repr_char_head q c Q) as (d & m & H & N). rewrite H in E. injection E as E _. congruence.
  - rewrite <- !app_assoc in E. assert (U := unescape_ok q c (flat_map (repr_char q) l ++ q :: r) Q). rewrite E, unescape_ok in U by auto.
    injection U as -> U. destruct (IH l' r r' Q) as [-> ->]; auto.
Qed.

Lemma quote_quote : forall l, is_quote (quote_for l).
Proof. intros l. unfold quote_for, is_quote. destruct (_ && _); auto. Qed.

Lemma repr_inj : forall s s' r r', (repr s ++ r = repr s' ++ r')%list -> s = s' /\ r = r'.
Proof.
  intros s s' r r' E. unfold repr in E. cbn [app] in E. injection E as Q E. rewrite <- Q in E. rewrite <- !app_assoc in E. cbn [app] in E.
  apply chars_inj in E as [E ->]; [|apply quote_quote]. split; auto.
  rewrite <- (string_of_list_ascii_of_string s), <- (string_of_list_ascii_of_string s'), E. reflexivity.
Qed.

Lemma repr_head : forall s r, exists q l, (repr s ++ r)%list = q :: l /\ is_quote q.
Proof. intros s r. unfold repr. eexists; eexists. split; [reflexivity|apply quote_quote]. Qed.

Fixpoint tail_items (l : list string) : list ascii :=
  match l with [] => [")"%char] | s :: r => (","%char :: " "%char :: repr s ++ tail_items r)%list end.

Lemma repr_items_tail : forall s r, (repr_items (s :: r) ++ [")"%char])%list = (repr s ++ tail_items r)%list.
Proof.
  intros s r. revert s. induction r as [|t r IH]; intros s; [reflexivity|]. cbn [tail_items]. rewrite <- IH.
  cbn [repr_items]. destruct r; rewrite <- app_assoc; reflexivity.
Qed.

Lemma tail_inj : forall l l', tail_items l = tail_items l' -> l = l'.
Proof.
  induction l as [|s l IH]; intros [|s' l'] E; cbn [tail_items] in E; try discriminate; auto.
  apply (f_equal (@tl ascii)), (f_equal (@tl ascii)) in E. cbn [tl] in E. apply repr_inj in E as [-> E]. f_equal. auto.
Qed.

Lemma str_tuple_inj : forall l l', str_tuple l = str_tuple l' -> l = l'.
Proof.
  assert (G : forall l, exists b, str_tuple l = string_of_list_ascii ("("%char :: b) /\
    match l with [] => b = [")"%char] | [s] => b = (repr s ++ [","%char; ")"%char])%list | s :: r => b = (repr s ++ tail_items r)%list end).
  { intros [|s [|t r]]; eexists; (split; [reflexivity|]); auto. apply repr_items_tail. }
  intros l l' E. destruct (G l) as (b & B & C), (G l') as (b' & B' & C'). rewrite B, B' in E.
  apply (f_equal list_ascii_of_string) in E. rewrite !list_ascii_of_string_of_list_ascii in E. apply (f_equal (@tl ascii)) in E. cbn [tl] in E.
  assert (H : forall s r, (")"%char :: r)%list <> repr s) by (intros s r X; unfold repr in X; destruct (quote_quote (list_ascii_of_string s)) as [Q|Q]; rewrite Q in X; discriminate).
  assert (H' : forall s r x, (")"%char :: r)%list <> (repr s ++ x)%list).
  { intros s r x X. destruct (repr_head s x) as (q & y & Y & [->| ->]); rewrite Y in X; discriminate. }
  destruct l as [|s [|t l]], l' as [|s' [|t' l']]; rewrite C, C' in E; auto.
  - exfalso. eapply H'; eauto.
  - exfalso. eapply H'; eauto.
  - exfalso. symmetry in E. eapply H'; eauto.
  - apply repr_inj in E as [-> _]. auto.
  - apply repr_inj in E as [_ E]. discriminate.
  - exfalso. symmetry in E. eapply H'; eauto.
  - apply repr_inj in E as [_ E]. discriminate.
  - apply repr_inj in E as [-> E]. apply tail_inj in E. congruence.
Qed.

(** ** The order of names *)

Lemma kname_eqb_spec : forall a b, reflect (a = b) (kname_eqb a b).
Proof.
  intros [i|s] [j|t]; simpl; try (constructor; congruence).
  - destruct (Nat.eqb_spec i j); constructor; congruence.
  - destruct (String.eqb_spec s t); constructor; congruence.
Qed.

(** The order of single names. *)
Definition kle (a b : kname) : bool :=
  match a, b with
  | NInt i, NInt j => (i <=? j)%nat
  | NStr s, NStr t => String.leb s t
  | NInt _, NStr _ => true
  | NStr _, NInt _ => false
  end.

Lemma kle_total : forall a b, kle a b = true \/ kle b a = true.
Proof. intros [i|s] [j|t]; simpl; auto; [rewrite !Nat.leb_le; lia|apply String.leb_total]. Qed.

Lemma kle_refl : forall a, kle a a = true.
Proof. intros a. destruct (kle_total a a); auto. Qed.

Lemma kle_antisym : forall a b, kle a b = true -> kle b a = true -> a = b.
Proof. intros [i|s] [j|t]; simpl; try discriminate; intros A B; f_equal; [rewrite Nat.leb_le in *; lia|apply String.leb_antisym; auto]. Qed.

Lemma kle_trans : forall a b c, kle a b = true -> kle b c = true -> kle a c = true.
Proof. intros [i|s] [j|t] [k|u]; simpl; try discriminate; auto; [rewrite !Nat.leb_le; lia|apply leb_trans]. Qed.

Lemma names_leb_cons : forall x a y b, names_leb (x :: a) (y :: b) = if kname_eqb x y then names_leb a b else kle x y.
Proof.
  intros [i|s] a [j|t] b; cbn [names_leb kname_eqb kle]; auto. destruct (Nat.eqb_spec i j); auto.
  destruct (Nat.ltb_spec i j), (Nat.leb_spec i j); auto; lia.
Qed.

Lemma names_leb_nil : forall x a, names_leb (x :: a) [] = false.
Proof. intros [i|s] a; reflexivity. Qed.

Lemma names_leb_total : forall a b, names_leb a b = true \/ names_leb b a = true.
Proof.
  induction a as [|x a IH]; intros [|y b]; auto. rewrite !names_leb_cons. destruct (kname_eqb_spec x y) as [->|N].
  - destruct (kname_eqb_spec y y); [apply IH|congruence].
  - destruct (kname_eqb_spec y x); [congruence|apply kle_total].
Qed.

Lemma names_leb_antisym : forall a b, names_leb a b = true -> names_leb b a = true -> a = b.
Proof.
  induction a as [|x a IH]; intros [|y b]; auto; rewrite ?names_leb_nil; try (intros; discriminate). rewrite !names_leb_cons. destruct (kname_eqb_spec x y) as [->|N].
  - destruct (kname_eqb_spec y y); [|congruence]. intros. f_equal. auto.
  - destruct (kname_eqb_spec y x); [congruence|]. intros A B. destruct N. apply kle_antisym; auto.
Qed.

Lemma names_leb_trans : forall a b c, names_leb a b = true -> names_leb b c = true -> names_leb a c = true.
Proof.
  induction a as [|x a IH]; intros [|y b] [|z c]; auto; rewrite ?names_leb_nil; try (intros; discriminate). rewrite !names_leb_cons.
  destruct (kname_eqb_spec x y) as [->|N].
  - destruct (kname_eqb_spec y z); auto. apply IH.
  - destruct (kname_eqb_spec y z) as [->|M].
    + destruct (kname_eqb_spec x z); [congruence|auto].
    + destruct (kname_eqb_spec x z) as [->|K]; [|apply kle_trans]. intros A B. destruct N. apply kle_antisym; auto.
Qed.

Lemma names_leb_refl : forall a, names_leb a a = true.
Proof. intros a. destruct (names_leb_total a a); auto. Qed.

(** Something between a list and one that extends it extends it. *)
Lemma prefix_between : forall a b c, names_leb a b = true -> names_leb b c = true -> proper_prefix a c = true -> a = b \/ proper_prefix a b = true.
Proof.
  induction a as [|x a IH]; intros [|y b] c; auto; rewrite ?names_leb_nil; [intros; discriminate|].
  destruct c as [|z c]; [intros; discriminate|]. rewrite !names_leb_cons. cbn [proper_prefix]. intros A B C. apply andb_true_iff in C as [E C].
  destruct (kname_eqb_spec x z) as [<-|]; [|discriminate]. destruct (kname_eqb_spec x y) as [<-|N].
  - destruct (kname_eqb_spec x x); [|congruence]. destruct (IH b c) as [->|P]; auto.
  - destruct (kname_eqb_spec y x); [congruence|]. destruct N. apply kle_antisym; auto.
Qed.

Lemma proper_prefix_spec : forall a b, proper_prefix a b = true <-> extends b a.
Proof.
  unfold extends. induction a as [|x a IH]; intros [|y b]; cbn [proper_prefix].
  - split; [discriminate|]. intros (r & N & E). destruct r; [congruence|discriminate].
  - split; auto. intros _. exists (y :: b). split; [discriminate|reflexivity].
  - split; [discriminate|]. intros (r & N & E). discriminate.
  - rewrite andb_true_iff, IH. split.
    + intros [E (r & N & ->)]. destruct (kname_eqb_spec x y) as [->|]; [|discriminate]. exists r. auto.
    + intros (r & N & E). cbn [app] in E. injection E as -> ->. split; [destruct (kname_eqb_spec x x); congruence|eauto].
Qed.

Lemma proper_prefix_leb : forall a b, proper_prefix a b = true -> names_leb a b = true.
Proof.
  induction a as [|x a IH]; intros [|y b]; cbn [proper_prefix]; try discriminate; auto.
  rewrite names_leb_cons. intros H. apply andb_true_iff in H as [E H]. rewrite E. auto.
Qed.

Lemma proper_prefix_irrefl : forall a, proper_prefix a a = false.
Proof. induction a as [|x a IH]; auto. cbn [proper_prefix]. rewrite IH. apply andb_false_r. Qed.

(** ** Sorting and filtering *)

Section Sorting.
Context {A : Type}.

Definition nle (x y : list kname * A) : Prop := names_leb (fst x) (fst y) = true.

Lemma insert_by_perm : forall (x : list kname * A) l, Permutation (insert_by x l) (x :: l).
Proof.
  intros x l. induction l as [|y l IH]; simpl; auto. destruct (names_leb _ _); auto. rewrite IH. apply perm_swap.
Qed.

Lemma insert_by_sorted : forall (x : list kname * A) l, StronglySorted nle l -> StronglySorted nle (insert_by x l).
Proof.
  intros x l S. induction S as [|y l S IH F]; simpl; [repeat constructor|]. destruct (names_leb (fst x) (fst y)) eqn:E.
  - constructor; [constructor; auto|]. constructor; [exact E|]. rewrite Forall_forall in *. intros z Z. unfold nle. eapply names_leb_trans; [exact E|apply F; auto].
  - constructor; auto. rewrite Forall_forall in *. intros z Z. apply (Permutation_in _ (insert_by_perm x l)) in Z as [<-|Z]; auto.
    unfold nle. destruct (names_leb_total (fst x) (fst y)); congruence.
Qed.

Lemma sort_perm : forall l : list (list kname * A), Permutation (fold_right insert_by [] l) l.
Proof. induction l as [|x l IH]; simpl; auto. rewrite insert_by_perm. auto. Qed.

Lemma sort_sorted : forall l : list (list kname * A), StronglySorted nle (fold_right insert_by [] l).
Proof. induction l as [|x l IH]; simpl; [constructor|]. apply insert_by_sorted; auto. Qed.

(** Two sorted lists with the same elements are the same. *)
Lemma sorted_unique : forall l m : list (list kname * A), StronglySorted nle l -> StronglySorted nle m -> NoDup (map fst l) -> Permutation l m -> l = m.
Proof.
  intros l. induction l as [|x l IH]; intros m S T N P; [apply Permutation_nil in P; auto|].
  destruct m as [|y m]; [apply Permutation_sym, Permutation_nil in P; discriminate|].
  inversion_clear S as [|? ? S1 S2]. inversion_clear T as [|? ? T1 T2]. cbn [map] in N. inversion_clear N as [|? ? N1 N2].
  rewrite Forall_forall in S2, T2. assert (x = y).
  { assert (X : In x (y :: m)) by (eapply Permutation_in; [exact P|left; auto]). assert (Y : In y (x :: l)) by (eapply Permutation_in; [apply Permutation_sym; exact P|left; auto]).
    destruct X as [X|X]; auto. destruct Y as [Y|Y]; auto. exfalso. apply N1. assert (E : fst x = fst y) by (apply names_leb_antisym; [apply S2; auto|apply T2; auto]).
    rewrite E. apply in_map; auto. }
  subst y. f_equal. apply IH; auto. eapply Permutation_cons_inv; eauto.
Qed.

(** The filter keeps what nothing else extends. *)
Lemma filter_prefixes_eq : forall l : list (list kname * A), StronglySorted nle l -> NoDup (map fst l) ->
  filter_prefixes l = filter (fun x => negb (existsb (fun y => proper_prefix (fst x) (fst y)) l)) l.
Proof.
  intros l S N. transitivity (filter (fun x => negb (existsb (fun y => proper_prefix (fst x) (fst y)) l)) l); auto.
  assert (G : forall l' : list (list kname * A), (forall x y, In x l -> In y l' -> proper_prefix (fst x) (fst y) = true -> In y l) ->
    filter_prefixes l = filter (fun x => negb (existsb (fun y => proper_prefix (fst x) (fst y)) l)) l).
  { intros _ _. induction S as [|x l S IH F]; [reflexivity|]. cbn [map] in N. inversion_clear N as [|? ? N1 N2].
    assert (B : forall y, In y l -> existsb (fun z => proper_prefix (fst y) (fst z)) (x :: l) = existsb (fun z => proper_prefix (fst y) (fst z)) l).
    { intros y Y. cbn [existsb]. destruct (proper_prefix (fst y) (fst x)) eqn:P; auto. exfalso. apply N1. rewrite Forall_forall in F.
      assert (E : fst x = fst y) by (apply names_leb_antisym; [apply F; auto|apply proper_prefix_leb; auto]). rewrite E. apply in_map; auto. }
    assert (C : filter (fun z => negb (existsb (fun y => proper_prefix (fst z) (fst y)) (x :: l))) l = filter_prefixes l).
    { rewrite IH by auto. apply filter_ext_in. intros y Y. rewrite B; auto. }
    change (filter (fun x0 => negb (existsb (fun y => proper_prefix (fst x0) (fst y)) (x :: l))) (x :: l)) with
      (if negb (existsb (fun y => proper_prefix (fst x) (fst y)) (x :: l)) then x :: filter (fun z => negb (existsb (fun y => proper_prefix (fst z) (fst y)) (x :: l))) l else filter (fun z => negb (existsb (fun y => proper_prefix (fst z) (fst y)) (x :: l))) l).
    rewrite C. cbn [existsb]. rewrite proper_prefix_irrefl. cbn [orb]. destruct l as [|y l]; [reflexivity|].
    change (filter_prefixes (x :: y :: l)) with (if proper_prefix (fst x) (fst y) then filter_prefixes (y :: l) else x :: filter_prefixes (y :: l)).
    cbn [existsb]. destruct (proper_prefix (fst x) (fst y)) eqn:P; [reflexivity|]. cbn [orb].
    destruct (existsb _ l) eqn:Q; [|reflexivity]. exfalso. apply existsb_exists in Q as (z & Z & Q).
    rewrite Forall_forall in F. inversion_clear S as [|? ? S1 S2]. rewrite Forall_forall in S2.
    destruct (prefix_between (fst x) (fst y) (fst z)) as [E|E]; auto; [apply (F y); left; auto|apply (S2 z); auto| |congruence].
    apply N1. rewrite E. left. auto. }
  apply (G l). auto.
Qed.

Lemma filter_sorted : forall (f : list kname * A -> bool) l, StronglySorted nle l -> StronglySorted nle (filter f l).
Proof.
  intros f l S. induction S as [|x l S IH F]; simpl; [constructor|]. destruct (f x); auto. constructor; auto.
  rewrite Forall_forall in *. intros y Y. apply filter_In in Y as [Y _]. auto.
Qed.

End Sorting.

(** ** The leaves of plain trees *)

Definition names_of (p : path) : list kname := map get_key_name p.
Definition keyed_by {A : Type} (x : path * A) : list kname * (path * A) := (names_of (fst x), x).

Definition plain_key (k : key) : Prop := match k with SequenceKey _ => True | DictKey (KStr _) => True | _ => False end.

Lemma plain_key_inj : forall k l, plain_key k -> plain_key l -> get_key_name k = get_key_name l -> k = l.
Proof. intros [i|[s|z]|s] [j|[t|y]|t]; simpl; try tauto; congruence. Qed.

Lemma names_of_inj : forall p q, Forall plain_key p -> Forall plain_key q -> names_of p = names_of q -> p = q.
Proof.
  induction p as [|x p IH]; intros [|y q] P Q E; try discriminate; auto. inversion_clear P. inversion_clear Q. injection E as E1 E2.
  f_equal; [apply plain_key_inj; auto|apply IH; auto].
Qed.

Lemma plain_wf : forall {V : Type} (t : tree V), plain t -> wf t.
Proof.
  intros V t. induction t as [v|k cs F] using tree_ind'; intros P; [constructor|]. rewrite Forall_forall in F.
  inversion_clear P as [|? N E P'|? N E S P']; rewrite Forall_forall in P'.
  - constructor; [simpl; rewrite map_length; auto|]. apply Forall_forall. auto.
  - constructor; [simpl; auto|]. apply Forall_forall. auto.
Qed.

Lemma plain_child : forall {V : Type} k (cs : list (key * tree V)) x c, plain (Node k cs) -> In (x, c) cs -> plain c /\ plain_key x.
Proof.
  intros V k cs x c P I. inversion_clear P as [|? N E P'|? N E S P']; rewrite Forall_forall in P'; (split; [exact (P' (x, c) I)|]).
  - apply (in_map fst) in I. rewrite E in I. apply in_map_iff in I as (i & X & _). simpl in X. subst x. exact Logic.I.
  - apply (in_map fst) in I. apply S in I as (s & E'). simpl in E'. subst x. exact Logic.I.
Qed.

Lemma plain_path : forall {V : Type} (t : tree V) p s, plain t -> at_path t p s -> Forall plain_key p.
Proof.
  intros V t p s P A. induction A as [t|k cs x c p s I A IH]; constructor; destruct (plain_child _ _ _ _ P I); auto.
Qed.

Lemma plain_kind : forall {V : Type} k (cs : list (key * tree V)), plain (Node k cs) -> cs <> [] /\ (k = KList \/ k = KDict).
Proof. intros V k cs P. inversion P; auto. Qed.

Lemma plain_empty : forall {V : Type} (t : tree V) p s, plain t -> at_path t p s -> is_leaf true s -> exists v, s = Leaf v.
Proof.
  intros V t p s P A. induction A as [t|k cs x c p s I A IH]; intros L.
  - destruct t as [v|k cs]; eauto. simpl in L. destruct L as [_ ->]. apply plain_kind in P as [P _]. congruence.
  - apply IH; auto. apply (plain_child _ _ _ _ P I).
Qed.

(** Children of one node have distinct names of one class. *)
Lemma plain_distinct : forall {V : Type} k (cs : list (key * tree V)) x c d, plain (Node k cs) -> In (x, c) cs -> In (x, d) cs -> c = d.
Proof.
  intros V k cs x c d P I J. assert (N : NoDup (map fst cs)).
  { inversion P as [|? N E P'|? N E S P']; subst; auto. rewrite E. apply FinFun.Injective_map_NoDup; [intros a b H; congruence|apply seq_NoDup]. }
  clear P. induction cs as [|[y e] cs IH]; [contradiction|]. cbn [map] in N. inversion_clear N as [|? ? N1 N2].
  destruct I as [I|I], J as [J|J]; [congruence| | |auto].
  - injection I as -> ->. exfalso. apply N1. apply (in_map fst) in J. auto.
  - injection J as -> ->. exfalso. apply N1. apply (in_map fst) in I. auto.
Qed.

Lemma plain_class : forall {V : Type} k (cs : list (key * tree V)) x y c d, plain (Node k cs) -> In (x, c) cs -> In (y, d) cs ->
  (exists i j, x = SequenceKey i /\ y = SequenceKey j) \/ (exists s t, x = DictKey (KStr s) /\ y = DictKey (KStr t)).
Proof.
  intros V k cs x y c d P I J. apply (in_map fst) in I, J. inversion P as [|? N E P'|? N E S P']; subst.
  - left. rewrite E in I, J. apply in_map_iff in I as (i & X & _). apply in_map_iff in J as (j & Y & _). simpl in X, Y. subst. eauto.
  - right. apply S in I as (s & I). apply S in J as (t & J). simpl in I, J. subst. eauto.
Qed.

Lemma no_clash : forall {V : Type} (t : tree V) p q s u, plain t -> at_path t p s -> at_path t q u -> clash (names_of p) (names_of q) = false.
Proof.
  intros V t p q s u P A. revert q u. induction A as [t|k cs x c p s I A IH]; intros q u B; [reflexivity|].
  destruct q as [|y q]; [cbn [names_of map clash]; destruct (get_key_name x); reflexivity|]. apply at_node in B as (d & J & B).
  destruct (plain_class _ _ _ _ _ _ P I J) as [(i & j & -> & ->)|(a & b & -> & ->)]; cbn [names_of map get_key_name clash str_dkey].
  - destruct (Nat.eqb_spec i j) as [<-|]; auto. rewrite (plain_distinct _ _ _ _ _ P J I) in B. apply (IH (proj1 (plain_child _ _ _ _ P I)) _ _ B).
  - destruct (String.eqb_spec a b) as [<-|]; auto. rewrite (plain_distinct _ _ _ _ _ P J I) in B. apply (IH (proj1 (plain_child _ _ _ _ P I)) _ _ B).
Qed.

Lemma leaf_ends : forall {V : Type} (t : tree V) p q v s, plain t -> at_path t p (Leaf v) -> at_path t q s -> ~ extends q p.
Proof.
  intros V t p q v s P A. revert q s. remember (Leaf v) as l eqn:E. induction A as [t|k cs x c p l I A IH]; intros q s B (r & N & ->).
  - subst t. cbn [app] in B. apply at_leaf in B as [-> _]. congruence.
  - cbn [app] in B. apply at_node in B as (d & J & B). rewrite (plain_distinct _ _ _ _ _ P J I) in B.
    apply (IH (proj1 (plain_child _ _ _ _ P I)) E _ _ B). exists r. auto.
Qed.

Definition kstrict (a b : kname) : Prop := kle a b = true /\ a <> b.

Lemma items_sorted : forall {V : Type} k (cs : list (key * tree V)), plain (Node k cs) ->
  StronglySorted (fun x y => kstrict (get_key_name (fst x)) (get_key_name (fst y))) (order k cs).
Proof.
  intros V k cs P. inversion P as [|? N E P'|? N E S P']; subst; cbn [order].
  - clear - E. revert E. generalize 0 at 1. induction cs as [|[x c] cs IH]; intros n E; [constructor|]. cbn [map fst List.length seq] in E. injection E as -> E.
    constructor; [apply (IH (Datatypes.S n)); auto|]. apply Forall_forall. intros [y d] I. apply (in_map fst) in I. rewrite E in I. simpl in I.
    apply in_map_iff in I as (j & X & I). subst y. apply in_seq in I. unfold kstrict. cbn [fst get_key_name kle]. rewrite Nat.leb_le. split; [lia|]. intros X. injection X as X. lia.
  - clear - E S. revert E S. induction cs as [|[x c] cs IH]; intros E S; [constructor|]. cbn [map fst] in E, S. inversion_clear E as [|? ? E1 E2].
    cbn [sort_items fold_right]. specialize (IH E2 (fun y Y => S y (or_intror Y))). change (fold_right insert_item [] cs) with (sort_items cs).
    assert (IN : forall y, In y (sort_items cs) -> In (fst y) (map fst cs)) by (intros y Y; apply in_map; apply (order_in KDict); exact Y).
    destruct (S x) as (a & ->); [left; auto|].
    induction IH as [|[y d] l SS IH2 F]; [repeat constructor|]. cbn [insert_item fst].
    destruct (S y) as (b & ->); [right; apply (IN (y, d)); left; auto|]. cbn [key_leb dkey_leb].
    assert (NE : a <> b). { intros ->. apply E1. apply (IN (DictKey (KStr b), d)). left; auto. }
    destruct (String.leb a b) eqn:L.
    + assert (X : kstrict (NStr a) (NStr b)) by (split; [exact L|congruence]). constructor; [constructor; auto|]. constructor; [exact X|].
      rewrite Forall_forall in *. intros z Z. specialize (F z Z). cbn [fst get_key_name str_dkey] in *. destruct X as [X1 X2], F as [F1 F2]. split; [eapply kle_trans; eauto|].
      intros E. rewrite <- E in F1. apply X2. apply kle_antisym; auto.
    + constructor; [apply IH2; intros z Z; apply IN; right; auto|]. rewrite Forall_forall in *. intros z Z. apply (Permutation_in _ (insert_perm _ _)) in Z as [<-|Z]; [|apply F; auto].
      cbn [fst get_key_name str_dkey]. split; [simpl; destruct (String.leb_total a b); congruence|congruence].
Qed.

Lemma sorted_app : forall {A : Type} (R : A -> A -> Prop) l m, StronglySorted R l -> StronglySorted R m ->
  (forall x y, In x l -> In y m -> R x y) -> StronglySorted R (l ++ m)%list.
Proof.
  intros A R l m S T H. induction S as [|x l S IH F]; cbn [app]; auto. constructor; [apply IH; intros; apply H; auto; right; auto|].
  apply Forall_app. split; auto. apply Forall_forall. intros y Y. apply H; auto. left; auto.
Qed.

Lemma flatten_sorted : forall {V : Type} (t : tree V), plain t -> StronglySorted nle (map keyed_by (flatten true t)).
Proof.
  intros V t. induction t as [v|k cs F] using tree_ind'; intros P; [repeat constructor|]. destruct (plain_kind _ _ P) as [N _].
  rewrite flatten_node by auto. assert (S := items_sorted k cs P). rewrite Forall_forall in F.
  assert (G : forall x, In x (order k cs) -> StronglySorted nle (map keyed_by (flatten true (snd x)))).
  { intros x X. rewrite order_in in X. apply F; auto. destruct x as [x c]. apply (plain_child _ _ _ _ P X). }
  induction S as [|x l S IH FF]; [constructor|]. cbn [flat_map]. rewrite map_app. apply sorted_app.
  - specialize (G x (or_introl eq_refl)). unfold under. rewrite map_map. clear - G. induction (flatten true (snd x)) as [|[p v] r IH]; [constructor|].
    cbn [map] in *. inversion_clear G as [|? ? G1 G2]. constructor; [apply IH; auto|]. rewrite Forall_forall in *. intros y Y.
    apply in_map_iff in Y as ([q w] & <- & Y). specialize (G2 (keyed_by (q, w))). unfold nle, keyed_by, names_of in *. cbn [fst snd map] in *.
    rewrite names_leb_cons. destruct (kname_eqb_spec (get_key_name (fst x)) (get_key_name (fst x))); [|congruence]. apply G2. apply in_map_iff. exists (q, w). auto.
  - apply IH. intros y Y. apply G. right; auto.
  - intros y z Y Z. apply in_map_iff in Y as (y' & <- & Y). apply in_map_iff in Z as (z' & <- & Z). unfold under in Y. apply in_map_iff in Y as (y2 & <- & Y).
    apply in_flat_map in Z as (b & B & Z). unfold under in Z. apply in_map_iff in Z as (z2 & <- & Z). rewrite Forall_forall in FF. destruct (FF b B) as [F1 F2].
    unfold nle, keyed_by, names_of. cbn [fst map]. rewrite names_leb_cons. destruct (kname_eqb_spec (get_key_name (fst x)) (get_key_name (fst b))); [congruence|exact F1].
Qed.

Lemma serialized_plain : forall {V : Type} (t : tree V), plain t -> serialized true t = norm t.
Proof.
  intros V t. induction t as [v|k cs F] using tree_ind'; intros P; auto. destruct (plain_kind _ _ P) as [N K].
  rewrite serialized_node, norm_node, order_seen_all by auto. rewrite Forall_forall in F. unfold map_items.
  assert (X : forall x, In x (order k cs) -> serialized true (snd x) = norm (snd x) /\ (is_sequence k = false -> DictKey (KStr (str_name (fst x))) = fst x)).
  { intros [x c] I. rewrite order_in in I. destruct (plain_child _ _ _ _ P I) as [PC PK]. split; [apply (F (x, c)); auto|]. intros SK. cbn [fst].
    destruct (plain_class _ _ _ _ _ _ P I I) as [(i & j & -> & _)|(s & u & -> & _)]; [|reflexivity]. apply (in_map fst) in I.
    inversion P as [|? N' E' P'|? N' E' S' P']; subst; [discriminate|]. apply S' in I as (s & I). discriminate. }
  f_equal; [destruct K as [->| ->]; reflexivity|]. apply map_ext_in. intros x I. destruct (X x I) as [-> Y]. destruct (is_sequence k); auto. rewrite Y; auto.
Qed.

Definition leaf_list {V : Type} (t : tree V) : list (path * V) :=
  flat_map (fun x => match snd x with Leaf v => [(fst x, v)] | Node _ _ => [] end) (flatten true t).

Lemma leaf_list_flatten : forall {V : Type} (t : tree V), plain t -> flatten true t = map (fun x => (fst x, Leaf (snd x))) (leaf_list t).
Proof.
  intros V t P. unfold leaf_list. assert (H : forall x, In x (flatten true t) -> exists v, snd x = Leaf v).
  { intros [p s] I. apply flatten_spec in I as [A L]. apply (plain_empty t p s); auto. }
  induction (flatten true t) as [|[p s] l IH]; auto. destruct (H (p, s)) as (v & E); [left; auto|]. cbn [snd] in E. subst s. cbn [flat_map snd fst app map].
  f_equal. apply IH. intros x X. apply H. right; auto.
Qed.

Lemma leaf_list_in : forall {V : Type} (t : tree V) p v, In (p, v) (leaf_list t) <-> at_path t p (Leaf v).
Proof.
  intros V t p v. unfold leaf_list. rewrite in_flat_map. split.
  - intros ([q s] & I & J). destruct s as [w|]; [|contradiction]. destruct J as [J|[]]. cbn [fst snd] in J. injection J as -> ->. apply flatten_spec in I. tauto.
  - intros A. exists (p, Leaf v). split; [apply flatten_spec; simpl; auto|left; auto].
Qed.

Lemma named_inj_nodup : forall {V : Type} (l : list (path * V)), NoDup (map (fun x => names_of (fst x)) l) -> NoDup l.
Proof. intros V l N. eapply NoDup_map_inv; exact N. Qed.

Lemma str_to_names : forall p q : path, names_of p = names_of q -> map str_name p = map str_name q.
Proof.
  induction p as [|x p IH]; intros [|y q] E; try discriminate; auto. injection E as E1 E2. cbn [map]. f_equal; auto. unfold str_name. rewrite E1. auto.
Qed.

Lemma leaf_list_names : forall {V : Type} (t : tree V), plain t -> NoDup (map (fun x => names_of (fst x)) (leaf_list t)).
Proof.
  intros V t P. assert (N := named_nodup true t (plain_wf t P)). rewrite (leaf_list_flatten t P) in N. rewrite fst_named in N. rewrite !map_map in N. cbn [fst] in N.
  revert N. induction (leaf_list t) as [|x l IH]; cbn [map]; intros N; [constructor|]. inversion_clear N as [|? ? N1 N2]. constructor; auto.
  intros I. apply N1. apply in_map_iff in I as (y & E & I). apply in_map_iff. exists y. split; auto. apply str_to_names in E. exact E.
Qed.

Lemma at_prefix : forall {V : Type} (t : tree V) p r s, at_path t (p ++ r)%list s -> exists u, at_path t p u.
Proof.
  intros V t p. revert t. induction p as [|x p IH]; intros t r s A; [exists t; constructor|]. cbn [app] in A. destruct t as [v|k cs]; [inversion A|].
  apply at_node in A as (c & I & A). destruct (IH c r s A) as (u & U). exists u. apply at_node. eauto.
Qed.

Lemma jax_keypath_ok : forall e x, describes e x -> jax_keypath e = Ok (fst x).
Proof.
  intros e [p v] [_ D]. unfold jax_keypath. cbn [fst] in *. induction D as [|n k ns ks D _ IH]; auto. cbn [map sequence].
  assert (H : keypath_from_key_type (fst n) (snd n) = Ok k).
  { destruct k as [i|[s|z]|s]; try contradiction; subst n; cbn [fst snd keypath_from_key_type]; auto.
    rewrite list_ascii_of_string_of_list_ascii. assert (PD := parse_dec (N.of_nat i)). destruct (dec (N.of_nat i)) as [|c l] eqn:E; [exfalso; exact (dec_nonempty _ E)|]. rewrite PD, Nat2N.id. auto. }
  rewrite H. cbn [rbind]. rewrite IH. auto.
Qed.

Lemma extends_names : forall p q : path, extends p q -> extends (names_of p) (names_of q).
Proof. intros p q (r & N & ->). exists (names_of r). split; [destruct r; [congruence|discriminate]|unfold names_of; apply map_app]. Qed.

Lemma names_extend : forall p q : path, Forall plain_key p -> Forall plain_key q -> extends (names_of p) (names_of q) -> extends p q.
Proof.
  intros p q P Q (r & N & E). unfold names_of in E. revert q P Q E. induction p as [|x p IH]; intros [|y q] P Q E.
  - destruct r; [congruence|discriminate].
  - discriminate.
  - exists (x :: p). split; [discriminate|auto].
  - cbn [map app] in E. injection E as E1 E2. inversion_clear P. inversion_clear Q. destruct (IH q) as (s & S1 & S2); auto.
    exists s. split; auto. cbn [app]. f_equal; auto. apply plain_key_inj; auto.
Qed.

Theorem nested_ok : forall m l T, legacy m -> plain T -> Forall2 describes (entries m) l -> NoDup (map fst l) ->
  (forall p v, at_path T p (Leaf v) -> In (p, v) l) ->
  (forall p v, In (p, v) l -> at_path T p (Leaf v) \/ exists q w, at_path T q (Leaf w) /\ extends q p) ->
  as_nested_tree m = Ok (norm T).
Proof.
  intros m l T L P D N ALL EACH.
  assert (AT : forall p v, In (p, v) l -> exists s, at_path T p s).
  { intros p v I. destruct (EACH p v I) as [A|(q & w & A & r & _ & ->)]; eauto. eapply at_prefix; eauto. }
  assert (PK : forall p v, In (p, v) l -> Forall plain_key p). { intros p v I. destruct (AT p v I) as (s & A). eapply plain_path; eauto. }
  assert (E : as_nested_tree m = rbind (sort_by_keys (map keyed_by l)) (fun s => from_flattened_with_keypath (map (fun x => (fst (snd x), Leaf (snd (snd x)))) (filter_prefixes s)))).
  { assert (SQ : sequence (map (fun e => rmap (fun p => (map get_key_name p, (p, value_metadata e))) (jax_keypath e)) (entries m)) = Ok (map keyed_by l)).
    { clear - D. induction D as [|e x es xs D _ IH]; auto. cbn [map sequence]. rewrite (jax_keypath_ok e x D). cbn [rmap rbind]. rewrite IH. cbn [rbind].
      unfold keyed_by at 2. destruct x as [p v]. destruct D as [V _]. cbn [fst snd] in *. rewrite V. reflexivity. }
    unfold as_nested_tree. rewrite SQ. destruct L as [-> | ->]; [reflexivity|]. destruct (support_rich_types m); reflexivity. }
  rewrite E. clear E D. unfold sort_by_keys.
  assert (NC : existsb (fun x => existsb (fun y => clash (fst x) (fst y)) (map keyed_by l)) (map keyed_by l) = false).
  { destruct (existsb _ _) eqn:X; auto. apply existsb_exists in X as (x & I & X). apply existsb_exists in X as (y & J & X).
    apply in_map_iff in I as ([p v] & <- & I). apply in_map_iff in J as ([q w] & <- & J). destruct (AT p v I) as (s & A), (AT q w J) as (u & B).
    unfold keyed_by in X. cbn [fst] in X. rewrite (no_clash T p q s u P A B) in X. discriminate. }
  rewrite NC. clear NC. cbn [rbind]. set (S := fold_right insert_by [] (map keyed_by l)).
  assert (SP : Permutation S (map keyed_by l)) by apply sort_perm.
  assert (SS : StronglySorted nle S) by apply sort_sorted.
  assert (NL : NoDup (map fst (map keyed_by l))).
  { rewrite map_map. unfold keyed_by. cbn [fst]. clear - N PK. induction l as [|[p v] l IH]; [constructor|]. cbn [map fst] in *. inversion_clear N as [|? ? N1 N2].
    constructor; [|apply IH; auto; intros q w I; apply (PK q w); right; auto]. intros I. apply N1. apply in_map_iff in I as ([q w] & E & I). cbn [fst] in E.
    apply names_of_inj in E; [|apply (PK q w); right; auto|apply (PK p v); left; auto]. subst q. apply (in_map fst) in I. exact I. }
  assert (NS : NoDup (map fst S)) by (eapply Permutation_NoDup; [apply Permutation_map, Permutation_sym; exact SP|exact NL]).
  rewrite filter_prefixes_eq by auto.
  assert (F : filter (fun x => negb (existsb (fun y => proper_prefix (fst x) (fst y)) S)) S = map keyed_by (leaf_list T)).
  { assert (FN : NoDup (map fst (filter (fun x => negb (existsb (fun y => proper_prefix (fst x) (fst y)) S)) S))) by (apply NoDup_map_filter; auto).
    apply sorted_unique; auto; [apply filter_sorted; auto| |].
    - assert (X := flatten_sorted T P). rewrite (leaf_list_flatten T P) in X. rewrite map_map in X. revert X. clear. induction (leaf_list T) as [|x r IH]; cbn [map]; intros X; [constructor|].
      inversion_clear X as [|? ? X1 X2]. constructor; auto. rewrite Forall_forall in *. intros y Y. apply in_map_iff in Y as (z & <- & Z).
      apply (X2 (keyed_by (fst z, Leaf (snd z)))). apply in_map_iff. exists z. auto.
    - apply NoDup_Permutation; [eapply NoDup_map_inv; exact FN| |].
      + apply (NoDup_map_inv fst). rewrite map_map. apply (leaf_list_names T P).
      + intros x. rewrite filter_In, negb_true_iff. split.
        * intros [I X]. apply (Permutation_in _ SP) in I. apply in_map_iff in I as ([p v] & <- & I). apply in_map. apply leaf_list_in.
          destruct (EACH p v I) as [A|(q & w & A & EX)]; auto. exfalso.
          assert (Y : existsb (fun y => proper_prefix (fst (keyed_by (p, v))) (fst y)) S = true).
          { apply existsb_exists. exists (keyed_by (q, w)). split; [apply (Permutation_in _ (Permutation_sym SP)); apply in_map; apply ALL; auto|].
            apply proper_prefix_spec. apply extends_names. auto. }
          congruence.
        * intros I. apply in_map_iff in I as ([p v] & <- & I). apply leaf_list_in in I. split; [apply (Permutation_in _ (Permutation_sym SP)); apply in_map; auto|].
          destruct (existsb _ S) eqn:X; auto. exfalso. apply existsb_exists in X as (y & J & X). apply (Permutation_in _ SP) in J. apply in_map_iff in J as ([q w] & <- & J).
          apply proper_prefix_spec in X. unfold keyed_by in X. cbn [fst] in X. apply names_extend in X; [|apply (PK q w); auto|apply (PK p v); auto].
          destruct (AT q w J) as (s & B). exact (leaf_ends T p q v s P I B X). }
  rewrite F. rewrite map_map. unfold keyed_by. cbn [snd]. rewrite <- (leaf_list_flatten T P). change (serialize_tree true T = Ok (norm T)).
  rewrite serialize_ok by (apply plain_wf; auto). rewrite leafy_true, dense_true, serialized_plain by auto. reflexivity.
Qed.

(** ** JSON *)

Lemma key_type_round : forall k, key_type_from_json (key_type_json k) = Ok k.
Proof. intros []; reflexivity. Qed.

Lemma nested_round : forall n, nested_from_json (nested_to_json n) = Ok n.
Proof. intros [s []]; reflexivity. Qed.

Lemma nesteds_round : forall l, sequence (map nested_from_json (map nested_to_json l)) = Ok l.
Proof. induction l as [|n l IH]; auto. cbn [map sequence]. rewrite nested_round. cbn [rbind]. rewrite IH. auto. Qed.

Lemma override_reread : forall v, mkV (override_empty_value_typestr (value_type v) false) (skip_deserialize v) (write_shape v) = reread_value v.
Proof. intros v. unfold reread_value, override_empty_value_typestr. cbn [negb andb]. reflexivity. Qed.

Lemma entry_round : forall e, entry_from_json (keypath e) (entry_json e) = Ok (reread_entry e).
Proof.
  intros e. unfold entry_from_json, entry_json. remember (plist (map nested_to_json (key_metadata e))) as K eqn:EK. remember (vm_to_json (value_metadata e)) as W eqn:EW.
  unfold pdict. cbn [map fst snd field find_item key_eqb dkey_eqb]. cbn [rbind]. change (String.eqb "value_metadata" "key_metadata") with false. cbn [rbind].
  change (String.eqb "key_metadata" "key_metadata") with true. change (String.eqb "value_metadata" "value_metadata") with true. cbv iota. cbn [rbind].
  subst K. rewrite elements_plist. cbn [rbind]. rewrite nesteds_round. cbn [rbind]. subst W. rewrite vm_round. cbn [rbind]. rewrite override_reread. reflexivity.
Qed.

Lemma entries_json_eq : forall l, NoDup (map keypath l) -> entries_json l = map (fun e => (keypath e, entry_json e)) l.
Proof. intros l N. unfold entries_json. apply dict_of_nodup; [apply String.eqb_spec|]. rewrite map_map. exact N. Qed.

Lemma entries_back : forall l, sequence (map (fun x => entry_from_json (fst x) (snd x)) (map (fun e => (keypath e, entry_json e)) l)) = Ok (map reread_entry l).
Proof. induction l as [|e l IH]; auto. cbn [map sequence fst snd]. rewrite entry_round. cbn [rbind]. rewrite IH. auto. Qed.

Lemma items_pdict : forall l, items (pdict l) = Ok l.
Proof.
  intros l. unfold items, pdict. f_equal. rewrite map_map. transitivity (map (fun x : string * json => x) l); [|apply map_id]. apply map_ext. intros [s j]. reflexivity.
Qed.

Lemma as_flag_round : forall o, as_flag (flag_json o) = Ok o.
Proof. intros [[]|]; reflexivity. Qed.

Lemma json_entries : forall M Q m d rich, NoDup (map keypath (entries m)) -> to_json M Q m = Ok d ->
  from_json d rich = rbind (match rich, d_rich d with true, Some j => rmap Some (rbind (loads j) as_metas) | _, _ => Ok None end)
    (fun t => Ok (mkM (map reread_entry (entries m)) (use_ocdbt m) (use_zarr3 m) (custom_metadata m) (store_array_data_equal_to_fill_value m) rich t)).
Proof.
  intros M Q m d rich N E. assert (O : d_obj d = [("tree_metadata", pdict (entries_json (entries m)));
              ("use_ocdbt", flag_json (use_ocdbt m)); ("use_zarr3", Leaf (SBool (use_zarr3 m)));
              ("store_array_data_equal_to_fill_value", Leaf (SBool (store_array_data_equal_to_fill_value m))); ("custom_metadata", custom_metadata m)]).
  { unfold to_json in E. destruct (support_rich_types m); [|injection E as <-; reflexivity]. destruct (value_metadata_tree m); [|injection E as <-; reflexivity].
    destruct (dumps M Q t); [|discriminate]. cbn [rmap rbind] in E. injection E as <-. reflexivity. }
  unfold from_json. rewrite O.
  change (get "use_ocdbt" _ _) with (flag_json (use_ocdbt m)). change (get "use_zarr3" _ _) with (Leaf (SBool (use_zarr3 m))).
  change (get "store_array_data_equal_to_fill_value" _ _) with (Leaf (SBool (store_array_data_equal_to_fill_value m))).
  change (get "custom_metadata" _ _) with (custom_metadata m).
  change (dget String.eqb "tree_metadata" _) with (Some (pdict (entries_json (entries m)))).
  rewrite as_flag_round. cbn [rbind as_bool]. rewrite items_pdict. cbn [rbind]. rewrite entries_json_eq by auto. rewrite entries_back. cbn [rbind].
  reflexivity.
Qed.

(** ** Building *)

Definition meta_of (i : pinfo) : vmeta :=
  let s := match value_typestr i with Some s => s | None => "" end in mkV s (is_empty_typestr s) (info_shape i).

Definition typed (t : tree pinfo) : Prop := forall p i, at_path t p (Leaf i) -> value_typestr i <> None.

Lemma meta_written : forall i, value_typestr i <> None -> written i (meta_of i).
Proof.
  intros i N. unfold written, meta_of. destruct (value_typestr i) as [s|]; [|congruence]. cbn [value_type skip_deserialize write_shape]. split; auto. split; auto.
  unfold is_empty_typestr. rewrite !orb_true_iff, !String.eqb_eq. cbn [In]. intuition congruence.
Qed.

Lemma vm_build_ok : forall i, value_typestr i <> None -> vm_build i = Ok (meta_of i).
Proof. intros i N. unfold vm_build, meta_of. destruct (value_typestr i); [reflexivity|congruence]. Qed.

Definition built_entry (x : path * pinfo) : entry := mkE (str_tuple (map str_name (fst x))) (key_build (fst x)) (meta_of (snd x)).

Lemma full_leaves : forall {V : Type} (t : tree V) p s, full t -> at_path t p s -> is_leaf true s -> exists v, s = Leaf v.
Proof.
  intros V t p s P A. induction A as [t|k cs x c p s I A IH]; intros L.
  - destruct t as [v|k cs]; eauto. simpl in L. destruct L as [_ ->]. inversion P; congruence.
  - apply IH; auto. inversion_clear P as [|? ? N F]. rewrite Forall_forall in F. apply (F (x, c)); auto.
Qed.

Lemma full_leaf_list : forall {V : Type} (t : tree V), full t -> flatten true t = map (fun x => (fst x, Leaf (snd x))) (leaf_list t).
Proof.
  intros V t P. unfold leaf_list. assert (H : forall x, In x (flatten true t) -> exists v, snd x = Leaf v).
  { intros [p s] I. apply flatten_spec in I as [A L]. apply (full_leaves t p s); auto. }
  induction (flatten true t) as [|[p s] l IH]; auto. destruct (H (p, s)) as (v & E); [left; auto|]. cbn [snd] in E. subst s. cbn [flat_map snd fst app map].
  f_equal. apply IH. intros x X. apply H. right; auto.
Qed.

Lemma entries_built : forall t, full t -> typed t ->
  sequence (map (fun x => entry_build (fst x) (snd x)) (flatten true t)) = Ok (map built_entry (leaf_list t)).
Proof.
  intros t F T. rewrite full_leaf_list by auto. assert (H : forall x, In x (leaf_list t) -> value_typestr (snd x) <> None) by (intros [p i] I; apply leaf_list_in in I; eapply T; eauto).
  induction (leaf_list t) as [|x l IH]; auto. cbn [map sequence fst snd]. unfold entry_build at 1. cbn [leaf_meta]. rewrite vm_build_ok by (apply H; left; auto). cbn [rbind].
  rewrite IH by (intros y Y; apply H; right; auto). reflexivity.
Qed.

Lemma keypaths_distinct : forall t, wf t -> full t -> NoDup (map keypath (map built_entry (leaf_list t))).
Proof.
  intros t W F. assert (N := named_nodup true t W). rewrite (full_leaf_list t F), fst_named, !map_map in N. cbn [fst] in N. rewrite map_map. cbn [built_entry keypath].
  revert N. induction (leaf_list t) as [|x l IH]; cbn [map]; intros N; [constructor|]. inversion_clear N as [|? ? N1 N2]. constructor; auto.
  intros I. apply N1. apply in_map_iff in I as (y & E & I). apply in_map_iff. exists y. split; auto. apply str_tuple_inj in E. exact E.
Qed.

(** ** Lists and dictionaries *)

Definition simp_key (k : key) : key := match k with SequenceKey i => SequenceKey i | _ => DictKey (KStr (str_name k)) end.

Fixpoint simp {A : Type} (f : A -> vmeta) (t : tree A) : tree vmeta :=
  match t with
  | Leaf a => Leaf (f a)
  | Node k cs => Node (if is_sequence k then KList else KDict) (map (fun x => (simp_key (fst x), simp f (snd x))) cs)
  end.

Lemma fit_simp : forall k ks x, keys_fit k ks -> In x ks -> simp_key x = if is_sequence k then x else DictKey (KStr (str_name x)).
Proof. intros k ks x F I. assert (D := fit_dict_key k ks x F I). destruct (is_sequence k), x; try discriminate; auto. Qed.

Lemma simp_simplified : forall {A : Type} (f : A -> vmeta) (R : A -> vmeta -> Prop) t, wf t -> (forall p a, at_path t p (Leaf a) -> R a (f a)) -> simplified R t (simp f t).
Proof.
  intros A f R t. induction t as [a|k cs F] using tree_ind'; intros W H; [constructor; apply (H []); constructor|]. cbn [simp]. constructor.
  inversion_clear W as [|? ? K W']. rewrite Forall_forall in F, W'. assert (G : forall l, (forall x, In x l -> In x cs) -> Forall2 (fun x y => fst y = (if is_sequence k then fst x else DictKey (KStr (str_name (fst x)))) /\ simplified R (snd x) (snd y)) l (map (fun x => (simp_key (fst x), simp f (snd x))) l)).
  { induction l as [|x l IH]; intros S; constructor; [|apply IH; intros y Y; apply S; right; auto]. cbn [fst snd]. assert (X : In x cs) by (apply S; left; auto). split.
    - apply (fit_simp k (map fst cs)); auto. apply in_map; auto.
    - apply F; auto. intros p a A'. apply (H (fst x :: p)). destruct x as [x c]. apply at_node. exists c. auto. }
  apply G. auto.
Qed.

Lemma simp_plain : forall {A : Type} (f : A -> vmeta) t, wf t -> full t -> plain (simp f t).
Proof.
  intros A f t. induction t as [a|k cs F] using tree_ind'; intros W U; [constructor|]. cbn [simp]. inversion_clear W as [|? ? K W']. inversion_clear U as [|? ? N U'].
  rewrite Forall_forall in F, W', U'. assert (C : Forall (fun x => plain (snd x)) (map (fun x => (simp_key (fst x), simp f (snd x))) cs)).
  { apply Forall_forall. intros y Y. apply in_map_iff in Y as (x & <- & X). cbn [snd]. apply F; auto. }
  assert (N' : map (fun x => (simp_key (fst x), simp f (snd x))) cs <> []) by (destruct cs; [congruence|discriminate]).
  assert (FS : map fst (map (fun x => (simp_key (fst x), simp f (snd x))) cs) = map (fun x => if is_sequence k then x else DictKey (KStr (str_name x))) (map fst cs)).
  { rewrite !map_map. cbn [fst]. apply map_ext_in. intros x X. apply (fit_simp k (map fst cs)); auto. apply in_map; auto. }
  destruct (is_sequence k) eqn:S.
  - constructor; auto. rewrite FS, map_id. rewrite map_length. assert (Q : map fst cs = map SequenceKey (seq 0 (List.length (map fst cs)))) by (destruct k; try discriminate; exact K).
    rewrite map_length in Q. exact Q.
  - constructor; auto.
    + rewrite FS. rewrite <- (map_map str_name (fun s => DictKey (KStr s))). apply FinFun.Injective_map_NoDup; [intros a b H; congruence|]. apply (names_nodup k); auto.
    + intros x X. rewrite FS in X. apply in_map_iff in X as (y & <- & _). eauto.
Qed.

Lemma simp_at : forall {A : Type} (f : A -> vmeta) t q v, at_path (simp f t) q (Leaf v) <-> exists p a, q = map simp_key p /\ v = f a /\ at_path t p (Leaf a).
Proof.
  intros A f t. induction t as [a|k cs F] using tree_ind'; intros q v.
  - cbn [simp]. rewrite at_leaf. split.
    + intros [-> E]. injection E as ->. exists [], a. repeat split; constructor.
    + intros (p & b & -> & -> & A'). apply at_leaf in A' as [-> E]. injection E as ->. auto.
  - cbn [simp]. rewrite Forall_forall in F. split.
    + intros A'. destruct q as [|y q]; [inversion A'|]. apply at_node in A' as (c & I & A'). apply in_map_iff in I as ([x c'] & E & I). injection E as <- <-. cbn [fst snd] in *.
      apply (F (x, c') I) in A' as (p & a & -> & -> & A'). exists (x :: p), a. repeat split; auto. apply at_node. eauto.
    + intros (p & a & -> & -> & A'). destruct p as [|x p]; [inversion A'|]. apply at_node in A' as (c & I & A'). cbn [map]. apply at_node. exists (simp f c). split.
      * apply in_map_iff. exists (x, c). auto.
      * apply (F (x, c) I). exists p, a. auto.
Qed.

Lemma describes_built : forall p i v, describes (mkE (str_tuple (map str_name p)) (key_build p) v) (map simp_key p, v) /\ describes (reread_entry (built_entry (p, i))) (map simp_key p, reread_value (meta_of i)).
Proof.
  assert (G : forall p, Forall2 (fun n k => match k with SequenceKey i => n = (string_of_list_ascii (dec (N.of_nat i)), SEQUENCE) | DictKey (KStr s) => n = (s, DICT) | _ => False end) (key_build p) (map simp_key p)).
  { intros p. unfold key_build. induction p as [|k p IH]; constructor; auto. destruct k as [i|d|s]; cbn [simp_key get_key_metadata_type]; auto.
    unfold str_name. cbn [get_key_name]. unfold str_int. destruct (Z.of_nat i) eqn:E; [|rewrite <- E, <- nat_N_Z, N2Z.id; auto|exfalso; lia].
    destruct i; [reflexivity|discriminate]. }
  intros p i v. split; (split; [reflexivity|apply G]).
Qed.

Theorem round_trip_ok : forall M Q t ocdbt zarr3 custom store, wf t -> full t -> typed t ->
  exists m d m', build t None ocdbt zarr3 custom store false = Ok m /\ to_json M Q m = Ok d /\ from_json d false = Ok m' /\
  m' = mkM (map reread_entry (map built_entry (leaf_list t))) ocdbt zarr3 custom store false None /\
  as_nested_tree m' = Ok (norm (simp (fun i => reread_value (meta_of i)) t)).
Proof.
  intros M Q t ocdbt zarr3 custom store W F T.
  exists (mkM (map built_entry (leaf_list t)) ocdbt zarr3 custom store false None). eexists. exists (mkM (map reread_entry (map built_entry (leaf_list t))) ocdbt zarr3 custom store false None).
  split.
  { unfold build. rewrite firstn_all. rewrite (entries_built t F T). reflexivity. }
  split; [reflexivity|]. split; [rewrite (json_entries M Q (mkM (map built_entry (leaf_list t)) ocdbt zarr3 custom store false None)); [reflexivity|apply keypaths_distinct; auto|reflexivity]|].
  split; [reflexivity|].
  apply (nested_ok _ (map (fun x => (map simp_key (fst x), reread_value (meta_of (snd x)))) (leaf_list t))).
  - left. reflexivity.
  - apply simp_plain; auto.
  - cbn [entries]. rewrite map_map. induction (leaf_list t) as [|[p i] l IH]; constructor; auto. apply describes_built. exact (meta_of i).
  - rewrite map_map. cbn [fst]. assert (N := named_nodup true t W). rewrite (full_leaf_list t F), fst_named, !map_map in N. cbn [fst] in N.
    revert N. induction (leaf_list t) as [|x l IH]; cbn [map]; intros N; [constructor|]. inversion_clear N as [|? ? N1 N2]. constructor; auto.
    intros I. apply N1. apply in_map_iff in I as (y & E & I). apply in_map_iff. exists y. split; auto. unfold tuple_path_from_keypath.
    assert (S : forall k, str_name (simp_key k) = str_name k) by (intros [j|d|s]; reflexivity).
    apply (f_equal (map str_name)) in E. rewrite !map_map in E. rewrite !(map_ext (fun k => str_name (simp_key k)) str_name S) in E. exact E.
  - intros p v A. apply simp_at in A as (q & a & -> & -> & A). apply in_map_iff. exists (q, a). split; auto. apply leaf_list_in. auto.
  - intros p v I. left. apply in_map_iff in I as ([q a] & E & I). injection E as <- <-. apply simp_at. exists q, a. split; auto. split; auto. apply leaf_list_in. auto.
Qed.

(** ** Nested dictionaries *)

Definition dpath (ks : list string) : path := map (fun s => DictKey (KStr s)) ks.

Lemma dpath_inj : forall a b, dpath a = dpath b -> a = b.
Proof. induction a as [|x a IH]; intros [|y b] E; try discriminate; auto. injection E as -> E. f_equal. auto. Qed.

Lemma dpath_extends : forall a b, extends a b -> extends (dpath a) (dpath b).
Proof. intros a b (r & N & ->). exists (dpath r). split; [destruct r; [congruence|discriminate]|apply map_app]. Qed.

Lemma extends_dpath : forall a b, extends (dpath a) (dpath b) -> extends a b.
Proof.
  intros a b (r & N & E). revert b E. induction a as [|x a IH]; intros [|y b] E.
  - destruct r; [congruence|discriminate].
  - discriminate.
  - exists (x :: a). split; [discriminate|auto].
  - injection E as -> E. destruct (IH b E) as (s & S & ->). exists s. auto.
Qed.

Fixpoint chain (ks : list string) (v : vmeta) : tree vmeta :=
  match ks with [] => Leaf v | s :: r => Node KDict [(DictKey (KStr s), chain r v)] end.

Lemma chain_plain : forall ks v, plain (chain ks v) /\ string_dicts (chain ks v).
Proof.
  induction ks as [|s ks IH]; intros v; cbn [chain]; [split; constructor|]. destruct (IH v) as [P S]. split.
  - constructor; [discriminate|constructor; [intros []|constructor]|intros x [<-|[]]; eexists; reflexivity|constructor; [exact P|constructor]].
  - constructor. constructor; [split; [eexists; reflexivity|auto]|constructor].
Qed.

Lemma chain_at : forall ks v p w, at_path (chain ks v) p (Leaf w) <-> p = dpath ks /\ w = v.
Proof.
  induction ks as [|s ks IH]; intros v p w; cbn [chain dpath map].
  - rewrite at_leaf. split; intros [A B]; split; auto; congruence.
  - destruct p as [|x p]; [split; [intros A; inversion A|intros [A _]; discriminate]|]. rewrite at_node. split.
    + intros (c & [E|[]] & A). injection E as <- <-. apply IH in A as [-> ->]. auto.
    + intros [E ->]. injection E as -> ->. eexists. split; [left; reflexivity|]. apply IH. auto.
Qed.

Lemma plain_has_leaf : forall (t : tree vmeta), plain t -> exists p v, at_path t p (Leaf v).
Proof.
  intros t. induction t as [v|k cs F] using tree_ind'; intros P; [exists [], v; constructor|]. destruct (plain_kind _ _ P) as [N _]. destruct cs as [|[x c] cs]; [congruence|].
  inversion_clear F as [|? ? F1 F2]. destruct (F1 (proj1 (plain_child _ _ x c P (or_introl eq_refl)))) as (p & v & A). exists (x :: p), v. apply at_node. exists c. split; [left; auto|auto].
Qed.

Definition unrelated {A : Type} (p q : list A) : Prop := p <> q /\ ~ extends p q /\ ~ extends q p.

Lemma unrelated_cons : forall {A : Type} (x : A) p q, unrelated (x :: p) (x :: q) -> unrelated p q.
Proof.
  intros A x p q (N & E & F). split; [congruence|]. split; intros (r & R & H); [apply E|apply F]; exists r; split; auto; cbn [app]; congruence.
Qed.

Lemma add_leaf : forall ks v (t : tree vmeta), plain t -> string_dicts t -> (forall p w, at_path t p (Leaf w) -> unrelated (dpath ks) p) ->
  exists t', plain t' /\ string_dicts t' /\ forall p w, at_path t' p (Leaf w) <-> at_path t p (Leaf w) \/ (p = dpath ks /\ w = v).
Proof.
  induction ks as [|s ks IH]; intros v t P S U.
  - exfalso. destruct (plain_has_leaf t P) as (p & w & A). destruct (U p w A) as (N & _ & E). cbn [dpath map] in *. apply E. destruct p as [|x p]; [congruence|]. exists (x :: p). split; [discriminate|auto].
  - destruct t as [u|k cs].
    + exfalso. destruct (U [] u) as (_ & E & _); [constructor|]. apply E. exists (dpath (s :: ks)). split; [discriminate|auto].
    + inversion S as [|? F]; subst k cs0 || subst. rewrite Forall_forall in F. inversion P as [| |? N ND KS PC]; subst. rewrite Forall_forall in PC.
      destruct (in_dec (fun a b => Bool.reflect_dec _ _ (key_eqb_spec a b)) (DictKey (KStr s)) (map fst cs)) as [I|I].
      * apply in_map_iff in I as ([x c] & E & I). cbn [fst] in E. subst x. apply in_split in I as (l1 & l2 & ->).
        assert (X : In (DictKey (KStr s), c) (l1 ++ (DictKey (KStr s), c) :: l2)%list) by (apply in_app_iff; right; left; auto).
        destruct (IH v c) as (c' & P' & S' & A'); [apply (PC _ X)|apply (F _ X)| |].
        { intros p w A. apply (unrelated_cons (DictKey (KStr s))). apply (U (DictKey (KStr s) :: p) w). apply at_node. exists c. auto. }
        exists (Node KDict (l1 ++ (DictKey (KStr s), c') :: l2)). assert (MF : map fst (l1 ++ (DictKey (KStr s), c') :: l2)%list = map fst (l1 ++ (DictKey (KStr s), c) :: l2)%list) by (rewrite !map_app; reflexivity).
        split; [|split].
        -- constructor; [destruct l1; discriminate|rewrite MF; auto|rewrite MF; auto|]. apply Forall_forall. intros y Y. apply in_app_iff in Y as [Y|[<-|Y]]; auto; apply PC; apply in_app_iff; [left|right; right]; auto.
        -- constructor. apply Forall_forall. intros y Y. apply in_app_iff in Y as [Y|[<-|Y]]; [|split; [eexists; reflexivity|auto]|]; apply F; apply in_app_iff; [left|right; right]; auto.
        -- intros p w. destruct p as [|x p]; [split; [intros A; inversion A|intros [A|[A _]]; [inversion A|discriminate]]|]. rewrite !at_node. cbn [dpath map].
           assert (U1 : forall d, In (DictKey (KStr s), d) l1 \/ In (DictKey (KStr s), d) l2 -> False).
           { intros d D. rewrite map_app in ND. cbn [map fst] in ND. apply NoDup_remove_2 in ND. apply ND. apply in_app_iff. destruct D as [D|D]; apply (in_map fst) in D; auto. }
           split.
           ++ intros (d & D & A). apply in_app_iff in D as [D|[D|D]].
              ** left. exists d. split; auto. apply in_app_iff. auto.
              ** injection D as <- <-. apply A' in A as [A|[-> ->]]; auto. left. exists c. auto.
              ** left. exists d. split; auto. apply in_app_iff. right. right. auto.
           ++ intros [(d & D & A)|[E ->]].
              ** apply in_app_iff in D as [D|[D|D]].
                 --- exists d. split; auto. apply in_app_iff. auto.
                 --- injection D as <- <-. exists c'. split; [apply in_app_iff; right; left; auto|]. apply A'. auto.
                 --- exists d. split; auto. apply in_app_iff. right. right. auto.
              ** injection E as -> ->. exists c'. split; [apply in_app_iff; right; left; auto|]. apply A'. auto.
      * exists (Node KDict (cs ++ [(DictKey (KStr s), chain ks v)])). destruct (chain_plain ks v) as [CP CS]. split; [|split].
        -- constructor; [destruct cs; discriminate| | |].
           ++ rewrite map_app. cbn [map fst]. apply (Permutation_NoDup (Permutation_cons_append _ _)). constructor; auto.
           ++ intros x X. rewrite map_app in X. apply in_app_iff in X as [X|[<-|[]]]; [auto|eexists; reflexivity].
           ++ apply Forall_forall. intros y Y. apply in_app_iff in Y as [Y|[<-|[]]]; auto.
        -- constructor. apply Forall_forall. intros y Y. apply in_app_iff in Y as [Y|[<-|[]]]; [apply F; auto|split; [eexists; reflexivity|auto]].
        -- intros p w. destruct p as [|x p]; [split; [intros A; inversion A|intros [A|[A _]]; [inversion A|discriminate]]|]. rewrite !at_node. cbn [dpath map]. split.
           ++ intros (d & D & A). apply in_app_iff in D as [D|[D|[]]]; [left; eauto|]. injection D as <- <-. apply chain_at in A as [-> ->]. auto.
           ++ intros [(d & D & A)|[E ->]]; [exists d; split; auto; apply in_app_iff; auto|]. injection E as -> ->. exists (chain ks v). split; [apply in_app_iff; right; left; auto|]. apply chain_at. auto.
Qed.

Lemma grow : forall l : list (list string * vmeta), l <> [] -> NoDup (map fst l) -> (forall x y, In x l -> In y l -> ~ extends (fst x) (fst y)) ->
  exists t, plain t /\ string_dicts t /\ forall p v, at_path t p (Leaf v) <-> exists ks, p = dpath ks /\ In (ks, v) l.
Proof.
  induction l as [|[ks v] l IH]; intros N ND E; [congruence|]. cbn [map fst] in ND. inversion_clear ND as [|? ? N1 N2]. destruct l as [|y l].
  - exists (chain ks v). destruct (chain_plain ks v) as [P S]. split; auto. split; auto. intros p w. rewrite chain_at. split.
    + intros [-> ->]. exists ks. split; auto. left; auto.
    + intros (ks' & -> & [X|[]]). injection X as -> ->. auto.
  - destruct IH as (t & P & S & A); auto; [discriminate|intros a b X Y; apply E; right; auto|].
    destruct (add_leaf ks v t P S) as (t' & P' & S' & A').
    { intros p w B. apply A in B as (ks' & -> & I). split; [|split].
      - intros H. apply dpath_inj in H. subst ks'. apply N1. apply (in_map fst) in I. exact I.
      - intros H. apply extends_dpath in H. apply (E (ks, v) (ks', w)); auto; [left; auto|right; auto].
      - intros H. apply extends_dpath in H. apply (E (ks', w) (ks, v)); auto; [right; auto|left; auto]. }
    exists t'. split; auto. split; auto. intros p w. rewrite A', A. split.
    + intros [(ks' & -> & I)|[-> ->]]; [exists ks'; split; auto; right; auto|exists ks; split; auto; left; auto].
    + intros (ks' & -> & [I|I]); [injection I as -> ->; auto|left; eauto].
Qed.

Definition dict_names (e : entry) : list string := map fst (key_metadata e).

Lemma dict_entry_names : forall e ks, dict_entry e ks -> dict_names e = ks.
Proof. intros e ks D. unfold dict_names. rewrite D, map_map. apply map_id. Qed.

Definition extendsb (a b : list string) : bool := proper_prefix (map NStr b) (map NStr a).

Lemma extendsb_spec : forall a b, extendsb a b = true <-> extends a b.
Proof.
  intros a b. unfold extendsb. rewrite proper_prefix_spec. split.
  - intros (r & N & E). revert b E. induction a as [|x a IH]; intros [|y b] E.
    + destruct r; [congruence|discriminate].
    + discriminate.
    + exists (x :: a). split; [discriminate|auto].
    + injection E as -> E. destruct (IH b E) as (s & S & ->). exists s. auto.
  - intros (r & N & ->). exists (map NStr r). split; [destruct r; [congruence|discriminate]|apply map_app].
Qed.

Theorem dicts_ok : forall m, legacy m -> entries m <> [] -> (forall e, In e (entries m) -> exists ks, dict_entry e ks) ->
  NoDup (map dict_names (entries m)) ->
  exists T, string_dicts T /\ as_nested_tree m = Ok (norm T) /\
  forall p v, at_path T p (Leaf v) <-> exists e, In e (entries m) /\ p = dpath (dict_names e) /\ v = value_metadata e /\
    forall e', In e' (entries m) -> ~ extends (dict_names e') (dict_names e).
Proof.
  intros m L NE DE ND. set (l := map (fun e => (dict_names e, value_metadata e)) (entries m)).
  set (top := filter (fun x => negb (existsb (fun y => extendsb (fst y) (fst x)) l)) l).
  assert (TOP : forall x, In x top <-> In x l /\ forall y, In y l -> ~ extends (fst y) (fst x)).
  { intros x. unfold top. rewrite filter_In, negb_true_iff. split; intros [I H]; split; auto.
    - intros y Y E. apply extendsb_spec in E. assert (X : existsb (fun y => extendsb (fst y) (fst x)) l = true) by (apply existsb_exists; eauto). congruence.
    - destruct (existsb _ l) eqn:X; auto. apply existsb_exists in X as (y & Y & X). apply extendsb_spec in X. destruct (H y Y X). }
  assert (UP : forall n x, In x l -> (forall y, In y l -> List.length (fst y) <= List.length (fst x) + n) -> exists y, In y top /\ (y = x \/ extends (fst y) (fst x))).
  { induction n as [|n IH]; intros x I B.
    - exists x. split; auto. apply TOP. split; auto. intros y Y (r & R & E). specialize (B y Y). rewrite E, app_length in B. destruct r; [congruence|simpl in B; lia].
    - destruct (existsb (fun y => extendsb (fst y) (fst x)) l) eqn:X.
      + apply existsb_exists in X as (y & Y & X). apply extendsb_spec in X. destruct X as (r & R & E). destruct (IH y Y) as (z & Z & ZE).
        { intros z Z. specialize (B z Z). rewrite E, app_length. destruct r; [congruence|simpl; lia]. }
        exists z. split; auto. right. destruct ZE as [->|(r' & R' & E')]; [exists r; auto|]. exists (r ++ r')%list. split; [destruct r; [congruence|discriminate]|]. rewrite E', E, app_assoc. auto.
      + exists x. split; auto. apply TOP. split; auto. intros y Y E. apply extendsb_spec in E. assert (Z : existsb (fun y => extendsb (fst y) (fst x)) l = true) by (apply existsb_exists; eauto). congruence. }
  assert (MAX : exists n, forall y, In y l -> List.length (fst y) <= n).
  { clear. induction l as [|y l (n & IH)]; [exists 0; intros y []|]. exists (n + List.length (fst y)). intros z [<-|Z]; [lia|]. specialize (IH z Z). lia. }
  destruct MAX as (n & MAX).
  assert (NT : top <> []).
  { destruct (entries m) as [|e es] eqn:EM; [congruence|]. destruct (UP n (dict_names e, value_metadata e)) as (y & Y & _); [left; reflexivity| |intros H; rewrite H in Y; contradiction].
    intros y Y. specialize (MAX y Y). lia. }
  destruct (grow top NT) as (T & P & S & A).
  { apply NoDup_map_filter. unfold l. rewrite map_map. exact ND. }
  { intros x y X Y. apply TOP in X as [X _]. apply TOP in Y as [_ Y]. apply Y; auto. }
  exists T. split; auto. split.
  - apply (nested_ok m (map (fun x => (dpath (fst x), snd x)) l)); auto.
    + unfold l. rewrite map_map. cbn [fst snd]. clear - DE. induction (entries m) as [|e es IH]; constructor; [|apply IH; intros e' I; apply DE; right; auto].
      destruct (DE e) as (ks & D); [left; auto|]. split; [reflexivity|]. cbn [fst]. rewrite (dict_entry_names e ks D), D. clear. induction ks as [|s ks IH]; constructor; auto.
    + unfold l. rewrite !map_map. cbn [fst]. rewrite <- (map_map dict_names dpath). apply FinFun.Injective_map_NoDup; auto. intros a b. apply dpath_inj.
    + intros p v B. apply A in B as (ks & -> & I). apply TOP in I as [I _]. apply in_map_iff. exists (ks, v). auto.
    + intros p v I. apply in_map_iff in I as ([ks w] & E & I). injection E as <- <-. destruct (UP n (ks, w) I) as ([ks' w'] & Y & H).
      { intros y Y. specialize (MAX y Y). lia. }
      destruct H as [H|H]; [injection H as -> ->; left; apply A; eauto|]. right. exists (dpath ks'), w'. split; [apply A; eauto|apply dpath_extends; exact H].
  - intros p v. rewrite A. split.
    + intros (ks & -> & I). apply TOP in I as [I H]. unfold l in I. apply in_map_iff in I as (e & E & I). injection E as <- <-. exists e. repeat split; auto.
      intros e' I'. apply (H (dict_names e', value_metadata e')). unfold l. apply in_map_iff. eauto.
    + intros (e & I & -> & -> & H). exists (dict_names e). split; auto. apply TOP. split; [unfold l; apply in_map_iff; eauto|]. intros y Y. unfold l in Y. apply in_map_iff in Y as (e' & <- & I'). apply H; auto.
Qed.

(** ** Merging *)

Lemma flag_eqb_spec : forall a b, reflect (a = b) (flag_eqb a b).
Proof. intros [[]|] [[]|]; simpl; constructor; congruence. Qed.

Lemma format_spec : forall ow a b, ~ same_format a b -> merge ow a b = Err ValueError.
Proof.
  intros ow a b N. unfold merge. destruct (Bool.eqb (use_zarr3 a) (use_zarr3 b)) eqn:E1; [|reflexivity]. destruct (flag_eqb_spec (use_ocdbt a) (use_ocdbt b)) as [E2|]; [|reflexivity].
  destruct (Bool.eqb (support_rich_types a) (support_rich_types b)) eqn:E3; [|reflexivity].
  destruct (Bool.eqb (store_array_data_equal_to_fill_value a) (store_array_data_equal_to_fill_value b)) eqn:E4; [|reflexivity].
  exfalso. apply N. apply eqb_prop in E1, E3, E4. repeat split; auto.
Qed.

Lemma format_same : forall ow a b, same_format a b -> merge ow a b =
    rbind (merge_entries ow (entries_json (entries a)) (entries_json (entries b))) (fun merged =>
    rbind (sequence (map (fun x => entry_from_json (fst x) (snd x)) merged)) (fun es =>
    rbind (merge_custom ow (custom_metadata a) (custom_metadata b)) (fun custom =>
    rbind (merge_value_trees ow (value_metadata_tree a) (value_metadata_tree b)) (fun t =>
    Ok (mkM es (use_ocdbt a) (use_zarr3 a) custom (store_array_data_equal_to_fill_value a) (support_rich_types a) t))))).
Proof.
  intros ow a b (E1 & E2 & E3 & E4). unfold merge. rewrite E1, E2, E3, E4, !eqb_reflx. destruct (flag_eqb_spec (use_ocdbt b) (use_ocdbt b)); [reflexivity|congruence].
Qed.

Definition is_in (e : entry) (l : list entry) : bool := existsb (fun x => String.eqb (keypath x) (keypath e)) l.

Lemma is_in_spec : forall e l, is_in e l = true <-> In (keypath e) (map keypath l).
Proof.
  intros e l. unfold is_in. rewrite existsb_exists, in_map_iff. split; intros (x & A & B).
  - apply String.eqb_eq in B. eauto.
  - exists x. split; auto. apply String.eqb_eq. auto.
Qed.

(** The entries after merging. *)
Fixpoint put_entry (e : entry) (l : list entry) : list entry :=
  match l with [] => [e] | x :: r => if String.eqb (keypath e) (keypath x) then e :: r else x :: put_entry e r end.

Definition ejson (e : entry) : string * json := (keypath e, entry_json e).

Lemma dput_entry : forall e l, dput String.eqb (keypath e) (entry_json e) (map ejson l) = map ejson (put_entry e l).
Proof.
  intros e l. induction l as [|x l IH]; auto. cbn [map ejson dput put_entry]. unfold ejson at 1. destruct (String.eqb_spec (keypath e) (keypath x)) as [E|E]; cbn [map].
  - apply f_equal2; [|reflexivity]. unfold ejson. rewrite E. reflexivity.
  - apply f_equal2; [reflexivity|exact IH].
Qed.

Lemma put_entry_in : forall e l x, NoDup (map keypath l) -> (In x (put_entry e l) <-> x = e \/ (In x l /\ keypath x <> keypath e)).
Proof.
  intros e l x. induction l as [|y l IH]; intros N; cbn [put_entry]; [cbn; intuition|]. cbn [map] in N. inversion_clear N as [|? ? N1 N2].
  destruct (String.eqb_spec (keypath e) (keypath y)) as [E|E]; cbn [In].
  - split; [intros [->|I]; auto; right; split; auto; intros X; apply N1; rewrite <- E, <- X; apply in_map; auto|]. intros [->|[[->|I] X]]; auto. congruence.
  - rewrite IH by auto. split; [intros [->|[->|[I X]]]; auto; right; split; auto; congruence|]. intros [->|[[->|I] X]]; auto.
Qed.

Lemma put_entry_keys : forall e l, NoDup (map keypath l) -> NoDup (map keypath (put_entry e l)).
Proof.
  intros e l. induction l as [|y l IH]; intros N; cbn [put_entry map]; [constructor; [intros []|constructor]|]. cbn [map] in N. inversion_clear N as [|? ? N1 N2].
  destruct (String.eqb_spec (keypath e) (keypath y)) as [E|E]; cbn [map].
  - rewrite E. constructor; auto.
  - constructor; auto. intros I. apply in_map_iff in I as (x & X & I). apply put_entry_in in I as [->|[I _]]; auto. apply N1. rewrite <- X. apply in_map; auto.
Qed.

Lemma merge_entries_ok : forall ow b a, NoDup (map keypath a) -> NoDup (map keypath b) -> (ow = true \/ forall e, In e b -> ~ In (keypath e) (map keypath a)) ->
  exists l, merge_entries ow (map ejson a) (map ejson b) = Ok (map ejson l) /\ NoDup (map keypath l) /\
  forall e, In e l <-> In e b \/ (In e a /\ ~ In (keypath e) (map keypath b)).
Proof.
  intros ow b. induction b as [|e b IH]; intros a NA NB H; [exists a; split; auto; split; auto; intros e; cbn; intuition|]. cbn [map] in NB. inversion_clear NB as [|? ? N1 N2].
  cbn [map ejson merge_entries]. unfold ejson at 2.
  assert (C : negb ow && match dget String.eqb (keypath e) (map ejson a) with Some _ => true | None => false end = false).
  { destruct H as [->|H]; auto. assert (X : dget String.eqb (keypath e) (map ejson a) = None); [|rewrite X, andb_false_r; auto].
    apply dget_none; [apply String.eqb_spec|]. rewrite map_map. apply H. left; auto. }
  rewrite C, dput_entry. destruct (IH (put_entry e a)) as (l & E & NL & L); auto; [apply put_entry_keys; auto| |].
  - destruct H as [->|H]; auto. right. intros e' I J. apply in_map_iff in J as (x & X & J). apply put_entry_in in J as [->|[J _]]; auto.
    + apply N1. rewrite X. apply in_map; auto.
    + apply (H e'); [right; auto|]. rewrite <- X. apply in_map; auto.
  - exists l. split; auto. split; auto. intros x. rewrite L. rewrite put_entry_in by auto. cbn [In map]. split.
    + intros [I|[[->|[I X]] Y]]; auto. right. split; auto. intros [Z|Z]; congruence.
    + intros [[->|I]|[I X]]; auto. right. split; auto. right. split; auto.
Qed.

Lemma merge_entries_clash : forall b a e, In e b -> In (keypath e) (map keypath a) -> merge_entries false (map ejson a) (map ejson b) = Err ValueError.
Proof.
  induction b as [|e' b IH]; intros a e I K; [contradiction|]. cbn [map merge_entries]. change (ejson e') with (keypath e', entry_json e'). cbv iota beta. cbn [negb andb].
  destruct (dget String.eqb (keypath e') (map ejson a)) as [j|] eqn:D; [reflexivity|]. destruct I as [->|I].
  - apply dget_none in D; [|apply String.eqb_spec]. rewrite map_map in D. contradiction.
  - rewrite dput_entry. apply (IH _ e); auto. apply in_map_iff in K as (x & X & K). clear - X K D. induction a as [|y a IH]; [contradiction|]. cbn [put_entry].
    destruct (String.eqb_spec (keypath e') (keypath y)) as [E|E].
    + exfalso. apply dget_none in D; [|apply String.eqb_spec]. apply D. left. auto.
    + cbn [map]. destruct K as [->|K]; [left; auto|]. right. apply IH; auto. cbn [map ejson dget] in D. unfold ejson at 1 in D. destruct (String.eqb_spec (keypath e') (keypath y)); [congruence|auto].
Qed.

Lemma entries_back' : forall l, sequence (map (fun x => entry_from_json (fst x) (snd x)) (map ejson l)) = Ok (map reread_entry l).
Proof. exact entries_back. Qed.

(** ** The metadata shown to the user *)

Lemma dget_dput : forall {K V : Type} (eqb : K -> K -> bool) (sp : forall a b, reflect (a = b) (eqb a b)) k k' (v : V) d,
  dget eqb k (dput eqb k' v d) = if eqb k k' then Some v else dget eqb k d.
Proof.
  intros K V eqb sp k k' v d. induction d as [|[j w] d IH]; cbn [dput dget]; auto.
  destruct (sp k' j) as [->|N]; cbn [dget].
  - destruct (sp k j); auto.
  - rewrite IH. destruct (sp k j) as [->|]; auto. destruct (sp j k'); congruence.
Qed.

Lemma nodup_app_l : forall {A : Type} (a b : list A), NoDup (a ++ b)%list -> NoDup a.
Proof. intros A a b N. induction a as [|x a IH]; [constructor|]. cbn [app] in N. inversion_clear N as [|? ? N1 N2]. constructor; auto. intros I. apply N1. apply in_app_iff. auto. Qed.

Lemma nodup_app_r : forall {A : Type} (a b : list A), NoDup (a ++ b)%list -> NoDup b.
Proof. intros A a b N. induction a as [|x a IH]; auto. cbn [app] in N. inversion_clear N as [|? ? N1 N2]. auto. Qed.

Section CustomProofs.
Context {A : Type}.
Variable registry : string -> result (list param -> result (list A)).
Variable answer : string -> param -> A.

Definition pairs (bs : list (string * list (list string * param))) : list (string * (list string * param)) :=
  flat_map (fun b => map (fun x => (fst b, x)) (snd b)) bs.

Lemma add_batch_pairs : forall ty x bs, Permutation (pairs (add_batch ty x bs)) ((ty, x) :: pairs bs).
Proof.
  intros ty x bs. induction bs as [|[t xs] bs IH]; cbn [add_batch pairs flat_map map fst snd app]; auto.
  destruct (String.eqb_spec t ty) as [->|N]; cbn [pairs flat_map map fst snd].
  - rewrite map_app. cbn [map]. rewrite <- app_assoc. apply Permutation_sym, Permutation_middle.
  - rewrite (Permutation_app_head _ IH). apply Permutation_sym, Permutation_middle.
Qed.

Lemma add_batch_full : forall ty (x : list string * param) bs, Forall (fun b => snd b <> []) bs -> Forall (fun b => snd b <> []) (add_batch ty x bs).
Proof.
  intros ty x bs F. induction F as [|[t xs] bs F1 F2 IH]; cbn [add_batch]; [repeat constructor; discriminate|].
  destruct (t =? ty); constructor; auto. cbn [snd]. destruct xs; discriminate.
Qed.

Definition unstored (rich : bool) (p : param) (ty : string) : tree (@shown A) :=
  if is_empty_typestr ty then empty_value ty rich else Leaf (Plain (p_name p)).

Lemma batch_spec : forall rich l flat bs, NoDup (map fst l) -> Forall (fun b => snd b <> []) bs ->
  exists flat' bs', batch rich l flat bs = (flat', bs') /\ Forall (fun b => snd b <> []) bs' /\
  (forall k p ty, In (k, (p, ty)) l -> p_skip p = true -> dget names_eqb k flat' = Some (unstored rich p ty)) /\
  (forall k, ~ In k (map fst l) -> dget names_eqb k flat' = dget names_eqb k flat) /\
  Permutation (pairs bs') (pairs bs ++ flat_map (fun x => if p_skip (fst (snd x)) then [] else [(snd (snd x), (fst x, fst (snd x)))]) l).
Proof.
  intros rich l. induction l as [|[k [p ty]] l IH]; intros flat bs N F; cbn [batch].
  - exists flat, bs. repeat split; auto; [intros k p ty []|]. cbn [flat_map]. rewrite app_nil_r. auto.
  - cbn [map fst] in N. inversion_clear N as [|? ? N1 N2]. cbn [flat_map fst snd]. destruct (p_skip p) eqn:S.
    + destruct (IH (dput names_eqb k (unstored rich p ty) flat) bs N2 F) as (flat' & bs' & E & F' & H1 & H2 & H3). exists flat', bs'. split; [exact E|]. split; auto. split; [|split].
      * intros k' p' ty' [I|I] S'; [|eauto]. injection I as <- <- <-. rewrite H2 by auto. rewrite dget_dput by apply names_eqb_spec. destruct (names_eqb_spec k k); congruence.
      * intros k' I. rewrite H2 by (intros J; apply I; right; auto). rewrite dget_dput by apply names_eqb_spec. destruct (names_eqb_spec k' k) as [->|]; auto. exfalso. apply I. left; auto.
      * cbn [app]. exact H3.
    + destruct (IH flat (add_batch ty (k, p) bs) N2 (add_batch_full _ _ _ F)) as (flat' & bs' & E & F' & H1 & H2 & H3). exists flat', bs'. split; [exact E|]. split; auto. split; [|split].
      * intros k' p' ty' [I|I] S'; [injection I as <- <- <-; congruence|eauto].
      * intros k' I. apply H2. intros J. apply I. right; auto.
      * rewrite H3. rewrite (Permutation_app_tail _ (add_batch_pairs _ _ _)). cbn [app]. apply Permutation_middle.
Qed.

Lemma fill_batch : forall ty l (flat : dict (list string) (tree (@shown A))), NoDup (map fst l) ->
  let d := fold_left (fun d x => dput names_eqb (fst x) (Leaf (Handled (snd x))) d) (combine (map fst l) (map (answer ty) (map snd l))) flat in
  (forall k p, In (k, p) l -> dget names_eqb k d = Some (Leaf (Handled (answer ty p)))) /\ (forall k, ~ In k (map fst l) -> dget names_eqb k d = dget names_eqb k flat).
Proof.
  intros ty l. induction l as [|[k p] l IH]; intros flat N; cbn [map fst snd combine fold_left]; [split; [intros k p []|auto]|].
  cbn [map fst] in N. inversion_clear N as [|? ? N1 N2]. destruct (IH (dput names_eqb k (Leaf (Handled (answer ty p))) flat) N2) as [H1 H2]. split.
  - intros k' p' [I|I]; [|auto]. injection I as <- <-. rewrite H2 by auto. rewrite dget_dput by apply names_eqb_spec. destruct (names_eqb_spec k k); congruence.
  - intros k' I. rewrite H2 by (intros J; apply I; right; auto). rewrite dget_dput by apply names_eqb_spec. destruct (names_eqb_spec k' k) as [->|]; auto. exfalso. apply I. left; auto.
Qed.

Lemma gather_spec : forall bs flat, NoDup (map (fun x => fst (snd x)) (pairs bs)) ->
  (forall b, In b bs -> exists h, registry (fst b) = Ok h /\ forall ps, h ps = Ok (map (answer (fst b)) ps)) ->
  exists d, gather registry bs flat = Ok d /\
  (forall ty k p, In (ty, (k, p)) (pairs bs) -> dget names_eqb k d = Some (Leaf (Handled (answer ty p)))) /\
  (forall k, ~ In k (map (fun x => fst (snd x)) (pairs bs)) -> dget names_eqb k d = dget names_eqb k flat).
Proof.
  induction bs as [|[ty l] bs IH]; intros flat N R; cbn [gather].
  - exists flat. split; auto. split; [intros ty k p []|auto].
  - destruct (R (ty, l)) as (h & E & H); [left; auto|]. cbn [fst] in E, H. rewrite E. cbn [rbind]. rewrite H. cbn [rbind].
    cbn [pairs flat_map fst snd] in N. rewrite map_app, map_map in N. cbn [snd] in N.
    assert (NL : NoDup (map fst l)) by (apply nodup_app_l in N; exact N). assert (NB : NoDup (map (fun x => fst (snd x)) (pairs bs))) by (apply nodup_app_r in N; exact N).
    destruct (fill_batch ty l flat NL) as [F1 F2]. destruct (IH (fold_left (fun d x => dput names_eqb (fst x) (Leaf (Handled (snd x))) d) (combine (map fst l) (map (answer ty) (map snd l))) flat) NB) as (d & G & H1 & H2).
    { intros b B. apply R. right; auto. }
    assert (DJ : forall k, In k (map fst l) -> ~ In k (map (fun x => fst (snd x)) (pairs bs))).
    { clear - N. induction l as [|[k p] l IH]; intros k' I; [contradiction|]. cbn [map app fst] in N. inversion_clear N as [|? ? N1 N2]. destruct I as [<-|I]; [|apply IH; auto].
      intros J. apply N1. apply in_app_iff. auto. }
    exists d. split; auto. split.
    + intros ty' k p I. cbn [pairs flat_map fst snd] in I. apply in_app_iff in I as [I|I]; [|eauto]. apply in_map_iff in I as (x & X & I). injection X as <- ->.
      rewrite H2 by (apply DJ; apply (in_map fst) in I; exact I). apply F1; auto.
    + intros k I. cbn [pairs flat_map fst snd] in I. rewrite map_app, map_map in I. cbn [snd] in I. rewrite H2, F2; auto; intros J; apply I; apply in_app_iff; auto.
Qed.

Lemma empty_value_shown : forall ty rich, is_empty_typestr ty = true -> empty_shown ty rich (@empty_value A ty rich).
Proof.
  intros ty rich E. unfold is_empty_typestr in E. unfold empty_shown. rewrite !orb_true_iff, !String.eqb_eq in E.
  destruct E as [[[[->| ->]| ->]| ->]| ->]; destruct rich; cbn; auto 10.
Qed.

Lemma not_empty : forall ty, is_empty_typestr ty = false -> ~ In ty ["List"; "NamedTuple"; "Tuple"; "Dict"; "None"].
Proof.
  intros ty E I. assert (X : is_empty_typestr ty = true); [|congruence]. unfold is_empty_typestr. rewrite !orb_true_iff, !String.eqb_eq. cbn [In] in I. intuition congruence.
Qed.

Theorem custom_ok : forall m is_ocdbt ref, as_nested_tree m = Ok ref -> wf ref -> (exists p v, at_path ref p (Leaf v)) ->
  (forall p v, at_path ref p (Leaf v) -> skip_deserialize v = false -> exists h, registry (value_type v) = Ok h /\ forall ps, h ps = Ok (map (answer (value_type v)) ps)) ->
  exists f, as_custom_metadata registry m is_ocdbt = Ok (with_leaves f (norm ref)) /\
  forall p v, at_path ref p (Leaf v) -> shown_for answer m is_ocdbt p v (f p).
Proof.
  intros m is_ocdbt ref E W (p0 & v0 & A0) R. unfold as_custom_metadata. rewrite E. cbn [rbind]. rewrite to_flat_eq by auto.
  assert (NE : named (flatten false ref) <> []).
  { intros X. assert (I : In (p0, Leaf v0) (flatten false ref)) by (apply flatten_spec; simpl; auto). destruct (flatten false ref); [contradiction|discriminate]. }
  destruct (named (flatten false ref)) as [|y ys] eqn:NF; [congruence|]. rewrite <- NF. clear NE. clear y ys NF. cbv zeta.
  set (oc := match use_ocdbt m with Some b => b | None => is_ocdbt end).
  set (params := flat_map (fun x : list string * tree vmeta => match snd x with
      | Leaf v => [(fst x, (mkParam (join "." (fst x)) (skip_deserialize v) oc (use_zarr3 m) (write_shape v), value_type v))]
      | Node _ _ => [] end) (named (flatten false ref))).
  assert (IN : forall k p ty, In (k, (p, ty)) params <-> exists q v, k = map str_name q /\ at_path ref q (Leaf v) /\ p = mkParam (join "." k) (skip_deserialize v) oc (use_zarr3 m) (write_shape v) /\ ty = value_type v).
  { intros k p ty. unfold params. rewrite in_flat_map. split.
    - intros (x & I & J). unfold named in I. apply in_map_iff in I as ([q s] & <- & I). cbn [fst snd] in J. destruct s as [v|]; [|contradiction]. destruct J as [J|[]]. injection J as <- <- <-.
      apply flatten_spec in I as [B _]. exists q, v. auto.
    - intros (q & v & -> & B & -> & ->). exists (tuple_path_from_keypath q, Leaf v). split; [|left; reflexivity]. unfold named. apply in_map_iff. exists (q, Leaf v). split; auto. apply flatten_spec. simpl. auto. }
  assert (ND : NoDup (map fst params)).
  { assert (N := named_nodup false ref W). assert (X : forall l : list (list string * tree vmeta), NoDup (map fst l) -> NoDup (map fst (flat_map (fun x => match snd x with
      | Leaf v => [(fst x, (mkParam (join "." (fst x)) (skip_deserialize v) oc (use_zarr3 m) (write_shape v), value_type v))] | Node _ _ => [] end) l)) /\
      forall k, In k (map fst (flat_map (fun x => match snd x with
      | Leaf v => [(fst x, (mkParam (join "." (fst x)) (skip_deserialize v) oc (use_zarr3 m) (write_shape v), value_type v))] | Node _ _ => [] end) l)) -> In k (map fst l)).
    { clear. induction l as [|[k [v|kd cs]] l IH]; intros N; cbn [flat_map map fst snd app]; [split; [constructor|auto]| |]; cbn [map fst] in N; inversion_clear N as [|? ? N1 N2]; destruct (IH N2) as [I1 I2].
      - split; [constructor; auto|]. intros k' [<-|I]; [left; auto|right; auto].
      - split; auto. intros k' I. right. auto. }
    apply (proj1 (X _ N)). }
  destruct (batch_spec (support_rich_types m) params [] [] ND (Forall_nil _)) as (flat' & bs' & EB & FB & H1 & H2 & H3).
  rewrite EB. cbn [fst snd]. cbn [pairs flat_map app] in H3.
  assert (PI : forall ty k p, In (ty, (k, p)) (pairs bs') <-> In (k, (p, ty)) params /\ p_skip p = false).
  { intros ty k p. split.
    - intros I. apply (Permutation_in _ H3) in I. apply in_flat_map in I as ([k' [p' ty']] & I & J). cbn [fst snd] in J. destruct (p_skip p') eqn:S; [contradiction|]. destruct J as [J|[]]. injection J as <- <- <-. auto.
    - intros [I S]. apply (Permutation_in _ (Permutation_sym H3)). apply in_flat_map. exists (k, (p, ty)). cbn [fst snd]. rewrite S. split; auto. left; auto. }
  destruct (gather_spec bs' flat') as (d & G & G1 & G2).
  { eapply Permutation_NoDup; [apply Permutation_map, Permutation_sym; exact H3|]. clear - ND. induction params as [|[k [p ty]] l IH]; cbn [flat_map map]; [constructor|]. cbn [map fst] in ND. inversion_clear ND as [|? ? N1 N2].
    cbn [fst snd]. destruct (p_skip p); cbn [app map]; auto. constructor; auto. intros I. apply N1. apply in_map_iff in I as (x & X & I). apply in_flat_map in I as ([k' [p' ty']] & I & J). cbn [fst snd] in J.
    destruct (p_skip p'); [contradiction|]. destruct J as [<-|[]]. cbn [fst snd] in X. subst k'. apply (in_map fst) in I. exact I. }
  { intros [ty xs] B. rewrite Forall_forall in FB. specialize (FB _ B). cbn [fst snd] in *. destruct xs as [|[k p] xs]; [congruence|].
    assert (I : In (ty, (k, p)) (pairs bs')) by (unfold pairs; apply in_flat_map; exists (ty, (k, p) :: xs); split; auto; left; auto).
    apply PI in I as [I S]. apply IN in I as (q & v & -> & B' & -> & ->). cbn [p_skip] in S. apply (R q v); auto. }
  set (f := fun p : path => match dget names_eqb (tuple_path_from_keypath p) d with Some t => t | None => Node KNone [] end).
  assert (F : forall p v, at_path ref p (Leaf v) -> dget names_eqb (tuple_path_from_keypath p) d = Some (f p) /\ shown_for answer m is_ocdbt p v (f p)).
  { intros p v B. unfold f. set (k := tuple_path_from_keypath p). set (pr := mkParam (join "." k) (skip_deserialize v) oc (use_zarr3 m) (write_shape v)).
    assert (I : In (k, (pr, value_type v)) params) by (apply IN; exists p, v; auto). unfold shown_for. destruct (skip_deserialize v) eqn:S.
    - assert (D : dget names_eqb k d = Some (unstored (support_rich_types m) pr (value_type v))).
      { rewrite G2; [apply (H1 _ _ _ I); reflexivity|]. intros J. apply in_map_iff in J as ([ty' [k' p']] & X & J). cbn [fst snd] in X. subst k'. apply PI in J as [J S'].
        assert (EQ : (pr, value_type v) = (p', ty')).
        { clear - ND I J. induction params as [|[k' y] l IH]; [contradiction|]. cbn [map fst] in ND. inversion_clear ND as [|? ? N1 N2]. destruct I as [I|I], J as [J|J]; [congruence| | |auto].
          - injection I as -> ->. exfalso. apply N1. apply (in_map fst) in J. exact J.
          - injection J as -> ->. exfalso. apply N1. apply (in_map fst) in I. exact I. }
        injection EQ as <- <-. discriminate S'. }
      rewrite D. split; auto. unfold unstored. destruct (is_empty_typestr (value_type v)) eqn:Y; [left; apply empty_value_shown; auto|right; split; [apply not_empty; auto|reflexivity]].
    - assert (D : dget names_eqb k d = Some (Leaf (Handled (answer (value_type v) pr)))) by (apply G1; apply PI; split; auto).
      rewrite D. split; auto. }
  exists f. split; [|intros p v B; apply (F p v B)].
  rewrite G. cbn [rbind]. apply target_ok; auto. intros p v B. apply (F p v B).
Qed.

End CustomProofs.

(** ** The pytree of metadata *)

Lemma put_all : forall {A : Type} (l d : list (key * A)), NoDup (map fst d ++ map fst l)%list -> fold_left (fun d x => put_item (fst x) (snd x) d) l d = (d ++ l)%list.
Proof.
  intros A l. induction l as [|[k v] l IH]; intros d N; cbn [fold_left]; [rewrite app_nil_r; auto|]. cbn [map fst snd] in *. rewrite put_fresh.
  - rewrite IH; [rewrite <- app_assoc; auto|]. rewrite map_app. cbn [map fst]. rewrite <- app_assoc. exact N.
  - apply NoDup_remove_2 in N. intros I. apply N. apply in_app_iff. auto.
Qed.

Lemma combine_fst_snd : forall {A B : Type} (l : list (A * B)), combine (map fst l) (map snd l) = l.
Proof. intros A B l. induction l as [|[a b] l IH]; auto. cbn [map combine fst snd]. rewrite IH. auto. Qed.

Theorem unflatten_ok : forall {V : Type} (t : tree V) custom zarr3, wf t -> (forall cs, t <> Node KNone cs) ->
  (forall cs, t = Node KDict cs -> forall x, In x (map fst cs) -> exists s, x = DictKey (KStr s)) ->
  exists l a, tree_flatten t custom zarr3 = Ok (l, a) /\ tree_unflatten a l = Ok (t, mkA None custom zarr3).
Proof.
  intros V t custom zarr3 W NN DS. destruct t as [v|k cs]; [eexists; eexists; split; reflexivity|]. inversion_clear W as [|? ? K W'].
  destruct k; [| | | |destruct (NN cs); auto]; eexists; eexists; (split; [reflexivity|]); cbn [tree_unflatten a_tree a_custom a_zarr3].
  - rewrite combine_fst_snd. unfold from_kwargs. assert (E : map (fun x => (DictKey (KStr (str_name (fst x))), snd x)) cs = cs).
    { transitivity (map (fun x : key * tree V => x) cs); [|apply map_id]. apply map_ext_in. intros [x c] I. destruct (DS cs eq_refl x) as (s & ->); [apply (in_map fst) in I; exact I|reflexivity]. }
    assert (G : forall d, fold_left (fun d x => put_item (DictKey (KStr (str_name (fst x)))) (snd x) d) cs d = fold_left (fun d x => put_item (fst x) (snd x) d) (map (fun x => (DictKey (KStr (str_name (fst x))), snd x)) cs) d).
    { clear. induction cs as [|x cs IH]; intros d; auto. cbn [fold_left map fst snd]. apply IH. }
    rewrite G, E, put_all; [reflexivity|]. cbn [map app]. apply (proj1 K).
  - simpl in K. rewrite map_length in K. rewrite map_length. rewrite <- K, combine_fst_snd. reflexivity.
  - simpl in K. rewrite map_length in K. rewrite map_length. rewrite <- K, combine_fst_snd. reflexivity.
  - assert (C : combine (map (fun x : key * tree V => DictKey (KStr (str_name (fst x)))) cs) (map snd cs) = map (fun x => (DictKey (KStr (str_name (fst x))), snd x)) cs).
    { clear. induction cs as [|x cs IH]; auto. cbn [map combine]. rewrite IH. auto. }
    rewrite C. unfold from_kwargs. assert (G : forall l d, fold_left (fun d x => put_item (DictKey (KStr (str_name (fst x)))) (snd x) d) (map (fun x : key * tree V => (DictKey (KStr (str_name (fst x))), snd x)) l) d = fold_left (fun d x => put_item (fst x) (snd x) d) (map (fun x => (DictKey (KStr (str_name (fst x))), snd x)) l) d).
    { clear. induction l as [|x l IH]; intros d; auto. cbn [fold_left map fst snd]. apply IH. }
    rewrite G, put_all.
    + cbn [app]. rewrite Nat.eqb_refl. cbn [rmap rbind]. rewrite map_map. cbn [fst snd]. do 2 f_equal. f_equal. transitivity (map (fun x : key * tree V => x) cs); [|apply map_id].
      apply map_ext_in. intros [x d] I. destruct K as [_ K]. destruct (K x) as (s & ->); [apply (in_map fst) in I; exact I|reflexivity].
    + cbn [map app]. rewrite map_map. cbn [fst]. rewrite <- (map_map fst (fun k => DictKey (KStr (str_name k)))), <- (map_map str_name (fun s => DictKey (KStr s))). apply FinFun.Injective_map_NoDup; [intros a b H; congruence|]. apply (names_nodup (KNamed c)); auto.
Qed.

(** ** The rich tree *)

Fixpoint lmap {A B : Type} (f : A -> B) (t : tree A) : tree B :=
  match t with
  | Leaf a => Leaf (f a)
  | Node k cs => Node k (map (fun x => (fst x, lmap f (snd x))) cs)
  end.

Lemma wf_norm' : forall {A : Type} (t : tree A), wf t -> wf (norm t).
Proof.
  intros A t. induction t as [a|k cs F] using tree_ind'; intros W; [constructor|]. rewrite norm_node. inversion_clear W as [|? ? K W']. rewrite Forall_forall in F, W'. constructor.
  - unfold map_items. rewrite map_map. apply order_fit; auto.
  - unfold map_items. apply Forall_forall. intros x I. apply in_map_iff in I as ([y c] & <- & I). rewrite order_in in I. cbn [snd]. apply (F (y, c) I). apply (W' (y, c) I).
Qed.

Lemma full_norm : forall {A : Type} (t : tree A), full t -> full (norm t).
Proof.
  intros A t. induction t as [a|k cs F] using tree_ind'; intros W; [constructor|]. rewrite norm_node. inversion_clear W as [|? ? K W']. rewrite Forall_forall in F, W'. constructor.
  - destruct cs as [|x cs]; [congruence|]. intros E. assert (I : In x (order k (x :: cs))) by (apply order_in; left; auto). unfold map_items in E. apply map_eq_nil in E. rewrite E in I. contradiction.
  - unfold map_items. apply Forall_forall. intros x I. apply in_map_iff in I as ([y c] & <- & I). rewrite order_in in I. cbn [snd]. apply (F (y, c) I). apply (W' (y, c) I).
Qed.

Lemma lmap_wf : forall {A B : Type} (f : A -> B) t, wf t -> wf (lmap f t).
Proof.
  intros A B f t. induction t as [a|k cs F] using tree_ind'; intros W; [constructor|]. cbn [lmap]. inversion_clear W as [|? ? K W']. rewrite Forall_forall in F, W'. constructor.
  - rewrite map_map. exact K.
  - apply Forall_forall. intros x I. apply in_map_iff in I as (y & <- & I). cbn [snd]. auto.
Qed.

Lemma lmap_full : forall {A B : Type} (f : A -> B) t, full t -> full (lmap f t).
Proof.
  intros A B f t. induction t as [a|k cs F] using tree_ind'; intros W; [constructor|]. cbn [lmap]. inversion_clear W as [|? ? K W']. rewrite Forall_forall in F, W'. constructor.
  - destruct cs; [congruence|discriminate].
  - apply Forall_forall. intros x I. apply in_map_iff in I as (y & <- & I). cbn [snd]. auto.
Qed.

Lemma lmap_same : forall {A B : Type} (f : A -> B) (R : A -> B -> Prop) t, (forall p a, at_path t p (Leaf a) -> R a (f a)) -> same_tree R t (lmap f t).
Proof.
  intros A B f R t. induction t as [a|k cs F] using tree_ind'; intros H; [constructor; apply (H []); constructor|]. cbn [lmap]. constructor. rewrite Forall_forall in F.
  assert (G : forall l, (forall x, In x l -> In x cs) -> Forall2 (fun x y => fst y = fst x /\ same_tree R (snd x) (snd y)) l (map (fun x => (fst x, lmap f (snd x))) l)).
  { induction l as [|x l IH]; intros S; constructor; [|apply IH; intros y Y; apply S; right; auto]. cbn [fst snd]. split; auto. assert (X : In x cs) by (apply S; left; auto).
    apply F; auto. intros p a A'. apply (H (fst x :: p)). destruct x as [x c]. apply at_node. exists c. auto. }
  apply G. auto.
Qed.

Lemma norm_at : forall {A : Type} (t : tree A) p a, at_path (norm t) p (Leaf a) -> at_path t p (Leaf a).
Proof.
  intros A t. induction t as [v|k cs F] using tree_ind'; intros p a H; auto. rewrite norm_node in H. destruct p as [|x p]; [inversion H|]. apply at_node in H as (c & I & H).
  unfold map_items in I. apply in_map_iff in I as ([y d] & E & I). rewrite order_in in I. injection E as <- <-. rewrite Forall_forall in F. apply at_node. exists d. split; auto. apply (F (y, d) I); auto.
Qed.

Lemma build_tree_ok : forall t, full t -> typed t -> build_tree t = Ok (lmap meta_of (norm t)).
Proof.
  intros t F T. unfold build_tree. generalize (@nil key). induction t as [i|k cs IH] using tree_ind'; intros p.
  - cbn [map_with_path leaf_meta norm lmap]. rewrite vm_build_ok; [reflexivity|]. apply (T []). constructor.
  - inversion F as [|? ? NE Fs]; subst. rewrite mwp_node by auto. rewrite Forall_forall in IH, Fs.
    rewrite (seq_items_ok (fun x => map_with_path true (fun _ x => rmap Leaf (leaf_meta x)) (p ++ [fst x])%list (snd x)) (fun x => lmap meta_of (norm (snd x)))).
    + rewrite norm_node. cbn [rmap rbind lmap]. do 2 f_equal. unfold map_items. rewrite map_map. apply map_ext. intros [x c]. reflexivity.
    + intros x I. rewrite order_in in I. apply IH; auto. intros q i A. apply (T (fst x :: q)). destruct x as [x c]. apply at_node. exists c. auto.
Qed.

Section Rich.
Variables M Q : string -> string.

Fixpoint again (t : tree vmeta) : tree vmeta :=
  match t with
  | Leaf v => Leaf v
  | Node k cs =>
    Node (match k with KNamed c => KNamed (stand_in M Q c (List.length cs)) | _ => k end)
         (map (fun x => (match k with KDict => DictKey (KStr (str_name (fst x))) | _ => fst x end, again (snd x))) cs)
  end.

Lemma reread_again : forall t, reread M Q t = lmap LMeta (again t).
Proof.
  intros t. induction t as [v|k cs F] using tree_ind'; auto. cbn [reread again lmap]. f_equal. rewrite map_map. cbn [fst snd]. apply map_ext_in. intros x I. rewrite Forall_forall in F. rewrite (F x I). auto.
Qed.

Lemma as_metas_lift : forall t, as_metas (lmap LMeta t) = Ok t.
Proof.
  intros t. induction t as [v|k cs F] using tree_ind'; auto. cbn [lmap as_metas]. match goal with |- rmap _ ?X = _ => assert (E : X = Ok cs) end; [|rewrite E; reflexivity].
  induction F as [|[x c] cs F1 F2 IH]; auto. cbn [map fst snd]. cbn [snd] in F1. rewrite F1. cbn [rbind]. rewrite IH. reflexivity.
Qed.

Theorem rich_ok : forall t ocdbt zarr3 custom store, wf t -> full t -> typed t ->
  exists t' V, peq t t' /\ same_tree written t' V /\ (namable M Q V -> exists m d m' T,
    build t None ocdbt zarr3 custom store true = Ok m /\ to_json M Q m = Ok d /\ from_json d true = Ok m' /\
    use_ocdbt m' = ocdbt /\ use_zarr3 m' = zarr3 /\ custom_metadata m' = custom /\ store_array_data_equal_to_fill_value m' = store /\
    as_nested_tree m' = Ok T /\ same_tree (fun v w => w = LMeta v) T (reread M Q V)).
Proof.
  intros t ocdbt zarr3 custom store W F T. exists (norm t), (lmap meta_of (norm t)). split; [apply peq_norm|]. split.
  { apply lmap_same. intros p i A. apply norm_at in A. apply meta_written. apply (T p i A). }
  assert (W' : wf (lmap meta_of (norm t))) by (apply lmap_wf, wf_norm'; auto). assert (F' : full (lmap meta_of (norm t))) by (apply lmap_full, full_norm; auto).
  intros N. pose (m := mkM (map built_entry (leaf_list t)) ocdbt zarr3 custom store true (Some (lmap meta_of (norm t)))).
  assert (J : exists d, to_json M Q m = Ok d /\ d_rich d = Some (jof M Q (lmap meta_of (norm t)))).
  { unfold to_json, m. cbn [support_rich_types value_metadata_tree]. rewrite (dumps_ok M Q) by auto. cbn [rmap rbind]. eexists. split; reflexivity. }
  destruct J as (d & J & R). exists m, d. eexists. exists (again (lmap meta_of (norm t))). split.
  { unfold build. rewrite firstn_all. rewrite (entries_built t F T). cbn [rbind]. rewrite build_tree_ok by auto. reflexivity. }
  split; auto. split.
  { rewrite (json_entries M Q m d); [|apply keypaths_distinct; auto|auto]. rewrite R. rewrite read_back by auto. assert (B := proj2 (namable_spec M Q _ W') N). rewrite B. cbn [judged rbind].
    rewrite reread_again, as_metas_lift. cbn [rmap rbind]. reflexivity. }
  repeat (split; [reflexivity|]). rewrite reread_again. apply lmap_same. auto.
Qed.

End Rich.

Lemma norm_at_iff : forall {A : Type} (t : tree A) p a, at_path (norm t) p (Leaf a) <-> at_path t p (Leaf a).
Proof.
  intros A t p a. split; [apply norm_at|]. revert p a. induction t as [v|k cs F] using tree_ind'; intros p a H; auto. rewrite norm_node. destruct p as [|x p]; [inversion H|].
  apply at_node in H as (c & I & H). rewrite Forall_forall in F. apply at_node. exists (norm c). split; [|apply (F (x, c) I); auto].
  unfold map_items. apply in_map_iff. exists (x, c). split; auto. apply order_in. auto.
Qed.

Lemma same_format_dec : forall a b, same_format a b \/ ~ same_format a b.
Proof.
  intros a b. unfold same_format. destruct (bool_dec (use_zarr3 a) (use_zarr3 b)) as [E1|N]; [|tauto]. destruct (flag_eqb_spec (use_ocdbt a) (use_ocdbt b)) as [E2|N]; [|tauto].
  destruct (bool_dec (support_rich_types a) (support_rich_types b)) as [E3|N]; [|tauto]. destruct (bool_dec (store_array_data_equal_to_fill_value a) (store_array_data_equal_to_fill_value b)) as [E4|N]; tauto.
Qed.
