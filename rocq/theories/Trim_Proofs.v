(** Proofs about trimming. *)
From Coq Require Import List Bool Arith NArith ZArith String Ascii Permutation Lia.
From Verif Require Import Base StepName_Model Tree_Model Tree_Spec Tree_Proofs Parts_Model Parts_Spec Parts_Proofs Diff_Proofs Trim_Model Trim_Spec.
Import ListNotations.

(** ** Lists *)

Lemma sequence_inv : forall {A B : Type} (f : A -> result B) l,
  match sequence (map f l) with
  | Ok rs => Forall2 (fun x r => f x = Ok r) l rs
  | Err e => exists x, In x l /\ f x = Err e
  end.
Proof.
  intros A B f l. induction l as [|x l IH]; cbn [map sequence]; [constructor|]. destruct (f x) as [r|e] eqn:E; cbn [rbind].
  - destruct (sequence (map f l)) as [rs|e]; cbn [rbind]; [constructor; auto|]. destruct IH as (y & I & H). exists y. split; auto. right. auto.
  - exists x. split; auto. left. auto.
Qed.

Lemma forall2_in_l : forall {A B : Type} (R : A -> B -> Prop) l m x, Forall2 R l m -> In x l -> exists y, In y m /\ R x y.
Proof. intros A B R l m x F. induction F as [|a b l m H F IH]; intros []; [subst; exists b; split; auto; left; auto|]. destruct IH as (y & I & H'); auto. exists y. split; auto. right. auto. Qed.

Lemma forall2_in_r : forall {A B : Type} (R : A -> B -> Prop) l m y, Forall2 R l m -> In y m -> exists x, In x l /\ R x y.
Proof. intros A B R l m x F. induction F as [|a b l m H F IH]; intros []; [subst; exists a; split; auto; left; auto|]. destruct IH as (y & I & H'); auto. exists y. split; auto. right. auto. Qed.

Lemma key_in_spec : forall {A : Type} k (l : list (dkey * A)), key_in k l = true <-> In k (map fst l).
Proof.
  intros A k l. unfold key_in. destruct (dget dkey_eqb k l) eqn:E.
  - split; auto. intros _. apply (dget_some_in dkey_eqb dkey_eqb_spec) in E. apply (in_map fst) in E. auto.
  - apply (dget_none dkey_eqb dkey_eqb_spec) in E. split; [discriminate|contradiction].
Qed.

Lemma entry_called : forall l y, entry_key l y = called l y.
Proof. auto. Qed.

Lemma called_nodup : forall {A : Type} l (ds : list (key * A)), keys_fit l (map fst ds) -> NoDup (map (fun x => called l (fst x)) ds).
Proof.
  intros A l ds W. rewrite <- (map_map fst (called l)). destruct l.
  - cbn [keys_fit] in W. destruct W as [N [H|H]]; apply NoDup_map_inj_in; auto; intros x y I J E; apply H in I as (s & ->); apply H in J as (t & ->); cbn [called] in E; congruence.
  - apply names_nodup in W. apply (nodup_inj_map str_name (called KList) _ W). intros x y _ _. cbn [called]. destruct x, y; intros E; injection E; auto.
  - apply names_nodup in W. apply (nodup_inj_map str_name (called KTuple) _ W). intros x y _ _. cbn [called]. destruct x, y; intros E; injection E; auto.
  - apply names_nodup in W. apply (nodup_inj_map str_name (called (KNamed c)) _ W). intros x y _ _. cbn [called]. destruct x, y; intros E; injection E; auto.
  - cbn [keys_fit] in W. rewrite W. constructor.
Qed.

Lemma called_inj : forall {A : Type} l (ds : list (key * A)) y d y' d', keys_fit l (map fst ds) -> In (y, d) ds -> In (y', d') ds -> called l y = called l y' -> y = y' /\ d = d'.
Proof.
  intros A l ds y d y' d' W I J E. assert (N := called_nodup l ds W). clear W. induction ds as [|z ds IH]; [contradiction|]. cbn [map] in N. inversion_clear N as [|? ? N1 N2].
  destruct I as [->|I]; destruct J as [J|J]; auto.
  - injection J as -> ->. auto.
  - exfalso. apply N1. apply in_map_iff. exists (y', d'). split; auto.
  - subst z. exfalso. apply N1. apply in_map_iff. exists (y, d). split; auto.
Qed.

(** ** Pairs *)

Lemma pairs_name_inv : forall {U V : Type} k cs l ds p q lp (t' : tree U) (s' : tree V), by_name k l = true -> pairs (Node k cs) (Node l ds) p q lp t' s' ->
  (p = [] /\ q = [] /\ lp = [] /\ t' = Node k cs /\ s' = Node l ds) \/
  exists x c y d p' q' lp', In (x, c) cs /\ In (y, d) ds /\ called k x = called l y /\ pairs c d p' q' lp' t' s' /\ p = x :: p' /\ q = y :: q' /\ lp = spelled l y :: lp'.
Proof.
  intros U V k cs l ds p q lp t' s' B H. inversion H as [|? ? ? ? x c y d p' q' lp' ? ? B' I J E P|? ? ? ? i x c y d p' q' lp' ? ? B' I J P]; subst; [left; auto| |congruence].
  right. exists x, c, y, d, p', q', lp'. spl; auto.
Qed.

Lemma pairs_pos_inv : forall {U V : Type} k cs l ds p q lp (t' : tree U) (s' : tree V), by_name k l = false -> pairs (Node k cs) (Node l ds) p q lp t' s' ->
  (p = [] /\ q = [] /\ lp = [] /\ t' = Node k cs /\ s' = Node l ds) \/
  exists i x c y d p' q' lp', nth_error cs i = Some (x, c) /\ nth_error ds i = Some (y, d) /\ pairs c d p' q' lp' t' s' /\ p = x :: p' /\ q = y :: q' /\ lp = KInt (Z.of_nat i) :: lp'.
Proof.
  intros U V k cs l ds p q lp t' s' B H. inversion H as [|? ? ? ? x c y d p' q' lp' ? ? B' I J E P|? ? ? ? i x c y d p' q' lp' ? ? B' I J P]; subst; [left; auto|congruence|].
  right. exists i, x, c, y, d, p', q', lp'. spl; auto.
Qed.

Lemma dropped_name : forall {U V : Type} k (cs : list (key * tree U)) l (ds : list (key * tree V)) q lp n, by_name k l = true ->
  (dropped (Node k cs) (Node l ds) q lp n <->
   (exists y, In (y, n) ds /\ ~ In (called l y) (map (fun x => called k (fst x)) cs) /\ q = [y] /\ lp = [spelled l y]) \/
   (exists x c y d q' lp', In (x, c) cs /\ In (y, d) ds /\ called k x = called l y /\ dropped c d q' lp' n /\ q = y :: q' /\ lp = spelled l y :: lp')).
Proof.
  intros U V k cs l ds q lp n B. split.
  - intros (p & q1 & lp1 & t' & s' & q2 & lp2 & P & H & -> & ->). apply pairs_name_inv in P as [(-> & -> & -> & -> & ->)|(x & c & y & d & p' & q' & lp' & I & J & E & P & -> & -> & ->)]; auto.
    + left. inversion H; subst. exists y. spl; auto.
    + right. exists x, c, y, d, (q' ++ q2), (lp' ++ lp2). spl; auto. exists p', q', lp', t', s', q2, lp2. spl; auto.
  - intros [(y & I & N & -> & ->)|(x & c & y & d & q' & lp' & I & J & E & (p & q1 & lp1 & t' & s' & q2 & lp2 & P & H & -> & ->) & -> & ->)].
    + exists [], [], [], (Node k cs), (Node l ds), [y], [spelled l y]. spl; auto; constructor; auto.
    + exists (x :: p), (y :: q1), (spelled l y :: lp1), t', s', q2, lp2. spl; auto. apply pairs_name with (c := c) (d := d); auto.
Qed.

Lemma dropped_position : forall {U V : Type} k (cs : list (key * tree U)) l (ds : list (key * tree V)) q lp n, by_name k l = false ->
  (dropped (Node k cs) (Node l ds) q lp n <->
   exists i x c y d q' lp', nth_error cs i = Some (x, c) /\ nth_error ds i = Some (y, d) /\ dropped c d q' lp' n /\ q = y :: q' /\ lp = KInt (Z.of_nat i) :: lp').
Proof.
  intros U V k cs l ds q lp n B. split.
  - intros (p & q1 & lp1 & t' & s' & q2 & lp2 & P & H & -> & ->). apply pairs_pos_inv in P as [(-> & -> & -> & -> & ->)|(i & x & c & y & d & p' & q' & lp' & I & J & P & -> & -> & ->)]; auto.
    + inversion H; subst; congruence.
    + exists i, x, c, y, d, (q' ++ q2), (lp' ++ lp2). spl; auto. exists p', q', lp', t', s', q2, lp2. spl; auto.
  - intros (i & x & c & y & d & q' & lp' & I & J & (p & q1 & lp1 & t' & s' & q2 & lp2 & P & H & -> & ->) & -> & ->).
    exists (x :: p), (y :: q1), (KInt (Z.of_nat i) :: lp1), t', s', q2, lp2. spl; auto. apply pairs_position with (c := c) (d := d); auto.
Qed.

Lemma trims_name_inv : forall {U V : Type} strict allow k (cs : list (key * tree U)) l (ds : list (key * tree V)), by_name k l = true -> trims strict allow (Node k cs) (Node l ds) ->
  mappable allow l = true /\ (strict = true -> forall x c, In (x, c) cs -> exists y d, In (y, d) ds /\ called k x = called l y) /\
  (forall x c y d, In (x, c) cs -> In (y, d) ds -> called k x = called l y -> trims strict allow c d).
Proof. intros U V strict allow k cs l ds B H. inversion H; subst; [auto|congruence]. Qed.

Lemma trims_pos_inv : forall {U V : Type} strict allow k (cs : list (key * tree U)) l (ds : list (key * tree V)), by_name k l = false -> trims strict allow (Node k cs) (Node l ds) ->
  l <> KDict /\ List.length cs = List.length ds /\
  (forall i x c y d, nth_error cs i = Some (x, c) -> nth_error ds i = Some (y, d) -> trims strict allow c d).
Proof. intros U V strict allow k cs l ds B H. inversion H; subst; [congruence|auto]. Qed.

(** ** The main lemma *)

Section Trim.
Context {U V : Type} (chars : V -> option (list V)) (NC : forall v, chars v = None) (strict allow : bool).
Notation trim := (tree_trim_at chars strict allow).

Definition values (t : tree U) (s : tree V) (r : partial_tree V) : Prop :=
  forall p v, at_path r p (Leaf (Some v)) <-> exists q lp u, pairs t s p q lp (Leaf u) (Leaf v).

Definition good (p0 : list dkey) (t : tree U) (s : tree V) (r : partial_tree V) (l : calls V) : Prop :=
  trims strict allow t s /\ wf r /\ values t s r /\ forall lp n, In (lp, n) l <-> exists q lp', lp = p0 ++ lp' /\ dropped t s q lp' n.

Definition correct (t : tree U) : Prop := forall p0 s, wf s ->
  match trim t p0 s with
  | Ok o => good p0 t s (fst o) (snd o)
  | Err e => refused e /\ ~ trims strict allow t s
  end.

Lemma restore_ok : forall p0 ks y rest (n : tree V), In y ks -> NoDup (map str_name ks) ->
  restore (List.length p0) ks (p0 ++ KStr (str_name y) :: rest, n) = Ok (p0 ++ KStr (keystr y) :: rest, n).
Proof.
  intros p0 ks y rest n I N. unfold restore. cbn [fst snd]. rewrite nth_error_app2 by auto. rewrite Nat.sub_diag. cbn [nth_error].
  assert (F : find (fun k => dkey_eqb (KStr (str_name k)) (KStr (str_name y))) ks = Some y).
  { clear - I N. induction ks as [|z ks IH]; [contradiction|]. cbn [map] in N. inversion_clear N as [|? ? N1 N2]. cbn [find]. destruct (dkey_eqb_spec (KStr (str_name z)) (KStr (str_name y))) as [E|E].
    - destruct I as [->|I]; auto. exfalso. apply N1. injection E as ->. apply in_map. auto.
    - destruct I as [->|I]; [congruence|auto]. }
  rewrite F. f_equal. f_equal. clear. induction p0 as [|a p0 IH]; auto. cbn [List.length set_nth app]. f_equal. auto.
Qed.

Lemma structure_dict_eq : forall l (ds : list (key * tree V)), wf (Node l ds) -> structure_dict allow (Node l ds) =
  if mappable allow l then Ok (map (fun x => (called l (fst x), snd x)) ds, match l with KDict | KNone => None | _ => Some (map fst ds) end) else Err TypeError.
Proof.
  intros l ds W. inversion_clear W as [|? ? W1 W2]. destruct l; cbn [structure_dict mappable]; auto; try (destruct allow; auto; fail).
  - cbn [keys_fit] in W1. apply map_eq_nil in W1. subst. auto.
Qed.

Lemma no_value : forall (c : tree U) p (v : V), ~ at_path (placeholders c) p (Leaf (Some v)).
Proof. intros c p v A. unfold placeholders in A. apply (proj1 (at_norm_leaf _ _ _)) in A. apply at_map in A as ([u|] & A & E); discriminate. Qed.

Lemma wf_placeholders : forall (c : tree U), wf c -> wf (placeholders c : partial_tree V).
Proof. intros c W. unfold placeholders. apply wf_norm, wf_tree_map. auto. Qed.

Definition entries (k : kind) (cs : list (key * tree U)) := map (fun x => (entry_key k (fst x), (snd x, trim (snd x)))) cs.

Definition child_values (c : tree U) (l : kind) (ds : list (key * tree V)) (name : dkey) (r : partial_tree V) : Prop :=
  forall p v, at_path r p (Leaf (Some v)) <-> exists y d q lp u, In (y, d) ds /\ name = called l y /\ pairs c d p q lp (Leaf u) (Leaf v).

Lemma entries_get : forall k cs x c, keys_fit k (map fst cs) -> In (x, c) cs -> dget dkey_eqb (called k x) (entries k cs) = Some (c, trim c).
Proof.
  intros k cs x c W I. apply (dget_in dkey_eqb dkey_eqb_spec).
  - unfold entries. rewrite map_map. cbn [fst]. apply called_nodup. auto.
  - unfold entries. apply in_map_iff. exists (x, c). auto.
Qed.

Lemma entries_keys : forall k cs, map fst (entries k cs) = map (fun x => called k (fst x)) cs.
Proof. intros. unfold entries. rewrite map_map. auto. Qed.

Lemma mapping_ok : forall k cs l ds p0, by_name k l = true -> keys_fit k (map fst cs) -> Forall (fun x => correct (snd x)) cs -> Forall (fun x => wf (snd x)) cs -> wf (Node l ds) ->
  match trim_mapping strict allow (entries k cs) p0 (Node l ds) with
  | Ok o => exists rs, fst o = Node KDict rs /\ trims strict allow (Node k cs) (Node l ds) /\ NoDup (map fst rs) /\
      (forall x c, In (x, c) cs -> exists r, In (DictKey (called k x), r) rs) /\
      (forall K r, In (K, r) rs -> exists x c, In (x, c) cs /\ K = DictKey (called k x) /\ wf r /\ child_values c l ds (called k x) r) /\
      forall lp n, In (lp, n) (snd o) <-> exists q lp', lp = p0 ++ lp' /\ dropped (Node k cs) (Node l ds) q lp' n
  | Err e => refused e /\ ~ trims strict allow (Node k cs) (Node l ds)
  end.
Proof.
  intros k cs l ds p0 B WK F WC WS. unfold trim_mapping. rewrite structure_dict_eq by auto.
  destruct (mappable allow l) eqn:M; cbn [rbind].
  2:{ split; [right; auto|]. intros H. apply trims_name_inv in H as [H _]; auto. congruence. }
  cbn [fst snd]. set (items := map (fun x => (called l (fst x), snd x)) ds).
  inversion_clear WS as [|? ? WD1 WD2]. rewrite Forall_forall in *.
  assert (KI : forall z, key_in z items = true <-> exists y d, In (y, d) ds /\ z = called l y).
  { intros z. rewrite key_in_spec. unfold items. rewrite map_map. cbn [fst]. rewrite in_map_iff. split; [intros ((y & d) & <- & I); eauto|intros (y & d & I & ->); exists (y, d); auto]. }
  assert (KT : forall z, key_in z (entries k cs) = true <-> exists x c, In (x, c) cs /\ z = called k x).
  { intros z. rewrite key_in_spec. rewrite entries_keys, in_map_iff. split; [intros ((x & c) & <- & I); eauto|intros (x & c & I & ->); exists (x, c); auto]. }
  set (missing := filter (fun x => negb (key_in (fst x) items)) (entries k cs)).
  assert (MI : forall z e, In (z, e) missing <-> exists x c, In (x, c) cs /\ z = called k x /\ e = (c, trim c) /\ forall y d, In (y, d) ds -> called k x <> called l y).
  { intros z e. unfold missing. rewrite filter_In. cbn [fst]. unfold entries at 1. rewrite in_map_iff. split.
    - intros (((x & c) & E & I) & N). injection E as <- <-. exists x, c. spl; auto. intros y d J E. apply negb_true_iff in N. assert (key_in (entry_key k x) items = true); [|congruence].
      apply KI. exists y, d. auto.
    - intros (x & c & I & -> & -> & N). split; [exists (x, c); auto|]. destruct (key_in (called k x) items) eqn:E; auto. apply KI in E as (y & d & J & E). exfalso. eapply N; eauto. }
  destruct (strict && negb match missing with [] => true | _ => false end) eqn:SM.
  { apply andb_true_iff in SM as [S1 S2]. destruct missing as [|[z e] m] eqn:EM; [discriminate|]. split; [left; auto|]. intros H. apply trims_name_inv in H as (_ & H & _); auto.
    assert (I : In (z, e) ((z, e) :: m)) by (left; auto). apply MI in I as (x & c & I & _ & _ & N). destruct (H S1 x c I) as (y & d & J & E). eapply N; eauto. }
  assert (SM' : strict = true -> forall x c, In (x, c) cs -> exists y d, In (y, d) ds /\ called k x = called l y).
  { intros S x c I. rewrite S in SM. cbn [andb] in SM. destruct missing as [|z m] eqn:EM; [|discriminate]. destruct (key_in (called k x) items) eqn:E; [apply KI in E; auto|].
    exfalso. assert (J : In (called k x, (c, trim c)) []) by (apply MI; exists x, c; spl; auto; intros y d J E2; assert (key_in (called k x) items = true) by (apply KI; eauto); congruence). contradiction. }
  clear SM. match goal with |- context [sequence (map ?f ?l)] => assert (Q := sequence_inv f l); destruct (sequence (map f l)) as [kept|e] end; cbn [rbind].
  2:{ destruct Q as ((z & d) & I & E). apply filter_In in I as [I J]. cbn [fst snd] in *. apply KT in J as (x & c & J & ->). unfold items in I. apply in_map_iff in I as ((y & d') & E2 & I). injection E2 as E2 <-.
      cbn [fst snd] in *. rewrite entries_get with (c := c) in E by auto. cbn [snd] in E.
      specialize (F _ J (p0 ++ [called k x]) d' (WD2 _ I)). cbn [snd] in F. destruct (trim c (p0 ++ [called k x]) d'); [discriminate|]. cbn [rmap] in E. injection E as <-. destruct F as [F1 F2]. split; auto. intros H. apply trims_name_inv in H as (_ & _ & H); auto. apply F2. eapply H; eauto. }
  (* every kept entry *)
  assert (KE : forall z o, In (z, o) kept <-> exists x c y d, In (x, c) cs /\ In (y, d) ds /\ z = called k x /\ called k x = called l y /\ trim c (p0 ++ [z]) d = Ok o).
  { intros z o. split.
    - intros I. destruct (forall2_in_r _ _ _ _ Q I) as ((z' & d) & J & E). apply filter_In in J as [J K]. cbn [fst snd] in *. apply KT in K as (x & c & K & ->). unfold items in J. apply in_map_iff in J as ((y & d') & E2 & J).
      injection E2 as E2 <-. cbn [fst snd] in *. rewrite entries_get with (c := c) in E by auto. cbn [snd] in E. destruct (trim c (p0 ++ [called k x]) d') as [o'|] eqn:ET; [|discriminate]. cbn [rmap] in E. injection E as <- <-.
      exists x, c, y, d'. spl; auto.
    - intros (x & c & y & d & I & J & -> & E & ET). assert (L : In (called k x, d) (filter (fun x => key_in (fst x) (entries k cs)) items)).
      { apply filter_In. split; [unfold items; apply in_map_iff; exists (y, d); split; auto; cbn [fst snd]; congruence|]. apply KT. exists x, c. auto. }
      destruct (forall2_in_l _ _ _ _ Q L) as (z & K & E2). cbn [fst snd] in E2. rewrite entries_get with (c := c) in E2 by auto. cbn [snd] in E2. rewrite ET in E2. cbn [rmap] in E2. injection E2 as <-. auto. }
  assert (KN : NoDup (map fst kept)).
  { assert (E : map fst kept = map fst (filter (fun x => key_in (fst x) (entries k cs)) items)).
    { clear - Q. induction Q as [|[z d] [z' o] l1 m1 H Q IH]; auto. cbn [map fst snd] in *. f_equal; auto. destruct (dget dkey_eqb z (entries k cs)) as [e|]; [|discriminate].
      destruct (snd e (p0 ++ [z]) d); [|discriminate]. cbn [rmap] in H. congruence. }
    rewrite E. apply NoDup_map_filter. unfold items. rewrite map_map. cbn [fst]. apply called_nodup. auto. }
  assert (KO : forall x c y d, In (x, c) cs -> In (y, d) ds -> called k x = called l y -> exists o, trim c (p0 ++ [called k x]) d = Ok o).
  { intros x c y d I J E. assert (L : In (called k x, d) (filter (fun x => key_in (fst x) (entries k cs)) items)).
    { apply filter_In. split; [unfold items; apply in_map_iff; exists (y, d); split; auto; cbn [fst snd]; congruence|]. apply KT. exists x, c. auto. }
    destruct (forall2_in_l _ _ _ _ Q L) as (z & K & E2). cbn [fst snd] in E2. rewrite entries_get with (c := c) in E2 by auto. cbn [snd] in E2. destruct (trim c (p0 ++ [called k x]) d); [eauto|discriminate]. }
  clear Q.
  assert (G : forall x c y d o, In (x, c) cs -> In (y, d) ds -> trim c (p0 ++ [called k x]) d = Ok o -> good (p0 ++ [called k x]) c d (fst o) (snd o)).
  { intros x c y d o I J E. specialize (F _ I (p0 ++ [called k x]) d (WD2 _ J)). cbn [snd] in F. rewrite E in F. auto. }
  set (log0 := map (fun x => (p0 ++ [fst x], snd x)) (filter (fun x => negb (key_in (fst x) (entries k cs))) items) ++ flat_map (fun x => snd (snd x)) kept).
  assert (L0 : forall lp n, In (lp, n) log0 <-> exists y rest, lp = p0 ++ called l y :: rest /\ In y (map fst ds) /\ exists q, dropped (Node k cs) (Node l ds) q (spelled l y :: rest) n /\ exists q', q = y :: q').
  { intros lp n. unfold log0. rewrite in_app_iff, in_map_iff, in_flat_map. split.
    - intros [((z & d) & E & I)|((z & o) & I & J)].
      + cbn [fst snd] in E. injection E as <- <-. apply filter_In in I as [I N]. cbn [fst] in N. unfold items in I. apply in_map_iff in I as ((y & d') & E & I). cbn [fst snd] in E. injection E as <- ->.
        exists y, []. spl; auto; [apply (in_map fst) in I; auto|]. exists [y]. split; [|exists []; auto]. apply dropped_name; auto. left. exists y. spl; auto. intros J. apply in_map_iff in J as ((x & c) & E & J). cbn [fst] in E.
        apply negb_true_iff in N. assert (key_in (called l y) (entries k cs) = true) by (apply KT; exists x, c; auto). congruence.
      + cbn [snd] in J. apply KE in I as (x & c & y & d & I & I2 & -> & E & ET). destruct (G _ _ _ _ _ I I2 ET) as (_ & _ & _ & GL). apply GL in J as (q & lp' & -> & D).
        exists y, lp'. spl; [rewrite <- app_assoc; cbn [app]; rewrite E; auto|apply (in_map fst) in I2; auto|]. exists (y :: q). split; [|eauto]. apply dropped_name; auto. right. exists x, c, y, d, q, lp'. spl; auto.
    - intros (y & rest & -> & _ & q & D & q' & EQ). apply dropped_name in D; auto. destruct D as [(y' & I & N & -> & E)|(x & c & y' & d & q2 & lp' & I & J & E & D & -> & E2)].
      + injection EQ as -> <-. injection E as ->. left. exists (called l y, n). split; auto. apply filter_In. split; [unfold items; apply in_map_iff; exists (y, n); auto|]. cbn [fst].
        destruct (key_in (called l y) (entries k cs)) eqn:K; auto. apply KT in K as (x & c & K & E). exfalso. apply N. apply in_map_iff. exists (x, c). auto.
      + injection EQ as -> ->. injection E2 as ->. right. destruct (KO x c y d I J E) as (o & ET).
        exists (called k x, o). split; [apply KE; exists x, c, y, d; spl; auto|]. cbn [snd]. destruct (G _ _ _ _ _ I J ET) as (_ & _ & _ & GL). apply GL. exists q', lp'. split; auto. rewrite <- app_assoc. cbn [app]. rewrite E. auto. }
  assert (TR : trims strict allow (Node k cs) (Node l ds)).
  { apply trims_name; auto. intros x c y d I J E. destruct (KO x c y d I J E) as (o & ET). apply (G _ _ _ _ _ I J ET). }
  set (rs := map (fun x => (DictKey (fst x), fst (snd x))) kept ++ map (fun x => (DictKey (fst x), placeholders (fst (snd x)))) missing).
  assert (RN : NoDup (map fst rs)).
  { assert (INJ : forall l : list dkey, NoDup l -> NoDup (map DictKey l)) by (intros; apply NoDup_map_inj_in; auto; intros; congruence).
    replace (map fst rs) with (map DictKey (map fst kept) ++ map DictKey (map fst missing)) by (unfold rs; rewrite map_app, !map_map; reflexivity). apply NoDup_app_intro.
    - apply INJ. auto.
    - apply INJ. unfold missing. apply NoDup_map_filter. rewrite entries_keys. apply called_nodup. auto.
    - intros z I J. apply in_map_iff in I as (w & <- & I). apply in_map_iff in J as (w' & E & J). injection E as ->. apply in_map_iff in I as ((w1 & o) & E1 & I). apply in_map_iff in J as ((w2 & e) & E2 & J). cbn [fst] in *. subst w1 w2.
      apply KE in I as (x & c & y & d & I & I2 & -> & E & _). apply MI in J as (x' & c' & J & E' & _ & N). eapply N; [apply I2|]. congruence. }
  assert (RA : forall x c, In (x, c) cs -> exists r, In (DictKey (called k x), r) rs).
  { intros x c I. destruct (key_in (called k x) items) eqn:K.
    - apply KI in K as (y & d & J & E). destruct (KO x c y d I J E) as (o & ET). exists (fst o). unfold rs. apply in_or_app. left. apply in_map_iff. exists (called k x, o). split; auto. apply KE. exists x, c, y, d. spl; auto.
    - exists (placeholders c). unfold rs. apply in_or_app. right. apply in_map_iff. exists (called k x, (c, trim c)). split; auto. apply MI. exists x, c. spl; auto. intros y d J E.
      assert (key_in (called k x) items = true) by (apply KI; eauto). congruence. }
  assert (RC : forall K r, In (K, r) rs -> exists x c, In (x, c) cs /\ K = DictKey (called k x) /\ wf r /\ child_values c l ds (called k x) r).
  { intros K r I. unfold rs in I. apply in_app_or in I as [I|I]; apply in_map_iff in I as ((z & o) & E & I); cbn [fst snd] in E; injection E as <- <-.
    - apply KE in I as (x & c & y & d & I & J & -> & E & ET). exists x, c. destruct (G _ _ _ _ _ I J ET) as (_ & W & VS & _). spl; auto. intros p v. etransitivity; [apply (VS p v)|]. split.
      + intros (q & lp & u & P). exists y, d, q, lp, u. spl; auto.
      + intros (y' & d' & q & lp & u & J' & E' & P). destruct (called_inj l ds y d y' d' WD1 J J') as [<- <-]; [congruence|]. eauto.
    - apply MI in I as (x & c & I & -> & -> & N). exists x, c. cbn [fst]. spl; auto.
      + apply wf_placeholders. apply (WC _ I).
      + intros p v. split; [intros A; exfalso; eapply no_value; eauto|]. intros (y & d & q & lp & u & J & E & _). exfalso. eapply N; eauto. }
  assert (DR : forall q lp n, dropped (Node k cs) (Node l ds) q lp n -> exists y q' rest, In y (map fst ds) /\ q = y :: q' /\ lp = spelled l y :: rest).
  { intros q lp n D. apply dropped_name in D; auto. destruct D as [(y & I & _ & -> & ->)|(x & c & y & d & q' & lp' & I & J & _ & _ & -> & ->)].
    - exists y, [], []. spl; auto. apply (in_map fst) in I. auto.
    - exists y, q', lp'. spl; auto. apply (in_map fst) in J. auto. }
  destruct (match l with KDict | KNone => true | _ => false end) eqn:LK.
  - assert (E : match l with KDict | KNone => None | _ => Some (map fst ds) end = None) by (destruct l; auto; discriminate). rewrite E. cbn [rmap]. cbn [fst snd]. exists rs. spl; auto.
    assert (SP : forall y, In y (map fst ds) -> spelled l y = called l y).
    { intros y I. destruct l; auto; try discriminate. cbn [keys_fit] in WD1. rewrite WD1 in I. contradiction. }
    intros lp n. rewrite L0. split.
    + intros (y & rest & -> & I & q & D & _). exists q, (called l y :: rest). split; auto. rewrite <- SP; auto.
    + intros (q & lp' & -> & D). destruct (DR _ _ _ D) as (y & q' & rest & I & -> & ->). exists y, rest. rewrite SP by auto. spl; auto. exists (y :: q'). rewrite <- SP by auto. eauto.
  - assert (E : match l with KDict | KNone => None | _ => Some (map fst ds) end = Some (map fst ds)) by (destruct l; auto; discriminate). rewrite E.
    assert (CK : forall y, called l y = KStr (str_name y)) by (intros y; destruct l; auto; discriminate).
    assert (SK : forall y, spelled l y = KStr (keystr y)) by (intros y; destruct l; auto; discriminate).
    assert (NN : NoDup (map str_name (map fst ds))) by (apply (names_nodup l); auto).
    assert (RO : forall lp n, In (lp, n) log0 -> exists y rest, lp = p0 ++ called l y :: rest /\ In y (map fst ds) /\ (exists q, dropped (Node k cs) (Node l ds) q (spelled l y :: rest) n /\ exists q', q = y :: q') /\
      restore (List.length p0) (map fst ds) (lp, n) = Ok (p0 ++ spelled l y :: rest, n)).
    { intros lp n I. apply L0 in I as (y & rest & -> & I & q & D & q' & EQ). exists y, rest. spl; auto; [exists q; eauto|]. rewrite CK, SK. apply restore_ok; auto. }
    assert (Q := sequence_inv (restore (List.length p0) (map fst ds)) log0). destruct (sequence (map (restore (List.length p0) (map fst ds)) log0)) as [log|e].
    2:{ destruct Q as ((lp & n) & I & ER). destruct (RO lp n I) as (? & ? & _ & _ & _ & ER'). congruence. }
    cbn [rmap fst snd]. exists rs. spl; auto. intros lp n. split.
    + intros I. destruct (forall2_in_r _ _ _ _ Q I) as ((lp0 & n0) & J & ER). destruct (RO lp0 n0 J) as (y & rest & _ & I2 & (q & D & _) & ER'). rewrite ER' in ER. injection ER as <- <-. exists q, (spelled l y :: rest). auto.
    + intros (q & lp' & -> & D). destruct (DR _ _ _ D) as (y & q' & rest & I & -> & ->). assert (J : In (p0 ++ called l y :: rest, n) log0) by (apply L0; exists y, rest; spl; auto; exists (y :: q'); eauto).
      destruct (forall2_in_l _ _ _ _ Q J) as ((lp1 & n1) & J2 & ER). rewrite CK in ER. rewrite restore_ok in ER by auto. injection ER as <- <-. rewrite SK. auto.
Qed.

Definition trim_elements (p0 : list dkey) := fix go (i : nat) (cs : list (key * tree U)) (es : list (tree V)) : result (list (key * partial_tree V) * calls V) :=
  match cs, es with
  | (x, c) :: cs', e :: es' =>
    rbind (trim c (p0 ++ [KInt (Z.of_nat i)]) e) (fun o =>
    rmap (fun r => ((x, fst o) :: fst r, snd o ++ snd r)) (go (S i) cs' es'))
  | _, _ => Ok ([], [])
  end.

Definition trim_sequence (k : kind) (cs : list (key * tree U)) (p0 : list dkey) (s : tree V) : result (trimmed V) :=
  match elements chars s with
  | None => Err TypeError
  | Some es => if List.length es =? List.length cs then rmap (fun r => (Node k (fst r), snd r)) (trim_elements p0 0 cs es) else Err ValueError
  end.

Lemma trim_seq : forall k cs p0 s, is_sequence k = true -> trim (Node k cs) p0 s = trim_sequence k cs p0 s.
Proof. intros k cs p0 s H. destruct k; try discriminate; reflexivity. Qed.

Lemma trim_named : forall c cs p0 s, trim (Node (KNamed c) cs) p0 s =
  match s with
  | Node KDict _ => rbind (trim_mapping strict allow (entries (KNamed c) cs) p0 s) (fun o => rmap (fun n => (n, snd o)) (from_fields c (map fst cs) (fst o)))
  | _ => trim_sequence (KNamed c) cs p0 s
  end.
Proof. reflexivity. Qed.

Lemma elements_ok : forall p0 cs i es, List.length es = List.length cs ->
  match trim_elements p0 i cs es with
  | Ok o => map fst (fst o) = map fst cs /\
      (forall j x r, nth_error (fst o) j = Some (x, r) -> exists c e l, nth_error cs j = Some (x, c) /\ nth_error es j = Some e /\ trim c (p0 ++ [KInt (Z.of_nat (i + j))]) e = Ok (r, l)) /\
      (forall z, In z (snd o) <-> exists j x c e r l, nth_error cs j = Some (x, c) /\ nth_error es j = Some e /\ trim c (p0 ++ [KInt (Z.of_nat (i + j))]) e = Ok (r, l) /\ In z l) /\
      (forall j x c e, nth_error cs j = Some (x, c) -> nth_error es j = Some e -> exists r l, trim c (p0 ++ [KInt (Z.of_nat (i + j))]) e = Ok (r, l) /\ nth_error (fst o) j = Some (x, r))
  | Err er => exists j x c e, nth_error cs j = Some (x, c) /\ nth_error es j = Some e /\ trim c (p0 ++ [KInt (Z.of_nat (i + j))]) e = Err er
  end.
Proof.
  intros p0 cs. induction cs as [|[x c] cs IH]; intros i [|e es] L; try discriminate L; cbn.
  - cbn [fst snd]. spl; auto; try (intros [|j]; discriminate). intros z. split; [contradiction|]. intros ([|j] & ? & ? & ? & ? & ? & H & _); discriminate.
  - cbn [List.length] in L. injection L as L. destruct (trim c (p0 ++ [KInt (Z.of_nat i)]) e) as [o|er] eqn:E; cbn [rbind].
    2:{ exists 0, x, c, e. rewrite Nat.add_0_r. auto. }
    specialize (IH (S i) es L). destruct (trim_elements p0 (S i) cs es) as [o'|er]; cbn [rmap].
    2:{ destruct IH as (j & x' & c' & e' & A & B & C). exists (S j), x', c', e'. rewrite Nat.add_succ_r. auto. }
    destruct IH as (I1 & I2 & I3 & I4). cbn [fst snd]. destruct o as [r l]. cbn [fst snd]. spl.
    + cbn [map fst]. f_equal. auto.
    + intros [|j] x' r' H; cbn [nth_error] in *.
      * injection H as <- <-. exists c, e, l. rewrite Nat.add_0_r. auto.
      * destruct (I2 j x' r' H) as (c' & e' & l' & A & B & C). exists c', e', l'. rewrite Nat.add_succ_r. auto.
    + intros z. rewrite in_app_iff, I3. split.
      * intros [I|(j & x' & c' & e' & r' & l' & A & B & C & D)].
        -- exists 0, x, c, e, r, l. rewrite Nat.add_0_r. auto.
        -- exists (S j), x', c', e', r', l'. rewrite Nat.add_succ_r. auto.
      * intros ([|j] & x' & c' & e' & r' & l' & A & B & C & D); cbn [nth_error] in *.
        -- left. injection A as <- <-. injection B as <-. rewrite Nat.add_0_r in C. congruence.
        -- right. rewrite Nat.add_succ_r in C. exists j, x', c', e', r', l'. auto.
    + intros [|j] x' c' e' A B; cbn [nth_error] in *.
      * injection A as <- <-. injection B as <-. rewrite Nat.add_0_r. eauto.
      * rewrite Nat.add_succ_r. apply I4; auto.
Qed.

Lemma nth_snd : forall {A B : Type} (l : list (A * B)) i, nth_error (map snd l) i = option_map snd (nth_error l i).
Proof. intros. apply nth_error_map. Qed.

Lemma sequence_case : forall k cs l ds p0, by_name k l = false -> keys_fit k (map fst cs) -> Forall (fun x => correct (snd x)) cs -> wf (Node l ds) ->
  match trim_sequence k cs p0 (Node l ds) with
  | Ok o => good p0 (Node k cs) (Node l ds) (fst o) (snd o)
  | Err e => refused e /\ ~ trims strict allow (Node k cs) (Node l ds)
  end.
Proof.
  intros k cs l ds p0 B WK F WS. unfold trim_sequence. inversion_clear WS as [|? ? WD1 WD2]. rewrite Forall_forall in *.
  assert (EL : elements chars (Node l ds) = match l with KDict => None | _ => Some (map snd ds) end).
  { destruct l; auto. cbn [keys_fit] in WD1. apply map_eq_nil in WD1. subst. auto. }
  rewrite EL. destruct (kind_eqb_spec l KDict) as [->|NL]; [split; [right; auto|]; intros H; apply trims_pos_inv in H as [H _]; auto|].
  assert (E2 : match l with KDict => None | _ => Some (map snd ds) end = Some (map snd ds)) by (destruct l; congruence). rewrite E2. clear EL E2.
  destruct (Nat.eqb_spec (List.length (map snd ds)) (List.length cs)) as [LE|LE].
  2:{ split; [left; auto|]. intros H. apply trims_pos_inv in H as (_ & H & _); auto. apply LE. rewrite map_length. auto. }
  assert (Q := elements_ok p0 cs 0 (map snd ds) LE). rewrite map_length in LE.
  assert (ND : forall j e, nth_error (map snd ds) j = Some e -> exists y, nth_error ds j = Some (y, e)) by (intros j e; rewrite nth_snd; destruct (nth_error ds j) as [[y d]|]; cbn [option_map snd]; [intros H; injection H as ->; eauto|discriminate]).
  assert (DN : forall j y e, nth_error ds j = Some (y, e) -> nth_error (map snd ds) j = Some e) by (intros j y e H; rewrite nth_snd, H; auto).
  assert (FO : forall j x c y d, nth_error cs j = Some (x, c) -> nth_error ds j = Some (y, d) -> match trim c (p0 ++ [KInt (Z.of_nat j)]) d with Ok o => good (p0 ++ [KInt (Z.of_nat j)]) c d (fst o) (snd o) | Err e => refused e /\ ~ trims strict allow c d end).
  { intros j x c y d A C. apply (F (x, c) (nth_error_In _ _ A)). apply (WD2 (y, d) (nth_error_In _ _ C)). }
  destruct (trim_elements p0 0 cs (map snd ds)) as [o|er]; cbn [rmap].
  2:{ destruct Q as (j & x & c & e & A & C & D). destruct (ND _ _ C) as (y & C'). specialize (FO j x c y e A C'). cbn [plus] in D. rewrite D in FO. destruct FO as [FO1 FO]. split; auto. intros H. apply trims_pos_inv in H as (_ & _ & H); auto. eauto. }
  destruct Q as (Q1 & Q2 & Q3 & Q4). cbn [fst snd plus] in *.
  assert (GO : forall j x c y d r lg, nth_error cs j = Some (x, c) -> nth_error ds j = Some (y, d) -> trim c (p0 ++ [KInt (Z.of_nat j)]) d = Ok (r, lg) -> good (p0 ++ [KInt (Z.of_nat j)]) c d r lg).
  { intros j x c y d r lg A C E. specialize (FO j x c y d A C). rewrite E in FO. auto. }
  split; [|split; [|split]].
  - apply trims_position; auto. intros j x c y d A C. destruct (Q4 j x c d A (DN _ _ _ C)) as (r & lg & E & _). apply (GO j x c y d r lg A C E).
  - constructor.
    + change (keys_fit k (map fst (fst o))). replace (map fst (fst o)) with (map fst cs) by (symmetry; exact Q1). auto.
    + apply Forall_forall. intros [x r] I. apply In_nth_error in I as (j & I). destruct (Q2 j x r I) as (c & e & lg & A & C & E). destruct (ND _ _ C) as (y & C'). apply (GO j x c y e r lg A C' E).
  - intros p v. split.
    + intros A. inversion A as [|? ? x c0 p' ? I A']; subst. apply In_nth_error in I as (j & I). destruct (Q2 j x c0 I) as (c & e & lg & C1 & C2 & E). destruct (ND _ _ C2) as (y & C').
      destruct (GO j x c y e c0 lg C1 C' E) as (_ & _ & VS & _). destruct (proj1 (VS _ _) A') as (q & lp & u & P). exists (y :: q), (KInt (Z.of_nat j) :: lp), u. apply pairs_position with (c := c) (d := e); auto.
    + intros (q & lp & u & P). apply pairs_pos_inv in P; auto; destruct P as [(_ & _ & _ & H & _)|(j & x & c & y & d & p' & q' & lp' & C1 & C2 & P & -> & -> & ->)]; [discriminate|].
      destruct (Q4 j x c d C1 (DN _ _ _ C2)) as (r & lg & E & R). destruct (GO j x c y d r lg C1 C2 E) as (_ & _ & VS & _). apply at_child with (c := r); [eapply nth_error_In; eauto|]. apply VS. eauto.
  - intros lp n. rewrite Q3. split.
    + intros (j & x & c & e & r & lg & C1 & C2 & E & I). destruct (ND _ _ C2) as (y & C'). destruct (GO j x c y e r lg C1 C' E) as (_ & _ & _ & GL). apply GL in I as (q & lp' & -> & D).
      exists (y :: q), (KInt (Z.of_nat j) :: lp'). split; [rewrite <- app_assoc; auto|]. apply dropped_position; auto. exists j, x, c, y, e, q, lp'. spl; auto.
    + intros (q & lp' & -> & D). apply dropped_position in D as (j & x & c & y & d & q' & lp2 & C1 & C2 & D & -> & ->); auto. destruct (Q4 j x c d C1 (DN _ _ _ C2)) as (r & lg & E & R).
      exists j, x, c, d, r, lg. spl; auto; [eapply DN; eauto|]. destruct (GO j x c y d r lg C1 C2 E) as (_ & _ & _ & GL). apply GL. exists q', lp2. split; auto. rewrite <- app_assoc. auto.
Qed.

Lemma from_fields_ok : forall c fields rs (m : key -> partial_tree V -> Prop), NoDup (map fst rs) ->
  (forall f, In f fields -> exists r, In (DictKey (KStr (str_name f)), r) rs /\ m f r) ->
  exists ns, from_fields c fields (Node KDict rs) = Ok (Node (KNamed c) ns) /\ map fst ns = fields /\ forall f r, In (f, r) ns -> m f r.
Proof.
  intros c fields rs m N H. unfold from_fields. assert (G : exists ns, sequence (map (fun f => match find_item (DictKey (KStr (str_name f))) rs with Some v => Ok (f, v) | None => Err TypeError end) fields) = Ok ns /\ map fst ns = fields /\ forall f r, In (f, r) ns -> m f r).
  { induction fields as [|f fields IH]; [exists []; spl; auto; contradiction|]. destruct IH as (ns & E & K & M); [intros; apply H; right; auto|]. destruct (H f) as (r & I & R); [left; auto|].
    exists ((f, r) :: ns). cbn [map sequence]. apply find_item_in in I; auto. rewrite I. cbn [rbind]. rewrite E. cbn [rbind]. spl; auto; [cbn [map fst]; congruence|]. intros f' r' [J|J]; [congruence|auto]. }
  destruct G as (ns & E & K & M). exists ns. spl; auto. exact (f_equal (rmap (Node (KNamed c))) E).
Qed.

Theorem trim_correct : forall t, wf t -> correct t.
Proof.
  intros t. induction t as [u|k cs F] using tree_ind'; intros WT p0 s WS.
  - destruct s as [v|l ds].
    + cbn [tree_trim_at fst snd]. split; [constructor|]. split; [constructor|]. split.
      * intros p v'. split; [intros A; inversion A; subst; exists [], [], u; constructor|]. intros (q & lp & u' & P). inversion P; subst. constructor.
      * intros lp n. split; [contradiction|]. intros (q & lp' & _ & (p & q1 & lp1 & t' & s' & q2 & lp2 & P & D & _)). inversion P; subst. inversion D.
    + destruct l; cbn [tree_trim_at]; try (split; [right; reflexivity|intros H; inversion H]; fail). cbn [fst snd]. inversion_clear WS as [|? ? WD1 WD2]. cbn [keys_fit] in WD1. apply map_eq_nil in WD1. subst. split; [constructor|]. split; [repeat constructor|]. split.
      * intros p v'. split; [intros A; inversion A; contradiction|]. intros (q & lp & u' & P). inversion P.
      * intros lp n. split; [contradiction|]. intros (q & lp' & _ & (p & q1 & lp1 & t' & s' & q2 & lp2 & P & D & _)). inversion P; subst. inversion D.
  - inversion_clear WT as [|? ? WT1 WT2]. assert (FC : Forall (fun x => correct (snd x)) cs) by (rewrite Forall_forall in *; auto). clear F.
    assert (MAP : forall l ds, s = Node l ds -> by_name k l = true -> match trim_mapping strict allow (entries k cs) p0 (Node l ds) with
      | Ok o => exists rs, fst o = Node KDict rs /\ trims strict allow (Node k cs) (Node l ds) /\ NoDup (map fst rs) /\
      (forall x c, In (x, c) cs -> exists r, In (DictKey (called k x), r) rs) /\
      (forall K r, In (K, r) rs -> exists x c, In (x, c) cs /\ K = DictKey (called k x) /\ wf r /\ child_values c l ds (called k x) r) /\
      forall lp n, In (lp, n) (snd o) <-> exists q lp', lp = p0 ++ lp' /\ dropped (Node k cs) (Node l ds) q lp' n
      | Err e => refused e /\ ~ trims strict allow (Node k cs) (Node l ds) end) by (intros l ds -> B; apply mapping_ok; auto).
    assert (SEQ : forall l ds, s = Node l ds -> by_name k l = false -> match trim_sequence k cs p0 (Node l ds) with Ok o => good p0 (Node k cs) (Node l ds) (fst o) (snd o) | Err e => refused e /\ ~ trims strict allow (Node k cs) (Node l ds) end) by (intros l ds -> B; apply sequence_case; auto).
    assert (LEAF : forall v, s = Leaf v -> k <> KNone -> match trim (Node k cs) p0 s with Ok o => False | Err e => refused e /\ ~ trims strict allow (Node k cs) s end).
    { intros v -> NK. destruct k; try congruence; try rewrite trim_seq by auto; try rewrite trim_named; unfold trim_sequence; cbn [elements tree_trim_at trim_mapping structure_dict rbind]; try rewrite NC; cbn [option_map]; try (unfold trim_mapping; cbn [structure_dict rbind]); (split; [right; reflexivity|intros H; inversion H]). }
    (* values of a node whose children match by name *)
    assert (VN : forall l ds rs k', s = Node l ds -> by_name k l = true -> map fst rs = map fst rs ->
      (forall K r, In (K, r) rs -> exists x c, In (x, c) cs /\ K = x /\ child_values c l ds (called k x) r) -> (forall x c, In (x, c) cs -> exists r, In (x, r) rs) -> values (Node k cs) s (Node k' rs)).
    { intros l ds rs k' -> B _ H1 H2 p v. split.
      - intros A. inversion A as [|? ? x r p' ? I A']; subst. destruct (H1 x r I) as (x' & c & J & <- & CV). destruct (proj1 (CV _ _) A') as (y & d & q & lp & u & J2 & E & P). exists (y :: q), (spelled l y :: lp), u. apply pairs_name with (c := c) (d := d); auto.
      - intros (q & lp & u & P). apply pairs_name_inv in P; auto; destruct P as [(_ & _ & _ & E & _)|(x & c & y & d & p' & q' & lp' & I & J & E & P & -> & -> & ->)]; [discriminate|]. destruct (H2 x c I) as (r & R).
        apply at_child with (c := r); auto. destruct (H1 x r R) as (x' & c' & I' & <- & CV). assert (c' = c) by (apply (same_child cs x); auto; apply (keys_nodup k); auto). subst c'. apply CV. exists y, d, q', lp', u. spl; auto. }
    destruct k.
    + destruct s as [v|l ds]; [specialize (LEAF v eq_refl); destruct (trim (Node KDict cs) p0 (Leaf v)); [exfalso; apply LEAF; discriminate|apply LEAF; discriminate]|].
      specialize (MAP l ds eq_refl eq_refl). change (trim (Node KDict cs) p0 (Node l ds)) with (trim_mapping strict allow (entries KDict cs) p0 (Node l ds)).
      destruct (trim_mapping strict allow (entries KDict cs) p0 (Node l ds)) as [o|e]; auto. destruct MAP as (rs & -> & TR & N & RA & RC & LG).
      assert (CK : forall x c, In (x, c) cs -> DictKey (called KDict x) = x).
      { intros x c I. apply (in_map fst) in I. cbn [fst] in I. cbn [keys_fit] in WT1. destruct WT1 as [_ [H|H]]; apply H in I as (z & ->); auto. }
      split; auto. split; [|split; auto].
      * constructor.
        -- cbn [keys_fit] in *. destruct WT1 as [_ WT1]. split; auto. destruct WT1 as [H|H]; [left|right]; intros K I; apply in_map_iff in I as ((K' & r) & <- & I); destruct (RC K' r I) as (x & c & J & -> & _); cbn [fst]; rewrite (CK x c J); apply H; apply (in_map fst) in J; auto.
        -- apply Forall_forall. intros [K r] I. destruct (RC K r I) as (x & c & _ & _ & W & _). auto.
      * apply (VN l ds); auto.
        -- intros K r I. destruct (RC K r I) as (x & c & J & -> & _ & CV). exists x, c. spl; auto. apply (CK x c J).
        -- intros x c I. destruct (RA x c I) as (r & R). exists r. rewrite (CK x c I) in R. auto.
    + rewrite trim_seq by auto. destruct s as [v|l ds]; [specialize (LEAF v eq_refl); rewrite trim_seq in LEAF by auto; destruct (trim_sequence KList cs p0 (Leaf v)); [exfalso; apply LEAF; discriminate|apply LEAF; discriminate]|]. apply SEQ; auto.
    + rewrite trim_seq by auto. destruct s as [v|l ds]; [specialize (LEAF v eq_refl); rewrite trim_seq in LEAF by auto; destruct (trim_sequence KTuple cs p0 (Leaf v)); [exfalso; apply LEAF; discriminate|apply LEAF; discriminate]|]. apply SEQ; auto.
    + destruct s as [v|l ds]; [specialize (LEAF v eq_refl); destruct (trim (Node (KNamed c) cs) p0 (Leaf v)); [exfalso; apply LEAF; discriminate|apply LEAF; discriminate]|].
      rewrite trim_named. destruct l; try (apply SEQ; auto; fail). specialize (MAP KDict ds eq_refl eq_refl).
      destruct (trim_mapping strict allow (entries (KNamed c) cs) p0 (Node KDict ds)) as [o|e]; cbn [rbind]; auto. destruct MAP as (rs & -> & TR & N & RA & RC & LG).
      destruct (from_fields_ok c (map fst cs) rs (fun f r => exists c0, In (f, c0) cs /\ wf r /\ child_values c0 KDict ds (called (KNamed c) f) r) N) as (ns & E & K & M).
      { intros f I. apply in_map_iff in I as ((f' & c0) & <- & I). cbn [fst]. destruct (RA f' c0 I) as (r & R). exists r. split; auto. destruct (RC _ r R) as (x & c' & J & E & W & CV). injection E as E.
        destruct (called_inj (KNamed c) cs f' c0 x c' WT1 I J) as [-> ->]; [cbn [called]; congruence|]. exists c'. auto. }
      rewrite E. cbn [rmap fst snd]. split; auto. split; [|split; auto].
      * constructor; [rewrite K; auto|]. apply Forall_forall. intros [f r] I. destruct (M f r I) as (c0 & _ & W & _). auto.
      * apply (VN KDict ds); auto.
        -- intros f r I. destruct (M f r I) as (c0 & J & _ & CV). exists f, c0. auto.
        -- intros x c0 I. apply (in_map fst) in I. cbn [fst] in I. rewrite <- K in I. apply in_map_iff in I as ((x' & r) & <- & I). exists r. auto.
    + cbn [keys_fit] in WT1. apply map_eq_nil in WT1. subst cs. destruct s as [v|l ds].
      * cbn [tree_trim_at fst snd]. split; [constructor|]. split; [repeat constructor|]. split.
        -- intros p v'. split; [intros A; inversion A; contradiction|]. intros (q & lp & u' & P). inversion P.
        -- intros lp n. split.
           ++ intros [H|[]]. injection H as <- <-. exists [], []. split; [rewrite app_nil_r; auto|]. exists [], [], [], (Node KNone []), (Leaf v), [], []. spl; auto; constructor.
           ++ intros (q & lp' & -> & (p & q1 & lp1 & t' & s' & q2 & lp2 & P & D & -> & ->)). inversion P; subst. inversion D; subst. rewrite app_nil_r. left. auto.
      * specialize (MAP l ds eq_refl eq_refl). cbn [tree_trim_at]. change (@nil (dkey * (tree U * (list dkey -> tree V -> result (trimmed V))))) with (entries KNone []).
        destruct (trim_mapping strict allow (entries KNone []) p0 (Node l ds)) as [o|e]; cbn [rmap]; auto. destruct MAP as (rs & _ & TR & N & RA & RC & LG). cbn [fst snd]. split; auto. split; [repeat constructor|]. split; auto.
        intros p v'. split; [intros A; inversion A; contradiction|]. intros (q & lp & u' & P). apply pairs_name_inv in P; auto; destruct P as [(_ & _ & _ & H & _)|(x & c & y & d & p' & q' & lp' & [] & _)]; discriminate.
Qed.
End Trim.

(** ** Each call has its own path *)

Lemma append_inj_r : forall a b c, (a ++ String c EmptyString)%string = (b ++ String c EmptyString)%string -> a = b.
Proof.
  intros a. induction a as [|x a IH]; intros [|y b] c E; cbn [append] in E; auto; injection E as -> E; [destruct b|destruct a|f_equal; eauto]; discriminate.
Qed.

Lemma keystr_inj : forall k ks x y, keys_fit k ks -> In x ks -> In y ks -> k <> KDict -> keystr x = keystr y -> x = y.
Proof.
  intros k ks x y W I J N E. apply (names_inj k ks W x y I J). destruct k; try congruence.
  - cbn [keys_fit] in W. rewrite W in I, J. apply in_map_iff in I as (i & <- & _). apply in_map_iff in J as (j & <- & _). unfold keystr in E. cbn [append] in E. injection E as E. apply append_inj_r in E. auto.
  - cbn [keys_fit] in W. rewrite W in I, J. apply in_map_iff in I as (i & <- & _). apply in_map_iff in J as (j & <- & _). unfold keystr in E. cbn [append] in E. injection E as E. apply append_inj_r in E. auto.
  - destruct W as [_ W]. destruct (W x I) as (a & ->). destruct (W y J) as (b & ->). unfold keystr in E. cbn [append] in E. injection E as ->. auto.
  - cbn [keys_fit] in W. rewrite W in I. contradiction.
Qed.

Lemma flat_nodup : forall {X : Type} (f : dkey * X -> list (list dkey)) p0 l, NoDup (map fst l) ->
  (forall z x, In (z, x) l -> NoDup (f (z, x)) /\ forall lp, In lp (f (z, x)) -> exists r, lp = p0 ++ z :: r) -> NoDup (flat_map f l).
Proof.
  intros X f p0 l. induction l as [|[z x] l IH]; intros N H; [constructor|]. cbn [map fst] in N. inversion_clear N as [|? ? N1 N2]. cbn [flat_map]. apply NoDup_app_intro.
  - apply H. left. auto.
  - apply IH; auto. intros z' x' I. apply H. right. auto.
  - intros lp I J. apply in_flat_map in J as ((z' & x') & J & K). destruct (H z x (or_introl eq_refl)) as [_ H1]. destruct (H z' x' (or_intror J)) as [_ H2].
    destruct (H1 lp I) as (r & ->). destruct (H2 _ K) as (r' & E). apply app_inv_head in E. injection E as <- _. apply N1. apply (in_map fst) in J. auto.
Qed.

Lemma forall2_nodup : forall {X Y : Type} (R : X -> Y -> Prop) l m, Forall2 R l m -> forall (f : X -> list dkey) (g : Y -> list dkey), NoDup (map f l) ->
  (forall x y x' y', In x l -> In x' l -> R x y -> R x' y' -> g y = g y' -> f x = f x') -> NoDup (map g m).
Proof.
  intros X Y R l m F. induction F as [|x y l m H F IH]; intros f g N INJ; [constructor|]. cbn [map] in *. inversion_clear N as [|? ? N1 N2]. constructor.
  - intros I. apply in_map_iff in I as (y' & E & I). assert (exists x', In x' l /\ R x' y') as (x' & I' & R').
    { clear - F I. induction F as [|a b l m H F IH]; [contradiction|]. destruct I as [<-|I]; [exists a; split; auto; left; auto|]. destruct (IH I) as (x' & J & K). exists x'. split; auto. right. auto. }
    apply N1. apply in_map_iff. exists x'. split; auto. symmetry. apply (INJ x y x' y'); auto; [left; auto|right; auto].
  - apply (IH f g); auto. intros x1 y1 x2 y2 I1 I2. apply INJ; right; auto.
Qed.

Section Once.
Context {U V : Type} (chars : V -> option (list V)) (NC : forall v, chars v = None) (strict allow : bool).
Notation trim := (tree_trim_at chars strict allow).

Definition once (t : tree U) : Prop := forall p0 s o, wf s -> trim t p0 s = Ok o -> NoDup (map fst (snd o)) /\ forall lp, In lp (map fst (snd o)) -> exists r, lp = p0 ++ r.

Lemma mapping_once : forall k cs l ds p0 o, keys_fit k (map fst cs) -> Forall (fun x => once (snd x)) cs -> wf (Node l ds) ->
  trim_mapping strict allow (entries chars strict allow k cs) p0 (Node l ds) = Ok o -> NoDup (map fst (snd o)) /\ forall lp, In lp (map fst (snd o)) -> exists r, lp = p0 ++ r.
Proof.
  intros k cs l ds p0 o WK F WS H. unfold trim_mapping in H. rewrite structure_dict_eq in H by auto. destruct (mappable allow l); cbn [rbind] in H; [|discriminate]. cbn [fst snd] in H.
  set (items := map (fun x => (called l (fst x), snd x)) ds) in *. set (ents := entries chars strict allow k cs) in *. inversion_clear WS as [|? ? WD1 WD2]. rewrite Forall_forall in *.
  destruct (strict && _); [discriminate|]. match type of H with context [sequence (map ?f ?l)] => assert (Q := sequence_inv f l); destruct (sequence (map f l)) as [kept|e] end; cbn [rbind] in H; [|discriminate].
  assert (IN : NoDup (map fst items)) by (unfold items; rewrite map_map; cbn [fst]; apply called_nodup; auto).
  assert (KF : map fst kept = map fst (filter (fun x => key_in (fst x) ents) items)).
  { clear - Q. induction Q as [|[z d] [z' o] l1 m1 H Q IH]; auto. cbn [map fst snd] in *. f_equal; auto. destruct (dget dkey_eqb z ents) as [e|]; [|discriminate].
    destruct (snd e (p0 ++ [z]) d); [|discriminate]. cbn [rmap] in H. congruence. }
  assert (KI : forall z o, In (z, o) kept -> key_in z ents = true /\ In z (map fst items) /\ NoDup (map fst (snd o)) /\ forall lp, In lp (map fst (snd o)) -> exists r, lp = p0 ++ z :: r).
  { intros z o' I. destruct (forall2_in_r _ _ _ _ Q I) as ((z' & d) & J & E). cbn [fst snd] in E. apply filter_In in J as [J K]. cbn [fst] in K. destruct (dget dkey_eqb z' ents) as [e|] eqn:D; [|discriminate].
    destruct (snd e (p0 ++ [z']) d) as [o2|] eqn:E2; [|discriminate]. cbn [rmap] in E. injection E as -> ->. split; auto. split; [apply (in_map fst) in J; auto|].
    apply (dget_some_in dkey_eqb dkey_eqb_spec) in D. unfold ents, entries in D. apply in_map_iff in D as ((x & c) & E & D). injection E as _ <-. cbn [snd] in E2. unfold items in J. apply in_map_iff in J as ((y & d') & E & J). cbn [fst snd] in E. injection E as _ ->.
    destruct (F (x, c) D (p0 ++ [z]) d o' (WD2 _ J) E2) as [N P]. split; auto. intros lp L. destruct (P lp L) as (r & ->). exists r. rewrite <- app_assoc. auto. }
  set (log0 := map (fun x => (p0 ++ [fst x], snd x)) (filter (fun x => negb (key_in (fst x) ents)) items) ++ flat_map (fun x => snd (snd x)) kept) in *.
  assert (LE : map fst log0 = flat_map (fun x => [p0 ++ [fst x]]) (filter (fun x => negb (key_in (fst x) ents)) items) ++ flat_map (fun x => map fst (snd (snd x))) kept).
  { unfold log0. rewrite map_app. f_equal; [rewrite map_map; cbn [fst]; rewrite flat_map_concat_map; clear; induction (filter _ items) as [|a m IH]; auto; cbn [map List.concat app]; f_equal; auto|].
    clear. induction kept as [|a m IH]; auto. cbn [flat_map]. rewrite map_app. f_equal. auto. }
  assert (ND : NoDup (map fst log0) /\ forall lp, In lp (map fst log0) -> exists z r, In z (map fst items) /\ lp = p0 ++ z :: r).
  { rewrite LE. split.
    - apply NoDup_app_intro.
      + apply (flat_nodup _ p0); [apply NoDup_map_filter; auto|]. intros z d I. cbn [fst]. split; [repeat constructor; intros []|]. intros lp [<-|[]]. exists []. auto.
      + apply (flat_nodup _ p0); [refine (eq_ind_r (fun x => NoDup x) _ KF); apply NoDup_map_filter; auto|]. intros z o' I. cbn [snd]. apply KI in I. tauto.
      + intros lp I J. apply in_flat_map in I as ((z & d) & I & K). apply filter_In in I as [I N]. cbn [fst] in N, K. destruct K as [<-|[]]. apply in_flat_map in J as ((z' & o') & J & K). cbn [snd] in K. destruct (KI z' o' J) as (K1 & _ & _ & K2).
        destruct (K2 _ K) as (r & E). apply app_inv_head in E. injection E as -> _. rewrite K1 in N. discriminate.
    - intros lp I. apply in_app_or in I as [I|I]; apply in_flat_map in I as ((z & x) & I & K).
      + destruct K as [<-|[]]. exists z, []. split; auto. apply filter_In in I as [I _]. apply (in_map fst) in I. auto.
      + cbn [snd] in K. destruct (KI z x I) as (_ & K1 & _ & K2). destruct (K2 _ K) as (r & ->). eauto. }
  destruct ND as [ND PF].
  destruct (match l with KDict | KNone => true | _ => false end) eqn:LK.
  - assert (E : match l with KDict | KNone => None | _ => Some (map fst ds) end = None) by (destruct l; auto; discriminate). rewrite E in H. cbn [rmap] in H. injection H as <-. cbn [snd]. split; auto. intros lp I. destruct (PF lp I) as (z & r & _ & ->). eauto.
  - assert (E : match l with KDict | KNone => None | _ => Some (map fst ds) end = Some (map fst ds)) by (destruct l; auto; discriminate). rewrite E in H.
    assert (Q2 := sequence_inv (restore (List.length p0) (map fst ds)) log0). destruct (sequence (map (restore (List.length p0) (map fst ds)) log0)) as [log|e]; cbn [rmap] in H; [|discriminate]. injection H as <-. cbn [snd].
    assert (RO : forall e e', In e log0 -> restore (List.length p0) (map fst ds) e = Ok e' -> exists y r, In y (map fst ds) /\ fst e = p0 ++ KStr (str_name y) :: r /\ fst e' = p0 ++ KStr (keystr y) :: r).
    { intros [lp n] e' I R. assert (I2 := in_map fst _ _ I). cbn [fst] in I2. destruct (PF lp I2) as (z & r & J & ->). unfold items in J. rewrite map_map in J. apply in_map_iff in J as ((y & d) & <- & J). cbn [fst] in *. apply (in_map fst) in J. cbn [fst] in J.
      assert (CK : called l y = KStr (str_name y)) by (destruct l; auto; discriminate). rewrite CK in R |- *. rewrite restore_ok in R; auto; [|apply (names_nodup l); auto]. injection R as <-. exists y, r. auto. }
    split.
    + apply (forall2_nodup _ _ _ Q2 fst fst); auto. intros e1 f1 e2 f2 I1 I2 R1 R2 EE. destruct (RO _ _ I1 R1) as (y1 & r1 & J1 & -> & E1). destruct (RO _ _ I2 R2) as (y2 & r2 & J2 & -> & E2). rewrite E1, E2 in EE. apply app_inv_head in EE. injection EE as EE ->.
      f_equal. f_equal. f_equal. f_equal. apply (keystr_inj l (map fst ds)); auto. intros ->. discriminate.
    + intros lp I. apply in_map_iff in I as (f1 & <- & I). destruct (forall2_in_r _ _ _ _ Q2 I) as (e1 & J & R). destruct (RO _ _ J R) as (y & r & _ & _ & ->). eauto.
Qed.

Lemma elements_once : forall p0 cs i es o, Forall (fun x => once (snd x)) cs -> Forall wf es -> trim_elements chars strict allow p0 i cs es = Ok o ->
  NoDup (map fst (snd o)) /\ forall lp, In lp (map fst (snd o)) -> exists j r, i <= j /\ lp = p0 ++ KInt (Z.of_nat j) :: r.
Proof.
  intros p0 cs. induction cs as [|[x c] cs IH]; intros i es o F W H; cbn in H; [injection H as <-; split; [constructor|contradiction]|]. destruct es as [|e es]; [injection H as <-; split; [constructor|contradiction]|].
  inversion_clear F as [|? ? F1 F2]. inversion_clear W as [|? ? W1 W2]. destruct (trim c (p0 ++ [KInt (Z.of_nat i)]) e) as [o1|] eqn:E1; cbn [rbind] in H; [|discriminate].
  match type of H with rmap _ ?X = _ => change X with (trim_elements chars strict allow p0 (S i) cs es) in H end.
  destruct (trim_elements chars strict allow p0 (S i) cs es) as [o2|] eqn:E2; cbn [rmap] in H; [|discriminate]. injection H as <-. cbn [snd]. destruct (F1 _ _ _ W1 E1) as [N1 P1]. destruct (IH _ _ _ F2 W2 E2) as [N2 P2]. rewrite map_app. split.
  - apply NoDup_app_intro; auto. intros lp I J. destruct (P1 lp I) as (r & ->). destruct (P2 _ J) as (j & r' & L & E). rewrite <- app_assoc in E. apply app_inv_head in E. injection E as E _. lia.
  - intros lp I. apply in_app_or in I as [I|I].
    + destruct (P1 lp I) as (r & ->). exists i, r. split; auto. rewrite <- app_assoc. auto.
    + destruct (P2 lp I) as (j & r & L & ->). exists j, r. split; auto. lia.
Qed.

Lemma sequence_once : forall k cs p0 s o, Forall (fun x => once (snd x)) cs -> wf s -> trim_sequence chars strict allow k cs p0 s = Ok o -> NoDup (map fst (snd o)) /\ forall lp, In lp (map fst (snd o)) -> exists r, lp = p0 ++ r.
Proof using NC.
  intros k cs p0 s o F W H. unfold trim_sequence in H. destruct (elements chars s) as [es|] eqn:E; [|discriminate]. destruct (_ =? _); [|discriminate]. destruct (trim_elements chars strict allow p0 0 cs es) as [o'|] eqn:EL; [|discriminate]. cbn [rmap] in H. injection H as <-. cbn [snd].
  destruct (elements_once p0 cs 0 es o') as [N P]; auto; [|split; auto; intros lp I; destruct (P lp I) as (j & r & _ & ->); eauto].
  destruct s as [v|l ds]; cbn [elements] in E; [rewrite NC in E; discriminate|]. inversion_clear W as [|? ? W1 W2]. assert (G : Forall wf (map snd ds)) by (rewrite Forall_map; auto). destruct l; try discriminate; injection E as <-; auto.
Qed.

Theorem trim_once : forall t, wf t -> once t.
Proof using NC.
  intros t. induction t as [u|k cs F] using tree_ind'; intros WT p0 s o WS H.
  - destruct s as [v|l ds]; [|destruct l]; cbn [tree_trim_at] in H; try discriminate; injection H as <-; (split; [constructor|contradiction]).
  - inversion_clear WT as [|? ? WT1 WT2]. assert (FC : Forall (fun x => once (snd x)) cs) by (rewrite Forall_forall in *; auto). clear F. destruct k.
    + change (trim (Node KDict cs) p0 s) with (trim_mapping strict allow (entries chars strict allow KDict cs) p0 s) in H. destruct s as [v|l ds]; [discriminate|]. apply (mapping_once KDict cs l ds p0 o); auto.
    + rewrite trim_seq in H by auto. apply (sequence_once KList cs p0 s o); auto.
    + rewrite trim_seq in H by auto. apply (sequence_once KTuple cs p0 s o); auto.
    + rewrite trim_named in H. destruct s as [v|l ds]; [apply (sequence_once (KNamed c) cs p0 (Leaf v) o); auto|]. destruct l; try (eapply sequence_once; eauto; fail).
      destruct (trim_mapping strict allow (entries chars strict allow (KNamed c) cs) p0 (Node KDict ds)) as [o'|] eqn:E; [|discriminate]. cbn [rbind] in H. destruct (from_fields c (map fst cs) (fst o')); [|discriminate]. cbn [rmap] in H. injection H as <-. cbn [snd].
      apply (mapping_once (KNamed c) cs KDict ds p0 o'); auto.
    + destruct s as [v|l ds]; cbn [tree_trim_at] in H.
      * injection H as <-. cbn [snd map fst]. split; [repeat constructor; intros []|]. intros lp [<-|[]]. exists []. rewrite app_nil_r. auto.
      * change (@nil (dkey * (tree U * (list dkey -> tree V -> result (trimmed V))))) with (entries chars strict allow KNone (@nil (key * tree U))) in H.
        destruct (trim_mapping strict allow (entries chars strict allow KNone []) p0 (Node l ds)) as [o'|] eqn:E; [|discriminate]. cbn [rmap] in H. injection H as <-. cbn [snd]. apply (mapping_once KNone [] l ds p0 o'); auto. reflexivity.
Qed.
End Once.

(** ** Consequences *)

Lemma pairs_at : forall {U V : Type} (t : tree U) (s : tree V) p q lp t' s', pairs t s p q lp t' s' -> at_path t p t' /\ at_path s q s'.
Proof.
  intros U V t s p q lp t' s' P. induction P as [|? ? ? ? ? ? ? ? ? ? ? ? ? B I J E P [A1 A2]|? ? ? ? ? ? ? ? ? ? ? ? ? ? B I J P [A1 A2]]; split; try constructor; econstructor; eauto using nth_error_In.
Qed.

Lemma nth_inj : forall {A : Type} (l : list A) i j x, NoDup l -> nth_error l i = Some x -> nth_error l j = Some x -> i = j.
Proof. intros A l i j x N H1 H2. apply (proj1 (NoDup_nth_error l) N); [apply nth_error_Some; congruence|congruence]. Qed.

Lemma pair_det : forall {A : Type} k (cs : list (key * tree A)) i j x c d, keys_fit k (map fst cs) -> nth_error cs i = Some (x, c) -> nth_error cs j = Some (x, d) -> i = j.
Proof.
  intros A k cs i j x c d W H1 H2. apply (nth_inj (map fst cs) i j x); [apply (keys_nodup k); auto| |]; rewrite nth_error_map; [rewrite H1|rewrite H2]; auto.
Qed.

(** A node of the template has at most one counterpart. *)
Lemma pairs_det : forall {U V : Type} (t : tree U) (s : tree V) p q lp t' s', pairs t s p q lp t' s' -> wf t -> wf s ->
  forall q2 lp2 t2 s2, pairs t s p q2 lp2 t2 s2 -> q2 = q /\ lp2 = lp /\ t2 = t' /\ s2 = s'.
Proof.
  intros U V t s p q lp t' s' P. induction P as [t s|k cs l ds x c y d p q lp t' s' B I J E P IH|k cs l ds i x c y d p q lp t' s' B I J P IH]; intros WT WS q2 lp2 t2 s2 H.
  - inversion H; subst. auto.
  - inversion_clear WT as [|? ? WT1 WT2]. inversion_clear WS as [|? ? WS1 WS2]. rewrite Forall_forall in *. apply pairs_name_inv in H; auto. destruct H as [(H & _)|(x2 & c2 & y2 & d2 & p2 & q3 & lp3 & I2 & J2 & E2 & P2 & H & -> & ->)]; [discriminate|].
    injection H as <- <-. assert (c2 = c) by (apply (same_child cs x); auto; apply (keys_nodup k); auto). subst c2. destruct (called_inj l ds y d y2 d2 WS1 J J2) as [<- <-]; [congruence|].
    destruct (IH (WT2 _ I) (WS2 _ J) _ _ _ _ P2) as (-> & -> & -> & ->). auto.
  - inversion_clear WT as [|? ? WT1 WT2]. inversion_clear WS as [|? ? WS1 WS2]. rewrite Forall_forall in *. apply pairs_pos_inv in H; auto. destruct H as [(H & _)|(j & x2 & c2 & y2 & d2 & p2 & q3 & lp3 & I2 & J2 & P2 & H & -> & ->)]; [discriminate|].
    injection H as <- <-. assert (i = j) by exact (pair_det k cs i j x c c2 WT1 I I2). subst j. rewrite I in I2. injection I2 as <-. rewrite J in J2. injection J2 as <- <-.
    destruct (IH (WT2 _ (nth_error_In _ _ I)) (WS2 _ (nth_error_In _ _ J)) _ _ _ _ P2) as (-> & -> & -> & ->). auto.
Qed.

(** A node of the structure is the counterpart of at most one node. *)
Lemma pairs_det_r : forall {U V : Type} (t : tree U) (s : tree V) p q lp t' s', pairs t s p q lp t' s' -> wf t -> wf s ->
  forall p2 lp2 t2 s2, pairs t s p2 q lp2 t2 s2 -> p2 = p /\ lp2 = lp /\ t2 = t' /\ s2 = s'.
Proof.
  intros U V t s p q lp t' s' P. induction P as [t s|k cs l ds x c y d p q lp t' s' B I J E P IH|k cs l ds i x c y d p q lp t' s' B I J P IH]; intros WT WS p2 lp2 t2 s2 H.
  - inversion H; subst. auto.
  - inversion_clear WT as [|? ? WT1 WT2]. inversion_clear WS as [|? ? WS1 WS2]. rewrite Forall_forall in *. apply pairs_name_inv in H; auto. destruct H as [(_ & H & _)|(x2 & c2 & y2 & d2 & p3 & q3 & lp3 & I2 & J2 & E2 & P2 & -> & H & ->)]; [discriminate|].
    injection H as <- <-. assert (d2 = d) by (apply (same_child ds y); auto; apply (keys_nodup l); auto). subst d2. destruct (called_inj k cs x c x2 c2 WT1 I I2) as [<- <-]; [congruence|].
    destruct (IH (WT2 _ I) (WS2 _ J) _ _ _ _ P2) as (-> & -> & -> & ->). auto.
  - inversion_clear WT as [|? ? WT1 WT2]. inversion_clear WS as [|? ? WS1 WS2]. rewrite Forall_forall in *. apply pairs_pos_inv in H; auto. destruct H as [(_ & H & _)|(j & x2 & c2 & y2 & d2 & p3 & q3 & lp3 & I2 & J2 & P2 & -> & H & ->)]; [discriminate|].
    injection H as <- <-. assert (i = j) by exact (pair_det l ds i j y d d2 WS1 J J2). subst j. rewrite I in I2. injection I2 as <- <-. rewrite J in J2. injection J2 as <-.
    destruct (IH (WT2 _ (nth_error_In _ _ I)) (WS2 _ (nth_error_In _ _ J)) _ _ _ _ P2) as (-> & -> & -> & ->). auto.
Qed.

Lemma nth_both : forall {A B : Type} (l : list A) (m : list B) i x, List.length l = List.length m -> nth_error l i = Some x -> exists y, nth_error m i = Some y.
Proof.
  intros A B l m i x L H. destruct (nth_error m i) eqn:E; [eauto|]. apply nth_error_None in E. assert (i < List.length l) by (apply nth_error_Some; congruence). lia.
Qed.

(** With [strict] each leaf of the template has a counterpart. *)
Lemma strict_paired : forall {U V : Type} allow (t : tree U) (s : tree V), trims true allow t s -> wf t -> wf s ->
  forall p u, at_path t p (Leaf u) -> exists q lp, (exists v, pairs t s p q lp (Leaf u) (Leaf v)) \/ pairs t s p q lp (Leaf u) (Node KNone []).
Proof.
  intros U V allow t s T. induction T as [u v|u ds|cs v|k cs l ds B M S1 H IH|k cs l ds B NL LE H IH]; intros WT WS p u' A.
  - inversion A; subst. exists [], []. left. exists v. constructor.
  - inversion A; subst. exists [], []. right. inversion_clear WS as [|? ? WS1 WS2]. apply map_eq_nil in WS1. subst. constructor.
  - inversion_clear WT as [|? ? WT1 WT2]. apply map_eq_nil in WT1. subst. inversion A; contradiction.
  - inversion_clear WT as [|? ? WT1 WT2]. inversion_clear WS as [|? ? WS1 WS2]. rewrite Forall_forall in *. inversion A as [|? ? x c p' ? I A']; subst. destruct (S1 eq_refl x c I) as (y & d & J & E).
    destruct (IH x c y d I J E (WT2 _ I) (WS2 _ J) p' u' A') as (q & lp & [(v & P)|P]); exists (y :: q), (spelled l y :: lp); [left; exists v|right]; apply pairs_name with (c := c) (d := d); auto.
  - inversion_clear WT as [|? ? WT1 WT2]. inversion_clear WS as [|? ? WS1 WS2]. rewrite Forall_forall in *. inversion A as [|? ? x c p' ? I A']; subst. apply In_nth_error in I as (i & I). destruct (nth_both cs ds i (x, c) LE I) as ((y & d) & J).
    destruct (IH i x c y d I J (WT2 _ (nth_error_In _ _ I)) (WS2 _ (nth_error_In _ _ J)) p' u' A') as (q & lp & [(v & P)|P]); exists (y :: q), (KInt (Z.of_nat i) :: lp); [left; exists v|right]; apply pairs_position with (c := c) (d := d); auto.
Qed.

Lemma dkey_dec : forall a b : dkey, {a = b} + {a <> b}.
Proof. intros a b. exact (reflect_dec _ _ (dkey_eqb_spec a b)). Qed.

(** Every leaf of the structure is taken over or part of something dropped. *)
Lemma covered : forall {U V : Type} strict allow (t : tree U) (s : tree V), trims strict allow t s -> wf t -> wf s ->
  forall q v, at_path s q (Leaf v) -> (exists p lp u, pairs t s p q lp (Leaf u) (Leaf v)) \/ exists q1 q2 lp n, q = q1 ++ q2 /\ dropped t s q1 lp n /\ at_path n q2 (Leaf v).
Proof.
  intros U V strict allow t s T. induction T as [u v|u ds|cs v|k cs l ds B M S1 H IH|k cs l ds B NL LE H IH]; intros WT WS q v' A.
  - inversion A; subst. left. exists [], [], u. constructor.
  - inversion_clear WS as [|? ? WS1 WS2]. apply map_eq_nil in WS1. subst. inversion A; contradiction.
  - inversion A; subst. right. exists [], [], [], (Leaf v'). spl; auto. exists [], [], [], (Node KNone cs), (Leaf v'), [], []. spl; auto; constructor.
  - inversion_clear WT as [|? ? WT1 WT2]. inversion_clear WS as [|? ? WS1 WS2]. rewrite Forall_forall in *. inversion A as [|? ? y d q' ? J A']; subst.
    destruct (in_dec dkey_dec (called l y) (map (fun x => called k (fst x)) cs)) as [I|N].
    + apply in_map_iff in I as ((x & c) & E & I). cbn [fst] in E. destruct (IH x c y d I J E (WT2 _ I) (WS2 _ J) q' v' A') as [(p & lp & u & P)|(q1 & q2 & lp & n & -> & D & A2)].
      * left. exists (x :: p), (spelled l y :: lp), u. apply pairs_name with (c := c) (d := d); auto.
      * right. exists (y :: q1), q2, (spelled l y :: lp), n. spl; auto. apply dropped_name; auto. right. exists x, c, y, d, q1, lp. spl; auto.
    + right. exists [y], q', [spelled l y], d. spl; auto. apply dropped_name; auto. left. exists y. spl; auto.
  - inversion_clear WT as [|? ? WT1 WT2]. inversion_clear WS as [|? ? WS1 WS2]. rewrite Forall_forall in *. inversion A as [|? ? y d q' ? J A']; subst. apply In_nth_error in J as (i & J). destruct (nth_both ds cs i (y, d) (eq_sym LE) J) as ((x & c) & I).
    destruct (IH i x c y d I J (WT2 _ (nth_error_In _ _ I)) (WS2 _ (nth_error_In _ _ J)) q' v' A') as [(p & lp & u & P)|(q1 & q2 & lp & n & -> & D & A2)].
    + left. exists (x :: p), (KInt (Z.of_nat i) :: lp), u. apply pairs_position with (c := c) (d := d); auto.
    + right. exists (y :: q1), q2, (KInt (Z.of_nat i) :: lp), n. spl; auto. apply dropped_position; auto. exists i, x, c, y, d, q1, lp. spl; auto.
Qed.

(** Nothing below something dropped is taken over. *)
Lemma not_both : forall {U V : Type} (t : tree U) (s : tree V) p q lp t' s', pairs t s p q lp t' s' -> wf t -> wf s ->
  (exists u, t' = Leaf u) -> forall q1 q2 lp1 n, q = q1 ++ q2 -> dropped t s q1 lp1 n -> False.
Proof.
  intros U V t s p q lp t' s' P. induction P as [t s|k cs l ds x c y d p q lp t' s' B I J E P IH|k cs l ds i x c y d p q lp t' s' B I J P IH]; intros WT WS L q1 q2 lp1 n EQ D.
  - destruct L as (u & ->). destruct D as (p & q3 & lp3 & t' & s' & q4 & lp4 & P & H & _). inversion P; subst. inversion H.
  - inversion_clear WT as [|? ? WT1 WT2]. inversion_clear WS as [|? ? WS1 WS2]. rewrite Forall_forall in *. apply dropped_name in D; auto. destruct D as [(y2 & J2 & N & -> & ->)|(x2 & c2 & y2 & d2 & q3 & lp3 & I2 & J2 & E2 & D & -> & ->)].
    + injection EQ as <- <-. apply N. rewrite <- E. apply in_map_iff. exists (x, c). auto.
    + injection EQ as <- ->. assert (d2 = d) by (apply (same_child ds y); auto; apply (keys_nodup l); auto). subst d2. destruct (called_inj k cs x c x2 c2 WT1 I I2) as [<- <-]; [congruence|].
      eapply IH; eauto; [apply (WT2 _ I)|apply (WS2 _ J)].
  - inversion_clear WT as [|? ? WT1 WT2]. inversion_clear WS as [|? ? WS1 WS2]. rewrite Forall_forall in *. apply dropped_position in D; auto. destruct D as (j & x2 & c2 & y2 & d2 & q3 & lp3 & I2 & J2 & D & -> & ->).
    injection EQ as <- ->. assert (i = j) by exact (pair_det l ds i j y d d2 WS1 J J2). subst j. rewrite I in I2. injection I2 as <- <-. rewrite J in J2. injection J2 as <-.
    eapply IH; eauto; [apply (WT2 _ (nth_error_In _ _ I))|apply (WS2 _ (nth_error_In _ _ J))].
Qed.

Lemma paths_inj : forall {A : Type} (t : tree A) p q u v, wf t -> at_path t p (Leaf u) -> at_path t q (Leaf v) -> tuple_path_from_keypath p = tuple_path_from_keypath q -> p = q.
Proof.
  intros A t. induction t as [w|k cs F] using tree_ind'; intros p q u v WT H1 H2 E.
  - inversion H1; inversion H2; subst; auto.
  - inversion_clear WT as [|? ? WT1 WT2]. rewrite Forall_forall in *. inversion H1 as [|? ? x c p' ? I H1']; subst. inversion H2 as [|? ? y d q' ? J H2']; subst. cbn [tuple_path_from_keypath map] in E. injection E as E1 E2.
    assert (x = y) by (apply (names_inj k (map fst cs)); auto; [apply (in_map fst) in I; auto|apply (in_map fst) in J; auto]). subst y. assert (d = c) by (apply (same_child cs x); auto; apply (keys_nodup k); auto). subst d.
    f_equal. apply (F _ I p' q' u v); auto.
Qed.

Lemma trim_leaf_same : forall {A : Type} (t : tree A) p u v, wf t -> at_path t p (Leaf u) -> at_path t p (Leaf v) -> u = v.
Proof.
  intros A t. induction t as [w|k cs F] using tree_ind'; intros p u v WT H1 H2.
  - inversion H1; subst. inversion H2; subst. auto.
  - inversion_clear WT as [|? ? WT1 WT2]. rewrite Forall_forall in *. inversion H1 as [|? ? x c p' ? I H1']; subst. inversion H2 as [|? ? y d q' ? J H2']; subst.
    assert (d = c) by (apply (same_child cs x); auto; apply (keys_nodup k); auto). subst d. apply (F _ I p' u v); auto.
Qed.

Lemma full_tree : forall {V : Type} (P : parts V) (f : path -> tree V), valid P ->
  (forall p, at_path (template P) p (Leaf tt) -> option_map Leaf (val_at P (tuple_path_from_keypath p)) = Some (f p)) -> full_structure P = Ok (with_leaves f (template P)).
Proof.
  intros V P f VP H. unfold full_structure, get_template. rewrite (target_ok _ _ f).
  - rewrite with_leaves_template by auto. auto.
  - apply wf_tree_map, VP.
  - intros p v A. apply template_leaf in A. rewrite (dget_map (@Leaf V)). unfold val_at in H. rewrite H by auto. auto.
Qed.

Lemma with_tree_leaf : forall {A B : Type} (t : tree A) (f : path -> tree B), (forall p u, at_path t p (Leaf u) -> exists v, f p = Leaf v) ->
  tree_map (fun _ => tt) (with_leaves f t) = tree_map (fun _ => tt) t /\
  forall q w, at_path (with_leaves f t) q (Leaf w) <-> f q = Leaf w /\ exists u, at_path t q (Leaf u).
Proof.
  intros A B t. induction t as [a|k cs F] using tree_ind'; intros f H.
  - destruct (H [] a (at_here _)) as (v & E). cbn [with_leaves]. rewrite E. split; auto. intros q w. split.
    + intros X. inversion X; subst. split; auto. exists a. constructor.
    + intros (X & u & Y). inversion Y; subst. rewrite E in X. injection X as ->. constructor.
  - rewrite with_leaves_node, Forall_forall in *. assert (G : forall x c, In (x, c) cs -> forall p u, at_path c p (Leaf u) -> exists v, f (x :: p) = Leaf v) by (intros x c I p u X; apply (H (x :: p) u); econstructor; eauto). split.
    + rewrite !tree_map_node. f_equal. unfold map_items. rewrite map_map. apply map_ext_in. intros [x c] I. cbn [fst snd]. f_equal. apply (F (x, c) I (fun p => f (x :: p))). apply (G x c I).
    + intros q w. split.
      * intros X. inversion X as [|? ? x c q' ? I X']; subst. apply in_map_iff in I as ((y & d) & E & I). cbn [fst snd] in E. injection E as <- <-. apply (F (y, d) I (fun p => f (y :: p))) in X'; [|apply (G y d I)].
        destruct X' as (E & u & X'). split; auto. exists u. econstructor; eauto.
      * intros (E & u & X). inversion X as [|? ? x c q' ? I X']; subst. apply at_child with (c := with_leaves (fun p => f (x :: p)) c); [apply in_map_iff; exists (x, c); auto|].
        apply (F (x, c) I (fun p => f (x :: p)) (G x c I)). eauto.
Qed.

Lemma leaves_dec : forall {A : Type} (t : tree A) (Q : path -> bool), (forall p u, at_path t p (Leaf u) -> Q p = true) \/ exists p u, at_path t p (Leaf u) /\ Q p = false.
Proof.
  intros A t. induction t as [a|k cs F] using tree_ind'; intros Q.
  - destruct (Q []) eqn:E; [left|right; exists [], a; split; auto; constructor]. intros p u X. inversion X; subst. auto.
  - assert (G : (forall x c, In (x, c) cs -> forall p u, at_path c p (Leaf u) -> Q (x :: p) = true) \/ exists x c p u, In (x, c) cs /\ at_path c p (Leaf u) /\ Q (x :: p) = false).
    { induction F as [|[x c] cs H F IH]; [left; intros x c []|]. destruct (H (fun p => Q (x :: p))) as [H1|(p & u & X & E)]; [|right; exists x, c, p, u; spl; auto; left; auto].
      destruct IH as [IH|(x' & c' & p & u & I & X & E)]; [|right; exists x', c', p, u; spl; auto; right; auto]. left. intros x' c' [J|J]; [injection J as <- <-; auto|eauto]. }
    destruct G as [G|(x & c & p & u & I & X & E)]; [left|right; exists (x :: p), u; split; auto; econstructor; eauto]. intros p u X. inversion X as [|? ? x c p' ? I X']; subst. eapply G; eauto.
Qed.

Lemma structure_leaf : forall {A : Type} (t : tree A) p, at_path (structure t) p (Leaf tt) <-> exists u, at_path t p (Leaf u).
Proof.
  intros A t p. unfold structure. rewrite at_norm_leaf, at_map. split.
  - intros ([u|] & X & E); [eauto|discriminate].
  - intros (u & X). exists (Leaf u). auto.
Qed.

Section Results.
Context {U V : Type} (chars : V -> option (list V)) (NC : forall v, chars v = None).

Theorem impl_ok : forall strict allow (t : tree U) (s : tree V), wf t -> wf s ->
  match tree_trim_impl chars strict allow t s with
  | Ok (P, log) => trims strict allow t s /\ valid P /\ template P = structure t /\
      (forall p u v, at_path t p (Leaf u) -> (val_at P (tuple_path_from_keypath p) = Some v <-> exists q lp, pairs t s p q lp (Leaf u) (Leaf v))) /\
      (forall k v, val_at P k = Some v -> exists p u, at_path t p (Leaf u) /\ tuple_path_from_keypath p = k) /\
      forall lp n, In (lp, n) log <-> exists q, dropped t s q lp n
  | Err e => refused e /\ ~ trims strict allow t s
  end.
Proof using NC.
  intros strict allow t s WT WS. unfold tree_trim_impl. assert (C := trim_correct chars NC strict allow t WT [] s WS). destruct (tree_trim_at chars strict allow t [] s) as [[r log]|e]; auto. cbn [rbind fst snd] in *.
  destruct C as (T & W & VS & LG). destruct (init_spec t r WT W) as (I1 & _ & I3). destruct (proj2 I1) as (P & E).
  { intros p v A. apply VS in A as (q & lp & u & P). exists p, u. split; auto. apply (pairs_at _ _ _ _ _ _ _ P). }
  rewrite E. cbn [rmap]. destruct (I3 P E) as (TE & VP & VA). split; auto. split; auto. split; auto. split; [|split].
  - intros p u v A. rewrite VA. split.
    + intros (p' & A' & E'). apply VS in A' as (q & lp & u' & P'). destruct (pairs_at _ _ _ _ _ _ _ P') as [A2 _]. assert (p' = p) by (apply (paths_inj t p' p u' u); auto). subst p'.
      destruct (trim_leaf_same t p u u' WT A A2). eauto.
    + intros (q & lp & P'). exists p. split; auto. apply VS. eauto.
  - intros k v H. apply VA in H as (p & A & <-). apply VS in A as (q & lp & u & P'). exists p, u. split; auto. apply (pairs_at _ _ _ _ _ _ _ P').
  - intros lp n. rewrite LG. split; [intros (q & lp' & -> & D); eauto|intros (q & D); exists q, lp; auto].
Qed.

Theorem strict_ok : forall allow (t : tree U) (s : tree V), wf t -> wf s ->
  match tree_trim chars allow t s with
  | Ok (r, log) => trims true allow t s /\ complete t s /\ structure r = structure t /\
      (forall p v, at_path r p (Leaf v) <-> exists q lp u, pairs t s p q lp (Leaf u) (Leaf v)) /\
      forall lp n, In (lp, n) log <-> exists q, dropped t s q lp n
  | Err e => refused e /\ ~ (trims true allow t s /\ complete t s)
  end.
Proof using NC.
  intros allow t s WT WS. unfold tree_trim. assert (C := impl_ok true allow t s WT WS). destruct (tree_trim_impl chars true allow t s) as [[P log]|e]; cbn [rbind fst snd].
  2:{ destruct C as [C1 C2]. split; auto. intros [H _]. auto. }
  destruct C as (T & VP & TE & VA & VD & LG).
  destruct (leaves_dec t (fun p => match val_at P (tuple_path_from_keypath p) with Some _ => true | None => false end)) as [AL|(p & u & A & N)].
  - set (f := fun p => match val_at P (tuple_path_from_keypath p) with Some v => Leaf v | None => Node KNone [] end).
    rewrite (full_tree P f); auto.
    2:{ intros p A. rewrite TE in A. apply structure_leaf in A as (u & A). specialize (AL p u A). unfold f. destruct (val_at P (tuple_path_from_keypath p)); [auto|discriminate]. }
    cbn [rmap]. split; auto. assert (CO : complete t s).
    { intros p q lp u ds X. destruct (pairs_at _ _ _ _ _ _ _ X) as [A _]. specialize (AL p u A). destruct (val_at P (tuple_path_from_keypath p)) as [v|] eqn:E; [|discriminate].
      apply (VA p u v A) in E as (q2 & lp2 & Y). destruct (pairs_det _ _ _ _ _ _ _ X WT WS _ _ _ _ Y) as (_ & _ & _ & H). discriminate. }
    assert (FL : forall p u, at_path (template P) p (Leaf u) -> exists v, f p = Leaf v).
    { intros p [] A. rewrite TE in A. apply structure_leaf in A as (u & A). specialize (AL p u A). unfold f. destruct (val_at P (tuple_path_from_keypath p)); [eauto|discriminate]. }
    destruct (with_tree_leaf (template P) f FL) as [W1 W2]. split; auto. split; [|split; auto].
    + unfold structure at 1. rewrite W1. rewrite tree_map_unit. rewrite <- TE. apply VP.
    + intros p v. rewrite W2. split.
      * intros (E & [] & A). rewrite TE in A. apply structure_leaf in A as (u & A). unfold f in E. destruct (val_at P (tuple_path_from_keypath p)) as [v'|] eqn:E'; [|discriminate]. injection E as ->.
        destruct (proj1 (VA p u v A) E') as (q & lp & Y). eauto.
      * intros (q & lp & u & Y). destruct (pairs_at _ _ _ _ _ _ _ Y) as [A _]. assert (E : val_at P (tuple_path_from_keypath p) = Some v) by (apply (VA p u v A); eauto). unfold f. rewrite E. split; auto.
        exists tt. rewrite TE. apply structure_leaf. eauto.
  - rewrite (full_missing P p); auto.
    2:{ rewrite TE. apply structure_leaf. eauto. }
    2:{ destruct (val_at P (tuple_path_from_keypath p)); [discriminate|auto]. }
    cbn [rmap]. split; [left; auto|]. intros [_ CO]. destruct (strict_paired allow t s T WT WS p u A) as (q & lp & [(v & Y)|Y]); [|eapply CO; eauto].
    assert (E : val_at P (tuple_path_from_keypath p) = Some v) by (apply (VA p u v A); eauto). rewrite E in N. discriminate.
Qed.
End Results.

(** Without named tuples, counterparts have the same names. *)
Lemma plain_names : forall {U V : Type} strict allow (t : tree U) (s : tree V) p q lp t' s', pairs t s p q lp t' s' -> trims strict allow t s -> wf t -> wf s -> plain t -> plain s ->
  tuple_path_from_keypath p = tuple_path_from_keypath q.
Proof.
  intros U V strict allow t s p q lp t' s' P. induction P as [t s|k cs l ds x c y d p q lp t' s' B I J E P IH|k cs l ds i x c y d p q lp t' s' B I J P IH]; intros TR WT WS PT PS; auto.
  - inversion_clear WT as [|? ? WT1 WT2]. inversion_clear WS as [|? ? WS1 WS2]. rewrite Forall_forall in *. cbn [tuple_path_from_keypath map]. f_equal.
    + assert (CN : forall k (es : list key) z, keys_fit k es -> In z es -> str_name (DictKey (called k z)) = str_name z).
      { intros k' es z W Z. destruct k'; auto. destruct W as [_ [W|W]]; destruct (W z Z) as (w & ->); auto. }
      rewrite <- (CN k (map fst cs) x), <- (CN l (map fst ds) y); auto; [congruence|apply (in_map fst) in J; auto|apply (in_map fst) in I; auto].
    + apply trims_name_inv in TR as (_ & _ & TR); auto. apply IH; [eapply TR; eauto|apply (WT2 _ I)|apply (WS2 _ J)| |]; intros p0 c0 cs0 A; [apply (PT (x :: p0) c0 cs0)|apply (PS (y :: p0) c0 cs0)]; econstructor; eauto.
  - inversion_clear WT as [|? ? WT1 WT2]. inversion_clear WS as [|? ? WS1 WS2]. rewrite Forall_forall in *. cbn [tuple_path_from_keypath map]. assert (I' := nth_error_In _ _ I). assert (J' := nth_error_In _ _ J). f_equal.
    + assert (SK : forall A k (es : list (key * tree A)) z e, wf (Node k es) -> plain (Node k es) -> (k = KList \/ k = KTuple) -> nth_error es i = Some (z, e) -> z = SequenceKey i).
      { intros A k' es z e W PL KK N. assert (M : nth_error (map fst es) i = Some z) by (rewrite nth_error_map, N; auto). inversion_clear W as [|? ? W1 W2].
        assert (W3 : map fst es = map SequenceKey (seq 0 (List.length (map fst es)))) by (destruct KK as [-> | ->]; exact W1). rewrite W3 in M. rewrite nth_error_map in M. destruct (nth_error (seq 0 (List.length (map fst es))) i) eqn:Z; [|discriminate].
        cbn [option_map] in M. injection M as <-. f_equal. assert (L : i < List.length (seq 0 (List.length (map fst es)))) by (apply nth_error_Some; congruence). rewrite seq_length in L. rewrite nth_error_nth' with (d := 0) in Z by (rewrite seq_length; auto).
        injection Z as <-. rewrite seq_nth; auto. }
      assert (KK : k = KList \/ k = KTuple) by (destruct k; auto; try discriminate B; exfalso; eapply PT; constructor).
      assert (LL : l = KList \/ l = KTuple).
      { destruct l; auto.
        - exfalso. apply trims_pos_inv in TR as (H & _); auto.
        - exfalso; eapply PS; constructor.
        - exfalso. apply map_eq_nil in WS1. subst. destruct i; discriminate. }
      rewrite (SK _ k cs x c), (SK _ l ds y d); auto; constructor; auto; apply Forall_forall; auto.
    + apply trims_pos_inv in TR as (_ & _ & TR); auto. apply IH; [eapply TR; eauto|apply (WT2 _ I')|apply (WS2 _ J')| |]; intros p0 c0 cs0 A; [apply (PT (x :: p0) c0 cs0)|apply (PS (y :: p0) c0 cs0)]; econstructor; eauto.
Qed.

(** ** A tree and itself *)

Lemma self_trims : forall {V : Type} strict allow (s : tree V), wf s -> trims strict allow s s.
Proof.
  intros V strict allow s. induction s as [v|k cs F] using tree_ind'; intros W; [constructor|]. inversion_clear W as [|? ? W1 W2]. rewrite Forall_forall in *. destruct (by_name k k) eqn:B.
  - apply trims_name; auto; [destruct k; auto; discriminate| |]; intros.
    + eauto.
    + destruct (called_inj k cs x c y d W1) as [<- <-]; auto. apply (F (x, c)); auto; apply (W2 (x, c)); auto.
  - apply trims_position; auto; [intros ->; discriminate|]. intros i x c y d I J. rewrite I in J. injection J as <- <-. apply nth_error_In in I. apply (F (x, c)); auto; apply (W2 (x, c)); auto.
Qed.

Lemma self_pairs : forall {V : Type} (s : tree V) p n, wf s -> at_path s p n -> exists lp, pairs s s p p lp n n.
Proof.
  intros V s p n W A. induction A as [t|k cs x c p n I A IH]; [exists []; constructor|]. inversion_clear W as [|? ? W1 W2]. rewrite Forall_forall in *. destruct (IH (W2 _ I)) as (lp & P). destruct (by_name k k) eqn:B.
  - exists (spelled k x :: lp). apply pairs_name with (c := c) (d := c); auto.
  - apply In_nth_error in I as (i & I). exists (KInt (Z.of_nat i) :: lp). apply pairs_position with (c := c) (d := c); auto.
Qed.

Lemma self_dropped : forall {V : Type} (s : tree V) q lp n, wf s -> ~ dropped s s q lp n.
Proof.
  intros V s. induction s as [v|k cs F] using tree_ind'; intros q lp n W D.
  - destruct D as (p & q1 & lp1 & t' & s' & q2 & lp2 & P & H & _). inversion P; subst. inversion H.
  - inversion_clear W as [|? ? W1 W2]. rewrite Forall_forall in *. destruct (by_name k k) eqn:B.
    + apply dropped_name in D; auto. destruct D as [(y & I & NI & _)|(x & c & y & d & q' & lp' & I & J & E & D & _)]; [apply NI; apply in_map_iff; exists (y, n); auto|].
      destruct (called_inj k cs x c y d W1 I J) as [<- <-]; auto. apply (F _ I q' lp' n); auto; apply (W2 _ I).
    + apply dropped_position in D; auto. destruct D as (i & x & c & y & d & q' & lp' & I & J & D & _). rewrite I in J. injection J as <- <-. apply nth_error_In in I. apply (F _ I q' lp' n); auto; apply (W2 _ I).
Qed.
