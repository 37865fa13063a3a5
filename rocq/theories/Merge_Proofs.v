From Coq Require Import List Bool Arith NArith ZArith String Ascii Lia.
From Verif Require Import Base StepName_Model Tree_Model Tree_Spec Tree_Proofs Parts_Model Diff_Proofs Transform_Proofs Merge_Model Merge_Spec.
Import ListNotations.

Lemma leaf_like_iff : forall {V : Type} (t : tree V), is_leaf_node_or_none t = true <-> leaf_like t.
Proof. intros V [v|[]]; simpl; split; try congruence; auto. Qed.

Lemma kind_eqb_true : forall a b, kind_eqb a b = true <-> a = b.
Proof.
  intros a b; destruct a, b; cbn; split; try congruence; intros H.
  - apply String.eqb_eq in H; congruence.
  - injection H as ->; apply String.eqb_refl.
Qed.

(** Trees with proper keys; unlike [wf] without the condition on mixed dictionaries. *)
Definition keys_ok (k : kind) (ks : list key) : Prop :=
  match k with
  | KDict => NoDup ks /\ (forall x, In x ks -> exists d, x = DictKey d)
  | KList | KTuple => ks = map SequenceKey (seq 0 (List.length ks))
  | KNamed _ => NoDup ks /\ (forall x, In x ks -> exists s, x = GetAttrKey s)
  | KNone => ks = []
  end.

Inductive keyed {V : Type} : tree V -> Prop :=
| keyed_leaf : forall v, keyed (Leaf v)
| keyed_node : forall k cs, keys_ok k (map fst cs) -> (forall x c, In (x, c) cs -> keyed c) -> keyed (Node k cs).

Lemma wf_keyed : forall {V : Type} (t : tree V), wf t -> keyed t.
Proof.
  intros V t. induction t as [v|k cs F] using tree_ind'; intros W; [constructor|]. inversion_clear W as [|? ? W1 W2].
  constructor.
  - destruct k; cbn in *; auto. destruct W1 as [N [D|D]]; split; auto; intros x Hx; destruct (D x Hx) as [? ->]; eauto.
  - intros x c I. rewrite Forall_forall in F, W2. exact (F (x, c) I (W2 (x, c) I)).
Qed.

Lemma keys_ok_nodup : forall k ks, keys_ok k ks -> NoDup ks.
Proof.
  intros [] ks H; cbn in H; try tauto.
  - rewrite H. apply FinFun.Injective_map_NoDup; [intros a b E; congruence | apply seq_NoDup].
  - rewrite H. apply FinFun.Injective_map_NoDup; [intros a b E; congruence | apply seq_NoDup].
  - subst; constructor.
Qed.

(** The loops of [recursive_merge]. *)
Section Loop.
Context {V : Type}.
Variable rm : tree V -> tree V -> result (tree V).
Variable d2 : list (key * tree V).

Fixpoint gom (l : list (key * tree V)) (merged : list (key * tree V)) : result (list (key * tree V)) :=
  match l with
  | [] => Ok merged
  | (x, v1) :: r =>
    match find_item (dict_key x) d2 with
    | Some v2 => rbind (rm v1 v2) (fun v => gom r (put_item (dict_key x) v merged))
    | None => gom r (put_item (dict_key x) v1 merged)
    end
  end.

End Loop.

Section Loops.
Context {V : Type}.
Variable rm : tree V -> tree V -> result (tree V).

Fixpoint gos (l : list (key * tree V)) (es : list (tree V)) : result (list (key * tree V)) :=
  match l, es with
  | (x, e1) :: r, e2 :: es' => rbind (rm e1 e2) (fun v => rmap (cons (x, v)) (gos r es'))
  | _, _ => Ok []
  end.

Lemma gom_spec : forall d2 l merged,
  NoDup (map dict_key (map fst l)) -> NoDup (map fst merged) ->
  (forall x v1 v2, In (x, v1) l -> find_item (dict_key x) d2 = Some v2 -> exists v, rm v1 v2 = Ok v) ->
  exists ms, gom rm d2 l merged = Ok ms /\ NoDup (map fst ms) /\
    forall k v, In (k, v) ms <->
      (exists x v1, In (x, v1) l /\ dict_key x = k /\ match find_item k d2 with Some v2 => rm v1 v2 = Ok v | None => v = v1 end)
      \/ (~ In k (map dict_key (map fst l)) /\ In (k, v) merged).
Proof.
  intros d2. induction l as [|[x v1] l IH]; intros merged N Nm H.
  { exists merged. split; [reflexivity|]. split; [assumption|]. intros k v; split.
    - intros I; right; split; [intros [] | exact I].
    - intros [(x & v1 & [] & _)|[_ I]]; exact I. }
  cbn [map fst] in N. inversion_clear N as [|? ? N1 N2]. cbn [gom].
  assert (STEP : exists w, match find_item (dict_key x) d2 with Some v2 => rm v1 v2 = Ok w | None => w = v1 end /\
    match find_item (dict_key x) d2 with
    | Some v2 => rbind (rm v1 v2) (fun v => gom rm d2 l (put_item (dict_key x) v merged))
    | None => gom rm d2 l (put_item (dict_key x) v1 merged)
    end = gom rm d2 l (put_item (dict_key x) w merged)).
  { destruct (find_item (dict_key x) d2) as [v2|] eqn:E; [|exists v1; auto].
    destruct (H x v1 v2) as [w W]; [left; reflexivity | exact E |]. exists w. rewrite W. auto. }
  destruct STEP as (w & Hw & ->).
  destruct (IH (put_item (dict_key x) w merged)) as (ms & E & Nms & C); auto.
  { apply put_item_keys; auto. }
  { intros y u1 u2 I; apply H; right; exact I. }
  exists ms. split; [exact E|]. split; [exact Nms|]. intros k v. rewrite C. rewrite put_item_in by assumption. split.
  - intros [(y & u & I & A & B)|[A [[-> ->]|[B I]]]].
    + left. exists y, u. split; [right; exact I | auto].
    + left. exists x, v1. split; [left; reflexivity | auto].
    + right. split; [|exact I]. cbn [map fst]. intros [D|D]; [congruence | auto].
  - intros [(y & u & [I|I] & A & B)|[A I]].
    + injection I as <- <-. right. subst k. split; [exact N1|]. left; split; [reflexivity|].
      destruct (find_item (dict_key x) d2); congruence.
    + left. exists y, u. auto.
    + right. cbn [map fst] in A. split; [intros D; apply A; right; exact D|]. right. split; [|exact I]. intros ->; apply A; left; reflexivity.
Qed.

Lemma gom_inv : forall d2 l merged ms, gom rm d2 l merged = Ok ms ->
  forall x v1 v2, In (x, v1) l -> find_item (dict_key x) d2 = Some v2 -> exists v, rm v1 v2 = Ok v.
Proof.
  intros d2. induction l as [|[x v1] l IH]; intros merged ms E y u1 u2 I F; [destruct I|]. cbn [gom] in E.
  destruct I as [I|I].
  - injection I as -> ->. rewrite F in E. destruct (rm u1 u2) as [v|]; [eauto | discriminate].
  - destruct (find_item (dict_key x) d2) as [v2|]; [destruct (rm v1 v2); [|discriminate]|]; cbn [rbind] in E; eapply IH; eassumption.
Qed.

Lemma gos_spec : forall (l m : list (key * tree V)), map fst l = map fst m ->
  (forall x e1 e2, In (x, e1) l -> In (x, e2) m -> exists v, rm e1 e2 = Ok v) -> NoDup (map fst l) ->
  exists ms, gos l (map snd m) = Ok ms /\ map fst ms = map fst l /\
    forall x v, In (x, v) ms -> exists e1 e2, In (x, e1) l /\ In (x, e2) m /\ rm e1 e2 = Ok v.
Proof.
  induction l as [|[x e1] l IH]; intros [|[y e2] m] K H N; try discriminate.
  - exists []. split; [reflexivity|]. split; [reflexivity|]. intros x v [].
  - cbn [map fst] in K. injection K as <- K. inversion_clear N as [|? ? N1 N2].
    destruct (H x e1 e2) as [v Hv]; [left; reflexivity..|].
    destruct (IH m K) as (ms & E & F & G); auto.
    { intros z a b Ia Ib; apply (H z); right; assumption. }
    exists ((x, v) :: ms). cbn [gos map snd]. rewrite Hv. cbn [rbind]. rewrite E. cbn [rmap].
    split; [reflexivity|]. split; [cbn; congruence|]. intros z w [I|I].
    + injection I as <- <-. exists e1, e2. repeat split; auto; left; reflexivity.
    + destruct (G z w I) as (a & b & ? & ? & ?). exists a, b. repeat split; auto; right; assumption.
Qed.

Lemma gos_inv : forall (l m : list (key * tree V)) ms, map fst l = map fst m -> NoDup (map fst l) -> gos l (map snd m) = Ok ms ->
  forall x e1 e2, In (x, e1) l -> In (x, e2) m -> exists v, rm e1 e2 = Ok v.
Proof.
  induction l as [|[x e1] l IH]; intros [|[y e2] m] ms K N E z a b Ia Ib; try discriminate; [destruct Ia|].
  cbn [map fst] in K. injection K as <- K. inversion_clear N as [|? ? N1 N2]. cbn [gos map snd] in E.
  destruct (rm e1 e2) as [v|] eqn:R; [|discriminate]. cbn [rbind] in E.
  destruct (gos l (map snd m)) as [ms'|] eqn:E'; [|discriminate].
  destruct Ia as [Ia|Ia], Ib as [Ib|Ib].
  - injection Ia as -> ->. injection Ib as ->. eauto.
  - injection Ia as -> ->. exfalso; apply N1. rewrite K. apply (in_map fst) in Ib; exact Ib.
  - injection Ib as -> ->. exfalso; apply N1. apply (in_map fst) in Ia; exact Ia.
  - eapply (IH m ms'); eassumption.
Qed.

End Loops.

Lemma gom_ext : forall {V : Type} (f g : tree V -> tree V -> result (tree V)) d2 l merged ms,
  (forall x v1 v2 v, In (x, v1) l -> find_item (dict_key x) d2 = Some v2 -> f v1 v2 = Ok v -> g v1 v2 = Ok v) ->
  gom f d2 l merged = Ok ms -> gom g d2 l merged = Ok ms.
Proof.
  intros V f g d2. induction l as [|[x v1] l IH]; intros merged ms H E; [exact E|]. cbn [gom] in *.
  destruct (find_item (dict_key x) d2) as [v2|] eqn:F.
  - destruct (f v1 v2) as [v|] eqn:R; [|discriminate]. rewrite (H x v1 v2 v) by (auto; left; reflexivity). cbn [rbind] in *.
    apply IH; auto. intros y a b c I; apply (H y); right; exact I.
  - apply IH; auto. intros y a b c I; apply (H y); right; exact I.
Qed.

Lemma gos_ext : forall {V : Type} (f g : tree V -> tree V -> result (tree V)) (l m : list (key * tree V)) ms,
  map fst l = map fst m ->
  (forall x e1 e2 v, In (x, e1) l -> In (x, e2) m -> f e1 e2 = Ok v -> g e1 e2 = Ok v) ->
  gos f l (map snd m) = Ok ms -> gos g l (map snd m) = Ok ms.
Proof.
  intros V f g. induction l as [|[x e1] l IH]; intros [|[y e2] m] ms K H E; try discriminate; [exact E|].
  cbn [map fst] in K. injection K as <- K. cbn [gos map snd] in *.
  destruct (f e1 e2) as [v|] eqn:R; [|discriminate]. rewrite (H x e1 e2 v) by (auto; left; reflexivity). cbn [rbind] in *.
  destruct (gos f l (map snd m)) as [ms'|] eqn:E'; [|discriminate].
  rewrite (IH m ms'); auto. intros z a b c Ia Ib; apply (H z); right; assumption.
Qed.

(** One unfolding of [recursive_merge]. *)
Lemma merge_node : forall {V : Type} (kl : key -> V) ow k1 cs k2 ds,
  recursive_merge kl ow (Node k1 cs) (Node k2 ds) =
  if negb (kind_eqb k1 k2) && negb ow then Err ValueError
  else if is_leaf_node_or_none (Node k1 cs) || is_leaf_node_or_none (Node k2 ds) then Ok (if is_none (Node k1 cs) then Node k2 ds else Node k1 cs)
  else
    let rm := recursive_merge kl ow in
    match k1 with
    | KDict | KNamed _ =>
      match k2 with
      | KDict | KNamed _ => rmap (rebuild k1 (map fst cs)) (gom rm (as_mapping ds) cs (as_mapping ds))
      | _ => match ds with [] => rmap (rebuild k1 (map fst cs)) (gom rm [] cs []) | _ => Err TypeError end
      end
    | _ =>
      if negb (List.length cs =? List.length ds) then Err ValueError
      else rmap (Node k1) (gos rm cs (match k2 with KDict => map (fun x => Leaf (kl (fst x))) ds | _ => map snd ds end))
    end.
Proof. intros V kl ow k1 cs k2 ds. destruct k1, k2; reflexivity. Qed.

Lemma merge_leaf : forall {V : Type} (kl : key -> V) ow t1 t2,
  leaf_like t1 \/ leaf_like t2 -> (ow = true \/ same_type t1 t2 = true) ->
  recursive_merge kl ow t1 t2 = Ok (if is_none t1 then t2 else t1).
Proof.
  intros V kl ow t1 t2 L O.
  assert (E : is_leaf_node_or_none t1 || is_leaf_node_or_none t2 = true).
  { apply orb_true_iff. rewrite !leaf_like_iff. exact L. }
  assert (T : negb (same_type t1 t2) && negb ow = false).
  { destruct O as [->| ->]; [apply andb_false_r | reflexivity]. }
  destruct t1 as [v|k1 cs], t2 as [w|k2 ds].
  - cbn [recursive_merge]. rewrite T. cbn. reflexivity.
  - cbn [recursive_merge]. rewrite T. cbn. reflexivity.
  - cbn [recursive_merge]. rewrite T. rewrite E. reflexivity.
  - rewrite merge_node. cbn [same_type] in T. rewrite T, E. reflexivity.
Qed.

(** What merging gives. *)
Inductive Merged {V : Type} : tree V -> tree V -> tree V -> Prop :=
| Merged_leaf : forall t1 t2, leaf_like t1 \/ leaf_like t2 -> Merged t1 t2 (if is_none t1 then t2 else t1)
| Merged_node : forall k l cs ds ms, alike k l -> k <> KNone -> l <> KNone ->
    keys_ok k (map fst ms) ->
    (k <> KDict -> map fst ms = map fst cs /\ map fst ms = map fst ds) ->
    (forall x, In x (map fst ms) <-> In x (map fst cs) \/ In x (map fst ds)) ->
    (forall x m, In (x, m) ms ->
      (exists c d, In (x, c) cs /\ In (x, d) ds /\ Merged c d m)
      \/ (In (x, m) cs /\ ~ In x (map fst ds)) \/ (In (x, m) ds /\ ~ In x (map fst cs))) ->
    Merged (Node k cs) (Node l ds) (Node k ms).

Lemma as_mapping_dict : forall {A : Type} (cs : list (key * A)), (forall x, In x (map fst cs) -> exists d, x = DictKey d) -> as_mapping cs = cs.
Proof.
  intros A cs. induction cs as [|[x c] cs IH]; intros H; [reflexivity|]. unfold as_mapping in *; cbn [map fst snd].
  rewrite IH by (intros y Hy; apply H; right; exact Hy). destruct (H x) as [d ->]; [left; reflexivity|]. reflexivity.
Qed.

Lemma dict_key_id : forall (ks : list key), (forall x, In x ks -> exists d, x = DictKey d) -> map dict_key ks = ks.
Proof.
  induction ks as [|x ks IH]; intros H; [reflexivity|]. cbn [map]. rewrite IH by (intros y Hy; apply H; right; exact Hy).
  destruct (H x) as [d ->]; [left; reflexivity|]. reflexivity.
Qed.

Lemma named_keys : forall ks : list key, NoDup ks -> (forall x, In x ks -> exists s, x = GetAttrKey s) -> NoDup (map dict_key ks).
Proof.
  induction ks as [|x ks IH]; intros N H; [constructor|]. inversion_clear N as [|? ? N1 N2]. cbn [map]. constructor.
  - intros I. apply in_map_iff in I as (y & E & I). destruct (H x) as [s ->]; [left; reflexivity|].
    destruct (H y) as [t ->]; [right; exact I|]. cbn in E. injection E as ->. auto.
  - apply IH; auto. intros y Hy; apply H; right; exact Hy.
Qed.

Lemma as_mapping_fst : forall {A : Type} (cs : list (key * A)), map fst (as_mapping cs) = map dict_key (map fst cs).
Proof. intros A cs. unfold as_mapping. rewrite !map_map. reflexivity. Qed.

Lemma as_mapping_in : forall {A : Type} (cs : list (key * A)) k v, In (k, v) (as_mapping cs) <-> exists x, dict_key x = k /\ In (x, v) cs.
Proof.
  intros A cs k v. unfold as_mapping. rewrite in_map_iff. split.
  - intros ([x w] & E & I). cbn in E. injection E as <- <-. exists x; auto.
  - intros (x & <- & I). exists (x, v); auto.
Qed.

Lemma dict_key_inj : forall (ks : list key) x y, (forall x, In x ks -> exists s, x = GetAttrKey s) -> In x ks -> In y ks -> dict_key x = dict_key y -> x = y.
Proof. intros ks x y H Hx Hy E. destruct (H x Hx) as [s ->], (H y Hy) as [t ->]. cbn in E. congruence. Qed.

Lemma named_out : forall {V : Type} (ms : list (key * tree V)) fields, NoDup (map fst ms) ->
  (forall f, In f fields -> In (dict_key f) (map fst ms)) ->
  let out := flat_map (fun f => match find_item (dict_key f) ms with Some v => [(f, v)] | None => [] end) fields in
  map fst out = fields /\ forall f v, In (f, v) out <-> In f fields /\ In (dict_key f, v) ms.
Proof.
  intros V ms fields N H out. split.
  - subst out. induction fields as [|f fs IH]; [reflexivity|]. cbn [flat_map].
    destruct (find_item (dict_key f) ms) eqn:E.
    + cbn [app map fst]. f_equal. apply IH. intros g Hg; apply H; right; exact Hg.
    + exfalso. apply find_item_none in E. apply E. apply H. left; reflexivity.
  - intros f v. subst out. rewrite in_flat_map. split.
    + intros (g & Hg & I). destruct (find_item (dict_key g) ms) eqn:E; [|destruct I]. destruct I as [I|[]]. injection I as <- <-.
      split; [exact Hg | apply find_item_in; auto].
    + intros [Hf I]. exists f. split; [exact Hf|]. apply find_item_in in I; auto. rewrite I. left; reflexivity.
Qed.

Lemma in_fst : forall {A B : Type} (l : list (A * B)) x, In x (map fst l) <-> exists v, In (x, v) l.
Proof.
  intros A B l x. rewrite in_map_iff. split.
  - intros ([y v] & <- & I). exists v; exact I.
  - intros [v I]. exists (x, v); auto.
Qed.

Lemma fst_unique : forall {A B : Type} (l : list (A * B)) x v w, NoDup (map fst l) -> In (x, v) l -> In (x, w) l -> v = w.
Proof.
  intros A B l x v w. induction l as [|[y u] l IH]; intros N I J; [destruct I|]. cbn in N. inversion_clear N as [|? ? N1 N2].
  destruct I as [I|I], J as [J|J]; try congruence; auto.
  - injection I as -> ->. exfalso; apply N1. apply in_fst; eauto.
  - injection J as -> ->. exfalso; apply N1. apply in_fst; eauto.
Qed.

(** The mapping case. *)
Lemma mapping_merged : forall {V : Type} (rm : tree V -> tree V -> result (tree V)) k cs ds ms0,
  (k = KDict \/ exists c, k = KNamed c) -> keys_ok k (map fst cs) -> keys_ok k (map fst ds) ->
  (k <> KDict -> map fst cs = map fst ds) ->
  NoDup (map fst ms0) ->
  (forall x v1 v2, In (x, v1) cs -> find_item (dict_key x) (as_mapping ds) = Some v2 -> exists v, rm v1 v2 = Ok v) ->
  (forall y v, In (y, v) ms0 <->
      (exists x v1, In (x, v1) cs /\ dict_key x = y /\ match find_item y (as_mapping ds) with Some v2 => rm v1 v2 = Ok v | None => v = v1 end)
      \/ (~ In y (map dict_key (map fst cs)) /\ In (y, v) (as_mapping ds))) ->
  exists ms, rebuild k (map fst cs) ms0 = Node k ms /\ keys_ok k (map fst ms) /\ (k <> KDict -> map fst ms = map fst cs /\ map fst ms = map fst ds)
    /\ (forall x, In x (map fst ms) <-> In x (map fst cs) \/ In x (map fst ds))
    /\ (forall x m, In (x, m) ms ->
      (exists c d, In (x, c) cs /\ In (x, d) ds /\ rm c d = Ok m)
      \/ (In (x, m) cs /\ ~ In x (map fst ds)) \/ (In (x, m) ds /\ ~ In x (map fst cs))).
Proof.
  intros V rm k cs ds ms0 K Kc Kd Same N Hok C.
  assert (Inj : forall x y, (In x (map fst cs) \/ In x (map fst ds)) -> (In y (map fst cs) \/ In y (map fst ds)) -> dict_key x = dict_key y -> x = y).
  { intros x y Hx Hy E. destruct K as [->|[c ->]].
    - destruct Kc as [_ Dc], Kd as [_ Dd].
      assert (X : exists d, x = DictKey d) by (destruct Hx; auto). assert (Y : exists d, y = DictKey d) by (destruct Hy; auto).
      destruct X as [? ->], Y as [? ->]. exact E.
    - destruct Kc as [_ Dc], Kd as [_ Dd].
      assert (X : exists d, x = GetAttrKey d) by (destruct Hx; auto). assert (Y : exists d, y = GetAttrKey d) by (destruct Hy; auto).
      destruct X as [? ->], Y as [? ->]. cbn in E. congruence. }
  assert (Nd : NoDup (map fst (as_mapping ds))).
  { rewrite as_mapping_fst. destruct K as [->|[c ->]]; destruct Kd as [Nd Dd]; [rewrite dict_key_id; auto | apply named_keys; auto]. }
  assert (F1 : forall x v2, In x (map fst cs) -> (find_item (dict_key x) (as_mapping ds) = Some v2 <-> In (x, v2) ds)).
  { intros x v2 Hx. rewrite find_item_in by exact Nd. rewrite as_mapping_in. split.
    - intros (y & E & I). assert (y = x) as ->; [|exact I]. apply Inj; auto. right. apply in_fst; eauto.
    - intros I. exists x; auto. }
  assert (F0 : forall y, In y (map fst ms0) <-> exists x, dict_key x = y /\ (In x (map fst cs) \/ In x (map fst ds))).
  { intros y. split.
    - intros Hy. apply in_fst in Hy as [v Hv]. apply C in Hv as [(x & v1 & I & E & _)|[_ I]].
      + exists x. split; [exact E | left; apply in_fst; eauto].
      + apply as_mapping_in in I as (x & E & I). exists x. split; [exact E | right; apply in_fst; eauto].
    - intros (x & <- & Hx). apply in_fst. destruct (in_dec (fun a b => Bool.reflect_dec _ _ (key_eqb_spec a b)) x (map fst cs)) as [Hc|Hc].
      + assert (Hc' := Hc). apply in_fst in Hc as [v1 I]. destruct (find_item (dict_key x) (as_mapping ds)) as [v2|] eqn:F.
        * destruct (Hok x v1 v2 I F) as [v Hv]. exists v. apply C. left. exists x, v1. rewrite F. auto.
        * exists v1. apply C. left. exists x, v1. rewrite F. auto.
      + destruct Hx as [Hx|Hx]; [contradiction|]. assert (Hx' := Hx). apply in_fst in Hx as [v I]. exists v. apply C. right. split.
        * intros J. apply in_map_iff in J as (z & E & J). apply Hc. rewrite <- (Inj z x); auto.
        * apply as_mapping_in. exists x; auto. }
  assert (OUT : exists ms, rebuild k (map fst cs) ms0 = Node k ms /\ NoDup (map fst ms) /\ (k <> KDict -> map fst ms = map fst cs) /\
    forall x m, In (x, m) ms <-> (In x (map fst cs) \/ In x (map fst ds)) /\ In (dict_key x, m) ms0).
  { destruct K as [->|[c ->]].
    - exists ms0. split; [reflexivity|]. split; [exact N|]. split; [congruence|]. destruct Kc as [_ Dc], Kd as [_ Dd].
      assert (KK : forall x, In x (map fst cs) \/ In x (map fst ds) -> dict_key x = x).
      { intros x Hx. assert (X : exists d, x = DictKey d) by (destruct Hx; auto). destruct X as [? ->]; reflexivity. }
      intros x m. split.
      + intros I. assert (Hx : In x (map fst ms0)) by (apply in_fst; eauto). apply F0 in Hx as (z & E & Hz).
        rewrite KK in E by exact Hz. subst z. split; [exact Hz | rewrite KK; auto].
      + intros [Hx I]. rewrite KK in I; auto.
    - specialize (Same ltac:(discriminate)).
      assert (AllF : forallb (fun x : key * tree V => existsb (fun f => key_eqb (dict_key f) (fst x)) (map fst cs)) ms0 = true).
      { apply forallb_forall. intros [y v] I. assert (Hy : In y (map fst ms0)) by (apply in_fst; eauto).
        apply F0 in Hy as (x & E & Hx). apply existsb_exists. exists x. split; [destruct Hx; congruence|]. cbn.
        destruct (key_eqb_spec (dict_key x) y); congruence. }
      destruct (named_out ms0 (map fst cs)) as [O1 O2]; [exact N | intros f Hf; apply F0; exists f; auto|].
      unfold rebuild. rewrite AllF. eexists. split; [reflexivity|]. split; [rewrite O1; apply Kc|]. split; [intros _; exact O1|].
      intros x m. rewrite O2. rewrite <- Same. tauto. }
  destruct OUT as (ms & E & Nm & Sm & M). exists ms. split; [exact E|].
  assert (I1 : forall x, In x (map fst ms) <-> In x (map fst cs) \/ In x (map fst ds)).
  { intros x. rewrite in_fst. split; [intros [m Hm]; apply M in Hm; tauto|]. intros Hx.
    assert (Hy : In (dict_key x) (map fst ms0)) by (apply F0; exists x; auto). apply in_fst in Hy as [v Hv]. exists v. apply M. auto. }
  split; [|split; [|split; [exact I1|]]].
  - destruct K as [->|[c ->]]; (split; [exact Nm|]); intros x Hx; apply I1 in Hx; destruct Kc, Kd, Hx; auto.
  - intros Nk. specialize (Sm Nk). rewrite Sm. split; [reflexivity | apply Same; exact Nk].
  - intros x m I. apply M in I as [Hx I]. apply C in I as [(z & v1 & I & Ez & F)|[A I]].
    + assert (Hz : In z (map fst cs)) by (apply in_fst; eauto). assert (z = x) as -> by (apply Inj; auto).
      destruct (find_item (dict_key x) (as_mapping ds)) as [v2|] eqn:Fd.
      * apply F1 in Fd; [|exact Hz]. left. exists v1, v2. auto.
      * subst v1. right; left. split; [exact I|]. intros J. apply in_fst in J as [v2 J]. apply F1 in J; [congruence | exact Hz].
    + apply as_mapping_in in I as (z & Ez & I). assert (Hz : In z (map fst ds)) by (apply in_fst; eauto).
      assert (z = x) as -> by (apply Inj; auto). right; right. split; [exact I|]. intros J. apply A. apply in_map; exact J.
Qed.

Lemma alike_refl : forall k, alike k k.
Proof. left; reflexivity. Qed.

Lemma keyed_inv : forall {V : Type} k (cs : list (key * tree V)), keyed (Node k cs) -> keys_ok k (map fst cs) /\ forall x c, In (x, c) cs -> keyed c.
Proof. intros V k cs H; inversion_clear H; auto. Qed.

Lemma map_fst_length : forall {A B : Type} (l m : list (A * B)), map fst l = map fst m -> List.length l = List.length m.
Proof. intros A B l m H. rewrite <- (map_length fst l), H, map_length. reflexivity. Qed.

(** Compatible trees are merged. *)
Lemma merge_rel : forall {V : Type} (kl : key -> V) ow (t1 t2 : tree V), keyed t1 -> keyed t2 -> compatible t1 t2 -> (ow = false -> same_shape t1 t2) ->
  exists m, recursive_merge kl ow t1 t2 = Ok m /\ Merged t1 t2 m.
Proof.
  intros V kl ow t1. induction t1 as [v|k cs F] using tree_ind'; intros t2 K1 K2 Co Sh.
  { exists (Leaf v). split; [|apply (Merged_leaf (Leaf v) t2); left; exact I].
    rewrite merge_leaf; [reflexivity | left; exact I|]. destruct ow; [auto|]. specialize (Sh eq_refl). inversion Sh. auto. }
  assert (LL : leaf_like (Node k cs) \/ leaf_like t2 \/ (k <> KNone /\ exists l ds, t2 = Node l ds /\ l <> KNone)).
  { destruct t2 as [w|l ds]; [right; left; exact I|]. destruct (kind_eqb k KNone) eqn:E; [apply kind_eqb_true in E; left; exact E|].
    destruct (kind_eqb l KNone) eqn:E'; [apply kind_eqb_true in E'; right; left; exact E'|].
    right; right. split; [intros ->; discriminate|]. exists l, ds. split; [reflexivity|]. intros ->; discriminate. }
  assert (LEAF : leaf_like (Node k cs) \/ leaf_like t2 -> exists m, recursive_merge kl ow (Node k cs) t2 = Ok m /\ Merged (Node k cs) t2 m).
  { intros L. eexists. split; [apply merge_leaf; [exact L|] | apply Merged_leaf; exact L].
    destruct ow; [auto|]. specialize (Sh eq_refl). inversion Sh; subst. right. cbn. apply kind_eqb_true. reflexivity. }
  destruct LL as [L|[L|(Nk & l & ds & -> & Nl)]]; [apply LEAF; auto | apply LEAF; auto|].
  inversion Co as [s t L|k' l' cs' ds' Al Sa Ch]; subst.
  { destruct L as [L|L]; cbn in L; congruence. }
  destruct (keyed_inv _ _ K1) as [Kc Sc]. destruct (keyed_inv _ _ K2) as [Kd Sd]. rewrite Forall_forall in F.
  rewrite merge_node.
  assert (T : negb (kind_eqb k l) && negb ow = false).
  { destruct ow; [apply andb_false_r|]. specialize (Sh eq_refl). inversion Sh; subst. rewrite (proj2 (kind_eqb_true l l) eq_refl). reflexivity. }
  rewrite T.
  assert (NL : is_leaf_node_or_none (Node k cs) || is_leaf_node_or_none (Node l ds) = false).
  { apply orb_false_iff. split; apply not_true_iff_false; rewrite leaf_like_iff; cbn; assumption. }
  rewrite NL.
  assert (RM : forall x c d, In (x, c) cs -> In (x, d) ds -> exists m, recursive_merge kl ow c d = Ok m /\ Merged c d m).
  { intros x c d Ic Id. apply (F (x, c)); auto; [eapply Sc; eauto | eapply Sd; eauto | eapply Ch; eauto|].
    intros O. specialize (Sh O). inversion Sh; subst. eauto. }
  assert (MAP : k = KDict \/ (exists c, k = KNamed c) -> l = k ->
    exists m, rmap (rebuild k (map fst cs)) (gom (recursive_merge kl ow) (as_mapping ds) cs (as_mapping ds)) = Ok m /\ Merged (Node k cs) (Node l ds) m).
  { intros K ->. 
    assert (Inj : forall x y, In x (map fst cs) -> In y (map fst ds) -> dict_key x = dict_key y -> x = y).
    { intros x y Hx Hy E. destruct K as [->|[c ->]]; destruct Kc as [_ Dc], Kd as [_ Dd]; destruct (Dc x Hx) as [? ->], (Dd y Hy) as [? ->]; cbn in E; congruence. }
    assert (Nd : NoDup (map fst (as_mapping ds))).
    { rewrite as_mapping_fst. destruct K as [->|[c ->]]; destruct Kd as [Nd Dd]; [rewrite dict_key_id; auto | apply named_keys; auto]. }
    assert (Nc : NoDup (map dict_key (map fst cs))).
    { destruct K as [->|[c ->]]; destruct Kc as [Nc Dc]; [rewrite dict_key_id; auto | apply named_keys; auto]. }
    assert (Hok : forall x v1 v2, In (x, v1) cs -> find_item (dict_key x) (as_mapping ds) = Some v2 -> In (x, v2) ds).
    { intros x v1 v2 I Fi. apply find_item_in in Fi; [|exact Nd]. apply as_mapping_in in Fi as (y & E & J).
      rewrite (Inj x y); auto; apply in_fst; eauto. }
    destruct (gom_spec (recursive_merge kl ow) (as_mapping ds) cs (as_mapping ds) Nc Nd) as (ms0 & G & Nms & C).
    { intros x v1 v2 I Fi. destruct (RM x v1 v2) as (m & Hm & _); eauto. }
    destruct (mapping_merged (recursive_merge kl ow) k cs ds ms0) as (ms & R & KO & SS & I1 & I2); auto.
    { intros x v1 v2 I Fi. destruct (RM x v1 v2) as (m & Hm & _); eauto. }
    rewrite G. cbn [rmap]. rewrite R. eexists. split; [reflexivity|]. apply Merged_node; auto using alike_refl.
    intros x m I. destruct (I2 x m I) as [(c & d & Ic & Id & Hm)|J]; [|right; exact J]. left. exists c, d. split; [exact Ic|]. split; [exact Id|].
    destruct (RM x c d Ic Id) as (m' & Hm' & Me). congruence. }
  assert (SEQ : is_sequence k = true -> is_sequence l = true ->
    exists m, (if negb (List.length cs =? List.length ds) then Err ValueError else rmap (Node k) (gos (recursive_merge kl ow) cs (map snd ds))) = Ok m /\ Merged (Node k cs) (Node l ds) m).
  { intros Sk Sl. assert (E : map fst cs = map fst ds) by (apply Sa; intros ->; discriminate).
    rewrite (map_fst_length _ _ E), Nat.eqb_refl. cbn [negb].
    assert (Nc : NoDup (map fst cs)) by (eapply keys_ok_nodup; exact Kc).
    destruct (gos_spec (recursive_merge kl ow) cs ds E) as (ms & G & F1 & F2); auto.
    { intros x e1 e2 I1 I2. destruct (RM x e1 e2 I1 I2) as (m & Hm & _); eauto. }
    rewrite G. eexists. split; [reflexivity|]. apply Merged_node; auto.
    - rewrite F1; exact Kc.
    - intros _; rewrite F1; auto.
    - intros x. rewrite F1, <- E. tauto.
    - intros x m I. destruct (F2 x m I) as (e1 & e2 & J1 & J2 & Hm). left. exists e1, e2. split; [exact J1|]. split; [exact J2|].
      destruct (RM x e1 e2 J1 J2) as (m' & Hm' & Me). congruence. }
  cbn zeta. destruct Al as [<-|[Sk Sl]].
  - destruct k; try congruence; [apply MAP; auto | apply SEQ; auto | apply SEQ; auto | apply MAP; eauto].
  - destruct k; try discriminate; destruct l; try discriminate; apply SEQ; auto.
Qed.

(** Merging without overwriting only succeeds for trees of the same shape. *)
Lemma merge_strict : forall {V : Type} (kl : key -> V) fields (t1 t2 m : tree V), keyed t1 -> keyed t2 -> classes fields t1 -> classes fields t2 ->
  recursive_merge kl false t1 t2 = Ok m -> same_shape t1 t2.
Proof.
  intros V kl fields t1. induction t1 as [v|k cs F] using tree_ind'; intros t2 m K1 K2 C1 C2 H.
  { destruct t2 as [w|l ds]; [constructor|]. cbn in H. discriminate. }
  destruct t2 as [w|l ds]; [cbn in H; discriminate|].
  rewrite merge_node in H. destruct (kind_eqb k l) eqn:E; [|discriminate]. apply kind_eqb_true in E as <-. cbn [negb andb] in H.
  destruct (keyed_inv _ _ K1) as [Kc Sc]. destruct (keyed_inv _ _ K2) as [Kd Sd].
  inversion C1 as [|? ? Cc1 Cc2]; subst. inversion C2 as [|? ? Cd1 Cd2]; subst. rewrite Forall_forall in F.
  assert (RM : (forall x c d, In (x, c) cs -> In (x, d) ds -> exists m', recursive_merge kl false c d = Ok m') -> forall x c d, In (x, c) cs -> In (x, d) ds -> same_shape c d).
  { intros R x c d Ic Id. destruct (R x c d Ic Id) as [m' Hm']. apply (F (x, c) Ic d m'); eauto. }
  assert (MAP : k = KDict \/ (exists c, k = KNamed c) ->
    rmap (rebuild k (map fst cs)) (gom (recursive_merge kl false) (as_mapping ds) cs (as_mapping ds)) = Ok m -> same_shape (Node k cs) (Node k ds)).
  { intros K G. destruct (gom _ _ _ _) as [ms|] eqn:Go; [|discriminate]. constructor.
    - intros Nk. destruct K as [->|[c ->]]; [congruence|]. rewrite (Cc1 c), (Cd1 c); reflexivity.
    - apply RM. intros x c d Ic Id. eapply gom_inv; [exact Go | exact Ic|].
      assert (Nd : NoDup (map fst (as_mapping ds))).
      { rewrite as_mapping_fst. destruct K as [->|[n ->]]; destruct Kd as [Nd Dd]; [rewrite dict_key_id; auto | apply named_keys; auto]. }
      apply find_item_in; [exact Nd|]. apply as_mapping_in. eauto. }
  assert (SEQ : is_sequence k = true ->
    (if negb (List.length cs =? List.length ds) then Err ValueError else rmap (Node k) (gos (recursive_merge kl false) cs (map snd ds))) = Ok m -> same_shape (Node k cs) (Node k ds)).
  { intros Sk G. destruct (List.length cs =? List.length ds) eqn:L; [|discriminate]. apply Nat.eqb_eq in L. cbn [negb] in G.
    assert (E : map fst cs = map fst ds).
    { destruct k; try discriminate; cbn in Kc, Kd; rewrite Kc, Kd, !map_length, L; reflexivity. }
    destruct (gos (recursive_merge kl false) cs (map snd ds)) as [ms|] eqn:Go; [|discriminate G]. constructor; [auto|]. apply RM.
    eapply gos_inv; [exact E | eapply keys_ok_nodup; exact Kc | exact Go]. }
  destruct k; cbn [is_leaf_node_or_none is_none orb] in H; cbn zeta in H; auto.
  - apply MAP; eauto.
  - cbn in Kc, Kd. apply map_eq_nil in Kc, Kd. subst. constructor; [auto | intros x c d []].
Qed.

Lemma same_compatible : forall {V : Type} (t1 t2 : tree V), same_shape t1 t2 -> compatible t1 t2.
Proof.
  intros V t1 t2 H. induction H as [v w|k cs ds E H IH]; [apply compatible_leaf; left; exact I|]. apply compatible_node; auto using alike_refl.
Qed.

(** Looking up in merged trees. *)
Lemma at_node : forall {V : Type} k (cs : list (key * tree V)) x p s, at_path (Node k cs) (x :: p) s <-> exists c, In (x, c) cs /\ at_path c p s.
Proof.
  intros V k cs x p s. split.
  - intros H; inversion H; subst; eauto.
  - intros (c & I & H). econstructor; eauto.
Qed.

Lemma at_nil : forall {V : Type} (t s : tree V), at_path t [] s <-> s = t.
Proof. intros V t s. split; [intros H; inversion H; auto | intros ->; constructor]. Qed.

Lemma at_leaf : forall {V : Type} v p (s : tree V), at_path (Leaf v) p s <-> p = [] /\ s = Leaf v.
Proof. intros V v p s. split; [intros H; inversion H; auto | intros [-> ->]; constructor]. Qed.

Lemma governs_nil : forall {V : Type} (t : tree V), governs t [] <-> is_none t = false.
Proof.
  intros V t. split.
  - intros (q & r & s & E & A & H). symmetry in E. apply app_eq_nil in E as [-> ->]. apply at_nil in A; subst s.
    destruct H as [[v ->]|[_ H]]; [reflexivity|]. destruct t as [v|[]]; auto. exfalso; eapply H; reflexivity.
  - intros H. exists [], [], t. split; [reflexivity|]. split; [constructor|]. right. split; [reflexivity|]. intros cs ->; discriminate.
Qed.

Lemma governs_leaf : forall {V : Type} (v : V) p, governs (Leaf v) p.
Proof. intros V v p. exists [], p, (Leaf v). split; [reflexivity|]. split; [constructor | left; eauto]. Qed.

Lemma governs_cons : forall {V : Type} k (cs : list (key * tree V)) x p, governs (Node k cs) (x :: p) <-> exists c, In (x, c) cs /\ governs c p.
Proof.
  intros V k cs x p. split.
  - intros (q & r & s & E & A & H). destruct q as [|y q].
    + apply at_nil in A; subst s. cbn in E. destruct H as [[v H]|[H _]]; [discriminate | subst r; discriminate].
    + cbn in E. injection E as <- ->. apply at_node in A as (c & I & A). exists c. split; [exact I|]. exists q, r, s. auto.
  - intros (c & I & q & r & s & -> & A & H). exists (x :: q), r, s. split; [reflexivity|]. split; [econstructor; eauto | exact H].
Qed.

Lemma governs_none : forall {V : Type} (t : tree V) p, is_none t = true -> keyed t -> ~ governs t p.
Proof.
  intros V t p N K. destruct t as [v|[]]; try discriminate. destruct (keyed_inv _ _ K) as [E _]. cbn in E. apply map_eq_nil in E; subst.
  destruct p as [|x p]; [rewrite governs_nil; cbn; discriminate|]. rewrite governs_cons. intros (c & [] & _).
Qed.

Lemma leaf_governs : forall {V : Type} (t : tree V) p v, at_path t p (Leaf v) -> governs t p.
Proof. intros V t p v H. exists p, [], (Leaf v). split; [rewrite app_nil_r; reflexivity|]. split; [exact H | left; eauto]. Qed.

Lemma merged_path : forall {V : Type} (t1 t2 m : tree V), Merged t1 t2 m -> keyed t1 -> keyed t2 ->
  forall p v, at_path m p (Leaf v) <-> at_path t1 p (Leaf v) \/ (~ governs t1 p /\ at_path t2 p (Leaf v)).
Proof.
  fix REC 5. intros V t1 t2 m H. destruct H as [t1 t2 L|k l cs ds ms Al Nk Nl KO SS I1 I2]; intros K1 K2 p v.
  - destruct (is_none t1) eqn:N.
    + split; [intros A; right; split; [apply governs_none; auto | exact A]|]. intros [A|[_ A]]; [|exact A].
      exfalso. eapply (governs_none t1 p); eauto. eapply leaf_governs; eauto.
    + split; [auto|]. intros [A|[G A]]; [exact A|]. exfalso.
      destruct p as [|x p]; [apply G; apply governs_nil; exact N|].
      destruct L as [L|L].
      * destruct t1 as [w|[]]; cbn in *; try congruence. apply G. apply governs_leaf.
      * destruct t2 as [w|[]]; cbn in L; try congruence; [inversion A|].
        destruct (keyed_inv _ _ K2) as [E _]. cbn in E. apply map_eq_nil in E; subst. apply at_node in A as (c & [] & _).
  - destruct (keyed_inv _ _ K1) as [Kc Sc]. destruct (keyed_inv _ _ K2) as [Kd Sd].
    assert (Nc := keys_ok_nodup _ _ Kc). assert (Nd := keys_ok_nodup _ _ Kd). assert (Nm := keys_ok_nodup _ _ KO).
    destruct p as [|x p].
    + rewrite !at_nil. split; [discriminate|]. intros [A|[_ A]]; discriminate.
    + rewrite !at_node. rewrite governs_cons. split.
      * intros (m & I & A). destruct (I2 x m I) as [(c & d & Ic & Id & M)|[[Ic Nid]|[Id Nic]]].
        -- destruct (proj1 (REC V c d m M (Sc _ _ Ic) (Sd _ _ Id) p v) A) as [A'|[G A']]; [left; eauto|].
           right. split; [|eauto]. intros (c' & Ic' & G'). rewrite (fst_unique cs x c' c Nc Ic' Ic) in G'. auto.
        -- left; eauto.
        -- right. split; [|eauto]. intros (c & Ic & _). apply Nic. apply in_fst; eauto.
      * intros [(c & Ic & A)|[G (d & Id & A)]].
        -- assert (Hx : In x (map fst ms)) by (apply I1; left; apply in_fst; eauto). apply in_fst in Hx as [m I]. exists m. split; [exact I|].
           destruct (I2 x m I) as [(c' & d & Ic' & Id & M)|[[Ic' Nid]|[Id Nic]]].
           ++ rewrite (fst_unique cs x c c' Nc Ic Ic') in A. apply (REC V c' d m M (Sc _ _ Ic') (Sd _ _ Id)). auto.
           ++ rewrite <- (fst_unique cs x c m Nc Ic Ic'). exact A.
           ++ exfalso. apply Nic. apply in_fst; eauto.
        -- assert (Hx : In x (map fst ms)) by (apply I1; right; apply in_fst; eauto). apply in_fst in Hx as [m I]. exists m. split; [exact I|].
           destruct (I2 x m I) as [(c & d' & Ic & Id' & M)|[[Ic Nid]|[Id' Nic]]].
           ++ rewrite (fst_unique ds x d d' Nd Id Id') in A. apply (REC V c d' m M (Sc _ _ Ic) (Sd _ _ Id')). right. split; [|exact A]. intros Gc. apply G; eauto.
           ++ exfalso. apply Nid. apply in_fst; eauto.
           ++ rewrite <- (fst_unique ds x d m Nd Id Id'). exact A.
Qed.

Lemma merged_keyed : forall {V : Type} (t1 t2 m : tree V), Merged t1 t2 m -> keyed t1 -> keyed t2 -> keyed m.
Proof.
  fix REC 5. intros V t1 t2 m H. destruct H as [t1 t2 L|k l cs ds ms Al Nk Nl KO SS I1 I2]; intros K1 K2.
  - destruct (is_none t1); auto.
  - destruct (keyed_inv _ _ K1) as [Kc Sc]. destruct (keyed_inv _ _ K2) as [Kd Sd]. constructor; [exact KO|].
    intros x m I. destruct (I2 x m I) as [(c & d & Ic & Id & M)|[[Ic Nid]|[Id Nic]]]; eauto.
Qed.

Lemma merged_classes : forall {V : Type} fields (t1 t2 m : tree V), Merged t1 t2 m -> classes fields t1 -> classes fields t2 -> classes fields m.
Proof.
  fix REC 6. intros V fields t1 t2 m H. destruct H as [t1 t2 L|k l cs ds ms Al Nk Nl KO SS I1 I2]; intros C1 C2.
  - destruct (is_none t1); auto.
  - inversion C1 as [|? ? Cc1 Cc2]; subst. inversion C2 as [|? ? Cd1 Cd2]; subst. constructor.
    + intros c E. destruct SS as [SS _]; [congruence|]. rewrite SS. auto.
    + intros x m I. destruct (I2 x m I) as [(c & d & Ic & Id & M)|[[Ic Nid]|[Id Nic]]]; eauto.
Qed.

Lemma compatible_inv : forall {V : Type} k l (cs ds : list (key * tree V)), compatible (Node k cs) (Node l ds) -> k <> KNone -> l <> KNone ->
  alike k l /\ (k <> KDict -> map fst cs = map fst ds) /\ (forall x c d, In (x, c) cs -> In (x, d) ds -> compatible c d).
Proof. intros V k l cs ds H Nk Nl. inversion H as [s t L|? ? ? ? A B C]; subst; [destruct L as [L|L]; cbn in L; congruence | auto]. Qed.

Lemma merged_compatible : forall {V : Type} (b a m : tree V), Merged b a m -> forall t, compatible t b -> compatible t a -> compatible t m.
Proof.
  fix REC 5. intros V b a m H. destruct H as [b a L|k l cs ds ms Al Nk Nl KO SS I1 I2]; intros t Cb Ca.
  - destruct (is_none b); auto.
  - destruct t as [v|kt ts]; [apply compatible_leaf; left; exact I|].
    destruct (kind_eqb kt KNone) eqn:E; [apply kind_eqb_true in E; apply compatible_leaf; left; exact E|].
    assert (Nt : kt <> KNone) by (intros ->; discriminate).
    destruct (compatible_inv _ _ _ _ Cb Nt Nk) as (A1 & A2 & A3). destruct (compatible_inv _ _ _ _ Ca Nt Nl) as (B1 & B2 & B3).
    apply compatible_node; [exact A1 | |].
    + intros Nd. rewrite (A2 Nd). symmetry. apply SS. intros ->. destruct A1 as [A1|[A1 A1']]; [congruence | discriminate].
    + intros x c m Ic I. destruct (I2 x m I) as [(c' & d & Ic' & Id & M)|[[Ic' Nid]|[Id Nic]]].
      * exact (REC V c' d m M c (A3 _ _ _ Ic Ic') (B3 _ _ _ Ic Id)).
      * eauto.
      * eauto.
Qed.

Lemma merged_same : forall {V : Type} (b a m : tree V), Merged b a m -> forall t, same_shape t b -> same_shape t a -> same_shape t m.
Proof.
  fix REC 5. intros V b a m H. destruct H as [b a L|k l cs ds ms Al Nk Nl KO SS I1 I2]; intros t Cb Ca.
  - destruct (is_none b); auto.
  - inversion Cb as [|? ts ? A2 A3]; subst. inversion Ca as [|? ? ? B2 B3]; subst. constructor.
    + intros Nd. rewrite (A2 Nd). symmetry. apply SS. exact Nd.
    + intros x c m Ic I. destruct (I2 x m I) as [(c' & d & Ic' & Id & M)|[[Ic' Nid]|[Id Nic]]].
      * exact (REC V c' d m M c (A3 _ _ _ Ic Ic') (B3 _ _ _ Ic Id)).
      * eauto.
      * eauto.
Qed.

Lemma collide_child : forall {V : Type} k l (cs ds : list (key * tree V)) x c d, In (x, c) cs -> In (x, d) ds -> collide c d -> collide (Node k cs) (Node l ds).
Proof.
  intros V k l cs ds x c d Ic Id (p & q & a & b & A & B & La & Lb & E). exists (x :: p), (x :: q), a, b.
  split; [econstructor; eauto|]. split; [econstructor; eauto|]. split; [exact La|]. split; [exact Lb|]. unfold tuple_path_from_keypath in *. cbn [map]. congruence.
Qed.

Lemma merged_union : forall {V : Type} (t1 t2 m : tree V), Merged t1 t2 m -> keyed t1 -> keyed t2 -> same_shape t1 t2 -> ~ collide t1 t2 ->
  forall p s, leaf_like s -> (at_path m p s <-> at_path t1 p s \/ at_path t2 p s).
Proof.
  fix REC 5. intros V t1 t2 m H. destruct H as [t1 t2 L|k l cs ds ms Al Nk Nl KO SS I1 I2]; intros K1 K2 Sh NC p s Ls.
  - exfalso. apply NC. exists [], [], t1, t2.
    assert (leaf_like t1 /\ leaf_like t2) as [L1 L2]. { destruct Sh; cbn in *; tauto. }
    split; [constructor|]. split; [constructor|]. auto.
  - destruct (keyed_inv _ _ K1) as [Kc Sc]. destruct (keyed_inv _ _ K2) as [Kd Sd].
    assert (Nc := keys_ok_nodup _ _ Kc). assert (Nd := keys_ok_nodup _ _ Kd).
    inversion Sh as [|? ? ? A2 A3]; subst.
    destruct p as [|x p].
    + rewrite !at_nil. split; [intros E|intros [E|E]]; subst; cbn in Ls; congruence.
    + rewrite !at_node. split.
      * intros (m & I & A). destruct (I2 x m I) as [(c & d & Ic & Id & M)|[[Ic Nid]|[Id Nic]]]; [|eauto..].
        assert (X := proj1 (REC V c d m M (Sc _ _ Ic) (Sd _ _ Id) (A3 _ _ _ Ic Id) (fun C => NC (collide_child _ _ _ _ _ _ _ Ic Id C)) p s Ls) A).
        destruct X; eauto.
      * intros [(c & Ic & A)|(d & Id & A)].
        -- assert (Hx : In x (map fst ms)) by (apply I1; left; apply in_fst; eauto). apply in_fst in Hx as [m I]. exists m. split; [exact I|].
           destruct (I2 x m I) as [(c' & d & Ic' & Id & M)|[[Ic' Nid]|[Id Nic]]].
           ++ rewrite (fst_unique cs x c c' Nc Ic Ic') in A.
              exact (proj2 (REC V c' d m M (Sc _ _ Ic') (Sd _ _ Id) (A3 _ _ _ Ic' Id) (fun C => NC (collide_child _ _ _ _ _ _ _ Ic' Id C)) p s Ls) (or_introl A)).
           ++ rewrite <- (fst_unique cs x c m Nc Ic Ic'). exact A.
           ++ exfalso. apply Nic. apply in_fst; eauto.
        -- assert (Hx : In x (map fst ms)) by (apply I1; right; apply in_fst; eauto). apply in_fst in Hx as [m I]. exists m. split; [exact I|].
           destruct (I2 x m I) as [(c & d' & Ic & Id' & M)|[[Ic Nid]|[Id' Nic]]].
           ++ rewrite (fst_unique ds x d d' Nd Id Id') in A.
              exact (proj2 (REC V c d' m M (Sc _ _ Ic) (Sd _ _ Id') (A3 _ _ _ Ic Id') (fun C => NC (collide_child _ _ _ _ _ _ _ Ic Id' C)) p s Ls) (or_intror A)).
           ++ exfalso. apply Nid. apply in_fst; eauto.
           ++ rewrite <- (fst_unique ds x d m Nd Id Id'). exact A.
Qed.

(** Flattened keys. *)
Lemma flat_keys_node : forall {V : Type} k (cs : list (key * tree V)), k <> KNone ->
  flat_keys (Node k cs) = flat_map (fun x => map (cons (str_name (fst x))) (snd x)) (order k (map_items flat_keys cs)).
Proof. intros V k cs N. destruct k; try congruence; reflexivity. Qed.

Lemma flat_keys_spec : forall {V : Type} (t : tree V) ks, keyed t ->
  (In ks (flat_keys t) <-> exists p s, at_path t p s /\ leaf_like s /\ tuple_path_from_keypath p = ks).
Proof.
  intros V t. induction t as [v|k cs F] using tree_ind'; intros ks K.
  - cbn. split.
    + intros [<-|[]]. exists [], (Leaf v). split; [constructor | split; [exact I | reflexivity]].
    + intros (p & s & A & L & E). apply at_leaf in A as [-> ->]. left; exact E.
  - destruct (keyed_inv _ _ K) as [Kc Sc]. rewrite Forall_forall in F.
    destruct (kind_eqb k KNone) eqn:Ek.
    + apply kind_eqb_true in Ek. subst. cbn in Kc. apply map_eq_nil in Kc; subst cs. cbn. split.
      * intros [<-|[]]. exists [], (Node KNone []). split; [constructor | split; [reflexivity | reflexivity]].
      * intros (p & s & A & L & E). destruct p as [|x p]; [left; exact E|]. apply at_node in A as (c & [] & _).
    + assert (Nk : k <> KNone) by (intros ->; discriminate). rewrite flat_keys_node by exact Nk. rewrite in_flat_map. split.
      * intros ([x l] & I & J). rewrite order_in in I. unfold map_items in I. apply in_map_iff in I as ([y c] & E & I). cbn in E. injection E as <- <-.
        apply in_map_iff in J as (ks' & <- & J). cbn [fst snd] in *. apply (F (y, c) I ks' (Sc _ _ I)) in J as (p & s & A & L & <-).
        exists (y :: p), s. split; [econstructor; eauto | split; [exact L | reflexivity]].
      * intros (p & s & A & L & <-). destruct p as [|x p]; [apply at_nil in A; subst; cbn in L; congruence|].
        apply at_node in A as (c & I & A). exists (x, flat_keys c). split.
        -- rewrite order_in. unfold map_items. apply in_map_iff. exists (x, c). auto.
        -- cbn [fst snd]. apply in_map_iff. exists (tuple_path_from_keypath p). split; [reflexivity|].
           apply (F (x, c) I _ (Sc _ _ I)). exists p, s. auto.
Qed.

Lemma flat_key_eqb_iff : forall a b, flat_key_eqb a b = true <-> a = b.
Proof. intros a b. unfold flat_key_eqb. destruct (list_eq_dec string_dec a b); split; congruence. Qed.

Lemma common_dec : forall {V : Type} (t : tree V) seen,
  existsb (fun k => existsb (flat_key_eqb k) seen) (flat_keys t) = true <-> exists k, In k (flat_keys t) /\ In k seen.
Proof.
  intros V t seen. rewrite existsb_exists. split.
  - intros (k & I & E). apply existsb_exists in E as (k' & I' & E). apply flat_key_eqb_iff in E; subst. eauto.
  - intros (k & I & J). exists k. split; [exact I|]. apply existsb_exists. exists k. split; [exact J | apply flat_key_eqb_iff; reflexivity].
Qed.

Lemma collide_keys : forall {V : Type} (s t : tree V), keyed s -> keyed t -> (collide s t <-> exists k, In k (flat_keys s) /\ In k (flat_keys t)).
Proof.
  intros V s t Ks Kt. split.
  - intros (p & q & a & b & A & B & La & Lb & E). exists (tuple_path_from_keypath p). split; apply flat_keys_spec; auto; [exists p, a | exists q, b]; auto.
  - intros (k & I & J). apply flat_keys_spec in I as (p & a & A & La & E); auto. apply flat_keys_spec in J as (q & b & B & Lb & E'); auto.
    exists p, q, a, b. split; [exact A|]. split; [exact B|]. split; [exact La|]. split; [exact Lb|]. congruence.
Qed.

Lemma check_spec : forall {V : Type} (ts : list (tree V)) seen, Forall keyed ts ->
  (check_for_common_keys seen ts = Ok tt /\ pairwise (fun s t => ~ collide s t) ts /\ forall t k, In t ts -> In k (flat_keys t) -> ~ In k seen)
  \/ (check_for_common_keys seen ts = Err ValueError /\ ((exists t k, In t ts /\ In k (flat_keys t) /\ In k seen) \/ ~ pairwise (fun s t => ~ collide s t) ts)).
Proof.
  intros V ts. induction ts as [|t ts IH]; intros seen K.
  - left. split; [reflexivity|]. split; [exact I | intros t k []].
  - inversion_clear K as [|? ? K1 K2]. cbn [check_for_common_keys].
    destruct (existsb _ (flat_keys t)) eqn:E.
    + right. split; [reflexivity|]. left. apply common_dec in E as (k & A & B). exists t, k. split; [left; reflexivity | auto].
    + assert (NE : forall k, In k (flat_keys t) -> ~ In k seen).
      { intros k A B. assert (X : existsb (fun k => existsb (flat_key_eqb k) seen) (flat_keys t) = true) by (apply common_dec; eauto). congruence. }
      rewrite Forall_forall in K2. destruct (IH (seen ++ flat_keys t)) as [(R & P & N)|(R & B)]; [apply Forall_forall; exact K2 | left | right].
      * split; [exact R|]. split.
        -- split; [|exact P]. intros u Hu C. apply collide_keys in C as (k & A & B); auto. apply (N u k Hu B). apply in_or_app; auto.
        -- intros u k [<-|Hu] Hk; [auto|]. intros B. apply (N u k Hu Hk). apply in_or_app; auto.
      * split; [exact R|]. destruct B as [(u & k & Hu & Hk & B)|B].
        -- apply in_app_or in B as [B|B].
           ++ left. exists u, k. split; [right; exact Hu | auto].
           ++ right. intros [P _]. apply (P u Hu). apply collide_keys; eauto.
        -- right. intros [_ P]. auto.
Qed.

(** Many trees. *)
Definition fold_merge {V : Type} (kl : key -> V) ow (r : list (tree V)) (acc : result (tree V)) : result (tree V) :=
  fold_left (fun acc t => rbind acc (recursive_merge kl ow t)) r acc.

Fixpoint decided {V : Type} (ts : list (tree V)) (p : path) (v : V) : Prop :=
  match ts with
  | [] => False
  | t :: r => decided r p v \/ (at_path t p (Leaf v) /\ forall u, In u r -> ~ governs u p)
  end.

Lemma decided_iff : forall {V : Type} (ts : list (tree V)) p v, decided ts p v <->
  exists before t after, ts = before ++ t :: after /\ at_path t p (Leaf v) /\ forall u, In u after -> ~ governs u p.
Proof.
  intros V ts p v. induction ts as [|t ts IH]; cbn [decided].
  - split; [intros [] | intros (b & t & a & E & _)]. destruct b; discriminate.
  - rewrite IH. split.
    + intros [(b & t' & a & -> & A & G)|[A G]]; [exists (t :: b), t', a; auto | exists [], t, ts; auto].
    + intros ([|t0 b] & t' & a & E & A & G); cbn in E; injection E as -> ->; [right; split; assumption | left; exists b, t', a; split; [reflexivity | split; assumption]].
Qed.

Lemma fold_overwrite : forall {V : Type} (kl : key -> V) r acc, keyed acc -> Forall keyed r ->
  (forall t, In t r -> compatible t acc) -> pairwise (fun s t => compatible t s) r ->
  exists m, fold_merge kl true r (Ok acc) = Ok m /\ keyed m /\ forall p v, at_path m p (Leaf v) <-> decided (acc :: r) p v.
Proof.
  intros V kl. induction r as [|t r IH]; intros acc Ka Kr Ca Cr.
  - exists acc. split; [reflexivity|]. split; [exact Ka|]. intros p v. cbn. split; [intros A; right; split; [exact A | intros u []] | intros [[]|[A _]]; exact A].
  - inversion_clear Kr as [|? ? Kt Kr']. destruct Cr as [C1 C2].
    destruct (merge_rel kl true t acc Kt Ka) as (m & E & M); [apply Ca; left; reflexivity | discriminate|].
    destruct (IH m) as (m' & E' & K' & P'); auto.
    { eapply merged_keyed; eauto. }
    { intros u Hu. eapply merged_compatible; [exact M | apply C1; exact Hu | apply Ca; right; exact Hu]. }
    exists m'. split; [cbn [fold_merge fold_left rbind]; unfold fold_merge in E'; rewrite E; exact E'|]. split; [exact K'|].
    intros p v. rewrite P'. cbn [decided]. rewrite (merged_path _ _ _ M Kt Ka). split.
    + intros [D|[[A|[G A]] N]]; [left; auto | left; right; auto | right; split; [exact A|]]. intros u [<-|Hu]; auto.
    + intros [[D|[A N]]|[A N]]; [left; auto | right; auto|]. right. split; [right; split; [apply N; left; reflexivity | exact A]|]. intros u Hu; apply N; right; exact Hu.
Qed.

Lemma not_collide_sym : forall {V : Type} (s t : tree V), collide s t -> collide t s.
Proof. intros V s t (p & q & a & b & A & B & La & Lb & E). exists q, p, b, a. auto 7. Qed.

Lemma collide_merged : forall {V : Type} (t b a m : tree V), (forall p s, leaf_like s -> (at_path m p s <-> at_path b p s \/ at_path a p s)) ->
  collide t m -> collide t b \/ collide t a.
Proof.
  intros V t b a m U (p & q & x & y & A & B & Lx & Ly & E). apply U in B as [B|B]; auto; [left | right]; exists p, q, x, y; auto 7.
Qed.

Lemma fold_union : forall {V : Type} (kl : key -> V) r acc, keyed acc -> Forall keyed r ->
  (forall t, In t r -> same_shape t acc) -> pairwise (fun s t => same_shape t s) r ->
  (forall t, In t r -> ~ collide acc t) -> pairwise (fun s t => ~ collide s t) r ->
  exists m, fold_merge kl false r (Ok acc) = Ok m /\ forall p s, leaf_like s -> (at_path m p s <-> exists t, In t (acc :: r) /\ at_path t p s).
Proof.
  intros V kl. induction r as [|t r IH]; intros acc Ka Kr Ca Cr Na Nr.
  - exists acc. split; [reflexivity|]. intros p s _. split; [intros A; exists acc; split; [left; reflexivity | exact A] | intros (t & [<-|[]] & A); exact A].
  - inversion_clear Kr as [|? ? Kt Kr']. destruct Cr as [C1 C2]. destruct Nr as [N1 N2].
    assert (St : same_shape t acc) by (apply Ca; left; reflexivity).
    destruct (merge_rel kl false t acc Kt Ka) as (m & E & M); [apply same_compatible; exact St | auto|].
    assert (U : forall p s, leaf_like s -> (at_path m p s <-> at_path t p s \/ at_path acc p s)).
    { apply (merged_union t acc m M Kt Ka St). intros C. apply (Na t); [left; reflexivity | apply not_collide_sym; exact C]. }
    destruct (IH m) as (m' & E' & P'); auto.
    { eapply merged_keyed; eauto. }
    { intros u Hu. eapply merged_same; [exact M | apply C1; exact Hu | apply Ca; right; exact Hu]. }
    { intros u Hu C. apply not_collide_sym in C. apply (collide_merged u t acc m U) in C as [C|C].
      - apply (N1 u Hu). apply not_collide_sym; exact C.
      - apply (Na u); [right; exact Hu | apply not_collide_sym; exact C]. }
    exists m'. split; [cbn [fold_merge fold_left rbind]; unfold fold_merge in E'; rewrite E; exact E'|].
    intros p s Ls. rewrite (P' p s Ls). split.
    + intros (u & [<-|Hu] & A).
      * apply U in A as [A|A]; auto; [exists t; split; [right; left; reflexivity | exact A] | exists acc; split; [left; reflexivity | exact A]].
      * exists u. split; [right; right; exact Hu | exact A].
    + intros (u & [<-|[<-|Hu]] & A).
      * exists m. split; [left; reflexivity|]. apply U; auto.
      * exists m. split; [left; reflexivity|]. apply U; auto.
      * exists u. split; [right; exact Hu | exact A].
Qed.

(** If merging without overwriting succeeds, the shapes agree. *)
Lemma fold_err : forall {V : Type} (kl : key -> V) ow r e, fold_merge kl ow r (Err e) = Err e.
Proof. intros V kl ow r e. induction r; cbn; auto. Qed.

Lemma fold_ok_union : forall {V : Type} (kl : key -> V) fields r acc m, keyed acc -> Forall keyed r -> classes fields acc -> Forall (classes fields) r ->
  (forall t, In t r -> ~ collide acc t) -> pairwise (fun s t => ~ collide s t) r ->
  fold_merge kl false r (Ok acc) = Ok m -> forall p s, leaf_like s -> (at_path m p s <-> exists t, In t (acc :: r) /\ at_path t p s).
Proof.
  intros V kl fields. induction r as [|t r IH]; intros acc m Ka Kr Fa Fr Na Nr H p s Ls.
  - cbn in H. injection H as <-. split; [intros A; exists acc; split; [left; reflexivity | exact A] | intros (t & [<-|[]] & A); exact A].
  - inversion_clear Kr as [|? ? Kt Kr']. inversion_clear Fr as [|? ? Ft Fr']. destruct Nr as [N1 N2].
    cbn [fold_merge fold_left rbind] in H. destruct (recursive_merge kl false t acc) as [m1|e] eqn:E.
    2:{ change (fold_merge kl false r (Err e) = Ok m) in H. rewrite fold_err in H. discriminate. }
    assert (St : same_shape t acc) by (eapply merge_strict; eauto).
    destruct (merge_rel kl false t acc Kt Ka) as (m1' & E' & M); [apply same_compatible; exact St | auto|].
    rewrite E in E'. injection E' as <-.
    assert (U : forall p s, leaf_like s -> (at_path m1 p s <-> at_path t p s \/ at_path acc p s)).
    { apply (merged_union t acc m1 M Kt Ka St). intros C. apply (Na t); [left; reflexivity | apply not_collide_sym; exact C]. }
    rewrite (IH m1 m) with (s := s); auto.
    + split.
      * intros (u & [<-|Hu] & A).
        -- apply U in A as [A|A]; auto; [exists t; split; [right; left; reflexivity | exact A] | exists acc; split; [left; reflexivity | exact A]].
        -- exists u. split; [right; right; exact Hu | exact A].
      * intros (u & [<-|[<-|Hu]] & A).
        -- exists m1. split; [left; reflexivity|]. apply U; auto.
        -- exists m1. split; [left; reflexivity|]. apply U; auto.
        -- exists u. split; [right; exact Hu | exact A].
    + eapply merged_keyed; eauto.
    + eapply merged_classes; eauto.
    + intros u Hu C. apply not_collide_sym in C. apply (collide_merged u t acc m1 U) in C as [C|C].
      * apply (N1 u Hu). apply not_collide_sym; exact C.
      * apply (Na u); [right; exact Hu | apply not_collide_sym; exact C].
Qed.

(** Merging a tree with itself. *)
Lemma put_same : forall {A : Type} k (v : A) l, find_item k l = Some v -> put_item k v l = l.
Proof.
  intros A k v l. induction l as [|[y w] l IH]; intros H; [discriminate|]. cbn in *. destruct (key_eqb k y); [congruence | f_equal; auto].
Qed.

Lemma gom_self : forall {V : Type} (rm : tree V -> tree V -> result (tree V)) d2 l,
  (forall x v, In (x, v) l -> find_item (dict_key x) d2 = Some v /\ rm v v = Ok v) -> gom rm d2 l d2 = Ok d2.
Proof.
  intros V rm d2 l. induction l as [|[x v] l IH]; intros H; [reflexivity|]. cbn [gom].
  destruct (H x v) as [F R]; [left; reflexivity|]. rewrite F, R. cbn [rbind]. rewrite put_same by exact F. apply IH. intros y w I; apply H; right; exact I.
Qed.

Lemma gos_self : forall {V : Type} (rm : tree V -> tree V -> result (tree V)) l,
  (forall x v, In (x, v) l -> rm v v = Ok v) -> gos rm l (map snd l) = Ok l.
Proof.
  intros V rm l. induction l as [|[x v] l IH]; intros H; [reflexivity|]. cbn [gos map snd].
  rewrite (H x v) by (left; reflexivity). cbn [rbind]. rewrite IH by (intros y w I; apply (H y); right; exact I). reflexivity.
Qed.

Lemma merge_self : forall {V : Type} (kl : key -> V) ow (t : tree V), keyed t -> recursive_merge kl ow t t = Ok t.
Proof.
  intros V kl ow t. induction t as [v|k cs F] using tree_ind'; intros K.
  - rewrite merge_leaf; [reflexivity | left; exact I | right; reflexivity].
  - destruct (keyed_inv _ _ K) as [Kc Sc]. rewrite Forall_forall in F. rewrite merge_node.
    rewrite (proj2 (kind_eqb_true k k) eq_refl). cbn [negb andb].
    assert (RM : forall x c, In (x, c) cs -> recursive_merge kl ow c c = Ok c) by (intros x c I; exact (F (x, c) I (Sc _ _ I))).
    assert (Nd : k = KDict \/ (exists c, k = KNamed c) -> NoDup (map fst (as_mapping cs))).
    { intros [->|[n ->]]; rewrite as_mapping_fst; destruct Kc as [Nd Dd]; [rewrite dict_key_id; auto | apply named_keys; auto]. }
    assert (GOM : k = KDict \/ (exists c, k = KNamed c) -> gom (recursive_merge kl ow) (as_mapping cs) cs (as_mapping cs) = Ok (as_mapping cs)).
    { intros Hk. apply gom_self. intros x v I. split; [|eauto]. apply find_item_in; [auto|]. apply as_mapping_in. eauto. }
    destruct k; cbn [is_leaf_node_or_none is_none orb]; cbn zeta; try reflexivity.
    + rewrite GOM by auto. cbn [rmap rebuild]. destruct Kc as [_ D]. rewrite as_mapping_dict; auto.
    + rewrite Nat.eqb_refl. cbn [negb]. rewrite gos_self by exact RM. reflexivity.
    + rewrite Nat.eqb_refl. cbn [negb]. rewrite gos_self by exact RM. reflexivity.
    + rewrite GOM by eauto. cbn [rmap]. unfold rebuild.
      assert (AllF : forallb (fun x : key * tree V => existsb (fun f => key_eqb (dict_key f) (fst x)) (map fst cs)) (as_mapping cs) = true).
      { apply forallb_forall. intros [y v] I. apply as_mapping_in in I as (x & E & I). apply existsb_exists. exists x. split; [apply in_fst; eauto|].
        cbn. destruct (key_eqb_spec (dict_key x) y); congruence. }
      rewrite AllF. f_equal. f_equal. assert (N := Nd (or_intror (ex_intro _ c eq_refl))).
      assert (G : forall l, (forall x v, In (x, v) l -> In (x, v) cs) ->
        flat_map (fun f => match find_item (dict_key f) (as_mapping cs) with Some v => [(f, v)] | None => [] end) (map fst l) = l).
      { induction l as [|[x v] l IH]; intros H; [reflexivity|]. cbn [map fst flat_map].
        rewrite (proj2 (find_item_in (dict_key x) v (as_mapping cs) N)). { cbn [app]. f_equal. apply IH. intros y w I; apply H; right; exact I. }
        apply as_mapping_in. exists x. split; [reflexivity | apply H; left; reflexivity]. }
      apply G; auto.
Qed.

(** ** Dictionaries and named tuples *)

Lemma named_mapping : forall {V : Type} (ds : list (string * V)), as_mapping (map (fun x => (GetAttrKey (fst x), Leaf (snd x))) ds) = map (fun x => (DictKey (KStr (fst x)), Leaf (snd x))) ds.
Proof. intros V ds. unfold as_mapping. rewrite map_map. reflexivity. Qed.

Lemma dict_mapping : forall {V : Type} (ds : list (string * V)), as_mapping (map (fun x => (DictKey (KStr (fst x)), Leaf (snd x))) ds) = map (fun x => (DictKey (KStr (fst x)), Leaf (snd x))) ds.
Proof. intros V ds. unfold as_mapping. rewrite map_map. reflexivity. Qed.

Lemma dict_keys_nodup : forall {V W : Type} (f : string -> key) (g : string * V -> W) l, (forall a b, f a = f b -> a = b) -> NoDup (map fst l) -> NoDup (map fst (map (fun x => (f (fst x), g x)) l)).
Proof.
  intros V W f g l I N. rewrite map_map. cbn [fst]. induction l as [|[s v] l IH]; [constructor|]. cbn [map fst] in *. inversion_clear N as [|? ? N1 N2]. constructor; auto. intros H. apply in_map_iff in H as ([s' v'] & E & J). apply I in E. cbn in E. subst. apply N1. apply in_map_iff. exists (s, v'). auto.
Qed.

(** What the loop makes of leaves under names. *)
Lemma gom_leaves : forall {V : Type} (kl : key -> V) (f : string -> key) (cs ds : list (string * V)), (forall s, dict_key (f s) = DictKey (KStr s)) -> NoDup (map fst cs) -> NoDup (map fst ds) ->
  let d2 := map (fun x => (DictKey (KStr (fst x)), Leaf (snd x))) ds in
  exists ms items, gom (recursive_merge kl true) d2 (map (fun x => (f (fst x), Leaf (snd x))) cs) d2 = Ok ms /\
    ms = map (fun x => (DictKey (KStr (fst x)), Leaf (snd x))) items /\ NoDup (map fst items) /\
    forall s v, In (s, v) items <-> In (s, v) cs \/ (In (s, v) ds /\ ~ In s (map fst cs)).
Proof.
  intros V kl f cs ds Hf Nc Nd d2.
  destruct (gom_spec (recursive_merge kl true) d2 (map (fun x => (f (fst x), Leaf (snd x))) cs) d2) as (ms & G & N & C).
  - rewrite map_map, map_map. cbn [fst]. replace (map (fun x : string * V => dict_key (f (fst x))) cs) with (map fst (map (fun x : string * V => (DictKey (KStr (fst x)), snd x)) cs)).
    + apply (dict_keys_nodup (fun s => DictKey (KStr s)) snd cs); auto. congruence.
    + rewrite map_map. apply map_ext. intros x. cbn [fst]. auto.
  - apply (dict_keys_nodup (fun s => DictKey (KStr s)) (fun x => Leaf (snd x)) ds); auto. congruence.
  - intros x v1 v2 I _. apply in_map_iff in I as ([s v] & E & _). injection E as <- <-. destruct v2; cbn; eauto.
  - assert (S : forall k v, In (k, v) ms -> exists s w, k = DictKey (KStr s) /\ v = Leaf w /\ (In (s, w) cs \/ (In (s, w) ds /\ ~ In s (map fst cs)))).
    { intros k v I. apply C in I as [(x & v1 & I & <- & F)|[A I]].
      - apply in_map_iff in I as ([s w] & E & I). injection E as <- <-. exists s, w. rewrite Hf in *. split; auto. split; auto. cbn [fst] in *. destruct (find_item (DictKey (KStr s)) d2) as [v2|] eqn:Fi; [|auto]. assert (L2 : exists u, v2 = Leaf u). { apply find_item_in in Fi; [|apply (dict_keys_nodup (fun s => DictKey (KStr s)) (fun x => Leaf (snd x)) ds); auto; congruence]. apply in_map_iff in Fi as (y & E & _). injection E as _ <-. eauto. } destruct L2 as (u & ->). cbn in F. congruence.
      - apply in_map_iff in I as ([s w] & E & I). injection E as <- <-. exists s, w. split; auto. split; auto. right. split; auto. intros J. apply A. rewrite map_map, map_map. cbn [fst]. apply in_map_iff in J as (y & E & J). apply in_map_iff. exists y. rewrite Hf, E. auto. }
    exists ms, (map (fun x => (match fst x with DictKey (KStr s) => s | _ => EmptyString end, match snd x with Leaf w => w | _ => kl (fst x) end)) ms).
    assert (R : ms = map (fun x => (DictKey (KStr (fst x)), Leaf (snd x))) (map (fun x => (match fst x with DictKey (KStr s) => s | _ => EmptyString end, match snd x with Leaf w => w | _ => kl (fst x) end)) ms)).
    { rewrite map_map. cbn [fst snd]. rewrite <- (map_id ms) at 1. apply map_ext_in. intros [k v] I. destruct (S k v I) as (s & w & -> & -> & _). reflexivity. }
    split; [exact G|]. split; [exact R|]. set (items := map (fun x => (match fst x with DictKey (KStr s) => s | _ => EmptyString end, match snd x with Leaf w => w | _ => kl (fst x) end)) ms) in *. split.
    + rewrite R in N. rewrite map_map in N. cbn [fst] in N. clear -N. induction items as [|[s v] l IH]; cbn [map fst] in *; [constructor|]. inversion_clear N as [|? ? N1 N2]. constructor; auto. intros I. apply N1. apply in_map_iff in I as (y & E & I). apply in_map_iff. exists y. rewrite E. auto.
    + intros s v. transitivity (In (DictKey (KStr s), Leaf v) ms).
      { rewrite R. split; intros I; [apply in_map_iff; exists (s, v); auto|]. apply in_map_iff in I as ([s' v'] & E & I). injection E as -> ->. auto. }
      split; [intros I; destruct (S _ _ I) as (s' & w & E & E' & D); injection E as <-; injection E' as <-; auto|]. intros [I|[I A]]; apply C.
      * left. exists (f s), (Leaf v). split; [apply in_map_iff; exists (s, v); auto|]. split; auto. destruct (find_item (DictKey (KStr s)) d2) as [v2|] eqn:Fi; auto. apply find_item_in in Fi; [|apply (dict_keys_nodup (fun s => DictKey (KStr s)) (fun x => Leaf (snd x)) ds); auto; congruence]. apply in_map_iff in Fi as (y & E & _). injection E as _ <-. reflexivity.
      * right. split; [|apply in_map_iff; exists (s, v); auto]. intros J. rewrite map_map, map_map in J. cbn [fst] in J. apply in_map_iff in J as (y & E & J). rewrite Hf in E. injection E as <-. apply A. apply in_map_iff. exists y. auto.
Qed.

Lemma dict_over_named : forall {V : Type} (kl : key -> V) c cs ds, NoDup (map fst cs) -> NoDup (map fst ds) -> exists m, recursive_merge kl true (dict_of cs) (named_of c ds) = Ok m /\ over ds cs m.
Proof.
  intros V kl c cs ds Nc Nd. unfold dict_of, named_of. rewrite merge_node. cbn [kind_eqb negb andb is_leaf_node_or_none is_none orb]. rewrite named_mapping.
  destruct (gom_leaves kl (fun s => DictKey (KStr s)) cs ds (fun s => eq_refl) Nc Nd) as (ms & items & G & -> & N & S). cbn zeta. rewrite G. cbn [rmap rebuild]. eexists. split; [reflexivity|]. exists items. auto.
Qed.

Lemma named_over_dict : forall {V : Type} (kl : key -> V) c cs ds, NoDup (map fst cs) -> NoDup (map fst ds) ->
  ((forall s, In s (map fst ds) -> In s (map fst cs)) -> recursive_merge kl true (named_of c cs) (dict_of ds) = Ok (named_of c cs)) /\
  (~ (forall s, In s (map fst ds) -> In s (map fst cs)) -> exists m, recursive_merge kl true (named_of c cs) (dict_of ds) = Ok m /\ over ds cs m).
Proof.
  intros V kl c cs ds Nc Nd. unfold dict_of, named_of. rewrite merge_node. cbn [kind_eqb negb andb is_leaf_node_or_none is_none orb]. rewrite dict_mapping.
  destruct (gom_leaves kl GetAttrKey cs ds (fun s => eq_refl) Nc Nd) as (ms & items & G & -> & N & S). cbn zeta. rewrite G. cbn [rmap rebuild].
  assert (FB : forallb (fun x => existsb (fun f => key_eqb (dict_key f) (fst x)) (map fst (map (fun x : string * V => (GetAttrKey (fst x), Leaf (snd x))) cs))) (map (fun x => (DictKey (KStr (fst x)), Leaf (snd x))) items) = true <-> forall s, In s (map fst ds) -> In s (map fst cs)).
  { rewrite forallb_forall. split.
    - intros H s I. destruct (in_dec string_dec s (map fst cs)) as [Y|Y]; auto. apply in_map_iff in I as ([s' v] & E & I). cbn in E. subst s'. assert (J : In (s, v) items) by (apply S; auto). specialize (H (DictKey (KStr s), Leaf v)). rewrite existsb_exists in H. destruct H as (k & K1 & K2); [apply in_map_iff; exists (s, v); auto|]. rewrite map_map in K1. apply in_map_iff in K1 as ([s' v'] & <- & K1). cbn in K2. apply in_map_iff. exists (s', v'). split; auto. cbn. destruct (String.eqb_spec s' s); [auto|discriminate].
    - intros H x I. apply in_map_iff in I as ([s v] & <- & I). apply existsb_exists. exists (GetAttrKey s). split; [|cbn; apply String.eqb_refl]. rewrite map_map. apply S in I as [I|[I A]]; [apply in_map_iff; exists (s, v); auto|]. elim A. apply H. apply in_map_iff. exists (s, v). auto. }
  destruct (forallb _ _) eqn:E; split; intros H.
  - f_equal. f_equal. rewrite flat_map_concat_map, !map_map. cbn [fst]. 
    transitivity (List.concat (map (fun x : string * V => [(GetAttrKey (fst x), Leaf (snd x))]) cs)); [|clear; induction cs as [|x cs IH]; cbn; congruence]. f_equal. apply map_ext_in. intros [s v] I. cbn [fst snd dict_key].
    assert (FI : find_item (DictKey (KStr s)) (map (fun x : string * V => (DictKey (KStr (fst x)), Leaf (snd x))) items) = Some (Leaf v)).
    { apply find_item_in; [apply (dict_keys_nodup (fun s => DictKey (KStr s)) (fun x => Leaf (snd x)) items); auto; congruence|]. apply in_map_iff. exists (s, v). split; auto. apply S. auto. }
    rewrite FI. reflexivity.
  - elim H. apply FB. auto.
  - apply FB in H. congruence.
  - eexists. split; [reflexivity|]. exists items. auto.
Qed.
