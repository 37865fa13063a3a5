(** Proofs about the conversion to DTensors. *)
From Coq Require Import List Bool Arith String Lia.
From Verif Require Import Base Dtensor_Model Dtensor_Spec.
Import ListNotations.
Local Open Scope string_scope.
Local Open Scope list_scope.
Local Open Scope nat_scope.

Lemma dim_size_spec : forall m a k, dim_size m a = Ok k <-> size_is m a k.
Proof.
  unfold size_is. induction m as [|[b n] m IH]; intros a k; cbn [dim_size].
  - split; [discriminate|]. intros (l & r & H & _). destruct l; discriminate.
  - destruct (String.eqb_spec a b) as [-> | N].
    + split; [intro H; injection H as ->; exists [], m; split; [reflexivity | intros []]|]. intros (l & r & H & K). destruct l as [|[c x] l]; injection H; intros; subst; [reflexivity|]. exfalso. apply K. now left.
    + rewrite IH. split; intros (l & r & H & K).
      * exists ((b, n) :: l), r. split; [now rewrite H|]. cbn. intros [E | E]; [congruence | contradiction].
      * destruct l as [|[c x] l]; injection H; intros; subst; [congruence|]. exists l, r. split; [reflexivity|]. intro E. apply K. now right.
Qed.

Lemma dim_size_fun : forall m size a k, sizes_of m size -> dim_size m a = Ok k -> size a = k.
Proof. intros m size a k H E. apply H. now apply dim_size_spec. Qed.

Lemma sequence_sizes : forall m size l ks, sizes_of m size -> sequence (map (dim_size m) l) = Ok ks -> ks = map size l.
Proof.
  intros m size l ks H. revert ks. induction l as [|a l IH]; intro ks; cbn; [intro E; now injection E as <-|]. destruct (dim_size m a) as [k|] eqn:E; cbn; [|discriminate].
  destruct (sequence (map (dim_size m) l)) as [ks'|]; cbn; [|discriminate]. intro X. injection X as <-. rewrite (dim_size_fun m size a k H E). now rewrite <- (IH ks' eq_refl).
Qed.

Lemma proper_axes_map : forall (size : string -> nat) (l : list string), proper_axes l (map size l) = filter (fun a => negb (Nat.eqb (size a) 1)) l.
Proof. intros size l. unfold proper_axes. induction l as [|a l IH]; [reflexivity|]. cbn [map combine filter snd]. destruct (negb (size a =? 1)); cbn; now rewrite IH. Qed.

Lemma ones_map : forall (size : string -> nat) (l : list string), ones (map size l) + List.length (filter (fun a => negb (Nat.eqb (size a) 1)) l) = List.length l.
Proof.
  intros size l. unfold ones. induction l as [|a l IH]; [reflexivity|]. cbn [map filter]. rewrite (Nat.eqb_sym 1). destruct (size a =? 1); cbn [negb List.length]; lia.
Qed.

Lemma filter_two : forall (f : string -> bool) l, 2 <= List.length (filter f l) <-> exists x a y b z, l = x ++ a :: y ++ b :: z /\ f a = true /\ f b = true.
Proof.
  intros f. assert (ONE : forall l, 1 <= List.length (filter f l) <-> exists y b z, l = y ++ b :: z /\ f b = true).
  { induction l as [|c l IH]; cbn [filter]; [split; [cbn; lia | intros (y & b & z & H & _); destruct y; discriminate]|]. destruct (f c) eqn:E.
    - split; [intros _; now exists [], c, l | cbn; lia].
    - rewrite IH. split; intros (y & b & z & H & K); [exists (c :: y), b, z; split; [now rewrite H | exact K]|]. destruct y as [|d y]; injection H as -> ->; [congruence|]. now exists y, b, z. }
  induction l as [|c l IH]; cbn [filter]; [split; [cbn; lia | intros (x & a & y & b & z & H & _); destruct x; discriminate]|]. destruct (f c) eqn:E.
  - cbn [List.length]. split.
    + intro H. destruct (proj1 (ONE l)) as (y & b & z & H1 & H2); [lia|]. exists [], c, y, b, z. rewrite H1. now repeat split.
    + intros (x & a & y & b & z & H & K1 & K2). destruct x as [|d x]; injection H as -> ->.
      * assert (1 <= List.length (filter f (y ++ b :: z))) by (apply ONE; now exists y, b, z). lia.
      * assert (2 <= List.length (filter f (x ++ a :: y ++ b :: z))) by (apply IH; now exists x, a, y, b, z). lia.
  - rewrite IH. split; intros (x & a & y & b & z & H & K1 & K2); [exists (c :: x), a, y, b, z; rewrite H; now repeat split|]. destruct x as [|d x]; injection H as -> ->; [congruence|]. now exists x, a, y, b, z.
Qed.

Lemma product_sharded_filter : forall (size : string -> nat) (l : list string), product_sharded size l <-> 2 <= List.length (filter (fun a => negb (Nat.eqb (size a) 1)) l).
Proof.
  intros size l. rewrite filter_two. unfold product_sharded. split; intros (x & a & y & b & z & H & K1 & K2); exists x, a, y, b, z; rewrite ?negb_true_iff, ?Nat.eqb_neq in *; now repeat split.
Qed.

Lemma part_ones : forall (size at_ : string -> nat) (l : list string) acc, (forall a, In a l -> size a = 1 /\ at_ a = 0) -> fold_left (fun acc a => acc * size a + at_ a) l acc = acc.
Proof. induction l as [|a l IH]; intros acc H; [reflexivity|]. cbn [fold_left]. destruct (H a (or_introl eq_refl)) as [-> ->]. rewrite IH; [lia|]. intros b Hb. apply H. now right. Qed.

Lemma parts_ones : forall (size : string -> nat) (l : list string) acc, (forall a, In a l -> size a = 1) -> fold_left (fun acc a => acc * size a) l acc = acc.
Proof. induction l as [|a l IH]; intros acc H; [reflexivity|]. cbn [fold_left]. rewrite (H a (or_introl eq_refl)). rewrite IH; [lia|]. intros b Hb. apply H. now right. Qed.

Lemma filter_one : forall (f : string -> bool) l b, filter f l = [b] -> exists x y, l = x ++ b :: y /\ (forall a, In a x \/ In a y -> f a = false) /\ f b = true.
Proof.
  intros f. assert (NONE : forall l, filter f l = [] -> forall a, In a l -> f a = false).
  { induction l as [|c l IH]; cbn [filter]; [intros _ a []|]. destruct (f c) eqn:E; [discriminate|]. intros H a [<- | Ha]; auto. }
  induction l as [|c l IH]; intros b; cbn [filter]; [discriminate|]. destruct (f c) eqn:E.
  - intro H. injection H as -> H. exists [], l. split; [reflexivity|]. split; [|exact E]. intros a [[] | Ha]. now apply (NONE l H).
  - intro H. destruct (IH b H) as (x & y & -> & K1 & K2). exists (c :: x), y. split; [reflexivity|]. split; [|exact K2]. intros a [[<- | Ha] | Ha]; auto.
Qed.

Lemma filter_none : forall (f : string -> bool) l, filter f l = [] -> forall a, In a l -> f a = false.
Proof. intros f. induction l as [|c l IH]; cbn [filter]; [intros _ a []|]. destruct (f c) eqn:E; [discriminate|]. intros H a [<- | Ha]; auto. Qed.

(** One axis of a tuple stands for all of it when it is not resharded *)
Lemma of_tuple_same : forall m size at_ allow l a, sizes_of m size -> (forall b, In b l -> at_ b < size b) -> of_tuple m allow l = Ok (a, false) ->
  In a l /\ parts size l = parts size [a] /\ part size at_ l = part size at_ [a].
Proof.
  intros m size at_ allow l a HS HA. destruct l as [|b [|c l]]; cbn [of_tuple]; [discriminate | intro H; injection H as ->; repeat split; now left|]. set (L := b :: c :: l) in *.
  destruct (sequence (map (dim_size m) L)) as [ks|] eqn:E; cbn [rbind]; [|discriminate]. pose proof (sequence_sizes m size L ks HS E) as ->. clear E.
  destruct (Nat.ltb (ones (map size L)) (List.length L - 1)).
  { destruct (negb allow); [discriminate|]. destruct (pick _ _ _); discriminate. }
  rewrite proper_axes_map. destruct (filter (fun x => negb (size x =? 1)) L) as [|d [|e f]] eqn:F; [| |discriminate]; intro H; injection H as <-.
  - pose proof (filter_none _ _ F) as N. assert (O : forall x, In x L -> size x = 1 /\ at_ x = 0).
    { intros x Hx. specialize (N x Hx). apply negb_false_iff, Nat.eqb_eq in N. specialize (HA x Hx). split; [exact N | lia]. }
    split; [now left|]. unfold parts, part. rewrite (parts_ones size L 1 (fun x Hx => proj1 (O x Hx))). rewrite (part_ones size at_ L 0 O). destruct (O b (or_introl eq_refl)) as [O1 O2]. cbn. rewrite O1, O2. split; reflexivity.
  - destruct (filter_one _ _ _ F) as (x & y & EL & N & _). assert (O : forall z, In z x \/ In z y -> size z = 1 /\ at_ z = 0).
    { intros z Hz. specialize (N z Hz). apply negb_false_iff, Nat.eqb_eq in N. assert (In z L) by (rewrite EL; apply in_app_iff; cbn; tauto). specialize (HA z H). split; [exact N | lia]. }
    rewrite EL. split; [apply in_app_iff; right; now left|]. unfold parts, part. rewrite !fold_left_app. cbn [fold_left].
    rewrite (parts_ones size x 1) by (intros z Hz; apply O; now left). rewrite (parts_ones size y) by (intros z Hz; apply O; now right). rewrite (part_ones size at_ x 0) by (intros z Hz; apply O; now left). rewrite (part_ones size at_ y) by (intros z Hz; apply O; now right). split; reflexivity.
Qed.

Lemma entry_same : forall m size at_ allow shape e o, sizes_of m size -> (forall b, In b (axes e) -> at_ b < size b) -> entry m allow shape e = Ok (o, false) ->
  let l := match o with None => [] | Some a => [a] end in parts size (axes e) = parts size l /\ part size at_ (axes e) = part size at_ l.
Proof.
  intros m size at_ allow shape e o HS HA. unfold entry, axis_of.
  assert (G : forall a r, rbind (dim_size m a) (fun k => match shape with [] => Err IndexError | d :: _ => if k =? 0 then Err ZeroDivisionError else if d mod k =? 0 then Ok (Some a, r) else Err ValueError end) = Ok (o, false) -> o = Some a /\ r = false).
  { intros a r. destruct (dim_size m a) as [k|]; cbn [rbind]; [|discriminate]. destruct shape as [|d s]; [discriminate|]. destruct (k =? 0); [discriminate|]. destruct (d mod k =? 0); [|discriminate]. intro H. now injection H as <- <-. }
  destruct e as [ | a | l | ]; cbn [rbind].
  - intro H. injection H as <-. split; reflexivity.
  - destruct a as [|c a]; [intro H; injection H as <-; split; reflexivity|]. cbn [rbind]. intro H. apply G in H as [-> _]. cbn [axes]. split; reflexivity.
  - destruct l as [|b l]; [intro H; injection H as <-; split; reflexivity|]. destruct (of_tuple m allow (b :: l)) as [[a r]|] eqn:E; cbn [rmap rbind]; [|discriminate]. intro H. apply G in H as [-> ->].
    cbn [axes] in *. destruct (of_tuple_same m size at_ allow (b :: l) a HS HA E) as (_ & H1 & H2). split; assumption.
  - discriminate.
Qed.

Lemma entries_same : forall m size at_ allow spec shape ds, sizes_of m size -> (forall e b, In e spec -> In b (axes e) -> at_ b < size b) -> entries m allow shape spec = Ok (ds, false) ->
  forall i, parts size (axes_at (Some spec) i) = parts size (layout_at ds i) /\ part size at_ (axes_at (Some spec) i) = part size at_ (layout_at ds i).
Proof.
  intros m size at_ allow spec. induction spec as [|e spec IH]; intros shape ds HS HA; cbn [entries].
  - intro H. injection H as <-. intro i. unfold axes_at, layout_at. assert (X : nth i (map (fun _ : nat => @None string) shape) None = None) by (revert i; induction shape as [|d s IHs]; intros [|i]; cbn; auto). rewrite X. destruct i; split; reflexivity.
  - destruct (entry m allow shape e) as [[o r]|] eqn:E; cbn [rbind]; [|discriminate]. destruct (entries m allow (tl shape) spec) as [[ds' r']|] eqn:E2; cbn [rmap fst snd]; [|discriminate]. intro H. injection H as <- H. apply orb_false_iff in H as [-> ->].
    intros [|i].
    + unfold axes_at, layout_at. cbn [nth]. pose proof (entry_same m size at_ allow shape e o HS (fun b Hb => HA e b (or_introl eq_refl) Hb) E) as X. cbv zeta in X. exact X.
    + unfold axes_at, layout_at. cbn [nth]. apply (IH (tl shape) ds' HS); [|exact E2]. intros e' b He. apply HA. now right.
Qed.

Lemma entry_divides : forall m size allow shape e a r, sizes_of m size -> entry m allow shape e = Ok (Some a, r) -> exists d s, shape = d :: s /\ size a <> 0 /\ d mod size a = 0.
Proof.
  intros m size allow shape e a r HS. unfold entry. destruct (axis_of m allow e) as [[[b q]|]|]; cbn [rbind]; try discriminate. destruct (dim_size m b) as [k|] eqn:E; cbn [rbind]; [|discriminate]. destruct shape as [|d s]; [discriminate|].
  destruct (Nat.eqb_spec k 0); [discriminate|]. destruct (Nat.eqb_spec (d mod k) 0); [|discriminate]. intro H. injection H as <- <-. pose proof (dim_size_fun m size b k HS E) as ->. exists d, s. repeat split; assumption.
Qed.

Lemma entries_divides : forall m size allow spec shape ds r, sizes_of m size -> entries m allow shape spec = Ok (ds, r) -> forall i a, nth i ds None = Some a -> exists d, nth_error shape i = Some d /\ size a <> 0 /\ d mod size a = 0.
Proof.
  intros m size allow spec. induction spec as [|e spec IH]; intros shape ds r HS; cbn [entries].
  - intro H. injection H as <- <-. intros i a H. exfalso. revert i H. induction shape as [|d s IHs]; intros [|i]; cbn; try discriminate. apply IHs.
  - destruct (entry m allow shape e) as [[o q]|] eqn:E; cbn [rbind]; [|discriminate]. destruct (entries m allow (tl shape) spec) as [[ds' r']|] eqn:E2; cbn [rmap fst snd]; [|discriminate]. intro H. injection H as <- _. intros [|i] a; cbn [nth].
    + intros ->. destruct (entry_divides m size allow shape e a q HS E) as (d & s & -> & H1 & H2). now exists d.
    + intro H. destruct (IH (tl shape) ds' r' HS E2 i a H) as (d & H1 & H2). exists d. split; [|exact H2]. destruct shape as [|x s]; [cbn in H1; destruct i; discriminate | exact H1].
Qed.

Lemma entries_known : forall m allow spec shape ds r, entries m allow shape spec = Ok (ds, r) -> forall i a, nth i ds None = Some a -> In a (map fst m).
Proof.
  intros m allow spec. induction spec as [|e spec IH]; intros shape ds r; cbn [entries].
  - intro H. injection H as <- <-. intros i a H. exfalso. revert i H. induction shape as [|d s IHs]; intros [|i]; cbn; try discriminate. apply IHs.
  - destruct (entry m allow shape e) as [[o q]|] eqn:E; cbn [rbind]; [|discriminate]. destruct (entries m allow (tl shape) spec) as [[ds' r']|] eqn:E2; cbn [rmap fst snd]; [|discriminate]. intro H. injection H as <- _. intros [|i] a; cbn [nth]; [|apply (IH (tl shape) ds' r' E2)].
    intros ->. unfold entry in E. destruct (axis_of m allow e) as [[[b z]|]|]; cbn [rbind] in E; try discriminate. destruct (dim_size m b) as [k|] eqn:D; cbn [rbind] in E; [|discriminate]. destruct shape as [|d s]; [discriminate|].
    destruct (k =? 0); [discriminate|]. destruct (d mod k =? 0); [|discriminate]. injection E as <- <-. apply dim_size_spec in D as (l & x & -> & _). rewrite map_app. apply in_app_iff. right. now left.
Qed.

Lemma layout_ok_spec : forall l, layout_ok l = true <-> forall i j a, nth_error l i = Some (Some a) -> nth_error l j = Some (Some a) -> i = j.
Proof.
  induction l as [|[a|] l IH]; cbn [layout_ok].
  - split; [|reflexivity]. intros _ i j a H. destruct i; discriminate.
  - rewrite andb_true_iff, negb_true_iff, IH. split.
    + intros [H K] [|i] [|j] b; cbn; intros X Y; auto; [exfalso | exfalso | f_equal; now apply (K i j b)].
      * injection X as <-. assert (Z : existsb (fun o => match o with Some b => String.eqb a b | None => false end) l = true); [|congruence]. apply existsb_exists. exists (Some a). split; [now apply nth_error_In in Y | apply String.eqb_refl].
      * injection Y as <-. assert (Z : existsb (fun o => match o with Some b => String.eqb a b | None => false end) l = true); [|congruence]. apply existsb_exists. exists (Some a). split; [now apply nth_error_In in X | apply String.eqb_refl].
    + intro H. split.
      * apply not_true_iff_false. intro X. apply existsb_exists in X as ([b|] & Hb & E); [|discriminate]. apply String.eqb_eq in E. subst b. apply In_nth_error in Hb as [j Hj]. specialize (H 0 (S j) a eq_refl Hj). discriminate.
      * intros i j b X Y. specialize (H (S i) (S j) b X Y). congruence.
  - rewrite IH. split; intro H; [intros [|i] [|j] a; cbn; intros X Y; try discriminate; f_equal; now apply (H i j a) | intros i j a X Y; specialize (H (S i) (S j) a X Y); congruence].
Qed.

Lemma pick_max : forall (size : string -> nat) (l : list string) a, pick (maximum (map size l)) l (map size l) = Ok a -> exists x y, l = x ++ a :: y /\ (forall b, In b x -> size b < size a) /\ (forall b, In b y -> size b <= size a).
Proof.
  intros size. assert (B : forall l b, In b l -> size b <= maximum (map size l)) by (unfold maximum; induction l as [|c l IH]; intros b Hb; [destruct Hb|]; cbn [map fold_right]; destruct Hb as [-> | Hb]; [lia | specialize (IH b Hb); lia]).
  assert (G : forall k l a, (forall b, In b l -> size b <= k) -> pick k l (map size l) = Ok a -> size a = k /\ exists x y, l = x ++ a :: y /\ forall b, In b x -> size b < k).
  { intros k. induction l as [|c l IH]; intros a H; cbn [pick map]; [discriminate|]. destruct (Nat.eqb_spec (size c) k) as [e | ne].
    - intro X. injection X as <-. split; [exact e|]. exists [], l. split; [reflexivity | intros b []].
    - intro X. destruct (IH a) as (E & x & y & -> & K); [intros b Hb; apply H; now right | exact X|]. split; [exact E|]. exists (c :: x), y. split; [reflexivity|]. intros b [<- | Hb]; [specialize (H c (or_introl eq_refl)); lia | now apply K]. }
  intros l a H. destruct (G (maximum (map size l)) l a (B l) H) as (E & x & y & EL & K). exists x, y. split; [exact EL|]. split; [intros b Hb; rewrite E; now apply K|]. intros b Hb. rewrite E. apply B. rewrite EL. apply in_app_iff. right. now right.
Qed.

Lemma pick_some : forall (size : string -> nat) (l : list string), l <> [] -> exists a, pick (maximum (map size l)) l (map size l) = Ok a.
Proof.
  intros size. assert (G : forall k l, (exists b, In b l /\ size b = k) -> exists a, pick k l (map size l) = Ok a).
  { intros k. induction l as [|c l IH]; intros (b & Hb & E); [destruct Hb|]. cbn [pick map]. destruct (Nat.eqb_spec (size c) k); [now exists c|]. destruct Hb as [-> | Hb]; [congruence|]. apply IH. now exists b. }
  intros l N. apply G. induction l as [|c l IH]; [congruence|]. cbn [map maximum fold_right]. fold (maximum (map size l)). destruct l as [|d l]; [exists c; split; [now left | cbn; lia]|].
  destruct (Nat.max_spec (size c) (maximum (map size (d :: l)))) as [[_ ->] | [_ ->]]; [|exists c; split; [now left | reflexivity]]. destruct IH as (b & Hb & E); [discriminate|]. exists b. split; [now right | exact E].
Qed.

Lemma sequence_known : forall m size l, sizes_of m size -> (forall a, In a l -> exists k, size_is m a k) -> sequence (map (dim_size m) l) = Ok (map size l).
Proof.
  intros m size l HS. induction l as [|a l IH]; intro H; [reflexivity|]. cbn [map sequence]. destruct (H a (or_introl eq_refl)) as [k Hk]. pose proof (HS a k Hk) as ->. apply dim_size_spec in Hk. rewrite Hk. cbn. rewrite IH; [reflexivity|]. intros b Hb. apply H. now right.
Qed.

Lemma of_tuple_spec : forall m size allow l, sizes_of m size -> (forall a, In a l -> exists k, size_is m a k) -> l <> [] ->
  (product_sharded size l -> allow = false -> of_tuple m allow l = Err ValueError) /\
  (product_sharded size l -> allow = true -> exists a x y, of_tuple m allow l = Ok (a, true) /\ l = x ++ a :: y /\ (forall b, In b x -> size b < size a) /\ (forall b, In b y -> size b <= size a)) /\
  (~ product_sharded size l -> exists a, of_tuple m allow l = Ok (a, false) /\ In a l /\ forall b, In b l -> size b <> 1 -> b = a).
Proof.
  intros m size allow l HS HK N. rewrite product_sharded_filter. destruct l as [|a [|b l]]; [congruence| |].
  - cbn [of_tuple filter]. destruct (negb (size a =? 1)); cbn [List.length]; (repeat split; try (intros; lia); intros _; exists a; split; [reflexivity|]; split; [now left|]; intros c [<- | []]; reflexivity).
  - set (L := a :: b :: l) in *. assert (ET : of_tuple m allow L = rbind (sequence (map (dim_size m) L)) (fun sizes => if Nat.ltb (ones sizes) (List.length L - 1) then if negb allow then Err ValueError else rmap (fun n => (n, true)) (pick (maximum sizes) L sizes) else match proper_axes L sizes with [] => Ok (a, false) | [x] => Ok (x, false) | _ => Err AssertionError end)) by reflexivity.
    rewrite ET, (sequence_known m size L HS HK). cbn [rbind]. pose proof (ones_map size L) as O. rewrite proper_axes_map. set (F := filter (fun x => negb (size x =? 1)) L) in *.
    assert (LL : 2 <= List.length L) by (cbn; lia). destruct (Nat.ltb_spec (ones (map size L)) (List.length L - 1)) as [lt | ge].
    + split; [intros _ ->; reflexivity|]. split; [|intro X; lia]. intros _ ->. cbn [negb]. destruct (pick_some size L N) as [x E]. rewrite E. cbn [rmap]. destruct (pick_max size L x E) as (y & z & H1 & H2 & H3). now exists x, y, z.
    + split; [intro; lia|]. split; [intro; lia|]. intros _. destruct F as [|x [|y f]] eqn:EF; [| |cbn [List.length] in O; lia].
      * exists a. split; [reflexivity|]. split; [now left|]. intros c Hc Hs. exfalso. apply Hs. pose proof (filter_none _ _ EF c Hc) as X. now apply negb_false_iff, Nat.eqb_eq in X.
      * exists x. split; [reflexivity|]. split; [assert (X : In x F) by (rewrite EF; now left); unfold F in X; now apply filter_In in X|]. intros c Hc Hs. assert (X : In c F) by (apply filter_In; split; [exact Hc | now apply negb_true_iff, Nat.eqb_neq]). rewrite EF in X. destruct X as [-> | []]. reflexivity.
Qed.

Lemma run_sees : forall c f st, match sees c f (current st) with (x, e, g) => run c f st = mkRan x e g st end.
Proof.
  induction c as [ | | | b | a IHa b IHb | m body IH]; intros f st; cbn [sees run]; try reflexivity.
  - specialize (IHa f st). destruct (sees a f (current st)) as [[x [|]] g]; rewrite IHa; cbn [raised answers flag stack]; [reflexivity|]. specialize (IHb g st). destruct (sees b g (current st)) as [[y e] h]. now rewrite IHb.
  - destruct m as [x|]; [|apply IH]. destruct f; [|apply IH]. specialize (IH true (x :: st)). cbn [current] in IH. destruct (sees body true (Some x)) as [[y e] g]. rewrite IH. reflexivity.
Qed.

Lemma get_pspecs_spec : forall l ex, (forall ss, get_pspecs ex l = Ok ss <-> (Forall2 (fun x s => match x with APlain => s = [] | ANamed _ s' => s = s' | AOther => False end) l ss /\ (forall m s, In (ANamed m s) l -> forall k, ex = Some k -> m = k) /\ (forall m s m' s', In (ANamed m s) l -> In (ANamed m' s') l -> m = m'))) /\ (forall e, get_pspecs ex l = Err e -> e = AssertionError).
Proof.
  induction l as [|x l IH]; intro ex.
  - cbn. split; [|discriminate]. intro ss. split; [intro H; injection H as <-; split; [constructor | split; tauto] | intros [H _]; now inversion H].
  - destruct x as [ | m s | ]; cbn [get_pspecs].
    + destruct (IH ex) as [I1 I2]. split; [|destruct (get_pspecs ex l); cbn; [discriminate | intros e0 H; injection H as <-; now apply I2]]. intro ss. split.
      * destruct (get_pspecs ex l) as [r|] eqn:E; cbn; [|discriminate]. intro H. injection H as <-. destruct (proj1 (I1 r) eq_refl) as (F & K1 & K2). split; [now constructor|]. split; [intros m s [X | X]; [discriminate | now apply (K1 m s)]|]. intros m s m' s' [X | X] [Y | Y]; try discriminate. now apply (K2 m s m' s').
      * intros (F & K1 & K2). inversion F as [|? s0 ? r H1 H2]; subst. assert (E : get_pspecs ex l = Ok r). { apply I1. split; [exact H2|]. split; [intros m s X; apply (K1 m s); now right|]. intros m s m' s' X Y. apply (K2 m s m' s'); now right. } now rewrite E.
    + set (k := match ex with None => m | Some x => x end). assert (KX : forall j, ex = Some j -> k = j) by (intros j Hj; unfold k; now rewrite Hj). destruct (IH (Some k)) as [I1 I2]. destruct (Nat.eqb_spec k m) as [e | ne].
      * clearbody k. subst m. split; [|destruct (get_pspecs (Some k) l); cbn; [discriminate | intros e0 H; injection H as <-; now apply I2]]. intro ss. split.
        -- destruct (get_pspecs (Some k) l) as [r|] eqn:E; cbn; [|discriminate]. intro H. injection H as <-. destruct (proj1 (I1 r) eq_refl) as (F & K1 & K2). split; [now constructor|]. assert (A : forall m' s', In (ANamed m' s') (ANamed k s :: l) -> m' = k) by (intros m' s' [X | X]; [now injection X as <- _ | now apply (K1 m' s' X)]).
           split; [|intros m1 s1 m2 s2 X Y; rewrite (A m1 s1 X); now rewrite (A m2 s2 Y)]. intros m' s' X j Hj. rewrite (A m' s' X). now apply KX.
        -- intros (F & K1 & K2). inversion F as [|? s0 ? r H1 H2]; subst. assert (E : get_pspecs (Some k) l = Ok r). { apply I1. split; [exact H2|]. split; [|intros m1 s1 m2 s2 X Y; apply (K2 m1 s1 m2 s2); now right]. intros m1 s1 X j Hj. injection Hj as <-. apply (K2 m1 s1 k s); [now right | now left]. } rewrite E. reflexivity.
      * split; [|intros e H; congruence]. intro ss. split; [discriminate|]. intros (_ & K1 & _). exfalso. apply ne. unfold k. destruct ex as [x|]; [|reflexivity]. symmetry. apply (K1 m s (or_introl eq_refl) x eq_refl).
    + split; [|intros e H; congruence]. intro ss. split; [discriminate|]. intros (F & _). inversion F; subst. contradiction.
Qed.
