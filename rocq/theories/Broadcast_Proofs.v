From Coq Require Import List Bool Arith ZArith String SpecFloat Lia.
From Verif Require Import Base Broadcast_Model Broadcast_Spec.
Import ListNotations.

(* ---- batches ---- *)
Lemma bytes_eq : forall a, Z.of_nat (get_leaf_memory_per_device a) = bytes a.
Proof. reflexivity. Qed.

Lemma bytes_pos : forall a, (0 <= bytes a)%Z.
Proof. intros. unfold bytes. lia. Qed.

Lemma total_app : forall a b, total (a ++ b) = (total a + total b)%Z.
Proof. intros a b. unfold total. induction a as [|x a IH]; cbn; auto. rewrite IH. lia. Qed.

Lemma total_cons : forall x l, total (x :: l) = (bytes x + total l)%Z.
Proof. reflexivity. Qed.

Lemma total_pos : forall a, (0 <= total a)%Z.
Proof. induction a as [|x a IH]; [cbn; lia|]. rewrite total_cons. assert (P := bytes_pos x). lia. Qed.

(** The leaves taken fit, and the next one would not. *)
Lemma fill_spec : forall limit l current a b, fill limit current l = (a, b) ->
  l = (a ++ b)%list /\ ((Z.of_nat current <= limit)%Z -> (Z.of_nat current + total a <= limit)%Z) /\
  (forall x r, b = x :: r -> (limit < Z.of_nat current + total a + bytes x)%Z).
Proof.
  intros limit l. induction l as [|x l IH]; intros current a b E; cbn [fill] in E.
  - injection E as <- <-. split; auto. split; [cbn; lia|discriminate].
  - destruct (Z.leb_spec (Z.of_nat (current + get_leaf_memory_per_device x)) limit) as [L|L].
    + destruct (fill limit (current + get_leaf_memory_per_device x) l) as [a' b'] eqn:F. injection E as <- <-. destruct (IH _ _ _ F) as (-> & S & N). rewrite Nat2Z.inj_add, bytes_eq in *.
      split; auto. split; [intros _; rewrite total_cons; specialize (S L); lia|]. intros y r Y. specialize (N y r Y). rewrite total_cons. lia.
    + injection E as <- <-. split; auto. split; [cbn; lia|]. intros y r Y. injection Y as <- <-. rewrite Nat2Z.inj_add, bytes_eq in L. change (total []) with 0%Z. lia.
Qed.

Lemma next_spec : forall limit l a b, l <> [] -> next_batch limit l = (a, b) -> l = (a ++ b)%list /\ a <> [] /\
  (((total a <= limit)%Z /\ forall x r, b = x :: r -> (limit < total a + bytes x)%Z) \/ exists x, a = [x] /\ (limit < bytes x)%Z).
Proof.
  intros limit l a b N E. destruct l as [|x l]; [congruence|]. unfold next_batch in E. destruct (Z.ltb_spec limit (Z.of_nat (get_leaf_memory_per_device x))) as [L|L].
  - injection E as <- <-. split; auto. split; [discriminate|]. right. exists x. rewrite bytes_eq in L. auto.
  - rewrite bytes_eq in L. assert (Q := fill_spec limit (x :: l) 0 a b E). destruct Q as (Q & S & F). split; auto. assert (BP := bytes_pos x). assert (A : a <> []).
    { intros ->. cbn in Q. subst b. specialize (F x l eq_refl). change (total []) with 0%Z in F. lia. }
    split; auto. left. split; [cbn in S; lia|]. intros y r Y. specialize (F y r Y). cbn in F. lia.
Qed.

Lemma loop_enough : forall f limit l, List.length l <= f -> loop f limit l = loop (List.length l) limit l.
Proof.
  intros f. induction f as [f IH] using lt_wf_ind. intros limit l L. destruct l as [|x l]; [destruct f; auto|]. destruct f as [|f]; [cbn in L; lia|]. cbn [List.length loop].
  destruct (next_batch limit (x :: l)) as [a b] eqn:E. destruct (next_spec limit (x :: l) a b) as (Q & A & _); [discriminate|auto|]. f_equal.
  assert (LB : List.length b <= List.length l). { apply (f_equal (@List.length _)) in Q. rewrite app_length in Q. cbn in Q. destruct a; [congruence|cbn in Q; lia]. }
  cbn in L. rewrite (IH f) by lia. symmetry. apply IH; lia.
Qed.

Lemma batches_cons : forall limit l a b, l <> [] -> next_batch limit l = (a, b) -> batches limit l = a :: batches limit b.
Proof.
  intros limit l a b N E. destruct l as [|x l]; [congruence|]. unfold batches. cbn [List.length loop]. rewrite E. f_equal. destruct (next_spec limit (x :: l) a b) as (Q & A & _); [discriminate|auto|].
  apply loop_enough. apply (f_equal (@List.length _)) in Q. rewrite app_length in Q. cbn in Q. destruct a; [congruence|cbn in Q; lia].
Qed.

Lemma batches_ind : forall (P : list array -> Prop) limit, P [] -> (forall l a b, l <> [] -> next_batch limit l = (a, b) -> P b -> P l) -> forall l, P l.
Proof.
  intros P limit P0 PS l. remember (List.length l) as n eqn:E. revert l E. induction n as [n IH] using lt_wf_ind. intros l E. destruct l as [|x l]; auto.
  destruct (next_batch limit (x :: l)) as [a b] eqn:B. apply (PS _ a b); [discriminate|auto|]. destruct (next_spec limit (x :: l) a b) as (Q & A & _); [discriminate|auto|].
  apply (IH (List.length b)); auto. rewrite E, Q, app_length. destruct a; [congruence|cbn; lia].
Qed.

Lemma batches_legal : forall limit l, legal limit l (batches limit l).
Proof.
  intros limit. apply (batches_ind _ limit).
  - split; auto. constructor.
  - intros l a b N E (C & F). destruct (next_spec limit l a b N E) as (Q & A & O). rewrite (batches_cons limit l a b N E). split; [cbn; rewrite C; auto|]. constructor; auto. split; auto. destruct O as [(O & _)|O]; auto.
Qed.

Lemma fewest : forall limit p tree rest, legal limit tree p -> (exists s, tree = (s ++ rest)%list) -> List.length (batches limit rest) <= List.length p.
Proof.
  intros limit p. induction p as [|b p IH]; intros tree rest (C & F) (s & S).
  - cbn in C. rewrite S in C. symmetry in C. apply app_eq_nil in C as (_ & ->). cbn. lia.
  - cbn [List.concat] in C. apply Forall_cons_iff in F as ((NB & O) & F'). assert (LP : legal limit (List.concat p) p) by (split; auto).
    assert (CASES : (exists s', List.concat p = (s' ++ rest)%list) \/ exists u v, b = (u ++ v)%list /\ v <> [] /\ rest = (v ++ List.concat p)%list).
    { assert (Q : (b ++ List.concat p = s ++ rest)%list) by congruence. clear - Q. revert s Q. induction b as [|x b IHb]; intros s Q; [left; exists s; auto|]. destruct s as [|y s].
      - right. exists [], (x :: b). split; auto. split; [discriminate|auto].
      - injection Q as <- Q. destruct (IHb s Q) as [H|(u & v & -> & N & R)]; auto. right. exists (x :: u), v. auto. }
    destruct CASES as [H|(u & v & -> & NV & R)]; [specialize (IH _ rest LP H); cbn; lia|].
    destruct (next_batch limit rest) as [a c] eqn:E. assert (NR : rest <> []) by (subst rest; destruct v; [congruence|discriminate]). rewrite (batches_cons limit rest a c NR E). cbn [List.length]. apply le_n_S. apply (IH _ c LP).
    destruct (next_spec limit rest a c NR E) as (Q & A & O'). assert (LEN : forall (x y z w : list array), (x ++ y = z ++ w)%list -> List.length x <= List.length z -> exists t, y = (t ++ w)%list).
    { clear. intros x. induction x as [|e x IHx]; intros y z w H L; [exists z; auto|]. destruct z as [|f z]; [cbn in L; lia|]. injection H as <- H. apply (IHx y z w); auto. cbn in L. lia. }
    apply (LEN v (List.concat p) a c); [congruence|]. destruct (Nat.le_gt_cases (List.length v) (List.length a)) as [|SH]; auto. exfalso.
    (* the batch is a proper prefix of [v] *)
    assert (PR : exists x w, v = (a ++ x :: w)%list).
    { assert (H : (a ++ c = v ++ List.concat p)%list) by congruence. clear - H SH. revert v H SH. induction a as [|e a IHa]; intros v H SH; destruct v as [|f v]; cbn in SH; try lia; [exists f, v; auto|]. injection H as <- H. destruct (IHa v H) as (x & w & ->); [lia|]. exists x, w. auto. }
    destruct PR as (x & w & ->). assert (CX : c = x :: (w ++ List.concat p)%list). { apply (app_inv_head a). rewrite <- Q, R, <- app_assoc. auto. }
    assert (TP := total_pos u). assert (TW := total_pos w). assert (TA := total_pos a). assert (BX := bytes_pos x). destruct O as [O|(y & Y & _)].
    + rewrite !total_app, total_cons in O. destruct O' as [(_ & O')|(z & -> & O')]; [specialize (O' x _ CX); lia|]. rewrite total_cons in O. change (total []) with 0%Z in O. lia.
    + apply (f_equal (@List.length _)) in Y. rewrite !app_length in Y. cbn in Y. destruct a; [congruence|cbn in Y; lia].
Qed.

(* ---- values ---- *)
Lemma zero_add : forall d v, typed d v -> add d (zero_of d) v = unsigned v.
Proof. intros [|b|b|p e] v T; cbn in T; destruct T as (x & ->); auto. cbn. destruct x as [[|]|[|]| |[|] m k]; auto. Qed.

Lemma add_zero : forall d v, typed d v -> add d (unsigned v) (zero_of d) = unsigned v.
Proof. intros [|b|b|p e] v T; cbn in T; destruct T as (x & ->); cbn; rewrite ?Z.add_0_r; auto. destruct x as [[|]|[|]| |[|] m k]; auto. Qed.

Lemma zero_zero : forall d, add d (zero_of d) (zero_of d) = zero_of d.
Proof. intros [|b|b|p e]; auto. Qed.

Lemma shards_zero_add : forall d s, (forall v, In v s -> typed d v) -> add_shards d (repeat (zero_of d) (List.length s)) s = map unsigned s.
Proof.
  intros d s. unfold add_shards. induction s as [|v s IH]; intros T; auto. cbn [List.length repeat combine map fst snd]. rewrite zero_add by (apply T; left; auto). f_equal. apply IH. intros w I. apply T. right. auto.
Qed.

Lemma shards_add_zero : forall d s, (forall v, In v s -> typed d v) -> add_shards d (map unsigned s) (repeat (zero_of d) (List.length s)) = map unsigned s.
Proof.
  intros d s. unfold add_shards. induction s as [|v s IH]; intros T; auto. cbn [List.length repeat combine map fst snd]. rewrite add_zero by (apply T; left; auto). f_equal. apply IH. intros w I. apply T. right. auto.
Qed.

Lemma shards_zero_zero : forall d n, add_shards d (repeat (zero_of d) n) (repeat (zero_of d) n) = repeat (zero_of d) n.
Proof. intros d n. unfold add_shards. induction n as [|n IH]; auto. cbn [repeat combine map fst snd]. rewrite zero_zero. f_equal. apply IH. Qed.

(* ---- sums ---- *)
Definition step (d : dtype) (acc row : list (list value)) := map (fun z => add_shards d (fst z) (snd z)) (combine acc row).

Lemma nth_combine : forall {A B} (l : list A) (m : list B) i, nth_error (combine l m) i = match nth_error l i, nth_error m i with Some x, Some y => Some (x, y) | _, _ => None end.
Proof. intros A B l. induction l as [|x l IH]; intros m i; [destruct i; auto|]. destruct m as [|y m]; [destruct i; cbn; auto; destruct (nth_error l i); auto|]. destruct i; cbn; auto. Qed.

Lemma step_nth : forall d acc row i a s, nth_error acc i = Some a -> nth_error row i = Some s -> nth_error (step d acc row) i = Some (add_shards d a s).
Proof. intros d acc row i a s A S. unfold step. rewrite nth_error_map, nth_combine, A, S. auto. Qed.

Lemma step_length : forall d acc row, List.length row = List.length acc -> List.length (step d acc row) = List.length acc.
Proof. intros. unfold step. rewrite map_length, combine_length. lia. Qed.

Lemma fold_length : forall d rows acc, (forall row, In row rows -> List.length row = List.length acc) -> List.length (fold_left (step d) rows acc) = List.length acc.
Proof.
  intros d rows. induction rows as [|row rows IH]; intros acc H; auto. cbn [fold_left]. rewrite IH; [apply step_length; apply H; left; auto|]. intros r I. rewrite step_length by (apply H; left; auto). apply H. right. auto.
Qed.

(** Adding rows that have zeros at the place changes nothing there. *)
Lemma fold_zeros : forall d rows acc i a, nth_error acc i = Some a ->
  (forall row, In row rows -> nth_error row i = Some (repeat (zero_of d) (List.length a))) -> add_shards d a (repeat (zero_of d) (List.length a)) = a ->
  nth_error (fold_left (step d) rows acc) i = Some a.
Proof.
  intros d rows. induction rows as [|row rows IH]; intros acc i a A Z E; auto. cbn [fold_left]. apply IH; auto; [|intros r I; apply Z; right; auto]. rewrite <- E at 1. apply step_nth; auto. apply Z. left. auto.
Qed.

Lemma sequence_all : forall {A B} (f : A -> result B) (P : A -> B -> Prop) l, (forall x, In x l -> exists y, f x = Ok y /\ P x y) -> exists m, sequence (map f l) = Ok m /\ Forall2 P l m.
Proof.
  intros A B f P l. induction l as [|x l IH]; intros H; [exists []; split; [auto|constructor]|]. destruct (H x) as (y & E & Q); [left; auto|]. destruct IH as (m & F & G); [intros z I; apply H; right; auto|].
  exists (y :: m). cbn [map sequence]. rewrite E, F. split; [auto|constructor; auto].
Qed.

(* ---- specs ---- *)
Lemma nodup_length : forall (l : list string), List.length (nodup string_dec l) = List.length l <-> NoDup l.
Proof.
  intros l. split.
  - intros E. apply (@NoDup_incl_NoDup _ (nodup string_dec l)); [apply NoDup_nodup|lia|]. intros x I. apply nodup_In in I. auto.
  - intros N. rewrite nodup_fixed_point; auto.
Qed.

Lemma globalize_ok : forall axis sources a, (exists g, globalize axis sources a = Ok g) <-> proper_spec axis (spec a).
Proof.
  intros axis sources a. unfold globalize, proper_spec, named_sharding. destruct (existsb (names_axis axis) (spec a)) eqn:X.
  - split; [intros (g & G); discriminate|]. intros N. exfalso. inversion_clear N as [|? ? N1 N2]. apply N1. apply existsb_exists in X as (e & I & E). apply in_flat_map. exists e. split; auto. destruct e as [|b|l]; try discriminate. cbn in E. apply String.eqb_eq in E as ->. left. auto.
  - change (flat_map axes_of (Axis axis :: spec a)) with (axis :: flat_map used (spec a)). destruct (Nat.eqb_spec (List.length (nodup string_dec (axis :: flat_map used (spec a)))) (List.length (axis :: flat_map used (spec a)))) as [E|E].
    + apply nodup_length in E. cbn [rbind]. split; auto. eexists. reflexivity.
    + cbn [rbind]. split; [intros (g & G); discriminate|]. intros N. apply nodup_length in N. contradiction.
Qed.

Lemma buffer_length : forall d b s, List.length (buffer d b s) = List.length s.
Proof. intros. unfold buffer. destruct b; auto. apply repeat_length. Qed.

Definition buffers (sources : list (list bool)) (a : array) := map (fun x => map (fun y => buffer (dt a) (fst y) (snd y)) (combine (fst x) (snd x))) (combine sources (inputs a)).

Lemma globalize_eq : forall axis sources a, proper_spec axis (spec a) -> globalize axis sources a = Ok (Axis axis :: spec a, buffers sources a).
Proof.
  intros axis sources a P. destruct (proj2 (globalize_ok axis sources a) P) as (g & G). rewrite G. f_equal. unfold globalize in G. destruct (existsb _ _); [discriminate|]. unfold named_sharding in G. destruct (_ =? _); [|discriminate]. injection G as <-. auto.
Qed.

Lemma buffers_at : forall sources a r i b s, is_source sources r i b -> shard_at (inputs a) r i s -> shard_at (buffers sources a) r i (buffer (dt a) b s).
Proof.
  intros sources a r i b s (sr & S1 & S2) (ir & I1 & I2). unfold buffers. exists (map (fun y => buffer (dt a) (fst y) (snd y)) (combine sr ir)). split.
  - rewrite nth_error_map, nth_combine, S1, I1. auto.
  - rewrite nth_error_map, nth_combine, S2, I2. auto.
Qed.

Lemma merge_received : forall x64 axis sources n places a, good axis n places a -> flags sources n places -> 0 < n ->
  exists sh, rmap (merge x64 a) (globalize axis sources a) = Ok sh /\ received sources n places a sh /\ sh_dt sh = sum_dtype x64 (dt a).
Proof.
  intros x64 axis sources n places a (P & (UN & UR & US) & T) (FL & FR) NP. rewrite (globalize_eq _ _ _ P). cbn [rmap]. eexists. split; [reflexivity|]. split; [|reflexivity].
  unfold received, merge. cbn [sh_spec shards fst snd tl]. split; auto.
  set (B := buffers sources a). assert (BL : List.length B = n) by (unfold B, buffers; rewrite map_length, combine_length; lia).
  assert (BROW : forall row, In row B -> List.length row = places).
  { intros row I. unfold B, buffers in I. apply in_map_iff in I as ([x y] & <- & I). cbn [fst snd]. rewrite map_length, combine_length. rewrite (FR x) by (eapply in_combine_l; eauto). rewrite (UR y) by (eapply in_combine_r; eauto). lia. }
  assert (FLAG : forall r i s, shard_at (inputs a) r i s -> exists b, is_source sources r i b).
  { intros r i s (ir & I1 & I2). assert (R : r < List.length sources) by (rewrite FL, <- UN; apply nth_error_Some; congruence). apply nth_error_Some in R. destruct (nth_error sources r) as [sr|] eqn:S; [|congruence].
    assert (I : i < List.length sr). { rewrite (FR sr) by (eapply nth_error_In; eauto). rewrite <- (UR ir) by (eapply nth_error_In; eauto). apply nth_error_Some. congruence. }
    apply nth_error_Some in I. destruct (nth_error sr i) as [b|] eqn:SB; [|congruence]. exists b, sr. auto. }
  assert (SHARD : forall r i, r < n -> i < places -> exists s, shard_at (inputs a) r i s).
  { intros r i R I. rewrite <- UN in R. apply nth_error_Some in R. destruct (nth_error (inputs a) r) as [ir|] eqn:E; [|congruence]. assert (I' : i < List.length ir) by (rewrite (UR ir); auto; eapply nth_error_In; eauto).
    apply nth_error_Some in I'. destruct (nth_error ir i) as [s|] eqn:E2; [|congruence]. exists s, ir. auto. }
  set (sizes := map (@List.length value) (hd [] B)). assert (SZ : forall r i s, shard_at (inputs a) r i s -> nth_error sizes i = Some (List.length s)).
  { intros r i s SH. assert (I : i < places). { destruct SH as (ir & I1 & I2). rewrite <- (UR ir) by (eapply nth_error_In; eauto). apply nth_error_Some. congruence. }
    destruct (SHARD 0 i NP I) as (s0 & S0). destruct (FLAG _ _ _ S0) as (b & SB). destruct (buffers_at _ _ _ _ _ _ SB S0) as (row & R1 & R2). fold B in R1. unfold sizes. destruct B as [|row0 B']; [discriminate|]. injection R1 as ->. cbn [hd]. rewrite nth_error_map, R2. cbn. rewrite buffer_length. rewrite (US 0 r i s0 s); auto. }
  assert (SL : List.length sizes = places). { unfold sizes. rewrite map_length. destruct B as [|row0 B'] eqn:E; [cbn in BL; lia|]. cbn [hd]. apply BROW. left. auto. }
  unfold sum_replicas. fold (step (dt a)). change (fold_left (fun acc row => map (fun z => add_shards (dt a) (fst z) (snd z)) (combine acc row)) B (map (repeat (zero_of (dt a))) sizes)) with (fold_left (step (dt a)) B (map (repeat (zero_of (dt a))) sizes)).
  assert (START : forall r i s, shard_at (inputs a) r i s -> nth_error (map (repeat (zero_of (dt a))) sizes) i = Some (repeat (zero_of (dt a)) (List.length s))) by (intros r i s SH; rewrite nth_error_map, (SZ r i s SH); auto).
  assert (ZROW : forall r i q s, shard_at (inputs a) q i s -> r < n -> ~ is_source sources r i true -> forall row, nth_error B r = Some row -> nth_error row i = Some (repeat (zero_of (dt a)) (List.length s))).
  { intros r i q s SH R NS row RE. assert (I : i < places). { destruct SH as (ir & I1 & I2). rewrite <- (UR ir) by (eapply nth_error_In; eauto). apply nth_error_Some. congruence. }
    destruct (SHARD r i R I) as (s' & S'). destruct (FLAG _ _ _ S') as (b & SB). destruct b; [contradiction|]. destruct (buffers_at _ _ _ _ _ _ SB S') as (row' & R1 & R2). fold B in R1. rewrite RE in R1. injection R1 as <-. rewrite R2. cbn [buffer]. rewrite (US r q i s' s); auto. }
  split; [rewrite fold_length; [rewrite map_length; auto|intros row I; rewrite map_length, SL; auto]|]. split.
  - intros q i s SH SRC ONE. assert (Q : q < n) by (destruct SH as (ir & I1 & _); rewrite <- UN; apply nth_error_Some; congruence).
    destruct (buffers_at _ _ _ _ _ _ SRC SH) as (row & R1 & R2). fold B in R1. cbn [buffer] in R2. destruct (nth_error_split B q R1) as (l1 & l2 & EB & L1). rewrite EB, fold_left_app. cbn [fold_left].
    assert (TY : forall v, In v s -> typed (dt a) v) by (intros v; eapply T; eauto).
    assert (FIRST : nth_error (fold_left (step (dt a)) l1 (map (repeat (zero_of (dt a))) sizes)) i = Some (repeat (zero_of (dt a)) (List.length s))).
    { apply fold_zeros; [eapply START; eauto| |rewrite repeat_length; apply shards_zero_zero]. intros row' I. rewrite repeat_length. apply In_nth_error in I as (r & R). assert (RL : r < List.length l1) by (apply nth_error_Some; congruence).
      apply (ZROW r i q s SH); [lia| |rewrite EB, nth_error_app1; auto]. intros S. apply ONE in S. lia. }
    apply fold_zeros.
    + rewrite <- (shards_zero_add (dt a) s TY). apply step_nth; auto.
    + intros row' I. rewrite map_length. apply In_nth_error in I as (r & R). assert (RL : r < List.length l2) by (apply nth_error_Some; congruence). assert (BL' := BL). rewrite EB, app_length in BL'. cbn in BL'.
      apply (ZROW (List.length l1 + S r) i q s SH); [lia| |rewrite EB, nth_error_app2 by lia; replace (List.length l1 + S r - List.length l1) with (S r) by lia; auto]. intros S. apply ONE in S. lia.
    + rewrite map_length. apply shards_add_zero. auto.
  - intros q i s SH NONE. apply fold_zeros; [eapply START; eauto| |rewrite repeat_length; apply shards_zero_zero]. intros row I. rewrite repeat_length. apply In_nth_error in I as (r & R). apply (ZROW r i q s SH); auto. rewrite <- BL. apply nth_error_Some. congruence.
Qed.

Lemma sequence_concat : forall {A B} (f : A -> result B) (P : A -> B -> Prop) ls, (forall x, In x (List.concat ls) -> exists y, f x = Ok y /\ P x y) ->
  exists ms, sequence (map (fun l => sequence (map f l)) ls) = Ok ms /\ Forall2 P (List.concat ls) (List.concat ms) /\ List.length ms = List.length ls.
Proof.
  intros A B f P ls. induction ls as [|l ls IH]; intros H; [exists []; split; [auto|split; [constructor|auto]]|]. cbn [List.concat] in H.
  destruct (sequence_all f P l) as (m & E & F); [intros x I; apply H; apply in_app_iff; auto|]. destruct IH as (ms & G & K & L); [intros x I; apply H; apply in_app_iff; auto|].
  exists (m :: ms). cbn [map sequence]. rewrite E, G. split; auto. split; [cbn; apply Forall2_app; auto|cbn; auto].
Qed.
