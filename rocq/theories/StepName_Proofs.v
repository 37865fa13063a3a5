From Coq Require Import List Bool String Ascii ZArith NArith Lia Permutation Sorted.
From Verif Require Import Base Atomic_Model Atomic_Spec Atomic_Proofs Policy_Model StepName_Model StepName_Spec.
Import ListNotations.
Local Open Scope string_scope.
Local Open Scope list_scope.
Local Arguments N.mul : simpl never.
Local Arguments N.add : simpl never.
Local Arguments N.pow : simpl never.
Local Arguments N.of_nat : simpl never.
Local Arguments N.modulo : simpl never.
Local Arguments N.div : simpl never.
Local Arguments N.size_nat : simpl never.

(** * Digits *)

Definition of_lsb (l : list N) : N := fold_right (fun d a => (10 * a + d)%N) 0%N l.

Lemma lt10_cases : forall d, (d < 10)%N ->
  d = 0%N \/ d = 1%N \/ d = 2%N \/ d = 3%N \/ d = 4%N \/ d = 5%N \/ d = 6%N \/ d = 7%N \/ d = 8%N \/ d = 9%N.
Proof. intros. lia. Qed.

Lemma char_digit_char : forall d, (d < 10)%N -> char_digit (digit_char d) = Some d.
Proof.
  intros d H. apply lt10_cases in H.
  repeat (destruct H as [->|H]; [reflexivity|]). subst. reflexivity.
Qed.

Lemma char_digit_inv : forall c d, char_digit c = Some d -> (d < 10)%N /\ c = digit_char d.
Proof.
  intros c d H. unfold char_digit in H.
  destruct (48 <=? N_of_ascii c)%N eqn:E1; [|discriminate].
  destruct (N_of_ascii c <=? 57)%N eqn:E2; [|discriminate]. simpl in H. inversion H; subst.
  apply N.leb_le in E1. apply N.leb_le in E2. split; [lia|].
  unfold digit_char. replace (48 + (N_of_ascii c - 48))%N with (N_of_ascii c) by lia.
  symmetry. apply ascii_N_embedding.
Qed.

Lemma digit_char_zero : forall d, (d < 10)%N -> digit_char d = "0"%char -> d = 0%N.
Proof.
  intros d H. apply lt10_cases in H.
  repeat (destruct H as [->|H]; [(reflexivity || discriminate)|]). subst. discriminate.
Qed.

Lemma lsb_value : forall fuel n, of_lsb (digits_lsb fuel n) = n.
Proof.
  induction fuel; intros n; simpl.
  - lia.
  - destruct (n <? 10)%N; simpl; [lia|]. fold (of_lsb (digits_lsb fuel (n / 10))).
    rewrite IHfuel. pose proof (N.div_mod n 10). lia.
Qed.

Lemma lsb_small : forall fuel n, (n < 10 ^ (N.of_nat fuel + 1))%N ->
  Forall (fun d => (d < 10)%N) (digits_lsb fuel n).
Proof.
  induction fuel; intros n H.
  - cbn [digits_lsb]. repeat constructor. simpl in H. lia.
  - cbn [digits_lsb]. destruct (n <? 10)%N eqn:E.
    + apply N.ltb_lt in E. repeat constructor. auto.
    + constructor; [apply N.mod_lt; lia|]. apply IHfuel.
      apply N.div_lt_upper_bound; [lia|].
      replace (10 * 10 ^ (N.of_nat fuel + 1))%N with (10 ^ (N.of_nat (S fuel) + 1))%N; auto.
      replace (N.of_nat (S fuel) + 1)%N with (N.succ (N.of_nat fuel + 1)) by lia.
      rewrite N.pow_succ_r'. auto.
Qed.

Definition canonical (l : list N) : Prop :=
  match l with [] => False | [_] => True | _ => last l 0%N <> 0%N end.

Lemma lsb_nonempty : forall fuel n, digits_lsb fuel n <> [].
Proof. destruct fuel; simpl; intros; [discriminate|]. destruct (n <? 10)%N; discriminate. Qed.

Lemma lsb_canonical : forall fuel n, canonical (digits_lsb fuel n).
Proof.
  induction fuel; intros n; cbn [digits_lsb]; [simpl; auto|].
  destruct (n <? 10)%N eqn:E; [simpl; auto|]. apply N.ltb_ge in E.
  specialize (IHfuel (n / 10)%N).
  destruct (digits_lsb fuel (n / 10)) as [|d [|d' l]] eqn:El; simpl in *; try tauto.
  pose proof (lsb_value fuel (n / 10)) as V. rewrite El in V. simpl in V.
  intro Z0. subst. assert (1 <= n / 10)%N by (apply N.div_le_lower_bound; lia). lia.
Qed.

Lemma canonical_pos : forall l, Forall (fun d => (d < 10)%N) l -> last l 0%N <> 0%N -> l <> [] -> (1 <= of_lsb l)%N.
Proof.
  induction l as [|d l IH]; intros H1 H2 H3; [tauto|]. cbn [of_lsb fold_right].
  fold (of_lsb l). inversion H1; subst. destruct l as [|d' l'].
  - simpl in *. lia.
  - assert (1 <= of_lsb (d' :: l'))%N by (apply IH; auto; discriminate). lia.
Qed.

Lemma lsb_unique : forall l fuel, Forall (fun d => (d < 10)%N) l -> canonical l ->
  (of_lsb l < 10 ^ (N.of_nat fuel + 1))%N -> digits_lsb fuel (of_lsb l) = l.
Proof.
  induction l as [|d l IH]; intros fuel H C B; [destruct C|]. inversion H; subst.
  destruct l as [|d' l'].
  - cbn [of_lsb fold_right] in *. destruct fuel; cbn [digits_lsb]; [f_equal; lia|].
    replace (10 * 0 + d)%N with d by lia. rewrite (proj2 (N.ltb_lt d 10)); auto.
  - assert (P : (1 <= of_lsb (d' :: l'))%N).
    { apply canonical_pos; auto. discriminate. }
    cbn [of_lsb fold_right] in B |- *. fold (of_lsb l') in *.
    change (10 * of_lsb l' + d')%N with (of_lsb (d' :: l')) in *.
    set (v := of_lsb (d' :: l')) in *.
    destruct fuel; [simpl in B; lia|]. cbn [digits_lsb].
    rewrite (proj2 (N.ltb_ge _ 10)) by lia.
    assert (M : ((10 * v + d) mod 10 = d)%N) by (symmetry; apply N.mod_unique with v; auto).
    assert (D : ((10 * v + d) / 10 = v)%N) by (symmetry; apply N.div_unique with d; auto).
    rewrite M, D.
    f_equal. apply IH; auto.
    + simpl. simpl in C. destruct l'; auto.
    + replace (N.of_nat (S fuel) + 1)%N with (N.succ (N.of_nat fuel + 1)) in B by lia.
      rewrite N.pow_succ_r' in B. lia.
Qed.

Lemma size_bound : forall n, (n < 10 ^ (N.of_nat (N.size_nat n) + 1))%N.
Proof.
  intros n. assert (n < 2 ^ N.size n)%N by apply N.size_gt.
  assert (E : N.of_nat (N.size_nat n) = N.size n).
  { clear H. destruct n as [|p]; auto. unfold N.size_nat, N.size. induction p; cbn [Pos.size_nat Pos.size]; auto; lia. }
  rewrite E. eapply N.lt_le_trans; eauto.
  eapply N.le_trans; [apply N.pow_le_mono_l with (b := 10%N); lia|].
  apply N.pow_le_mono_r; lia.
Qed.

Definition is_digit (c : ascii) : Prop := exists d, char_digit c = Some d.

Lemma all_digits_spec : forall l, all_digits l = true <-> l <> [] /\ Forall is_digit l.
Proof.
  intros l. destruct l as [|c l]; [simpl; split; [discriminate|intuition]|].
  unfold all_digits. rewrite forallb_forall, Forall_forall. split.
  - intros H. split; [discriminate|]. intros x Hx. specialize (H x Hx). unfold is_digit.
    destruct (char_digit x); [eauto|discriminate].
  - intros [_ H] x Hx. destruct (H x Hx) as (d & ->). auto.
Qed.

Lemma parse_fold : forall ds acc, Forall (fun d => (d < 10)%N) ds ->
  parse_digits acc (map digit_char ds) = Some (fold_left (fun a d => (10 * a + d)%N) ds acc).
Proof.
  induction ds; intros acc H; cbn [map parse_digits fold_left]; auto. inversion H; subst.
  rewrite char_digit_char by auto. apply IHds; auto.
Qed.

Lemma digits_exist : forall l, Forall is_digit l ->
  exists ds, l = map digit_char ds /\ Forall (fun d => (d < 10)%N) ds.
Proof.
  induction l as [|c l IH]; intros H; [exists []; auto|]. inversion H; subst.
  destruct IH as (ds & -> & F); auto. destruct H2 as (d & E). apply char_digit_inv in E.
  destruct E as [E ->]. exists (d :: ds). split; auto.
Qed.

Lemma digits_is_digit : forall ds, Forall (fun d => (d < 10)%N) ds -> Forall is_digit (map digit_char ds).
Proof.
  induction ds; intros H; simpl; auto. inversion H; subst. constructor; auto.
  exists a. apply char_digit_char; auto.
Qed.

Definition lsb (n : N) : list N := digits_lsb (N.size_nat n) n.

Lemma lsb_lt10 : forall n, Forall (fun d => (d < 10)%N) (lsb n).
Proof. intros. apply lsb_small. apply size_bound. Qed.

Lemma dec_eq : forall n, dec n = map digit_char (rev (lsb n)).
Proof. intros. unfold dec, lsb. rewrite map_rev. auto. Qed.

Lemma Forall_rev' : forall (A : Type) (P : A -> Prop) l, Forall P l -> Forall P (rev l).
Proof. intros. apply Forall_forall. intros x Hx. rewrite <- in_rev in Hx. rewrite Forall_forall in H. auto. Qed.

Lemma fold_lr : forall l, fold_left (fun a d => (10 * a + d)%N) (rev l) 0%N = of_lsb l.
Proof.
  intros. pose proof (fold_left_rev_right (fun d a => (10 * a + d)%N) (rev l) 0%N) as H.
  rewrite rev_involutive in H. symmetry. exact H.
Qed.

Lemma parse_dec : forall n, parse_digits 0 (dec n) = Some n.
Proof.
  intros. rewrite dec_eq, parse_fold by (apply Forall_rev', lsb_lt10).
  rewrite fold_lr. unfold lsb. rewrite lsb_value. auto.
Qed.

Lemma dec_digits : forall n, Forall is_digit (dec n).
Proof. intros. rewrite dec_eq. apply digits_is_digit, Forall_rev', lsb_lt10. Qed.

Lemma dec_nonempty : forall n, dec n <> [].
Proof.
  intros n H. unfold dec in H. apply (f_equal (@List.length ascii)) in H.
  rewrite rev_length, map_length in H. apply (lsb_nonempty (N.size_nat n) n).
  destruct (digits_lsb (N.size_nat n) n); auto. discriminate.
Qed.

Lemma dec_head : forall n c l, dec n = c :: l -> c = "0"%char -> l = [].
Proof.
  intros n c l H E. subst c. rewrite dec_eq in H.
  pose proof (lsb_canonical (N.size_nat n) n) as C. fold (lsb n) in C.
  pose proof (lsb_lt10 n) as F.
  destruct (lsb n) as [|d l0] eqn:El; [destruct C|]. destruct l0 as [|d2 l0].
  - simpl in H. inversion H. auto.
  - exfalso. destruct (exists_last (l := d :: d2 :: l0)) as (m & z & Em); [discriminate|].
    assert (L : last (d :: d2 :: l0) 0%N <> 0%N) by exact C.
    rewrite Em in H, F, L. rewrite rev_app_distr in H. simpl in H. inversion H.
    apply Forall_app in F. destruct F as [_ F]. inversion F; subst.
    apply digit_char_zero in H1; auto. subst. rewrite last_last in L. auto.
Qed.

Lemma parse_repeat0 : forall k l acc, parse_digits acc (repeat "0"%char k ++ l) = parse_digits (10 ^ N.of_nat k * acc)%N l.
Proof.
  induction k; intros l acc.
  - simpl. f_equal. destruct acc; auto.
  - cbn [repeat app parse_digits]. change (char_digit "0") with (Some 0%N). cbv iota.
    rewrite IHk. f_equal. replace (N.of_nat (S k)) with (N.succ (N.of_nat k)) by lia.
    rewrite N.pow_succ_r'. lia.
Qed.

Lemma parse_pad : forall k n, parse_digits 0 (repeat "0"%char k ++ dec n) = Some n.
Proof. intros. rewrite parse_repeat0, N.mul_0_r. apply parse_dec. Qed.

Lemma map_digit_inj : forall a b, Forall (fun d => (d < 10)%N) a -> Forall (fun d => (d < 10)%N) b ->
  map digit_char a = map digit_char b -> a = b.
Proof.
  induction a; destruct b; simpl; intros Ha Hb H; try discriminate; auto.
  inversion H. inversion Ha; inversion Hb; subst. f_equal; auto.
  apply (f_equal char_digit) in H1. rewrite !char_digit_char in H1 by auto. congruence.
Qed.

(** Any non-empty string of digits is zeros followed by the decimal digits of its
    value. *)
Lemma digits_normal : forall l, l <> [] -> Forall is_digit l ->
  exists k v, l = repeat "0"%char k ++ dec v /\ parse_digits 0 l = Some v.
Proof.
  induction l as [|c l IH]; intros H1 H2; [tauto|]. inversion H2; subst.
  destruct l as [|c2 l].
  - destruct H3 as (d & E). pose proof (char_digit_inv _ _ E) as [Hd ->].
    exists 0%nat, d. cbn [parse_digits]. rewrite E. split; [|f_equal; lia].
    simpl. apply lt10_cases in Hd. repeat (destruct Hd as [->|Hd]; [reflexivity|]). subst. reflexivity.
  - destruct (ascii_dec c "0") as [->|Nz].
    + destruct IH as (k & v & E & P); [discriminate|auto|].
      exists (S k), v. simpl repeat. rewrite <- app_comm_cons. split; [f_equal; exact E|]. exact P.
    + destruct (digits_exist (c :: c2 :: l)) as (ds & E & F); auto.
      exists 0%nat, (of_lsb (rev ds)).
      assert (Ed : c :: c2 :: l = dec (of_lsb (rev ds))).
      { rewrite dec_eq. unfold lsb. rewrite lsb_unique.
        - rewrite rev_involutive. auto.
        - apply Forall_rev'; auto.
        - destruct ds as [|d0 ds]; [discriminate|].
          assert (Hl : last (rev (d0 :: ds)) 0%N <> 0%N).
          { simpl. rewrite last_last. intros ->. apply Nz. inversion E. reflexivity. }
          unfold canonical. destruct (rev (d0 :: ds)) as [|x [|y z]] eqn:Er; auto.
        - apply size_bound. }
      split; [exact Ed|]. rewrite Ed. apply parse_dec.
Qed.

Lemma dec_inj : forall a b, dec a = dec b -> a = b.
Proof.
  intros a b H. apply (f_equal (parse_digits 0)) in H. rewrite !parse_dec in H. congruence.
Qed.

(** * Lists and strings *)

Lemma las_app : forall a b, list_ascii_of_string (a ++ b)%string = list_ascii_of_string a ++ list_ascii_of_string b.
Proof. induction a; simpl; intros; auto. f_equal. auto. Qed.

Lemma sla_app : forall a b, string_of_list_ascii (a ++ b) = (string_of_list_ascii a ++ string_of_list_ascii b)%string.
Proof. induction a; simpl; intros; auto. f_equal. auto. Qed.

Lemma las_sla : forall l, list_ascii_of_string (string_of_list_ascii l) = l.
Proof. apply list_ascii_of_string_of_list_ascii. Qed.
Lemma sla_las : forall s, string_of_list_ascii (list_ascii_of_string s) = s.
Proof. apply string_of_list_ascii_of_string. Qed.

Lemma split_some : forall l a g, split_last_underscore l = Some (a, g) <->
  l = a ++ "_"%char :: g /\ ~ In "_"%char g.
Proof.
  assert (N : forall l, split_last_underscore l = None <-> ~ In "_"%char l).
  { induction l as [|c l IH]; simpl; [tauto|]. destruct (split_last_underscore l) as [[a b]|].
    - split; [discriminate|]. intros H. exfalso. apply H. right.
      destruct (in_dec ascii_dec "_"%char l); auto. apply IH in n. discriminate.
    - destruct (Ascii.eqb c "_") eqn:E.
      + apply Ascii.eqb_eq in E. subst. split; [discriminate|]. intros H. exfalso. auto.
      + apply Ascii.eqb_neq in E. pose proof (proj1 IH eq_refl). split; auto. intros _ [X|X]; auto. }
  induction l as [|c l IH]; intros a g; simpl.
  - split; [discriminate|]. intros [H _]. destruct a; discriminate.
  - destruct (split_last_underscore l) as [[a0 b0]|] eqn:E.
    + split.
      * intros H. inversion H; subst. destruct (proj1 (IH a0 g) eq_refl) as [-> Hn]. auto.
      * intros [H Hn]. destruct a as [|x a]; simpl in H; inversion H; subst.
        -- exfalso. apply N in Hn. congruence.
        -- f_equal. assert (X : Some (a0, b0) = Some (a, g)) by (apply IH; auto). inversion X. auto.
    + destruct (Ascii.eqb c "_") eqn:Ec.
      * apply Ascii.eqb_eq in Ec. subst. split.
        -- intros H. inversion H; subst. split; auto. apply N; auto.
        -- intros [H Hn]. destruct a as [|x a]; simpl in H; inversion H; subst; auto.
           assert (X : None = Some (a, g)) by (apply IH; auto). discriminate.
      * split; [discriminate|]. intros [H Hn]. destruct a as [|x a]; simpl in H; inversion H; subst.
        -- discriminate.
        -- assert (X : None = Some (a, g)) by (apply IH; auto). discriminate.
Qed.

Lemma strip_newline_id : forall l, (forall l', l <> l' ++ [newline]) -> strip_newline l = l.
Proof.
  intros l H. unfold strip_newline. destruct (rev l) as [|c r] eqn:E; auto.
  destruct (Ascii.eqb c "010") eqn:Ec; auto. apply Ascii.eqb_eq in Ec. subst.
  exfalso. apply (H (rev r)). rewrite <- (rev_involutive l), E. reflexivity.
Qed.

Lemma digit_not_newline : forall c, is_digit c -> c <> newline.
Proof. intros c (d & H) ->. discriminate. Qed.
Lemma digit_not_underscore : forall c, is_digit c -> c <> "_"%char.
Proof. intros c (d & H) ->. discriminate. Qed.

Lemma digits_end : forall a g, g <> [] -> Forall is_digit g -> forall l', a ++ g <> l' ++ [newline].
Proof.
  intros a g Hg F l' H. destruct (exists_last Hg) as (m & z & ->). rewrite app_assoc in H.
  apply app_inj_tail in H. destruct H as [_ ->]. apply Forall_app in F. destruct F as [_ F].
  inversion F; subst. apply (digit_not_newline newline); auto.
Qed.

(** * Literal prefixes *)

Lemma plain_char : forall c, ~ In c special ->
  unmodelled_char c = false /\ quant_of c = None /\ Ascii.eqb c "." = false.
Proof.
  intros c H. split; [|split].
  - unfold unmodelled_char. destruct (existsb _ _) eqn:E; auto. exfalso. apply existsb_exists in E.
    destruct E as (x & Hx & E). apply Ascii.eqb_eq in E. subst. apply H. unfold special. simpl in *. tauto.
  - unfold quant_of. destruct (Ascii.eqb c "*") eqn:E1; [apply Ascii.eqb_eq in E1; subst; exfalso; apply H; simpl; tauto|].
    destruct (Ascii.eqb c "+") eqn:E2; [apply Ascii.eqb_eq in E2; subst; exfalso; apply H; simpl; tauto|].
    destruct (Ascii.eqb c "?") eqn:E3; [apply Ascii.eqb_eq in E3; subst; exfalso; apply H; simpl; tauto|]. auto.
  - apply Ascii.eqb_neq. intros ->. apply H. simpl. tauto.
Qed.

Lemma parse_plain : forall l, (forall c, In c l -> ~ In c special) ->
  parse_prefix l = Ok (map (fun c => (AChar c, QOne)) l).
Proof.
  induction l as [|c l IH]; intros H; auto.
  destruct (plain_char c (H c (or_introl eq_refl))) as (E1 & E2 & E3).
  cbn [parse_prefix]. rewrite E1, E2, E3. destruct l as [|q l]; auto.
  destruct (plain_char q (H q (or_intror (or_introl eq_refl)))) as (_ & F2 & _).
  rewrite F2. rewrite IH by (simpl in *; auto). reflexivity.
Qed.

Lemma items_plain : forall l a, items_match (map (fun c => (AChar c, QOne)) l) a = true <-> a = l.
Proof.
  induction l as [|c l IH]; intros a; simpl.
  - destruct a; split; auto; discriminate.
  - destruct a as [|x a]; [split; discriminate|]. rewrite andb_true_iff, IH.
    rewrite Ascii.eqb_eq. split; [intros [-> ->]; auto|]. intros H; inversion H; auto.
Qed.

(** * Names of the standard format *)

Definition prefix_chars (f : fmt) : list ascii := list_ascii_of_string (prefix_with_underscore (step_prefix f)).

Definition padding (f : fmt) (v : N) : nat :=
  match fixed_length f with None => 0 | Some w => Z.to_nat w - List.length (dec v) end.

Lemma build_nonneg : forall f s, (0 <= s)%Z -> width_ok f ->
  build_name f s = Ok (prefix_with_underscore (step_prefix f) ++
     string_of_list_ascii (repeat "0"%char (padding f (Z.to_N s)) ++ dec (Z.to_N s)))%string.
Proof.
  intros f s Hs Hw. unfold build_name, format_step, padding, width_ok in *.
  rewrite (proj2 (Z.ltb_ge s 0)) by lia. replace (Z.abs_N s) with (Z.to_N s) by (destruct s; auto; lia).
  destruct (fixed_length f) as [w|]; auto.
  rewrite (proj2 (Z.ltb_ge w 0)) by lia. simpl List.length. rewrite Nat.sub_0_r. reflexivity.
Qed.

Lemma build_width : forall f s n, build_name f s = Ok n -> width_ok f.
Proof.
  intros f s n H. unfold build_name, format_step, width_ok in *. destruct (fixed_length f) as [w|]; auto.
  destruct (w <? 0)%Z eqn:E; [discriminate|]. apply Z.ltb_ge in E. auto.
Qed.

Lemma group_ok : forall f v, width_ok f ->
  group_match (fixed_length f) (repeat "0"%char (padding f v) ++ dec v) = true.
Proof.
  intros f v Hw. unfold group_match. apply andb_true_intro. split.
  - apply all_digits_spec. split.
    + destruct (padding f v); [apply dec_nonempty|discriminate].
    + apply Forall_app. split; [|apply dec_digits]. apply Forall_forall. intros x Hx.
      apply repeat_spec in Hx. subst. exists 0%N. reflexivity.
  - unfold padding, width_ok in *.
    assert (P0 : match dec v with [] => false
                 | c :: g' => if Ascii.eqb c "0" then match g' with [] => true | _ :: _ => false end else true end = true).
    { destruct (dec v) as [|c g'] eqn:E; [destruct (dec_nonempty _ E)|].
      destruct (Ascii.eqb c "0") eqn:Ec; auto. apply Ascii.eqb_eq in Ec.
      rewrite (dec_head _ _ _ E Ec). auto. }
    destruct (fixed_length f) as [w|]; [|simpl; exact P0].
    destruct (0 <? w)%Z eqn:Ew.
    + apply Z.ltb_lt in Ew. remember (Z.to_nat w - List.length (dec v)) as k. destruct k as [|k].
      * cbn [repeat app]. destruct (dec v) as [|c g'] eqn:E; [destruct (dec_nonempty _ E)|].
        cbn [List.length] in *.
        destruct (Ascii.eqb c "0") eqn:Ec.
        -- apply Ascii.eqb_eq in Ec. pose proof (dec_head _ _ _ E Ec). subst g'. cbn [List.length] in *.
           apply Z.eqb_eq. lia.
        -- apply Z.leb_le. lia.
      * cbn [repeat app]. rewrite Ascii.eqb_refl. apply Z.eqb_eq. cbn [List.length].
        rewrite app_length, repeat_length. lia.
    + apply Z.ltb_ge in Ew. replace (Z.to_nat w) with 0 by lia. simpl. exact P0.
Qed.

Lemma group_inv : forall f g, width_ok f -> group_match (fixed_length f) g = true ->
  exists v, g = repeat "0"%char (padding f v) ++ dec v /\ parse_digits 0 g = Some v.
Proof.
  intros f g Hw H. unfold group_match in H. apply andb_prop in H. destruct H as [H1 H2].
  apply all_digits_spec in H1. destruct H1 as [Hn Hd].
  destruct (digits_normal g Hn Hd) as (k & v & E & P). exists v. split; auto.
  assert (K0 : match g with [] => false | c :: g' => if Ascii.eqb c "0" then match g' with [] => true | _ :: _ => false end else true end = true -> k = 0).
  { intros X. destruct k as [|k]; auto. subst g. simpl in X.
    destruct (repeat "0"%char k ++ dec v) eqn:Z0; [|discriminate].
    apply app_eq_nil in Z0. destruct (dec_nonempty _ (proj2 Z0)). }
  rewrite E at 1. f_equal. f_equal. unfold padding, width_ok in *.
  destruct (fixed_length f) as [w|].
  - destruct (0 <? w)%Z eqn:Ew.
    + apply Z.ltb_lt in Ew. destruct g as [|c g']; [tauto|].
      assert (L : List.length (c :: g') = k + List.length (dec v)) by (rewrite E, app_length, repeat_length; auto).
      destruct (Ascii.eqb c "0") eqn:Ec.
      * apply Z.eqb_eq in H2. lia.
      * apply Z.leb_le in H2. destruct k as [|k]; [lia|]. inversion E; subst. discriminate.
    + apply Z.ltb_ge in Ew. rewrite K0 by (destruct g; auto). lia.
  - apply K0. destruct g; auto.
Qed.

Lemma digit_group : forall f v, Forall is_digit (repeat "0"%char (padding f v) ++ dec v) /\
   repeat "0"%char (padding f v) ++ dec v <> [].
Proof.
  intros f v. split.
  - apply Forall_app. split; [|apply dec_digits]. apply Forall_forall. intros x Hx.
    apply repeat_spec in Hx. subst. exists 0%N. reflexivity.
  - destruct (padding f v); [apply dec_nonempty|discriminate].
Qed.

Lemma recognise_build : forall f s n, plain_prefix (step_prefix f) -> (0 <= s)%Z ->
  build_name f s = Ok n -> recognise f n = Ok (Some s).
Proof.
  intros f s n Hp Hs H. pose proof (build_width _ _ _ H) as Hw.
  rewrite build_nonneg in H by auto. inversion H; subst n. clear H.
  destruct (digit_group f (Z.to_N s)) as [Gd Gn].
  set (g := repeat "0"%char (padding f (Z.to_N s)) ++ dec (Z.to_N s)) in *.
  assert (G : group_match (fixed_length f) g = true) by (apply group_ok; auto).
  assert (P : parse_digits 0 g = Some (Z.to_N s)) by apply parse_pad.
  unfold recognise. rewrite las_app, las_sla.
  rewrite strip_newline_id by (apply digits_end; auto).
  destruct (step_prefix f) as [p|]; simpl prefix_with_underscore.
  - rewrite parse_plain by (intros c Hc; eapply Hp; eauto).
    rewrite las_app. simpl list_ascii_of_string at 2. rewrite <- app_assoc. simpl app.
    assert (E : split_last_underscore (list_ascii_of_string p ++ "_"%char :: g) = Some (list_ascii_of_string p, g)).
    { apply split_some. split; auto. intro X. rewrite Forall_forall in Gd.
      apply (digit_not_underscore _ (Gd _ X)); auto. }
    rewrite E. rewrite (proj2 (items_plain _ _) eq_refl), G, P. rewrite Z2N.id by auto. auto.
  - cbn [list_ascii_of_string app]. rewrite G, P. rewrite Z2N.id by auto. auto.
Qed.

Lemma recognise_inv : forall f n s, plain_prefix (step_prefix f) -> width_ok f ->
  ~ ends_with_newline n -> recognise f n = Ok (Some s) ->
  (0 <= s)%Z /\ build_name f s = Ok n.
Proof.
  intros f n s Hp Hw Hn H. unfold recognise in H.
  rewrite strip_newline_id in H by (intros l' E; apply Hn; exists l'; auto).
  assert (K : forall g, (if group_match (fixed_length f) g
     then match parse_digits 0 g with Some v => Some (Z.of_N v) | None => None end else None) = Some s ->
     exists v, s = Z.of_N v /\ g = repeat "0"%char (padding f v) ++ dec v).
  { intros g Hg. destruct (group_match (fixed_length f) g) eqn:G; [|discriminate].
    destruct (group_inv f g Hw G) as (v & E & P). rewrite P in Hg. inversion Hg. eauto. }
  destruct (step_prefix f) as [p|] eqn:Ep.
  - rewrite parse_plain in H by (intros c Hc; eapply Hp; eauto).
    destruct (split_last_underscore (list_ascii_of_string n)) as [[a g]|] eqn:Es; [|discriminate].
    destruct (items_match _ a) eqn:Ei; [|discriminate]. apply items_plain in Ei. subst a.
    inversion H as [H']. apply K in H'. destruct H' as (v & -> & Eg). split; [lia|].
    rewrite build_nonneg by (auto; lia). rewrite N2Z.id, <- Eg, Ep.
    apply split_some in Es. destruct Es as [Es _]. f_equal.
    rewrite <- (sla_las n), Es, sla_app. rewrite sla_las. simpl.
    rewrite app_str_assoc. reflexivity.
  - inversion H as [H']. apply K in H'. destruct H' as (v & -> & Eg). split; [lia|].
    rewrite build_nonneg by (auto; lia). rewrite N2Z.id, <- Eg, Ep. simpl. rewrite sla_las. auto.
Qed.

(** * Injectivity, for all steps *)

Lemma app_len_inj : forall (A : Type) (a b c d : list A),
  a ++ b = c ++ d -> List.length a = List.length c -> a = c /\ b = d.
Proof.
  induction a; destruct c; simpl; intros d H L; try discriminate; auto.
  inversion H. inversion L. destruct (IHa _ _ _ H2 H3); subst; auto.
Qed.

Lemma dec_not_minus : forall k v l, repeat "0"%char k ++ dec v <> "-"%char :: l.
Proof.
  intros k v l H. destruct k; [|discriminate]. simpl in H.
  pose proof (dec_digits v) as F. rewrite H in F. inversion F; subst. destruct H2. discriminate.
Qed.

Lemma build_injective : forall f s s' n, build_name f s = Ok n -> build_name f s' = Ok n -> s = s'.
Proof.
  intros f s s' n H1 H2.
  assert (E : exists t, format_step (fixed_length f) s = Ok t /\ format_step (fixed_length f) s' = Ok t).
  { unfold build_name in *.
    destruct (format_step (fixed_length f) s) as [t|]; [|discriminate].
    destruct (format_step (fixed_length f) s') as [t'|]; [|discriminate].
    simpl in *. exists t. split; auto. f_equal. inversion H1; inversion H2; subst.
    symmetry in H3. apply app_str_inv_l in H3. auto. }
  clear H1 H2. destruct E as (t & H1 & H2). unfold format_step in *.
  assert (Conc : forall k k',
    (if (s <? 0)%Z then ["-"%char] else []) ++ repeat "0"%char k ++ dec (Z.abs_N s) =
    (if (s' <? 0)%Z then ["-"%char] else []) ++ repeat "0"%char k' ++ dec (Z.abs_N s') -> s = s').
  { intros k k' E.
    destruct (s <? 0)%Z eqn:Es; destruct (s' <? 0)%Z eqn:Es';
      try apply Z.ltb_lt in Es; try apply Z.ltb_lt in Es'; try apply Z.ltb_ge in Es; try apply Z.ltb_ge in Es'.
    - simpl in E. inversion E as [E']. apply (f_equal (parse_digits 0)) in E'.
      rewrite !parse_pad in E'. inversion E'. destruct s, s'; simpl in *; try lia.
    - symmetry in E. exfalso. eapply dec_not_minus. exact E.
    - exfalso. eapply dec_not_minus. exact E.
    - cbn [app] in E. apply (f_equal (parse_digits 0)) in E.
      rewrite !parse_pad in E. inversion E. destruct s, s'; simpl in *; try lia. }
  destruct (fixed_length f) as [w|].
  - destruct (w <? 0)%Z; [discriminate|]. inversion H1; inversion H2; subst.
    apply (f_equal list_ascii_of_string) in H3. rewrite !las_sla in H3. symmetry in H3.
    eapply Conc; eauto.
  - inversion H1; inversion H2; subst.
    apply (f_equal list_ascii_of_string) in H3. rewrite !las_sla in H3. symmetry in H3.
    apply (Conc 0 0). exact H3.
Qed.

(** * The name as specified *)

Lemma denotes_parse : forall ds v, denotes ds v <-> Forall is_digit ds /\ parse_digits 0 ds = Some v.
Proof.
  assert (A : forall ds d acc v, parse_digits acc ds = Some v -> (d < 10)%N ->
     parse_digits acc (ds ++ [digit_char d]) = Some (10 * v + d)%N).
  { induction ds; intros d acc v H Hd.
    - simpl in H. inversion H; subst. cbn [app parse_digits]. rewrite char_digit_char; auto.
    - cbn [app parse_digits] in *. destruct (char_digit a); [|discriminate]. auto. }
  intros ds v. split.
  - intros H. induction H.
    + split; auto.
    + destruct IHdenotes. split.
      * apply Forall_app. split; auto. repeat constructor. exists d. apply (char_digit_char d); auto.
      * apply A; auto.
  - revert v. induction ds as [|c ds IH] using rev_ind; intros v [F P].
    + simpl in P. inversion P. constructor.
    + apply Forall_app in F. destruct F as [F1 F2]. inversion F2; subst.
      destruct H1 as (d & E). apply char_digit_inv in E. destruct E as [Hd ->].
      assert (exists u, parse_digits 0 ds = Some u) as (u & Eu).
      { clear -F1. generalize 0%N. induction ds; intros acc; cbn [parse_digits]; eauto.
        inversion F1; subst. destruct H1 as (d & ->). auto. }
      rewrite (A _ _ _ _ Eu Hd) in P. inversion P; subst. constructor; auto.
Qed.

Lemma group_spec : forall f g, width_ok f ->
  (group_match (fixed_length f) g = true <->
   g <> [] /\ Forall is_digit g /\
   let w := match fixed_length f with Some w => Z.max 1 w | None => 1%Z end in
    (Z.of_nat (List.length g) = w \/
     (w < Z.of_nat (List.length g))%Z /\ forall g', g <> "0"%char :: g')).
Proof.
  intros f g Hw. unfold group_match, width_ok in *. rewrite andb_true_iff, all_digits_spec.
  destruct g as [|c g]; [intuition discriminate|].
  assert (L : forall (x : bool), (if Ascii.eqb c "0" then x else true) = true <-> (c = "0"%char -> x = true)).
  { intros x. destruct (Ascii.eqb c "0") eqn:E.
    - apply Ascii.eqb_eq in E. intuition.
    - apply Ascii.eqb_neq in E. intuition. }
  assert (M : (forall g', c :: g <> "0"%char :: g') <-> c <> "0"%char).
  { split; [intros H -> ; eapply H; eauto|]. intros H g' E. inversion E; auto. }
  cbv zeta. rewrite M.
  destruct (ascii_dec c "0") as [->|Nc].
  - rewrite Ascii.eqb_refl. cbn [List.length]. destruct (fixed_length f) as [w|].
    + destruct (0 <? w)%Z eqn:E.
      * apply Z.ltb_lt in E. rewrite Z.eqb_eq. rewrite Z.max_r by lia. intuition.
      * apply Z.ltb_ge in E. rewrite Z.max_l by lia. destruct g; cbn [List.length]; intuition (try discriminate; try lia).
    + destruct g; cbn [List.length]; intuition (try discriminate; try lia).
  - rewrite (proj2 (Ascii.eqb_neq c "0") Nc). cbn [List.length].
    assert (X : forall w, (w <= Z.of_nat (S (List.length g)))%Z <->
       Z.of_nat (S (List.length g)) = w \/ (w < Z.of_nat (S (List.length g)))%Z /\ c <> "0"%char).
    { intros w. split.
      - intros H. destruct (Z.eq_dec (Z.of_nat (S (List.length g))) w); [left; auto|right; split; [lia|auto]].
      - intros [H|[H _]]; lia. }
    assert (X1 : (1 <= Z.of_nat (S (List.length g)))%Z) by lia. apply X in X1.
    destruct (fixed_length f) as [w|]; [destruct (0 <? w)%Z eqn:E|].
    + apply Z.ltb_lt in E. rewrite Z.leb_le, Z.max_r by lia. specialize (X w). tauto.
    + apply Z.ltb_ge in E. rewrite Z.max_l by lia. tauto.
    + tauto.
Qed.

Lemma build_name_of : forall f v n, width_ok f ->
  (build_name f (Z.of_N v) = Ok n <-> name_of f v n).
Proof.
  intros f v n Hw. rewrite build_nonneg by (auto; lia). rewrite N2Z.id.
  destruct (digit_group f v) as [Gd Gn].
  set (g := repeat "0"%char (padding f v) ++ dec v) in *.
  split.
  - intros H. inversion H; subst n. exists g.
    assert (G : group_match (fixed_length f) g = true) by (apply group_ok; auto).
    apply group_spec in G; auto. destruct G as (_ & _ & G). split; [|split; [|split]]; auto.
    apply denotes_parse. split; auto. apply parse_pad.
  - intros (ds & -> & Hn & D & L). apply denotes_parse in D. destruct D as [D P].
    assert (G : group_match (fixed_length f) ds = true) by (apply group_spec; auto).
    destruct (group_inv f ds Hw G) as (v' & E & P'). rewrite P in P'. inversion P'; subst v'.
    fold g in E. subst ds. reflexivity.
Qed.

(** * Listing *)

Lemma sequence_ok : forall (A B : Type) (h : A -> result B) l ls,
  sequence (map h l) = Ok ls -> Forall2 (fun a b => h a = Ok b) l ls.
Proof.
  induction l as [|a l IH]; intros ls H; simpl in H.
  - inversion H. constructor.
  - destruct (h a) eqn:E; simpl in H; [|discriminate].
    destruct (sequence (map h l)) eqn:E2; simpl in H; [|discriminate]. inversion H; subst.
    constructor; auto.
Qed.

Lemma sequence_all : forall (A B : Type) (h : A -> result B) (g : A -> B) l,
  (forall a, In a l -> h a = Ok (g a)) -> sequence (map h l) = Ok (map g l).
Proof.
  induction l as [|a l IH]; intros H; simpl; auto. rewrite H by (simpl; auto). simpl.
  rewrite IH by (simpl in *; auto). auto.
Qed.

Definition metas (p : proto) (legacy : bool) (f : fmt) (r : root) (n : string) : option metadata :=
  match build_metadata p legacy f r n None with Ok o => o | Err _ => None end.

Lemma plain_recognise_ok : forall f n, plain_prefix (step_prefix f) -> exists o, recognise f n = Ok o.
Proof.
  intros f n Hp. unfold recognise. destruct (step_prefix f) as [q|] eqn:E; [|eauto].
  rewrite parse_plain by (intros c Hc; eapply Hp; eauto).
  destruct (split_last_underscore _) as [[a g]|]; eauto.
Qed.

Lemma find_all_eq : forall p legacy f r, plain_prefix (step_prefix f) ->
  std_find_all p legacy f r = Ok (keep_some (map (metas p legacy f r) (glob_step_paths f r))).
Proof.
  intros p legacy f r Hp. unfold std_find_all.
  rewrite sequence_all with (g := metas p legacy f r); auto.
  intros n _. unfold metas, build_metadata. destruct (is_path_finalized p legacy n r); auto.
  destruct (plain_recognise_ok f n Hp) as (o & ->). reflexivity.
Qed.

Lemma prefix_of_build : forall f s n, build_name f s = Ok n -> prefix (prefix_with_underscore (step_prefix f)) n = true.
Proof.
  intros f s n H. unfold build_name in H. destruct (format_step (fixed_length f) s); [|discriminate].
  simpl in H. inversion H. apply prefix_app.
Qed.

Lemma finalized_In : forall p legacy n r, is_path_finalized p legacy n r = true -> In n (map fst r).
Proof.
  intros p legacy n r H. apply nget_dom. unfold is_path_finalized in H. destruct (nget n r); discriminate.
Qed.

Lemma nget_In_weak : forall r n x, nget n r = Some x -> In (n, x) r.
Proof.
  induction r as [|[m y] r IH]; simpl; intros n x H; [discriminate|].
  destruct (String.eqb n m) eqn:E; auto. apply String.eqb_eq in E. inversion H; subst. auto.
Qed.

Lemma keep_some_In : forall (A : Type) (l : list (option A)) a, In a (keep_some l) <-> In (Some a) l.
Proof.
  intros A l a. unfold keep_some. rewrite in_flat_map. split.
  - intros (o & H1 & H2). destruct o; simpl in H2; [|tauto]. destruct H2 as [->|[]]. auto.
  - intros H. exists (Some a). simpl; auto.
Qed.

Lemma metas_path : forall p legacy f r n m, metas p legacy f r n = Some m ->
  mpath m = n /\ is_path_finalized p legacy n r = true /\ recognise f n = Ok (Some (mstep m)).
Proof.
  intros p legacy f r n m H. unfold metas, build_metadata in H.
  destruct (is_path_finalized p legacy n r); [|discriminate].
  destruct (recognise f n) as [[s|]|]; simpl in H; try discriminate. inversion H; subst. auto.
Qed.

Lemma find_all_spec : forall p legacy f r ms, plain_prefix (step_prefix f) -> width_ok f ->
  no_newline_names r -> std_find_all p legacy f r = Ok ms ->
  forall m, In m ms <->
    (0 <= mstep m)%Z /\ build_name f (mstep m) = Ok (mpath m) /\
    is_path_finalized p legacy (mpath m) r = true.
Proof.
  intros p legacy f r ms Hp Hw Hn H m. rewrite find_all_eq in H by auto. inversion H; subst. clear H.
  rewrite keep_some_In, in_map_iff. split.
  - intros (n & H & Hg). apply metas_path in H. destruct H as (<- & Hf & Hr).
    apply filter_In in Hg. destruct Hg as [Hg _].
    apply recognise_inv in Hr; auto; [tauto|].
    apply in_map_iff in Hg. destruct Hg as ([n' x] & E & Hin). simpl in E. subst. eapply Hn; eauto.
  - intros (Hs & Hb & Hf). exists (mpath m). split.
    + unfold metas, build_metadata. rewrite Hf. rewrite (recognise_build f (mstep m)) by auto.
      simpl. destruct m; auto.
    + apply filter_In. split; [eapply finalized_In; eauto|]. eapply prefix_of_build; eauto.
Qed.

Lemma keep_some_NoDup : forall (l : list string) (h : string -> option metadata),
  NoDup l -> (forall n m, h n = Some m -> mpath m = n) -> NoDup (map mpath (keep_some (map h l))).
Proof.
  induction l as [|n l IH]; intros h ND H; simpl; [constructor|]. inversion ND; subst.
  destruct (h n) as [m|] eqn:E; simpl; [|apply IH; auto]. constructor; [|apply IH; auto].
  rewrite (H _ _ E). intro X. apply in_map_iff in X. destruct X as (m' & E' & X).
  apply keep_some_In in X. apply in_map_iff in X. destruct X as (n' & E'' & X).
  apply H in E''. congruence.
Qed.

Lemma find_all_NoDup : forall p legacy f r ms, plain_prefix (step_prefix f) ->
  NoDup (map fst r) -> std_find_all p legacy f r = Ok ms -> NoDup (map mpath ms).
Proof.
  intros p legacy f r ms Hp ND H. rewrite find_all_eq in H by auto. inversion H; subst.
  apply keep_some_NoDup; [apply NoDup_filter; auto|]. intros n m E. apply metas_path in E. tauto.
Qed.

Lemma find_step_spec : forall p legacy f r s m,
  std_find_step p legacy f r s = Ok m <->
  mstep m = s /\ build_name f s = Ok (mpath m) /\ is_path_finalized p legacy (mpath m) r = true.
Proof.
  intros p legacy f r s m. unfold std_find_step. destruct (build_name f s) as [n|e]; simpl.
  - unfold build_metadata. destruct (is_path_finalized p legacy n r) eqn:E; simpl.
    + split.
      * intros H; inversion H; subst; simpl; auto.
      * intros (<- & H & _). inversion H; subst. destruct m; auto.
    + split; [discriminate|]. intros (_ & H & H2). inversion H; subst. congruence.
  - split; [discriminate|]. intros (_ & H & _). discriminate.
Qed.

(** * Order on names *)

Lemma leb_cons : forall c s d t, String.leb (String c s) (String d t) = true <->
  (N_of_ascii c < N_of_ascii d)%N \/ (c = d /\ String.leb s t = true).
Proof.
  intros. unfold String.leb. simpl. unfold Ascii.compare.
  destruct (N.compare (N_of_ascii c) (N_of_ascii d)) eqn:E.
  - apply N.compare_eq in E.
    assert (c = d) by (rewrite <- (ascii_N_embedding c), E, ascii_N_embedding; auto). subst.
    intuition.
  - rewrite N.compare_lt_iff in E. intuition.
  - rewrite N.compare_gt_iff in E. split; [discriminate|]. intros [H|[-> _]]; lia.
Qed.

Lemma leb_trans : forall a b c, String.leb a b = true -> String.leb b c = true -> String.leb a c = true.
Proof.
  induction a as [|x a IH]; intros b c H1 H2.
  - destruct c; reflexivity.
  - destruct b as [|y b]; [discriminate|]. destruct c as [|z c]; [discriminate|].
    rewrite leb_cons in *. destruct H1 as [H1|[-> H1]]; destruct H2 as [H2|[-> H2]]; auto.
    + left; lia.
    + right. split; eauto.
Qed.

Lemma leb_refl : forall a, String.leb a a = true.
Proof. intros. destruct (String.leb_total a a); auto. Qed.

(** * Latest step *)

Definition ge_name (a b : metadata) : Prop := String.leb (mpath b) (mpath a) = true.

Lemma insert_perm : forall m l, Permutation (insert_name_desc m l) (m :: l).
Proof.
  induction l as [|x l IH]; simpl; auto. destruct (name_leb (mpath m) (mpath x)); auto.
  eapply perm_trans; [apply perm_skip, IH|]. apply perm_swap.
Qed.

Lemma insert_sorted : forall m l, StronglySorted ge_name l -> StronglySorted ge_name (insert_name_desc m l).
Proof.
  induction l as [|x l IH]; intros H; simpl.
  - repeat constructor.
  - inversion H; subst. unfold name_leb. destruct (String.leb (mpath m) (mpath x)) eqn:E.
    + constructor; auto. apply Forall_forall. intros y Hy.
      apply (Permutation_in _ (insert_perm m l)) in Hy. destruct Hy as [<-|Hy]; auto.
      rewrite Forall_forall in H3. auto.
    + constructor; auto. assert (X : ge_name m x) by (unfold ge_name; destruct (String.leb_total (mpath m) (mpath x)); congruence).
      constructor; auto. rewrite Forall_forall in *. intros y Hy. unfold ge_name in *.
      eapply leb_trans; [apply H3; auto|auto].
Qed.

Lemma fold_insert : forall ms acc, StronglySorted ge_name acc ->
  StronglySorted ge_name (fold_left (fun a m => insert_name_desc m a) ms acc) /\
  Permutation (fold_left (fun a m => insert_name_desc m a) ms acc) (ms ++ acc).
Proof.
  induction ms as [|m ms IH]; intros acc H; simpl; [split; auto|].
  destruct (IH (insert_name_desc m acc)) as [H1 H2]; [apply insert_sorted; auto|]. split; auto.
  eapply perm_trans; [exact H2|]. eapply perm_trans; [apply Permutation_app_head, insert_perm|].
  symmetry. apply Permutation_middle.
Qed.

Definition later (a b : metadata) : Prop :=
  (mstep a < mstep b)%Z \/ (mstep a = mstep b /\ String.leb (mpath a) (mpath b) = true).

Lemma max_step_spec : forall ms b, StronglySorted ge_name (b :: ms) ->
  In (max_step b ms) (b :: ms) /\ forall m, In m (b :: ms) -> later m (max_step b ms).
Proof.
  assert (G : forall ms b, StronglySorted ge_name ms -> (forall m, In m ms -> (mstep b < mstep m)%Z \/ ge_name b m) ->
    In (max_step b ms) (b :: ms) /\ forall m, In m (b :: ms) -> later m (max_step b ms)).
  { induction ms as [|m ms IH]; intros b S H.
    - simpl. split; auto. intros m [<-|[]]. right. split; auto. apply leb_refl.
    - inversion S; subst. cbn [max_step]. destruct (mstep b <? mstep m)%Z eqn:E.
      + apply Z.ltb_lt in E. destruct (IH m) as [I1 I2]; auto.
        { intros y Hy. right. rewrite Forall_forall in H3. auto. }
        split; [simpl in *; tauto|]. intros y [<-|Hy]; auto.
        destruct (I2 m (or_introl eq_refl)) as [L|[L _]]; left; lia.
      + apply Z.ltb_ge in E. destruct (IH b) as [I1 I2]; auto.
        { intros y Hy. apply H. simpl; auto. }
        split; [simpl in *; tauto|]. intros y [<-|[<-|Hy]].
        * apply I2; simpl; auto.
        * destruct (I2 b (or_introl eq_refl)) as [L|[L1 L2]]; [left; lia|].
          destruct (Z.eq_dec (mstep m) (mstep b)) as [X|X]; [|left; lia].
          right. split; [lia|]. destruct (H m (or_introl eq_refl)) as [Y|Y]; [lia|].
          eapply leb_trans; eauto.
        * apply I2; simpl; auto. }
  intros ms b S. inversion S; subst. apply G; auto. intros m Hm. right.
  rewrite Forall_forall in H2. auto.
Qed.

Lemma latest_spec : forall nf r ms o, nf_find_all nf r = Ok ms ->
  latest_step_metadata nf r = Ok o ->
  match o with
  | None => ms = []
  | Some m => In m ms /\ forall m', In m' ms -> later m' m
  end.
Proof.
  intros nf r ms o H1 H2. unfold latest_step_metadata in H2. rewrite H1 in H2. simpl in H2.
  inversion H2; subst. clear H2.
  destruct (fold_insert ms []) as [S P]; [constructor|]. rewrite app_nil_r in P.
  destruct (fold_left _ ms []) as [|m l].
  - apply Permutation_nil in P. auto.
  - destruct (max_step_spec l m S) as [I1 I2]. split.
    + eapply Permutation_in; eauto.
    + intros m' Hm'. apply I2. eapply Permutation_in; [symmetry|]; eauto.
Qed.

Lemma latest_order_irrelevant : forall nf nf' r r' ms ms' o o',
  nf_find_all nf r = Ok ms -> nf_find_all nf' r' = Ok ms' -> Permutation ms ms' ->
  NoDup (map mpath ms) ->
  latest_step_metadata nf r = Ok o -> latest_step_metadata nf' r' = Ok o' -> o = o'.
Proof.
  intros nf nf' r r' ms ms' o o' H1 H2 P ND L1 L2.
  pose proof (latest_spec _ _ _ _ H1 L1) as S1. pose proof (latest_spec _ _ _ _ H2 L2) as S2.
  destruct o as [m|], o' as [m'|]; auto.
  - destruct S1 as [I1 M1]. destruct S2 as [I2 M2]. f_equal.
    assert (E : mpath m = mpath m').
    { assert (A : later m' m) by (apply M1; eapply Permutation_in; [symmetry|]; eauto).
      assert (B : later m m') by (apply M2; eapply Permutation_in; eauto).
      destruct A as [A|[A1 A2]], B as [B|[B1 B2]]; try lia. apply String.leb_antisym; auto. }
    assert (I2' : In m' ms) by (eapply Permutation_in; [symmetry|]; eauto).
    clear -ND I1 I2' E. induction ms as [|x ms IH]; [destruct I1|]. simpl in ND. inversion ND; subst.
    destruct I1 as [->|I1], I2' as [->|I2']; auto.
    + exfalso. apply H1. rewrite E. apply in_map; auto.
    + exfalso. apply H1. rewrite <- E. apply in_map; auto.
  - subst ms'. destruct S1 as [I1 _]. exfalso. apply (Permutation_in _ P) in I1. destruct I1.
  - subst ms. destruct S2 as [I2 _]. exfalso. apply (Permutation_in _ (Permutation_sym P)) in I2. destruct I2.
Qed.

(** * Composite formats *)

Lemma composite_step_ok : forall fs r s m,
  composite_find_step fs r s = Ok m <->
  exists i f, nth_error fs i = Some f /\ nf_find_step f r s = Ok m /\
    forall j g, j < i -> nth_error fs j = Some g -> exists e, nf_find_step g r s = Err e.
Proof.
  induction fs as [|f fs IH]; intros r s m; simpl.
  - split; [discriminate|]. intros (i & f & H & _). destruct i; discriminate.
  - destruct (nf_find_step f r s) as [m0|e] eqn:E.
    + split.
      * intros H; inversion H; subst. exists 0, f. repeat split; auto. intros; lia.
      * intros (i & g & H1 & H2 & H3). destruct i as [|i].
        -- inversion H1; subst. congruence.
        -- destruct (H3 0 f) as (e & He); [lia|auto|]. congruence.
    + rewrite IH. split.
      * intros (i & g & H1 & H2 & H3). exists (S i), g. repeat split; auto.
        intros [|j] g' Hj Hg; [inversion Hg; subst; eauto|]. apply (H3 j); auto; lia.
      * intros (i & g & H1 & H2 & H3). destruct i as [|i]; [inversion H1; subst; congruence|].
        exists i, g. repeat split; auto. intros j g' Hj Hg. apply (H3 (S j)); auto; lia.
Qed.

Lemma composite_step_err : forall fs r s,
  (exists e, composite_find_step fs r s = Err e) <->
  forall f, In f fs -> exists e, nf_find_step f r s = Err e.
Proof.
  induction fs as [|f fs IH]; intros r s; simpl.
  - split; [intros _ f []|eauto].
  - destruct (nf_find_step f r s) as [m0|e] eqn:E.
    + split; [intros (e & H); discriminate|]. intros H. destruct (H f (or_introl eq_refl)). congruence.
    + rewrite IH. split; [intros H g [<-|Hg]; eauto|]. auto.
Qed.

Lemma dedup_In : forall ms seen n, In n (map mpath (dedup_paths seen ms)) <-> In n (map mpath ms) /\ ~ In n seen.
Proof.
  induction ms as [|m ms IH]; intros seen n; simpl; [tauto|].
  destruct (existsb (String.eqb (mpath m)) seen) eqn:E.
  - apply existsb_exists in E. destruct E as (x & Hx & E). apply String.eqb_eq in E. subst x.
    rewrite IH. intuition. subst. tauto.
  - assert (Hn : ~ In (mpath m) seen).
    { intro X. assert (existsb (String.eqb (mpath m)) seen = true); [|congruence].
      apply existsb_exists. exists (mpath m). split; auto. apply String.eqb_refl. }
    cbn [map In]. rewrite IH. simpl. split.
    + intros [<-|[H1 H2]]; auto.
    + intros [[<-|H1] H2]; auto. destruct (string_dec (mpath m) n); auto. right. split; auto.
      intros [X|X]; auto.
Qed.

Lemma dedup_NoDup : forall ms seen, NoDup (map mpath (dedup_paths seen ms)).
Proof.
  induction ms as [|m ms IH]; intros seen; simpl; [constructor|].
  destruct (existsb (String.eqb (mpath m)) seen); auto. simpl. constructor; auto.
  rewrite dedup_In. simpl. tauto.
Qed.

(** An element of the deduplicated list comes from the first position with its
    path. *)
Lemma dedup_first : forall ms seen m, In m (dedup_paths seen ms) ->
  exists a b, ms = a ++ m :: b /\ ~ In (mpath m) (map mpath a).
Proof.
  induction ms as [|x ms IH]; intros seen m H; simpl in H; [destruct H|].
  assert (D : In (mpath m) (map mpath (dedup_paths seen (x :: ms)))) by (apply in_map; auto).
  apply dedup_In in D.
  destruct (existsb (String.eqb (mpath x)) seen) eqn:E.
  - destruct (IH _ _ H) as (a & b & -> & Hn). exists (x :: a), b. split; auto. simpl.
    intros [X|X]; auto. apply existsb_exists in E. destruct E as (y & Hy & E).
    apply String.eqb_eq in E. subst y. rewrite X in Hy. tauto.
  - destruct H as [<-|H].
    + exists [], ms. split; auto.
    + pose proof (in_map mpath _ _ H) as D2. apply dedup_In in D2. destruct D2 as [_ D2].
      destruct (IH _ _ H) as (a & b & -> & Hn). exists (x :: a), b. split; auto. simpl.
      intros [X|X]; auto. apply D2. simpl. auto.
Qed.

Lemma concat_split : forall (A : Type) (ls : list (list A)) (a b : list A) m, List.concat ls = a ++ m :: b ->
  exists i l a' b', nth_error ls i = Some l /\ l = a' ++ m :: b' /\
    a = List.concat (firstn i ls) ++ a'.
Proof.
  induction ls as [|l ls IH]; intros a b m H; simpl in H; [destruct a; discriminate|].
  destruct (Nat.ltb (List.length a) (List.length l)) eqn:E.
  - apply Nat.ltb_lt in E. exists 0, l, a.
    assert (X : exists b', l = a ++ m :: b').
    { revert a b H E. clear IH. induction l as [|x l IHl]; intros a b H E; simpl in E; [lia|].
      destruct a as [|y a]; simpl in *.
      - inversion H; subst. eauto.
      - inversion H; subst. destruct (IHl a b) as (b' & ->); eauto. lia. }
    destruct X as (b' & ->). exists b'. repeat split; auto.
  - apply Nat.ltb_ge in E.
    assert (X : exists a', a = l ++ a' /\ List.concat ls = a' ++ m :: b).
    { revert a b H E. clear IH. induction l as [|x l IHl]; intros a b H E; simpl in *; [eauto|].
      destruct a as [|y a]; simpl in *; [lia|]. inversion H; subst.
      destruct (IHl a b) as (a' & -> & H'); eauto. lia. }
    destruct X as (a1 & -> & H'). destruct (IH _ _ _ H') as (i & l' & a' & b' & H1 & H2 & ->).
    exists (S i), l', a', b'. repeat split; auto. simpl. rewrite app_assoc. auto.
Qed.

Lemma Forall2_nth : forall (A B : Type) (R : A -> B -> Prop) l l' i b,
  Forall2 R l l' -> nth_error l' i = Some b -> exists a, nth_error l i = Some a /\ R a b.
Proof.
  intros A B R l l' i b H. revert i. induction H; intros i Hi; [destruct i; discriminate|].
  destruct i; simpl in *; [inversion Hi; subst; eauto|]. auto.
Qed.
Lemma Forall2_nth_l : forall (A B : Type) (R : A -> B -> Prop) l l' i a,
  Forall2 R l l' -> nth_error l i = Some a -> exists b, nth_error l' i = Some b /\ R a b.
Proof.
  intros A B R l l' i b H. revert i. induction H; intros i Hi; [destruct i; discriminate|].
  destruct i; simpl in *; [inversion Hi; subst; eauto|]. auto.
Qed.

Lemma nth_error_firstn' : forall (A : Type) (l : list A) i j, j < i -> nth_error (firstn i l) j = nth_error l j.
Proof.
  induction l; intros i j H; destruct i, j; simpl; auto; try lia. apply IHl; lia.
Qed.

Lemma composite_all_ok : forall fs r ms, composite_find_all fs r = Ok ms ->
  NoDup (map mpath ms) /\
  (forall n, In n (map mpath ms) <->
     exists f l, In f fs /\ nf_find_all f r = Ok l /\ In n (map mpath l)) /\
  (forall m, In m ms -> exists i f l, nth_error fs i = Some f /\ nf_find_all f r = Ok l /\ In m l /\
     forall j g l', j < i -> nth_error fs j = Some g -> nf_find_all g r = Ok l' -> ~ In (mpath m) (map mpath l')).
Proof.
  intros fs r ms H. unfold composite_find_all in H.
  destruct (sequence (map (fun f => nf_find_all f r) fs)) as [ls|] eqn:E; [|discriminate].
  simpl in H. inversion H; subst ms. clear H. apply sequence_ok in E.
  split; [apply dedup_NoDup|split].
  - intros n. rewrite dedup_In. split.
    + intros [H _]. apply in_map_iff in H. destruct H as (m & <- & H). apply in_concat in H.
      destruct H as (l & Hl & Hm). apply In_nth_error in Hl. destruct Hl as (i & Hi).
      destruct (Forall2_nth _ _ _ _ _ _ _ E Hi) as (f & Hf & HE). exists f, l.
      split; [eapply nth_error_In; eauto|]. split; auto. apply in_map; auto.
    + intros (f & l & Hf & Hl & Hn). split; [|tauto]. apply In_nth_error in Hf. destruct Hf as (i & Hi).
      destruct (Forall2_nth_l _ _ _ _ _ _ _ E Hi) as (l' & Hl' & HE). rewrite Hl in HE. inversion HE; subst l'.
      apply in_map_iff in Hn. destruct Hn as (m & <- & Hm). apply in_map. apply in_concat.
      exists l. split; auto. eapply nth_error_In; eauto.
  - intros m Hm. apply dedup_first in Hm. destruct Hm as (a & b & Ec & Hn).
    destruct (concat_split _ _ _ _ _ Ec) as (i & l & a' & b' & H1 & H2 & ->).
    destruct (Forall2_nth _ _ _ _ _ _ _ E H1) as (f & Hf & HE).
    exists i, f, l. repeat split; auto.
    + subst l. apply in_or_app. simpl; auto.
    + intros j g l' Hj Hg Hl' X. apply Hn. rewrite map_app. apply in_or_app. left.
      apply in_map_iff in X. destruct X as (m' & Em & X). rewrite <- Em. apply in_map.
      apply in_concat. exists l'. split; auto.
      destruct (Forall2_nth_l _ _ _ _ _ _ _ E Hg) as (l2 & Hl2 & HE2). rewrite Hl' in HE2. inversion HE2; subst l2.
      apply nth_error_In with (n := j). rewrite nth_error_firstn'; auto.
Qed.

Lemma number_digits : forall w g s,
  (if group_match w g then match parse_digits 0 g with Some v => Some (Z.of_N v) | None => None end else None) = Some s ->
  Forall is_digit g /\ exists v, parse_digits 0 g = Some v /\ s = Z.of_N v.
Proof.
  intros w g s H. destruct (group_match w g) eqn:G; [|discriminate]. unfold group_match in G.
  apply andb_prop in G. destruct G as [G _]. apply all_digits_spec in G. split; [tauto|].
  destruct (parse_digits 0 g) as [v|]; [|discriminate]. inversion H. eauto.
Qed.

(** Two standard formats never read different steps from the same name. *)
Lemma recognise_agree : forall f g n s s',
  recognise f n = Ok (Some s) -> recognise g n = Ok (Some s') -> s = s'.
Proof.
  assert (U : forall l a g, Forall is_digit l -> split_last_underscore l <> Some (a, g)).
  { intros l a g F E. apply split_some in E. destruct E as [-> _]. apply Forall_app in F.
    destruct F as [_ F]. inversion F; subst. apply (digit_not_underscore _ H1); auto. }
  intros f g n s s' H1 H2. unfold recognise in *. set (l := strip_newline (list_ascii_of_string n)) in *.
  destruct (step_prefix f) as [p|]; destruct (step_prefix g) as [q|].
  - destruct (parse_prefix (list_ascii_of_string p)); [|discriminate].
    destruct (parse_prefix (list_ascii_of_string q)); [|discriminate].
    destruct (split_last_underscore l) as [[x y]|]; [|discriminate].
    destruct (items_match a x); [|discriminate]. destruct (items_match a0 x); [|discriminate].
    inversion H1 as [H1']. inversion H2 as [H2'].
    apply number_digits in H1'. apply number_digits in H2'.
    destruct H1' as (_ & v & E & ->). destruct H2' as (_ & v' & E' & ->). congruence.
  - inversion H2 as [H2']. apply number_digits in H2'. destruct H2' as (F & _).
    destruct (parse_prefix (list_ascii_of_string p)); [|discriminate].
    destruct (split_last_underscore l) as [[x y]|] eqn:E; [|discriminate]. destruct (U _ _ _ F E).
  - inversion H1 as [H1']. apply number_digits in H1'. destruct H1' as (F & _).
    destruct (parse_prefix (list_ascii_of_string q)); [|discriminate].
    destruct (split_last_underscore l) as [[x y]|] eqn:E; [|discriminate]. destruct (U _ _ _ F E).
  - inversion H1 as [H1']. inversion H2 as [H2'].
    apply number_digits in H1'. apply number_digits in H2'.
    destruct H1' as (_ & v & E & ->). destruct H2' as (_ & v' & E' & ->). congruence.
Qed.

Lemma composite_written : forall p legacy fmts w f nf r s n,
  Forall (fun g => plain_prefix (step_prefix g)) fmts -> nth_error fmts w = Some f ->
  composite w (map (standard p legacy) fmts) = Ok nf -> (0 <= s)%Z ->
  nf_build nf s = Ok n -> is_path_finalized p legacy n r = true ->
  (exists m, nf_find_step nf r s = Ok m /\ mstep m = s) /\
  exists ms, nf_find_all nf r = Ok ms /\ In (mkMeta s n) ms.
Proof.
  intros p legacy fmts w f nf r s n Hp Hw Hc Hs Hb Hf. unfold composite in Hc.
  rewrite (map_nth_error _ _ _ Hw) in Hc. inversion Hc; subst nf. clear Hc. simpl in *.
  assert (Pf : plain_prefix (step_prefix f)).
  { rewrite Forall_forall in Hp. apply Hp. eapply nth_error_In; eauto. }
  assert (Sf : std_find_step p legacy f r s = Ok (mkMeta s n)) by (apply find_step_spec; auto).
  split.
  - destruct (composite_find_step (map (standard p legacy) fmts) r s) as [m|e] eqn:E.
    + exists m. split; auto. apply composite_step_ok in E. destruct E as (i & g & Hi & Hg & _).
      apply nth_error_In in Hi. apply in_map_iff in Hi. destruct Hi as (h & <- & _). simpl in Hg.
      apply find_step_spec in Hg. tauto.
    + exfalso. assert (X : exists e, composite_find_step (map (standard p legacy) fmts) r s = Err e) by eauto.
      rewrite composite_step_err in X. destruct (X (standard p legacy f)) as (e' & He).
      * apply in_map. eapply nth_error_In; eauto.
      * simpl in He. congruence.
  - assert (Hall : exists ms, composite_find_all (map (standard p legacy) fmts) r = Ok ms).
    { unfold composite_find_all. rewrite map_map.
      rewrite sequence_all with (g := fun g => keep_some (map (metas p legacy g r) (glob_step_paths g r))).
      - simpl. eauto.
      - intros g Hg. simpl. apply find_all_eq. rewrite Forall_forall in Hp. auto. }
    destruct Hall as (ms & Hms). exists ms. split; auto.
    destruct (composite_all_ok _ _ _ Hms) as (_ & H2 & H3).
    assert (Rf : recognise f n = Ok (Some s)) by (eapply recognise_build; eauto).
    assert (Hin : In n (map mpath ms)).
    { apply H2. exists (standard p legacy f), (keep_some (map (metas p legacy f r) (glob_step_paths f r))).
      split; [apply in_map; eapply nth_error_In; eauto|]. split; [apply find_all_eq; auto|].
      apply in_map_iff. exists (mkMeta s n). split; auto. apply keep_some_In. apply in_map_iff.
      exists n. split.
      - unfold metas, build_metadata. rewrite Hf, Rf. auto.
      - apply filter_In. split; [eapply finalized_In; eauto|eapply prefix_of_build; eauto]. }
    apply in_map_iff in Hin. destruct Hin as (m & Em & Hm).
    destruct (H3 m Hm) as (i & g & l & Hi & Hl & Hml & _).
    apply nth_error_In in Hi. apply in_map_iff in Hi. destruct Hi as (h & <- & Hh). simpl in Hl.
    rewrite find_all_eq in Hl by (rewrite Forall_forall in Hp; auto). inversion Hl; subst l.
    apply keep_some_In in Hml. apply in_map_iff in Hml. destruct Hml as (n' & Hml & _).
    apply metas_path in Hml. destruct Hml as (E' & _ & Rm). rewrite <- E' in Rm.
    rewrite Em in Rm.
    assert (mkMeta s n = m); [|congruence]. rewrite (recognise_agree _ _ _ _ _ Rf Rm), <- Em. destruct m; auto.
Qed.

(** * Broadcast listing *)

Lemma dict_set_In : forall n s d e, (forall e, In e d -> fst e = n -> snd e = s) ->
  (In e (dict_set n s d) <-> e = (n, s) \/ In e d).
Proof.
  induction d as [|[m t] d IH]; intros e H; cbn [dict_set].
  - simpl. intuition.
  - destruct (String.eqb n m) eqn:E.
    + apply String.eqb_eq in E. subst m. assert (t = s) by (apply (H (n, t)); simpl; auto). subst.
      simpl. intuition.
    + simpl. rewrite IH; [intuition|]. intros e' He'. apply H. simpl; auto.
Qed.

Lemma dict_set_keys : forall n s d, NoDup (map fst d) -> NoDup (map fst (dict_set n s d)).
Proof.
  assert (K : forall n s d k, In k (map fst (dict_set n s d)) -> k = n \/ In k (map fst d)).
  { induction d as [|[m t] d IH]; simpl; intros k H; [intuition|].
    destruct (String.eqb n m); simpl in H; [intuition|]. destruct H as [H|H]; auto. apply IH in H. tauto. }
  induction d as [|[m t] d IH]; simpl; intros H; [repeat constructor; auto|].
  inversion H; subst. destruct (String.eqb n m) eqn:E; simpl; constructor; auto.
  intro X. apply K in X. apply String.eqb_neq in E. intuition.
Qed.

Lemma paths_to_step_ok : forall f steps d, width_ok f ->
  (forall n s, In (n, s) d -> build_name f s = Ok n) -> NoDup (map fst d) ->
  exists d', paths_to_step f steps d = Ok d' /\ NoDup (map fst d') /\
    forall n s, In (n, s) d' <-> In (n, s) d \/ (In s steps /\ (0 <= s)%Z /\ build_name f s = Ok n).
Proof.
  intros f steps. induction steps as [|s steps IH]; intros d Hw Hd ND.
  - exists d. simpl. repeat split; auto. intros [H|[[] _]]; auto.
  - cbn [paths_to_step]. destruct (0 <=? s)%Z eqn:E.
    + apply Z.leb_le in E. rewrite build_nonneg by auto. simpl rbind. set (nm := (_ ++ _)%string).
      assert (Bn : build_name f s = Ok nm) by (rewrite build_nonneg; auto).
      assert (C : forall e, In e d -> fst e = nm -> snd e = s).
      { intros [n' s'] He Hf. simpl in *. subst n'. apply Hd in He. eapply build_injective; eauto. }
      destruct (IH (dict_set nm s d)) as (d' & H1 & H2 & H3); auto.
      * intros n s' H. apply dict_set_In in H; auto. destruct H as [H|H]; [inversion H; subst; auto|auto].
      * apply dict_set_keys; auto.
      * exists d'. split; [exact H1|]. split; auto. intros n s'. rewrite H3.
        rewrite dict_set_In by auto. simpl. split.
        -- intros [[H|H]|H]; [inversion H; subst; auto|auto|tauto].
        -- intros [H|[[<-|H] [H4 H5]]]; auto. left; left. rewrite Bn in H5. inversion H5; auto.
    + apply Z.leb_gt in E. destruct (IH d) as (d' & H1 & H2 & H3); auto. exists d'. split; auto. split; auto.
      intros n s'. rewrite H3. simpl. intuition. subst. lia.
Qed.

Lemma sorted_In : forall (l : list Z) x, In x (py_sorted (fun z => z) l) <-> In x l.
Proof.
  assert (I : forall (y : Z) l x, In x (insert_by (fun z => z) y l) <-> x = y \/ In x l).
  { induction l as [|z l IH]; simpl; intros x; [intuition|].
    destruct (y <? z)%Z; simpl; [intuition|]. rewrite IH. intuition. }
  intros l x. unfold py_sorted. assert (G : forall l acc, In x (fold_left (fun a y => insert_by (fun z => z) y a) l acc) <-> In x l \/ In x acc).
  { induction l0 as [|y l0 IH]; intros acc; simpl; [intuition|]. rewrite IH, I. intuition. }
  rewrite G. simpl. tauto.
Qed.

Lemma broadcast_agree : forall p legacy f r, plain_prefix (step_prefix f) -> width_ok f ->
  NoDup (map fst r) -> no_newline_names r ->
  exists ms ms', std_find_all p legacy f r = Ok ms /\ broadcast_find_all p legacy f r = Ok ms' /\
    Permutation ms ms'.
Proof.
  intros p legacy f r Hp Hw ND Hn.
  pose proof (find_all_eq p legacy f r Hp) as E. set (ms := keep_some _) in E.
  pose proof (find_all_spec p legacy f r ms Hp Hw Hn E) as S.
  pose proof (find_all_NoDup p legacy f r ms Hp ND E) as N.
  unfold broadcast_find_all, padded_step_list. rewrite E. simpl rmap at 1. cbn [rbind].
  set (steps := py_sorted (fun z => z) (map mstep ms) ++ _).
  destruct (paths_to_step_ok f steps [] Hw) as (d' & H1 & H2 & H3).
  - intros n s [].
  - constructor.
  - rewrite H1. simpl rmap. exists ms. eexists. split; auto. split; [reflexivity|].
    apply NoDup_Permutation.
    + apply NoDup_map_inv with (f := mpath). auto.
    + apply NoDup_map_inv with (f := mpath). rewrite map_map. exact H2.
    + intros m. rewrite S. rewrite in_map_iff. split.
      * intros (A & B & C). exists (mpath m, mstep m). split; [destruct m; auto|]. apply H3. right.
        repeat split; auto. unfold steps. apply in_or_app. left. apply sorted_In. apply in_map.
        apply S. auto.
      * intros ([n s] & <- & He). apply H3 in He. destruct He as [[]|(A & B & C)]. simpl.
        repeat split; auto. unfold steps in A. apply in_app_or in A. destruct A as [A|A].
        -- apply (proj1 (sorted_In _ _)) in A. apply in_map_iff in A. destruct A as (m & <- & A).
           apply S in A. destruct A as (_ & A1 & A2). rewrite C in A1. inversion A1; subst. auto.
        -- apply repeat_spec in A. lia.
Qed.

(** * step_from_checkpoint_name *)

Lemma all_digits_no : forall l c, In c l -> ~ is_digit c -> all_digits l = false.
Proof.
  intros l c Hc Hn. destruct (all_digits l) eqn:E; auto. apply all_digits_spec in E.
  destruct E as [_ E]. rewrite Forall_forall in E. exfalso. auto.
Qed.

Lemma build_chars : forall f s n, (0 <= s)%Z -> build_name f s = Ok n -> exists g,
  list_ascii_of_string n = prefix_chars f ++ g /\ g <> [] /\ Forall is_digit g /\
  parse_digits 0 g = Some (Z.to_N s).
Proof.
  intros f s n Hs H. pose proof (build_width _ _ _ H) as Hw. rewrite build_nonneg in H by auto.
  inversion H; subst n. rewrite las_app, las_sla. eexists. split; [reflexivity|].
  destruct (digit_group f (Z.to_N s)). split; auto. split; auto. apply parse_pad.
Qed.

Definition good_prefix (f : fmt) : Prop :=
  forall p, step_prefix f = Some p -> p <> "" /\ ~ In newline (list_ascii_of_string p).

Lemma prefix_chars_some : forall f p, step_prefix f = Some p -> prefix_chars f = list_ascii_of_string p ++ ["_"%char].
Proof. intros f p H. unfold prefix_chars. rewrite H. simpl. apply las_app. Qed.

Lemma forallb_any : forall l, ~ In newline l -> forallb (atom_match AAny) l = true.
Proof.
  intros l H. apply forallb_forall. intros c Hc. simpl. apply negb_true_iff. apply Ascii.eqb_neq.
  intros ->. auto.
Qed.

Lemma step_from_build : forall f s n, good_prefix f -> (0 <= s)%Z -> build_name f s = Ok n ->
  step_from_checkpoint_name n = Ok s.
Proof.
  intros f s n Hg Hs H. destruct (build_chars _ _ _ Hs H) as (g & E & Gn & Gd & P).
  unfold step_from_checkpoint_name. rewrite E. destruct (step_prefix f) as [p|] eqn:Ep.
  - rewrite (prefix_chars_some _ _ Ep). rewrite <- app_assoc. simpl app.
    rewrite (all_digits_no _ "_"%char).
    2:{ apply in_or_app. simpl; auto. }
    2:{ intros (d & X). discriminate. }
    rewrite (proj2 (split_some _ (list_ascii_of_string p) g)).
    2:{ split; auto. intro X. rewrite Forall_forall in Gd. apply (digit_not_underscore _ (Gd _ X)); auto. }
    rewrite (proj2 (all_digits_spec g)) by auto. destruct (Hg p Ep) as [H1 H2].
    destruct (list_ascii_of_string p) eqn:El.
    { exfalso. apply H1. rewrite <- (sla_las p), El. auto. }
    rewrite forallb_any by auto. simpl. rewrite P. rewrite Z2N.id; auto.
  - unfold prefix_chars. rewrite Ep. simpl app. rewrite (proj2 (all_digits_spec g)) by auto.
    rewrite P, Z2N.id; auto.
Qed.

Definition sfx : list ascii := list_ascii_of_string tmp_suffix.

Lemma take_digits_app : forall g t, Forall is_digit g -> (forall c t', t = c :: t' -> char_digit c = None) ->
  take_digits (g ++ t) = g.
Proof.
  induction g as [|c g IH]; intros t F H; simpl.
  - destruct t as [|c t']; auto. simpl. rewrite (H c t') by auto. auto.
  - inversion F; subst. destruct H2 as (d & ->). f_equal. auto.
Qed.

Lemma take_digits_spec : forall l, exists t, l = take_digits l ++ t /\ Forall is_digit (take_digits l).
Proof.
  induction l as [|c l IH]; simpl; [exists []; auto|]. destruct (char_digit c) eqn:E.
  - destruct IH as (t & E1 & F). exists t. simpl. rewrite <- E1. split; auto. constructor; auto. exists n; auto.
  - exists (c :: l). auto.
Qed.

Lemma app_mid : forall (a b q t : list ascii) x, a ++ b = q ++ x :: t -> ~ In x a -> exists q', q = a ++ q'.
Proof.
  induction a as [|y a IH]; intros b q t x H Hn; [exists q; auto|].
  destruct q as [|z q]; simpl in H; inversion H; subst.
  - exfalso. apply Hn. simpl; auto.
  - destruct (IH _ _ _ _ H2) as (q' & ->); [simpl in Hn; tauto|]. exists q'. auto.
Qed.

Lemma skipn_app_len : forall (A : Type) (a b : list A), skipn (List.length a) (a ++ b) = b.
Proof. induction a; simpl; auto. Qed.

Lemma tmp_group_eq : forall pre g, g <> [] -> Forall is_digit g ->
  ~ In newline pre -> (forall a b, pre <> a ++ sfx ++ b) ->
  (pre = [] \/ exists q, pre = q ++ ["_"%char]) ->
  tmp_group (pre ++ g ++ sfx) = Some g.
Proof.
  intros pre g Gn Gd. induction pre as [|c pre IH]; intros Hnl Hs Hu.
  - simpl app. assert (T : take_digits (g ++ sfx) = g).
    { apply take_digits_app; auto. intros c t' E. inversion E; subst. reflexivity. }
    destruct g as [|c g]; [tauto|]. simpl app in *. cbn [tmp_group]. rewrite T.
    change (c :: g ++ sfx) with ((c :: g) ++ sfx). rewrite skipn_app_len.
    unfold sfx. rewrite sla_las. replace (prefix tmp_suffix tmp_suffix) with true by reflexivity. auto.
  - rewrite <- app_comm_cons. set (l := pre ++ g ++ sfx) in *. cbn [tmp_group].
    destruct (match take_digits (c :: l) with [] => false | _ :: _ => true end &&
              prefix tmp_suffix (string_of_list_ascii (skipn (List.length (take_digits (c :: l))) (c :: l)))) eqn:E.
    + exfalso. apply andb_prop in E. destruct E as [_ E].
      destruct (take_digits_spec (c :: l)) as (t & Et & Ft).
      rewrite Et in E at 2. rewrite skipn_app_len in E.
      apply prefix_inv in E. destruct E as (b & Eb). apply (f_equal list_ascii_of_string) in Eb.
      rewrite las_sla, las_app in Eb. fold sfx in Eb.
      destruct Hu as [Hu|(q & Hu)]; [discriminate|].
      assert (X : (take_digits (c :: l) ++ sfx) ++ list_ascii_of_string b = q ++ "_"%char :: (g ++ sfx)).
      { rewrite <- app_assoc, <- Eb, <- Et. unfold l. rewrite app_comm_cons, Hu, <- app_assoc. auto. }
      destruct (app_mid _ _ _ _ _ X) as (q' & Eq).
      { intro Y. apply in_app_or in Y. destruct Y as [Y|Y].
        - rewrite Forall_forall in Ft. apply (digit_not_underscore _ (Ft _ Y)); auto.
        - assert (F : forallb (fun x => negb (Ascii.eqb x "_")) sfx = true) by reflexivity.
          rewrite forallb_forall in F. specialize (F _ Y). discriminate. }
      apply (Hs (take_digits (c :: l)) (q' ++ ["_"%char])). rewrite Hu, Eq, <- !app_assoc. auto.
    + destruct (Ascii.eqb c "010") eqn:Ec.
      * apply Ascii.eqb_eq in Ec. exfalso. apply Hnl. left. auto.
      * apply IH.
        -- simpl in Hnl. tauto.
        -- intros a b E'. apply (Hs (c :: a) b). simpl. f_equal. auto.
        -- destruct Hu as [Hu|(q & Hu)]; [discriminate|]. destruct q as [|x q]; simpl in Hu; inversion Hu; subst; eauto.
Qed.

Lemma step_from_tmp : forall f s n,
  (forall p, step_prefix f = Some p -> ~ In newline (list_ascii_of_string p) /\ ~ contains tmp_suffix p) ->
  (0 <= s)%Z -> build_name f s = Ok n ->
  step_from_checkpoint_name (get_tmp_name n) = Ok s.
Proof.
  intros f s n Hg Hs H. destruct (build_chars _ _ _ Hs H) as (g & E & Gn & Gd & P).
  unfold step_from_checkpoint_name, get_tmp_name. rewrite las_app, E, <- app_assoc. fold sfx.
  assert (NU : ~ In "_"%char (g ++ sfx)).
  { intro X. apply in_app_or in X. destruct X as [X|X].
    - rewrite Forall_forall in Gd. apply (digit_not_underscore _ (Gd _ X)); auto.
    - assert (F : forallb (fun x => negb (Ascii.eqb x "_")) sfx = true) by reflexivity.
      rewrite forallb_forall in F. specialize (F _ X). discriminate. }
  rewrite (all_digits_no (prefix_chars f ++ g ++ sfx) "."%char).
  2:{ apply in_or_app. right. apply in_or_app. right. left. auto. }
  2:{ intros (d & X). discriminate. }
  assert (T : tmp_group (prefix_chars f ++ g ++ sfx) = Some g).
  { apply tmp_group_eq; auto.
    - unfold prefix_chars. destruct (step_prefix f) as [p|] eqn:Ep; [|simpl; tauto].
      simpl. rewrite las_app. intro X. apply in_app_or in X. destruct X as [X|[X|[]]]; [|discriminate].
      destruct (Hg p eq_refl). auto.
    - intros a b X. destruct (step_prefix f) as [p|] eqn:Ep.
      + rewrite (prefix_chars_some _ _ Ep) in X.
        destruct b as [|b0 b] using rev_ind.
        * rewrite app_nil_r in X.
          change sfx with (list_ascii_of_string ".orbax-checkpoint-tm" ++ ["p"%char]) in X.
          rewrite app_assoc in X. apply app_inj_tail in X. destruct X as [_ X]. discriminate.
        * clear IHb. rewrite !app_assoc in X. apply app_inj_tail in X. destruct X as [X _].
          destruct (Hg p eq_refl) as [_ Hc]. apply Hc.
          exists (string_of_list_ascii a), (string_of_list_ascii b).
          rewrite <- (sla_las p), X, !sla_app. unfold sfx. rewrite sla_las, app_str_assoc. auto.
      + unfold prefix_chars in X. rewrite Ep in X. destruct a; discriminate.
    - unfold prefix_chars. destruct (step_prefix f) as [p|]; [|auto]. right. simpl.
      exists (list_ascii_of_string p). apply las_app. }
  rewrite T, P. destruct (step_prefix f) as [p|] eqn:Ep.
  - rewrite (prefix_chars_some _ _ Ep). rewrite <- app_assoc. simpl app.
    rewrite (proj2 (split_some _ (list_ascii_of_string p) (g ++ sfx))) by auto.
    rewrite (all_digits_no (g ++ sfx) "."%char); [rewrite Z2N.id; auto| |].
    + apply in_or_app. right. left. auto.
    + intros (d & X). discriminate.
  - assert (split_last_underscore (prefix_chars f ++ g ++ sfx) = None) as ->; [|rewrite Z2N.id; auto].
    unfold prefix_chars. rewrite Ep. simpl app.
    destruct (split_last_underscore (g ++ sfx)) as [[a b]|] eqn:Es; auto. apply split_some in Es.
    destruct Es as [Es _]. exfalso. apply NU. rewrite Es. apply in_or_app. simpl; auto.
Qed.

Lemma negative_not_listed : forall f s n, plain_prefix (step_prefix f) -> (s < 0)%Z ->
  build_name f s = Ok n -> recognise f n = Ok None.
Proof.
  intros f s n Hp Hs H. destruct (plain_recognise_ok f n Hp) as ([s'|] & E); auto. exfalso.
  assert (Hn : ~ ends_with_newline n).
  { intros (l & El). unfold build_name in H. destruct (format_step (fixed_length f) s) as [t|] eqn:Ef; [|discriminate].
    simpl in H. inversion H; subst. rewrite las_app in El. unfold format_step in Ef.
    assert (Ht : exists a, list_ascii_of_string t = a ++ dec (Z.abs_N s)).
    { destruct (fixed_length f) as [w|].
      - destruct (w <? 0)%Z; [discriminate|]. inversion Ef. rewrite las_sla. rewrite app_assoc. eauto.
      - inversion Ef. rewrite las_sla. eauto. }
    destruct Ht as (a & Ht). rewrite Ht, app_assoc in El.
    eapply digits_end; [apply dec_nonempty|apply dec_digits|exact El]. }
  destruct (recognise_inv f n s' Hp (build_width _ _ _ H) Hn E) as [A B].
  pose proof (build_injective _ _ _ _ H B). lia.
Qed.
