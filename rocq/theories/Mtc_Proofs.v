From Coq Require Import List Bool Arith NArith ZArith String Ascii Lia Sorting.Sorted Permutation.
From Verif Require Import Base StepName_Model StepName_Spec StepName_Proofs Tree_Model Mtc_Model Mtc_Spec.
Import ListNotations.
Local Open Scope list_scope.

(** * Directories *)

Lemma get_remove : forall n m d, dget String.eqb n (remove m d) = if String.eqb n m then None else dget String.eqb n d.
Proof.
  induction d as [|[k v] d IH]; simpl; [destruct (String.eqb n m); auto|].
  destruct (String.eqb_spec m k) as [->|K]; simpl.
  - rewrite IH. destruct (String.eqb_spec n k); auto.
  - rewrite IH. destruct (String.eqb_spec n k) as [->|N]; auto. destruct (String.eqb_spec k m); congruence.
Qed.

Lemma get_put : forall n m (x : node) d, dget String.eqb n (dput String.eqb m x d) = if String.eqb n m then Some x else dget String.eqb n d.
Proof.
  induction d as [|[k v] d IH]; simpl; auto. destruct (String.eqb_spec m k) as [->|K]; simpl; destruct (String.eqb_spec n k) as [->|N]; auto.
  destruct (String.eqb_spec k m); congruence.
Qed.

Lemma get_in : forall n (x : node) d, dget String.eqb n d = Some x -> In n (map fst d).
Proof. induction d as [|[k v] d IH]; simpl; [discriminate|]. destruct (String.eqb_spec n k) as [->|N]; auto. Qed.

Lemma in_get : forall n (d : dir), In n (map fst d) -> exists x, dget String.eqb n d = Some x.
Proof.
  induction d as [|[k v] d IH]; simpl; [tauto|]. destruct (String.eqb_spec n k) as [->|N]; eauto. intros [E|I]; auto; congruence.
Qed.

Lemma present_iff : forall n d, present n d = true <-> exists x, holds d n x.
Proof. intros n d. unfold present, holds. destruct (dget String.eqb n d); split; eauto; try discriminate. intros [x H]. discriminate. Qed.

Lemma present_false : forall n d, present n d = false <-> absent d n.
Proof. intros n d. unfold present, absent. destruct (dget String.eqb n d); split; auto; discriminate. Qed.

Lemma is_file_iff : forall n d, is_file n d = true <-> exists x, holds d n x /\ (x = NLink true \/ exists y, x = NFile y).
Proof.
  intros n d. unfold is_file, holds. destruct (dget String.eqb n d) as [[y|b|]|]; split; try discriminate; eauto.
  - intros ->. eauto.
  - intros (x & E & [-> | [y ->]]); inversion E; auto.
  - intros (x & E & [-> | [y ->]]); inversion E; auto.
  - intros (x & E & _). discriminate.
Qed.

(** * Errors *)

Lemma process_get : forall m d n, dget String.eqb n (snd (process_error m d)) = if String.eqb n m then match dget String.eqb m d with Some NDir => Some NDir | _ => None end else dget String.eqb n d.
Proof.
  intros m d n. unfold process_error. destruct (dget String.eqb m d) as [[x|b|]|] eqn:E; simpl; rewrite ?get_remove; destruct (String.eqb_spec n m) as [->|N]; auto.
Qed.

Lemma check_get : forall d n, dget String.eqb n (snd (check_errors d)) =
  if String.eqb n errors_file || String.eqb n failed_file then match dget String.eqb n d with Some NDir => Some NDir | _ => None end else dget String.eqb n d.
Proof.
  intros d n. unfold check_errors. destruct (process_error failed_file (snd (process_error errors_file d))) as [f d2] eqn:E. simpl.
  change d2 with (snd (f, d2)). rewrite <- E, process_get.
  assert (G : dget String.eqb failed_file (snd (process_error errors_file d)) = dget String.eqb failed_file d) by (rewrite process_get; reflexivity).
  rewrite G, process_get. destruct (String.eqb_spec n failed_file) as [->|N1].
  - reflexivity.
  - rewrite orb_false_r. destruct (String.eqb_spec n errors_file) as [->|N2]; reflexivity.
Qed.

Lemma check_other : forall d n, n <> errors_file -> n <> failed_file -> dget String.eqb n (snd (check_errors d)) = dget String.eqb n d.
Proof. intros d n A B. rewrite check_get. destruct (String.eqb_spec n errors_file); [congruence|]. destruct (String.eqb_spec n failed_file); [congruence|]. reflexivity. Qed.

Lemma check_result : forall d, (fst (check_errors d) = Err RuntimeError /\ fatal d) \/ (fst (check_errors d) = Ok tt /\ ~ fatal d).
Proof.
  intros d. unfold check_errors.
  assert (G : dget String.eqb failed_file (snd (process_error errors_file d)) = dget String.eqb failed_file d) by (rewrite process_get; reflexivity).
  remember (snd (process_error errors_file d)) as d1 eqn:E1. clear E1. unfold process_error. rewrite G. unfold fatal, holds.
  destruct (dget String.eqb failed_file d) as [[[x|]|b|]|] eqn:E; simpl.
  - destruct (String.eqb_spec x "") as [->|N]; simpl.
    + right. split; auto. intros (y & Y & Z). inversion Y. congruence.
    + left. split; eauto.
  - right. split; auto. intros (y & Y & Z). discriminate.
  - right. split; auto. intros (y & Y & Z). discriminate.
  - right. split; auto. intros (y & Y & Z). discriminate.
  - right. split; auto. intros (y & Y & Z). discriminate.
Qed.

(** * Waiting *)

Lemma wait_never : forall env n check d t, (forall k, k < n -> exists x, holds (after env k d t) replicator_file x) ->
  wait_gone env n check d t = (Err TimeoutError, (after env n d t, t + n)).
Proof.
  induction n as [|n IH]; intros check d t H; simpl.
  - rewrite Nat.add_0_r. reflexivity.
  - assert (P : present replicator_file d = true) by (apply present_iff; apply (H 0); lia). rewrite P. simpl.
    rewrite IH; [f_equal; f_equal; lia|]. intros k K. apply (H (S k)). lia.
Qed.

Lemma wait_first : forall env n check d t k, k < n -> (forall j, j < k -> exists x, holds (after env j d t) replicator_file x) -> absent (after env k d t) replicator_file ->
  wait_gone env n check d t = if check then (fst (check_errors (after env k d t)), (snd (check_errors (after env k d t)), t + k)) else (Ok tt, (after env k d t, t + k)).
Proof.
  induction n as [|n IH]; intros check d t k K H A; [lia|]. simpl. destruct k as [|k].
  - simpl in *. apply present_false in A. rewrite A. simpl. rewrite Nat.add_0_r. reflexivity.
  - assert (P : present replicator_file d = true) by (apply present_iff; apply (H 0); lia). rewrite P. simpl. rewrite Nat.add_succ_r.
    apply (IH check (env t d) (S t) k); [lia| |exact A]. intros j J. apply (H (S j)). lia.
Qed.

Lemma wait_bound : forall env n check d t, exists k, k <= n /\ snd (snd (wait_gone env n check d t)) = t + k.
Proof.
  induction n as [|n IH]; intros check d t; simpl; [exists 0; lia|].
  destruct (negb (present replicator_file d)); [exists 0; destruct check; simpl; lia|].
  destruct (IH check (env t d) (S t)) as (k & K & E). exists (S k). rewrite E. lia.
Qed.

Lemma wait_ok : forall env n check d t d' t', wait_gone env n check d t = (Ok tt, (d', t')) -> exists k, k < n /\ t' = t + k /\ absent (after env k d t) replicator_file /\
   (if check then ~ fatal (after env k d t) /\ d' = snd (check_errors (after env k d t)) else d' = after env k d t).
Proof.
  induction n as [|n IH]; intros check d t d' t' H; simpl in H; [discriminate|].
  destruct (present replicator_file d) eqn:P; simpl in H.
  - apply IH in H. destruct H as (k & K & E & A & C). exists (S k). split; [lia|]. split; [lia|]. split; auto.
  - exists 0. split; [lia|]. destruct check.
    + inversion H; subst. rewrite Nat.add_0_r. split; auto. simpl. split; [apply present_false; auto|]. split; auto. destruct (check_result d) as [[E F]|[E F]]; auto. congruence.
    + inversion H; subst. rewrite Nat.add_0_r. split; auto. simpl. split; [apply present_false; auto|]. reflexivity.
Qed.

(** * Ranks *)

Lemma in_range_iff : forall num r, in_range num r = true <-> (0 <= r < num)%Z.
Proof. intros. unfold in_range. rewrite andb_true_iff, Z.leb_le, Z.ltb_lt. tauto. Qed.

Lemma existsb_Z : forall x l, existsb (Z.eqb x) l = true <-> In x l.
Proof. intros. rewrite existsb_exists. split; [intros (y & I & E); apply Z.eqb_eq in E; subst; auto|]. intros I. exists x. split; auto. apply Z.eqb_refl. Qed.

Lemma distinct_iff : forall l, distinct l = true <-> NoDup l.
Proof.
  induction l as [|x l IH]; simpl; [split; auto; constructor|]. rewrite andb_true_iff, negb_true_iff, IH. split.
  - intros [A B]. constructor; auto. intros I. apply existsb_Z in I. congruence.
  - intros N. inversion N; subst. split; auto. apply not_true_iff_false. rewrite existsb_Z. auto.
Qed.

Lemma validate_ranks_iff : forall num r peers, validate_ranks num r peers = Ok tt <-> (0 <= r < num)%Z /\ (forall p, In p peers -> (0 <= p < num)%Z) /\ ~ In r peers /\ NoDup peers.
Proof.
  intros num r peers. unfold validate_ranks.
  destruct (Z.leb_spec num 0); [split; [discriminate|]; intros (A & _); lia|].
  destruct (in_range num r) eqn:R; simpl; [|split; [discriminate|]; intros (A & _); apply in_range_iff in A; congruence].
  destruct (forallb (in_range num) peers) eqn:F; simpl.
  2:{ split; [discriminate|]. intros (_ & A & _). assert (forallb (in_range num) peers = true); [|congruence]. apply forallb_forall. intros p I. apply in_range_iff. auto. }
  destruct (existsb (Z.eqb r) peers) eqn:X; [split; [discriminate|]; intros (_ & _ & A & _); apply existsb_Z in X; tauto|].
  destruct (distinct peers) eqn:D; simpl.
  - split; auto. intros _. split; [apply in_range_iff; auto|]. split; [intros p I; apply in_range_iff; rewrite forallb_forall in F; auto|]. split; [|apply distinct_iff; auto].
    intros I. apply existsb_Z in I. congruence.
  - split; [discriminate|]. intros (_ & _ & _ & A). apply distinct_iff in A. congruence.
Qed.

Lemma validate_ranks_err : forall num r peers, validate_ranks num r peers = Ok tt \/ validate_ranks num r peers = Err ValueError.
Proof. intros. unfold validate_ranks. repeat match goal with |- context [if ?b then _ else _] => destruct b end; auto. Qed.

Lemma validate_mapping_iff : forall m num, validate_mapping m num = Ok tt <-> ranks_ok m num.
Proof.
  intros m num. unfold validate_mapping, ranks_ok. destruct (Nat.eqb_spec (List.length m) num) as [L|L]; simpl; [|split; [discriminate|tauto]].
  destruct (forallb (in_range (Z.of_nat num)) m) eqn:F; simpl.
  2:{ split; [discriminate|]. intros (_ & A & _). assert (forallb (in_range (Z.of_nat num)) m = true); [|congruence]. apply forallb_forall. intros p I. apply in_range_iff. auto. }
  destruct (distinct m) eqn:D; simpl.
  - split; auto. intros _. split; auto. split; [intros p I; apply in_range_iff; rewrite forallb_forall in F; auto|apply distinct_iff; auto].
  - split; [discriminate|]. intros (_ & _ & A). apply distinct_iff in A. congruence.
Qed.

Lemma validate_mapping_err : forall m num, validate_mapping m num = Ok tt \/ validate_mapping m num = Err ValueError.
Proof. intros. unfold validate_mapping. repeat match goal with |- context [if ?b then _ else _] => destruct b end; auto. Qed.

Lemma at_ok : forall m i, i < List.length m -> exists r, at_ m i = Ok r /\ nth_error m i = Some r.
Proof. intros m i L. unfold at_. destruct (nth_error m i) eqn:E; eauto. apply nth_error_None in E. lia. Qed.

Lemma peers_spec : forall m per idx me slices, (forall i, In i slices -> i * per + idx < List.length m) -> NoDup m -> 0 < per -> NoDup slices ->
  exists l, peers_from m per idx me slices = Ok l /\ (forall r, In r l <-> exists i, In i slices /\ i * per + idx <> me /\ nth_error m (i * per + idx) = Some r) /\ NoDup l /\
    List.length l + (if existsb (fun i => i * per + idx =? me) slices then 1 else 0) = List.length slices.
Proof.
  intros m per idx me slices. induction slices as [|i slices IH]; intros B N P ND.
  - exists []. simpl. split; auto. split; [|split; [constructor|auto]]. intros r. split; [tauto|]. intros (i & [] & _).
  - inversion ND as [|? ? NI ND']; subst. destruct IH as (l & E & S' & NL & LE); auto; [intros j J; apply B; simpl; auto|]. simpl.
    destruct (Nat.eqb_spec (i * per + idx) me) as [M|M].
    + exists l. split; auto. split.
      * intros r. rewrite S'. split; [intros (j & J & K); exists j; simpl; tauto|]. intros (j & [<-|J] & K & G); [tauto|]. exists j. auto.
      * split; auto. simpl. assert (X : existsb (fun i => i * per + idx =? me) slices = false).
        { apply not_true_iff_false. rewrite existsb_exists. intros (j & J & K). apply Nat.eqb_eq in K. assert (j = i) by nia. subst. auto. }
        rewrite X in LE. lia.
    + destruct (at_ok m (i * per + idx)) as (r & A & G); [apply B; simpl; auto|]. rewrite A, E. simpl. exists (r :: l). split; auto. split.
      * intros x. simpl. rewrite S'. split.
        -- intros [<-|(j & J & K)]; [exists i; auto|exists j; tauto].
        -- intros (j & [<-|J] & K & G'); [left; congruence|right; exists j; auto].
      * split; [|simpl; lia]. constructor; auto. rewrite S'. intros (j & J & K & G'). apply NI.
        assert (j * per + idx = i * per + idx).
        { eapply (proj1 (NoDup_nth_error m) N); [|congruence]. apply nth_error_Some. congruence. }
        assert (j = i) by nia. subst. auto.
Qed.

Lemma node_peers_ok : forall m num slices me, ranks_ok m num -> slices <> 0 -> num mod slices = 0 -> me < num ->
  exists r l, node_peers m num slices me = Ok (r, l) /\ nth_error m me = Some r /\ NoDup l /\ S (List.length l) = slices /\ (forall p, In p l <-> peer m num slices me p) /\ ~ In r l.
Proof.
  intros m num slices me R Z D M. pose proof R as (L & B & N). unfold node_peers.
  destruct (Nat.eqb_spec slices 0); [tauto|]. rewrite D. simpl. destruct (Nat.ltb_spec me num); [|lia]. simpl.
  rewrite (proj2 (validate_mapping_iff m num) R). simpl. destruct (at_ok m me) as (r & A & G); [lia|]. rewrite A. simpl.
  assert (Q : num = slices * (num / slices)) by (apply Nat.div_exact; auto).
  remember (num / slices) as per eqn:Eper. assert (P : 0 < per) by nia.
  pose proof (Nat.mod_upper_bound me per ltac:(lia)) as I. remember (me mod per) as idx eqn:Eidx.
  assert (Qm : me = me / per * per + idx) by (subst idx; rewrite (Nat.div_mod me per) at 1 by lia; lia).
  assert (Sm : me / per < slices) by nia.
  destruct (peers_spec m per idx me (seq 0 slices)) as (l & E & S' & NL & LE); auto.
  { intros i Ii. apply in_seq in Ii. nia. }
  { apply seq_NoDup. }
  exists r, l. rewrite E. simpl. split; auto. split; auto. split; auto. split.
  - rewrite seq_length in LE. assert (X : existsb (fun i => i * per + idx =? me) (seq 0 slices) = true).
    { apply existsb_exists. exists (me / per). split; [apply in_seq; lia|]. apply Nat.eqb_eq. auto. }
    rewrite X in LE. lia.
  - assert (PE : forall p, In p l <-> peer m num slices me p).
    { intros p. rewrite S'. unfold peer. rewrite <- Eper, <- Eidx. split.
      - intros (i & Ii & K & G'). apply in_seq in Ii. exists (i * per + idx). split; [nia|]. split; auto. split; auto.
        rewrite Nat.add_comm, Nat.mod_add by lia. apply Nat.mod_small. auto.
      - intros (j & J & K & Mj & G'). assert (Qj : j = j / per * per + idx) by (rewrite <- Mj; rewrite (Nat.div_mod j per) at 1 by lia; lia).
        exists (j / per). split; [apply in_seq; split; [lia|]; nia|]. rewrite <- Qj. auto. }
    split; auto. rewrite PE. intros (j & J & K & _ & G'). apply K. eapply (proj1 (NoDup_nth_error m) N); [lia|congruence].
Qed.

Lemma node_peers_inv : forall m num slices me r l, node_peers m num slices me = Ok (r, l) -> ranks_ok m num /\ slices <> 0 /\ num mod slices = 0 /\ me < num.
Proof.
  intros m num slices me r l H. unfold node_peers in H. destruct (Nat.eqb_spec slices 0); [discriminate|]. destruct (Nat.eqb_spec (num mod slices) 0); simpl in H; [|discriminate].
  destruct (Nat.ltb_spec me num); simpl in H; [|discriminate]. destruct (validate_mapping_err m num) as [E|E]; rewrite E in H; [|discriminate]. apply validate_mapping_iff in E. auto.
Qed.

Lemma node_peers_valid : forall m num slices me r l, node_peers m num slices me = Ok (r, l) -> validate_ranks (Z.of_nat num) r l = Ok tt.
Proof.
  intros m num slices me r l H. destruct (node_peers_inv _ _ _ _ _ _ H) as (R & Z & D & M). destruct (node_peers_ok m num slices me R Z D M) as (r' & l' & E & G & NL & LE & PE & NI).
  rewrite H in E. inversion E; subst r' l'. apply validate_ranks_iff. destruct R as (L & B & N). split; [apply B; eapply nth_error_In; eauto|]. split; auto.
  intros p I. apply PE in I. destruct I as (j & _ & _ & _ & G'). apply B. eapply nth_error_In; eauto.
Qed.

(** * The file *)

Lemma validate_request_iff : forall q, validate_request q = Ok tt <-> validate_ranks (q_nodes q) (q_rank q) (q_peers q) = Ok tt /\
  ((exists m, q_minutes q = Some m /\ q_steps q = None /\ (0 < m)%Z) \/ (exists s, q_minutes q = None /\ q_steps q = Some s /\ (0 < s)%Z)).
Proof.
  intros q. unfold validate_request. destruct (validate_ranks_err (q_nodes q) (q_rank q) (q_peers q)) as [E|E]; rewrite E; simpl.
  2:{ split; [discriminate|]. intros [A _]. discriminate. }
  destruct (q_minutes q) as [m|], (q_steps q) as [s|].
  - split; [discriminate|]. intros [_ [(x & A & B & _)|(x & A & B & _)]]; discriminate.
  - destruct (Z.leb_spec m 0); split; auto; try discriminate.
    + intros [_ [(x & A & B & C)|(x & A & B & _)]]; [inversion A; subst; lia|discriminate].
    + intros _. split; auto. left. exists m. auto.
  - destruct (Z.leb_spec s 0); split; auto; try discriminate.
    + intros [_ [(x & A & B & C)|(x & A & B & C)]]; [discriminate|inversion B; subst; lia].
    + intros _. split; auto. right. exists s. auto.
  - split; [discriminate|]. intros [_ [(x & A & B & _)|(x & A & B & _)]]; discriminate.
Qed.

Lemma validate_request_err : forall q, validate_request q = Ok tt \/ validate_request q = Err ValueError.
Proof.
  intros q. unfold validate_request. destruct (validate_ranks_err (q_nodes q) (q_rank q) (q_peers q)) as [E|E]; rewrite E; simpl; auto.
  destruct (q_minutes q) as [m|], (q_steps q) as [s|]; auto; [destruct (m <=? 0)%Z|destruct (s <=? 0)%Z]; auto.
Qed.

Lemma create_ok : forall q d d', create_file q d = Ok d' -> validate_request q = Ok tt /\
  holds d' replicator_file (NFile (Some (yaml q))) /\ absent d' temp_file /\ forall n, n <> replicator_file -> n <> temp_file -> same d d' n.
Proof.
  intros q d d' H. unfold create_file, create_states in H. destruct (validate_request_err q) as [E|E]; rewrite E in H; simpl in H; [|discriminate].
  inversion H; subst. split; auto. unfold holds, absent, same. rewrite !get_put. split; [reflexivity|]. split; [rewrite get_remove; reflexivity|].
  intros n A B. rewrite get_put, get_remove. destruct (String.eqb_spec n replicator_file); [congruence|]. destruct (String.eqb_spec n temp_file); [congruence|]. reflexivity.
Qed.

Lemma create_atomic : forall q d l x, create_states q d = Ok l -> In x l -> (same d x replicator_file \/ holds x replicator_file (NFile (Some (yaml q)))) /\ forall n, n <> replicator_file -> n <> temp_file -> same d x n.
Proof.
  intros q d l x H I. unfold create_states in H. destruct (validate_request_err q) as [E|E]; rewrite E in H; simpl in H; [|discriminate]. inversion H; subst. unfold holds, same.
  destruct I as [<-|[<-|[<-|[]]]].
  - rewrite get_put. split; [left; reflexivity|]. intros n A B. rewrite get_put. destruct (String.eqb_spec n temp_file); [congruence|auto].
  - rewrite get_put. split; [left; reflexivity|]. intros n A B. rewrite get_put. destruct (String.eqb_spec n temp_file); [congruence|auto].
  - rewrite get_put. split; [right; reflexivity|]. intros n A B. rewrite get_put, get_remove. destruct (String.eqb_spec n replicator_file); [congruence|]. destruct (String.eqb_spec n temp_file); [congruence|auto].
Qed.

(** ** Lines *)

Definition begins (l : list ascii) : Prop := match l with c :: _ => space c = false | [] => False end.

Lemma lstrip_begins : forall l, begins l -> lstrip l = l.
Proof. intros [|c l]; simpl; [tauto|]. intros ->. reflexivity. Qed.

Lemma strip_line : forall a, begins a -> begins (rev a) -> strip (string_of_list_ascii a) = string_of_list_ascii a.
Proof. intros a A B. unfold strip. rewrite las_sla, (lstrip_begins a), (lstrip_begins (rev a)), rev_involutive; auto. Qed.

Lemma strip_line2 : forall s, begins (text s) -> begins (rev (text s)) -> strip ("  " ++ s) = s.
Proof.
  intros s A B. unfold strip. simpl. unfold text in *. rewrite (lstrip_begins (list_ascii_of_string s)), (lstrip_begins (rev (list_ascii_of_string s))), rev_involutive; auto. apply sla_las.
Qed.

Lemma strip_line0 : forall s, begins (text s) -> begins (rev (text s)) -> strip s = s.
Proof. intros s A B. rewrite <- (sla_las s). apply strip_line; auto. Qed.

Lemma begins_app : forall a b, begins a -> begins (a ++ b).
Proof. intros [|c a] b; simpl; tauto. Qed.

Lemma digit_nospace : forall c v, char_digit c = Some v -> space c = false.
Proof.
  intros c v. unfold char_digit, space. destruct (N.leb_spec 48 (N_of_ascii c)); simpl; [|discriminate]. intros _.
  destruct (N.leb_spec (N_of_ascii c) 13); [lia|]. destruct (N.leb_spec (N_of_ascii c) 32); [lia|]. rewrite !andb_false_r. reflexivity.
Qed.

Lemma dec_rev_begins : forall n, begins (rev (dec n)).
Proof.
  intros n. pose proof (dec_nonempty n) as N. pose proof (dec_digits n) as D. destruct (dec n) as [|c l] eqn:E using rev_ind; [tauto|]. rewrite rev_app_distr. simpl.
  apply Forall_app in D. destruct D as [_ D]. inversion D as [|? ? [v V] ?]; subst. eapply digit_nospace. exact V.
Qed.

Lemma str_int_text : forall z, text (str_int z) = (if (z <? 0)%Z then ["-"%char] else []) ++ dec (Z.abs_N z).
Proof. intros z. unfold text, str_int. rewrite las_app, las_sla. destruct (z <? 0)%Z; reflexivity. Qed.

Lemma int_text_ok : forall z, int_text z (str_int z).
Proof.
  intros z. exists (dec (Z.abs_N z)). split; [apply dec_nonempty|]. split; [|apply str_int_text]. apply denotes_parse. split; [apply dec_digits|apply parse_dec].
Qed.

Lemma str_int_ends : forall z, begins (rev (text (str_int z))).
Proof. intros z. rewrite str_int_text, rev_app_distr. apply begins_app. apply dec_rev_begins. Qed.

Lemma text_app : forall a b, text (a ++ b)%string = text a ++ text b.
Proof. intros. apply las_app. Qed.

Lemma field_line : forall a b, begins (text a) -> begins (rev (text b)) -> strip ("  " ++ (a ++ b)) = (a ++ b)%string.
Proof. intros a b A B. apply strip_line2; rewrite text_app; [apply begins_app; auto|]. rewrite rev_app_distr. apply begins_app. auto. Qed.

Lemma split_one : forall l cur, ~ In newline_char l -> split_lines l cur = [string_of_list_ascii (rev cur ++ l)].
Proof.
  induction l as [|c l IH]; intros cur N; simpl; [rewrite app_nil_r; auto|].
  destruct (Ascii.eqb_spec c newline_char) as [->|K]; [exfalso; apply N; simpl; auto|].
  change (Ascii.eqb c (ascii_of_nat 10)) with (Ascii.eqb c newline_char). destruct (Ascii.eqb_spec c newline_char); [congruence|]. rewrite IH by (intros I; apply N; simpl; auto). simpl. rewrite <- app_assoc. reflexivity.
Qed.

Lemma split_cons : forall a l cur, ~ In newline_char a -> split_lines (a ++ newline_char :: l) cur = string_of_list_ascii (rev cur ++ a) :: split_lines l [].
Proof.
  induction a as [|c a IH]; intros l cur N; simpl; [rewrite app_nil_r; auto|].
  change (Ascii.eqb c (ascii_of_nat 10)) with (Ascii.eqb c newline_char). destruct (Ascii.eqb_spec c newline_char) as [->|K]; [exfalso; apply N; simpl; auto|]. rewrite IH by (intros I; apply N; simpl; auto). simpl. rewrite <- app_assoc. reflexivity.
Qed.


Lemma yaml_lines_ok : forall q, plain_run (q_run q) -> yaml_lines q =
  [("job-name: " ++ q_run q)%string; "framework: orbax"%string; ("assume-data-parallelism: " ++ str_int (q_dp q))%string; ("node-rank: " ++ str_int (q_rank q))%string; ("nodes: " ++ str_int (q_nodes q))%string;
   ("peer-ranks: " ++ str_list (q_peers q))%string;
   match q_minutes q with Some m => ("backup-interval-minutes: " ++ str_int m)%string | None => ("backup-interval-steps: " ++ match q_steps q with Some s => str_int s | None => "None" end)%string end].
Proof.
  intros q [N P]. unfold yaml_lines. change (list_ascii_of_string ("job-name: " ++ q_run q)%string) with (text "job-name: " ++ text (q_run q)).
  rewrite split_one.
  2:{ intros I. apply in_app_or in I. destruct I as [I|I]; auto. cbv in I. repeat (destruct I as [I|I]; [discriminate|]). exact I. }
  cbn [map app rev].
  assert (E0 : strip (string_of_list_ascii (text "job-name: " ++ text (q_run q))) = ("job-name: " ++ q_run q)%string).
  { rewrite <- text_app. unfold text. rewrite sla_las. apply strip_line0; rewrite text_app; [apply begins_app; reflexivity|]. rewrite rev_app_distr. apply begins_app. exact P. }
  assert (EP : begins (rev (text (str_list (q_peers q))))).
  { unfold str_list. rewrite !text_app, !rev_app_distr. reflexivity. }
  pose proof (field_line "assume-data-parallelism: " (str_int (q_dp q)) eq_refl (str_int_ends _)) as E1.
  pose proof (field_line "node-rank: " (str_int (q_rank q)) eq_refl (str_int_ends _)) as E2.
  pose proof (field_line "nodes: " (str_int (q_nodes q)) eq_refl (str_int_ends _)) as E3.
  pose proof (field_line "peer-ranks: " (str_list (q_peers q)) eq_refl EP) as E4.
  assert (E5 : strip (match q_minutes q with Some m => ("  backup-interval-minutes: " ++ str_int m)%string | None => ("  backup-interval-steps: " ++ match q_steps q with Some s => str_int s | None => "None" end)%string end) =
     match q_minutes q with Some m => ("backup-interval-minutes: " ++ str_int m)%string | None => ("backup-interval-steps: " ++ match q_steps q with Some s => str_int s | None => "None" end)%string end).
  { destruct (q_minutes q) as [m|]; [apply (field_line "backup-interval-minutes: " (str_int m) eq_refl (str_int_ends _))|].
    destruct (q_steps q) as [s|]; [apply (field_line "backup-interval-steps: " (str_int s) eq_refl (str_int_ends _))|reflexivity]. }
  rewrite E0, E5. cbn [String.append] in *. rewrite E1, E2, E3, E4. reflexivity.
Qed.

(** * Names of markers *)

Lemma expect_iff : forall s l r, expect s l = Some r <-> l = s ++ r.
Proof.
  induction s as [|c s IH]; intros l r; simpl; [split; congruence|]. destruct l as [|x l]; [split; discriminate|].
  destruct (Ascii.eqb_spec c x) as [->|N]; [rewrite IH; split; congruence|]. split; [discriminate|congruence].
Qed.

Lemma is_dig_iff : forall c, is_dig c = true <-> exists v, char_digit c = Some v.
Proof. intros c. unfold is_dig. destruct (char_digit c); split; eauto; try discriminate. intros [v V]. discriminate. Qed.

Lemma span_iff : forall l a b, span_digits l = (a, b) <-> l = a ++ b /\ Forall (fun c => exists v, char_digit c = Some v) a /\ (match b with c :: _ => char_digit c = None | [] => True end).
Proof.
  induction l as [|c l IH]; intros a b; simpl.
  - split; [intros H; inversion H; auto|]. intros (E & F & _). symmetry in E. apply app_eq_nil in E. destruct E; subst. auto.
  - destruct (is_dig c) eqn:D.
    + destruct (span_digits l) as [a' b'] eqn:E. split.
      * intros H. inversion H; subst. destruct (proj1 (IH a' b) eq_refl) as (-> & F & B). split; auto. split; auto. constructor; auto. apply is_dig_iff; auto.
      * intros (H & F & B). destruct a as [|x a].
        -- simpl in H. subst b. apply is_dig_iff in D. destruct D as [v V]. congruence.
        -- simpl in H. inversion H; subst. inversion F; subst. assert (G : (a', b') = (a, b)) by (apply IH; auto). inversion G. reflexivity.
    + split.
      * intros H. inversion H; subst. split; auto. split; auto. unfold is_dig in D. destruct (char_digit c); [discriminate|auto].
      * intros (H & F & B). destruct a as [|x a]; [simpl in H; subst; auto|]. inversion H; subst. inversion F; subst. apply is_dig_iff in H2. congruence.
Qed.

Lemma digits_after_iff : forall l mark ds r, (match rev (text mark) with c :: _ => char_digit c = None | [] => False end) ->
  (digits_after l mark = Some (ds, r) <-> l = ds ++ rev (text mark) ++ r /\ digits ds).
Proof.
  intros l mark ds r M. unfold digits_after. fold (text mark). destruct (span_digits l) as [a b] eqn:E. apply span_iff in E. destruct E as (-> & F & B).
  split.
  - intros H. destruct a as [|c a]; [discriminate|]. destruct (expect (rev (text mark)) b) as [r'|] eqn:X; [|discriminate]. apply expect_iff in X. inversion H; subst. split; auto. split; [discriminate|auto].
  - intros (H & N & G). assert (K : (a, b) = (ds, rev (text mark) ++ r)).
    { assert (S1 : span_digits (a ++ b) = (a, b)) by (apply span_iff; auto). assert (S2 : span_digits (a ++ b) = (ds, rev (text mark) ++ r)).
      { apply span_iff. split; auto. split; auto. destruct (rev (text mark)); simpl; tauto. }
      congruence. }
    inversion K; subst. destruct ds as [|c ds]; [tauto|]. rewrite (proj2 (expect_iff _ _ _) eq_refl). reflexivity.
Qed.

Lemma digits_rev : forall l, digits l -> digits (rev l).
Proof. intros l [N F]. split; [|apply Forall_rev; auto]. intros E. apply N. rewrite <- (rev_involutive l), E. reflexivity. Qed.

Lemma no_newline : forall l, existsb (Ascii.eqb (ascii_of_nat 10)) l = false <-> ~ In newline_char l.
Proof.
  intros l. rewrite <- not_true_iff_false, existsb_exists. split; intros H I; apply H.
  - exists newline_char. split; auto.
  - destruct I as (x & I & E). apply Ascii.eqb_eq in E. subst. exact I.
Qed.

Lemma extract_iff : forall name s, extract_step name = Ok s <-> marker_name name s.
Proof.
  intros name s. unfold extract_step. fold (text name). split.
  - intros H. destruct (expect _ (rev (text name))) as [r0|] eqn:E0; [|discriminate]. destruct (digits_after r0 "-w") as [[w r1]|] eqn:E1; [|discriminate].
    destruct (digits_after r1 "-n") as [[n r2]|] eqn:E2; [|discriminate]. destruct (digits_after r2 "-s") as [[st job]|] eqn:E3; [|discriminate].
    destruct job as [|c job]; [discriminate|]. remember (c :: job) as jb eqn:Ejb. destruct (existsb (Ascii.eqb (ascii_of_nat 10)) jb) eqn:X; [discriminate|]. inversion H; subst s. apply no_newline in X.
    apply expect_iff in E0. apply digits_after_iff in E1; [|reflexivity]. apply digits_after_iff in E2; [|reflexivity]. apply digits_after_iff in E3; [|reflexivity].
    destruct E1 as [-> W], E2 as [-> N], E3 as [-> S'].
    exists (rev jb), (rev n), (rev w). split.
    + rewrite <- (rev_involutive (text name)), E0. rewrite !rev_app_distr, !rev_involutive, <- !app_assoc. reflexivity.
    + split; [intros G; subst jb; apply (f_equal (@rev ascii)) in G; rewrite rev_involutive in G; discriminate|]. split; [rewrite <- in_rev; auto|]. repeat split; try (apply digits_rev; auto).
  - intros (job & n & w & E & J & NL & S' & N & W). rewrite E. rewrite !rev_app_distr, <- !app_assoc. unfold text at 1. rewrite (proj2 (expect_iff _ _ _) eq_refl).
    rewrite (proj2 (digits_after_iff _ "-w" (rev w) (rev n ++ rev (text "-n") ++ rev s ++ rev (text "-s") ++ rev job) eq_refl)) by (split; [reflexivity|apply digits_rev; auto]).
    rewrite (proj2 (digits_after_iff _ "-n" (rev n) (rev s ++ rev (text "-s") ++ rev job) eq_refl)) by (split; [reflexivity|apply digits_rev; auto]).
    rewrite (proj2 (digits_after_iff _ "-s" (rev s) (rev job) eq_refl)) by (split; [reflexivity|apply digits_rev; auto]).
    destruct (rev job) as [|c r] eqn:R; [exfalso; apply J; rewrite <- (rev_involutive job), R; reflexivity|]. rewrite <- R. rewrite (proj2 (no_newline (rev job))) by (rewrite <- in_rev; auto). rewrite rev_involutive. reflexivity.
Qed.

Lemma extract_err : forall name, (exists s, extract_step name = Ok s) \/ extract_step name = Err ValueError.
Proof.
  intros name. unfold extract_step. destruct (expect _ _) as [r0|]; auto. destruct (digits_after r0 "-w") as [[w r1]|]; auto. destruct (digits_after r1 "-n") as [[n r2]|]; auto. destruct (digits_after r2 "-s") as [[st job]|]; auto.
  destruct job; auto. destruct (existsb _ _); eauto.
Qed.

Lemma is_marker_iff : forall name, is_marker name = true <-> restore_name name.
Proof.
  intros name. unfold is_marker, restore_name. fold (text name). destruct (expect (rev (list_ascii_of_string ".restore")) (rev (text name))) as [r|] eqn:E.
  - split; auto. intros _. apply expect_iff in E. exists (string_of_list_ascii (rev r)). rewrite <- (sla_las name). fold (text name). rewrite <- (rev_involutive (text name)), E, rev_app_distr, rev_involutive, sla_app, sla_las. reflexivity.
  - split; [discriminate|]. intros [p ->]. rewrite text_app, rev_app_distr in E. rewrite (proj2 (expect_iff _ _ _) eq_refl) in E. discriminate.
Qed.

Lemma marker_restore : forall name s, marker_name name s -> restore_name name.
Proof.
  intros name s (job & n & w & E & _). exists (string_of_list_ascii (job ++ text "-s" ++ s ++ text "-n" ++ n ++ text "-w" ++ w)). rewrite <- (sla_las name). fold (text name). rewrite E.
  rewrite <- (sla_las ".restore"), <- sla_app. f_equal. rewrite <- !app_assoc. reflexivity.
Qed.

Lemma marker_step_unique : forall name s s', marker_name name s -> marker_name name s' -> s = s'.
Proof. intros name s s' A B. apply extract_iff in A, B. congruence. Qed.

Lemma step_not_restore : forall v, ~ restore_name (step_name v).
Proof.
  intros v [p E]. unfold step_name in E. apply (f_equal text) in E. rewrite text_app in E. unfold text in E at 1. rewrite las_sla in E. pose proof (dec_digits v) as D. rewrite E in D. apply Forall_app in D. destruct D as [_ D].
  inversion D as [|? ? [x X] ?]; subst. discriminate.
Qed.

Lemma errors_not_restore : ~ restore_name errors_file.
Proof. rewrite <- is_marker_iff. vm_compute. discriminate. Qed.

Lemma failed_not_restore : ~ restore_name failed_file.
Proof. rewrite <- is_marker_iff. vm_compute. discriminate. Qed.

(** * One look *)

Lemma insert_in : forall n l x, In x (insert n l) <-> x = n \/ In x l.
Proof. induction l as [|y l IH]; intros x; simpl; [intuition auto|]. destruct (String.leb n y); simpl; [intuition auto|]. rewrite IH. intuition auto. Qed.

Lemma sort_in : forall l x, In x (sort l) <-> In x l.
Proof. induction l as [|y l IH]; intros x; simpl; [tauto|]. rewrite insert_in, IH. intuition auto. Qed.

Definition le (a b : string) : Prop := String.leb a b = true.

Lemma insert_sorted : forall n l, StronglySorted le l -> StronglySorted le (insert n l).
Proof.
  induction l as [|y l IH]; intros S'; simpl; [repeat constructor|]. inversion S' as [|? ? S2 F]; subst. destruct (String.leb n y) eqn:E.
  - constructor; auto. constructor; auto. eapply Forall_impl; [|exact F]. intros z Z. eapply leb_trans; eauto.
  - constructor; auto. apply Forall_forall. intros z Z. apply insert_in in Z. destruct Z as [->|Z].
    + destruct (String.leb_total n y); [congruence|auto].
    + rewrite Forall_forall in F. auto.
Qed.

Lemma sort_sorted : forall l, StronglySorted le (sort l).
Proof. induction l; simpl; [constructor|apply insert_sorted; auto]. Qed.

Lemma digits_parse : forall s, digits s -> exists v, parse_digits 0 s = Some v /\ denotes s v.
Proof.
  intros s [N F]. assert (G : forall l acc, Forall (fun c => exists v, char_digit c = Some v) l -> exists v, parse_digits acc l = Some v).
  { induction l as [|c l IH]; intros acc H; simpl; eauto. inversion H as [|? ? [v V] H2]; subst. rewrite V. auto. }
  destruct (G s 0%N F) as [v V]. exists v. split; auto. apply denotes_parse. split; auto.
Qed.

Lemma marker_digits : forall name s, marker_name name s -> digits s.
Proof. intros name s (job & n & w & _ & _ & _ & D & _). auto. Qed.

Lemma step0 : forall s : list ascii, (match s with ["0"%char] => true | _ => false end) = true <-> s = ["0"%char].
Proof.
  intros s. split; [|intros ->; reflexivity]. destruct s as [|[b0 b1 b2 b3 b4 b5 b6 b7] [|]]; try discriminate; destruct b0, b1, b2, b3, b4, b5, b6, b7; intros H; try discriminate; reflexivity.
Qed.

Lemma classify_none : forall d n, (exists x, holds d n x) -> (classify d n = Ok (n, None) <-> says_none d n).
Proof.
  intros d n H. unfold classify. destruct (extract_err n) as [[s E]|E]; rewrite E; simpl.
  - pose proof (proj1 (extract_iff n s) E) as M. destruct (match s with ["0"%char] => true | _ => false end) eqn:Z; simpl.
    + apply step0 in Z. subst s. destruct (is_file n d) eqn:F.
      * split; auto. intros _. split; auto. apply is_file_iff; auto.
      * split; [intros G; vm_compute in G; discriminate|]. intros [_ K]. apply is_file_iff in K. congruence.
    + destruct (digits_parse s (marker_digits n s M)) as (v & P & _). rewrite P. split; [discriminate|]. intros [K _]. pose proof (marker_step_unique _ _ _ M K). subst s. discriminate.
  - split; [discriminate|]. intros [K _]. apply extract_iff in K. congruence.
Qed.

Lemma classify_step : forall d n v, (exists x, holds d n x) -> (classify d n = Ok (n, Some v) <-> says_step d n v).
Proof.
  intros d n v H. split.
  - intros C. split; auto. split.
    + intros K. apply classify_none in K; auto. congruence.
    + unfold classify in C. destruct (extract_err n) as [[s E]|E]; rewrite E in C; simpl in C; [|discriminate]. pose proof (proj1 (extract_iff n s) E) as M.
      destruct ((match s with ["0"%char] => true | _ => false end) && is_file n d); [discriminate|]. destruct (digits_parse s (marker_digits n s M)) as (v' & P & D). rewrite P in C. inversion C; subst. eauto.
  - intros (_ & N & s & M & D). pose proof (proj2 (extract_iff n s) M) as E. assert (P : parse_digits 0 s = Some v) by (apply denotes_parse; auto).
    destruct (match s with ["0"%char] => true | _ => false end) eqn:Z.
    + apply step0 in Z. subst s. unfold classify. rewrite E. simpl rbind. destruct (is_file n d) eqn:F.
      * exfalso. apply N. split; auto. apply is_file_iff; auto.
      * vm_compute in P. inversion P; subst. reflexivity.
    + unfold classify. rewrite E. simpl rbind. rewrite Z. simpl andb. cbv iota. rewrite P. reflexivity.
Qed.

Lemma classify_name : forall d n m o, classify d n = Ok (m, o) -> m = n.
Proof.
  intros d n m o H. unfold classify in H. destruct (extract_step n) as [s|]; simpl in H; [|discriminate]. destruct (_ && _); [inversion H; auto|]. destruct (parse_digits 0 s); [inversion H; auto|discriminate].
Qed.

Lemma classify_err : forall d n e, classify d n = Err e -> e = ValueError /\ forall s, ~ marker_name n s.
Proof.
  intros d n e H. unfold classify in H. destruct (extract_err n) as [[s E]|E]; rewrite E in H; simpl in H.
  - pose proof (proj1 (extract_iff n s) E) as M. destruct (_ && _); [discriminate|]. destruct (digits_parse s (marker_digits n s M)) as (v' & P & D). rewrite P in H. discriminate.
  - inversion H. split; auto. intros s M. apply extract_iff in M. congruence.
Qed.

Lemma max_in : forall l b, In (max_marker b l) (b :: l).
Proof.
  induction l as [|x l IH]; intros b; simpl; auto. destruct (snd b <? snd x)%N.
  - destruct (IH x) as [E|I]; auto.
  - destruct (IH b) as [E|I]; auto.
Qed.

Lemma max_ge : forall l b, (snd b <= snd (max_marker b l))%N /\ forall x, In x l -> (snd x <= snd (max_marker b l))%N.
Proof.
  induction l as [|x l IH]; intros b; simpl; [split; [lia|tauto]|]. destruct (N.ltb_spec (snd b) (snd x)).
  - destruct (IH x) as [A B]. split; [lia|]. intros y [<-|I]; auto.
  - destruct (IH b) as [A B]. split; auto. intros y [<-|I]; auto. lia.
Qed.

Lemma max_first : forall l b, StronglySorted le (map fst (b :: l)) -> (forall x, In x (b :: l) -> snd x = snd (max_marker b l) -> le (fst (max_marker b l)) (fst x)).
Proof.
  induction l as [|y l IH]; intros b S' x I E; cbn [max_marker] in *.
  - destruct I as [<-|[]]. unfold le. destruct (String.leb_total (fst b) (fst b)); auto.
  - cbn [map] in S'. inversion S' as [|? ? S2 F]; subst. inversion S2 as [|? ? S3 F2]; subst. destruct (N.ltb_spec (snd b) (snd y)).
    + destruct I as [<-|I]; [destruct (max_ge l y) as [A _]; lia|]. apply (IH y); auto.
    + assert (SB : StronglySorted le (map fst (b :: l))).
      { cbn [map]. constructor; auto. inversion F; auto. }
      destruct I as [<-|[<-|I]]; [apply (IH b); simpl; auto| |apply (IH b); simpl; auto].
      destruct (max_ge l b) as [A _]. assert (EB : snd b = snd (max_marker b l)) by lia.
      pose proof (IH b SB b (or_introl eq_refl) EB) as L1. inversion F; subst. eapply leb_trans; eauto.
Qed.

Lemma restores_in : forall ms n v, In (n, v) (restores ms) <-> In (n, Some v) ms.
Proof.
  induction ms as [|[m o] ms IH]; intros n v; simpl; [tauto|]. destruct o as [w|]; simpl; rewrite IH.
  - split; intros [E|I]; auto; left; inversion E; auto.
  - split; auto. intros [E|I]; auto. discriminate.
Qed.

Lemma nones_in : forall ms n, In n (nones ms) <-> In (n, None) ms.
Proof.
  induction ms as [|[m o] ms IH]; intros n; simpl; [tauto|]. destruct o as [w|]; simpl; rewrite IH.
  - split; auto. intros [E|I]; auto. discriminate.
  - split; intros [E|I]; auto; left; [subst|inversion E]; auto.
Qed.

Lemma restores_sorted : forall ms, StronglySorted le (map fst ms) -> StronglySorted le (map fst (restores ms)).
Proof.
  induction ms as [|[m o] ms IH]; intros S'; simpl; [constructor|]. cbn [map fst] in S'. inversion S' as [|? ? S2 F]; subst. destruct o as [w|]; simpl; auto. constructor; auto.
  apply Forall_forall. intros x X. apply in_map_iff in X. destruct X as ([y v] & <- & I). apply restores_in in I. rewrite Forall_forall in F. apply F. apply (in_map fst) in I. exact I.
Qed.

Lemma classified : forall d names ms, sequence (map (classify d) names) = Ok ms -> map fst ms = names /\ forall n o, In (n, o) ms <-> In n names /\ classify d n = Ok (n, o).
Proof.
  intros d names ms H. apply sequence_ok in H. induction H as [|n [m o] names ms C F IH].
  - split; auto. intros n o. split; [intros []|intros [[] _]].
  - destruct IH as [A B]. pose proof (classify_name _ _ _ _ C) as E. subst m. split; [simpl; congruence|]. intros k p. simpl. rewrite B. split.
    + intros [G|[I G]]; [inversion G; subst; auto|auto].
    + intros [[<-|I] G]; auto. left. congruence.
Qed.

Lemma sequence_err : forall d names e, sequence (map (classify d) names) = Err e -> e = ValueError /\ exists n, In n names /\ forall s, ~ marker_name n s.
Proof.
  induction names as [|n names IH]; intros e H; simpl in H; [discriminate|]. destruct (classify d n) as [[m o]|e'] eqn:C; simpl in H.
  - destruct (sequence (map (classify d) names)) eqn:Q; simpl in H; [discriminate|]. inversion H; subst. destruct (IH e eq_refl) as (A & x & I & X). split; auto. exists x. simpl. auto.
  - inversion H; subst. apply classify_err in C. destruct C as [A B]. split; auto. exists n. simpl. auto.
Qed.

Lemma sequence_bad : forall d names n, In n names -> (forall s, ~ marker_name n s) -> sequence (map (classify d) names) = Err ValueError.
Proof.
  intros d names n I B. destruct (sequence (map (classify d) names)) as [ms|e] eqn:Q.
  - exfalso. destruct (classified _ _ _ Q) as [A _]. apply sequence_ok in Q. clear A. induction Q as [|x y names ms C F IH]; [contradiction|]. destruct I as [->|I]; auto.
    unfold classify in C. destruct (extract_step n) as [s|] eqn:E; [|discriminate]. apply extract_iff in E. exact (B s E).
  - f_equal. apply sequence_err in Q. tauto.
Qed.

Lemma remove_all_ok : forall l d d', remove_all l d = (Ok tt, d') -> forall n, dget String.eqb n d' = if existsb (String.eqb n) l then None else dget String.eqb n d.
Proof.
  induction l as [|m l IH]; intros d d' H n; cbn [remove_all existsb] in *; [inversion H; auto|].
  assert (G : remove_all l (remove m d) = (Ok tt, d')) by (destruct (dget String.eqb m d) as [[x|b|]|]; auto; discriminate).
  rewrite (IH _ _ G), get_remove. destruct (String.eqb n m); simpl; destruct (existsb (String.eqb n) l); auto.
Qed.

Lemma remove_all_succeeds : forall l d, (forall n, In n l -> dget String.eqb n d <> Some NDir) -> exists d', remove_all l d = (Ok tt, d').
Proof.
  induction l as [|m l IH]; intros d H; cbn [remove_all]; [eauto|].
  assert (G : exists d', remove_all l (remove m d) = (Ok tt, d')).
  { apply IH. intros n I. rewrite get_remove. destruct (String.eqb n m); [discriminate|]. apply H. simpl. auto. }
  pose proof (H m (or_introl eq_refl)) as N. destruct (dget String.eqb m d) as [[x|b|]|]; auto. congruence.
Qed.

Lemma remove_all_err : forall l d e d', remove_all l d = (Err e, d') -> e = OtherError /\ exists n, In n l /\ holds d n NDir.
Proof.
  induction l as [|m l IH]; intros d e d' H; cbn [remove_all] in H; [discriminate|].
  destruct (dget String.eqb m d) as [[x|b|]|] eqn:E; try (inversion H; subst; split; auto; exists m; simpl; auto; fail);
    apply IH in H; destruct H as (A & n & I & X); (split; [auto|]); exists n; (split; [simpl; auto|]); unfold holds in X; rewrite get_remove in X; destruct (String.eqb n m); try discriminate; exact X.
Qed.

Lemma replace_ok : forall a b d d', a <> b -> replace a b d = Ok d' -> (exists x, holds d a x) /\ ~ holds d b NDir /\ forall n, dget String.eqb n d' = if String.eqb n b then dget String.eqb a d else if String.eqb n a then None else dget String.eqb n d.
Proof.
  intros a b d d' N H. unfold replace in H. unfold holds. destruct (dget String.eqb a d) as [x|] eqn:E; [|discriminate]. split; eauto.
  assert (G : d' = dput String.eqb b x (remove a d) /\ dget String.eqb b d <> Some NDir) by (destruct x, (dget String.eqb b d) as [[]|]; inversion H; split; auto; discriminate).
  destruct G as [-> G]. split; auto. intros n. rewrite get_put, get_remove. reflexivity.
Qed.

Lemma replace_succeeds : forall a b d, (exists x, holds d a x /\ x <> NDir) -> ~ holds d b NDir -> exists d', replace a b d = Ok d'.
Proof.
  intros a b d (x & X & N) B. unfold replace, holds in *. rewrite X. destruct x; try congruence; destruct (dget String.eqb b d) as [[]|]; eauto; congruence.
Qed.

Lemma replace_fails : forall a b d x, holds d a x -> holds d b NDir -> replace a b d = Err OtherError.
Proof. intros a b d x X B. unfold replace, holds in *. rewrite X, B. destruct x; reflexivity. Qed.

Lemma marker_kept : forall d n, restore_name n -> dget String.eqb n (snd (check_errors d)) = dget String.eqb n d.
Proof. intros d n R. apply check_other; intros ->; [apply errors_not_restore|apply failed_not_restore]; auto. Qed.

Lemma names_iff : forall d n, In n (sort (filter is_marker (map fst d))) <-> restore_name n /\ exists x, holds d n x.
Proof.
  intros d n. rewrite sort_in, filter_In, is_marker_iff. split.
  - intros [I R]. split; auto. apply in_get. auto.
  - intros [R [x H]]. split; auto. eapply get_in. exact H.
Qed.

Lemma says_none_check : forall d n, says_none (snd (check_errors d)) n <-> says_none d n.
Proof. intros d n. unfold says_none, holds. split; intros [M (x & H & K)]; (split; [auto|]); exists x; pose proof (marker_kept d n (marker_restore _ _ M)); split; auto; congruence. Qed.

Lemma says_step_check : forall d n v, says_step (snd (check_errors d)) n v <-> says_step d n v.
Proof.
  intros d n v. unfold says_step. rewrite says_none_check. unfold holds. split; intros ((x & H) & N & s & M & D); pose proof (marker_kept d n (marker_restore _ _ M)) as K; (split; [exists x; congruence|eauto]).
Qed.

Lemma round_fatal : forall d, fatal d -> round d = (Err RuntimeError, snd (check_errors d)).
Proof.
  intros d F. unfold round. destruct (check_errors d) as [ok d1] eqn:E. destruct (check_result d) as [[A _]|[_ A]]; [|tauto]. rewrite E in A. simpl in A. rewrite A. reflexivity.
Qed.

(** The outcome of a look, when there is no fatal error *)
Definition body (d d1 : dir) : result bool * dir :=
    match sequence (map (classify d1) (sort (filter is_marker (map fst d)))) with
    | Err e => (Err e, d1)
    | Ok ms =>
      match restores ms with
      | m :: rest =>
        let '(best, s) := max_marker m rest in
        match replace best (step_name s) d1 with
        | Err e => (Err e, d1)
        | Ok d2 =>
          let '(r, d3) := remove_all (filter (fun n => negb (String.eqb n best)) (map fst (restores ms)) ++ nones ms) d2 in
          (rmap (fun _ => true) r, d3)
        end
      | [] =>
        match nones ms with
        | [] => (Ok false, d1)
        | l => let '(r, d3) := remove_all l d1 in (rmap (fun _ => true) r, d3)
        end
      end
    end.

Lemma round_body : forall d, ~ fatal d -> round d = body d (snd (check_errors d)).
Proof.
  intros d F. unfold round, body. destruct (check_errors d) as [ok d1] eqn:E. destruct (check_result d) as [[_ A]|[A _]]; [tauto|]. rewrite E in A. simpl in A. rewrite A. reflexivity.
Qed.


Lemma round_bad : forall d n x, ~ fatal d -> holds d n x -> restore_name n -> (forall s, ~ marker_name n s) -> round d = (Err ValueError, snd (check_errors d)).
Proof.
  intros d n x F H R B. rewrite round_body by auto. unfold body. rewrite (sequence_bad _ _ n); auto. apply names_iff. eauto.
Qed.

Lemma classified_all : forall d, well_named d -> exists ms, sequence (map (classify (snd (check_errors d))) (sort (filter is_marker (map fst d)))) = Ok ms.
Proof.
  intros d W. destruct (sequence _) as [ms|e] eqn:Q; eauto. apply sequence_err in Q. destruct Q as (_ & n & I & B). apply names_iff in I. destruct I as [R [x H]]. destruct (W n x H R) as [s M]. destruct (B s M).
Qed.

Lemma markers_of : forall d ms, sequence (map (classify (snd (check_errors d))) (sort (filter is_marker (map fst d)))) = Ok ms ->
  (forall n v, In (n, v) (restores ms) <-> says_step d n v) /\ (forall n, In n (nones ms) <-> says_none d n) /\
  (forall n, restore_name n -> (exists x, holds d n x) -> (exists v, In (n, v) (restores ms)) \/ In n (nones ms)) /\ StronglySorted le (map fst (restores ms)).
Proof.
  intros d ms Q. destruct (classified _ _ _ Q) as [A B].
  assert (P : forall n, restore_name n -> (exists x, holds d n x) <-> (exists x, holds (snd (check_errors d)) n x)) by (intros n R; unfold holds; rewrite marker_kept; tauto).
  split; [|split; [|split]].
  - intros n v. rewrite restores_in, B, names_iff, <- says_step_check. split.
    + intros [[R X] C]. apply classify_step; auto. apply P; auto.
    + intros S'. pose proof S' as (X & _ & s & M & _). pose proof (marker_restore _ _ M) as R. split; [split; auto; apply P; auto|]. apply classify_step; auto.
  - intros n. rewrite nones_in, B, names_iff, <- says_none_check. split.
    + intros [[R X] C]. apply classify_none; auto. apply P; auto.
    + intros S'. pose proof S' as (M & (x & X & _)). pose proof (marker_restore _ _ M) as R. split; [split; auto; apply P; eauto|]. apply classify_none; eauto.
  - intros n R X. assert (I : In n (map fst ms)) by (rewrite A; apply names_iff; auto). apply in_map_iff in I. destruct I as ([m o] & <- & I). simpl. destruct o as [v|]; [left; exists v; apply restores_in; auto|right; apply nones_in; auto].
  - apply restores_sorted. rewrite A. apply sort_sorted.
Qed.

Lemma chosen_max : forall d ms m rest, sequence (map (classify (snd (check_errors d))) (sort (filter is_marker (map fst d)))) = Ok ms -> restores ms = m :: rest ->
  chosen d (fst (max_marker m rest)) (snd (max_marker m rest)).
Proof.
  intros d ms m rest Q E. destruct (markers_of d ms Q) as (A & B & C & S'). rewrite E in A, S'. pose proof (max_in rest m) as I. destruct (max_marker m rest) as [best v] eqn:M. simpl. split; [apply A; auto|].
  intros o w O. apply A in O. split.
  - destruct (max_ge rest m) as [G1 G2]. rewrite M in G1, G2. simpl in G1, G2. destruct O as [->|O]; [exact G1|]. apply (G2 (o, w) O).
  - intros ->. pose proof (max_first rest m S' (o, v) O) as F. rewrite M in F. exact (F eq_refl).
Qed.

Lemma chosen_unique : forall d n v n' v', chosen d n v -> chosen d n' v' -> n = n' /\ v = v'.
Proof.
  intros d n v n' v' [A B] [A' B']. destruct (B n' v' A') as [L1 K1]. destruct (B' n v A) as [L2 K2]. assert (v = v') by lia. subst. split; auto. apply String.leb_antisym; auto.
Qed.

Lemma existsb_str : forall n l, existsb (String.eqb n) l = true <-> In n l.
Proof. intros. rewrite existsb_exists. split; [intros (y & I & E); apply String.eqb_eq in E; subst; auto|]. intros I. exists n. split; auto. apply String.eqb_refl. Qed.

Lemma round_true : forall d d', round d = (Ok true, d') ->
  (forall n, restore_name n -> absent d' n) /\
  ((exists best v x, chosen d best v /\ holds d best x /\ holds d' (step_name v) x /\ forall n, bystander n -> n <> step_name v -> same d d' n) \/
   ((exists n, says_none d n) /\ (forall n x, holds d n x -> restore_name n -> says_none d n) /\ forall n, bystander n -> same d d' n)).
Proof.
  intros d d' H. destruct (check_result d) as [[_ F]|[_ F]]; [rewrite round_fatal in H by auto; discriminate|].
  rewrite round_body in H by auto. unfold body in H. destruct (sequence _) as [ms|e] eqn:Q; [|discriminate]. destruct (markers_of d ms Q) as (A & B & C & S'). pose proof (chosen_max d ms) as CM.
  destruct (restores ms) as [|m rest] eqn:R.
  - assert (NS : forall n x, holds d n x -> restore_name n -> says_none d n).
    { intros n x X Rn. destruct (C n Rn (ex_intro _ x X)) as [[v []]|I]. apply B; auto. }
    destruct (nones ms) as [|n0 l] eqn:N; [discriminate|]. remember (n0 :: l) as nl eqn:En. destruct (remove_all nl (snd (check_errors d))) as [r d3] eqn:E. destruct r as [[]|e]; [|discriminate]. inversion H; subst d3.
    pose proof (remove_all_ok _ _ _ E) as G. split.
    + intros n Rn. unfold absent. rewrite G. destruct (existsb (String.eqb n) nl) eqn:X; auto. rewrite marker_kept by auto. destruct (dget String.eqb n d) as [x|] eqn:D; auto.
      destruct (C n Rn (ex_intro _ x D)) as [[v []]|I]. apply existsb_str in I. congruence.
    + right. split; [exists n0; apply B; subst nl; simpl; auto|]. split; auto. intros n (By & N1 & N2). unfold same. rewrite G. destruct (existsb (String.eqb n) nl) eqn:X.
      * apply existsb_str in X. apply B in X. destruct X as [M _]. apply marker_restore in M. tauto.
      * apply check_other; auto.
  - destruct (CM m rest Q eq_refl) as [CS CMx]. destruct (max_marker m rest) as [best v] eqn:M. simpl in CS, CMx.
    destruct (replace best (step_name v) (snd (check_errors d))) as [d2|] eqn:RP; [|discriminate].
    remember (filter (fun n => negb (String.eqb n best)) (map fst (m :: rest)) ++ nones ms) as l eqn:El. destruct (remove_all l d2) as [r d3] eqn:E. destruct r as [[]|e]; [|discriminate]. inversion H; subst d3.
    pose proof CS as ((x & X) & _ & s & MN & _). pose proof (marker_restore _ _ MN) as Rb.
    assert (NB : best <> step_name v) by (intros K; apply (step_not_restore v); rewrite <- K; auto).
    destruct (replace_ok _ _ _ _ NB RP) as (_ & ND & G2). pose proof (remove_all_ok _ _ _ E) as G.
    assert (L : forall n, In n l -> restore_name n).
    { intros n I. subst l. apply in_app_or in I. destruct I as [I|I].
      - apply filter_In in I. destruct I as [I _]. apply in_map_iff in I. destruct I as ([k w] & <- & I). apply A in I. destruct I as (_ & _ & s' & M' & _). eapply marker_restore; eauto.
      - apply B in I. destruct I as [M' _]. eapply marker_restore; eauto. }
    assert (L2 : forall n, restore_name n -> n <> best -> (exists y, holds d n y) -> In n l).
    { intros n Rn Nb Y. subst l. apply in_or_app. destruct (C n Rn Y) as [[w I]|I]; auto. left. apply filter_In. split; [apply (in_map fst) in I; exact I|]. destruct (String.eqb_spec n best); [congruence|auto]. }
    split.
    + intros n Rn. unfold absent. rewrite G. destruct (existsb (String.eqb n) l) eqn:X1; auto. rewrite G2. destruct (String.eqb_spec n (step_name v)) as [->|N1]; [exfalso; eapply step_not_restore; eauto|].
      destruct (String.eqb_spec n best) as [->|N2]; auto. rewrite marker_kept by auto. destruct (dget String.eqb n d) as [y|] eqn:D; auto. exfalso.
      pose proof (L2 n Rn N2 (ex_intro _ y D)) as I. apply existsb_str in I. congruence.
    + left. exists best, v, x. split; [split; auto|]. split; auto. split.
      * unfold holds. rewrite G. destruct (existsb (String.eqb (step_name v)) l) eqn:X1; [apply existsb_str in X1; apply L in X1; exfalso; eapply step_not_restore; eauto|].
        rewrite G2, String.eqb_refl, marker_kept by auto. exact X.
      * intros n (By & N1 & N2) N3. unfold same. rewrite G. destruct (existsb (String.eqb n) l) eqn:X1; [apply existsb_str in X1; apply L in X1; tauto|].
        rewrite G2. destruct (String.eqb_spec n (step_name v)); [congruence|]. destruct (String.eqb_spec n best) as [->|N4]; [tauto|]. apply check_other; auto.
Qed.

Lemma round_quiet : forall d, quiet d -> round d = (Ok false, snd (check_errors d)).
Proof.
  intros d [F N]. rewrite round_body by auto. unfold body.
  assert (E : sort (filter is_marker (map fst d)) = []).
  { destruct (sort (filter is_marker (map fst d))) as [|n l] eqn:E; auto. exfalso. assert (I : In n (sort (filter is_marker (map fst d)))) by (rewrite E; simpl; auto). apply names_iff in I. destruct I as [R [x X]]. exact (N n x X R). }
  rewrite E. reflexivity.
Qed.

Lemma round_false : forall d d', round d = (Ok false, d') -> quiet d /\ d' = snd (check_errors d).
Proof.
  intros d d' H. destruct (check_result d) as [[_ F]|[_ F]]; [rewrite round_fatal in H by auto; discriminate|].
  rewrite round_body in H by auto. unfold body in H. destruct (sequence _) as [ms|e] eqn:Q; [|discriminate]. destruct (markers_of d ms Q) as (A & B & C & S').
  destruct (restores ms) as [|m rest] eqn:R.
  - destruct (nones ms) as [|n0 l] eqn:N.
    + inversion H; subst. split; auto. split; auto. intros n x X Rn. destruct (C n Rn (ex_intro _ x X)) as [[v []]|[]].
    + destruct (remove_all (n0 :: l) (snd (check_errors d))) as [r d3]. destruct r; discriminate.
  - destruct (max_marker m rest) as [best v]. destruct (replace best (step_name v) (snd (check_errors d))); [|discriminate]. destruct (remove_all _ _) as [r d3]. destruct r; discriminate.
Qed.

Lemma round_succeeds : forall d n x, ~ fatal d -> well_named d -> holds d n x -> restore_name n -> (forall k, restore_name k -> ~ holds d k NDir) -> (forall best v, chosen d best v -> ~ holds d (step_name v) NDir) ->
  exists d', round d = (Ok true, d').
Proof.
  intros d n x F W X Rn ND NS. rewrite round_body by auto. unfold body. destruct (classified_all d W) as [ms Q]. rewrite Q. destruct (markers_of d ms Q) as (A & B & C & S'). pose proof (chosen_max d ms) as CM.
  destruct (restores ms) as [|m rest] eqn:R.
  - destruct (nones ms) as [|n0 l] eqn:N; [destruct (C n Rn (ex_intro _ x X)) as [[v []]|[]]|].
    destruct (remove_all_succeeds (n0 :: l) (snd (check_errors d))) as [d' E].
    + intros k I. apply B in I. destruct I as [M _]. apply marker_restore in M. rewrite marker_kept by auto. apply (ND k M).
    + rewrite E. simpl. eauto.
  - pose proof (CM m rest Q eq_refl) as CH. destruct (max_marker m rest) as [best v] eqn:M. simpl in CH. pose proof CH as [(( y & Y) & _ & s & MN & _) _]. pose proof (marker_restore _ _ MN) as Rb.
    assert (NB : best <> step_name v) by (intros K; apply (step_not_restore v); rewrite <- K; auto).
    destruct (replace_succeeds best (step_name v) (snd (check_errors d))) as [d2 RP].
    + exists y. unfold holds. rewrite marker_kept by auto. split; auto. intros ->. exact (ND best Rb Y).
    + unfold holds. rewrite check_get. intros G. apply (NS best v CH). unfold holds. destruct (_ || _); auto. destruct (dget String.eqb (step_name v) d) as [[]|]; congruence.
    + rewrite RP. destruct (replace_ok _ _ _ _ NB RP) as (_ & _ & G2).
      destruct (remove_all_succeeds (filter (fun n => negb (String.eqb n best)) (map fst (m :: rest)) ++ nones ms) d2) as [d' E].
      * intros k I. assert (Rk : restore_name k).
        { apply in_app_or in I. destruct I as [I|I].
          - apply filter_In in I. destruct I as [I _]. apply in_map_iff in I. destruct I as ([k' w] & <- & I). apply A in I. destruct I as (_ & _ & s' & M' & _). eapply marker_restore; eauto.
          - apply B in I. destruct I as [M' _]. eapply marker_restore; eauto. }
        rewrite G2. destruct (String.eqb_spec k (step_name v)) as [->|N1]; [exfalso; eapply step_not_restore; eauto|]. destruct (String.eqb_spec k best); [discriminate|]. rewrite marker_kept by auto. apply (ND k Rk).
      * rewrite E. simpl. eauto.
Qed.

Lemma round_blocked : forall d best v, ~ fatal d -> well_named d -> chosen d best v -> holds d (step_name v) NDir -> round d = (Err OtherError, snd (check_errors d)).
Proof.
  intros d best v F W CH B0. rewrite round_body by auto. unfold body. destruct (classified_all d W) as [ms Q]. rewrite Q. destruct (markers_of d ms Q) as (A & B & C & S'). pose proof (chosen_max d ms) as CM.
  destruct (restores ms) as [|m rest] eqn:R.
  - destruct CH as [CS _]. apply A in CS. destruct CS.
  - pose proof (CM m rest Q eq_refl) as CH'. destruct (max_marker m rest) as [best' v'] eqn:M. simpl in CH'. destruct (chosen_unique _ _ _ _ _ CH CH') as [<- <-].
    pose proof CH as [(( y & Y) & _ & s & MN & _) _]. pose proof (marker_restore _ _ MN) as Rb.
    rewrite (replace_fails best (step_name v) (snd (check_errors d)) y); auto; unfold holds; [rewrite marker_kept by auto; exact Y|]. rewrite check_get. destruct (_ || _); auto. rewrite B0. reflexivity.
Qed.

(** * Waiting for markers *)

Lemma restore_never : forall env n d t, (forall k, k < n -> quiet (looked env k d t)) -> wait_restore env n d t = (Err TimeoutError, (looked env n d t, t + n)).
Proof.
  induction n as [|n IH]; intros d t H; cbn [wait_restore looked]; [rewrite Nat.add_0_r; reflexivity|].
  rewrite (round_quiet d) by (apply (H 0); lia). rewrite IH; [f_equal; f_equal; lia|]. intros k K. apply (H (S k)). lia.
Qed.

Lemma restore_first : forall env n d t k, k < n -> (forall j, j < k -> quiet (looked env j d t)) -> ~ quiet (looked env k d t) ->
  wait_restore env n d t = (rmap (fun _ => tt) (fst (round (looked env k d t))), (snd (round (looked env k d t)), t + k)).
Proof.
  induction n as [|n IH]; intros d t k K H A; [lia|]. cbn [wait_restore]. destruct k as [|k].
  - cbn [looked] in *. rewrite Nat.add_0_r. destruct (round d) as [[[]|e] d1] eqn:E; auto. apply round_false in E. tauto.
  - cbn [looked] in *. rewrite (round_quiet d) by (apply (H 0); lia). rewrite Nat.add_succ_r. apply (IH _ (S t) k); [lia| |exact A]. intros j J. apply (H (S j)). lia.
Qed.

Lemma restore_ok : forall env n d t d' t', wait_restore env n d t = (Ok tt, (d', t')) -> exists k, k < n /\ t' = t + k /\ (forall j, j < k -> quiet (looked env j d t)) /\ round (looked env k d t) = (Ok true, d').
Proof.
  induction n as [|n IH]; intros d t d' t' H; cbn [wait_restore] in H; [discriminate|]. destruct (round d) as [[[]|e] d1] eqn:E.
  - inversion H; subst. exists 0. split; [lia|]. split; [lia|]. split; [intros; lia|]. exact E.
  - apply round_false in E. destruct E as [Q ->]. apply IH in H. destruct H as (k & K & T & J & R). exists (S k). split; [lia|]. split; [lia|]. split; auto. intros [|j] Jl; auto. apply J. lia.
  - discriminate.
Qed.

Lemma restore_bound : forall env n d t, exists k, k <= n /\ snd (snd (wait_restore env n d t)) = t + k.
Proof.
  induction n as [|n IH]; intros d t; cbn [wait_restore]; [exists 0; simpl; lia|]. destruct (round d) as [[[]|e] d1]; try (exists 0; simpl; lia).
  destruct (IH (env t d1) (S t)) as (k & K & E). exists (S k). rewrite E. lia.
Qed.

(** * Start *)

Lemma info_bound : forall env n d t, exists k, k <= n /\ snd (snd (retrieve_info env n d t)) = t + k.
Proof.
  induction n as [|n IH]; intros d t; cbn [retrieve_info]; [exists 0; simpl; lia|].
  destruct (dget String.eqb init_info_file d) as [[[x|]|b|]|]; try (exists 0; simpl; lia). destruct (IH (env t d) (S t)) as (k & K & E). exists (S k). rewrite E. lia.
Qed.

Lemma info_never : forall env n d t, (forall k, k < n -> absent (after env k d t) init_info_file) -> retrieve_info env n d t = (Err TimeoutError, (after env n d t, t + n)).
Proof.
  induction n as [|n IH]; intros d t H; cbn [retrieve_info after]; [rewrite Nat.add_0_r; reflexivity|].
  pose proof (H 0 ltac:(lia)) as H0. unfold absent in H0. cbn [after] in H0. rewrite H0. rewrite IH; [f_equal; f_equal; lia|]. intros k K. apply (H (S k)). lia.
Qed.

Lemma info_first : forall env n d t k x, k < n -> (forall j, j < k -> absent (after env j d t) init_info_file) -> holds (after env k d t) init_info_file x ->
  retrieve_info env n d t = (match x with NFile (Some y) => match split_lines (text y) [] with p :: a :: _ => Ok (p, a) | _ => Err ValueError end | _ => Err OtherError end, (after env k d t, t + k)).
Proof.
  induction n as [|n IH]; intros d t k x K H A; [lia|]. cbn [retrieve_info]. destruct k as [|k].
  - cbn [after] in *. rewrite Nat.add_0_r. unfold holds in A. rewrite A. destruct x as [[y|]|b|]; reflexivity.
  - pose proof (H 0 ltac:(lia)) as H0. unfold absent in H0. cbn [after] in *. rewrite H0, Nat.add_succ_r. apply (IH _ (S t) k); [lia| |exact A]. intros j J. apply (H (S j)). lia.
Qed.

Lemma split_text : forall l, ~ In newline_char l \/ exists a b, l = a ++ newline_char :: b /\ ~ In newline_char a.
Proof.
  induction l as [|c l IH]; [left; simpl; tauto|]. destruct (Ascii.eqb_spec c newline_char) as [->|N]; [right; exists [], l; simpl; auto|].
  destruct IH as [H|(a & b & -> & H)]; [left; simpl; intros [E|I]; congruence|right; exists (c :: a), b; simpl; split; auto; intros [E|I]; congruence].
Qed.

Lemma split_two : forall y p a rest, split_lines (text y) [] = p :: a :: rest <->
   (exists b, text y = text p ++ newline_char :: b /\ ~ In newline_char (text p) /\ split_lines b [] = a :: rest).
Proof.
  intros y p a rest. split.
  - intros H. destruct (split_text (text y)) as [N|(u & b & E & N)]; [rewrite split_one in H by auto; discriminate|]. rewrite E, split_cons in H by auto. inversion H; subst. exists b. unfold text at 2 3. simpl. rewrite las_sla. auto.
  - intros (b & E & N & S'). rewrite E, split_cons, S' by auto. simpl. unfold text. rewrite sla_las. reflexivity.
Qed.

Lemma split_head : forall b a, (exists rest, split_lines b [] = a :: rest) <-> (~ In newline_char (text a) /\ (b = text a \/ exists c, b = text a ++ newline_char :: c)).
Proof.
  intros b a. split.
  - intros [rest H]. destruct (split_text b) as [N|(u & c & -> & N)].
    + rewrite split_one in H by auto. inversion H; subst. simpl. unfold text. rewrite las_sla. auto.
    + rewrite split_cons in H by auto. inversion H; subst. simpl. unfold text. rewrite las_sla. eauto.
  - intros [N [->|[c ->]]].
    + rewrite split_one by auto. simpl. unfold text. rewrite sla_las. eauto.
    + rewrite split_cons by auto. simpl. unfold text. rewrite sla_las. eauto.
Qed.

Lemma initialize_ok : forall env c d t d' t', initialize env c d t = (Ok tt, (d', t')) -> c_devices c = false /\
  exists run rank peers d0 t0 d1 k, run_of c = Ok run /\ node_peers (c_mapping c) (c_nodes c) (slices_of c) (c_index c) = Ok (rank, peers) /\ absent d0 replicator_file /\
    create_file (mkRequest run (Z.of_nat (c_nodes c)) (dp_of c) rank peers (minutes_of c) (c_steps c)) d0 = Ok d1 /\
    k < c_timeout c /\ absent (after env k d1 t0) replicator_file /\ ~ fatal (after env k d1 t0) /\
    exists j, j < 300 /\ t' = t0 + k + j /\ round (looked env j (snd (check_errors (after env k d1 t0))) (t0 + k)) = (Ok true, d').
Proof.
  intros env c d t d' t' H. unfold initialize in H. destruct (run_of c) as [run|] eqn:R; [|discriminate]. destruct (c_devices c); [discriminate|]. split; auto.
  remember (if c_use_ids c then _ else _) as w eqn:W. destruct w as [[[]|e] [d0 t0]]; [|discriminate]. cbn [then_] in H.
  destruct (wait_gone env (c_timeout c) false d0 t0) as [[[]|e] [d2 t2]] eqn:W1; [|discriminate]. cbn [then_] in H.
  destruct (node_peers (c_mapping c) (c_nodes c) (slices_of c) (c_index c)) as [[rank peers]|] eqn:NP; [|discriminate].
  destruct (create_file _ d2) as [d3|] eqn:CF; [|discriminate].
  destruct (wait_gone env (c_timeout c) true d3 t2) as [[[]|e] [d4 t4]] eqn:W2; [|discriminate]. cbn [then_] in H.
  apply wait_ok in W1. destruct W1 as (k1 & K1 & T1 & A1 & E1). apply wait_ok in W2. destruct W2 as (k2 & K2 & T2 & A2 & F2 & E2). apply restore_ok in H. destruct H as (j & J & T & _ & RD). subst.
  exists run, rank, peers, (after env k1 d0 t0), (t0 + k1), d3, k2.
  do 7 (split; [first [assumption | reflexivity]|]). exists j. auto.
Qed.

Lemma initialize_bound : forall env c d t, snd (snd (initialize env c d t)) <= t + 900 + 2 * c_timeout c + 300.
Proof.
  intros env c d t. unfold initialize. destruct (run_of c) as [run|]; [|simpl; lia]. destruct (c_devices c); [simpl; lia|].
  remember (if c_use_ids c then _ else _) as w eqn:W. assert (B : snd (snd w) <= t + 900).
  { subst w. destruct (c_use_ids c); [|simpl; lia]. unfold jax_from_mtc. destruct (info_bound env 900 d t) as (k & K & E). destruct (retrieve_info env 900 d t) as [[[p a]|e] [d0 t0]]; cbn [snd fst] in E.
    - destruct (_ || _); [simpl; lia|]. destruct (all_digits _); simpl; lia.
    - simpl; lia. }
  destruct w as [[[]|e] [d0 t0]]; cbn [then_ snd] in *; [|lia].
  destruct (wait_bound env (c_timeout c) false d0 t0) as (k1 & K1 & E1). destruct (wait_gone env (c_timeout c) false d0 t0) as [[[]|e] [d2 t2]]; cbn [then_ snd] in *; [|lia].
  destruct (node_peers (c_mapping c) (c_nodes c) (slices_of c) (c_index c)) as [[rank peers]|]; [|simpl; lia].
  destruct (create_file _ d2) as [d3|]; [|simpl; lia].
  destruct (wait_bound env (c_timeout c) true d3 t2) as (k2 & K2 & E2). destruct (wait_gone env (c_timeout c) true d3 t2) as [[[]|e] [d4 t4]]; cbn [then_ snd] in *; [|lia].
  destruct (restore_bound env 300 d4 t4) as (k3 & K3 & E3). lia.
Qed.

Lemma setup_ok : forall env q timeout d t d' t', setup env q timeout d t = (Ok tt, (d', t')) ->
  exists d1 k j, create_file q (remove replicator_file d) = Ok d1 /\ k < timeout /\ k < 600 /\ absent (after env k d1 t) replicator_file /\ ~ fatal (after env k d1 t) /\
    t' = t + k + j /\ k + j < timeout /\ round (looked env j (snd (check_errors (after env k d1 t))) (t + k)) = (Ok true, d').
Proof.
  intros env q timeout d t d' t' H. unfold setup in H. destruct (negb _); [discriminate|]. destruct (create_file q (remove replicator_file d)) as [d1|] eqn:C; [|discriminate].
  unfold remaining in H. destruct (Nat.leb_spec (t + timeout) t); [discriminate|]. destruct (wait_gone env _ true d1 t) as [[[]|e] [d2 t2]] eqn:W; [|discriminate]. cbn [then_] in H.
  apply wait_ok in W. destruct W as (k & K & T & A & F & E). destruct (Nat.leb_spec (t + timeout) t2); [discriminate|]. apply restore_ok in H. destruct H as (j & J & T2 & _ & R). subst.
  exists d1, k, j. split; auto. split; [lia|]. split; [lia|]. split; auto. split; auto. split; auto. split; [lia|auto].
Qed.

Lemma setup_bound : forall env q timeout d t, snd (snd (setup env q timeout d t)) <= t + timeout.
Proof.
  intros env q timeout d t. unfold setup. destruct (negb _); [simpl; lia|]. destruct (create_file q (remove replicator_file d)) as [d1|]; [|simpl; lia].
  unfold remaining. destruct (Nat.leb_spec (t + timeout) t); [simpl; lia|].
  destruct (wait_bound env (Nat.min (t + timeout - t) 600) true d1 t) as (k & K & E). destruct (wait_gone env _ true d1 t) as [[[]|e] [d2 t2]]; cbn [then_ snd] in *; [|lia].
  destruct (Nat.leb_spec (t + timeout) t2); [simpl; lia|]. destruct (restore_bound env (t + timeout - t2) d2 t2) as (j & J & E2). lia.
Qed.
