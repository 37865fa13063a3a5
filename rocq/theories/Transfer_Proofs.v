(** Proofs about transfers between peers. *)
From Coq Require Import List Bool Arith ZArith String Lia Permutation.
From Verif Require Import Base Mesh_Proofs Transfer_Model Transfer_Spec.
Import ListNotations.
Local Open Scope list_scope.
Notation length := List.length.

(** ** Numbers *)

Lemma bytes_length : forall n x, length (bytes_of n x) = n.
Proof. induction n as [|n IH]; intros x; cbn; auto. rewrite app_length, IH. cbn. lia. Qed.

Lemma unpack_app : forall l b, unpack (l ++ [b]) = (unpack l * 256 + b)%Z.
Proof. intros l b. unfold unpack. rewrite fold_left_app. reflexivity. Qed.

Lemma unpack_bytes : forall n x, (0 <= x < 256 ^ Z.of_nat n)%Z -> unpack (bytes_of n x) = x.
Proof.
  induction n as [|n IH]; intros x H; cbn [bytes_of].
  - change (256 ^ Z.of_nat 0)%Z with 1%Z in H. unfold unpack. cbn. lia.
  - rewrite unpack_app, IH.
    + rewrite Z.mul_comm. symmetry. apply Z.div_mod. lia.
    + rewrite Nat2Z.inj_succ, Z.pow_succ_r in H by lia. split; [apply Z.div_pos; lia|]. apply Z.div_lt_upper_bound; lia.
Qed.

Lemma pack_ok : forall n x l, pack n x = Ok l -> length l = n /\ unpack l = x /\ (0 <= x < 256 ^ Z.of_nat n)%Z.
Proof.
  intros n x l H. unfold pack in H. destruct ((0 <=? x)%Z && (x <? 256 ^ Z.of_nat n)%Z) eqn:E; [|discriminate]. injection H as <-. apply andb_true_iff in E as (A & B). apply Z.leb_le in A. apply Z.ltb_lt in B.
  split; [apply bytes_length|]. split; [apply unpack_bytes; auto|auto].
Qed.

Lemma pack_fits : forall n x, (0 <= x < 256 ^ Z.of_nat n)%Z -> exists l, pack n x = Ok l.
Proof. intros n x (A & B). unfold pack. apply Z.leb_le in A. apply Z.ltb_lt in B. rewrite A, B. cbn. eexists. reflexivity. Qed.

Lemma header_ok : forall op n h, header op n = Ok h -> length h = 5 /\ unpack (firstn 1 h) = op /\ unpack (skipn 1 h) = n /\ (0 <= op < 256)%Z /\ (0 <= n < 4294967296)%Z.
Proof.
  intros op n h H. unfold header in H. destruct (pack 1 op) as [a|] eqn:A; [|discriminate]. cbn [rbind] in H. destruct (pack 4 n) as [b|] eqn:B; [|discriminate]. injection H as <-.
  apply pack_ok in A as (A1 & A2 & A3), B as (B1 & B2 & B3). rewrite app_length, firstn_app, skipn_app, A1, B1. cbn [Nat.sub]. replace (firstn 1 a) with a by (symmetry; apply firstn_all2; lia). replace (skipn 1 a) with (@nil Z) by (symmetry; apply skipn_all2; lia).
  cbn [firstn skipn app]. rewrite app_nil_r. auto.
Qed.

(** ** Connections *)

Lemma recv_into_spec : forall n pieces, 0 < n -> ~ In [] pieces ->
  let (got, r) := recv_into n pieces in
  got ++ List.concat r = List.concat pieces /\ ~ In [] r /\ length got <= n /\ (got = [] -> pieces = [] /\ r = []).
Proof.
  intros n [|p r] N I; cbn [recv_into].
  - split; auto. split; auto. cbn. split; [lia|auto].
  - destruct (Nat.leb_spec (length p) n) as [L|L].
    + split; [reflexivity|]. split; [intros X; apply I; cbn; auto|]. split; [auto|]. intros ->. elim I. cbn. auto.
    + cbn [List.concat]. split; [rewrite app_assoc, firstn_skipn; auto|]. split.
      * intros [X|X]; [|apply I; cbn; auto]. apply (f_equal (@length Z)) in X. rewrite skipn_length in X. cbn in X. lia.
      * rewrite firstn_length. split; [lia|]. intros X. apply (f_equal (@length Z)) in X. rewrite firstn_length in X. cbn in X. lia.
Qed.

Lemma recv_loop_spec : forall fuel n data pieces, ~ In [] pieces -> length data <= n -> n - length data < fuel ->
  let all := data ++ List.concat pieces in
  (n <= length all -> exists r, recv_loop fuel n data pieces = (Some (firstn n all), r) /\ List.concat r = skipn n all /\ ~ In [] r) /\
  (length all < n -> exists r, recv_loop fuel n data pieces = (None, r)).
Proof.
  induction fuel as [|f IH]; intros n data pieces I L F all; [lia|]. cbn [recv_loop]. destruct (Nat.leb_spec n (length data)) as [G|G].
  - assert (length data = n) by lia. split.
    + intros _. exists pieces. unfold all. rewrite firstn_app, skipn_app. replace (n - length data) with 0 by lia. rewrite firstn_all2, skipn_all2 by lia. cbn. rewrite app_nil_r. auto.
    + unfold all. rewrite app_length. lia.
  - assert (S := recv_into_spec (n - length data) pieces ltac:(lia) I). destruct (recv_into (n - length data) pieces) as (got & r). destruct S as (S1 & S2 & S3 & S4). destruct got as [|b got].
    + destruct (S4 eq_refl) as (-> & ->). unfold all. cbn [List.concat]. rewrite app_nil_r. split; [lia|eauto].
    + destruct (IH n (data ++ b :: got) r S2) as (A & B); [rewrite app_length; cbn [length] in *; lia|rewrite app_length; cbn [length] in *; lia|]. cbn zeta in A, B. rewrite <- app_assoc, S1 in A, B. fold all in A, B. auto.
Qed.

Lemma recv_exact_spec : forall n pieces, ~ In [] pieces ->
  (n <= length (List.concat pieces) -> exists r, recv_exact n pieces = (Some (firstn n (List.concat pieces)), r) /\ List.concat r = skipn n (List.concat pieces) /\ ~ In [] r) /\
  (length (List.concat pieces) < n -> exists r, recv_exact n pieces = (None, r)).
Proof. intros n pieces I. unfold recv_exact. apply (recv_loop_spec (S n) n [] pieces I); cbn; lia. Qed.

Lemma take_first : forall {A} (a b : list A) n, length a = n -> firstn n (a ++ b) = a /\ skipn n (a ++ b) = b.
Proof. intros A a b n <-. rewrite firstn_app, skipn_app, Nat.sub_diag, firstn_all, skipn_all. cbn. rewrite app_nil_r. auto. Qed.

(** Reading exactly the bytes in front. *)
Lemma recv_front : forall a b pieces, arrive (a ++ b) pieces -> exists r, recv_exact (length a) pieces = (Some a, r) /\ arrive b r.
Proof.
  intros a b pieces (C & I). destruct (recv_exact_spec (length a) pieces I) as (A & _). rewrite C, app_length in A. destruct (A ltac:(lia)) as (r & E & R & N). destruct (take_first a b (length a) eq_refl) as (T1 & T2). rewrite T1 in E. rewrite T2 in R. exists r. split; auto. split; auto.
Qed.

Lemma recv_short : forall n pieces, ~ In [] pieces -> length (List.concat pieces) < n -> exists r, recv_exact n pieces = (None, r).
Proof. intros n pieces I L. apply (recv_exact_spec n pieces I). auto. Qed.

Section Json.
Variable J : Type.
Variable truthy : J -> bool.
Variable dumps : J -> list Z.
Variable loads : list Z -> decoded J.

Lemma message : forall op j bytes more pieces, send_json J truthy dumps op (Some j) = Ok bytes -> op <> OP_FILE_STREAM -> truthy j = true -> dumps j <> [] -> loads (dumps j) = Json j ->
  arrive (bytes ++ more) pieces -> exists r, recv J loads pieces = Ok ((op, Data j), r) /\ arrive more r.
Proof.
  intros op j bytes more pieces S NF T NE LD AR. unfold send_json in S. rewrite T in S. destruct (header op (Z.of_nat (length (dumps j)))) as [h|] eqn:H; [|discriminate]. injection S as <-. apply header_ok in H as (H1 & H2 & H3 & H4 & H5).
  rewrite <- app_assoc in AR. destruct (recv_front h _ pieces AR) as (r & E & AR'). rewrite H1 in E. unfold recv. rewrite E, H2, H3. destruct (Z.eqb_spec op OP_FILE_STREAM); [congruence|]. rewrite Nat2Z.id. destruct (recv_front (dumps j) more r AR') as (r' & E' & AR''). rewrite E'.
  destruct (dumps j) as [|b l] eqn:D; [congruence|]. destruct (Z.eqb_spec (Z.of_nat (length (b :: l))) 0) as [Z0|_]; [cbn in Z0; lia|]. rewrite LD. eauto.
Qed.

Lemma cut : forall (a b c : list Z), a ++ b = c -> b <> [] -> length a < length c.
Proof. intros a b c <- N. rewrite app_length. destruct b; [congruence|cbn; lia]. Qed.

Lemma message_cut : forall op d bytes pieces, send_json J truthy dumps op d = Ok bytes -> op <> OP_FILE_STREAM -> arrive_in_part bytes pieces -> exists r, recv J loads pieces = Ok ((OP_ERROR, NoData), r).
Proof.
  intros op d bytes pieces S NF (a & b & E & NE & C & I). unfold send_json in S. set (payload := match d with Some j => if truthy j then dumps j else [] | None => [] end) in *. destruct (header op (Z.of_nat (length payload))) as [h|] eqn:H; [|discriminate]. injection S as S. apply header_ok in H as (H1 & H2 & H3 & _).
  symmetry in E. assert (LA := cut a b _ E NE). rewrite <- S, app_length, H1 in LA. unfold recv. destruct (Nat.lt_ge_cases (length a) 5) as [L|L].
  - destruct (recv_short 5 pieces I) as (r & ->); [rewrite C; auto|]. eauto.
  - destruct (recv_exact_spec 5 pieces I) as (A & _). rewrite C in A. destruct (A L) as (r & -> & R & N). assert (X : firstn 5 a = h). { rewrite <- (proj1 (take_first h payload 5 H1)). rewrite S, <- E, firstn_app. replace (5 - length a) with 0 by lia. cbn. rewrite app_nil_r. auto. }
    rewrite X, H2, H3. destruct (Z.eqb_spec op OP_FILE_STREAM); [congruence|]. rewrite Nat2Z.id. destruct (recv_short (length payload) r N) as (r' & ->); [rewrite R, skipn_length; lia|]. eauto.
Qed.

Lemma no_data : forall op d bytes pieces, send_json J truthy dumps op d = Ok bytes -> op <> OP_FILE_STREAM -> (d = None \/ exists j, d = Some j /\ truthy j = false) -> arrive bytes pieces -> recv J loads pieces = Ok ((OP_ERROR, NoData), []).
Proof.
  intros op d bytes pieces S NF D AR. unfold send_json in S. replace (match d with Some j => if truthy j then dumps j else [] | None => [] end) with (@nil Z) in S by (destruct D as [->|(j & -> & ->)]; auto). cbn [length] in S. change (Z.of_nat 0) with 0%Z in S.
  destruct (header op 0) as [h|] eqn:H; [|discriminate]. injection S as <-. apply header_ok in H as (H1 & H2 & H3 & _). destruct (recv_front h [] pieces AR) as (r & E & (C & I)). rewrite H1 in E. unfold recv. rewrite E, H2, H3. destruct (Z.eqb_spec op OP_FILE_STREAM); [congruence|].
  assert (r = []) as -> by (destruct r as [|[|]]; [auto|elim I; cbn; auto|discriminate]). reflexivity.
Qed.

(** ** Files *)

Lemma receive_spec : forall fuel k n got pieces, 0 < k -> ~ In [] pieces -> length got <= n -> n - length got < fuel ->
  let all := got ++ List.concat pieces in receive fuel k n got pieces = firstn n all.
Proof.
  induction fuel as [|f IH]; intros k n got pieces K I L F all; [lia|]. cbn [receive]. destruct (Nat.leb_spec n (length got)) as [G|G].
  - unfold all. rewrite firstn_app. replace (n - length got) with 0 by lia. cbn. rewrite app_nil_r. symmetry. apply firstn_all2. lia.
  - assert (S := recv_into_spec (Nat.min k (n - length got)) pieces ltac:(lia) I). destruct (recv_into (Nat.min k (n - length got)) pieces) as (b & r). destruct S as (S1 & S2 & S3 & S4). destruct b as [|x b].
    + destruct (S4 eq_refl) as (-> & ->). unfold all. cbn. rewrite app_nil_r. symmetry. apply firstn_all2. lia.
    + cbn [length] in *. rewrite IH; auto; [|rewrite app_length; cbn [length]; lia|rewrite app_length; cbn [length]; lia]. unfold all. rewrite <- app_assoc, S1. auto.
Qed.

Lemma file_ok : forall content, (Z.of_nat (length (match content with Some c => c | None => [] end)) < 256 ^ 8)%Z -> exists bytes, send_file content = Ok bytes.
Proof. intros content L. unfold send_file. change (header OP_FILE_STREAM 8) with (Ok [4; 0; 0; 0; 8]%Z). cbn [rbind]. destruct (pack_fits 8 (Z.of_nat (length (match content with Some c => c | None => [] end)))) as (l & ->); [split; [lia|exact L]|]. cbn. eauto. Qed.

Lemma file_bytes : forall content bytes, send_file content = Ok bytes -> exists h s c, c = (match content with Some c => c | None => [] end) /\ bytes = h ++ s ++ c /\ length h = 5 /\ unpack (firstn 1 h) = OP_FILE_STREAM /\ length s = 8 /\ unpack s = Z.of_nat (length c).
Proof.
  intros content bytes H. unfold send_file in H. set (c := match content with Some c => c | None => [] end) in *. destruct (header OP_FILE_STREAM 8) as [h|] eqn:E; [|discriminate]. cbn [rbind] in H. destruct (pack 8 (Z.of_nat (length c))) as [s|] eqn:P; [|discriminate]. injection H as <-.
  apply header_ok in E as (E1 & E2 & _). apply pack_ok in P as (P1 & P2 & _). exists h, s, c. auto 10.
Qed.

Lemma download_all : forall k content bytes pieces, 0 < k -> send_file content = Ok bytes -> arrive bytes pieces ->
  download J loads k pieces = Ok (match content with Some (x :: c) => (Z.of_nat (length (x :: c)), Some (x :: c)) | _ => (0%Z, None) end).
Proof.
  intros k content bytes pieces K S AR. apply file_bytes in S as (h & s & c & C & -> & H1 & H2 & S1 & S2). destruct (recv_front h _ pieces AR) as (r & E & AR'). rewrite H1 in E. destruct (recv_front s _ r AR') as (r' & E' & (CC & I)). rewrite S1 in E'.
  unfold download, recv. rewrite E, H2, Z.eqb_refl, E', S2. cbn [rmap]. change (Z.eqb OP_FILE_STREAM OP_FILE_STREAM) with true. cbn [negb]. destruct c as [|x c].
  - change (Z.of_nat (length (@nil Z))) with 0%Z. cbn. destruct content as [[|]|]; try discriminate; auto.
  - destruct (Z.eqb_spec (Z.of_nat (length (x :: c))) 0) as [Z0|_]; [cbn in Z0; lia|]. rewrite Nat2Z.id, receive_spec by (auto; cbn; lia). cbn [app]. rewrite CC, firstn_all, Z.eqb_refl. destruct content as [[|y l]|]; try discriminate. injection C as -> ->. auto.
Qed.

Lemma download_part : forall k content bytes pieces, 0 < k -> send_file content = Ok bytes -> arrive_in_part bytes pieces -> exists f, download J loads k pieces = Ok (0%Z, f) /\ (content = None \/ content = Some [] -> f = None).
Proof.
  intros k content bytes pieces K S (a & b & E & NE & C & I). apply file_bytes in S as (h & s & c & CC & -> & H1 & H2 & S1 & S2). symmetry in E. assert (LA := cut a b _ E NE). rewrite !app_length, H1, S1 in LA.
  unfold download, recv. destruct (Nat.lt_ge_cases (length a) 5) as [L|L]; [destruct (recv_short 5 pieces I) as (r & ->); [rewrite C; auto|]; cbn; eexists; split; [reflexivity|auto]|].
  destruct (recv_exact_spec 5 pieces I) as (A & _). rewrite C in A. destruct (A L) as (r & -> & R & N). assert (X : firstn 5 a = h). { rewrite <- (proj1 (take_first h (s ++ c) 5 H1)), <- E, firstn_app. replace (5 - length a) with 0 by lia. cbn. rewrite app_nil_r. auto. }
  rewrite X, H2, Z.eqb_refl. assert (Y : skipn 5 a ++ b = s ++ c). { rewrite <- (proj2 (take_first h (s ++ c) 5 H1)), <- E, skipn_app. replace (5 - length a) with 0 by lia. cbn [skipn]. auto. }
  assert (LS : length (skipn 5 a) = length a - 5) by apply skipn_length. rewrite <- R in Y, LS.
  destruct (Nat.lt_ge_cases (length (List.concat r)) 8) as [L2|L2]; [destruct (recv_short 8 r N L2) as (r' & ->); cbn; eexists; split; [reflexivity|auto]|].
  destruct (recv_exact_spec 8 r N) as (A2 & _). destruct (A2 L2) as (r' & -> & R2 & N2). assert (X2 : firstn 8 (List.concat r) = s). { rewrite <- (proj1 (take_first s c 8 S1)), <- Y, firstn_app. replace (8 - length (List.concat r)) with 0 by lia. cbn [firstn]. rewrite app_nil_r. auto. }
  rewrite X2, S2. cbn [rmap]. change (Z.eqb OP_FILE_STREAM OP_FILE_STREAM) with true. cbn [negb]. destruct (Z.eqb_spec (Z.of_nat (length c)) 0); [eexists; split; [reflexivity|auto]|]. rewrite Nat2Z.id, receive_spec by (auto; cbn; lia). cbn [app]. eexists. split; [|intros [-> | ->]; rewrite CC in n; elim n; reflexivity]. f_equal. f_equal.
  destruct (Z.eqb_spec (Z.of_nat (length (firstn (length c) (List.concat r')))) (Z.of_nat (length c))) as [Q|Q]; auto. rewrite firstn_length, R2, skipn_length in Q. lia.
Qed.
End Json.

(** ** Paths *)

Lemma realpath_leads : forall link fuel d p e, realpath link fuel d p = Some e -> leads link d p e.
Proof.
  induction fuel as [|f IH]; intros d p e H; [discriminate|]. cbn in H. destruct p as [|n r]; [injection H as <-; constructor|].
  destruct (String.eqb_spec n ""); cbn [orb] in H; [apply leads_same; auto|]. destruct (String.eqb_spec n "."); [apply leads_same; auto|]. destruct (String.eqb_spec n ".."); [subst; apply leads_up; auto|].
  destruct (link (d ++ [n])) as [t|] eqn:L; [eapply leads_link; eauto|apply leads_down; auto].
Qed.

(** Only one rule applies to a name. *)
Ltac clash :=
  match goal with
  | H : ?n = _ \/ ?n = _ |- _ => destruct H; congruence
  | H : ".."%string = _ \/ _ |- _ => destruct H; discriminate
  | A : ?f ?x = Some ?t, B : ?f ?x = Some ?u |- _ => replace u with t in * by congruence; auto
  | _ => congruence
  end.

Lemma leads_fun : forall link d p e, leads link d p e -> forall e', leads link d p e' -> e = e'.
Proof.
  intros link d p e H. induction H as [d|d n r e N H IH|d r e H IH|d n r e N1 N2 N3 L H IH|d n r t e N1 N2 N3 L H IH]; intros e' H'; inversion H'; subst; auto; clash.
Qed.

Lemma leads_app : forall link d p q m e, leads link d p m -> leads link m q e -> leads link d (p ++ q) e.
Proof.
  intros link d p q m e H. revert q e. induction H as [d|d n r m N H IH|d r m H IH|d n r m N1 N2 N3 L H IH|d n r t m N1 N2 N3 L H IH]; intros q e G; cbn [app]; auto.
  - apply leads_same; auto.
  - apply leads_up; auto.
  - apply leads_down; auto.
  - eapply leads_link; eauto. rewrite app_assoc. auto.
Qed.

(** All beginnings of the path are no links and have plain names. *)
Definition solid (link : list string -> option string) (d : list string) : Prop := forall k n, nth_error d k = Some n -> plain n /\ link (firstn (S k) d) = None.

Lemma solid_nil : forall link, solid link [].
Proof. intros link [|k] n H; discriminate. Qed.

Lemma solid_app : forall link d n, solid link d -> plain n -> link (d ++ [n]) = None -> solid link (d ++ [n]).
Proof.
  intros link d n S P L k x H. destruct (Nat.lt_ge_cases k (length d)) as [Q|Q].
  - rewrite nth_error_app1 in H by auto. rewrite firstn_app. replace (Datatypes.S k - length d) with 0 by lia. change (firstn 0 [n]) with (@nil string). rewrite app_nil_r. auto.
  - assert (B : k < length (d ++ [n])) by (apply nth_error_Some; congruence). rewrite app_length in B. cbn in B. replace k with (length d) in * by lia. rewrite nth_error_app2, Nat.sub_diag in H by auto. injection H as <-. split; auto. rewrite firstn_all2; auto. rewrite app_length. cbn. lia.
Qed.

Lemma solid_removelast : forall link d, solid link d -> solid link (removelast d).
Proof.
  intros link d S. destruct d as [|x d] using rev_ind; auto. rewrite removelast_last. intros k n H. assert (L : k < length d) by (apply nth_error_Some; congruence). specialize (S k n). rewrite nth_error_app1 in S by auto. specialize (S H). rewrite firstn_app in S. replace (Datatypes.S k - length d) with 0 in S by lia. change (firstn 0 [x]) with (@nil string) in S. rewrite app_nil_r in S. auto.
Qed.

Lemma leads_solid : forall link d p e, leads link d p e -> solid link d -> solid link e.
Proof.
  intros link d p e H. induction H as [d|d n r m N H IH|d r m H IH|d n r m N1 N2 N3 L H IH|d n r t m N1 N2 N3 L H IH]; intros S; auto.
  - apply IH, solid_removelast. auto.
  - apply IH, solid_app; auto. repeat split; auto.
  - apply IH. destruct (isabs t); auto. apply solid_nil.
Qed.

Lemma solid_leads : forall link d, solid link d -> leads link [] d d.
Proof.
  intros link d. induction d as [|n d IH] using rev_ind; intros S; [constructor|]. assert (S' : solid link d) by (rewrite <- (removelast_last d n); apply solid_removelast; auto).
  apply leads_app with d; auto. destruct (S (length d) n) as ((N1 & N2 & N3) & L); [rewrite nth_error_app2, Nat.sub_diag by auto; reflexivity|]. rewrite firstn_all2 in L by (rewrite app_length; cbn; lia). apply leads_down; auto. constructor.
Qed.

Lemma leads_split : forall link d p q e m, leads link d p m -> leads link d (p ++ q) e -> leads link m q e.
Proof.
  intros link d p q e m H. revert e. induction H as [d|d n r m N H IH|d r m H IH|d n r m N1 N2 N3 L H IH|d n r t m N1 N2 N3 L H IH]; intros e G; cbn [app] in G; auto; inversion G; subst; auto; try clash.
  match goal with B : link _ = Some ?u |- _ => replace u with t in * by congruence end. rewrite app_assoc in *. auto.
Qed.

Lemma same_path_eq : forall a b, same_path a b = true <-> a = b.
Proof.
  induction a as [|x a IH]; intros [|y b]; cbn; split; intros H; try discriminate; auto.
  - apply andb_true_iff in H as (A & B). apply String.eqb_eq in A. apply IH in B. congruence.
  - injection H as -> ->. rewrite String.eqb_refl. apply IH. auto.
Qed.

Lemma common_prefix : forall a b, commonpath a b = a <-> within a b.
Proof.
  unfold within. induction a as [|x a IH]; intros b; cbn.
  - split; eauto.
  - destruct b as [|y b]; [split; [discriminate|intros (c & C); discriminate]|]. destruct (String.eqb_spec x y) as [->|N].
    + split; [intros H; injection H as H; apply IH in H as (c & ->); eauto|]. intros (c & C). injection C as ->. f_equal. apply IH. eauto.
    + split; [discriminate|]. intros (c & C). injection C as -> _. congruence.
Qed.

Lemma join_sound : forall link fuel base rel p, safe_path_join link fuel base rel = Some p ->
  p = base ++ split_path "" rel /\ isabs rel = false /\ rel <> ""%string /\ exists real_base real_p, leads link [] base real_base /\ leads link [] p real_p /\ within real_base real_p.
Proof.
  intros link fuel base rel p H. unfold safe_path_join in H. destruct rel as [|c rel]; [discriminate|]. set (s := String c rel) in *. destruct (isabs s) eqn:A; [discriminate|]. destruct (realpath link fuel [] base) as [rb|] eqn:B; [|discriminate].
  destruct (realpath link fuel [] (rb ++ split_path "" s)) as [rc|] eqn:C; [|discriminate]. destruct (same_path (commonpath rb rc) rb) eqn:E; [|discriminate]. injection H as <-. split; auto. split; auto. split; [discriminate|].
  apply realpath_leads in B, C. apply same_path_eq, common_prefix in E. exists rb, rc. split; auto. split; auto. apply leads_app with rb; auto. assert (SO := leads_solid _ _ _ _ B (solid_nil link)). apply (leads_split link [] rb _ rc rb); auto. apply solid_leads. auto.
Qed.

Lemma leads_realpath : forall link d p e, leads link d p e -> exists fuel, forall more, fuel <= more -> realpath link more d p = Some e.
Proof.
  intros link d p e H. induction H as [d|d n r m N H (u & IH)|d r m H (u & IH)|d n r m N1 N2 N3 L H (u & IH)|d n r t m N1 N2 N3 L H (u & IH)]; [exists 1|exists (S u)..]; (intros [|f] G; [lia|]; cbn [realpath]); auto.
  - replace (String.eqb n "" || String.eqb n ".") with true; [apply IH; lia|]. destruct N as [-> | ->]; auto.
  - cbn. apply IH. lia.
  - destruct (String.eqb_spec n ""); [congruence|]. destruct (String.eqb_spec n "."); [congruence|]. destruct (String.eqb_spec n ".."); [congruence|]. cbn [orb]. rewrite L. apply IH. lia.
  - destruct (String.eqb_spec n ""); [congruence|]. destruct (String.eqb_spec n "."); [congruence|]. destruct (String.eqb_spec n ".."); [congruence|]. cbn [orb]. rewrite L. apply IH. lia.
Qed.

Lemma join_complete : forall link base rel real_base real_p, leads link [] base real_base -> leads link [] (base ++ split_path "" rel) real_p ->
  rel <> ""%string -> isabs rel = false -> within real_base real_p -> exists fuel, forall more, fuel <= more -> safe_path_join link more base rel = Some (base ++ split_path "" rel).
Proof.
  intros link base rel rb rp B P NE A W. assert (SO := solid_leads _ _ (leads_solid _ _ _ _ B (solid_nil link))). assert (Q : leads link [] (rb ++ split_path "" rel) rp) by (apply leads_app with rb; auto; apply (leads_split link [] base _ rp rb); auto).
  destruct (leads_realpath _ _ _ _ B) as (u & U), (leads_realpath _ _ _ _ Q) as (v & V). exists (u + v). intros more G. unfold safe_path_join. destruct rel as [|c rel]; [congruence|]. rewrite A, U, V by lia. replace (same_path (commonpath rb rp) rb) with true; auto. symmetry. apply same_path_eq, common_prefix. auto.
Qed.

Lemma leads_plain : forall link q d, (forall k, k < length q -> link (d ++ firstn (S k) q) = None) -> Forall plain q -> leads link d q (d ++ q).
Proof.
  intros link. induction q as [|n q IH]; intros d L F; [rewrite app_nil_r; constructor|]. apply Forall_cons_iff in F as ((N1 & N2 & N3) & F). assert (L0 := L 0 ltac:(cbn; lia)). cbn [firstn] in L0. apply leads_down; auto. replace (d ++ n :: q) with ((d ++ [n]) ++ q) by (rewrite <- app_assoc; auto). apply IH; auto. intros k K. rewrite <- app_assoc. apply (L (S k)). cbn. lia.
Qed.

(** ** Fetching *)

Lemma incomplete_true : forall rs ms, incomplete rs ms = true <-> exists k r m, nth_error rs k = Some r /\ nth_error ms k = Some m /\ r = 0%Z /\ (0 < snd m)%Z.
Proof.
  intros rs ms. unfold incomplete. rewrite existsb_exists. split.
  - intros ((r & m) & I & H). apply in_combine_nth in I as (k & A & B). apply andb_true_iff in H as (C & D). cbn in C, D. apply Z.eqb_eq in C. apply Z.ltb_lt in D. exists k, r, m. auto.
  - intros (k & r & m & A & B & -> & D). exists (0%Z, m). split; [|cbn; apply Z.ltb_lt; auto]. revert rs ms A B. induction k as [|k IH]; intros [|x rs] [|y ms] A B; try discriminate; cbn in *; [injection A as ->; injection B as ->; auto|right; apply IH; auto].
Qed.

(** Zeros that all fall on empty files are at most as many as the empty files. *)
Lemma zeros_bound : forall rs (ms : list (string * Z)), length rs = length ms -> incomplete rs ms = false -> length (filter (Z.eqb 0) rs) <= length (filter (fun m => negb (0 <? snd m)%Z) ms).
Proof.
  induction rs as [|r rs IH]; intros [|m ms] L H; try discriminate; [cbn; auto|]. unfold incomplete in H. cbn [combine existsb fst snd] in H. apply orb_false_iff in H as (A & B). injection L as L. specialize (IH ms L B).
  cbn [filter]. destruct (Z.eqb_spec 0 r) as [<-|N]; destruct (0 <? snd m)%Z; cbn [negb length] in *; try lia; discriminate.
Qed.

Lemma filter_length_perm : forall {A} (f : A -> bool) l l', Permutation l l' -> length (filter f l) = length (filter f l').
Proof. intros A f l l' H. induction H; cbn; auto; [destruct (f x); cbn; auto|destruct (f x), (f y); cbn; auto|congruence]. Qed.

(** Zeros at all empty files and at one more are too many. *)
Lemma zeros_more : forall rs (ms : list (string * Z)), length rs = length ms ->
  (forall k r m, nth_error rs k = Some r -> nth_error ms k = Some m -> (0 <? snd m)%Z = false -> r = 0%Z) ->
  length (filter (fun m => negb (0 <? snd m)%Z) ms) <= length (filter (Z.eqb 0) rs) /\
  (incomplete rs ms = true -> length (filter (fun m => negb (0 <? snd m)%Z) ms) < length (filter (Z.eqb 0) rs)).
Proof.
  induction rs as [|r rs IH]; intros [|m ms] L Z; try discriminate; [cbn; split; [lia|discriminate]|]. injection L as L. destruct (IH ms L) as (A & B); [intros k; apply (Z (S k))|]. assert (Z0 := Z 0 r m eq_refl eq_refl).
  cbn [filter]. unfold incomplete in *. cbn [combine existsb fst snd]. destruct (Z.eqb_spec r 0) as [->|N].
  - change (0 =? 0)%Z with true. destruct (0 <? snd m)%Z; cbn [negb length andb orb]; split; try lia; intros H; specialize (B H); lia.
  - destruct (Z.eqb_spec 0 r); [congruence|]. destruct (0 <? snd m)%Z; [|elim N; auto]. cbn [negb length andb orb]. auto.
Qed.

(** No completion order hides a download that failed. *)
Lemma any_order : forall rs rs' (ms : list (string * Z)), length rs = length ms -> Permutation rs rs' ->
  (forall k r m, nth_error rs k = Some r -> nth_error ms k = Some m -> (0 <? snd m)%Z = false -> r = 0%Z) ->
  incomplete rs ms = true -> incomplete rs' ms = true.
Proof.
  intros rs rs' ms L P Z H. destruct (incomplete rs' ms) eqn:E; auto. apply zeros_bound in E; [|rewrite <- (Permutation_length P); auto]. destruct (zeros_more rs ms L Z) as (_ & B). specialize (B H). rewrite (filter_length_perm _ _ _ P) in B. lia.
Qed.

Section Fetch.
Variable J : Type.
Variable loads : list Z -> decoded J.

Lemma brings_got : forall k file pieces, 0 < k -> brings file pieces ->
  (exists f, download J loads k pieces = Ok (0%Z, f) /\ (snd file = [] -> f = None)) \/ (snd file <> [] /\ download J loads k pieces = Ok (Z.of_nat (length (snd file)), Some (snd file))).
Proof.
  intros k file pieces K (content & bytes & C & S & [A|A]).
  - rewrite (download_all J loads k content bytes pieces K S A). destruct C as [-> | ->]; [|left; eauto]. destruct (snd file) as [|x c]; [left; eauto|right]. split; [discriminate|auto].
  - destruct (download_part J loads k content bytes pieces K S A) as (f & -> & E). left. exists f. split; auto. intros N. apply E. destruct C as [-> | ->]; [rewrite N|]; auto.
Qed.

(** What the downloads give, file by file. *)
Lemma got_all : forall k files wires, 0 < k -> Forall2 brings files wires ->
  exists got, sequence (map (download J loads k) wires) = Ok got /\
    Forall2 (fun file g => (fst g = 0%Z /\ (snd file = [] -> snd g = None)) \/ (snd file <> [] /\ g = (Z.of_nat (length (snd file)), Some (snd file)))) files got.
Proof.
  intros k files wires K H. induction H as [|file w files wires B H IH]; [exists []; split; auto; constructor|]. destruct IH as (got & E & F). cbn [map sequence]. destruct (brings_got k file w K B) as [(f & -> & N)|(N & ->)]; rewrite E; eexists; (split; [reflexivity|]); constructor; auto.
Qed.

Lemma final_spec : forall (files : list (string * list Z)) got,
  Forall2 (fun file g => (fst g = 0%Z /\ (snd file = [] -> snd g = None)) \/ (snd file <> [] /\ g = (Z.of_nat (length (snd file)), Some (snd file)))) files got ->
  incomplete (map fst got) (manifest_of files) = false ->
  flat_map (fun x => match snd (snd x) with Some c => [(fst (fst x), c)] | None => [] end) (combine (manifest_of files) got) = filter (fun f => match snd f with [] => false | _ => true end) files.
Proof.
  intros files got H. induction H as [|(p & c) (r & f) files got B H IH]; intros I; auto. change (manifest_of ((p, c) :: files)) with ((p, Z.of_nat (length c)) :: manifest_of files) in *. unfold incomplete in I. cbn [map combine existsb fst snd] in I. apply orb_false_iff in I as (I1 & I2). cbn [map combine flat_map fst snd filter]. rewrite IH by auto. cbn [fst snd] in B. destruct B as [(-> & N)|(N & E)].
  - destruct c as [|x c]; [rewrite N; auto|]. cbn in I1. discriminate.
  - injection E as -> ->. destruct c; [congruence|auto].
Qed.

Lemma fetch_sound : forall k safe files wires order final, 0 < k -> Forall2 brings files wires -> (forall l, Permutation l (order l)) ->
  fetch_shard safe (manifest_of files) (map (download J loads k) wires) order = Some final ->
  final = filter (fun f => match snd f with [] => false | _ => true end) files /\ forall f, In f files -> safe (fst f) = true.
Proof.
  intros k safe files wires order final K B P H. destruct (got_all k files wires K B) as (got & G & F). unfold fetch_shard in H. destruct (manifest_of files) as [|m ms] eqn:M; [discriminate|]. rewrite <- M in *. destruct (forallb (fun m => safe (fst m)) (manifest_of files)) eqn:S; [|discriminate]. cbn [negb] in H. rewrite G in H.
  destruct (incomplete (order (map fst got)) (manifest_of files)) eqn:I; [discriminate|]. injection H as <-. split.
  - apply final_spec; auto. destruct (incomplete (map fst got) (manifest_of files)) eqn:E; auto. rewrite (any_order (map fst got) (order (map fst got)) (manifest_of files)) in I; auto.
    + unfold manifest_of. rewrite !map_length. symmetry. clear -F. induction F; cbn; auto.
    + intros i r x Hr Hx Z. clear -F Hr Hx Z. revert i Hr Hx. induction F as [|file g files got B F IH]; intros [|i] Hr Hx; try discriminate; cbn in *; [|eauto]. injection Hr as <-. injection Hx as <-. cbn [snd] in Z. destruct B as [(A & _)|(N & ->)]; auto. destruct (snd file); [congruence|discriminate].
  - intros f I'. rewrite forallb_forall in S. apply (S (fst f, Z.of_nat (length (snd f)))). unfold manifest_of. apply in_map_iff. eauto.
Qed.

Lemma perm_nth : forall (l l' : list Z), Permutation l l' -> ~ In 0%Z l -> ~ In 0%Z l'.
Proof. intros l l' P N I. apply N. apply Permutation_sym in P. eapply Permutation_in; eauto. Qed.

Lemma fetch_complete : forall k safe files wires order, 0 < k -> files <> [] -> Forall2 brings_all files wires -> (forall f, In f files -> snd f <> [] /\ safe (fst f) = true) -> (forall l, Permutation l (order l)) ->
  fetch_shard safe (manifest_of files) (map (download J loads k) wires) order = Some files.
Proof.
  intros k safe files wires order K NE B S P.
  assert (G : sequence (map (download J loads k) wires) = Ok (map (fun f => (Z.of_nat (length (snd f)), Some (snd f))) files)).
  { clear NE P. induction B as [|file w files wires (bytes & E & A) B IH]; auto. cbn [map sequence]. rewrite IH by (intros f I; apply S; cbn; auto). rewrite (download_all J loads k _ bytes w K E A). destruct (S file (or_introl eq_refl)) as (N & _). destruct (snd file); [congruence|auto]. }
  unfold fetch_shard. rewrite G. destruct (manifest_of files) as [|m ms] eqn:M; [destruct files; [congruence|discriminate]|]. rewrite <- M in *. replace (forallb (fun m => safe (fst m)) (manifest_of files)) with true.
  - cbn [negb]. destruct (incomplete (order (map fst (map (fun f : string * list Z => (Z.of_nat (length (snd f)), Some (snd f))) files))) (manifest_of files)) eqn:I.
    + exfalso. apply incomplete_true in I as (i & r & x & R & _ & -> & _). apply nth_error_In in R. revert R. eapply perm_nth; [apply P|]. rewrite map_map. intros I. apply in_map_iff in I as (f & E & I). cbn [fst] in E. destruct (S f I) as (N & _). destruct (snd f); [congruence|cbn in E; lia].
    + f_equal. clear -S. induction files as [|(p & c) files IH]; auto. change (manifest_of ((p, c) :: files)) with ((p, Z.of_nat (length c)) :: manifest_of files). cbn [map combine flat_map fst snd app]. f_equal. apply IH. intros f I. apply S. cbn. auto.
  - symmetry. apply forallb_forall. intros x I. unfold manifest_of in I. apply in_map_iff in I as (f & <- & I). apply S. auto.
Qed.
End Fetch.

Lemma classic_within : forall a b, within a b \/ ~ within a b.
Proof. intros a b. rewrite <- common_prefix. destruct (list_eq_dec string_dec (commonpath a b) a); auto. Qed.

Lemma wire_whole : forall p c, wire c <> [] -> brings_all (p, c) (wire c).
Proof.
  intros p c N. unfold wire in *. cbn [snd]. destruct (send_file (Some c)) as [b|] eqn:E; [|congruence]. exists b. split; auto. split; [cbn; apply app_nil_r|]. intros [X|[]]. apply file_bytes in E as (h & s & c' & _ & -> & H & _). subst. destruct h; [discriminate|discriminate].
Qed.
