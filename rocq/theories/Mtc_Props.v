(** C78: the start of multi-tier checkpointing. *)
From Coq Require Import List Bool Arith NArith ZArith String Ascii Lia.
From Verif Require Import Base StepName_Model StepName_Spec StepName_Proofs Tree_Model Mtc_Model Mtc_Spec Mtc_Proofs.
Import ListNotations.
Local Open Scope string_scope.
Local Open Scope list_scope.
Local Open Scope nat_scope.

(** ** Peers *)

(** The peers of a process are those at its place in the other slices, one of each; they pass the check of the file. *)
Theorem C78_peers : forall m num slices me, ranks_ok m num -> slices <> 0 -> num mod slices = 0 -> me < num ->
  exists r l, node_peers m num slices me = Ok (r, l) /\ nth_error m me = Some r /\ NoDup l /\ S (List.length l) = slices /\ (forall p, In p l <-> peer m num slices me p) /\ ~ In r l /\ validate_ranks (Z.of_nat num) r l = Ok tt.
Proof.
  intros m num slices me R Z D M. destruct (node_peers_ok m num slices me R Z D M) as (r & l & E & G & NL & LE & PE & NI). exists r, l. repeat (split; [assumption|]). eapply node_peers_valid; eauto.
Qed.
Print Assumptions C78_peers.

Example C78_peers_ex : ranks_ok [3; 0; 5; 1; 4; 2]%Z 6 /\ node_peers [3; 0; 5; 1; 4; 2]%Z 6 3 3 = Ok (1, [0; 2])%Z /\ node_peers [3; 0; 5; 1; 4; 2]%Z 6 2 3 = Ok (1, [3])%Z.
Proof.
  split; [|vm_compute; auto]. apply validate_mapping_iff. reflexivity.
Qed.

(** Whom a node names as a peer names it, and both see the same group. *)
Theorem C78_symmetric : forall m num slices i j ri li rj lj, node_peers m num slices i = Ok (ri, li) -> node_peers m num slices j = Ok (rj, lj) ->
  (In rj li <-> In ri lj) /\ (In rj li -> forall x, (x = ri \/ In x li) <-> (x = rj \/ In x lj)).
Proof.
  intros m num slices i j ri li rj lj Hi Hj. destruct (node_peers_inv _ _ _ _ _ _ Hi) as (R & Z & D & I). destruct (node_peers_inv _ _ _ _ _ _ Hj) as (_ & _ & _ & J).
  destruct (node_peers_ok m num slices i R Z D I) as (r & l & E & Gi & _ & _ & Pi & _). rewrite Hi in E. inversion E; subst r l. clear E.
  destruct (node_peers_ok m num slices j R Z D J) as (r & l & E & Gj & _ & _ & Pj & _). rewrite Hj in E. inversion E; subst r l. clear E.
  destruct R as (L & _ & N).
  assert (U : forall a b r, a < num -> nth_error m a = Some r -> nth_error m b = Some r -> a = b) by (intros a b r A X Y; eapply (proj1 (NoDup_nth_error m) N); [lia|congruence]).
  assert (K : forall a b ra la rb, a < num -> b < num -> nth_error m a = Some ra -> nth_error m b = Some rb -> (forall p, In p la <-> peer m num slices a p) -> (In rb la <-> b <> a /\ b mod (num / slices) = a mod (num / slices))).
  { intros a b ra la rb A B X Y P. rewrite P. split.
    - intros (k & K1 & K2 & K3 & K4). assert (k = b) by (eapply U; eauto). subst k. auto.
    - intros [K1 K2]. exists b. auto. }
  split.
  - rewrite (K i j ri li rj I J Gi Gj Pi), (K j i rj lj ri J I Gj Gi Pj). intuition auto.
  - intros IJ x. apply (K i j ri li rj I J Gi Gj Pi) in IJ. destruct IJ as [NE M]. rewrite Pi, Pj. unfold peer. split.
    + intros [->|(k & K1 & K2 & K3 & K4)]; [right; exists i; intuition auto|]. destruct (Nat.eq_dec k j) as [->|KJ]; [left; congruence|]. right. exists k. rewrite M. auto.
    + intros [->|(k & K1 & K2 & K3 & K4)]; [right; exists j; intuition auto|]. destruct (Nat.eq_dec k i) as [->|KI]; [left; congruence|]. right. exists k. rewrite <- M. auto.
Qed.
Print Assumptions C78_symmetric.

Example C78_symmetric_ex : node_peers [3; 0; 5; 1; 4; 2]%Z 6 3 1 = Ok (0, [1; 2])%Z /\ node_peers [3; 0; 5; 1; 4; 2]%Z 6 3 5 = Ok (2, [0; 1])%Z.
Proof. vm_compute. auto. Qed.

(** Peers are only computed for a mapping that is one-to-one, slices of equal size and an index of a process; anything else is an error. *)
Theorem C78_ranks_needed : forall m num slices me,
  ((exists x, node_peers m num slices me = Ok x) <-> ranks_ok m num /\ slices <> 0 /\ num mod slices = 0 /\ me < num) /\
  (slices <> 0 -> forall e, node_peers m num slices me = Err e -> e = ValueError).
Proof.
  intros m num slices me. split; [split|].
  - intros [[r l] H]. eapply node_peers_inv; eauto.
  - intros (R & Z & D & M). destruct (node_peers_ok m num slices me R Z D M) as (r & l & E & _). eauto.
  - intros Z e H. destruct (Nat.eq_dec (num mod slices) 0) as [D|D].
    2:{ unfold node_peers in H. destruct (Nat.eqb_spec slices 0); [tauto|]. destruct (Nat.eqb_spec (num mod slices) 0); [tauto|]. simpl in H. congruence. }
    destruct (Nat.ltb_spec me num) as [M|M].
    2:{ unfold node_peers in H. destruct (Nat.eqb_spec slices 0); [tauto|]. rewrite D in H. simpl in H. destruct (Nat.ltb_spec me num); [lia|]. simpl in H. congruence. }
    destruct (validate_mapping_err m num) as [V|V].
    + apply validate_mapping_iff in V. destruct (node_peers_ok m num slices me V Z D M) as (r & l & E & _). congruence.
    + unfold node_peers in H. destruct (Nat.eqb_spec slices 0); [tauto|]. rewrite D in H. simpl in H. destruct (Nat.ltb_spec me num); [|lia]. simpl in H. rewrite V in H. simpl in H. congruence.
Qed.
Print Assumptions C78_ranks_needed.

Example C78_ranks_needed_ex : node_peers [0; 1; 1; 3]%Z 4 2 0 = Err ValueError /\ node_peers [0; 1; 2]%Z 3 2 0 = Err ValueError /\ node_peers [0; 1]%Z 2 2 2 = Err ValueError /\ node_peers [0; 2]%Z 2 2 0 = Err ValueError.
Proof. vm_compute. auto. Qed.

(** The ranks of a file are checked: in range, the own rank not among the peers, no peer twice. *)
Theorem C78_ranks : forall num r peers, (validate_ranks num r peers = Ok tt <-> (0 <= r < num)%Z /\ (forall p, In p peers -> (0 <= p < num)%Z) /\ ~ In r peers /\ NoDup peers) /\
  (validate_ranks num r peers <> Ok tt -> validate_ranks num r peers = Err ValueError).
Proof. intros. split; [apply validate_ranks_iff|]. intros N. destruct (validate_ranks_err num r peers); tauto. Qed.
Print Assumptions C78_ranks.

Example C78_ranks_ex : validate_ranks 4 1 [0; 3]%Z = Ok tt /\ validate_ranks 4 1 [0; 1]%Z = Err ValueError /\ validate_ranks 4 1 [0; 0]%Z = Err ValueError /\ validate_ranks 4 1 [4]%Z = Err ValueError /\ validate_ranks 0 0 [] = Err ValueError.
Proof. vm_compute. auto 6. Qed.

(** The slices of processes need not be consecutive indices: nothing checks it, and then a peer may be in the same slice as the node, and lost with it. *)
Theorem C78_slices_refuted : exists (m : list Z) (num slices : nat) (slice_of : nat -> nat) me r l j p, ranks_ok m num /\
  (forall s, s < slices -> List.length (filter (fun i => slice_of i =? s) (seq 0 num)) = num / slices) /\
  node_peers m num slices me = Ok (r, l) /\ In p l /\ nth_error m j = Some p /\ j <> me /\ slice_of j = slice_of me.
Proof.
  exists [0; 1; 2; 3]%Z, 4, 2, (fun i => i mod 2), 0, 0%Z, [2%Z], 2, 2%Z. split; [apply validate_mapping_iff; reflexivity|]. split.
  - intros s S'. destruct s as [|[|s]]; try lia; reflexivity.
  - vm_compute. repeat split; auto; discriminate.
Qed.
Print Assumptions C78_slices_refuted.

(** ** The file for the replicator *)

(** The file is written for exactly one positive interval and good ranks; then it has the whole text, the temporary file is gone and nothing else is changed. *)
Theorem C78_file : forall q d,
  ((exists d', create_file q d = Ok d') <-> validate_ranks (q_nodes q) (q_rank q) (q_peers q) = Ok tt /\
     ((exists m, q_minutes q = Some m /\ q_steps q = None /\ (0 < m)%Z) \/ (exists s, q_minutes q = None /\ q_steps q = Some s /\ (0 < s)%Z))) /\
  (forall d', create_file q d = Ok d' -> holds d' replicator_file (NFile (Some (yaml q))) /\ absent d' temp_file /\ forall n, n <> replicator_file -> n <> temp_file -> same d d' n) /\
  (forall e, create_file q d = Err e -> e = ValueError).
Proof.
  intros q d. rewrite <- validate_request_iff. split; [|split].
  - split; [intros [d' H]; apply create_ok in H; tauto|]. intros V. unfold create_file, create_states. rewrite V. simpl. eauto.
  - intros d' H. apply create_ok in H. tauto.
  - intros e H. unfold create_file, create_states in H. destruct (validate_request_err q) as [V|V]; rewrite V in H; simpl in H; congruence.
Qed.
Print Assumptions C78_file.

(** At no time is there a part of the text under the name the replicator looks at. *)
Theorem C78_atomic : forall q d l x, create_states q d = Ok l -> In x l ->
  (same d x replicator_file \/ holds x replicator_file (NFile (Some (yaml q)))) /\ forall n, n <> replicator_file -> n <> temp_file -> same d x n.
Proof. exact create_atomic. Qed.
Print Assumptions C78_atomic.

(** The lines of the file, for a run whose name is one line. *)
Theorem C78_lines : forall q, plain_run (q_run q) -> yaml_lines q =
  ["job-name: " ++ q_run q; "framework: orbax"; "assume-data-parallelism: " ++ str_int (q_dp q); "node-rank: " ++ str_int (q_rank q); "nodes: " ++ str_int (q_nodes q);
   "peer-ranks: " ++ str_list (q_peers q);
   match q_minutes q with Some m => "backup-interval-minutes: " ++ str_int m | None => "backup-interval-steps: " ++ match q_steps q with Some s => str_int s | None => "None" end end]%string.
Proof. exact yaml_lines_ok. Qed.
Print Assumptions C78_lines.

(** Numbers are written in decimal digits. *)
Theorem C78_numbers : forall z, int_text z (str_int z).
Proof. exact int_text_ok. Qed.
Print Assumptions C78_numbers.

Definition ex_request : request := mkRequest "run-1" 6 12 1 [0; 2]%Z (Some 30%Z) None.
Definition nl : string := String (ascii_of_nat 10) "".

Example C78_file_ex : plain_run "run-1" /\ create_file ex_request [("5", NDir); (temp_file, NFile (Some "x"))] =
  Ok [("5", NDir); (replicator_file, NFile (Some ("job-name: run-1" ++ nl ++ "framework: orbax" ++ nl ++ "assume-data-parallelism: 12" ++ nl ++ "node-rank: 1" ++ nl ++ "nodes: 6" ++ nl ++ "peer-ranks: [0, 2]" ++ nl ++ "backup-interval-minutes: 30")%string))] /\
  yaml_lines (mkRequest "r" 2 (-3) 1 [] None (Some 7%Z)) = ["job-name: r"; "framework: orbax"; "assume-data-parallelism: -3"; "node-rank: 1"; "nodes: 2"; "peer-ranks: []"; "backup-interval-steps: 7"] /\
  create_file (mkRequest "r" 2 2 1 [0]%Z (Some 0%Z) None) [] = Err ValueError /\ create_file (mkRequest "r" 2 2 1 [0]%Z (Some 1%Z) (Some 1%Z)) [] = Err ValueError.
Proof. split; [|vm_compute; auto]. split; [|reflexivity]. vm_compute. intros H. repeat (destruct H as [H|H]; [discriminate|]). exact H. Qed.

Example C78_atomic_ex : exists a b c, create_states ex_request [] = Ok [a; b; c] /\ a = [(temp_file, NFile (Some ""))] /\ b = [(temp_file, NFile (Some (yaml ex_request)))] /\ c = [(replicator_file, NFile (Some (yaml ex_request)))].
Proof. do 3 eexists. split; [reflexivity|]. auto. Qed.

(** The name of the run is not looked at: with a newline it adds lines of its own to the file, here another rank. *)
Theorem C78_run_refuted : exists q, validate_request q = Ok tt /\ q_rank q = 1%Z /\ In "node-rank: 0" (yaml_lines q) /\ In "node-rank: 1" (yaml_lines q).
Proof. exists (mkRequest ("job" ++ nl ++ "node-rank: 0")%string 2 2 1 [0]%Z (Some 30%Z) None). vm_compute. intuition auto. Qed.
Print Assumptions C78_run_refuted.

(** ** Waiting for the replicator *)

(** The wait ends at the first second without the file; with none before the timeout it fails, not before and not after. *)
Theorem C78_wait : forall env n check d t,
  ((forall k, k < n -> exists x, holds (after env k d t) replicator_file x) -> wait_gone env n check d t = (Err TimeoutError, (after env n d t, t + n))) /\
  (forall k, k < n -> (forall j, j < k -> exists x, holds (after env j d t) replicator_file x) -> absent (after env k d t) replicator_file ->
    wait_gone env n check d t = if check then (fst (check_errors (after env k d t)), (snd (check_errors (after env k d t)), t + k)) else (Ok tt, (after env k d t, t + k))).
Proof. intros env n check d t. split; [apply wait_never|]. intros k. apply wait_first. Qed.
Print Assumptions C78_wait.

(** The replicator takes the file away in second [k] *)
Definition ex_env (k : nat) : environment := fun t d => if t =? k then remove replicator_file d else d.

Example C78_wait_ex : wait_gone (ex_env 3) 5 true [(replicator_file, NFile (Some "x")); (errors_file, NFile (Some "slow"))] 1 = (Ok tt, ([], 4)) /\
  wait_gone (ex_env 3) 3 true [(replicator_file, NFile (Some "x"))] 1 = (Err TimeoutError, ([], 4)) /\
  wait_gone (ex_env 3) 5 true [(replicator_file, NFile (Some "x")); (failed_file, NFile (Some "disk"))] 1 = (Err RuntimeError, ([], 4)) /\
  wait_gone (ex_env 3) 5 false [(replicator_file, NFile (Some "x")); (failed_file, NFile (Some "disk"))] 1 = (Ok tt, ([(failed_file, NFile (Some "disk"))], 4)).
Proof. vm_compute. auto. Qed.

(** Errors: a text of a fatal error is raised; both files are taken away, and nothing else. *)
Theorem C78_errors : forall d, (fst (check_errors d) = Err RuntimeError <-> fatal d) /\ (fst (check_errors d) = Ok tt <-> ~ fatal d) /\
  (forall n, n = errors_file \/ n = failed_file -> ~ holds d n NDir -> absent (snd (check_errors d)) n) /\ (forall n, n <> errors_file -> n <> failed_file -> same d (snd (check_errors d)) n).
Proof.
  intros d. split; [|split; [|split]].
  - destruct (check_result d) as [[E F]|[E F]]; rewrite E; split; auto; try discriminate; tauto.
  - destruct (check_result d) as [[E F]|[E F]]; rewrite E; split; auto; try discriminate; tauto.
  - intros n N D. unfold absent, holds in *. rewrite check_get. destruct N as [-> | ->]; rewrite String.eqb_refl, ?orb_true_r; simpl; destruct (dget String.eqb _ d) as [[]|]; auto; congruence.
  - intros n A B. apply check_other; auto.
Qed.
Print Assumptions C78_errors.

Example C78_errors_ex : check_errors [("5", NDir); (failed_file, NFile (Some "disk")); (errors_file, NFile (Some "slow"))] = (Err RuntimeError, [("5", NDir)]).
Proof. vm_compute. reflexivity. Qed.

(** A failed replicator whose file can not be read, or is still empty, is taken for a good one, and the file is deleted. *)
Theorem C78_failed_refuted : exists d d', check_errors d = (Ok tt, []) /\ check_errors d' = (Ok tt, []) /\ holds d failed_file (NFile (Some "")) /\ holds d' failed_file (NFile None).
Proof. exists [(failed_file, NFile (Some ""))], [(failed_file, NFile None)]. vm_compute. auto. Qed.
Print Assumptions C78_failed_refuted.

(** ** Markers *)

(** A step is read from names of the form job-sSTEP-nRANK-wRANK.restore, and from no others. *)
Theorem C78_names : forall name, (forall s, extract_step name = Ok s <-> marker_name name s) /\ ((forall s, ~ marker_name name s) -> extract_step name = Err ValueError).
Proof. intros name. split; [apply extract_iff|]. intros N. destruct (extract_err name) as [[s E]|E]; auto. apply extract_iff in E. destruct (N s E). Qed.
Print Assumptions C78_names.

Example C78_names_ex : extract_step "my-s3-job-s120-n4-w0.restore" = Ok ["1"; "2"; "0"]%char /\ extract_step "-s1-n4-w0.restore" = Err ValueError /\ extract_step "j-s1-n-w0.restore" = Err ValueError /\
  extract_step "j-s1-n2-w0.restored" = Err ValueError /\ extract_step "j-sx1-n2-w0.restore" = Err ValueError.
Proof. vm_compute. auto 6. Qed.

(** A look that finds markers leaves none. Either the marker of the highest step, the first of them by name, becomes the directory of this step, or all markers say that there is no checkpoint. Nothing else is changed but the files of errors. *)
Theorem C78_restore : forall d d', round d = (Ok true, d') ->
  (forall n, restore_name n -> absent d' n) /\
  ((exists best v x, chosen d best v /\ holds d best x /\ holds d' (step_name v) x /\ forall n, bystander n -> n <> step_name v -> same d d' n) \/
   ((exists n, says_none d n) /\ (forall n x, holds d n x -> restore_name n -> says_none d n) /\ forall n, bystander n -> same d d' n)).
Proof. exact round_true. Qed.
Print Assumptions C78_restore.

(** A marker is followed if there is no fatal error, all names are good, none is a directory, and the directory of the step is not there yet. *)
Theorem C78_followed : forall d n x, ~ fatal d -> well_named d -> holds d n x -> restore_name n -> (forall k, restore_name k -> ~ holds d k NDir) -> (forall best v, chosen d best v -> ~ holds d (step_name v) NDir) ->
  exists d', round d = (Ok true, d').
Proof. exact round_succeeds. Qed.
Print Assumptions C78_followed.

Definition ex_markers : dir :=
  [("7", NFile (Some "x")); ("j-s12-n1-w0.restore", NLink false); ("j-s9-n0-w0.restore", NLink false); (errors_file, NFile (Some "slow")); ("a-s12-n2-w0.restore", NLink true); ("j-s0-n3-w0.restore", NFile (Some "")); ("yet", NDir)].

Example C78_restore_ex : round ex_markers = (Ok true, [("7", NFile (Some "x")); ("yet", NDir); ("12", NLink true)]) /\
  round [("j-s0-n3-w0.restore", NFile (Some "")); ("k-s0-n1-w0.restore", NLink true); ("3", NDir)] = (Ok true, [("3", NDir)]) /\
  round [("j-s0-n3-w0.restore", NFile (Some "")); ("k-s0-n1-w0.restore", NLink false); ("3", NDir)] = (Ok true, [("3", NDir); ("0", NLink false)]).
Proof. vm_compute. auto. Qed.

(** No marker and no fatal error: nothing is done but to take away the files of errors, and only then is it looked again. *)
Theorem C78_quiet : forall d, quiet d <-> round d = (Ok false, snd (check_errors d)).
Proof. intros d. split; [apply round_quiet|]. intros H. apply round_false in H. tauto. Qed.
Print Assumptions C78_quiet.

(** A fatal error is raised before any marker is touched; so is a name that is not that of a marker; and a marker for a step whose directory is there. *)
Theorem C78_stopped : forall d,
  (fatal d -> round d = (Err RuntimeError, snd (check_errors d))) /\
  (forall n x, ~ fatal d -> holds d n x -> restore_name n -> (forall s, ~ marker_name n s) -> round d = (Err ValueError, snd (check_errors d))) /\
  (forall best v, ~ fatal d -> well_named d -> chosen d best v -> holds d (step_name v) NDir -> round d = (Err OtherError, snd (check_errors d))).
Proof. intros d. split; [apply round_fatal|]. split; [intros n x; apply round_bad|apply round_blocked]. Qed.
Print Assumptions C78_stopped.

Example C78_stopped_ex : round [("j-s1-n0-w0.restore", NLink false); (failed_file, NFile (Some "disk"))] = (Err RuntimeError, [("j-s1-n0-w0.restore", NLink false)]) /\
  round [("j-s1-n0-w0.restore", NLink false); ("old.restore", NFile None)] = (Err ValueError, [("j-s1-n0-w0.restore", NLink false); ("old.restore", NFile None)]).
Proof. vm_compute. auto. Qed.

(** A marker for a step that is still in the local directory can not be followed: the start fails although the checkpoint is there. *)
Theorem C78_again_refuted : exists d best v, ~ fatal d /\ well_named d /\ chosen d best v /\ holds d (step_name v) NDir /\ fst (round d) = Err OtherError.
Proof.
  exists [("5", NDir); ("j-s5-n0-w0.restore", NLink false)], "j-s5-n0-w0.restore", 5%N.
  assert (M : marker_name "j-s5-n0-w0.restore" ["5"%char]) by (apply extract_iff; reflexivity).
  assert (D : denotes ["5"%char] 5) by (apply (den_snoc [] 0 5); [constructor|reflexivity]).
  assert (H : forall n x, holds [("5", NDir); ("j-s5-n0-w0.restore", NLink false)] n x -> n = "5" \/ n = "j-s5-n0-w0.restore").
  { intros n x X. apply get_in in X. simpl in X. intuition auto. }
  assert (R5 : ~ restore_name "5") by (rewrite <- is_marker_iff; vm_compute; discriminate).
  split; [intros (x & X & _); vm_compute in X; discriminate|]. split.
  - intros n x X R. destruct (H n x X) as [-> | ->]; [tauto|eauto].
  - split; [|split; reflexivity]. split.
    + split; [exists (NLink false); reflexivity|]. split; [|eauto]. intros [K _]. pose proof (marker_step_unique _ _ _ M K). discriminate.
    + intros o w ((x & X) & _ & s & K & Ds). destruct (H o x X) as [-> | ->]; [apply marker_restore in K; tauto|]. pose proof (marker_step_unique _ _ _ M K). subst s.
      apply denotes_parse in Ds. destruct Ds as [_ P]. vm_compute in P. inversion P; subst. split; [lia|]. intros _. destruct (String.leb_total "j-s5-n0-w0.restore" "j-s5-n0-w0.restore"); auto.
Qed.
Print Assumptions C78_again_refuted.

(** The wait for markers ends at the first look that finds something; with none before the timeout it fails. *)
Theorem C78_poll : forall env n d t,
  ((forall k, k < n -> quiet (looked env k d t)) -> wait_restore env n d t = (Err TimeoutError, (looked env n d t, t + n))) /\
  (forall k, k < n -> (forall j, j < k -> quiet (looked env j d t)) -> ~ quiet (looked env k d t) ->
    wait_restore env n d t = (rmap (fun _ => tt) (fst (round (looked env k d t))), (snd (round (looked env k d t)), t + k))).
Proof. intros env n d t. split; [apply restore_never|]. intros k. apply restore_first. Qed.
Print Assumptions C78_poll.

(** The replicator writes a marker in second [k] *)
Definition ex_restore (k : nat) : environment := fun t d => if t =? k then dput String.eqb "j-s4-n0-w0.restore" (NLink false) d else d.

Example C78_poll_ex : wait_restore (ex_restore 6) 4 [("3", NDir)] 4 = (Ok tt, ([("3", NDir); ("4", NLink false)], 7)) /\ fst (wait_restore (ex_restore 6) 3 [("3", NDir)] 4) = Err TimeoutError.
Proof. vm_compute. auto. Qed.

(** ** Start *)

(** The id of the process and the address are the first two lines of the file, as soon as it is there. *)
Theorem C78_info : forall env n d t,
  ((forall k, k < n -> absent (after env k d t) init_info_file) -> retrieve_info env n d t = (Err TimeoutError, (after env n d t, t + n))) /\
  (forall k y, k < n -> (forall j, j < k -> absent (after env j d t) init_info_file) -> holds (after env k d t) init_info_file (NFile (Some y)) ->
    snd (retrieve_info env n d t) = (after env k d t, t + k) /\
    (forall p a, fst (retrieve_info env n d t) = Ok (p, a) <->
       ~ In newline_char (text p) /\ ~ In newline_char (text a) /\ (text y = text p ++ newline_char :: text a \/ exists c, text y = text p ++ newline_char :: text a ++ newline_char :: c)) /\
    (~ In newline_char (text y) -> fst (retrieve_info env n d t) = Err ValueError)).
Proof.
  intros env n d t. split; [apply info_never|]. intros k y K H A. rewrite (info_first env n d t k _ K H A). cbn [fst snd]. split; [reflexivity|]. split.
  - intros p a. destruct (split_lines (text y) []) as [|p' [|a' rest]] eqn:E.
    + split; [discriminate|]. intros (N1 & N2 & C). exfalso. assert (X : exists b, text y = text p ++ newline_char :: b) by (destruct C as [C|[c C]]; eauto). destruct X as [b X]. rewrite X, split_cons in E by auto. discriminate.
    + split; [discriminate|]. intros (N1 & N2 & C). exfalso. assert (X : exists b, text y = text p ++ newline_char :: b /\ exists r, split_lines b [] = a :: r).
      { destruct C as [C|[c C]]; eexists; (split; [exact C|]); apply split_head; eauto. }
      destruct X as (b & X & r & R). rewrite X, split_cons, R in E by auto. discriminate.
    + split.
      * intros Q. inversion Q; subst p' a'. apply split_two in E. destruct E as (b & X & N1 & R). destruct (proj1 (split_head b a) (ex_intro _ rest R)) as [N2 C]. split; auto. split; auto. destruct C as [->|[c ->]]; [left|right; exists c]; auto.
      * intros (N1 & N2 & C). assert (X : exists b, text y = text p ++ newline_char :: b /\ exists r, split_lines b [] = a :: r).
        { destruct C as [C|[c C]]; eexists; (split; [exact C|]); apply split_head; eauto. }
        destruct X as (b & X & r & R). assert (E2 : split_lines (text y) [] = p :: a :: r) by (apply split_two; eauto). rewrite E in E2. inversion E2; subst. reflexivity.
  - intros N. rewrite split_one by auto. reflexivity.
Qed.
Print Assumptions C78_info.

Example C78_info_ex : fst (jax_from_mtc (fun t d => if t =? 2 then [(init_info_file, NFile (Some ("3" ++ nl ++ "host:80" ++ nl)%string))] else d) [] 0) = Ok ("3", "host:80") /\
  fst (jax_from_mtc (fun _ d => d) [(init_info_file, NFile (Some ("3" ++ nl)%string))] 0) = Err ValueError /\ fst (jax_from_mtc (fun _ d => d) [(init_info_file, NFile (Some "3"))] 0) = Err ValueError /\
  fst (jax_from_mtc (fun _ d => d) [(init_info_file, NFile (Some ("x" ++ nl ++ "host")%string))] 0) = Err ValueError.
Proof. vm_compute. auto. Qed.

(** What is taken where nothing is said. *)
Theorem C78_arguments : forall c,
  (c_minutes c = None -> c_steps c = None -> minutes_of c = Some 30%Z) /\ (c_minutes c <> None \/ c_steps c <> None -> minutes_of c = c_minutes c) /\
  (forall r, c_run c = Some r -> r <> "" -> run_of c = Ok r) /\ (c_run c = None \/ c_run c = Some "" -> forall r, c_jobset c = Some r -> r <> "" -> run_of c = Ok r) /\
  (c_run c = None \/ c_run c = Some "" -> c_jobset c = None \/ c_jobset c = Some "" -> run_of c = Err ValueError) /\
  (forall n, c_slices c = Some n -> (0 < n)%Z -> Z.of_nat (slices_of c) = n) /\ ((forall n, c_slices c = Some n -> (n <= 0)%Z) -> slices_of c = c_slice_count c) /\
  (forall n, c_dp c = Some n -> (0 < n)%Z -> dp_of c = n) /\ ((forall n, c_dp c = Some n -> (n <= 0)%Z) -> dp_of c = Z.of_nat (slices_of c)).
Proof.
  intros c. unfold minutes_of, run_of, slices_of, dp_of, slices_of.
  split; [intros -> ->; reflexivity|]. split; [destruct (c_minutes c), (c_steps c); auto; intros [H|H]; congruence|].
  split; [intros r -> N; destruct (String.eqb_spec r ""); [congruence|]; destruct (String.eqb_spec r ""); [congruence|reflexivity]|].
  split; [intros [-> | ->] r J N; simpl; rewrite J; destruct (String.eqb_spec r ""); congruence|].
  split; [intros [-> | ->] [-> | ->]; reflexivity|].
  split; [intros n -> P; destruct (Z.leb_spec n 0); lia|].
  split; [intros H; destruct (c_slices c) as [n|]; auto; specialize (H n eq_refl); destruct (Z.leb_spec n 0); [reflexivity|lia]|].
  split; [intros n -> P; destruct (Z.leb_spec n 0); lia|].
  intros H; destruct (c_dp c) as [n|]; auto; specialize (H n eq_refl); destruct (Z.leb_spec n 0); [reflexivity|lia].
Qed.
Print Assumptions C78_arguments.

(** A start that succeeds has written the whole request when there was no other, has seen it taken and no fatal error, and leaves no marker. *)
Theorem C78_start : forall env c d t d' t', initialize env c d t = (Ok tt, (d', t')) -> c_devices c = false /\
  (exists run rank peers d0 t0 d1 k, run_of c = Ok run /\ node_peers (c_mapping c) (c_nodes c) (slices_of c) (c_index c) = Ok (rank, peers) /\ absent d0 replicator_file /\
    create_file (mkRequest run (Z.of_nat (c_nodes c)) (dp_of c) rank peers (minutes_of c) (c_steps c)) d0 = Ok d1 /\
    k < c_timeout c /\ absent (after env k d1 t0) replicator_file /\ ~ fatal (after env k d1 t0) /\
    exists j, j < 300 /\ t' = t0 + k + j /\ round (looked env j (snd (check_errors (after env k d1 t0))) (t0 + k)) = (Ok true, d')) /\
  (forall n, restore_name n -> absent d' n).
Proof.
  intros env c d t d' t' H. apply initialize_ok in H. destruct H as (A & H). split; auto. split; auto. destruct H as (run & rank & peers & d0 & t0 & d1 & k & _ & _ & _ & _ & _ & _ & _ & j & _ & _ & R). apply round_true in R. tauto.
Qed.
Print Assumptions C78_start.

(** A start succeeds if the replicator does its part in time. *)
Theorem C78_started : forall env c d t run rank peers k1 d1 k2 j d', c_devices c = false -> c_use_ids c = false -> run_of c = Ok run ->
  node_peers (c_mapping c) (c_nodes c) (slices_of c) (c_index c) = Ok (rank, peers) ->
  k1 < c_timeout c -> (forall i, i < k1 -> exists x, holds (after env i d t) replicator_file x) -> absent (after env k1 d t) replicator_file ->
  create_file (mkRequest run (Z.of_nat (c_nodes c)) (dp_of c) rank peers (minutes_of c) (c_steps c)) (after env k1 d t) = Ok d1 ->
  k2 < c_timeout c -> (forall i, i < k2 -> exists x, holds (after env i d1 (t + k1)) replicator_file x) -> absent (after env k2 d1 (t + k1)) replicator_file -> ~ fatal (after env k2 d1 (t + k1)) ->
  j < 300 -> (forall i, i < j -> quiet (looked env i (snd (check_errors (after env k2 d1 (t + k1)))) (t + k1 + k2))) -> round (looked env j (snd (check_errors (after env k2 d1 (t + k1)))) (t + k1 + k2)) = (Ok true, d') ->
  initialize env c d t = (Ok tt, (d', t + k1 + k2 + j)).
Proof.
  intros env c d t run rank peers k1 d1 k2 j d' D U R NP K1 P1 A1 CF K2 P2 A2 F2 J Q RD. unfold initialize. rewrite R, D, U. cbn [then_]. rewrite (wait_first env _ false d t k1 K1 P1 A1). cbn [then_]. rewrite NP, CF.
  rewrite (wait_first env _ true d1 (t + k1) k2 K2 P2 A2). destruct (check_result (after env k2 d1 (t + k1))) as [[_ F]|[E _]]; [tauto|]. rewrite E. cbn [then_].
  rewrite (restore_first env 300 _ _ j J Q).
  - rewrite RD. reflexivity.
  - intros G. apply round_quiet in G. congruence.
Qed.
Print Assumptions C78_started.

(** The replicator takes the file in second 2 and writes a marker in second 4 *)
Definition ex_both : environment := fun t d => ex_restore 4 t (ex_env 2 t d).
Definition ex_config : config := mkConfig None None (Some 2%Z) None (Some "job") None 5 false false 1 4 1 [2; 0; 1; 3]%Z.

Example C78_start_ex : initialize ex_both ex_config [("3", NDir)] 0 = (Ok tt, ([("3", NDir); ("4", NLink false)], 5)) /\
  initialize ex_both (mkConfig None None (Some 2%Z) None (Some "job") None 5 false true 1 4 1 [2; 0; 1; 3]%Z) [("3", NDir)] 0 = (Err ValueError, ([("3", NDir)], 0)) /\
  fst (initialize ex_both (mkConfig None None (Some 2%Z) None (Some "job") None 2 false false 1 4 1 [2; 0; 1; 3]%Z) [("3", NDir)] 0) = Err TimeoutError.
Proof. vm_compute. auto. Qed.

(** Steps of a start that waits also for the id of the process *)
Example C78_start_ex2 : initialize (fun t d => if t =? 0 then dput String.eqb init_info_file (NFile (Some ("0" ++ nl ++ "h")%string)) d else ex_both t d) (mkConfig None (Some 10%Z) None (Some "run") None None 5 true false 2 4 1 [2; 0; 1; 3]%Z) [(replicator_file, NFile None)] 0
  = (Err TimeoutError, ([(init_info_file, NFile (Some ("0" ++ nl ++ "h")%string)); (replicator_file, NFile (Some (yaml (mkRequest "run" 4 2 0 [3]%Z None (Some 10%Z))))); ("j-s4-n0-w0.restore", NLink false)], 8)).
Proof. vm_compute. reflexivity. Qed.

(** The wait of a start is bounded. *)
Theorem C78_start_time : forall env c d t, snd (snd (initialize env c d t)) <= t + 900 + 2 * c_timeout c + 300.
Proof. exact initialize_bound. Qed.
Print Assumptions C78_start_time.

(** The timeout that is given does not bound the start: the wait for the file with the id of the process always takes up to 900 seconds, and that for the markers 300. *)
Theorem C78_timeout_refuted : exists env c d d', c_timeout c = 1 /\ initialize env c d 0 = (Err TimeoutError, (d', 900)).
Proof. exists (fun _ d => d), (mkConfig None None None (Some "run") None None 1 true false 1 1 0 [0]%Z), [], []. vm_compute. auto. Qed.
Print Assumptions C78_timeout_refuted.

(** A file of a fatal error that is left from before makes a new start fail, although the replicator does all of its part: the first wait does not look at errors, and the second does not know when they were written. *)
Theorem C78_stale_refuted : exists d d2, holds d failed_file (NFile (Some "old")) /\ (forall t x, same x (ex_both t x) failed_file) /\
  initialize ex_both ex_config d 0 = (Err RuntimeError, (d2, 3)) /\ fst (initialize ex_both ex_config (remove failed_file d) 0) = Ok tt.
Proof.
  exists [(failed_file, NFile (Some "old"))], []. split; [reflexivity|]. split; [|vm_compute; auto].
  intros t x. unfold same, ex_both, ex_restore, ex_env. destruct (t =? 4), (t =? 2); rewrite ?get_put, ?get_remove; reflexivity.
Qed.
Print Assumptions C78_stale_refuted.

(** On a worker with colocated python an old request is taken away first; the timeout bounds the whole start. *)
Theorem C78_worker : forall env q timeout d t, snd (snd (setup env q timeout d t)) <= t + timeout /\
  forall d' t', setup env q timeout d t = (Ok tt, (d', t')) -> t' < t + timeout /\ (forall n, restore_name n -> absent d' n) /\
    exists d1 k j, create_file q (remove replicator_file d) = Ok d1 /\ k < 600 /\ absent (after env k d1 t) replicator_file /\ ~ fatal (after env k d1 t) /\ t' = t + k + j /\
      round (looked env j (snd (check_errors (after env k d1 t))) (t + k)) = (Ok true, d').
Proof.
  intros env q timeout d t. split; [apply setup_bound|]. intros d' t' H. apply setup_ok in H. destruct H as (d1 & k & j & C & K & K6 & A & F & T & KJ & R). split; [lia|]. split; [apply round_true in R; tauto|]. exists d1, k, j. auto 10.
Qed.
Print Assumptions C78_worker.

Example C78_worker_ex : setup ex_both ex_request 6 [(replicator_file, NFile None)] 0 = (Ok tt, ([("4", NLink false)], 5)) /\ fst (setup ex_both ex_request 5 [] 0) = Err TimeoutError /\ fst (setup ex_both ex_request 0 [] 0) = Err TimeoutError /\
  fst (setup ex_both (mkRequest "r" 2 1 2 [] None (Some 1%Z)) 9 [] 0) = Err ValueError.
Proof. vm_compute. auto. Qed.
