(** C74: saves on all processes. *)
From Coq Require Import List Bool Arith Lia.
From Verif Require Import Base SaveAll_Model SaveAll_Spec SaveAll_Proofs SaveAll_Live.
Import ListNotations.

(** Whatever goes wrong and in whatever order the processes run, what is renamed to the destination is whole. *)
Theorem C74_complete : forall c existed s t, sound c -> reaches c existed s -> final s = Some (New t) -> complete c t.
Proof. intros c b s t W R F. destruct (reach_inv c b s W R) as [_ I2]. eapply i_complete; eauto. Qed.
Print Assumptions C74_complete.

(** The destination is what it was, a whole checkpoint, or, only if it may be overwritten, nothing. *)
Theorem C74_destination : forall c existed s, reaches c existed s ->
  final s = (if existed then Some Old else None) \/ (existed = true /\ c_overwrite c = true /\ final s = None) \/ exists t, final s = Some (New t).
Proof. exact reach_clean. Qed.
Print Assumptions C74_destination.

(** A process that is told of success finds the checkpoint. *)
Theorem C74_told : forall c existed s i, sound c -> reaches c existed s -> i < c_n c -> phases s i = Done -> exists t, final s = Some (New t) /\ complete c t.
Proof.
  intros c b s i W (es & R) L D. assert (Rs : reaches c b s) by (exists es; exact R). destruct (reach_inv c b s W Rs) as [_ I2].
  assert (X : forall j, j < c_n c -> phases s j = Done -> opened s BFinalize = true).
  { refine (run_ind c (fun _ => True) (fun s => forall j, j < c_n c -> phases s j = Done -> opened s BFinalize = true) _ es (initial c b) s _ _ R); auto.
    - intros u e u' _ I0 E j Lj Dj. apply step_eff in E. pose proof (eff_opened _ _ _ _ BFinalize E) as O.
      destruct E; cbn in Dj; try (apply O; eapply I0; eauto; fail); upd; try (apply O; eapply I0; eauto; fail); ors; subst; try discriminate. rewrite H2 in H0. injection H0 as <-. exact H1.
    - intros j Lj Dj. cbn in Dj. destruct (c_version c); discriminate. }
  destruct (i_end _ _ I2 (X i L D)) as [t F]. exists t. split; auto. eapply i_complete; eauto.
Qed.
Print Assumptions C74_told.

(** A save that is refused changes nothing, and no process gets past the check. *)
Theorem C74_refused : forall c existed s, sound c -> refused c existed -> reaches c existed s ->
  final s = (if existed then Some Old else None) /\ tmp s = None /\ forall i, i < c_n c -> before_changes (phases s i).
Proof.
  intros c b s W Rf R. destruct (refused_refusal c b Rf) as (m & Rm). destruct (reach_within c b m s W Rm R) as (Rk & F & T & _). split; auto. split; auto.
  intros i L. specialize (Rk i L). assert (Hm : m = 0 \/ m = 2) by (destruct Rm as [[-> _] | [-> _]]; auto). destruct (phases s i); cbn in *; auto; destruct Hm; subst; lia.
Qed.
Print Assumptions C74_refused.

(** Without timeouts all processes of a refused save raise ValueError: until then one of them can go on. *)
Theorem C74_refused_ends : forall c existed s, sound c -> refused c existed -> all_active c -> reaches_quietly c existed s -> all_in c s (Failed ValueError) \/ goes_on c s.
Proof. exact refused_progress. Qed.
Print Assumptions C74_refused_ends.

(** Without timeouts, as long as not all processes have ended well, something can happen, except after the race of an overwriting save. *)
Theorem C74_progress : forall c existed s, sound c -> ~ refused c existed -> synchronized c -> all_active c -> reaches_quietly c existed s ->
  all_in c s Done \/ goes_on c s \/ split c existed s.
Proof. intros c b s W N. apply progress; auto. now apply not_refused. Qed.
Print Assumptions C74_progress.

(** So there is no deadlock in the older save, in saves to a new destination, and in saves of one process. *)
Theorem C74_no_deadlock : forall c existed s, sound c -> ~ refused c existed -> synchronized c -> all_active c -> c_version c = V0 \/ existed = false \/ c_n c = 1 -> reaches_quietly c existed s ->
  all_in c s Done \/ goes_on c s.
Proof.
  intros c b s W N Sy Ac H R. destruct (C74_progress c b s W N Sy Ac R) as [D | [G | S]]; auto. exfalso. destruct S as (V & Ov & Ex & F & T & O & i & j & Li & Lj & Pi & Pj).
  destruct H as [H | [H | H]]; try congruence. assert (i = j) by lia. subst. congruence.
Qed.
Print Assumptions C74_no_deadlock.

(** After the race nothing brings the old checkpoint back, nothing new gets there, and no process is told of success. *)
Theorem C74_race : forall c existed s es s', sound c -> ~ refused c existed -> synchronized c -> reaches_quietly c existed s -> split c existed s -> run c s es = Some s' ->
  final s' = None /\ forall k, k < c_n c -> phases s' k <> Done.
Proof. exact torn_for_ever. Qed.
Print Assumptions C74_race.

(** All runs are short: whatever happens, there are at most so many events. *)
Theorem C74_bounded : forall c existed es s, sound c -> run c (initial c existed) es = Some s ->
  length es <= 14 * c_n c + 6 * (c_n c * length (c_handlers c)) + 2 * length (c_handlers c) + 7.
Proof.
  intros c b es s W R. pose proof (run_measure c es (initial c b) s W (inv0_initial c b) (inv1_initial c b) R). pose proof (measure_initial c b). lia.
Qed.
Print Assumptions C74_bounded.

(** Every run that cannot be continued ends with the whole checkpoint at the destination, and all are told. *)
Theorem C74_ends : forall c existed s, sound c -> ~ refused c existed -> synchronized c -> all_active c -> c_version c = V0 \/ existed = false \/ c_n c = 1 -> reaches_quietly c existed s ->
  ~ goes_on c s -> all_in c s Done /\ exists t, final s = Some (New t) /\ complete c t.
Proof.
  intros c b s W N Sy Ac H R G. destruct (C74_no_deadlock c b s W N Sy Ac H R) as [D | X]; [| contradiction]. split; auto.
  destruct R as (es & _ & R). apply (C74_told c b s (c_primary c)); auto. exists es. exact R.
Qed.
Print Assumptions C74_ends.

(** Concurrent creations of the directories: only the first call runs it; if that succeeds, all calls do, and the directories are there. *)
Theorem C74_creation : forall r calls, 0 < calls -> hd_error (creates false r calls) = Some r /\ length (creates false r calls) = calls /\
  (r = Ok tt -> created r calls = true /\ forall x, In x (creates false r calls) -> x = Ok tt).
Proof.
  intros r [| m] L; [lia |]. cbn. assert (A : forall k, length (creates true r k) = k /\ forall x, In x (creates true r k) -> x = Ok tt).
  { induction k as [| k [IH1 IH2]]; cbn; split; auto; [intros x [] | intros x [<- | I]; auto]. }
  destruct (A m) as [A1 A2]. repeat split; auto; [subst; reflexivity | subst; intros x [<- | I]; auto].
Qed.
Print Assumptions C74_creation.

(** ** Examples *)
Definition conf (v : version) (n : nat) (ov : bool) (hs : list kind) : config := mkConfig v n 0 0 ov hs (fun _ => 7).

(** A run of two processes with a tree and a json file: the newer save to a new destination *)
Definition both (f : nat -> event) : list event := [f 0; f 1].
Definition prologue : list event := [Open BPaths] ++ both Main ++ [Open BPre] ++ both Main ++ both Main ++ [Open BPost] ++ both Main ++ both Main ++ [Open BCreate] ++ both Main.
Definition middle : list event :=
  [Sub 0 1; Sub 0 0; Sub 1 0; Sub 1 1; Open (BCommit 0)] ++ [Sub 0 0; Sub 1 0; Sub 0 0; Sub 1 0; Open (BFinal 0); Sub 0 0; Sub 1 0].
Definition epilogue : list event := [Main 0; Main 0; Main 0; Main 1; Open BFinalize; Main 0; Main 1].

Definition end_of (c : config) (existed : bool) (es : list event) : option (phase * phase * option content * option tmpdir) :=
  match run c (initial c existed) es with Some s => Some (phases s 0, phases s 1, final s, tmp s) | None => None end.

Example C74_example_run : end_of (conf V1 2 false [Tree; Json]) false (prologue ++ middle ++ epilogue) = Some (Done, Done, Some (New (mkTmp [(0, 1); (0, 0); (1, 0)] [0] true)), None).
Proof. vm_compute. reflexivity. Qed.
Example C74_example_sound : sound (conf V1 2 false [Tree; Json]) /\ synchronized (conf V1 2 false [Tree; Json]) /\ all_active (conf V1 2 false [Tree; Json]) /\ ~ refused (conf V1 2 false [Tree; Json]) false.
Proof.
  split; [unfold sound; cbn; lia |]. split; [right; cbn; intuition discriminate |]. split; [right; reflexivity |]. intros [(_ & i & _ & N) | [X _]]; [now apply N | discriminate].
Qed.
(** An existing destination without [overwrite]: both refuse, the old checkpoint stays. *)
Example C74_example_refused : end_of (conf V1 2 false [Tree]) true ([Open BPaths] ++ both Main ++ [Open BPre] ++ both Main ++ both Main) = Some (Failed ValueError, Failed ValueError, Some Old, None).
Proof. vm_compute. reflexivity. Qed.
(** Overwriting, when both look before the primary removes *)
Example C74_example_overwrite :
  end_of (conf V1 2 true []) true ([Open BPaths] ++ both Main ++ [Open BPre] ++ both Main ++ both Main ++ [Main 0; Open BRemoved] ++ both Main ++ [Open BPost] ++ both Main ++ both Main ++ [Open BCreate] ++ both Main ++ epilogue) =
  Some (Done, Done, Some (New (mkTmp [] [] true)), None).
Proof. vm_compute. reflexivity. Qed.
(** The older save overwrites even when the other process looks late. *)
Example C74_example_old :
  end_of (conf V0 2 true [Free]) true ([Open BPre] ++ both Main ++ [Main 0; Main 0; Main 1; Open BPost] ++ both Main ++ both Main ++ [Open BCreate] ++ both Main ++
     [Sub 0 0; Sub 1 0; Main 0; Main 0; Main 1; Open BSaved; Main 0; Main 0; Main 1; Open BFinalize; Main 0; Main 1]) =
  Some (Done, Done, Some (New (mkTmp [(0, 1); (0, 0)] [0] true)), None).
Proof. vm_compute. reflexivity. Qed.
(** A handler that fails: the others time out, nothing is committed. *)
Example C74_example_failure :
  end_of (conf V1 2 false [Tree]) false (prologue ++ [Sub 0 0; SubFails 1 0 OtherError; Main 1; SubTimeout 0 0; Main 0]) = Some (Failed TimeoutError, Failed OtherError, None, Some (mkTmp [(0, 0)] [] false)).
Proof. vm_compute. reflexivity. Qed.

(** ** What does not hold *)

(** Overwriting with several processes can hang and lose the checkpoint: if the primary has removed the destination before another process looks, the primary waits at the barrier after the removal, and the other, which saw nothing there,
    at the next one; nothing can happen but timeouts, and the old checkpoint is gone. (SP l.113-125; the older save, which has no barrier inside the branch, does not have this: C74_no_deadlock.) *)
Theorem C74_overwrite_refuted : exists c s, sound c /\ ~ refused c true /\ synchronized c /\ all_active c /\ reaches_quietly c true s /\ split c true s /\ ~ goes_on c s /\ final s = None.
Proof.
  exists (conf V1 2 true [Tree]).
  destruct (run (conf V1 2 true [Tree]) (initial (conf V1 2 true [Tree]) true) ([Open BPaths] ++ both Main ++ [Open BPre] ++ both Main ++ [Main 0; Main 0; Main 1])) as [s |] eqn:E; [| vm_compute in E; discriminate].
  exists s. split; [unfold sound; cbn; lia |]. split; [intros [(_ & i & _ & N) | [_ X]]; [now apply N | discriminate] |]. split; [right; cbn; intuition discriminate |]. split; [right; reflexivity |].
  split; [eexists; split; [| exact E]; reflexivity |]. vm_compute in E. injection E as <-.
  split; [repeat split; exists 0, 1; repeat split; cbn; lia |]. split; [| reflexivity].
  intros (e & s' & Q & St). destruct e as [b | i | i h | | | |]; try discriminate Q; unfold step in St.
  - destruct b; vm_compute in St; discriminate.
  - destruct i as [| [| i]]; vm_compute in St; discriminate.
  - destruct (i <? _); [| discriminate]. unfold step_sub in St. destruct (nth_error _ h); cbn in St; discriminate.
Qed.
Print Assumptions C74_overwrite_refuted.

(** A handler whose processes all write but do not wait for each other is not protected in the newer save: the primary commits when its own handlers have ended. The checkpoint is committed without the part of the other process,
    which then fails because the temporary directory is gone. (EX l.171-211; the older save waits for all processes before it commits, C74_complete.) *)
Theorem C74_free_refuted : exists c s t, sound c /\ c_version c = V1 /\ c_handlers c = [Free] /\ ~ refused c false /\ reaches_quietly c false s /\ final s = Some (New t) /\
  ~ part_in t 0 1 /\ phases s 1 = Failed FileNotFoundError.
Proof.
  exists (conf V1 2 false [Free]).
  destruct (run (conf V1 2 false [Free]) (initial (conf V1 2 false [Free]) false) (prologue ++ [Sub 0 0; Main 0; Main 0; Main 0; Sub 1 0; Main 1])) as [s |] eqn:E; [| vm_compute in E; discriminate].
  exists s, (mkTmp [(0, 0)] [] true). split; [unfold sound; cbn; lia |]. split; [reflexivity |]. split; [reflexivity |]. split; [intros [(_ & i & _ & N) | [X _]]; [now apply N | discriminate] |].
  split; [eexists; split; [| exact E]; reflexivity |]. vm_compute in E. injection E as <-. split; [reflexivity |]. split; [| reflexivity]. intros [X | []]. discriminate.
Qed.
Print Assumptions C74_free_refuted.

(** With [active_processes] a proper subset of the processes the newer save hangs at its beginning: the check of the paths uses collective operations of all processes (EX l.316-323), which the others do not take part in. *)
Theorem C74_active_refuted : exists c, sound c /\ c_inactive c = 1 /\ ~ refused c false /\ synchronized c /\ ~ goes_on c (initial c false).
Proof.
  exists (mkConfig V1 2 1 0 false [Tree] (fun _ => 7)). split; [unfold sound; cbn; lia |]. split; [reflexivity |]. split; [intros [(_ & i & _ & N) | [X _]]; [now apply N | discriminate] |].
  split; [right; cbn; intuition discriminate |]. intros (e & s' & Q & St). destruct e as [b | i | i h | | | |]; try discriminate Q; unfold step in St.
  - destruct b; vm_compute in St; discriminate.
  - destruct (i <? _); cbn in St; discriminate.
  - destruct (i <? _); [| discriminate]. unfold step_sub in St. destruct (nth_error _ h); cbn in St; discriminate.
Qed.
Print Assumptions C74_active_refuted.

(** A creation of directories that fails is reported to the first that waits for it only; the others go on as though the directories were there (AU l.207-214). *)
Theorem C74_creation_refuted : exists r, created r 2 = false /\ creates false r 2 = [r; Ok tt] /\ r = Err FileExistsError.
Proof. exists (Err FileExistsError). repeat split. Qed.
Print Assumptions C74_creation_refuted.
