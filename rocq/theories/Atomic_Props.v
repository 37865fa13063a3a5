(** Theorems C09-C11: the commit protocols. *)
From Coq Require Import List Bool String.
From Verif Require Import Base Atomic_Model Atomic_Spec Atomic_Proofs.
Import ListNotations.
Local Open Scope string_scope.
Local Open Scope list_scope.

(** A save of step "7" used in the examples. *)
Definition ex_req : save_req :=
  mkReq "7" false [HTouch "w"; HWrite "w" "data"] [HUnlink "lock"] "m0" "m1" "m2".
Definition ex_ok_req : save_req :=
  mkReq "7" false [HTouch "lock"; HTouch "w"; HWrite "w" "data"] [HUnlink "lock"] "m0" "m1" "m2".
Definition ex_root : root :=
  [("5", Dir [("w", "old"); ("v", "old2"); ("_CHECKPOINT_METADATA", "m")]);
   ("7.orbax-checkpoint-tmp", Dir [("w", "stale")]); ("notes.txt", File)].
Definition by_name : files -> list string := map fst.

(** * C09 *)

(** Whatever sequence of saves and cleanups ran, each cut off at an arbitrary
    point, every path recognised as finalized is either an original entry or
    holds the complete contents of one of the saves to that name.  Missing
    compared with the full property: overwriting saves (force=True) need rmtree
    to be one atomic operation, and the legacy option must be off (both are
    necessary, see the two refutations below); in CommitFile mode the handler
    must not write a file called commit_success.txt. *)
Theorem C09_crash_safe_partial : forall rm_atomic scan p h r0 n x,
  (forall q k, In (ESave q k) h -> rm_atomic = true \/ force q = false) ->
  (p = CommitFile -> forall q k, In (ESave q k) h -> avoids_marker q) ->
  nget n (do_history rm_atomic scan p r0 h) = Some x ->
  is_path_finalized p false n (do_history rm_atomic scan p r0 h) = true ->
  nget n r0 = Some x \/ complete_save_of h n x.
Proof. exact history_safe. Qed.
Print Assumptions C09_crash_safe_partial.

(** A crash after three operations, a cleanup, then a complete save. *)
Example C09_crash_safe_ex :
  let h := [ESave ex_ok_req 4; ECleanup [Unlink "7.orbax-checkpoint-tmp" "lock"];
            ESave ex_ok_req 100] in
  is_path_finalized AtomicRename false "7" (do_history false by_name AtomicRename ex_root (firstn 2 h)) = false
  /\ is_path_finalized AtomicRename false "7" (do_history false by_name AtomicRename ex_root h) = true
  /\ is_path_finalized AtomicRename false "5" (do_history false by_name AtomicRename ex_root h) = true
  /\ (forall q k, In (ESave q k) h -> false = true \/ force q = false).
Proof.
  repeat split; try (vm_compute; reflexivity).
  intros q k H. simpl in H. destruct H as [H|[H|[H|[]]]]; inversion H; subst; auto.
Qed.

(** An interrupted save to a new name changes nothing except entries that are
    recognised as temporary (or were removed as stale temporary data), unless it
    is already complete. *)
Theorem C09_unfinished_save : forall rm_atomic scan p r q ops k,
  nget (name q) r = None -> save_plan rm_atomic scan p r q = Ok ops ->
  (p = CommitFile -> avoids_marker q) ->
  frame p r q (fst (run r (firstn k ops))).
Proof. exact unfinished_save. Qed.
Print Assumptions C09_unfinished_save.

Example C09_unfinished_save_ex :
  nget (name ex_ok_req) ex_root = None /\
  (exists ops, save_plan false by_name CommitFile ex_root ex_ok_req = Ok ops /\
     List.length ops = 13 /\
     is_path_temporary CommitFile false "7" (fst (run ex_root (firstn 9 ops))) = true) /\
  avoids_marker ex_ok_req.
Proof.
  split; [reflexivity|]. split.
  - eexists. split; [reflexivity|]. split; reflexivity.
  - intros h H. simpl in H.
    repeat match goal with H : _ \/ _ |- _ => destruct H | H : False |- _ => destruct H end;
      subst; simpl; discriminate.
Qed.

(** A save that runs to the end leaves a finalized path with the complete
    contents. *)
Theorem C09_finished_save : forall rm_atomic scan p r q ops r',
  nget (name q) r = None -> ~ contains tmp_suffix (name q) ->
  save_plan rm_atomic scan p r q = Ok ops -> run r ops = (r', true) ->
  is_path_finalized p false (name q) r' = true /\
  exists fs, nget (name q) r' = Some (Dir fs) /\ holds fs (contents q).
Proof. exact finished_save. Qed.
Print Assumptions C09_finished_save.

Example C09_finished_save_ex :
  ~ contains tmp_suffix (name ex_ok_req) /\
  exists ops r', save_plan false by_name AtomicRename ex_root ex_ok_req = Ok ops /\
    run ex_root ops = (r', true) /\
    (exists fs, nget "7" r' = Some (Dir fs) /\ fget "w" fs = Some "data" /\
                fget "lock" fs = None /\ fget metadata_file fs = Some "m2").
Proof.
  split.
  - rewrite <- str_in_spec. vm_compute. discriminate.
  - eexists. eexists. split; [vm_compute; reflexivity|]. split; [vm_compute; reflexivity|].
    eexists. split; [vm_compute; reflexivity|]. repeat split; vm_compute; reflexivity.
Qed.

(** The handler of [ex_req] unlinks a file it never created: the save raises
    before the rename and the new name never appears. *)
Example C09_failed_handler_ex :
  exists ops, save_plan true by_name AtomicRename ex_root ex_req = Ok ops /\
    snd (run ex_root ops) = false /\ nget "7" (fst (run ex_root ops)) = None /\
    is_path_temporary AtomicRename false (get_tmp_name "7") (fst (run ex_root ops)) = true.
Proof. eexists. split; [vm_compute; reflexivity|]. repeat split; vm_compute; reflexivity. Qed.

(** False in general: overwriting (force=True) where rmtree deletes file by file
    leaves, after a crash in the middle, a final-named directory with some of
    its files missing that is still recognised as finalized -- with both commit
    protocols. *)
Theorem C09_force_overwrite_refuted : forall p, exists h r0 n x,
  (forall q k, In (ESave q k) h -> avoids_marker q) /\
  nget n (do_history false by_name p r0 h) = Some x /\
  is_path_finalized p false n (do_history false by_name p r0 h) = true /\
  ~ (nget n r0 = Some x \/ complete_save_of h n x).
Proof.
  intros p. exists [ESave (mkReq "7" true [] [] "m0" "m1" "m2") 1],
    [("7", Dir [("w", "old"); ("commit_success.txt", "ok")])], "7",
    (Dir [("commit_success.txt", "ok")]).
  split; [|split; [|split]].
  - intros q k [H|[]]. inversion H; subst. intros h' [].
  - destruct p; vm_compute; reflexivity.
  - destruct p; vm_compute; reflexivity.
  - intros [H|(q & k & fs & [H|[]] & _ & Hx & Hh)]; [vm_compute in H; discriminate|].
    inversion H; subst q k. inversion Hx; subst fs.
    specialize (Hh metadata_file ltac:(discriminate)). vm_compute in Hh. discriminate.
Qed.
Print Assumptions C09_force_overwrite_refuted.

(** False with AtomicityOptions(allow_legacy_atomic_rename=True) in CommitFile
    mode: an interrupted save to a fresh name is recognised as finalized. *)
Theorem C09_legacy_refuted : exists h n x,
  (forall q k, In (ESave q k) h -> force q = false /\ avoids_marker q) /\
  nget n (do_history true by_name CommitFile [] h) = Some x /\
  is_path_finalized CommitFile true n (do_history true by_name CommitFile [] h) = true /\
  is_path_temporary CommitFile true n (do_history true by_name CommitFile [] h) = false /\
  ~ complete_save_of h n x.
Proof.
  exists [ESave ex_ok_req 1], "7", (Dir []).
  split; [|split; [|split; [|split]]].
  - intros q k [H|[]]. inversion H; subst. split; auto. apply C09_unfinished_save_ex.
  - vm_compute; reflexivity.
  - vm_compute; reflexivity.
  - vm_compute; reflexivity.
  - intros (q & k & fs & [H|[]] & _ & Hx & Hh). inversion H; subst q k. inversion Hx; subst fs.
    specialize (Hh metadata_file ltac:(discriminate)). vm_compute in Hh. discriminate.
Qed.
Print Assumptions C09_legacy_refuted.

(** * C10 *)

(** Cleanup succeeds, removes every temporary path, and leaves every other entry
    exactly as it was; with either protocol, with or without the legacy option,
    whether or not rmtree is atomic. *)
Theorem C10_cleanup_exact : forall rm_atomic scan p legacy r, scan_ok scan -> wf_root r ->
  exists r', run r (cleanup_plan rm_atomic scan p legacy r) = (r', true) /\
    forall n, nget n r' = if is_path_temporary p legacy n r then None else nget n r.
Proof. exact cleanup_exact. Qed.
Print Assumptions C10_cleanup_exact.

Example C10_cleanup_ex :
  scan_ok by_name /\ wf_root ex_root /\
  is_path_temporary AtomicRename false "7.orbax-checkpoint-tmp" ex_root = true /\
  fst (run ex_root (cleanup_plan false by_name AtomicRename false ex_root)) =
    [("5", Dir [("w", "old"); ("v", "old2"); ("_CHECKPOINT_METADATA", "m")]); ("notes.txt", File)].
Proof.
  split; [|split; [|split]]; try (vm_compute; reflexivity).
  - intros fs H. split; auto. intros f. apply fget_dom.
  - split.
    + simpl. repeat constructor; simpl; intuition discriminate.
    + intros n x H. simpl in H.
      destruct H as [H|[H|[H|[]]]]; inversion H; subst; auto; unfold wf_files; simpl;
        repeat constructor; simpl; intuition discriminate.
Qed.

(** Concurrent removals (asyncio.gather), cut off at any point, in any order and
    even if some raise: entries that are not temporary are untouched. *)
Theorem C10_cleanup_concurrent : forall p legacy r ops n,
  (forall o, In o ops -> removal_of (all_temporary_paths p legacy r) o = true) ->
  is_path_temporary p legacy n r = false ->
  nget n (fst (run r ops)) = nget n r.
Proof. exact cleanup_concurrent. Qed.
Print Assumptions C10_cleanup_concurrent.

Example C10_cleanup_concurrent_ex :
  let r := [("a.orbax-checkpoint-tmp", Dir [("x", "1")]); ("b.orbax-checkpoint-tmp", Dir [("y", "2")]); ("c", Dir [])] in
  let ops := [Unlink "b.orbax-checkpoint-tmp" "y"; Unlink "a.orbax-checkpoint-tmp" "x";
              Rmdir "b.orbax-checkpoint-tmp"; Rmdir "a.orbax-checkpoint-tmp"] in
  forallb (removal_of (all_temporary_paths AtomicRename false r)) ops = true /\
  run r ops = ([("c", Dir [])], true).
Proof. split; reflexivity. Qed.

(** No path is recognised both as temporary and as finalized. *)
Theorem C10_disjoint : forall p legacy n r,
  is_path_temporary p legacy n r = true -> is_path_finalized p legacy n r = false.
Proof. exact temp_final_disjoint. Qed.
Print Assumptions C10_disjoint.

Example C10_disjoint_ex :
  is_path_temporary CommitFile true "x.orbax-checkpoint-tmp-3" [("x.orbax-checkpoint-tmp-3", Dir [])] = true.
Proof. reflexivity. Qed.

(** * C11 *)

Theorem C11_tmp_has_suffix : forall n, contains tmp_suffix (get_tmp_name n).
Proof. exact tmp_contains. Qed.
Print Assumptions C11_tmp_has_suffix.

Theorem C11_tmp_never_final : forall n r,
  is_path_finalized AtomicRename false (get_tmp_name n) r = false.
Proof.
  intros n r. destruct (is_path_finalized AtomicRename false (get_tmp_name n) r) eqn:E; auto.
  apply finalized_node in E. destruct E as (x & _ & E). rewrite tmp_not_final in E. discriminate.
Qed.
Print Assumptions C11_tmp_never_final.

(** The final name is recovered exactly when it does not itself contain the
    suffix. *)
Theorem C11_recover : forall n,
  get_final_name (get_tmp_name n) = Ok n <-> ~ contains tmp_suffix n.
Proof. exact final_of_tmp. Qed.
Print Assumptions C11_recover.

Theorem C11_recover_error : forall n, ~ contains tmp_suffix n ->
  exists e, get_final_name n = Err e.
Proof. exact final_name_err. Qed.
Print Assumptions C11_recover_error.

Theorem C11_injective : forall n n', get_tmp_name n = get_tmp_name n' -> n = n'.
Proof. exact tmp_injective. Qed.
Print Assumptions C11_injective.

Example C11_ex :
  get_tmp_name "step_12" = "step_12.orbax-checkpoint-tmp" /\
  get_final_name "step_12.orbax-checkpoint-tmp" = Ok "step_12" /\
  get_final_name "step_12.orbax-checkpoint-tmp-99.orbax-checkpoint-tmp" = Ok "step_12" /\
  get_final_name "step_12" = Err ValueError /\ ~ contains tmp_suffix "step_12".
Proof. repeat split; try reflexivity. rewrite <- str_in_spec. vm_compute. discriminate. Qed.
