(** C62: finalizing a checkpoint saved in parts. *)
From Coq Require Import List Bool Arith Lia String Ascii Permutation.
From Verif Require Import Base Partial_Model PartialFs_Model PartialFs_Spec PartialFs_Proofs.
Import ListNotations.
Open Scope string_scope.

(** ** A session with two saves *)

(** Metadata files are lists of keys, merged without repetitions. *)
Definition ex_merge (d s : list string) : result (list string) := Ok (nodup string_dec (d ++ s)%list).

Definition ex_items (key data : string) : list (string * node (list string)) :=
  [("_CHECKPOINT_METADATA", File (Json ["custom"]));
   ("commit_success.txt", File Mark);
   ("state", Dir [("_METADATA", File (Json [key]));
                  ("ocdbt.process_0", Dir [("d", File (Blob data))]);
                  ("array_metadatas", Dir [("process_0", File (Arrays [key]))])])].

Definition ex_session : session (list string) :=
  mkSess (Some (mkPart [("x.pending_1_a-a", ex_items "a" "1"); ("x.pending_2_bb", ex_items "b" "2")] [])) None.

Definition ex_one : session (list string) :=
  mkSess (Some (mkPart [("x.pending_1_a-a", ex_items "a" "1")] [])) None.

(** [finalize] of the example. *)
Definition ex_finalize := finalize ex_merge ex_merge.
Definition ex_runs := finalize_runs ex_merge ex_merge.

(** The file of the finalized checkpoint at a path. *)
Definition final_file (s : session (list string)) (q : list string) : option (content (list string)) :=
  match s_final s with Some l => find q (Dir l) | None => None end.

Example ex_marks : marks_ok ex_session.
Proof.
  intros p x E I n c J [-> | ->]; inversion E; subst; cbn in I;
    repeat match goal with H : _ \/ _ |- _ => destruct H | H : False |- _ => destruct H end; subst; cbn in J;
    repeat match goal with H : _ \/ _ |- _ => destruct H | H : False |- _ => destruct H end; congruence || (inversion H; subst; reflexivity).
Qed.

(** ** No data file is lost, however often finalization is killed or fails *)
Theorem C62_kept : forall J (mp mc : J -> J -> result J) ks s, marks_ok s ->
  Permutation (all_blobs (fst (finalize_runs mp mc ks s))) (all_blobs s).
Proof. intros. apply runs_kept. assumption. Qed.
Print Assumptions C62_kept.

Example C62_kept_ex :
  all_blobs (fst (ex_runs [InDir 0 (Inside [("state", Inside [("_METADATA", Full); ("ocdbt.process_0", Full)])]);
                           InDir 1 (Inside [("state", Inside [("ocdbt.process_0", Kill 1)])]); InHandler 0] ex_session))
  = ["1"; "2"].
Proof. vm_compute. reflexivity. Qed.

(** ** The final path appears only with everything in place *)
Theorem C62_placed : forall J (mp mc : J -> J -> result J) k s s', marks_ok s ->
  finalize mp mc k s = (s', Done) ->
  exists p l, s_partial s = Some p /\ s_final s = None /\ s' = mkSess None (Some l) /\
  forall d items, In (d, items) (pending p) -> forall q b, find q (Dir items) = Some (Blob b) ->
    find (belongs (get_uuid_from_pending_dir_name d) items q) (Dir l) = Some (Blob b).
Proof.
  intros J mp mc k s s' Hm H. destruct (finalize_done _ _ _ _ _ Hm H) as [p [l [A [B [C [D [E F]]]]]]].
  exists p, l. repeat (split; [assumption|]). intros d items I q b Fq.
  destruct (E d items I q b Fq) as [y [Y1 Y2]]. injection Y1 as <-.
  rewrite <- (place_belongs d items q _ Fq). exact Y2.
Qed.
Print Assumptions C62_placed.

Example C62_placed_ex :
  snd (ex_finalize Never ex_session) = Done /\
  map (final_file (fst (ex_finalize Never ex_session)))
    [["state"; "ocdbt.process_0aa"; "d"]; ["state"; "ocdbt.process_0bb"; "d"]; ["state"; "_METADATA"];
     ["state"; "array_metadatas"; "process_0"]; ["state"; "manifest.ocdbt"]] =
  [Some (Blob "1"); Some (Blob "2"); Some (Json ["a"; "b"]); Some (Arrays ["a"; "b"]);
   Some (Manifest ["ocdbt.process_0aa"; "ocdbt.process_0bb"])].
Proof. split; vm_compute; reflexivity. Qed.

(** ** A run that does not come to its end leaves the final path alone, and no merged data file is
    moved or overwritten *)
Theorem C62_unfinished : forall J (mp mc : J -> J -> result J) k s s' st, marks_ok s ->
  finalize mp mc k s = (s', st) -> st <> Done ->
  s_final s' = s_final s /\
  forall p, s_partial s = Some p -> exists p', s_partial s' = Some p' /\
    forall q b, find q (Dir (merged p)) = Some (Blob b) -> find q (Dir (merged p')) = Some (Blob b).
Proof.
  intros J mp mc k s s' st Hm H N. destruct (finalize_stays _ _ _ _ _ _ Hm H N) as [A B]. split; [exact A|].
  intros p E. destruct (B p E) as [p' [E1 E2]]. exists p'. split; [exact E1|].
  intros q b F. destruct (E2 q b) as [y [Y1 Y2]]; [exists (Dir (merged p)); auto|]. injection Y1 as <-. exact Y2.
Qed.
Print Assumptions C62_unfinished.

Example C62_unfinished_ex :
  let s1 := fst (ex_finalize (InDir 1 (Kill 0)) ex_session) in
  exists p, s_partial s1 = Some p /\ find ["state"; "ocdbt.process_0aa"; "d"] (Dir (merged p)) = Some (Blob "1") /\
  snd (ex_finalize (InDir 0 (Inside [("state", Inside [("ocdbt.process_0", Full)])])) s1) = Cut.
Proof. eexists. split; [reflexivity|]. split; vm_compute; reflexivity. Qed.

(** ** Two saves with a data file for the same place are not finalized *)
Theorem C62_collision : forall J (mp mc : J -> J -> result J) k s p l1 d1 i1 l2 d2 i2 l3 q1 b1 q2 b2, marks_ok s ->
  s_partial s = Some p -> pending p = (l1 ++ (d1, i1) :: l2 ++ (d2, i2) :: l3)%list ->
  find q1 (Dir i1) = Some (Blob b1) -> find q2 (Dir i2) = Some (Blob b2) ->
  belongs (get_uuid_from_pending_dir_name d1) i1 q1 = belongs (get_uuid_from_pending_dir_name d2) i2 q2 ->
  snd (finalize mp mc k s) <> Done /\ s_final (fst (finalize mp mc k s)) = s_final s.
Proof.
  intros J mp mc k s p l1 d1 i1 l2 d2 i2 l3 q1 b1 q2 b2 Hm Ep El F1 F2 E.
  destruct (finalize mp mc k s) as [s' st] eqn:H.
  assert (N : st <> Done).
  { intros ->. destruct (finalize_done _ _ _ _ _ Hm H) as [p0 [l [A [B [C [D [P Q]]]]]]].
    rewrite Ep in A. injection A as <-. apply (Q _ _ _ _ _ _ _ El _ _ _ _ F1 F2).
    rewrite (place_belongs d1 i1 q1 _ F1), (place_belongs d2 i2 q2 _ F2). exact E. }
  split; [exact N|]. exact (proj1 (finalize_stays _ _ _ _ _ _ Hm H N)).
Qed.
Print Assumptions C62_collision.

(** An item that is no pytree, with one file in both saves. *)
Example C62_collision_ex :
  snd (ex_finalize Never (mkSess (Some (mkPart [("x.pending_1_aa", [("m", Dir [("f", File (Blob "1"))])]);
                                                 ("x.pending_2_bb", [("m", Dir [("g", File (Blob "3")); ("f", File (Blob "2"))])])] [])) None))
  = Raised FileExistsError.
Proof. vm_compute. reflexivity. Qed.

(** ** Finalization is refused without a session and when the final path exists *)
Theorem C62_refused : forall J (mp mc : J -> J -> result J) k s,
  (s_final s <> None -> finalize mp mc k s = (s, Raised FileExistsError)) /\
  (s_final s = None -> s_partial s = None -> finalize mp mc k s = (s, Raised FileNotFoundError)).
Proof.
  intros J mp mc k [p f]. unfold finalize. cbn. split; [destruct f; congruence|intros -> ->; reflexivity].
Qed.
Print Assumptions C62_refused.

Example C62_refused_ex :
  snd (ex_finalize Never (fst (ex_finalize Never ex_session))) = Raised FileExistsError.
Proof. vm_compute. reflexivity. Qed.

(** ** After a kill between two pending directories finalization goes on to the same checkpoint, if
    every pytree of the directories done is also in one of those left *)
Theorem C62_resume : forall J (mp mc : J -> J -> result J) s p n s',
  s_partial s = Some p -> n < List.length (pending p) ->
  (forall x m, In x (firstn n (pending p)) -> pytree_in (snd x) m ->
     exists y, In y (skipn n (pending p)) /\ pytree_in (snd y) m) ->
  finalize mp mc Never s = (s', Done) ->
  finalize_runs mp mc [InDir n (Kill 0); Never] s = (s', [Cut; Done]).
Proof. intros. eapply resume_between; eassumption. Qed.
Print Assumptions C62_resume.

Example C62_resume_ex :
  ex_runs [InDir 1 (Kill 0); Never] ex_session = (fst (ex_finalize Never ex_session), [Cut; Done]).
Proof. vm_compute. reflexivity. Qed.

(** ** A merge of plain files killed anywhere goes on to the same files *)
Theorem C62_resume_files : forall J (s : node J) sch d d', distinct s ->
  recursive_merge Full s d = (None, Some d', Done) ->
  let '(s1, d1, st) := recursive_merge sch s d in
  match s1 with
  | None => same d1 (Some d')
  | Some x => exists d2, recursive_merge Full x d1 = (None, Some d2, Done) /\ same (Some d2) (Some d')
  end.
Proof. intros J s sch d d' Hd H. exact (rec_resume s Hd sch d d' H). Qed.
Print Assumptions C62_resume_files.

Example C62_resume_files_ex :
  let s := Dir [("a", Dir [("f", File (Blob "1")); ("g", File (Blob "2"))]); ("b", File (Blob "3"))] : node (list string) in
  let d := Some (Dir [("a", Dir [("h", File (Blob "4"))])]) in
  let sch := Inside [("a", Inside [("g", Full)]); ("b", Full)] in
  snd (recursive_merge Full s d) = Done /\
  recursive_merge sch s d =
    (Some (Dir [("a", Dir [("f", File (Blob "1"))])]),
     Some (Dir [("a", Dir [("h", File (Blob "4")); ("g", File (Blob "2"))]); ("b", File (Blob "3"))]), Cut).
Proof. split; vm_compute; reflexivity. Qed.

(** ** Saves that follow one another each end up in a directory of their own, whatever an earlier
    killed save left *)
Theorem C62_saves : forall l s,
  let s' := fold_left save_step (List.concat (map (fun x => one_save (fst x) (snd x)) l)) s in
  committed s' = (committed s ++ l)%list /\ failed s' = failed s /\ (l <> [] -> tmp s' = None).
Proof. exact saves_run. Qed.
Print Assumptions C62_saves.

Example C62_saves_ex :
  committed (fold_left save_step ([Create 0; Write 0 "x"] ++ one_save 1 ["a"; "b"] ++ one_save 2 ["c"])%list
    (mkSaves None [] [])) = [(1, ["a"; "b"]); (2, ["c"])].
Proof. reflexivity. Qed.

(** ** What does not hold *)

(** A finalization killed after the metadata of a pytree was merged and before its array metadata
    was can never be completed: the second run no longer takes the directory for a pytree, moves
    its files one by one and finds the array metadata of the first save in the way, every time. *)
Theorem C62_stuck_refuted : exists s k, marks_ok s /\ snd (ex_finalize Never s) = Done /\
  forall n, last (snd (ex_runs (k :: repeat Never (S n)) s)) Done = Raised FileExistsError.
Proof.
  exists ex_session, (InDir 1 (Inside [("state", Inside [("_METADATA", Full)])])).
  split; [apply ex_marks|split; [vm_compute; reflexivity|]]. intros n.
  set (k := InDir 1 _). unfold ex_runs. cbn [finalize_runs].
  set (s1 := fst (finalize ex_merge ex_merge k ex_session)).
  set (s2 := fst (finalize ex_merge ex_merge Never s1)).
  assert (F : finalize ex_merge ex_merge Never s2 = (s2, Raised FileExistsError)) by (vm_compute; reflexivity).
  assert (E : finalize ex_merge ex_merge k ex_session = (s1, Cut)) by (vm_compute; reflexivity).
  assert (E1 : finalize ex_merge ex_merge Never s1 = (s2, Raised FileExistsError)) by (vm_compute; reflexivity).
  rewrite E. cbn [repeat finalize_runs]. rewrite E1. clearbody s1 s2.
  assert (R : forall m, snd (finalize_runs ex_merge ex_merge (repeat Never m) s2) = repeat (Raised FileExistsError) m).
  { induction m as [|m IH]; [reflexivity|]. cbn [repeat finalize_runs]. rewrite F.
    destruct (finalize_runs ex_merge ex_merge (repeat Never m) s2). cbn [snd] in *. rewrite IH. reflexivity. }
  specialize (R n). destruct (finalize_runs ex_merge ex_merge (repeat Never n) s2). cbn [snd] in *. rewrite R.
  cbn [last]. destruct n as [|n]; [reflexivity|]. clear. cbn [repeat].
  induction n as [|n IH]; [reflexivity|]. cbn [repeat]. exact IH.
Qed.
Print Assumptions C62_stuck_refuted.

(** With one save the second run succeeds, but as the directory is not taken for a pytree the
    OCDBT directories are never merged: the checkpoint is in its final place and its arrays cannot
    be found. *)
Theorem C62_manifest_refuted : exists s k, marks_ok s /\
  final_file (fst (ex_finalize Never s)) ["state"; "manifest.ocdbt"] = Some (Manifest ["ocdbt.process_0aa"]) /\
  snd (ex_runs [k; Never] s) = [Cut; Done] /\
  final_file (fst (ex_runs [k; Never] s)) ["state"; "manifest.ocdbt"] = None.
Proof.
  exists ex_one, (InDir 0 (Inside [("state", Inside [("_METADATA", Full)])])). split.
  - intros p x E I n c J [-> | ->]; inversion E; subst; cbn in I;
    repeat match goal with H : _ \/ _ |- _ => destruct H | H : False |- _ => destruct H end; subst; cbn in J;
    repeat match goal with H : _ \/ _ |- _ => destruct H | H : False |- _ => destruct H end;
    congruence || (inversion H; subst; reflexivity).
  - vm_compute. auto.
Qed.
Print Assumptions C62_manifest_refuted.

(** The same when the kill comes after the last pending directory was merged and removed and before
    the handler's finalization: the next run finds nothing pending and renames the directory
    without it. *)
Theorem C62_handler_refuted : exists s, marks_ok s /\
  final_file (fst (ex_finalize Never s)) ["state"; "manifest.ocdbt"] =
    Some (Manifest ["ocdbt.process_0aa"; "ocdbt.process_0bb"]) /\
  snd (ex_runs [InHandler 0; Never] s) = [Cut; Done] /\
  final_file (fst (ex_runs [InHandler 0; Never] s)) ["state"; "manifest.ocdbt"] = None.
Proof. exists ex_session. split; [apply ex_marks|vm_compute; auto]. Qed.
Print Assumptions C62_handler_refuted.

(** Merging array metadata is not safe to repeat: killed after the merged file was written and before
    the source was removed, the second run appends the entries of the source again. *)
Theorem C62_repeated_refuted : exists s k, marks_ok s /\
  final_file (fst (ex_finalize Never s)) ["state"; "array_metadatas"; "process_0"] = Some (Arrays ["a"; "b"]) /\
  snd (ex_runs [k; Never] s) = [Cut; Done] /\
  final_file (fst (ex_runs [k; Never] s)) ["state"; "array_metadatas"; "process_0"] = Some (Arrays ["a"; "b"; "b"]).
Proof.
  exists ex_session, (InDir 1 (Inside [("state", Inside [("array_metadatas", Inside [("process_0", Kill 2)])])])).
  split; [apply ex_marks|vm_compute; auto].
Qed.
Print Assumptions C62_repeated_refuted.

(** The merged metadata is written over the only copy of the metadata of the earlier saves, whose
    own directories are gone: killed while writing, the keys of the first save are lost and no
    later run can read the file. *)
Theorem C62_truncated_refuted : exists s k, marks_ok s /\ snd (ex_finalize Never s) = Done /\
  snd (ex_runs [k; Never; Never] s) = [Cut; Raised ValueError; Raised ValueError] /\
  exists p, s_partial (fst (ex_finalize k s)) = Some p /\ find ["state"; "_METADATA"] (Dir (merged p)) = Some Trunc /\
  map (fun d => find ["state"; "_METADATA"] (Dir (snd d))) (pending p) = [Some (Json ["b"])].
Proof.
  exists ex_session, (InDir 1 (Inside [("state", Inside [("_METADATA", Kill 1)])])).
  split; [apply ex_marks|]. split; [vm_compute; reflexivity|]. split; [vm_compute; reflexivity|].
  eexists. split; [vm_compute; reflexivity|]. split; vm_compute; reflexivity.
Qed.
Print Assumptions C62_truncated_refuted.

(** A second asynchronous save does not wait for the first, although the documentation says so: both
    use the same temporary directory, which the second removes. The first save ends without an
    error and its file is nowhere. *)
Theorem C62_overlap_refuted : exists es,
  filter (fun e => match e with Create 1 | Write 1 _ | Commit 1 => true | _ => false end) es = one_save 1 ["a"] /\
  In (Create 2) es /\
  let s := fold_left save_step es (mkSaves None [] []) in
  ~ In 1 (failed s) /\ tmp s = None /\ committed s = [(1, [])].
Proof.
  exists [Create 1; Write 1 "a"; Create 2; Commit 1; Write 2 "b"; Commit 2].
  split; [reflexivity|]. split; [cbn; auto|]. split; [|split; reflexivity]. cbn. intros [H|[H|[]]]; discriminate.
Qed.
Print Assumptions C62_overlap_refuted.
