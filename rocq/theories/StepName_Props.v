(** Theorems C12, C13, C44, C45: step directory names. *)
From Coq Require Import List Bool String Ascii ZArith NArith Permutation Lia.
From Verif Require Import Base Atomic_Model Atomic_Spec Atomic_Proofs StepName_Model StepName_Spec StepName_Proofs.
Import ListNotations.
Local Open Scope string_scope.
Local Open Scope list_scope.

Definition fmt4 : fmt := mkFmt (Some "step") (Some 4%Z).
Definition fmt_bare : fmt := mkFmt None None.

Lemma fmt4_plain : plain_prefix (step_prefix fmt4).
Proof.
  intros s c H Hc. inversion H; subst. simpl in Hc.
  repeat (destruct Hc as [<-|Hc]; [simpl; intuition discriminate|]). destruct Hc.
Qed.
Lemma bare_plain : plain_prefix (step_prefix fmt_bare).
Proof. intros s c H. discriminate. Qed.

(** * C12 *)

(** The name is the prefix and the zero-padded decimal number, nothing else. *)
Theorem C12_name_shape : forall f v n, width_ok f ->
  (build_name f (Z.of_N v) = Ok n <-> name_of f v n).
Proof. exact build_name_of. Qed.
Print Assumptions C12_name_shape.

Example C12_name_shape_ex :
  build_name fmt4 23 = Ok "step_0023" /\ build_name fmt4 123456 = Ok "step_123456" /\
  build_name fmt_bare 0 = Ok "0" /\ build_name (mkFmt None (Some 3%Z)) 0 = Ok "000" /\ width_ok fmt4.
Proof. repeat split; try (vm_compute; reflexivity). vm_compute. discriminate. Qed.

(** A built name is recognised as exactly the step it was built for. *)
Theorem C12_round_trip : forall f s n, plain_prefix (step_prefix f) -> (0 <= s)%Z ->
  build_name f s = Ok n -> recognise f n = Ok (Some s).
Proof. exact recognise_build. Qed.
Print Assumptions C12_round_trip.

Example C12_round_trip_ex :
  build_name fmt4 98765 = Ok "step_98765" /\ recognise fmt4 "step_98765" = Ok (Some 98765%Z) /\
  recognise fmt4 "step_0023" = Ok (Some 23%Z) /\ recognise fmt4 "step_023" = Ok None /\
  recognise fmt4 "step_00023" = Ok None /\ recognise fmt_bare "007" = Ok None.
Proof. repeat split; vm_compute; reflexivity. Qed.

(** Different steps, also negative ones, get different names. *)
Theorem C12_injective : forall f s s' n,
  build_name f s = Ok n -> build_name f s' = Ok n -> s = s'.
Proof. exact build_injective. Qed.
Print Assumptions C12_injective.

Example C12_injective_ex : build_name fmt4 (-23) = Ok "step_-023" /\ build_name fmt4 23 = Ok "step_0023".
Proof. split; vm_compute; reflexivity. Qed.

(** A name that is recognised as step s is the name built for s.  Missing: names
    that end in a newline, for which this is false (C12_newline_refuted). *)
Theorem C12_recognised_is_built_partial : forall f n s, plain_prefix (step_prefix f) -> width_ok f ->
  ~ ends_with_newline n -> recognise f n = Ok (Some s) ->
  (0 <= s)%Z /\ build_name f s = Ok n.
Proof. exact recognise_inv. Qed.
Print Assumptions C12_recognised_is_built_partial.

Example C12_recognised_ex :
  recognise fmt4 "step_0023" = Ok (Some 23%Z) /\ ~ ends_with_newline "step_0023".
Proof.
  split; [vm_compute; reflexivity|]. intros (l & E).
  change (list_ascii_of_string "step_0023") with (list_ascii_of_string "step_002" ++ ["3"%char]) in E.
  apply app_inj_tail in E. destruct E. discriminate.
Qed.

(** The regular expression ends in [$], which also matches before a final
    newline: the directory "12\n" is taken for step 12, whose name is "12". *)
Theorem C12_newline_refuted : exists n s,
  recognise fmt_bare n = Ok (Some s) /\ build_name fmt_bare s <> Ok n.
Proof.
  exists (String "1" (String "2" (String "010" ""))), 12%Z. split; vm_compute; [reflexivity|discriminate].
Qed.
Print Assumptions C12_newline_refuted.

(** The prefix is put into the regular expression without escaping: with the
    prefix "a+b" no step that is saved is ever listed, though it can be looked
    up by number. *)
Theorem C12_pattern_prefix_refuted :
  let f := mkFmt (Some "a+b") None in
  forall s n, (0 <= s)%Z -> build_name f s = Ok n ->
    recognise f n = Ok None /\
    forall r, is_path_finalized AtomicRename false n r = true ->
      std_find_step AtomicRename false f r s = Ok (mkMeta s n).
Proof.
  intros f s n Hs H. split.
  - destruct (build_chars f s n Hs H) as (g & E & Gn & Gd & P).
    assert (En : list_ascii_of_string n = ["a"%char; "+"%char; "b"%char] ++ "_"%char :: g).
    { rewrite E. reflexivity. }
    unfold recognise. simpl step_prefix. cbv iota.
    replace (parse_prefix (list_ascii_of_string "a+b")) with
      (Ok [(AChar "a", QPlus); (AChar "b", QOne)]) by reflexivity.
    rewrite E, strip_newline_id by (apply digits_end; auto). rewrite <- E, En.
    rewrite (proj2 (split_some _ ["a"%char; "+"%char; "b"%char] g)).
    + reflexivity.
    + split; auto. intro X. rewrite Forall_forall in Gd. apply (digit_not_underscore _ (Gd _ X)); auto.
  - intros r Hr. apply find_step_spec. auto.
Qed.
Print Assumptions C12_pattern_prefix_refuted.

Example C12_pattern_prefix_ex : build_name (mkFmt (Some "a+b") None) 5 = Ok "a+b_5".
Proof. reflexivity. Qed.

(** Listing a directory gives exactly the finalized paths whose name is the name
    of a non-negative step. *)
Theorem C12_find_all : forall p legacy f r ms, plain_prefix (step_prefix f) -> width_ok f ->
  no_newline_names r -> std_find_all p legacy f r = Ok ms ->
  forall m, In m ms <->
    (0 <= mstep m)%Z /\ build_name f (mstep m) = Ok (mpath m) /\
    is_path_finalized p legacy (mpath m) r = true.
Proof. exact find_all_spec. Qed.
Print Assumptions C12_find_all.

(** Nothing is listed twice. *)
Theorem C12_find_all_nodup : forall p legacy f r ms, plain_prefix (step_prefix f) ->
  NoDup (map fst r) -> std_find_all p legacy f r = Ok ms -> NoDup (map mpath ms).
Proof. exact find_all_NoDup. Qed.
Print Assumptions C12_find_all_nodup.

Definition ex_dir : root :=
  [("step_0002", Dir []); ("step_0010", Dir []); ("step_11", Dir []); ("step_0012.orbax-checkpoint-tmp", Dir []);
   ("other_0003", Dir []); ("step_0004", File)].

Example C12_find_all_ex :
  std_find_all AtomicRename false fmt4 ex_dir = Ok [mkMeta 2 "step_0002"; mkMeta 10 "step_0010"] /\
  NoDup (map fst ex_dir) /\ no_newline_names ex_dir.
Proof.
  split; [vm_compute; reflexivity|].
  split; [simpl; repeat constructor; simpl; intuition discriminate|]. intros n x H (l & E).
  assert (X : forall s, In s (map fst ex_dir) -> last (list_ascii_of_string s) "a"%char <> newline).
  { intros s Hs. simpl in Hs. repeat (destruct Hs as [<-|Hs]; [vm_compute; discriminate|]). destruct Hs. }
  apply (X n); [apply (in_map fst _ _ H)|]. rewrite E. apply last_last.
Qed.

(** Looking a step up finds it iff its path exists and is finalized. *)
Theorem C12_find_step : forall p legacy f r s m,
  std_find_step p legacy f r s = Ok m <->
  mstep m = s /\ build_name f s = Ok (mpath m) /\ is_path_finalized p legacy (mpath m) r = true.
Proof. exact find_step_spec. Qed.
Print Assumptions C12_find_step.

Example C12_find_step_ex :
  std_find_step AtomicRename false fmt4 ex_dir 10 = Ok (mkMeta 10 "step_0010") /\
  std_find_step AtomicRename false fmt4 ex_dir 11 = Err ValueError.
Proof. split; vm_compute; reflexivity. Qed.

(** step_from_checkpoint_name reads the number back from the name ... *)
Theorem C12_step_from_name : forall f s n,
  (forall p, step_prefix f = Some p -> p <> "" /\ ~ In newline (list_ascii_of_string p)) ->
  (0 <= s)%Z -> build_name f s = Ok n -> step_from_checkpoint_name n = Ok s.
Proof. exact step_from_build. Qed.
Print Assumptions C12_step_from_name.

(** ... and from the temporary name. *)
Theorem C12_step_from_tmp_name : forall f s n,
  (forall p, step_prefix f = Some p -> ~ In newline (list_ascii_of_string p) /\ ~ contains tmp_suffix p) ->
  (0 <= s)%Z -> build_name f s = Ok n -> step_from_checkpoint_name (get_tmp_name n) = Ok s.
Proof. exact step_from_tmp. Qed.
Print Assumptions C12_step_from_tmp_name.

Example C12_step_from_ex :
  step_from_checkpoint_name "v2_step_0023" = Ok 23%Z /\
  step_from_checkpoint_name "v2_step_0023.orbax-checkpoint-tmp" = Ok 23%Z /\
  ~ contains tmp_suffix "v2_step".
Proof. repeat split; try (vm_compute; reflexivity). rewrite <- str_in_spec. vm_compute. discriminate. Qed.

(** With the empty prefix the format lists "_5" but step_from_checkpoint_name
    rejects it. *)
Theorem C12_empty_prefix_refuted : exists f s n,
  recognise f n = Ok (Some s) /\ build_name f s = Ok n /\ step_from_checkpoint_name n = Err ValueError.
Proof. exists (mkFmt (Some "") None), 5%Z, "_5". repeat split; vm_compute; reflexivity. Qed.
Print Assumptions C12_empty_prefix_refuted.

(** Negative steps can be saved and looked up but are never listed. *)
Theorem C12_negative_not_listed : forall f s n, plain_prefix (step_prefix f) -> (s < 0)%Z ->
  build_name f s = Ok n -> recognise f n = Ok None.
Proof. exact negative_not_listed. Qed.
Print Assumptions C12_negative_not_listed.

Example C12_negative_ex : build_name fmt4 (-7) = Ok "step_-007" /\ recognise fmt4 "step_-007" = Ok None.
Proof. split; vm_compute; reflexivity. Qed.

(** * C13 *)

(** Looking a step up returns the answer of the first read format that finds it
    (arbitrary formats, not only the standard one). *)
Theorem C13_find_step_first : forall fs r s m,
  composite_find_step fs r s = Ok m <->
  exists i f, nth_error fs i = Some f /\ nf_find_step f r s = Ok m /\
    forall j g, j < i -> nth_error fs j = Some g -> exists e, nf_find_step g r s = Err e.
Proof. exact composite_step_ok. Qed.
Print Assumptions C13_find_step_first.

Theorem C13_find_step_none : forall fs r s,
  (exists e, composite_find_step fs r s = Err e) <->
  forall f, In f fs -> exists e, nf_find_step f r s = Err e.
Proof. exact composite_step_err. Qed.
Print Assumptions C13_find_step_none.

(** Listing returns every path found by some read format exactly once, described
    by the first format that finds it. *)
Theorem C13_find_all : forall fs r ms, composite_find_all fs r = Ok ms ->
  NoDup (map mpath ms) /\
  (forall n, In n (map mpath ms) <->
     exists f l, In f fs /\ nf_find_all f r = Ok l /\ In n (map mpath l)) /\
  (forall m, In m ms -> exists i f l, nth_error fs i = Some f /\ nf_find_all f r = Ok l /\ In m l /\
     forall j g l', j < i -> nth_error fs j = Some g -> nf_find_all g r = Ok l' -> ~ In (mpath m) (map mpath l')).
Proof. exact composite_all_ok. Qed.
Print Assumptions C13_find_all.

(** What is written with the write format is found again, with its step. *)
Theorem C13_written_is_found : forall p legacy fmts w f nf r s n,
  Forall (fun g => plain_prefix (step_prefix g)) fmts -> nth_error fmts w = Some f ->
  composite w (map (standard p legacy) fmts) = Ok nf -> (0 <= s)%Z ->
  nf_build nf s = Ok n -> is_path_finalized p legacy n r = true ->
  (exists m, nf_find_step nf r s = Ok m /\ mstep m = s) /\
  exists ms, nf_find_all nf r = Ok ms /\ In (mkMeta s n) ms.
Proof. exact composite_written. Qed.
Print Assumptions C13_written_is_found.

Example C13_ex :
  let fs := map (standard AtomicRename false) [fmt_bare; fmt4] in
  let r := ("7", Dir []) :: ("10", Dir []) :: ex_dir in
  Forall (fun g => plain_prefix (step_prefix g)) [fmt_bare; fmt4] /\
  composite_find_all fs r = Ok [mkMeta 7 "7"; mkMeta 10 "10"; mkMeta 2 "step_0002"; mkMeta 10 "step_0010"] /\
  composite_find_step fs r 10 = Ok (mkMeta 10 "10") /\
  composite_find_step fs r 2 = Ok (mkMeta 2 "step_0002") /\
  composite_find_step fs r 99 = Err ValueError /\
  (exists nf, composite 1 fs = Ok nf /\ nf_build nf 2 = Ok "step_0002").
Proof.
  cbv zeta. split; [repeat constructor; [apply bare_plain|apply fmt4_plain]|].
  repeat split; try (vm_compute; reflexivity). eexists. split; vm_compute; reflexivity.
Qed.

(** * C44 *)

(** Listing on the primary host and broadcasting the numbers gives every host
    the same checkpoints as a local listing. *)
Theorem C44_broadcast_listing : forall p legacy f r, plain_prefix (step_prefix f) -> width_ok f ->
  NoDup (map fst r) -> no_newline_names r ->
  exists ms ms', std_find_all p legacy f r = Ok ms /\ broadcast_find_all p legacy f r = Ok ms' /\
    Permutation ms ms'.
Proof. exact broadcast_agree. Qed.
Print Assumptions C44_broadcast_listing.

Example C44_ex : broadcast_find_all AtomicRename false fmt4
    [("step_0010", Dir []); ("step_0002", Dir []); ("step_x", Dir [])] =
  Ok [mkMeta 2 "step_0002"; mkMeta 10 "step_0010"].
Proof. vm_compute; reflexivity. Qed.

(** * C45 *)

(** The latest checkpoint has the largest step; among paths with the same step
    the lexicographically greatest name. *)
Theorem C45_latest : forall nf r ms o, nf_find_all nf r = Ok ms ->
  latest_step_metadata nf r = Ok o ->
  match o with
  | None => ms = []
  | Some m => In m ms /\ forall m', In m' ms ->
      (mstep m' < mstep m)%Z \/ (mstep m' = mstep m /\ String.leb (mpath m') (mpath m) = true)
  end.
Proof. exact latest_spec. Qed.
Print Assumptions C45_latest.

(** It does not depend on the order in which the listing returns the paths. *)
Theorem C45_order_irrelevant : forall nf nf' r r' ms ms' o o',
  nf_find_all nf r = Ok ms -> nf_find_all nf' r' = Ok ms' -> Permutation ms ms' ->
  NoDup (map mpath ms) ->
  latest_step_metadata nf r = Ok o -> latest_step_metadata nf' r' = Ok o' -> o = o'.
Proof. exact latest_order_irrelevant. Qed.
Print Assumptions C45_order_irrelevant.

Example C45_ex :
  let nf := mkNF (fun _ => Err ValueError) (composite_find_all (map (standard AtomicRename false) [fmt_bare; fmt4]))
                 (fun _ _ => Err ValueError) in
  latest_step_metadata nf [("10", Dir []); ("step_0010", Dir []); ("9", Dir [])] = Ok (Some (mkMeta 10 "step_0010")) /\
  latest_step_metadata nf [("step_0010", Dir []); ("9", Dir []); ("10", Dir [])] = Ok (Some (mkMeta 10 "step_0010")).
Proof. split; vm_compute; reflexivity. Qed.
