(** C66: metadata files of steps and of the root keep what they are given, as far as JSON does. *)
From Coq Require Import List Bool Arith ZArith NArith String.
From Verif Require Import Base Tree_Model StepMeta_Model StepMeta_Spec StepMeta_Proofs.
Import ListNotations.
Open Scope string_scope.

(** Numbers as names, for examples *)
Definition show0 (z : Z) : string := if Z.eqb z 1 then "1" else "0".

(** Exactly the valid metadata are serialized, to a dictionary with the six names in order; everything
    else is a ValueError. *)
Theorem C66_serialize : forall m,
  (valid m /\ exists d, serialize m = Ok d /\ map fst d = map KStr names /\
     (forall n, In n names -> get n d = stored n (getattr m n))) \/
  (~ valid m /\ serialize m = Err ValueError).
Proof.
  intros m. destruct (ser_spec m) as [[V E]|[V E]]; [left|right]; (split; [auto|]); [|auto]. eexists. split; [exact E|]. split; [reflexivity|].
  intros n I. cbn in I. repeat (destruct I as [<-|I]; [reflexivity|]). contradiction.
Qed.
Print Assumptions C66_serialize.

Example C66_serialize_ex :
  let m := mkMeta (VDict [(KStr "state", VStr "H")]) VNone (VStats [("step", VInt 3); ("wait_for_prev_start_time", VFloat 5)]) (VInt 7) VNone VNone in
  valid m /\
  serialize m = Ok [(KStr "item_handlers", VDict [(KStr "state", VStr "H")]); (KStr "metrics", VDict []); (KStr "performance_metrics", VDict [(KStr "wait_for_prev_start_time", VFloat 5)]);
                    (KStr "init_timestamp_nsecs", VInt 7); (KStr "commit_timestamp_nsecs", VNone); (KStr "custom_metadata", VDict [])] /\
  serialize (mkMeta (VInt 3) VNone VNone VNone VNone VNone) = Err ValueError /\
  serialize (mkMeta VNone VNone VNone (VStr "now") VNone VNone) = Err ValueError.
Proof.
  cbv zeta. split; [|vm_compute; auto]. destruct (C66_serialize (mkMeta (VDict [(KStr "state", VStr "H")]) VNone (VStats [("step", VInt 3); ("wait_for_prev_start_time", VFloat 5)]) (VInt 7) VNone VNone)) as [[V _]|[_ E]];
    [exact V|vm_compute in E; discriminate].
Qed.

(** What was serialized and written is read back: handlers, metrics and custom metadata as JSON gives
    them, times as they were, and of the statistics the floats. Reading does not change the
    dictionary. *)
Theorem C66_round_trip : forall show_int show_float m d f, stats_whole (performance_metrics m) -> serialize m = Ok d -> written show_int show_float d = Ok f ->
  exists m', deserialize f = (Ok m', f) /\ comes_back show_int show_float m m'.
Proof. exact round_trip. Qed.
Print Assumptions C66_round_trip.

(** Writing what was read gives the same file. *)
Theorem C66_stable : forall show_int show_float m d f m', stats_whole (performance_metrics m) -> serialize m = Ok d -> written show_int show_float d = Ok f ->
  fst (deserialize f) = Ok m' -> exists d', serialize m' = Ok d' /\ written show_int show_float d' = Ok f.
Proof. exact stable. Qed.
Print Assumptions C66_stable.

(** Metadata can be written exactly if JSON takes their parts. *)
Theorem C66_written : forall show_int show_float m d, serialize m = Ok d ->
  ((exists f, written show_int show_float d = Ok f) <->
   (exists x, json show_int show_float (item_handlers m) = Ok x) /\ (exists x, json show_int show_float (or_empty (metrics m)) = Ok x) /\
   (exists x, json show_int show_float (only_floats (performance_metrics m)) = Ok x) /\ (exists x, json show_int show_float (or_empty (custom_metadata m)) = Ok x)).
Proof.
  intros si sf m d S. destruct (ser_spec m) as [[V E]|[_ E]]; [|congruence]. rewrite E in S. injection S as <-. destruct V as (V1 & V2 & V3 & V4 & V5 & V6). split.
  - intros [f W]. apply written_spec in W as (a & b & c & i & k & u & -> & A & B & C & I & K & U). eauto 10.
  - intros ([a A] & [b B] & [c C] & [u U]). exists (VDict (entries_of a b c (init_timestamp_nsecs m) (commit_timestamp_nsecs m) u)).
    apply written_spec. exists a, b, c, (init_timestamp_nsecs m), (commit_timestamp_nsecs m), u.
    assert (T : forall x, time_ok x -> json si sf x = Ok x) by (intros x [->|[[z ->]|[b0 ->]]]; reflexivity). pose proof (T _ V4). pose proof (T _ V5). tauto.
Qed.
Print Assumptions C66_written.

Definition stats1 : pv := VStats (map (fun x => if String.eqb (fst x) "wait_for_prev_start_time" then (fst x, VFloat 5) else x) stat_fields).

Example C66_round_trip_ex :
  let m := mkMeta (VStr "H") (VDict [(KStr "loss", VFloat 2)]) stats1 (VInt 7) (VInt 9) (VDict [(KStr "a", VTuple [VInt 1; VDict [(KInt 1, VNone)]])]) in
  exists d f, serialize m = Ok d /\ written show0 show0 d = Ok f /\
  fst (deserialize f) = Ok (mkMeta (VStr "H") (VDict [(KStr "loss", VFloat 2)]) stats1 (VInt 7) (VInt 9) (VDict [(KStr "a", VList [VInt 1; VDict [(KStr "1", VNone)]])])) /\
  snd (deserialize f) = f /\ stats_whole (performance_metrics m).
Proof.
  eexists. eexists. split; [vm_compute; reflexivity|]. split; [vm_compute; reflexivity|]. split; [vm_compute; reflexivity|]. split; [vm_compute; reflexivity|].
  eexists. split; [reflexivity|]. vm_compute. reflexivity.
Qed.

(** Exactly which dictionaries are deserialized: the fields are valid, floats among the performance
    metrics have names of statistics, and unknown names are there only without custom metadata (one of
    them also with an empty dictionary). Unknown names become the custom metadata. *)
Theorem C66_deserialize : forall d, NoDup (map fst d) ->
  let ok := (forall n, In n names -> field_ok n (get n d)) /\ floats_known (get "performance_metrics" d) /\ unknown_ok names d in
  (ok /\ exists m, fst (deserialize (VDict d)) = Ok m /\
     item_handlers m = get "item_handlers" d /\ metrics m = or_empty (get "metrics" d) /\ floats_of (get "performance_metrics" d) (performance_metrics m) /\
     init_timestamp_nsecs m = get "init_timestamp_nsecs" d /\ commit_timestamp_nsecs m = get "commit_timestamp_nsecs" d /\
     custom_metadata m = match unknown names d with [] => or_empty (get "custom_metadata" d) | u => VDict u end) \/
  (~ ok /\ exists e, fst (deserialize (VDict d)) = Err e /\ (e = ValueError \/ e = TypeError)).
Proof.
  intros d N ok. assert (Q : (forall n, In n names -> field_ok n (get n d)) <-> parts_ok d).
  { unfold parts_ok, field_ok. split.
    - intros H. repeat split.
      + specialize (H "item_handlers" (or_introl eq_refl)). intuition discriminate.
      + specialize (H "metrics" ltac:(cbn; auto 10)). intuition discriminate.
      + specialize (H "performance_metrics" ltac:(cbn; auto 10)). intuition discriminate.
      + specialize (H "init_timestamp_nsecs" ltac:(cbn; auto 10)). intuition discriminate.
      + specialize (H "commit_timestamp_nsecs" ltac:(cbn; auto 10)). intuition discriminate.
      + specialize (H "custom_metadata" ltac:(cbn; auto 10)). intuition discriminate.
    - intros (A & B & C & E & F & G) n I. cbn in I. repeat (destruct I as [<-|I]; [tauto|]). contradiction. }
  unfold ok. destruct (ds_spec d N) as [(P & K & U & st & F & E)|[H E]]; [left|right]; (split; [tauto|]); [|auto].
  eexists. split; [exact E|]. cbn. auto 10.
Qed.
Print Assumptions C66_deserialize.

Example C66_deserialize_ex :
  fst (deserialize (VDict [(KStr "x", VInt 1); (KStr "metrics", VNone); (KStr "y", VInt 2)])) =
    Ok (mkMeta VNone (VDict []) (VStats stat_fields) VNone VNone (VDict [(KStr "x", VInt 1); (KStr "y", VInt 2)])) /\
  fst (deserialize (VDict [(KStr "x", VInt 1); (KStr "custom_metadata", VDict [(KStr "a", VNone)])])) = Err ValueError /\
  fst (deserialize (VList [])) = Err ValueError.
Proof. vm_compute. auto. Qed.

(** What is no dictionary is refused; without unknown names, or without custom metadata, the argument
    stays as it is; in any case only its custom metadata may change. *)
Theorem C66_argument : forall x,
  (forall d, x = VDict d -> (unknown names d = [] \/ get "custom_metadata" d = VNone -> snd (deserialize x) = x) /\
                            (forall d' n, snd (deserialize x) = VDict d' -> n <> "custom_metadata" -> get n d' = get n d)) /\
  ((forall d, x <> VDict d) -> deserialize x = (Err ValueError, x)).
Proof.
  intros x. split.
  - intros d ->. split; [intros U; apply ds_unchanged; auto|]. intros d' n E D. eapply ds_keeps; eauto.
  - intros H. destruct x; try reflexivity. exfalso. eapply H; reflexivity.
Qed.
Print Assumptions C66_argument.

Example C66_argument_ex :
  let d := [(KStr "metrics", VDict [(KStr "a", VInt 1)]); (KStr "custom_metadata", VDict [])] in
  snd (deserialize (VDict d)) = VDict d /\ unknown names d = [] /\
  snd (deserialize (VDict [(KStr "x", VInt 1); (KStr "custom_metadata", VNone)])) = VDict [(KStr "x", VInt 1); (KStr "custom_metadata", VNone)].
Proof. vm_compute. auto. Qed.

(** Keywords for an update are accepted exactly if they are names of fields with valid values, and are
    stored as the whole would be. *)
Theorem C66_keywords : forall kw, NoDup (map fst kw) ->
  ((forall k v, In (k, v) kw -> exists n, k = KStr n /\ In n names /\ field_ok n v) <-> exists u, serialize_for_update kw = Ok u) /\
  (forall u, serialize_for_update kw = Ok u -> forall n, dget key_eqb (KStr n) u = option_map (stored n) (dget key_eqb (KStr n) kw)).
Proof. intros kw N. split; [apply kw_spec; auto|]. intros u E n. eapply kw_value; eauto. Qed.
Print Assumptions C66_keywords.

Example C66_keywords_ex :
  serialize_for_update [(KStr "custom_metadata", VNone); (KStr "item_handlers", VStr "H")] = Ok [(KStr "item_handlers", VStr "H"); (KStr "custom_metadata", VDict [])] /\
  serialize_for_update [(KStr "custom", VNone)] = Err ValueError /\ serialize_for_update [(KStr "custom_metadata", VInt 0)] = Err ValueError.
Proof. vm_compute. auto. Qed.

(** An update changes the fields it names, and leaves the others as they are. *)
Theorem C66_update : forall show_int show_float d kw, str_dict (VDict d) -> str_dict (VDict kw) -> NoDup (map fst d) -> NoDup (map fst kw) -> is_json show_int show_float (VDict d) ->
  ((forall k v, In (k, v) kw -> exists w, json show_int show_float v = Ok w) -> exists f, updated show_int show_float (VDict d) kw = Ok f) /\
  (forall f, updated show_int show_float (VDict d) kw = Ok f ->
     is_json show_int show_float f /\ exists d', f = VDict d' /\ NoDup (map fst d') /\ str_dict f /\ (forall n, json show_int show_float (after kw d n) = Ok (get n d'))).
Proof.
  intros si sf d kw SD SK ND NK J. apply strd in SD. apply strd in SK. split; [intros H; apply update_works; auto|]. intros f E. split; [exact (json_again _ _ _ _ E)|].
  destruct (update_spec si sf d kw f SD SK ND NK E) as (d' & -> & S & N & G). exists d'. split; [auto|]. split; [auto|]. split; [apply strd; auto|auto].
Qed.
Print Assumptions C66_update.

Example C66_update_ex :
  updated show0 show0 (VDict [(KStr "a", VInt 1); (KStr "b", VInt 2)]) [(KStr "b", VTuple [VInt 3]); (KStr "c", VNone)] =
    Ok (VDict [(KStr "a", VInt 1); (KStr "b", VList [VInt 3]); (KStr "c", VNone)]) /\
  updated show0 show0 (VDict [(KStr "a", VInt 1)]) [(KStr "b", VOther 1)] = Err TypeError /\ is_json show0 show0 (VDict [(KStr "a", VInt 1); (KStr "b", VInt 2)]).
Proof. vm_compute. auto. Qed.

(** A save, from its first metadata to its commit: it works exactly if the handlers and the custom
    metadata are valid and JSON takes them, and what is read then is just that, with both times. *)
Theorem C66_save : forall show_int show_float init c h commit,
  ((exists f, save_metadata show_int show_float init (kw_of c h) commit = Ok f) <->
   handlers_ok (or_none h) /\ custom_ok c /\ (exists x, json show_int show_float (or_none h) = Ok x) /\ (exists x, json show_int show_float (or_empty c) = Ok x)) /\
  (forall f, save_metadata show_int show_float init (kw_of c h) commit = Ok f ->
   exists m, deserialize f = (Ok m, f) /\ json show_int show_float (or_none h) = Ok (item_handlers m) /\ json show_int show_float (or_empty c) = Ok (custom_metadata m) /\
   init_timestamp_nsecs m = VInt init /\ commit_timestamp_nsecs m = VInt commit /\ metrics m = VDict [] /\ performance_metrics m = VStats stat_fields).
Proof.
  intros si sf init c h commit. split; [|intros f E; apply life_read; auto]. split.
  - intros [f E]. apply life_spec in E as (H & C & h' & c' & A & U & _). eauto 10.
  - intros (H & C & [h' A] & [c' U]). eexists. apply life_spec. split; [auto|]. split; [auto|]. exists h', c'. split; [auto|]. split; [auto|]. reflexivity.
Qed.
Print Assumptions C66_save.

Example C66_save_ex :
  save_metadata show0 show0 10 (kw_of (VDict [(KStr "run", VStr "a")]) (Some (VDict [(KStr "state", VStr "H")]))) 20 =
    Ok (VDict [(KStr "item_handlers", VDict [(KStr "state", VStr "H")]); (KStr "metrics", VDict []); (KStr "performance_metrics", VDict []); (KStr "init_timestamp_nsecs", VInt 10);
               (KStr "commit_timestamp_nsecs", VInt 20); (KStr "custom_metadata", VDict [(KStr "run", VStr "a")])]) /\
  save_metadata show0 show0 10 (kw_of (VDict [(KStr "run", VOther 1)]) None) 20 = Err TypeError.
Proof. vm_compute. auto. Qed.

(** Metrics that are added when reading win over those in the file; nothing else changes. *)
Theorem C66_additional : forall x im a s, NoDup (map fst a) -> deserialize_step x im (VDict a) = Ok s ->
  exists m d d', fst (deserialize x) = Ok m /\ or_empty (metrics m) = VDict d /\ metrics (s_meta s) = VDict d' /\
    (forall k, dget key_eqb k d' = match dget key_eqb k a with Some v => Some v | None => dget key_eqb k d end) /\
    s_item_metadata s = im /\ item_handlers (s_meta s) = item_handlers m /\ performance_metrics (s_meta s) = performance_metrics m /\
    init_timestamp_nsecs (s_meta s) = init_timestamp_nsecs m /\ commit_timestamp_nsecs (s_meta s) = commit_timestamp_nsecs m /\ custom_metadata (s_meta s) = custom_metadata m.
Proof. exact added. Qed.
Print Assumptions C66_additional.

(** They are taken exactly if they are nothing or a dictionary whose keys are strings. *)
Theorem C66_additional_ok : forall x im add m, fst (deserialize x) = Ok m -> ((exists s, deserialize_step x im add = Ok s) <-> custom_ok add).
Proof.
  intros x im add m E. unfold deserialize_step. rewrite E. cbn [rbind]. assert (V : metrics_ok (metrics m) /\ exists d, metrics m = VDict d /\ str_keys d = true).
  { destruct x as [| | | | | | |d| |]; try discriminate. cbn [deserialize] in E. destruct (ds_fields d) as [[P X]|[_ X]]; rewrite X in E; [|discriminate].
    destruct (only_dict (get "performance_metrics" d)) as [pm EP]. destruct (or_dict (get "custom_metadata" d)) as [c EC]. rewrite EP, EC in E. destruct (mk_stats pm); [|discriminate].
    destruct (add_unknown _ _ _ _ _) as [[c'|e] d']; cbn [fst] in E; [|discriminate]. injection E as <-. cbn [metrics]. destruct P as (_ & P & _). apply str_or_m in P. split; [right; auto|].
    destruct P as (d0 & Y & S). exists d0. split; [auto|]. apply strk. auto. }
  destruct V as (_ & d & -> & S). unfold validate_and_process_metrics.
  assert (T : (if truthy (VDict d) then VDict d else VDict []) = VDict d) by (destruct d; reflexivity). rewrite T, S. clear T.
  destruct add as [| | | | | | |a| |]; cbn [rmap];
    try (split; [intros [? H]; discriminate|intros [H|(? & H & _)]; discriminate]).
  - split; [left; auto|eauto].
  - destruct (str_keys a) eqn:K; cbn [rmap].
    + split; [intros _; right; apply strd; auto|eauto].
    + split; [intros [s H]; discriminate|]. intros [H|H]; [discriminate|]. apply strd in H. congruence.
Qed.
Print Assumptions C66_additional_ok.

Example C66_additional_ex :
  rmap (fun s => metrics (s_meta s)) (deserialize_step (VDict [(KStr "metrics", VDict [(KStr "a", VInt 1); (KStr "b", VInt 2)])]) VNone (VDict [(KStr "b", VInt 3); (KStr "c", VInt 4)])) =
    Ok (VDict [(KStr "a", VInt 1); (KStr "b", VInt 3); (KStr "c", VInt 4)]) /\
  deserialize_step (VDict []) VNone (VInt 1) = Err ValueError.
Proof. vm_compute. auto. Qed.

(** The metadata of the root, likewise *)
Theorem C66_root : forall show_int show_float i c,
  ((exists d, serialize_root i c = Ok d) <-> custom_ok i /\ custom_ok c) /\
  (forall d f, serialize_root i c = Ok d -> written show_int show_float d = Ok f ->
   exists i' c', fst (deserialize_root f) = Ok (i', c') /\ json show_int show_float (or_empty i) = Ok i' /\ json show_int show_float (or_empty c) = Ok c').
Proof.
  intros si sf i c. split; [|apply root_round_trip]. destruct (root_ser i c) as [(HI & HC & E)|[H E]]; rewrite E; split; eauto; [intros [d X]; discriminate|tauto].
Qed.
Print Assumptions C66_root.

Theorem C66_root_read : forall x,
  (forall d, x = VDict d -> NoDup (map fst d) ->
     let ok := custom_ok (get "internal_metadata" d) /\ custom_ok (get "custom_metadata" d) /\ unknown_ok root_names d in
     (ok /\ fst (deserialize_root x) = Ok (or_empty (get "internal_metadata" d), match unknown root_names d with [] => or_empty (get "custom_metadata" d) | u => VDict u end)) \/
     (~ ok /\ fst (deserialize_root x) = Err ValueError)) /\
  ((forall d, x <> VDict d) -> deserialize_root x = (Err AssertionError, x)).
Proof.
  intros x. split.
  - intros d -> N ok. destruct (root_ds d N) as [(A & B & U & E)|[H E]]; [left|right]; (split; [unfold ok; tauto|auto]).
  - intros H. destruct x; try reflexivity. exfalso. eapply H; reflexivity.
Qed.
Print Assumptions C66_root_read.

Example C66_root_ex :
  rbind (serialize_root VNone (VDict [(KStr "a", VInt 1)])) (written show0 show0) = Ok (VDict [(KStr "internal_metadata", VDict []); (KStr "custom_metadata", VDict [(KStr "a", VInt 1)])]) /\
  fst (deserialize_root (VDict [(KStr "old", VInt 1)])) = Ok (VDict [], VDict [(KStr "old", VInt 1)]) /\
  fst (deserialize_root VNone) = Err AssertionError.
Proof. vm_compute. auto. Qed.

(** Unknown names with an empty dictionary of custom metadata: one is taken, two are a ValueError that
    says the custom metadata are already defined. The first one was put into the dictionary that is
    looked at for the second. *)
Theorem C66_two_unknown_refuted : exists d1 d2 m, d2 = ((KStr "custom_metadata", VDict []) :: d1)%list /\ List.length d1 = 2 /\
  fst (deserialize (VDict d1)) = Ok m /\ fst (deserialize (VDict d2)) = Err ValueError /\
  (forall x, In x d1 -> exists m', fst (deserialize (VDict [(KStr "custom_metadata", VDict []); x])) = Ok m').
Proof.
  exists [(KStr "x", VInt 1); (KStr "y", VInt 2)]. do 2 eexists. split; [reflexivity|]. split; [reflexivity|]. split; [vm_compute; reflexivity|]. split; [vm_compute; reflexivity|].
  intros x [<-|[<-|[]]]; eexists; vm_compute; reflexivity.
Qed.
Print Assumptions C66_two_unknown_refuted.

(** Deserializing changes its argument: the same dictionary cannot be deserialized twice if it has an
    unknown name and an empty dictionary of custom metadata. *)
Theorem C66_twice_refuted : exists x m, fst (deserialize x) = Ok m /\ fst (deserialize (snd (deserialize x))) = Err ValueError.
Proof. exists (VDict [(KStr "x", VInt 1); (KStr "custom_metadata", VDict [])]). eexists. split; vm_compute; reflexivity. Qed.
Print Assumptions C66_twice_refuted.

(** A performance metric with an unknown name makes the metadata unreadable (TypeError) if it is a
    float, and is dropped silently otherwise; it can be written in both cases. *)
Theorem C66_unknown_metric_refuted : exists m d f m2 d2 f2 m3,
  serialize m = Ok d /\ written show0 show0 d = Ok f /\ fst (deserialize f) = Err TypeError /\
  serialize m2 = Ok d2 /\ written show0 show0 d2 = Ok f2 /\ fst (deserialize f2) = Ok m3 /\
  performance_metrics m = VDict [(KStr "gpu", VFloat 1)] /\ performance_metrics m2 = VDict [(KStr "gpu", VInt 1)] /\ performance_metrics m3 = VStats stat_fields.
Proof.
  exists (mkMeta VNone VNone (VDict [(KStr "gpu", VFloat 1)]) VNone VNone VNone). do 2 eexists. exists (mkMeta VNone VNone (VDict [(KStr "gpu", VInt 1)]) VNone VNone VNone). do 3 eexists.
  split; [vm_compute; reflexivity|]. split; [vm_compute; reflexivity|]. split; [vm_compute; reflexivity|]. split; [vm_compute; reflexivity|]. split; [vm_compute; reflexivity|].
  split; [vm_compute; reflexivity|]. split; [reflexivity|]. split; reflexivity.
Qed.
Print Assumptions C66_unknown_metric_refuted.

(** The statistics' step, directory and flags do not come back: a save that was reached by preemption
    reads as one that was not. *)
Theorem C66_statistics_refuted : exists m d f m', stats_whole (performance_metrics m) /\ serialize m = Ok d /\ written show0 show0 d = Ok f /\ fst (deserialize f) = Ok m' /\
  (exists l, performance_metrics m = VStats l /\ In ("reached_preemption", VBool true) l /\ In ("step", VInt 5) l) /\ performance_metrics m' = VStats stat_fields.
Proof.
  exists (mkMeta VNone VNone (VStats (map (fun x => if String.eqb (fst x) "reached_preemption" then (fst x, VBool true) else if String.eqb (fst x) "step" then (fst x, VInt 5) else x) stat_fields)) VNone VNone VNone).
  do 3 eexists. split; [eexists; split; [reflexivity|vm_compute; reflexivity]|]. split; [vm_compute; reflexivity|]. split; [vm_compute; reflexivity|]. split; [vm_compute; reflexivity|].
  split; [|reflexivity]. eexists. split; [reflexivity|]. vm_compute. auto 10.
Qed.
Print Assumptions C66_statistics_refuted.

(** Validation lets through truth values as times, and anything that counts as false as metrics. *)
Theorem C66_validation_refuted : exists m d, serialize m = Ok d /\ init_timestamp_nsecs m = VBool true /\ metrics m = VStr "" /\
  get "init_timestamp_nsecs" d = VBool true /\ get "metrics" d = VDict [].
Proof. exists (mkMeta VNone (VStr "") VNone (VBool true) VNone VNone). eexists. split; [vm_compute; reflexivity|]. repeat split. Qed.
Print Assumptions C66_validation_refuted.

(** Validation looks only at the outermost keys of custom metadata: below, numbers as keys become
    strings, and then entries may be lost. *)
Theorem C66_nested_refuted : exists c m d f m', serialize m = Ok d /\ custom_metadata m = VDict [(KStr "a", VDict c)] /\ NoDup (map fst c) /\ List.length c = 2 /\
  written show0 show0 d = Ok f /\ fst (deserialize f) = Ok m' /\ custom_metadata m' = VDict [(KStr "a", VDict [(KStr "1", VStr "lost?")])].
Proof.
  exists [(KInt 1, VStr "kept?"); (KStr "1", VStr "lost?")]. exists (mkMeta VNone VNone VNone VNone VNone (VDict [(KStr "a", VDict [(KInt 1, VStr "kept?"); (KStr "1", VStr "lost?")])])). do 3 eexists.
  split; [vm_compute; reflexivity|]. split; [reflexivity|]. split; [cbn; constructor; [cbn; intuition discriminate|constructor; [cbn; tauto|constructor]]|]. split; [reflexivity|].
  split; [vm_compute; reflexivity|]. split; vm_compute; reflexivity.
Qed.
Print Assumptions C66_nested_refuted.
