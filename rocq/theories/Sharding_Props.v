(** C76: an array restored without a sharding gets the sharding that it was saved with. *)
From Coq Require Import List Bool Arith ZArith String Ascii Lia.
From Verif Require Import Base Sharding_Model Sharding_Spec Sharding_Proofs.
Import ListNotations.
Local Open Scope string_scope.
Local Open Scope list_scope.

(** ** Metadata and texts *)

(** The text of the metadata is read as the same metadata, but for tuples that became lists. *)
Theorem C76_text : forall s m, from_jax s = Some m -> exists m', from_string (to_string m) = Ok m' /\ same_meta m m'.
Proof. exact json_same. Qed.
Print Assumptions C76_text.

(** What is read with the same devices is the sharding, with the default memory kind: the same mesh with the same devices at the same places, the same types of axes and the same spec. *)
Theorem C76_round_trip : forall e s m, valid s -> told_apart e -> there e s -> from_jax s = Some m -> rbind (from_string (to_string m)) (to_jax e) = Ok (forget s).
Proof. exact round_trip. Qed.
Print Assumptions C76_round_trip.

(** A mesh with a device that is not there is refused. *)
Theorem C76_missing : forall e m spec mem md, valid (SNamed m spec mem) -> (exists d, In d (m_devices m) /\ forall d', In d' (e_devices e) -> d_id d' <> d_id d) -> from_jax (SNamed m spec mem) = Some md ->
  rbind (from_string (to_string md)) (to_jax e) = Err ValueError.
Proof. exact missing. Qed.
Print Assumptions C76_missing.

(** Whatever the devices are, what was written never makes get_sharding_or_none raise. *)
Theorem C76_never_raises : forall e s m, valid s -> from_jax s = Some m -> exists o, get_or_none e (to_string m) = Ok o.
Proof. exact never_raises. Qed.
Print Assumptions C76_never_raises.

(** It turns exactly the ValueErrors into no sharding; other errors are passed on *)
Theorem C76_or_none : forall e t, let r := rbind (from_string t) (to_jax e) in
  (forall s, get_or_none e t = Ok (Some s) <-> r = Ok s) /\ (get_or_none e t = Ok None <-> r = Err ValueError) /\ (forall k, get_or_none e t = Err k <-> r = Err k /\ k <> ValueError).
Proof.
  intros e t. unfold get_or_none. cbv zeta. destruct (rbind (from_string t) (to_jax e)) as [s|k].
  - split; [intros s'; split; congruence|]. split; [split; congruence|]. intros k. split; [discriminate|intros [H _]; discriminate].
  - split; [intros s; split; [destruct k; discriminate|discriminate]|]. split; [split; [destruct k; congruence|intros H; injection H as ->; reflexivity]|].
    intros k'. split; [destruct k; intros H; try discriminate; injection H as <-; split; congruence|]. intros [H N]. injection H as ->. destruct k'; congruence.
Qed.
Print Assumptions C76_or_none.
Example C76_or_none_ex : get_or_none (mkEnv [] 0) (Json (PDict [])) = Err KeyError /\ get_or_none (mkEnv [] 0) (Json (PDict [("sharding_type", PStr "Other")])) = Err NotImplementedError.
Proof. vm_compute. split; reflexivity. Qed.

(** The shardings of other classes can not be read *)
Theorem C76_classes : forall d s, s <> "NamedSharding" -> s <> "SingleDeviceSharding" -> from_string (Json (PDict (("sharding_type", PStr s) :: d))) = Err (if String.eqb s "PositionalSharding" then ValueError else NotImplementedError).
Proof.
  intros d s N1 N2. change (from_string (Json (PDict (("sharding_type", PStr s) :: d)))) with (if String.eqb s "NamedSharding" then read_named (("sharding_type", PStr s) :: d) else if String.eqb s "SingleDeviceSharding" then read_single (("sharding_type", PStr s) :: d) else if String.eqb s "PositionalSharding" then Err ValueError else Err NotImplementedError). rewrite (proj2 (String.eqb_neq s "NamedSharding") N1), (proj2 (String.eqb_neq s "SingleDeviceSharding") N2). destruct (String.eqb s "PositionalSharding"); reflexivity.
Qed.
Print Assumptions C76_classes.

(** Whatever metadata a sharding is made of, its mesh is proper, its devices are there, with the ids of the metadata in the order of the metadata, and its spec uses axes of the mesh at most once. *)
Theorem C76_made : forall e n s, to_jax e (MNamed n) = Ok s -> exists m spec, s = SNamed m spec None /\ proper m /\ m_names m = n_names n /\ m_shape m = n_shape n /\ NoDup (uses spec) /\
  (forall a, In a (uses spec) -> In a (m_names m)) /\ (forall d, In d (m_devices m) -> In d (e_devices e)) /\
  (forall x, n_mesh n = Some x -> map d_id (m_devices m) = flat x) /\ (forall t, n_types n = Some t -> m_types m = t) /\ List.length spec = List.length (n_spec n).
Proof. exact made. Qed.
Print Assumptions C76_made.

(** ** The file *)

(** Arrays with different names have different keys, and keys have no character that json pointers treat apart. *)
Theorem C76_keys : (forall a b, base64 a = base64 b -> a = b) /\ forall a, ~ occurs "/"%char (base64 a) /\ ~ occurs "~"%char (base64 a).
Proof. split; [exact base64_inj|]. intros a. now apply (base64_plain_n (String.length a)). Qed.
Print Assumptions C76_keys.

(** A key has the bits of the name in the order of the name, in groups of six, with less than six zeros after them; the alphabet is that of URLs and the rest up to a multiple of four is padding *)
Theorem C76_key_bits : forall s, exists z pad, (Nat.modulo (String.length (base64 s)) 4 = 0)%nat /\ (z < 6)%nat /\ (pad < 3)%nat /\
  exists chars, base64 s = (of_chars chars ++ of_chars (repeat "="%char pad))%string /\ Forall2 (fun c b => url_char c b) chars (sixes (bits s ++ repeat false z)) /\ Nat.modulo (List.length (bits s ++ repeat false z)) 6 = 0%nat.
Proof. exact base64_bits. Qed.
Print Assumptions C76_key_bits.
Example C76_key_bits_ex : bits "a" = [false; true; true; false; false; false; false; true] /\ base64 "a" = "YQ==".
Proof. vm_compute. split; reflexivity. Qed.

(** After writing, the text under a name is that of the sharding written last under the name; names without one are untouched; other hosts than the primary one write nothing. *)
Theorem C76_file : forall items f name,
  (forall s m, last_saved items name s -> from_jax s = Some m -> read_member name (write_shardings true items f) = to_string m) /\
  (forall p, (forall s, In (Some s, name) items -> from_jax s = None) -> read_member name (write_shardings p items f) = read_member name f) /\
  write_shardings false items f = f.
Proof. intros items f name. split; [intros s m; now apply write_read|split; [intros p; apply write_untouched|apply write_other]]. Qed.
Print Assumptions C76_file.

(** The metadata of a checkpoint are aligned with the names and are those of the shardings saved. *)
Theorem C76_metadata : forall f items names, (exists s name, In (Some s, name) items /\ from_jax s <> None) -> Forall (fun name => exists s, last_saved items name s) names ->
  exists l, metadata (write_shardings true items f) (map Some names) = Ok l /\
  Forall2 (fun name o => exists s m m', last_saved items name s /\ from_jax s = Some m /\ o = Some m' /\ same_meta m m') names l.
Proof. exact metadata_read. Qed.
Print Assumptions C76_metadata.

(** ** Restoring *)

(** Arrays restored without arguments get the shardings that they were saved with. *)
Theorem C76_restored : forall e items f names ss, told_apart e -> Forall2 (fun name s => last_saved items name s /\ valid s /\ there e s) names ss ->
  restore_shardings e (write_shardings true items f) (map (fun name => (Some name, RPlain)) names) = Ok (map forget ss).
Proof. exact restored. Qed.
Print Assumptions C76_restored.

(** Restoring never makes up a sharding: each array has one, from the mesh and axes given, else the sharding given, else the file. *)
Theorem C76_origin : forall e f items r, restore_shardings e f items = Ok r -> Forall2 (fun it s => origin e f (fst it) (snd it) s) items r.
Proof.
  intros e f items r H. apply restored_all in H. induction H as [|[name a] s items r H1 H2 IH]; constructor; [|exact IH]. cbn [fst snd] in *. clear - H1. unfold deserialize_sharding in H1.
  assert (F : forall a, a = RPlain \/ (exists m spec, (m = None \/ spec = None) /\ a = RArray m spec None) ->
    match f with None => Err ValueError | Some _ => match name with None => Err ValueError | Some name => match read_member name f with Empty => Ok None | t => get_or_none e t end end end = Ok (Some s) -> origin e f name a s).
  { intros b Hb Q. destruct f as [d|]; [|discriminate]. destruct name as [n|]; [|discriminate]. destruct (read_member n (Some d)) as [| |t] eqn:R; [discriminate|discriminate|].
    unfold get_or_none in Q. destruct (from_string (Json t)) as [md|x] eqn:J; cbn [rbind] in Q; [|destruct x; discriminate]. destruct (to_jax e md) as [s'|x] eqn:T; [|destruct x; discriminate]. injection Q as <-. eapply from_file; eauto. }
  destruct a as [[m|] [spec|] o|].
  - destruct (make_named m spec) as [s'|] eqn:M; [|discriminate]. cbn in H1. injection H1 as <-. apply make_named_ok in M. destruct M as [-> _]. constructor.
  - destruct o as [[s'|md]|]; [injection H1 as <-; constructor; auto| |apply F; [right; eauto|exact H1]]. destruct (to_jax e md) as [s'|] eqn:T; [|discriminate]. injection H1 as <-. constructor; auto.
  - destruct o as [[s'|md]|]; [injection H1 as <-; constructor; auto| |apply F; [right; eauto|exact H1]]. destruct (to_jax e md) as [s'|] eqn:T; [|discriminate]. injection H1 as <-. constructor; auto.
  - destruct o as [[s'|md]|]; [injection H1 as <-; constructor; auto| |apply F; [right; eauto|exact H1]]. destruct (to_jax e md) as [s'|] eqn:T; [|discriminate]. injection H1 as <-. constructor; auto.
  - apply F; auto.
Qed.
Print Assumptions C76_origin.

(** The standard handler, without a target or with one that has no shardings: each array is restored as a jax.Array with the sharding that it was saved with, fallback or not. *)
Theorem C76_standard : forall e fallback f items names ss, told_apart e -> NoDup names -> Forall2 (fun name s => last_saved items name s /\ valid s /\ there e s) names ss ->
  exists l, metadata (write_shardings true items f) (map Some names) = Ok l /\
  args_without_target e fallback (combine names (map LArray l)) = Ok (map (fun s => GJax (Some (inl (forget s)))) ss) /\
  args_for_target e fallback (combine names (map LArray l)) (map (fun name => (name, TStruct None)) names) = Ok (map (fun s => GJax (Some (inl (forget s)))) ss).
Proof.
  intros e fb f items names ss U D H. exists (map md ss). split; [|split].
  - apply metadata_exact. induction H as [|name s names ss [L _] H IH]; constructor; [exact L|]. inversion D; auto.
  - now apply (without_target e fb items).
  - now apply (with_target e fb items).
Qed.
Print Assumptions C76_standard.

(** The sharding of the target takes precedence, whatever was saved. *)
Theorem C76_target : forall e fallback saved path s, for_target e fallback saved path (TStruct (Some s)) = Ok (Some (inl s)) /\ for_target e fallback saved path (TJax s) = Ok (Some (inl s)) /\
  forall f name spec, deserialize_sharding e f name (RArray None spec (Some (inl s))) = Ok (Some s).
Proof. auto. Qed.
Print Assumptions C76_target.

(** The fallback is used for named shardings with devices that are not there; without a fallback they are refused. *)
Theorem C76_fallback : forall e fallback m spec mem md m', valid (SNamed m spec mem) -> (exists d, In d (m_devices m) /\ forall d', In d' (e_devices e) -> d_id d' <> d_id d) -> from_jax (SNamed m spec mem) = Some md ->
  from_string (to_string md) = Ok m' -> from_leaf e fallback (LArray (Some m')) = match fallback with Some s => Ok (Some (inl s)) | None => Err ValueError end.
Proof. exact leaf_moved. Qed.
Print Assumptions C76_fallback.

(** ** Shardings made for given devices *)

(** The sharding that is made for given devices always exists, is over all of these devices, and divides each sharded dimension evenly; no axis is used twice. *)
Theorem C76_maximal : forall all ds shape order, ds <> [] -> Nat.log2 (List.length ds) < 157 -> NoDup order ->
  exists m spec, maximal all ds shape order = Ok (SNamed m spec None) /\ proper m /\ m_devices m = ds /\ NoDup (uses spec) /\ (forall a, In a (uses spec) -> In a (m_names m)) /\
  forall i a, nth_error spec i = Some (EAxis a) -> exists g, axis_size m a g /\ Nat.divide g (nth i shape 0).
Proof. exact maximal_ok. Qed.
Print Assumptions C76_maximal.

(** ** Examples *)

(** Eight devices of two processes. *)
Definition devs : list device := map (fun i => mkDevice (Z.of_nat i) ("TFRT_CPU_" ++ String (ascii_of_nat (48 + i)) "") (i / 4)) (seq 0 8).
Definition here : env := mkEnv devs 0.
(** A mesh of four devices in another order than their ids. *)
Definition mesh4 : mesh := mkMesh ["x"; "y"] [2; 2] [Auto; Explicit] (map (fun i => nth i devs (mkDevice 0 "" 0)) [3; 1; 0; 6]).
Definition sh1 : sharding := SNamed mesh4 [EAxis "y"; ENone; EAxis "x"] None.
Definition sh2 : sharding := SNamed mesh4 [ENone; EAxes ["x"; "y"]] (Some "pinned_host").
Definition sh3 : sharding := SSingle (mkDevice 2 "TFRT_CPU_2" 0) None.

Lemma here_told_apart : told_apart here.
Proof.
  split.
  - cbn. repeat constructor; cbn; intuition discriminate.
  - intros d d' H H' P P' N. cbn in H, H'.
    repeat (destruct H as [<-|H]; [repeat (destruct H' as [<-|H']; [first [reflexivity|discriminate N|discriminate P|discriminate P']|]); contradiction|]); contradiction.
Qed.

Lemma mesh4_proper : proper mesh4.
Proof. unfold proper. cbn. repeat split. repeat constructor; cbn; intuition discriminate. Qed.

Lemma sh1_valid : valid sh1.
Proof. split; [exact mesh4_proper|]. split; [|split]; cbn; [repeat constructor; cbn; intuition discriminate|intuition|intuition discriminate]. Qed.

Lemma sh2_valid : valid sh2.
Proof. split; [exact mesh4_proper|]. split; [|split]; cbn; [repeat constructor; cbn; intuition discriminate|intuition|]. intros l [H|[H|[]]]; [discriminate|]. injection H as <-. discriminate. Qed.

(** The three are written and read. *)
Definition saved_items : list (option sharding * string) := [(Some sh1, "a"); (None, "s"); (Some sh2, "a.b"); (Some sh3, "c/d~e"); (Some (SOther 0), "o")].

Example C76_example_restored : told_apart here /\ Forall2 (fun name s => last_saved saved_items name s /\ valid s /\ there here s) ["c/d~e"; "a"; "a.b"] [sh3; sh1; sh2] /\
  restore_shardings here (write_shardings true saved_items None) (map (fun name => (Some name, RPlain)) ["c/d~e"; "a"; "a.b"]) = Ok [sh3; sh1; forget sh2] /\
  restore_shardings here (write_shardings true saved_items None) [(Some "a", RPlain); (Some "o", RPlain)] = Err ValueError.
Proof.
  split; [exact here_told_apart|]. split; [|split; vm_compute; reflexivity].
  assert (T : forall s, In s [sh1; sh2] -> there here s). { intros s [<-|[<-|[]]] d Hd; cbn in Hd |- *; intuition. }
  constructor; [split; [|split; [exact I|split; [cbn; auto|reflexivity]]]|constructor; [split; [|split; [exact sh1_valid|apply T; cbn; auto]]|constructor; [split; [|split; [exact sh2_valid|apply T; cbn; auto]]|constructor]]].
  - do 3 apply last_later. apply last_here; [discriminate|]. intros s [H|[]]. discriminate.
  - apply last_here; [discriminate|]. intros s [H|[H|[H|[H|[]]]]]; discriminate.
  - do 2 apply last_later. apply last_here; [discriminate|]. intros s [H|[H|[]]]; discriminate.
Qed.

(** With other devices: half of them are gone. *)
Example C76_example_moved : exists m', from_string (to_string (MNamed (mkNamed [2; 2] ["x"; "y"] [PStr "y"; PNone; PStr "x"] (Some [Auto; Explicit]) (Some (nested [2; 2] [3; 1; 0; 6]%Z))))) = Ok m' /\
  from_leaf (mkEnv (firstn 4 devs) 0) (Some sh3) (LArray (Some m')) = Ok (Some (inl sh3)) /\ from_leaf (mkEnv (firstn 4 devs) 0) None (LArray (Some m')) = Err ValueError.
Proof. eexists. split; [vm_compute; reflexivity|]. split; vm_compute; reflexivity. Qed.

Example C76_example_keys : base64 "params.layer_0" = "cGFyYW1zLmxheWVyXzA=" /\ base64 "a?>" = "YT8-" /\ base64 "ab" = "YWI=" /\ base64 "abc" = "YWJj".
Proof. vm_compute. repeat split. Qed.

Example C76_example_maximal : maximal 8 devs [4; 16; 6] [1; 2; 0] = Ok (SNamed (mkMesh ["a"] [8] [Auto] devs) [ENone; EAxis "a"; ENone] None) /\
  maximal 8 devs [4; 12] [1; 0] = Ok (SNamed (mkMesh ["a"; "b"] [4; 2] [Auto; Auto] devs) [EAxis "b"; EAxis "a"] None).
Proof. split; vm_compute; reflexivity. Qed.

(** ** Refuted *)

(** The memory kind is not in the metadata: an array saved from pinned host memory is restored in device memory (SM l.193-203, l.287-291). *)
Theorem C76_memory_refuted : exists e s m, valid s /\ told_apart e /\ there e s /\ from_jax s = Some m /\ rbind (from_string (to_string m)) (to_jax e) <> Ok s.
Proof.
  exists here, sh2. eexists. split; [exact sh2_valid|]. split; [exact here_told_apart|]. split; [intros d Hd; cbn in Hd |- *; intuition|]. split; [reflexivity|].
  assert (F : rbind (from_string (to_string (MNamed (mkNamed [2; 2] ["x"; "y"] [PNone; PTuple [PStr "x"; PStr "y"]] (Some [Auto; Explicit]) (Some (nested [2; 2] [3; 1; 0; 6]%Z)))))) (to_jax here) = Ok (forget sh2)) by (vm_compute; reflexivity).
  intros H. assert (G : Ok (forget sh2) = Ok sh2) by (rewrite <- F; exact H). discriminate.
Qed.
Print Assumptions C76_memory_refuted.

(** Metadata read from a file are not equal to the metadata written when a dimension is sharded over several axes: the spec has a list where it had a tuple (SM l.234), so that comparing the two reports a difference. *)
Theorem C76_equal_refuted : exists s m m', valid s /\ from_jax s = Some m /\ from_string (to_string m) = Ok m' /\ m' <> m.
Proof. exists sh2. eexists. eexists. split; [exact sh2_valid|]. split; [reflexivity|]. split; [vm_compute; reflexivity|]. intros H. discriminate. Qed.
Print Assumptions C76_equal_refuted.

(** A single-device sharding is looked for among the devices of the process (SM l.297): the other processes can not restore the array without giving a sharding although the device is there. *)
Theorem C76_process_refuted : exists e d m, told_apart e /\ In d (e_devices e) /\ from_jax (SSingle d None) = Some m /\ rbind (from_string (to_string m)) (to_jax e) = Err ValueError.
Proof.
  exists (mkEnv devs 1), (mkDevice 2 "TFRT_CPU_2" 0). eexists. split; [|split; [cbn; auto|split; [reflexivity|vm_compute; reflexivity]]]. split.
  - cbn. repeat constructor; cbn; intuition discriminate.
  - intros d d' H H' P P' N. cbn in H, H'.
    repeat (destruct H as [<-|H]; [repeat (destruct H' as [<-|H']; [first [reflexivity|discriminate N|discriminate P|discriminate P']|]); contradiction|]); contradiction.
Qed.
Print Assumptions C76_process_refuted.

(** The fallback does not help with texts that can not be read (JH l.1404, outside of SH l.355-364): one array with a PositionalSharding of an older version, or with a type of axes of a newer version, makes the metadata of the whole checkpoint fail, and so restoring with the standard handler,
    although all other arrays are fine. *)
Theorem C76_unreadable_refuted : exists t t', t <> Empty /\ t' <> Empty /\
  metadata (put (base64 "old") t (write_shardings true saved_items None)) (map Some ["a"; "old"]) = Err ValueError /\
  metadata (put (base64 "new") t' (write_shardings true saved_items None)) (map Some ["a"; "new"]) = Err KeyError.
Proof.
  exists (Json (PDict [("sharding_type", PStr "PositionalSharding"); ("shape", PList [PInt 2])])).
  exists (Json (PDict [("sharding_type", PStr "NamedSharding"); ("shape", PList [PInt 1]); ("axis_names", PList [PStr "x"]); ("axis_types", PList [PStr "AxisType.Collective"]); ("partition_spec", PList [])])).
  split; [discriminate|]. split; [discriminate|]. split; vm_compute; reflexivity.
Qed.
Print Assumptions C76_unreadable_refuted.

(** A jax.Array with a sharding of another class is written without a sharding (SM l.342-347) and comes back from the standard handler as numpy without an error, and without a target even with a fallback sharding given (CU l.528-535). *)
Theorem C76_other_refuted : exists e fallback items name s, last_saved items "a" sh1 /\ In (Some s, name) items /\ metadata (write_shardings true items None) [Some name] = Ok [None] /\
  args_without_target e (Some fallback) [(name, LArray None)] = Ok [GNumpy].
Proof.
  exists here, sh3, saved_items, "o", (SOther 0). split; [apply last_here; [discriminate|]; intros s [H|[H|[H|[H|[]]]]]; discriminate|]. split; [cbn; intuition|]. split; vm_compute; reflexivity.
Qed.
Print Assumptions C76_other_refuted.

(** construct_maximal_shardings is not maximal: (9, 4) over 8 devices is not sharded at all although the second dimension divides by 4: a dimension that is smaller than the number of devices left is skipped (AR l.73). *)
Theorem C76_not_maximal_refuted : exists ds shape order, List.length ds = 8 /\ shape = [9; 4] /\ order = [0; 1] /\ exists m, maximal 8 ds shape order = Ok (SNamed m [ENone; ENone] None).
Proof. exists devs, [9; 4], [0; 1]. split; [reflexivity|]. split; [reflexivity|]. split; [reflexivity|]. eexists. vm_compute. reflexivity. Qed.
Print Assumptions C76_not_maximal_refuted.

(** With devices given, the size of the array is still compared with the number of all devices (AR l.55): (4,) over 2 of 8 devices is replicated. *)
Theorem C76_subset_refuted : exists ds, List.length ds = 2 /\ exists m, maximal 8 ds [4] [0] = Ok (SNamed m [] None).
Proof. exists (firstn 2 devs). split; [reflexivity|]. eexists. vm_compute. reflexivity. Qed.
Print Assumptions C76_subset_refuted.
