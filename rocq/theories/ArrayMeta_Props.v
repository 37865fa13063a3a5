(** C63: the metadata that processes store about the arrays they write. *)
From Coq Require Import List Bool Arith NArith ZArith String Ascii Permutation Lia.
From Verif Require Import Base Tree_Model ArrayMeta_Model ArrayMeta_Spec ArrayMeta_Proofs.
Import ListNotations.
Open Scope string_scope.

(** ** Writing and reading text *)

(** Array metadata is read as it was written if and only if no object in an extension has the
    key ["array_metadata"]. *)
Theorem C63_round_trip : forall ms : list am, Forall (fun a => pure (a_ext a)) ms ->
  ((exists j, serialize (map attrs ms) = Ok j /\ deserialize j = Ok (map attrs ms)) <->
   Forall (fun a => ~ reserved (a_ext a)) ms).
Proof.
  intros ms H. rewrite round_trip.
  - rewrite !Forall_forall. split; [intros R a I; apply (R (attrs a)), in_map, I|]. intros R m I. apply in_map_iff in I. destruct I as (a & <- & I). apply R, I.
  - rewrite Forall_forall in *. intros m I. apply in_map_iff in I. destruct I as (a & <- & I). apply H, I.
Qed.
Print Assumptions C63_round_trip.

Definition ex_am : am :=
  mkAM "params.w" [8; 4] "float32" [4; 4] [2; 4] true false (JObj [("random_key_impl", JStr "fry"); ("x", JList [JNum 3; JNull])]).

Example C63_round_trip_ex : match serialize (map attrs [ex_am]) with Ok j => deserialize j = Ok (map attrs [ex_am]) | Err _ => False end.
Proof. vm_compute. reflexivity. Qed.

(** What is read has the names, write shapes, chunk shapes and extensions of the arrays, in their order. *)
Theorem C63_fields : forall ms : list am, Forall (fun a => pure (a_ext a)) ms -> Forall (fun a => ~ reserved (a_ext a)) ms ->
  exists j l, serialize (map attrs ms) = Ok j /\ deserialize j = Ok l /\ map s_name l = map a_name ms /\ map s_ws l = map a_ws ms /\ map s_cs l = map a_cs ms /\ map s_ext l = map a_ext ms.
Proof.
  intros ms P R. apply (C63_round_trip ms P) in R as (j & S & D). exists j, (map attrs ms). rewrite !map_map. cbn. auto 7.
Qed.
Print Assumptions C63_fields.

Example C63_fields_ex : match serialize (map attrs [ex_am]) with Ok j => rmap (map s_ws) (deserialize j) = Ok [[4; 4]] /\ rmap (map s_cs) (deserialize j) = Ok [[2; 4]] | Err _ => False end.
Proof. vm_compute. auto. Qed.

(** A file without the list has no array metadata; a file that is no object is refused. *)
Theorem C63_no_list : (forall k s, k <> "array_metadatas" -> k <> "array_metadata" -> deserialize (JObj [(k, JStr s)]) = Ok []) /\ forall s, deserialize (JStr s) = Err AttributeError.
Proof.
  split; [|reflexivity]. intros k s N M. unfold deserialize. rewrite loads_JObj. cbn [loads_obj loads rbind rmap]. unfold from_dict.
  assert (E : forall n, k <> n -> dget String.eqb n [(k, JStr s)] = None) by (intros n X; unfold dget; destruct (String.eqb_spec n k) as [->|_]; [congruence|reflexivity]).
  rewrite (E _ M). cbn [rbind]. rewrite (E _ N). reflexivity.
Qed.
Print Assumptions C63_no_list.

(** The hook that makes array metadata of JSON objects is called for all objects, also for those
    of the extensions: an extension with the key ["array_metadata"] is written, and then makes
    the file unreadable (here KeyError), also for the next batch of the same process. *)
Theorem C63_reserved_key_refuted : exists a : am, pure (a_ext a) /\
  (exists f, write None 0 [attrs a] None = Ok f /\ read_one (Some f) 0 = Err KeyError /\
             write None 0 [attrs ex_am] (Some f) = Err KeyError).
Proof.
  exists (mkAM "w" [1] "int32" [1] [1] true false (JObj [("array_metadata", JObj [("version", JNum 1)])])). split.
  - apply plain_pure. reflexivity.
  - eexists. split; [vm_compute; reflexivity|]. split; vm_compute; reflexivity.
Qed.
Print Assumptions C63_reserved_key_refuted.

(** ** Batches *)

(** Every process finds in its file all that it wrote, batch after batch, whatever the other
    processes write in between; the primary process has to come first. *)
Theorem C63_writes : forall prim ws, Forall (fun x => Forall storable (snd x)) ws ->
  (ws = [] \/ starts_primary prim ws <-> exists d, run_writes prim ws None = Ok d) /\
  (forall d p, run_writes prim ws None = Ok d ->
     (In p (map fst ws) -> read_one d p = Ok (Some (by_process p ws))) /\
     (~ In p (map fst ws) -> read_one d p = Ok None)).
Proof.
  intros prim ws H. split.
  - split.
    + intros S. destruct ws as [|x ws]; [exists None; reflexivity|]. destruct S as [S|S]; [discriminate|].
      destruct (run_all prim (x :: ws) H S) as (f & R & _); [discriminate|]. eauto.
    + intros [d R]. destruct ws as [|[p ms] ws]; [auto|]. right. intros q ms' rest [= <- <- <-]. destruct prim as [h|]; [|auto].
      destruct (N.eq_dec h p) as [->|N]; [auto|]. rewrite run_refused in R; congruence.
  - intros d p R. eapply read_one_run; eauto.
Qed.
Print Assumptions C63_writes.

Definition ex_entry (n impl : string) : sam := mkS n [4; 4] [2; 4] (if impl =? "" then JNull else JObj [(RANDOM_KEY_IMPL, JStr impl)]).
Definition ex_writes : list (N * list sam) :=
  [(0, [ex_entry "a" ""]); (11, [ex_entry "k" "fry"; ex_entry "a" ""]); (0, [ex_entry "k" "fry"]); (2, [ex_entry "a" ""; ex_entry "k" "fry"])]%N.
Definition ex_dir : files := match run_writes (Some 0%N) ex_writes None with Ok (Some f) => f | _ => [] end.

Example C63_writes_ex : read_one (Some ex_dir) 0 = Ok (Some [ex_entry "a" ""; ex_entry "k" "fry"]) /\ read_one (Some ex_dir) 1 = Ok None /\
  map fst ex_dir = ["process_0"; "process_11"; "process_2"].
Proof. vm_compute. auto. Qed.

(** Reading all processes finds every process that wrote, with all it wrote, in whatever order
    the files are listed and whatever other files there are. *)
Theorem C63_read_all : forall prim ws f listing, Forall (fun x => Forall storable (snd x)) ws ->
  run_writes prim ws None = Ok (Some f) -> lists listing f ->
  exists r, read_all listing = Ok (Some r) /\ NoDup (map fst r) /\
    forall p l, In (p, l) r <-> In p (map fst ws) /\ l = by_process p ws.
Proof. exact read_all_run. Qed.
Print Assumptions C63_read_all.

Lemma ex_perm : Permutation (rev ex_dir) ex_dir.
Proof. apply Permutation_sym, Permutation_rev. Qed.

Example C63_read_all_ex : lists (("README", JNull) :: rev ex_dir) ex_dir /\
  match read_all (("README", JNull) :: rev ex_dir) with Ok (Some r) => map fst r = [2; 11; 0]%N | _ => False end.
Proof.
  split; [|vm_compute; reflexivity]. exists [("README", JNull)]. split.
  - eapply Permutation_trans; [apply perm_skip, ex_perm|]. apply Permutation_cons_append.
  - intros n j [[= <- _]|[]]. reflexivity.
Qed.

(** A file whose name starts like that of a process, such as one left by another tool, makes
    all metadata unreadable, so that nothing can be restored from the checkpoint. *)
Theorem C63_stray_file_refuted : exists f stray, read_one (Some f) 0 = Ok (Some [ex_entry "k" "fry"]) /\
  read_all f = Ok (Some [(0%N, [ex_entry "k" "fry"])]) /\
  read_all (f ++ [stray]) = Err ValueError /\ restore (f ++ [stray]) ["k"] [7] = Err ValueError.
Proof.
  exists [("process_0", doc [ex_entry "k" "fry"])], ("process_0.bak", doc []). repeat split; vm_compute; reflexivity.
Qed.
Print Assumptions C63_stray_file_refuted.

(** ** The check across processes *)

(** The check accepts exactly what is consistent, and otherwise refuses with ValueError. *)
Theorem C63_check : forall pc d, NoDup (map fst d) -> (forall p l, In (p, l) d -> Forall typed l) -> d <> [] ->
  (validate_all_array_metadatas pc d = Ok tt <-> consistent pc d) /\
  (~ consistent pc d -> validate_all_array_metadatas pc d = Err ValueError).
Proof.
  intros pc d N T NE. assert (E := validate_exact pc d N T NE). split; auto. intros C.
  destruct (validate_all_array_metadatas pc d) as [[]|e] eqn:V; [tauto|]. f_equal. eapply validate_err; eauto.
Qed.
Print Assumptions C63_check.

Example C63_check_ex :
  validate_all_array_metadatas 2 [(0, [ex_entry "a" ""; ex_entry "k" "fry"]); (1, [ex_entry "k" "fry"; ex_entry "a" ""])]%N = Ok tt /\
  validate_all_array_metadatas 2 [(0, [ex_entry "a" ""; ex_entry "k" "fry"]); (1, [ex_entry "k" "rbg"; ex_entry "a" ""])]%N = Err ValueError /\
  validate_all_array_metadatas 2 [(0, [ex_entry "a" ""; ex_entry "k" "fry"]); (1, [ex_entry "k" ""; ex_entry "a" ""])]%N = Err ValueError /\
  validate_all_array_metadatas 2 [(0, [ex_entry "a" ""])]%N = Err ValueError.
Proof. repeat split; vm_compute; reflexivity. Qed.

(** Which process is the reference does not matter. *)
Theorem C63_check_order : forall pc d d', NoDup (map fst d) -> (forall p l, In (p, l) d -> Forall typed l) -> Permutation d d' ->
  validate_all_array_metadatas pc d = validate_all_array_metadatas pc d'.
Proof.
  intros pc d d' N T P. destruct d as [|x d0] eqn:E; [apply Permutation_nil in P; subst; reflexivity|]. rewrite <- E in *. assert (NE : d <> []) by (subst; discriminate).
  assert (NE' : d' <> []) by (intros ->; apply Permutation_sym, Permutation_nil in P; congruence).
  assert (N' : NoDup (map fst d')) by (eapply Permutation_NoDup; [apply Permutation_map; exact P|auto]).
  assert (T' : forall p l, In (p, l) d' -> Forall typed l) by (intros p l I; apply (T p); apply (Permutation_in _ (Permutation_sym P)); auto).
  assert (A := validate_exact pc d N T NE). assert (B := validate_exact pc d' N' T' NE').
  assert (C : consistent pc d <-> consistent pc d') by (split; apply consistent_perm; [|apply Permutation_sym]; auto).
  destruct (validate_all_array_metadatas pc d) as [[]|e] eqn:V, (validate_all_array_metadatas pc d') as [[]|e'] eqn:V'; auto.
  - enough (Err e' = Ok tt) by discriminate. tauto.
  - enough (Err e = Ok tt) by discriminate. tauto.
  - apply validate_err in V; auto. apply validate_err in V'; auto. congruence.
Qed.
Print Assumptions C63_check_order.

Example C63_check_order_ex :
  validate_all_array_metadatas 3 [(0, [ex_entry "a" ""]); (1, [ex_entry "a" "fry"]); (2, [ex_entry "a" "fry"])]%N = Err ValueError /\
  validate_all_array_metadatas 3 [(2, [ex_entry "a" "fry"]); (1, [ex_entry "a" "fry"]); (0, [ex_entry "a" ""])]%N = Err ValueError.
Proof. split; vm_compute; reflexivity. Qed.

(** Finalization on the primary process accepts exactly if all processes that wrote wrote
    something and the same. *)
Theorem C63_finalize : forall h ws f pc listing, Forall (fun x => Forall storable (snd x)) ws ->
  run_writes (Some h) ws None = Ok (Some f) -> lists listing f ->
  (finalize (Some h) h pc listing = Ok tt <->
     (forall p, In p (map fst ws) -> by_process p ws <> []) /\
     (forall p q, In p (map fst ws) -> In q (map fst ws) -> same_metadata (by_process p ws) (by_process q ws)) /\
     ((forall p q, In p (map fst ws) -> In q (map fst ws) -> p = q) -> pc = 1%N)).
Proof. exact finalize_exact. Qed.
Print Assumptions C63_finalize.

(** A checkpoint without array metadata is finalized *)
Theorem C63_finalize_none : forall p me pc listing, (forall n j, In (n, j) listing -> prefix file_prefix n = false) -> finalize p me pc listing = Ok tt.
Proof.
  intros p me pc listing H. unfold finalize. destruct p as [h|]; [|reflexivity]. destruct (is_primary_host (Some h) me); [|reflexivity]. unfold validate_listing, read_all.
  assert (E : filter (fun x => prefix file_prefix (fst x)) listing = []).
  { induction listing as [|[n j] l IH]; [reflexivity|]. cbn [filter fst]. rewrite (H n j (or_introl eq_refl)). apply IH. intros n' j' I. exact (H n' j' (or_intror I)). }
  rewrite E. reflexivity.
Qed.
Print Assumptions C63_finalize_none.

Example C63_finalize_ex : finalize (Some 0%N) 0 12 (rev ex_dir) = Ok tt /\
  match run_writes (Some 0%N) (ex_writes ++ [(2%N, [ex_entry "k" "fry"])])%list None with
  | Ok (Some f) => finalize (Some 0%N) 0 12 f = Err ValueError
  | _ => False
  end.
Proof. split; vm_compute; reflexivity. Qed.

(** The number of processes is looked at only if one single file is found: with three processes,
    of which one wrote no file, the check accepts. *)
Theorem C63_missing_process_refuted : exists d : dict N (list sam), NoDup (map fst d) /\
  validate_all_array_metadatas 3 d = Ok tt /\ ~ In 2%N (map fst d).
Proof.
  exists [(0, [ex_entry "a" ""]); (1, [ex_entry "a" ""])]%N. split; [|split; [vm_compute; reflexivity|]].
  - cbn. constructor; [intros [A|[]]; discriminate|]. constructor; [intros []|constructor].
  - cbn. intros [A|[A|[]]]; discriminate.
Qed.
Print Assumptions C63_missing_process_refuted.

(** Of the extensions only the implementation of random keys is compared, contrary to the
    comment in the code that the extensions are checked to be the same. *)
Theorem C63_extension_refuted : exists a b : sam, typed a /\ typed b /\ s_name a = s_name b /\ s_ext a <> s_ext b /\
  validate_all_array_metadatas 2 [(0, [a]); (1, [b])]%N = Ok tt.
Proof.
  exists (mkS "a" [4] [2] (JObj [("layout", JStr "x")])), (mkS "a" [4] [2] (JObj [("layout", JStr "y")])).
  split; [right; eexists; reflexivity|]. split; [right; eexists; reflexivity|]. split; [reflexivity|]. split; [discriminate|vm_compute; reflexivity].
Qed.
Print Assumptions C63_extension_refuted.

(** If a process stored an array twice only the last entry is compared: the number of entries is
    that of all, so that [x, x, y] and [x, y, y] are accepted though the first entry for [x]
    has another shape than all others. *)
Theorem C63_duplicates_refuted : exists l l' : list sam,
  validate_all_array_metadatas 2 [(0, l); (1, l')]%N = Ok tt /\
  exists m, In m l /\ forall m', In m' l' -> s_name m' = s_name m -> s_ws m' <> s_ws m.
Proof.
  exists [mkS "x" [9] [9] JNull; mkS "x" [4] [2] JNull; mkS "y" [4] [2] JNull], [mkS "x" [4] [2] JNull; mkS "y" [1] [1] JNull; mkS "y" [4] [2] JNull].
  split; [vm_compute; reflexivity|]. exists (mkS "x" [9] [9] JNull). split; [left; auto|]. intros m' [<-|[<-|[<-|[]]]] E; cbn in *; discriminate.
Qed.
Print Assumptions C63_duplicates_refuted.

(** ** Random keys *)

(** The batches of a save contain every array once; arrays copied at once are the first batch,
    the prioritized ones come before the others; only an unknown priority is refused. *)
Theorem C63_batches : forall A limited prio split (ps : list A), (forall l, List.concat (split l) = l) ->
  ((exists e, plan limited prio split ps = Err e) <-> limited = true /\ exists x, In x ps /\ prio x = UNKNOWN) /\
  (forall batches, plan limited prio split ps = Ok batches -> Permutation (List.concat batches) ps /\
    (limited = true -> exists a b c, List.concat batches = (a ++ b ++ c)%list /\
      (forall x, In x a <-> In x ps /\ prio x = SYNCHRONOUS) /\
      (forall x, In x b <-> In x ps /\ prio x = ASYNCHRONOUS_PRIORITIZED) /\
      (forall x, In x c <-> In x ps /\ prio x = ASYNCHRONOUS_DEPRIORITIZED) /\
      (a <> [] -> exists rest, batches = a :: rest))).
Proof.
  intros A limited prio split ps S. split; [apply plan_err|]. intros batches P. split; [eapply plan_perm; eauto|]. intros ->. eapply plan_order; eauto.
Qed.
Print Assumptions C63_batches.

Definition ex_prio (n : nat) : priority :=
  match n with 0 => ASYNCHRONOUS_DEPRIORITIZED | 1 => SYNCHRONOUS | 2 => ASYNCHRONOUS_PRIORITIZED | 3 => SYNCHRONOUS | _ => UNKNOWN end.

Example C63_batches_ex : plan true ex_prio (map (fun x => [x])) [0; 1; 2; 3] = Ok [[1; 3]; [2]; [0]] /\
  plan true ex_prio (map (fun x => [x])) [0; 4] = Err ValueError /\ plan false ex_prio (map (fun x => [x])) [0; 4] = Ok [[0; 4]].
Proof. repeat split. Qed.

(** Random keys are restored as random keys of the same implementation and plain arrays as plain
    arrays, whatever batches the processes made, in whatever order they wrote them, and
    whichever process's file is listed first. *)
Theorem C63_keys : forall D prim ws f listing (ps : list (param D)),
  (forall q, In q (map fst ws) -> exists ps', saved_by ws q ps' /\ Permutation (values ps') (values ps)) ->
  run_writes prim ws None = Ok (Some f) -> lists listing f -> NoDup (map p_name ps) -> named_impls ps ->
  restore listing (map p_name ps) (map (fun p => data_of (p_value p)) ps) = Ok (map p_value ps).
Proof.
  intros D prim ws f listing ps S R L N NI.
  assert (H : Forall (fun x => Forall storable (snd x)) ws) by (apply (saved_storable (D := D)); intros q I; destruct (S q I) as (ps' & X & _); eauto).
  eapply restore_keys; eauto.
Qed.
Print Assumptions C63_keys.

Definition ex_params : list (param nat) := [mkP "a" (Plain 5) [4; 4] [2; 4]; mkP "k" (Key "fry" 7) [4; 4] [2; 4]].

Example C63_keys_ex :
  (forall q, In q (map fst ex_writes) -> exists ps', saved_by ex_writes q ps' /\ Permutation (values ps') (values ex_params)) /\
  restore (rev ex_dir) ["a"; "k"] [5; 7] = Ok [Plain 5; Key "fry" 7].
Proof.
  split; [|vm_compute; reflexivity]. intros q [<-|[<-|[<-|[<-|[]]]]].
  - exists ex_params. split; [|apply Permutation_refl].
    exists true, (fun p => match p_value p with Plain _ => SYNCHRONOUS | _ => ASYNCHRONOUS_DEPRIORITIZED end), (fun l => map (fun x => [x]) l), (map (fun p => [p]) ex_params).
    split; [|split; vm_compute; reflexivity]. intros l. induction l as [|x l IH]; [reflexivity|]. cbn. f_equal. exact IH.
  - exists (rev ex_params). split; [|apply perm_swap].
    exists false, (fun _ => UNKNOWN), (fun l => [l]), [rev ex_params]. split; [intros l; cbn; apply app_nil_r|]. split; vm_compute; reflexivity.
  - exists ex_params. split; [|apply Permutation_refl].
    exists true, (fun p => match p_value p with Plain _ => SYNCHRONOUS | _ => ASYNCHRONOUS_DEPRIORITIZED end), (fun l => map (fun x => [x]) l), (map (fun p => [p]) ex_params).
    split; [|split; vm_compute; reflexivity]. intros l. induction l as [|x l IH]; [reflexivity|]. cbn. f_equal. exact IH.
  - exists ex_params. split; [|apply Permutation_refl].
    exists false, (fun _ => UNKNOWN), (fun l => [l]), [ex_params]. split; [intros l; cbn; apply app_nil_r|]. split; vm_compute; reflexivity.
Qed.

(** Of whatever metadata was accepted when the checkpoint was finalized, arrays are restored in
    the same way whichever process's file is listed first. *)
Theorem C63_restore_order : forall D h ws f pc l0 l1 l2 names (vs : list D), Forall (fun x => Forall storable (snd x)) ws ->
  run_writes (Some h) ws None = Ok (Some f) -> lists l0 f -> lists l1 f -> lists l2 f ->
  finalize (Some h) h pc l0 = Ok tt -> restore l1 names vs = restore l2 names vs.
Proof. intros D h ws f pc l0 l1 l2 names vs. apply restore_order. Qed.
Print Assumptions C63_restore_order.

Example C63_restore_order_ex : finalize (Some 0%N) 0 12 ex_dir = Ok tt /\ restore ex_dir ["k"; "b"] [7; 8] = Ok [Key "fry" 7; Plain 8] /\
  restore (rev ex_dir) ["k"; "b"] [7; 8] = Ok [Key "fry" 7; Plain 8].
Proof. repeat split; vm_compute; reflexivity. Qed.

(** If all hosts are primary nothing is checked, and what is restored depends on the order in
    which the file system lists the files. *)
Theorem C63_unchecked_refuted : exists ws f, Forall (fun x => Forall storable (snd x)) ws /\ run_writes None ws None = Ok (Some f) /\
  finalize None 0 2 f = Ok tt /\ restore f ["k"] [7] = Ok [Key "fry" 7] /\ restore (rev f) ["k"] [7] = Ok [Key "rbg" 7].
Proof.
  exists [(0, [ex_entry "k" "fry"]); (1, [ex_entry "k" "rbg"])]%N. eexists. split.
  - assert (S : forall i, i <> "" -> storable (ex_entry "k" i)).
    { intros i N. assert (E : ex_entry "k" i = metadata_of (ext_of [mkP "k" (Key i 7) [4; 4] [2; 4]]) (mkP "k" (Key i 7) [4; 4] [2; 4])).
      { unfold ex_entry. destruct (String.eqb_spec i ""); [congruence|reflexivity]. }
      rewrite E. apply metadata_storable. }
    constructor; [constructor; [apply S; discriminate|constructor]|]. constructor; [constructor; [apply S; discriminate|constructor]|constructor].
  - split; [vm_compute; reflexivity|]. repeat split; vm_compute; reflexivity.
Qed.
Print Assumptions C63_unchecked_refuted.

(** ** Write shapes *)

(** The primary process adds to every array the write shape of the last entry it stored for it and
    leaves all else; it refuses if an array has no entry; the other processes change nothing. *)
Theorem C63_write_shapes : forall prim ws d me infos, Forall (fun x => Forall storable (snd x)) ws ->
  run_writes prim ws None = Ok d -> (forall i, In i infos -> i_typestr i <> None) ->
  (prim <> None -> prim <> Some me -> get_param_infos_with_write_shape prim me d infos = Ok infos) /\
  (prim = None \/ prim = Some me ->
    ((forall i, In i infos -> i_typestr i = Some "jax.Array" -> In (i_name i) (map s_name (by_process me ws))) ->
      exists infos', get_param_infos_with_write_shape prim me d infos = Ok infos' /\
      Forall2 (fun i i' => i_name i' = i_name i /\ i_typestr i' = i_typestr i /\
        (i_typestr i = Some "jax.Array" -> exists m, counts (by_process me ws) (i_name i) m /\ i_ws i' = Some (s_ws m)) /\
        (i_typestr i <> Some "jax.Array" -> i' = i)) infos infos') /\
    ((exists i, In i infos /\ i_typestr i = Some "jax.Array" /\ ~ In (i_name i) (map s_name (by_process me ws))) ->
      get_param_infos_with_write_shape prim me d infos = Err ValueError)).
Proof.
  intros prim ws d me infos H R T. split.
  - intros A B. unfold get_param_infos_with_write_shape, is_primary_host. destruct prim as [h|]; [|congruence]. destruct (N.eqb_spec h me); [subst; congruence|reflexivity].
  - intros P. destruct (in_dec N.eq_dec me (map fst ws)) as [W|W].
    + split; [intros K; eapply shapes_written; eauto|intros K; eapply shapes_missing; eauto].
    + assert (B := by_none me ws W). rewrite B. cbn [map]. assert (E := shapes_nothing prim ws d me infos H R T P W). rewrite E. split.
      * intros K. exists infos. destruct (existsb _ infos) eqn:X.
        { apply existsb_exists in X. destruct X as (i & I & Ei). destruct (i_typestr i) as [s|] eqn:Es; [|discriminate]. apply String.eqb_eq in Ei. subst s. elim (K i I Es). }
        split; auto. clear -K. induction infos as [|i l IH]; [constructor|]. constructor.
        { split; auto. split; auto. split; auto. intros Ei. elim (K i (or_introl eq_refl) Ei). }
        { apply IH. intros j J. apply K. right. auto. }
      * intros (i & I & Ei & _). assert (Z : existsb (fun i => match i_typestr i with Some s => s =? "jax.Array" | None => false end) infos = true).
        { apply existsb_exists. exists i. rewrite Ei. split; auto. }
        rewrite Z. reflexivity.
Qed.
Print Assumptions C63_write_shapes.

Example C63_write_shapes_ex :
  get_param_infos_with_write_shape (Some 0%N) 0 (Some ex_dir) [mkI "k" (Some "jax.Array") None; mkI "n" (Some "int") None]
  = Ok [mkI "k" (Some "jax.Array") (Some [4; 4]); mkI "n" (Some "int") None] /\
  get_param_infos_with_write_shape (Some 0%N) 0 (Some ex_dir) [mkI "z" (Some "jax.Array") None] = Err ValueError /\
  get_param_infos_with_write_shape None 5 (Some ex_dir) [mkI "k" (Some "jax.Array") None] = Err ValueError /\
  get_param_infos_with_write_shape (Some 0%N) 5 (Some ex_dir) [mkI "z" (Some "jax.Array") None] = Ok [mkI "z" (Some "jax.Array") None].
Proof. repeat split; vm_compute; reflexivity. Qed.
