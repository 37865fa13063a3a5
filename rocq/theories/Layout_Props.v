(** C70: what is a checkpoint, which part of it is loaded, and that what was saved is what is loaded. *)
From Coq Require Import List Bool Arith String Lia Permutation.
From Verif Require Import Base Tree_Model Registry_Model Registry_Spec Registry_Proofs Registry_Props Layout_Model Layout_Spec Layout_Proofs.
From Verif Require Tree_Proofs Parts_Proofs StepMeta_Proofs.
Import ListNotations.
Open Scope string_scope.

(** ** What is a checkpoint *)

(** With an indicator and metadata it is one of the new version; without an indicator it is taken for an old one unless it is temporary, part of a checkpoint, or only has checkpoints in it; else it is refused. *)
Theorem C70_layout : forall p,
  (get_layout p ORBAX = Ok V1 <-> new_checkpoint p) /\
  (get_layout p ORBAX = Ok V0 <-> old_checkpoint p /\ ~ exists l, p_node p = Some (Dir l) /\ there "orbax.checkpoint" l) /\
  (forall y, get_layout p ORBAX = Ok y -> y <> Safetensors) /\ (forall e, get_layout p ORBAX = Err e -> e = ValueError).
Proof.
  intros p. unfold get_layout, layout_class. cbn [rbind].
  assert (holds indicator_file (entries p) = true <-> exists l, p_node p = Some (Dir l) /\ there "orbax.checkpoint" l) as H.
  { unfold entries. destruct (p_node p) as [[c|l]|].
    - split; [discriminate|]. intros [l [Q _]]. discriminate.
    - rewrite holds_iff. split; [eauto|]. intros [k [Q T]]. injection Q as <-. exact T.
    - split; [discriminate|]. intros [l [Q _]]. discriminate. }
  destruct (holds indicator_file (entries p)) eqn:Hi; cbn [rbind validate_checkpointables].
  - pose proof (v1_iff p) as V. destruct (v1_validate_checkpointables p) as [[]|e] eqn:Q; simpl.
    + split; [split; [intros _; apply V; reflexivity|reflexivity]|]. split; [|split; [intros y E; injection E as <-; discriminate|discriminate]]. split; [discriminate|]. intros [_ Z]. exfalso. apply Z. apply H. reflexivity.
    + split; [split; [discriminate|intros X; apply V in X; discriminate]|]. split; [split; [discriminate|]|]. { intros [_ Z]. exfalso. apply Z. apply H. reflexivity. }
      split; [discriminate|]. intros e' E. injection E as <-. exact (v1_err p e Q).
  - pose proof (v0_iff p) as V. destruct (v0_validate_checkpointables p) as [[]|e] eqn:Q; simpl.
    + split; [split; [discriminate|]|]. { intros [l [A [_ [_ B]]]]. assert (false = true); [|discriminate]. apply H. eauto. }
      split; [|split; [intros y E; injection E as <-; discriminate|discriminate]]. split; [|reflexivity]. intros _. split; [apply V; reflexivity|]. intros Z. apply H in Z. discriminate.
    + split; [split; [discriminate|]|]. { intros [l [A [_ [_ B]]]]. assert (false = true); [|discriminate]. apply H. eauto. }
      split; [split; [discriminate|intros [X _]; apply V in X; discriminate]|]. split; [discriminate|]. intros e' E. injection E as <-. exact (v0_err p e Q).
Qed.
Print Assumptions C70_layout.

(** A tree in a directory, and a checkpoint of both versions with it *)
Definition ex_tree : node := Dir [("_METADATA", File (COther 1)); ("manifest.ocdbt", File (COther 2))].
Definition ex_new : list (string * node) := [("params", ex_tree); ("_CHECKPOINT_METADATA", File (CMeta (SMany [("params", "v1.PyTree"); ("state", "v1.PyTree")]))); ("metrics", Dir [("_METADATA", File (COther 3))]); ("orbax.checkpoint", File (COther 0)); ("state", ex_tree); ("config", Dir [])].
Definition ex_old : list (string * node) := [("params", ex_tree); ("_CHECKPOINT_METADATA", File (CMeta (SMany [("params", "v0.PyTree")])))].
Definition ex_at (l : list (string * node)) : place := mkPlace "100" false false (Some (Dir l)).

Example C70_layout_ex : get_layout (ex_at ex_new) ORBAX = Ok V1 /\ get_layout (ex_at ex_old) ORBAX = Ok V0 /\ get_layout (ex_at [("100", Dir ex_old)]) ORBAX = Err ValueError /\
  get_layout (mkPlace "params" true false (Some ex_tree)) ORBAX = Err ValueError /\ get_layout (mkPlace "100.tmp" false true (Some (Dir ex_new))) ORBAX = Err ValueError.
Proof. repeat split; vm_compute; reflexivity. Qed.

(** Neither a part of a checkpoint nor a directory of checkpoints is a checkpoint. *)
Theorem C70_inside : forall p l, p_node p = Some (Dir l) -> ~ there "_CHECKPOINT_METADATA" l ->
  (p_parent_meta p = true \/ (~ there "_METADATA" l /\ exists n d, In (n, Dir d) l /\ there "_CHECKPOINT_METADATA" d)) ->
  is_orbax_checkpoint p = false /\ forall name, exists e, resolve p ORBAX name = Err e.
Proof.
  intros p l E N H.
  assert (~ new_checkpoint p) as A. { intros [k [Q [_ [T _]]]]. rewrite E in Q. injection Q as <-. exact (N T). }
  assert (~ old_checkpoint p) as B.
  { intros [k [Q [_ [Pm T]]]]. rewrite E in Q. injection Q as <-. destruct H as [H|[H1 [n [d [H2 H3]]]]]; [congruence|]. destruct T as [T|[T|T]]; [exact (N T)|exact (H1 T)|exact (T n d H2 H3)]. }
  destruct (C70_layout p) as [L1 [L2 [L3 _]]]. split.
  - unfold is_orbax_checkpoint. simpl. destruct (v1_validate_checkpointables p) as [[]|e] eqn:Q; [exfalso; apply A; apply v1_iff; exact Q|]. simpl.
    destruct (v0_validate_checkpointables p) as [[]|e'] eqn:Q'; [exfalso; apply B; apply v0_iff; exact Q'|reflexivity].
  - intros name. unfold resolve. destruct (get_layout p ORBAX) as [y|e]; [|exists e; reflexivity]. exfalso. destruct y; [apply A; apply L1; reflexivity|apply B; apply L2; reflexivity|exact (L3 _ eq_refl eq_refl)].
Qed.
Print Assumptions C70_inside.

Example C70_inside_ex : is_orbax_checkpoint (ex_at [("100", Dir ex_old); ("200", Dir ex_new)]) = false /\ is_orbax_checkpoint (mkPlace "params" true false (Some ex_tree)) = false /\ is_orbax_checkpoint (ex_at ex_old) = true.
Proof. repeat split; vm_compute; reflexivity. Qed.

(** "AND has checkpoint metadata file OR has a valid checkpointable subdirectory": an empty directory is taken for a checkpoint, and so is one with anything in it that is not a checkpoint. *)
Theorem C70_empty_refuted : exists p q, p_node p = Some (Dir []) /\ is_orbax_checkpoint p = true /\ get_layout p ORBAX = Ok V0 /\ p_node q = Some (Dir [("notes.txt", File (COther 1))]) /\ is_orbax_checkpoint q = true.
Proof. exists (ex_at []), (ex_at [("notes.txt", File (COther 1))]). repeat split. Qed.
Print Assumptions C70_empty_refuted.

(** A directory with the indicator but without metadata is said to be a checkpoint, but nothing can be loaded from it. *)
Theorem C70_is_orbax_refuted : exists p, is_orbax_checkpoint p = true /\ get_layout p ORBAX = Err ValueError.
Proof. exists (ex_at [("orbax.checkpoint", File (COther 0)); ("state", ex_tree)]). split; vm_compute; reflexivity. Qed.
Print Assumptions C70_is_orbax_refuted.

(** ** Which part is loaded *)

(** Without a name, "state" is taken if it is a tree, else the tree with the first name in the alphabet, whatever the order of listing; an old checkpoint without such a part is taken as a whole if it is a tree itself; else it is refused. *)
Theorem C70_auto : forall p l, p_node p = Some (Dir l) -> NoDup (map fst l) ->
  (forall y n, resolve p ORBAX (Some "AUTO") = Ok (y, Some n) <-> get_layout p ORBAX = Ok y /\ chosen l n) /\
  (forall y, resolve p ORBAX (Some "AUTO") = Ok (y, None) <-> y = V0 /\ get_layout p ORBAX = Ok V0 /\ (forall n, ~ candidate l n) /\ there "_METADATA" l) /\
  (forall e, resolve p ORBAX (Some "AUTO") = Err e -> e = ValueError).
Proof.
  intros p l E N. destruct (C70_layout p) as [_ [_ [L1 L2]]]. unfold resolve. pose proof (entries_dir p l E) as El.
  destruct (get_layout p ORBAX) as [y0|e0]; cbn [rbind].
  2: { split; [split; [discriminate|intros [Q _]; discriminate]|]. split; [split; [discriminate|intros [_ [Q _]]; discriminate]|]. intros e Q. injection Q as <-. exact (L2 e0 eq_refl). }
  specialize (L1 y0 eq_refl). cbn [String.eqb Ascii.eqb Bool.eqb].
  assert (names_of y0 p = checkpointable_names l) as Nm by (destruct y0; [| |contradiction]; simpl; rewrite El; reflexivity). rewrite Nm.
  pose proof (chosen_first y0 p l L1 El N) as C. pose proof (chosen_none y0 p l L1 El N) as C0.
  destruct (first_valid y0 p (checkpointable_names l)) as [k|].
  - split; [|split; [|discriminate]].
    + intros y n. split; [intros Q; injection Q as <- <-; split; [reflexivity|apply C; reflexivity]|]. intros [Q Ch]. injection Q as <-. apply C in Ch. injection Ch as <-. reflexivity.
    + intros y. split; [discriminate|]. intros [_ [_ [Q _]]]. exfalso. apply (Q k). apply (proj1 (C k) eq_refl).
  - assert (forall n, ~ candidate l n) as Cn by (apply C0; reflexivity). destruct y0; [| |contradiction].
    + split; [intros y n; split; [discriminate|intros [_ [Q _]]; exfalso; exact (Cn n Q)]|]. split; [|intros e Q; injection Q as <-; reflexivity]. intros y. split; [discriminate|]. intros [_ [Q _]]. discriminate.
    + simpl. unfold v0_validate. rewrite El. destruct (holds pytree_metadata_file l) eqn:Hm; simpl.
      * apply holds_iff in Hm. split; [intros y n; split; [discriminate|intros [_ [Q _]]; exfalso; exact (Cn n Q)]|]. split; [|discriminate]. intros y. split; [intros Q; injection Q as <-; auto|]. intros [-> _]. reflexivity.
      * apply holds_false in Hm. split; [intros y n; split; [discriminate|intros [_ [Q _]]; exfalso; exact (Cn n Q)]|]. split; [|intros e Q; injection Q as <-; reflexivity]. intros y. split; [discriminate|]. intros [_ [_ [_ Q]]]. contradiction.
Qed.
Print Assumptions C70_auto.

Example C70_auto_ex : resolve (ex_at ex_new) ORBAX (Some "AUTO") = Ok (V1, Some "state") /\ resolve (ex_at ex_old) ORBAX (Some "AUTO") = Ok (V0, Some "params") /\
  resolve (ex_at [("zeta", ex_tree); ("beta", ex_tree); ("alpha", Dir []); ("metrics", ex_tree); ("_CHECKPOINT_METADATA", File (CMeta SNone))]) ORBAX (Some "AUTO") = Ok (V0, Some "beta") /\
  resolve (ex_at [("_METADATA", File (COther 1)); ("d", Dir [])]) ORBAX (Some "AUTO") = Ok (V0, None) /\ resolve (ex_at []) ORBAX (Some "AUTO") = Err ValueError.
Proof. repeat split; vm_compute; reflexivity. Qed.

(** A name is taken exactly if it is that of a tree, and no name exactly if an old checkpoint is itself a tree. *)
Theorem C70_named : forall p l, p_node p = Some (Dir l) -> NoDup (map fst l) ->
  (forall y n z, n <> "AUTO" -> (resolve p ORBAX (Some n) = Ok (y, z) <-> z = Some n /\ get_layout p ORBAX = Ok y /\ exists d, In (n, Dir d) l /\ there "_METADATA" d)) /\
  (forall y z, resolve p ORBAX None = Ok (y, z) <-> z = None /\ y = V0 /\ get_layout p ORBAX = Ok V0 /\ there "_METADATA" l) /\
  (forall name e, resolve p ORBAX name = Err e -> e = ValueError).
Proof.
  intros p l E N. destruct (C70_layout p) as [_ [_ [L1 L2]]]. pose proof (C70_auto p l E N) as [_ [_ L3]]. unfold resolve in *. pose proof (entries_dir p l E) as El.
  destruct (get_layout p ORBAX) as [y0|e0]; cbn [rbind] in *.
  2: { split; [intros; split; [discriminate|intros [_ [Q _]]; discriminate]|]. split; [intros; split; [discriminate|intros [_ [_ [Q _]]]; discriminate]|]. intros name e Q. injection Q as <-. exact (L2 e0 eq_refl). }
  specialize (L1 y0 eq_refl).
  assert (forall n, (exists u, validate y0 p (Some n) = Ok u) <-> is_pytree n l = true) as V.
  { intros n. destruct y0; [| |contradiction]; simpl; unfold v1_validate, v0_validate; rewrite El; destruct (is_pytree n l); simpl; split; eauto; try discriminate; intros [u Q]; discriminate. }
  split; [|split].
  - intros y n z M. destruct (String.eqb_spec n "AUTO") as [|_]; [contradiction|]. pose proof (V n) as Vn. rewrite (pytree_iff l n N) in Vn. destruct (validate y0 p (Some n)) as [u|e]; simpl.
    + split; [intros Q; injection Q as <- <-; split; [reflexivity|]; split; [reflexivity|]; apply Vn; eauto|]. intros [-> [Q _]]. injection Q as <-. reflexivity.
    + split; [discriminate|]. intros [_ [_ Q]]. apply Vn in Q. destruct Q as [u Q]. discriminate.
  - intros y z. destruct y0; [| |contradiction]; simpl.
    + split; [discriminate|]. intros [_ [_ [Q _]]]. discriminate.
    + unfold v0_validate. rewrite El. destruct (holds pytree_metadata_file l) eqn:Hm; simpl.
      * apply holds_iff in Hm. split; [intros Q; injection Q as <- <-; auto|]. intros [-> [-> _]]. reflexivity.
      * apply holds_false in Hm. split; [discriminate|]. intros [_ [_ [_ Q]]]. contradiction.
  - intros name e. destruct name as [n|]; [destruct (String.eqb_spec n "AUTO") as [->|M]; [exact (L3 e)|]|].
    + destruct (validate y0 p (Some n)) eqn:Q; [discriminate|]. simpl. intros X. injection X as <-. exact (validate_err y0 p (Some n) _ Q).
    + destruct (validate y0 p None) eqn:Q; [discriminate|]. simpl. intros X. injection X as <-. exact (validate_err y0 p None _ Q).
Qed.
Print Assumptions C70_named.

Example C70_named_ex : resolve (ex_at ex_new) ORBAX (Some "params") = Ok (V1, Some "params") /\ resolve (ex_at ex_new) ORBAX (Some "config") = Err ValueError /\ resolve (ex_at ex_new) ORBAX None = Err ValueError /\
  resolve (ex_at [("_METADATA", File (COther 1))]) ORBAX None = Ok (V0, None).
Proof. repeat split; vm_compute; reflexivity. Qed.

(** "It prioritizes the standard 'pytree' checkpointable name if present": it does not, other names come first. *)
Theorem C70_pytree_refuted : exists p l n, p_node p = Some (Dir l) /\ candidate l "pytree" /\ n <> "pytree" /\ resolve p ORBAX (Some "AUTO") = Ok (V1, Some n).
Proof.
  exists (ex_at [("pytree", ex_tree); ("opt", ex_tree); ("_CHECKPOINT_METADATA", File (CMeta SNone)); ("orbax.checkpoint", File (COther 0))]). eexists. exists "opt". split; [reflexivity|]. split; [|split; [discriminate|vm_compute; reflexivity]].
  split; [discriminate|]. split; [discriminate|]. eexists. split; [left; reflexivity|]. eexists. left. reflexivity.
Qed.
Print Assumptions C70_pytree_refuted.

(** A path is a checkpoint of safetensors exactly if it is a file with the suffix or a directory with such an entry; names do not matter. *)
Theorem C70_safetensors : forall p name,
  ((exists x, resolve p SAFETENSORS name = Ok x) <->
   (exists c s, p_node p = Some (File c) /\ p_name p = s ++ ".safetensors" /\ s <> "") \/ (exists l s x, p_node p = Some (Dir l) /\ In (s ++ ".safetensors", x) l)) /\
  (forall x, resolve p SAFETENSORS name = Ok x -> x = (Safetensors, match name with Some n => if String.eqb n "AUTO" then None else Some n | None => None end)).
Proof.
  intros p name. unfold resolve, get_layout, layout_class. cbn [rbind validate_checkpointables].
  assert (forall n, has_suffix n = true <-> exists s, n = s ++ ".safetensors") as Hs.
  { assert (forall a b, substring 0 (String.length a) (a ++ b) = a) as S0. { induction a as [|c a IH]; intros b; simpl; [destruct b; reflexivity|]. rewrite IH. reflexivity. }
    assert (forall a b, substring (String.length a) (String.length b) (a ++ b) = b) as S1.
    { induction a as [|c a IH]; intros b; simpl; [|apply IH]. pose proof (S0 b "") as Q. assert (forall x, x ++ "" = x) as Z by (induction x as [|c x IHx]; simpl; [reflexivity|rewrite IHx; reflexivity]). rewrite Z in Q. exact Q. }
    assert (forall a b, String.length (a ++ b) = String.length a + String.length b) as S2. { induction a as [|c a IH]; intros b; simpl; [reflexivity|]. rewrite IH. reflexivity. }
    assert (forall n k, k <= String.length n -> n = substring 0 k n ++ substring k (String.length n - k) n) as S3.
    { induction n as [|c n IH]; intros k K; simpl in *; [destruct k; [reflexivity|lia]|]. destruct k as [|k]; simpl.
      - f_equal. pose proof (S0 n "") as Q. assert (forall x, x ++ "" = x) as Z by (induction x as [|c' x IHx]; simpl; [reflexivity|rewrite IHx; reflexivity]). rewrite Z in Q. symmetry. exact Q.
      - f_equal. apply IH. lia. }
    intros n. unfold has_suffix. rewrite andb_true_iff, Nat.leb_le, String.eqb_eq. split.
    - intros [Le Q]. exists (substring 0 (String.length n - String.length suffix) n). rewrite (S3 n (String.length n - String.length suffix)) at 1 by lia. f_equal.
      replace (String.length n - (String.length n - String.length suffix)) with (String.length suffix) by lia. exact Q.
    - intros [s ->]. rewrite S2. change ".safetensors" with suffix. split; [lia|]. replace (String.length s + String.length suffix - String.length suffix) with (String.length s) by lia. apply S1. }
  set (res := match name with Some n => if String.eqb n "AUTO" then None else Some n | None => None end).
  assert (forall u, rbind (rmap (fun _ : unit => Safetensors) u) (fun y => if match name with Some n => String.eqb n "AUTO" | None => false end then
      match first_valid y p (names_of y p) with Some n => Ok (y, Some n) | None => match y with V1 => Err ValueError | _ => match validate y p None with Ok _ => Ok (y, None) | Err _ => Err ValueError end end end
      else rmap (fun _ => (y, name)) (validate y p name)) = rmap (fun _ => (Safetensors, res)) u) as R.
  { intros [u|e]; [|reflexivity]. simpl. unfold res. destruct name as [n|]; [destruct (String.eqb n "AUTO")|]; reflexivity. }
  rewrite R. split.
  - transitivity (exists u, st_validate_checkpointables p = Ok u). { destruct (st_validate_checkpointables p); simpl; split; intros [x Q]; try discriminate; eauto. }
    unfold st_validate_checkpointables. destruct (p_node p) as [[c|l]|].
    + destruct (has_suffix (p_name p) && negb (String.eqb (p_name p) suffix)) eqn:B.
      * split; [|eauto]. intros _. left. apply andb_true_iff in B. destruct B as [B1 B2]. apply Hs in B1. destruct B1 as [s B1]. exists c, s. split; [reflexivity|]. split; [exact B1|]. intros ->. rewrite B1 in B2. vm_compute in B2. discriminate.
      * split; [intros [u Q]; discriminate|]. intros [[c' [s [_ [Q1 Q2]]]]|[l [s [x [Q _]]]]]; [|discriminate]. apply andb_false_iff in B. destruct B as [B|B].
        -- assert (has_suffix (p_name p) = true) by (apply Hs; eauto). congruence.
        -- apply negb_false_iff, String.eqb_eq in B. rewrite Q1 in B. exfalso. destruct s as [|a s]; [congruence|]. assert (String.length (String a s ++ ".safetensors") = String.length suffix) as Ln by (rewrite B; reflexivity).
           assert (forall a b, String.length (a ++ b) = String.length a + String.length b) as S2 by (induction a0 as [|c0 a0 IH]; intros b; simpl; [reflexivity|rewrite IH; reflexivity]). rewrite S2 in Ln. simpl in Ln. lia.
    + destruct (existsb (fun x => has_suffix (fst x)) l) eqn:B.
      * split; [|eauto]. intros _. right. apply existsb_exists in B. destruct B as [[n x] [B1 B2]]. apply Hs in B2. destruct B2 as [s B2]. simpl in B2. subst n. exists l, s, x. auto.
      * split; [intros [u Q]; discriminate|]. intros [[c' [s [Q _]]]|[l' [s [x [Q1 Q2]]]]]; [discriminate|]. injection Q1 as <-. assert (existsb (fun x => has_suffix (fst x)) l = true); [|congruence]. apply existsb_exists. exists (s ++ ".safetensors", x). split; [exact Q2|]. apply Hs. exists s. reflexivity.
    + split; [intros [u Q]; discriminate|]. intros [[c' [s [Q _]]]|[l' [s [x [Q _]]]]]; discriminate.
  - intros x. destruct (st_validate_checkpointables p); simpl; [|discriminate]. intros Q. injection Q as <-. reflexivity.
Qed.
Print Assumptions C70_safetensors.

Example C70_safetensors_ex : resolve (mkPlace "m.safetensors" false false (Some (File (COther 1)))) SAFETENSORS (Some "AUTO") = Ok (Safetensors, None) /\
  resolve (ex_at [("a-1.safetensors", File (COther 1)); ("config.json", File (COther 2))]) SAFETENSORS (Some "x") = Ok (Safetensors, Some "x") /\ resolve (ex_at ex_new) SAFETENSORS (Some "AUTO") = Err ValueError.
Proof. repeat split; vm_compute; reflexivity. Qed.

(** ** Saving and loading *)

(** What was saved is a checkpoint of the new version, in whatever order it is listed, and its directories are exactly the names that were saved. *)
Theorem C70_saved : forall (O : Type) (W : world O) (I : io O) r cs d p l, NoDup (map fst cs) -> save_checkpointables W I r cs = Ok d ->
  p_node p = Some (Dir l) -> Permutation l d -> p_temporary p = false ->
  get_layout p ORBAX = Ok V1 /\ is_orbax_checkpoint p = true /\ NoDup (map fst l) /\
  (forall n, (exists x, In (n, Dir x) l) <-> In n (map fst cs)) /\ (forall n, In n (map fst cs) -> n <> "" /\ n <> "metrics" /\ n <> "AUTO" /\ n <> "_CHECKPOINT_METADATA").
Proof.
  intros O W I r cs d p l N E Ep P T. destruct (saved_facts O W I r cs d l N E P) as [F1 [F2 [F3 [F4 [_ F6]]]]].
  assert (new_checkpoint p) as Nc by (exists l; auto). assert (v1_validate_checkpointables p = Ok tt) as V by (apply v1_iff; exact Nc).
  split; [apply (C70_layout p); exact Nc|]. split; [unfold is_orbax_checkpoint; simpl; rewrite V; reflexivity|]. split; [exact F1|]. split.
  - intros n. split.
    + intros [x J]. apply F2 in J. destruct J as [o [h [J _]]]. apply in_map_iff. exists (n, Some o). auto.
    + intros J. apply in_map_iff in J. destruct J as [[n' v] [<- J]]. destruct (save_parts O W I r cs d E) as [_ [_ [_ [hs [dirs [_ [G _]]]]]]].
      destruct (f2_in_l _ _ _ _ _ _ G J) as [y [_ [_ [o [h [x [Q1 [Q2 [Q3 _]]]]]]]]]. simpl in *. exists x. apply F2. exists o, h. subst v. auto.
  - intros n J. destruct (F6 n J) as [Q1 Q2]. split; [exact Q1|]. assert (~ (n = "metrics" \/ n = "AUTO")) as Q by (rewrite <- reserved_iff; congruence).
    split; [intros X; apply Q; auto|]. split; [intros X; apply Q; auto|]. intros ->. apply (save_parts O W I r cs d E). exact J.
Qed.
Print Assumptions C70_saved.

(** Numbers are saved: what is loaded back is the number, with or without the metadata of a tree *)
Definition ex_io : io nat :=
  mkIo (fun h o => match h with 4 => Ok [("_METADATA", File (COther 1)); ("data", File (COther o))] | 9 => Err ValueError | _ => Ok [("data", File (COther o))] end)
    (fun h a l => match look "data" l with Some (File (COther o)) => Ok o | _ => Err FileNotFoundError end) (fun h l => match look "data" l with Some (File (COther o)) => Ok (100 + o) | _ => Err FileNotFoundError end).
Definition ex_cs : list (string * option nat) := [("z", Some 1); ("state", Some 0); ("it", Some 2); ("a", Some 0)].

Example C70_saved_ex : exists d, save_checkpointables ex_world ex_io ex_global ex_cs = Ok d /\ map fst d = ["z"; "state"; "it"; "a"; "orbax.checkpoint"; "_CHECKPOINT_METADATA"] /\ read_metadata (rev d) = SMany [("z", "v1.Json"); ("state", "v1.PyTree"); ("it", "v1.Stateful"); ("a", "v1.PyTree")] /\
  get_layout (ex_at (rev d)) ORBAX = Ok V1 /\ save_checkpointables ex_world ex_io ex_global [("metrics", Some 0)] = Err ValueError /\ save_checkpointables ex_world ex_io ex_global [] = Err ValueError.
Proof. eexists. split; [vm_compute; reflexivity|]. repeat split; vm_compute; reflexivity. Qed.

(** Without names, everything that was saved is loaded, in whatever order the directory is listed, if handlers load what they saved and their names are not shared. *)
Theorem C70_roundtrip : forall (O : Type) (W : world O) (I : io O) r cs d p l, sane W r -> apart W r -> plain W r cs -> faithful I -> NoDup (map fst cs) ->
  save_checkpointables W I r cs = Ok d -> p_node p = Some (Dir l) -> Permutation l d -> p_temporary p = false ->
  exists out, load_checkpointables W I r p ORBAX None = Ok out /\ Permutation (map (fun x => (fst x, Some (snd x))) out) cs.
Proof.
  intros O W I r cs d p l S A Pl Fa N E Ep P T. destruct (C70_saved O W I r cs d p l N E Ep P T) as [L [_ [Nl [Names _]]]]. destruct (saved_facts O W I r cs d l N E P) as [_ [F2 [_ [_ [_ F6]]]]].
  unfold load_checkpointables. cbn [rbind]. rewrite L. cbn [rbind]. unfold v1_load_checkpointables. rewrite (entries_dir p l Ep).
  set (ns := filter (fun n => negb (reserved n)) (existing_names l)).
  assert (forall n, In n ns <-> In n (map fst cs)) as Nn.
  { intros n. unfold ns. rewrite filter_In, existing_iff, negb_true_iff, Names. split; [tauto|]. intros J. split; [exact J|]. apply F6. exact J. }
  assert (NoDup ns) as Nd.
  { unfold ns. apply NoDup_filter. unfold existing_names. clear -Nl. induction l as [|[n x] l IH]; [constructor|]. inversion Nl as [|? ? Q1 Q2]. subst. cbn [filter snd]. destruct x; simpl; [exact (IH Q2)|]. constructor; [|exact (IH Q2)].
    intros J. apply Q1. apply in_map_iff in J. destruct J as [z [Z1 Z2]]. apply filter_In in Z2. apply in_map_iff. exists z. tauto. }
  assert (existsb (fun x => negb (existsb (String.eqb (fst x)) (existing_names l))) (map (fun n => (n, @None O)) ns) = false) as ->.
  { destruct (existsb _ (map _ ns)) eqn:X; [|reflexivity]. apply existsb_exists in X. destruct X as [x [X1 X2]]. apply in_map_iff in X1. destruct X1 as [n [<- X1]]. apply negb_true_iff in X2.
    assert (existsb (String.eqb n) (existing_names l) = true); [|simpl in X2; congruence]. apply existsb_exists. exists n. split; [|apply String.eqb_refl]. unfold ns in X1. apply filter_In in X1. apply X1. }
  set (h_of := fun n (_ : option O) => match dget String.eqb n cs with Some (Some o) => match resolve_save W r (Some o) n with Ok h => h | Err _ => 0 end | _ => 0 end).
  assert (forall n, In n ns -> exists o h x, In (n, Some o) cs /\ resolve_save W r (Some o) n = Ok h /\ io_save I h o = Ok x /\ In (n, Dir x) l /\ forall a, h_of n a = h) as Known.
  { intros n J. apply Nn, Names in J. destruct J as [x J]. pose proof J as J0. apply F2 in J. destruct J as [o [h [J1 [J2 J3]]]]. exists o, h, x. split; [exact J1|]. split; [exact J2|]. split; [exact J3|]. split; [exact J0|]. intros a. unfold h_of.
    assert (dget String.eqb n cs = Some (Some o)) as -> by (apply (Tree_Proofs.dget_in String.eqb String.eqb_spec); assumption). rewrite J2. reflexivity. }
  rewrite (loads_known O W I r l (map (fun n => (n, None)) ns) (read_metadata l)) with (f := h_of).
  2: { rewrite map_map. simpl. rewrite map_id. exact Nd. }
  2: { intros n x J. apply in_map_iff in J. destruct J as [n' [Q J]]. injection Q as -> <-. destruct (Known n J) as [o [h [x [J1 [J2 [J3 [J4 J5]]]]]]]. rewrite J5. apply (same_handler O W I r cs d l n o h None); auto. intros y Q. discriminate. }
  set (val := fun n => match dget String.eqb n cs with Some (Some o) => Some o | _ => None end).
  assert (exists out, sequence (map (fun x => match at_dir (io_load I (h_of (fst x) (snd x)) (snd x)) (fst x) l with Ok v => Ok (fst x, v) | Err _ => Err KeyError end) (map (fun n => (n, None)) ns)) = Ok out /\
    map (fun x => (fst x, Some (snd x))) out = map (fun n => (n, val n)) ns) as [out [Out Eo]].
  { clear Nn Nd. induction ns as [|n ns IH]; [exists []; auto|]. destruct IH as [out [I1 I2]]; [intros k K; apply Known; right; exact K|]. destruct (Known n (or_introl eq_refl)) as [o [h [x [J1 [J2 [J3 [J4 J5]]]]]]].
    exists ((n, o) :: out). cbn [map sequence fst snd]. rewrite J5. unfold at_dir at 1. assert (look n l = Some (Dir x)) as -> by (apply look_in; assumption). rewrite (Fa h o x J3). cbn [rbind]. rewrite I1. split; [reflexivity|]. simpl. rewrite I2. f_equal. f_equal. unfold val.
    assert (dget String.eqb n cs = Some (Some o)) as -> by (apply (Tree_Proofs.dget_in String.eqb String.eqb_spec); assumption). reflexivity. }
  exists out. split; [exact Out|]. rewrite Eo. apply NoDup_Permutation.
  - apply (NoDup_map_inv fst). rewrite map_map. simpl. rewrite map_id. exact Nd.
  - apply (NoDup_map_inv fst). exact N.
  - intros [n v]. rewrite in_map_iff. split.
    + intros [k [Q J]]. injection Q as -> <-. destruct (Known n J) as [o [h [x [J1 _]]]]. unfold val. assert (dget String.eqb n cs = Some (Some o)) as -> by (apply (Tree_Proofs.dget_in String.eqb String.eqb_spec); assumption). exact J1.
    + intros J. assert (In n ns) as K by (apply Nn; apply in_map_iff; exists (n, v); auto). exists n. split; [|exact K]. destruct (Known n K) as [o [h [x [J1 _]]]]. unfold val.
      assert (dget String.eqb n cs = Some (Some o)) as Q by (apply (Tree_Proofs.dget_in String.eqb String.eqb_spec); assumption). assert (dget String.eqb n cs = Some v) as Q' by (apply (Tree_Proofs.dget_in String.eqb String.eqb_spec); assumption). rewrite Q. congruence.
Qed.
Print Assumptions C70_roundtrip.

Example C70_roundtrip_ex : sane ex_world ex_global /\ apart ex_world ex_global /\ plain ex_world ex_global ex_cs /\ faithful ex_io /\ NoDup (map fst ex_cs) /\
  exists d, save_checkpointables ex_world ex_io ex_global ex_cs = Ok d /\ load_checkpointables ex_world ex_io ex_global (ex_at (rev d)) ORBAX None = Ok [("a", 0); ("it", 2); ("state", 0); ("z", 1)].
Proof.
  split; [repeat constructor|]. split.
  { intros h H. simpl in H. repeat (destruct H as [<-|H]; [split; [discriminate|intros x m Hx; simpl in Hx; repeat (destruct Hx as [Hx|Hx]; [injection Hx as <- <-; simpl; intros [Q|Q]; try reflexivity; try discriminate Q; repeat (destruct Q as [Q|Q]; try discriminate Q; try contradiction)|]); contradiction]|]). contradiction. }
  split. { intros n o H. simpl in H. repeat (destruct H as [H|H]; [injection H as <- <-; first [left; reflexivity|right; intros x Hx; simpl in Hx; repeat (destruct Hx as [Hx|Hx]; [discriminate Hx|]); contradiction]|]). contradiction. }
  split. { intros h o d E. do 10 (destruct h as [|h]; [first [discriminate E|injection E as <-; reflexivity]|]). injection E as <-. reflexivity. }
  split; [repeat constructor; simpl; intuition discriminate|]. eexists. split; [vm_compute; reflexivity|vm_compute; reflexivity].
Qed.

(** A part that is a tree is loaded from its directory by the handler that saved it, if that handler can load with what is given. *)
Theorem C70_load : forall (O : Type) (W : world O) (I : io O) r cs d p l n o h x flat a, sane W r -> apart W r -> plain W r cs -> NoDup (map fst cs) ->
  save_checkpointables W I r cs = Ok d -> p_node p = Some (Dir l) -> Permutation l d -> p_temporary p = false ->
  In (n, Some o) cs -> resolve_save W r (Some o) n = Ok h -> io_save I h o = Ok x -> there "_METADATA" x -> fits W a h ->
  load W I r p ORBAX flat a (Some n) = io_load I h a x /\ (chosen l n -> load W I r p ORBAX flat a (Some "AUTO") = io_load I h a x).
Proof.
  intros O W I r cs d p l n o h x flat a S A Pl N E Ep P T J R Sx M F. destruct (C70_saved O W I r cs d p l N E Ep P T) as [L [_ [Nl [_ F6]]]]. destruct (saved_facts O W I r cs d l N E P) as [_ [F2 _]].
  destruct (F6 n) as [Q1 [Q2 [Q3 _]]]; [apply in_map_iff; exists (n, Some o); auto|]. assert (In (n, Dir x) l) as Jl by (apply F2; eauto).
  assert (v1_load W I r p (Some n) a = io_load I h a x) as V.
  { unfold v1_load. rewrite (entries_dir p l Ep). unfold handlers_for_load. cbn [map sequence fst snd]. rewrite (same_handler O W I r cs d l n o h a); auto. cbn [rmap rbind]. unfold fetch. simpl. rewrite String.eqb_refl. cbn [rbind].
    unfold at_dir. assert (look n l = Some (Dir x)) as -> by (apply look_in; assumption). reflexivity. }
  split.
  - unfold load, check_name. destruct (String.eqb_spec n "AUTO"); [contradiction|]. destruct (String.eqb_spec n ""); [contradiction|]. destruct (reserved n) eqn:Rn; [apply reserved_iff in Rn; destruct Rn; contradiction|]. cbn [rbind].
    assert (resolve p ORBAX (Some n) = Ok (V1, Some n)) as ->. { apply (C70_named p l Ep Nl); [exact Q3|]. split; [reflexivity|]. split; [exact L|]. exists x. auto. } cbn [rbind fst snd]. exact V.
  - intros Ch. unfold load. simpl (check_name _). cbn [rbind]. assert (resolve p ORBAX (Some "AUTO") = Ok (V1, Some n)) as ->. { apply (C70_auto p l Ep Nl). auto. } cbn [rbind fst snd]. exact V.
Qed.
Print Assumptions C70_load.

Example C70_load_ex : exists d, save_checkpointables ex_world ex_io ex_global ex_cs = Ok d /\ load ex_world ex_io ex_global (ex_at d) ORBAX (fun _ => Err OtherError) (Some 0) (Some "a") = Ok 0 /\ load ex_world ex_io ex_global (ex_at d) ORBAX (fun _ => Err OtherError) None (Some "AUTO") = Ok 0 /\
  load ex_world ex_io ex_global (ex_at d) ORBAX (fun _ => Err OtherError) None (Some "z") = Err ValueError /\ load ex_world ex_io ex_global (ex_at d) ORBAX (fun _ => Err OtherError) None (Some "metrics") = Err ValueError.
Proof. eexists. split; [vm_compute; reflexivity|]. repeat split; vm_compute; reflexivity. Qed.

(** Without a name the part that is taken is loaded just as with its name, and its metadata as well. *)
Theorem C70_auto_same : forall (O : Type) (W : world O) (I : io O) r p l n flat fl a, p_node p = Some (Dir l) -> NoDup (map fst l) -> n <> "" -> chosen l n ->
  load W I r p ORBAX flat a (Some "AUTO") = load W I r p ORBAX flat a (Some n) /\ metadata W I r p ORBAX fl (Some "AUTO") = metadata W I r p ORBAX fl (Some n).
Proof.
  intros O W I r p l n flat fl a Ep Nl Ne Ch. pose proof Ch as [[Q2 [Q3 [x [J M]]]] _].
  assert (check_name (Some n) = Ok tt) as Cn. { unfold check_name. destruct (String.eqb_spec n "AUTO"); [contradiction|]. destruct (String.eqb_spec n ""); [contradiction|]. destruct (reserved n) eqn:Rn; [apply reserved_iff in Rn; destruct Rn; contradiction|]. reflexivity. }
  assert (resolve p ORBAX (Some "AUTO") = resolve p ORBAX (Some n)) as R.
  { destruct (get_layout p ORBAX) as [y|e] eqn:G.
    - assert (resolve p ORBAX (Some "AUTO") = Ok (y, Some n)) as -> by (apply (C70_auto p l Ep Nl); auto). symmetry. apply (C70_named p l Ep Nl); [exact Q3|]. split; [reflexivity|]. split; [exact G|]. exists x. auto.
    - unfold resolve. rewrite G. reflexivity. }
  unfold load, metadata. rewrite R, Cn. split; reflexivity.
Qed.
Print Assumptions C70_auto_same.

Example C70_auto_same_ex : load ex_world ex_io ex_global (ex_at [("b", Dir [("_METADATA", File (COther 0)); ("data", File (COther 7))]); ("c", ex_tree)]) ORBAX (fun _ => Err OtherError) None (Some "AUTO") = Ok 7 /\
  load ex_world ex_io ex_global (ex_at [("b", Dir [("_METADATA", File (COther 0)); ("data", File (COther 7))]); ("c", ex_tree)]) ORBAX (fun _ => Err OtherError) None (Some "b") = Ok 7.
Proof. split; vm_compute; reflexivity. Qed.

(** What is asked for by name is given by name, each from its own directory; something that is not there is an error and nothing is loaded. *)
Theorem C70_requested : forall (O : Type) (W : world O) (I : io O) r p l a, p_node p = Some (Dir l) -> NoDup (map fst l) -> a <> [] -> NoDup (map fst a) ->
  (forall out, load_checkpointables W I r p ORBAX (Some a) = Ok out -> map fst out = map fst a /\
     forall n v, In (n, v) out -> exists x d h, In (n, x) a /\ In (n, Dir d) l /\ single_for_load W r n x (saved_typestr n (read_metadata l)) = Ok h /\ io_load I h x d = Ok v) /\
  (get_layout p ORBAX = Ok V1 -> (forall n, In n (map fst a) -> n <> "" /\ n <> "metrics" /\ n <> "AUTO") -> (exists n, In n (map fst a) /\ forall d, ~ In (n, Dir d) l) -> load_checkpointables W I r p ORBAX (Some a) = Err KeyError) /\
  ((exists n, In n (map fst a) /\ (n = "" \/ n = "metrics" \/ n = "AUTO")) -> load_checkpointables W I r p ORBAX (Some a) = Err ValueError).
Proof.
  intros O W I r p l a Ep Nl Ne Na. unfold load_checkpointables. split; [|split].
  - intros out H. destruct (check_names (map fst a)) as [u|e]; [|discriminate]. cbn [rbind] in H. destruct (get_layout p ORBAX) as [y|e] eqn:G; [|discriminate]. cbn [rbind] in H.
    assert (v1_load_checkpointables W I r p (Some a) = Ok out) as V. { destruct y; [exact H| |discriminate]. unfold v0_load_checkpointables in H. destruct (is_direct p); [discriminate|exact H]. }
    clear H. unfold v1_load_checkpointables in V. rewrite (entries_dir p l Ep) in V. destruct a as [|a0 a]; [congruence|]. destruct (existsb _ (a0 :: a)); [discriminate|].
    remember (a0 :: a) as b. clear Heqb a a0 Ne. destruct (handlers_for_load W r b (read_metadata l)) as [hs|e] eqn:Hh; [|discriminate]. cbn [rbind] in V.
    assert (forall n x, In (n, x) b -> exists h, fetch String.eqb hs n = Ok h /\ single_for_load W r n x (saved_typestr n (read_metadata l)) = Ok h) as K.
    { unfold handlers_for_load in Hh. clear V. revert hs Hh. induction b as [|[n x] b IH]; intros hs Hh m z J; [destruct J|]. cbn [map sequence fst snd] in Hh. destruct (single_for_load W r n x (saved_typestr n (read_metadata l))) as [h|e] eqn:Sg; [|discriminate]. cbn [rmap rbind] in Hh.
      destruct (sequence _) as [t|e] eqn:Sq; [|discriminate]. cbn [rbind] in Hh. injection Hh as <-. inversion Na as [|? ? Z1 Z2]. subst. destruct J as [J|J].
      - injection J as -> ->. exists h. split; [|exact Sg]. unfold fetch. simpl. rewrite String.eqb_refl. reflexivity.
      - destruct (IH Z2 t eq_refl m z J) as [h' [K1 K2]]. exists h'. split; [|exact K2]. unfold fetch in *. simpl. destruct (String.eqb_spec m n) as [->|]; [|exact K1]. exfalso. apply Z1. apply in_map_iff. exists (n, z). auto. }
    clear Hh Na. revert out V. induction b as [|[n x] b IH]; intros out V; [injection V as <-; split; [reflexivity|intros ? ? []]|]. cbn [process_loads] in V. destruct (K n x (or_introl eq_refl)) as [h [K1 K2]]. rewrite K1 in V. cbn [rbind] in V.
    destruct (at_dir (io_load I h x) n l) as [v|e] eqn:At; [|discriminate]. destruct (process_loads I l hs b) as [t|e] eqn:Pr; [|discriminate]. cbn [rmap rbind] in V. injection V as <-. destruct (IH (fun m z J => K m z (or_intror J)) t eq_refl) as [I1 I2].
    split; [simpl; rewrite I1; reflexivity|]. intros m w [J|J].
    + injection J as -> ->. unfold at_dir in At. destruct (look m l) as [[c|dd]|] eqn:Lk; try discriminate. exists x, dd, h. split; [left; reflexivity|]. split; [apply look_in; assumption|]. auto.
    + destruct (I2 m w J) as [x' [d [h' [B1 B2]]]]. exists x', d, h'. split; [right; exact B1|exact B2].
  - intros G Cn [n [Jn Nd]]. assert (check_names (map fst a) = Ok tt) as ->.
    { apply check_names_ok. split; [intros J; apply Cn in J; destruct J; congruence|]. intros m J. apply Cn in J. destruct (reserved m) eqn:Rm; [|reflexivity]. apply reserved_iff in Rm. destruct J as [_ [J1 J2]]. destruct Rm; contradiction. }
    cbn [rbind]. rewrite G. cbn [rbind]. unfold v1_load_checkpointables. rewrite (entries_dir p l Ep). destruct a as [|a0 a]; [congruence|].
    assert (existsb (fun x => negb (existsb (String.eqb (fst x)) (existing_names l))) (a0 :: a) = true) as ->; [|reflexivity].
    apply in_map_iff in Jn. destruct Jn as [[n' x] [<- J]]. apply existsb_exists. exists (n', x). split; [exact J|]. apply negb_true_iff. destruct (existsb _ (existing_names l)) eqn:X; [|reflexivity]. exfalso. apply existsb_exists in X. destruct X as [m [X1 X2]]. apply String.eqb_eq in X2. simpl in X2. subst m. apply existing_iff in X1. destruct X1 as [d X1]. exact (Nd d X1).
  - intros [n [J Q]]. destruct (check_names (map fst a)) as [u|e] eqn:C.
    + exfalso. destruct u. apply check_names_ok in C. destruct C as [C1 C2]. destruct Q as [->|Q]; [contradiction|]. specialize (C2 n J). assert (reserved n = true) by (apply reserved_iff; exact Q). congruence.
    + unfold check_names in C. destruct (existsb _ _); [injection C as <-; reflexivity|]. destruct (existsb _ _); [injection C as <-; reflexivity|discriminate].
Qed.
Print Assumptions C70_requested.

Example C70_requested_ex : exists d, save_checkpointables ex_world ex_io ex_global ex_cs = Ok d /\ load_checkpointables ex_world ex_io ex_global (ex_at d) ORBAX (Some [("state", Some 0); ("z", None)]) = Ok [("state", 0); ("z", 1)] /\
  load_checkpointables ex_world ex_io ex_global (ex_at d) ORBAX (Some [("state", None); ("none", None)]) = Err KeyError /\ load_checkpointables ex_world ex_io ex_global (ex_at d) ORBAX (Some [("metrics", None)]) = Err ValueError.
Proof. eexists. split; [vm_compute; reflexivity|]. repeat split; vm_compute; reflexivity. Qed.

(** ** Metadata *)

(** The metadata of what was saved has exactly its names, and for each what the handler that saved it says of its directory, or nothing. *)
Theorem C70_metadata : forall (O : Type) (W : world O) (I : io O) r cs d p l, sane W r -> apart W r -> plain W r cs -> NoDup (map fst cs) ->
  save_checkpointables W I r cs = Ok d -> p_node p = Some (Dir l) -> Permutation l d -> p_temporary p = false ->
  exists out, checkpointables_metadata W I r p ORBAX = Ok out /\ Permutation (map fst out) (map fst cs) /\
    forall n o h x m, In (n, Some o) cs -> resolve_save W r (Some o) n = Ok h -> io_save I h o = Ok x -> In (n, m) out -> m = match io_meta I h x with Ok v => Some v | Err _ => None end.
Proof.
  intros O W I r cs d p l S A Pl N E Ep P T. destruct (C70_saved O W I r cs d p l N E Ep P T) as [L [_ [Nl [Names F6]]]]. destruct (saved_facts O W I r cs d l N E P) as [_ [F2 _]].
  unfold checkpointables_metadata. rewrite L. cbn [rbind]. unfold v1_checkpointables_metadata. rewrite (entries_dir p l Ep).
  assert (forall n, In n (existing_names l) <-> In n (map fst cs)) as Nn by (intros n; rewrite existing_iff; apply Names).
  assert (NoDup (existing_names l)) as Nd.
  { unfold existing_names. clear -Nl. induction l as [|[n x] l IH]; [constructor|]. inversion Nl as [|? ? Q1 Q2]. subst. cbn [filter snd]. destruct x; simpl; [exact (IH Q2)|]. constructor; [|exact (IH Q2)].
    intros J. apply Q1. apply in_map_iff in J. destruct J as [z [Z1 Z2]]. apply filter_In in Z2. apply in_map_iff. exists z. tauto. }
  set (ns := existing_names l) in *.
  assert (forall n, In n ns -> exists o h x, In (n, Some o) cs /\ resolve_save W r (Some o) n = Ok h /\ io_save I h o = Ok x /\ In (n, Dir x) l) as Known.
  { intros n J. apply Nn, Names in J. destruct J as [x J]. pose proof J as J0. apply F2 in J. destruct J as [o [h [J1 [J2 J3]]]]. exists o, h, x. auto. }
  assert (exists hs, handlers_for_load W r (map (fun n => (n, None)) ns) (read_metadata l) = Ok hs /\ map fst hs = ns /\ forall n h, In (n, h) hs -> exists o x, In (n, Some o) cs /\ resolve_save W r (Some o) n = Ok h /\ io_save I h o = Ok x /\ In (n, Dir x) l) as [hs [Hh [Hn Hk]]].
  { unfold handlers_for_load. clear Nn Nd. induction ns as [|n ns IH]; [exists []; split; [reflexivity|split; [reflexivity|intros ? ? []]]|]. destruct IH as [hs [I1 [I2 I3]]]; [intros k K; apply Known; right; exact K|]. destruct (Known n (or_introl eq_refl)) as [o [h [x [J1 [J2 [J3 J4]]]]]].
    exists ((n, h) :: hs). cbn [map sequence fst snd]. rewrite (same_handler O W I r cs d l n o h None); auto; [|intros y Q; discriminate]. cbn [rmap rbind]. rewrite I1. split; [reflexivity|]. split; [simpl; rewrite I2; reflexivity|]. intros m k [Q|Q]; [injection Q as <- <-; exists o, x; auto|exact (I3 m k Q)]. }
  rewrite Hh. cbn [rbind]. assert (map fst (item_metadata I l hs) = ns) as Im. { unfold item_metadata. rewrite map_map. simpl. change (map (fun x : string * nat => fst x) hs) with (map fst hs). exact Hn. }
  assert (filter (fun x : string * option O => negb (String.eqb (fst x) "metrics")) (item_metadata I l hs) = item_metadata I l hs) as Fi.
  { assert (forall k : list (string * option O), (forall n, In n (map fst k) -> n <> "metrics") -> filter (fun x => negb (String.eqb (fst x) "metrics")) k = k) as G.
    { induction k as [|[n v] k IH]; intros Q; [reflexivity|]. simpl. destruct (String.eqb_spec n "metrics") as [->|_]; [exfalso; apply (Q "metrics"); [left; reflexivity|reflexivity]|]. simpl. rewrite IH; [reflexivity|]. intros m M. apply Q. right. exact M. }
    apply G. rewrite Im. intros n J. apply Nn in J. apply F6 in J. tauto. }
  rewrite Fi. assert (check_names (map fst (item_metadata I l hs)) = Ok tt) as ->.
  { apply check_names_ok. rewrite Im. split; [intros J; apply Nn, F6 in J; destruct J; congruence|]. intros m J. apply Nn, F6 in J. destruct (reserved m) eqn:Rm; [|reflexivity]. apply reserved_iff in Rm. destruct J as [_ [J1 [J2 _]]]. destruct Rm; contradiction. }
  cbn [rmap rbind]. exists (item_metadata I l hs). split; [reflexivity|]. split; [rewrite Im; apply NoDup_Permutation; [exact Nd|exact N|exact Nn]|].
  intros n o h x m J R Sx Q. unfold item_metadata in Q. apply in_map_iff in Q. destruct Q as [[k g] [Q K]]. simpl in Q. injection Q as -> <-. destruct (Hk n g K) as [o' [x' [K1 [K2 [K3 K4]]]]].
  assert (Some (Some o) = Some (Some o')) as Q. { rewrite <- (proj2 (Tree_Proofs.dget_in String.eqb String.eqb_spec n (Some o) cs N) J). apply (Tree_Proofs.dget_in String.eqb String.eqb_spec); assumption. }
  injection Q as <-. rewrite R in K2. injection K2 as <-. rewrite Sx in K3. injection K3 as <-. unfold at_dir. assert (look n l = Some (Dir x)) as -> by (apply look_in; assumption). reflexivity.
Qed.
Print Assumptions C70_metadata.

Example C70_metadata_ex : exists d, save_checkpointables ex_world ex_io ex_global ex_cs = Ok d /\ checkpointables_metadata ex_world ex_io ex_global (ex_at (rev d)) ORBAX = Ok [("a", Some 100); ("it", Some 102); ("state", Some 100); ("z", Some 101)].
Proof. eexists. split; vm_compute; reflexivity. Qed.

(** ** What goes otherwise than said *)

(** "KeyError: If … the checkpoint is empty": an empty checkpoint gives an empty dictionary. *)
Theorem C70_nothing_refuted : exists (p : place), p_node p = Some (Dir []) /\ load_checkpointables ex_world ex_io ex_global p ORBAX None = Ok [].
Proof. exists (ex_at []). split; [reflexivity|vm_compute; reflexivity]. Qed.
Print Assumptions C70_nothing_refuted.

(** An old checkpoint that is a tree itself and says handlers by name gives metadata without a name, but cannot be loaded without a name. *)
Theorem C70_direct_refuted : exists p v, metadata ex_world ex_io ex_global p ORBAX (Err OtherError) None = Ok (Some v) /\ load ex_world ex_io ex_global p ORBAX (fun _ => Err OtherError) None None = Err ValueError.
Proof. exists (ex_at [("_METADATA", File (COther 1)); ("data", File (COther 5)); ("_CHECKPOINT_METADATA", File (CMeta (SMany [])))]), 105. split; vm_compute; reflexivity. Qed.
Print Assumptions C70_direct_refuted.

(** The metadata of a part cannot be had, though the part can be loaded, if there is no handler for another part. *)
Theorem C70_metadata_all_refuted : exists r p, load ex_world ex_io r p ORBAX (fun _ => Err OtherError) None (Some "a") = Ok 5 /\ metadata ex_world ex_io r p ORBAX (Err OtherError) (Some "a") = Err KeyError.
Proof.
  exists (mkReg [(4, None)] []), (ex_at [("a", Dir [("_METADATA", File (COther 1)); ("data", File (COther 5))]); ("b", Dir [("data", File (COther 6))]); ("_CHECKPOINT_METADATA", File (CMeta (SMany [("a", "v1.PyTree"); ("b", "my.Handler")]))); ("orbax.checkpoint", File (COther 0))]).
  split; vm_compute; reflexivity.
Qed.
Print Assumptions C70_metadata_all_refuted.

(** A name can pass all checks and yet be that of the file with the metadata: then nothing can be saved, which shows only when all is written. *)
Theorem C70_name_refuted : exists cs, check_names (map fst cs) = Ok tt /\ (exists hs, handlers_for_save ex_world ex_global cs = Ok hs) /\ save_checkpointables ex_world ex_io ex_global cs = Err OtherError.
Proof. exists [("state", Some 0); ("_CHECKPOINT_METADATA", Some 0)]. split; [reflexivity|]. split; [eexists; vm_compute; reflexivity|vm_compute; reflexivity]. Qed.
Print Assumptions C70_name_refuted.

(** Saving with metrics changes the dictionary of the caller, so that the same dictionary cannot be saved again. *)
Theorem C70_trainer_refuted : exists (cs cs' : list (string * option nat)) d, trainer_save cs (Some 7) = (Ok d, cs') /\ cs' <> cs /\ fst (trainer_save cs' (Some 8)) = Err ValueError /\ fst (trainer_save cs' None) = Err ValueError.
Proof. exists [("state", Some 0)]. eexists. eexists. split; [vm_compute; reflexivity|]. split; [discriminate|]. split; vm_compute; reflexivity. Qed.
Print Assumptions C70_trainer_refuted.

(** Saving without metrics hands on what was given and leaves the dictionary alone; with metrics everything but the metrics is as given. *)
Theorem C70_trainer : forall (O : Type) (cs : list (string * option O)) m, NoDup (map fst cs) ->
  (snd (trainer_save cs None) = cs) /\ (forall d, fst (trainer_save cs None) = Ok d -> d = cs) /\
  (forall d, fst (trainer_save cs (Some m)) = Ok d -> dget String.eqb "metrics" d = Some (Some m) /\ NoDup (map fst d) /\ forall n v, n <> "metrics" -> (In (n, v) d <-> In (n, v) cs)).
Proof.
  intros O cs m N. unfold trainer_save. destruct (match cs with [] => Err ValueError | _ => check_names (map fst cs) end) as [u|e]; simpl; [|split; [reflexivity|]; split; discriminate].
  split; [reflexivity|]. split; [intros d Q; injection Q as <-; reflexivity|]. intros d Q. injection Q as <-. pose proof (Parts_Proofs.dput_nodup String.eqb String.eqb_spec "metrics" (Some m) cs N) as Nd.
  split; [rewrite (Parts_Proofs.dget_dput String.eqb String.eqb_spec), String.eqb_refl; reflexivity|]. split; [exact Nd|]. intros n v M.
  rewrite <- (Tree_Proofs.dget_in String.eqb String.eqb_spec n v _ Nd), <- (Tree_Proofs.dget_in String.eqb String.eqb_spec n v _ N), (Parts_Proofs.dget_dput String.eqb String.eqb_spec). destruct (String.eqb_spec n "metrics"); [contradiction|reflexivity].
Qed.
Print Assumptions C70_trainer.

Example C70_trainer_ex : trainer_save [("state", Some 0); ("it", None)] (Some 7) = (Ok [("state", Some 0); ("it", None); ("metrics", Some 7)], [("state", Some 0); ("it", None); ("metrics", Some 7)]) /\ trainer_save [("state", Some 0)] None = (Ok [("state", Some 0)], [("state", Some 0)]).
Proof. split; vm_compute; reflexivity. Qed.

(** An old checkpoint that is itself a tree is loaded without a name from its own directory, with the one handler that its metadata says, under its own name; it has no parts to be asked for. *)
Theorem C70_direct : forall (O : Type) (W : world O) (I : io O) r p l flat fl, p_node p = Some (Dir l) -> get_layout p ORBAX = Ok V0 -> there "_METADATA" l ->
  (forall a, (forall n, a = Some n -> check_names (map fst n) = Ok tt) -> load_checkpointables W I r p ORBAX a = Err ValueError) /\ checkpointables_metadata W I r p ORBAX = Err ValueError /\
  (forall ts h, (read_metadata l = SNone /\ ts = None) \/ (exists s, read_metadata l = SOne s /\ ts = Some s) ->
     (forall a, single_for_load W r (p_name p) a ts = Ok h -> load W I r p ORBAX flat a None = io_load I h a l) /\
     (single_for_load W r (p_name p) None ts = Ok h -> metadata W I r p ORBAX fl None = rmap Some (io_meta I h l))).
Proof.
  intros O W I r p l flat fl Ep G M. pose proof (entries_dir p l Ep) as El.
  assert (is_direct p = true) as D. { unfold is_direct. rewrite El. assert (holds pytree_metadata_file l = true) as -> by (apply holds_iff; exact M). destruct (read_metadata l); reflexivity. }
  split; [|split].
  - intros a C. unfold load_checkpointables. assert (match a with Some k => check_names (map fst k) | None => Ok tt end = Ok tt) as -> by (destruct a; auto). cbn [rbind]. rewrite G. cbn [rbind]. unfold v0_load_checkpointables. rewrite D. reflexivity.
  - unfold checkpointables_metadata. rewrite G. cbn [rbind]. unfold v0_checkpointables_metadata. rewrite D. reflexivity.
  - intros ts h R. assert (resolve p ORBAX None = Ok (V0, None)) as Rs. { unfold resolve. rewrite G. cbn [rbind validate]. unfold v0_validate. rewrite El. assert (holds pytree_metadata_file l = true) as -> by (apply holds_iff; exact M). reflexivity. }
    assert (saved_typestr_direct (read_metadata l) = ts /\ forall d, read_metadata l <> SMany d) as [Ts Nm]. { destruct R as [[R ->]|[s [R ->]]]; rewrite R; split; try reflexivity; discriminate. }
    split.
    + intros a S. unfold load. cbn [check_name rbind]. rewrite Rs. cbn [rbind fst snd]. unfold v0_load, handler_direct. rewrite El. destruct (read_metadata l) as [|s|d] eqn:Q; [| |exfalso; exact (Nm d eq_refl)]; rewrite Ts, S; reflexivity.
    + intros S. unfold metadata. cbn [check_name rbind]. rewrite Rs. cbn [rbind fst snd]. unfold v0_metadata, handler_direct. rewrite D, El, Ts, S. reflexivity.
Qed.
Print Assumptions C70_direct.

(** So is one whose metadata says one handler, whatever files it has: it has no parts to be asked for. *)
Theorem C70_direct_one : forall (O : Type) (W : world O) (I : io O) r p l t, p_node p = Some (Dir l) -> get_layout p ORBAX = Ok V0 -> read_metadata l = SOne t ->
  (forall a, (forall n, a = Some n -> check_names (map fst n) = Ok tt) -> load_checkpointables W I r p ORBAX a = Err ValueError) /\ checkpointables_metadata W I r p ORBAX = Err ValueError.
Proof.
  intros O W I r p l t Ep G M. pose proof (entries_dir p l Ep) as El.
  assert (is_direct p = true) as D by (unfold is_direct; rewrite El, M; reflexivity).
  split.
  - intros a C. unfold load_checkpointables. assert (match a with Some k => check_names (map fst k) | None => Ok tt end = Ok tt) as -> by (destruct a; auto). cbn [rbind]. rewrite G. cbn [rbind]. unfold v0_load_checkpointables. rewrite D. reflexivity.
  - unfold checkpointables_metadata. rewrite G. cbn [rbind]. unfold v0_checkpointables_metadata. rewrite D. reflexivity.
Qed.
Print Assumptions C70_direct_one.

Example C70_direct_one_ex : load_checkpointables ex_world ex_io ex_global (ex_at [("a", Dir []); ("_CHECKPOINT_METADATA", File (CMeta (SOne "v0.Standard")))]) ORBAX None = Err ValueError /\
  get_layout (ex_at [("a", Dir []); ("_CHECKPOINT_METADATA", File (CMeta (SOne "v0.Standard")))]) ORBAX = Ok V0.
Proof. split; vm_compute; reflexivity. Qed.

Example C70_direct_ex : load ex_world ex_io ex_global (ex_at [("_METADATA", File (COther 1)); ("data", File (COther 5)); ("_CHECKPOINT_METADATA", File (CMeta (SOne "v0.Standard")))]) ORBAX (fun _ => Err OtherError) (Some 0) None = Ok 5 /\
  load_checkpointables ex_world ex_io ex_global (ex_at [("_METADATA", File (COther 1)); ("data", File (COther 5))]) ORBAX (Some [("a", None)]) = Err ValueError.
Proof. split; vm_compute; reflexivity. Qed.

(** The metadata of a part is what the metadata of all parts has for it. *)
Theorem C70_metadata_one : forall (O : Type) (W : world O) (I : io O) r p l fl n, p_node p = Some (Dir l) -> NoDup (map fst l) -> n <> "AUTO" ->
  (forall m, metadata W I r p ORBAX fl (Some n) = Ok m -> n <> "" /\ n <> "metrics" /\ (exists d, In (n, Dir d) l /\ there "_METADATA" d) /\
     exists out, v1_checkpointables_metadata W I r p = Ok out /\ In (n, m) out) /\
  (forall out m, checkpointables_metadata W I r p ORBAX = Ok out -> NoDup (map fst out) -> In (n, m) out -> (exists d, In (n, Dir d) l /\ there "_METADATA" d) -> metadata W I r p ORBAX fl (Some n) = Ok m).
Proof.
  intros O W I r p l fl n Ep Nl Na. split.
  - intros m H. unfold metadata in H. destruct (check_name (Some n)) as [u|e] eqn:C; [|discriminate]. cbn [rbind] in H. destruct (resolve p ORBAX (Some n)) as [[y z]|e] eqn:R; [|discriminate]. cbn [rbind fst snd] in H.
    apply (C70_named p l Ep Nl) in R; [|exact Na]. destruct R as [-> [G D]]. unfold check_name in C. destruct (String.eqb_spec n "AUTO"); [contradiction|]. destruct (String.eqb_spec n "") as [|Ne]; [discriminate|]. destruct (reserved n) eqn:Rn; [discriminate|].
    split; [exact Ne|]. split; [intros ->; discriminate|]. split; [exact D|].
    assert (v1_metadata W I r p (Some n) = Ok m) as V by (destruct y; [exact H|exact H|]; exfalso; exact (proj1 (proj2 (proj2 (C70_layout p))) _ G eq_refl)). unfold v1_metadata in V.
    destruct (v1_checkpointables_metadata W I r p) as [out|e]; [|discriminate]. cbn [rbind] in V. exists out. split; [reflexivity|]. destruct (String.eqb_spec n ""); [contradiction|]. destruct (dget String.eqb n out) as [v|] eqn:Q; [|discriminate]. injection V as ->. apply (Parts_Proofs.dget_some_in String.eqb String.eqb_spec). exact Q.
  - intros out m H No J D. unfold checkpointables_metadata in H. destruct (get_layout p ORBAX) as [y|e] eqn:G; [|discriminate]. cbn [rbind] in H.
    assert (v1_checkpointables_metadata W I r p = Ok out /\ check_names (map fst out) = Ok tt) as [V C].
    { destruct y; [| |discriminate]; [destruct (v1_checkpointables_metadata W I r p) as [x|e]|unfold v0_checkpointables_metadata in H; destruct (is_direct p); [discriminate|]; destruct (v1_checkpointables_metadata W I r p) as [x|e]]; try discriminate; cbn [rbind] in H; destruct (check_names (map fst x)) as [[]|e] eqn:C; try discriminate; injection H as <-; auto. }
    apply check_names_ok in C. destruct C as [C1 C2]. assert (In n (map fst out)) as K by (apply in_map_iff; exists (n, m); auto). assert (n <> "") as Ne by (intros ->; contradiction).
    assert (check_name (Some n) = Ok tt) as Cn. { unfold check_name. destruct (String.eqb_spec n "AUTO"); [contradiction|]. destruct (String.eqb_spec n ""); [contradiction|]. rewrite (C2 n K). reflexivity. }
    assert (v1_metadata W I r p (Some n) = Ok m) as Vm. { unfold v1_metadata. rewrite V. cbn [rbind]. destruct (String.eqb_spec n ""); [contradiction|]. assert (dget String.eqb n out = Some m) as -> by (apply (Tree_Proofs.dget_in String.eqb String.eqb_spec); assumption). reflexivity. }
    unfold metadata. rewrite Cn. cbn [rbind]. assert (resolve p ORBAX (Some n) = Ok (y, Some n)) as -> by (apply (C70_named p l Ep Nl); auto). cbn [rbind fst snd]. destruct y; [exact Vm|exact Vm|]. exfalso. exact (proj1 (proj2 (proj2 (C70_layout p))) _ G eq_refl).
Qed.
Print Assumptions C70_metadata_one.

Example C70_metadata_one_ex : exists d, save_checkpointables ex_world ex_io ex_global ex_cs = Ok d /\ metadata ex_world ex_io ex_global (ex_at d) ORBAX (Err OtherError) (Some "a") = Ok (Some 100) /\ metadata ex_world ex_io ex_global (ex_at d) ORBAX (Err OtherError) (Some "z") = Err ValueError.
Proof. eexists. split; [vm_compute; reflexivity|]. split; vm_compute; reflexivity. Qed.
