(** Proofs about the files of a checkpoint saved in parts. *)
From Coq Require Import List Bool Arith Lia String Ascii Permutation.
From Verif Require Import Base Partial_Model PartialFs_Model PartialFs_Spec.
Import ListNotations.
Open Scope string_scope.

Ltac perm :=
  repeat match goal with
  | H : Permutation _ _ |- _ => pose proof (proj1 (Permutation_count_occ string_dec _ _) H); clear H
  end;
  apply (Permutation_count_occ string_dec); let x := fresh "x" in intros x;
  repeat match goal with H : forall _ : string, _ = _ |- _ => specialize (H x) end;
  rewrite ?count_occ_app in *; lia.

Section Proofs.
Context {J : Type}.
Variables merge_pytree merge_checkpoint : J -> J -> result J.
Notation node := (node J).
Notation content := (content J).

Lemma node_ind' (P : node -> Prop) :
  (forall c, P (File c)) -> (forall l, (forall n c, In (n, c) l -> P c) -> P (Dir l)) -> forall x, P x.
Proof.
  intros HF HD. fix IH 1. intros [c|l]; [apply HF|apply HD].
  induction l as [|[m v] r IHr]; intros n c I; [destruct I|].
  destruct I as [E|I]; [|exact (IHr n c I)].
  replace c with v by congruence. exact (IH v).
Qed.

(** ** Directories *)

Lemma look_put {A} n m (v : A) l : look n (put m v l) = if m =? n then Some v else look n l.
Proof.
  induction l as [|[k w] r IH]; cbn.
  - destruct (m =? n) eqn:E; reflexivity.
  - destruct (k =? m) eqn:E; cbn.
    + apply String.eqb_eq in E. subst k. destruct (m =? n) eqn:F; reflexivity.
    + destruct (k =? n) eqn:F; [|exact IH].
      destruct (m =? n) eqn:G; [|reflexivity].
      apply String.eqb_eq in F, G. subst. rewrite String.eqb_refl in E. discriminate.
Qed.

Lemma look_in {A} n (v : A) l : look n l = Some v -> In (n, v) l.
Proof.
  induction l as [|[k w] r IH]; cbn; [discriminate|].
  destruct (k =? n) eqn:E; intros H; [|right; exact (IH H)].
  apply String.eqb_eq in E. injection H as ->. subst. left. reflexivity.
Qed.

Lemma blobs_cons n (c : node) l : blobs_in ((n, c) :: l) = (blobs c ++ blobs_in l)%list.
Proof. reflexivity. Qed.

Definition ob (x : option node) : list string := match x with Some y => blobs y | None => [] end.

Lemma blobs_put n (v : node) l :
  Permutation (blobs_in (put n v l) ++ ob (look n l)) (blobs_in l ++ blobs v).
Proof.
  induction l as [|[k w] r IH]; cbn [put look].
  - cbn. rewrite !app_nil_r. apply Permutation_refl.
  - destruct (k =? n) eqn:E.
    + rewrite !blobs_cons. cbn [ob]. rewrite <- app_assoc.
      rewrite (Permutation_app_comm (blobs v)). apply Permutation_app_tail, Permutation_app_comm.
    + rewrite !blobs_cons, <- !app_assoc. apply Permutation_app_head. exact IH.
Qed.

(** ** Gathering *)

Lemma gather_done sts : gather sts = Done -> Forall (fun s => s = Done) sts.
Proof.
  induction sts as [|[|e|] r IH]; cbn; intros H.
  - constructor.
  - constructor; auto.
  - discriminate.
  - destruct (gather r); discriminate.
Qed.

Lemma done_gather sts : Forall (fun s => s = Done) sts -> gather sts = Done.
Proof. induction 1 as [|s r -> _ IH]; [reflexivity|exact IH]. Qed.

Lemma after_done sch st : after sch st = Done -> sch = Full /\ st = Done.
Proof. destruct st, sch; cbn; intros H; try discriminate; auto. Qed.

(** ** What every task guarantees *)

Lemma find_in q : forall (x : node) b, find q x = Some (Blob b) -> In b (blobs x).
Proof.
  induction q as [|n r IH]; intros [c|l] b H; cbn in H; try discriminate.
  - injection H as ->. left. reflexivity.
  - destruct (look n l) as [y|] eqn:E; [|discriminate].
    apply IH in H. clear IH. change (In b (blobs_in l)). induction l as [|[m w] l IHl]; [discriminate|].
    cbn [look] in E. rewrite blobs_cons. apply in_or_app. destruct (m =? n).
    + injection E as ->. left. exact H.
    + right. exact (IHl E).
Qed.

(** No data is lost; what was merged stays; a task that ends has put every data file of the source
    where nothing was. *)
Definition G (pl : list string -> list string) (s : node) (d : option node) (e : effect (J := J)) : Prop :=
  let '(s', d', st) := e in
  Permutation (ob s' ++ ob d') (blobs s ++ ob d) /\ (st = Done -> ob s' = []) /\ (d' = None -> d = None) /\
  (forall q b, has q b d -> has q b d') /\
  (st = Done -> forall q b, find q s = Some (Blob b) ->
     has (pl q) b d' /\ forall b', ~ has (pl q) b' d).

(** The same for the tasks of a [gather]. *)
Definition GC (pl : list string -> list string) (ss ds : list (string * node))
    (e : list (string * node) * list (string * node) * list status) : Prop :=
  let '(ss', ds', sts) := e in
  Permutation (blobs_in ss' ++ blobs_in ds') (blobs_in ss ++ blobs_in ds) /\
  (gather sts = Done -> blobs_in ss' = []) /\
  (forall q b, has q b (Some (Dir ds)) -> has q b (Some (Dir ds'))) /\
  (gather sts = Done -> forall q b, find q (Dir ss) = Some (Blob b) ->
     has (pl q) b (Some (Dir ds')) /\ forall b', ~ has (pl q) b' (Some (Dir ds))).

Definition cpl (nn : string -> string) (pl : string -> node -> list string -> list string)
    (ss : list (string * node)) (q : list string) : list string :=
  match q with
  | [] => []
  | n :: r => match look n ss with Some c => nn n :: pl n c r | None => q end
  end.

Lemma has_put q b n (d d' : option node) ds :
  d = look n ds -> (d' = None -> d = None) -> (forall q b, has q b d -> has q b d') ->
  has q b (Some (Dir ds)) -> has q b (Some (Dir (putd n d' ds))).
Proof.
  intros -> N HM [y [E F]]. injection E as <-. destruct q as [|m r]; [discriminate|]. cbn in F.
  destruct (look m ds) as [y|] eqn:L; [|discriminate].
  exists (Dir (putd n d' ds)). split; [reflexivity|]. cbn [find].
  destruct d' as [v|]; cbn [putd].
  - rewrite look_put. destruct (n =? m) eqn:E; [|rewrite L; exact F].
    apply String.eqb_eq in E. subst m.
    destruct (HM r b) as [z [Z1 Z2]]; [exists y; auto|]. injection Z1 as <-. exact Z2.
  - rewrite L. exact F.
Qed.

Lemma mc_good nn pl f ss :
  (forall sch n c d, In (n, c) ss -> G (pl n c) c d (f sch n c d)) -> forall sch ds,
  GC (cpl nn pl ss) ss ds (merge_children nn f sch ss ds).
Proof.
  induction ss as [|[n c] r IH]; intros HG sch ds; cbn [merge_children].
  - repeat split; [apply Permutation_refl|auto|destruct q; discriminate|destruct q; discriminate].
  - assert (Gc := HG (child sch n) n c (look (nn n) ds) (or_introl eq_refl)).
    destruct (f (child sch n) n c (look (nn n) ds)) as [[c' d'] st] eqn:E. cbn in Gc.
    destruct Gc as [Kp [Kd [Kn [KM KP]]]].
    assert (IH' := IH (fun sch n c d I => HG sch n c d (or_intror I)) sch (putd (nn n) d' ds)). clear IH.
    fold (merge_children nn f sch). destruct (merge_children nn f sch r (putd (nn n) d' ds)) as [[r' ds'] sts].
    destruct IH' as [Ip [Id [IM IP]]].
    assert (Hp : Permutation (blobs_in (putd (nn n) d' ds) ++ ob (look (nn n) ds)) (blobs_in ds ++ ob d')).
    { destruct d' as [v|]; cbn [putd ob]; [apply blobs_put|].
      rewrite (Kn eq_refl). apply Permutation_refl. }
    assert (HM : forall q b, has q b (Some (Dir ds)) -> has q b (Some (Dir (putd (nn n) d' ds)))).
    { intros q b. apply (has_put q b (nn n) (look (nn n) ds)); auto. }
    unfold GC. split; [|split; [|split]].
    + assert (S : Permutation (blobs_in (match c' with Some x => (n, x) :: r' | None => r' end))
                    (ob c' ++ blobs_in r')) by (destruct c'; apply Permutation_refl).
      rewrite blobs_cons. perm.
    + cbn [gather]. intros D. destruct st; [|discriminate|destruct (gather sts); discriminate].
      assert (O := Kd eq_refl). destruct c' as [x|]; cbn [ob] in O; [rewrite blobs_cons, O|]; exact (Id D).
    + intros q b H. apply IM, HM, H.
    + cbn [gather]. intros D. destruct st; [|discriminate|destruct (gather sts); discriminate].
      intros [|m q] b F; [discriminate|]. cbn [find look cpl] in F |- *.
      destruct (n =? m) eqn:Em.
      * apply String.eqb_eq in Em. subst m. destruct (KP eq_refl q b F) as [P1 P2]. split.
        -- apply IM. destruct P1 as [y [-> Y]]. exists (Dir (putd (nn n) (Some y) ds)). split; [reflexivity|].
           cbn [putd find]. rewrite look_put, String.eqb_refl. exact Y.
        -- intros b' [z [Z1 Z2]]. injection Z1 as <-. cbn [find] in Z2.
           destruct (look (nn n) ds) as [y|]; [|discriminate]. apply (P2 b'). exists y. auto.
      * destruct (look m r) as [y|] eqn:L; [|discriminate].
        destruct (IP D (m :: q) b) as [P1 P2]; [cbn [find]; rewrite L; exact F|].
        cbn [cpl] in P1, P2. rewrite L in P1, P2. split; [exact P1|].
        intros b' H. exact (P2 b' (HM _ _ H)).
Qed.

Definition idp (q : list string) : list string := q.

Lemma good_cut s d : G idp s d (Some s, d, Cut).
Proof. repeat split; auto; discriminate. Qed.

Lemma good_raise s d e : G idp s d (Some s, d, Raised e).
Proof. repeat split; auto; discriminate. Qed.

Lemma no_has q b : ~ has q b (None : option node).
Proof. intros [y [E _]]. discriminate. Qed.

Lemma good_move s : G idp s None (None, Some s, Done).
Proof.
  repeat split; auto; try discriminate.
  - cbn. rewrite app_nil_r. apply Permutation_refl.
  - intros q b H. destruct (no_has _ _ H).
  - exists s. auto.
  - apply no_has.
Qed.

Lemma cpl_id ss q : cpl (fun n => n) (fun _ _ => idp) ss q = idp q.
Proof. destruct q as [|n r]; [reflexivity|]. cbn. destruct (look n ss); reflexivity. Qed.

Lemma GC_ext pl pl' ss ds e : (forall q, pl q = pl' q) -> GC pl ss ds e -> GC pl' ss ds e.
Proof.
  intros E. destruct e as [[ss' ds'] sts]. intros [A [B [C D]]].
  split; [exact A|split; [exact B|split; [exact C|]]].
  intros I q b F. rewrite <- E. exact (D I q b F).
Qed.

Lemma G_ext pl pl' s d e : (forall q, pl q = pl' q) -> G pl s d e -> G pl' s d e.
Proof.
  intros E. destruct e as [[s' d'] st]. intros [A [B [C [D F]]]].
  split; [exact A|split; [exact B|split; [exact C|split; [exact D|]]]].
  intros I q b H. rewrite <- E. exact (F I q b H).
Qed.

Definition dir_of (d : option node) (ds : list (string * node)) : Prop := d = Some (Dir ds) \/ (d = None /\ ds = []).

Lemma dir_of_ob d ds : dir_of d ds -> ob d = blobs_in ds.
Proof. intros [->|[-> ->]]; reflexivity. Qed.

Lemma dir_of_has d ds q b : dir_of d ds -> has q b d -> has q b (Some (Dir ds)).
Proof. intros [->|[-> _]] H; [exact H|destruct (no_has _ _ H)]. Qed.

Lemma good_dir pl sch ss ds d ss' ds' sts :
  dir_of d ds -> GC pl ss ds (ss', ds', sts) ->
  G pl (Dir ss) d
    match after sch (gather sts) with
    | Done => (None, Some (Dir ds'), Done)
    | st => (Some (Dir ss'), Some (Dir ds'), st)
    end.
Proof.
  intros Hd [A [B [C D]]].
  destruct (after sch (gather sts)) eqn:E; unfold G; rewrite (dir_of_ob _ _ Hd).
  - apply after_done in E. destruct E as [_ E]. rewrite (B E) in A. cbn [ob app].
    split; [exact A|split; [auto|split; [discriminate|split]]].
    + intros q b H. apply C, (dir_of_has d); auto.
    + intros _ q b H. destruct (D E q b H) as [P Q]. split; [exact P|].
      intros b' H'. exact (Q b' (dir_of_has d _ _ _ Hd H')).
  - split; [exact A|split; [discriminate|split; [discriminate|split; [|discriminate]]]].
    intros q b H. apply C, (dir_of_has d); auto.
  - split; [exact A|split; [discriminate|split; [discriminate|split; [|discriminate]]]].
    intros q b H. apply C, (dir_of_has d); auto.
Qed.

Lemma good_emptied sch ss ds d ss' ds' sts :
  dir_of d ds -> GC idp ss ds (ss', ds', sts) ->
  G idp (Dir ss) d (Some (Dir ss'), Some (Dir ds'), after sch (gather sts)).
Proof.
  intros Hd [A [B [C D]]]. unfold G. rewrite (dir_of_ob _ _ Hd).
  split; [exact A|split; [|split; [discriminate|split]]].
  - intros E. apply after_done in E. exact (B (proj2 E)).
  - intros q b H. apply C, (dir_of_has d); auto.
  - intros E q b H. apply after_done in E. destruct (D (proj2 E) q b H) as [P Q]. split; [exact P|].
    intros b' H'. exact (Q b' (dir_of_has d _ _ _ Hd H')).
Qed.

Definition no_blob (m : content -> content -> result content) : Prop :=
  forall d s r, m d s = Ok r -> (forall b, d <> Blob b) /\ (forall b, s <> Blob b) /\ (forall b, r <> Blob b).

Lemma blobs_file (c : content) : (forall b, c <> Blob b) -> blobs (File c) = [].
Proof. destruct c; intros H; try reflexivity. destruct (H s eq_refl). Qed.

Lemma has_file q b (c : content) : (forall b, c <> Blob b) -> ~ has q b (Some (File c)).
Proof. intros H [y [E F]]. injection E as <-. destruct q; [|discriminate]. cbn in F. injection F as ->. exact (H b eq_refl). Qed.

Lemma good_rename m sch s d : no_blob m -> G idp s d (rename_or_merge_json m sch s d).
Proof.
  intros Nm. unfold rename_or_merge_json.
  destruct sch as [|[|n]|l]; try apply good_cut.
  all: destruct d as [[d|d]|]; [|apply good_raise|apply good_move].
  all: destruct s as [s|s]; [|apply good_raise].
  all: destruct (m d s) as [r|e] eqn:E; [|apply good_raise].
  all: destruct (Nm _ _ _ E) as [N1 [N2 N3]].
  all: assert (Goal1 : G idp (File s) (Some (File d)) (None, Some (File r), Done)) by
    (unfold G; cbn [ob]; rewrite !blobs_file by assumption;
     split; [apply Permutation_refl|split; [auto|split; [discriminate|split]]];
     [intros q b H; destruct (has_file _ _ _ N1 H)
     |intros _ [|n0 q] b H; [cbn in H; destruct (N2 b); congruence|discriminate]]).
  1, 3: exact Goal1.
  destruct n as [|[|n]]; [| |exact Goal1].
  - unfold G; cbn [ob]. change (blobs (File Trunc)) with (@nil string). rewrite !blobs_file by assumption.
    split; [apply Permutation_refl|split; [discriminate|split; [discriminate|split; [|discriminate]]]].
    intros q b H. destruct (has_file _ _ _ N1 H).
  - unfold G; cbn [ob]. rewrite !blobs_file by assumption.
    split; [apply Permutation_refl|split; [discriminate|split; [discriminate|split; [|discriminate]]]].
    intros q b H. destruct (has_file _ _ _ N1 H).
Qed.

Lemma no_blob_json m : no_blob (merge_json m).
Proof.
  intros [] [] r; cbn; try discriminate. destruct (m j j0); [|discriminate].
  intros H. injection H as <-. repeat split; discriminate.
Qed.

Lemma no_blob_arrays : no_blob merge_arrays.
Proof. intros [] [] r; cbn; try discriminate. intros H. injection H as <-. repeat split; discriminate. Qed.

Lemma good_recursive s : forall sch d, G idp s d (recursive_merge sch s d).
Proof.
  induction s as [c|ss IH] using node_ind'; intros sch d.
  - cbn [recursive_merge]. destruct sch as [|[|n]|l]; try apply good_cut;
      (destruct d as [d|]; [apply good_raise|apply good_move]).
  - assert (MC : forall sch ds, GC idp ss ds
        (merge_children (fun n => n) (fun k _ c e => recursive_merge k c e) sch ss ds)).
    { intros sch' ds. eapply GC_ext; [apply cpl_id|]. apply mc_good. intros. apply (IH n c H). }
    cbn [recursive_merge]. fold (@recursive_merge J).
    assert (Main : G idp (Dir ss) d
      match d with
      | None => (None, Some (Dir ss), Done)
      | Some (File _) => match ss with [] => (None, d, Done) | _ => (Some (Dir ss), d, Raised OtherError) end
      | Some (Dir ds) =>
          let '(ss', ds', sts) :=
            merge_children (fun n => n) (fun k _ c e => recursive_merge k c e) sch ss ds in
          match after sch (gather sts) with
          | Done => (None, Some (Dir ds'), Done)
          | st => (Some (Dir ss'), Some (Dir ds'), st)
          end
      end).
    { destruct d as [[c|ds]|]; [| |apply good_move].
      - destruct ss; [|apply good_raise].
        split; [apply Permutation_refl|split; [auto|split; [auto|split; [auto|]]]].
        intros _ [|n q] b H; discriminate.
      - assert (M := MC sch ds). destruct (merge_children _ _ sch ss ds) as [[ss' ds'] sts].
        apply (good_dir idp sch ss ds); [left; reflexivity|exact M]. }
    destruct sch as [|[|n]|l]; try apply good_cut; destruct d as [[c|ds]|]; exact Main.
Qed.

Lemma good_arrays sch s d : G idp s d (merge_array_metadatas sch s d).
Proof.
  unfold merge_array_metadatas.
  assert (Main : forall ds, dir_of d ds -> G idp s d
      match s with
      | File _ => (Some s, Some (Dir ds), Raised OtherError)
      | Dir ss =>
        let '(ss', ds', sts) :=
          merge_children (fun n => n) (fun k _ c e => rename_or_merge_json merge_arrays k c e) sch ss ds in
        (Some (Dir ss'), Some (Dir ds'), after sch (gather sts))
      end).
  { intros ds Hd. destruct s as [c|ss].
    - unfold G. rewrite (dir_of_ob _ _ Hd).
      split; [apply Permutation_refl|split; [discriminate|split; [discriminate|split; [|discriminate]]]].
      intros q b. apply (dir_of_has _ _ _ _ Hd).
    - assert (M : GC idp ss ds (merge_children (fun n => n)
          (fun k _ c e => rename_or_merge_json merge_arrays k c e) sch ss ds)).
      { eapply GC_ext; [apply cpl_id|]. apply mc_good. intros. apply good_rename, no_blob_arrays. }
      destruct (merge_children _ _ sch ss ds) as [[ss' ds'] sts].
      apply (good_emptied sch ss ds); assumption. }
  destruct sch as [|[|n]|l]; try apply good_cut;
    (destruct d as [[c|ds]|]; [apply good_raise|apply Main; left; reflexivity|apply Main; right; auto]).
Qed.

Lemma good_item sch n s d : G idp s d (merge_item merge_pytree sch n s d).
Proof.
  unfold merge_item. destruct ((n =? "_METADATA") || (n =? "_sharding")); [apply good_rename, no_blob_json|].
  destruct (is_process_dir n).
  - destruct sch as [|[|k]|l]; try apply good_cut;
      (destruct d as [d|]; [apply good_raise|apply good_move]).
  - destruct (n =? "array_metadatas"); [apply good_arrays|apply good_recursive].
Qed.

Definition rename1 (uuid : string) (q : list string) : list string :=
  match q with [] => [] | m :: r => item_name uuid m :: r end.

Lemma G_weak pl pl' s d e :
  (forall q b, find q s = Some (Blob b) -> pl q = pl' q) -> G pl s d e -> G pl' s d e.
Proof.
  intros E. destruct e as [[s' d'] st]. intros [A [B [C [D F]]]].
  split; [exact A|split; [exact B|split; [exact C|split; [exact D|]]]].
  intros I q b H. rewrite <- (E q b H). exact (F I q b H).
Qed.

Lemma good_pytree uuid sch s d : G (rename1 uuid) s d (merge_pytree_directory merge_pytree uuid sch s d).
Proof.
  unfold merge_pytree_directory.
  assert (Cut1 : G (rename1 uuid) s d (Some s, d, Cut)) by (repeat split; auto; discriminate).
  assert (Main : forall ds, dir_of d ds -> G (rename1 uuid) s d
      match s with
      | File _ => (Some s, Some (Dir ds), Raised OtherError)
      | Dir ss =>
        let '(ss', ds', sts) := merge_children (item_name uuid) (merge_item merge_pytree) sch ss ds in
        match after sch (gather sts) with
        | Done => (None, Some (Dir ds'), Done)
        | st => (Some (Dir ss'), Some (Dir ds'), st)
        end
      end).
  { intros ds Hd. destruct s as [c|ss].
    - unfold G. rewrite (dir_of_ob _ _ Hd).
      split; [apply Permutation_refl|split; [discriminate|split; [discriminate|split; [|discriminate]]]].
      intros q b. apply (dir_of_has _ _ _ _ Hd).
    - assert (M := mc_good (item_name uuid) (fun _ _ => idp) (merge_item merge_pytree) ss
          (fun sch n c d _ => good_item sch n c d) sch ds).
      destruct (merge_children _ _ sch ss ds) as [[ss' ds'] sts].
      apply (G_weak (cpl (item_name uuid) (fun _ _ => idp) ss)).
      + intros [|n q] b H; [discriminate|]. cbn in H |- *. destruct (look n ss); [reflexivity|discriminate].
      + apply (good_dir _ sch ss ds); assumption. }
  destruct sch as [|[|n]|l]; try exact Cut1;
    (destruct d as [[c|ds]|];
     [repeat split; auto; discriminate|apply Main; left; reflexivity|apply Main; right; auto]).
Qed.

Definition place_item (uuid : string) (n : string) (c : node) (q : list string) : list string :=
  if is_pytree_item (n, c) then rename1 uuid q else q.

Lemma good_process uuid sch n s d :
  (is_indicator n = true -> blobs s = []) ->
  G (place_item uuid n s) s d (process_item merge_pytree merge_checkpoint uuid sch n s d).
Proof.
  intros HI. unfold process_item, place_item, is_pytree_item. cbn [fst snd].
  destruct (n =? "_CHECKPOINT_METADATA"); cbn [negb andb].
  - apply good_rename, no_blob_json.
  - destruct (is_indicator n); cbn [negb andb].
    + specialize (HI eq_refl). unfold merge_indicator_file.
      destruct sch as [|[|k]|l]; try apply good_cut; (destruct d as [d|]; [|apply good_move]).
      all: unfold G; cbn [ob app]; rewrite HI.
      all: split; [apply Permutation_refl|split; [auto|split; [auto|split; [auto|]]]].
      all: intros _ q b H; apply find_in in H; rewrite HI in H; destruct H.
    + destruct (is_pytree_dir s); [apply good_pytree|apply good_recursive].
Qed.

(** ** The loop over the pending directories *)

Definition all_p (ps : list (string * list (string * node))) : list string :=
  List.concat (map (fun x => blobs_in (snd x)) ps).

Lemma all_p_cons p items ps : all_p ((p, items) :: ps) = (blobs_in items ++ all_p ps)%list.
Proof. reflexivity. Qed.

Definition marks (ps : list (string * list (string * node))) : Prop :=
  forall x, In x ps -> forall n c, In (n, c) (snd x) -> is_indicator n = true -> blobs c = [].

Definition place (p : string) (items : list (string * node)) : list string -> list string :=
  cpl (fun n => n) (place_item (get_uuid_from_pending_dir_name p)) items.

Lemma mc_src nn (f : sched -> string -> node -> option node -> effect) ss : forall sch ds n x,
  In (n, x) (fst (fst (merge_children nn f sch ss ds))) ->
  exists c sch' d d' st, In (n, c) ss /\ f sch' n c d = (Some x, d', st).
Proof.
  induction ss as [|[m c] r IH]; intros sch ds n x; cbn [merge_children]; [intros []|].
  destruct (f (child sch m) m c (look (nn m) ds)) as [[c' d'] st] eqn:E.
  fold (merge_children nn f sch). assert (IH' := IH sch (putd (nn m) d' ds) n x).
  destruct (merge_children nn f sch r (putd (nn m) d' ds)) as [[r' ds'] sts]. cbn [fst] in *.
  assert (R : In (n, x) r' -> exists c0 sch' d d'0 st0, In (n, c0) ((m, c) :: r) /\ f sch' n c0 d = (Some x, d'0, st0)).
  { intros I. destruct (IH' I) as [c0 [s0 [d0 [d1 [s1 [I1 E1]]]]]].
    exists c0, s0, d0, d1, s1. split; [right; exact I1|exact E1]. }
  destruct c' as [y|]; [|exact R]. intros [I|I]; [|exact (R I)].
  inversion I; subst. exists c, (child sch n), (look (nn n) ds), d', st. split; [left; reflexivity|exact E].
Qed.

Lemma indicator_src uuid sch n c d x d' st :
  is_indicator n = true -> process_item merge_pytree merge_checkpoint uuid sch n c d = (Some x, d', st) -> x = c.
Proof.
  intros I. unfold process_item.
  destruct (n =? "_CHECKPOINT_METADATA") eqn:E.
  { apply String.eqb_eq in E. subst. discriminate. }
  rewrite I. unfold merge_indicator_file.
  destruct sch as [|[|k]|l]; try (destruct d); intros H; inversion H; reflexivity.
Qed.

Lemma mp_good ps : forall k ds, marks ps ->
  let '(q, st, ns) := merge_pending merge_pytree merge_checkpoint k ps ds in
  Permutation (all_p (pending q) ++ blobs_in (merged q)) (all_p ps ++ blobs_in ds) /\
  marks (pending q) /\
  (forall w b, has w b (Some (Dir ds)) -> has w b (Some (Dir (merged q)))) /\
  (st = Done -> pending q = [] /\ forall p items, In (p, items) ps -> forall w b,
     find w (Dir items) = Some (Blob b) -> has (place p items w) b (Some (Dir (merged q))) /\
                                           forall b', ~ has (place p items w) b' (Some (Dir ds))) /\
  (st = Done -> forall l1 p1 i1 l2 p2 i2 l3, ps = (l1 ++ (p1, i1) :: l2 ++ (p2, i2) :: l3)%list ->
     forall w1 b1 w2 b2, find w1 (Dir i1) = Some (Blob b1) -> find w2 (Dir i2) = Some (Blob b2) ->
     place p1 i1 w1 <> place p2 i2 w2).
Proof.
  induction ps as [|[p items] r IH]; intros k ds Hm; cbn [merge_pending].
  - split; [apply Permutation_refl|split; [exact Hm|split; [auto|split]]].
    + intros _. split; [reflexivity|intros p items []].
    + intros _ [|x l1]; discriminate.
  - assert (Hi : forall n c, In (n, c) items -> is_indicator n = true -> blobs c = []).
    { intros n c I. exact (Hm (p, items) (or_introl eq_refl) n c I). }
    assert (Hr : marks r) by (intros x I; exact (Hm x (or_intror I))).
    set (uuid := get_uuid_from_pending_dir_name p). set (sch := dir_sched k).
    assert (M := mc_good (fun n => n) (place_item uuid) (process_item merge_pytree merge_checkpoint uuid) items
      (fun sch n c d I => good_process uuid sch n c d (Hi n c I)) sch ds).
    assert (Sx := mc_src (fun n => n) (process_item merge_pytree merge_checkpoint uuid) items sch ds).
    change (cpl (fun n => n) (place_item uuid) items) with (place p items) in M.
    destruct (merge_children _ _ sch items ds) as [[items' ds'] sts]. cbn [fst] in Sx.
    destruct M as [A [B [C D]]].
    assert (Stop : forall st names, st <> Done ->
      let '(q, st, ns) := (mkPart ((p, items') :: r) ds', st, names : list string) in
      Permutation (all_p (pending q) ++ blobs_in (merged q)) (all_p ((p, items) :: r) ++ blobs_in ds) /\
      marks (pending q) /\
      (forall w b, has w b (Some (Dir ds)) -> has w b (Some (Dir (merged q)))) /\
      (st = Done -> pending q = [] /\ forall p0 items0, In (p0, items0) ((p, items) :: r) -> forall w b,
         find w (Dir items0) = Some (Blob b) -> has (place p0 items0 w) b (Some (Dir (merged q))) /\
                                           forall b', ~ has (place p0 items0 w) b' (Some (Dir ds))) /\
      (st = Done -> forall l1 p1 i1 l2 p2 i2 l3, ((p, items) :: r) = (l1 ++ (p1, i1) :: l2 ++ (p2, i2) :: l3)%list ->
         forall w1 b1 w2 b2, find w1 (Dir i1) = Some (Blob b1) -> find w2 (Dir i2) = Some (Blob b2) ->
         place p1 i1 w1 <> place p2 i2 w2)).
    { intros st names Nd. cbn [pending merged].
      split; [|split; [|split; [exact C|split; intros E; destruct (Nd E)]]].
      - rewrite !all_p_cons. perm.
      - intros x [<-|I]; [|exact (Hr x I)]. intros n c I IN. cbn [snd] in I.
        destruct (Sx n c I) as [c0 [s0 [d0 [d1 [s1 [I1 E1]]]]]].
        apply indicator_src in E1; [|exact IN]. subst c0. exact (Hi n c I1 IN). }
    destruct (after sch (gather sts)) as [|e|] eqn:Ea;
      [|exact (Stop (Raised e) [] ltac:(discriminate))|exact (Stop Cut [] ltac:(discriminate))].
    clear Stop. apply after_done in Ea. destruct Ea as [_ Ea].
    assert (IH' := IH (next_dir k) ds' Hr). destruct (merge_pending _ _ (next_dir k) r ds') as [[q st] ns].
    destruct IH' as [IA [IB [IC [ID IE]]]]. specialize (B Ea). specialize (D Ea).
    split; [|split; [exact IB|split; [|split]]].
    + rewrite all_p_cons. rewrite B in A. cbn [app] in A. perm.
    + intros w b H. apply IC, C, H.
    + intros E. destruct (ID E) as [E1 E2]. split; [exact E1|].
      intros p0 items0 [I|I] w b F.
      * inversion I; subst p0 items0. destruct (D w b F) as [P Q]. split; [apply IC, P|exact Q].
      * destruct (E2 p0 items0 I w b F) as [P Q]. split; [exact P|]. intros b' H. exact (Q b' (C _ _ H)).
    + intros E l1 p1 i1 l2 p2 i2 l3 S w1 b1 w2 b2 F1 F2. destruct l1 as [|x l1]; cbn [app] in S.
      * inversion S; subst p1 i1. destruct (ID E) as [_ E2].
        destruct (E2 p2 i2) with (w := w2) (b := b2) as [_ Q]; [|exact F2|].
        { subst r. apply in_or_app. right. left. reflexivity. }
        destruct (D w1 b1 F1) as [P _]. intros Eq. rewrite <- Eq in Q. exact (Q _ P).
      * inversion S. exact (IE E l1 p1 i1 l2 p2 i2 l3 H1 w1 b1 w2 b2 F1 F2).
Qed.

(** ** The calls of the handler *)

Lemma blobs_put_eq n (v w : node) l : look n l = Some w -> blobs v = blobs w ->
  blobs_in (put n v l) = blobs_in l.
Proof.
  induction l as [|[m u] r IH]; cbn [look put]; [discriminate|].
  destruct (m =? n); intros H E.
  - injection H as ->. rewrite !blobs_cons, E. reflexivity.
  - rewrite !blobs_cons, (IH H E). reflexivity.
Qed.

Lemma handler_good n (ds ds' : list (string * node)) : handler_finalize n ds = Ok ds' ->
  Permutation (blobs_in ds') (blobs_in ds) /\
  (forall w b, has w b (Some (Dir ds)) -> has w b (Some (Dir ds'))).
Proof.
  unfold handler_finalize. intros H.
  assert (T : forall l : list (string * node), Permutation (blobs_in ds) (blobs_in ds) /\ (forall w b, has w b (Some (Dir l)) -> has w b (Some (Dir l))))
    by (intros; split; [apply Permutation_refl|auto]).
  destruct (look n ds) as [[c|l]|] eqn:L; try (injection H as <-; apply T).
  destruct (filter is_process_dir (map fst l)) as [|x xs]; [injection H as <-; apply T|].
  set (m := File (Manifest (x :: xs))) in *.
  assert (Q : ds' = put n (Dir (put "manifest.ocdbt" m l)) ds /\
              (look "manifest.ocdbt" l = None \/ exists z, look "manifest.ocdbt" l = Some (File (Manifest z)))).
  { destruct (look "manifest.ocdbt" l) as [[[]|]|]; try discriminate; injection H as <-; eauto. }
  clear H. destruct Q as [-> Q].
  assert (Bl : Permutation (blobs_in (put "manifest.ocdbt" m l)) (blobs_in l)).
  { assert (P := blobs_put "manifest.ocdbt" m l). cbn [m blobs] in P. rewrite app_nil_r in P.
    destruct Q as [Q|[z Q]]; rewrite Q in P; cbn [ob blobs] in P; rewrite app_nil_r in P; exact P. }
  split.
  - assert (P := blobs_put n (Dir (put "manifest.ocdbt" m l)) ds). rewrite L in P. cbn [ob] in P.
    change (blobs (Dir (put "manifest.ocdbt" m l))) with (blobs_in (put "manifest.ocdbt" m l)) in P.
    change (blobs (Dir l)) with (blobs_in l) in P. perm.
  - intros w b. apply (has_put w b n (look n ds) (Some (Dir (put "manifest.ocdbt" m l)))); [reflexivity|discriminate|].
    rewrite L. intros q b' Hq.
    refine (has_put q b' "manifest.ocdbt" (look "manifest.ocdbt" l) (Some m) l eq_refl _ _ Hq); [discriminate|].
    intros q0 b0. destruct Q as [->|[z ->]]; [intros X; destruct (no_has _ _ X)|].
    intros X. apply has_file in X; [destruct X|discriminate].
Qed.

Lemma pytrees_good names : forall ds : list (string * node), let '(ds', st) := finalize_pytrees names ds in
  Permutation (blobs_in ds') (blobs_in ds) /\
  (forall w b, has w b (Some (Dir ds)) -> has w b (Some (Dir ds'))).
Proof.
  induction names as [|n r IH]; intros ds; cbn [finalize_pytrees]; [split; [apply Permutation_refl|auto]|].
  destruct (handler_finalize n ds) as [ds1|e] eqn:E; [|split; [apply Permutation_refl|auto]].
  apply handler_good in E. destruct E as [E1 E2]. assert (IH' := IH ds1).
  destruct (finalize_pytrees r ds1) as [ds' st]. destruct IH' as [I1 I2].
  split; [etransitivity; eassumption|auto].
Qed.

(** ** Finalization *)

Lemma mall_good k p : marks (pending p) ->
  let '(q, st) := merge_all merge_pytree merge_checkpoint k p in
  Permutation (all_p (pending q) ++ blobs_in (merged q)) (all_p (pending p) ++ blobs_in (merged p)) /\
  marks (pending q) /\
  (forall w b, has w b (Some (Dir (merged p))) -> has w b (Some (Dir (merged q)))) /\
  (st = Done -> pending q = [] /\ forall x items, In (x, items) (pending p) -> forall w b,
     find w (Dir items) = Some (Blob b) -> has (place x items w) b (Some (Dir (merged q)))) /\
  (st = Done -> forall l1 p1 i1 l2 p2 i2 l3, pending p = (l1 ++ (p1, i1) :: l2 ++ (p2, i2) :: l3)%list ->
     forall w1 b1 w2 b2, find w1 (Dir i1) = Some (Blob b1) -> find w2 (Dir i2) = Some (Blob b2) ->
     place p1 i1 w1 <> place p2 i2 w2).
Proof.
  intros Hm. unfold merge_all. assert (M := mp_good (pending p) k (merged p) Hm).
  destruct (merge_pending _ _ k (pending p) (merged p)) as [[q st] names].
  destruct M as [A [B [C [D E]]]].
  destruct st as [|e|].
  - assert (P := pytrees_good (match k with InHandler n => firstn n names | _ => names end) (merged q)).
    destruct (finalize_pytrees _ (merged q)) as [ds st']. destruct P as [P1 P2]. cbn [pending merged].
    split; [perm|split; [exact B|split; [auto|split]]].
    + intros _. destruct (D eq_refl) as [D1 D2]. split; [exact D1|].
      intros x items I w b F. apply P2. exact (proj1 (D2 x items I w b F)).
    + intros _. exact (E eq_refl).
  - split; [exact A|split; [exact B|split; [exact C|split; discriminate]]].
  - split; [exact A|split; [exact B|split; [exact C|split; discriminate]]].
Qed.

Lemma indicator_names n : is_indicator n = true <-> n = "orbax.checkpoint" \/ n = "commit_success.txt".
Proof.
  unfold is_indicator. rewrite orb_true_iff, !String.eqb_eq. reflexivity.
Qed.

Lemma marks_ok_marks (s : session J) p : marks_ok s -> s_partial s = Some p -> marks (pending p).
Proof.
  intros H E x I n c In1 In2. apply (H p x E I n c In1). apply indicator_names. exact In2.
Qed.

Lemma finalize_kept k s s' st : marks_ok s -> finalize merge_pytree merge_checkpoint k s = (s', st) ->
  Permutation (all_blobs s') (all_blobs s) /\ marks_ok s'.
Proof.
  intros Hm. unfold finalize.
  destruct (s_final s) as [l|] eqn:Ef; [intros H; inversion H; subst; split; [apply Permutation_refl|exact Hm]|].
  destruct (s_partial s) as [p|] eqn:Ep; [|intros H; inversion H; subst; split; [apply Permutation_refl|exact Hm]].
  assert (M := mall_good k p (marks_ok_marks s p Hm Ep)).
  destruct (merge_all _ _ k p) as [q st0]. destruct M as [A [B [C [D E]]]].
  assert (R : all_blobs s = (all_p (pending p) ++ blobs_in (merged p))%list).
  { unfold all_blobs. rewrite Ef, Ep, app_nil_r. reflexivity. }
  destruct st0 as [|e|]; intros H; inversion H; subst; rewrite R.
  - destruct (D eq_refl) as [D1 _]. rewrite D1 in A |- *. unfold all_blobs. cbn [s_partial s_final map app].
    cbn in A. split; [exact A|]. intros p0 x X. discriminate.
  - unfold all_blobs. cbn [s_partial s_final]. rewrite app_nil_r. split; [exact A|].
    intros p0 x X I n c I1 I2. cbn in X. inversion X; subst. apply (B x I n c I1). apply indicator_names, I2.
  - unfold all_blobs. cbn [s_partial s_final]. rewrite app_nil_r. split; [exact A|].
    intros p0 x X I n c I1 I2. cbn in X. inversion X; subst. apply (B x I n c I1). apply indicator_names, I2.
Qed.

Lemma runs_kept ks : forall s, marks_ok s ->
  Permutation (all_blobs (fst (finalize_runs merge_pytree merge_checkpoint ks s))) (all_blobs s).
Proof.
  induction ks as [|k r IH]; intros s Hm; cbn [finalize_runs]; [apply Permutation_refl|].
  destruct (finalize _ _ k s) as [s1 st] eqn:E. destruct (finalize_kept _ _ _ _ Hm E) as [P M].
  assert (IH' := IH s1 M). destruct (finalize_runs _ _ r s1) as [s2 sts]. cbn [fst] in *.
  etransitivity; eassumption.
Qed.

Lemma filter_no_dashes u :
  no_dashes u = string_of_list_ascii (filter (fun d => negb (Ascii.eqb d "-")) (list_ascii_of_string u)).
Proof.
  induction u as [|c r IH]; [reflexivity|]. cbn. destruct (Ascii.eqb c "-"); cbn; rewrite IH; reflexivity.
Qed.

Lemma process_dir_spec m : is_process_dir m = (substring 0 14 m =? "ocdbt.process_").
Proof.
  unfold is_process_dir. apply eq_true_iff_eq. rewrite (String.prefix_correct "ocdbt.process_" m), String.eqb_eq.
  reflexivity.
Qed.

Lemma look_existsb {A} n (l : list (string * A)) :
  match look n l with Some _ => true | None => false end = existsb (fun x => fst x =? n) l.
Proof. induction l as [|[m v] r IH]; [reflexivity|]. cbn. destruct (m =? n); [reflexivity|exact IH]. Qed.

Lemma place_belongs p items w c : find w (Dir items) = Some c ->
  place p items w = belongs (get_uuid_from_pending_dir_name p) items w.
Proof.
  intros F. destruct w as [|n w]; [reflexivity|]. cbn [find] in F. unfold place, cpl.
  destruct (look n items) as [y|] eqn:L; [|discriminate].
  unfold place_item. destruct w as [|m r]; [destruct (is_pytree_item (n, y)); reflexivity|].
  unfold belongs. rewrite L.
  assert (E : is_pytree_item (n, y) =
    match y with Dir l => existsb (fun x => fst x =? "_METADATA") l | _ => false end &&
    negb (existsb (String.eqb n) ["_CHECKPOINT_METADATA"; "orbax.checkpoint"; "commit_success.txt"])).
  { unfold is_pytree_item, is_indicator, is_pytree_dir. cbn [fst snd existsb]. rewrite orb_false_r, !negb_orb.
    destruct y as [y|l]; [rewrite !andb_false_r; reflexivity|]. rewrite look_existsb.
    rewrite (andb_comm (existsb _ l)). reflexivity. }
  rewrite <- E. destruct (is_pytree_item (n, y)); [|reflexivity]. cbn [andb rename1].
  unfold item_name. rewrite process_dir_spec, filter_no_dashes.
  destruct (substring 0 14 m =? "ocdbt.process_"); reflexivity.
Qed.

Lemma finalize_done k s s' : marks_ok s -> finalize merge_pytree merge_checkpoint k s = (s', Done) ->
  exists p l, s_partial s = Some p /\ s_final s = None /\ s' = mkSess None (Some l) /\
  (forall w b, has w b (Some (Dir (merged p))) -> has w b (Some (Dir l))) /\
  (forall x items, In (x, items) (pending p) -> forall w b,
     find w (Dir items) = Some (Blob b) -> has (place x items w) b (Some (Dir l))) /\
  (forall l1 p1 i1 l2 p2 i2 l3, pending p = (l1 ++ (p1, i1) :: l2 ++ (p2, i2) :: l3)%list ->
     forall w1 b1 w2 b2, find w1 (Dir i1) = Some (Blob b1) -> find w2 (Dir i2) = Some (Blob b2) ->
     place p1 i1 w1 <> place p2 i2 w2).
Proof.
  intros Hm. unfold finalize.
  destruct (s_final s) as [l|] eqn:Ef; [discriminate|].
  destruct (s_partial s) as [p|] eqn:Ep; [|discriminate].
  assert (M := mall_good k p (marks_ok_marks s p Hm Ep)).
  destruct (merge_all _ _ k p) as [q st0]. destruct M as [A [B [C [D E]]]].
  destruct st0 as [|e|]; intros H; inversion H; subst.
  destruct (D eq_refl) as [D1 D2]. rewrite D1. cbn [map app].
  exists p, (merged q). repeat (split; [auto; fail|]). exact (E eq_refl).
Qed.

Lemma finalize_stays k s s' st : marks_ok s -> finalize merge_pytree merge_checkpoint k s = (s', st) ->
  st <> Done -> s_final s' = s_final s /\
  forall p, s_partial s = Some p -> exists p', s_partial s' = Some p' /\
    forall w b, has w b (Some (Dir (merged p))) -> has w b (Some (Dir (merged p'))).
Proof.
  intros Hm. unfold finalize.
  destruct (s_final s) as [l|] eqn:Ef.
  { intros H _. inversion H; subst. split; [exact Ef|]. intros p E. exists p. auto. }
  destruct (s_partial s) as [p|] eqn:Ep.
  2:{ intros H _. inversion H; subst. split; [exact Ef|]. intros p E. congruence. }
  assert (M := mall_good k p (marks_ok_marks s p Hm Ep)).
  destruct (merge_all _ _ k p) as [q st0]. destruct M as [A [B [C [D E]]]].
  intros H Nd. destruct st0 as [|e|]; inversion H; subst; [destruct (Nd eq_refl)| |];
    (split; [reflexivity|]; intros p0 E0; inversion E0; subst; exists q; split; [reflexivity|exact C]).
Qed.

(** ** Going on after a kill between two pending directories *)

Lemma put_same {A} n (v : A) l : look n l = Some v -> put n v l = l.
Proof.
  induction l as [|[m w] r IH]; cbn [look put]; [discriminate|].
  destruct (m =? n) eqn:E; intros H; [|rewrite (IH H); reflexivity].
  apply String.eqb_eq in E. subst. injection H as ->. reflexivity.
Qed.

Lemma putd_same {A} n (l : list (string * A)) : putd n (look n l) l = l.
Proof. destruct (look n l) eqn:E; [exact (put_same _ _ _ E)|reflexivity]. Qed.

Lemma put_put {A} n (v w : A) l : put n v (put n w l) = put n v l.
Proof.
  induction l as [|[m u] r IH]; cbn [put]; [rewrite String.eqb_refl; reflexivity|].
  destruct (m =? n) eqn:E; cbn [put]; [rewrite String.eqb_refl; reflexivity|rewrite E, IH; reflexivity].
Qed.

Lemma put_comm {A} n m (v w : A) l : n <> m -> look n l <> None -> look m l <> None ->
  put n v (put m w l) = put m w (put n v l).
Proof.
  intros D. induction l as [|[k u] r IH]; cbn [look put]; [congruence|].
  destruct (k =? n) eqn:En; destruct (k =? m) eqn:Em; intros H1 H2.
  - apply String.eqb_eq in En, Em. congruence.
  - cbn [put]. apply String.eqb_neq in Em. apply String.eqb_eq in En. subst k.
    rewrite String.eqb_refl. apply String.eqb_neq in Em. rewrite Em. reflexivity.
  - cbn [put]. apply String.eqb_eq in Em. subst k. rewrite String.eqb_refl, En. reflexivity.
  - cbn [put]. rewrite En, Em, (IH H1 H2). reflexivity.
Qed.

Lemma process_not_started uuid n c d :
  process_item merge_pytree merge_checkpoint uuid (Kill 0) n c d = (Some c, d, Cut).
Proof.
  unfold process_item. destruct (n =? "_CHECKPOINT_METADATA"); [reflexivity|].
  destruct (is_indicator n); [reflexivity|]. destruct (is_pytree_dir c); [reflexivity|]. destruct c; reflexivity.
Qed.

Lemma mc_not_started uuid items : forall ds,
  exists sts, merge_children (fun n => n) (process_item merge_pytree merge_checkpoint uuid) (Kill 0) items ds = (items, ds, sts) /\
  (gather sts = Done \/ gather sts = Cut).
Proof.
  induction items as [|[n c] r IH]; intros ds; cbn [merge_children]; [exists []; auto|].
  cbn [child]. rewrite process_not_started, putd_same. fold (merge_children (fun n => n) (process_item merge_pytree merge_checkpoint uuid) (Kill 0)).
  destruct (IH ds) as [sts [E G0]]. rewrite E. exists (Cut :: sts). split; [reflexivity|].
  right. cbn. destruct G0 as [->| ->]; reflexivity.
Qed.

Lemma mp_between ps : forall n ds q names, n < List.length ps ->
  merge_pending merge_pytree merge_checkpoint Never ps ds = (q, Done, names) ->
  exists ds1 names1 names2,
    merge_pending merge_pytree merge_checkpoint (InDir n (Kill 0)) ps ds = (mkPart (skipn n ps) ds1, Cut, names1) /\
    merge_pending merge_pytree merge_checkpoint Never (skipn n ps) ds1 = (q, Done, names2) /\
    (forall x, In x names -> In x names2 \/ exists y, In y (firstn n ps) /\ In x (map fst (filter is_pytree_item (snd y)))) /\
    exists pre, names = (pre ++ names2)%list.
Proof.
  induction ps as [|[p items] r IH]; intros n ds q names Hn H; [cbn in Hn; lia|].
  destruct n as [|n].
  - cbn [skipn]. cbn [merge_pending dir_sched].
    destruct (mc_not_started (get_uuid_from_pending_dir_name p) items ds) as [sts [E Gd]].
    rewrite E. exists ds, (map fst (filter is_pytree_item items)), names.
    split; [destruct Gd as [->| ->]; reflexivity|split; [exact H|split; [auto|exists []; reflexivity]]].
  - cbn [skipn firstn]. cbn [merge_pending dir_sched next_dir] in H |- *.
    destruct (merge_children _ _ Full items ds) as [[items' ds'] sts].
    destruct (after Full (gather sts)); [|discriminate|discriminate].
    destruct (merge_pending _ _ Never r ds') as [[q0 st0] ns] eqn:E.
    inversion H; subst q0 st0 names. cbn in Hn.
    destruct (IH n ds' q ns ltac:(lia) E) as [ds1 [n1 [n2 [E1 [E2 [E3 [pre E4]]]]]]].
    rewrite E1. exists ds1, (map fst (filter is_pytree_item items) ++ n1)%list, n2.
    split; [reflexivity|split; [exact E2|split]].
    + intros x I. apply in_app_or in I. destruct I as [I|I].
      * right. exists (p, items). split; [left; reflexivity|exact I].
      * destruct (E3 x I) as [X|[y [Y1 Y2]]]; [left; exact X|right]. exists y. split; [right; exact Y1|exact Y2].
    + exists (map fst (filter is_pytree_item items) ++ pre)%list. rewrite E4, app_assoc. reflexivity.
Qed.

Lemma map_fst_put {A} n (v : A) l : map fst (put n v l) = map fst l \/ map fst (put n v l) = (map fst l ++ [n])%list.
Proof.
  induction l as [|[m w] r IH]; cbn [put map fst]; [right; reflexivity|].
  destruct (m =? n) eqn:E; cbn [map fst app].
  - left. apply String.eqb_eq in E. subst. reflexivity.
  - destruct IH as [IH|IH]; rewrite IH; [left|right]; reflexivity.
Qed.

Lemma handler_idem n (ds ds' : list (string * node)) : handler_finalize n ds = Ok ds' -> handler_finalize n ds' = Ok ds'.
Proof.
  unfold handler_finalize at 1. destruct (look n ds) as [[c|l]|] eqn:L.
  1, 3: intros H; injection H as <-; unfold handler_finalize; rewrite L; reflexivity.
  destruct (filter is_process_dir (map fst l)) as [|x xs] eqn:Ef.
  { intros H; injection H as <-; unfold handler_finalize; rewrite L, Ef; reflexivity. }
  intros H. assert (E : ds' = put n (Dir (put "manifest.ocdbt" (File (Manifest (x :: xs))) l)) ds).
  { destruct (look "manifest.ocdbt" l) as [[[]|]|]; try discriminate; injection H as <-; reflexivity. }
  subst ds'. clear H. unfold handler_finalize. rewrite look_put, String.eqb_refl.
  assert (F : filter is_process_dir (map fst (put "manifest.ocdbt" (File (Manifest (x :: xs))) l)) = x :: xs).
  { destruct (map_fst_put "manifest.ocdbt" (File (Manifest (x :: xs))) l) as [M|M]; rewrite M; [exact Ef|].
    rewrite filter_app, Ef. cbn. rewrite app_nil_r. reflexivity. }
  rewrite F, look_put, String.eqb_refl. rewrite !put_put. reflexivity.
Qed.

Lemma handler_other n m (ds ds' : list (string * node)) : n <> m -> handler_finalize n ds = Ok ds' ->
  look m ds' = look m ds /\ (exists v, ds' = put n v ds /\ look n ds <> None) \/ ds' = ds.
Proof.
  intros D. unfold handler_finalize. destruct (look n ds) as [[c|l]|] eqn:L.
  1, 3: intros H; injection H as <-; right; reflexivity.
  destruct (filter is_process_dir (map fst l)) as [|x xs] eqn:Ef.
  { intros H; injection H as <-; right; reflexivity. }
  intros H. assert (E : ds' = put n (Dir (put "manifest.ocdbt" (File (Manifest (x :: xs))) l)) ds).
  { destruct (look "manifest.ocdbt" l) as [[[]|]|]; try discriminate; injection H as <-; reflexivity. }
  left. subst ds'. split.
  - rewrite look_put. apply String.eqb_neq in D. rewrite D. reflexivity.
  - eexists. split; [reflexivity|discriminate].
Qed.

Lemma handler_shape n (ds : list (string * node)) :
  (forall ds2, look n ds2 = look n ds -> handler_finalize n ds2 = Ok ds2) \/
  (exists v, look n ds <> None /\ forall ds2, look n ds2 = look n ds -> handler_finalize n ds2 = Ok (put n v ds2)) \/
  (exists e, handler_finalize n ds = Err e).
Proof.
  unfold handler_finalize. destruct (look n ds) as [[c|l]|] eqn:L.
  1, 3: left; intros ds2 ->; reflexivity.
  destruct (filter is_process_dir (map fst l)) as [|x xs] eqn:Ef.
  { left. intros ds2 ->. rewrite Ef. reflexivity. }
  assert (W : look "manifest.ocdbt" l = None \/ (exists z, look "manifest.ocdbt" l = Some (File (Manifest z))) \/
     match look "manifest.ocdbt" l with
     | None | Some (File (Manifest _)) => Ok (put n (Dir (put "manifest.ocdbt" (File (Manifest (x :: xs))) l)) ds)
     | Some _ => Err ValueError
     end = Err ValueError).
  { destruct (look "manifest.ocdbt" l) as [[[]|]|]; eauto. }
  destruct W as [W|[[z W]|W]].
  - right. left. eexists. split; [discriminate|]. intros ds2 ->. rewrite Ef, W. reflexivity.
  - right. left. eexists. split; [discriminate|]. intros ds2 ->. rewrite Ef, W. reflexivity.
  - right. right. eexists. exact W.
Qed.

Lemma handler_comm n m (ds ds1 ds2 : list (string * node)) : n <> m ->
  handler_finalize n ds = Ok ds1 -> handler_finalize m ds1 = Ok ds2 ->
  exists ds3, handler_finalize m ds = Ok ds3 /\ handler_finalize n ds3 = Ok ds2.
Proof.
  intros D H1 H2. assert (D' := D). apply String.eqb_neq in D'. assert (D2 : (m =? n) = false) by (apply String.eqb_neq; congruence).
  destruct (handler_shape n ds) as [S1|[[v [N1 S1]]|[e S1]]]; [| |congruence].
  - rewrite (S1 ds eq_refl) in H1. injection H1 as <-. exists ds2. split; [exact H2|].
    apply S1. destruct (handler_shape m ds) as [S2|[[w [N2 S2]]|[e S2]]]; [| |congruence].
    + rewrite (S2 ds eq_refl) in H2. injection H2 as <-. reflexivity.
    + rewrite (S2 ds eq_refl) in H2. injection H2 as <-. rewrite look_put, D2. reflexivity.
  - rewrite (S1 ds eq_refl) in H1. injection H1 as <-.
    assert (Lm : look m (put n v ds) = look m ds) by (rewrite look_put, D'; reflexivity).
    destruct (handler_shape m ds) as [S2|[[w [N2 S2]]|[e S2]]].
    + rewrite (S2 _ Lm) in H2. injection H2 as <-. exists ds. split; [apply S2; reflexivity|apply S1; reflexivity].
    + rewrite (S2 _ Lm) in H2. injection H2 as <-. exists (put m w ds). split; [apply S2; reflexivity|].
      rewrite S1 by (rewrite look_put, D2; reflexivity). f_equal. apply put_comm; assumption.
    + destruct (handler_shape m (put n v ds)) as [S3|[[w [N3 S3]]|[e3 S3]]]; [| |congruence].
      * rewrite (S3 ds (eq_sym Lm)) in S2. discriminate.
      * rewrite (S3 ds (eq_sym Lm)) in S2. discriminate.
Qed.

Lemma pytrees_skip a l : forall ds ds1 ds' : list (string * node), In a l ->
  handler_finalize a ds = Ok ds1 -> finalize_pytrees l ds1 = (ds', Done) -> finalize_pytrees l ds = (ds', Done).
Proof.
  induction l as [|b l IH]; intros ds ds1 ds' I H1 H2; [destruct I|]. cbn [finalize_pytrees] in H2 |- *.
  destruct (handler_finalize b ds1) as [ds2|e] eqn:H3; [|discriminate].
  destruct (string_dec a b) as [->|D].
  - rewrite (handler_idem _ _ _ H1) in H3. injection H3 as <-. rewrite H1. exact H2.
  - destruct I as [E|I]; [congruence|]. destruct (handler_comm _ _ _ _ _ D H1 H3) as [ds3 [H4 H5]].
    rewrite H4. exact (IH ds3 ds2 ds' I H5 H2).
Qed.

Lemma pytrees_suffix pre l : forall ds ds' : list (string * node), (forall x, In x pre -> In x l) ->
  finalize_pytrees (pre ++ l) ds = (ds', Done) -> finalize_pytrees l ds = (ds', Done).
Proof.
  induction pre as [|a pre IH]; intros ds ds' S H; [exact H|]. cbn [app finalize_pytrees] in H.
  destruct (handler_finalize a ds) as [ds1|e] eqn:E; [|discriminate].
  apply (pytrees_skip a l ds ds1); [apply S; left; reflexivity|exact E|].
  apply IH; [intros x I; apply S; right; exact I|exact H].
Qed.

Lemma pytree_names (items : list (string * node)) n : In n (map fst (filter is_pytree_item items)) <-> pytree_in items n.
Proof.
  rewrite in_map_iff. unfold pytree_in, is_pytree_item. split.
  - intros [[m c] [<- I]]. apply filter_In in I. destruct I as [I E]. cbn [fst snd] in *.
    apply andb_true_iff in E. destruct E as [E E3]. apply andb_true_iff in E. destruct E as [E1 E2].
    apply negb_true_iff in E1, E2. apply String.eqb_neq in E1.
    unfold is_indicator in E2. apply orb_false_iff in E2. destruct E2 as [E2 E4]. apply String.eqb_neq in E2, E4.
    repeat (split; [assumption|]). destruct c as [c|l]; [discriminate|]. exists l. split; [exact I|].
    cbn in E3. destruct (look "_METADATA" l) as [x|] eqn:L; [|discriminate]. exists x. apply look_in, L.
  - intros [N1 [N2 [N3 [l [I [x M]]]]]]. exists (n, Dir l). split; [reflexivity|]. apply filter_In.
    split; [exact I|]. cbn [fst snd]. unfold is_indicator.
    apply String.eqb_neq in N1, N2, N3. rewrite N1, N2, N3. cbn. rewrite look_existsb. apply existsb_exists.
    exists ("_METADATA", x). auto.
Qed.

Lemma mp_names ps : forall ds q names, merge_pending merge_pytree merge_checkpoint Never ps ds = (q, Done, names) ->
  forall y x, In y ps -> In x (map fst (filter is_pytree_item (snd y))) -> In x names.
Proof.
  induction ps as [|[p items] r IH]; intros ds q names H y x I; [destruct I|].
  cbn [merge_pending dir_sched next_dir] in H. destruct (merge_children _ _ Full items ds) as [[items' ds'] sts].
  destruct (after Full (gather sts)); [|discriminate|discriminate].
  destruct (merge_pending _ _ Never r ds') as [[q0 st0] ns] eqn:E. inversion H; subst. clear H.
  intros X. apply in_or_app. destruct I as [<-|I]; [left; exact X|right]. exact (IH _ _ _ E y x I X).
Qed.

Lemma resume_between s p n s' : s_partial s = Some p -> n < List.length (pending p) ->
  (forall x m, In x (firstn n (pending p)) -> pytree_in (snd x) m ->
     exists y, In y (skipn n (pending p)) /\ pytree_in (snd y) m) ->
  finalize merge_pytree merge_checkpoint Never s = (s', Done) ->
  finalize_runs merge_pytree merge_checkpoint [InDir n (Kill 0); Never] s = (s', [Cut; Done]).
Proof.
  intros Ep Hn Hp. cbn [finalize_runs]. unfold finalize. rewrite Ep.
  destruct (s_final s); [discriminate|]. unfold merge_all at 1.
  destruct (merge_pending _ _ Never (pending p) (merged p)) as [[q st] names] eqn:E.
  destruct st; [|discriminate|discriminate].
  destruct (finalize_pytrees names (merged q)) as [ds st'] eqn:Ef. destruct st'; [|discriminate|discriminate].
  intros H. inversion H; subst s'. clear H. cbn [pending merged].
  destruct (mp_between _ n _ _ _ Hn E) as [ds1 [n1 [n2 [E1 [E2 [E3 [pre E4]]]]]]].
  unfold merge_all at 1. rewrite E1. cbn [s_final s_partial]. unfold merge_all. cbn [pending merged]. rewrite E2.
  subst names. apply pytrees_suffix in Ef.
  - rewrite Ef. reflexivity.
  - intros x I. destruct (E3 x (in_or_app _ _ _ (or_introl I))) as [X|[y [Y1 Y2]]]; [exact X|].
    apply pytree_names in Y2. destruct (Hp y x Y1 Y2) as [z [Z1 Z2]].
    apply pytree_names in Z2. exact (mp_names _ _ _ _ E2 z x Z1 Z2).
Qed.

(** ** Going on after a kill inside plain files *)

Lemma mc_look (f : sched -> string -> node -> option node -> effect) sch ss : NoDup (map fst ss) -> forall ds,
  let '(ss', ds', sts) := merge_children (fun n => n) f sch ss ds in
  (forall n, look n ds' = match look n ss with
     | Some c => match snd (fst (f (child sch n) n c (look n ds))) with Some v => Some v | None => look n ds end
     | None => look n ds end) /\
  (forall n, look n ss' = match look n ss with
     | Some c => fst (fst (f (child sch n) n c (look n ds)))
     | None => None end) /\
  (gather sts = Done <-> forall n c, look n ss = Some c -> snd (f (child sch n) n c (look n ds)) = Done) /\
  (forall x, In x (map fst ss') -> In x (map fst ss)) /\ NoDup (map fst ss').
Proof.
  induction ss as [|[m c] r IH]; intros ND ds; cbn [merge_children].
  - cbn. split; [auto|split; [auto|split; [split; [discriminate|auto]|split; [auto|constructor]]]].
  - inversion ND as [|x l N1 N2]; subst.
    assert (Lm : look m r = None).
    { destruct (look m r) as [v|] eqn:L; [|reflexivity]. apply look_in in L. destruct N1. apply (in_map fst) in L. exact L. }
    destruct (f (child sch m) m c (look m ds)) as [[c' d'] st] eqn:E.
    fold (merge_children (fun n => n) f sch). assert (IH' := IH N2 (putd m d' ds)).
    destruct (merge_children (fun n => n) f sch r (putd m d' ds)) as [[r' ds'] sts].
    destruct IH' as [A [B [C [D F]]]].
    assert (Lp : forall n, n <> m -> look n (putd m d' ds) = look n ds).
    { intros n Dn. destruct d' as [v|]; [|reflexivity]. cbn. rewrite look_put.
      destruct (m =? n) eqn:X; [apply String.eqb_eq in X; congruence|reflexivity]. }
    assert (Lr : look m r' = None).
    { rewrite B, Lm. reflexivity. }
    split; [|split; [|split; [|split]]].
    + intros n. cbn [look]. rewrite A. destruct (m =? n) eqn:X.
      * apply String.eqb_eq in X. subst n. rewrite Lm, E. cbn [fst snd]. destruct d' as [v|]; [|reflexivity].
        cbn. rewrite look_put, String.eqb_refl. reflexivity.
      * apply String.eqb_neq in X. rewrite Lp by congruence. reflexivity.
    + intros n. cbn [look]. destruct (m =? n) eqn:X.
      * apply String.eqb_eq in X. subst n. rewrite E. cbn [fst]. destruct c' as [y|]; cbn [look].
        -- rewrite String.eqb_refl. reflexivity.
        -- exact Lr.
      * assert (Dn : n <> m) by (apply String.eqb_neq in X; congruence).
        transitivity (look n r'); [destruct c'; cbn [look]; [rewrite X|]; reflexivity|].
        rewrite B, Lp by exact Dn. reflexivity.
    + cbn [gather look]. split.
      * intros Gd n c0. destruct st; [|discriminate|destruct (gather sts); discriminate].
        destruct (m =? n) eqn:X.
        -- apply String.eqb_eq in X. subst n. intros Y. injection Y as <-. rewrite E. reflexivity.
        -- intros Y. rewrite <- (Lp n) by (apply String.eqb_neq in X; congruence). apply C; assumption.
      * intros Al. assert (St := Al m c). rewrite String.eqb_refl, E in St. specialize (St eq_refl). cbn in St. subst st.
        apply C. intros n c0 Y. rewrite Lp by (intros ->; congruence). apply Al.
        destruct (m =? n) eqn:X; [apply String.eqb_eq in X; subst; congruence|exact Y].
    + intros x. destruct c'; cbn; [intros [Y|Y]|intros Y]; auto.
    + destruct c' as [y|]; [|exact F]. cbn. constructor; [|exact F]. intros I. exact (N1 (D _ I)).
Qed.

Lemma same_find (ds1 ds2 : list (string * node)) :
  (forall n, same (look n ds1) (look n ds2)) -> same (Some (Dir ds1)) (Some (Dir ds2)).
Proof.
  intros H [|n q]; cbn [find]; [reflexivity|]. specialize (H n). unfold same in H.
  destruct (look n ds1), (look n ds2); try contradiction; [apply H|reflexivity].
Qed.

Lemma same_refl (x : option node) : same x x.
Proof. destruct x; cbn; auto. Qed.

Lemma rec_resume (s : node) : distinct s -> forall sch d d',
  recursive_merge Full s d = (None, Some d', Done) ->
  let '(s1, d1, st) := recursive_merge sch s d in
  match s1 with
  | None => same d1 (Some d')
  | Some x => exists d2, recursive_merge Full x d1 = (None, Some d2, Done) /\ same (Some d2) (Some d')
  end.
Proof.
  induction s as [c|ss IH] using node_ind'; intros Hd sch d d' H.
  - destruct d as [d|]; [discriminate|]. cbn in H. injection H as <-.
    destruct sch as [|[|n]|l]; cbn; auto. exists (File c). auto.
  - inversion Hd as [|l0 ND Hc]; subst.
    assert (Base : recursive_merge sch (Dir ss) d = (Some (Dir ss), d, Cut) ->
      let '(s1, d1, st) := recursive_merge sch (Dir ss) d in
      match s1 with
      | None => same d1 (Some d')
      | Some x => exists d2, recursive_merge Full x d1 = (None, Some d2, Done) /\ same (Some d2) (Some d')
      end).
    { intros ->. exists d'. split; [exact H|apply same_refl]. }
    assert (EqF : recursive_merge sch (Dir ss) d = (None, Some d', Done) ->
      let '(s1, d1, st) := recursive_merge sch (Dir ss) d in
      match s1 with
      | None => same d1 (Some d')
      | Some x => exists d2, recursive_merge Full x d1 = (None, Some d2, Done) /\ same (Some d2) (Some d')
      end).
    { intros ->. apply same_refl. }
    destruct d as [[c|ds]|].
    + destruct ss; [|discriminate]. destruct sch as [|[|n]|l]; [apply EqF, H|apply Base; reflexivity|apply EqF, H|apply EqF, H].
    + clear EqF. set (g := fun (k : sched) (_ : string) (c : node) (e : option node) => recursive_merge k c e).
      assert (Unf : forall sch x ds0, (sch <> Kill 0) -> recursive_merge sch (Dir x) (Some (Dir ds0)) =
        let '(ss', ds', sts) := merge_children (fun n => n) g sch x ds0 in
        match after sch (gather sts) with
        | Done => (None, Some (Dir ds'), Done)
        | st => (Some (Dir ss'), Some (Dir ds'), st)
        end).
      { intros sch0 x ds0 N. cbn [recursive_merge]. destruct sch0 as [|[|n]|l]; [reflexivity|congruence|reflexivity|reflexivity]. }
      rewrite Unf in H by discriminate.
      assert (L1 := mc_look g Full ss ND ds).
      destruct (merge_children (fun n => n) g Full ss ds) as [[ssF dsF] stsF] eqn:EF.
      destruct L1 as [A1 [_ [C1 _]]].
      destruct (after Full (gather stsF)) eqn:Ea; [|discriminate|discriminate]. inversion H; subst d'. clear H.
      apply after_done in Ea. destruct Ea as [_ Ea]. rewrite C1 in Ea. clear C1. cbn [child] in A1, Ea.
      destruct sch as [|[|k]|l].
      * rewrite Unf by discriminate. rewrite EF.
        assert (X : after Full (gather stsF) = Done).
        { assert (L1 := mc_look g Full ss ND ds). rewrite EF in L1. destruct L1 as [_ [_ [C1 _]]].
          cbn [child] in C1. rewrite (proj2 C1 Ea). reflexivity. }
        rewrite X. apply same_refl.
      * apply Base. reflexivity.
      * apply Base. clear Base. rewrite Unf by discriminate.
        assert (Z : forall r e, exists sts, merge_children (fun n => n) g (Kill (S k)) r e = (r, e, sts) /\
                      (gather sts = Done \/ gather sts = Cut)).
        { clear. induction r as [|[n c] r IH]; intros e; cbn [merge_children]; [exists []; auto|].
          unfold g at 1. cbn [child]. assert (E0 : recursive_merge (Kill 0) c (look n e) = (Some c, look n e, Cut)) by (destruct c; reflexivity).
          rewrite E0, putd_same. fold (merge_children (fun n => n) g (Kill (S k))).
          destruct (IH e) as [sts [E G0]]. rewrite E. exists (Cut :: sts). split; [reflexivity|].
          right. cbn. destruct G0 as [->| ->]; reflexivity. }
        destruct (Z ss ds) as [sts [E Gd]]. rewrite E. destruct Gd as [->| ->]; reflexivity.
      * rewrite Unf by discriminate.
        assert (L2 := mc_look g (Inside l) ss ND ds).
        destruct (merge_children (fun n => n) g (Inside l) ss ds) as [[ss1 ds1] sts1].
        destruct L2 as [A2 [B2 [_ [_ ND1]]]].
        assert (R : exists d2, recursive_merge Full (Dir ss1) (Some (Dir ds1)) = (None, Some d2, Done) /\ same (Some d2) (Some (Dir dsF))).
        { rewrite Unf by discriminate.
          assert (L3 := mc_look g Full ss1 ND1 ds1).
          destruct (merge_children (fun n => n) g Full ss1 ds1) as [[ss2 ds2] sts2].
          destruct L3 as [A3 [_ [C3 _]]]. cbn [child] in A3, C3.
          (* each child after the second run *)
          assert (Each : forall n c, look n ss = Some c ->
            match fst (fst (g (child (Inside l) n) n c (look n ds))) with
            | None => same (look n ds1) (look n dsF)
            | Some x => exists d2, g Full n x (look n ds1) = (None, Some d2, Done) /\ same (Some d2) (look n dsF)
            end).
          { intros n c Ln. assert (Hin := look_in _ _ _ Ln).
            assert (Df := Ea n c Ln). assert (Gf := good_recursive c Full (look n ds)).
            assert (Al := A1 n). rewrite Ln in Al. unfold g in Df, Al.
            destruct (recursive_merge Full c (look n ds)) as [[cf df] stf] eqn:Ef. cbn [fst snd] in Df, Al. subst stf.
            assert (Hcf : cf = None /\ exists v, df = Some v).
            { clear - Ef. destruct c as [c|x]; cbn [recursive_merge] in Ef; destruct (look n ds) as [[e|e]|];
                try discriminate; try (inversion Ef; subst; eauto; fail).
              - destruct x; [|discriminate]. inversion Ef; subst; eauto.
              - destruct (merge_children (fun n => n) _ Full x e) as [[x1 x2] x3].
                destruct (after Full (gather x3)); inversion Ef; subst; eauto. }
            destruct Hcf as [-> [v ->]]. cbn iota in Al. rewrite Al.
            assert (I := IH n c Hin (Hc (n, c) Hin) (child (Inside l) n) (look n ds) v Ef).
            assert (Gi := good_recursive c (child (Inside l) n) (look n ds)).
            assert (A2n := A2 n). rewrite Ln in A2n. unfold g in A2n |- *.
            destruct (recursive_merge (child (Inside l) n) c (look n ds)) as [[c1 dd1] st1].
            cbn [fst snd] in A2n |- *. destruct Gi as [_ [_ [Gn _]]].
            assert (Ld : look n ds1 = dd1).
            { rewrite A2n. destruct dd1; [reflexivity|]. exact (Gn eq_refl). }
            rewrite Ld. destruct c1 as [x|]; exact I. }
          assert (G2 : gather sts2 = Done).
          { apply C3. intros n x Lx. rewrite B2 in Lx. destruct (look n ss) as [c|] eqn:Ln; [|discriminate].
            assert (X := Each n c Ln). rewrite Lx in X. destruct X as [d2 [X _]]. rewrite X. reflexivity. }
          rewrite G2. cbn [after]. exists (Dir ds2). split; [reflexivity|]. apply same_find. intros n.
          rewrite A3, B2. destruct (look n ss) as [c|] eqn:Ln.
          - assert (X := Each n c Ln). destruct (fst (fst (g (child (Inside l) n) n c (look n ds)))) as [x|].
            + destruct X as [d2 [X1 X2]]. rewrite X1. exact X2.
            + exact X.
          - rewrite A1, A2, Ln. apply same_refl. }
        destruct (after (Inside l) (gather sts1)) eqn:E2.
        -- apply after_done in E2. destruct E2. discriminate.
        -- exact R.
        -- exact R.
    + destruct sch as [|[|n]|l]; [apply EqF, H|apply Base; reflexivity|apply EqF, H|apply EqF, H].
Qed.
End Proofs.

(** ** Saves *)

Lemma write_run i : forall files s fs, tmp s = Some fs ->
  fold_left save_step (map (Write i) files) s = mkSaves (Some (fs ++ files)%list) (committed s) (failed s).
Proof.
  induction files as [|f r IH]; intros [t c d] fs E; cbn in E |- *; subst t; [rewrite app_nil_r; reflexivity|].
  rewrite (IH (mkSaves (Some (fs ++ [f])%list) c d) (fs ++ [f])%list eq_refl). cbn. rewrite <- app_assoc. reflexivity.
Qed.

Lemma one_save_run i files s :
  fold_left save_step (one_save i files) s = mkSaves None (committed s ++ [(i, files)])%list (failed s).
Proof.
  unfold one_save. cbn [fold_left]. rewrite fold_left_app. rewrite (write_run i files (save_step s (Create i)) [] eq_refl). reflexivity.
Qed.

Lemma saves_run l : forall s,
  let s' := fold_left save_step (List.concat (map (fun x => one_save (fst x) (snd x)) l)) s in
  committed s' = (committed s ++ l)%list /\ failed s' = failed s /\ (l <> [] -> tmp s' = None).
Proof.
  induction l as [|[i files] r IH]; intros s; cbn zeta.
  - cbn. rewrite app_nil_r. repeat split. congruence.
  - cbn [map List.concat fst snd]. rewrite fold_left_app, one_save_run.
    destruct (IH (mkSaves None (committed s ++ [(i, files)])%list (failed s))) as [A [B C]].
    cbn [committed failed] in A, B. rewrite A, B, <- app_assoc. repeat split.
    intros _. destruct r as [|x r]; [reflexivity|]. apply C. discriminate.
Qed.
