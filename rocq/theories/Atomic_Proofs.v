From Coq Require Import List Bool String Ascii Arith Lia.
From Verif Require Import Base Atomic_Model Atomic_Spec.
Import ListNotations.
Local Open Scope string_scope.
Local Open Scope list_scope.

(** * Strings *)

Lemma app_str_assoc : forall a b c : string, ((a ++ b) ++ c = a ++ (b ++ c))%string.
Proof. induction a; simpl; intros; [auto|rewrite IHa; auto]. Qed.

Lemma app_str_nil_r : forall a : string, (a ++ "" = a)%string.
Proof. induction a; simpl; congruence. Qed.

Lemma app_str_length : forall a b : string,
  String.length (a ++ b)%string = (String.length a + String.length b)%nat.
Proof. induction a; simpl; intros; auto. Qed.

Lemma app_str_inv_l : forall a b c : string, (a ++ b = a ++ c)%string -> b = c.
Proof. induction a; simpl; intros b c H; auto. inversion H; auto. Qed.

Lemma app_str_eq_length : forall a b c d : string,
  String.length a = String.length b -> (a ++ c = b ++ d)%string -> a = b /\ c = d.
Proof.
  induction a; destruct b; simpl; intros c d L H; try discriminate; auto.
  inversion H; subst. destruct (IHa b c d) as [-> ->]; auto.
Qed.

Lemma app_str_split : forall a b c d : string,
  (String.length a <= String.length b)%nat -> (a ++ c = b ++ d)%string ->
  exists e, b = (a ++ e)%string /\ c = (e ++ d)%string.
Proof.
  induction a; simpl; intros b c d L H.
  - exists b. auto.
  - destruct b; simpl in *; [lia|]. inversion H; subst.
    destruct (IHa b c d) as (e & -> & ->); auto; [lia|]. exists e. auto.
Qed.

Lemma prefix_app : forall p b, prefix p (p ++ b)%string = true.
Proof.
  induction p; simpl; intros; [destruct b; auto|].
  destruct (ascii_dec a a) as [E|N]; [auto|exfalso; apply N; reflexivity].
Qed.

Lemma prefix_inv : forall p s, prefix p s = true -> exists b, s = (p ++ b)%string.
Proof.
  induction p; simpl; intros s H; [exists s; auto|].
  destruct s; [discriminate|]. simpl in H. destruct (ascii_dec a a0) as [E|N]; [|discriminate]. subst.
  destruct (IHp s H) as [b ->]. exists b; auto.
Qed.

Lemma substring_0_app : forall a b, substring 0 (String.length a) (a ++ b)%string = a.
Proof. induction a; simpl; intros; [destruct b; auto|]. rewrite IHa; auto. Qed.

Lemma index_cons : forall sub c s, index 0 sub (String c s) =
  if prefix sub (String c s) then Some 0
  else match index 0 sub s with Some n => Some (S n) | None => None end.
Proof. reflexivity. Qed.

Lemma find_some : forall sub s i, str_find sub s = Some i ->
  exists a b, s = (a ++ sub ++ b)%string /\ String.length a = i /\ substring 0 i s = a /\
    (forall a' b', s = (a' ++ sub ++ b')%string -> (i <= String.length a')%nat).
Proof.
  unfold str_find. intros sub. induction s as [|c s IH]; intros i H.
  - simpl in H. destruct sub; [|discriminate]. inversion H; subst.
    exists "", "". repeat split; auto. intros; apply Nat.le_0_l.
  - rewrite index_cons in H. destruct (prefix sub (String c s)) eqn:E.
    + inversion H; subst. apply prefix_inv in E. destruct E as [b E].
      exists "", b. repeat split; auto; try (intros; apply Nat.le_0_l).
    + destruct (index 0 sub s) as [j|] eqn:Ei; [|discriminate]. inversion H; subst.
      destruct (IH j eq_refl) as (a & b & H1 & H2 & H3 & H4).
      exists (String c a), b. repeat split; simpl.
      * congruence.
      * lia.
      * rewrite H3. auto.
      * intros a' b' H5. destruct a' as [|c' a']; simpl in H5 |- *.
        -- rewrite H5 in E. rewrite prefix_app in E. discriminate.
        -- injection H5 as Hc Hs. specialize (H4 a' b' Hs). lia.
Qed.

Lemma find_none : forall sub s, str_find sub s = None -> ~ contains sub s.
Proof.
  unfold str_find. intros sub. induction s as [|c s IH]; intros H (a & b & E).
  - simpl in H. destruct sub; [discriminate|]. destruct a; discriminate.
  - rewrite index_cons in H. destruct (prefix sub (String c s)) eqn:Ep; [discriminate|].
    destruct (index 0 sub s) eqn:Ei; [discriminate|].
    destruct a as [|c' a]; simpl in E.
    + rewrite E in Ep. rewrite prefix_app in Ep. discriminate.
    + inversion E; subst. apply IH; auto. exists a, b. auto.
Qed.

Lemma str_in_spec : forall sub s, str_in sub s = true <-> contains sub s.
Proof.
  intros. unfold str_in. destruct (str_find sub s) eqn:E.
  - split; auto. intros _. destruct (find_some _ _ _ E) as (a & b & H & _). exists a, b; auto.
  - split; [discriminate|]. intros H. destruct (find_none _ _ E H).
Qed.

Lemma suffix_no_inner_dot : forall c d,
  tmp_suffix = (c ++ String "." d)%string -> c = "".
Proof.
  unfold tmp_suffix. intros c d H.
  destruct c as [|x c]; auto. exfalso. simpl in H. injection H as _ H.
  repeat (destruct c as [|?x c]; simpl in H; [discriminate H|injection H as _ H]).
  destruct c; discriminate.
Qed.

Lemma tmp_contains : forall n, contains tmp_suffix (get_tmp_name n).
Proof. intros n. exists n, "". unfold get_tmp_name. rewrite app_str_nil_r. auto. Qed.

Lemma tmp_injective : forall n n', get_tmp_name n = get_tmp_name n' -> n = n'.
Proof.
  unfold get_tmp_name. intros n n' H.
  assert (L : String.length n = String.length n').
  { assert (E : String.length (n ++ tmp_suffix)%string = String.length (n' ++ tmp_suffix)%string) by congruence.
    rewrite !app_str_length in E. lia. }
  apply (app_str_eq_length _ _ _ _ L H).
Qed.

Lemma final_of_tmp : forall n, get_final_name (get_tmp_name n) = Ok n <-> ~ contains tmp_suffix n.
Proof.
  intros n. unfold get_final_name.
  destruct (str_find tmp_suffix (get_tmp_name n)) as [i|] eqn:E.
  - destruct (find_some _ _ _ E) as (a & b & H1 & H2 & H3 & H4). rewrite H3. split.
    + intros H. assert (Ha : a = n) by congruence. subst a. intros (a' & b' & Hc).
      assert (L : (String.length a' < String.length n)%nat).
      { rewrite Hc. rewrite !app_str_length. simpl. lia. }
      specialize (H4 a' (b' ++ tmp_suffix)%string).
      unfold get_tmp_name in H4. rewrite Hc in H4 at 1. rewrite !app_str_assoc in H4.
      specialize (H4 eq_refl). rewrite Ha in H2. lia.
    + intros Hn. f_equal. unfold get_tmp_name in H1.
      assert (L : (String.length a <= String.length n)%nat).
      { rewrite H2. apply (H4 n ""). unfold get_tmp_name. rewrite app_str_nil_r. auto. }
      symmetry in H1. destruct (app_str_split _ _ _ _ L H1) as (c & Hc & Hs).
      destruct c as [|x c]; [rewrite app_str_nil_r in Hc; auto|]. exfalso.
      destruct (le_lt_dec (String.length tmp_suffix) (String.length (String x c))) as [L2|L2].
      * destruct (app_str_split _ _ _ _ L2 Hs) as (e & He & _).
        apply Hn. exists a, e. rewrite Hc, He. auto.
      * symmetry in Hs. assert (L3 := Nat.lt_le_incl _ _ L2).
        destruct (app_str_split _ _ _ _ L3 Hs) as (d & Hd & Hd2).
        destruct d as [|y d].
        -- rewrite app_str_nil_r in Hd. rewrite Hd in L2. lia.
        -- assert (y = "."%char) by (unfold tmp_suffix in Hd2; simpl in Hd2; inversion Hd2; auto).
           subst y. apply suffix_no_inner_dot in Hd. discriminate.
  - exfalso. eapply find_none; eauto. apply tmp_contains.
Qed.

(** * Maps *)

Lemma fget_fdel_same : forall f fs, fget f (fdel f fs) = None.
Proof.
  induction fs as [|[g c] fs IH]; simpl; auto. destruct (String.eqb f g) eqn:E; auto.
  simpl. rewrite E. auto.
Qed.
Lemma fget_fdel_other : forall f g fs, f <> g -> fget f (fdel g fs) = fget f fs.
Proof.
  induction fs as [|[h c] fs IH]; simpl; intros N; auto.
  destruct (String.eqb g h) eqn:E; simpl.
  - apply String.eqb_eq in E. subst. rewrite IH by auto.
    destruct (String.eqb f h) eqn:E2; auto. apply String.eqb_eq in E2. congruence.
  - rewrite IH by auto. auto.
Qed.
Lemma fget_fput : forall f g c fs, fget f (fput g c fs) = if String.eqb f g then Some c else fget f fs.
Proof.
  intros. unfold fput. simpl. destruct (String.eqb f g) eqn:E; auto.
  apply fget_fdel_other. apply String.eqb_neq; auto.
Qed.

Lemma nget_ndel_same : forall f fs, nget f (ndel f fs) = None.
Proof.
  induction fs as [|[g c] fs IH]; simpl; auto. destruct (String.eqb f g) eqn:E; auto.
  simpl. rewrite E. auto.
Qed.
Lemma nget_ndel_other : forall f g fs, f <> g -> nget f (ndel g fs) = nget f fs.
Proof.
  induction fs as [|[h c] fs IH]; simpl; intros N; auto.
  destruct (String.eqb g h) eqn:E; simpl.
  - apply String.eqb_eq in E. subst. rewrite IH by auto.
    destruct (String.eqb f h) eqn:E2; auto. apply String.eqb_eq in E2. congruence.
  - rewrite IH by auto. auto.
Qed.
Lemma nget_nput_same : forall n x r, nget n (nput n x r) = Some x.
Proof. intros. unfold nput. simpl. rewrite String.eqb_refl. auto. Qed.
Lemma nget_nput_other : forall n m x r, n <> m -> nget n (nput m x r) = nget n r.
Proof.
  intros. unfold nput. simpl. rewrite (proj2 (String.eqb_neq n m)) by auto.
  apply nget_ndel_other; auto.
Qed.

(** * "Always" along an operation sequence *)

Fixpoint always (P : root -> Prop) (r : root) (ops : list fsop) : Prop :=
  P r /\ match ops with
         | [] => True
         | o :: ops' => match apply_op r o with None => True | Some r' => always P r' ops' end
         end.

Lemma always_prefix : forall P ops r k, always P r ops -> P (fst (run r (firstn k ops))).
Proof.
  induction ops as [|o ops IH]; intros r k [H1 H2]; destruct k; simpl; auto.
  destruct (apply_op r o); auto.
Qed.

Lemma always_here : forall P r ops, always P r ops -> P r.
Proof. intros P r ops H. destruct ops; destruct H; auto. Qed.

Lemma always_app : forall P a b r,
  always P r a -> (forall r', run r a = (r', true) -> always P r' b) -> always P r (a ++ b).
Proof.
  induction a as [|o a IH]; simpl; intros b r [H1 H2] H.
  - apply H. auto.
  - split; auto. destruct (apply_op r o) eqn:E; auto.
Qed.

Lemma always_cons : forall (P : root -> Prop) o ops r,
  P r -> (forall r', apply_op r o = Some r' -> always P r' ops) -> always P r (o :: ops).
Proof. intros P o ops r H1 H2. simpl. split; auto. destruct (apply_op r o) eqn:E; auto. Qed.

Lemma always_impl : forall (P Q : root -> Prop) ops r,
  (forall r, P r -> Q r) -> always P r ops -> always Q r ops.
Proof.
  induction ops as [|o ops IH]; simpl; intros r HPQ [H1 H2]; split; auto.
  destruct (apply_op r o); auto.
Qed.

Lemma always_step : forall (P : root -> Prop) ops r,
  P r -> (forall r o r', In o ops -> P r -> apply_op r o = Some r' -> P r') -> always P r ops.
Proof.
  induction ops as [|o ops IH]; simpl; intros r H1 H2; split; auto.
  destruct (apply_op r o) eqn:E; auto. apply IH; eauto.
Qed.

Lemma run_app : forall a b r, run r (a ++ b) =
  (if snd (run r a) then run (fst (run r a)) b else run r a).
Proof.
  induction a as [|o a IH]; simpl; intros b r; auto.
  destruct (apply_op r o); auto.
Qed.

(** Operations that only concern the path [d]. *)
Definition local (d : string) (o : fsop) : Prop :=
  match o with
  | Mkdir e | Touch e _ | WriteF e _ _ | Unlink e _ | Rmdir e | RmtreeOp e => e = d
  | Rename _ _ => False
  end.

Lemma local_step : forall d o r r' n, local d o -> apply_op r o = Some r' -> n <> d ->
  nget n r' = nget n r.
Proof.
  intros d o r r' n L H N. destruct o; simpl in L; try tauto; subst; simpl in H;
    destruct (nget d r) as [[fs| |fs]|]; try discriminate;
    try (inversion H; subst; apply nget_nput_other; auto; fail);
    try (inversion H; subst; apply nget_ndel_other; auto; fail).
  - destruct (fget f fs); [|discriminate]. inversion H; subst. apply nget_nput_other; auto.
  - destruct fs; [|discriminate]. inversion H; subst. apply nget_ndel_other; auto.
Qed.

Lemma local_always : forall d ops r, (forall o, In o ops -> local d o) ->
  always (fun r' => forall n, n <> d -> nget n r' = nget n r) r ops.
Proof.
  intros d ops r H. apply always_step; auto.
  intros r1 o r2 Ho HP Ha n Hn. rewrite <- HP by auto. eapply local_step; eauto.
Qed.

Lemma local_run : forall d ops r, (forall o, In o ops -> local d o) ->
  forall n, n <> d -> nget n (fst (run r ops)) = nget n r.
Proof.
  intros d ops r H n Hn. pose proof (always_prefix _ _ _ (List.length ops) (local_always d ops r H)) as A.
  rewrite firstn_all in A. apply A; auto.
Qed.

Lemma hop_local : forall d hs o, In o (map (hop_op d) hs) -> local d o.
Proof. intros d hs o H. apply in_map_iff in H. destruct H as (h & <- & _). destruct h; simpl; auto. Qed.

Lemma rm_local : forall a s d x o, In o (rm_ops a s d x) -> local d o.
Proof.
  intros a s d x o H. unfold rm_ops in H.
  destruct a; [destruct H as [<-|[]]; simpl; auto|].
  destruct x; try (destruct H as [<-|[]]; simpl; auto).
  apply in_app_or in H. destruct H as [H|[<-|[]]]; simpl; auto.
  apply in_map_iff in H. destruct H as (f & <- & _). simpl; auto.
Qed.

(** * Tracking directory contents *)

Lemma effect_step : forall h d r r' fs m,
  nget d r = Some (Dir fs) -> (forall f, fget f fs = m f) ->
  apply_op r (hop_op d h) = Some r' ->
  exists fs', nget d r' = Some (Dir fs') /\ forall f, fget f fs' = effect m h f.
Proof.
  intros h d r r' fs m Hd Hm Ha. destruct h; simpl in Ha; rewrite Hd in Ha.
  - inversion Ha; subst. rewrite nget_nput_same. eexists; split; eauto.
    intros g. cbn [effect]. rewrite <- Hm. destruct (fget f fs) eqn:E; auto.
    rewrite fget_fput. unfold upd. destruct (String.eqb g f); auto.
  - inversion Ha; subst. rewrite nget_nput_same. eexists; split; eauto.
    intros g. cbn [effect]. rewrite fget_fput. unfold upd. destruct (String.eqb g f); auto.
  - destruct (fget f fs) eqn:E; [|discriminate]. inversion Ha; subst.
    rewrite nget_nput_same. eexists; split; eauto.
    intros g. simpl. unfold upd. destruct (String.eqb g f) eqn:E2.
    + apply String.eqb_eq in E2. subst. apply fget_fdel_same.
    + rewrite fget_fdel_other; auto. apply String.eqb_neq; auto.
Qed.

Lemma effects_run : forall hs d r r' fs m,
  nget d r = Some (Dir fs) -> (forall f, fget f fs = m f) ->
  run r (map (hop_op d) hs) = (r', true) ->
  exists fs', nget d r' = Some (Dir fs') /\ forall f, fget f fs' = fold_left effect hs m f.
Proof.
  induction hs as [|h hs IH]; intros d r r' fs m Hd Hm H; cbn [map run fold_left] in *.
  - inversion H; subst. exists fs; auto.
  - destruct (apply_op r (hop_op d h)) eqn:E; [|discriminate].
    destruct (effect_step _ _ _ _ _ _ Hd Hm E) as (fs' & H1 & H2). eapply IH; eauto.
Qed.

Lemma effect_ext : forall h m m', (forall f, m f = m' f) -> forall f, effect m h f = effect m' h f.
Proof.
  intros h m m' H f. destruct h; simpl; unfold upd.
  - rewrite <- (H f0). destruct (m f0); simpl; auto. destruct (String.eqb f f0); auto.
  - destruct (String.eqb f f0); auto.
  - destruct (String.eqb f f0); auto.
Qed.

Lemma effects_ext : forall hs m m', (forall f, m f = m' f) ->
  forall f, fold_left effect hs m f = fold_left effect hs m' f.
Proof. induction hs; simpl; intros; auto. apply IHhs. apply effect_ext; auto. Qed.

(** A touch directly followed by a write of the same file has the effect of the
    write. *)
Lemma touch_write : forall m f c g, effect (effect m (HTouch f)) (HWrite f c) g = effect m (HWrite f c) g.
Proof.
  intros. simpl. unfold upd. destruct (m f); auto. destruct (String.eqb g f); auto.
Qed.

Lemma effect_other : forall h m f, hop_file h <> f -> effect m h f = m f.
Proof.
  intros h m f N. destruct h; simpl in *; unfold upd.
  - destruct (m f0); auto. rewrite (proj2 (String.eqb_neq f f0)); auto.
  - rewrite (proj2 (String.eqb_neq f f0)); auto.
  - rewrite (proj2 (String.eqb_neq f f0)); auto.
Qed.

Lemma effects_other : forall hs m f, (forall h, In h hs -> hop_file h <> f) ->
  fold_left effect hs m f = m f.
Proof.
  induction hs; simpl; intros m f H; auto. rewrite IHhs by auto. apply effect_other; auto.
Qed.

(** All the file operations of a save inside its temporary directory, up to the
    commit marker. *)
Definition data_hops (q : save_req) : list hop :=
  [HTouch metadata_file; HWrite metadata_file (meta0 q)] ++ body q ++
  [HTouch metadata_file; HWrite metadata_file (meta1 q)] ++ fin q ++
  [HTouch metadata_file; HWrite metadata_file (meta2 q)].

Definition marker_hops (q : save_req) : list hop :=
  [HTouch commit_file; HWrite commit_file ("Checkpoint commit was successful to " ++ name q)%string].

Lemma data_hops_contents : forall q f,
  fold_left effect (data_hops q) (fun _ => None) f = contents q f.
Proof.
  intros q f. unfold data_hops, contents. rewrite !fold_left_app. cbn [fold_left].
  rewrite fold_left_app. cbn [fold_left]. rewrite fold_left_app. cbn [fold_left].
  rewrite touch_write. apply effect_ext. apply effects_ext. intros g.
  rewrite touch_write. apply effect_ext. apply effects_ext. intros g'. apply touch_write.
Qed.

Definition create_rm (a : bool) (s : files -> list string) (r : root) (tmp : string) : list fsop :=
  match nget tmp r with Some x => rm_ops a s tmp x | None => [] end.

Lemma plan_shape : forall a s p r q ops, save_plan a s p r q = Ok ops ->
  exists pre r',
    ops = pre ++ create_rm a s r' (tmp_of p (name q)) ++ [Mkdir (tmp_of p (name q))]
          ++ map (hop_op (tmp_of p (name q))) (data_hops q)
          ++ map (hop_op (tmp_of p (name q))) (marker_hops q)
          ++ match p with AtomicRename => [Rename (tmp_of p (name q)) (name q)] | CommitFile => [] end
    /\ ((nget (name q) r = None /\ pre = [] /\ r' = r) \/
        (exists x, nget (name q) r = Some x /\ force q = true /\ pre = rm_ops a s (name q) x
                   /\ r' = ndel (name q) r)).
Proof.
  intros a s p r q ops H. unfold save_plan in H.
  set (tmp := tmp_of p (name q)) in *.
  assert (E : forall r', create_ops a s r' tmp (meta0 q)
      ++ map (hop_op tmp) (body q)
      ++ [Touch tmp metadata_file; WriteF tmp metadata_file (meta1 q)]
      ++ map (hop_op tmp) (fin q)
      ++ finalize_ops p tmp (name q) (meta2 q) =
      create_rm a s r' tmp ++ [Mkdir tmp] ++ map (hop_op tmp) (data_hops q)
          ++ map (hop_op tmp) (marker_hops q)
          ++ match p with AtomicRename => [Rename tmp (name q)] | CommitFile => [] end).
  { intros r'. unfold create_ops, create_rm, data_hops, marker_hops, finalize_ops.
    rewrite ?map_app. cbn [map hop_op]. rewrite <- ?app_assoc. cbn [app].
    rewrite <- ?app_assoc. cbn [app]. reflexivity. }
  destruct (nget (name q) r) as [x|] eqn:En.
  - destruct (force q) eqn:Ef; [|discriminate]. inversion H; subst.
    exists (rm_ops a s (name q) x), (ndel (name q) r). split; [rewrite E; auto|].
    right. exists x. auto.
  - inversion H; subst. exists [], r. split; [rewrite E; auto|]. left; auto.
Qed.

(** Whether node [x] at name [n] counts as finalized (without the legacy
    option). *)
Definition fin_node (p : proto) (n : string) (x : node) : bool := validate_final p n x.

Lemma finalized_node : forall p n r,
  is_path_finalized p false n r = true <-> exists x, nget n r = Some x /\ fin_node p n x = true.
Proof.
  intros p n r. unfold is_path_finalized, fin_node. destruct (nget n r) as [x|].
  - assert (E : (match p with AtomicRename => false | CommitFile => false && validate_final AtomicRename n x end) = false)
      by (destruct p; auto).
    rewrite E, orb_false_r. split.
    + intros H; exists x; auto.
    + intros (y & Hy & H). inversion Hy; subst; auto.
  - split; [discriminate|]. intros (y & Hy & _). discriminate.
Qed.

Lemma tmp_not_final : forall n x, fin_node AtomicRename (get_tmp_name n) x = false.
Proof.
  intros. unfold fin_node. simpl. rewrite (proj2 (str_in_spec _ _) (tmp_contains n)). auto.
Qed.

Lemma tmp_neq : forall n, get_tmp_name n <> n.
Proof.
  intros n H. assert (E : String.length (get_tmp_name n) = String.length n) by congruence.
  unfold get_tmp_name in E. rewrite app_str_length in E. simpl in E. lia.
Qed.

(** The one-event property: a finalized node after the event was there before
    (identical), or is the complete result of this event's save. *)
Definition step_ok (p : proto) (r : root) (e : event) (r' : root) : Prop :=
  forall n x, nget n r' = Some x -> fin_node p n x = true ->
    nget n r = Some x \/
    exists q k fs, e = ESave q k /\ name q = n /\ x = Dir fs /\ holds fs (contents q).

Lemma mkdir_then : forall d r r1,
  apply_op r (Mkdir d) = Some r1 -> nget d r1 = Some (Dir []) /\ (forall n, n <> d -> nget n r1 = nget n r).
Proof.
  intros d r r1 H. simpl in H. destruct (nget d r); [discriminate|]. inversion H; subst.
  split; [apply nget_nput_same|]. intros. apply nget_nput_other; auto.
Qed.

Lemma marker_holds : forall q fs, (forall f, fget f fs = fold_left effect (data_hops q ++ marker_hops q) (fun _ => None) f) ->
  holds fs (contents q).
Proof.
  intros q fs H f Hf. rewrite H, fold_left_app. rewrite effects_other.
  - apply data_hops_contents.
  - unfold marker_hops. simpl. intros h [<-|[<-|[]]]; simpl; auto.
Qed.

(** ** AtomicRename *)
Lemma save_step_ar : forall a s r q k ops,
  (a = true \/ force q = false) ->
  save_plan a s AtomicRename r q = Ok ops ->
  step_ok AtomicRename r (ESave q k) (fst (run r (firstn k ops))).
Proof.
  intros a s r q k ops Hf Hp.
  apply plan_shape in Hp. destruct Hp as (pre & r' & -> & Hpre). simpl tmp_of.
  set (tmp := get_tmp_name (name q)).
  assert (Htn : tmp <> name q) by apply tmp_neq.
  set (P := step_ok AtomicRename r (ESave q k)). apply (always_prefix P).
  assert (PL : forall r1 : root, (forall n x, n <> tmp -> nget n r1 = Some x -> nget n r = Some x) -> P r1).
  { intros r1 H n x Hn Hx. destruct (string_dec n tmp) as [->|N].
    - unfold tmp in Hx. rewrite tmp_not_final in Hx. discriminate.
    - left; auto. }
  apply always_app.
  - (* removal of the old destination *)
    destruct Hpre as [(_ & -> & _)|(x & Hx & Ff & -> & _)].
    + simpl. split; [apply PL; auto|auto].
    + destruct Hf as [->|Hf]; [|congruence]. simpl. split; [apply PL; auto|].
      rewrite Hx. destruct x; auto. split; [|exact I]. apply PL. intros n x Hn H.
      destruct (string_dec n (name q)) as [->|N]; [rewrite nget_ndel_same in H; discriminate|].
      rewrite nget_ndel_other in H; auto.
  - intros r1 H1.
    assert (R1 : forall n x, nget n r1 = Some x -> nget n r = Some x).
    { destruct Hpre as [(_ & -> & _)|(x & Hx & Ff & -> & _)].
      - simpl in H1. inversion H1; subst; auto.
      - destruct Hf as [->|Hf]; [|congruence]. simpl in H1. rewrite Hx in H1.
        destruct x; inversion H1; subst. intros n y Hy.
        destruct (string_dec n (name q)) as [->|N]; [rewrite nget_ndel_same in Hy; discriminate|].
        rewrite nget_ndel_other in Hy; auto. }
    clear H1 Hpre Hf pre.
    match goal with |- always P r1 (?c ++ [?m] ++ ?d ++ ?e ++ [?z]) =>
      replace (c ++ [m] ++ d ++ e ++ [z]) with ((c ++ m :: (d ++ e)) ++ [z])
        by (rewrite <- !app_assoc; cbn [app]; rewrite <- !app_assoc; auto)
    end.
    apply always_app.
    + eapply always_impl; [|apply (local_always tmp)].
      * simpl. intros r2 H2. apply PL. intros n x Hn Hx. apply R1. rewrite <- H2; auto.
      * intros o Ho. apply in_app_or in Ho. destruct Ho as [Ho|[<-|Ho]]; [|simpl; auto|].
        -- unfold create_rm in Ho. destruct (nget tmp r'); [eapply rm_local; eauto|destruct Ho].
        -- rewrite <- map_app in Ho. eapply hop_local; eauto.
    + intros r2 H2.
      assert (LocAll : forall n, n <> tmp -> nget n r2 = nget n r1).
      { intros n Hn. replace r2 with (fst (run r1 (create_rm a s r' tmp ++ Mkdir tmp ::
             (map (hop_op tmp) (data_hops q) ++ map (hop_op tmp) (marker_hops q))))) by (rewrite H2; auto).
        apply local_run with (d := tmp); auto.
        intros o Ho. apply in_app_or in Ho. destruct Ho as [Ho|[<-|Ho]]; [|simpl; auto|].
        - unfold create_rm in Ho. destruct (nget tmp r'); [eapply rm_local; eauto|destruct Ho].
        - rewrite <- map_app in Ho. eapply hop_local; eauto. }
      assert (Hc : exists fs, nget tmp r2 = Some (Dir fs) /\ holds fs (contents q)).
      { rewrite run_app in H2.
        destruct (run r1 (create_rm a s r' tmp)) as [ra oka]. simpl in H2.
        destruct oka; [|inversion H2].
        change (match apply_op ra (Mkdir tmp) with
                | None => (ra, false)
                | Some r' => run r' (map (hop_op tmp) (data_hops q) ++ map (hop_op tmp) (marker_hops q))
                end = (r2, true)) in H2.
        destruct (apply_op ra (Mkdir tmp)) as [rb|] eqn:Em; [|discriminate].
        apply mkdir_then in Em. destruct Em as [Em _].
        rewrite <- map_app in H2.
        destruct (effects_run _ _ _ _ [] (fun _ => None) Em ltac:(auto) H2) as (fs & F1 & F2).
        exists fs. split; auto. apply marker_holds; auto. }
      destruct Hc as (fs & Hc1 & Hc2).
      split; [apply PL; intros n x Hn Hx; apply R1; rewrite <- LocAll; auto|].
      cbn [apply_op]. fold tmp. rewrite Hc1.
      assert (Fin : forall rr, (forall n, n <> name q -> n <> tmp -> nget n rr = nget n r2) ->
                nget (name q) rr = Some (Dir fs) -> P rr).
      { intros rr G1 G2 n x Hn Hx. destruct (string_dec n (name q)) as [->|N].
        - right. exists q, k, fs. rewrite G2 in Hn. inversion Hn; subst. auto.
        - destruct (string_dec n tmp) as [->|N2].
          + unfold tmp in Hx. rewrite tmp_not_final in Hx. discriminate.
          + left. apply R1. rewrite <- LocAll by auto. rewrite <- G1; auto. }
      assert (Fin' : P (nput (name q) (Dir fs) (ndel tmp r2))).
      { apply Fin; [|apply nget_nput_same]. intros n N1 N2.
        rewrite nget_nput_other by auto. apply nget_ndel_other; auto. }
      destruct (nget (name q) r2) as [[[|y ys]| |fs']|]; simpl; auto.
Qed.

(** ** CommitFile *)
Definition no_marker (x : node) : Prop := has_commit x = false.

Lemma save_step_cf : forall a s r q k ops,
  (a = true \/ force q = false) -> avoids_marker q ->
  save_plan a s CommitFile r q = Ok ops ->
  step_ok CommitFile r (ESave q k) (fst (run r (firstn k ops))).
Proof.
  intros a s r q k ops Hf Hav Hp.
  apply plan_shape in Hp. destruct Hp as (pre & r' & -> & Hpre). simpl tmp_of.
  set (d := name q).
  set (P := step_ok CommitFile r (ESave q k)). apply (always_prefix P).
  assert (PL : forall r1 : root, (forall n x, n <> d -> nget n r1 = Some x -> nget n r = Some x) ->
     (forall x, nget d r1 = Some x -> has_commit x = false \/ nget d r = Some x) -> P r1).
  { intros r1 H Hd n x Hn Hx. destruct (string_dec n d) as [->|N].
    - destruct (Hd x Hn) as [E|E]; auto. unfold fin_node in Hx; simpl in Hx. rewrite E in Hx. discriminate.
    - left; auto. }
  rewrite app_nil_r.
  assert (Hcr : create_rm a s r' d = []).
  { unfold create_rm. destruct Hpre as [(H & _ & ->)|(x & _ & _ & _ & ->)].
    - fold d in H. rewrite H. auto.
    - unfold d. rewrite nget_ndel_same. auto. }
  rewrite Hcr. rewrite app_nil_l.
  apply always_app.
  - destruct Hpre as [(_ & -> & _)|(x & Hx & Ff & -> & _)].
    + simpl. split; [apply PL; auto|auto].
    + destruct Hf as [->|Hf]; [|congruence]. simpl. split; [apply PL; auto|].
      rewrite Hx. destruct x; auto. split; [|exact I]. apply PL.
      * intros n x Hn H. rewrite nget_ndel_other in H; auto.
      * intros x H. unfold d in H. rewrite nget_ndel_same in H. discriminate.
  - intros r1 H1.
    assert (R1 : (forall n, n <> d -> nget n r1 = nget n r) /\ nget d r1 = None).
    { destruct Hpre as [(Hn & -> & _)|(x & Hx & Ff & -> & _)].
      - simpl in H1. inversion H1; subst; auto.
      - destruct Hf as [->|Hf]; [|congruence]. simpl in H1. rewrite Hx in H1.
        destruct x; inversion H1; subst. split.
        + intros n N. apply nget_ndel_other; auto.
        + apply nget_ndel_same. }
    destruct R1 as [R1 R1d]. clear H1 Hpre Hf.
    assert (Pr1 : P r1).
    { apply PL; [|intros x H; congruence]. intros n x N H. rewrite <- R1; auto. }
    apply (always_cons P (Mkdir d) _ r1 Pr1). intros rb Em.
    apply mkdir_then in Em. destruct Em as [Em1 Em2].
    assert (L : forall o, In o (map (hop_op d) (data_hops q) ++ map (hop_op d) (marker_hops q)) -> local d o).
    { intros o Ho. rewrite <- map_app in Ho. eapply hop_local; eauto. }
    assert (NoM : forall h, In h (data_hops q) -> hop_file h <> commit_file).
    { intros h Hh. unfold data_hops in Hh. rewrite !in_app_iff in Hh.
      destruct Hh as [Hh|[Hh|[Hh|[Hh|Hh]]]].
      - destruct Hh as [<-|[<-|[]]]; simpl; discriminate.
      - apply Hav. apply in_or_app; auto.
      - destruct Hh as [<-|[<-|[]]]; simpl; discriminate.
      - apply Hav. apply in_or_app; auto.
      - destruct Hh as [<-|[<-|[]]]; simpl; discriminate. }
    apply always_app.
    + (* data phase: never a marker *)
      apply always_impl with (P := fun r2 => (forall n, n <> d -> nget n r2 = nget n rb) /\
          exists fs, nget d r2 = Some (Dir fs) /\ fget commit_file fs = None).
      { intros r2 [G1 (fs & G2 & G3)]. apply PL.
        - intros n x N H. rewrite <- R1, <- Em2, <- G1; auto.
        - intros x H. left. rewrite G2 in H. inversion H; subst. simpl. rewrite G3. auto. }
      apply always_step.
      * split; auto. exists []. auto.
      * intros r2 o r3 Ho [G1 (fs & G2 & G3)] Ha. split.
        -- intros n N. rewrite <- G1 by auto. eapply local_step; eauto.
           apply (hop_local d (data_hops q)); auto.
        -- apply in_map_iff in Ho. destruct Ho as (h & <- & Hh).
           destruct (effect_step h d r2 r3 fs (fun f => fget f fs) G2 ltac:(auto) Ha) as (fs' & F1 & F2).
           exists fs'. split; auto. rewrite F2. rewrite effect_other by (apply NoM; auto). auto.
    + intros r2 H2.
      assert (G1 : forall n, n <> d -> nget n r2 = nget n rb).
      { intros n N. replace r2 with (fst (run rb (map (hop_op d) (data_hops q)))) by (rewrite H2; auto).
        apply local_run with (d := d); auto. intros o Ho. eapply hop_local; eauto. }
      destruct (effects_run _ _ _ _ [] (fun _ => None) Em1 ltac:(auto) H2) as (fs & F1 & F2).
      assert (F3 : holds fs (contents q)).
      { intros f _. rewrite F2. apply data_hops_contents. }
      apply always_impl with (P := fun r3 => (forall n, n <> d -> nget n r3 = nget n rb) /\
          exists fs, nget d r3 = Some (Dir fs) /\ holds fs (contents q)).
      { intros r3 [G (fs3 & G2 & G3)] n x Hn Hx. destruct (string_dec n d) as [->|N].
        - right. exists q, k, fs3. rewrite G2 in Hn. inversion Hn; auto.
        - left. rewrite <- R1, <- Em2, <- G; auto. }
      apply always_step; [split; eauto|].
      intros r3 o r4 Ho [G (fs3 & G2 & G3)] Ha. split.
      * intros n N. rewrite <- G by auto. eapply local_step; eauto.
        apply (hop_local d (marker_hops q)); auto.
      * apply in_map_iff in Ho. destruct Ho as (h & <- & Hh).
        destruct (effect_step h d r3 r4 fs3 (fun f => fget f fs3) G2 ltac:(auto) Ha) as (fs' & F1' & F2').
        exists fs'. split; auto. intros f Hff. rewrite F2'. rewrite effect_other; auto.
        unfold marker_hops in Hh. destruct Hh as [<-|[<-|[]]]; simpl; auto.
Qed.

(** ** Cleanup *)
Lemma cleanup_step : forall p r ops,
  forallb (removal_of (all_temporary_paths p false r)) ops = true ->
  step_ok p r (ECleanup ops) (fst (run r ops)).
Proof.
  intros p r ops Hops. set (T := all_temporary_paths p false r) in *.
  assert (HT : forall n, In n T -> exists x, nget n r = Some x /\ validate p n x = true).
  { intros n Hn. unfold T, all_temporary_paths in Hn. apply filter_In in Hn. destruct Hn as [_ Hn].
    unfold is_path_temporary in Hn. destruct (nget n r) as [x|]; [|discriminate].
    exists x. split; auto. destruct p; auto. }
  pose (J := fun r' : root => forall n, (~ In n T -> nget n r' = nget n r) /\
               (In n T -> forall x, nget n r' = Some x -> fin_node p n x = false)).
  assert (AJ : always J r ops).
  { apply always_step.
    - intros n. split; auto. intros Hn x Hx. destruct (HT n Hn) as (y & Hy & Hv).
      rewrite Hx in Hy. inversion Hy; subst y. unfold fin_node.
      destruct p; simpl in *.
      + destruct (str_in tmp_suffix n); auto. rewrite andb_false_r in Hv. discriminate.
      + destruct (has_commit x); auto. rewrite andb_false_r in Hv. discriminate.
    - intros r1 o r2 Ho HJ Ha.
      assert (Ro : removal_of T o = true) by (eapply forallb_forall in Hops; eauto).
      assert (Hd : exists d, In d T /\ local d o).
      { destruct o; simpl in Ro; try discriminate; apply existsb_exists in Ro;
          destruct Ro as (y & Hy & E); apply String.eqb_eq in E; subst; exists y; simpl; auto. }
      destruct Hd as (d & HdT & Hl). intros n. destruct (string_dec n d) as [->|N].
      + split; [tauto|]. intros _ x Hx. destruct (HJ d) as [_ HJd]. specialize (HJd HdT).
        destruct o; simpl in Ro, Hl; try discriminate; subst; simpl in Ha;
          destruct (nget d r1) as [[fs| |fs]|] eqn:E; try discriminate.
        * destruct (fget f fs); [|discriminate]. inversion Ha; subst. rewrite nget_nput_same in Hx.
          inversion Hx; subst. specialize (HJd (Dir fs) eq_refl). unfold fin_node in *.
          destruct p; simpl in *; auto. rewrite andb_true_r in *.
          destruct (string_dec commit_file f) as [<-|Nf].
          -- rewrite fget_fdel_same. auto.
          -- rewrite fget_fdel_other by auto. auto.
        * destruct fs; [|discriminate]. inversion Ha; subst. rewrite nget_ndel_same in Hx. discriminate.
        * inversion Ha; subst. rewrite nget_ndel_same in Hx. discriminate.
      + rewrite (local_step _ _ _ _ _ Hl Ha N). apply HJ. }
  pose proof (always_prefix _ _ _ (List.length ops) AJ) as F. rewrite firstn_all in F.
  intros n x Hn Hx. left. destruct (F n) as [F1 F2].
  destruct (in_dec string_dec n T) as [Hin|Hin].
  - rewrite (F2 Hin x Hn) in Hx. discriminate.
  - rewrite <- F1; auto.
Qed.

Lemma run_refl_step : forall p r e, step_ok p r e r.
Proof. intros p r e n x H _. auto. Qed.

Lemma event_step : forall a s p r e,
  match e with ESave q _ => (a = true \/ force q = false) /\ (p = CommitFile -> avoids_marker q)
             | ECleanup _ => True end ->
  step_ok p r e (do_event a s p r e).
Proof.
  intros a s p r [q k|ops] H; simpl.
  - destruct H as [H1 H2]. destruct (save_plan a s p r q) eqn:E; [|apply run_refl_step].
    destruct p; [eapply save_step_ar; eauto|eapply save_step_cf; eauto].
  - destruct (forallb (removal_of (all_temporary_paths p false r)) ops) eqn:E.
    + apply cleanup_step; auto.
    + apply run_refl_step.
Qed.

Lemma history_safe : forall a s p h r0 n x,
  (forall q k, In (ESave q k) h -> a = true \/ force q = false) ->
  (p = CommitFile -> forall q k, In (ESave q k) h -> avoids_marker q) ->
  nget n (do_history a s p r0 h) = Some x ->
  is_path_finalized p false n (do_history a s p r0 h) = true ->
  nget n r0 = Some x \/ complete_save_of h n x.
Proof.
  intros a s p h. induction h as [|e h IH]; intros r0 n x H1 H2 Hn Hf; simpl in *; auto.
  destruct (IH (do_event a s p r0 e) n x) as [E|(q & k & fs & Hq & E1 & E2 & E3)]; eauto.
  - destruct (event_step a s p r0 e) with (n := n) (x := x) as [G|(q & k & fs & -> & E1 & E2 & E3)]; auto.
    + destruct e; auto. split; [eapply H1; eauto|intros Hp; eapply H2; eauto].
    + apply finalized_node in Hf. destruct Hf as (y & Hy & Hf). rewrite Hn in Hy. inversion Hy; subst; auto.
    + right. exists q, k, fs. simpl; auto.
  - right. exists q, k, fs. simpl; auto.
Qed.

(** * What an unfinished or finished save leaves behind *)

Lemma local_node : forall d o r r', local d o -> apply_op r o = Some r' ->
  nget d r' = None \/ exists fs, nget d r' = Some (Dir fs).
Proof.
  intros d o r r' L H. destruct o; simpl in L; try tauto; subst; simpl in H;
    destruct (nget d r) as [[fs| |fs]|]; try discriminate.
  - inversion H; subst. right. rewrite nget_nput_same. eauto.
  - inversion H; subst. right. rewrite nget_nput_same. eauto.
  - inversion H; subst. right. rewrite nget_nput_same. eauto.
  - destruct (fget f fs); [|discriminate]. inversion H; subst. right. rewrite nget_nput_same. eauto.
  - destruct fs; [|discriminate]. inversion H; subst. left. apply nget_ndel_same.
  - inversion H; subst. left. apply nget_ndel_same.
Qed.

Lemma ar_plan : forall a s r q ops, nget (name q) r = None ->
  save_plan a s AtomicRename r q = Ok ops ->
  exists L, ops = L ++ [Rename (get_tmp_name (name q)) (name q)] /\
    (forall o, In o L -> local (get_tmp_name (name q)) o) /\
    forall r2, run r L = (r2, true) ->
      exists fs, nget (get_tmp_name (name q)) r2 = Some (Dir fs) /\ holds fs (contents q).
Proof.
  intros a s r q ops Hn Hp. apply plan_shape in Hp. destruct Hp as (pre & r' & -> & Hpre).
  destruct Hpre as [(_ & -> & ->)|(x & Hx & _)]; [|congruence]. simpl tmp_of.
  set (tmp := get_tmp_name (name q)).
  exists (create_rm a s r tmp ++ Mkdir tmp ::
             (map (hop_op tmp) (data_hops q) ++ map (hop_op tmp) (marker_hops q))).
  split; [|split].
  - cbn [app]. rewrite <- app_assoc. cbn [app]. rewrite <- app_assoc. reflexivity.
  - intros o Ho. apply in_app_or in Ho. destruct Ho as [Ho|[<-|Ho]]; [|simpl; auto|].
    + unfold create_rm in Ho. destruct (nget tmp r); [eapply rm_local; eauto|destruct Ho].
    + rewrite <- map_app in Ho. eapply hop_local; eauto.
  - intros r2 H2. rewrite run_app in H2.
    destruct (run r (create_rm a s r tmp)) as [ra oka]. simpl in H2.
    destruct oka; [|inversion H2].
    change (match apply_op ra (Mkdir tmp) with
            | None => (ra, false)
            | Some r' => run r' (map (hop_op tmp) (data_hops q) ++ map (hop_op tmp) (marker_hops q))
            end = (r2, true)) in H2.
    destruct (apply_op ra (Mkdir tmp)) as [rb|] eqn:Em; [|discriminate].
    apply mkdir_then in Em. destruct Em as [Em _].
    rewrite <- map_app in H2.
    destruct (effects_run _ _ _ _ [] (fun _ => None) Em ltac:(auto) H2) as (fs & F1 & F2).
    exists fs. split; auto. apply marker_holds; auto.
Qed.

Lemma cf_plan : forall a s r q ops, nget (name q) r = None ->
  save_plan a s CommitFile r q = Ok ops ->
  ops = Mkdir (name q) :: map (hop_op (name q)) (data_hops q) ++ map (hop_op (name q)) (marker_hops q).
Proof.
  intros a s r q ops Hn Hp. apply plan_shape in Hp. destruct Hp as (pre & r' & -> & Hpre).
  destruct Hpre as [(_ & -> & ->)|(x & Hx & _)]; [|congruence]. simpl tmp_of.
  unfold create_rm. rewrite Hn. rewrite !app_nil_l, app_nil_r. reflexivity.
Qed.

Lemma unfinished_save : forall a s p r q ops k,
  nget (name q) r = None -> save_plan a s p r q = Ok ops ->
  (p = CommitFile -> avoids_marker q) ->
  frame p r q (fst (run r (firstn k ops))).
Proof.
  intros a s p r q ops k Hn Hp Hav. apply (always_prefix (frame p r q)).
  destruct p.
  - destruct (ar_plan _ _ _ _ _ Hn Hp) as (L & -> & HL & Hc).
    set (tmp := get_tmp_name (name q)) in *.
    assert (Htmp : str_in tmp_suffix tmp = true) by (apply str_in_spec; apply tmp_contains).
    assert (F : forall r1, (forall n, n <> tmp -> nget n r1 = nget n r) ->
       (nget tmp r1 = nget tmp r \/ nget tmp r1 = None \/ exists fs, nget tmp r1 = Some (Dir fs)) ->
       frame AtomicRename r q r1).
    { intros r1 G1 G2 n Hne. destruct (string_dec n tmp) as [->|N]; [|elim Hne; auto].
      destruct G2 as [G2|[G2|(fs & G2)]]; [elim Hne; auto|auto|].
      right; left. unfold is_path_temporary. rewrite G2. simpl. rewrite Htmp. auto. }
    assert (A : always (fun r1 => (forall n, n <> tmp -> nget n r1 = nget n r) /\
       (nget tmp r1 = nget tmp r \/ nget tmp r1 = None \/ exists fs, nget tmp r1 = Some (Dir fs))) r L).
    { apply always_step; auto. intros r1 o r2 Ho [G1 _] Ha. split.
      - intros n N. rewrite <- G1 by auto. eapply local_step; eauto.
      - right. eapply local_node; eauto. }
    apply always_app.
    + eapply always_impl; [|exact A]. intros r1 [G1 G2]. auto.
    + intros r2 H2. pose proof (always_prefix _ _ _ (List.length L) A) as B.
      rewrite firstn_all, H2 in B. simpl in B. destruct B as [B1 B2].
      apply always_cons; [auto|]. intros r3 H3.
      destruct (Hc r2 H2) as (fs & C1 & C2). cbn [apply_op] in H3. rewrite C1 in H3.
      assert (Hnn : name q <> tmp) by (intro E; apply (tmp_neq (name q)); auto).
      rewrite (B1 (name q)), Hn in H3 by auto. inversion H3; subst r3.
      split; auto. intros n Hne. destruct (string_dec n (name q)) as [->|N].
      * right; right. split; auto. exists fs. split; auto. apply nget_nput_same.
      * rewrite nget_nput_other in * by auto. destruct (string_dec n tmp) as [->|N2].
        -- left. apply nget_ndel_same.
        -- rewrite nget_ndel_other in Hne by auto. elim Hne. auto.
  - specialize (Hav eq_refl). apply cf_plan in Hp; auto. subst ops. set (d := name q) in *.
    assert (F : forall r1, (forall n, n <> d -> nget n r1 = nget n r) ->
       (nget d r1 = None \/ exists fs, nget d r1 = Some (Dir fs) /\
           (fget commit_file fs = None \/ holds fs (contents q))) ->
       frame CommitFile r q r1).
    { intros r1 G1 G2 n Hne. destruct (string_dec n d) as [->|N]; [|elim Hne; auto].
      destruct G2 as [G2|(fs & G2 & [G3|G3])]; auto.
      - right; left. unfold is_path_temporary. rewrite G2. simpl. rewrite G3. auto.
      - right; right. eauto. }
    apply always_cons; [apply F; auto|]. intros rb Em. apply mkdir_then in Em.
    destruct Em as [Em1 Em2].
    assert (NoM : forall h, In h (data_hops q) -> hop_file h <> commit_file).
    { intros h Hh. unfold data_hops in Hh. rewrite !in_app_iff in Hh.
      destruct Hh as [Hh|[Hh|[Hh|[Hh|Hh]]]].
      - destruct Hh as [<-|[<-|[]]]; simpl; discriminate.
      - apply Hav. apply in_or_app; auto.
      - destruct Hh as [<-|[<-|[]]]; simpl; discriminate.
      - apply Hav. apply in_or_app; auto.
      - destruct Hh as [<-|[<-|[]]]; simpl; discriminate. }
    apply always_app.
    + apply always_impl with (P := fun r2 => (forall n, n <> d -> nget n r2 = nget n rb) /\
          exists fs, nget d r2 = Some (Dir fs) /\ fget commit_file fs = None).
      { intros r2 [G1 (fs & G2 & G3)]. apply F; [|right; eauto].
        intros n N. rewrite G1, Em2; auto. }
      apply always_step.
      * split; auto. exists []. auto.
      * intros r2 o r3 Ho [G1 (fs & G2 & G3)] Ha. split.
        -- intros n N. rewrite <- G1 by auto. eapply local_step; eauto.
           apply (hop_local d (data_hops q)); auto.
        -- apply in_map_iff in Ho. destruct Ho as (h & <- & Hh).
           destruct (effect_step h d r2 r3 fs (fun f => fget f fs) G2 ltac:(auto) Ha) as (fs' & F1 & F2).
           exists fs'. split; auto. rewrite F2. rewrite effect_other by (apply NoM; auto). auto.
    + intros r2 H2.
      assert (G1 : forall n, n <> d -> nget n r2 = nget n rb).
      { intros n N. replace r2 with (fst (run rb (map (hop_op d) (data_hops q)))) by (rewrite H2; auto).
        apply local_run with (d := d); auto. intros o Ho. eapply hop_local; eauto. }
      destruct (effects_run _ _ _ _ [] (fun _ => None) Em1 ltac:(auto) H2) as (fs & F1 & F2).
      assert (F3 : holds fs (contents q)) by (intros f _; rewrite F2; apply data_hops_contents).
      apply always_impl with (P := fun r3 => (forall n, n <> d -> nget n r3 = nget n rb) /\
          exists fs, nget d r3 = Some (Dir fs) /\ holds fs (contents q)).
      { intros r3 [G (fs3 & G2 & G3)]. apply F; [|right; eauto]. intros n N. rewrite G, Em2; auto. }
      apply always_step; [split; eauto|].
      intros r3 o r4 Ho [G (fs3 & G2 & G3)] Ha. split.
      * intros n N. rewrite <- G by auto. eapply local_step; eauto.
        apply (hop_local d (marker_hops q)); auto.
      * apply in_map_iff in Ho. destruct Ho as (h & <- & Hh).
        destruct (effect_step h d r3 r4 fs3 (fun f => fget f fs3) G2 ltac:(auto) Ha) as (fs' & F1' & F2').
        exists fs'. split; auto. intros f Hff. rewrite F2'. rewrite effect_other; auto.
        unfold marker_hops in Hh. destruct Hh as [<-|[<-|[]]]; simpl; auto.
Qed.

Lemma finished_save : forall a s p r q ops r',
  nget (name q) r = None -> ~ contains tmp_suffix (name q) ->
  save_plan a s p r q = Ok ops -> run r ops = (r', true) ->
  is_path_finalized p false (name q) r' = true /\
  exists fs, nget (name q) r' = Some (Dir fs) /\ holds fs (contents q).
Proof.
  intros a s p r q ops r' Hn Hs Hp Hr. rewrite finalized_node. destruct p.
  - destruct (ar_plan _ _ _ _ _ Hn Hp) as (L & -> & HL & Hc). rewrite run_app in Hr.
    destruct (run r L) as [r2 ok] eqn:E. simpl in Hr. destruct ok; [|inversion Hr].
    destruct (Hc r2 eq_refl) as (fs & C1 & C2). rewrite C1 in Hr.
    set (tmp := get_tmp_name (name q)) in *.
    assert (Hnn : name q <> tmp) by (intro E'; apply (tmp_neq (name q)); auto).
    assert (E2 : nget (name q) r2 = None).
    { rewrite <- Hn. replace r2 with (fst (run r L)) by (rewrite E; auto).
      apply local_run with (d := tmp); auto. }
    rewrite E2 in Hr. inversion Hr; subst r'. rewrite nget_nput_same. split; [|eauto].
    eexists; split; eauto. unfold fin_node. simpl.
    destruct (str_in tmp_suffix (name q)) eqn:Ei; auto. apply str_in_spec in Ei. tauto.
  - apply cf_plan in Hp; auto. subst ops. set (d := name q) in *.
    change (match apply_op r (Mkdir d) with
            | None => (r, false)
            | Some r1 => run r1 (map (hop_op d) (data_hops q) ++ map (hop_op d) (marker_hops q))
            end = (r', true)) in Hr.
    destruct (apply_op r (Mkdir d)) as [rb|] eqn:Em; [|discriminate].
    apply mkdir_then in Em. destruct Em as [Em1 Em2]. rewrite <- map_app in Hr.
    destruct (effects_run _ _ _ _ [] (fun _ => None) Em1 ltac:(auto) Hr) as (fs & F1 & F2).
    pose proof (marker_holds q fs F2) as F3. split; [|eauto].
    exists (Dir fs). split; auto. unfold fin_node. simpl. rewrite F2.
    rewrite fold_left_app. unfold marker_hops. cbn [fold_left effect].
    unfold upd. rewrite String.eqb_refl. auto.
Qed.

(** * Cleanup removes exactly the temporary paths *)

Lemma nget_In : forall r n x, NoDup (map fst r) -> (nget n r = Some x <-> In (n, x) r).
Proof.
  induction r as [|[m y] r IH]; simpl; intros n x H; [split; [discriminate|tauto]|].
  inversion H; subst. destruct (String.eqb n m) eqn:E.
  - apply String.eqb_eq in E. subst. split.
    + intros X; inversion X; auto.
    + intros [X|X]; [inversion X; auto|]. exfalso. apply H2. apply in_map_iff. exists (m, x); auto.
  - rewrite IH by auto. split; auto. intros [X|X]; auto. inversion X; subst.
    rewrite String.eqb_refl in E. discriminate.
Qed.

Lemma nget_dom : forall r n, In n (map fst r) <-> nget n r <> None.
Proof.
  induction r as [|[m y] r IH]; simpl; intros n; [tauto|].
  destruct (String.eqb n m) eqn:E.
  - apply String.eqb_eq in E. subst. split; [discriminate|auto].
  - rewrite <- IH. apply String.eqb_neq in E. intuition congruence.
Qed.

Lemma NoDup_ndel : forall r n, NoDup (map fst r) -> NoDup (map fst (ndel n r)).
Proof.
  induction r as [|[m y] r IH]; simpl; intros n H; auto. inversion H; subst.
  destruct (String.eqb n m) eqn:E; auto. simpl. constructor; auto.
  rewrite nget_dom. destruct (string_dec m n) as [->|N].
  - rewrite nget_ndel_same. auto.
  - rewrite nget_ndel_other by auto. rewrite <- nget_dom. auto.
Qed.

Lemma fget_dom : forall r n, In n (map fst r) <-> fget n r <> None.
Proof.
  induction r as [|[m y] r IH]; simpl; intros n; [tauto|].
  destruct (String.eqb n m) eqn:E.
  - apply String.eqb_eq in E. subst. split; [discriminate|auto].
  - rewrite <- IH. apply String.eqb_neq in E. intuition congruence.
Qed.

Lemma unlink_all : forall l d fs r,
  NoDup l -> (forall f, In f l <-> fget f fs <> None) -> nget d r = Some (Dir fs) ->
  exists r1, run r (map (Unlink d) l) = (r1, true) /\ nget d r1 = Some (Dir []) /\
             (forall n, n <> d -> nget n r1 = nget n r).
Proof.
  induction l as [|f l IH]; intros d fs r ND Hl Hd.
  - exists r. simpl. repeat split; auto. rewrite Hd. f_equal. f_equal.
    destruct fs as [|[g c] fs]; auto. exfalso. apply (Hl g). simpl. rewrite String.eqb_refl. discriminate.
  - inversion ND; subst. cbn [map run apply_op]. rewrite Hd.
    destruct (fget f fs) eqn:E; [|exfalso; apply (proj1 (Hl f) (or_introl eq_refl)); auto].
    destruct (IH d (fdel f fs) (nput d (Dir (fdel f fs)) r)) as (r1 & R1 & R2 & R3); auto.
    + intros g. destruct (string_dec g f) as [->|N].
      * rewrite fget_fdel_same. tauto.
      * rewrite fget_fdel_other by auto. rewrite <- Hl. simpl. intuition congruence.
    + apply nget_nput_same.
    + exists r1. repeat split; auto. intros n N. rewrite R3 by auto. apply nget_nput_other; auto.
Qed.

Lemma rm_run : forall a s d x r,
  nget d r = Some x -> (match x with Dir _ => True | _ => False end) ->
  (match x with Dir fs => NoDup (s fs) /\ (forall f, In f (s fs) <-> fget f fs <> None) | _ => True end) ->
  exists r1, run r (rm_ops a s d x) = (r1, true) /\ nget d r1 = None /\
             (forall n, n <> d -> nget n r1 = nget n r).
Proof.
  intros a s d x r Hd Hx Hs. destruct x as [fs| |]; try tauto. unfold rm_ops. destruct a.
  - simpl. rewrite Hd. eexists; split; eauto. split; [apply nget_ndel_same|].
    intros. apply nget_ndel_other; auto.
  - destruct Hs as [ND Hs]. destruct (unlink_all (s fs) d fs r ND Hs Hd) as (r1 & R1 & R2 & R3).
    rewrite run_app, R1. simpl. rewrite R2. eexists; split; eauto. split; [apply nget_ndel_same|].
    intros. rewrite nget_ndel_other; auto.
Qed.

Lemma temporary_dir : forall p legacy n r, is_path_temporary p legacy n r = true ->
  exists fs, nget n r = Some (Dir fs).
Proof.
  intros p legacy n r H. unfold is_path_temporary in H. destruct (nget n r) as [x|]; [|discriminate].
  assert (V : validate p n x = true).
  { destruct p; auto. destruct (legacy && validate_final AtomicRename n x); [discriminate|auto]. }
  destruct x; [eauto| |].
  - destruct p; simpl in V; try rewrite andb_false_r in V; discriminate.
  - destruct p; simpl in V; discriminate.
Qed.

Lemma cleanup_flat : forall a s r L, scan_ok s -> wf_root r -> NoDup L ->
  forall r1, (forall n, In n L -> exists fs, nget n r = Some (Dir fs)) ->
  (forall n, In n L -> nget n r1 = nget n r) ->
  exists r2, run r1 (flat_map (fun n => match nget n r with Some x => rm_ops a s n x | None => [] end) L) = (r2, true) /\
    (forall n, In n L -> nget n r2 = None) /\ (forall n, ~ In n L -> nget n r2 = nget n r1).
Proof.
  intros a s r L Hs [HN Hw]. induction L as [|d L IH]; intros ND r1 HL H1; simpl.
  - exists r1. repeat split; auto. tauto.
  - inversion ND; subst. destruct (HL d (or_introl eq_refl)) as (fs & Ed). rewrite Ed.
    destruct (rm_run a s d (Dir fs) r1) as (ra & A1 & A2 & A3); auto.
    + rewrite H1; simpl; auto.
    + apply Hs. apply nget_In in Ed; auto. apply (Hw _ _ Ed).
    + rewrite run_app, A1. simpl.
      destruct (IH H3 ra) as (r2 & B1 & B2 & B3); auto.
      * intros; apply HL; simpl; auto.
      * intros n Hn. rewrite A3 by (intros ->; tauto). apply H1; simpl; auto.
      * exists r2. repeat split; auto.
        -- intros n [<-|Hn]; auto. rewrite B3 by auto. auto.
        -- intros n Hn. rewrite B3 by tauto. apply A3. intros ->; tauto.
Qed.

Lemma cleanup_exact : forall a s p legacy r, scan_ok s -> wf_root r ->
  exists r', run r (cleanup_plan a s p legacy r) = (r', true) /\
    forall n, nget n r' = if is_path_temporary p legacy n r then None else nget n r.
Proof.
  intros a s p legacy r Hs Hw. unfold cleanup_plan.
  destruct (cleanup_flat a s r (all_temporary_paths p legacy r) Hs Hw) with (r1 := r)
    as (r2 & H1 & H2 & H3); auto.
  - apply NoDup_filter. apply Hw.
  - intros n Hn. apply filter_In in Hn. eapply temporary_dir. apply Hn.
  - exists r2. split; auto. intros n. destruct (is_path_temporary p legacy n r) eqn:E.
    + apply H2. apply filter_In. split; auto. apply nget_dom.
      destruct (temporary_dir _ _ _ _ E) as (fs & ->). discriminate.
    + apply H3. intros Hin. apply filter_In in Hin. destruct Hin. congruence.
Qed.

Lemma temp_final_disjoint : forall p legacy n r,
  is_path_temporary p legacy n r = true -> is_path_finalized p legacy n r = false.
Proof.
  intros p legacy n r H. unfold is_path_temporary, is_path_finalized in *.
  destruct (nget n r) as [x|]; [|discriminate]. destruct p.
  - simpl in *. destruct (str_in tmp_suffix n); auto.
    rewrite andb_false_r in H. discriminate.
  - destruct (legacy && validate_final AtomicRename n x); [discriminate|].
    rewrite orb_false_r. simpl in *. destruct (has_commit x); auto.
    rewrite andb_false_r in H. discriminate.
Qed.

Lemma removal_step : forall ns o r r' n, removal_of ns o = true -> ~ In n ns ->
  apply_op r o = Some r' -> nget n r' = nget n r.
Proof.
  intros ns o r r' n Ho Hn H.
  assert (X : forall d, existsb (String.eqb d) ns = true -> n <> d).
  { intros d E ->. apply existsb_exists in E. destruct E as (y & Hy & E).
    apply String.eqb_eq in E. subst. auto. }
  destruct o; simpl in Ho; try discriminate; apply X in Ho;
    eapply local_step; eauto; simpl; auto.
Qed.

Lemma removals_frame : forall ops ns r n, (forall o, In o ops -> removal_of ns o = true) ->
  ~ In n ns -> nget n (fst (run r ops)) = nget n r.
Proof.
  induction ops as [|o ops IH]; intros ns r n Ho Hn; auto. cbn [run].
  destruct (apply_op r o) as [r1|] eqn:E; auto. rewrite (IH ns); simpl in *; auto.
  eapply removal_step; eauto.
Qed.

Lemma cleanup_concurrent : forall p legacy r ops n,
  (forall o, In o ops -> removal_of (all_temporary_paths p legacy r) o = true) ->
  is_path_temporary p legacy n r = false ->
  nget n (fst (run r ops)) = nget n r.
Proof.
  intros. eapply removals_frame; eauto. intro X. apply filter_In in X. destruct X. congruence.
Qed.

Lemma final_name_err : forall n, ~ contains tmp_suffix n -> exists e, get_final_name n = Err e.
Proof.
  intros n H. unfold get_final_name. destruct (str_find tmp_suffix n) eqn:E; eauto.
  exfalso. apply H. apply str_in_spec. unfold str_in. rewrite E. auto.
Qed.
