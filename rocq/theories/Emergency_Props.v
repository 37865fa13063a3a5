(** Claims about the emergency checkpoint manager (C52). *)
From Coq Require Import List Bool Arith ZArith Lia Permutation.
From Verif Require Import Base Mesh_Model Mesh_Spec Mesh_Proofs Emergency_Model Emergency_Spec Emergency_Proofs.
Import ListNotations.

(** Four processes with two devices each, processes 0 and 1 in the first slice. *)
Definition cluster : mesh := mk_mesh [2; 4] (map (fun i => mk_device (Z.of_nat (100 + i)) (i / 2)) (seq 0 8)).

(** The mesh is even and its processes are numbered (the hypotheses of the theorems). *)
Example cluster_even : even cluster 0 2 2.
Proof.
  split; [split; [reflexivity|repeat constructor]|]. split; [reflexivity|]. split; [cbn; lia|]. split; [lia|]. split.
  - intros p r q (d & I & <-) (e & J & E). assert (D : forall r d, in_slice cluster 0 r d -> process d / 2 = r).
    { clear. intros r d SL. assert (R : r < 2) by (apply (slice_bound cluster 0 r d 2 SL eq_refl)).
      destruct (replica_ok cluster 0 r 2) as (l & E & _ & LI & _); [split; [reflexivity|repeat constructor]|reflexivity|auto|]. apply LI in SL.
      destruct r as [|[|r]]; [| |lia]; vm_compute in E; injection E as <-; cbn in SL; decompose [or] SL; subst; try reflexivity; contradiction. }
    rewrite <- (D _ _ I), <- (D _ _ J), E. auto.
  - intros d I. cbn in I. decompose [or] I; subst; try reflexivity; contradiction.
Qed.

Example cluster_numbered : numbered cluster 4.
Proof.
  intros p. split.
  - intros L. exists (mk_device (Z.of_nat (100 + 2 * p)) p). split; auto. do 4 (destruct p as [|p]; [cbn; tauto|]). lia.
  - intros (d & I & <-). cbn in I. decompose [or] I; subst; cbn; try lia; contradiction.
Qed.

(** ** What the processes tell each other *)

(** Whatever the processes send, all receive it unchanged: the padding to a common length is
    cut off again. *)
Theorem C52_exchange : forall encoded, exchange encoded = encoded.
Proof. apply exchange_id. Qed.
Print Assumptions C52_exchange.

Example C52_exchange_example : exchange [[1; 0]; []; [0; 0; 7]] = [[1; 0]; []; [0; 0; 7]].
Proof. reflexivity. Qed.

(** ** The steps of the slices *)

(** On a mesh of which every process has the same number of devices, all in one slice, there
    is an entry for every slice, and a step is listed for a slice exactly if every process of
    the slice has it. *)
Theorem C52_common : forall m axis n k local_steps, even m axis n k -> numbered m (length local_steps) -> distinct local_steps ->
  exists per_slice, get_per_replica_local_steps m axis k local_steps = Ok per_slice /\ NoDup (map fst per_slice) /\
    (forall j, In j (map fst per_slice) <-> exists r, r < n /\ j = Z.of_nat r) /\
    forall r l s, In (Z.of_nat r, l) per_slice -> (In s l <-> complete m axis local_steps r s).
Proof. apply per_replica. Qed.
Print Assumptions C52_common.

Example C52_common_example : get_per_replica_local_steps cluster 0 2 [[5]; [5; 6]; [7; 6]; [6; 7]]%Z = Ok [(0, [5]); (1, [6; 7])]%Z.
Proof. reflexivity. Qed.

(** Finding: if a process has devices in two slices, its steps count for the first one only
    while the number of processes of a slice is computed from the number of devices.  On a
    two by two mesh where both processes have a device in each slice, a step that only
    process 0 has counts as complete, and one that both have does not. *)
Theorem C52_spanning_refuted : exists m steps, proper m /\ (forall r p, r < 2 -> p < 2 -> process_in m 0 r p) /\ numbered m 2 /\ distinct steps /\
  ~ complete m 0 steps 0 1%Z /\ complete m 0 steps 0 2%Z /\ get_per_replica_local_steps m 0 2 steps = Ok [(0%Z, [1%Z])].
Proof.
  set (m := mk_mesh [2; 2] [mk_device 0 0; mk_device 1 1; mk_device 2 0; mk_device 3 1]).
  assert (P : proper m) by (split; [reflexivity|repeat constructor]).
  assert (PI : forall r p, r < 2 -> p < 2 -> process_in m 0 r p).
  { intros r p R Q. destruct (replica_ok m 0 r 2 P eq_refl R) as (l & E & _ & I & _). exists (mk_device (Z.of_nat (2 * r + p)) p). split; auto. apply I.
    destruct r as [|[|r]]; [| |lia]; vm_compute in E; injection E as <-; destruct p as [|[|p]]; cbn; auto; lia. }
  exists m, [[1; 2]; [2]]%Z. split; auto. split; auto. split.
  - intros p. split; [intros L; exists (mk_device (Z.of_nat p) p); split; auto; destruct p as [|[|p]]; cbn; auto; lia|]. intros (d & I & <-). cbn in I. decompose [or] I; subst; cbn; try lia; contradiction.
  - split; [intros l [<-|[<-|[]]]; repeat constructor; cbn; intuition congruence|]. split.
    + intros C. destruct (C 1 (PI 0 1 ltac:(lia) ltac:(lia))) as (l & E & I). injection E as <-. destruct I as [I|[]]; discriminate.
    + split; [|reflexivity]. intros p (d & SL & <-). apply slice_in in SL. cbn in SL. decompose [or] SL; subst; cbn; try contradiction; eexists; split; try reflexivity; cbn; auto.
Qed.
Print Assumptions C52_spanning_refuted.

(** Finding: a process without a device in the mesh is put in a slice of its own with number
    -1, and a step that it alone has counts as available (with two devices per slice and two
    local devices a slice has one process): the latest step is then one that no slice can
    restore, and restoring it fails in the primary slice while all others wait. *)
Theorem C52_outside_refuted : exists m steps c, proper m /\ (forall d, In d (devices m) -> process d < 2) /\ length steps = 3 /\ distinct steps /\
  (forall r, ~ complete m 0 steps r 9%Z \/ 2 <= r) /\ all_steps m 0 2 steps [1%Z] = Ok ([9; 1]%Z, c) /\ latest_step c = Some 9%Z /\
  restore m 0 2 None c steps [1%Z] = Ok (9%Z, [Raises ValueError; Waits; Waits]).
Proof.
  set (m := mk_mesh [2; 2] [mk_device 0 0; mk_device 1 0; mk_device 2 1; mk_device 3 1]).
  assert (P : proper m) by (split; [reflexivity|repeat constructor]).
  exists m, [[]; []; [9]]%Z, (mk_cache (Some 9%Z) (Some 1%Z)). split; auto. split.
  - intros d I. cbn in I. decompose [or] I; subst; cbn; try lia; contradiction.
  - split; auto. split; [intros l [<-|[<-|[<-|[]]]]; repeat constructor; cbn; intuition congruence|]. split; [|repeat split; reflexivity].
    intros r. destruct (Nat.lt_ge_cases r 2) as [R|]; auto. left. intros C. destruct (replica_ok m 0 r 2 P eq_refl R) as (l & E & _ & I & _).
    destruct (C r) as (x & X & J).
    { exists (mk_device (Z.of_nat (2 * r)) r). split; auto. apply I. destruct r as [|[|r]]; [| |lia]; vm_compute in E; injection E as <-; cbn; auto. }
    destruct r as [|[|r]]; [| |lia]; injection X as <-; destruct J.
Qed.
Print Assumptions C52_outside_refuted.

(** ** All steps, and the latest *)

(** The steps are those that a whole slice has or that are in persistent storage, each once,
    and the latest step is then the greatest of them. *)
Theorem C52_all_steps : forall m axis n k local_steps persistent_steps, even m axis n k -> numbered m (length local_steps) -> distinct local_steps ->
  exists steps c, all_steps m axis k local_steps persistent_steps = Ok (steps, c) /\ NoDup steps /\
    (forall s, In s steps <-> available m axis n local_steps persistent_steps s) /\ greatest (available m axis n local_steps persistent_steps) (latest_step c).
Proof.
  intros m axis n k ls ps EV NU D. destruct (per_replica m axis n k ls EV NU D) as (e & E & ND & KE & CE). unfold all_steps. rewrite E. cbn [rbind].
  assert (EV' := EV). destruct EV' as (P & NS & _). assert (NP : 0 < n).
  { destruct P as (_ & P). rewrite Forall_forall in P. apply P. eapply nth_error_In; eauto. }
  set (locals := nodup Z.eq_dec (flat_map snd e)). assert (LI : forall s, In s locals <-> exists r, r < n /\ complete m axis ls r s).
  { intros s. subst locals. rewrite nodup_In, in_flat_map. split.
    - intros ([j l] & I & J). cbn [snd] in J. assert (K := in_map fst _ _ I). apply KE in K as (r & R & K). cbn in K. subst j. exists r. split; auto. apply (CE r l s I). auto.
    - intros (r & R & C). assert (K : In (Z.of_nat r) (map fst e)) by (apply KE; eauto). apply in_map_iff in K as ([j l] & K & I). cbn in K. subst j. exists (Z.of_nat r, l). split; auto. apply (CE r l s I). auto. }
  assert (AV : forall s, In s (locals ++ ps) <-> available m axis n ls ps s) by (intros s; rewrite in_app_iff, LI; reflexivity).
  destruct e as [|x e]; [exfalso; assert (K : In 0%Z (map fst (@nil (Z * list Z)))) by (apply KE; exists 0; auto); contradiction|].
  exists (nodup Z.eq_dec (locals ++ ps)), (mk_cache (max_step locals) (max_step ps)). split; auto. split; [apply NoDup_nodup|]. split; [intros s; rewrite nodup_In; auto|].
  assert (G1 := max_step_spec locals). assert (G2 := max_step_spec ps). assert (AV1 : forall s, available m axis n ls ps s <-> In s locals \/ In s ps) by (intros s; rewrite <- AV, in_app_iff; tauto).
  unfold latest_step. cbn [local_latest persistent_latest]. destruct (max_step locals) as [a|], (max_step ps) as [b|]; unfold greatest in *.
  - split; [apply AV1; destruct (Z.max_spec a b) as [[_ ->]|[_ ->]]; tauto|]. intros s A. apply AV1 in A as [A|A]; [apply (proj2 G1) in A|apply (proj2 G2) in A]; lia.
  - split; [apply AV1; tauto|]. intros s A. apply AV1 in A as [A|A]; [apply (proj2 G1); auto|exfalso; eapply G2; eauto].
  - split; [apply AV1; tauto|]. intros s A. apply AV1 in A as [A|A]; [exfalso; eapply G1; eauto|apply (proj2 G2); auto].
  - intros s A. apply AV1 in A as [A|A]; [eapply G1; eauto|eapply G2; eauto].
Qed.
Print Assumptions C52_all_steps.

Example C52_all_steps_example : all_steps cluster 0 2 [[]; []; [7; 6]; [6; 8]]%Z [3; 4]%Z = Ok ([6; 3; 4]%Z, mk_cache (Some 6%Z) (Some 4%Z)).
Proof. reflexivity. Qed.

(** ** Saving *)

(** If all processes remember the same, none waits in vain and all get the same answer; it
    is no unless the step is newer than the latest, and otherwise yes exactly if a manager
    of one of the slices would save. *)
Theorem C52_should_save : forall step c N wants,
  exists b, should_save step (repeat c N) wants = repeat (Returns b) N /\
    (0 < N -> (b = true <-> (forall l, latest_step c = Some l -> (l < step)%Z) /\ In true wants)).
Proof.
  intros step c N wants. assert (EX : existsb (fun b : bool => b) wants = true <-> In true wants) by (rewrite existsb_exists; split; [intros ([|] & I & E); [auto|discriminate]|eauto]).
  assert (MR : forall {A B} (f : A -> B) a k, map f (repeat a k) = repeat (f a) k) by (intros A B f a k; induction k as [|k IH]; cbn; auto; rewrite IH; auto).
  assert (NN : not_newer step c = true <-> exists l, latest_step c = Some l /\ (step <= l)%Z).
  { unfold not_newer. destruct (latest_step c) as [l|]; [rewrite Z.leb_le; split; [eauto|intros (l' & E & L); injection E as <-; auto]|split; [discriminate|intros (l & E & _); discriminate]]. }
  unfold should_save. destruct N as [|N]; [exists false; split; auto; lia|]. destruct (not_newer step c) eqn:NE.
  - replace (existsb (not_newer step) (repeat c (S N))) with true by (cbn; rewrite NE; auto). exists false. rewrite MR, NE. split; auto. intros _. split; [discriminate|]. intros (H & _). destruct (proj1 NN eq_refl) as (l & E & L). apply H in E. lia.
  - replace (existsb (not_newer step) (repeat c (S N))) with false.
    + exists (existsb (fun b => b) wants). rewrite MR. split; auto. intros _. rewrite EX. split; [|tauto]. intros I. split; auto. intros l E. destruct (Z.lt_ge_cases l step) as [|L]; auto. assert (X : false = true) by (apply NN; exists l; split; auto). discriminate.
    + symmetry. destruct (existsb _ (repeat c (S N))) eqn:X; auto. apply existsb_exists in X as (y & I & Y). apply repeat_spec in I as ->. congruence.
Qed.
Print Assumptions C52_should_save.

Example C52_should_save_example : should_save 8 (repeat (mk_cache (Some 6%Z) (Some 4%Z)) 4) [false; false; true; true] = repeat (Returns true) 4.
Proof. reflexivity. Qed.

(** Finding: what the processes remember is compared before they meet.  If it differs, as
    after a listing of the persistent directory that saw a new step on some processes only,
    those that remember the step return while the others wait for them. *)
Theorem C52_cache_refuted : exists step c1 c2 wants, should_save step [c1; c2] wants = [Returns false; Waits].
Proof. exists 5%Z, (mk_cache (Some 4%Z) (Some 5%Z)), (mk_cache (Some 4%Z) None), [true; true]. reflexivity. Qed.
Print Assumptions C52_cache_refuted.

(** If all processes remember the same before saving, they do so afterwards, all get the same
    answer, it is yes exactly if a manager saved, and if the step is newer than the
    latest it is then the latest. *)
Theorem C52_save : forall step c N in_primary saved, length in_primary = N -> length saved = N ->
  exists b c', save step (repeat c N) in_primary saved = repeat (b, c') N /\ (b = true <-> In true saved) /\ (b = false -> c' = c) /\
    (b = true -> (forall l, latest_step c = Some l -> (l <= step)%Z) -> latest_step c' = Some step).
Proof.
  intros step c N ip sv LP LS. unfold save. set (x := existsb _ _). set (y := existsb _ _). exists (x || y), (mk_cache (if y then Some step else local_latest c) (if x then Some step else persistent_latest c)).
  assert (MR : forall {A B} (f : A -> B) a k, map f (repeat a k) = repeat (f a) k) by (intros A B f a k; induction k as [|k IH]; cbn; auto; rewrite IH; auto).
  split; [rewrite MR; reflexivity|]. split; [|split].
  - subst x y. clear c. revert sv N LP LS. induction ip as [|i ip IH]; intros [|s sv] N LP LS; cbn in *; subst; try discriminate; [intuition congruence|]. injection LS as LS. specialize (IH sv _ eq_refl LS). destruct i, s; cbn in *; rewrite ?orb_true_r; cbn; intuition congruence.
  - intros E. apply orb_false_elim in E as (E1 & E2). rewrite E1, E2. destruct c; auto.
  - clearbody x y. intros E H. assert (ML : forall l, local_latest c = Some l -> (l <= step)%Z).
    { intros l L. unfold latest_step in H. rewrite L in H. destruct (persistent_latest c) as [p|]; [specialize (H _ eq_refl); lia|apply H; auto]. }
    assert (MP : forall l, persistent_latest c = Some l -> (l <= step)%Z).
    { intros l L. unfold latest_step in H. rewrite L in H. destruct (local_latest c) as [p|]; [specialize (H _ eq_refl); lia|apply H; auto]. }
    unfold latest_step. cbn [local_latest persistent_latest]. destruct x, y; cbn in E; try discriminate.
    + rewrite Z.max_id. auto.
    + destruct (local_latest c) as [l|]; auto. specialize (ML _ eq_refl). f_equal. lia.
    + destruct (persistent_latest c) as [l|]; auto. specialize (MP _ eq_refl). f_equal. lia.
Qed.
Print Assumptions C52_save.

Example C52_save_example : save 8 (repeat (mk_cache (Some 6%Z) (Some 4%Z)) 4) [true; true; false; false] [false; false; true; true] = repeat (true, mk_cache (Some 8%Z) (Some 4%Z)) 4.
Proof. reflexivity. Qed.

(** Finding: what is remembered as latest is the step saved last, not the greatest: after
    saving a lower step (the managers do so if forced to) the latest step goes back although
    the greater step is still there. *)
Theorem C52_latest_refuted : exists c step out, latest_step c = Some 8%Z /\ save step [c; c] [true; false] [true; true] = out /\
  map (fun x => latest_step (snd x)) out = [Some 3%Z; Some 3%Z].
Proof. exists (mk_cache (Some 8%Z) (Some 8%Z)), 3%Z. eexists. repeat split. Qed.
Print Assumptions C52_latest_refuted.

(** ** Restoring *)

(** A step that a whole slice has is restored by all processes from the same slice, one of
    those that have it. *)
Theorem C52_restore_local : forall m axis n k local_steps persistent_steps step r, even m axis n k -> numbered m (length local_steps) -> distinct local_steps ->
  r < n -> complete m axis local_steps r step ->
  exists q, q < n /\ complete m axis local_steps q step /\ restore_step m axis k step local_steps persistent_steps = Ok (map (fun _ => Returns (FromLocal (Z.of_nat q))) local_steps).
Proof.
  intros m axis n k ls ps step r EV NU D R C. destruct (per_replica m axis n k ls EV NU D) as (e & E & ND & KE & CE). unfold restore_step. rewrite E, (slice_ids_ok m axis n k _ EV). cbn [rbind].
  assert (KP : forall j, In j (map fst e) -> (-1 < j)%Z) by (intros j I; apply KE in I as (q & _ & ->); lia).
  destruct (find_slice_spec step e KP) as [(F & l & I & J)|(F & NO)].
  - assert (K := in_map fst _ _ I). cbn [fst] in K. apply KE in K as (q & Q & K). rewrite K in *. apply (CE q l step I) in J. exists q. split; auto. split; auto.
    replace (-1 <? Z.of_nat q)%Z with true by (symmetry; apply Z.ltb_lt; lia). f_equal.
    rewrite (meet_all _ (FromLocal (Z.of_nat q))).
    + rewrite map_map. assert (LEN : length (combine (map (rid m axis) (seq 0 (length ls))) ls) = length ls) by (rewrite combine_length, map_length, seq_length; lia).
      assert (G : forall {A B C} (l1 : list A) (l2 : list B) (x : C), length l1 = length l2 -> map (fun _ => x) l1 = map (fun _ => x) l2) by (clear; intros A B C l1; induction l1 as [|a l1 IH]; intros [|b l2] x; cbn; try discriminate; auto; intros H; rewrite (IH l2 x); auto). apply G. auto.
    + intros x X. apply in_map_iff in X as ([i v] & <- & X). cbn [fst snd]. destruct (Z.eqb_spec i (Z.of_nat q)) as [->|]; auto. destruct (has_step step v) eqn:H; auto. exfalso.
      apply In_nth_error in X as (p & X). assert (PL : p < length ls).
      { assert (p < length (combine (map (rid m axis) (seq 0 (length ls))) ls)) by (apply nth_error_Some; congruence). rewrite combine_length in *. lia. }
      assert (PR : nth_error (combine (map (rid m axis) (seq 0 (length ls))) ls) p = match nth_error ls p with Some w => Some (rid m axis p, w) | None => None end).
      { assert (G : forall (l : list (list Z)) a p, p < length l -> nth_error (combine (map (rid m axis) (seq a (length l))) l) p = match nth_error l p with Some w => Some (rid m axis (a + p), w) | None => None end).
        { clear. intros l. induction l as [|w l IH]; intros a [|p]; cbn; auto; try lia; [rewrite Nat.add_0_r; auto|]. intros L. rewrite IH by lia. replace (S a + p) with (a + S p) by lia. auto. }
        apply G. auto. }
      rewrite PR in X. destruct (nth_error ls p) as [w|] eqn:W; [|discriminate]. injection X as XR ->. apply (rid_ok m axis n k p EV) in XR. destruct (J p XR) as (w' & W' & I').
      rewrite W in W'. injection W' as <-. apply has_in in I'. congruence.
  - exfalso. assert (K : In (Z.of_nat r) (map fst e)) by (apply KE; eauto). apply in_map_iff in K as ([j l] & K & I). cbn in K. subst j. apply (NO _ _ I). apply (CE r l step I). auto.
Qed.
Print Assumptions C52_restore_local.

Example C52_restore_local_example : restore_step cluster 0 2 6 [[]; []; [7; 6]; [6; 8]]%Z [3; 4]%Z = Ok (repeat (Returns (FromLocal 1)) 4).
Proof. reflexivity. Qed.

(** A step that no slice has as a whole is restored by all from persistent storage if it is
    there. *)
Theorem C52_restore_persistent : forall m axis n k local_steps persistent_steps step, even m axis n k -> numbered m (length local_steps) -> distinct local_steps ->
  (forall r, r < n -> ~ complete m axis local_steps r step) -> In step persistent_steps ->
  restore_step m axis k step local_steps persistent_steps = Ok (map (fun _ => Returns FromPersistent) local_steps).
Proof.
  intros m axis n k ls ps step EV NU D NC IP. destruct (per_replica m axis n k ls EV NU D) as (e & E & ND & KE & CE). unfold restore_step. rewrite E, (slice_ids_ok m axis n k _ EV). cbn [rbind].
  assert (KP : forall j, In j (map fst e) -> (-1 < j)%Z) by (intros j I; apply KE in I as (q & _ & ->); lia).
  destruct (find_slice_spec step e KP) as [(F & l & I & J)|(F & NO)].
  - exfalso. assert (K := in_map fst _ _ I). cbn [fst] in K. apply KE in K as (q & Q & K). rewrite K in *. apply (CE q l step I) in J. apply (NC q); auto.
  - rewrite F. change (-1 <? -1)%Z with false. cbv iota. assert (EV' := EV). destruct EV' as (P & NS & _). assert (NP : 0 < n).
    { destruct P as (_ & P). rewrite Forall_forall in P. apply P. eapply nth_error_In; eauto. }
    assert (SQ : exists bs, sequence (map (fun p => in_replica p m 0 axis) (seq 0 (length ls))) = Ok bs /\ length bs = length ls).
    { assert (G := seq_length (length ls) 0). revert G. generalize (seq 0 (length ls)) as sq. generalize (length ls) as k0. intros k0 sq <-. induction sq as [|p l IH]; [exists []; auto|]. cbn [map sequence]. destruct (in_replica_ok m axis 0 n p P NS NP) as (b & -> & _). destruct IH as (bs & -> & L). exists (b :: bs). split; auto. cbn. rewrite L. auto. }
    destruct SQ as (bs & -> & L). cbn [rbind]. f_equal. apply has_in in IP. rewrite IP. rewrite (meet_all _ FromPersistent).
    + rewrite map_map. assert (G : forall {A B C} (l1 : list A) (l2 : list B) (x : C), length l1 = length l2 -> map (fun _ => x) l1 = map (fun _ => x) l2) by (clear; intros A B C l1; induction l1 as [|a l1 IH]; intros [|b l2] x; cbn; try discriminate; auto; intros H; rewrite (IH l2 x); auto). apply G. auto.
    + intros x X. apply in_map_iff in X as (b & <- & _). rewrite andb_false_r. auto.
Qed.
Print Assumptions C52_restore_persistent.

Example C52_restore_persistent_example : restore_step cluster 0 2 4 [[]; []; [7; 6]; [4; 6]]%Z [3; 4]%Z = Ok (repeat (Returns FromPersistent) 4).
Proof. reflexivity. Qed.

(** Asked for a step that can be restored, all processes restore that step, whatever they
    remember, from the same place, which has it. *)
Theorem C52_restore_given : forall m axis n k local_steps persistent_steps s c, even m axis n k -> numbered m (length local_steps) -> distinct local_steps ->
  available m axis n local_steps persistent_steps s ->
  exists src, restore m axis k (Some s) c local_steps persistent_steps = Ok (s, map (fun _ => Returns src) local_steps) /\
    ((src = FromPersistent /\ In s persistent_steps) \/ exists q, q < n /\ src = FromLocal (Z.of_nat q) /\ complete m axis local_steps q s).
Proof.
  intros m axis n k ls ps s c EV NU D A. unfold restore. destruct (per_replica m axis n k ls EV NU D) as (e & EE & ND & KE & CE).
  assert (KP : forall j, In j (map fst e) -> (-1 < j)%Z) by (intros j I; apply KE in I as (q & _ & ->); lia).
  assert (DEC : (exists r, r < n /\ complete m axis ls r s) \/ forall r, r < n -> ~ complete m axis ls r s).
  { destruct (find_slice_spec s e KP) as [(F & l & I & J)|(F & NO)].
    - left. assert (K := in_map fst _ _ I). cbn [fst] in K. apply KE in K as (q & Q & K). rewrite K in *. apply (CE q l s I) in J. eauto.
    - right. intros r R C. assert (K : In (Z.of_nat r) (map fst e)) by (apply KE; eauto). apply in_map_iff in K as ([j l] & K & I). cbn in K. subst j. apply (NO _ _ I). apply (CE r l s I). auto. }
  destruct DEC as [(r & R & C)|NC].
  - destruct (C52_restore_local m axis n k ls ps s r EV NU D R C) as (q & Q & CQ & ->). exists (FromLocal (Z.of_nat q)). split; [reflexivity|]. right. eauto.
  - assert (IP : In s ps) by (destruct A as [(r & R & C)|]; auto; exfalso; eapply NC; eauto). rewrite (C52_restore_persistent m axis n k ls ps s EV NU D NC IP). exists FromPersistent. split; [reflexivity|]. auto.
Qed.
Print Assumptions C52_restore_given.

Example C52_restore_given_example : restore cluster 0 2 (Some 3%Z) (mk_cache (Some 6%Z) (Some 4%Z)) [[]; []; [7; 6]; [6; 8]]%Z [3; 4]%Z = Ok (3%Z, repeat (Returns FromPersistent) 4).
Proof. reflexivity. Qed.

(** Restoring the latest step after the steps were read: all processes restore the same step
    from the same place, which has it, and no step that can be restored is later.  In
    particular no step that all processes of some slice still have is lost. *)
Theorem C52_restore_latest : forall m axis n k local_steps persistent_steps, even m axis n k -> numbered m (length local_steps) -> distinct local_steps ->
  exists steps c, all_steps m axis k local_steps persistent_steps = Ok (steps, c) /\
    (((forall s, ~ available m axis n local_steps persistent_steps s) /\ restore m axis k None c local_steps persistent_steps = Err FileNotFoundError) \/
     exists s src, restore m axis k None c local_steps persistent_steps = Ok (s, map (fun _ => Returns src) local_steps) /\
       (forall s', available m axis n local_steps persistent_steps s' -> (s' <= s)%Z) /\
       ((src = FromPersistent /\ In s persistent_steps) \/ exists q, q < n /\ src = FromLocal (Z.of_nat q) /\ complete m axis local_steps q s)).
Proof.
  intros m axis n k ls ps EV NU D. destruct (C52_all_steps m axis n k ls ps EV NU D) as (steps & c & E & _ & _ & G). exists steps, c. split; auto. unfold restore. destruct (latest_step c) as [s|]; [right|left; auto].
  destruct G as (A & M). destruct (C52_restore_given m axis n k ls ps s c EV NU D A) as (src & R & O). exists s, src. unfold restore in R. auto.
Qed.
Print Assumptions C52_restore_latest.

Example C52_restore_latest_example : restore cluster 0 2 None (mk_cache (Some 6%Z) (Some 4%Z)) [[]; []; [7; 6]; [6; 8]]%Z [3; 4]%Z = Ok (6%Z, repeat (Returns (FromLocal 1)) 4).
Proof. reflexivity. Qed.

(** Finding: asked for a step that is nowhere, only the processes of the primary slice fail;
    all others wait for them before the broadcast. *)
Theorem C52_missing_refuted : exists m steps step, even m 0 2 2 /\ numbered m (length steps) /\ distinct steps /\ (forall r, r < 2 -> ~ complete m 0 steps r step) /\
  restore_step m 0 2 step steps [] = Ok [Raises ValueError; Raises ValueError; Waits; Waits].
Proof.
  exists cluster, [[]; []; []; []], 6%Z. split; [apply cluster_even|]. split; [apply cluster_numbered|]. split; [intros l I; cbn in I; decompose [or] I; subst; try constructor; contradiction|]. split; [|reflexivity].
  intros r R C. destruct (replica_nonempty cluster 0 2 r) as (p & PI); [apply cluster_even|reflexivity|auto|]. destruct (C p PI) as (l & E & I). destruct p as [|[|[|[|p]]]]; cbn in E; try injection E as <-; try contradiction. destruct p; discriminate.
Qed.
Print Assumptions C52_missing_refuted.
