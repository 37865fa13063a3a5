(** C68: every device gets the bytes of its part of a safetensors checkpoint, whatever the sharding,
    the way in which reads are put together, the size of the chunks and the order in which they come. *)
From Coq Require Import List Bool Arith ZArith String Sorted Permutation Lia.
From Verif Require Import Base Policy_Model Tree_Model Safetensors_Model Safetensors_Spec Safetensors_Proofs.
From Verif Require Composite_Model Composite_Proofs Tree_Proofs Parts_Proofs Emergency_Proofs StepMeta_Proofs ArrayMeta_Proofs.
Import ListNotations.
Open Scope Z_scope.

(** The runs of a part are one after the other, within the tensor, and have the bytes of the elements of
    the part in the order in which a buffer for the part has them. *)
Theorem C68_runs : forall bounds shape z base, 0 <= z -> part_of bounds shape ->
  StronglySorted apart (byte_runs bounds shape z base) /\
  Forall (fun r => base <= fst r /\ 0 <= snd r /\ fst r + snd r <= base + volume shape * z) (byte_runs bounds shape z base) /\
  Z.of_nat (List.length (addresses (byte_runs bounds shape z base))) = volume (dims bounds) * z /\
  (forall idx k, inside idx bounds -> 0 <= k < z ->
    nth_error (addresses (byte_runs bounds shape z base)) (Z.to_nat (row_major (dims bounds) (local idx bounds) * z + k)) = Some (base + row_major shape idx * z + k)).
Proof. intros bounds shape z base Z0 P. destruct (part_runs bounds shape z base Z0 P) as [A [B [C D]]]. auto. Qed.
Print Assumptions C68_runs.

(** The second half of the columns of an array of 2 x 4 numbers of 2 bytes at 100 *)
Example C68_runs_ex : byte_runs [(0, 2); (2, 4)] [2; 4] 2 100 = [(104, 4); (112, 4)] /\ addresses [(104, 4); (112, 4)] = [104; 105; 106; 107; 112; 113; 114; 115] /\
  part_of [(0, 2); (2, 4)] [2; 4] /\ row_major (dims [(0, 2); (2, 4)]) (local [1; 3] [(0, 2); (2, 4)]) = 3 /\ row_major [2; 4] [1; 3] = 7.
Proof. split; [vm_compute; reflexivity|]. split; [vm_compute; reflexivity|]. split; [repeat constructor; simpl; lia|]. split; vm_compute; reflexivity. Qed.

(** A part that splits the first dimension only is one run. *)
Theorem C68_one_run : forall a b n shape z base, 0 <= z -> 0 <= a -> a <= b -> b <= n -> Forall (fun k => 0 <= k) shape ->
  byte_runs ((a, b) :: map (fun k => (0, k)) shape) (n :: shape) z base = [(base + a * (volume shape * z), (b - a) * (volume shape * z))].
Proof.
  intros a b n shape z base Z0 A AB BN F. rewrite byte_runs_rec; [|exact Z0|].
  - cbn [runs_rec]. replace (all_full (map (fun k => (0, k)) shape) shape) with true; [reflexivity|]. symmetry. clear. induction shape as [|k s IH]; [reflexivity|].
    simpl. rewrite IH, andb_true_r. apply bound_eqb_eq. reflexivity.
  - constructor; [simpl; lia|]. induction F as [|k s K F IH]; simpl; constructor; [simpl; lia|exact IH].
Qed.
Print Assumptions C68_one_run.

Example C68_one_run_ex : byte_runs [(1, 3); (0, 4)] [6; 4] 2 100 = [(108, 16)].
Proof. vm_compute. reflexivity. Qed.

(** Every run is in one block, the blocks reach exactly as far as their runs, and are further apart than the gap. *)
Theorem C68_blocks : forall ratio gap runs bs, 0 <= gap -> Forall (fun r => 0 <= snd r) runs -> partition_runs ratio gap runs = Ok bs ->
  Permutation (flat_map b_members bs) (seq 0 (List.length runs)) /\
  Forall (fun b => (forall i, In i (b_members b) -> b_start b <= fst (run_at runs i) /\ fst (run_at runs i) + snd (run_at runs i) <= b_end b) /\
                   (exists i, In i (b_members b) /\ fst (run_at runs i) = b_start b) /\
                   (exists i, In i (b_members b) /\ fst (run_at runs i) + snd (run_at runs i) = b_end b)) bs /\
  StronglySorted (fun a b => b_end a + gap < b_start b) bs.
Proof.
  intros ratio gap runs bs G N E.
  assert (bs = partition (within ratio) gap runs) as ->.
  { unfold partition_runs in E. destruct runs as [|r0 rr]; [injection E as <-; reflexivity|]. destruct (fst ratio <? snd ratio); [discriminate|]. injection E as <-. reflexivity. }
  destruct (partition_groups (fun _ _ _ => True) (within ratio) gap runs (fun _ _ => I) (fun _ _ _ _ _ _ _ _ _ => I) (fun _ _ _ _ _ => I) G N) as [gs [P [_ F]]].
  destruct (partition_apart (within ratio) gap runs G N) as [_ A]. clear E. set (bs := partition (within ratio) gap runs) in *. split; [|split; [|exact A]].
  - replace (flat_map b_members bs) with (map fst (List.concat gs)).
    + eapply Permutation_trans; [apply Permutation_map; exact P|]. rewrite Emergency_Proofs.enum_fst. apply Permutation_refl.
    + clear - F. induction F as [|b g bs gs [M _] F IH]; [reflexivity|]. simpl. rewrite map_app, IH, M. reflexivity.
  - assert (forall g x, In g gs -> In x g -> run_at runs (fst x) = snd x) as RA.
    { intros g [i x] Ig Ix. assert (In (i, x) (enumerate runs)) as J by (apply (Permutation_in _ P); apply in_concat; exists g; auto).
      apply Emergency_Proofs.enum_in in J. unfold run_at. simpl. apply nth_error_nth with (d := (0, 0)) in J. exact J. }
    apply Forall_forall. intros b Ib. destruct (f2_left _ _ _ _ F Ib) as [g [Ig [M [[[x [Ix Ex]] [[y [Iy Ey]] Q]] _]]]]. rewrite M. split; [|split].
    + intros i Ii. apply in_map_iff in Ii. destruct Ii as [u [<- Iu]]. rewrite (RA g u Ig Iu). rewrite Forall_forall in Q. exact (Q u Iu).
    + exists (fst x). split; [apply in_map; exact Ix|]. rewrite (RA g x Ig Ix). exact Ex.
    + exists (fst y). split; [apply in_map; exact Iy|]. rewrite (RA g y Ig Iy). exact Ey.
Qed.
Print Assumptions C68_blocks.

Example C68_blocks_ex : partition_runs (3, 2) 10 [(500, 5); (0, 100); (105, 20); (160, 30)] = Ok [mkBlock 0 190 [1%nat; 2%nat; 3%nat]; mkBlock 500 505 [0%nat]].
Proof. vm_compute. reflexivity. Qed.

(** A block is at most the ratio larger than what its runs need, and a gap for each run but one. *)
Theorem C68_over_read : forall ratio gap runs bs, 0 <= gap -> 0 < snd ratio -> Forall (fun r => 0 <= snd r) runs -> partition_runs ratio gap runs = Ok bs ->
  Forall (fun b => (b_end b - b_start b) * snd ratio <= fst ratio * needs runs b + gap * (Z.of_nat (List.length (b_members b)) - 1) * snd ratio) bs.
Proof.
  intros ratio gap runs bs G D N E.
  assert (bs = partition (within ratio) gap runs /\ (runs = [] \/ snd ratio <= fst ratio)) as [-> R].
  { unfold partition_runs in E. destruct runs as [|r0 rr]; [injection E as <-; auto|]. destruct (fst ratio <? snd ratio) eqn:Q; [discriminate|]. apply Z.ltb_ge in Q. injection E as <-. auto. }
  destruct R as [->|R]; [constructor|].
  destruct (partition_groups (fun size needed k => size * snd ratio <= fst ratio * needed + gap * (k - 1) * snd ratio /\ 1 <= k) (within ratio) gap runs) as [gs [P [_ F]]]; try assumption.
  - intros n H. split; nia.
  - intros size needed k n size' [H K] N0 _ L. split; [|lia]. assert (0 <= (fst ratio - snd ratio) * n) by (apply Z.mul_nonneg_nonneg; lia). nia.
  - intros size needed k K W. apply Z.leb_le in W. split; [|exact K]. assert (0 <= gap * (k - 1)) by (apply Z.mul_nonneg_nonneg; lia). nia.
  - apply Forall_forall. intros b Ib. destruct (f2_left _ _ _ _ F Ib) as [g [Ig [M [_ [H _]]]]].
    replace (needs runs b) with (total_of g); [rewrite M, map_length; exact H|]. unfold needs, total_of. rewrite M, map_map. f_equal. apply map_ext_in. intros [i x] Ix.
    assert (In (i, x) (enumerate runs)) as J by (apply (Permutation_in _ P); apply in_concat; exists g; auto).
    apply Emergency_Proofs.enum_in in J. unfold run_at. simpl. apply nth_error_nth with (d := (0, 0)) in J. rewrite J. reflexivity.
Qed.
Print Assumptions C68_over_read.

Example C68_over_read_ex : exists bs, partition_runs (3, 2) 10 [(0, 100); (105, 20); (160, 30)] = Ok bs /\ map (needs [(0, 100); (105, 20); (160, 30)]) bs = [150] /\ map (fun b => b_end b - b_start b) bs = [190].
Proof. eexists. split; [vm_compute; reflexivity|]. split; vm_compute; reflexivity. Qed.

(** "With max_over_read_ratio == 2.0, a host pulls at most 2x the bytes it actually needs" is false: runs that
    are less than a page apart are always put together, so two bytes may cost four thousand. *)
Theorem C68_over_read_refuted : exists runs bs, StronglySorted apart runs /\ Forall (fun r => 0 < snd r) runs /\ partition_runs (2, 1) default_gap runs = Ok bs /\
  2 * fold_right Z.add 0 (map snd runs) < fold_right Z.add 0 (map (fun b => b_end b - b_start b) bs).
Proof.
  exists [(0, 1); (4097, 1)], [mkBlock 0 4098 [0%nat; 1%nat]]. split; [constructor; [constructor; [constructor|constructor]|constructor; [unfold apart; simpl; lia|constructor]]|].
  split; [constructor; [simpl; lia|constructor; [simpl; lia|constructor]]|]. split; vm_compute; reflexivity.
Qed.
Print Assumptions C68_over_read_refuted.

(** If runs of one length at one distance would need too many reads, the ratio that is chosen makes one block of them. *)
Theorem C68_uniform : forall base stride len n q, 0 < len -> len <= stride -> auto_ratio (uniform base stride len n) = Ok q -> q <> (1, 1) ->
  partition_runs q default_gap (uniform base stride len n) = Ok [mkBlock base (base + (Z.of_nat n - 1) * stride + len) (seq 0 n)].
Proof.
  intros base stride len n q L S E Q. unfold auto_ratio in E. rewrite (sort_sorted _ (uniform_sorted base stride len n ltac:(lia) S)) in E.
  destruct n as [|n]; [simpl in E; injection E as <-; congruence|].
  pose proof (auto_uniform base stride len (Datatypes.S n) O 0 1 (base + Z.of_nat 0 * stride) ltac:(lia) S ltac:(lia)) as [A1 A2]. cbv zeta in A1, A2.
  change (uniform base stride len (Datatypes.S n)) with ((base + Z.of_nat 0 * stride, len) :: map (fun i => (base + Z.of_nat i * stride, len)) (seq 1 n)) in E. cbv beta iota in E.
  change (map (fun i => (base + Z.of_nat i * stride, len)) (seq 0 (Datatypes.S n))) with ((base + Z.of_nat 0 * stride, len) :: map (fun i => (base + Z.of_nat i * stride, len)) (seq 1 n)) in A1, A2.
  rewrite A1, A2 in E. destruct (_ <=? auto_max_reads); [injection E as <-; congruence|].
  destruct (0 + Z.of_nat (Datatypes.S n) * len =? 0); [discriminate|].
  destruct (_ <=? 0 + Z.of_nat (Datatypes.S n) * len) eqn:Le; [injection E as <-; congruence|]. apply Z.leb_gt in Le.
  match type of E with Ok ?x = Ok _ => assert (q = x) as -> by congruence end. clear E Q. unfold partition_runs. change (uniform base stride len (Datatypes.S n)) with ((base + Z.of_nat 0 * stride, len) :: map (fun i => (base + Z.of_nat i * stride, len)) (seq 1 n)). cbv iota. cbn [fst snd].
  match goal with |- (if ?c then _ else _) = _ => replace c with false by (symmetry; apply Z.ltb_ge; lia) end. f_equal. unfold partition.
  change ((base + Z.of_nat 0 * stride, len) :: map (fun i => (base + Z.of_nat i * stride, len)) (seq 1 n)) with (map (fun i => (base + Z.of_nat i * stride, len)) (seq 0 (Datatypes.S n))).
  unfold enumerate. rewrite enum_from_map. rewrite sorted_by_key.
  - cbn [seq map]. pose proof (uniform_loop base stride len (Datatypes.S n) (base + Z.of_nat (0 + Datatypes.S n - 1) * stride + len - (base + Z.of_nat 0 * stride), 0 + Z.of_nat (Datatypes.S n) * len) ltac:(lia) S) as U.
    cbn [fst snd] in U. specialize (U ltac:(lia) ltac:(lia) n 1%nat [O] ltac:(lia) ltac:(lia)).
    replace (base + Z.of_nat (1 - 1) * stride + len) with (base + Z.of_nat 0 * stride + len) in U by (simpl; lia).
    replace (Z.of_nat 1 * len) with len in U by lia. replace (base + Z.of_nat 0 * stride) with base in * by lia. rewrite U.
    replace (Z.of_nat (Datatypes.S n - 1)) with (Z.of_nat (Datatypes.S n) - 1) by lia. reflexivity.
  - clear - S L. generalize O as k. induction (Datatypes.S n) as [|m IH]; intros k; cbn [seq map]; [constructor|]. constructor; [apply IH|].
    apply Forall_forall. intros x I. apply in_map_iff in I. destruct I as [i [<- I]]. apply in_seq in I. simpl. nia.
Qed.
Print Assumptions C68_uniform.

Example C68_uniform_ex : auto_ratio (uniform 0 5000 10 1025) = Ok (5120010, 10250).
Proof. vm_compute. reflexivity. Qed.

(** "Instead of an unbounded number of small requests" does not hold for runs that are not uniform: the ratio of a file
    with one large run is too small to put the small ones together, and each of them is a request of its own. *)
Theorem C68_auto_reads_refuted : exists runs q bs, StronglySorted apart runs /\ auto_ratio runs = Ok q /\ q <> (1, 1) /\ partition_runs q default_gap runs = Ok bs /\ auto_max_reads + 100 < Z.of_nat (List.length bs).
Proof.
  exists (uniform 0 5000 1 1200 ++ [(6000000, 1000000000)]), (1006000000, 1000001200).
  assert (exists bs, partition_runs (1006000000, 1000001200) default_gap (uniform 0 5000 1 1200 ++ [(6000000, 1000000000)]) = Ok bs /\ Z.of_nat (List.length bs) = 1200) as [bs [E1 E2]].
  { eexists. split; [vm_compute; reflexivity|vm_compute; reflexivity]. }
  exists bs. split; [|split; [vm_compute; reflexivity|split; [discriminate|split; [exact E1|rewrite E2; vm_compute; reflexivity]]]].
  apply ss_app; [| constructor; constructor|].
  - apply uniform_apart; lia.
  - intros x y I [<-|[]]. unfold uniform in I. apply in_map_iff in I. destruct I as [i [<- I]]. apply in_seq in I. unfold apart. cbn [fst snd]. lia.
Qed.
Print Assumptions C68_auto_reads_refuted.

(** Empty tensors that are far apart, and nothing else, make the choice of the ratio divide by zero. *)
Theorem C68_auto_zero_refuted : exists runs, StronglySorted apart runs /\ Forall (fun r => 0 <= snd r) runs /\ auto_ratio runs = Err ZeroDivisionError.
Proof.
  exists (uniform 0 5000 0 1025). split; [|split; [|vm_compute; reflexivity]].
  - apply uniform_apart; lia.
  - apply Forall_forall. intros x I. unfold uniform in I. apply in_map_iff in I. destruct I as [i [<- I]]. simpl. lia.
Qed.
Print Assumptions C68_auto_zero_refuted.

(** A chunk is not empty and not larger than it may be, is within what the reads want, and no byte is in two chunks. *)
Theorem C68_chunks : forall reads ratio size cs, Forall (fun r => 0 <= r_len r) reads -> 0 < size -> plan_chunk_reads reads ratio size = Ok cs ->
  Forall (fun c => 0 < c_len c /\ c_len c <= size /\ (exists r, In r reads /\ r_off r <= c_off c) /\ (exists r, In r reads /\ c_off c + c_len c <= r_off r + r_len r)) cs /\
  StronglySorted (fun a b => c_off a + c_len a <= c_off b) cs.
Proof.
  intros reads ratio size cs N Z0 E. destruct (plan_serves _ _ _ _ N Z0 E) as [A [_ [_ D]]]. split; [|exact D]. apply Forall_forall. exact A.
Qed.
Print Assumptions C68_chunks.

Example C68_chunks_ex : rmap (map (fun c => (c_off c, c_len c))) (plan_chunk_reads [mkRead 0 70 0 0 70; mkRead 100 10 0 70 10] None 50) = Ok [(0, 50); (50, 50); (100, 10)].
Proof. vm_compute. reflexivity. Qed.

(** The chunks of reads that are in the file fill every byte of every destination with the byte of the file that belongs there, and
    nothing else, in whatever order they come. *)
Theorem C68_filled : forall (B : Type) (f : file B) reads ratio size cs order m0, Forall (sound f) reads -> ForallOrdPairs separate reads -> 0 < size ->
  plan_chunk_reads reads ratio size = Ok cs -> Permutation order cs ->
  exists m, read_chunks (map (pair f) order) m0 = Ok m /\
    (forall r i, In r reads -> 0 <= i < r_len r -> m (r_buf r) (r_pos r + i) = f_at f (r_off r + i)) /\
    (forall buf p, (forall r, In r reads -> ~ fills r buf p) -> m buf p = m0 buf p).
Proof.
  intros B f reads ratio size cs order m0 Sd Sp Z0 E P.
  destruct (load_source [(f, reads)] ratio size [map (pair f) cs] (map (pair f) order) m0 Z0) as [m [M1 [M2 M3]]].
  - intros f' rs r [I|[]] Ir. injection I as <- <-. rewrite Forall_forall in Sd. exact (Sd r Ir).
  - constructor; [exists cs; auto|constructor].
  - simpl. rewrite app_nil_r. apply Permutation_map. exact P.
  - intros b p f1 x1 f2 x2 [rs1 [r1 [[I1|[]] [Ir1 [F1 ->]]]]] [rs2 [r2 [[I2|[]] [Ir2 [F2 ->]]]]]. injection I1 as <- <-. injection I2 as <- <-.
    destruct (ForallOrdPairs_In Sp r1 r2 Ir1 Ir2) as [->|[S|S]]; [reflexivity|exfalso; exact (S b p F1 F2)|exfalso; exact (S b p F2 F1)].
  - exists m. split; [exact M1|]. split.
    + intros r i I L. apply M2. exists reads, r. split; [left; reflexivity|]. split; [exact I|]. split; [unfold fills; lia|lia].
    + intros buf p H. apply M3. intros f' x [rs [r [[I|[]] [Ir [Fl _]]]]]. injection I as <- <-. exact (H r Ir Fl).
Qed.
Print Assumptions C68_filled.

Example C68_filled_ex : exists cs m, plan_chunk_reads [mkRead 3 4 0 2 4; mkRead 5 3 1 0 3] None 2 = Ok cs /\
  read_chunks (map (pair (mkFile [] 0 8 (fun x => x))) (rev cs)) (fun _ _ => -1) = Ok m /\ map (m 0%nat) [0; 1; 2; 3; 4; 5; 6] = [-1; -1; 3; 4; 5; 6; -1] /\ map (m 1%nat) [0; 1; 2; 3] = [5; 6; 7; -1].
Proof. eexists. eexists. split; [vm_compute; reflexivity|]. split; [vm_compute; reflexivity|]. split; vm_compute; reflexivity. Qed.

(** A load that was planned does not fail, whatever the order in which the chunks come, and has on every device of the process the
    part that the sharding gives it, of the tensor of that name; and on no other device. *)
Theorem C68_load : forall (B : Type) this nprocs (files : list (string * file B)) in_flight chunk_bytes ratio a order m0 cs out,
  NoDup (map fst files) -> (forall path f, In (path, f) files -> 0 <= f_start f) -> NoDup (map fst a) ->
  (forall name l, In (name, l) a -> (forall d bounds, In (d, (this, bounds)) (l_map l) -> part_of bounds (l_shape l)) /\ forall f i, located files name f i -> truthful i) ->
  (forall l, Permutation (order l) l) ->
  plan_load this nprocs files in_flight chunk_bytes ratio (Some a) = Ok (cs, out) ->
  exists m, load this nprocs files in_flight chunk_bytes ratio (Some a) order m0 = Ok (m, out) /\
    Permutation (map fst out) (map fst a) /\
    forall name l, In (name, l) a -> exists f i z bufs, located files name f i /\ i_size i = Some z /\ i_shape i = l_shape l /\ In (name, bufs) out /\
      (forall d bounds, In (d, (this, bounds)) (l_map l) -> exists b ds, In (b, ds) bufs /\ In d ds /\ has_part m b f i z bounds) /\
      (forall b ds d, In (b, ds) bufs -> In d ds -> exists bounds, In (d, (this, bounds)) (l_map l)).
Proof.
  intros B this nprocs files in_flight chunk_bytes ratio a order m0 cs out Nf Fs Na H Or E.
  assert (forall name l, dget String.eqb name a = Some l <-> In (name, l) a) as Ga by (intros; apply (Tree_Proofs.dget_in String.eqb String.eqb_spec _ _ a Na)).
  assert (Permutation (map fst out) (map fst a)) as Pn.
  { assert (map fst out = Composite_Model.sorted_names (map fst a)) as ->; [|apply Composite_Proofs.sorted_perm].
    unfold plan_load in E. destruct (file_index files) as [index|]; [|discriminate]. cbn [rbind] in E. destruct (chunk_size in_flight chunk_bytes) as [size|]; [|discriminate]. cbn [rbind] in E.
    destruct (forallb _ a); [|discriminate]. cbn [rbind] in E. destruct (plan_names this files index (Some a) (Composite_Model.sorted_names (map fst a)) 0 [] []) as [[D o]|] eqn:Pl; [|discriminate]. cbn [rbind fst snd] in E.
    destruct (plan_files files ratio size D); [|discriminate]. cbn [rmap rbind] in E. injection E as _ <-.
    assert (forall names buf D0 o0 D1 o1, plan_names this files index (Some a) names buf D0 o0 = Ok (D1, o1) -> map fst o1 = map fst o0 ++ names) as G.
    { induction names as [|nm ns IH]; intros buf D0 o0 D1 o1 Q; cbn [plan_names] in Q; [injection Q as _ <-; rewrite app_nil_r; reflexivity|].
      destruct (plan_name this files index (Some a) nm buf) as [pn|]; [|discriminate]. cbn [rbind] in Q. rewrite (IH _ _ _ _ _ Q), map_app, <- app_assoc. reflexivity. }
    apply (G _ _ _ _ _ _ Pl). }
  destruct (load_ents this nprocs files in_flight chunk_bytes ratio (Some a) cs out (order cs) m0 Nf Fs) as [m [ents [M1 [M2 [M3 [M4 [M5 _]]]]]]]; try assumption.
  - intros a' name l d bounds Ea Dl I. injection Ea as <-. apply Ga in Dl. exact (proj1 (H name l Dl) d bounds I).
  - intros name f i I L. apply (Permutation_in _ Pn) in I. apply in_map_iff in I. destruct I as [[nm l] [X I]]. simpl in X. subst nm. exact (proj2 (H name l I) f i L).
  - apply Or.
  - exists m. split; [unfold load; rewrite E; cbn [rbind fst snd]; rewrite M1; reflexivity|]. split; [exact Pn|]. intros name l I.
    assert (In name (map fst out)) as In1 by (apply (Permutation_in _ (Permutation_sym Pn)); apply in_map_iff; exists (name, l); auto).
    rewrite M2, map_map in In1. simpl in In1. apply in_map_iff in In1. destruct In1 as [e [Ee Ie]].
    destruct (M3 e Ie) as [f [i [z [N1 [N2 [N3 [l' [b0 [N4 [N5 [N6 N7]]]]]]]]]]]. rewrite Ee in *. apply Ga in I. assert (l' = l) as -> by congruence. apply Ga in I. clear N4.
    exists f, i, z, (fst (snd (snd e))). assert (located files name f i) as Lo by (exists (fst (snd e)); auto). split; [exact Lo|]. split; [exact N3|]. split; [symmetry; exact N5|].
    split; [rewrite M2; apply in_map_iff; exists e; rewrite Ee; auto|].
    destruct (by_index_spec this (l_map l)) as [Bn Bs]. destruct (proj2 (H name l I) f i Lo) as [_ [_ T]]. destruct (T z N3) as [Z0 _]. split.
    + intros d bounds Id. destruct (proj2 (Bs bounds d) Id) as [ds [Q Jd]]. apply (Tree_Proofs.dget_in bounds_eqb bounds_eqb_spec _ _ _ Bn) in Q.
      destruct (shards_pair (fst (snd e)) (l_shape l) z (f_start f + i_begin i) _ b0 bounds ds Q) as [b [B1 B2]]. exists b, ds. split; [rewrite N7; exact B1|]. split; [exact Jd|].
      intros idx k Ii K. apply (M5 (fst (snd e)) f); [exact N1|]. eexists. split; [apply in_flat_map; exists e; split; [exact Ie|rewrite N6; exact B2]|].
      pose proof (proj1 (H name l I) d bounds Id) as P. destruct (part_runs bounds (l_shape l) z (f_start f + i_begin i) Z0 P) as [_ [_ [_ R]]].
      pose proof (row_major_bound idx bounds _ P Ii). split; [nia|]. rewrite <- N5. apply R; assumption.
    + intros b ds d Ib Jd. rewrite N7 in Ib. destruct (shards_back _ _ _ _ _ _ _ Ib) as [bounds Q]. exists bounds. apply Bs. exists ds. split; [|exact Jd].
      apply (Tree_Proofs.dget_in bounds_eqb bounds_eqb_spec _ _ _ Bn). exact Q.
Qed.
Print Assumptions C68_load.

(** Two tensors in one file: [w] of 2 x 4 numbers of one byte at 4, [v] of 3 at 1; the columns of [w] are on two devices of this process and one of another. *)
Definition ex_file : file Z := mkFile [("v"%string, mkInfo (Some 1) [3] 0 3); ("w"%string, mkInfo (Some 1) [2; 4] 3 11)] 1 12 (fun x => x).
Definition ex_state : dict string leaf :=
  [("w"%string, mkLeaf [2; 4] [(10%nat, (0%nat, [(0, 2); (0, 2)])); (11%nat, (1%nat, [(0, 1); (0, 4)])); (12%nat, (0%nat, [(0, 2); (2, 4)])); (13%nat, (0%nat, [(0, 2); (0, 2)]))]);
   ("v"%string, mkLeaf [3] [(10%nat, (0%nat, [(0, 3)]))])].

Example C68_load_ex : exists m, load 0 2 [("f"%string, ex_file)] None (Some 3) None (Some ex_state) (@rev _) (fun _ _ => -1) = Ok (m, [("v"%string, [(0%nat, [10%nat])]); ("w"%string, [(1%nat, [10%nat; 13%nat]); (2%nat, [12%nat])])]) /\
  map (m 0%nat) [0; 1; 2] = [1; 2; 3] /\ map (m 1%nat) [0; 1; 2; 3] = [4; 5; 8; 9] /\ map (m 2%nat) [0; 1; 2; 3] = [6; 7; 10; 11].
Proof. eexists. split; [vm_compute; reflexivity|]. split; [vm_compute; reflexivity|]. split; vm_compute; reflexivity. Qed.

(** Without a state every tensor of every file is loaded, whole. *)
Theorem C68_load_whole : forall (B : Type) this nprocs (files : list (string * file B)) in_flight chunk_bytes ratio order m0 cs out,
  NoDup (map fst files) -> (forall path f, In (path, f) files -> 0 <= f_start f) -> (forall name f i, located files name f i -> truthful i) ->
  (forall l, Permutation (order l) l) -> plan_load this nprocs files in_flight chunk_bytes ratio None = Ok (cs, out) ->
  exists m, load this nprocs files in_flight chunk_bytes ratio None order m0 = Ok (m, out) /\ NoDup (map fst out) /\ (nprocs <= 1)%nat /\
    (forall name, In name (map fst out) <-> exists f i, located files name f i) /\
    forall name f i, located files name f i -> exists b z, In (name, [(b, [])]) out /\ i_size i = Some z /\ forall j, 0 <= j < volume (i_shape i) * z -> m b j = f_at f (f_start f + i_begin i + j).
Proof.
  intros B this nprocs files in_flight chunk_bytes ratio order m0 cs out Nf Fs Tr Or E.
  destruct (load_ents this nprocs files in_flight chunk_bytes ratio None cs out (order cs) m0 Nf Fs) as [m [ents [M1 [M2 [M3 [M4 [M5 [index [M6 M7]]]]]]]]]; try assumption.
  - intros; discriminate.
  - intros name f i _ L. exact (Tr name f i L).
  - apply Or.
  - destruct (file_index_ok _ _ M6) as [_ Ii]. pose proof (file_index_all _ _ M6) as Ia.
    assert (NoDup (map fst index)) as Ni.
    { unfold file_index in M6. destruct (sequence (map (fun x => check_length (snd x)) files)); [|discriminate]. cbn [rbind] in M6. apply (index_nodup _ _ _ M6). constructor. }
    assert (forall name, In name (map fst out) <-> exists f i, located files name f i) as On.
    { intros name. rewrite M7. split.
      - intros I. apply in_map_iff in I. destruct I as [[nm e] [X I]]. simpl in X. subst nm. apply (Tree_Proofs.dget_in String.eqb String.eqb_spec name e index Ni) in I.
        destruct (Ii name e I) as [f [J K]]. exists f, (snd e), (fst e). auto.
      - intros [f [i [path [J K]]]]. pose proof (Ia path f name i J K) as Q. apply (Tree_Proofs.dget_in String.eqb String.eqb_spec name (path, i) index Ni) in Q. apply in_map_iff. exists (name, (path, i)). auto. }
    exists m. split; [unfold load; rewrite E; cbn [rbind fst snd]; rewrite M1; reflexivity|]. split; [rewrite M7; exact Ni|]. split.
    + unfold plan_load in E. rewrite M6 in E. cbn [rbind] in E. destruct (chunk_size in_flight chunk_bytes); [|discriminate]. cbn [rbind] in E. destruct (1 <? nprocs)%nat eqn:Q; [discriminate|]. apply Nat.ltb_ge in Q. exact Q.
    + split; [exact On|]. intros name f i [path [J K]].
      assert (In name (map fst out)) as I by (apply On; exists f, i, path; auto). rewrite M2, map_map in I. simpl in I. apply in_map_iff in I. destruct I as [e [Ee Ie]].
      destruct (M3 e Ie) as [f' [i' [z [N1 [N2 [N3 [b [N4 N5]]]]]]]]. rewrite Ee in *.
      pose proof (Ia _ _ _ _ J K) as Q1. pose proof (Ia _ _ _ _ N1 N2) as Q2. rewrite Q1 in Q2. injection Q2 as X1 <-.
      assert (f' = f) as ->.
      { rewrite <- X1 in N1. apply (Tree_Proofs.dget_in String.eqb String.eqb_spec path f' files Nf) in N1. apply (Tree_Proofs.dget_in String.eqb String.eqb_spec path f files Nf) in J. congruence. }
      exists b, z. split; [rewrite M2; apply in_map_iff; exists e; rewrite Ee, N4; auto|]. split; [exact N3|]. intros j Hj.
      destruct (Tr name f i (ex_intro _ path (conj J K))) as [_ [_ T]]. destruct (T z N3) as [Z0 Te].
      apply (M5 (fst (snd e)) f); [exact N1|]. eexists. split; [apply in_flat_map; exists e; split; [exact Ie|rewrite N5; left; reflexivity]|]. split; [lia|]. apply span_nth; [lia|]. lia.
Qed.
Print Assumptions C68_load_whole.

Example C68_load_whole_ex : exists m, load 0 1 [("f"%string, ex_file)] (Some 4) None (Some (1, 1)) None (@rev _) (fun _ _ => -1) = Ok (m, [("v"%string, [(0%nat, [])]); ("w"%string, [(1%nat, [])])]) /\
  map (m 0%nat) [0; 1; 2; 3] = [1; 2; 3; -1] /\ map (m 1%nat) [0; 1; 2; 3; 4; 5; 6; 7; 8] = [4; 5; 6; 7; 8; 9; 10; 11; -1].
Proof. eexists. split; [vm_compute; reflexivity|]. split; vm_compute; reflexivity. Qed.

(** What is loaded was checked: the files have the bytes that their headers declare, no name is in two places, every name that is wanted
    is there with the shape that is wanted and a known dtype, and the chunks have a size. *)
Theorem C68_checks : forall (B : Type) this nprocs (files : list (string * file B)) in_flight chunk_bytes ratio abstract cs out,
  plan_load this nprocs files in_flight chunk_bytes ratio abstract = Ok (cs, out) ->
  (forall path f name i, In (path, f) files -> In (name, i) (f_header f) -> f_start f + i_end i <= f_len f) /\
  (forall name path f i path' f' i', In (path, f) files -> In (name, i) (f_header f) -> In (path', f') files -> In (name, i') (f_header f') -> path = path' /\ i = i') /\
  (forall a name l, abstract = Some a -> NoDup (map fst a) -> In (name, l) a -> exists f i, located files name f i /\ i_shape i = l_shape l /\ i_size i <> None) /\
  (forall c, chunk_bytes = Some c -> 0 < c).
Proof.
  intros B this nprocs files in_flight chunk_bytes ratio abstract cs out E. unfold plan_load in E.
  destruct (file_index files) as [index|] eqn:Fi; [|discriminate]. cbn [rbind] in E. destruct (file_index_ok _ _ Fi) as [Il Ii]. pose proof (file_index_all _ _ Fi) as Ia.
  destruct (chunk_size in_flight chunk_bytes) as [size|] eqn:Cs; [|discriminate]. cbn [rbind] in E. split; [exact Il|]. split; [|split].
  - intros name path f i path' f' i' A1 A2 A3 A4. pose proof (Ia _ _ _ _ A1 A2) as Q1. pose proof (Ia _ _ _ _ A3 A4) as Q2. rewrite Q1 in Q2. injection Q2 as -> ->. auto.
  - intros a name l -> Na I. destruct (forallb _ a); [|discriminate]. cbn [rbind] in E.
    destruct (plan_names this files index (Some a) (Composite_Model.sorted_names (map fst a)) 0 [] []) as [p|] eqn:Pl; [|discriminate].
    assert (In name (Composite_Model.sorted_names (map fst a))) as In1.
    { apply (Permutation_in _ (Permutation_sym (Composite_Proofs.sorted_perm (map fst a)))). apply in_map_iff. exists (name, l). auto. }
    clear E. revert Pl In1. generalize (Composite_Model.sorted_names (map fst a)) as names. generalize (@nil (string * list (nat * list nat))) as o. generalize (@nil (string * list read)) as D. generalize O as buf.
    intros buf D o names. revert buf D o. induction names as [|nm ns IH]; intros buf D o Pl J; [destruct J|]. cbn [plan_names] in Pl.
    destruct (plan_name this files index (Some a) nm buf) as [pn|] eqn:Pn; [|discriminate]. cbn [rbind] in Pl. destruct J as [->|J]; [|exact (IH _ _ _ Pl J)].
    unfold plan_name, fetch in Pn. destruct (dget String.eqb name index) as [e|] eqn:De; [|discriminate]. cbn [rbind] in Pn. destruct (Ii name e De) as [f [If Ih]].
    destruct (dget String.eqb (fst e) files) as [f'|]; [|discriminate]. cbn [rbind] in Pn.
    apply (Tree_Proofs.dget_in String.eqb String.eqb_spec name l a Na) in I. rewrite I in Pn. cbn [rbind] in Pn. unfold plan_sharded in Pn.
    exists f, (snd e). split; [exists (fst e); auto|]. destruct (i_size (snd e)); [|discriminate]. destruct (zs_eqb (l_shape l) (i_shape (snd e))) eqn:Z; [|discriminate]. apply zs_eqb_eq in Z. split; [symmetry; exact Z|discriminate].
  - intros c ->. unfold chunk_size in Cs. cbv zeta in Cs. destruct (c <=? 0) eqn:Q; [discriminate|]. apply Z.leb_gt in Q. exact Q.
Qed.
Print Assumptions C68_checks.

Example C68_checks_ex : (exists p, plan_load 0 2 [("f"%string, ex_file)] None (Some 3) None (Some ex_state) = Ok p) /\
  plan_load 0 2 [("f"%string, ex_file); ("g"%string, ex_file)] None (Some 3) None (Some ex_state) = Err ValueError /\
  plan_load 0 2 [("f"%string, mkFile (f_header ex_file) 1 11 (f_at ex_file))] None (Some 3) None (Some ex_state) = Err ValueError /\
  plan_load 0 2 [("f"%string, ex_file)] None (Some 3) None (Some [("u"%string, mkLeaf [3] [])]) = Err KeyError.
Proof. split; [eexists; vm_compute; reflexivity|]. split; [vm_compute; reflexivity|]. split; vm_compute; reflexivity. Qed.

(** A plan is made, if the files have the bytes that their headers declare and no name twice, what is wanted is there with the same shape and a known
    dtype, the sizes are positive and the ratio is given and at least 1. *)
Theorem C68_accepts : forall (B : Type) this nprocs (files : list (string * file B)) in_flight chunk_bytes q a,
  NoDup (map fst files) -> NoDup (map fst a) ->
  (forall path f, In (path, f) files -> f_start f <= f_len f /\ forall name i, In (name, i) (f_header f) -> f_start f + i_end i <= f_len f) ->
  NoDup (flat_map (fun x => map fst (f_header (snd x))) files) ->
  (forall name l, In (name, l) a -> exists f i, located files name f i /\ i_shape i = l_shape l /\ i_size i <> None) ->
  (forall n, in_flight = Some n -> 0 < n) -> (forall n, chunk_bytes = Some n -> 0 < n) -> snd q <= fst q ->
  exists p, plan_load this nprocs files in_flight chunk_bytes (Some q) (Some a) = Ok p.
Proof.
  intros B this nprocs files in_flight chunk_bytes q a Nf Na Fl Nn H I1 I2 Q. unfold plan_load.
  assert (exists index, file_index files = Ok index) as [index Fi].
  { unfold file_index. destruct (seq_accepts (fun x : string * file B => check_length (snd x)) files) as [ys ->].
    - intros [p f] I. exists tt. destruct (Fl p f I) as [L1 L2]. apply check_length_accepts; assumption.
    - cbn [rbind]. apply index_files_accepts; [exact Nn|reflexivity]. }
  rewrite Fi. cbn [rbind].
  assert (exists size, chunk_size in_flight chunk_bytes = Ok size /\ 0 < size) as [size [-> S]].
  { unfold chunk_size. cbv zeta. set (m := match in_flight with Some n => n | None => _ end). set (c := match chunk_bytes with Some n => n | None => _ end).
    assert (0 < m) as M by (destruct in_flight as [n|]; [exact (I1 n eq_refl)|reflexivity]). assert (0 < c) as C by (destruct chunk_bytes as [n|]; [exact (I2 n eq_refl)|reflexivity]).
    replace (c <=? 0) with false by (symmetry; apply Z.leb_gt; exact C). replace (m + 1 <=? 0) with false by (symmetry; apply Z.leb_gt; lia). exists (Z.min c m). split; [reflexivity|lia]. }
  cbn [rbind]. pose proof (file_index_all _ _ Fi) as Ia.
  assert (forall name l, In (name, l) a -> exists path f i, dget String.eqb name index = Some (path, i) /\ dget String.eqb path files = Some f /\ i_shape i = l_shape l /\ i_size i <> None) as W.
  { intros name l I. destruct (H name l I) as [f [i [[path [J K]] [X Y]]]]. exists path, f, i. split; [exact (Ia _ _ _ _ J K)|]. split; [apply (Tree_Proofs.dget_in String.eqb String.eqb_spec path f files Nf); exact J|auto]. }
  replace (forallb _ a) with true.
  2:{ symmetry. apply forallb_forall. intros [name l] I. destruct (W name l I) as [path [f [i [E _]]]]. simpl. rewrite E. reflexivity. }
  cbn [rbind]. destruct (plan_names_accepts this files index (Some a) (Composite_Model.sorted_names (map fst a)) 0 [] []) as [D [out [E G]]].
  - intros name b I. apply (Permutation_in _ (Composite_Proofs.sorted_perm (map fst a))) in I. apply in_map_iff in I. destruct I as [[nm l] [X I]]. simpl in X. subst nm.
    destruct (W name l I) as [path [f [i [E1 [E2 [E3 E4]]]]]]. unfold plan_name, fetch. rewrite E1. cbn [rbind fst snd]. rewrite E2. cbn [rbind].
    apply (Tree_Proofs.dget_in String.eqb String.eqb_spec name l a Na) in I. rewrite I. cbn [rbind]. unfold plan_sharded. destruct (i_size i) as [z|]; [|congruence].
    replace (zs_eqb (l_shape l) (i_shape i)) with true by (symmetry; apply zs_eqb_eq; symmetry; exact E3). cbn [rmap rbind]. eexists. split; [reflexivity|]. cbn [fst snd]. congruence.
  - intros path [].
  - rewrite E. cbn [rbind fst snd]. destruct (plan_files_accepts files q size D Q S G) as [cs ->]. cbn [rmap rbind]. eauto.
Qed.
Print Assumptions C68_accepts.

Example C68_accepts_ex : NoDup (flat_map (fun x => map fst (f_header (snd x))) [("f"%string, ex_file)]) /\ exists p, plan_load 0 2 [("f"%string, ex_file)] (Some 1) (Some 3) (Some (1, 1)) (Some ex_state) = Ok p.
Proof. split; [repeat constructor; simpl; intuition discriminate|]. eexists. vm_compute. reflexivity. Qed.

(** The offsets of a tensor are not compared with its shape: a file whose header says that [v] has five numbers in three bytes passes the checks,
    and the devices get bytes of the next tensor for the last two. *)
Theorem C68_header_refuted : exists (f : file Z) i next m, check_length f = Ok tt /\ f_header f = [("v"%string, i); ("w"%string, next)] /\ i_end i <= i_begin next /\
  load 0 1 [("f"%string, f)] None None None (Some [("v"%string, mkLeaf [5] [(7%nat, (0%nat, [(0, 5)]))])]) (fun l => l) (fun _ _ => -1) = Ok (m, [("v"%string, [(0%nat, [7%nat])])]) /\
  exists j, 0 <= j < 5 /\ m 0%nat j = f_at f (f_start f + i_begin next).
Proof.
  exists (mkFile [("v"%string, mkInfo (Some 1) [5] 0 3); ("w"%string, mkInfo (Some 1) [4] 3 7)] 1 8 (fun x => x)). do 2 eexists.
  assert (exists m, load 0 1 [("f"%string, mkFile [("v"%string, mkInfo (Some 1) [5] 0 3); ("w"%string, mkInfo (Some 1) [4] 3 7)] 1 8 (fun x : Z => x))] None None None (Some [("v"%string, mkLeaf [5] [(7%nat, (0%nat, [(0, 5)]))])]) (fun l => l) (fun _ _ => -1) = Ok (m, [("v"%string, [(0%nat, [7%nat])])]) /\ m 0%nat 3 = 4) as [m [M1 M2]].
  { eexists. split; [vm_compute; reflexivity|vm_compute; reflexivity]. }
  exists m. split; [vm_compute; reflexivity|]. split; [reflexivity|]. split; [simpl; lia|]. split; [exact M1|]. exists 3. split; [lia|]. rewrite M2. reflexivity.
Qed.
Print Assumptions C68_header_refuted.
