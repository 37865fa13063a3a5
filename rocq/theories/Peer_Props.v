(** C54: the peer-to-peer checkpoint manager finds and restores complete steps. *)
From Coq Require Import List Bool Arith ZArith Lia Permutation.
From Verif Require Import Base Mesh_Model Mesh_Spec Mesh_Proofs Peer_Model Peer_Spec Peer_Proofs.
Import ListNotations.

(** A mesh of two replicas; processes 0 and 1 have the one, 2 and 3 the other. *)
Definition quad : mesh := layout [2; 4] [0; 0; 1; 1; 2; 2; 3; 3].

Lemma quad_proper : proper quad.
Proof. split; [reflexivity|]. repeat constructor. Qed.

(** Every process of the mesh is mapped to the last replica it has devices in and to its rank among the
    processes there, in the order of their first devices. *)
Theorem C54_topology : forall m axis n, proper m -> nth_error (shape m) axis = Some n -> 2 <= length (shape m) ->
  exists tmap, build_topology_map m axis = Ok tmap /\
    (forall p r k, find p tmap = Some (mk_spot r k) <->
       (exists devs, replica_devices m r axis = Ok devs /\ shard_of devs p k) /\ forall q, r < q -> ~ process_in m axis q p) /\
    (forall p r, process_in m axis r p -> find p tmap <> None).
Proof. intros m axis n P N L. destruct (topology m axis n P N L) as (tmap & T & _ & A & B). exists tmap. split; [auto|]. split; [auto|]. intros p r I X. apply (B p r X I). Qed.
Print Assumptions C54_topology.

Example C54_topology_ex : build_topology_map quad 0 = Ok [(0, mk_spot 0 0); (1, mk_spot 0 1); (2, mk_spot 1 0); (3, mk_spot 1 1)] /\
  replica_devices quad 1 0 = Ok [mk_device 4 2; mk_device 5 2; mk_device 6 3; mk_device 7 3] /\ shard_of [mk_device 4 2; mk_device 5 2; mk_device 6 3; mk_device 7 3] 3 1.
Proof. split; [reflexivity|]. split; [reflexivity|]. exists 2, (mk_device 6 3). repeat split. Qed.

(** No two processes share replica and relative id. *)
Theorem C54_distinct : forall m axis n tmap p q sp, proper m -> nth_error (shape m) axis = Some n -> 2 <= length (shape m) -> build_topology_map m axis = Ok tmap ->
  find p tmap = Some sp -> find q tmap = Some sp -> p = q.
Proof. exact distinct. Qed.
Print Assumptions C54_distinct.

Example C54_distinct_ex : exists tmap, build_topology_map quad 0 = Ok tmap /\ find 3 tmap = Some (mk_spot 1 1).
Proof. eexists. split; reflexivity. Qed.

(** If the replicas are laid out in the same way, processes with the same relative id have devices at the same
    positions of their replicas. *)
Theorem C54_positions : forall m axis n tmap p q r r' k devs devs', proper m -> nth_error (shape m) axis = Some n -> 2 <= length (shape m) ->
  build_topology_map m axis = Ok tmap -> find p tmap = Some (mk_spot r k) -> find q tmap = Some (mk_spot r' k) ->
  replica_devices m r axis = Ok devs -> replica_devices m r' axis = Ok devs' -> same_pattern devs devs' ->
  forall j, has_position devs p j <-> has_position devs' q j.
Proof.
  intros m axis n tmap p q r r' k devs devs' P N L T A B D D' S. destruct (topology m axis n P N L) as (t & E & _ & F & _). rewrite T in E. injection E as <-.
  apply F in A as ((d & X & A) & _). apply F in B as ((d' & X' & B) & _). rewrite D in X. injection X as <-. rewrite D' in X'. injection X' as <-. apply (same_positions devs devs' p q k); auto.
Qed.
Print Assumptions C54_positions.

Example C54_positions_ex : same_pattern [mk_device 0 0; mk_device 1 0; mk_device 2 1; mk_device 3 1] [mk_device 4 2; mk_device 5 2; mk_device 6 3; mk_device 7 3].
Proof.
  split; [reflexivity|]. intros i j d e d' e' A B C D.
  destruct i as [|[|[|[|i]]]]; destruct j as [|[|[|[|j]]]]; cbn in *; try (destruct i; discriminate); try (destruct j; discriminate); injection A as <-; injection B as <-; injection C as <-; injection D as <-; cbn; lia.
Qed.

(** The relative id of a process is its rank in the order of first devices, not where its devices are.  When
    one replica is laid out differently (here 0 0 1 1 and 2 3 2 3), the process 1 is taken as the source for the
    process 3, though it stored other parts of the arrays. *)
Theorem C54_positions_refuted : exists m axis tmap scans p, proper m /\ build_topology_map m axis = Ok tmap /\
  get_source_peer tmap (make_registry tmap scans) 5 3 = Some p /\ process_index p = 1 /\
  exists devs devs', replica_devices m 0 axis = Ok devs /\ replica_devices m 1 axis = Ok devs' /\ has_position devs' 3 1 /\ ~ has_position devs 1 1.
Proof.
  exists (layout [2; 4] [0; 0; 1; 1; 2; 3; 2; 3]), 0.
  eexists. exists [(Some 0, [5%Z]); (Some 1, [5%Z]); (None, []); (None, [])]. eexists. split; [split; [reflexivity|repeat constructor]|]. split; [vm_compute; reflexivity|]. split; [vm_compute; reflexivity|]. split; [reflexivity|].
  eexists. eexists. split; [vm_compute; reflexivity|]. split; [vm_compute; reflexivity|]. split; [exists (mk_device 5 3); split; reflexivity|]. intros (d & D & X). cbn in D. injection D as <-. discriminate X.
Qed.
Print Assumptions C54_positions_refuted.

(** The latest complete step is the greatest step of which every relative id is held by some process, and there
    is none exactly if no step is complete. *)
Theorem C54_complete : forall m axis n tmap scans, proper m -> nth_error (shape m) axis = Some n -> 2 <= length (shape m) -> build_topology_map m axis = Ok tmap ->
  (forall s, get_latest_complete_step tmap (make_registry tmap scans) = Some s <-> complete tmap scans s /\ forall s', complete tmap scans s' -> (s' <= s)%Z) /\
  (get_latest_complete_step tmap (make_registry tmap scans) = None <-> forall s, ~ complete tmap scans s).
Proof.
  intros m axis n tmap scans P N L T. destruct (topology m axis n P N L) as (t & E & K & _ & F). rewrite T in E. injection E as <-. apply latest; auto. intros ->.
  assert (R : 0 < n) by (destruct P as (_ & P); rewrite Forall_forall in P; apply P; eapply nth_error_In; eauto).
  destruct (replica_ok m axis 0 n P N R) as ([|d l] & _ & NE & I & _); [congruence|]. apply (F (process d) 0); [reflexivity|]. exists d. split; [apply I; cbn; auto|auto].
Qed.
Print Assumptions C54_complete.

Example C54_complete_ex : exists tmap, build_topology_map quad 0 = Ok tmap /\
  get_latest_complete_step tmap (make_registry tmap [(Some 0, [3; 5; 7]%Z); (None, []); (Some 2, [7%Z]); (Some 3, [3; 5]%Z)]) = Some 5%Z /\
  get_latest_complete_step tmap (make_registry tmap [(Some 0, [3; 5; 7]%Z); (None, []); (Some 2, [7%Z]); (None, [])]) = None.
Proof. eexists. split; [reflexivity|]. split; reflexivity. Qed.

(** If the replicas are laid out in the same way and no process is in two of them, a step is complete as soon as all
    processes of one replica hold it. *)
Theorem C54_full_copy : forall m axis n tmap scans r s, proper m -> nth_error (shape m) axis = Some n -> 2 <= length (shape m) -> build_topology_map m axis = Ok tmap ->
  (forall p r r', process_in m axis r p -> process_in m axis r' p -> r = r') ->
  (forall r r' devs devs', replica_devices m r axis = Ok devs -> replica_devices m r' axis = Ok devs' -> same_pattern devs devs') ->
  r < n -> (forall p, process_in m axis r p -> exists a, holds scans a p s) -> complete tmap scans s.
Proof.
  intros m axis n tmap scans r s P N L T NS SP R H p [r' k] F. destruct (topology m axis n P N L) as (t & E & _ & W & _). rewrite T in E. injection E as <-.
  apply W in F as ((devs' & D' & j & d & J & X & FA & RK) & _). destruct (replica_ok m axis r n P N R) as (devs & D & _). assert (S := SP r' r devs' devs D' D).
  assert (LJ : j < length devs) by (destruct S as (<- & _); apply nth_error_Some; congruence). destruct (nth_error devs j) as [q|] eqn:Q; [|apply nth_error_None in Q; lia].
  assert (PI : process_in m axis r (process q)) by (apply (process_in_devs m axis r n devs (process q) P N D); apply in_map; eapply nth_error_In; eauto).
  destruct (H _ PI) as (a & A). exists (process q), a, (mk_spot r k). split; auto. split; auto. apply W. split.
  - exists devs. split; auto. exists j, q. split; auto. split; auto. split; [rewrite <- (rank_pattern devs' devs); auto|]. rewrite <- RK. unfold rank. f_equal. apply filter_ext. intros y. symmetry. apply rank_pattern. auto.
  - intros u U I. assert (Y := NS _ _ _ PI I). lia.
Qed.
Print Assumptions C54_full_copy.

Example C54_full_copy_ex : exists tmap, build_topology_map quad 0 = Ok tmap /\ get_latest_complete_step tmap (make_registry tmap [(None, []); (None, []); (Some 2, [7%Z]); (Some 3, [7%Z])]) = Some 7%Z.
Proof. eexists. split; reflexivity. Qed.

(** A process with devices in two replicas is mapped to the last one only.  Then a step may count as incomplete
    though all processes of a replica hold it: "at least one full copy exists" (peer_selector.py l.90) is not
    what is tested. *)
Theorem C54_full_copy_refuted : exists m axis tmap scans, proper m /\ build_topology_map m axis = Ok tmap /\
  (forall p, process_in m axis 0 p -> exists a, holds scans a p 5) /\ get_latest_complete_step tmap (make_registry tmap scans) = None.
Proof.
  set (m := layout [2; 2] [0; 1; 1; 2]). assert (P : proper m) by (split; [reflexivity|repeat constructor]).
  exists m, 0. eexists. exists [(Some 0, [5%Z]); (Some 1, [5%Z]); (None, [])]. split; auto. split; [vm_compute; reflexivity|]. split; [|vm_compute; reflexivity].
  intros p I. assert (E : replica_devices m 0 0 = Ok [mk_device 0 0; mk_device 1 1]) by reflexivity. apply (process_in_devs m 0 0 2 _ p P eq_refl E) in I. cbn in I. destruct I as [<-|[<-|[]]]; [exists 0|exists 1]; exists [5%Z]; cbn; auto.
Qed.
Print Assumptions C54_full_copy_refuted.

(** The source of a step holds it, as the last one to say so; it holds what the process itself stored, or, if nobody holds
    that, what a process with the same relative id stored. *)
Theorem C54_source : forall tmap scans s t p, get_source_peer tmap (make_registry tmap scans) s t = Some p ->
  last_holder scans (address p) (process_index p) s /\
  (process_index p = t \/ (forall a, ~ holds scans a t s) /\ exists sp sp', find t tmap = Some sp /\ find (process_index p) tmap = Some sp' /\ relative sp = relative sp').
Proof. exact source_sound. Qed.
Print Assumptions C54_source.

Example C54_source_ex : exists tmap, build_topology_map quad 0 = Ok tmap /\
  get_source_peer tmap (make_registry tmap [(Some 0, [3; 5]%Z); (Some 3, [5%Z]); (None, []); (Some 1, [5%Z])]) 5 3 = Some (mk_peer 1 3 [5%Z] 1) /\
  get_source_peer tmap (make_registry tmap [(Some 0, [3; 5]%Z); (Some 3, [5%Z]); (None, []); (Some 1, [5%Z])]) 5 2 = Some (mk_peer 0 0 [3; 5]%Z 0).
Proof. eexists. split; [reflexivity|]. split; reflexivity. Qed.

(** There is no source exactly if nobody holds what the process stored and nobody holds what a process with its
    relative id stored. *)
Theorem C54_no_source : forall tmap scans s t, get_source_peer tmap (make_registry tmap scans) s t = None <->
  (forall a, ~ holds scans a t s) /\ (find t tmap = None \/ exists sp, find t tmap = Some sp /\ forall i, ~ shard_held tmap scans (relative sp) s i).
Proof. exact source_none. Qed.
Print Assumptions C54_no_source.

Example C54_no_source_ex : exists tmap, build_topology_map quad 0 = Ok tmap /\ get_source_peer tmap (make_registry tmap [(Some 0, [5%Z]); (None, []); (None, []); (None, [])]) 5 3 = None.
Proof. eexists. split; reflexivity. Qed.

(** Among several holders the choice follows the replicas: there are as many holders in replicas before that of
    the source as the number of the own replica says, modulo the number of holders. *)
Theorem C54_spread : forall m axis n tmap scans s t p sp is, proper m -> nth_error (shape m) axis = Some n -> 2 <= length (shape m) -> build_topology_map m axis = Ok tmap ->
  get_source_peer tmap (make_registry tmap scans) s t = Some p -> process_index p <> t -> find t tmap = Some sp ->
  NoDup is -> (forall i, In i is <-> shard_held tmap scans (relative sp) s i) ->
  exists sp', find (process_index p) tmap = Some sp' /\
    length (filter (fun i => match find i tmap with Some x => replica x <? replica sp' | None => false end) is) = replica sp mod length is.
Proof. intros m axis n tmap scans s t p sp is P N L T G X F ND IS. apply (spread tmap scans s t p sp is); auto. intros a b c. apply (distinct m axis n tmap a b c P N L T). Qed.
Print Assumptions C54_spread.

Definition four : mesh := layout [4; 1] [0; 1; 2; 3].

Example C54_spread_ex : exists tmap, build_topology_map four 0 = Ok tmap /\
  option_map process_index (get_source_peer tmap (make_registry tmap [(Some 2, [5%Z]); (Some 0, [5%Z]); (None, []); (None, [])]) 5 3) = Some 2 /\
  option_map process_index (get_source_peer tmap (make_registry tmap [(Some 3, [5%Z]); (Some 0, [5%Z]); (None, []); (None, [])]) 5 2) = Some 0.
Proof. eexists. split; [reflexivity|]. split; reflexivity. Qed.

(** ** Restoring *)

(** If each disk has steps of one process, the registry can be built. *)
Theorem C54_sync : forall disks m axis n, proper m -> nth_error (shape m) axis = Some n -> 2 <= length (shape m) -> Forall one_owner disks ->
  exists r, sync_registry disks m axis = Ok r.
Proof. intros disks m axis n P N L O. destruct (sync_ok disks m axis n P N L O) as (tmap & scans & _ & _ & E). eauto. Qed.
Print Assumptions C54_sync.

Definition some_disks : list (list stored) := [[mk_stored 3 (Some 0); mk_stored 5 (Some 0)]; []; [mk_stored 5 (Some 1)]; [mk_stored 3 (Some 3)]].

Example C54_sync_ex : Forall one_owner some_disks /\ exists r, sync_registry some_disks quad 0 = Ok r.
Proof. split; [|eexists; vm_compute; reflexivity]. unfold some_disks. apply Forall_cons; [exists 0; repeat constructor|]. apply Forall_cons; [exists 0; repeat constructor|]. apply Forall_cons; [exists 1; repeat constructor|]. apply Forall_cons; [exists 3; repeat constructor|constructor]. Qed.

(** One process whose latest step does not tell who stored it (for example because the format of the names of
    the steps is not the default one, which utils.py l.42 does not know) keeps all processes from building the
    registry, though a step is complete. *)
Theorem C54_sync_refuted : exists disks m, proper m /\ sync_registry disks m 0 = Err ValueError /\
  exists tmap, build_topology_map m 0 = Ok tmap /\ complete_on_disks tmap disks 5.
Proof.
  exists [[mk_stored 5 (Some 0)]; [mk_stored 5 (Some 1)]; [mk_stored 5 None]; []], quad. split; [exact quad_proper|]. split; [reflexivity|]. eexists. split; [reflexivity|].
  intros p sp F. cbn in F. destruct p as [|[|[|[|p]]]]; cbn in F; try discriminate; injection F as <-; cbn.
  - exists 0, 0, (mk_spot 0 0). split; [exists [mk_stored 5 (Some 0)]; cbn; auto|auto].
  - exists 1, 1, (mk_spot 0 1). split; [exists [mk_stored 5 (Some 1)]; cbn; auto|auto].
  - exists 0, 0, (mk_spot 0 0). split; [exists [mk_stored 5 (Some 0)]; cbn; auto|auto].
  - exists 1, 1, (mk_spot 0 1). split; [exists [mk_stored 5 (Some 1)]; cbn; auto|auto].
Qed.
Print Assumptions C54_sync_refuted.

(** If each disk has steps of one process, the network works and every process is in the mesh, then the given
    complete step, or else the latest complete one, is restored by every process, from its own disk or
    from a disk with what a process with the same relative id stored. *)
Theorem C54_restore : forall disks network m axis n tmap reg persistent step s, proper m -> nth_error (shape m) axis = Some n -> 2 <= length (shape m) ->
  Forall one_owner disks -> (forall a b, network a b = true) -> (forall a, a < length disks -> exists r, process_in m axis r a) ->
  sync_registry disks m axis = Ok (tmap, reg) -> complete_on_disks tmap disks s ->
  (step = Some s \/ step = None /\ forall s', complete_on_disks tmap disks s' -> (s' <= s)%Z) ->
  exists outs, restore disks network tmap reg persistent step = (Some s, outs) /\ length outs = length disks /\ forall me o, nth_error outs me = Some o -> rightful tmap disks me s o.
Proof.
  intros disks network m axis n tmap reg persistent step s P N L O NW M S C ST. destruct (sync_ok disks m axis n P N L O) as (tm & scans & SC & T & E). rewrite S in E. injection E as <- ->.
  assert (C2 := proj1 (complete_disks tmap disks scans s O SC) C).
  assert (SS : source_step tmap (make_registry tmap scans) step = Some s).
  { destruct ST as [->|(-> & G)]; auto. cbn. apply (C54_complete m axis n tmap scans P N L T). split; auto. intros s' H. apply G, (complete_disks tmap disks scans s' O SC). auto. }
  destruct (topology m axis n P N L) as (t & T' & _ & _ & F). rewrite T in T'. injection T' as <-.
  assert (TR : forall me disk, nth_error disks me = Some disk -> exists o, try_restore disks network tmap (make_registry tmap scans) me disk s = Some o /\ rightful tmap disks me s (Returns o)).
  { intros me disk D. destruct (find me tmap) as [sp|] eqn:FM; [apply (try_ok disks network tmap scans s me disk sp); auto|]. exfalso. destruct (M me ltac:(apply nth_error_Some; congruence)) as (r & R). apply (F me r FM R). }
  destruct (restore_cases disks network tmap (make_registry tmap scans) persistent step s) as (outs & R & CS); [rewrite SS; auto|]. rewrite SS in CS. exists outs. split; auto.
  assert (NN : ~ In None (attempts disks network tmap (make_registry tmap scans) (Some s))).
  { intros I. apply In_nth_error in I as (me & I). rewrite nth_attempts in I. destruct (nth_error disks me) as [disk|] eqn:D; [|discriminate]. destruct (TR me disk D) as (o & X & _). cbn in I. congruence. }
  assert (OU : outs = map finish (attempts disks network tmap (make_registry tmap scans) (Some s))).
  { destruct CS as [(_ & X)|[(A & X)|(A & _)]]; auto; [|tauto]. destruct disks as [|d ds]; auto. destruct (TR 0 d eq_refl) as (o & Y & _). elim (A o). apply nth_error_In with 0. rewrite nth_attempts. cbn. congruence. }
  subst outs. split; [rewrite map_length; unfold attempts; rewrite map_length; unfold enumerate; clear; generalize 0; induction disks; intros k; cbn; auto|].
  intros me o X. rewrite nth_error_map, nth_attempts in X. destruct (nth_error disks me) as [disk|] eqn:D; [|discriminate]. cbn in X. destruct (TR me disk D) as (x & Y & Z). rewrite Y in X. cbn in X. congruence.
Qed.
Print Assumptions C54_restore.

Example C54_restore_ex : exists tmap reg, sync_registry some_disks quad 0 = Ok (tmap, reg) /\
  restore some_disks (fun _ _ => true) tmap reg (Some [1%Z]) None = (Some 5%Z, [Returns FromDisk; Returns (FromPeer 2 1); Returns (FromPeer 0 0); Returns (FromPeer 2 1)]) /\
  restore some_disks (fun _ _ => true) tmap reg None (Some 3%Z) = (Some 3%Z, [Returns FromDisk; Returns (FromPeer 3 3); Returns (FromPeer 0 0); Returns FromDisk]).
Proof. eexists. eexists. split; [vm_compute; reflexivity|]. split; vm_compute; reflexivity. Qed.

(** Without a complete step all processes restore the latest persistent one; without such a step all fail. *)
Theorem C54_persistent : forall disks network m axis n tmap scans l, proper m -> nth_error (shape m) axis = Some n -> 2 <= length (shape m) -> build_topology_map m axis = Ok tmap ->
  (forall s, ~ complete tmap scans s) ->
  (forall s, In s l -> (forall s', In s' l -> (s' <= s)%Z) -> restore disks network tmap (make_registry tmap scans) (Some l) None = (Some s, repeat (Returns FromPersistent) (length disks))) /\
  (l = [] -> restore disks network tmap (make_registry tmap scans) (Some l) None = (None, repeat (Raises FileNotFoundError) (length disks))).
Proof.
  intros disks network m axis n tmap scans l P N L T H. assert (G := proj2 (proj2 (C54_complete m axis n tmap scans P N L T)) H). split.
  - intros s I M. destruct (restore_cases disks network tmap (make_registry tmap scans) (Some l) None s) as (outs & R & CS); [cbn [source_step]; rewrite G; apply max_spec; auto|]. cbn [source_step] in CS. rewrite G in CS. rewrite R. f_equal.
    assert (A : forall o, In o (attempts disks network tmap (make_registry tmap scans) None) -> o = None) by (intros o J; apply in_map_iff in J as (x & <- & _); auto).
    assert (FS : from_storage (Some l) s = Returns FromPersistent) by (cbn; replace (existsb (Z.eqb s) l) with true; auto; symmetry; apply existsb_exists; exists s; split; auto; apply Z.eqb_refl).
    destruct CS as [(X & ->)|[(_ & ->)|(_ & (x & X) & _)]].
    + destruct disks as [|d ds]; auto. elim X. cbn. auto.
    + rewrite FS. auto.
    + apply A in X. discriminate.
  - intros ->. unfold restore. rewrite G. cbn [max_or_none]. f_equal. apply map_repeat. auto.
Qed.
Print Assumptions C54_persistent.

Example C54_persistent_ex : exists tmap reg, sync_registry [[mk_stored 3 (Some 0)]; []; []; []] quad 0 = Ok (tmap, reg) /\
  restore [[mk_stored 3 (Some 0)]; []; []; []] (fun _ _ => true) tmap reg (Some [2; 9; 4]%Z) None = (Some 9%Z, repeat (Returns FromPersistent) 4).
Proof. eexists. eexists. split; vm_compute; reflexivity. Qed.

(** A step that nobody holds is restored from the persistent storage by all, if it is there. *)
Theorem C54_given_persistent : forall disks network tmap scans l s, (forall a i, ~ holds scans a i s) ->
  restore disks network tmap (make_registry tmap scans) (Some l) (Some s) = (Some s, repeat (if in_dec Z.eq_dec s l then Returns FromPersistent else Raises FileNotFoundError) (length disks)).
Proof.
  intros disks network tmap scans l s H. destruct (restore_cases disks network tmap (make_registry tmap scans) (Some l) (Some s) s) as (outs & R & CS); [auto|]. cbn [source_step] in CS. rewrite R. f_equal.
  assert (A : forall o, In o (attempts disks network tmap (make_registry tmap scans) (Some s)) -> o = None).
  { intros o J. apply in_map_iff in J as ((me & disk) & <- & _). cbn. unfold try_restore. replace (get_source_peer tmap (make_registry tmap scans) s me) with (@None peer); auto. symmetry. apply source_none. split; [intros a; apply H|].
    destruct (find me tmap) as [sp|]; auto. right. exists sp. split; auto. intros i (a & sp' & X & _). apply (H a i X). }
  assert (FS : from_storage (Some l) s = if in_dec Z.eq_dec s l then Returns FromPersistent else Raises FileNotFoundError).
  { cbn. destruct (in_dec Z.eq_dec s l) as [I|I]; [replace (existsb (Z.eqb s) l) with true|replace (existsb (Z.eqb s) l) with false]; auto; symmetry; [apply existsb_exists; exists s; split; auto; apply Z.eqb_refl|].
    apply not_true_iff_false. intros X. apply existsb_exists in X as (y & Y & Z). apply Z.eqb_eq in Z as <-. auto. }
  destruct CS as [(X & ->)|[(_ & ->)|(_ & (x & X) & _)]].
  - destruct disks as [|d ds]; auto. elim X. cbn. left. apply A. cbn. auto.
  - rewrite FS. auto.
  - apply A in X. discriminate.
Qed.
Print Assumptions C54_given_persistent.

Example C54_given_persistent_ex : exists tmap reg, sync_registry some_disks quad 0 = Ok (tmap, reg) /\
  restore some_disks (fun _ _ => true) tmap reg (Some [2; 9; 4]%Z) (Some 4%Z) = (Some 4%Z, repeat (Returns FromPersistent) 4).
Proof. eexists. eexists. split; vm_compute; reflexivity. Qed.

(** Whatever happens, either all processes return data or none does, and either all of them take it from the
    persistent storage or none. *)
Theorem C54_all_or_none : forall disks network tmap reg persistent step t outs, restore disks network tmap reg persistent step = (t, outs) ->
  ((forall o, In o outs -> returned o) \/ (forall o, In o outs -> ~ returned o)) /\
  ((forall o, In o outs -> o = Returns FromPersistent) \/ ~ In (Returns FromPersistent) outs).
Proof.
  intros disks network tmap reg persistent step t outs R.
  destruct (match source_step tmap reg step with Some x => Some x | None => max_or_none (match persistent with Some l => l | None => [] end) end) as [s|] eqn:E.
  - destruct (restore_cases disks network tmap reg persistent step s E) as (o' & R' & CS). rewrite R in R'. injection R' as -> <-. destruct CS as [(N & ->)|[(_ & ->)|(_ & _ & ->)]].
    + split.
      * left. intros o I. apply in_map_iff in I as ([x|] & <- & I); [exists x; auto|tauto].
      * right. intros I. apply in_map_iff in I as (o & X & I). destruct o as [x|]; [|tauto]. injection X as ->. apply in_map_iff in I as ((me & disk) & X & _). destruct (source_step tmap reg step) as [s'|]; [|discriminate].
        unfold try_restore, restore_from_local_or_p2p in X. cbn [fst snd] in X. destruct (get_source_peer tmap reg s' me) as [p|]; [|discriminate]. destruct (local_all_steps me disk); cbn [rbind] in X; [|discriminate].
        destruct (existsb _ _); [destruct (detect_process_index disk s') as [i|]; [destruct (i =? me)|]; discriminate|]. destruct (_ && _); discriminate.
    + split.
      * unfold from_storage. destruct persistent as [l|]; [destruct (existsb _ l)|]; [left; intros o I; apply repeat_spec in I as ->; eexists; eauto|right|right]; intros o I (x & X); apply repeat_spec in I; congruence.
      * unfold from_storage. destruct persistent as [l|]; [destruct (existsb _ l)|]; [left; intros o I; apply repeat_spec in I; auto|right|right]; intros I; apply repeat_spec in I; discriminate.
    + assert (W : forall o, In o (map (fun o => if match persistent with Some _ => true | None => is_some o end then Waits else Raises FileNotFoundError) (attempts disks network tmap reg (source_step tmap reg step))) -> ~ returned o).
      { intros o I (x & X). apply in_map_iff in I as (y & Y & _). destruct (match persistent with Some _ => true | None => is_some y end); congruence. }
      split; [right; auto|]. right. intros I. apply (W _ I). exists FromPersistent. auto.
  - unfold restore in R. fold (source_step tmap reg step) in R. rewrite E in R. injection R as <- <-. split; right; [intros o I (x & X)|intros I]; apply in_map_iff in I as (y & Y & _); congruence.
Qed.
Print Assumptions C54_all_or_none.

Example C54_all_or_none_ex : exists tmap reg, sync_registry some_disks quad 0 = Ok (tmap, reg) /\
  restore some_disks (fun _ b => negb (b =? 2)) tmap reg None None = (Some 5%Z, [Waits; Raises FileNotFoundError; Waits; Raises FileNotFoundError]).
Proof. eexists. eexists. split; vm_compute; reflexivity. Qed.

(** The fallback to the persistent storage is meant for the case that some process fails to get its data from its
    peers (checkpoint_manager.py l.458).  In that case it is not reached: the processes that have their data wait at the
    barrier at the end of Checkpointer.restore for those that failed, which wait for them in the vote.  Here one
    connection does not work; the step is in the persistent storage, and no process ends. *)
Theorem C54_fallback_refuted : exists disks network tmap reg l s, Forall one_owner disks /\ sync_registry disks quad 0 = Ok (tmap, reg) /\ complete_on_disks tmap disks s /\ In s l /\
  restore disks network tmap reg (Some l) None = (Some s, repeat Waits 4).
Proof.
  exists some_disks, (fun a b => negb ((a =? 1) && (b =? 2))). eexists. eexists. exists [5%Z], 5%Z. split; [apply C54_sync_ex|]. split; [vm_compute; reflexivity|]. split; [|split; [cbn; auto|vm_compute; reflexivity]].
  intros p sp F. cbn in F. destruct p as [|[|[|[|p]]]]; cbn in F; try discriminate; injection F as <-; cbn [relative].
  - exists 0, 0, (mk_spot 0 0). split; [eexists; split; [reflexivity|cbn; auto]|auto].
  - exists 2, 1, (mk_spot 0 1). split; [eexists; split; [reflexivity|cbn; auto]|auto].
  - exists 0, 0, (mk_spot 0 0). split; [eexists; split; [reflexivity|cbn; auto]|auto].
  - exists 2, 1, (mk_spot 0 1). split; [eexists; split; [reflexivity|cbn; auto]|auto].
Qed.
Print Assumptions C54_fallback_refuted.

(** The owner of all steps on a disk is taken from the latest one.  After a restart with other process indexes the
    disks have steps of different owners: then a step that is complete on the disks is not found. *)
Theorem C54_owner_refuted : exists disks tmap reg, sync_registry disks quad 0 = Ok (tmap, reg) /\ complete_on_disks tmap disks 3 /\
  get_latest_complete_step tmap reg = None /\ restore disks (fun _ _ => true) tmap reg None None = (None, repeat (Raises FileNotFoundError) 4).
Proof.
  exists [[mk_stored 3 (Some 1); mk_stored 5 (Some 0)]; [mk_stored 3 (Some 0)]; []; []]. eexists. eexists. split; [vm_compute; reflexivity|]. split; [|split; vm_compute; reflexivity].
  intros p sp F. cbn in F. destruct p as [|[|[|[|p]]]]; cbn in F; try discriminate; injection F as <-; cbn [relative].
  - exists 1, 0, (mk_spot 0 0). split; [eexists; split; [reflexivity|cbn; auto]|auto].
  - exists 0, 1, (mk_spot 0 1). split; [eexists; split; [reflexivity|cbn; auto]|auto].
  - exists 1, 0, (mk_spot 0 0). split; [eexists; split; [reflexivity|cbn; auto]|auto].
  - exists 0, 1, (mk_spot 0 1). split; [eexists; split; [reflexivity|cbn; auto]|auto].
Qed.
Print Assumptions C54_owner_refuted.

(** ** The step that is fetched in the background *)

(** Steps other than the one fetched at the start can be restored again and again; that one can be restored first. *)
Theorem C54_prefetch : forall works latest mine, (forall s, latest = Some s -> (0 <= s)%Z) ->
  (forall l, (forall s, In s l -> (0 <= s)%Z /\ latest <> Some s) -> restores works l (start works latest mine) = map (fun s => if works s then Ok s else Err FileNotFoundError) l) /\
  (forall s, latest = Some s -> ~ In s mine -> restores works [s] (start works latest mine) = [if works s then Ok s else Err FileNotFoundError]).
Proof.
  intros works latest mine NN. split.
  - intros l H. apply restores_others. intros s I. destruct (H s I) as (A & B). unfold start. destruct latest as [x|]; [destruct (existsb _ mine)|]; cbn; try lia. congruence.
  - intros s -> N. unfold start. replace (existsb (Z.eqb s) mine) with false by (symmetry; apply not_true_iff_false; intros X; apply existsb_exists in X as (y & Y & Z); apply Z.eqb_eq in Z as <-; auto).
    cbn [restores restore_from_peers]. unfold restore_from_peers, fetch. cbn [bkg_step]. rewrite Z.eqb_refl. cbn [bkg_success restore_dir]. destruct (works s); auto. cbn [existsb]. rewrite Z.eqb_refl. auto.
Qed.
Print Assumptions C54_prefetch.

Example C54_prefetch_ex : restores (fun _ => true) [3; 3; 4]%Z (start (fun _ => true) (Some 5%Z) [1%Z]) = [Ok 3; Ok 3; Ok 4]%Z.
Proof. reflexivity. Qed.

(** The step fetched at the start is lost with the first restore, which removes the directory it is in, but is still
    taken as fetched: restoring it a second time, or after another step, fails with ValueError though a
    peer would send it. *)
Theorem C54_prefetch_refuted : exists works l, (forall s, works s = true) /\ restores works [l; l] (start works (Some l) []) = [Ok l; Err ValueError] /\
  restores works [3; l]%Z (start works (Some l) []) = [Ok 3%Z; Err ValueError].
Proof. exists (fun _ => true), 5%Z. repeat split. Qed.
Print Assumptions C54_prefetch_refuted.
