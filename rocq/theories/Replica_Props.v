(** C26: replicated arrays are written exactly once across all hosts. *)
From Coq Require Import ZArith List Permutation Lia.
From Verif Require Import Base Nd_Model Fragment_Model Fragment_Spec Fragment_Proofs Slice_Model Replica_Model Replica_Spec Replica_Proofs.
Import ListNotations.
Local Open Scope Z_scope.

(** A 4 x 6 array in two halves, replicated three times over six devices. *)
Definition ex_G (c : list Z) : Z := 10 * nth 0 c 0 + nth 1 c 0.
Definition top : list pslice := [mk_ps (Some 0) (Some 2) None; mk_ps None None None].
Definition bot : list pslice := [mk_ps (Some 2) (Some 4) None; mk_ps None None None].
Definition ex_shard (i : list pslice) (r : Z) : shard Z :=
  mk_shard i r (mk_arr [2; 6] (fun ks => ex_G (point (box [4; 6] i) ks))).
Definition ex_all : list (shard Z) :=
  [ex_shard top 0; ex_shard bot 0; ex_shard top 1; ex_shard bot 1; ex_shard top 2; ex_shard bot 2].
(** Two processes; on the first the top half with replica ids 0 and 2, the bottom half with 1. *)
Definition ex_procs : list (list (shard Z)) :=
  [[ex_shard top 0; ex_shard bot 1; ex_shard top 2]; [ex_shard bot 0; ex_shard top 1; ex_shard bot 2]].
Definition ex_cfg (parallel : bool) : cfg :=
  mk_cfg (Some 0) parallel (Some 8) None [4; 6] 4 false (map sh_index ex_all).

Lemma ex_sharded : sharded [4; 6] ex_G 3 [2; 6] ex_all.
Proof.
  constructor.
  - lia.
  - intros s H. repeat destruct H as [<-|H]; [..|destruct H]; repeat constructor; simpl; lia.
  - intros s H. repeat destruct H as [<-|H]; [..|destruct H]; split; reflexivity.
  - intros s ks H _. repeat destruct H as [<-|H]; [..|destruct H]; reflexivity.
  - intros c H. inversion H as [|n x sh c0 A H1]; subst. inversion H1 as [|n1 y sh1 c1 B H2]; subst. inversion H2; subst. destruct (Z.ltb_spec x 2).
    + exists (ex_shard top 0). split; [simpl; auto|]. do 2 (apply covers_cons; split; [apply selects_unit; [reflexivity|simpl; lia]|]). constructor.
    + exists (ex_shard bot 0). split; [simpl; auto|]. do 2 (apply covers_cons; split; [apply selects_unit; [reflexivity|simpl; lia]|]). constructor.
  - intros s t c Hs Ht A B.
    repeat destruct Hs as [<-|Hs]; [..|destruct Hs]; repeat destruct Ht as [<-|Ht]; try (destruct Ht; fail); try reflexivity; exfalso;
      (destruct c as [|x c]; [inversion A|]); apply covers_cons in A as [A _]; apply covers_cons in B as [B _];
      apply selects_unit in A; auto; apply selects_unit in B; auto; simpl in *; lia.
  - intros s H. repeat destruct H as [<-|H]; [..|destruct H]; vm_compute; apply Permutation_refl.
Qed.

Lemma ex_procs_perm : Permutation (List.concat ex_procs) ex_all.
Proof.
  unfold ex_procs, ex_all; simpl. apply perm_skip.
  apply Permutation_sym. change [ex_shard bot 1; ex_shard top 2; ex_shard bot 0; ex_shard top 1; ex_shard bot 2] with ([ex_shard bot 1; ex_shard top 2] ++ ex_shard bot 0 :: [ex_shard top 1; ex_shard bot 2]).
  apply Permutation_cons_app. simpl.
  change [ex_shard bot 1; ex_shard top 2; ex_shard top 1; ex_shard bot 2] with ([ex_shard bot 1; ex_shard top 2] ++ ex_shard top 1 :: [ex_shard bot 2]).
  apply Permutation_cons_app. simpl. apply Permutation_refl.
Qed.

(** Whatever the limits, the fragments the processes write (each deciding from
    its own shards) contain each element exactly once, at its own position and
    with its own value; all fragments have the same shape (it becomes the write
    chunk) and lie inside the array. *)
Theorem C26_exact_cover : forall V shape (G : list Z -> V) R d all c procs r, sharded shape G R d all ->
  c_replica_id c = Some r -> 0 <= r < R -> c_global c = shape -> Permutation (c_indices c) (map sh_index all) ->
  Permutation (List.concat procs) all -> Forall (fun p => p <> []) procs ->
  exists fs, save_all c procs = Ok fs /\
    (forall p, inside shape p -> just_one (fun f => covers (f_index f) p) fs) /\
    (forall f, In f fs -> well_formed f /\ unit_steps (f_index f) /\ concrete f /\ fits shape f /\ forall p v, holds f p v -> v = G p) /\
    (exists local, forall f, In f fs -> map extent (f_index f) = local).
Proof. exact save_all_once. Qed.
Print Assumptions C26_exact_cover.

Definition show (r : result (list (frag Z))) : list (list (Z * Z)) :=
  match r with Ok fs => map (fun f => map (fun s => (sl_start s, sl_stop s)) (f_index f)) fs | Err _ => [] end.

Example C26_exact_cover_ex :
  sharded [4; 6] ex_G 3 [2; 6] ex_all /\ Permutation (List.concat ex_procs) ex_all /\
  show (save_all (ex_cfg true) ex_procs) =
    [[(0, 2); (0, 2)]; [(2, 4); (2, 4)]; [(0, 2); (4, 6)]; [(2, 4); (0, 2)]; [(0, 2); (2, 4)]; [(2, 4); (4, 6)]] /\
  show (save_all (ex_cfg false) ex_procs) = [[(0, 2); (0, 6)]; [(2, 4); (0, 6)]].
Proof. split; [exact ex_sharded|]. split; [exact ex_procs_perm|]. split; vm_compute; reflexivity. Qed.

(** nbytes, on which the byte limiter relies, is the number of bytes of the
    fragments that are then written. *)
Theorem C26_nbytes : forall V shape (G : list Z -> V) R d all c proc r rs fs, sharded shape G R d all ->
  c_replica_id c = Some r -> c_global c = shape -> Permutation (c_indices c) (map sh_index all) ->
  proc <> [] -> incl proc all ->
  get_replica_slices c proc = Ok rs -> process_fragments c proc = Ok fs ->
  nbytes rs (c_itemsize c) = fold_right Z.add 0 (map (fun f => volume f * c_itemsize c) (fs_list fs)).
Proof. exact nbytes_ok. Qed.
Print Assumptions C26_nbytes.

Example C26_nbytes_ex : match get_replica_slices (ex_cfg true) (nth 0 ex_procs []) with
  | Ok rs => nbytes rs 4 | Err _ => 0 end = 3 * (2 * 2 * 4).
Proof. vm_compute. reflexivity. Qed.

(** The limits: a fragment that is less than a whole shard has at least the
    minimum number of bytes, and no shard is cut in more pieces than allowed. *)
Theorem C26_limits : forall V shape (G : list Z -> V) R d all c proc r fs f, sharded shape G R d all ->
  c_replica_id c = Some r -> c_global c = shape -> Permutation (c_indices c) (map sh_index all) ->
  proc <> [] -> incl proc all -> process_fragments c proc = Ok fs -> In f (fs_list fs) ->
  (map extent (f_index f) = d \/
   (c_parallel c = true /\ forall b, c_min_bytes c = Some b -> b <= volume f * c_itemsize c)) /\
  (forall m, c_max_replicas c = Some m -> 1 <= m -> elements d <= m * volume f).
Proof. exact limits_ok. Qed.
Print Assumptions C26_limits.

(** Pieces of 16 bytes are too small if 17 are wanted; with at most two replicas
    the shards are cut in two along the first axis. *)
Example C26_limits_ex :
  show (save_all (mk_cfg (Some 1) true (Some 17) None [4; 6] 4 false (map sh_index ex_all)) ex_procs) =
    [[(2, 4); (0, 6)]; [(0, 2); (0, 6)]] /\
  show (save_all (mk_cfg (Some 1) true (Some 17) (Some 2) [4; 6] 4 false (map sh_index ex_all)) ex_procs) =
    [[(0, 1); (0, 6)]; [(3, 4); (0, 6)]; [(2, 3); (0, 6)]; [(1, 2); (0, 6)]].
Proof. split; vm_compute; reflexivity. Qed.

(** Local checkpointing (replica_id None): a process writes each element of its
    shards exactly once if each of its boxes is present with the replica id of
    its first shard. *)
Theorem C26_local : forall V shape (G : list Z -> V) R d all c procs proc s0 rest, sharded shape G R d all ->
  c_replica_id c = None -> c_parallel c = false -> c_global c = shape ->
  Permutation (List.concat procs) all -> In proc procs -> proc = s0 :: rest ->
  (forall s, In s proc -> exists t, In t proc /\ box shape (sh_index t) = box shape (sh_index s) /\ sh_replica t = sh_replica s0) ->
  exists fs, process_fragments c proc = Ok fs /\
    (forall p s, In s proc -> inside shape p -> covers (box shape (sh_index s)) p -> just_one (fun f => covers (f_index f) p) (fs_list fs)) /\
    (forall f, In f (fs_list fs) -> well_formed f /\ unit_steps (f_index f) /\ concrete f /\ fits shape f /\ forall p v, holds f p v -> v = G p).
Proof. exact local_ok. Qed.
Print Assumptions C26_local.

Definition ex_local : cfg := mk_cfg None false None None [4; 6] 4 false (map sh_index ex_all).
Example C26_local_ex :
  let proc := [ex_shard top 1; ex_shard bot 1] in
  (forall s, In s proc -> exists t, In t proc /\ box [4; 6] (sh_index t) = box [4; 6] (sh_index s) /\ sh_replica t = 1) /\
  show (save_all ex_local [proc]) = [[(0, 2); (0, 6)]; [(2, 4); (0, 6)]].
Proof. split; [|vm_compute; reflexivity]. intros s H. exists s. destruct H as [<-|[<-|[]]]; simpl; auto. Qed.

(** Replica-parallel saving and local checkpointing exclude each other. *)
Theorem C26_parallel_local : forall V (c : cfg) (proc : list (shard V)), c_replica_id c = None -> c_parallel c = true -> c_pinned c = false ->
  proc <> [] -> process_fragments c proc = Err ValueError.
Proof. exact parallel_local. Qed.
Print Assumptions C26_parallel_local.

Example C26_parallel_local_ex :
  process_fragments (mk_cfg None true None None [4; 6] 4 false (map sh_index ex_all)) ex_all = Err ValueError.
Proof. reflexivity. Qed.

(** With local checkpointing a process may lose data: it takes the replica id of
    its first shard as the one to write, but the shards it holds of other boxes
    need not have that id.  In the example the process holds the top half as
    replica 0 and the bottom half as replica 1 (a mesh whose device order is not
    the order of the processes); the bottom half is not written, without an
    error. *)
Theorem C26_local_refuted : exists shape (G : list Z -> Z) R d all c procs proc s p fs, sharded shape G R d all /\
  c_replica_id c = None /\ c_parallel c = false /\ c_global c = shape /\
  Permutation (List.concat procs) all /\ In proc procs /\ In s proc /\ covers (box shape (sh_index s)) p /\
  process_fragments c proc = Ok fs /\ forall f, In f (fs_list fs) -> ~ covers (f_index f) p.
Proof.
  exists [4; 6], ex_G, 3, [2; 6], ex_all, ex_local, ex_procs, (nth 0 ex_procs []), (ex_shard bot 1), [2; 0].
  eexists. split; [exact ex_sharded|]. split; [reflexivity|]. split; [reflexivity|]. split; [reflexivity|].
  split; [exact ex_procs_perm|]. split; [simpl; auto|]. split; [simpl; auto|].
  split. { do 2 (apply covers_cons; split; [apply selects_unit; [reflexivity|simpl; lia]|]). constructor. }
  split; [vm_compute; reflexivity|]. cbn [fs_list]. intros f [<-|[]] H. cbn [f_index] in H.
  apply covers_cons in H as [H _]. apply selects_unit in H; simpl in *; auto. lia.
Qed.
Print Assumptions C26_local_refuted.

(** A replica id that no shard has is not noticed: every process writes nothing
    and reports success. *)
Theorem C26_replica_id_refuted : exists shape (G : list Z -> Z) R d all c procs, sharded shape G R d all /\
  c_global c = shape /\ Permutation (c_indices c) (map sh_index all) /\
  Permutation (List.concat procs) all /\ Forall (fun p => p <> []) procs /\
  elements shape > 0 /\ save_all c procs = Ok [].
Proof.
  exists [4; 6], ex_G, 3, [2; 6], ex_all, (mk_cfg (Some 3) false None None [4; 6] 4 false (map sh_index ex_all)), ex_procs.
  split; [exact ex_sharded|]. split; [reflexivity|]. split; [apply Permutation_refl|]. split; [exact ex_procs_perm|].
  split; [repeat constructor; discriminate|]. split; [vm_compute; reflexivity|vm_compute; reflexivity].
Qed.
Print Assumptions C26_replica_id_refuted.
