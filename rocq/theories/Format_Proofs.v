(** Proofs about the recognition of checkpoints. *)
From Coq Require Import List Bool String.
From Verif Require Import Base Format_Model Format_Spec.
Import ListNotations.
Local Open Scope string_scope.
Local Open Scope list_scope.

Lemma exists_iff : forall n name, exists_in n name = true <-> has n name.
Proof.
  intros [|l] name; unfold has; cbn; [split; [discriminate | intros (l & x & E & _); discriminate]|]. rewrite existsb_exists. split.
  - intros ([k x] & I & E). cbn in E. apply String.eqb_eq in E as ->. now exists l, x.
  - intros (l' & x & E & I). injection E as <-. exists (name, x). split; [exact I | apply String.eqb_refl].
Qed.

Lemma zarray_any : forall l, existsb (fun b => b) (map (fun e => exists_in (snd e) ".zarray") (filter (fun e : string * node => is_dir (snd e)) l)) = true <-> exists name d, In (name, d) l /\ has d ".zarray".
Proof.
  intros l. rewrite existsb_exists. split.
  - intros (b & I & ->). apply in_map_iff in I as ([k d] & E & I). apply filter_In in I as [I _]. exists k, d. split; [exact I | now apply exists_iff].
  - intros (k & d & I & H). exists true. split; [|reflexivity]. apply in_map_iff. exists (k, d). split; [now apply exists_iff|]. apply filter_In. split; [exact I|]. destruct H as (l' & x & -> & _). reflexivity.
Qed.

Lemma none_any : forall l : list bool, existsb (fun b => b) l = false -> forallb negb l = true.
Proof. induction l as [|b l IH]; cbn; [reflexivity|]. destruct b; [discriminate | exact IH]. Qed.

Lemma pytree_ok : forall n, exists b, is_pytree_checkpoint n = Ok b /\ (b = true <-> looks n).
Proof.
  intros [|l]; unfold is_pytree_checkpoint.
  - exists false. split; [reflexivity|]. split; [discriminate|]. intros [(l & x & E & _)|[(l & x & E & _) _]]; discriminate.
  - unfold has_pytree_metadata_file, has_tensorstore_data_files, has_msgpack_metadata_file, is_ocdbt_checkpoint, has_zarray_files, looks.
    pose proof (exists_iff (Dir l) "checkpoint") as C. pose proof (exists_iff (Dir l) "_METADATA") as M. pose proof (exists_iff (Dir l) "manifest.ocdbt") as O. pose proof (zarray_any l) as Z.
    assert (Q : (exists l' name d, Dir l = Dir l' /\ In (name, d) l' /\ has d ".zarray") <-> exists name d, In (name, d) l /\ has d ".zarray") by (split; [intros (l' & k & d & E & I & H); injection E as <-; now exists k, d | intros (k & d & I & H); now exists l, k, d]).
    set (z := map (fun e => exists_in (snd e) ".zarray") (filter (fun e : string * node => is_dir (snd e)) l)) in *.
    exists (exists_in (Dir l) "checkpoint" || exists_in (Dir l) "_METADATA" && (exists_in (Dir l) "manifest.ocdbt" || existsb (fun b => b) z)). split.
    + clear. destruct (exists_in (Dir l) "_METADATA"), (exists_in (Dir l) "checkpoint"), (exists_in (Dir l) "manifest.ocdbt"), (existsb (fun b => b) z) eqn:E; cbn [orb andb rbind rmap]; rewrite ?E; cbn [rbind rmap]; rewrite ?(none_any z E); reflexivity.
    + rewrite orb_true_iff, andb_true_iff, orb_true_iff. rewrite C, M, O, Z, Q. tauto.
Qed.

Lemma sequence_pytree : forall l : list (string * node), exists bs, sequence (map (fun e => is_pytree_checkpoint (snd e)) l) = Ok bs /\ (existsb (fun b => b) bs = true <-> exists name d, In (name, d) l /\ looks d).
Proof.
  induction l as [|[k d] l (bs & E & H)]; [exists []; split; [reflexivity | split; [discriminate | intros (k & d & [] & _)]]|].
  cbn [map sequence snd]. destruct (pytree_ok d) as (b & Eb & Hb). rewrite Eb, E. cbn [rbind]. exists (b :: bs). split; [reflexivity|]. cbn [existsb]. rewrite orb_true_iff, H, Hb. split.
  - intros [L|(k' & d' & I & L)]; [exists k, d; split; [now left | exact L] | exists k', d'; split; [now right | exact L]].
  - intros (k' & d' & [I|I] & L); [injection I as <- <-; now left | right; now exists k', d'].
Qed.
