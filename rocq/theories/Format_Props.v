(** C89: the recognition of checkpoints. *)
From Coq Require Import List Bool String.
From Verif Require Import Base Format_Model Format_Spec Format_Proofs.
Import ListNotations.
Local Open Scope string_scope.
Local Open Scope list_scope.

(** A directory is a checkpoint of a tree exactly if it has an old checkpoint of one file, or the metadata of a tree and arrays; a file never is, and nothing is ever an error *)
Theorem C89_pytree : forall n, (is_pytree_checkpoint n = Ok true <-> looks n) /\ (is_pytree_checkpoint n = Ok false <-> ~ looks n) /\ forall e, is_pytree_checkpoint n <> Err e.
Proof. intros n. destruct (pytree_ok n) as (b & -> & H). destruct b; intuition congruence. Qed.
Print Assumptions C89_pytree.

(** A path that is not there, or is a file, is refused. A directory is a checkpoint exactly if its step metadata can be read, or it or one of its entries is a checkpoint of a tree; entries that are files do no harm *)
Theorem C89_orbax : forall read, is_orbax_checkpoint read None = Err FileNotFoundError /\ is_orbax_checkpoint read (Some File) = Err OtherError /\
  forall l, (exists b, is_orbax_checkpoint read (Some (Dir l)) = Ok b) /\ (is_orbax_checkpoint read (Some (Dir l)) = Ok true <-> read (Dir l) = true \/ looks (Dir l) \/ exists name d, In (name, d) l /\ looks d).
Proof.
  intros read. split; [reflexivity|]. split; [reflexivity|]. intros l. unfold is_orbax_checkpoint. destruct (read (Dir l)); [split; [now exists true | tauto]|].
  destruct (pytree_ok (Dir l)) as (b & -> & H). cbn [rbind]. destruct b; [split; [now exists true | tauto]|]. destruct (sequence_pytree l) as (bs & -> & Hs). cbn [rmap]. split; [now eexists|]. rewrite <- Hs, <- H. destruct (existsb (fun b => b) bs); intuition congruence.
Qed.
Print Assumptions C89_orbax.

(** A database of arrays alone is told by its manifest *)
Theorem C89_ocdbt : forall n, is_ocdbt_checkpoint n = true <-> has n "manifest.ocdbt".
Proof. intros n. apply exists_iff. Qed.
Print Assumptions C89_ocdbt.

Example C89_example : let tree := Dir [("_METADATA", File); ("a.b", Dir [(".zarray", File); ("0.0", File)])] in
  is_pytree_checkpoint tree = Ok true /\ is_orbax_checkpoint (fun _ => false) (Some (Dir [("notes", File); ("default", tree)])) = Ok true /\ is_orbax_checkpoint (fun _ => false) (Some (Dir [("0", Dir [("default", tree)])])) = Ok false /\
  is_pytree_checkpoint (Dir [("_METADATA", File)]) = Ok false /\ is_pytree_checkpoint (Dir [("checkpoint", File)]) = Ok true /\ is_pytree_checkpoint (Dir [("_METADATA", File); ("manifest.ocdbt", File)]) = Ok true /\ is_ocdbt_checkpoint (Dir [("manifest.ocdbt", File)]) = true.
Proof. vm_compute. repeat split. Qed.

(** FALSE: "unlikely to return a false positive." The directory of a TensorFlow checkpoint, which has a file with the name checkpoint too, is taken for one of Orbax, and so is the directory above it *)
Theorem C89_tensorflow_refuted : exists n, n = Dir [("checkpoint", File); ("ckpt-1.data-00000-of-00001", File); ("ckpt-1.index", File)] /\ forall read, is_orbax_checkpoint read (Some n) = Ok true /\ is_orbax_checkpoint read (Some (Dir [("model", n)])) = Ok true.
Proof. eexists. split; [reflexivity|]. intros read. split; unfold is_orbax_checkpoint; destruct (read _); reflexivity. Qed.
Print Assumptions C89_tensorflow_refuted.

(** It is not looked at whether the entry is a file: each directory with an empty subdirectory of the name checkpoint is taken for a checkpoint *)
Theorem C89_directory_refuted : exists n, n = Dir [("checkpoint", Dir [])] /\ forall read, is_orbax_checkpoint read (Some n) = Ok true.
Proof. eexists. split; [reflexivity|]. intros read. unfold is_orbax_checkpoint. destruct (read _); reflexivity. Qed.
Print Assumptions C89_directory_refuted.

(** FALSE: "It will return False when pointing to a root directory (containing multiple step directories)." It is true if the steps have their tree without a name for the item *)
Theorem C89_root_refuted : exists tree, tree = Dir [("_METADATA", File); ("manifest.ocdbt", File)] /\ forall read, is_orbax_checkpoint read (Some (Dir [("1", tree); ("2", tree)])) = Ok true.
Proof. eexists. split; [reflexivity|]. intros read. unfold is_orbax_checkpoint. destruct (read _); reflexivity. Qed.
Print Assumptions C89_root_refuted.
