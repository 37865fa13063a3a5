(** C88: the removal of directories in Google Cloud Storage. *)
From Coq Require Import List Bool Arith String Ascii Permutation Lia.
From Verif Require Import Base Gcs_Model Gcs_Spec Gcs_Proofs.
Import ListNotations.
Local Open Scope string_scope.
Local Open Scope list_scope.

(** The path of a directory whose parts have no question mark and no number sign is parsed into its bucket and its parts; there is always a slash at the end. Other paths are refused *)
Theorem C88_parse : forall b cs, plain b -> Forall plain cs -> is_gcs_path (path_of b cs) = true /\ name_of (path_of b cs) = cs /\
  exists prefix, parse_gcs_path (path_of b cs) = Ok (b, prefix) /\ prefix = (String.concat "/" cs ++ "/")%string /\ parts prefix = cs.
Proof.
  intros b cs P F. split; [unfold is_gcs_path, path_of; now rewrite after_ok|]. split; [now apply name_ok|]. exists (String.concat "/" cs ++ "/")%string. split; [now apply parse_ok|]. split; [reflexivity | now apply parts_end].
Qed.
Print Assumptions C88_parse.

(** A path that is not in Google Cloud Storage is an error in both, and nothing is removed *)
Theorem C88_refused : forall order hns s b, (forall r, s <> ("gs://" ++ r)%string) -> rmtree order hns s b = Err ValueError /\ parse_gcs_path s = Err AssertionError.
Proof.
  intros order hns s b N. assert (E : after_scheme s = None).
  { unfold after_scheme. destruct (String.prefix "gs://" s) eqn:E; [|reflexivity]. exfalso. apply prefix_correct in E. cbn in E.
    do 5 (destruct s as [|? s]; [discriminate E|]). injection E as -> -> -> -> -> _. now apply (N s). }
  unfold rmtree, is_gcs_path, parse_gcs_path. now rewrite E.
Qed.
Print Assumptions C88_refused.

Example C88_parse_example : parse_gcs_path "gs://b/runs/ckpt" = Ok ("b", "runs/ckpt/") /\ path_of "b" ["runs"; "ckpt"] = "gs://b/runs/ckpt" /\ parse_gcs_path "gs://b/runs/" = Ok ("b", "runs/") /\ parse_gcs_path "gs://b" = Ok ("b", "/") /\ parse_gcs_path "/tmp/x" = Err AssertionError /\ rmtree (fun l => l) true "/tmp/x" (mkBucket [] []) = Err ValueError.
Proof. vm_compute. repeat split. Qed.

(** The loop over the folders ends whatever was listed, in whatever order they are deleted and whether or not a deletion fails *)
Theorem C88_ends : forall order fs b, (forall f, In f fs -> f <> []) -> rounds order (List.length fs) fs b <> Err TimeoutError.
Proof. intros order fs b H. now apply rounds_time. Qed.
Print Assumptions C88_ends.

(** With folders, a directory is removed with all that is in it: no folder is deleted before those in it, so that no request fails, and all other folders and objects stay *)
Theorem C88_rmtree : forall order s bucket b cs, any_order order -> s = path_of bucket cs -> plain bucket -> Forall plain cs -> cs <> [] -> whole b ->
  exists b', rmtree order true s b = Ok b' /\ (forall f, In f (folders b') <-> In f (folders b) /\ ~ inside cs f) /\ (forall o, In o (objects b') <-> In o (objects b) /\ ~ inside cs o).
Proof.
  intros order s bk b cs Or -> P F N W. unfold rmtree. destruct (C88_parse bk cs P F) as (G & Nm & pre & Pa & _ & Pp). rewrite G, Nm. unfold cleanup_hns_folders. rewrite Pa. cbn [rbind snd]. rewrite Pp.
  set (b1 := mkBucket (folders b) (filter (fun o => negb (starts cs o)) (objects b))).
  assert (Li : forall f, In f (listing cs b1) <-> In f (folders b) /\ inside cs f).
  { intros f. unfold listing. destruct cs as [|c cs]; [congruence|]. unfold b1. cbn [folders]. rewrite filter_In. now rewrite starts_iff. }
  assert (No : forall p f, negb (starts p f) = true <-> ~ inside p f) by (intros p f; rewrite negb_true_iff, <- starts_iff; destruct (starts p f); split; congruence).
  rewrite (rounds_ok order cs Or N).
  - eexists. split; [reflexivity|]. unfold b1. cbn [folders objects]. split; intro f; rewrite filter_In; now rewrite No.
  - apply le_n.
  - intros f I. now apply Li in I.
  - intros f I Nf. apply Li in I as [I [r ->]]. destruct r as [|y r] using rev_ind; [now rewrite app_nil_r in Nf|]. clear IHr. rewrite app_assoc, removelast_last. apply Li. split; [|now exists r]. destruct (W _ I) as [_ W']. destruct cs as [|c cs]; [congruence|]. apply (W' c y (cs ++ r)). now rewrite app_assoc.
  - intros f I. now apply Li in I.
  - intros f I J. now apply Li.
  - intros o I. unfold b1 in I. cbn [objects] in I. apply filter_In in I. now rewrite No in I.
Qed.
Print Assumptions C88_rmtree.

(** Without folders only the objects are removed *)
Theorem C88_flat : forall order s bucket b cs, s = path_of bucket cs -> plain bucket -> Forall plain cs ->
  exists b', rmtree order false s b = Ok b' /\ folders b' = folders b /\ (forall o, In o (objects b') <-> In o (objects b) /\ ~ inside cs o).
Proof.
  intros order s bk b cs -> P F. unfold rmtree. destruct (C88_parse bk cs P F) as (G & Nm & _). rewrite G, Nm. eexists. split; [reflexivity|]. cbn. split; [reflexivity|]. intro o. rewrite filter_In, negb_true_iff, <- starts_iff. destruct (starts cs o); split; intros [? ?]; split; congruence.
Qed.
Print Assumptions C88_flat.

Example C88_rmtree_example : let b := mkBucket [["a"]; ["a"; "x"]; ["a"; "x"; "y"]; ["a"; "z"]; ["ab"]] [["a"; "x"; "y"; "o"]; ["a"; "k"]; ["ab"; "o"]] in
  rmtree (@rev _) true (path_of "b" ["a"; "x"]) b = Ok (mkBucket [["a"]; ["a"; "z"]; ["ab"]] [["a"; "k"]; ["ab"; "o"]]) /\ rmtree (@rev _) true "gs://b/a" b = Ok (mkBucket [["ab"]] [["ab"; "o"]]) /\
  rmtree (@rev _) false "gs://b/a" b = Ok (mkBucket (folders b) [["ab"; "o"]]) /\ whole b /\ plain "a" /\ any_order (@rev _).
Proof.
  cbv zeta. split; [vm_compute; reflexivity|]. split; [vm_compute; reflexivity|]. split; [vm_compute; reflexivity|]. split; [|split; [split; [discriminate | intros c [<-|[]]; repeat split; discriminate] | intro l; apply Permutation_sym, Permutation_rev]].
  intros f I. cbn in I. repeat destruct I as [<-|I]; try contradiction; (split; [discriminate|]); intros x y r E; cbn in E; injection E as <- E; repeat (destruct r as [|? r]; cbn in E; [try discriminate E; cbn; tauto | injection E as <- E]); try discriminate E; destruct r; discriminate E.
Qed.

(** A number sign or a question mark in a path ends it for the parser: the folders of another directory are deleted, and those of the directory that is meant stay *)
Theorem C88_mark_refuted : exists s b b', rmtree (fun l => l) true s b = Ok b' /\ name_of s = ["run#1"] /\ whole b /\ In ["run"; "new"] (folders b) /\ ~ In ["run"; "new"] (folders b') /\ ~ inside (name_of s) ["run"; "new"] /\ In ["run#1"] (folders b').
Proof.
  exists "gs://b/run#1", (mkBucket [["run"]; ["run"; "new"]; ["run#1"]] [["run#1"; "o"]]), (mkBucket [["run#1"]] []). split; [vm_compute; reflexivity|]. split; [reflexivity|]. split.
  - intros f I. cbn in I. repeat destruct I as [<-|I]; try contradiction; (split; [discriminate|]); intros x y r E; cbn in E; injection E as <- E; repeat (destruct r as [|? r]; cbn in E; [try discriminate E; cbn; tauto | injection E as <- E]); try discriminate E; destruct r; discriminate E.
  - split; [cbn; tauto|]. split; [cbn; intros [X|[]]; discriminate|]. split; [intros [r X]; discriminate | cbn; tauto].
Qed.
Print Assumptions C88_mark_refuted.

(** The folders of a bucket that is removed as a whole stay: the prefix is a slash, with which no name starts *)
Theorem C88_root_refuted : forall order, exists s b b', rmtree order true s b = Ok b' /\ name_of s = [] /\ objects b' = [] /\ folders b' = folders b /\ folders b = [["a"]; ["a"; "x"]].
Proof. intro order. exists "gs://b", (mkBucket [["a"]; ["a"; "x"]] [["a"; "o"]]), (mkBucket [["a"]; ["a"; "x"]] []). repeat split. Qed.
Print Assumptions C88_root_refuted.
