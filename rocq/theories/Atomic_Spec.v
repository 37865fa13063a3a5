(** Independent vocabulary for C09-C11. *)
From Coq Require Import List Bool String.
From Verif Require Import Base Atomic_Model.
Import ListNotations.
Local Open Scope string_scope.
Local Open Scope list_scope.

(** [sub] occurs somewhere in [s]. *)
Definition contains (sub s : string) : Prop := exists a b, s = (a ++ sub ++ b)%string.

(** Directory contents as a mathematical map. *)
Definition fmap : Type := string -> option string.

Definition upd (m : fmap) (f : string) (v : option string) : fmap :=
  fun g => if String.eqb g f then v else m g.

Definition effect (m : fmap) (h : hop) : fmap :=
  match h with
  | HTouch f => match m f with None => upd m f (Some "") | Some _ => m end
  | HWrite f c => upd m f (Some c)
  | HUnlink f => upd m f None
  end.

(** The complete contents of a save: everything the handler wrote in save and
    finalize, and the final step metadata. *)
Definition contents (q : save_req) : fmap :=
  fold_left effect
    (HWrite metadata_file (meta0 q) :: body q ++ HWrite metadata_file (meta1 q) :: fin q
       ++ [HWrite metadata_file (meta2 q)])
    (fun _ => None).

(** The directory holds exactly [m], apart from the commit marker. *)
Definition holds (fs : files) (m : fmap) : Prop :=
  forall f, f <> commit_file -> fget f fs = m f.

(** The handler writes no file that looks like the commit marker. *)
Definition hop_file (h : hop) : string :=
  match h with HTouch f | HWrite f _ | HUnlink f => f end.
Definition avoids_marker (q : save_req) : Prop :=
  forall h, In h (body q ++ fin q) -> hop_file h <> commit_file.

(** [x] is a directory holding the complete contents of a save to [n] that is
    part of the history. *)
Definition complete_save_of (h : list event) (n : string) (x : node) : Prop :=
  exists q k fs, In (ESave q k) h /\ name q = n /\ x = Dir fs /\ holds fs (contents q).

(** Names are distinct, as in any real directory. *)
Definition wf_files (fs : files) : Prop := NoDup (map fst fs).
Definition wf_root (r : root) : Prop :=
  NoDup (map fst r) /\
  forall n x, In (n, x) r -> match x with Dir fs => wf_files fs | _ => True end.

(** A directory scan lists every file once, in any order. *)
Definition scan_ok (s : files -> list string) : Prop :=
  forall fs, wf_files fs -> NoDup (s fs) /\ forall f, In f (s fs) <-> fget f fs <> None.

(** Compared with [r], root [r'] differs only in entries that disappeared, that
    are recognised as temporary, or that hold the complete contents of [q]. *)
Definition frame (p : proto) (r : root) (q : save_req) (r' : root) : Prop :=
  forall n, nget n r' <> nget n r ->
    nget n r' = None \/ is_path_temporary p false n r' = true \/
    (n = name q /\ exists fs, nget n r' = Some (Dir fs) /\ holds fs (contents q)).
