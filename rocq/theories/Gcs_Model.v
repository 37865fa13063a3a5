(** Model of the removal of directories in Google Cloud Storage.
    Source: checkpoint/orbax/checkpoint/_src/path/gcs_utils.py ("GU").
    Of the service is assumed: a folder is deleted if there is no folder and no object in it, and is an error otherwise; [path.rmtree] deletes the objects below the path and no folder; a folder is listed if its name starts with the prefix.
    Simplifications: the name of a folder is the list of its parts, which are not empty and without slashes, so that a name starts with a prefix that ends with a slash if its list starts with the parts of the prefix; [urlparse] is modelled for texts that start with gs:// and have neither brackets nor control characters.
    Not modelled: the cache of buckets, logging, requests that fail for other reasons. *)
From Coq Require Import List Bool Arith String Ascii.
From Verif Require Import Base.
Import ListNotations.
Local Open Scope string_scope.
Local Open Scope list_scope.

(** ** Paths *)

(** The text up to the first character that stops (GU l.32) *)
Fixpoint until (stop : ascii -> bool) (s : string) : string := match s with EmptyString => EmptyString | String c r => if stop c then EmptyString else String c (until stop r) end.

(** The text from the first character that stops (GU l.32) *)
Fixpoint from (stop : ascii -> bool) (s : string) : string := match s with EmptyString => EmptyString | String c r => if stop c then s else from stop r end.

(** A slash (GU l.36-40) *)
Definition slash (c : ascii) : bool := Ascii.eqb c "/".

(** What ends the path of a URL: the query and the fragment (GU l.32) *)
Definition mark (c : ascii) : bool := Ascii.eqb c "?" || Ascii.eqb c "#".

(** What follows gs:// (GU l.24, l.27-28) *)
Definition after_scheme (s : string) : option string := if String.prefix "gs://" s then Some (substring 5 (String.length s - 5) s) else None.

(** [is_gcs_path] (GU l.27-28) *)
Definition is_gcs_path (s : string) : bool := match after_scheme s with Some _ => true | None => false end.

(** [endswith] of a slash (GU l.39) *)
Fixpoint ends_with_slash (s : string) : bool := match s with EmptyString => false | String c EmptyString => slash c | String _ r => ends_with_slash r end.

(** [parse_gcs_path]: the bucket and the prefix (GU l.31-41) *)
Definition parse_gcs_path (s : string) : result (string * string) :=
  match after_scheme s with
  | None => Err AssertionError
  | Some r =>
      let path := until mark (from (fun c => slash c || mark c) r) in
      let path1 := match path with String c p => if slash c then p else path | EmptyString => path end in
      Ok (until (fun c => slash c || mark c) r, if ends_with_slash path1 then path1 else (path1 ++ "/")%string)
  end.

(** The text cut at each slash (GU l.81, l.87) *)
Fixpoint cut (s : string) : list string :=
  match s with
  | EmptyString => [EmptyString]
  | String c r => if slash c then EmptyString :: cut r else match cut r with x :: l => String c x :: l | [] => [String c EmptyString] end
  end.

(** The parts of a prefix; slashes at the ends make no part (GU l.81) *)
Definition parts (s : string) : list string := filter (fun x => negb (String.eqb x "")) (cut s).

(** ** Folders and objects *)

(** A bucket: its folders and its objects (GU l.44-50) *)
Record bucket : Type := mkBucket { folders : list (list string); objects : list (list string) }.

(** Membership (GU l.88) *)
Definition mem (x : list string) (l : list (list string)) : bool := if in_dec (list_eq_dec string_dec) x l then true else false.

(** Whether a name starts with the parts of another (GU l.80-82) *)
Fixpoint starts (p f : list string) : bool := match p, f with [], _ => true | x :: p', y :: f' => String.eqb x y && starts p' f' | _ :: _, [] => false end.

(** Whether a name is below a folder (GU l.89-91) *)
Definition below (f g : list string) : bool := starts f g && negb (mem f [g]).

(** [list_folders] with the prefix; a prefix without parts is a slash, with which no name starts (GU l.76-84) *)
Definition listing (p : list string) (b : bucket) : list (list string) := match p with [] => [] | _ => filter (starts p) (folders b) end.

(** [delete_folder]: the error is one of the service (GU l.91) *)
Definition delete (b : bucket) (f : list string) : result bucket :=
  if existsb (below f) (folders b) || existsb (below f) (objects b) then Err RuntimeError
  else Ok (mkBucket (filter (fun g => negb (mem g [f])) (folders b)) (objects b)).

(** The requests one after the other (GU l.90-91) *)
Fixpoint delete_all (l : list (list string)) (b : bucket) : result bucket := match l with [] => Ok b | f :: l' => rbind (delete b f) (delete_all l') end.

(** The parents (GU l.87) *)
Definition parents (fs : list (list string)) : list (list string) := map (@removelast string) fs.

(** The folders that are no parents (GU l.88) *)
Definition leaves (fs : list (list string)) : list (list string) := filter (fun f => negb (mem f (parents fs))) fs.

(** The loop; [order] is the order of the elements of a set. Without fuel: the loop has not ended (GU l.86-92) *)
Fixpoint rounds (order : list (list string) -> list (list string)) (fuel : nat) (fs : list (list string)) (b : bucket) : result bucket :=
  match fs with
  | [] => Ok b
  | _ :: _ =>
      match fuel with
      | 0 => Err TimeoutError
      | S k => rbind (delete_all (order (leaves fs)) b) (rounds order k (filter (fun f => negb (mem f (leaves fs))) fs))
      end
  end.

(** [cleanup_hns_folders] (GU l.66-100) *)
Definition cleanup_hns_folders (order : list (list string) -> list (list string)) (s : string) (b : bucket) : result bucket :=
  rbind (parse_gcs_path s) (fun r => let fs := listing (parts (snd r)) b in rounds order (List.length fs) fs b).

(** The name of an object that a path stands for: what follows the bucket (GU l.115) *)
Definition name_of (s : string) : list string := match after_scheme s with Some r => match parts r with _ :: l => l | [] => [] end | None => [] end.

(** [rmtree]; [hns] is [is_hierarchical_namespace_enabled] of the bucket (GU l.103-119) *)
Definition rmtree (order : list (list string) -> list (list string)) (hns : bool) (s : string) (b : bucket) : result bucket :=
  if is_gcs_path s then
    let b' := mkBucket (folders b) (filter (fun o => negb (starts (name_of s) o)) (objects b)) in
    if hns then cleanup_hns_folders order s b' else Ok b'
  else Err ValueError.
