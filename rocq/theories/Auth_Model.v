(** Model of the authentication and of the environment of the tiering service.
    Sources: checkpoint/orbax/checkpoint/experimental/tiering_service/auth.py ("AU"), checkpoint/orbax/checkpoint/experimental/tiering_service/environment.py ("EN").
    Simplifications: the answer of the metadata server is given as the text without white space at its ends, or as nothing when the request failed or its status is not 200.
    Not modelled: logging, the user name (EN l.26-31). *)
From Coq Require Import List Bool Arith String Ascii.
From Verif Require Import Base.
Import ListNotations.
Local Open Scope string_scope.
Local Open Scope list_scope.

(** [dict(...).get]: the last pair of a name counts (AU l.43-46) *)
Definition get (name : string) (md : list (string * string)) : option string := option_map snd (find (fun e => String.eqb name (fst e)) (rev md)).

(** [get_oauth_token] (AU l.27, l.30-57) *)
Definition get_oauth_token (md : list (string * string)) : option string :=
  match get "authorization" md with
  | None => None
  | Some h => if String.prefix "Bearer " h then Some (substring 7 (String.length h - 7) h) else None
  end.

(** The type of a backend (AU l.114-120) *)
Inductive backend : Type := Gcs | Lustre | Unknown.

(** [verify_gcs_permissions] (AU l.60-79) *)
Definition verify_gcs_permissions (token : option string) (path : string) (permissions : list string) : bool := match token with Some _ => true | None => false end.

(** [verify_lustre_permissions] (AU l.82-95) *)
Definition verify_lustre_permissions (token : option string) (path : string) : bool := match token with Some _ => true | None => false end.

(** [has_read_permission] (AU l.98-120) *)
Definition has_read_permission (token : option string) (b : backend) (path : string) : bool :=
  match b with Gcs => verify_gcs_permissions token path ["storage.objects.get"] | Lustre => verify_lustre_permissions token path | Unknown => false end.

(** [has_write_permission] (AU l.123-148) *)
Definition has_write_permission (token : option string) (b : backend) (path : string) : bool :=
  match b with Gcs => verify_gcs_permissions token path ["storage.objects.create"] | Lustre => verify_lustre_permissions token path | Unknown => false end.

(** [split] at a character (EN l.51, l.68) *)
Fixpoint split (c : ascii) (s : string) : list string :=
  match s with
  | EmptyString => [EmptyString]
  | String d r => if Ascii.eqb c d then EmptyString :: split c r else match split c r with x :: l => String d x :: l | [] => [String d EmptyString] end
  end.

(** A text that is there and not empty (EN l.41, l.64, l.67) *)
Definition given (o : option string) : option string := match o with Some EmptyString => None | _ => o end.

(** [get_gcp_zone]; [env] is the variable GCP_ZONE (EN l.34-54) *)
Definition get_gcp_zone (env answer : option string) : option string := match given env with Some z => Some z | None => option_map (fun t => last (split "/" t) "") answer end.

(** [get_gcp_region]; [env] is the variable GCP_REGION (EN l.57-71) *)
Definition get_gcp_region (env zone_env answer : option string) : option string :=
  match given env with
  | Some r => Some r
  | None => match given (get_gcp_zone zone_env answer) with
            | Some z => if Nat.leb 2 (List.length (split "-" z)) then Some (String.concat "-" (removelast (split "-" z))) else None
            | None => None
            end
  end.
