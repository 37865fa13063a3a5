(** C56: requests and copies find their backend, assets their own place in it, and the table of
    backends is the configured one. *)
From Coq Require Import List Bool Arith ZArith Ascii String Permutation.
From Verif Require Import Base Backend_Model Backend_Spec Backend_Proofs.
Import ListNotations.

Definition s (t : string) : str := list_ascii_of_string t.

(** The backend of a location: the first one in the zone; otherwise the first one of the region, or of
    a region the zone begins with if no region is given. *)
Theorem C56_closest : forall bs z r,
  ranked (match z, r with
          | Some z', None => [in_zone z'; zone_begins z']
          | Some z', Some r' => [in_zone z'; names_region r']
          | None, Some r' => [names_region r']
          | None, None => []
          end) bs (locate_closest_backend bs z r).
Proof. exact closest. Qed.
Print Assumptions C56_closest.

Definition lustre_a : backend := mkBackend 0 (Some (s "us-central1-a")) None None Lustre (s "/mnt/a").
Definition lustre_b : backend := mkBackend 0 None (Some (s "us-central1")) None Lustre (s "/mnt/b").
Definition lustre_c : backend := mkBackend 0 None None (Some [s "eu-west1"; s "us-central1"]) Lustre (s "/mnt/c").

Example C56_closest_ex :
  locate_closest_backend [lustre_c; lustre_b; lustre_a] (Some (s "us-central1-a")) None = Some lustre_a /\
  locate_closest_backend [lustre_c; lustre_b; lustre_a] (Some (s "us-central1-b")) None = Some lustre_c /\
  locate_closest_backend [lustre_b; lustre_c; lustre_a] None (Some (s "us-central1")) = Some lustre_b /\
  locate_closest_backend [lustre_a] (Some (s "us-central1-b")) (Some (s "us-central1")) = None.
Proof. repeat split; vm_compute; reflexivity. Qed.

(** A request that reaches the server is given the first backend of its zone, otherwise the first one
    of its region; without a location none. *)
Theorem C56_request : forall bs z r,
  ranked (if list_eq_dec ascii_dec (z ++ r) [] then [] else [in_zone z; names_region r]) bs (request_backend bs z r).
Proof.
  intros bs z r. unfold request_backend. destruct (list_eq_dec ascii_dec (z ++ r) []) as [E|N].
  - apply app_eq_nil in E as (-> & ->). reflexivity.
  - replace (has_location z r) with true; [exact (closest bs (Some z) (Some r))|]. destruct z, r; auto. destruct N. auto.
Qed.
Print Assumptions C56_request.

Example C56_request_ex : request_backend [lustre_b; lustre_a] (s "us-central1-a") [] = Some lustre_a /\ request_backend [lustre_b] [] (s "us-central1") = Some lustre_b.
Proof. split; vm_compute; reflexivity. Qed.

(** FALSE: "a request that gives only its zone finds a backend of the zone's region" (docstring
    storage_backend.py l.58-61).  The server passes the fields of the request as they are (server.py
    l.124-126, l.306-308); a region that was not set reads as the empty string, not as [None], so that
    the search by the zone's region (storage_backend.py l.78-85) is never reached. *)
Theorem C56_zone_only_refuted : exists bs z b,
  locate_closest_backend bs (Some z) None = Some b /\ region_part z (s "us-central1") /\ names_region (s "us-central1") b /\ request_backend bs z [] = None.
Proof.
  exists [lustre_b], (s "us-central1-a"), lustre_b. split; [vm_compute; reflexivity|]. split; [apply region_part_iff; vm_compute; reflexivity|]. split; [left; reflexivity|]. vm_compute. reflexivity.
Qed.
Print Assumptions C56_zone_only_refuted.

(** FALSE: "the backend found for a zone lies in the zone's region."  A zone is compared with a region
    as a prefix: europe-west10-a begins with europe-west1, and the backend of that region is taken
    although one in europe-west10 exists (storage_backend.py l.80-85). *)
Theorem C56_zone_region_refuted : exists bs z b c r,
  locate_closest_backend bs (Some z) None = Some b /\ region_part z r /\ ~ names_region r b /\ In c bs /\ names_region r c.
Proof.
  exists [mkBackend 0 None (Some (s "europe-west1")) None Lustre []; mkBackend 0 None (Some (s "europe-west10")) None Lustre []], (s "europe-west10-a").
  eexists; eexists; exists (s "europe-west10"). split; [vm_compute; reflexivity|]. split; [apply region_part_iff; vm_compute; reflexivity|].
  split; [intros [X|(l & X & _)]; vm_compute in X; discriminate|]. split; [right; left; reflexivity|]. left. reflexivity.
Qed.
Print Assumptions C56_zone_region_refuted.

(** The region of a zone is what stands before its last dash. *)
Theorem C56_region_of_zone : forall z r, get_region_from_zone z = r <-> region_part z r.
Proof. exact region_part_iff. Qed.
Print Assumptions C56_region_of_zone.

Example C56_region_of_zone_ex : get_region_from_zone (s "us-central1-a") = s "us-central1" /\ get_region_from_zone (s "lab") = s "lab".
Proof. split; vm_compute; reflexivity. Qed.

(** The backend of a copy: the first one of the source's zone; otherwise the first in its region;
    otherwise the first that covers the region; otherwise the first that shares a region with the
    source's list; otherwise none. *)
Theorem C56_matching : forall bs src, ranked [same_zone src; same_region src; covers src; shares src] bs (find_matching_backend bs src).
Proof. exact matching. Qed.
Print Assumptions C56_matching.

Definition gcs_r : backend := mkBackend 1 None (Some (s "us-central1")) None Gcs (s "gs://r").
Definition gcs_m : backend := mkBackend 1 None None (Some [s "us-east1"; s "us-central1"]) Gcs (s "gs://m").
Definition gcs_z : backend := mkBackend 1 (Some (s "us-central1-b")) None None Gcs (s "gs://z").

Example C56_matching_ex :
  find_matching_backend [gcs_m; gcs_z; gcs_r] lustre_a = Some gcs_z /\
  find_matching_backend [gcs_m; gcs_r; gcs_z] lustre_a = Some gcs_r /\
  find_matching_backend [gcs_m] lustre_a = Some gcs_m /\
  find_matching_backend [gcs_r; gcs_m] lustre_c = Some gcs_r /\
  find_matching_backend [mkBackend 1 None (Some (s "asia")) None Gcs []] lustre_c = None.
Proof. repeat split; vm_compute; reflexivity. Qed.

(** An asset is placed below the prefix of its backend, read as text. *)
Theorem C56_under : forall prefix rel u, under (rstrip prefix) (get_storage_path prefix rel u).
Proof. exact path_under. Qed.
Print Assumptions C56_under.

(** With an identifier, the place is a name of its own: it ends in the identifier, so that places with
    different identifiers differ, whatever the backends and the assets are. *)
Theorem C56_own_place : forall prefix rel u, ~ In "/"%char u ->
  last_name (get_storage_path prefix rel (Some u)) u /\
  forall prefix' rel' v, ~ In "/"%char v -> u <> v -> get_storage_path prefix rel (Some u) <> get_storage_path prefix' rel' (Some v).
Proof.
  intros prefix rel u N. split; [apply path_last; auto|]. intros prefix' rel' v M D E. apply D.
  pose proof (path_last prefix rel u N) as A. pose proof (path_last prefix' rel' v M) as B. rewrite E in A. eapply last_name_unique; eauto.
Qed.
Print Assumptions C56_own_place.

(** A place that was computed is its own place. *)
Theorem C56_place_again : forall prefix rel u, (forall n, u = Some n -> ~ In "/"%char n) ->
  get_storage_path prefix (get_storage_path prefix rel u) u = get_storage_path prefix rel u.
Proof. exact path_again. Qed.
Print Assumptions C56_place_again.

Example C56_place_ex :
  get_storage_path (s "gs://b/") (s "/run/7/") (Some (s "u1")) = s "gs://b/run/7/u1" /\
  get_storage_path (s "gs://b") (s "gs://b-2/x") None = s "gs://b/gs://b-2/x" /\
  get_storage_path (s "gs://b") (s "gs://b/x/u1") (Some (s "u1")) = s "gs://b/x/u1".
Proof. repeat split; vm_compute; reflexivity. Qed.

(** FALSE: "an asset is stored below the prefix of its backend."  The path in the request is used as it
    is (storage_backend.py l.115-124): with ".." in it the place lies outside when the file system
    reads it. *)
Theorem C56_inside_refuted : exists prefix rel u, ~ In "/"%char u /\
  let p := get_storage_path prefix rel (Some u) in
  under (rstrip prefix) p /\ ~ exists below, place p = place prefix ++ below.
Proof.
  exists (s "/mnt/lustre"), (s "../home/run"), (s "u1"). split; [vm_compute; intros [X|[X|[]]]; discriminate|]. cbv zeta. split; [apply path_under|].
  intros (b & E). vm_compute in E. discriminate.
Qed.
Print Assumptions C56_inside_refuted.

(** A level of the table is accepted exactly if its backends have one type and no two of them the same
    zone, region or set of regions. *)
Theorem C56_validate : forall bs, validate bs = Ok tt <-> distinct bs.
Proof. exact validate_spec. Qed.
Print Assumptions C56_validate.

Example C56_validate_ex : validate [lustre_a; lustre_b; lustre_c] = Ok tt /\
  validate [lustre_c; mkBackend 0 None None (Some [s "us-central1"; s "eu-west1"]) Lustre []] = Err ValueError /\ validate [lustre_a; gcs_r] = Err ValueError.
Proof. repeat split; vm_compute; reflexivity. Qed.

(** An empty table is filled exactly if every backend of the configuration has a type and a location and
    every level is in order; it then has the configured backends, in their order, and agrees with
    the configuration. *)
Theorem C56_initialize : forall config,
  ((exists table, initialize [] config = Ok table) <->
   (forall i, In i config -> i_type i <> Unspecified /\ i_loc i <> Nowhere) /\
   (forall l, distinct (filter (fun b => Z.eqb (level b) l) (map row_of config)))) /\
  (forall table, initialize [] config = Ok table -> Forall (fun i => somewhere (i_loc i)) config ->
   Forall2 represents table config /\ verify table config = Ok tt).
Proof.
  intros config. split; [apply initialize_ok|]. intros table H W. destruct (initialize_verify config table H W) as (-> & V). split; auto.
  clear. induction config as [|i c IH]; constructor; auto. split; [apply row_located|]. auto.
Qed.
Print Assumptions C56_initialize.

Definition config2 : list instance := [mkInstance 0 (AtZone (s "us-central1-a")) Lustre (s "/mnt/a"); mkInstance 1 (AtRegions [s "us-east1"; s "us-central1"]) Gcs (s "gs://m")].
Example C56_initialize_ex : initialize [] config2 = Ok [lustre_a; gcs_m] /\ verify [gcs_m; lustre_a] config2 = Ok tt /\ verify [lustre_a; gcs_r] config2 = Err ValueError.
Proof. repeat split; vm_compute; reflexivity. Qed.

(** A table that is there is never changed. *)
Theorem C56_kept : forall table config table', table <> [] -> initialize table config = Ok table' -> table' = table.
Proof. intros [|b t] config table' N H; [contradiction|]. cbn in H. congruence. Qed.
Print Assumptions C56_kept.

(** The check at the start of a server accepts a table only if every backend of the configuration is in
    it; if the configuration names no location twice, every backend of the table is configured too. *)
Theorem C56_verify : forall table config, verify table config = Ok tt ->
  List.length table = List.length config /\
  (forall i, In i config -> exists b, In b table /\ represents b i) /\
  (no_twins config -> forall b, In b table -> exists i, In i config /\ represents b i).
Proof.
  intros table config H. destruct (verify_sound _ _ H). split; auto. split; auto. intros T. apply verify_covers; auto.
Qed.
Print Assumptions C56_verify.

Example C56_verify_ex : verify [gcs_m; lustre_a] config2 = Ok tt /\ no_twins config2.
Proof.
  split; [vm_compute; reflexivity|]. intros [|[|k]] [|[|l]] i j N I J; cbn in I, J; try (destruct N; reflexivity); try (destruct k; discriminate); try (destruct l; discriminate);
    injection I as <-; injection J as <-; intros (b & (X & _) & (Y & _)); cbn in X, Y; congruence.
Qed.

(** FALSE: "a table accepted at the start has no backend beyond the configured ones."  A configuration
    that lists a backend twice has the length of a table with another one (db_lib.py l.179-230 compares
    the lengths and looks up each configured backend). *)
Theorem C56_verify_refuted : exists table config b, verify table config = Ok tt /\ In b table /\ forall i, In i config -> ~ represents b i.
Proof.
  exists [lustre_a; gcs_r], [mkInstance 0 (AtZone (s "us-central1-a")) Lustre (s "/mnt/a"); mkInstance 0 (AtZone (s "us-central1-a")) Lustre (s "/mnt/a")], gcs_r.
  split; [vm_compute; reflexivity|]. split; [right; left; reflexivity|]. intros i [<-|[<-|[]]] ((X & _) & _); cbn in X; discriminate.
Qed.
Print Assumptions C56_verify_refuted.

(** FALSE: "a server that filled the table accepts it at its next start."  Backends with an empty list of
    regions are not compared when the table is filled (db_schema.py l.284) but have the same key when it
    is checked (db_lib.py l.97). *)
Theorem C56_restart_refuted : exists config table, initialize [] config = Ok table /\ verify table config = Err ValueError.
Proof.
  exists [mkInstance 1 (AtRegions []) Gcs (s "gs://x"); mkInstance 1 (AtRegions []) Gcs (s "gs://y")]. eexists. split; vm_compute; reflexivity.
Qed.
Print Assumptions C56_restart_refuted.
