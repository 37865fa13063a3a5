(** C90: the authentication and the environment of the tiering service. *)
From Coq Require Import List Bool Arith String Ascii Lia.
From Verif Require Import Base Auth_Model Auth_Spec Auth_Proofs.
Import ListNotations.
Local Open Scope string_scope.
Local Open Scope list_scope.

(** The token is what follows the word Bearer in the last header; there is none exactly if there is no such header or the last one has another form *)
Theorem C90_token : forall md t, get_oauth_token md = Some t <-> last_value md "authorization" ("Bearer " ++ t)%string.
Proof.
  intros md t. rewrite <- get_iff. unfold get_oauth_token. destruct (get "authorization" md) as [h|]; [|split; discriminate]. destruct (String.prefix "Bearer " h) eqn:P.
  - apply bearer_inv in P as [u ->]. destruct (bearer u) as [_ ->]. split; intro E; [injection E as ->; reflexivity|]. injection E as ->. reflexivity.
  - split; [discriminate|]. intro E. assert (Q : h = ("Bearer " ++ t)%string) by congruence. rewrite Q in P. destruct (bearer t) as [X _]. rewrite X in P. discriminate.
Qed.
Print Assumptions C90_token.

(** Read and write are allowed for the same callers: those with a token, for backends of a known type *)
Theorem C90_permission : forall token b path, (has_read_permission token b path = true <-> token <> None /\ b <> Unknown) /\ has_write_permission token b path = has_read_permission token b path.
Proof. intros [t|] [| |] path; cbn; intuition congruence. Qed.
Print Assumptions C90_permission.

Example C90_token_example : get_oauth_token [("authorization", "Bearer a"); ("x", "y"); ("authorization", "Bearer tok")] = Some "tok" /\ get_oauth_token [("authorization", "Basic tok")] = None /\ get_oauth_token [] = None /\
  last_value [("authorization", "Bearer tok"); ("x", "y")] "authorization" ("Bearer " ++ "tok")%string /\ has_read_permission (Some "tok") Lustre "/p" = true /\ has_write_permission None Gcs "gs://b" = false /\ has_write_permission (Some "tok") Unknown "p" = false.
Proof. split; [reflexivity|]. split; [reflexivity|]. split; [reflexivity|]. split; [exists [], [("x", "y")]; split; [reflexivity | intros v [E|[]]; discriminate] | repeat split]. Qed.

(** The variable counts if it is not empty; without it the zone is what follows the last slash of the answer *)
Theorem C90_zone : forall env answer, (forall z, z <> "" -> get_gcp_zone (Some z) answer = Some z) /\ ((env = None \/ env = Some "") -> get_gcp_zone env None = None /\ (forall p z, without "/" z -> get_gcp_zone env (Some (p ++ String "/" z)%string) = Some z) /\ (forall z, without "/" z -> get_gcp_zone env (Some z) = Some z)).
Proof.
  intros env answer. split; [intros [|c z] N; [congruence | reflexivity]|]. intros E. assert (G : given env = None) by (destruct E as [->| ->]; reflexivity). unfold get_gcp_zone. rewrite G. split; [reflexivity|]. split; [intros p z W; cbn [option_map]; now rewrite zone_last | intros z W; cbn [option_map]; now rewrite (split_without _ _ W)].
Qed.
Print Assumptions C90_zone.

(** The variable counts if it is not empty; without it the region is the zone without its last dash and what follows, and there is none for a zone without dash *)
Theorem C90_region : forall env zone answer, (forall r, r <> "" -> get_gcp_region (Some r) zone answer = Some r) /\ ((env = None \/ env = Some "") ->
  (get_gcp_zone zone answer = None -> get_gcp_region env zone answer = None) /\ (forall r z, get_gcp_zone zone answer = Some (r ++ String "-" z)%string -> without "-" z -> get_gcp_region env zone answer = Some r) /\ (forall z, get_gcp_zone zone answer = Some z -> without "-" z -> get_gcp_region env zone answer = None)).
Proof.
  intros env zone answer. split; [intros [|c r] N; [congruence | reflexivity]|]. intros E. assert (G : given env = None) by (destruct E as [->| ->]; reflexivity). unfold get_gcp_region. rewrite G. split; [now intros ->|]. split.
  - intros r z -> W. assert (Gi : given (Some (r ++ String "-" z)%string) = Some (r ++ String "-" z)%string) by (destruct r; reflexivity). rewrite Gi, (split_app _ _ _ W). rewrite app_length. cbn [List.length]. pose proof (split_some "-" r) as N. destruct (Nat.leb_spec 2 (List.length (split "-" r) + 1)) as [L|L]; [|destruct (split "-" r); [congruence | cbn in L; lia]]. rewrite removelast_last. f_equal. apply (concat_split "-" r).
  - intros z -> W. destruct z as [|c z]; [reflexivity|]. cbn [given]. now rewrite (split_without _ _ W).
Qed.
Print Assumptions C90_region.

Example C90_zone_example : get_gcp_zone None (Some "projects/12/zones/us-east5-a") = Some "us-east5-a" /\ get_gcp_region None None (Some "projects/12/zones/us-east5-a") = Some "us-east5" /\ get_gcp_region (Some "") (Some "europe-west4-b") None = Some "europe-west4" /\ get_gcp_region (Some "r") None None = Some "r" /\ get_gcp_region None (Some "local") None = None /\ without "/" "us-east5-a" /\ without "-" "a".
Proof. repeat split; intro H; cbn in H; repeat destruct H as [H|H]; discriminate || contradiction. Qed.

(** A header with the word Bearer and nothing after it gives an empty token, and an empty token is a token: the caller may read and write on each backend *)
Theorem C90_empty_token_refuted : exists md, md = [("authorization", "Bearer ")] /\ forall path, has_read_permission (get_oauth_token md) Gcs path = true /\ has_write_permission (get_oauth_token md) Lustre path = true.
Proof. eexists. split; [reflexivity|]. intro path. split; reflexivity. Qed.
Print Assumptions C90_empty_token_refuted.

(** The word for the kind of token is compared letter by letter, though it is the same in upper and lower case for HTTP: a caller with a token is refused *)
Theorem C90_case_refuted : exists md, md = [("authorization", "bearer tok")] /\ forall b path, has_read_permission (get_oauth_token md) b path = false.
Proof. eexists. split; [reflexivity|]. now intros [| |] path. Qed.
Print Assumptions C90_case_refuted.

(** An answer that is empty or ends with a slash gives an empty zone and not none *)
Theorem C90_empty_zone_refuted : get_gcp_zone None (Some "") = Some "" /\ exists t, t <> "" /\ get_gcp_zone None (Some t) = Some "".
Proof. split; [reflexivity|]. exists "projects/12/zones/". split; [discriminate | reflexivity]. Qed.
Print Assumptions C90_empty_zone_refuted.
