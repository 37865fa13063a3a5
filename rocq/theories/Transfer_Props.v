(** C55: files move between peers whole and only into their directory. *)
From Coq Require Import List Bool Arith ZArith Ascii String Lia Permutation.
From Verif Require Import Base Transfer_Model Transfer_Spec Transfer_Proofs.
Import ListNotations.

(** Numbers fit into their bytes or are refused, and come back unchanged. *)
Theorem C55_numbers : forall n x, ((exists l, pack n x = Ok l) <-> (0 <= x < 256 ^ Z.of_nat n)%Z) /\ forall l, pack n x = Ok l -> List.length l = n /\ unpack l = x.
Proof.
  intros n x. split; [split; [intros (l & H); apply pack_ok in H; tauto|apply pack_fits]|]. intros l H. apply pack_ok in H. tauto.
Qed.
Print Assumptions C55_numbers.

(** However the bytes are cut into pieces, [n] bytes are read and the rest stays; nothing is given if
    fewer arrive. *)
Theorem C55_exact : forall n bytes pieces, arrive bytes pieces ->
  (n <= List.length bytes -> exists r, recv_exact n pieces = (Some (firstn n bytes), r) /\ arrive (skipn n bytes) r) /\
  (List.length bytes < n -> exists r, recv_exact n pieces = (None, r)).
Proof.
  intros n bytes pieces (<- & I). destruct (recv_exact_spec n pieces I) as (A & B). split; [|auto]. intros L. destruct (A L) as (r & E & R & N). exists r. split; auto; split; auto.
Qed.
Print Assumptions C55_exact.

Example C55_exact_example : arrive [1; 2; 3; 4]%Z [[1]; [2; 3; 4]]%Z /\ recv_exact 3 [[1]; [2; 3; 4]]%Z = (Some [1; 2; 3]%Z, [[4]]%Z) /\ recv_exact 5 [[1]; [2; 3; 4]]%Z = (None, []).
Proof. split; [split; [reflexivity|intros [X|[X|[]]]; discriminate]|]. split; reflexivity. Qed.

(** A message with data is received as it was sent, whatever the pieces, and what follows it stays. *)
Theorem C55_message : forall J truthy dumps loads opcode (j : J) bytes more pieces,
  send_json J truthy dumps opcode (Some j) = Ok bytes -> opcode <> OP_FILE_STREAM -> truthy j = true -> dumps j <> [] -> loads (dumps j) = Json j ->
  arrive (bytes ++ more) pieces -> exists r, recv J loads pieces = Ok ((opcode, Data j), r) /\ arrive more r.
Proof. intros. eapply message; eauto. Qed.
Print Assumptions C55_message.

(** A message of which only a part arrives is received as an error. *)
Theorem C55_cut_message : forall J truthy dumps loads opcode (d : option J) bytes pieces,
  send_json J truthy dumps opcode d = Ok bytes -> opcode <> OP_FILE_STREAM -> arrive_in_part bytes pieces -> exists r, recv J loads pieces = Ok ((OP_ERROR, NoData), r).
Proof. intros. eapply message_cut; eauto. Qed.
Print Assumptions C55_cut_message.

(** A request gets the answer that the peer sent, or none. *)
Theorem C55_answer : forall J truthy dumps loads (j : J) bytes pieces,
  send_json J truthy dumps OP_RESPONSE_JSON (Some j) = Ok bytes -> truthy j = true -> dumps j <> [] -> loads (dumps j) = Json j ->
  (arrive bytes pieces -> request J loads pieces = Ok (Some j)) /\ (arrive_in_part bytes pieces -> request J loads pieces = Ok None).
Proof.
  intros J truthy dumps loads j bytes pieces S T D L. split; intros A; unfold request.
  - rewrite <- (app_nil_r bytes) in A. destruct (message J truthy dumps loads _ j bytes [] pieces S ltac:(discriminate) T D L A) as (r & -> & _). reflexivity.
  - destruct (message_cut J truthy dumps loads _ _ bytes pieces S ltac:(discriminate) A) as (r & ->). reflexivity.
Qed.
Print Assumptions C55_answer.

(** Any other message is no answer, and no message but a file is taken as a download. *)
Theorem C55_other_message : forall J truthy dumps loads opcode (j : J) bytes chunk_size pieces,
  send_json J truthy dumps opcode (Some j) = Ok bytes -> opcode <> OP_FILE_STREAM -> truthy j = true -> dumps j <> [] -> loads (dumps j) = Json j -> arrive bytes pieces ->
  (opcode <> OP_RESPONSE_JSON -> request J loads pieces = Ok None) /\ download J loads chunk_size pieces = Ok (0%Z, None).
Proof.
  intros J truthy dumps loads opcode j bytes k pieces S F T D L A. rewrite <- (app_nil_r bytes) in A.
  destruct (message J truthy dumps loads _ j bytes [] pieces S F T D L A) as (r & M & _). unfold request, download. rewrite M. cbn [rmap fst].
  split; [intros O; rewrite (proj2 (Z.eqb_neq _ _) O); reflexivity|]. rewrite (proj2 (Z.eqb_neq _ _) F). reflexivity.
Qed.
Print Assumptions C55_other_message.

Example C55_other_message_example :
  send_json Z (fun j => negb (Z.eqb j 0)) byte_dumps OP_GET_MANIFEST (Some 7%Z) = Ok [1; 0; 0; 0; 1; 7]%Z /\ OP_GET_MANIFEST <> OP_FILE_STREAM /\ OP_GET_MANIFEST <> OP_RESPONSE_JSON /\
  request Z byte_loads [[1; 0; 0]; [0; 1; 7]]%Z = Ok None /\ download Z byte_loads 4 [[1; 0; 0]; [0; 1; 7]]%Z = Ok (0%Z, None).
Proof. vm_compute. repeat split; discriminate || reflexivity. Qed.

Example C55_message_example :
  send_json Z (fun j => negb (Z.eqb j 0)) byte_dumps OP_RESPONSE_JSON (Some 7%Z) = Ok [3; 0; 0; 0; 1; 7]%Z /\
  recv Z byte_loads [[3; 0]; [0; 0; 1; 7; 9]]%Z = Ok ((OP_RESPONSE_JSON, Data 7%Z), [[9%Z]]) /\
  request Z byte_loads [[3; 0]; [0; 0; 1]]%Z = Ok None.
Proof. repeat split; vm_compute; reflexivity. Qed.

(** FALSE: "a message is received with the opcode it was sent with."  A message without data is
    received as an error: [recv_exact(sock, 0)] returns an empty [bytearray], which counts as false
    at protocol.py l.176, so that the branch for length 0 at l.185 is never reached. *)
Theorem C55_no_data_refuted : exists J truthy dumps loads opcode (d : option J) bytes pieces,
  send_json J truthy dumps opcode d = Ok bytes /\ arrive bytes pieces /\ opcode <> OP_ERROR /\ recv J loads pieces = Ok ((OP_ERROR, NoData), []).
Proof.
  exists Z, (fun j => negb (Z.eqb j 0)), byte_dumps, byte_loads, OP_GET_MANIFEST, None, [1; 0; 0; 0; 0]%Z, [[1; 0; 0; 0; 0]%Z].
  split; [reflexivity|]. split; [split; [reflexivity|intros [X|[]]; discriminate]|]. split; [discriminate|reflexivity].
Qed.
Print Assumptions C55_no_data_refuted.

(** This happens to every message without data. *)
Theorem C55_no_data : forall J truthy dumps loads opcode (d : option J) bytes pieces,
  send_json J truthy dumps opcode d = Ok bytes -> opcode <> OP_FILE_STREAM -> (d = None \/ exists j, d = Some j /\ truthy j = false) -> arrive bytes pieces ->
  recv J loads pieces = Ok ((OP_ERROR, NoData), []).
Proof. intros. eapply no_data; eauto. Qed.
Print Assumptions C55_no_data.

(** A file that arrives whole is written whole, whatever the pieces and the size of the buffer;
    a missing or empty file counts as nothing. *)
Theorem C55_file : forall J loads chunk_size content bytes pieces, 0 < chunk_size -> send_file content = Ok bytes -> arrive bytes pieces ->
  download J loads chunk_size pieces = Ok (match content with Some (x :: c) => (Z.of_nat (List.length (x :: c)), Some (x :: c)) | _ => (0%Z, None) end).
Proof. intros. eapply download_all; eauto. Qed.
Print Assumptions C55_file.

(** A file that arrives only in part is always reported as not downloaded. *)
Theorem C55_cut_file : forall J loads chunk_size content bytes pieces, 0 < chunk_size -> send_file content = Ok bytes -> arrive_in_part bytes pieces ->
  exists f, download J loads chunk_size pieces = Ok (0%Z, f).
Proof. intros J loads k content bytes pieces K S A. destruct (download_part J loads k content bytes pieces K S A) as (f & E & _). eauto. Qed.
Print Assumptions C55_cut_file.

(** Every file of fewer than 2^64 bytes can be sent. *)
Theorem C55_sendable : forall content, (exists bytes, send_file content = Ok bytes) <-> (Z.of_nat (List.length (match content with Some c => c | None => [] end)) < 256 ^ 8)%Z.
Proof.
  intros content. split; [|apply file_ok]. intros (bytes & H). unfold send_file in H. change (header OP_FILE_STREAM 8) with (Ok [4; 0; 0; 0; 8]%Z) in H. cbn [rbind] in H.
  destruct (pack 8 (Z.of_nat (List.length match content with Some c => c | None => [] end))) as [s|] eqn:P; [|discriminate]. apply pack_ok in P as (_ & _ & _ & L). exact L.
Qed.
Print Assumptions C55_sendable.

Example C55_file_example :
  send_file (Some [7; 8; 9]%Z) = Ok [4; 0; 0; 0; 8; 0; 0; 0; 0; 0; 0; 0; 3; 7; 8; 9]%Z /\
  download Z byte_loads 2 [[4; 0; 0]; [0; 8; 0; 0; 0; 0; 0; 0]; [0; 3; 7]; [8; 9]]%Z = Ok (3%Z, Some [7; 8; 9]%Z) /\
  download Z byte_loads 2 [[4; 0; 0]; [0; 8; 0; 0; 0; 0; 0; 0]; [0; 3; 7]]%Z = Ok (0%Z, Some [7%Z]).
Proof. repeat split; vm_compute; reflexivity. Qed.

(** Where a path leads is one place. *)
Theorem C55_one_place : forall link d p e e', leads link d p e -> leads link d p e' -> e = e'.
Proof. intros link d p e e' H H'. eapply leads_fun; eauto. Qed.
Print Assumptions C55_one_place.

(** A path is joined to the directory only if it leads to a place in the directory, links and
    ".." included. *)
Theorem C55_contained : forall link fuel base rel_path p, safe_path_join link fuel base rel_path = Some p ->
  p = (base ++ split_path "" rel_path)%list /\ exists real_base real_p, leads link [] base real_base /\ leads link [] p real_p /\ within real_base real_p.
Proof. intros link fuel base rel p H. apply join_sound in H as (A & _ & _ & B). auto. Qed.
Print Assumptions C55_contained.

(** Every path that is not empty, not absolute and leads into the directory is joined. *)
Theorem C55_accepted : forall link base rel_path real_base real_p, leads link [] base real_base -> leads link [] (base ++ split_path "" rel_path)%list real_p ->
  exists fuel, forall more, fuel <= more ->
    (safe_path_join link more base rel_path = Some (base ++ split_path "" rel_path)%list <-> rel_path <> ""%string /\ (forall r, rel_path <> String "/"%char r) /\ within real_base real_p).
Proof.
  intros link base rel rb rp B P. assert (Q : forall more, (safe_path_join link more base rel = Some (base ++ split_path "" rel)%list <-> rel <> ""%string /\ isabs rel = false /\ within rb rp) ->
    (safe_path_join link more base rel = Some (base ++ split_path "" rel)%list <-> rel <> ""%string /\ (forall r, rel <> String "/"%char r) /\ within rb rp)).
  { intros more H. rewrite H. assert (E : isabs rel = false <-> forall r, rel <> String "/"%char r); [|rewrite E; reflexivity].
    destruct rel as [|c rel']; cbn; [split; [intros _ r; discriminate|auto]|]. destruct (Ascii.eqb_spec c "/"%char) as [->|N]; [split; [discriminate|intros X; elim (X rel'); auto]|]. split; [intros _ r X; injection X as X _; congruence|auto]. }
  enough (X : exists fuel, forall more, fuel <= more -> (safe_path_join link more base rel = Some (base ++ split_path "" rel)%list <-> rel <> ""%string /\ isabs rel = false /\ within rb rp)) by (destruct X as (u & U); exists u; intros more G; apply Q, U, G).
  clear Q. destruct (classic_within rb rp) as [W|W].
  - destruct (String.string_dec rel "") as [->|NE]; [exists 0; intros more _; split; [discriminate|intros (X & _); congruence]|]. destruct (isabs rel) eqn:A.
    + exists 0. intros more _. split; [|intros (_ & X & _); congruence]. intros H. apply join_sound in H as (_ & X & _). congruence.
    + destruct (join_complete link base rel rb rp B P NE A W) as (u & U). exists u. intros more G. split; auto.
  - exists 0. intros more _. split; [|intros (_ & _ & X); contradiction]. intros H. exfalso. apply join_sound in H as (_ & _ & _ & rb' & rp' & B' & P' & W'). rewrite (leads_fun _ _ _ _ B _ B') in W. rewrite (leads_fun _ _ _ _ P _ P') in W. contradiction.
Qed.
Print Assumptions C55_accepted.

(** Plain names without links below the directory lead into it. *)
Theorem C55_plain : forall link base rel_path real_base, leads link [] base real_base -> Forall plain (split_path "" rel_path) ->
  (forall k, k < List.length (split_path "" rel_path) -> link (real_base ++ firstn (S k) (split_path "" rel_path))%list = None) ->
  leads link [] (base ++ split_path "" rel_path)%list (real_base ++ split_path "" rel_path)%list.
Proof. intros link base rel rb B F L. apply leads_app with rb; auto. apply leads_plain; auto. Qed.
Print Assumptions C55_plain.

Example C55_contained_example :
  let link p := if same_path p ["data"; "out"]%string then Some "/etc"%string else if same_path p ["data"; "in"]%string then Some "x/../y"%string else None in
  safe_path_join link 20 ["data"]%string "a/b" = Some ["data"; "a"; "b"]%string /\ safe_path_join link 20 ["data"]%string "in/b" = Some ["data"; "in"; "b"]%string /\
  safe_path_join link 20 ["data"]%string "out/passwd" = None /\ safe_path_join link 20 ["data"]%string "a/../../b" = None /\ safe_path_join link 20 ["data"]%string "/data/a" = None.
Proof. repeat split; vm_compute; reflexivity. Qed.

(** If a shard is taken as fetched, every file with content is there with all its content, whatever
    got lost on the connections, and in whatever order the downloads finish. *)
Theorem C55_fetched : forall J loads chunk_size safe files wires order final, 0 < chunk_size -> Forall2 brings files wires -> (forall l, Permutation l (order l)) ->
  fetch_shard safe (manifest_of files) (map (download J loads chunk_size) wires) order = Some final ->
  final = filter (fun f => match snd f with [] => false | _ => true end) files.
Proof. intros J loads k safe files wires order final K B P H. apply (fetch_sound J loads k safe files wires order final K B P H). Qed.
Print Assumptions C55_fetched.

(** No shard is taken as fetched if one of its paths leads out of the directory. *)
Theorem C55_unsafe : forall safe manifest downloads order m, In m manifest -> safe (fst m) = false -> fetch_shard safe manifest downloads order = None.
Proof.
  intros safe manifest downloads order m I S. unfold fetch_shard. destruct manifest as [|m0 ms] eqn:M; auto. rewrite <- M in *. replace (forallb (fun m => safe (fst m)) manifest) with false; auto. symmetry. apply not_true_is_false. intros X. rewrite forallb_forall in X. rewrite (X m I) in S. discriminate.
Qed.
Print Assumptions C55_unsafe.

(** A shard without empty files that arrives whole is fetched exactly. *)
Theorem C55_whole : forall J loads chunk_size safe files wires order, 0 < chunk_size -> files <> [] -> Forall2 brings_all files wires ->
  (forall f, In f files -> snd f <> [] /\ safe (fst f) = true) -> (forall l, Permutation l (order l)) ->
  fetch_shard safe (manifest_of files) (map (download J loads chunk_size) wires) order = Some files.
Proof. intros. apply fetch_complete; auto. Qed.
Print Assumptions C55_whole.

Example C55_whole_example :
  let files := [("a", [1; 2]%Z); ("b", [3]%Z)]%string in
  Forall2 brings_all files [wire [1; 2]%Z; wire [3]%Z] /\
  fetch_shard (fun _ => true) (manifest_of files) (map (download Z byte_loads 4) [wire [1; 2]%Z; wire [3]%Z]) (@rev Z) = Some files /\
  fetch_shard (fun _ => true) (manifest_of files) (map (download Z byte_loads 4) [wire [1; 2]%Z; [[4; 0; 0]]%Z]) (@rev Z) = None.
Proof.
  cbn zeta. split; [repeat constructor; apply wire_whole; discriminate|]. split; vm_compute; reflexivity.
Qed.

(** FALSE: "a shard that arrives whole is fetched."  With an empty file among others it is refused if
    the downloads finish in another order than the manifest's: service.py l.327-328 pairs the
    results, in the order of [as_completed], with the manifest, so that the 0 of the empty file is
    taken for the result of another one. *)
Theorem C55_empty_file_refuted : exists (files : list (string * list Z)) wires order,
  Forall2 brings_all files wires /\ (forall l, Permutation l (order l)) /\
  fetch_shard (fun _ => true) (manifest_of files) (map (download Z byte_loads 4) wires) order = None /\
  fetch_shard (fun _ => true) (manifest_of files) (map (download Z byte_loads 4) wires) (fun l => l) <> None.
Proof.
  exists [("empty", []); ("b", [3]%Z)]%string, [wire []; wire [3]%Z], (@rev Z).
  split; [repeat constructor; apply wire_whole; discriminate|]. split; [intros l; apply Permutation_rev|]. split; [vm_compute; reflexivity|vm_compute; discriminate].
Qed.
Print Assumptions C55_empty_file_refuted.

(** FALSE: "a fetched shard has all files of the peer."  Empty files are never created: protocol.py
    l.299-307 takes size 0 for a missing file and returns before opening the destination. *)
Theorem C55_all_files_refuted : exists (files : list (string * list Z)) wires final,
  Forall2 brings_all files wires /\ fetch_shard (fun _ => true) (manifest_of files) (map (download Z byte_loads 4) wires) (fun l => l) = Some final /\ final <> files.
Proof.
  exists [("empty", []); ("b", [3]%Z)]%string, [wire []; wire [3]%Z], [("b", [3]%Z)]%string.
  split; [repeat constructor; apply wire_whole; discriminate|]. split; [vm_compute; reflexivity|discriminate].
Qed.
Print Assumptions C55_all_files_refuted.

(** FALSE: "the fetched files are those of the manifest."  The size in the manifest is compared with
    nothing: a file that was replaced on the peer after the manifest was made is taken as it is now
    (service.py l.327-328 only asks for a result other than 0). *)
Theorem C55_manifest_refuted : exists (files files' : list (string * list Z)) wires final,
  manifest_of files <> manifest_of files' /\ map fst files = map fst files' /\ Forall2 brings_all files' wires /\
  fetch_shard (fun _ => true) (manifest_of files) (map (download Z byte_loads 4) wires) (fun l => l) = Some final /\ final = files'.
Proof.
  exists [("a", [1; 2; 3]%Z)]%string, [("a", [1]%Z)]%string, [wire [1]%Z], [("a", [1]%Z)]%string.
  split; [discriminate|]. split; [reflexivity|]. split; [repeat constructor; apply wire_whole; discriminate|]. split; [vm_compute; reflexivity|reflexivity].
Qed.
Print Assumptions C55_manifest_refuted.
