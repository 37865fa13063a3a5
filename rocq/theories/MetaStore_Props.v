(** Claim C65: the metadata file of a checkpoint (see properties.jsonl). *)
From Coq Require Import List Bool Arith NArith String Lia.
From Verif Require Import Base Tree_Model Tree_Proofs Parts_Proofs MetaStore_Model MetaStore_Spec MetaStore_Proofs.
Import ListNotations.
Open Scope string_scope.

(** ** A committed checkpoint *)

(** The metadata file of a committed checkpoint says what was handed over, whatever other threads,
    saves and the background thread do meanwhile, if no error of this save was raised in another
    thread and no read failed in an update of this save. *)
Theorem C65_committed : forall V serializable fault l j v u f es,
  nth_error l j = Some v -> sv_phase V v = P0 -> NoDup (map fst (sv_kw V v)) -> apart V l j v es ->
  let s := run V serializable fault es (begin V f u l) in
  is_in V s j PDone -> not_stolen V s j -> reads_fine V s j -> holds V s (sv_final V v) (says V u v).
Proof.
  intros V sz fault l j v u f es Hj Hp N [Ho He] s (v' & Hv & Pv) G1 G2.
  destruct (si_run V sz fault l j v u Hj Hp Ho es f He) as [O Sv Ow Us (v1 & Hv1 & Av & P)]. fold s in Hv1, P. replace v1 with v' in * by congruence. rewrite Pv in P.
  destruct P as [_ P]. destruct (P (conj G1 G2)) as [F _]. destruct (says_fold V u v N) as (m & M1 & M2). exists m. split; auto. unfold final_ok in F. rewrite F, <- M1. auto.
Qed.

Print Assumptions C65_committed.

(** Values of the examples: numbers below 100 are JSON, the others are not. *)
Definition small (n : nat) : bool := Nat.ltb n 100.
Definition fine (n : nat) : option err := None.
Definition w (n : nat) : list (event nat) := repeat (EWork nat) n.
Definition ex_u (r : N) : nat := if N.eqb r 9 then 42 else 0.
Definition ex_save : save nat :=
  mkSave nat 1 2 [("init_timestamp_nsecs", Own nat 5); ("custom_metadata", Own nat 0)] [("item_handlers", Own nat 6); ("custom_metadata", User nat 9)] (Own nat 7) P0.
Definition ex_save2 : save nat := mkSave nat 3 4 [("init_timestamp_nsecs", Own nat 15)] [("item_handlers", Own nat 16)] (Own nat 17) P0.

(** Two saves at a time; another thread waits. *)
Definition ex_es : list (event nat) :=
  ([ESave nat 0; ESave nat 1; EWork nat; ESave nat 1] ++ w 9 ++ [ESave nat 0; EWait nat 0] ++ w 9 ++ [EWait nat 1; ESave nat 0; ESave nat 0; ESave nat 1] ++ w 8 ++ [ESave nat 0; ESave nat 0; ESave nat 0])%list.

Definition ex_s : st nat := run nat small fine ex_es (begin nat [] ex_u [ex_save; ex_save2]).

Example C65_committed_ex : nth_error [ex_save; ex_save2] 0 = Some ex_save /\ sv_phase nat ex_save = P0 /\ NoDup (map fst (sv_kw nat ex_save)) /\ apart nat [ex_save; ex_save2] 0 ex_save ex_es /\
  is_in nat ex_s 0 PDone /\ not_stolen nat ex_s 0 /\ reads_fine nat ex_s 0 /\
  dget N.eqb 2%N (fs nat ex_s) = Some (Whole nat [("init_timestamp_nsecs", 5); ("custom_metadata", 42); ("item_handlers", 6); ("commit_timestamp_nsecs", 7)]).
Proof.
  split; [reflexivity|]. split; [reflexivity|]. split; [cbn; constructor; [intros [E|[]]; discriminate|constructor; [intros []|constructor]]|]. split.
  { split.
    - intros [|[|[|i]]] x H N; cbn in H; try congruence. injection H as <-. unfold uses. cbn. split; intros [E|E]; discriminate.
    - intros e I. cbn in I. repeat (destruct I as [<-|I]; [exact Logic.I|]). destruct I. }
  split; [eexists; split; vm_compute; reflexivity|]. split; [intros x id e t r I; vm_compute in I; destruct I|]. split; [intros id t r I; vm_compute in I; destruct I|]. vm_compute. reflexivity.
Qed.

(** ** Errors *)

(** Errors are raised in the order of their tasks, each once; none is passed over. *)
Theorem C65_errors : forall V serializable fault l u f es who,
  let s := run V serializable fault es (begin V f u l) in
  (exists later, failures V (done V s) = (reported V s ++ later)%list) /\
  forall s' r, wait V who s = Some (s', r) ->
  match r with
  | Ok _ => idle V s /\ failures V (done V s) = reported V s
  | Err e => exists id later, failures V (done V s) = (reported V s ++ (id, e) :: later)%list /\ reported V s' = (reported V s ++ [(id, e)])%list
  end.
Proof.
  intros V sz fault l u f es who s. assert (O : Ord V s) by (apply ord_run; apply ord_begin). split.
  - destruct O as [_ _ _ (a & b & D & _ & R)]. exists (failures V b). rewrite D, failures_app, R. auto.
  - intros s' r W. pose proof (wait_cases V who s s' r O W) as C. destruct r as [[]|e].
    + destruct C as (_ & C1 & C2 & C3). split; auto. split; auto. unfold cur in C1. destruct (current V s) as [[x g]|]; [discriminate|auto].
    + destruct C as (id & p & x & a & b & c & -> & D & I & R & _). exists id, (failures V b). split.
      * rewrite D, failures_app, R. cbn. unfold id_of in I. rewrite I. auto.
      * unfold reported. cbn. rewrite map_app. auto.
Qed.

Print Assumptions C65_errors.

(** Once there is nothing left to do in the background, waiting ends. *)
Theorem C65_wait_ends : forall V serializable fault l u f es who,
  let s := run V serializable fault es (begin V f u l) in idle V s -> wait V who s <> None.
Proof. intros V sz fault l u f es who s I. apply wait_some; auto. apply ord_run. apply ord_begin. Qed.

Print Assumptions C65_wait_ends.

(** The background thread comes to an end. *)
Theorem C65_drains : forall V serializable fault (s : st V) n,
  5 * S (List.length (queue V s)) <= n -> idle V (run V serializable fault (repeat (EWork V) n) s).
Proof. intros V sz fault s n H. apply drain. unfold todo. destruct (current V s) as [[x [| |m|m]]|]; cbn [left_of]; lia. Qed.

Print Assumptions C65_drains.

(** The first task has no directory, the third a value that is no JSON. *)
Definition ex_err : list (event nat) :=
  ([ESubmit nat 0 (TWrite nat 8 []); ESubmit nat 0 (TWrite nat 1 [("a", Own nat 1)]); ESubmit nat 0 (TUpdate nat 1 [("b", Own nat 500)])] ++ w 20)%list.

Example C65_errors_ex :
  let s := run nat small fine ex_err (begin nat [(1%N, NoFile nat)] ex_u []) in
  failures nat (done nat s) = [(0, FileNotFoundError); (2, TypeError)] /\ idle nat s /\
  option_map snd (wait nat (Other 0) s) = Some (Err FileNotFoundError) /\
  5 * S (List.length (queue nat (run nat small fine (firstn 3 ex_err) (begin nat [(1%N, NoFile nat)] ex_u [])))) <= 20 /\
  option_map snd (wait nat (Other 0) (run nat small fine [EWait nat 0] s)) = Some (Err TypeError) /\
  option_map snd (wait nat (Other 0) (run nat small fine [EWait nat 0; EWait nat 0] s)) = Some (Ok tt).
Proof. split; [vm_compute; reflexivity|]. split; [split; vm_compute; reflexivity|]. split; [vm_compute; reflexivity|]. split; [vm_compute; lia|]. split; vm_compute; reflexivity. Qed.

(** ** Tasks on one directory *)

(** The tasks of a directory are done in the order they were handed over, none is lost, and the file
    is at any time what those done make of it, except that it is broken while it is written. *)
Theorem C65_last : forall V serializable fault l u f f0 d es,
  left_to V l d es -> dget N.eqb d f = Some f0 -> keys_once V (for_dir V d es) ->
  let s := run V serializable fault es (begin V f u l) in
  exists rest, for_dir V d es = (finished V d s ++ rest)%list /\ (idle V s -> rest = []) /\
  (well_done V d s ->
   (idle V s \/ dget N.eqb d (fs V s) <> Some (Broken V)) ->
   forall k, before V (dget N.eqb d (fs V s)) k = last_value V k (before V (Some f0) k) (finished V d s) u).
Proof.
  intros V sz fault l u f f0 d es Lt F K s. pose proof (left_to_ok V l d es Lt) as H. cbv zeta in H. destruct Lt as [Hl _].
  destruct (di_run V sz fault d u _ f0 l Hl es f F H) as [T Fz J Sv]. fold s in T, Fz, J, Sv.
  set (rest := map snd (filter (on V d) (cur V s ++ queue V s))). exists rest.
  assert (E : for_dir V d es = (finished V d s ++ rest)%list). { rewrite <- J, finished_dones. unfold dones, jobs, rest. rewrite filter_app, map_app. auto. }
  split; auto. split.
  - intros [I1 I2]. unfold rest, cur. rewrite I1, I2. auto.
  - intros W NB k. apply well_done_clean in W. rewrite finished_dones. rewrite E in K. apply keys_kw in K. apply Forall_app in K as [K _]. rewrite finished_dones in K.
    assert (Z : dget N.eqb d (fs V s) = Some (now V d u f0 s)).
    { destruct NB as [[I1 I2]|NB]; [|destruct (trk_read V d u _ f0 s T W) as [X|X]; auto; contradiction]. eapply trk_idle; eauto. unfold cur. rewrite I1. intros x []. }
    rewrite Z, before_content, before_content. unfold now. apply last_fold. auto.
Qed.

Print Assumptions C65_last.

(** Without failures of the file system and values that are no JSON, no task fails in a directory
    that is there. *)
Theorem C65_no_fault : forall V serializable fault l u f f0 d es,
  left_to V l d es -> dget N.eqb d f = Some f0 -> (forall n, fault n = None) -> (forall x, serializable x = true) ->
  well_done V d (run V serializable fault es (begin V f u l)).
Proof.
  intros V sz fault l u f f0 d es Lt F Hf Hs. apply well_done_clean. pose proof (left_to_ok V l d es Lt) as H. cbv zeta in H. destruct Lt as [Hl _]. eapply fine_dir; eauto.
Qed.

Print Assumptions C65_no_fault.

Definition ex_last : list (event nat) :=
  ([ESubmit nat 0 (TUpdate nat 7 [("a", Own nat 1); ("b", Own nat 2)]); ESave nat 0; ESubmit nat 1 (TUpdate nat 7 [("b", User nat 9)])] ++ w 7 ++ [EChange nat 8 3; ESubmit nat 0 (TUpdate nat 7 [("c", Own nat 4)]); ESave nat 0] ++ w 20)%list.

Example C65_last_ex : left_to nat [ex_save] 7 ex_last /\ keys_once nat (for_dir nat 7 ex_last) /\ List.length (for_dir nat 7 ex_last) = 3 /\
  let s := run nat (fun _ => true) fine ex_last (begin nat [(7%N, Whole nat [("z", 0); ("a", 9)])] ex_u [ex_save]) in
  idle nat s /\ dget N.eqb 7%N (fs nat s) = Some (Whole nat [("z", 0); ("a", 1); ("b", 42); ("c", 4)]).
Proof.
  split; [split|].
  - intros x [<-|[]]. cbn. split; discriminate.
  - intros e I. cbn in I. repeat (destruct I as [<-|I]; [first [exact Logic.I | intros t T M; vm_compute in T; repeat (destruct T as [<-|T]; [vm_compute in M; repeat (destruct M as [M|M]; [discriminate|]); destruct M|]); destruct T]|]). destruct I.
  - split; [|split; [reflexivity|split; [split|]; vm_compute; reflexivity]].
    assert (N : forall a : string, NoDup [a]) by (intros a; constructor; [intros []|constructor]).
    unfold keys_once. cbn. constructor; [cbn; constructor; [intros [E|[]]; discriminate|apply N]|]. constructor; [apply N|]. constructor; [apply N|constructor].
Qed.

(** ** Saves that fail *)

(** A save that does not give up by itself fails only because an error of a task was raised in it;
    the final directory not being there before. *)
Theorem C65_why_failed : forall V serializable fault l j v u f es,
  nth_error l j = Some v -> sv_phase V v = P0 -> apart V l j v es -> ~ In (EFail V j) es ->
  (sv_tmp V v <> sv_final V v -> dget N.eqb (sv_final V v) f = None) ->
  let s := run V serializable fault es (begin V f u l) in
  is_in V s j PFailed -> exists id e, In (Save j, id, e) (raised V s) /\ In (id, e) (failures V (done V s)).
Proof.
  intros V sz fault l j v u f es Hj Hp [Ho He] NF F s (v' & Hv & Pv).
  destruct (why_run V sz fault l j v u es f Hj Hp Ho F) as (v1 & Hv1 & Z).
  { intros e I. split; [apply (He e I)|]. intros ->. auto. }
  fold s in Hv1, Z. replace v1 with v' in * by congruence. rewrite Pv in Z. destruct Z as (id & e & I). exists id, e. split; auto.
  assert (O : Ord V s) by (apply ord_run; apply ord_begin). destruct O as [_ _ _ (a & b & D & _ & R)]. rewrite D, failures_app, <- R. apply in_or_app. left. unfold reported. apply in_map_iff. exists (Save j, id, e). auto.
Qed.

Print Assumptions C65_why_failed.

Definition ex_bad : save nat := mkSave nat 1 2 [] [("custom_metadata", Own nat 500)] (Own nat 7) P0.

Example C65_why_failed_ex :
  let es := ([ESave nat 0; ESave nat 0] ++ w 10 ++ [ESave nat 0])%list in
  let s := run nat small fine es (begin nat [] ex_u [ex_bad]) in
  apart nat [ex_bad] 0 ex_bad es /\ ~ In (EFail nat 0) es /\ is_in nat s 0 PFailed /\ raised nat s = [(Save 0, 1, TypeError)].
Proof.
  cbv zeta. split; [split|].
  - intros [|[|i]] x H N; cbn in H; congruence.
  - intros e I. cbn in I. repeat (destruct I as [<-|I]; [exact Logic.I|]). destruct I.
  - split; [intros I; cbn in I; repeat (destruct I as [E|I]; [discriminate|]); destruct I|]. split; [eexists; split; vm_compute; reflexivity|vm_compute; reflexivity].
Qed.

(** Any number of saves at a time, with other threads that wait: without failures of the file system
    and values that are no JSON, none fails. *)
Theorem C65_saves_fine : forall V serializable fault l u f es,
  fresh V f l -> (forall n, fault n = None) -> (forall x, serializable x = true) -> Forall (only_saves V) es ->
  let s := run V serializable fault es (begin V f u l) in
  failures V (done V s) = [] /\ raised V s = [] /\ (forall j, ~ is_in V s j PFailed) /\
  (forall j v, nth_error l j = Some v -> NoDup (map fst (sv_kw V v)) -> is_in V s j PDone -> holds V s (sv_final V v) (says V u v)).
Proof.
  intros V sz fault l u f es [H1 H2] Hf Hs P s.
  assert (P' : Forall (plain V) es) by (eapply Forall_impl; [|exact P]; intros e; destruct e; auto).
  destruct (plain_run V sz fault Hf Hs l u es f H1 H2 P') as (A & B & C). fold s in A, B, C.
  assert (F : failures V (done V s) = []).
  { unfold failures. clear - A. induction (done V s) as [|[x r] q IH]; auto. cbn [flat_map fst snd]. rewrite (A x r (or_introl eq_refl)). apply IH. intros y r' I. apply (A y r'). right. auto. }
  assert (Ap : forall j v, nth_error l j = Some v -> apart V l j v es /\ ~ In (EFail V j) es).
  { intros j v Hj. split; [split|].
    - intros i x Hi N. apply (H2 j i v x Hj Hi N).
    - intros e I. rewrite Forall_forall in P. specialize (P e I). destruct e; auto; destruct P.
    - intros I. rewrite Forall_forall in P. apply (P _ I). }
  split; auto. split; auto. split.
  - intros j (v' & Hv & Pv). destruct (saves_run V sz fault es (begin V f u l) j v' Hv) as (v & Hj & _). cbn in Hj. destruct (Ap j v Hj) as [A1 A2]. destruct (H1 j v Hj) as [Q1 Q2].
    destruct (C65_why_failed V sz fault l j v u f es Hj Q1 A1 A2 Q2) as (id & e & X & _); [exists v'; auto|]. fold s in X. rewrite B in X. destruct X.
  - intros j v Hj N D. destruct (Ap j v Hj) as [A1 _]. destruct (H1 j v Hj) as [Q1 _]. apply (C65_committed V sz fault l j v u f es Hj Q1 N A1 D).
    + intros x id e t r I. fold s in I. rewrite B in I. destruct I.
    + intros id t r I. unfold s in I. rewrite (run_unread V sz fault Hf Hs) in I. destruct I.
Qed.

Print Assumptions C65_saves_fine.

Example C65_saves_fine_ex : fresh nat [] [ex_save; ex_save2] /\ Forall (only_saves nat) ex_es /\ is_in nat ex_s 1 P2.
Proof.
  split; [split|split].
  - intros [|[|[|i]]] x H; cbn in H; try discriminate; injection H as <-; cbn; auto.
  - intros [|[|[|i]]] [|[|[|k]]] a b A B N; cbn in A, B; try congruence; injection A as <-; injection B as <-; unfold uses; cbn; split; intros [E|E]; discriminate.
  - apply Forall_forall. intros e I. cbn in I. repeat (destruct I as [<-|I]; [exact Logic.I|]). destruct I.
  - eexists. split; vm_compute; reflexivity.
Qed.

(** ** The blocking store *)

Theorem C65_blocking : forall V serializable fault (v : save V) s s' r,
  NoDup (map fst (sv_kw V v)) -> blocking_save V serializable fault v s = (s', r) ->
  match r with
  | Ok _ => unread V s' = unread V s -> holds V s' (sv_final V v) (says V (users V s) v)
  | Err _ => sv_tmp V v <> sv_final V v -> dget N.eqb (sv_final V v) (fs V s') = dget N.eqb (sv_final V v) (fs V s)
  end.
Proof.
  intros V sz fault v s s' r N H. destruct r as [[]|e].
  - intros U. destruct (says_fold V (users V s) v N) as (m & M1 & M2). exists m. split; auto. rewrite <- M1. apply (blocking_save_ok V sz fault v s s' H U).
  - apply (blocking_save_err V sz fault v s s' e H).
Qed.

Print Assumptions C65_blocking.

Example C65_blocking_ex :
  (let '(s, r) := blocking_save nat small fine ex_save (begin nat [] ex_u []) in
   (dget N.eqb 2%N (fs nat s), r, unread nat s)) = (Some (Whole nat [("init_timestamp_nsecs", 5); ("custom_metadata", 42); ("item_handlers", 6); ("commit_timestamp_nsecs", 7)]), Ok tt, []) /\
  (let '(s, r) := blocking_save nat small fine ex_bad (begin nat [] ex_u []) in (dget N.eqb 2%N (fs nat s), r)) = (None, Err TypeError).
Proof. split; vm_compute; reflexivity. Qed.

(** ** What does not hold *)

(** A checkpoint is committed although its metadata could not be written: another thread that waits
    ([check_for_errors], AC l.648-651) takes the error of the update with the handlers and the custom
    metadata out of the store (MC l.449-452), so that the thread that commits does not see it. *)
Theorem C65_stolen_refuted : exists es,
  let s := run nat small fine es (begin nat [] ex_u [ex_bad]) in
  is_in nat s 0 PDone /\ In ((1, Save 0, TUpdate nat 1 [("custom_metadata", Own nat 500)]), Err TypeError) (done nat s) /\ raised nat s = [(Other 3, 1, TypeError)] /\
  dget N.eqb 2%N (fs nat s) = Some (Whole nat [("commit_timestamp_nsecs", 7)]).
Proof.
  exists ([ESave nat 0; ESave nat 0] ++ w 10 ++ [EWait nat 3; ESave nat 0; ESave nat 0] ++ w 5 ++ [ESave nat 0; ESave nat 0])%list. cbv zeta.
  split; [eexists; split; vm_compute; reflexivity|]. split; [vm_compute; auto|]. split; vm_compute; reflexivity.
Qed.

Print Assumptions C65_stolen_refuted.

(** One failed read in an update loses all that was written before, without an error: reading takes
    any error for a missing file (MC l.206-214), and the update then starts from nothing
    (MC l.243). The checkpoint is committed with the time of its commit alone. *)
Theorem C65_unread_refuted : exists fault es, (exists n, forall m, fault m <> None -> m = n) /\
  let s := run nat small fault es (begin nat [] ex_u [ex_save]) in
  is_in nat s 0 PDone /\ raised nat s = [] /\ failures nat (done nat s) = [] /\
  dget N.eqb 2%N (fs nat s) = Some (Whole nat [("commit_timestamp_nsecs", 7)]).
Proof.
  exists (fun n => if Nat.eqb n 7 then Some TimeoutError else None), ([ESave nat 0; ESave nat 0] ++ w 10 ++ [ESave nat 0; ESave nat 0] ++ w 5 ++ [ESave nat 0; ESave nat 0])%list.
  split; [exists 7; intros m H; destruct (Nat.eqb_spec m 7); congruence|]. cbv zeta. split; [eexists; split; vm_compute; reflexivity|]. split; [|split]; vm_compute; reflexivity.
Qed.

Print Assumptions C65_unread_refuted.

(** Two stores that update the same file lose an update: an update is a read and then a write
    (MC l.243-246), and nothing keeps another store (of another checkpointer, or the blocking one)
    from writing between. *)
Theorem C65_two_stores_refuted : exists es,
  let s := run nat small fine es (begin nat [(7%N, Whole nat [])] ex_u []) in
  es = ([ESubmit nat 0 (TUpdate nat 7 [("a", Own nat 1)])] ++ w 3 ++ [EBlocking nat (TUpdate nat 7 [("b", Own nat 2)])] ++ w 2)%list /\
  idle nat s /\ failures nat (done nat s) = [] /\ dget N.eqb 7%N (fs nat s) = Some (Whole nat [("a", 1)]).
Proof. eexists. cbv zeta. split; [reflexivity|]. split; [split|split]; vm_compute; reflexivity. Qed.

Print Assumptions C65_two_stores_refuted.

(** The custom metadata of an asynchronous save are those the user's object has when the background
    thread writes them (AC l.455, MC l.181), not those when [save] returned. *)
Theorem C65_changed_refuted : exists es,
  let s := run nat small fine es (begin nat [] ex_u [ex_save]) in
  In (EChange nat 9 43) (skipn 1 es) /\ is_in nat s 0 PDone /\ says nat ex_u ex_save "custom_metadata" = Some 42 /\
  match dget N.eqb 2%N (fs nat s) with Some (Whole _ m) => dget String.eqb "custom_metadata" m = Some 43 | _ => False end.
Proof.
  exists ([ESave nat 0; EChange nat 9 43; ESave nat 0] ++ w 10 ++ [ESave nat 0; ESave nat 0] ++ w 5 ++ [ESave nat 0; ESave nat 0])%list. cbv zeta.
  split; [left; reflexivity|]. split; [eexists; split; vm_compute; reflexivity|]. split; vm_compute; reflexivity.
Qed.

Print Assumptions C65_changed_refuted.

(** A failure while a file is written destroys it: it is written in place (MC l.182), and the next
    update takes the broken file for a missing one (MC l.217-227) and drops what was there. *)
Theorem C65_in_place_refuted : exists fault es,
  let s := run nat small fault es (begin nat [(7%N, Whole nat [("a", 1)])] ex_u []) in
  es = ([ESubmit nat 0 (TUpdate nat 7 [("b", Own nat 2)])] ++ w 5 ++ [EWait nat 0; ESubmit nat 0 (TUpdate nat 7 [("c", Own nat 3)])] ++ w 5)%list /\
  failures nat (done nat s) = [(0, TimeoutError)] /\ idle nat s /\ dget N.eqb 7%N (fs nat s) = Some (Whole nat [("c", 3)]).
Proof.
  exists (fun n => if Nat.eqb n 3 then Some TimeoutError else None). eexists. cbv zeta. split; [reflexivity|]. split; [vm_compute; reflexivity|]. split; [split|]; vm_compute; reflexivity.
Qed.

Print Assumptions C65_in_place_refuted.

(** Who reads while an update is written finds no metadata at all, although the file was there before
    the update and is there after it (MC l.182, l.217-227). *)
Theorem C65_reader_refuted : exists es e,
  let s0 := run nat small fine [] (begin nat [(7%N, Whole nat [("a", 1)])] ex_u []) in
  let s1 := run nat small fine es s0 in let s2 := run nat small fine [e] s1 in
  read nat s0 7 = Some [("a", 1)] /\ read nat s1 7 = None /\ read nat s2 7 = Some [("a", 1); ("b", 2)].
Proof. exists ([ESubmit nat 0 (TUpdate nat 7 [("b", Own nat 2)])] ++ w 4)%list, (EWork nat). cbv zeta. split; [|split]; vm_compute; reflexivity. Qed.

Print Assumptions C65_reader_refuted.

(** Waiting raises one error and keeps the rest (MC l.449-452): after a save failed and its error was
    raised, the next save, which begins by waiting (AC l.613), fails with another error of the save
    before. *)
Theorem C65_again_refuted : exists fault es,
  let s := run nat small fault es (begin nat [] ex_u [ex_bad]) in
  is_in nat s 0 PFailed /\ (exists e, In (Save 0, 0, e) (raised nat s)) /\ idle nat s /\ option_map snd (wait nat (Other 1) s) = Some (Err TypeError).
Proof.
  exists (fun n => if Nat.eqb n 0 then Some TimeoutError else None), ([ESave nat 0; ESave nat 0] ++ w 10 ++ [ESave nat 0])%list. cbv zeta.
  split; [eexists; split; vm_compute; reflexivity|]. split; [exists TimeoutError; vm_compute; auto|]. split; [split; vm_compute; reflexivity|]. vm_compute. reflexivity.
Qed.

Print Assumptions C65_again_refuted.
