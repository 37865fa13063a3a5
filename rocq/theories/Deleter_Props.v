(** Theorems C21 (background deleter) and C48 (parallel removal of a directory). *)
From Coq Require Import ZArith List Bool String Lia.
From Verif Require Import Base Manager_Model Manager_Spec Manager_Proofs Deleter_Model Deleter_Spec Deleter_Proofs.
Import ListNotations.
Local Open Scope Z_scope.

(** * C21 *)

(** When the first close returns or raises, the directory and the exception are
    exactly those of deleting all requested steps one after the other in the order
    of the requests: each once, up to the first failure, which close raises.  Any
    interleaving of the two threads, any behaviour of the single deletions. *)
Theorem C21_close_is_sequential : forall D del (d : D) ls y l z r, t_run del (t_init d) ls y ->
  (forall s, In s (requested ls) -> 0 <= s) -> closes ls = 1%nat -> t_step D del l y = Some (z, Some r) ->
  delete_in_turn D del 0 (requested ls) d = (t_dir z, raised r).
Proof. exact close_sequential. Qed.
Print Assumptions C21_close_is_sequential.

(** At every moment a prefix of the requests has been carried out. *)
Theorem C21_in_order : forall D del (d : D) ls y, t_run del (t_init d) ls y -> (forall s, In s (requested ls) -> 0 <= s) ->
  exists pre suf, requested ls = pre ++ suf /\ delete_in_turn D del 0 pre d = (t_dir y, t_exc y).
Proof. exact prefix_done. Qed.
Print Assumptions C21_in_order.

(** close cannot hang: from any moment of its join the thread needs at most two
    steps per queued request, and then close returns. *)
Theorem C21_close_returns : forall D del (d : D) ls y, t_run del (t_init d) ls y -> (forall s, In s (requested ls) -> 0 <= s) ->
  closes ls = 1%nat -> t_user y = CJoin ->
  exists n z r, (n <= 2 * List.length (t_queue y) + 1)%nat /\
    t_run del (t_init d) (ls ++ repeat TLThread n ++ [TLUser; TLUser]) z /\
    delete_in_turn D del 0 (requested ls) d = (t_dir z, raised r) /\ t_user z = CIdle.
Proof.
  intros D del d ls y R HN HC HU. destruct (close_returns D del d ls y R HN HC HU) as (n & z & r & Hn & H).
  exists n, z, r. split; auto. unfold left in Hn. destruct (t_pc y); lia.
Qed.
Print Assumptions C21_close_returns.

(** The manager's deletion (DEL l.238-301, as modelled in [Manager_Model]). *)
Definition real_delete (mode : del_mode) (n : nat) (s : Z) (d : fs) : fs * option err :=
  let '(ops, e) := delete_ops mode s d in (exec ops d, e).

Lemma real_delete_steps : forall mode ss n d,
  delete_in_turn fs (real_delete mode) n ss d =
  (exec (fst (delete_steps_ops mode ss d)) d, snd (delete_steps_ops mode ss d)).
Proof.
  induction ss as [|s ss IH]; intros n d; simpl; auto. unfold real_delete at 1.
  destruct (delete_ops mode s d) as [ops [e|]]; auto. rewrite IH.
  destruct (delete_steps_ops mode ss (exec ops d)) as [ops' e']. simpl. rewrite exec_app. auto.
Qed.

(** With it: when close returns normally, exactly the requested steps are gone. *)
Theorem C21_requested_gone : forall mode d ls y l z u, wf_fs d ->
  t_run (real_delete mode) (t_init d) ls y ->
  (forall s, In s (requested ls) -> 0 <= s) -> closes ls = 1%nat ->
  (forall s, In s (requested ls) -> ~ In s (tmps d)) ->
  t_step fs (real_delete mode) l y = Some (z, Some (Ok u)) ->
  forall t c, In (t, c) (committed (t_dir z)) <-> In (t, c) (committed d) /\ ~ In t (requested ls).
Proof.
  intros mode d ls y l z u W R HN HC HT HS t c.
  pose proof (close_sequential _ _ _ _ _ _ _ _ R HN HC HS) as E. rewrite real_delete_steps in E. simpl in E.
  destruct (delete_steps_ops mode (requested ls) d) as [ops e] eqn:ED. simpl in E. injection E as E1 E2. subst e. rewrite <- E1.
  clear R HS HC E1 z y l HN. revert d W ops HT ED. induction (requested ls) as [|s ss IH]; intros d W ops HT ED; simpl in ED.
  - injection ED as <-. simpl. tauto.
  - destruct (delete_ops mode s d) as [ops1 [e1|]] eqn:E1; [discriminate|].
    destruct (delete_steps_ops mode ss (exec ops1 d)) as [ops2 e2] eqn:E2. injection ED as <- ->.
    assert (HS : ~ In s (tmps d)) by (apply HT; simpl; auto).
    assert (EFF : committed (exec ops1 d) = dremove s (committed d) /\ tmps (exec ops1 d) = tmps d).
    { unfold delete_ops in E1. rewrite (proj2 (existsb_notIn s (tmps d)) HS) in E1.
      destruct (dget s (committed d)) eqn:EG.
      - destruct mode; try (destruct (existsb _ _)); try discriminate; injection E1 as <-; simpl; auto.
        rewrite dremove_damage. auto.
      - injection E1 as <-. simpl. rewrite dremove_notin; auto. apply dget_None. auto. }
    destruct EFF as [C1 C2]. rewrite exec_app. rewrite (IH (exec ops1 d)); auto.
    + rewrite C1, dremove_In. simpl. intuition.
    + eapply delete_ops_wf; eauto.
    + rewrite C2. intros. apply HT. simpl. auto.
Qed.
Print Assumptions C21_requested_gone.

(** Example: steps 4 and 7 are requested, 7 while 4 is being deleted. *)
Definition dir3 : fs := mkFs [(4, mkCkpt 1 1 None true); (7, mkCkpt 2 2 None true); (9, mkCkpt 3 3 None true)] [] [].
Definition hist3 : list tlabel :=
  [TLDelete 4; TLThread; TLDelete 7; TLClose; TLThread; TLUser; TLThread; TLThread; TLThread; TLUser].

Fixpoint t_play {D} (del : nat -> Z -> D -> D * option err) (ls : list tlabel) (x : tst D)
  : option (tst D * list (result unit)) :=
  match ls with
  | [] => Some (x, [])
  | l :: ls' =>
      match t_step D del l x with
      | None => None
      | Some (y, r) =>
          match t_play del ls' y with
          | None => None
          | Some (z, rs) => Some (z, match r with Some r => r :: rs | None => rs end)
          end
      end
  end.

Lemma t_play_run : forall {D} (del : nat -> Z -> D -> D * option err) x ls0 y ls z rs, t_run del x ls0 y ->
  t_play del ls y = Some (z, rs) -> t_run del x (ls0 ++ ls) z.
Proof.
  intros D del x ls0 y ls. revert ls0 y. induction ls as [|l ls IH]; intros ls0 y z rs R P; simpl in P.
  - injection P as <- _. rewrite app_nil_r. auto.
  - destruct (t_step D del l y) as [[y' r]|] eqn:E; [|discriminate].
    destruct (t_play del ls y') as [[z' rs']|] eqn:P'; [|discriminate]. injection P as <- _.
    replace (ls0 ++ l :: ls) with ((ls0 ++ [l]) ++ ls) by (rewrite <- app_assoc; auto).
    eapply IH; eauto. eapply TR_snoc; eauto.
Qed.

Example C21_ex : exists y z, t_run (real_delete Permanent) (t_init dir3) hist3 y /\ closes hist3 = 1%nat /\
  requested hist3 = [4; 7] /\ t_step fs (real_delete Permanent) TLUser y = Some (z, Some (Ok tt)) /\
  committed_steps (t_dir z) = [9] /\ wf_fs dir3.
Proof.
  eexists. eexists. split; [|split; [reflexivity|split; [reflexivity|]]].
  - eapply (t_play_run (real_delete Permanent) _ [] _ hist3); [constructor|vm_compute; reflexivity].
  - split; [vm_compute; reflexivity|]. split; [vm_compute; reflexivity|].
    unfold wf_fs, committed_steps. simpl. split; [|split]; [repeat constructor; simpl; intuition lia|intros; intuition lia|intros s []].
Qed.

(** A join that is still waiting, and a deletion that raises: the second of three
    fails, close raises, the third is not attempted. *)
Definition fails_on_7 (n : nat) (s : Z) (l : list Z) : list Z * option err :=
  if s =? 7 then (l, Some OtherError) else (remove Z.eq_dec s l, None).

Example C21_failure_ex :
  (exists y, t_run fails_on_7 (t_init [4; 7; 9]) [TLDelete 4; TLDelete 7; TLDelete 9; TLClose; TLUser] y /\ t_user y = CJoin) /\
  option_map (fun p => (t_dir (fst p), snd p))
   (t_play fails_on_7 ([TLDelete 4; TLDelete 7; TLDelete 9; TLClose; TLUser] ++ repeat TLThread 4 ++ [TLUser; TLUser]) (t_init [4; 7; 9]))
  = Some ([7; 9], [Err OtherError]).
Proof.
  split; [|vm_compute; reflexivity]. eexists. split; [|]. 
  - eapply (t_play_run fails_on_7 _ [] _ [TLDelete 4; TLDelete 7; TLDelete 9; TLClose; TLUser]); [constructor|vm_compute; reflexivity].
  - vm_compute. reflexivity.
Qed.

(** Finding: a negative step is taken for the end marker.  close returns normally,
    the steps behind it are never deleted. *)
Theorem C21_negative_step_refuted : exists ls z,
  requested ls = [4; -5; 7] /\ t_play (real_delete Permanent) ls (t_init dir3) = Some (z, [Ok tt]) /\
  committed_steps (t_dir z) = [7; 9].
Proof.
  exists [TLDelete 4; TLDelete (-5); TLDelete 7; TLThread; TLThread; TLThread; TLClose; TLUser]. eexists.
  split; [reflexivity|]. split; vm_compute; reflexivity.
Qed.
Print Assumptions C21_negative_step_refuted.

(** Finding: a request after close is accepted and never carried out; the next
    close returns normally. *)
Theorem C21_after_close_refuted : exists ls z,
  requested ls = [4; 7] /\ t_play (real_delete Permanent) ls (t_init dir3) = Some (z, [Ok tt; Ok tt]) /\
  committed_steps (t_dir z) = [7; 9].
Proof.
  exists [TLDelete 4; TLClose; TLUser; TLThread; TLThread; TLThread; TLUser; TLUser; TLDelete 7; TLClose; TLUser]. eexists.
  split; [reflexivity|]. split; vm_compute; reflexivity.
Qed.
Print Assumptions C21_after_close_refuted.

(** * C48 *)

(** When the scheduler returns, the paths unlinked are exactly those of the files
    and symbolic links below the directory; links are not followed.  Any number of
    workers, any interleaving of scan thread, scheduler and workers. *)
Theorem C48_everything_unlinked : forall k root e x, is_dir e = true -> p_run k (p_init root e) x -> p_sched x = SEnd ->
  forall p, In p (p_unlinked x) <-> exists rel e', p = root ++ rel /\ at_path e rel e' /\ is_dir e' = false.
Proof. exact parallel_complete. Qed.
Print Assumptions C48_everything_unlinked.

(** Each once. *)
Theorem C48_once : forall k root e x rel, is_dir e = true -> p_run k (p_init root e) x -> p_sched x = SEnd ->
  count_occ (list_eq_dec string_dec) (p_unlinked x) (root ++ rel) = occurrences e rel.
Proof. exact parallel_once. Qed.
Print Assumptions C48_once.

(** And at no moment has anything else been touched. *)
Theorem C48_nothing_else : forall k root e x, is_dir e = true -> p_run k (p_init root e) x ->
  forall p, In p (p_unlinked x) -> exists rel e', p = root ++ rel /\ at_path e rel e' /\ is_dir e' = false.
Proof. exact parallel_inside. Qed.
Print Assumptions C48_nothing_else.

(** Until it returns some thread can always go on. *)
Theorem C48_not_stuck : forall k root e x, (1 <= k)%nat -> p_run k (p_init root e) x -> p_sched x <> SEnd ->
  exists l y, p_step k l x = Some y.
Proof. exact parallel_not_stuck. Qed.
Print Assumptions C48_not_stuck.

Local Open Scope string_scope.
Definition tree3 : entry :=
  EDir [("a", EFile); ("d", EDir [("b", EFile); ("l", ELink); ("e", EDir [])]); ("m", ELink)].

Fixpoint p_play (k : nat) (ls : list plabel) (x : pst) : option pst :=
  match ls with
  | [] => Some x
  | l :: ls' => match p_step k l x with Some y => p_play k ls' y | None => None end
  end.

Lemma p_play_run : forall k ls x y z, p_run k x y -> p_play k ls y = Some z -> p_run k x z.
Proof.
  induction ls as [|l ls IH]; intros x y z R P; simpl in P; [congruence|].
  destruct (p_step k l y) as [y'|] eqn:E; [|discriminate]. apply (IH x y' z); auto. eapply PR_step; eauto.
Qed.

Definition sched3 : list plabel :=
  [PScan; PSched; PStart; PScan; PWork 0; PSched; PStart; PWork 1; PWork 1; PScan; PScan; PSched;
   PWork 0; PWork 0; PWork 0; PWork 0; PWork 0; PWork 0; PWork 0; PStart; PWork 0; PWork 0; PWork 0;
   PSched; PSched; PSched; PSched; PSched].

Example C48_ex : exists x, p_run 2 (p_init ["r"] tree3) x /\ p_sched x = SEnd /\ is_dir tree3 = true /\
  p_unlinked x = [["r"; "d"; "b"]; ["r"; "a"]; ["r"; "m"]; ["r"; "d"; "l"]].
Proof.
  eexists. split; [eapply (p_play_run 2 sched3); [constructor|vm_compute; reflexivity]|].
  split; [vm_compute; reflexivity|]. split; vm_compute; reflexivity.
Qed.

(** Never more than max_workers deletions at one time. *)
Theorem C48_width : forall k root e x, p_run k (p_init root e) x -> (List.length (p_workers x) <= k)%nat.
Proof. exact parallel_width. Qed.
Print Assumptions C48_width.

(** The shared counter is at every moment the number of workers that are between
    its increment and its decrement; it never becomes negative. *)
Theorem C48_counter : forall k root e x, p_run k (p_init root e) x ->
  p_active x = Z.of_nat (List.length (filter (fun w => match w with WStart _ => false | _ => true end) (p_workers x))).
Proof. exact parallel_counter. Qed.
Print Assumptions C48_counter.

Example C48_counter_ex : exists x, p_run 2 (p_init ["r"] tree3) x /\ List.length (p_workers x) = 2%nat /\ p_active x = 1%Z.
Proof.
  eexists. split; [eapply (p_play_run 2 [PScan; PScan; PSched; PSched; PStart; PStart; PWork 1]); [constructor|vm_compute; reflexivity]|].
  split; vm_compute; reflexivity.
Qed.
