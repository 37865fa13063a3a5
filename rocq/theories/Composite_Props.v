(** C64: every item of a checkpoint is saved, finalized and restored by one handler. *)
From Coq Require Import List Bool Arith NArith String Permutation Sorted.
From Verif Require Import Base Tree_Model Composite_Model Composite_Spec Composite_Proofs.
Import ListNotations.
Open Scope string_scope.

(** ** A program for the examples *)

Definition E0 : env := mkE N.even (fun n => negb (N.eqb n 9)) (fun n => negb (N.eqb n 9))
  (fun n => match n with 1%N => Some "state" | 2%N => Some "data" | 4%N => Some "other" | _ => Some "more" end)
  (fun n => match n with 1%N => "StateHandler" | 2%N => "DataHandler" | 4%N => "OtherHandler" | _ => "MoreHandler" end).
Definition regs : list (acls * hcls * bool * bool) :=
  (wrappers ++ [(AC 1, HC 1, true, false); (AC 2, HC 1, false, true); (AC 3, HC 2, true, true)])%list.
Definition G0 : globals := match register_all E0 regs (mkG [] [] []) with Ok g => g | Err _ => mkG [] [] [] end.
Definition nothing : st := mkSt [] None None [] 0 [] [] [].
Definition never : nat -> option err := fun _ => None.
Definition items : dict string (option arg) := [("params", Some (mkA (AC 1) 7)); ("data", Some (mkA (AC 3) 8))].
Definition made : st := fst (construct E0 G0 [] [] None nothing).
Definition once (n : nat) : nat -> option err := fun k => if Nat.eqb k n then Some OtherError else None.

(** ** One handler for an item *)

(** Whatever is called in whatever order, and whichever steps fail: of the handlers that save,
    finalize, restore or describe an item there is only one. *)
Theorem C64_one_handler : forall E G cf fault names hs r s s0 ops,
  construct E G names hs r s = (s0, Ok tt) -> NoDup (map fst hs) -> log s = [] ->
  match r with Some r => simple r | None => True end ->
  one_handler (log (run E G cf fault ops s0)).
Proof. intros. eapply inv_one_handler. apply run_inv. eapply construct_inv; eauto. Qed.
Print Assumptions C64_one_handler.

Example one_handler_example :
  let s := run E0 G0 false (once 4) [OSave 1 items; OFinalize; OSave 2 items; OFinalize; ORestore 2 None] made in
  flat_map (fun e => match done_by e with Some x => [x] | None => [] end) (log s)
  = [("params", mkH 1 (HC 1)); ("data", mkH 0 (HC 2)); ("data", mkH 0 (HC 2));
     ("params", mkH 1 (HC 1)); ("data", mkH 0 (HC 2)); ("data", mkH 0 (HC 2)); ("params", mkH 1 (HC 1));
     ("data", mkH 0 (HC 2)); ("params", mkH 1 (HC 1))].
Proof. vm_compute. reflexivity. Qed.

(** Args of a class that is registered for an item are accepted after whatever is called, by the
    same handler. *)
Theorem C64_stable : forall E G cf fault s i a h ops,
  dget key_eqb (Some i, a_cls a) (reg s) = Some h ->
  let s' := run E G cf fault ops s in get_or_set_handler E G i (Some a) s' = (s', Ok h).
Proof. intros E G cf fault s i a h ops D s'. rewrite get_eq. rewrite (ext_get s s' _ h (run_ext E G cf fault ops s) D). reflexivity. Qed.
Print Assumptions C64_stable.

Example stable_example : dget key_eqb (Some "params", AC 2) (reg (run E0 G0 false never [OSave 1 items] made)) = Some (mkH 1 (HC 1)).
Proof. vm_compute. reflexivity. Qed.

(** ** Which args are accepted *)

(** A handler made without arguments: for an item that has a handler exactly the args are accepted
    that are registered, first, for saving or for restoring with the class of that handler. *)
Theorem C64_routing : forall E G cf fault s s0 ops i h a,
  construct E G [] [] None s = (s0, Ok tt) -> let s1 := run E G cf fault ops s0 in
  has_handler s1 i h -> exists sa ra, get_registered_args_cls G (h_cls h) = Ok (sa, ra) /\
  forall k, snd (get_or_set_handler E G i (Some a) s1) = Ok k <-> k = h /\ (a_cls a = sa \/ a_cls a = ra).
Proof. intros E G cf fault s s0 ops i h a C s1 H. apply route_known; auto. apply run_dinv. eapply construct_dinv; eauto. Qed.
Print Assumptions C64_routing.

Example routing_example :
  let s := run E0 G0 false never [OSave 1 items] made in
  has_handler s "params" (mkH 1 (HC 1)) /\
  map (fun c => snd (get_or_set_handler E0 G0 "params" (Some (mkA c 0)) s)) [AC 1; AC 2; AC 3; AC 4]
  = [Ok (mkH 1 (HC 1)); Ok (mkH 1 (HC 1)); Err ValueError; Err ValueError].
Proof. split; [exists (AC 1); vm_compute; auto|vm_compute; reflexivity]. Qed.

(** An item not met before gets a new handler of the class that is registered for the args, if
    that has args for saving and for restoring. *)
Theorem C64_new_item : forall E G cf fault s s0 ops i a l,
  construct E G [] [] None s = (s0, Ok tt) -> let s1 := run E G cf fault ops s0 in
  deferred s1 = Some l -> ~ In i l -> forall k,
  snd (get_or_set_handler E G i (Some a) s1) = Ok k <->
  exists c, get_registered_handler_cls G (a_cls a) = Ok c /\ makes_handler E c = true /\ has_registered_args G c = true /\ k = mkH (next s1) c.
Proof. intros E G cf fault s s0 ops i a l C s1 D N. apply (route_new E G s1 i a l); auto. apply run_dinv. eapply construct_dinv; eauto. Qed.
Print Assumptions C64_new_item.

Example new_item_example :
  let s := run E0 G0 false never [OSave 1 items] made in
  deferred s = Some ["params"; "data"] /\ snd (get_or_set_handler E0 G0 "opt" (Some (mkA (AC 2) 0)) s) = Ok (mkH 2 (HC 1)).
Proof. vm_compute. auto. Qed.

(** ** Saving and finalization *)

(** After a save and its finalization every item is in its place, written by the handler of the
    item from its args, finalized once by that handler and committed; no temporary directory is
    left; everything else is as it was. *)
Theorem C64_committed : forall E G cf fault names hs r s s0 ops d args s2 s3,
  construct E G names hs r s = (s0, Ok tt) -> NoDup (map fst hs) -> log s = [] ->
  match r with Some r => simple r | None => True end ->
  let s1 := run E G cf fault ops s0 in
  async_save E G cf fault d args s1 = (s2, Ok tt) -> savable cf s1 d (map fst args) -> finalize cf fault s2 = (s3, Ok tt) ->
  tmps s3 = [] /\
  (forall i a, In (i, a) args -> exists h, has_handler s3 i h /\ holds s3 d i (mkC (Some (h, a)) [h] true) /\ (cf = false -> absent s3 d (tmp_name cf i))) /\
  (forall d' i, (forall j, In j (map fst args) -> (d', i) <> (d, j) /\ (d', i) <> (d, tmp_name cf j)) ->
     dget path_eqb (d', i) (disk s3) = dget path_eqb (d', i) (disk s1)).
Proof.
  intros E G cf fault names hs r s s0 ops d args s2 s3 C N L R s1 A Sv F.
  destruct (committed E G cf fault d args s1 s2 s3 (run_inv E G cf fault ops s0 (construct_inv E G _ _ _ _ _ C N L R)) A Sv F) as (_ & T & K & P).
  split; auto. split; auto. intros i a J. destruct (K i a J) as (h & _ & Hh & Z). exists h. auto.
Qed.
Print Assumptions C64_committed.

Example committed_example :
  savable false made 1 (map fst items) /\ snd (async_save E0 G0 false never 1 items made) = Ok tt /\
  snd (finalize false never (fst (async_save E0 G0 false never 1 items made))) = Ok tt.
Proof.
  split; [split; [constructor; [intros [H|[]]; discriminate H|constructor; [intros []|constructor]]|]|vm_compute; auto].
  intros _ i J. split; [reflexivity|]. intros j J' H. destruct J as [<-|[<-|[]]], J' as [<-|[<-|[]]]; discriminate H.
Qed.

(** If no step fails a save of some items can be finalized. *)
Theorem C64_finalizes : forall E G cf fault names hs r s s0 ops d args s2,
  construct E G names hs r s = (s0, Ok tt) -> NoDup (map fst hs) -> log s = [] ->
  match r with Some r => simple r | None => True end ->
  let s1 := run E G cf fault ops s0 in
  async_save E G cf fault d args s1 = (s2, Ok tt) -> savable cf s1 d (map fst args) -> args <> [] -> (forall k, fault k = None) ->
  exists s3, finalize cf fault s2 = (s3, Ok tt).
Proof. intros. eapply finalizes; eauto. apply run_inv. eapply construct_inv; eauto. Qed.
Print Assumptions C64_finalizes.

Example finalizes_example : items <> [] /\ forall k, never k = None.
Proof. split; [discriminate|reflexivity]. Qed.

(** If only finitely many steps fail, calling [finalize] often enough commits every item, and
    only the handler that saved it ever finalizes it. *)
Theorem C64_finalized_again : forall E G cf fault names hs r s s0 ops d args s2 bound n,
  construct E G names hs r s = (s0, Ok tt) -> NoDup (map fst hs) -> log s = [] ->
  match r with Some r => simple r | None => True end ->
  let s1 := run E G cf fault ops s0 in
  async_save E G cf fault d args s1 = (s2, Ok tt) -> savable cf s1 d (map fst args) ->
  (forall k, bound <= k -> fault k = None) -> bound < n ->
  let s3 := again n (finalize cf fault) s2 in
  tmps s3 = [] /\ (forall i a, In (i, a) args -> exists h m, has_handler s3 i h /\ holds s3 d i (mkC (Some (h, a)) (repeat h (S m)) true)) /\
  (forall d' i, (forall j, In j (map fst args) -> (d', i) <> (d, j) /\ (d', i) <> (d, tmp_name cf j)) ->
     dget path_eqb (d', i) (disk s3) = dget path_eqb (d', i) (disk s1)).
Proof. intros. eapply finalized_again; eauto. apply run_inv. eapply construct_inv; eauto. Qed.
Print Assumptions C64_finalized_again.

Example finalized_again_example :
  let s := fst (async_save E0 G0 false (once 7) 1 items made) in
  (forall k, 8 <= k -> once 7 k = None) /\ snd (finalize false (once 7) s) = Err OtherError /\
  disk (again 9 (finalize false (once 7)) s)
  = [((1%N, "data"), mkC (Some (mkH 0 (HC 2), Some (mkA (AC 3) 8))) [mkH 0 (HC 2)] true);
     ((1%N, "params"), mkC (Some (mkH 1 (HC 1), Some (mkA (AC 1) 7))) [mkH 1 (HC 1); mkH 1 (HC 1)] true)].
Proof.
  split; [|vm_compute; auto]. intros k K. unfold once. destruct (Nat.eqb_spec k 7) as [->|_]; auto. exfalso. do 7 apply le_S_n in K. inversion K.
Qed.

(** ** Restoring *)

(** What is restored of an item later, whatever happened to other checkpoints in between, was
    written from the args of its save, and finalized, by the handler that restores it. *)
Theorem C64_round_trip : forall E G cf fault names hs r s s0 ops d args s2 s3 ops' args' s4 out,
  construct E G names hs r s = (s0, Ok tt) -> NoDup (map fst hs) -> log s = [] ->
  match r with Some r => simple r | None => True end ->
  let s1 := run E G cf fault ops s0 in
  async_save E G cf fault d args s1 = (s2, Ok tt) -> savable cf s1 d (map fst args) -> finalize cf fault s2 = (s3, Ok tt) ->
  Forall (elsewhere d) ops' -> args' <> [] ->
  restore E G cf fault d (Some args') (run E G cf fault ops' s3) = (s4, Ok out) ->
  Permutation (map fst out) (map fst args') /\ ordered (map fst out) /\
  forall i x a, In (i, x) out -> In (i, a) args -> dget String.eqb i args' = Some (r_arg x) /\ r_from x = mkC (Some (r_by x, a)) [r_by x] true.
Proof.
  intros E G cf fault names hs r s s0 ops d args s2 s3 ops' args' s4 out C N L R s1 A Sv F El Ne Re.
  destruct (round_trip E G cf fault d args s1 s2 s3 ops' args' s4 out (run_inv E G cf fault ops s0 (construct_inv E G _ _ _ _ _ C N L R)) A Sv F El Ne Re) as [M K].
  rewrite M. split; [apply sorted_perm|]. split; [apply sorted_sorted|auto].
Qed.
Print Assumptions C64_round_trip.

Example round_trip_example :
  let s := run E0 G0 false never [OSave 1 items; OFinalize; OSave 2 [("data", Some (mkA (AC 3) 9))]; OFinalize] made in
  snd (restore E0 G0 false never 1 (Some [("params", Some (mkA (AC 2) 5)); ("data", None)]) s)
  = Ok [("data", mkR (mkH 0 (HC 2)) None (mkC (Some (mkH 0 (HC 2), Some (mkA (AC 3) 8))) [mkH 0 (HC 2)] true));
        ("params", mkR (mkH 1 (HC 1)) (Some (mkA (AC 2) 5)) (mkC (Some (mkH 1 (HC 1), Some (mkA (AC 1) 7))) [mkH 1 (HC 1)] true))].
Proof. vm_compute. reflexivity. Qed.

(** With a handler made without arguments, and no step failing, restoring succeeds with the args
    for saving or restoring of the class of each item's handler, or none. *)
Theorem C64_restores : forall E G cf fault s s0 ops d args s2 s3 ops' args',
  construct E G [] [] None s = (s0, Ok tt) -> log s = [] ->
  let s1 := run E G cf fault ops s0 in
  async_save E G cf fault d args s1 = (s2, Ok tt) -> savable cf s1 d (map fst args) -> finalize cf fault s2 = (s3, Ok tt) ->
  Forall (elsewhere d) ops' -> (forall k, fault k = None) ->
  args' <> [] -> NoDup (map fst args') -> incl (map fst args') (map fst args) -> (forall i a, In (i, a) args' -> fits G s3 i a) ->
  exists s4 out, restore E G cf fault d (Some args') (run E G cf fault ops' s3) = (s4, Ok out).
Proof.
  intros E G cf fault s s0 ops d args s2 s3 ops' args' C L s1 A Sv F El NF Ne N Inc Ft.
  eapply (restores E G cf fault d args s1 s2 s3); eauto.
  - apply run_inv. eapply construct_inv; eauto; [constructor|exact I].
  - apply run_dinv. eapply construct_dinv; eauto.
Qed.
Print Assumptions C64_restores.

Example restores_example :
  let s := run E0 G0 false never [OSave 1 items; OFinalize] made in
  fits G0 s "params" (Some (mkA (AC 2) 5)) /\ fits G0 s "data" None.
Proof.
  split.
  - exists (mkH 1 (HC 1)). split; [exists (AC 1); vm_compute; auto|]. exists (AC 1), (AC 2). vm_compute. auto.
  - exists (mkH 0 (HC 2)). split; [exists (AC 3); vm_compute; auto|exact I].
Qed.

(** The order in which the items are given makes no difference. *)
Theorem C64_order : forall E G cf fault d args args' s, Permutation args args' -> NoDup (map fst args) ->
  async_save E G cf fault d args s = async_save E G cf fault d args' s /\
  restore E G cf fault d (Some args) s = restore E G cf fault d (Some args') s.
Proof. intros. split; [apply perm_save|apply perm_restore]; auto. Qed.
Print Assumptions C64_order.

Example order_example :
  log (fst (async_save E0 G0 false (once 1) 1 items made)) = [ECreate 1 "data"; ECreate 1 "params"] /\
  log (fst (async_save E0 G0 false (once 1) 1 (rev items) made)) = [ECreate 1 "data"; ECreate 1 "params"].
Proof. vm_compute. auto. Qed.

(** Another handler, made without arguments, that restores without args: it finds the classes of
    the handlers in the metadata of the step and restores exactly the items that were saved. *)
Theorem C64_another_handler : forall E G cf fault l s s0 ops d args s2,
  register_all E l (mkG [] [] []) = Ok G -> well_registered E l ->
  (forall a c sv rs, In (a, c, sv, rs) l -> typestr E c <> None) -> (forall a c sv rs, In (a, c, sv, rs) l -> rs = true -> makes_args E a = true) ->
  construct E G [] [] None s = (s0, Ok tt) -> log s = [] -> (forall k, fault k = None) ->
  let s1 := run E G cf fault ops s0 in
  args <> [] -> NoDup (map fst args) -> (forall i, absent s1 d i) -> saved_metadata d s1 = SNone ->
  (cf = false -> forall i j, In i (map fst args) -> In j (map fst args) -> i <> tmp_name cf j) ->
  async_save E G cf fault d args s1 = (s2, Ok tt) ->
  exists s3 s4 s5 s6 out, save_step_metadata E fault d s2 = (s3, Ok tt) /\ finalize cf fault s3 = (s4, Ok tt) /\
  construct E G [] [] None s4 = (s5, Ok tt) /\ restore E G cf fault d None s5 = (s6, Ok out) /\
  (forall i, In i (map fst out) <-> In i (map fst args)) /\
  (forall i x a, In (i, x) out -> In (i, a) args -> exists h, has_handler s2 i h /\ h_cls (r_by x) = h_cls h /\ r_from x = mkC (Some (h, a)) [h] true).
Proof.
  intros E G cf fault l s s0 ops d args s2 Rg Wr Ty Mk C L NF s1 Ne N Ab Sn Ap A. eapply (another E G cf fault l d args s1 s2); eauto.
  - apply run_inv. eapply construct_inv; eauto; [constructor|exact I].
  - apply run_dinv. eapply construct_dinv; eauto.
Qed.
Print Assumptions C64_another_handler.

Example another_handler_example :
  register_all E0 regs (mkG [] [] []) = Ok G0 /\ well_registered E0 regs /\
  let s := fst (construct E0 G0 [] [] None (run E0 G0 false never [OSave 1 items; OStepMetadata 1; OFinalize] made)) in
  snd (restore E0 G0 false never 1 None s)
  = Ok [("data", mkR (mkH 2 (HC 2)) (Some (mkA (AC 3) 0)) (mkC (Some (mkH 0 (HC 2), Some (mkA (AC 3) 8))) [mkH 0 (HC 2)] true));
        ("params", mkR (mkH 3 (HC 1)) (Some (mkA (AC 2) 0)) (mkC (Some (mkH 1 (HC 1), Some (mkA (AC 1) 7))) [mkH 1 (HC 1)] true))].
Proof.
  split; [vm_compute; reflexivity|]. split; [|vm_compute; reflexivity]. split; [|split].
  - vm_compute. repeat (constructor; [intros H; repeat (destruct H as [H|H]; [discriminate H|]); exact H|]). constructor.
  - intros a c sv rs H. vm_compute in H. repeat (destruct H as [H|H]; [injection H as <- <- <- <-; reflexivity|]). destruct H.
  - intros a c sv rs a' c' sv' rs' H H'. vm_compute in H, H'.
    repeat (destruct H as [H|H]; [injection H as <- <- <- <-; repeat (destruct H' as [H'|H']; [injection H' as <- <- <- <-; vm_compute; congruence|]); destruct H'|]). destruct H.
Qed.

(** ** What does not hold *)

(** Two handlers registered for one item, for different classes of args: what the second saved is
    finalized by the first, because [finalize] takes the first handler of an item. *)
Theorem C64_finalized_by_saver_refuted : exists E G r d args s0 s1 s2 i h k,
  construct E G [] [] (Some r) nothing = (s0, Ok tt) /\ async_save E G false never d args s0 = (s1, Ok tt) /\ finalize false never s1 = (s2, Ok tt) /\
  h <> k /\ exists a, holds s2 d i (mkC (Some (h, a)) [k] true).
Proof.
  exists E0, G0, [((Some "params", AC 1), mkH 1 (HC 1)); ((Some "params", AC 3), mkH 2 (HC 2))], 1%N, [("params", Some (mkA (AC 3) 7))].
  do 3 eexists. exists "params", (mkH 2 (HC 2)), (mkH 1 (HC 1)).
  split; [vm_compute; reflexivity|]. split; [vm_compute; reflexivity|]. split; [vm_compute; reflexivity|]. split; [discriminate|]. eexists. vm_compute. reflexivity.
Qed.
Print Assumptions C64_finalized_by_saver_refuted.

(** With such a registry [restore] without args takes the last handler of an item, although the
    first one saved it and finalized it. *)
Theorem C64_restored_by_saver_refuted : exists E G r d args s0 s1 s2 s3 out i h k a b,
  construct E G [] [] (Some r) nothing = (s0, Ok tt) /\ async_save E G false never d args s0 = (s1, Ok tt) /\ finalize false never s1 = (s2, Ok tt) /\
  restore E G false never d None s2 = (s3, Ok out) /\ h <> k /\ In (i, mkR k b (mkC (Some (h, a)) [h] true)) out.
Proof.
  exists E0, G0, [((Some "params", AC 1), mkH 1 (HC 1)); ((Some "params", AC 3), mkH 2 (HC 2))], 1%N, [("params", Some (mkA (AC 1) 7))].
  do 5 eexists. exists "params", (mkH 1 (HC 1)), (mkH 2 (HC 2)). do 2 eexists.
  split; [vm_compute; reflexivity|]. split; [vm_compute; reflexivity|]. split; [vm_compute; reflexivity|]. split; [vm_compute; reflexivity|]. split; [discriminate|]. left. reflexivity.
Qed.
Print Assumptions C64_restored_by_saver_refuted.

(** A handler registered for all items: what it saved cannot be restored with the args for
    restoring that are registered for its class; the first attempt fails because the class of args
    for saving is already registered for the item, later ones because the item has been met. *)
Theorem C64_general_handler_refuted : exists E G r d args s0 s1 s2 h a b,
  construct E G [] [] (Some r) nothing = (s0, Ok tt) /\ r = [((None, a), h)] /\ get_registered_args_cls G (h_cls h) = Ok (a, a_cls b) /\
  async_save E G false never d args s0 = (s1, Ok tt) /\ finalize false never s1 = (s2, Ok tt) /\
  exists i s3, In i (map fst args) /\ restore E G false never d (Some [(i, Some b)]) s2 = (s3, Err ValueError) /\ snd (restore E G false never d (Some [(i, Some b)]) s3) = Err ValueError.
Proof.
  exists E0, G0, [((None, AC 1), mkH 1 (HC 1))], 1%N, [("params", Some (mkA (AC 1) 7))]. do 3 eexists. exists (mkH 1 (HC 1)), (AC 1), (mkA (AC 2) 0).
  split; [vm_compute; reflexivity|]. split; [reflexivity|]. split; [vm_compute; reflexivity|]. split; [vm_compute; reflexivity|]. split; [vm_compute; reflexivity|].
  exists "params". eexists. split; [left; reflexivity|]. split; [vm_compute; reflexivity|]. vm_compute. reflexivity.
Qed.
Print Assumptions C64_general_handler_refuted.

(** A class of args registered second for saving with a class of handlers: the first save of an
    item with it succeeds, the next with the very same args is refused. *)
Theorem C64_same_args_again_refuted : exists E l G d args s0 s1 s2,
  register_all E l (mkG [] [] []) = Ok G /\ well_registered E l /\ construct E G [] [] None nothing = (s0, Ok tt) /\
  async_save E G false never d args s0 = (s1, Ok tt) /\ finalize false never s1 = (s2, Ok tt) /\ snd (async_save E G false never (d + 1) args s2) = Err ValueError.
Proof.
  exists E0, [(AC 1, HC 1, true, true); (AC 3, HC 1, true, false)]. do 1 eexists. exists 1%N, [("params", Some (mkA (AC 3) 7))]. do 3 eexists.
  split; [vm_compute; reflexivity|]. split; [|split; [vm_compute; reflexivity|split; [vm_compute; reflexivity|split; [vm_compute; reflexivity|vm_compute; reflexivity]]]].
  split; [|split].
  - vm_compute. repeat (constructor; [intros H; repeat (destruct H as [H|H]; [discriminate H|]); exact H|]). constructor.
  - intros a c sv rs H. vm_compute in H. repeat (destruct H as [H|H]; [injection H as <- <- <- <-; reflexivity|]). destruct H.
  - intros a c sv rs a' c' sv' rs' H H'. vm_compute in H, H'.
    repeat (destruct H as [H|H]; [injection H as <- <- <- <-; repeat (destruct H' as [H'|H']; [injection H' as <- <- <- <-; vm_compute; congruence|]); destruct H'|]). destruct H.
Qed.
Print Assumptions C64_same_args_again_refuted.

(** A save refused because the class of the handler has no args for restoring: the item is taken
    as met, so that saving it with proper args is refused from then on. *)
Theorem C64_refused_without_effect_refuted : exists E l G d bad good s0 s1,
  register_all E l (mkG [] [] []) = Ok G /\ construct E G [] [] None nothing = (s0, Ok tt) /\
  async_save E G false never d bad s0 = (s1, Err ValueError) /\ map fst bad = map fst good /\
  snd (async_save E G false never d good s0) = Ok tt /\ snd (async_save E G false never d good s1) = Err ValueError.
Proof.
  exists E0, (regs ++ [(AC 4, HC 4, true, false)])%list. do 1 eexists. exists 1%N, [("params", Some (mkA (AC 4) 7))], [("params", Some (mkA (AC 1) 7))]. do 2 eexists.
  split; [vm_compute; reflexivity|]. split; [vm_compute; reflexivity|]. split; [vm_compute; reflexivity|]. split; [reflexivity|]. split; vm_compute; reflexivity.
Qed.
Print Assumptions C64_refused_without_effect_refuted.

(** An asynchronous handler without registered args, given for an item: it is wrapped and
    registered for the args of the synchronous wrapper, while [restore] without args makes those of
    the asynchronous one, for which a wrapper is then made without its handler: TypeError. *)
Theorem C64_legacy_restored_refuted : exists E l G h d args s0 s1 s2,
  register_all E l (mkG [] [] []) = Ok G /\ construct E G [] [("params", Some h)] None nothing = (s0, Ok tt) /\
  async_save E G false never d args s0 = (s1, Ok tt) /\ finalize false never s1 = (s2, Ok tt) /\ snd (restore E G false never d None s2) = Err TypeError.
Proof.
  exists E0, regs. do 1 eexists. exists (mkH 8 (HC 6)), 1%N, [("params", Some (mkA WrapperArgs 7))]. do 3 eexists.
  split; [vm_compute; reflexivity|]. split; [vm_compute; reflexivity|]. split; [vm_compute; reflexivity|]. split; [vm_compute; reflexivity|]. vm_compute. reflexivity.
Qed.
Print Assumptions C64_legacy_restored_refuted.

(** [create_default_handler_registry] fails for a handler whose class has one class of args for
    saving and for restoring. *)
Theorem C64_default_registry_refuted : exists E l G i h,
  register_all E l (mkG [] [] []) = Ok G /\ has_registered_args G (h_cls h) = true /\ create_default G [(i, h)] [] = Err ValueError.
Proof. exists E0, regs. do 1 eexists. exists "data", (mkH 2 (HC 2)). split; [vm_compute; reflexivity|]. split; vm_compute; reflexivity. Qed.
Print Assumptions C64_default_registry_refuted.

(** Saving no item at all succeeds, but cannot be finalized. *)
Theorem C64_empty_save_refuted : exists E G d s0 s1,
  construct E G [] [] None nothing = (s0, Ok tt) /\ async_save E G false never d [] s0 = (s1, Ok tt) /\ snd (finalize false never s1) = Err ValueError.
Proof. exists E0, G0, 1%N. do 2 eexists. split; [vm_compute; reflexivity|]. split; vm_compute; reflexivity. Qed.
Print Assumptions C64_empty_save_refuted.
