(** C33: the signalling store and the signals kept in it. *)
From Coq Require Import List Bool Arith NArith String Ascii.
From Verif Require Import Base Signal_Model Signal_Spec Signal_Proofs.
Import ListNotations.
Local Open Scope string_scope.

(** Whatever the threads do, the operations with their results, in the order in
    which they end, are a history of a sequential map, and the store is that map at
    the end.  Missing: runs in which the store changes while a directory is being
    listed (refuted below). *)
Theorem C33_linearizable_partial : forall n es st, run n es st -> quiet (initial n) es -> legal empty (ended st) (view (store st)).
Proof. exact linearizable. Qed.
Print Assumptions C33_linearizable_partial.

(** In particular all runs that list no directory. *)
Theorem C33_linearizable_no_listing : forall n es st, run n es st -> (forall e, In e es -> ~ lists_directory e) ->
  legal empty (ended st) (view (store st)).
Proof. exact linearizable_no_listing. Qed.
Print Assumptions C33_linearizable_no_listing.

Example C33_linearizable_example :
  exists st, run 3 [Call 0 (OBlockingGet "d/x"); Call 1 (OSet "d" "0" false); Call 2 (OSet "d/x" "1" false); Wake 0;
                    Call 0 (OSet "d/x" "2" false); Call 1 (ODirGet "d/"); Fetch 1; Fetch 1; Call 2 (ODelete "d/"); Call 0 (OTryGet "d/x")] st /\
    ended st = [(OSet "d" "0" false, RUnit (Ok tt)); (OSet "d/x" "1" false, RUnit (Ok tt)); (OBlockingGet "d/x", RVal (Ok "1"));
                (OSet "d/x" "2" false, RUnit (Err KeyError)); (ODirGet "d/", RList (Ok [("d/x", "1")])); (ODelete "d/", RUnit (Ok tt)); (OTryGet "d/x", ROpt None)] /\
    store st = [("d", "0")].
Proof. eexists. vm_compute. repeat split; reflexivity. Qed.

(** A thread that waits for a key that is there has been notified: no wakeup is lost. *)
Theorem C33_no_lost_wakeup : forall n es st t k, run n es st -> nth_error (threads st) t = Some (Waiting k false) -> view (store st) k = None.
Proof. exact no_lost_wakeup. Qed.
Print Assumptions C33_no_lost_wakeup.

Example C33_no_lost_wakeup_example : exists st, run 2 [Call 0 (OBlockingGet "x"); Call 1 (OSet "y" "1" false); Wake 0] st /\
  nth_error (threads st) 0 = Some (Waiting "x" false).
Proof. eexists. vm_compute. split; reflexivity. Qed.

(** [key_value_dir_get] takes no lock.  If a key is deleted between collecting the
    keys (SC l.333-337) and reading its value (SC l.338) it raises KeyError, which it
    does in no state of the map. *)
Theorem C33_dir_get_error_refuted : exists n es st k, run n es st /\ In (ODirGet k, RList (Err KeyError)) (ended st) /\
  forall m m', ~ does m (ODirGet k) (RList (Err KeyError)) m'.
Proof.
  exists 2, [Call 0 (OSet "d/a" "1" false); Call 1 (ODirGet "d/"); Call 0 (ODelete "d/a"); Fetch 1]. eexists. exists "d/".
  split; [vm_compute; reflexivity|]. split; [simpl; auto|]. intros. apply dir_get_never_key_error.
Qed.
Print Assumptions C33_dir_get_error_refuted.

(** For the same reason a listing can show values that were never there together:
    the other operations of this run ended one before the other began, and at no
    place among them would the listing be right. *)
Theorem C33_dir_get_torn_refuted : exists n es st sets k l, run n es st /\ ended st = (sets ++ [(ODirGet k, RList (Ok l))])%list /\
  forall h1 h2 m, (h1 ++ h2)%list = sets -> ~ legal empty (h1 ++ (ODirGet k, RList (Ok l)) :: h2) m.
Proof.
  exists 2, [Call 0 (OSet "d/a" "1" false); Call 0 (OSet "d/b" "2" false); Call 1 (ODirGet "d/"); Fetch 1;
             Call 0 (OSet "d/a" "2" true); Call 0 (OSet "d/b" "3" true); Fetch 1; Fetch 1].
  eexists. exists torn_sets, "d/", [("d/a", "1"); ("d/b", "3")]. split; [vm_compute; reflexivity|]. split; [reflexivity|]. exact torn_illegal.
Qed.
Print Assumptions C33_dir_get_torn_refuted.

(** The function by itself, on a dictionary (whose keys are distinct). *)
Theorem C33_dir_get : forall d k, NoDup (map fst d) -> does (view d) (ODirGet k) (RList (key_value_dir_get k d)) (view d).
Proof. exact dir_get_does. Qed.
Print Assumptions C33_dir_get.

Example C33_dir_get_example :
  let d := [("d/b", "1"); ("d", "2"); ("da/b", "3"); ("d/c/e", "4")] in
  NoDup (map fst d) /\ key_value_dir_get "d/" d = Ok [("d/b", "1"); ("d/c/e", "4")] /\ key_value_dir_get "d" d = Err ValueError.
Proof. split; [|vm_compute; auto]. repeat constructor; simpl; intuition discriminate. Qed.

(** Removing the signals of one operation removes everything of that operation and
    nothing of another, for the ids that are handed out, and for all ids without a
    slash. *)
Theorem C33_remove : forall a b d s, NoDup (map fst d) -> a <> b ->
  view (remove_signals (id_string a) d) (signal_key s (id_string b)) = view d (signal_key s (id_string b)) /\
  view (remove_signals (id_string a) d) (signal_key s (id_string a)) = None.
Proof. exact remove_ids. Qed.
Print Assumptions C33_remove.

Theorem C33_remove_any_id : forall i j d s, NoDup (map fst d) -> no_slash i -> no_slash j -> i <> j ->
  view (remove_signals i d) (signal_key s j) = view d (signal_key s j).
Proof. exact remove_other. Qed.
Print Assumptions C33_remove_any_id.

Example C33_remove_example :
  let d := set_signals (id_string 12) [StepDirectory] (set_signals (id_string 1) [StepDirectory; ItemDirectory] []) in
  NoDup (map fst d) /\ map fst d = ["awaitable_signals_contract_1/step_directory_creation"; "awaitable_signals_contract_1/item_directory_creation"; "awaitable_signals_contract_12/step_directory_creation"] /\
  map fst (remove_signals (id_string 1) d) = ["awaitable_signals_contract_12/step_directory_creation"] /\
  map fst (remove_signals "x" (set_signals "x/y" [StepDirectory] [])) = [].
Proof. split; [|vm_compute; auto]. vm_compute. repeat constructor; simpl; intuition discriminate. Qed.

(** Signals that were set are found, those that were not are not, and setting those
    of one operation does not affect another. *)
Theorem C33_signals : forall i sigs d,
  (forall recv, (forall s, In s recv -> In s sigs \/ view d (signal_key s i) <> None) -> signals_there i recv (set_signals i sigs d) = true) /\
  (forall s, signals_there i [s] (set_signals i sigs d) = true -> view d (signal_key s i) = None -> In s sigs) /\
  (forall j s, no_slash i -> no_slash j -> i <> j -> view (set_signals i sigs d) (signal_key s j) = view d (signal_key s j)).
Proof. intros i sigs d. exact (conj (fun recv => waits_end i sigs recv d) (conj (waits_only i sigs d) (fun j s => waits_other i j sigs d s))). Qed.
Print Assumptions C33_signals.

Example C33_signals_example :
  signals_there "7" [ItemDirectory; StepDirectory] (set_signals "7" [StepDirectory; ItemDirectory] []) = true /\
  signals_there "7" [ItemDirectory] (set_signals "7" [StepDirectory] []) = false /\ no_slash "7".
Proof. vm_compute. repeat split; auto. intros [H|H]; [discriminate|auto]. Qed.

(** Adding to the contract of an operation appends to what was there, and leaves the
    contracts of other operations alone. *)
Theorem C33_contract : forall i sigs d cur, contract_signals i d = Ok cur -> exists d',
  add_contract i sigs d = Ok d' /\ contract_signals i d' = Ok (cur ++ sigs)%list.
Proof. exact contract_add. Qed.
Print Assumptions C33_contract.

Theorem C33_contract_other : forall i j sigs d d', no_slash i -> no_slash j -> i <> j -> add_contract i sigs d = Ok d' ->
  contract_signals j d' = contract_signals j d.
Proof. exact contract_add_other. Qed.
Print Assumptions C33_contract_other.

Example C33_contract_example :
  match add_contract "3" [StepDirectory] [] with
  | Ok d => match add_contract "3" [ItemDirectory; StepDirectory] d with
            | Ok d' => contract_signals "3" d' = Ok [StepDirectory; ItemDirectory; StepDirectory] /\ contract_signals "33" d' = Ok []
            | Err _ => False
            end
  | Err _ => False
  end.
Proof. vm_compute. auto. Qed.

(** The contract is read and written in two operations (FU l.121, l.134): of two
    threads that add to it at the same time, the signals of one are lost. *)
Theorem C33_contract_race_refuted : exists i d s1 s2 cur,
  contract_signals i d = Ok cur /\
  let d1 := write_contract i cur s1 d in let d2 := write_contract i cur s2 d1 in
  exists l, contract_signals i d2 = Ok l /\ exists s, In s s1 /\ ~ In s l.
Proof.
  exists "0", [], [StepDirectory], [ItemDirectory], []. split; [reflexivity|]. exists [ItemDirectory]. split; [vm_compute; reflexivity|].
  exists StepDirectory. simpl. intuition discriminate.
Qed.
Print Assumptions C33_contract_race_refuted.

(** Threads that ask for operation ids one after the other get different ones. *)
Theorem C33_ids : forall ts, NoDup (map snd (id_run ids_initial (flat_map (fun t => [Advance t; Return t]) ts))).
Proof. intros ts. exact (proj2 (ids_fresh ts ids_initial eq_refl)). Qed.
Print Assumptions C33_ids.

Example C33_ids_example : id_run ids_initial (flat_map (fun t => [Advance t; Return t]) [0; 1; 0]%nat) = [(0, 1%N); (1, 2%N); (0, 3%N)]%nat.
Proof. reflexivity. Qed.

(** [next_operation_id] assigns and returns in two steps without a lock (SY l.60-61):
    two threads can get the same id. *)
Theorem C33_ids_race_refuted : exists es n,
  let by_thread t := filter (fun e => Nat.eqb t (match e with Advance u => u | Return u => u end)) es in
  by_thread 0%nat = [Advance 0; Return 0] /\ by_thread 1%nat = [Advance 1; Return 1] /\ id_run ids_initial es = [(0%nat, n); (1%nat, n)].
Proof. exists [Advance 0; Advance 1; Return 0; Return 1], 2%N. vm_compute. auto. Qed.
Print Assumptions C33_ids_race_refuted.
