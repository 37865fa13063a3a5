(** C69: registries keep what is registered apart, and what was saved is loaded with the handler that saved it. *)
From Coq Require Import List Bool Arith String Lia.
From Verif Require Import Base Tree_Model Registry_Model Registry_Spec Registry_Proofs.
From Verif Require Tree_Proofs Parts_Proofs StepMeta_Proofs.
Import ListNotations.
Open Scope string_scope.

(** Something is added exactly if its name, or its class if it has none, is not there yet; what was there stays. *)
Theorem C69_add : forall h n s r, 
  ((exists r', add h n s r = Ok r') <-> (match n with Some m => if String.eqb m "" then ~ In h (map fst (r_entries r)) else forall x, ~ In (x, Some m) (r_entries r) | None => ~ In h (map fst (r_entries r)) end)) /\
  (forall e, add h n s r = Err e -> e = ValueError) /\
  (forall r', add h n s r = Ok r' -> r_entries r' = (r_entries r ++ [(h, n)])%list /\
    forall x, secondary_of x r' = match s with Some l => if Nat.eqb x h then l else secondary_of x r | None => secondary_of x r end).
Proof.
  intros h n s r. split; [|split].
  - split.
    + intros [r' E]. apply add_ok in E. destruct E as [A [B _]]. destruct n as [m|]; [|apply B; auto]. destruct (String.eqb_spec m "") as [->|M]; [apply B; auto|]. exact (A m eq_refl M).
    + intros H. eexists. apply add_ok. split; [|split; [|reflexivity]].
      * intros m Q M. rewrite Q in H. destruct (String.eqb_spec m "") as [|_]; [congruence|exact H].
      * intros [Q|Q]; rewrite Q in H; exact H.
  - apply add_err.
  - intros r' E. apply add_ok in E. destruct E as [_ [_ ->]]. split; [reflexivity|]. intros x. destruct s as [l|]; [|reflexivity]. unfold secondary_of. cbn [r_secondary].
    rewrite (Parts_Proofs.dget_dput Nat.eqb Nat.eqb_spec). destruct (Nat.eqb x h); reflexivity.
Qed.
Print Assumptions C69_add.

(** The handlers of the library (0 = proto, 1 = json, 2 = stateful, 3 = metrics, 4 = pytree) *)
Definition ex_global : registry :=
  mkReg [(0, None); (1, None); (2, None); (3, Some "metrics"); (4, None); (4, Some "state")] [(0, ["v0.Proto"]); (1, ["v0.Json"]); (4, ["v0.PyTree"; "v0.Standard"])].

Example C69_add_ex : (exists r', add 5 (Some "data") (Some ["old"]) ex_global = Ok r') /\ add 5 (Some "state") None ex_global = Err ValueError /\ add 4 None None ex_global = Err ValueError /\ (exists r', add 4 (Some "data") None ex_global = Ok r').
Proof. split; [eexists; vm_compute; reflexivity|]. split; [vm_compute; reflexivity|]. split; [vm_compute; reflexivity|eexists; vm_compute; reflexivity]. Qed.

(** A registry that was made by adding has every name once, and every class at most once for everything; the handler of a name is the one that was added with it. *)
Theorem C69_unique : forall r, built r ->
  (forall n h h', n <> "" -> In (h, Some n) (r_entries r) -> (get n r = Ok h' <-> h' = h)) /\
  (forall n, has n r = true <-> exists h, get n r = Ok h) /\
  (forall l1 l2 h, r_entries r = (l1 ++ (h, None) :: l2)%list -> ~ In h (map fst l1) /\ ~ In (h, None) l2).
Proof.
  intros r B. apply built_regular in B. destruct B as [R1 [R2 _]]. split; [|split].
  - intros n h h' N I. rewrite get_iff. apply in_split in I. destruct I as [l1 [l2 E]].
    assert (named_as r n h) as Nh.
    { exists l1, l2. split; [exact E|]. split; [reflexivity|]. apply Forall_forall. intros [x m] J Q. simpl in Q. subst m. exact (R1 l1 l2 h n E N x J). }
    split; [|intros ->; exact Nh]. intros Nh'. apply get_iff in Nh. apply get_iff in Nh'. congruence.
  - intros n. split; [apply has_get|]. intros [h G]. destruct (has n r) eqn:H; [reflexivity|]. apply get_iff in G. exfalso. exact (proj1 (has_false n r) H h G).
  - intros l1 l2 h E. split; [exact (R2 l1 l2 h None E (or_introl eq_refl))|]. intros I. apply in_split in I. destruct I as [m1 [m2 ->]].
    apply (R2 (l1 ++ (h, None) :: m1)%list m2 h None); [rewrite E, <- app_assoc; reflexivity|auto|]. rewrite map_app. apply in_or_app. right. left. reflexivity.
Qed.
Print Assumptions C69_unique.

Example C69_unique_ex : built (mkReg [(4, None); (4, Some "state")] [(4, ["v0.PyTree"])]) /\ get "state" (mkReg [(4, None); (4, Some "state")] [(4, ["v0.PyTree"])]) = Ok 4.
Proof.
  split; [|vm_compute; reflexivity]. apply (built_add (mkReg [(4, None)] [(4, ["v0.PyTree"])]) 4 (Some "state") None); [|vm_compute; reflexivity].
  apply (built_add empty 4 None (Some ["v0.PyTree"])); [constructor|vm_compute; reflexivity].
Qed.

(** A copy of a registry has the same entries and the same further names. *)
Theorem C69_copy : forall r, built r -> exists r', local_registry empty (Some r) false = Ok r' /\ built r' /\ r_entries r' = r_entries r /\ forall h, secondary_of h r' = secondary_of h r.
Proof.
  intros r B. pose proof (built_regular r B) as [R1 [R2 R3]]. unfold local_registry. cbn [rbind]. unfold add_all.
  destruct (add_entries_ok r (r_entries r) empty) as [r' [E1 [E2 E3]]].
  - intros l1 l2 h m E M x. cbn [r_entries empty app]. exact (R1 l1 l2 h m E M x).
  - intros l1 l2 h n E N. cbn [r_entries empty app]. exact (R2 l1 l2 h n E N).
  - exists r'. split; [exact E1|]. split; [apply (add_entries_built r (r_entries r) empty r' built_empty E1)|]. split; [exact E2|]. intros h. rewrite E3.
    destruct (existsb (fun e => Nat.eqb (fst e) h) (r_entries r)) eqn:X; [reflexivity|]. unfold secondary_of. simpl. destruct (dget Nat.eqb h (r_secondary r)) eqn:D; [|reflexivity].
    exfalso. assert (In h (map fst (r_entries r))) as I by (apply R3; congruence). apply exists_fst in I. congruence.
Qed.
Print Assumptions C69_copy.

Example C69_copy_ex : exists r', local_registry empty (Some ex_global) false = Ok r' /\ r_entries r' = r_entries ex_global /\ secondary_of 4 r' = ["v0.PyTree"; "v0.Standard"].
Proof. eexists. split; [vm_compute; reflexivity|]. split; vm_compute; reflexivity. Qed.

(** A registry for local use has the global entries and then the others; it is refused exactly if one of the others has a name that is taken, or is for everything and its class is there. *)
Theorem C69_local : forall g o, built g -> built o ->
  (forall r', local_registry g (Some o) true = Ok r' -> built r' /\ r_entries r' = (r_entries g ++ r_entries o)%list) /\
  ((exists r', local_registry g (Some o) true = Ok r') <->
   (forall h n, In (h, Some n) (r_entries o) -> n <> "" -> forall x, ~ In (x, Some n) (r_entries g)) /\
   (forall h n, In (h, n) (r_entries o) -> n = None \/ n = Some "" -> ~ In h (map fst (r_entries g)))).
Proof.
  intros g o Bg Bo. pose proof (built_regular g Bg) as [G1 [G2 _]]. pose proof (built_regular o Bo) as [O1 [O2 _]]. unfold local_registry, add_all.
  destruct (add_entries_ok g (r_entries g) empty) as [g' [E1 [E2 _]]].
  { intros l1 l2 h m E M x. exact (G1 l1 l2 h m E M x). }
  { intros l1 l2 h n E N. exact (G2 l1 l2 h n E N). }
  rewrite E1. cbn [rbind]. simpl in E2. pose proof (add_entries_built g _ _ g' built_empty E1) as Bg'.
  assert ((exists r', add_entries (r_entries o) o g' = Ok r') <-> (forall h n, In (h, Some n) (r_entries o) -> n <> "" -> forall x, ~ In (x, Some n) (r_entries g)) /\
   (forall h n, In (h, n) (r_entries o) -> n = None \/ n = Some "" -> ~ In h (map fst (r_entries g)))) as Q.
  { split.
    - intros [r' E]. split.
      + intros h n I N x J. apply in_split in I. destruct I as [l1 [l2 El]]. destruct (add_entries_split o _ _ _ E l1 l2 h (Some n) El) as [A _]. apply (A n eq_refl N x). rewrite E2. apply in_or_app. left. exact J.
      + intros h n I N J. apply in_split in I. destruct I as [l1 [l2 El]]. destruct (add_entries_split o _ _ _ E l1 l2 h n El) as [_ A]. apply (A N). rewrite E2, map_app. apply in_or_app. left. exact J.
    - intros [A B]. destruct (add_entries_ok o (r_entries o) g') as [r' [E _]]; [| |exists r'; exact E].
      + intros l1 l2 h m El M x J. rewrite E2 in J. apply in_app_or in J. destruct J as [J|J]; [|exact (O1 l1 l2 h m El M x J)].
        apply (A h m) with (x := x); [rewrite El; apply in_or_app; right; left; reflexivity|exact M|exact J].
      + intros l1 l2 h n El N J. rewrite E2, map_app in J. apply in_app_or in J. destruct J as [J|J]; [|exact (O2 l1 l2 h n El N J)].
        apply (B h n); [rewrite El; apply in_or_app; right; left; reflexivity|exact N|exact J]. }
  split; [|exact Q]. intros r' E. split; [exact (add_entries_built o _ _ r' Bg' E)|].
  destruct (proj1 Q (ex_intro _ r' E)) as [A B].
  destruct (add_entries_ok o (r_entries o) g') as [r1 [E3 [E4 _]]].
  - intros l1 l2 h m El M x J. rewrite E2 in J. apply in_app_or in J. destruct J as [J|J]; [|exact (O1 l1 l2 h m El M x J)].
    apply (A h m) with (x := x); [rewrite El; apply in_or_app; right; left; reflexivity|exact M|exact J].
  - intros l1 l2 h n El N J. rewrite E2, map_app in J. apply in_app_or in J. destruct J as [J|J]; [|exact (O2 l1 l2 h n El N J)].
    apply (B h n); [rewrite El; apply in_or_app; right; left; reflexivity|exact N|exact J].
  - rewrite E3 in E. injection E as <-. rewrite E4, E2. reflexivity.
Qed.
Print Assumptions C69_local.

Example C69_local_ex : exists r', local_registry ex_global (Some (mkReg [(7, None); (4, Some "params")] [])) true = Ok r' /\ map fst (r_entries r') = [0; 1; 2; 3; 4; 4; 7; 4].
Proof. eexists. split; vm_compute; reflexivity. Qed.

(** Without the global entries it is the other registry alone, and without that one empty *)
Theorem C69_local_alone : forall g o, built o -> local_registry g None false = Ok empty /\
  exists r', local_registry g (Some o) false = Ok r' /\ built r' /\ r_entries r' = r_entries o.
Proof.
  intros g o Bo. split; [reflexivity|]. pose proof (built_regular o Bo) as [O1 [O2 _]]. unfold local_registry, add_all. cbn [rbind].
  destruct (add_entries_ok o (r_entries o) empty) as [r' [E [E2 _]]].
  - intros l1 l2 h m El M x J. exact (O1 l1 l2 h m El M x J).
  - intros l1 l2 h n El N J. exact (O2 l1 l2 h n El N J).
  - exists r'. split; [exact E|]. split; [exact (add_entries_built o _ _ r' built_empty E)|exact E2].
Qed.
Print Assumptions C69_local_alone.

(** The error of a name that is not there *)
Theorem C69_get_error : forall n r e, get n r = Err e -> e = KeyError.
Proof. intros n r e. unfold get. destruct (find _ _); congruence. Qed.
Print Assumptions C69_get_error.

(** A registry for local use cannot be taken as the base of another, unless the global entries are left out: its own copies of the global entries are refused. *)
Theorem C69_local_again_refuted : exists g r, built g /\ local_registry g None true = Ok r /\ local_registry g (Some r) true = Err ValueError.
Proof.
  exists (mkReg [(4, None)] []). eexists. split; [apply (built_add empty 4 None None); [constructor|vm_compute; reflexivity]|]. split; vm_compute; reflexivity.
Qed.
Print Assumptions C69_local_again_refuted.

(** The example of the documentation, a handler for a name that is then added with a further name, is refused. *)
Theorem C69_example_refuted : exists r h, add h (Some "baz") None ex_global = Ok r /\ add h None (Some ["OldBazHandlerTypestr"]) r = Err ValueError.
Proof. eexists. exists 8. split; vm_compute; reflexivity. Qed.
Print Assumptions C69_example_refuted.

(** Using a global handler for one more name by way of another registry takes its further names away, so that
    checkpoints that were written under these names are no longer recognised. *)
Theorem C69_secondary_refuted : exists g o r (W : world unit), built g /\ built o /\ local_registry g (Some o) true = Ok r /\
  known_as W g (Some "v0.Standard") 4 /\ forall h, ~ known_as W r (Some "v0.Standard") h.
Proof.
  set (W := mkWorld (O := unit) (fun h => if Nat.eqb h 4 then "v1.PyTree" else "other") (fun _ => true) (fun _ _ => true) (fun _ _ => Some true) (fun _ => false)).
  exists (mkReg [(4, None)] [(4, ["v0.Standard"])]), (mkReg [(4, Some "params")] []). eexists. exists W.
  split; [apply (built_add empty 4 None (Some ["v0.Standard"])); [constructor|vm_compute; reflexivity]|].
  split; [apply (built_add empty 4 (Some "params") None); [constructor|vm_compute; reflexivity]|]. split; [vm_compute; reflexivity|]. split.
  - exists "v0.Standard", None. split; [reflexivity|]. split; [discriminate|]. exists [], []. split; [reflexivity|]. split; [right; left; reflexivity|constructor].
  - intros h [s [n [E [_ L]]]]. injection E as <-. destruct L as [l1 [l2 [El [P _]]]]. cbn [r_entries] in El.
    assert (In (h, n) [(4, None); (4, Some "params")]) as I by (rewrite El; apply in_or_app; right; left; reflexivity).
    destruct I as [I|[I|[]]]; injection I as <- <-; destruct P as [P|P]; vm_compute in P; try discriminate; contradiction.
Qed.
Print Assumptions C69_secondary_refuted.

(** ** Saving and loading *)

(** If all handlers can be constructed, an object is saved with: the last that can save it, if it saves itself; else that of its name; else the last that can save it. *)
Theorem C69_save : forall (O : Type) (W : world O) r o name, sane W r ->
  (forall h, resolve_save W r (Some o) name = Ok h <-> saves_with W r o name h) /\
  ((forall h, ~ saves_with W r o name h) <-> resolve_save W r (Some o) name = Err KeyError) /\ resolve_save W r None name = Err ValueError.
Proof.
  intros O W r o name S. pose proof (resolve_save_ok O W r o name S) as R. split; [exact R|]. split; [|reflexivity]. split.
  - intros H. destruct (resolve_save W r (Some o) name) as [h|e] eqn:E; [exfalso; exact (H h (proj1 (R h) eq_refl))|]. rewrite (resolve_save_err O W r o name e S E). reflexivity.
  - intros E h H. apply R in H. congruence.
Qed.
Print Assumptions C69_save.

(** Objects: 0 is a tree, 1 a text, 2 saves itself, 3 is unknown *)
Definition ex_world : world nat :=
  mkWorld (fun h => match h with 0 => "v1.Proto" | 1 => "v1.Json" | 2 => "v1.Stateful" | 3 => "v1.Metrics" | 4 => "v1.PyTree" | _ => "v1.Other" end) (fun h => negb (Nat.eqb h 9))
    (fun h o => match h, o with 1, (0 | 1) => true | 2, 2 => true | 3, (0 | 1) => true | 4, 0 => true | _, _ => false end)
    (fun h o => match h, o with 1, _ => None | 3, _ => None | 2, 2 => Some true | 4, 0 => Some true | _, _ => Some false end)
    (fun o => Nat.eqb o 2).

Example C69_save_ex : sane ex_world ex_global /\ map (fun x => resolve_save ex_world ex_global (Some (fst x)) (snd x)) [(0, "state"); (1, "state"); (2, "state"); (1, "x"); (0, "x"); (3, "x"); (3, "state"); (0, "metrics")] =
  [Ok 4; Ok 4; Ok 2; Ok 1; Ok 4; Err KeyError; Ok 4; Ok 3].
Proof. split; [repeat constructor|vm_compute; reflexivity]. Qed.

(** And loaded with: the one that saved it, if it loads itself; else that of its name, if it can; else the one that saved it, if it can; else the last that can; else that of its name. *)
Theorem C69_load : forall (O : Type) (W : world O) r a name ts, sane W r ->
  (forall h, resolve_load W r a name ts = Ok h <-> loads_with W r a name ts h) /\
  ((forall h, ~ loads_with W r a name ts h) <-> resolve_load W r a name ts = Err KeyError).
Proof.
  intros O W r a name ts S. pose proof (resolve_load_ok O W r a name ts S) as R. split; [exact R|]. split.
  - intros H. destruct (resolve_load W r a name ts) as [h|e] eqn:E; [exfalso; exact (H h (proj1 (R h) eq_refl))|]. rewrite (resolve_load_err O W r a name ts e S E). reflexivity.
  - intros E h H. apply R in H. congruence.
Qed.
Print Assumptions C69_load.

Example C69_load_ex : map (fun x => resolve_load ex_world ex_global (fst x) (fst (snd x)) (snd (snd x)))
  [(None, ("x", Some "v1.Json")); (None, ("state", Some "v1.Json")); (Some 0, ("x", None)); (Some 2, ("state", Some "v1.Stateful")); (None, ("x", None)); (Some 3, ("state", None)); (None, ("x", Some "v0.Standard"))] =
  [Ok 1; Ok 4; Ok 4; Ok 2; Err KeyError; Ok 4; Ok 4].
Proof. vm_compute. reflexivity. Qed.

(** What the registry does not resolve is loaded with the handler of "state", if there is one. *)
Theorem C69_fallback : forall (O : Type) (W : world O) r name a ts, sane W r ->
  (forall h, single_for_load W r name a ts = Ok h <-> loads_with W r a name ts h \/ ((forall x, ~ loads_with W r a name ts x) /\ named_as r "state" h)) /\
  (forall e, single_for_load W r name a ts = Err e -> e = KeyError).
Proof.
  intros O W r name a ts S. destruct (C69_load O W r a name ts S) as [L1 L2]. unfold single_for_load. destruct (by_name_iff O W r state_key S) as [st [E X]].
  destruct (resolve_load W r a name ts) as [h|e] eqn:R.
  - split; [|discriminate]. intros x. rewrite L1. split; [auto|]. intros [Q|[Q _]]; [exact Q|]. exfalso. apply (Q h). apply L1. reflexivity.
  - pose proof (resolve_load_err O W r a name ts e S R) as ->. rewrite E. cbn [rbind]. pose proof (proj2 L2 eq_refl) as N. split.
    + intros h. destruct st as [x|].
      * split; [intros Q; injection Q as <-; right; split; [exact N|]; apply X; reflexivity|]. intros [Q|[_ Q]]; [exfalso; exact (N h Q)|]. apply X in Q. congruence.
      * split; [discriminate|]. intros [Q|[_ Q]]; [exfalso; exact (N h Q)|]. apply X in Q. discriminate.
    + intros e. destruct st as [x|]; [discriminate|]. intros Q. injection Q as <-. reflexivity.
Qed.
Print Assumptions C69_fallback.

Example C69_fallback_ex : single_for_load ex_world ex_global "x" None None = Ok 4 /\ single_for_load ex_world empty "x" (Some 0) (Some "v1.Json") = Err KeyError.
Proof. split; vm_compute; reflexivity. Qed.

(** A checkpoint without names records one handler, which counts for whatever is loaded from it; what is recorded for names does not. *)
Theorem C69_direct : forall (O : Type) (W : world O) r name a, sane W r ->
  (forall s h, loads_with W r a name (Some s) h -> handler_direct W r name a (SOne s) = Ok h) /\
  (forall m h, (forall s, m <> SOne s) -> loads_with W r a name None h -> handler_direct W r name a m = Ok h) /\
  (forall s d h, handlers_for_load W r [(name, a)] (SMany ((name, s) :: d)) = Ok [(name, h)] <-> handler_direct W r name a (SOne s) = Ok h).
Proof.
  intros O W r name a S. split; [|split].
  - intros s h L. unfold handler_direct. simpl. apply C69_fallback; [exact S|left; exact L].
  - intros m h N L. unfold handler_direct. assert (saved_typestr_direct m = None) as -> by (destruct m as [|s|d]; [reflexivity|exfalso; exact (N s eq_refl)|reflexivity]). apply C69_fallback; [exact S|left; exact L].
  - intros s d h. unfold handler_direct, handlers_for_load. simpl. rewrite String.eqb_refl. destruct (single_for_load W r name a (Some s)) as [x|e]; simpl; split; intros Q; congruence.
Qed.
Print Assumptions C69_direct.

Example C69_direct_ex : handler_direct ex_world ex_global "x" None (SOne "v1.Json") = Ok 1 /\ handler_direct ex_world ex_global "x" None (SMany [("x", "v1.Json")]) = Ok 4 /\ handler_direct ex_world ex_global "x" (Some 2) SNone = Ok 2.
Proof. repeat split; vm_compute; reflexivity. Qed.

(** What was saved is loaded with the handler that saved it, without anything to load with or with what that handler can load with, if the names of handlers are not shared. *)
Theorem C69_same : forall (O : Type) (W : world O) r o name h a, sane W r -> resolve_save W r (Some o) name = Ok h -> w_typestr W h <> "" ->
  (forall x m, In (x, m) (r_entries r) -> w_typestr W x = w_typestr W h \/ In (w_typestr W h) (secondary_of x r) -> x = h) ->
  w_stateful W o = false \/ (forall x, ~ In (x, Some name) (r_entries r)) -> fits W a h ->
  resolve_load W r a name (Some (w_typestr W h)) = Ok h.
Proof.
  intros O W r o name h a S E N U D F. apply (resolve_save_ok O W r o name S) in E. apply (resolve_load_ok O W r a name _ S).
  assert (exists n, In (h, n) (r_entries r)) as [n I].
  { destruct E as [h _ [l1 [l2 [El _]]]|h _ [l1 [l2 [El _]]]|h _ [l1 [l2 [El _]]]]; eexists; rewrite El; apply in_or_app; right; left; reflexivity. }
  pose proof (known_self O W r h n I N U) as K.
  assert (forall x, named_as r name x -> x = h) as Nx.
  { intros x Q. assert (In (x, Some name) (r_entries r)) as J by (destruct Q as [l1 [l2 [El _]]]; rewrite El; apply in_or_app; right; left; reflexivity).
    destruct E as [h St _|h _ Q'|h Q' _].
    - destruct D as [D|D]; [congruence|exfalso; exact (D x J)].
    - apply get_iff in Q. apply get_iff in Q'. congruence.
    - exfalso. exact (Q' x J). }
  destruct (has name r) eqn:H.
  - destruct (has_get _ _ H) as [x G]. apply get_iff in G. rewrite (Nx x G) in G.
    destruct a as [a|]; [|apply lw_named; [discriminate|exact G|exact F]].
    destruct (w_stateful W a) eqn:St.
    + apply (lw_stateful W r (Some a) name _ a h eq_refl St K). apply F. reflexivity.
    + apply lw_named; [|exact G|exact F]. intros o' x' A B. injection A as <-. congruence.
  - apply lw_known; [|exact K|exact F]. intros x Q. exfalso. exact (proj1 (has_false name r) H x Q).
Qed.
Print Assumptions C69_same.

Example C69_same_ex : resolve_save ex_world ex_global (Some 1) "x" = Ok 1 /\ resolve_load ex_world ex_global None "x" (Some "v1.Json") = Ok 1 /\ resolve_save ex_world ex_global (Some 0) "state" = Ok 4 /\ resolve_load ex_world ex_global (Some 0) "state" (Some "v1.PyTree") = Ok 4.
Proof. repeat split; vm_compute; reflexivity. Qed.

(** The same for all that is in a checkpoint: with the names that the saving records, loading takes the same handlers. *)
Theorem C69_roundtrip : forall (O : Type) (W : world O) r cs hs, sane W r -> NoDup (map fst cs) -> handlers_for_save W r cs = Ok hs ->
  (forall h x m, In h (map fst (r_entries r)) -> In (x, m) (r_entries r) -> w_typestr W x = w_typestr W h \/ In (w_typestr W h) (secondary_of x r) -> x = h) ->
  (forall h, In h (map fst (r_entries r)) -> w_typestr W h <> "") ->
  (forall name o, In (name, Some o) cs -> w_stateful W o = false \/ (forall x, ~ In (x, Some name) (r_entries r))) ->
  handlers_for_load W r (map (fun x => (fst x, None)) cs) (SMany (saved_typestrs W hs)) = Ok hs.
Proof.
  intros O W r cs hs S N E U T D. unfold handlers_for_save in E. apply StepMeta_Proofs.seq_f2 in E. unfold handlers_for_load.
  assert (map fst hs = map fst cs) as Nm.
  { clear - E. induction E as [|[n c] [n' h] l m P F IH]; [reflexivity|]. simpl. f_equal; [|exact IH]. simpl in P. destruct (resolve_save W r c n); [|discriminate]. simpl in P. injection P as <- _. reflexivity. }
  assert (forall n h, In (n, h) hs -> dget String.eqb n (saved_typestrs W hs) = Some (w_typestr W h)) as G.
  { intros n h I. apply (Tree_Proofs.dget_in String.eqb String.eqb_spec).
    - assert (map fst (saved_typestrs W hs) = map fst hs) as -> by (unfold saved_typestrs; rewrite map_map; apply map_ext; reflexivity). rewrite Nm. exact N.
    - unfold saved_typestrs. apply in_map_iff. exists (n, h). auto. }
  set (m := SMany (saved_typestrs W hs)).
  assert (forall l k, Forall2 (fun x y => rmap (fun h => (fst x, h)) (resolve_save W r (snd x) (fst x)) = Ok y) l k -> incl l cs -> incl k hs ->
    sequence (map (fun x => rmap (fun h => (fst x, h)) (single_for_load W r (fst x) (snd x) (saved_typestr (fst x) m))) (map (fun x : string * option O => (fst x, None)) l)) = Ok k) as R.
  { intros l k F. induction F as [|[n c] [n' h] l k P F IH]; intros I1 I2; [reflexivity|]. simpl in P. destruct (resolve_save W r c n) as [h0|] eqn:Q; [|discriminate]. simpl in P. injection P as <- <-.
    cbn [map fst snd sequence]. destruct c as [o|]; [|discriminate].
    assert (exists k0, In (h0, k0) (r_entries r)) as [k0 J].
    { apply (resolve_save_ok O W r o n S) in Q. destruct Q as [h _ [l1 [l2 [El _]]]|h _ [l1 [l2 [El _]]]|h _ [l1 [l2 [El _]]]]; eexists; rewrite El; apply in_or_app; right; left; reflexivity. }
    assert (In h0 (map fst (r_entries r))) as J' by (apply in_map_iff; exists (h0, k0); auto).
    unfold saved_typestr at 1, m at 1. rewrite (G n h0 (I2 _ (or_introl eq_refl))).
    assert (resolve_load W r None n (Some (w_typestr W h0)) = Ok h0) as L.
    { apply (C69_same O W r o n h0 None S Q (T h0 J') (fun x m => U h0 x m J')); [exact (D n o (I1 _ (or_introl eq_refl)))|discriminate]. }
    unfold single_for_load at 1. rewrite L. cbn [rmap rbind]. rewrite IH; [reflexivity|intros z Z; apply I1; right; exact Z|intros z Z; apply I2; right; exact Z]. }
  apply R; [exact E|apply incl_refl|apply incl_refl].
Qed.
Print Assumptions C69_roundtrip.

Example C69_roundtrip_ex : exists hs, handlers_for_save ex_world ex_global [("state", Some 0); ("meta", Some 1); ("it", Some 2)] = Ok hs /\
  saved_typestrs ex_world hs = [("state", "v1.PyTree"); ("meta", "v1.Json"); ("it", "v1.Stateful")] /\
  handlers_for_load ex_world ex_global [("state", None); ("meta", None); ("it", None)] (SMany (saved_typestrs ex_world hs)) = Ok hs.
Proof. eexists. split; [vm_compute; reflexivity|]. split; vm_compute; reflexivity. Qed.

(** "This handler will always be prioritized for saving or loading the checkpointable with that name, even if the handler is not capable": it is passed over if another can. *)
Theorem C69_scoped_refuted : exists (W : world nat) r name h x o, sane W r /\ named_as r name h /\ h <> x /\ resolve_load W r (Some o) name None = Ok x.
Proof.
  exists ex_world, ex_global, "metrics", 3, 4, 0. split; [repeat constructor|]. split; [|split; [discriminate|vm_compute; reflexivity]].
  exists [(0, None); (1, None); (2, None)], [(4, None); (4, Some "state")]. split; [reflexivity|]. split; [reflexivity|]. repeat constructor; discriminate.
Qed.
Print Assumptions C69_scoped_refuted.

(** "If a corresponding handler is present … If not, scan the secondary typestrs": a later handler that has the name as a further one is taken before the handler that saved. *)
Theorem C69_secondary_first_refuted : exists (W : world nat) r h x, sane W r /\ built r /\ In (h, None) (r_entries r) /\ h <> x /\ resolve_load W r None "y" (Some (w_typestr W h)) = Ok x.
Proof.
  exists ex_world. eexists. exists 1, 7. split; [|split; [apply (built_add (mkReg [(1, None)] []) 7 None (Some ["v1.Json"])); [apply (built_add empty 1 None None); [constructor|vm_compute; reflexivity]|vm_compute; reflexivity]|]].
  - repeat constructor.
  - split; [left; reflexivity|]. split; [discriminate|vm_compute; reflexivity].
Qed.
Print Assumptions C69_secondary_first_refuted.

(** A handler that "cannot decide whether it can handle the abstract checkpointable and defers to the typestr" is not taken although the name is its own:
    what JsonHandler saved is loaded with PyTreeHandler if something is given to load with. *)
Theorem C69_undecided_refuted : exists (W : world nat) r h x o, sane W r /\ resolve_save W r (Some o) "config" = Ok h /\ w_load W h 0 = None /\ h <> x /\ resolve_load W r (Some 0) "config" (Some (w_typestr W h)) = Ok x.
Proof. exists ex_world, ex_global, 1, 4, 1. split; [repeat constructor|]. repeat split; try discriminate; vm_compute; reflexivity. Qed.
Print Assumptions C69_undecided_refuted.

(** An object that saves itself, under a name that is registered, is not loaded with the handler that saved it if nothing is given to load with. *)
Theorem C69_stateful_refuted : exists (W : world nat) r h x o, sane W r /\ resolve_save W r (Some o) "state" = Ok h /\ h <> x /\ resolve_load W r None "state" (Some (w_typestr W h)) = Ok x.
Proof. exists ex_world, ex_global, 2, 4, 2. split; [repeat constructor|]. repeat split; try discriminate; vm_compute; reflexivity. Qed.
Print Assumptions C69_stateful_refuted.

(** A handler that cannot be constructed without arguments is added, though the documentation of adding says that it is refused, and then nothing can be saved at all. *)
Theorem C69_construct_refuted : exists (W : world nat) r, add 9 (Some "mine") None ex_global = Ok r /\ w_constructible W 9 = false /\ forall o name, resolve_save W r (Some o) name = Err ValueError.
Proof. exists ex_world. eexists. split; [vm_compute; reflexivity|]. split; [reflexivity|]. intros o name. unfold resolve_save, possible_handlers. simpl. reflexivity. Qed.
Print Assumptions C69_construct_refuted.

(** ** Handlers of types *)

(** A type is handled by the first entry that says so. *)
Theorem C69_type_get : forall ty t h, t_get ty t = Ok h <-> exists f, first_such (fun e => fst e ty = true) (t_types t) (f, h).
Proof. exact t_get_iff. Qed.
Print Assumptions C69_type_get.

Example C69_type_get_ex : t_get 2 (mkT [(Nat.eqb 1, 10); (Nat.leb 2, 11); (Nat.eqb 2, 12)] []) = Ok 11 /\ t_get 0 (mkT [(Nat.eqb 1, 10); (Nat.leb 2, 11)] []) = Err ValueError.
Proof. split; vm_compute; reflexivity. Qed.

(** Without overriding, a handler is added exactly if no entry is for the type and its name is not taken; all types keep their handlers, and those that had none get the new one if it is for them. *)
Theorem C69_type_add : forall typestr ty h func t,
  ((exists t', t_add typestr ty h func false t = Ok t') <-> (forall x, t_get ty t <> Ok x) /\ (forall x, t_get_str (typestr h) t <> Ok x)) /\
  (forall t', t_add typestr ty h func false t = Ok t' ->
    (forall ty' x, t_get ty' t = Ok x -> t_get ty' t' = Ok x) /\
    (forall ty', (forall x, t_get ty' t <> Ok x) -> t_get ty' t' = if func ty' then Ok h else Err ValueError) /\
    (forall s x, t_get_str s t = Ok x -> t_get_str s t' = Ok x) /\ t_get_str (typestr h) t' = Ok h).
Proof.
  intros typestr ty h func t. unfold t_add.
  assert (first_index ty (t_types t) = None <-> forall x, t_get ty t <> Ok x) as FI.
  { rewrite first_index_none. unfold t_get. split.
    - intros F x. destruct (find (fun e => fst e ty) (t_types t)) eqn:Q; [|discriminate]. apply find_some in Q. destruct Q as [I Q]. rewrite Forall_forall in F. specialize (F _ I). simpl in F. congruence.
    - intros H. apply Forall_forall. intros e I. destruct (find (fun e => fst e ty) (t_types t)) as [e'|] eqn:Q; [exfalso; exact (H _ eq_refl)|]. exact (find_none _ _ Q e I). }
  split.
  - destruct (first_index ty (t_types t)) as [i|] eqn:Fi.
    + split; [intros [t' E]; discriminate|]. intros [H _]. apply FI in H. discriminate.
    + unfold t_get_str. destruct (dget String.eqb (typestr h) (t_strs t)) as [x|] eqn:D; cbn [negb].
      * split; [intros [t' E]; discriminate|]. intros [_ H]. exfalso. exact (H x eq_refl).
      * split; [|eauto]. intros _. split; [apply FI; reflexivity|discriminate].
  - intros t' E. destruct (first_index ty (t_types t)) as [i|] eqn:Fi; [discriminate|]. destruct (dget String.eqb (typestr h) (t_strs t)) as [x|] eqn:D; cbn [negb] in E; [discriminate|]. injection E as <-. split; [|split; [|split]].
    + intros ty' x. unfold t_get. cbn [t_types]. destruct (find (fun e => fst e ty') (t_types t)) as [e|] eqn:Q; [|discriminate]. rewrite (find_app_l _ _ _ _ Q). auto.
    + intros ty' H. unfold t_get in *. cbn [t_types]. destruct (find (fun e => fst e ty') (t_types t)) as [e|] eqn:Q; [exfalso; exact (H _ eq_refl)|]. rewrite (find_app_r _ _ _ Q). simpl. destruct (func ty'); reflexivity.
    + intros s x. unfold t_get_str. cbn [t_strs]. rewrite (Parts_Proofs.dget_dput String.eqb String.eqb_spec). destruct (String.eqb_spec s (typestr h)) as [->|_]; [rewrite D; discriminate|auto].
    + unfold t_get_str. cbn [t_strs]. rewrite (Parts_Proofs.dget_dput String.eqb String.eqb_spec), String.eqb_refl. reflexivity.
Qed.
Print Assumptions C69_type_add.

(** With overriding it is always added; the type gets it, and types that are not the function's keep their handler if it is another than the one of the type. *)
Theorem C69_type_override : forall typestr ty h (func : nat -> bool) t, func ty = true ->
  exists t', t_add typestr ty h func true t = Ok t' /\ t_get ty t' = Ok h /\ t_get_str (typestr h) t' = Ok h /\
    (forall s x, s <> typestr h -> t_get_str s t = Ok x -> t_get_str s t' = Ok x) /\
    (forall ty' x, func ty' = false -> t_get ty t <> Ok x -> t_get ty' t = Ok x -> t_get ty' t' = Ok x) /\
    (forall ty', (forall x, t_get ty t <> Ok x) -> func ty' = false -> t_get ty' t' = t_get ty' t).
Proof.
  intros typestr ty h func t F.
  assert (forall T, let t' := mkT T (dput String.eqb (typestr h) h (t_strs t)) in t_get_str (typestr h) t' = Ok h /\ forall s x, s <> typestr h -> t_get_str s t = Ok x -> t_get_str s t' = Ok x) as Q.
  { intros T. cbv zeta. unfold t_get_str. cbn [t_strs]. split; [rewrite (Parts_Proofs.dget_dput String.eqb String.eqb_spec), String.eqb_refl; reflexivity|].
    intros s x N. rewrite (Parts_Proofs.dget_dput String.eqb String.eqb_spec). destruct (String.eqb_spec s (typestr h)); [contradiction|auto]. }
  unfold t_add. destruct (first_index ty (t_types t)) as [i|] eqn:I.
  - eexists. split; [reflexivity|]. destruct (Q (set_nth i (func, h) (t_types t))) as [Q1 Q2]. unfold t_get. cbn [t_types].
    assert (exists l1 f x l2, t_types t = (l1 ++ (f, x) :: l2)%list /\ set_nth i (func, h) (t_types t) = (l1 ++ (func, h) :: l2)%list /\ f ty = true /\ find (fun e => fst e ty) l1 = None) as [l1 [f [x [l2 [E1 [E2 [E3 E4]]]]]]].
    { clear Q Q1 Q2. revert i I. induction (t_types t) as [|[f x] l IH]; intros i I; [discriminate|]. simpl in I. destruct (f ty) eqn:Fy.
      - injection I as <-. exists [], f, x, l. auto.
      - destruct (first_index ty l) as [j|] eqn:J; [|discriminate]. simpl in I. injection I as <-. destruct (IH j eq_refl) as [l1 [f' [x' [l2 [A [B [C D]]]]]]].
        exists ((f, x) :: l1), f', x', l2. simpl. rewrite A at 1. rewrite B, Fy. auto. }
    split; [rewrite E2, (find_app_r _ _ _ E4); simpl; rewrite F; reflexivity|]. split; [exact Q1|]. split; [exact Q2|].
    split.
    + intros ty' y Fy. rewrite E2, E1. rewrite (find_app_r _ _ _ E4). simpl. rewrite E3. cbn [snd]. intros N.
      destruct (find (fun e => fst e ty') l1) as [e|] eqn:L; [rewrite !(find_app_l _ _ _ _ L); auto|]. rewrite !(find_app_r _ _ _ L). simpl. rewrite Fy. destruct (f ty'); [simpl; congruence|auto].
    + intros ty' N. exfalso. apply (N x). rewrite E1, (find_app_r _ _ _ E4). simpl. rewrite E3. reflexivity.
  - assert (find (fun e => fst e ty) (t_types t) = None) as N.
    { apply first_index_none in I. destruct (find (fun e => fst e ty) (t_types t)) as [e|] eqn:L; [|reflexivity]. apply find_some in L. destruct L as [L1 L2]. rewrite Forall_forall in I. specialize (I _ L1). simpl in I. congruence. }
    destruct (Q (t_types t ++ [(func, h)])%list) as [Q1 Q2]. destruct (dget String.eqb (typestr h) (t_strs t)); cbn [negb]; (eexists; split; [reflexivity|]; unfold t_get; cbn [t_types]; split; [rewrite (find_app_r _ _ _ N); simpl; rewrite F; reflexivity|]; split; [exact Q1|]; split; [exact Q2|]; split;
      [intros ty' y Fy _; destruct (find (fun e => fst e ty') (t_types t)) as [e|] eqn:L; [rewrite (find_app_l _ _ _ _ L); auto|discriminate]|
       intros ty' _ Fy; destruct (find (fun e => fst e ty') (t_types t)) as [e|] eqn:L; [rewrite (find_app_l _ _ _ _ L); reflexivity|rewrite (find_app_r _ _ _ L); simpl; rewrite Fy; reflexivity]]).
Qed.
Print Assumptions C69_type_override.

Example C69_type_override_ex : exists t', t_add (fun _ => "s") 1 12 (Nat.eqb 1) true (mkT [(Nat.eqb 1, 10); (Nat.leb 2, 11)] []) = Ok t' /\ t_get 1 t' = Ok 12 /\ t_get 5 t' = Ok 11.
Proof. eexists. split; [reflexivity|]. split; reflexivity. Qed.

(** Types: 0 is object, 1 int, 2 bool (an int), 3 str *)
Definition ex_sub (a b : nat) : bool := Nat.eqb a b || Nat.eqb b 0 || (Nat.eqb a 2 && Nat.eqb b 1).
Definition ex_str (h : nat) : string := if Nat.ltb h 20 then "scalar" else "string".

Example C69_type_add_ex : exists t t', t_create ex_str ex_sub [(1, 10)] t_empty = Ok t /\ t_get 2 t = Ok 10 /\ t_add ex_str 3 20 (fun x => ex_sub x 3) false t = Ok t' /\ t_get 3 t' = Ok 20 /\ t_get 2 t' = Ok 10 /\ t_add ex_str 2 21 (fun x => ex_sub x 2) false t' = Err ValueError.
Proof. eexists. eexists. split; [cbv -[ex_sub]; reflexivity|]. split; [vm_compute; reflexivity|]. split; [cbv -[ex_sub]; reflexivity|]. split; [vm_compute; reflexivity|]. split; vm_compute; reflexivity. Qed.

(** The name of the handler of a type always names a handler of that name, so that what was saved can be restored; without overriding it names that very handler. *)
Theorem C69_typestr : forall typestr over t ty h, t_built typestr over t -> t_get ty t = Ok h ->
  exists h', t_get_str (param_typestr typestr None ty t) t = Ok h' /\ typestr h' = typestr h /\ (over = false -> h' = h).
Proof.
  intros typestr over t ty h B G. destruct (t_invariant typestr over t B) as [I1 _]. unfold param_typestr. rewrite G. unfold t_get in G. destruct (find (fun e => fst e ty) (t_types t)) as [[f x]|] eqn:F; [|discriminate]. injection G as <-.
  apply find_some in F. destruct F as [I _]. destruct (I1 f x I) as [h' [D [T U]]]. exists h'. split; [unfold t_get_str; cbn [snd]; rewrite D; reflexivity|]. auto.
Qed.
Print Assumptions C69_typestr.

Example C69_typestr_ex : exists t, t_create ex_str ex_sub [(1, 10); (3, 20)] t_empty = Ok t /\ t_built ex_str true t /\ t_get 2 t = Ok 10 /\ param_typestr ex_str None 2 t = "scalar" /\ t_get_str "scalar" t = Ok 10 /\ param_typestr ex_str None 0 t = "None".
Proof.
  eexists. split; [cbv -[ex_sub]; reflexivity|]. split.
  - eapply (tb_add ex_str true _ 3 20 (fun x => ex_sub x 3) true); [|reflexivity|].
    + eapply (tb_add ex_str true t_empty 1 10 (fun x => ex_sub x 1) true); [constructor|reflexivity|cbv -[ex_sub]; reflexivity].
    + cbv -[ex_sub]. reflexivity.
  - split; [vm_compute; reflexivity|]. split; [vm_compute; reflexivity|]. split; vm_compute; reflexivity.
Qed.

(** "If True, will override an existing mapping of type to handler": overriding for a subtype replaces the entry of the supertype, which then has no handler at all. *)
Theorem C69_override_refuted : exists typestr (sub : nat -> nat -> bool) t t' ty super h, t_create typestr sub [(super, 10)] t_empty = Ok t /\ sub ty super = true /\ t_get super t = Ok 10 /\
  t_add typestr ty h (fun x => sub x ty) true t = Ok t' /\ t_get ty t' = Ok h /\ t_get super t' = Err ValueError.
Proof. exists ex_str, ex_sub. eexists. eexists. exists 2, 1, 11. split; [cbv -[ex_sub]; reflexivity|]. split; [reflexivity|]. split; [vm_compute; reflexivity|]. split; [cbv -[ex_sub]; reflexivity|]. split; vm_compute; reflexivity. Qed.
Print Assumptions C69_override_refuted.

(** The name of a handler that was replaced by one of another name still gives the handler that was replaced. *)
Theorem C69_stale_refuted : exists typestr t t' ty h h', t_get ty t = Ok h /\ t_add typestr ty h' (Nat.eqb ty) true t = Ok t' /\ (forall x, t_get x t' <> Ok h) /\ t_get_str (typestr h) t' = Ok h.
Proof.
  exists ex_str, (mkT [(Nat.eqb 1, 10)] [("scalar", 10)]). eexists. exists 1, 10, 20. split; [vm_compute; reflexivity|]. split; [cbv -[Nat.eqb]; reflexivity|]. split; [|vm_compute; reflexivity].
  intros x. unfold t_get. cbn [t_types find fst]. destruct (Nat.eqb 1 x); discriminate.
Qed.
Print Assumptions C69_stale_refuted.

(** Loading by names takes no notice of a handler that was recorded for a checkpoint without names, and loading without names of those recorded by name *)
Theorem C69_recorded : forall (O : Type) (W : world O) r a name x s d,
  handlers_for_load W r a (SOne s) = handlers_for_load W r a SNone /\ handler_direct W r name x (SMany d) = handler_direct W r name x SNone.
Proof. intros. split; reflexivity. Qed.
Print Assumptions C69_recorded.
