(** C84: the conversion of jax arrays to DTensors. *)
From Coq Require Import List Bool Arith String Lia.
From Verif Require Import Base Dtensor_Model Dtensor_Spec Dtensor_Proofs.
Import ListNotations.
Local Open Scope string_scope.
Local Open Scope list_scope.
Local Open Scope nat_scope.

(** A mesh for the examples *)
Definition mesh4 : dmesh := [("x", 4); ("y", 2); ("one", 1); ("uno", 1)].

(** ** Layouts *)

(** Whatever the array and the spec: each device of the mesh packs the very part of the array that the layout says it holds, in every dimension *)
Theorem C84_placement : forall m size at_ allow has_mesh shape spec layout packed, sizes_of m size -> ~ In "" (map fst m) ->
  (forall s e b, spec = Some s -> In e s -> In b (axes e) -> at_ b < size b) ->
  to_dtensor m allow has_mesh shape spec = Ok (layout, packed) ->
  forall i, parts size (axes_at packed i) = parts size (layout_at layout i) /\ part size at_ (axes_at packed i) = part size at_ (layout_at layout i).
Proof.
  intros m size at_ allow has_mesh shape spec layout packed HS HE HA. unfold to_dtensor. destruct spec as [s|]; cbn [rbind fst snd].
  - destruct (entries m allow shape s) as [[ds r]|] eqn:E; cbn [rbind fst snd]; [|discriminate]. destruct (negb (layout_ok ds)); [discriminate|]. destruct r; cbn [negb].
    + destruct has_mesh; [|discriminate]. intro H. injection H as <- <-. intro i. unfold axes_at, layout_at, as_spec.
      assert (X : axes (nth i (map (fun o => match o with Some a => EName a | None => ENone end) ds) ENone) = match nth i ds None with None => [] | Some a => if String.eqb a "" then [] else [a] end).
      { change ENone with ((fun o : option string => match o with Some a => EName a | None => ENone end) None) at 2. rewrite map_nth. now destruct (nth i ds None). }
      rewrite X. destruct (nth i ds None) as [a|] eqn:N; [|split; reflexivity]. destruct (String.eqb_spec a "") as [-> | ne]; [|split; reflexivity].
      exfalso. apply HE. now apply (entries_known m allow s shape ds true E i).
    + intro H. injection H as <- <-. apply (entries_same m size at_ allow s shape ds HS); [|exact E]. intros e b He Hb. now apply (HA s e b).
  - destruct (negb (layout_ok (map (fun _ => None) shape))); [discriminate|]. intro H. injection H as <- <-. intro i. unfold axes_at, layout_at.
    assert (X : nth i (map (fun _ : nat => @None string) shape) None = None) by (revert i; induction shape as [|d l IHs]; intros [|i]; cbn; auto). rewrite X. split; reflexivity.
Qed.
Print Assumptions C84_placement.

Example C84_placement_example : to_dtensor mesh4 false true [8; 6; 5] (Some [ETuple ["one"; "x"; "uno"]; EName "y"]) = Ok ([Some "x"; Some "y"; None], Some [ETuple ["one"; "x"; "uno"]; EName "y"]) /\
  to_dtensor mesh4 true true [8; 6] (Some [ETuple ["y"; "x"]]) = Ok ([Some "x"; None], Some [EName "x"; ENone]).
Proof. vm_compute. split; reflexivity. Qed.

(** Each dimension is cut into equal parts, and no axis is used twice *)
Theorem C84_even : forall m size allow has_mesh shape spec layout packed, sizes_of m size -> to_dtensor m allow has_mesh shape spec = Ok (layout, packed) ->
  (forall i a, nth i layout None = Some a -> exists d, nth_error shape i = Some d /\ size a <> 0 /\ d mod size a = 0) /\
  (forall i j a, nth_error layout i = Some (Some a) -> nth_error layout j = Some (Some a) -> i = j).
Proof.
  intros m size allow has_mesh shape spec layout packed HS. unfold to_dtensor. destruct spec as [s|]; cbn [rbind fst snd].
  - destruct (entries m allow shape s) as [[ds r]|] eqn:E; cbn [rbind fst snd]; [|discriminate]. destruct (layout_ok ds) eqn:L; cbn [negb]; [|discriminate]. intro H. assert (layout = ds) as ->.
    { destruct r; cbn [negb] in H; [destruct has_mesh; [|discriminate]|]; now injection H as <- _. }
    split; [now apply (entries_divides m size allow s shape ds r) | now apply layout_ok_spec].
  - destruct (layout_ok (map (fun _ => None) shape)) eqn:L; cbn [negb]; [|discriminate]. intro H. injection H as <- <-. split; [|now apply layout_ok_spec]. intros i a X. exfalso. revert i X. induction shape as [|d l IHs]; intros [|i]; cbn; try discriminate. apply IHs. exact L.
Qed.
Print Assumptions C84_even.

Example C84_even_example : to_dtensor mesh4 false true [6] (Some [EName "x"]) = Err ValueError /\ to_dtensor mesh4 false true [8; 8] (Some [EName "x"; EName "x"]) = Err ValueError.
Proof. vm_compute. split; reflexivity. Qed.

(** The axis for a tuple: a dimension with two proper axes is refused, or with leave given to its first largest axis; else it is given to its one proper axis *)
Theorem C84_tuple : forall m size allow l, sizes_of m size -> (forall a, In a l -> exists k, size_is m a k) -> l <> [] ->
  (product_sharded size l -> allow = false -> axis_of m allow (ETuple l) = Err ValueError) /\
  (product_sharded size l -> allow = true -> exists a x y, axis_of m allow (ETuple l) = Ok (Some (a, true)) /\ l = x ++ a :: y /\ (forall b, In b x -> size b < size a) /\ (forall b, In b y -> size b <= size a)) /\
  (~ product_sharded size l -> exists a, axis_of m allow (ETuple l) = Ok (Some (a, false)) /\ In a l /\ forall b, In b l -> size b <> 1 -> b = a).
Proof.
  intros m size allow l HS HK N. destruct (of_tuple_spec m size allow l HS HK N) as (H1 & H2 & H3). destruct l as [|c l]; [congruence|]. cbn [axis_of]. split; [|split].
  - intros P A. now rewrite (H1 P A).
  - intros P A. destruct (H2 P A) as (a & x & y & -> & K). now exists a, x, y.
  - intro P. destruct (H3 P) as (a & -> & K). now exists a.
Qed.
Print Assumptions C84_tuple.

Example C84_tuple_example : axis_of mesh4 false (ETuple ["x"; "y"]) = Err ValueError /\ axis_of mesh4 true (ETuple ["one"; "y"; "x"]) = Ok (Some ("x", true)) /\ axis_of mesh4 false (ETuple ["one"; "uno"]) = Ok (Some ("one", false)).
Proof. vm_compute. repeat split. Qed.

(** Other elements: None, nothing and the empty tuple leave a dimension whole, a name gives its axis, other things are TypeErrors *)
Theorem C84_elements : forall m allow, axis_of m allow ENone = Ok None /\ axis_of m allow (ETuple []) = Ok None /\ axis_of m allow (EName "") = Ok None /\ axis_of m allow EBad = Err TypeError /\ (forall a, a <> "" -> axis_of m allow (EName a) = Ok (Some (a, false))) /\
  (forall shape, to_dtensor m allow true shape None = Ok (map (fun _ => None) shape, None)).
Proof.
  intros m allow. repeat split.
  - intros [|c a] N; [congruence | reflexivity].
  - intro shape. unfold to_dtensor. cbn [rbind fst snd]. assert (L : layout_ok (map (fun _ : nat => None) shape) = true) by (induction shape; cbn; auto). now rewrite L.
Qed.
Print Assumptions C84_elements.

Example C84_elements_example : to_dtensor mesh4 false true [3; 4; 5] (Some [ENone; EName "x"]) = Ok ([None; Some "x"; None], Some [ENone; EName "x"]).
Proof. vm_compute. reflexivity. Qed.

(** The layout is as long as the shape if the spec is not longer *)
Theorem C84_rank : forall m allow has_mesh shape spec layout packed, (forall s, spec = Some s -> List.length s <= List.length shape) -> to_dtensor m allow has_mesh shape spec = Ok (layout, packed) -> List.length layout = List.length shape.
Proof.
  intros m allow has_mesh shape spec layout packed HL. unfold to_dtensor. destruct spec as [s|]; cbn [rbind fst snd].
  - specialize (HL s eq_refl). destruct (entries m allow shape s) as [[ds r]|] eqn:E; cbn [rbind fst snd]; [|discriminate]. destruct (negb (layout_ok ds)); [discriminate|]. intro H. assert (layout = ds) as ->.
    { destruct r; cbn [negb] in H; [destruct has_mesh; [|discriminate]|]; now injection H as <- _. }
    clear H. revert shape ds r HL E. induction s as [|e s IH]; intros shape ds r HL; cbn [entries].
    + intro H. injection H as <- _. apply map_length.
    + destruct (entry m allow shape e) as [x|]; cbn [rbind]; [|discriminate]. destruct (entries m allow (tl shape) s) as [[ds' r']|] eqn:E2; cbn [rmap fst snd]; [|discriminate]. intro H. injection H as <- _.
      destruct shape as [|d sh]; cbn [List.length tl] in *; [lia|]. f_equal. apply (IH sh ds' r'); [lia | exact E2].
  - destruct (negb (layout_ok (map (fun _ => None) shape))); [discriminate|]. intro H. injection H as <- _. apply map_length.
Qed.
Print Assumptions C84_rank.

Example C84_rank_example : to_dtensor mesh4 false true [8; 6; 5] (Some [EName "x"]) = Ok ([Some "x"; None; None], Some [EName "x"]).
Proof. vm_compute. reflexivity. Qed.

(** `jax_array_to_dtensor` does not compare the length of the spec with the rank of the array (`[UNSHARDED] * (len(arr.shape) - len(pspec))` is empty for a negative number): a longer spec of None makes a layout of a higher rank than the array, and one with an axis an IndexError. *)
Theorem C84_rank_refuted : exists m shape spec layout packed, to_dtensor m false true shape (Some spec) = Ok (layout, packed) /\ List.length layout > List.length shape /\ (forall a k, size_is m a k -> a <> "" -> to_dtensor m false true shape (Some (spec ++ [EName a])) = Err IndexError).
Proof.
  exists mesh4, [3], [ENone; ENone], [None; None], (Some [ENone; ENone]). split; [reflexivity|]. split; [cbn; lia|]. intros a k H N. apply dim_size_spec in H. unfold to_dtensor. cbn [app entries rbind rmap tl]. unfold entry at 1 2. cbn [axis_of rbind].
  unfold entry. destruct a as [|c a]; [congruence|]. cbn [axis_of rbind]. rewrite H. reflexivity.
Qed.
Print Assumptions C84_rank_refuted.

(** `jax_mesh` is optional in `jax_array_to_dtensor`, whatever `allow_multi_axis_sharding_consolidation` is, but a spec that is consolidated needs it: without it there is a TypeError from `with None`. *)
Theorem C84_no_jax_mesh_refuted : exists m shape spec, to_dtensor m true false shape spec = Err TypeError /\ exists r, to_dtensor m true true shape spec = Ok r.
Proof. exists mesh4, [8], (Some [ETuple ["x"; "y"]]). split; [reflexivity|]. eexists. vm_compute. reflexivity. Qed.
Print Assumptions C84_no_jax_mesh_refuted.

(** ** The DTensor system *)

(** The flag says that the system is there, after any calls; a good initialisation and a shutdown give back the start *)
Theorem C84_system : forall l s, (initialized s = true -> accelerators s = true) -> (initialized (calls s l) = true -> accelerators (calls s l) = true) /\
  (forall c, accelerators s = false -> clients c = processes c -> dt_local c = jax_local c -> dt_global c = jax_global c -> initialize c s = (mkSystem true true, Ok tt) /\ shutdown (mkSystem true true) = (mkSystem false false, Ok tt)) /\
  (initialized s = false -> shutdown s = (s, Err RuntimeError)) /\
  (forall c s', initialize c s = (s', Ok tt) -> accelerators s = false /\ initialized s' = true /\ clients c = processes c /\ dt_local c = jax_local c /\ dt_global c = jax_global c).
Proof.
  intros l s H. split; [|split; [|split]].
  - unfold calls. revert s H. induction l as [|k l IH]; intros s H; [exact H|]. cbn [fold_left]. apply IH. clear IH. destruct s as [a i]. cbn in H. destruct k as [c|]; cbn [step].
    + unfold step, initialize. cbn [accelerators initialized]. destruct a; [exact H|]. destruct (clients c =? processes c); cbn [negb]; [|reflexivity]. destruct ((dt_local c =? jax_local c) && (dt_global c =? jax_global c)); reflexivity.
    + unfold step, shutdown. cbn [accelerators initialized]. destruct i; cbn [negb fst]; [|exact H]. destruct a; cbn; [discriminate | exact H].
  - intros c A E1 E2 E3. split; [|reflexivity]. unfold initialize. rewrite A, E1, E2, E3, !Nat.eqb_refl. reflexivity.
  - intro E. unfold shutdown. now rewrite E.
  - intros c s'. unfold initialize. destruct (accelerators s); [discriminate|]. destruct (Nat.eqb_spec (clients c) (processes c)); cbn [negb]; [|discriminate]. destruct (Nat.eqb_spec (dt_local c) (jax_local c)), (Nat.eqb_spec (dt_global c) (jax_global c)); cbn [negb andb]; try discriminate. intro X. injection X as <-. now repeat split.
Qed.
Print Assumptions C84_system.

Example C84_system_example : calls (mkSystem false false) [CInit (mkCounts 2 2 4 8 4 8); CShutdown; CInit (mkCounts 1 1 4 4 4 4)] = mkSystem true true.
Proof. vm_compute. reflexivity. Qed.

(** `initialize_dtensor` sets its flag only after the checks, but TensorFlow's system is initialised before them. When the clients do not fit the processes it stays so: no later call of `initialize_dtensor` (ValueError) or `shutdown_dtensor` (RuntimeError) can change it. *)
Theorem C84_failed_start_refuted : exists c s, initialize c (mkSystem false false) = (s, Err RuntimeError) /\ forall l, calls s l = s /\ shutdown (calls s l) = (s, Err RuntimeError) /\ forall c', initialize c' (calls s l) = (s, Err ValueError).
Proof.
  exists (mkCounts 1 2 4 8 4 8), (mkSystem true false). split; [reflexivity|]. intro l. assert (X : calls (mkSystem true false) l = mkSystem true false) by (unfold calls; induction l as [|[c|] l IH]; cbn; auto). rewrite X. repeat split.
Qed.
Print Assumptions C84_failed_start_refuted.

(** ** The stack of meshes *)

(** Code sees the mesh of the innermost block that was entered with a mesh while the system was initialised; the stack is as before at the end, also after exceptions *)
Theorem C84_stack : forall c f st, match sees c f (current st) with (x, e, g) => run c f st = mkRan x e g st end.
Proof. exact run_sees. Qed.
Print Assumptions C84_stack.

Example C84_stack_example : run (With (Some 1) (Seq Ask (Seq (With None Ask) (Seq (With (Some 2) (Seq Ask (Set_ false))) (With (Some 3) (Seq Ask Raise)))))) true [] = mkRan [Some 1; Some 1; Some 2; Some 1] true false [].
Proof. vm_compute. reflexivity. Qed.

(** ** Specs of arrays *)

(** The specs of the arrays, and empty ones for leaves without shardings: exactly if all shardings are named and of one mesh *)
Theorem C84_pspecs : forall l, (forall ss, get_pspecs None l = Ok ss <-> Forall2 (fun x s => match x with APlain => s = [] | ANamed _ s' => s = s' | AOther => False end) l ss /\ (forall m s m' s', In (ANamed m s) l -> In (ANamed m' s') l -> m = m')) /\ (forall e, get_pspecs None l = Err e -> e = AssertionError).
Proof.
  intro l. destruct (get_pspecs_spec l None) as [H1 H2]. split; [|exact H2]. intro ss. rewrite H1. split; [intros (F & _ & K); now split | intros [F K]; split; [exact F|]; split; [intros; discriminate | exact K]].
Qed.
Print Assumptions C84_pspecs.

Example C84_pspecs_example : get_pspecs None [APlain; ANamed 3 [EName "x"]; ANamed 3 []] = Ok [[]; [EName "x"]; []] /\ get_pspecs None [ANamed 3 []; APlain; ANamed 4 []] = Err AssertionError.
Proof. vm_compute. split; reflexivity. Qed.
