(** C86: the dispatch of functions to workers. *)
From Coq Require Import List Bool Arith NArith String Sorting.Sorted Lia.
From Verif Require Import Base Colocated_Model Colocated_Spec Dispatch_Model Dispatch_Spec Dispatch_Proofs.
Import ListNotations.
Local Open Scope string_scope.
Local Open Scope list_scope.
Local Open Scope nat_scope.

Definition chip (n : nat) (i : N) : dev := mkDev n 0 i "tpu" [].
Definition host (d : dev) : dev := mkDev (d_obj d + 100) 1 (d_id d) "cpu" [].
Definition ops : meta_ops unit := mkMeta (fun _ => Err TypeError) (fun m _ => m).
Definition nowhere (n : nat) : list dev := [].
Definition line (l : list dev) : sharding := SNamed (mkMesh ["x"] [0] [List.length l] l) [["x"]] None.

(** The devices of the specs: two meshes with other device lists are refused with a ValueError; with one device list the array is on it, in its order; without a mesh it is on all devices of the specs, or on all devices if there are none, each once and by id *)
Theorem C86_input_from_specs : forall other all specs, (forall a b, on_specs other specs a \/ In a all -> on_specs other specs b \/ In b all -> d_obj a = d_obj b -> a = b) ->
  let mesh ds := exists m sp k, In (Some (SNamed m sp k)) (leaves specs) /\ m_devices m = ds in
  ((exists e, input_from_specs other all specs = Err e) <-> exists a b, mesh a /\ mesh b /\ a <> b) /\ (forall e, input_from_specs other all specs = Err e -> e = ValueError) /\
  (forall a, input_from_specs other all specs = Ok a -> exists l, replica a l /\
    ((exists ds, mesh ds) -> mesh l) /\
    ((forall ds, ~ mesh ds) -> (exists d, on_specs other specs d) -> arranged (on_specs other specs) l) /\
    ((forall d, ~ on_specs other specs d) -> (forall ds, ~ mesh ds) -> arranged (fun d => In d all) l)).
Proof.
  intros other all specs A mesh. set (P := fun d => on_specs other specs d \/ In d all). assert (AP : apart P) by exact A.
  assert (L : forall s d, In (Some s) (leaves specs) -> on other s d -> P d) by (intros s d H K; left; now exists s).
  destruct (device_lists_spec P other (leaves specs) AP L) as [N M]. destruct (spec_devices_spec P other (leaves specs) AP L) as [N' M'].
  change (forall ds, In ds (device_lists (leaves specs)) <-> mesh ds) in M. change (forall d, In d (spec_devices other (leaves specs)) <-> on_specs other specs d) in M'.
  unfold input_from_specs. destruct (device_lists (leaves specs)) as [|x [|y r]] eqn:E.
  - assert (Nm : forall ds, ~ mesh ds) by (intros ds K; now apply M in K). split; [split; [intros [e K]; discriminate | intros (a & b & K & _); now destruct (Nm a)]|]. split; [discriminate|]. intros a H. injection H as <-.
    eexists. split; [apply replicated_replica|]. split; [intros [ds K]; now destruct (Nm ds)|]. destruct (spec_devices other (leaves specs)) as [|d l] eqn:S.
    + split; [intros _ [d K]; now apply M' in K|]. intros _ _. destruct (update_spec P all [] AP) as [B C]; [intros x [[] | K]; now right | constructor|].
      apply (arranged_ext (fun d => In d (update [] all))); [intro d; rewrite C; cbn; tauto | now apply sort_spec].
    + split; [|intro K; destruct (K d); apply M'; now left]. intros _ _. apply (arranged_ext (fun x => In x (d :: l))); [exact M' | now apply sort_spec].
  - assert (Mx : mesh x) by (apply M; now left). split; [split; [intros [e K]; discriminate|]|].
    + intros (a & b & K & K' & D). apply M in K, K'. destruct K as [<- | []]. destruct K' as [<- | []]. now destruct D.
    + split; [discriminate|]. intros a H. injection H as <-. exists x. split; [apply replicated_replica|]. split; [intros _; exact Mx|]. split; [intro K; now destruct (K x) | intros _ K; now destruct (K x)].
  - split; [split; [|intros _; now exists ValueError]|split; [intros e H; now injection H as <- | discriminate]]. intros _. exists x, y. split; [apply M; now left|]. split; [apply M; right; now left|]. intros ->. inversion N as [|? ? N1 _]; subst. apply N1. now left.
Qed.
Print Assumptions C86_input_from_specs.

Example C86_input_from_specs_example :
  input_from_specs nowhere [chip 1 1; chip 2 2] (Many [Some (line [chip 2 2; chip 1 1]); None; Some (line [chip 2 2; chip 1 1])]) = Ok (dummy_input [chip 2 2; chip 1 1]) /\
  input_from_specs nowhere [chip 1 1; chip 2 2] (Many [Some (line [chip 2 2; chip 1 1]); Some (line [chip 1 1; chip 2 2])]) = Err ValueError /\
  input_from_specs nowhere [chip 1 1; chip 2 2] (Many [Some (SSingle (chip 3 9) None); Some (SSingle (chip 1 1) None); Some (SSingle (chip 3 9) None)]) = Ok (dummy_input [chip 1 1; chip 3 9]) /\
  input_from_specs nowhere [chip 2 2; chip 1 1] (One None) = Ok (dummy_input [chip 1 1; chip 2 2]).
Proof. vm_compute. repeat split. Qed.

(** Without result specs the function is called once: with the input arrays on the CPU devices beside theirs if they were given, else without arrays, and with the arguments moved so; its result is dropped, and the result is True on all devices of the input, each once and by id *)
Theorem C86_discarded : forall (M : Type) (o : meta_ops M) other colo all input args kwargs cargs ckwargs,
  let inp := match input with Some t => t | None => One (dummy_input all) end in
  (forall a b, on_arrays other inp a -> on_arrays other inp b -> d_obj a = d_obj b -> a = b) ->
  transform_tree o colo args = Ok cargs -> transform_tree o colo kwargs = Ok ckwargs -> forall cinp, alike_trees (beside_arr colo) inp cinp ->
  exists a l, replica a l /\ arranged (on_arrays other inp) l /\
    forall func, let c := (match input with Some _ => Some cinp | None => None end, cargs, ckwargs) in dispatch o other colo all func input None args kwargs = ([c], match func c with Ok _ => Ok (One a) | Err e => Err e end).
Proof.
  intros M o other colo all input args kwargs cargs ckwargs inp A Ha Hk cinp C. assert (T : tmap (cpu_array colo) inp = Ok cinp) by (apply tmap_ok; revert C; apply alike_mono; intros x y; apply cpu_array_ok).
  exists (dummy_input (sort_id (spec_devices other (map (fun a => Some (a_sh a)) (leaves inp))))). eexists. split; [apply replicated_replica|]. split.
  - destruct (spec_devices_spec (on_arrays other inp) other (map (fun a => Some (a_sh a)) (leaves inp)) A) as [N S].
    + intros s d H K. apply in_map_iff in H as (a & E & H). injection E as <-. now exists a.
    + apply (arranged_ext (fun d => In d (spec_devices other (map (fun a => Some (a_sh a)) (leaves inp))))); [|now apply sort_spec]. intro d. rewrite S. split.
      * intros (s & H & K). apply in_map_iff in H as (a & E & H). injection E as <-. now exists a.
      * intros (a & H & K). exists (a_sh a). split; [apply in_map_iff; now exists a | exact K].
  - intro func. cbn zeta. unfold dispatch. replace (match input with Some t => Ok t | None => Ok (One (dummy_input all)) end) with (Ok inp) by (unfold inp; now destruct input).
    destruct (ex_intro (fun c => tmap (cpu_spec colo) (One (Some (dummy_sharding other inp))) = Ok c) _ eq_refl) as [c Hc].
    cbn [rbind]. rewrite Ha, Hk. cbn [rbind]. rewrite Hc. cbn [rbind]. rewrite T. cbn [rmap rbind same_structure final snd fst a_val]. destruct (func _); reflexivity.
Qed.
Print Assumptions C86_discarded.

Example C86_discarded_example :
  dispatch ops nowhere host [chip 1 1] (fun _ => Ok (Many [mkArr 9 (SOther 0)])) (Some (Many [mkArr 5 (line [chip 2 2; chip 1 1]); mkArr 6 (SSingle (chip 3 0) None)])) None [LSharding (SSingle (chip 1 1) None)] [LOther 4] =
    ([(Some (Many [mkArr 5 (line [host (chip 2 2); host (chip 1 1)]); mkArr 6 (SSingle (host (chip 3 0)) None)]), [LSharding (SSingle (host (chip 1 1)) None)], [LOther 4])], Ok (One (dummy_input [chip 3 0; chip 1 1; chip 2 2]))) /\
  dispatch ops nowhere host [chip 1 1] (fun _ => Err ValueError) None None [] [] = ([(None, [], [])], Err ValueError).
Proof. vm_compute. repeat split. Qed.

(** With result specs that are not an empty container the results are the values of the function with the shardings of the specs, each in its place; exactly when the function gives a tree of that structure *)
Theorem C86_results : forall (M : Type) (o : meta_ops M) other colo all func inp specs fs cspecs args kwargs cargs ckwargs cinp, truthy specs = true -> alike_trees (fun s x => s = Some x) specs fs -> tmap (cpu_sharding colo) fs = Ok cspecs ->
  transform_tree o colo args = Ok cargs -> transform_tree o colo kwargs = Ok ckwargs -> alike_trees (beside_arr colo) inp cinp ->
  fst (dispatch o other colo all func (Some inp) (Some specs) args kwargs) = [(Some cinp, cargs, ckwargs)] /\
  (forall u, snd (dispatch o other colo all func (Some inp) (Some specs) args kwargs) = Ok u <-> exists r, func (Some cinp, cargs, ckwargs) = Ok r /\ alike_trees (fun x y => a_val y = a_val x) r u /\ alike_trees (fun (s : sharding) y => a_sh y = s) fs u).
Proof.
  intros M o other colo all func inp specs fs cspecs args kwargs cargs ckwargs cinp Tr F Cs Ha Hk C. assert (T : tmap (cpu_array colo) inp = Ok cinp) by (apply tmap_ok; revert C; apply alike_mono; intros x y; apply cpu_array_ok).
  assert (S : tmap (cpu_spec colo) specs = Ok cspecs).
  { apply tmap_ok in Cs. apply tmap_ok. destruct specs as [s | l], fs as [f | m], cspecs as [c | n]; cbn in *; try tauto; [now subst|]. clear - F Cs. revert n Cs. induction F as [|s f l m E F IH]; intros n Cs; inversion Cs; subst; constructor; [assumption | now apply IH]. }
  unfold dispatch. cbn [rbind]. rewrite Ha, Hk. cbn [rbind]. rewrite Tr, S. cbn [rbind]. rewrite T. cbn [rmap rbind fst snd]. split; [reflexivity|]. intro u. destruct (func _) as [r|e]; cbn [rbind]; [|split; [discriminate | intros (r & H & _); discriminate]].
  split.
  - destruct (same_structure r specs); [|discriminate]. intro H. apply final_ok in H as (fs' & A & B & D). exists r. split; [reflexivity|]. split; [exact B|]. replace fs with fs'; [exact D|].
    clear - A F. destruct specs as [s | l], fs as [f | m], fs' as [f' | m']; cbn in *; try tauto; [congruence|]. f_equal. revert m' A. induction F as [|s f l m E F IH]; intros m' A; inversion A; subst; [reflexivity|]. f_equal; [congruence | now apply IH].
  - intros (r' & H & B & D). injection H as <-. assert (X : final r specs = Ok u) by (apply final_ok; now exists fs). now rewrite (final_structure _ _ _ X).
Qed.
Print Assumptions C86_results.

Example C86_results_example : dispatch ops nowhere host [chip 1 1] (fun c => match c with (Some (One a), _, _) => Ok (Many [mkArr (a_val a + 1) (SOther 0); mkArr 3 (SOther 1)]) | _ => Err ValueError end) (Some (One (mkArr 5 (line [chip 2 2]))))
    (Some (Many [Some (line [chip 2 2]); Some (SSingle (chip 2 2) None)])) [] [] = ([(Some (One (mkArr 5 (line [host (chip 2 2)]))), [], [])], Ok (Many [mkArr 6 (line [chip 2 2]); mkArr 3 (SSingle (chip 2 2) None)])).
Proof. vm_compute. reflexivity. Qed.

(** Without input arrays the function gets none, and runs where the specs are: it is as if the array of the specs were the input, but hidden *)
Theorem C86_no_input : forall (M : Type) (o : meta_ops M) other colo all func specs args kwargs,
  (forall e, input_from_specs other all specs = Err e -> dispatch o other colo all func None (Some specs) args kwargs = ([], Err e)) /\
  (forall a, input_from_specs other all specs = Ok a ->
    dispatch o other colo all func None (Some specs) args kwargs =
    let r := dispatch o other colo all (fun c => func (None, snd (fst c), snd c)) (Some (One a)) (Some specs) args kwargs in (map (fun c => (None, snd (fst c), snd c)) (fst r), snd r)).
Proof.
  intros M o other colo all func specs args kwargs. unfold dispatch. split; intros x H; rewrite H; cbn [rmap rbind]; [reflexivity|].
  destruct (transform_tree o colo args) as [ca|]; cbn [rbind]; [|reflexivity]. destruct (transform_tree o colo kwargs) as [ck|]; cbn [rbind]; [|reflexivity]. destruct (tmap (cpu_spec colo) _) as [cs|]; cbn [rbind]; [|reflexivity].
  destruct (tmap (cpu_array colo) (One x)) as [ci|]; reflexivity.
Qed.
Print Assumptions C86_no_input.

Example C86_no_input_example : dispatch ops nowhere host [chip 1 1] (fun c => match c with (None, _, _) => Ok (One (mkArr 3 (SOther 1))) | _ => Err ValueError end) None (Some (One (Some (line [chip 2 2])))) [] [] = ([(None, [], [])], Ok (One (mkArr 3 (line [chip 2 2])))).
Proof. vm_compute. reflexivity. Qed.

(** The function is never called when an argument, a spec or an array cannot be moved, and never more than once *)
Theorem C86_once : forall (M : Type) (o : meta_ops M) other colo all func input specs args kwargs, let r := dispatch o other colo all func input specs args kwargs in
  List.length (fst r) <= 1 /\ (forall e, transform_tree o colo args = Err e \/ transform_tree o colo kwargs = Err e -> fst r = []) /\ (forall t e, specs = Some t -> tmap (cpu_spec colo) t = Err e -> truthy t = true -> fst r = []) /\ (forall u, snd r = Ok u -> List.length (fst r) = 1).
Proof.
  intros M o other colo all func input specs args kwargs. cbn zeta. unfold dispatch.
  destruct (match input, specs with Some t, _ => Ok t | None, None => Ok (One (dummy_input all)) | None, Some s => rmap One (input_from_specs other all s) end) as [inp|e0]; cbn [rbind]; [|repeat split; auto; discriminate].
  destruct (transform_tree o colo args) as [ca|e1]; cbn [rbind]; [|repeat split; auto; discriminate]. destruct (transform_tree o colo kwargs) as [ck|e2]; cbn [rbind]; [|repeat split; auto; discriminate].
  destruct (tmap (cpu_spec colo) (match specs with Some s => if truthy s then s else One (Some (dummy_sharding other inp)) | None => One (Some (dummy_sharding other inp)) end)) as [cs|e3] eqn:S; cbn [rbind]; [|repeat split; auto; discriminate].
  destruct (tmap (cpu_array colo) inp) as [ci|e4]; cbn [rmap]; [|repeat split; auto; discriminate]. cbn [fst snd List.length]. split; [lia|]. split; [intros e [H | H]; discriminate|]. split; [|reflexivity].
  intros t e -> H Tr. rewrite Tr in S. congruence.
Qed.
Print Assumptions C86_once.

Example C86_once_example : dispatch ops nowhere host [chip 1 1] (fun _ => Ok (Many [])) None None [LSharding (SOther 3)] [] = ([], Err TypeError).
Proof. vm_compute. reflexivity. Qed.

(** An empty container of result specs is not None, so the result of the function is kept, but `result_specs or dummy` takes it for missing: the function runs, and its result, although it is the empty container that was described, is an error of structure *)
Theorem C86_empty_specs_refuted : exists (func : call unit -> result (tree arr)) inp, func (Some inp, [], []) = Ok (Many []) /\ alike_trees (beside_arr host) inp inp /\
  dispatch ops nowhere host [chip 1 1] func (Some inp) (Some (Many [])) [] [] = ([(Some inp, [], [])], Err ValueError).
Proof. exists (fun _ => Ok (Many [])), (Many []). split; [reflexivity|]. split; [constructor | vm_compute; reflexivity]. Qed.
Print Assumptions C86_empty_specs_refuted.

(** `_collect` is written for specs without a sharding and falls back to all devices, but such a spec ends in a TypeError before the function runs *)
Theorem C86_no_sharding_refuted : exists a, input_from_specs nowhere [chip 2 2; chip 1 1] (One None) = Ok a /\ forall func : call unit -> result (tree arr), dispatch ops nowhere host [chip 2 2; chip 1 1] func None (Some (One None)) [] [] = ([], Err TypeError).
Proof. eexists. split; [reflexivity|]. intro func. reflexivity. Qed.
Print Assumptions C86_no_sharding_refuted.

(** When one spec has a mesh, devices of the other specs are not looked at: the function runs on the mesh only, although a result is to be on a device outside of it *)
Theorem C86_outside_refuted : exists specs d a l, on_specs nowhere specs d /\ input_from_specs nowhere [chip 1 1; chip 2 2; chip 3 3] specs = Ok a /\ replica a l /\ ~ In d l.
Proof.
  exists (Many [Some (line [chip 1 1; chip 2 2]); Some (SSingle (chip 3 3) None)]), (chip 3 3), (dummy_input [chip 1 1; chip 2 2]), [chip 1 1; chip 2 2]. split; [exists (SSingle (chip 3 3) None); split; [right; now left | reflexivity]|].
  split; [vm_compute; reflexivity|]. split; [apply replicated_replica|]. intros [H | [H | []]]; discriminate.
Qed.
Print Assumptions C86_outside_refuted.
