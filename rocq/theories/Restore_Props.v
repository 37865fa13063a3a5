(** C77: restoring with transforms reads what the result needs.  Sources: pytree_checkpoint_handler.py ("PH"), transform_utils.py ("XU"). *)
From Coq Require Import List Bool Arith String Lia.
From Verif Require Import Base StepName_Model Tree_Model Transform_Model Restore_Model Restore_Spec Restore_Proofs.
Import ListNotations.
Local Open Scope string_scope.
Local Open Scope list_scope.

(** Arrays that are not read are not needed: the result is that of transforming the checkpoint with every array read. *)
Theorem C77_needed : forall (V A : Type) fm (none : A) store cast dflt (item : dict string V) st (ts : dict string (rtransform V A)) args ps,
  restore_parameters fm none false dflt (Some item) st (Some ts) (Some args) = Ok ps -> inputs_given ts -> functions_look_at_inputs fm ts ->
  transform_checkpoint fm dflt (Some item) (deserialize store cast st ps) (Some args) (Some ts) = transform_checkpoint fm dflt (Some item) (whole store cast st ps) (Some args) (Some ts).
Proof.
  intros V A fm none store cast dflt item st ts args ps H G L. cbn in *. apply seq_f2 in H.
  eapply apply_same; eauto. intros x I. now apply in_map.
Qed.
Print Assumptions C77_needed.

(** Patterns of the examples: a name, or everything; a match expands the name as it is, or a star to the key *)
Definition ex_match : matcher := fun p k =>
  if String.eqb p "all" then Ok (Some (fun r => Ok (if String.eqb r "same" then k else r))) else Ok (if String.eqb p k then Some (fun r => Ok r) else None).
(** A rename *)
Definition ex_rename (k : string) : rtransform nat nat := mkT (Some k) false None None false None.
(** The value of the item *)
Definition ex_fallback : rtransform nat nat := mkT None true None None false None.
(** The sum of two arrays, read with the arguments 7 and 8 *)
Definition ex_sum : rtransform nat nat :=
  mkT None false None
    (Some (fun _ t _ => match t with Node _ l => match dget (fun a b => match a, b with DictKey (KStr x), DictKey (KStr y) => String.eqb x y | _, _ => false end) (DictKey (KStr "p")) l,
                                                       dget (fun a b => match a, b with DictKey (KStr x), DictKey (KStr y) => String.eqb x y | _, _ => false end) (DictKey (KStr "q")) l with
                                                 | Some (Leaf (Read x)), Some (Leaf (Read y)) => Ok (Leaf (Read (x + y))) | _, _ => Err TypeError end | _ => Err TypeError end))
    true (Some [("p", Some 7); ("q", Some 8)]).
(** Reading gives a number for the name and the arguments *)
Definition ex_store (k : string) (a : nat) : nat := 100 * String.length k + a.

(** Six arrays; the item wants one renamed, one from a function, one as it is, one of its own. *)
Definition ex_item : dict string nat := [("new", 1); ("sum", 2); ("keep", 3); ("mine", 4)].
(** See above *)
Definition ex_transforms : dict string (rtransform nat nat) := [("new", ex_rename "older"); ("sum", ex_sum); ("mine", ex_fallback)].
(** See above *)
Definition ex_args : dict string nat := [("new", 11); ("sum", 12); ("keep", 13); ("mine", 14)].
(** See above *)
Definition ex_structure : dict string (entry nat) := [("older", EMeta); ("p", EMeta); ("q", EValue 50); ("keep", EMeta); ("mine", EMeta); ("rest", EMeta)].

Example C77_needed_ex :
  restore_parameters ex_match 0 false true (Some ex_item) ex_structure (Some ex_transforms) (Some ex_args)
  = Ok [("older", (false, 11)); ("p", (false, 7)); ("q", (true, 8)); ("keep", (false, 13)); ("mine", (true, 0)); ("rest", (true, 0))]
  /\ restore ex_match 0 ex_store plus true (Some (map fst ex_structure)) (Some [("q", AValue 50)]) (Some ex_item) (Some ex_args) (Some ex_transforms) true false
  = Ok (Restored [("new", Leaf (Read 511)); ("sum", Leaf (Read 165)); ("keep", Leaf (Read 413)); ("mine", Leaf (Given 4))])
  /\ inputs_given ex_transforms /\ functions_look_at_inputs ex_match ex_transforms.
Proof.
  repeat split; try (vm_compute; reflexivity).
  - intros p t ins r [[= <- <-]|[[= <- <-]|[[= <- <-]|[]]]] E I; cbn in E; try discriminate. injection E as <-. destruct I as [[=]|[[=]|[]]].
  - intros p t f ins [[= <- <-]|[[= <- <-]|[[= <- <-]|[]]]] M E; try discriminate. cbn in M, E. injection M as <-. injection E as <-. intros d1 d2 K H o a.
    assert (D : forall k (d : dict string (got nat)), dget (fun a b => match a, b with DictKey (KStr x), DictKey (KStr y) => String.eqb x y | _, _ => false end) (DictKey (KStr k))
                                 (map (fun x => (DictKey (KStr (fst x)), Leaf (snd x))) d) = match dget String.eqb k d with Some g => Some (Leaf g) | None => None end).
    { intros k d. induction d as [|[k' g] d IH]; cbn; [reflexivity|]. destruct (String.eqb k k'); [reflexivity|exact IH]. }
    unfold as_tree. rewrite !D.
    rewrite (H "p" (Some 7) "p" (fun r => Ok r)), (H "q" (Some 8) "q" (fun r => Ok r)); cbn; auto.
Qed.

(** Without functions every leaf of the result is the value that the item has for it, or was read: the array that a transform names for it, or the one of its name, with the arguments of an output that this array is for. Entries of
    the metadata never get into the result. *)
Theorem C77_read : forall (V A : Type) fm (none : A) store cast ex metadata aggregate (item : dict string V) args (ts : dict string (rtransform V A)) dflt partial d,
  restore fm none store cast ex metadata aggregate (Some item) (Some args) (Some ts) dflt partial = Ok (Restored d) ->
  no_functions ts -> inputs_given ts ->
  map fst d = map fst item /\
  forall k t, In (k, t) d -> (exists v, In (k, v) item /\ t = Leaf (Given v))
    \/ exists key o a, (draws fm ts k key \/ key = k) /\ In o (map fst item) /\ (draws fm ts o key \/ o = key) /\ dget String.eqb o args = Some a
         /\ (t = Leaf (Read (store key a)) \/ exists w, t = Leaf (Read (cast w a)) /\ match aggregate with Some g => In (key, AValue w) g | None => False end).
Proof.
  intros V A fm none store cast ex metadata aggregate item args ts dflt partial d H N G.
  destruct (restore_cases _ _ _ _ _ _ _ _ _ _ _ _ _ H) as (st & ps & d' & E & S0 & P & D). injection E as <-.
  split; [eapply apply_keys; eauto|]. intros k t I. cbn in P. apply seq_f2 in P.
  destruct (apply_values _ _ _ _ _ _ _ N D _ _ I) as [A1|(key & g & C & Eg & ->)]; [now left|]. right.
  destruct (deser_at _ _ _ _ _ _ Eg) as (e & [s a] & I1 & I2 & ->). pose proof (combine_param _ _ _ _ _ _ _ _ P _ _ I2) as T. cbn [fst] in T.
  assert (Ik : In k (map fst item)) by (rewrite <- (apply_keys _ _ _ _ _ _ _ D); change k with (fst (k, Leaf (read_leaf store cast key e (s, a)))); now apply in_map).
  destruct (needed_origin _ _ _ _ _ _ _ _ _ _ _ T G N Ik C) as (-> & o & Io & Dr & Da).
  exists key, o, a. split; [destruct C as [C|[(C & _)|(C & _)]]; auto|]. repeat split; auto.
  destruct e as [|w]; cbn; [now left|]. right. exists w. split; [reflexivity|].
  destruct S0 as [S0|(-> & -> & ->)].
  - destruct metadata as [m|], aggregate as [g|]; cbn in S0; try discriminate; injection S0 as <-; apply in_map_iff in I1.
    + destruct I1 as (k' & E & _). injection E as -> E. destruct (dget String.eqb key g) as [[v|]|] eqn:Ev; cbn in E; try discriminate. injection E as ->. now apply dget_in.
    + destruct I1 as (k' & E & _). discriminate.
    + destruct I1 as ([k' [v|]] & E & I'); cbn in E; try discriminate. injection E as -> ->. exact I'.
  - apply in_map_iff in I1. destruct I1 as (k' & E & _). discriminate.
Qed.
Print Assumptions C77_read.

Example C77_read_ex :
  restore ex_match 0 ex_store plus true (Some ["a"; "b"; "c"]) (Some [("c", AValue 9)]) (Some [("x", 1); ("b", 2); ("c", 3); ("y", 4)]) (Some [("x", 1); ("b", 2); ("c", 3); ("y", 4)]) (Some [("x", ex_rename "a"); ("b", ex_fallback)]) true false
  = Ok (Restored [("x", Leaf (Read 101)); ("b", Leaf (Given 2)); ("c", Leaf (Read 12)); ("y", Leaf (Given 4))]).
Proof. vm_compute. reflexivity. Qed.

(** Arrays are read for a reason: a function names them with these arguments, or they are for an output with these arguments, by a transform or by their name. *)
Theorem C77_origin : forall (V A W : Type) fm (none : A) dflt (item : dict string W) (st : dict string (entry V)) (ts : dict string (rtransform V A)) args ps,
  restore_parameters fm none false dflt (Some item) st (Some ts) (Some args) = Ok ps ->
  map fst ps = map fst st /\
  forall k a, In (k, (false, a)) ps ->
    In (k, EMeta) st /\
    (declares fm ts k a \/ exists o, In o (map fst item) /\ (draws fm ts o k \/ o = k) /\ dget String.eqb o args = Some a).
Proof.
  intros V A W fm none dflt item st ts args ps H. cbn in H. apply seq_f2 in H. split; [symmetry; eapply params_keys; eauto|]. intros k a I.
  destruct (f2_in_r _ _ _ H _ I) as ([k' e] & Ix & T). pose proof (tp_key _ _ _ _ _ _ _ _ _ T) as K. cbn in K. subst k'.
  destruct (tp_origin _ _ _ _ _ _ _ _ _ _ T) as [(E & _)|(Es & O)]; [discriminate|]. split; [destruct e; [exact Ix|discriminate]|].
  destruct O as [O|[(o & Io & Dr & Da)|(Io & Da & _)]]; [now left|right; exists o; auto|right; exists k; auto].
Qed.
Print Assumptions C77_origin.

(** An array that is not read, with the arguments of nothing, is one that no function names and that no output is drawn from. *)
Theorem C77_unread : forall (V A W : Type) fm (none : A) dflt (item : dict string W) (st : dict string (entry V)) (ts : dict string (rtransform V A)) args ps k a,
  restore_parameters fm none false dflt (Some item) st (Some ts) (Some args) = Ok ps -> inputs_given ts -> NoDup (map fst st) -> In (k, EMeta) st -> In (k, (true, a)) ps ->
  a = none /\ (forall b, ~ declares fm ts k b) /\ (forall o, In o (map fst item) -> ~ draws fm ts o k)
  /\ (In k (map fst item) -> dflt = true <-> exists p t e, In (p, t) ts /\ fm p k = Ok (Some e) /\ t_fallback t = true).
Proof.
  intros V A W fm none dflt item st ts args ps k a H G ND Is Ip. cbn in H. apply seq_f2 in H.
  assert (T : transform_param fm none dflt (map fst item) args ts (k, EMeta) = Ok (k, (true, a))).
  { destruct (f2_in_r _ _ _ H _ Ip) as ([k' e] & Ix & T). pose proof (tp_key _ _ _ _ _ _ _ _ _ T) as K. cbn in K. subst k'.
    replace (@EMeta V) with e; [exact T|]. clear - ND Is Ix. induction st as [|[k' e'] st IH]; [destruct Is|]. cbn in ND. inversion ND as [|? ? NI ND2]; subst.
    destruct Is as [[= -> ->]|Is], Ix as [Eq|Ix]; try congruence.
    - exfalso. apply NI. apply (in_map fst) in Ix. exact Ix.
    - injection Eq as -> ->. exfalso. apply NI. apply (in_map fst) in Is. exact Is.
    - auto. }
  destruct (tp_origin _ _ _ _ _ _ _ _ _ _ T) as [(_ & -> & Fn & Nf)|(E & _)]; [|discriminate]. repeat split; auto.
  - intros b (p & t & ins & r & e & It & M & Ei & Ir & Er). destruct (find_matching_hit _ _ _ _ _ _ Fn G) as (x & E); [|discriminate]. exists (p, t). split; auto. left. cbn. split; auto. right. exists ins, r, (Some b), e. auto.
  - intros o Io (p & t & e & It & M & Fb & Em & Es). destruct (find_matching_hit _ _ _ _ _ _ Fn G) as (x & E); [|discriminate]. exists (p, t). split; auto. right. cbn. repeat split; auto. exists o, e. auto.
  - intros D. apply Nf; auto.
  - intros D. apply Nf; auto.
Qed.
Print Assumptions C77_unread.

Example C77_origin_ex :
  restore_parameters ex_match 0 false false (Some ex_item) ex_structure (Some ex_transforms) (Some ex_args)
  = Ok [("older", (false, 11)); ("p", (false, 7)); ("q", (true, 8)); ("keep", (true, 0)); ("mine", (false, 14)); ("rest", (true, 0))].
Proof. vm_compute. reflexivity. Qed.

(** Without transforms every leaf is read, each with its arguments; if there is an item its leaves are taken. *)
Theorem C77_plain : forall (V A : Type) fm (none : A) (store : string -> A -> V) cast metadata aggregate st (f : string -> A) args dflt partial,
  internal_metadata metadata aggregate = Ok st -> (metadata = None \/ can_ignore aggregate = false) ->
  args = Some (map (fun x => (fst x, f (fst x))) st) \/ args = None /\ (forall k, f k = none) ->
  restore fm none store cast true metadata aggregate None args None dflt partial
  = Ok (Restored (map (fun x => (fst x, Leaf (Read (value_of store cast (fst x) (snd x) (f (fst x)))))) st))
  /\ forall item, (forall k, In k (map fst item) -> In k (map fst st)) -> exists d,
     restore fm none store cast true metadata aggregate (Some item) args None dflt partial = Ok (Restored d) /\ map fst d = map fst item
     /\ forall k t, In (k, t) d -> exists e, dget String.eqb k st = Some e /\ t = Leaf (Read (value_of store cast k e (f k))).
Proof.
  intros V A fm none store cast metadata aggregate st f args dflt partial M NC HA.
  assert (ND : negb (is_none metadata) && can_ignore aggregate && is_none (@None (dict string (rtransform V A))) = false).
  { destruct NC as [-> | ->]; [reflexivity|]. now rewrite andb_false_r. }
  set (args' := map (fun x : string * entry V => (fst x, f (fst x))) st).
  assert (PP : forall item : option (dict string V), restore_parameters (V := V) fm none false dflt item st None args = Ok (map (fun x => (fst x, (skips (snd x), f (fst x)))) st)).
  { intros item. transitivity (plain_params st args').
    { destruct HA as [-> | [-> F]]; [reflexivity|]. unfold restore_parameters. f_equal. unfold args'. apply map_ext. intros x. now rewrite F. }
    unfold plain_params. replace (forallb (fun k => has k st) (map fst args')) with true.
    2: { symmetry. apply forallb_forall. intros k I. unfold args' in I. rewrite map_map in I. cbn in I. unfold has. destruct (dget_key k st I) as (x & ->). reflexivity. }
    assert (G : forall k, In k (map fst st) -> dget String.eqb k args' = Some (f k)).
    { intros k. unfold args'. clear. induction st as [|[k' e] st IH]; cbn; [intros []|]. destruct (String.eqb_spec k k') as [->|N]; [reflexivity|]. intros [E|I]; [congruence|auto]. }
    assert (L : forall l, (forall x, In x l -> In (fst x) (map fst st)) -> sequence (map (fun x : string * entry V => match dget String.eqb (fst x) args' with Some a => Ok (fst x, (skips (snd x), a)) | None => Err ValueError end) l) = Ok (map (fun x => (fst x, (skips (snd x), f (fst x)))) l)).
    { induction l as [|x l IH]; intros L; [reflexivity|]. cbn. rewrite (G (fst x)) by (apply L; now left). cbn. rewrite IH by (intros y I; apply L; now right). reflexivity. }
    exact (L st (fun x I => in_map fst _ _ I)). }
  assert (DD : deserialize store cast st (map (fun x => (fst x, (skips (snd x), f (fst x)))) st) = map (fun x => (fst x, Read (value_of store cast (fst x) (snd x) (f (fst x))))) st).
  { clear. induction st as [|[k e] st IH]; [reflexivity|]. cbn. rewrite IH. f_equal. destruct e; reflexivity. }
  split.
  - unfold restore. cbn [negb]. rewrite ND, M. cbn [rbind]. rewrite PP. cbn [rbind]. rewrite DD. cbn. rewrite map_map. reflexivity.
  - intros item Sub. unfold restore. cbn [negb]. rewrite ND, M. cbn [rbind]. rewrite PP. cbn [rbind]. rewrite DD. cbn [transform_checkpoint].
    set (rest := map (fun x : string * entry V => (fst x, Read (value_of store cast (fst x) (snd x) (f (fst x))))) st).
    assert (G : forall k, dget String.eqb k rest = match dget String.eqb k st with Some e => Some (Read (value_of store cast k e (f k))) | None => None end).
    { intros k. unfold rest. clear. induction st as [|[k' e] st IH]; cbn; [reflexivity|]. destruct (String.eqb_spec k k') as [->|N]; [reflexivity|exact IH]. }
    induction item as [|[k v] item IH].
    + exists []. cbn. repeat split; auto. intros k t [].
    + destruct IH as (d & E & K & Q); [intros k' I; apply Sub; now right|]. cbn [map sequence fst snd]. destruct (dget_key k st (Sub k (or_introl eq_refl))) as (e & Ee).
      unfold item_at at 1. rewrite G, Ee. cbn [rmap rbind]. destruct (sequence _) as [d'|] in E |- *; [|discriminate]. cbn in E |- *. injection E as ->.
      eexists. split; [reflexivity|]. cbn. split; [now rewrite K|]. intros k' t [[= <- <-]|I]; [exists e; auto|auto].
Qed.
Print Assumptions C77_plain.

Example C77_plain_ex :
  restore (V := nat) ex_match 0 ex_store plus true None (Some [("a", APlaceholder); ("b", AValue 5)]) None (Some [("a", 1); ("b", 2)]) None true true
  = Ok (Restored [("a", Leaf (Read 101)); ("b", Leaf (Read 7))]).
Proof. vm_compute. reflexivity. Qed.

(** The structure has the names of the metadata file, or of the aggregate file if there is none; the value of a leaf is the one of the aggregate file, and without one the array is stored by itself. *)
Theorem C77_structure : forall (V : Type) metadata (aggregate : option (dict string (aggregated V))),
  match internal_metadata metadata aggregate with
  | Err e => e = FileNotFoundError /\ metadata = None /\ aggregate = None
  | Ok st =>
    map fst st = match metadata, aggregate with Some m, _ => m | None, Some g => map fst g | None, None => [] end
    /\ forall k e, dget String.eqb k st = Some e -> forall v, e = EValue v <-> exists g, aggregate = Some g /\ dget String.eqb k g = Some (AValue v)
  end.
Proof.
  intros V [m|] [g|]; cbn; [| | |auto].
  - split; [rewrite map_map; apply map_id|]. intros k e H v. assert (E : e = match dget String.eqb k g with Some a => aggregate_leaf a | None => EMeta end).
    { revert H. induction m as [|k' m IH]; cbn; [discriminate|]. destruct (String.eqb_spec k k') as [->|N]; [intros [= <-]; reflexivity|exact IH]. }
    rewrite E. destruct (dget String.eqb k g) as [[w|]|] eqn:Eg; cbn; split; intros Q; try discriminate.
    + injection Q as ->. eauto.
    + destruct Q as (g' & [= <-] & Q). rewrite Eg in Q. now injection Q as ->.
    + destruct Q as (g' & [= <-] & Q). rewrite Eg in Q. discriminate.
    + destruct Q as (g' & [= <-] & Q). rewrite Eg in Q. discriminate.
  - split; [rewrite map_map; apply map_id|]. intros k e H v. assert (E : e = EMeta).
    { revert H. induction m as [|k' m IH]; cbn; [discriminate|]. destruct (String.eqb k k'); [intros [= <-]; reflexivity|exact IH]. }
    rewrite E. split; [discriminate|]. intros (g & Q & _). discriminate.
  - split; [rewrite map_map; reflexivity|]. intros k e H v. rewrite dget_map in H. destruct (dget String.eqb k g) as [[w|]|] eqn:Eg; cbn in H; [| |discriminate]; injection H as <-; split; intros Q; try discriminate.
    + injection Q as ->. eauto.
    + destruct Q as (g' & [= <-] & Q). rewrite Eg in Q. now injection Q as ->.
    + destruct Q as (g' & [= <-] & Q). rewrite Eg in Q. discriminate.
Qed.
Print Assumptions C77_structure.

Example C77_structure_ex : internal_metadata (Some ["a"; "b"; "c"]) (Some [("b", AValue 3); ("a", APlaceholder); ("d", AValue 4)]) = Ok [("a", EMeta); ("b", EValue 3); ("c", EMeta)].
Proof. reflexivity. Qed.

(** The base handler restores exactly when there is a metadata file, no aggregated value and no transform; it then gets the request for a partial restore. *)
Theorem C77_dispatch : forall (V A : Type) fm (none : A) (store : string -> A -> V) cast ex metadata aggregate item args ts dflt partial p,
  restore fm none store cast ex metadata aggregate item args ts dflt partial = Ok (Delegated p) <->
  p = partial /\ ex = true /\ metadata <> None /\ ts = None /\ (forall g k v, aggregate = Some g -> ~ In (k, AValue v) g).
Proof.
  intros V A fm none store cast ex metadata aggregate item args ts dflt partial p.
  assert (C : can_ignore aggregate = true <-> forall g k v, aggregate = Some g -> ~ In (k, AValue v) g).
  { destruct aggregate as [g|]; cbn; [|split; [intros _ g k v E; discriminate|reflexivity]]. rewrite forallb_forall. split.
    - intros H g' k v [= <-] I. specialize (H _ I). discriminate.
    - intros H [k [v|]] I; [exfalso; exact (H g k v eq_refl I)|reflexivity]. }
  unfold restore. destruct ex; cbn [negb]; [|split; [discriminate|intros (_ & E & _); discriminate]].
  destruct (negb (is_none metadata) && can_ignore aggregate && is_none ts) eqn:E.
  - apply andb_prop in E. destruct E as [E E3]. apply andb_prop in E. destruct E as [E1 E2]. split.
    + intros [= <-]. repeat split; [destruct metadata; [discriminate|discriminate]|destruct ts; [discriminate|reflexivity]|now apply C].
    + intros (-> & _). reflexivity.
  - split.
    + intros H. exfalso. destruct (match internal_metadata metadata aggregate with Err FileNotFoundError => _ | _ => _ end) as [st|]; cbn [rbind] in H; [|discriminate].
      destruct (restore_parameters _ _ _ _ _ _ _ _); cbn [rbind] in H; [|discriminate]. destruct (transform_checkpoint _ _ _ _ _ _); discriminate.
    + intros (_ & _ & M & -> & K). apply C in K. rewrite K in E. destruct metadata; [discriminate|congruence].
Qed.
Print Assumptions C77_dispatch.

Example C77_dispatch_ex : restore (V := nat) ex_match 0 ex_store plus true (Some ["a"]) (Some [("a", APlaceholder)]) None None None true true = Ok (Delegated true).
Proof. reflexivity. Qed.

(** Errors: no directory or nothing in it is FileNotFoundError; transforms without an item is ValueError, and so is a function without its inputs, which is seen when the first array that no transform before it takes is looked at. *)
Theorem C77_errors : forall (V A : Type) fm (none : A) (store : string -> A -> V) cast metadata aggregate item args ts dflt partial,
  restore fm none store cast false metadata aggregate item args ts dflt partial = Err FileNotFoundError
  /\ restore fm none store cast true None None None args ts dflt partial = Err FileNotFoundError
  /\ (ts <> None -> (metadata <> None \/ aggregate <> None) -> restore fm none store cast true metadata aggregate None args ts dflt partial = Err ValueError)
  /\ (forall p t rest (i : dict string V) k (e : entry V), t_multi t <> None -> (t_restore t = false \/ t_inputs t = None) ->
      transform_param fm none dflt (map fst i) (match args with Some a => a | None => [] end) ((p, t) :: rest) (k, e) = Err ValueError).
Proof.
  intros V A fm none store cast metadata aggregate item args ts dflt partial. repeat split.
  - intros Ht Hm. unfold restore. cbn [negb]. destruct ts as [ts|]; [|congruence]. rewrite andb_false_r.
    destruct metadata as [m|], aggregate as [g|]; try reflexivity. destruct Hm; congruence.
  - intros p t rest i k e M R. unfold transform_param. cbn. destruct (t_multi t); [|congruence]. destruct R as [-> | ->]; [reflexivity|]. destruct (t_restore t); reflexivity.
Qed.
Print Assumptions C77_errors.

Example C77_errors_ex : restore (V := nat) ex_match 0 ex_store plus true (Some ["a"]) None None None (Some [("a", ex_fallback)]) true false = Err ValueError.
Proof. reflexivity. Qed.

(** A transform that was made has inputs only for a function of many values, and does one thing. *)
Theorem C77_made : forall (V A : Type) (t t' : rtransform V A), make_rtransform t = Ok t' ->
  t' = t /\ (t_inputs t <> None -> t_multi t <> None)
  /\ (t_multi t <> None -> t_original t = None /\ t_value t = None /\ t_fallback t = false)
  /\ (t_fallback t = true -> t_original t = None /\ t_value t = None /\ t_multi t = None).
Proof.
  intros V A [o f v m r i] t' H. destruct o, f, v, m, i; cbn in H; try discriminate; injection H as <-; cbn; repeat split; try congruence.
Qed.
Print Assumptions C77_made.

Example C77_made_ex : make_rtransform ex_sum = Ok ex_sum /\ make_rtransform (mkT (V := nat) None false None None true (Some [("p", Some 7)])) = Err AssertionError.
Proof. split; reflexivity. Qed.

(** An array that two outputs are drawn from is read once, with the arguments of one of them: the other gets an array with arguments (a sharding, a dtype) that were not given for it (PH l.159-170). Here the array "a" is kept and also
    copied to "x"; both come back with the arguments of "x". *)
Theorem C77_own_args_refuted : exists (item args : dict string nat) (ts : dict string (rtransform nat nat)) (k : string) (a b : nat) d,
  no_functions ts /\ (forall x, In x ts -> fst x <> k) /\ dget String.eqb k args = Some a /\ a <> b
  /\ restore ex_match 0 ex_store plus true (Some [k]) None (Some item) (Some args) (Some ts) true false = Ok (Restored d) /\ In (k, Leaf (Read (ex_store k b))) d.
Proof.
  exists [("x", 0); ("a", 0)], [("x", 1); ("a", 2)], [("x", ex_rename "a")], "a", 2, 1, [("x", Leaf (Read 101)); ("a", Leaf (Read 101))].
  split; [|split; [|split; [reflexivity|split; [discriminate|split; [vm_compute; reflexivity|right; left; reflexivity]]]]].
  - intros p t [[= <- <-]|[]]. auto.
  - intros x [<-|[]]. discriminate.
Qed.
Print Assumptions C77_own_args_refuted.

(** "Keys present in the original checkpoint but not needed are not restored" (PH l.205-219) fails: when "a" of the item is drawn from "b", the array "a" is read too, with the arguments meant for the values of "b", though the result does not
    depend on it. An array of another shape can then make the restore fail. *)
Theorem C77_minimal_refuted : exists (item args : dict string nat) (ts : dict string (rtransform nat nat)) ps,
  restore_parameters ex_match 0 false true (Some item) [("a", @EMeta nat); ("b", EMeta)] (Some ts) (Some args) = Ok ps /\ In ("a", (false, 5)) ps /\ dget String.eqb "a" args = Some 5
  /\ forall store store' : string -> nat -> nat, (forall a, store "b" a = store' "b" a) ->
     transform_checkpoint ex_match true (Some item) (deserialize store plus [("a", EMeta); ("b", EMeta)] ps) (Some args) (Some ts)
     = transform_checkpoint ex_match true (Some item) (deserialize store' plus [("a", EMeta); ("b", EMeta)] ps) (Some args) (Some ts).
Proof.
  exists [("a", 0)], [("a", 5)], [("a", ex_rename "b")], [("a", (false, 5)); ("b", (false, 5))].
  split; [vm_compute; reflexivity|]. split; [left; reflexivity|]. split; [reflexivity|]. intros store store' H. cbn. rewrite (H 5). reflexivity.
Qed.
Print Assumptions C77_minimal_refuted.

(** The function of one value of a RestoreTransform is documented to get the RestoreArgs too (XU l.116-119, l.137), but it is called with the value only: every restore with one is a TypeError. *)
Theorem C77_value_fn_refuted : exists (f : tree (got nat) -> nat -> result (tree (got nat))) (t : rtransform nat nat),
  t = mkT None false (Some (Two f)) None true None /\ make_rtransform t = Ok t /\ (forall x a, f x a = Ok x)
  /\ restore ex_match 0 ex_store plus true (Some ["a"]) None (Some [("a", 0)]) (Some [("a", 1)]) (Some [("a", t)]) true false = Err TypeError.
Proof. exists (fun x _ => Ok x). eexists. repeat split; vm_compute; reflexivity. Qed.
Print Assumptions C77_value_fn_refuted.

(** An input that is named with no arguments (None) is not read: the function gets the entry of the metadata instead of the array (PH l.313 tests whether the arguments are true). *)
Theorem C77_inputs_refuted : exists (t : rtransform nat nat) d, make_rtransform t = Ok t /\ t_inputs t = Some [("p", None)]
  /\ restore ex_match 0 ex_store plus true (Some ["p"]) None (Some [("a", 0)]) (Some [("a", 1)]) (Some [("a", t)]) true false = Ok (Restored d) /\ In ("a", Leaf Unread) d.
Proof.
  exists (mkT None false None (Some (fun _ t _ => match t with Node _ [(_, x)] => Ok x | _ => Err TypeError end)) true (Some [("p", None)])), [("a", Leaf Unread)].
  split; [reflexivity|]. split; [reflexivity|]. split; [vm_compute; reflexivity|left; reflexivity].
Qed.
Print Assumptions C77_inputs_refuted.

(** Transforms without restore_args should be a ValueError (PH l.425-429); with a rename it is a KeyError instead, since the default arguments have the names of the checkpoint (PH l.244-245, l.170). *)
Theorem C77_no_args_refuted : exists (item : dict string nat) (ts : dict string (rtransform nat nat)),
  restore ex_match 0 ex_store plus true (Some ["a"]) None (Some item) None (Some ts) true false = Err KeyError.
Proof. exists [("x", 0)], [("x", ex_rename "a")]. vm_compute. reflexivity. Qed.
Print Assumptions C77_no_args_refuted.

(** The request for a partial restore is dropped when a value is in the aggregate file (PH l.903-913): arguments for the wanted leaves alone are refused as trees of other structure. *)
Theorem C77_partial_restore_refuted : exists (item args : dict string nat),
  restore (V := nat) ex_match 0 ex_store plus true (Some ["a"; "b"]) (Some [("a", APlaceholder); ("b", AValue 3)]) (Some item) (Some args) None true true = Err ValueError
  /\ restore (V := nat) ex_match 0 ex_store plus true (Some ["a"; "b"]) (Some [("a", APlaceholder); ("b", APlaceholder)]) (Some item) (Some args) None true true = Ok (Delegated true)
  /\ exists ps, restore_parameters (V := nat) ex_match 0 true true (Some item) [("a", EMeta); ("b", EValue 3)] None (Some args) = Ok ps /\ ps = [("a", (false, 1)); ("b", (true, 0))].
Proof. exists [("a", 0)], [("a", 1)]. split; [vm_compute; reflexivity|]. split; [vm_compute; reflexivity|]. eexists. split; vm_compute; reflexivity. Qed.
Print Assumptions C77_partial_restore_refuted.

(** What the parameters of a partial restore are: the leaves that the item has are read with their arguments, the others are not read. *)
Theorem C77_partial_params : forall (V A W : Type) fm (none : A) dflt (item : dict string W) (st : dict string (entry V)) ts args ps,
  restore_parameters fm none true dflt (Some item) st ts (Some args) = Ok ps ->
  map fst ps = map fst st /\
  forall k s a, In (k, (s, a)) ps -> if existsb (String.eqb k) (map fst item) then dget String.eqb k args = Some a /\ exists e, In (k, e) st /\ s = skips e else s = true /\ a = none.
Proof.
  intros V A W fm none dflt item st ts args ps H. cbn in H. split.
  - apply seq_keys in H; [exact H|]. intros x y E. unfold partial_param in E. destruct (existsb _ _); [destruct (item_at _ _); cbn in E; [|discriminate]|]; injection E as <-; reflexivity.
  - intros k s a I. apply seq_f2 in H. destruct (f2_in_r _ _ _ H _ I) as ([k' e] & Ix & T). unfold partial_param in T. cbn [fst snd] in T.
    destruct (existsb (String.eqb k') (map fst item)) eqn:E.
    + unfold item_at in T. destruct (dget String.eqb k' args) as [x|] eqn:Ex; cbn in T; [|discriminate]. injection T as -> <- ->. rewrite E. eauto.
    + injection T as -> <- <-. now rewrite E.
Qed.
Print Assumptions C77_partial_params.

(** Without any file that tells the structure, the leaves of the item are read. *)
Theorem C77_no_files : forall (V A : Type) fm (none : A) (store : string -> A -> V) cast (item : dict string V) (f : string -> A) dflt partial,
  NoDup (map fst item) ->
  restore fm none store cast true None None (Some item) (Some (map (fun x => (fst x, f (fst x))) item)) None dflt partial
  = Ok (Restored (map (fun x => (fst x, Leaf (Read (store (fst x) (f (fst x)))))) item)).
Proof.
  intros V A fm none store cast item f dflt partial ND.
  set (st := map (fun x : string * V => (fst x, @EMeta V)) item).
  assert (Ks : map fst st = map fst item) by (unfold st; rewrite map_map; reflexivity).
  unfold restore. cbn [negb is_none andb internal_metadata rbind]. fold st.
  assert (PP : plain_params st (map (fun x => (fst x, f (fst x))) item) = Ok (map (fun x => (fst x, (skips (snd x), f (fst x)))) st)).
  { unfold plain_params. replace (forallb _ _) with true.
    2: { symmetry. apply forallb_forall. intros k I. rewrite map_map in I. cbn [fst] in I. unfold has. destruct (dget_key k st) as (x & ->); [now rewrite Ks|reflexivity]. }
    assert (G : forall k, In k (map fst item) -> dget String.eqb k (map (fun x : string * V => (fst x, f (fst x))) item) = Some (f k)).
    { intros k. clear. induction item as [|[k' e] l IH]; cbn; [intros []|]. destruct (String.eqb_spec k k') as [->|N]; [reflexivity|]. intros [E|I]; [congruence|auto]. }
    rewrite <- Ks in G.
    assert (L : forall l, (forall x, In x l -> In (fst x) (map fst st)) -> sequence (map (fun x : string * entry V => match dget String.eqb (fst x) (map (fun x : string * V => (fst x, f (fst x))) item) with Some a => Ok (fst x, (skips (snd x), a)) | None => Err ValueError end) l) = Ok (map (fun x => (fst x, (skips (snd x), f (fst x)))) l)).
    { induction l as [|x l IH]; intros L; [reflexivity|]. cbn. rewrite (G (fst x)) by (apply L; now left). cbn. rewrite IH by (intros y I; apply L; now right). reflexivity. }
    exact (L st (fun x I => in_map fst _ _ I)). }
  unfold restore_parameters. rewrite PP. cbn [rbind transform_checkpoint].
  assert (DD : deserialize store cast st (map (fun x => (fst x, (skips (snd x), f (fst x)))) st) = map (fun x => (fst x, Read (store (fst x) (f (fst x))))) item).
  { unfold st. clear. induction item as [|[k e] l IH]; [reflexivity|]. cbn in *. now rewrite IH. }
  rewrite DD. clear PP DD.
  assert (L : forall l, (forall x, In x l -> In x item) -> sequence (map (fun x : string * V => rmap (fun g => (fst x, Leaf g)) (item_at (fst x) (map (fun x => (fst x, Read (store (fst x) (f (fst x))))) item))) l)
              = Ok (map (fun x => (fst x, Leaf (Read (store (fst x) (f (fst x)))))) l)).
  { induction l as [|x l IH]; intros L; [reflexivity|]. cbn [map sequence].
    assert (E : item_at (fst x) (map (fun x : string * V => (fst x, Read (store (fst x) (f (fst x))))) item) = Ok (Read (store (fst x) (f (fst x))))).
    { unfold item_at. pose proof (L x (or_introl eq_refl)) as I. clear - I. induction item as [|[k e] m IH]; [destruct I|]. cbn. destruct (String.eqb_spec (fst x) k) as [->|N]; [reflexivity|].
      destruct I as [<-|I]; [now cbn in N|auto]. }
    rewrite E. cbn [rmap rbind]. rewrite IH by (intros y I; apply L; now right). reflexivity. }
  rewrite (L item (fun x I => I)). reflexivity.
Qed.
Print Assumptions C77_no_files.

Example C77_no_files_ex : restore (V := nat) ex_match 0 ex_store plus true None None (Some [("a", 5); ("bb", 6)]) (Some [("a", 1); ("bb", 2)]) None true false = Ok (Restored [("a", Leaf (Read 101)); ("bb", Leaf (Read 202))]).
Proof. vm_compute. reflexivity. Qed.

(** Without transforms, restore_args that have a leaf that the checkpoint does not have, or that lack one, are refused. *)
Theorem C77_mismatch : forall (V A : Type) fm (none : A) (store : string -> A -> V) cast metadata aggregate st item (args : dict string A) dflt partial k,
  internal_metadata metadata aggregate = Ok st -> (metadata = None \/ can_ignore aggregate = false) ->
  (In k (map fst st) /\ ~ In k (map fst args)) \/ (In k (map fst args) /\ ~ In k (map fst st)) ->
  restore fm none store cast true metadata aggregate item (Some args) None dflt partial = Err ValueError.
Proof.
  intros V A fm none store cast metadata aggregate st item args dflt partial k M NC HK.
  assert (ND : negb (is_none metadata) && can_ignore aggregate && is_none (@None (dict string (rtransform V A))) = false).
  { destruct NC as [-> | ->]; [reflexivity|]. now rewrite andb_false_r. }
  unfold restore. cbn [negb]. rewrite ND, M. cbn [rbind]. unfold restore_parameters.
  assert (E : plain_params st args = Err ValueError); [|rewrite E; reflexivity].
  unfold plain_params. destruct (forallb (fun k => has k st) (map fst args)) eqn:F; [|reflexivity].
  destruct HK as [(I & N)|(I & N)].
  - clear F M. induction st as [|[k' e] st IH]; [destruct I|]. cbn [map sequence fst snd]. destruct (dget String.eqb k' args) as [a|] eqn:Ea; [|reflexivity]. cbn [rbind].
    destruct I as [I|I]; [cbn in I; subst; exfalso; apply N; apply dget_in in Ea; apply (in_map fst) in Ea; exact Ea|]. now rewrite (IH I).
  - exfalso. rewrite forallb_forall in F. specialize (F _ I). unfold has in F. destruct (dget String.eqb k st) as [x|] eqn:Ex; [|discriminate].
    apply N. apply dget_in in Ex. apply (in_map fst) in Ex. exact Ex.
Qed.
Print Assumptions C77_mismatch.

Example C77_mismatch_ex : restore (V := nat) ex_match 0 ex_store plus true None (Some [("a", AValue 1)]) None (Some [("a", 1); ("b", 2)]) None true false = Err ValueError.
Proof. vm_compute. reflexivity. Qed.

(** A function of many values gets the name of the output, the checkpoint and the arguments of this output. *)
Theorem C77_function : forall (V A : Type) fm dflt restored (args : dict string A) p (t : rtransform V A) f o (v : V) a e,
  t_multi t = Some f -> fm p o = Ok (Some e) -> dget String.eqb o args = Some a ->
  apply_flat fm dflt restored [(p, t)] args [(o, v)] = rmap (fun x => [(o, x)]) (f o (as_tree restored) a).
Proof.
  intros V A fm dflt restored args p t f o v a e M E D. unfold apply_flat. cbn. unfold new_value. cbn. rewrite E. cbn. unfold wrap. rewrite M. cbn. unfold item_at. rewrite D. cbn.
  destruct (f o (as_tree restored) a); reflexivity.
Qed.
Print Assumptions C77_function.

Example C77_function_ex : apply_flat ex_match true [("q", Read 3); ("p", Read 4)] [("sum", ex_sum)] [("sum", 1)] [("sum", 0)] = Ok [("sum", Leaf (Read 7))].
Proof. vm_compute. reflexivity. Qed.
