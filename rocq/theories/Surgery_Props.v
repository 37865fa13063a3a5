(** Properties of model surgery (C67). *)
From Coq Require Import List Bool Arith ZArith NArith String Ascii Lia.
From Verif Require Import Base StepName_Model Policy_Model Tree_Model Tree_Spec Tree_Proofs Parts_Proofs Surgery_Model Surgery_Spec Surgery_Proofs.
Import ListNotations.
Open Scope string_scope.

Ltac spl := repeat match goal with |- _ /\ _ => split end.

(** Arrays of one dimension for the examples, and their items *)
Definition vec (l : list nat) : arr nat := mkArr true [List.length l] (fun idx => nth (hd 0 idx) l 0).
Definition items (a : arr nat) : list nat := map (fun i => a_at a [i]) (seq 0 (hd 0 (a_shape a))).
Definition rows (a : arr nat) : list (list nat) := map (fun i => map (fun j => a_at a [i; j]) (seq 0 (nth 1 (a_shape a) 0))) (seq 0 (hd 0 (a_shape a))).
Definition shown (r : result (params nat)) : result (list (string * (list nat * list nat))) := rmap (map (fun x => (fst x, (a_shape (snd x), items (snd x))))) r.
Definition table (r : result (params nat)) : result (list (string * (list nat * list (list nat)))) := rmap (map (fun x => (fst x, (a_shape (snd x), rows (snd x))))) r.

(** What a vector of one item can give *)
Lemma vec_at : forall x idx, a_at (vec [x]) idx = x \/ a_at (vec [x]) idx = 0.
Proof. intros x idx. unfold vec. cbn [a_at]. destruct (hd 0 idx) as [|[|n]]; cbn; auto. Qed.

(** ** Fusing *)

(** Fusing by keys: if a source is missing nothing changes. Otherwise the sources must be distinct and
    fit, and then they are replaced by their concatenation under the target's name; every other
    parameter stays. *)
Theorem C67_fuse_keys : forall {V : Type} (d0 : V) source target axis (d : params V),
  ((exists k, In k source /\ ~ In k (map fst d)) /\ fuse_by_keys d0 source target axis [d] = Ok d) \/
  ((forall k, In k source -> In k (map fst d)) /\ NoDup source /\ exists vs A, found d source vs /\ can_concat axis vs /\ concat_of axis vs A /\ exists r, fuse_by_keys d0 source target axis [d] = Ok r /\
     forall k, dget String.eqb k r = if String.eqb k target then Some A else if existsb (String.eqb k) source then None else dget String.eqb k d) \/
  ((forall k, In k source -> In k (map fst d)) /\ ~ (NoDup source /\ exists vs, found d source vs /\ can_concat axis vs) /\ exists e, fuse_by_keys d0 source target axis [d] = Err e).
Proof. intros V. exact by_keys. Qed.
Print Assumptions C67_fuse_keys.

Example C67_fuse_keys_ex :
  shown (fuse_by_keys 0 ["q"; "k"] "qk" 0 [[("k", vec [3; 4; 5]); ("b", vec [7]); ("q", vec [1; 2])]]) = Ok [("b", ([1], [7])); ("qk", ([5], [1; 2; 3; 4; 5]))] /\
  shown (fuse_by_keys 0 ["q"; "v"] "qk" 0 [[("q", vec [1; 2])]]) = Ok [("q", ([2], [1; 2]))] /\
  fuse_by_keys 0 ["q"; "q"] "qk" 0 [[("q", vec [1; 2])]] = Err KeyError /\
  fuse_by_keys 0 ["q"; "k"] "qk" 1 [[("k", vec [3; 4; 5]); ("q", vec [1; 2])]] = Err ValueError.
Proof. vm_compute. auto. Qed.

(** Fusing by a pattern, when no two keys are the same part of the same name, and no fused name is in
    use: it fails just when the pieces of a complete name do not fit. Otherwise every complete name has
    its pieces one after the other in the order of the parts, whatever the order of the parameters;
    those pieces are gone and all else stays, also the pieces of what is not complete. *)
Theorem C67_fuse_pattern : forall {V : Type} (d0 : V) matches parts repl axis (d : params V), NoDup (map fst d) -> NoDup parts -> ~ In "" parts ->
  unique_pieces matches parts repl (map fst d) -> (forall g, complete matches parts repl (map fst d) g -> ~ In g (map fst d)) ->
  ((forall g vs, complete matches parts repl (map fst d) g -> pieces matches parts repl d g vs -> can_concat axis vs) /\ exists r, fuse_by_pattern d0 matches parts repl axis [d] = Ok r /\
     (forall g, complete matches parts repl (map fst d) g -> exists vs A, pieces matches parts repl d g vs /\ concat_of axis vs A /\ dget String.eqb g r = Some A) /\
     (forall k g p, In k (map fst d) -> fuses matches parts repl k g p -> complete matches parts repl (map fst d) g -> dget String.eqb k r = None) /\
     (forall k, ~ complete matches parts repl (map fst d) k -> (forall g p, fuses matches parts repl k g p -> ~ complete matches parts repl (map fst d) g) -> dget String.eqb k r = dget String.eqb k d)) \/
  (~ (forall g vs, complete matches parts repl (map fst d) g -> pieces matches parts repl d g vs -> can_concat axis vs) /\ exists e, fuse_by_pattern d0 matches parts repl axis [d] = Err e).
Proof. intros V d0 matches parts repl axis d ND NP NE UQ FR. exact (pattern_spec d0 matches parts repl axis d ND NP NE UQ FR). Qed.
Print Assumptions C67_fuse_pattern.

Ltac fuse_comp := repeat match goal with
  | H : fuses _ _ _ _ _ _ |- _ => apply fname_spec in H; [|cbn; intuition discriminate]; vm_compute in H
  | H : Some _ = Some _ |- _ => injection H; clear H; intros; subst
  | H : None = Some _ |- _ => discriminate H
  end.

Example C67_fuse_pattern_ex : let d := [("0.up.w", vec [3]); ("1.up.w", vec [9]); ("b.up", vec [8]); ("0.gate.w", vec [1; 2])] in let m := fun k => negb (String.prefix "b" k) in
  NoDup (map fst d) /\ unique_pieces m ["gate"; "up"] "gate_up" (map fst d) /\ (forall g, complete m ["gate"; "up"] "gate_up" (map fst d) g -> ~ In g (map fst d)) /\
  complete m ["gate"; "up"] "gate_up" (map fst d) "0.gate_up.w" /\
  shown (fuse_by_pattern 0 m ["gate"; "up"] "gate_up" 0 [d]) = Ok [("1.up.w", ([1], [9])); ("b.up", ([1], [8])); ("0.gate_up.w", ([3], [1; 2; 3]))].
Proof.
  intros d m. spl.
  - repeat (constructor; [cbn; intuition discriminate|]). constructor.
  - intros k k' g p I J A B. cbn in I, J. repeat destruct I as [<-|I]; try contradiction; repeat destruct J as [<-|J]; try contradiction; auto; fuse_comp; discriminate.
  - intros g [_ C]. destruct (C "gate" (or_introl eq_refl)) as (k & I & F). cbn in I. repeat destruct I as [<-|I]; try contradiction; fuse_comp; cbn; intuition discriminate.
  - split; [discriminate|]. intros p [<-|[<-|[]]]; [exists "0.gate.w"|exists "0.up.w"]; (split; [cbn; auto|]); apply fname_spec; [cbn; intuition discriminate|vm_compute; auto|cbn; intuition discriminate|vm_compute; auto].
  - vm_compute. auto.
Qed.

(** A fused name that is in use: the parameter that had it is lost without a word. *)
Theorem C67_fuse_overwrites_refuted : exists (d : params nat) matches parts repl r, NoDup (map fst d) /\ NoDup parts /\ unique_pieces matches parts repl (map fst d) /\
  fuse_by_pattern 0 matches parts repl 0 [d] = Ok r /\ exists v, In ("qk.w", v) d /\ matches "qk.w" = false /\ forall k w idx, dget String.eqb k r = Some w -> a_at w idx <> a_at v [0].
Proof.
  exists [("qk.w", vec [9]); ("q.w", vec [1]); ("k.w", vec [2])], (fun k => negb (String.prefix "qk" k)), ["q"; "k"], "qk", [("qk.w", mkArr true [2] (concat_at 0 0 [vec [1]; vec [2]]))]. spl.
  - repeat (constructor; [cbn; intuition discriminate|]). constructor.
  - repeat (constructor; [cbn; intuition discriminate|]). constructor.
  - intros k k' g p I J A B. cbn in I, J. repeat destruct I as [<-|I]; try contradiction; repeat destruct J as [<-|J]; try contradiction; auto; fuse_comp; discriminate.
  - reflexivity.
  - exists (vec [9]). spl; [left; auto|reflexivity|]. intros k w idx. cbn [dget]. destruct (String.eqb k "qk.w"); [|discriminate]. intros E. injection E as <-. cbn [a_at]. change (a_at (vec [9]) [0]) with 9. unfold concat_at. cbn [dim].
    repeat match goal with |- (if ?b then _ else _) <> _ => destruct b | |- match ?n with 0 => _ | S _ => _ end <> _ => destruct n end; discriminate.
Qed.
Print Assumptions C67_fuse_overwrites_refuted.

(** Two parts of which the first begins the second: the key of the second is taken for the first, and
    nothing is fused, although every part has its key. *)
Theorem C67_fuse_prefix_refuted : exists (d : params nat) parts repl, NoDup parts /\ ~ In "" parts /\ (forall p, In p parts -> In (p ++ ".w") (map fst d)) /\
  fuse_by_pattern 0 (fun _ => true) parts repl 0 [d] = Ok d.
Proof.
  exists [("up.w", vec [1]); ("up2.w", vec [2])], ["up"; "up2"], "both". spl.
  - repeat (constructor; [cbn; intuition discriminate|]). constructor.
  - cbn. intuition discriminate.
  - intros p [<-|[<-|[]]]; cbn; auto.
  - reflexivity.
Qed.
Print Assumptions C67_fuse_prefix_refuted.

(** The same parts in the other order are fused. *)
Example C67_fuse_prefix_ex : shown (fuse_by_pattern 0 (fun _ => true) ["up2"; "up"] "both" 0 [[("up.w", vec [1]); ("up2.w", vec [2])]]) = Ok [("both.w", ([2], [2; 1]))].
Proof. vm_compute. auto. Qed.

(** Two keys that are the same part of the same name, since all parts in a key are replaced but only the
    leftmost counts: the later one is fused, and the earlier stays behind. *)
Theorem C67_fuse_same_part_refuted : exists (d : params nat) parts repl r g, NoDup (map fst d) /\ NoDup parts /\
  fuse_by_pattern 0 (fun _ => true) parts repl 0 [d] = Ok r /\ complete (fun _ => true) parts repl (map fst d) g /\
  fuses (fun _ => true) parts repl "a.a" g "a" /\ dget String.eqb "a.a" d <> None /\ dget String.eqb "a.a" r <> None.
Proof.
  exists [("a.a", vec [1]); ("a.b", vec [2]); ("b.a", vec [3])], ["a"; "b"], "f". eexists. exists "f.f". spl.
  - repeat (constructor; [cbn; intuition discriminate|]). constructor.
  - repeat (constructor; [cbn; intuition discriminate|]). constructor.
  - reflexivity.
  - split; [discriminate|]. intros p [<-|[<-|[]]]; [exists "a.a"|exists "b.a"]; (split; [cbn; auto|]); apply fname_spec; [cbn; intuition discriminate|vm_compute; auto|cbn; intuition discriminate|vm_compute; auto].
  - apply fname_spec; [cbn; intuition discriminate|vm_compute; auto].
  - vm_compute. discriminate.
  - vm_compute. discriminate.
Qed.
Print Assumptions C67_fuse_same_part_refuted.

(** ** Renaming *)

(** Each name has the parameter of the last key that is renamed to it. *)
Theorem C67_rename : forall {V : Type} rules (d : params V), exists r, rename_by_regex rules [d] = Ok r /\
  forall n v, dget String.eqb n r = Some v <-> exists l1 k l2, d = (l1 ++ (k, v) :: l2)%list /\ fold_left (fun n f => f n) rules k = n /\ forall x, In x l2 -> fold_left (fun n f => f n) rules (fst x) <> n.
Proof. intros V. exact rename_spec. Qed.
Print Assumptions C67_rename.

Example C67_rename_ex : let strip := fun s => if String.prefix "model." s then substring 6 (String.length s - 6) s else s in let up := fun s => if String.eqb s "w" then "kernel" else s in
  shown (rename_by_regex [strip; up] [[("model.w", vec [1]); ("b", vec [2])]]) = Ok [("kernel", ([1], [1])); ("b", ([1], [2]))] /\
  rename_by_regex [strip; up] [[("b", vec [2])]; []] = Err ValueError.
Proof. vm_compute. auto. Qed.

(** If the rules keep the keys apart, every parameter is kept under its new name, and there are no others. *)
Theorem C67_rename_kept : forall {V : Type} rules (d : params V), NoDup (map fst d) ->
  (forall k k', In k (map fst d) -> In k' (map fst d) -> fold_left (fun n f => f n) rules k = fold_left (fun n f => f n) rules k' -> k = k') ->
  exists r, rename_by_regex rules [d] = Ok r /\ (forall k v, In (k, v) d -> dget String.eqb (fold_left (fun n f => f n) rules k) r = Some v) /\
  (forall n v, dget String.eqb n r = Some v -> exists k, In (k, v) d /\ n = fold_left (fun n f => f n) rules k).
Proof.
  intros V rules d N H. destruct (rename_spec rules d) as (r & E & R). exists r. split; [auto|]. split.
  - intros k v I. apply R. pose proof I as I'. apply in_split in I as (l1 & l2 & EQ). exists l1, k, l2. split; [auto|]. split; [auto|]. intros [k' v'] J Q. cbn [fst] in Q.
    assert (k' = k). { apply H; [rewrite EQ; rewrite map_app; apply in_or_app; right; right; apply (in_map fst) in J; auto|apply (in_map fst) in I'; auto|auto]. } subst k'.
    rewrite EQ, map_app in N. cbn [map fst] in N. apply NoDup_remove_2 in N. apply N. apply in_or_app. right. apply (in_map fst) in J. auto.
  - intros n v D. apply R in D as (l1 & k & l2 & -> & <- & _). exists k. split; [apply in_or_app; right; left; auto|auto].
Qed.
Print Assumptions C67_rename_kept.

Example C67_rename_kept_ex : let low := fun s => "m/" ++ s in
  (forall k k', In k ["a"; "b"] -> In k' ["a"; "b"] -> fold_left (fun n f => f n) [low] k = fold_left (fun n f => f n) [low] k' -> k = k') /\
  shown (rename_by_regex [low] [[("a", vec [1]); ("b", vec [2])]]) = Ok [("m/a", ([1], [1])); ("m/b", ([1], [2]))].
Proof. intros low. split; [|vm_compute; auto]. intros k k' _ _ E. cbn in E. injection E. auto. Qed.

(** Two keys that get the same name: one parameter is lost without a word. *)
Theorem C67_rename_refuted : exists (rules : list (string -> string)) (d r : params nat) k v, NoDup (map fst d) /\ In (k, v) d /\ rename_by_regex rules [d] = Ok r /\
  (forall n w, dget String.eqb n r = Some w -> a_at w [0] <> a_at v [0]).
Proof.
  exists [fun s => substring 2 1 s], [("a.w", vec [1]); ("b.w", vec [2])]. eexists. exists "a.w", (vec [1]). spl.
  - repeat (constructor; [cbn; intuition discriminate|]). constructor.
  - left. auto.
  - reflexivity.
  - intros n w. cbn. destruct (String.eqb n "w"); [|discriminate]. intros E. injection E as <-. discriminate.
Qed.
Print Assumptions C67_rename_refuted.

(** ** Repeating *)

(** Repeating by keys: just the given ones that are there have every item along the axis repeated; it
    fails just when one of these has no such axis. *)
Theorem C67_repeat_keys : forall {V : Type} axis count ks (d : params V), NoDup ks ->
  ((forall k a, In k ks -> dget String.eqb k d = Some a -> repeatable axis a) /\ exists r, repeat_by_keys ks axis count [d] = Ok r /\ map fst r = map fst d /\
     (forall k a, In k ks -> dget String.eqb k d = Some a -> exists A, dget String.eqb k r = Some A /\ repeated axis count a A) /\
     (forall k, ~ In k ks -> dget String.eqb k r = dget String.eqb k d)) \/
  (~ (forall k a, In k ks -> dget String.eqb k d = Some a -> repeatable axis a) /\ repeat_by_keys ks axis count [d] = Err ValueError).
Proof. intros V. exact repeat_keys_spec. Qed.
Print Assumptions C67_repeat_keys.

Example C67_repeat_keys_ex :
  shown (repeat_by_keys ["k"; "x"] (-1) 2 [[("q", vec [1]); ("k", vec [3; 4])]]) = Ok [("q", ([1], [1])); ("k", ([4], [3; 3; 4; 4]))] /\
  repeat_by_keys ["k"; "x"] 1 2 [[("q", vec [1]); ("k", vec [3; 4])]] = Err ValueError.
Proof. vm_compute. auto. Qed.

(** Repeating by a pattern: just the ones that match. *)
Theorem C67_repeat_pattern : forall {V : Type} axis count matches (d : params V), NoDup (map fst d) ->
  ((forall k a, matches k = true -> dget String.eqb k d = Some a -> repeatable axis a) /\ exists r, repeat_by_pattern matches axis count [d] = Ok r /\ map fst r = map fst d /\
     (forall k a, matches k = true -> dget String.eqb k d = Some a -> exists A, dget String.eqb k r = Some A /\ repeated axis count a A) /\
     (forall k, matches k = false -> dget String.eqb k r = dget String.eqb k d)) \/
  (~ (forall k a, matches k = true -> dget String.eqb k d = Some a -> repeatable axis a) /\ repeat_by_pattern matches axis count [d] = Err ValueError).
Proof.
  intros V axis count matches d N. unfold repeat_by_pattern. cbn [single rbind].
  assert (IN : forall k a, matches k = true -> dget String.eqb k d = Some a -> In k (filter matches (map fst d))) by (intros k a M D; apply filter_In; split; [apply dget_here; congruence|auto]).
  assert (MA : forall k, In k (filter matches (map fst d)) -> matches k = true) by (intros k I; apply filter_In in I; tauto).
  destruct (repeat_keys_spec axis count (filter matches (map fst d)) d (NoDup_filter _ N)) as [(P & r & E & K & R1 & R2)|[P E]].
  - left. split; [eauto|]. exists r. split; [auto|]. split; [auto|]. split; [eauto|]. intros k M. apply R2. intros I. apply MA in I. congruence.
  - right. split; [|auto]. intros Q. apply P. intros k a I D. eauto.
Qed.
Print Assumptions C67_repeat_pattern.

Example C67_repeat_pattern_ex :
  shown (repeat_by_pattern (String.prefix "k") 0 3 [[("q", vec [1]); ("k", vec [3; 4])]]) = Ok [("q", ([1], [1])); ("k", ([6], [3; 3; 3; 4; 4; 4]))] /\
  repeat_by_pattern (String.prefix "k") 0 3 [[("k", mkArr true [] (fun _ => 5))]] = Err ValueError.
Proof. vm_compute. auto. Qed.

(** A key that is given twice is repeated twice. *)
Theorem C67_repeat_twice_refuted : exists ks (d r : params nat) a A, dget String.eqb "k" d = Some a /\ repeat_by_keys ks 0 2 [d] = Ok r /\ In "k" ks /\ dget String.eqb "k" r = Some A /\ ~ repeated 0 2 a A.
Proof.
  exists ["k"; "k"], [("k", vec [1])]. eexists. exists (vec [1]). eexists. spl.
  - reflexivity.
  - reflexivity.
  - left. auto.
  - reflexivity.
  - intros (ax & [L _] & E & _). cbn in L. destruct ax; [|lia]. discriminate E.
Qed.
Print Assumptions C67_repeat_twice_refuted.

(** ** Stacking *)

(** If every match has an index that no other of its base has, and the items of every base fit, then
    every base has the stack of its items, in the order of their indices, with the filler where one
    is missing; all else is what did not match. The order of the groups does not matter. *)
Theorem C67_stack : forall {V : Type} (d0 : V) size search expected axis mapping default inplace sort_by_size (d : params V) count, NoDup (map fst d) ->
  (exists b i v, item_of search d b i v) -> counts search d expected count -> stackable search d ->
  (forall b i v, item_of search d b i v -> fits search d axis count (filler_of mapping default b) b) ->
  exists r, fst (stack d0 size search expected axis mapping default inplace sort_by_size [d]) = Ok r /\ stack_result search d axis count (filler_of mapping default) r.
Proof. intros V d0 size search expected axis mapping default inplace sort_by_size d count ND. exact (stack_main d0 size search expected axis mapping default inplace sort_by_size d ND count). Qed.
Print Assumptions C67_stack.

(** The index of the layer for the examples: what follows the l *)
Definition layer (k : string) : option (list (option (nat * nat))) := if String.prefix "l" k then Some [Some (1, 2)] else None.

(** The items of [l0.w], [l2.w] and [b] *)
Lemma layers_items : forall b i v, item_of layer [("l2.w", vec [5; 6]); ("b", vec [7]); ("l0.w", vec [1; 2])] b i v -> b = "l.w" /\ (i = 0 /\ v = vec [1; 2] \/ i = 2 /\ v = vec [5; 6]).
Proof.
  intros b i v (k & I & P). cbn in I. repeat destruct I as [I|I]; try contradiction; injection I as <- <-.
  - apply (index_spec layer "l2.w" [Some (1, 2)]) in P; [|reflexivity]. vm_compute in P. injection P as <- <-. auto.
  - apply placed_match in P. exfalso. apply P. reflexivity.
  - apply (index_spec layer "l0.w" [Some (1, 2)]) in P; [|reflexivity]. vm_compute in P. injection P as <- <-. auto.
Qed.

Example C67_stack_ex : let d := [("l2.w", vec [5; 6]); ("b", vec [7]); ("l0.w", vec [1; 2])] in
  NoDup (map fst d) /\ (exists b i v, item_of layer d b i v) /\ counts layer d (Some 4) 4 /\ stackable layer d /\ (forall b i v, item_of layer d b i v -> fits layer d 1 4 (Some 9) b) /\
  table (fst (stack 0 (fun _ => 1%Z) layer (Some 4) 1 [] (Some 9) false true [d])) = Ok [("b", ([1], [[]])); ("l.w", ([2; 4], [[1; 9; 5; 9]; [2; 9; 6; 9]]))].
Proof.
  intros d. spl.
  - repeat (constructor; [cbn; intuition discriminate|]). constructor.
  - exists "l.w", 0, (vec [1; 2]), "l0.w". split; [right; right; left; auto|]. apply (index_spec layer "l0.w" [Some (1, 2)]); reflexivity.
  - reflexivity.
  - destruct (collect_all layer d) as [(c & _ & C)|[_ [e E]]]; [repeat (constructor; [cbn; intuition discriminate|]); constructor|apply C|discriminate E].
  - intros b i v IT. exists [2]. split; [intros j w IT'; apply layers_items in IT' as [_ [[_ ->]|[_ ->]]]; reflexivity|]. cbn [List.length]. split; [lia|]. intros j w IT'. apply layers_items in IT' as [_ [[-> _]|[-> _]]]; lia.
  - vm_compute. auto.
Qed.

(** Without fillers that is also needed: what does not fit is refused. *)
Theorem C67_stack_exact : forall {V : Type} (d0 : V) size search expected axis mapping default inplace sort_by_size (d : params V) count r, NoDup (map fst d) ->
  (exists b i v, item_of search d b i v) -> counts search d expected count -> (forall b, filler_of mapping default b = None) ->
  fst (stack d0 size search expected axis mapping default inplace sort_by_size [d]) = Ok r ->
  stackable search d /\ forall b i v, item_of search d b i v -> fits search d axis count None b.
Proof. intros V d0 size search expected axis mapping default inplace sort_by_size d count r ND. exact (stack_exact d0 size search expected axis mapping default inplace sort_by_size d ND count r). Qed.
Print Assumptions C67_stack_exact.

Example C67_stack_exact_ex :
  table (fst (stack 0 (fun _ => 1%Z) layer None (-1) [] None false false [[("l1.w", vec [5; 6]); ("l0.w", vec [1; 2])]])) = Ok [("l.w", ([2; 2], [[1; 5]; [2; 6]]))] /\
  fst (stack 0 (fun _ => 1%Z) layer None 0 [] None false false [[("l2.w", vec [5; 6]); ("l0.w", vec [1; 2])]]) = Err ValueError /\
  fst (stack 0 (fun _ => 1%Z) layer None 0 [] None false false [[("l1.w", vec [5]); ("l0.w", vec [1; 2])]]) = Err ValueError /\
  fst (stack 0 (fun _ => 1%Z) layer None 0 [] None false false [[("lx.w", vec [5]); ("l0.w", vec [1; 2])]]) = Err AssertionError.
Proof. vm_compute. auto. Qed.

(** When nothing matches, the parameters are returned. *)
Theorem C67_stack_none : forall {V : Type} (d0 : V) size search expected axis mapping default inplace sort_by_size (d : params V), NoDup (map fst d) ->
  (forall k v, In (k, v) d -> search k = None) ->
  exists r, fst (stack d0 size search expected axis mapping default inplace sort_by_size [d]) = Ok r /\ (forall k, dget String.eqb k r = dget String.eqb k d) /\
  snd (stack d0 size search expected axis mapping default inplace sort_by_size [d]) = [d].
Proof. intros V d0 size search expected axis mapping default inplace sort_by_size d ND. exact (stack_none d0 size search expected axis mapping default inplace sort_by_size d ND). Qed.
Print Assumptions C67_stack_none.

Example C67_stack_none_ex : shown (fst (stack 0 (fun _ => 1%Z) layer None 0 [] None true true [[("x", vec [5; 6])]])) = Ok [("x", ([2], [5; 6]))].
Proof. vm_compute. auto. Qed.

(** What is left of the caller's parameters: in place, those that do not match, in their order; nothing
    is taken away if a match has no index or an index is used twice. *)
Theorem C67_stack_left : forall {V : Type} (d0 : V) size search expected axis mapping default inplace sort_by_size (d : params V), NoDup (map fst d) ->
  let st := stack d0 size search expected axis mapping default inplace sort_by_size [d] in
  (stackable search d -> snd st = [if inplace then filter (fun x => match search (fst x) with None => true | Some _ => false end) d else d]) /\
  (~ stackable search d -> snd st = [d] /\ exists e, fst st = Err e).
Proof. intros V d0 size search expected axis mapping default inplace sort_by_size d ND. exact (stack_left d0 size search expected axis mapping default inplace sort_by_size d ND). Qed.
Print Assumptions C67_stack_left.

Example C67_stack_left_ex : let d := [("l1.w", vec [5; 6]); ("b", vec [1]); ("l0.w", vec [1; 2])] in
  map fst (hd [] (snd (stack 0 (fun _ => 1%Z) layer None 0 [] None true false [d]))) = ["b"] /\
  snd (stack 0 (fun _ => 1%Z) (fun _ => Some [Some (0, 1)]) None 0 [] None true false [d]) = [d].
Proof. split; reflexivity. Qed.

(** In place, a failure comes too late: the items are gone from the caller's parameters, and there is no result. *)
Theorem C67_stack_lost_refuted : exists (d d' : params nat) e k v, NoDup (map fst d) /\ stack 0 (fun _ => 1%Z) layer None 0 [] None true false [d] = (Err e, [d']) /\ In (k, v) d /\ ~ In k (map fst d').
Proof.
  exists [("l0.w", vec [1]); ("l2.w", vec [2])], [], ValueError, "l0.w", (vec [1]). spl; [|reflexivity|left; auto|intros []].
  repeat (constructor; [cbn; intuition discriminate|]). constructor.
Qed.
Print Assumptions C67_stack_lost_refuted.

(** A base that is the name of a parameter that does not match: that one is lost without a word. *)
Theorem C67_stack_overwrites_refuted : exists search (d r : params nat) v, NoDup (map fst d) /\ stackable search d /\ fst (stack 0 (fun _ => 1%Z) search None 0 [] None false false [d]) = Ok r /\
  In ("l.w", v) d /\ search "l.w" = None /\ map fst r = ["l.w"] /\ forall A, dget String.eqb "l.w" r = Some A -> a_shape A <> a_shape v.
Proof.
  set (search := fun k => if String.eqb k "l.w" then None else layer k). set (d := [("l.w", vec [7]); ("l0.w", vec [1]); ("l1.w", vec [2])]).
  assert (ND : NoDup (map fst d)) by (repeat (constructor; [cbn; intuition discriminate|]); constructor).
  exists search, d. eexists. exists (vec [7]). split; [auto|]. split; [|split; [reflexivity|spl]].
  - destruct (collect_all search d ND) as [(c & _ & C)|[_ [e E]]]; [apply C|discriminate E].
  - left. auto.
  - reflexivity.
  - reflexivity.
  - intros A E. cbn in E. injection E as <-. discriminate.
Qed.
Print Assumptions C67_stack_overwrites_refuted.

(** With a filler an index that is not below the expected number is dropped: the parameter is in
    neither the result nor an error. *)
Theorem C67_stack_dropped_refuted : exists (d r : params nat) A v, NoDup (map fst d) /\ stackable layer d /\ fst (stack 0 (fun _ => 1%Z) layer (Some 2) 0 [] (Some 9) false false [d]) = Ok r /\
  In ("l5.w", v) d /\ map fst r = ["l.w"] /\ dget String.eqb "l.w" r = Some A /\ forall idx, a_at A idx <> a_at v [0].
Proof.
  set (d := [("l0.w", vec [1]); ("l5.w", vec [2])]). assert (ND : NoDup (map fst d)) by (repeat (constructor; [cbn; intuition discriminate|]); constructor).
  set (A := mkArr true [2; 1] (fun idx => if (nth 0 idx 0 =? 0)%nat then a_at (vec [1]) (bcast_idx [1] (remove_at 0 idx)) else 9)).
  exists d, [("l.w", A)], A, (vec [2]). spl.
  - auto.
  - destruct (collect_all layer d ND) as [(c & _ & C)|[_ [e E]]]; [apply C|discriminate E].
  - reflexivity.
  - right. left. auto.
  - reflexivity.
  - reflexivity.
  - intros idx. unfold A. cbn [a_at]. change (a_at (vec [2]) [0]) with 2. destruct (nth 0 idx 0 =? 0)%nat; [|discriminate]. match goal with |- ?x <> _ => assert (Q : x = 1 \/ x = 0) by apply vec_at end. destruct Q as [-> | ->]; discriminate.
Qed.
Print Assumptions C67_stack_dropped_refuted.

(** With a filler shapes that differ are broadcast without a word; without one they are refused. *)
Theorem C67_stack_broadcast_refuted : exists (d r : params nat), NoDup (map fst d) /\ (forall k v, In (k, v) d -> layer k <> None) /\
  fst (stack 0 (fun _ => 1%Z) layer None 0 [] None false false [d]) = Err ValueError /\
  fst (stack 0 (fun _ => 1%Z) layer None 0 [] (Some 9) false false [d]) = Ok r /\ table (Ok r) = Ok [("l.w", ([2; 2], [[1; 2]; [5; 5]]))].
Proof.
  exists [("l0.w", vec [1; 2]); ("l1.w", vec [5])]. eexists. spl; [| |reflexivity|reflexivity|reflexivity].
  - repeat (constructor; [cbn; intuition discriminate|]). constructor.
  - intros k v [E|[E|[]]]; injection E as <- <-; discriminate.
Qed.
Print Assumptions C67_stack_broadcast_refuted.

(** With a filler an axis from the back is taken wrongly, since [list.insert] counts it differently:
    items that stack without a filler are refused, or, with jax, a wrong array is made without a word. *)
Theorem C67_stack_axis_refuted : (exists (d r : params nat), NoDup (map fst d) /\ fst (stack 0 (fun _ => 1%Z) layer None (-1) [] None false false [d]) = Ok r /\
    fst (stack 0 (fun _ => 1%Z) layer None (-1) [] (Some 9) false false [d]) = Err ValueError) /\
  (exists (d r : params nat) A, NoDup (map fst d) /\ (forall k v, In (k, v) d -> a_shape v = [1] /\ a_np v = false) /\
    fst (stack 0 (fun _ => 1%Z) layer None (-1) [] (Some 9) false false [d]) = Ok r /\ dget String.eqb "l.w" r = Some A /\
    (forall f filler, ~ stacked (-1) 3 [1] f filler A) /\ (exists v, In ("l2.w", v) d /\ forall idx, inside (a_shape A) idx -> a_at A idx <> a_at v [0])).
Proof.
  split.
  - exists [("l0.w", vec [1; 2]); ("l1.w", vec [3; 4]); ("l2.w", vec [5; 6])]. eexists. spl; [|reflexivity|reflexivity]. repeat (constructor; [cbn; intuition discriminate|]). constructor.
  - set (v0 := mkArr false [1] (fun _ => 1)). set (v2 := mkArr false [1] (fun _ => 2)).
    set (A := mkArr false [3; 1] (fun idx => if (nth 1 idx 0 =? 2)%nat then a_at v2 (bcast_idx [1] (remove_at 1 idx)) else if (nth 1 idx 0 =? 0)%nat then a_at v0 (bcast_idx [1] (remove_at 1 idx)) else 9)).
    exists [("l0.w", v0); ("l2.w", v2)], [("l.w", A)], A. spl.
    + repeat (constructor; [cbn; intuition discriminate|]). constructor.
    + intros k v [E|[E|[]]]; injection E as <- <-; auto.
    + reflexivity.
    + reflexivity.
    + intros f filler (ax & [L AX] & E & _). cbn in L, AX, E. destruct ax as [|[|ax]]; [lia|cbn in E; discriminate|lia].
    + exists v2. split; [right; left; reflexivity|]. intros idx IN. unfold A. cbn [a_at a_shape] in *. inversion_clear IN as [|x ? i1 ? LX IN1]. inversion_clear IN1 as [|y ? i2 ? LY IN2]. inversion_clear IN2. cbn [nth]. replace y with 0 by lia. discriminate.
Qed.
Print Assumptions C67_stack_axis_refuted.

(** ** Streaming *)

(** What is given for a shard is the stack of the items that its slice along the axis has. *)
Theorem C67_stream : forall {V : Type} (d0 : V) ax (l : list (arr V)) shape indices a b,
  (forall x, In x l -> a_shape x = shape) -> ax <= List.length shape -> List.length indices = S (List.length shape) -> nth ax indices None = Some (a, b) -> a < b -> b <= List.length l ->
  exists A, stream_callback d0 (Z.of_nat ax) l indices = Ok A /\ stacked (Z.of_nat ax) (b - a) shape (fun i => nth_error l (a + i)) None A.
Proof. intros V. exact callback_spec. Qed.
Print Assumptions C67_stream.

Example C67_stream_ex : rmap rows (stream_callback 0 0 [vec [1; 2]; vec [3; 4]; vec [5; 6]] [Some (1, 3); None]) = Ok [[3; 4]; [5; 6]] /\
  rmap rows (stream_callback 0 1 [vec [1; 2]; vec [3; 4]; vec [5; 6]] [None; Some (1, 3)]) = Ok [[3; 5]; [4; 6]] /\ stream_shape 1 [vec [1; 2]; vec [3; 4]; vec [5; 6]] = [2; 3].
Proof. vm_compute. auto. Qed.

(** A shard that is also split along another axis gets an array that is too large: the slices of the
    other axes are not looked at. *)
Theorem C67_stream_slices_refuted : exists (l : list (arr nat)) indices A, Forall (fun x => a_shape x = [2]) l /\ stream_callback 0 0 l (map Some indices) = Ok A /\
  (forall a b, In (a, b) indices -> a < b) /\ a_shape A <> map (fun x => snd x - fst x) indices.
Proof.
  exists [vec [1; 2]; vec [3; 4]], [(0, 2); (0, 1)]. eexists. spl; [|reflexivity| |discriminate].
  - repeat (constructor; [reflexivity|]). constructor.
  - intros a b [E|[E|[]]]; injection E as <- <-; lia.
Qed.
Print Assumptions C67_stream_slices_refuted.

(** For an axis from the back the shape that is announced is not that of the array. *)
Theorem C67_stream_axis_refuted : exists (l : list (arr nat)) A, Forall (fun x => a_shape x = [2]) l /\ stream_callback 0 (-1) l [None; None] = Ok A /\ a_shape A <> stream_shape (-1) l.
Proof. exists [vec [1; 2]; vec [3; 4]; vec [5; 6]]. eexists. spl; [|reflexivity|discriminate]. repeat (constructor; [reflexivity|]). constructor. Qed.
Print Assumptions C67_stream_axis_refuted.

(** ** Nesting *)

(** With a target: the target, where each leaf has the parameter of its name, or, if there is none, its
    own value; parameters that the target does not have are ignored. *)
Theorem C67_nest_target : forall {V : Type} sep inplace (t : tree V) (p : dict string (tree V)) f, wf t ->
  (forall a b v w, at_path t a (Leaf v) -> at_path t b (Leaf w) -> join sep (tuple_path_from_keypath a) = join sep (tuple_path_from_keypath b) -> a = b) ->
  (forall a v, at_path t a (Leaf v) -> match dget String.eqb (join sep (tuple_path_from_keypath a)) p with Some x => f a = x | None => f a = Leaf v end) ->
  exists t', peq t t' /\ fst (unflatten_params sep inplace (Some t) [p]) = Ok (with_leaves f t').
Proof. intros V sep inplace t p f W U H. exists (norm t). split; [apply peq_norm|]. apply target_fill; auto. Qed.
Print Assumptions C67_nest_target.

(** Dictionaries for the examples *)
Definition dic (cs : list (string * tree nat)) : tree nat := Node KDict (map (fun x => (DictKey (KStr (fst x)), snd x)) cs).

Example C67_nest_target_ex : let t := dic [("b", dic [("w", Leaf 1); ("x", Leaf 2)]); ("a", Leaf 3)] in
  unflatten_params "/" true (Some t) [[("b/w", Leaf 10); ("extra", Leaf 4); ("a", Leaf 30)]] = (Ok (dic [("a", Leaf 30); ("b", dic [("w", Leaf 10); ("x", Leaf 2)])]), [[("extra", Leaf 4)]]).
Proof. vm_compute. auto. Qed.

(** In place just the parameters that name no leaf of the target are left. *)
Theorem C67_nest_target_left : forall {V : Type} sep (t : tree V) (p : dict string (tree V)), wf t ->
  (forall a b v w, at_path t a (Leaf v) -> at_path t b (Leaf w) -> join sep (tuple_path_from_keypath a) = join sep (tuple_path_from_keypath b) -> a = b) ->
  snd (unflatten_params sep false (Some t) [p]) = [p] /\
  exists p', snd (unflatten_params sep true (Some t) [p]) = [p'] /\ forall k v, In (k, v) p' <-> In (k, v) p /\ forall a w, at_path t a (Leaf w) -> k <> join sep (tuple_path_from_keypath a).
Proof. intros V sep t p W U. split; [reflexivity|]. apply target_left; auto. Qed.
Print Assumptions C67_nest_target_left.

(** Without a target, what was flattened with a separator that its names do not have comes back, as
    dictionaries; in place nothing is left of the parameters. *)
Theorem C67_nest : forall {V : Type} c keep inplace (t : tree V), wf t -> without c t -> ~ is_leaf keep t ->
  unflatten_params (String c "") inplace None [to_flat_dict_sep (String c "") keep t] = (Ok (as_dicts keep t), [if inplace then [] else to_flat_dict_sep (String c "") keep t]).
Proof.
  intros V c keep inplace t W X L. cbn [unflatten_params].
  assert (E : fst (nest (String c "") (Node KDict []) (to_flat_dict_sep (String c "") keep t)) = Ok (as_dicts keep t)) by (rewrite nest_flat by discriminate; apply (flat_sep_round_trip c keep t W X L)).
  rewrite E, (nest_left _ _ _ _ E). destruct inplace; auto.
Qed.
Print Assumptions C67_nest.

Example C67_nest_ex : let t := dic [("a", Leaf 3); ("b", dic [("w", Leaf 1); ("x", Leaf 2)])] in
  to_flat_dict_sep "/" false t = [("a", Leaf 3); ("b/w", Leaf 1); ("b/x", Leaf 2)] /\ unflatten_params "/" true None [to_flat_dict_sep "/" false t] = (Ok t, [[]]) /\
  unflatten_params "/" true None [to_flat_dict_sep "/" false t; []] = (Err AssertionError, [to_flat_dict_sep "/" false t; []]).
Proof. vm_compute. auto. Qed.

(** In place a failure has already taken parameters from the caller: here both are gone, and there is
    no result. *)
Theorem C67_nest_lost_refuted : exists (p : dict string (tree nat)) e, NoDup (map fst p) /\ p <> [] /\ unflatten_params "." true None [p] = (Err e, [[]]).
Proof. exists [("a", Leaf 1); ("a.b", Leaf 2)], TypeError. spl; [|discriminate|reflexivity]. repeat (constructor; [cbn; intuition discriminate|]). constructor. Qed.
Print Assumptions C67_nest_lost_refuted.
