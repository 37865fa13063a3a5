(** C81: validation of an exported model against the functions it was made from. *)
From Coq Require Import List Bool Arith ZArith NArith QArith Qabs String Ascii Permutation.
From Verif Require Import Base StepName_Model Tree_Model Validate_Model Validate_Spec Validate_Proofs.
Import ListNotations.
Local Open Scope string_scope.
Local Open Scope list_scope.
Local Open Scope nat_scope.

(** No broadcasting: tensors of different shapes are an error *)
Definition no_bc (j t : list nat * list Z) : result bool := Err ValueError.
(** A number and a tensor with it *)
Definition fl (x : Q) : node := NLeaf (TFloat [] [Some x]).
Definition di (x : Z) : node := NLeaf (TDisc [] [x]).

(** A report passes exactly when all floats are close under the tolerances as they are handed on, and the share of the other tensors that differ in every element is at most the limit *)
Theorem C81_pass_exact : forall bc o b c r, make_report bc o b c = Ok r ->
  Forall2 alike (map norm b) (map norm c) /\
  exists ds, Forall2 (wholly_differ bc) (combine (discretes b) (discretes c)) ds /\ trues ds (r_mismatches r) /\ r_total r = List.length (discretes b) /\ List.length ds = r_total r /\
    (r_pass r = true <-> Forall2 (close (o_rtol o) (o_atol o)) (floatings c) (floatings b) /\
       ((r_total r = 0 /\ (0 <= o_ratio o)%Q) \/ (r_total r <> 0 /\ (inject_Z (Z.of_nat (r_mismatches r)) / inject_Z (Z.of_nat (r_total r)) <= o_ratio o)%Q))).
Proof.
  intros bc o b c r H. destruct (report_inv _ _ _ _ _ H) as (A & _ & L & _). split; [exact A|].
  destruct (pass_exact _ _ _ _ _ H) as (ds & D1 & D2 & D3 & D4). exists ds. split; [exact D1|]. split; [exact D2|]. split; [exact D3|]. split; [|exact D4].
  rewrite D3. clear - D1 L. revert D1 L. generalize (discretes b) as l. generalize (discretes c) as m. clear.
  intros m l. revert m ds. induction l as [|x l IH]; intros [|y m] ds D L; cbn in *; try discriminate; inversion D; subst; cbn; [reflexivity|].
  f_equal. eapply IH; [eassumption|]. now injection L.
Qed.
Print Assumptions C81_pass_exact.

Example C81_pass_exact_example :
  make_report no_bc (mkO 1 0 (1#2)) [NDict [("b", di 3); ("a", fl 5)]; NDict [("a", fl 7); ("b", di 4)]] [NDict [("a", fl 6); ("b", di 3)]; NDict [("a", fl 7); ("b", di 9)]] = Ok (mkR (Some (2, true)) 2 1 true).
Proof. vm_compute. reflexivity. Qed.

(** When both tolerances are the same number, the floats are compared as documented *)
Theorem C81_equal_tolerances : forall bc o b c r, make_report bc o b c = Ok r -> (o_atol o == o_rtol o)%Q -> r_pass r = true -> Forall2 (close (o_atol o) (o_rtol o)) (floatings c) (floatings b).
Proof.
  intros bc o b c r H E P. destruct (pass_exact _ _ _ _ _ H) as (ds & _ & _ & _ & X). apply X in P as [P _].
  revert P. apply Forall2_iff. intros x y. apply close_equal. exact E.
Qed.
Print Assumptions C81_equal_tolerances.

Example C81_equal_tolerances_example : make_report no_bc (mkO (1#10) (1#10) 0) [NDict [("a", fl 10)]] [NDict [("a", fl 11)]] = Ok (mkR (Some (1, true)) 0 0 true).
Proof. vm_compute. reflexivity. Qed.

(** The absolute and the relative tolerance are handed to numpy in the wrong order (`np.allclose(candidate, baseline, floating_atol, floating_rtol)`, while numpy's order is rtol, atol): with atol = 1 and rtol = 0 the answers 100 and 150 are taken as close, but with atol = 0 and rtol = 1 the answers 100 and 150 are not *)
Theorem C81_tolerances_swapped_refuted : exists o b c r o' r', make_report no_bc o b c = Ok r /\ r_pass r = true /\ ~ Forall2 (close (o_atol o) (o_rtol o)) (floatings c) (floatings b) /\
  make_report no_bc o' b c = Ok r' /\ r_pass r' = false /\ Forall2 (close (o_atol o') (o_rtol o')) (floatings c) (floatings b).
Proof.
  exists (mkO 1 0 0), [NDict [("a", fl 100)]], [NDict [("a", fl 150)]], (mkR (Some (1, true)) 0 0 true), (mkO 0 1 0), (mkR (Some (1, false)) 0 0 false).
  split; [vm_compute; reflexivity|]. split; [reflexivity|]. split; [|split; [vm_compute; reflexivity|split; [reflexivity|]]].
  - vm_compute floatings. intro H. inversion H as [|? ? ? ? (x & y & A & B & C) _]; subst. injection A as <-. injection B as <-. vm_compute in C. now apply C.
  - vm_compute floatings. constructor; [|constructor]. exists 150%Q, 100%Q. split; [reflexivity|]. split; [reflexivity|]. vm_compute. discriminate.
Qed.
Print Assumptions C81_tolerances_swapped_refuted.

(** The same outputs, with dicts in whatever order, pass under all tolerances that can be set, when there is no NaN and no empty tensor without floats *)
Theorem C81_same_outputs_pass : forall bc atol rtol ratio o b c, make_option atol rtol ratio = Ok o -> (0 <= ratio)%Q -> map norm b = map norm c ->
  (forall x, In x (floatings b) -> x <> None) -> (forall j, In j (discretes b) -> snd j <> []) ->
  exists r, make_report bc o b c = Ok r /\ r_pass r = true /\ r_mismatches r = 0.
Proof.
  intros bc a t q o b c H Hq E Hf Hd. unfold make_option in H. destruct (Qle_bool 0 a) eqn:E1; cbn [negb] in H; [|discriminate]. destruct (Qle_bool 0 t) eqn:E2; cbn [negb] in H; [|discriminate].
  injection H as <-. apply Qle_bool_iff in E1, E2. now apply same_pass.
Qed.
Print Assumptions C81_same_outputs_pass.

Example C81_same_outputs_pass_example : let b := [NDict [("b", di 3); ("a", fl 5)]] in let c := [NDict [("a", fl 5); ("b", di 3)]] in
  make_option 0 0 0 = Ok (mkO 0 0 0) /\ map norm b = map norm c /\ make_report no_bc (mkO 0 0 0) b c = Ok (mkR (Some (1, true)) 1 0 true) /\ make_option (-1 # 2) 0 0 = Err OtherError /\ make_option 0 (-1 # 2) 0 = Err OtherError.
Proof. vm_compute. repeat split. Qed.

(** The order of the keys of a dict is no difference *)
Theorem C81_key_order : forall d e, NoDup (map fst d) -> Permutation d e -> norm (NDict d) = norm (NDict e).
Proof. exact norm_perm. Qed.
Print Assumptions C81_key_order.

Example C81_key_order_example : norm (NDict [("z", di 1); ("b", NSeq [NDict [("y", di 2); ("x", di 3)]])]) = NDict [("b", NSeq [NDict [("x", di 3); ("y", di 2)]]); ("z", di 1)].
Proof. vm_compute. reflexivity. Qed.

(** For tensors with one element each the number of mismatches is the number of places that differ *)
Theorem C81_scalar_mismatches : forall bc o b c r, make_report bc o b c = Ok r ->
  Forall2 (fun j t => fst j = fst t /\ List.length (snd j) = 1 /\ List.length (snd t) = 1) (discretes b) (discretes c) ->
  exists ds, trues ds (r_mismatches r) /\ Forall2 (fun p d => d = true <-> snd (fst p) <> snd (snd p)) (combine (discretes b) (discretes c)) ds.
Proof. exact one_element. Qed.
Print Assumptions C81_scalar_mismatches.

Example C81_scalar_mismatches_example : make_report no_bc (mkO 0 0 (1#2)) [NSeq [di 1; di 2; di 3]] [NSeq [di 1; di 9; di 8]] = Ok (mkR None 3 2 false).
Proof. vm_compute. reflexivity. Qed.

(** A tensor that is no float counts as a mismatch only when every element differs (`np.all(j != t)`): the tokens [1, 2, 3] and [1, 9, 9] pass with the limit 0 *)
Theorem C81_partly_different_refuted : exists b c r, make_report no_bc (mkO 0 0 0) b c = Ok r /\ r_pass r = true /\ r_mismatches r = 0 /\ discretes b <> discretes c.
Proof.
  exists [NDict [("tokens", NLeaf (TDisc [3] [1; 2; 3]%Z))]], [NDict [("tokens", NLeaf (TDisc [3] [1; 9; 9]%Z))]], (mkR None 1 0 true).
  split; [vm_compute; reflexivity|]. split; [reflexivity|]. split; [reflexivity|]. vm_compute. discriminate.
Qed.
Print Assumptions C81_partly_different_refuted.

(** An empty tensor that is no float counts as a mismatch with itself, as no element is equal, so that a faithful model fails *)
Theorem C81_empty_mismatch_refuted : exists b r, make_report no_bc (mkO 0 0 0) b b = Ok r /\ r_pass r = false /\ r_mismatches r = 1.
Proof. exists [NDict [("ids", NLeaf (TDisc [0] []))]], (mkR None 1 1 false). split; [vm_compute; reflexivity|]. split; reflexivity. Qed.
Print Assumptions C81_empty_mismatch_refuted.

(** A NaN that both models give is a failure, under all tolerances *)
Theorem C81_nan_fails_refuted : exists b, forall atol rtol, exists r, make_report no_bc (mkO atol rtol 1) b b = Ok r /\ r_pass r = false.
Proof. exists [NDict [("a", NLeaf (TFloat [] [None]))]]. intros a t. exists (mkR (Some (1, false)) 0 0 false). split; reflexivity. Qed.
Print Assumptions C81_nan_fails_refuted.

(** Shapes of floats are not compared, nor which leaf a float came from: two tensors with one and two elements are the same as two with two and one *)
Theorem C81_float_shapes_refuted : exists b c r, make_report no_bc (mkO 0 0 0) b c = Ok r /\ r_pass r = true /\ leaves b <> leaves c /\ map (fun t => match t with TFloat _ l => List.length l | TDisc _ l => List.length l end) (leaves b) <> map (fun t => match t with TFloat _ l => List.length l | TDisc _ l => List.length l end) (leaves c).
Proof.
  exists [NDict [("a", NLeaf (TFloat [1] [Some 1%Q])); ("b", NLeaf (TFloat [2] [Some 2%Q; Some 3%Q]))]], [NDict [("a", NLeaf (TFloat [2; 1] [Some 1%Q; Some 2%Q])); ("b", NLeaf (TFloat [1] [Some 3%Q]))]], (mkR (Some (3, true)) 0 0 true).
  split; [vm_compute; reflexivity|]. split; [reflexivity|]. split; vm_compute; discriminate.
Qed.
Print Assumptions C81_float_shapes_refuted.

(** Leaves that change their kind are compared crosswise: when the output "a" is 1.0 and "b" the integer 7 in one model, and "a" the integer 7 and "b" 1.0 in the other, the report passes *)
Theorem C81_kinds_crosswise_refuted : exists x y r, make_report no_bc (mkO 0 0 0) [NDict [("a", x); ("b", y)]] [NDict [("a", y); ("b", x)]] = Ok r /\ r_pass r = true /\ x <> y.
Proof. exists (fl 1), (di 7), (mkR (Some (1, true)) 1 0 true). split; [vm_compute; reflexivity|]. split; [reflexivity | discriminate]. Qed.
Print Assumptions C81_kinds_crosswise_refuted.

(** A report of one signature is that of the outputs of both functions for all inputs in their order, made to dicts; there is at least one input *)
Theorem C81_one_signature : forall bc o f g inputs r, validate_one bc o f g inputs = Ok r ->
  inputs <> [] /\ exists b c b' c', Forall2 (fun x y => f x = Ok y) inputs b /\ Forall2 (fun x y => g x = Ok y) inputs c /\
    Forall2 (fun x y => convert x = Ok y) b b' /\ Forall2 (fun x y => convert x = Ok y) c c' /\ make_report bc o b' c' = Ok r.
Proof. exact validate_one_inv. Qed.
Print Assumptions C81_one_signature.

Example C81_one_signature_example :
  validate_one no_bc (mkO 0 0 0) (fun x => Ok (NSeq [x; x])) (fun x => Ok (NDict [("output_1", x); ("output_0", x)])) [di 1; di 2] = Ok (mkR None 4 0 true) /\
  validate_one no_bc (mkO 0 0 0) (fun x => Ok (NSeq [x; x])) (fun x => Ok (NSeq [x; x])) [] = Err IndexError /\
  validate_one no_bc (mkO 0 0 0) (fun x => Ok (NSeq [NSeq [x]])) (fun x => Ok (NSeq [NSeq [x]])) [di 1] = Err ValueError.
Proof. vm_compute. repeat split. Qed.

(** A loaded model that does what the functions do passes, when the outputs are flat dicts (or flat sequences) without NaN and without empty tensors that are no floats *)
Theorem C81_faithful_passes : forall bc o f g inputs b b' d0 r0,
  inputs <> [] -> (forall x, In x inputs -> g x = f x) -> Forall2 (fun x y => f x = Ok y) inputs b -> Forall2 (fun x y => convert x = Ok y) b b' -> b' = NDict d0 :: r0 -> (forall kv, In kv d0 -> exists t, snd kv = NLeaf t) ->
  (0 <= o_atol o)%Q -> (0 <= o_rtol o)%Q -> (0 <= o_ratio o)%Q -> (forall x, In x (floatings b') -> x <> None) -> (forall j, In j (discretes b') -> snd j <> []) ->
  exists r, validate_one bc o f g inputs = Ok r /\ r_pass r = true /\ r_mismatches r = 0.
Proof. exact faithful. Qed.
Print Assumptions C81_faithful_passes.

Example C81_faithful_passes_example : let f := fun x => Ok (NSeq [x; fl 2]) in
  validate_one no_bc (mkO 0 0 0) f f [fl 1; fl 3] = Ok (mkR (Some (4, true)) 0 0 true) /\ convert (NSeq [fl 1; fl 2]) = Ok (NDict [("output_0", fl 1); ("output_1", fl 2)]).
Proof. vm_compute. repeat split. Qed.

(** An output that is one array is taken apart: its rows become the outputs, so that the structure differs from the one output of the loaded model; an array without dimensions is an error *)
Theorem C81_bare_array_refuted : exists x f g, f x = Ok (NLeaf (TFloat [2] [Some 1%Q; Some 2%Q])) /\ g x = Ok (NDict [("output_0", NLeaf (TFloat [2] [Some 1%Q; Some 2%Q]))]) /\
  validate_one no_bc (mkO 1 1 1) f g [x] = Err ValueError /\ convert x = Err TypeError.
Proof.
  exists (fl 0), (fun _ => Ok (NLeaf (TFloat [2] [Some 1%Q; Some 2%Q]))), (fun _ => Ok (NDict [("output_0", NLeaf (TFloat [2] [Some 1%Q; Some 2%Q]))])).
  repeat split; vm_compute; reflexivity.
Qed.
Print Assumptions C81_bare_array_refuted.

(** Results of a manager: exactly one report for each signature key; the baseline of a key is the last config with it, run on the inputs of the key, the candidate is the signature of the loaded model *)
Theorem C81_validate : forall bc o configs m loaded inputs d, validate bc o configs m loaded inputs = Ok d ->
  NoDup (map fst d) /\ (forall k, In k (map fst d) <-> exists c, In c configs /\ In k (c_keys c)) /\
  forall k c, last_with configs k c -> exists f l r, get_infer_step c m = Ok f /\ inputs_of inputs k = Ok l /\
    validate_one bc o (fun x => inference_fn c f [x]) (candidate_fn loaded k) l = Ok r /\ dget String.eqb k d = Some r.
Proof. exact validate_get. Qed.
Print Assumptions C81_validate.

Example C81_validate_example :
  let same : node -> result node := fun x => Ok (NDict [("y", x)]) in let two : node -> result node := fun _ => Ok (NDict [("y", di 2)]) in
  let c k mk := mkC k mk None None [] [] [] false in
  validate no_bc (mkO 0 0 0) [c ["a"; "b"] (Some "same"); c ["b"] (Some "two")] (Many [("same", same); ("two", two)]) [("a", same); ("b", same)] (inr [("a", [di 5]); ("b", [di 6; di 2])]) = Ok [("a", mkR None 1 0 true); ("b", mkR None 2 1 false)] /\
  validate no_bc (mkO 0 0 0) [c ["a"] None] (One same) [] (inl [di 5]) = Err KeyError /\
  validate no_bc (mkO 0 0 0) [c ["a"] None] (Many [("same", same); ("two", two)]) [("a", same)] (inl [di 5]) = Err ValueError /\
  validate no_bc (mkO 0 0 0) [c ["a"] (Some "x")] (Many [("same", same)]) [("a", same)] (inl [di 5]) = Err ValueError /\
  validate no_bc (mkO 0 0 0) [c ["a"] None] (Many [("same", same)]) [("a", same)] (inr [("b", [di 5])]) = Err KeyError.
Proof. vm_compute. repeat split. Qed.

(** What a bound function does: preprocessor, method, postprocessor; with the passthrough the second part of the preprocessor's output goes to the postprocessor *)
Theorem C81_inference : forall c f inputs o, inference_fn c f inputs = Ok o <-> infers c f inputs o.
Proof. exact inference_spec. Qed.
Print Assumptions C81_inference.

Example C81_inference_example : let p := fun l => Ok (NSeq [NSeq l; fl 9]) in let q := fun l => Ok (NSeq l) in let f := fun x => Ok (NDict [("o", x)]) in
  inference_fn (mkC ["k"] None (Some p) (Some q) [] [] [] true) f [di 1; di 2] = Ok (NSeq [NDict [("o", NSeq [di 1; di 2])]; fl 9]) /\
  inference_fn (mkC ["k"] None (Some p) None [] [] [] false) f [di 1] = Ok (NDict [("o", NSeq [NSeq [di 1]; fl 9])]) /\
  inference_fn (mkC ["k"] None (Some q) None [] [] [] true) f [di 1] = Err ValueError /\
  inference_fn (mkC ["k"] None None None [] [] [] false) f [di 1; di 2] = Err ValueError.
Proof. vm_compute. repeat split. Qed.

(** A config is accepted exactly when it has a key, processors for data stand alone with both kinds of keys, and there are not two kinds of preprocessors or of postprocessors; all errors are ValueErrors *)
Theorem C81_make_config : forall c, (make_config c = Ok c <-> good_config c) /\ (forall d, make_config c = Ok d -> d = c) /\ (forall e, make_config c = Err e -> e = ValueError).
Proof. intro c. split; [apply make_config_spec|]. split; [apply make_config_id | apply make_config_err]. Qed.
Print Assumptions C81_make_config.

Example C81_make_config_example : let p := mkP true true Ok in let c := mkC ["k"] None None None [p] [] [] false in
  make_config c = Ok c /\ make_config (mkC ["k"] None None None [] [] [p; mkP true false Ok] false) = Err ValueError /\ make_config (mkC [] None None None [] [] [] false) = Err ValueError.
Proof. vm_compute. repeat split. Qed.

(** With the passthrough and a postprocessor but without `tf_preprocessor`, which is an accepted config, every call ends with a name that is not bound instead of a message *)
Theorem C81_passthrough_refuted : exists c, make_config c = Ok c /\ forall f x y, f x = Ok y -> inference_fn c f [x] = Err OtherError.
Proof.
  exists (mkC ["k"] None None (Some (fun l => Ok (NSeq l))) [] [] [] true). split; [vm_compute; reflexivity|]. intros f x y H. unfold inference_fn. cbn [c_pre c_post c_passthrough rbind fst snd]. now rewrite H.
Qed.
Print Assumptions C81_passthrough_refuted.

(** Processors of the new kinds (`preprocessors`, `postprocessors`, `data_processors`) are accepted but no bound function runs them: what is validated is the bare method *)
Theorem C81_processors_ignored_refuted : exists c c' : config, make_config c = Ok c /\ c_pres c <> [] /\ c_posts c <> [] /\ make_config c' = Ok c' /\ c_data c' <> [] /\
  forall f x, inference_fn c f [x] = f x /\ inference_fn c' f [x] = f x.
Proof.
  exists (mkC ["k"] None None None [mkP true true (fun _ => Err OtherError)] [mkP true true (fun _ => Err OtherError)] [] false), (mkC ["k"] None None None [] [] [mkP true true (fun _ => Err OtherError)] false).
  split; [vm_compute; reflexivity|]. split; [discriminate|]. split; [discriminate|]. split; [vm_compute; reflexivity|]. split; [discriminate|].
  intros f x. unfold inference_fn. cbn [c_pre c_post c_passthrough rbind fst snd]. destruct (f x); split; reflexivity.
Qed.
Print Assumptions C81_processors_ignored_refuted.
