(** Model of the validation of an exported model against the JAX functions: serving configs, jobs, the comparison of outputs and the report.
    Sources: export/orbax/export/validate/validation_report.py ("VR"), export/orbax/export/validate/validation_manager.py ("VM"), export/orbax/export/validate/validation_job.py ("VJ"),
    export/orbax/export/validate/validation_utils.py ("VU"), export/orbax/export/serving_config.py ("SC").
    Simplifications: floats are rational numbers or NaN, without infinities and rounding; a tensor of a type that is no float holds integers; what numpy makes of unequal tensors with different shapes (broadcasting) is a function given from outside;
    the functions of a model and its processors are given and may raise. Not modelled: latencies, the greatest differences, metadata and urls of the report, conversions to numpy, logging. *)
From Coq Require Import List Bool Arith ZArith NArith QArith Qabs String Ascii.
From Verif Require Import Base StepName_Model Tree_Model.
Import ListNotations.
Local Open Scope string_scope.
Local Open Scope list_scope.
Local Open Scope nat_scope.

(** ** Outputs *)

(** A tensor with its shape and its elements in C order; [None] is NaN (VU l.32-36) *)
Inductive tensor : Type := TFloat (shape : list nat) (l : list (option Q)) | TDisc (shape : list nat) (l : list Z).

(** A tree of tensors (VU l.38) *)
Inductive node : Type := NLeaf (t : tensor) | NSeq (l : list node) | NDict (d : list (string * node)).

(** Dicts are flattened in the order of their keys (VU l.38) *)
Fixpoint insert_item (x : string * node) (d : list (string * node)) : list (string * node) := match d with [] => [x] | y :: r => if String.leb (fst x) (fst y) then x :: d else y :: insert_item x r end.
(** VU l.38 *)
Definition sort_items (d : list (string * node)) : list (string * node) := fold_right insert_item [] d.
(** All dicts of a tree in order (VU l.38) *)
Fixpoint norm (n : node) : node :=
  match n with
  | NLeaf t => NLeaf t
  | NSeq l => NSeq (map norm l)
  | NDict d => NDict (sort_items (map (fun kv => (fst kv, norm (snd kv))) d))
  end.
(** The leaves as they stand (VU l.38) *)
Fixpoint flat (n : node) : list tensor :=
  match n with
  | NLeaf t => [t]
  | NSeq l => List.concat (map flat l)
  | NDict d => List.concat (map (fun kv => flat (snd kv)) d)
  end.
(** [tree_leaves] of a list of outputs (VU l.38, VM l.267-268) *)
Definition leaves (outs : list node) : list tensor := List.concat (map (fun n => flat (norm n)) outs).

(** The structure of a tree: all but its tensors (VR l.192-193) *)
Inductive skeleton : Type := KLeaf | KSeq (l : list skeleton) | KDict (d : list (string * skeleton)).
(** VR l.192-193 *)
Fixpoint skel (n : node) : skeleton :=
  match n with
  | NLeaf _ => KLeaf
  | NSeq l => KSeq (map skel l)
  | NDict d => KDict (map (fun kv => (fst kv, skel (snd kv))) d)
  end.
(** VR l.194 *)
Fixpoint skel_eqb (a b : skeleton) : bool :=
  match a, b with
  | KLeaf, KLeaf => true
  | KSeq l, KSeq r => (fix go l r := match l, r with [], [] => true | x :: l', y :: r' => skel_eqb x y && go l' r' | _, _ => false end) l r
  | KDict l, KDict r => (fix go l r := match l, r with [], [] => true | x :: l', y :: r' => String.eqb (fst x) (fst y) && skel_eqb (snd x) (snd y) && go l' r' | _, _ => false end) l r
  | _, _ => false
  end.
(** [tree_structure] of a list of outputs (VR l.192-193) *)
Definition structure (outs : list node) : skeleton := skel (NSeq (map norm outs)).

(** The floats of all tensors in one list, and the other tensors as they are (VU l.38-47) *)
Definition floatings (outs : list node) : list (option Q) := List.concat (map (fun t => match t with TFloat _ l => l | TDisc _ _ => [] end) (leaves outs)).
(** VU l.46 *)
Definition discretes (outs : list node) : list (list nat * list Z) := List.concat (map (fun t => match t with TFloat _ _ => [] | TDisc s l => [(s, l)] end) (leaves outs)).

(** ** The report *)

(** Options of a report (VR l.48-50) *)
Record option_r : Type := mkO { o_atol : Q; o_rtol : Q; o_ratio : Q }.

(** VR l.52-61; OverflowError is OtherError *)
Definition make_option (atol rtol ratio : Q) : result option_r :=
  if negb (Qle_bool 0 atol) then Err OtherError else if negb (Qle_bool 0 rtol) then Err OtherError else Ok (mkO atol rtol ratio).

(** [numpy.isclose] of two numbers, with its parameters in their order; NaN is close to nothing (VR l.226) *)
Definition isclose (a b : option Q) (rtol atol : Q) : bool := match a, b with Some x, Some y => Qle_bool (Qabs (x - y)) (atol + rtol * Qabs y) | _, _ => false end.
(** [numpy.allclose(a, b, rtol, atol)] (VR l.226) *)
Definition allclose (a b : list (option Q)) (rtol atol : Q) : bool := forallb (fun p => isclose (fst p) (snd p) rtol atol) (combine a b).

(** [np.all(j != t)] (VR l.252); [bc] is the answer for tensors with different shapes *)
Definition all_differ (bc : list nat * list Z -> list nat * list Z -> result bool) (j t : list nat * list Z) : result bool :=
  if list_eq_dec Nat.eq_dec (fst j) (fst t) then Ok (forallb (fun p => negb (Z.eqb (fst p) (snd p))) (combine (snd j) (snd t))) else bc j t.

(** What is in a report: the number of floats and if they are all close, the number of other tensors and of mismatches, and the status (VR l.242-249, l.280-285) *)
Record report : Type := mkR { r_floats : option (nat * bool); r_total : nat; r_mismatches : nat; r_pass : bool }.

(** VR l.255-258 *)
Definition ratio_ok (o : option_r) (mismatches total : nat) : bool := Qle_bool (match total with O => 0 | S _ => inject_Z (Z.of_nat mismatches) / inject_Z (Z.of_nat total) end)%Q (o_ratio o).

(** VR l.145-285 *)
Definition make_report (bc : list nat * list Z -> list nat * list Z -> result bool) (o : option_r) (baseline candidate : list node) : result report :=
  if negb (skel_eqb (structure baseline) (structure candidate)) then Err ValueError
  else if negb (List.length (floatings baseline) =? List.length (floatings candidate)) then Err ValueError
  else if negb (List.length (discretes baseline) =? List.length (discretes candidate)) then Err ValueError
  else
    let close := allclose (floatings candidate) (floatings baseline) (o_atol o) (o_rtol o) in
    let fl := if List.length (floatings baseline) =? 0 then None else Some (List.length (floatings baseline), close) in
    rbind (sequence (map (fun p => all_differ bc (fst p) (snd p)) (combine (discretes baseline) (discretes candidate)))) (fun ds =>
    let mismatches := List.length (filter (fun b => b) ds) in
    let total := List.length (discretes baseline) in
    Ok (mkR fl total mismatches (match fl with Some (_, c) => c | None => true end && ratio_ok o mismatches total))).

(** ** Jobs *)

(** VJ l.91-118: the first input is run twice *)
Definition calc_result (f : node -> result node) (inputs : list node) : result (list node) :=
  match inputs with [] => Err IndexError | x :: _ => rbind (f x) (fun _ => sequence (map f inputs)) end.

(** [str] of a number (VJ l.48) *)
Definition num (i : nat) : string := string_of_list_ascii (dec (N.of_nat i)).

(** Pieces of the same length (VJ l.47) *)
Fixpoint cut {A : Type} (k n : nat) (l : list A) : list (list A) := match k with O => [] | S k' => firstn n l :: cut k' n (skipn n l) end.
(** What the iteration over a tensor gives; over one without dimensions there is none (VJ l.47) *)
Definition rows (t : tensor) : result (list node) :=
  match t with
  | TFloat (n :: s) l => Ok (map (fun r => NLeaf (TFloat s r)) (cut n (fold_right Nat.mul 1 s) l))
  | TDisc (n :: s) l => Ok (map (fun r => NLeaf (TDisc s r)) (cut n (fold_right Nat.mul 1 s) l))
  | _ => Err TypeError
  end.

(** VJ l.44-50 *)
Definition convert (n : node) : result node :=
  let number l := NDict (combine (map (fun i => ("output_" ++ num i)%string) (seq 0 (List.length l))) l) in
  match n with
  | NDict d => Ok (NDict d)
  | NSeq l => Ok (number l)
  | NLeaf t => rmap number (rows t)
  end.

(** VM l.30-37 *)
Definition is_flat_dict (n : node) : bool := match n with NDict d => forallb (fun kv => match snd kv with NLeaf _ => true | _ => false end) d | _ => false end.

(** VM l.242-274 *)
Definition check_output (baseline candidate : list node) : result unit :=
  match baseline with
  | [] => Err IndexError
  | b :: _ => if negb (is_flat_dict b) then Err ValueError else if negb (List.length (leaves baseline) =? List.length (leaves candidate)) then Err ValueError else Ok tt
  end.

(** ** Serving configs *)

(** A processor of the new kind: are there input keys and output keys, and what it does (SC l.187-197) *)
Record processor : Type := mkP { p_in : bool; p_out : bool; p_fn : node -> result node }.

(** A serving config (SC l.84-157); a signature key that is one text is a list with it *)
Record config : Type := mkC {
  c_keys : list string; c_method : option string;
  c_pre : option (list node -> result node); c_post : option (list node -> result node);
  c_pres : list processor; c_posts : list processor; c_data : list processor;
  c_passthrough : bool }.

(** Is there something (SC l.175-205) *)
Definition some {A : Type} (x : option A) : bool := match x with Some _ => true | None => false end.
(** SC l.175-205 *)
Definition nonempty {A : Type} (l : list A) : bool := match l with [] => false | _ => true end.

(** SC l.159-208 *)
Definition make_config (c : config) : result config :=
  if negb (nonempty (c_keys c)) then Err ValueError
  else if nonempty (c_data c) then
    if some (c_pre c) || nonempty (c_pres c) || some (c_post c) || nonempty (c_posts c) then Err ValueError
    else if forallb (fun p => p_in p && p_out p) (c_data c) then Ok c else Err ValueError
  else if some (c_pre c) && nonempty (c_pres c) then Err ValueError
  else if some (c_post c) && nonempty (c_posts c) then Err ValueError
  else Ok c.

(** The methods of a module: one function, or several by their keys (SC l.236-238) *)
Inductive methods : Type := One (f : node -> result node) | Many (d : dict string (node -> result node)).

(** SC l.234-269 *)
Definition get_infer_step (c : config) (m : methods) : result (node -> result node) :=
  match m with
  | One f => Ok f
  | Many d =>
    match c_method c with
    | None => match d with [(_, f)] => Ok f | _ => Err ValueError end
    | Some k => match dget String.eqb k d with Some f => Ok f | None => Err ValueError end
    end
  end.

(** SC l.301-362; a sequence of the model is a tuple; a name that is not bound (UnboundLocalError) is OtherError *)
Definition inference_fn (c : config) (infer_step : node -> result node) (inputs : list node) : result node :=
  rbind (match c_pre c with
         | Some p => rbind (p inputs) (fun o => if c_passthrough c then match o with NSeq [j; e] => Ok (j, Some e) | _ => Err ValueError end else Ok (o, None))
         | None => match inputs with [x] => Ok (x, None) | _ => Err ValueError end
         end) (fun je =>
  rbind (infer_step (fst je)) (fun o =>
  match c_post c with
  | Some q => if c_passthrough c then match snd je with Some e => q [o; e] | None => Err OtherError end else q [o]
  | None => Ok o
  end)).

(** SC l.271-373 *)
Definition bind (c : config) (m : methods) : result (dict string (node -> result node)) :=
  rmap (fun f => fold_left (fun d k => dput String.eqb k (fun x => inference_fn c f [x]) d) (c_keys c) []) (get_infer_step c m).

(** ** The manager *)

(** [dict.update] (VM l.112) *)
Definition update {A : Type} (d e : dict string A) : dict string A := fold_left (fun a kv => dput String.eqb (fst kv) (snd kv) a) e d.

(** VM l.108-113 *)
Definition create_baseline_fns (configs : list config) (m : methods) : result (dict string (node -> result node)) :=
  fold_left (fun r c => rbind r (fun d => rmap (update d) (bind c m))) configs (Ok []).

(** VM l.128-149; [loaded] are the signatures of the loaded model, that take an input by names or by positions *)
Definition candidate_fn (loaded : dict string (node -> result node)) (k : string) (input : node) : result node :=
  match dget String.eqb k loaded with Some f => f input | None => Err KeyError end.

(** VM l.157-166: the inputs of a signature *)
Definition inputs_of (inputs : list node + dict string (list node)) (k : string) : result (list node) :=
  match inputs with inl l => Ok l | inr d => match dget String.eqb k d with Some l => Ok l | None => Err KeyError end end.

(** One signature (VM l.197-208) *)
Definition validate_one (bc : list nat * list Z -> list nat * list Z -> result bool) (o : option_r) (baseline candidate : node -> result node) (inputs : list node) : result report :=
  rbind (calc_result baseline inputs) (fun b => rbind (calc_result candidate inputs) (fun c =>
  rbind (sequence (map convert b)) (fun b' => rbind (sequence (map convert c)) (fun c' =>
  rbind (check_output b' c') (fun _ => make_report bc o b' c'))))).

(** VM l.168-209 *)
Definition validate (bc : list nat * list Z -> list nat * list Z -> result bool) (o : option_r) (configs : list config) (m : methods) (loaded : dict string (node -> result node)) (inputs : list node + dict string (list node)) : result (dict string report) :=
  rbind (create_baseline_fns configs m) (fun fns =>
  fold_left (fun r k => rbind r (fun d =>
    rbind (match dget String.eqb k fns with Some f => Ok f | None => Err KeyError end) (fun f =>
    rbind (inputs_of inputs k) (fun l =>
    rmap (fun x => dput String.eqb k x d) (validate_one bc o f (candidate_fn loaded k) l)))))
    (List.concat (map c_keys configs)) (Ok [])).
