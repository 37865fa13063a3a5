(** C82: utilities for exports. *)
From Coq Require Import List Bool Arith NArith String Ascii Lia.
From Verif Require Import Base StepName_Model Tree_Model Export_Model Export_Spec Export_Proofs.
Import ListNotations.
Local Open Scope string_scope.
Local Open Scope list_scope.
Local Open Scope nat_scope.

(** A spec of a vector of any size *)
Definition vec (n : string) : tspec := mkS (T n) (Some [None]) 1%N.

(** A spec with a default holds exactly defaults of its dtype and of a shape that fits: the same rank, and the same size where one is given; a value that is no tensor is converted first *)
Theorem C82_spec_with_default : forall (V : Type) s (d : raw V) p x, spec_with_default s d p = Ok x <->
  exists sh v, x = SDef s v p /\ (d = RTensor sh (s_dtype s) v \/ exists c, d = RValue c /\ c (s_dtype s) = Ok (sh, v)) /\
    forall ds, s_shape s = Some ds -> List.length ds = List.length sh /\ forall i k n, nth_error ds i = Some (Some k) -> nth_error sh i = Some n -> k = n.
Proof.
  intros V s d p x.
  assert (HD : forall spec sh, dims_fit spec sh = true <-> forall ds, spec = Some ds -> List.length ds = List.length sh /\ forall i k n, nth_error ds i = Some (Some k) -> nth_error sh i = Some n -> k = n).
  { intros [ds|] sh; cbn [dims_fit]; [|split; [intros; discriminate | reflexivity]]. rewrite andb_true_iff, Nat.eqb_eq. split.
    - intros [A B] ds' E. injection E as <-. split; [exact A|]. clear A. revert sh B. induction ds as [|o ds IH]; intros [|m sh] B [|i] k n H1 H2; cbn in *; try discriminate.
      + injection H1 as ->. injection H2 as ->. apply andb_prop in B as [B _]. now apply Nat.eqb_eq.
      + apply andb_prop in B as [_ B]. eapply IH; eassumption.
    - intro H. destruct (H ds eq_refl) as [A B]. split; [exact A|]. clear H. revert sh A B. induction ds as [|o ds IH]; intros [|m sh] A B; cbn in *; try discriminate; [reflexivity|].
      apply andb_true_intro. split; [destruct o as [k|]; [|reflexivity]; apply Nat.eqb_eq; now apply (B 0 k m)|]. apply IH; [lia|]. intros i k n H1 H2. now apply (B (S i) k n). }
  unfold spec_with_default. destruct d as [ | sh dt v | c].
  - split; [discriminate|]. intros (sh & v & _ & [H | (c & H & _)] & _); discriminate.
  - split.
    + destruct (N.eqb_spec dt (s_dtype s)) as [-> | N]; cbn [andb]; [|discriminate]. destruct (dims_fit (s_shape s) sh) eqn:E; [|discriminate]. intro H. injection H as <-.
      exists sh, v. split; [reflexivity|]. split; [now left|]. now apply HD.
    + intros (sh' & v' & -> & [H | (c & H & _)] & HS); [|discriminate]. injection H as -> -> ->. rewrite N.eqb_refl. apply HD in HS. now rewrite HS.
  - split.
    + destruct (c (s_dtype s)) as [[sh v]|] eqn:E; cbn [rbind fst snd]; [|discriminate]. destruct (dims_fit (s_shape s) sh) eqn:Ed; [|discriminate]. intro H. injection H as <-.
      exists sh, v. split; [reflexivity|]. split; [right; now exists c|]. now apply HD.
    + intros (sh & v & -> & [H | (c' & H & E)] & HS); [discriminate|]. injection H as <-. rewrite E. cbn [rbind fst snd]. apply HD in HS. now rewrite HS.
Qed.
Print Assumptions C82_spec_with_default.

Example C82_spec_with_default_example : spec_with_default (vec "x") (RTensor [3] 1%N 7) false = Ok (SDef (vec "x") 7 false) /\ spec_with_default (vec "x") (RTensor [3] 2%N 7) false = Err ValueError /\
  spec_with_default (vec "x") (RTensor [3; 1] 1%N 7) false = Err ValueError /\ spec_with_default (vec "x") (RValue (fun _ => Ok ([2], 8))) true = Ok (SDef (vec "x") 8 true) /\ spec_with_default (vec "x") (@RNone nat) true = Err ValueError.
Proof. vm_compute. repeat split. Qed.

(** No default, and one that does not fit, are ValueErrors; else there is only the error of the conversion *)
Theorem C82_spec_errors : forall (V : Type) s (d : raw V) p e, spec_with_default s d p = Err e -> e = ValueError \/ exists c, d = RValue c /\ c (s_dtype s) = Err e.
Proof.
  intros V s d p e. destruct d as [ | sh dt v | c]; cbn [spec_with_default].
  - intro H. left. congruence.
  - destruct (_ && _); [discriminate|]. intro H. left. congruence.
  - destruct (c (s_dtype s)) as [[sh v]|e'] eqn:E; cbn [rbind fst snd].
    + destruct (dims_fit _ _); [discriminate|]. intro H. left. congruence.
    + intro H. right. exists c. split; [reflexivity | congruence].
Qed.
Print Assumptions C82_spec_errors.

Example C82_spec_errors_example : spec_with_default (vec "x") (@RNone nat) true = Err ValueError /\ spec_with_default (vec "x") (RValue (fun _ => @Err (list nat * nat) TypeError)) true = Err TypeError /\ spec_with_default (vec "x") (RValue (fun _ => Ok ([2; 2], 0))) true = Err ValueError.
Proof. vm_compute. repeat split. Qed.

(** The defaults of a signature, one for each parameter; a parameter with and without defaults is an error *)
Theorem C82_defaults : forall (V : Type) (sig : list (ptree (sleaf V))), (forall ds, get_defaults sig = Ok ds <-> Forall2 default_of sig ds) /\
  (forall (p : ptree (sleaf V)) s v b s', In (SDef s v b) (pleaves p) -> In (SSpec s') (pleaves p) -> get_default p = Err ValueError) /\
  (forall l, pleaves (PNode (map (pair (KSeq 0)) (remove_signature_defaults l))) = map (fun x => match x with SDef s _ _ => SSpec s | y => y end) (@pleaves (sleaf V) (PNode (map (pair (KSeq 0)) l)))).
Proof.
  intros V sig. split; [apply get_defaults_ok|]. split; [intros; eapply get_default_mixed; eassumption|].
  intro l. cbn [pleaves]. rewrite concat_map, !map_map. cbn. unfold remove_signature_defaults. rewrite map_map. f_equal. apply map_ext. intro t. apply leaves_pmap.
Qed.
Print Assumptions C82_defaults.

Example C82_defaults_example : let x := PLeaf (SSpec (vec "x")) in let y := PNode [(KDict (T "a"), PLeaf (SDef (vec "a") 1 false)); (KDict (T "b"), PLeaf (SDef (vec "b") 2 true))] in
  get_defaults [x; y] = Ok [None; Some (PNode [(KDict (T "a"), PLeaf 1); (KDict (T "b"), PLeaf 2)])] /\ get_defaults [PNode [(KSeq 0, x); (KSeq 1, y)]] = Err ValueError.
Proof. vm_compute. repeat split. Qed.

(** Errors of defaults: a ValueError for a parameter with a plain spec beside a default, an AttributeError for another thing beside defaults *)
Theorem C82_default_errors : forall (V : Type) (p : ptree (sleaf V)) e, get_default p = Err e -> (exists s v b, In (SDef s v b) (pleaves p)) /\
  (((exists s, In (SSpec s) (pleaves p)) /\ e = ValueError) \/ ((forall s, ~ In (SSpec s) (pleaves p)) /\ e = AttributeError)).
Proof.
  intros V p e. unfold get_default. destruct (existsb is_def (pleaves p)) eqn:E; cbn [negb]; [|discriminate]. apply existsb_def in E. destruct (existsb is_spec (pleaves p)) eqn:E2.
  - intro H. split; [exact E|]. left. apply existsb_spec' in E2. split; [exact E2 | congruence].
  - destruct (values p) as [t|e'] eqn:Ev; cbn; [discriminate|]. intro H. injection H as <-. split; [exact E|]. right. split; [|now apply (values_err p)].
    intros s Hs. assert (existsb is_spec (pleaves p) = true) by (apply existsb_spec'; now exists s). congruence.
Qed.
Print Assumptions C82_default_errors.

Example C82_default_errors_example : get_default (PNode [(KSeq 0, PLeaf (SDef (vec "a") 1 false)); (KSeq 1, PLeaf SOther)]) = Err AttributeError /\ get_default (PNode [(KSeq 0, PLeaf SOther); (KSeq 1, PLeaf (SSpec (vec "a")))]) = Ok (@None (ptree nat)).
Proof. vm_compute. repeat split. Qed.

(** A function with defaults gets the arguments by position, else by name, else the default, and nothing else; there is such a function when no parameter without default follows one with a default, and a ValueError otherwise *)
Theorem C82_with_default_args : forall (V B : Type) (f : list (ptree V) -> result B) names sig ds, Forall2 default_of sig ds ->
  ((forall i j v, i < j -> nth_error ds i = Some (Some v) -> nth_error ds j <> Some None) ->
   exists g, with_default_args f names sig = Ok g /\
     forall args kwargs y, g args kwargs = Ok y <-> (forall k v, In (k, v) kwargs -> In k (map fst (combine names ds))) /\ exists out, bound (combine names ds) args kwargs out /\ f out = Ok y) /\
  (forall i j v, i < j -> nth_error ds i = Some (Some v) -> nth_error ds j = Some None -> with_default_args f names sig = Err ValueError).
Proof. intros V B f names sig ds H. split; [now apply with_default | intros i j v A C D; eapply with_default_order; eassumption]. Qed.
Print Assumptions C82_with_default_args.

Example C82_with_default_args_example : let sig := [PLeaf (SSpec (vec "x")); PLeaf (SDef (vec "y") 5 false); PLeaf (SDef (vec "z") 6 false)] in
  let call args kwargs := rbind (with_default_args (fun l => Ok l) [T "x"; T "y"; T "z"] sig) (fun g => g args kwargs) in
  call [PLeaf 1] [] = Ok [PLeaf 1; PLeaf 5; PLeaf 6] /\ call [PLeaf 1] [(T "z", PLeaf 9)] = Ok [PLeaf 1; PLeaf 5; PLeaf 9] /\ call [PLeaf 1; PLeaf 2] [] = Ok [PLeaf 1; PLeaf 2; PLeaf 6] /\
  call [] [] = Err TypeError /\ call [PLeaf 1] [(T "x", PLeaf 2)] = Err TypeError /\ call [PLeaf 1] [(T "w", PLeaf 2)] = Err TypeError /\ call [PLeaf 1; PLeaf 1; PLeaf 1; PLeaf 1] [] = Err TypeError.
Proof. vm_compute. repeat split. Qed.

(** The documentation of `TensorSpecWithDefault` asks for parameters with defaults before those without, which is what is refused; the other order is what works *)
Theorem C82_documented_order_refuted : exists a b : ptree (sleaf nat), default_of a (Some (PLeaf 5)) /\ default_of b None /\
  with_default_args (fun l => Ok l) [T "a"; T "b"] [a; b] = Err ValueError /\ exists g, with_default_args (fun l => Ok l) [T "b"; T "a"] [b; a] = Ok g /\ g [PLeaf 1] [] = Ok [PLeaf 1; PLeaf 5].
Proof.
  exists (PLeaf (SDef (vec "a") 5 false)), (PLeaf (SSpec (vec "b"))). split; [eapply do_some; [now left | reflexivity]|]. split; [constructor; intros s v p [H|[]]; discriminate|].
  split; [vm_compute; reflexivity|]. eexists. split; [reflexivity|]. vm_compute. reflexivity.
Qed.
Print Assumptions C82_documented_order_refuted.

(** Batching: there is a function exactly when there is a primary tensor, which is one without default or marked so *)
Theorem C82_auto_batching_primary : forall (V : Type) (sig : list (ptree (sleaf V))), (forall x, In x (List.concat (map pleaves sig)) -> x <> SOther) ->
  (make_auto_batching sig = Err ValueError <-> forall x, In x (List.concat (map pleaves sig)) -> exists s v, x = SDef s v false) /\
  (forall e, make_auto_batching sig = Err e -> e = ValueError) /\
  (forall f, make_auto_batching sig = Ok f -> exists flags, f = auto_batch flags /\ In true flags /\ Forall2 (fun x b => match x with SSpec _ => b = true | SDef _ _ p => b = p | SOther => False end) (List.concat (map pleaves sig)) flags).
Proof.
  intros V sig Ho. unfold make_auto_batching. generalize (List.concat (map pleaves sig)) as l, Ho. clear. intros l Ho.
  assert (HP : exists flags, primaries l = Ok flags).
  { induction l as [|x l IH]; [now exists []|]. destruct IH as (flags & E); [intros; apply Ho; now right|]. cbn. rewrite E. destruct x as [s | s v p | ]; [eexists; reflexivity | eexists; reflexivity |]. exfalso. apply (Ho SOther); [now left | reflexivity]. }
  destruct HP as (flags & E). rewrite E. cbn [rbind]. apply primaries_ok in E. destruct (existsb (fun b => b) flags) eqn:Ex; cbn [negb].
  - split; [|split]; try (intros; discriminate).
    + split; [discriminate|]. intro H. exfalso. apply existsb_exists in Ex as (b & Hb & ->). clear Ho. induction E as [|x b l flags Hx HF IH]; [destruct Hb|].
      destruct Hb as [-> | Hb]; [|apply IH; [exact Hb | intros; apply H; now right]]. destruct (H x (or_introl eq_refl)) as (s & v & ->). discriminate.
    + intros f H. injection H as <-. exists flags. split; [reflexivity|]. split; [|exact E]. apply existsb_exists in Ex as (b & Hb & ->). exact Hb.
  - split; [|split]; try (intros; congruence). split; [|reflexivity]. intros _ x Hx. clear Ho.
    assert (HN : forall b, In b flags -> b = false).
    { intros [] Hb; [|reflexivity]. assert (existsb (fun b => b) flags = true); [|congruence]. apply existsb_exists. now exists true. }
    clear Ex. induction E as [|y b l flags Hy HF IH]; [destruct Hx|]. destruct Hx as [-> | Hx]; [|apply IH; [exact Hx | intros; apply HN; now right]].
    specialize (HN b (or_introl eq_refl)). subst b. destruct x as [s | s v p | ]; [discriminate | subst p; now exists s, v | contradiction].
Qed.
Print Assumptions C82_auto_batching_primary.

Example C82_auto_batching_primary_example : (exists f, make_auto_batching [PLeaf (SSpec (vec "x")); PLeaf (SDef (vec "y") 1 false)] = Ok f) /\ make_auto_batching [PLeaf (SDef (vec "y") 1 false)] = Err ValueError.
Proof. split; [eexists|]; vm_compute; reflexivity. Qed.

(** A signature with another thing in it is an AttributeError *)
Theorem C82_auto_batching_other : forall (V : Type) (sig : list (ptree (sleaf V))), In SOther (List.concat (map pleaves sig)) -> make_auto_batching sig = Err AttributeError.
Proof.
  intros V sig. unfold make_auto_batching. generalize (List.concat (map pleaves sig)) as l. clear. intros l H.
  cut (primaries l = Err AttributeError); [intros ->; reflexivity|]. induction l as [|x l IH]; [destruct H|]. destruct H as [-> | H]; [reflexivity|]. cbn. rewrite (IH H). destruct x; reflexivity.
Qed.
Print Assumptions C82_auto_batching_other.

Example C82_auto_batching_other_example : make_auto_batching [PLeaf (SSpec (vec "x")); PNode [(KSeq 0, PLeaf (@SOther nat))]] = Err AttributeError.
Proof. vm_compute. reflexivity. Qed.

(** All tensors come out with the batch size of the primary ones: the same tensor, or the only row of one without priority repeated; this works exactly when all primary tensors have one size and the others this one or one row *)
Theorem C82_auto_batching : forall flags (args : list tens), 
  (forall outs, auto_batch flags args = Ok outs ->
   List.length args = List.length flags /\ exists n, (exists x, In (x, true) (combine args flags) /\ List.length x = n) /\ Forall2 (batched n) (combine args flags) outs /\ Forall (fun o => List.length o = n) outs) /\
  (forall n, List.length args = List.length flags -> In true flags -> (forall x p, In (x, p) (combine args flags) -> List.length x = n \/ (p = false /\ List.length x = 1)) -> exists outs, auto_batch flags args = Ok outs).
Proof. intros flags args. split; [intros outs; apply auto_batch_ok | intros n; apply auto_batch_complete]. Qed.
Print Assumptions C82_auto_batching.

Example C82_auto_batching_example : auto_batch [false; true; true; false] [[9]; [1; 2; 3]; [4; 5; 6]; [7; 7; 8]]%N = Ok [[9; 9; 9]; [1; 2; 3]; [4; 5; 6]; [7; 7; 8]]%N /\
  auto_batch [true; false] [[1; 2; 3]; [4; 5]]%N = Err OtherError /\ auto_batch [true; true] [[1; 2; 3]; [4; 5]]%N = Err OtherError /\ auto_batch [true] []%N = Err AssertionError.
Proof. vm_compute. repeat split. Qed.

(** The documentation of `is_primary` says that the batch size of a primary tensor is or will be tiled to match that of the others; one row beside a primary tensor of two is an error *)
Theorem C82_primary_not_tiled_refuted : exists x y : tens, List.length x = 1 /\ auto_batch [true; true] [x; y] = Err OtherError /\ auto_batch [false; true] [x; y] = Ok [x ++ x; y].
Proof. exists [1%N], [2%N; 3%N]. split; [reflexivity|]. split; vm_compute; reflexivity. Qed.
Print Assumptions C82_primary_not_tiled_refuted.

(** What is saved in a new directory, given by its full path, is what is loaded, and nothing else is changed, for keys without slashes *)
Theorem C82_exported_map : forall flat dir m d, (exists r c, dir = "/"%char :: r ++ [c] /\ c <> "/"%char) -> m <> [] -> NoDup (map fst m) -> (forall k, In k (map fst m) -> ~ In "/"%char k) ->
  dget text_eqb dir d = None -> (forall p x, In p (map fst d) -> p <> dir ++ "/"%char :: x) ->
  exists d', save_map flat dir m d = (d', Ok tt) /\ load_map dir d' = Ok m /\ forall p, In p (map fst d) -> dget text_eqb p d' = dget text_eqb p d.
Proof.
  intros flat dir m d Ha Hm Hn Hs Hd Hc. apply round_trip; try assumption. intros p Hp. unfold child. rewrite (join_base dir [] Ha) by discriminate.
  destruct (strip (dir ++ ["/"%char]) p) as [x|] eqn:E; [|reflexivity]. exfalso. apply strip_some in E. rewrite <- app_assoc in E. exact (Hc p x Hp E).
Qed.
Print Assumptions C82_exported_map.

Example C82_exported_map_example : let d := [(T "/tmp", None); (T "/tmp/x", Some 5%N)] in
  exists d', save_map false (T "/tmp/e") [(T "f", 1%N); (T "g.h", 2%N)] d = (d', Ok tt) /\ dget text_eqb (T "/tmp/e/f.jax_exported") d' = Some (Some 1%N) /\ load_map (T "/tmp/e") d' = Ok [(T "f", 1%N); (T "g.h", 2%N)] /\
    save_map false (T "/tmp/e") [(T "f", 1%N)] d' = (d', Err ValueError) /\ load_map (T "/tmp") d' = Err ValueError /\ load_map (T "/none") d' = Err ValueError.
Proof. eexists. split; [vm_compute; reflexivity|]. vm_compute. repeat split. Qed.

(** The directory is joined twice to the name of a file: with a relative directory `e` the file is `e/e/f.jax_exported`, whose directory does not exist, so that the save fails after it has made `e`; in a store without directories, as with `gs://b/e`, the save succeeds but the file is at another place and the load finds nothing *)
Theorem C82_joined_twice_refuted : exists m, 
  (exists d', save_map false (T "e") m [] = (d', Err OtherError) /\ dget text_eqb (T "e") d' = Some None) /\
  (exists d', save_map true (T "gs://b/e") m [] = (d', Ok tt) /\ dget text_eqb (T "gs://b/e/gs://b/e/f.jax_exported") d' = Some (Some 1%N) /\ load_map (T "gs://b/e") d' = Err ValueError).
Proof. exists [(T "f", 1%N)]. split; eexists; (split; [vm_compute; reflexivity|]); vm_compute; repeat split. Qed.
Print Assumptions C82_joined_twice_refuted.

(** An empty map is saved without an error but not loaded *)
Theorem C82_empty_map_refuted : exists m, forall dir, exists d', save_map false dir m [] = (d', Ok tt) /\ load_map dir d' = Err ValueError.
Proof.
  exists []. intro dir. exists [(dir, None)]. split; [reflexivity|]. unfold load_map, listdir. cbn [dget]. destruct (text_eqb dir dir); [|reflexivity]. cbn [map List.concat fst app].
  unfold child. destruct (strip (join dir []) dir) as [[|c n]|] eqn:E; [reflexivity | | reflexivity]. exfalso. apply strip_some in E.
  assert (HL : List.length dir <= List.length (join dir [])).
  { unfold join. destruct (rev dir) as [|a r] eqn:Er.
    - apply (f_equal (@List.length ascii)) in Er. rewrite rev_length in Er. rewrite Er. apply Nat.le_0_l.
    - assert (HA : forall x : text, List.length dir <= List.length (dir ++ x)) by (intro x; rewrite app_length; apply Nat.le_add_r). destruct a as [[] [] [] [] [] [] [] []]; apply HA. }
  apply (f_equal (@List.length ascii)) in E. rewrite app_length in E. cbn [List.length] in E. clear - HL E. lia.
Qed.
Print Assumptions C82_empty_map_refuted.

(** A key with a slash is not kept: one in the middle asks for a directory that does not exist, and one at the start writes outside of the directory *)
Theorem C82_slash_key_refuted : exists d, (exists d', save_map false (T "/t/e") [(T "a/b", 1%N)] d = (d', Err OtherError)) /\
  (exists d', save_map false (T "/t/e") [(T "/t/b", 1%N)] d = (d', Ok tt) /\ dget text_eqb (T "/t/b.jax_exported") d' = Some (Some 1%N) /\ load_map (T "/t/e") d' = Err ValueError).
Proof. exists [(T "/t", None)]. split; eexists; [vm_compute; reflexivity|]. split; [vm_compute; reflexivity|]. vm_compute. repeat split. Qed.
Print Assumptions C82_slash_key_refuted.

(** Names of parameters are different, one for each leaf, when no key has a dot and no two keys beside each other are the same after `~` is replaced *)
Theorem C82_param_names : forall (A : Type) (t : ptree A), apart t -> exists names, param_names t = Ok names /\ NoDup names /\ List.length names = List.length (paths t).
Proof. intros A t H. now apply names_apart. Qed.
Print Assumptions C82_param_names.

Example C82_param_names_example : let t := PNode [(KDict (T "linear/~/b"), PLeaf 1); (KDict (T "m"), PNode [(KSeq 0, PLeaf 2); (KSeq 1, PNode [(KAttr (T "w"), PLeaf 3)]); (KSeq 2, PNode [(KIndex 10, PLeaf 4)])])] in
  param_names t = Ok [T "linear/_/b"; T "m.0"; T "m.1.w"; T "m.2.10"] /\ param_names (PNode [(KOther, PLeaf 1)]) = Err ValueError.
Proof. vm_compute. repeat split. Qed.

(** Two parameters can get the same name: `a.b` and `b` below `a`, or `w~` and `w_` *)
Theorem C82_same_name_refuted : exists t u : ptree nat, param_names t = Ok [T "a.b"; T "a.b"] /\ NoDup (paths t) /\ param_names u = Ok [T "w_"; T "w_"] /\ NoDup (paths u).
Proof.
  exists (PNode [(KDict (T "a"), PNode [(KDict (T "b"), PLeaf 1)]); (KDict (T "a.b"), PLeaf 2)]), (PNode [(KDict (T "w_"), PLeaf 1); (KDict (T "w~"), PLeaf 2)]).
  split; [vm_compute; reflexivity|]. split; [|split; [vm_compute; reflexivity|]]; (constructor; [intros [H|[]]; discriminate | repeat constructor; intros []]).
Qed.
Print Assumptions C82_same_name_refuted.

(** Lower case changes the 26 capital letters and nothing else *)
Theorem C82_lower : forall t i c, nth_error t i = Some c -> exists d, nth_error (lower t) i = Some d /\ ((exists n, nth_error uppers n = Some c /\ nth_error lowers n = Some d) \/ (~ In c uppers /\ d = c)).
Proof.
  intros t i c H. exists (lower_char c). split; [unfold lower; now rewrite nth_error_map, H|].
  assert (X : forall c, (existsb (fun n => match nth_error uppers n, nth_error lowers n with Some u, Some l => Ascii.eqb u c && Ascii.eqb l (lower_char c) | _, _ => false end) (seq 0 26) || (negb (existsb (Ascii.eqb c) uppers) && Ascii.eqb (lower_char c) c)) = true)
    by (intros [b0 b1 b2 b3 b4 b5 b6 b7]; destruct b0, b1, b2, b3, b4, b5, b6, b7; vm_compute; reflexivity).
  specialize (X c). apply orb_true_iff in X as [X | X].
  - left. apply existsb_exists in X as (n & _ & X). destruct (nth_error uppers n) as [u|] eqn:U; [|discriminate]. destruct (nth_error lowers n) as [l|] eqn:L; [|discriminate]. apply andb_true_iff in X as [X Y]. apply Ascii.eqb_eq in X, Y. subst. exists n. now split.
  - right. apply andb_true_iff in X as [X Y]. apply Ascii.eqb_eq in Y. split; [|exact Y]. intro K. apply negb_true_iff in X. rewrite <- not_true_iff_false in X. apply X, existsb_exists. exists c. split; [exact K | apply Ascii.eqb_refl].
Qed.
Print Assumptions C82_lower.

Example C82_lower_example : lower (T "AZ_a9[`") = T "az_a9[`".
Proof. vm_compute. reflexivity. Qed.

(** With the names of the platforms at hand, the platforms are given in lower case, in their order, exactly when all are known, whatever their case *)
Theorem C82_platforms : forall ks l, (lowering_platforms (Some ks) (PMany l) = Ok (Some (map lower l)) <-> forall p, In p l -> exists k, In k ks /\ lower p = lower k) /\
  (forall r, lowering_platforms (Some ks) (PMany l) = Ok r -> r = Some (map lower l)) /\ (forall e, lowering_platforms (Some ks) (PMany l) = Err e -> e = ValueError) /\
  (forall p, lowering_platforms (Some ks) (POne p) = lowering_platforms (Some ks) (PMany [p])) /\ lowering_platforms (Some ks) PNothing = Ok None.
Proof.
  intros ks l. split; [apply platforms_ok|]. split; [|split; [|split; [reflexivity | reflexivity]]]; cbn; destruct (forallb _ _); congruence.
Qed.
Print Assumptions C82_platforms.

Example C82_platforms_example : lowering_platforms (Some [T "CPU"; T "TPU"; T "CUDA"]) (PMany [T "Tpu"; T "cpu"]) = Ok (Some [T "tpu"; T "cpu"]) /\ lowering_platforms (Some [T "CPU"]) (POne (T "gpu")) = Err ValueError /\
  lowering_platforms (Some [T "CPU"]) (PMany []) = Ok (Some []).
Proof. vm_compute. repeat split. Qed.

(** `utils.py` uses `manifest_pb2` but does not import it: every call with a platform ends with a NameError *)
Theorem C82_platforms_name_refuted : exists p, lower p = T "cpu" /\ lowering_platforms utils_known (POne p) = Err OtherError /\ (forall l, lowering_platforms utils_known (PMany l) = Err OtherError) /\ lowering_platforms utils_known PNothing = Ok None.
Proof. exists (T "CPU"). repeat split. Qed.
Print Assumptions C82_platforms_name_refuted.

(** The conversion keeps the tree and changes exactly arrays and shape structs of float32 *)
Theorem C82_to_bfloat16 : forall t, paths (to_bfloat16 t) = paths t /\ Forall2 (fun x y => y = match x with BStruct Float32 => BStruct BFloat16 | BArray Float32 => BArray BFloat16 | z => z end) (pleaves t) (pleaves (to_bfloat16 t)).
Proof.
  intro t. split; [apply paths_pmap|]. unfold to_bfloat16. rewrite leaves_pmap. induction (pleaves t) as [|x l IH]; constructor; [|exact IH]. destruct x as [[]|[]| |]; reflexivity.
Qed.
Print Assumptions C82_to_bfloat16.

Example C82_to_bfloat16_example : to_bfloat16 (PNode [(KDict (T "a"), PLeaf (BArray Float32)); (KDict (T "b"), PNode [(KSeq 0, PLeaf (BArray Str)); (KSeq 1, PLeaf (BStruct Float32))])]) =
  PNode [(KDict (T "a"), PLeaf (BArray BFloat16)); (KDict (T "b"), PNode [(KSeq 0, PLeaf (BArray Str)); (KSeq 1, PLeaf (BStruct BFloat16))])].
Proof. vm_compute. reflexivity. Qed.

(** The documentation says that python floats and other arrays of floats are converted; they are left as they are *)
Theorem C82_bfloat16_floats_refuted : exists t, pleaves t = [BFloat; BArray Float64; BArray Float16; BStruct Float64] /\ to_bfloat16 t = t.
Proof. exists (PNode [(KSeq 0, PLeaf BFloat); (KSeq 1, PLeaf (BArray Float64)); (KSeq 2, PLeaf (BArray Float16)); (KSeq 3, PLeaf (BStruct Float64))]). split; reflexivity. Qed.
Print Assumptions C82_bfloat16_floats_refuted.

(** The name of a parameter is made of the texts of its keys, with points between and without tildes; a key of another kind is a ValueError *)
Theorem C82_names : (forall path names, Forall2 key_text path names -> param_name path = Ok (no_tilde (dotted names))) /\ (forall path, In KOther path -> param_name path = Err ValueError).
Proof.
  unfold param_name. split.
  - intros path names F. assert (E : sequence (map key_name path) = Ok names); [|now rewrite E]. induction F as [|k n path names H F IH]; [reflexivity|]. cbn [map sequence]. rewrite IH. destruct k; cbn in H; try contradiction; subst; reflexivity.
  - intros path H. assert (E : sequence (map key_name path) = Err ValueError); [|now rewrite E]. induction path as [|k path IH]; [destruct H|]. cbn [map sequence]. destruct H as [-> | H]; [reflexivity|]. rewrite (IH H). now destruct k.
Qed.
Print Assumptions C82_names.

Example C82_names_example : param_name [KSeq 0; KDict (T "a~b"); KIndex 12; KAttr (T "w")] = Ok (T "0.a_b.12.w") /\ param_name [KSeq 0; KOther; KAttr (T "w")] = Err ValueError.
Proof. vm_compute. split; reflexivity. Qed.

(** Nothing is saved to a directory or file that is there, nor below something that is no directory *)
Theorem C82_save_refused : (forall flat dir m d x, dget text_eqb dir d = Some x -> save_map flat dir m d = (d, Err ValueError)) /\ (forall flat d p v x, dget text_eqb p d = Some x -> save_one flat d p v = Err ValueError) /\
  (forall d p v, dget text_eqb p d = None -> dget text_eqb (parent p) d <> Some None -> save_one false d p v = Err OtherError).
Proof.
  split; [|split].
  - intros flat dir m d x H. unfold save_map. now rewrite H.
  - intros flat d p v x H. unfold save_one. now rewrite H.
  - intros d p v H N. unfold save_one, write. rewrite H. cbn [orb]. destruct (dget text_eqb (parent p) d) as [[n|]|]; [reflexivity | congruence | reflexivity].
Qed.
Print Assumptions C82_save_refused.

Example C82_save_refused_example : save_map false (T "/a") [] [(T "/a", None)] = ([(T "/a", None)], Err ValueError) /\ save_one false [(T "/a", Some 3%N)] (T "/a/b") 4%N = Err OtherError.
Proof. vm_compute. split; reflexivity. Qed.
