(** C80: trees saved in the legacy msgpack format *)
From Coq Require Import List Bool Arith ZArith NArith String Permutation Sorting.Sorted.
From Verif Require Import Base StepName_Model Msgpack_Model Msgpack_Spec Msgpack_Proofs.
Import ListNotations.
Local Open Scope string_scope.
Local Open Scope list_scope.
Local Open Scope nat_scope.

(** *** The trees of the examples *)
Definition ex_u2 : dtype := mkD "uint16" 2 false false false.
Definition ex_names (s : string) : option dtype := if String.eqb s "uint16" then Some ex_u2 else None.
Definition ex_fits (n : nat) : bool := n <=? 8.
Definition ex_big : array := mkA [3; 2] ex_u2 [[1; 0]; [2; 0]; [3; 0]; [4; 0]; [5; 0]; [6; 1]].
Definition ex_small : array := mkA [1] ex_u2 [[9; 9]].
Definition ex_tree : val := VDict [(KStr "w", VDict [(KStr "big", VArr true ex_big); (KStr "a", VTuple true [VInt 7; VArr true ex_small])]); (KStr "b", VComplex 1 2)].

(** ** Round trip *)

(** A tree of nested dicts with arrays of any size, and lists and tuples of smaller things, is saved, and what is restored is the tree: each array has its shape, dtype and elements, whether or not it was sent in chunks. Dicts have their keys in order, jax arrays are numpy arrays, and named tuples are tuples *)
Theorem C80_roundtrip : forall mx fits names v, (forall n, n <= mx -> fits n = true) -> (Z.of_nat mx < 2 ^ 64)%Z -> storable mx fits names true v ->
  exists m w, serialize mx fits false v = Ok m /\ restore names m = Ok w /\ stored v w.
Proof. exact trip. Qed.
Print Assumptions C80_roundtrip.

(** In place, the keys keep their order *)
Theorem C80_roundtrip_in_place : forall mx fits names v, (forall n, n <= mx -> fits n = true) -> (Z.of_nat mx < 2 ^ 64)%Z -> storable mx fits names true v ->
  exists m, serialize mx fits true v = Ok m /\ restore names m = Ok (plain v).
Proof. exact in_place_trip. Qed.
Print Assumptions C80_roundtrip_in_place.

Lemma ex_storable : storable 8 ex_fits ex_names true ex_tree.
Proof.
  assert (D : plain_dtype ex_names ex_u2) by (repeat split; cbn; auto with arith).
  constructor; [intros _ [H | [H | []]]; discriminate|repeat constructor; eexists; reflexivity|]. constructor; [|constructor; [constructor|constructor]]. cbn [snd].
  constructor; [intros _ [H | [H | []]]; discriminate|repeat constructor; eexists; reflexivity|]. constructor; [|constructor; [|constructor]]; cbn [snd].
  - constructor; [repeat split; repeat constructor|exact D|cbn; auto with arith].
  - constructor. constructor; [constructor; split; [discriminate|reflexivity]|]. constructor; [|constructor]. constructor; [repeat split; repeat constructor|exact D|reflexivity].
Qed.
Example C80_roundtrip_ex :
  storable 8 ex_fits ex_names true ex_tree /\
  rbind (serialize 8 ex_fits false ex_tree) (restore ex_names) = Ok (VDict [(KStr "b", VComplex 1 2); (KStr "w", VDict [(KStr "a", VTuple false [VInt 7; VArr false ex_small]); (KStr "big", VArr false ex_big)])]) /\
  rbind (serialize 8 ex_fits true ex_tree) (restore ex_names) = Ok (plain ex_tree) /\
  plain ex_tree = VDict [(KStr "w", VDict [(KStr "big", VArr false ex_big); (KStr "a", VTuple false [VInt 7; VArr false ex_small])]); (KStr "b", VComplex 1 2)].
Proof. split; [exact ex_storable|]. vm_compute. repeat split. Qed.

(** ** Sizes *)

(** Of nested dicts of arrays no byte string that is sent is longer than the maximum, however large the arrays are *)
Theorem C80_chunk_sizes : forall mx fits p v m n, array_tree mx v -> serialize mx fits p v = Ok m -> sent m n -> n <= mx.
Proof. exact sizes. Qed.
Print Assumptions C80_chunk_sizes.

(** The message of an array of twelve bytes with a maximum of eight: the flag, the shape and the chunks, numbered from 0 *)
Example C80_chunk_sizes_ex : serialize 8 ex_fits false (VArr true ex_big) =
  Ok (MMap [(KStr "__msgpack_chunked_array__", MBool true); (KStr "shape", MMap [(KStr "0", MInt 3); (KStr "1", MInt 2)]);
            (KStr "chunks", MMap [(KStr "0", MExt 1 (MArr [MArr [MInt 4]; MStr "uint16"; MBin [1; 0; 2; 0; 3; 0; 4; 0]])); (KStr "1", MExt 1 (MArr [MArr [MInt 2]; MStr "uint16"; MBin [5; 0; 6; 1]]))])]) /\
  array_tree 8 (VArr true ex_big) /\ (forall j a, array_tree 8 (VArr j a) -> array_tree 8 (VDict [(KStr "x", VArr j a)])).
Proof. split; [vm_compute; reflexivity|]. split; [constructor; [repeat constructor|cbn; auto with arith]|]. intros j a H. constructor. constructor; [exact H|constructor]. Qed.

(** ** Errors *)

(** A tree with something of another type, an integer of more than 64 bits or an array of objects in it is refused, wherever it is *)
Theorem C80_refused : forall mx fits p v, unfit v -> serialize mx fits p v = Err ValueError.
Proof. exact refused. Qed.
Print Assumptions C80_refused.

Example C80_refused_ex : unfit (VDict [(KStr "a", VInt 1); (KStr "b", VList [VNone; VTuple true [VInt (2 ^ 64)]])]) /\ unfit (VDict [(KStr "a", VArr true (mkA [1] (mkD "object" 8 false true false) [[0;0;0;0;0;0;0;0]]))]).
Proof.
  split.
  - eapply u_dict; [right; left; reflexivity|]. eapply u_list; [right; left; reflexivity|]. eapply u_tuple; [left; reflexivity|]. constructor. intros [_ H]. discriminate.
  - eapply u_dict; [left; reflexivity|]. constructor. left. reflexivity.
Qed.

(** There is no other error of a save *)
Theorem C80_errors : forall mx fits p v e, serialize mx fits p v = Err e -> e = ValueError.
Proof. exact serialize_err. Qed.
Print Assumptions C80_errors.

Example C80_errors_ex : serialize 8 ex_fits false (VDict [(KStr "a", VInt 1); (KInt 2, VInt 1)]) = Err ValueError /\ serialize 8 ex_fits true (VDict [(KStr "a", VBytes [1;2;3;4;5;6;7;8;9])]) = Err ValueError.
Proof. vm_compute. split; reflexivity. Qed.

(** A message with an extension that is not known, or with a name that is no dtype, or with bytes that do not fill the shape, is refused *)
Theorem C80_restore_errors : forall names c p sh nm b d,
  ((c = 0 \/ 4 < c) -> restore names (MExt c p) = Err ValueError) /\
  (names nm = None -> restore names (MExt 1 (MArr [MArr sh; MStr nm; MBin b])) = Err TypeError /\ restore names (MExt 3 (MArr [MArr sh; MStr nm; MBin b])) = Err TypeError) /\
  (names nm = Some d -> d_size d = 0 \/ Nat.modulo (List.length b) (d_size d) <> 0 -> restore names (MExt 1 (MArr [MArr sh; MStr nm; MBin b])) = Err ValueError) /\
  (forall k z, restore names (MMap [(KInt z, k)]) = Err ValueError).
Proof.
  intros names c p sh nm b d. repeat split.
  - intros H. do 5 (destruct c as [|c]; [destruct H as [H|H]; [try discriminate; try reflexivity|exfalso; revert H; apply Nat.nlt_ge; auto with arith]|]). reflexivity.
  - unfold restore. cbn. rewrite H. reflexivity.
  - unfold restore. cbn. rewrite H. reflexivity.
  - intros H N. unfold restore. cbn. rewrite H. unfold frombuffer. destruct N as [-> | N]; [reflexivity|]. apply Nat.eqb_neq in N. rewrite N, orb_true_r. reflexivity.
Qed.
Print Assumptions C80_restore_errors.

Example C80_restore_errors_ex : restore ex_names (MExt 5 MNil) = Err ValueError /\ restore ex_names (MExt 1 (MArr [MArr [MInt 1]; MStr "str96"; MBin [1]])) = Err TypeError /\
  restore ex_names (MExt 1 (MArr [MArr [MInt 1]; MStr "uint16"; MBin [1]])) = Err ValueError /\ restore ex_names (MExt 1 (MArr [MArr [MInt 2]; MStr "uint16"; MBin [1; 2]])) = Err ValueError.
Proof. vm_compute. repeat split. Qed.

(** ** The handler *)

(** The primary host writes the file, the others leave it as it is; types that only rich metadata has are refused; a file that is not there is an error; what the primary writes is restored *)
Theorem C80_handler : forall mx fits names v file m,
  handler_serialize mx fits false false v file = Ok file /\ handler_serialize mx fits false true v file = Ok file /\
  handler_serialize mx fits true true v file = Err NotImplementedError /\
  handler_deserialize names None = Err FileNotFoundError /\
  (serialize mx fits false v = Ok m -> handler_serialize mx fits true false v file = Ok (Some m) /\ handler_deserialize names (Some m) = restore names m) /\
  (forall e, serialize mx fits false v = Err e -> handler_serialize mx fits true false v file = Err e).
Proof. intros mx fits names v file m. repeat split; unfold handler_serialize; [rewrite H; reflexivity|]. intros e H. rewrite H. reflexivity. Qed.
Print Assumptions C80_handler.

Example C80_handler_ex : rbind (handler_serialize 8 ex_fits true false (VDict [(KStr "x", VArr true ex_small)]) None) (handler_deserialize ex_names) = Ok (VDict [(KStr "x", VArr false ex_small)]).
Proof. vm_compute. reflexivity. Qed.

(** The tree of the caller is as it was, unless the save is in place and something is converted or sent in chunks *)
Theorem C80_caller : forall mx v, caller_after mx false v = v /\ (match v with VDict _ => False | _ => True end -> caller_after mx true v = v).
Proof. intros mx v. split; [reflexivity|]. destruct v; intros H; try reflexivity. contradiction. Qed.
Print Assumptions C80_caller.

Example C80_caller_ex : caller_after 8 false ex_tree = ex_tree /\ caller_after 8 true (VList [ex_tree]) = VList [ex_tree].
Proof. split; reflexivity. Qed.

(** ** What does not hold *)

Definition ex_u2s : dtype := mkD "uint16" 2 true false false.

(** An array with the other byte order is restored with other values, without an error: the name of a dtype ("uint16" for ">u2") does not tell the byte order, and the bytes are written as they are in memory (MP l.44). *)
Theorem C80_byte_order_refuted : exists a w, proper a /\ rbind (serialize 8 ex_fits false (VDict [(KStr "x", VArr false a)])) (restore ex_names) = Ok (VDict [(KStr "x", VArr false w)]) /\ a_shape w = a_shape a /\ a_elts w <> a_elts a.
Proof. exists (mkA [1] ex_u2s [[1; 0]]), (mkA [1] ex_u2 [[0; 1]]). split; [repeat split; repeat constructor|]. split; [vm_compute; reflexivity|]. split; [reflexivity|discriminate]. Qed.
Print Assumptions C80_byte_order_refuted.

(** A large array in a list or a tuple is not sent in chunks, and the save fails, where the same array in a dict is saved: arrays are looked for in dicts only (MP l.168-180). *)
Theorem C80_list_refuted : exists a m, proper a /\ serialize 8 ex_fits false (VDict [(KStr "x", VArr true a)]) = Ok m /\ serialize 8 ex_fits false (VDict [(KStr "x", VList [VArr true a])]) = Err ValueError.
Proof. exists ex_big. eexists. split; [repeat split; repeat constructor|]. split; vm_compute; reflexivity. Qed.
Print Assumptions C80_list_refuted.

(** A dict of the user with the key of chunked arrays is saved, but it is not restored: it is taken for an array in chunks (MP l.183-194). *)
Theorem C80_marker_refuted : exists d m, serialize 8 ex_fits false (VDict d) = Ok m /\ restore ex_names m = Err KeyError.
Proof. exists [(KStr "__msgpack_chunked_array__", VBool false)]. eexists. split; vm_compute; reflexivity. Qed.
Print Assumptions C80_marker_refuted.

(** A dict with integers for keys is saved, but it is not restored: the library refuses such keys unless it is told not to (MP l.232-233). *)
Theorem C80_int_keys_refuted : exists d m, serialize 8 ex_fits false (VDict d) = Ok m /\ restore ex_names m = Err ValueError.
Proof. exists [(KInt 0, VInt 1)]. eexists. split; vm_compute; reflexivity. Qed.
Print Assumptions C80_int_keys_refuted.

(** An array of texts is saved, but it is not restored: the name of its dtype ("str96") is none that numpy understands (MP l.59-62). *)
Theorem C80_dtype_name_refuted : exists a m, proper a /\ serialize 8 ex_fits false (VArr false a) = Ok m /\ restore ex_names m = Err TypeError.
Proof. exists (mkA [1] (mkD "str32" 4 false false false) [[97; 0; 0; 0]]). eexists. split; [repeat split; repeat constructor|]. split; vm_compute; reflexivity. Qed.
Print Assumptions C80_dtype_name_refuted.

(** After a save in place the dicts of the caller hold the chunks and not the arrays (MP l.213-215). *)
Theorem C80_in_place_refuted : exists a d, caller_after 8 true (VDict [(KStr "x", VArr false a)]) = VDict [(KStr "x", VDict d)].
Proof. exists ex_big. eexists. vm_compute. reflexivity. Qed.
Print Assumptions C80_in_place_refuted.

(** A dict whose keys are not all of one type is refused by the copy, though saved in place (MP l.213). *)
Theorem C80_mixed_keys_refuted : exists d m, serialize 8 ex_fits true (VDict d) = Ok m /\ serialize 8 ex_fits false (VDict d) = Err ValueError.
Proof. exists [(KStr "a", VInt 1); (KInt 2, VInt 1)]. eexists. split; vm_compute; reflexivity. Qed.
Print Assumptions C80_mixed_keys_refuted.

(** The entries of a tuple that becomes a dict are named by their places, counted from zero *)
Theorem C80_tuple_names : forall l, exists d, tuple_to_dict l = VDict d /\ List.length d = List.length l /\ forall i, nth_error d i = match nth_error l i with Some x => Some (KStr (string_of_list_ascii (dec (N.of_nat i))), x) | None => None end.
Proof.
  intro l. eexists. split; [reflexivity|]. split; [rewrite combine_length, map_length, seq_length; apply Nat.min_id|].
  assert (G : forall (l : list val) k i, nth_error (combine (map (fun i => KStr (num i)) (seq k (List.length l))) l) i = match nth_error l i with Some x => Some (KStr (string_of_list_ascii (dec (N.of_nat (k + i)))), x) | None => None end).
  { clear l. induction l as [|x l IH]; intros k i; cbn [List.length seq map combine]; [now destruct i|]. destruct i as [|i]; cbn [nth_error]; [now rewrite Nat.add_0_r|]. rewrite IH. now rewrite Nat.add_succ_r. }
  intro i. now rewrite (G l 0 i).
Qed.
Print Assumptions C80_tuple_names.

Example C80_tuple_names_example : tuple_to_dict [VNone; VInt 7] = VDict [(KStr "0", VNone); (KStr "1", VInt 7)].
Proof. vm_compute. reflexivity. Qed.

(** What the copy of a tree is: lists and tuples of the copies in their order, named tuples still named, dicts with the same entries by their keys in order, and all else as it was *)
Theorem C80_copied : forall v w, copy v = Ok w ->
  match v with
  | VList l => exists l', w = VList l' /\ Forall2 (fun x y => copy x = Ok y) l l'
  | VTuple n l => exists l', w = VTuple n l' /\ Forall2 (fun x y => copy x = Ok y) l l'
  | VDict d => exists e d', w = VDict d' /\ Forall2 (fun a b => fst b = fst a /\ copy (snd a) = Ok (snd b)) d e /\ Permutation e d' /\ Sorted (fun a b => key_le (fst a) (fst b)) d'
  | x => w = x
  end.
Proof.
  assert (S : forall (A B : Type) (f : A -> result B) (l : list A) (m : list B), sequence (map f l) = Ok m -> Forall2 (fun x y => f x = Ok y) l m).
  { intros A B f l. induction l as [|x l IH]; intro m; cbn; [intro H; injection H as <-; constructor|]. destruct (f x) as [y|e] eqn:E; cbn; [|discriminate]. destruct (sequence (map f l)) as [m'|e]; cbn; [|discriminate]. intro H. injection H as <-. constructor; [exact E | now apply IH]. }
  intros v w. destruct v as [| b | z | f | re im | s | b | j a | a | l | n l | d | ]; cbn [copy]; try (intro H; now injection H as <-).
  - destruct (sequence (map copy l)) as [m|e] eqn:E; cbn; [|discriminate]. intro H. injection H as <-. exists m. split; [reflexivity | now apply S].
  - destruct (sequence (map copy l)) as [m|e] eqn:E; cbn; [|discriminate]. intro H. injection H as <-. exists m. split; [reflexivity | now apply S].
  - destruct (comparable d) eqn:C; [|discriminate]. destruct (sequence _) as [m|e] eqn:E; cbn; [|discriminate]. intro H. injection H as <-. exists m, (sort_keys m). split; [reflexivity|]. apply S in E.
    assert (F : Forall2 (fun a b => fst b = fst a /\ copy (snd a) = Ok (snd b)) d m).
    { clear - E. induction E as [|x y d m E F IH]; constructor; [|exact IH]. destruct (copy (snd x)); cbn in E; [|discriminate]. injection E as <-. now split. }
    split; [exact F|].
    assert (T : (exists P, (P = (fun k => exists s, k = KStr s) \/ P = (fun k => exists z, k = KInt z)) /\ Forall (fun kv => P (fst kv)) m)).
    { unfold comparable in C. apply orb_true_iff in C as [C | C]; rewrite forallb_forall in C; [exists (fun k => exists s, k = KStr s); split; [now left|] | exists (fun k => exists z, k = KInt z); split; [now right|]];
        clear - F C; induction F as [|x y d m [E _] F IH]; constructor; try (apply IH; intros kv H; apply C; now right); specialize (C x (or_introl eq_refl)); rewrite E; destruct (fst x); try discriminate; eauto. }
    destruct T as (P & HP & T).
    assert (tot : forall a b, P a -> P b -> key_leb a b = false -> key_le b a).
    { intros a b Ha Hb K. destruct HP as [-> | ->]; destruct Ha as [x ->], Hb as [y ->]; cbn in *; [destruct (String.leb_total x y); congruence | apply Z.leb_gt in K; now apply Z.lt_le_incl]. }
    assert (le : forall a b, key_leb a b = true -> key_le a b) by (intros [x | x] [y | y]; cbn; try discriminate; [auto | intro K; now apply Z.leb_le in K]).
    assert (ins : forall x r, Permutation (x :: r) (insert_key x r)).
    { intros x r. induction r as [|y r IH]; cbn; [reflexivity|]. destruct (key_leb (fst x) (fst y)); [reflexivity|]. rewrite perm_swap. now constructor. }
    assert (perm : forall r, Permutation r (sort_keys r)) by (induction r as [|x r IH]; cbn; [reflexivity|]; rewrite <- ins; now constructor).
    split; [apply perm|].
    assert (srt : forall x r, P (fst x) -> Forall (fun kv => P (fst kv)) r -> Sorted (fun a b => key_le (fst a) (fst b)) r -> Sorted (fun a b => key_le (fst a) (fst b)) (insert_key x r)).
    { intros x r Px. induction r as [|y r IH]; cbn; intros Pr Sr; [repeat constructor|]. inversion Pr as [|? ? Py Pr']; subst. destruct (key_leb (fst x) (fst y)) eqn:K; [constructor; [exact Sr | constructor; now apply le]|].
      inversion Sr as [|? ? Sr' Hd]; subst. constructor; [now apply IH|]. destruct r as [|z r]; cbn; [constructor; now apply tot|]. destruct (key_leb (fst x) (fst z)); constructor; [now apply tot | now inversion Hd]. }
    clear - T srt perm. induction T as [|x m Px T IH]; cbn; [constructor|]. apply srt; [exact Px | | exact IH]. rewrite Forall_forall in *. intros kv H. apply T. apply (Permutation_in _ (Permutation_sym (perm m))). exact H.
Qed.
Print Assumptions C80_copied.

Example C80_copied_example : copy (VDict [(KInt 7, VTuple true [VNone; VDict [(KStr "b", VInt 1); (KStr "a", VInt 2)]]); (KInt (-2), VList [])]) = Ok (VDict [(KInt (-2), VList []); (KInt 7, VTuple true [VNone; VDict [(KStr "a", VInt 2); (KStr "b", VInt 1)]])]).
Proof. vm_compute. reflexivity. Qed.
