From Coq Require Import List Bool Arith ZArith NArith Ascii String Lia Permutation Sorting.Sorted.
From Verif Require Import Base StepName_Model StepName_Proofs Msgpack_Model Msgpack_Spec.
Import ListNotations.
Local Open Scope list_scope.
Local Open Scope nat_scope.

(** ** Induction *)
Section Ind.
  Variable P : val -> Prop.
  Hypothesis Hn : P VNone. Hypothesis Hb : forall b, P (VBool b). Hypothesis Hi : forall z, P (VInt z). Hypothesis Hf : forall f, P (VFloat f). Hypothesis Hc : forall a b, P (VComplex a b).
  Hypothesis Hs : forall s, P (VStr s). Hypothesis Hy : forall b, P (VBytes b). Hypothesis Ha : forall j a, P (VArr j a). Hypothesis Hsc : forall a, P (VScalar a).
  Hypothesis Hl : forall l, Forall P l -> P (VList l). Hypothesis Ht : forall n l, Forall P l -> P (VTuple n l). Hypothesis Hd : forall d, Forall (fun kv => P (snd kv)) d -> P (VDict d). Hypothesis Ho : P VOther.
  Fixpoint val_ind2 (v : val) : P v :=
    match v return P v with
    | VNone => Hn | VBool b => Hb b | VInt z => Hi z | VFloat f => Hf f | VComplex a b => Hc a b | VStr s => Hs s | VBytes b => Hy b | VArr j a => Ha j a | VScalar a => Hsc a
    | VList l => Hl l ((fix go l : Forall P l := match l with [] => Forall_nil _ | x :: r => Forall_cons _ (val_ind2 x) (go r) end) l)
    | VTuple n l => Ht n l ((fix go l : Forall P l := match l with [] => Forall_nil _ | x :: r => Forall_cons _ (val_ind2 x) (go r) end) l)
    | VDict d => Hd d ((fix go d : Forall (fun kv : key * val => P (snd kv)) d := match d with [] => Forall_nil _ | x :: r => Forall_cons _ (val_ind2 (snd x)) (go r) end) d)
    | VOther => Ho
    end.
End Ind.

(** ** Sequences of results *)
Lemma seq_map : forall {A B} (f : A -> result B) (g : A -> B) l, (forall x, In x l -> f x = Ok (g x)) -> sequence (map f l) = Ok (map g l).
Proof.
  intros A B f g l. induction l as [|x r IH]; intros H; cbn; [reflexivity|]. rewrite (H x (or_introl eq_refl)). cbn. rewrite IH; [reflexivity|]. intros y Hy. apply H. right. exact Hy.
Qed.
Lemma seq_all : forall {A B} (f : A -> result B) (R : A -> B -> Prop) l, (forall x, In x l -> exists y, f x = Ok y /\ R x y) -> exists r, sequence (map f l) = Ok r /\ Forall2 R l r.
Proof.
  intros A B f R l. induction l as [|x t IH]; intros H; cbn; [exists []; split; [reflexivity|constructor]|]. destruct (H x (or_introl eq_refl)) as [y [E Y]]. rewrite E. cbn.
  destruct IH as [r [E2 F]]; [intros z Hz; apply H; right; exact Hz|]. rewrite E2. exists (y :: r). split; [reflexivity|constructor; assumption].
Qed.
Lemma seq_f2 : forall {A B} (f : A -> result B) (h : A -> B) l, (forall x, In x l -> f x = Ok (h x)) -> sequence (map f l) = Ok (map h l).
Proof. intros. apply seq_map. assumption. Qed.

(** ** Arrays *)
Lemma pieces_concat : forall n elts fuel, 0 < n -> Forall (fun e => List.length e = n) elts -> List.length (List.concat elts) <= fuel -> pieces fuel n (List.concat elts) = elts.
Proof.
  intros n elts. induction elts as [|e r IH]; intros fuel P F L; cbn in *; [destruct fuel; reflexivity|]. inversion F as [|? ? F1 F2]; subst. rewrite app_length in L.
  destruct fuel as [|fuel]; [lia|]. cbn. destruct (e ++ List.concat r) as [|b q] eqn:E; [apply (f_equal (@List.length nat)) in E; rewrite app_length in E; cbn in E; lia|]. rewrite <- E.
  rewrite firstn_app, Nat.sub_diag, firstn_all, firstn_O, app_nil_r, skipn_app, Nat.sub_diag, skipn_all. cbn. rewrite IH; [reflexivity|exact P|exact F2|lia].
Qed.
Lemma concat_len : forall n (elts : list (list nat)), Forall (fun e => List.length e = n) elts -> List.length (List.concat elts) = List.length elts * n.
Proof. intros n elts F. induction F as [|e r H F IH]; cbn; [reflexivity|]. rewrite app_length, H, IH. reflexivity. Qed.

Lemma tobytes_plain : forall a, d_swapped (a_dtype a) = false -> tobytes a = List.concat (a_elts a).
Proof. intros a H. unfold tobytes. rewrite H, map_id. reflexivity. Qed.

Lemma shape_ok : forall l, shape_of (map (fun n => MInt (Z.of_nat n)) l) = Ok l.
Proof.
  intros l. unfold shape_of. rewrite map_map. rewrite (seq_map _ (fun n => n)); [rewrite map_id; reflexivity|]. intros n _. destruct (Z.ltb_spec (Z.of_nat n) 0); [lia|]. rewrite Nat2Z.id. reflexivity.
Qed.

Lemma array_bytes : forall fits names a, proper a -> plain_dtype names (a_dtype a) -> fits (bytes_of a) = true -> exists m, ndarray_to_bytes fits a = Ok m /\ ndarray_from_bytes names m = Ok a.
Proof.
  intros fits names a [P1 [P2 P3]] [D1 [D2 [D3 [D4 D5]]]] F. unfold ndarray_to_bytes. rewrite D2, D3. cbn [orb]. rewrite (tobytes_plain a D4).
  assert (L := concat_len (d_size (a_dtype a)) (a_elts a) P2). rewrite L. fold (bytes_of a). rewrite F. eexists. split; [reflexivity|]. cbn. rewrite D5. unfold frombuffer.
  rewrite L. destruct (Nat.eqb_spec (d_size (a_dtype a)) 0) as [Z|Z]; [lia|]. cbn [orb]. rewrite Nat.mod_mul by lia. cbn [Nat.eqb negb]. rewrite D4. rewrite map_id, pieces_concat; [|exact D1|exact P2|lia].
  cbn [rbind]. rewrite shape_ok. cbn [rbind]. unfold reshape, count. rewrite <- P1, Nat.eqb_refl. destruct a; reflexivity.
Qed.

(** ** Packing and unpacking *)
Lemma int_fits_iff : forall z, int_fits z = true <-> (- 2 ^ 63 <= z < 2 ^ 64)%Z.
Proof. intros z. unfold int_fits. rewrite andb_true_iff, Z.leb_le, Z.ltb_lt. reflexivity. Qed.

Lemma pack_unpack : forall mx fits names v, storable mx fits names false v -> exists m, pack fits v = Ok m /\ unpack names m = Ok (plain v).
Proof.
  intros mx fits names. induction v using val_ind2; intros S0; inversion S0; subst; cbn [pack plain].
  - eexists; split; reflexivity.
  - eexists; split; reflexivity.
  - rewrite (proj2 (int_fits_iff z)) by assumption. eexists; split; reflexivity.
  - eexists; split; reflexivity.
  - eexists; split; reflexivity.
  - match goal with H : fits _ = true |- _ => rewrite H end. eexists; split; reflexivity.
  - match goal with H : fits _ = true |- _ => rewrite H end. eexists; split; reflexivity.
  - match goal with P : proper a, D : plain_dtype _ _, F : fits _ = true |- _ => destruct (array_bytes fits names a P D F) as [m [E1 E2]] end. rewrite E1. eexists. split; [reflexivity|]. cbn. rewrite E2. reflexivity.
  - match goal with P : proper a, D : plain_dtype _ _, F : fits _ = true |- _ => destruct (array_bytes fits names a P D F) as [m [E1 E2]] end. rewrite E1. eexists. split; [reflexivity|]. cbn. rewrite E2. reflexivity.
  - destruct (seq_all (pack fits) (fun x m => unpack names m = Ok (plain x)) l) as [r [E F]].
    { intros x Ix. match goal with A : Forall _ l, B : Forall _ l |- _ => rewrite Forall_forall in A, B; first [apply (A x Ix (B x Ix)) | apply (B x Ix (A x Ix))] end. }
    rewrite E. eexists. split; [reflexivity|]. cbn. assert (Q : sequence (map (unpack names) r) = Ok (map plain l)).
    { clear - F. induction F as [|x m l r H F IH]; cbn; [reflexivity|]. rewrite H. cbn. rewrite IH. reflexivity. }
    rewrite Q. reflexivity.
  - destruct (seq_all (pack fits) (fun x m => unpack names m = Ok (plain x)) l) as [r [E F]].
    { intros x Ix. match goal with A : Forall _ l, B : Forall _ l |- _ => rewrite Forall_forall in A, B; first [apply (A x Ix (B x Ix)) | apply (B x Ix (A x Ix))] end. }
    rewrite E. eexists. split; [reflexivity|]. cbn. assert (Q : sequence (map (unpack names) r) = Ok (map plain l)).
    { clear - F. induction F as [|x m l r H F IH]; cbn; [reflexivity|]. rewrite H. cbn. rewrite IH. reflexivity. }
    rewrite Q. reflexivity.
  - match goal with K : Forall (fun kv => exists s, fst kv = KStr s) d |- _ => rename K into HK end.
    destruct (seq_all (fun kv => rmap (pair (fst kv)) (pack fits (snd kv))) (fun kv m => fst m = fst kv /\ unpack names (snd m) = Ok (plain (snd kv))) d) as [r [E F]].
    { intros x Ix. rewrite Forall_forall in *. destruct (H x Ix) as [m [E1 E2]]; [match goal with B : forall x, In x d -> storable _ _ _ _ _ |- _ => apply B; exact Ix end|]. rewrite E1. eexists. split; [reflexivity|]. split; [reflexivity|exact E2]. }
    rewrite E. eexists. split; [reflexivity|]. cbn.
    match goal with |- rmap VDict ?s = _ => assert (Q : s = Ok (map (fun kv => (fst kv, plain (snd kv))) d)) end.
    { clear - F HK. induction F as [|x m l r [H0 H1] F IH]; cbn; [reflexivity|]. inversion HK as [|? ? [s K] K2]; subst. rewrite H0, K, H1. cbn. rewrite IH; [reflexivity|exact K2]. }
    rewrite Q. reflexivity.
Qed.

(** ** Chunks *)
Lemma convert_dict : forall d, convert (VDict d) = VDict (map (fun kv => (fst kv, convert (snd kv))) d).
Proof. intros d. cbn. f_equal. apply map_ext. intros [k v]. cbn. f_equal. destruct v; reflexivity. Qed.
Lemma chunk_dict : forall mx d, chunk_leaves mx (VDict d) = VDict (map (fun kv => (fst kv, chunk_leaves mx (snd kv))) d).
Proof. intros mx d. cbn. f_equal. apply map_ext. intros [k v]. cbn. f_equal. destruct v; try reflexivity. destruct jax; reflexivity. Qed.
Lemma unchunk_dict : forall d, unchunk_leaves (VDict d) = if is_chunked d then unchunk d else rmap VDict (sequence (map (fun kv => rmap (pair (fst kv)) (unchunk_leaves (snd kv))) d)).
Proof.
  intros d. cbn [unchunk_leaves]. destruct (is_chunked d); [reflexivity|]. f_equal. f_equal. apply map_ext. intros [k v]. cbn [fst snd]. f_equal. destruct v; try reflexivity. cbn [unchunk_leaves]. destruct (is_chunked d0); reflexivity.
Qed.

Lemma num_inj : forall i j, num i = num j -> i = j.
Proof.
  intros i j H. unfold num in H. apply (f_equal list_ascii_of_string) in H. rewrite !list_ascii_of_string_of_list_ascii in H. apply dec_inj in H. lia.
Qed.
Lemma lookup_num : forall l s i, i < List.length l -> lookup (KStr (num (s + i))) (combine (map (fun i => KStr (num i)) (seq s (List.length l))) l) = nth_error l i.
Proof.
  intros l. induction l as [|x r IH]; intros s i L; [cbn in L; lia|]. cbn [List.length seq map combine lookup key_eqb]. destruct (String.eqb_spec (num (s + i)) (num s)) as [E|E].
  - apply num_inj in E. assert (i = 0) by lia. subst. reflexivity.
  - destruct i as [|i]; [rewrite Nat.add_0_r in E; congruence|]. replace (s + S i) with (S s + i) by lia. rewrite IH by (cbn in L; lia). reflexivity.
Qed.
Lemma tuple_dict : forall l, dict_to_tuple (tuple_to_dict l) = Ok l.
Proof.
  intros l. unfold dict_to_tuple, tuple_to_dict. rewrite combine_length, map_length, seq_length, Nat.min_id.
  assert (G : forall n, n <= List.length l -> sequence (map (fun i => match lookup (KStr (num i)) (combine (map (fun i => KStr (num i)) (seq 0 (List.length l))) l) with Some x => Ok x | None => Err KeyError end) (seq (List.length l - n) n)) = Ok (skipn (List.length l - n) l)).
  { induction n as [|n IH]; intros L.
    - cbn. rewrite Nat.sub_0_r, skipn_all. reflexivity.
    - cbn [seq map sequence]. assert (LK := lookup_num l 0 (List.length l - S n)). cbn [Nat.add] in LK. rewrite LK by lia. destruct (nth_error l (List.length l - S n)) as [x|] eqn:E; [|apply nth_error_None in E; lia]. cbn [rbind].
      replace (S (List.length l - S n)) with (List.length l - n) by lia. rewrite IH by lia. cbn [rmap rbind]. apply nth_error_split in E. destruct E as [a [b [E1 E2]]].
      replace (List.length l - n) with (S (List.length a)) by lia. rewrite <- E2, E1. rewrite skipn_app, skipn_all2 by lia. replace (S (List.length a) - List.length a) with 1 by lia. rewrite skipn_app, skipn_all, Nat.sub_diag. reflexivity. }
  specialize (G (List.length l) (le_n _)). rewrite Nat.sub_diag in G. exact G.
Qed.

Lemma chunks_elts : forall fuel n d elts, 0 < n -> List.length elts <= fuel -> List.concat (map (fun v => match v with VArr _ b => a_elts b | _ => [] end) (chunks fuel n d elts)) = elts.
Proof.
  induction fuel as [|f IH]; intros n d elts P L; [destruct elts; [reflexivity|cbn in L; lia]|]. cbn [chunks]. destruct elts as [|e r]; [reflexivity|]. cbn [map List.concat a_elts].
  rewrite IH; [apply firstn_skipn|exact P|]. rewrite skipn_length. cbn [List.length] in *. lia.
Qed.
Lemma chunks_form : forall fuel n d elts v, In v (chunks fuel n d elts) -> exists es, v = VArr false (mkA [List.length es] d es) /\ List.length es <= n /\ incl es elts.
Proof.
  induction fuel as [|f IH]; intros n d elts v I; [contradiction|]. cbn [chunks] in I. destruct elts as [|e r]; [contradiction|]. destruct I as [<- | I].
  - exists (firstn n (e :: r)). split; [reflexivity|]. split; [rewrite firstn_length; lia|]. intros x Hx. rewrite <- (firstn_skipn n (e :: r)). apply in_or_app. left. exact Hx.
  - destruct (IH n d _ v I) as [es [E [L J]]]. exists es. split; [exact E|]. split; [exact L|]. intros x Hx. rewrite <- (firstn_skipn n (e :: r)). apply in_or_app. right. apply J. exact Hx.
Qed.

Lemma plain_tuple : forall l, Forall (fun v => plain v = v) l -> plain (tuple_to_dict l) = tuple_to_dict l.
Proof.
  intros l F. unfold tuple_to_dict. cbn [plain]. f_equal. generalize (map (fun i => KStr (num i)) (seq 0 (List.length l))). induction F as [|x r H F IH]; intros ks; destruct ks as [|k ks]; try reflexivity. cbn. rewrite H, IH. reflexivity.
Qed.
Lemma plain_chunk : forall mx a, plain (chunk mx a) = chunk mx a.
Proof.
  intros mx a. unfold chunk. remember (tuple_to_dict (map (fun k => VInt (Z.of_nat k)) (a_shape a))) as s eqn:Es. remember (tuple_to_dict (chunks (List.length (a_elts a)) (Nat.max 1 (mx / d_size (a_dtype a))) (a_dtype a) (a_elts a))) as c eqn:Ec.
  cbn [plain map fst snd]. assert (S1 : plain s = s). { subst s. apply plain_tuple. apply Forall_forall. intros v I. apply in_map_iff in I. destruct I as [k [<- _]]. reflexivity. }
  assert (C1 : plain c = c). { subst c. apply plain_tuple. apply Forall_forall. intros v I. apply chunks_form in I. destruct I as [es [-> _]]. reflexivity. }
  rewrite S1, C1. reflexivity.
Qed.

Lemma unchunk_chunk : forall mx a, proper a -> a_elts a <> [] -> exists d, chunk mx a = VDict d /\ is_chunked d = true /\ unchunk d = Ok (VArr false a).
Proof.
  intros mx a [P1 [P2 P3]] N. unfold chunk. eexists. split; [reflexivity|]. split; [reflexivity|]. unfold unchunk.
  remember (tuple_to_dict (map (fun k => VInt (Z.of_nat k)) (a_shape a))) as s eqn:Es. remember (tuple_to_dict (chunks (List.length (a_elts a)) (Nat.max 1 (mx / d_size (a_dtype a))) (a_dtype a) (a_elts a))) as c eqn:Ec.
  change (field "shape" [(KStr marker, VBool true); (KStr "shape", s); (KStr "chunks", c)]) with (@Ok val s). change (field "chunks" [(KStr marker, VBool true); (KStr "shape", s); (KStr "chunks", c)]) with (@Ok val c).
  cbn [rbind]. rewrite Es, Ec, !tuple_dict. cbn [rbind]. set (n := Nat.max 1 (mx / d_size (a_dtype a))). assert (N1 : 0 < n) by (unfold n; lia).
  assert (C : concatenate (chunks (List.length (a_elts a)) n (a_dtype a) (a_elts a)) = Ok (a_dtype a, a_elts a)).
  { assert (CE := chunks_elts (List.length (a_elts a)) n (a_dtype a) (a_elts a) N1 (le_n _)). assert (CF := chunks_form (List.length (a_elts a)) n (a_dtype a) (a_elts a)).
    destruct (chunks (List.length (a_elts a)) n (a_dtype a) (a_elts a)) as [|v r]; [cbn in CE; congruence|]. destruct (CF v (or_introl eq_refl)) as [es [E _]]. rewrite E. unfold concatenate. rewrite <- E.
    assert (B : forallb (fun v => match v with VArr _ b => (List.length (a_shape b) =? 1) && String.eqb (d_name (a_dtype b)) (d_name (a_dtype (mkA [List.length es] (a_dtype a) es))) | _ => false end) (v :: r) = true).
    { apply forallb_forall. intros x Ix. destruct (CF x Ix) as [es' [-> _]]. cbn. apply String.eqb_refl. }
    rewrite B, CE. reflexivity. }
  rewrite C. cbn [rbind fst snd]. rewrite map_map, (seq_map _ (fun k => k)).
  - cbn [rbind]. rewrite map_id. unfold reshape, count. rewrite <- P1, Nat.eqb_refl. cbn [rmap rbind]. destruct a; reflexivity.
  - intros k _. destruct (Z.ltb_spec (Z.of_nat k) 0); [lia|]. rewrite Nat2Z.id. reflexivity.
Qed.

(** ** Storable trees *)
Lemma lookup_marker : forall d, ~ In (KStr "__msgpack_chunked_array__") (map fst d) -> is_chunked d = false.
Proof.
  intros d N. unfold is_chunked. induction d as [|[k v] r IH]; [reflexivity|]. cbn [lookup]. destruct k as [s|z]; cbn [key_eqb].
  - destruct (String.eqb_spec marker s) as [E|E]; [exfalso; apply N; left; cbn; rewrite <- E; reflexivity|]. apply IH. intros I. apply N. right. exact I.
  - apply IH. intros I. apply N. right. exact I.
Qed.

Lemma storable_tuple : forall mx fits names l, Forall (storable mx fits names false) l -> storable mx fits names false (tuple_to_dict l).
Proof.
  intros mx fits names l F. unfold tuple_to_dict. apply s_dict; [discriminate| |].
  - apply Forall_forall. intros [k v] I. apply in_combine_l in I. apply in_map_iff in I. destruct I as [i [<- _]]. eexists. reflexivity.
  - apply Forall_forall. intros [k v] I. apply in_combine_r in I. rewrite Forall_forall in F. apply F. exact I.
Qed.

Lemma storable_chunk : forall mx fits names a, (forall n, n <= mx -> fits n = true) -> (Z.of_nat mx < 2 ^ 64)%Z -> proper a -> plain_dtype names (a_dtype a) -> d_size (a_dtype a) <= mx -> storable mx fits names false (chunk mx a).
Proof.
  intros mx fits names a F M [P1 [P2 P3]] D L. unfold chunk. apply s_dict; [discriminate| |].
  - repeat constructor; eexists; reflexivity.
  - constructor; [constructor|]. assert (D1 := proj1 D). assert (Q := Nat.div_str_pos mx (d_size (a_dtype a)) (conj D1 L)).
    constructor; [|constructor; [|constructor]]; cbn [snd]; apply storable_tuple; apply Forall_forall; intros v I.
    + apply in_map_iff in I. destruct I as [k [<- Ik]]. constructor. rewrite Forall_forall in P3. assert (K := P3 k Ik). lia.
    + apply chunks_form in I. destruct I as [es [-> [Le J]]]. rewrite Nat.max_r in Le by lia. constructor; cbn.
      * split; [cbn; lia|]. split; cbn; [apply Forall_forall; intros e Ie; rewrite Forall_forall in P2; apply P2; apply J; exact Ie|].
        constructor; [|constructor]. assert (List.length es <= mx); [|lia]. transitivity (mx / d_size (a_dtype a)); [exact Le|]. apply Nat.div_le_upper_bound; [lia|]. nia.
      * exact D.
      * apply F. unfold bytes_of. cbn. transitivity (mx / d_size (a_dtype a) * d_size (a_dtype a)); [apply Nat.mul_le_mono_r; exact Le|]. rewrite Nat.mul_comm. apply Nat.mul_div_le. lia.
Qed.

Lemma storable_false : forall mx fits names v, storable mx fits names true v -> forall top, match v with VArr _ _ | VDict _ => True | _ => storable mx fits names top v end.
Proof. intros mx fits names v H top. inversion H; subst; try exact I; constructor; assumption. Qed.

Lemma chunked_storable : forall mx fits names v, (forall n, n <= mx -> fits n = true) -> (Z.of_nat mx < 2 ^ 64)%Z -> storable mx fits names true v -> storable mx fits names false (chunk_leaves mx (convert v)).
Proof.
  intros mx fits names v F M. induction v using val_ind2; intros S0; try (exact (storable_false _ _ _ _ S0 false)).
  - inversion S0; subst. cbn [convert chunk_leaves]. destruct (Nat.ltb_spec mx (nbytes a)) as [L|L].
    + apply storable_chunk; assumption.
    + constructor; [assumption|assumption|]. apply F. exact L.
  - rewrite convert_dict, chunk_dict, map_map. inversion S0; subst. constructor; [discriminate| |].
    + rewrite Forall_forall in *. intros kv I. apply in_map_iff in I. destruct I as [x [<- Ix]]. cbn. match goal with B : forall x, In x d -> exists s, _ |- _ => apply B; exact Ix end.
    + rewrite Forall_forall in *. intros kv I. apply in_map_iff in I. destruct I as [x [<- Ix]]. cbn. apply H; [exact Ix|]. match goal with B : forall x, In x d -> storable _ _ _ _ _ |- _ => apply B; exact Ix end.
Qed.

Lemma unchunk_plain : forall mx fits names v, storable mx fits names true v -> unchunk_leaves (plain (chunk_leaves mx (convert v))) = Ok (plain v).
Proof.
  intros mx fits names v. induction v using val_ind2; intros S0; try reflexivity.
  - cbn [convert chunk_leaves]. destruct (Nat.ltb_spec mx (nbytes a)) as [L|L]; [|reflexivity]. rewrite plain_chunk. inversion S0; subst.
    destruct (unchunk_chunk mx a) as [d [E1 [E2 E3]]]; [assumption|intros E; unfold nbytes in L; rewrite E in L; cbn in L; lia|]. rewrite E1, unchunk_dict, E2, E3. reflexivity.
  - rewrite convert_dict, chunk_dict, map_map. cbn [plain fst snd]. rewrite map_map, unchunk_dict. cbn [fst snd]. inversion S0; subst.
    rewrite lookup_marker by (rewrite map_map; cbn [fst]; match goal with B : true = true -> _ |- _ => apply B; reflexivity end). rewrite map_map. cbn [fst snd].
    rewrite (seq_map _ (fun kv => (fst kv, plain (snd kv)))); [reflexivity|]. intros x Ix. rewrite Forall_forall in *. rewrite H; [reflexivity|exact Ix|].
    match goal with B : forall x, In x d -> storable _ _ _ _ _ |- _ => apply B; exact Ix end.
Qed.

Lemma in_place_trip : forall mx fits names v, (forall n, n <= mx -> fits n = true) -> (Z.of_nat mx < 2 ^ 64)%Z -> storable mx fits names true v ->
  exists m, serialize mx fits true v = Ok m /\ restore names m = Ok (plain v).
Proof.
  intros mx fits names v F M S0. destruct (pack_unpack mx fits names _ (chunked_storable mx fits names v F M S0)) as [m [E1 E2]]. exists m. unfold serialize, restore. cbn [rbind]. split; [exact E1|]. rewrite E2. cbn [rbind]. apply (unchunk_plain mx fits names v S0).
Qed.

(** ** Copies *)
Lemma insert_perm : forall x d, Permutation (x :: d) (insert_key x d).
Proof. intros x d. induction d as [|y r IH]; cbn; [reflexivity|]. destruct (key_leb (fst x) (fst y)); [reflexivity|]. rewrite perm_swap. constructor. exact IH. Qed.
Lemma sort_perm : forall d, Permutation d (sort_keys d).
Proof. intros d. induction d as [|x r IH]; cbn; [reflexivity|]. rewrite <- insert_perm. constructor. exact IH. Qed.

Definition strk (kv : key * val) : Prop := exists s, fst kv = KStr s.
Lemma insert_sorted : forall x d, strk x -> Forall strk d -> StronglySorted key_before d -> StronglySorted key_before (insert_key x d).
Proof.
  intros x d [a A] F H. induction H as [|y r H IH G]; cbn; [repeat constructor|]. inversion F as [|? ? [b B] F2]; subst. destruct (key_leb (fst x) (fst y)) eqn:E.
  - constructor; [constructor; assumption|]. constructor; [unfold key_before; rewrite A, B in *; exact E|]. rewrite Forall_forall in *. intros z Iz. specialize (G z Iz). destruct (F2 z Iz) as [c C].
    unfold key_before in *. rewrite A, B in *. rewrite C in *. eapply leb_trans; [exact E|exact G].
  - constructor; [apply IH; exact F2|]. apply Forall_forall. intros z Iz. apply (Permutation_in z (Permutation_sym (insert_perm x r))) in Iz. destruct Iz as [<- | Iz].
    + unfold key_before. rewrite A, B in *. cbn in E. destruct (String.leb_total a b) as [T|T]; [congruence|exact T].
    + rewrite Forall_forall in G. apply G. exact Iz.
Qed.
Lemma sort_sorted : forall d, Forall strk d -> StronglySorted key_before (sort_keys d).
Proof.
  intros d F. induction F as [|x r H F IH]; cbn; [constructor|]. apply insert_sorted; [exact H| |exact IH]. rewrite Forall_forall in *. intros y Iy. apply F. apply (Permutation_in y (Permutation_sym (sort_perm r))). exact Iy.
Qed.
Lemma before_keys : forall d, StronglySorted key_before d -> forall e, map fst e = map fst d -> StronglySorted key_before e.
Proof.
  intros d H. induction H as [|x r H IH G]; intros e E; destruct e as [|y t]; try discriminate; constructor.
  - apply IH. inversion E. reflexivity.
  - inversion E as [[E1 E2]]. clear - E1 E2 G. revert r E2 G. induction t as [|z t IH]; intros r E2 G; constructor.
    + destruct r as [|w r]; [discriminate|]. inversion E2 as [[E3 E4]]. inversion G; subst. unfold key_before in *. rewrite E1, E3. assumption.
    + destruct r as [|w r]; [discriminate|]. inversion E2 as [[E3 E4]]. inversion G; subst. apply (IH r); assumption.
Qed.

Lemma map_perm_lift : forall {A B} (R : A -> B -> Prop) (l : list A) (r r' : list B), Forall2 R l r -> Permutation r r' -> exists l', Permutation l l' /\ Forall2 R l' r'.
Proof.
  intros A B R l r r' F P. revert l F. induction P; intros q F.
  - inversion F; subst. exists []. split; [reflexivity|constructor].
  - inversion F as [|x0 ? ? ? G1 G2]; subst. destruct (IHP _ G2) as [l2 [P1 F1]]. exists (x0 :: l2). split; [constructor; exact P1|constructor; assumption].
  - inversion F as [|? ? ? ? H1 H2]; subst. inversion H2 as [|? ? ? ? H3 H4]; subst. eexists. split; [apply perm_swap|]. repeat constructor; assumption.
  - destruct (IHP1 _ F) as [l1 [Q1 F1]]. destruct (IHP2 _ F1) as [l2 [Q2 F2]]. exists l2. split; [transitivity l1; assumption|exact F2].
Qed.

Lemma comparable_str : forall d, Forall strk d -> comparable d = true.
Proof. intros d F. unfold comparable. apply orb_true_iff. left. apply forallb_forall. intros x Ix. rewrite Forall_forall in F. destruct (F x Ix) as [s E]. rewrite E. reflexivity. Qed.

Lemma copy_ok : forall mx fits names v top, storable mx fits names top v -> exists c, copy v = Ok c /\ storable mx fits names top c /\ stored v (plain c).
Proof.
  intros mx fits names. induction v using val_ind2; intros top S0; try (eexists; split; [reflexivity|]; split; [exact S0|]; constructor; exact I).
  - inversion S0; subst. match goal with B : Forall (storable _ _ _ false) l |- _ => rename B into HB end.
    destruct (seq_all copy (fun x c => storable mx fits names false c /\ stored x (plain c)) l) as [r [E F]].
    { intros x Ix. rewrite Forall_forall in *. destruct (H x Ix false (HB x Ix)) as [c [C1 C2]]. exists c. split; assumption. }
    cbn [copy]. rewrite E. eexists. split; [reflexivity|]. split.
    + constructor. clear - F. induction F as [|x c l r [A B] F IH]; constructor; assumption.
    + cbn [plain]. constructor. clear - F. induction F as [|x c l r [A B] F IH]; constructor; assumption.
  - inversion S0; subst. match goal with B : Forall (storable _ _ _ false) l |- _ => rename B into HB end.
    destruct (seq_all copy (fun x c => storable mx fits names false c /\ stored x (plain c)) l) as [r [E F]].
    { intros x Ix. rewrite Forall_forall in *. destruct (H x Ix false (HB x Ix)) as [c [C1 C2]]. exists c. split; assumption. }
    cbn [copy]. rewrite E. eexists. split; [reflexivity|]. split.
    + constructor. clear - F. induction F as [|x c l r [A B] F IH]; constructor; assumption.
    + cbn [plain]. constructor. clear - F. induction F as [|x c l r [A B] F IH]; constructor; assumption.
  - inversion S0; subst. match goal with B : Forall (fun kv => exists s, fst kv = KStr s) d, C : Forall _ d, M : top = true -> _ |- _ => rename B into HK; rename M into HM end.
    match goal with C : Forall (fun kv => storable _ _ _ _ _) d |- _ => rename C into HB end.
    destruct (seq_all (fun kv => rmap (pair (fst kv)) (copy (snd kv))) (fun x c => fst x = fst c /\ storable mx fits names top (snd c) /\ stored (snd x) (plain (snd c))) d) as [r [E F]].
    { intros x Ix. rewrite Forall_forall in *. destruct (H x Ix top (HB x Ix)) as [c [C1 [C2 C3]]]. rewrite C1. eexists. split; [reflexivity|]. repeat split; assumption. }
    assert (KR : map fst r = map fst d). { clear - F. induction F as [|x c l r [A _] F IH]; cbn; [reflexivity|]. rewrite A, IH. reflexivity. }
    assert (SR : Forall strk r). { clear - F HK. induction F as [|x c l r [A _] F IH]; [constructor|]. inversion HK as [|? ? [s K] K2]; subst. constructor; [exists s; rewrite <- A; exact K|apply IH; exact K2]. }
    cbn [copy]. rewrite comparable_str by exact HK. rewrite E. eexists. split; [reflexivity|]. assert (PS := sort_perm r). split.
    + constructor.
      * intros T I. apply (HM T). rewrite <- KR. eapply Permutation_in; [|exact I]. apply Permutation_map. symmetry. exact PS.
      * rewrite Forall_forall in *. intros x Ix. apply SR. eapply Permutation_in; [|exact Ix]. symmetry. exact PS.
      * rewrite Forall_forall. intros x Ix. apply (Permutation_in x (Permutation_sym PS)) in Ix. clear - F Ix. induction F as [|y c l r [_ [A _]] F IH]; [contradiction|]. destruct Ix as [<- | Ix]; [exact A|apply IH; exact Ix].
    + cbn [plain]. destruct (map_perm_lift _ d r (sort_keys r) F PS) as [d' [P1 F1]]. apply (st_dict d d').
      * exact P1.
      * clear - F1. induction F1 as [|x c l q [A [_ B]] F IH]; constructor; [cbn; split; assumption|exact IH].
      * apply (before_keys (sort_keys r)); [apply sort_sorted; exact SR|]. rewrite map_map. reflexivity.
Qed.

Lemma trip : forall mx fits names v, (forall n, n <= mx -> fits n = true) -> (Z.of_nat mx < 2 ^ 64)%Z -> storable mx fits names true v ->
  exists m w, serialize mx fits false v = Ok m /\ restore names m = Ok w /\ stored v w.
Proof.
  intros mx fits names v F M S0. destruct (copy_ok mx fits names v true S0) as [c [E [S1 S2]]]. destruct (in_place_trip mx fits names c F M S1) as [m [E1 E2]]. exists m, (plain c). unfold serialize in *. rewrite E. cbn [rbind] in *. repeat split; assumption.
Qed.

(** ** Refused *)
Lemma seq_err : forall {A} (l : list (result A)), (forall x e, In x l -> x = Err e -> e = ValueError) -> (exists x e, In x l /\ x = Err e) -> sequence l = Err ValueError.
Proof.
  intros A l. induction l as [|x r IH]; intros H [y [e [I E]]]; [contradiction|]. cbn. destruct x as [x|e']; cbn; [|f_equal; apply (H (Err e')); [left; reflexivity|reflexivity]].
  destruct I as [<- | I]; [discriminate|]. rewrite IH; [reflexivity|intros z f Iz; apply H; right; exact Iz|]. exists y, e. split; assumption.
Qed.
Lemma seq_err_only : forall {A} (l : list (result A)) e, (forall x e, In x l -> x = Err e -> e = ValueError) -> sequence l = Err e -> e = ValueError.
Proof.
  intros A l. induction l as [|x r IH]; intros e H E; [discriminate|]. cbn in E. destruct x as [x|e']; cbn in E; [|inversion E; subst; apply (H (Err e)); [left; reflexivity|reflexivity]].
  destruct (sequence r) as [q|f] eqn:Q; [discriminate|]. cbn in E. inversion E; subst. apply (IH e); [intros z g Iz; apply H; right; exact Iz|reflexivity].
Qed.
Lemma rmap_err : forall {A B} (f : A -> B) r e, rmap f r = Err e -> r = Err e.
Proof. intros A B f [x|x] e H; [discriminate|inversion H; reflexivity]. Qed.

Lemma pack_err : forall fits v e, pack fits v = Err e -> e = ValueError.
Proof.
  intros fits. assert (N : forall a e, ndarray_to_bytes fits a = Err e -> e = ValueError). { intros a e H. unfold ndarray_to_bytes in H. destruct (d_object (a_dtype a) || d_aligned (a_dtype a)); [congruence|]. destruct (fits _); congruence. }
  induction v using val_ind2; intros e E; cbn [pack] in E; try discriminate; try congruence.
  - destruct (int_fits z); congruence.
  - destruct (fits _); congruence.
  - destruct (fits _); congruence.
  - apply rmap_err in E. apply (N _ _ E).
  - apply rmap_err in E. apply (N _ _ E).
  - apply rmap_err in E. apply (seq_err_only _ _) in E; [exact E|]. intros x f I F. apply in_map_iff in I. destruct I as [y [<- I]]. rewrite Forall_forall in H. apply (H y I f F).
  - apply rmap_err in E. apply (seq_err_only _ _) in E; [exact E|]. intros x f I F. apply in_map_iff in I. destruct I as [y [<- I]]. rewrite Forall_forall in H. apply (H y I f F).
  - apply rmap_err in E. apply (seq_err_only _ _) in E; [exact E|]. intros x f I F. apply in_map_iff in I. destruct I as [y [<- I]]. rewrite Forall_forall in H. apply rmap_err in F. apply (H y I f F).
Qed.
Lemma copy_err : forall v e, copy v = Err e -> e = ValueError.
Proof.
  induction v using val_ind2; intros e E; cbn [copy] in E; try discriminate.
  - apply rmap_err in E. apply (seq_err_only _ _) in E; [exact E|]. intros x f I F. apply in_map_iff in I. destruct I as [y [<- I]]. rewrite Forall_forall in H. apply (H y I f F).
  - apply rmap_err in E. apply (seq_err_only _ _) in E; [exact E|]. intros x f I F. apply in_map_iff in I. destruct I as [y [<- I]]. rewrite Forall_forall in H. apply (H y I f F).
  - destruct (comparable d); [|congruence]. apply rmap_err in E. apply (seq_err_only _ _) in E; [exact E|]. intros x f I F. apply in_map_iff in I. destruct I as [y [<- I]]. rewrite Forall_forall in H. apply rmap_err in F. apply (H y I f F).
Qed.
Lemma serialize_err : forall mx fits p v e, serialize mx fits p v = Err e -> e = ValueError.
Proof.
  intros mx fits p v e E. unfold serialize in E. destruct p; cbn [rbind] in E; [apply (pack_err _ _ _ E)|]. destruct (copy v) as [c|f] eqn:C; cbn in E; [apply (pack_err _ _ _ E)|]. inversion E; subst. apply (copy_err _ _ C).
Qed.

Lemma seq_in : forall {A B} (f : A -> result B) l r x, sequence (map f l) = Ok r -> In x l -> exists y, f x = Ok y /\ In y r.
Proof.
  intros A B f l. induction l as [|z t IH]; intros r x E I; [contradiction|]. cbn in E. destruct (f z) as [y|] eqn:Ey; [|discriminate]. cbn in E. destruct (sequence (map f t)) as [q|] eqn:Q; [|discriminate]. cbn in E. inversion E; subst.
  destruct I as [<- | I]; [exists y; split; [exact Ey|left; reflexivity]|]. destruct (IH q x eq_refl I) as [w [W1 W2]]. exists w. split; [exact W1|right; exact W2].
Qed.

Lemma rmap_ok : forall {A B} (f : A -> B) r y, rmap f r = Ok y -> exists x, r = Ok x /\ y = f x.
Proof. intros A B f [x|x] y H; [inversion H; exists x; split; reflexivity|discriminate]. Qed.

Lemma pack_unfit : forall fits v, unfit v -> forall m, pack fits v <> Ok m.
Proof.
  intros fits v U. induction U; intros m E; cbn [pack] in E.
  - discriminate.
  - destruct (int_fits z) eqn:I; [|discriminate]. apply int_fits_iff in I. contradiction.
  - apply rmap_ok in E. destruct E as [x [E _]]. unfold ndarray_to_bytes in E. destruct H as [H|H]; rewrite H in E; [|rewrite orb_true_r in E]; discriminate.
  - apply rmap_ok in E. destruct E as [x [E _]]. unfold ndarray_to_bytes in E. destruct H as [H|H]; rewrite H in E; [|rewrite orb_true_r in E]; discriminate.
  - apply rmap_ok in E. destruct E as [r [E _]]. destruct (seq_in _ _ _ _ E H) as [y [Y _]]. apply (IHU _ Y).
  - apply rmap_ok in E. destruct E as [r [E _]]. destruct (seq_in _ _ _ _ E H) as [y [Y _]]. apply (IHU _ Y).
  - apply rmap_ok in E. destruct E as [r [E _]]. destruct (seq_in _ _ _ _ E H) as [y [Y _]]. cbn in Y. apply rmap_ok in Y. destruct Y as [w [Y _]]. apply (IHU _ Y).
Qed.

Lemma unfit_tuple : forall l x, In x l -> unfit x -> unfit (tuple_to_dict l).
Proof.
  intros l x I U. unfold tuple_to_dict. assert (G : forall s, exists k, In (k, x) (combine (map (fun i => KStr (num i)) (seq s (List.length l))) l)).
  { clear U. induction l as [|y r IH]; [contradiction|]. intros s. cbn. destruct I as [<- | I]; [eexists; left; reflexivity|]. destruct (IH I (S s)) as [k K]. exists k. right. exact K. }
  destruct (G 0) as [k K]. apply (u_dict _ k x K U).
Qed.
Lemma unfit_chunked : forall mx v, unfit v -> unfit (chunk_leaves mx (convert v)).
Proof.
  intros mx v U. induction U; try (econstructor; eassumption).
  - cbn [convert chunk_leaves]. destruct (mx <? nbytes a) eqn:L; [|constructor; exact H]. apply Nat.ltb_lt in L. unfold nbytes in L. unfold chunk. eapply u_dict; [right; right; left; reflexivity|].
    destruct (a_elts a) as [|e r] eqn:E; [cbn in L; lia|]. cbn [List.length chunks]. eapply unfit_tuple; [left; reflexivity|]. constructor. exact H.
  - rewrite convert_dict, chunk_dict, map_map. apply (u_dict _ k (chunk_leaves mx (convert x))); [|exact IHU]. apply in_map_iff. exists (k, x). split; [reflexivity|exact H].
Qed.
Lemma unfit_copy : forall v, unfit v -> forall c, copy v = Ok c -> unfit c.
Proof.
  intros v U. induction U; intros c E; cbn [copy] in E; try (inversion E; subst; econstructor; eassumption).
  - apply rmap_ok in E. destruct E as [r [E ->]]. destruct (seq_in _ _ _ _ E H) as [y [Y I]]. apply (u_list _ y I). apply IHU. exact Y.
  - apply rmap_ok in E. destruct E as [r [E ->]]. destruct (seq_in _ _ _ _ E H) as [y [Y I]]. apply (u_tuple _ _ y I). apply IHU. exact Y.
  - destruct (comparable d); [|discriminate]. apply rmap_ok in E. destruct E as [r [E ->]]. destruct (seq_in _ _ _ _ E H) as [y [Y I]]. cbn in Y. apply rmap_ok in Y. destruct Y as [w [Y ->]].
    apply (u_dict _ k w); [apply (Permutation_in _ (sort_perm r)); exact I|]. apply IHU. exact Y.
Qed.
Lemma refused : forall mx fits p v, unfit v -> serialize mx fits p v = Err ValueError.
Proof.
  intros mx fits p v U. destruct (serialize mx fits p v) as [m|e] eqn:E; [|f_equal; apply (serialize_err _ _ _ _ _ E)]. exfalso. unfold serialize in E. destruct p; cbn [rbind] in E.
  - apply (pack_unfit fits _ (unfit_chunked mx v U) _ E).
  - destruct (copy v) as [c|f] eqn:C; [|discriminate]. cbn in E. apply (pack_unfit fits _ (unfit_chunked mx c (unfit_copy v U c C)) _ E).
Qed.

(** ** Sizes *)
Inductive small (mx : nat) : val -> Prop :=
| sm_int : forall z, small mx (VInt z)
| sm_bool : forall b, small mx (VBool b)
| sm_arr : forall j a, Forall (fun e => List.length e = d_size (a_dtype a)) (a_elts a) -> nbytes a <= mx -> small mx (VArr j a)
| sm_dict : forall d, Forall (fun kv => small mx (snd kv)) d -> small mx (VDict d).

Lemma bytes_len : forall a, Forall (fun e => List.length e = d_size (a_dtype a)) (a_elts a) -> List.length (tobytes a) = nbytes a.
Proof.
  intros a F. unfold tobytes, nbytes. rewrite (concat_len (d_size (a_dtype a))); [rewrite map_length; reflexivity|]. apply Forall_forall. intros e I. apply in_map_iff in I. destruct I as [x [<- I]]. rewrite Forall_forall in F.
  destruct (d_swapped (a_dtype a)); [rewrite rev_length|]; apply F; exact I.
Qed.
Lemma seq_back : forall {A B} (f : A -> result B) l r y, sequence (map f l) = Ok r -> In y r -> exists x, In x l /\ f x = Ok y.
Proof.
  intros A B f l. induction l as [|z t IH]; intros r y E I; cbn in E; [inversion E; subst; contradiction|]. destruct (f z) as [w|] eqn:Ew; [|discriminate]. cbn in E. destruct (sequence (map f t)) as [q|] eqn:Q; [|discriminate]. cbn in E. inversion E; subst.
  destruct I as [<- | I]; [exists z; split; [left; reflexivity|exact Ew]|]. destruct (IH q y eq_refl I) as [x [X1 X2]]. exists x. split; [right; exact X1|exact X2].
Qed.
Lemma small_sent : forall mx fits v, small mx v -> forall m n, pack fits v = Ok m -> sent m n -> n <= mx.
Proof.
  intros mx fits. induction v using val_ind2; intros S0 m sz E T; inversion S0; subst; cbn [pack] in E.
  - inversion E; subst. inversion T.
  - destruct (int_fits z); [|discriminate]. inversion E; subst. inversion T.
  - apply rmap_ok in E. destruct E as [x [E ->]]. inversion T as [| | |? ? ? T2]; subst. unfold ndarray_to_bytes in E. destruct (d_object (a_dtype a) || d_aligned (a_dtype a)); [discriminate|]. destruct (fits _); [|discriminate]. inversion E; subst.
    inversion T2 as [|? ? ? I T3| |]; subst. destruct I as [<- | [<- | [<- | []]]].
    + inversion T3 as [|? ? ? I T4| |]; subst. apply in_map_iff in I. destruct I as [k [<- _]]. inversion T4.
    + inversion T3.
    + inversion T3; subst. rewrite bytes_len; assumption.
  - apply rmap_ok in E. destruct E as [r [E ->]]. inversion T as [| |? k mm ? I T2|]; subst. destruct (seq_back _ _ _ _ E I) as [x [Ix X]]. apply rmap_ok in X. destruct X as [w [X W]]. inversion W; subst. rewrite Forall_forall in *. apply (H x Ix) with (m := w); [|exact X|exact T2].
    match goal with B : forall x, In x d -> small _ _ |- _ => apply B; exact Ix end.
Qed.
Lemma small_tuple : forall mx l, Forall (small mx) l -> small mx (tuple_to_dict l).
Proof. intros mx l F. unfold tuple_to_dict. constructor. apply Forall_forall. intros [k v] I. apply in_combine_r in I. rewrite Forall_forall in F. apply F. exact I. Qed.
Lemma small_chunked : forall mx v, array_tree mx v -> small mx (chunk_leaves mx (convert v)).
Proof.
  intros mx. induction v using val_ind2; intros T; inversion T as [? ? F1 D1|? F1]; subst.
  - cbn [convert chunk_leaves]. destruct (mx <? nbytes a) eqn:L.
    + unfold chunk. constructor. assert (Q := Nat.div_str_pos mx (d_size (a_dtype a)) D1). constructor; [constructor|]. constructor; [|constructor; [|constructor]]; cbn [snd]; apply small_tuple; apply Forall_forall; intros v I.
      * apply in_map_iff in I. destruct I as [k [<- _]]. constructor.
      * apply chunks_form in I. destruct I as [es [-> [Le J]]]. rewrite Nat.max_r in Le by lia. constructor; cbn.
        -- apply Forall_forall. intros e Ie. rewrite Forall_forall in F1. apply F1. apply J. exact Ie.
        -- unfold nbytes. cbn. transitivity (mx / d_size (a_dtype a) * d_size (a_dtype a)); [apply Nat.mul_le_mono_r; exact Le|]. rewrite Nat.mul_comm. apply Nat.mul_div_le. lia.
    + apply Nat.ltb_ge in L. constructor; assumption.
  - rewrite convert_dict, chunk_dict, map_map. constructor. rewrite Forall_forall in *. intros kv I. apply in_map_iff in I. destruct I as [x [<- Ix]]. cbn. apply H; [exact Ix|]. apply F1. exact Ix.
Qed.
Lemma array_tree_copy : forall mx v, array_tree mx v -> forall c, copy v = Ok c -> array_tree mx c.
Proof.
  intros mx. induction v using val_ind2; intros T c E; inversion T as [? ? F1 D1|? F1]; subst; cbn [copy] in E.
  - inversion E; subst. exact T.
  - destruct (comparable d); [|discriminate]. apply rmap_ok in E. destruct E as [r [E ->]]. constructor. apply Forall_forall. intros y Iy. apply (Permutation_in y (Permutation_sym (sort_perm r))) in Iy. destruct (seq_back _ _ _ _ E Iy) as [x [Ix X]].
    apply rmap_ok in X. destruct X as [w [X ->]]. cbn. rewrite Forall_forall in *. apply (H x Ix); [apply F1; exact Ix|exact X].
Qed.
Lemma sizes : forall mx fits p v m n, array_tree mx v -> serialize mx fits p v = Ok m -> sent m n -> n <= mx.
Proof.
  intros mx fits p v m n T E S0. unfold serialize in E. destruct p; cbn [rbind] in E.
  - apply (small_sent mx fits _ (small_chunked mx v T) m n E S0).
  - destruct (copy v) as [c|] eqn:C; [|discriminate]. cbn in E. apply (small_sent mx fits _ (small_chunked mx c (array_tree_copy mx v T c C)) m n E S0).
Qed.
