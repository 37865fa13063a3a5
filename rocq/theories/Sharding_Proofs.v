(** Proofs about the metadata of shardings. *)
From Coq Require Import List Bool Arith ZArith String Ascii Lia.
From Verif Require Import Base Sharding_Model Sharding_Spec.
Import ListNotations.

(** ** Checks of jax *)

Lemma in_eqb : forall a l, existsb (String.eqb a) l = true <-> In a l.
Proof. intros a l. rewrite existsb_exists. split; [intros [b [H E]]; apply String.eqb_eq in E; now subst|intros H; exists a; split; [exact H|apply String.eqb_refl]]. Qed.

Lemma distinct_iff : forall l, distinct l = true <-> NoDup l.
Proof.
  induction l as [|a l IH]; cbn; [split; [constructor|auto]|]. rewrite andb_true_iff, negb_true_iff, IH. split.
  - intros [H1 H2]. constructor; [|exact H2]. intros H. apply in_eqb in H. congruence.
  - intros H. inversion H as [|x y N D]; subst. split; [|exact D]. destruct (existsb (String.eqb a) l) eqn:E; [|reflexivity]. apply in_eqb in E. contradiction.
Qed.

Lemma size_prod : forall s, prod s = size s.
Proof. induction s as [|n s IH]; cbn; [reflexivity|]. unfold prod in *. cbn. now rewrite IH. Qed.

Lemma uses_axes : forall spec, flat_map axes spec = uses spec.
Proof. induction spec as [|[|a|l] spec IH]; cbn; rewrite ?IH; reflexivity. Qed.

Lemma make_mesh_ok : forall ds shape names types m, make_mesh ds shape names types = Ok m <->
  m = mkMesh names shape (match types with Some t => t | None => map (fun _ => Auto) names end) ds /\ proper m.
Proof.
  intros ds shape names types m. unfold make_mesh, proper.
  destruct (Nat.eqb_spec (List.length ds) (prod shape)) as [E1|E1], (Nat.eqb_spec (List.length names) (List.length shape)) as [E2|E2],
    (Nat.eqb_spec (List.length (match types with Some t => t | None => map (fun _ => Auto) names end)) (List.length names)) as [E3|E3], (distinct names) eqn:D; cbn;
    rewrite size_prod in E1; (split; [try discriminate|intros [-> [H1 [H2 [H3 H4]]]]; cbn in *; try congruence; apply distinct_iff in H4; congruence]).
  intros H. injection H as <-. cbn. apply distinct_iff in D. auto.
Qed.

Lemma make_mesh_err : forall ds shape names types e, make_mesh ds shape names types = Err e -> e = ValueError.
Proof. intros ds shape names types e H. unfold make_mesh in H. destruct (_ && _ && _ && _); [discriminate|]. now injection H as <-. Qed.

Lemma make_named_ok : forall m spec s, make_named m spec = Ok s <-> s = SNamed m spec None /\ NoDup (uses spec) /\ forall a, In a (uses spec) -> In a (m_names m).
Proof.
  intros m spec s. unfold make_named. rewrite uses_axes.
  destruct (forallb (fun a => existsb (String.eqb a) (m_names m)) (uses spec)) eqn:F, (distinct (uses spec)) eqn:D; cbn.
  - rewrite forallb_forall in F. apply distinct_iff in D. split; [intros H; injection H as <-; split; [reflexivity|split; [exact D|]]; intros a H; apply in_eqb; now apply F|]. now intros [-> _].
  - split; [discriminate|]. intros [_ [H _]]. apply distinct_iff in H. congruence.
  - split; [discriminate|]. intros [_ [_ H]]. assert (forallb (fun a => existsb (String.eqb a) (m_names m)) (uses spec) = true) by (apply forallb_forall; intros a Ha; apply in_eqb; now apply H). congruence.
  - split; [discriminate|]. intros [_ [H _]]. apply distinct_iff in H. congruence.
Qed.

Lemma make_named_err : forall m spec e, make_named m spec = Err e -> e = ValueError.
Proof. intros m spec e H. unfold make_named in H. destruct (_ && _); [discriminate|]. now injection H as <-. Qed.

(** ** Sequences of results *)

Lemma seq_ok : forall {A B} (f : A -> result B) l r, sequence (map f l) = Ok r <-> Forall2 (fun a b => f a = Ok b) l r.
Proof.
  intros A B f l. induction l as [|a l IH]; intros r; cbn.
  - split; [intros H; injection H as <-; constructor|intros H; now inversion H].
  - destruct (f a) as [b|e] eqn:E; cbn.
    + destruct (sequence (map f l)) as [bs|e] eqn:Q; cbn.
      * split; [intros H; injection H as <-; constructor; [exact E|now apply IH]|]. intros H. inversion H as [|x y l' r' H1 H2]; subst. apply IH in H2. congruence.
      * split; [discriminate|]. intros H. inversion H as [|x y l' r' H1 H2]; subst. apply IH in H2. discriminate.
    + split; [discriminate|]. intros H. inversion H as [|x y l' r' H1 H2]; subst. congruence.
Qed.

Lemma seq_err : forall {A B} (f : A -> result B) l e, sequence (map f l) = Err e -> exists a, In a l /\ f a = Err e.
Proof.
  intros A B f l e. induction l as [|a l IH]; cbn; [discriminate|]. destruct (f a) as [b|e'] eqn:E; cbn; [|intros H; injection H as ->; eauto].
  destruct (sequence (map f l)) as [bs|e'] eqn:Q; cbn; [discriminate|]. intros H. injection H as ->. destruct IH as [x [H1 H2]]; eauto.
Qed.

Lemma f2_length : forall {A B} (R : A -> B -> Prop) l r, Forall2 R l r -> List.length l = List.length r.
Proof. intros A B R l r H. induction H; cbn; congruence. Qed.

Lemma f2_map : forall {A B} (f : A -> B) l, Forall2 (fun a b => b = f a) l (map f l).
Proof. intros A B f l. induction l; cbn; constructor; auto. Qed.

Lemma seq_map : forall {A B} (f : A -> result B) g l, (forall a, In a l -> f a = Ok (g a)) -> sequence (map f l) = Ok (map g l).
Proof. intros A B f g l H. apply seq_ok. induction l as [|a l IH]; cbn; constructor; [apply H; now left|apply IH; intros; apply H; now right]. Qed.

(** ** Devices *)

Lemma find_last : forall e i d, NoDup (map d_id (e_devices e)) -> In d (e_devices e) -> d_id d = i -> device_of e i = Ok d.
Proof.
  intros e i d N H E. unfold device_of. destruct (find _ _) as [d'|] eqn:F.
  - apply find_some in F. destruct F as [F1 F2]. apply Z.eqb_eq in F2. apply in_rev in F1. f_equal.
    clear - N H E F1 F2. induction (e_devices e) as [|x l IH]; [contradiction|]. cbn in N. inversion N as [|y z N1 N2]; subst.
    destruct H as [->|H], F1 as [->|F1]; auto; exfalso; apply N1; rewrite <- ?F2; [apply in_map_iff; eauto|]. rewrite F2. apply in_map_iff. eauto.
  - assert (Q := find_none _ _ F d). rewrite <- in_rev in Q. specialize (Q H). cbn in Q. apply Z.eqb_neq in Q. congruence.
Qed.

Lemma device_found : forall e i d, device_of e i = Ok d -> In d (e_devices e) /\ d_id d = i.
Proof. intros e i d H. unfold device_of in H. destruct (find _ _) as [d'|] eqn:F; [|discriminate]. injection H as <-. apply find_some in F. destruct F as [F1 F2]. apply Z.eqb_eq in F2. now apply in_rev in F1. Qed.

Lemma device_missing : forall e i, (forall d, In d (e_devices e) -> d_id d <> i) -> device_of e i = Err ValueError.
Proof. intros e i H. destruct (device_of e i) as [d|x] eqn:E; [apply device_found in E; destruct E as [E1 E2]; elim (H d E1 E2)|]. unfold device_of in E. destruct (find _ _); [discriminate|]. exact (eq_sym E). Qed.

Lemma device_err : forall e i x, device_of e i = Err x -> x = ValueError.
Proof. intros e i x H. unfold device_of in H. destruct (find _ _); [discriminate|]. now injection H as <-. Qed.

(** ** Nested devices *)

Lemma pieces_concat : forall {A} k n (l : list A), List.length l = n * k -> List.concat (pieces k n l) = l.
Proof.
  intros A k n. induction n as [|n IH]; intros l H; cbn in *; [destruct l; [reflexivity|discriminate]|]. rewrite IH; [apply firstn_skipn|]. rewrite skipn_length. lia.
Qed.

Lemma pieces_length : forall {A} k n (l : list A), List.length l = n * k -> forall p, In p (pieces k n l) -> List.length p = k.
Proof.
  intros A k n. induction n as [|n IH]; intros l H p Hp; [contradiction|]. cbn [pieces In] in Hp. destruct Hp as [<-|Hp]; [rewrite firstn_length; cbn in H; lia|].
  apply (IH (skipn k l)); [rewrite skipn_length; cbn in H; lia|exact Hp].
Qed.

Lemma flat_nested : forall shape ids, List.length ids = prod shape -> flat (nested shape ids) = ids.
Proof.
  induction shape as [|n shape IH]; intros ids H; cbn in *.
  - destruct ids as [|i [|j ids]]; try discriminate. reflexivity.
  - fold (prod shape) in *. rewrite flat_map_concat_map, map_map. rewrite <- (pieces_concat (prod shape) n ids H) at 2. f_equal.
    transitivity (map (fun p => p) (pieces (prod shape) n ids)); [|apply map_id]. apply map_ext_in. intros p Hp. apply IH. now apply (pieces_length _ n ids).
Qed.

(** ** Json *)

Fixpoint nest_rect' (P : nest -> Prop) (hd : forall i, P (Dev i)) (hn : forall l, (forall x, In x l -> P x) -> P (Nest l)) (n : nest) : P n :=
  match n with
  | Dev i => hd i
  | Nest l => hn l ((fix go (l : list nest) : forall x, In x l -> P x :=
      match l with [] => fun x H => match H with end | y :: l' => fun x H => match H with or_introl E => eq_ind y P (nest_rect' P hd hn y) x E | or_intror H' => go l' x H' end end) l)
  end.

Lemma nest_read : forall n, nest_of_py (reload (py_of_nest n)) = Ok n.
Proof.
  apply nest_rect'; [reflexivity|]. intros l IH. cbn. rewrite !map_map.
  assert (E : sequence (map (fun x => nest_of_py (reload (py_of_nest x))) l) = Ok l) by (rewrite <- (map_id l) at 2; apply (seq_map (fun x => nest_of_py (reload (py_of_nest x))) (fun x => x)); exact IH).
  rewrite E. reflexivity.
Qed.

Lemma strings_read : forall l, strings (map PStr l) = Ok l.
Proof. induction l as [|a l IH]; cbn; [reflexivity|]. now rewrite IH. Qed.

Lemma reload_strs : forall l, map reload (map PStr l) = map PStr l.
Proof. intros l. rewrite map_map. apply map_ext. reflexivity. Qed.

Lemma nats_read : forall l, nats (map reload (map (fun k => PInt (Z.of_nat k)) l)) = Ok l.
Proof.
  intros l. unfold nats. rewrite !map_map. rewrite <- (map_id l) at 2. apply seq_map. intros k _. cbn [reload]. destruct (Z.leb_spec 0 (Z.of_nat k)); [|lia]. now rewrite Nat2Z.id.
Qed.

Lemma axis_read : forall t, axis_of (axis_str t) = Ok t.
Proof. intros []; reflexivity. Qed.

Lemma types_strs : forall t, map reload (map (fun a => PStr (axis_str a)) t) = map PStr (map axis_str t).
Proof. intros t. rewrite !map_map. apply map_ext. reflexivity. Qed.

Lemma axes_read : forall t, sequence (map axis_of (map axis_str t)) = Ok t.
Proof. intros t. rewrite map_map. rewrite <- (map_id t) at 2. apply seq_map. intros a _. apply axis_read. Qed.

(** What is read after writing. *)
Definition after_json (m : meta) : meta :=
  match m with
  | MSingle s => MSingle s
  | MNamed n => MNamed (mkNamed (n_shape n) (n_names n) (map reload (n_spec n)) (match n_types n with Some [] => None | t => t end) (n_mesh n))
  end.

Lemma string_read : forall m, from_string (to_string m) = Ok (after_json m).
Proof.
  intros [[shape names spec types dm]|s]; [|reflexivity]. cbn [to_string n_shape n_names n_spec n_types n_mesh after_json].
  assert (N : rbind (nats (map reload (map (fun k => PInt (Z.of_nat k)) shape))) (fun x => Ok x) = Ok shape) by (now rewrite nats_read).
  destruct types as [t|], dm as [d|]; cbn [app dumps reload map fst snd from_string loads rbind get String.eqb Ascii.eqb Bool.eqb read_named read_types read_mesh];
    unfold from_string, dumps; cbn; rewrite ?nats_read, ?reload_strs, ?strings_read; cbn; unfold read_types, read_mesh; cbn.
  - rewrite nest_read. destruct t as [|a t]; [reflexivity|]. cbn. rewrite types_strs, strings_read. cbn. rewrite axis_read. cbn. rewrite axes_read. reflexivity.
  - destruct t as [|a t]; [reflexivity|]. cbn. rewrite types_strs, strings_read. cbn. rewrite axis_read. cbn. rewrite axes_read. reflexivity.
  - rewrite nest_read. reflexivity.
  - reflexivity.
Qed.

Lemma elem_same : forall e, same_elem (py_of_elem e) (reload (py_of_elem e)).
Proof. intros [|a|l]; cbn; [constructor|constructor|]. rewrite reload_strs. constructor. Qed.

Lemma json_same : forall s m, from_jax s = Some m -> exists m', from_string (to_string m) = Ok m' /\ same_meta m m'.
Proof.
  intros s m H. exists (after_json m). split; [apply string_read|]. destruct s as [mh spec mem|d mem|n]; [| |discriminate]; injection H as <-; cbn; [|reflexivity].
  repeat (split; [reflexivity|]). split.
  - induction spec as [|e spec IH]; cbn; constructor; [apply elem_same|exact IH].
  - destruct (m_types mh); [now right|now left].
Qed.

Lemma elem_read : forall e, (forall l, e = EAxes l -> List.length l <> 1) -> elem_of_py (reload (py_of_elem e)) = Ok e.
Proof.
  intros [|a|l] H; cbn; [reflexivity|reflexivity|]. rewrite reload_strs, strings_read. cbn. destruct l as [|x [|y l]]; try reflexivity. elim (H [x] eq_refl). reflexivity.
Qed.

Lemma after_json_jax : forall e m spec mem md, from_jax (SNamed m spec mem) = Some md -> proper m -> fits m spec ->
  to_jax e (after_json md) = rbind (sequence (map (device_of e) (map d_id (m_devices m)))) (fun ds => Ok (SNamed (mkMesh (m_names m) (m_shape m) (m_types m) ds) spec None)).
Proof.
  intros e m spec mem md H P F. injection H as <-. destruct P as [P1 [P2 [P3 P4]]]. destruct F as [F1 [F2 F3]]. cbn [after_json to_jax n_mesh n_shape n_names n_types n_spec].
  rewrite flat_nested by (rewrite map_length, size_prod; exact P1).
  destruct (sequence (map (device_of e) (map d_id (m_devices m)))) as [ds|x] eqn:Q; [|reflexivity]. cbn [rbind].
  assert (L : List.length ds = List.length (m_devices m)). { apply seq_ok in Q. apply f2_length in Q. rewrite map_length in Q. congruence. }
  assert (M : make_mesh ds (m_shape m) (m_names m) (match m_types m with [] => None | a :: l => Some (a :: l) end) = Ok (mkMesh (m_names m) (m_shape m) (m_types m) ds)).
  { apply make_mesh_ok. split; [|split; [|split; [|split]]; cbn; auto; congruence]. f_equal. destruct (m_types m) eqn:T; [|reflexivity]. cbn in P3. destruct (m_names m); [reflexivity|discriminate]. }
  match goal with |- context [make_mesh ds ?a ?b ?t] => assert (M' : make_mesh ds a b t = Ok (mkMesh (m_names m) (m_shape m) (m_types m) ds)) by (rewrite <- M; destruct (m_types m); reflexivity) end.
  rewrite M'. cbn [rbind]. rewrite !map_map.
  assert (S : sequence (map (fun x => elem_of_py (reload (py_of_elem x))) spec) = Ok spec).
  { rewrite <- (map_id spec) at 2. apply (seq_map (fun x => elem_of_py (reload (py_of_elem x))) (fun x => x)). intros x Hx. apply elem_read. intros l ->. now apply F3. }
  rewrite S. cbn [rbind]. apply make_named_ok. cbn. auto.
Qed.

Lemma round_trip : forall e s m, valid s -> told_apart e -> there e s -> from_jax s = Some m -> rbind (from_string (to_string m)) (to_jax e) = Ok (forget s).
Proof.
  intros e s m V [U1 U2] T H. rewrite string_read. cbn [rbind]. destruct s as [mh spec mem|d mem|n]; [|injection H as <-; cbn|contradiction].
  - destruct V as [V1 V2]. rewrite (after_json_jax e mh spec mem m H V1 V2). rewrite map_map.
    assert (S : sequence (map (fun x => device_of e (d_id x)) (m_devices mh)) = Ok (m_devices mh)).
    { rewrite <- (map_id (m_devices mh)) at 2. apply (seq_map (fun x => device_of e (d_id x)) (fun x => x)). intros x Hx. apply find_last; auto. }
    rewrite S. cbn. now destruct mh.
  - destruct T as [T1 T2]. destruct (find _ _) as [d'|] eqn:F.
    + apply find_some in F. destruct F as [F1 F2]. apply String.eqb_eq in F2. apply in_rev, filter_In in F1. destruct F1 as [F1 F3]. apply Nat.eqb_eq in F3. now rewrite (U2 d' d F1 T1 F3 T2 F2).
    + assert (Q := find_none _ _ F d). rewrite <- in_rev, filter_In in Q. rewrite T2, Nat.eqb_refl, String.eqb_refl in Q. specialize (Q (conj T1 eq_refl)). discriminate.
Qed.

Lemma missing : forall e m spec mem md, valid (SNamed m spec mem) -> (exists d, In d (m_devices m) /\ forall d', In d' (e_devices e) -> d_id d' <> d_id d) -> from_jax (SNamed m spec mem) = Some md ->
  rbind (from_string (to_string md)) (to_jax e) = Err ValueError.
Proof.
  intros e m spec mem md [V1 V2] [d [D1 D2]] H. rewrite string_read. cbn [rbind]. rewrite (after_json_jax e m spec mem md H V1 V2).
  destruct (sequence (map (device_of e) (map d_id (m_devices m)))) as [ds|x] eqn:Q; cbn.
  - exfalso. apply seq_ok in Q. apply (in_map d_id) in D1. clear H V1 V2. induction Q as [|i d' l r H1 H2 IH]; [contradiction|]. destruct D1 as [->|D1]; [|auto]. apply device_found in H1. destruct H1 as [H1 H3]. elim (D2 d' H1 H3).
  - apply seq_err in Q. destruct Q as [i [_ Q]]. apply device_err in Q. now subst x.
Qed.

Lemma never_raises : forall e s m, valid s -> from_jax s = Some m -> exists o, get_or_none e (to_string m) = Ok o.
Proof.
  intros e s m V H. unfold get_or_none. rewrite string_read. cbn [rbind]. destruct s as [mh spec mem|d mem|n]; [|injection H as <-; cbn|contradiction].
  - destruct V as [V1 V2]. rewrite (after_json_jax e mh spec mem m H V1 V2). destruct (sequence _) as [ds|x] eqn:Q; cbn; [eauto|].
    apply seq_err in Q. destruct Q as [i [_ Q]]. apply device_err in Q. subst x. eauto.
  - destruct (find _ _); eauto.
Qed.

(** What a sharding made of metadata is. *)
Lemma made : forall e n s, to_jax e (MNamed n) = Ok s -> exists m spec, s = SNamed m spec None /\ proper m /\ m_names m = n_names n /\ m_shape m = n_shape n /\ NoDup (uses spec) /\
  (forall a, In a (uses spec) -> In a (m_names m)) /\ (forall d, In d (m_devices m) -> In d (e_devices e)) /\
  (forall x, n_mesh n = Some x -> map d_id (m_devices m) = flat x) /\ (forall t, n_types n = Some t -> m_types m = t) /\ List.length spec = List.length (n_spec n).
Proof.
  intros e n s H. cbn in H. destruct (match n_mesh n with Some d => sequence (map (device_of e) (flat d)) | None => Ok (e_devices e) end) as [ds|] eqn:D; [|discriminate]. cbn [rbind] in H.
  destruct (make_mesh ds (n_shape n) (n_names n) (n_types n)) as [m|] eqn:M; [|discriminate]. cbn [rbind] in H. destruct (sequence (map elem_of_py (n_spec n))) as [spec|] eqn:S; [|discriminate]. cbn [rbind] in H.
  apply make_named_ok in H. destruct H as [-> [H1 H2]]. apply make_mesh_ok in M. destruct M as [-> M]. apply seq_ok in S. apply f2_length in S. exists (mkMesh (n_names n) (n_shape n) (match n_types n with Some t => t | None => map (fun _ => Auto) (n_names n) end) ds), spec.
  split; [reflexivity|]. split; [exact M|]. split; [reflexivity|]. split; [reflexivity|]. split; [exact H1|]. split; [exact H2|]. cbn [m_devices m_types].
  assert (G : match n_mesh n with Some x => Forall2 (fun i d => device_of e i = Ok d) (flat x) ds | None => ds = e_devices e end) by (destruct (n_mesh n); [now apply seq_ok|now injection D as <-]).
  split; [|split; [|split; [|now symmetry]]].
  - intros d Hd. destruct (n_mesh n) as [x|]; [|now subst ds]. clear - G Hd. induction G as [|i d' l r G1 G2 IH]; [contradiction|]. destruct Hd as [->|Hd]; [now apply device_found in G1|auto].
  - intros x E. rewrite E in G. clear - G. induction G as [|i d l r G1 G2 IH]; cbn; [reflexivity|]. apply device_found in G1. f_equal; [apply G1|exact IH].
  - intros t E. now rewrite E.
Qed.

(** ** Base64 *)

Definition bits6 (a b c d e f : bool) : list bool := [a; b; c; d; e; f].

Lemma char6_inj : forall a b c d e f a' b' c' d' e' f', char6 a b c d e f = char6 a' b' c' d' e' f' -> bits6 a b c d e f = bits6 a' b' c' d' e' f'.
Proof.
  assert (D : exists dec : ascii -> list bool, forall a b c d e f, dec (char6 a b c d e f) = bits6 a b c d e f).
  { exists (fun x => match find (fun l => match l with [a; b; c; d; e; f] => Ascii.eqb (char6 a b c d e f) x | _ => false end)
      (flat_map (fun a => flat_map (fun b => flat_map (fun c => flat_map (fun d => flat_map (fun e => map (fun f => [a; b; c; d; e; f]) [true; false]) [true; false]) [true; false]) [true; false]) [true; false]) [true; false])
      with Some l => l | None => [] end). intros [] [] [] [] [] []; vm_compute; reflexivity. }
  destruct D as [dec D]. intros. rewrite <- !D. now f_equal.
Qed.

Lemma char6_plain : forall a b c d e f, char6 a b c d e f <> "="%char /\ char6 a b c d e f <> "/"%char /\ char6 a b c d e f <> "~"%char.
Proof. intros [] [] [] [] [] []; vm_compute; repeat split; discriminate. Qed.

Lemma base64_inj_n : forall n s t, String.length s <= n -> base64 s = base64 t -> s = t.
Proof.
  induction n as [|n IH]; intros s t L H.
  - destruct s; [|cbn in L; lia]. destruct t as [|[] [|[] [|[] t]]]; [reflexivity|discriminate|discriminate|discriminate].
  - destruct s as [|[a0 a1 a2 a3 a4 a5 a6 a7] [|[b0 b1 b2 b3 b4 b5 b6 b7] [|[c0 c1 c2 c3 c4 c5 c6 c7] s]]],
      t as [|[x0 x1 x2 x3 x4 x5 x6 x7] [|[y0 y1 y2 y3 y4 y5 y6 y7] [|[z0 z1 z2 z3 z4 z5 z6 z7] t]]]; cbn [base64] in H; try reflexivity; try discriminate.
    + injection H as H1 H2. apply char6_inj in H1, H2. unfold bits6 in *. congruence.
    + injection H as H1 H2 H3. symmetry in H3. apply char6_plain in H3. contradiction.
    + injection H as H1 H2 H3. symmetry in H3. apply char6_plain in H3. contradiction.
    + injection H as H1 H2 H3. apply char6_plain in H3. contradiction.
    + injection H as H1 H2 H3. apply char6_inj in H1, H2, H3. unfold bits6 in *. congruence.
    + injection H as H1 H2 H3 H4. symmetry in H4. apply char6_plain in H4. contradiction.
    + injection H as H1 H2 H3. apply char6_plain in H3. contradiction.
    + injection H as H1 H2 H3 H4. apply char6_plain in H4. contradiction.
    + injection H as H1 H2 H3 H4 H5. apply char6_inj in H1, H2, H3, H4. unfold bits6 in *. assert (s = t) by (apply IH; [cbn in L; lia|exact H5]). congruence.
Qed.

Lemma base64_inj : forall s t, base64 s = base64 t -> s = t.
Proof. intros s t. now apply (base64_inj_n (String.length s)). Qed.

Lemma base64_plain_n : forall n s, String.length s <= n -> ~ occurs "/"%char (base64 s) /\ ~ occurs "~"%char (base64 s).
Proof.
  induction n as [|n IH]; intros s L.
  - destruct s; [|cbn in L; lia]. cbn. auto.
  - assert (P := char6_plain). destruct s as [|[a0 a1 a2 a3 a4 a5 a6 a7] [|[b0 b1 b2 b3 b4 b5 b6 b7] [|[c0 c1 c2 c3 c4 c5 c6 c7] s]]]; cbn [base64 occurs]; [auto| | |].
    + split; intros [H|[H|[H|[H|[]]]]]; try discriminate; now apply P in H.
    + split; intros [H|[H|[H|[H|[]]]]]; try discriminate; now apply P in H.
    + destruct (IH s) as [I1 I2]; [cbn in L; lia|]. split; intros [H|[H|[H|[H|H]]]]; try (now apply P in H); contradiction.
Qed.

(** ** The file *)

Lemma get_put : forall k k' t f, match put k t f with Some d => get k' d | None => None end = if String.eqb k' k then Some t else match f with Some d => get k' d | None => None end.
Proof.
  intros k k' t f. cbn. destruct (String.eqb_spec k' k) as [->|N]; [reflexivity|]. destruct f as [d|]; [|reflexivity].
  induction d as [|[j v] d IH]; cbn; [reflexivity|]. destruct (String.eqb_spec j k) as [->|M]; cbn; [rewrite IH; now destruct (String.eqb_spec k' k)|]. now rewrite IH.
Qed.

Lemma read_put : forall name name' t f, read_member name' (put (base64 name) t f) = if String.eqb name' name then t else read_member name' f.
Proof.
  intros name name' t f. assert (G := get_put (base64 name) (base64 name') t f). unfold read_member. cbn [put] in *. rewrite G.
  destruct (String.eqb_spec name' name) as [->|N]; [now rewrite String.eqb_refl|]. destruct (String.eqb_spec (base64 name') (base64 name)) as [E|_]; [elim N; now apply base64_inj|]. now destruct f.
Qed.

Lemma write_untouched : forall p items f name, (forall s, In (Some s, name) items -> from_jax s = None) -> read_member name (write_shardings p items f) = read_member name f.
Proof.
  intros p items. induction items as [|[[s|] n] items IH]; intros f name H; cbn [write_shardings]; [reflexivity| |apply IH; intros; apply H; now right].
  rewrite IH by (intros; apply H; now right). destruct p; [|reflexivity]. destruct (from_jax s) as [m|] eqn:E; [|reflexivity]. rewrite read_put. destruct (String.eqb_spec name n) as [->|]; [|reflexivity].
  rewrite (H s) in E by (now left). discriminate.
Qed.

Lemma write_read : forall items f name s m, last_saved items name s -> from_jax s = Some m -> read_member name (write_shardings true items f) = to_string m.
Proof.
  intros items f name s m L. revert f. induction L as [s name items H1 H2|it name items s L IH]; intros f E; cbn [write_shardings].
  - rewrite E. rewrite write_untouched by exact H2. rewrite read_put. now rewrite String.eqb_refl.
  - destruct it as [[s'|] n]; apply IH, E.
Qed.

Lemma write_exists : forall items f, (exists s name, In (Some s, name) items /\ from_jax s <> None) \/ f <> None -> write_shardings true items f <> None.
Proof.
  induction items as [|[[s|] n] items IH]; intros f H; cbn [write_shardings].
  - destruct H as [[s [name [[] _]]]|H]; exact H.
  - apply IH. destruct (from_jax s) as [m|] eqn:E; [right; discriminate|]. destruct H as [[s' [name [[H|H] K]]]|H]; [injection H as <- <-; congruence|left; eauto|right; exact H].
  - apply IH. destruct H as [[s' [name [[H|H] K]]]|H]; [discriminate|left; eauto|right; exact H].
Qed.

Lemma write_other : forall items f, write_shardings false items f = f.
Proof. induction items as [|[[s|] n] items IH]; intros f; cbn; auto. Qed.

Lemma last_in : forall items name s, last_saved items name s -> In (Some s, name) items /\ from_jax s <> None.
Proof. intros items name s L. induction L as [s name items H1 H2|it name items s L IH]; [split; [now left|auto]|]. split; [right; apply IH|apply IH]. Qed.

Lemma read_nonempty : forall m, exists v, to_string m = Json v.
Proof. intros [n|s]; cbn; unfold dumps; eauto. Qed.

Lemma file_restored : forall e items f name s, told_apart e -> last_saved items name s -> valid s -> there e s ->
  deserialize_sharding e (write_shardings true items f) (Some name) RPlain = Ok (Some (forget s)).
Proof.
  intros e items f name s U L V T. destruct (from_jax s) as [m|] eqn:E; [|destruct s; [discriminate|discriminate|contradiction]].
  assert (W := write_read items f name s m L E). unfold deserialize_sharding. destruct (write_shardings true items f) as [d|] eqn:Q.
  - rewrite W. unfold get_or_none. destruct (read_nonempty m) as [v Hv]. rewrite Hv, <- Hv, (round_trip e s m V U T E). reflexivity.
  - exfalso. apply (write_exists items f); [|exact Q]. left. exists s, name. now apply last_in.
Qed.

Lemma restored : forall e items f l ss, told_apart e -> Forall2 (fun name s => last_saved items name s /\ valid s /\ there e s) l ss ->
  restore_shardings e (write_shardings true items f) (map (fun name => (Some name, RPlain)) l) = Ok (map forget ss).
Proof.
  intros e items f l ss U H. unfold restore_shardings. rewrite map_map. cbn [fst snd].
  assert (S : sequence (map (fun x => deserialize_sharding e (write_shardings true items f) (Some x) RPlain) l) = Ok (map (fun s => Some (forget s)) ss)).
  { apply seq_ok. induction H as [|name s l ss [H1 [H2 H3]] H IH]; cbn; constructor; auto. now apply file_restored. }
  rewrite S. cbn [rbind]. rewrite map_map. apply seq_map. reflexivity.
Qed.

Lemma restored_all : forall e f items r, restore_shardings e f items = Ok r -> Forall2 (fun it s => deserialize_sharding e f (fst it) (snd it) = Ok (Some s)) items r.
Proof.
  intros e f items r H. unfold restore_shardings in H. destruct (sequence (map (fun it => deserialize_sharding e f (fst it) (snd it)) items)) as [l|] eqn:Q; [|discriminate]. cbn [rbind] in H.
  apply seq_ok in Q. apply seq_ok in H. revert r H. induction Q as [|it o items l Q1 Q2 IH]; intros r H; inversion H as [|o' s l' r' H1 H2]; subst; constructor; [|auto]. cbn in H1. destruct o; [|discriminate]. now injection H1 as <-.
Qed.

Lemma metadata_read : forall f items names, (exists s name, In (Some s, name) items /\ from_jax s <> None) -> Forall (fun name => exists s, last_saved items name s) names ->
  exists l, metadata (write_shardings true items f) (map Some names) = Ok l /\
  Forall2 (fun name o => exists s m m', last_saved items name s /\ from_jax s = Some m /\ o = Some m' /\ same_meta m m') names l.
Proof.
  intros f items names X H. unfold metadata. destruct (write_shardings true items f) as [d|] eqn:Q; [|exfalso; apply (write_exists items f); auto]. rewrite map_map.
  induction H as [|name names [s L] H IH]; cbn [map sequence]; [exists []; split; [reflexivity|constructor]|].
  destruct IH as [l [IH1 IH2]]. destruct (last_in _ _ _ L) as [L1 L2]. destruct (from_jax s) as [m|] eqn:E; [|congruence]. destruct (json_same s m E) as [m' [J1 J2]].
  exists (Some m' :: l). assert (W := write_read items f name s m L E). rewrite Q in W. split; [|constructor; [exists s, m, m'; auto|exact IH2]].
  rewrite W. destruct (read_nonempty m) as [v Hv]. rewrite Hv, <- Hv, J1. cbn [rmap rbind]. rewrite IH1. reflexivity.
Qed.

(** ** The standard handler *)

Lemma leaf_saved : forall e fb s m m', valid s -> told_apart e -> there e s -> from_jax s = Some m -> from_string (to_string m) = Ok m' -> from_leaf e fb (LArray (Some m')) = Ok (Some (inl (forget s))).
Proof. intros e fb s m m' V U T E J. assert (R := round_trip e s m V U T E). rewrite J in R. cbn [rbind] in R. cbn. now rewrite R. Qed.

Lemma leaf_moved : forall e fb m spec mem md m', valid (SNamed m spec mem) -> (exists d, In d (m_devices m) /\ forall d', In d' (e_devices e) -> d_id d' <> d_id d) -> from_jax (SNamed m spec mem) = Some md ->
  from_string (to_string md) = Ok m' -> from_leaf e fb (LArray (Some m')) = match fb with Some s => Ok (Some (inl s)) | None => Err ValueError end.
Proof. intros e fb m spec mem md m' V D E J. assert (R := missing e m spec mem md V D E). rewrite J in R. cbn [rbind] in R. cbn. now rewrite R. Qed.

(** The metadata that are read for a sharding. *)
Definition md (s : sharding) : option meta := match from_jax s with Some m => Some (after_json m) | None => None end.

Lemma metadata_exact : forall f items names ss, Forall2 (fun name s => last_saved items name s) names ss -> metadata (write_shardings true items f) (map Some names) = Ok (map md ss).
Proof.
  intros f items names ss H. unfold metadata. destruct (write_shardings true items f) as [d|] eqn:Q.
  - rewrite map_map. induction H as [|name s names ss L H IH]; cbn [map sequence]; [reflexivity|]. destruct (last_in _ _ _ L) as [L1 L2]. unfold md at 1. destruct (from_jax s) as [m|] eqn:E; [|congruence].
    assert (W := write_read items f name s m L E). rewrite Q in W. rewrite W. destruct (read_nonempty m) as [v Hv]. rewrite Hv, <- Hv, string_read. cbn [rmap rbind]. rewrite IH. reflexivity.
  - destruct H as [|name s names ss L H]; [reflexivity|]. exfalso. destruct (last_in _ _ _ L) as [L1 L2]. apply (write_exists items f); [|exact Q]. left. eauto.
Qed.

Lemma md_leaf : forall e fb s, valid s -> told_apart e -> there e s -> from_leaf e fb (LArray (md s)) = Ok (Some (inl (forget s))).
Proof.
  intros e fb s V U T. unfold md. destruct (from_jax s) as [m|] eqn:E; [|destruct s; [discriminate|discriminate|contradiction]]. apply (leaf_saved e fb s m (after_json m)); auto. apply string_read.
Qed.

Lemma without_target : forall e fb items names ss, told_apart e -> Forall2 (fun name s => last_saved items name s /\ valid s /\ there e s) names ss ->
  args_without_target e fb (combine names (map LArray (map md ss))) = Ok (map (fun s => GJax (Some (inl (forget s)))) ss).
Proof.
  intros e fb items names ss U H. unfold args_without_target.
  assert (S : sequence (map (fun pl : string * leaf => from_leaf e fb (snd pl)) (combine names (map LArray (map md ss)))) = Ok (map (fun s => Some (inl (forget s))) ss)).
  { induction H as [|name s names ss [_ [V T]] H IH]; [reflexivity|]. cbn [map combine sequence snd]. rewrite (md_leaf e fb s V U T). cbn [rbind]. rewrite IH. reflexivity. }
  rewrite S. cbn [rbind]. clear S. induction H as [|name s names ss [_ [V T]] H IH]; [reflexivity|]. cbn [map combine sequence fst snd]. rewrite IH. reflexivity.
Qed.

Lemma get_combine : forall {A} names (vs : list A) i name, NoDup names -> List.length names = List.length vs -> nth_error names i = Some name -> get name (combine names vs) = nth_error vs i.
Proof.
  intros A names. induction names as [|n names IH]; intros vs i name D L H; [destruct i; discriminate|]. destruct vs as [|v vs]; [discriminate|]. inversion D as [|x y D1 D2]; subst. cbn.
  destruct i as [|i]; cbn in *; [injection H as ->; now rewrite String.eqb_refl|]. destruct (String.eqb_spec name n) as [->|]; [elim D1; eapply nth_error_In; eauto|]. now apply IH; [|lia|].
Qed.

Lemma with_target : forall e fb items names ss, told_apart e -> NoDup names -> Forall2 (fun name s => last_saved items name s /\ valid s /\ there e s) names ss ->
  args_for_target e fb (combine names (map LArray (map md ss))) (map (fun name => (name, TStruct None)) names) = Ok (map (fun s => GJax (Some (inl (forget s)))) ss).
Proof.
  intros e fb items names ss U D H. unfold args_for_target. rewrite map_map. cbn [fst snd for_target].
  assert (S : sequence (map (fun name => match get name (combine names (map LArray (map md ss))) with Some l => from_leaf e fb l | None => Err ValueError end) names) = Ok (map (fun s => Some (inl (forget s))) ss)).
  { apply seq_ok. assert (G : forall i name s, nth_error names i = Some name -> nth_error ss i = Some s -> get name (combine names (map LArray (map md ss))) = Some (LArray (md s))).
    { intros i name s H1 H2. rewrite (get_combine names _ i name D); [|rewrite !map_length; eapply f2_length; eauto|exact H1]. rewrite !nth_error_map, H2. reflexivity. }
    revert G. generalize (combine names (map LArray (map md ss))). intros saved G. clear D. induction H as [|name s names ss [_ [V T]] H IH]; cbn; constructor.
    - rewrite (G 0 name s eq_refl eq_refl). now apply md_leaf.
    - apply IH. intros i. apply (G (S i)). }
  rewrite S. cbn [rbind]. clear S D. induction H as [|name s names ss [_ [V T]] H IH]; [reflexivity|]. cbn [map combine sequence fst snd]. rewrite IH. reflexivity.
Qed.

(** ** Maximal shardings *)

Local Arguments Nat.gcd : simpl never.
Local Arguments Nat.div : simpl never.
Local Arguments Nat.log2 : simpl never.

Definition axes_ok (n : nat) (shape : list nat) (seen : list nat) (st : nat * list nat * list (nat * string)) : Prop :=
  let '(rest, ms, parts) := st in
  n = size ms * rest /\ rest <> 0 /\ List.length ms + Nat.log2 rest <= Nat.log2 n /\
  map snd parts = map axis_name (seq 0 (List.length ms)) /\ NoDup (map fst parts) /\ (forall i, In i (map fst parts) -> In i seen) /\
  forall i a, In (i, a) parts -> exists j g, a = axis_name j /\ nth_error ms j = Some g /\ Nat.divide g (nth i shape 0).

Lemma size_app : forall a b, size (a ++ b) = size a * size b.
Proof. induction a as [|x a IH]; intros b; cbn; [lia|]. rewrite IH. lia. Qed.

Lemma step_ok : forall n shape seen i st, ~ In i seen -> axes_ok n shape seen st -> axes_ok n shape (i :: seen) (partition_step (nth i shape 0) i st).
Proof.
  intros n shape seen i [[rest ms] parts] N [H1 [H2 [H3 [H4 [H5 [H6 H7]]]]]]. unfold partition_step.
  assert (W : axes_ok n shape (i :: seen) (rest, ms, parts)) by (split; [exact H1|split; [exact H2|split; [exact H3|split; [exact H4|split; [exact H5|split; [intros j Hj; right; auto|exact H7]]]]]]).
  destruct (Nat.ltb_spec (nth i shape 0) rest); [exact W|]. destruct (Nat.eqb_spec (Nat.gcd (nth i shape 0) rest) 1) as [E|E]; [exact W|].
  set (g := Nat.gcd (nth i shape 0) rest) in *. assert (D1 : Nat.divide g (nth i shape 0)) by apply Nat.gcd_divide_l. assert (D2 : Nat.divide g rest) by apply Nat.gcd_divide_r.
  assert (G0 : g <> 0) by (intros G; destruct D2 as [q D2]; rewrite G in D2; lia). assert (G : 2 <= g) by lia.
  destruct D2 as [q D2]. assert (Q : Nat.div rest g = q) by (rewrite D2; now apply Nat.div_mul). rewrite Q. assert (Q0 : q <> 0) by (intros ->; lia).
  split; [|split; [|split; [|split; [|split; [|split]]]]].
  - rewrite size_app. cbn. nia.
  - exact Q0.
  - rewrite app_length. cbn [List.length]. assert (L : S (Nat.log2 q) <= Nat.log2 rest). { rewrite <- (Nat.log2_double q) by lia. apply Nat.log2_le_mono. nia. } lia.
  - rewrite map_app, app_length. cbn [List.length map snd]. rewrite seq_app, map_app, H4. reflexivity.
  - rewrite map_app. cbn [map fst]. apply (NoDup_Add (Add_app i (map fst parts) [])). rewrite app_nil_r. split; [exact H5|]. intros Hi. apply N. now apply H6.
  - intros j Hj. rewrite map_app, in_app_iff in Hj. destruct Hj as [Hj|[<-|[]]]; [right; auto|now left].
  - intros j a Hj. apply in_app_iff in Hj. destruct Hj as [Hj|[Hj|[]]].
    + destruct (H7 j a Hj) as [k [g' [K1 [K2 K3]]]]. exists k, g'. split; [exact K1|split; [|exact K3]]. rewrite nth_error_app1; [exact K2|]. apply nth_error_Some. congruence.
    + injection Hj as <- <-. exists (List.length ms), g. split; [reflexivity|split; [|exact D1]]. rewrite nth_error_app2 by lia. now rewrite Nat.sub_diag.
Qed.

Lemma loop_ok : forall n shape order seen st, NoDup order -> (forall i, In i order -> ~ In i seen) -> axes_ok n shape seen st -> exists seen', axes_ok n shape seen' (partition_loop shape order st).
Proof.
  intros n shape order. induction order as [|i order IH]; intros seen st D S H; cbn; [eauto|]. destruct (Nat.eqb (fst (fst st)) 1); [eauto|].
  inversion D as [|x y D1 D2]; subst. apply (IH (i :: seen)); [exact D2| |apply step_ok; [apply S; now left|exact H]]. intros j Hj [<-|K]; [contradiction|]. apply (S j); [now right|exact K].
Qed.

Lemma axis_name_inj : forall i j, i < 158 -> j < 158 -> axis_name i = axis_name j -> i = j.
Proof.
  intros i j Hi Hj H. unfold axis_name in H. injection H as H. apply (f_equal nat_of_ascii) in H. rewrite !nat_ascii_embedding in H by lia. lia.
Qed.

Lemma names_nodup : forall k, k < 158 -> NoDup (map axis_name (seq 0 k)).
Proof.
  intros k Hk. assert (G : forall l, NoDup l -> (forall i, In i l -> i < 158) -> NoDup (map axis_name l)).
  { induction l as [|i l IH]; intros D B; cbn; [constructor|]. inversion D as [|x y D1 D2]; subst. constructor; [|apply IH; [exact D2|intros; apply B; now right]].
    rewrite in_map_iff. intros [j [E Hj]]. apply D1. replace i with j; [exact Hj|]. apply axis_name_inj; auto; apply B; [now right|now left]. }
  apply G; [apply seq_NoDup|]. intros i Hi. apply in_seq in Hi. lia.
Qed.

Lemma nodup_sub : forall (l : list (nat * string)) (is : list nat), NoDup (map snd l) -> NoDup is -> NoDup (map fst l) ->
  NoDup (uses (map (fun i => match find (fun p => Nat.eqb (fst p) i) l with Some p => EAxis (snd p) | None => ENone end) is)) /\
  forall a, In a (uses (map (fun i => match find (fun p => Nat.eqb (fst p) i) l with Some p => EAxis (snd p) | None => ENone end) is)) -> exists i, In i is /\ In (i, a) l.
Proof.
  intros l is N1 N2 N3. induction N2 as [|i is H1 H2 IH]; cbn; [split; [constructor|contradiction]|]. destruct IH as [IH1 IH2].
  destruct (find (fun p => Nat.eqb (fst p) i) l) as [[i' a]|] eqn:F; cbn.
  - apply find_some in F. destruct F as [F1 F2]. apply Nat.eqb_eq in F2. cbn in F2. subst i'. split.
    + constructor; [|exact IH1]. intros Ha. apply IH2 in Ha. destruct Ha as [j [J1 J2]]. apply H1. replace i with j; [exact J1|].
      clear - N1 F1 J2. induction l as [|[k b] l IH]; [contradiction|]. cbn in N1. inversion N1 as [|x y M1 M2]; subst. destruct F1 as [F1|F1], J2 as [J2|J2]; try congruence.
      * injection F1 as -> ->. elim M1. apply in_map_iff. now exists (j, a).
      * injection J2 as -> ->. elim M1. apply in_map_iff. now exists (i, a).
      * auto.
    + intros b [<-|Hb]; [exists i; auto|]. destruct (IH2 b Hb) as [j [J1 J2]]. eauto.
  - split; [exact IH1|]. intros b Hb. destruct (IH2 b Hb) as [j [J1 J2]]. eauto.
Qed.

Lemma maximal_ok : forall all ds shape order, ds <> [] -> Nat.log2 (List.length ds) < 157 -> NoDup order ->
  exists m spec, maximal all ds shape order = Ok (SNamed m spec None) /\ proper m /\ m_devices m = ds /\ NoDup (uses spec) /\ (forall a, In a (uses spec) -> In a (m_names m)) /\
  forall i a, nth_error spec i = Some (EAxis a) -> exists g, axis_size m a g /\ Nat.divide g (nth i shape 0).
Proof.
  intros all ds shape order H0 HL HO.
  assert (R : exists m, rbind (make_mesh ds [List.length ds] ["a"%string] None) (fun m => make_named m []) = Ok (SNamed m [] None) /\ proper m /\ m_devices m = ds).
  { exists (mkMesh ["a"%string] [List.length ds] [Auto] ds). assert (P : proper (mkMesh ["a"%string] [List.length ds] [Auto] ds)) by (split; [cbn; lia|split; [reflexivity|split; [reflexivity|constructor; [intros []|constructor]]]]).
    assert (M : make_mesh ds [List.length ds] ["a"%string] None = Ok (mkMesh ["a"%string] [List.length ds] [Auto] ds)) by (apply make_mesh_ok; now split). rewrite M. cbn. auto. }
  assert (R' : exists m spec, rbind (make_mesh ds [List.length ds] ["a"%string] None) (fun m => make_named m []) = Ok (SNamed m spec None) /\ proper m /\ m_devices m = ds /\ NoDup (uses spec) /\ (forall a, In a (uses spec) -> In a (m_names m)) /\
    forall i a, nth_error spec i = Some (EAxis a) -> exists g, axis_size m a g /\ Nat.divide g (nth i shape 0)).
  { destruct R as [m [R1 [R2 R3]]]. exists m, []. split; [exact R1|split; [exact R2|split; [exact R3|split; [constructor|split; [contradiction|]]]]]. intros [|i] a H; discriminate. }
  unfold maximal. destruct shape as [|x shape]; [exact R'|]. destruct (Nat.ltb _ all); [exact R'|].
  destruct (loop_ok (List.length ds) (x :: shape) order [] (List.length ds, [], [])) as [seen L]; [exact HO|intros i _ []| |].
  { split; [cbn; lia|]. split; [destruct ds; [congruence|discriminate]|]. split; [cbn; lia|]. split; [reflexivity|]. split; [constructor|]. split; [contradiction|]. contradiction. }
  destruct (partition_loop (x :: shape) order (List.length ds, [], [])) as [[rest ms] parts]. destruct L as [L1 [L2 [L3 [L4 [L5 [L6 L7]]]]]].
  set (ms' := if Nat.ltb 1 rest then ms ++ [rest] else ms). set (names := map axis_name (seq 0 (List.length ms'))).
  assert (S : size ms' = List.length ds). { unfold ms'. destruct (Nat.ltb_spec 1 rest); [rewrite size_app; cbn; lia|]. assert (rest = 1) by lia. subst rest. lia. }
  assert (K : List.length ms' < 158). { unfold ms'. destruct (Nat.ltb_spec 1 rest); [rewrite app_length; cbn [List.length]; lia|lia]. }
  assert (P : proper (mkMesh names ms' (map (fun _ => Auto) names) ds)).
  { split; [cbn; congruence|]. split; [cbn; unfold names; now rewrite map_length, seq_length|]. split; [cbn; now rewrite map_length|]. cbn. apply names_nodup, K. }
  assert (M : make_mesh ds ms' names None = Ok (mkMesh names ms' (map (fun _ => Auto) names) ds)) by (apply make_mesh_ok; now split).
  cbv zeta. fold ms'. fold names. rewrite M. cbn [rbind].
  set (spec := map (fun i => match find (fun p => Nat.eqb (fst p) i) parts with Some p => EAxis (snd p) | None => ENone end) (seq 0 (List.length (x :: shape)))).
  destruct (nodup_sub parts (seq 0 (List.length (x :: shape)))) as [U1 U2]; [rewrite L4; apply names_nodup; unfold ms' in K; destruct (Nat.ltb 1 rest); [rewrite app_length in K|]; lia|apply seq_NoDup|exact L5|]. fold spec in U1, U2.
  assert (I : forall j g, nth_error ms j = Some g -> nth_error ms' j = Some g). { intros j g Hj. unfold ms'. destruct (Nat.ltb 1 rest); [|exact Hj]. rewrite nth_error_app1; [exact Hj|]. apply nth_error_Some. congruence. }
  assert (NJ : forall j g, nth_error ms' j = Some g -> nth_error names j = Some (axis_name j)).
  { intros j g Hj. unfold names. assert (B : j < List.length ms') by (apply nth_error_Some; congruence). rewrite nth_error_map. rewrite (nth_error_nth' _ 0) by (now rewrite seq_length). cbn. f_equal. f_equal. now rewrite seq_nth. }
  assert (A : forall a, In a (uses spec) -> In a names).
  { intros a Ha. apply U2 in Ha. destruct Ha as [i [_ Ha]]. destruct (L7 i a Ha) as [j [g [-> [J1 _]]]]. apply I, NJ in J1. eapply nth_error_In; eauto. }
  exists (mkMesh names ms' (map (fun _ => Auto) names) ds), spec. split; [now apply make_named_ok|]. split; [exact P|]. split; [reflexivity|]. split; [exact U1|]. split; [exact A|].
  intros i a Hi. unfold spec in Hi. rewrite nth_error_map in Hi. destruct (nth_error (seq 0 (List.length (x :: shape))) i) as [i'|] eqn:E; [|discriminate]. cbn in Hi.
  assert (B : i < List.length (x :: shape)) by (rewrite <- (seq_length (List.length (x :: shape)) 0); apply nth_error_Some; congruence).
  rewrite (nth_error_nth' _ 0) in E by (now rewrite seq_length). rewrite seq_nth in E by exact B. injection E as <-. cbn in Hi.
  destruct (find (fun p => Nat.eqb (fst p) i) parts) as [[i' a']|] eqn:F; [|discriminate]. injection Hi as <-. apply find_some in F. destruct F as [F1 F2]. apply Nat.eqb_eq in F2. cbn in F2. subst i'.
  destruct (L7 i a' F1) as [j [g [-> [J1 J2]]]]. exists g. split; [|exact J2]. apply I in J1. exists j. split; [now apply (NJ j g)|exact J1].
Qed.

(** ** Base 64 by bits *)
Lemma char6_url : forall a b c d e f, url_char (char6 a b c d e f) [a; b; c; d; e; f].
Proof. intros [] [] [] [] [] []; unfold url_char; vm_compute; lia. Qed.
Lemma base64_bits_n : forall n s, (String.length s <= n)%nat -> exists z pad, (Nat.modulo (String.length (base64 s)) 4 = 0)%nat /\ (z < 6)%nat /\ (pad < 3)%nat /\
  exists chars, base64 s = (of_chars chars ++ of_chars (repeat "="%char pad))%string /\ Forall2 (fun c b => url_char c b) chars (sixes (bits s ++ repeat false z)) /\ Nat.modulo (List.length (bits s ++ repeat false z)) 6 = 0%nat.
Proof.
  induction n as [|n IH]; intros s L.
  - destruct s; [|cbn in L; lia]. exists 0%nat, 0%nat. split; [reflexivity|]. split; [lia|]. split; [lia|]. exists []. split; [reflexivity|]. split; [constructor|reflexivity].
  - destruct s as [|[a0 a1 a2 a3 a4 a5 a6 a7] [|[b0 b1 b2 b3 b4 b5 b6 b7] [|[c0 c1 c2 c3 c4 c5 c6 c7] s]]].
    + exists 0%nat, 0%nat. split; [reflexivity|]. split; [lia|]. split; [lia|]. exists []. split; [reflexivity|]. split; [constructor|reflexivity].
    + exists 4%nat, 2%nat. split; [reflexivity|]. split; [lia|]. split; [lia|]. exists [char6 a7 a6 a5 a4 a3 a2; char6 a1 a0 false false false false]. split; [reflexivity|]. split; [cbn [bits app repeat sixes]; repeat (constructor; [apply char6_url|]); constructor|reflexivity].
    + exists 2%nat, 1%nat. split; [reflexivity|]. split; [lia|]. split; [lia|]. exists [char6 a7 a6 a5 a4 a3 a2; char6 a1 a0 b7 b6 b5 b4; char6 b3 b2 b1 b0 false false]. split; [reflexivity|]. split; [cbn [bits app repeat sixes]; repeat (constructor; [apply char6_url|]); constructor|reflexivity].
    + destruct (IH s) as [z [pad [H1 [H2 [H3 [chars [H4 [H5 H6]]]]]]]]; [cbn in L; lia|]. exists z, pad. split.
      { cbn [base64 String.length]. change (S (S (S (S (String.length (base64 s)))))) with (4 + String.length (base64 s))%nat. rewrite <- Nat.add_mod_idemp_r, H1 by lia. reflexivity. }
      split; [exact H2|]. split; [exact H3|]. exists (char6 a7 a6 a5 a4 a3 a2 :: char6 a1 a0 b7 b6 b5 b4 :: char6 b3 b2 b1 b0 c7 c6 :: char6 c5 c4 c3 c2 c1 c0 :: chars).
      split; [cbn [base64 of_chars fold_right append]; rewrite H4; reflexivity|]. split.
      { cbn [bits app sixes]. do 4 (constructor; [apply char6_url|]). exact H5. }
      { cbn [bits app List.length]. match goal with |- Nat.modulo ?x 6 = _ => replace x with (24 + List.length (bits s ++ repeat false z))%nat by reflexivity end. rewrite <- Nat.add_mod_idemp_r, H6 by lia. reflexivity. }
Qed.
Lemma base64_bits : forall s, exists z pad, (Nat.modulo (String.length (base64 s)) 4 = 0)%nat /\ (z < 6)%nat /\ (pad < 3)%nat /\
  exists chars, base64 s = (of_chars chars ++ of_chars (repeat "="%char pad))%string /\ Forall2 (fun c b => url_char c b) chars (sixes (bits s ++ repeat false z)) /\ Nat.modulo (List.length (bits s ++ repeat false z)) 6 = 0%nat.
Proof. intros s. exact (base64_bits_n (String.length s) s (le_n _)). Qed.
