(** Lemmas about transformations. *)
From Coq Require Import List Bool Arith NArith ZArith String Ascii Permutation Lia.
From Verif Require Import Base StepName_Model Tree_Model Tree_Spec Tree_Proofs Parts_Model Parts_Spec Parts_Proofs Diff_Proofs Trim_Proofs Transform_Model Transform_Spec.
Import ListNotations.

(** ** Flat dictionaries *)

Lemma flat_sep_get : forall {V : Type} (t : tree V) k w, wf t -> slashless t ->
  (dget String.eqb k (to_flat_dict_sep "/" false t) = Some w <-> exists v, w = Leaf v /\ leaf_under t k v).
Proof.
  intros V t k w W X. rewrite to_flat_sep_eq by (auto; apply sep_inj; auto).
  assert (N : NoDup (map fst (map (fun x : path * tree V => (key_of (fst x), snd x)) (flatten false t)))).
  { rewrite map_map. cbn [fst]. assert (N := named_nodup false t W). unfold named in N. rewrite map_map in N. cbn [fst] in N. refine (nodup_inj_map _ _ _ N _).
    intros [p v] [q u] I J E. cbn [fst] in *. apply flatten_spec in I as [A L]. apply flatten_spec in J as [B M]. rewrite (sep_inj "/"%char false t W X p q v u); auto. }
  split.
  - intros H. apply (dget_some_in String.eqb String.eqb_spec) in H. apply in_map_iff in H as ((p & s) & E & I). cbn [fst snd] in E. injection E as <- <-. apply flatten_spec in I as [A L].
    destruct s as [v|? ?]; [|simpl in L; destruct L; discriminate]. exists v. split; auto. exists p. auto.
  - intros (v & -> & p & A & <-). apply (dget_in String.eqb String.eqb_spec); auto. apply in_map_iff. exists (p, Leaf v). split; auto. apply flatten_spec. split; auto. exact I.
Qed.

Lemma flat_get : forall {V : Type} (t : tree V) k w, wf t -> (dget names_eqb k (to_flat_dict false t) = Some w <-> exists v, w = Leaf v /\ under t k v).
Proof.
  intros V t k w W. rewrite to_flat_eq by auto. assert (N := named_nodup false t W). split.
  - intros H. apply (dget_some_in names_eqb names_eqb_spec) in H. unfold named in H. apply in_map_iff in H as ((p & s) & E & I). cbn [fst snd] in E. injection E as <- <-. apply flatten_spec in I as [A L].
    destruct s as [v|? ?]; [|simpl in L; destruct L; discriminate]. exists v. split; auto. exists p. auto.
  - intros (v & -> & p & A & <-). apply (dget_in names_eqb names_eqb_spec); auto. unfold named. apply in_map_iff. exists (p, Leaf v). split; auto. apply flatten_spec. split; auto. exact I.
Qed.

Lemma key_inj : forall {V : Type} (t : tree V) p q u v, wf t -> slashless t -> at_path t p (Leaf u) -> at_path t q (Leaf v) -> key_of p = key_of q -> p = q.
Proof. intros V t p q u v W X A B E. apply (sep_inj "/"%char false t W X p q (Leaf u) (Leaf v)); auto; exact I. Qed.

Lemma leaf_under_det : forall {V : Type} (t : tree V) k u v, wf t -> slashless t -> leaf_under t k u -> leaf_under t k v -> u = v.
Proof.
  intros V t k u v W X (p & A & <-) (q & B & E). assert (q = p) by (apply (key_inj t q p v u); auto). subst q. eapply trim_leaf_same; eauto.
Qed.

(** ** One key *)

Section Key.
Context {V : Type} (fullmatch : string -> string -> result (option (string -> result string))) (default : bool) (original : tree V) (W : wf original) (X : slashless original).
Notation flat := (to_flat_dict_sep "/" false original).
Notation matches := (matches fullmatch).
Notation keeps := (keeps default).
Notation yields := (yields fullmatch default original).
Notation applicable := (applicable fullmatch default original).

Notation tame := (tame fullmatch original).

(** What the loop has done. *)
Definition picked (ts : list (string * transform V)) (key : string) (value : tree V) (found : bool) (w : tree V) (b : bool) : Prop :=
  (exists pre pattern t post, ts = pre ++ (pattern, t) :: post /\ matches pattern key /\ yields key pattern t w /\
     (forall pattern' t', In (pattern', t') post -> matches pattern' key -> keeps t') /\ b = true) \/
  ((forall pattern' t', In (pattern', t') ts -> matches pattern' key -> keeps t') /\ w = value /\
   ((b = found /\ forall pattern' t', In (pattern', t') ts -> ~ matches pattern' key) \/ (b = true /\ exists pattern t, In (pattern, t) ts /\ matches pattern key))).

Lemma picked_skip : forall pattern t ts key value found w b, fullmatch pattern key = Ok None -> picked ts key value found w b -> picked ((pattern, t) :: ts) key value found w b.
Proof.
  intros pattern t ts key value found w b E [(pre & p2 & t2 & post & -> & M & Y & K & B)|(K & E2 & H)].
  - left. exists ((pattern, t) :: pre), p2, t2, post. spl; auto.
  - right. split; [|split; auto].
    + intros p' t' [J|J] M; [injection J as <- <-; destruct M as (e & M); congruence|eauto].
    + destruct H as [(B & N)|(B & p2 & t2 & J & M)]; [left|right]; split; auto.
      * intros p' t' [J|J] M; [injection J as <- <-; destruct M as (e & M); congruence|exact (N p' t' J M)].
      * exists p2, t2. split; auto. right. auto.
Qed.

Lemma picked_step : forall pattern t ts key value value' found w b, matches pattern key -> yields key pattern t value' -> picked ts key value' true w b -> picked ((pattern, t) :: ts) key value found w b.
Proof.
  intros pattern t ts key value value' found w b M Y [(pre & p2 & t2 & post & -> & M2 & Y2 & K & B)|(K & -> & H)].
  - left. exists ((pattern, t) :: pre), p2, t2, post. spl; auto.
  - left. exists [], pattern, t, ts. spl; auto. destruct H as [(B & _)|(B & _)]; auto.
Qed.

Lemma picked_keep : forall pattern t ts key value found w b, matches pattern key -> keeps t -> picked ts key value true w b -> picked ((pattern, t) :: ts) key value found w b.
Proof.
  intros pattern t ts key value found w b M KP [(pre & p2 & t2 & post & -> & M2 & Y2 & K & B)|(K & -> & H)].
  - left. exists ((pattern, t) :: pre), p2, t2, post. spl; auto.
  - right. split; [|split; auto].
    + intros p' t' [J|J] M'; [injection J as <- <-; auto|eauto].
    + right. split; [destruct H as [(B & _)|(B & _)]; auto|]. exists pattern, t. split; auto. left. auto.
Qed.

Lemma applicable_cons : forall pattern t ts key, applicable ((pattern, t) :: ts) key <->
  (exists m, fullmatch pattern key = Ok m /\ (m <> None -> keeps t \/ exists w, yields key pattern t w)) /\ applicable ts key.
Proof.
  intros pattern t ts key. split.
  - intros H. split; [apply H; left; auto|]. intros p' t' J. apply H. right. auto.
  - intros (H1 & H2) p' t' [J|J]; [injection J as <- <-; auto|auto].
Qed.

Lemma tame_cons : forall pattern t ts key, tame ((pattern, t) :: ts) key -> tame ts key.
Proof. intros pattern t ts key H p' t' J. apply H. right. auto. Qed.

Lemma key_ok : forall ts key value found,
  match transform_key fullmatch default original flat key ts value found with
  | Ok (w, b) => applicable ts key /\ picked ts key value found w b
  | Err e => ~ applicable ts key /\ (tame ts key -> e = ValueError)
  end.
Proof using W X.
  intros ts key. induction ts as [|[pattern t] ts IH]; intros value found; cbn [transform_key].
  - split; [intros ? ? []|]. right. split; [intros ? ? []|]. split; [reflexivity|]. left. split; [reflexivity|]. intros ? ? [].
  - assert (STEP : forall v, matches pattern key -> yields key pattern t v -> match transform_key fullmatch default original flat key ts v true with
      | Ok (w, b) => applicable ((pattern, t) :: ts) key /\ picked ((pattern, t) :: ts) key value found w b
      | Err e => ~ applicable ((pattern, t) :: ts) key /\ (tame ((pattern, t) :: ts) key -> e = ValueError) end).
    { intros v M Y. specialize (IH v true). destruct (transform_key fullmatch default original flat key ts v true) as [[w b]|e].
      - destruct IH as [I1 I2]. split; [|eapply picked_step; eauto]. apply applicable_cons. split; auto. destruct M as (ex & M). exists (Some ex). split; auto. intros _. eauto.
      - destruct IH as [I1 I2]. split; [intros H; apply applicable_cons in H as [_ H]; auto|]. intros T. apply tame_cons in T. auto. }
    assert (FAIL : forall e, (forall m, fullmatch pattern key = Ok m -> m <> None /\ ~ keeps t /\ forall w, ~ yields key pattern t w) -> (tame ((pattern, t) :: ts) key -> e = ValueError) ->
      ~ applicable ((pattern, t) :: ts) key /\ (tame ((pattern, t) :: ts) key -> e = ValueError)).
    { intros e H1 H2. split; auto. intros H. apply applicable_cons in H as ((m & M & H) & _). destruct (H1 m M) as (N & K & Y). destruct (H N) as [H3|(w & H3)]; [auto|exact (Y w H3)]. }
    assert (FG : forall k v, dget String.eqb k flat = Some v -> exists u, v = Leaf u /\ leaf_under original k u) by (intros k v; apply flat_sep_get; auto).
    assert (FN : forall k u, dget String.eqb k flat = None -> ~ leaf_under original k u).
    { intros k u H1 H2. assert (E : dget String.eqb k flat = Some (Leaf u)) by (apply flat_sep_get; eauto). congruence. }
    destruct (fullmatch pattern key) as [[expand|]|e] eqn:M; cbn [rbind].
    + assert (MM : matches pattern key) by (exists expand; auto). destruct (use_fallback t) eqn:UF.
      * destruct (negb default) eqn:DF; [apply negb_true_iff in DF|apply negb_false_iff in DF].
        -- destruct (dget String.eqb key flat) as [v|] eqn:G.
           ++ destruct (FG _ _ G) as (u & -> & LU). apply STEP; auto. apply yields_fallback; auto.
           ++ apply FAIL; auto. intros m EM. injection EM as <-. split; [discriminate|]. split; [intros [_ H]; congruence|]. intros w Y. inversion Y; subst; try congruence. eapply FN; eauto.
        -- assert (KP : keeps t) by (split; auto). specialize (IH value true). destruct (transform_key fullmatch default original flat key ts value true) as [[w b]|e].
           ++ destruct IH as [I1 I2]. split; [|apply picked_keep; auto]. apply applicable_cons. split; auto. exists (Some expand). split; auto.
           ++ destruct IH as [I1 I2]. split; [intros H; apply applicable_cons in H as [_ H]; auto|]. intros T. apply tame_cons in T. auto.
      * assert (NK : ~ keeps t) by (intros [H _]; congruence). destruct (negb (is_none (multi_value_fn t) || is_none (value_fn t))) eqn:BOTH.
        -- apply FAIL; auto. intros m EM. injection EM as <-. split; [discriminate|]. split; auto. intros w Y. destruct (multi_value_fn t) eqn:E1; [|discriminate]. destruct (value_fn t) eqn:E2; [|discriminate]. inversion Y; subst; congruence.
        -- destruct (multi_value_fn t) as [f|] eqn:MV.
           ++ destruct (value_fn t) eqn:VF; [discriminate|]. destruct (f key original) as [v|e] eqn:F; cbn [rbind].
              ** apply STEP; auto. eapply yields_multi; eauto.
              ** apply FAIL; [intros m EM; injection EM as <-; split; [discriminate|]; split; auto; intros w Y; inversion Y; subst; congruence|]. intros T. destruct (T pattern t (or_introl eq_refl)) as [_ [_ T2]]. destruct (T2 f MV) as (w & E). congruence.
           ++ destruct (match original_key t with None => Ok key | Some k => expand k end) as [k|e] eqn:OK; cbn [rbind].
              2:{ apply FAIL; [intros m EM; injection EM as <-; split; [discriminate|]; split; auto; intros w Y; inversion Y; subst; try congruence; match goal with H : original_key t = _ |- _ => rewrite H in OK end; try discriminate; match goal with H : fullmatch _ _ = _ |- _ => rewrite M in H; injection H as <- end; congruence|].
                  intros T. destruct (original_key t) as [k|]; [|discriminate]. destruct (T pattern t (or_introl eq_refl)) as [(m & EM & T2) _]. rewrite M in EM. injection EM as <-. destruct (T2 expand k eq_refl) as (k' & E). congruence. }
              destruct (dget String.eqb k flat) as [v|] eqn:G.
              2:{ apply FAIL; auto. intros m EM. injection EM as <-. split; [discriminate|]. split; auto. intros w Y. inversion Y; subst; try congruence.
                  - match goal with H : original_key t = _ |- _ => rewrite H in OK; injection OK as <- end. eapply FN; eauto.
                  - match goal with H : fullmatch _ _ = _ |- _ => rewrite M in H; injection H as <- end. match goal with H : original_key t = _ |- _ => rewrite H in OK end. assert (k' = k) by congruence. subst k'. eapply FN; eauto. }
              destruct (FG _ _ G) as (u & -> & LU). destruct (match value_fn t with None => Ok (Leaf u) | Some f => f (Leaf u) end) as [w|e] eqn:VE; cbn [rbind].
              2:{ assert (DET : forall u', leaf_under original k u' -> u' = u) by (intros u' H; eapply leaf_under_det; eauto).
                  destruct (value_fn t) as [f|] eqn:VF; [|discriminate]. apply FAIL.
                  - intros m EM. injection EM as <-. split; [discriminate|]. split; auto. intros w Y. inversion Y; subst; try congruence.
                    + match goal with H : original_key t = _ |- _ => rewrite H in OK; injection OK as <- end. match goal with H : leaf_under original _ _ |- _ => rewrite (DET _ H) in * end. match goal with H : match value_fn t with _ => _ end |- _ => rewrite VF in H end. congruence.
                    + match goal with H : fullmatch _ _ = _ |- _ => rewrite M in H; injection H as <- end. match goal with H : original_key t = _ |- _ => rewrite H in OK end. assert (k' = k) by congruence. subst k'. 
                      match goal with H : match value_fn t with _ => _ end |- _ => rewrite VF in H end. match goal with H : leaf_under original k ?z |- _ => assert (z = u) by (apply DET; auto) end. congruence.
                  - intros T. destruct (T pattern t (or_introl eq_refl)) as [_ [T2 _]]. destruct (T2 f (Leaf u) VF) as (w & E). congruence. }
              apply STEP; auto. assert (VE' : match value_fn t with None => w = Leaf u | Some f => f (Leaf u) = Ok w end) by (destruct (value_fn t); [auto|congruence]).
              destruct (original_key t) as [k0|] eqn:OK0; [eapply yields_renamed; eauto|injection OK as <-; eapply yields_same; eauto].
    + specialize (IH value found). destruct (transform_key fullmatch default original flat key ts value found) as [[w b]|e].
      * destruct IH as [I1 I2]. split; [|apply picked_skip; auto]. apply applicable_cons. split; auto. exists None. split; auto. congruence.
      * destruct IH as [I1 I2]. split; [intros H; apply applicable_cons in H as [_ H]; auto|]. intros T. apply tame_cons in T. auto.
    + split; [intros H; apply applicable_cons in H as ((m & H & _) & _); congruence|]. intros T. destruct (T pattern t (or_introl eq_refl)) as [(m & E & _) _]. congruence.
Qed.

Lemma value_ok : forall ts key value,
  match new_value fullmatch default original flat ts (key, value) with
  | Ok (k, w) => k = key /\ applicable ts key /\ chosen fullmatch default original ts key value w
  | Err e => ~ applicable ts key /\ (tame ts key -> e = ValueError)
  end.
Proof using W X.
  intros ts key value. unfold new_value. cbn [fst snd]. assert (H := key_ok ts key value false). destruct (transform_key fullmatch default original flat key ts value false) as [[w b]|e]; cbn [rmap fst snd]; auto.
  destruct H as [A [(pre & pattern & t & post & E & M & Y & K & ->)|(K & -> & [(-> & N)|(-> & pattern & t & I & M)])]]; cbn [fst snd].
  - spl; auto. eapply chosen_last; eauto.
  - destruct (dget String.eqb key flat) as [v|] eqn:G; (split; [|split]); auto.
    + apply flat_sep_get in G as (u & -> & LU); auto. destruct (Bool.bool_dec default true) as [D|D]; [replace (if default then Leaf u else value) with (Leaf u) by (rewrite D; reflexivity); eapply chosen_original; eauto|apply not_true_is_false in D; replace (if default then Leaf u else value) with value by (rewrite D; reflexivity); apply chosen_new; auto].
    + apply chosen_new; auto. right. intros u LU. assert (E : dget String.eqb key flat = Some (Leaf u)) by (apply flat_sep_get; eauto). congruence.
  - spl; auto. eapply chosen_kept; eauto.
Qed.

Lemma yields_det : forall key pattern t w w', yields key pattern t w -> yields key pattern t w' -> w = w'.
Proof using W X.
  intros key pattern t w w' Y Y'. assert (DET : forall k u u', leaf_under original k u -> leaf_under original k u' -> u = u') by (intros k u u'; apply leaf_under_det; auto).
  inversion Y as [v A1 A2 A3|v w1 A1 A2 A3 A4 A5|ex k k' v w1 A1 A2 A3 A4 A5 A6 A7|f w1 A1 A2 A3 A4]; inversion Y' as [v' B1 B2 B3|v' w2 B1 B2 B3 B4 B5|ex' k2 k2' v' w2 B1 B2 B3 B4 B5 B6 B7|f' w2 B1 B2 B3 B4]; subst; try congruence.
  - f_equal. eauto.
  - assert (v = v') by eauto. subst v'. destruct (value_fn t); congruence.
  - assert (k' = k2') by congruence. subst k2'. assert (v = v') by eauto. subst v'. destruct (value_fn t); congruence.
Qed.

Lemma split_last : forall {A : Type} (pre pre' post post' : list A) x x', pre ++ x :: post = pre' ++ x' :: post' ->
  (pre = pre' /\ x = x' /\ post = post') \/ In x' post \/ In x post'.
Proof.
  intros A pre. induction pre as [|a pre IH]; intros [|b pre'] post post' x x' E; cbn [app] in E.
  - injection E as -> ->. auto.
  - injection E as -> ->. right. left. apply in_or_app. right. left. auto.
  - injection E as -> <-. right. right. apply in_or_app. right. left. auto.
  - injection E as -> E. destruct (IH _ _ _ _ _ E) as [(-> & -> & ->)|[I|I]]; auto.
Qed.

Lemma not_keeps : forall key pattern t w, yields key pattern t w -> ~ keeps t.
Proof. intros key pattern t w Y [K1 K2]. inversion Y; subst; congruence. Qed.

Lemma chosen_det : forall ts key v w w', chosen fullmatch default original ts key v w -> chosen fullmatch default original ts key v w' -> w = w'.
Proof using W X.
  intros ts key v w w' C C'.
  inversion C as [pre pattern t post w1 E M Y K|pattern t I M K|u N D LU|N D]; inversion C' as [pre' pattern' t' post' w1' E' M' Y' K'|pattern' t' I' M' K'|u' N' D' LU'|N' D']; subst; auto;
    try (exfalso; match goal with H1 : matches ?p key, H2 : forall p' t', In (p', t') _ -> ~ matches p' key |- _ => eapply H2; [|exact H1]; try apply in_elt; eauto end; fail).
  - destruct (split_last _ _ _ _ _ _ E') as [(_ & E2 & _)|[I|I]].
    + injection E2 as <- <-. eapply yields_det; eauto.
    + exfalso. eapply not_keeps; eauto.
    + exfalso. eapply not_keeps; [exact Y|]. eauto.
  - exfalso. eapply not_keeps; [exact Y|]. eapply K'; [|exact M]. apply in_elt.
  - exfalso. eapply not_keeps; [exact Y'|]. eapply K; [|exact M']. apply in_elt.
  - f_equal. eapply leaf_under_det; eauto.
  - destruct D' as [D'|D']; [congruence|]. exfalso. eapply D'; eauto.
  - destruct D as [D|D]; [congruence|]. exfalso. eapply D; eauto.
Qed.
End Key.

(** ** The whole tree *)

Lemma empty_spec : forall {V : Type} (t : tree V), empty_tree t = true <-> exists k, t = Node k [].
Proof. intros V [v|k [|c cs]]; cbn; split; try discriminate; eauto; intros (k' & H); discriminate. Qed.

Lemma apply_ok : forall {V : Type} fullmatch default (original : tree V) transformations new, wf original -> slashless original -> wf new -> slashless new -> (forall k, new <> Node k []) ->
  match apply_transformations fullmatch original transformations new default with
  | Ok t => (forall p v, at_path new p (Leaf v) -> applicable fullmatch default original (transforms_of transformations) (key_of p)) /\
            exists f, t = with_leaves f (norm new) /\ forall p v, at_path new p (Leaf v) -> chosen fullmatch default original (transforms_of transformations) (key_of p) (Leaf v) (f p)
  | Err e => exists p v, at_path new p (Leaf v) /\ ~ applicable fullmatch default original (transforms_of transformations) (key_of p) /\ (tame fullmatch original (transforms_of transformations) (key_of p) -> e = ValueError)
  end.
Proof.
  intros V fullmatch default original transformations new W X W2 X2 NE. unfold apply_transformations. fold (transforms_of transformations). set (ts := transforms_of transformations).
  destruct (empty_tree new) eqn:E; [apply empty_spec in E as (k & ->); exfalso; eapply NE; eauto|]. clear E.
  assert (IN : forall k w, In (k, w) (to_flat_dict_sep "/" false new) <-> exists p v, at_path new p (Leaf v) /\ k = key_of p /\ w = Leaf v).
  { intros k w. rewrite to_flat_sep_eq by (auto; apply sep_inj; auto). rewrite in_map_iff. split.
    - intros ((p & s) & E & I). cbn [fst snd] in E. injection E as <- <-. apply flatten_spec in I as [A L]. destruct s as [v|? ?]; [|simpl in L; destruct L; discriminate]. exists p, v. auto.
    - intros (p & v & A & -> & ->). exists (p, Leaf v). split; auto. apply flatten_spec. split; auto. exact I. }
  assert (SI := sequence_inv (new_value fullmatch default original (to_flat_dict_sep "/" false original) ts) (to_flat_dict_sep "/" false new)).
  destruct (sequence (map (new_value fullmatch default original (to_flat_dict_sep "/" false original) ts) (to_flat_dict_sep "/" false new))) as [new'|e]; cbn [rbind].
  - assert (KEYS : map fst new' = map fst (to_flat_dict_sep "/" false new)).
    { clear IN. induction SI as [|[k v] [k' w] l l' H SI IH]; auto. cbn [map fst]. f_equal; auto. assert (VO := value_ok fullmatch default original W X ts k v). rewrite H in VO. destruct VO as [VO _]. auto. }
    assert (N : NoDup (map fst new')).
    { rewrite KEYS. unfold to_flat_dict_sep, dict_of. match goal with |- NoDup (map fst (fold_left _ ?l [])) => generalize l end. intros l. assert (G : forall d : dict string (tree V), NoDup (map fst d) -> NoDup (map fst (fold_left (fun d x => dput String.eqb (fst x) (snd x) d) l d))).
      { induction l as [|[k v] l IH]; intros d ND; auto. cbn [fold_left fst snd]. apply IH. apply dput_nodup; auto. apply String.eqb_spec. } apply G. constructor. }
    assert (GET : forall p v, at_path new p (Leaf v) -> exists w, dget String.eqb (key_of p) new' = Some w /\ applicable fullmatch default original ts (key_of p) /\ chosen fullmatch default original ts (key_of p) (Leaf v) w).
    { intros p v A. assert (I : In (key_of p, Leaf v) (to_flat_dict_sep "/" false new)) by (apply IN; eauto). destruct (forall2_in_l _ _ _ _ SI I) as ((k & w) & J & H).
      assert (VO := value_ok fullmatch default original W X ts (key_of p) (Leaf v)). rewrite H in VO. destruct VO as (-> & AP & CH). exists w. split; auto. apply (dget_in String.eqb String.eqb_spec); auto. }
    set (f := fun p => match dget String.eqb (key_of p) new' with Some w => w | None => Node KNone [] end).
    assert (F : from_flat_dict_target_sep "/" new' new = Ok (with_leaves f (norm new))).
    { apply target_sep_ok; auto.
      - intros p q v w A B E. apply (key_inj new p q v w); auto.
      - intros p v A. destruct (GET p v A) as (w & E & _). unfold f. change (join "/" (tuple_path_from_keypath p)) with (key_of p). rewrite E. auto. }
    rewrite F. split.
    + intros p v A. destruct (GET p v A) as (w & _ & H & _). auto.
    + exists f. split; auto. intros p v A. destruct (GET p v A) as (w & E & _ & H). unfold f. rewrite E. auto.
  - destruct SI as ((k & w) & I & H). apply IN in I as (p & v & A & -> & ->). exists p, v. split; auto.
    assert (VO := value_ok fullmatch default original W X ts (key_of p) (Leaf v)). rewrite H in VO. auto.
Qed.

(** ** Building nested dictionaries *)

(** A nested dictionary without empty dictionaries. *)
Inductive grown {V : Type} : tree V -> Prop :=
| grown_leaf : forall v, grown (Leaf v)
| grown_node : forall cs, cs <> [] -> NoDup (map fst cs) -> (forall x c, In (x, c) cs -> (exists n, x = DictKey (KStr n)) /\ grown c) -> grown (Node KDict cs).

Definition loose {V : Type} (t : tree V) : Prop := t = Node KDict [] \/ grown t.

Lemma grown_has : forall {V : Type} (t : tree V), grown t -> exists k v, under t k v.
Proof.
  intros V t. induction t as [v|k cs F] using tree_ind'; intros G.
  - exists [], v, []. split; auto. constructor.
  - inversion_clear G as [|? N ND C]. destruct cs as [|[x c] cs]; [contradiction|]. inversion_clear F as [|? ? F1 F2]. destruct (C x c) as [(n & ->) GC]; [left; auto|].
    destruct (F1 GC) as (ks & v & p & A & E). exists (n :: ks), v, (DictKey (KStr n) :: p). split; [|cbn; f_equal; auto]. eapply at_child; [left; reflexivity|auto].
Qed.

Lemma under_node : forall {V : Type} (cs : list (key * tree V)) k v, (forall x c, In (x, c) cs -> exists n, x = DictKey (KStr n)) ->
  (under (Node KDict cs) k v <-> exists n c k', k = n :: k' /\ In (DictKey (KStr n), c) cs /\ under c k' v).
Proof.
  intros V cs k v S. split.
  - intros (p & A & <-). inversion A as [|? ? x c q ? I B]; subst. destruct (S x c I) as (n & ->). exists n, c, (tuple_path_from_keypath q). spl; auto. exists q. auto.
  - intros (n & c & k' & -> & I & p & A & <-). exists (DictKey (KStr n) :: p). split; auto. eapply at_child; eauto.
Qed.

Lemma under_leaf : forall {V : Type} (u : V) k v, under (Leaf u) k v <-> k = [] /\ v = u.
Proof. intros V u k v. split; [intros (p & A & <-); inversion A; subst; auto|intros [-> ->]; exists []; split; auto; constructor]. Qed.

Lemma put_item_in : forall {A : Type} x (v : A) l y w, NoDup (map fst l) -> (In (y, w) (put_item x v l) <-> (y = x /\ w = v) \/ (y <> x /\ In (y, w) l)).
Proof.
  intros A x v l y w. induction l as [|[z u] l IH]; intros N; cbn [put_item In].
  - split; [intros [H|[]]; injection H as <- <-; auto|intros [[-> ->]|[_ []]]; auto].
  - cbn [map fst] in N. inversion_clear N as [|? ? N1 N2]. destruct (key_eqb_spec x z) as [<-|NE]; cbn [In].
    + split.
      * intros [H|H]; [injection H as <- <-; auto|]. right. split; auto. intros ->. apply N1. apply in_map_iff. exists (x, w). auto.
      * intros [[-> ->]|[H1 [H2|H2]]]; auto. congruence.
    + rewrite IH by auto. split.
      * intros [H|[H|[H1 H2]]]; auto. injection H as <- <-. right. split; auto.
      * intros [H|[H1 [H2|H2]]]; auto.
Qed.

Lemma put_item_keys : forall {A : Type} x (v : A) l, NoDup (map fst l) -> NoDup (map fst (put_item x v l)).
Proof.
  intros A x v l. induction l as [|[z u] l IH]; intros N; cbn [put_item map fst]; [repeat constructor; auto|]. cbn [map fst] in N. inversion_clear N as [|? ? N1 N2].
  destruct (key_eqb_spec x z) as [<-|NE]; cbn [map fst]; constructor; auto. intros H. apply in_map_iff in H as ([y w] & E & H). cbn [fst] in E. subst y. apply put_item_in in H; auto. destruct H as [[H _]|[_ H]]; [congruence|].
  apply N1. apply in_map_iff. exists (z, w). auto.
Qed.

Lemma put_item_nil : forall {A : Type} x (v : A) l, put_item x v l <> [].
Proof. intros A x v [|[y w] l]; cbn; [discriminate|]. destruct (key_eqb x y); discriminate. Qed.

Lemma extends_cons : forall x a b, extends (x :: a) (x :: b) <-> extends a b.
Proof. intros x a b. split; intros (c & E); exists c; cbn in *; congruence. Qed.

Definition conflicting (a b : list string) : Prop := extends a b \/ extends b a.

Lemma conflicting_cons : forall x a b, conflicting (x :: a) (x :: b) <-> conflicting a b.
Proof. intros x a b. unfold conflicting. rewrite !extends_cons. reflexivity. Qed.

Lemma conflicting_head : forall x y a b, conflicting (x :: a) (y :: b) -> x = y.
Proof. intros x y a b [(c & E)|(c & E)]; cbn in E; congruence. Qed.

Lemma insert_ok : forall {V : Type} names (t : tree V) v, names <> [] -> loose t ->
  match insert_names t names (Leaf v) with
  | Ok t' => grown t' /\ (forall k u, under t' k u <-> (k = names /\ u = v) \/ under t k u) /\ (forall k u, under t k u -> ~ conflicting k names)
  | Err e => exists k u, under t k u /\ conflicting k names
  end.
Proof.
  intros V names. induction names as [|n rest IH]; intros t v NN LO; [contradiction|]. clear NN. cbn [insert_names].
  destruct t as [u|kd cs].
  { exists [], u. split; [apply under_leaf; auto|]. left. exists (n :: rest). auto. }
  assert (H : kd = KDict /\ NoDup (map fst cs) /\ forall x c, In (x, c) cs -> (exists n, x = DictKey (KStr n)) /\ grown c).
  { destruct LO as [E|G]; [injection E as -> ->; spl; auto; [constructor|intros ? ? []]|inversion G; subst; auto]. }
  clear LO. destruct H as (-> & ND & C). assert (S : forall x c, In (x, c) cs -> exists n, x = DictKey (KStr n)) by (intros x c I; destruct (C x c I); auto).
  assert (PUT : forall s, grown s -> grown (Node KDict (put_item (DictKey (KStr n)) s cs))).
  { intros s G. constructor; [apply put_item_nil|apply put_item_keys; auto|]. intros x c I. apply put_item_in in I; auto. destruct I as [[-> ->]|[_ I]]; eauto. }
  assert (UP : forall s k u, grown s -> (under (Node KDict (put_item (DictKey (KStr n)) s cs)) k u <-> (exists k', k = n :: k' /\ under s k' u) \/ (exists m c k', k = m :: k' /\ m <> n /\ In (DictKey (KStr m), c) cs /\ under c k' u))).
  { intros s k u G. rewrite under_node.
    - split.
      + intros (m & c & k' & -> & I & U). apply put_item_in in I; auto. destruct I as [[E ->]|[NE I]]; [injection E as ->; eauto|]. right. exists m, c, k'. spl; auto. congruence.
      + intros [(k' & -> & U)|(m & c & k' & -> & NE & I & U)]; [exists n, s, k'|exists m, c, k']; spl; auto; apply put_item_in; auto. right. split; auto. congruence.
    - intros x c I. apply put_item_in in I; auto. destruct I as [[-> ->]|[_ I]]; eauto. }
  destruct rest as [|n2 rest].
  - destruct (find_item (DictKey (KStr n)) cs) as [s|] eqn:F.
    + apply find_item_in in F; auto. destruct (C _ _ F) as [_ G]. apply grown_has in G as (k & u & U). exists (n :: k), u. split; [apply under_node; eauto 6|]. right. exists k. auto.
    + apply find_item_none in F. split; [apply PUT; constructor|]. split.
      * intros k u. rewrite UP by constructor. rewrite under_node by auto. split.
        -- intros [(k' & -> & U)|(m & c & k' & -> & NE & I & U)]; [apply under_leaf in U as [-> ->]; auto|right; exists m, c, k'; auto].
        -- intros [[-> ->]|(m & c & k' & -> & I & U)]; [left; exists []; split; auto; apply under_leaf; auto|right; exists m, c, k'; spl; auto]. intros ->. apply F. apply in_map_iff. exists (DictKey (KStr n), c). auto.
      * intros k u U CO. apply under_node in U as (m & c & k' & -> & I & U); auto. apply conflicting_head in CO. subst m. apply F. apply in_map_iff. exists (DictKey (KStr n), c). auto.
  - set (sub := match find_item (DictKey (KStr n)) cs with Some s => s | None => Node KDict [] end).
    assert (LS : loose sub). { unfold sub. destruct (find_item (DictKey (KStr n)) cs) as [s|] eqn:F; [|left; auto]. apply find_item_in in F; auto. right. apply (C _ _ F). }
    assert (US : forall k u, under sub k u <-> under (Node KDict cs) (n :: k) u).
    { intros k u. rewrite under_node by auto. unfold sub. destruct (find_item (DictKey (KStr n)) cs) as [s|] eqn:F.
      - apply find_item_in in F; auto. split; [intros U; exists n, s, k; auto|]. intros (m & c & k' & E & I & U). injection E as <- <-. rewrite (same_child cs _ s c ND F I). auto.
      - apply find_item_none in F. split; [intros (p & A & _); inversion A; subst; contradiction|]. intros (m & c & k' & E & I & U). injection E as <- <-. exfalso. apply F. apply in_map_iff. exists (DictKey (KStr n), c). auto. }
    specialize (IH sub v ltac:(discriminate) LS). destruct (insert_names sub (n2 :: rest) (Leaf v)) as [s'|e]; cbn [rmap].
    + destruct IH as (G & U & NC). split; [auto|]. split.
      * intros k u. rewrite UP by auto. split.
        -- intros [(k' & -> & H)|(m & c & k' & -> & NE & I & H)].
           ++ apply U in H as [[-> ->]|H]; auto. right. apply US. auto.
           ++ right. apply under_node; auto. exists m, c, k'. auto.
        -- intros [[-> ->]|H].
           ++ left. exists (n2 :: rest). split; auto. apply U. auto.
           ++ assert (H' := H). apply under_node in H' as (m & c & k' & -> & I & H'); auto. destruct (string_dec m n) as [->|NE]; [|right; exists m, c, k'; auto].
              left. exists k'. split; auto. apply U. right. apply US. auto.
      * intros k u H CO. assert (H' := H). apply under_node in H' as (m & c & k' & -> & I & H'); auto. assert (m = n) by (eapply conflicting_head; eauto). subst m. apply conflicting_cons in CO. eapply NC; [apply US; eauto|auto].
    + destruct IH as (k & u & U & CO). exists (n :: k), u. split; [apply US; auto|]. apply conflicting_cons. auto.
Qed.

Lemma insert_all_ok : forall {V : Type} (l : list (list string * tree V)) (t : tree V), Forall (fun x => fst x <> [] /\ exists v, snd x = Leaf v) l -> NoDup (map fst l) -> loose t ->
  (forall k u, under t k u -> ~ In k (map fst l)) ->
  match insert_names_all t l with
  | Ok t' => loose t' /\ (forall k u, under t' k u <-> In (k, Leaf u) l \/ under t k u) /\
     (forall k u k' u', In (k, Leaf u) l -> (In (k', Leaf u') l \/ under t k' u') -> k <> k' -> ~ conflicting k' k)
  | Err e => exists k u k' u', In (k, Leaf u) l /\ (In (k', Leaf u') l \/ under t k' u') /\ k <> k' /\ conflicting k' k
  end.
Proof.
  intros V l. induction l as [|[k w] l IH]; intros t F N LO D; cbn [insert_names_all].
  - spl; auto. intros k u. simpl. tauto.
  - inversion_clear F as [|? ? (NK & v & E) F2]. cbn [fst snd] in *. subst w. inversion_clear N as [|? ? N1 N2]. assert (IO := insert_ok k t v NK LO). destruct (insert_names t k (Leaf v)) as [t'|e]; cbn [rbind].
    + destruct IO as (G & U & NC). assert (D' : forall k2 u, under t' k2 u -> ~ In k2 (map fst l)).
      { intros k2 u H I. apply U in H as [[-> ->]|H]; auto. apply (D k2 u H). right. auto. }
      specialize (IH t' F2 N2 (or_intror G) D'). destruct (insert_names_all t' l) as [t2|e2].
      * destruct IH as (L2 & U2 & NC2). split; auto. split.
        -- intros k2 u. rewrite U2. rewrite U. simpl. split; [intros [H|[[-> ->]|H]]; auto|]. intros [[H|H]|H]; auto. injection H as <- <-. auto.
        -- intros k2 u2 k3 u3 [H|H] H3 NE CO.
           ++ injection H as <- <-. destruct H3 as [[H3|H3]|H3]; [congruence| |eapply NC; eauto].
              apply (NC2 k3 u3 k v); auto; [right; apply U; auto|]. destruct CO; [right|left]; auto.
           ++ apply (NC2 k2 u2 k3 u3); auto. destruct H3 as [[H3|H3]|H3]; [injection H3 as <- <-; right; apply U; auto|auto|right; apply U; auto].
      * destruct IH as (k2 & u2 & k3 & u3 & I2 & H3 & NE & CO). exists k2, u2, k3, u3. spl; auto; [right; auto|]. destruct H3 as [H3|H3]; [left; right; auto|]. apply U in H3 as [[-> ->]|H3]; auto. left. left. auto.
    + destruct IO as (k2 & u2 & U2 & CO). exists k, v, k2, u2. spl; auto; [left; auto|]. intros <-. apply (D k u2 U2). left. auto.
Qed.

Lemma loose_string_dicts : forall {V : Type} (t : tree V), loose t -> string_dicts t.
Proof.
  intros V t [->|G]; [constructor; constructor|]. induction t as [v|k cs F] using tree_ind'; [constructor|]. inversion_clear G as [|? N ND C]. constructor. rewrite Forall_forall in *. intros [x c] I. cbn [fst snd]. destruct (C x c I) as [(n & ->) G]. split; eauto. apply (F _ I). auto.
Qed.

Lemma from_flat_ok : forall {V : Type} (d : dict (list string) (tree V)), NoDup (map fst d) -> (forall k w, In (k, w) d -> exists v, w = Leaf v) ->
  match from_flat_dict d with
  | Ok t => string_dicts t /\ (forall k v, under t k v <-> In (k, Leaf v) d) /\ (forall k v k' v', In (k, Leaf v) d -> In (k', Leaf v') d -> k <> k' -> ~ extends k k')
  | Err e => exists k v k' v', In (k, Leaf v) d /\ In (k', Leaf v') d /\ k <> k' /\ extends k k'
  end.
Proof.
  intros V d N L. unfold from_flat_dict. destruct (dget names_eqb [] d) as [w|] eqn:G.
  - apply (dget_in names_eqb names_eqb_spec) in G; auto. destruct (L _ _ G) as (v & ->). destruct (Nat.eqb_spec (List.length d) 1) as [E|E].
    + destruct d as [|x [|? ?]]; try discriminate. destruct G as [->|[]]. split; [constructor|]. split.
      * intros k u. rewrite under_leaf. simpl. split; [intros [-> ->]; auto|]. intros [H|[]]. injection H as <- <-. auto.
      * intros k u k' u' [H|[]] [H'|[]]. injection H as <- <-. injection H' as <- <-. congruence.
    + assert (X : exists k u, In (k, Leaf u) d /\ k <> []).
      { apply in_split in G as (a & b & ->). destruct a as [|[k w] a]; [destruct b as [|[k w] b]; [contradiction E; auto|]|].
        - destruct (L k w) as (u & ->); [right; left; auto|]. exists k, u. split; [right; left; auto|]. intros ->. cbn in N. inversion_clear N as [|? ? N1 N2]. apply N1. left. auto.
        - destruct (L k w) as (u & ->); [left; auto|]. exists k, u. split; [left; auto|]. intros ->. cbn in N. inversion_clear N as [|? ? N1 N2]. apply N1. rewrite map_app. apply in_or_app. right. left. auto. }
      destruct X as (k & u & I & NE). exists [], v, k, u. spl; auto. exists k. auto.
  - apply (dget_none names_eqb names_eqb_spec) in G.
    assert (F : Forall (fun x => fst x <> [] /\ exists v, snd x = Leaf v) d).
    { apply Forall_forall. intros [k w] I. cbn [fst snd]. split; [|eauto]. intros ->. apply G. apply in_map_iff. exists ([], w). auto. }
    assert (NU : forall k (u : V), ~ under (Node KDict []) k u) by (intros k u (p & A & _); inversion A; subst; contradiction).
    assert (IA := insert_all_ok d (Node KDict []) F N (or_introl eq_refl) (fun k u H => False_ind _ (NU k u H))). destruct (insert_names_all (Node KDict []) d) as [t|e].
    + destruct IA as (LO & U & NC). split; [apply loose_string_dicts; auto|]. split.
      * intros k v. rewrite U. split; [intros [H|H]; auto; exfalso; eapply NU; eauto|auto].
      * intros k v k' v' H H' NE EX. apply (NC k v k' v'); auto. right. auto.
    + destruct IA as (k & u & k' & u' & I & H & NE & CO). destruct H as [H|H]; [|exfalso; eapply NU; eauto]. destruct CO as [CO|CO]; [exists k', u', k, u|exists k, u, k', u']; spl; auto.
Qed.

(** ** Merging and intersecting *)

Lemma last_under_snoc : forall {V : Type} (ts : list (tree V)) t k v, last_under (ts ++ [t]) k v <-> under t k v \/ ((forall w, ~ under t k w) /\ last_under ts k v).
Proof.
  intros V ts t k v. split.
  - intros H. inversion H as [pre t2 post k2 v2 U N E]; subst. destruct post as [|x post _] using rev_ind.
    + apply app_inj_tail in E as [_ ->]. auto.
    + rewrite app_comm_cons in E. rewrite app_assoc in E. apply app_inj_tail in E as [<- ->]. right. split; [intros w; apply N; apply in_or_app; right; left; auto|]. constructor; auto. intros t' w I. apply N. apply in_or_app. auto.
  - intros [U|[N H]]; [constructor; [auto|intros ? ? []]|]. inversion H as [pre t2 post k2 v2 U N2]; subst. rewrite <- app_assoc. cbn [app]. constructor; auto. intros t' w I. apply in_app_or in I as [I|[<-|[]]]; auto.
Qed.

Lemma merged_nodup : forall {V : Type} (ts : list (tree V)), NoDup (map fst (fold_left (ior names_eqb) (map (to_flat_dict false) ts) [])).
Proof.
  intros V ts. assert (G : forall d : dict (list string) (tree V), NoDup (map fst d) -> NoDup (map fst (fold_left (ior names_eqb) (map (to_flat_dict false) ts) d))).
  { induction ts as [|t ts IH]; intros d N; auto. cbn [map fold_left]. apply IH. unfold ior. generalize (to_flat_dict false t). intros e. revert d N. induction e as [|[k v] e IHe]; intros d N; auto. cbn [fold_left fst snd]. apply IHe. apply dput_nodup; auto. apply names_eqb_spec. }
  apply G. constructor.
Qed.

Lemma flat_nodup : forall {V : Type} (t : tree V), wf t -> NoDup (map fst (to_flat_dict false t)).
Proof. intros V t W. rewrite to_flat_eq by auto. apply named_nodup. auto. Qed.

Lemma under_dec : forall {V : Type} (t : tree V) k, wf t -> (exists v, under t k v) \/ (forall v, ~ under t k v).
Proof.
  intros V t k W. destruct (dget names_eqb k (to_flat_dict false t)) as [w|] eqn:E; [apply flat_get in E as (v & _ & U); auto; eauto|]. right. intros v U. assert (E2 : dget names_eqb k (to_flat_dict false t) = Some (Leaf v)) by (apply flat_get; eauto). congruence.
Qed.

Lemma merged_get : forall {V : Type} (ts : list (tree V)) k w, Forall wf ts ->
  (dget names_eqb k (fold_left (ior names_eqb) (map (to_flat_dict false) ts) []) = Some w <-> exists v, w = Leaf v /\ last_under ts k v).
Proof.
  intros V ts. induction ts as [|t ts IH] using rev_ind; intros k w F.
  - cbn. split; [discriminate|]. intros (v & _ & H). inversion H as [pre t post ? ? ? ? E]. destruct pre; discriminate.
  - apply Forall_app in F as [F1 F2]. inversion_clear F2 as [|? ? W _]. rewrite map_app. cbn [map]. rewrite fold_left_app. cbn [fold_left]. change (ior names_eqb ?d ?e) with (update d e). rewrite update_get by (apply flat_nodup; auto).
    destruct (dget names_eqb k (to_flat_dict false t)) as [w2|] eqn:G.
    + apply flat_get in G as (u & -> & U); auto. split.
      * intros E. injection E as <-. exists u. split; auto. apply last_under_snoc. auto.
      * intros (v & -> & H). apply last_under_snoc in H as [H|[N _]]; [|exfalso; eapply N; eauto]. assert (E1 : dget names_eqb k (to_flat_dict false t) = Some (Leaf v)) by (apply flat_get; eauto). assert (E2 : dget names_eqb k (to_flat_dict false t) = Some (Leaf u)) by (apply flat_get; eauto). congruence.
    + rewrite IH by auto. assert (N : forall v, ~ under t k v) by (intros v U; assert (E2 : dget names_eqb k (to_flat_dict false t) = Some (Leaf v)) by (apply flat_get; eauto); congruence).
      split; intros (v & -> & H); exists v; split; auto; [apply last_under_snoc; auto|]. apply last_under_snoc in H as [H|[_ H]]; auto. exfalso. eapply N; eauto.
Qed.

Lemma under_prefix : forall {V : Type} (t : tree V), wf t -> forall k v k' v', under t k v -> under t k' v' -> extends k k' -> k = k'.
Proof.
  intros V t. induction t as [u|kd cs F] using tree_ind'; intros W k v k' v' U U' EX.
  - apply under_leaf in U as [-> _]. apply under_leaf in U' as [-> _]. auto.
  - inversion_clear W as [|? ? W1 W2]. destruct U as (p & A & <-). destruct U' as (p' & A' & <-). inversion A as [|? ? x c q ? I B]; subst. inversion A' as [|? ? x' c' q' ? I' B']; subst.
    destruct EX as (r & E). cbn in E. injection E as E1 E2. assert (x' = x) by (apply (names_inj kd (map fst cs) W1); auto; [apply in_map_iff; exists (x', c'); auto|apply in_map_iff; exists (x, c); auto]). subst x'.
    assert (c' = c) by (eapply same_child; eauto; eapply keys_nodup; eauto). subst c'. cbn. f_equal. rewrite Forall_forall in F, W2. apply (F (x, c) I (W2 _ I) _ v _ v'); [exists q; auto|exists q'; auto|exists r; auto].
Qed.

Lemma common_get : forall {V : Type} (ts : list (tree V)) (last : tree V) k w, Forall wf ts -> wf last ->
  (dget names_eqb k (filter (fun x => forallb (has_key (fst x)) (map (to_flat_dict false) ts)) (to_flat_dict false last)) = Some w <-> exists v, w = Leaf v /\ under last k v /\ common ts k).
Proof.
  intros V ts last k w F W. rewrite (filter_get (fun k => forallb (has_key k) (map (to_flat_dict false) ts))).
  assert (H : forallb (has_key k) (map (to_flat_dict false) ts) = true <-> common ts k).
  { rewrite forallb_forall. unfold common. rewrite Forall_forall in F. split.
    - intros H t I. specialize (H (to_flat_dict false t) (in_map _ _ _ I)). unfold has_key in H. destruct (dget names_eqb k (to_flat_dict false t)) as [w2|] eqn:G; [|discriminate]. apply flat_get in G as (v & _ & U); eauto.
    - intros H d I. apply in_map_iff in I as (t & <- & I). destruct (H t I) as (v & U). unfold has_key. assert (E : dget names_eqb k (to_flat_dict false t) = Some (Leaf v)) by (apply flat_get; eauto). rewrite E. auto. }
  destruct (forallb (has_key k) (map (to_flat_dict false) ts)).
  - rewrite flat_get by auto. split; intros (v & E & U); exists v; spl; auto; [apply H; auto|destruct U; auto].
  - split; [discriminate|]. intros (v & _ & _ & C). apply H in C. discriminate.
Qed.
