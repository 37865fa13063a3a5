(** Proofs about restoring with transforms. *)
From Coq Require Import List Bool Arith String Lia.
From Verif Require Import Base StepName_Model Tree_Model Transform_Model Restore_Model Restore_Spec.
Import ListNotations.

Lemma seq_f2 : forall {A B} (f : A -> result B) l ys, sequence (map f l) = Ok ys -> Forall2 (fun x y => f x = Ok y) l ys.
Proof.
  intros A B f l. induction l as [|x l IH]; cbn; intros ys H.
  - injection H as <-. constructor.
  - destruct (f x) as [y|] eqn:E; cbn in H; [|discriminate]. destruct (sequence (map f l)) as [zs|] eqn:Es; cbn in H; [|discriminate].
    injection H as <-. constructor; auto.
Qed.

Lemma dget_map : forall {X Y} (g : X -> Y) k (d : dict string X), dget String.eqb k (map (fun x => (fst x, g (snd x))) d) = match dget String.eqb k d with Some x => Some (g x) | None => None end.
Proof.
  intros X Y g k d. induction d as [|[k' x] d IH]; cbn; [reflexivity|]. destruct (String.eqb k k'); [reflexivity|exact IH].
Qed.

Lemma dget_in : forall {X} k (d : dict string X) x, dget String.eqb k d = Some x -> In (k, x) d.
Proof.
  intros X k d x. induction d as [|[k' y] d IH]; cbn; [discriminate|]. destruct (String.eqb_spec k k') as [->|]; [intros [= ->]; now left|intros H; right; auto].
Qed.

Lemma dget_key : forall {X} k (d : dict string X), In k (map fst d) -> exists x, dget String.eqb k d = Some x.
Proof.
  intros X k d. induction d as [|[k' y] d IH]; cbn; [intros []|]. destruct (String.eqb_spec k k') as [->|N]; [eauto|]. intros [E|H]; [now subst|auto].
Qed.

Section Fix.
  Context {V A : Type} (fm : matcher) (outs : list string) (args : dict string A).

  Lemma find_input_hit : forall key ins (r : option (option A)), find_input fm key ins = Ok r -> (exists re a e, In (re, a) ins /\ fm re key = Ok (Some e)) -> exists a re e, r = Some a /\ In (re, a) ins /\ fm re key = Ok (Some e).
  Proof.
    intros key ins. induction ins as [|[re0 a0] ins IH]; cbn; intros r H (re & a & e & I & M); [destruct I|].
    destruct (fm re0 key) as [[ex|]|] eqn:E; cbn in H; [| |discriminate].
    - injection H as <-. exists a0, re0, ex. auto.
    - destruct I as [[= -> ->]|I]; [congruence|]. destruct (IH _ H) as (a' & re' & e' & -> & I' & M'); [eauto|]. exists a', re', e'. auto.
  Qed.

  Lemma find_input_origin : forall key ins (a : option A), find_input fm key ins = Ok (Some a) -> exists re e, In (re, a) ins /\ fm re key = Ok (Some e).
  Proof.
    intros key ins. induction ins as [|[re0 a0] ins IH]; cbn; intros a H; [discriminate|].
    destruct (fm re0 key) as [[ex|]|] eqn:E; cbn in H; [| |discriminate].
    - injection H as <-. eauto.
    - destruct (IH _ H) as (re & e & I & M). eauto.
  Qed.

  Definition source (orig : option string) (o : string) (expand : string -> result string) (key : string) : Prop := match orig with None => key = o | Some r => expand r = Ok key end.

  Lemma source_eq : forall orig o expand key, source orig o expand key <-> (match orig with None => Ok o | Some k => expand k end) = Ok key.
  Proof. intros [r|] o expand key; cbn; split; congruence. Qed.

  Lemma find_output_hit : forall key p orig l (r : option A), find_output fm key p orig args l = Ok r ->
    forall o e, In o l -> fm p o = Ok (Some e) -> source orig o e key -> exists a, r = Some a.
  Proof.
    intros key p orig l. induction l as [|o0 l IH]; cbn; intros r H o e I M S0; [destruct I|].
    destruct (fm p o0) as [[ex|]|] eqn:E; cbn in H; [| |discriminate].
    - destruct (match orig with None => Ok o0 | Some k => ex k end) as [k|] eqn:Ek; cbn in H; [|discriminate].
      destruct (String.eqb_spec k key) as [->|N].
      + destruct (item_at o0 args); cbn in H; [injection H as <-; eauto|discriminate].
      + destruct I as [->|I]; [|eapply IH; eauto].
        apply source_eq in S0. rewrite E in M. injection M as <-. congruence.
    - destruct I as [->|I]; [congruence|eapply IH; eauto].
  Qed.

  Lemma find_output_origin : forall key p orig l (a : A), find_output fm key p orig args l = Ok (Some a) ->
    exists o e, In o l /\ fm p o = Ok (Some e) /\ source orig o e key /\ dget String.eqb o args = Some a.
  Proof.
    intros key p orig l. induction l as [|o0 l IH]; cbn; intros a H; [discriminate|].
    destruct (fm p o0) as [[ex|]|] eqn:E; cbn in H; [| |discriminate].
    - destruct (match orig with None => Ok o0 | Some k => ex k end) as [k|] eqn:Ek; cbn in H; [|discriminate].
      destruct (String.eqb_spec k key) as [->|N].
      + unfold item_at in H. destruct (dget String.eqb o0 args) as [x|] eqn:Ex; cbn in H; [|discriminate]. injection H as <-.
        exists o0, ex. repeat split; auto. now apply source_eq.
      + destruct (IH _ H) as (o & e & I & R). exists o, e. auto.
    - destruct (IH _ H) as (o & e & I & R). exists o, e. auto.
  Qed.

  Definition hit (key : string) (x : string * rtransform V A) : Prop :=
    (t_multi (snd x) <> None /\ (t_inputs (snd x) = None \/ exists ins re a e, t_inputs (snd x) = Some ins /\ In (re, a) ins /\ fm re key = Ok (Some e)))
    \/ (t_multi (snd x) = None /\ t_fallback (snd x) = false /\ exists o e, In o outs /\ fm (fst x) o = Ok (Some e) /\ source (t_original (snd x)) o e key).

  Lemma find_matching_hit : forall key (ts : dict string (rtransform V A)) r, find_matching fm key outs args ts = Ok r -> inputs_given ts -> (exists x, In x ts /\ hit key x) -> exists a, r = Some a.
  Proof.
    intros key ts. induction ts as [|[p t] ts IH]; cbn; intros r H G (x & I & Hx); [destruct I|].
    assert (G' : inputs_given ts) by (intros p' t' ins' r' I'; apply (G p' t'); now right).
    destruct (t_multi t) as [f|] eqn:Em.
    - destruct (t_restore t); cbn in H; [|discriminate]. destruct (t_inputs t) as [ins|] eqn:Ei; [|discriminate].
      destruct (find_input fm key ins) as [[a|]|] eqn:Ef; cbn in H; [| |discriminate].
      + injection H as <-. destruct (find_input_origin _ _ _ Ef) as (re & e & I' & M).
        destruct a as [a|]; [eauto|]. exfalso. exact (G p t ins re (or_introl eq_refl) Ei I').
      + destruct I as [<-|I]; [|apply (IH _ H G'); eauto]. cbn in Hx. destruct Hx as [(N & [E|(ins' & re & a & e & E & I' & M)])|(E & _)]; cbn in *; try congruence.
        rewrite Ei in E. injection E as <-. destruct (find_input_hit _ _ _ Ef) as (a' & _ & _ & E' & _); [eauto|discriminate].
    - destruct (t_fallback t) eqn:Ef0; cbn in H.
      + destruct I as [<-|I]; [|apply (IH _ H G'); eauto]. destruct Hx as [(N & _)|(_ & E & _)]; cbn in *; congruence.
      + destruct (find_output fm key p (t_original t) args outs) as [[a|]|] eqn:Ef; cbn in H; [| |discriminate].
        * injection H as <-. eauto.
        * destruct I as [<-|I]; [|apply (IH _ H G'); eauto]. destruct Hx as [(N & _)|(_ & _ & o & e & I' & M & S0)]; cbn in *; [congruence|].
          destruct (find_output_hit _ _ _ _ _ Ef _ _ I' M S0). discriminate.
  Qed.

  Lemma find_matching_origin : forall key (ts : dict string (rtransform V A)) a, find_matching fm key outs args ts = Ok (Some a) ->
    declares fm ts key a \/ exists o, In o outs /\ draws fm ts o key /\ dget String.eqb o args = Some a.
  Proof.
    intros key ts. induction ts as [|[p t] ts IH]; cbn; intros a H; [discriminate|].
    assert (L : (declares fm ts key a \/ exists o, In o outs /\ draws fm ts o key /\ dget String.eqb o args = Some a) ->
                declares fm ((p, t) :: ts) key a \/ exists o, In o outs /\ draws fm ((p, t) :: ts) o key /\ dget String.eqb o args = Some a).
    { intros [(p' & t' & ins & r & e & I & R)|(o & I & (p' & t' & e & I' & R) & D)]; [left|right].
      - exists p', t', ins, r, e. split; [now right|exact R].
      - exists o. repeat split; auto. exists p', t', e. split; [now right|exact R]. }
    destruct (t_multi t) as [f|] eqn:Em.
    - destruct (t_restore t); cbn in H; [|discriminate]. destruct (t_inputs t) as [ins|] eqn:Ei; [|discriminate].
      destruct (find_input fm key ins) as [[a'|]|] eqn:Ef; cbn in H; [| |discriminate]; [|auto].
      injection H as ->. destruct (find_input_origin _ _ _ Ef) as (re & e & I' & M). left. exists p, t, ins, re, e. repeat split; auto; [now left|congruence].
    - destruct (t_fallback t) eqn:Ef0; cbn in H; [auto|].
      destruct (find_output fm key p (t_original t) args outs) as [[a'|]|] eqn:Ef; cbn in H; [| |discriminate]; [|auto].
      injection H as ->. destruct (find_output_origin _ _ _ _ _ Ef) as (o & e & I & M & S0 & D). right. exists o. repeat split; auto.
      exists p, t, e. repeat split; auto. now left.
  Qed.

  Lemma has_fallback_ok : forall key (ts : dict string (rtransform V A)) found b, has_fallback fm key ts found = Ok b ->
    (b = true <-> found = true \/ exists p t e, In (p, t) ts /\ fm p key = Ok (Some e) /\ t_fallback t = true).
  Proof.
    intros key ts. induction ts as [|[p t] ts IH]; cbn; intros found b H.
    - injection H as <-. split; [auto|]. intros [H|(p & t & e & [] & _)]; auto.
    - destruct (fm p key) as [m|] eqn:E; cbn in H; [|discriminate]. rewrite (IH _ _ H). clear IH H. split.
      + intros [H|(p' & t' & e & I & M & F)]; [|right; exists p', t', e; auto].
        destruct m as [e|]; cbn in H; [|auto]. destruct (t_fallback t) eqn:F; [|auto]. right. exists p, t, e. auto.
      + intros [->|(p' & t' & e & [[= -> ->]|I] & M & F)].
        * left. destruct (negb (is_none m) && t_fallback t); reflexivity.
        * left. rewrite E in M. injection M as ->. cbn. now rewrite F.
        * right. exists p', t', e. auto.
  Qed.

  Variable none : A.
  Variable dflt : bool.
  Variable ts : dict string (rtransform V A).

  Definition fallback_for (key : string) : Prop := exists p t e, In (p, t) ts /\ fm p key = Ok (Some e) /\ t_fallback t = true.

  Lemma existsb_in : forall k l, existsb (String.eqb k) l = true <-> In k l.
  Proof.
    intros k l. rewrite existsb_exists. split; [intros (x & I & E); apply String.eqb_eq in E; now subst|intros I; exists k; now rewrite String.eqb_refl].
  Qed.

  Lemma tp_key : forall k (e : entry V) y, transform_param fm none dflt outs args ts (k, e) = Ok y -> fst y = k.
  Proof.
    intros k e y H. unfold transform_param in H. cbn [fst snd] in H.
    destruct (find_matching fm k outs args ts) as [[a|]|]; cbn in H; [injection H as <-; reflexivity| |discriminate].
    destruct (existsb (String.eqb k) outs); [|injection H as <-; reflexivity].
    destruct (has_fallback fm k ts false) as [[|]|]; cbn in H; [| |discriminate]; destruct dflt; cbn in H; try (injection H as <-; reflexivity);
      destruct (item_at k args); cbn in H; try discriminate; injection H as <-; reflexivity.
  Qed.

  Lemma tp_loaded : forall k (e : entry V) y, transform_param fm none dflt outs args ts (k, e) = Ok y -> inputs_given ts ->
    (exists x, In x ts /\ hit k x) \/ (In k outs /\ dflt = false /\ fallback_for k) \/ (In k outs /\ dflt = true /\ ~ fallback_for k) ->
    fst (snd y) = skips e.
  Proof.
    intros k e y H G N. unfold transform_param in H. cbn [fst snd] in H.
    destruct (find_matching fm k outs args ts) as [[a|]|] eqn:Ef; cbn in H; [injection H as <-; reflexivity| |discriminate].
    destruct N as [N|N]; [destruct (find_matching_hit _ _ _ Ef G N); discriminate|].
    assert (I : In k outs) by tauto. apply existsb_in in I. rewrite I in H.
    destruct (has_fallback fm k ts false) as [b|] eqn:Eb; cbn in H; [|discriminate].
    pose proof (has_fallback_ok _ _ _ _ Eb) as B. fold (fallback_for k) in B.
    destruct N as [(_ & -> & F)|(_ & -> & F)]; destruct b; cbn in H;
      try (destruct (item_at k args); cbn in H; [injection H as <-; reflexivity|discriminate]).
    - exfalso. assert (false = true) by tauto. discriminate.
    - exfalso. destruct B as [B _]. destruct (B eq_refl) as [B'|B']; [discriminate|tauto].
  Qed.

  Lemma tp_origin : forall k (e : entry V) s a, transform_param fm none dflt outs args ts (k, e) = Ok (k, (s, a)) ->
    (s = true /\ a = none /\ find_matching fm k outs args ts = Ok None /\ (In k outs -> dflt = true <-> fallback_for k)) \/
    (s = skips e /\ (declares fm ts k a \/ (exists o, In o outs /\ draws fm ts o k /\ dget String.eqb o args = Some a)
    \/ (In k outs /\ dget String.eqb k args = Some a /\ (dflt = true <-> ~ fallback_for k)))).
  Proof.
    intros k e s a H. unfold transform_param in H. cbn [fst snd] in H.
    destruct (find_matching fm k outs args ts) as [[a'|]|] eqn:Ef; cbn in H; [| |discriminate].
    - injection H as <- ->. right. split; [reflexivity|]. destruct (find_matching_origin _ _ _ Ef); auto.
    - destruct (existsb (String.eqb k) outs) eqn:I.
      + apply existsb_in in I. destruct (has_fallback fm k ts false) as [b|] eqn:Eb; cbn in H; [|discriminate].
        pose proof (has_fallback_ok _ _ _ _ Eb) as B. fold (fallback_for k) in B. unfold item_at in H.
        assert (B' : b = true <-> fallback_for k) by (rewrite B; split; [intros [C|C]; [discriminate|exact C]|now right]). clear B.
        destruct b, dflt; cbn in H; try (destruct (dget String.eqb k args) as [x|]; cbn in H; [|discriminate]); injection H as <- <-.
        * left. repeat split; auto; intros; tauto.
        * right. split; [reflexivity|]. right; right. repeat split; auto; [discriminate|]. intros NF. exfalso. tauto.
        * right. split; [reflexivity|]. right; right. repeat split; auto. intros _ F. assert (false = true) by tauto. discriminate.
        * left. repeat split; auto; intros C; try discriminate C. tauto.
      + injection H as <- <-. left. do 3 (split; [auto|]). intros I'. apply existsb_in in I'. congruence.
  Qed.

  Variable store : string -> A -> V.
  Variable cast : V -> A -> V.
  Variable st : dict string (entry V).
  Variable ps : dict string (param A).
  Hypothesis params : Forall2 (fun x y => transform_param fm none dflt outs args ts x = Ok y) st ps.

  Lemma leaf_read : forall k (e : entry V) p, fst p = skips e -> read_leaf store cast k e p = Read (value_of store cast k e (snd p)).
  Proof. intros k [|v] [s a]; cbn; [intros ->|]; reflexivity. Qed.

  Lemma same_at : forall k, (forall (e : entry V) y, transform_param fm none dflt outs args ts (k, e) = Ok y -> fst (snd y) = skips e) ->
    dget String.eqb k (deserialize store cast st ps) = dget String.eqb k (whole store cast st ps).
  Proof.
    intros k H. induction params as [|[k' e] [k'' p] l l' E F IH]; [reflexivity|]. cbn. destruct (String.eqb_spec k k') as [->|N]; [|auto].
    f_equal. apply leaf_read. exact (H _ _ E).
  Qed.

  Lemma same_all : (forall k (e : entry V) y, transform_param fm none dflt outs args ts (k, e) = Ok y -> fst (snd y) = skips e) -> deserialize store cast st ps = whole store cast st ps.
  Proof.
    intros H. induction params as [|[k' e] [k'' p] l l' E F IH]; [reflexivity|]. cbn. f_equal; [|auto]. f_equal. apply leaf_read. exact (H _ _ _ E).
  Qed.

  Lemma same_keys : map fst (deserialize store cast st ps) = map fst (whole store cast st ps).
  Proof. induction params as [|[k' e] [k'' p] l l' E F IH]; [reflexivity|]. cbn. f_equal. auto. Qed.

  Hypothesis given : inputs_given ts.
  Hypothesis looks : functions_look_at_inputs fm ts.

  Lemma multi_same : forall p t f o a, In (p, t) ts -> t_multi t = Some f -> f o (as_tree (deserialize store cast st ps)) a = f o (as_tree (whole store cast st ps)) a.
  Proof.
    intros p t f o a I M. destruct (t_inputs t) as [ins|] eqn:Ei.
    - apply (looks p t f ins I M Ei); [exact same_keys|]. intros r b key e I' Mk. apply same_at. intros en y H. eapply tp_loaded; eauto.
      left. exists (p, t). split; auto. left. cbn. split; [congruence|]. right. exists ins, r, b, e. auto.
    - rewrite same_all; [reflexivity|]. intros k e y H. eapply tp_loaded; eauto. left. exists (p, t). split; auto. left. cbn. split; [congruence|auto].
  Qed.

  Let leafed (d : dict string (got V)) := map (fun x => (fst x, Leaf (snd x))) d.
  Let wrapped (l : dict string (rtransform V A)) := map (fun x => (fst x, wrap args (snd x))) l.

  Lemma leafed_at : forall k, (forall (e : entry V) y, transform_param fm none dflt outs args ts (k, e) = Ok y -> fst (snd y) = skips e) ->
    dget String.eqb k (leafed (deserialize store cast st ps)) = dget String.eqb k (leafed (whole store cast st ps)).
  Proof. intros k H. unfold leafed. rewrite !dget_map, same_at; auto. Qed.

  Lemma tk_same : forall key, In key outs -> forall l, (forall x, In x l -> In x ts) -> forall v found,
    transform_key fm dflt (as_tree (deserialize store cast st ps)) (leafed (deserialize store cast st ps)) key (wrapped l) v found
    = transform_key fm dflt (as_tree (whole store cast st ps)) (leafed (whole store cast st ps)) key (wrapped l) v found.
  Proof.
    intros key Ik l. induction l as [|[p t] l IH]; intros L v found; [reflexivity|].
    assert (IH' : forall v found, _) by (intros v0 f0; exact (IH (fun x I => L x (or_intror I)) v0 f0)). clear IH.
    pose proof (L _ (or_introl eq_refl)) as I. cbn [wrapped map fst snd transform_key].
    destruct (fm p key) as [[e|]|] eqn:E; cbn [rbind]; [| |reflexivity]; [|apply IH'].
    remember (wrap args t) as w eqn:Ew. unfold wrap in Ew. destruct (t_multi t) as [f|] eqn:Em; subst w; cbn [use_fallback multi_value_fn value_fn is_none orb negb original_key].
    - destruct (item_at key args) as [a|]; cbn [rbind]; [|reflexivity].
      rewrite (multi_same p t f key a I Em). destruct (f key _ a); cbn [rbind]; [apply IH'|reflexivity].
    - destruct (t_fallback t) eqn:Ef.
      + destruct (negb dflt) eqn:Ed; [|apply IH']. apply negb_true_iff in Ed. rewrite leafed_at.
        * destruct (dget String.eqb key _); [apply IH'|reflexivity].
        * intros en y H. eapply tp_loaded; eauto. right; left. repeat split; auto. exists p, t, e. auto.
      + destruct (match t_original t with None => Ok key | Some k => e k end) as [k|] eqn:Ek; cbn [rbind]; [|reflexivity].
        rewrite leafed_at.
        * destruct (dget String.eqb k _) as [x|]; [|reflexivity]. destruct (match t_value t with Some (One f) => Some f | Some (Two _) => Some (fun _ => Err TypeError) | None => None end) as [f|].
          -- destruct (f x); cbn [rbind]; [apply IH'|reflexivity].
          -- cbn [rbind]. apply IH'.
        * intros en y H. eapply tp_loaded; eauto. left. exists (p, t). split; auto. right. cbn. repeat split; auto. exists key, e. repeat split; auto. now apply source_eq.
  Qed.

  Lemma tk_unfound : forall (tr : tree (got V)) org key l v o, transform_key fm dflt tr org key (wrapped l) v false = Ok o -> snd o = false -> forall p t, In (p, t) l -> fm p key = Ok None.
  Proof.
    assert (K : forall (tr : tree (got V)) org key l v o, transform_key fm dflt tr org key (wrapped l) v true = Ok o -> snd o = true).
    { intros tr org key l. induction l as [|[p t] l IH]; intros v o H; cbn [wrapped map fst snd transform_key] in H; [now injection H as <-|].
      destruct (fm p key) as [[e|]|]; cbn [rbind] in H; [| |discriminate]; [|eauto].
      destruct (use_fallback _).
      - destruct (negb dflt); [destruct (dget String.eqb key org); [|discriminate]|]; eauto.
      - destruct (negb _); [discriminate|]. destruct (multi_value_fn _) as [f|].
        + destruct (f key tr); cbn [rbind] in H; [eauto|discriminate].
        + destruct (match original_key _ with None => Ok key | Some k => e k end) as [k|]; cbn [rbind] in H; [|discriminate].
          destruct (dget String.eqb k org) as [x|]; [|discriminate]. destruct (match value_fn _ with None => Ok x | Some f => f x end); cbn [rbind] in H; [eauto|discriminate]. }
    intros tr org key l. induction l as [|[p t] l IH]; intros v o H N p' t' I; [destruct I|]. cbn [wrapped map fst snd transform_key] in H.
    destruct (fm p key) as [[e|]|] eqn:E; cbn [rbind] in H; [| |discriminate].
    - exfalso. cut (snd o = true); [congruence|]. destruct (use_fallback _).
      + destruct (negb dflt); [destruct (dget String.eqb key org); [|discriminate]|]; eapply K; exact H.
      + destruct (negb _); [discriminate|]. destruct (multi_value_fn _) as [f|].
        * destruct (f key tr); cbn [rbind] in H; [eapply K; exact H|discriminate].
        * destruct (match original_key _ with None => Ok key | Some k => e k end) as [k|]; cbn [rbind] in H; [|discriminate].
          destruct (dget String.eqb k org) as [x|]; [|discriminate]. destruct (match value_fn _ with None => Ok x | Some f => f x end); cbn [rbind] in H; [eapply K; exact H|discriminate].
    - destruct I as [[= <- <-]|I]; [exact E|eauto].
  Qed.

  Lemma new_same : forall x, In (fst x) outs ->
    new_value fm dflt (as_tree (deserialize store cast st ps)) (leafed (deserialize store cast st ps)) (wrapped ts) x
    = new_value fm dflt (as_tree (whole store cast st ps)) (leafed (whole store cast st ps)) (wrapped ts) x.
  Proof.
    intros x I. unfold new_value. rewrite (tk_same _ I ts (fun _ H => H)).
    destruct (transform_key fm dflt _ (leafed (whole store cast st ps)) (fst x) (wrapped ts) (snd x) false) as [o|] eqn:E; cbn; [|reflexivity].
    destruct (snd o) eqn:Eo; [reflexivity|]. assert (Ed : dflt = true \/ dflt = false) by (destruct dflt; auto). destruct Ed as [Ed|Ed].
    - rewrite leafed_at; [reflexivity|]. intros e y H. eapply tp_loaded; eauto. right; right. repeat split; auto.
      intros (p & t & e' & I' & M & _). pose proof (tk_unfound _ _ _ _ _ _ E Eo _ _ I'). congruence.
    - rewrite Ed. unfold leafed. rewrite !dget_map. destruct (dget String.eqb (fst x) (deserialize store cast st ps)), (dget String.eqb (fst x) (whole store cast st ps)); reflexivity.
  Qed.

  Lemma apply_same : forall item : dict string V, (forall x, In x item -> In (fst x) outs) ->
    apply_flat fm dflt (deserialize store cast st ps) ts args item = apply_flat fm dflt (whole store cast st ps) ts args item.
  Proof.
    intros item H. unfold apply_flat. fold (leafed (deserialize store cast st ps)). fold (leafed (whole store cast st ps)). fold (wrapped ts). f_equal. apply map_ext_in. intros x I. apply in_map_iff in I. destruct I as (y & <- & I).
    apply new_same. cbn. auto.
  Qed.
End Fix.

Lemma no_functions_given : forall {V A : Type} (ts : dict string (rtransform V A)), (forall p t, In (p, t) ts -> t_multi t <> None \/ t_inputs t = None) -> no_functions ts -> inputs_given ts.
Proof.
  intros V A ts M N p t ins r I E. destruct (N _ _ I) as [_ E2]. destruct (M _ _ I); congruence.
Qed.

Lemma whole_at : forall {V A : Type} (store : string -> A -> V) cast st (ps : dict string (param A)) k g, dget String.eqb k (whole store cast st ps) = Some g -> map fst st = map fst ps ->
  exists e p, In (k, e) st /\ In (k, p) ps /\ dget String.eqb k st = Some e /\ dget String.eqb k ps = Some p /\ g = Read (value_of store cast k e (snd p)).
Proof.
  intros V A store cast st. induction st as [|[k' e] st IH]; intros [|[k'' p] ps] k g H E; cbn in *; try discriminate.
  injection E as <- E. destruct (String.eqb_spec k k') as [->|N].
  - injection H as <-. exists e, p. auto 10.
  - destruct (IH _ _ _ H E) as (e' & p' & I1 & I2 & D1 & D2 & ->). exists e', p'. auto 10.
Qed.

Lemma params_keys : forall {V A : Type} fm none dflt outs (args : dict string A) (ts : dict string (rtransform V A)) st ps,
  Forall2 (fun x y => transform_param fm none dflt outs args ts x = Ok y) st ps -> map fst st = map fst ps.
Proof.
  intros V A fm none dflt outs args ts st ps H. induction H as [|[k e] y l l' E F IH]; cbn; [reflexivity|]. rewrite (tp_key _ _ _ _ _ _ _ _ _ E). now rewrite IH.
Qed.

Lemma seq_keys : forall {A B : Type} (f : string * A -> result (string * B)) l r, (forall x y, f x = Ok y -> fst y = fst x) -> sequence (map f l) = Ok r -> map fst r = map fst l.
Proof.
  intros A B f l r K H. apply seq_f2 in H. induction H as [|x y l l' E F IH]; cbn; [reflexivity|]. now rewrite (K _ _ E), IH.
Qed.

Lemma f2_in_r : forall {A B : Type} (P : A -> B -> Prop) l m, Forall2 P l m -> forall y, In y m -> exists x, In x l /\ P x y.
Proof. intros A B P l m H. induction H as [|x y l m p F IH]; intros z I; [destruct I|]. destruct I as [<-|I]; [exists x; split; auto; now left|]. destruct (IH _ I) as (w & I' & Q). exists w. split; auto. now right. Qed.

Lemma f2_in_l : forall {A B : Type} (P : A -> B -> Prop) l m, Forall2 P l m -> forall x, In x l -> exists y, In y m /\ P x y.
Proof. intros A B P l m H. induction H as [|x y l m p F IH]; intros z I; [destruct I|]. destruct I as [<-|I]; [exists y; split; auto; now left|]. destruct (IH _ I) as (w & I' & Q). exists w. split; auto. now right. Qed.

Lemma new_key : forall {V : Type} fm dflt tr org (ts : dict string (transform V)) x y, new_value fm dflt tr org ts x = Ok y -> fst y = fst x.
Proof.
  intros V fm dflt tr org ts x y H. unfold new_value in H. destruct (transform_key _ _ _ _ _ _ _ _) as [o|]; cbn in H; [|discriminate]. injection H as <-.
  destruct (snd o); [reflexivity|]. destruct (dget String.eqb (fst x) org); reflexivity.
Qed.

Lemma apply_keys : forall {V A : Type} fm dflt restored (ts : dict string (rtransform V A)) args item r, apply_flat fm dflt restored ts args item = Ok r -> map fst r = map fst item.
Proof.
  intros V A fm dflt restored ts args item r H. unfold apply_flat in H. apply seq_keys in H; [|intros x y; apply new_key]. rewrite H, map_map. apply map_ext. reflexivity.
Qed.

(** Where the value of an output comes from when there are no functions *)
Definition comes_from {V A : Type} (fm : matcher) (dflt : bool) (ts : dict string (rtransform V A)) (o key : string) : Prop :=
  draws fm ts o key \/ (key = o /\ dflt = false /\ fallback_for fm ts o) \/ (key = o /\ dflt = true /\ ~ fallback_for fm ts o).

Lemma tk_from : forall {V A : Type} fm dflt tr org (args : dict string A) (ts : dict string (rtransform V A)) key (P : tree (got V) -> Prop), no_functions ts ->
  (forall k t, comes_from fm dflt ts key k -> dget String.eqb k org = Some t -> P t) ->
  forall l, (forall x, In x l -> In x ts) -> forall v found o, P v -> transform_key fm dflt tr org key (map (fun x => (fst x, wrap args (snd x))) l) v found = Ok o -> P (fst o).
Proof.
  intros V A fm dflt tr org args ts key P N Q l. induction l as [|[p t] l IH]; intros L v found o Pv H; cbn [map fst snd transform_key] in H; [now injection H as <-|].
  pose proof (L _ (or_introl eq_refl)) as I. pose proof (fun v f => IH (fun x I => L x (or_intror I)) v f o) as IH'. clear IH.
  destruct (N _ _ I) as [N1 N2]. destruct (fm p key) as [[e|]|] eqn:E; cbn [rbind] in H; [| |discriminate]; [|eauto].
  remember (wrap args t) as w eqn:Ew. unfold wrap in Ew. rewrite N2, N1 in Ew. subst w. cbn [use_fallback multi_value_fn value_fn is_none orb negb original_key] in H. destruct (t_fallback t) eqn:Ef.
  - destruct (negb dflt) eqn:Ed; [|eauto]. apply negb_true_iff in Ed. destruct (dget String.eqb key org) as [x|] eqn:Ex; [|discriminate].
    eapply IH'; [|exact H]. eapply Q; [|exact Ex]. right; left. repeat split; auto. exists p, t, e. auto.
  - destruct (match t_original t with None => Ok key | Some k => e k end) as [k|] eqn:Ek; cbn [rbind] in H; [|discriminate].
    destruct (dget String.eqb k org) as [x|] eqn:Ex; [|discriminate]. cbn [rbind] in H. eapply IH'; [|exact H]. eapply Q; [|exact Ex].
    left. exists p, t, e. repeat split; auto. now apply source_eq.
Qed.

Lemma apply_values : forall {V A : Type} fm dflt restored (ts : dict string (rtransform V A)) args (item : dict string V) r, no_functions ts -> apply_flat fm dflt restored ts args item = Ok r ->
  forall k t, In (k, t) r -> (exists v, In (k, v) item /\ t = Leaf (Given v)) \/ exists k' g, comes_from fm dflt ts k k' /\ dget String.eqb k' restored = Some g /\ t = Leaf g.
Proof.
  intros V A fm dflt restored ts args item r N H k t I. unfold apply_flat in H. apply seq_f2 in H.
  destruct (f2_in_r _ _ _ H _ I) as (x & Ix & E). apply in_map_iff in Ix. destruct Ix as ([k0 v] & <- & Iv). cbn [fst snd] in *.
  pose proof (new_key _ _ _ _ _ _ _ E) as Ek. cbn in Ek. subst k0. unfold new_value in E. cbn [fst snd] in E.
  destruct (transform_key _ _ _ _ _ _ _ _) as [o|] eqn:Et; cbn in E; [|discriminate].
  set (P := fun t => (exists v, In (k, v) item /\ t = Leaf (Given v)) \/ exists k' g, comes_from fm dflt ts k k' /\ dget String.eqb k' restored = Some g /\ t = Leaf g).
  assert (Q : forall k' t', comes_from fm dflt ts k k' -> dget String.eqb k' (map (fun x : string * got V => (fst x, Leaf (snd x))) restored) = Some t' -> P t').
  { intros k' t' C D. rewrite dget_map in D. destruct (dget String.eqb k' restored) as [g|] eqn:Eg; [|discriminate]. injection D as <-. right. eauto. }
  assert (Po : P (fst o)) by (eapply (tk_from fm dflt _ _ args ts k P N Q ts (fun _ H => H)); [|exact Et]; left; eauto).
  fold (P t). destruct (snd o) eqn:Eo; [injection E as <-; exact Po|].
  destruct (dget String.eqb k (map _ restored)) as [t'|] eqn:Eg; [|injection E as <-; exact Po]. destruct dflt eqn:Ed; injection E as <-; [|exact Po].
  apply (Q k); [|exact Eg]. right; right. repeat split; auto. intros (p & t & e & It & M & _). pose proof (tk_unfound _ _ _ _ _ _ _ _ _ Et Eo _ _ It). congruence.
Qed.

Lemma deser_at : forall {V A : Type} (store : string -> A -> V) cast st (ps : dict string (param A)) k g, dget String.eqb k (deserialize store cast st ps) = Some g ->
  exists e p, In (k, e) st /\ In ((k, e), p) (combine st (map snd ps)) /\ g = read_leaf store cast k e p.
Proof.
  intros V A store cast st. induction st as [|[k' e] st IH]; intros [|[k'' p] ps] k g H; cbn in *; try discriminate.
  destruct (String.eqb_spec k k') as [->|N].
  - injection H as <-. exists e, p. auto.
  - destruct (IH _ _ _ H) as (e' & p' & I1 & I2 & ->). exists e', p'. auto.
Qed.

Lemma combine_param : forall {V A : Type} fm none dflt outs (args : dict string A) (ts : dict string (rtransform V A)) st ps,
  Forall2 (fun x y => transform_param fm none dflt outs args ts x = Ok y) st ps -> forall x p, In (x, p) (combine st (map snd ps)) -> transform_param fm none dflt outs args ts x = Ok (fst x, p).
Proof.
  intros V A fm none dflt outs args ts st ps H. induction H as [|x y l l' E F IH]; cbn; intros z p I; [destruct I|]. destruct I as [[= <- <-]|I]; [|auto].
  rewrite E. destruct x as [k e], y as [k' q]. pose proof (tp_key _ _ _ _ _ _ _ _ _ E) as K. cbn in K. now subst.
Qed.

Lemma needed_origin : forall {V A : Type} fm none dflt outs (args : dict string A) (ts : dict string (rtransform V A)) o key e s a,
  transform_param fm none dflt outs args ts (key, e) = Ok (key, (s, a)) -> inputs_given ts -> no_functions ts -> In o outs -> comes_from fm dflt ts o key ->
  s = skips e /\ exists o', In o' outs /\ (draws fm ts o' key \/ o' = key) /\ dget String.eqb o' args = Some a.
Proof.
  intros V A fm none dflt outs args ts o key e s a H G N Io C.
  destruct (tp_origin _ _ _ _ _ _ _ _ _ _ H) as [(_ & _ & Fn & Nf)|(-> & [(p & t & ins & r & ex & It & M & _)|[(o' & Io' & Dr & Da)|(Io' & Da & _)]])].
  - exfalso. destruct C as [(p & t & ex & It & M & Fb & Em & Es)|[(-> & -> & Fb)|(-> & -> & Fb)]].
    + destruct (find_matching_hit _ _ _ _ _ _ Fn G) as (x & E); [|discriminate]. exists (p, t). split; auto. right. cbn. repeat split; auto. exists o, ex. auto.
    + assert (false = true) by tauto. discriminate.
    + tauto.
  - destruct (N _ _ It). congruence.
  - split; [reflexivity|]. exists o'. auto.
  - split; [reflexivity|]. exists key. auto.
Qed.

Lemma restore_cases : forall {V A : Type} fm (none : A) store cast ex metadata (aggregate : option (dict string (aggregated V))) item args ts dflt partial r,
  restore fm none store cast ex metadata aggregate (Some item) (Some args) (Some ts) dflt partial = Ok r ->
  exists st ps d, r = Restored d
    /\ (internal_metadata metadata aggregate = Ok st \/ (metadata = None /\ aggregate = None /\ st = map (fun x => (fst x, EMeta)) item))
    /\ restore_parameters fm none false dflt (Some item) st (Some ts) (Some args) = Ok ps
    /\ apply_flat fm dflt (deserialize store cast st ps) ts args item = Ok d.
Proof.
  intros V A fm none store cast ex metadata aggregate item args ts dflt partial r H. unfold restore in H. destruct ex; [|discriminate]. rewrite andb_false_r in H. cbn [negb] in H.
  destruct metadata as [m|], aggregate as [a|]; unfold internal_metadata in H |- *; cbn [rbind] in H;
    (destruct (restore_parameters _ _ _ _ _ _ _ _) as [ps|] eqn:E in H; cbn [rbind] in H; [|discriminate]);
    unfold transform_checkpoint in H; (destruct (apply_flat _ _ _ _ _ _) as [d|] eqn:D in H; [|discriminate]); injection H as <-; do 3 eexists; (split; [reflexivity|]);
    (split; [|split; [exact E|exact D]]); [left|left|left|right]; auto.
Qed.
