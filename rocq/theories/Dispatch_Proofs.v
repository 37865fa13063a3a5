(** Proofs about the dispatch of functions to workers. *)
From Coq Require Import List Bool Arith NArith String Sorting.Sorted Lia.
From Verif Require Import Base Colocated_Model Colocated_Spec Dispatch_Model Dispatch_Spec.
Import ListNotations.
Local Open Scope nat_scope.

Definition apart (P : dev -> Prop) : Prop := forall a b, P a -> P b -> d_obj a = d_obj b -> a = b.

Lemma has_in : forall P d l, apart P -> P d -> (forall x, In x l -> P x) -> has d l = true <-> In d l.
Proof.
  intros P d l A D L. unfold has. rewrite existsb_exists. split.
  - intros (x & H & E). unfold dev_eqb in E. apply Nat.eqb_eq in E. now rewrite (A d x D (L x H) E).
  - intro H. exists d. split; [exact H | apply Nat.eqb_refl].
Qed.

Lemma update_spec : forall P l s, apart P -> (forall x, In x s \/ In x l -> P x) -> NoDup s -> NoDup (update s l) /\ forall d, In d (update s l) <-> In d s \/ In d l.
Proof.
  intros P l. unfold update. induction l as [|x l IH]; intros s A L N; cbn [fold_left]; [split; [exact N | intro d; cbn; tauto]|].
  pose proof (has_in P x s A (L x (or_intror (or_introl eq_refl))) (fun y H => L y (or_introl H))) as H. destruct (has x s).
  - destruct (IH s A) as [B C]; [intros y [Hy | Hy]; apply L; [now left | right; now right] | exact N|]. split; [exact B|]. intro d. rewrite C. cbn. split; [tauto|]. intros [K | [<- | K]]; [now left | left; now apply H | now right].
  - assert (X : ~ In x s) by (intro K; apply H in K; discriminate). destruct (IH (s ++ [x]) A) as [B C].
    + intros y [Hy | Hy]; [apply in_app_iff in Hy as [Hy | [<- | []]]|]; apply L; [now left | right; now left | right; now right].
    + clear - N X. induction s as [|y s IH]; cbn; [constructor; [intros [] | constructor]|]. inversion N as [|? ? N1 N2]; subst. constructor.
      * rewrite in_app_iff. intros [K | [K | []]]; [now apply N1 | apply X; now left].
      * apply IH; [exact N2 | intro K; apply X; now right].
    + split; [exact B|]. intro d. rewrite C, in_app_iff. cbn. tauto.
Qed.

Lemma on_device_set : forall other s d, In d (device_set other s) <-> on other s d.
Proof. intros other [x k | m spec k | n] d; cbn; [|tauto|tauto]. split; [intros [H | []]; now subst | intros ->; now left]. Qed.

Lemma spec_devices_spec : forall P other l, apart P -> (forall s d, In (Some s) l -> on other s d -> P d) -> NoDup (spec_devices other l) /\ forall d, In d (spec_devices other l) <-> exists s, In (Some s) l /\ on other s d.
Proof.
  intros P other l A. unfold spec_devices.
  assert (X : forall l acc, NoDup acc -> (forall x, In x acc -> P x) -> (forall s d, In (Some s) l -> on other s d -> P d) ->
    NoDup (fold_left (fun s x => match x with Some sh => update s (device_set other sh) | None => s end) l acc) /\ forall d, In d (fold_left (fun s x => match x with Some sh => update s (device_set other sh) | None => s end) l acc) <-> In d acc \/ exists s, In (Some s) l /\ on other s d).
  { clear l. induction l as [|x l IH]; intros acc N Pa L; cbn [fold_left]; [split; [exact N|]; intro d; split; [now left | intros [H | (s & [] & _)]; exact H]|]. destruct x as [sh|].
    - assert (Q : forall x, In x acc \/ In x (device_set other sh) -> P x) by (intros x [H | H]; [now apply Pa | apply (L sh); [now left | now apply on_device_set]]).
      destruct (update_spec P (device_set other sh) acc A Q N) as [B C].
      destruct (IH (update acc (device_set other sh)) B) as [D E]; [intros y Hy; apply Q; now apply C | intros s d Hs; apply L; now right|]. split; [exact D|]. intro d. rewrite E, C, on_device_set. split.
      + intros [[H | H] | (s & H & K)]; [now left | right; exists sh; split; [now left | exact H] | right; exists s; split; [now right | exact K]].
      + intros [H | (s & [H | H] & K)]; [left; now left | injection H as <-; left; now right | right; now exists s].
    - destruct (IH acc N Pa) as [D E]; [intros s d Hs; apply L; now right|]. split; [exact D|]. intro d. rewrite E. split; [intros [H | (s & H & K)]; [now left | right; exists s; split; [now right | exact K]] | intros [H | (s & [H | H] & K)]; [now left | discriminate | right; now exists s]]. }
  intro L. destruct (X l [] (NoDup_nil _)) as [B C]; [intros x [] | exact L|]. split; [exact B|]. intro d. rewrite C. cbn. tauto.
Qed.

Lemma insert_in : forall d l x, In x (insert d l) <-> x = d \/ In x l.
Proof. intros d l x. induction l as [|y l IH]; cbn; [firstorder|]. destruct (N.ltb (d_id d) (d_id y)); cbn; [firstorder|]. rewrite IH. firstorder. Qed.

Lemma insert_nodup : forall d l, ~ In d l -> NoDup l -> NoDup (insert d l).
Proof.
  intros d l. induction l as [|y l IH]; cbn; intros X N; [constructor; [intros [] | constructor]|]. destruct (N.ltb (d_id d) (d_id y)); [constructor; [exact X | exact N]|].
  inversion N as [|? ? N1 N2]; subst. constructor; [rewrite insert_in; intros [-> | K]; [apply X; now left | now apply N1] | apply IH; [tauto | exact N2]].
Qed.

Lemma insert_sorted : forall d l, StronglySorted (fun a b => (d_id a <= d_id b)%N) l -> StronglySorted (fun a b => (d_id a <= d_id b)%N) (insert d l).
Proof.
  intros d l. induction l as [|y l IH]; cbn; intro S; [repeat constructor|]. inversion S as [|? ? S1 S2]; subst. destruct (N.ltb (d_id d) (d_id y)) eqn:E.
  - apply N.ltb_lt in E. constructor; [exact S|]. constructor; [lia|]. rewrite Forall_forall in *. intros z Hz. specialize (S2 z Hz). lia.
  - apply N.ltb_ge in E. constructor; [now apply IH|]. rewrite Forall_forall in *. intros z Hz. apply insert_in in Hz as [-> | Hz]; [exact E | now apply S2].
Qed.

Lemma sort_spec : forall l, NoDup l -> arranged (fun d => In d l) (sort_id l).
Proof.
  intro l. unfold sort_id, arranged.
  assert (X : forall l acc, StronglySorted (fun a b => (d_id a <= d_id b)%N) acc -> NoDup acc -> NoDup l -> (forall d, In d l -> ~ In d acc) ->
    StronglySorted (fun a b => (d_id a <= d_id b)%N) (fold_left (fun s d => insert d s) l acc) /\ NoDup (fold_left (fun s d => insert d s) l acc) /\ forall d, In d (fold_left (fun s d => insert d s) l acc) <-> In d acc \/ In d l).
  { clear l. induction l as [|x l IH]; intros acc S N N' D; cbn [fold_left]; [split; [exact S|]; split; [exact N|]; intro d; cbn; tauto|]. inversion N' as [|? ? N1 N2]; subst.
    destruct (IH (insert x acc)) as (A & B & C); [now apply insert_sorted | apply insert_nodup; [apply D; now left | exact N] | exact N2 | intros d Hd K; apply insert_in in K as [-> | K]; [now apply N1 | apply (D d); [now right | exact K]]|].
    split; [exact A|]. split; [exact B|]. intro d. rewrite C, insert_in. cbn. split; intros H; intuition congruence. }
  intro N. destruct (X l [] (SSorted_nil _) (NoDup_nil _) N (fun d _ K => K)) as (A & B & C). split; [exact A|]. split; [exact B|]. intro d. rewrite C. cbn. tauto.
Qed.

Lemma arranged_ext : forall (S T : dev -> Prop) l, (forall d, S d <-> T d) -> arranged S l -> arranged T l.
Proof. intros S T l E (A & B & C). split; [exact A|]. split; [exact B|]. intro d. rewrite C. apply E. Qed.

Lemma list_eqb_spec : forall P a b, apart P -> (forall x, In x a \/ In x b -> P x) -> list_eqb a b = true <-> a = b.
Proof.
  intros P a. induction a as [|x a IH]; intros [|y b] A L; cbn; try (split; congruence). rewrite andb_true_iff. unfold dev_eqb. rewrite Nat.eqb_eq, (IH b A); [|intros z [H | H]; apply L; [left; now right | right; now right]].
  split; [intros [E ->]; f_equal; apply A; [apply L; left; now left | apply L; right; now left | exact E] | intro E; injection E as -> ->; now split].
Qed.

Definition named (l : list (option sharding)) (ds : list dev) : Prop := exists m sp k, In (Some (SNamed m sp k)) l /\ m_devices m = ds.

Lemma device_lists_spec : forall P other l, apart P -> (forall s d, In (Some s) l -> on other s d -> P d) -> NoDup (device_lists l) /\ forall ds, In ds (device_lists l) <-> named l ds.
Proof.
  intros P other l A. unfold device_lists. set (f := fun s x => _).
  assert (X : forall l acc, NoDup acc -> (forall ds x, In ds acc -> In x ds -> P x) -> (forall s d, In (Some s) l -> on other s d -> P d) -> NoDup (fold_left f l acc) /\ forall ds, In ds (fold_left f l acc) <-> In ds acc \/ named l ds).
  { clear l. induction l as [|x l IH]; intros acc N Pa L; cbn [fold_left]; [split; [exact N|]; intro d; split; [now left | intros [H | (m & sp & k & [] & _)]; exact H]|].
    assert (L' : forall s d, In (Some s) l -> on other s d -> P d) by (intros s d Hs; apply L; now right).
    assert (skip : (forall m sp k, x <> Some (SNamed m sp k)) -> f acc x = acc -> NoDup (fold_left f l (f acc x)) /\ forall ds, In ds (fold_left f l (f acc x)) <-> In ds acc \/ named (x :: l) ds).
    { intros Nx ->. destruct (IH acc N Pa L') as [D E]. split; [exact D|]. intro ds. rewrite E. unfold named. split; (intros [H | (m & sp & k & H & K)]; [now left | right]).
      - exists m, sp, k. split; [now right | exact K].
      - destruct H as [H | H]; [now destruct (Nx m sp k)|]. now exists m, sp, k. }
    destruct x as [[d k | m sp k | n]|]; try (apply skip; [discriminate | reflexivity]). clear skip.
    assert (Pm : forall y, In y (m_devices m) -> P y) by (intros y Hy; apply (L (SNamed m sp k)); [now left | exact Hy]).
    assert (Q : existsb (list_eqb (m_devices m)) acc = true <-> In (m_devices m) acc).
    { rewrite existsb_exists. split; [intros (z & Hz & E); apply (list_eqb_spec P) in E; [now rewrite E | exact A | intros y [Hy | Hy]; [now apply Pm | now apply (Pa z)]] | intro H; exists (m_devices m); split; [exact H|]; apply (list_eqb_spec P); [exact A | intros y [Hy | Hy]; now apply Pm | reflexivity]]. }
    cbn [f]. destruct (existsb (list_eqb (m_devices m)) acc).
    - destruct (IH acc N Pa L') as [D E]. split; [exact D|]. intro ds. rewrite E. split; (intros [H | (m' & sp' & k' & H & K)]; [now left|]).
      + right. exists m', sp', k'. split; [now right | exact K].
      + destruct H as [H | H]; [injection H as <- <- <-; left; rewrite <- K; now apply Q | right; now exists m', sp', k'].
    - assert (Nm : ~ In (m_devices m) acc) by (intro K; apply Q in K; discriminate).
      destruct (IH (acc ++ [m_devices m])) as [D E].
      + clear - N Nm. induction acc as [|y s IH]; cbn; [constructor; [intros [] | constructor]|]. inversion N as [|? ? N1 N2]; subst. constructor; [rewrite in_app_iff; intros [K | [K | []]]; [now apply N1 | apply Nm; now left] | apply IH; [exact N2 | intro K; apply Nm; now right]].
      + intros ds y Hd Hy. apply in_app_iff in Hd as [Hd | [<- | []]]; [now apply (Pa ds) | now apply Pm].
      + exact L'.
      + split; [exact D|]. intro ds. rewrite E, in_app_iff. split.
        * intros [[H | [H | []]] | (m' & sp' & k' & H & K)]; [now left | right; exists m, sp, k; split; [now left | exact H] | right; exists m', sp', k'; split; [now right | exact K]].
        * intros [H | (m' & sp' & k' & [H | H] & K)]; [left; now left | injection H as <- <- <-; left; right; now left | right; now exists m', sp', k']. }
  intro L. destruct (X l [] (NoDup_nil _)) as [B C]; [intros ds x [] | exact L|]. split; [exact B|]. intro d. rewrite C. cbn. tauto.
Qed.

Lemma replicated_replica : forall l, replica (dummy_input l) l.
Proof. intro l. eexists. split; [reflexivity|]. now repeat split. Qed.

(** ** Maps *)

Lemma seq_ok : forall (A B : Type) (f : A -> result B) l m, sequence (map f l) = Ok m <-> Forall2 (fun x y => f x = Ok y) l m.
Proof.
  intros A B f l. induction l as [|x l IH]; intro m; cbn.
  - split; [intro H; injection H as <-; constructor | intro H; inversion H; reflexivity].
  - destruct (f x) as [y|e] eqn:E; cbn.
    + destruct (sequence (map f l)) as [m'|e] eqn:S; cbn.
      * split; [intro H; injection H as <-; constructor; [exact E | now apply IH] | intro H; inversion H as [|? y' ? m2 E' F]; subst; rewrite E in E'; injection E' as <-; apply IH in F; now injection F as <-].
      * split; [discriminate | intro H; inversion H as [|? y' ? m2 E' F]; subst; apply IH in F; discriminate].
    + split; [discriminate | intro H; inversion H as [|? y' ? m2 E' F]; subst; congruence].
Qed.

Lemma tmap_ok : forall (A B : Type) (f : A -> result B) t u, tmap f t = Ok u <-> alike_trees (fun x y => f x = Ok y) t u.
Proof.
  intros A B f [x | l] [y | m]; cbn.
  - destruct (f x); cbn; split; congruence.
  - destruct (f x); cbn; split; try discriminate; tauto.
  - destruct (sequence (map f l)); cbn; split; try discriminate; tauto.
  - destruct (sequence (map f l)) as [m'|e] eqn:S; cbn.
    + split; [intro H; injection H as <-; now apply seq_ok | intro H; apply seq_ok in H; rewrite S in H; now injection H as <-].
    + split; [discriminate | intro H; apply seq_ok in H; congruence].
Qed.

Lemma cpu_array_ok : forall colo a b, cpu_array colo a = Ok b <-> beside_arr colo a b.
Proof.
  intros colo [v s] [w t]. unfold cpu_array, beside_arr. cbn. destruct (cpu_sharding colo s); cbn; split; [intro H; injection H as <- <-; now split | intros [-> H]; now injection H as -> | discriminate | intros [_ H]; discriminate].
Qed.

Lemma alike_mono : forall (A B : Type) (R S : A -> B -> Prop) t u, (forall x y, R x y -> S x y) -> alike_trees R t u -> alike_trees S t u.
Proof. intros A B R S [x | l] [y | m] H; cbn; auto. intro F. induction F; constructor; auto. Qed.

Lemma forall2_len : forall (A B : Type) (R : A -> B -> Prop) l m, Forall2 R l m -> List.length l = List.length m.
Proof. intros A B R l m F. induction F; cbn; congruence. Qed.

Lemma final_ok : forall t f, (forall u, final t f = Ok u <-> exists fs, alike_trees (fun s x => s = Some x) f fs /\ alike_trees (fun x y => a_val y = a_val x) t u /\ alike_trees (fun (s : sharding) y => a_sh y = s) fs u).
Proof.
  intros [x | l] [f | m] u; cbn [final].
  - destruct f as [s|]; cbn.
    + split; [intro H; injection H as <-; exists (One s); now cbn | intros ([fs | fs] & A & B & C); cbn in A; [|destruct A]; injection A as <-; destruct u as [[v s']|]; cbn in *; [|destruct B]; now subst].
    + split; [discriminate | intros ([fs | fs] & A & _); cbn in A; [discriminate | destruct A]].
  - split; [discriminate | intros ([fs | fs] & A & B & C); cbn in *; [destruct A | destruct u; [destruct C | destruct B]]].
  - split; [discriminate | intros ([fs | fs] & A & B & C); cbn in *; [destruct u; [destruct B | destruct C] | destruct A]].
  - destruct (Nat.eqb (List.length l) (List.length m)) eqn:E.
    + apply Nat.eqb_eq in E. set (one := fun xf : arr * option sharding => _).
      assert (X : forall l m w, List.length l = List.length m -> sequence (map one (combine l m)) = Ok w <-> exists fs, Forall2 (fun s x => s = Some x) m fs /\ Forall2 (fun x y => a_val y = a_val x) l w /\ Forall2 (fun (s : sharding) y => a_sh y = s) fs w).
      { clear. induction l as [|x l IH]; intros [|f m] w; cbn [List.length]; try discriminate; intro E.
        - cbn. split; [intro H; injection H as <-; exists []; repeat constructor | intros (fs & A & B & C); inversion B; reflexivity].
        - injection E as E. cbn [combine map]. cbn [sequence]. destruct f as [s|]; cbn [one fst snd rbind rmap].
          + destruct (sequence (map one (combine l m))) as [w'|e] eqn:S; cbn.
            * split.
              -- intro H. injection H as <-. destruct (proj1 (IH m w' E) S) as (fs & A & B & C). exists (s :: fs). repeat split; constructor; auto.
              -- intros (fs & A & B & C). inversion A as [|? s' ? fs' E1 A']; subst. injection E1 as <-. inversion B as [|? y ? w2 E2 B']; subst. inversion C as [|? ? ? ? E3 C']; subst. pose proof (proj2 (IH m w2 E) (ex_intro _ fs' (conj A' (conj B' C')))) as H. rewrite S in H. injection H as ->. destruct y; cbn in *; now subst.
            * split; [discriminate|]. intros (fs & A & B & C). inversion A as [|? s' ? fs' E1 A']; subst. inversion B as [|? y ? w2 E2 B']; subst. inversion C as [|? ? ? ? E3 C']; subst. pose proof (proj2 (IH m w2 E) (ex_intro _ fs' (conj A' (conj B' C')))) as H. congruence.
          + split; [discriminate|]. intros (fs & A & _). inversion A; discriminate. }
      destruct (sequence (map one (combine l m))) as [w|e] eqn:S; cbn.
      * split.
        -- intro H. injection H as <-. destruct (proj1 (X l m w E) S) as (fs & A & B & C). exists (Many fs). now repeat split.
        -- intros ([fs | fs] & A & B & C); cbn in A; [destruct A|]. destruct u as [u | u]; cbn in B, C; [destruct B|]. pose proof (proj2 (X l m u E) (ex_intro _ fs (conj A (conj B C)))) as H. rewrite S in H. now injection H as ->.
      * split; [discriminate|]. intros ([fs | fs] & A & B & C); cbn in A; [destruct A|]. destruct u as [u | u]; cbn in B, C; [destruct B|]. pose proof (proj2 (X l m u E) (ex_intro _ fs (conj A (conj B C)))) as H. congruence.
    + split; [discriminate|]. intros ([fs | fs] & A & B & C); cbn in A; [destruct A|]. destruct u as [u | u]; cbn in B, C; [destruct B|]. apply forall2_len in A, B, C. apply Nat.eqb_neq in E. lia.
Qed.

Lemma structure_ok : forall (A B C : Type) (R : A -> B -> Prop) (S : C -> B -> Prop) (t : tree A) (u : tree B) (v : tree C), alike_trees R t u -> alike_trees S v u -> same_structure t v = true.
Proof. intros A B C R S [x | l] [y | m] [z | n]; cbn; try tauto. intros F G. apply forall2_len in F, G. apply Nat.eqb_eq. congruence. Qed.

Lemma final_structure : forall t f u, final t f = Ok u -> same_structure t f = true.
Proof. intros [x | l] [f | m] u; cbn [final same_structure]; try discriminate; [reflexivity|]. destruct (Nat.eqb _ _); [reflexivity | discriminate]. Qed.
