(** Proofs about the authentication. *)
From Coq Require Import List Bool Arith String Ascii Lia.
From Verif Require Import Base Auth_Model Auth_Spec.
Import ListNotations.
Local Open Scope string_scope.
Local Open Scope list_scope.

Lemma get_snoc : forall name md k v, get name (md ++ [(k, v)]) = if String.eqb name k then Some v else get name md.
Proof. intros name md k v. unfold get. rewrite rev_app_distr. cbn. destruct (String.eqb name k); reflexivity. Qed.

Lemma get_iff : forall name md v, get name md = Some v <-> last_value md name v.
Proof.
  intros name md v. unfold last_value. induction md as [|[k w] md IH] using rev_ind.
  - split; [discriminate | intros (a & b & E & _); destruct a; discriminate].
  - rewrite get_snoc. destruct (String.eqb_spec name k) as [->|N].
    + split; [intro E; injection E as ->; exists md, []; split; [reflexivity | intros x []]|]. intros (a & b & E & H). destruct b as [|e b] using rev_ind.
      * apply app_inj_tail in E as [_ E]. congruence.
      * rewrite app_comm_cons, app_assoc in E. apply app_inj_tail in E as [_ E]. exfalso. apply (H w), in_app_iff. right. left. congruence.
    + rewrite IH. split.
      * intros (a & b & -> & H). exists a, (b ++ [(k, w)]). split; [now rewrite <- app_assoc|]. intros x I. apply in_app_iff in I as [I|[I|[]]]; [now apply (H x) | congruence].
      * intros (a & b & E & H). destruct b as [|e b] using rev_ind.
        -- apply app_inj_tail in E as [_ E]. congruence.
        -- rewrite app_comm_cons, app_assoc in E. apply app_inj_tail in E as [-> _]. exists a, b. split; [reflexivity | intros x I; apply (H x), in_app_iff; now left].
Qed.

Lemma substring_all : forall s, substring 0 (String.length s) s = s.
Proof. induction s as [|c s IH]; [reflexivity|]. cbn. now rewrite IH. Qed.

Lemma bearer : forall t, String.prefix "Bearer " ("Bearer " ++ t)%string = true /\ substring 7 (String.length ("Bearer " ++ t)%string - 7) ("Bearer " ++ t)%string = t.
Proof. intros t. split; [cbn; destruct t; reflexivity|]. cbn. rewrite ?Nat.sub_0_r. apply substring_all. Qed.

Lemma bearer_inv : forall h, String.prefix "Bearer " h = true -> exists t, h = ("Bearer " ++ t)%string.
Proof.
  intros h E. apply prefix_correct in E. cbn in E. do 7 (destruct h as [|? h]; [discriminate E|]). injection E as -> -> -> -> -> -> -> _. now exists h.
Qed.

Lemma split_without : forall c s, without c s -> split c s = [s].
Proof.
  intros c s. induction s as [|d s IH]; intro W; [reflexivity|]. cbn. destruct (Ascii.eqb_spec c d) as [->|N]; [exfalso; apply W; now left|]. rewrite IH; [reflexivity | intro I; apply W; now right].
Qed.

Lemma split_some : forall c s, split c s <> [].
Proof. intros c s. destruct s as [|d s]; cbn; [discriminate|]. destruct (Ascii.eqb c d); [discriminate|]. destruct (split c s); discriminate. Qed.

Lemma split_app : forall c r z, without c z -> split c (r ++ String c z)%string = split c r ++ [z].
Proof.
  intros c r z W. induction r as [|d r IH]; cbn.
  - rewrite Ascii.eqb_refl. now rewrite (split_without c z W).
  - destruct (Ascii.eqb c d); [now rewrite IH|]. rewrite IH. pose proof (split_some c r). destruct (split c r); [congruence | reflexivity].
Qed.

Lemma concat_split : forall c r, String.concat (String c "") (split c r) = r.
Proof.
  intros c r. induction r as [|d r IH]; [reflexivity|]. cbn [split]. pose proof (split_some c r) as N. destruct (Ascii.eqb_spec c d) as [->|M].
  - destruct (split d r) as [|x l] eqn:E; [congruence|]. change (String.concat (String d "") ("" :: x :: l)) with ("" ++ String d "" ++ String.concat (String d "") (x :: l))%string. now rewrite IH.
  - destruct (split c r) as [|x l]; [congruence|]. destruct l as [|y l]; cbn in *; now rewrite IH.
Qed.

Lemma zone_last : forall p z, without "/" z -> last (split "/" (p ++ String "/" z)%string) "" = z.
Proof. intros p z W. rewrite (split_app _ _ _ W). apply last_last. Qed.
