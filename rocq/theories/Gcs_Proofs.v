(** Proofs about the removal of directories in Google Cloud Storage. *)
From Coq Require Import List Bool Arith String Ascii Permutation Lia.
From Verif Require Import Base Gcs_Model Gcs_Spec.
Import ListNotations.
Local Open Scope string_scope.
Local Open Scope list_scope.

Lemma mem_iff : forall x l, mem x l = true <-> In x l.
Proof. intros x l. unfold mem. destruct (in_dec _ x l); split; intro; try congruence; tauto. Qed.

Lemma mem_not : forall x l, negb (mem x l) = true <-> ~ In x l.
Proof. intros x l. unfold mem. destruct (in_dec _ x l); cbn; split; intro; try congruence; tauto. Qed.

Lemma starts_iff : forall p f, starts p f = true <-> inside p f.
Proof.
  unfold inside. induction p as [|x p IH]; intros f; cbn; [split; [now exists f | reflexivity]|]. destruct f as [|y f]; [split; [discriminate | intros [r E]; discriminate]|].
  rewrite andb_true_iff, IH. split; [intros [E [r ->]]; apply String.eqb_eq in E as ->; now exists r | intros [r E]; injection E as -> ->; split; [apply String.eqb_refl | now exists r]].
Qed.

Lemma below_iff : forall f g, below f g = true <-> exists r, r <> [] /\ g = f ++ r.
Proof.
  intros f g. unfold below. rewrite andb_true_iff, starts_iff, mem_not. unfold inside. split.
  - intros [[r E] N]. exists r. split; [intros ->; rewrite app_nil_r in E; apply N; left; congruence | exact E].
  - intros (r & N & E). split; [now exists r|]. intros [X|[]]. apply N. rewrite X in E. apply (f_equal (@List.length string)) in E. rewrite app_length in E. destruct r; [reflexivity | cbn in E; lia].
Qed.

Lemma filter_twice : forall f l (F : list (list string)), filter (fun g => negb (mem g l)) (filter (fun g => negb (mem g [f])) F) = filter (fun g => negb (mem g (f :: l))) F.
Proof.
  intros f l F. induction F as [|x F IHF]; [reflexivity|]. cbn [filter]. destruct (negb (mem x [f])) eqn:E1; destruct (negb (mem x (f :: l))) eqn:E2; cbn [filter].
  - apply mem_not in E2. destruct (negb (mem x l)) eqn:E3; [now rewrite IHF|]. exfalso. apply negb_false_iff, mem_iff in E3. apply E2. now right.
  - apply mem_not in E1. apply negb_false_iff, mem_iff in E2. destruct E2 as [->|E2]; [exfalso; apply E1; now left|]. destruct (negb (mem x l)) eqn:E3; [|exact IHF]. apply mem_not in E3. contradiction.
  - exfalso. apply negb_false_iff, mem_iff in E1. apply mem_not in E2. destruct E1 as [->|[]]. apply E2. now left.
  - exact IHF.
Qed.

Lemma delete_all_ok : forall l b, (forall f g, In f l -> In g (folders b) \/ In g (objects b) -> below f g = false) ->
  delete_all l b = Ok (mkBucket (filter (fun g => negb (mem g l)) (folders b)) (objects b)).
Proof.
  induction l as [|f l IH]; intros b H; cbn [delete_all].
  - f_equal. destruct b as [F O]. cbn. f_equal. clear H. induction F as [|x F IHF]; [reflexivity|]. cbn. now rewrite <- IHF.
  - unfold delete. assert (E : forall L, (forall g, In g L -> In g (folders b) \/ In g (objects b)) -> existsb (below f) L = false).
    { intros L HL. destruct (existsb (below f) L) eqn:E; [|reflexivity]. apply existsb_exists in E as (g & I & B). rewrite (H f g (or_introl eq_refl) (HL g I)) in B. discriminate. }
    rewrite (E (folders b)), (E (objects b)) by auto. cbn [orb rbind]. rewrite IH; cbn [folders objects].
    + f_equal. f_equal. apply filter_twice.
    + intros g k Hg [Hk|Hk]; apply (H g k); [now right | left; now apply filter_In in Hk | now right | now right].
Qed.

Lemma last_max : forall fs : list (list string), fs <> [] -> exists f, In f fs /\ forall g, In g fs -> List.length g <= List.length f.
Proof.
  induction fs as [|x fs IH]; intro N; [congruence|]. destruct fs as [|y fs]; [exists x; split; [now left | intros g [->|[]]; lia]|].
  destruct IH as (f & I & M); [discriminate|]. destruct (le_lt_dec (List.length x) (List.length f)) as [L|L].
  - exists f. split; [now right | intros g [->|G]; auto].
  - exists x. split; [now left | intros g [->|G]; [lia | specialize (M g G); lia]].
Qed.

Lemma removelast_length : forall f : list string, f <> [] -> List.length (removelast f) < List.length f.
Proof. intros f N. rewrite (app_removelast_last "" N) at 2. rewrite app_length. cbn. lia. Qed.

Lemma leaves_some : forall fs, fs <> [] -> (forall f, In f fs -> f <> []) -> exists f, In f (leaves fs).
Proof.
  intros fs N H. destruct (last_max fs N) as (f & I & M). exists f. unfold leaves. apply filter_In. split; [exact I|]. apply mem_not. unfold parents. intro X. apply in_map_iff in X as (g & E & G).
  pose proof (removelast_length g (H g G)). specialize (M g G). rewrite E in H0. lia.
Qed.

Lemma fewer : forall (f : list string -> bool) l x, In x l -> f x = false -> List.length (filter f l) < List.length l.
Proof.
  intros f l x. assert (L : forall k, List.length (filter f k) <= List.length k) by (induction k as [|y k IH]; cbn; [lia | destruct (f y); cbn; lia]).
  induction l as [|y l IH]; intros I E; [destruct I|]. destruct I as [->|I]; cbn; [rewrite E; specialize (L l); lia|]. destruct (f y); cbn; specialize (IH I E); lia.
Qed.

Lemma rest_fewer : forall fs, fs <> [] -> (forall f, In f fs -> f <> []) -> List.length (filter (fun f => negb (mem f (leaves fs))) fs) < List.length fs.
Proof.
  intros fs N H. destruct (leaves_some fs N H) as [f F]. apply (fewer _ _ f); [now apply filter_In in F as [F _] | apply negb_false_iff, mem_iff, F].
Qed.

Lemma delete_all_time : forall l b, delete_all l b <> Err TimeoutError.
Proof. induction l as [|f l IH]; intros b; cbn; [discriminate|]. unfold delete. destruct (_ || _); cbn; [discriminate | apply IH]. Qed.

Lemma rounds_time : forall order fuel fs b, (forall f, In f fs -> f <> []) -> List.length fs <= fuel -> rounds order fuel fs b <> Err TimeoutError.
Proof.
  intros order. induction fuel as [|k IH]; intros fs b H L; destruct fs as [|x fs]; try (cbn; discriminate); [cbn in L; lia|].
  cbn [rounds]. set (gs := x :: fs) in *. destruct (delete_all (order (leaves gs)) b) as [b'|e] eqn:E; cbn [rbind].
  - apply IH; [intros f F; apply H; now apply filter_In in F|]. assert (gs <> []) as N by discriminate. pose proof (rest_fewer gs N H). lia.
  - intro X. apply (delete_all_time (order (leaves gs)) b). congruence.
Qed.

Lemma rounds_ok : forall order p, any_order order -> p <> [] -> forall fuel fs b, List.length fs <= fuel -> (forall f, In f fs -> inside p f) -> (forall f, In f fs -> f <> p -> In (removelast f) fs) ->
  (forall f, In f fs -> In f (folders b)) -> (forall f, In f (folders b) -> inside p f -> In f fs) -> (forall o, In o (objects b) -> ~ inside p o) ->
  rounds order fuel fs b = Ok (mkBucket (filter (fun f => negb (starts p f)) (folders b)) (objects b)).
Proof.
  intros order p Or Np. induction fuel as [|k IH]; intros fs b L Hp Hc Hin Hall Ho.
  all: assert (Nf : forall f, In f fs -> f <> []) by (intros f F; destruct (Hp f F) as [r ->]; destruct p; [congruence | discriminate]).
  all: destruct fs as [|x fs].
  1, 3: cbn [rounds]; f_equal; destruct b as [F O]; cbn in *; f_equal; clear - Hall; induction F as [|y F IHF]; [reflexivity|]; cbn; destruct (starts p y) eqn:E; [exfalso; apply (Hall y); [now left | now apply starts_iff] | cbn; f_equal; apply IHF; intros f I; apply Hall; now right].
  - cbn in L. lia.
  - cbn [rounds]. set (gs := x :: fs) in *. assert (N : gs <> []) by discriminate. pose proof (rest_fewer gs N Nf) as Fe.
    assert (Desc : forall f r, inside p f -> r <> [] -> In (f ++ r) gs -> In f (parents gs)).
    { intros f r Pf. induction r as [|y r IHr] using rev_ind; intros Nr I; [congruence|].
      assert (Q : In (f ++ r) (parents gs)) by (unfold parents; apply in_map_iff; exists (f ++ r ++ [y]); split; [rewrite app_assoc; apply removelast_last | exact I]).
      destruct r as [|z r]; [now rewrite app_nil_r in Q|]. apply IHr; [discriminate|]. specialize (Hc _ I). rewrite app_assoc, removelast_last in Hc. apply Hc. intro X. destruct Pf as [q ->]. apply (f_equal (@List.length string)) in X. rewrite !app_length in X. cbn in X. lia. }
    assert (Lv : forall f, In f (order (leaves gs)) <-> In f (leaves gs)) by (intro f; split; apply Permutation_in; [apply Or | apply Permutation_sym, Or]).
    rewrite delete_all_ok.
    + cbn [rbind]. rewrite IH; cbn [folders objects].
      * f_equal. f_equal. clear - Lv Hp. induction (folders b) as [|y F IHF]; [reflexivity|]. cbn [filter]. destruct (negb (mem y (order (leaves gs)))) eqn:E; cbn [filter]; [now rewrite IHF|].
        apply negb_false_iff, mem_iff, Lv in E. apply filter_In in E as [E _]. apply Hp, starts_iff in E. now rewrite E.
      * lia.
      * intros f F. apply Hp. now apply filter_In in F.
      * intros f F Nf'. apply filter_In in F as [F _]. apply filter_In. split; [now apply Hc|]. apply mem_not. intro X. apply filter_In in X as [_ X]. apply mem_not in X. apply X. unfold parents. apply in_map. exact F.
      * intros f F. apply filter_In in F as [F G]. apply filter_In. split; [now apply Hin|]. apply mem_not. apply mem_not in G. now rewrite Lv.
      * intros f F P. apply filter_In in F as [F G]. apply filter_In. split; [now apply Hall|]. apply mem_not. apply mem_not in G. now rewrite Lv in G.
      * exact Ho.
    + intros f g F G. apply Lv, filter_In in F as [F Q]. apply mem_not in Q. destruct (below f g) eqn:B; [|reflexivity]. exfalso. apply below_iff in B as (r & Nr & ->). destruct (Hp f F) as [q ->]. destruct G as [G|G].
      * apply Q, (Desc _ r); [now exists q | exact Nr | apply Hall; [exact G | exists (q ++ r); now rewrite app_assoc]].
      * apply (Ho _ G). exists (q ++ r). now rewrite app_assoc.
Qed.

(** ** Texts *)

Lemma slash_iff : forall c, slash c = true <-> c = "/"%char.
Proof. intros c. unfold slash. apply Ascii.eqb_eq. Qed.

Lemma mark_iff : forall c, mark c = true <-> c = "?"%char \/ c = "#"%char.
Proof. intros c. unfold mark. rewrite orb_true_iff, !Ascii.eqb_eq. tauto. Qed.

(** No character of the text stops *)
Definition free (stop : ascii -> bool) (s : string) : Prop := forall c, In c (list_ascii_of_string s) -> stop c = false.

Lemma until_free : forall stop s, free stop s -> until stop s = s.
Proof. intros stop s. induction s as [|c s IH]; intro F; [reflexivity|]. cbn. rewrite (F c (or_introl eq_refl)), IH; [reflexivity | intros d D; apply F; now right]. Qed.

Lemma until_app : forall stop s c r, free stop s -> stop c = true -> until stop (s ++ String c r)%string = s.
Proof. intros stop s c r. induction s as [|d s IH]; intros F C; cbn; [now rewrite C|]. rewrite (F d (or_introl eq_refl)), IH; [reflexivity | intros e E; apply F; now right | exact C]. Qed.

Lemma from_app : forall stop s c r, free stop s -> stop c = true -> from stop (s ++ String c r)%string = String c r.
Proof. intros stop s c r. induction s as [|d s IH]; intros F C; cbn; [now rewrite C|]. rewrite (F d (or_introl eq_refl)). apply IH; [intros e E; apply F; now right | exact C]. Qed.

Lemma chars_app : forall s t c, In c (list_ascii_of_string (s ++ t)%string) -> In c (list_ascii_of_string s) \/ In c (list_ascii_of_string t).
Proof. induction s as [|d s IH]; intros t c I; cbn in *; [now right|]. destruct I as [->|I]; [left; now left|]. destruct (IH t c I); auto. Qed.

Lemma free_app : forall stop s t, free stop s -> free stop t -> free stop (s ++ t)%string.
Proof. intros stop s t F G c I. destruct (chars_app s t c I); auto. Qed.

Lemma plain_slash : forall s, plain s -> free slash s.
Proof. intros s [_ P] c I. destruct (slash c) eqn:E; [|reflexivity]. apply slash_iff in E. now destruct (P c I). Qed.

Lemma plain_mark : forall s, plain s -> free mark s.
Proof. intros s [_ P] c I. destruct (mark c) eqn:E; [|reflexivity]. apply mark_iff in E. destruct (P c I) as (_ & A & B). tauto. Qed.

Lemma plain_both : forall s, plain s -> free (fun c => slash c || mark c) s.
Proof. intros s P c I. now rewrite (plain_slash s P c I), (plain_mark s P c I). Qed.

Lemma concat_mark : forall cs, Forall plain cs -> free mark (String.concat "/" cs).
Proof.
  induction cs as [|x cs IH]; intro F; [intros c []|]. inversion F as [|? ? P Q]; subst. destruct cs as [|y cs]; [now apply plain_mark|].
  change (String.concat "/" (x :: y :: cs)) with (x ++ "/" ++ String.concat "/" (y :: cs))%string. apply free_app; [now apply plain_mark|]. apply free_app; [|now apply IH]. intros c [<-|[]]. reflexivity.
Qed.

Lemma ends_app : forall s t, t <> ""%string -> ends_with_slash (s ++ t)%string = ends_with_slash t.
Proof.
  induction s as [|c s IH]; intros t N; [reflexivity|]. cbn [append]. cbn [ends_with_slash]. destruct (s ++ t)%string eqn:E; [destruct s, t; cbn in E; congruence|]. rewrite <- E. now apply IH.
Qed.

Lemma ends_free : forall s, free slash s -> ends_with_slash s = false.
Proof. induction s as [|c s IH]; intro F; [reflexivity|]. cbn. destruct s; [apply F; now left | apply IH; intros d D; apply F; now right]. Qed.

Lemma concat_some : forall cs, Forall plain cs -> cs <> [] -> String.concat "/" cs <> ""%string.
Proof. intros [|x cs] F N; [congruence|]. inversion F as [|? ? [P _] Q]; subst. destruct x; [congruence|]; destruct cs; cbn; discriminate. Qed.

Lemma concat_ends : forall cs, Forall plain cs -> ends_with_slash (String.concat "/" cs) = false.
Proof.
  induction cs as [|x cs IH]; intro F; [reflexivity|]. inversion F as [|? ? P Q]; subst. destruct cs as [|y cs]; [now apply ends_free, plain_slash|].
  change (String.concat "/" (x :: y :: cs)) with (x ++ "/" ++ String.concat "/" (y :: cs))%string. assert (N : String.concat "/" (y :: cs) <> ""%string) by (apply concat_some; [exact Q | discriminate]). rewrite ends_app; [rewrite ends_app; [now apply IH | exact N] | discriminate].
Qed.

Lemma cut_app : forall s r, free slash s -> cut (s ++ String "/" r)%string = s :: cut r.
Proof. induction s as [|c s IH]; intros r F; [reflexivity|]. cbn. rewrite (F c (or_introl eq_refl)), IH; [reflexivity | intros d D; apply F; now right]. Qed.

Lemma cut_free : forall s, free slash s -> cut s = [s].
Proof. induction s as [|c s IH]; intro F; [reflexivity|]. cbn. rewrite (F c (or_introl eq_refl)), IH; [reflexivity | intros d D; apply F; now right]. Qed.

Lemma str_assoc : forall a b c : string, ((a ++ b) ++ c = a ++ b ++ c)%string.
Proof. induction a as [|x a IH]; intros b c; cbn; [reflexivity | now rewrite IH]. Qed.

Lemma parts_cons : forall x r, plain x -> parts (x ++ String "/" r)%string = x :: parts r.
Proof. intros x r P. unfold parts. rewrite (cut_app x r (plain_slash x P)). cbn. destruct P as [N _]. apply String.eqb_neq in N. now rewrite N. Qed.

Lemma parts_concat : forall cs, Forall plain cs -> parts (String.concat "/" cs) = cs.
Proof.
  induction cs as [|x cs IH]; intro F; [reflexivity|]. inversion F as [|? ? P Q]; subst. destruct cs as [|y cs].
  - cbn. unfold parts. rewrite (cut_free x (plain_slash x P)). cbn. destruct P as [N _]. apply String.eqb_neq in N. now rewrite N.
  - change (String.concat "/" (x :: y :: cs)) with (x ++ String "/" (String.concat "/" (y :: cs)))%string. now rewrite (parts_cons x _ P), IH.
Qed.

Lemma parts_end : forall cs, Forall plain cs -> parts (String.concat "/" cs ++ "/")%string = cs.
Proof.
  induction cs as [|x cs IH]; intro F; [reflexivity|]. inversion F as [|? ? P Q]; subst. destruct cs as [|y cs].
  - cbn [String.concat]. now rewrite (parts_cons x "" P).
  - change (String.concat "/" (x :: y :: cs)) with (x ++ "/" ++ String.concat "/" (y :: cs))%string. rewrite !str_assoc. change ("/" ++ String.concat "/" (y :: cs) ++ "/")%string with (String "/" (String.concat "/" (y :: cs) ++ "/"))%string. now rewrite (parts_cons x _ P), IH.
Qed.

Lemma substring_all : forall s, substring 0 (String.length s) s = s.
Proof. induction s as [|c s IH]; [reflexivity|]. cbn. now rewrite IH. Qed.

Lemma after_ok : forall r, after_scheme ("gs://" ++ r)%string = Some r.
Proof. intros r. unfold after_scheme. assert (E : String.prefix "gs://" ("gs://" ++ r) = true) by (cbn; destruct r; reflexivity). rewrite E. f_equal. cbn. rewrite ?Nat.sub_0_r. apply substring_all. Qed.

Lemma parse_ok : forall b cs, plain b -> Forall plain cs -> parse_gcs_path (path_of b cs) = Ok (b, (String.concat "/" cs ++ "/")%string).
Proof.
  intros b cs P F. unfold parse_gcs_path, path_of. rewrite after_ok. change ("/" ++ String.concat "/" cs)%string with (String "/" (String.concat "/" cs)).
  rewrite until_app, from_app by (try apply plain_both; auto). cbn [until]. change (mark "/") with false. cbn iota. rewrite (until_free mark _ (concat_mark cs F)). change (slash "/") with true. cbn iota. now rewrite (concat_ends cs F).
Qed.

Lemma name_ok : forall b cs, plain b -> Forall plain cs -> name_of (path_of b cs) = cs.
Proof. intros b cs P F. unfold name_of, path_of. rewrite after_ok. change ("/" ++ String.concat "/" cs)%string with (String "/" (String.concat "/" cs)). now rewrite (parts_cons b _ P), (parts_concat cs F). Qed.
