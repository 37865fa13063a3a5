(** C23, C24: fragments of arrays. *)
From Coq Require Import ZArith List Lia.
From Verif Require Import Base Nd_Model Fragment_Model Fragment_Spec Fragment_Proofs.
Import ListNotations.
Local Open Scope Z_scope.

(** A 4x6 array numbered row by row, as a fragment at (10, 20). *)
Definition ex_arr : arr Z := mk_arr [4; 6] (fun c => match c with [i; j] => 6 * i + j | _ => -1 end).
Definition ex_frag : frag Z := mk_frag [mk_sl 10 14 1; mk_sl 20 26 1] (Some ex_arr).

Lemma ex_frag_ok : well_formed ex_frag /\ unit_steps (f_index ex_frag).
Proof.
  split; [split|].
  - repeat constructor; simpl; lia.
  - simpl. intros a H. injection H as <-. reflexivity.
  - repeat constructor.
Qed.

(** ** C23 *)

(** A contiguous fragment whose dimensions are multiples of the target's is cut
    into disjoint pieces of the target shape that cover it and keep its values. *)
Theorem C23_chunk_fragment : forall (V : Type) (f : frag V) ts, well_formed f -> unit_steps (f_index f) ->
  Forall (fun t => 1 <= t) ts -> Forall2 (fun n t => (t | n)) (map extent (f_index f)) ts ->
  exists ps, chunk_fragment f ts = Ok ps /\ chunked f ts ps.
Proof. exact (fun V f ts a b c => proj1 (chunk_spec f ts a b c)). Qed.
Print Assumptions C23_chunk_fragment.

Example C23_chunk_fragment_ex :
  Forall2 (fun n t => (t | n)) (map extent (f_index ex_frag)) [2; 3] /\
  rmap (map f_index) (chunk_fragment ex_frag [2; 3]) =
    Ok [[mk_sl 10 12 1; mk_sl 20 23 1]; [mk_sl 10 12 1; mk_sl 23 26 1];
        [mk_sl 12 14 1; mk_sl 20 23 1]; [mk_sl 12 14 1; mk_sl 23 26 1]] /\
  rmap (map (fun p => option_map (fun a => map (aget a) (all_coords (ashape a))) (f_value p))) (chunk_fragment ex_frag [2; 3]) =
    Ok [Some [0; 1; 2; 6; 7; 8]; Some [3; 4; 5; 9; 10; 11];
        Some [12; 13; 14; 18; 19; 20]; Some [15; 16; 17; 21; 22; 23]].
Proof.
  split; [|split; vm_compute; reflexivity].
  repeat constructor; [exists 2|exists 2]; reflexivity.
Qed.

(** Every other positive target is refused. *)
Theorem C23_refused : forall (V : Type) (f : frag V) ts, well_formed f -> unit_steps (f_index f) ->
  Forall (fun t => 1 <= t) ts -> ~ Forall2 (fun n t => (t | n)) (map extent (f_index f)) ts ->
  chunk_fragment f ts = Err ValueError.
Proof. exact (fun V f ts a b c => proj2 (chunk_spec f ts a b c)). Qed.
Print Assumptions C23_refused.

Example C23_refused_ex : chunk_fragment ex_frag [2; 4] = Err ValueError /\ chunk_fragment ex_frag [2] = Err ValueError.
Proof. split; reflexivity. Qed.

(** A list of fragments, overlapping or not, has after chunking the same value at
    every coordinate (that of the last fragment covering it). *)
Theorem C23_chunk_fragments : forall (V : Type) (fs : frags V) ts, Forall (fun t => 1 <= t) ts ->
  (forall f, In f (fs_list fs) -> well_formed f /\ unit_steps (f_index f)) ->
  ((forall f, In f (fs_list fs) -> Forall2 (fun n t => (t | n)) (map extent (f_index f)) ts) ->
   exists gs, chunk_fragments fs ts = Ok gs /\ fs_shape gs = fs_shape fs /\
     (forall p, In p (fs_list gs) -> map extent (f_index p) = ts /\ well_formed p) /\
     (forall c, (exists p, In p (fs_list gs) /\ covers (f_index p) c) <-> (exists f, In f (fs_list fs) /\ covers (f_index f) c)) /\
     (forall c v, last_holds (fs_list gs) c v <-> last_holds (fs_list fs) c v)) /\
  ((exists f, In f (fs_list fs) /\ ~ Forall2 (fun n t => (t | n)) (map extent (f_index f)) ts) ->
   chunk_fragments fs ts = Err ValueError).
Proof. exact @chunk_fragments_spec. Qed.
Print Assumptions C23_chunk_fragments.

Example C23_chunk_fragments_ex :
  rmap (fun gs => map f_index (fs_list gs))
    (chunk_fragments (mk_frags [20; 30] [ex_frag; mk_frag [mk_sl 0 2 1; mk_sl 0 6 1] None]) [2; 6]) =
  Ok [[mk_sl 10 12 1; mk_sl 20 26 1]; [mk_sl 12 14 1; mk_sl 20 26 1]; [mk_sl 0 2 1; mk_sl 0 6 1]].
Proof. reflexivity. Qed.

(** The docstring of chunk_fragment gives an example with a step of two:
    [0:4:2, 0:2:1] cut into pieces of shape (2, 1).  The pieces returned have
    step one, so the second pair claims rows 2 and 3 but carries arrays without
    any element, row 3 was never part of the fragment, and the value of row 2 is
    handed out as that of row 1. *)
Theorem C23_steps_refuted : exists (f : frag Z) ts ps, well_formed f /\
  Forall2 (fun n t => (t | n)) (map extent (f_index f)) ts /\ chunk_fragment f ts = Ok ps /\
  (exists p a, In p ps /\ f_value p = Some a /\ ashape a <> map extent (f_index p)) /\
  (exists p c, In p ps /\ covers (f_index p) c /\ ~ covers (f_index f) c) /\
  (exists p v, In p ps /\ holds f [2; 0] v /\ holds p [1; 0] v).
Proof.
  set (a := mk_arr [2; 2] (fun c => match c with [i; j] => 2 * i + j | _ => -1 end)).
  exists (mk_frag [mk_sl 0 4 2; mk_sl 0 2 1] (Some a)), [2; 1]. eexists. split; [|split; [|split; [|split; [|split]]]].
  - split. repeat constructor; simpl; lia. simpl. intros x H. injection H as <-. reflexivity.
  - repeat constructor; [exists 1|exists 2]; reflexivity.
  - vm_compute. reflexivity.
  - eexists. eexists. split; [simpl; right; right; left; reflexivity|]. split. reflexivity. simpl. discriminate.
  - eexists. exists [3; 0]. split; [simpl; right; right; left; reflexivity|]. split.
    + repeat constructor; simpl; [exists 1|exists 0]; simpl; lia.
    + intros H. inversion H; subst. destruct H3 as (k & ? & E & ?). simpl in E. lia.
  - eexists. exists 2. split; [simpl; left; reflexivity|]. split.
    + exists a, [1; 0]. repeat split; auto. repeat constructor; lia.
    + eexists. exists [1; 0]. split; [reflexivity|]. repeat split; auto. repeat constructor; simpl; lia.
Qed.
Print Assumptions C23_steps_refuted.

(** A negative target that divides the shape is accepted, and all the data is
    dropped: no piece is returned. *)
Theorem C23_negative_target_refuted : exists (f : frag Z) ts, well_formed f /\ unit_steps (f_index f) /\
  (exists c, covers (f_index f) c) /\ chunk_fragment f ts = Ok [].
Proof.
  exists ex_frag, [-2; -3]. destruct ex_frag_ok. split; auto. split; auto. split; [|vm_compute; reflexivity].
  exists [10; 20]. repeat constructor; simpl; [exists 0|exists 0]; simpl; lia.
Qed.
Print Assumptions C23_negative_target_refuted.

(** validate_divisible_shapes lets numpy broadcast: (4, 6) counts as divisible by
    the shape (2,), and a shape with any dimension by the empty shape only when
    both are empty. *)
Theorem C23_divisible_shapes_refuted : exists a b,
  validate_divisible_shapes a b = true /\ List.length a <> List.length b.
Proof. exists [4; 6], [2]. split; [reflexivity|discriminate]. Qed.
Print Assumptions C23_divisible_shapes_refuted.

(** ** C24 *)

(** The intersection of a contiguous fragment with a box: exactly the common
    coordinates, with the fragment's values; None exactly when there is none. *)
Theorem C24_intersect : forall (V : Type) (f : frag V) idx,
  well_formed f -> unit_steps (f_index f) -> unit_steps idx -> List.length (f_index f) = List.length idx ->
  exists r, intersect f idx = Ok r /\
  match r with
  | None => forall c, ~ (covers (f_index f) c /\ covers idx c)
  | Some g =>
      well_formed g /\ unit_steps (f_index g) /\ (concrete g <-> concrete f) /\
      (exists c, covers (f_index g) c) /\
      (forall c, covers (f_index g) c <-> covers (f_index f) c /\ covers idx c) /\
      (forall c v, holds g c v <-> holds f c v /\ covers idx c)
  end.
Proof. exact @intersect_spec. Qed.
Print Assumptions C24_intersect.

Definition ex_vals {V} (f : frag V) : option (list V) :=
  option_map (fun a => map (aget a) (all_coords (ashape a))) (f_value f).

Example C24_intersect_ex :
  rmap (option_map f_index) (intersect ex_frag [mk_sl 13 20 1; mk_sl 0 22 1]) = Ok (Some [mk_sl 13 14 1; mk_sl 20 22 1]) /\
  rmap (option_map ex_vals) (intersect ex_frag [mk_sl 13 20 1; mk_sl 0 22 1]) = Ok (Some (Some [18; 19])) /\
  intersect ex_frag [mk_sl 14 20 1; mk_sl 0 22 1] = Ok None.
Proof. repeat split; vm_compute; reflexivity. Qed.

(** Slicing a fragment: the same values, at the coordinates counted from the
    start of the slice. *)
Theorem C24_slice : forall (V : Type) (f : frag V) idx,
  well_formed f -> unit_steps (f_index f) -> unit_steps idx -> List.length (f_index f) = List.length idx ->
  exists r, f_slice f idx = Ok r /\
  match r with
  | None => forall c, ~ (covers (f_index f) c /\ covers idx c)
  | Some h =>
      well_formed h /\ (concrete h <-> concrete f) /\
      List.length (f_index h) = List.length idx /\
      (exists c, covers (f_index h) c) /\
      (forall c, List.length c = List.length idx -> (covers (f_index h) (relative idx c) <-> covers (f_index f) c /\ covers idx c)) /\
      (forall c v, List.length c = List.length idx -> (holds h (relative idx c) v <-> holds f c v /\ covers idx c))
  end.
Proof. exact @slice_spec. Qed.
Print Assumptions C24_slice.

Example C24_slice_ex :
  rmap (option_map f_index) (f_slice ex_frag [mk_sl 12 20 1; mk_sl 5 22 1]) = Ok (Some [mk_sl 0 2 1; mk_sl 15 17 1]) /\
  rmap (option_map ex_vals) (f_slice ex_frag [mk_sl 12 20 1; mk_sl 5 22 1]) = Ok (Some (Some [12; 13; 18; 19])).
Proof. repeat split; vm_compute; reflexivity. Qed.

(** Slicing a collection of fragments: the shape is the clipped slice's, every
    coordinate of the slice keeps its value, and nothing else is there; a slice
    with a negative clipped length is refused. *)
Theorem C24_fragments_slice : forall (V : Type) (fs : frags V) idx, unit_steps idx ->
  List.length (fs_shape fs) = List.length idx ->
  (forall f, In f (fs_list fs) -> well_formed f /\ unit_steps (f_index f) /\ List.length (f_index f) = List.length idx) ->
  (Forall2 (fun n s => sl_start s <= Z.min n (sl_stop s)) (fs_shape fs) idx ->
   exists gs, fs_slice fs idx = Ok gs /\
     Forall2 (fun ns m => m = Z.min (fst ns) (sl_stop (snd ns)) - sl_start (snd ns)) (combine (fs_shape fs) idx) (fs_shape gs) /\
     (forall g, In g (fs_list gs) -> well_formed g) /\
     (forall c, covers idx c -> forall v, last_holds (fs_list gs) (relative idx c) v <-> last_holds (fs_list fs) c v) /\
     (forall c g, List.length c = List.length idx -> In g (fs_list gs) -> covers (f_index g) (relative idx c) -> covers idx c)) /\
  (~ Forall2 (fun n s => sl_start s <= Z.min n (sl_stop s)) (fs_shape fs) idx -> fs_slice fs idx = Err ValueError).
Proof. exact @fs_slice_ok. Qed.
Print Assumptions C24_fragments_slice.

Example C24_fragments_slice_ex :
  rmap (fun gs => (fs_shape gs, map f_index (fs_list gs)))
    (fs_slice (mk_frags [14; 26] [ex_frag; mk_frag [mk_sl 0 10 1; mk_sl 0 26 1] None]) [mk_sl 12 20 1; mk_sl 5 22 1]) =
  Ok ([2; 17], [[mk_sl 0 2 1; mk_sl 15 17 1]]).
Proof. vm_compute; reflexivity. Qed.

(** Assembly of concrete fragments lying inside the shape: when every coordinate
    is covered the array has at each coordinate the value of a fragment covering
    it, the last one unless a single fragment spans everything; when some
    coordinate is not covered it is refused. *)
Theorem C24_assemble : forall (V : Type) junk (fs : frags V),
  (forall f, In f (fs_list fs) -> well_formed f /\ concrete f /\ fits (fs_shape fs) f) ->
  ((forall c, inside (fs_shape fs) c -> exists f, In f (fs_list fs) /\ covers (f_index f) c) ->
     exists a, to_array junk false fs = Ok a /\ ashape a = fs_shape fs /\
       (forall c, inside (fs_shape fs) c -> exists f, In f (fs_list fs) /\ holds f c (aget a c)) /\
       ((forall f, In f (fs_list fs) -> map extent (f_index f) <> fs_shape fs) ->
        forall c, inside (fs_shape fs) c -> last_holds (fs_list fs) c (aget a c))) /\
  (~ (forall c, inside (fs_shape fs) c -> exists f, In f (fs_list fs) /\ covers (f_index f) c) ->
     to_array junk false fs = Err ValueError).
Proof. exact @to_array_spec. Qed.
Print Assumptions C24_assemble.

(** One row, written by two overlapping fragments. *)
Definition ex_row (s t v : Z) : frag Z := mk_frag [mk_sl s t 1] (Some (mk_arr [t - s] (fun _ => v))).

Example C24_assemble_ex :
  rmap (fun a => map (aget a) (all_coords (ashape a))) (to_array (fun _ => 99) false (mk_frags [4] [ex_row 0 3 7; ex_row 2 4 8])) =
    Ok [7; 7; 8; 8] /\
  to_array (fun _ => 99) false (mk_frags [4] [ex_row 0 2 7; ex_row 3 4 8]) = Err ValueError.
Proof. split; vm_compute; reflexivity. Qed.

(** Taking an array apart along any covering set of indices (any steps, any
    overlap) and assembling it again gives the array. *)
Theorem C24_round_trip : forall (V : Type) junk (x : arr V) indices,
  (forall i, In i indices -> within (ashape x) i) ->
  (forall c, inside (ashape x) c -> exists i, In i indices /\ covers i c) ->
  exists fs a, of_array x indices = Ok fs /\ to_array junk false fs = Ok a /\
    ashape a = ashape x /\ forall c, inside (ashape x) c -> aget a c = aget x c.
Proof. exact @array_roundtrip. Qed.
Print Assumptions C24_round_trip.

Example C24_round_trip_ex :
  rmap (fun a => map (aget a) (all_coords (ashape a)))
    (rbind (of_array ex_arr [[mk_sl 0 4 2; mk_sl 0 6 1]; [mk_sl 1 4 2; mk_sl 0 6 1]]) (to_array (fun _ => 99) false)) =
  Ok (map Z.of_nat (seq 0 24)).
Proof. vm_compute; reflexivity. Qed.

(** When one fragment has the whole shape it is returned at once, even if a later
    fragment overwrites part of it: the first one wins there, the last one
    everywhere else. *)
Theorem C24_last_wins_refuted : exists (fs : frags Z) a c v,
  (forall f, In f (fs_list fs) -> well_formed f /\ concrete f /\ fits (fs_shape fs) f) /\
  to_array (fun _ => 0) false fs = Ok a /\ inside (fs_shape fs) c /\
  last_holds (fs_list fs) c v /\ aget a c <> v.
Proof.
  exists (mk_frags [2] [ex_row 0 2 7; ex_row 1 2 8]). eexists. exists [1], 8. split; [|split; [|split; [|split]]].
  - intros f [<-|[<-|[]]]; (split; [split|split]).
    all: try (repeat constructor; simpl; lia); try discriminate.
    all: simpl; intros a H; injection H as <-; reflexivity.
  - vm_compute. reflexivity.
  - repeat constructor; lia.
  - apply LH_later, LH_here; [|intros ? []]. eexists. exists [0]. split; [reflexivity|]. repeat split; auto. repeat constructor; simpl; lia.
  - vm_compute. discriminate.
Qed.
Print Assumptions C24_last_wins_refuted.

(** The same short cut compares only sizes, not positions: a fragment at [2:4] of
    an array of shape (2,) is accepted as the whole array although no coordinate
    of the array is covered. *)
Theorem C24_position_refuted : exists (fs : frags Z) a,
  to_array (fun _ => 0) false fs = Ok a /\
  (forall f, In f (fs_list fs) -> well_formed f /\ concrete f) /\
  forall c f, inside (fs_shape fs) c -> In f (fs_list fs) -> ~ covers (f_index f) c.
Proof.
  exists (mk_frags [2] [ex_row 2 4 7]). eexists. split; [vm_compute; reflexivity|]. split.
  - intros f [<-|[]]. split; [split|].
    + repeat constructor; simpl; lia.
    + simpl; intros a H; injection H as <-; reflexivity.
    + discriminate.
  - intros c f H [<-|[]] C. simpl in *. inversion H as [|? x ? ? Hx Hr]; subst. inversion Hr; subst.
    assert (X : selects (mk_sl 2 4 1) x) by (inversion C; auto). destruct X as (k & ? & E & ?). cbn [sl_start sl_step] in E. lia.
Qed.
Print Assumptions C24_position_refuted.
