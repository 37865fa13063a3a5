(** Vocabulary for C56, independent of the functions of the model. *)
From Coq Require Import List Bool Arith ZArith Ascii Permutation.
From Verif Require Import Base Backend_Model.
Import ListNotations.

(** The first element of a list with a property *)
Definition first_of {A : Type} (P : A -> Prop) (l : list A) (x : A) : Prop :=
  exists a c, l = a ++ x :: c /\ P x /\ Forall (fun y => ~ P y) a.

(** The first property in a list of properties that some element has decides; among the elements
    with this property the first one is taken. *)
Fixpoint ranked {A : Type} (Ps : list (A -> Prop)) (l : list A) (r : option A) : Prop :=
  match Ps with
  | [] => r = None
  | P :: Ps' => (exists x, r = Some x /\ first_of P l x) \/ (Forall (fun y => ~ P y) l /\ ranked Ps' l r)
  end.

Definition in_zone (z : str) (b : backend) : Prop := zone b = Some z.
Definition names_region (r : str) (b : backend) : Prop :=
  region b = Some r \/ exists rs, multi_regions b = Some rs /\ In r rs.
Definition zone_begins (z : str) (b : backend) : Prop := exists r t, names_region r b /\ z = r ++ t.

(** The region of a zone: what stands before its last dash *)
Definition region_part (z r : str) : Prop :=
  (exists s, z = r ++ "-"%char :: s /\ ~ In "-"%char s) \/ (~ In "-"%char z /\ r = z).

(** A backend lies in a region *)
Definition lies_in (b : backend) (r : str) : Prop :=
  (region b = Some r /\ r <> []) \/ (exists z, zone b = Some z /\ z <> [] /\ region_part z r).

Definition has_zone (b : backend) : Prop := exists z, zone b = Some z /\ z <> [].

(** The region that counts for the source: that of its zone if it has one *)
Definition source_in (b : backend) (r : str) : Prop :=
  r <> [] /\ ((exists z, zone b = Some z /\ z <> [] /\ region_part z r) \/ (~ has_zone b /\ region b = Some r)).

Definition same_zone (src b : backend) : Prop := exists z, z <> [] /\ zone src = Some z /\ zone b = Some z.
Definition same_region (src b : backend) : Prop := exists r, source_in src r /\ lies_in b r.
Definition covers (src b : backend) : Prop := exists r rs, source_in src r /\ multi_regions b = Some rs /\ In r rs.
Definition shares (src b : backend) : Prop :=
  exists r rs, multi_regions src = Some rs /\ In r rs /\
    (lies_in b r \/ exists l, multi_regions b = Some l /\ In r l).

(** A path is a directory or lies below it, read as text *)
Definition under (p s : str) : Prop := s = p \/ exists t, s = p ++ "/"%char :: t.

(** The name after the last slash *)
Definition last_name (s u : str) : Prop := exists d, s = d ++ "/"%char :: u /\ ~ In "/"%char u.

(** A path as a file system reads it: names between slashes, "." and ".." followed. *)
Fixpoint names (cur s : str) : list str :=
  match s with
  | [] => [rev cur]
  | c :: s' => if ascii_dec c "/" then rev cur :: names [] s' else names (c :: cur) s'
  end.
Definition dot : str := ["."%char].
Definition dots : str := ["."%char; "."%char].
Fixpoint resolve (stack : list str) (l : list str) : list str :=
  match l with
  | [] => rev stack
  | n :: l' =>
      if list_eq_dec ascii_dec n [] then resolve stack l'
      else if list_eq_dec ascii_dec n dot then resolve stack l'
      else if list_eq_dec ascii_dec n dots then resolve (tl stack) l'
      else resolve (n :: stack) l'
  end.
Definition place (s : str) : list str := resolve [] (names [] s).

(** Two backends of a level have the same location *)
Definition clash (b c : backend) : Prop :=
  (exists z, z <> [] /\ zone b = Some z /\ zone c = Some z) \/
  (exists r, r <> [] /\ region b = Some r /\ region c = Some r) \/
  (exists l l', l <> [] /\ multi_regions b = Some l /\ multi_regions c = Some l' /\ Permutation l l').

Definition distinct (bs : list backend) : Prop :=
  forall i j b c, i <> j -> nth_error bs i = Some b -> nth_error bs j = Some c -> btype b = btype c /\ ~ clash b c.

(** The same regions in any order; no list counts as an empty one *)
Definition regions_of (o : option (list str)) : list str := match o with Some l => l | None => [] end.

(** A row has the level and location of a backend of the configuration *)
Definition located (b : backend) (i : instance) : Prop :=
  level b = i_level i /\ zone b = (match i_loc i with AtZone z => Some z | _ => None end)
  /\ region b = (match i_loc i with AtRegion r => Some r | _ => None end)
  /\ Permutation (regions_of (multi_regions b)) (match i_loc i with AtRegions l => l | _ => [] end).

(** ... and its type and prefix *)
Definition represents (b : backend) (i : instance) : Prop :=
  located b i /\ btype b = i_type i /\ bprefix b = i_prefix i.

(** No two backends of the configuration have the same level and location *)
Definition no_twins (config : list instance) : Prop :=
  forall k l i j, k <> l -> nth_error config k = Some i -> nth_error config l = Some j ->
  ~ exists b, located b i /\ located b j.

Definition somewhere (l : location) : Prop :=
  match l with AtZone z => z <> [] | AtRegion r => r <> [] | AtRegions rs => rs <> [] | Nowhere => True end.
