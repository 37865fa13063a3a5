(** What is expected of the stored array metadata, independent of how it is stored and checked. *)
From Coq Require Import List Bool Arith NArith ZArith String Ascii Permutation.
From Verif Require Import Base Tree_Model ArrayMeta_Model.
Import ListNotations.
Open Scope string_scope.

(** [inside v j]: the value [v] occurs somewhere in [j]. *)
Inductive inside (v : jv) : jv -> Prop :=
| inside_here : inside v v
| inside_list : forall l x, In x l -> inside v x -> inside v (JList l)
| inside_obj : forall l k x, In (k, x) l -> inside v x -> inside v (JObj l).

(** JSON proper, without Python objects *)
Definition pure (j : jv) : Prop := forall n ws cs e, ~ inside (JMeta n ws cs e) j.

(** Some object inside has the key that marks array metadata. *)
Definition reserved (j : jv) : Prop := exists l v, inside (JObj l) j /\ In ("array_metadata", v) l.

(** Metadata that can be stored: the extension is an object or missing, as annotated *)
Definition typed (m : sam) : Prop := s_ext m = JNull \/ exists l, s_ext m = JObj l.
Definition storable (m : sam) : Prop := typed m /\ pure (s_ext m) /\ ~ reserved (s_ext m).

(** All that process [p] wrote, in order *)
Definition by_process (p : N) (ws : list (N * list sam)) : list sam :=
  List.concat (map snd (filter (fun x => N.eqb (fst x) p) ws)).

(** Some process may create the directory before the others need it. *)
Definition starts_primary (primary_host : option N) (ws : list (N * list sam)) : Prop :=
  forall p ms rest, ws = (p, ms) :: rest -> primary_host = None \/ primary_host = Some p.

(** A listing of the directory with these files of processes and other files, in any order *)
Definition lists (listing : list (string * jv)) (f : files) : Prop :=
  exists others, Permutation listing (f ++ others)%list /\
    forall n j, In (n, j) others -> prefix "process_" n = false.

(** The entry that counts for a name is the last one. *)
Definition counts (l : list sam) (n : string) (m : sam) : Prop :=
  exists a b, l = (a ++ m :: b)%list /\ s_name m = n /\ ~ In n (map s_name b).

(** The implementation of random keys stored with an array; a missing one is null *)
Definition stores_impl (m : sam) (v : jv) : Prop :=
  exists l, s_ext m = JObj l /\
    ((exists a b, l = (a ++ ("random_key_impl", v) :: b)%list /\ ~ In "random_key_impl" (map fst a)) \/
     (v = JNull /\ ~ In "random_key_impl" (map fst l))).

(** Two processes stored the same of one array. *)
Definition agree (a b : sam) : Prop :=
  s_cs a = s_cs b /\ s_ws a = s_ws b /\ (s_ext a = JNull <-> s_ext b = JNull) /\
  (forall v, stores_impl a v <-> stores_impl b v).

(** Two processes stored the same. *)
Definition same_metadata (l l' : list sam) : Prop :=
  List.length l = List.length l' /\
  (forall n, In n (map s_name l) <-> In n (map s_name l')) /\
  (forall n m m', counts l n m -> counts l' n m' -> agree m m').

(** All processes found stored something and the same; one process alone is alone. *)
Definition consistent (process_count : N) (d : list (N * list sam)) : Prop :=
  (forall p l, In (p, l) d -> l <> []) /\
  (forall p l q l', In (p, l) d -> In (q, l') d -> same_metadata l l') /\
  (List.length d = 1 -> process_count = 1%N).

(** ** Saving random keys *)

(** Process [p] saved the parameters [ps]: it wrote their metadata in batches. *)
Definition saved_by {D : Type} (ws : list (N * list sam)) (p : N) (ps : list (param D)) : Prop :=
  exists limited prio split batches,
    (forall l, List.concat (split l) = l) /\
    plan limited prio split ps = Ok batches /\
    map snd (filter (fun x => N.eqb (fst x) p) ws) = map (map (metadata_of (ext_of ps))) batches.

(** The names and values of parameters *)
Definition values {D : Type} (ps : list (param D)) : list (string * arr D) :=
  map (fun p => (p_name p, p_value p)) ps.

(** No random key has an implementation without a name. *)
Definition named_impls {D : Type} (ps : list (param D)) : Prop :=
  forall p d, In p ps -> p_value p <> Key "" d.
