(** Specification for the metadata of shardings. *)
From Coq Require Import List Bool Arith ZArith String Ascii.
From Verif Require Import Base Sharding_Model.
Import ListNotations.

(** The number of places of a shape. *)
Fixpoint size (shape : list nat) : nat := match shape with [] => 1 | n :: s => n * size s end.

(** A mesh as jax makes them. *)
Definition proper (m : mesh) : Prop :=
  List.length (m_devices m) = size (m_shape m) /\ List.length (m_names m) = List.length (m_shape m) /\ List.length (m_types m) = List.length (m_names m) /\ NoDup (m_names m).

(** The names of axes that a spec uses, in order. *)
Fixpoint uses (spec : list elem) : list string :=
  match spec with [] => [] | ENone :: s => uses s | EAxis a :: s => a :: uses s | EAxes l :: s => l ++ uses s end.

(** A spec as jax makes them, for the mesh: it uses axes of the mesh, each at most once; an element with one axis is written without a tuple. *)
Definition fits (m : mesh) (spec : list elem) : Prop :=
  NoDup (uses spec) /\ (forall a, In a (uses spec) -> In a (m_names m)) /\ forall l, In (EAxes l) spec -> List.length l <> 1.

(** A sharding of one of the two classes as jax makes them. *)
Definition valid (s : sharding) : Prop :=
  match s with SNamed m spec _ => proper m /\ fits m spec | SSingle _ _ => True | SOther _ => False end.

(** The sharding with the default memory kind. *)
Definition forget (s : sharding) : sharding := match s with SNamed m spec _ => SNamed m spec None | SSingle d _ => SSingle d None | SOther n => SOther n end.

(** No two devices have the same id, and no two devices of this process have the same name (cpu devices are called TFRT_CPU_n or cpu:n). *)
Definition told_apart (e : env) : Prop :=
  NoDup (map d_id (e_devices e)) /\
  forall d d', In d (e_devices e) -> In d' (e_devices e) -> d_process d = e_process e -> d_process d' = e_process e -> norm (d_str d) = norm (d_str d') -> d = d'.

(** The devices of the sharding are there; a single one belongs to this process. *)
Definition there (e : env) (s : sharding) : Prop :=
  match s with
  | SNamed m _ _ => forall d, In d (m_devices m) -> In d (e_devices e)
  | SSingle d _ => In d (e_devices e) /\ d_process d = e_process e
  | SOther _ => False
  end.

(** Elements of a spec before and after json: a tuple has become a list. *)
Inductive same_elem : py -> py -> Prop :=
| same_none : same_elem PNone PNone
| same_name : forall a, same_elem (PStr a) (PStr a)
| same_names : forall l, same_elem (PTuple (map PStr l)) (PList (map PStr l)).

(** Metadata before and after json: the same but for tuples in the spec, and an empty tuple of types is none. *)
Definition same_meta (m m' : meta) : Prop :=
  match m, m' with
  | MSingle s, MSingle s' => s = s'
  | MNamed n, MNamed n' => n_shape n = n_shape n' /\ n_names n = n_names n' /\ n_mesh n = n_mesh n' /\ Forall2 same_elem (n_spec n) (n_spec n') /\
      (n_types n = n_types n' \/ n_types n = Some [] /\ n_types n' = None)
  | _, _ => False
  end.

(** The character occurs in the string. *)
Fixpoint occurs (c : ascii) (s : string) : Prop := match s with EmptyString => False | String d s' => d = c \/ occurs c s' end.

(** The sharding that the file has for an array: what was written last under its name. *)
Inductive last_saved : list (option sharding * string) -> string -> sharding -> Prop :=
| last_here : forall s name items, from_jax s <> None -> (forall s', In (Some s', name) items -> from_jax s' = None) -> last_saved ((Some s, name) :: items) name s
| last_later : forall it name items s, last_saved items name s -> last_saved (it :: items) name s.

(** The size of the axis of the mesh. *)
Definition axis_size (m : mesh) (a : string) (n : nat) : Prop := exists j, nth_error (m_names m) j = Some a /\ nth_error (m_shape m) j = Some n.

(** Where the sharding of a restored array may come from: the mesh and axes given, else the sharding given, else the file. *)
Inductive origin (e : env) (f : file) (name : option string) : rarg -> sharding -> Prop :=
| from_axes : forall m spec o, origin e f name (RArray (Some m) (Some spec) o) (SNamed m spec None)
| from_given : forall m spec s, (m = None \/ spec = None) -> origin e f name (RArray m spec (Some (inl s))) s
| from_given_metadata : forall m spec md s, (m = None \/ spec = None) -> to_jax e md = Ok s -> origin e f name (RArray m spec (Some (inr md))) s
| from_file : forall a n t md s, a = RPlain \/ (exists m spec, (m = None \/ spec = None) /\ a = RArray m spec None) -> name = Some n -> read_member n f = Json t -> from_string (Json t) = Ok md -> to_jax e md = Ok s -> origin e f name a s.

(** ** Base 64 by bits *)

(** The bits of a text, of each character the highest first *)
Fixpoint bits (s : string) : list bool := match s with EmptyString => [] | String (Ascii a0 a1 a2 a3 a4 a5 a6 a7) r => [a7; a6; a5; a4; a3; a2; a1; a0] ++ bits r end.
(** Groups of six *)
Fixpoint sixes (l : list bool) : list (list bool) := match l with a :: b :: c :: d :: e :: f :: r => [a; b; c; d; e; f] :: sixes r | _ => [] end.
(** The number of some bits *)
Definition number (l : list bool) : nat := fold_left (fun n (b : bool) => (2 * n + (if b then 1 else 0))%nat) l 0%nat.
(** RFC 4648, table 2: letters, small letters, digits, minus and underscore *)
Definition url_char (c : ascii) (b : list bool) : Prop :=
  let n := number b in let k := nat_of_ascii c in
  ((n < 26 /\ k = 65 + n) \/ (26 <= n < 52 /\ k = 97 + (n - 26)) \/ (52 <= n < 62 /\ k = 48 + (n - 52)) \/ (n = 62 /\ k = 45) \/ (n = 63 /\ k = 95))%nat.
Definition of_chars (l : list ascii) : string := fold_right String EmptyString l.
