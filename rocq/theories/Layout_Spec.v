(** What layouts are to do, stated without the functions of the model. *)
From Coq Require Import List Bool Arith String.
From Verif Require Import Base Registry_Model Layout_Model.
Import ListNotations.
Open Scope string_scope.

(** Something of a name is in a directory *)
Definition there (name : string) (l : list (string * node)) : Prop := exists x, In (name, x) l.

(** A directory of a name that is not kept for other uses, with the metadata of a tree *)
Definition candidate (l : list (string * node)) (n : string) : Prop :=
  n <> "metrics" /\ n <> "AUTO" /\ exists d, In (n, Dir d) l /\ there "_METADATA" d.

(** "state" if it can be, else the first name in the alphabet *)
Definition chosen (l : list (string * node)) (n : string) : Prop :=
  candidate l n /\ (n = "state" \/ (~ candidate l "state" /\ forall m, candidate l m -> String.leb n m = true)).

(** What is a checkpoint of the version that has an indicator *)
Definition new_checkpoint (p : place) : Prop :=
  exists l, p_node p = Some (Dir l) /\ p_temporary p = false /\ there "_CHECKPOINT_METADATA" l /\ there "orbax.checkpoint" l.

(** What is taken for a checkpoint without an indicator *)
Definition old_checkpoint (p : place) : Prop :=
  exists l, p_node p = Some (Dir l) /\ p_temporary p = false /\ p_parent_meta p = false /\
    (there "_CHECKPOINT_METADATA" l \/ there "_METADATA" l \/ forall n d, In (n, Dir d) l -> ~ there "_CHECKPOINT_METADATA" d).

(** The names of handlers are not shared, and none is empty. *)
Definition apart {O : Type} (W : world O) (r : registry) : Prop :=
  forall h, In h (map fst (r_entries r)) -> w_typestr W h <> "" /\
    forall x m, In (x, m) (r_entries r) -> w_typestr W x = w_typestr W h \/ In (w_typestr W h) (secondary_of x r) -> x = h.

(** Nothing that saves itself has a name that is registered. *)
Definition plain {O : Type} (W : world O) (r : registry) (cs : list (string * option O)) : Prop :=
  forall n o, In (n, Some o) cs -> w_stateful W o = false \/ forall x, ~ In (x, Some n) (r_entries r).

(** Handlers load what they saved. *)
Definition faithful {O : Type} (I : io O) : Prop := forall h o d, io_save I h o = Ok d -> io_load I h None d = Ok o.
