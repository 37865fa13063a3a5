(** What the start of multi-tier checkpointing should do, said without the functions of the model. *)
From Coq Require Import List Bool Arith NArith ZArith String Ascii.
From Verif Require Import Base StepName_Model StepName_Spec Tree_Model Mtc_Model.
Import ListNotations.
Local Open Scope list_scope.

(** The directory [k] seconds later if only the others act *)
Fixpoint after (env : environment) (k : nat) (d : dir) (t : nat) : dir := match k with 0 => d | S k' => after env k' (env t d) (S t) end.

(** The directory at the [k]-th look for markers: at each look the files of errors are taken away *)
Fixpoint looked (env : environment) (k : nat) (d : dir) (t : nat) : dir := match k with 0 => d | S k' => looked env k' (env t (snd (check_errors d))) (S t) end.

(** What a name stands for in a directory *)
Definition holds (d : dir) (n : string) (x : node) : Prop := dget String.eqb n d = Some x.
Definition absent (d : dir) (n : string) : Prop := dget String.eqb n d = None.
Definition same (d d' : dir) (n : string) : Prop := dget String.eqb n d' = dget String.eqb n d.

(** The replicator has reported a fatal error *)
Definition fatal (d : dir) : Prop := exists x, holds d failed_file (NFile (Some x)) /\ x <> ""%string.

(** One rank for each process, all different *)
Definition ranks_ok (m : list Z) (num : nat) : Prop := List.length m = num /\ (forall r, In r m -> (0 <= r < Z.of_nat num)%Z) /\ NoDup m.

(** The rank [r] is of a process at the place of [me] in another slice *)
Definition peer (m : list Z) (num slices me : nat) (r : Z) : Prop :=
  exists j, (j < num)%nat /\ j <> me /\ j mod (num / slices) = me mod (num / slices) /\ nth_error m j = Some r.

(** The name of a marker: {job}-s{step}-n{rank}-w{rank}.restore *)
Definition digits (l : list ascii) : Prop := l <> [] /\ Forall (fun c => exists v, char_digit c = Some v) l.
Definition text (s : string) : list ascii := list_ascii_of_string s.
Definition newline_char : ascii := ascii_of_nat 10.
Definition marker_name (name : string) (step : list ascii) : Prop :=
  exists job n w, text name = job ++ text "-s" ++ step ++ text "-n" ++ n ++ text "-w" ++ w ++ text ".restore" /\
    job <> [] /\ ~ In newline_char job /\ digits step /\ digits n /\ digits w.

(** Names that end with .restore *)
Definition restore_name (name : string) : Prop := exists p, name = (p ++ ".restore")%string.

(** A marker that says there is no checkpoint *)
Definition says_none (d : dir) (name : string) : Prop := marker_name name ["0"%char] /\ (exists x, holds d name x /\ (x = NLink true \/ exists y, x = NFile y)).

(** A marker of the directory that is for a step *)
Definition says_step (d : dir) (name : string) (v : N) : Prop := (exists x, holds d name x) /\ ~ says_none d name /\ exists s, marker_name name s /\ denotes s v.

(** The marker to follow: of the highest step, and of those the first by name *)
Definition chosen (d : dir) (name : string) (v : N) : Prop :=
  says_step d name v /\ forall o w, says_step d o w -> (w <= v)%N /\ (w = v -> String.leb name o = true).

(** Names that starting to restore does not touch *)
Definition bystander (n : string) : Prop := ~ restore_name n /\ n <> errors_file /\ n <> failed_file.

(** Nothing to do yet *)
Definition quiet (d : dir) : Prop := ~ fatal d /\ forall n x, holds d n x -> ~ restore_name n.

(** The text of an integer *)
Definition int_text (z : Z) (s : string) : Prop := exists ds, ds <> [] /\ denotes ds (Z.abs_N z) /\ text s = (if (z <? 0)%Z then ["-"%char] else []) ++ ds.

(** The name of a run is one line without white space at its end *)
Definition plain_run (s : string) : Prop := ~ In newline_char (text s) /\ (match rev (text s) with c :: _ => space c = false | [] => False end).

(** Every name that ends with .restore is that of a marker *)
Definition well_named (d : dir) : Prop := forall n x, holds d n x -> restore_name n -> exists s, marker_name n s.
