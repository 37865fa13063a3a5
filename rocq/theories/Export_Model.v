(** Model of the utilities for exports: defaults of signatures, automatic batching, files of exported functions, names of parameters, platforms.
    Source: export/orbax/export/utils.py ("EU").
    Simplifications: texts are lists of characters; a tensor for batching is the list of its rows; files are a map from paths to contents, with directories as entries without content; the exported functions are their serialised bytes (a number);
    a conversion to a tensor is given from outside. Not modelled: tracing by TensorFlow, TF1 sessions (EU l.346-417), the names `jax_param_<i>` for trees whose structure changes with the names (EU l.513-528). *)
From Coq Require Import List Bool Arith NArith String Ascii.
From Verif Require Import Base StepName_Model Tree_Model.
Import ListNotations.
Local Open Scope string_scope.
Local Open Scope list_scope.
Local Open Scope nat_scope.

(** Texts (EU l.503-507) *)
Definition text : Type := list ascii.
(** A text written down (EU l.38) *)
Definition T (s : string) : text := list_ascii_of_string s.
(** EU l.426, l.474 *)
Definition text_eqb (a b : text) : bool := if list_eq_dec ascii_dec a b then true else false.

(** ** Trees with keys *)

(** A key of a path (EU l.488-497) *)
Inductive key : Type := KSeq (i : nat) | KDict (s : text) | KAttr (s : text) | KIndex (i : nat) | KOther.

(** Trees (EU l.509) *)
Inductive ptree (A : Type) : Type := PLeaf (a : A) | PNode (l : list (key * ptree A)).
Arguments PLeaf {A} a.
Arguments PNode {A} l.

(** [tree_map] (EU l.132, l.152) *)
Fixpoint pmap {A B : Type} (f : A -> B) (t : ptree A) : ptree B := match t with PLeaf a => PLeaf (f a) | PNode l => PNode (map (fun kv => (fst kv, pmap f (snd kv))) l) end.
(** [tree_leaves] (EU l.142) *)
Fixpoint pleaves {A : Type} (t : ptree A) : list A := match t with PLeaf a => [a] | PNode l => List.concat (map (fun kv => pleaves (snd kv)) l) end.

(** ** Signatures with defaults *)

(** A tensor spec: name, shape (no shape: any rank; no dimension: any size) and dtype (EU l.84) *)
Record tspec : Type := mkS { s_name : text; s_shape : option (list (option nat)); s_dtype : N }.
(** A default before it is taken in: nothing, a tensor, or something else that may be converted to a dtype (EU l.99-106) *)
Inductive raw (V : Type) : Type := RNone | RTensor (shape : list nat) (dtype : N) (v : V) | RValue (convert : N -> result (list nat * V)).
Arguments RNone {V}.
Arguments RTensor {V} shape dtype v.
Arguments RValue {V} convert.

(** The leaves of a signature: a spec, a spec with a default and if it is primary, or another thing (EU l.143, l.146, l.301-303) *)
Inductive sleaf (V : Type) : Type := SSpec (s : tspec) | SDef (s : tspec) (v : V) (primary : bool) | SOther.
Arguments SSpec {V} s.
Arguments SDef {V} s v primary.
Arguments SOther {V}.

(** [is_subtype_of] for shapes (EU l.108-111) *)
Definition dims_fit (spec : option (list (option nat))) (shape : list nat) : bool :=
  match spec with
  | None => true
  | Some ds => (List.length ds =? List.length shape) && forallb (fun p => match fst p with None => true | Some d => d =? snd p end) (combine ds shape)
  end.

(** EU l.98-115 *)
Definition spec_with_default {V : Type} (s : tspec) (d : raw V) (primary : bool) : result (sleaf V) :=
  match d with
  | RNone => Err ValueError
  | RTensor sh dt v => if N.eqb dt (s_dtype s) && dims_fit (s_shape s) sh then Ok (SDef s v primary) else Err ValueError
  | RValue c => rbind (c (s_dtype s)) (fun p => if dims_fit (s_shape s) (fst p) then Ok (SDef s (snd p) primary) else Err ValueError)
  end.

(** EU l.123-135 *)
Definition remove_signature_defaults {V : Type} (l : list (ptree (sleaf V))) : list (ptree (sleaf V)) := map (pmap (fun x => match x with SDef s _ _ => SSpec s | y => y end)) l.

(** EU l.143, l.146 *)
Definition is_def {V : Type} (x : sleaf V) : bool := match x with SDef _ _ _ => true | _ => false end.
(** EU l.146 *)
Definition is_spec {V : Type} (x : sleaf V) : bool := match x with SSpec _ => true | _ => false end.

(** The values of a tree of specs with defaults; another thing has no default_val (EU l.152) *)
Fixpoint values {V : Type} (t : ptree (sleaf V)) : result (ptree V) :=
  match t with
  | PLeaf (SDef _ v _) => Ok (PLeaf v)
  | PLeaf _ => Err AttributeError
  | PNode l => rmap PNode (sequence (map (fun kv => rmap (pair (fst kv)) (values (snd kv))) l))
  end.

(** EU l.141-153: [None] is [inspect.Parameter.empty] *)
Definition get_default {V : Type} (p : ptree (sleaf V)) : result (option (ptree V)) :=
  if negb (existsb is_def (pleaves p)) then Ok None
  else if existsb is_spec (pleaves p) then Err ValueError
  else rmap Some (values p).
(** EU l.138-154 *)
Definition get_defaults {V : Type} (sig : list (ptree (sleaf V))) : result (list (option (ptree V))) := sequence (map get_default sig).

(** [inspect.Signature]: no parameter without default after one with (EU l.218) *)
Fixpoint signature_ok {V : Type} (seen : bool) (l : list (option V)) : bool :=
  match l with [] => true | None :: r => negb seen && signature_ok false r | Some _ :: r => signature_ok true r end.

(** [bind] and [apply_defaults] for parameters by position or name (EU l.222-223) *)
Fixpoint bind_args {V : Type} (params : list (text * option V)) (args : list V) (kwargs : dict text V) : result (list V) :=
  match params with
  | [] => match args with [] => Ok [] | _ => Err TypeError end
  | (n, d) :: r =>
    match args with
    | a :: args' => match dget text_eqb n kwargs with Some _ => Err TypeError | None => rmap (cons a) (bind_args r args' kwargs) end
    | [] =>
      match dget text_eqb n kwargs with
      | Some v => rmap (cons v) (bind_args r [] kwargs)
      | None => match d with Some v => rmap (cons v) (bind_args r [] kwargs) | None => Err TypeError end
      end
    end
  end.

(** EU l.199-234: the function with defaults, from arguments by position and by name; [names] are the names of the parameters of the traced function. Without any default the function is called as it is: all arguments are needed, which here is a binding without defaults. *)
Definition with_default_args {V B : Type} (f : list (ptree V) -> result B) (names : list text) (sig : list (ptree (sleaf V))) : result (list (ptree V) -> dict text (ptree V) -> result B) :=
  rbind (get_defaults sig) (fun ds =>
  if forallb (fun d => match d with None => true | Some _ => false end) ds || signature_ok false ds then
    Ok (fun args kwargs =>
      if existsb (fun kv => negb (existsb (text_eqb (fst kv)) (map fst (combine names ds)))) kwargs then Err TypeError
      else rbind (bind_args (combine names ds) args kwargs) f)
  else Err ValueError).

(** ** Automatic batching *)

(** A tensor as the list of its rows (EU l.237-239) *)
Definition tens : Type := list N.

(** EU l.243-259; a failed assertion of TensorFlow (InvalidArgumentError) is OtherError *)
Definition repeat_to_batch (x : tens) (n : nat) : result tens :=
  match x with
  | [r] => Ok (repeat r n)
  | _ => if List.length x =? n then Ok x else Err OtherError
  end.

(** EU l.301-303 *)
Fixpoint primaries {V : Type} (l : list (sleaf V)) : result (list bool) :=
  match l with
  | [] => Ok []
  | SSpec _ :: r => rmap (cons true) (primaries r)
  | SDef _ _ p :: r => rmap (cons p) (primaries r)
  | SOther :: _ => Err AttributeError
  end.

(** The size of the first primary tensor (EU l.321-326) *)
Fixpoint primary_size (l : list (tens * bool)) : option nat := match l with [] => None | (x, p) :: r => if p then Some (List.length x) else primary_size r end.

(** EU l.328-341 *)
Definition batch_one (n : nat) (p : tens * bool) : result tens :=
  if snd p then if n =? List.length (fst p) then Ok (fst p) else Err OtherError else repeat_to_batch (fst p) n.

(** The body of the batching function on the flattened arguments; another number of them is another structure (EU l.317-341) *)
Definition auto_batch (flags : list bool) (args : list tens) : result (list tens) :=
  if negb (List.length args =? List.length flags) then Err AssertionError
  else match primary_size (combine args flags) with
       | None => Err AssertionError
       | Some n => sequence (map (batch_one n) (combine args flags))
       end.

(** EU l.300-343 *)
Definition make_auto_batching {V : Type} (sig : list (ptree (sleaf V))) : result (list tens -> result (list tens)) :=
  rbind (primaries (List.concat (map pleaves sig))) (fun flags => if negb (existsb (fun b => b) flags) then Err ValueError else Ok (auto_batch flags)).

(** ** Files of exported functions *)

(** Contents by path; a directory has none (EU l.426-437) *)
Definition fs : Type := dict text (option N).

(** [os.path.join] (EU l.452-454, l.477) *)
Definition join (a b : text) : text :=
  match b with
  | "/"%char :: _ => b
  | _ => match rev a with [] => b | "/"%char :: _ => a ++ b | _ => a ++ "/"%char :: b end
  end.

(** EU l.38, l.452 *)
Definition suffix : text := T ".jax_exported".

(** The directory of a path (EU l.428) *)
Definition parent (p : text) : text := let fix drop l := match l with [] => [] | "/"%char :: r => r | _ :: r => drop r end in rev (drop (rev p)).

(** Opening a file to write: on a file system with directories its directory must be there; an object store ([flat]) has none (EU l.428-429) *)
Definition write (flat : bool) (d : fs) (p : text) (v : N) : result fs :=
  if flat || match dget text_eqb (parent p) d with Some None => true | _ => false end then Ok (dput text_eqb p (Some v) d) else Err OtherError.

(** EU l.420-429 *)
Definition save_one (flat : bool) (d : fs) (p : text) (v : N) : result fs := match dget text_eqb p d with Some _ => Err ValueError | None => write flat d p v end.

(** EU l.440-456; what is on disk afterwards, and the error *)
Fixpoint save_all (flat : bool) (dir : text) (m : dict text N) (d : fs) : fs * result unit :=
  match m with
  | [] => (d, Ok tt)
  | (k, v) :: r =>
    match save_one flat d (join dir (join dir (k ++ suffix))) v with
    | Ok d' => save_all flat dir r d'
    | Err e => (d, Err e)
    end
  end.
(** EU l.447-455 *)
Definition save_map (flat : bool) (dir : text) (m : dict text N) (d : fs) : fs * result unit :=
  match dget text_eqb dir d with Some _ => (d, Err ValueError) | None => save_all flat dir m (dput text_eqb dir None d) end.

(** The name of an entry directly in a directory (EU l.473) *)
Fixpoint strip (p q : text) : option text := match p, q with [], _ => Some q | a :: p', b :: q' => if ascii_dec a b then strip p' q' else None | _, _ => None end.
(** EU l.473 *)
Definition child (dir p : text) : option text := match strip (join dir []) p with Some (c :: n) => if existsb (Ascii.eqb "/"%char) (c :: n) then None else Some (c :: n) | _ => None end.
(** The names in a directory (EU l.473) *)
Definition listdir (dir : text) (d : fs) : list text := List.concat (map (fun e => match child dir (fst e) with Some n => [n] | None => [] end) d).

(** [endswith] and what is before (EU l.474, l.479) *)
Definition unsuffix (n : text) : option text := option_map (@rev ascii) (strip (rev suffix) (rev n)).

(** EU l.432-437: a directory can not be read as a file *)
Definition load_one (d : fs) (p : text) : result N := match dget text_eqb p d with None => Err ValueError | Some None => Err OtherError | Some (Some v) => Ok v end.

(** EU l.459-483 *)
Definition load_map (dir : text) (d : fs) : result (dict text N) :=
  match dget text_eqb dir d with
  | None => Err ValueError
  | Some _ =>
    rbind (fold_left (fun r n => rbind r (fun m => match unsuffix n with None => Ok m | Some k => rmap (fun v => dput text_eqb k v m) (load_one d (join dir n)) end)) (listdir dir d) (Ok []))
      (fun m => match m with [] => Err ValueError | _ => Ok m end)
  end.

(** ** Names of parameters *)

(** EU l.486-497, with [str] around it (EU l.504) *)
Definition key_name (k : key) : result text := match k with KSeq i => Ok (dec (N.of_nat i)) | KDict s => Ok s | KAttr s => Ok s | KIndex i => Ok (dec (N.of_nat i)) | KOther => Err ValueError end.

(** ['.'.join] (EU l.504) *)
Fixpoint dotted (l : list text) : text := match l with [] => [] | [x] => x | x :: r => x ++ "."%char :: dotted r end.
(** EU l.507 *)
Definition no_tilde (t : text) : text := map (fun c => if Ascii.eqb c "~"%char then "_"%char else c) t.
(** EU l.503-507 *)
Definition param_name (path : list key) : result text := rmap (fun l => no_tilde (dotted l)) (sequence (map key_name path)).

(** The paths of the leaves in their order (EU l.509) *)
Fixpoint paths {A : Type} (t : ptree A) : list (list key) := match t with PLeaf _ => [[]] | PNode l => List.concat (map (fun kv => map (cons (fst kv)) (paths (snd kv))) l) end.
(** The leaves of the tree of names (EU l.500-511) *)
Definition param_names {A : Type} (t : ptree A) : result (list text) := sequence (map param_name (paths t)).

(** ** Platforms and types *)

(** Lower case of a letter (EU l.578-580) *)
Definition lower_char (c : ascii) : ascii := let n := nat_of_ascii c in if (65 <=? n) && (n <=? 90) then ascii_of_nat (n + 32) else c.
(** EU l.580 *)
Definition lower (t : text) : text := map lower_char t.

(** Argument: nothing, one text or several (EU l.560-562) *)
Inductive platforms : Type := PNothing | POne (p : text) | PMany (l : list text).

(** EU l.572-589; [known] are the names of the enumeration, [None] when the name `manifest_pb2` is not bound (NameError is OtherError) *)
Definition lowering_platforms (known : option (list text)) (a : platforms) : result (option (list text)) :=
  match a with
  | PNothing => Ok None
  | _ =>
    let l := match a with POne p => [p] | PMany l => l | PNothing => [] end in
    match known with
    | None => Err OtherError
    | Some ks => if forallb (fun p => existsb (text_eqb p) (map lower ks)) (map lower l) then Ok (Some (map lower l)) else Err ValueError
    end
  end.
(** The names that `utils.py` itself imports: there is no `manifest_pb2` among them (EU l.17-32) *)
Definition utils_known : option (list text) := None.

(** Leaves for the conversion: shape structs and arrays with a dtype, python floats, other things (EU l.605-620) *)
Inductive dtype : Type := Float32 | Float64 | Float16 | BFloat16 | Int32 | Str.
(** EU l.605-620 *)
Inductive bleaf : Type := BStruct (d : dtype) | BArray (d : dtype) | BFloat | BOther.
(** [jnp.issubdtype(d, float32)] (EU l.607, l.618) *)
Definition is_f32 (d : dtype) : bool := match d with Float32 => true | _ => false end.
(** EU l.605-620 *)
Definition bf16_leaf (x : bleaf) : bleaf :=
  match x with
  | BStruct d => if is_f32 d then BStruct BFloat16 else x
  | BArray d => match d with Str => x | _ => if is_f32 d then BArray BFloat16 else x end
  | y => y
  end.
(** EU l.592-626 *)
Definition to_bfloat16 (t : ptree bleaf) : ptree bleaf := pmap bf16_leaf t.
