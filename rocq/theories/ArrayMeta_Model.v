(** Model of the metadata that every process stores about the arrays it writes: its files, the
    check that all processes stored the same, and its two uses (random keys are made anew when
    arrays are restored, write shapes go to the metadata file of the tree).
    Source: checkpoint/orbax/checkpoint/_src/metadata/array_metadata_store.py ("AS"),
    checkpoint/orbax/checkpoint/_src/metadata/array_metadata.py ("AM"),
    checkpoint/orbax/checkpoint/_src/serialization/jax_array_handlers.py ("JH"),
    checkpoint/orbax/checkpoint/_src/handlers/base_pytree_checkpoint_handler.py ("BH") and
    checkpoint/orbax/checkpoint/_src/multihost/multihost.py ("MH").
    Simplifications: a JSON text is the JSON value it denotes (without fractional numbers);
    metadata whose fields are not of the annotated types is refused as TypeError when it is
    read; the file name is all digits or refused, digits other than ASCII are refused as well;
    two values of [random_key_impl] are equal if they are the same JSON value; the checkpoint
    directory exists; one write is atomic, and if several files cannot be read the error is that
    of the first one listed; names of implementations unknown to JAX are not refused.
    Not modelled: the time limit of AS l.157-174 beyond its outcome, logging, the array data
    itself, JH l.1152-1240, AS l.309-338. *)
From Coq Require Import List Bool Arith NArith ZArith String Ascii.
From Verif Require Import Base StepName_Model Tree_Model.
Import ListNotations.
Open Scope string_scope.

(** ** Values *)

(** JSON values as Python objects (AS l.127); [JMeta] is a [SerializedArrayMetadata]
    (AM l.45-57), which the hook of AS l.100-110 may make of any JSON object. *)
Inductive jv : Type :=
| JNull
| JBool (b : bool)
| JNum (z : Z)
| JStr (s : string)
| JList (l : list jv)
| JObj (l : list (string * jv))
| JMeta (name : string) (ws cs : list nat) (ext : jv).

(** AM l.45-57 *)
Record sam : Type := mkS { s_name : string; s_ws : list nat; s_cs : list nat; s_ext : jv }.

(** AM l.29-42 *)
Record am : Type := mkAM {
  a_name : string; a_shape : list nat; a_dtype : string; a_ws : list nat; a_cs : list nat;
  a_ocdbt : bool; a_zarr3 : bool; a_ext : jv }.

(** The four attributes of an [ArrayMetadata] that are looked at (AS l.93-96) *)
Definition attrs (a : am) : sam := mkS (a_name a) (a_ws a) (a_cs a) (a_ext a).

(** A shape in JSON (AS l.94-95) *)
Definition nums (l : list nat) : jv := JList (map (fun n => JNum (Z.of_nat n)) l).

(** AS l.87-98 *)
Definition to_dict (m : sam) : jv :=
  JObj [("array_metadata",
         JObj [("param_name", JStr (s_name m)); ("write_shape", nums (s_ws m));
               ("chunk_shape", nums (s_cs m)); ("ext_metadata", s_ext m)])].

(** [obj[k]] where [obj] may be any value (AS l.105-107) *)
Definition item (k : string) (j : jv) : result jv :=
  match j with
  | JObj l => match dget String.eqb k l with Some v => Ok v | None => Err KeyError end
  | _ => Err TypeError
  end.

(** One dimension (AS l.106-107) *)
Definition as_dim (j : jv) : result nat :=
  match j with JNum z => if (0 <=? z)%Z then Ok (Z.to_nat z) else Err TypeError | _ => Err TypeError end.

(** [tuple(...)] (AS l.106-107) *)
Definition as_shape (j : jv) : result (list nat) :=
  match j with JList l => sequence (map as_dim l) | _ => Err TypeError end.

(** AS l.105 *)
Definition as_name (j : jv) : result string := match j with JStr s => Ok s | _ => Err TypeError end.

(** [array_metadata.get('ext_metadata')] (AS l.108) *)
Definition get_ext (j : jv) : result jv :=
  match j with
  | JObj l => Ok (match dget String.eqb "ext_metadata" l with Some v => v | None => JNull end)
  | _ => Err AttributeError
  end.

(** AS l.100-110 *)
Definition from_dict (obj : list (string * jv)) : result jv :=
  match dget String.eqb "array_metadata" obj with
  | Some m =>
    rbind (rbind (item "param_name" m) as_name) (fun n =>
    rbind (rbind (item "write_shape" m) as_shape) (fun ws =>
    rbind (rbind (item "chunk_shape" m) as_shape) (fun cs =>
    rbind (get_ext m) (fun e => Ok (JMeta n ws cs e)))))
  | None => Ok (JObj obj)
  end.

(** [json.loads(..., object_hook=self._from_dict)] (AS l.127): the hook is called for every
    object, for inner objects first. *)
Fixpoint loads (j : jv) : result jv :=
  match j with
  | JList l =>
    rmap JList ((fix go (l : list jv) : result (list jv) :=
      match l with [] => Ok [] | x :: r => rbind (loads x) (fun y => rmap (cons y) (go r)) end) l)
  | JObj l =>
    rbind ((fix go (l : list (string * jv)) : result (list (string * jv)) :=
      match l with [] => Ok [] | (k, x) :: r => rbind (loads x) (fun y => rmap (cons (k, y)) (go r)) end) l) from_dict
  | _ => Ok j
  end.

(** What [json.dumps] can write (AS l.121) *)
Fixpoint plain (j : jv) : bool :=
  match j with
  | JList l => forallb plain l
  | JObj l => forallb (fun x => plain (snd x)) l
  | JMeta _ _ _ _ => false
  | _ => true
  end.

(** [json.dumps] (AS l.121) *)
Definition dumps (j : jv) : result jv := if plain j then Ok j else Err TypeError.

(** AS l.112-121 *)
Definition serialize (l : list sam) : result jv :=
  dumps (JObj [("array_metadatas", JList (map to_dict l))]).

(** An element of the list returned (AS l.128) *)
Definition as_meta (j : jv) : result sam :=
  match j with JMeta n ws cs e => Ok (mkS n ws cs e) | _ => Err TypeError end.

(** AS l.123-128 *)
Definition deserialize (j : jv) : result (list sam) :=
  rbind (loads j) (fun obj =>
  match obj with
  | JObj l =>
    match dget String.eqb "array_metadatas" l with
    | Some (JList l) => sequence (map as_meta l)
    | Some _ => Err TypeError
    | None => Ok []
    end
  | _ => Err AttributeError
  end).

(** ** Files *)

(** The prefix of all file names (AS l.38, l.42) *)
Definition file_prefix : string := "process_".

(** AS l.37-38 *)
Definition file_name (p : N) : string := file_prefix ++ string_of_list_ascii (dec p).

(** [s.removeprefix(p)] (AS l.42) *)
Definition removeprefix (p s : string) : string :=
  if prefix p s then substring (String.length p) (String.length s - String.length p) s else s.

(** AS l.40-48 *)
Definition get_process_index (name : string) : result N :=
  let l := list_ascii_of_string (removeprefix file_prefix name) in
  if all_digits l then match parse_digits 0 l with Some n => Ok n | None => Err ValueError end
  else Err ValueError.

(** The files of the directory [array_metadatas] (AS l.35, l.54-56) *)
Definition files : Type := dict string jv.

(** MH l.463-466 *)
Definition is_primary_host (primary_host : option N) (me : N) : bool :=
  match primary_host with None => true | Some h => (h =? me)%N end.

(** AS l.150-174; [d] is the directory when the wait is over *)
Definition maybe_create_base_dir (primary_host : option N) (me : N) (d : option files) : result files :=
  match d with
  | Some f => Ok f
  | None => if is_primary_host primary_host me then Ok [] else Err ValueError
  end.

(** AS l.176-209 *)
Definition write (primary_host : option N) (p : N) (ms : list sam) (d : option files) : result files :=
  rbind (maybe_create_base_dir primary_host p d) (fun f =>
  rbind (match dget String.eqb (file_name p) f with
         | Some j => rmap (fun old => old ++ ms)%list (deserialize j)
         | None => Ok ms
         end) (fun all =>
  rbind (serialize all) (fun j => Ok (dput String.eqb (file_name p) j f)))).

(** AS l.78-81 and l.243-273, for one process *)
Definition read_one (d : option files) (p : N) : result (option (list sam)) :=
  match d with
  | None => Ok None
  | Some f =>
    match dget String.eqb (file_name p) f with
    | Some j => rmap Some (deserialize j)
    | None => Ok None
    end
  end.

(** AS l.73-77 and l.275-306, for all processes; [listing] is what [glob] finds in its order *)
Definition read_all (listing : list (string * jv)) : result (option (dict N (list sam))) :=
  let found := filter (fun x => prefix file_prefix (fst x)) listing in
  rbind (sequence (map (fun x => rmap (pair (fst x)) (deserialize (snd x))) found)) (fun pairs =>
  rbind (sequence (map (fun x => rmap (fun p => (p, snd x)) (get_process_index (fst x))) pairs)) (fun items =>
  match dict_of N.eqb items with
  | [] => Ok None
  | r => Ok (Some r)
  end)).

(** ** The check across processes *)

(** [{m.param_name: m for m in l}] (AS l.376-379, l.383-386) *)
Definition cache (l : list sam) : dict string sam := dict_of String.eqb (map (fun m => (s_name m, m)) l).

(** [isinstance(a, type(b))] (AS l.525-527); a bool is an int *)
Definition isinstance_of (a b : jv) : bool :=
  match a, b with
  | JNull, JNull => true
  | JBool _, JBool _ => true
  | JBool _, JNum _ => true
  | JNum _, JNum _ => true
  | JStr _, JStr _ => true
  | JList _, JList _ => true
  | JObj _, JObj _ => true
  | JMeta _ _ _ _, JMeta _ _ _ _ => true
  | _, _ => false
  end.

(** Equality of shapes (AS l.507, l.515) *)
Fixpoint shape_eqb (a b : list nat) : bool :=
  match a, b with
  | [], [] => true
  | x :: a', y :: b' => Nat.eqb x y && shape_eqb a' b'
  | _, _ => false
  end.

(** Equality of values (AS l.545) *)
Fixpoint jv_eqb (a b : jv) {struct a} : bool :=
  match a, b with
  | JNull, JNull => true
  | JBool x, JBool y => Bool.eqb x y
  | JNum x, JNum y => Z.eqb x y
  | JStr x, JStr y => String.eqb x y
  | JList l, JList l' =>
    (fix go (l l' : list jv) : bool :=
       match l, l' with [], [] => true | x :: r, y :: r' => jv_eqb x y && go r r' | _, _ => false end) l l'
  | JObj l, JObj l' =>
    (fix go (l l' : list (string * jv)) : bool :=
       match l, l' with
       | [], [] => true
       | (k, x) :: r, (k', y) :: r' => String.eqb k k' && (jv_eqb x y && go r r')
       | _, _ => false
       end) l l'
  | JMeta n ws cs e, JMeta n' ws' cs' e' =>
    String.eqb n n' && shape_eqb ws ws' && shape_eqb cs cs' && jv_eqb e e'
  | _, _ => false
  end.

(** AM l.26 *)
Definition RANDOM_KEY_IMPL : string := "random_key_impl".

(** [ext_metadata.get(RANDOM_KEY_IMPL)] (AS l.541-549) *)
Definition get_impl (l : list (string * jv)) : jv :=
  match dget String.eqb RANDOM_KEY_IMPL l with Some v => v | None => JNull end.

(** AS l.536-550 *)
Definition impl_differs (ref m : jv) : bool :=
  match ref, m with JObj r, JObj l => negb (jv_eqb (get_impl r) (get_impl l)) | _, _ => false end.

(** AS l.420-432 *)
Definition validate_process_count (process_count : N) : result unit :=
  if (process_count =? 1)%N then Ok tt else Err ValueError.

(** AS l.434-468 *)
Definition validate_param_count (ref l : list sam) : result unit :=
  if Nat.eqb (List.length ref) (List.length l) then Ok tt else Err ValueError.

(** [a.keys() - b.keys()] is not empty (AS l.479, l.487) *)
Definition keys_missing (a b : dict string sam) : bool :=
  existsb (fun x => match dget String.eqb (fst x) b with Some _ => false | None => true end) a.

(** AS l.470-494 *)
Definition validate_params (ref c : dict string sam) : result unit :=
  if keys_missing ref c then Err ValueError
  else if keys_missing c ref then Err ValueError else Ok tt.

(** AS l.496-556 *)
Fixpoint validate_metadata (ref c : dict string sam) : result unit :=
  match c with
  | [] => Ok tt
  | (n, m) :: rest =>
    match dget String.eqb n ref with
    | None => Err KeyError
    | Some r =>
      if negb (shape_eqb (s_cs m) (s_cs r)) then Err ValueError
      else if negb (shape_eqb (s_ws m) (s_ws r)) then Err ValueError
      else if negb (isinstance_of (s_ext m) (s_ext r)) then Err ValueError
      else if impl_differs (s_ext r) (s_ext m) then Err ValueError
      else validate_metadata ref rest
    end
  end.

(** AS l.380-410 *)
Fixpoint validate_rest (ref_index : N) (ref : list sam) (l : list (N * list sam)) : result unit :=
  match l with
  | [] => Ok tt
  | (p, ms) :: rest =>
    if (p =? ref_index)%N then validate_rest ref_index ref rest
    else
      rbind (validate_param_count ref ms) (fun _ =>
      rbind (validate_params (cache ref) (cache ms)) (fun _ =>
      rbind (validate_metadata (cache ref) (cache ms)) (fun _ => validate_rest ref_index ref rest)))
  end.

(** AS l.344-418; without any process [next] stops a coroutine, which is a RuntimeError *)
Definition validate_all_array_metadatas (process_count : N) (d : dict N (list sam)) : result unit :=
  match d with
  | [] => Err RuntimeError
  | (ref_index, ref) :: rest =>
    match ref with
    | [] => Err ValueError
    | _ =>
      match rest with
      | [] => validate_process_count process_count
      | _ => validate_rest ref_index ref d
      end
    end
  end.

(** AS l.559-575 *)
Definition validate_listing (process_count : N) (listing : list (string * jv)) : result unit :=
  rbind (read_all listing) (fun o =>
  match o with Some d => validate_all_array_metadatas process_count d | None => Ok tt end).

(** BH l.1353-1369, the part of finalization that looks at array metadata *)
Definition finalize (primary_host : option N) (me process_count : N) (listing : list (string * jv)) : result unit :=
  match primary_host with
  | None => Ok tt
  | Some _ => if is_primary_host primary_host me then validate_listing process_count listing else Ok tt
  end.

(** ** Saving *)

(** A leaf to be saved or restored (JH l.1462-1485): a plain array or a random key, which is an
    implementation and key data *)
Inductive arr (D : Type) : Type := Plain (d : D) | Key (impl : string) (d : D).
Arguments Plain {D} d.
Arguments Key {D} impl d.

(** What is stored of a leaf (JH l.1479, l.1485) *)
Definition data_of {D : Type} (v : arr D) : D := match v with Plain d => d | Key _ d => d end.

(** A parameter: its name, value, and the shapes that its write spec chooses (JH l.812-825) *)
Record param (D : Type) : Type := mkP { p_name : string; p_value : arr D; p_ws : list nat; p_cs : list nat }.
Arguments mkP {D} _ _ _ _.
Arguments p_name {D} _.
Arguments p_value {D} _.
Arguments p_ws {D} _.
Arguments p_cs {D} _.

(** [self._ext_metadata] (JH l.1430, l.1480-1482) *)
Definition ext_of {D : Type} (ps : list (param D)) : dict string jv :=
  fold_left (fun d p => match p_value p with
                        | Key impl _ => dput String.eqb (p_name p) (JObj [(RANDOM_KEY_IMPL, JStr impl)]) d
                        | Plain _ => d
                        end) ps [].

(** The metadata of one parameter (JH l.812-824, l.850) *)
Definition metadata_of {D : Type} (ext : dict string jv) (p : param D) : sam :=
  mkS (p_name p) (p_ws p) (p_cs p) (match dget String.eqb (p_name p) ext with Some e => e | None => JNull end).

(** JH l.646-652 *)
Inductive priority : Type := SYNCHRONOUS | ASYNCHRONOUS_PRIORITIZED | ASYNCHRONOUS_DEPRIORITIZED | UNKNOWN.

(** Equality of priorities (JH l.646-652) *)
Definition priority_eqb (a b : priority) : bool :=
  match a, b with
  | SYNCHRONOUS, SYNCHRONOUS | ASYNCHRONOUS_PRIORITIZED, ASYNCHRONOUS_PRIORITIZED
  | ASYNCHRONOUS_DEPRIORITIZED, ASYNCHRONOUS_DEPRIORITIZED | UNKNOWN, UNKNOWN => true
  | _, _ => false
  end.

(** The batches in which the arrays are written (JH l.640-657, l.563-594, l.750-767); [split]
    are the batches that the memory budget allows (JH l.446-485). *)
Definition plan {A : Type} (limited : bool) (prio : A -> priority) (split : list A -> list (list A)) (ps : list A)
  : result (list (list A)) :=
  if limited then
    if existsb (fun p => priority_eqb (prio p) UNKNOWN) ps then Err ValueError
    else
      let pick k := filter (fun p => priority_eqb (prio p) k) ps in
      let late := (pick ASYNCHRONOUS_PRIORITIZED ++ pick ASYNCHRONOUS_DEPRIORITIZED)%list in
      Ok ((match pick SYNCHRONOUS with [] => [] | l => [l] end)
          ++ (match late with [] => [] | l => split l end))%list
  else Ok (match ps with [] => [] | _ => [ps] end).

(** The writes of all processes in the order in which they happen (JH l.851-858) *)
Fixpoint run_writes (primary_host : option N) (ws : list (N * list sam)) (d : option files) : result (option files) :=
  match ws with
  | [] => Ok d
  | (p, ms) :: rest => rbind (write primary_host p ms d) (fun f => run_writes primary_host rest (Some f))
  end.

(** ** Restoring *)

(** [bool(j)] (JH l.916) *)
Definition truthy (j : jv) : bool :=
  match j with
  | JNull => false
  | JBool b => b
  | JNum z => negb (z =? 0)%Z
  | JStr s => negb (s =? "")
  | JList l => match l with [] => false | _ => true end
  | JObj l => match l with [] => false | _ => true end
  | JMeta _ _ _ _ => true
  end.

(** JH l.908-923, for one array *)
Definition wrap_one {D : Type} (c : dict string sam) (name : string) (v : D) : result (arr D) :=
  match dget String.eqb name c with
  | None => Ok (Plain v)
  | Some m =>
    match s_ext m with
    | JObj l =>
      if truthy (get_impl l)
      then match get_impl l with JStr impl => Ok (Key impl v) | _ => Err TypeError end
      else Ok (Plain v)
    | _ => Ok (Plain v)
    end
  end.

(** [enumerate(zip(infos, deserialized_arrays))] (JH l.908) *)
Fixpoint wrap_loop {D : Type} (c : dict string sam) (names : list string) (vs : list D) : result (list (arr D)) :=
  match names, vs with
  | n :: ns, v :: vs' => rbind (wrap_one c n v) (fun a => rmap (cons a) (wrap_loop c ns vs'))
  | [], vs => Ok (map Plain vs)
  | _, [] => Ok []
  end.

(** JH l.888-925, for a nonempty dictionary *)
Definition wrap_random_key_data {D : Type} (d : dict N (list sam)) (names : list string) (vs : list D)
  : result (list (arr D)) :=
  match d with
  | [] => Err RuntimeError
  | (_, l) :: _ => wrap_loop (cache l) names vs
  end.

(** JH l.1098-1111; [vs] are the arrays read *)
Definition restore {D : Type} (listing : list (string * jv)) (names : list string) (vs : list D) : result (list (arr D)) :=
  rbind (read_all listing) (fun o =>
  match o with Some d => wrap_random_key_data d names vs | None => Ok (map Plain vs) end).

(** ** Write shapes *)

(** What is looked at of a [ParamInfo] (BH l.1162-1172) *)
Record pinfo : Type := mkI { i_name : string; i_typestr : option string; i_ws : option (list nat) }.

(** JH l.90-95 *)
Definition represents_jax_array (i : pinfo) : result bool :=
  match i_typestr i with None => Err AssertionError | Some s => Ok (s =? "jax.Array") end.

(** JH l.98-107; once one is found the others are not looked at *)
Fixpoint any_jax_array (l : list pinfo) : result bool :=
  match l with
  | [] => Ok false
  | i :: r => rbind (represents_jax_array i) (fun b => if b then Ok true else any_jax_array r)
  end.

(** BH l.1162-1172 *)
Definition update_param_info (c : dict string sam) (i : pinfo) : result pinfo :=
  rbind (represents_jax_array i) (fun b =>
  if b then
    match dget String.eqb (i_name i) c with
    | None => Err ValueError
    | Some m => Ok (mkI (i_name i) (i_typestr i) (Some (s_ws m)))
    end
  else Ok i).

(** BH l.1123-1174; a tree of infos is the list of its leaves *)
Definition get_param_infos_with_write_shape (primary_host : option N) (me : N) (d : option files) (infos : list pinfo)
  : result (list pinfo) :=
  if negb (is_primary_host primary_host me) then Ok infos
  else
    rbind (read_one d me) (fun o =>
    match o with
    | None => rbind (any_jax_array infos) (fun b => if b then Err ValueError else Ok infos)
    | Some l => sequence (map (update_param_info (cache l)) infos)
    end).
