(** Model of the start of multi-tier checkpointing on a node: the hand-over to the replicator by a file in the local directory, the ranks of the peers, and the markers by which the replicator gives back the step to restore.
    Source: checkpoint/orbax/checkpoint/experimental/emergency/multi_tier_checkpointing/initialization.py ("IN").
    The local directory is a dictionary of names. What the replicator and others do in second [t] is an oracle [env t]; one round of polling is one step, and sleeping takes a second.
    Simplifications: times are whole seconds, and only sleeping takes time; texts are ascii; the names of the replicator's files are not directories; links lead to something that exists; jax.distributed and the
    mapping of processes to ranks are given. Not modelled: the dispatch to the workers and their topology (C71), logging. *)
From Coq Require Import List Bool Arith NArith ZArith String Ascii.
From Verif Require Import Base StepName_Model Tree_Model.
Import ListNotations.
Local Open Scope string_scope.
Local Open Scope list_scope.
Local Open Scope nat_scope.

(** ** The local directory *)

(** What a name stands for: a file with a text (None if it can not be read, IN l.87-95), a link (does it lead to a file?), a directory (IN l.676, l.715) *)
Inductive node : Type := NFile (text : option string) | NLink (to_file : bool) | NDir.

(** The local directory (IN l.659-679) *)
Definition dir : Type := dict string node.

(** [path.exists()] (IN l.71, l.112, l.642) *)
Definition present (n : string) (d : dir) : bool := match dget String.eqb n d with Some _ => true | None => false end.

(** [path.unlink()] of something that is there (IN l.101, l.683) *)
Definition remove (n : string) (d : dir) : dir := filter (fun x => negb (String.eqb n (fst x))) d.

(** [path.is_file()] (IN l.715) *)
Definition is_file (n : string) (d : dir) : bool := match dget String.eqb n d with Some (NFile _) => true | Some (NLink b) => b | _ => false end.

(** IN l.46 *)
Definition replicator_file : string := "replicator.yaml".
(** IN l.47 *)
Definition errors_file : string := "replicator.errors".
(** IN l.48 *)
Definition failed_file : string := "replicator.failed".
(** IN l.49 *)
Definition temp_file : string := "replicator.yaml.tmp".
(** IN l.50 *)
Definition init_info_file : string := "jax-init-info.txt".

(** The result of a call with the directory and the time after it (IN l.70-81) *)
Definition out (A : Type) : Type := (result A * (dir * nat))%type.

(** What the others do to the directory in a second (IN l.77) *)
Definition environment : Type := nat -> dir -> dir.

(** ** Errors of the replicator *)

(** IN l.84-117: read the file and remove it *)
Definition process_error (n : string) (d : dir) : option string * dir :=
  match dget String.eqb n d with
  | None => (None, d)
  | Some (NFile x) => (x, remove n d)
  | Some (NLink _) => (None, remove n d)
  | Some NDir => (None, d)
  end.

(** [if fatal] (IN l.134): None and the empty text count as false *)
Definition is_fatal (x : option string) : bool := match x with None => false | Some t => negb (String.eqb t "") end.

(** IN l.120-137 *)
Definition check_errors (d : dir) : result unit * dir :=
  let d1 := snd (process_error errors_file d) in
  let '(fatal, d2) := process_error failed_file d1 in
  (if is_fatal fatal then Err RuntimeError else Ok tt, d2).

(** IN l.57-81 *)
Fixpoint wait_gone (env : environment) (timeout : nat) (check : bool) (d : dir) (t : nat) : out unit :=
  match timeout with
  | 0 => (Err TimeoutError, (d, t))
  | S n =>
    if negb (present replicator_file d)
    then if check then (fst (check_errors d), (snd (check_errors d), t)) else (Ok tt, (d, t))
    else wait_gone env n check (env t d) (S t)
  end.

(** ** Ranks *)

(** [len(l) == len(set(l))] (IN l.161, l.184) *)
Fixpoint distinct (l : list Z) : bool := match l with [] => true | x :: r => negb (existsb (Z.eqb x) r) && distinct r end.

(** [0 <= rank < num_nodes] (IN l.146, l.151, l.177) *)
Definition in_range (num rank : Z) : bool := (0 <=? rank)%Z && (rank <? num)%Z.

(** IN l.140-162 *)
Definition validate_ranks (num rank : Z) (peers : list Z) : result unit :=
  if (num <=? 0)%Z then Err ValueError
  else if negb (in_range num rank) then Err ValueError
  else if negb (forallb (in_range num) peers) then Err ValueError
  else if existsb (Z.eqb rank) peers then Err ValueError
  else if negb (distinct peers) then Err ValueError
  else Ok tt.

(** IN l.165-188 *)
Definition validate_mapping (mapping : list Z) (num : nat) : result unit :=
  if negb (List.length mapping =? num)%nat then Err ValueError
  else if negb (forallb (in_range (Z.of_nat num)) mapping) then Err ValueError
  else if negb (distinct mapping) then Err ValueError
  else Ok tt.

(** [l[i]] (IN l.562, l.588) *)
Definition at_ (l : list Z) (i : nat) : result Z := match nth_error l i with Some x => Ok x | None => Err IndexError end.

(** IN l.584-589 *)
Fixpoint peers_from (mapping : list Z) (per_slice index me : nat) (slices : list nat) : result (list Z) :=
  match slices with
  | [] => Ok []
  | i :: rest =>
    let p := i * per_slice + index in
    if p =? me then peers_from mapping per_slice index me rest
    else rbind (at_ mapping p) (fun r => rmap (cons r) (peers_from mapping per_slice index me rest))
  end.

(** IN l.546-589: the rank of the node and those of its peers *)
Definition node_peers (mapping : list Z) (num slices me : nat) : result (Z * list Z) :=
  if slices =? 0 then Err ZeroDivisionError
  else if negb (num mod slices =? 0) then Err ValueError
  else if negb (me <? num) then Err ValueError
  else rbind (validate_mapping mapping num) (fun _ =>
       rbind (at_ mapping me) (fun rank =>
       let per_slice := num / slices in
       rmap (fun p => (rank, p)) (peers_from mapping per_slice (me mod per_slice) me (seq 0 slices)))).

(** ** The file for the replicator *)

(** [str.strip()] (IN l.231): the white space of ascii *)
Definition space (c : ascii) : bool := let n := N_of_ascii c in ((9 <=? n) && (n <=? 13) || (28 <=? n) && (n <=? 32))%N.
(** IN l.231 *)
Fixpoint lstrip (l : list ascii) : list ascii := match l with c :: r => if space c then lstrip r else l | [] => [] end.
(** IN l.231 *)
Definition strip (s : string) : string := string_of_list_ascii (rev (lstrip (rev (lstrip (list_ascii_of_string s))))).

(** [text.split('\n')] (IN l.231, l.643) *)
Fixpoint split_lines (l : list ascii) (cur : list ascii) : list string :=
  match l with
  | [] => [string_of_list_ascii (rev cur)]
  | c :: r => if Ascii.eqb c (ascii_of_nat 10) then string_of_list_ascii (rev cur) :: split_lines r [] else split_lines r (c :: cur)
  end.

(** [f'{n}'] of an integer (IN l.219-229) *)
Definition str_int (z : Z) : string := ((if (z <? 0)%Z then "-" else "") ++ string_of_list_ascii (dec (Z.abs_N z)))%string.

(** [f'{l}'] of a list of integers (IN l.228) *)
Definition str_list (l : list Z) : string := ("[" ++ String.concat ", " (map str_int l) ++ "]")%string.

(** What is told to the replicator (IN l.191-201) *)
Record request : Type := mkRequest { q_run : string; q_nodes : Z; q_dp : Z; q_rank : Z; q_peers : list Z; q_minutes : option Z; q_steps : option Z }.

(** IN l.218-232: the lines of the file *)
Definition yaml_lines (q : request) : list string :=
  map strip
    (split_lines (list_ascii_of_string ("job-name: " ++ q_run q)%string) []
     ++ ["  framework: orbax"; ("  assume-data-parallelism: " ++ str_int (q_dp q))%string; ("  node-rank: " ++ str_int (q_rank q))%string; ("  nodes: " ++ str_int (q_nodes q))%string; ("  peer-ranks: " ++ str_list (q_peers q))%string;
         match q_minutes q with
         | Some m => ("  backup-interval-minutes: " ++ str_int m)%string
         | None => ("  backup-interval-steps: " ++ match q_steps q with Some s => str_int s | None => "None" end)%string
         end]).

(** IN l.231: the lines with newlines between them *)
Definition yaml (q : request) : string := String.concat (String (ascii_of_nat 10) "") (yaml_lines q).

(** IN l.203-214 *)
Definition validate_request (q : request) : result unit :=
  rbind (validate_ranks (q_nodes q) (q_rank q) (q_peers q)) (fun _ =>
  match q_minutes q, q_steps q with
  | None, None => Err ValueError
  | Some _, Some _ => Err ValueError
  | Some m, None => if (m <=? 0)%Z then Err ValueError else Ok tt
  | None, Some s => if (s <=? 0)%Z then Err ValueError else Ok tt
  end).

(** IN l.191-240: the directory after each step: the temporary file is made, written, renamed *)
Definition create_states (q : request) (d : dir) : result (list dir) :=
  rmap (fun _ =>
    [ dput String.eqb temp_file (NFile (Some "")) d;
      dput String.eqb temp_file (NFile (Some (yaml q))) d;
      dput String.eqb replicator_file (NFile (Some (yaml q))) (remove temp_file d) ]) (validate_request q).

(** IN l.191-240 *)
Definition create_file (q : request) (d : dir) : result dir := rmap (fun l => List.last l d) (create_states q d).

(** ** Markers of the replicator *)

(** The text [s] at the end, taken off; on reversed texts (IN l.51) *)
Fixpoint expect (s l : list ascii) : option (list ascii) :=
  match s, l with
  | [], _ => Some l
  | c :: s', x :: l' => if Ascii.eqb c x then expect s' l' else None
  | _ :: _, [] => None
  end.

(** [\d] (IN l.51): the digits of ascii *)
Definition is_dig (c : ascii) : bool := match char_digit c with Some _ => true | None => false end.

(** [\d+] from the end, on reversed texts (IN l.51) *)
Fixpoint span_digits (l : list ascii) : list ascii * list ascii :=
  match l with
  | c :: r => if is_dig c then (let '(a, b) := span_digits r in (c :: a, b)) else ([], l)
  | [] => ([], [])
  end.

(** [\d+] after a text, both from the end (IN l.51) *)
Definition digits_after (l : list ascii) (mark : string) : option (list ascii * list ascii) :=
  match span_digits l with
  | ([], _) => None
  | (ds, rest) => match expect (rev (list_ascii_of_string mark)) rest with Some r => Some (ds, r) | None => None end
  end.

(** IN l.51, l.752-760: the step in the name of a marker, as its digits *)
Definition extract_step (name : string) : result (list ascii) :=
  match expect (rev (list_ascii_of_string ".restore")) (rev (list_ascii_of_string name)) with
  | None => Err ValueError
  | Some r0 =>
    match digits_after r0 "-w" with
    | None => Err ValueError
    | Some (_, r1) =>
      match digits_after r1 "-n" with
      | None => Err ValueError
      | Some (_, r2) =>
        match digits_after r2 "-s" with
        | None => Err ValueError
        | Some (s, job) => match job with [] => Err ValueError | _ => if existsb (Ascii.eqb (ascii_of_nat 10)) job then Err ValueError else Ok (rev s) end
        end
      end
    end
  end.

(** [glob('*.restore')] (IN l.693) *)
Definition is_marker (name : string) : bool := match expect (rev (list_ascii_of_string ".restore")) (rev (list_ascii_of_string name)) with Some _ => true | None => false end.

(** Insert before the first name that is not smaller (for [sorted], IN l.692-694) *)
Fixpoint insert (n : string) (l : list string) : list string := match l with [] => [n] | x :: r => if String.leb n x then n :: l else x :: insert n r end.
(** [sorted(..., key=name)] (IN l.692-694) *)
Definition sort (l : list string) : list string := fold_right insert [] l.

(** IN l.711-718: a marker is for no checkpoint ([None]) or for a step *)
Definition classify (d : dir) (name : string) : result (string * option N) :=
  rbind (extract_step name) (fun s =>
  if (match s with ["0"%char] => true | _ => false end) && is_file name d then Ok (name, None)
  else match parse_digits 0 s with Some n => Ok (name, Some n) | None => Err ValueError end).

(** The markers for a step (IN l.718) *)
Fixpoint restores (l : list (string * option N)) : list (string * N) := match l with [] => [] | (n, Some s) :: r => (n, s) :: restores r | (_, None) :: r => restores r end.
(** The markers for no checkpoint (IN l.716) *)
Fixpoint nones (l : list (string * option N)) : list string := match l with [] => [] | (n, None) :: r => n :: nones r | (_, Some _) :: r => nones r end.

(** [max(restore_markers, key=step)]: the first of the largest (IN l.721) *)
Fixpoint max_marker (best : string * N) (l : list (string * N)) : string * N := match l with [] => best | x :: r => max_marker (if (snd best <? snd x)%N then x else best) r end.

(** [os.replace(a, b)] (IN l.723): a directory is not replaced by something else, and replaces nothing (directories are not empty) *)
Definition replace (a b : string) (d : dir) : result dir :=
  match dget String.eqb a d with
  | None => Err FileNotFoundError
  | Some x =>
    match x, dget String.eqb b d with
    | NDir, Some _ => Err OtherError
    | _, Some NDir => Err OtherError
    | _, _ => Ok (dput String.eqb b x (remove a d))
    end
  end.

(** IN l.681-685, l.729-732, l.739-740: remove markers; a directory can not be unlinked *)
Fixpoint remove_all (l : list string) (d : dir) : result unit * dir :=
  match l with
  | [] => (Ok tt, d)
  | n :: r => match dget String.eqb n d with Some NDir => (Err OtherError, d) | _ => remove_all r (remove n d) end
  end.

(** [str(step)] (IN l.722) *)
Definition step_name (s : N) : string := string_of_list_ascii (dec s).

(** IN l.692-745: one round: has a marker been processed? *)
Definition round (d : dir) : result bool * dir :=
  let names := sort (filter is_marker (map fst d)) in
  let '(ok, d1) := check_errors d in
  match ok with
  | Err e => (Err e, d1)
  | Ok _ =>
    match sequence (map (classify d1) names) with
    | Err e => (Err e, d1)
    | Ok ms =>
      match restores ms with
      | m :: rest =>
        let '(best, s) := max_marker m rest in
        match replace best (step_name s) d1 with
        | Err e => (Err e, d1)
        | Ok d2 =>
          let '(r, d3) := remove_all (filter (fun n => negb (String.eqb n best)) (map fst (restores ms)) ++ nones ms) d2 in
          (rmap (fun _ => true) r, d3)
        end
      | [] =>
        match nones ms with
        | [] => (Ok false, d1)
        | l => let '(r, d3) := remove_all l d1 in (rmap (fun _ => true) r, d3)
        end
      end
    end
  end.

(** IN l.659-749 *)
Fixpoint wait_restore (env : environment) (timeout : nat) (d : dir) (t : nat) : out unit :=
  match timeout with
  | 0 => (Err TimeoutError, (d, t))
  | S n =>
    match round d with
    | (Ok true, d1) => (Ok tt, (d1, t))
    | (Ok false, d1) => wait_restore env n (env t d1) (S t)
    | (Err e, d1) => (Err e, (d1, t))
    end
  end.

(** ** Start *)

(** IN l.609-656: the process id and the address of the coordinator *)
Fixpoint retrieve_info (env : environment) (timeout : nat) (d : dir) (t : nat) : out (string * string) :=
  match timeout with
  | 0 => (Err TimeoutError, (d, t))
  | S n =>
    match dget String.eqb init_info_file d with
    | None => retrieve_info env n (env t d) (S t)
    | Some (NFile (Some x)) => (match split_lines (list_ascii_of_string x) [] with p :: a :: _ => Ok (p, a) | _ => Err ValueError end, (d, t))
    | Some _ => (Err OtherError, (d, t))
    end
  end.

(** IN l.408-434: [int(process_id)] takes digits with white space around them here *)
Definition jax_from_mtc (env : environment) (d : dir) (t : nat) : out (string * string) :=
  match retrieve_info env 900 d t with
  | (Ok (p, a), w) =>
    if String.eqb p "" || String.eqb a "" then (Err ValueError, w)
    else if all_digits (list_ascii_of_string (strip p)) then (Ok (p, a), w) else (Err ValueError, w)
  | (Err e, w) => (Err e, w)
  end.

(** The arguments of the start (IN l.437-449), and what jax says (IN l.486, l.546-558) *)
Record config : Type := mkConfig {
  c_minutes : option Z; c_steps : option Z; c_slices : option Z; c_run : option string; c_jobset : option string; c_dp : option Z; c_timeout : nat; c_use_ids : bool; c_devices : bool;
  c_slice_count : nat; c_nodes : nat; c_index : nat; c_mapping : list Z
}.

(** IN l.474-475: the interval is 30 minutes if nothing is said *)
Definition minutes_of (c : config) : option Z := match c_minutes c, c_steps c with None, None => Some 30%Z | m, _ => m end.

(** IN l.477-481 *)
Definition run_of (c : config) : result string :=
  match (match c_run c with Some r => if String.eqb r "" then c_jobset c else Some r | None => c_jobset c end) with
  | Some r => if String.eqb r "" then Err ValueError else Ok r
  | None => Err ValueError
  end.

(** IN l.485-489 *)
Definition slices_of (c : config) : nat := match c_slices c with Some n => if (n <=? 0)%Z then c_slice_count c else Z.to_nat n | None => c_slice_count c end.

(** IN l.490-494 *)
Definition dp_of (c : config) : Z := match c_dp c with Some n => if (n <=? 0)%Z then Z.of_nat (slices_of c) else n | None => Z.of_nat (slices_of c) end.

(** Continue with the directory and the time (IN l.533-606) *)
Definition then_ {A B : Type} (x : out A) (f : A -> dir -> nat -> out B) : out B := match x with (Ok a, (d, t)) => f a d t | (Err e, w) => (Err e, w) end.

(** IN l.474-606 without colocated python *)
Definition initialize (env : environment) (c : config) (d : dir) (t : nat) : out unit :=
  match run_of c with
  | Err e => (Err e, (d, t))
  | Ok run =>
    if c_devices c then (Err ValueError, (d, t))
    else
      then_ (if c_use_ids c then then_ (jax_from_mtc env d t) (fun _ d t => (Ok tt, (d, t))) else (Ok tt, (d, t))) (fun _ d t =>
      then_ (wait_gone env (c_timeout c) false d t) (fun _ d t =>
      match node_peers (c_mapping c) (c_nodes c) (slices_of c) (c_index c) with
      | Err e => (Err e, (d, t))
      | Ok (rank, peers) =>
        match create_file (mkRequest run (Z.of_nat (c_nodes c)) (dp_of c) rank peers (minutes_of c) (c_steps c)) d with
        | Err e => (Err e, (d, t))
        | Ok d1 =>
          then_ (wait_gone env (c_timeout c) true d1 t) (fun _ d t => wait_restore env 300 d t)
        end
      end))
  end.

(** IN l.326-330: the seconds that are left *)
Definition remaining (deadline t : nat) : result nat := if deadline <=? t then Err TimeoutError else Ok (deadline - t).

(** IN l.312-385: the start on a worker with colocated python *)
Definition setup (env : environment) (q : request) (timeout : nat) (d : dir) (t : nat) : out unit :=
  if negb (in_range (q_nodes q) (q_rank q)) then (Err ValueError, (d, t))
  else
    match create_file q (remove replicator_file d) with
    | Err e => (Err e, (remove replicator_file d, t))
    | Ok d1 =>
      match remaining (t + timeout) t with
      | Err e => (Err e, (d1, t))
      | Ok n =>
        then_ (wait_gone env (Nat.min n 600) true d1 t) (fun _ d2 t2 =>
        match remaining (t + timeout) t2 with
        | Err e => (Err e, (d2, t2))
        | Ok n2 => wait_restore env n2 d2 t2
        end)
      end
    end.
