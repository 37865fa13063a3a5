(** Model of the transfer of a checkpoint between peers: messages on a connection, the download of
    files, the paths that are accepted and the check of what was received.
    Sources: checkpoint/orbax/checkpoint/experimental/emergency/p2p/protocol.py ("PP") and
    service.py ("PV").
    Simplifications: bytes are numbers; a connection is the list of the pieces in which its bytes
    arrive; json is given by two functions; a path is a list of names.  Not modelled: timeouts
    (a connection that breaks just ends), Windows drives, logging, the measured bandwidth. *)
From Coq Require Import List Bool Arith ZArith String Ascii.
From Verif Require Import Base.
Import ListNotations.

(** ** Messages *)

(** Big-endian bytes of an unsigned number, the [n] last ones (PP l.28, l.124) *)
Fixpoint bytes_of (n : nat) (x : Z) : list Z :=
  match n with
  | O => []
  | S k => (bytes_of k (x / 256) ++ [(x mod 256)%Z])%list
  end.

(** [struct.pack] of one number; struct.error if it does not fit (PP l.100, l.119, l.124) *)
Definition pack (n : nat) (x : Z) : result (list Z) :=
  if ((0 <=? x) && (x <? 256 ^ Z.of_nat n))%Z then Ok (bytes_of n x) else Err OtherError.

(** [struct.unpack] of one number (PP l.159, l.170) *)
Definition unpack (l : list Z) : Z := fold_left (fun a b => a * 256 + b)%Z l 0%Z.

(** PP l.31 *)
Definition OP_ERROR : Z := 0.
(** PP l.32 *)
Definition OP_GET_MANIFEST : Z := 1.
(** PP l.33 *)
Definition OP_DOWNLOAD_FILE : Z := 2.
(** PP l.34 *)
Definition OP_RESPONSE_JSON : Z := 3.
(** PP l.35 *)
Definition OP_FILE_STREAM : Z := 4.

(** [_HEADER_STRUCT.pack(opcode, length)]: one byte and four bytes (PP l.28, l.100) *)
Definition header (opcode length : Z) : result (list Z) :=
  rbind (pack 1 opcode) (fun a => rmap (fun b => (a ++ b)%list) (pack 4 length)).

(** [sock.recv_into(view, n)]: at most [n] bytes of the piece that arrived (PP l.215, l.316); no
    bytes at the end of the connection *)
Definition recv_into (n : nat) (pieces : list (list Z)) : list Z * list (list Z) :=
  match pieces with
  | [] => ([], [])
  | p :: r => if List.length p <=? n then (p, r) else (firstn n p, skipn n p :: r)
  end.

(** The loop of PP l.214-218; each turn but the last reads a byte *)
Fixpoint recv_loop (fuel n : nat) (data : list Z) (pieces : list (list Z)) : option (list Z) * list (list Z) :=
  match fuel with
  | O => (Some data, pieces)
  | S f =>
    if n <=? List.length data then (Some data, pieces)
    else
      match recv_into (n - List.length data) pieces with
      | ([], r) => (None, r)
      | (got, r) => recv_loop f n (data ++ got)%list r
      end
  end.

(** PP l.200-219 *)
Definition recv_exact (n : nat) (pieces : list (list Z)) : option (list Z) * list (list Z) := recv_loop (S n) n [] pieces.

(** What comes out of [json.loads(payload.decode('utf-8'))] (PP l.188-197) *)
Inductive decoded (J : Type) : Type :=
| Json (j : J)
| NotJson
| NotUtf8.
Arguments Json {J}. Arguments NotJson {J}. Arguments NotUtf8 {J}.

(** The data of a message (PP l.136): none, json or the size of a file *)
Inductive data (J : Type) : Type :=
| NoData
| Data (j : J)
| Size (n : Z).
Arguments NoData {J}. Arguments Data {J}. Arguments Size {J}.

Section Json.
Variable J : Type.
(** [bool(data)] (PP l.99) *)
Variable truthy : J -> bool.
(** PP l.99 *)
Variable dumps : J -> list Z.
(** PP l.189 *)
Variable loads : list Z -> decoded J.

(** The bytes of PP l.91-101 *)
Definition send_json (opcode : Z) (d : option J) : result (list Z) :=
  let payload := match d with Some j => if truthy j then dumps j else [] | None => [] end in
  rmap (fun h => (h ++ payload)%list) (header opcode (Z.of_nat (List.length payload))).

(** PP l.136-197; a [bytes] object without elements counts as false (l.155, l.166, l.176) *)
Definition recv (pieces : list (list Z)) : result ((Z * data J) * list (list Z)) :=
  match recv_exact 5 pieces with
  | (None, r) => Ok ((OP_ERROR, NoData), r)
  | (Some h, r) =>
    let opcode := unpack (firstn 1 h) in
    let n := unpack (skipn 1 h) in
    if Z.eqb opcode OP_FILE_STREAM then
      match recv_exact 8 r with
      | (None, r') => Ok ((OP_ERROR, NoData), r')
      | (Some b, r') => Ok ((opcode, Size (unpack b)), r')
      end
    else
      match recv_exact (Z.to_nat n) r with
      | (None, r') => Ok ((OP_ERROR, NoData), r')
      | (Some [], r') => Ok ((OP_ERROR, NoData), r')
      | (Some b, r') =>
        if Z.eqb n 0 then Ok ((opcode, NoData), r')
        else
          match loads b with
          | Json j => Ok ((opcode, Data j), r')
          | NotJson => Ok ((OP_ERROR, NoData), r')
          | NotUtf8 => Err ValueError
          end
      end
  end.

(** The answer that a request gets (PP l.226-265); [pieces] is what arrives *)
Definition request (pieces : list (list Z)) : result (option J) :=
  rmap (fun x => match fst x with (op, Data j) => if Z.eqb op OP_RESPONSE_JSON then Some j else None | _ => None end) (recv pieces).

(** The loop of PP l.314-329: what is written to the file *)
Fixpoint receive (fuel : nat) (chunk_size filesize : nat) (got : list Z) (pieces : list (list Z)) : list Z :=
  match fuel with
  | O => got
  | S f =>
    if filesize <=? List.length got then got
    else
      match recv_into (Nat.min chunk_size (filesize - List.length got)) pieces with
      | ([], _) => got
      | (b, r) => receive f chunk_size filesize (got ++ b)%list r
      end
  end.

(** PP l.268-347: the number of bytes, and the file if one was written *)
Definition download (chunk_size : nat) (pieces : list (list Z)) : result (Z * option (list Z)) :=
  rmap (fun x =>
    match x with
    | ((op, d), r) =>
      if negb (Z.eqb op OP_FILE_STREAM) then (0%Z, None)
      else
        match d with
        | Size n =>
          if Z.eqb n 0 then (0%Z, None)
          else
            let f := receive (S (Z.to_nat n)) chunk_size (Z.to_nat n) [] r in
            (if Z.eqb (Z.of_nat (List.length f)) n then n else 0%Z, Some f)
        | _ => (0%Z, None)
        end
    end) (recv pieces).
End Json.

(** The bytes of PP l.104-133; no file: size zero *)
Definition send_file (content : option (list Z)) : result (list Z) :=
  let c := match content with Some c => c | None => [] end in
  rbind (header OP_FILE_STREAM 8) (fun h => rmap (fun s => (h ++ s ++ c)%list) (pack 8 (Z.of_nat (List.length c)))).

(** ** Paths *)

(** [rel_path.split('/')] (PV l.59) *)
Fixpoint split_path (cur : string) (s : string) : list string :=
  match s with
  | EmptyString => [cur]
  | String c r => if Ascii.eqb c "/"%char then cur :: split_path EmptyString r else split_path (cur ++ String c EmptyString)%string r
  end.

(** [os.path.isabs] (PV l.55) *)
Definition isabs (s : string) : bool := match s with String c _ => Ascii.eqb c "/"%char | EmptyString => false end.

(** [os.path.realpath] from a directory without links (PV l.58-59); [link] gives the target of a
    link; [None] after too many steps *)
Fixpoint realpath (link : list string -> option string) (fuel : nat) (at_dir : list string) (todo : list string) : option (list string) :=
  match fuel with
  | O => None
  | S f =>
    match todo with
    | [] => Some at_dir
    | n :: r =>
      if (String.eqb n "" || String.eqb n ".")%bool then realpath link f at_dir r
      else if String.eqb n ".." then realpath link f (removelast at_dir) r
      else
        match link (at_dir ++ [n])%list with
        | None => realpath link f (at_dir ++ [n])%list r
        | Some t => realpath link f (if isabs t then [] else at_dir) (split_path EmptyString t ++ r)%list
        end
    end
  end.

(** [os.path.commonpath] of two absolute paths (PV l.63) *)
Fixpoint commonpath (a b : list string) : list string :=
  match a, b with
  | x :: a', y :: b' => if String.eqb x y then x :: commonpath a' b' else []
  | _, _ => []
  end.

(** Equality of paths (PV l.67) *)
Fixpoint same_path (a b : list string) : bool :=
  match a, b with
  | [], [] => true
  | x :: a', y :: b' => String.eqb x y && same_path a' b'
  | _, _ => false
  end.

(** PV l.35-69 *)
Definition safe_path_join (link : list string -> option string) (fuel : nat) (base : list string) (rel_path : string) : option (list string) :=
  match rel_path with
  | EmptyString => None
  | _ =>
    if isabs rel_path then None
    else
      match realpath link fuel [] base with
      | None => None
      | Some base_real =>
        match realpath link fuel [] (base_real ++ split_path EmptyString rel_path)%list with
        | None => None
        | Some candidate_real =>
          if same_path (commonpath base_real candidate_real) base_real then Some (base ++ split_path EmptyString rel_path)%list else None
        end
      end
  end.

(** ** Fetching *)

(** PV l.328: whether a download is taken as incomplete; [results] in the order of completion *)
Definition incomplete (results : list Z) (manifest : list (string * Z)) : bool :=
  existsb (fun x => Z.eqb (fst x) 0 && (0 <? snd (snd x))%Z) (combine results manifest).

(** The manifest of the files (PV l.218-226) *)
Definition manifest_of (files : list (string * list Z)) : list (string * Z) :=
  map (fun f => (fst f, Z.of_nat (List.length (snd f)))) files.

(** PV l.285-350: what is in the restore directory afterwards, if it succeeds.  [safe] says which
    paths are accepted, [downloads] what each download gave, [order] is the order of completion;
    an error of a download is caught (l.364-366) *)
Definition fetch_shard (safe : string -> bool) (manifest : list (string * Z)) (downloads : list (result (Z * option (list Z)))) (order : list Z -> list Z) : option (list (string * list Z)) :=
  match manifest with
  | [] => None
  | _ =>
    if negb (forallb (fun m => safe (fst m)) manifest) then None
    else
      match sequence downloads with
      | Err _ => None
      | Ok got =>
        if incomplete (order (map fst got)) manifest then None
        else Some (flat_map (fun x => match snd (snd x) with Some c => [(fst (fst x), c)] | None => [] end) (combine manifest got))
      end
  end.
