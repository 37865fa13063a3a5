(** Model of the checkpoint commit protocols.
    Sources (under checkpoint/orbax/checkpoint/):
    AT  = _src/path/atomicity.py
    ATT = _src/path/atomicity_types.py
    TP  = _src/path/temporary_paths.py
    CP  = _src/checkpointers/checkpointer.py

    A checkpoint root directory is a finite list of named nodes.  Individual
    file-system operations are atomic and may fail (python raises OSError); a
    crash, or an exception leaving the save, happens between two operations.
    Directory contents are flat: a nested file is a file with a longer name. *)
From Coq Require Import List Bool String Ascii.
From Verif Require Import Base.
Import ListNotations.
Local Open Scope string_scope.
Local Open Scope list_scope.

(** ATT l.30 TMP_DIR_SUFFIX *)
Definition tmp_suffix : string := ".orbax-checkpoint-tmp".
(** ATT l.31 COMMIT_SUCCESS_FILE *)
Definition commit_file : string := "commit_success.txt".
(** _src/metadata/checkpoint.py l.30, l.50-52: step metadata file name *)
Definition metadata_file : string := "_CHECKPOINT_METADATA".

(** python [s.find(sub)], as used by AT l.170-173 (str.split). *)
Definition str_find (sub s : string) : option nat := String.index 0 sub s.
(** python [sub in s], as used by AT l.421-427, l.435-441. *)
Definition str_in (sub s : string) : bool :=
  match str_find sub s with Some _ => true | None => false end.

(** AT l.164-167 _get_tmp_directory (name component; the parent is unchanged) *)
Definition get_tmp_name (final : string) : string := (final ++ tmp_suffix)%string.

(** AT l.170-173 _get_final_directory *)
Definition get_final_name (tmp : string) : result string :=
  match str_find tmp_suffix tmp with
  | None => Err ValueError
  | Some i => Ok (substring 0 i tmp)
  end.

(** * Files *)

(** The files of one checkpoint directory, file name -> contents (written by
    AT l.545, l.678 write_text and by the handlers, CP l.263). *)
Definition files : Type := list (string * string).

(** Read or test a file (async_path.exists, AT l.575, l.587). *)
Fixpoint fget (f : string) (fs : files) : option string :=
  match fs with
  | [] => None
  | (g, c) :: fs' => if String.eqb f g then Some c else fget f fs'
  end.

(** Delete a file (part of rmtree, async_path.py l.94-102). *)
Fixpoint fdel (f : string) (fs : files) : files :=
  match fs with
  | [] => []
  | (g, c) :: fs' => if String.eqb f g then fdel f fs' else (g, c) :: fdel f fs'
  end.

(** Create or overwrite a file (async_path.py l.70-77 write_text). *)
Definition fput (f c : string) (fs : files) : files := (f, c) :: fdel f fs.

(** * Nodes of the checkpoint root *)

(** What a name in the root directory is: the tests of AT l.405-409 (is_dir,
    exists) and l.417, l.570 (is_link) distinguish these. *)
Inductive node : Type :=
| Dir (fs : files)
| File
| Link (fs : files).  (* symbolic link to a directory with these contents *)

(** The checkpoint root directory that TP l.171 iterates over. *)
Definition root : Type := list (string * node).

(** Look a path up (async_path.exists / is_dir, async_path.py l.86-114). *)
Fixpoint nget (n : string) (r : root) : option node :=
  match r with
  | [] => None
  | (m, x) :: r' => if String.eqb n m then Some x else nget n r'
  end.

(** Remove an entry (async_path.py l.94-102 rmtree, l.109 rename source). *)
Fixpoint ndel (n : string) (r : root) : root :=
  match r with
  | [] => []
  | (m, x) :: r' => if String.eqb n m then ndel n r' else (m, x) :: ndel n r'
  end.

(** Add or replace an entry (async_path.py l.38-51 mkdir, l.109 rename target). *)
Definition nput (n : string) (x : node) (r : root) : root := (n, x) :: ndel n r.

(** * File-system operations *)

(** The operations that AT l.133-139, l.515, l.545-552, l.650, l.678 and CP
    l.245-254 issue through async_path.py l.38-122. *)
Inductive fsop : Type :=
| Mkdir (d : string)                 (* mkdir(exist_ok=False) *)
| Touch (d f : string)               (* open a file for writing *)
| WriteF (d f c : string)            (* the data arrives *)
| Unlink (d f : string)
| Rmdir (d : string)
| RmtreeOp (d : string)              (* a whole rmtree as one operation *)
| Rename (a b : string).

(** async_path.py l.113 is_dir (follows symbolic links). *)
Definition is_dir_node (x : node) : bool :=
  match x with Dir _ => true | Link _ => true | File => false end.

(** Effect of one operation (async_path.py l.38-122); [None]: it raises and
    changes nothing. *)
Definition apply_op (r : root) (o : fsop) : option root :=
  match o with
  | Mkdir d => match nget d r with None => Some (nput d (Dir []) r) | Some _ => None end
  | Touch d f =>
      match nget d r with
      | Some (Dir fs) =>
          Some (nput d (Dir (match fget f fs with None => fput f "" fs | Some _ => fs end)) r)
      | _ => None
      end
  | WriteF d f c =>
      match nget d r with
      | Some (Dir fs) => Some (nput d (Dir (fput f c fs)) r)
      | _ => None
      end
  | Unlink d f =>
      match nget d r with
      | Some (Dir fs) =>
          match fget f fs with None => None | Some _ => Some (nput d (Dir (fdel f fs)) r) end
      | _ => None
      end
  | Rmdir d => match nget d r with Some (Dir []) => Some (ndel d r) | _ => None end
  | RmtreeOp d => match nget d r with Some (Dir _) => Some (ndel d r) | _ => None end
  | Rename a b =>
      match nget a r with
      | None => None
      | Some x =>
          match nget b r with
          | None => Some (nput b x (ndel a r))
          | Some (Dir []) => Some (nput b x (ndel a r))
          | Some _ => None
          end
      end
  end.

(** Run operations until one raises (python control flow of CP l.195-302); the
    flag tells whether all succeeded. *)
Fixpoint run (r : root) (ops : list fsop) : root * bool :=
  match ops with
  | [] => (r, true)
  | o :: ops' => match apply_op r o with None => (r, false) | Some r' => run r' ops' end
  end.

(** * Commit protocols *)
(** AT l.445 AtomicRenameTemporaryPath, AT l.562 CommitFileTemporaryPath. *)
Inductive proto : Type := AtomicRename | CommitFile.

(** AT l.478-494 / l.610-629 from_final: the temporary path of a final path. *)
Definition tmp_of (p : proto) (final : string) : string :=
  match p with AtomicRename => get_tmp_name final | CommitFile => final end.

(** What the handler does inside the temporary directory (CP l.262, l.286:
    handler.save, handler.finalize; handlers only touch that directory). *)
Inductive hop : Type :=
| HTouch (f : string)
| HWrite (f c : string)
| HUnlink (f : string).

(** The same operation with its directory (CP l.263: the handler is given
    tmpdir.get()). *)
Definition hop_op (d : string) (h : hop) : fsop :=
  match h with
  | HTouch f => Touch d f
  | HWrite f c => WriteF d f c
  | HUnlink f => Unlink d f
  end.

(** A call [Checkpointer.save(name, force=...)] (CP l.195-302): the handler's file operations
    in save ([body]) and finalize ([fin]) and the three versions of the step
    metadata (at creation, after save, with the commit timestamp). *)
Record save_req : Type := mkReq {
  name : string; force : bool;
  body : list hop; fin : list hop;
  meta0 : string; meta1 : string; meta2 : string }.

Section Protocol.
  (** Whether rmtree is a single operation (object stores with folder deletion)
      or removes files one by one (shutil.rmtree), and in which order the
      directory scan returns the files. *)
  Variable rm_atomic : bool.
  Variable scan : files -> list string.

  (** path.rmtree() (_src/path/async_path.py l.94-102, CP l.255) *)
  Definition rm_ops (d : string) (x : node) : list fsop :=
    if rm_atomic then [RmtreeOp d]
    else match x with
         | Dir fs => map (Unlink d) (scan fs) ++ [Rmdir d]
         | _ => [RmtreeOp d]
         end.

  (** AT l.104-161 _create_tmp_directory, including the initial metadata. *)
  Definition create_ops (r : root) (tmp meta : string) : list fsop :=
    (match nget tmp r with Some x => rm_ops tmp x | None => [] end)
    ++ [Mkdir tmp; Touch tmp metadata_file; WriteF tmp metadata_file meta].

  (** AT l.522-552 (AtomicRename) and l.656-681 (CommitFile) finalize *)
  Definition finalize_ops (p : proto) (tmp final meta : string) : list fsop :=
    [Touch tmp metadata_file; WriteF tmp metadata_file meta;
     Touch tmp commit_file;
     WriteF tmp commit_file ("Checkpoint commit was successful to " ++ final)%string]
    ++ match p with AtomicRename => [Rename tmp final] | CommitFile => [] end.

  (** CP l.195-302 Checkpointer.save on the primary host, as the list of
      operations it performs when started in root [r]; [Err] is the ValueError
      of l.259 for an existing destination without force. *)
  Definition save_plan (p : proto) (r : root) (q : save_req) : result (list fsop) :=
    let final := name q in
    let tmp := tmp_of p final in
    let rest (r' : root) :=
      create_ops r' tmp (meta0 q)
      ++ map (hop_op tmp) (body q)
      ++ [Touch tmp metadata_file; WriteF tmp metadata_file (meta1 q)]
      ++ map (hop_op tmp) (fin q)
      ++ finalize_ops p tmp final (meta2 q) in
    match nget final r with
    | None => Ok (rest r)
    | Some x =>
        if force q then Ok (rm_ops final x ++ rest (ndel final r)) else Err ValueError
    end.

  (** AT l.575, l.587: the commit marker exists in the directory. *)
  Definition has_commit (x : node) : bool :=
    match x with
    | Dir fs | Link fs => match fget commit_file fs with Some _ => true | None => false end
    | File => false
    end.
  (** async_path.py l.121 is_link *)
  Definition is_link (x : node) : bool := match x with Link _ => true | _ => false end.

  (** AT l.412-428 and l.566-580 validate: is this a temporary path? *)
  Definition validate (p : proto) (n : string) (x : node) : bool :=
    match p with
    | AtomicRename => negb (is_link x) && str_in tmp_suffix n && is_dir_node x
    | CommitFile => negb (is_link x) && negb (has_commit x) && is_dir_node x
    end.

  (** AT l.431-442 and l.583-592 validate_final: is this a finished path? *)
  Definition validate_final (p : proto) (n : string) (x : node) : bool :=
    match p with
    | AtomicRename => negb (str_in tmp_suffix n) && is_dir_node x
    | CommitFile => has_commit x && is_dir_node x
    end.

  (** TP l.39-91 is_path_temporary; [legacy] is
      AtomicityOptions.allow_legacy_atomic_rename. *)
  Definition is_path_temporary (p : proto) (legacy : bool) (n : string) (r : root) : bool :=
    match nget n r with
    | None => false
    | Some x =>
        let legacy_final :=
          match p with
          | AtomicRename => false
          | CommitFile => legacy && validate_final AtomicRename n x
          end in
        if legacy_final then false else validate p n x
    end.

  (** TP l.94-146 is_path_finalized *)
  Definition is_path_finalized (p : proto) (legacy : bool) (n : string) (r : root) : bool :=
    match nget n r with
    | None => false
    | Some x =>
        validate_final p n x ||
        match p with
        | AtomicRename => false
        | CommitFile => legacy && validate_final AtomicRename n x
        end
    end.

  (** TP l.149-177 all_temporary_paths *)
  Definition all_temporary_paths (p : proto) (legacy : bool) (r : root) : list string :=
    filter (fun n => is_path_temporary p legacy n r) (map fst r).

  (** TP l.180-211 cleanup_temporary_paths on the primary host: the removals of
      all temporary paths (here one path after the other; [removal_of] below is
      the condition that also covers asyncio.gather's interleavings). *)
  Definition cleanup_plan (p : proto) (legacy : bool) (r : root) : list fsop :=
    flat_map (fun n => match nget n r with Some x => rm_ops n x | None => [] end)
             (all_temporary_paths p legacy r).
End Protocol.

(** A removal operation on a path of [ns]: what the concurrently running rmtree
    calls of TP l.209-211 on these paths may perform, in any order. *)
Definition removal_of (ns : list string) (o : fsop) : bool :=
  match o with
  | Unlink d _ | Rmdir d | RmtreeOp d => existsb (String.eqb d) ns
  | _ => false
  end.

(** * Histories with crashes *)

(** A save that is cut off after [k] operations ([k] beyond the end: no crash),
    and a cleanup whose concurrent removals [ops] got as far as they did (CP
    l.195-302 save, TP l.180-211 cleanup). *)
Inductive event : Type :=
| ESave (q : save_req) (k : nat)
| ECleanup (ops : list fsop).

(** One event acts on the root (CP l.195-302, TP l.180-211). *)
Definition do_event (rm_atomic : bool) (scan : files -> list string) (p : proto)
    (r : root) (e : event) : root :=
  match e with
  | ESave q k =>
      match save_plan rm_atomic scan p r q with
      | Err _ => r
      | Ok ops => fst (run r (firstn k ops))
      end
  | ECleanup ops =>
      (* only removals of currently temporary paths are performed *)
      if forallb (removal_of (all_temporary_paths p false r)) ops
      then fst (run r ops) else r
  end.

(** A history of saves and cleanups, each possibly cut short (CP l.195-302, TP
    l.180-211). *)
Fixpoint do_history (rm_atomic : bool) (scan : files -> list string) (p : proto)
    (r : root) (h : list event) : root :=
  match h with
  | [] => r
  | e :: h' => do_history rm_atomic scan p (do_event rm_atomic scan p r e) h'
  end.
